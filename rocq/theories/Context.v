(** * Model: the content id and the contexts of connections

    Code modelled (all under /repo/src):
    - [sr_lycc_lock] context_change.c 43-117, [sr_conn_ctx_switch] common.c
      3302-3341: when a connection notices a changed context;
    - [sr_connect] sysrepo.c 241-270: shared memory created from the registry
      file;
    - [sr_lydmods_print] lyd_mods.c 870-900: the content id stored in the
      registry file;
    - [_sr_install_modules] sysrepo.c 1407-1590, [sr_remove_modules]
      1755-1880, [sr_update_modules] 2026-2115, [sr_change_module_feature]
      2510-2620, [sr_set_module_replay_support] 2121-2160: which sets of
      modules they write where;
    - [sr_install_modules_check_features] sysrepo.c 1241-1312,
      [sr_lydmods_change_add_modules] lyd_mods.c 1141-1216.

    Simplifications: a context is the set of its modules with revisions and
    features; the content id is the set of modules it was computed of, that is
    a hash without collisions; every change succeeds (failures: Install.v),
    except for those that notice modules changed by others meanwhile; a wanted
    feature the module does not define is ignored (the code refuses it). *)

From Coq Require Import List Arith Bool.
Import ListNotations.

(** a module: name, revision, its features with whether they are enabled *)
Record module := M {
  m_name : nat;
  m_rev : nat;
  m_feats : list (nat * bool)
}.

Definition mset : Type := list module.

Definition feat_eqb (a b : nat * bool) : bool := (fst a =? fst b) && Bool.eqb (snd a) (snd b).

Fixpoint list_eqb {A} (f : A -> A -> bool) (a b : list A) : bool :=
  match a, b with
  | [], [] => true
  | x :: a', y :: b' => f x y && list_eqb f a' b'
  | _, _ => false
  end.

Definition module_eqb (a b : module) : bool :=
  (m_name a =? m_name b) && (m_rev a =? m_rev b) && list_eqb feat_eqb (m_feats a) (m_feats b).

Definition mset_eqb : mset -> mset -> bool := list_eqb module_eqb.

Definition mem (f : nat) (l : list nat) : bool := existsb (Nat.eqb f) l.

(** ** Changes of the set of modules *)

(** features of a request: a list of names or "*", sysrepo_types.h 182 *)
Inductive wanted := Names (l : list nat) | Star.

(** a request to install: name, revision, the features the module defines, the
    features wanted *)
Record request := Rq {
  q_name : nat;
  q_rev : nat;
  q_feats : list nat;
  q_want : wanted
}.

(** features of a new module, [lys_parse()] with the wanted features *)
Definition new_feats (q : request) : list (nat * bool) :=
  map (fun f => (f, match q_want q with Star => true | Names l => mem f l end)) (q_feats q).

(** [strcmp(f->name, new_mod->features[j])] 1271-1276: the name "*" is
    compared as any other *)
Definition listed (w : wanted) (f : nat) : bool :=
  match w with Names l => mem f l | Star => false end.

(** [new_mod->enable_features] is set: there is a disabled feature that is
    listed, 1287-1294; without one nothing changes (1297) *)
Definition to_enable (w : wanted) (fs : list (nat * bool)) : bool :=
  existsb (fun x => negb (snd x) && listed w (fst x)) fs.

(** registry: features enabled before and those to enable, lyd_mods.c
    1171-1179 *)
Definition reg_feats (w : wanted) (fs : list (nat * bool)) : list (nat * bool) :=
  map (fun x => (fst x, snd x || listed w (fst x))) fs.

(** [enabled_features[en_feat_count] = feature] 1279-1285: [feature] is NULL
    for a feature enabled before that is not listed *)
Definition feat_array (w : wanted) (fs : list (nat * bool)) : list (option nat) :=
  flat_map (fun x =>
    if snd x || listed w (fst x)
    then [if listed w (fst x) then Some (fst x) else None]
    else []) fs.

(** an array of names ends with the first NULL *)
Fixpoint cut (l : list (option nat)) : list nat :=
  match l with
  | Some f :: l' => f :: cut l'
  | _ => []
  end.

(** context: [sr_lys_set_implemented(new_mod->ly_mod, enabled_features)] 1301,
    exactly the listed features are enabled *)
Definition ctx_feats (w : wanted) (fs : list (nat * bool)) : list (nat * bool) :=
  map (fun x => (fst x, mem (fst x) (cut (feat_array w fs)))) fs.

Definition has (n : nat) (s : mset) : bool := existsb (fun m => m_name m =? n) s.

Definition set_feats (g : wanted -> list (nat * bool) -> list (nat * bool)) (q : request) (s : mset)
  : mset :=
  map (fun m => if (m_name m =? q_name q) && to_enable (q_want q) (m_feats m)
                then M (m_name m) (m_rev m) (g (q_want q) (m_feats m)) else m) s.

(** one request, in the registry ([reg_feats]) or in a context
    ([ctx_feats]) *)
Definition apply1 g (s : mset) (q : request) : mset :=
  if has (q_name q) s then set_feats g q s
  else s ++ [M (q_name q) (q_rev q) (new_feats q)].

Definition apply_reg (qs : list request) (s : mset) : mset := fold_left (apply1 reg_feats) qs s.
Definition apply_ctx (qs : list request) (s : mset) : mset := fold_left (apply1 ctx_feats) qs s.

Definition remove_mods (ns : list nat) (s : mset) : mset :=
  filter (fun m => negb (mem (m_name m) ns)) s.

Definition update_mod (n rev : nat) (s : mset) : mset :=
  map (fun m => if m_name m =? n then M n rev (m_feats m) else m) s.

Definition change_feat (n f : nat) (b : bool) (s : mset) : mset :=
  map (fun m => if m_name m =? n
                then M n (m_rev m) (map (fun x => if fst x =? f then (f, b) else x) (m_feats m))
                else m) s.

(** ** The system *)

(** a connection: its context, its content id, and the new context an
    installation of it has prepared *)
Record conn := C {
  c_ctx : mset;
  c_id : mset;
  c_new : option mset
}.

(** [s_lyd] modules in the registry file, [s_lid] content id in the file,
    [s_shm] modules in shared memory, [s_cid] content id in shared memory *)
Record state := St {
  s_lyd : mset;
  s_lid : mset;
  s_shm : mset;
  s_cid : mset;
  s_conns : nat -> option conn
}.

Definition put (f : nat -> option conn) (c : nat) (x : option conn) : nat -> option conn :=
  fun c' => if c' =? c then x else f c'.

(** [sr_lycc_lock] 63-101: the modules are loaded again if the ids differ *)
Definition lock (st : state) (k : conn) : conn :=
  if mset_eqb (s_cid st) (c_id k) then k else C (s_shm st) (s_cid st) (c_new k).

(** Events.  [EBegin] is the part of an installation before the context lock
    (sysrepo.c 1421-1430), [EInstall] the rest of it.  The connection's mapping of
    the shared memory is not renewed by [EBegin]: here everything still fits
    into it. *)
Inductive event :=
  | EConnect (c : nat)
  | EDisconnect (c : nat)
  | EUse (c : nat)
  | EBegin (c : nat)
  | EInstall (c : nat) (qs : list request)
  | ERemove (c : nat) (ns : list nat)
  | EUpdate (c n rev : nat)
  | EFeature (c n f : nat) (b : bool)
  | EReplay (c : nat)
  | ERestart.

(** [content_id = hash(new_ctx); sr_conn_ctx_switch(new_ctx)]; [lid] is the id
    written into the registry file *)
Definition commit (st : state) (c : nat) (reg lid nctx : mset) : state :=
  St reg lid reg nctx (put (s_conns st) c (Some (C nctx nctx None))).

Definition names (s : mset) : list nat := map m_name s.

Definition step (st : state) (e : event) : state :=
  match e with
  | EConnect c =>
      (* content id 0, so the modules are always loaded *)
      St (s_lyd st) (s_lid st) (s_shm st) (s_cid st)
         (put (s_conns st) c (Some (C (s_shm st) (s_cid st) None)))
  | EDisconnect c =>
      St (s_lyd st) (s_lid st) (s_shm st) (s_cid st) (put (s_conns st) c None)
  | EUse c =>
      match s_conns st c with
      | None => st
      | Some k => St (s_lyd st) (s_lid st) (s_shm st) (s_cid st) (put (s_conns st) c (Some (lock st k)))
      end
  | EBegin c =>
      match s_conns st c with
      | None => st
      | Some k => St (s_lyd st) (s_lid st) (s_shm st) (s_cid st)
                     (put (s_conns st) c (Some (C (c_ctx k) (c_id k) (Some (s_shm st)))))
      end
  | EInstall c qs =>
      match s_conns st c with
      | Some k =>
          match c_new k with
          | None => st
          | Some b =>
              let k' := lock st (C (c_ctx k) (c_id k) None) in
              let same := St (s_lyd st) (s_lid st) (s_shm st) (s_cid st) (put (s_conns st) c (Some k')) in
              if mset_eqb (apply_reg qs b) b then same
              else if forallb (fun n => mem n (names (s_lyd st))) (names b) then
                     if forallb (fun n => mem n (names b)) (names (s_lyd st)) then
                       commit st c (apply_reg qs (s_lyd st)) (apply_ctx qs b) (apply_ctx qs b)
                     else (* a module of the registry is not in the context:
                             internal error, lyd_mods.c 814-815 *)
                       same
                   else (* a module of the context is not in shared memory: the
                           registry is written, then the process dies on
                           [shm_mod] NULL, context_change.c 799-802 *)
                     St (apply_reg qs (s_lyd st)) (apply_ctx qs b) (s_shm st) (s_cid st)
                        (put (s_conns st) c None)
          end
      | None => st
      end
  | ERemove c ns =>
      match s_conns st c with
      | None => st
      | Some k => commit st c (remove_mods ns (s_lyd st)) (c_ctx (lock st k)) (remove_mods ns (s_shm st))
      end
  | EUpdate c n rev =>
      match s_conns st c with
      | None => st
      | Some k => commit st c (update_mod n rev (s_lyd st)) (c_ctx (lock st k)) (update_mod n rev (s_shm st))
      end
  | EFeature c n f b =>
      match s_conns st c with
      | None => st
      | Some k => commit st c (change_feat n f b (s_lyd st)) (c_ctx (lock st k)) (change_feat n f b (s_shm st))
      end
  | EReplay c =>
      match s_conns st c with
      | None => st
      | Some k => let k' := lock st k in
                  St (s_lyd st) (c_ctx k') (s_shm st) (s_cid st) (put (s_conns st) c (Some k'))
      end
  | ERestart => St (s_lyd st) (s_lid st) (s_lyd st) (s_lid st) (fun _ => None)
  end.

Definition run (es : list event) (st : state) : state := fold_left step es st.

(** Freshly installed sysrepo with the modules [s], nobody connected. *)
Definition start (s : mset) : state := St s s s s (fun _ => None).
