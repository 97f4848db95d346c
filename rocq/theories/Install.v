(** * Model: installing, removing and updating modules

    Code modelled (all under /repo/src):
    - [_sr_install_modules] sysrepo.c 1407-1590;
    - [sr_remove_modules] sysrepo.c 1755-1880;
    - [sr_update_modules] sysrepo.c 2026-2115;
    - [sr_lycc_add_module_cb_install] / [sr_lycc_add_modules] /
      [sr_lycc_add_modules_revert] context_change.c 205-342;
    - [sr_lycc_del_module] context_change.c 377-455, [sr_lycc_upd_modules]
      508-533;
    - [sr_lycc_update_data] 810-905 and [sr_lycc_update_data_init_ds_load]
      705-770 (which callbacks they call), [sr_lycc_store_data_if_differ]
      918-1030;
    - [sr_lydmods_change_add_modules] lyd_mods.c 1141, [.._del_module]
      1218-1282, [.._upd_modules] 1284-1347, [sr_lydmods_add_deps_all]
      790-868;
    - [sr_shmmod_store_modules] shm_mod.c 775-852.

    Simplifications: a module is a name with a revision; features, owners and
    replay support are left out; the YANG files of a module (with submodules
    and imports) are one file; the data of a module in a datastore are a
    number; what the dependencies of a module are in a context ([deps]), which
    datastores it has a plugin for ([en]) and which data it has after a change
    ([upd]) are parameters.  Everything happens with the context locked for
    writing, so no other client is modelled here.  Every call that leaves the
    library (plugin callbacks, writing files, resizing shared memory, parsing
    and validating data) may fail or may never return (the process dies). *)

From Coq Require Import List Arith Bool.
Import ListNotations.

(** What happens in the n-th call of an operation. *)
Inductive outcome := Good | Fails | Dies.

(** How an operation ends: it succeeds, it returns an error, or the process
    died on the way. *)
Inductive res := ROk | RFail | RDead.

(** sysrepo_types.h 121-127 *)
Inductive ds := Startup | Running | Candidate | Operational | Factory.

Definition ds_eqb (a b : ds) : bool :=
  match a, b with
  | Startup, Startup | Running, Running | Candidate, Candidate
  | Operational, Operational | Factory, Factory => true
  | _, _ => false
  end.

(** SR_DS_READ_COUNT datastores, sysrepo_types.h 137; loops
    [for (ds = 0; ds < SR_DS_READ_COUNT; ++ds)] *)
Definition all_ds : list ds := [Startup; Running; Candidate; Operational; Factory].

(** the datastores whose data are updated: context_change.c 828-850 and
    1004-1030 *)
Definition upd_ds : list ds := [Startup; Running; Factory].

(** a module: name and revision *)
Definition md : Type := (nat * nat)%type.

Definition md_eqb (a b : md) : bool :=
  (fst a =? fst b) && (snd a =? snd b).

(** the module registry, "sysrepo" module data (lydmods) or its copy in shared
    memory: every module with the modules its data depend on *)
Definition registry : Type := list (md * list nat).

(** Everything that outlives the operation.  [w_lyd] registry file, [w_shm]
    registry in shared memory, [w_inst] the datastore plugin has the module
    installed, [w_yang] YANG file exists, [w_dat] data of a module, [w_push]
    operational data pushed for a module, [w_cid] content id in shared memory
    (the set of modules it was computed of), [w_ctx] context of the
    connection. *)
Record world := W {
  w_lyd : registry;
  w_shm : registry;
  w_inst : nat -> ds -> bool;
  w_yang : md -> bool;
  w_dat : nat -> ds -> option nat;
  w_push : nat -> bool;
  w_cid : list md;
  w_ctx : list md
}.

(** The world and the flags [installed[ds]] and [yangs_stored] of the new
    modules, common.h 205-220. *)
Record run := Rn {
  r_w : world;
  r_flg : list (nat * ds);
  r_yflg : list md
}.

Definition has_flg (m : nat) (d : ds) (l : list (nat * ds)) : bool :=
  existsb (fun x => (fst x =? m) && ds_eqb (snd x) d) l.

Definition has_md (m : md) (l : list md) : bool := existsb (md_eqb m) l.

Definition upd2 {A} (f : nat -> ds -> A) (m : nat) (d : ds) (v : A) : nat -> ds -> A :=
  fun m' d' => if (m' =? m) && ds_eqb d' d then v else f m' d'.

Definition upd_md (f : md -> bool) (m : md) (v : bool) : md -> bool :=
  fun m' => if md_eqb m' m then v else f m'.

Definition upd_n (f : nat -> bool) (m : nat) (v : bool) : nat -> bool :=
  fun m' => if m' =? m then v else f m'.

(** One external call.
    - [ACheck]: parsing, compiling, validating, loading;
    - [ALyd]: writing the registry file (lyd_mods.c 870-900);
    - [AShm]: writing the registry into shared memory;
    - [AInst]: install_cb and init_cb, context_change.c 238-251;
    - [ARevert]: uninstall_cb of a module with the flag, 312-330;
    - [AUninst]: uninstall_cb of a removed module, 421-425;
    - [AYang]: storing the YANG file, 284-288;
    - [ARevYang]: removing it if it was stored, 332-338;
    - [AUnyang]: removing it, common.c 547-603;
    - [ADat]: store_cb if the data differ, 975-990;
    - [APush]: deleting pushed operational data, sysrepo.c 1822-1827. *)
Inductive act :=
  | ACheck
  | ALyd (reg : registry)
  | AShm (reg : registry)
  | AInst (m : nat) (d : ds)
  | ARevert (m : nat) (d : ds)
  | AUninst (m : nat) (d : ds)
  | AYang (m : md)
  | ARevYang (m : md)
  | AUnyang (m : md)
  | ADat (m : nat) (d : ds) (v : option nat)
  | APush (m : nat).

Definition opt_eqb (a b : option nat) : bool :=
  match a, b with
  | None, None => true
  | Some x, Some y => x =? y
  | _, _ => false
  end.

(** The call is not made: [if (new_mod->installed[ds] && !ds_handle)] 222 and
    231, [if (!new_mods[i].installed[ds])] 313, [if (new_mods[i].yangs_stored)]
    332, [if (diff)] 985. *)
Definition skip (a : act) (r : run) : bool :=
  match a with
  | AInst m d => has_flg m d (r_flg r)
  | ARevert m d => negb (has_flg m d (r_flg r))
  | ARevYang m => negb (has_md m (r_yflg r))
  | ADat m d v => opt_eqb (w_dat (r_w r) m d) v
  | _ => false
  end.

Definition set_lyd (w : world) (x : registry) :=
  W x (w_shm w) (w_inst w) (w_yang w) (w_dat w) (w_push w) (w_cid w) (w_ctx w).
Definition set_shm (w : world) (x : registry) :=
  W (w_lyd w) x (w_inst w) (w_yang w) (w_dat w) (w_push w) (w_cid w) (w_ctx w).
Definition set_inst (w : world) m d (b : bool) (v : option nat) :=
  W (w_lyd w) (w_shm w) (upd2 (w_inst w) m d b) (w_yang w) (upd2 (w_dat w) m d v)
    (w_push w) (w_cid w) (w_ctx w).
Definition set_yang (w : world) m (b : bool) :=
  W (w_lyd w) (w_shm w) (w_inst w) (upd_md (w_yang w) m b) (w_dat w) (w_push w)
    (w_cid w) (w_ctx w).
Definition set_dat (w : world) m d v :=
  W (w_lyd w) (w_shm w) (w_inst w) (w_yang w) (upd2 (w_dat w) m d v) (w_push w)
    (w_cid w) (w_ctx w).
Definition set_push (w : world) m b :=
  W (w_lyd w) (w_shm w) (w_inst w) (w_yang w) (w_dat w) (upd_n (w_push w) m b)
    (w_cid w) (w_ctx w).
(** [content_id = ly_ctx_get_modules_hash(new_ctx); sr_conn_ctx_switch()],
    sysrepo.c 1534-1536, 1861-1863, 2099-2101 *)
Definition set_ctx (w : world) (c : list md) :=
  W (w_lyd w) (w_shm w) (w_inst w) (w_yang w) (w_dat w) (w_push w) c c.

(** What a successful call does.  A module just installed has empty data. *)
Definition eff (a : act) (r : run) : run :=
  match a with
  | ACheck => r
  | ALyd reg => Rn (set_lyd (r_w r) reg) (r_flg r) (r_yflg r)
  | AShm reg => Rn (set_shm (r_w r) reg) (r_flg r) (r_yflg r)
  | AInst m d => Rn (set_inst (r_w r) m d true (Some 0)) ((m, d) :: r_flg r) (r_yflg r)
  | ARevert m d =>
      Rn (set_inst (r_w r) m d false None)
         (filter (fun x => negb ((fst x =? m) && ds_eqb (snd x) d)) (r_flg r)) (r_yflg r)
  | AUninst m d => Rn (set_inst (r_w r) m d false None) (r_flg r) (r_yflg r)
  | AYang m => Rn (set_yang (r_w r) m true) (r_flg r) (m :: r_yflg r)
  | ARevYang m =>
      Rn (set_yang (r_w r) m false) (r_flg r) (filter (fun x => negb (md_eqb m x)) (r_yflg r))
  | AUnyang m => Rn (set_yang (r_w r) m false) (r_flg r) (r_yflg r)
  | ADat m d v => Rn (set_dat (r_w r) m d v) (r_flg r) (r_yflg r)
  | APush m => Rn (set_push (r_w r) m false) (r_flg r) (r_yflg r)
  end.

(** A call with the [k]-th outcome of [o].  install_cb is followed by
    init_cb, with the flag set in between (245).  A file that cannot be
    unlinked is only logged (common.c 564-567). *)
Definition exec1 (o : nat -> outcome) (a : act) (r : run) (k : nat) : run * nat * res :=
  if skip a r then (r, k, ROk)
  else match o k with
       | Dies => (r, k + 1, RDead)
       | Fails =>
           match a with
           | ARevYang _ | AUnyang _ => (r, k + 1, ROk)
           | _ => (r, k + 1, RFail)
           end
       | Good =>
           match a with
           | AInst _ _ =>
               match o (k + 1) with
               | Good => (eff a r, k + 2, ROk)
               | Fails => (eff a r, k + 2, RFail)
               | Dies => (eff a r, k + 2, RDead)
               end
           | _ => (eff a r, k + 1, ROk)
           end
       end.

(** Calls one after another, up to the first that fails ([goto cleanup]). *)
Fixpoint exec (o : nat -> outcome) (l : list act) (r : run) (k : nat) : run * nat * res :=
  match l with
  | [] => (r, k, ROk)
  | a :: l' =>
      match exec1 o a r k with
      | (r', k', ROk) => exec o l' r' k'
      | x => x
      end
  end.

Section Ops.
Variable deps : list md -> md -> list nat.  (** dependencies of a module in a context *)
Variable en : nat -> ds -> bool.            (** the module has a plugin for the datastore *)

Definition has_name (m : nat) (l : list md) : bool := existsb (fun x => fst x =? m) l.

(** [sr_lydmods_add_deps_all] lyd_mods.c 790-868: every module of the registry
    must be in the context (810-811) and every module depended on must be in
    the registry; if it is not, [sr_mod2] is NULL (ly_wrap.c 1092) and
    [sr_lyd_new_term(NULL, NULL, ..)] fails and reads [mod->ctx] of NULL
    (ly_wrap.c 682), the process dies. *)
Definition add_deps (c ms : list md) : option registry :=
  if forallb (fun m => has_name (fst m) c && forallb (fun t => has_name t ms) (deps c m)) ms
  then Some (map (fun m => (m, deps c m)) ms)
  else None.

(** [ALyd] with the dependencies computed *)
Definition write_lyd (o : nat -> outcome) (c ms : list md) (r : run) (k : nat)
  : run * nat * res * registry :=
  match add_deps c ms with
  | None => (r, k, RDead, [])
  | Some reg =>
      match exec1 o (ALyd reg) r k with
      | (r', k', x) => (r', k', x, reg)
      end
  end.

(** ** Installation *)

(** calls of [sr_lycc_update_data]: without initial data every new module is
    installed and loaded, datastore by datastore (context_change.c 822-850,
    718-733); then all is validated *)
Definition update_acts (init : bool) (new : list md) : list act :=
  (if init then []
   else flat_map (fun d =>
          flat_map (fun m => if en (fst m) d then [AInst (fst m) d; ACheck] else []) new) upd_ds)
  ++ [ACheck].

(** [sr_lycc_add_modules] 263-290 *)
Definition finish_acts (new : list md) : list act :=
  flat_map (fun m =>
    flat_map (fun d => if en (fst m) d then [AInst (fst m) d] else []) all_ds ++ [AYang m]) new.

(** [sr_lycc_add_modules_revert] 297-342 *)
Definition revert_acts (new : list md) : list act :=
  flat_map (fun m => map (fun d => ARevert (fst m) d) all_ds ++ [ARevYang m]) new.

(** [sr_lycc_store_data_if_differ] 918-1030 for the modules of the new
    context *)
Definition store_acts (upd : nat -> ds -> option nat) (ms : list md) : list act :=
  flat_map (fun d =>
    flat_map (fun m => if en (fst m) d then [ADat (fst m) d (upd (fst m) d)] else []) ms) upd_ds.

(** Label [cleanup] of [_sr_install_modules] with an error, 1566-1570 *)
Definition cleanup (o : nat -> outcome) (new : list md) (r : run) (k : nat) : run * res :=
  match exec o (revert_acts new) r k with
  | (r', _, RDead) => (r', RDead)
  | (r', _, _) => (r', RFail)
  end.

(** Label [error], 1540-1564: the registry is written again without the new
    modules, but with the dependencies they have in the new context; the
    registry in shared memory only if it was changed. *)
Definition error (o : nat -> outcome) (changed : bool) (ms new : list md) (r : run) (k : nat)
  : run * res :=
  match write_lyd o (ms ++ new) ms r k with
  | (r1, _, RDead, _) => (r1, RDead)
  | (r1, k1, RFail, _) => cleanup o new r1 k1
  | (r1, k1, ROk, reg) =>
      if changed then
        match exec1 o (AShm reg) r1 k1 with
        | (r2, _, RDead) => (r2, RDead)
        | (r2, k2, _) => cleanup o new r2 k2
        end
      else cleanup o new r1 k1
  end.

(** [_sr_install_modules] 1407-1590.  [checks] is the number of calls before
    anything is changed (1422-1508). *)
Definition install (o : nat -> outcome) (checks : nat) (init : bool)
    (upd : nat -> ds -> option nat) (ms new : list md) (w : world) : run * res :=
  match exec o (repeat ACheck checks) (Rn w [] []) 0 with
  | (r, _, RDead) => (r, RDead)
  | (r, k, RFail) => cleanup o new r k
  | (r, k, ROk) =>
  match write_lyd o (ms ++ new) (ms ++ new) r k with
  | (r, _, RDead, _) => (r, RDead)
  | (r, k, RFail, _) => cleanup o new r k
  | (r, k, ROk, reg) =>
  match exec o (update_acts init new) r k with
  | (r, _, RDead) => (r, RDead)
  | (r, k, RFail) => error o false ms new r k
  | (r, k, ROk) =>
  match exec1 o (AShm reg) r k with
  | (r, _, RDead) => (r, RDead)
  | (r, k, RFail) => error o false ms new r k
  | (r, k, ROk) =>
  match exec o (finish_acts new) r k with
  | (r, _, RDead) => (r, RDead)
  | (r, k, RFail) =>
      (* reverts itself, 290-293 *)
      match exec o (revert_acts new) r k with
      | (r, _, RDead) => (r, RDead)
      | (r, k, _) => error o true ms new r k
      end
  | (r, k, ROk) =>
  match exec o (store_acts upd (ms ++ new)) r k with
  | (r, _, RDead) => (r, RDead)
  | (r, k, RFail) => error o true ms new r k
  | (r, k, ROk) => (Rn (set_ctx (r_w r) (ms ++ new)) (r_flg r) (r_yflg r), ROk)
  end end end end end end.

(** ** Removal *)

Definition without (del : list md) (ms : list md) : list md :=
  filter (fun m => negb (has_md m del)) ms.

(** [sr_lycc_del_module] 377-455 *)
Definition del_acts (del : list md) : list act :=
  flat_map (fun m =>
    flat_map (fun d => if en (fst m) d then [AUninst (fst m) d] else []) all_ds ++ [AUnyang m]) del.

(** [sr_remove_modules] 1755-1880: pushed operational data are deleted first;
    no step is reverted. *)
Definition remove (o : nat -> outcome) (checks : nat) (upd : nat -> ds -> option nat)
    (ms del : list md) (w : world) : run * res :=
  match exec o (repeat ACheck checks ++ map (fun m => APush (fst m)) del ++ [ACheck])
             (Rn w [] []) 0 with
  | (r, k, ROk) =>
  match write_lyd o (without del ms) (without del ms) r k with
  | (r, k, ROk, reg) =>
  match exec o (AShm reg :: del_acts del ++ store_acts upd (without del ms)) r k with
  | (r, k, ROk) => (Rn (set_ctx (r_w r) (without del ms)) (r_flg r) (r_yflg r), ROk)
  | (r, _, x) => (r, x)
  end
  | (r, _, x, _) => (r, x)
  end
  | (r, _, x) => (r, x)
  end.

(** ** Update *)

(** the modules with the new revisions *)
Definition newrev (ups : list (md * nat)) (m : md) : md :=
  match find (fun u => md_eqb (fst u) m) ups with
  | Some u => (fst m, snd u)
  | None => m
  end.

(** [sr_lycc_upd_modules] 508-533: the old file is removed before the new one
    is stored *)
Definition upd_acts (ups : list (md * nat)) : list act :=
  flat_map (fun u => [AUnyang (fst u); AYang (fst (fst u), snd u)]) ups.

(** [sr_update_modules] 2026-2115; no step is reverted. *)
Definition update (o : nat -> outcome) (checks : nat) (upd : nat -> ds -> option nat)
    (ms : list md) (ups : list (md * nat)) (w : world) : run * res :=
  let ms' := map (newrev ups) ms in
  match exec o (repeat ACheck checks ++ [ACheck]) (Rn w [] []) 0 with
  | (r, k, ROk) =>
  match write_lyd o ms' ms' r k with
  | (r, k, ROk, reg) =>
  match exec o (AShm reg :: upd_acts ups ++ store_acts upd ms') r k with
  | (r, k, ROk) => (Rn (set_ctx (r_w r) ms') (r_flg r) (r_yflg r), ROk)
  | (r, _, x) => (r, x)
  end
  | (r, _, x, _) => (r, x)
  end
  | (r, _, x) => (r, x)
  end.

End Ops.
