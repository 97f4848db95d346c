(** Permissions of users for data of modules.

    Modelled: src/common.c 1299-1335 (sr_perm_check()), 5397-5432
    (sr_module_file_data_append()), 3069-3180 (sr_conn_run_cache_update()); src/modinfo.c
    488-527 (sr_modinfo_perm_check()), 2948-3028 (sr_modinfo_data_load()), 3080-3085,
    3378-3455 (sr_modinfo_get_filter()), 3837-3925 (sr_modinfo_data_store(),
    sr_modinfo_candidate_reset()); src/sysrepo.c 2231-2333 (sr_set_module_ds_access()),
    3290-3310 (sr_get_data()), 3975-4115 (sr_changes_notify_store()), 4158-4230
    (sr_apply_oper_changes()), 4245-4300 (sr_apply_changes()), 4500-4605 (sr_copy_config());
    src/plugins/ds_json.c 60-130, 370-425, 665-890; src/plugins/common_json.c 171-232,
    410-455; src/plugins/ds_redis.c 3574-3740 (ds_mongo.c 3221-3375 is the same).

    Users, groups and modules are numbers (names of users and groups correspond to them).
    Contents of a module in a datastore are a number, its selection by an XPath is whether
    the module is selected.  Simplified: permissions of directories (but the sticky bit of
    the one of SHM files) are not modelled; files of pushed operational data are only
    written, by their sessions; factory-default is as startup; backups are in JsonStore.v;
    validation and subscribers are in Apply.v, here validation only adds changed modules. *)
From Coq Require Import NArith List Bool.
Import ListNotations.
Local Open Scope N_scope.

Record user := User { ruid : N; euid : N; rgid : N; egid : N; sup : list N }.
Record acc := Acc { owner : N; group : N; perm : N }.
Inductive plugin := Json | Db.
Inductive ds := Startup | Running | Candidate | Operational | Factory.
Definition ds_eqb (a b : ds) : bool :=
  match a, b with
  | Startup, Startup | Running, Running | Candidate, Candidate | Operational, Operational | Factory, Factory => true
  | _, _ => false
  end.

Definition mem (x : N) (l : list N) : bool := existsb (N.eqb x) l.

(** S_IRUSR ... S_IWOTH *)
Definition usr_bit (a : acc) (w : bool) : bool := N.testbit (perm a) (if w then 7 else 8).
Definition grp_bit (a : acc) (w : bool) : bool := N.testbit (perm a) (if w then 4 else 5).
Definition oth_bit (a : acc) (w : bool) : bool := N.testbit (perm a) (if w then 1 else 2).

(** eaccess() and open() of the system *)
Definition eaccess (u : user) (a : acc) (w : bool) : bool :=
  if euid u =? 0 then true
  else if euid u =? owner a then usr_bit a w
  else if (egid u =? group a) || mem (group a) (sup u) then grp_bit a w
  else oth_bit a w.

(** srpds_redis_access_check(), ds_redis.c 3690-3731 *)
Definition db_check (u : user) (a : acc) (w : bool) : bool :=
  let is_owner := owner a =? ruid u in
  let in_group := group a =? rgid u in
  (is_owner && usr_bit a w) || (in_group && grp_bit a w) || (negb is_owner && negb in_group && oth_bit a w).

Record state := St {
  pl : N -> ds -> plugin;
  norun : N -> bool;                (* running disabled *)
  sticky : bool;                    (* of the directory of SHM files *)
  umask : N;                        (* SR_UMASK *)
  sgroup : option N;                (* SR_GROUP *)
  caching : bool;                   (* SR_CONN_CACHE_RUNNING of the connection *)
  s_acc : N -> ds -> acc;           (* of permission files or of startup files; in the database *)
  s_file : N -> ds -> option acc;   (* files of data; of a database: whether there are data *)
  s_val : N -> ds -> N;             (* data *)
  s_push : N -> N -> option N;      (* operational data pushed by sessions *)
  s_cache : list (N * N)            (* running data in the cache of the connection *)
}.

Definition upd2 {A : Type} (f : N -> ds -> A) (m : N) (d : ds) (v : A) : N -> ds -> A :=
  fun m' d' => if (m =? m') && ds_eqb d d' then v else f m' d'.

Definition set_acc (s : state) (x : N -> ds -> acc) : state :=
  St (pl s) (norun s) (sticky s) (umask s) (sgroup s) (caching s) x (s_file s) (s_val s) (s_push s) (s_cache s).
Definition set_file (s : state) (x : N -> ds -> option acc) : state :=
  St (pl s) (norun s) (sticky s) (umask s) (sgroup s) (caching s) (s_acc s) x (s_val s) (s_push s) (s_cache s).
Definition set_val (s : state) (x : N -> ds -> N) : state :=
  St (pl s) (norun s) (sticky s) (umask s) (sgroup s) (caching s) (s_acc s) (s_file s) x (s_push s) (s_cache s).
Definition set_push (s : state) (x : N -> N -> option N) : state :=
  St (pl s) (norun s) (sticky s) (umask s) (sgroup s) (caching s) (s_acc s) (s_file s) (s_val s) x (s_cache s).
Definition set_cache (s : state) (x : list (N * N)) : state :=
  St (pl s) (norun s) (sticky s) (umask s) (sgroup s) (caching s) (s_acc s) (s_file s) (s_val s) (s_push s) x.

(** 'running' disabled, use 'startup' (common.c 1310, 5415, modinfo.c 3856) *)
Definition eds (s : state) (m : N) (d : ds) : ds :=
  match d with Running => if norun s m then Startup else Running | _ => d end.

(** sr_perm_check() *)
Definition perm_check (u : user) (s : state) (m : N) (d : ds) (w : bool) : bool :=
  let d' := eds s m d in
  match pl s m d' with
  | Json => eaccess u (s_acc s m d') w
  | Db => db_check u (s_acc s m d') w
  end.

(** sr_modinfo_perm_check(), not strict: the array with its modules that are checked *)
Fixpoint perm_loop (ok : N -> bool) (fuel : nat) (i : nat) (mods : list (N * bool)) : list (N * bool) :=
  match fuel with
  | O => mods
  | S f =>
      match nth_error mods i with
      | None => mods
      | Some (m, req) =>
          if req && negb (ok m) then perm_loop ok f i (firstn i mods ++ skipn (S i) mods)
          else perm_loop ok f (S i) mods
      end
  end.

(** strict *)
Fixpoint perm_strict (ok : N -> bool) (mods : list (N * bool)) : bool :=
  match mods with
  | [] => true
  | (m, req) :: l => if req && negb (ok m) then false else perm_strict ok l
  end.

(** The file of data; startup and factory-default always have one, with the permissions *)
Definition file_of (s : state) (m : N) (d : ds) : option acc :=
  match d with Startup | Factory => Some (s_acc s m d) | _ => s_file s m d end.

Definition modified (s : state) (m : N) : bool := match s_file s m Candidate with Some _ => true | None => false end.

(** sr_module_file_data_append(): the datastore that is read (operational data are based
    on running ones) *)
Definition load_ds (s : state) (m : N) (d : ds) : ds :=
  match d with
  | Candidate => if modified s m then Candidate else eds s m Running
  | Operational => eds s m Running
  | _ => eds s m d
  end.

(** srpds_json_load() opens the file with the permissions of the process; a module
    without a running file has no data *)
Definition open_ok (u : user) (s : state) (m : N) (d : ds) (w : bool) : bool :=
  match pl s m d with
  | Db => true
  | Json => match file_of s m d with
            | Some a => eaccess u a w
            | None => match d with Running => negb w | _ => false end
            end
  end.

Definition load (u : user) (s : state) (m : N) (d : ds) : option N :=
  let d' := load_ds s m d in
  if open_ok u s m d' false then Some (s_val s m d') else None.

Fixpoint load_all (u : user) (s : state) (d : ds) (l : list N) : option (list (N * N)) :=
  match l with
  | [] => Some []
  | m :: l' =>
      match load u s m d with
      | None => None
      | Some v => match load_all u s d l' with None => None | Some r => Some ((m, v) :: r) end
      end
  end.

Fixpoint lookup (m : N) (c : list (N * N)) : option N :=
  match c with [] => None | (x, v) :: c' => if m =? x then Some v else lookup m c' end.
Definition cache_set (c : list (N * N)) (m v : N) : list (N * N) := (m, v) :: filter (fun e => negb (fst e =? m)) c.

(** sr_conn_run_cache_update(): modules that are not current are loaded (a cache ID
    is current only with the same data, RunCache.v) *)
Fixpoint cache_all (u : user) (s : state) (l : list N) : option state :=
  match l with
  | [] => Some s
  | m :: l' =>
      if match lookup m (s_cache s) with Some v => v =? s_val s m (eds s m Running) | None => false end
      then cache_all u s l'
      else match load u s m Running with
           | None => None
           | Some v => cache_all u (set_cache s (cache_set (s_cache s) m v)) l'
           end
  end.

Definition use_cache (s : state) (d : ds) : bool := caching s && ds_eqb d Running.

Inductive res := Data (l : list (N * N)) | Err.

(** sr_get_data() of modules [q], [sel] are selected by the XPath *)
Definition get (u : user) (s : state) (d : ds) (q : list N) (sel : N -> bool) : state * res :=
  match perm_loop (fun m => perm_check u s m d false) (length q) 0 (map (fun m => (m, true)) q) with
  | [] => (s, Data [])
  | mods =>
      if use_cache s d then
        match cache_all u s (map fst mods) with
        | None => (s, Err)
        | Some s' => (s', Data (filter (fun e => sel (fst e)) (s_cache s')))
        end
      else
        match load_all u s d (map fst mods) with
        | None => (s, Err)
        | Some l => (s, Data (filter (fun e => sel (fst e)) l))
        end
  end.

(** srpds_json_store() and sr_modinfo_data_store() of a module *)
Definition may_group (u : user) (g : N) : bool := (euid u =? 0) || (g =? egid u) || mem g (sup u).
Definition store (u : user) (s : state) (sid : N) (m : N) (d : ds) (v : N) : option state :=
  match d with
  | Operational => Some (set_push s (fun a b => if (a =? sid) && (b =? m) then Some v else s_push s a b))
  | _ =>
      let d' := eds s m d in
      let s1 := set_val s (upd2 (s_val s) m d' v) in
      let s2 := if use_cache s d then set_cache s1 (cache_set (s_cache s1) m v) else s1 in
      match pl s m d' with
      | Db => Some (set_file s2 (upd2 (s_file s) m d' (Some (s_acc s m d'))))
      | Json =>
          match file_of s m d' with
          | Some a => if eaccess u a true then Some s2 else None
          | None =>
              let g := match sgroup s with Some g => g | None => egid u end in
              if may_group u g
              then Some (set_file s2 (upd2 (s_file s) m d' (Some (Acc (euid u) g (N.ldiff (perm (s_acc s m d')) (umask s))))))
              else None
          end
      end
  end.

(** The first error ends it *)
Fixpoint store_all (u : user) (s : state) (sid : N) (d : ds) (l : list (N * N)) : state * bool :=
  match l with
  | [] => (s, true)
  | (m, v) :: l' => match store u s sid m d v with None => (s, false) | Some s' => store_all u s' sid d l' end
  end.

(** sr_apply_changes() and sr_changes_notify_store(): [req] modules of the edit, [deps]
    others loaded, [chg] modules changed with their new data, also by validation,
    [notify]: there is a difference of operational data.  Returns whether it succeeded and
    whether events were sent to subscribers *)
Definition prepare (u : user) (s : state) (d : ds) (l : list N) : option state :=
  match d with
  | Operational => Some s
  | _ => if use_cache s d then cache_all u s l
         else match load_all u s d l with None => None | Some _ => Some s end
  end.

Definition apply (u : user) (s : state) (sid : N) (d : ds) (req deps : list N) (chg : list (N * N)) (notify : bool)
  : state * bool * bool :=
  match prepare u s d (req ++ deps) with
  | None => (s, false, false)
  | Some s1 =>
      let n := match d with Operational => notify | _ => negb (match chg with [] => true | _ => false end) end in
      if n then
        if perm_strict (fun m => perm_check u s m d true) (map (fun m => (m, true)) (req ++ map fst chg))
        then (store_all u s1 sid d chg, true)
        else (s1, false, false)
      else (store_all u s1 sid d chg, false)
  end.

(** srpds_json_candidate_reset(): errors of unlink() are ignored *)
Definition reset (u : user) (s : state) (m : N) : state :=
  match s_file s m Candidate with
  | None => s
  | Some a =>
      let gone := match pl s m Candidate with
                  | Db => true
                  | Json => negb (sticky s) || (euid u =? 0) || (euid u =? owner a)
                  end in
      if gone then set_file s (upd2 (s_file s) m Candidate None) else s
  end.

(** sr_copy_config() of a module *)
Definition copy (u : user) (s : state) (m : N) (src dst : ds) : state * bool :=
  match src, dst with
  | Running, Candidate => (reset u s m, true)
  | _, _ =>
      match prepare u s src [m], load u s m src with
      | Some s1, Some v =>
          let chg := if v =? s_val s1 m (load_ds s1 m dst) then [] else [(m, v)] in
          let '(s2, ok, _) := apply u s1 0 dst [m] [] chg false in
          (if ok then match src, dst with Candidate, Running => reset u s2 m | _, _ => s2 end else s2, ok)
      | _, _ => (s, false)
      end
  end.

(** * Changing permissions *)

Record change := Ch { n_owner : option N; n_group : option N; n_perm : N }.

(** chown(), -1 for what is not to be changed *)
Definition chown_ok (u : user) (a : acc) (c : change) : bool :=
  (euid u =? 0) ||
  (match n_owner c with None => true | Some o => (euid u =? owner a) && (o =? owner a) end &&
   match n_group c with None => true
   | Some g => (euid u =? owner a) && ((g =? group a) || (g =? egid u) || mem g (sup u)) end).
Definition chown (a : acc) (c : change) : acc :=
  Acc (match n_owner c with Some o => o | None => owner a end) (match n_group c with Some g => g | None => group a end) (perm a).

(** srpjson_chmodown() *)
Definition chmodown (u : user) (a : acc) (c : change) : acc * bool :=
  if chown_ok u a c then
    let a' := chown a c in
    if n_perm c =? 0 then (a', true)
    else if (euid u =? 0) || (euid u =? owner a') then (Acc (owner a') (group a') (n_perm c), true)
    else (a', false)
  else (a, false).

(** sr_set_module_ds_access(), 2277-2291 *)
Definition masked (s : state) (c : change) : change :=
  Ch (n_owner c)
     (match n_group c, sgroup s with Some g, Some h => if g =? h then Some g else None | g, _ => g end)
     (N.ldiff (n_perm c) (umask s)).

Definition set_access (u : user) (s : state) (m : N) (d : ds) (c0 : change) : state * bool :=
  if negb (N.land (n_perm c0) 73 =? 0) || (511 <? n_perm c0) then (s, false)   (* 0111, 0777 *)
  else
    let c := masked s c0 in
    match n_owner c, n_group c, n_perm c with
    | None, None, 0 => (s, true)
    | _, _, _ =>
        let d' := eds s m d in
        let a := s_acc s m d' in
        match pl s m d' with
        | Db => (set_acc s (upd2 (s_acc s) m d' (Acc (owner (chown a c)) (group (chown a c)) (if n_perm c =? 0 then perm a else n_perm c))), true)
        | Json =>
            let (s1, ok) :=
              match d' with
              | Running | Candidate =>
                  match s_file s m d' with
                  | None => (s, true)
                  | Some f => let (f', ok) := chmodown u f c in (set_file s (upd2 (s_file s) m d' (Some f')), ok)
                  end
              | _ => (s, true)
              end in
            if ok then let (a', ok') := chmodown u a c in (set_acc s1 (upd2 (s_acc s1) m d' a'), ok')
            else (s1, false)
        end
    end.

(** sr_get_module_ds_access() *)
Definition get_access (s : state) (m : N) (d : ds) : acc := s_acc s m (eds s m d).
