(** * Model: calls that work with the conventional datastores, the candidate in particular

    Code modelled (under /repo/src):
    - sysrepo.c: [sr_get_data] and similar 2759-2830, [sr_apply_changes] 4262-4312,
      [_sr_replace_config] 4405-4450, [sr_copy_config] 4505-4613, [sr_change_dslock]
      4802-4894, [_sr_un_lock] 4905-4965, [sr_session_stop] 739;
    - modinfo.c: [sr_modinfo_replace] 713-762, [sr_modinfo_module_data_load]
      2695-2750, [sr_modinfo_data_load] 2943-3030, [sr_modinfo_consolidate]
      3032-3110, [sr_modinfo_data_store] 3837-3924, [sr_modinfo_candidate_reset]
      3926-3944;
    - common.c: [sr_module_file_data_append] 5396-5431;
    - shm_mod.c: [sr_shmmod_lock] 1300-1395, [sr_shmmod_modinfo_lock] 1410-1445,
      [sr_shmmod_modinfo_rdlock]/[_wrlock]/[_rdlock_upgrade] 1447-1522,
      [sr_shmmod_release_locks] 1599-1663;
    - shm_sub.c: [sr_shmsub_rpc_internal_call_callback] (factory-reset) 2360-2500;
    - plugins/ds_json.c: [srpds_json_store_] 50-150, [srpds_json_load] 463-560,
      [srpds_json_load_recover] 415-461, [srpds_json_candidate_modified] 638-659,
      [srpds_json_candidate_reset] 661-677.

    A call is a list of actions; between any two of them other threads may act.
    Every thread has its own session.  The actions with data of a module are
    separate for each module.

    Simplifications: the data of a module are a number; all modules of a call are
    locked at once (the order of locking is property C35, deadlocks are property
    C04) and a lock that is not free is waited for; timeouts are not modelled; the
    lock of a datastore ([sr_lock]) is modelled for the candidate only; what
    validation and the subscribers say is one decision that is made by the
    environment; data are stored for all modules of a call, also for those that
    did not change, except into the candidate; no crashes (C27, C37) and no errors
    of the file system; the lock of module data is released at the end, not
    downgraded for the "done" event. *)

From Coq Require Import List Arith Bool.
Import ListNotations.

Inductive ds := Startup | Running | Candidate.

Definition ds_eqb (a b : ds) : bool :=
  match a, b with
  | Startup, Startup | Running, Running | Candidate, Candidate => true
  | _, _ => false
  end.

(** ** Data *)

Record store := Store {
  st_start : nat -> nat;           (** startup *)
  st_run : nat -> option nat;      (** running; [None]: the file is being written *)
  st_cand : nat -> option nat;     (** candidate; [None]: there is no file, not modified *)
  st_owner : nat -> option nat     (** [ds_lock_sid] of the candidate *)
}.

Definition upd {A} (f : nat -> A) (m : nat) (v : A) : nat -> A :=
  fun m' => if m' =? m then v else f m'.

(** ** Locks of module data *)

Inductive mode := Rd | Up | Wr.

Record lock := Lk {
  l_t : nat;
  l_ds : ds;
  l_m : nat;
  l_mode : mode
}.

(** modes that can be held at the same time by two threads *)
Definition compat (a b : mode) : bool :=
  match a, b with
  | Rd, Rd | Rd, Up | Up, Rd => true
  | _, _ => false
  end.

Definition can_lock (l : list lock) (t : nat) (d : ds) (md : mode) (m : nat) : bool :=
  forallb (fun e => negb (ds_eqb (l_ds e) d && (l_m e =? m)) || compat (l_mode e) md) l.

(** all other holders must have left *)
Definition can_upgrade (l : list lock) (t : nat) (d : ds) (m : nat) : bool :=
  forallb (fun e => negb (ds_eqb (l_ds e) d && (l_m e =? m)) || (l_t e =? t)) l.

Definition mem (m : nat) (ms : list nat) : bool := existsb (Nat.eqb m) ms.

(** ** Actions *)

Inductive act :=
  | ALock (d : ds) (ms : list nat) (md : mode)
  | AUpgrade (d : ds) (ms : list nat)
  | AUnlock (d : ds)                 (** all modules of the datastore *)
  | AEnd                             (** all locks are released, the call returns *)
  | ALoad (d : ds) (m : nat)
  | AEdit (f : nat -> nat -> nat) (ms : list nat)   (** the new data from the loaded ones *)
  | ATake (ms : list nat)            (** the loaded data are the new ones (of another datastore) *)
  | APoint                           (** validation, NACM, subscribers *)
  | ATear (d : ds) (m : nat)         (** storing begins *)
  | AStore (d : ds) (m : nat)        (** storing ends *)
  | AReset (m : nat)                 (** [candidate_reset_cb] *)
  | AOwn (ms : list nat)             (** [sr_change_dslock] for locking *)
  | ADisown (ms : list nat)          (** [sr_change_dslock] for unlocking *)
  | ADrop (m : nat).                 (** [sr_shmmod_release_locks] until DS UNLOCK *)

Inductive call :=
  | Get (d : ds) (ms : list nat)
  | Edit (d : ds) (ms : list nat) (f : nat -> nat -> nat)
  | Commit (ms : list nat)           (** [sr_copy_config] from candidate to running *)
  | Copy (s d : ds) (ms : list nat)  (** [sr_copy_config] otherwise *)
  | Discard (ms : list nat)          (** [sr_copy_config] from running to candidate *)
  | LockC (ms : list nat)
  | UnlockC (ms : list nat)
  | Release (m : nat)                (** one module in [sr_session_stop] *)
  | Factory (ms : list nat) (f : nat -> nat -> nat).  (** the running part of the RPC factory-reset *)

Definition loads (d : ds) (ms : list nat) : list act := map (ALoad d) ms.
Definition stores (d : ds) (ms : list nat) : list act := flat_map (fun m => [ATear d m; AStore d m]) ms.
Definition resets (ms : list nat) : list act := map AReset ms.

(** [sr_changes_notify_store] *)
Definition finish (d : ds) (ms : list nat) : list act := APoint :: AUpgrade d ms :: stores d ms.

(** [_sr_replace_config] *)
Definition replace (d : ds) (ms : list nat) : list act :=
  ALock d ms Up :: loads d ms ++ finish d ms.

Definition program (c : call) : list act :=
  match c with
  | Get d ms => ALock d ms Rd :: loads d ms ++ [AEnd]
  | Edit d ms f => ALock d ms Up :: loads d ms ++ AEdit f ms :: finish d ms ++ [AEnd]
  | Commit ms => ALock Candidate ms Wr :: loads Candidate ms ++ ATake ms ::
                 replace Running ms ++ AUnlock Running :: resets ms ++ [AEnd]
  | Copy s d ms => ALock s ms Rd :: loads s ms ++ AUnlock s :: ATake ms :: replace d ms ++ [AEnd]
  | Discard ms => ALock Candidate ms Wr :: ALock Running ms Rd :: resets ms ++ [AEnd]
  | LockC ms => [ALock Candidate ms Wr; AOwn ms; AEnd]
  | UnlockC ms => ALock Candidate ms Wr :: ADisown ms :: resets ms ++ [AEnd]
  | Release m => [ADrop m; ALock Candidate [m] Wr; AReset m; AEnd]
  | Factory ms f => ALock Running ms Up :: loads Running ms ++ AEdit f ms :: finish Running ms ++
                    resets ms ++ [AEnd]
  end.

(** ** Threads *)

(** data in memory: the datastore asked for, the one they were taken from, and the value *)
Record datum := Datum {
  d_req : ds;
  d_act : ds;
  d_val : nat
}.

Record th := Th {
  t_call : option call;
  t_todo : list act;
  t_cur : nat -> option datum;     (** data loaded last *)
  t_src : nat -> option datum;     (** data copied from another datastore *)
  t_new : nat -> option nat;       (** data to be stored *)
  t_done : list (ds * nat);        (** what was stored *)
  t_gone : list nat;               (** what was reset *)
  t_dirty : list (ds * nat);       (** what may have been written *)
  t_failed : bool
}.

Record sys := Sys {
  y_st : store;
  y_lk : list lock;
  y_th : nat -> th
}.

Definition start (c : call) : th :=
  Th (Some c) (program c) (fun _ => None) (fun _ => None) (fun _ => None) [] [] [] false.

Definition idle : th := Th None [] (fun _ => None) (fun _ => None) (fun _ => None) [] [] [] false.

Definition fail (x : th) : th :=
  Th (t_call x) [AEnd] (t_cur x) (t_src x) (t_new x) (t_done x) (t_gone x) (t_dirty x) true.

Definition go (x : th) (p : list act) : th :=
  Th (t_call x) p (t_cur x) (t_src x) (t_new x) (t_done x) (t_gone x) (t_dirty x) (t_failed x).

Definition set_th (f : nat -> th) (t : nat) (x : th) : nat -> th := fun t' => if t' =? t then x else f t'.

(** loading the running data; if the file cannot be parsed it is replaced with startup *)
Definition load_run (s : store) (m : nat) : store * nat :=
  match st_run s m with
  | Some v => (s, v)
  | None => (Store (st_start s) (upd (st_run s) m (Some (st_start s m))) (st_cand s) (st_owner s), st_start s m)
  end.

(** [sr_module_file_data_append] *)
Definition load (s : store) (d : ds) (m : nat) : store * datum :=
  match d with
  | Startup => (s, Datum Startup Startup (st_start s m))
  | Running => let r := load_run s m in (fst r, Datum Running Running (snd r))
  | Candidate => match st_cand s m with
                 | Some v => (s, Datum Candidate Candidate v)
                 | None => let r := load_run s m in (fst r, Datum Candidate Running (snd r))
                 end
  end.

Definition put (s : store) (d : ds) (m : nat) (v : nat) : store :=
  match d with
  | Startup => Store (upd (st_start s) m v) (st_run s) (st_cand s) (st_owner s)
  | Running => Store (st_start s) (upd (st_run s) m (Some v)) (st_cand s) (st_owner s)
  | Candidate => Store (st_start s) (st_run s) (upd (st_cand s) m (Some v)) (st_owner s)
  end.

(** only the file of running is overwritten in place without a copy; that of the
    candidate is too, but is not read without the lock *)
Definition tear (s : store) (d : ds) (m : nat) : store :=
  match d with
  | Running => Store (st_start s) (upd (st_run s) m None) (st_cand s) (st_owner s)
  | _ => s
  end.

Definition reset (s : store) (m : nat) : store :=
  Store (st_start s) (st_run s) (upd (st_cand s) m None) (st_owner s).

Definition set_owner (s : store) (ms : list nat) (o : option nat) : store :=
  Store (st_start s) (st_run s) (st_cand s) (fun m => if mem m ms then o else st_owner s m).

(** another session has locked the candidate of one of the modules *)
Definition owned_by_other (s : store) (t : nat) (ms : list nat) : bool :=
  existsb (fun m => match st_owner s m with Some o => negb (o =? t) | None => false end) ms.

Definition is_rd (md : mode) : bool := match md with Rd => true | _ => false end.

(** one action of thread [t]; [ok] is the decision of the environment *)
Definition step (y : sys) (t : nat) (ok : bool) : sys :=
  let s := y_st y in
  let l := y_lk y in
  let x := y_th y t in
  match t_todo x with
  | [] => y
  | a :: p =>
      let same s' := Sys s' l (set_th (y_th y) t (go x p)) in
      match a with
      | ALock d ms md =>
          if ds_eqb d Candidate && negb (is_rd md) && owned_by_other s t ms then
            Sys s l (set_th (y_th y) t (fail x))
          else if forallb (can_lock l t d md) ms then
            Sys s (map (fun m => Lk t d m md) ms ++ l) (set_th (y_th y) t (go x p))
          else y
      | AUpgrade d ms =>
          if forallb (can_upgrade l t d) ms then
            Sys s (map (fun e => if (l_t e =? t) && ds_eqb (l_ds e) d && mem (l_m e) ms
                                 then Lk t d (l_m e) Wr else e) l) (set_th (y_th y) t (go x p))
          else y
      | AUnlock d =>
          Sys s (filter (fun e => negb ((l_t e =? t) && ds_eqb (l_ds e) d)) l) (set_th (y_th y) t (go x p))
      | AEnd =>
          Sys s (filter (fun e => negb (l_t e =? t)) l) (set_th (y_th y) t (go x []))
      | ALoad d m =>
          let r := load s d m in
          Sys (fst r) l (set_th (y_th y) t
            (Th (t_call x) p (upd (t_cur x) m (Some (snd r))) (t_src x) (t_new x) (t_done x) (t_gone x) (t_dirty x) (t_failed x)))
      | AEdit f ms =>
          Sys s l (set_th (y_th y) t
            (Th (t_call x) p (t_cur x) (t_src x)
               (fun m => if mem m ms then option_map (fun c => f m (d_val c)) (t_cur x m) else t_new x m)
               (t_done x) (t_gone x) (t_dirty x) (t_failed x)))
      | ATake ms =>
          Sys s l (set_th (y_th y) t
            (Th (t_call x) p (fun _ => None) (t_cur x)
               (fun m => if mem m ms then option_map d_val (t_cur x m) else t_new x m)
               (t_done x) (t_gone x) (t_dirty x) (t_failed x)))
      | APoint => if ok then same s else Sys s l (set_th (y_th y) t (fail x))
      | ATear d m =>
          Sys (tear s d m) l (set_th (y_th y) t
            (Th (t_call x) p (t_cur x) (t_src x) (t_new x) (t_done x) (t_gone x) ((d, m) :: t_dirty x) (t_failed x)))
      | AStore d m =>
          let same_data := match t_cur x m, t_new x m with
                           | Some c, Some v => d_val c =? v
                           | _, _ => false
                           end in
          let s' := match t_new x m with
                    | Some v => if ds_eqb d Candidate && same_data then s else put s d m v
                    | None => s
                    end in
          Sys s' l (set_th (y_th y) t
            (Th (t_call x) p (t_cur x) (t_src x) (t_new x) ((d, m) :: t_done x) (t_gone x) ((d, m) :: t_dirty x) (t_failed x)))
      | AReset m =>
          Sys (reset s m) l (set_th (y_th y) t
            (Th (t_call x) p (t_cur x) (t_src x) (t_new x) (t_done x) (m :: t_gone x)
               ((Candidate, m) :: t_dirty x) (t_failed x)))
      | AOwn ms =>
          if existsb (fun m => match st_owner s m, st_cand s m with None, None => false | _, _ => true end) ms
          then Sys s l (set_th (y_th y) t (fail x))
          else same (set_owner s ms (Some t))
      | ADisown ms =>
          if existsb (fun m => match st_owner s m with None => true | Some _ => false end) ms
          then Sys s l (set_th (y_th y) t (fail x))
          else same (set_owner s ms None)
      | ADrop m =>
          match st_owner s m with
          | Some o => if o =? t then same (set_owner s [m] None) else Sys s l (set_th (y_th y) t (go x [AEnd]))
          | None => Sys s l (set_th (y_th y) t (go x [AEnd]))
          end
      end
  end.

Definition begin (y : sys) (t : nat) (c : call) : sys := Sys (y_st y) (y_lk y) (set_th (y_th y) t (start c)).

Definition init (a b : nat -> nat) : sys :=
  Sys (Store a (fun m => Some (b m)) (fun _ => None) (fun _ => None)) [] (fun _ => idle).

(** [sr_shmmod_lock] 1335-1346: the lock of a connection that died is recovered *)
Definition recover_owner (s : store) (m : nat) : store := set_owner s [m] None.
