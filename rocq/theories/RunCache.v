(** Cache of the running datastore kept by a connection.

    Models
      src/common.c       3069-3184  sr_conn_run_cache_update
      src/common.c       3186-3232  sr_conn_run_cache_update_mod
      src/common.c       3235-3260  sr_conn_run_cache_flush
      src/common.c       3302-3341  sr_conn_ctx_switch (the flush and the content id)
      src/context_change.c  43-131  sr_lycc_lock (the comparison of content ids)
      src/modinfo.c      2950-3030  sr_modinfo_data_load (the part with the cache)
      src/modinfo.c      3838-3885  sr_modinfo_data_store (the loop over the changed modules)
      src/shm_mod.c       197-303   sr_shmmod_fill (the memset of the shared module)
      src/sysrepo.c      1511-1542  the end of sr_install_modules: shared modules rebuilt, data
                                    stored, content id set, context switched
    as a transition system: threads of any number of connections take the steps below in any
    order.  [exec] performs one step of one thread and returns [None] if that thread cannot take
    it in the current state.

    Simplifications.
    - The data of one module are one value (a list of numbers, [nil] for no data).
    - Locks are those of C01: what a thread holds is a function of where it is ([rmods], [wmods],
      [crd], [cwr]), a step that takes a lock can be taken only if no other thread holds a lock in
      a conflicting mode.  Locks of all modules of an operation are taken in one step.
    - An operation that fails releases everything it holds in one step.  In particular the CACHE
      READ lock taken back in the cleanup of [sr_conn_run_cache_update] and released by its caller
      is not taken.
    - Reading with the cache for the candidate and operational datastores copies the same cached
      data and is not distinguished from reading the running datastore. *)
From Coq Require Import List Arith NArith Bool.
Import ListNotations.

Definition modid := nat.
Definition tid := nat.
Definition cid := nat.
Definition data := list nat.

Definition UMAX : N := 4294967295%N.

(** uint32_t arithmetic *)
Definition inc32 (n : N) : N := ((n + 1) mod 4294967296)%N.

(** What is fixed in a run: the threads, the connection of each thread, which connections have
    the flag SR_CONN_CACHE_RUNNING, modules with the running datastore disabled
    ([plugins[SR_DS_RUNNING]] not set) and modules whose plugin has [data_version_cb]. *)
Record config := mkConfig {
  threads : list tid;
  conn_of : tid -> cid;
  caching : cid -> bool;
  norun : modid -> bool;
  vcb : modid -> bool
}.

(** common.c 3072, [has_lock] while it is not SR_LOCK_NONE *)
Inductive hlock := HRead | HWrite.

(** Where a thread is.  [ms] are the modules of the operation (mod_info->mods), [ws] those of
    them that will be changed. *)
Inductive pc :=
| Idle                                                       (* no operation *)
| Work (ms ws : list modid)                                  (* module locks held, modinfo.c 2961 *)
| Upd (ms ws todo : list modid) (h : hlock)                  (* common.c 3081, top of the loop *)
| AddW (ms ws : list modid) (m : modid) (todo : list modid)  (* 3108, waiting for CACHE WRITE LOCK *)
| Chk (ms ws : list modid) (m : modid) (todo : list modid) (j : nat) (h : hlock)   (* 3126 *)
| RelW (ms ws : list modid) (m : modid) (todo : list modid) (j : nat) (id : N)     (* 3144 *)
| Load (ms ws : list modid) (m : modid) (todo : list modid) (j : nat) (id : N)     (* 3157 *)
| Ready (ms ws : list modid)                                 (* modinfo.c 2977, cache current *)
| Got (ms ws : list modid)                                   (* modinfo.c 3024, cache unlocked *)
| Sto (ms ws rest : list modid)                              (* modinfo.c 3850, WRITE locks held *)
| Bump (ms ws : list modid) (m : modid) (rest : list modid) (d : data)             (* 3874 *)
| CacheW (ms ws : list modid) (m : modid) (rest : list modid) (d : data) (id : N)  (* common.c 3195 *)
| CacheU (ms ws : list modid) (m : modid) (rest : list modid) (d : data) (id : N)  (* common.c 3201 *)
| Aborted.                                                   (* an assert did not hold *)

(** Modules locked at least for reading *)
Definition rmods (p : pc) : list modid :=
  match p with
  | Idle | Aborted => []
  | Work ms _ | Upd ms _ _ _ | AddW ms _ _ _ | Chk ms _ _ _ _ _ | RelW ms _ _ _ _ _
  | Load ms _ _ _ _ _ | Ready ms _ | Got ms _ | Sto ms _ _ | Bump ms _ _ _ _
  | CacheW ms _ _ _ _ _ | CacheU ms _ _ _ _ _ => ms
  end.

(** Modules locked for writing *)
Definition wmods (p : pc) : list modid :=
  match p with
  | Sto _ ws _ | Bump _ ws _ _ _ | CacheW _ ws _ _ _ _ | CacheU _ ws _ _ _ _ => ws
  | _ => []
  end.

(** Whether the lock of the connection's cache is held for reading, for writing *)
Definition crd (p : pc) : bool :=
  match p with
  | Upd _ _ _ HRead | Chk _ _ _ _ _ HRead | Ready _ _ => true
  | _ => false
  end.
Definition cwr (p : pc) : bool :=
  match p with
  | Upd _ _ _ HWrite | Chk _ _ _ _ _ HWrite | Load _ _ _ _ _ _ | CacheU _ _ _ _ _ _ => true
  | _ => false
  end.

(** common_types.h 146-152 (per connection), shm_types.h 134 and the stored data (shared) *)
Record state := mkState {
  pcs : tid -> pc;
  stored : modid -> data;        (* what the datastore plugin holds *)
  runid : modid -> N;            (* shm_mod->run_cache_id *)
  pver : modid -> N;             (* what data_version_cb returns *)
  content : N;                   (* main_shm->content_id *)
  ccontent : cid -> N;           (* conn->content_id *)
  cmods : cid -> list (modid * N);   (* conn->run_cache_mods: module and id *)
  cdata : cid -> modid -> data   (* conn->run_cache_data, by module *)
}.

(** What can be seen *)
Inductive event :=
| EStore (m : modid) (d : data)      (* [d] became the stored running data of [m] by an operation *)
| EInterrupted (m : modid)           (* that operation failed or its process died before it finished with [m] *)
| EOther (m : modid) (d : data)      (* they became [d] by other means: the startup datastore was
                                        written, or somebody else than sysrepo changed them *)
| ELoadFailed (m : modid)            (* loading them into a cache failed *)
| EContext (h : N) (f : modid -> data)   (* the set of modules was changed to the one with content id [h] *)
| EServe (t : tid) (m : modid) (d : data)  (* thread [t] got [d] as the running data of [m] *)
| EAssert (t : tid).                 (* an assert did not hold *)

Definition upd {A} (f : nat -> A) (k : nat) (v : A) : nat -> A :=
  fun x => if Nat.eqb x k then v else f x.

(** common.c 3093-3098, 3201-3206 *)
Fixpoint find_mod (m : modid) (l : list (modid * N)) : option nat :=
  match l with
  | [] => None
  | (m', _) :: r => if Nat.eqb m m' then Some O else option_map S (find_mod m r)
  end.

Definition entry_id (l : list (modid * N)) (j : nat) : option N := option_map snd (nth_error l j).

Fixpoint set_entry_id (l : list (modid * N)) (j : nat) (id : N) : list (modid * N) :=
  match l, j with
  | [], _ => []
  | (m, _) :: r, O => (m, id) :: r
  | e :: r, S j' => e :: set_entry_id r j' id
  end.

Definition memb (m : modid) (l : list modid) : bool := existsb (Nat.eqb m) l.
Definition disjointb (a b : list modid) : bool := forallb (fun m => negb (memb m b)) a.
Definition subsetb (a b : list modid) : bool := forallb (fun m => memb m b) a.

Section Exec.
Variable cfg : config.

Definition others (t : tid) : list tid := filter (fun t' => negb (Nat.eqb t' t)) (threads cfg).
Definition conn_threads (c : cid) : list tid :=
  filter (fun t' => Nat.eqb (conn_of cfg t') c) (threads cfg).

(** READ lock of modules [ms] *)
Definition can_rlock (s : state) (t : tid) (ms : list modid) : bool :=
  forallb (fun t' => disjointb ms (wmods (pcs s t'))) (others t).
(** upgrade of the locks of modules [ws] *)
Definition can_wlock (s : state) (t : tid) (ws : list modid) : bool :=
  forallb (fun t' => disjointb ws (rmods (pcs s t'))) (others t).
(** locks of the cache of the connection of [t] *)
Definition can_crd (s : state) (t : tid) : bool :=
  forallb (fun t' => negb (Nat.eqb (conn_of cfg t') (conn_of cfg t)) || negb (cwr (pcs s t'))) (others t).
Definition can_cwr (s : state) (t : tid) : bool :=
  forallb (fun t' => negb (Nat.eqb (conn_of cfg t') (conn_of cfg t))
                     || negb (cwr (pcs s t') || crd (pcs s t'))) (others t).

Definition is_idle (p : pc) : bool := match p with Idle => true | _ => false end.
Definition all_idle (s : state) (ts : list tid) : bool := forallb (fun t => is_idle (pcs s t)) ts.

Definition set_pc (s : state) (t : tid) (p : pc) : state :=
  mkState (upd (pcs s) t p) (stored s) (runid s) (pver s) (content s) (ccontent s) (cmods s) (cdata s).
Definition set_stored (s : state) (m : modid) (d : data) : state :=
  mkState (pcs s) (upd (stored s) m d) (runid s) (pver s) (content s) (ccontent s) (cmods s) (cdata s).
Definition set_runid (s : state) (m : modid) (id : N) : state :=
  mkState (pcs s) (stored s) (upd (runid s) m id) (pver s) (content s) (ccontent s) (cmods s) (cdata s).
Definition set_pver (s : state) (m : modid) (v : N) : state :=
  mkState (pcs s) (stored s) (runid s) (upd (pver s) m v) (content s) (ccontent s) (cmods s) (cdata s).
Definition set_cmods (s : state) (c : cid) (l : list (modid * N)) : state :=
  mkState (pcs s) (stored s) (runid s) (pver s) (content s) (ccontent s) (upd (cmods s) c l) (cdata s).
Definition set_cdata (s : state) (c : cid) (m : modid) (d : data) : state :=
  mkState (pcs s) (stored s) (runid s) (pver s) (content s) (ccontent s) (cmods s)
    (upd (cdata s) c (upd (cdata s c) m d)).

(** common.c 3235-3260, 3329 *)
Definition flush (s : state) (c : cid) (h : N) : state :=
  mkState (pcs s) (stored s) (runid s) (pver s) (content s) (upd (ccontent s) c h)
    (upd (cmods s) c []) (upd (cdata s) c (fun _ => [])).

(** common.c 3127-3134 *)
Definition cur_id (s : state) (m : modid) : N := if vcb cfg m then pver s m else runid s m.

(** common.c 3113-3122: a new cache module at the end of the array *)
Definition add_mod (s : state) (c : cid) (m : modid) : state :=
  set_cmods s c (cmods s c ++ [(m, UMAX)]).

(** common.c 3151-3153: [sr_module_data_unlink] *)
Definition unlink (s : state) (c : cid) (m : modid) : state := set_cdata s c m [].

(** common.c 3160-3162, 3217-3219: [lyd_insert_sibling] *)
Definition insert (s : state) (c : cid) (m : modid) (d : data) : state :=
  set_cdata s c m (cdata s c m ++ d).

(** common.c 3165, 3222 *)
Definition set_id (s : state) (c : cid) (j : nat) (id : N) : state :=
  set_cmods s c (set_entry_id (cmods s c) j id).

(** The steps *)
Inductive action :=
| ABegin (ms ws : list modid)   (* sr_lycc_lock finds the context current, MODULES READ LOCK *)
| ACacheLock                    (* modinfo.c 2962 CACHE READ LOCK, common.c 3069 *)
| ANoCache                      (* modinfo.c 3000, a connection without the cache loads the data *)
| ANext                         (* common.c 3081-3098 top of the loop *)
| AAdd                          (* common.c 3108-3122 *)
| ACheck                        (* common.c 3126-3143 *)
| AReload                       (* common.c 3144-3153 *)
| ALoad                         (* common.c 3156-3165 *)
| ALoadFail                     (* common.c 3157, load_cb failed *)
| AServe (m : modid)            (* data of [m] are used or copied, modinfo.c 2981, 2997 *)
| AGot                          (* CACHE READ UNLOCK *)
| AUpgrade                      (* sysrepo.c 4107 MODULES WRITE LOCK (upgrade) *)
| AStore (d : data) (v : N)     (* modinfo.c 3865 store_cb; a plugin with versions goes on to version [v] *)
| AStoreFail (d : option data)  (* it failed, leaving the data unchanged or changed to [d] *)
| ABump                         (* modinfo.c 3874 *)
| ACacheWLock                   (* common.c 3195 *)
| ACacheStore                   (* common.c 3201-3225 *)
| AFail                         (* a lock was not got in time; also the end of an operation *)
| ADie                          (* the process of the connection of the thread dies *)
| ASwitch                       (* context_change.c 64-98, sr_conn_ctx_switch *)
| AContext (h : N) (f : modid -> data)  (* sysrepo.c 1511-1542 *)
| AOther (m : modid) (d : data) (v : N). (* see [EOther] *)

Definition interrupted (p : pc) : list event :=
  match p with Bump _ _ m _ _ => [EInterrupted m] | _ => [] end.

Definition kill (s : state) (c : cid) : state :=
  mkState (fun t' => if Nat.eqb (conn_of cfg t') c then Idle else pcs s t')
    (stored s) (runid s) (pver s) (content s) (ccontent s) (cmods s) (cdata s).

Definition exec (t : tid) (a : action) (s : state) : option (state * list event) :=
  let c := conn_of cfg t in
  if negb (existsb (Nat.eqb t) (threads cfg)) then None else
  match a, pcs s t with
  | ABegin ms ws, Idle =>
      if N.eqb (ccontent s c) (content s) && can_rlock s t ms && subsetb ws ms
      then Some (set_pc s t (Work ms ws), []) else None
  | ACacheLock, Work ms ws =>
      if caching cfg c && can_crd s t then Some (set_pc s t (Upd ms ws ms HRead), []) else None
  | ANoCache, Work ms ws =>
      if caching cfg c then None else Some (set_pc s t (Got ms ws), [])
  | ANext, Upd ms ws [] _ => Some (set_pc s t (Ready ms ws), [])
  | ANext, Upd ms ws (m :: todo) h =>
      match find_mod m (cmods s c), h with
      | Some j, _ => Some (set_pc s t (Chk ms ws m todo j h), [])
      | None, HRead => Some (set_pc s t (AddW ms ws m todo), [])
      | None, HWrite =>
          Some (set_pc (add_mod s c m) t (Chk ms ws m todo (length (cmods s c)) HWrite), [])
      end
  | AAdd, AddW ms ws m todo =>
      if can_cwr s t
      then Some (set_pc (add_mod s c m) t (Chk ms ws m todo (length (cmods s c)) HWrite), [])
      else None
  | ACheck, Chk ms ws m todo j h =>
      match entry_id (cmods s c) j with
      | Some id =>
          if N.eqb id (cur_id s m) then Some (set_pc s t (Upd ms ws todo h), [])
          else match h with
               | HRead => Some (set_pc s t (RelW ms ws m todo j (cur_id s m)), [])
               | HWrite => Some (set_pc (unlink s c m) t (Load ms ws m todo j (cur_id s m)), [])
               end
      | None => None
      end
  | AReload, RelW ms ws m todo j id =>
      if can_cwr s t then Some (set_pc (unlink s c m) t (Load ms ws m todo j id), []) else None
  | ALoad, Load ms ws m todo j id =>
      Some (set_pc (set_id (insert s c m (stored s m)) c j id) t (Upd ms ws todo HWrite), [])
  | ALoadFail, Load ms ws m todo j id => Some (set_pc s t Idle, [ELoadFailed m])
  | AServe m, Ready ms ws =>
      if memb m ms then Some (s, [EServe t m (cdata s c m)]) else None
  | AGot, Ready ms ws => Some (set_pc s t (Got ms ws), [])
  | AUpgrade, Got ms ws =>
      if can_wlock s t ws then Some (set_pc s t (Sto ms ws ws), []) else None
  | AStore d v, Sto ms ws (m :: rest) =>
      if N.ltb (pver s m) v
      then Some (set_pc (set_pver (set_stored s m d) m v) t (Bump ms ws m rest d), [EStore m d])
      else None
  | AStoreFail None, Sto ms ws (m :: rest) => Some (set_pc s t Idle, [])
  | AStoreFail (Some d), Sto ms ws (m :: rest) =>
      Some (set_pc (set_stored s m d) t Idle, [EInterrupted m; EStore m d])
  | ABump, Bump ms ws m rest d =>
      let s' := set_runid s m (inc32 (runid s m)) in
      if caching cfg c
      then Some (set_pc s' t (CacheW ms ws m rest d (inc32 (runid s m))), [])
      else Some (set_pc s' t (Sto ms ws rest), [])
  | ACacheWLock, CacheW ms ws m rest d id =>
      if can_cwr s t then Some (set_pc s t (CacheU ms ws m rest d id), []) else None
  | ACacheStore, CacheU ms ws m rest d id =>
      match find_mod m (cmods s c) with
      | Some j =>
          match entry_id (cmods s c) j with
          | Some i =>
              if N.eqb i id then Some (set_pc s t Aborted, [EAssert t])
              else Some (set_pc (set_id (insert (unlink s c m) c m d) c j id) t (Sto ms ws rest), [])
          | None => Some (set_pc s t Aborted, [EAssert t])
          end
      | None => Some (set_pc s t Aborted, [EAssert t])
      end
  | AFail, (Work _ _ | AddW _ _ _ _ | RelW _ _ _ _ _ _ | Got _ _ | Sto _ _ [] | CacheW _ _ _ _ _ _) =>
      Some (set_pc s t Idle, [])
  | ADie, _ =>
      Some (flush (kill s c) c (content s),
            flat_map (fun t' => interrupted (pcs s t')) (conn_threads c))
  | ASwitch, Idle =>
      if negb (N.eqb (ccontent s c) (content s)) && all_idle s (conn_threads c)
      then Some (flush s c (content s), []) else None
  | AContext h f, Idle =>
      if all_idle s (threads cfg)
      then Some (flush (mkState (pcs s) f (fun _ => 0%N) (pver s) h (ccontent s) (cmods s) (cdata s)) c h,
                 [EContext h f])
      else None
  | AOther m d v, _ =>
      if (norun cfg m || vcb cfg m) && N.ltb (pver s m) v
      then Some (set_pver (set_stored s m d) m v, [EOther m d]) else None
  | _, _ => None
  end.

(** Any number of steps; the history has the newest event first. *)
Fixpoint run (acts : list (tid * action)) (s : state) (h : list event) : option (state * list event) :=
  match acts with
  | [] => Some (s, h)
  | (t, a) :: r =>
      match exec t a s with
      | Some (s', evs) => run r s' (evs ++ h)
      | None => None
      end
  end.

End Exec.

(** The connections were just created, with the context of the content id [h0]. *)
Definition start (h0 : N) : state :=
  mkState (fun _ => Idle) (fun _ => []) (fun _ => 0%N) (fun _ => 0%N) h0 (fun _ => h0)
    (fun _ => []) (fun _ _ => []).
