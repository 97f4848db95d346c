(** Locks of several modules by one operation (struct sr_mod_info_s).

    Part 1: one client, the locking functions of src/shm_mod.c with the flags they keep, where any
    of the locks may fail.
    Part 2: any number of clients waiting for each other. *)
From Coq Require Import List NArith Bool Arith.
From Verif Require Import DsLock.
Import ListNotations.
Local Open Scope nat_scope.

(** * Part 1: the flags of one operation *)

(** MOD_INFO_RLOCK, MOD_INFO_RLOCK_UPGR, MOD_INFO_WLOCK, MOD_INFO_RLOCK2 and MOD_INFO_REQ of
    sr_mod_info_mod_s.state (src/modinfo.h 33-46). *)
Record flags := mkfl { f_r : bool; f_u : bool; f_w : bool; f_r2 : bool; f_req : bool }.

(** A module of the operation: the flags and which locks the client really holds, in the main and
    in the secondary datastore. *)
Record mmod := mkmm { m_fl : flags; m_h : option lmode; m_h2 : option lmode }.

(** What happens in one turn of sr_shmmod_lock(): whether the read-write lock is obtained, the
    mutex of the datastore lock, whether it is held by another live session, whether a relock back
    succeeds. *)
Record turn := mkturn { t_lock : bool; t_mutex : bool; t_dslocked : bool; t_back : bool }.

(** sr_shmmod_lock(), src/shm_mod.c 1297-1393.  [h] is the lock held before (on a relock); the
    turns are the retries until the datastore lock timeout elapses (the last one has none after
    it).  Returns success and the lock held. *)
Fixpoint shmmod_lock (relock : bool) (md : lmode) (h : option lmode) (ts : list turn) : bool * option lmode :=
  match ts with
  | [] => (false, h)
  | t :: r =>
    if negb (t_lock t) then (false, h)
    else
      let back := if relock then (if t_back t then Some (match md with LRead | LUpgr => LWrite | LWrite => LUpgr end) else Some md)
                  else None in
      match md with
      | LRead => (true, Some md)
      | _ =>
        if negb (t_mutex t) then (false, back)
        else if t_dslocked t then
          if relock && negb (t_back t) then (false, back)
          else shmmod_lock relock md back r
        else (true, Some md)
      end
  end.

(** sr_shmmod_modinfo_lock(), src/shm_mod.c 1408-1444.  [sec]: the secondary datastore
    (MOD_INFO_RLOCK2).  The turns are given for each module. *)
Definition set_flag (md : lmode) (f : flags) : flags :=
  match md with
  | LRead => mkfl true (f_u f) (f_w f) (f_r2 f) (f_req f)
  | LUpgr => mkfl (f_r f) true (f_w f) (f_r2 f) (f_req f)
  | LWrite => mkfl (f_r f) (f_u f) true (f_r2 f) (f_req f)
  end.
Fixpoint modinfo_lock (sec : bool) (md : lmode) (ms : list mmod) (ts : list (list turn)) : bool * list mmod :=
  match ms with
  | [] => (true, [])
  | m :: r =>
    let t := hd [] ts in
    let f := m_fl m in
    if (if sec then f_r2 f else f_r f || f_u f || f_w f) then
      let '(ok, r') := modinfo_lock sec md r (tl ts) in (ok, m :: r')
    else
      let '(ok, h) := shmmod_lock false md (if sec then m_h2 m else m_h m) t in
      if ok then
        let m' := if sec then mkmm (mkfl (f_r f) (f_u f) (f_w f) true (f_req f)) (m_h m) h
                  else mkmm (set_flag md f) h (m_h2 m) in
        let '(ok, r') := modinfo_lock sec md r (tl ts) in (ok, m' :: r')
      else (false, (if sec then mkmm f (m_h m) h else mkmm f h (m_h2 m)) :: r)
  end.

(** sr_shmmod_modinfo_rdlock(), src/shm_mod.c 1446-1474, and sr_shmmod_modinfo_wrlock(), 1476-1497. *)
Definition modinfo_rdwrlock (md : lmode) (two : bool) (ms : list mmod) (ts ts2 : list (list turn)) : bool * list mmod :=
  let '(ok, ms) := modinfo_lock false md ms ts in
  if negb ok then (false, ms)
  else if two then modinfo_lock true LRead ms ts2 else (true, ms).

(** sr_shmmod_modinfo_rdlock_upgrade(), src/shm_mod.c 1499-1528. *)
Fixpoint modinfo_upgrade (ms : list mmod) (ts : list (list turn)) : bool * list mmod :=
  match ms with
  | [] => (true, [])
  | m :: r =>
    let f := m_fl m in
    if f_u f && f_req f then
      let '(ok, h) := shmmod_lock true LWrite (m_h m) (hd [] ts) in
      if ok then let '(ok, r') := modinfo_upgrade r (tl ts) in
                 (ok, mkmm (mkfl (f_r f) false true (f_r2 f) (f_req f)) h (m_h2 m) :: r')
      else (false, mkmm f h (m_h2 m) :: r)
    else let '(ok, r') := modinfo_upgrade r (tl ts) in (ok, m :: r')
  end.

(** sr_shmmod_modinfo_wrlock_downgrade(), src/shm_mod.c 1530-1557. *)
Fixpoint modinfo_downgrade (ms : list mmod) (ts : list (list turn)) : bool * list mmod :=
  match ms with
  | [] => (true, [])
  | m :: r =>
    let f := m_fl m in
    if f_w f || f_u f then
      let '(ok, h) := shmmod_lock true LRead (m_h m) (hd [] ts) in
      if ok then let '(ok, r') := modinfo_downgrade r (tl ts) in
                 (ok, mkmm (mkfl true false false (f_r2 f) (f_req f)) h (m_h2 m) :: r')
      else (false, mkmm f h (m_h2 m) :: r)
    else let '(ok, r') := modinfo_downgrade r (tl ts) in (ok, m :: r')
  end.

(** sr_rwunlock() of a lock in a mode: [None] if it is not held in that mode (the lock would be
    corrupted). *)
Definition unlock1 (h : option lmode) (md : lmode) : option (option lmode) :=
  match h with Some x => if lmode_eqb x md then Some None else None | None => None end.

(** sr_shmmod_modinfo_unlock(), src/shm_mod.c 1559-1603, for one module. *)
Definition modinfo_unlock1 (m : mmod) : option mmod :=
  let f := m_fl m in
  match (if f_r f || f_u f || f_w f then unlock1 (m_h m) (if f_r f then LRead else if f_u f then LUpgr else LWrite)
         else Some (m_h m)) with
  | None => None
  | Some h =>
    match (if f_r2 f then unlock1 (m_h2 m) LRead else Some (m_h2 m)) with
    | None => None
    | Some h2 => Some (mkmm (mkfl false false false false (f_req f)) h h2)
    end
  end.
Fixpoint modinfo_unlock (ms : list mmod) : option (list mmod) :=
  match ms with
  | [] => Some []
  | m :: r => match modinfo_unlock1 m, modinfo_unlock r with Some m', Some r' => Some (m' :: r') | _, _ => None end
  end.

(** What an operation does with its modules before the final unlock: any of the above with any
    results, adding of more modules and sorting (sr_modinfo_consolidate(), src/modinfo.c 3033-3118). *)
Inductive mop :=
| MLock (md : lmode) (two : bool) (ts ts2 : list (list turn))
| MUpgrade (ts : list (list turn))
| MDowngrade (ts : list (list turn))
| MAdd (req : bool)
| MSort (f : list mmod -> list mmod).

Definition new_mod (req : bool) : mmod := mkmm (mkfl false false false false req) None None.
Definition mop_run (o : mop) (ms : list mmod) : bool * list mmod :=
  match o with
  | MLock md two ts ts2 => modinfo_rdwrlock md two ms ts ts2
  | MUpgrade ts => modinfo_upgrade ms ts
  | MDowngrade ts => modinfo_downgrade ms ts
  | MAdd req => (true, ms ++ [new_mod req])
  | MSort f => (true, f ms)
  end.
(** The operation stops at the first error. *)
Fixpoint mops_run (l : list mop) (ms : list mmod) : bool * list mmod :=
  match l with
  | [] => (true, ms)
  | o :: r => let '(ok, ms) := mop_run o ms in if ok then mops_run r ms else (false, ms)
  end.

(** * Part 2: many clients *)

(** What a client asks of one lock; locks are numbered in the order of sr_modinfo_qsort_cmp()
    (src/modinfo.c 2921-2937), the secondary datastore after the main one. *)
Inductive areq := Acq (md : lmode) (l : nat) | Upg (l : nat) | Down (l : nat).

(** The locks: who holds them, and who urges readers away (SR_LOCK_WRITE_URGE waiting, src/common.c
    2411-2440); the clients: what was and is to be done. *)
Record sys := mksys {
  lk : nat -> list (nat * lmode);
  urg : nat -> option nat;
  past : nat -> list areq;
  todo : nat -> list areq
}.

Definition free_for (s : sys) (c l : nat) : bool := match urg s l with None => true | Some c' => Nat.eqb c c' end.

(** sr_rwlock(), src/common.c 2326-2540, sr_rwrelock(), 2542-2757: the request does not have to wait. *)
Definition granted (s : sys) (c : nat) (a : areq) : bool :=
  match a with
  | Acq LWrite l => compatible (lk s l) LWrite && free_for s c l
  | Acq md l => compatible (lk s l) md && match urg s l with None => true | Some _ => false end
  | Upg l => match lk s l with [(c', LUpgr)] => Nat.eqb c c' | _ => false end && free_for s c l
  | Down _ => true
  end.

Definition clear_urg (s : sys) (c l : nat) : nat -> option nat :=
  match urg s l with Some c' => if Nat.eqb c c' then upd (urg s) l None else urg s | None => urg s end.

Definition perform (s : sys) (c : nat) (a : areq) : sys :=
  let past' := upd (past s) c (past s c ++ [a]) in
  let todo' := upd (todo s) c (tl (todo s c)) in
  match a with
  | Acq md l => mksys (upd (lk s) l ((c, md) :: lk s l)) (clear_urg s c l) past' todo'
  | Upg l => mksys (upd (lk s) l [(c, LWrite)]) (clear_urg s c l) past' todo'
  | Down l => mksys (upd (lk s) l ((c, LRead) :: filter (fun x => negb (Nat.eqb (fst x) c)) (lk s l))) (urg s) past' todo'
  end.

(** All of the client's locks are released and its waiting ends. *)
Definition release_all (s : sys) (c : nat) : sys :=
  mksys (fun l => filter (fun x => negb (Nat.eqb (fst x) c)) (lk s l))
        (fun l => match urg s l with Some c' => if Nat.eqb c c' then None else Some c' | None => None end)
        (upd (past s) c []) (upd (todo s) c []).

Inductive ev := EDo | EUrge | EFinish | EGiveUp | EStart (p : list areq).

(** One step of a client.  [EGiveUp]: a timeout, everything is released. *)
Definition sys_step (s : sys) (c : nat) (e : ev) : option sys :=
  match e, todo s c with
  | EDo, a :: _ => if granted s c a then Some (perform s c a) else None
  | EUrge, (Acq LWrite l | Upg l) as a :: _ =>
    if granted s c a then None
    else match urg s l with None => Some (mksys (lk s) (upd (urg s) l (Some c)) (past s) (todo s)) | Some _ => None end
  | EFinish, [] => Some (release_all s c)
  | EGiveUp, _ :: _ => Some (release_all s c)
  | EStart p, [] => match past s c with [] => Some (mksys (lk s) (urg s) (past s) (upd (todo s) c p)) | _ => None end
  | _, _ => None
  end.

Fixpoint sys_run (s : sys) (l : list (nat * ev)) : option sys :=
  match l with
  | [] => Some s
  | (c, e) :: r => match sys_step s c e with Some s' => sys_run s' r | None => None end
  end.

Definition sys_init : sys := mksys (fun _ => []) (fun _ => None) (fun _ => []) (fun _ => []).
