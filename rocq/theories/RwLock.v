(** The sysrepo read-write lock, src/common.c 2205-2865, src/common_types.h 42-68.

    Part 1: the functions between taking and releasing the lock's mutex, on the exact arrays.
    Part 2: a transition system of any number of threads using one lock, with crashes.

    Simplifications, all of them documented where they matter:
    - the recovery callbacks only act on data guarded by the lock and are not modelled;
    - pthread and futex system failures other than timeouts and dead owners are not modelled;
    - the futex implementation of the condition (src/sr_cond/sr_cond_futex.c), used on Linux,
      is modelled: waking up may happen at any time, and taking over the mutex of a dead
      owner in the wait is silent (sr_cond_mutex_lock(), lines 98-117). *)
From Coq Require Import List NArith Bool.
Import ListNotations.
Open Scope N_scope.

(** SR_RWLOCK_READ_LIMIT, src/common_types.h 53. *)
Definition READ_LIMIT : nat := 16.

(** sr_rwlock_t, src/common_types.h 58-67, without the mutex and the condition.  [bad] is set
    when an assert() of the code would have failed; the code then goes on as it does when
    compiled with NDEBUG. *)
Record rwlock := mkrw {
  readers : list N;     (* readers[SR_RWLOCK_READ_LIMIT] *)
  rcount : list N;      (* uint8_t read_count[SR_RWLOCK_READ_LIMIT] *)
  upgr : N;
  writer : N;
  bad : bool
}.

Definition rw_init : rwlock := mkrw (repeat 0 READ_LIMIT) (repeat 0 READ_LIMIT) 0 0 false.

Definition assert_ (b : bool) (rw : rwlock) : rwlock :=
  mkrw (readers rw) (rcount rw) (upgr rw) (writer rw) (bad rw || negb b).
Definition set_upgr (u : N) (rw : rwlock) : rwlock := mkrw (readers rw) (rcount rw) u (writer rw) (bad rw).
Definition set_writer (w : N) (rw : rwlock) : rwlock := mkrw (readers rw) (rcount rw) (upgr rw) w (bad rw).
Definition set_table (r c : list N) (rw : rwlock) : rwlock := mkrw r c (upgr rw) (writer rw) (bad rw).

Definition get (l : list N) (i : nat) : N := nth i l 0.
Fixpoint set (l : list N) (i : nat) (v : N) : list N :=
  match l, i with
  | [], _ => []
  | _ :: r, O => v :: r
  | x :: r, S i' => x :: set r i' v
  end.

(** The search loop of sr_rwlock_reader_add() and sr_rwlock_reader_del(), src/common.c 2218
    and 2305: first index that is free or owned by [cid]. *)
Fixpoint find_slot (l : list N) (cid : N) : nat :=
  match l with
  | [] => O
  | r :: l' => if (r =? 0) || (r =? cid) then O else S (find_slot l' cid)
  end.

(** sr_rwlock_reader_add(), src/common.c 2212-2242; [None] is an error. *)
Definition reader_add (rw : rwlock) (cid : N) : option rwlock :=
  let i := find_slot (readers rw) cid in
  if Nat.eqb i READ_LIMIT then None
  else if get (readers rw) i =? 0
  then Some (set_table (set (readers rw) i cid) (set (rcount rw) i 1) rw)
  else if get (rcount rw) i =? 255 then None
  else Some (set_table (readers rw) (set (rcount rw) i (get (rcount rw) i + 1)) rw).

(** The loop of sr_rwlock_reader_del_() counting the readers to move, src/common.c 2269-2271. *)
Fixpoint run_len (l : list N) : nat :=
  match l with
  | [] => O
  | r :: l' => if r =? 0 then O else S (run_len l')
  end.

(** memmove(&l[i], &l[i + 1], n). *)
Definition shift (l : list N) (i n : nat) : list N :=
  firstn i l ++ firstn n (skipn (i + 1) l) ++ skipn (i + n) l.

(** sr_rwlock_reader_del_(), src/common.c 2250-2290. *)
Definition reader_del_ (rw : rwlock) (i : nat) : rwlock :=
  let rw := assert_ (negb (get (rcount rw) i =? 0)) rw in
  let c := (get (rcount rw) i + 255) mod 256 in
  let rw := set_table (readers rw) (set (rcount rw) i c) rw in
  if negb (c =? 0) then rw
  else
    let mc := run_len (skipn (i + 1) (readers rw)) in
    let last_r := get (readers rw) (i + mc) in
    let last_c := get (rcount rw) (i + mc) in
    let r := set (readers rw) (i + mc) 0 in
    let c := set (rcount rw) (i + mc) 0 in
    match mc with
    | O => set_table r c rw
    | S m =>
      set_table (set (shift r i mc) (i + m) last_r) (set (shift c i mc) (i + m) last_c) rw
    end.

(** sr_rwlock_reader_del(), src/common.c 2299-2320; [None] is an error. *)
Definition reader_del (rw : rwlock) (cid : N) : option rwlock :=
  let i := find_slot (readers rw) cid in
  if Nat.eqb i READ_LIMIT || negb (get (readers rw) i =? cid) then None
  else Some (reader_del_ rw i).

(** The reader loop of sr_rwlock_recover(), src/common.c 2336-2352.  [alive] is
    sr_conn_is_alive() during the call.  Each round removes one read lock or goes to the
    next reader, so [fuel] of [recover_fuel] is enough (proved). *)
Fixpoint recover_readers (fuel : nat) (alive : N -> bool) (rw : rwlock) (i : nat) : rwlock :=
  match fuel with
  | O => rw
  | S f =>
    if Nat.ltb i READ_LIMIT && negb (get (readers rw) i =? 0) then
      if negb (alive (get (readers rw) i)) then recover_readers f alive (reader_del_ rw i) i
      else recover_readers f alive rw (S i)
    else rw
  end.
Definition recover_fuel : nat := N.to_nat 4400.

(** sr_rwlock_recover(), src/common.c 2329-2380. *)
Definition recover (alive : N -> bool) (rw : rwlock) : rwlock :=
  let rw := recover_readers recover_fuel alive rw 0 in
  let rw := if negb (upgr rw =? 0) && negb (alive (upgr rw)) then set_upgr 0 rw else rw in
  if negb (writer rw =? 0) && negb (alive (writer rw)) then set_writer 0 rw else rw.

(** sr_lock_mode_t, src/common_types.h 44-50, without SR_LOCK_NONE. *)
Inductive mode := MRead | MUpgr | MWrite | MUrge.

Definition nz (n : N) : bool := negb (n =? 0).

(** The wait conditions of sr_sub_rwlock() for each mode, src/common.c 2413, 2447, 2492, 2527.
    [urged] is the local [wr_urged]. *)
Definition lock_blocked (m : mode) (urged : bool) (rw : rwlock) : bool :=
  match m with
  | MRead => nz (get (readers rw) (READ_LIMIT - 1)) || nz (writer rw)
  | MUpgr => nz (get (readers rw) (READ_LIMIT - 1)) || nz (upgr rw) || nz (writer rw)
  | MWrite => nz (get (readers rw) 0) || nz (writer rw)
  | MUrge => nz (get (readers rw) 0) || (nz (writer rw) && negb urged)
  end.

(** Result of a part of a lock function executed with the mutex held. *)
Inductive seg :=
| Done (rw : rwlock)        (* locked *)
| Wait (rw : rwlock) (urged : bool)   (* in COND WAIT, the mutex is released *)
| Fail (rw : rwlock) (full : bool).   (* returned an error; [full]: sr_rwlock_reader_add() failed *)

(** The end of sr_sub_rwlock() once not blocked, src/common.c 2430-2434, 2472-2479,
    2507-2513, 2541-2543. *)
Definition lock_finish (m : mode) (cid : N) (urged : bool) (rw : rwlock) : seg :=
  match m with
  | MWrite =>
    Done (set_writer cid (assert_ ((upgr rw =? 0) && (writer rw =? 0)) rw))
  | MUrge =>
    let rw := assert_ (upgr rw =? 0) rw in
    let rw := if urged then rw else set_writer cid rw in
    Done (assert_ (writer rw =? cid) rw)
  | MUpgr =>
    let rw := set_upgr cid rw in
    match reader_add rw cid with Some rw' => Done rw' | None => Fail rw true end
  | MRead =>
    match reader_add rw cid with Some rw' => Done rw' | None => Fail rw true end
  end.

(** One test of the while loop of sr_sub_rwlock(), src/common.c 2413-2416, 2447-2456. *)
Definition lock_test (m : mode) (cid : N) (urged : bool) (rw : rwlock) : seg :=
  if lock_blocked m urged rw then
    match m with
    | MUrge => if writer rw =? 0 then Wait (set_writer cid rw) true else Wait rw urged
    | _ => Wait rw urged
    end
  else lock_finish m cid urged rw.

(** sr_sub_rwlock() from taking the mutex ([ownerdead]: EOWNERDEAD) to the first wait or
    the end, src/common.c 2391-2543. *)
Definition lock_start (alive : N -> bool) (ownerdead : bool) (m : mode) (cid : N) (rw : rwlock) : seg :=
  let rw := if ownerdead then recover alive rw else rw in
  let rw := if lock_blocked m false rw then recover alive rw else rw in
  lock_test m cid false rw.

(** Return from COND WAIT, src/common.c 2413-2426, 2447-2471, 2492-2505, 2527-2540. *)
Definition lock_wake (alive : N -> bool) (timedout : bool) (m : mode) (cid : N) (urged : bool) (rw : rwlock) : seg :=
  if timedout then
    let rw := recover alive rw in
    if negb (lock_blocked m urged rw) then lock_finish m cid urged rw
    else Fail (match m with MUrge => if urged then set_writer 0 rw else rw | _ => rw end) false
  else lock_test m cid urged rw.

(** The wait condition of the upgrade in sr_rwrelock(), src/common.c 2646, 2705. *)
Definition upgrade_blocked (urge urged : bool) (rw : rwlock) : bool :=
  nz (get (readers rw) 1) || (1 <? get (rcount rw) 0) ||
  (nz (writer rw) && negb (urge && urged)).

(** The end of the upgrade, src/common.c 2662-2672, 2730-2747. *)
Definition upgrade_finish (urge : bool) (cid : N) (urged : bool) (rw : rwlock) : seg :=
  let rw := if urge then assert_ (get (readers rw) 0 =? cid) rw
            else assert_ ((upgr rw =? cid) && (get (readers rw) 0 =? cid)) rw in
  match reader_del rw cid with
  | None =>
    if urge then Fail (set_upgr cid (if urged then set_writer 0 rw else rw)) false else Fail rw false
  | Some rw =>
    if urge then Done (if urged then rw else set_writer cid rw)
    else Done (set_writer cid (set_upgr 0 rw))
  end.

(** One test of the while loop, src/common.c 2646-2649, 2705-2714. *)
Definition upgrade_test (urge : bool) (cid : N) (urged : bool) (rw : rwlock) : seg :=
  if upgrade_blocked urge urged rw then
    if urge && (writer rw =? 0) then Wait (set_writer cid rw) true else Wait rw urged
  else upgrade_finish urge cid urged rw.

(** sr_rwrelock() with SR_LOCK_WRITE ([urge] = false) or SR_LOCK_WRITE_URGE, from taking the
    mutex, src/common.c 2632-2649, 2681-2714. *)
Definition upgrade_start (alive : N -> bool) (ownerdead urge : bool) (cid : N) (rw : rwlock) : seg :=
  let rw := if ownerdead then recover alive rw else rw in
  let rw := assert_ (upgr rw =? cid) rw in
  let rw := if urge then set_upgr 0 rw else rw in
  let rw := if upgrade_blocked urge false rw then recover alive rw else rw in
  upgrade_test urge cid false rw.

(** Return from COND WAIT, src/common.c 2650-2660, 2715-2728. *)
Definition upgrade_wake (alive : N -> bool) (timedout urge : bool) (cid : N) (urged : bool) (rw : rwlock) : seg :=
  if timedout then
    let rw := recover alive rw in
    if negb (nz (get (readers rw) 1)) && (get (rcount rw) 0 =? 1) &&
       (negb (nz (writer rw)) || (urge && urged))
    then upgrade_finish urge cid urged rw
    else Fail (if urge then set_upgr cid (if urged then set_writer 0 rw else rw) else rw) false
  else upgrade_test urge cid urged rw.

(** sr_rwrelock() from a read-upgr to a read lock, src/common.c 2753-2770. *)
Definition downgrade_upgr (alive : N -> bool) (ownerdead : bool) (cid : N) (rw : rwlock) : rwlock :=
  let rw := if ownerdead then recover alive rw else rw in
  let rw := assert_ (upgr rw =? cid) rw in
  set_upgr 0 rw.

(** sr_rwrelock() from a write lock to a read or read-upgr lock, src/common.c 2772-2795. *)
Definition downgrade_write (to_upgr : bool) (cid : N) (rw : rwlock) : seg :=
  let rw := assert_ (negb (nz (get (readers rw) 0)) && (upgr rw =? 0) && (writer rw =? cid)) rw in
  match reader_add rw cid with
  | None => Fail rw true
  | Some rw =>
    let rw := set_writer 0 rw in
    Done (if to_upgr then set_upgr cid rw else rw)
  end.

(** sr_rwunlock() of a write lock, src/common.c 2806-2811. *)
Definition unlock_write (cid : N) (rw : rwlock) : rwlock :=
  set_writer 0 (assert_ (negb (nz (get (readers rw) 0)) && (upgr rw =? 0) && (writer rw =? cid)) rw).

(** sr_rwunlock() of a read or read-upgr lock, src/common.c 2812-2845.  The failure of
    sr_rwlock_reader_del() is ignored there. *)
Definition unlock_read (alive : N -> bool) (ownerdead isupgr : bool) (cid : N) (rw : rwlock) : rwlock :=
  let rw := if ownerdead then recover alive rw else rw in
  let rw := if isupgr then set_upgr 0 (assert_ (upgr rw =? cid) rw) else rw in
  match reader_del rw cid with Some rw => rw | None => rw end.

(** * The transition system *)

(** A lock held by a thread. *)
Inductive hold := HRead | HUpgr | HWrite.

(** What a thread is doing: running its own code, or waiting on the condition inside of
    sr_rwlock() ([m], wr_urged) or of sr_rwrelock() to SR_LOCK_WRITE/_WRITE_URGE. *)
Inductive pcs :=
| Idle
| LockWait (m : mode) (urged : bool)
| UpgrWait (urge urged : bool).

(** A thread: the CID of its connection, the locks it successfully acquired and not
    released yet, and its position. *)
Record thread := mkthr { tcid : N; held : list hold; pc : pcs }.

(** The robust mutex: free, owned by the thread with that index, or left by a dead owner. *)
Inductive mutex := MFree | MOwn (t : nat) | MDead.

Record sys := mksys {
  rw : rwlock;
  mtx : mutex;
  thr : list thread;
  dead : list N;       (* CIDs of crashed connections *)
  overflow : bool;     (* ghost: a read lock was refused after 255 recursive ones *)
  ub : bool            (* ghost: the unsynchronised downgrade below was entered wrongly *)
}.

Definition is_dead (s : sys) (c : N) : bool := existsb (N.eqb c) (dead s).
(** sr_conn_is_alive(), src/common.c 2866-2880: exact, as given by the file lock of the
    connection (src/shm_main.c, sr_shmmain_conn_check()). *)
Definition aliveb (s : sys) (c : N) : bool := negb (is_dead s c).

Fixpoint upd (l : list thread) (t : nat) (x : thread) : list thread :=
  match l, t with
  | [], _ => []
  | _ :: r, O => x :: r
  | y :: r, S t' => y :: upd r t' x
  end.

(** Remove one occurrence of a hold. *)
Definition hold_eqb (a b : hold) : bool :=
  match a, b with HRead, HRead | HUpgr, HUpgr | HWrite, HWrite => true | _, _ => false end.
Fixpoint drop1 (h : hold) (l : list hold) : list hold :=
  match l with
  | [] => []
  | x :: r => if hold_eqb h x then r else x :: drop1 h r
  end.

Definition hold_of (m : mode) : hold :=
  match m with MRead => HRead | MUpgr => HUpgr | MWrite | MUrge => HWrite end.

Definition is_write (m : mode) : bool := match m with MWrite | MUrge => true | _ => false end.

(** State after a part of sr_rwlock() in mode [m] run by thread number [t] ([x]):
    a write lock keeps the mutex. *)
Definition after_lock (s : sys) (t : nat) (x : thread) (m : mode) (g : seg) : sys :=
  match g with
  | Done r =>
    mksys r (if is_write m then MOwn t else MFree)
          (upd (thr s) t (mkthr (tcid x) (hold_of m :: held x) Idle)) (dead s) (overflow s) (ub s)
  | Wait r u =>
    mksys r MFree (upd (thr s) t (mkthr (tcid x) (held x) (LockWait m u))) (dead s) (overflow s) (ub s)
  | Fail r full =>
    mksys r MFree (upd (thr s) t (mkthr (tcid x) (held x) Idle)) (dead s) (overflow s || full) (ub s)
  end.

(** State after a part of an upgrade; the thread has a read-upgr lock. *)
Definition after_upgrade (s : sys) (t : nat) (x : thread) (urge : bool) (g : seg) : sys :=
  match g with
  | Done r =>
    mksys r (MOwn t) (upd (thr s) t (mkthr (tcid x) (HWrite :: drop1 HUpgr (held x)) Idle))
          (dead s) (overflow s) (ub s)
  | Wait r u =>
    mksys r MFree (upd (thr s) t (mkthr (tcid x) (held x) (UpgrWait urge u))) (dead s) (overflow s) (ub s)
  | Fail r _ =>
    mksys r MFree (upd (thr s) t (mkthr (tcid x) (held x) Idle)) (dead s) (overflow s) (ub s)
  end.

Definition hold_down (to_upgr : bool) : hold := if to_upgr then HUpgr else HRead.

(** State after a downgrade from a write lock. *)
Definition after_down (s : sys) (t : nat) (x : thread) (to_upgr : bool) (g : seg) : sys :=
  match g with
  | Done r | Wait r _ =>
    mksys r MFree (upd (thr s) t (mkthr (tcid x) (hold_down to_upgr :: drop1 HWrite (held x)) Idle))
          (dead s) (overflow s) (ub s)
  | Fail r _ => mksys r (mtx s) (thr s) (dead s) true (ub s)
  end.

Definition mfree (m : mutex) : bool := match m with MOwn _ => false | _ => true end.
Definition mdead (m : mutex) : bool := match m with MDead => true | _ => false end.

(** The locks that a dying connection leaves behind: all its threads are gone, its mutex
    is marked as having a dead owner. *)
Definition kill_thread (c : N) (x : thread) : thread :=
  if tcid x =? c then mkthr (tcid x) [] Idle else x.
Definition kill_mutex (c : N) (l : list thread) (m : mutex) : mutex :=
  match m with
  | MOwn t => match nth_error l t with
              | Some x => if tcid x =? c then MDead else MOwn t
              | None => MOwn t
              end
  | _ => m
  end.

(** Single stores a thread of connection [c] can do between taking and releasing the mutex
    (the updates of the reader table are taken as atomic, see [C02_crash_in_table_refuted]).
    A crash inside of a lock function leaves a state reached by some of them. *)
Inductive prim (alive : N -> bool) (c : N) : rwlock -> rwlock -> Prop :=
| p_del_dead : forall r i, (i < READ_LIMIT)%nat -> get (readers r) i <> 0 ->
    alive (get (readers r) i) = false -> prim alive c r (reader_del_ r i)
| p_upgr_dead : forall r, upgr r <> 0 -> alive (upgr r) = false -> prim alive c r (set_upgr 0 r)
| p_writer_dead : forall r, writer r <> 0 -> alive (writer r) = false -> prim alive c r (set_writer 0 r)
| p_upgr_set : forall r, upgr r = 0 -> prim alive c r (set_upgr c r)
| p_upgr_clear : forall r, upgr r = c -> prim alive c r (set_upgr 0 r)
| p_writer_set : forall r, writer r = 0 -> prim alive c r (set_writer c r)
| p_writer_clear : forall r, writer r = c -> prim alive c r (set_writer 0 r)
| p_add : forall r r', reader_add r c = Some r' -> prim alive c r r'
| p_del : forall r r', reader_del r c = Some r' -> prim alive c r r'
| p_assert : forall r b, prim alive c r (assert_ b r).

Inductive prims (alive : N -> bool) (c : N) : rwlock -> rwlock -> Prop :=
| ps_nil : forall r, prims alive c r r
| ps_cons : forall r r' r'', prim alive c r r' -> prims alive c r' r'' -> prims alive c r r''.

(** How the users of a particular lock use it. *)
Record policy := {
  p_urge_lock : bool;    (* sr_rwlock() with SR_LOCK_WRITE_URGE *)
  p_urge_relock : bool;  (* sr_rwrelock() to SR_LOCK_WRITE_URGE *)
  p_upgr_down : bool;    (* sr_rwrelock() from READ_UPGR to READ *)
  p_mid_crash : bool     (* crashes also inside of the lock functions *)
}.

Inductive step (p : policy) : sys -> sys -> Prop :=
| S_lock : forall s t x m,
    nth_error (thr s) t = Some x -> pc x = Idle -> aliveb s (tcid x) = true -> mfree (mtx s) = true ->
    (m = MUrge -> p_urge_lock p = true) ->
    step p s (after_lock s t x m (lock_start (aliveb s) (mdead (mtx s)) m (tcid x) (rw s)))
| S_lock_wake : forall s t x m u timedout,
    nth_error (thr s) t = Some x -> pc x = LockWait m u -> aliveb s (tcid x) = true -> mfree (mtx s) = true ->
    step p s (after_lock s t x m (lock_wake (aliveb s) timedout m (tcid x) u (rw s)))
| S_upgrade : forall s t x urge,
    nth_error (thr s) t = Some x -> pc x = Idle -> aliveb s (tcid x) = true -> mfree (mtx s) = true ->
    In HUpgr (held x) -> (urge = true -> p_urge_relock p = true) ->
    step p s (after_upgrade s t x urge (upgrade_start (aliveb s) (mdead (mtx s)) urge (tcid x) (rw s)))
| S_upgrade_wake : forall s t x urge u timedout,
    nth_error (thr s) t = Some x -> pc x = UpgrWait urge u -> aliveb s (tcid x) = true -> mfree (mtx s) = true ->
    step p s (after_upgrade s t x urge (upgrade_wake (aliveb s) timedout urge (tcid x) u (rw s)))
(* The test of [writer] without the mutex, src/common.c 2753, was passed earlier. *)
| S_down_upgr : forall s t x,
    nth_error (thr s) t = Some x -> pc x = Idle -> aliveb s (tcid x) = true -> mfree (mtx s) = true ->
    In HUpgr (held x) -> p_upgr_down p = true ->
    step p s (mksys (downgrade_upgr (aliveb s) (mdead (mtx s)) (tcid x) (rw s)) MFree
                    (upd (thr s) t (mkthr (tcid x) (HRead :: drop1 HUpgr (held x)) Idle))
                    (dead s) (overflow s) (ub s))
(* The test found a [writer] although this thread is none: the code for the downgrade of a
   write lock is executed without the mutex. *)
| S_down_upgr_ub : forall s t x,
    nth_error (thr s) t = Some x -> pc x = Idle -> aliveb s (tcid x) = true ->
    In HUpgr (held x) -> p_upgr_down p = true -> writer (rw s) <> 0 ->
    step p s (mksys (rw s) (mtx s) (thr s) (dead s) (overflow s) true)
| S_down_write : forall s t x to_upgr,
    nth_error (thr s) t = Some x -> pc x = Idle -> aliveb s (tcid x) = true ->
    In HWrite (held x) ->
    step p s (after_down s t x to_upgr (downgrade_write to_upgr (tcid x) (rw s)))
| S_unlock_write : forall s t x,
    nth_error (thr s) t = Some x -> pc x = Idle -> aliveb s (tcid x) = true ->
    In HWrite (held x) ->
    step p s (mksys (unlock_write (tcid x) (rw s)) MFree
                    (upd (thr s) t (mkthr (tcid x) (drop1 HWrite (held x)) Idle))
                    (dead s) (overflow s) (ub s))
(* The mutex is always obtained here: no write lock is held when a read lock is
   ([C01_reader_gets_mutex]), so it is only held for moments. *)
| S_unlock_read : forall s t x isupgr,
    nth_error (thr s) t = Some x -> pc x = Idle -> aliveb s (tcid x) = true -> mfree (mtx s) = true ->
    In (hold_down isupgr) (held x) ->
    step p s (mksys (unlock_read (aliveb s) (mdead (mtx s)) isupgr (tcid x) (rw s)) MFree
                    (upd (thr s) t (mkthr (tcid x) (drop1 (hold_down isupgr) (held x)) Idle))
                    (dead s) (overflow s) (ub s))
| S_crash : forall s c,
    step p s (mksys (rw s) (kill_mutex c (thr s) (mtx s)) (map (kill_thread c) (thr s))
                    (c :: dead s) (overflow s) (ub s))
| S_crash_mid : forall s t x r,
    nth_error (thr s) t = Some x -> aliveb s (tcid x) = true ->
    (mfree (mtx s) = true \/ mtx s = MOwn t) -> p_mid_crash p = true ->
    prims (aliveb s) (tcid x) (rw s) r ->
    step p s (mksys r MDead (map (kill_thread (tcid x)) (thr s)) (tcid x :: dead s) (overflow s) (ub s)).

(** Start: any number of threads with any (non-zero) connection IDs, nothing locked. *)
Definition sys_start (s : sys) : Prop :=
  rw s = rw_init /\ mtx s = MFree /\ dead s = [] /\ overflow s = false /\ ub s = false /\
  Forall (fun x => tcid x <> 0 /\ held x = [] /\ pc x = Idle) (thr s).

Inductive reach (p : policy) : sys -> Prop :=
| R_start : forall s, sys_start s -> reach p s
| R_step : forall s s', reach p s -> step p s s' -> reach p s'.

(** * Stores inside of sr_rwlock_reader_del_() *)

(** The state after the first [k] stores of sr_rwlock_reader_del_(), src/common.c 2258-2289
    (a memmove counts as one): the count is decreased, the last reader and its count are
    cleared, both arrays are moved, the last reader and its count are restored. *)
Definition reader_del_upto (k : nat) (rw : rwlock) (i : nat) : rwlock :=
  let mc := run_len (skipn (i + 1) (readers rw)) in
  let r0 := readers rw in
  let c1 := set (rcount rw) i ((get (rcount rw) i + 255) mod 256) in
  let last_r := get r0 (i + mc) in
  let last_c := get c1 (i + mc) in
  let r2 := set r0 (i + mc) 0 in
  let c3 := set c1 (i + mc) 0 in
  let r4 := shift r2 i mc in
  let c5 := shift c3 i mc in
  let r6 := set r4 (i + mc - 1) last_r in
  let c7 := set c5 (i + mc - 1) last_c in
  match k with
  | O => rw
  | 1%nat => set_table r0 c1 rw
  | 2%nat => set_table r2 c1 rw
  | 3%nat => set_table r2 c3 rw
  | 4%nat => set_table r4 c3 rw
  | 5%nat => set_table r4 c5 rw
  | 6%nat => set_table r6 c5 rw
  | _ => set_table r6 c7 rw
  end.

(** * Running the system *)

(** A step chosen by a label, for examples. *)
Inductive label :=
| L_lock (t : nat) (m : mode)
| L_wake (t : nat) (timedout : bool)
| L_upgrade (t : nat) (urge : bool)
| L_down_upgr (t : nat)
| L_down_write (t : nat) (to_upgr : bool)
| L_unlock_write (t : nat)
| L_unlock_read (t : nat) (isupgr : bool)
| L_crash (c : N).

Definition idle (x : thread) : bool := match pc x with Idle => true | _ => false end.
Definition holds_b (h : hold) (x : thread) : bool := existsb (hold_eqb h) (held x).

Definition exec (p : policy) (a : label) (s : sys) : option sys :=
  match a with
  | L_crash c =>
    Some (mksys (rw s) (kill_mutex c (thr s) (mtx s)) (map (kill_thread c) (thr s)) (c :: dead s) (overflow s) (ub s))
  | L_lock t _ | L_wake t _ | L_upgrade t _ | L_down_upgr t | L_down_write t _ | L_unlock_write t
  | L_unlock_read t _ =>
    match nth_error (thr s) t with
    | None => None
    | Some x =>
      if negb (aliveb s (tcid x)) then None else
      match a with
      | L_lock _ m =>
        if idle x && mfree (mtx s) && (match m with MUrge => p_urge_lock p | _ => true end)
        then Some (after_lock s t x m (lock_start (aliveb s) (mdead (mtx s)) m (tcid x) (rw s))) else None
      | L_wake _ to =>
        if negb (mfree (mtx s)) then None else
        match pc x with
        | LockWait m u => Some (after_lock s t x m (lock_wake (aliveb s) to m (tcid x) u (rw s)))
        | UpgrWait urge u => Some (after_upgrade s t x urge (upgrade_wake (aliveb s) to urge (tcid x) u (rw s)))
        | Idle => None
        end
      | L_upgrade _ urge =>
        if idle x && mfree (mtx s) && holds_b HUpgr x && (negb urge || p_urge_relock p)
        then Some (after_upgrade s t x urge (upgrade_start (aliveb s) (mdead (mtx s)) urge (tcid x) (rw s))) else None
      | L_down_upgr _ =>
        if idle x && mfree (mtx s) && holds_b HUpgr x && p_upgr_down p
        then Some (mksys (downgrade_upgr (aliveb s) (mdead (mtx s)) (tcid x) (rw s)) MFree
                    (upd (thr s) t (mkthr (tcid x) (HRead :: drop1 HUpgr (held x)) Idle))
                    (dead s) (overflow s) (ub s)) else None
      | L_down_write _ to_upgr =>
        if idle x && holds_b HWrite x
        then Some (after_down s t x to_upgr (downgrade_write to_upgr (tcid x) (rw s))) else None
      | L_unlock_write _ =>
        if idle x && holds_b HWrite x
        then Some (mksys (unlock_write (tcid x) (rw s)) MFree
                    (upd (thr s) t (mkthr (tcid x) (drop1 HWrite (held x)) Idle))
                    (dead s) (overflow s) (ub s)) else None
      | L_unlock_read _ isupgr =>
        if idle x && mfree (mtx s) && holds_b (hold_down isupgr) x
        then Some (mksys (unlock_read (aliveb s) (mdead (mtx s)) isupgr (tcid x) (rw s)) MFree
                    (upd (thr s) t (mkthr (tcid x) (drop1 (hold_down isupgr) (held x)) Idle))
                    (dead s) (overflow s) (ub s)) else None
      | L_crash _ => None
      end
    end
  end.

Fixpoint run (p : policy) (l : list label) (s : sys) : option sys :=
  match l with
  | [] => Some s
  | a :: r => match exec p a s with Some s' => run p r s' | None => None end
  end.

Definition start (cids : list N) : sys :=
  mksys rw_init MFree (map (fun c => mkthr c [] Idle) cids) [] false false.
