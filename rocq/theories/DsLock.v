(** Datastore locks: sr_lock(), sr_unlock(), sr_get_lock(), the tests of the locks by other
    sessions and their release at the end of a session.

    The mutex of each datastore lock is only held around reading or changing of its fields, which
    are therefore single steps; whether getting it fails (timeout) is an argument.  The module
    locks themselves are taken to be correct read-write locks (the subject of RwLock.v). *)
From Coq Require Import List NArith Bool.
Import ListNotations.
Open Scope N_scope.

(** struct sr_mod_lock_s, src/shm_types.h: owner connection, owner session (0 is not locked), time. *)
Record dsl := mkdsl { dl_cid : N; dl_sid : N; dl_ts : N }.

(** * One call of sr_change_dslock(), src/sysrepo.c 4801-4892 *)

(** What happens at one module of the call: getting of the mutex, and whether the candidate
    datastore of the module was modified ([None]: that callback failed). *)
Record outcome := mkout { o_mutex : bool; o_modified : option bool }.

(** One turn of the loop, 4811-4858: [None] is an error (nothing was changed). *)
Definition change_one (cand lock : bool) (cid sid now : N) (o : outcome) (d : dsl) : option dsl :=
  if negb (o_mutex o) then None
  else if negb (dl_sid d =? 0) && lock then None
  else if (dl_sid d =? 0) && negb lock then None
  else if lock && cand && match o_modified o with Some b => b | None => true end then None
  else if lock then Some (mkdsl cid sid now) else Some (mkdsl 0 0 0).

(** Reversal of one changed module, 4867-4889; [false]: its mutex was not obtained. *)
Definition reverse_one (lock : bool) (sid now : N) (mutex : bool) (d : dsl) : dsl :=
  if negb mutex then d
  else if lock then mkdsl (dl_cid d) 0 0 else mkdsl (dl_cid d) sid now.

(** The loop over the modules; on an error the modules before are reversed. *)
Fixpoint change_loop (cand lock : bool) (cid sid now : N) (l : list (dsl * outcome)) : bool * list dsl :=
  match l with
  | [] => (true, [])
  | (d, o) :: r =>
    match change_one cand lock cid sid now o d with
    | None => (false, d :: map fst r)
    | Some d' => let '(ok, r') := change_loop cand lock cid sid now r in (ok, d' :: r')
    end
  end.
(** How many modules were changed before the error. *)
Fixpoint changed (cand lock : bool) (cid sid now : N) (l : list (dsl * outcome)) : nat :=
  match l with
  | [] => O
  | (d, o) :: r => match change_one cand lock cid sid now o d with None => O | Some _ => S (changed cand lock cid sid now r) end
  end.
Fixpoint reverse_n (n : nat) (lock : bool) (sid now : N) (rm : list bool) (l : list dsl) : list dsl :=
  match n, l with
  | S n', d :: r => reverse_one lock sid now (match rm with b :: _ => b | [] => true end) d :: reverse_n n' lock sid now (tl rm) r
  | _, _ => l
  end.
Definition change_dslock (cand lock : bool) (cid sid now : N) (l : list (dsl * outcome)) (rm : list bool) : bool * list dsl :=
  let '(ok, l') := change_loop cand lock cid sid now l in
  if ok then (true, l') else (false, reverse_n (changed cand lock cid sid now l) lock sid now rm l').

(** The end of _sr_un_lock(), src/sysrepo.c 4945-4957: after unlocking the candidate datastore it
    is reset, which can fail ([reset]). *)
Definition un_lock (cand lock : bool) (cid sid now : N) (l : list (dsl * outcome)) (rm : list bool) (reset : bool) : bool * list dsl :=
  let '(ok, l') := change_dslock cand lock cid sid now l rm in
  (ok && (lock || negb cand || reset), l').

(** sr_get_lock(), src/sysrepo.c 5034-5072: [None] is [is_locked] 0; the first component of
    [Some] is the session. *)
Fixpoint get_lock_loop (l : list dsl) (sid : N) (ts : N) : option (N * N) :=
  match l with
  | [] => Some (sid, ts)
  | d :: r =>
    if dl_sid d =? 0 then None
    else if sid =? 0 then get_lock_loop r (dl_sid d) (dl_ts d)
    else if negb (sid =? dl_sid d) then None
    else get_lock_loop r sid ts
  end.
(** [None]: the result is not set at all (no modules). *)
Definition get_lock (l : list dsl) : option (option (N * N)) :=
  match l with [] => None | _ => Some (get_lock_loop l 0 0) end.

(** * All sessions *)

(** Module locks: SR_LOCK_READ, SR_LOCK_READ_UPGR, SR_LOCK_WRITE(_URGE). *)
Inductive lmode := LRead | LUpgr | LWrite.
Definition lmode_eqb (a b : lmode) : bool :=
  match a, b with LRead, LRead | LUpgr, LUpgr | LWrite, LWrite => true | _, _ => false end.

(** A session: its ID and connection. *)
Record sess := mksess { se_sid : N; se_cid : N }.

Record st := mkst {
  ds : nat -> dsl;                          (* datastore lock of each module *)
  held : nat -> list (nat * lmode);         (* holders of the module lock: session number, mode *)
  dead : N -> bool;                         (* connections which died *)
  dat : nat -> list nat                     (* the history of the data of a module: sessions which stored *)
}.

Definition upd {A} (f : nat -> A) (i : nat) (x : A) : nat -> A := fun j => if Nat.eqb j i then x else f j.
Definition set_ds s m d := mkst (upd (ds s) m d) (held s) (dead s) (dat s).
Definition set_held s m h := mkst (ds s) (upd (held s) m h) (dead s) (dat s).

(** The read-write lock of the module allows it. *)
Definition compatible (h : list (nat * lmode)) (m : lmode) : bool :=
  match m with
  | LRead => forallb (fun x => negb (lmode_eqb (snd x) LWrite)) h
  | LUpgr => forallb (fun x => lmode_eqb (snd x) LRead) h
  | LWrite => match h with [] => true | _ => false end
  end.

Fixpoint del1 (c : nat) (m : lmode) (h : list (nat * lmode)) : list (nat * lmode) :=
  match h with
  | [] => []
  | x :: r => if Nat.eqb (fst x) c && lmode_eqb (snd x) m then r else x :: del1 c m r
  end.
Definition holds (h : list (nat * lmode)) (c : nat) (m : lmode) : bool :=
  existsb (fun x => Nat.eqb (fst x) c && lmode_eqb (snd x) m) h.

(** The test of the datastore lock in sr_shmmod_lock(), src/shm_mod.c 1327-1349: [None] is locked
    by another session, otherwise the lock, which is cleared if its owner is dead. *)
Definition ds_test (dead : N -> bool) (sid : N) (d : dsl) : option dsl :=
  if negb (dl_sid d =? 0) && negb (dl_sid d =? sid) then
    if dead (dl_cid d) then Some (mkdsl 0 0 0) else None
  else Some d.

(** Steps of session number [c]; each is one critical section of the code. *)
Inductive act : Type :=
| Lock (m : nat) (md : lmode)     (* sr_shmmod_lock() succeeds, src/shm_mod.c 1298-1355 *)
| Upgrade (m : nat)               (* the same with relock: READ_UPGR to WRITE_URGE *)
| Downgrade (m : nat) (md : lmode) (* sr_shmmod_modinfo_wrlock_downgrade(), 1506-1534, or the revert of an upgrade *)
| Release (m : nat) (md : lmode)  (* sr_rwunlock() in sr_shmmod_modinfo_unlock(), 1536-1579, or the revert of a lock *)
| DsSet (m : nat)                 (* sr_change_dslock() with lock, src/sysrepo.c 4841-4845 *)
| DsClear (m : nat)               (* sr_change_dslock() without lock, 4846-4850 *)
| DsUnset (m : nat)               (* reversal of DsSet, 4878-4880 *)
| DsReset (m : nat)               (* reversal of DsClear, 4881-4884 *)
| Store (m : nat)                 (* a store of data of the module *)
| StopOne (m : nat)               (* sr_shmmod_release_locks() at the module, src/shm_mod.c 1581-1610 *)
| Crash.                          (* the connection of the session dies *)

Definition step (ss : nat -> sess) (s : st) (c : nat) (a : act) : option st :=
  let sid := se_sid (ss c) in
  let cid := se_cid (ss c) in
  if dead s cid then None else
  match a with
  | Lock m md =>
    if compatible (held s m) md then
      match md with
      | LRead => Some (set_held s m ((c, md) :: held s m))
      | _ => match ds_test (dead s) sid (ds s m) with
             | None => None
             | Some d => Some (set_ds (set_held s m ((c, md) :: held s m)) m d)
             end
      end
    else None
  | Upgrade m =>
    if holds (held s m) c LUpgr && compatible (del1 c LUpgr (held s m)) LWrite then
      match ds_test (dead s) sid (ds s m) with
      | None => None
      | Some d => Some (set_ds (set_held s m [(c, LWrite)]) m d)
      end
    else None
  | Downgrade m md =>
    if holds (held s m) c LWrite && negb (lmode_eqb md LWrite)
    then Some (set_held s m ((c, md) :: del1 c LWrite (held s m))) else None
  | Release m md => if holds (held s m) c md then Some (set_held s m (del1 c md (held s m))) else None
  | DsSet m =>
    if holds (held s m) c LWrite && (dl_sid (ds s m) =? 0) then Some (set_ds s m (mkdsl cid sid 1)) else None
  | DsClear m =>
    if holds (held s m) c LWrite && negb (dl_sid (ds s m) =? 0) then Some (set_ds s m (mkdsl 0 0 0)) else None
  | DsUnset m =>
    if holds (held s m) c LWrite && (dl_sid (ds s m) =? sid) then Some (set_ds s m (mkdsl (dl_cid (ds s m)) 0 0)) else None
  | DsReset m =>
    if holds (held s m) c LWrite && (dl_sid (ds s m) =? 0) then Some (set_ds s m (mkdsl (dl_cid (ds s m)) sid 1)) else None
  | Store m => if holds (held s m) c LWrite then Some (mkst (ds s) (held s) (dead s) (upd (dat s) m (c :: dat s m))) else None
  | StopOne m => if dl_sid (ds s m) =? sid then Some (set_ds s m (mkdsl (dl_cid (ds s m)) 0 0)) else Some s
  | Crash =>
    (* the module locks of dead connections are recovered when needed (C02) *)
    Some (mkst (ds s) (fun m => filter (fun x => negb (se_cid (ss (fst x)) =? cid)) (held s m))
               (fun k => (k =? cid) || dead s k) (dat s))
  end.

Fixpoint run (ss : nat -> sess) (s : st) (l : list (nat * act)) : option st :=
  match l with
  | [] => Some s
  | (c, a) :: r => match step ss s c a with Some s' => run ss s' r | None => None end
  end.

(** At the beginning nothing is locked; connection ID 0 is never alive (sr_conn_is_alive(),
    src/common.c 2867-2880). *)
Definition init : st := mkst (fun _ => mkdsl 0 0 0) (fun _ => []) (fun k => k =? 0) (fun _ => []).
