(** What the read-write lock promises, in terms of the successful lock calls of the threads
    ([held], [pc]) only. *)
From Coq Require Import List NArith Bool.
From Verif Require Import RwLock.
Import ListNotations.
Open Scope N_scope.

(** Thread number [t] has acquired a lock of kind [h] and not released it. *)
Definition holds (s : sys) (t : nat) (h : hold) : Prop :=
  exists x, nth_error (thr s) t = Some x /\ In h (held x).

(** Thread number [t] belongs to connection [c]. *)
Definition thread_of (s : sys) (t : nat) (c : N) : Prop :=
  exists x, nth_error (thr s) t = Some x /\ tcid x = c.

(** Thread number [t] waits for a write lock "urgently": new readers are kept out. *)
Definition urges (s : sys) (t : nat) : Prop :=
  exists x, nth_error (thr s) t = Some x /\
    (pc x = LockWait MUrge true \/ pc x = UpgrWait true true).

Definition reads_lock (s : sys) (t : nat) : Prop := holds s t HRead \/ holds s t HUpgr.

(** Thread [t] of a living connection is a reason for a lock of mode [m] to wait. *)
Definition in_the_way (s : sys) (m : mode) (t : nat) : Prop :=
  (exists c, thread_of s t c /\ aliveb s c = true) /\
  (urges s t \/ holds s t HWrite \/
   (m = MUpgr /\ holds s t HUpgr) \/
   ((m = MWrite \/ m = MUrge) /\ reads_lock s t)).

(** The reader table is full of readers from [READ_LIMIT] different living connections. *)
Definition full_of_living (s : sys) : Prop :=
  exists cs, NoDup cs /\ length cs = READ_LIMIT /\
    forall c, In c cs -> aliveb s c = true /\ exists t, thread_of s t c /\ reads_lock s t.

(** The connection [c] has nothing to do with the lock. *)
Definition conn_clean (s : sys) (c : N) : Prop :=
  aliveb s c = true /\
  forall t x, nth_error (thr s) t = Some x -> tcid x = c -> held x = [] /\ pc x = Idle.

(** No trace of connection [c] in the shared lock structure. *)
Definition no_trace (s : sys) (c : N) : Prop :=
  ~ In c (readers (rw s)) /\ upgr (rw s) <> c /\ writer (rw s) <> c /\
  forall t, thread_of s t c -> mtx s <> MOwn t.
