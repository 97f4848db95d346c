(** Specification of datastore locks. *)
From Coq Require Import List NArith Bool.
From Verif Require Import DsLock.
Import ListNotations.
Open Scope N_scope.

(** Session IDs are unique and not 0 (0 is used for internal accesses without a session). *)
Definition sess_ok (ss : nat -> sess) : Prop :=
  forall c c', c <> c' -> se_sid (ss c) <> 0 -> se_sid (ss c) <> se_sid (ss c').

(** The session takes the datastore lock of the module. *)
Definition takes (c m : nat) (x : nat * act) : Prop := x = (c, DsSet m).

(** The session gives it back: its call of sr_unlock() (or the reversal in its failed sr_lock()),
    its end, the end of its process. *)
Definition ends (ss : nat -> sess) (c m : nat) (x : nat * act) : Prop :=
  x = (c, DsClear m) \/ x = (c, DsUnset m) \/ x = (c, StopOne m) \/
  (snd x = Crash /\ se_cid (ss (fst x)) = se_cid (ss c)).

(** Who owns a datastore lock, as sr_get_lock() tells. *)
Definition owner (d : dsl) : N := dl_sid d.

(** What anybody can learn of a datastore lock. *)
Definition visible (d : dsl) : option dsl := if dl_sid d =? 0 then None else Some d.
