(** What C28 means, told by the history of events alone (newest event first). *)
From Coq Require Import List Arith NArith Bool.
Import ListNotations.
From Verif Require Import RunCache.

(** The running data of module [m] that are stored at the end of the history [h] *)
Fixpoint current (m : modid) (h : list event) : data :=
  match h with
  | [] => []
  | EStore m' d :: r => if Nat.eqb m' m then d else current m r
  | EOther m' d :: r => if Nat.eqb m' m then d else current m r
  | EContext _ f :: _ => f m
  | _ :: r => current m r
  end.

(** Something went wrong with [m] after it was last stored: an operation storing it failed or its
    process died in the middle, its data were changed by other means, loading them failed. *)
Fixpoint disturbed (m : modid) (h : list event) : bool :=
  match h with
  | [] => false
  | EStore m' _ :: r => if Nat.eqb m' m then false else disturbed m r
  | EContext _ _ :: _ => false
  | EInterrupted m' :: r => Nat.eqb m' m || disturbed m r
  | EOther m' _ :: r => Nat.eqb m' m || disturbed m r
  | ELoadFailed m' :: r => Nat.eqb m' m || disturbed m r
  | EServe _ _ _ :: r | EAssert _ :: r => disturbed m r
  end.

(** How many times [m] was stored *)
Fixpoint stores (m : modid) (h : list event) : N :=
  match h with
  | [] => 0
  | EStore m' _ :: r => if Nat.eqb m' m then (stores m r + 1)%N else stores m r
  | _ :: r => stores m r
  end.

(** Content ids of all the sets of modules there have been *)
Fixpoint contents (h0 : N) (h : list event) : list N :=
  match h with
  | [] => [h0]
  | EContext x _ :: r => x :: contents h0 r
  | _ :: r => contents h0 r
  end.

(** C28: whatever is served is what is stored at that time. *)
Definition coherent (h : list event) : Prop :=
  forall later earlier t m d, h = later ++ EServe t m d :: earlier -> d = current m earlier.
