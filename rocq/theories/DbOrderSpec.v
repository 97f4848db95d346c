(** * Specification: lists ordered by the user *)

From Coq Require Import List Arith Bool.
Import ListNotations.
From Verif Require Import DbOrder.

(** [after p x l l']: [l'] is [l] with [x] put directly behind [p], in front of
    everything if [p] is [None]. *)
Definition after (p : option key) (x : key) (l l' : list key) : Prop :=
  match p with
  | None => l' = x :: l
  | Some k => exists a b, l = a ++ k :: b /\ l' = a ++ k :: x :: b
  end.

(** [x] is taken out of [l], its predecessor was [p]. *)
Definition taken (p : option key) (x : key) (l l' : list key) : Prop :=
  match p with
  | None => l = x :: l'
  | Some k => exists a b, l = a ++ k :: x :: b /\ l' = a ++ k :: b
  end.

(** What an operation means.  An instance is created once only. *)
Definition means (o : op) (l l' : list key) : Prop :=
  match o with
  | Create x p => ~ In x l /\ after p x l l'
  | Delete x orig => taken orig x l l'
  | Move x orig p => exists l1, taken orig x l l1 /\ after p x l1 l'
  end.

(** lists by their identity *)
Definition lists : Type := nat -> list key.

Inductive diff_means : list (nat * op) -> lists -> lists -> Prop :=
  | dm_nil s s' : (forall j, s' j = s j) -> diff_means [] s s'
  | dm_cons i o l s s1 s' :
      means o (s i) (s1 i) -> (forall j, j <> i -> s1 j = s j) ->
      diff_means l s1 s' -> diff_means ((i, o) :: l) s s'.

Inductive diffs_mean : list (list (nat * op)) -> lists -> lists -> Prop :=
  | ds_nil s s' : (forall j, s' j = s j) -> diffs_mean [] s s'
  | ds_cons l ds s s1 s' : diff_means l s s1 -> diffs_mean ds s1 s' -> diffs_mean (l :: ds) s s'.

(** [q] is the node [p] or below it. *)
Definition below (p q : path) : Prop := exists r, q = p ++ r.

(** [q] is below a sibling of [p] whose name starts with that of [p]. *)
Definition longer_name (p q : path) : Prop :=
  exists p0 s t r, p = p0 ++ [s] /\ t <> [] /\ q = p0 ++ (s ++ t) :: r.
