(** What sr_get_data() should return. *)
From Coq Require Import NArith List Bool Arith.
From Verif Require Import GetData.
Import ListNotations.

(** [below n a x]: [x] is [n] levels below [a]. *)
Inductive below : nat -> tree -> tree -> Prop :=
| below_O : forall t, below 0 t t
| below_S : forall n t k x, In k (t_kids t) -> below n k x -> below (S n) t x.

Definition inside (f : list tree) (x : tree) : Prop := exists t n, In t f /\ below n t x.

Fixpoint preorder (t : tree) : list N := match t with T i _ _ l => i :: flat_map preorder l end.
Definition ids (f : list tree) : list N := flat_map preorder f.

(** YANG data: nodes are distinct; keys are leaves and the first children of their
    parents; what is below state data are state data, keys are like their lists. *)
Definition wf (f : list tree) : Prop :=
  NoDup (ids f) /\
  (forall x, In x f -> t_key x = false) /\
  forall x, inside f x ->
    (t_key x = true -> t_kids x = []) /\
    (exists l1 l2, t_kids x = l1 ++ l2 /\ (forall y, In y l1 -> t_key y = true) /\ (forall y, In y l2 -> t_key y = false)) /\
    (t_state x = true -> forall y, In y (t_kids x) -> t_state y = true) /\
    (forall y, In y (t_kids x) -> t_key y = true -> t_state y = t_state x).

(** What the options leave of the data below a selected node: keys stay with their
    lists; without state data there are only configuration nodes, without
    configuration only state data and the configuration nodes leading to them. *)
Definition survives (o : opts) (x : tree) : Prop :=
  t_key x = true \/
  (t_state x = true /\ no_state o = false) \/
  (t_state x = false /\ (no_config o = false \/
     exists n y, below n x y /\ t_state y = true /\ t_key y = false /\ no_state o = false)).

(** A selected node with no selected node above, which may be read. *)
Definition root_of (k : ctl) (sel : N -> bool) (f : list tree) (r : tree) : Prop :=
  inside f r /\ sel (t_id r) = true /\
  (forall a n, inside f a -> below (S n) a r -> sel (t_id a) = false /\ c_deny k (t_id a) = false) /\
  (t_key r = false -> c_deny k (t_id r) = false) /\ survives (c_opts k) r.

(** Below a selected node: everything that is not hidden or left out, down to a depth;
    list instances with their keys. *)
Definition returned_below (k : ctl) (r x : tree) : Prop :=
  exists n, below n r x /\
    (c_depth k = 0 \/ N.of_nat n <= c_depth k \/ (N.of_nat n = c_depth k + 1 /\ t_key x = true))%N /\
    forall y m j, below (S m) r y -> below j y x -> t_key y = false -> c_hide k (t_id y) = false /\ survives (c_opts k) y.

(** Parents of selected nodes are returned with the keys of list instances. *)
Definition returned (k : ctl) (sel : N -> bool) (f : list tree) (x : tree) : Prop :=
  exists r, root_of k sel f r /\
    ((inside f x /\ exists n, below n x r) \/
     (t_key x = true /\ exists a n, inside f a /\ In x (t_kids a) /\ below (S n) a r) \/
     returned_below k r x).

(** A part of a list in the same order. *)
Inductive subseq : list N -> list N -> Prop :=
| subseq_nil : forall l, subseq [] l
| subseq_take : forall n l l', subseq l l' -> subseq (n :: l) (n :: l')
| subseq_skip : forall n l l', subseq l l' -> subseq l (n :: l').

(** [p] is the parent of [n] in the data, [None] for top-level nodes. *)
Definition parent (f : list tree) (n : N) (p : option N) : Prop :=
  match p with
  | None => exists x, In x f /\ t_id x = n
  | Some i => exists a x, inside f a /\ t_id a = i /\ In x (t_kids a) /\ t_id x = n
  end.
