(** What C68 says. *)
From Coq Require Import List Bool Arith.
From Verif Require Import CfgEdit.
Import ListNotations.

(** Changes of others one after another. *)
Fixpoint play (ws : list (nat * nat)) (d : data) : data := match ws with [] => d | (m, v) :: t => play t (write m v d) end.

(** [b] is [a] with the selected modules edited as the user saw them, and all the others as they were. *)
Definition edited (sel : nat -> bool) (f : list (option nat) -> list nat) (a b : data) : Prop :=
  length b = length a /\
  exists seen, length seen = length a /\
    (forall m v, nth_error a m = Some v -> nth_error seen m = Some (if sel m then Some v else None)) /\
    forall m v, nth_error a m = Some v -> nth_error b m = Some (if sel m then nth m (f seen) 0 else v).
