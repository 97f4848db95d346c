(** What the operational datastore should have of the running data. *)

From Coq Require Import List.
Import ListNotations.
From Verif Require Import Enabled.

(** The node at [p] exists. *)
Fixpoint mem (p : path) (f : forest) : Prop :=
  match p with
  | [] => True
  | i :: q => exists ch, In (T i ch) f /\ mem q ch
  end.

(** No two siblings are the same. *)
Inductive wf : forest -> Prop :=
| WF f : NoDup (map ti f) -> (forall i ch, In (T i ch) f -> wf ch) -> wf f.

Section Spec.
Variables (np key : inst -> bool).

Definition under (s p : path) : Prop := exists r, p = s ++ r.

(** With a selected node all below it, its parents with their keys, and
    containers without presence of anything that is there. *)
Inductive included (sel : path -> Prop) : path -> Prop :=
| inc_root : included sel []
| inc_below s p : sel s -> under s p -> included sel p
| inc_above s p : sel s -> under p s -> included sel p
| inc_key s p k : sel s -> under p s -> p <> [] -> key k = true -> included sel (p ++ [k])
| inc_np p i : included sel p -> np i = true -> included sel (p ++ [i]).

(** What is selected: a subscription that is not passive, of a process that lives. *)
Definition wanted (subs : list sub) (p : path) : Prop :=
  p <> [] /\
  exists s, In s subs /\ s_passive s = false /\ s_alive s = true /\
            match s_xpath s with Some x => x p = true | None => True end.
End Spec.

(** [f] is [g] with some nodes left out, the others in the same order. *)
Inductive pruned : forest -> forest -> Prop :=
| pr_nil : pruned [] []
| pr_skip f t g : pruned f g -> pruned f (t :: g)
| pr_keep i c c' f g : pruned c c' -> pruned f g -> pruned (T i c :: f) (T i c' :: g).

(** Data sorted as libyang does. *)
Inductive sorted (rank : inst -> nat) : forest -> Prop :=
| Srt f : (forall l a m b r, f = l ++ a :: m ++ b :: r -> rank (ti a) <= rank (ti b)) ->
          (forall i ch, In (T i ch) f -> sorted rank ch) -> sorted rank f.
