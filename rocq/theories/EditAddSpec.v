(** Specification: what setting and deleting of items mean when applied one after another. Data are
    values of paths ([get] of EditSpec.v). *)
From Coq Require Import List Bool Arith.
From Verif Require Import Edit EditSpec EditAdd.
Import ListNotations.

Definition view := path -> option nat.
Definition same_id (a b : nat * nat) : bool := Nat.eqb (fst a) (fst b) && Nat.eqb (snd a) (snd b).
(** [q] is [p] or a parent of it. *)
Fixpoint prefix (q p : path) : bool :=
  match q, p with
  | [], _ => true
  | a :: q', b :: p' => same_id a b && prefix q' p'
  | _, [] => false
  end.
Definition eq_path (p q : path) : bool := prefix p q && prefix q p.
Definition parent_of (q p : path) : bool := prefix q p && negb (prefix p q).

Section Spec.
Variable kd : nat -> kind.

(** The value of a node: of all the keys for lists, nothing for containers. *)
Definition value_at (p : path) (v : nat) : nat :=
  match last p (0, 0) with (s, k) => match kd s with KLeaf => v | _ => k end end.

(** Setting an item: the item has the value and all its parents exist. With [strict] the item must not
    exist, with [nonrec] its parents must. *)
Definition vset (p : path) (v : nat) (m : view) : view := fun q =>
  if eq_path q p then Some (value_at p v)
  else match q with
       | [] => None
       | _ => if prefix q p then (match m q with Some x => Some x | None => Some (value_at q 0) end) else m q
       end.
Definition exists_in (m : view) (q : path) : Prop := m q <> None.
Definition parents_in (m : view) (p : path) : Prop := forall q, q <> [] -> parent_of q p = true -> exists_in m q.
Definition set_ok (p : path) (strict nonrec : bool) (m : view) : Prop :=
  (strict = true -> ~ exists_in m p) /\ (nonrec = true -> parents_in m p).

(** Deleting an item with everything in it; with [strict] it must exist. *)
Definition vdel (p : path) (m : view) : view := fun q => if prefix p q then None else m q.
Definition del_ok (p : path) (strict : bool) (m : view) : Prop := strict = true -> exists_in m p /\ parents_in m p.

(** The calls one after another, moving is not covered. *)
Inductive one_by_one : list call -> view -> view -> Prop :=
| ob_nil : forall m m', (forall p, m' p = m p) -> one_by_one [] m m'
| ob_set : forall p v strict nonrec t m m', set_ok p strict nonrec m -> one_by_one t (vset p v m) m' ->
    one_by_one (CSet p v strict nonrec :: t) m m'
| ob_del : forall p strict t m m', del_ok p strict m -> one_by_one t (vdel p m) m' ->
    one_by_one (CDel p strict :: t) m m'.

(** Paths of the schema: only containers and lists have children, keys are of instances only. *)
Fixpoint path_ok (p : path) : Prop :=
  match p with
  | [] => False
  | (s, k) :: r => (inst (kd s) = false -> k = 0) /\ match r with [] => True | _ => term (kd s) = false /\ path_ok r end
  end.
Definition target (c : call) : path := match c with CSet p _ _ _ => p | CDel p _ => p | CMove p _ _ _ => p end.
Definition is_set (c : call) : bool := match c with CSet _ _ _ _ => true | _ => false end.
Definition is_del (c : call) : bool := match c with CDel _ _ => true | _ => false end.
Definition is_weak_del (c : call) : bool := match c with CDel _ false => true | _ => false end.

(** ** When the calls do not get into each other's way *)
(** The leaf is there only by default. *)
Fixpoint default_at (p : path) (ds : list dnode) : bool :=
  match p with
  | [] => false
  | id :: r => match lk kd id ds with None => false | Some d => match r with [] => is_default kd d | _ => default_at r (dch d) end end
  end.

(** [c] after the calls [h] (in any order); [m] are the data after [h], [ds] those before all the calls.
    Nothing is set at or in what was deleted; nothing is deleted together with what was set; no non-presence
    container is set strictly; no default value is deleted strictly.
    The parents of what is deleted exist, unless all the calls before were deleting, not strictly; and
    once something was set, nothing is deleted if something in it was deleted. *)
Definition clear (ds : list dnode) (h : list call) (m : view) (c : call) : Prop :=
  match c with
  | CSet p _ strict _ =>
      (forall q st, In (CDel q st) h -> prefix q p = false) /\
      (strict = true -> np_cont (kd (fst (last p (0, 0)))) = false)
  | CDel p strict =>
      (forall q v st nr, In (CSet q v st nr) h -> prefix p q = false) /\
      (parents_in m p \/ forallb is_weak_del h = true) /\
      (forallb is_del h = true \/ forall q st, In (CDel q st) h -> parent_of p q = false) /\
      (strict = true -> default_at p ds = false)
  | CMove _ _ _ _ => False
  end.
Definition effect (c : call) (m : view) : view :=
  match c with CSet p v _ _ => vset p v m | CDel p _ => vdel p m | CMove _ _ _ _ => m end.
Fixpoint clear_all (ds : list dnode) (h : list call) (m : view) (cs : list call) : Prop :=
  match cs with
  | [] => True
  | c :: t => path_ok (target c) /\ clear ds h m c /\ clear_all ds (c :: h) (effect c m) t
  end.
End Spec.
