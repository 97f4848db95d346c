(** A receiver of YANG patches: the edits of every patch are applied one after another to a copy of the
    data, as RFC 8072 says. *)
From Coq Require Import List Bool Arith NArith.
From Verif Require Import Edit EditSpec ChangeIter ChangeIterSpec YangPush.
Import ListNotations.

(** The rest of a path below another one. *)
Fixpoint strip (p q : path) : option path :=
  match p, q with
  | [], _ => Some q
  | a :: p', b :: q' => if id_dec a b then strip p' q' else None
  | _ :: _, [] => None
  end.

Section Rx.
Variable kd : nat -> kind.
Variable nk : nat -> nat.
Variable kv : nat -> nat -> nat -> nat.
(** A strict receiver does what RFC 8072 says. A tolerant one does not mind a deletion of what is not
    there, and takes the predicate at the end of a point for the instance that is meant. *)
Variable strict : bool.

(** Everything at and below a node becomes what is in [new], which has at most that node. *)
Definition graft (p : path) (id : nat * nat) (new : list dnode) (c : copy) : copy :=
  mkcopy
    (fun l => match strip (p ++ [id]) (fst l) with
              | Some r => c_val (copy_of kd nk kv false new) (id :: r, snd l)
              | None => c_val c l
              end)
    (fun q s => match strip (p ++ [id]) q with
                | Some r => c_ord (copy_of kd nk kv false new) (id :: r) s
                | None => c_ord c q s
                end).

Definition there (l : loc) (c : copy) : bool := match c_val c l with Some _ => true | None => false end.

(** The instance a point denotes: an instance [v] that has the predicates of both [v] and [a]. *)
Definition point (v a : nat) : option nat := if strict then if Nat.eqb v a then Some a else None else Some a.
Definition put_at (w : ywhere) (v : nat) (l : list nat) : option (list nat) :=
  match w with
  | WFirst => place IFirst v l
  | WAfter _ a => match point v a with Some b => place (IAfter (Some b)) v l | None => None end
  end.

(** Applying an edit, [None] if it cannot be. *)
Definition apply_edit (e : yedit) (c : copy) : option copy :=
  match y_tgt e with
  | (q, Some i) =>
      (* keys of instances *)
      match y_op e with
      | YDelete => if there (q, Some i) c then Some (set_val (q, Some i) None c) else if strict then None else Some c
      | _ => None
      end
  | (q, None) =>
      match rev q with
      | [] => None
      | (s, v) :: rp =>
          let p := rev rp in
          let id := (s, v) in
          match y_op e, y_val e, y_where e with
          | YCreate, Some d, None =>
              if negb (there (q, None) c) && exists_path p c then Some (graft p id [d] c) else None
          | YInsert, Some d, Some w =>
              if negb (there (q, None) c) && exists_path p c
              then match put_at w v (c_ord c p s) with
                   | Some o => Some (set_ord p s o (graft p id [d] c))
                   | None => None
                   end
              else None
          | YReplace, Some d, None => if exists_path p c then Some (graft p id [d] c) else None
          | YMove, None, Some w =>
              if there (q, None) c
              then match put_at w v (c_ord c p s) with Some o => Some (set_ord p s o c) | None => None end
              else None
          | YDelete, None, None =>
              if there (q, None) c
              then let c1 := graft p id [] c in
                   Some (if userord (kd s) then set_ord p s (filter (fun y => negb (Nat.eqb y v)) (c_ord c p s)) c1 else c1)
              else if strict then None else Some c
          | _, _, _ => None
          end
      end
  end.
Fixpoint apply_edits (es : list yedit) (c : copy) : option copy :=
  match es with [] => Some c | e :: t => match apply_edit e c with Some c' => apply_edits t c' | None => None end end.
Fixpoint apply_patches (ps : list patch) (c : copy) : option copy :=
  match ps with [] => Some c | p :: t => match apply_edits (p_edits p) c with Some c' => apply_patches t c' | None => None end end.
End Rx.

(** ** Created nodes whose user-ordered descendants come one after another *)
Definition fval (x : diff) : nat := match x with F _ _ v _ _ _ _ _ => v end.
Definition fan (x : diff) : option nat := match x with F _ _ _ _ _ an _ _ => an end.
(** Every one is placed after the one before. *)
Fixpoint chained (prev : option nat) (l : list diff) : Prop :=
  match l with [] => True | x :: t => fan x = prev /\ chained (Some (fval x)) t end.
Definition of_s (s : nat) (l : list diff) : list diff := filter (fun x => Nat.eqb (fsch x) s) l.
Section Order.
Variable kd : nat -> kind.
(** In every created node, user-ordered instances were put each after the one before, in the order in
    which the diff has them. *)
Fixpoint inorder (x : diff) : Prop :=
  match x with
  | F op _ _ _ _ _ _ ch =>
      (op = DCreate -> forall t, userord (kd t) = true -> chained None (of_s t ch)) /\
      (fix all l := match l with [] => True | c :: t => inorder c /\ all t end) ch
  end.
(** Edits that only append to user-ordered lists. *)
Fixpoint appends (e : enode) : Prop :=
  match e with
  | E s _ _ _ i ch => (userord (kd s) = true -> i = IDefault \/ i = ILast) /\ (fix all l := match l with [] => True | c :: t => appends c /\ all t end) ch
  end.
End Order.

(** ** Histories of a subscription *)
(** What waits to be sent. *)
Definition waits (s : sub) : list patch := match pend s with Some p => [p] | None => [] end.
Definition pedits (s : sub) : list yedit := flat_map p_edits (waits s).
Section Hist.
Variable kd : nat -> kind.
Variable nk : nat -> nat.
Variable kv : nat -> nat -> nat -> nat.
Variable odd : nat -> bool.
(** Edits are committed one after another; in between time passes and the subscription may be modified.
    In what is created, instances of user-ordered lists come one after another. *)
Inductive history : list dnode -> list (N * event) -> list dnode -> Prop :=
| h_nil : forall ds, history ds [] ds
| h_commit : forall ds es o now evs ds', wf_edit kd es -> edit_apply kd es ds = ROk o -> o_err o = false -> Forall (inorder kd) (o_diff o) ->
    history (o_g o) evs ds' -> history ds ((now, EChange (tree_changes kd (fun _ => true) (sess_diff kd nk kv (o_diff o)))) :: evs) ds'
| h_tick : forall ds now evs ds', history ds evs ds' -> history ds ((now, ETick) :: evs) ds'
| h_modify : forall ds now per evs ds', history ds evs ds' -> history ds ((now, EModify per) :: evs) ds'.
(** The places of changes. *)
Definition places (ev : event) : list loc := match ev with EChange cs => map (fun x => e_loc (snd (fst x))) cs | _ => [] end.
(** No value with an apostrophe in a changed place. *)
Definition quiet (evs : list (N * event)) : Prop := forall now ev l id, In (now, ev) evs -> In l (places ev) -> In id (fst l) -> odd (snd id) = false.
(** No node is changed while another change of it waits. *)
Fixpoint apart (evs : list (N * event)) (s : sub) : Prop :=
  match evs with
  | [] => True
  | (now, ev) :: t => (forall e, In e (pedits s) -> ~ In (y_tgt e) (places ev)) /\ apart t (fst (step kd odd now ev s))
  end.
(** No node is changed by two events. *)
Fixpoint once (evs : list (N * event)) : Prop :=
  match evs with
  | [] => True
  | (_, ev) :: t => (forall l, In l (places ev) -> forall now' ev', In (now', ev') t -> ~ In l (places ev')) /\ once t
  end.
(** Notifications are at least a period apart. *)
Fixpoint spaced (per : N) (last : option N) (out : list (N * patch)) : Prop :=
  match out with
  | [] => True
  | (t, _) :: r => match last with Some u => (u + per <= t)%N | None => True end /\ spaced per (Some t) r
  end.
End Hist.
