(** C15, C16, C17, C18: applying edits. *)
From Coq Require Import List Bool Arith Sorted.
From Verif Require Import Edit EditSpec EditProofs EditOps EditSem EditMain EditTotal EditDiff EditMin EditOrder EditSafe.
Import ListNotations.

(** Concrete data and edits are well-formed. *)
Ltac no_in := match goal with |- ~ _ => idtac | |- _ -> False => idtac end; intros X; repeat (destruct X as [X|X]; [vm_compute in X; discriminate X|]); destruct X.
Ltac wf_conj := repeat (cbn; match goal with |- _ /\ _ => split | |- Forall _ _ => constructor | |- StronglySorted _ _ => constructor | |- NoDup [] => apply NoDup_nil | |- NoDup (map _ []) => apply NoDup_nil | |- NoDup _ => apply NoDup_cons | |- wf_sibs _ _ => unfold wf_sibs | |- wf_esibs _ _ => unfold wf_esibs | |- True => exact I end).
Ltac wf_ds := cbv [wf_data wf_sibs]; wf_conj; cbn; auto with arith; try discriminate; try no_in.
Ltac wf_es := cbv [wf_edit wf_esibs]; wf_conj; cbn; auto; try discriminate; try no_in;
  try (intros a b Ha Hb P Q; repeat (destruct Ha as [<-|Ha]; [try discriminate P; repeat (destruct Hb as [<-|Hb]; [try reflexivity; discriminate Q|]); destruct Hb|]); destruct Ha).

(** ** C15 *)
(** If the edit is applied then it has a meaning and the value at every path is that of the meaning. *)
Theorem C15_meaning : forall kd es ds o, wf_data kd ds -> wf_edit kd es -> edit_apply kd es ds = ROk o -> o_err o = false ->
  wf_data kd (o_g o) /\ exists ds', edit_spec kd es ds = Some ds' /\ forall p, get kd p (o_g o) = get kd p ds'.
Proof. exact edit_means. Qed.
Print Assumptions C15_meaning.

(** An edit with a meaning is applied (if nothing is put before or after another instance: this one may
    be missing). *)
Theorem C15_applied : forall kd es ds ds', wf_data kd ds -> wf_edit kd es -> Forall no_anchor es -> edit_spec kd es ds = Some ds' ->
  exists o, edit_apply kd es ds = ROk o /\ o_err o = false.
Proof. exact edit_total. Qed.
Print Assumptions C15_applied.

Theorem C15_no_assert : forall kd es ds, wf_edit kd es -> edit_apply kd es ds <> RAssert.
Proof. exact edit_safe. Qed.
Print Assumptions C15_no_assert.

(** A leaf explicitly replaced by a value that it already has by default is still default afterwards;
    merging or creating it makes it explicit. *)
Definition leaf_kd (s : nat) : kind := KLeaf.
Theorem C15_explicit_refuted : exists kd es ds o, wf_data kd ds /\ wf_edit kd es /\ edit_apply kd es ds = ROk o /\ o_err o = false /\
  es = [E 0 7 false (Some Replace) IDefault []] /\ o_g o = [D 0 7 true []] /\
  (forall op, op = Merge \/ op = Create -> exists o', edit_apply kd [E 0 7 false (Some op) IDefault []] ds = ROk o' /\ o_g o' = [D 0 7 false []]).
Proof.
  exists leaf_kd, [E 0 7 false (Some Replace) IDefault []], [D 0 7 true []]. eexists.
  split; [wf_ds|]. split; [wf_es|].
  split; [vm_compute; reflexivity|]. split; [reflexivity|]. split; [reflexivity|]. split; [reflexivity|].
  intros op [->| ->]; eexists; (split; [vm_compute; reflexivity|reflexivity]).
Qed.
Print Assumptions C15_explicit_refuted.

(** ** C16 *)
(** Whenever anything in the edit creates what exists, deletes what does not exist or requires what does
    not exist, with any other changes in the edit, applying it ends in an error. *)
Theorem C16_conflict_fails : forall kd es ds e, wf_data kd ds -> wf_edit kd es -> In e es -> conflict kd None e (lk kd (eident kd e) ds) ->
  match edit_apply kd es ds with ROk o => o_err o = true | RHard => True | RAssert => False end.
Proof.
  intros kd es ds e W We He C. destruct (edit_apply kd es ds) as [o| |] eqn:H; [exact (conflict_fails kd es ds e o W We He C H)|exact I|exact (edit_safe kd es ds We H)].
Qed.
Print Assumptions C16_conflict_fails.

(** ** C17 *)
(** The diff applied to the old data is exactly the new data, including previous values, default flags
    and places; it is empty if there is no change. *)
Theorem C17_diff_exact : forall kd es ds o, wf_data kd ds -> wf_edit kd es -> edit_apply kd es ds = ROk o -> o_err o = false ->
  diff_apply kd (o_diff o) ds = Some (o_g o) /\ (o_chg o = false -> o_diff o = []).
Proof. exact edit_diff_exact. Qed.
Print Assumptions C17_diff_exact.

(** An empty diff: nothing is changed. *)
Theorem C17_empty_unchanged : forall kd es ds o, wf_data kd ds -> wf_edit kd es -> edit_apply kd es ds = ROk o -> o_err o = false ->
  o_diff o = [] -> o_g o = ds.
Proof.
  intros kd es ds o W We H Er Q. destruct (edit_diff_exact kd es ds o W We H Er) as (A & _). rewrite Q in A. cbn in A. congruence.
Qed.
Print Assumptions C17_empty_unchanged.

(** Nothing changed: the diff is empty, if there are no user-ordered lists. *)
Theorem C17_unchanged_empty_partial : forall kd es ds o, (forall s, userord (kd s) = false) -> wf_data kd ds -> wf_edit kd es ->
  edit_apply kd es ds = ROk o -> o_err o = false -> o_g o = ds -> o_diff o = [].
Proof. intros kd es ds o U W We H Er Q. exact (edit_diff_minimal kd U es ds o W We H Er Q). Qed.
Print Assumptions C17_unchanged_empty_partial.

(** With user-ordered lists it need not be: moving one instance last and then the other one last is
    reported although the order is the original one. *)
Definition ul_kd (s : nat) : kind := KLeafList true.
Theorem C17_unchanged_empty_refuted : exists kd es ds o, wf_data kd ds /\ wf_edit kd es /\ edit_apply kd es ds = ROk o /\ o_err o = false /\
  o_g o = ds /\ o_diff o <> [].
Proof.
  exists ul_kd, [E 0 1 false (Some Merge) ILast []; E 0 2 false (Some Merge) ILast []], [D 0 1 false []; D 0 2 false []]. eexists.
  split; [wf_ds|]. split; [wf_es|].
  split; [vm_compute; reflexivity|]. split; [reflexivity|]. split; [reflexivity|]. discriminate.
Qed.
Print Assumptions C17_unchanged_empty_refuted.

(** ** C18 *)
(** At any place of an applied edit that is not inside of replaced or deleted data, the instances of every
    user-ordered list are ordered as if they were put or removed there one after another; all the
    anchors were there. *)
Theorem C18_placed : forall kd s p es ds o inh es', userord (kd s) = true -> wf_data kd ds -> wf_edit kd es ->
  edit_apply kd es ds = ROk o -> o_err o = false -> eat kd p None false es = Some (inh, false, es') ->
  norders s inh es' (order s (dat kd p ds)) = Some (order s (dat kd p (o_g o))).
Proof.
  intros kd s p es ds o inh es' U W We H Er Ea. apply (path_order kd s p false None es ds o inh es'); try assumption; discriminate.
Qed.
Print Assumptions C18_placed.

(** Inside of replaced data, the order is that of the edit. *)
Theorem C18_replaced : forall kd s p es ds o inh es', userord (kd s) = true -> wf_data kd ds -> wf_edit kd es ->
  edit_apply kd es ds = ROk o -> o_err o = false -> eat kd p None false es = Some (inh, true, es') ->
  (forall e, In e es' -> esch e = s -> eins e = IDefault /\ exists op, eff inh e = Some op /\ writes op = true) ->
  order s (dat kd p (o_g o)) = map eval (filter (fun e => Nat.eqb (esch e) s) es').
Proof.
  intros kd s p es ds o inh es' U W We H Er Ea Aw. apply (path_repl kd s p false false None es ds o false inh es'); try assumption; discriminate.
Qed.
Print Assumptions C18_replaced.

(** What [place] means: the instance is there and all the others are as they were. *)
Definition others (x : nat) (l : list nat) : list nat := filter (fun y => negb (Nat.eqb y x)) l.
Lemma others_in : forall x y l, In y (others x l) -> y <> x.
Proof. intros x y l H. apply filter_In in H. destruct H as (_ & H). apply negb_true_iff in H. apply Nat.eqb_neq. exact H. Qed.
Lemma others_id : forall x l, ~ In x l -> others x l = l.
Proof. exact rmv_notin. Qed.
Lemma others_twice : forall x l, others x (others x l) = others x l.
Proof. intros x l. apply others_id. intros H. exact (others_in x x l H eq_refl). Qed.
Lemma before_split : forall a x l l', before a x l = Some l' -> exists u w, l = u ++ a :: w /\ l' = u ++ x :: a :: w.
Proof.
  intros a x. induction l as [|y t IH]; intros l' H; [discriminate|]. cbn [before] in H. destruct (Nat.eqb_spec y a) as [->|N].
  - injection H as <-. exists [], t. split; reflexivity.
  - destruct (before a x t) as [t'|]; [|discriminate]. injection H as <-. destruct (IH t' eq_refl) as (u & w & -> & ->). exists (y :: u), w. split; reflexivity.
Qed.
Lemma after_split : forall a x l l', after a x l = Some l' -> exists u w, l = u ++ a :: w /\ l' = u ++ a :: x :: w.
Proof.
  intros a x. induction l as [|y t IH]; intros l' H; [discriminate|]. cbn [after] in H. destruct (Nat.eqb_spec y a) as [->|N].
  - injection H as <-. exists [], t. split; reflexivity.
  - destruct (after a x t) as [t'|]; [|discriminate]. injection H as <-. destruct (IH t' eq_refl) as (u & w & -> & ->). exists (y :: u), w. split; reflexivity.
Qed.
Theorem C18_place : forall i x l l', place i x l = Some l' ->
  others x l' = others x l /\
  match i with
  | IDefault => if existsb (Nat.eqb x) l then l' = l else exists u, l' = u ++ [x]
  | IFirst => exists u, l' = x :: u
  | ILast => exists u, l' = u ++ [x]
  | IBefore a => exists u b w, a = Some b /\ l' = u ++ x :: b :: w
  | IAfter a => exists u b w, a = Some b /\ l' = u ++ b :: x :: w
  end.
Proof.
  intros i x l l' H. assert (Hx : forall u w, others x (u ++ x :: w) = others x u ++ others x w) by (intros u w; unfold others; rewrite filter_app; cbn [filter]; rewrite Nat.eqb_refl; reflexivity).
  assert (Ha : forall u w, others x (u ++ w) = others x u ++ others x w) by (intros u w; apply filter_app).
  destruct i as [| | |[a|]|[a|]]; cbn [place] in H; try discriminate; fold (others x l) in H.
  - injection H as <-. destruct (existsb (Nat.eqb x) l) eqn:Q; [split; reflexivity|]. split; [|eexists; reflexivity]. rewrite Hx. apply app_nil_r.
  - injection H as <-. split; [|eexists; reflexivity]. etransitivity; [exact (Hx [] (others x l))|apply others_twice].
  - injection H as <-. split; [|eexists; reflexivity]. rewrite Hx. rewrite app_nil_r. apply others_twice.
  - destruct (before_split _ _ _ _ H) as (u & w & Q & ->). split; [|exists u, a, w; split; reflexivity]. rewrite Hx, <- Ha, <- Q. apply others_twice.
  - destruct (after_split _ _ _ _ H) as (u & w & Q & ->). split; [|exists u, a, w; split; reflexivity]. rewrite (Ha u), <- (others_twice x l), Q, Ha. f_equal. change (a :: x :: w) with ([a] ++ x :: w). rewrite Hx. symmetry. apply (Ha [a] w).
Qed.
Print Assumptions C18_place.

(** ** An example *)
(** 0: container, 1: leaf in it, 2: user-ordered list in it, 3: leaf in its instances. Instances 5, 6, 7. *)
Definition xkd (s : nat) : kind := match s with 0 => KCont false | 2 => KList true | _ => KLeaf end.
Definition xds : list dnode := [D 0 0 false [D 1 9 true []; D 2 5 false [D 3 1 false []]; D 2 6 false []; D 2 7 false [D 3 3 false []]]].
Definition xes : list enode :=
  [E 0 0 false (Some Merge) IDefault
     [E 2 7 false None (IBefore (Some 5)) [E 3 4 false None IDefault []];
      E 2 6 false (Some Delete) IDefault [];
      E 2 8 false (Some Create) (IAfter (Some 7)) [];
      E 1 9 false (Some Create) IDefault []]].
Example edit_nonvacuous : wf_data xkd xds /\ wf_edit xkd xes /\
  exists o, edit_apply xkd xes xds = ROk o /\ o_err o = false /\
    o_g o = [D 0 0 false [D 1 9 false []; D 2 7 false [D 3 4 false []]; D 2 8 false []; D 2 5 false [D 3 1 false []]]] /\
    length (o_diff o) = 1 /\ diff_apply xkd (o_diff o) xds = Some (o_g o) /\
    eat xkd [(0, 0)] None false xes = Some (Some Merge, false, [E 2 7 false None (IBefore (Some 5)) [E 3 4 false None IDefault []]; E 2 6 false (Some Delete) IDefault []; E 2 8 false (Some Create) (IAfter (Some 7)) []; E 1 9 false (Some Create) IDefault []]) /\
    order 2 (dat xkd [(0, 0)] xds) = [5; 6; 7] /\ order 2 (dat xkd [(0, 0)] (o_g o)) = [7; 8; 5].
Proof.
  split; [unfold xds; wf_ds|]. split; [unfold xes; wf_es|]. eexists. split; [vm_compute; reflexivity|]. repeat split.
Qed.
(** A conflict deep in it. *)
Example conflict_nonvacuous : conflict xkd None (E 0 0 false (Some Merge) IDefault [E 2 5 false (Some Create) IDefault []]) (lk xkd (0, 0) xds).
Proof. vm_compute. eapply cf_child; [reflexivity|discriminate|left; reflexivity|]. vm_compute. apply cf_create; reflexivity. Qed.
(** Replacing the list by instances 7, 9, 5. *)
Example replaced_nonvacuous : exists o, edit_apply xkd [E 0 0 false (Some Replace) IDefault [E 2 7 false None IDefault []; E 2 9 false None IDefault []; E 2 5 false None IDefault []]] xds = ROk o /\
  o_err o = false /\ order 2 (dat xkd [(0, 0)] (o_g o)) = [7; 9; 5] /\ get xkd [(0, 0); (1, 0)] (o_g o) = None.
Proof. eexists. split; [vm_compute; reflexivity|]. repeat split. Qed.
