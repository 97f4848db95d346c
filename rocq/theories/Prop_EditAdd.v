(** C38: changes prepared together are the calls in order. *)
From Coq Require Import List Bool Arith Sorted.
From Verif Require Import Edit EditSpec EditProofs EditOps EditSem EditMain EditTotal EditSafe EditAdd EditAddSpec EditAddBase EditAddInv EditAddPres EditAddSem EditAddDel EditAddStep EditAddStep2 EditAddMain EditAddPlain EditAddAlone.
Import ListNotations.

(** Calls that do not get into each other's way: if all of them succeed and also if each of them would
    succeed when applied on its own after the previous ones, then applying them all at once succeeds and
    every path has the value that it has after applying them one by one. *)
Theorem C38_together_partial : forall kd nullok ds cs T m, wf_data kd ds -> clear_all kd ds [] (fun p => get kd p ds) cs ->
  prepare kd nullok cs [] = Some T -> one_by_one kd cs (fun p => get kd p ds) m ->
  exists o, edit_apply kd T ds = ROk o /\ o_err o = false /\ forall p, get kd p (o_g o) = m p.
Proof.
  intros kd nullok ds cs T m W Cl Pr Ob. destruct (prepared kd nullok ds W cs [] [] _ T m (good0 kd ds) Cl Pr Ob) as (h & G). exact (good_apply kd h T ds m W G).
Qed.
Print Assumptions C38_together_partial.

(** Any number of items set, in any order, also the same ones repeatedly: the calls always succeed, they
    are always applied and the result is that of setting them one by one. *)
Theorem C38_sets_together : forall kd nullok ds cs, wf_data kd ds -> (forall c, In c cs -> exists p v, c = CSet p v false false /\ path_ok kd p) ->
  exists T m o, prepare kd nullok cs [] = Some T /\ one_by_one kd cs (fun p => get kd p ds) m /\
    edit_apply kd T ds = ROk o /\ o_err o = false /\ forall p, get kd p (o_g o) = m p.
Proof.
  intros kd nullok ds cs W Pl. destruct (sets_together kd nullok ds W cs [] [] _ (proj2 (Forall_forall _ _) Pl) eq_refl (good0 kd ds)) as (T & m & h & A & B & G).
  - split; [right; split; [reflexivity|constructor]|reflexivity].
  - destruct (good_apply kd h T ds m W G) as (o & C & D & E). exists T, m, o. split; [exact A|]. split; [exact B|]. split; [exact C|]. split; [exact D|exact E].
Qed.
Print Assumptions C38_sets_together.

(** Any number of items deleted, existing or not. *)
Theorem C38_deletes_together : forall kd nullok ds cs, wf_data kd ds -> (forall c, In c cs -> exists p, c = CDel p false /\ path_ok kd p) ->
  exists T m o, prepare kd nullok cs [] = Some T /\ one_by_one kd cs (fun p => get kd p ds) m /\
    edit_apply kd T ds = ROk o /\ o_err o = false /\ forall p, get kd p (o_g o) = m p.
Proof.
  intros kd nullok ds cs W Pl. destruct (dels_together kd nullok ds W cs [] [] _ (proj2 (Forall_forall _ _) Pl) eq_refl (good0 kd ds)) as (T & m & h & A & B & G).
  - constructor.
  - destruct (good_apply kd h T ds m W G) as (o & C & D & E). exists T, m, o. split; [exact A|]. split; [exact B|]. split; [exact C|]. split; [exact D|exact E].
Qed.
Print Assumptions C38_deletes_together.

Lemma parents_b : forall p m, forallb (fun i => match m (firstn i p) with Some _ => true | None => false end) (seq 1 (length p - 1)) = true -> parents_in m p.
Proof.
  intros p m F q N H. unfold parent_of in H. apply andb_prop in H as [H1 H2]. apply negb_true_iff in H2.
  assert (Q : forall q p, prefix q p = true -> q = firstn (length q) p).
  { clear. induction q as [|a q IH]; intros [|b p] H; cbn in H |- *; try discriminate; auto. apply andb_prop in H as [H1 H2]. unfold same_id in H1. apply andb_prop in H1 as [U V].
    apply Nat.eqb_eq in U. apply Nat.eqb_eq in V. rewrite <- (IH p H2). destruct a, b; cbn in U, V; subst; reflexivity. }
  assert (Len : length q < length p).
  { pose proof (Q q p H1) as E. destruct (Nat.lt_ge_cases (length q) (length p)) as [?|Ge]; auto. rewrite firstn_all2 in E by exact Ge. subst. rewrite prefix_refl in H2. discriminate. }
  rewrite forallb_forall in F. specialize (F (length q)). rewrite <- (Q q p H1) in F. unfold exists_in. intros E. rewrite E in F.
  assert (In (length q) (seq 1 (length p - 1))) as K by (apply in_seq; destruct q; [contradiction|]; cbn [length] in *; split; [apply le_n_S, Nat.le_0_l|]; rewrite Nat.add_comm, Nat.sub_add; [exact Len|]; apply Nat.lt_le_incl; eapply Nat.le_lt_trans; [|exact Len]; apply le_n_S, Nat.le_0_l).
  discriminate (F K).
Qed.
Lemma missing_parent : forall kd p ds, ~ parents_in (fun q => get kd q ds) p -> exists q, q <> [] /\ parent_of q p = true /\ get kd q ds = None.
Proof.
  intros kd p ds N. destruct (forallb (fun i => match get kd (firstn i p) ds with Some _ => true | None => false end) (seq 1 (length p - 1))) eqn:F; [exfalso; apply N; apply parents_b; exact F|].
  apply not_true_iff_false in F. assert (E : existsb (fun i => match get kd (firstn i p) ds with Some _ => false | None => true end) (seq 1 (length p - 1)) = true).
  { apply not_false_iff_true. intros E. apply F. apply forallb_forall. intros i Hi. destruct (get kd (firstn i p) ds) eqn:G; [reflexivity|]. exfalso.
    assert (existsb (fun i => match get kd (firstn i p) ds with Some _ => false | None => true end) (seq 1 (length p - 1)) = true) by (apply existsb_exists; exists i; split; [exact Hi|rewrite G; reflexivity]). congruence. }
  apply existsb_exists in E. destruct E as (i & Hi & G). apply in_seq in Hi. exists (firstn i p). destruct (get kd (firstn i p) ds) eqn:G1; [discriminate|].
  assert (Hl : 1 <= i /\ i < length p) by (destruct p; cbn [length] in Hi; [destruct Hi as [H1 H2]; exfalso; apply (Nat.lt_irrefl 1); eapply Nat.le_lt_trans; eauto|]; split; [exact (proj1 Hi)|]; destruct Hi as [_ H2]; cbn [Nat.sub] in H2; rewrite Nat.sub_0_r in H2; exact H2).
  split; [|split; [|reflexivity]].
  - destruct i; [exfalso; apply (Nat.nle_succ_0 0); exact (proj1 Hl)|]. destruct p; [exfalso; exact (Nat.nlt_0_r _ (proj2 Hl))|discriminate].
  - unfold parent_of. assert (Pf : forall i p, prefix (firstn i p) p = true).
    { clear. induction i as [|i IH]; intros [|a p]; cbn; auto. rewrite IH, same_id_refl. reflexivity. }
    rewrite Pf. cbn [andb]. apply negb_true_iff. destruct (prefix p (firstn i p)) eqn:B; [|reflexivity]. exfalso.
    pose proof (prefix_anti _ _ B (Pf i p)) as E. apply (f_equal (@length _)) in E. rewrite firstn_length_le in E by (apply Nat.lt_le_incl; exact (proj2 Hl)). rewrite E in Hl. exact (Nat.lt_irrefl _ (proj2 Hl)).
Qed.

(** A call that cannot succeed on its own is refused when applied: setting strictly something that exists (not
    only by default), setting without parents that must exist, deleting strictly something that does not exist. *)
Theorem C38_call_refused : forall kd nullok ds c T, wf_data kd ds -> path_ok kd (target c) -> (is_set c || is_del c = true) ->
  (forall p v nr, c = CSet p v true nr -> np_cont (kd (fst (last p (0, 0)))) = false /\ default_at kd p ds = false) ->
  (forall m, ~ one_by_one kd [c] (fun p => get kd p ds) m) -> prepare kd nullok [c] [] = Some T ->
  match edit_apply kd T ds with ROk o => o_err o = true | RHard => True | RAssert => False end.
Proof.
  intros kd nullok ds c T W P K Sc No Pr. cbn [prepare] in Pr. destruct (api kd nullok c []) as [es|es|] eqn:Ap; try discriminate. injection Pr as <-.
  destruct c as [p v st nr|p st|p i st nr]; [| |discriminate K]; cbn [api target] in *.
  - apply (alone kd nullok p (if st then Create else Merge) (Some v) (if nr then Non else Merge) false ds es W P); [destruct st; [right|left]; reflexivity|destruct nr; [right; left|left]; reflexivity| |exact Ap|].
    + destruct st; [intros _; exact (proj1 (Sc p v nr eq_refl))|discriminate].
    + destruct (get kd p ds) as [x|] eqn:G.
      * destruct st; [left; split; [reflexivity|]; split; [rewrite G; discriminate|]; destruct (Sc p v nr eq_refl); split; assumption|].
        destruct nr; [right; right; split; [reflexivity|]|exfalso; eapply No; apply ob_set; [split; discriminate|apply ob_nil; reflexivity]].
        apply missing_parent. intros Pa. eapply No. apply ob_set; [split; [discriminate|intros _; exact Pa]|apply ob_nil; reflexivity].
      * destruct nr; [right; right; split; [reflexivity|]|exfalso; eapply No; apply ob_set; [split; [intros _ X; exact (X G)|discriminate]|apply ob_nil; reflexivity]].
        apply missing_parent. intros Pa. eapply No. apply ob_set; [split; [intros _ X; exact (X G)|intros _; exact Pa]|apply ob_nil; reflexivity].
  - apply (alone kd nullok p (if st then Delete else Remove) None (if st then Non else Ether) true ds es W P); [destruct st; [right|left]; reflexivity|destruct st; [right; left|right; right]; reflexivity|destruct st; discriminate|exact Ap|].
    destruct st; [|exfalso; eapply No; apply ob_del; [discriminate|apply ob_nil; reflexivity]].
    destruct (get kd p ds) as [x|] eqn:G; [right; right; split; [reflexivity|]|right; left; split; [reflexivity|exact G]].
    apply missing_parent. intros Pa. eapply No. apply ob_del; [intros _; split; [unfold exists_in; rewrite G; discriminate|exact Pa]|apply ob_nil; reflexivity].
Qed.
Print Assumptions C38_call_refused.

(** ** A concrete schema: a container 0 with a leaf 1, a presence container 2 and a list 3, both with leaves 4 and 5;
    a presence container 6 with leaves 4 and 5; a user-ordered list 7. *)
Definition xkd (s : nat) : kind :=
  match s with 0 => KCont true | 2 | 6 => KCont false | 3 => KList false | 7 => KList true | _ => KLeaf end.
Definition P := (0, 0). Definition Y := (1, 0). Definition A := (2, 0). Definition X := (4, 0). Definition Z := (5, 0). Definition T6 := (6, 0).
Definition L (k : nat) := (3, k).
Definition yes (s : nat) : bool := true.
Definition final (cs : list call) (ds : list dnode) : option (list dnode) :=
  match prepare xkd yes cs [] with
  | Some T => match edit_apply xkd T ds with ROk o => if o_err o then None else Some (o_g o) | _ => None end
  | None => None
  end.
Definition m_of (ds : list dnode) : view := fun p => get xkd p ds.
Definition ds1 : list dnode := [D 0 0 false [D 1 7 false []; D 2 0 false [D 4 1 false []; D 5 2 false []]]].
Lemma ds1_wf : wf_data xkd ds1.
Proof.
  cbv [wf_data wf_sibs ds1].
  repeat (cbn; match goal with |- _ /\ _ => split | |- Forall _ _ => constructor | |- StronglySorted _ _ => constructor | |- NoDup [] => apply NoDup_nil | |- NoDup _ => apply NoDup_cons | |- wf_sibs _ _ => unfold wf_sibs | |- True => exact I end);
  cbn; auto with arith; try discriminate; intros Q; repeat (destruct Q as [Q|Q]; [vm_compute in Q; discriminate Q|]); destruct Q.
Qed.

(** The theorem is not vacuous: strict and plain calls mixed, one leaf changed twice, a list instance
    created, a leaf deleted strictly and an instance that is missing deleted. *)
Definition mixed : list call :=
  [CDel [P; A; Z] true; CSet [P; Y] 5 false true; CSet [P; L 9; X] 3 true false; CSet [P; Y] 6 false false; CDel [P; L 8] false; CSet [P; L 9; Z] 4 false true].
Fixpoint effects (cs : list call) (m : view) : view := match cs with [] => m | c :: t => effects t (effect xkd c m) end.
Ltac parents := apply parents_b; vm_compute; reflexivity.
Ltac hist := let H := fresh "H" in intros; match goal with K : In _ _ |- _ => rename K into H end; cbn [In] in H;
  repeat (destruct H as [H|H]; [try discriminate H; injection H; intros; subst; vm_compute; reflexivity|]); destruct H.
Ltac path := cbn; repeat match goal with |- _ /\ _ => split end; try exact I; try reflexivity; try discriminate.
Example C38_mixed : exists T, prepare xkd yes mixed [] = Some T /\ clear_all xkd ds1 [] (m_of ds1) mixed /\ one_by_one xkd mixed (m_of ds1) (effects mixed (m_of ds1)).
Proof.
  eexists. split; [vm_compute; reflexivity|]. split.
  - unfold mixed. cbn [clear_all target].
    split; [path|]. split; [split; [hist|split; [left; parents|split; [left; reflexivity|intros _; reflexivity]]]|].
    split; [path|]. split; [split; [hist|discriminate]|].
    split; [path|]. split; [split; [hist|intros _; reflexivity]|].
    split; [path|]. split; [split; [hist|discriminate]|].
    split; [path|]. split; [split; [hist|split; [left; parents|split; [right; hist|discriminate]]]|].
    split; [path|]. split; [split; [hist|discriminate]|]. exact I.
  - unfold mixed. cbn [effects].
    constructor; [intros _; split; [vm_compute; discriminate|parents]|].
    constructor; [split; [discriminate|intros _; parents]|].
    constructor; [split; [intros _ H; apply H; vm_compute; reflexivity|discriminate]|].
    constructor; [split; discriminate|].
    constructor; [discriminate|].
    constructor; [split; [discriminate|intros _; parents]|].
    constructor. reflexivity.
Qed.

(** ** Calls that get into each other's way *)
Definition both_ok (cs : list call) (ds g : list dnode) (m : view) : Prop :=
  wf_data xkd ds /\ Forall (fun c => path_ok xkd (target c)) cs /\ one_by_one xkd cs (m_of ds) m /\ final cs ds = Some g.
Ltac bad := split; [exact ds1_wf|]; split; [repeat (constructor; [path|]); constructor|]; split;
  [repeat (first [apply ob_set; [split; discriminate|] | apply ob_del; [first [discriminate | intros _; split; [vm_compute; discriminate|parents]]|]]); apply ob_nil; intros; reflexivity|].

(** REFUTED (finding F97, edit_diff.c:2842-2848): an item is set and then deleted. The deletion
    only takes the item out of the prepared changes. If it existed before, it is still there afterwards
    with its original value, although both calls and applying succeed. *)
Theorem C38_set_then_delete_refuted : exists cs g m, cs = [CSet [P; Y] 5 false false; CDel [P; Y] false] /\ both_ok cs ds1 g m /\
  get xkd [P; Y] g = Some 7 /\ m [P; Y] = None.
Proof. eexists _, _, (effects [CSet [P; Y] 5 false false; CDel [P; Y] false] (m_of ds1)). split; [reflexivity|]. split; [bad; vm_compute; reflexivity|split; vm_compute; reflexivity]. Qed.
Print Assumptions C38_set_then_delete_refuted.

(** REFUTED (finding F98, edit_diff.c:3053-3075): a nested item is deleted and something in it is set
    again. The deletion is forgotten, so what was in the item besides stays in the datastore. *)
Theorem C38_delete_then_set_inside_refuted : exists cs g m, cs = [CDel [P; A] false; CSet [P; A; X] 9 false false] /\ both_ok cs ds1 g m /\
  get xkd [P; A; Z] g = Some 2 /\ m [P; A; Z] = None.
Proof. eexists _, _, (effects [CDel [P; A] false; CSet [P; A; X] 9 false false] (m_of ds1)). split; [reflexivity|]. split; [bad; vm_compute; reflexivity|split; vm_compute; reflexivity]. Qed.
Print Assumptions C38_delete_then_set_inside_refuted.

(** REFUTED (finding F99, edit_diff.c:2842-2848): after an item was set, something in another container
    and then the whole container are deleted. The second deletion is lost. *)
Theorem C38_delete_lost_refuted : exists cs g m, cs = [CSet [P; Y] 3 false false; CDel [P; A; X] false; CDel [P; A] false] /\ both_ok cs ds1 g m /\
  get xkd [P; A; Z] g = Some 2 /\ m [P; A; Z] = None.
Proof. eexists _, _, (effects [CSet [P; Y] 3 false false; CDel [P; A; X] false; CDel [P; A] false] (m_of ds1)). split; [reflexivity|]. split; [bad; vm_compute; reflexivity|split; vm_compute; reflexivity]. Qed.
Print Assumptions C38_delete_lost_refuted.

(** REFUTED (finding F100, edit_diff.c:3024-3037): after an item was set, deleting something (not
    strictly) in a list instance that does not exist creates the instance. *)
Theorem C38_delete_creates_refuted : exists cs g m, cs = [CSet [P; Y] 3 false false; CDel [P; L 5; X] false] /\ both_ok cs ds1 g m /\
  get xkd [P; L 5] g = Some 5 /\ m [P; L 5] = None.
Proof. eexists _, _, (effects [CSet [P; Y] 3 false false; CDel [P; L 5; X] false] (m_of ds1)). split; [reflexivity|]. split; [bad; vm_compute; reflexivity|split; vm_compute; reflexivity]. Qed.
Print Assumptions C38_delete_creates_refuted.

(** REFUTED (finding F101, edit_diff.c:3024-3037): a strict deletion followed by one that is not strict and has nothing to
    delete. One by one both succeed, together they cannot be applied. *)
Theorem C38_delete_fails_refuted : exists cs T m, cs = [CDel [P; Y] true; CDel [P; L 5; X] false] /\
  one_by_one xkd cs (m_of ds1) m /\ prepare xkd yes cs [] = Some T /\ final cs ds1 = None.
Proof.
  eexists _, _, (effects [CDel [P; Y] true; CDel [P; L 5; X] false] (m_of ds1)). split; [reflexivity|]. split; [|split; vm_compute; reflexivity].
  apply ob_del; [intros _; split; [vm_compute; discriminate|parents]|]. apply ob_del; [discriminate|]. apply ob_nil; reflexivity.
Qed.
Print Assumptions C38_delete_fails_refuted.

(** REFUTED (finding F102, edit_diff.c:2861-2921): a leaf, then its container are deleted and the leaf is set again. One by one
    all succeed, together they cannot be applied (the prepared changes have a replace in a remove). *)
Theorem C38_set_again_fails_refuted : exists cs T m ds, ds = [D 6 0 false [D 4 1 false []]] /\ cs = [CDel [T6; X] false; CDel [T6] false; CSet [T6; X] 3 false false] /\
  one_by_one xkd cs (m_of ds) m /\ prepare xkd yes cs [] = Some T /\ final cs ds = None.
Proof.
  eexists _, _, (effects [CDel [T6; X] false; CDel [T6] false; CSet [T6; X] 3 false false] (m_of [D 6 0 false [D 4 1 false []]])), _. split; [reflexivity|]. split; [reflexivity|]. split; [|split; vm_compute; reflexivity].
  apply ob_del; [discriminate|]. apply ob_del; [discriminate|]. apply ob_set; [split; discriminate|]. apply ob_nil; reflexivity.
Qed.
Print Assumptions C38_set_again_fails_refuted.

(** REFUTED (finding F103, edit_diff.c:2760-2766, 3053-3075): an item is set with the flag that its parents must
    exist, which they do not, so applying the call fails. After a next call that sets another item in the
    same parent the check is lost and everything is created. *)
Theorem C38_check_lost_refuted : exists cs g, cs = [CSet [T6; X] 1 false true; CSet [T6; Z] 2 false false] /\
  (forall m, ~ one_by_one xkd cs (m_of ds1) m) /\ final cs ds1 = Some g /\ get xkd [T6; X] g = Some 1 /\ final [CSet [T6; X] 1 false true] ds1 = None.
Proof.
  eexists _, _. split; [reflexivity|]. split; [|split; [vm_compute; reflexivity|split; vm_compute; reflexivity]].
  intros m O. inversion O as [|p v st nr t m1 m2 [_ Pa] _ E1 E2 E3|]; subst. apply (Pa eq_refl [T6]); [discriminate|reflexivity|vm_compute; reflexivity].
Qed.
Print Assumptions C38_check_lost_refuted.

(** REFUTED (finding F104, edit_diff.c:2820-2823): moving an instance that was already set in the same
    changes is ignored, although the call succeeds. *)
Theorem C38_move_ignored_refuted : exists ds g g', ds = [D 7 1 false []; D 7 2 false []] /\
  final [CSet [(7, 2)] 0 false false; CMove [(7, 2)] IFirst false false] ds = Some g /\ g = ds /\
  final [CMove [(7, 2)] IFirst false false] ds = Some g' /\ g' = [D 7 2 false []; D 7 1 false []].
Proof. eexists _, _, _. split; [reflexivity|]. split; [vm_compute; reflexivity|]. split; [reflexivity|]. split; vm_compute; reflexivity. Qed.
Print Assumptions C38_move_ignored_refuted.

(** A call to which [C38_call_refused] applies. *)
Example C38_refused_case : path_ok xkd [P; L 8; X] /\ (forall m, ~ one_by_one xkd [CDel [P; L 8; X] true] (m_of ds1) m) /\ exists T, prepare xkd yes [CDel [P; L 8; X] true] [] = Some T.
Proof.
  split; [path|]. split; [|eexists; vm_compute; reflexivity]. intros m O. inversion O as [| |p st t m1 m2 Ok _ E1 E2 E3]; subst. destruct (Ok eq_refl) as [X1 _]. apply X1. vm_compute. reflexivity.
Qed.
