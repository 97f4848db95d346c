(** Unchanged data have an empty diff if there are no user-ordered lists. *)
From Coq Require Import List Bool Arith Lia Sorted Permutation.
From Verif Require Import Edit EditSpec EditProofs EditOps EditSem EditMain EditDiff.
Import ListNotations.

Section P.
Variable kd : nat -> kind.
Hypothesis nouo : forall s, userord (kd s) = false.
Notation it := (is_it kd).
Notation key := (EditSpec.key kd).
Notation ident := (EditSpec.ident kd).
Notation eident := (EditSpec.eident kd).
Notation wfg := (wfg kd).

Definition P17m (e : enode) : Prop := forall fr fd orph pop ep g o,
  wfe kd e -> wfg (esch e) g -> (orph = true -> g = []) -> pop <> Some Purge ->
  apply_e kd fr fd orph pop ep e g = ROk o -> o_err o = false ->
  (purges e -> g = []) -> (~ purges e -> find (it (esch e) (eval e)) (o_g o) = find (it (esch e) (eval e)) g) -> o_diff o = [].

Lemma grp_nil : forall s ds, (forall id, fst id = s -> lk kd id ds = None) -> grp s ds = [].
Proof.
  intros s ds H. apply filter_none. intros d Hd. apply Nat.eqb_neq. intros X. specialize (H (ident d) X).
  unfold lk in H. assert (Z := find_none _ _ H d Hd). cbn beta in Z. rewrite !Nat.eqb_refl in Z. discriminate.
Qed.

Lemma fold17m : forall fr fd orph pop es, Forall P17m es -> pop <> Some Purge -> Forall (wfe kd) es -> wf_esibs kd es -> forall seen ds o,
  wf_data kd ds -> (orph = true -> ds = []) ->
  fold_edits (fun ep c g => apply_e kd fr fd orph pop ep c g) seen es ds = ROk o -> o_err o = false -> o_g o = ds -> o_diff o = [].
Proof.
  intros fr fd orph pop es HP NP. induction HP as [|c t Hc Ht IH]; intros We Ws seen ds o Wd O H Er Same.
  - cbn [fold_edits] in H. injection H as <-. reflexivity.
  - pose proof H as H0. cbn [fold_edits] in H. destruct (apply_e kd fr fd orph pop (last_einst (esch c) seen) c (grp (esch c) ds)) as [o1| |] eqn:A; try discriminate.
    destruct (fold_edits _ (seen ++ [c]) t (put (esch c) (o_g o1) ds)) as [o2| |] eqn:B; try discriminate. injection H as <-. cbn [o_g o_err o_diff] in *. pose proof Er as Er0. apply orb_false_iff in Er. destruct Er as (Er1 & Er2).
    inversion We as [|? ? Wc Wt]; subst.
    assert (HPa : Forall (P15 kd) (c :: t)) by (apply Forall_forall; intros e _; apply p15).
    destruct (fold_sem kd fr fd orph pop (c :: t) HPa NP We Ws seen (o_g o2) _ Wd O H0 Er0) as (_ & _ & rs & [_ Fp _]). cbn [o_g] in Fp.
    destruct (p15 kd c fr fd orph pop _ _ o1 Wc (wf_grp kd (o_g o2) (esch c) Wd) (fun X => f_equal (grp (esch c)) (O X)) NP A Er1) as (G1 & G2 & _).
    destruct (p17 kd c fr fd orph pop _ _ o1 Wc (wf_grp kd (o_g o2) (esch c) Wd) (fun X => f_equal (grp (esch c)) (O X)) NP A Er1) as (D1 & D2 & _).
    destruct Ws as (N & U). cbn [map] in N. inversion N as [|? ? Nc Nt]; subst.
    assert (Wst : wf_esibs kd t) by exact (conj Nt (fun a b Ha Hb => U a b (or_intror Ha) (or_intror Hb))).
    assert (Wp : wf_data kd (put (esch c) (o_g o1) (o_g o2))) by (apply wf_put; assumption).
    assert (Op : orph = true -> put (esch c) (o_g o1) (o_g o2) = []) by (intros X; rewrite (G2 X), (O X); reflexivity).
    assert (HPt : Forall (P15 kd) t) by (apply Forall_forall; intros e _; apply p15).
    destruct (fold_sem kd fr fd orph pop t HPt NP Wt Wst _ _ o2 Wp Op B Er2) as (_ & _ & rs' & [_ _ Ft]).
    assert (Z1 : o_diff o1 = []).
    { apply (Hc fr fd orph pop _ _ o1 Wc (wf_grp kd (o_g o2) (esch c) Wd) (fun X => f_equal (grp (esch c)) (O X)) NP A Er1).
      - intros P. apply grp_nil. intros id X. apply (Fp c id (or_introl eq_refl) P). congruence.
      - intros P. rewrite <- !(lk_eident kd c). rewrite (Ft (eident c)).
        + rewrite lk_put_same by (reflexivity || apply G1). unfold EditSpec.eident. rewrite lk_group by apply G1. reflexivity.
        + intros e He X. apply Nc. rewrite <- X. apply in_map. exact He.
        + intros e He Pe X. assert (c = e) by (apply U; [right; exact He|left; reflexivity|exact Pe|cbn in X; congruence]). subst e. apply Nc. apply in_map. exact He. }
    assert (Z2 : o_g o1 = grp (esch c) (o_g o2)) by (specialize (D2 false); rewrite Z1 in D2; cbn in D2; congruence).
    assert (Z3 : put (esch c) (o_g o1) (o_g o2) = o_g o2) by (rewrite Z2; apply put_grp; apply Wd).
    rewrite Z3 in *. rewrite Z1. cbn [app]. apply (IH Wt Wst _ _ o2 Wp Op B Er2). reflexivity.
Qed.

Lemma drop_none : forall es ds seen, (forall d, In d ds -> in_edit kd es d = true) -> snd (drop kd es seen ds) = [].
Proof. intros es. induction ds as [|d t IH]; intros seen H; [reflexivity|]. cbn [drop]. rewrite (H d (or_introl eq_refl)). apply IH. intros x Hx. apply H. right. exact Hx. Qed.

Lemma p17m : forall e, P17m e.
Proof.
  apply enode_ind2. intros s v b own i ch HP fr fd orph pop ep g o We W O NP H Er HPu Hs. cbn [esch eval] in *.
  destruct (match own with Some o => Some o | None => pop end) as [op|] eqn:Ho; [|cbn [apply_e] in H; rewrite Ho in H; discriminate].
  destruct (purges_dec (E s v b own i ch)) as [P|P].
  - specialize (HPu P). subst g. unfold purges in P. cbn [eown] in P. subst own. injection Ho as <-. cbn [apply_e] in H. destruct (bad_ins kd s i); [discriminate|]. destruct (fd && bad_nested Purge); [discriminate|].
    match type of H with match ?X with _ => _ end = _ => destruct X as [[[[? ?] ?] ?]| |]; try discriminate end. injection H as <-. cbn [o_diff]. destruct (inst (kd s)); reflexivity.
  - specialize (Hs P). clear HPu. assert (NPo : op <> Purge) by (intros ->; destruct own as [o0|]; [injection Ho as ->; apply P; reflexivity|congruence]).
    destruct (apply_inv kd fr fd orph pop ep s v b own i ch g o op We W O NPo Ho H Er) as (x & oc & N).
    pose proof We as We'. apply wfe_all in We'. destruct We' as (-> & Hv & Ht & _ & Wc).
    pose proof (n_act _ _ _ _ _ _ _ _ _ _ _ _ _ _ N) as A. pose proof (act_ok kd s v i orph fr fd g op x W Hv O A) as K.
    assert (HP15 : Forall (P15 kd) ch) by (apply Forall_forall; intros e _; apply p15).
    destruct (kids_sem kd fr fd orph op ep s v i ch g o x oc HP15 Wc Ht NPo K N) as (C1 & C2 & _).
    destruct (node_out kd fr fd orph op ep s v i ch g o x oc K N C1 C2) as (_ & _ & R3 & _).
    destruct (base_wf kd _ _ _ _ _ K) as (B1 & B2).
    assert (Dw : wf_data kd (fst (dropped kd x ch))).
    { unfold dropped. destruct (st_r x || st_d x); [rewrite drop_fst; cbn [app]; apply wf_data_filter; exact B1|exact B1]. }
    assert (Do : negb (issome (st_m x)) = true -> fst (dropped kd x ch) = []).
    { intros X. unfold dropped. destruct (st_m x); [discriminate|]. cbn [base_of]. destruct (st_r x || st_d x); reflexivity. }
    assert (NPs : Some op <> Some Purge) by congruence.
    pose proof (fold17m (st_r x) (st_d x) (negb (issome (st_m x))) (Some op) ch HP NPs (proj2 Wc) (proj1 Wc) [] _ oc Dw Do (n_fold _ _ _ _ _ _ _ _ _ _ _ _ _ _ N) (n_err _ _ _ _ _ _ _ _ _ _ _ _ _ _ N)) as F1.
    destruct (fold_sem kd (st_r x) (st_d x) (negb (issome (st_m x))) (Some op) ch HP15 NPs (proj2 Wc) (proj1 Wc) [] _ oc Dw Do (n_fold _ _ _ _ _ _ _ _ _ _ _ _ _ _ N) (n_err _ _ _ _ _ _ _ _ _ _ _ _ _ _ N)) as (_ & _ & rs & F3).
    assert (Kids : o_g oc = base_of (st_m x) -> snd (dropped kd x ch) ++ o_diff oc = []).
    { intros X. assert (Y : forall d, In d (base_of (st_m x)) -> st_r x || st_d x = true -> in_edit kd ch d = true).
      { intros d Hd Q. destruct (in_edit kd ch d) eqn:I; [reflexivity|]. exfalso.
        assert (L : lk kd (ident d) (o_g oc) = None).
        { destruct F3 as [_ E2 E3]. destruct (id_case kd ch (ident d)) as [(e & He & Pe & Z)|(Np & [(e & He & Z)|Ne])].
          - exact (E2 e _ He Pe Z).
          - assert (in_edit kd ch d = true) by (apply in_edit_ident; exists e; split; assumption). congruence.
          - rewrite (E3 _ Ne Np). unfold dropped. rewrite Q, drop_fst. cbn [app]. apply lk_none. intros y Hy Z. apply filter_In in Hy. destruct Hy as (_ & Hy). apply in_edit_ident in Hy. destruct Hy as (e & He & Qe). apply (Ne e He). congruence. }
        rewrite X in L. unfold lk in L. assert (Z := find_none _ _ L d Hd). cbn beta in Z. rewrite !Nat.eqb_refl in Z. discriminate. }
      assert (Fs : fst (dropped kd x ch) = base_of (st_m x) /\ snd (dropped kd x ch) = []).
      { unfold dropped. destruct (st_r x || st_d x); [|split; reflexivity]. split; [rewrite drop_fst; cbn [app]; apply filter_all; intros d Hd; apply Y; auto|apply drop_none; intros d Hd; apply Y; auto]. }
      destruct Fs as (Fs1 & Fs2). rewrite Fs2. cbn [app]. apply F1. rewrite Fs1. exact X. }
    rewrite (n_diff _ _ _ _ _ _ _ _ _ _ _ _ _ _ N). rewrite R3 in Hs. clear - Hs A Kids nouo. unfold base_of in *.
    remember (find (it s v) g) as m eqn:Em. symmetry in Em.
    destruct A as [op H|op d H1 H2 H3 H4 H5|op H1 H2 H3|op g1 H1 H2 H3 H4|op d g1 H1 H2 H3 H4 H5|op d H1 H2 H3|op d H1 H2 H3 H4|op d H];
      cbn [st_r st_d st_m st_del st_dn st_g st_chg issome negb orb dch dsch dval ddflt] in *.
    + reflexivity.
    + destruct (term (kd s)) eqn:T; [reflexivity|]. rewrite Kids; [cbn [finish]; rewrite T; reflexivity|]. injection Hs as Hs. rewrite <- Hs. reflexivity.
    + discriminate.
    + discriminate.
    + rewrite nouo in H2. discriminate.
    + injection Hs as Hs. exfalso. apply H3. rewrite <- Hs. reflexivity.
    + injection Hs as Hs. exfalso. rewrite <- Hs in H4. discriminate.
    + discriminate.
Qed.

Theorem edit_diff_minimal : forall es ds o, wf_data kd ds -> wf_edit kd es -> edit_apply kd es ds = ROk o -> o_err o = false -> o_g o = ds -> o_diff o = [].
Proof.
  intros es ds o W (We1 & We2) H Er Q. apply (fold17m false false false None es) with (seen := @nil enode) (ds := ds); try assumption; try discriminate.
  apply Forall_forall. intros e _. apply p17m.
Qed.
End P.
