(** Edits do what they mean: induction over the edit. *)
From Coq Require Import List Bool Arith Lia Sorted Permutation.
From Verif Require Import Edit EditSpec EditProofs EditOps EditSem.
Import ListNotations.

Section P.
Variable kd : nat -> kind.
Notation it := (is_it kd).
Notation key := (EditSpec.key kd).
Notation ident := (EditSpec.ident kd).
Notation eident := (EditSpec.eident kd).
Notation wfg := (wfg kd).

Lemma base_wf : forall s v orph g x, op_ok kd s v orph g x -> wf_data kd (base_of (st_m x)) /\ (term (kd s) = true -> base_of (st_m x) = []).
Proof.
  intros s v orph g x [K1 K2 _ _ _]. destruct (st_m x) as [d|] eqn:M; cbn [base_of]; [|split; [apply wf_data_nil|reflexivity]].
  symmetry in K2. apply find_some in K2. destruct K2 as (Hd & _). destruct K1 as (A & _ & W). pose proof (proj1 (Forall_forall _ _) A d Hd) as Sd. pose proof (proj1 (Forall_forall _ _) W d Hd) as Wd. destruct d as [s' v' b ch]. cbn in Sd. subst s'. apply wfd_all in Wd. destruct Wd as (_ & _ & W3 & W4). cbn [dch]. split; assumption.
Qed.

Lemma kids_sem : forall fr fd orph op ep s v i ch g o x oc,
  Forall (P15 kd) ch -> wf_edit kd ch -> (term (kd s) = true -> ch = []) -> op <> Purge ->
  op_ok kd s v orph g x -> node_ok kd fr fd orph op ep s v i ch g o x oc ->
  wf_data kd (o_g oc) /\ (term (kd s) = true -> o_g oc = []) /\
  exists rs,
    collect (map (fun ce => sp kd (ctxof (st_d x) (negb (issome (st_m x)))) (st_r x) (Some op) ce (lk kd (eident ce) (base_of (st_m x)))) ch) = Some rs /\
    (st_d x = false -> forall p, get kd p ((if st_r x then [] else filter (fun d => negb (touched kd ch d)) (base_of (st_m x))) ++ rs) = get kd p (o_g oc)).
Proof.
  intros fr fd orph op ep s v i ch g o x oc HP (We1 & We2) Tc NP K N. destruct (base_wf _ _ _ _ _ K) as (B1 & B2).
  assert (Dw : wf_data kd (fst (dropped kd x ch))).
  { unfold dropped. destruct (st_r x || st_d x); [rewrite drop_fst; cbn [app]; apply wf_data_filter; exact B1|exact B1]. }
  assert (Do : negb (issome (st_m x)) = true -> fst (dropped kd x ch) = []).
  { intros X. unfold dropped. destruct (st_m x); [discriminate|]. cbn [base_of]. destruct (st_r x || st_d x); reflexivity. }
  destruct (fold_sem kd (st_r x) (st_d x) (negb (issome (st_m x))) (Some op) ch HP (fun X => NP (f_equal (fun o => match o with Some y => y | None => op end) X)) We2 We1 [] (fst (dropped kd x ch)) oc Dw Do (n_fold _ _ _ _ _ _ _ _ _ _ _ _ _ _ N) (n_err _ _ _ _ _ _ _ _ _ _ _ _ _ _ N)) as (F1 & F2 & rs & F3).
  split; [exact F1|]. split.
  { intros T. pose proof (n_fold _ _ _ _ _ _ _ _ _ _ _ _ _ _ N) as Hf. rewrite (Tc T) in Hf. cbn [fold_edits] in Hf. injection Hf as <-. cbn [o_g]. unfold dropped. rewrite (B2 T). destruct (st_r x || st_d x); reflexivity. }
  exists (somes rs). split.
  - apply collect_some. destruct F3 as [F3 _ _]. assert (Z : forall e, In e ch -> lk kd (eident e) (fst (dropped kd x ch)) = lk kd (eident e) (base_of (st_m x))).
    { intros e He. unfold dropped. destruct (st_r x || st_d x); [rewrite drop_fst; cbn [app]; apply lk_drop; exact He|reflexivity]. }
    remember (fst (dropped kd x ch)) as D0 eqn:ED0. clear - F3 Z. induction F3 as [|e r t rs (E1 & _) F3 IH]; constructor.
    + rewrite <- Z by (left; reflexivity). exact E1.
    + apply IH. intros y Hy. apply Z. right. exact Hy.
  - intros Sd p. unfold dropped in F3. rewrite Sd, orb_false_r in F3. destruct (st_r x).
    + rewrite drop_fst in F3. cbn [app] in *. exact (sibs_get_repl kd _ ch _ _ rs F3 We1 p).
    + cbn [fst] in F3. exact (sibs_get kd _ ch _ _ rs F3 We1 p).
Qed.

Lemma node_out : forall fr fd orph op ep s v i ch g o x oc,
  op_ok kd s v orph g x -> node_ok kd fr fd orph op ep s v i ch g o x oc -> wf_data kd (o_g oc) -> (term (kd s) = true -> o_g oc = []) ->
  wfg s (o_g o) /\ (orph = true -> o_g o = []) /\
  find (it s v) (o_g o) = (if st_del x then None else match st_m x with Some d => Some (D (dsch d) (dval d) (ddflt d) (o_g oc)) | None => None end) /\
  forall v', key s v' <> key s v -> find (it s v') (o_g o) = find (it s v') g.
Proof.
  intros fr fd orph op ep s v i ch g o x oc [K1 K2 K3 K4 K5] N W T. rewrite (n_g _ _ _ _ _ _ _ _ _ _ _ _ _ _ N).
  assert (Ik : forall d, it s v d = true -> it s v (D (dsch d) (dval d) (ddflt d) (o_g oc)) = true) by (intros d Hd; apply it_key; apply it_key in Hd; exact Hd).
  destruct (st_del x); [|destruct (st_m x) as [d|] eqn:M].
  - split; [apply wfg_remove; exact K1|]. split; [intros X; rewrite (K5 X); reflexivity|]. split; [apply find_remove_same; apply K1|]. intros v' Nv. rewrite find_remove_other by exact Nv. apply K3. exact Nv.
  - split; [|split; [intros X; rewrite (K5 X); reflexivity|split]].
    + apply wfg_update; [exact K1|]. intros y Hy _. destruct K1 as (A & _ & Ww). pose proof (proj1 (Forall_forall _ _) A y Hy) as Sy. pose proof (proj1 (Forall_forall _ _) Ww y Hy) as Wy. destruct y as [sy vy by_ chy]. cbn in Sy. subst sy. cbn [dsch dval ddflt]. split; [reflexivity|]. split; [reflexivity|]. apply wfd_all in Wy. destruct Wy as (W1 & W2 & _ & _). apply wfd_make; assumption.
    + symmetry in K2. apply (find_update_same kd s v (fun d => D (dsch d) (dval d) (ddflt d) (o_g oc)) _ d K2). apply Ik. apply (find_some _ _ K2).
    + intros v' Nv. rewrite find_update_other by assumption. apply K3. exact Nv.
  - split; [exact K1|]. split; [exact K5|]. split; [symmetry; exact K2|exact K3].
Qed.

Lemma purge_nil : forall s g, wfg s g -> inst (kd s) = false -> skipn 1 g = [].
Proof.
  intros s g (_ & N & _) I. destruct g as [|a [|b t]]; [reflexivity|reflexivity|]. exfalso. cbn [map] in N. inversion N as [|? ? X _]; subst. apply X. left. unfold EditSpec.key. rewrite I. reflexivity.
Qed.

Ltac fin := cbn [req dval dch]; split; [try reflexivity|intros p].

Lemma p15 : forall e, P15 kd e.
Proof.
  apply enode_ind2. intros s v b own i ch HP fr fd orph pop ep g o We W O NP H Er. cbn [esch eval] in *.
  destruct (match own with Some o => Some o | None => pop end) as [op|] eqn:Ho; [|cbn [apply_e] in H; rewrite Ho in H; discriminate].
  destruct (purges_dec (E s v b own i ch)) as [P|P].
  - (* purge *)
    unfold purges in P. cbn [eown] in P. subst own. injection Ho as <-. pose proof We as We'. apply wfe_all in We'. destruct We' as (-> & Hv & _ & Hp & _). specialize (Hp eq_refl). subst ch.
    assert (Hg : o_g o = []).
    { cbn [apply_e] in H. destruct (bad_ins kd s i); [discriminate|]. destruct (fd && bad_nested Purge); [discriminate|]. cbn [fold_edits] in H. injection H as <-. cbn [o_g]. destruct (inst (kd s)) eqn:I; [reflexivity|]. apply (purge_nil s); assumption. }
    rewrite Hg. split; [apply wfg_nil|]. split; [reflexivity|]. exists None. split; [|split; [exact I|split; [intros _; split; reflexivity|intros X; exfalso; apply X; reflexivity]]].
    cbn [sp]. destruct (ctxof fd orph); reflexivity.
  - assert (NPo : op <> Purge) by (intros ->; destruct own as [o0|]; [injection Ho as ->; apply P; reflexivity|congruence]).
    destruct (apply_inv kd fr fd orph pop ep s v b own i ch g o op We W O NPo Ho H Er) as (x & oc & N).
    pose proof We as We'. apply wfe_all in We'. destruct We' as (-> & Hv & Ht & _ & Wc).
    pose proof (n_act _ _ _ _ _ _ _ _ _ _ _ _ _ _ N) as A. pose proof (act_ok kd s v i orph fr fd g op x W Hv O A) as K.
    destruct (kids_sem fr fd orph op ep s v i ch g o x oc HP Wc Ht NPo K N) as (C1 & C2 & rs & C3 & C4).
    destruct (node_out fr fd orph op ep s v i ch g o x oc K N C1 C2) as (R1 & R2 & R3 & R4).
    split; [exact R1|]. split; [exact R2|].
    enough (Z : exists r, sp kd (ctxof fd orph) fr pop (E s v false own i ch) (find (it s v) g) = Some r /\ rid kd (E s v false own i ch) r /\ req kd r (find (it s v) (o_g o))).
    { destruct Z as (r & Z1 & Z2 & Z3). exists r. split; [exact Z1|]. split; [exact Z2|]. split; [intros X; destruct (P X)|]. intros _. split; [exact Z3|exact R4]. }
    rewrite R3. clear R1 R2 R3 R4. cbn [sp]. rewrite Ho.
    pose proof (n_nested _ _ _ _ _ _ _ _ _ _ _ _ _ _ N) as Nn. clear H Er N HP K C1 P. unfold base_of in *.
    remember (find (it s v) g) as m eqn:Em. symmetry in Em.
    assert (Hd : forall d, m = Some d -> dsch d = s /\ In d g /\ key s (dval d) = key s v).
    { intros d ->. apply find_some in Em. destruct Em as (E1 & E2). split; [exact (proj1 (Forall_forall _ _) (proj1 W) d E1)|]. split; [exact E1|]. apply it_key. exact E2. }
    assert (Hi : forall d l, m = Some d -> rid kd (E s v false own i ch) (Some (D s (dval d) false l))).
    { intros d l X. destruct (Hd d X) as (_ & _ & Q). cbn. unfold EditSpec.ident, EditSpec.eident. cbn. rewrite Q. reflexivity. }
    assert (Hi' : forall l, rid kd (E s v false own i ch) (Some (D s v false l))) by reflexivity.
    destruct A as [op H|op d H1 H2 H3 H4 H5|op H1 H2 H3|op g1 H1 H2 H3 H4|op d g1 H1 H2 H3 H4 H5|op d H1 H2 H3|op d H1 H2 H3 H4|op d H];
      cbn [st_r st_d st_m st_del issome negb dch dsch dval ddflt] in *.
    + (* missing *)
      exists None. split; [|split; exact I]. destruct H as [->| ->].
      * destruct fd; [discriminate (Nn eq_refl)|]. cbn [ctxof] in *. destruct orph; cbn [deletes]; rewrite C3; reflexivity.
      * destruct fd; cbn [ctxof] in *; [cbn [deletes]; rewrite C3; reflexivity|]. destruct orph; cbn [deletes]; rewrite C3; reflexivity.
    + (* kept *)
      assert (Or : orph = false) by (destruct orph; [destruct (Hd d eq_refl) as (_ & X & _); rewrite (O eq_refl) in X; destruct X|reflexivity]). subst orph.
      destruct fd; [exfalso; specialize (Nn eq_refl); destruct op; discriminate || congruence|]. cbn [ctxof] in *. specialize (C4 eq_refl).
      destruct (Hd d eq_refl) as (Sd & _ & Kd).
      destruct op; try congruence; cbn [deletes]; rewrite ?(H4 eq_refl), C3;
        (eexists; split; [reflexivity|]); (split; [try apply Hi'; try (apply Hi; reflexivity)|]); fin; try (rewrite <- C4; reflexivity); symmetry; apply H5; auto.
    + (* new *)
      subst orph. destruct fd; [exfalso; specialize (Nn eq_refl); destruct H1 as [->|[->| ->]]; discriminate|]. cbn [ctxof] in *. specialize (C4 eq_refl).
      destruct H1 as [->|[->| ->]]; cbn [deletes]; rewrite C3; (eexists; split; [reflexivity|]); (split; [apply Hi'|]); fin; rewrite <- C4; reflexivity.
    + subst orph. destruct fd; [exfalso; specialize (Nn eq_refl); destruct H1 as [->|[->| ->]]; discriminate|]. cbn [ctxof] in *. specialize (C4 eq_refl).
      destruct H1 as [->|[->| ->]]; cbn [deletes]; rewrite C3; (eexists; split; [reflexivity|]); (split; [apply Hi'|]); fin; rewrite <- C4; reflexivity.
    + (* moved *)
      subst orph. destruct fd; [exfalso; specialize (Nn eq_refl); destruct H1 as [->| ->]; discriminate|]. cbn [ctxof] in *. specialize (C4 eq_refl).
      destruct H1 as [->| ->]; cbn [deletes]; rewrite C3; (eexists; split; [reflexivity|]); (split; [apply Hi'|]); fin; try (symmetry; exact H4); rewrite <- C4; reflexivity.
    + (* set *)
      assert (Or : orph = false) by (destruct orph; [destruct (Hd d eq_refl) as (_ & X & _); rewrite (O eq_refl) in X; destruct X|reflexivity]). subst orph.
      assert (T : term (kd s) = true) by (rewrite H2; reflexivity). specialize (Ht T). subst ch. cbn [map collect fold_right] in *.
      destruct (Hd d eq_refl) as (Sd & Hg & Kd).
      assert (Dc : dch d = []). { pose proof (proj1 (Forall_forall _ _) (proj2 (proj2 W)) d Hg) as Wd. destruct d as [sd vd bd chd]. cbn in Sd. subst sd. apply wfd_all in Wd. cbn. apply Wd. exact T. }
      destruct fd; [exfalso; specialize (Nn eq_refl); destruct H1 as [->|[->|(-> & _)]]; discriminate|]. cbn [ctxof]. rewrite (C2 T), Dc. cbn [filter app].
      destruct H1 as [->|[->|(-> & Db)]]; cbn [deletes]; rewrite ?H2; cbn [np_cont].
      * eexists. split; [reflexivity|]. split; [apply Hi'|]. fin. destruct fr; reflexivity.
      * eexists. split; [reflexivity|]. split; [apply Hi'|]. fin. reflexivity.
      * unfold is_default. rewrite Sd, T, Db. cbn [andb]. eexists. split; [reflexivity|]. split; [apply Hi'|]. fin. destruct fr; reflexivity.
    + (* default *)
      assert (Or : orph = false) by (destruct orph; [destruct (Hd d eq_refl) as (_ & X & _); rewrite (O eq_refl) in X; destruct X|reflexivity]). subst orph.
      assert (T : term (kd s) = true) by (rewrite H2; reflexivity). specialize (Ht T). subst ch. cbn [map collect fold_right] in *.
      destruct (Hd d eq_refl) as (Sd & Hg & Kd).
      assert (Dc : dch d = []). { pose proof (proj1 (Forall_forall _ _) (proj2 (proj2 W)) d Hg) as Wd. destruct d as [sd vd bd chd]. cbn in Sd. subst sd. apply wfd_all in Wd. cbn. apply Wd. exact T. }
      destruct fd; [exfalso; specialize (Nn eq_refl); destruct H1 as [->| ->]; discriminate|]. cbn [ctxof]. rewrite (C2 T), Dc. cbn [filter app].
      destruct H1 as [->| ->]; cbn [deletes]; rewrite ?H2; cbn [np_cont].
      * eexists. split; [reflexivity|]. split; [apply Hi'|]. fin. destruct fr; reflexivity.
      * unfold is_default. rewrite Sd, T, H4. cbn [andb]. eexists. split; [reflexivity|]. split; [apply Hi'|]. fin. destruct fr; reflexivity.
    + (* deleted *)
      destruct (Hd d eq_refl) as (Sd & Hg & Kd). cbn [ctxof] in C3.
      exists None. split; [|split; exact I]. destruct H as [->|(-> & H)].
      * destruct (ctxof fd orph); cbn [deletes]; rewrite C3; reflexivity.
      * unfold is_default. rewrite Sd, H. destruct (ctxof fd orph); cbn [deletes]; rewrite C3; reflexivity.
Qed.

(** ** The whole edit *)
Theorem edit_means : forall es ds o, wf_data kd ds -> wf_edit kd es -> edit_apply kd es ds = ROk o -> o_err o = false ->
  wf_data kd (o_g o) /\ exists ds', edit_spec kd es ds = Some ds' /\ forall p, get kd p (o_g o) = get kd p ds'.
Proof.
  intros es ds o W (We1 & We2) H Er. unfold edit_apply in H.
  assert (HP : Forall (P15 kd) es) by (apply Forall_forall; intros e _; apply p15).
  destruct (fold_sem kd false false false None es HP ltac:(discriminate) We2 We1 [] ds o W ltac:(discriminate) H Er) as (F1 & _ & rs & F3).
  split; [exact F1|]. unfold edit_spec. rewrite (collect_some enode (fun e => sp kd Present false None e (lk kd (eident e) ds)) es rs).
  - eexists. split; [reflexivity|]. intros p. symmetry. exact (sibs_get kd _ es ds _ rs F3 We1 p).
  - destruct F3 as [F3 _ _]. clear - F3. induction F3 as [|e r t rs (E1 & _) F3 IH]; constructor; assumption.
Qed.
End P.
