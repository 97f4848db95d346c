(** Conflicting edits fail, others do not. *)
From Coq Require Import List Bool Arith Lia Sorted Permutation.
From Verif Require Import Edit EditSpec EditProofs EditOps EditSem EditMain.
Import ListNotations.

Section P.
Variable kd : nat -> kind.
Notation it := (is_it kd).
Notation key := (EditSpec.key kd).
Notation ident := (EditSpec.ident kd).
Notation eident := (EditSpec.eident kd).
Notation wfg := (wfg kd).

Lemma collect_none : forall (A B : Type) (f : B -> option (option A)) es e, In e es -> f e = None -> collect (map f es) = None.
Proof.
  intros A B f es e H Q. induction es as [|c t IH]; [destruct H|]. unfold collect in *. cbn [map fold_right]. destruct H as [->|H]; [rewrite Q; reflexivity|]. rewrite (IH H). destruct (f c) as [[]|]; reflexivity.
Qed.
Lemma collect_each : forall (A B : Type) (f : B -> option (option A)) es rs, collect (map f es) = Some rs -> forall e, In e es -> exists r, f e = Some r.
Proof. intros A B f es rs H e He. destruct (f e) as [r|] eqn:Q; [exists r; reflexivity|]. rewrite (collect_none _ _ f es e He Q) in H. discriminate. Qed.

Lemma conflict_none : forall inh e old, conflict kd inh e old -> forall c repl, sp kd c repl inh e old = None.
Proof.
  intros inh e old H. induction H as [inh e d H1 H2 H3|inh e old H1 H2|inh e H1|inh e old o ce H1 H2 H3 H4 IH]; intros c repl; destruct e as [s v b own i ch]; cbn [eown esch ech] in *; cbn [sp]; rewrite H1.
  - rewrite H2, H3. destruct c; reflexivity.
  - destruct old as [d|]; [rewrite (H2 d eq_refl)|]; destruct c; reflexivity.
  - destruct c; reflexivity.
  - assert (Z : forall c' r', collect (map (fun ce => sp kd c' r' (Some o) ce (lk kd (eident ce) (base_of old))) ch) = None).
    { intros c' r'. apply (collect_none _ _ _ ch ce H3). rewrite <- (IH c' r'). f_equal. destruct old; reflexivity. }
    unfold base_of in Z. destruct c, o, old as [d|]; cbn [deletes]; try congruence; rewrite ?Z; try reflexivity;
      try (destruct (is_default kd d); reflexivity); destruct (np_cont (kd s)); try reflexivity; destruct (is_default kd d); reflexivity.
Qed.

Theorem conflict_fails : forall es ds e o, wf_data kd ds -> wf_edit kd es -> In e es -> conflict kd None e (lk kd (eident e) ds) ->
  edit_apply kd es ds = ROk o -> o_err o = true.
Proof.
  intros es ds e o W We He C H. destruct (o_err o) eqn:Er; [reflexivity|]. exfalso.
  destruct (edit_means kd es ds o W We H Er) as (_ & ds' & S & _). unfold edit_spec in S. rewrite (collect_none _ _ _ es e He (conflict_none _ _ _ C _ _)) in S. discriminate.
Qed.

(** ** Edits that do not fail *)
Definition okins (i : ins) : Prop := match i with IBefore _ | IAfter _ => False | _ => True end.
Lemma veq_total : forall fr i ep s v m g, okins i -> exists veq, val_equal kd fr i ep s v m g = Some veq.
Proof.
  intros fr i ep s v m g O. unfold val_equal. destruct m as [d|]; [|eauto]. destruct (kd s) as [np| |uo|uo]; eauto; cbn [userord]; (destruct uo; [|eauto]); unfold is_moved; destruct i; cbn [okins option_map] in *; try contradiction; eauto.
Qed.
Lemma insert_total : forall i x g, okins i -> exists g1, edit_insert i x g = Some g1.
Proof. intros i x g O. destruct i; cbn [okins edit_insert] in *; try contradiction; eauto. Qed.

Definition cnd (s : nat) (orph : bool) (op : eop) (m : option dnode) : Prop :=
  match op, m with
  | Purge, _ => False
  | Delete, Some d => (term (kd s) && ddflt d) = false
  | Delete, None | Non, None => False
  | Create, Some d => np_cont (kd s) = true \/ (kd s = KLeaf /\ ddflt d = true)
  | Merge, None | Replace, None | Create, None => orph = false
  | _, _ => True
  end.

Lemma op_total : forall s v i orph fr fd ep veq g op, okins i -> (orph = true -> g = []) ->
  cnd s orph op (find (it s v) g) -> val_equal kd fr i ep s v (find (it s v) g) g = Some veq ->
  exists x, op_loop kd s v false i orph veq 5 (OOp op) (mkst g (find (it s v) g) None fr fd false false false) = ROk x /\ st_err x = false.
Proof.
  intros s v i orph fr fd ep veq g op Oi O C Q.
  destruct (find (it s v) g) as [d|] eqn:Fd.
  - assert (Or : orph = false) by (destruct orph; [rewrite (O eq_refl) in Fd; discriminate|reflexivity]). subst orph.
    destruct (insert_total i d (remove_first (it s v) g) Oi) as (g1 & Hg1). unfold val_equal in Q.
    destruct op; cbn [cnd] in C; try contradiction; cbn [op_loop step_op apply_ether apply_none apply_merge apply_replace apply_create apply_delete apply_remove st_m st_g].
    + destruct (kd s); eexists; split; reflexivity.
    + destruct (kd s); eexists; split; reflexivity.
    + destruct veq; cbn [negb].
      * destruct (term (kd s)) eqn:T; cbn [andb].
        -- destruct (ddflt d) eqn:B; cbn [negb Bool.eqb].
           ++ cbn [op_loop step_op apply_dflt st_m]. rewrite T, B. cbn. eexists; split; reflexivity.
           ++ cbn [op_loop step_op apply_none st_m]. destruct (kd s); eexists; split; reflexivity.
        -- cbn [op_loop step_op apply_none st_m]. destruct (kd s); eexists; split; reflexivity.
      * destruct (kd s) as [np| |uo|uo] eqn:K; [discriminate| | |].
        -- cbn [op_loop step_op apply_replace st_m]. rewrite K. cbn. eexists; split; reflexivity.
        -- destruct uo; [|discriminate]. cbn [userord op_loop step_op]. unfold apply_move. cbn [st_m st_g]. rewrite Hg1. eexists; split; reflexivity.
        -- destruct uo; [|discriminate]. cbn [userord op_loop step_op]. unfold apply_move. cbn [st_m st_g]. rewrite Hg1. eexists; split; reflexivity.
    + destruct veq.
      * cbn [op_loop step_op apply_none st_m set_r]. destruct (kd s); eexists; split; reflexivity.
      * destruct (kd s) as [np| |uo|uo] eqn:K; [discriminate| | |].
        -- cbn. eexists; split; reflexivity.
        -- destruct uo; [|discriminate]. cbn [op_loop step_op]. unfold apply_move, set_r. cbn [st_m st_g]. rewrite Hg1. eexists; split; reflexivity.
        -- destruct uo; [|discriminate]. cbn [op_loop step_op]. unfold apply_move, set_r. cbn [st_m st_g]. rewrite Hg1. eexists; split; reflexivity.
    + destruct C as [C|(K & B)].
      * rewrite C. cbn [op_loop step_op apply_none st_m]. destruct (kd s); eexists; split; reflexivity.
      * rewrite K, B. cbn [np_cont andb]. destruct veq.
        -- cbn [op_loop step_op apply_dflt st_m]. rewrite K, B. cbn. eexists; split; reflexivity.
        -- cbn [op_loop step_op apply_replace st_m]. rewrite K. cbn. eexists; split; reflexivity.
    + rewrite C. cbn [op_loop step_op apply_remove st_m]. eexists; split; reflexivity.
    + eexists; split; reflexivity.
  - destruct (insert_total i (D s v false []) g Oi) as (g1 & Hg1).
    destruct op; cbn [cnd] in C; try contradiction; subst; cbn [op_loop step_op apply_ether apply_none apply_merge apply_replace apply_create apply_delete apply_remove st_m st_g];
      try (eexists; split; reflexivity); (destruct (userord (kd s)) eqn:U; [cbn [op_loop step_op]; unfold apply_move; cbn [st_m st_g]; rewrite Hg1|]; eexists; split; reflexivity).
Qed.

(** The converse of [apply_inv]. *)
Lemma apply_make : forall fr fd orph pop ep s v own i ch g op veq x oc,
  wfg s g -> op <> Purge -> (match own with Some o => Some o | None => pop end) = Some op ->
  bad_ins kd s i = false -> (fd && bad_nested op) = false ->
  val_equal kd fr i ep s v (find (it s v) g) g = Some veq ->
  op_loop kd s v false i orph veq 5 (OOp op) (mkst g (find (it s v) g) None fr fd false false false) = ROk x -> st_err x = false ->
  fold_edits (fun ep' c g' => apply_e kd (st_r x) (st_d x) (negb (issome (st_m x))) (Some op) ep' c g') [] ch (fst (dropped kd x ch)) = ROk oc -> o_err oc = false ->
  exists o, apply_e kd fr fd orph pop ep (E s v false own i ch) g = ROk o /\ o_err o = false.
Proof.
  intros fr fd orph pop ep s v own i ch g op veq x oc W NP Ho Bi Bn Q L Er1 Fo Er2.
  cbn [apply_e]. rewrite Ho, Bi, Bn, (edit_find_wf kd s v g W), Q, L. unfold dropped, base_of in Fo.
  destruct op; try congruence; rewrite Fo; eexists; (split; [reflexivity|]); cbn [o_err]; rewrite Er1, Er2; reflexivity.
Qed.

Definition P15c (e : enode) : Prop := forall fr fd orph pop ep g r,
  wfe kd e -> no_anchor e -> wfg (esch e) g -> (orph = true -> g = []) -> pop <> Some Purge ->
  sp kd (ctxof fd orph) fr pop e (find (it (esch e) (eval e)) g) = Some r ->
  exists o, apply_e kd fr fd orph pop ep e g = ROk o /\ o_err o = false.

Lemma fold_total : forall fr fd orph pop es, Forall P15c es -> pop <> Some Purge -> Forall (wfe kd) es -> Forall no_anchor es -> wf_esibs kd es -> forall seen ds,
  wf_data kd ds -> (orph = true -> ds = []) ->
  (forall e, In e es -> exists r, sp kd (ctxof fd orph) fr pop e (lk kd (eident e) ds) = Some r) ->
  exists o, fold_edits (fun ep c g => apply_e kd fr fd orph pop ep c g) seen es ds = ROk o /\ o_err o = false.
Proof.
  intros fr fd orph pop es HP NP. induction HP as [|c t Hc Ht IH]; intros We Na (N & U) seen ds Wd O Hs.
  - eexists. split; reflexivity.
  - inversion We as [|? ? Wc Wt]; subst. inversion Na as [|? ? Nac Nat_]; subst. pose proof N as N0. cbn [map] in N. inversion N as [|? ? Nc Nt]; subst.
    destruct (Hs c (or_introl eq_refl)) as (r & Hr). rewrite lk_eident in Hr.
    destruct (Hc fr fd orph pop (last_einst (esch c) seen) (grp (esch c) ds) r Wc Nac (wf_grp kd ds (esch c) Wd) (fun X => f_equal (grp (esch c)) (O X)) NP Hr) as (o1 & A & Er1).
    (* the result of the first one *)
    assert (One : fold_edits (fun ep c g => apply_e kd fr fd orph pop ep c g) seen [c] ds = ROk (mkout (put (esch c) (o_g o1) ds) (o_diff o1 ++ []) (o_err o1 || false) (o_chg o1 || false))) by (cbn [fold_edits]; rewrite A; reflexivity).
    assert (HPc : Forall (P15 kd) [c]) by (constructor; [apply p15|constructor]).
    assert (Wec : wf_esibs kd [c]) by (split; [constructor; [intros []|constructor]|intros a b [<-|[]] [<-|[]] _ _; reflexivity]).
    destruct (fold_sem kd fr fd orph pop [c] HPc NP (Forall_cons _ Wc (Forall_nil _)) Wec seen ds _ Wd O One) as (G1 & G2 & rs & [_ _ G3]); [cbn [o_err]; rewrite Er1; reflexivity|]. cbn [o_g] in *.
    destruct (IH Wt Nat_ (conj Nt (fun a b Ha Hb => U a b (or_intror Ha) (or_intror Hb))) (seen ++ [c]) (put (esch c) (o_g o1) ds) G1 G2) as (o2 & B & Er2).
    + intros e He. destruct (Hs e (or_intror He)) as (r' & Hr'). exists r'. rewrite G3; [exact Hr'| |].
      * intros x [<-|[]] X. apply Nc. rewrite X. apply in_map. exact He.
      * intros x [<-|[]] P X. assert (e = c) by (apply U; [left; reflexivity|right; exact He|exact P|cbn in X; congruence]). subst e. apply Nc. apply in_map. exact He.
    + cbn [fold_edits]. rewrite A, B. eexists. split; [reflexivity|]. cbn [o_err]. rewrite Er1, Er2. reflexivity.
Qed.

Lemma no_anchor_all : forall s v b own i ch, no_anchor (E s v b own i ch) -> okins i /\ Forall no_anchor ch.
Proof. intros s v b own i ch (H1 & H2). split; [exact H1|]. clear H1. induction ch as [|c t IH]; constructor; [apply H2|apply IH; apply H2]. Qed.

Lemma eop_purge_dec : forall o, {o = Purge} + {o <> Purge}.
Proof. intros []; (left; reflexivity) || (right; discriminate). Qed.

Lemma p15c : forall e, P15c e.
Proof.
  apply enode_ind2. intros s v b own i ch HP fr fd orph pop ep g r We Na W O NP H. cbn [esch eval] in *.
  apply no_anchor_all in Na. destruct Na as (Oi & Nac).
  assert (Bi : bad_ins kd s i = false) by (unfold bad_ins; destruct i; cbn in Oi; try contradiction; apply andb_false_r).
  pose proof We as We'. apply wfe_all in We'. destruct We' as (-> & Hv & Ht & Hp & Wc1 & Wc2).
  cbn [sp] in H. destruct (match own with Some o => Some o | None => pop end) as [op|] eqn:Ho; [|discriminate].
  assert (Hn : (fd && bad_nested op) = false).
  { destruct fd; [|reflexivity]. cbn [ctxof] in H. destruct op; try reflexivity; discriminate. }
  destruct (eop_purge_dec op) as [->|NPo].
  - assert (own = Some Purge) by (destruct own; congruence). subst own. specialize (Hp eq_refl). subst ch.
    cbn [apply_e]. rewrite Bi, Hn. cbn [fold_edits]. eexists. split; reflexivity.
  - destruct (veq_total fr i ep s v (find (it s v) g) g Oi) as (veq & Q).
    assert (Sd : forall d, find (it s v) g = Some d -> dsch d = s /\ (ddflt d = true -> kd s = KLeaf)).
    { intros d X. apply find_some in X. destruct X as (X & _). destruct W as (Wa & _ & Ww). pose proof (proj1 (Forall_forall _ _) Wa d X) as Sd. split; [exact Sd|]. pose proof (proj1 (Forall_forall _ _) Ww d X) as Wd. destruct d as [s' v' b' ch']. cbn in Sd. subst s'. apply wfd_all in Wd. apply Wd. }
    assert (C : cnd s orph op (find (it s v) g)).
    { destruct (find (it s v) g) as [d|]; [destruct (Sd d eq_refl) as (S1 & S2)|]; destruct op; cbn [cnd]; try exact I; try congruence.
      - destruct (ctxof fd orph); cbn [deletes] in H; try discriminate; (destruct (np_cont (kd s)); [left; reflexivity|]); (destruct (is_default kd d) eqn:Df; [|discriminate]); right; unfold is_default in Df; apply andb_prop in Df; destruct Df as (_ & Df); split; auto.
      - destruct (ctxof fd orph); cbn [deletes] in H; unfold is_default in H; rewrite S1 in H; destruct (term (kd s) && ddflt d); congruence.
      - destruct (ctxof fd orph); discriminate.
      - destruct orph; [|reflexivity]. destruct fd; discriminate.
      - destruct orph; [|reflexivity]. destruct fd; discriminate.
      - destruct orph; [|reflexivity]. destruct fd; discriminate.
      - destruct (ctxof fd orph); discriminate. }
    destruct (op_total s v i orph fr fd ep veq g op Oi O C Q) as (x & L & Er).
    pose proof (op_act kd s v i orph fr fd ep veq g op x W Hv NPo O Q L Er) as A. pose proof (act_ok kd s v i orph fr fd g op x W Hv O A) as K.
    destruct (base_wf kd _ _ _ _ _ K) as (B1 & B2).
    assert (Dw : wf_data kd (fst (dropped kd x ch))).
    { unfold dropped. destruct (st_r x || st_d x); [rewrite drop_fst; cbn [app]; apply wf_data_filter; exact B1|exact B1]. }
    assert (Do : negb (issome (st_m x)) = true -> fst (dropped kd x ch) = []).
    { intros X. unfold dropped. destruct (st_m x); [discriminate|]. cbn [base_of]. destruct (st_r x || st_d x); reflexivity. }
    assert (Each : forall e, In e ch -> exists r', sp kd (ctxof (st_d x) (negb (issome (st_m x)))) (st_r x) (Some op) e (lk kd (eident e) (fst (dropped kd x ch))) = Some r').
    { intros e He. replace (lk kd (eident e) (fst (dropped kd x ch))) with (lk kd (eident e) (base_of (st_m x))) by (unfold dropped; destruct (st_r x || st_d x); [rewrite drop_fst; cbn [app]; symmetry; apply lk_drop; exact He|reflexivity]).
      enough (Z : exists rs, collect (map (fun ce => sp kd (ctxof (st_d x) (negb (issome (st_m x)))) (st_r x) (Some op) ce (lk kd (eident ce) (base_of (st_m x)))) ch) = Some rs) by (destruct Z as (rs & Z); exact (collect_each _ _ _ ch rs Z e He)).
      clear - A H Hn O Ht He Sd. remember (find (it s v) g) as m eqn:Em. symmetry in Em.
      assert (Or : forall d, m = Some d -> orph = false) by (intros d ->; destruct orph; [rewrite (O eq_refl) in Em; discriminate|reflexivity]).
      destruct A as [op H0|op d H1 H2 H3 H4 H5|op H1 H2 H3|op g1 H1 H2 H3 H4|op d g1 H1 H2 H3 H4 H5|op d H1 H2 H3|op d H1 H2 H3 H4|op d H0];
        cbn [st_r st_d st_m st_del issome negb base_of dch] in *.
      - destruct H0 as [->| ->]; destruct fd; try discriminate Hn; cbn [ctxof] in *; try (destruct orph); cbn [deletes] in H;
          match type of H with match match ?X with _ => _ end with _ => _ end = _ => destruct X as [rs|] eqn:Z; [|discriminate]; exists rs; first [exact Z|reflexivity] end.
      - rewrite (Or d eq_refl) in *. destruct fd; [exfalso; destruct op; discriminate Hn || congruence|]. cbn [ctxof] in *.
        destruct op; try congruence; cbn [deletes] in H; rewrite ?(H4 eq_refl) in H; match type of H with match match ?X with _ => _ end with _ => _ end = _ => destruct X as [rs|] eqn:Z; [|discriminate]; exists rs; first [exact Z|reflexivity] end.
      - subst orph. destruct fd; [exfalso; destruct H1 as [->|[->| ->]]; discriminate Hn|]. cbn [ctxof] in *. destruct H1 as [->|[->| ->]]; cbn [deletes] in H; match type of H with match match ?X with _ => _ end with _ => _ end = _ => destruct X as [rs|] eqn:Z; [|discriminate]; exists rs; first [exact Z|reflexivity] end.
      - subst orph. destruct fd; [exfalso; destruct H1 as [->|[->| ->]]; discriminate Hn|]. cbn [ctxof] in *. destruct H1 as [->|[->| ->]]; cbn [deletes] in H; match type of H with match match ?X with _ => _ end with _ => _ end = _ => destruct X as [rs|] eqn:Z; [|discriminate]; exists rs; first [exact Z|reflexivity] end.
      - subst orph. destruct fd; [exfalso; destruct H1 as [->| ->]; discriminate Hn|]. cbn [ctxof] in *. destruct H1 as [->| ->]; cbn [deletes] in H; match type of H with match match ?X with _ => _ end with _ => _ end = _ => destruct X as [rs|] eqn:Z; [|discriminate]; exists rs; first [exact Z|reflexivity] end.
      - assert (T : term (kd s) = true) by (rewrite H2; reflexivity). rewrite (Ht T). eexists. reflexivity.
      - assert (T : term (kd s) = true) by (rewrite H2; reflexivity). rewrite (Ht T). eexists. reflexivity.
      - cbn [ctxof]. destruct H0 as [->|(-> & H0)]; [|unfold is_default in H; rewrite (proj1 (Sd d eq_refl)), H0 in H]; destruct (ctxof fd orph); cbn [deletes] in H;
          match type of H with match match ?X with _ => _ end with _ => _ end = _ => destruct X as [rs|] eqn:Z; [|discriminate]; exists rs; first [exact Z|reflexivity] end. }
    destruct (fold_total (st_r x) (st_d x) (negb (issome (st_m x))) (Some op) ch HP (fun X => NPo (f_equal (fun o => match o with Some y => y | None => op end) X)) Wc2 Nac Wc1 [] (fst (dropped kd x ch)) Dw Do Each) as (oc & Fo & Er2).
    exact (apply_make fr fd orph pop ep s v own i ch g op veq x oc W NPo Ho Bi Hn Q L Er Fo Er2).
Qed.

Theorem edit_total : forall es ds ds', wf_data kd ds -> wf_edit kd es -> Forall no_anchor es -> edit_spec kd es ds = Some ds' ->
  exists o, edit_apply kd es ds = ROk o /\ o_err o = false.
Proof.
  intros es ds ds' W (We1 & We2) Na H. unfold edit_spec in H. destruct (collect _) as [rs|] eqn:C; [|discriminate].
  apply (fold_total false false false None es); auto; try discriminate.
  - apply Forall_forall. intros e _. apply p15c.
  - intros e He. exact (collect_each _ _ _ es rs C e He).
Qed.
End P.
