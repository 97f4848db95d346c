(** Diffs of edits have the required shape; the order of siblings in the diff tree does not matter; the
    diff of an enabled subscription. *)
From Coq Require Import List Bool Arith Lia Sorted Permutation.
From Verif Require Import Edit EditSpec EditProofs EditOps EditSem EditMain EditDiff ChangeIter ChangeIterSpec ChangeIterProofs ChangeIterPlay.
Import ListNotations.

Section P.
Variable kd : nat -> kind.
Notation it := (is_it kd).
Notation wfx := (wfx kd).
Notation isdel := (fun x => fop x = DDelete).

(** ** Diffs of edits *)
Lemma wfxs_of : forall l, Forall (fun x => wfx x /\ fop x = DDelete) l -> Forall wfx l.
Proof. intros l H. induction H as [|x t (A & _) Ht IH]; constructor; assumption. Qed.
Lemma dels_of : forall l, Forall (fun x => wfx x /\ fop x = DDelete) l -> Forall isdel l.
Proof. intros l H. induction H as [|x t (_ & A) Ht IH]; constructor; assumption. Qed.
Lemma del_wfx : forall d oan, wfd kd d -> wfx (del_diff kd oan d) /\ fop (del_diff kd oan d) = DDelete.
Proof.
  intros d. induction d as [s v b ch IH] using dnode_ind2. intros oan W. apply EditSem.wfd_all in W. destruct W as (W1 & W2 & W3 & _ & W4). cbn [del_diff]. split; [|reflexivity].
  assert (Q : Forall (fun x => wfx x /\ fop x = DDelete) (map (del_diff kd None) ch)).
  { clear - IH W4. induction IH as [|c t Hc Ht IHt]; [constructor|]. inversion W4 as [|? ? Wc Wt]; subst. cbn [map]. constructor; [exact (Hc None Wc)|apply IHt; assumption]. }
  apply wfx_all. split; [exact Logic.I|]. split; [intros _; exact (dels_of _ Q)|]. split; [split; [exact W1|split; [exact W2|intros T; rewrite (W3 T); reflexivity]]|exact (wfxs_of _ Q)].
Qed.
Lemma purge_wfx : forall d oan, wfd kd d -> wfx (purge_diff kd oan d) /\ fop (purge_diff kd oan d) = DDelete.
Proof.
  intros d. induction d as [s v b ch IH] using dnode_ind2. intros oan W. apply EditSem.wfd_all in W. destruct W as (W1 & W2 & W3 & _ & W4). cbn [purge_diff]. split; [|reflexivity].
  match goal with |- wfx (F _ _ _ _ _ _ _ (?f [] ch)) => set (go := f) end.
  assert (Q : forall seen, Forall (fun x => wfx x /\ fop x = DDelete) (go seen ch)).
  { clear - IH W4. induction IH as [|c t Hc Ht IHt]; intros seen; [constructor|]. inversion W4 as [|? ? Wc Wt]; subst. cbn [go]. constructor; [exact (Hc _ Wc)|apply IHt; assumption]. }
  specialize (Q []). apply wfx_all. split; [exact Logic.I|]. split; [intros _; exact (dels_of _ Q)|]. split; [split; [exact W1|split; [exact W2|intros T; rewrite (W3 T); reflexivity]]|exact (wfxs_of _ Q)].
Qed.
Lemma drop_wfx : forall es ds seen, Forall (wfd kd) ds -> Forall (fun x => wfx x /\ fop x = DDelete) (snd (drop kd es seen ds)).
Proof.
  intros es. induction ds as [|d t IH]; intros seen W; [constructor|]. inversion W; subst. cbn [drop]. destruct (in_edit kd es d); [apply IH; assumption|]. cbn [snd]. constructor; [exact (del_wfx d _ ltac:(assumption))|apply IH; assumption].
Qed.

Definition Psh (e : enode) : Prop := forall fr fd orph pop ep g o,
  wfe kd e -> wfg kd (esch e) g -> (orph = true -> g = []) -> pop <> Some Purge ->
  apply_e kd fr fd orph pop ep e g = ROk o -> o_err o = false ->
  Forall wfx (o_diff o) /\ (fd = true -> Forall isdel (o_diff o)).

Lemma fold_sh : forall fr fd orph pop es, Forall Psh es -> pop <> Some Purge -> Forall (wfe kd) es -> forall seen ds o,
  wf_data kd ds -> (orph = true -> ds = []) ->
  fold_edits (fun ep c g => apply_e kd fr fd orph pop ep c g) seen es ds = ROk o -> o_err o = false ->
  Forall wfx (o_diff o) /\ (fd = true -> Forall isdel (o_diff o)).
Proof.
  intros fr fd orph pop es HP NP. induction HP as [|c t Hc Ht IH]; intros We seen ds o Wd O H Er.
  - cbn [fold_edits] in H. injection H as <-. split; [constructor|intros; constructor].
  - cbn [fold_edits] in H. destruct (apply_e kd fr fd orph pop (last_einst (esch c) seen) c (grp (esch c) ds)) as [o1| |] eqn:A; try discriminate.
    destruct (fold_edits _ (seen ++ [c]) t (put (esch c) (o_g o1) ds)) as [o2| |] eqn:B; try discriminate. injection H as <-. cbn [o_g o_err o_diff o_chg] in *. apply orb_false_iff in Er. destruct Er as (Er1 & Er2).
    inversion We as [|? ? Wc Wt]; subst.
    destruct (Hc fr fd orph pop _ _ o1 Wc (wf_grp kd ds (esch c) Wd) (fun X => f_equal (grp (esch c)) (O X)) NP A Er1) as (D1 & D2).
    destruct (p15 kd c fr fd orph pop _ _ o1 Wc (wf_grp kd ds (esch c) Wd) (fun X => f_equal (grp (esch c)) (O X)) NP A Er1) as (G1 & G2 & _).
    destruct (IH Wt _ _ o2 (wf_put kd ds (esch c) (o_g o1) Wd G1) (fun X => eq_trans (f_equal2 (put (esch c)) (G2 X) (O X)) eq_refl) B Er2) as (I1 & I2).
    split; [apply Forall_app; split; assumption|]. intros Q. apply Forall_app. split; [apply D2; exact Q|apply I2; exact Q].
Qed.

Lemma psh : forall e, Psh e.
Proof.
  apply enode_ind2. intros s v b own i ch HP fr fd orph pop ep g o We W O NP H Er. cbn [esch eval] in *.
  destruct (match own with Some o => Some o | None => pop end) as [op|] eqn:Ho; [|cbn [apply_e] in H; rewrite Ho in H; discriminate].
  destruct (purges_dec (E s v b own i ch)) as [P|P].
  - unfold purges in P. cbn [eown] in P. subst own. injection Ho as <-. pose proof We as We'. apply wfe_all in We'. destruct We' as (-> & Hv & _ & Hp & _). specialize (Hp eq_refl). subst ch.
    cbn [apply_e] in H. destruct (bad_ins kd s i); [discriminate|]. destruct (fd && bad_nested Purge); [discriminate|]. cbn [fold_edits] in H. injection H as <-. cbn [o_g o_diff o_chg].
    assert (Q : Forall (fun x => wfx x /\ fop x = DDelete) (map (purge_diff kd None) (if inst (kd s) then g else firstn 1 g))).
    { apply Forall_forall. intros x Hx. apply in_map_iff in Hx. destruct Hx as (d & <- & Hd). refine (purge_wfx d None (proj1 (Forall_forall _ _) (proj2 (proj2 W)) d _)). destruct (inst (kd s)); [exact Hd|]. destruct g; [destruct Hd|]. destruct Hd as [<-|[]]. left. reflexivity. }
    split; [exact (wfxs_of _ Q)|intros _; exact (dels_of _ Q)].
  - assert (NPo : op <> Purge) by (intros ->; destruct own as [o0|]; [injection Ho as ->; apply P; reflexivity|congruence]).
    destruct (apply_inv kd fr fd orph pop ep s v b own i ch g o op We W O NPo Ho H Er) as (x & oc & N).
    pose proof We as We'. apply wfe_all in We'. destruct We' as (-> & Hv & Ht & _ & Wc).
    pose proof (n_act _ _ _ _ _ _ _ _ _ _ _ _ _ _ N) as A. pose proof (act_ok kd s v i orph fr fd g op x W Hv O A) as K.
    destruct (base_wf kd _ _ _ _ _ K) as (B1 & B2).
    assert (Dw : wf_data kd (fst (dropped kd x ch))).
    { unfold dropped. destruct (st_r x || st_d x); [rewrite drop_fst; cbn [app]; apply wf_data_filter; exact B1|exact B1]. }
    assert (Do : negb (issome (st_m x)) = true -> fst (dropped kd x ch) = []).
    { intros X. unfold dropped. destruct (st_m x); [discriminate|]. cbn [base_of]. destruct (st_r x || st_d x); reflexivity. }
    assert (NPs : Some op <> Some Purge) by congruence.
    destruct (fold_sh (st_r x) (st_d x) (negb (issome (st_m x))) (Some op) ch HP NPs (proj2 Wc) [] _ oc Dw Do (n_fold _ _ _ _ _ _ _ _ _ _ _ _ _ _ N) (n_err _ _ _ _ _ _ _ _ _ _ _ _ _ _ N)) as (F1 & F2).
    assert (Dp : Forall (fun x => wfx x /\ fop x = DDelete) (snd (dropped kd x ch))).
    { unfold dropped. destruct (st_r x || st_d x); [|constructor]. apply drop_wfx. apply B1. }
    rewrite (n_diff _ _ _ _ _ _ _ _ _ _ _ _ _ _ N).
    remember (snd (dropped kd x ch) ++ o_diff oc) as ks eqn:Eks.
    assert (Tk : term (kd s) = true -> ks = []).
    { intros T. rewrite Eks. pose proof (n_fold _ _ _ _ _ _ _ _ _ _ _ _ _ _ N) as Hf. rewrite (Ht T) in Hf |- *. cbn [fold_edits] in Hf. injection Hf as <-. cbn [o_diff]. rewrite app_nil_r. unfold dropped. rewrite (B2 T). destruct (st_r x || st_d x); reflexivity. }
    assert (Kx : Forall wfx ks) by (rewrite Eks; apply Forall_app; split; [exact (wfxs_of _ Dp)|exact F1]).
    assert (Kdel : st_d x = true -> Forall isdel ks) by (intros X; rewrite Eks; apply Forall_app; split; [exact (dels_of _ Dp)|apply F2; exact X]).
    pose proof (n_nested _ _ _ _ _ _ _ _ _ _ _ _ _ _ N) as Nn.
    clear Eks F1 F2 Dp Dw Do H Er N HP P K B1 B2.
    remember (find (it s v) g) as m eqn:Em. symmetry in Em.
    assert (Md : forall d, m = Some d -> (match kd s with KCont _ => dval d = 0 | _ => True end) /\ (ddflt d = true -> kd s = KLeaf)).
    { intros d ->. destruct (find_some _ _ Em) as (Hd & _). pose proof (proj1 (Forall_forall _ _) (proj1 W) d Hd) as Sd. pose proof (proj1 (Forall_forall _ _) (proj2 (proj2 W)) d Hd) as Wd. cbn beta in Sd. destruct d as [s' v' b' ch']. cbn [dsch] in Sd. subst s'. apply EditSem.wfd_all in Wd. split; apply Wd. }
    assert (Fd : fd = true -> op = Delete \/ op = Remove) by (intros X; specialize (Nn X); destruct op; try discriminate Nn; try congruence; auto).
    destruct A as [op H|op d H1 H2 H3 H4 H5|op H1 H2 H3|op g1 H1 H2 H3 H4|op d g1 H1 H2 H3 H4 H5|op d H1 H2 H3|op d H1 H2 H3 H4|op d H];
      cbn [st_r st_d st_m st_del st_dn st_g st_chg issome negb orb dch dsch dval ddflt] in *.
    + split; [constructor|intros; constructor].
    + destruct (Md d eq_refl) as (M1 & M2).
      destruct (term (kd s)) eqn:T; [split; [constructor|intros; constructor]|]. cbn [finish]. rewrite T. destruct ks as [|k ks]; cbn [isnil]; [split; [constructor|intros; constructor]|].
      split; [|intros X; destruct (Fd X); congruence]. constructor; [|constructor]. apply wfx_all. rewrite T. split; [discriminate|]. split; [discriminate|]. split; [split; [exact M1|split; [exact M2|discriminate]]|exact Kx].
    + cbn [finish]. split; [|intros X; destruct (Fd X) as [-> | ->]; destruct H1 as [Z|[Z|Z]]; discriminate]. constructor; [|constructor]. apply wfx_all. split; [exact Logic.I|]. split; [discriminate|]. split; [split; [exact Hv|split; [discriminate|exact Tk]]|exact Kx].
    + cbn [finish]. split; [|intros X; destruct (Fd X) as [-> | ->]; destruct H1 as [Z|[Z|Z]]; discriminate]. constructor; [|constructor]. apply wfx_all. split; [exact Logic.I|]. split; [discriminate|]. split; [split; [exact Hv|split; [discriminate|exact Tk]]|exact Kx].
    + destruct (Md d eq_refl) as (M1 & M2). cbn [finish]. split; [|intros X; destruct (Fd X) as [-> | ->]; destruct H1 as [Z|Z]; discriminate].
      rewrite H2. cbn [andb]. match goal with |- context [onat_eqb ?x ?y] => destruct (onat_eqb x y) eqn:Oe end.
      * destruct ks as [|k ks]; cbn [isnil]; [constructor|]. constructor; [|constructor]. apply wfx_all. split; [intros T; specialize (Tk T); discriminate|]. split; [discriminate|]. split; [split; [exact Hv|split; [exact M2|exact Tk]]|exact Kx].
      * constructor; [|constructor]. apply wfx_all. split; [left; split; [exact H2|intros Q; rewrite Q, onat_refl in Oe; discriminate Oe]|]. split; [discriminate|]. split; [split; [exact Hv|split; [exact M2|exact Tk]]|exact Kx].
    + cbn [finish]. assert (U : userord (kd s) = false) by (rewrite H2; reflexivity). rewrite U. cbn [andb]. split; [|intros X; destruct (Fd X) as [-> | ->]; destruct H1 as [Z|[Z|(Z & _)]]; discriminate].
      constructor; [|constructor]. apply wfx_all. split; [right; split; [exact H2|eexists; eexists; split; [reflexivity|exact H3]]|]. split; [discriminate|]. split; [split; [exact Hv|split; [discriminate|exact Tk]]|exact Kx].
    + cbn [finish]. assert (T : term (kd s) = true) by (rewrite H2; reflexivity). rewrite T. cbn [Bool.eqb]. split; [|intros X; destruct (Fd X) as [-> | ->]; destruct H1 as [Z|Z]; discriminate].
      constructor; [|constructor]. apply wfx_all. split; [intros _; exists true; reflexivity|]. split; [discriminate|]. split; [split; [exact Hv|split; [discriminate|exact Tk]]|exact Kx].
    + destruct (Md d eq_refl) as (M1 & M2). cbn [finish]. split; [|intros; constructor; [reflexivity|constructor]]. constructor; [|constructor]. apply wfx_all. split; [exact Logic.I|]. split; [intros _; apply Kdel; reflexivity|]. split; [split; [exact M1|split; [exact M2|exact Tk]]|exact Kx].
Qed.

Theorem edit_wfx : forall es ds o, wf_data kd ds -> wf_edit kd es -> edit_apply kd es ds = ROk o -> o_err o = false -> Forall wfx (o_diff o).
Proof.
  intros es ds o W (We1 & We2) H Er. destruct (fold_sh false false false None es) with (seen := @nil enode) (ds := ds) (o := o) as (A & B); try assumption; try discriminate.
  apply Forall_forall. intros e _. apply psh.
Qed.

(** ** The order of siblings in the diff tree *)
Lemma fsch_eq : forall x, f_sch x = fsch x.
Proof. intros [? ? ? ? ? ? ? ?]. reflexivity. Qed.
Lemma ly_insert_in : forall x l y, In y (ly_insert x l) <-> y = x \/ In y l.
Proof.
  intros x. induction l as [|z t IH]; intros y; cbn [ly_insert]; [cbn; intuition|]. destruct (Nat.leb (f_sch z) (f_sch x)); cbn [In]; [rewrite IH|]; intuition.
Qed.
Lemma ly_siblings_in : forall l y, In y (ly_siblings l) <-> In y l.
Proof.
  intros l y. unfold ly_siblings. assert (Q : forall acc, In y (fold_left (fun acc x => ly_insert x acc) l acc) <-> In y l \/ In y acc).
  { induction l as [|x t IH]; intros acc; cbn [fold_left]; [cbn; intuition|]. rewrite IH, ly_insert_in. cbn [In]. intuition. }
  rewrite Q. cbn. intuition.
Qed.
Lemma ly_siblings_Forall : forall P l, Forall P l -> Forall P (ly_siblings l).
Proof. intros P l H. apply Forall_forall. intros y Hy. apply (proj1 (Forall_forall _ _) H). apply ly_siblings_in. exact Hy. Qed.

Lemma ly_tree_wfx : forall x, wfx x -> wfx (ly_tree x) /\ fop (ly_tree x) = fop x.
Proof.
  intros x. induction x as [op s v b ov an oan ch IH] using diff_ind2. intros W. apply wfx_all in W. destruct W as (W1 & W2 & (W3 & W4 & W5) & W6). cbn [ly_tree fop]. split; [|reflexivity].
  assert (Q : Forall wfx (map ly_tree ch)). { clear - IH W6. induction IH as [|c t Hc Ht IHt]; [constructor|]. inversion W6; subst. constructor; [apply Hc; assumption|apply IHt; assumption]. }
  apply wfx_all. split; [exact W1|]. split; [|split; [split; [exact W3|split; [exact W4|intros T; rewrite (W5 T); reflexivity]]|apply ly_siblings_Forall; exact Q]].
  intros E. apply ly_siblings_Forall. specialize (W2 E). clear - IH W2 W6. induction IH as [|c t Hc Ht IHt]; [constructor|]. inversion W6; subst. inversion W2; subst. cbn [map]. constructor; [rewrite (proj2 (Hc ltac:(assumption))); assumption|apply IHt; assumption].
Qed.
Lemma ly_tree_loud : forall x, loud kd x -> loud kd (ly_tree x).
Proof.
  intros x. induction x as [op s v b ov an oan ch IH] using diff_ind2. intros W. apply loud_all in W. destruct W as (W1 & W2). cbn [ly_tree]. apply loud_all. split; [exact W1|]. apply ly_siblings_Forall. clear - IH W2. induction IH as [|c t Hc Ht IHt]; [constructor|]. inversion W2; subst. constructor; [apply Hc; assumption|apply IHt; assumption].
Qed.
Lemma tree_Forall : forall (P : diff -> Prop), (forall x, P x -> P (ly_tree x)) -> forall xs, Forall P xs -> Forall P (ly_siblings (map ly_tree xs)).
Proof. intros P H xs W. apply ly_siblings_Forall. induction W; [constructor|]. cbn [map]. constructor; [apply H; assumption|assumption]. Qed.

Lemma put_comm : forall s t g h ds, s < t -> all_s s g -> all_s t h -> put t h (put s g ds) = put s g (put t h ds).
Proof.
  intros s t g h ds L Ag Ah. unfold put. rewrite !filter_app.
  assert (G1 : filter (fun d => Nat.ltb (dsch d) t) g = g) by (apply filter_all; intros d Hd; rewrite (proj1 (Forall_forall _ _) Ag d Hd); apply Nat.ltb_lt; exact L).
  assert (G2 : filter (fun d => Nat.ltb t (dsch d)) g = []) by (apply filter_none; intros d Hd; rewrite (proj1 (Forall_forall _ _) Ag d Hd); apply Nat.ltb_ge; lia).
  assert (H1 : filter (fun d => Nat.ltb (dsch d) s) h = []) by (apply filter_none; intros d Hd; rewrite (proj1 (Forall_forall _ _) Ah d Hd); apply Nat.ltb_ge; lia).
  assert (H2 : filter (fun d => Nat.ltb s (dsch d)) h = h) by (apply filter_all; intros d Hd; rewrite (proj1 (Forall_forall _ _) Ah d Hd); apply Nat.ltb_lt; exact L).
  rewrite G1, G2, H1, H2, !filter_filter.
  assert (E : forall (f f' : dnode -> bool) l, (forall d, f d = f' d) -> filter f l = filter f' l) by (intros; apply filter_ext; assumption).
  rewrite (E (fun x => Nat.ltb (dsch x) s && Nat.ltb (dsch x) t) (fun x => Nat.ltb (dsch x) s)) by (intros d; destruct (Nat.ltb_spec (dsch d) s), (Nat.ltb_spec (dsch d) t); try reflexivity; lia).
  rewrite (E (fun x => Nat.ltb (dsch x) s && Nat.ltb t (dsch x)) (fun _ => false)) by (intros d; destruct (Nat.ltb_spec (dsch d) s), (Nat.ltb_spec t (dsch d)); try reflexivity; lia).
  rewrite (E (fun x => Nat.ltb s (dsch x) && Nat.ltb t (dsch x)) (fun x => Nat.ltb t (dsch x))) by (intros d; destruct (Nat.ltb_spec s (dsch d)), (Nat.ltb_spec t (dsch d)); try reflexivity; lia).
  rewrite (E (fun x => Nat.ltb (dsch x) t && Nat.ltb (dsch x) s) (fun x => Nat.ltb (dsch x) s)) by (intros d; destruct (Nat.ltb_spec (dsch d) s), (Nat.ltb_spec (dsch d) t); try reflexivity; lia).
  rewrite (E (fun x => Nat.ltb t (dsch x) && Nat.ltb (dsch x) s) (fun _ => false)) by (intros d; destruct (Nat.ltb_spec (dsch d) s), (Nat.ltb_spec t (dsch d)); try reflexivity; lia).
  rewrite (E (fun x => Nat.ltb t (dsch x) && Nat.ltb s (dsch x)) (fun x => Nat.ltb t (dsch x))) by (intros d; destruct (Nat.ltb_spec s (dsch d)), (Nat.ltb_spec t (dsch d)); try reflexivity; lia).
  rewrite (E (fun x => Nat.ltb s (dsch x) && Nat.ltb (dsch x) t) (fun x => Nat.ltb (dsch x) t && Nat.ltb s (dsch x))) by (intros d; apply andb_comm).
  replace (filter (fun _ : dnode => false) ds) with (@nil dnode) by (symmetry; apply filter_none; reflexivity).
  cbn [app]. rewrite <- !app_assoc. cbn [app]. reflexivity.
Qed.

Section Sort.
Variable f : diff -> list dnode -> option (list dnode).
Hypothesis fall : forall x g g', f x g = Some g' -> all_s (fsch x) g -> all_s (fsch x) g'.

Lemma fold_swap : forall x y t ds, fsch x <> fsch y -> fold_diff f (x :: y :: t) ds = fold_diff f (y :: x :: t) ds.
Proof.
  intros x y t ds N. cbn [fold_diff].
  destruct (f x (grp (fsch x) ds)) as [g|] eqn:Fx, (f y (grp (fsch y) ds)) as [h|] eqn:Fy.
  - pose proof (fall _ _ _ Fx (grp_all _ _)) as Ag. pose proof (fall _ _ _ Fy (grp_all _ _)) as Ah.
    rewrite !grp_put_other by (assumption || congruence). rewrite Fx, Fy. f_equal. destruct (Nat.lt_total (fsch x) (fsch y)) as [L|[L|L]]; [apply put_comm; assumption|congruence|symmetry; apply put_comm; assumption].
  - pose proof (fall _ _ _ Fx (grp_all _ _)) as Ag. rewrite grp_put_other by (assumption || congruence). rewrite Fy. reflexivity.
  - pose proof (fall _ _ _ Fy (grp_all _ _)) as Ah. rewrite grp_put_other by (assumption || congruence). rewrite Fx. reflexivity.
  - reflexivity.
Qed.
Lemma fold_last : forall x l ds, (forall y, In y l -> fsch y <> fsch x) -> fold_diff f (x :: l) ds = fold_diff f (l ++ [x]) ds.
Proof.
  intros x. induction l as [|y t IH]; intros ds H; [reflexivity|]. rewrite fold_swap by (apply not_eq_sym; apply H; left; reflexivity). cbn [app]. cbn [fold_diff] in *. destruct (f y (grp (fsch y) ds)); [|reflexivity]. apply IH. intros z Hz. apply H. right. exact Hz.
Qed.
Definition sorted (l : list diff) : Prop := StronglySorted (fun a b => fsch a <= fsch b) l.
Lemma insert_sorted : forall x l, sorted l -> sorted (ly_insert x l).
Proof.
  intros x l H. unfold sorted. induction H as [|y t H IH Hy]; cbn [ly_insert]; [repeat constructor|]. rewrite (fsch_eq x), (fsch_eq y). destruct (Nat.leb_spec (fsch y) (fsch x)) as [L|L].
  - constructor; [exact IH|]. apply Forall_forall. intros z Hz. apply ly_insert_in in Hz. destruct Hz as [->|Hz]; [exact L|apply (proj1 (Forall_forall _ _) Hy); exact Hz].
  - constructor; [constructor; assumption|]. constructor; [lia|]. apply Forall_forall. intros z Hz. pose proof (proj1 (Forall_forall _ _) Hy z Hz) as Q. cbn beta in Q. lia.
Qed.
Lemma fold_insert : forall x l ds, sorted l -> fold_diff f (ly_insert x l) ds = fold_diff f (l ++ [x]) ds.
Proof.
  intros x l. induction l as [|y t IH]; intros ds H; [reflexivity|]. inversion H as [|? ? Ht Hy]; subst. cbn [ly_insert]. rewrite (fsch_eq x), (fsch_eq y). destruct (Nat.leb_spec (fsch y) (fsch x)) as [L|L].
  - cbn [app fold_diff]. destruct (f y (grp (fsch y) ds)); [apply IH; exact Ht|reflexivity].
  - apply fold_last. intros z [<-|Hz]; [lia|]. pose proof (proj1 (Forall_forall _ _) Hy z Hz) as Q. cbn beta in Q. lia.
Qed.
Lemma fold_siblings : forall l ds, fold_diff f (ly_siblings l) ds = fold_diff f l ds.
Proof.
  intros l ds. unfold ly_siblings. assert (Q : forall acc, sorted acc -> fold_diff f (fold_left (fun acc x => ly_insert x acc) l acc) ds = fold_diff f (acc ++ l) ds).
  { induction l as [|x t IH]; intros acc H; cbn [fold_left]; [rewrite app_nil_r; reflexivity|]. rewrite IH by (apply insert_sorted; exact H). rewrite fold_diff_app, fold_insert by exact H. rewrite !fold_diff_app. cbn [fold_diff]. destruct (fold_diff f acc ds) as [d|]; [|reflexivity]. destruct (f x (grp (fsch x) d)); reflexivity. }
  rewrite Q by constructor. reflexivity.
Qed.
End Sort.

Lemma fold_ext : forall (f f' : diff -> list dnode -> option (list dnode)) (h : diff -> diff) xs, (forall x, In x xs -> (forall g, f (h x) g = f' x g) /\ fsch (h x) = fsch x) -> forall ds, fold_diff f (map h xs) ds = fold_diff f' xs ds.
Proof.
  intros f f' h. induction xs as [|x t IH]; intros H ds; [reflexivity|]. cbn [map fold_diff]. destruct (H x (or_introl eq_refl)) as (A & B). rewrite B, A. destruct (f' x (grp (fsch x) ds)); [|reflexivity]. apply IH. intros y Hy. apply H. right. exact Hy.
Qed.

Lemma ly_fsch : forall x, fsch (ly_tree x) = fsch x.
Proof. intros [? ? ? ? ? ? ? ?]. reflexivity. Qed.
Lemma dapply_tree : forall x nest g, dapply kd nest (ly_tree x) g = dapply kd nest x g.
Proof.
  intros x. induction x as [op s v b ov an oan ch IH] using diff_ind2. intros nest g. cbn [ly_tree EditSpec.dapply].
  assert (Q : forall n ds, fold_diff (dapply kd n) (ly_siblings (map ly_tree ch)) ds = fold_diff (dapply kd n) ch ds).
  { intros n ds. rewrite fold_siblings by (intros x0 g0 g1 Q1 Q2; exact (dapply_all kd n x0 g0 g1 Q1 Q2)). apply fold_ext. intros x Hx. split; [apply (proj1 (Forall_forall _ _) IH x Hx)|apply ly_fsch]. }
  rewrite !Q. destruct (find (it s v) g) as [d|]; rewrite ?Q; reflexivity.
Qed.
Lemma diff_apply_tree : forall xs ds, diff_apply kd (ly_siblings (map ly_tree xs)) ds = diff_apply kd xs ds.
Proof.
  intros xs ds. unfold diff_apply. rewrite fold_siblings by (intros x0 g0 g1 Q1 Q2; exact (dapply_all kd false x0 g0 g1 Q1 Q2)). apply fold_ext. intros x Hx. split; [apply dapply_tree|apply ly_fsch].
Qed.
End P.
