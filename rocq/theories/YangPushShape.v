(** Diffs of edits have every instance once, and what is below a created node is created. *)
From Coq Require Import List Bool Arith NArith Lia Sorted Permutation.
From Verif Require Import Edit EditSpec EditProofs EditOps EditSem EditMain EditDiff ChangeIter ChangeIterSpec ChangeIterProofs ChangeIterPlay ChangeIterShape ChangeIterEn YangPush YangPushSpec YangPushProofs.
Import ListNotations.

Section P.
Variable kd : nat -> kind.
Notation it := (is_it kd).
Notation key := (EditSpec.key kd).
Notation ident := (EditSpec.ident kd).
Notation eident := (EditSpec.eident kd).
Notation fid := (fid kd).
Notation inorder := (inorder kd).
Notation appends := (appends kd).
Notation isnew := (fun x => fop x = DCreate).
Notation isdel := (fun x => fop x = DDelete).

Fixpoint tidy0 (x : diff) : Prop :=
  match x with
  | F op s v b ov an oan ch =>
      NoDup (map fid ch) /\ (op = DCreate -> Forall isnew ch) /\ (fix all l := match l with [] => True | c :: t => tidy0 c /\ all t end) ch
  end.
Lemma tidy0_all : forall op s v b ov an oan ch, tidy0 (F op s v b ov an oan ch) <-> NoDup (map fid ch) /\ (op = DCreate -> Forall isnew ch) /\ Forall tidy0 ch.
Proof.
  intros. cbn [tidy0]. assert (Q : (fix all l := match l with [] => True | c :: t => tidy0 c /\ all t end) ch <-> Forall tidy0 ch).
  { induction ch as [|c t IH]; [split; [constructor|exact (fun _ => Logic.I)]|]. rewrite Forall_cons_iff, <- IH. reflexivity. }
  rewrite Q. reflexivity.
Qed.
Lemma inorder_all : forall op s v b ov an oan ch, inorder (F op s v b ov an oan ch) <-> (op = DCreate -> forall t, userord (kd t) = true -> chained None (of_s t ch)) /\ Forall inorder ch.
Proof.
  intros. cbn [YangPushSpec.inorder]. assert (Q : (fix all l := match l with [] => True | c :: t => inorder c /\ all t end) ch <-> Forall inorder ch).
  { induction ch as [|c t IH]; [split; [constructor|exact (fun _ => Logic.I)]|]. rewrite Forall_cons_iff, <- IH. reflexivity. }
  rewrite Q. reflexivity.
Qed.
Lemma appends_all : forall s v b own i ch, appends (E s v b own i ch) <-> (userord (kd s) = true -> i = IDefault \/ i = ILast) /\ Forall appends ch.
Proof.
  intros. cbn [YangPushSpec.appends]. assert (Q : (fix all l := match l with [] => True | c :: t => appends c /\ all t end) ch <-> Forall appends ch).
  { induction ch as [|c t IH]; [split; [constructor|exact (fun _ => Logic.I)]|]. rewrite Forall_cons_iff, <- IH. reflexivity. }
  rewrite Q. reflexivity.
Qed.
Lemma tidy_of : forall x, tidy0 x -> inorder x -> tidy kd x.
Proof.
  intros x. induction x as [op s v b ov an oan ch IH] using diff_ind2. intros A B. apply tidy0_all in A. destruct A as (A1 & A2 & A3). apply inorder_all in B. destruct B as (B1 & B2). apply tidy_all. split; [exact A1|]. split; [intros E; split; [apply A2; exact E|apply B1; exact E]|].
  clear - IH A3 B2. induction IH as [|c t Hc Ht IHt]; [constructor|]. inversion A3; subst. inversion B2; subst. constructor; [apply Hc; assumption|apply IHt; assumption].
Qed.

(** ** Deleted subtrees *)
Definition okdel (x : diff) : Prop := tidy0 x /\ inorder x /\ fop x = DDelete.
Lemma fid_del : forall d o, fid (del_diff kd o d) = ident d.
Proof. intros [s v b ch] o. reflexivity. Qed.
Lemma fid_purge : forall d o, fid (purge_diff kd o d) = ident d.
Proof. intros [s v b ch] o. reflexivity. Qed.
Lemma okdel_node : forall s v b ov an oan l, Forall okdel l -> NoDup (map fid l) -> okdel (F DDelete s v b ov an oan l).
Proof.
  intros s v b ov an oan l H N. split; [|split; [|reflexivity]].
  - apply tidy0_all. split; [exact N|]. split; [discriminate|]. apply Forall_forall. intros x Hx. apply (proj1 (Forall_forall _ _) H x Hx).
  - apply inorder_all. split; [discriminate|]. apply Forall_forall. intros x Hx. apply (proj1 (Forall_forall _ _) H x Hx).
Qed.
Lemma del_ok : forall d o, wfd kd d -> okdel (del_diff kd o d).
Proof.
  intros d. induction d as [s v b ch IH] using dnode_ind2. intros o W. apply EditSem.wfd_all in W. destruct W as (_ & _ & _ & (_ & Wn) & W4). cbn [del_diff]. apply okdel_node.
  - clear - IH W4. induction IH as [|c t Hc Ht IHt]; [constructor|]. inversion W4; subst. cbn [map]. constructor; [apply Hc; assumption|apply IHt; assumption].
  - rewrite map_map, (map_ext _ ident) by (intros; apply fid_del). exact Wn.
Qed.
Lemma purge_ok : forall d o, wfd kd d -> okdel (purge_diff kd o d).
Proof.
  intros d. induction d as [s v b ch IH] using dnode_ind2. intros o W. apply EditSem.wfd_all in W. destruct W as (_ & _ & _ & (_ & Wn) & W4). cbn [purge_diff].
  match goal with |- okdel (F _ _ _ _ _ _ _ (?f [] ch)) => set (go := f) end.
  apply okdel_node.
  - assert (Q : forall seen, Forall okdel (go seen ch)); [|apply Q]. clear - IH W4. induction IH as [|c t Hc Ht IHt]; intros seen; [constructor|]. inversion W4; subst. cbn [go]. constructor; [apply Hc; assumption|apply IHt; assumption].
  - assert (Q : forall l seen, map fid (go seen l) = map ident l). { induction l as [|c t IHt]; intros seen; [reflexivity|]. cbn [go map]. rewrite fid_purge, IHt. reflexivity. }
    rewrite Q. exact Wn.
Qed.
Lemma drop_ok : forall es ds seen, Forall (wfd kd) ds -> Forall okdel (snd (drop kd es seen ds)) /\ map fid (snd (drop kd es seen ds)) = map ident (filter (fun d => negb (in_edit kd es d)) ds).
Proof.
  intros es. induction ds as [|d t IH]; intros seen W; [split; [constructor|reflexivity]|]. inversion W as [|? ? Wd Wt]; subst. cbn [drop filter]. destruct (in_edit kd es d); cbn [negb]; [apply IH; assumption|]. cbn [snd map]. destruct (IH seen Wt) as (A & B). rewrite fid_del, B. split; [constructor; [apply del_ok; exact Wd|exact A]|reflexivity].
Qed.

Lemma nodup_map_filter : forall (A B : Type) (f : A -> B) (p : A -> bool) l, NoDup (map f l) -> NoDup (map f (filter p l)).
Proof.
  intros A B f p l. induction l as [|x t IH]; intros N; [constructor|]. cbn [map] in N. inversion N as [|? ? Nx Nt]; subst. cbn [filter]. destruct (p x); [|apply IH; exact Nt]. cbn [map]. constructor; [|apply IH; exact Nt].
  intros X. apply Nx. apply in_map_iff in X. destruct X as (y & E & Hy). apply filter_In in Hy. rewrite <- E. apply in_map. apply Hy.
Qed.
(** ** Edits *)
Definition fresh (e : enode) (g : list dnode) : Prop := (purges e -> g = []) /\ find (it (esch e) (eval e)) g = None.
Definition chain_ok (prev : option nat) (l : list diff) (g : list dnode) : Prop :=
  chained prev l /\ lastv g None = match rev l with x :: _ => Some (fval x) | [] => prev end.
Definition Pt (e : enode) : Prop := forall fr fd orph pop ep g o,
  wfe kd e -> wfg kd (esch e) g -> (orph = true -> g = []) -> pop <> Some Purge ->
  apply_e kd fr fd orph pop ep e g = ROk o -> o_err o = false ->
  Forall tidy0 (o_diff o) /\ NoDup (map fid (o_diff o)) /\
  (~ purges e -> forall x, In x (o_diff o) -> fid x = eident e) /\
  (purges e -> forall x, In x (o_diff o) -> In (fid x) (map ident g)) /\
  (fresh e g -> Forall isnew (o_diff o)) /\
  (appends e -> Forall inorder (o_diff o) /\ (fresh e g -> userord (kd (esch e)) = true -> chain_ok (lastv g None) (o_diff o) (o_g o))).

Lemma fst_fid : forall x, fst (fid x) = fsch x.
Proof. intros [? ? ? ? ? ? ? ?]. reflexivity. Qed.
Lemma fst_ident : forall s g i, all_s s g -> In i (map ident g) -> fst i = s.
Proof. intros s g i A H. apply in_map_iff in H. destruct H as (d & <- & Hd). exact (proj1 (Forall_forall _ _) A d Hd). Qed.
Lemma of_s_all : forall s l, (forall x, In x l -> fsch x = s) -> of_s s l = l /\ forall t, t <> s -> of_s t l = [].
Proof.
  intros s l H. split.
  - unfold of_s. apply filter_all. intros x Hx. apply Nat.eqb_eq. apply H. exact Hx.
  - intros t N. unfold of_s. induction l as [|x u IH]; [reflexivity|]. cbn [filter]. rewrite (H x (or_introl eq_refl)). destruct (Nat.eqb_spec s t); [congruence|]. apply IH. intros y Hy. apply H. right. exact Hy.
Qed.
Lemma chained_app : forall a b prev, chained prev (a ++ b) <-> chained prev a /\ chained (match rev a with x :: _ => Some (fval x) | [] => prev end) b.
Proof.
  induction a as [|x t IH]; intros b prev; cbn [app chained]; [cbn; tauto|]. rewrite IH. cbn [rev]. destruct (rev t) as [|y r]; cbn [app]; tauto.
Qed.
Lemma nodup_app2 : forall (A : Type) (a b : list A), NoDup a -> NoDup b -> (forall x, In x a -> ~ In x b) -> NoDup (a ++ b).
Proof. intros A a b Na Nb D. induction Na as [|x t Nx Nt IH]; [exact Nb|]. cbn [app]. constructor; [|apply IH; intros y Hy; apply D; right; exact Hy]. intros X. apply in_app_or in X. destruct X as [X|X]; [contradiction|]. exact (D x (or_introl eq_refl) X). Qed.

Lemma fold_t : forall fr fd orph pop es, Forall Pt es -> pop <> Some Purge -> Forall (wfe kd) es -> wf_esibs kd es -> forall seen ds o,
  wf_data kd ds -> (orph = true -> ds = []) ->
  fold_edits (fun ep c g => apply_e kd fr fd orph pop ep c g) seen es ds = ROk o -> o_err o = false ->
  Forall tidy0 (o_diff o) /\ NoDup (map fid (o_diff o)) /\
  (forall x, In x (o_diff o) -> exists e, In e es /\ ((~ purges e /\ fid x = eident e) \/ (purges e /\ In (fid x) (map ident (grp (esch e) ds))))) /\
  ((forall e, In e es -> fresh e (grp (esch e) ds)) -> Forall isnew (o_diff o)) /\
  (Forall appends es -> Forall inorder (o_diff o) /\ ((forall e, In e es -> fresh e (grp (esch e) ds)) -> forall t, userord (kd t) = true -> chain_ok (lastv (grp t ds) None) (of_s t (o_diff o)) (grp t (o_g o)))).
Proof.
  intros fr fd orph pop es HP NP. induction HP as [|c t Hc Ht IH]; intros We Ws seen ds o Wd O H Er.
  - cbn [fold_edits] in H. injection H as <-. cbn [o_diff o_g]. split; [constructor|]. split; [constructor|]. split; [intros x []|]. split; [constructor|]. intros _. split; [constructor|]. intros _ t _. split; [exact Logic.I|reflexivity].
  - cbn [fold_edits] in H. destruct (apply_e kd fr fd orph pop (last_einst (esch c) seen) c (grp (esch c) ds)) as [o1| |] eqn:A; try discriminate.
    destruct (fold_edits _ (seen ++ [c]) t (put (esch c) (o_g o1) ds)) as [o2| |] eqn:B; try discriminate. injection H as <-. cbn [o_g o_err o_diff o_chg] in *. apply orb_false_iff in Er. destruct Er as (Er1 & Er2).
    inversion We as [|? ? Wc Wt]; subst. destruct Ws as (Ws1 & Ws2). cbn [map] in Ws1. inversion Ws1 as [|? ? Nc Nt]; subst.
    assert (Wst : wf_esibs kd t) by (split; [exact Nt|intros a b Ha Hb; apply Ws2; right; assumption]).
    destruct (Hc fr fd orph pop _ _ o1 Wc (wf_grp kd ds (esch c) Wd) (fun X => f_equal (grp (esch c)) (O X)) NP A Er1) as (D1 & D2 & D3 & D4 & D5 & D6).
    destruct (p15 kd c fr fd orph pop _ _ o1 Wc (wf_grp kd ds (esch c) Wd) (fun X => f_equal (grp (esch c)) (O X)) NP A Er1) as (G1 & G2 & r & _ & _ & G3 & G4).
    pose proof (proj1 G1) as Ga. pose proof (grp_all (esch c) ds) as Gd.
    assert (Wd1 : wf_data kd (put (esch c) (o_g o1) ds)) by (apply wf_put; assumption).
    destruct (IH Wt Wst _ _ o2 Wd1 (fun X => eq_trans (f_equal2 (put (esch c)) (G2 X) (O X)) eq_refl) B Er2) as (I1 & I2 & I3 & I4 & I5).
    (* other edits of the schema node *)
    assert (Oth : forall e, In e t -> esch e = esch c -> ~ purges e /\ ~ purges c /\ eident e <> eident c).
    { intros e He Es. assert (Ne : e <> c) by (intros ->; apply Nc; apply in_map; exact He). split; [|split].
      - intros P. apply Ne. symmetry. apply (Ws2 e c); [right; exact He|left; reflexivity|exact P|congruence].
      - intros P. apply Ne. apply (Ws2 c e); [left; reflexivity|right; exact He|exact P|exact Es].
      - intros Q. apply Nc. rewrite <- Q. apply in_map. exact He. }
    assert (F1 : forall x, In x (o_diff o1) -> fsch x = esch c).
    { intros x Hx. rewrite <- fst_fid. destruct (purges_dec c) as [P|P]; [exact (fst_ident _ _ _ Gd (D4 P x Hx))|rewrite (D3 P x Hx); reflexivity]. }
    assert (F2 : forall x, In x (o_diff o2) -> exists e, In e t /\ fsch x = esch e /\ (~ purges e -> fid x = eident e)).
    { intros x Hx. destruct (I3 x Hx) as (e & He & [(P & Q)|(P & Q)]); exists e; (split; [exact He|]); rewrite <- fst_fid.
      - rewrite Q. split; [reflexivity|intros _; reflexivity].
      - split; [exact (fst_ident _ _ _ (grp_all (esch e) _) Q)|intros Z; contradiction]. }
    assert (Gp : forall s, s <> esch c -> grp s (put (esch c) (o_g o1) ds) = grp s ds) by (intros s N; apply grp_put_other; assumption).
    assert (Fr : (forall e, In e (c :: t) -> fresh e (grp (esch e) ds)) -> forall e, In e t -> fresh e (grp (esch e) (put (esch c) (o_g o1) ds))).
    { intros Hf e He. pose proof (Hf e (or_intror He)) as (U1 & U2). destruct (Nat.eq_dec (esch e) (esch c)) as [Es|Es]; [|rewrite (Gp _ Es); split; assumption].
      destruct (Oth e He Es) as (Q1 & Q2 & Q3). split; [intros P; contradiction|]. rewrite Es, grp_put_same by exact Ga. destruct (G4 Q2) as (_ & G5). rewrite G5; [rewrite Es in U2; exact U2|]. intros Q. apply Q3. unfold EditSpec.eident. rewrite Es, Q. reflexivity. }
    split; [apply Forall_app; split; assumption|]. split; [|split; [|split]].
    + rewrite map_app. apply nodup_app2; [exact D2|exact I2|]. intros i Hi Hi2. apply in_map_iff in Hi. destruct Hi as (x & <- & Hx). apply in_map_iff in Hi2. destruct Hi2 as (y & Ey & Hy). destruct (F2 y Hy) as (e & He & Sy & Iy).
      assert (Es : esch e = esch c) by (rewrite <- Sy, <- (F1 x Hx), <- !fst_fid, Ey; reflexivity). destruct (Oth e He Es) as (Q1 & Q2 & Q3). apply Q3. rewrite <- (Iy Q1), Ey. apply D3; assumption.
    + intros x Hx. apply in_app_or in Hx. destruct Hx as [Hx|Hx].
      * exists c. split; [left; reflexivity|]. destruct (purges_dec c) as [P|P]; [right; split; [exact P|apply D4; assumption]|left; split; [exact P|apply D3; assumption]].
      * destruct (I3 x Hx) as (e & He & [Q|(P & Q)]); exists e; (split; [right; exact He|]); [left; exact Q|right; split; [exact P|]].
        destruct (Nat.eq_dec (esch e) (esch c)) as [Es|Es]; [destruct (Oth e He Es) as (Q1 & _); contradiction|]. rewrite (Gp _ Es) in Q. exact Q.
    + intros Hf. apply Forall_app. split; [apply D5; apply Hf; left; reflexivity|apply I4; apply Fr; exact Hf].
    + intros Ap. inversion Ap as [|? ? Ac At]; subst. destruct (D6 Ac) as (J1 & J2). destruct (I5 At) as (K1 & K2). split; [apply Forall_app; split; assumption|]. intros Hf s U.
      specialize (K2 (Fr Hf) s U). destruct K2 as (K2 & K3). unfold of_s in *. rewrite filter_app. fold (of_s s (o_diff o1)) in *. fold (of_s s (o_diff o2)) in *. destruct (of_s_all (esch c) (o_diff o1) F1) as (O1 & O2).
      destruct (Nat.eq_dec s (esch c)) as [-> |Ns].
      * destruct (J2 (Hf c (or_introl eq_refl)) U) as (J3 & J4). rewrite O1. rewrite grp_put_same in K2, K3 by exact Ga. rewrite J4 in K2, K3. split; [apply chained_app; split; assumption|]. rewrite K3, rev_app_distr. destruct (rev (of_s (esch c) (o_diff o2))) as [|y r0]; reflexivity.
      * rewrite (O2 s Ns). cbn [app]. rewrite (Gp s Ns) in K2, K3. split; assumption.
Qed.

Lemma in_edit_id : forall es e d, In e es -> ident d = eident e -> in_edit kd es d = true.
Proof.
  intros es e d He Q. unfold in_edit. apply existsb_exists. exists e. split; [exact He|]. unfold EditSpec.ident, EditSpec.eident, EditSpec.key in Q. injection Q as Q1 Q2. rewrite Q1, Nat.eqb_refl in *. destruct (inst (kd (esch e))); [rewrite Q2; apply Nat.eqb_refl|reflexivity].
Qed.
Lemma finish_one : forall op s v b ov an oan l ks, tidy0 (F op s v b ov an oan ks) -> (inorder (F op s v b ov an oan ks) -> True) ->
  finish kd (F op s v b ov an oan l) ks = [] \/ exists op' an' oan', finish kd (F op s v b ov an oan l) ks = [F op' s v b ov an' oan' ks] /\ (op' = op \/ op' = DNone).
Proof.
  intros. cbn [finish]. destruct op.
  - destruct (term (kd s)).
    + destruct ov as [[v0 b0]|]; [|left; reflexivity]. destruct (Bool.eqb b0 b); [left; reflexivity|right; do 3 eexists; split; [reflexivity|left; reflexivity]].
    + destruct (isnil ks); [left; reflexivity|right; do 3 eexists; split; [reflexivity|left; reflexivity]].
  - right; do 3 eexists; split; [reflexivity|left; reflexivity].
  - right; do 3 eexists; split; [reflexivity|left; reflexivity].
  - destruct (userord (kd s) && onat_eqb an oan); [|right; do 3 eexists; split; [reflexivity|left; reflexivity]]. destruct (isnil ks); [left; reflexivity|right; do 3 eexists; split; [reflexivity|right; reflexivity]].
Qed.
Lemma pt : forall e, Pt e.
Proof.
  apply enode_ind2. intros s v b own i ch HP fr fd orph pop ep g o We W O NP H Er. cbn [esch eval] in *.
  destruct (match own with Some o => Some o | None => pop end) as [op|] eqn:Ho; [|cbn [apply_e] in H; rewrite Ho in H; discriminate].
  destruct (purges_dec (E s v b own i ch)) as [P|P].
  - assert (P' := P). unfold purges in P. cbn [eown] in P. subst own. injection Ho as <-. pose proof We as We'. apply EditSem.wfe_all in We'. destruct We' as (-> & Hv & _ & Hp & _). specialize (Hp eq_refl). subst ch.
    cbn [apply_e] in H. destruct (bad_ins kd s i); [discriminate|]. destruct (fd && bad_nested Purge); [discriminate|]. cbn [fold_edits] in H. injection H as <-. cbn [o_g o_diff o_chg].
    set (gone := if inst (kd s) then g else match g with [] => [] | a :: _ => [a] end). destruct W as (W1 & W2 & W3).
    assert (Sub : forall d, In d gone -> In d g) by (intros d; unfold gone; destruct (inst (kd s)); [auto|]; destruct g; [intros []|intros [<-|[]]; left; reflexivity]).
    assert (Q : Forall okdel (map (purge_diff kd None) gone)) by (apply Forall_forall; intros x Hx; apply in_map_iff in Hx; destruct Hx as (d & <- & Hd); apply purge_ok; exact (proj1 (Forall_forall _ _) W3 d (Sub d Hd))).
    assert (Im : map fid (map (purge_diff kd None) gone) = map ident gone) by (rewrite map_map; apply map_ext; intros; apply fid_purge).
    assert (Nd : NoDup (map ident g)) by (rewrite (map_ident kd s) by exact W1; apply nodup_pair; exact W2).
    assert (Gn : g = [] -> gone = []) by (intros ->; unfold gone; destruct (inst (kd s)); reflexivity).
    split; [apply Forall_forall; intros x Hx; apply (proj1 (Forall_forall _ _) Q x Hx)|]. split; [rewrite Im; unfold gone; destruct (inst (kd s)); [exact Nd|]; destruct g; [constructor|]; cbn; constructor; [intros []|constructor]|].
    split; [intros X; contradiction|]. split; [|split].
    + intros _ x Hx. apply in_map_iff in Hx. destruct Hx as (d & <- & Hd). rewrite fid_purge. apply in_map. apply Sub. exact Hd.
    + intros (Fr & _). rewrite (Gn (Fr P')). constructor.
    + intros _. split; [apply Forall_forall; intros x Hx; apply (proj1 (Forall_forall _ _) Q x Hx)|]. intros (Fr & _) _. rewrite (Gn (Fr P')). rewrite (Fr P'). cbn [map chain_ok rev]. split; [exact Logic.I|]. destruct (inst (kd s)); reflexivity.
  - assert (NPo : op <> Purge) by (intros ->; destruct own as [o0|]; [injection Ho as ->; apply P; reflexivity|congruence]).
    destruct (apply_inv kd fr fd orph pop ep s v b own i ch g o op We W O NPo Ho H Er) as (x & oc & N).
    pose proof We as We'. apply EditSem.wfe_all in We'. destruct We' as (-> & Hv & Ht & _ & Wc).
    pose proof (n_act _ _ _ _ _ _ _ _ _ _ _ _ _ _ N) as A. pose proof (act_ok kd s v i orph fr fd g op x W Hv O A) as K.
    destruct (base_wf kd _ _ _ _ _ K) as (B1 & B2).
    assert (Dw : wf_data kd (fst (dropped kd x ch))).
    { unfold dropped. destruct (st_r x || st_d x); [rewrite drop_fst; cbn [app]; apply wf_data_filter; exact B1|exact B1]. }
    assert (Do : negb (issome (st_m x)) = true -> fst (dropped kd x ch) = []).
    { intros X. unfold dropped. destruct (st_m x); [discriminate|]. cbn [base_of]. destruct (st_r x || st_d x); reflexivity. }
    assert (NPs : Some op <> Some Purge) by congruence.
    destruct (fold_t (st_r x) (st_d x) (negb (issome (st_m x))) (Some op) ch HP NPs (proj2 Wc) (proj1 Wc) [] _ oc Dw Do (n_fold _ _ _ _ _ _ _ _ _ _ _ _ _ _ N) (n_err _ _ _ _ _ _ _ _ _ _ _ _ _ _ N)) as (F1 & F2 & F3 & F4 & F5).
    assert (Dp : Forall okdel (snd (dropped kd x ch)) /\ NoDup (map fid (snd (dropped kd x ch))) /\ (forall j, In j (map fid (snd (dropped kd x ch))) -> exists d, In d (base_of (st_m x)) /\ ident d = j /\ in_edit kd ch d = false /\ fst (dropped kd x ch) = filter (in_edit kd ch) (base_of (st_m x)))).
    { unfold dropped. destruct (st_r x || st_d x); [|split; [constructor|split; [constructor|intros j []]]]. destruct (drop_ok ch (base_of (st_m x)) [] (proj2 B1)) as (Z1 & Z2). split; [exact Z1|]. rewrite Z2. split.
      - apply nodup_map_filter. apply B1.
      - intros j Hj. apply in_map_iff in Hj. destruct Hj as (d & <- & Hd). apply filter_In in Hd. destruct Hd as (Hd & Nd). exists d. split; [exact Hd|]. split; [reflexivity|]. split; [destruct (in_edit kd ch d); [discriminate|reflexivity]|]. rewrite drop_fst. reflexivity. }
    destruct Dp as (P1 & P2 & P3).
    rewrite (n_diff _ _ _ _ _ _ _ _ _ _ _ _ _ _ N).
    set (ks := snd (dropped kd x ch) ++ o_diff oc).
    assert (Kt : Forall tidy0 ks) by (apply Forall_app; split; [apply Forall_forall; intros y Hy; apply (proj1 (Forall_forall _ _) P1 y Hy)|exact F1]).
    assert (Kn : NoDup (map fid ks)).
    { unfold ks. rewrite map_app. apply nodup_app2; [exact P2|exact F2|]. intros j Hj Hj2. destruct (P3 j Hj) as (d & Hd & <- & Ne & Ef). apply in_map_iff in Hj2. destruct Hj2 as (y & Ey & Hy). destruct (F3 y Hy) as (e & He & [(Q1 & Q2)|(Q1 & Q2)]).
      - rewrite (in_edit_id ch e d He) in Ne by congruence. discriminate.
      - rewrite Ey in Q2. apply in_map_iff in Q2. destruct Q2 as (d2 & Ed & Hd2). unfold grp in Hd2. apply filter_In in Hd2. destruct Hd2 as (Hd2 & _). rewrite Ef in Hd2. apply filter_In in Hd2. destruct Hd2 as (Hd2 & Ne2).
        assert (d2 = d). { pose proof (proj2 (proj1 B1)) as Nb. clear - Nb Hd Hd2 Ed. revert Nb Hd Hd2. generalize (base_of (st_m x)). intros l. induction l as [|z u IHu]; intros Nb Hd Hd2; [destruct Hd|]. cbn [map] in Nb. inversion Nb as [|? ? Nz Nu]; subst. destruct Hd as [<-|Hd], Hd2 as [<-|Hd2]; [reflexivity| | |apply IHu; assumption].
          - exfalso. apply Nz. rewrite <- Ed. apply in_map. exact Hd2.
          - exfalso. apply Nz. rewrite Ed. apply in_map. exact Hd. }
        congruence. }
    assert (Ki : Forall appends ch -> Forall inorder ks) by (intros Ap; apply Forall_app; split; [apply Forall_forall; intros y Hy; apply (proj1 (Forall_forall _ _) P1 y Hy)|apply F5; exact Ap]).
    (* created nodes *)
    assert (New : base_of (st_m x) = [] -> ks = o_diff oc /\ Forall isnew ks /\ (Forall appends ch -> forall t, userord (kd t) = true -> chained None (of_s t ks))).
    { intros Eb. assert (Ed : dropped kd x ch = ([], [])) by (unfold dropped; rewrite Eb; destruct (st_r x || st_d x); reflexivity). unfold ks. rewrite Ed. cbn [snd app]. split; [reflexivity|].
      assert (Fe : forall e, In e ch -> fresh e (grp (esch e) (fst (dropped kd x ch)))) by (intros e _; rewrite Ed; split; reflexivity).
      split; [apply F4; exact Fe|]. intros Ap t U. destruct (F5 Ap) as (_ & Z). destruct (Z Fe t U) as (Z1 & _). rewrite Ed in Z1. exact Z1. }
    pose proof (n_g _ _ _ _ _ _ _ _ _ _ _ _ _ _ N) as Og.
    clear HP F1 F2 F3 F4 F5 P1 P2 P3 N Dw Do H Er K B1 B2. clearbody ks.
    remember (find (it s v) g) as m eqn:Em. symmetry in Em.
    assert (Md : forall d, m = Some d -> key s (dval d) = key s v). { intros d ->. apply (key_of_it kd). apply find_some in Em. apply Em. }
    (* a diff node that is not of a created node *)
    assert (Old : forall op0 v0 b0 ov an oan l, key s v0 = key s v -> op0 <> DCreate -> m <> None ->
      let l0 := finish kd (F op0 s v0 b0 ov an oan l) ks in
      Forall tidy0 l0 /\ NoDup (map fid l0) /\ (~ purges (E s v false own i ch) -> forall y, In y l0 -> fid y = eident (E s v false own i ch)) /\ (purges (E s v false own i ch) -> forall y, In y l0 -> In (fid y) (map ident g)) /\
      (fresh (E s v false own i ch) g -> Forall isnew l0) /\
      (appends (E s v false own i ch) -> Forall inorder l0 /\ (fresh (E s v false own i ch) g -> userord (kd s) = true -> chain_ok (lastv g None) l0 (o_g o)))).
    { intros op0 v0 b0 ov an oan l Kv Nc Nm l0.
      assert (Nf : fresh (E s v false own i ch) g -> False) by (intros (_ & Q); cbn [esch eval] in Q; congruence).
      assert (T0 : forall op', op' <> DCreate -> forall an' oan', tidy0 (F op' s v0 b0 ov an' oan' ks)) by (intros op' No an' oan'; apply tidy0_all; split; [exact Kn|split; [intros Q; congruence|exact Kt]]).
      destruct (finish_one op0 s v0 b0 ov an oan l ks (T0 op0 Nc an oan) (fun _ => Logic.I)) as [Q|(op' & an' & oan' & Q & Qo)]; unfold l0; rewrite Q.
      - split; [constructor|]. split; [constructor|]. split; [intros _ y []|]. split; [intros _ y []|]. split; [constructor|]. intros _. split; [constructor|]. intros Z. destruct (Nf Z).
      - assert (No : op' <> DCreate) by (destruct Qo as [-> | ->]; [exact Nc|discriminate]).
        split; [constructor; [apply T0; exact No|constructor]|]. split; [cbn; constructor; [intros []|constructor]|]. split; [intros _ y [<-|[]]; cbn [YangPushProofs.fid]; rewrite Kv; reflexivity|]. split; [intros Z; contradiction|]. split; [intros Z; destruct (Nf Z)|].
        intros Ap. apply appends_all in Ap. split; [|intros Z; destruct (Nf Z)]. constructor; [|constructor]. apply inorder_all. split; [intros Z; congruence|apply Ki; apply Ap]. }
    assert (Nil : m <> None \/ o_g o = g -> Forall tidy0 (@nil diff) /\ NoDup (map fid (@nil diff)) /\ (~ purges (E s v false own i ch) -> forall y, In y (@nil diff) -> fid y = eident (E s v false own i ch)) /\ (purges (E s v false own i ch) -> forall y, In y (@nil diff) -> In (fid y) (map ident g)) /\
      (fresh (E s v false own i ch) g -> Forall isnew (@nil diff)) /\
      (appends (E s v false own i ch) -> Forall inorder (@nil diff) /\ (fresh (E s v false own i ch) g -> userord (kd s) = true -> chain_ok (lastv g None) (@nil diff) (o_g o)))).
    { intros Z. split; [constructor|]. split; [constructor|]. split; [intros _ y []|]. split; [intros _ y []|]. split; [constructor|]. intros _. split; [constructor|]. intros (_ & Fn) _. cbn [esch eval] in Fn. destruct Z as [Z| ->]; [congruence|]. split; [exact Logic.I|reflexivity]. }
    assert (Cr : forall an g1, base_of (st_m x) = [] -> st_m x = Some (D s v false []) -> st_del x = false -> st_g x = g1 -> (userord (kd s) = true -> edit_insert i (D s v false []) g = Some g1 /\ an = prev_of (it s v) None g1) -> m = None ->
      let l0 := [F DCreate s v false None an None ks] in
      Forall tidy0 l0 /\ NoDup (map fid l0) /\ (~ purges (E s v false own i ch) -> forall y, In y l0 -> fid y = eident (E s v false own i ch)) /\ (purges (E s v false own i ch) -> forall y, In y l0 -> In (fid y) (map ident g)) /\
      (fresh (E s v false own i ch) g -> Forall isnew l0) /\
      (appends (E s v false own i ch) -> Forall inorder l0 /\ (fresh (E s v false own i ch) g -> userord (kd s) = true -> chain_ok (lastv g None) l0 (o_g o)))).
    { intros an g1 Eb Em1 Ed Eg Ui Mn l0. destruct (New Eb) as (_ & N2 & N3).
      split; [constructor; [apply tidy0_all; split; [exact Kn|split; [intros _; exact N2|exact Kt]]|constructor]|]. split; [cbn; constructor; [intros []|constructor]|]. split; [intros _ y [<-|[]]; reflexivity|]. split; [intros Z; contradiction|]. split; [intros _; constructor; [reflexivity|constructor]|].
      intros Ap. apply appends_all in Ap. destruct Ap as (Ap1 & Ap2). split; [constructor; [apply inorder_all; split; [intros _; apply N3; exact Ap2|apply Ki; exact Ap2]|constructor]|].
      intros _ U. destruct (Ui U) as (Ei & Ea). assert (E1 : g1 = g ++ [D s v false []]) by (destruct (Ap1 U) as [-> | ->]; cbn [edit_insert] in Ei; congruence).
      assert (Fn : find (it s v) g = None) by congruence. split.
      - cbn [l0 chained fan fval]. split; [|exact Logic.I]. rewrite Ea, E1. apply prev_split; [exact Fn|apply it_refl].
      - cbn [l0 rev app fval]. rewrite Og, Ed, Em1, Eg, E1. clear - Fn. assert (Q : update_first (it s v) (fun d => D (dsch d) (dval d) (ddflt d) (o_g oc)) (g ++ [D s v false []]) = g ++ [D s v false (o_g oc)]).
        { induction g as [|y u IHu]; cbn [app update_first find] in *; [rewrite it_refl; reflexivity|]. destruct (it s v y); [discriminate|]. rewrite IHu by exact Fn. reflexivity. }
        rewrite Q. unfold lastv. rewrite rev_app_distr. reflexivity. }
    destruct A as [op H|op d H1 H2 H3 H4 H5|op H1 H2 H3|op g1 H1 H2 H3 H4|op d g1 H1 H2 H3 H4 H5|op d H1 H2 H3|op d H1 H2 H3 H4|op d H];
      cbn [st_r st_d st_m st_del st_dn st_g st_chg issome negb orb dch dsch dval ddflt base_of] in *.
    + apply Nil. right. exact Og.
    + destruct (term (kd s)); [apply Nil; left; discriminate|]. apply Old; [apply Md; reflexivity|discriminate|discriminate].
    + apply (Cr None (g ++ [D s v false []])); try reflexivity. congruence.
    + apply (Cr (prev_of (it s v) None g1) g1); try reflexivity. intros _. split; [exact H4|reflexivity].
    + apply Old; [rewrite <- H4; reflexivity|discriminate|discriminate].
    + apply Old; [reflexivity|discriminate|discriminate].
    + apply Old; [reflexivity|discriminate|discriminate].
    + apply Old; [apply Md; reflexivity|discriminate|discriminate].
Qed.

Theorem edit_tidy0 : forall es ds o, wf_data kd ds -> wf_edit kd es -> edit_apply kd es ds = ROk o -> o_err o = false ->
  Forall tidy0 (o_diff o) /\ NoDup (map fid (o_diff o)) /\ (Forall appends es -> Forall inorder (o_diff o)).
Proof.
  intros es ds o W (We1 & We2) H Er. destruct (fold_t false false false None es) with (seen := @nil enode) (ds := ds) (o := o) as (A & B & _ & _ & C); try assumption; try discriminate.
  - apply Forall_forall. intros e _. apply pt.
  - split; [exact A|]. split; [exact B|]. intros Ap. apply (C Ap).
Qed.
End P.
