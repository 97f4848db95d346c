(** The result of applying an edit is the one of its meaning. *)
From Coq Require Import List Bool Arith Lia Sorted Permutation.
From Verif Require Import Edit EditSpec EditProofs EditOps.
Import ListNotations.

Section P.
Variable kd : nat -> kind.
Notation it := (is_it kd).
Notation key := (EditSpec.key kd).
Notation ident := (EditSpec.ident kd).
Notation eident := (EditSpec.eident kd).
Notation wfg := (wfg kd).

(** ** Small facts *)
Lemma wfd_all : forall s v b ch, wfd kd (D s v b ch) ->
  (match kd s with KCont _ => v = 0 | _ => True end) /\ (b = true -> kd s = KLeaf) /\ (term (kd s) = true -> ch = []) /\ wf_data kd ch.
Proof.
  intros s v b ch H. cbn [wfd] in H. destruct H as (H1 & H2 & H3 & H4 & H5). split; [exact H1|]. split; [exact H2|]. split; [exact H3|]. split; [exact H4|]. clear - H5. induction ch as [|c t IH]; constructor; [apply H5|apply IH; apply H5].
Qed.
Lemma wfd_make : forall s v b ch,
  (match kd s with KCont _ => v = 0 | _ => True end) -> (b = true -> kd s = KLeaf) -> (term (kd s) = true -> ch = []) -> wf_data kd ch -> wfd kd (D s v b ch).
Proof.
  intros s v b ch H1 H2 H3 (H4 & H5). cbn [wfd]. split; [exact H1|]. split; [exact H2|]. split; [exact H3|]. split; [exact H4|]. clear - H5. induction H5 as [|c t Hc Ht IH]; [exact I|split; assumption].
Qed.
Lemma wfe_all : forall s v b own i ch, wfe kd (E s v b own i ch) ->
  b = false /\ (match kd s with KCont _ => v = 0 | _ => True end) /\ (term (kd s) = true -> ch = []) /\ (own = Some Purge -> ch = []) /\ wf_edit kd ch.
Proof.
  intros s v b own i ch H. cbn [wfe] in H. destruct H as (H0 & H1 & H2 & H3 & H4 & H5). split; [exact H0|]. split; [exact H1|]. split; [exact H2|]. split; [exact H3|]. split; [exact H4|]. clear - H5. induction ch as [|c t IH]; constructor; [apply H5|apply IH; apply H5].
Qed.
Lemma wf_data_nil : wf_data kd [].
Proof. split; [split; constructor|constructor]. Qed.
Lemma wf_data_filter : forall f ds, wf_data kd ds -> wf_data kd (filter f ds).
Proof.
  intros f ds ((S & N) & W). split; [split|].
  - apply srt_filter. exact S.
  - clear S W. induction ds as [|d t IH]; [constructor|]. inversion N as [|? ? Nd Nt]; subst. cbn [filter]. destruct (f d); [|apply IH; exact Nt]. cbn [map]. constructor; [|apply IH; exact Nt]. intros X. apply Nd. apply in_map_iff in X. destruct X as (y & Ey & Hy). apply in_map_iff. exists y. split; [exact Ey|]. apply filter_In in Hy. apply Hy.
  - apply Forall_forall. intros d Hd. apply filter_In in Hd. apply (proj1 (Forall_forall _ _) W). apply Hd.
Qed.

Lemma insert_before_split : forall a x g g1, insert_before a x g = Some g1 -> exists l r, g = l ++ r /\ g1 = l ++ x :: r.
Proof.
  induction g as [|d t IH]; intros g1 H; [discriminate|]. cbn [insert_before] in H. destruct (Nat.eqb (dval d) a).
  - injection H as <-. exists [], (d :: t). split; reflexivity.
  - destruct (insert_before a x t) as [g2|]; [|discriminate]. injection H as <-. destruct (IH g2 eq_refl) as (l & r & -> & ->). exists (d :: l), r. split; reflexivity.
Qed.
Lemma insert_after_split : forall a x g g1, insert_after a x g = Some g1 -> exists l r, g = l ++ r /\ g1 = l ++ x :: r.
Proof.
  induction g as [|d t IH]; intros g1 H; [discriminate|]. cbn [insert_after] in H. destruct (Nat.eqb (dval d) a).
  - injection H as <-. exists [d], t. split; reflexivity.
  - destruct (insert_after a x t) as [g2|]; [|discriminate]. injection H as <-. destruct (IH g2 eq_refl) as (l & r & -> & ->). exists (d :: l), r. split; reflexivity.
Qed.
Lemma insert_split : forall i x g g1, edit_insert i x g = Some g1 -> exists l r, g = l ++ r /\ g1 = l ++ x :: r.
Proof.
  intros i x g g1 H. destruct i as [| | |[a|]|[a|]]; cbn [edit_insert] in H; try discriminate.
  - injection H as <-. exists g, []. rewrite app_nil_r. split; reflexivity.
  - injection H as <-. exists [], g. split; reflexivity.
  - injection H as <-. exists g, []. rewrite app_nil_r. split; reflexivity.
  - apply (insert_before_split a). exact H.
  - apply (insert_after_split a). exact H.
Qed.

(** ** One operation *)
Record op_ok (s v : nat) (orph : bool) (g : list dnode) (x : st) : Prop := {
  k_wf : wfg s (st_g x);
  k_find : st_m x = find (it s v) (st_g x);
  k_other : forall v', key s v' <> key s v -> find (it s v') (st_g x) = find (it s v') g;
  k_err : st_err x = false;
  k_orph : orph = true -> st_g x = [];
}.

Lemma it_self : forall s v b ch, it s v (D s v b ch) = true.
Proof. intros. apply it_key. reflexivity. Qed.

Lemma split_ok : forall s v g g1 x, wfg s g -> dsch x = s -> wfd kd x -> it s v x = true -> find (it s v) g = None -> (exists l r, g = l ++ r /\ g1 = l ++ x :: r) ->
  wfg s g1 /\ find (it s v) g1 = Some x /\ (forall v', key s v' <> key s v -> find (it s v') g1 = find (it s v') g).
Proof.
  intros s v g g1 x W Sx Wx Ix Fx H. split; [|destruct H as (l & r & -> & ->); split].
  - apply (wfg_perm kd s g x); try assumption. assert (Ek := Ix). apply it_key in Ek. destruct (find (it s (dval x)) g) as [y|] eqn:Fy; [|reflexivity]. exfalso. apply find_some in Fy. destruct Fy as (Hy & Iy). apply it_key in Iy. assert (Z := find_none _ _ Fx y Hy). cbn beta in Z. assert (Z1 : it s v y = true) by (apply it_key; congruence). congruence.
  - rewrite find_app1 in *. destruct (find (it s v) l); [discriminate|]. cbn [find]. rewrite Ix. reflexivity.
  - intros v' N. rewrite !find_app1. destruct (find (it s v') l); [reflexivity|]. cbn [find]. destruct (it s v' x) eqn:I'; [|reflexivity]. exfalso. apply N. exact (it_swap kd _ _ _ _ I' Ix).
Qed.

Lemma act_ok : forall s v i orph fr fd g op x, wfg s g -> (match kd s with KCont _ => v = 0 | _ => True end) -> (orph = true -> g = []) ->
  act kd s v i orph fr fd g op (find (it s v) g) x -> op_ok s v orph g x.
Proof.
  intros s v i orph fr fd g op x W V O H. remember (find (it s v) g) as m eqn:Em. symmetry in Em.
  assert (Wn : wfd kd (D s v false [])) by (apply wfd_make; [exact V|discriminate|reflexivity|apply wf_data_nil]).
  destruct H as [op H|op d H1 H2 H3 H4 H5|op H1 H2 H3|op g1 H1 H2 H3 H4|op d g1 H1 H2 H3 H4 H5|op d H1 H2 H3|op d H1 H2 H3 H4|op d H].
  - constructor; cbn [st_g st_m st_err]; auto.
  - constructor; cbn [st_g st_m st_err]; auto.
  - destruct (split_ok s v g (g ++ [D s v false []]) (D s v false []) W eq_refl Wn (it_self s v _ _) Em) as (A & B & C); [exists g, []; rewrite app_nil_r; split; reflexivity|].
    constructor; cbn [st_g st_m st_err]; auto. congruence.
  - destruct (split_ok s v g g1 (D s v false []) W eq_refl Wn (it_self s v _ _) Em (insert_split _ _ _ _ H4)) as (A & B & C).
    constructor; cbn [st_g st_m st_err]; auto. congruence.
  - destruct (find_some _ _ Em) as (Hd & Id). destruct W as (Wa & Wk & Ww).
    destruct (split_ok s v (remove_first (it s v) g) g1 d (wfg_remove kd s v g (conj Wa (conj Wk Ww))) (proj1 (Forall_forall _ _) Wa d Hd) (proj1 (Forall_forall _ _) Ww d Hd) Id (find_remove_same kd s v g Wk) (insert_split _ _ _ _ H5)) as (A & B & C).
    constructor; cbn [st_g st_m st_err]; auto; [|congruence]. intros v' N. rewrite (C v' N). apply find_remove_other. exact N.
  - destruct (find_some _ _ Em) as (Hd & Id).
    assert (I1 : forall x, it s v x = true) by (intros y; unfold is_it; rewrite H2; reflexivity).
    constructor; cbn [st_g st_m st_err]; auto.
    + apply wfg_update; [exact W|]. intros y Hy _. destruct W as (Wa & Wk & Ww). pose proof (proj1 (Forall_forall _ _) Wa y Hy) as Sy. pose proof (proj1 (Forall_forall _ _) Ww y Hy) as Wy. destruct y as [sy vy by_ chy]. cbn in Sy. subst sy. cbn [dsch dval dch]. split; [reflexivity|]. split; [unfold EditSpec.key; rewrite H2; reflexivity|]. apply wfd_all in Wy. destruct Wy as (_ & _ & W3 & W4). apply wfd_make; try assumption. discriminate.
    + symmetry. apply (find_update_same kd s v (fun x => D (dsch x) v false (dch x)) g d Em). apply I1.
    + intros v' N. exfalso. apply N. unfold EditSpec.key. rewrite H2. reflexivity.
    + intros X. rewrite (O X) in Hd. destruct Hd.
  - destruct (find_some _ _ Em) as (Hd & Id).
    assert (I1 : forall x, it s v x = true) by (intros y; unfold is_it; rewrite H2; reflexivity).
    constructor; cbn [st_g st_m st_err]; auto.
    + apply wfg_update; [exact W|]. intros y Hy _. destruct W as (Wa & Wk & Ww). pose proof (proj1 (Forall_forall _ _) Wa y Hy) as Sy. pose proof (proj1 (Forall_forall _ _) Ww y Hy) as Wy. destruct y as [sy vy by_ chy]. cbn in Sy. subst sy. cbn [dsch dval dch]. split; [reflexivity|]. split; [unfold EditSpec.key; rewrite H2; reflexivity|]. apply wfd_all in Wy. destruct Wy as (_ & _ & W3 & W4). apply wfd_make; try assumption. discriminate.
    + symmetry. apply (find_update_same kd s v (fun x => D (dsch x) v false (dch x)) g d Em). apply I1.
    + intros v' N. exfalso. apply N. unfold EditSpec.key. rewrite H2. reflexivity.
    + intros X. rewrite (O X) in Hd. destruct Hd.
  - constructor; cbn [st_g st_m st_err]; auto.
Qed.

(** ** Dropping children that are not in the edit *)
Lemma in_edit_ident : forall es d, in_edit kd es d = true <-> exists e, In e es /\ eident e = ident d.
Proof.
  intros es d. unfold in_edit. rewrite existsb_exists. split; intros (e & He & Q); exists e; (split; [exact He|]).
  - apply andb_prop in Q. destruct Q as (Q1 & Q2). apply Nat.eqb_eq in Q1. unfold EditSpec.eident, EditSpec.ident, EditSpec.key. rewrite Q1. f_equal. destruct (inst (kd (dsch d))); [apply Nat.eqb_eq; exact Q2|reflexivity].
  - unfold EditSpec.eident, EditSpec.ident, EditSpec.key in Q. injection Q as Q1 Q2. rewrite Q1 in *. rewrite Nat.eqb_refl. cbn [andb]. destruct (inst (kd (dsch d))); [apply Nat.eqb_eq; exact Q2|reflexivity].
Qed.
Lemma drop_fst : forall es ds seen, fst (drop kd es seen ds) = seen ++ filter (in_edit kd es) ds.
Proof.
  intros es. induction ds as [|d t IH]; intros seen; cbn [drop filter].
  - rewrite app_nil_r. reflexivity.
  - destruct (in_edit kd es d); [rewrite IH, <- app_assoc; reflexivity|]. cbn [fst]. apply IH.
Qed.

(** ** Looking up *)
Definition req (a b : option dnode) : Prop :=
  match a, b with
  | None, None => True
  | Some x, Some y => dval x = dval y /\ forall p, get kd p (dch x) = get kd p (dch y)
  | _, _ => False
  end.
Lemma req_refl : forall a, req a a.
Proof. intros [a|]; cbn; auto. Qed.
Lemma get_ext : forall A B, (forall id, req (lk kd id A) (lk kd id B)) -> forall p, get kd p A = get kd p B.
Proof.
  intros A B H [|id rest]; [reflexivity|]. cbn [get]. specialize (H id). destruct (lk kd id A) as [x|], (lk kd id B) as [y|]; cbn [req] in H; try contradiction; [|reflexivity]. destruct H as (Hv & Hp). destruct rest; [f_equal; exact Hv|apply Hp].
Qed.
Definition idb (id : nat * nat) (d : dnode) : bool := Nat.eqb (fst (ident d)) (fst id) && Nat.eqb (snd (ident d)) (snd id).
Lemma idb_eq : forall id d, idb id d = true <-> ident d = id.
Proof.
  intros [a b] d. unfold idb. destruct (ident d) as [x y]. cbn [fst snd]. split.
  - intros H. apply andb_prop in H. destruct H as (H1 & H2). apply Nat.eqb_eq in H1. apply Nat.eqb_eq in H2. congruence.
  - intros H. injection H as -> ->. rewrite !Nat.eqb_refl. reflexivity.
Qed.
Lemma lk_some : forall id ds d, lk kd id ds = Some d -> In d ds /\ ident d = id.
Proof. intros id ds d H. apply find_some in H. destruct H as (H & I). split; [exact H|]. apply idb_eq. exact I. Qed.
Lemma lk_none : forall id ds, (forall d, In d ds -> ident d <> id) -> lk kd id ds = None.
Proof.
  intros id ds H. destruct (lk kd id ds) as [d|] eqn:L; [|reflexivity]. apply lk_some in L. destruct L as (L1 & L2). exfalso. exact (H d L1 L2).
Qed.
Lemma lk_app : forall id a b, lk kd id (a ++ b) = match lk kd id a with Some d => Some d | None => lk kd id b end.
Proof. intros. apply find_app1. Qed.
Lemma lk_filter : forall id f ds, (forall d, In d ds -> ident d = id -> f d = true) -> lk kd id (filter f ds) = lk kd id ds.
Proof.
  intros id f ds H. unfold lk. induction ds as [|d t IH]; [reflexivity|]. cbn [filter find]. destruct (idb id d) eqn:I.
  - rewrite (H d (or_introl eq_refl) (proj1 (idb_eq _ _) I)). cbn [find]. unfold idb in I. rewrite I. reflexivity.
  - destruct (f d); cbn [find]; unfold idb in I; rewrite I; apply IH; intros x Hx; apply H; right; exact Hx.
Qed.
Lemma lk_put_other : forall id s g ds, fst id <> s -> all_s s g -> lk kd id (put s g ds) = lk kd id ds.
Proof. intros id s g ds N A. rewrite lk_grp, grp_put_other, <- lk_grp by assumption. reflexivity. Qed.
Lemma lk_put_same : forall id s g ds, fst id = s -> all_s s g -> lk kd id (put s g ds) = lk kd id g.
Proof. intros id s g ds <- A. rewrite lk_grp, grp_put_same by assumption. reflexivity. Qed.
Lemma lk_group : forall s v g, all_s s g -> lk kd (s, key s v) g = find (it s v) g.
Proof. intros s v g A. rewrite lk_find. f_equal. apply filter_all. intros d Hd. apply Nat.eqb_eq. exact (proj1 (Forall_forall _ _) A d Hd). Qed.
(** In a group only keys of values occur. *)
Lemma lk_key : forall s k g, all_s s g -> (exists v, k = key s v) \/ lk kd (s, k) g = None.
Proof.
  intros s k g A. destruct (inst (kd s)) eqn:I.
  - left. exists k. unfold EditSpec.key. rewrite I. reflexivity.
  - destruct (Nat.eq_dec k 0) as [->|N]; [left; exists 0; unfold EditSpec.key; rewrite I; reflexivity|]. right. apply lk_none. intros d Hd X. unfold EditSpec.ident, EditSpec.key in X. injection X as X1 X2. rewrite X1, I in X2. congruence.
Qed.

(** ** The meaning of siblings *)
Definition purges (e : enode) : Prop := eown e = Some Purge.
Definition rid (e : enode) (r : option dnode) : Prop := match r with Some d => ident d = eident e | None => True end.
Fixpoint somes (rs : list (option dnode)) : list dnode :=
  match rs with [] => [] | Some d :: t => d :: somes t | None :: t => somes t end.

Lemma collect_some : forall (A : Type) (f : A -> option (option dnode)) es rs, Forall2 (fun e r => f e = Some r) es rs -> collect (map f es) = Some (somes rs).
Proof. intros A f es rs H. induction H as [|e r es rs He H IH]; [reflexivity|]. unfold collect in *. cbn [map fold_right]. rewrite He, IH. destruct r; reflexivity. Qed.

Record sibs_ok (S : enode -> option dnode -> option (option dnode)) (es : list enode) (ds ds' : list dnode) (rs : list (option dnode)) : Prop := {
  f_each : Forall2 (fun e r => S e (lk kd (eident e) ds) = Some r /\ rid e r /\ (purges e -> r = None) /\ (~ purges e -> req r (lk kd (eident e) ds'))) es rs;
  f_purge : forall e id, In e es -> purges e -> esch e = fst id -> lk kd id ds' = None;
  f_frame : forall id, (forall e, In e es -> eident e <> id) -> (forall e, In e es -> purges e -> esch e <> fst id) -> lk kd id ds' = lk kd id ds;
}.

Lemma purges_dec : forall e, purges e \/ ~ purges e.
Proof. intros e. unfold purges. destruct (eown e) as [[]|]; (left; reflexivity) || (right; discriminate). Qed.

Lemma somes_none : forall S es ds ds' rs id, sibs_ok S es ds ds' rs -> (forall e, In e es -> eident e = id -> purges e) -> lk kd id (somes rs) = None.
Proof.
  intros S es ds ds' rs id [E _ _] H. induction E as [|e r es rs (E1 & E2 & E3 & E4) E IH]; [reflexivity|]. destruct r as [d|]; cbn [somes]; [|apply IH; intros x Hx; apply H; right; exact Hx].
  unfold lk. cbn [find]. destruct (idb id d) eqn:I.
  - exfalso. apply idb_eq in I. cbn in E2. assert (P : purges e) by (apply H; [left; reflexivity|congruence]). specialize (E3 P). discriminate.
  - unfold idb in I. rewrite I. apply IH. intros x Hx. apply H. right. exact Hx.
Qed.

Lemma somes_one : forall S es ds ds' rs e, sibs_ok S es ds ds' rs -> NoDup (map eident es) -> In e es -> ~ purges e -> req (lk kd (eident e) (somes rs)) (lk kd (eident e) ds').
Proof.
  intros S es ds ds' rs e [E _ _] N He P. induction E as [|c r es rs (E1 & E2 & E3 & E4) E IH]; [destruct He|]. cbn [map] in N. inversion N as [|? ? Nc Nt]; subst.
  destruct He as [->|He].
  - specialize (E4 P). destruct r as [d|]; cbn [somes].
    + unfold lk at 1. cbn [find]. cbn in E2. rewrite (proj2 (idb_eq _ _) E2 : Nat.eqb _ _ && _ = true). exact E4.
    + assert (Z : lk kd (eident e) (somes rs) = None).
      { clear IH E4. induction E as [|c r es rs (F1 & F2 & F3 & F4) E IH]; [reflexivity|]. cbn [map] in Nc. assert (Nc' : eident c <> eident e /\ ~ In (eident e) (map eident es)) by (split; intros X; apply Nc; [left; exact X|right; exact X]). destruct Nc' as (Nc1 & Nc2). assert (IH' : lk kd (eident e) (somes rs) = None) by (apply IH; try assumption; cbn [map] in N; [constructor; [exact Nc2|]|]; inversion Nt; assumption). clear IH.
        destruct r as [d|]; cbn [somes]; [|exact IH']. unfold lk. cbn [find]. destruct (idb (eident e) d) eqn:I; [exfalso; apply idb_eq in I; cbn in F2; congruence|]. unfold idb in I. rewrite I. exact IH'. }
      rewrite Z. exact E4.
  - destruct r as [d|]; cbn [somes]; [|apply IH; assumption]. unfold lk at 1. cbn [find]. destruct (idb (eident e) d) eqn:I.
    + exfalso. apply idb_eq in I. cbn in E2. apply Nc. rewrite <- E2, I. apply in_map. exact He.
    + unfold idb in I. rewrite I. apply IH; assumption.
Qed.

Lemma touched_spec : forall es d, touched kd es d = true <-> exists e, In e es /\ ((purges e /\ esch e = dsch d) \/ eident e = ident d).
Proof.
  intros es d. unfold touched. rewrite existsb_exists. split; intros (e & He & Q); exists e; (split; [exact He|]).
  - apply andb_prop in Q. destruct Q as (Q1 & Q2). apply Nat.eqb_eq in Q1. apply orb_prop in Q2. destruct Q2 as [Q2|Q2].
    + left. split; [|exact Q1]. unfold purges. destruct (eown e) as [[]|]; try discriminate. reflexivity.
    + right. apply Nat.eqb_eq in Q2. unfold EditSpec.eident, EditSpec.ident in *. cbn [snd] in Q2. congruence.
  - destruct Q as [(Q1 & Q2)|Q].
    + unfold purges in Q1. rewrite Q2, Nat.eqb_refl, Q1. reflexivity.
    + unfold EditSpec.eident, EditSpec.ident in Q. injection Q as Q1 Q2. rewrite Q1, Nat.eqb_refl. cbn [andb]. apply orb_true_iff. right. apply Nat.eqb_eq. cbn [EditSpec.eident EditSpec.ident snd]. rewrite Q1 in *. exact Q2.
Qed.

Lemma ident_dec : forall a b : nat * nat, {a = b} + {a <> b}.
Proof. decide equality; apply Nat.eq_dec. Qed.

(** Which case an identifier is in. *)
Lemma id_case : forall (es : list enode) id, (exists e, In e es /\ purges e /\ esch e = fst id) \/
  ((forall e, In e es -> purges e -> esch e <> fst id) /\ ((exists e, In e es /\ eident e = id) \/ (forall e, In e es -> eident e <> id))).
Proof.
  induction es as [|c t IH]; intros id.
  - right. split; [intros e []|right; intros e []].
  - destruct (purges_dec c) as [P|P]; [destruct (Nat.eq_dec (esch c) (fst id)) as [Q|Q]|].
    + left. exists c. repeat split; try assumption. left. reflexivity.
    + destruct (IH id) as [(e & He & X)|(IH1 & IH2)]; [left; exists e; split; [right; exact He|exact X]|]. right. split; [intros e [<-|He] X; [exact Q|apply IH1; assumption]|].
      destruct IH2 as [(e & He & X)|IH2]; [left; exists e; split; [right; exact He|exact X]|]. right. intros e [<-|He]; [|apply IH2; exact He]. intros X. apply Q. rewrite <- X. reflexivity.
    + destruct (IH id) as [(e & He & X)|(IH1 & IH2)]; [left; exists e; split; [right; exact He|exact X]|]. right. split; [intros e [<-|He] X; [contradiction|apply IH1; assumption]|].
      destruct IH2 as [(e & He & X)|IH2]; [left; exists e; split; [right; exact He|exact X]|]. destruct (ident_dec (eident c) id) as [Q|Q]; [left; exists c; split; [left; reflexivity|exact Q]|]. right. intros e [<-|He]; [exact Q|apply IH2; exact He].
Qed.

(** All the paths. *)
Lemma sibs_get : forall S es ds ds' rs, sibs_ok S es ds ds' rs -> wf_esibs kd es ->
  forall p, get kd p (filter (fun d => negb (touched kd es d)) ds ++ somes rs) = get kd p ds'.
Proof.
  intros S es ds ds' rs H (N & U). apply get_ext. intros id. rewrite lk_app.
  destruct (id_case es id) as [(e & He & P & Q)|(NP & [(e & He & Q)|NE])].
  - rewrite (f_purge _ _ _ _ _ H e id He P Q). rewrite (lk_none id (filter _ ds)).
    + rewrite (somes_none _ _ _ _ _ id H); [exact I|]. intros x Hx X. rewrite (U e x He Hx P); [exact P|]. rewrite Q, <- X. reflexivity.
    + intros d Hd X. apply filter_In in Hd. destruct Hd as (_ & Hd). apply negb_true_iff in Hd. assert (T : touched kd es d = true) by (apply touched_spec; exists e; split; [exact He|]; left; split; [exact P|]; rewrite Q, <- X; reflexivity). congruence.
  - assert (P : ~ purges e) by (intros P; apply (NP e He P); rewrite <- Q; reflexivity).
    rewrite (lk_none id (filter _ ds)).
    + subst id. exact (somes_one _ _ _ _ _ e H N He P).
    + intros d Hd X. apply filter_In in Hd. destruct Hd as (_ & Hd). apply negb_true_iff in Hd. assert (T : touched kd es d = true) by (apply touched_spec; exists e; split; [exact He|]; right; congruence). congruence.
  - rewrite (f_frame _ _ _ _ _ H id NE NP). rewrite lk_filter.
    + destruct (lk kd id ds); [apply req_refl|]. rewrite (somes_none _ _ _ _ _ id H); [exact I|]. intros e He X. destruct (NE e He X).
    + intros d Hd X. apply negb_true_iff. destruct (touched kd es d) eqn:T; [|reflexivity]. apply touched_spec in T. destruct T as (e & He & [(T1 & T2)|T]); exfalso.
      * apply (NP e He T1). rewrite T2, <- X. reflexivity.
      * apply (NE e He). congruence.
Qed.
(** Under a replace: only what is in the edit was there. *)
Lemma sibs_get_repl : forall S es ds ds' rs, sibs_ok S es (filter (in_edit kd es) ds) ds' rs -> wf_esibs kd es -> forall p, get kd p (somes rs) = get kd p ds'.
Proof.
  intros S es ds ds' rs H W p. rewrite <- (sibs_get S es _ ds' rs H W p). f_equal. rewrite (filter_none _ _ (filter (in_edit kd es) ds)); [reflexivity|]. intros d Hd. apply filter_In in Hd. destruct Hd as (_ & Hd). apply in_edit_ident in Hd. destruct Hd as (e & He & Q). apply negb_false_iff. apply touched_spec. exists e. split; [exact He|right; exact Q].
Qed.
Lemma lk_drop : forall es ds e, In e es -> lk kd (eident e) (filter (in_edit kd es) ds) = lk kd (eident e) ds.
Proof. intros es ds e He. apply lk_filter. intros d _ X. apply in_edit_ident. exists e. split; [exact He|congruence]. Qed.

(** ** Induction over edits *)
Definition ctxof (fd orph : bool) : ctx := if fd then Deleted else if orph then Missing else Present.

Definition P15 (e : enode) : Prop := forall fr fd orph pop ep g o,
  wfe kd e -> wfg (esch e) g -> (orph = true -> g = []) -> pop <> Some Purge ->
  apply_e kd fr fd orph pop ep e g = ROk o -> o_err o = false ->
  wfg (esch e) (o_g o) /\ (orph = true -> o_g o = []) /\
  exists r, sp kd (ctxof fd orph) fr pop e (find (it (esch e) (eval e)) g) = Some r /\ rid e r /\
    (purges e -> r = None /\ o_g o = []) /\
    (~ purges e -> req r (find (it (esch e) (eval e)) (o_g o)) /\ forall v', key (esch e) v' <> key (esch e) (eval e) -> find (it (esch e) v') (o_g o) = find (it (esch e) v') g).

Lemma fold_sem : forall fr fd orph pop es, Forall P15 es -> pop <> Some Purge -> Forall (wfe kd) es -> wf_esibs kd es -> forall seen ds o,
  wf_data kd ds -> (orph = true -> ds = []) ->
  fold_edits (fun ep c g => apply_e kd fr fd orph pop ep c g) seen es ds = ROk o -> o_err o = false ->
  wf_data kd (o_g o) /\ (orph = true -> o_g o = []) /\ exists rs, sibs_ok (sp kd (ctxof fd orph) fr pop) es ds (o_g o) rs.
Proof.
  intros fr fd orph pop es HP NP. induction HP as [|c t Hc Ht IH]; intros We (N & U) seen ds o Wd O H Er.
  - cbn [fold_edits] in H. injection H as <-. cbn [o_g]. split; [exact Wd|]. split; [exact O|]. exists []. constructor; [constructor|intros e id []|reflexivity].
  - cbn [fold_edits] in H. destruct (apply_e kd fr fd orph pop (last_einst (esch c) seen) c (grp (esch c) ds)) as [o1| |] eqn:A; try discriminate.
    destruct (fold_edits _ (seen ++ [c]) t (put (esch c) (o_g o1) ds)) as [o2| |] eqn:B; try discriminate. injection H as <-. cbn [o_g o_err] in *. apply orb_false_iff in Er. destruct Er as (Er1 & Er2).
    inversion We as [|? ? Wc Wt]; subst. cbn [map] in N. inversion N as [|? ? Nc Nt]; subst.
    destruct (Hc fr fd orph pop _ _ o1 Wc (wf_grp kd ds (esch c) Wd) (fun X => f_equal (grp (esch c)) (O X)) NP A Er1) as (G1 & G2 & r & R1 & R2 & R3 & R4).
    assert (Wp : wf_data kd (put (esch c) (o_g o1) ds)) by (apply wf_put; assumption).
    destruct (IH Wt (conj Nt (fun a b Ha Hb => U a b (or_intror Ha) (or_intror Hb))) _ _ o2 Wp (fun X => eq_trans (f_equal2 (put (esch c)) (G2 X) (O X)) eq_refl) B Er2) as (H1 & H2 & rs & [H3 H4 H5]).
    split; [exact H1|]. split; [exact H2|]. exists (r :: rs).
    assert (Fr : forall id, eident c <> id -> (purges c -> esch c <> fst id) -> lk kd id (put (esch c) (o_g o1) ds) = lk kd id ds).
    { intros [si ki] X1 X2. cbn [fst] in X2. destruct (Nat.eq_dec si (esch c)) as [->|Q]; [|apply lk_put_other; [exact Q|apply G1]]. rewrite lk_put_same by (reflexivity || apply G1). rewrite (lk_grp kd (esch c, ki) ds). cbn [fst].
      assert (NPc : ~ purges c) by (intros X; exact (X2 X eq_refl)). destruct (R4 NPc) as (_ & R5).
      destruct (lk_key (esch c) ki (o_g o1) (proj1 G1)) as [(v' & ->)|L1].
      - rewrite lk_group by apply G1. rewrite lk_group by apply grp_all. apply R5. intros X. apply X1. unfold EditSpec.eident. congruence.
      - destruct (lk_key (esch c) ki (grp (esch c) ds) (grp_all _ _)) as [(v' & ->)|L2]; [|congruence].
        rewrite lk_group by apply G1. rewrite lk_group by apply grp_all. apply R5. intros X. apply X1. unfold EditSpec.eident. congruence. }
    assert (Ot : forall e, In e t -> eident c <> eident e /\ (purges c -> esch c <> fst (eident e))).
    { intros e He. split; [intros X; apply Nc; rewrite X; apply in_map; exact He|]. intros P X. assert (e = c) by (apply U; [left; reflexivity|right; exact He|exact P|cbn in X; congruence]). subst e. apply Nc. apply in_map. exact He. }
    constructor.
    + constructor.
      * split; [rewrite lk_eident; exact R1|]. split; [exact R2|]. split; [intros P; apply (R3 P)|]. intros P. rewrite (H5 (eident c)).
        -- rewrite lk_put_same by (reflexivity || apply G1). unfold EditSpec.eident. rewrite lk_group by apply G1. apply (R4 P).
        -- intros e He X. destruct (Ot e He) as (X1 & _). congruence.
        -- intros e He Pe X. assert (c = e) by (apply U; [right; exact He|left; reflexivity|exact Pe|cbn in X; congruence]). subst e. contradiction.
      * clear - H3 Fr Ot. assert (Z : forall e, In e t -> lk kd (eident e) (put (esch c) (o_g o1) ds) = lk kd (eident e) ds) by (intros e He; destruct (Ot e He) as (X1 & X2); apply Fr; assumption). clear Fr Ot.
        induction H3 as [|e r0 t rs (E1 & E2) H3 IH]; constructor.
        -- rewrite Z in E1 by (left; reflexivity). split; assumption.
        -- apply IH. intros x Hx. apply Z. right. exact Hx.
    + intros e id [<-|He] P Q; [|apply (H4 e); assumption]. rewrite (H5 id).
      * rewrite lk_put_same by (congruence || apply G1). rewrite (proj2 (R3 P)). reflexivity.
      * intros e He X. destruct (Ot e He) as (_ & X2). apply (X2 P). rewrite X. congruence.
      * intros e He Pe X. assert (c = e) by (apply U; [right; exact He|left; reflexivity|exact Pe|congruence]). subst e. apply Nc. apply in_map. exact He.
    + intros id X1 X2. rewrite (H5 id); [|intros e He; apply X1; right; exact He|intros e He; apply X2; right; exact He]. apply Fr; [apply X1; left; reflexivity|apply X2; left; reflexivity].
Qed.

(** ** One edit node: what happens *)
Definition base_of (m : option dnode) : list dnode := match m with Some d => dch d | None => [] end.
Definition dropped (x : st) (ch : list enode) : list dnode * list diff :=
  if st_r x || st_d x then drop kd ch [] (base_of (st_m x)) else (base_of (st_m x), []).

Record node_ok (fr fd orph : bool) (op : eop) (ep : option nat) (s v : nat) (i : ins) (ch : list enode) (g : list dnode) (o : out) (x : st) (oc : out) : Prop := {
  n_nested : fd = true -> bad_nested op = false;
  n_ins : bad_ins kd s i = false;
  n_veq : exists veq, val_equal kd fr i ep s v (find (it s v) g) g = Some veq;
  n_loop : exists veq, val_equal kd fr i ep s v (find (it s v) g) g = Some veq /\ op_loop kd s v false i orph veq 5 (OOp op) (mkst g (find (it s v) g) None fr fd false false false) = ROk x;
  n_act : act kd s v i orph fr fd g op (find (it s v) g) x;
  n_fold : fold_edits (fun ep' c g' => apply_e kd (st_r x) (st_d x) (negb (issome (st_m x))) (Some op) ep' c g') [] ch (fst (dropped x ch)) = ROk oc;
  n_err : o_err oc = false;
  n_g : o_g o = if st_del x then remove_first (it s v) (st_g x)
                else match st_m x with
                     | Some _ => update_first (it s v) (fun d => D (dsch d) (dval d) (ddflt d) (o_g oc)) (st_g x)
                     | None => st_g x
                     end;
  n_diff : o_diff o = match st_dn x with Some f => finish kd f (snd (dropped x ch) ++ o_diff oc) | None => [] end;
  n_chg : o_chg o = st_chg x || (o_chg oc || negb (isnil (snd (dropped x ch))));
}.

Lemma apply_inv : forall fr fd orph pop ep s v b own i ch g o op,
  wfe kd (E s v b own i ch) -> wfg s g -> (orph = true -> g = []) -> op <> Purge ->
  (match own with Some o => Some o | None => pop end) = Some op ->
  apply_e kd fr fd orph pop ep (E s v b own i ch) g = ROk o -> o_err o = false ->
  exists x oc, node_ok fr fd orph op ep s v i ch g o x oc.
Proof.
  intros fr fd orph pop ep s v b own i ch g o op We W O NP Ho H Er. apply wfe_all in We. destruct We as (-> & Hv & _).
  cbn [apply_e] in H. rewrite Ho in H. destruct (bad_ins kd s i) eqn:Bi; [discriminate|]. destruct (fd && bad_nested op) eqn:Bn; [discriminate|].
  rewrite (edit_find_wf kd s v g W) in H.
  assert (H' : match val_equal kd fr i ep s v (find (it s v) g) g with
               | Some veq =>
                   match op_loop kd s v false i orph veq 5 (OOp op) (mkst g (find (it s v) g) None fr fd false false false) with
                   | ROk x =>
                       match fold_edits (fun ep' c g' => apply_e kd (st_r x) (st_d x) (negb (issome (st_m x))) (Some op) ep' c g') [] ch (fst (dropped x ch)) with
                       | ROk oc => ROk (mkout (if st_del x then remove_first (it s v) (st_g x)
                                        else match st_m x with
                                             | Some _ => update_first (it s v) (fun d => D (dsch d) (dval d) (ddflt d) (o_g oc)) (st_g x)
                                             | None => st_g x
                                             end) (match st_dn x with Some f => finish kd f (snd (dropped x ch) ++ o_diff oc) | None => [] end) (st_err x || o_err oc) (st_chg x || (o_chg oc || negb (isnil (snd (dropped x ch))))))
                       | RHard => RHard | RAssert => RAssert end
                   | RHard => RHard | RAssert => RAssert end
               | None => RHard end = ROk o).
  { destruct op; try congruence; clear - H;
    (destruct (val_equal kd fr i ep s v (find (it s v) g) g) as [veq|]; [|exact H];
     match type of H with match ?X with _ => _ end = _ => destruct X as [x| |]; try exact H end;
     unfold dropped, base_of in *; 
     match type of H with context [match fold_edits ?a ?b ?c ?d with _ => _ end] => destruct (fold_edits a b c d) as [oc| |]; exact H end). }
  clear H. destruct (val_equal kd fr i ep s v (find (it s v) g) g) as [veq|] eqn:Q; [|discriminate].
  destruct (op_loop _ _ _ _ _ _ _ _ _ _) as [x| |] eqn:L; try discriminate.
  destruct (fold_edits _ _ _ _) as [oc| |] eqn:Fo; try discriminate. injection H' as <-. cbn [o_err] in Er. apply orb_false_iff in Er. destruct Er as (Er1 & Er2).
  exists x, oc. constructor; cbn [o_g o_diff o_chg]; try reflexivity; auto.
  - intros ->. exact Bn.
  - exists veq. exact Q.
  - exists veq. split; [exact Q|exact L].
  - apply (op_act kd s v i orph fr fd ep veq); assumption.
Qed.
End P.
