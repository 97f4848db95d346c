(** * Proofs about contexts and the content id *)

From Coq Require Import List Arith Bool Lia.
Import ListNotations.
From Verif Require Import Context ContextSpec.

Lemma list_eqb_eq {A} (f : A -> A -> bool) (H : forall x y, f x y = true <-> x = y) :
  forall a b, list_eqb f a b = true <-> a = b.
Proof.
  induction a as [|x a IH]; intros [|y b]; cbn [list_eqb]; try (split; congruence).
  rewrite andb_true_iff, H, IH. split; [intros [-> ->]; reflexivity | intros E; inversion E; auto].
Qed.

Lemma feat_eqb_eq x y : feat_eqb x y = true <-> x = y.
Proof.
  destruct x as [f a], y as [g b]. unfold feat_eqb. cbn [fst snd].
  rewrite andb_true_iff, Nat.eqb_eq, eqb_true_iff.
  split; [intros [-> ->]; reflexivity | intros E; inversion E; auto].
Qed.

Lemma module_eqb_eq x y : module_eqb x y = true <-> x = y.
Proof.
  destruct x as [n r f], y as [n' r' f']. unfold module_eqb. cbn [m_name m_rev m_feats].
  rewrite !andb_true_iff, !Nat.eqb_eq, (list_eqb_eq feat_eqb feat_eqb_eq).
  split; [intros [[-> ->] ->]; reflexivity | intros E; inversion E; auto].
Qed.

Lemma mset_eqb_eq a b : mset_eqb a b = true <-> a = b.
Proof. apply list_eqb_eq, module_eqb_eq. Qed.

Lemma mem_In f l : mem f l = true <-> In f l.
Proof.
  unfold mem. rewrite existsb_exists. split.
  - intros (x & I & E). apply Nat.eqb_eq in E. now subst.
  - intros I. exists f. split; [exact I | apply Nat.eqb_refl].
Qed.

Lemma listed_iff w f : listed w f = true <-> exists l, w = Names l /\ In f l.
Proof.
  destruct w as [l|]; cbn [listed].
  - rewrite mem_In. split; [intros I; exists l; auto | intros (l' & E & I); inversion E; now subst].
  - split; [discriminate | intros (l & E & _); discriminate].
Qed.

(** ** Features in the registry and in the context agree if those enabled are
    listed *)

Lemma cut_listed w fs :
  (forall x, In x fs -> snd x = true -> listed w (fst x) = true) ->
  cut (feat_array w fs) = filter (listed w) (map fst fs).
Proof.
  induction fs as [|[f b] fs IH]; intros H; [reflexivity|].
  unfold feat_array in *. cbn [flat_map map filter fst snd].
  assert (H0 := H (f, b) (or_introl eq_refl)). cbn [fst snd] in H0.
  destruct (listed w f) eqn:L.
  - rewrite orb_true_r. cbn [List.app cut]. f_equal. apply IH. intros x I. apply H. now right.
  - destruct b; [discriminate (H0 eq_refl)|]. cbn [orb List.app].
    apply IH. intros x I. apply H. now right.
Qed.

Lemma feats_agree w fs :
  (forall x, In x fs -> snd x = true -> listed w (fst x) = true) ->
  ctx_feats w fs = reg_feats w fs.
Proof.
  intros H. unfold ctx_feats, reg_feats. apply map_ext_in. intros [f b] I. cbn [fst snd].
  f_equal. rewrite (cut_listed w fs H).
  assert (H0 := H _ I). cbn [fst snd] in H0.
  apply eq_true_iff_eq. rewrite mem_In, filter_In, orb_true_iff. split.
  - intros [_ L]. now right.
  - intros D. split.
    + change f with (fst (f, b)). now apply in_map.
    + destruct D as [D | D]; auto.
Qed.

Lemma apply1_agree s q : lists_enabled q s -> apply1 ctx_feats s q = apply1 reg_feats s q.
Proof.
  intros H. unfold apply1. destruct (has (q_name q) s); [|reflexivity].
  unfold set_feats. apply map_ext_in. intros m I.
  destruct (m_name m =? q_name q) eqn:E; cbn [andb]; [|reflexivity].
  destruct (to_enable (q_want q) (m_feats m)); [|reflexivity].
  f_equal. apply feats_agree. intros [f b] J B. cbn [fst snd] in *. subst b.
  apply listed_iff. apply H. exists m. apply Nat.eqb_eq in E. auto.
Qed.

(** ** What a request enables in the registry *)

Lemma has_In n s : has n s = true <-> exists m, In m s /\ m_name m = n.
Proof.
  unfold has. rewrite existsb_exists. split; intros (m & I & E); exists m;
    (split; [exact I|]); now apply Nat.eqb_eq.
Qed.

Lemma apply1_enabled_other s q n f : n <> q_name q ->
  (enabled n f (apply1 reg_feats s q) <-> enabled n f s).
Proof.
  intros D. unfold apply1. destruct (has (q_name q) s).
  - unfold enabled, set_feats. split.
    + intros (m & I & E & J). apply in_map_iff in I. destruct I as (m0 & <- & I).
      destruct (m_name m0 =? q_name q) eqn:Q; cbn [andb] in *.
      * apply Nat.eqb_eq in Q. exfalso.
        destruct (to_enable (q_want q) (m_feats m0)); cbn [m_name] in E; congruence.
      * exists m0. auto.
    + intros (m & I & E & J). exists m. split; [|auto]. apply in_map_iff. exists m.
      split; [|exact I]. replace (m_name m =? q_name q) with false; [reflexivity|].
      symmetry. apply Nat.eqb_neq. congruence.
  - unfold enabled. split.
    + intros (m & I & E & J). apply in_app_or in I. destruct I as [I | [<- | []]].
      * exists m. auto.
      * cbn [m_name] in E. congruence.
    + intros (m & I & E & J). exists m. split; [apply in_or_app; now left | auto].
Qed.

Lemma apply1_enabled s q l f : has (q_name q) s = true -> q_want q = Names l ->
  (enabled (q_name q) f (apply1 reg_feats s q) <->
   enabled (q_name q) f s \/ (defines (q_name q) f s /\ In f l)).
Proof.
  intros Hs W. unfold apply1. rewrite Hs. unfold enabled, defines, set_feats. split.
  - intros (m & I & E & J). apply in_map_iff in I. destruct I as (m0 & <- & I).
    destruct (m_name m0 =? q_name q) eqn:Q; cbn [andb] in *; [|left; exists m0; auto].
    apply Nat.eqb_eq in Q.
    destruct (to_enable (q_want q) (m_feats m0)); [|left; exists m0; auto].
    cbn [m_name m_feats] in *. unfold reg_feats in J. apply in_map_iff in J.
    destruct J as ([g b] & Eq & J). cbn [fst snd] in Eq. injection Eq as E1 E2. subst g.
    apply orb_true_iff in E2. destruct E2 as [-> | L].
    + left. exists m0. auto.
    + right. rewrite W in L. cbn [listed] in L. apply mem_In in L. split; [|exact L].
      exists m0, b. auto.
  - intros D.
    assert (X : exists m b, In m s /\ m_name m = q_name q /\ In (f, b) (m_feats m) /\
                 (b = true \/ In f l)).
    { destruct D as [(m & I & E & J) | [(m & b & I & E & J) L]].
      - exists m, true. auto.
      - exists m, b. auto. }
    clear D. destruct X as (m & b & I & E & J & D).
    exists (if (m_name m =? q_name q) && to_enable (q_want q) (m_feats m)
            then M (m_name m) (m_rev m) (reg_feats (q_want q) (m_feats m)) else m).
    split; [apply in_map_iff; exists m; auto|].
    rewrite E, Nat.eqb_refl. cbn [andb].
    destruct (to_enable (q_want q) (m_feats m)) eqn:T; cbn [m_name m_feats].
    + split; [reflexivity|]. unfold reg_feats. apply in_map_iff. exists (f, b). cbn [fst snd].
      split; [|exact J]. f_equal. apply orb_true_iff. destruct D as [-> | L]; [now left|].
      right. rewrite W. cbn [listed]. now apply mem_In.
    + split; [exact E|]. destruct D as [-> | L]; [exact J|].
      destruct b; [exact J|]. exfalso.
      assert (T' : to_enable (q_want q) (m_feats m) = true).
      { unfold to_enable. apply existsb_exists. exists (f, false). split; [exact J|].
        cbn [fst snd negb andb]. rewrite W. cbn [listed]. now apply mem_In. }
      congruence.
Qed.

Lemma apply_agree qs : forall s,
  NoDup (map q_name qs) -> (forall q, In q qs -> lists_enabled q s) ->
  apply_ctx qs s = apply_reg qs s.
Proof.
  unfold apply_ctx, apply_reg.
  induction qs as [|q qs IH]; intros s N H; [reflexivity|].
  cbn [fold_left map] in *. inversion N as [|? ? Nq N']; subst.
  rewrite (apply1_agree s q (H q (or_introl eq_refl))).
  apply IH; [exact N'|].
  intros q' I f E. apply (H q' (or_intror I)).
  apply (proj1 (apply1_enabled_other s q (q_name q') f
          (fun Eq => Nq (eq_ind _ (fun x => In x (map q_name qs)) (in_map q_name qs q' I) _ Eq)))).
  exact E.
Qed.

(** ** Invariant of orderly histories *)

Definition inv (b : bool) (st : state) : Prop :=
  s_shm st = s_lyd st /\ s_cid st = s_lyd st /\
  (b = true -> s_lid st = s_lyd st) /\
  (forall c k, s_conns st c = Some k -> c_id k = c_ctx k).

Lemma lock_current st k : s_shm st = s_lyd st -> s_cid st = s_lyd st -> c_id k = c_ctx k ->
  c_ctx (lock st k) = s_lyd st /\ c_id (lock st k) = s_lyd st.
Proof.
  intros A B K. unfold lock. destruct (mset_eqb (s_cid st) (c_id k)) eqn:E.
  - apply mset_eqb_eq in E. split; congruence.
  - cbn [c_ctx c_id]. auto.
Qed.

Lemma put_inv (P : conn -> Prop) f c x :
  (forall c k, f c = Some k -> P k) -> (forall k, x = Some k -> P k) ->
  forall c' k, put f c x c' = Some k -> P k.
Proof. intros H X c' k. unfold put. destruct (c' =? c); [apply X | apply H]. Qed.

Lemma put_same f c x : put f c x c = x.
Proof. unfold put. now rewrite Nat.eqb_refl. Qed.

Lemma lock_id st k : s_shm st = s_lyd st -> s_cid st = s_lyd st -> c_id k = c_ctx k ->
  c_id (lock st k) = c_ctx (lock st k).
Proof. intros A B K. destruct (lock_current st k A B K). congruence. Qed.

Lemma forallb_self l : forallb (fun n => mem n l) l = true.
Proof. apply forallb_forall. intros x I. now apply mem_In. Qed.

Lemma inv_install b st c qs : inv b st -> connected c st ->
  NoDup (map q_name qs) -> (forall q, In q qs -> lists_enabled q (s_lyd st)) ->
  let st' := step (step st (EBegin c)) (EInstall c qs) in
  inv b st' /\ (s_lyd st' <> s_lyd st -> inv true st').
Proof.
  intros (A & B & D & E) K N H st'. subst st'. unfold connected in K.
  cbn [step]. destruct (s_conns st c) as [k|] eqn:Ek; [|congruence].
  cbn [s_conns s_lyd s_lid s_shm s_cid]. rewrite put_same.
  cbn [c_new c_ctx c_id]. rewrite A.
  set (st1 := St (s_lyd st) (s_lid st) (s_lyd st) (s_cid st)
                (put (s_conns st) c (Some (C (c_ctx k) (c_id k) (Some (s_lyd st)))))).
  assert (K1 : forall c' k', s_conns st1 c' = Some k' -> c_id k' = c_ctx k').
  { subst st1. cbn [s_conns]. apply (put_inv (fun k => c_id k = c_ctx k)); [exact E|].
    intros k' Eq. injection Eq as <-. cbn [c_id c_ctx]. apply (E c). exact Ek. }
  assert (A1 : s_shm st1 = s_lyd st1) by (subst st1; reflexivity).
  assert (B1 : s_cid st1 = s_lyd st1) by (subst st1; exact B).
  rewrite forallb_self.
  destruct (mset_eqb (apply_reg qs (s_lyd st)) (s_lyd st)) eqn:Q.
  - cbn [s_lyd]. split; [|congruence].
    repeat split; cbn [s_lyd s_lid s_shm s_cid s_conns]; auto.
    apply (put_inv (fun k => c_id k = c_ctx k)); [exact K1|].
    intros k' Eq. assert (k' = lock st1 (C (c_ctx k) (c_id k) None)) by congruence. subst k'.
    apply lock_id; [exact A1 | exact B1 |]. cbn [c_id c_ctx]. apply (E c). exact Ek.
  - rewrite (apply_agree qs (s_lyd st) N H).
    assert (X : inv true (commit st1 c (apply_reg qs (s_lyd st)) (apply_reg qs (s_lyd st))
                            (apply_reg qs (s_lyd st)))).
    { repeat split; cbn [commit s_lyd s_lid s_shm s_cid s_conns]; auto.
      apply (put_inv (fun k => c_id k = c_ctx k)); [exact K1|].
      intros k' Eq. injection Eq as <-. reflexivity. }
    split; [|intros _; exact X].
    destruct X as (X1 & X2 & X3 & X4). split; [exact X1|]. split; [exact X2|].
    split; [intros _; now apply X3 | exact X4].
Qed.

Lemma reach_inv s0 b st : reach s0 b st -> inv b st.
Proof.
  induction 1 as [|b st e R IH P|b st c e R IH K P|b st c R IH K|b st c qs R IH K N H
                  |b st c qs R IH K N H Ch|st R IH].
  - repeat split; try reflexivity. cbn [start s_conns]. discriminate.
  - destruct IH as (A & B & D & E). destruct e; cbn [plain] in P; try contradiction; cbn [step].
    + repeat split; cbn [s_lyd s_lid s_shm s_cid s_conns]; auto.
      apply (put_inv (fun k => c_id k = c_ctx k)); [exact E|].
      intros k Eq. injection Eq as <-. cbn [c_id c_ctx]. congruence.
    + repeat split; cbn [s_lyd s_lid s_shm s_cid s_conns]; auto.
      apply (put_inv (fun k => c_id k = c_ctx k)); [exact E|]. discriminate.
    + destruct (s_conns st c) as [k|] eqn:Ek; [|repeat split; auto].
      repeat split; cbn [s_lyd s_lid s_shm s_cid s_conns]; auto.
      apply (put_inv (fun k => c_id k = c_ctx k)); [exact E|].
      intros k' Eq. assert (k' = lock st k) by congruence. subst k'.
      apply lock_id; auto. apply (E c). exact Ek.
  - destruct IH as (A & B & D & E). unfold connected in K.
    assert (X : forall reg lid nctx, reg = nctx -> inv false (commit st c reg lid nctx)).
    { intros reg lid nctx ->. repeat split; cbn [commit s_lyd s_lid s_shm s_cid s_conns]; auto;
        try discriminate.
      apply (put_inv (fun k => c_id k = c_ctx k)); [exact E|].
      intros k Eq. injection Eq as <-. reflexivity. }
    destruct e; cbn [modifies] in P; try contradiction; subst; cbn [step];
      (destruct (s_conns st c) as [k|]; [|congruence]); apply X; now rewrite A.
  - destruct IH as (A & B & D & E). unfold connected in K. cbn [step].
    destruct (s_conns st c) as [k|] eqn:Ek; [|congruence].
    assert (Kk : c_id k = c_ctx k) by (apply (E c); exact Ek).
    repeat split; cbn [s_lyd s_lid s_shm s_cid s_conns]; auto.
    + intros _. apply (lock_current st k A B Kk).
    + apply (put_inv (fun k => c_id k = c_ctx k)); [exact E|].
      intros k' Eq. assert (k' = lock st k) by congruence. subst k'. now apply lock_id.
  - apply (inv_install b st c qs IH K N H).
  - apply (inv_install b st c qs IH K N H). exact Ch.
  - destruct IH as (A & B & D & E). cbn [step].
    repeat split; cbn [s_lyd s_lid s_shm s_cid s_conns]; auto. discriminate.
Qed.
