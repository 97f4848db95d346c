(** Which nodes are copied. *)
From Coq Require Import NArith List Bool Arith Lia.
From Verif Require Import GetData GetDataSpec GetDataProofs.
Import ListNotations.

(** ** Trees *)

Fixpoint tsize (t : tree) : nat := match t with T _ _ _ l => S (list_sum (map tsize l)) end.

Lemma in_tsize : forall l (y : tree), In y l -> tsize y <= list_sum (map tsize l).
Proof.
  induction l as [|a l IH]; intros y H; [destruct H|]. cbn [map list_sum fold_right]. destruct H as [->|H]; [lia|].
  specialize (IH y H). unfold list_sum in IH. lia.
Qed.

Lemma kid_tsize : forall t y, In y (t_kids t) -> tsize y < tsize t.
Proof. intros [i k s l] y H. cbn [t_kids] in H. apply in_tsize in H. cbn [tsize]. lia. Qed.

Lemma below_tsize : forall n t x, below n t x -> tsize x <= tsize t /\ (n <> 0 -> tsize x < tsize t).
Proof.
  intros n t x H. induction H as [t|n t k x H1 H2 [IH _]]; [split; [auto|congruence]|]. apply kid_tsize in H1. split; lia.
Qed.

Lemma below_trans : forall n a b, below n a b -> forall m c, below m b c -> below (n + m) a c.
Proof. intros n a b H. induction H as [t|n t k x H1 H2 IH]; intros m c H; [auto|]. cbn [plus]. econstructor; eauto. Qed.

Lemma below_kid : forall n t x y, below n t x -> In y (t_kids x) -> below (S n) t y.
Proof. intros n t x y H Hy. replace (S n) with (n + 1) by lia. eapply below_trans; eauto. econstructor; [exact Hy|constructor]. Qed.

Lemma in_pre : forall t i, In i (preorder t) <-> exists n x, below n t x /\ t_id x = i.
Proof.
  intros t. induction t as [j k s l IH] using tree_ind2. intros i. cbn [preorder]. split.
  - intros [<-|H]; [exists 0, (T j k s l); split; [constructor|auto]|]. apply in_flat_map in H as (y & Hy & H).
    rewrite Forall_forall in IH. apply (IH y Hy) in H as (n & x & H1 & H2). exists (S n), x. split; auto. econstructor; eauto.
  - intros (n & x & H1 & H2). inversion H1 as [t E1 E2 E3|n' t y x' Hy H3 E1 E2 E3]; subst; [left; auto|]. right. apply in_flat_map. exists y. split; auto.
    rewrite Forall_forall in IH. apply (IH y Hy). eauto.
Qed.

Lemma nodup_kid : forall t y, NoDup (preorder t) -> In y (t_kids t) -> NoDup (preorder y).
Proof.
  intros [i k s l] y H Hy. cbn [preorder t_kids] in *. inversion H as [|? ? H1 H2]; subst. clear H H1. induction l as [|a l IH]; [destruct Hy|].
  cbn [flat_map] in H2. apply nodup_app in H2 as (N1 & N2 & N3). destruct Hy as [->|Hy]; auto.
Qed.

Lemma same_in : forall l a b i, NoDup (ids l) -> In a l -> In b l -> In i (preorder a) -> In i (preorder b) -> a = b.
Proof.
  induction l as [|x l IH]; intros a b i H Ha Hb Ia Ib; [destruct Ha|]. cbn [ids flat_map] in H. apply nodup_app in H as (N1 & N2 & N3).
  assert (D : forall z, In z l -> In i (preorder z) -> ~ In i (preorder x)).
  { intros z Hz Iz K. apply (N3 i K). apply in_flat_map. eauto. }
  destruct Ha as [<-|Ha], Hb as [<-|Hb]; auto.
  - exfalso. eapply D; eauto.
  - exfalso. apply (D a); auto.
  - eapply IH; eauto.
Qed.

Lemma same_kid : forall t a b n m x, NoDup (preorder t) -> In a (t_kids t) -> In b (t_kids t) -> below n a x -> below m b x -> a = b.
Proof.
  intros [i k s l] a b n m x H Ha Hb B1 B2. cbn [preorder t_kids] in *. inversion H as [|? ? H1 H2]; subst.
  eapply (same_in l a b (t_id x)); eauto; apply in_pre; eauto.
Qed.

Lemma same_tree : forall t n m x y, NoDup (preorder t) -> below n t x -> below m t y -> t_id x = t_id y -> x = y.
Proof.
  intros t n m x y H Bx. revert m y H. induction Bx as [t|n t k x H1 H2 IH]; intros m y H By E.
  - inversion By as [? E1 E2 E3|n' ? z ? Hz H3 E1 E2 E3]; subst; auto. exfalso. destruct t as [i k s l]. cbn [preorder t_kids t_id] in *.
    inversion H as [|? ? K1 K2]; subst. apply K1. apply in_flat_map. exists z. split; auto. apply in_pre. exists n', y. auto.
  - inversion By as [? E1 E2 E3|n' ? z ? Hz H3 E1 E2 E3]; subst.
    + exfalso. destruct y as [i k' s l]. cbn [preorder t_kids t_id] in *.
      inversion H as [|? ? K1 K2]; subst. apply K1. apply in_flat_map. exists k. split; auto. apply in_pre. exists n, x. auto.
    + assert (k = z).
      { destruct t as [i k' s l]. cbn [preorder t_kids] in *. inversion H as [|? ? K1 K2]; subst.
        eapply (same_in l k z (t_id x)); eauto; apply in_pre; eauto. }
      subst z. eapply IH; eauto. eapply nodup_kid; eauto.
Qed.

(** ** Well-formed trees *)

Definition keys_first (l : list tree) : Prop :=
  exists l1 l2, l = l1 ++ l2 /\ (forall y, In y l1 -> t_key y = true) /\ (forall y, In y l2 -> t_key y = false).

Definition kleaf (t : tree) : Prop := forall n x, below n t x -> t_key x = true -> t_kids x = [].

Definition twf (t : tree) : Prop := forall n x, below n t x ->
    (t_key x = true -> t_kids x = []) /\ keys_first (t_kids x) /\
    (t_state x = true -> forall y, In y (t_kids x) -> t_state y = true) /\
    (forall y, In y (t_kids x) -> t_key y = true -> t_state y = t_state x).

Lemma twf_kid : forall t y, twf t -> In y (t_kids t) -> twf y.
Proof. intros t y H Hy n x Hx. apply (H (S n) x). econstructor; eauto. Qed.

Lemma twf_kleaf : forall t, twf t -> kleaf t.
Proof. intros t H n x Hx. apply (H n x Hx). Qed.

(** ** Depth *)

Definition dcond (d : N) (n : nat) (x : tree) : Prop :=
  (d = 0 \/ N.of_nat n <= d \/ (N.of_nat n = d + 1 /\ t_key x = true))%N.

Lemma in_pred : forall u d i, kleaf u ->
  (In i (pred u d) <-> exists n x, below n u x /\ t_id x = i /\ (N.of_nat n <= d \/ (N.of_nat n = d + 1 /\ t_key x = true))%N).
Proof.
  intros u. induction u as [j k s l IH] using tree_ind2. intros d i Hk. cbn [pred]. rewrite Forall_forall in IH.
  assert (Hk' : forall y, In y l -> kleaf y).
  { intros y Hy n x Hx. apply (Hk (S n) x). econstructor; eauto. }
  split.
  - intros [<-|H]; [exists 0, (T j k s l); split; [constructor|split; [auto|left; lia]]|]. apply in_app_or in H as [H|H].
    + apply in_map_iff in H as (y & <- & H). apply filter_In in H as [Hy Hky]. exists 1, y. split; [econstructor; [exact Hy|constructor]|].
      split; auto. destruct (N.eq_dec d 0) as [->|]; [right|left; lia]. split; [reflexivity|auto].
    + destruct (N.eqb_spec d 0) as [E|E]; [destruct H|]. apply in_flat_map in H as (y & Hy & H). destruct (t_key y); [destruct H|].
      apply (IH y Hy) in H as (n & x & H1 & H2 & H3); auto. exists (S n), x. split; [econstructor; eauto|]. split; auto.
      destruct H3 as [H3|[H3 H4]]; [left; lia|right; split; [lia|auto]].
  - intros (n & x & H1 & H2 & H3). inversion H1 as [? E1 E2 E3|n' ? y ? Hy H4 E1 E2 E3]; subst; [left; auto|]. right. cbn [t_kids] in Hy.
    apply in_or_app. destruct (t_key y) eqn:Ey.
    + left. assert (x = y).
      { inversion H4 as [? E1 E2 E3|n2 ? z ? Hz H5 E1 E2 E3]; subst; auto. rewrite (Hk' y Hy 0 y) in Hz; [destruct Hz|constructor|auto]. }
      subst y. apply in_map. apply filter_In. auto.
    + right. destruct (N.eqb_spec d 0) as [E|E].
      * exfalso. subst d. destruct n' as [|n']; [|lia]. inversion H4; subst. destruct H3 as [H3|[_ H3]]; [lia|congruence].
      * apply in_flat_map. exists y. split; auto. rewrite Ey. apply (IH y Hy); auto. exists n', x. split; auto. split; auto.
        destruct H3 as [H3|[H3 H5]]; [left; lia|right; split; [lia|auto]].
Qed.

(** ** Trimming and hiding *)

Inductive reach (G : tree -> Prop) : nat -> tree -> tree -> Prop :=
| reach_O : forall t, reach G 0 t t
| reach_S : forall n t k x, In k (t_kids t) -> G k -> reach G n k x -> reach G (S n) t x.

Lemma reach_below : forall G n t x, reach G n t x -> below n t x.
Proof. intros G n t x H. induction H; econstructor; eauto. Qed.

Lemma prune_same : forall h t, t_id (prune h t) = t_id t /\ t_key (prune h t) = t_key t.
Proof. intros h [i k s l]. auto. Qed.

Definition shown (h : N -> bool) (y : tree) : Prop := t_key y = true \/ h (t_id y) = false.

Lemma prune_kids : forall h t y', In y' (t_kids (prune h t)) <-> exists y, In y (t_kids t) /\ shown h y /\ y' = prune h y.
Proof.
  intros h [i k s l] y'. cbn [prune t_kids]. rewrite in_flat_map. split.
  - intros (y & Hy & H). exists y. split; auto. unfold shown. destruct (t_key y); cbn [negb andb] in H.
    + destruct H as [<-|[]]. auto.
    + destruct (h (t_id y)); [destruct H|]. destruct H as [<-|[]]. auto.
  - intros (y & Hy & [H|H] & ->); exists y; split; auto; rewrite H, ?andb_false_r; left; auto.
Qed.

Lemma below_prune : forall h n t x', below n (prune h t) x' <-> exists x, reach (shown h) n t x /\ x' = prune h x.
Proof.
  intros h n. induction n as [|n IH]; intros t x'; split.
  - intros H. inversion H; subst. exists t. split; [constructor|auto].
  - intros (x & H & ->). inversion H; subst. constructor.
  - intros H. inversion H as [|? ? y' ? Hy H1]; subst. apply prune_kids in Hy as (y & Hy & Hs & ->). apply IH in H1 as (x & H1 & ->).
    exists x. split; auto. econstructor; eauto.
  - intros (x & H & ->). inversion H as [|? ? y ? Hy Hs H1]; subst. apply below_S with (k := prune h y).
    + apply prune_kids. eauto.
    + apply IH. eauto.
Qed.

Lemma trim_r_some : forall o t, twf t -> (trim_r o t <> None <-> survives o t).
Proof.
  intros o t. induction t as [i k s l IH] using tree_ind2. intros Hw. rewrite Forall_forall in IH. cbn [trim_r]. unfold survives. cbn [t_key t_state].
  destruct k; [split; [auto|discriminate]|]. destruct s.
  - destruct (no_state o); split; try congruence; auto.
    + intros [H|[[_ H]|[H _]]]; discriminate.
  - set (l' := flat_map (fun x => if t_key x then [x] else match trim_r o x with Some y => [y] | None => [] end) l).
    assert (E : existsb (fun x => negb (t_key x)) l' = true <-> exists y, In y l /\ t_key y = false /\ survives o y).
    { rewrite existsb_exists. split.
      - intros (y' & H1 & H2). unfold l' in H1. apply in_flat_map in H1 as (y & Hy & H1). destruct (t_key y) eqn:Ek.
        + destruct H1 as [<-|[]]. rewrite Ek in H2. discriminate.
        + exists y. split; auto. split; auto. apply (IH y Hy); [eapply twf_kid; eauto|]. destruct (trim_r o y); [discriminate|destruct H1].
      - intros (y & Hy & Ek & Hs). apply (IH y Hy) in Hs; [|eapply twf_kid; eauto]. destruct (trim_r o y) as [y'|] eqn:Et; [|congruence].
        exists y'. split; [unfold l'; apply in_flat_map; exists y; split; auto; rewrite Ek, Et; left; auto|].
        apply trim_r_same in Et as (_ & E & _). rewrite E, Ek. auto. }
    destruct (no_config o) eqn:En; cbn [andb].
    + destruct (existsb (fun x => negb (t_key x)) l') eqn:Ex; cbn [negb].
      * split; [|discriminate]. intros _. right. right. split; auto. right. destruct (proj1 E eq_refl) as (y & Hy & Ek & Hs).
        destruct Hs as [Hs|[[Hs1 Hs2]|[Hs1 [Hs2|(n & z & Hz & K1 & K2 & K3)]]]]; [congruence| |congruence|].
        -- exists 1, y. split; auto. econstructor; [exact Hy|constructor].
        -- exists (S n), z. split; auto. econstructor; eauto.
      * split; [congruence|]. intros H. exfalso.
        destruct H as [H|[[H _]|[_ [H|(n & z & Hz & K1 & K2 & K3)]]]]; try discriminate.
        inversion Hz as [|n' ? y ? Hy Hz']; subst; [discriminate|]. cbn [t_kids] in Hy.
        assert (X : false = true); [|discriminate]. apply E. exists y. split; auto.
        assert (Ek : t_key y = false).
        { destruct (t_key y) eqn:Ek; auto. exfalso. assert (t_kids y = []) by (apply (Hw 1 y); auto; econstructor; [exact Hy|constructor]).
          inversion Hz' as [|? ? w ? Hw']; subst; [congruence|]. rewrite H in Hw'. destruct Hw'. }
        split; auto. destruct (t_state y) eqn:Es; [right; left; auto|]. right. right. split; auto. right. exists n', z. auto.
    + split; [|discriminate]. intros _. right. right. split; auto.
Qed.

Lemma survives_none : forall o y, no_state o = false -> no_config o = false -> survives o y.
Proof.
  intros o y E1 E2. destruct (t_state y) eqn:Es; right; [left; auto|right; auto].
Qed.

Lemma trim_some : forall o t, twf t -> (trim o t <> None <-> survives o t).
Proof.
  intros o t Hw. unfold trim. destruct (no_state o || no_config o) eqn:E; [apply trim_r_some; auto|].
  apply orb_false_iff in E as [E1 E2]. split; [intros _; apply survives_none; auto|discriminate].
Qed.

(** Children of the trimmed node are the trimmed children that survive. *)
Lemma trim_kids : forall o t t' y', twf t -> trim o t = Some t' ->
  (In y' (t_kids t') <-> exists y, In y (t_kids t) /\ trim o y = Some y').
Proof.
  intros o t t' y' Hw H. unfold trim in *. destruct (no_state o || no_config o) eqn:E.
  - destruct t as [i k s l]. cbn [trim_r] in H. destruct k.
    + injection H as <-. assert (El : l = []) by (apply (Hw 0 (T i true s l)); [constructor|auto]). subst l. cbn [t_kids].
      split; [intros []|intros (y & [] & _)].
    + destruct s.
      * destruct (no_state o) eqn:Es; [discriminate|]. injection H as <-. cbn [t_kids].
        assert (Hy : forall y, In y l -> trim_r o y = Some y).
        { intros y Hy. assert (Hs : t_state y = true) by (destruct (Hw 0 (T i false true l) (below_O _)) as (_ & _ & X & _); apply (X eq_refl y Hy)).
          destruct y as [i' k' s' l']. cbn [t_state] in Hs. subst s'. cbn [trim_r]. destruct k'; auto. rewrite Es. auto. }
        split; [intros H; exists y'; auto|]. intros (y & H1 & H2). rewrite (Hy y H1) in H2. injection H2 as <-. auto.
      * match type of H with context [if ?b then _ else _] => destruct b end; [discriminate|]. injection H as <-. cbn [t_kids].
        rewrite in_flat_map. split.
        -- intros (y & Hy & H). exists y. split; auto. destruct (t_key y) eqn:Ek.
           ++ destruct H as [<-|[]]. destruct y as [i' k' s' l']. cbn [t_key] in Ek. subst k'. reflexivity.
           ++ destruct (trim_r o y); [|destruct H]. destruct H as [<-|[]]. auto.
        -- intros (y & Hy & H). exists y. split; auto. destruct (t_key y) eqn:Ek.
           ++ destruct y as [i' k' s' l']. cbn [t_key] in Ek. subst k'. cbn [trim_r] in H. injection H as <-. left. auto.
           ++ rewrite H. left. auto.
  - injection H as <-. split; [intros H; eauto|]. intros (y & H & K). injection K as <-. auto.
Qed.

Lemma reach_trim : forall o h n t t' x', twf t -> trim o t = Some t' ->
  (reach (shown h) n t' x' <-> exists x, reach (fun y => shown h y /\ survives o y) n t x /\ trim o x = Some x').
Proof.
  intros o h n. induction n as [|n IH]; intros t t' x' Hw Ht; split.
  - intros H. inversion H; subst. exists t. split; [constructor|auto].
  - intros (x & H & E). inversion H; subst. rewrite Ht in E. injection E as <-. constructor.
  - intros H. inversion H as [|? ? y' ? Hy Hs H1]; subst. apply (trim_kids o t t' y' Hw Ht) in Hy as (y & Hy & Et).
    apply (IH y y' x' (twf_kid t y Hw Hy) Et) in H1 as (x & H1 & E). exists x. split; auto. econstructor; eauto. split.
    + apply trim_same in Et as (T1 & T2 & _). unfold shown in *. rewrite T1, T2 in Hs. auto.
    + apply trim_some; [eapply twf_kid; eauto|congruence].
  - intros (x & H & E). inversion H as [|? ? y ? Hy [Hs Hv] H1]; subst.
    apply trim_some in Hv; [|eapply twf_kid; eauto]. destruct (trim o y) as [y'|] eqn:Et; [|congruence].
    apply reach_S with (k := y').
    + apply (trim_kids o t t' y' Hw Ht). eauto.
    + apply trim_same in Et as (T1 & T2 & _). unfold shown. rewrite T1, T2. auto.
    + apply (IH y y' x' (twf_kid t y Hw Hy) Et). eauto.
Qed.

Definition kept (k : ctl) (y : tree) : Prop := shown (c_hide k) y /\ survives (c_opts k) y.

Lemma in_body : forall k t t' i, twf t -> trim (c_opts k) t = Some t' ->
  (In i (body k t') <-> exists n x, reach (kept k) n t x /\ t_id x = i /\ dcond (c_depth k) n x).
Proof.
  intros k t t' i Hw Ht. set (u := prune (c_hide k) t').
  assert (X : forall (P : nat -> tree -> Prop), (forall n x y, t_key x = t_key y -> P n x -> P n y) ->
    ((exists n x, below n u x /\ t_id x = i /\ P n x) <-> (exists n x, reach (kept k) n t x /\ t_id x = i /\ P n x))).
  { intros P HP. split.
    - intros (n & x2 & H1 & H2 & H3). apply below_prune in H1 as (x1 & H1 & ->). apply (reach_trim _ _ _ _ _ _ Hw Ht) in H1 as (x & H1 & E).
      apply trim_same in E as (T1 & T2 & _). destruct (prune_same (c_hide k) x1) as [P1 P2]. exists n, x. split; auto. split; [congruence|].
      eapply HP; [|exact H3]. congruence.
    - intros (n & x & H1 & H2 & H3).
      assert (H4 : trim (c_opts k) x <> None).
      { destruct n as [|n]; [inversion H1; subst; congruence|]. apply trim_some.
        - intros m z Hz. apply reach_below in H1. apply (Hw (S n + m) z). eapply below_trans; eauto.
        - clear - H1. remember (S n) as m. assert (Hm : m <> 0) by lia. clear n Heqm. induction H1 as [|m t y x Hy Hk H1 IH]; [congruence|].
          destruct m as [|m]; [inversion H1; subst; apply Hk|apply IH; auto]. }
      destruct (trim (c_opts k) x) as [x1|] eqn:E; [|congruence].
      assert (R : reach (shown (c_hide k)) n t' x1) by (apply (reach_trim _ _ _ _ _ _ Hw Ht); eauto).
      apply trim_same in E as (T1 & T2 & _). destruct (prune_same (c_hide k) x1) as [P1 P2].
      exists n, (prune (c_hide k) x1). split; [apply below_prune; eauto|]. split; [congruence|].
      eapply HP; [|exact H3]. congruence. }
  unfold body, dcond. fold u. destruct (N.eqb_spec (c_depth k) 0) as [E|E].
  - rewrite in_pre. rewrite <- (X (fun n x => c_depth k = 0%N \/ (N.of_nat n <= c_depth k)%N \/ ((N.of_nat n = c_depth k + 1)%N /\ t_key x = true))).
    + split; intros (n & x & H1 & H2); exists n, x; [auto|destruct H2; auto].
    + intros n x y Ek _. auto.
  - rewrite in_pred.
    + rewrite <- (X (fun n x => c_depth k = 0%N \/ (N.of_nat n <= c_depth k)%N \/ ((N.of_nat n = c_depth k + 1)%N /\ t_key x = true))).
      * split; intros (n & x & H1 & H2 & H3); exists n, x; split; auto; split; auto. destruct H3 as [H3|H3]; [congruence|auto].
      * intros n x y Ek [H|[H|[H1 H2]]]; auto. right. right. split; congruence.
    + intros n x2 H1 Hk. apply below_prune in H1 as (x1 & H1 & ->). apply (reach_trim _ _ _ _ _ _ Hw Ht) in H1 as (x & H1 & Et).
      destruct (prune_same (c_hide k) x1) as [P1 P2]. pose proof (trim_same _ _ _ Et) as (T1 & T2 & _).
      assert (Kx : t_kids x = []) by (apply (Hw n x); [eapply reach_below; eauto|congruence]).
      destruct (t_kids (prune (c_hide k) x1)) as [|w ws] eqn:Ew; auto. exfalso.
      assert (Hw' : In w (t_kids (prune (c_hide k) x1))) by (rewrite Ew; left; auto).
      apply prune_kids in Hw' as (y & Hy & _). apply (trim_kids (c_opts k) x x1) in Hy as (z & Hz & _); auto.
      * rewrite Kx in Hz. destruct Hz.
      * intros m z Hz. apply reach_below in H1. apply (Hw (n + m) z). eapply below_trans; eauto.
Qed.

(** ** Emitted nodes *)

Section em.
Variable k : ctl.
Variable sel : N -> bool.

Inductive proot : tree -> tree -> Prop :=
| pr_here : forall t, sel (t_id t) = true -> (t_key t = false -> c_deny k (t_id t) = false) -> survives (c_opts k) t -> proot t t
| pr_kid : forall t y r, sel (t_id t) = false -> c_deny k (t_id t) = false -> In y (t_kids t) -> proot y r -> proot t r.

Inductive ret : tree -> tree -> Prop :=
| ret_body : forall t n x, sel (t_id t) = true -> c_deny k (t_id t) = false -> survives (c_opts k) t -> t_key t = false ->
    reach (kept k) n t x -> dcond (c_depth k) n x -> ret t x
| ret_self : forall t y r, sel (t_id t) = false -> c_deny k (t_id t) = false -> In y (t_kids t) -> proot y r -> ret t t
| ret_key : forall t y r x, sel (t_id t) = false -> c_deny k (t_id t) = false -> In y (t_kids t) -> proot y r ->
    In x (t_kids t) -> t_key x = true -> ret t x
| ret_kid : forall t y x, sel (t_id t) = false -> c_deny k (t_id t) = false -> In y (t_kids t) -> ret y x -> ret t x.

Lemma ret_proot : forall t x, ret t x -> exists r, proot t r.
Proof.
  intros t x H. induction H as [t n x H1 H2 H3 H4 H5 H6|t y r H1 H2 H3 H4|t y r x H1 H2 H3 H4 H5 H6|t y x H1 H2 H3 H4 [r IH]].
  - exists t. apply pr_here; auto.
  - exists r. apply pr_kid with y; auto.
  - exists r. apply pr_kid with y; auto.
  - exists r. apply pr_kid with y; auto.
Qed.

Lemma em_alive : forall t dn, twf t -> (is_none (em k sel dn t) = false <-> dn = false /\ exists r, proot t r).
Proof.
  intros t. induction t as [i key s l IH] using tree_ind2. intros dn Hw. rewrite Forall_forall in IH. cbn [em]. set (t := T i key s l) in *.
  destruct (sel i) eqn:Es.
  - assert (Hs := trim_some (c_opts k) t Hw). destruct (trim (c_opts k) t) as [t'|] eqn:Et.
    + assert (Sv : survives (c_opts k) t) by (apply Hs; congruence).
      destruct dn; cbn [orb is_none]; [split; [discriminate|intros [? _]; discriminate]|].
      destruct (negb key && c_deny k i) eqn:Ed; cbn [is_none].
      * split; [discriminate|]. intros [_ [r H]]. inversion H; subst; cbn [t t_id t_key] in *; [|congruence].
        apply andb_true_iff in Ed as [E1 E2]. apply negb_true_iff in E1. rewrite H1 in E2; congruence.
      * split; [|auto]. intros _. split; auto. exists t. apply pr_here; auto. cbn [t t_id t_key]. intros Ek. rewrite Ek in Ed. auto.
    + cbn [is_none]. split; [discriminate|]. intros [_ [r H]]. inversion H; subst; cbn [t t_id] in *; [|congruence]. apply Hs in H2. congruence.
  - assert (F : forallb is_none (map (em k sel (dn || c_deny k i)) l) = false <-> exists y, In y l /\ is_none (em k sel (dn || c_deny k i) y) = false).
    { clear. induction l as [|y l IHl]; cbn [map forallb]; [split; [discriminate|intros (y & [] & _)]|]. rewrite andb_false_iff, IHl. split.
      - intros [H|(z & H1 & H2)]; [exists y; split; [left|]; auto|exists z; split; [right|]; auto].
      - intros (z & [<-|H1] & H2); eauto. }
    destruct (forallb is_none (map (em k sel (dn || c_deny k i)) l)) eqn:E; cbn [is_none].
    + split; [discriminate|]. intros [-> [r H]]. inversion H as [|? y ? K1 K2 K3 K4]; subst; cbn [t t_id] in *; [congruence|].
      assert (X : true = false); [|discriminate]. apply F. exists y. split; auto. apply (IH y K3); [eapply twf_kid; eauto|].
      rewrite K2. split; eauto.
    + split; [|auto]. intros _. destruct (proj1 F eq_refl) as (y & Hy & H). apply (IH y Hy) in H as [H [r Hr]]; [|eapply twf_kid; eauto].
      apply orb_false_iff in H as [-> H]. split; auto. exists r. apply pr_kid with y; auto.
Qed.

Lemma em_in : forall t i, twf t -> (In i (unwrap (em k sel false t)) <-> exists x, ret t x /\ t_id x = i).
Proof.
  intros t. induction t as [j key s l IH] using tree_ind2. intros i Hw. rewrite Forall_forall in IH. cbn [em]. set (t := T j key s l) in *.
  destruct (sel j) eqn:Es.
  - assert (Hs := trim_some (c_opts k) t Hw). destruct (trim (c_opts k) t) as [t'|] eqn:Et.
    + assert (Sv : survives (c_opts k) t) by (apply Hs; congruence). cbn [orb].
      destruct (negb key && c_deny k j) eqn:Ed; cbn [unwrap].
      * split; [intros []|]. intros (x & H & _). apply andb_true_iff in Ed as [E1 E2].
        inversion H; subst; cbn [t t_id] in *; congruence.
      * destruct key.
        -- split; [intros []|]. intros (x & H & _). inversion H; subst; cbn [t t_id t_key] in *; congruence.
        -- cbn [negb andb] in Ed. rewrite (in_body k t t' i Hw Et). split.
           ++ intros (n & x & H1 & H2 & H3). exists x. split; auto. apply ret_body with n; auto.
           ++ intros (x & H & Ei). inversion H; subst; cbn [t t_id t_key] in *; try congruence. exists n, x. auto.
    + cbn [unwrap]. split; [intros []|]. intros (x & H & _). inversion H; subst; cbn [t t_id] in *; try congruence. apply Hs in H2. congruence.
  - cbn [orb]. destruct (c_deny k j) eqn:Ed.
    + assert (F : forallb is_none (map (em k sel true) l) = true).
      { apply forallb_forall. intros e He. apply in_map_iff in He as (y & <- & Hy). destruct (is_none (em k sel true y)) eqn:E; auto.
        apply em_alive in E as [E _]; [discriminate|]. eapply (twf_kid t); eauto. }
      rewrite F. cbn [unwrap]. split; [intros []|]. intros (x & H & _). inversion H; subst; cbn [t t_id] in *; congruence.
    + assert (A : forallb is_none (map (em k sel false) l) = false <-> exists y r, In y l /\ proot y r).
      { split.
        - intros H. assert (exists y, In y l /\ is_none (em k sel false y) = false) as (y & Hy & E).
          { clear - H. induction l as [|y l IHl]; cbn [map forallb] in H; [discriminate|]. apply andb_false_iff in H as [H|H].
            - exists y. split; [left|]; auto.
            - destruct (IHl H) as (z & ? & ?). exists z. split; [right|]; auto. }
          apply em_alive in E as [_ [r Hr]]; [eauto|eapply (twf_kid t); eauto].
        - intros (y & r & Hy & Hr). apply not_true_is_false. intros K. rewrite forallb_forall in K.
          specialize (K _ (in_map _ _ _ Hy)). assert (E : is_none (em k sel false y) = false) by (apply em_alive; [eapply (twf_kid t); eauto|eauto]).
          congruence. }
      destruct (forallb is_none (map (em k sel false) l)) eqn:E; cbn [unwrap].
      * split; [intros []|]. intros (x & H & _). apply ret_proot in H as [r H]. inversion H as [|? y ? K1 K2 K3 K4]; subst; cbn [t t_id] in *; [congruence|].
        assert (X : true = false); [|discriminate]. apply A. eauto.
      * destruct (proj1 A eq_refl) as (y0 & r0 & Hy0 & Hr0). split.
        -- intros [<-|H]; [exists t; split; auto; apply ret_self with y0 r0; auto|]. apply in_app_or in H as [H|H].
           ++ apply in_map_iff in H as (x & <- & H). apply filter_In in H as [Hx Hk]. exists x. split; auto. apply ret_key with y0 r0; auto.
           ++ apply in_flat_map in H as (e & He & H). apply in_map_iff in He as (y & <- & Hy). apply (IH y Hy) in H as (x & H & Ei); [|eapply (twf_kid t); eauto].
              exists x. split; auto. apply ret_kid with y; auto.
        -- intros (x & H & <-). inversion H as [? n ? K1 K2 K3 K4 K5 K6|? y r K1 K2 K3 K4|? y r ? K1 K2 K3 K4 K5 K6|? y ? K1 K2 K3 K4]; subst; cbn [t t_id t_kids] in *; try congruence.
           ++ left. auto.
           ++ right. apply in_or_app. left. apply in_map. apply filter_In. auto.
           ++ right. apply in_or_app. right. apply in_flat_map. exists (em k sel false y). split; [apply in_map; auto|].
              apply (IH y K3); eauto. eapply (twf_kid t); eauto.
Qed.

(** ** The specification *)

Lemma reach_iff : forall r n x, NoDup (preorder r) ->
  (reach (kept k) n r x <-> below n r x /\
     forall y m j, below (S m) r y -> below j y x -> t_key y = false -> c_hide k (t_id y) = false /\ survives (c_opts k) y).
Proof.
  intros r n x Hnd. split.
  - intros H. split; [eapply reach_below; eauto|]. revert Hnd. induction H as [t|n t y x Hy Hk H IH]; intros Hnd z m j Hz Hzx Ek.
    + exfalso. apply below_tsize in Hz as [_ Hz]. apply below_tsize in Hzx as [Hzx _]. specialize (Hz ltac:(auto)). lia.
    + inversion Hz as [|? ? w ? Hw Hwz]; subst.
      assert (y = w) by (eapply (same_kid t y w n (m + j) x); eauto; [eapply reach_below; eauto|eapply below_trans; eauto]). subst w.
      destruct m as [|m].
      * inversion Hwz; subst. destruct Hk as [[Hk|Hk] Hs]; [congruence|auto].
      * apply (IH (nodup_kid t y Hnd Hy) z m j); auto.
  - intros [H G]. revert Hnd G. induction H as [t|n t y x Hy H IH]; intros Hnd G; [constructor|]. apply reach_S with y; auto.
    + unfold kept, shown. destruct (t_key y) eqn:Ek; [split; [auto|left; auto]|].
      destruct (G y 0 n) as [G1 G2]; auto. econstructor; [exact Hy|constructor].
    + apply IH; [eapply nodup_kid; eauto|]. intros z m j Hz Hzx. apply (G z (S m) j); auto. econstructor; eauto.
Qed.

Lemma proot_iff : forall t r, NoDup (preorder t) ->
  (proot t r <-> exists n, below n t r /\ sel (t_id r) = true /\
     (forall a m j, below m t a -> below (S j) a r -> sel (t_id a) = false /\ c_deny k (t_id a) = false) /\
     (t_key r = false -> c_deny k (t_id r) = false) /\ survives (c_opts k) r).
Proof.
  intros t r Hnd. split.
  - intros H. revert Hnd. induction H as [t H1 H2 H3|t y r H1 H2 H3 H4 IH]; intros Hnd.
    + exists 0. split; [constructor|]. split; auto. split; auto. intros a m j Ha Hr. exfalso.
      apply below_tsize in Ha as [Ha _]. apply below_tsize in Hr as [_ Hr]. specialize (Hr ltac:(auto)). lia.
    + destruct (IH (nodup_kid t y Hnd H3)) as (n & B & S1 & P & D & Sv). exists (S n). split; [econstructor; eauto|]. split; auto. split; auto.
      intros a m j Ha Hr. inversion Ha as [|m' ? w ? Hw Hwa]; subst; [auto|].
      assert (y = w) by (eapply (same_kid t y w n (m' + S j) r); eauto; eapply below_trans; eauto). subst w. eauto.
  - intros (n & B & S1 & P & D & Sv). induction B as [t|n t y r Hy B IH].
    + apply pr_here; auto.
    + destruct (P t 0 n) as [P1 P2]; [constructor|econstructor; eauto|]. apply pr_kid with y; auto. apply IH; auto.
      * eapply nodup_kid; eauto.
      * intros a m j Ha Hr. apply (P a (S m) j); auto. econstructor; eauto.
Qed.

Definition retspec (t x r : tree) : Prop :=
  (exists m j, below m t x /\ below j x r /\ (j <> 0 \/ t_key r = false)) \/
  (t_key x = true /\ exists a m j, below m t a /\ In x (t_kids a) /\ below (S j) a r) \/
  (t_key r = false /\ exists n, reach (kept k) n r x /\ dcond (c_depth k) n x).

Lemma proot_below : forall t r, proot t r -> exists n, below n t r.
Proof. intros t r H. induction H as [t H1 H2 H3|t y r H1 H2 H3 H4 [n IH]]; [exists 0; constructor|exists (S n); econstructor; eauto]. Qed.

Lemma ret_iff : forall t x, NoDup (preorder t) -> (ret t x <-> exists r, proot t r /\ retspec t x r).
Proof.
  intros t x Hnd. split.
  - intros H. induction H as [t n x H1 H2 H3 H4 H5 H6|t y r H1 H2 H3 H4|t y r x H1 H2 H3 H4 H5 H6|t y x H1 H2 H3 H4 IH].
    + exists t. split; [apply pr_here; auto|]. right. right. split; eauto.
    + exists r. split; [apply pr_kid with y; auto|]. destruct (proot_below _ _ H4) as [n B]. left. exists 0, (S n). split; [constructor|].
      split; [econstructor; eauto|left; auto].
    + exists r. split; [apply pr_kid with y; auto|]. destruct (proot_below _ _ H4) as [n B]. right. left. split; auto. exists t, 0, n.
      split; [constructor|]. split; auto. apply below_S with y; auto.
    + destruct (IH (nodup_kid t y Hnd H3)) as (r & R & Sp). exists r. split; [apply pr_kid with y; auto|].
      destruct Sp as [(m & j & X1 & X2 & X3)|[(Ek & a & m & j & X1 & X2 & X3)|X]].
      * left. exists (S m), j. split; [econstructor; eauto|auto].
      * right. left. split; auto. exists a, (S m), j. split; [econstructor; eauto|auto].
      * right. right. auto.
  - intros (r & R & Sp). revert Hnd Sp. induction R as [t H1 H2 H3|t y r H1 H2 H3 H4 IH]; intros Hnd Sp.
    + destruct Sp as [(m & j & X1 & X2 & X3)|[(Ek & a & m & j & X1 & X2 & X3)|(Ek & n & X1 & X2)]].
      * assert (m = 0 /\ j = 0) as [-> ->].
        { apply below_tsize in X1 as [Y1 Y2]. apply below_tsize in X2 as [Z1 Z2]. split.
          - destruct m; auto. specialize (Y2 ltac:(auto)). lia.
          - destruct j; auto. specialize (Z2 ltac:(auto)). lia. }
        inversion X1; subst. destruct X3 as [X3|X3]; [congruence|]. apply ret_body with 0; auto; [constructor|]. right. left. lia.
      * exfalso. apply below_tsize in X1 as [Y1 _]. apply below_tsize in X3 as [_ Y2]. specialize (Y2 ltac:(auto)). lia.
      * apply ret_body with n; auto.
    + destruct (proot_below _ _ H4) as [nr Br].
      destruct Sp as [(m & j & X1 & X2 & X3)|[(Ek & a & m & j & X1 & X2 & X3)|X]].
      * inversion X1 as [|m' ? w ? Hw Hwx]; subst; [apply ret_self with y r; auto|].
        assert (y = w) by (eapply (same_kid t y w nr (m' + j) r); eauto; eapply below_trans; eauto). subst w.
        apply ret_kid with y; auto. apply IH; [eapply nodup_kid; eauto|]. left. eauto.
      * inversion X1 as [|m' ? w ? Hw Hwa]; subst; [apply ret_key with y r; auto|].
        assert (y = w) by (eapply (same_kid t y w nr (m' + S j) r); eauto; eapply below_trans; eauto). subst w.
        apply ret_kid with y; auto. apply IH; [eapply nodup_kid; eauto|]. right. left. split; auto. exists a, m', j. auto.
      * apply ret_kid with y; auto. apply IH; [eapply nodup_kid; eauto|]. right. right. auto.
Qed.

End em.
