(** Every returned node is put below a copy of its parent. *)
From Coq Require Import NArith List Bool Arith Lia.
From Verif Require Import GetData GetDataSpec GetDataProofs GetDataIn.
Import ListNotations.

Section parents.
Variable f : list tree.

Definition parok (s : store) (par : option nat) (n : N) : Prop :=
  match par with
  | None => parent f n None
  | Some q => exists m r, nth_error s q = Some (m, r) /\ parent f n (Some m)
  end.

Definition okS (s : store) : Prop := forall p n q, nth_error s p = Some (n, q) -> parok (firstn p s) q n.

Lemma nth_app : forall (A : Type) (s s2 : list A) q x, nth_error s q = Some x -> nth_error (s ++ s2) q = Some x.
Proof. intros A s s2 q x H. rewrite nth_error_app1; auto. apply nth_error_Some. congruence. Qed.

Lemma parok_app : forall s s2 par n, parok s par n -> parok (s ++ s2) par n.
Proof. intros s s2 [q|] n H; [|auto]. destruct H as (m & r & H1 & H2). exists m, r. split; auto. apply nth_app. auto. Qed.

Lemma okS_snoc : forall s par n, okS s -> parok s par n -> okS (s ++ [(n, par)]).
Proof.
  intros s par n H P p m q E. destruct (Nat.lt_ge_cases p (length s)) as [L|L].
  - rewrite nth_error_app1 in E by auto. rewrite firstn_app. replace (p - length s) with 0 by lia. cbn [firstn]. rewrite app_nil_r. auto.
  - rewrite nth_error_app2 in E by auto. destruct (p - length s) as [|j] eqn:Ej; [|destruct j; discriminate]. cbn [nth_error] in E.
    injection E as <- <-. replace p with (length s) by lia. rewrite firstn_app, firstn_all, Nat.sub_diag. cbn [firstn]. rewrite app_nil_r. auto.
Qed.

Definition edges (u : tree) : Prop := forall n a x, below n u a -> In x (t_kids a) -> parent f (t_id x) (Some (t_id a)).

Lemma edges_kid : forall u y, edges u -> In y (t_kids u) -> edges y.
Proof. intros u y H Hy n a x Ha. apply (H (S n)). econstructor; eauto. Qed.

Lemma okS_map : forall l s p, okS s -> (forall x, In x l -> parok s p (t_id x)) -> okS (s ++ map (fun x => (t_id x, p)) l).
Proof.
  intros l. induction l as [|x l IH]; intros s p H K; cbn [map]; [rewrite app_nil_r; auto|].
  change ((t_id x, p) :: map (fun x => (t_id x, p)) l) with ([(t_id x, p)] ++ map (fun x => (t_id x, p)) l). rewrite app_assoc. apply IH.
  - apply okS_snoc; auto. apply K. left. auto.
  - intros y Hy. apply parok_app. apply K. right. auto.
Qed.

Lemma dup_one_ok : forall t par s, okS s -> parok s par (t_id t) -> edges t -> okS (dup_one t par s).
Proof.
  intros t par s H P E. unfold dup_one.
  change ((t_id t, par) :: map (fun k => (t_id k, Some (length s))) (filter t_key (t_kids t)))
    with ([(t_id t, par)] ++ map (fun k => (t_id k, Some (length s))) (filter t_key (t_kids t))).
  rewrite app_assoc. apply okS_map; [apply okS_snoc; auto|]. intros x Hx. apply filter_In in Hx as [Hx _].
  exists (t_id t), par. split; [rewrite nth_error_app2, Nat.sub_diag; auto|]. apply (E 0 t x); [constructor|auto].
Qed.

Lemma dup_one_at : forall t par s, nth_error (dup_one t par s) (length s) = Some (t_id t, par).
Proof. intros. unfold dup_one. rewrite nth_error_app2, Nat.sub_diag; auto. Qed.

Definition ext (s s' : store) : Prop := exists s2, s' = s ++ s2.

Lemma ext_refl : forall s, ext s s.
Proof. intros s. exists []. rewrite app_nil_r. auto. Qed.

Lemma ext_trans : forall a b c, ext a b -> ext b c -> ext a c.
Proof. intros a b c [x ->] [y ->]. exists (x ++ y). rewrite app_assoc. auto. Qed.

Lemma ext_parok : forall s s' par n, ext s s' -> parok s par n -> parok s' par n.
Proof. intros s s' par n [x ->]. apply parok_app. Qed.

Lemma ext_one : forall t par s, ext s (dup_one t par s).
Proof. intros. eexists. reflexivity. Qed.

Lemma dup_all_ok : forall t par s, okS s -> parok s par (t_id t) -> edges t -> okS (dup_all t par s) /\ ext s (dup_all t par s).
Proof.
  intros t. induction t as [i k st l IH] using tree_ind2. intros par s H P E. cbn [dup_all]. rewrite Forall_forall in IH.
  assert (X : forall l0 s0, incl l0 l -> okS s0 -> nth_error s0 (length s) = Some (i, par) ->
    okS (fold_left (fun s' x => dup_all x (Some (length s)) s') l0 s0) /\ ext s0 (fold_left (fun s' x => dup_all x (Some (length s)) s') l0 s0)).
  { intros l0. induction l0 as [|x l0 IHl]; intros s0 Hi H0 N0; cbn [fold_left]; [split; [auto|apply ext_refl]|].
    destruct (IH x (Hi x (or_introl eq_refl)) (Some (length s)) s0 H0) as [O1 E1].
    - exists i, par. split; auto. apply (E 0 (T i k st l) x); [constructor|apply Hi; left; auto].
    - apply (edges_kid (T i k st l)); auto. apply Hi. left. auto.
    - destruct (IHl (dup_all x (Some (length s)) s0)) as [O2 E2]; auto.
      + intros y Hy. apply Hi. right. auto.
      + destruct E1 as [z ->]. apply nth_app. auto.
      + split; auto. eapply ext_trans; eauto. }
  destruct (X l (s ++ [(i, par)]) (incl_refl l)) as [O1 E1].
  - apply okS_snoc; auto.
  - rewrite nth_error_app2, Nat.sub_diag; auto.
  - split; auto. eapply ext_trans; [|exact E1]. eexists. reflexivity.
Qed.

Lemma dup_depth_ok : forall t d par s, okS s -> parok s par (t_id t) -> edges t -> okS (dup_depth t d par s) /\ ext s (dup_depth t d par s).
Proof.
  intros t. induction t as [i k st l IH] using tree_ind2. intros d par s H P E. cbn [dup_depth]. rewrite Forall_forall in IH.
  destruct (N.eqb d 0); [split; [apply dup_one_ok; auto|apply ext_one]|].
  set (g := fun s' x => if t_key x then s' else dup_depth x (N.pred d) (Some (length s)) s').
  assert (X : forall l0 s0, incl l0 l -> okS s0 -> nth_error s0 (length s) = Some (i, par) ->
    okS (fold_left g l0 s0) /\ ext s0 (fold_left g l0 s0)).
  { intros l0. induction l0 as [|x l0 IHl]; intros s0 Hi H0 N0; cbn [fold_left]; [split; [auto|apply ext_refl]|].
    assert (O1 : okS (g s0 x) /\ ext s0 (g s0 x)).
    { unfold g. destruct (t_key x); [split; [auto|apply ext_refl]|].
      apply (IH x (Hi x (or_introl eq_refl))); auto.
      - exists i, par. split; auto. apply (E 0 (T i k st l) x); [constructor|apply Hi; left; auto].
      - apply (edges_kid (T i k st l)); auto. apply Hi. left. auto. }
    destruct O1 as [O1 E1]. destruct (IHl (g s0 x)) as [O2 E2]; auto.
    + intros y Hy. apply Hi. right. auto.
    + destruct E1 as [z ->]. apply nth_app. auto.
    + split; auto. eapply ext_trans; eauto. }
  destruct (X l (dup_one (T i k st l) par s) (incl_refl l)) as [O1 E1].
  - apply dup_one_ok; auto.
  - apply dup_one_at.
  - split; auto. eapply ext_trans; [apply ext_one|exact E1].
Qed.

(** ** Parents of a result *)

Fixpoint chainp (n : N) (c : list tree) : Prop :=
  match c with
  | [] => parent f n None
  | a :: c' => parent f n (Some (t_id a)) /\ edges a /\ chainp (t_id a) c'
  end.

Definition okH (s : store) (h : ht) : Prop := forall n r, ht_find h n = Some r -> exists q, nth_error s r = Some (n, q).

Lemma okH_ext : forall s s' h, ext s s' -> okH s h -> okH s' h.
Proof. intros s s' h [x ->] H n r E. destruct (H n r E) as [q K]. exists q. apply nth_app. auto. Qed.

Lemma dup_parents_snoc : forall l a par s h s' par' h', dup_parents l par s h = (s', par', h') ->
  dup_parents (l ++ [a]) par s h = (dup_one a par' s', Some (length s'), (t_id a, length s') :: h').
Proof.
  intros l. induction l as [|b l IH]; intros a par s h s' par' h' H; cbn [app dup_parents] in *.
  - injection H as <- <- <-. auto.
  - apply IH. auto.
Qed.

Lemma locate_par : forall s h c, okS s -> okH s h -> forall n s' par' h', chainp n c ->
  dup_parents (rev (fst (locate h c))) (snd (locate h c)) s h = (s', par', h') ->
  okS s' /\ okH s' h' /\ parok s' par' n.
Proof.
  intros s h c Hs Hh. induction c as [|a c IH]; intros n s' par' h' Hc H; cbn [locate] in H.
  - cbn [fst snd rev dup_parents] in H. injection H as <- <- <-. auto.
  - destruct Hc as (P & E & Hc). destruct (ht_find h (t_id a)) as [r|] eqn:Ef; cbn [fst snd rev] in H.
    + cbn [dup_parents] in H. injection H as <- <- <-. split; auto. split; auto. destruct (Hh _ _ Ef) as [q K]. exists (t_id a), q. auto.
    + destruct (dup_parents (rev (fst (locate h c))) (snd (locate h c)) s h) as [[s1 par1] h1] eqn:Ed.
      destruct (IH (t_id a) s1 par1 h1 Hc eq_refl) as (I1 & I2 & I3). rewrite (dup_parents_snoc _ _ _ _ _ _ _ _ Ed) in H. injection H as <- <- <-.
      split; [apply dup_one_ok; auto|]. split.
      * intros m r. cbn [ht_find]. destruct (N.eqb_spec m (t_id a)) as [->|].
        -- intros K. injection K as <-. exists par1. apply dup_one_at.
        -- intros K. destruct (I2 m r K) as [q Kq]. exists q. unfold dup_one. apply nth_app. auto.
      * exists (t_id a), par1. split; [apply dup_one_at|auto].
Qed.

Lemma edges_prune : forall h t, edges t -> edges (prune h t).
Proof.
  intros h t E n a x Ha Hx. apply below_prune in Ha as (a0 & Ha & ->). apply prune_kids in Hx as (x0 & Hx & _ & ->).
  destruct (prune_same h a0) as [-> _]. destruct (prune_same h x0) as [-> _]. apply (E n a0 x0); auto. eapply reach_below; eauto.
Qed.

Lemma edges_trim : forall o t t', edges t -> trim o t = Some t' -> edges t'.
Proof.
  intros o t t' E H. unfold trim in H. destruct (no_state o || no_config o); [|injection H as <-; auto]. revert t' E H.
  induction t as [i k s l IH] using tree_ind2. intros t' E H. rewrite Forall_forall in IH. cbn [trim_r] in H.
  destruct k; [injection H as <-; auto|]. destruct s; [destruct (no_state o); [discriminate|injection H as <-; auto]|].
  match type of H with context [if ?b then _ else _] => destruct b end; [discriminate|]. injection H as <-.
  assert (K : forall y', In y' (flat_map (fun x => if t_key x then [x] else match trim_r o x with Some y => [y] | None => [] end) l) ->
    exists y, In y l /\ t_id y' = t_id y /\ (y' = y \/ trim_r o y = Some y')).
  { intros y' H. apply in_flat_map in H as (y & Hy & H). exists y. split; auto. destruct (t_key y); [destruct H as [<-|[]]; auto|].
    destruct (trim_r o y) as [z|] eqn:Et; [|destruct H]. destruct H as [<-|[]]. split; auto. eapply trim_r_same; eauto. }
  intros n a x Ha Hx. inversion Ha as [|n' ? y' ? Hy Ha']; subst; cbn [t_kids t_id] in *.
  - apply K in Hx as (y & Hy & -> & _). apply (E 0 (T i false false l) y); [constructor|auto].
  - apply K in Hy as (y & Hy & _ & [->|Et]).
    + apply (edges_kid (T i false false l) y E Hy n' a x); auto.
    + apply (IH y Hy y' (edges_kid (T i false false l) y E Hy) Et n' a x); auto.
Qed.

Definition resok (r : result) : Prop := chainp (t_id (snd r)) (fst r) /\ edges (snd r).

Lemma add_ok : forall k s h r, okS s -> okH s h -> resok r ->
  okS (fst (add_result k (s, h) r)) /\ okH (fst (add_result k (s, h) r)) (snd (add_result k (s, h) r)).
Proof.
  intros k s h [c t] Hs Hh [Hc He]. cbn [fst snd] in Hc, He. cbn [add_result].
  destruct (existsb (fun a => c_deny k (t_id a)) c || negb (t_key t) && c_deny k (t_id t)); [auto|].
  destruct (locate h c) as [new par] eqn:El. destruct (dup_parents (rev new) par s h) as [[s' par'] h'] eqn:Ed.
  assert (X : okS s' /\ okH s' h' /\ parok s' par' (t_id t)).
  { apply (locate_par s h c Hs Hh (t_id t) s' par' h' Hc). rewrite El. auto. }
  destruct X as (X1 & X2 & X3). destruct (t_key t); cbn [fst snd]; [auto|].
  destruct (prune_same (c_hide k) t) as [Pi _].
  destruct (N.eqb (c_depth k) 0).
  - destruct (dup_all_ok (prune (c_hide k) t) par' s') as [O1 E1]; auto; [rewrite Pi; auto|apply edges_prune; auto|].
    split; auto. eapply okH_ext; eauto.
  - destruct (dup_depth_ok (prune (c_hide k) t) (c_depth k) par' s') as [O1 E1]; auto; [rewrite Pi; auto|apply edges_prune; auto|].
    split; auto. eapply okH_ext; eauto.
Qed.

Lemma fold_ok : forall k l s h, (forall r, In r l -> resok r) -> okS s -> okH s h -> okS (fst (fold_left (add_result k) l (s, h))).
Proof.
  intros k l. induction l as [|r l IH]; intros s h H Hs Hh; cbn [fold_left]; [auto|].
  destruct (add_ok k s h r Hs Hh (H r (or_introl eq_refl))) as [A B]. destruct (add_result k (s, h) r) as [s1 h1].
  apply IH; auto. intros r' Hr. apply H. right. auto.
Qed.

Lemma found_ok : forall sel t c r, chainp (t_id t) c -> edges t -> In r (found sel c t) -> resok r.
Proof.
  intros sel t. induction t as [i k s l IH] using tree_ind2. intros c r Hc He H. rewrite Forall_forall in IH. cbn [found] in H.
  apply in_app_or in H as [H|H].
  - destruct (sel i); [|destruct H]. destruct H as [<-|[]]. split; auto.
  - apply in_flat_map in H as (y & Hy & H). apply (IH y Hy (T i k s l :: c)); auto.
    + cbn [chainp]. split; [apply (He 0 (T i k s l) y); [constructor|auto]|]. split; auto.
    + apply (edges_kid (T i k s l)); auto.
Qed.

Lemma filter_sub : forall l seen r, In r (filter_subtrees seen l) -> In r l.
Proof.
  intros l. induction l as [|x l IH]; intros seen r H; cbn [filter_subtrees] in H; [destruct H|].
  destruct (existsb _ _); [right; eauto|]. destruct H as [<-|H]; [left; auto|right; eauto].
Qed.

Lemma edges_inside : forall t, In t f -> edges t.
Proof. intros t Ht n a x Ha Hx. exists a, x. split; [exists t, n; auto|]. auto. Qed.

Lemma get_data_parents : forall k sel, okS (get_data k sel f).
Proof.
  intros k sel. unfold get_data. apply fold_ok.
  - intros r Hr. apply in_flat_map in Hr as (r0 & Hr & H0). apply filter_sub in Hr. apply in_flat_map in Hr as (t & Ht & Hr).
    apply found_ok in Hr as [R1 R2].
    + destruct (trim (c_opts k) (snd r0)) as [t'|] eqn:Et; [|destruct H0]. destruct H0 as [<-|[]]. split; cbn [fst snd].
      * apply trim_same in Et as (-> & _). auto.
      * eapply edges_trim; eauto.
    + exists t. auto.
    + apply edges_inside. auto.
  - intros [|p] n q E; discriminate.
  - intros n r E. discriminate.
Qed.

End parents.
