(** The returned nodes are exactly the ones of the specification, in document order. *)
From Coq Require Import NArith List Bool Arith Lia.
From Verif Require Import GetData GetDataSpec GetDataProofs GetDataIn.
Import ListNotations.

Lemma wf_twf : forall f t, wf f -> In t f -> twf t.
Proof. intros f t (_ & _ & H) Ht n x Hx. apply H. exists t, n. auto. Qed.

Lemma nodup_tree : forall f t, NoDup (ids f) -> In t f -> NoDup (preorder t).
Proof.
  intros f t H Ht. induction f as [|a f IH]; [destruct Ht|]. cbn [ids flat_map] in H. apply nodup_app in H as (N1 & N2 & N3).
  destruct Ht as [->|Ht]; auto.
Qed.

Lemma same_inside : forall f x y, NoDup (ids f) -> inside f x -> inside f y -> t_id x = t_id y -> x = y.
Proof.
  intros f x y H (t1 & n1 & T1 & B1) (t2 & n2 & T2 & B2) E.
  assert (t1 = t2).
  { apply (same_in f t1 t2 (t_id x)); auto; apply in_pre; eauto. }
  subst t2. eapply (same_tree t1); eauto. eapply nodup_tree; eauto.
Qed.

Lemma inside_in : forall f t a r n m, NoDup (ids f) -> In t f -> below n t r -> inside f a -> below m a r -> exists j, below j t a.
Proof.
  intros f t a r n m H Ht B (t2 & n2 & T2 & B2) Ba. assert (t = t2); [|subst; eauto].
  apply (same_in f t t2 (t_id r)); auto; apply in_pre; [eauto|]. exists (n2 + m), r. split; auto. eapply below_trans; eauto.
Qed.

Lemma below_last : forall n t r, below (S n) t r -> exists a, below n t a /\ In r (t_kids a).
Proof.
  induction n as [|n IH]; intros t r H; inversion H as [|? ? y ? Hy H1]; subst.
  - inversion H1; subst. exists t. split; [constructor|auto].
  - apply IH in H1 as (a & Ba & Ha). exists a. split; auto. econstructor; eauto.
Qed.

Lemma root_proot : forall k sel f t r, NoDup (ids f) -> In t f ->
  (proot k sel t r <-> root_of k sel f r /\ exists n, below n t r).
Proof.
  intros k sel f t r H Ht. rewrite (proot_iff k sel t r (nodup_tree f t H Ht)). unfold root_of. split.
  - intros (n & B & S1 & P & D & Sv). split; [|eauto]. split; [exists t, n; auto|]. split; auto. split; [|auto].
    intros a j Ha Hr. destruct (inside_in f t a r n (S j) H Ht B Ha Hr) as [m Hm]. eauto.
  - intros [(I & S1 & P & D & Sv) [n B]]. exists n. split; auto. split; auto. split; [|auto]. intros a m j Ha Hr. apply (P a j); auto. exists t, m. auto.
Qed.

Lemma exact_fwd : forall k sel f i, wf f -> In i (map fst (get_data k sel f)) ->
  exists x, inside f x /\ t_id x = i /\ returned k sel f x.
Proof.
  intros k sel f i Hw H. pose proof Hw as (Hnd & Hroot & _). rewrite get_data_ids in H by auto. apply in_flat_map in H as (t & Ht & H).
  apply em_in in H as (x & H & E); [|eapply wf_twf; eauto]. apply ret_iff in H as (r & R & Sp); [|eapply nodup_tree; eauto].
  apply (root_proot k sel f t r Hnd Ht) in R as [R [n B]].
  assert (I : inside f x).
  { destruct Sp as [(m & j & X1 & X2 & X3)|[(Ek & a & m & j & X1 & X2 & X3)|(Ek & m & X1 & X2)]].
    - exists t, m. auto.
    - exists t, (S m). split; auto. eapply below_kid; eauto.
    - exists t, (n + m). split; auto. eapply below_trans; eauto. eapply reach_below; eauto. }
  exists x. split; auto. split; auto. exists r. split; auto.
  destruct Sp as [(m & j & X1 & X2 & X3)|[(Ek & a & m & j & X1 & X2 & X3)|(Ek & m & X1 & X2)]].
  - left. eauto.
  - right. left. split; auto. exists a, j. split; [exists t, m; auto|auto].
  - right. right. apply reach_iff in X1 as [Y1 Y2]; [exists m; auto|].
    clear - Hnd Ht B. pose proof (nodup_tree f t Hnd Ht) as H. clear - H B. induction B as [t|n t y r Hy B IH]; auto. apply IH. eapply nodup_kid; eauto.
Qed.

Lemma exact_bwd : forall k sel f x, wf f -> returned k sel f x -> In (t_id x) (map fst (get_data k sel f)).
Proof.
  intros k sel f x Hw (r & R & Sp). pose proof Hw as (Hnd & Hroot & Hin). rewrite get_data_ids by auto. pose proof R as ((t & n & Ht & B) & _).
  apply in_flat_map. exists t. split; auto. apply em_in; [eapply wf_twf; eauto|]. exists x. split; auto.
  pose proof (nodup_tree f t Hnd Ht) as Hndt. apply ret_iff; auto. exists r. split; [apply (root_proot k sel f t r Hnd Ht); eauto|].
  assert (A : t_key r = true -> x = r -> retspec k t x r).
  { intros Ek ->. right. left. split; auto. destruct n as [|n].
    - inversion B; subst. rewrite (Hroot r Ht) in Ek. discriminate.
    - apply below_last in B as (a & Ba & Ha). exists a, n, 0. split; auto. split; auto. econstructor; [exact Ha|constructor]. }
  destruct Sp as [(I & j & X)|[(Ek & a & j & I & X1 & X2)|(m & X1 & X2 & X3)]].
  - destruct (t_key r) eqn:Ek; [destruct j as [|j]; [inversion X; subst; apply A; auto|]|].
    + destruct (inside_in f t x r n (S j) Hnd Ht B I X) as [m Hm]. left. exists m, (S j). split; auto.
    + destruct (inside_in f t x r n j Hnd Ht B I X) as [m Hm]. left. exists m, j. split; auto.
  - destruct (inside_in f t a r n (S j) Hnd Ht B I X2) as [m Hm]. right. left. split; auto. exists a, m, j. auto.
  - destruct (t_key r) eqn:Ek.
    + apply A; auto. inversion X1 as [|? ? y ? Hy]; subst; auto. exfalso. destruct (Hin r) as [K _]; [exists t, n; auto|].
      rewrite (K Ek) in Hy. destruct Hy.
    + right. right. split; auto. exists m. split; auto. apply reach_iff; auto.
      clear - Hndt B. induction B as [t|n t y r Hy B IH]; auto. apply IH. eapply nodup_kid; eauto.
Qed.

(** ** Order *)

Lemma subseq_refl : forall l, subseq l l.
Proof. induction l; constructor; auto. Qed.

Lemma subseq_app : forall a b c d, subseq a b -> subseq c d -> subseq (a ++ c) (b ++ d).
Proof.
  intros a b c d H K. induction H as [l|n l l' H IH|n l l' H IH]; cbn [app].
  - induction l as [|x l IHl]; [auto|]. cbn [app]. constructor. auto.
  - constructor. auto.
  - constructor. auto.
Qed.

Lemma subseq_trans : forall b c, subseq b c -> forall a, subseq a b -> subseq a c.
Proof.
  intros b c H. induction H as [l|n l l' H IH|n l l' H IH]; intros a Ha.
  - inversion Ha; subst. constructor.
  - inversion Ha; subst; constructor; auto.
  - constructor. auto.
Qed.

Lemma subseq_in : forall a b, subseq a b -> forall x, In x a -> In x b.
Proof. intros a b H. induction H as [l|n l l' H IH|n l l' H IH]; intros x Hx; [destruct Hx|destruct Hx; [left|right]; auto|right; auto]. Qed.

Lemma subseq_nodup : forall a b, subseq a b -> NoDup b -> NoDup a.
Proof.
  intros a b H. induction H as [l|n l l' H IH|n l l' H IH]; intros K; [constructor| |]; inversion K as [|? ? K1 K2]; subst; auto.
  constructor; auto. intros X. apply K1. eapply subseq_in; eauto.
Qed.

Lemma subseq_flat : forall (A : Type) (g h : A -> list N) l, (forall x, In x l -> subseq (g x) (h x)) -> subseq (flat_map g l) (flat_map h l).
Proof.
  intros A g h l. induction l as [|x l IH]; intros H; [constructor|]. cbn [flat_map]. apply subseq_app; [apply H; left; auto|].
  apply IH. intros y Hy. apply H. right. auto.
Qed.

(** Only the order of the children. *)
Definition kf (t : tree) : Prop := forall n x, below n t x -> (t_key x = true -> t_kids x = []) /\ keys_first (t_kids x).

Lemma kf_kid : forall t y, kf t -> In y (t_kids t) -> kf y.
Proof. intros t y H Hy n x Hx. apply (H (S n) x). econstructor; eauto. Qed.

Lemma twf_kf : forall t, twf t -> kf t.
Proof. intros t H n x Hx. destruct (H n x Hx) as (H1 & H2 & _). auto. Qed.

Lemma keys_first_map : forall g l, keys_first l -> (forall y y', In y' (g y) -> t_key y' = t_key y) -> keys_first (flat_map g l).
Proof.
  intros g l (l1 & l2 & -> & H1 & H2) Hg. exists (flat_map g l1), (flat_map g l2). split; [apply flat_map_app|].
  split; intros y' Hy; apply in_flat_map in Hy as (y & Hy & Hy'); rewrite (Hg _ _ Hy'); auto.
Qed.

Lemma kf_leaf : forall y, kf y -> t_key y = true -> preorder y = [t_id y].
Proof. intros y H Hk. destruct (H 0 y (below_O y)) as [K _]. destruct y as [i k s l]. cbn [t_kids] in K. rewrite (K Hk). auto. Qed.

Lemma split_keys : forall t, kf t -> exists l2, t_kids t = filter t_key (t_kids t) ++ l2 /\
  filter (fun y => negb (t_key y)) (t_kids t) = l2 /\ flat_map preorder (filter t_key (t_kids t)) = map t_id (filter t_key (t_kids t)).
Proof.
  intros t H. destruct (H 0 t (below_O t)) as [_ (l1 & l2 & E & H1 & H2)].
  assert (F : filter t_key (t_kids t) = l1).
  { rewrite E, filter_app. replace (filter t_key l2) with (@nil tree); [rewrite app_nil_r|].
    - clear - H1. induction l1 as [|y l1 IH]; [auto|]. cbn [filter]. rewrite (H1 y) by (left; auto). f_equal. apply IH. intros z Hz. apply H1. right. auto.
    - symmetry. clear - H2. induction l2 as [|y l2 IH]; [auto|]. cbn [filter]. rewrite (H2 y) by (left; auto). apply IH. intros z Hz. apply H2. right. auto. }
  exists l2. rewrite F. split; auto. split.
  - rewrite E, filter_app. replace (filter (fun y => negb (t_key y)) l1) with (@nil tree).
    + cbn [app]. clear - H2. induction l2 as [|y l2 IH]; [auto|]. cbn [filter]. rewrite (H2 y) by (left; auto). cbn [negb]. f_equal. apply IH. intros z Hz. apply H2. right. auto.
    + symmetry. clear - H1. induction l1 as [|y l1 IH]; [auto|]. cbn [filter]. rewrite (H1 y) by (left; auto). cbn [negb]. apply IH. intros z Hz. apply H1. right. auto.
  - assert (K : forall y, In y l1 -> kf y) by (intros y Hy; apply (kf_kid t); auto; rewrite E; apply in_or_app; auto).
    clear - K H1. induction l1 as [|y l1 IH]; [auto|]. cbn [flat_map map]. rewrite kf_leaf; [|apply K; left; auto|apply H1; left; auto].
    cbn [app]. f_equal. apply IH; intros z Hz; [apply H1|apply K]; right; auto.
Qed.

Lemma flat_nonkey : forall (g : tree -> list N) l, (forall x, In x l -> t_key x = true -> g x = []) ->
  flat_map g l = flat_map g (filter (fun y => negb (t_key y)) l).
Proof.
  intros g l. induction l as [|x l IH]; intros H; [auto|]. cbn [flat_map filter]. rewrite IH by (intros y Hy; apply H; right; auto).
  destruct (t_key x) eqn:E; cbn [negb flat_map]; [rewrite (H x) by (auto; left; auto)|]; auto.
Qed.

(** The node, its keys and then parts of the other children: in document order. *)
Lemma keys_then : forall t (g : tree -> list N), kf t ->
  (forall x, In x (t_kids t) -> t_key x = true -> g x = []) -> (forall x, In x (t_kids t) -> subseq (g x) (preorder x)) ->
  subseq (t_id t :: map t_id (filter t_key (t_kids t)) ++ flat_map g (t_kids t)) (preorder t).
Proof.
  intros t g Hk H1 H2. destruct (split_keys t Hk) as (l2 & E & F & K). rewrite flat_nonkey by auto. rewrite F.
  destruct t as [i k s l]. cbn [t_id t_kids preorder] in *. constructor. rewrite E at 2. rewrite flat_map_app. apply subseq_app.
  - rewrite K. apply subseq_refl.
  - apply subseq_flat. intros x Hx. apply H2. rewrite E. apply in_or_app. auto.
Qed.

Lemma pred_sub : forall t d, kf t -> subseq (pred t d) (preorder t).
Proof.
  intros t. induction t as [i k s l IH] using tree_ind2. intros d Hk. rewrite Forall_forall in IH. cbn [pred].
  pose proof (keys_then (T i k s l) (fun x => if N.eqb d 0 then [] else if t_key x then [] else pred x (N.pred d)) Hk) as X. cbn [t_id t_kids] in X.
  assert (Y : flat_map (fun x => if N.eqb d 0 then [] else if t_key x then [] else pred x (N.pred d)) l =
    if N.eqb d 0 then [] else flat_map (fun x => if t_key x then [] else pred x (N.pred d)) l).
  { destruct (N.eqb d 0); auto. clear. induction l; auto. }
  rewrite Y in X. apply X.
  - intros x _ E. rewrite E. destruct (N.eqb d 0); auto.
  - intros x Hx. destruct (N.eqb d 0); [constructor|]. destruct (t_key x); [constructor|]. apply IH; auto. apply (kf_kid (T i k s l)); auto.
Qed.

Lemma prune_sub : forall h t, subseq (preorder (prune h t)) (preorder t).
Proof.
  intros h t. induction t as [i k s l IH] using tree_ind2. rewrite Forall_forall in IH. cbn [prune preorder]. constructor.
  induction l as [|x l IHl]; [constructor|]. cbn [flat_map]. rewrite flat_map_app. apply subseq_app.
  - destruct (negb (t_key x) && h (t_id x)); [constructor|]. cbn [flat_map]. rewrite app_nil_r. apply IH. left. auto.
  - apply IHl. intros y Hy. apply IH. right. auto.
Qed.

Lemma trim_r_sub : forall o t t', trim_r o t = Some t' -> subseq (preorder t') (preorder t).
Proof.
  intros o t. induction t as [i k s l IH] using tree_ind2. intros t' H. rewrite Forall_forall in IH. cbn [trim_r] in H.
  destruct k; [injection H as <-; apply subseq_refl|]. destruct s; [destruct (no_state o); [discriminate|injection H as <-; apply subseq_refl]|].
  match type of H with context [if ?b then _ else _] => destruct b end; [discriminate|]. injection H as <-. cbn [preorder]. constructor.
  clear - IH. induction l as [|x l IHl]; [constructor|]. cbn [flat_map]. rewrite flat_map_app. apply subseq_app.
  - destruct (t_key x); [cbn [flat_map]; rewrite app_nil_r; apply subseq_refl|]. destruct (trim_r o x) as [x'|] eqn:E; [|constructor].
    cbn [flat_map]. rewrite app_nil_r. apply (IH x); auto. left. auto.
  - apply IHl. intros y Hy. apply IH. right. auto.
Qed.

Lemma trim_sub : forall o t t', trim o t = Some t' -> subseq (preorder t') (preorder t).
Proof.
  intros o t t' H. unfold trim in H. destruct (no_state o || no_config o); [eapply trim_r_sub; eauto|injection H as <-; apply subseq_refl].
Qed.

Lemma trim_kf : forall o t t', kf t -> trim o t = Some t' -> kf t'.
Proof.
  intros o t t' H E. unfold trim in E. destruct (no_state o || no_config o); [|injection E as <-; auto]. revert t' H E.
  induction t as [i k s l IH] using tree_ind2. intros t' H E. rewrite Forall_forall in IH. pose proof E as E0. cbn [trim_r] in E.
  destruct k; [injection E as <-; auto|]. destruct s; [destruct (no_state o); [discriminate|injection E as <-; auto]|].
  match type of E with context [if ?b then _ else _] => destruct b end; [discriminate|]. injection E as <-.
  intros n x Hx. inversion Hx as [|n' ? y ? Hy Hx']; subst; cbn [t_key t_kids] in *.
  - split; [discriminate|]. apply keys_first_map.
    + apply (H 0 (T i false false l) (below_O _)).
    + intros y y' Hy. destruct (t_key y) eqn:Ek; [destruct Hy as [<-|[]]; auto|]. destruct (trim_r o y) eqn:Et; [|destruct Hy].
      destruct Hy as [<-|[]]. apply trim_r_same in Et as (_ & Et & _). congruence.
  - apply in_flat_map in Hy as (y0 & Hy0 & Hy). assert (K : kf y0) by (apply (kf_kid (T i false false l)); auto).
    destruct (t_key y0); [destruct Hy as [<-|[]]; apply (K n' x Hx')|]. destruct (trim_r o y0) eqn:Et; [|destruct Hy].
    destruct Hy as [<-|[]]. apply (IH y0 Hy0 _ K Et n' x Hx').
Qed.

Lemma prune_kf : forall h t, kf t -> kf (prune h t).
Proof.
  intros h t. induction t as [i k s l IH] using tree_ind2. intros H. rewrite Forall_forall in IH.
  intros n x Hx. inversion Hx as [|n' ? y ? Hy Hx']; subst.
  - destruct (H 0 (T i k s l) (below_O _)) as [H1 H2]. cbn [prune t_key t_kids] in *. split.
    + intros Ek. rewrite (H1 Ek). auto.
    + apply keys_first_map; auto. intros y y' Hy. destruct (negb (t_key y) && h (t_id y)); [destruct Hy|]. destruct Hy as [<-|[]]. apply prune_same.
  - cbn [prune t_kids] in Hy. apply in_flat_map in Hy as (y0 & Hy0 & Hy). destruct (negb (t_key y0) && h (t_id y0)); [destruct Hy|]. destruct Hy as [<-|[]].
    apply (IH y0 Hy0 (kf_kid (T i k s l) y0 H Hy0) n' x Hx').
Qed.

Lemma em_sub : forall k sel t dn, kf t -> subseq (unwrap (em k sel dn t)) (preorder t).
Proof.
  intros k sel t. induction t as [i key s l IH] using tree_ind2. intros dn Hk. rewrite Forall_forall in IH. cbn [em].
  destruct (sel i).
  - destruct (trim (c_opts k) (T i key s l)) as [t'|] eqn:Et; [|constructor].
    destruct (dn || negb key && c_deny k i); [constructor|]. cbn [unwrap]. destruct key; [constructor|].
    eapply subseq_trans; [eapply trim_sub; eauto|]. eapply subseq_trans; [apply (prune_sub (c_hide k))|]. unfold body.
    destruct (N.eqb (c_depth k) 0); [apply subseq_refl|]. apply pred_sub. apply prune_kf. eapply trim_kf; eauto.
  - destruct (forallb is_none _); [constructor|]. cbn [unwrap]. set (dn' := dn || c_deny k i).
    replace (flat_map unwrap (map (em k sel dn') l)) with (flat_map (fun x => unwrap (em k sel dn' x)) l)
      by (clear; induction l as [|x l IHl]; [auto|cbn [map flat_map]; rewrite IHl; auto]).
    apply (keys_then (T i key s l)); auto.
    + intros x Hx Ek. destruct (kf_kid _ _ Hk Hx 0 x (below_O x)) as [K _]. destruct x as [xi xk xs xl]. cbn [t_key t_kids] in *. subst xk.
      rewrite (K eq_refl). cbn [em]. destruct (sel xi); [|auto]. destruct (trim (c_opts k) (T xi true xs [])); [|auto].
      destruct (dn' || negb true && c_deny k xi); auto.
    + intros x Hx. apply IH; auto. apply (kf_kid (T i key s l)); auto.
Qed.

Lemma exact_order : forall k sel f, wf f -> subseq (map fst (get_data k sel f)) (ids f).
Proof.
  intros k sel f Hw. rewrite get_data_ids by apply Hw. unfold ids. apply subseq_flat. intros t Ht. apply em_sub. apply twf_kf. eapply wf_twf; eauto.
Qed.
