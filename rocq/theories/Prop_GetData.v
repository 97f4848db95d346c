(** C59: what reading data returns. *)
From Coq Require Import NArith List Bool Arith Lia.
From Verif Require Import GetData GetDataSpec GetDataProofs GetDataIn GetDataExact GetDataParents.
Import ListNotations.

(** Exactly the nodes of the specification are returned, for all data, selections,
    depths, options and decisions of NACM. *)
Theorem C59_exact : forall (k : ctl) (sel : N -> bool) (f : list tree), wf f ->
  (forall n, In n (map fst (get_data k sel f)) -> exists x, inside f x /\ t_id x = n /\ returned k sel f x) /\
  (forall x, inside f x -> (In (t_id x) (map fst (get_data k sel f)) <-> returned k sel f x)).
Proof.
  intros k sel f Hw. split; [intros n; apply exact_fwd; auto|]. intros x Hx. split; [|apply exact_bwd; auto].
  intros H. apply exact_fwd in H as (y & Hy & E & R); auto. rewrite (same_inside f x y (proj1 Hw)); auto.
Qed.
Print Assumptions C59_exact.

(** No node is returned twice and all are in the order of the data. *)
Theorem C59_order : forall (k : ctl) (sel : N -> bool) (f : list tree), wf f ->
  subseq (map fst (get_data k sel f)) (ids f) /\ NoDup (map fst (get_data k sel f)).
Proof.
  intros k sel f Hw. pose proof (exact_order k sel f Hw) as H. split; auto. eapply subseq_nodup; eauto. apply Hw.
Qed.
Print Assumptions C59_order.

(** Every returned node has the same parent as in the data, which is returned before
    it. *)
Theorem C59_parents : forall (k : ctl) (sel : N -> bool) (f : list tree) (p : nat) (n : N) (q : option nat),
  nth_error (get_data k sel f) p = Some (n, q) ->
  match q with
  | None => parent f n None
  | Some j => j < p /\ exists m r, nth_error (get_data k sel f) j = Some (m, r) /\ parent f n (Some m)
  end.
Proof.
  intros k sel f p n q H. pose proof (get_data_parents f k sel p n q H) as P. destruct q as [j|]; [|exact P].
  destruct P as (m & r & E & P).
  assert (L : j < p).
  { assert (j < length (firstn p (get_data k sel f))) by (apply nth_error_Some; congruence). rewrite firstn_length in H0. lia. }
  split; auto. exists m, r. split; auto. rewrite <- (firstn_skipn p (get_data k sel f)). apply nth_app. auto.
Qed.
Print Assumptions C59_parents.

(** Without a depth, options and NACM: what is at, above or below a selected node, and
    the keys of the list instances above it. *)
Definition plain : ctl := Ctl 0 (Opts false false) (fun _ => false) (fun _ => false).

Lemma plain_survives : forall x, survives (c_opts plain) x.
Proof. intros x. apply survives_none; reflexivity. Qed.

Lemma outermost : forall sel n t s, below n t s -> sel (t_id s) = true -> exists r m, proot plain sel t r /\ below m r s.
Proof.
  intros sel n t s H. induction H as [t|n t y s Hy H IH]; intros E.
  - exists t, 0. split; [|constructor]. apply pr_here; auto. apply plain_survives.
  - destruct (sel (t_id t)) eqn:Et.
    + exists t, (S n). split; [|econstructor; eauto]. apply pr_here; auto. apply plain_survives.
    + destruct (IH E) as (r & m & R & B). exists r, m. split; auto. apply pr_kid with y; auto.
Qed.

Lemma comparable : forall t, NoDup (preorder t) -> forall a b j m x r s,
  below a t x -> below b t r -> below j x s -> below m r s -> (exists i, below i x r) \/ (exists i, below (S i) r x).
Proof.
  intros t Hnd a b j m x r s Hx. revert Hnd b. induction Hx as [t|a t y x Hy Hx IH]; intros Hnd b Hr Hj Hm; [eauto|].
  inversion Hr as [|b' ? y' ? Hy' Hr']; subst.
  - right. exists a. econstructor; eauto.
  - assert (y = y') by (eapply (same_kid t y y' (a + j) (b' + m) s); eauto; eapply below_trans; eauto). subst y'.
    eapply IH; eauto. eapply nodup_kid; eauto.
Qed.

Theorem C59_plain : forall (sel : N -> bool) (f : list tree) (x : tree), wf f -> inside f x ->
  (In (t_id x) (map fst (get_data plain sel f)) <->
   exists s, inside f s /\ sel (t_id s) = true /\
     ((exists n, below n s x) \/ (exists n, below n x s) \/
      (t_key x = true /\ exists a n, inside f a /\ In x (t_kids a) /\ below (S n) a s))).
Proof.
  intros sel f x Hw Hx. destruct (C59_exact plain sel f Hw) as [_ E]. rewrite E by auto. clear E. pose proof Hw as (Hnd & _ & _). split.
  - intros (r & (R1 & R2 & _) & H). exists r. split; auto. split; auto. destruct H as [[_ H]|[H|(n & H & _)]]; eauto.
  - intros (s & (t & n & Ht & Bs) & Es & H). destruct (outermost sel n t s Bs Es) as (r & m & R & B).
    apply (root_proot plain sel f t r Hnd Ht) in R as [R [nr Br]]. pose proof (nodup_tree f t Hnd Ht) as Hndt.
    exists r. split; auto.
    assert (D : forall i y, below i r y -> returned_below plain r y).
    { intros i y Hi. exists i. split; auto. split; [left; reflexivity|]. intros z i1 i2 _ _ _. split; [reflexivity|apply plain_survives]. }
    destruct H as [[i H]|[[i H]|(Ek & a & i & Ia & Ha & H)]].
    + right. right. apply (D (m + i)). eapply below_trans; eauto.
    + destruct (inside_in f t x s n i Hnd Ht Bs Hx H) as [j Hj].
      destruct (comparable t Hndt j nr i m x r s Hj Br H B) as [[l Hl]|[l Hl]]; [left; eauto|right; right; eapply D; eauto].
    + destruct (inside_in f t a s n (S i) Hnd Ht Bs Ia H) as [j Hj].
      destruct (comparable t Hndt j nr (S i) m a r s Hj Br H B) as [[l Hl]|[l Hl]].
      * destruct l as [|l].
        -- inversion Hl; subst. right. right. apply (D 1). econstructor; [exact Ha|constructor].
        -- right. left. split; auto. exists a, l. auto.
      * right. right. apply (D (S (S l))). eapply below_kid; eauto.
Qed.
Print Assumptions C59_plain.

(** Without state data, no state data are returned unless a key is selected itself. *)
Theorem C59_no_state : forall (k : ctl) (sel : N -> bool) (f : list tree), wf f -> no_state (c_opts k) = true ->
  (forall x, inside f x -> sel (t_id x) = true -> t_key x = false) ->
  forall x, inside f x -> In (t_id x) (map fst (get_data k sel f)) -> t_state x = false.
Proof.
  intros k sel f Hw Ho Hs x Hx H. apply C59_exact in H; auto. destruct H as (r & (R1 & R2 & _ & _ & R5) & H).
  pose proof Hw as (Hnd & _ & Hin).
  assert (Sf : forall y, t_key y = false -> survives (c_opts k) y -> t_state y = false).
  { intros y Ek [K|[[_ K]|[K _]]]; [congruence|congruence|auto]. }
  assert (Sr : t_state r = false) by (apply Sf; auto).
  assert (Up : forall n y, inside f y -> below n y r -> t_state y = false).
  { intros n y Iy By. destruct (t_state y) eqn:E; auto. rewrite <- Sr. symmetry. clear - By E Iy Hin. induction By as [y|n y z r Hz By IH]; auto.
    apply IH; [|destruct (Hin y Iy) as (_ & _ & K & _); apply K; auto]. destruct Iy as (t & m & Ht & B). exists t, (S m). split; auto.
    eapply below_kid; eauto. }
  destruct H as [[_ [n H]]|[(Ek & a & n & Ia & Ha & H)|(n & B & _ & G)]].
  - eapply Up; eauto.
  - destruct (Hin a Ia) as (_ & _ & _ & K). rewrite (K x Ha Ek). eapply Up; eauto.
  - destruct n as [|n]; [inversion B; subst; auto|]. destruct (t_key x) eqn:Ek.
    + apply below_last in B as (a & Ba & Ha).
      assert (Ia : inside f a) by (destruct R1 as (t & m & Ht & Br); exists t, (m + n); split; auto; eapply below_trans; eauto).
      destruct (Hin a Ia) as (K1 & _ & _ & K). rewrite (K x Ha Ek). destruct n as [|n]; [inversion Ba; subst; auto|].
      assert (Ea : t_key a = false) by (destruct (t_key a); auto; rewrite K1 in Ha by auto; destruct Ha).
      apply Sf; auto. apply (G a n 1); auto. econstructor; [exact Ha|constructor].
    + apply Sf; auto. apply (G x n 0); auto. constructor.
Qed.
Print Assumptions C59_no_state.

(** ** Examples *)

(** /a (1) with the list instances l[k] (2, key 3; 5, key 6), leaves 4 and 7, and the
    container b (8) with the state leaf s (9). *)
Definition ex : list tree :=
  [T 1 false false
     [T 2 false false [T 3 true false []; T 4 false false []];
      T 5 false false [T 6 true false []; T 7 false false []];
      T 8 false false [T 9 false true []]];
   T 10 false false []].

Lemma below_cases : forall n i k s l x, below n (T i k s l) x -> x = T i k s l \/ exists y m, In y l /\ below m y x.
Proof. intros n i k s l x H. inversion H; subst; [auto|right; eauto]. Qed.

Ltac allnodes :=
  repeat match goal with
  | H : below _ (T _ _ _ _) _ |- _ => apply below_cases in H; destruct H as [->|(?y & ?m & ?I & H)]
  | H : In _ (_ :: _) |- _ => destruct H as [<-|H]
  | H : In _ [] |- _ => destruct H
  end.

Ltac solve_wf :=
  split; [cbv; repeat constructor; cbn; intuition discriminate|];
  split; [intros x H; allnodes; reflexivity|];
  intros x (t & n & H & B); allnodes; cbn [t_key t_kids t_state];
  (split; [intros K; first [discriminate|reflexivity]|]);
  (split; [first [exists [], []; split; [reflexivity|split; intros ? []]
                 |eexists [_], _; split; [reflexivity|split; intros y I; allnodes; reflexivity]
                 |eexists [], _; split; [reflexivity|split; intros y I; allnodes; reflexivity]]|]);
  (split; [intros K y I; first [discriminate|allnodes; reflexivity]|intros y I K; allnodes; first [discriminate|reflexivity]]).

Lemma ex_wf : wf ex.
Proof. unfold ex. solve_wf. Qed.

(** Selecting the leaves 4 and 7 and the container 8: their list instances with keys
    and the common parent once. *)
Example C59_ex_plain : get_data plain (fun n => has [4; 7; 8]%N n) ex =
  [(1%N, None); (2%N, Some 0); (3%N, Some 1); (4%N, Some 1); (5%N, Some 0); (6%N, Some 4); (7%N, Some 4); (8%N, Some 0); (9%N, Some 7)].
Proof. reflexivity. Qed.

Example C59_ex_depth : get_data (Ctl 1 (Opts false false) (fun _ => false) (fun _ => false)) (fun n => has [1]%N n) ex =
  [(1%N, None); (2%N, Some 0); (3%N, Some 1); (5%N, Some 0); (6%N, Some 3); (8%N, Some 0)].
Proof. reflexivity. Qed.

Example C59_ex_no_config : get_data (Ctl 0 (Opts false true) (fun _ => false) (fun _ => false)) (fun n => has [1]%N n) ex =
  [(1%N, None); (8%N, Some 0); (9%N, Some 1)].
Proof. reflexivity. Qed.

Example C59_ex_no_state : no_state (Opts true false) = true /\
  get_data (Ctl 0 (Opts true false) (fun _ => false) (fun n => N.eqb n 5)) (fun n => has [1]%N n) ex =
  [(1%N, None); (2%N, Some 0); (3%N, Some 1); (4%N, Some 1); (8%N, Some 0)].
Proof. split; reflexivity. Qed.

(** ** Refuted *)

Definition depth1 : ctl := Ctl 1 (Opts false false) (fun _ => false) (fun _ => false).

(** F191: sysrepo.h 837-838 say that a depth of 1 returns no descendants of the selected
    nodes (except keys), but sr_lyd_dup_r() copies the children: every depth is one
    level deeper than documented. *)
Theorem C59_depth_one_refuted :
  ~ (forall (sel : N -> bool) (f : list tree) (r x : tree) (n : nat), wf f -> root_of depth1 sel f r ->
       below (S n) r x -> t_key x = false -> ~ In (t_id x) (map fst (get_data depth1 sel f))).
Proof.
  intros H. apply (H (fun n => has [1]%N n) ex (nth 0 ex (T 0 false false [])) (T 8 false false [T 9 false true []]) 0).
  - exact ex_wf.
  - split; [eexists _, 0; split; [left; reflexivity|constructor]|]. split; [reflexivity|]. split.
    + intros a n (t & m & Ht & B) K. exfalso. unfold ex in Ht. apply below_tsize in K as [_ K]. specialize (K ltac:(auto)).
      apply below_tsize in B as [B _]. unfold ex in K. cbn [nth] in K. allnodes; cbn in *; lia.
    + split; [reflexivity|]. apply survives_none; reflexivity.
  - econstructor; [|constructor]. cbn. auto.
  - reflexivity.
  - cbn. auto 10.
Qed.

(** F192: a selected node below another selected node is not returned if it is deeper
    than the maximum depth of the other one: redundant results are removed before the
    depth is applied (sysrepo.c 3163-3168). *)
Theorem C59_nested_depth_refuted :
  ~ (forall (sel : N -> bool) (f : list tree) (x : tree), wf f -> inside f x -> sel (t_id x) = true ->
       In (t_id x) (map fst (get_data depth1 sel f))).
Proof.
  intros H. specialize (H (fun n => has [1; 9]%N n) ex (T 9 false true []) ex_wf).
  assert (In 9%N (map fst (get_data depth1 (fun n => has [1; 9]%N n) ex))).
  { apply H; [|reflexivity]. eexists _, 2. split; [left; reflexivity|]. econstructor; [cbn; right; right; left; reflexivity|].
    econstructor; [left; reflexivity|constructor]. }
  cbn in H0. intuition discriminate.
Qed.

Definition ex2 : list tree := [T 1 false true [T 2 true true []; T 3 false true []]].

Lemma ex2_wf : wf ex2.
Proof. unfold ex2. solve_wf. Qed.

(** F193: a key that is selected itself is never left out (sysrepo.c 2958-2960), so
    without state data an instance of a state list is returned when its key is
    selected. *)
Theorem C59_key_no_state_refuted :
  ~ (forall (sel : N -> bool) (f : list tree) (x : tree), wf f -> inside f x ->
       In (t_id x) (map fst (get_data (Ctl 0 (Opts true false) (fun _ => false) (fun _ => false)) sel f)) -> t_state x = false).
Proof.
  intros H. specialize (H (fun n => N.eqb n 2) ex2 (T 1 false true [T 2 true true []; T 3 false true []]) ex2_wf).
  assert (K : true = false); [|discriminate]. apply H; [eexists _, 0; split; [left; reflexivity|constructor]|]. cbn. auto.
Qed.
