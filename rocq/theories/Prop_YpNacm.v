(** C44: an on-change push notification tells a user what they may read and nothing else. *)
From Coq Require Import String Ascii List Bool Arith Lia.
From Verif Require Import Nacm NacmSpec NacmPath NacmDecide NacmTree YpNacm Prop_Nacm.
Import ListNotations.
Local Open Scope string_scope.
Local Open Scope list_scope.

Section P.
Variables (enabled : bool) (c : sconfig) (user : str) (groups : list str).
Hypotheses (GL : good_lists c) (SG : sorted groups).
Let cc := rep_config enabled c.

Lemma allowed_any e e' o nd : allowed_node (rep_config e c) user groups o nd = allowed_node (rep_config e' c) user groups o nd.
Proof. reflexivity. Qed.

(** A changed node is told about iff the user may read it by RFC 8341 (the node itself; ancestors are refuted
    below). *)
Theorem C44_target_partial recovery x : good_nd c (tnode (yc_parent x) (yc_node x)) ->
  (notify cc (Some user) recovery groups x <> NNothing <-> may c user groups ORead (tnode (yc_parent x) (yc_node x))).
Proof.
  intros (n & E & G1 & G2). unfold notify, target_denied. rewrite <- E in *. destruct (decide enabled c user groups ORead n GL SG G1 G2) as (a & H1 & H2). unfold cc. rewrite H1.
  assert (M : may c user groups ORead (rep_node n) <-> is_permit a = true).
  { rewrite H2. split; [|intros P; exists n; auto]. intros (m & Em & M1 & M2 & M3). destruct (decide enabled c user groups ORead m GL SG M1 M2) as (b & B1 & B2). rewrite Em, H1 in B1. injection B1 as <-. apply H2. apply B2. exact M3. }
  rewrite M. destruct (is_permit a); cbn [negb].
  - split; [reflexivity|]. intros _. destruct (yc_value x); [|discriminate]. try destruct (yp_value _ _ _ _ _ _); discriminate.
  - split; [intros H; exfalso; apply H; reflexivity|discriminate].
Qed.

(** ** Values of top-level nodes *)
Hypothesis EN : enabled = true.
Lemma kids_fkids p l : forall f l', value_kids cc user groups p l = Some (f, l') -> exists b, fkids (filter_r cc user groups p) l = Some (b, l').
Proof.
  induction l as [|x r IH]; intros f l' H; cbn [value_kids fkids] in *; [injection H as <- <-; exists false; reflexivity|].
  destruct (filter_r cc user groups p x) as [[a o]|]; [|discriminate H]. destruct (value_kids cc user groups p r) as [[f1 l1]|]; [|discriminate H]. injection H as <- <-. destruct (IH f1 l1 eq_refl) as (b & ->). eauto.
Qed.
Lemma kids_kept p l l' : value_kids cc user groups p l = Some (false, l') -> forall x, In x l -> exists a x', filter_r cc user groups p x = Some (a, Some x') /\ In x' l'.
Proof.
  revert l'. induction l as [|x r IH]; intros l' H y Hy; [destruct Hy|]. cbn [value_kids] in H. destruct (filter_r cc user groups p x) as [[a o]|] eqn:E; [|discriminate H]. destruct (value_kids cc user groups p r) as [[f1 l1]|]; [|discriminate H].
  destruct o as [x'|]; [|discriminate H]. injection H as -> <-. destruct Hy as [<-|Hy]; [exists a, x'; split; [exact E|left; reflexivity]|]. destruct (IH l1 eq_refl y Hy) as (a1 & x1 & F1 & F2). exists a1, x1. split; [exact F1|right; exact F2].
Qed.
Lemma good_child p t x : good_data c p t -> In x (t_ch t) -> good_data c (p ++ t_piece t) x.
Proof.
  intros [M K N] H. constructor; [apply (one_module_child t); assumption|intros q y A; apply (K q y); now apply (at_child p t x)|intros q y A; apply N; now apply (at_child p t x)].
Qed.

Lemma at_inv p t q y : at_ p t q y -> (q = p /\ y = t) \/ exists x, In x (t_ch t) /\ at_ (p ++ t_piece t) x q y.
Proof. destruct 1 as [p t|p t x q y Hin A]; [left; auto|right; exists x; auto]. Qed.

(** The value of a created top-level node has only nodes of the data, and all but the node itself are keys, or
    may be read, or there is a node inside that may be read. *)
Theorem C44_value_partial recovery x t' : user <> recovery -> yc_parent x = [] -> yc_top x = t_piece (yc_node x) -> good_data c [] (yc_node x) ->
  notify cc (Some user) recovery groups x = NValue t' ->
  may c user groups ORead (tnode [] t') /\
  forall q y, at_ [] t' q y ->
    (exists y0, at_ [] (yc_node x) q y0 /\ t_id y0 = t_id y /\ tnode q y0 = tnode q y) /\
    (y = t' \/ t_key y = true \/ exists q' y', at_ q y q' y' /\ may c user groups ORead (tnode q' y')).
Proof.
  intros NR P0 T0 G H.
  assert (Gn : good_nd c (tnode (yc_parent x) (yc_node x))) by (rewrite P0; apply G; constructor).
  assert (Mr : may c user groups ORead (tnode [] (yc_node x))) by (rewrite <- P0; apply (C44_target_partial recovery x Gn); rewrite H; discriminate).
  destruct x as [par t top val]. cbn [yc_parent yc_node yc_top] in *. subst par top. unfold notify in H. cbn [yc_parent yc_node yc_top yc_value] in H.
  destruct (target_denied cc user groups (tnode [] t)) as [[]|]; try discriminate H. destruct val; [|discriminate H].
  destruct (yp_value cc user recovery groups (t_piece t) t) as [t1| |] eqn:V; try discriminate H. injection H as <-.
  destruct t as [id pc m d k ch]. cbn [t_piece] in V. unfold yp_value in V. destruct ch as [|x0 r0].
  - injection V as <-. split; [exact Mr|]. intros q y A. split; [exists y; auto|]. left. destruct (at_inv _ _ _ _ A) as [(_ & ->)|(z & [] & _)]. reflexivity.
  - replace (c_enabled cc) with true in V by (unfold cc; rewrite EN; reflexivity). cbn [negb orb] in V.
    destruct (str_eqb user recovery) eqn:Er; [exfalso; apply NR; apply str_eqb_eq; exact Er|].
    destruct (reads cc user groups [] (T id pc m d k (x0 :: r0))) as [[]|]; try discriminate V;
    (destruct (value_kids cc user groups pc (x0 :: r0)) as [[[] l]|] eqn:K; try discriminate V; injection V as <-;
     destruct (kids_fkids _ _ _ _ K) as (b & Fk); split; [exact Mr|];
     intros q y A; destruct (at_inv _ _ _ _ A) as [(-> & ->)|(z & Hin & A')]; [split; [exists (T id pc m d k (x0 :: r0)); split; [constructor|split; reflexivity]|left; reflexivity]|];
     cbn [t_ch t_piece] in Hin, A';
     destruct (fkids_out _ _ _ _ Fk) as (O1 & _); destruct (O1 z Hin) as (w & a & Hw & Fw);
     pose proof (good_child [] (T id pc m d k (x0 :: r0)) w G Hw) as Gw; unfold cc in Fw; rewrite EN in Fw;
     destruct (C20_returned c user groups GL SG ([] ++ t_piece (T id pc m d k (x0 :: r0))) w a z Gw Fw q y A') as ((y0 & B1 & B2 & B3) & C0);
     split; [exists y0; split; [apply (at_child [] (T id pc m d k (x0 :: r0)) w); [exact Hw|exact B1]|auto]|right; exact C0]).
Qed.

(** Every node of it that may be read is in the value, unless an ancestor is refused by the extension
    default-deny-all. *)
Theorem C44_not_lost_partial recovery x t' q y : user <> recovery -> yc_parent x = [] -> yc_top x = t_piece (yc_node x) -> good_data c [] (yc_node x) ->
  notify cc (Some user) recovery groups x = NValue t' ->
  at_ [] (yc_node x) q y -> may c user groups ORead (tnode q y) ->
  (forall q' z, at_ [] (yc_node x) q' z -> at_ q' z q y -> t_dall z = true -> may c user groups ORead (tnode q' z)) ->
  exists y', at_ [] t' q y' /\ t_id y' = t_id y /\ tnode q y' = tnode q y.
Proof.
  intros NR P0 T0 G H A W X.
  destruct x as [par t top val]. cbn [yc_parent yc_node yc_top] in *. subst par top. unfold notify in H. cbn [yc_parent yc_node yc_top yc_value] in H.
  destruct (target_denied cc user groups (tnode [] t)) as [[]|]; try discriminate H. destruct val; [|discriminate H].
  destruct (yp_value cc user recovery groups (t_piece t) t) as [t1| |] eqn:V; try discriminate H. injection H as <-.
  destruct t as [id pc m d k ch]. cbn [t_piece] in V. unfold yp_value in V. destruct ch as [|x0 r0].
  - injection V as <-. exists y. auto.
  - replace (c_enabled cc) with true in V by (unfold cc; rewrite EN; reflexivity). cbn [negb orb] in V.
    destruct (str_eqb user recovery) eqn:Er; [exfalso; apply NR; apply str_eqb_eq; exact Er|].
    destruct (reads cc user groups [] (T id pc m d k (x0 :: r0))) as [[]|]; try discriminate V;
    (destruct (value_kids cc user groups pc (x0 :: r0)) as [[[] l]|] eqn:K; try discriminate V; injection V as <-;
     destruct (at_inv _ _ _ _ A) as [(-> & ->)|(z & Hin & A')]; [exists (T id pc m d k l); split; [constructor|split; reflexivity]|];
     cbn [t_ch t_piece] in Hin, A';
     destruct (kids_kept _ _ _ K z Hin) as (a & z' & Fz & Hz');
     pose proof (good_child [] (T id pc m d k (x0 :: r0)) z G Hin) as Gz; unfold cc in Fz; rewrite EN in Fz;
     destruct (C20_not_lost c user groups GL SG ([] ++ t_piece (T id pc m d k (x0 :: r0))) z a (Some z') q y Gz Fz A' W) as (t2 & y2 & E2 & B1 & B2 & B3);
     [intros q' u A1 A2 D; apply X; [apply (at_child [] (T id pc m d k (x0 :: r0)) z); [exact Hin|exact A1]|exact A2|exact D]|];
     injection E2 as <-; exists y2; split; [apply (at_child [] (T id pc m d k l) z'); [exact Hz'|exact B1]|auto]).
Qed.

(** It does not break if all the children of a created top-level node may be read. *)
Lemma filter_some : forall n p t, tsize t <= n -> good_data c p t -> exists r, filter_r cc user groups p t = Some r.
Proof.
  induction n as [|n IH]; intros p t Hs G; [destruct t; cbn [tsize] in Hs; lia|]. rewrite filter_unfold.
  assert (R : exists a, reads cc user groups p t = Some a).
  { destruct (gd_nodes _ _ _ G p t (at_here _ _)) as (m & E & G1 & G2). unfold reads. rewrite <- E. destruct (decide enabled c user groups ORead m GL SG G1 G2) as (a & Ha & _). exists a. exact Ha. }
  assert (K : exists r, fkids (filter_r cc user groups (p ++ t_piece t)) (t_ch t) = Some r).
  { assert (Q : forall l, (forall x, In x l -> In x (t_ch t)) -> exists r, fkids (filter_r cc user groups (p ++ t_piece t)) l = Some r).
    { induction l as [|x r IHl]; intros Hl; [eexists; reflexivity|]. cbn [fkids]. destruct (IH (p ++ t_piece t) x) as ([a o] & ->).
      - pose proof (tsize_child t x (Hl x (or_introl eq_refl))). lia.
      - apply good_child; [exact G|apply Hl; left; reflexivity].
      - destruct IHl as ([b l1] & ->); [intros y Hy; apply Hl; right; exact Hy|]. eexists. reflexivity. }
    apply Q. auto. }
  destruct R as (a & ->). destruct K as ([b l] & ->). destruct a; eauto. destruct b; eauto.
Qed.
Theorem C44_unbroken_partial recovery x : user <> recovery -> yc_parent x = [] -> yc_top x = t_piece (yc_node x) -> good_data c [] (yc_node x) ->
  (forall y, In y (t_ch (yc_node x)) -> may c user groups ORead (tnode (t_piece (yc_node x)) y)) ->
  notify cc (Some user) recovery groups x <> NFreed /\ notify cc (Some user) recovery groups x <> NUndef.
Proof.
  intros NR P0 T0 G M. destruct x as [par t top val]. cbn [yc_parent yc_node yc_top] in *. subst par top. unfold notify. cbn [yc_parent yc_node yc_top yc_value].
  destruct (gd_nodes _ _ _ G [] t (at_here _ _)) as (m0 & E & G1 & G2). unfold target_denied. rewrite <- E. destruct (decide enabled c user groups ORead m0 GL SG G1 G2) as (a & Ha & _). unfold cc. rewrite Ha.
  destruct (is_permit a) eqn:Pa; cbn [negb]; [|split; discriminate]. destruct val; [|split; discriminate]. fold cc.
  assert (V : exists t1, yp_value cc user recovery groups (t_piece t) t = VVal t1).
  { destruct t as [id pc m d k ch]. cbn [t_piece t_ch] in *. unfold yp_value. destruct ch as [|x0 r0]; [eauto|]. replace (c_enabled cc) with true by (unfold cc; rewrite EN; reflexivity). cbn [negb orb].
    destruct (str_eqb user recovery) eqn:Er; [exfalso; apply NR; apply str_eqb_eq; exact Er|]. unfold reads. rewrite <- E. unfold cc at 1. rewrite Ha.
    assert (Kv : exists l, value_kids cc user groups pc (x0 :: r0) = Some (false, l)).
    { assert (Q : forall l, (forall y, In y l -> In y (x0 :: r0)) -> exists l', value_kids cc user groups pc l = Some (false, l')).
      { induction l as [|y r IHl]; intros Hl; [eexists; reflexivity|]. cbn [value_kids]. pose proof (good_child [] (T id pc m d k (x0 :: r0)) y G (Hl y (or_introl eq_refl))) as Gy. cbn [t_piece app] in Gy.
        destruct (filter_some (tsize y) pc y (le_n _) Gy) as ([b o] & F). rewrite F. destruct IHl as (l1 & ->); [intros w Hw; apply Hl; right; exact Hw|].
        assert (So : exists y', o = Some y').
        { pose proof (M y (Hl y (or_introl eq_refl))) as My. rewrite filter_unfold in F. unfold reads in F. destruct My as (m1 & E1 & A1 & A2 & A3). destruct (decide enabled c user groups ORead m1 GL SG A1 A2) as (a1 & Ha1 & Hp1). rewrite E1 in Ha1. unfold cc in F. rewrite Ha1 in F. apply Hp1 in A3.
          destruct a1; try discriminate A3; [|injection F as <- <-; eauto]. destruct (fkids _ _) as [[b1 l2]|]; [|discriminate F]. injection F as <- <-. eauto. }
        destruct So as (y' & ->). eexists. reflexivity. }
      apply Q. auto. }
    destruct Kv as (l & ->). destruct a; try discriminate Pa; eauto. }
  destruct V as (t1 & ->). split; discriminate.
Qed.
End P.
(** Without a user everything is told. *)
Theorem C44_no_user c recovery groups x : notify c None recovery groups x = if yc_value x then NValue (yc_node x) else NTarget.
Proof. reflexivity. Qed.
Print Assumptions C44_target_partial.
Print Assumptions C44_value_partial.
Print Assumptions C44_not_lost_partial.
Print Assumptions C44_unbroken_partial.
Print Assumptions C44_no_user.

(** ** The case of users *)
(** A user joe is added to the data of C20: everybody but joe is told nothing about it, joe all of it. *)
Definition joe_tree : tree := T 1 (s "/user[name='joe']") (s "m") false false [T 2 (s "/name") (s "m") false true []; T 3 (s "/mail") (s "m") false false []].
Definition conf2 : sconfig :=
  mksconfig false true true [mkslist [s "*"] [mksrule None (WData [mkrseg (s "m:users") []; mkrseg (s "user") [(s "name", VUser)]; mkrseg (s "mail") []]) all_ops true]].
(** joe may not read their own mail: with all the users created, the rest is told. *)
Example C44_example :
  notify (rep_config true conf1) (Some (s "joe")) (s "root") [s "guests"] (mkyc (s "/m:users") joe_tree (s "/m:user[name='joe']") false) = NTarget /\
  notify (rep_config true conf1) (Some (s "eve")) (s "root") [s "guests"] (mkyc (s "/m:users") joe_tree (s "/m:user[name='joe']") false) = NNothing /\
  notify (rep_config true conf2) (Some (s "joe")) (s "root") [s "guests"] (mkyc [] users_tree (s "/m:users") true) =
    NValue (T 0 (s "/m:users") (s "m") false false
      [T 1 (s "/user[name='joe']") (s "m") false false [T 2 (s "/name") (s "m") false true []];
       T 4 (s "/user[name='eve']") (s "m") false false [T 5 (s "/name") (s "m") false true []; T 6 (s "/mail") (s "m") false false []]]).
Proof. split; [|split]; vm_compute; reflexivity. Qed.
(** The hypotheses of the theorems hold for it. *)
Example C44_example_good : good_lists conf2 /\ sorted [s "guests"] /\ s "joe" <> s "root" /\ good_data conf2 [] users_tree /\
  (forall y, In y (t_ch users_tree) -> may conf2 (s "joe") [s "guests"] ORead (tnode (t_piece users_tree) y)).
Proof.
  assert (GLs : good_lists conf2) by (intros l [<-|[]]; split; [split; [intros y []|exact Logic.I]|intros g [<-|[]]; vm_compute; discriminate]).
  assert (SGs : sorted [s "guests"]) by (split; [intros y []|exact Logic.I]).
  assert (GD : good_data conf2 [] users_tree).
  { destruct C20_example_good as [M K N]. constructor; [exact M|exact K|].
    intros q y A. apply at_users in A as (-> & _ & _); [|reflexivity]. destruct (good_segs (t_id y)) as (G1 & G2 & _ & _).
    exists (mksnode NOther (match q with [] => true | _ => false end) [] (s "m") false false (segs_of (t_id y))).
    split; [reflexivity|]. split; [split; [exact G1|intros _; exact G2]|].
    intros l r t [<-|[]] [<-|[]] E. cbn [sr_what] in E. injection E as <-. split.
    - assert (GS : forall n, In n [s "m:users"; s "user"; s "name"; s "mail"] -> Forall name_char n).
      { intros n Hn. cbn [In] in Hn. repeat (destruct Hn as [<-|Hn]); [..|destruct Hn];
        (apply Forall_forall; intros x Hx; vm_compute in Hx; unfold name_char; cbn; intuition (subst; discriminate)). }
      repeat (apply Forall_cons; [split; [apply GS; cbn; auto|]|]); try apply Forall_nil.
      exact Logic.I.
    - clear G1 G2. pose proof (nb_refl (s "m:users")) as N1. pose proof (nb_refl (s "user")) as N2. pose proof (nb_refl (s "mail")) as N3.
      assert (ND : forall v : str, map fst [(s "name", VUser)] = map fst [(s "name", v)] /\ NoDup (map fst [(s "name", v)])).
      { intros v. split; [reflexivity|]. constructor; [intros []|constructor]. }
      assert (N4 : not_begin (s "mail") (s "name") /\ not_begin (s "name") (s "mail")) by (split; intros t H; discriminate H).
      assert (Q : forall k, segs_of k = [mkseg (s "m:users") []] \/ exists v l, (l = [] \/ l = [mkseg (s "name") []] \/ l = [mkseg (s "mail") []]) /\ segs_of k = mkseg (s "m:users") [] :: mkseg (s "user") [(s "name", v)] :: l).
      { intros k. do 6 (destruct k as [|k]; [first [left; reflexivity|right; eexists; eexists; split; [|reflexivity]; auto]|]). right. eexists. eexists. split; [|reflexivity]. auto. }
      cbn [sn_path]. destruct N4 as (N4 & N5). destruct (Q (t_id y)) as [->|(v & l & Hl & ->)]; cbn [compat rs_name s_name rs_preds s_preds].
      + split; [exact N1|]. split; [exact N1|]. split; [auto|exact Logic.I].
      + split; [exact N1|]. split; [exact N1|]. split; [auto|]. split; [exact N2|]. split; [exact N2|]. split; [intros _; right; apply ND|].
        destruct Hl as [->|[->| ->]]; [exact Logic.I| |]; cbn [rs_name s_name rs_preds s_preds]; (split; [assumption|]; split; [assumption|]; split; [auto|exact Logic.I]). }
  split; [exact GLs|]. split; [exact SGs|]. split; [discriminate|]. split; [exact GD|].
  intros y Hy. apply (C44_target_partial true conf2 (s "joe") [s "guests"] GLs SGs (s "root") (mkyc (t_piece users_tree) y [] false)).
  - apply GD. apply (at_child [] users_tree y); [exact Hy|constructor].
  - destruct Hy as [<-|[<-|[]]]; vm_compute; discriminate.
Qed.

(** ** Counterexamples *)
(** Everything may be read except for the target. *)
Definition no_read (w : what) : sconfig := mksconfig false true true [mkslist [s "*"] [mksrule None w all_ops true]].
(** F113: the value of a created node that has a parent is checked as a tree without the parents, the path of a
    nested node is then not its path: a secret refused by a rule, which an ordinary read does not return, is
    sent. *)
Theorem C44_value_refuted : exists c user recovery groups x t' ps q y,
  chain ps (yc_parent x) (yc_node x) /\
  notify c (Some user) recovery groups x = NValue t' /\ at_ (yc_parent x) t' q y /\ t_key y = false /\ t_ch y = [] /\
  allowed_node c user groups ORead (tnode q y) = Some Deny /\
  subtree_filter c user groups ps (yc_parent x) (yc_node x) = Some (Some (T 1 (s "/d") (s "m") false false [T 3 (s "/free") (s "m") false false []])).
Proof.
  set (leaf := T 2 (s "/secret") (s "m") false false []).
  set (d := T 1 (s "/d") (s "m") false false [leaf; T 3 (s "/free") (s "m") false false []]).
  exists (rep_config true (no_read (WData [mkrseg (s "m:c") []; mkrseg (s "d") []; mkrseg (s "secret") []]))), (s "joe"), (s "root"), [s "guests"],
    (mkyc (s "/m:c") d (s "/m:d") true), d, [([], T 0 (s "/m:c") (s "m") false false [d])], (s "/m:c" ++ s "/d"), leaf.
  split; [cbn [chain t_ch t_piece In yc_parent yc_node]; split; [reflexivity|]; split; [now left|reflexivity]|].
  split; [vm_compute; reflexivity|]. split; [apply (at_child (s "/m:c") d leaf); [now left|constructor]|].
  split; [reflexivity|]. split; [reflexivity|]. split; vm_compute; reflexivity.
Qed.
(** F114: a refused child of a created node makes the whole value be freed, and once more for every next refused
    child; freed memory is then printed. *)
Theorem C44_unbroken_refuted : exists c user recovery groups x,
  yc_parent x = [] /\ yc_top x = t_piece (yc_node x) /\ c_enabled c = true /\
  (exists a, allowed_node c user groups ORead (tnode [] (yc_node x)) = Some a /\ is_permit a = true) /\
  filter_r c user groups [] (yc_node x) = Some (true, Some (T 0 (s "/m:c") (s "m") false false [T 2 (s "/free") (s "m") false false []])) /\
  notify c (Some user) recovery groups x = NFreed.
Proof.
  exists (rep_config true (no_read (WData [mkrseg (s "m:c") []; mkrseg (s "secret") []]))), (s "joe"), (s "root"), [s "guests"],
    (mkyc [] (T 0 (s "/m:c") (s "m") false false [T 1 (s "/secret") (s "m") false false []; T 2 (s "/free") (s "m") false false []]) (s "/m:c") true).
  split; [reflexivity|]. split; [reflexivity|]. split; [reflexivity|]. split; [eexists; split; [vm_compute; reflexivity|reflexivity]|]. split; vm_compute; reflexivity.
Qed.
(** F115: only the changed node is checked, not its parents: a leaf in a container refused by the extension
    default-deny-all (as that of the access control rules) is told to everybody, an ordinary read refuses it. *)
Theorem C44_parents_refuted : exists c user recovery groups x ps t',
  c_enabled c = true /\ chain ps (yc_parent x) (yc_node x) /\
  subtree_filter c user groups ps (yc_parent x) (yc_node x) = Some None /\ notify c (Some user) recovery groups x = NValue t'.
Proof.
  set (leaf := T 1 (s "/enable-nacm") (s "a") false false []).
  exists (rep_config true (mksconfig false true true [])), (s "joe"), (s "root"), [s "guests"],
    (mkyc (s "/a:nacm") leaf (s "/a:enable-nacm") true), [([], T 0 (s "/a:nacm") (s "a") true false [leaf])], leaf.
  split; [reflexivity|]. split; [cbn [chain t_ch t_piece In yc_parent yc_node]; split; [reflexivity|]; split; [now left|reflexivity]|].
  split; vm_compute; reflexivity.
Qed.
(** F116: changes are hidden from the recovery user, and from everybody with access control disabled. *)
Theorem C44_recovery_refuted : exists c user groups x,
  notify c (Some user) user groups x = NNothing.
Proof.
  exists (rep_config true (no_read (WData [mkrseg (s "m:c") []]))), (s "root"), [s "guests"], (mkyc [] (T 0 (s "/m:c") (s "m") false false []) (s "/m:c") true).
  vm_compute. reflexivity.
Qed.
(** F116: with access control disabled. *)
Theorem C44_disabled_refuted : exists c user recovery groups x, c_enabled c = false /\
  notify c (Some user) recovery groups x = NNothing.
Proof.
  exists (rep_config false (no_read (WData [mkrseg (s "m:c") []]))), (s "joe"), (s "root"), [s "guests"], (mkyc [] (T 0 (s "/m:c") (s "m") false false []) (s "/m:c") true).
  split; [reflexivity|vm_compute; reflexivity].
Qed.
