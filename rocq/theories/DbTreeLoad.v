(** Proofs about DbTree.v: loading rows that contain all parents. *)
From Coq Require Import List NArith Bool Arith Lia Permutation Sorting.Sorted.
From Verif Require Import DbTree DbTreeSpec DbTreeProofs DbTreeStore.
Import ListNotations.

(** ** The order of texts *)

Lemma leb_refl : forall (a : str), str_leb a a = true.
Proof. induction a as [|x a IH]; cbn [str_leb]; auto. rewrite N.ltb_irrefl, N.eqb_refl. auto. Qed.

Lemma leb_total : forall (a b : str), str_leb a b = true \/ str_leb b a = true.
Proof.
  induction a as [|x a IH]; intros [|y b]; cbn [str_leb]; auto.
  destruct (N.lt_trichotomy x y) as [L|[->|L]].
  - apply N.ltb_lt in L. rewrite L. auto.
  - rewrite N.ltb_irrefl, N.eqb_refl. auto.
  - right. apply N.ltb_lt in L. rewrite L. auto.
Qed.

Lemma leb_antisym : forall (a b : str), str_leb a b = true -> str_leb b a = true -> a = b.
Proof.
  induction a as [|x a IH]; intros [|y b] H1 H2; cbn [str_leb] in *; auto; try discriminate.
  destruct (x <? y)%N eqn:L1.
  - apply N.ltb_lt in L1. destruct (y <? x)%N eqn:L2; [apply N.ltb_lt in L2; lia|].
    destruct (y =? x)%N eqn:E; [apply N.eqb_eq in E; lia|discriminate].
  - destruct (x =? y)%N eqn:E; [|discriminate]. apply N.eqb_eq in E. subst y.
    rewrite N.ltb_irrefl, N.eqb_refl in H2. f_equal. auto.
Qed.

Lemma leb_trans : forall (a b c : str), str_leb a b = true -> str_leb b c = true -> str_leb a c = true.
Proof.
  induction a as [|x a IH]; intros [|y b] [|z c] H1 H2; cbn [str_leb] in *; auto; try discriminate.
  destruct (x <? y)%N eqn:L1.
  - apply N.ltb_lt in L1. destruct (y <? z)%N eqn:L2.
    + apply N.ltb_lt in L2. assert (L : (x < z)%N) by lia. apply N.ltb_lt in L. rewrite L. auto.
    + destruct (y =? z)%N eqn:E; [|discriminate]. apply N.eqb_eq in E. subst z.
      apply N.ltb_lt in L1. rewrite L1. auto.
  - destruct (x =? y)%N eqn:E; [|discriminate]. apply N.eqb_eq in E. subst y.
    destruct (x <? z)%N; auto. destruct (x =? z)%N; [|discriminate]. eauto.
Qed.

Lemma leb_app : forall (p t : str), str_leb p (p ++ t) = true.
Proof. induction p as [|x p IH]; intros t; cbn [app str_leb]; auto. rewrite N.ltb_irrefl, N.eqb_refl. auto. Qed.

(** What lies between a text and one that begins with it begins with it. *)
Lemma leb_between : forall (p x t : str), str_leb p x = true -> str_leb x (p ++ t) = true ->
  exists u, x = p ++ u.
Proof.
  induction p as [|c p IH]; intros x t H1 H2.
  - exists x. auto.
  - destruct x as [|y x]; cbn [str_leb app] in *; [discriminate|].
    destruct (c <? y)%N eqn:L1.
    + exfalso. apply N.ltb_lt in L1. destruct (y <? c)%N eqn:L2; [apply N.ltb_lt in L2; lia|].
      destruct (y =? c)%N eqn:E; [apply N.eqb_eq in E; lia|discriminate].
    + destruct (c =? y)%N eqn:E; [|discriminate]. apply N.eqb_eq in E. subst y.
      rewrite N.ltb_irrefl, N.eqb_refl in H2. destruct (IH x t H1 H2) as [u ->]. exists u. auto.
Qed.

(** ** Sorting *)

Definition rowe (e : addr * kind) : row := row_of (fst e) (snd e).

Definition ale (x y : addr * kind) : Prop := str_leb (mtext (fst x)) (mtext (fst y)) = true.

Lemma key_row : forall (e : addr * kind), place_ok e -> key_of (rowe e) = mtext (fst e).
Proof.
  intros [a k] (pa & s & E & H & _). cbn [fst snd] in *. subst a. unfold rowe. cbn [fst snd].
  rewrite row_of_snoc. rewrite <- modif_path_text by auto.
  destruct k; reflexivity.
Qed.

Lemma ins_row_map : forall (e : addr * kind) (l : data), place_ok e -> Forall place_ok l ->
  StronglySorted ale l ->
  exists l', ins_row (rowe e) (map rowe l) = map rowe l' /\ Permutation (e :: l) l' /\ StronglySorted ale l'.
Proof.
  intros e l He Hl. induction Hl as [|x l Hx Hl IH]; intros Hs; cbn [map ins_row].
  - exists [e]. split; auto. split; auto. constructor; constructor.
  - rewrite !key_row by auto. inversion Hs as [|? ? Hs1 Hall]; subst.
    destruct (str_leb (mtext (fst e)) (mtext (fst x))) eqn:E.
    + exists (e :: x :: l). split; auto. split; auto. constructor; auto.
      constructor; auto. eapply Forall_impl; [|apply Hall]. intros y Hy. unfold ale in *.
      eapply leb_trans; eauto.
    + destruct (IH Hs1) as (l' & E1 & P1 & S1). exists (x :: l').
      rewrite E1. split; auto. split.
      * eapply perm_trans; [apply perm_swap|]. constructor. auto.
      * constructor; auto. eapply Permutation_Forall; [apply P1|]. constructor; auto.
        unfold ale. destruct (leb_total (mtext (fst e)) (mtext (fst x))); congruence.
Qed.

Lemma sort_map : forall (l : data), Forall place_ok l ->
  exists l', sort_rows (map rowe l) = map rowe l' /\ Permutation l l' /\ StronglySorted ale l'.
Proof.
  intros l H. induction H as [|e l He Hl (l' & E & P & S1)]; cbn [map sort_rows].
  - exists []. split; auto. split; auto. constructor.
  - rewrite E. destruct (ins_row_map e l' He) as (l2 & E2 & P2 & S2); auto.
    + eapply Permutation_Forall; eauto.
    + exists l2. split; auto. split; auto. eapply perm_trans; [|apply P2]. constructor; auto.
Qed.

(** ** One row *)

Lemma last_mod_field : forall (pa : addr) (s : step), step_ok s ->
  (if str_eqb (mod_field (last_mod pa) (s_mod s)) [] then last_mod pa
   else Some (mod_field (last_mod pa) (s_mod s))) = Some (s_mod s).
Proof.
  intros pa s ([Hm _] & _). unfold mod_field. destruct (last_mod pa) as [m|].
  - destruct (str_eqb (s_mod s) m) eqn:E.
    + apply str_eqb_eq in E. subst m. reflexivity.
    + rewrite str_eqb_neq; auto.
  - rewrite str_eqb_neq; auto.
Qed.

Lemma combine_split : forall (l : list (str * str)), combine (map fst l) (map snd l) = l.
Proof. induction l as [|[a b] l IH]; cbn [map combine fst snd]; congruence. Qed.

Lemma make_ok : forall (sc : schema) (pa : addr) (s : step) (k : kind), storable s -> kind_ok sc pa s k ->
  make_node sc pa (s_mod s) (row_at pa s k) = Some (Some (pa ++ [s], k)).
Proof.
  intros sc pa [m n ps] k Hst Hk. unfold kind_ok, spath in Hk. rewrite map_app in Hk.
  cbn [map s_mod s_name s_preds] in *. unfold make_node, spath.
  destruct k as [| |v b|v js]; cbn [row_at w_name w_type w_keys w_value w_dflt w_json s_mod s_name s_preds].
  - rewrite Hk. auto.
  - destruct (enc_storable _ Hst) as [ks E]. cbn [s_preds] in E. rewrite E.
    rewrite (dec_enc_keys _ _ E), <- Hk, combine_split. auto.
  - rewrite Hk. auto.
  - rewrite Hk. auto.
Qed.

(** ** The loop *)

Lemma set_nth_same : forall (i : nat) (x : addr) (l : list addr), (i < length l)%nat ->
  nth_error (set_nth i x l) i = Some x.
Proof.
  induction i as [|i IH]; intros x [|y l] H; cbn [set_nth nth_error length] in *; auto; try lia.
  apply IH. lia.
Qed.

Lemma set_nth_other : forall (i j : nat) (x : addr) (l : list addr), i <> j ->
  nth_error (set_nth i x l) j = nth_error l j.
Proof.
  induction i as [|i IH]; intros [|j] x [|y l] H; cbn [set_nth nth_error]; auto; try lia.
Qed.

Lemma set_nth_length : forall (i : nat) (x : addr) (l : list addr), length (set_nth i x l) = length l.
Proof. induction i as [|i IH]; intros x [|y l]; cbn [set_nth length]; auto. Qed.

(** The array holds the last node and its parents. *)
Definition pn_ok (la : addr) (pn : list addr) : Prop :=
  (length la <= length pn)%nat /\
  forall (i : nat), (i < length la)%nat -> nth_error pn i = Some (firstn (S i) la).

Lemma add_one : forall (sc : schema) (pa : addr) (s : step) (k : kind) (la : addr) (pn : list addr)
  (ws : list row) (out : list lnode),
  Forall step_ok (pa ++ [s]) -> storable s -> kind_ok sc pa s k ->
  pn_ok la pn -> (exists t, la = pa ++ t) ->
  exists pn', add_rows sc (row_at pa s k :: ws) pn out = add_rows sc ws pn' (out ++ [(pa ++ [s], k)])
    /\ pn_ok (pa ++ [s]) pn'.
Proof.
  intros sc pa s k la pn ws out Hok Hst Hk [Hlen Hpn] [t Ht].
  assert (Hl : (length pa <= length la)%nat) by (subst la; rewrite app_length; lia).
  cbn [add_rows].
  assert (E1 : w_path (row_at pa s k) = Some (path_of (pa ++ [s]))) by (destruct k; auto).
  assert (E2 : w_mod (row_at pa s k) = Some (mod_field (last_mod pa) (s_mod s))) by (destruct k; auto).
  rewrite E1, E2. rewrite node_depth_path by auto. rewrite app_length. cbn [length].
  rewrite Nat.add_1_r.
  assert (E3 : match length pa with 0%nat => Some [] | S i => nth_error pn i end = Some pa).
  { destruct (length pa) as [|i] eqn:E.
    - destruct pa; [auto|discriminate].
    - rewrite Hpn by lia. rewrite <- E. subst la. rewrite firstn_app, firstn_all, Nat.sub_diag.
      cbn [firstn]. rewrite app_nil_r. auto. }
  rewrite E3. rewrite last_mod_field by (apply Forall_app in Hok as [_ H]; inversion H; auto).
  rewrite make_ok by auto. cbn [fst].
  set (pn1 := if (length pn <=? length pa)%nat then pn ++ [[]] else pn).
  assert (Hl1 : (length pa < length pn1)%nat).
  { unfold pn1. destruct (length pn <=? length pa)%nat eqn:L.
    - apply Nat.leb_le in L. rewrite app_length. cbn [length]. lia.
    - apply Nat.leb_gt in L. lia. }
  assert (Hn1 : forall i, (i < length pa)%nat -> nth_error pn1 i = nth_error pn i).
  { intros i Hi. unfold pn1. destruct (length pn <=? length pa)%nat; auto.
    apply nth_error_app1. lia. }
  destruct (length pa <? length pn1)%nat eqn:L2; [|apply Nat.ltb_ge in L2; lia].
  exists (set_nth (length pa) (pa ++ [s]) pn1). split; auto. split.
  - rewrite set_nth_length, app_length. cbn [length]. lia.
  - intros i Hi. rewrite app_length in Hi. cbn [length] in Hi.
    destruct (Nat.eq_dec i (length pa)) as [->|N].
    + rewrite set_nth_same by auto. f_equal.
      rewrite firstn_all2; auto. rewrite app_length. cbn [length]. lia.
    + rewrite set_nth_other by auto. rewrite Hn1 by lia. rewrite Hpn by lia. f_equal. subst la.
      rewrite !firstn_app. replace (S i - length pa)%nat with 0%nat by lia. auto.
Qed.

(** The nodes to load: well formed, all parents among them. *)
Definition closed (sc : schema) (l : data) : Prop :=
  NoDup (map fst l) /\ Forall place_ok l /\
  (forall (pa : addr) (s : step) (k : kind), In (pa ++ [s], k) l ->
     kind_ok sc pa s k /\ (pa <> [] -> In pa (map fst l))).

Definition last_addr (l : data) : addr := match rev l with [] => [] | e :: _ => fst e end.

Lemma last_addr_snoc : forall (l : data) (e : addr * kind), last_addr (l ++ [e]) = fst e.
Proof. intros l e. unfold last_addr. rewrite rev_unit. auto. Qed.

Lemma sorted_split : forall (l r : data) (x : addr * kind), StronglySorted ale (l ++ x :: r) ->
  (forall y, In y l -> ale y x) /\ (forall y, In y r -> ale x y).
Proof.
  induction l as [|z l IH]; intros r x H; cbn [app] in H; inversion H as [|? ? H1 H2]; subst.
  - split; [intros y []|]. rewrite Forall_forall in H2. auto.
  - destruct (IH r x H1) as [A B]. split; auto. intros y [<-|Hy]; auto.
    rewrite Forall_forall in H2. apply H2. apply in_app_iff. right. left. auto.
Qed.

Lemma add_all : forall (sc : schema) (D : data), closed sc D -> StronglySorted ale D ->
  forall (todo dn : data) (pn : list addr), D = dn ++ todo -> pn_ok (last_addr dn) pn ->
  add_rows sc (map rowe todo) pn dn = LOk D.
Proof.
  intros sc D (Hnd & Hp & Hcl) Hs. induction todo as [|[a k] todo IH]; intros dn pn ED Hpn.
  - cbn [map add_rows]. rewrite app_nil_r in ED. subst; auto.
  - assert (Hin : In (a, k) D) by (subst D; apply in_app_iff; right; left; auto).
    assert (Hpl : place_ok (a, k)) by (rewrite Forall_forall in Hp; auto).
    destruct Hpl as (pa & s & Ea & Hok & Hst). cbn [fst] in Ea. subst a.
    destruct (Hcl pa s k Hin) as [Hk Hpar].
    cbn [map]. unfold rowe at 1. cbn [fst snd]. rewrite row_of_snoc.
    assert (Hpre : exists t, last_addr dn = pa ++ t).
    { destruct pa as [|s0 pa0]; [exists (last_addr dn); auto|]. remember (s0 :: pa0) as pa eqn:Epa.
      assert (Hne : pa <> []) by (subst pa; discriminate).
      apply Hpar in Hne. apply in_map_iff in Hne as ([pa' kp] & E & Hip). cbn [fst] in E. subst pa'.
      destruct (mtext_app pa [s]) as [u Eu].
      assert (Hokp : Forall step_ok pa) by (apply Forall_app in Hok; apply Hok).
      assert (Hneq : pa <> pa ++ [s]).
      { intros E. apply (f_equal (@length step)) in E. rewrite app_length in E. cbn [length] in E. lia. }
      rewrite ED in Hs, Hip. pose proof (sorted_split _ _ _ Hs) as [Hb Ha].
      apply in_app_iff in Hip as [Hip|[Hip|Hip]].
      - (* among the nodes done *)
        destruct dn as [|e0 dn0] using rev_ind; [destruct Hip|]. clear IHdn0.
        rewrite last_addr_snoc.
        assert (Hle : str_leb (mtext pa) (mtext (fst e0)) = true).
        { apply in_app_iff in Hip as [Hip|[Hip|[]]]; [|subst e0; apply leb_refl].
          rewrite <- app_assoc in Hs. cbn [app] in Hs.
          pose proof (sorted_split _ _ _ Hs) as [Hb2 _]. apply (Hb2 (pa, kp) Hip). }
        assert (Hle2 : str_leb (mtext (fst e0)) (mtext (pa ++ [s])) = true).
        { apply (Hb e0). apply in_app_iff. right. left. auto. }
        rewrite Eu in Hle2. destruct (leb_between _ _ _ Hle Hle2) as [w Ew].
        apply (mtext_prefix pa (fst e0) w); auto.
        apply place_step. rewrite Forall_forall in Hp. apply Hp. rewrite ED.
        apply in_app_iff. left. apply in_app_iff. right. left. auto.
      - exfalso. apply Hneq. congruence.
      - exfalso. apply Ha in Hip. unfold ale in Hip. cbn [fst] in Hip.
        apply Hneq. apply mtext_inj; auto. apply leb_antisym; auto. rewrite Eu. apply leb_app. }
    destruct (add_one sc pa s k (last_addr dn) pn (map rowe todo) dn Hok Hst Hk Hpn Hpre)
      as (pn' & E & Hpn').
    rewrite E. apply IH.
    + rewrite <- app_assoc. auto.
    + rewrite last_addr_snoc. auto.
Qed.

Lemma closed_perm : forall (sc : schema) (l l' : data), Permutation l l' -> closed sc l -> closed sc l'.
Proof.
  intros sc l l' P (A & B & C). split; [|split].
  - eapply Permutation_NoDup; [apply Permutation_map; apply P|auto].
  - eapply Permutation_Forall; eauto.
  - intros pa s k Hi. destruct (C pa s k) as [D E].
    + eapply Permutation_in; [apply Permutation_sym; apply P|auto].
    + split; auto. intros Hn. eapply Permutation_in; [apply Permutation_map; apply P|auto].
Qed.

Lemma load_ok : forall (sc : schema) (l : data), closed sc l ->
  exists out, load_rows sc (map rowe l) = LOk out /\ Permutation l out.
Proof.
  intros sc l Hc. destruct (sort_map l) as (l' & E & P & S1); [apply Hc|].
  exists l'. split; auto. unfold load_rows. rewrite E.
  apply (add_all sc l'); auto.
  - eapply closed_perm; eauto.
  - split; cbn; [lia|intros i Hi; lia].
Qed.

Lemma tree_closed : forall (sc : schema) (d : data), tree sc d -> dok d -> closed sc d.
Proof.
  intros sc d [Hnd Ht] [_ Hp]. split; auto. split; auto.
  intros pa s k Hi. destruct (Ht _ _ Hi) as (pa' & s' & E & _ & Hk & Hpar).
  apply app_inj_tail in E as [<- <-]. auto.
Qed.

Lemma rows_of : forall (d : data), map snd (db_of d) = map rowe d.
Proof. intros d. unfold db_of. rewrite map_map. auto. Qed.
