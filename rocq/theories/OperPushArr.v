(** * Lemmas about the array of pushed operational data *)

From Coq Require Import List NArith PeanoNat Bool Lia Sorting.Sorted.
From Verif Require Import OperPush.
Import ListNotations.
Open Scope N_scope.

Definition ords (arr : list entry) : list N := filter (fun o => negb (o =? 0)) (map e_order arr).
Definition srt (arr : list entry) : Prop := StronglySorted N.lt (ords arr).
Definition others (sid : N) (arr : list entry) : list entry := filter (fun e => negb (e_sid e =? sid)) arr.
Definition sids (arr : list entry) : list N := map e_sid arr.

Lemma ords_app a b : ords (a ++ b) = ords a ++ ords b.
Proof. unfold ords. rewrite map_app, filter_app. reflexivity. Qed.

Lemma in_ords o arr : In o (ords arr) <-> o <> 0 /\ exists e, In e arr /\ e_order e = o.
Proof.
  unfold ords. rewrite filter_In, in_map_iff, negb_true_iff, N.eqb_neq. split.
  - intros ((e & E & I) & Z). split; auto. exists e. auto.
  - intros (Z & e & I & E). split; [exists e; auto|auto].
Qed.

Lemma ss_app (a b : list N) : StronglySorted N.lt (a ++ b) <->
  StronglySorted N.lt a /\ StronglySorted N.lt b /\ forall x y, In x a -> In y b -> x < y.
Proof.
  induction a as [|x a IH]; cbn [app].
  - split; [intros H; split; [constructor|]; split; [exact H|intros ? ? []]|intros (_ & H & _); exact H].
  - split.
    + intros H. apply StronglySorted_inv in H. destruct H as [H F]. apply IH in H. destruct H as (A & B & C).
      rewrite Forall_app in F. destruct F as [F1 F2]. split; [constructor; assumption|]. split; [exact B|].
      intros u v [<-|U] V; [rewrite Forall_forall in F2; auto|auto].
    + intros (A & B & C). apply StronglySorted_inv in A. destruct A as [A F]. constructor.
      * apply IH. split; [exact A|]. split; [exact B|]. intros u v U V. apply C; [right; exact U|exact V].
      * rewrite Forall_app. split; [exact F|]. rewrite Forall_forall. intros v V. apply C; [left; reflexivity|exact V].
Qed.

Lemma srt_app a b : srt (a ++ b) <-> srt a /\ srt b /\ forall x y, In x (ords a) -> In y (ords b) -> x < y.
Proof. unfold srt. rewrite ords_app. apply ss_app. Qed.

Lemma ords_cons e l : ords (e :: l) = if e_order e =? 0 then ords l else e_order e :: ords l.
Proof. unfold ords. cbn [map filter]. destruct (e_order e =? 0); reflexivity. Qed.

Lemma others_none sid l : ~ In sid (sids l) -> others sid l = l.
Proof.
  induction l as [|e l IH]; intros H; [reflexivity|]. unfold others. cbn [filter].
  assert (e_sid e <> sid) by (intros X; apply H; left; exact X).
  apply N.eqb_neq in H0. rewrite H0. cbn [negb]. f_equal. apply IH. intros X. apply H. right. exact X.
Qed.

Lemma others_app sid a b : others sid (a ++ b) = others sid a ++ others sid b.
Proof. apply filter_app. Qed.

Lemma others_mid sid a e b : e_sid e = sid -> NoDup (sids (a ++ e :: b)) -> others sid (a ++ e :: b) = a ++ b.
Proof.
  intros E ND. unfold sids in ND. rewrite map_app in ND. cbn [map] in ND. apply NoDup_remove_2 in ND. rewrite in_app_iff in ND.
  rewrite others_app, others_none; [|unfold sids; rewrite <- E; tauto].
  unfold others at 1. cbn [filter]. rewrite E, N.eqb_refl. cbn [negb]. fold (others sid b).
  rewrite others_none; [reflexivity|]. unfold sids. rewrite <- E. tauto.
Qed.

(** A sorted array is split by an order that is not in it. *)
Lemma split_at arr n : srt arr -> n <> 0 -> (forall e, In e arr -> e_order e <> n) ->
  exists l1 l2, arr = l1 ++ l2 /\ Forall (fun e => e_order e < n) l1 /\
    match l2 with [] => True | e :: _ => n < e_order e end /\ Forall (fun e => e_order e = 0 \/ n < e_order e) l2.
Proof.
  intros S Z. induction arr as [|e arr IH]; intros N.
  - exists [], []. repeat split; constructor.
  - destruct (N.lt_ge_cases (e_order e) n) as [L|G].
    + destruct IH as (l1 & l2 & E & A & B & C).
      * unfold srt in *. rewrite ords_cons in S. destruct (e_order e =? 0); [exact S|]. apply StronglySorted_inv in S. tauto.
      * intros x I. apply N. right. exact I.
      * exists (e :: l1), l2. split; [cbn; f_equal; exact E|]. split; [constructor; assumption|]. split; assumption.
    + assert (n < e_order e) by (specialize (N e (or_introl eq_refl)); lia).
      exists [], (e :: arr). split; [reflexivity|]. split; [constructor|]. split; [assumption|].
      constructor; [right; assumption|]. rewrite Forall_forall. intros x I.
      destruct (N.eq_dec (e_order x) 0) as [|NZ]; [left; assumption|]. right.
      unfold srt in S. rewrite ords_cons in S. assert (e_order e =? 0 = false) by (apply N.eqb_neq; lia). rewrite H0 in S.
      apply StronglySorted_inv in S. destruct S as [_ F]. rewrite Forall_forall in F.
      assert (e_order e < e_order x) by (apply F; apply in_ords; split; [exact NZ|exists x; auto]). lia.
Qed.

(** ** The loop *)

Lemma idx_low l r sid n : n <> 0 -> Forall (fun e => e_sid e <> sid /\ e_order e < n) l -> forall i f,
  idx_loop i (l ++ r) sid n f None = idx_loop (i + length l) r sid n f None.
Proof.
  intros Z. induction 1 as [|e l [S L] F IH]; intros i f; cbn [app idx_loop length].
  - rewrite Nat.add_0_r. reflexivity.
  - apply N.eqb_neq in S. rewrite S. assert (E : e_order e =? n = false) by (apply N.eqb_neq; lia). rewrite E.
    assert (G : n <? e_order e = false) by (apply N.ltb_ge; lia). rewrite G, andb_false_r, IH. f_equal. lia.
Qed.

Lemma idx_rest l r sid n k : Forall (fun e => e_sid e <> sid /\ e_order e <> n) l -> forall i f,
  idx_loop i (l ++ r) sid n f (Some k) = idx_loop (i + length l) r sid n f (Some k).
Proof.
  induction 1 as [|e l [S L] F IH]; intros i f; cbn [app idx_loop length].
  - rewrite Nat.add_0_r. reflexivity.
  - apply N.eqb_neq in S. rewrite S. apply N.eqb_neq in L. rewrite L, IH. f_equal. lia.
Qed.

Lemma idx_end l sid n k i f : Forall (fun e => e_sid e <> sid /\ e_order e <> n) l -> idx_loop i l sid n f (Some k) = Some (n, f, Some k).
Proof. intros F. rewrite <- (app_nil_r l), idx_rest by exact F. reflexivity. Qed.

Lemma idx_zero l r sid : Forall (fun e => e_sid e <> sid /\ e_order e <> 0) l -> forall i f,
  idx_loop i (l ++ r) sid 0 f None = idx_loop (i + length l) r sid 0 f None.
Proof.
  induction 1 as [|e l [S L] F IH]; intros i f; cbn [app idx_loop length].
  - rewrite Nat.add_0_r. reflexivity.
  - apply N.eqb_neq in S. rewrite S. apply N.eqb_neq in L. rewrite L. cbn [N.eqb negb andb]. rewrite IH. f_equal. lia.
Qed.

(** [sr_shmext_oper_push_update()] of a session without an entry and an explicit order. *)
Lemma idx_new_order arr sid n : n <> 0 -> ~ In sid (sids arr) -> srt arr -> (forall e, In e arr -> e_order e <> n) ->
  exists l1 l2, arr = l1 ++ l2 /\ Forall (fun e => e_order e < n) l1 /\ Forall (fun e => e_order e = 0 \/ n < e_order e) l2 /\
    get_idx arr sid n = Some (n, None, length l1).
Proof.
  intros Z NS S NE. destruct (split_at arr n S Z NE) as (l1 & l2 & E & A & B & C).
  exists l1, l2. split; [exact E|]. split; [exact A|]. split; [exact C|].
  assert (NS1 : forall e, In e arr -> e_sid e <> sid) by (intros e I X; apply NS; unfold sids; rewrite <- X; apply in_map, I).
  unfold get_idx. rewrite E at 1. rewrite idx_low; [|exact Z|].
  2:{ rewrite Forall_forall in *. intros e I. split; [apply NS1; rewrite E; apply in_or_app; left; exact I|apply A, I]. }
  assert (Y : n =? 0 = false) by (apply N.eqb_neq; exact Z).
  destruct l2 as [|e l2].
  - cbn [idx_loop]. rewrite Y, E, app_nil_r. reflexivity.
  - assert (NS2 : e_sid e =? sid = false) by (apply N.eqb_neq, NS1; rewrite E; apply in_or_app; right; left; reflexivity).
    assert (NO : e_order e =? n = false) by (apply N.eqb_neq, NE; rewrite E; apply in_or_app; right; left; reflexivity).
    cbn [idx_loop]. rewrite NS2, NO, Y. cbn [negb andb]. assert (G : n <? e_order e = true) by (apply N.ltb_lt; exact B). rewrite G.
    rewrite idx_end.
    + rewrite Y. reflexivity.
    + rewrite Forall_forall. intros x I. assert (In x arr) by (rewrite E; apply in_or_app; right; right; exact I). split; [apply NS1|apply NE]; assumption.
Qed.

(** The same, without an order: it is added to the end. *)
Lemma idx_new arr sid : ~ In sid (sids arr) -> (forall e, In e arr -> e_order e <> 0) ->
  get_idx arr sid 0 = Some (match arr with [] => 1 | _ => (e_order (last arr (mkentry 0 0 0 false)) + 1) mod two32 end, None, length arr).
Proof.
  intros NS NZ. unfold get_idx. rewrite <- (app_nil_r arr) at 1. rewrite idx_zero.
  - cbn [idx_loop N.eqb]. reflexivity.
  - rewrite Forall_forall. intros e I. split; [intros X; apply NS; unfold sids; rewrite <- X; apply in_map, I|apply NZ, I].
Qed.

(** A session with an entry, its order is not changed. *)
Lemma idx_same l1 e l2 sid n : e_sid e = sid -> (n = 0 /\ (forall x, In x l1 -> e_order x <> 0) \/ n = e_order e) -> e_order e <> 0 ->
  NoDup (sids (l1 ++ e :: l2)) -> srt (l1 ++ e :: l2) ->
  get_idx (l1 ++ e :: l2) sid n = Some (e_order e, Some (length l1), length l1).
Proof.
  intros ES HN NZ ND S. unfold sids in ND. rewrite map_app in ND. cbn [map] in ND. pose proof (NoDup_remove_2 _ _ _ ND) as NI. rewrite in_app_iff in NI.
  apply srt_app in S. destruct S as (S1 & S2 & S3). unfold srt in S2. rewrite ords_cons in S2.
  assert (Y : e_order e =? 0 = false) by (apply N.eqb_neq; exact NZ). rewrite Y in S2. apply StronglySorted_inv in S2. destruct S2 as [_ F2]. rewrite Forall_forall in F2.
  assert (L1 : forall x, In x l1 -> e_sid x <> sid) by (intros x I X; apply NI; left; rewrite ES, <- X; apply in_map, I).
  assert (L2 : forall x, In x l2 -> e_sid x <> sid) by (intros x I X; apply NI; right; rewrite ES, <- X; apply in_map, I).
  assert (R : idx_loop 0 (l1 ++ e :: l2) sid n None None = idx_loop (0 + length l1) (e :: l2) sid n None None).
  { destruct HN as [[-> HZ]| ->].
    - apply idx_zero. rewrite Forall_forall. intros x I. split; [apply L1, I|apply HZ, I].
    - apply idx_low; [exact NZ|]. rewrite Forall_forall. intros x I. split; [apply L1, I|].
      destruct (N.eq_dec (e_order x) 0) as [->|NX]; [lia|]. apply S3; [apply in_ords; eauto|]. rewrite ords_cons, Y. left. reflexivity. }
  unfold get_idx. rewrite R. cbn [idx_loop]. rewrite ES, N.eqb_refl.
  assert (O : (if n =? 0 then e_order e else n) = e_order e) by (destruct HN as [[-> _]| ->]; [reflexivity|rewrite Y; reflexivity]).
  rewrite O, N.eqb_refl. rewrite idx_end.
  - rewrite Y. reflexivity.
  - rewrite Forall_forall. intros x I. split; [apply L2, I|]. intros X. assert (e_order e < e_order x); [|lia].
    apply F2. apply in_ords. split; [lia|exists x; auto].
Qed.

(** A session with an entry is given a lower order. *)
Lemma idx_lower l1 l2 e l3 sid n : e_sid e = sid -> n <> 0 -> n < e_order e -> NoDup (sids (l1 ++ l2 ++ e :: l3)) ->
  (forall x, In x (l1 ++ l2 ++ e :: l3) -> e_order x <> n) -> Forall (fun x => e_order x < n) l1 ->
  match l2 with [] => True | x :: _ => n < e_order x end ->
  get_idx (l1 ++ l2 ++ e :: l3) sid n = Some (n, Some (length l1 + length l2)%nat, length l1).
Proof.
  intros ES Z L ND NE A B. unfold sids in ND. rewrite app_assoc, map_app in ND. cbn [map] in ND. pose proof (NoDup_remove_2 _ _ _ ND) as NI. rewrite in_app_iff, map_app, in_app_iff in NI.
  assert (L1 : forall x, In x l1 -> e_sid x <> sid) by (intros x I X; apply NI; left; left; rewrite ES, <- X; apply in_map, I).
  assert (L2 : forall x, In x l2 -> e_sid x <> sid) by (intros x I X; apply NI; left; right; rewrite ES, <- X; apply in_map, I).
  assert (L3 : forall x, In x l3 -> e_sid x <> sid) by (intros x I X; apply NI; right; rewrite ES, <- X; apply in_map, I).
  assert (Y : n =? 0 = false) by (apply N.eqb_neq; exact Z).
  assert (NEe : e_order e =? n = false) by (apply N.eqb_neq; lia).
  assert (Ge : n <? e_order e = true) by (apply N.ltb_lt; exact L).
  assert (T : forall i k, idx_loop i (e :: l3) sid n None (Some k) = Some (n, Some i, Some k)).
  { intros i k. cbn [idx_loop]. rewrite ES, N.eqb_refl, Y, NEe. rewrite idx_end; [reflexivity|].
    rewrite Forall_forall. intros x I. split; [apply L3, I|apply NE]. apply in_or_app. right. apply in_or_app. right. right. exact I. }
  unfold get_idx. rewrite idx_low; [|exact Z|].
  2:{ rewrite Forall_forall in *. intros x I. split; [apply L1, I|apply A, I]. }
  destruct l2 as [|x l2].
  - cbn [app idx_loop]. rewrite ES, N.eqb_refl, Y, NEe. cbn [negb andb]. rewrite Ge, ?Y. cbn [negb andb].
    rewrite idx_end.
    + rewrite Y. cbn [length]. rewrite Nat.add_0_r. reflexivity.
    + rewrite Forall_forall. intros x I. split; [apply L3, I|apply NE]. apply in_or_app. right. right. exact I.
  - cbn [app idx_loop]. assert (NS : e_sid x =? sid = false) by (apply N.eqb_neq, L2; left; reflexivity).
    assert (NO : e_order x =? n = false) by (apply N.eqb_neq, NE; apply in_or_app; right; left; reflexivity).
    rewrite NS, NO, Y. cbn [negb andb]. assert (G : n <? e_order x = true) by (apply N.ltb_lt; exact B). rewrite G.
    rewrite idx_rest.
    + rewrite T, Y. cbn [length]. do 3 f_equal. f_equal. lia.
    + rewrite Forall_forall. intros y I. split; [apply L2; right; exact I|apply NE]. apply in_or_app. right. right. apply in_or_app. left. exact I.
Qed.

(** ** Update *)

Lemma nth_mid {A} (l1 : list A) x l2 : nth_error (l1 ++ x :: l2) (length l1) = Some x.
Proof. rewrite nth_error_app2 by lia. rewrite Nat.sub_diag. reflexivity. Qed.

Lemma set_at_mid l1 x y l2 : set_at (length l1) y (l1 ++ x :: l2) = l1 ++ y :: l2.
Proof.
  unfold set_at. rewrite firstn_app, Nat.sub_diag, firstn_all, firstn_O, app_nil_r. f_equal. f_equal.
  rewrite skipn_app, skipn_all2 by lia. replace (S (length l1) - length l1)%nat with 1%nat by lia. reflexivity.
Qed.

Lemma fill_mid l1 e l2 c sid o h : e_cid e = c -> e_sid e = sid ->
  fill (length l1) c sid o h (l1 ++ e :: l2) = UOk (l1 ++ mkentry c sid o (match h with Some h => h | None => e_has e end) :: l2).
Proof. intros C S. unfold fill. rewrite nth_mid, C, S, !N.eqb_refl. cbn [andb]. rewrite set_at_mid. reflexivity. Qed.

Lemma insert_mid l1 e l2 : insert_at (length l1) e (l1 ++ l2) = l1 ++ e :: l2.
Proof.
  unfold insert_at. rewrite firstn_app, Nat.sub_diag, firstn_all, firstn_O, app_nil_r. f_equal. f_equal.
  rewrite skipn_app, skipn_all2 by lia. rewrite Nat.sub_diag. reflexivity.
Qed.

Lemma upd_new_order arr c sid n h : n <> 0 -> ~ In sid (sids arr) -> srt arr -> (forall e, In e arr -> e_order e <> n) ->
  exists l1 l2, arr = l1 ++ l2 /\ Forall (fun e => e_order e < n) l1 /\ Forall (fun e => e_order e = 0 \/ n < e_order e) l2 /\
    update arr c sid n h = UOk (l1 ++ mkentry c sid n (match h with Some h => h | None => false end) :: l2).
Proof.
  intros Z NS S NE. destruct (idx_new_order arr sid n Z NS S NE) as (l1 & l2 & E & A & B & G).
  exists l1, l2. split; [exact E|]. split; [exact A|]. split; [exact B|]. unfold update. rewrite G, E, insert_mid, fill_mid; reflexivity.
Qed.

Lemma upd_new arr c sid h : ~ In sid (sids arr) -> (forall e, In e arr -> e_order e <> 0) ->
  update arr c sid 0 h = UOk (arr ++ [mkentry c sid (match arr with [] => 1 | _ => (e_order (last arr (mkentry 0 0 0 false)) + 1) mod two32 end)
    (match h with Some h => h | None => false end)]).
Proof.
  intros NS NZ. unfold update. rewrite idx_new by assumption. rewrite <- (app_nil_r arr) at 4. rewrite insert_mid, fill_mid; reflexivity.
Qed.

Lemma upd_same l1 e l2 c sid n h : e_cid e = c -> e_sid e = sid -> (n = 0 /\ (forall x, In x l1 -> e_order x <> 0) \/ n = e_order e) -> e_order e <> 0 ->
  NoDup (sids (l1 ++ e :: l2)) -> srt (l1 ++ e :: l2) ->
  update (l1 ++ e :: l2) c sid n h = UOk (l1 ++ mkentry c sid (e_order e) (match h with Some h => h | None => e_has e end) :: l2).
Proof.
  intros C S HN Z ND SR. unfold update. rewrite (idx_same l1 e l2 sid n S HN Z ND SR). rewrite Nat.eqb_refl. apply fill_mid; assumption.
Qed.

Lemma upd_lower arr e c sid n h : In e arr -> e_cid e = c -> e_sid e = sid -> n <> 0 -> n < e_order e -> NoDup (sids arr) -> srt arr ->
  (forall x, In x arr -> e_order x <> n) ->
  exists l1 l2, others sid arr = l1 ++ l2 /\ Forall (fun e => e_order e < n) l1 /\ Forall (fun e => e_order e = 0 \/ n < e_order e) l2 /\
    update arr c sid n h = UOk (l1 ++ mkentry c sid n (match h with Some h => h | None => e_has e end) :: l2).
Proof.
  intros I C ES Z L ND SR NE. destruct (split_at arr n SR Z NE) as (l1 & l2 & E & A & B & D).
  assert (I2 : In e l2).
  { rewrite E in I. apply in_app_or in I. destruct I as [I|I]; [|exact I]. rewrite Forall_forall in A. specialize (A e I). lia. }
  apply in_split in I2. destruct I2 as (m & l3 & E2). subst l2.
  assert (O : others sid arr = l1 ++ m ++ l3).
  { rewrite E, app_assoc. rewrite others_mid; [rewrite app_assoc; reflexivity|exact ES|]. rewrite <- app_assoc, <- E. exact ND. }
  exists l1, (m ++ l3). split; [exact O|]. split; [exact A|].
  split. { rewrite Forall_app in *. destruct D as [D1 D2]. split; [exact D1|]. inversion D2; assumption. }
  subst arr. unfold update. rewrite (idx_lower l1 m e l3 sid n ES Z L ND NE A).
  2:{ destruct m; [exact Logic.I|exact B]. }
  destruct m as [|x m].
  - cbn [length app]. rewrite Nat.add_0_r, Nat.eqb_refl. apply fill_mid; assumption.
  - assert (Nat.eqb (length l1 + length (x :: m)) (length l1) = false) by (apply Nat.eqb_neq; cbn [length]; lia). rewrite H.
    assert (NT : nth_error (l1 ++ (x :: m) ++ e :: l3) (length l1 + length (x :: m)) = Some e).
    { rewrite app_assoc, <- app_length. apply nth_mid. }
    rewrite NT. assert (Nat.ltb (length l1) (length l1 + length (x :: m)) = true) by (apply Nat.ltb_lt; cbn [length]; lia). rewrite H0.
    replace (length l1 + length (x :: m) - length l1)%nat with (length (x :: m)) by lia.
    assert (F1 : firstn (length l1) (l1 ++ (x :: m) ++ e :: l3) = l1) by (rewrite firstn_app, Nat.sub_diag, firstn_all, firstn_O, app_nil_r; reflexivity).
    assert (F2 : skipn (length l1) (l1 ++ (x :: m) ++ e :: l3) = (x :: m) ++ e :: l3) by (rewrite skipn_app, skipn_all2, Nat.sub_diag by lia; reflexivity).
    assert (F3 : firstn (length (x :: m)) ((x :: m) ++ e :: l3) = x :: m) by (rewrite firstn_app, Nat.sub_diag, firstn_all, firstn_O, app_nil_r; reflexivity).
    assert (F4 : skipn (S (length l1 + length (x :: m))) (l1 ++ (x :: m) ++ e :: l3) = l3).
    { rewrite app_assoc, skipn_app, skipn_all2 by (rewrite app_length; lia). rewrite app_length.
      replace (S (length l1 + length (x :: m)) - (length l1 + length (x :: m)))%nat with 1%nat by lia. reflexivity. }
    rewrite F1, F2, F3, F4. apply fill_mid; assumption.
Qed.

Lemma push_del_mid l1 e l2 sid : e_sid e = sid -> ~ In sid (sids l1) -> push_del sid (l1 ++ e :: l2) = Some (l1 ++ l2).
Proof.
  intros S. induction l1 as [|x l1 IH]; intros NI; cbn [app push_del].
  - rewrite S, N.eqb_refl. reflexivity.
  - assert (e_sid x =? sid = false) by (apply N.eqb_neq; intros X; apply NI; left; exact X). rewrite H, IH; [reflexivity|].
    intros X. apply NI. right. exact X.
Qed.

(** The array after an update, in terms of the other entries. *)
Lemma put_srt l1 x l2 : srt (l1 ++ l2) -> e_order x <> 0 -> Forall (fun e => e_order e < e_order x) l1 ->
  Forall (fun e => e_order e = 0 \/ e_order x < e_order e) l2 -> srt (l1 ++ x :: l2).
Proof.
  intros S Z A B. apply srt_app in S. destruct S as (S1 & S2 & S3). apply srt_app. split; [exact S1|].
  rewrite Forall_forall in A, B. assert (Y : e_order x =? 0 = false) by (apply N.eqb_neq; exact Z). split.
  - unfold srt. rewrite ords_cons, Y. constructor; [exact S2|]. rewrite Forall_forall. intros o I. apply in_ords in I. destruct I as (N & e & I & <-).
    destruct (B e I); [contradiction|assumption].
  - rewrite ords_cons, Y. intros u v U [<-|V]; [|apply S3; assumption]. apply in_ords in U. destruct U as (N & e & I & <-). apply A, I.
Qed.

Lemma srt_others sid arr : srt arr -> srt (others sid arr).
Proof.
  intros S. induction arr as [|e arr IH]; [exact S|]. assert (S0 : srt arr) by (unfold srt in *; rewrite ords_cons in S; destruct (e_order e =? 0); [exact S|apply StronglySorted_inv in S; tauto]).
  unfold others. cbn [filter]. fold (others sid arr). destruct (negb (e_sid e =? sid)); [|apply IH, S0].
  unfold srt in *. rewrite ords_cons in *. destruct (e_order e =? 0); [apply IH, S0|]. apply StronglySorted_inv in S. destruct S as [_ F].
  constructor; [apply IH, S0|]. rewrite Forall_forall in *. intros o I. apply F. apply in_ords in I. destruct I as (Z & x & I & E). apply in_ords. split; [exact Z|].
  exists x. split; [|exact E]. apply filter_In in I. tauto.
Qed.

Lemma nodup_others sid arr : NoDup (sids arr) -> NoDup (sids (others sid arr)) /\ ~ In sid (sids (others sid arr)).
Proof.
  intros ND. split.
  - induction arr as [|e arr IH]; [constructor|]. inversion ND; subst. unfold others. cbn [filter]. fold (others sid arr).
    destruct (negb (e_sid e =? sid)); [|apply IH; assumption]. cbn [sids map]. constructor; [|apply IH; assumption].
    intros X. apply H1. unfold sids in X. apply in_map_iff in X. destruct X as (x & E & I). apply filter_In in I. rewrite <- E. apply in_map. tauto.
  - intros X. unfold sids in X. apply in_map_iff in X. destruct X as (x & E & I). apply filter_In in I. destruct I as [_ I].
    rewrite E, N.eqb_refl in I. discriminate.
Qed.

Lemma in_others sid arr e : In e (others sid arr) <-> In e arr /\ e_sid e <> sid.
Proof. unfold others. rewrite filter_In, negb_true_iff, N.eqb_neq. tauto. Qed.

Lemma nodup_put l1 x l2 : NoDup (sids (l1 ++ l2)) -> ~ In (e_sid x) (sids (l1 ++ l2)) -> NoDup (sids (l1 ++ x :: l2)).
Proof.
  unfold sids. rewrite !map_app. cbn [map]. intros ND NI. apply NoDup_Add with (a := e_sid x) (l := map e_sid l1 ++ map e_sid l2); [|split; assumption].
  apply Add_app.
Qed.

Lemma entry_of_in sid arr e : NoDup (sids arr) -> In e arr -> e_sid e = sid -> entry_of sid arr = Some e.
Proof.
  intros ND I E. induction arr as [|x arr IH]; [destruct I|]. inversion ND; subst. unfold entry_of. cbn [find].
  destruct I as [->|I].
  - rewrite N.eqb_refl. reflexivity.
  - destruct (N.eqb_spec (e_sid x) (e_sid e)) as [X|X]; [|apply IH; auto].
    exfalso. apply H1. rewrite X. apply in_map, I.
Qed.

Lemma entry_of_some sid arr e : entry_of sid arr = Some e -> In e arr /\ e_sid e = sid.
Proof. intros H. apply find_some in H. rewrite N.eqb_eq in H. exact H. Qed.

Lemma entry_of_none sid arr : entry_of sid arr = None <-> ~ In sid (sids arr).
Proof.
  split.
  - intros H X. unfold sids in X. apply in_map_iff in X. destruct X as (e & E & I). pose proof (find_none _ _ H e I) as F. cbv beta in F.
    rewrite E, N.eqb_refl in F. discriminate.
  - intros H. destruct (entry_of sid arr) as [e|] eqn:E; [|reflexivity]. apply entry_of_some in E. destruct E as [I E].
    exfalso. apply H. rewrite <- E. apply in_map, I.
Qed.
