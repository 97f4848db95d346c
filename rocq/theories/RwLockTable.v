(** The arrays of the lock represent a list of (cid, count). *)
From Coq Require Import List NArith Lia Bool Arith.
From Verif Require Import RwLock.
Import ListNotations.
Open Scope N_scope.

Notation ent := (N * N)%type.

Record rep (l : list ent) (r : rwlock) : Prop := mkrep {
  rep_readers : readers r = map fst l ++ repeat 0 (READ_LIMIT - length l);
  rep_rcount : rcount r = map snd l ++ repeat 0 (READ_LIMIT - length l);
  rep_len : (length l <= READ_LIMIT)%nat;
  rep_nodup : NoDup (map fst l);
  rep_ok : Forall (fun e => fst e <> 0 /\ 1 <= snd e <= 255) l
}.

Fixpoint cnt (l : list ent) (c : N) : N :=
  match l with
  | [] => 0
  | (c', n) :: r => if c' =? c then n else cnt r c
  end.

Lemma get_app_len : forall a x b, get (a ++ x :: b) (length a) = x.
Proof. intros. unfold get. rewrite app_nth2, Nat.sub_diag by lia. reflexivity. Qed.

Lemma set_app_len : forall a x b v, set (a ++ x :: b) (length a) v = a ++ v :: b.
Proof. induction a; intros; cbn [set app length]; [reflexivity|]. rewrite IHa. reflexivity. Qed.

Lemma set_app_at : forall a x b v i, i = length a -> set (a ++ x :: b) i v = a ++ v :: b.
Proof. intros. subst. apply set_app_len. Qed.

Lemma find_slot_app : forall a b c,
  Forall (fun x => x <> 0 /\ x <> c) a -> find_slot (a ++ b) c = (length a + find_slot b c)%nat.
Proof.
  induction a; intros b c H; cbn [find_slot app length]; [reflexivity|].
  inversion H as [|? ? [H1 H2] H']; subst.
  apply N.eqb_neq in H1. apply N.eqb_neq in H2. rewrite H1, H2. cbn [orb].
  rewrite IHa by assumption. reflexivity.
Qed.

Lemma run_len_app : forall a b, Forall (fun x => x <> 0) a -> run_len (a ++ b) = (length a + run_len b)%nat.
Proof.
  induction a; intros b H; cbn [run_len app length]; [reflexivity|].
  inversion H as [|? ? H1 H']; subst. apply N.eqb_neq in H1. rewrite H1. rewrite IHa by assumption. reflexivity.
Qed.

Lemma cnt_app : forall a b c, cnt (a ++ b) c = if existsb (fun e => fst e =? c) a then cnt a c else cnt b c.
Proof.
  induction a as [|[x n] a IH]; intros; cbn [cnt app existsb fst]; [reflexivity|].
  destruct (x =? c); cbn [orb]; [reflexivity|]. apply IH.
Qed.

Lemma cnt_notin : forall l c, ~ In c (map fst l) -> cnt l c = 0.
Proof.
  induction l as [|[x n] l IH]; intros c H; cbn [cnt]; [reflexivity|].
  destruct (N.eqb_spec x c); [exfalso; apply H; left; assumption|].
  apply IH. intro. apply H. right. assumption.
Qed.

Lemma cnt_split : forall a c n b, ~ In c (map fst a) -> cnt (a ++ (c, n) :: b) c = n.
Proof.
  induction a as [|[x m] a IH]; intros c n b H; cbn [app cnt].
  - rewrite N.eqb_refl. reflexivity.
  - destruct (N.eqb_spec x c); [exfalso; apply H; left; assumption|].
    apply IH. intro. apply H. right. assumption.
Qed.

Lemma cnt_other : forall a c n b c', c' <> c -> cnt (a ++ (c, n) :: b) c' = cnt (a ++ b) c'.
Proof.
  induction a as [|[x m] a IH]; intros c n b c' H; cbn [app cnt].
  - destruct (N.eqb_spec c c'); [congruence|reflexivity].
  - destruct (x =? c'); [reflexivity|]. apply IH. assumption.
Qed.

Lemma cnt_pos_in : forall l c, 1 <= cnt l c -> In c (map fst l).
Proof.
  intros l c H. destruct (in_dec N.eq_dec c (map fst l)); [assumption|].
  rewrite cnt_notin in H by assumption. lia.
Qed.

Lemma cnt_in_pos : forall l c, Forall (fun e => fst e <> 0 /\ 1 <= snd e <= 255) l ->
  In c (map fst l) -> 1 <= cnt l c <= 255.
Proof.
  induction l as [|[x n] l IH]; intros c HF Hin; cbn [cnt]; [destruct Hin|].
  inversion HF as [|? ? [_ Hn] HF']; subst. cbn [snd] in Hn.
  destruct (N.eqb_spec x c); [lia|]. apply IH; [assumption|].
  destruct Hin as [E|Hin]; [cbn in E; congruence|assumption].
Qed.

Lemma in_split_fst : forall (l : list ent) c, In c (map fst l) ->
  NoDup (map fst l) ->
  exists a n b, l = a ++ (c, n) :: b /\ ~ In c (map fst a) /\ ~ In c (map fst b).
Proof.
  induction l as [|[x n] l IH]; intros c H ND; [destruct H|].
  cbn [map fst] in *. inversion ND; subst.
  destruct (N.eq_dec x c) as [->|Hne].
  - exists [], n, l. repeat split; auto.
  - destruct H as [H|H]; [congruence|]. destruct (IH c H H3) as (a & m & b & -> & Ha & Hb).
    exists ((x, n) :: a), m, b. repeat split; auto.
    cbn [map fst]. intros [E|E]; [congruence|]. auto.
Qed.

Lemma rep_neq_forall : forall (l : list ent) c,
  Forall (fun e => fst e <> 0 /\ 1 <= snd e <= 255) l -> ~ In c (map fst l) ->
  Forall (fun x => x <> 0 /\ x <> c) (map fst l).
Proof.
  intros l c HF Hn. apply Forall_forall. intros x Hx. split.
  - apply in_map_iff in Hx. destruct Hx as (e & <- & He). rewrite Forall_forall in HF. apply HF in He. apply He.
  - intros ->. auto.
Qed.

Lemma find_slot_notin : forall l c r, rep l r -> c <> 0 -> ~ In c (map fst l) ->
  find_slot (readers r) c = length l.
Proof.
  intros l c r H Hc Hn. rewrite (rep_readers _ _ H).
  rewrite find_slot_app by (apply rep_neq_forall; [apply (rep_ok _ _ H)|assumption]).
  rewrite map_length. destruct (READ_LIMIT - length l)%nat; cbn; lia.
Qed.

Lemma find_slot_in : forall a c n b r, rep (a ++ (c, n) :: b) r -> find_slot (readers r) c = length a.
Proof.
  intros a c n b r H. rewrite (rep_readers _ _ H). rewrite map_app. cbn [map fst].
  rewrite <- app_assoc. cbn [app].
  rewrite find_slot_app.
  - cbn [find_slot]. rewrite N.eqb_refl, orb_true_r, map_length. lia.
  - apply rep_neq_forall.
    + pose proof (rep_ok _ _ H) as HF. apply Forall_app in HF. apply HF.
    + pose proof (rep_nodup _ _ H) as ND. rewrite map_app in ND. cbn [map fst] in ND.
      apply NoDup_remove_2 in ND. intro. apply ND. apply in_or_app. auto.
Qed.

Lemma get_readers_rep : forall a c n b r, rep (a ++ (c, n) :: b) r -> get (readers r) (length a) = c.
Proof.
  intros. rewrite (rep_readers _ _ H), map_app. cbn [map fst]. rewrite <- app_assoc. cbn [app].
  rewrite <- (map_length fst a). apply get_app_len.
Qed.

Lemma get_rcount_rep : forall a c n b r, rep (a ++ (c, n) :: b) r -> get (rcount r) (length a) = n.
Proof.
  intros. rewrite (rep_rcount _ _ H), map_app. cbn [map snd]. rewrite <- app_assoc. cbn [app].
  rewrite <- (map_length snd a). apply get_app_len.
Qed.

Lemma get_repeat0 : forall k i, get (repeat 0 k) i = 0.
Proof. induction k; destruct i; cbn; auto. apply IHk. Qed.

Lemma get_readers_out : forall l r i, rep l r -> (length l <= i)%nat -> get (readers r) i = 0.
Proof.
  intros l r i H Hi. rewrite (rep_readers _ _ H). unfold get.
  rewrite app_nth2; rewrite map_length; [|lia]. apply get_repeat0.
Qed.

Lemma get_rcount_out : forall l r i, rep l r -> (length l <= i)%nat -> get (rcount r) i = 0.
Proof.
  intros l r i H Hi. rewrite (rep_rcount _ _ H). unfold get.
  rewrite app_nth2; rewrite map_length; [|lia]. apply get_repeat0.
Qed.

Lemma split_nth : forall (X : Type) (l : list X) i, (i < length l)%nat ->
  exists a x b, l = a ++ x :: b /\ length a = i.
Proof.
  intros X l i H. destruct (nth_error l i) eqn:E.
  - apply nth_error_split in E. destruct E as (a & b & -> & <-). eauto.
  - apply nth_error_None in E. lia.
Qed.

Lemma get_readers_nz : forall l r i, rep l r -> get (readers r) i <> 0 <-> (i < length l)%nat.
Proof.
  intros l r i H. split.
  - intros Hn. destruct (Nat.lt_ge_cases i (length l)); [assumption|].
    exfalso. apply Hn. eapply get_readers_out; eassumption.
  - intros Hlt. destruct (split_nth _ l i Hlt) as (a & [c n] & b & -> & <-).
    rewrite (get_readers_rep a c n b r H).
    pose proof (rep_ok _ _ H) as HF. apply Forall_app in HF. destruct HF as [_ HF].
    inversion HF as [|? ? [H1 _] _]; subst. exact H1.
Qed.

(** Representation after changes of the other fields. *)
Lemma rep_eq : forall l r r', readers r' = readers r -> rcount r' = rcount r -> rep l r -> rep l r'.
Proof. intros l r r' H1 H2 H. destruct H. constructor; congruence. Qed.

Lemma rep_set_upgr : forall l r u, rep l r -> rep l (set_upgr u r).
Proof. intros. eapply rep_eq; [| |eassumption]; reflexivity. Qed.
Lemma rep_set_writer : forall l r u, rep l r -> rep l (set_writer u r).
Proof. intros. eapply rep_eq; [| |eassumption]; reflexivity. Qed.
Lemma rep_assert : forall l r b, rep l r -> rep l (assert_ b r).
Proof. intros. eapply rep_eq; [| |eassumption]; reflexivity. Qed.
#[export] Hint Resolve rep_set_upgr rep_set_writer rep_assert : rwl.

(** Fields other than the table are kept. *)
Definition same_flags (r r' : rwlock) : Prop :=
  upgr r' = upgr r /\ writer r' = writer r /\ bad r' = bad r.

Lemma reader_add_rep : forall l r c, rep l r -> c <> 0 ->
  match reader_add r c with
  | Some r' => same_flags r r' /\ exists l', rep l' r' /\ cnt l' c = cnt l c + 1 /\
               (forall c', c' <> c -> cnt l' c' = cnt l c') /\ 
               (forall c', In c' (map fst l') <-> c' = c \/ In c' (map fst l))
  | None => cnt l c = 255 \/ (length l = READ_LIMIT /\ ~ In c (map fst l))
  end.
Proof.
  intros l r c H Hc. unfold reader_add.
  destruct (in_dec N.eq_dec c (map fst l)) as [Hin|Hnin].
  - destruct (in_split_fst l c Hin (rep_nodup _ _ H)) as (a & n & b & -> & Ha & Hb).
    rewrite (find_slot_in a c n b r H).
    pose proof (rep_len _ _ H) as HL. rewrite app_length in HL. cbn [length] in HL.
    replace (Nat.eqb (length a) READ_LIMIT) with false by (symmetry; apply Nat.eqb_neq; lia).
    rewrite (get_readers_rep a c n b r H).
    replace (c =? 0) with false by (symmetry; apply N.eqb_neq; assumption).
    rewrite (get_rcount_rep a c n b r H).
    destruct (N.eqb_spec n 255) as [->|Hn].
    + left. apply cnt_split. assumption.
    + split; [repeat split|]. exists (a ++ (c, n + 1) :: b).
      pose proof (rep_ok _ _ H) as HF. apply Forall_app in HF. destruct HF as [HF1 HF2].
      inversion HF2 as [|? ? [Hz Hr] HF3]; subst. cbn [fst snd] in *.
      split; [constructor|].
      * cbn [set_table readers]. rewrite (rep_readers _ _ H), !map_app, !app_length. reflexivity.
      * cbn [set_table rcount]. rewrite (rep_rcount _ _ H), !map_app, !app_length. cbn [map snd length].
        rewrite <- !app_assoc. cbn [app]. rewrite <- (map_length snd a). rewrite set_app_len. reflexivity.
      * rewrite app_length. cbn [length]. lia.
      * pose proof (rep_nodup _ _ H) as ND. rewrite map_app in *. exact ND.
      * apply Forall_app. split; [assumption|]. constructor; [|assumption]. cbn [fst snd]. split; [assumption|lia].
      * rewrite !cnt_split by assumption. split; [reflexivity|]. split.
        -- intros. rewrite !cnt_other by assumption. reflexivity.
        -- intros c'. rewrite !map_app. cbn [map fst]. split; intros K.
           ++ right. exact K.
           ++ destruct K as [->|K]; [apply in_or_app; right; left; reflexivity|exact K].
  - rewrite (find_slot_notin l c r H Hc Hnin).
    destruct (Nat.eqb_spec (length l) READ_LIMIT) as [E|E].
    { right. split; assumption. }
    rewrite (get_readers_out l r (length l) H) by lia. cbn [N.eqb].
    split; [repeat split|]. pose proof (rep_len _ _ H) as HL.
    exists (l ++ [(c, 1)]).
    assert (Ek : (READ_LIMIT - length l = S (READ_LIMIT - (length l + 1)))%nat) by lia.
    split; [constructor|].
    + cbn [set_table readers]. rewrite (rep_readers _ _ H), map_app, app_length. cbn [map fst length].
      rewrite Ek. cbn [repeat]. rewrite <- (map_length fst l) at 2. rewrite set_app_len.
      rewrite <- app_assoc. reflexivity.
    + cbn [set_table rcount]. rewrite (rep_rcount _ _ H), map_app, app_length. cbn [map snd length].
      rewrite Ek. cbn [repeat]. rewrite <- (map_length snd l) at 2. rewrite set_app_len.
      rewrite <- app_assoc. reflexivity.
    + rewrite app_length. cbn [length]. lia.
    + rewrite map_app. cbn [map fst]. apply NoDup_Add with (a := c) (l := map fst l).
      * rewrite <- (app_nil_r (map fst l)) at 1. apply Add_app.
      * split; [apply (rep_nodup _ _ H)|assumption].
    + apply Forall_app. split; [apply (rep_ok _ _ H)|]. constructor; [|constructor].
      cbn [fst snd]. split; [assumption|lia].
    + split.
      { rewrite cnt_split by assumption. rewrite cnt_notin by assumption. reflexivity. }
      split.
      { intros. rewrite cnt_other by assumption. rewrite app_nil_r. reflexivity. }
      intros c'. rewrite map_app. cbn [map fst]. rewrite in_app_iff. cbn [In]. intuition congruence.
Qed.

(** Removing one read lock at an index. *)
Definition del_at (a : list ent) (c n : N) (b : list ent) : list ent :=
  if n =? 1 then a ++ b else a ++ (c, n - 1) :: b.

Lemma skipn_app_len : forall A (a b : list A), skipn (length a) (a ++ b) = b.
Proof. intros. rewrite skipn_app, Nat.sub_diag, skipn_all. reflexivity. Qed.
Lemma firstn_app_len : forall A (a b : list A), firstn (length a) (a ++ b) = a.
Proof. intros. rewrite firstn_app, Nat.sub_diag, firstn_all. cbn. apply app_nil_r. Qed.

Lemma skipn_app_len1 : forall A (a : list A) x b, skipn (length a + 1) (a ++ x :: b) = b.
Proof.
  intros. replace (length a + 1)%nat with (length (a ++ [x])) by (rewrite app_length; reflexivity).
  replace (a ++ x :: b) with ((a ++ [x]) ++ b) by (rewrite <- app_assoc; reflexivity).
  apply skipn_app_len.
Qed.

(** The shifting of the part after the removed element, on one array. *)
Lemma shift_restore : forall (a : list N) x b y z i m,
  i = length a -> length b = m ->
  set (shift (set (a ++ x :: (b ++ y :: z)) (i + S m) 0) i (S m)) (i + m) y
  = a ++ (b ++ y :: 0 :: z).
Proof.
  intros a x b y z i m -> Hm.
  replace (length a + S m)%nat with (length (a ++ x :: b)) by (rewrite app_length; cbn [length]; lia).
  replace (a ++ x :: b ++ y :: z) with ((a ++ x :: b) ++ y :: z) by (rewrite <- app_assoc; reflexivity).
  rewrite set_app_len. rewrite <- app_assoc. cbn [app].
  unfold shift. rewrite firstn_app_len, skipn_app_len1.
  replace (firstn (S m) (b ++ 0 :: z)) with (b ++ [0]).
  2:{ replace (b ++ 0 :: z) with ((b ++ [0]) ++ z) by (rewrite <- app_assoc; reflexivity).
      replace (S m) with (length (b ++ [0])) by (rewrite app_length; cbn [length]; lia).
      symmetry. apply firstn_app_len. }
  replace (skipn (length a + S m) (a ++ x :: b ++ 0 :: z)) with (0 :: z).
  2:{ replace (length a + S m)%nat with (length (a ++ x :: b)) by (rewrite app_length; cbn [length]; lia).
      replace (a ++ x :: b ++ 0 :: z) with ((a ++ x :: b) ++ 0 :: z) by (rewrite <- app_assoc; reflexivity).
      symmetry. apply skipn_app_len. }
  replace (a ++ (b ++ [0]) ++ 0 :: z) with ((a ++ b) ++ 0 :: 0 :: z).
  2:{ rewrite <- !app_assoc. reflexivity. }
  replace (length a + m)%nat with (length (a ++ b)) by (rewrite app_length; lia).
  rewrite set_app_len. rewrite <- app_assoc. reflexivity.
Qed.

Lemma reader_del__rep : forall a c n b r, rep (a ++ (c, n) :: b) r ->
  rep (del_at a c n b) (reader_del_ r (length a)) /\ same_flags r (reader_del_ r (length a)).
Proof.
  intros a c n b r H.
  pose proof (rep_ok _ _ H) as HF. apply Forall_app in HF. destruct HF as [HF1 HF2].
  inversion HF2 as [|? ? [Hz Hr] HF3]; subst. cbn [fst snd] in *.
  pose proof (rep_len _ _ H) as HL. rewrite app_length in HL. cbn [length] in HL.
  pose proof (rep_nodup _ _ H) as ND. rewrite map_app in ND. cbn [map fst] in ND.
  unfold reader_del_, del_at. rewrite (get_rcount_rep a c n b r H).
  replace (negb (n =? 0)) with true by (destruct (N.eqb_spec n 0); [lia|reflexivity]).
  cbn [assert_ readers rcount set_table upgr writer bad negb].
  rewrite (get_rcount_rep a c n b r H).
  destruct (N.eqb_spec n 1) as [->|Hn].
  - change ((1 + 255) mod 256) with 0. cbn [N.eqb negb].
    assert (Erc : set (rcount r) (length a) 0 = map snd a ++ 0 :: map snd b ++ repeat 0 (READ_LIMIT - length (a ++ (c, 1) :: b))).
    { rewrite (rep_rcount _ _ H), map_app. cbn [map snd]. rewrite <- app_assoc. cbn [app].
      rewrite <- (map_length snd a) at 1. apply set_app_len. }
    rewrite Erc. clear Erc.
    assert (Ers : readers r = map fst a ++ c :: map fst b ++ repeat 0 (READ_LIMIT - length (a ++ (c, 1) :: b))).
    { rewrite (rep_readers _ _ H), map_app. cbn [map fst]. rewrite <- app_assoc. reflexivity. }
    rewrite Ers.
    set (k := (READ_LIMIT - length (a ++ (c, 1%N) :: b))%nat).
    assert (Ek : (READ_LIMIT - length (a ++ b) = S k)%nat).
    { unfold k. rewrite !app_length. cbn [length]. lia. }
    assert (Emc : run_len (skipn (length a + 1) (map fst a ++ c :: map fst b ++ repeat 0 k)) = length b).
    { rewrite <- (map_length fst a). rewrite skipn_app_len1.
      rewrite run_len_app.
      - rewrite map_length. destruct k; cbn; lia.
      - apply Forall_forall. intros x Hx. apply in_map_iff in Hx. destruct Hx as (e & <- & He).
        rewrite Forall_forall in HF3. apply HF3 in He. apply He. }
    rewrite Emc. clear Emc.
    assert (HND : NoDup (map fst (a ++ b))).
    { rewrite map_app. apply NoDup_remove_1 in ND. assumption. }
    assert (HFab : Forall (fun e => fst e <> 0 /\ 1 <= snd e <= 255) (a ++ b)) by (apply Forall_app; auto).
    assert (HLab : (length (a ++ b) <= READ_LIMIT)%nat) by (rewrite app_length; lia).
    destruct b as [|e b'] using rev_ind.
    + cbn [length map app]. split; [|repeat split; cbn; rewrite orb_false_r; reflexivity].
      rewrite app_nil_r in *. constructor; cbn [set_table readers rcount]; try assumption.
      * rewrite Ek. cbn [repeat]. rewrite Nat.add_0_r. rewrite <- (map_length fst a).
        rewrite set_app_len. reflexivity.
      * rewrite Ek. cbn [repeat]. rewrite Nat.add_0_r. rewrite <- (map_length snd a).
        rewrite set_app_len. reflexivity.
    + clear IHb'. rewrite app_length. cbn [length]. rewrite Nat.add_1_r.
      destruct e as [lc ln]. rewrite !map_app. cbn [map fst snd].
      assert (Eg1 : get (map fst a ++ c :: (map fst b' ++ [lc]) ++ repeat 0 k) (length a + S (length b')) = lc).
      { rewrite <- app_assoc. cbn [app].
        replace (map fst a ++ c :: map fst b' ++ lc :: repeat 0 k)
           with ((map fst a ++ c :: map fst b') ++ lc :: repeat 0 k) by (rewrite <- app_assoc; reflexivity).
        replace (length a + S (length b'))%nat with (length (map fst a ++ c :: map fst b')).
        - apply get_app_len.
        - rewrite app_length. cbn [length]. rewrite !map_length. reflexivity. }
      assert (Eg2 : get (map snd a ++ 0 :: (map snd b' ++ [ln]) ++ repeat 0 k) (length a + S (length b')) = ln).
      { rewrite <- app_assoc. cbn [app].
        replace (map snd a ++ 0 :: map snd b' ++ ln :: repeat 0 k)
           with ((map snd a ++ 0 :: map snd b') ++ ln :: repeat 0 k) by (rewrite <- app_assoc; reflexivity).
        replace (length a + S (length b'))%nat with (length (map snd a ++ 0 :: map snd b')).
        - apply get_app_len.
        - rewrite app_length. cbn [length]. rewrite !map_length. reflexivity. }
      rewrite Eg1, Eg2.
      split; [|repeat split; cbn; rewrite orb_false_r; reflexivity].
      constructor; cbn [set_table readers rcount]; try assumption.
      * rewrite Ek. rewrite !map_app. cbn [map fst]. rewrite <- !app_assoc. cbn [app].
        rewrite (shift_restore (map fst a) c (map fst b') lc) by (rewrite map_length; reflexivity).
        cbn [repeat]. reflexivity.
      * rewrite Ek. rewrite !map_app. cbn [map snd]. rewrite <- !app_assoc. cbn [app].
        rewrite (shift_restore (map snd a) 0 (map snd b') ln) by (rewrite map_length; reflexivity).
        cbn [repeat]. reflexivity.
  - assert (Em : (n + 255) mod 256 = n - 1).
    { replace (n + 255) with (n - 1 + 1 * 256) by lia. rewrite N.mod_add by lia. apply N.mod_small. lia. }
    rewrite Em. replace (n - 1 =? 0) with false by (symmetry; apply N.eqb_neq; lia). cbn [negb].
    split; [|repeat split; cbn; rewrite orb_false_r; reflexivity].
    constructor; cbn [set_table readers rcount].
    + rewrite (rep_readers _ _ H), !map_app, !app_length. reflexivity.
    + rewrite (rep_rcount _ _ H), !map_app, !app_length. cbn [map snd length].
      rewrite <- !app_assoc. cbn [app]. apply set_app_at. rewrite map_length. reflexivity.
    + rewrite app_length. cbn [length]. lia.
    + rewrite map_app. exact ND.
    + apply Forall_app. split; [assumption|]. constructor; [|assumption]. cbn [fst snd]. split; [assumption|lia].
Qed.

Lemma del_at_cnt : forall a c n b, NoDup (map fst (a ++ (c, n) :: b)) -> 1 <= n ->
  cnt (del_at a c n b) c = n - 1 /\
  (forall c', c' <> c -> cnt (del_at a c n b) c' = cnt (a ++ (c, n) :: b) c') /\
  (forall c', In c' (map fst (del_at a c n b)) -> In c' (map fst (a ++ (c, n) :: b))) /\
  (forall c', c' <> c -> In c' (map fst (a ++ (c, n) :: b)) -> In c' (map fst (del_at a c n b))).
Proof.
  intros a c n b ND Hn. rewrite map_app in ND. cbn [map fst] in ND.
  pose proof (NoDup_remove_2 _ _ _ ND) as Hnin. rewrite <- map_app in Hnin.
  unfold del_at. destruct (N.eqb_spec n 1) as [->|Hne].
  - split; [rewrite cnt_notin by assumption; reflexivity|]. split; [|split].
    + intros. rewrite cnt_other by assumption. reflexivity.
    + intros c'. rewrite !map_app. cbn [map fst]. rewrite !in_app_iff. cbn [In]. tauto.
    + intros c' Hc. rewrite !map_app. cbn [map fst]. rewrite !in_app_iff. cbn [In]. intuition congruence.
  - assert (~ In c (map fst a)) by (intro; apply Hnin; rewrite map_app; apply in_or_app; auto).
    split; [apply cnt_split; assumption|]. split; [|split].
    + intros. rewrite !cnt_other by assumption. reflexivity.
    + intros c'. rewrite !map_app. tauto.
    + intros c' _. rewrite !map_app. tauto.
Qed.

Lemma reader_del_rep : forall l r c, rep l r -> c <> 0 ->
  match reader_del r c with
  | Some r' => same_flags r r' /\ 1 <= cnt l c /\ exists l', rep l' r' /\ cnt l' c = cnt l c - 1 /\
               (forall c', c' <> c -> cnt l' c' = cnt l c') /\
               (forall c', In c' (map fst l') -> In c' (map fst l)) /\
               (forall c', c' <> c -> In c' (map fst l) -> In c' (map fst l'))
  | None => ~ In c (map fst l)
  end.
Proof.
  intros l r c H Hc. unfold reader_del.
  destruct (in_dec N.eq_dec c (map fst l)) as [Hin|Hnin].
  - destruct (in_split_fst l c Hin (rep_nodup _ _ H)) as (a & n & b & -> & Ha & Hb).
    rewrite (find_slot_in a c n b r H).
    pose proof (rep_len _ _ H) as HL. rewrite app_length in HL. cbn [length] in HL.
    replace (Nat.eqb (length a) READ_LIMIT) with false by (symmetry; apply Nat.eqb_neq; lia).
    rewrite (get_readers_rep a c n b r H). rewrite N.eqb_refl. cbn [orb negb].
    pose proof (rep_ok _ _ H) as HF. apply Forall_app in HF. destruct HF as [_ HF2].
    inversion HF2 as [|? ? [Hz Hr] HF3]; subst. cbn [fst snd] in *.
    destruct (reader_del__rep a c n b r H) as [HR HS].
    split; [exact HS|]. rewrite cnt_split by assumption. split; [lia|].
    exists (del_at a c n b). split; [exact HR|].
    destruct (del_at_cnt a c n b (rep_nodup _ _ H)) as (H1 & H2 & H3 & H4); [lia|].
    repeat split; assumption.
  - rewrite (find_slot_notin l c r H Hc Hnin).
    rewrite (get_readers_out l r (length l) H) by lia.
    replace (0 =? c) with false by (symmetry; apply N.eqb_neq; congruence).
    rewrite orb_true_r. assumption.
Qed.

(** *** Recovery *)

Definition live_part (alive : N -> bool) (l : list ent) : list ent := filter (fun e => alive (fst e)) l.

Fixpoint sumc (l : list ent) : nat :=
  match l with [] => O | (_, n) :: r => (N.to_nat n + sumc r)%nat end.

Lemma recover_readers_rep : forall alive fuel a b r,
  rep (a ++ b) r -> (sumc b + length b < fuel)%nat ->
  rep (a ++ live_part alive b) (recover_readers fuel alive r (length a)) /\
  same_flags r (recover_readers fuel alive r (length a)).
Proof.
  induction fuel as [|fuel IH]; intros a b r H Hf; [lia|].
  cbn [recover_readers].
  destruct b as [|[c n] b].
  - unfold live_part. cbn [filter]. rewrite app_nil_r in *.
    rewrite (get_readers_out a r (length a) H) by lia. cbn [N.eqb negb].
    rewrite andb_false_r. split; [assumption|repeat split].
  - pose proof (rep_len _ _ H) as HL. rewrite app_length in HL. cbn [length] in HL.
    replace (Nat.ltb (length a) READ_LIMIT) with true by (symmetry; apply Nat.ltb_lt; lia).
    rewrite (get_readers_rep a c n b r H).
    pose proof (rep_ok _ _ H) as HF. apply Forall_app in HF. destruct HF as [_ HF2].
    inversion HF2 as [|? ? [Hz Hr] HF3]; subst. cbn [fst snd] in *.
    replace (c =? 0) with false by (symmetry; apply N.eqb_neq; assumption). cbn [negb andb].
    destruct (alive c) eqn:Ea; cbn [negb].
    + replace (S (length a)) with (length (a ++ [(c, n)])) by (rewrite app_length; cbn; lia).
      specialize (IH (a ++ [(c, n)]) b r). rewrite <- app_assoc in IH. cbn [app] in IH.
      destruct (IH H) as [I1 I2].
      { cbn [sumc length] in Hf. lia. }
      unfold live_part in *. cbn [filter fst]. rewrite Ea. rewrite <- app_assoc in I1. cbn [app] in I1.
      split; assumption.
    + destruct (reader_del__rep a c n b r H) as [HR HS].
      unfold del_at in HR. destruct (N.eqb_spec n 1) as [->|Hn].
      * destruct (IH a b _ HR) as [I1 I2].
        { cbn [sumc length] in Hf. lia. }
        unfold live_part in *. cbn [filter fst]. rewrite Ea.
        split; [assumption|]. unfold same_flags in *. intuition congruence.
      * destruct (IH a ((c, n - 1) :: b) _ HR) as [I1 I2].
        { cbn [sumc length] in *. lia. }
        unfold live_part in *. cbn [filter fst] in *. rewrite Ea in *.
        split; [assumption|]. unfold same_flags in *. intuition congruence.
Qed.

Lemma sumc_bound : forall l, Forall (fun e => fst e <> 0 /\ 1 <= snd e <= 255) l ->
  (sumc l <= N.to_nat 255 * length l)%nat.
Proof.
  induction l as [|[c n] l IH]; intros H; cbn [sumc length]; [lia|].
  inversion H as [|? ? [_ Hn] H']; subst. cbn [snd] in Hn. specialize (IH H'). lia.
Qed.

Lemma fuel_enough : forall l r, rep l r -> (sumc l + length l < recover_fuel)%nat.
Proof.
  intros l r H. pose proof (sumc_bound l (rep_ok _ _ H)) as B. pose proof (rep_len _ _ H) as L.
  unfold READ_LIMIT, recover_fuel in *. 
  assert ((N.to_nat 255 * length l <= N.to_nat 255 * 16)%nat) by (apply Nat.mul_le_mono_l; assumption).
  lia.
Qed.

(** Effect of sr_rwlock_recover(): exactly what belongs to dead connections is removed. *)
Definition clear_dead (alive : N -> bool) (c : N) : N := if alive c then c else 0.

Lemma recover_rep : forall alive l r, rep l r ->
  rep (live_part alive l) (recover alive r) /\
  upgr (recover alive r) = (if upgr r =? 0 then 0 else clear_dead alive (upgr r)) /\
  writer (recover alive r) = (if writer r =? 0 then 0 else clear_dead alive (writer r)) /\
  bad (recover alive r) = bad r.
Proof.
  intros alive l r H.
  destruct (recover_readers_rep alive recover_fuel [] l r H (fuel_enough l r H)) as [HR (E1 & E2 & E3)].
  cbn [app length] in *. unfold recover.
  set (q := recover_readers recover_fuel alive r 0) in *. clearbody q.
  unfold clear_dead. rewrite <- E1, <- E2, <- E3.
  destruct (N.eqb_spec (upgr q) 0) as [Hu|Hu]; destruct (alive (upgr q)) eqn:Eu; cbn [negb andb set_upgr writer];
  destruct (N.eqb_spec (writer q) 0) as [Hw|Hw]; destruct (alive (writer q)) eqn:Ew; cbn [negb andb set_upgr set_writer upgr writer bad];
    (split; [auto 6 with rwl|]); repeat split; assumption || reflexivity.
Qed.

Lemma cnt_live_part : forall alive l c, 
  cnt (live_part alive l) c = if alive c then cnt l c else 0.
Proof.
  intros alive. induction l as [|[x n] l IH]; intros c; cbn [cnt live_part filter fst].
  - destruct (alive c); reflexivity.
  - destruct (alive x) eqn:Ex; cbn [cnt].
    + destruct (N.eqb_spec x c) as [->|Hne]; [rewrite Ex; reflexivity|]. apply IH.
    + unfold live_part in IH. rewrite IH. destruct (alive c) eqn:Ec; [|reflexivity].
      destruct (N.eqb_spec x c) as [->|Hne]; [congruence|reflexivity].
Qed.

Lemma rep_nil_readers0 : forall l r, rep l r -> nz (get (readers r) 0) = false -> l = [].
Proof.
  intros l r H E. destruct l as [|e l]; [reflexivity|]. exfalso.
  assert (get (readers r) 0 <> 0) by (apply (get_readers_nz _ _ 0%nat H); cbn; lia).
  unfold nz in E. apply N.eqb_neq in H0. rewrite H0 in E. discriminate.
Qed.

Lemma rep_one : forall l r, rep l r -> nz (get (readers r) 1) = false -> get (rcount r) 0 <= 1 ->
  l = [] \/ exists c, l = [(c, 1)].
Proof.
  intros l r H E Hc. destruct l as [|[c n] [|e l]]; [left; reflexivity| |].
  - right. exists c. pose proof (get_rcount_rep [] c n [] r H) as G. cbn [length] in G. rewrite G in Hc.
    pose proof (rep_ok _ _ H) as HF. inversion HF as [|? ? [_ Hr] _]. cbn [snd] in Hr.
    replace n with 1 by lia. reflexivity.
  - exfalso. assert (get (readers r) 1 <> 0) by (apply (get_readers_nz _ _ 1%nat H); cbn; lia).
    unfold nz in E. apply N.eqb_neq in H0. rewrite H0 in E. discriminate.
Qed.

Lemma rep_init : rep [] rw_init.
Proof. constructor; cbn; auto; try lia; constructor. Qed.
