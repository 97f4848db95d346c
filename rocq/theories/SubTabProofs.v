From Coq Require Import List NArith ZArith Lia Bool Arith.
From Verif Require Import Base BaseLemmas EvData EvDataProofs ExtShm ExtShmSpec ExtShmProofs ExtShmHoles ExtShmAlloc ExtShmRealloc SubTab SubTabSpec TabProofs.
Import ListNotations.
Open Scope N_scope.

(** * Bytes in the memory *)

Definition bytes_at (m : mem) (a : N) (bs : list N) : Prop :=
  forall j, j < nlen bs -> mb m (a + j) = nth (N.to_nat j) bs 0.

Lemma wr_spec : forall m o bs, o + nlen bs <= msize m ->
  exists m', wr m o bs = Some m' /\ msize m' = msize m /\ bytes_at m' o bs /\
    (forall b, b < o \/ o + nlen bs <= b -> mb m' b = mb m b).
Proof.
  intros m o bs H. unfold wr. replace (o + nlen bs <=? msize m) with true by (symmetry; apply N.leb_le; assumption).
  eexists. split; [reflexivity|]. split; [reflexivity|]. split.
  - intros j Hj. cbn [mb]. replace (o <=? o + j) with true by (symmetry; apply N.leb_le; lia).
    replace (o + j <? o + nlen bs) with true by (symmetry; apply N.ltb_lt; lia). cbn [andb]. f_equal. lia.
  - intros b Hb. cbn [mb]. destruct (N.leb_spec o b); destruct (N.ltb_spec b (o + nlen bs)); cbn [andb]; try reflexivity. lia.
Qed.

Lemma bytes_at_move : forall m m' a a' bs, bytes_at m a bs ->
  (forall j, j < nlen bs -> mb m' (a' + j) = mb m (a + j)) -> bytes_at m' a' bs.
Proof. intros m m' a a' bs H F j Hj. rewrite F by assumption. apply H. assumption. Qed.

Lemma bytes_at_app : forall m a x y, bytes_at m a (x ++ y) <-> bytes_at m a x /\ bytes_at m (a + nlen x) y.
Proof.
  intros m a x y. unfold bytes_at. rewrite nlen_app. split.
  - intros H. split; intros j Hj.
    + rewrite H by lia. rewrite app_nth1; [reflexivity|]. unfold nlen in *. lia.
    + rewrite <- N.add_assoc. rewrite H by lia. rewrite app_nth2 by (unfold nlen in *; lia). f_equal. unfold nlen in *. lia.
  - intros (H1 & H2) j Hj. destruct (N.lt_ge_cases j (nlen x)) as [L|L].
    + rewrite H1 by assumption. rewrite app_nth1; [reflexivity|]. unfold nlen in *. lia.
    + replace (a + j) with (a + nlen x + (j - nlen x)) by lia. rewrite H2 by lia. rewrite app_nth2 by (unfold nlen in *; lia).
      f_equal. unfold nlen in *. lia.
Qed.

Lemma rd32_bytes : forall m a v, bytes_at m a (le32 v) -> v < two32 -> a + 4 <= msize m -> rd32 m a = Some v.
Proof.
  intros m a v H Hv Hb. unfold rd32. replace (a + 4 <=? msize m) with true by (symmetry; apply N.leb_le; assumption). f_equal.
  pose proof (de32_le32 v Hv) as D. unfold de32, le32 in D. unfold bytes_at in H. rewrite le32_len in H. unfold le32 in H.
  pose proof (H 0 ltac:(lia)) as H0. rewrite N.add_0_r in H0.
  rewrite H0, (H 1), (H 2), (H 3) by lia.
  change (N.to_nat 0) with 0%nat. change (N.to_nat 1) with 1%nat.
  change (N.to_nat 2) with 2%nat. change (N.to_nat 3) with 3%nat. cbn [nth]. exact D.
Qed.

Definition le64 (v : N) : list N := le32 v ++ le32 (v / two32).
Lemma le64_len : forall v, nlen (le64 v) = 8.
Proof. intros. unfold le64. rewrite nlen_app, !le32_len. reflexivity. Qed.

Lemma rd64_bytes : forall m a v, bytes_at m a (le64 v) -> v < two32 -> a + 8 <= msize m -> rd64 m a = Some v.
Proof.
  intros m a v H Hv Hb. unfold le64 in H. apply bytes_at_app in H. destruct H as (H1 & H2). rewrite le32_len in H2.
  unfold rd64. rewrite (rd32_bytes m a v H1 Hv) by lia. cbn [obind].
  rewrite N.div_small in H2 by assumption. rewrite (rd32_bytes m (a + 4) 0 H2) by (unfold two32; lia). cbn [obind]. f_equal. lia.
Qed.

Lemma words_len : forall ws, nlen (flat_map le32 ws) = 4 * nlen ws.
Proof.
  induction ws as [|w r IH]; [reflexivity|]. cbn [flat_map]. rewrite nlen_app, le32_len, IH. unfold nlen. cbn [length]. lia.
Qed.

Lemma words_nth : forall ws m a i, bytes_at m a (flat_map le32 ws) -> Forall (fun w => w < two32) ws -> i < nlen ws ->
  a + 4 * nlen ws <= msize m -> rd32 m (a + 4 * i) = Some (word ws i).
Proof.
  induction ws as [|w r IH]; intros m a i H F Hi Hb; [unfold nlen in Hi; cbn [length] in Hi; lia|].
  cbn [flat_map] in H. apply bytes_at_app in H. destruct H as (H1 & H2). rewrite le32_len in H2.
  inversion F; subst. assert (Hl : nlen (w :: r) = nlen r + 1) by (unfold nlen; cbn [length]; lia). rewrite Hl in *.
  destruct (N.eq_dec i 0) as [->|Hn].
  - rewrite N.mul_0_r, N.add_0_r. unfold word. cbn [N.to_nat nth]. apply rd32_bytes; [assumption|assumption|lia].
  - replace (a + 4 * i) with (a + 4 + 4 * (i - 1)) by lia. rewrite IH by (try assumption; lia). unfold word.
    replace (N.to_nat i) with (S (N.to_nat (i - 1))) by lia. reflexivity.
Qed.

(** * Strings *)

Lemma str_loop_spec : forall s fuel m o, bytes_at m o (s ++ [0]) -> ok_str s -> o + nlen s + 1 <= msize m ->
  (length s < fuel)%nat -> str_loop fuel m o = Some s.
Proof.
  induction s as [|c r IH]; intros fuel m o H F Hb Hf; (destruct fuel as [|f]; [lia|]); cbn [str_loop].
  - pose proof (H 0 ltac:(unfold nlen; cbn; lia)) as H0. rewrite N.add_0_r in H0. cbn in H0. rewrite H0.
    unfold nlen in Hb. cbn [length] in Hb. destruct (N.leb_spec (msize m) o); [lia|]. reflexivity.
  - cbn [app] in H. assert (Hl : nlen (c :: r) = nlen r + 1) by (unfold nlen; cbn [length]; lia). rewrite Hl in Hb.
    assert (Hl2 : nlen (c :: r ++ [0]) = nlen r + 2) by (unfold nlen; cbn [length]; rewrite app_length; cbn [length]; lia).
    inversion F as [|? ? Hc F']; subst.
    pose proof (H 0 ltac:(lia)) as H0. rewrite N.add_0_r in H0. cbn [N.to_nat nth] in H0. rewrite H0.
    destruct (N.leb_spec (msize m) o); [lia|]. destruct (N.eqb_spec c 0); [lia|].
    rewrite (IH f m (o + 1)); [reflexivity| |assumption|lia|cbn [length] in Hf; lia].
    intros j Hj. rewrite <- N.add_assoc. rewrite H by (rewrite Hl2; unfold nlen in *; rewrite app_length in Hj; cbn [length] in Hj; lia).
    replace (N.to_nat (1 + j)) with (S (N.to_nat j)) by lia. reflexivity.
Qed.

Lemma mstr_spec : forall s m o, bytes_at m o (s ++ [0]) -> ok_str s -> o + nlen s + 1 <= msize m -> mstr m o = Some s.
Proof.
  intros s m o H F Hb. unfold mstr. apply str_loop_spec; try assumption. unfold nlen in Hb. lia.
Qed.

Lemma strshmlen_ge : forall s, nlen s + 1 <= strshmlen s.
Proof. intros. unfold strshmlen. apply shm_size_ge. Qed.
Lemma strshmlen_nz : forall s, strshmlen s <> 0.
Proof. intros s K. pose proof (strshmlen_ge s). lia. Qed.
Lemma strshmlen_mod : forall s, strshmlen s mod 8 = 0.
Proof. intros. apply shm_size_mod. Qed.

(** * Plain items *)

Definition xsize (x : option str) : N := match x with Some s => strshmlen s | None => 0 end.
Definition xat (m : mem) (xo : N) (x : option str) : Prop :=
  match x with Some s => xo <> 0 /\ bytes_at m xo (s ++ [0]) | None => xo = 0 end.

Definition Rsub (k : kind) (m : mem) (a : N) (s : sub) (bl : list block) : Prop :=
  ok_sub k s /\ bytes_at m (a + 8) (flat_map le32 (snd s)) /\
  exists xo, xo < two32 /\ bytes_at m a (le64 xo) /\ bl = blk xo (xsize (fst s)) /\ xat m xo (fst s).

Lemma isz_eq : forall k, isz k = 8 + 4 * k_words k.
Proof. reflexivity. Qed.
Lemma isz_nz : forall k, isz k <> 0.
Proof. intros k. unfold isz. lia. Qed.

Lemma Rsub_move : forall k m m' a a' x bl, Rsub k m a x bl ->
  (forall j, j < isz k -> mb m' (a' + j) = mb m (a + j)) ->
  (forall b, (1 <= cov b bl)%nat -> mb m' b = mb m b) -> Rsub k m' a' x bl.
Proof.
  intros k m m' a a' [x ws] bl (Ok & Hw & xo & H1 & H2 & H3 & H4) F1 F2. unfold Rsub. cbn [fst snd] in *.
  split; [exact Ok|]. destruct Ok as (_ & Hl & _). cbn [snd] in Hl. split.
  - eapply bytes_at_move; [exact Hw|]. rewrite words_len. intros j Hj. rewrite <- !N.add_assoc. apply F1. rewrite isz_eq. lia.
  - exists xo. split; [exact H1|]. split; [|split; [exact H3|]].
    + eapply bytes_at_move; [exact H2|]. rewrite le64_len. intros j Hj. apply F1. rewrite isz_eq. lia.
    + destruct x as [s|]; cbn [xat xsize] in *; [|exact H4]. destruct H4 as (H4 & H5). split; [exact H4|].
      eapply bytes_at_move; [exact H5|]. intros j Hj. apply F2. rewrite H3. apply cov_blk_in; [lia|].
      rewrite nlen_app in Hj. change (nlen [0]) with 1 in Hj. pose proof (strshmlen_ge s). lia.
Qed.

Lemma xsize_mod : forall x, xsize x mod 8 = 0.
Proof. intros [s|]; [apply strshmlen_mod|reflexivity]. Qed.
Lemma xsize_0 : forall m xo x, xat m xo x -> xsize x = 0 <-> xo = 0.
Proof. intros m xo [s|] H; cbn [xat xsize] in *; [|tauto]. pose proof (strshmlen_nz s). tauto. Qed.
Lemma shm_size_mod8 : forall n, n mod 8 = 0 -> shm_size n = n.
Proof. intros n H. unfold shm_size. rewrite H. rewrite N.sub_0_r, N.mod_same by lia. lia. Qed.

Notation stab k := (tabrep sub (Rsub k) (isz k)).
Notation sblocks k := (tblocks (isz k)).

(** The array is inside of the segment. *)
Lemma array_in : forall z m hs live t bls X R xs, z <> 0 -> well m hs (tblocks z t bls ++ live) -> tabrep X R z m t xs bls ->
  forall i, i < t_cnt t -> t_off t + i * z + z <= msize m /\ 8 <= t_off t.
Proof.
  intros z m hs live t bls X R xs Hz W [A B C] i Hi.
  apply well_wellE in W. assert (Hc : shm_size (t_cnt t * z) <> 0) by (apply arr_nz; lia).
  pose proof (wellE_live_in _ _ _ _ (t_off t) (shm_size (t_cnt t * z)) W) as K.
  assert (In (t_off t, shm_size (t_cnt t * z)) (tblocks z t bls ++ live)).
  { apply in_or_app. left. unfold tblocks. apply in_or_app. left. rewrite blk_nz by assumption. left. reflexivity. }
  specialize (K H). pose proof (shm_size_ge (t_cnt t * z)).
  assert ((i + 1) * z <= t_cnt t * z) by (apply N.mul_le_mono_r; lia). lia.
Qed.

Lemma nth_split_len : forall A (l : list A) i, i < nlen l -> exists l1 x l2, l = l1 ++ x :: l2 /\ nlen l1 = i.
Proof.
  intros A l i Hi. destruct (nth_error l (N.to_nat i)) as [x|] eqn:E.
  - apply nth_error_split in E. destruct E as (l1 & l2 & E1 & E2). exists l1, x, l2. split; [exact E1|]. unfold nlen. lia.
  - apply nth_error_None in E. unfold nlen in Hi. lia.
Qed.

Lemma items_split : forall X R z m a xs1 x xs2 bls, z <> 0 -> items X R z m a (xs1 ++ x :: xs2) bls ->
  exists bls1 bl bls2, bls = bls1 ++ bl :: bls2 /\ length bls1 = length xs1 /\ R m (a + nlen xs1 * z) x bl.
Proof.
  intros X R z m a xs1 x xs2 bls Hz H. pose proof (items_len _ _ _ _ _ _ _ H) as Hl. rewrite app_length in Hl. cbn [length] in Hl.
  destruct (nth_split_len _ bls (nlen xs1)) as (b1 & bl & b2 & -> & Hb); [unfold nlen; lia|].
  assert (Hl1 : length b1 = length xs1) by (unfold nlen in Hb; lia).
  exists b1, bl, b2. split; [reflexivity|]. split; [exact Hl1|]. apply items_app in H; [|exact Hz|exact Hl1]. destruct H as (_ & H). cbn [items] in H. tauto.
Qed.

(** Blocks of the items are inside of the segment. *)
Lemma block_in : forall z m hs live t bls bl o s, well m hs (tblocks z t bls ++ live) -> In bl bls -> In (o, s) bl ->
  8 <= o /\ o + s <= msize m.
Proof.
  intros z m hs live t bls bl o s W Hb Ho. apply well_wellE in W.
  destruct (wellE_live_in _ _ _ _ o s W) as (K1 & K2 & _); [|tauto].
  apply in_or_app. left. unfold tblocks. apply in_or_app. right. apply in_concat. exists bl. tauto.
Qed.

(** Fields and the xpath of an item. *)
Lemma sub_fields : forall k m hs live t xs1 x xs2 bls,
  well m hs (sblocks k t bls ++ live) -> stab k m t (xs1 ++ x :: xs2) bls ->
  (forall w, w < k_words k -> field m k t (nlen xs1) w = Some (word (snd x) w)) /\
  read_xpath m (item k t (nlen xs1)) = Some (fst x) /\
  exists bls1 xo bls2, bls = bls1 ++ blk xo (xsize (fst x)) :: bls2 /\ length bls1 = length xs1 /\
    rd64 m (item k t (nlen xs1)) = Some xo /\ (xsize (fst x) = 0 <-> xo = 0) /\ xo < two32 /\
    (match fst x with Some s => mstr m xo = Some s | None => True end).
Proof.
  intros k m hs live t xs1 x xs2 bls W T. pose proof T as [A B C].
  destruct (items_split _ _ _ _ _ _ _ _ _ (isz_nz k) C) as (b1 & bl & b2 & -> & Hl & HR).
  assert (Hi : nlen xs1 < t_cnt t) by (rewrite A, nlen_app; unfold nlen; cbn [length]; lia).
  destruct (array_in (isz k) m hs live t _ sub (Rsub k) _ (isz_nz k) W T _ Hi) as (Hin & _).
  destruct HR as (Ok & Hw & xo & H1 & H2 & H3 & H4). destruct Ok as (Okx & Hlw & Okw).
  assert (Hrd : rd64 m (item k t (nlen xs1)) = Some xo).
  { apply rd64_bytes; [exact H2|exact H1|]. unfold item. rewrite isz_eq in Hin at 2. lia. }
  assert (Hstr : match fst x with Some s => mstr m xo = Some s | None => True end).
  { destruct (fst x) as [s|]; [|exact I]. cbn [xat xsize] in *. destruct H4 as (H4 & H5).
    apply mstr_spec; [exact H5|exact Okx|].
    destruct (block_in (isz k) m hs live t _ bl xo (strshmlen s) W) as (_ & Q); [apply in_or_app; right; left; reflexivity|rewrite H3, blk_nz by apply strshmlen_nz; left; reflexivity|].
    pose proof (strshmlen_ge s). lia. }
  split; [|split].
  - intros w Hw'. unfold field, item. rewrite <- Hlw in Hw'. apply words_nth; [exact Hw|exact Okw|exact Hw'|]. rewrite isz_eq in Hin at 2. rewrite Hlw. lia.
  - unfold read_xpath. rewrite Hrd. cbn [obind]. pose proof (xsize_0 _ _ _ H4) as Hx.
    destruct (fst x) as [s|]; cbn [xsize xat] in *.
    + destruct (N.eqb_spec xo 0); [exfalso; apply (strshmlen_nz s); tauto|]. rewrite Hstr. reflexivity.
    + rewrite H4. reflexivity.
  - exists b1, xo, b2. rewrite <- H3. split; [reflexivity|]. split; [exact Hl|]. split; [exact Hrd|]. split; [eapply xsize_0; exact H4|]. split; [exact H1|exact Hstr].
Qed.

(** * Adding *)

Lemma fill_spec : forall m a ao x ws, a + 8 + 4 * nlen ws <= msize m ->
  (match x with Some s => ao <> 0 /\ ao + nlen s + 1 <= msize m /\ (ao + nlen s + 1 <= a \/ a + 8 + 4 * nlen ws <= ao) | None => True end) ->
  exists m', fill_item m a ao x ws = Some m' /\ msize m' = msize m /\
    bytes_at m' a (le64 (match x with Some _ => ao | None => 0 end)) /\ bytes_at m' (a + 8) (flat_map le32 ws) /\
    (match x with Some s => bytes_at m' ao (s ++ [0]) | None => True end) /\
    (forall b, (b < a \/ a + 8 + 4 * nlen ws <= b) ->
       (match x with Some s => b < ao \/ ao + nlen s + 1 <= b | None => True end) -> mb m' b = mb m b).
Proof.
  intros m a ao x ws Hb Hx. unfold fill_item. destruct x as [s|].
  - destruct Hx as (X1 & X2 & X3).
    assert (Hl : nlen (s ++ [0]) = nlen s + 1) by (rewrite nlen_app; reflexivity).
    destruct (wr_spec m ao (s ++ [0]) ltac:(lia)) as (m1 & E1 & Z1 & B1 & F1). rewrite E1. cbn [obind].
    unfold wr64. fold (le64 ao). destruct (wr_spec m1 a (le64 ao) ltac:(rewrite le64_len; lia)) as (m2 & E2 & Z2 & B2 & F2). rewrite E2. cbn [obind].
    rewrite le64_len in F2.
    destruct (wr_spec m2 (a + 8) (flat_map le32 ws) ltac:(rewrite words_len; lia)) as (m3 & E3 & Z3 & B3 & F3). rewrite words_len in F3.
    exists m3. split; [exact E3|]. split; [congruence|]. split; [|split; [exact B3|split]].
    + eapply bytes_at_move; [exact B2|]. rewrite le64_len. intros j Hj. apply F3. lia.
    + eapply bytes_at_move; [exact B1|]. rewrite Hl. intros j Hj. rewrite F3, F2 by lia. reflexivity.
    + intros b C1 C2. rewrite F3, F2, F1 by lia. reflexivity.
  - unfold wr64. fold (le64 0). destruct (wr_spec m a (le64 0) ltac:(rewrite le64_len; lia)) as (m2 & E2 & Z2 & B2 & F2). rewrite E2. cbn [obind].
    rewrite le64_len in F2.
    destruct (wr_spec m2 (a + 8) (flat_map le32 ws) ltac:(rewrite words_len; lia)) as (m3 & E3 & Z3 & B3 & F3). rewrite words_len in F3.
    exists m3. split; [exact E3|]. split; [congruence|]. split; [|split; [exact B3|split; [exact I|]]].
    + eapply bytes_at_move; [exact B2|]. rewrite le64_len. intros j Hj. apply F3. lia.
    + intros b C1 C2. rewrite F3, F2 by lia. reflexivity.
Qed.

Definition add_cost (k : kind) (t : tbl) (x : option str) : N := shm_size ((t_cnt t + 1) * isz k) + xsize x.

Lemma firstn_all_n : forall A (l : list A) n, n = nlen l -> firstn (N.to_nat n) l = l /\ skipn (N.to_nat n) l = [].
Proof. intros A l n ->. unfold nlen. rewrite Nat2N.id. split; [apply firstn_all|apply skipn_all]. Qed.

Lemma sub_add_spec : forall k m hs live t xs bls s,
  well m hs (sblocks k t bls ++ live) -> stab k m t xs bls -> ok_sub k s ->
  msize m + add_cost k t (fst s) < 2147483648 ->
  exists m' hs' t' bls', sub_add m k t (fst s) (snd s) = Some (m', t') /\
    well m' hs' (sblocks k t' bls' ++ live) /\ stab k m' t' (xs ++ [s]) bls' /\
    msize m' <= msize m + add_cost k t (fst s) /\
    (forall b, (1 <= cov b live)%nat -> mb m' b = mb m b).
Proof.
  intros k m hs live t xs bls [x ws] W T Ok Hlim. cbn [fst snd]. unfold add_cost in *. cbn [fst] in Hlim.
  pose proof (xsize_mod x) as Hx8. pose proof (tr_cnt _ _ _ _ _ _ _ T) as Hc.
  pose proof (items_len _ _ _ _ _ _ _ (tr_items _ _ _ _ _ _ _ T)) as Hl.
  destruct (tab_insert sub (Rsub k) (isz k) (isz_nz k) (Rsub_move k) m hs live t xs bls None (xsize x) W T (N.le_refl _))
    as (m1 & hs1 & no & ao & E1 & W1 & Z1 & A1 & A2 & Hno & F1 & I1 & I2).
  { rewrite (shm_size_mod8 _ Hx8). lia. }
  rewrite (shm_size_mod8 _ Hx8) in W1, Z1.
  unfold sub_add. fold (xsize x). rewrite E1. cbn [obind].
  destruct Ok as (Okx & Hlw & Okw). cbn [fst snd] in *.
  pose proof W1 as WE. apply well_wellE in WE.
  destruct (wellE_live_in _ _ _ _ no _ WE (or_introl eq_refl)) as (N1 & N2 & _).
  pose proof (shm_size_ge ((t_cnt t + 1) * isz k)) as Hge. set (SZ := shm_size ((t_cnt t + 1) * isz k)) in *.
  assert (Hiz : isz k = 8 + 4 * nlen ws) by (rewrite isz_eq, Hlw; reflexivity).
  assert (Hcn : (t_cnt t + 1) * isz k = t_cnt t * isz k + isz k) by lia.
  assert (Hslot : no + t_cnt t * isz k + 8 + 4 * nlen ws <= no + SZ) by lia.
  assert (Hx : match x with Some s => ao <> 0 /\ ao + nlen s + 1 <= msize m1 /\
            (ao + nlen s + 1 <= no + t_cnt t * isz k \/ no + t_cnt t * isz k + 8 + 4 * nlen ws <= ao) | None => True end).
  { destruct x as [s|]; [|exact I]. cbn [xsize] in *. pose proof (strshmlen_ge s). pose proof (strshmlen_nz s).
    rewrite blk_nz in WE by assumption.
    destruct (wellE_live_in _ _ _ _ ao (strshmlen s) WE) as (Q1 & Q2 & _); [right; left; reflexivity|].
    split; [apply A1; assumption|]. split; [lia|].
    assert (D : forall b, no <= b -> b < no + SZ -> ao <= b -> b < ao + strshmlen s -> False).
    { intros b B1 B2 B3 B4. pose proof (e_tiled _ _ _ _ WE b) as T1. cbn [cov app] in T1.
      replace (inb b (no, SZ)) with true in T1 by (symmetry; apply inb_true; lia).
      replace (inb b (ao, strshmlen s)) with true in T1 by (symmetry; apply inb_true; lia).
      destruct ((8 <=? b) && (b <? msize m1)); lia. }
    destruct (N.le_gt_cases (ao + nlen s + 1) (no + t_cnt t * isz k)) as [L|L]; [left; assumption|].
    destruct (N.le_gt_cases (no + t_cnt t * isz k + 8 + 4 * nlen ws) ao) as [L'|L']; [right; assumption|]. exfalso.
    destruct (N.le_gt_cases ao (no + t_cnt t * isz k)) as [M|M].
    - apply (D (no + t_cnt t * isz k)); lia.
    - apply (D ao); lia. }
  destruct (fill_spec m1 (no + t_cnt t * isz k) ao x ws ltac:(lia) Hx) as (m2 & E2 & Z2 & B1 & B2 & B3 & F2).
  rewrite E2. cbn [obind].
  set (xo := match x with Some _ => ao | None => 0 end) in *.
  assert (Hxo : blk xo (xsize x) = blk ao (xsize x)) by (destruct x; reflexivity).
  destruct (tab_fill sub (Rsub k) (isz k) (isz_nz k) (Rsub_move k) m1 m2 hs1 live no (t_cnt t) (t_cnt t) xs bls (x, ws) (blk ao (xsize x)))
    as (W2 & T2 & F3); try assumption; try lia.
  { intros b Hb1 Hb2. apply F2; [lia|]. destruct x as [s|]; [|exact I]. cbn [xsize] in *. pose proof (strshmlen_ge s).
    rewrite blk_nz in Hb2 by apply strshmlen_nz. pose proof (cov0_out b _ ao (strshmlen s) Hb2 (or_introl eq_refl)). lia. }
  { split; [split; cbn [fst snd]; [assumption|split; assumption]|]. cbn [fst snd]. split; [exact B2|]. exists xo. split.
    - unfold xo. destruct x as [s|]; [|unfold two32; lia]. destruct Hx as (_ & Hx & _). unfold two32. lia.
    - split; [exact B1|]. split; [symmetry; exact Hxo|]. destruct x as [s|]; cbn [xat]; [|reflexivity]. split; [apply Hx|exact B3]. }
  destruct (firstn_all_n _ xs (t_cnt t) Hc) as (Q1 & Q2). rewrite Q1, Q2 in T2.
  eexists m2, hs1, _, _. split; [reflexivity|]. split; [exact W2|]. split; [exact T2|]. split; [lia|].
  intros b Hb. rewrite F3, F1 by (rewrite cov_app; lia). reflexivity.
Qed.

(** * Searching *)

Lemma find_loop_sub : forall k m hs live t bls w v xs2 xs1,
  well m hs (sblocks k t bls ++ live) -> stab k m t (xs1 ++ xs2) bls -> w < k_words k ->
  (find_loop (length xs2) m k t w v (nlen xs1) = Some None /\ Forall (fun x => word (snd x) w <> v) xs2) \/
  (exists y1 x y2, xs2 = y1 ++ x :: y2 /\ Forall (fun x => word (snd x) w <> v) y1 /\ word (snd x) w = v /\
     find_loop (length xs2) m k t w v (nlen xs1) = Some (Some (nlen (xs1 ++ y1)))).
Proof.
  intros k m hs live t bls w v. induction xs2 as [|x r IH]; intros xs1 W T Hw.
  - left. split; [reflexivity|constructor].
  - cbn [find_loop length]. destruct (sub_fields _ _ _ _ _ _ _ _ _ W T) as (Hf & _). rewrite (Hf w Hw). cbn [obind].
    destruct (N.eqb_spec (word (snd x) w) v) as [E|E].
    + right. exists [], x, r. split; [reflexivity|]. split; [constructor|]. split; [exact E|]. rewrite app_nil_r. reflexivity.
    + assert (T' : stab k m t ((xs1 ++ [x]) ++ r) bls) by (rewrite <- app_assoc; exact T).
      assert (Hn : nlen xs1 + 1 = nlen (xs1 ++ [x])) by (rewrite nlen_app; reflexivity). rewrite Hn.
      destruct (IH _ W T' Hw) as [(I1 & I2)|(y1 & y & y2 & E1 & E2 & E3 & E4)].
      * left. split; [exact I1|]. constructor; assumption.
      * right. exists (x :: y1), y, y2. split; [cbn [app]; congruence|]. split; [constructor; assumption|]. split; [exact E3|].
        rewrite E4. rewrite <- app_assoc. reflexivity.
Qed.

Lemma k_id_lt : forall k, k_id k < k_words k.
Proof. intros []; unfold k_id, k_words; lia. Qed.
Lemma k_cid_lt : forall k, k_cid k < k_words k.
Proof. intros []; unfold k_cid, k_words; lia. Qed.

Lemma sub_find_spec : forall k m hs live t xs bls id,
  well m hs (sblocks k t bls ++ live) -> stab k m t xs bls ->
  (sub_find m k t id = Some None /\ Forall (fun x => s_id k x <> id) xs) \/
  (exists y1 x y2, xs = y1 ++ x :: y2 /\ Forall (fun x => s_id k x <> id) y1 /\ s_id k x = id /\
     sub_find m k t id = Some (Some (nlen y1))).
Proof.
  intros k m hs live t xs bls id W T. unfold sub_find. rewrite (tr_cnt _ _ _ _ _ _ _ T). unfold nlen at 1. rewrite Nat2N.id.
  replace (nlen xs) with (N.of_nat (length xs)) by reflexivity. rewrite Nat2N.id.
  pose proof (find_loop_sub k m hs live t bls (k_id k) id xs [] W T (k_id_lt k)) as H. exact H.
Qed.

(** * Removing *)

Lemma sub_free_spec : forall k m hs live t xs1 x xs2 bls,
  well m hs (sblocks k t bls ++ live) -> stab k m t (xs1 ++ x :: xs2) bls ->
  exists m' hs' t' bls', sub_free m k t (nlen xs1) = Some (m', t') /\ t_cnt t' = t_cnt t - 1 /\
    well m' hs' (sblocks k t' bls' ++ live) /\ stab k m' t' (xs1 ++ xs2) bls' /\ msize m' = msize m /\
    (forall b, (1 <= cov b live)%nat -> mb m' b = mb m b).
Proof.
  intros k m hs live t xs1 x xs2 bls W T.
  destruct (sub_fields _ _ _ _ _ _ _ _ _ W T) as (_ & _ & b1 & xo & b2 & -> & Hl & Hrd & Hx0 & Hxo & Hs).
  unfold sub_free. rewrite Hrd. cbn [obind].
  assert (Hd : (if xo =? 0 then Some 0 else do s <- mstr m xo; Some (strshmlen s)) = Some (xsize (fst x))).
  { destruct (fst x) as [s|]; cbn [xsize] in *.
    - destruct (N.eqb_spec xo 0); [exfalso; apply (strshmlen_nz s); tauto|]. rewrite Hs. reflexivity.
    - replace xo with 0 by (symmetry; tauto). reflexivity. }
  rewrite Hd. cbn [obind].
  destruct (tab_delete sub (Rsub k) (isz k) (isz_nz k) (Rsub_move k) m hs live t xs1 x xs2 b1 b2 (xsize (fst x)) xo W T Hl (xsize_mod _) Hx0)
    as (m' & hs' & t' & E & C1 & W' & T' & Z & F).
  rewrite E. cbn [obind]. exists m', hs', t', (b1 ++ b2). split; [destruct t'; reflexivity|]. split; [exact C1|].
  split; [exact W'|]. split; [exact T'|]. split; [exact Z|]. intros b Hb. apply F. rewrite cov_app. lia.
Qed.

Lemma remove_first_split : forall A (p : A -> bool) l1 x l2, Forall (fun y => p y = false) l1 -> p x = true ->
  remove_first p (l1 ++ x :: l2) = l1 ++ l2.
Proof. induction l1 as [|y r IH]; intros x l2 F Hx; cbn [remove_first app]; [rewrite Hx; reflexivity|]. inversion F; subst. rewrite H1. f_equal. apply IH; assumption. Qed.
Lemma remove_first_none : forall A (p : A -> bool) l, Forall (fun y => p y = false) l -> remove_first p l = l.
Proof. induction l as [|y r IH]; intros F; cbn [remove_first]; [reflexivity|]. inversion F; subst. rewrite H1. f_equal. apply IH; assumption. Qed.
Lemma change_first_split : forall A (p : A -> bool) f l1 x l2, Forall (fun y => p y = false) l1 -> p x = true ->
  change_first p f (l1 ++ x :: l2) = l1 ++ f x :: l2.
Proof. induction l1 as [|y r IH]; intros x l2 F Hx; cbn [change_first app]; [rewrite Hx; reflexivity|]. inversion F; subst. rewrite H1. f_equal. apply IH; assumption. Qed.
Lemma change_first_none : forall A (p : A -> bool) f l, Forall (fun y => p y = false) l -> change_first p f l = l.
Proof. induction l as [|y r IH]; intros F; cbn [change_first]; [reflexivity|]. inversion F; subst. rewrite H1. f_equal. apply IH; assumption. Qed.

Lemma Forall_neqb : forall A (f : A -> N) v l, Forall (fun x => f x <> v) l -> Forall (fun x => (f x =? v) = false) l.
Proof. intros A f v l H. eapply Forall_impl; [|exact H]. intros a Ha. apply N.eqb_neq. exact Ha. Qed.

Lemma sub_del_spec : forall k m hs live t xs bls id,
  well m hs (sblocks k t bls ++ live) -> stab k m t xs bls ->
  exists m' hs' t' bls', sub_del m k t id = Some (m', t') /\
    well m' hs' (sblocks k t' bls' ++ live) /\ stab k m' t' (l_del k id xs) bls' /\ msize m' = msize m /\
    (forall b, (1 <= cov b live)%nat -> mb m' b = mb m b).
Proof.
  intros k m hs live t xs bls id W T. unfold sub_del, l_del.
  destruct (sub_find_spec _ _ _ _ _ _ _ id W T) as [(E & F)|(y1 & x & y2 & -> & F & Hx & E)]; rewrite E; cbn [obind].
  - exists m, hs, t, bls. split; [reflexivity|]. split; [exact W|]. split; [|split; reflexivity].
    rewrite remove_first_none; [exact T|]. apply Forall_neqb. exact F.
  - destruct (sub_free_spec _ _ _ _ _ _ _ _ _ W T) as (m' & hs' & t' & bls' & E1 & _ & W' & T' & Z & Fr).
    exists m', hs', t', bls'. split; [exact E1|]. split; [exact W'|]. split; [|split; assumption].
    rewrite remove_first_split; [exact T'| |apply N.eqb_eq; exact Hx]. apply Forall_neqb. exact F.
Qed.

Lemma dead_loop_spec : forall k alive xs2 xs1 m hs live t bls,
  well m hs (sblocks k t bls ++ live) -> stab k m t (xs1 ++ xs2) bls ->
  exists m' hs' t' bls', dead_loop (length xs2) m k t alive (nlen xs1) = Some (m', t') /\
    well m' hs' (sblocks k t' bls' ++ live) /\ stab k m' t' (xs1 ++ l_dead k alive xs2) bls' /\ msize m' = msize m /\
    (forall b, (1 <= cov b live)%nat -> mb m' b = mb m b).
Proof.
  intros k alive. induction xs2 as [|x r IH]; intros xs1 m hs live t bls W T.
  - exists m, hs, t, bls. split; [reflexivity|]. split; [exact W|]. split; [exact T|]. split; reflexivity.
  - cbn [dead_loop length]. destruct (sub_fields _ _ _ _ _ _ _ _ _ W T) as (Hf & _). rewrite (Hf (k_cid k) (k_cid_lt k)). cbn [obind].
    unfold l_dead. cbn [filter]. unfold s_cid at 1.
    replace (match k with KRpc => s_cid k x =? 0 | _ => false end) with (match k with KRpc => word (snd x) (k_cid k) =? 0 | _ => false end) by (destruct k; reflexivity).
    destruct (alive (word (snd x) (k_cid k)) || match k with KRpc => word (snd x) (k_cid k) =? 0 | _ => false end).
    + assert (T' : stab k m t ((xs1 ++ [x]) ++ r) bls) by (rewrite <- app_assoc; exact T).
      assert (Hn : nlen xs1 + 1 = nlen (xs1 ++ [x])) by (rewrite nlen_app; reflexivity). rewrite Hn.
      destruct (IH _ _ _ _ _ _ W T') as (m' & hs' & t' & bls' & E1 & W' & T1 & Z & F).
      exists m', hs', t', bls'. split; [exact E1|]. split; [exact W'|]. split; [|split; assumption].
      rewrite <- app_assoc in T1. exact T1.
    + destruct (sub_free_spec _ _ _ _ _ _ _ _ _ W T) as (m1 & hs1 & t1 & bls1 & E1 & _ & W1 & T1 & Z1 & F1). rewrite E1. cbn [obind].
      destruct (IH _ _ _ _ _ _ W1 T1) as (m' & hs' & t' & bls' & E2 & W' & T2 & Z & F).
      exists m', hs', t', bls'. split; [exact E2|]. split; [exact W'|]. split; [exact T2|]. split; [congruence|].
      intros b Hb. rewrite F, F1 by assumption. reflexivity.
Qed.

Lemma remove_dead_spec : forall k alive m hs live t xs bls,
  well m hs (sblocks k t bls ++ live) -> stab k m t xs bls ->
  exists m' hs' t' bls', remove_dead m k t alive = Some (m', t') /\
    well m' hs' (sblocks k t' bls' ++ live) /\ stab k m' t' (l_dead k alive xs) bls' /\ msize m' = msize m /\
    (forall b, (1 <= cov b live)%nat -> mb m' b = mb m b).
Proof.
  intros k alive m hs live t xs bls W T. unfold remove_dead. rewrite (tr_cnt _ _ _ _ _ _ _ T). unfold nlen. rewrite Nat2N.id.
  exact (dead_loop_spec k alive xs [] m hs live t bls W T).
Qed.

(** * Modification *)

Lemma sub_modify_spec : forall k m hs live t xs bls id x,
  well m hs (sblocks k t bls ++ live) -> stab k m t xs bls ->
  (match x with Some s => ok_str s | None => True end) ->
  (x = None -> Forall (fun s => s_id k s = id -> fst s <> None) xs) ->
  msize m + xsize x < 2147483648 ->
  exists m' hs' bls', sub_modify m k t id x = Some m' /\
    well m' hs' (sblocks k t bls' ++ live) /\ stab k m' t (l_modify k id x xs) bls' /\ msize m' <= msize m + xsize x /\
    (forall b, (1 <= cov b live)%nat -> mb m' b = mb m b).
Proof.
  intros k m hs live t xs bls id x W T Okx Hnn Hlim. unfold sub_modify, l_modify.
  destruct (sub_find_spec _ _ _ _ _ _ _ id W T) as [(E & F)|(y1 & y & y2 & Exs & F & Hy & E)]; rewrite E; cbn [obind].
  - exists m, hs, bls. split; [reflexivity|]. split; [exact W|]. split; [|split; [lia|reflexivity]].
    rewrite change_first_none; [exact T|]. apply Forall_neqb. exact F.
  - rewrite Exs, change_first_split; [|apply Forall_neqb; exact F|apply N.eqb_eq; exact Hy].
    assert (Hnn' : x = None -> fst y <> None).
    { intros K. specialize (Hnn K). rewrite Exs in Hnn. apply Forall_app in Hnn. destruct Hnn as (_ & Hnn). inversion Hnn; subst. auto. }
    clear Hnn. subst xs. clear E F.
    pose proof T as [A B C].
    destruct (sub_fields _ _ _ _ _ _ _ _ _ W T) as (_ & _ & b1 & xo & b2 & -> & Hl & Hrd & Hx0 & Hxo & Hs).
    assert (Hi : nlen y1 < t_cnt t) by (rewrite A, nlen_app; unfold nlen; cbn [length]; lia).
    destruct (array_in (isz k) m hs live t _ sub (Rsub k) _ (isz_nz k) W T _ Hi) as (Hin & Hto).
    rewrite Hrd. cbn [obind].
    set (cur := match fst y with Some s => nlen s + 1 | None => 0 end).
    assert (Hd : (if xo =? 0 then Some 0 else do s <- mstr m xo; Some (nlen s + 1)) = Some cur).
    { unfold cur. destruct (fst y) as [s|]; cbn [xsize] in *.
      - destruct (N.eqb_spec xo 0); [exfalso; apply (strshmlen_nz s); tauto|]. rewrite Hs. reflexivity.
      - replace xo with 0 by (symmetry; tauto). reflexivity. }
    rewrite Hd. cbn [obind]. clear Hd.
    set (new := match x with Some s => nlen s + 1 | None => 0 end).
    assert (Hcs : shm_size cur = xsize (fst y)) by (unfold cur; destruct (fst y); reflexivity).
    assert (Hns : shm_size new = xsize x) by (unfold new; destruct x; reflexivity).
    (* the array and the other blocks are the rest of the live blocks *)
    set (arr := blk (t_off t) (shm_size (t_cnt t * isz k))).
    assert (W1 : well m hs (blk xo (shm_size cur) ++ arr ++ concat (b1 ++ b2) ++ live)).
    { rewrite Hcs. eapply well_live_eq; [exact W| |].
      - intros b. unfold tblocks. fold arr. rewrite !concat_app. cbn [concat]. rewrite !cov_app. lia.
      - pose proof (w_live _ _ _ W) as G. unfold tblocks in G. fold arr in G. apply Forall_app in G. destruct G as (G & G4).
        apply Forall_app in G. destruct G as (G1 & G). rewrite concat_app in G. cbn [concat] in G. apply Forall_app in G. destruct G as (G2 & G). apply Forall_app in G. destruct G as (G3 & G5).
        apply Forall_app. split; [exact G3|]. apply Forall_app. split; [exact G1|]. apply Forall_app. split; [|exact G4]. rewrite concat_app. apply Forall_app. split; assumption. }
    destruct (shmrealloc_spec m hs _ xo cur new W1) as (m1 & hs1 & no & E1 & W2 & Z1 & Hno & F1).
    { unfold cur. destruct (fst y) as [s|]; cbn [xsize] in *; [|tauto]. pose proof (strshmlen_nz s). split; intros; lia. }
    { unfold cur, new. destruct x as [s|]; [right; lia|]. destruct (fst y) as [s|]; [left; lia|]. exfalso. apply Hnn'; reflexivity. }
    { rewrite Hns. lia. }
    rewrite E1. cbn [obind]. rewrite Hns in *.
    pose proof W2 as WE. apply well_wellE in WE. pose proof (e_size _ _ _ _ WE) as (_ & _ & _ & Zlim).
    (* the position of the item in the array *)
    assert (Harr : arr = [(t_off t, shm_size (t_cnt t * isz k))]) by (apply blk_nz; apply arr_nz; [lia|apply isz_nz]).
    pose proof (shm_size_ge (t_cnt t * isz k)) as Hge.
    assert (Hta : t_off t + shm_size (t_cnt t * isz k) <= msize m1).
    { apply (wellE_live_in _ _ _ _ (t_off t) (shm_size (t_cnt t * isz k)) WE). apply in_or_app. right. rewrite Harr. left. reflexivity. }
    set (a := item k t (nlen y1)). assert (Ha : a = t_off t + nlen y1 * isz k) by reflexivity.
    assert (Hmi : (nlen y1 + 1) * isz k <= t_cnt t * isz k) by (apply N.mul_le_mono_r; lia).
    assert (Hmi2 : (nlen y1 + 1) * isz k = nlen y1 * isz k + isz k) by lia.
    assert (Hiz : isz k = 8 + 4 * k_words k) by apply isz_eq.
    assert (Hcova : forall b, a <= b -> b < a + isz k -> (1 <= cov b arr)%nat).
    { intros b Hb1 Hb2. rewrite Harr. cbn [cov]. replace (inb b (t_off t, shm_size (t_cnt t * isz k))) with true by (symmetry; apply inb_true; lia). lia. }
    (* what is written *)
    assert (Wr : exists m3, (do m <- wr64 m1 a no; match x with Some s => wr m no (s ++ [0]) | None => wr64 m a 0 end) = Some m3 /\
      msize m3 = msize m1 /\ bytes_at m3 a (le64 (match x with Some _ => no | None => 0 end)) /\
      (match x with Some s => bytes_at m3 no (s ++ [0]) | None => True end) /\
      (forall b, (b < a \/ a + 8 <= b) -> (match x with Some s => b < no \/ no + nlen s + 1 <= b | None => True end) -> mb m3 b = mb m1 b)).
    { unfold wr64. fold (le64 no). fold (le64 0).
      destruct (wr_spec m1 a (le64 no) ltac:(rewrite le64_len; lia)) as (m2 & E2 & Z2 & B2 & F2). rewrite E2. cbn [obind]. rewrite le64_len in F2.
      destruct x as [s|].
      - assert (Hl2 : nlen (s ++ [0]) = nlen s + 1) by (rewrite nlen_app; reflexivity).
        cbn [xsize] in *. pose proof (strshmlen_ge s). pose proof (strshmlen_nz s).
        assert (Q : 8 <= no /\ no + strshmlen s <= msize m1).
        { destruct (wellE_live_in _ _ _ _ no (strshmlen s) WE) as (Q1 & Q2 & _); [|tauto]. apply in_or_app. left. rewrite blk_nz by assumption. left. reflexivity. }
        destruct (wr_spec m2 no (s ++ [0]) ltac:(lia)) as (m3 & E3 & Z3 & B3 & F3). exists m3. split; [exact E3|]. split; [congruence|].
        split; [|split; [exact B3|]].
        + eapply bytes_at_move; [exact B2|]. rewrite le64_len. intros j Hj. apply F3. rewrite Hl2.
          (* disjoint *)
          apply inb_false. destruct (inb (a + j) (no, nlen s + 1)) eqn:Eb; [exfalso|reflexivity]. apply inb_true in Eb.
          pose proof (Hcova (a + j) ltac:(lia) ltac:(lia)) as K1. pose proof (e_tiled _ _ _ _ WE (a + j)) as T1.
          rewrite !cov_app in T1. rewrite blk_nz in T1 by assumption. cbn [cov] in T1.
          replace (inb (a + j) (no, strshmlen s)) with true in T1 by (symmetry; apply inb_true; lia).
          destruct ((8 <=? a + j) && (a + j <? msize m1)); lia.
        + intros b H1 H2. rewrite F3, F2 by lia. reflexivity.
      - destruct (wr_spec m2 a (le64 0) ltac:(rewrite le64_len; lia)) as (m3 & E3 & Z3 & B3 & F3). rewrite le64_len in F3.
        exists m3. split; [exact E3|]. split; [congruence|]. split; [exact B3|]. split; [exact I|]. intros b H1 _. rewrite F3, F2 by lia. reflexivity. }
    destruct Wr as (m3 & E3 & Z3 & B3 & B4 & F3). fold a. rewrite E3.
    exists m3, hs1, (b1 ++ blk no (xsize x) :: b2). split; [reflexivity|].
    assert (Hxb : forall b, (match x with Some s => b < no \/ no + nlen s + 1 <= b | None => True end) \/ (1 <= cov b (blk no (xsize x)))%nat).
    { intros b. destruct x as [s|]; [|left; exact I]. destruct (N.lt_ge_cases b no) as [L|L]; [left; left; assumption|].
      destruct (N.le_gt_cases (no + nlen s + 1) b) as [L'|L']; [left; right; assumption|]. right. cbn [xsize].
      apply cov_blk_in; [assumption|]. pose proof (strshmlen_ge s). lia. }
    (* bytes of the rest are kept *)
    assert (Hkeep : forall b, (1 <= cov b (concat (b1 ++ b2) ++ live))%nat -> mb m3 b = mb m b).
    { intros b Hb. rewrite <- (F1 b) by (rewrite !cov_app in *; lia). pose proof (e_tiled _ _ _ _ WE b) as T1. rewrite !cov_app in *.
      apply F3.
      - destruct (N.lt_ge_cases b a) as [L|L]; [left; assumption|]. destruct (N.le_gt_cases (a + 8) b) as [L'|L']; [right; assumption|].
        pose proof (Hcova b L ltac:(lia)). destruct ((8 <=? b) && (b <? msize m1)); lia.
      - destruct (Hxb b) as [K|K]; [exact K|]. destruct ((8 <=? b) && (b <? msize m1)); lia. }
    assert (Hkeepa : forall b, (1 <= cov b arr)%nat -> (b < a \/ a + 8 <= b) -> mb m3 b = mb m b).
    { intros b Hb Hba. rewrite <- (F1 b) by (rewrite !cov_app in *; lia). pose proof (e_tiled _ _ _ _ WE b) as T1. rewrite !cov_app in *.
      apply F3; [exact Hba|]. destruct (Hxb b) as [K|K]; [exact K|]. destruct ((8 <=? b) && (b <? msize m1)); lia. }
    split; [|split; [|split; [lia|]]].
    + assert (W3 : well m3 hs1 (blk no (xsize x) ++ arr ++ concat (b1 ++ b2) ++ live)).
      { eapply well_write; [exact W2|exact Z3|]. intros b Hb. rewrite !cov_app in Hb. apply F3.
        - destruct (N.lt_ge_cases b a) as [L|L]; [left; assumption|]. destruct (N.le_gt_cases (a + 8) b) as [L'|L']; [right; assumption|].
          pose proof (Hcova b L ltac:(lia)). lia.
        - destruct (Hxb b) as [K|K]; [exact K|]. lia. }
      eapply well_live_eq; [exact W3| |].
      * intros b. unfold tblocks. fold arr. rewrite !concat_app. cbn [concat]. rewrite !cov_app. lia.
      * pose proof (w_live _ _ _ W3) as G. apply Forall_app in G. destruct G as (G1 & G). apply Forall_app in G. destruct G as (G2 & G). apply Forall_app in G. destruct G as (G3 & G4).
        rewrite concat_app in G3. apply Forall_app in G3. destruct G3 as (G3 & G5). unfold tblocks. fold arr. rewrite concat_app. cbn [concat].
        apply Forall_app. split; [|exact G4]. apply Forall_app. split; [exact G2|]. apply Forall_app. split; [exact G3|]. apply Forall_app. split; assumption.
    + apply (tab_update sub (Rsub k) (isz k) (isz_nz k) (Rsub_move k) m m3 t y1 y y2 b1 (blk xo (xsize (fst y))) b2 (x, snd y) (blk no (xsize x)) T Hl).
      * intros b H1 H2 H3. apply Hkeepa; [rewrite Harr; cbn [cov]; replace (inb b (t_off t, shm_size (t_cnt t * isz k))) with true by (symmetry; apply inb_true; lia); lia|]. lia.
      * intros b Hb. apply Hkeep. rewrite cov_app. lia.
      * apply items_app in C; [|apply isz_nz|exact Hl]. destruct C as (_ & C). cbn [items] in C. destruct C as ((Ok & Hw & _) & _).
        destruct Ok as (_ & Okw). split; [split; [exact Okx|exact Okw]|]. cbn [fst snd]. split.
        -- eapply bytes_at_move; [exact Hw|]. rewrite words_len. destruct Okw as (Hlw & _). rewrite Hlw. intros j Hj.
           apply Hkeepa; [rewrite Harr; cbn [cov]; replace (inb (t_off t + nlen y1 * isz k + 8 + j) (t_off t, shm_size (t_cnt t * isz k))) with true by (symmetry; apply inb_true; lia); lia|]. lia.
        -- exists (match x with Some _ => no | None => 0 end). split; [|split; [exact B3|split]].
           ++ destruct x as [s|]; [|unfold two32; lia]. cbn [xsize] in *.
              destruct (wellE_live_in _ _ _ _ no (strshmlen s) WE) as (Q1 & Q2 & _); [apply in_or_app; left; rewrite blk_nz by apply strshmlen_nz; left; reflexivity|].
              unfold two32. lia.
           ++ destruct x; reflexivity.
           ++ destruct x as [s|]; cbn [xat]; [split; assumption|reflexivity].
    + intros b Hb. apply Hkeep. rewrite cov_app. lia.
Qed.

(** * Reading *)

Lemma mapo_ext : forall A B (f : A -> option B) (g : A -> B) l, (forall x, In x l -> f x = Some (g x)) -> mapo f l = Some (map g l).
Proof.
  induction l as [|x r IH]; intros H; cbn [mapo map]; [reflexivity|]. rewrite (H x (or_introl eq_refl)). cbn [obind].
  rewrite IH by (intros; apply H; right; assumption). reflexivity.
Qed.

Lemma indices_in : forall n i, In i (indices n) <-> i < n.
Proof.
  intros n i. unfold indices. rewrite in_map_iff. split.
  - intros (x & <- & H). apply in_seq in H. lia.
  - intros H. exists (N.to_nat i). split; [lia|]. apply in_seq. lia.
Qed.

Lemma indices_nth : forall A (l : list A) d, map (fun i => nth (N.to_nat i) l d) (indices (nlen l)) = l.
Proof.
  intros A l d. unfold indices, nlen. rewrite Nat2N.id, map_map.
  rewrite (map_ext _ (fun i => nth i l d)) by (intros; rewrite Nat2N.id; reflexivity).
  induction l as [|x r IH]; [reflexivity|]. cbn [length seq map nth]. f_equal. rewrite <- seq_shift, map_map. exact IH.
Qed.

Lemma read_table_spec : forall k m hs live t xs bls,
  well m hs (sblocks k t bls ++ live) -> stab k m t xs bls -> read_table m k t = Some xs.
Proof.
  intros k m hs live t xs bls W T. unfold read_table. rewrite (tr_cnt _ _ _ _ _ _ _ T).
  rewrite (mapo_ext _ _ _ (fun i => nth (N.to_nat i) xs (None, []))).
  - f_equal. apply indices_nth.
  - intros i Hi. apply indices_in in Hi. destruct (nth_split_len _ xs i Hi) as (l1 & x & l2 & -> & <-).
    destruct (sub_fields _ _ _ _ _ _ _ _ _ W T) as (Hf & Hx & _).
    unfold read_sub. rewrite Hx. cbn [obind].
    pose proof (tr_items _ _ _ _ _ _ _ T) as C. destruct (items_split _ _ _ _ _ _ _ _ _ (isz_nz k) C) as (b1 & bl & b2 & _ & _ & ((_ & Hlw & _) & _)).
    rewrite (mapo_ext _ _ _ (word (snd x))).
    + cbn [obind]. unfold word. rewrite <- Hlw, indices_nth. f_equal.
      rewrite app_nth2 by (unfold nlen; lia). unfold nlen. rewrite Nat2N.id, Nat.sub_diag. cbn [nth]. destruct x; reflexivity.
    + intros w Hw. apply indices_in in Hw. apply Hf. exact Hw.
Qed.
