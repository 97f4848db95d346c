From Coq Require Import List NArith ZArith Lia Bool Arith.
From Verif Require Import Base BaseLemmas EvData EvDataProofs ExtShm ExtShmSpec ExtShmProofs ExtShmHoles ExtShmAlloc ExtShmRealloc SubTab SubTabSpec TabProofs SubTabProofs.
Import ListNotations.
Open Scope N_scope.

Lemma app_inj_len : forall A (a b c d : list A), a ++ c = b ++ d -> length a = length b -> a = b.
Proof.
  induction a as [|x r IH]; intros [|y b] c d E H; try discriminate H; [reflexivity|]. injection E as -> E. f_equal. eapply IH; [exact E|]. injection H as H. exact H.
Qed.

Ltac covs := repeat (first [rewrite !cov_app | progress cbn [cov app]]).

(** * The nested table of operational get subscriptions *)

Definition Rkid (m : mem) (a : N) (ws : words) (bl : list block) : Prop :=
  ok_words 8 ws /\ bytes_at m a (flat_map le32 ws) /\ bl = [].

Lemma kidsz_nz : kidsz <> 0.
Proof. unfold kidsz. lia. Qed.
Lemma osz_nz : osz <> 0.
Proof. unfold osz. lia. Qed.

Lemma Rkid_move : forall m m' a a' x bl, Rkid m a x bl ->
  (forall j, j < kidsz -> mb m' (a' + j) = mb m (a + j)) ->
  (forall b, (1 <= cov b bl)%nat -> mb m' b = mb m b) -> Rkid m' a' x bl.
Proof.
  intros m m' a a' x bl (Ok & H & E) F _. split; [exact Ok|]. split; [|exact E].
  eapply bytes_at_move; [exact H|]. rewrite words_len. destruct Ok as (Hl & _). rewrite Hl. unfold kidsz in F. intros j Hj. apply F. lia.
Qed.

Notation ktab := (tabrep words Rkid kidsz).
Notation kblocks := (tblocks kidsz).

Definition Rent (m : mem) (a : N) (e : oent) (bl : list block) : Prop :=
  ok_str (e_path e) /\ e_type e < two32 /\ bytes_at m (a + 8) (le32 (e_type e)) /\
  exists xo kt kbls, xo < two32 /\ t_off kt < two32 /\ t_cnt kt < two32 /\ xo <> 0 /\
    bytes_at m a (le64 xo) /\ bytes_at m (a + 16) (le64 (t_off kt)) /\ bytes_at m (a + 24) (le32 (t_cnt kt)) /\
    bytes_at m xo (e_path e ++ [0]) /\ ktab m kt (e_kids e) kbls /\
    bl = (xo, strshmlen (e_path e)) :: kblocks kt kbls.

Lemma Rent_move : forall m m' a a' x bl, Rent m a x bl ->
  (forall j, j < osz -> mb m' (a' + j) = mb m (a + j)) ->
  (forall b, (1 <= cov b bl)%nat -> mb m' b = mb m b) -> Rent m' a' x bl.
Proof.
  intros m m' a a' [[p ty] ks] bl (O1 & O2 & B0 & xo & kt & kbls & H1 & H2 & H3 & H4 & B1 & B2 & B3 & B4 & T & ->) F1 F2.
  unfold Rent. cbn [e_path e_type e_kids fst snd] in *. unfold osz in F1.
  split; [exact O1|]. split; [exact O2|]. split.
  { eapply bytes_at_move; [exact B0|]. rewrite le32_len. intros j Hj. rewrite <- !N.add_assoc. apply F1. lia. }
  exists xo, kt, kbls. repeat (split; [assumption|]). split.
  { eapply bytes_at_move; [exact B1|]. rewrite le64_len. intros j Hj. apply F1. lia. }
  split.
  { eapply bytes_at_move; [exact B2|]. rewrite le64_len. intros j Hj. rewrite <- !N.add_assoc. apply F1. lia. }
  split.
  { eapply bytes_at_move; [exact B3|]. rewrite le32_len. intros j Hj. rewrite <- !N.add_assoc. apply F1. lia. }
  split; [|split; [|reflexivity]].
  - eapply bytes_at_move; [exact B4|]. intros j Hj. apply F2. cbn [cov].
    rewrite nlen_app in Hj. change (nlen [0]) with 1 in Hj. pose proof (strshmlen_ge p).
    replace (inb (xo + j) (xo, strshmlen p)) with true by (symmetry; apply inb_true; lia). lia.
  - eapply tabrep_frame; [apply kidsz_nz|apply Rkid_move|exact T|]. intros b Hb. apply F2. cbn [cov]. destruct (inb b (xo, strshmlen p)); lia.
Qed.

Notation otab := (tabrep oent Rent osz).
Notation oblocks := (tblocks osz).
Definition oarr (t : tbl) : list block := blk (t_off t) (shm_size (t_cnt t * osz)).

(** The blocks around the kids of one entry. *)
Definition orest (xo : N) (e : oent) (t : tbl) (b1 b2 : list (list block)) (live : list block) : list block :=
  (xo, strshmlen (e_path e)) :: oarr t ++ concat (b1 ++ b2) ++ live.

Lemma u32_lim : forall n, n < 2147483648 -> n < two32.
Proof. intros. unfold two32. lia. Qed.

Lemma ofocus : forall m hs live t xs1 e xs2 bls,
  well m hs (oblocks t bls ++ live) -> otab m t (xs1 ++ e :: xs2) bls ->
  exists b1 b2 xo kt kbls, bls = b1 ++ ((xo, strshmlen (e_path e)) :: kblocks kt kbls) :: b2 /\ length b1 = length xs1 /\
    xo <> 0 /\ xo < two32 /\
    rd64 m (oitem t (nlen xs1)) = Some xo /\ mstr m xo = Some (e_path e) /\ rd32 m (oitem t (nlen xs1) + 8) = Some (e_type e) /\
    okids m t (nlen xs1) = Some kt /\ ktab m kt (e_kids e) kbls /\ ok_str (e_path e) /\ e_type e < two32 /\
    well m hs (kblocks kt kbls ++ orest xo e t b1 b2 live) /\
    8 <= t_off t /\ nlen xs1 < t_cnt t /\ oitem t (nlen xs1) + osz <= t_off t + shm_size (t_cnt t * osz).
Proof.
  intros m hs live t xs1 e xs2 bls W T. pose proof T as [A B C].
  destruct (items_split _ _ _ _ _ _ _ _ _ osz_nz C) as (b1 & bl & b2 & -> & Hl & HR).
  assert (Hi : nlen xs1 < t_cnt t) by (rewrite A, nlen_app; unfold nlen; cbn [length]; lia).
  destruct (array_in osz m hs live t _ oent Rent _ osz_nz W T _ Hi) as (Hin & Hto).
  destruct HR as (O1 & O2 & B0 & xo & kt & kbls & H1 & H2 & H3 & H4 & B1 & B2 & B3 & B4 & KT & ->).
  fold (oitem t (nlen xs1)) in *. unfold osz in Hin.
  exists b1, b2, xo, kt, kbls. split; [reflexivity|]. split; [exact Hl|]. split; [exact H4|]. split; [exact H1|].
  split; [apply rd64_bytes; [exact B1|exact H1|lia]|].
  split.
  { apply mstr_spec; [exact B4|exact O1|].
    destruct (block_in osz m hs live t _ ((xo, strshmlen (e_path e)) :: kblocks kt kbls) xo (strshmlen (e_path e)) W) as (_ & Q); [apply in_or_app; right; left; reflexivity|left; reflexivity|].
    pose proof (strshmlen_ge (e_path e)). lia. }
  split; [apply rd32_bytes; [exact B0|exact O2|lia]|].
  split.
  { unfold okids. rewrite (rd64_bytes _ _ _ B2 H2) by lia. cbn [obind]. rewrite (rd32_bytes _ _ _ B3 H3) by lia. cbn [obind]. destruct kt; reflexivity. }
  split; [exact KT|]. split; [exact O1|]. split; [exact O2|]. split.
  { eapply well_live_eq; [exact W| |].
    - intros b. unfold orest, tblocks, oarr. rewrite !concat_app. cbn [concat app]. covs. lia.
    - pose proof (w_live _ _ _ W) as G. unfold tblocks at 1 in G. fold (oarr t) in G.
      apply Forall_app in G. destruct G as (G & G4).
      apply Forall_app in G. destruct G as (G1 & G). rewrite concat_app in G. cbn [concat] in G. apply Forall_app in G. destruct G as (G2 & G). apply Forall_app in G. destruct G as (G3 & G5).
      inversion G3; subst. apply Forall_app. split; [assumption|]. unfold orest. constructor; [assumption|].
      apply Forall_app. split; [assumption|]. apply Forall_app. split; [|assumption]. rewrite concat_app. apply Forall_app. split; assumption. }
  split; [exact Hto|]. split; [exact Hi|]. unfold oitem, osz in *. pose proof (shm_size_ge (t_cnt t * 32)).
  assert ((nlen xs1 + 1) * 32 <= t_cnt t * 32) by (apply N.mul_le_mono_r; lia). lia.
Qed.

(** Putting changed kids back: the rest was kept except for the reference to the kids. *)
Lemma ounfocus : forall m m' hs' live t xs1 e xs2 b1 b2 xo kt kbls kt' kbls' ks',
  otab m t (xs1 ++ e :: xs2) (b1 ++ ((xo, strshmlen (e_path e)) :: kblocks kt kbls) :: b2) -> length b1 = length xs1 ->
  nlen xs1 < t_cnt t -> rd64 m (oitem t (nlen xs1)) = Some xo -> xo <> 0 -> xo < two32 ->
  oitem t (nlen xs1) + 8 <= msize m ->
  well m' hs' (kblocks kt' kbls' ++ orest xo e t b1 b2 live) -> ktab m' kt' ks' kbls' ->
  t_off kt' < two32 -> t_cnt kt' < two32 ->
  bytes_at m' (oitem t (nlen xs1) + 16) (le64 (t_off kt')) -> bytes_at m' (oitem t (nlen xs1) + 24) (le32 (t_cnt kt')) ->
  (forall b, (1 <= cov b (orest xo e t b1 b2 live))%nat ->
     b < oitem t (nlen xs1) + 16 \/ oitem t (nlen xs1) + 28 <= b -> mb m' b = mb m b) ->
  let bl' := (xo, strshmlen (e_path e)) :: kblocks kt' kbls' in
  well m' hs' (oblocks t (b1 ++ bl' :: b2) ++ live) /\
  otab m' t (xs1 ++ (e_path e, e_type e, ks') :: xs2) (b1 ++ bl' :: b2) /\
  (forall b, (1 <= cov b live)%nat -> mb m' b = mb m b).
Proof.
  intros m m' hs' live t xs1 e xs2 b1 b2 xo kt kbls kt' kbls' ks' T Hl Hi Hrd Hxo Hxo2 Hin W' KT' L1 L2 B2 B3 F bl'.
  pose proof T as [A B C].
  assert (Hca : shm_size (t_cnt t * osz) <> 0) by (apply arr_nz; [lia|apply osz_nz]).
  assert (Harr : oarr t = [(t_off t, shm_size (t_cnt t * osz))]) by (apply blk_nz; exact Hca).
  pose proof (shm_size_ge (t_cnt t * osz)) as Hge.
  assert (Hmi : (nlen xs1 + 1) * osz <= t_cnt t * osz) by (apply N.mul_le_mono_r; lia).
  assert (Hmi2 : (nlen xs1 + 1) * osz = nlen xs1 * osz + osz) by lia.
  assert (Hoi : oitem t (nlen xs1) = t_off t + nlen xs1 * osz) by reflexivity.
  assert (Ho : osz = 32) by reflexivity.
  assert (Hina : forall b, t_off t <= b -> b < t_off t + t_cnt t * osz -> (1 <= cov b (oarr t))%nat).
  { intros b H1 H2. rewrite Harr. cbn [cov]. replace (inb b (t_off t, shm_size (t_cnt t * osz))) with true by (symmetry; apply inb_true; lia). lia. }
  pose proof W' as WE. apply well_wellE in WE.
  assert (Hkeep : forall b, (1 <= cov b ((xo, strshmlen (e_path e)) :: concat (b1 ++ b2) ++ live))%nat -> mb m' b = mb m b).
  { intros b Hb. apply F.
    - unfold orest. cbn [cov] in *. rewrite !cov_app in *. destruct (inb b (xo, strshmlen (e_path e))); lia.
    - destruct (N.lt_ge_cases b (oitem t (nlen xs1) + 16)) as [L|L]; [left; assumption|].
      destruct (N.le_gt_cases (oitem t (nlen xs1) + 28) b) as [L'|L']; [right; assumption|]. exfalso.
      pose proof (e_tiled _ _ _ _ WE b) as T1. unfold orest in T1. rewrite !cov_app in T1. cbn [cov] in *. rewrite !cov_app in *.
      pose proof (Hina b ltac:(lia) ltac:(lia)).
      destruct (inb b (xo, strshmlen (e_path e))); destruct ((8 <=? b) && (b <? msize m')); lia. }
  split; [|split].
  - eapply well_live_eq; [exact W'| |].
    + intros b. unfold orest, bl', tblocks, oarr. rewrite !concat_app. cbn [concat app]. covs. lia.
    + pose proof (w_live _ _ _ W') as G. unfold orest in G. apply Forall_app in G. destruct G as (G1 & G). inversion G; subst.
      rename H2 into G3. apply Forall_app in G3. destruct G3 as (G3 & G4). apply Forall_app in G4. destruct G4 as (G4 & G5).
      rewrite concat_app in G4. apply Forall_app in G4. destruct G4 as (G4 & G6).
      apply Forall_app. split; [|assumption]. unfold tblocks at 1. fold (oarr t). apply Forall_app. split; [assumption|].
      rewrite concat_app. cbn [concat]. apply Forall_app. split; [assumption|]. apply Forall_app. split; [|assumption].
      unfold bl'. constructor; assumption.
  - apply (tab_update oent Rent osz osz_nz Rent_move m m' t xs1 e xs2 b1 _ b2 _ bl' T Hl).
    + intros b H1 H2 H3. apply F; [unfold orest; cbn [cov]; rewrite !cov_app; pose proof (Hina b H1 H2); destruct (inb b (xo, strshmlen (e_path e))); lia|]. lia.
    + intros b Hb. apply Hkeep. cbn [cov]. rewrite cov_app. destruct (inb b (xo, strshmlen (e_path e))); lia.
    + apply items_app in C; [|apply osz_nz|exact Hl]. destruct C as (_ & C). cbn [items] in C. destruct C as (HR & _).
      fold (oitem t (nlen xs1)) in HR. fold (oitem t (nlen xs1)).
      destruct HR as (O1 & O2 & B0 & xo2 & kt2 & kbls2 & H1 & H2 & H3 & H4 & C1 & C2 & C3 & C4 & _ & E).
      assert (Ex : xo2 = xo).
      { pose proof (rd64_bytes _ _ _ C1 H1 Hin) as Q. rewrite Hrd in Q. apply Some_inj in Q. congruence. }
      subst xo2. clear E. unfold Rent. cbn [e_path e_type e_kids fst snd]. split; [exact O1|]. split; [exact O2|].
      assert (Fs : forall j, j < 16 -> mb m' (oitem t (nlen xs1) + j) = mb m (oitem t (nlen xs1) + j)).
      { intros j Hj. apply F; [|lia]. unfold orest. cbn [cov]. rewrite !cov_app. pose proof (Hina (oitem t (nlen xs1) + j) ltac:(lia) ltac:(lia)).
        destruct (inb (oitem t (nlen xs1) + j) (xo, strshmlen (e_path e))); lia. }
      split.
      { eapply bytes_at_move; [exact B0|]. rewrite le32_len. intros j Hj. rewrite <- N.add_assoc. apply Fs. lia. }
      exists xo, kt', kbls'. repeat (split; [assumption|]). split.
      { eapply bytes_at_move; [exact C1|]. rewrite le64_len. intros j Hj. apply Fs. lia. }
      split; [exact B2|]. split; [exact B3|]. split; [|split; [exact KT'|reflexivity]].
      eapply bytes_at_move; [exact C4|]. intros j Hj. apply Hkeep. cbn [cov].
      rewrite nlen_app in Hj. change (nlen [0]) with 1 in Hj. pose proof (strshmlen_ge (e_path e)).
      replace (inb (xo + j) (xo, strshmlen (e_path e))) with true by (symmetry; apply inb_true; lia). lia.
  - intros b Hb. apply Hkeep. cbn [cov]. rewrite cov_app. destruct (inb b (xo, strshmlen (e_path e))); lia.
Qed.

(** The reference to the kids written into the entry. *)
Lemma oref_spec : forall m a ko kc, a + 28 <= msize m ->
  exists m', (do m <- wr64 m (a + 16) ko; wr32 m (a + 24) kc) = Some m' /\ msize m' = msize m /\
    bytes_at m' (a + 16) (le64 ko) /\ bytes_at m' (a + 24) (le32 kc) /\
    (forall b, b < a + 16 \/ a + 28 <= b -> mb m' b = mb m b).
Proof.
  intros m a ko kc H. unfold wr64. fold (le64 ko).
  destruct (wr_spec m (a + 16) (le64 ko) ltac:(rewrite le64_len; lia)) as (m1 & E1 & Z1 & B1 & F1). rewrite E1. cbn [obind]. rewrite le64_len in F1.
  unfold wr32. destruct (wr_spec m1 (a + 24) (le32 kc) ltac:(rewrite le32_len; lia)) as (m2 & E2 & Z2 & B2 & F2). rewrite le32_len in F2.
  exists m2. split; [exact E2|]. split; [congruence|]. split; [|split; [exact B2|]].
  - eapply bytes_at_move; [exact B1|]. rewrite le64_len. intros j Hj. apply F2. lia.
  - intros b Hb. rewrite F2, F1 by lia. reflexivity.
Qed.

Lemma kid_fields : forall m hs live kt ks1 k ks2 kbls,
  well m hs (kblocks kt kbls ++ live) -> ktab m kt (ks1 ++ k :: ks2) kbls ->
  ok_words 8 k /\ (forall w, w < 8 -> kid_field m kt (nlen ks1) w = Some (word k w)) /\
  exists b1 b2, kbls = b1 ++ blk 0 0 :: b2 /\ length b1 = length ks1.
Proof.
  intros m hs live kt ks1 k ks2 kbls W T. pose proof T as [A B C].
  destruct (items_split _ _ _ _ _ _ _ _ _ kidsz_nz C) as (b1 & bl & b2 & -> & Hl & HR).
  assert (Hi : nlen ks1 < t_cnt kt) by (rewrite A, nlen_app; unfold nlen; cbn [length]; lia).
  destruct (array_in kidsz m hs live kt _ words Rkid _ kidsz_nz W T _ Hi) as (Hin & _).
  destruct HR as ((Hl2 & Ok) & B1 & ->). split; [split; assumption|]. split.
  - intros w Hw. unfold kid_field. apply words_nth; [exact B1|exact Ok|lia|]. rewrite Hl2. unfold kidsz in *. lia.
  - exists b1, b2. split; [reflexivity|exact Hl].
Qed.

(** * Searching *)

Lemma kid_find_spec : forall m hs live kt kbls id ks2 ks1,
  well m hs (kblocks kt kbls ++ live) -> ktab m kt (ks1 ++ ks2) kbls ->
  (kid_find (length ks2) m kt id (nlen ks1) = Some None /\ Forall (fun w => word w kid_id <> id) ks2) \/
  (exists y1 k y2, ks2 = y1 ++ k :: y2 /\ Forall (fun w => word w kid_id <> id) y1 /\ word k kid_id = id /\
     kid_find (length ks2) m kt id (nlen ks1) = Some (Some (nlen (ks1 ++ y1)))).
Proof.
  intros m hs live kt kbls id. induction ks2 as [|k r IH]; intros ks1 W T.
  - left. split; [reflexivity|constructor].
  - cbn [kid_find length]. destruct (kid_fields _ _ _ _ _ _ _ _ W T) as (_ & Hf & _). rewrite Hf by (unfold kid_id; lia). cbn [obind].
    destruct (N.eqb_spec (word k kid_id) id) as [E|E].
    + right. exists [], k, r. split; [reflexivity|]. split; [constructor|]. split; [exact E|]. rewrite app_nil_r. reflexivity.
    + assert (T' : ktab m kt ((ks1 ++ [k]) ++ r) kbls) by (rewrite <- app_assoc; exact T).
      assert (Hn : nlen ks1 + 1 = nlen (ks1 ++ [k])) by (rewrite nlen_app; reflexivity). rewrite Hn.
      destruct (IH _ W T') as [(I1 & I2)|(y1 & y & y2 & E1 & E2 & E3 & E4)].
      * left. split; [exact I1|]. constructor; assumption.
      * right. exists (k :: y1), y, y2. split; [cbn [app]; congruence|]. split; [constructor; assumption|]. split; [exact E3|].
        rewrite E4. rewrite <- app_assoc. reflexivity.
Qed.

Definition no_kid (id : N) (e : oent) : Prop := Forall (fun w => word w kid_id <> id) (e_kids e).

Lemma ofind_spec : forall m hs live t bls id xs2 xs1,
  well m hs (oblocks t bls ++ live) -> otab m t (xs1 ++ xs2) bls ->
  (ofind_loop (length xs2) m t id (nlen xs1) = Some None /\ Forall (no_kid id) xs2) \/
  (exists y1 e y2 k1 k k2, xs2 = y1 ++ e :: y2 /\ Forall (no_kid id) y1 /\ e_kids e = k1 ++ k :: k2 /\
     Forall (fun w => word w kid_id <> id) k1 /\ word k kid_id = id /\
     ofind_loop (length xs2) m t id (nlen xs1) = Some (Some (nlen (xs1 ++ y1), nlen k1))).
Proof.
  intros m hs live t bls id. induction xs2 as [|e r IH]; intros xs1 W T.
  - left. split; [reflexivity|constructor].
  - cbn [ofind_loop length]. destruct (ofocus _ _ _ _ _ _ _ _ W T) as (b1 & b2 & xo & kt & kbls & _ & _ & _ & _ & _ & _ & _ & E & KT & _ & _ & KW & _).
    rewrite E. cbn [obind]. rewrite (tr_cnt _ _ _ _ _ _ _ KT). replace (N.to_nat (nlen (e_kids e))) with (length (e_kids e)) by (unfold nlen; lia).
    destruct (kid_find_spec m hs _ kt kbls id (e_kids e) [] KW KT) as [(I1 & I2)|(y1 & y & y2 & E1 & E2 & E3 & E4)].
    + change (nlen (@nil words)) with 0 in I1. rewrite I1. cbn [obind].
      assert (T' : otab m t ((xs1 ++ [e]) ++ r) bls) by (rewrite <- app_assoc; exact T).
      assert (Hn : nlen xs1 + 1 = nlen (xs1 ++ [e])) by (rewrite nlen_app; reflexivity). rewrite Hn.
      destruct (IH _ W T') as [(J1 & J2)|(y1 & y & y2 & k1 & k & k2 & E1 & E2 & E3 & E4 & E5 & E6)].
      * left. split; [exact J1|]. constructor; assumption.
      * right. exists (e :: y1), y, y2, k1, k, k2. split; [cbn [app]; congruence|]. split; [constructor; assumption|].
        split; [exact E3|]. split; [exact E4|]. split; [exact E5|]. rewrite E6. rewrite <- app_assoc. reflexivity.
    + change (nlen (@nil words)) with 0 in E4. rewrite E4. cbn [obind app]. right. exists [], e, r, y1, y, y2. split; [reflexivity|]. split; [constructor|].
      split; [exact E1|]. split; [exact E2|]. split; [exact E3|]. rewrite app_nil_r. reflexivity.
Qed.

(** * What is left of a freed item

    sr_shmext_oper_get_sub_remove_dead() looks at an item after it was freed: only the first 8
    bytes of a hole are ever written. *)

Lemma wr32_frame : forall m a v m' b, wr32 m a v = Some m' -> b < a \/ a + 4 <= b -> mb m' b = mb m b.
Proof.
  intros m a v m' b E H. unfold wr32, wr in E. destruct (a + nlen (le32 v) <=? msize m); [|discriminate E].
  apply Some_inj in E. subst m'. cbn [mb]. rewrite le32_len. destruct (N.leb_spec a b); destruct (N.ltb_spec b (a + 4)); cbn [andb]; try reflexivity. lia.
Qed.

Lemma hlast_in : forall hs, hlast 0 hs = 0 \/ exists s, In (hlast 0 hs, s) hs.
Proof.
  intros hs. destruct (list_snoc_cases _ hs) as [->|(a & (h, s) & ->)]; [left; reflexivity|].
  right. exists s. rewrite hlast_snoc. apply in_or_app. right. left. reflexivity.
Qed.

Definition off_heads (b : N) (hs : list block) : Prop := forall h s, In (h, s) hs -> b < h \/ h + 8 <= b.

Lemma hole_add_frame : forall m hs off size m' b,
  holes m hs -> hsorted 8 hs -> in_mem m hs -> off < 2147483648 -> hole_add m off size = Some m' ->
  8 <= b -> off_heads b hs -> b < off \/ off + 8 <= b -> mb m' b = mb m b.
Proof.
  intros m hs off size m' b (o & Ho & Hc) Hs Hm H31 E H8 Hh Hb. apply holes_seg in Hc.
  unfold hole_add in E. destruct (size =? 0); [apply Some_inj in E; subst; reflexivity|].
  unfold hole_next at 1 in E. cbn [N.eqb] in E. rewrite Ho in E. cbn [obind] in E.
  destruct (add_loop_spec (hole_fuel m) m off hs 0 o 8 Hc Hs H31 (fuel_enough m hs Hs Hm)) as (hs1 & hs2 & Eh & _ & _ & C).
  rewrite C in E. cbn [obind fst snd] in E.
  assert (Hp : hlast 0 hs1 = 0 \/ (b < hlast 0 hs1 \/ hlast 0 hs1 + 8 <= b)).
  { destruct (hlast_in hs1) as [K|(s & K)]; [left; exact K|right]. apply (Hh _ s). subst hs. apply in_or_app. left. exact K. }
  set (p := hlast 0 hs1) in *. clearbody p. set (nx := hfirst hs2) in *. clearbody nx. clear - E H8 Hb Hp.
  assert (K : forall mm, (if negb (p =? 0) then wr32 m (p + 4) off else wr32 m 0 off) = Some mm -> mb mm b = mb m b).
  { intros mm Q. destruct (N.eqb_spec p 0); cbn [negb] in Q; eapply wr32_frame; try exact Q; lia. }
  destruct (N.eqb_spec p 0) as [P|P].
  - subst p. cbn [obind andb negb] in *.
    destruct (negb (nx =? 0) && (as_int (u32 (off + size)) =? Z.of_N nx)%Z).
    + destruct (wr32 m 0 off) as [m1|] eqn:E1; [|discriminate E]. cbn [obind] in E.
      destruct (rd32 m1 nx) as [ns|]; [|discriminate E]. cbn [obind] in E.
      destruct (wr32 m1 off (u32 (size + ns))) as [m2|] eqn:E2; [|discriminate E]. cbn [obind] in E.
      destruct (rd32 m2 (nx + 4)) as [nn|]; [|discriminate E]. cbn [obind] in E.
      rewrite (wr32_frame _ _ _ _ _ E), (wr32_frame _ _ _ _ _ E2), (K _ eq_refl) by lia. reflexivity.
    + destruct (wr32 m 0 off) as [m1|] eqn:E1; [|discriminate E]. cbn [obind] in E.
      destruct (wr32 m1 off size) as [m2|] eqn:E2; [|discriminate E]. cbn [obind] in E.
      assert (E3 : mb m' b = mb m2 b) by (destruct (negb (nx =? 0)); eapply wr32_frame; try exact E; lia).
      rewrite E3, (wr32_frame _ _ _ _ _ E2), (K _ eq_refl) by lia. reflexivity.
  - cbn [negb] in *. destruct Hp as [Hp|Hp]; [contradiction|].
    destruct (rd32 m p) as [ps|] eqn:Rp; [|discriminate E]. cbn [obind] in E.
    destruct (p + ps =? off); cbn [andb] in E.
    + destruct (negb (nx =? 0) && (as_int (u32 (off + size)) =? Z.of_N nx)%Z).
      * cbn [obind] in E. destruct (rd32 m nx) as [ns|]; [|discriminate E]. cbn [obind] in E.
        destruct (wr32 m p (u32 (ps + u32 (size + ns)))) as [m1|] eqn:E1; [|discriminate E]. cbn [obind] in E.
        destruct (rd32 m1 (nx + 4)) as [nn|]; [|discriminate E]. cbn [obind] in E.
        rewrite (wr32_frame _ _ _ _ _ E), (wr32_frame _ _ _ _ _ E1) by lia. reflexivity.
      * cbn [obind] in E. apply (wr32_frame _ _ _ _ _ E). lia.
    + destruct (negb (nx =? 0) && (as_int (u32 (off + size)) =? Z.of_N nx)%Z).
      * destruct (wr32 m (p + 4) off) as [m1|] eqn:E1; [|discriminate E]. cbn [obind] in E.
        destruct (rd32 m1 nx) as [ns|]; [|discriminate E]. cbn [obind] in E.
        destruct (wr32 m1 off (u32 (size + ns))) as [m2|] eqn:E2; [|discriminate E]. cbn [obind] in E.
        destruct (rd32 m2 (nx + 4)) as [nn|]; [|discriminate E]. cbn [obind] in E.
        rewrite (wr32_frame _ _ _ _ _ E), (wr32_frame _ _ _ _ _ E2), (K _ eq_refl) by lia. reflexivity.
      * destruct (wr32 m (p + 4) off) as [m1|] eqn:E1; [|discriminate E]. cbn [obind] in E.
        destruct (wr32 m1 off size) as [m2|] eqn:E2; [|discriminate E]. cbn [obind] in E.
        assert (E3 : mb m' b = mb m2 b) by (destruct (negb (nx =? 0)); eapply wr32_frame; try exact E; lia).
        rewrite E3, (wr32_frame _ _ _ _ _ E2), (K _ eq_refl) by lia. reflexivity.
Qed.

Lemma hole_start : forall hs lo h s, hsorted lo hs -> 8 <= lo -> In (h, s) hs -> (1 <= cov h hs)%nat /\ cov (h - 1) hs = 0%nat.
Proof.
  induction hs as [|(h0, s0) r IH]; intros lo h s Hs Hlo Hi; [destruct Hi|]. cbn [hsorted] in Hs. destruct Hs as (S1 & S2 & S3 & S4 & S5).
  cbn [cov]. destruct Hi as [E|Hi].
  - injection E as <- <-. split.
    + replace (inb h0 (h0, s0)) with true by (symmetry; apply inb_true; lia). lia.
    + replace (inb (h0 - 1) (h0, s0)) with false by (symmetry; apply inb_false; lia).
      destruct (cov (h0 - 1) r) eqn:Ec; [reflexivity|exfalso].
      assert (Hx : exists x, In x r /\ inb (h0 - 1) x = true).
      { clear - Ec. induction r as [|x r IH]; [discriminate|]. cbn [cov] in Ec. destruct (inb (h0 - 1) x) eqn:Ei; [exists x; split; [left; reflexivity|exact Ei]|].
        destruct IH as (y & Y1 & Y2); [lia|]. exists y. split; [right; exact Y1|exact Y2]. }
      destruct Hx as ((y & t) & Y1 & Y2). apply inb_true in Y2. pose proof (hsorted_in _ _ _ _ S5 Y1). lia.
  - destruct (IH _ _ _ S5 ltac:(lia) Hi) as (A & B). pose proof (hsorted_in _ _ _ _ S5 Hi) as (K1 & K2 & _). split; [lia|].
    replace (inb (h - 1) (h0, s0)) with false by (symmetry; apply inb_false; lia). lia.
Qed.

Lemma cov_ex : forall b l, (1 <= cov b l)%nat -> exists o s, In (o, s) l /\ o <= b /\ b < o + s.
Proof.
  intros b. induction l as [|(o, s) r IH]; intros H; cbn [cov] in H; [lia|]. destruct (inb b (o, s)) eqn:E.
  - exists o, s. apply inb_true in E. split; [left; reflexivity|]. lia.
  - destruct IH as (x & y & A & B); [lia|]. exists x, y. split; [right; exact A|exact B].
Qed.

Lemma heads_after : forall hs hs' off size b, hsorted 8 hs -> hsorted 8 hs' -> 8 <= off ->
  (forall c, cov c hs' = (cov c hs + cov c [(off, size)])%nat) ->
  off_heads b hs -> b < off \/ off + 8 <= b -> off_heads b hs'.
Proof.
  intros hs hs' off size b S S' H8 Hc Hh Hb h s Hi.
  destruct (hole_start _ _ _ _ S' (N.le_refl 8) Hi) as (A & B). rewrite Hc in A, B. pose proof (hsorted_in _ _ _ _ S' Hi) as (K1 & K2 & _).
  assert (A' : (1 <= cov h hs \/ 1 <= cov h [(off, size)])%nat) by lia. destruct A' as [A'|A'].
  - destruct (cov_ex _ _ A') as (o & z & I1 & I2 & I3).
    assert (o = h).
    { destruct (N.eq_dec o h) as [|Hn]; [assumption|exfalso]. pose proof (cov_in (h - 1) hs (o, z) I1 ltac:(apply inb_true; lia)). lia. }
    subst o. exact (Hh h z I1).
  - destruct (cov_ex _ _ A') as (o & z & [E|[]] & I2 & I3). injection E as <- <-.
    assert (off = h).
    { destruct (N.eq_dec off h) as [|Hn]; [assumption|exfalso]. cbn [cov] in B. replace (inb (h - 1) (off, size)) with true in B by (symmetry; apply inb_true; lia). lia. }
    subst h. exact Hb.
Qed.

Lemma live_heads : forall E m hs live b, wellE E m hs live -> (1 <= cov b live)%nat -> off_heads b hs.
Proof.
  intros E m hs live b W Hb h s Hi. pose proof (e_tiled _ _ _ _ W b) as T. pose proof (hsorted_in _ _ _ _ (e_sorted _ _ _ _ W) Hi) as (_ & K & _).
  assert (C0 : cov b hs = 0%nat) by (destruct ((8 <=? b) && (b <? E)); lia).
  pose proof (cov0_out _ _ _ _ C0 Hi). lia.
Qed.

Lemma del_stale : forall m hs live aoff count isz dsz doff m' x y b,
  well m hs ((aoff, shm_size (count * isz)) :: blk doff dsz ++ live) -> count <> 0 -> isz mod 8 = 0 ->
  shmrealloc_del m aoff count isz (count - 1) dsz doff = Some (m', x, y) ->
  aoff + (count - 1) * isz + 8 <= b -> b < aoff + count * isz -> mb m' b = mb m b.
Proof.
  intros m hs live aoff count isz dsz doff m' x y b W Hc H8 E B1 B2.
  assert (Hm : forall n, shm_size (n * isz) = n * isz).
  { intros n. apply shm_size_mod8. rewrite N.mul_mod, H8, N.mul_0_r by lia. reflexivity. }
  assert (Hci : (count - 1) * isz + isz = count * isz).
  { replace count with (count - 1 + 1) at 2 by lia. lia. }
  pose proof (w_size _ _ _ W) as (Z1 & Z2 & Z3).
  unfold shmrealloc_del in E. rewrite Hm in W. rewrite !Hm in E.
  destruct (negb (Bool.eqb (dsz =? 0) (doff =? 0))) eqn:G1; [discriminate E|].
  destruct (negb (dsz =? shm_size dsz)); [discriminate E|]. destruct (N.eqb_spec count 0); [contradiction|].
  assert (E1 : (if count - 1 =? 0 then Some m else if count - 1 <? count - 1 then
       move m (aoff + (count - 1) * isz) (aoff + (count - 1 + 1) * isz) ((count - 1 - (count - 1)) * isz) else Some m) = Some m).
  { rewrite N.ltb_irrefl. destruct (count - 1 =? 0); reflexivity. }
  rewrite E1 in E. cbn [obind] in E. clear E1.
  assert (Hd : count * isz - (count - 1) * isz = isz) by lia. rewrite Hd in E.
  pose proof W as WE. apply well_wellE in WE.
  destruct (wellE_live_in _ _ _ _ aoff (count * isz) WE (or_introl eq_refl)) as (Q1 & Q2 & _).
  assert (Hi0 : isz <> 0) by lia.
  replace (negb (isz =? 0)) with true in E by (symmetry; apply negb_true_iff, N.eqb_neq; exact Hi0).
  assert (Hu1 : u32 (aoff + (count - 1) * isz) = aoff + (count - 1) * isz) by (apply u32_small; unfold two32; lia).
  assert (Hu2 : u32 isz = isz) by (apply u32_small; unfold two32; lia).
  rewrite Hu1, Hu2 in E.
  assert (Cb : (1 <= cov b ((aoff, (count * isz)%N) :: blk doff dsz ++ live))%nat).
  { cbn [cov]. replace (inb b (aoff, count * isz)) with true by (symmetry; apply inb_true; lia). lia. }
  pose proof (live_heads _ _ _ _ _ WE Cb) as Hh.
  (* the array is split *)
  assert (W1 : wellE (msize m) m hs ((aoff + (count - 1) * isz, isz) :: blk aoff ((count - 1) * isz) ++ blk doff dsz ++ live)).
  { eapply wellE_live_eq; [exact WE| |].
    - intros c. cbn [cov]. rewrite !cov_app, (cov_blk c aoff). cbn [cov].
      destruct (inb c (aoff + (count - 1) * isz, isz)) eqn:I1; destruct (inb c (aoff, (count - 1) * isz)) eqn:I2; destruct (inb c (aoff, count * isz)) eqn:I3; try lia; exfalso;
      rewrite ?inb_true, ?inb_false in *; lia.
    - pose proof (e_live _ _ _ _ WE) as G. pose proof (Forall_inv G) as (X1 & X2 & X3). pose proof (Forall_inv_tail G) as X4. cbn [fst snd] in *.
      assert (Hr8 : ((count - 1) * isz) mod 8 = 0) by (rewrite N.mul_mod, H8, N.mul_0_r by lia; reflexivity).
      constructor; [cbn [fst snd]; split; [exact Hi0|]; split; [rewrite N.add_mod, X2, Hr8 by lia; reflexivity|exact H8]|].
      apply Forall_app. split; [apply Forall_blk; auto|exact X4]. }
  destruct (well_free _ _ _ _ _ _ W1 ltac:(lia)) as (m1 & hs1 & E1 & Zm & W2 & _ & C1).
  rewrite E1 in E. cbn [obind] in E.
  assert (F1 : mb m1 b = mb m b).
  { eapply hole_add_frame; [exact (e_holes _ _ _ _ WE)|exact (e_sorted _ _ _ _ WE)|exact (e_mem _ _ _ _ WE)| |exact E1| |exact Hh|]; lia. }
  destruct (N.eqb_spec dsz 0) as [D|D]; cbn [negb obind] in E.
  - apply Some_inj in E. injection E as <- _ _. exact F1.
  - destruct (hole_add m1 (u32 doff) (u32 dsz)) as [m2|] eqn:E2; [|discriminate E]. cbn [obind] in E. apply Some_inj in E. injection E as <- _ _.
    rewrite <- F1.
    destruct (wellE_live_in _ _ _ _ doff dsz WE) as (R1 & R2 & _).
    { right. apply in_or_app. left. rewrite blk_nz by assumption. left. reflexivity. }
    rewrite (u32_small doff), (u32_small dsz) in E2 by (unfold two32; lia).
    eapply hole_add_frame; [exact (e_holes _ _ _ _ W2)|exact (e_sorted _ _ _ _ W2)|exact (e_mem _ _ _ _ W2)| |exact E2| | |]; try lia.
    + eapply heads_after with (off := aoff + (count - 1) * isz); [exact (e_sorted _ _ _ _ WE)|exact (e_sorted _ _ _ _ W2)| |exact C1|exact Hh|]; [pose proof (N.le_add_r aoff ((count - 1) * isz)); clear - Q1 H; lia|right; exact B1].
    + (* the freed attribute is another block *)
      destruct (N.lt_ge_cases b doff) as [L|L]; [left; assumption|]. destruct (N.le_gt_cases (doff + 8) b) as [L'|L']; [right; assumption|]. exfalso.
      assert (8 <= dsz).
      { pose proof (e_live _ _ _ _ WE) as G. apply Forall_inv_tail in G. apply Forall_app in G. destruct G as (G & _). rewrite blk_nz in G by assumption.
        apply Forall_inv in G. cbn [fst snd] in G. destruct G as (_ & _ & G). destruct (N.lt_ge_cases dsz 8) as [M|M]; [|assumption]. rewrite N.mod_small in G by assumption. contradiction. }
      pose proof (e_tiled _ _ _ _ WE b) as T. cbn [cov] in T. rewrite cov_app, blk_nz in T by assumption. cbn [cov] in T.
      replace (inb b (aoff, count * isz)) with true in T by (symmetry; apply inb_true; lia).
      replace (inb b (doff, dsz)) with true in T by (symmetry; apply inb_true; lia).
      destruct ((8 <=? b) && (b <? msize m)); lia.
Qed.

Lemma del_off : forall m aoff count isz idx dsz doff m' x y,
  shmrealloc_del m aoff count isz idx dsz doff = Some (m', x, y) -> y <> 0 -> x = aoff.
Proof.
  intros m aoff count isz idx dsz doff m' x y E Hy. unfold shmrealloc_del in E.
  destruct (negb (Bool.eqb (dsz =? 0) (doff =? 0))); [discriminate E|].
  destruct (negb (dsz =? shm_size dsz)); [discriminate E|]. destruct (count =? 0); [discriminate E|].
  match type of E with obind ?a _ = _ => destruct a as [m1|]; [|discriminate E] end. cbn [obind] in E.
  match type of E with obind ?a _ = _ => destruct a as [m2|]; [|discriminate E] end. cbn [obind] in E.
  match type of E with obind ?a _ = _ => destruct a as [m3|]; [|discriminate E] end. cbn [obind] in E.
  apply Some_inj in E. injection E as _ Ex Ey. destruct (N.eqb_spec (count - 1) 0); [congruence|congruence].
Qed.

(** * Removing one *)

Definition drop_kid (xs1 : list oent) (e : oent) (ks : list words) (xs2 : list oent) : list oent :=
  match ks with [] => xs1 ++ xs2 | _ => xs1 ++ (e_path e, e_type e, ks) :: xs2 end.

Lemma oper_free_spec : forall m hs live t xs1 e xs2 bls k1 k k2,
  well m hs (oblocks t bls ++ live) -> otab m t (xs1 ++ e :: xs2) bls -> e_kids e = k1 ++ k :: k2 ->
  exists m' hs' t' bls', oper_free m t (nlen xs1) (nlen k1) = Some (m', t') /\
    well m' hs' (oblocks t' bls' ++ live) /\ otab m' t' (drop_kid xs1 e (k1 ++ k2) xs2) bls' /\ msize m' = msize m /\
    (forall b, (1 <= cov b live)%nat -> mb m' b = mb m b) /\
    (t_cnt t' <> 0 -> t_off t' = t_off t) /\
    (k1 ++ k2 = [] -> xs2 = [] -> bytes_at m' (oitem t (nlen xs1) + 24) (le32 0) /\ oitem t (nlen xs1) + osz <= msize m').
Proof.
  intros m hs live t xs1 e xs2 bls k1 k k2 W T Ek.
  destruct (ofocus _ _ _ _ _ _ _ _ W T) as (b1 & b2 & xo & kt & kbls & -> & Hl & Hxo & Hxo2 & Hrd & Hms & Hty & E & KT & Ok1 & Ok2 & KW & Hto & Hi & Hin).
  unfold oper_free. rewrite E. cbn [obind]. rewrite Ek in KT.
  destruct (kid_fields _ _ _ _ _ _ _ _ KW KT) as (_ & _ & kb1 & kb2 & -> & Hkl).
  destruct (tab_delete words Rkid kidsz kidsz_nz Rkid_move m hs _ kt k1 k k2 kb1 kb2 0 0 KW KT Hkl eq_refl ltac:(tauto))
    as (m1 & hs1 & kt1 & E1 & C1 & W1 & T1 & Z1 & F1).
  rewrite E1. cbn [obind].
  assert (Harr : oarr t = [(t_off t, shm_size (t_cnt t * osz))]) by (apply blk_nz; apply arr_nz; [lia|apply osz_nz]).
  pose proof W1 as WE. apply well_wellE in WE.
  assert (Hta : t_off t + shm_size (t_cnt t * osz) <= msize m1).
  { apply (wellE_live_in _ _ _ _ (t_off t) (shm_size (t_cnt t * osz)) WE). apply in_or_app. right. unfold orest. right. rewrite Harr. left. reflexivity. }
  unfold osz in Hin at 1.
  destruct (oref_spec m1 (oitem t (nlen xs1)) (t_off kt1) (t_cnt kt1)) as (m2 & E2 & Z2 & B1 & B2 & F2); [lia|].
  destruct (wr64 m1 (oitem t (nlen xs1) + 16) (t_off kt1)) as [mm|] eqn:Ew; [|discriminate E2]. cbn [obind] in *. rewrite E2. cbn [obind].
  assert (Hina : forall b, t_off t <= b -> b < t_off t + shm_size (t_cnt t * osz) -> (1 <= cov b (oarr t))%nat).
  { intros b H1 H2. rewrite Harr. cbn [cov]. replace (inb b (t_off t, shm_size (t_cnt t * osz))) with true by (symmetry; apply inb_true; lia). lia. }
  assert (Hoi : oitem t (nlen xs1) = t_off t + nlen xs1 * osz) by reflexivity.
  assert (Hkids : forall b, (1 <= cov b (kblocks kt1 (kb1 ++ kb2)))%nat -> mb m2 b = mb m1 b).
  { intros b Hb. apply F2. destruct (N.lt_ge_cases b (oitem t (nlen xs1) + 16)) as [L|L]; [left; assumption|].
    destruct (N.le_gt_cases (oitem t (nlen xs1) + 28) b) as [L'|L']; [right; assumption|]. exfalso.
    pose proof (e_tiled _ _ _ _ WE b) as T2. unfold orest in T2. rewrite !cov_app in T2. cbn [cov] in T2. rewrite !cov_app in T2.
    pose proof (Hina b ltac:(lia) ltac:(lia)).
    destruct (inb b (xo, strshmlen (e_path e))); destruct ((8 <=? b) && (b <? msize m1)); lia. }
  assert (W2 : well m2 hs1 (kblocks kt1 (kb1 ++ kb2) ++ orest xo e t b1 b2 live)).
  { eapply well_write; [exact W1|exact Z2|]. intros b Hb. apply F2. unfold orest in Hb. rewrite !cov_app in Hb. cbn [cov] in Hb. rewrite !cov_app in Hb.
    destruct (N.lt_ge_cases b (oitem t (nlen xs1) + 16)) as [L|L]; [left; assumption|].
    destruct (N.le_gt_cases (oitem t (nlen xs1) + 28) b) as [L'|L']; [right; assumption|]. exfalso.
    pose proof (Hina b ltac:(lia) ltac:(lia)). lia. }
  assert (T2 : ktab m2 kt1 (k1 ++ k2) (kb1 ++ kb2)) by (eapply tabrep_frame; [apply kidsz_nz|apply Rkid_move|exact T1|exact Hkids]).
  pose proof (w_size _ _ _ W1) as (_ & _ & Zl).
  assert (Lo : t_off kt1 < two32 /\ t_cnt kt1 < two32).
  { pose proof (tr_off _ _ _ _ _ _ _ T1) as Q. destruct (N.eq_dec (t_cnt kt1) 0) as [Z|Z].
    - rewrite (proj2 Q Z), Z. unfold two32. lia.
    - destruct (array_in kidsz m1 hs1 _ kt1 _ words Rkid _ kidsz_nz W1 T1 (t_cnt kt1 - 1) ltac:(lia)) as (Q1 & _).
      unfold kidsz in Q1. unfold two32. lia. }
  destruct (ounfocus m m2 hs1 live t xs1 e xs2 b1 b2 xo kt (kb1 ++ blk 0 0 :: kb2) kt1 (kb1 ++ kb2) (k1 ++ k2) T Hl Hi Hrd Hxo Hxo2)
    as (W3 & T3 & F3); try assumption; try tauto.
  { lia. }
  { intros b Hb Hb2. rewrite F2 by assumption. apply F1. rewrite cov_app. lia. }
  destruct (N.eqb_spec (t_cnt kt1) 0) as [Z|Z].
  - assert (Hk : k1 ++ k2 = []).
    { pose proof (tr_cnt _ _ _ _ _ _ _ T1) as Q. destruct (k1 ++ k2); [reflexivity|]. unfold nlen in Q. cbn [length] in Q. lia. }
    rewrite Hk in *. cbn [drop_kid].
    destruct (ofocus _ _ _ _ _ _ _ _ W3 T3) as (c1 & c2 & xo3 & kt3 & kbls3 & Eb & Hl3 & _ & _ & Hrd3 & Hms3 & _).
    cbn [e_path fst snd] in *.
    assert (Ec : b1 = c1) by (eapply app_inj_len; [exact Eb|lia]). subst c1. apply app_inv_head in Eb. injection Eb as Ex Ey Ez. subst xo3.
    rewrite Hrd3. cbn [obind]. rewrite Hms3. cbn [obind].
    assert (Hnb : (xo, strshmlen (e_path e)) :: kblocks kt1 (kb1 ++ kb2) = blk xo (strshmlen (e_path e))).
    { rewrite blk_nz by apply strshmlen_nz. f_equal. unfold tblocks. rewrite Z, N.mul_0_l. unfold blk. cbn.
      pose proof (items_len _ _ _ _ _ _ _ (tr_items _ _ _ _ _ _ _ T1)) as Q. destruct (kb1 ++ kb2); [reflexivity|discriminate Q]. }
    rewrite Hnb in *.
    destruct (tab_delete oent Rent osz osz_nz Rent_move m2 hs1 live t xs1 _ xs2 b1 b2 (strshmlen (e_path e)) xo W3 T3 Hl (strshmlen_mod _))
      as (m4 & hs4 & t4 & E4 & C4 & W4 & T4 & Z4 & F4).
    { pose proof (strshmlen_nz (e_path e)). tauto. }
    rewrite E4. cbn [obind]. exists m4, hs4, t4, (b1 ++ b2). split; [destruct t4; reflexivity|]. split; [exact W4|]. split; [exact T4|].
    split; [congruence|]. split; [intros b Hb; rewrite F4, F3 by (try rewrite cov_app; lia); reflexivity|].
    split; [eapply del_off; exact E4|]. intros _ ->.
    assert (Hcn : t_cnt t - 1 = nlen xs1) by (rewrite (tr_cnt _ _ _ _ _ _ _ T3), nlen_app; unfold nlen; cbn [length]; lia).
    split; [|unfold osz at 1; lia].
    rewrite Z in B2. eapply bytes_at_move; [exact B2|]. rewrite le32_len. intros j Hj. rewrite <- Hcn in E4.
    assert (Ho : osz = 32) by reflexivity.
    assert (Hci : (t_cnt t - 1) * osz + osz = t_cnt t * osz) by (replace (t_cnt t) with (t_cnt t - 1 + 1) at 2 by lia; lia).
    eapply (del_stale m2 hs1 (concat (b1 ++ b2) ++ live) (t_off t) (t_cnt t) osz (strshmlen (e_path e)) xo); [|lia|reflexivity|exact E4| |].
    + eapply well_live_eq; [exact W3| |].
      * intros b. unfold tblocks. fold (oarr t). rewrite Harr. rewrite !concat_app. cbn [concat]. covs. lia.
      * pose proof (w_live _ _ _ W3) as G. unfold tblocks in G. fold (oarr t) in G. rewrite Harr in G. apply Forall_app in G. destruct G as (G & G4).
        apply Forall_app in G. destruct G as (G1 & G). rewrite concat_app in G. cbn [concat] in G. apply Forall_app in G. destruct G as (G2 & G). apply Forall_app in G. destruct G as (G3 & G5).
        constructor; [exact (Forall_inv G1)|]. apply Forall_app. split; [exact G3|]. apply Forall_app. split; [|exact G4]. rewrite concat_app. apply Forall_app. split; assumption.
    + rewrite Hoi, <- Hcn. lia.
    + rewrite Hoi, <- Hcn. lia.
  - eexists m2, hs1, t, _. split; [reflexivity|]. split; [exact W3|]. split.
    + assert (Hk : k1 ++ k2 <> []).
      { pose proof (tr_cnt _ _ _ _ _ _ _ T1) as Q. intros K. rewrite K in Q. apply Z. exact Q. }
      unfold drop_kid. destruct (k1 ++ k2) as [|k0 kr]; [contradiction|]. exact T3.
    + split; [congruence|]. split; [exact F3|]. split; [reflexivity|]. intros K. exfalso. apply Z. rewrite (tr_cnt _ _ _ _ _ _ _ T1), K. reflexivity.
Qed.

Lemma l_odel_none : forall id l, Forall (no_kid id) l -> l_odel id l = l.
Proof.
  induction l as [|e r IH]; intros F; [reflexivity|]. cbn [l_odel]. inversion F; subst.
  replace (has_id id (e_kids e)) with false; [f_equal; apply IH; assumption|]. symmetry. unfold has_id.
  apply Bool.not_true_is_false. intros K. apply existsb_exists in K. destruct K as (w & K1 & K2). apply N.eqb_eq in K2.
  unfold no_kid in H1. rewrite Forall_forall in H1. exact (H1 w K1 K2).
Qed.

Lemma has_id_false : forall id ks, Forall (fun w => word w kid_id <> id) ks -> has_id id ks = false.
Proof.
  intros id ks F. apply Bool.not_true_is_false. intros K. apply existsb_exists in K. destruct K as (w & K1 & K2). apply N.eqb_eq in K2.
  rewrite Forall_forall in F. exact (F w K1 K2).
Qed.
Lemma has_id_true : forall id k1 k k2, word k kid_id = id -> has_id id (k1 ++ k :: k2) = true.
Proof. intros. apply existsb_exists. exists k. split; [apply in_or_app; right; left; reflexivity|apply N.eqb_eq; assumption]. Qed.

Lemma l_odel_split : forall id y1 e y2 k1 k k2, Forall (no_kid id) y1 -> e_kids e = k1 ++ k :: k2 ->
  Forall (fun w => word w kid_id <> id) k1 -> word k kid_id = id ->
  l_odel id (y1 ++ e :: y2) = drop_kid y1 e (k1 ++ k2) y2.
Proof.
  induction y1 as [|x r IH]; intros e y2 k1 k k2 F Ek F1 Hk.
  - cbn [app l_odel]. rewrite Ek, has_id_true by assumption.
    rewrite (remove_first_split _ (fun w => word w kid_id =? id)); [|apply Forall_neqb with (f := fun w => word w kid_id); assumption|apply N.eqb_eq; assumption].
    unfold drop_kid. destruct (k1 ++ k2); reflexivity.
  - inversion F as [|? ? Hx Hr]; subst. cbn [app l_odel]. rewrite has_id_false by exact Hx. rewrite (IH _ _ _ _ _ Hr Ek F1 eq_refl).
    unfold drop_kid. destruct (k1 ++ k2); reflexivity.
Qed.

Lemma oper_del_spec : forall m hs live t xs bls id,
  well m hs (oblocks t bls ++ live) -> otab m t xs bls ->
  exists m' hs' t' bls', oper_del m t id = Some (m', t') /\
    well m' hs' (oblocks t' bls' ++ live) /\ otab m' t' (l_odel id xs) bls' /\ msize m' = msize m /\
    (forall b, (1 <= cov b live)%nat -> mb m' b = mb m b).
Proof.
  intros m hs live t xs bls id W T. unfold oper_del. rewrite (tr_cnt _ _ _ _ _ _ _ T). unfold nlen. rewrite Nat2N.id.
  destruct (ofind_spec m hs live t bls id xs [] W T) as [(E & F)|(y1 & e & y2 & k1 & k & k2 & -> & F1 & Ek & F2 & Hk & E)];
    change (nlen (@nil oent)) with 0 in E; rewrite E; cbn [obind].
  - exists m, hs, t, bls. split; [reflexivity|]. split; [exact W|]. split; [rewrite l_odel_none by exact F; exact T|]. split; reflexivity.
  - cbn [app]. rewrite (l_odel_split id y1 e y2 k1 k k2 F1 Ek F2 Hk).
    destruct (oper_free_spec _ _ _ _ _ _ _ _ _ _ _ W T Ek) as (m' & hs' & t' & bls' & H1 & H2 & H3 & H4 & H5 & _).
    exists m', hs', t', bls'. split; [exact H1|]. split; [exact H2|]. split; [exact H3|]. split; assumption.
Qed.
