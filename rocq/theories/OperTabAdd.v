From Coq Require Import List NArith ZArith Lia Bool Arith.
From Verif Require Import Base BaseLemmas EvData EvDataProofs ExtShm ExtShmSpec ExtShmProofs ExtShmHoles ExtShmAlloc ExtShmRealloc SubTab SubTabSpec TabProofs SubTabProofs OperTabProofs.
Import ListNotations.
Open Scope N_scope.

Lemma str_eqb_eq : forall a b, str_eqb a b = true <-> a = b.
Proof. intros a b. unfold str_eqb. destruct (list_eq_dec N.eq_dec a b); split; congruence. Qed.

Definition before (path : str) (e : oent) : Prop := (plen path <? plen (e_path e)) = false /\ str_eqb (e_path e) path = false.

Lemma opos_spec : forall m hs live t bls path xs2 xs1,
  well m hs (oblocks t bls ++ live) -> otab m t (xs1 ++ xs2) bls -> Forall (fun e => e_kids e <> []) xs2 ->
  (exists y1 y2, xs2 = y1 ++ y2 /\ Forall (before path) y1 /\
     match y2 with [] => True | e :: _ => (plen path <? plen (e_path e)) = true end /\
     opos_loop (length xs2) m t path (nlen xs1) = Some (nlen (xs1 ++ y1), false)) \/
  (exists y1 e y2, xs2 = y1 ++ e :: y2 /\ Forall (before path) y1 /\ e_path e = path /\
     opos_loop (length xs2) m t path (nlen xs1) = Some (nlen (xs1 ++ y1), true)).
Proof.
  intros m hs live t bls path. induction xs2 as [|e r IH]; intros xs1 W T K.
  - left. exists [], []. split; [reflexivity|]. split; [constructor|]. split; [exact I|]. rewrite app_nil_r. reflexivity.
  - cbn [opos_loop length]. inversion K as [|? ? Ke Kr]; subst.
    destruct (ofocus _ _ _ _ _ _ _ _ W T) as (b1 & b2 & xo & kt & kbls & _ & _ & _ & _ & Hrd & Hms & _ & E & KT & _).
    rewrite E. cbn [obind]. rewrite (tr_cnt _ _ _ _ _ _ _ KT).
    destruct (N.eqb_spec (nlen (e_kids e)) 0) as [Z|Z]; [exfalso; apply Ke; destruct (e_kids e); [reflexivity|unfold nlen in Z; cbn [length] in Z; lia]|].
    rewrite Hrd. cbn [obind]. rewrite Hms. cbn [obind].
    destruct (plen path <? plen (e_path e)) eqn:Ep.
    + left. exists [], (e :: r). split; [reflexivity|]. split; [constructor|]. split; [exact Ep|]. rewrite app_nil_r. reflexivity.
    + assert (Eq : (plen (e_path e) =? plen path) && str_eqb (e_path e) path = str_eqb (e_path e) path).
      { destruct (str_eqb (e_path e) path) eqn:Es; [|apply andb_false_r]. apply str_eqb_eq in Es. rewrite Es, N.eqb_refl. reflexivity. }
      rewrite Eq. destruct (str_eqb (e_path e) path) eqn:Es.
      * right. exists [], e, r. split; [reflexivity|]. split; [constructor|]. split; [apply str_eqb_eq; exact Es|]. rewrite app_nil_r. reflexivity.
      * assert (T' : otab m t ((xs1 ++ [e]) ++ r) bls) by (rewrite <- app_assoc; exact T).
        assert (Hn : nlen xs1 + 1 = nlen (xs1 ++ [e])) by (rewrite nlen_app; reflexivity). rewrite Hn.
        destruct (IH _ W T' Kr) as [(y1 & y2 & E1 & E2 & E3 & E4)|(y1 & y & y2 & E1 & E2 & E3 & E4)].
        -- left. exists (e :: y1), y2. split; [cbn [app]; congruence|]. split; [constructor; [split; assumption|assumption]|]. split; [exact E3|].
           rewrite E4, <- app_assoc. reflexivity.
        -- right. exists (e :: y1), y, y2. split; [cbn [app]; congruence|]. split; [constructor; [split; assumption|assumption]|]. split; [exact E3|].
           rewrite E4, <- app_assoc. reflexivity.
Qed.

Lemma l_oadd_new : forall path ty ws y1 y2, Forall (before path) y1 ->
  match y2 with [] => True | e :: _ => (plen path <? plen (e_path e)) = true end ->
  l_oadd path ty ws (y1 ++ y2) = y1 ++ (path, ty, [ws 1]) :: y2 /\ l_ohas path (y1 ++ y2) = false.
Proof.
  induction y1 as [|e r IH]; intros y2 F H.
  - cbn [app]. destruct y2 as [|e r]; [split; reflexivity|]. cbn [l_oadd l_ohas]. rewrite H. split; reflexivity.
  - inversion F as [|? ? (Q1 & Q2) Fr]; subst. cbn [app l_oadd l_ohas]. rewrite Q1, Q2. destruct (IH _ Fr H) as (-> & ->). split; reflexivity.
Qed.

Definition with_kid (e : oent) (k : words) : oent := (e_path e, e_type e, e_kids e ++ [k]).

Lemma l_oadd_old : forall path ty ws y1 e y2, Forall (before path) y1 -> e_path e = path ->
  l_oadd path ty ws (y1 ++ e :: y2) = y1 ++ with_kid e (ws (u32 (word (last (e_kids e) []) kid_prio + 1))) :: y2 /\
  l_ohas path (y1 ++ e :: y2) = true.
Proof.
  induction y1 as [|x r IH]; intros e y2 F H.
  - cbn [app l_oadd l_ohas]. rewrite H, N.ltb_irrefl. rewrite (proj2 (str_eqb_eq path path) eq_refl). split; [|reflexivity].
    unfold with_kid. rewrite H. reflexivity.
  - inversion F as [|? ? (Q1 & Q2) Fr]; subst. cbn [app l_oadd l_ohas]. rewrite Q1, Q2. destruct (IH _ y2 Fr eq_refl) as (-> & ->). split; reflexivity.
Qed.

(** Adding one kid. *)
Lemma kid_add_spec : forall m hs live t xs1 e xs2 bls k,
  well m hs (oblocks t bls ++ live) -> otab m t (xs1 ++ e :: xs2) bls -> ok_words 8 k ->
  msize m + shm_size ((nlen (e_kids e) + 1) * kidsz) < 2147483648 ->
  exists m' hs' bls',
    (do kt <- okids m t (nlen xs1);
     do r <- shmrealloc_add m (t_off kt) (t_cnt kt) kidsz None 0;
     let '(m, koff, kcnt, ka, _) := r in
     do m <- wr64 m (oitem t (nlen xs1) + 16) koff;
     do m <- wr32 m (oitem t (nlen xs1) + 24) kcnt;
     do m <- wr m ka (flat_map le32 k);
     Some (m, t, false)) = Some (m', t, false) /\
    well m' hs' (oblocks t bls' ++ live) /\ otab m' t (xs1 ++ with_kid e k :: xs2) bls' /\
    msize m' <= msize m + shm_size ((nlen (e_kids e) + 1) * kidsz) /\
    (forall b, (1 <= cov b live)%nat -> mb m' b = mb m b).
Proof.
  intros m hs live t xs1 e xs2 bls k W T Okk Hlim.
  destruct (ofocus _ _ _ _ _ _ _ _ W T) as (b1 & b2 & xo & kt & kbls & -> & Hl & Hxo & Hxo2 & Hrd & Hms & Hty & E & KT & Ok1 & Ok2 & KW & Hto & Hi & Hin).
  rewrite E. cbn [obind].
  pose proof (tr_cnt _ _ _ _ _ _ _ KT) as Hc. pose proof (items_len _ _ _ _ _ _ _ (tr_items _ _ _ _ _ _ _ KT)) as Hkl.
  rewrite <- Hc in Hlim.
  assert (Harr : oarr t = [(t_off t, shm_size (t_cnt t * osz))]) by (apply blk_nz; apply arr_nz; [lia|apply osz_nz]).
  assert (Hold : t_off t + shm_size (t_cnt t * osz) <= msize m).
  { pose proof KW as KWE. apply well_wellE in KWE.
    apply (wellE_live_in _ _ _ _ (t_off t) (shm_size (t_cnt t * osz)) KWE). apply in_or_app. right. unfold orest. right. rewrite Harr. left. reflexivity. }
  destruct (tab_insert words Rkid kidsz kidsz_nz Rkid_move m hs _ kt (e_kids e) kbls None 0 KW KT (N.le_refl _))
    as (m1 & hs1 & no & ao & E1 & W1 & Z1 & A1 & A2 & Hno & F1 & I1 & I2).
  { change (shm_size 0) with 0. lia. }
  change (shm_size 0) with 0 in *. rewrite E1. cbn [obind].
  pose proof W1 as WE. apply well_wellE in WE.
  assert (Hta : t_off t + shm_size (t_cnt t * osz) <= msize m1).
  { apply (wellE_live_in _ _ _ _ (t_off t) (shm_size (t_cnt t * osz)) WE). right. apply in_or_app. right. apply in_or_app. right. unfold orest. right. rewrite Harr. left. reflexivity. }
  destruct (wellE_live_in _ _ _ _ no _ WE (or_introl eq_refl)) as (N1 & N2 & _).
  unfold osz in Hin at 1.
  destruct (oref_spec m1 (oitem t (nlen xs1)) no (t_cnt kt + 1)) as (m2 & E2 & Z2 & B1 & B2 & F2); [lia|].
  destruct (wr64 m1 (oitem t (nlen xs1) + 16) no) as [mm|] eqn:Ew; [|discriminate E2]. cbn [obind] in *. rewrite E2. cbn [obind]. clear E2 Ew mm.
  pose proof (shm_size_ge ((t_cnt kt + 1) * kidsz)) as Hge.
  set (SZ := shm_size ((t_cnt kt + 1) * kidsz)) in *.
  assert (Hwl : nlen (flat_map le32 k) = kidsz) by (rewrite words_len; destruct Okk as (-> & _); reflexivity).
  assert (Hcn : (t_cnt kt + 1) * kidsz = t_cnt kt * kidsz + kidsz) by lia.
  destruct (wr_spec m2 (no + t_cnt kt * kidsz) (flat_map le32 k) ltac:(lia)) as (m3 & E3 & Z3 & B3 & F3).
  rewrite E3. cbn [obind]. rewrite Hwl in F3.
  assert (Hina : forall b, t_off t <= b -> b < t_off t + shm_size (t_cnt t * osz) -> (1 <= cov b (oarr t))%nat).
  { intros b H1 H2. rewrite Harr. cbn [cov]. replace (inb b (t_off t, shm_size (t_cnt t * osz))) with true by (symmetry; apply inb_true; lia). lia. }
  assert (Hoi : oitem t (nlen xs1) = t_off t + nlen xs1 * osz) by reflexivity.
  assert (Hsep : forall b, (1 <= cov b ((no, SZ) :: concat kbls))%nat -> b < oitem t (nlen xs1) + 16 \/ oitem t (nlen xs1) + 28 <= b).
  { intros b Hb. destruct (N.lt_ge_cases b (oitem t (nlen xs1) + 16)) as [L|L]; [left; assumption|].
    destruct (N.le_gt_cases (oitem t (nlen xs1) + 28) b) as [L'|L']; [right; assumption|]. exfalso.
    pose proof (e_tiled _ _ _ _ WE b) as T2. unfold orest in T2. cbn [cov] in *. rewrite !cov_app in T2. cbn [cov] in T2. rewrite !cov_app in T2.
    pose proof (Hina b ltac:(lia) ltac:(lia)).
    destruct (inb b (no, SZ)); destruct (inb b (xo, strshmlen (e_path e))); destruct ((8 <=? b) && (b <? msize m1)); lia. }
  assert (W2 : well m2 hs1 ((no, SZ) :: blk ao 0 ++ concat kbls ++ orest xo e t b1 b2 live)).
  { eapply well_write; [exact W1|exact Z2|]. intros b Hb. apply F2. unfold orest in Hb. cbn [cov] in Hb. rewrite !cov_app in Hb. cbn [cov] in Hb. rewrite !cov_app in Hb.
    destruct (N.lt_ge_cases b (oitem t (nlen xs1) + 16)) as [L|L]; [left; assumption|].
    destruct (N.le_gt_cases (oitem t (nlen xs1) + 28) b) as [L'|L']; [right; assumption|]. exfalso.
    pose proof (Hina b ltac:(lia) ltac:(lia)). lia. }
  destruct (firstn_all_n _ (e_kids e) (t_cnt kt) Hc) as (Q1 & Q2).
  destruct (firstn_all_n _ kbls (t_cnt kt)) as (Q3 & Q4); [rewrite Hc; unfold nlen; rewrite Hkl; reflexivity|].
  rewrite Q1, Q3 in I1.
  assert (I1' : items words Rkid kidsz m2 no (e_kids e) kbls).
  { eapply items_move; [apply kidsz_nz|apply Rkid_move|exact I1| |].
    - intros j Hj. apply F2. apply Hsep. cbn [cov]. rewrite <- Hc in Hj.
      replace (inb (no + j) (no, SZ)) with true by (symmetry; apply inb_true; lia). lia.
    - intros b Hb. apply F2. apply Hsep. cbn [cov]. destruct (inb b (no, SZ)); lia. }
  destruct (tab_fill words Rkid kidsz kidsz_nz Rkid_move m2 m3 hs1 (orest xo e t b1 b2 live) no (t_cnt kt) (t_cnt kt) (e_kids e) kbls k (blk ao 0))
    as (W3 & T3 & F4); try assumption; try lia.
  { rewrite Q1, Q3. exact I1'. }
  { rewrite Q2, Q4. exact I. }
  { intros b Hb _. apply F3. lia. }
  { split; [exact Okk|]. split; [exact B3|reflexivity]. }
  rewrite Q1, Q2, Q3, Q4 in T3. rewrite Q3, Q4 in W3.
  pose proof (w_size _ _ _ W1) as (_ & _ & Zl).
  assert (Hk32 : kidsz = 32) by reflexivity.
  destruct (ounfocus m m3 hs1 live t xs1 e xs2 b1 b2 xo kt kbls (mktbl no (t_cnt kt + 1)) (kbls ++ [blk ao 0]) (e_kids e ++ [k]) T Hl Hi Hrd Hxo Hxo2)
    as (W4 & T4 & F5); try assumption; cbn [t_off t_cnt].
  { lia. }
  { unfold two32. lia. }
  { unfold two32. lia. }
  { eapply bytes_at_move; [exact B1|]. rewrite le64_len. intros j Hj. apply F4. rewrite cov_app. unfold orest. cbn [cov]. rewrite !cov_app.
    pose proof (Hina (oitem t (nlen xs1) + 16 + j) ltac:(lia) ltac:(lia)). lia. }
  { eapply bytes_at_move; [exact B2|]. rewrite le32_len. intros j Hj. apply F4. rewrite cov_app. unfold orest. cbn [cov]. rewrite !cov_app.
    pose proof (Hina (oitem t (nlen xs1) + 24 + j) ltac:(lia) ltac:(lia)). lia. }
  { intros b Hb Hb2. rewrite F4 by (rewrite cov_app; lia). rewrite F2 by assumption. apply F1. rewrite cov_app. lia. }
  eexists m3, hs1, _. split; [reflexivity|]. split; [exact W4|]. split; [exact T4|]. split; [rewrite <- Hc; fold SZ; lia|exact F5].
Qed.

Definition ocost (t : tbl) (path : str) (nk : N) : N :=
  shm_size ((t_cnt t + 1) * osz) + strshmlen path + shm_size ((nk + 1) * kidsz).
(** The number of kids of an xpath. *)
Definition kids_of (path : str) (l : list oent) : N :=
  match find (fun e => str_eqb (e_path e) path) l with Some e => nlen (e_kids e) | None => 0 end.

Lemma kids_of_split : forall path y1 e y2, Forall (before path) y1 -> e_path e = path -> kids_of path (y1 ++ e :: y2) = nlen (e_kids e).
Proof.
  unfold kids_of. induction y1 as [|x r IH]; intros e y2 F H; cbn [app find].
  - rewrite H, (proj2 (str_eqb_eq path path) eq_refl). reflexivity.
  - inversion F as [|? ? (_ & Q) Fr]; subst. rewrite Q. apply IH; [assumption|reflexivity].
Qed.

(** A new entry without kids. *)
Lemma oent_add_spec : forall m hs live t y1 y2 bls path ty,
  well m hs (oblocks t bls ++ live) -> otab m t (y1 ++ y2) bls -> ok_str path -> ty < two32 ->
  msize m + shm_size ((t_cnt t + 1) * osz) + strshmlen path < 2147483648 ->
  exists m' hs' t' bls',
    (do r <- shmrealloc_add m (t_off t) (t_cnt t) osz (Some (nlen y1)) (strshmlen path);
     let '(m, off, cnt, a, ao) := r in
     do m <- wr m ao (path ++ [0]);
     do m <- wr64 m a ao;
     do m <- wr32 m (a + 8) ty;
     do m <- wr64 m (a + 16) 0;
     do m <- wr32 m (a + 24) 0;
     Some (m, mktbl off cnt, 1)) = Some (m', t', 1) /\
    well m' hs' (oblocks t' bls' ++ live) /\ otab m' t' (y1 ++ (path, ty, []) :: y2) bls' /\
    msize m' <= msize m + shm_size ((t_cnt t + 1) * osz) + strshmlen path /\
    (forall b, (1 <= cov b live)%nat -> mb m' b = mb m b).
Proof.
  intros m hs live t y1 y2 bls path ty W T Okp Okt Hlim.
  pose proof (tr_cnt _ _ _ _ _ _ _ T) as Hc. pose proof (items_len _ _ _ _ _ _ _ (tr_items _ _ _ _ _ _ _ T)) as Hl.
  assert (Hle : nlen y1 <= t_cnt t) by (rewrite Hc, nlen_app; lia).
  pose proof (strshmlen_mod path) as Hp8. pose proof (strshmlen_nz path) as Hpn. pose proof (strshmlen_ge path) as Hpg.
  destruct (tab_insert oent Rent osz osz_nz Rent_move m hs live t (y1 ++ y2) bls (Some (nlen y1)) (strshmlen path) W T Hle)
    as (m1 & hs1 & no & ao & E1 & W1 & Z1 & A1 & A2 & Hno & F1 & I1 & I2).
  { rewrite (shm_size_mod8 _ Hp8). lia. }
  rewrite (shm_size_mod8 _ Hp8) in W1, Z1. rewrite E1. cbn [obind].
  rewrite blk_nz in W1 by assumption.
  pose proof W1 as WE. apply well_wellE in WE.
  destruct (wellE_live_in _ _ _ _ no _ WE (or_introl eq_refl)) as (N1 & N2 & _).
  destruct (wellE_live_in _ _ _ _ ao (strshmlen path) WE) as (M1 & M2 & _); [right; left; reflexivity|].
  pose proof (shm_size_ge ((t_cnt t + 1) * osz)) as Hge. set (SZ := shm_size ((t_cnt t + 1) * osz)) in *.
  set (a := no + nlen y1 * osz) in *.
  assert (Hmi : (nlen y1 + 1) * osz <= (t_cnt t + 1) * osz) by (apply N.mul_le_mono_r; lia).
  assert (Hmi2 : (nlen y1 + 1) * osz = nlen y1 * osz + osz) by lia.
  assert (Ho : osz = 32) by reflexivity.
  assert (Hslot : a + 32 <= no + SZ) by lia.
  assert (D : forall b, no <= b -> b < no + SZ -> ao <= b -> b < ao + strshmlen path -> False).
  { intros b X1 X2 X3 X4. pose proof (e_tiled _ _ _ _ WE b) as T1. cbn [cov app] in T1.
    replace (inb b (no, SZ)) with true in T1 by (symmetry; apply inb_true; lia).
    replace (inb b (ao, strshmlen path)) with true in T1 by (symmetry; apply inb_true; lia).
    destruct ((8 <=? b) && (b <? msize m1)); lia. }
  assert (Hl2 : nlen (path ++ [0]) = nlen path + 1) by (rewrite nlen_app; reflexivity).
  destruct (wr_spec m1 ao (path ++ [0]) ltac:(lia)) as (m2 & E2 & Z2 & B2 & F2). rewrite E2. cbn [obind]. rewrite Hl2 in F2.
  unfold wr64 at 1. fold (le64 ao).
  destruct (wr_spec m2 a (le64 ao) ltac:(rewrite le64_len; lia)) as (m3 & E3 & Z3 & B3 & F3). rewrite E3. cbn [obind]. rewrite le64_len in F3.
  unfold wr32 at 1.
  destruct (wr_spec m3 (a + 8) (le32 ty) ltac:(rewrite le32_len; lia)) as (m4 & E4 & Z4 & B4 & F4). rewrite E4. cbn [obind]. rewrite le32_len in F4.
  destruct (oref_spec m4 a 0 0) as (m5 & E5 & Z5 & B5 & B6 & F5); [lia|].
  destruct (wr64 m4 (a + 16) 0) as [mm|] eqn:Ew; [|discriminate E5]. cbn [obind] in *. rewrite E5. cbn [obind]. clear E5 Ew mm.
  assert (Kp : forall j, j < nlen path + 1 -> ao + j < a \/ a + 32 <= ao + j).
  { intros j Hj. destruct (N.lt_ge_cases (ao + j) a) as [L|L]; [left; assumption|]. destruct (N.le_gt_cases (a + 32) (ao + j)) as [L'|L']; [right; assumption|].
    exfalso. apply (D (ao + j)); lia. }
  destruct (tab_fill oent Rent osz osz_nz Rent_move m1 m5 hs1 live no (t_cnt t) (nlen y1) (y1 ++ y2) bls (path, ty, []) [(ao, strshmlen path)])
    as (W3 & T3 & F6); try assumption; try lia.
  { intros b Hb Hb2. rewrite F5, F4, F3 by lia. apply F2. pose proof (cov0_out b _ ao (strshmlen path) Hb2 (or_introl eq_refl)). lia. }
  { unfold Rent. cbn [e_path e_type e_kids fst snd]. split; [exact Okp|]. split; [exact Okt|]. split.
    - eapply bytes_at_move; [exact B4|]. rewrite le32_len. intros j Hj. apply F5. lia.
    - pose proof (w_size _ _ _ W1) as (_ & _ & Zl).
      exists ao, (mktbl 0 0), []. split; [unfold two32; lia|]. cbn [t_off t_cnt]. split; [unfold two32; lia|]. split; [unfold two32; lia|]. split; [lia|].
      split; [eapply bytes_at_move; [exact B3|]; rewrite le64_len; intros j Hj; rewrite F5, F4 by lia; reflexivity|].
      split; [exact B5|]. split; [exact B6|].
      split; [eapply bytes_at_move; [exact B2|]; rewrite Hl2; intros j Hj; pose proof (Kp j Hj); rewrite F5, F4, F3 by lia; reflexivity|].
      split; [apply tabrep_nil|reflexivity]. }
  eexists m5, hs1, _, _. split; [reflexivity|]. split; [exact W3|]. split.
  { assert (Q1 : firstn (N.to_nat (nlen y1)) (y1 ++ y2) = y1) by (unfold nlen; rewrite Nat2N.id, firstn_app, firstn_all, Nat.sub_diag; cbn [firstn]; apply app_nil_r).
    assert (Q2 : skipn (N.to_nat (nlen y1)) (y1 ++ y2) = y2) by (unfold nlen; rewrite Nat2N.id, skipn_app, skipn_all, Nat.sub_diag; reflexivity).
    rewrite Q1, Q2 in T3. exact T3. }
  split; [lia|]. intros b Hb. rewrite F6, F1 by (rewrite cov_app; lia). reflexivity.
Qed.

Theorem oper_add_spec : forall m hs live t xs bls path ty opts ws,
  well m hs (oblocks t bls ++ live) -> otab m t xs bls -> Forall (fun e => e_kids e <> []) xs ->
  ok_str path -> ty < two32 -> (forall p, p < two32 -> ok_words 8 (ws p)) ->
  msize m + ocost t path (kids_of path xs) < 2147483648 ->
  exists m' hs' t' bls',
    let refused := l_ohas path xs && (N.land opts SR_SUBSCR_OPER_MERGE =? 0) in
    let xs' := if refused then xs else l_oadd path ty ws xs in
    oper_add m t path ty opts ws = Some (m', t', refused) /\
    well m' hs' (oblocks t' bls' ++ live) /\ otab m' t' xs' bls' /\ msize m' <= msize m + ocost t path (kids_of path xs) /\
    (forall b, (1 <= cov b live)%nat -> mb m' b = mb m b).
Proof.
  intros m hs live t xs bls path ty opts ws W T K Okp Okt Okw Hlim. unfold ocost in *.
  unfold oper_add. rewrite (tr_cnt _ _ _ _ _ _ _ T). replace (N.to_nat (nlen xs)) with (length xs) by (unfold nlen; lia). rewrite <- (tr_cnt _ _ _ _ _ _ _ T).
  destruct (opos_spec m hs live t bls path xs [] W T K) as [(y1 & y2 & Exs & Fb & Hy & E)|(y1 & e & y2 & Exs & Fb & He & E)];
    change (nlen (@nil oent)) with 0 in E; rewrite E; cbn [obind app andb]; subst xs.
  - destruct (l_oadd_new path ty ws y1 y2 Fb Hy) as (La & Lh). rewrite La, Lh. cbn [andb].
    destruct (oent_add_spec m hs live t y1 y2 bls path ty W T Okp Okt ltac:(lia)) as (m1 & hs1 & t1 & bls1 & E1 & W1 & T1 & Z1 & F1).
    rewrite E1. cbn [obind].
    destruct (kid_add_spec m1 hs1 live t1 y1 (path, ty, []) y2 bls1 (ws 1) W1 T1 (Okw 1 ltac:(unfold two32; lia)))
      as (m2 & hs2 & bls2 & E2 & W2 & T2 & Z2 & F2).
    { cbn [e_kids snd]. change (nlen (@nil words)) with 0.
      assert (Hmo : shm_size ((0 + 1) * kidsz) <= shm_size ((kids_of path (y1 ++ y2) + 1) * kidsz)) by (apply shm_size_mono; apply N.mul_le_mono_r; lia). lia. }
    rewrite E2. exists m2, hs2, t1, bls2. split; [reflexivity|]. split; [exact W2|]. split; [exact T2|]. split.
    + cbn [e_kids snd] in Z2. change (nlen (@nil words)) with 0 in Z2.
      assert (Hmo : shm_size ((0 + 1) * kidsz) <= shm_size ((kids_of path (y1 ++ y2) + 1) * kidsz)) by (apply shm_size_mono; apply N.mul_le_mono_r; lia). lia.
    + intros b Hb. rewrite F2, F1 by assumption. reflexivity.
  - destruct (l_oadd_old path ty ws y1 e y2 Fb He) as (La & Lh). rewrite La, Lh. cbn [andb].
    rewrite (kids_of_split path y1 e y2 Fb He) in *.
    destruct (N.eqb_spec (N.land opts SR_SUBSCR_OPER_MERGE) 0) as [Z|Z].
    + exists m, hs, t, bls. split; [reflexivity|]. split; [exact W|]. split; [exact T|]. split; [lia|reflexivity].
    + destruct (ofocus _ _ _ _ _ _ _ _ W T) as (b1 & b2 & xo & kt & kbls & Eb & Hl & Hxo & Hxo2 & Hrd & Hms & Hty & Ek & KT & Ok1 & Ok2 & KW & Hto & Hi & Hin).
      assert (Hke : e_kids e <> []) by (apply Forall_app in K; destruct K as (_ & K); inversion K; assumption).
      destruct (exists_last Hke) as (ks1 & kl & Ekl).
      pose proof KT as KT'. rewrite Ekl in KT'.
      destruct (kid_fields _ _ _ _ _ _ _ _ KW KT') as (Okl & Hf & _).
      assert (Hidx : t_cnt kt - 1 = nlen ks1) by (rewrite (tr_cnt _ _ _ _ _ _ _ KT'), nlen_app; unfold nlen; cbn [length]; lia).
      assert (Hlast : last (e_kids e) [] = kl) by (rewrite Ekl; apply last_last).
      rewrite Ek. cbn [obind]. rewrite Hidx, Hf by (unfold kid_prio; lia). cbn [obind]. rewrite Hlast.
      set (p := u32 (word kl kid_prio + 1)). assert (Hp : p < two32) by (unfold p, u32; apply N.mod_lt; unfold two32; lia).
      destruct (kid_add_spec m hs live t y1 e y2 bls (ws p) W T (Okw p Hp) ltac:(lia)) as (m2 & hs2 & bls2 & E2 & W2 & T2 & Z2 & F2).
      rewrite Ek in E2. cbn [obind] in E2. rewrite Ek. cbn [obind]. rewrite E2.
      exists m2, hs2, t, bls2. split; [reflexivity|]. split; [exact W2|]. split; [exact T2|]. split; [lia|exact F2].
Qed.

(** * Reading *)

Lemma read_oper_spec : forall m hs live t xs bls,
  well m hs (oblocks t bls ++ live) -> otab m t xs bls -> read_oper m t = Some xs.
Proof.
  intros m hs live t xs bls W T. unfold read_oper. rewrite (tr_cnt _ _ _ _ _ _ _ T).
  rewrite (mapo_ext _ _ _ (fun i => nth (N.to_nat i) xs ([], 0, []))).
  - f_equal. apply indices_nth.
  - intros i Hi. apply indices_in in Hi. destruct (nth_split_len _ xs i Hi) as (l1 & e & l2 & -> & <-).
    destruct (ofocus _ _ _ _ _ _ _ _ W T) as (b1 & b2 & xo & kt & kbls & Eb & Hl & Hxo & Hxo2 & Hrd & Hms & Hty & Ek & KT & Ok1 & Ok2 & KW & _).
    unfold read_oent. rewrite Hrd. cbn [obind]. rewrite Hms. cbn [obind]. rewrite Hty. cbn [obind]. rewrite Ek. cbn [obind].
    rewrite (tr_cnt _ _ _ _ _ _ _ KT).
    rewrite (mapo_ext _ _ _ (fun j => nth (N.to_nat j) (e_kids e) [])).
    + cbn [obind]. rewrite indices_nth. f_equal.
      rewrite app_nth2 by (unfold nlen; lia). unfold nlen. rewrite Nat2N.id, Nat.sub_diag. cbn [nth]. destruct e as [[p ty] ks]; reflexivity.
    + intros j Hj. apply indices_in in Hj. destruct (nth_split_len _ (e_kids e) j Hj) as (k1 & k & k2 & Ekk & <-).
      pose proof KT as KT'. rewrite Ekk in KT'. destruct (kid_fields _ _ _ _ _ _ _ _ KW KT') as ((Hl8 & _) & Hf & _).
      unfold read_kid. rewrite (mapo_ext _ _ _ (word k)).
      * unfold word. rewrite <- Hl8, indices_nth. f_equal. rewrite Ekk. rewrite app_nth2 by (unfold nlen; lia).
        unfold nlen. rewrite Nat2N.id, Nat.sub_diag. reflexivity.
      * intros w Hw. apply indices_in in Hw. apply Hf. exact Hw.
Qed.

(** No entry is ever left without subscriptions. *)
Lemma l_oadd_kids : forall path ty ws l, Forall (fun e => e_kids e <> []) l -> Forall (fun e => e_kids e <> []) (l_oadd path ty ws l).
Proof.
  induction l as [|e r IH]; intros F; cbn [l_oadd].
  - constructor; [cbn; discriminate|constructor].
  - inversion F; subst. destruct (plen path <? plen (e_path e)); [constructor; [cbn; discriminate|exact F]|].
    destruct (str_eqb (e_path e) path); constructor; auto. cbn. destruct (e_kids e); discriminate.
Qed.
Lemma l_odel_kids : forall id l, Forall (fun e => e_kids e <> []) l -> Forall (fun e => e_kids e <> []) (l_odel id l).
Proof.
  induction l as [|e r IH]; intros F; cbn [l_odel]; [constructor|]. inversion F; subst.
  destruct (has_id id (e_kids e)); [|constructor; auto].
  destruct (remove_first (fun w => word w kid_id =? id) (e_kids e)); [assumption|]. constructor; [cbn; discriminate|assumption].
Qed.
