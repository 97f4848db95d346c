From Coq Require Import List NArith ZArith Lia Bool Arith.
From Verif Require Import Base BaseLemmas EvData EvDataProofs Time ExtShm ExtShmSpec ExtShmProofs ExtShmHoles ExtShmAlloc.
Import ListNotations.
Open Scope N_scope.

(** * Sizes *)

Lemma shm_size_lt : forall n, shm_size n < n + 8.
Proof. intros n. unfold shm_size. pose proof (N.mod_upper_bound (8 - n mod 8) 8 ltac:(lia)). lia. Qed.

Lemma shm_size_0 : forall n, shm_size n = 0 <-> n = 0.
Proof.
  intros n. split; [|intros ->; reflexivity]. intros H. pose proof (shm_size_ge n). lia.
Qed.

Lemma mod8_eq : forall n, n mod 8 = 0 -> exists k, n = 8 * k.
Proof. intros n H. exists (n / 8). rewrite (N.div_mod n 8) at 1 by lia. lia. Qed.

Lemma mod8_sub : forall a b, a mod 8 = 0 -> b mod 8 = 0 -> b <= a -> (a - b) mod 8 = 0.
Proof.
  intros a b Ha Hb H. destruct (mod8_eq _ Ha) as (x & ->). destruct (mod8_eq _ Hb) as (y & ->).
  replace (8 * x - 8 * y) with ((x - y) * 8) by lia. apply N.mod_mul. lia.
Qed.

Lemma mod8_add : forall a b, a mod 8 = 0 -> b mod 8 = 0 -> (a + b) mod 8 = 0.
Proof. intros a b Ha Hb. rewrite N.add_mod, Ha, Hb by lia. reflexivity. Qed.

Lemma shm_size_mono : forall a b, a <= b -> shm_size a <= shm_size b.
Proof.
  intros a b H. pose proof (shm_size_lt a). pose proof (shm_size_ge b).
  destruct (mod8_eq _ (shm_size_mod a)) as (x & Ex). destruct (mod8_eq _ (shm_size_mod b)) as (y & Ey). lia.
Qed.

Lemma shm_size_add : forall a b, shm_size (a + b) <= shm_size a + shm_size b.
Proof.
  intros a b. pose proof (shm_size_lt (a + b)). pose proof (shm_size_ge a). pose proof (shm_size_ge b).
  destruct (mod8_eq _ (shm_size_mod a)) as (x & Ex). destruct (mod8_eq _ (shm_size_mod b)) as (y & Ey).
  destruct (mod8_eq _ (shm_size_mod (a + b))) as (z & Ez). lia.
Qed.

Lemma shm_size_8 : forall n, n <> 0 -> 8 <= shm_size n.
Proof.
  intros n H. pose proof (shm_size_ge n). destruct (mod8_eq _ (shm_size_mod n)) as (x & Ex). lia.
Qed.

Lemma arr_nz : forall c i, c <> 0 -> i <> 0 -> shm_size (c * i) <> 0.
Proof. intros c i Hc Hi K. apply (proj1 (shm_size_0 _)) in K. apply N.eq_mul_0 in K. tauto. Qed.

Lemma mul_ge : forall n i, i <> 0 -> n <= n * i.
Proof. intros n i H. rewrite <- (N.mul_1_r n) at 1. apply N.mul_le_mono_l. lia. Qed.

Lemma mul_ge2 : forall n i, n <> 0 -> i <= n * i.
Proof. intros n i H. rewrite N.mul_comm. apply mul_ge. assumption. Qed.

(** * Blocks which may be empty *)

Definition blk (o s : N) : list block := if s =? 0 then [] else [(o, s)].

Lemma blk_nz : forall o s, s <> 0 -> blk o s = [(o, s)].
Proof. intros o s H. unfold blk. destruct (N.eqb_spec s 0); [contradiction|reflexivity]. Qed.

Lemma cov_blk : forall b o s, cov b (blk o s) = cov b [(o, s)].
Proof. intros b o s. unfold blk. destruct (N.eqb_spec s 0); [|reflexivity]. subst. cbn [cov]. inbs. Qed.

Definition okblk (x : block) : Prop := snd x <> 0 /\ fst x mod 8 = 0 /\ snd x mod 8 = 0.

Lemma Forall_blk : forall o s, (s <> 0 -> o mod 8 = 0) -> s mod 8 = 0 -> Forall okblk (blk o s).
Proof.
  intros o s Ho Hs. unfold blk. destruct (N.eqb_spec s 0); constructor; [|constructor]. repeat split; cbn [fst snd]; auto.
Qed.

(** * Memory moves *)

Lemma move_spec : forall m dst src n, dst + n <= msize m -> src + n <= msize m ->
  exists m', move m dst src n = Some m' /\ msize m' = msize m /\
    (forall k, k < n -> mb m' (dst + k) = mb m (src + k)) /\
    (forall b, b < dst \/ dst + n <= b -> mb m' b = mb m b).
Proof.
  intros m dst src n H1 H2. unfold move.
  replace (dst + n <=? msize m) with true by (symmetry; apply N.leb_le; assumption).
  replace (src + n <=? msize m) with true by (symmetry; apply N.leb_le; assumption). cbn [andb].
  eexists. split; [reflexivity|]. split; [reflexivity|]. cbn [mb]. split.
  - intros k Hk. replace (dst <=? dst + k) with true by (symmetry; apply N.leb_le; lia).
    replace (dst + k <? dst + n) with true by (symmetry; apply N.ltb_lt; lia). cbn [andb]. f_equal. lia.
  - intros b Hb. destruct (N.leb_spec dst b); destruct (N.ltb_spec b (dst + n)); cbn [andb]; try reflexivity. lia.
Qed.

(** * sr_shmrealloc_add() *)

Lemma grow_spec : forall E m hs live, wellE E m hs live ->
  well (if msize m <? E then resize m E else m) hs live /\
  (forall b, b < msize m -> mb (if msize m <? E then resize m E else m) b = mb m b) /\
  msize (if msize m <? E then resize m E else m) = E.
Proof.
  intros E m hs live H. pose proof (e_size _ _ _ _ H) as (_ & L & _).
  destruct (N.ltb_spec (msize m) E).
  - destruct (wellE_resize _ _ _ _ H). split; [assumption|]. split; [assumption|reflexivity].
  - assert (E = msize m) by lia. subst E. split; [apply well_wellE; assumption|]. split; reflexivity.
Qed.

(** The part of sr_shmrealloc_add() after the array has its place. *)
Definition add_tail (m : mem) (noff E dyn aoff count isz idx : N) (moved : bool) : option (mem * N * N * N * N) :=
  do p <- (if dyn =? 0 then Some (m, 0, E)
           else do h <- hole_find m 0 (u32 dyn); place m h dyn E);
  let '(m, attr_off, E) := p in
  let m := if msize m <? E then resize m E else m in
  if noff =? 0 then None else
  if negb (dyn =? 0) && (attr_off =? 0) then None else
  do m <- (if moved && negb (idx =? 0) then move m noff aoff (idx * isz) else Some m);
  do m <- (if idx <? count
           then move m (noff + (idx + 1) * isz) (aoff + idx * isz) ((count - idx) * isz)
           else Some m);
  do m <- (if moved && negb (aoff =? 0) then hole_add m (u32 aoff) (u32 (shm_size (count * isz)))
           else Some m);
  Some (m, noff, u32 (count + 1), noff + idx * isz, attr_off).

Lemma add_tail_spec : forall m hs live noff E dyn aoff count isz idx (moved : bool),
  let cur := shm_size (count * isz) in
  let new := shm_size ((count + 1) * isz) in
  wellE E m hs ((noff, new) :: (if moved then blk aoff cur else []) ++ live) ->
  (moved = false -> noff = aoff) -> (aoff = 0 <-> count = 0) ->
  isz <> 0 -> idx <= count -> dyn mod 8 = 0 -> E + dyn < 2147483648 ->
  (forall b, (1 <= cov b (blk aoff cur ++ live))%nat -> b < msize m) ->
  exists m' hs' ao, add_tail m noff E dyn aoff count isz idx moved =
      Some (m', noff, count + 1, noff + idx * isz, ao) /\
    well m' hs' ((noff, new) :: blk ao dyn ++ live) /\ E <= msize m' /\ msize m' <= E + dyn /\
    (dyn <> 0 -> ao <> 0) /\ (dyn = 0 -> ao = 0) /\
    (forall b, (1 <= cov b live)%nat -> mb m' b = mb m b) /\
    (forall j, j < idx * isz -> mb m' (noff + j) = mb m (aoff + j)) /\
    (forall j, idx * isz <= j -> j < count * isz -> mb m' (noff + isz + j) = mb m (aoff + j)).
Proof.
  intros m hs live noff E dyn aoff count isz idx moved cur new W Hmv Hac Hi0 Hidx Hd8 Hlim Hold.
  pose proof (wellE_live_in _ _ _ _ noff new W (or_introl eq_refl)) as (N1 & N2 & N3 & _).
  assert (Hnew : (count + 1) * isz <= new) by apply shm_size_ge.
  assert (Hcur : count * isz <= cur) by apply shm_size_ge.
  pose proof (e_size _ _ _ _ W) as (Z1 & Z2 & Z3 & Z4).
  assert (Hcnt : count + 1 < two32) by (pose proof (mul_ge (count + 1) isz Hi0); unfold two32; lia).
  assert (Hcn : (count + 1) * isz = count * isz + isz) by lia.
  assert (Hic : idx * isz <= count * isz) by (apply N.mul_le_mono_r; assumption).
  unfold add_tail.
  (* the attribute *)
  assert (A : exists m2 hs2 ao E2,
    (if dyn =? 0 then Some (m, 0, E) else do h <- hole_find m 0 (u32 dyn); place m h dyn E) = Some (m2, ao, E2) /\
    msize m2 = msize m /\ wellE E2 m2 hs2 ((noff, new) :: (if moved then blk aoff cur else []) ++ blk ao dyn ++ live) /\
    E <= E2 /\ E2 <= E + dyn /\ (dyn <> 0 -> ao <> 0) /\ (dyn = 0 -> ao = 0) /\
    (forall b, (1 <= cov b ((noff, new) :: (if moved then blk aoff cur else []) ++ live))%nat -> mb m2 b = mb m b)).
  { destruct (N.eqb_spec dyn 0) as [D|D].
    - subst dyn. exists m, hs, 0, E. split; [reflexivity|]. split; [reflexivity|]. split; [exact W|]. repeat split; try lia.
    - rewrite (u32_small dyn) by (unfold two32; lia).
      destruct (place_spec _ _ _ _ dyn W Hd8 D Hlim) as (h & m2 & hs2 & o & E2 & P1 & P2 & P3 & P4 & P5 & P6 & P7 & _).
      rewrite P1. cbn [obind]. rewrite P2. exists m2, hs2, o, E2. split; [reflexivity|]. split; [assumption|].
      pose proof (wellE_live_in _ _ _ _ o dyn P4 (or_introl eq_refl)) as (O1 & _).
      split; [|repeat split; try lia; assumption].
      eapply wellE_live_eq; [exact P4| |].
      + intros b. rewrite (blk_nz o dyn) by assumption. cbn [cov]. rewrite !cov_app. cbn [cov]. lia.
      + pose proof (e_live _ _ _ _ P4) as G. pose proof (Forall_inv G) as G1. pose proof (Forall_inv_tail G) as G2. pose proof (Forall_inv G2) as G3. pose proof (Forall_inv_tail G2) as G4.
        constructor; [assumption|]. apply Forall_app in G4. destruct G4 as (G4 & G5). apply Forall_app. split; [assumption|].
        rewrite (blk_nz o dyn) by assumption. constructor; assumption. }
  destruct A as (m2 & hs2 & ao & E2 & EA & Zm2 & W2 & L1 & L2 & A1 & A2 & F2).
  rewrite EA. cbn [obind].
  destruct (grow_spec _ _ _ _ W2) as (W3 & F3 & Z5). set (m3 := if msize m2 <? E2 then resize m2 E2 else m2) in *.
  clearbody m3. clear EA.
  destruct (N.eqb_spec noff 0); [lia|].
  assert (EB : negb (dyn =? 0) && (ao =? 0) = false).
  { destruct (N.eqb_spec dyn 0) as [D|D]; [reflexivity|]. cbn [negb andb]. destruct (N.eqb_spec ao 0); [exfalso; apply (A1 D); assumption|reflexivity]. }
  rewrite EB. clear EB.
  assert (Zlim : msize m3 < 2147483648) by lia.
  apply well_wellE in W3.
  pose proof (wellE_live_in _ _ _ _ noff new W3 (or_introl eq_refl)) as (_ & N4 & _).
  (* old array is still there *)
  assert (Hold' : forall j, j < count * isz -> mb m3 (aoff + j) = mb m (aoff + j) /\ aoff + j < msize m3).
  { intros j Hj.
    assert (C1 : (1 <= cov (aoff + j) (blk aoff cur ++ live))%nat).
    { rewrite cov_app, cov_blk. cbn [cov]. replace (inb (aoff + j) (aoff, cur)) with true; [lia|]. symmetry. apply inb_true. lia. }
    specialize (Hold _ C1). split; [|lia]. rewrite F3 by lia. apply F2.
    destruct moved.
    - cbn [cov]. rewrite cov_app in *. lia.
    - rewrite (Hmv eq_refl). cbn [cov]. replace (inb (aoff + j) (aoff, new)) with true; [lia|]. symmetry. apply inb_true. lia. }
  assert (Hliv : forall b, (1 <= cov b live)%nat -> mb m3 b = mb m b).
  { intros b Hb. rewrite F3; [apply F2; cbn [cov]; rewrite cov_app; lia|]. rewrite Zm2. apply Hold. rewrite cov_app. lia. }
  (* old and new are disjoint if moved *)
  assert (Hdis : moved = true -> forall j, j < count * isz -> aoff + j < noff \/ noff + new <= aoff + j).
  { intros -> j Hj. apply inb_false. destruct (inb (aoff + j) (noff, new)) eqn:Eb; [exfalso|reflexivity].
    pose proof (e_tiled _ _ _ _ W3 (aoff + j)) as T. cbn [cov] in T. rewrite Eb, cov_app, cov_blk in T. cbn [cov] in T.
    assert (Ib : inb (aoff + j) (aoff, cur) = true) by (apply inb_true; lia). rewrite Ib in T.
    destruct ((8 <=? aoff + j) && (aoff + j <? msize m3)); lia. }
  assert (Hend : count <> 0 -> aoff + count * isz <= msize m3).
  { intros Hc. pose proof (mul_ge2 count isz Hc). destruct (Hold' (count * isz - 1) ltac:(lia)) as (_ & K). lia. }
  (* first move *)
  assert (B : exists m4, (if moved && negb (idx =? 0) then move m3 noff aoff (idx * isz) else Some m3) = Some m4 /\
    msize m4 = msize m3 /\ (forall j, j < idx * isz -> mb m4 (noff + j) = mb m (aoff + j)) /\
    (forall j, idx * isz <= j -> j < count * isz -> mb m4 (aoff + j) = mb m (aoff + j)) /\
    (forall b, b < noff \/ noff + new <= b -> mb m4 b = mb m3 b)).
  { destruct moved; cbn [andb].
    - destruct (N.eqb_spec idx 0) as [I0|I0]; cbn [negb].
      + exists m3. split; [reflexivity|]. split; [reflexivity|]. split; [subst idx; intros; lia|]. split; [|reflexivity].
        intros j _ Hj. apply Hold'. assumption.
      + assert (count <> 0) by lia.
        destruct (move_spec m3 noff aoff (idx * isz) ltac:(lia) ltac:(specialize (Hend H); lia)) as (m4 & M1 & M2 & M3 & M4).
        exists m4. split; [exact M1|]. split; [exact M2|]. split; [intros j Hj; rewrite M3 by assumption; apply Hold'; lia|].
        split; [|intros; apply M4; lia]. intros j Hj1 Hj2. rewrite M4; [apply Hold'; assumption|].
        destruct (Hdis eq_refl j Hj2); lia.
    - exists m3. split; [reflexivity|]. split; [reflexivity|]. rewrite (Hmv eq_refl).
      split; [intros j Hj; apply Hold'; lia|]. split; [intros; apply Hold'; assumption|reflexivity]. }
  destruct B as (m4 & EB & Zm4 & B1 & B2 & B3). rewrite EB. cbn [obind]. clear EB.
  (* second move *)
  assert (C : exists m5, (if idx <? count then move m4 (noff + (idx + 1) * isz) (aoff + idx * isz) ((count - idx) * isz) else Some m4) = Some m5 /\
    msize m5 = msize m4 /\ (forall j, j < idx * isz -> mb m5 (noff + j) = mb m (aoff + j)) /\
    (forall j, idx * isz <= j -> j < count * isz -> mb m5 (noff + isz + j) = mb m (aoff + j)) /\
    (forall b, b < noff \/ noff + new <= b -> mb m5 b = mb m4 b)).
  { destruct (N.ltb_spec idx count) as [Ic|Ic].
    - assert (Hm1 : (idx + 1) * isz = idx * isz + isz) by lia.
      assert (Hm2 : (count - idx) * isz = count * isz - idx * isz) by (rewrite N.mul_sub_distr_r; reflexivity).
      assert (count <> 0) by lia. specialize (Hend H).
      destruct (move_spec m4 (noff + (idx + 1) * isz) (aoff + idx * isz) ((count - idx) * isz) ltac:(lia) ltac:(lia)) as (m5 & M1 & M2 & M3 & M4).
      exists m5. split; [exact M1|]. split; [exact M2|]. split; [intros j Hj; rewrite M4 by lia; apply B1; assumption|].
      split; [|intros; apply M4; lia]. intros j J1 J2.
      replace (noff + isz + j) with (noff + (idx + 1) * isz + (j - idx * isz)) by lia. rewrite M3 by lia.
      replace (aoff + idx * isz + (j - idx * isz)) with (aoff + j) by lia. apply B2; assumption.
    - exists m4. assert (idx = count) by lia. subst idx. split; [reflexivity|]. split; [reflexivity|]. split; [assumption|].
      split; [intros; lia|reflexivity]. }
  destruct C as (m5 & EC & Zm5 & C1 & C2 & C3). rewrite EC. cbn [obind]. clear EC.
  rewrite (u32_small (count + 1)) by assumption.
  assert (W5 : wellE (msize m5) m5 hs2 ((noff, new) :: (if moved then blk aoff cur else []) ++ blk ao dyn ++ live)).
  { rewrite Zm5, Zm4. eapply wellE_frame; [exact W3|congruence|].
    intros b Hb. rewrite C3, B3; [reflexivity| |];
      (apply inb_false; destruct (inb b (noff, new)) eqn:Eb; [exfalso|reflexivity]; apply inb_true in Eb;
       destruct Hb as [Hb|Hb]; [lia|]; pose proof (e_tiled _ _ _ _ W3 b) as T; cbn [cov] in T;
       replace (inb b (noff, new)) with true in T by (symmetry; apply inb_true; lia);
       destruct ((8 <=? b) && (b <? msize m3)); lia). }
  assert (Hliv5 : forall b, (1 <= cov b live)%nat -> mb m5 b = mb m b).
  { intros b Hb. rewrite <- (Hliv b Hb). rewrite C3, B3; [reflexivity| |];
      (apply inb_false; destruct (inb b (noff, new)) eqn:Eb; [exfalso|reflexivity];
       pose proof (e_tiled _ _ _ _ W3 b) as T; cbn [cov] in T; rewrite Eb, !cov_app in T;
       destruct ((8 <=? b) && (b <? msize m3)); lia). }
  (* the old array becomes a hole *)
  destruct moved; cbn [andb].
  - destruct (N.eqb_spec aoff 0) as [A0|A0]; cbn [negb obind].
    + exists m5, hs2, ao. split; [reflexivity|]. split; [|split; [lia|]; split; [lia|]; split; [assumption|]; split; [assumption|]; split; [assumption|]; split; assumption].
      apply well_wellE. assert (count = 0) by (apply Hac; assumption). subst count. exact W5.
    + assert (Hc0 : count <> 0) by (intros K; apply A0; apply Hac; assumption).
      assert (Hcur0 : cur <> 0) by (apply arr_nz; assumption).
      assert (W6 : wellE (msize m5) m5 hs2 ((aoff, cur) :: (noff, new) :: blk ao dyn ++ live)).
      { eapply wellE_live_eq; [exact W5| |].
        - intros b. rewrite (blk_nz aoff cur) by assumption. cbn [cov app]. lia.
        - pose proof (e_live _ _ _ _ W5) as G. rewrite (blk_nz aoff cur) in G by assumption. cbn [app] in G.
          pose proof (Forall_inv G) as G1. pose proof (Forall_inv_tail G) as G2. pose proof (Forall_inv G2) as G3. pose proof (Forall_inv_tail G2) as G4. constructor; [assumption|]. constructor; assumption. }
      pose proof (wellE_live_in _ _ _ _ aoff cur W6 (or_introl eq_refl)) as (Q1 & Q2 & _).
      fold cur. rewrite (u32_small aoff) by (unfold two32; lia). rewrite (u32_small cur) by (unfold two32; lia).
      destruct (well_free _ _ _ _ _ _ W6 Q2) as (m6 & hs6 & R1 & R2 & R3 & R4 & _). rewrite R1. cbn [obind].
      exists m6, hs6, ao. split; [reflexivity|]. split; [apply well_wellE; rewrite R2; exact R3|]. split; [lia|]. split; [lia|].
      split; [assumption|]. split; [assumption|].
      split; [intros b Hb; rewrite R4; [apply Hliv5; assumption|cbn [cov]; rewrite cov_app; lia]|].
      split; [intros j Hj; rewrite R4; [apply C1; assumption|]|intros j J1 J2; rewrite R4; [apply C2; assumption|]].
      * cbn [cov]. replace (inb (noff + j) (noff, new)) with true by (symmetry; apply inb_true; lia). lia.
      * cbn [cov]. replace (inb (noff + isz + j) (noff, new)) with true by (symmetry; apply inb_true; lia). lia.
  - cbn [obind]. exists m5, hs2, ao. split; [reflexivity|]. split; [apply well_wellE; exact W5|].
    split; [lia|]. split; [lia|]. split; [assumption|]. split; [assumption|]. split; [assumption|]. split; assumption.
Qed.

Lemma shmrealloc_add_spec : forall m hs live aoff count isz idx dyn,
  let i := match idx with Some i => i | None => count end in
  let cur := shm_size (count * isz) in
  let new := shm_size ((count + 1) * isz) in
  well m hs (blk aoff cur ++ live) -> (aoff = 0 <-> count = 0) -> isz <> 0 -> i <= count ->
  msize m + new + shm_size dyn < 2147483648 ->
  exists m' hs' no ao, shmrealloc_add m aoff count isz idx dyn = Some (m', no, count + 1, no + i * isz, ao) /\
    well m' hs' ((no, new) :: blk ao (shm_size dyn) ++ live) /\ msize m' <= msize m + new + shm_size dyn /\
    (dyn <> 0 -> ao <> 0) /\ (dyn = 0 -> ao = 0) /\
    (forall b, (1 <= cov b live)%nat -> mb m' b = mb m b) /\
    (forall j, j < i * isz -> mb m' (no + j) = mb m (aoff + j)) /\
    (forall j, i * isz <= j -> j < count * isz -> mb m' (no + isz + j) = mb m (aoff + j)).
Proof.
  intros m hs live aoff count isz idx dyn i cur new W Hac Hi0 Hidx Hlim.
  assert (Hcn : (count + 1) * isz = count * isz + isz) by lia.
  assert (Hnew : (count + 1) * isz <= new) by apply shm_size_ge.
  assert (Hcur : count * isz <= cur) by apply shm_size_ge.
  assert (Hcnt : count + 1 < two32) by (pose proof (mul_ge (count + 1) isz Hi0); unfold two32; lia).
  assert (Hle : cur <= new) by (apply shm_size_mono; lia).
  assert (Hnew8 : new mod 8 = 0) by apply shm_size_mod.
  assert (Hcur8 : cur mod 8 = 0) by apply shm_size_mod.
  assert (Hdyn8 : shm_size dyn mod 8 = 0) by apply shm_size_mod.
  pose proof (w_size _ _ _ W) as (Zm1 & Zm2 & Zm3).
  pose proof (proj1 (well_wellE _ _ _) W) as WE.
  pose proof (e_holes _ _ _ _ WE) as Hh. pose proof (e_sorted _ _ _ _ WE) as Hs. pose proof (e_mem _ _ _ _ WE) as Hm.
  assert (Hold : forall b, (1 <= cov b (blk aoff cur ++ live))%nat -> b < msize m).
  { intros b Hb. apply (wellE_live_nohole _ _ _ _ b WE Hb). }
  assert (Hdyn0 : shm_size dyn = 0 <-> dyn = 0) by apply shm_size_0.
  unfold shmrealloc_add.
  assert (E0 : Bool.eqb (aoff =? 0) (count =? 0) = true).
  { destruct (N.eqb_spec aoff 0); destruct (N.eqb_spec count 0); try reflexivity; exfalso; tauto. }
  rewrite E0. cbn [negb]. fold i. destruct (N.ltb_spec count i); [lia|].
  rewrite (u32_small (count + 1)) by assumption. fold new. fold cur.
  (* it remains to show where the array is put *)
  assert (K : forall m1 hs1 noff E1 (moved : bool),
    wellE E1 m1 hs1 ((noff, new) :: (if moved then blk aoff cur else []) ++ live) ->
    (moved = false -> noff = aoff) -> E1 <= msize m + new -> msize m1 = msize m ->
    (forall b, (1 <= cov b (blk aoff cur ++ live))%nat -> mb m1 b = mb m b) ->
    exists m' hs' ao, add_tail m1 noff E1 (shm_size dyn) aoff count isz i moved = Some (m', noff, count + 1, noff + i * isz, ao) /\
    well m' hs' ((noff, new) :: blk ao (shm_size dyn) ++ live) /\ msize m' <= msize m + new + shm_size dyn /\
    (dyn <> 0 -> ao <> 0) /\ (dyn = 0 -> ao = 0) /\
    (forall b, (1 <= cov b live)%nat -> mb m' b = mb m b) /\
    (forall j, j < i * isz -> mb m' (noff + j) = mb m (aoff + j)) /\
    (forall j, i * isz <= j -> j < count * isz -> mb m' (noff + isz + j) = mb m (aoff + j))).
  { intros m1 hs1 noff E1 moved W1 Hmv HE HZ HF.
    destruct (add_tail_spec m1 hs1 live noff E1 (shm_size dyn) aoff count isz i moved W1 Hmv Hac Hi0 Hidx Hdyn8 ltac:(lia)) as (m' & hs' & ao & T1 & T2 & T3 & T4 & T5 & T6 & T7 & T8 & T9).
    { intros b Hb. rewrite HZ. apply Hold. assumption. }
    exists m', hs', ao. split; [exact T1|]. split; [exact T2|]. split; [lia|]. split; [tauto|]. split; [tauto|].
    assert (Har : forall j, j < count * isz -> mb m1 (aoff + j) = mb m (aoff + j)).
    { intros j Hj. apply HF. rewrite cov_app, cov_blk. cbn [cov].
      replace (inb (aoff + j) (aoff, cur)) with true by (symmetry; apply inb_true; lia). lia. }
    split; [intros b Hb; rewrite T7 by assumption; apply HF; rewrite cov_app; lia|].
    split; [intros j Hj; rewrite T8 by assumption; apply Har; pose proof (N.mul_le_mono_r i count isz Hidx); lia|]. intros j J1 J2. rewrite T9 by assumption. apply Har. assumption. }
  assert (Hdiff : u32 (new - cur) = new - cur) by (apply u32_small; unfold two32; lia).
  destruct (N.eqb_spec (new - cur) 0) as [D|D]; cbn [negb andb].
  - (* nothing to allocate *)
    assert (new = cur) by lia. assert (Hc0 : count <> 0) by (intros ->; assert (cur = 0) by reflexivity; lia).
    cbn [obind].
    destruct (K m hs aoff (msize m) false) as (m' & hs' & ao & T1 & T2).
    + cbn [app]. rewrite H0. pose proof WE as WE'. rewrite (blk_nz aoff cur) in WE' by (apply arr_nz; assumption). exact WE'.
    + reflexivity.
    + lia.
    + reflexivity.
    + reflexivity.
    + exists m', hs', aoff, ao. unfold add_tail in T1. rewrite (u32_small (count + 1)) in T1 by assumption. try rewrite (proj2 (N.eqb_eq aoff 0) A0) in T1. try rewrite (proj2 (N.eqb_neq aoff 0) A0) in T1. try rewrite (proj2 (N.eqb_neq aoff 0) A0). split; [exact T1|exact T2].
  - destruct (N.eqb_spec aoff 0) as [A0|A0]; cbn [negb andb].
    + (* a new array *)
      cbn [obind]. cbn [N.eqb negb].
      assert (count = 0) by tauto. assert (Hcu : cur = 0) by (unfold cur; rewrite H0; reflexivity).
      destruct (place_spec _ _ _ _ new WE Hnew8 ltac:(lia) ltac:(lia)) as (h & m1 & hs1 & o & E1 & P1 & P2 & P3 & P4 & P5 & P6 & P7 & _).
      rewrite (u32_small new) by (unfold two32; lia). rewrite P1. cbn [obind]. rewrite P2. cbn [obind].
      destruct (K m1 hs1 o E1 true) as (m' & hs' & ao & T1 & T2); try assumption; [discriminate|].
      exists m', hs', o, ao. unfold add_tail in T1. rewrite (u32_small (count + 1)) in T1 by assumption. try rewrite (proj2 (N.eqb_eq aoff 0) A0) in T1. try rewrite (proj2 (N.eqb_neq aoff 0) A0) in T1. try rewrite (proj2 (N.eqb_neq aoff 0) A0). split; [exact T1|exact T2].
    + assert (Hc0 : count <> 0) by tauto.
      assert (Hcur0 : cur <> 0) by (apply arr_nz; assumption).
      pose proof WE as WE'. rewrite (blk_nz aoff cur Hcur0) in WE'. cbn [app] in WE'.
      pose proof (wellE_live_in _ _ _ _ aoff cur WE' (or_introl eq_refl)) as (Q1 & Q2 & _).
      (* the difference never exceeds the current size *)
      assert (Hdc : new - cur <= cur).
      { assert (new <= cur + shm_size isz) by (unfold new; rewrite Hcn; apply shm_size_add).
        assert (shm_size isz <= cur) by (apply shm_size_mono; apply mul_ge2; assumption). lia. }
      rewrite Hdiff. rewrite (u32_small (aoff + (new - cur))) by (unfold two32; lia).
      destruct (hole_find_spec m (aoff + (new - cur)) (new - cur) hs Hh Hs Hm ltac:(lia)) as (r & Hf & Pr).
      rewrite Hf. cbn [obind]. destruct (N.eqb_spec r 0) as [R0|R0]; cbn [negb].
      * destruct (place_spec _ _ _ _ new WE Hnew8 ltac:(lia) ltac:(lia)) as (h & m1 & hs1 & o & E1 & P1 & P2 & P3 & P4 & P5 & P6 & P7 & _).
        rewrite (u32_small new) by (unfold two32; lia). rewrite P1. cbn [obind]. rewrite P2. cbn [obind].
        destruct (K m1 hs1 o E1 true) as (m' & hs' & ao & T1 & T2); try assumption; [discriminate|].
        exists m', hs', o, ao. unfold add_tail in T1. rewrite (u32_small (count + 1)) in T1 by assumption. try rewrite (proj2 (N.eqb_eq aoff 0) A0) in T1. try rewrite (proj2 (N.eqb_neq aoff 0) A0) in T1. try rewrite (proj2 (N.eqb_neq aoff 0) A0). split; [exact T1|exact T2].
      * destruct Pr as [(Pr & _)|(s & R1 & R2 & R3)]; [contradiction|]. specialize (R3 ltac:(lia)). subst r.
        destruct (hsorted_in _ _ _ _ Hs R1) as (G1 & G2 & G3 & G4).
        (* so the hole follows the array *)
        assert (Hcd : new - cur = cur).
        { destruct (N.lt_ge_cases (new - cur) cur) as [L|L]; [exfalso|lia].
          pose proof (e_tiled _ _ _ _ WE' (aoff + (new - cur))) as T.
          pose proof (cov_in (aoff + (new - cur)) hs _ R1 ltac:(apply inb_true; lia)). cbn [cov] in T.
          replace (inb (aoff + (new - cur)) (aoff, cur)) with true in T by (symmetry; apply inb_true; lia).
          destruct ((8 <=? aoff + (new - cur)) && (aoff + (new - cur) <? msize m)); lia. }
        destruct (use_hole_spec m hs _ s (new - cur) Hh Hs Hm ltac:(lia) R1 R2 ltac:(apply mod8_sub; assumption) D) as (m1 & hs1 & U1 & U2 & U3 & U4 & U5 & U6 & U7).
        rewrite U1. cbn [obind].
        assert (W1 : wellE (msize m) m1 hs1 ((aoff, new) :: live)).
        { constructor; try assumption.
          - intros b. rewrite <- (e_tiled _ _ _ _ WE' b), <- U6. cbn [cov]. inbs.
          - rewrite U2. apply (e_size _ _ _ _ WE').
          - pose proof (e_live _ _ _ _ WE') as G. pose proof (Forall_inv G) as (X1 & X2 & X3). pose proof (Forall_inv_tail G) as X4. constructor; [|assumption].
            cbn [fst snd] in *. repeat split; try assumption. lia. }
        destruct (K m1 hs1 aoff (msize m) false) as (m' & hs' & ao & T1 & T2); try assumption; [reflexivity|lia| |].
        -- intros b Hb. destruct (wellE_live_nohole _ _ _ _ b W1) as (V1 & V2 & _).
           { rewrite cov_app, cov_blk in Hb. cbn [cov] in *. inbs. }
           apply U7; assumption.
        -- exists m', hs', aoff, ao. unfold add_tail in T1. rewrite (u32_small (count + 1)) in T1 by assumption. try rewrite (proj2 (N.eqb_eq aoff 0) A0) in T1. try rewrite (proj2 (N.eqb_neq aoff 0) A0) in T1. try rewrite (proj2 (N.eqb_neq aoff 0) A0). split; [exact T1|exact T2].
Qed.

(** * sr_shmrealloc() *)

Lemma shmrealloc_spec : forall m hs live aoff cs ns,
  let cur := shm_size cs in
  let new := shm_size ns in
  well m hs (blk aoff cur ++ live) -> (aoff = 0 <-> cs = 0) -> (cs <> 0 \/ ns <> 0) ->
  msize m + new < 2147483648 ->
  exists m' hs' no, shmrealloc m aoff cs ns = Some (m', no) /\
    well m' hs' (blk no new ++ live) /\ msize m' <= msize m + new /\ no <> 0 /\
    (forall b, (1 <= cov b live)%nat -> mb m' b = mb m b).
Proof.
  intros m hs live aoff cs ns cur new W Hac Hnn Hlim.
  assert (Hnew8 : new mod 8 = 0) by apply shm_size_mod.
  assert (Hcur8 : cur mod 8 = 0) by apply shm_size_mod.
  assert (Hc0 : cur = 0 <-> cs = 0) by apply shm_size_0.
  assert (Hn0 : new = 0 <-> ns = 0) by apply shm_size_0.
  pose proof (w_size _ _ _ W) as (Zm1 & Zm2 & Zm3).
  pose proof (proj1 (well_wellE _ _ _) W) as WE.
  pose proof (e_holes _ _ _ _ WE) as Hh. pose proof (e_sorted _ _ _ _ WE) as Hs. pose proof (e_mem _ _ _ _ WE) as Hm.
  unfold shmrealloc.
  assert (E0 : negb (aoff =? 0) && (cs =? 0) = false).
  { destruct (N.eqb_spec aoff 0); destruct (N.eqb_spec cs 0); try reflexivity; exfalso; tauto. }
  rewrite E0. clear E0. fold cur new.
  assert (Hold : forall b, (1 <= cov b (blk aoff cur ++ live))%nat -> b < msize m).
  { intros b Hb. apply (wellE_live_nohole _ _ _ _ b WE Hb). }
  destruct (N.ltb_spec cur new) as [L|L]; cbn [andb].
  - (* the attribute grows *)
    assert (MOVE : exists h m' hs' no, hole_find m 0 (u32 new) = Some h /\
      (do p <- place m h new (msize m);
       let '(m, new_attr_off, new_ext_size) := p in
       let m := if msize m <? new_ext_size then resize m new_ext_size else m in
       if new_attr_off =? 0 then None else
       do m <- (do m <- move m new_attr_off aoff cur; hole_add m (u32 aoff) (u32 cur));
       Some (m, new_attr_off)) = Some (m', no) /\
      well m' hs' (blk no new ++ live) /\ msize m' <= msize m + new /\ no <> 0 /\
      (forall b, (1 <= cov b live)%nat -> mb m' b = mb m b)).
    { rewrite (u32_small new) by (unfold two32; lia).
      destruct (place_spec _ _ _ _ new WE Hnew8 ltac:(lia) ltac:(lia)) as (h & m1 & hs1 & o & E1 & P1 & P2 & P3 & P4 & P5 & P6 & P7 & _).
      destruct (grow_spec _ _ _ _ P4) as (W2 & F2 & Z2). set (m2 := if msize m1 <? E1 then resize m1 E1 else m1) in *.
      apply well_wellE in W2.
      pose proof (wellE_live_in _ _ _ _ o new W2 (or_introl eq_refl)) as (O1 & O2 & _).
      assert (A1 : cur <> 0 -> aoff + cur <= msize m).
      { intros C. apply (wellE_live_in _ _ _ _ aoff cur WE). apply in_or_app. left. rewrite blk_nz by assumption. left. reflexivity. }
      assert (A2 : cur = 0 -> aoff = 0) by tauto.
      destruct (move_spec m2 o aoff cur ltac:(lia)) as (m3 & M1 & M2 & M3 & M4).
      { rewrite Z2. destruct (N.eq_dec cur 0) as [C|C]; [rewrite (A2 C); lia|specialize (A1 C); lia]. }
      assert (W3 : wellE (msize m3) m3 hs1 ((o, new) :: blk aoff cur ++ live)).
      { rewrite M2. eapply wellE_frame; [exact W2|assumption|]. intros b Hb. apply M4.
        apply inb_false. destruct (inb b (o, cur)) eqn:Eb; [exfalso|reflexivity]. apply inb_true in Eb.
        destruct Hb as [Hb|Hb]; [lia|]. pose proof (e_tiled _ _ _ _ W2 b) as T. cbn [cov] in T.
        replace (inb b (o, new)) with true in T by (symmetry; apply inb_true; lia).
        destruct ((8 <=? b) && (b <? msize m2)); lia. }
      assert (F3 : forall b, (1 <= cov b live)%nat -> mb m3 b = mb m b).
      { intros b Hb. rewrite M4.
        - rewrite F2; [apply P7; rewrite cov_app; lia|]. rewrite P3. apply Hold. rewrite cov_app. lia.
        - apply inb_false. destruct (inb b (o, cur)) eqn:Eb; [exfalso|reflexivity]. apply inb_true in Eb.
          pose proof (e_tiled _ _ _ _ W2 b) as T. cbn [cov] in T. rewrite cov_app in T.
          replace (inb b (o, new)) with true in T by (symmetry; apply inb_true; lia).
          destruct ((8 <=? b) && (b <? msize m2)); lia. }
      destruct (N.eq_dec cur 0) as [C|C].
      - exists h, m3, hs1, o. split; [exact P1|]. rewrite P2. cbn [obind]. fold m2. destruct (N.eqb_spec o 0); [lia|].
        rewrite M1. cbn [obind]. rewrite C. rewrite (u32_small 0) by (unfold two32; lia). unfold hole_add. cbn [N.eqb obind].
        split; [reflexivity|]. split.
        + rewrite blk_nz by lia. apply well_wellE. rewrite C in W3. exact W3.
        + split; [lia|]. split; [assumption|exact F3].
      - assert (W4 : wellE (msize m3) m3 hs1 ((aoff, cur) :: (o, new) :: live)).
        { eapply wellE_live_eq; [exact W3| |].
          - intros b. rewrite (blk_nz aoff cur C). cbn [cov app]. lia.
          - pose proof (e_live _ _ _ _ W3) as G. rewrite (blk_nz aoff cur C) in G. cbn [app] in G.
            pose proof (Forall_inv G) as G1. pose proof (Forall_inv_tail G) as G2. pose proof (Forall_inv G2) as G3. pose proof (Forall_inv_tail G2) as G4. constructor; [assumption|]. constructor; assumption. }
        destruct (well_free _ _ _ _ _ _ W4 ltac:(specialize (A1 C); lia)) as (m4 & hs4 & R1 & R2 & R3 & R4 & _).
        exists h, m4, hs4, o. split; [exact P1|]. rewrite P2. cbn [obind]. fold m2. destruct (N.eqb_spec o 0); [lia|].
        rewrite M1. cbn [obind]. rewrite (u32_small aoff) by (specialize (A1 C); unfold two32; lia). rewrite (u32_small cur) by (unfold two32; lia).
        rewrite R1. cbn [obind]. split; [reflexivity|]. split.
        + rewrite blk_nz by lia. apply well_wellE. rewrite R2. exact R3.
        + split; [lia|]. split; [assumption|]. intros b Hb. rewrite R4; [apply F3; assumption|cbn [cov]; lia]. }
    destruct MOVE as (h & m' & hs' & no & V1 & V2 & V3).
    destruct (N.eqb_spec cur 0) as [C|C]; cbn [negb].
    + cbn [obind]. cbn [N.eqb negb]. rewrite V1. cbn [obind]. exists m', hs', no. split; [exact V2|exact V3].
    + pose proof WE as WE'. rewrite (blk_nz aoff cur C) in WE'. cbn [app] in WE'.
      pose proof (wellE_live_in _ _ _ _ aoff cur WE' (or_introl eq_refl)) as (Q1 & Q2 & _).
      rewrite (u32_small (aoff + cur)) by (unfold two32; lia). rewrite (u32_small (new - cur)) by (unfold two32; lia).
      destruct (hole_find_spec m (aoff + cur) (new - cur) hs Hh Hs Hm ltac:(lia)) as (r & Hf & Pr).
      rewrite Hf. cbn [obind]. destruct (N.eqb_spec r 0) as [R0|R0]; cbn [negb].
      * rewrite V1. cbn [obind]. exists m', hs', no. split; [exact V2|exact V3].
      * destruct Pr as [(Pr & _)|(s & R1 & R2 & R3)]; [contradiction|]. specialize (R3 ltac:(lia)). subst r.
        destruct (hsorted_in _ _ _ _ Hs R1) as (G1 & G2 & G3 & G4).
        destruct (use_hole_spec m hs _ s (new - cur) Hh Hs Hm ltac:(lia) R1 R2 ltac:(apply mod8_sub; try assumption; lia) ltac:(lia)) as (m1 & hs1 & U1 & U2 & U3 & U4 & U5 & U6 & U7).
        rewrite U1. cbn [obind].
        assert (W1 : wellE (msize m) m1 hs1 ((aoff, new) :: live)).
        { constructor; try assumption.
          - intros b. rewrite <- (e_tiled _ _ _ _ WE' b), <- U6. cbn [cov]. inbs.
          - rewrite U2. apply (e_size _ _ _ _ WE').
          - pose proof (e_live _ _ _ _ WE') as G. pose proof (Forall_inv G) as (X1 & X2 & X3). pose proof (Forall_inv_tail G) as X4. constructor; [|assumption].
            cbn [fst snd] in *. repeat split; try assumption. lia. }
        replace (msize m1 <? msize m) with false by (symmetry; apply N.ltb_ge; lia).
        destruct (N.eqb_spec aoff 0); [lia|]. cbn [obind].
        exists m1, hs1, aoff. split; [reflexivity|]. split; [rewrite blk_nz by lia; apply well_wellE; rewrite U2; exact W1|].
        split; [lia|]. split; [assumption|].
        intros b Hb. destruct (wellE_live_nohole _ _ _ _ b W1) as (K1 & K2 & _); [cbn [cov]; lia|]. apply U7; assumption.
  - (* it does not grow *)
    assert (C : cur <> 0) by (destruct Hnn; [tauto|]; lia).
    assert (A0 : aoff <> 0) by tauto.
    pose proof WE as WE'. rewrite (blk_nz aoff cur C) in WE'. cbn [app] in WE'.
    pose proof (wellE_live_in _ _ _ _ aoff cur WE' (or_introl eq_refl)) as (Q1 & Q2 & _).
    cbn [obind]. destruct (N.ltb_spec new cur) as [S1|S1].
    + rewrite (u32_small (aoff + new)) by (unfold two32; lia). rewrite (u32_small (cur - new)) by (unfold two32; lia).
      pose proof (e_live _ _ _ _ WE') as G. pose proof (Forall_inv G) as (X1 & X2 & X3). pose proof (Forall_inv_tail G) as X4. cbn [fst snd] in *.
      assert (W4 : wellE (msize m) m hs ((aoff + new, cur - new) :: blk aoff new ++ live)).
      { eapply wellE_live_eq; [exact WE'| |].
        - intros b. cbn [cov]. rewrite cov_app, cov_blk. cbn [cov]. inbs.
        - constructor; [cbn [fst snd]; split; [lia|]; split; [apply mod8_add; assumption|apply mod8_sub; try assumption; lia]|].
          apply Forall_app. split; [apply Forall_blk; auto|assumption]. }
      destruct (well_free _ _ _ _ _ _ W4 ltac:(lia)) as (m4 & hs4 & R1 & R2 & R3 & R4 & _). rewrite R1. cbn [obind].
      replace (msize m4 <? msize m) with false by (symmetry; apply N.ltb_ge; lia).
      destruct (N.eqb_spec aoff 0); [lia|]. cbn [obind].
      exists m4, hs4, aoff. split; [reflexivity|]. split; [apply well_wellE; rewrite R2; exact R3|]. split; [lia|]. split; [assumption|].
      intros b Hb. apply R4. rewrite cov_app. lia.
    + assert (new = cur) by lia. cbn [obind]. rewrite N.ltb_irrefl. destruct (N.eqb_spec aoff 0); [lia|]. cbn [obind].
      exists m, hs, aoff. split; [reflexivity|]. rewrite H. split; [exact W|]. split; [lia|]. split; [assumption|reflexivity].
Qed.

(** * sr_shmrealloc_del() *)

Lemma shmrealloc_del_spec : forall m hs live aoff count isz idx dsz doff,
  let cur := shm_size (count * isz) in
  let new := shm_size ((count - 1) * isz) in
  well m hs ((aoff, cur) :: blk doff dsz ++ live) -> count <> 0 -> isz <> 0 -> idx < count ->
  dsz mod 8 = 0 -> (dsz = 0 <-> doff = 0) ->
  exists m' hs', shmrealloc_del m aoff count isz idx dsz doff = Some (m', if count =? 1 then 0 else aoff, count - 1) /\
    well m' hs' (blk aoff new ++ live) /\ msize m' = msize m /\
    (forall b, (1 <= cov b live)%nat -> mb m' b = mb m b) /\
    (forall j, j < idx * isz -> j < (count - 1) * isz -> mb m' (aoff + j) = mb m (aoff + j)) /\
    (forall j, idx * isz <= j -> j < (count - 1) * isz -> mb m' (aoff + j) = mb m (aoff + isz + j)).
Proof.
  intros m hs live aoff count isz idx dsz doff cur new W Hc0 Hi0 Hidx Hd8 Hd0.
  assert (Hcn : (count - 1) * isz = count * isz - isz) by (rewrite N.mul_sub_distr_r; lia).
  assert (Hci : isz <= count * isz) by (apply mul_ge2; assumption).
  assert (Hnew : (count - 1) * isz <= new) by apply shm_size_ge.
  assert (Hcur : count * isz <= cur) by apply shm_size_ge.
  assert (Hle : new <= cur) by (apply shm_size_mono; lia).
  assert (Hnew8 : new mod 8 = 0) by apply shm_size_mod.
  assert (Hcur8 : cur mod 8 = 0) by apply shm_size_mod.
  pose proof (w_size _ _ _ W) as (Zm1 & Zm2 & Zm3).
  pose proof (proj1 (well_wellE _ _ _) W) as WE.
  pose proof (wellE_live_in _ _ _ _ aoff cur WE (or_introl eq_refl)) as (Q1 & Q2 & Q3 & Q4).
  assert (Hdo : dsz <> 0 -> doff + dsz <= msize m).
  { intros D. apply (wellE_live_in _ _ _ _ doff dsz WE). right. apply in_or_app. left. rewrite blk_nz by assumption. left. reflexivity. }
  unfold shmrealloc_del.
  assert (E0 : Bool.eqb (dsz =? 0) (doff =? 0) = true).
  { destruct (N.eqb_spec dsz 0); destruct (N.eqb_spec doff 0); try reflexivity; exfalso; tauto. }
  rewrite E0. cbn [negb]. clear E0.
  assert (E1 : (dsz =? shm_size dsz) = true).
  { apply N.eqb_eq. unfold shm_size. rewrite Hd8. rewrite N.sub_0_r, N.mod_same by lia. lia. }
  rewrite E1. cbn [negb]. clear E1. destruct (N.eqb_spec count 0); [contradiction|].
  fold new cur.
  (* the move *)
  assert (A : exists m1, (if count - 1 =? 0 then Some m else if idx <? count - 1
           then move m (aoff + idx * isz) (aoff + (idx + 1) * isz) ((count - 1 - idx) * isz) else Some m) = Some m1 /\
    msize m1 = msize m /\ (forall b, b < aoff \/ aoff + new <= b -> mb m1 b = mb m b) /\
    (forall j, j < idx * isz -> j < (count - 1) * isz -> mb m1 (aoff + j) = mb m (aoff + j)) /\
    (forall j, idx * isz <= j -> j < (count - 1) * isz -> mb m1 (aoff + j) = mb m (aoff + isz + j))).
  { assert (T : idx = count - 1 \/ idx < count - 1) by lia. destruct T as [T|T].
    - exists m. split; [destruct (count - 1 =? 0); [reflexivity|]; replace (idx <? count - 1) with false by (symmetry; apply N.ltb_ge; lia); reflexivity|].
      split; [reflexivity|]. split; [reflexivity|]. split; [reflexivity|]. rewrite T. intros; lia.
    - assert (Hm1 : (idx + 1) * isz = idx * isz + isz) by lia.
      assert (Hm2 : (count - 1 - idx) * isz = (count - 1) * isz - idx * isz) by (rewrite N.mul_sub_distr_r; reflexivity).
      assert (Hm3 : idx * isz <= (count - 1) * isz) by (apply N.mul_le_mono_r; lia).
      destruct (move_spec m (aoff + idx * isz) (aoff + (idx + 1) * isz) ((count - 1 - idx) * isz) ltac:(lia) ltac:(lia)) as (m1 & M1 & M2 & M3 & M4).
      exists m1. split; [destruct (N.eqb_spec (count - 1) 0); [lia|]; replace (idx <? count - 1) with true by (symmetry; apply N.ltb_lt; assumption); exact M1|].
      split; [exact M2|]. split; [intros; apply M4; lia|]. split; [intros; apply M4; lia|].
      intros j J1 J2. replace (aoff + j) with (aoff + idx * isz + (j - idx * isz)) by lia. rewrite M3 by lia. f_equal. lia. }
  destruct A as (m1 & EA & Z1 & A1 & A2 & A3). rewrite EA. cbn [obind]. clear EA.
  assert (W1 : wellE (msize m1) m1 hs ((aoff, cur) :: blk doff dsz ++ live)).
  { rewrite Z1. eapply wellE_frame; [exact WE|assumption|]. intros b Hb. apply A1.
    apply inb_false. destruct (inb b (aoff, new)) eqn:Eb; [exfalso|reflexivity]. apply inb_true in Eb.
    destruct Hb as [Hb|Hb]; [lia|]. pose proof (e_tiled _ _ _ _ WE b) as T. cbn [cov] in T.
    replace (inb b (aoff, cur)) with true in T by (symmetry; apply inb_true; lia).
    destruct ((8 <=? b) && (b <? msize m)); lia. }
  assert (F1 : forall b, (1 <= cov b live)%nat -> mb m1 b = mb m b).
  { intros b Hb. apply A1. apply inb_false. destruct (inb b (aoff, new)) eqn:Eb; [exfalso|reflexivity]. apply inb_true in Eb.
    pose proof (e_tiled _ _ _ _ WE b) as T. cbn [cov] in T. rewrite cov_app in T.
    replace (inb b (aoff, cur)) with true in T by (symmetry; apply inb_true; lia).
    destruct ((8 <=? b) && (b <? msize m)); lia. }
  pose proof (e_live _ _ _ _ W1) as G. pose proof (Forall_inv G) as (X1 & X2 & X3). pose proof (Forall_inv_tail G) as X4. cbn [fst snd] in *.
  apply Forall_app in X4. destruct X4 as (X4 & X5).
  (* the end of the array *)
  assert (B : exists m2 hs2, (if negb (cur - new =? 0) then hole_add m1 (u32 (aoff + new)) (u32 (cur - new)) else Some m1) = Some m2 /\
    msize m2 = msize m1 /\ wellE (msize m1) m2 hs2 (blk doff dsz ++ blk aoff new ++ live) /\
    (forall b, (1 <= cov b (blk doff dsz ++ blk aoff new ++ live))%nat -> mb m2 b = mb m1 b)).
  { destruct (N.eqb_spec (cur - new) 0) as [D|D]; cbn [negb].
    - exists m1, hs. split; [reflexivity|]. split; [reflexivity|]. split; [|reflexivity].
      assert (new = cur) by lia. rewrite H. eapply wellE_live_eq; [exact W1| |].
      + intros b. cbn [cov]. rewrite !cov_app, (cov_blk b aoff). cbn [cov]. lia.
      + apply Forall_app. split; [assumption|]. apply Forall_app. split; [apply Forall_blk; auto|assumption].
    - rewrite (u32_small (aoff + new)) by (unfold two32; lia). rewrite (u32_small (cur - new)) by (unfold two32; lia).
      assert (W2 : wellE (msize m1) m1 hs ((aoff + new, cur - new) :: blk doff dsz ++ blk aoff new ++ live)).
      { eapply wellE_live_eq; [exact W1| |].
        + intros b. cbn [cov]. rewrite !cov_app, (cov_blk b aoff). cbn [cov]. inbs.
        + constructor; [cbn [fst snd]; split; [lia|]; split; [apply mod8_add; assumption|apply mod8_sub; try assumption; lia]|].
          apply Forall_app. split; [assumption|]. apply Forall_app. split; [apply Forall_blk; auto|assumption]. }
      destruct (well_free _ _ _ _ _ _ W2 ltac:(lia)) as (m2 & hs2 & R1 & R2 & R3 & R4 & _).
      exists m2, hs2. split; [exact R1|]. split; [exact R2|]. split; [exact R3|exact R4]. }
  destruct B as (m2 & hs2 & EB & Z2 & W2 & F2). rewrite EB. cbn [obind]. clear EB.
  (* the attribute *)
  assert (C : exists m3 hs3, (if negb (dsz =? 0) then hole_add m2 (u32 doff) (u32 dsz) else Some m2) = Some m3 /\
    msize m3 = msize m2 /\ wellE (msize m1) m3 hs3 (blk aoff new ++ live) /\
    (forall b, (1 <= cov b (blk aoff new ++ live))%nat -> mb m3 b = mb m2 b)).
  { destruct (N.eqb_spec dsz 0) as [D|D]; cbn [negb].
    - subst dsz. exists m2, hs2. split; [reflexivity|]. split; [reflexivity|]. split; [exact W2|reflexivity].
    - specialize (Hdo D). rewrite (blk_nz doff dsz D) in W2. cbn [app] in W2.
      rewrite (u32_small doff) by (unfold two32; lia). rewrite (u32_small dsz) by (unfold two32; lia).
      destruct (well_free _ _ _ _ _ _ W2 ltac:(lia)) as (m3 & hs3 & R1 & R2 & R3 & R4 & _).
      exists m3, hs3. split; [exact R1|]. split; [exact R2|]. split; [exact R3|exact R4]. }
  destruct C as (m3 & hs3 & EC & Z3 & W3 & F3). rewrite EC. cbn [obind]. clear EC.
  exists m3, hs3. split.
  { f_equal. f_equal. f_equal. destruct (N.eqb_spec (count - 1) 0); destruct (N.eqb_spec count 1); try reflexivity; lia. }
  split; [apply well_wellE; rewrite Z3, Z2; exact W3|]. split; [congruence|].
  assert (Fn : forall j, j < (count - 1) * isz -> mb m3 (aoff + j) = mb m1 (aoff + j)).
  { intros j Hj. assert (inb (aoff + j) (aoff, new) = true) by (apply inb_true; lia).
    rewrite F3, F2; [reflexivity| |]; rewrite !cov_app, ?(cov_blk _ aoff); cbn [cov]; rewrite H; lia. }
  split; [intros b Hb; rewrite F3, F2 by (rewrite !cov_app; lia); apply F1; assumption|].
  split; [intros j J1 J2; rewrite Fn by assumption; apply A2; assumption|].
  intros j J1 J2. rewrite Fn by assumption. apply A3; assumption.
Qed.

(** * Truncation in sr_shmext_conn_remap_unlock() *)

Lemma last_hole_spec : forall hs fuel m o last,
  seg m o hs 0 -> (length hs < fuel)%nat -> hole_next m last = Some o ->
  last_hole fuel m last = Some (hlast last hs).
Proof.
  induction hs as [|[h s] r IH]; intros fuel m o last Hc Hl Hn; (destruct fuel as [|f]; [lia|]); cbn [last_hole]; rewrite Hn; cbn [obind].
  - cbn [seg] in Hc. subst o. reflexivity.
  - cbn [seg] in Hc. destruct Hc as (-> & Hh & Hr & n & Hn' & Hc). destruct (N.eqb_spec h 0); [contradiction|].
    cbn [length] in Hl. erewrite IH; [reflexivity|exact Hc|lia|]. rewrite hole_next_nz by assumption. exact Hn'.
Qed.

Lemma remap_unlock_spec : forall m hs live, well m hs live ->
  exists m' hs', remap_unlock m = Some m' /\ well m' hs' live /\ msize m' <= msize m /\
    (forall b, (1 <= cov b live)%nat -> mb m' b = mb m b) /\
    (* no free space is left at the end *)
    (forall h s, In (h, s) hs' -> h + s < msize m').
Proof.
  intros m hs live W. pose proof (proj1 (well_wellE _ _ _) W) as WE.
  pose proof (e_holes _ _ _ _ WE) as Hh. pose proof (e_sorted _ _ _ _ WE) as Hs. pose proof (e_mem _ _ _ _ WE) as Hm.
  pose proof (w_size _ _ _ W) as (Zm1 & Zm2 & Zm3).
  pose proof Hh as (o & Ho & Hc). apply holes_seg in Hc.
  unfold remap_unlock. rewrite (last_hole_spec hs _ m o 0 Hc (fuel_enough _ _ Hs Hm)) by exact Ho. cbn [obind].
  destruct (list_snoc_cases _ hs) as [->|(a & (h, s) & ->)].
  - cbn [hlast fold_left N.eqb]. exists m, []. split; [reflexivity|]. split; [exact W|]. split; [lia|]. split; [reflexivity|]. intros ? ? [].
  - rewrite hlast_snoc.
    assert (Hi : In (h, s) (a ++ [(h, s)])) by (apply in_or_app; right; left; reflexivity).
    pose proof (seg_bound _ _ _ _ _ _ Hc Hi) as (R1 & R2 & R3).
    pose proof (hsorted_in _ _ _ _ Hs Hi) as (G1 & G2 & G3 & G4). pose proof (Hm _ _ Hi) as G5.
    destruct (N.eqb_spec h 0); [lia|]. rewrite R1. cbn [obind].
    rewrite (u32_small h) by (unfold two32; lia). rewrite (u32_small (h + s)) by (unfold two32; lia).
    destruct (N.eqb_spec (h + s) (msize m)) as [Q|Q].
    + destruct (hole_del_spec m a h s [] Hh Hs Hm Zm3) as (m1 & E1 & Z1 & H1 & S1 & M1 & F1). rewrite app_nil_r in *. rewrite E1. cbn [obind].
      replace (msize m - s) with h by lia.
      assert (Hlast : forall h' s', In (h', s') a -> h' + s' < h) by (intros h' s' Hi'; eapply hsorted_apart; [exact Hs|exact Hi']).
      exists (resize m1 h), a. split; [reflexivity|].
      assert (Hb : forall b, b < h -> mb (resize m1 h) b = mb m1 b).
      { intros b Hb. cbn [resize mb]. destruct (N.ltb_spec b (N.min h (msize m1))); [reflexivity|lia]. }
      assert (Hlv : forall b, (1 <= cov b live)%nat -> b < h).
      { intros b Hb2. destruct (wellE_live_nohole _ _ _ _ b WE Hb2) as (K1 & K2 & K3).
        destruct (cov0_out b _ h s K1 Hi); lia. }
      assert (Hrd : forall o v, rd32 m1 o = Some v -> o + 4 <= h -> rd32 (resize m1 h) o = Some v).
      { intros x v R L. rewrite <- R. unfold rd32. rewrite !Hb by lia. cbn [resize msize].
        destruct (N.leb_spec (x + 4) h); [|lia]. destruct (N.leb_spec (x + 4) (msize m1)); [reflexivity|lia]. }
      split.
      { constructor.
        - destruct H1 as (o1 & Ho1 & Hc1). exists o1. split; [apply Hrd; [assumption|lia]|]. clear Ho1.
          assert (Hin : forall h' s', In (h', s') a -> 8 <= s' /\ h' + s' < h).
          { intros h' s' Hi'. split; [apply (hsorted_in _ _ _ _ S1 Hi')|apply Hlast with (s' := s'); assumption]. }
          revert o1 Hc1 Hin. clear - Hrd. induction a as [|[h' s'] r IH]; intros o1 Hc1 Hin; cbn [holes_from] in *; [assumption|].
          destruct Hc1 as (K1 & K2 & K3 & n & K4 & K5). destruct (Hin h' s' (or_introl eq_refl)).
          split; [assumption|]. split; [assumption|]. split; [apply Hrd; [assumption|lia]|]. exists n.
          split; [apply Hrd; [assumption|lia]|]. apply IH; [assumption|]. intros h2 s2 Hi2. apply Hin. right. assumption.
        - assumption.
        - intros b. cbn [resize msize]. pose proof (e_tiled _ _ _ _ WE b) as T. rewrite cov_app in T. cbn [cov] in T.
          destruct (inb b (h, s)) eqn:Eb; [apply inb_true in Eb|apply inb_false in Eb].
          + destruct (N.leb_spec 8 b); destruct (N.ltb_spec b (msize m)); destruct (N.ltb_spec b h); cbn [andb] in *; lia.
          + destruct (N.leb_spec 8 b); destruct (N.ltb_spec b (msize m)); destruct (N.ltb_spec b h); cbn [andb] in *; lia.
        - cbn [resize msize]. lia.
        - apply (w_live _ _ _ W). }
      split; [cbn [resize msize]; lia|]. split; [|intros h' s' Hi'; cbn [resize msize]; apply Hlast; assumption].
      intros b Hb'. rewrite Hb by (apply Hlv; assumption). apply F1.
      * destruct (wellE_live_nohole _ _ _ _ b WE Hb'). lia.
      * destruct (wellE_live_nohole _ _ _ _ b WE Hb') as (K & _). rewrite cov_app in K. lia.
    + exists m, (a ++ [(h, s)]). split; [reflexivity|]. split; [exact W|]. split; [lia|]. split; [reflexivity|].
      intros h' s' Hi'. apply in_app_or in Hi'. destruct Hi' as [Hi'|[K|[]]].
      * pose proof (hsorted_apart a h s [] 8 h' s' Hs Hi'). lia.
      * injection K as <- <-. lia.
Qed.

(** When nothing is allocated any more the segment is truncated to its header. *)
Lemma remap_unlock_empty : forall m hs, well m hs [] ->
  exists m', remap_unlock m = Some m' /\ well m' [] [] /\ msize m' = 8.
Proof.
  intros m hs W. destruct (remap_unlock_spec m hs [] W) as (m' & hs' & E & W' & L & F & Hn).
  exists m'. split; [exact E|].
  assert (Hz : msize m' = 8).
  { pose proof (w_size _ _ _ W') as (Z1 & Z2 & Z3). destruct (N.eq_dec (msize m') 8) as [Q|Q]; [assumption|exfalso].
    pose proof (w_tiled _ _ _ W' (msize m' - 1)) as T. cbn [cov] in T.
    destruct (N.leb_spec 8 (msize m' - 1)); [|lia]. destruct (N.ltb_spec (msize m' - 1) (msize m')); [|lia]. cbn [andb] in T.
    destruct (cov_pos (msize m' - 1) hs' ltac:(lia)) as ([h s] & Hi & Hb). apply inb_true in Hb. specialize (Hn h s Hi). lia. }
  split; [|exact Hz].
  destruct hs' as [|[h s] r]; [exact W'|exfalso].
  specialize (Hn h s (or_introl eq_refl)). pose proof (hsorted_in _ _ h s (w_sorted _ _ _ W') (or_introl eq_refl)). lia.
Qed.

Lemma ext_open_well : well ext_open [] [].
Proof.
  constructor.
  - exists 0. split; reflexivity.
  - exact I.
  - intros b. cbn [cov ext_open msize]. destruct (N.leb_spec 8 b); destruct (N.ltb_spec b 8); cbn [andb]; try reflexivity. lia.
  - cbn [ext_open msize]. repeat split; try lia.
  - constructor.
Qed.
