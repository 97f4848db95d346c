(** Tables of items which own blocks of the memory. *)
From Coq Require Import List NArith ZArith Lia Bool Arith.
From Verif Require Import Base BaseLemmas EvData EvDataProofs ExtShm ExtShmSpec ExtShmProofs ExtShmHoles ExtShmAlloc ExtShmRealloc SubTab.
Import ListNotations.
Open Scope N_scope.

Lemma cov_concat_in : forall b bls bl, In bl bls -> (cov b bl <= cov b (concat bls))%nat.
Proof.
  induction bls as [|x r IH]; intros bl Hi; [destruct Hi|]. cbn [concat]. rewrite cov_app. destruct Hi as [->|Hi]; [lia|].
  specialize (IH bl Hi). lia.
Qed.

(** Bytes of a live block. *)
Lemma cov_blk_in : forall b o s, o <= b -> b < o + s -> (1 <= cov b (blk o s))%nat.
Proof. intros b o s H1 H2. rewrite cov_blk. cbn [cov]. replace (inb b (o, s)) with true by (symmetry; apply inb_true; lia). lia. Qed.

(** Different live blocks of a well-formed segment are disjoint. *)
Lemma well_disj : forall m hs l1 l2 b, well m hs (l1 ++ l2) -> (1 <= cov b l1)%nat -> cov b l2 = 0%nat.
Proof.
  intros m hs l1 l2 b W H. pose proof (w_tiled _ _ _ W b) as T. rewrite cov_app in T.
  destruct ((8 <=? b) && (b <? msize m)); lia.
Qed.

Lemma well_bound : forall m hs live b, well m hs live -> (1 <= cov b live)%nat -> 8 <= b /\ b < msize m /\ cov b hs = 0%nat.
Proof.
  intros m hs live b W H. apply well_wellE in W. destruct (wellE_live_nohole _ _ _ _ b W H) as (A & B & C). tauto.
Qed.

(** Changing only bytes of live blocks. *)
Lemma well_write : forall m m' hs live, well m hs live -> msize m' = msize m ->
  (forall b, cov b live = 0%nat -> mb m' b = mb m b) -> well m' hs live.
Proof.
  intros m m' hs live W Z F. apply well_wellE. apply well_wellE in W. rewrite Z. eapply wellE_frame; [exact W|exact Z|].
  intros b Hb. apply F. pose proof (e_tiled _ _ _ _ W b) as T. destruct Hb as [Hb|Hb].
  - destruct (N.leb_spec 8 b); [lia|]. cbn [andb] in T. lia.
  - destruct ((8 <=? b) && (b <? msize m)); lia.
Qed.

Section Tab.
Variable X : Type.
Variable R : mem -> N -> X -> list block -> Prop.
Variable isz : N.
Hypothesis isz0 : isz <> 0.
Hypothesis R_move : forall m m' a a' x bl, R m a x bl ->
  (forall j, j < isz -> mb m' (a' + j) = mb m (a + j)) ->
  (forall b, (1 <= cov b bl)%nat -> mb m' b = mb m b) -> R m' a' x bl.

Fixpoint items (m : mem) (a : N) (xs : list X) (bls : list (list block)) : Prop :=
  match xs, bls with
  | [], [] => True
  | x :: xr, bl :: br => R m a x bl /\ items m (a + isz) xr br
  | _, _ => False
  end.

Lemma items_len : forall xs m a bls, items m a xs bls -> length bls = length xs.
Proof.
  induction xs as [|x r IH]; intros m a [|bl br] H; cbn [items length] in *; try tauto. destruct H. f_equal. eapply IH; eassumption.
Qed.

Lemma items_app : forall xs ys m a bls bls', length bls = length xs ->
  items m a (xs ++ ys) (bls ++ bls') <-> items m a xs bls /\ items m (a + nlen xs * isz) ys bls'.
Proof.
  induction xs as [|x r IH]; intros ys m a [|bl br] bls' H; cbn [items app length] in *; try discriminate.
  - unfold nlen. cbn [length]. rewrite N.mul_0_l, N.add_0_r. tauto.
  - rewrite IH by (injection H; auto). assert (E : a + isz + nlen r * isz = a + nlen (x :: r) * isz) by (unfold nlen; cbn [length]; lia).
    rewrite E. tauto.
Qed.

Lemma items_move : forall xs m m' a a' bls, items m a xs bls ->
  (forall j, j < nlen xs * isz -> mb m' (a' + j) = mb m (a + j)) ->
  (forall b, (1 <= cov b (concat bls))%nat -> mb m' b = mb m b) -> items m' a' xs bls.
Proof.
  induction xs as [|x r IH]; intros m m' a a' [|bl br] H H1 H2; cbn [items] in *; try tauto.
  destruct H as (HR & HI). cbn [concat] in H2.
  assert (E : nlen (x :: r) * isz = isz + nlen r * isz) by (unfold nlen; cbn [length]; lia).
  split.
  - eapply R_move; [exact HR| |].
    + intros j Hj. apply H1. lia.
    + intros b Hb. apply H2. rewrite cov_app. lia.
  - eapply IH; [exact HI| |].
    + intros j Hj. rewrite <- !N.add_assoc. apply H1. lia.
    + intros b Hb. apply H2. rewrite cov_app. lia.
Qed.

Definition tblocks (t : tbl) (bls : list (list block)) : list block :=
  blk (t_off t) (shm_size (t_cnt t * isz)) ++ concat bls.

Record tabrep (m : mem) (t : tbl) (xs : list X) (bls : list (list block)) : Prop := {
  tr_cnt : t_cnt t = nlen xs;
  tr_off : t_off t = 0 <-> t_cnt t = 0;
  tr_items : items m (t_off t) xs bls
}.

Lemma tabrep_frame : forall m m' t xs bls, tabrep m t xs bls ->
  (forall b, (1 <= cov b (tblocks t bls))%nat -> mb m' b = mb m b) -> tabrep m' t xs bls.
Proof.
  intros m m' t xs bls [A B C] F. constructor; try assumption. eapply items_move; [exact C| |].
  - intros j Hj. apply F. unfold tblocks. rewrite cov_app.
    assert ((1 <= cov (t_off t + j) (blk (t_off t) (shm_size (t_cnt t * isz))))%nat); [|lia].
    apply cov_blk_in; [lia|]. pose proof (shm_size_ge (t_cnt t * isz)). rewrite A in *. lia.
  - intros b Hb. apply F. unfold tblocks. rewrite cov_app. lia.
Qed.

Lemma tabrep_nil : forall m, tabrep m (mktbl 0 0) [] [].
Proof. intros. constructor; cbn; tauto. Qed.

Lemma nlen_firstn : forall A (l : list A) i, i <= nlen l -> nlen (firstn (N.to_nat i) l) = i.
Proof. intros A l i H. unfold nlen in *. rewrite firstn_length. lia. Qed.

(** Allocation of a new item at index [i]. *)
Lemma tab_insert : forall m hs live t xs bls idx dyn,
  let i := match idx with Some i => i | None => t_cnt t end in
  well m hs (tblocks t bls ++ live) -> tabrep m t xs bls -> i <= t_cnt t ->
  msize m + shm_size ((t_cnt t + 1) * isz) + shm_size dyn < 2147483648 ->
  exists m' hs' no ao,
    shmrealloc_add m (t_off t) (t_cnt t) isz idx dyn = Some (m', no, t_cnt t + 1, no + i * isz, ao) /\
    well m' hs' ((no, shm_size ((t_cnt t + 1) * isz)) :: blk ao (shm_size dyn) ++ concat bls ++ live) /\
    msize m' <= msize m + shm_size ((t_cnt t + 1) * isz) + shm_size dyn /\
    (dyn <> 0 -> ao <> 0) /\ (dyn = 0 -> ao = 0) /\ no <> 0 /\
    (forall b, (1 <= cov b (concat bls ++ live))%nat -> mb m' b = mb m b) /\
    items m' no (firstn (N.to_nat i) xs) (firstn (N.to_nat i) bls) /\
    items m' (no + (i + 1) * isz) (skipn (N.to_nat i) xs) (skipn (N.to_nat i) bls).
Proof.
  intros m hs live t xs bls idx dyn i W [A B C] Hi Hlim. unfold tblocks in W. rewrite <- app_assoc in W.
  pose proof (items_len _ _ _ _ C) as Hl.
  destruct (shmrealloc_add_spec m hs (concat bls ++ live) (t_off t) (t_cnt t) isz idx dyn W B isz0 Hi Hlim) as (m' & hs' & no & ao & E1 & W1 & Z1 & A1 & A2 & F1 & C1 & C2).
  fold i in E1, C1, C2.
  exists m', hs', no, ao. split; [exact E1|]. split; [exact W1|]. split; [exact Z1|]. split; [exact A1|]. split; [exact A2|].
  assert (Hno : no <> 0).
  { apply well_wellE in W1. pose proof (wellE_live_in _ _ _ _ no _ W1 (or_introl eq_refl)). lia. }
  split; [exact Hno|]. split; [exact F1|].
  assert (Hlf : length (firstn (N.to_nat i) bls) = length (firstn (N.to_nat i) xs)) by (rewrite !firstn_length; lia).
  pose proof C as C'. rewrite <- (firstn_skipn (N.to_nat i) xs), <- (firstn_skipn (N.to_nat i) bls) in C'.
  apply items_app in C'; [|exact Hlf]. destruct C' as (I1 & I2).
  rewrite nlen_firstn in I2 by lia.
  assert (Hsk : nlen (skipn (N.to_nat i) xs) = t_cnt t - i) by (rewrite A; unfold nlen; rewrite skipn_length; lia).
  split.
  - eapply items_move; [exact I1| |].
    + rewrite nlen_firstn by lia. exact C1.
    + intros b Hb. apply F1. rewrite cov_app. rewrite <- (firstn_skipn (N.to_nat i) bls), concat_app, cov_app. lia.
  - eapply items_move; [exact I2| |].
    + rewrite Hsk. intros j Hj. assert (Hm : (t_cnt t - i) * isz = t_cnt t * isz - i * isz) by (rewrite N.mul_sub_distr_r; reflexivity).
      assert (i * isz <= t_cnt t * isz) by (apply N.mul_le_mono_r; assumption).
      replace (no + (i + 1) * isz + j) with (no + isz + (i * isz + j)) by lia. rewrite C2 by lia. f_equal. lia.
    + intros b Hb. apply F1. rewrite cov_app. rewrite <- (firstn_skipn (N.to_nat i) bls), concat_app, cov_app. lia.
Qed.

Lemma concat_insert_cov : forall b i (bls : list (list block)) bl,
  cov b (concat (firstn i bls ++ bl :: skipn i bls)) = (cov b bl + cov b (concat bls))%nat.
Proof.
  intros. rewrite concat_app. cbn [concat]. rewrite !cov_app. rewrite <- (firstn_skipn i bls) at 3. rewrite concat_app, cov_app. lia.
Qed.

(** Filling of the allocated item. *)
Lemma tab_fill : forall m m' hs live no n i xs bls x bl,
  well m hs ((no, shm_size ((n + 1) * isz)) :: bl ++ concat bls ++ live) ->
  nlen xs = n -> length bls = length xs -> i <= n -> no <> 0 ->
  items m no (firstn (N.to_nat i) xs) (firstn (N.to_nat i) bls) ->
  items m (no + (i + 1) * isz) (skipn (N.to_nat i) xs) (skipn (N.to_nat i) bls) ->
  msize m' = msize m ->
  (forall b, (b < no + i * isz \/ no + (i + 1) * isz <= b) -> cov b bl = 0%nat -> mb m' b = mb m b) ->
  R m' (no + i * isz) x bl ->
  well m' hs (tblocks (mktbl no (n + 1)) (firstn (N.to_nat i) bls ++ bl :: skipn (N.to_nat i) bls) ++ live) /\
  tabrep m' (mktbl no (n + 1)) (firstn (N.to_nat i) xs ++ x :: skipn (N.to_nat i) xs)
    (firstn (N.to_nat i) bls ++ bl :: skipn (N.to_nat i) bls) /\
  (forall b, (1 <= cov b (concat bls ++ live))%nat -> mb m' b = mb m b).
Proof.
  intros m m' hs live no n i xs bls x bl W Hn Hl Hi Hno I1 I2 Z F HR.
  assert (Hcn : (i + 1) * isz <= (n + 1) * isz) by (apply N.mul_le_mono_r; lia).
  assert (Hcn1 : (n + 1) * isz = n * isz + isz) by lia.
  assert (Hci : (i + 1) * isz = i * isz + isz) by lia.
  pose proof (shm_size_ge ((n + 1) * isz)) as Hge. set (S := shm_size ((n + 1) * isz)) in *.
  assert (Harr : forall b, no <= b -> b < no + S -> cov b bl = 0%nat /\ cov b (concat bls ++ live) = 0%nat).
  { intros b B1 B2. assert (K : (1 <= cov b [(no, S)])%nat).
    { cbn [cov]. replace (inb b (no, S)) with true by (symmetry; apply inb_true; lia). lia. }
    pose proof (well_disj m hs [(no, S)] (bl ++ concat bls ++ live) b W K) as D. rewrite cov_app in D. lia. }
  assert (Hrest : forall b, (1 <= cov b (concat bls ++ live))%nat -> mb m' b = mb m b).
  { intros b Hb. apply F.
    - destruct (N.lt_ge_cases b (no + i * isz)) as [L|L]; [left; assumption|]. destruct (N.le_gt_cases (no + (i + 1) * isz) b) as [L'|L']; [right; assumption|].
      destruct (Harr b ltac:(lia) ltac:(lia)). lia.
    - assert (W' : well m hs ((concat bls ++ live) ++ (no, S) :: bl)).
      { eapply well_live_eq; [exact W| |].
        - intros b'. cbn [cov]. rewrite !cov_app. cbn [cov]. lia.
        - pose proof (w_live _ _ _ W) as G. inversion G as [|? ? G1 G2]; subst. apply Forall_app in G2. destruct G2.
          apply Forall_app. split; [assumption|]. constructor; assumption. }
      pose proof (well_disj _ _ _ _ b W' Hb) as D. cbn [cov] in D. lia. }
  split; [|split; [|exact Hrest]].
  - assert (W1 : well m' hs ((no, S) :: bl ++ concat bls ++ live)).
    { eapply well_write; [exact W|exact Z|]. intros b Hb. cbn [cov] in Hb. rewrite cov_app in Hb. apply F; [|lia].
      destruct (N.lt_ge_cases b (no + i * isz)) as [L|L]; [left; assumption|]. destruct (N.le_gt_cases (no + (i + 1) * isz) b) as [L'|L']; [right; assumption|].
      replace (inb b (no, S)) with true in Hb by (symmetry; apply inb_true; lia). lia. }
    eapply well_live_eq; [exact W1| |].
    + intros b. unfold tblocks. cbn [t_off t_cnt]. fold S. cbn [cov]. rewrite !cov_app, concat_insert_cov, cov_blk. cbn [cov]. lia.
    + pose proof (w_live _ _ _ W1) as G. inversion G as [|? ? G1 G2]; subst. apply Forall_app in G2. destruct G2 as (G2 & G3). apply Forall_app in G3. destruct G3 as (G3 & G4).
      unfold tblocks. cbn [t_off t_cnt]. fold S. apply Forall_app. split; [|exact G4]. apply Forall_app. split.
      * unfold blk. destruct (S =? 0); constructor; [exact G1|constructor].
      * rewrite <- (firstn_skipn (N.to_nat i) bls) in G3. rewrite concat_app in G3. apply Forall_app in G3. destruct G3.
        rewrite concat_app. cbn [concat]. apply Forall_app. split; [assumption|]. apply Forall_app. split; assumption.
  - constructor; cbn [t_off t_cnt].
    + unfold nlen in *. rewrite app_length. cbn [length]. rewrite firstn_length, skipn_length. lia.
    + split; intros; lia.
    + assert (Hlf : length (firstn (N.to_nat i) bls) = length (firstn (N.to_nat i) xs)) by (rewrite !firstn_length; lia).
      apply items_app; [exact Hlf|]. rewrite nlen_firstn by lia. split.
      * eapply items_move; [exact I1| |].
        -- rewrite nlen_firstn by lia. intros j Hj. apply F; [left; lia|]. apply Harr; lia.
        -- intros b Hb. apply Hrest. rewrite cov_app. rewrite <- (firstn_skipn (N.to_nat i) bls), concat_app, cov_app. lia.
      * cbn [items]. split; [exact HR|]. replace (no + i * isz + isz) with (no + (i + 1) * isz) by lia.
        eapply items_move; [exact I2| |].
        -- assert (Hsk : nlen (skipn (N.to_nat i) xs) = n - i) by (unfold nlen in *; rewrite skipn_length; lia).
           rewrite Hsk. intros j Hj. assert (Hm : (n - i) * isz = n * isz - i * isz) by (rewrite N.mul_sub_distr_r; reflexivity).
           assert (i * isz <= n * isz) by (apply N.mul_le_mono_r; assumption).
           apply F; [right; lia|]. apply Harr; lia.
        -- intros b Hb. apply Hrest. rewrite cov_app. rewrite <- (firstn_skipn (N.to_nat i) bls), concat_app, cov_app. lia.
Qed.

(** The item with an index. *)
Lemma items_nth : forall xs m a bls i x bl, items m a xs bls ->
  nth_error xs i = Some x -> nth_error bls i = Some bl -> R m (a + N.of_nat i * isz) x bl.
Proof.
  induction xs as [|x0 r IH]; intros m a [|bl0 br] i x bl H Hx Hb; cbn [items] in H; try tauto; destruct i; cbn [nth_error] in *; try discriminate.
  - injection Hx as <-. injection Hb as <-. replace (a + N.of_nat 0 * isz) with a by lia. tauto.
  - destruct H as (_ & H). specialize (IH m (a + isz) br i x bl H Hx Hb).
    replace (a + N.of_nat (S i) * isz) with (a + isz + N.of_nat i * isz) by lia. exact IH.
Qed.

(** Deletion of an item which owns one block (or none). *)
Lemma tab_delete : forall m hs live t xs1 x xs2 bls1 bls2 dsz doff,
  well m hs (tblocks t (bls1 ++ blk doff dsz :: bls2) ++ live) ->
  tabrep m t (xs1 ++ x :: xs2) (bls1 ++ blk doff dsz :: bls2) -> length bls1 = length xs1 ->
  dsz mod 8 = 0 -> (dsz = 0 <-> doff = 0) ->
  exists m' hs' t', shmrealloc_del m (t_off t) (t_cnt t) isz (nlen xs1) dsz doff = Some (m', t_off t', t_cnt t') /\
    t_cnt t' = t_cnt t - 1 /\
    well m' hs' (tblocks t' (bls1 ++ bls2) ++ live) /\ tabrep m' t' (xs1 ++ xs2) (bls1 ++ bls2) /\
    msize m' = msize m /\
    (forall b, (1 <= cov b (concat (bls1 ++ bls2) ++ live))%nat -> mb m' b = mb m b).
Proof.
  intros m hs live t xs1 x xs2 bls1 bls2 dsz doff W [A B C] Hl1 Hd8 Hd0.
  pose proof (items_len _ _ _ _ C) as Hl. rewrite !app_length in Hl. cbn [length] in Hl.
  assert (Hlen : nlen (xs1 ++ x :: xs2) = nlen xs1 + 1 + nlen xs2) by (unfold nlen; rewrite app_length; cbn [length]; lia).
  rewrite Hlen in A.
  assert (Hc0 : t_cnt t <> 0) by lia. assert (Ho0 : t_off t <> 0) by tauto.
  assert (Hcur0 : shm_size (t_cnt t * isz) <> 0) by (apply arr_nz; assumption).
  apply items_app in C; [|lia]. destruct C as (I1 & I2). cbn [items] in I2. destruct I2 as (IR & I2).
  assert (W1 : well m hs ((t_off t, shm_size (t_cnt t * isz)) :: blk doff dsz ++ concat (bls1 ++ bls2) ++ live)).
  { eapply well_live_eq; [exact W| |].
    - intros b. unfold tblocks. cbn [cov]. rewrite !concat_app. cbn [concat]. rewrite !cov_app, !cov_blk. cbn [cov]. lia.
    - pose proof (w_live _ _ _ W) as G. unfold tblocks in G. rewrite blk_nz in G by assumption. cbn [app] in G.
      inversion G as [|? ? G1 G2]; subst. apply Forall_app in G2. destruct G2 as (G2 & G3). rewrite concat_app in G2. cbn [concat] in G2.
      apply Forall_app in G2. destruct G2 as (G2 & G4). apply Forall_app in G4. destruct G4 as (G4 & G5).
      constructor; [exact G1|]. apply Forall_app. split; [exact G4|]. apply Forall_app. split; [|exact G3]. rewrite concat_app. apply Forall_app. split; assumption. }
  destruct (shmrealloc_del_spec m hs (concat (bls1 ++ bls2) ++ live) (t_off t) (t_cnt t) isz (nlen xs1) dsz doff W1 Hc0 isz0 ltac:(lia) Hd8 Hd0)
    as (m' & hs' & E1 & W2 & Z1 & F1 & C1 & C2).
  exists m', hs', (mktbl (if t_cnt t =? 1 then 0 else t_off t) (t_cnt t - 1)). cbn [t_off t_cnt].
  split; [exact E1|]. split; [reflexivity|].
  assert (Hn2 : t_cnt t - 1 = nlen xs1 + nlen xs2) by lia.
  assert (Hx : nlen xs1 * isz + nlen xs2 * isz = (t_cnt t - 1) * isz) by (rewrite Hn2; lia).
  split; [|split; [|split; [exact Z1|exact F1]]].
  - unfold tblocks. cbn [t_off t_cnt]. destruct (N.eqb_spec (t_cnt t) 1) as [Q|Q].
    + rewrite Q in *. change (1 - 1) with 0 in *. rewrite N.mul_0_l in *. change (shm_size 0) with 0 in *. exact W2.
    + rewrite <- app_assoc. exact W2.
  - constructor; cbn [t_off t_cnt].
    + unfold nlen in *. rewrite app_length. lia.
    + destruct (N.eqb_spec (t_cnt t) 1); split; intros; lia.
    + assert (Hbl : forall b, (1 <= cov b (concat bls1))%nat -> mb m' b = mb m b).
      { intros b Hb. apply F1. rewrite cov_app, concat_app, cov_app. lia. }
      assert (Hbl2 : forall b, (1 <= cov b (concat bls2))%nat -> mb m' b = mb m b).
      { intros b Hb. apply F1. rewrite cov_app, concat_app, cov_app. lia. }
      destruct (N.eqb_spec (t_cnt t) 1) as [Q|Q].
      * assert (E : xs1 = [] /\ xs2 = []).
        { destruct xs1; destruct xs2; try tauto; unfold nlen in *; cbn [length] in *; lia. }
        destruct E as (-> & ->). destruct bls1; [|discriminate]. destruct bls2; [|cbn [length] in Hl; lia]. exact I.
      * apply items_app; [exact Hl1|]. split.
        -- eapply items_move; [exact I1| |exact Hbl]. intros j Hj. apply C1; lia.
        -- eapply items_move; [exact I2| |exact Hbl2]. intros j Hj.
           replace (t_off t + nlen xs1 * isz + j) with (t_off t + (nlen xs1 * isz + j)) by lia.
           rewrite C2 by lia. f_equal. lia.
Qed.

(** Change of an item in place, its blocks included. *)
Lemma tab_update : forall m m' t xs1 x xs2 bls1 bl bls2 x' bl',
  tabrep m t (xs1 ++ x :: xs2) (bls1 ++ bl :: bls2) -> length bls1 = length xs1 ->
  (forall b, t_off t <= b -> b < t_off t + t_cnt t * isz ->
     (b < t_off t + nlen xs1 * isz \/ t_off t + (nlen xs1 + 1) * isz <= b) -> mb m' b = mb m b) ->
  (forall b, (1 <= cov b (concat (bls1 ++ bls2)))%nat -> mb m' b = mb m b) ->
  R m' (t_off t + nlen xs1 * isz) x' bl' ->
  tabrep m' t (xs1 ++ x' :: xs2) (bls1 ++ bl' :: bls2).
Proof.
  intros m m' t xs1 x xs2 bls1 bl bls2 x' bl' [A B C] Hl F1 F2 HR.
  assert (Hlen : nlen (xs1 ++ x :: xs2) = nlen xs1 + 1 + nlen xs2) by (unfold nlen; rewrite app_length; cbn [length]; lia).
  rewrite Hlen in A.
  assert (Hx : nlen xs1 * isz + isz + nlen xs2 * isz = t_cnt t * isz) by (rewrite A; lia).
  apply items_app in C; [|exact Hl]. destruct C as (I1 & I2). cbn [items] in I2. destruct I2 as (IR & I2).
  constructor; [unfold nlen in *; rewrite app_length; cbn [length]; lia|exact B|].
  apply items_app; [exact Hl|]. split.
  - eapply items_move; [exact I1| |].
    + intros j Hj. apply F1; [lia|lia|left; lia].
    + intros b Hb. apply F2. rewrite concat_app, cov_app. lia.
  - cbn [items]. split; [exact HR|]. eapply items_move; [exact I2| |].
    + intros j Hj. apply F1; [lia|lia|right; lia].
    + intros b Hb. apply F2. rewrite concat_app, cov_app. lia.
Qed.

End Tab.
