(** The invariant [inv] is kept by every step. *)
From Coq Require Import List NArith Lia Bool Arith.
From Verif Require Import RwLock RwLockTable RwLockProofs.
Import ListNotations.
Open Scope N_scope.

Local Opaque recover.

Definition wcond (s : sys) (t : nat) (x y : thread) (r' : rwlock) : Prop :=
  (mfree (mtx s) = true /\ urged_pc (pc y) = urged_pc (pc x) /\
     cleared (aliveb s) (writer (rw s)) (writer r')) \/
  (mfree (mtx s) = true /\ urged_pc (pc y) = true /\ urged_pc (pc x) = false /\
     cleared (aliveb s) (writer (rw s)) 0 /\ writer r' = tcid x) \/
  (urged_pc (pc y) = false /\ writer r' = 0 /\
     (urged_pc (pc x) = true \/ mtx s = MOwn t \/ cleared (aliveb s) (writer (rw s)) 0)).

Lemma urged_live : forall s l t x, inv s l -> nth_error (thr s) t = Some x -> urged_pc (pc x) = true ->
  aliveb s (tcid x) = true.
Proof.
  intros s l t x H Hx Hu. destruct (aliveb s (tcid x)) eqn:E; [reflexivity|].
  destruct (i_dead _ _ H t x Hx E) as [_ K]. rewrite K in Hu. discriminate.
Qed.

Lemma urged_writer : forall s l t x w, inv s l -> nth_error (thr s) t = Some x -> urged_pc (pc x) = true ->
  cleared (aliveb s) (writer (rw s)) w -> w = tcid x.
Proof.
  intros s l t x w H Hx Hu Hc. destruct (i_urged _ _ H t x Hx Hu) as [Ew _].
  destruct Hc as [->|[_ Hd]]; [assumption|].
  rewrite Ew, (urged_live s l t x H Hx Hu) in Hd. discriminate.
Qed.

Lemma inv_upd : forall s l t x y l' r' m' ov u,
  inv s l -> nth_error (thr s) t = Some x -> aliveb s (tcid x) = true ->
  (mfree (mtx s) = true \/ mtx s = MOwn t) ->
  rep l' r' -> tcid y = tcid x ->
  cnt l' (tcid x) + nreads (held x) = cnt l (tcid x) + nreads (held y) ->
  (forall c, aliveb s c = true -> c <> tcid x -> cnt l' c = cnt l c) ->
  (forall a b, pc y = UpgrWait a b -> In HUpgr (held y)) ->
  (mfree m' = true /\ ~ In HWrite (held y) /\ wcond s t x y r') \/
  (m' = MOwn t /\ held y = [HWrite] /\ pc y = Idle /\ l' = [] /\ writer r' = tcid x /\
     (cleared (aliveb s) (writer (rw s)) 0 \/ urged_pc (pc x) = true)) ->
  inv (mksys r' m' (upd (thr s) t y) (dead s) ov u) l'.
Proof.
  intros s l t x y l' r' m' ov u H Hx Ha Hm Hr Ey Hcx Hco Hup Hcase.
  assert (AL : forall c, aliveb (mksys r' m' (upd (thr s) t y) (dead s) ov u) c = aliveb s c) by reflexivity.
  (* the other threads do not hold the write lock *)
  assert (NW : forall t' x', nth_error (thr s) t' = Some x' -> t' <> t -> ~ In HWrite (held x')).
  { intros t' x' Hx' Hne Hin. pose proof (i_write _ _ H t' x' Hx' Hin) as E.
    destruct Hm as [Hm|Hm]; rewrite E in Hm; [discriminate|congruence]. }
  constructor; cbn [rw mtx thr].
  - assumption.
  - intros c Hc Hc0. rewrite AL in Hc. pose proof (reads_upd c (thr s) t x y Hx) as R.
    rewrite Ey in R. pose proof (i_cnt _ _ H c Hc Hc0) as K.
    destruct (N.eqb_spec (tcid x) c) as [E|E].
    + subst c. lia.
    + rewrite Hco by congruence. lia.
  - intros t' x' Hx' Hin. destruct (nth_upd _ _ _ _ _ _ Hx Hx') as [[-> ->]|[Hne Hx'']].
    + destruct Hcase as [(_ & Hn & _)|(-> & _)]; [contradiction|reflexivity].
    + exfalso. eapply NW; eassumption.
  - intros t' E. destruct Hcase as [(Hf & _)|(-> & Hh & Hp & Hl & Hw & _)].
    + rewrite E in Hf. discriminate.
    + assert (t' = t) by congruence. subst t'. split; [assumption|]. exists y.
      rewrite (nth_upd_eq _ _ x) by assumption. rewrite AL, Ey. repeat split; assumption.
  - intros t' x' Hx' Hd. rewrite AL in Hd. destruct (nth_upd _ _ _ _ _ _ Hx Hx') as [[-> ->]|[Hne Hx'']].
    + congruence.
    + apply (i_dead _ _ H t' x' Hx'' Hd).
  - intros t' x' Hx'. destruct (nth_upd _ _ _ _ _ _ Hx Hx') as [[-> ->]|[Hne Hx'']].
    + rewrite Ey. apply (i_cid _ _ H t x Hx).
    + apply (i_cid _ _ H t' x' Hx'').
  - intros t' x' a b Hx' E. destruct (nth_upd _ _ _ _ _ _ Hx Hx') as [[-> ->]|[Hne Hx'']].
    + eapply Hup; eassumption.
    + eapply (i_upgr _ _ H); eassumption.
  - (* writer *)
    intros Hw Hwa. rewrite AL in Hwa.
    destruct Hcase as [(Hf & Hn & Hc)|(-> & _)]; [|left; eauto]. right.
    destruct Hc as [(Hmf & Eu & Hc)|[(Hmf & Eu & _ & _ & Ew)|(_ & Ew & _)]].
    + destruct Hc as [E|[E _]]; [|congruence]. rewrite E in *.
      destruct (i_writer _ _ H Hw Hwa) as [[t0 E0]|(t0 & x0 & Hx0 & E0 & U0)]; [rewrite E0 in Hmf; discriminate|].
      destruct (Nat.eq_dec t0 t) as [->|Hne].
      * exists t, y. rewrite (nth_upd_eq _ _ x) by assumption.
        assert (x0 = x) by congruence. subst x0. rewrite Ey, Eu. auto.
      * exists t0, x0. rewrite nth_upd_neq by congruence. auto.
    + exists t, y. rewrite (nth_upd_eq _ _ x) by assumption. rewrite Ey. auto.
    + congruence.
  - (* urged *)
    intros t' x' Hx' Hu. destruct (nth_upd _ _ _ _ _ _ Hx Hx') as [[-> ->]|[Hne Hx'']].
    + destruct Hcase as [(Hf & Hn & Hc)|(_ & _ & Hp & _)]; [|rewrite Hp in Hu; discriminate].
      rewrite Ey. split; [|assumption].
      destruct Hc as [(Hmf & Eu & Hc)|[(Hmf & Eu & _ & _ & Ew)|(Eu & _)]]; [|assumption|congruence].
      rewrite Eu in Hu. eapply urged_writer; eassumption.
    + destruct (i_urged _ _ H t' x' Hx'' Hu) as [E1 E2].
      assert (K : cleared (aliveb s) (writer (rw s)) 0 -> False).
      { intros K. apply (urged_writer s l t' x' 0 H Hx'' Hu) in K.
        apply (i_cid _ _ H t' x' Hx''). congruence. }
      assert (K2 : urged_pc (pc x) = true -> False).
      { intros K2. apply Hne. eapply (i_urged1 _ _ H); eassumption. }
      destruct Hcase as [(Hf & Hn & Hc)|(_ & _ & _ & _ & _ & [Hc|Hc])]; [|tauto|tauto].
      split; [|assumption].
      destruct Hc as [(Hmf & Eu & Hc)|[(Hmf & Eu & _ & Hc & Ew)|(Eu & _ & [Hc|[Hc|Hc]])]]; try tauto.
      * eapply urged_writer; eassumption.
      * rewrite Hc in E2. discriminate.
  - (* uniqueness *)
    assert (One : forall t1 x1, nth_error (thr s) t1 = Some x1 -> t1 <> t -> urged_pc (pc x1) = true ->
                  urged_pc (pc y) = true -> False).
    { intros t1 x1 Hx1 Hne Hu1 Huy.
      destruct Hcase as [(Hf & Hn & Hc)|(_ & _ & Hp & _)]; [|rewrite Hp in Huy; discriminate].
      destruct Hc as [(Hmf & Eu & Hc)|[(Hmf & Eu & _ & Hc & Ew)|(Eu & _)]].
      - apply Hne. eapply (i_urged1 _ _ H); [eassumption|eassumption|eassumption|congruence].
      - apply (urged_writer s l t1 x1 0 H Hx1 Hu1) in Hc. apply (i_cid _ _ H t1 x1 Hx1). congruence.
      - congruence. }
    intros t1 x1 t2 x2 H1 U1 H2 U2.
    destruct (nth_upd _ _ _ _ _ _ Hx H1) as [[-> ->]|[Hne1 Hx1]];
    destruct (nth_upd _ _ _ _ _ _ Hx H2) as [[-> ->]|[Hne2 Hx2]].
    + reflexivity.
    + exfalso. eapply One; eassumption.
    + exfalso. eapply One; eassumption.
    + eapply (i_urged1 _ _ H); eassumption.
Qed.

Lemma no_write_free : forall s l t x, inv s l -> nth_error (thr s) t = Some x -> mfree (mtx s) = true ->
  ~ In HWrite (held x).
Proof.
  intros s l t x H Hx Hm Hin. rewrite (i_write _ _ H t x Hx Hin) in Hm. discriminate.
Qed.

Lemma cnt_ge : forall s l t x, inv s l -> nth_error (thr s) t = Some x -> aliveb s (tcid x) = true ->
  nreads (held x) <= cnt l (tcid x).
Proof.
  intros s l t x H Hx Ha. rewrite (i_cnt _ _ H _ Ha (i_cid _ _ H t x Hx)).
  apply (reads_in _ _ _ _ Hx eq_refl).
Qed.

Lemma cleared_0 : forall alive w w1, cleared alive w w1 -> w1 = 0 -> cleared alive w 0.
Proof. intros. subst. assumption. Qed.

(** Locking. *)
Lemma inv_lock : forall s l t x m u l1 r1 g,
  inv s l -> nth_error (thr s) t = Some x -> aliveb s (tcid x) = true -> mfree (mtx s) = true ->
  urged_pc (pc x) = (match m with MUrge => u | _ => false end) ->
  recd (aliveb s) l (rw s) l1 r1 -> lock_post l1 r1 m (tcid x) u g ->
  exists l', inv (after_lock s t x m g) l'.
Proof.
  intros s l t x m u l1 r1 g H Hx Ha Hm Hpc R P.
  pose proof (no_write_free s l t x H Hx Hm) as NW.
  pose proof (rc_writer _ _ _ _ _ R) as RW.
  assert (CX : cnt l1 (tcid x) = cnt l (tcid x)) by (apply (rc_cnt _ _ _ _ _ R); assumption).
  assert (CO : forall c, aliveb s c = true -> c <> tcid x -> cnt l1 c = cnt l c)
    by (intros; apply (rc_cnt _ _ _ _ _ R); assumption).
  pose proof (cnt_ge s l t x H Hx Ha) as GE.
  destruct g as [r'|r' u'|r' full]; cbn [after_lock].
  - (* Done *)
    destruct m; cbn [lock_post] in P; cbn [is_write hold_of].
    + destruct P as ((l' & P1 & P2 & P3 & _) & W1 & W2 & _). exists l'.
      eapply inv_upd; try eassumption; cbn [tcid held pc]; auto.
      * rewrite nreads_cons. cbn [nread1]. lia.
      * intros. rewrite P3 by assumption. auto.
      * discriminate.
      * left. split; [reflexivity|]. split; [intros [E|E]; [discriminate|contradiction]|].
        right. right. repeat split; auto. right. right. eapply cleared_0; eassumption.
    + destruct P as ((l' & P1 & P2 & P3 & _) & W1 & W2 & _). exists l'.
      eapply inv_upd; try eassumption; cbn [tcid held pc]; auto.
      * rewrite nreads_cons. cbn [nread1]. lia.
      * intros. rewrite P3 by assumption. auto.
      * discriminate.
      * left. split; [reflexivity|]. split; [intros [E|E]; [discriminate|contradiction]|].
        right. right. repeat split; auto. right. right. eapply cleared_0; eassumption.
    + destruct P as (-> & P1 & W1 & W2 & _). exists [].
      cbn [cnt] in CX. rewrite <- CX in GE.
      assert (HN : held x = []) by (apply nreads0_nil; [lia|assumption]).
      eapply inv_upd; try eassumption; cbn [tcid held pc]; auto.
      * rewrite nreads_cons. cbn [nread1 cnt]. lia.
      * discriminate.
      * right. rewrite HN. repeat split; auto. left. eapply cleared_0; eassumption.
    + destruct P as (-> & P1 & W1 & _). exists [].
      cbn [cnt] in CX. rewrite <- CX in GE.
      assert (HN : held x = []) by (apply nreads0_nil; [lia|assumption]).
      eapply inv_upd; try eassumption; cbn [tcid held pc]; auto.
      * rewrite nreads_cons. cbn [nread1 cnt]. lia.
      * discriminate.
      * right. rewrite HN. repeat split; auto.
        -- destruct W1 as [(_ & _ & W)|(-> & W)]; [assumption|]. rewrite W.
           eapply urged_writer; eassumption.
        -- destruct W1 as [(_ & W & _)|(-> & W)]; [left; eapply cleared_0; eassumption|right; assumption].
  - (* Wait *)
    cbn [lock_post] in P. destruct P as (P1 & _ & _ & P2 & P3). exists l1.
    eapply inv_upd; try eassumption; cbn [tcid held pc]; auto; [lia|discriminate|].
    left. split; [reflexivity|]. split; [assumption|].
    destruct P2 as [[-> E]|(-> & -> & E1 & E2)].
    + left. split; [assumption|]. cbn [pc]. split.
      * rewrite Hpc. destruct m; cbn; destruct u; reflexivity.
      * rewrite E. assumption.
    + cbn [pc urged_pc]. destruct u.
      * (* already urged: the writer would be this thread *)
        exfalso. pose proof (urged_writer s l t x _ H Hx Hpc RW) as K.
        apply (i_cid _ _ H t x Hx). congruence.
      * right. left. cbn [pc urged_pc]. repeat split; auto. eapply cleared_0; eassumption.
  - (* Fail *)
    cbn [lock_post] in P. destruct P as (P1 & _ & P2 & P2' & P3). exists l1.
    eapply inv_upd; try eassumption; cbn [tcid held pc]; auto; [lia|discriminate|].
    left. split; [reflexivity|]. split; [assumption|].
    destruct full.
    + destruct (P3 eq_refl) as (E1 & E2 & _). left. split; [assumption|]. cbn [pc urged_pc]. split.
      * rewrite Hpc. destruct m; try discriminate; reflexivity.
      * rewrite E2. assumption.
    + destruct (P2 eq_refl) as [_ E]. destruct (urged_pc (pc x)) eqn:Eu.
      * right. right. cbn [pc urged_pc]. destruct m; try discriminate. subst u.
        repeat split; auto.
      * left. split; [assumption|]. cbn [pc urged_pc]. split; [congruence|].
        destruct E as [E|(-> & -> & E)]; [rewrite E; assumption|congruence].
Qed.

Lemma recd_flags : forall alive l r r' l1 r1, writer r' = writer r -> rep l r ->
  recd alive l r' l1 r1 -> cleared alive (writer r) (writer r1).
Proof. intros. rewrite <- H. apply (rc_writer _ _ _ _ _ H1). Qed.

(** Upgrading. *)
Lemma inv_upgrade : forall s l t x urge u l1 r1 g,
  inv s l -> nth_error (thr s) t = Some x -> aliveb s (tcid x) = true -> mfree (mtx s) = true ->
  urged_pc (pc x) = urge && u -> In HUpgr (held x) ->
  (forall c, aliveb s c = true -> cnt l1 c = cnt l c) ->
  cleared (aliveb s) (writer (rw s)) (writer r1) ->
  upgrade_post l1 r1 urge (tcid x) u g ->
  exists l', inv (after_upgrade s t x urge g) l'.
Proof.
  intros s l t x urge u l1 r1 g H Hx Ha Hm Hpc Hup RC RW P.
  pose proof (no_write_free s l t x H Hx Hm) as NW.
  assert (CX : cnt l1 (tcid x) = cnt l (tcid x)) by (apply RC; assumption).
  pose proof (cnt_ge s l t x H Hx Ha) as GE.
  destruct g as [r'|r' u'|r' full]; cbn [after_upgrade]; cbn [upgrade_post] in P.
  - destruct P as (-> & P1 & W1 & _). exists [].
    cbn [cnt] in CX. rewrite N.eqb_refl in CX. rewrite <- CX in GE.
    pose proof (nreads_drop1 HUpgr (held x) Hup) as D. cbn [nread1] in D.
    assert (HN : drop1 HUpgr (held x) = []).
    { apply nreads0_nil; [lia|]. intro K. apply NW. eapply in_drop1. eassumption. }
    eapply inv_upd; try eassumption; cbn [tcid held pc]; auto.
    + rewrite nreads_cons. cbn [nread1 cnt]. lia.
    + intros c Hc Hne. rewrite <- RC by assumption. cbn [cnt].
      destruct (N.eqb_spec (tcid x) c); [congruence|reflexivity].
    + discriminate.
    + right. rewrite HN. repeat split; auto.
      * destruct W1 as [(_ & W & _)|(-> & -> & W)]; [assumption|]. rewrite W.
        eapply urged_writer; eassumption.
      * destruct W1 as [(W & _)|(-> & -> & W)]; [left; eapply cleared_0; eassumption|right; assumption].
  - destruct P as (P1 & _ & _ & P2 & P3 & P4). exists l1.
    eapply inv_upd; try eassumption; cbn [tcid held pc]; auto; [lia|].
    left. split; [reflexivity|]. split; [assumption|].
    destruct P2 as [[-> E]|(-> & -> & E1 & E2)].
    + left. split; [assumption|]. cbn [pc]. split.
      * rewrite Hpc. destruct urge, u; reflexivity.
      * rewrite E. assumption.
    + cbn [pc urged_pc]. destruct u.
      * exfalso. pose proof (urged_writer s l t x _ H Hx Hpc RW) as K.
        apply (i_cid _ _ H t x Hx). congruence.
      * right. left. cbn [pc urged_pc]. repeat split; auto. eapply cleared_0; eassumption.
  - destruct P as (P1 & _ & _ & _ & P2). exists l1.
    eapply inv_upd; try eassumption; cbn [tcid held pc]; auto; [lia|].
    left. split; [reflexivity|]. split; [assumption|].
    rewrite <- Hpc in P2. destruct (urged_pc (pc x)) eqn:Eu.
    + right. right. cbn [pc urged_pc]. auto.
    + left. split; [assumption|]. cbn [pc urged_pc]. split; [congruence|]. rewrite P2. assumption.
Qed.

(** Crashing. *)
Lemma aliveb_cons : forall r m th c d o u s c', dead s = d ->
  aliveb (mksys r m th (c :: d) o u) c' = negb (c' =? c) && aliveb s c'.
Proof.
  intros. subst d. unfold aliveb, is_dead. cbn [dead existsb]. rewrite negb_orb. reflexivity.
Qed.

Lemma inv_crash : forall s l l' r' c ov u m',
  inv s l -> rep l' r' ->
  (forall c', aliveb s c' = true -> c' <> c -> cnt l' c' = cnt l c') ->
  (writer r' = writer (rw s) \/ writer r' = 0 \/ writer r' = c) ->
  ((exists t x, nth_error (thr s) t = Some x /\ urged_pc (pc x) = true /\ tcid x <> c) ->
     writer r' = writer (rw s)) ->
  ((exists t x, mtx s = MOwn t /\ nth_error (thr s) t = Some x /\ tcid x <> c) -> l' = l /\ writer r' = writer (rw s)) ->
  (m' = kill_mutex c (thr s) (mtx s) \/
    (m' = MDead /\ forall t x, mtx s = MOwn t -> nth_error (thr s) t = Some x -> tcid x = c)) ->
  inv (mksys r' m' (map (kill_thread c) (thr s)) (c :: dead s) ov u) l'.
Proof.
  intros s l l' r' c ov u m' H Hr Hcnt Hw Hwu Hwo Hm.
  assert (AL : forall c', aliveb (mksys r' m' (map (kill_thread c) (thr s)) (c :: dead s) ov u) c' =
               negb (c' =? c) && aliveb s c') by (intros; apply aliveb_cons; reflexivity).
  assert (KT : forall t y, nth_error (map (kill_thread c) (thr s)) t = Some y ->
     exists x, nth_error (thr s) t = Some x /\ tcid y = tcid x /\
       ((tcid x = c /\ held y = [] /\ pc y = Idle) \/ (tcid x <> c /\ y = x))).
  { intros t y Hy. destruct (kill_nth _ _ _ _ Hy) as (x & Hx & ->). exists x.
    split; [assumption|]. split; [apply kill_tcid|]. unfold kill_thread.
    destruct (N.eqb_spec (tcid x) c); [left|right]; auto. }
  assert (OW : forall t x, mtx s = MOwn t -> nth_error (thr s) t = Some x -> tcid x <> c -> m' = MOwn t).
  { intros t x E Hx Hne. destruct Hm as [->|[_ K]]; [|exfalso; eauto].
    rewrite E. cbn [kill_mutex]. rewrite Hx. destruct (N.eqb_spec (tcid x) c); congruence. }
  assert (OW2 : forall t, m' = MOwn t -> mtx s = MOwn t /\ forall x, nth_error (thr s) t = Some x -> tcid x <> c).
  { intros t E. destruct Hm as [->|[-> _]]; [|discriminate]. unfold kill_mutex in E.
    destruct (mtx s) as [|t0|]; try discriminate. destruct (nth_error (thr s) t0) as [x|] eqn:Ex.
    - destruct (N.eqb_spec (tcid x) c); [discriminate|]. inversion E. subst t0. split; [reflexivity|].
      intros x0 Hx0. congruence.
    - inversion E. subst t0. split; [reflexivity|]. intros; congruence. }
  assert (MF : mfree (mtx s) = true -> mfree m' = true).
  { intros E. destruct Hm as [->|[-> _]]; [|reflexivity]. destruct (mtx s); try discriminate; reflexivity. }
  constructor; cbn [rw mtx thr].
  - assumption.
  - intros c' Hc' H0. rewrite AL in Hc'. apply andb_true_iff in Hc'. destruct Hc' as [Hne Hc'].
    destruct (N.eqb_spec c' c); [discriminate|].
    rewrite Hcnt by assumption. rewrite reads_kill by assumption. apply (i_cnt _ _ H); assumption.
  - intros t y Hy Hin. destruct (KT t y Hy) as (x & Hx & _ & [(_ & E & _)|(Hne & ->)]).
    + rewrite E in Hin. destruct Hin.
    + eapply OW; eauto. eapply (i_write _ _ H); eassumption.
  - intros t E. destruct (OW2 t E) as [E1 E2].
    destruct (i_own _ _ H t E1) as (-> & x & Hx & Hh & Hp & Ha & Ew).
    pose proof (E2 x Hx) as Hne.
    destruct Hwo as [-> Ew']; [eauto 6|].
    split; [reflexivity|]. exists x. rewrite nth_error_map, Hx. cbn [option_map].
    unfold kill_thread. destruct (N.eqb_spec (tcid x) c); [congruence|].
    rewrite AL. destruct (N.eqb_spec (tcid x) c); [congruence|]. cbn [negb andb].
    repeat split; try assumption; congruence.
  - intros t y Hy Hd. destruct (KT t y Hy) as (x & Hx & Ec & [(_ & E1 & E2)|(Hne & ->)]); [auto|].
    rewrite AL in Hd. destruct (N.eqb_spec (tcid x) c); [congruence|]. cbn [negb andb] in Hd.
    apply (i_dead _ _ H t x Hx Hd).
  - intros t y Hy. destruct (KT t y Hy) as (x & Hx & -> & _). apply (i_cid _ _ H t x Hx).
  - intros t y a b Hy E. destruct (KT t y Hy) as (x & Hx & _ & [(_ & _ & E')|(_ & ->)]); [congruence|].
    eapply (i_upgr _ _ H); eassumption.
  - intros Hn Hal. rewrite AL in Hal. apply andb_true_iff in Hal. destruct Hal as [Hne Hal].
    destruct (N.eqb_spec (writer r') c); [discriminate|].
    destruct Hw as [E|[E|E]]; [|congruence|congruence]. rewrite E in *.
    destruct (i_writer _ _ H Hn Hal) as [[t Et]|(t & x & Hx & Ec & Eu)].
    + left. exists t. destruct (i_own _ _ H t Et) as (_ & x & Hx & _ & _ & _ & Ew).
      eapply OW; [eassumption|eassumption|congruence].
    + right. exists t, x. rewrite nth_error_map, Hx. cbn [option_map]. unfold kill_thread.
      destruct (N.eqb_spec (tcid x) c); [congruence|]. auto.
  - intros t y Hy Hu. destruct (KT t y Hy) as (x & Hx & _ & [(_ & _ & E')|(Hne & ->)]);
      [rewrite E' in Hu; discriminate|].
    destruct (i_urged _ _ H t x Hx Hu) as [Ew Ef].
    split; [|auto]. rewrite Hwu by eauto 6. assumption.
  - intros t y t2 y2 Hy Hu Hy2 Hu2.
    destruct (KT t y Hy) as (x & Hx & _ & [(_ & _ & E')|(Hne & ->)]); [rewrite E' in Hu; discriminate|].
    destruct (KT t2 y2 Hy2) as (x2 & Hx2 & _ & [(_ & _ & E')|(Hne2 & ->)]); [rewrite E' in Hu2; discriminate|].
    eapply (i_urged1 _ _ H); eassumption.
Qed.

Definition live_kept (alive : N -> bool) (c w w' : N) : Prop :=
  (w' = w \/ w' = 0 \/ w' = c) /\ (w <> 0 -> w <> c -> alive w = true -> w' = w).

Lemma prim_rep : forall alive c l r r', c <> 0 -> rep l r -> prim alive c r r' ->
  exists l', rep l' r' /\ (forall c', alive c' = true -> c' <> c -> cnt l' c' = cnt l c') /\
    live_kept alive c (writer r) (writer r') /\ live_kept alive c (upgr r) (upgr r').
Proof.
  intros alive c l r r' Hc H P. unfold live_kept.
  inversion P; subst; clear P; cbn [set_writer set_upgr assert_ writer upgr].
  - assert (Hi : (i < length l)%nat) by (apply (get_readers_nz l r i H); assumption).
    destruct (split_nth _ l i Hi) as (a & [c0 n] & b & -> & <-).
    destruct (reader_del__rep a c0 n b r H) as [HR (F1 & F2 & F3)].
    rewrite (get_readers_rep a c0 n b r H) in *.
    exists (del_at a c0 n b). split; [assumption|].
    pose proof (rep_ok _ _ H) as HF. apply Forall_app in HF. destruct HF as [_ HF2].
    inversion HF2 as [|? ? [Hz Hr] HF3]; subst. cbn [fst snd] in *.
    destruct (del_at_cnt a c0 n b (rep_nodup _ _ H)) as (_ & D & _); [lia|].
    rewrite F1, F2. repeat split; auto.
    intros c' Ha Hne. apply D. congruence.
  - exists l. repeat split; auto with rwl; try congruence; apply H.
  - exists l. repeat split; auto with rwl; try congruence; apply H.
  - exists l. repeat split; auto with rwl; try congruence; apply H.
  - exists l. repeat split; auto with rwl; try congruence; apply H.
  - exists l. repeat split; auto with rwl; try congruence; apply H.
  - exists l. repeat split; auto with rwl; try congruence; apply H.
  - pose proof (reader_add_rep l r c H Hc) as A. rewrite H0 in A.
    destruct A as ((F1 & F2 & F3) & l' & A1 & A2 & A3 & A4). exists l'. rewrite F1, F2.
    repeat split; auto; apply A1.
  - pose proof (reader_del_rep l r c H Hc) as A. rewrite H0 in A.
    destruct A as ((F1 & F2 & F3) & _ & l' & A1 & A2 & A3 & A4). exists l'. rewrite F1, F2.
    repeat split; auto; apply A1.
  - exists l. repeat split; auto with rwl; try congruence; apply H.
Qed.

Lemma live_kept_trans : forall alive c a b d, live_kept alive c a b -> live_kept alive c b d -> live_kept alive c a d.
Proof.
  unfold live_kept. intros alive c a b d [H1 H2] [H3 H4]. split.
  - destruct H3 as [E|[E|E]]; rewrite E; auto.
  - intros X Y Z. specialize (H2 X Y Z). subst b. auto.
Qed.

Lemma prims_rep : forall alive c r r', prims alive c r r' -> forall l, c <> 0 -> rep l r ->
  exists l', rep l' r' /\ (forall c', alive c' = true -> c' <> c -> cnt l' c' = cnt l c') /\
    live_kept alive c (writer r) (writer r') /\ live_kept alive c (upgr r) (upgr r').
Proof.
  induction 1 as [r|r r1 r2 P _ IH]; intros l Hc H.
  - exists l. unfold live_kept. repeat split; auto; apply H.
  - destruct (prim_rep _ _ _ _ _ Hc H P) as (l1 & R1 & C1 & W1 & U1).
    destruct (IH l1 Hc R1) as (l2 & R2 & C2 & W2 & U2). exists l2.
    split; [assumption|]. split; [|split; eapply live_kept_trans; eassumption].
    intros. rewrite C2, C1 by assumption. reflexivity.
Qed.

(** Releasing and downgrading. *)
Lemma down_write_done : forall l r c to_upgr, rep l r -> l = [] -> c <> 0 ->
  exists r', downgrade_write to_upgr c r = Done r' /\ rep [(c, 1)] r' /\ writer r' = 0 /\
    upgr r' = (if to_upgr then c else upgr r) /\
    bad r' = bad r || negb ((upgr r =? 0) && (writer r =? c)).
Proof.
  intros l r c to_upgr H -> Hc. unfold downgrade_write.
  rewrite (get_readers_out [] r 0 H) by (cbn; lia). cbn [nz N.eqb negb andb].
  set (q := assert_ ((upgr r =? 0) && (writer r =? c)) r).
  assert (Hq : rep [] q) by (unfold q; auto with rwl).
  pose proof (reader_add_rep [] q c Hq Hc) as A. destruct (reader_add q c) as [r'|].
  - destruct A as ((F1 & F2 & F3) & l' & A1 & A2 & A3 & A4).
    assert (l' = [(c, 1)]).
    { destruct l' as [|[c1 n1] l'].
      { exfalso. assert (In c (map fst (@nil ent))) by (apply A4; auto). destruct H0. }
      assert (E1 : c1 = c). { destruct (proj1 (A4 c1) (or_introl eq_refl)) as [E|[]]. exact E. }
      subst c1. destruct l' as [|[c2 n2] l'].
      - cbn [cnt] in A2. rewrite N.eqb_refl in A2. cbn in A2. subst. reflexivity.
      - exfalso. assert (c2 = c). { destruct (proj1 (A4 c2) (or_intror (or_introl eq_refl))) as [E|[]]. exact E. }
        subst c2. pose proof (rep_nodup _ _ A1) as ND. inversion ND; subst. apply H2. left. reflexivity. }
    subst l'. eexists. split; [reflexivity|]. destruct to_upgr; cbn [set_writer set_upgr writer upgr bad];
      repeat split; auto with rwl; try (apply A1); congruence.
  - exfalso. destruct A as [A|[A _]]; cbn in A; discriminate.
Qed.

Lemma unlock_read_spec : forall alive od isupgr l r c, rep l r -> c <> 0 -> alive c = true -> 1 <= cnt l c ->
  exists l0 r0 l', recd alive l r l0 r0 /\
    rep l' (unlock_read alive od isupgr c r) /\
    cnt l' c = cnt l c - 1 /\ (forall c', alive c' = true -> c' <> c -> cnt l' c' = cnt l c') /\
    (forall c', In c' (map fst l') -> In c' (map fst l0)) /\
    (forall c', c' <> c -> In c' (map fst l0) -> In c' (map fst l')) /\
    writer (unlock_read alive od isupgr c r) = writer r0 /\
    upgr (unlock_read alive od isupgr c r) = (if isupgr then 0 else upgr r0) /\
    bad (unlock_read alive od isupgr c r) = bad r || (isupgr && negb (upgr r0 =? c)).
Proof.
  intros alive od isupgr l r c H Hc Ha Hin. unfold unlock_read.
  destruct (recd_if alive l r od H) as [l0 R]. set (r0 := if od then recover alive r else r) in *.
  clearbody r0. exists l0, r0.
  assert (HR : rep l0 (if isupgr then set_upgr 0 (assert_ (upgr r0 =? c) r0) else r0))
    by (pose proof (rc_rep _ _ _ _ _ R); destruct isupgr; auto with rwl).
  assert (C0 : cnt l0 c = cnt l c) by (apply (rc_cnt _ _ _ _ _ R); assumption).
  pose proof (reader_del_rep l0 _ c HR Hc) as D. cbn zeta.
  destruct (reader_del _ c) as [r'|].
  - destruct D as ((F1 & F2 & F3) & _ & l' & D1 & D2 & D3 & D4 & D5). exists l'.
    split; [assumption|]. split; [assumption|]. split; [lia|].
    split. { intros. rewrite D3 by assumption. apply (rc_cnt _ _ _ _ _ R). assumption. }
    split; [assumption|]. split; [assumption|]. rewrite F1, F2, F3.
    pose proof (rc_bad _ _ _ _ _ R) as B.
    destruct isupgr; cbn [set_upgr assert_ writer upgr bad andb]; repeat split; try congruence.
    rewrite orb_false_r. assumption.
  - exfalso. apply D. apply cnt_pos_in. lia.
Qed.

Theorem inv_step : forall p s s' l, inv s l -> step p s s' -> exists l', inv s' l'.
Proof.
  intros p s s' l H S. destruct S.
  - (* lock *)
    destruct (lock_start_post (aliveb s) (mdead (mtx s)) l (rw s) m (tcid x) (i_rep _ _ H) (i_cid _ _ H _ _ H0))
      as (l1 & r1 & R & P).
    eapply inv_lock; try eassumption. rewrite H1. destruct m; reflexivity.
  - destruct (lock_wake_post (aliveb s) timedout l (rw s) m (tcid x) u (i_rep _ _ H) (i_cid _ _ H _ _ H0))
      as (l1 & r1 & R & P).
    eapply inv_lock; try eassumption. rewrite H1. destruct m, u; reflexivity.
  - (* upgrade *)
    pose proof (nreads_upgr _ H4) as N1. pose proof (cnt_ge s l t x H H0 H2) as GE.
    destruct (upgrade_start_post (aliveb s) (mdead (mtx s)) urge l (rw s) (tcid x) (i_rep _ _ H)
                (i_cid _ _ H _ _ H0) H2) as (l0 & r0 & l1 & r1 & R0 & R1 & _ & P); [lia|].
    eapply inv_upgrade; try eassumption.
    + rewrite H1. cbn. rewrite andb_false_r. reflexivity.
    + intros c Hc. rewrite (rc_cnt _ _ _ _ _ R1), (rc_cnt _ _ _ _ _ R0) by assumption. reflexivity.
    + pose proof (rc_writer _ _ _ _ _ R0) as W0. pose proof (rc_writer _ _ _ _ _ R1) as W1.
      replace (writer (if urge then set_upgr 0 (assert_ (upgr r0 =? tcid x) r0) else assert_ (upgr r0 =? tcid x) r0))
        with (writer r0) in W1 by (destruct urge; reflexivity).
      unfold cleared in *. destruct W0 as [W0|[W0 W0']].
      * rewrite W0 in W1. exact W1.
      * right. split; [|assumption]. destruct W1 as [W1|[W1 _]]; congruence.
  - pose proof (i_upgr _ _ H _ _ _ _ H0 H1) as Hup.
    pose proof (nreads_upgr _ Hup) as N1. pose proof (cnt_ge s l t x H H0 H2) as GE.
    destruct (upgrade_wake_post (aliveb s) timedout urge l (rw s) (tcid x) u (i_rep _ _ H)
                (i_cid _ _ H _ _ H0) H2) as (l1 & r1 & R1 & _ & P); [lia|].
    eapply inv_upgrade; try eassumption.
    + rewrite H1. destruct urge, u; reflexivity.
    + intros c Hc. rewrite (rc_cnt _ _ _ _ _ R1) by assumption. reflexivity.
    + apply (rc_writer _ _ _ _ _ R1).
  - (* read-upgr to read *)
    unfold downgrade_upgr. destruct (recd_if (aliveb s) l (rw s) (mdead (mtx s)) (i_rep _ _ H)) as [l1 R].
    set (r0 := if mdead (mtx s) then recover (aliveb s) (rw s) else rw s) in *. clearbody r0.
    pose proof (no_write_free s l t x H H0 H3) as NW.
    pose proof (nreads_drop1 _ _ H4) as D. cbn [nread1] in D.
    exists l1. eapply inv_upd; try eassumption; cbn [tcid held pc]; auto.
    + pose proof (rc_rep _ _ _ _ _ R). auto with rwl.
    + rewrite (rc_cnt _ _ _ _ _ R) by assumption. rewrite nreads_cons. cbn [nread1]. lia.
    + intros. apply (rc_cnt _ _ _ _ _ R). assumption.
    + discriminate.
    + left. split; [reflexivity|]. split.
      * intros [E|E]; [discriminate|]. apply NW. eapply in_drop1. eassumption.
      * left. cbn [pc urged_pc set_upgr assert_ writer]. rewrite H1. repeat split; auto.
        apply (rc_writer _ _ _ _ _ R).
  - (* the wrong branch *)
    exists l. destruct H. constructor; assumption.
  - (* downgrade of a write lock *)
    pose proof (i_write _ _ H t x H0 H3) as EO.
    destruct (i_own _ _ H t EO) as (El & x' & Hx' & Hh & _ & _ & Ew).
    assert (x' = x) by congruence. subst x'.
    destruct (down_write_done l (rw s) (tcid x) to_upgr (i_rep _ _ H) El (i_cid _ _ H t x H0))
      as (r' & -> & R' & W' & _). cbn [after_down].
    exists [(tcid x, 1)]. eapply inv_upd; try eassumption; cbn [tcid held pc]; auto.
    + rewrite Hh. cbn [drop1 hold_eqb cnt]. rewrite El, N.eqb_refl. destruct to_upgr; reflexivity.
    + intros. rewrite El. cbn [cnt]. destruct (N.eqb_spec (tcid x) c); [congruence|reflexivity].
    + discriminate.
    + left. split; [reflexivity|]. rewrite Hh. cbn [drop1 hold_eqb]. split.
      * intros [E|[]]. destruct to_upgr; discriminate.
      * right. right. cbn [pc urged_pc]. auto.
  - (* unlock of a write lock *)
    pose proof (i_write _ _ H t x H0 H3) as EO.
    destruct (i_own _ _ H t EO) as (El & x' & Hx' & Hh & _ & _ & Ew).
    assert (x' = x) by congruence. subst x'.
    pose proof (i_rep _ _ H) as HR.
    exists l. eapply inv_upd; try eassumption; cbn [tcid held pc]; auto.
    + unfold unlock_write. auto with rwl.
    + rewrite Hh. reflexivity.
    + discriminate.
    + left. split; [reflexivity|]. rewrite Hh. cbn [drop1 hold_eqb]. split; [auto|].
      right. right. cbn [pc urged_pc unlock_write set_writer writer]. auto.
  - (* unlock of a read lock *)
    pose proof (nreads_down _ _ H4) as N1. pose proof (cnt_ge s l t x H H0 H2) as GE.
    pose proof (no_write_free s l t x H H0 H3) as NW.
    pose proof (nreads_drop1 _ _ H4) as D.
    replace (nread1 (hold_down isupgr)) with 1 in D by (destruct isupgr; reflexivity).
    destruct (unlock_read_spec (aliveb s) (mdead (mtx s)) isupgr l (rw s) (tcid x) (i_rep _ _ H)
                (i_cid _ _ H _ _ H0) H2) as (l0 & r0 & l' & R0 & R' & C1 & C2 & _ & _ & W & _ & _); [lia|].
    exists l'. eapply inv_upd; try eassumption; cbn [tcid held pc]; auto.
    + lia.
    + discriminate.
    + left. split; [reflexivity|]. split; [intro K; apply NW; eapply in_drop1; eassumption|].
      left. cbn [pc urged_pc]. rewrite H1, W. repeat split; auto. apply (rc_writer _ _ _ _ _ R0).
  - (* crash *)
    exists l. eapply inv_crash; eauto. apply (i_rep _ _ H).
  - (* crash inside of a lock function *)
    pose proof (i_cid _ _ H t x H0) as Hc.
    destruct (prims_rep _ _ _ _ H4 l Hc (i_rep _ _ H)) as (l' & R' & C' & (W1 & W2) & _).
    exists l'. eapply inv_crash; try eassumption; auto.
    + intros (t0 & x0 & Hx0 & Hu & Hne). destruct (i_urged _ _ H t0 x0 Hx0 Hu) as [Ew _].
      apply W2.
      * rewrite Ew. apply (i_cid _ _ H t0 x0 Hx0).
      * congruence.
      * rewrite Ew. eapply urged_live; eassumption.
    + intros (t0 & x0 & E & Hx0 & Hne). exfalso. destruct H2 as [H2|H2]; rewrite H2 in E || rewrite E in H2.
      * discriminate.
      * inversion E. subst t0. congruence.
    + right. split; [reflexivity|]. intros t0 x0 E Hx0. destruct H2 as [H2|H2]; [rewrite E in H2; discriminate|].
      congruence.
Qed.

Theorem inv_reach : forall p s, reach p s -> exists l, inv s l.
Proof.
  induction 1 as [s H|s s' _ [l IH] S].
  - exists []. apply inv_init. assumption.
  - eapply inv_step; eassumption.
Qed.
