(** Invariants about the upgradable reader. *)
From Coq Require Import List NArith Lia Bool Arith.
From Verif Require Import RwLock RwLockTable RwLockProofs RwLockInv.
Import ListNotations.
Open Scope N_scope.

Local Opaque recover.

Definition urge_wait (p : pcs) : bool := match p with UpgrWait true _ => true | _ => false end.

(** ** A living connection is only recorded as upgradable reader if it is one *)

Definition invU (s : sys) : Prop :=
  upgr (rw s) <> 0 -> aliveb s (upgr (rw s)) = true ->
  exists t x, nth_error (thr s) t = Some x /\ tcid x = upgr (rw s) /\ In HUpgr (held x) /\ urge_wait (pc x) = false.

Lemma invU_upd : forall s t x y r' m' ov u,
  invU s -> nth_error (thr s) t = Some x -> tcid y = tcid x ->
  (upgr r' = 0 \/ (upgr r' = tcid x /\ In HUpgr (held y) /\ urge_wait (pc y) = false) \/
   (cleared (aliveb s) (upgr (rw s)) (upgr r') /\
      (In HUpgr (held x) -> urge_wait (pc x) = false -> upgr (rw s) = tcid x ->
         In HUpgr (held y) /\ urge_wait (pc y) = false))) ->
  invU (mksys r' m' (upd (thr s) t y) (dead s) ov u).
Proof.
  intros s t x y r' m' ov u H Hx Ey Hc Hn Ha. cbn [rw thr] in *.
  change (aliveb (mksys r' m' (upd (thr s) t y) (dead s) ov u)) with (aliveb s) in Ha.
  destruct Hc as [E|[(E & Hi & Hp)|(Hc & Hk)]]; [congruence| |].
  - exists t, y. rewrite (nth_upd_eq _ _ x) by assumption. rewrite Ey. auto.
  - destruct Hc as [E|[E _]]; [|congruence]. rewrite E in *.
    destruct (H Hn Ha) as (t0 & x0 & Hx0 & Ec & Hi & Hp).
    destruct (Nat.eq_dec t0 t) as [->|Hne].
    + assert (x0 = x) by congruence. subst x0. exists t, y. rewrite (nth_upd_eq _ _ x) by assumption.
      rewrite Ey. destruct Hk; auto.
    + exists t0, x0. rewrite nth_upd_neq by congruence. auto.
Qed.

Lemma drop1_other : forall k k' h, k <> k' -> In k h -> In k (drop1 k' h).
Proof.
  induction h; cbn [drop1 In]; intros Hne Hin; [assumption|].
  destruct (hold_eqb k' a) eqn:E.
  - destruct Hin as [->|Hin]; [|assumption]. exfalso. destruct k, k'; cbn in E; congruence.
  - cbn [In]. destruct Hin; auto.
Qed.

Lemma cleared_trans : forall alive a b c, cleared alive a b -> cleared alive b c -> cleared alive a c.
Proof.
  unfold cleared. intros alive a b c [->|[-> H]] [->|[-> K]]; auto.
Qed.

Lemma upgr_wait_kept : forall x, urge_wait (pc x) = false -> pc x = Idle \/ pc x <> Idle.
Proof. intros. destruct (pc x); [left|right|right]; congruence. Qed.

Lemma invU_step : forall p s s' l, inv s l -> invU s -> step p s s' -> overflow s' = false -> invU s'.
Proof.
  intros p s s' l H HU S OV. destruct S.
  - destruct (lock_start_post (aliveb s) (mdead (mtx s)) l (rw s) m (tcid x) (i_rep _ _ H) (i_cid _ _ H _ _ H0))
      as (l1 & r1 & R & P). pose proof (rc_upgr _ _ _ _ _ R) as RU.
    destruct (lock_start _ _ _ _ _) as [r'|r' u'|r' full]; cbn [after_lock overflow] in *;
      eapply invU_upd; eauto; cbn [held pc urge_wait].
    + destruct m; cbn [lock_post hold_of] in *.
      * right. right. destruct P as (_ & _ & _ & E & _). rewrite (E eq_refl). split; [assumption|]. intros; auto using in_cons.
      * right. left. destruct P as (_ & _ & _ & _ & E & _). destruct (E eq_refl). split; [assumption|]. split; [left|]; reflexivity.
      * right. right. destruct P as (_ & _ & _ & _ & E & _). rewrite E. split; [assumption|]. intros; auto using in_cons.
      * right. right. destruct P as (_ & _ & _ & E & _). rewrite E. split; [assumption|]. intros; auto using in_cons.
    + right. right. destruct P as (_ & E & _). rewrite E. split; [assumption|]. auto.
    + destruct P as (_ & _ & P & _). destruct full; [rewrite orb_true_r in OV; discriminate|].
      destruct (P eq_refl) as [E _]. right. right. rewrite E. auto.
  - destruct (lock_wake_post (aliveb s) timedout l (rw s) m (tcid x) u (i_rep _ _ H) (i_cid _ _ H _ _ H0))
      as (l1 & r1 & R & P). pose proof (rc_upgr _ _ _ _ _ R) as RU.
    destruct (lock_wake _ _ _ _ _) as [r'|r' u'|r' full]; cbn [after_lock overflow] in *;
      eapply invU_upd; eauto; cbn [held pc urge_wait].
    + destruct m; cbn [lock_post hold_of] in *.
      * right. right. destruct P as (_ & _ & _ & E & _). rewrite (E eq_refl). split; [assumption|]. intros; auto using in_cons.
      * right. left. destruct P as (_ & _ & _ & _ & E & _). destruct (E eq_refl). split; [assumption|]. split; [left|]; reflexivity.
      * right. right. destruct P as (_ & _ & _ & _ & E & _). rewrite E. split; [assumption|]. intros; auto using in_cons.
      * right. right. destruct P as (_ & _ & _ & E & _). rewrite E. split; [assumption|]. intros; auto using in_cons.
    + right. right. destruct P as (_ & E & _). rewrite E. split; [assumption|]. auto.
    + destruct P as (_ & _ & P & _). destruct full; [rewrite orb_true_r in OV; discriminate|].
      destruct (P eq_refl) as [E _]. right. right. rewrite E. auto.
  - pose proof (nreads_upgr _ H4) as N1. pose proof (cnt_ge s l t x H H0 H2) as GE.
    destruct (upgrade_start_post (aliveb s) (mdead (mtx s)) urge l (rw s) (tcid x) (i_rep _ _ H)
                (i_cid _ _ H _ _ H0) H2) as (l0 & r0 & l1 & r1 & R0 & R1 & _ & P); [lia|].
    pose proof (rc_upgr _ _ _ _ _ R0) as U0. pose proof (rc_upgr _ _ _ _ _ R1) as U1.
    assert (EU : if urge then upgr r1 = 0 else cleared (aliveb s) (upgr (rw s)) (upgr r1)).
    { destruct urge; cbn [set_upgr assert_ upgr] in U1.
      - destruct U1 as [->|[-> _]]; reflexivity.
      - eapply cleared_trans; eassumption. }
    destruct (upgrade_start _ _ _ _ _) as [r'|r' u'|r' full]; cbn [after_upgrade overflow] in *;
      eapply invU_upd; eauto; cbn [held pc urge_wait]; cbn [upgrade_post] in P.
    + left. destruct P as (_ & _ & _ & E1 & E2 & _). destruct urge; [rewrite E2|rewrite E1]; auto.
    + destruct P as (_ & E & _). destruct urge; [left; congruence|]. right. right. rewrite E. auto.
    + destruct P as (_ & _ & E1 & E2 & _). destruct urge.
      * right. left. rewrite E2 by reflexivity. auto.
      * right. right. rewrite E1 by reflexivity. auto.
  - pose proof (i_upgr _ _ H _ _ _ _ H0 H1) as Hup.
    pose proof (nreads_upgr _ Hup) as N1. pose proof (cnt_ge s l t x H H0 H2) as GE.
    destruct (upgrade_wake_post (aliveb s) timedout urge l (rw s) (tcid x) u (i_rep _ _ H)
                (i_cid _ _ H _ _ H0) H2) as (l1 & r1 & R1 & _ & P); [lia|].
    pose proof (rc_upgr _ _ _ _ _ R1) as U1.
    destruct (upgrade_wake _ _ _ _ _) as [r'|r' u'|r' full]; cbn [after_upgrade overflow] in *;
      eapply invU_upd; eauto; cbn [held pc urge_wait]; cbn [upgrade_post] in P; rewrite H1; cbn [urge_wait].
    + destruct P as (_ & _ & _ & E1 & E2 & _). destruct urge; [|left; auto].
      right. right. rewrite E2 by reflexivity. split; [assumption|]. discriminate.
    + destruct P as (_ & E & _). right. right. rewrite E. auto.
    + destruct P as (_ & _ & E1 & E2 & _). destruct urge.
      * right. left. rewrite E2 by reflexivity. auto.
      * right. right. rewrite E1 by reflexivity. auto.
  - eapply invU_upd; eauto.
  - exact HU.
  - pose proof (i_write _ _ H t x H0 H3) as EO.
    destruct (i_own _ _ H t EO) as (El & x' & Hx' & Hh & _ & _ & Ew).
    assert (x' = x) by congruence. subst x'.
    destruct (down_write_done l (rw s) (tcid x) to_upgr (i_rep _ _ H) El (i_cid _ _ H t x H0))
      as (r' & -> & R' & W' & E & _). cbn [after_down].
    eapply invU_upd; eauto; cbn [held pc urge_wait]. destruct to_upgr.
    + right. left. split; [assumption|]. split; [left|]; reflexivity.
    + right. right. rewrite E. split; [left; reflexivity|]. rewrite Hh. intros [K|[]]. discriminate.
  - pose proof (i_write _ _ H t x H0 H3) as EO.
    destruct (i_own _ _ H t EO) as (El & x' & Hx' & Hh & _ & _ & Ew).
    assert (x' = x) by congruence. subst x'.
    eapply invU_upd; eauto; cbn [held pc urge_wait unlock_write set_writer assert_ upgr].
    right. right. split; [left; reflexivity|]. rewrite Hh. intros [K|[]]. discriminate.
  - pose proof (nreads_down _ _ H4) as N1. pose proof (cnt_ge s l t x H H0 H2) as GE.
    destruct (unlock_read_spec (aliveb s) (mdead (mtx s)) isupgr l (rw s) (tcid x) (i_rep _ _ H)
                (i_cid _ _ H _ _ H0) H2) as (l0 & r0 & l' & R0 & R' & C1 & C2 & _ & _ & W & E & _); [lia|].
    eapply invU_upd; eauto; cbn [held pc urge_wait]. rewrite E. destruct isupgr; [left; reflexivity|].
    right. right. split; [apply (rc_upgr _ _ _ _ _ R0)|]. intros. split; [|reflexivity].
    apply drop1_other; [discriminate|assumption].
  - intros Hn Ha. cbn [rw thr] in *. rewrite (aliveb_cons _ _ _ _ _ _ _ s) in Ha by reflexivity.
    apply andb_true_iff in Ha. destruct Ha as [Hne Ha]. destruct (N.eqb_spec (upgr (rw s)) c); [discriminate|].
    destruct (HU Hn Ha) as (t0 & x0 & Hx0 & Ec & Hi & Hp). exists t0, x0.
    rewrite nth_error_map, Hx0. cbn [option_map]. unfold kill_thread.
    destruct (N.eqb_spec (tcid x0) c); [congruence|]. auto.
  - pose proof (i_cid _ _ H t x H0) as Hc.
    destruct (prims_rep _ _ _ _ H4 l Hc (i_rep _ _ H)) as (l' & R' & C' & _ & (W1 & W2)).
    intros Hn Ha. cbn [rw thr] in *. rewrite (aliveb_cons _ _ _ _ _ _ _ s) in Ha by reflexivity.
    apply andb_true_iff in Ha. destruct Ha as [Hne Ha]. destruct (N.eqb_spec (upgr r) (tcid x)); [discriminate|].
    destruct W1 as [E|[E|E]]; [|congruence|congruence]. rewrite E in *.
    destruct (HU Hn Ha) as (t0 & x0 & Hx0 & Ec & Hi & Hp). exists t0, x0.
    rewrite nth_error_map, Hx0. cbn [option_map]. unfold kill_thread.
    destruct (N.eqb_spec (tcid x0) (tcid x)); [congruence|]. auto.
Qed.

Lemma overflow_mono : forall p s s', step p s s' -> overflow s' = false -> overflow s = false.
Proof.
  intros p s s' S. destruct S; cbn [overflow]; auto;
    match goal with
    | |- context [after_lock _ _ _ _ ?g] => destruct g; cbn; auto; intro K; apply orb_false_iff in K; apply K
    | |- context [after_upgrade _ _ _ _ ?g] => destruct g; cbn; auto
    | |- context [after_down _ _ _ _ ?g] => destruct g; cbn; auto; discriminate
    end.
Qed.

Lemma invU_init : forall s, sys_start s -> invU s.
Proof. intros s (H1 & _) Hn. rewrite H1 in Hn. exfalso. apply Hn. reflexivity. Qed.

Theorem invU_reach : forall p s, reach p s -> overflow s = false -> invU s.
Proof.
  induction 1 as [s H|s s' R IH S]; intros OV.
  - apply invU_init. assumption.
  - destruct (inv_reach p s R) as [l HI]. eapply invU_step; eauto. apply IH. eapply overflow_mono; eassumption.
Qed.

(** ** The assertions hold and there is one upgradable reader, for two ways of using a lock *)

Definition good_policy (p : policy) : Prop :=
  p_mid_crash p = false /\
  (p_urge_lock p = false \/ (p_urge_relock p = false /\ p_upgr_down p = false)).

Definition nupgr1 (h : hold) : N := match h with HUpgr => 1 | _ => 0 end.
Definition nupgr (h : list hold) : N := fold_right (fun x n => nupgr1 x + n) 0 h.
Lemma nupgr_cons : forall k h, nupgr (k :: h) = nupgr1 k + nupgr h.
Proof. reflexivity. Qed.
Lemma nupgr_in : forall h, In HUpgr h <-> 1 <= nupgr h.
Proof.
  induction h; cbn [In]; [cbn; split; [tauto|lia]|]. rewrite nupgr_cons, IHh.
  destruct a; cbn [nupgr1]; split; intros; try lia; try (right; lia); auto;
    destruct H; try discriminate; lia.
Qed.
Lemma nupgr_drop1 : forall k h, In k h -> nupgr (drop1 k h) + nupgr1 k = nupgr h.
Proof.
  induction h; cbn [In drop1]; intros; [destruct H|].
  rewrite nupgr_cons. destruct (hold_eqb k a) eqn:E.
  - assert (k = a) by (destruct k, a; cbn in E; congruence). subst. lia.
  - destruct H as [->|H]; [destruct k; discriminate|]. specialize (IHh H).
    rewrite nupgr_cons. lia.
Qed.

Record invA (p : policy) (s : sys) (l : list ent) : Prop := mkinvA {
  a_in : upgr (rw s) <> 0 -> In (upgr (rw s)) (map fst l);
  a_upgr : forall t x, nth_error (thr s) t = Some x -> In HUpgr (held x) -> urge_wait (pc x) = false ->
             upgr (rw s) = tcid x;
  a_one : forall t x t' x', nth_error (thr s) t = Some x -> In HUpgr (held x) ->
             nth_error (thr s) t' = Some x' -> In HUpgr (held x') -> t = t';
  a_count : forall t x, nth_error (thr s) t = Some x -> nupgr (held x) <= 1;
  a_own : mfree (mtx s) = false -> upgr (rw s) = 0;
  a_urge : forall t x u, nth_error (thr s) t = Some x -> pc x = UpgrWait true u ->
             u = true /\ upgr (rw s) = 0 /\ p_urge_lock p = false;
  a_writer : p_urge_lock p = false -> writer (rw s) <> 0 -> upgr (rw s) = 0;
  a_lockw : forall t x u, nth_error (thr s) t = Some x -> pc x = LockWait MUrge u -> p_urge_lock p = true;
  a_bad : bad (rw s) = false;
  a_ub : ub s = false
}.

Lemma invA_upd : forall p s l t x y l' r' m' ov,
  inv s l -> invA p s l -> nth_error (thr s) t = Some x ->
  tcid y = tcid x ->
  (upgr r' <> 0 -> In (upgr r') (map fst l')) ->
  bad r' = false ->
  (mfree m' = false -> upgr r' = 0) ->
  (p_urge_lock p = false -> writer r' <> 0 -> upgr r' = 0) ->
  (forall u, pc y = UpgrWait true u -> u = true /\ upgr r' = 0 /\ p_urge_lock p = false) ->
  (forall u, pc y = LockWait MUrge u -> p_urge_lock p = true) ->
  nupgr (held y) <= 1 ->
  (In HUpgr (held y) -> urge_wait (pc y) = false -> upgr r' = tcid x) ->
  (cleared (aliveb s) (upgr (rw s)) (upgr r') \/
     forall t' x', nth_error (thr s) t' = Some x' -> t' <> t -> ~ In HUpgr (held x')) ->
  (In HUpgr (held y) -> In HUpgr (held x) \/
     forall t' x', nth_error (thr s) t' = Some x' -> t' <> t -> ~ In HUpgr (held x')) ->
  invA p (mksys r' m' (upd (thr s) t y) (dead s) ov (ub s)) l'.
Proof.
  intros p s l t x y l' r' m' ov H A Hx Ey A1 AB A3 A4 A6 A9 AC A2 AO AU.
  constructor; cbn [rw mtx thr ub]; auto.
  - intros t' x' Hx' Hi Hp. destruct (nth_upd _ _ _ _ _ _ Hx Hx') as [[-> ->]|[Hne Hx'']].
    + rewrite Ey. auto.
    + destruct AO as [AO|AO]; [|exfalso; eapply AO; eassumption].
      pose proof (a_upgr _ _ _ A t' x' Hx'' Hi Hp) as E.
      destruct AO as [AO|[_ AO]]; [congruence|].
      rewrite E in AO. destruct (i_dead _ _ H t' x' Hx'' AO) as [K _]. rewrite K in Hi. destruct Hi.
  - intros t1 x1 t2 x2 H1 I1 H2 I2.
    destruct (nth_upd _ _ _ _ _ _ Hx H1) as [[-> ->]|[Hne1 Hx1]];
    destruct (nth_upd _ _ _ _ _ _ Hx H2) as [[-> ->]|[Hne2 Hx2]].
    + reflexivity.
    + destruct (AU I1) as [K|K]; [|exfalso; eapply K; eassumption].
      eapply (a_one _ _ _ A); [exact Hx|exact K|exact Hx2|exact I2].
    + destruct (AU I2) as [K|K]; [|exfalso; eapply K; eassumption].
      eapply (a_one _ _ _ A); [exact Hx1|exact I1|exact Hx|exact K].
    + eapply (a_one _ _ _ A); [exact Hx1|exact I1|exact Hx2|exact I2].
  - intros t' x' Hx'. destruct (nth_upd _ _ _ _ _ _ Hx Hx') as [[-> ->]|[Hne Hx'']]; [assumption|].
    eapply (a_count _ _ _ A); eassumption.
  - intros t' x' u Hx' Hp. destruct (nth_upd _ _ _ _ _ _ Hx Hx') as [[-> ->]|[Hne Hx'']]; [auto|].
    destruct (a_urge _ _ _ A t' x' u Hx'' Hp) as (U1 & U2 & U3). repeat split; auto.
    destruct AO as [AO|AO].
    + destruct AO as [AO|[AO _]]; congruence.
    + exfalso. eapply AO; [eassumption|assumption|]. eapply (i_upgr _ _ H); eassumption.
  - intros t' x' u Hx' Hp. destruct (nth_upd _ _ _ _ _ _ Hx Hx') as [[-> ->]|[Hne Hx'']]; [eauto|].
    eapply (a_lockw _ _ _ A); eassumption.
  - apply (a_ub _ _ _ A).
Qed.

Lemma cleared_in : forall p s l l1 r1, invA p s l -> recd (aliveb s) l (rw s) l1 r1 ->
  upgr r1 <> 0 -> In (upgr r1) (map fst l1).
Proof.
  intros p s l l1 r1 A R Hn. apply (rc_upgr_in _ _ _ _ _ R); [|assumption].
  apply (a_in _ _ _ A). intro E. pose proof (rc_upgr _ _ _ _ _ R) as U. rewrite E in U.
  destruct U as [U|[U _]]; congruence.
Qed.

Lemma cleared_live : forall alive a b, cleared alive a b -> alive a = true -> b = a.
Proof. intros alive a b [->|[_ K]] H; congruence. Qed.

Lemma cleared_nz : forall alive a b, cleared alive a b -> b <> 0 -> b = a.
Proof. intros alive a b [->|[K _]] H; congruence. Qed.

Lemma cleared_zero : forall alive b, cleared alive 0 b -> b = 0.
Proof. intros alive b [->|[K _]]; auto. Qed.

(** No upgradable reader at all if [upgr] and [writer] are free after a recovery. *)
Lemma no_upgr : forall p s l l1 r1, inv s l -> invA p s l -> recd (aliveb s) l (rw s) l1 r1 ->
  upgr r1 = 0 -> writer r1 = 0 ->
  forall t' x', nth_error (thr s) t' = Some x' -> ~ In HUpgr (held x').
Proof.
  intros p s l l1 r1 H A R Eu Ew t' x' Hx' Hi.
  assert (Ha : aliveb s (tcid x') = true).
  { destruct (aliveb s (tcid x')) eqn:E; [reflexivity|].
    destruct (i_dead _ _ H t' x' Hx' E) as [K _]. rewrite K in Hi. destruct Hi. }
  pose proof (i_cid _ _ H t' x' Hx') as Hc.
  destruct (urge_wait (pc x')) eqn:E.
  - destruct (pc x') as [| |[] u] eqn:Ep; try discriminate.
    destruct (a_urge _ _ _ A t' x' u Hx' Ep) as (-> & _).
    pose proof (i_urged _ _ H t' x' Hx') as K. rewrite Ep in K. destruct (K eq_refl) as [K1 _].
    pose proof (rc_writer _ _ _ _ _ R) as W. rewrite K1 in W.
    apply (cleared_live _ _ _ W) in Ha. congruence.
  - pose proof (a_upgr _ _ _ A t' x' Hx' Hi E) as K.
    pose proof (rc_upgr _ _ _ _ _ R) as W. rewrite K in W.
    apply (cleared_live _ _ _ W) in Ha. congruence.
Qed.

Lemma upgr_of_holder : forall p s l l1 r1 t x, inv s l -> invA p s l -> recd (aliveb s) l (rw s) l1 r1 ->
  nth_error (thr s) t = Some x -> aliveb s (tcid x) = true -> urge_wait (pc x) = false -> In HUpgr (held x) ->
  upgr r1 = tcid x.
Proof.
  intros p s l l1 r1 t x H A R Hx Ha Hp Hi.
  pose proof (a_upgr _ _ _ A t x Hx Hi Hp) as K. pose proof (rc_upgr _ _ _ _ _ R) as W. rewrite K in W.
  apply (cleared_live _ _ _ W Ha).
Qed.

Lemma writer_upgr : forall p s l l1 r1, invA p s l -> recd (aliveb s) l (rw s) l1 r1 ->
  p_urge_lock p = false -> writer r1 <> 0 -> upgr r1 = 0.
Proof.
  intros p s l l1 r1 A R Hp Hw. pose proof (rc_writer _ _ _ _ _ R) as W. pose proof (rc_upgr _ _ _ _ _ R) as U.
  pose proof (cleared_nz _ _ _ W Hw) as E. rewrite (a_writer _ _ _ A Hp) in U by congruence.
  eapply cleared_zero; eassumption.
Qed.

Lemma upgr_empty : forall p s l r1, invA p s l -> recd (aliveb s) l (rw s) [] r1 -> upgr r1 = 0.
Proof.
  intros p s l r1 A R. destruct (N.eq_dec (upgr r1) 0) as [E|E]; [assumption|].
  destruct (cleared_in _ _ _ _ _ A R E).
Qed.

Lemma invA_lock : forall p s l t x m u l1 r1 g l',
  inv s l -> invA p s l -> nth_error (thr s) t = Some x -> aliveb s (tcid x) = true -> mfree (mtx s) = true ->
  urged_pc (pc x) = (match m with MUrge => u | _ => false end) ->
  urge_wait (pc x) = false -> (m = MUrge -> p_urge_lock p = true) ->
  recd (aliveb s) l (rw s) l1 r1 -> lock_post l1 r1 m (tcid x) u g ->
  overflow (after_lock s t x m g) = false ->
  inv (after_lock s t x m g) l' -> invA p (after_lock s t x m g) l'.
Proof.
  intros p s l t x m u l1 r1 g l' H A Hx Ha Hm Hpc Hpw Hmu R P OV H'.
  pose proof (rc_upgr _ _ _ _ _ R) as RU.
  assert (B1 : bad r1 = false) by (rewrite (rc_bad _ _ _ _ _ R); apply (a_bad _ _ _ A)).
  pose proof (a_count _ _ _ A t x Hx) as CX.
  assert (HOLD : In HUpgr (held x) -> upgr r1 = tcid x) by (intros; apply (upgr_of_holder p s l l1 r1 t x); assumption).
  assert (RI : forall l'' r'', readers (rw (after_lock s t x m g)) = readers r'' -> rep l'' r'' -> 
               forall c, c <> 0 -> In c (map fst l'') -> In c (map fst l')).
  { intros l'' r'' E HR c Hc Hin. pose proof (i_rep _ _ H') as HR'.
    assert (In c (readers r'')) by (rewrite (rep_readers _ _ HR); apply in_or_app; auto).
    rewrite <- E, (rep_readers _ _ HR') in H0. apply in_app_or in H0. destruct H0 as [K|K]; [assumption|].
    apply repeat_spec in K. congruence. }
  destruct g as [r'|r' u'|r' full]; cbn [after_lock] in *.
  - destruct m; cbn [lock_post is_write hold_of] in *.
    + destruct P as ((l'' & P1 & P2 & P3 & P4) & W1 & W2 & E & _ & EB). specialize (E eq_refl).
      eapply invA_upd; try eassumption; cbn [tcid held pc mfree urge_wait]; auto; try discriminate; try congruence.
      * intros Hn. eapply RI; [reflexivity|exact P1|assumption|]. apply P4. right. rewrite E in *.
        eapply (cleared_in p s l); eassumption.
      * intros [K|K] _; [discriminate|]. rewrite E. auto.
      * left. rewrite E. assumption.
      * intros [K|K]; [discriminate|auto].
    + destruct P as ((l'' & P1 & P2 & P3 & P4) & W1 & W2 & _ & E & EB). destruct (E eq_refl) as [E1 E2].
      pose proof (no_upgr _ _ _ _ _ H A R E1 W1) as NU.
      assert (NX : nupgr (held x) = 0).
      { pose proof (NU t x Hx). rewrite nupgr_in in H0. lia. }
      eapply invA_upd; try eassumption; cbn [tcid held pc mfree urge_wait]; auto; try discriminate; try congruence.
      * intros Hn. eapply RI; [reflexivity|exact P1|assumption|]. apply P4. left. assumption.
      * rewrite nupgr_cons, NX. cbn. lia.
      * right. intros. eapply NU; eassumption.
      * intros _. right. intros. eapply NU; eassumption.
    + destruct P as (-> & P1 & W1 & W2 & E & EB). pose proof (upgr_empty _ _ _ _ A R) as E0.
      rewrite E0 in *. cbn [N.eqb negb] in EB. rewrite orb_false_r in EB.
      eapply invA_upd; try eassumption; cbn [tcid held pc mfree urge_wait]; auto; try discriminate; try congruence.
      * intros [K|K] _; [discriminate|]. rewrite E. auto.
      * left. rewrite E. assumption.
      * intros [K|K]; [discriminate|auto].
    + destruct P as (-> & P1 & W1 & E & EB). pose proof (upgr_empty _ _ _ _ A R) as E0.
      rewrite E0 in *. cbn [N.eqb negb] in EB. rewrite orb_false_r in EB.
      assert (EW : writer r' = tcid x).
      { destruct W1 as [(_ & _ & W)|(-> & W)]; [assumption|]. rewrite W.
        eapply (urged_writer s l t x); try eassumption. apply (rc_writer _ _ _ _ _ R). }
      rewrite EW, N.eqb_refl in EB. cbn [negb] in EB. rewrite orb_false_r in EB.
      eapply invA_upd; try eassumption; cbn [tcid held pc mfree urge_wait]; auto; try discriminate; try congruence.
      * intros [K|K] _; [discriminate|]. rewrite E. auto.
      * left. rewrite E. assumption.
      * intros [K|K]; [discriminate|auto].
  - destruct P as (P1 & E & EB & W & _).
    eapply invA_upd; try eassumption; cbn [tcid held pc mfree urge_wait]; auto; try discriminate; try congruence.
    + intros Hn. eapply RI; [reflexivity|exact P1|assumption|]. rewrite E in *. eapply (cleared_in p s l); eassumption.
    + intros Hp Hw. rewrite E. destruct W as [[_ W]|(-> & _)].
      * eapply (writer_upgr p s l l1 r1); try eassumption. congruence.
      * rewrite Hmu in Hp by reflexivity. discriminate.
    + intros u0 K. apply Hmu. congruence.
    + intros K _. rewrite E. auto.
    + left. rewrite E. assumption.
  - destruct full; [cbn in OV; rewrite orb_true_r in OV; discriminate|].
    destruct P as (P1 & EB & P & _). destruct (P eq_refl) as [E W].
    eapply invA_upd; try eassumption; cbn [tcid held pc mfree urge_wait]; auto; try discriminate; try congruence.
    + intros Hn. eapply RI; [reflexivity|exact P1|assumption|]. rewrite E in *. eapply (cleared_in p s l); eassumption.
    + intros Hp Hw. rewrite E. destruct W as [W|(-> & _)].
      * eapply (writer_upgr p s l l1 r1); try eassumption. congruence.
      * rewrite Hmu in Hp by reflexivity. discriminate.
    + intros K _. rewrite E. auto.
    + left. rewrite E. assumption.
Qed.

Lemma rep_in : forall l r c, rep l r -> c <> 0 -> (In c (readers r) <-> In c (map fst l)).
Proof.
  intros l r c H Hc. rewrite (rep_readers _ _ H). rewrite in_app_iff. split; auto.
  intros [K|K]; [assumption|]. apply repeat_spec in K. congruence.
Qed.

Lemma invA_upgrade : forall p s l t x urge u l1 r1 g l',
  inv s l -> invA p s l -> nth_error (thr s) t = Some x -> aliveb s (tcid x) = true -> mfree (mtx s) = true ->
  urged_pc (pc x) = urge && u -> In HUpgr (held x) ->
  rep l1 r1 -> 1 <= cnt l1 (tcid x) -> bad r1 = false ->
  upgr r1 = (if urge then 0 else tcid x) ->
  (urge = true -> p_urge_lock p = false /\ (writer r1 = 0 \/ u = true)) ->
  (urge = false -> p_urge_lock p = false -> writer r1 = 0) ->
  upgrade_post l1 r1 urge (tcid x) u g ->
  inv (after_upgrade s t x urge g) l' -> invA p (after_upgrade s t x urge g) l'.
Proof.
  intros p s l t x urge u l1 r1 g l' H A Hx Ha Hm Hpc Hup R1 C1 B1 U1 Hurge Hnu P H'.
  pose proof (a_count _ _ _ A t x Hx) as CX.
  pose proof (i_cid _ _ H t x Hx) as Hc.
  assert (NO : forall t' x', nth_error (thr s) t' = Some x' -> t' <> t -> ~ In HUpgr (held x')).
  { intros t' x' Hx' Hne Hi. apply Hne. eapply (a_one _ _ _ A); eassumption. }
  assert (CI : In (tcid x) (map fst l1)) by (apply cnt_pos_in; assumption).
  destruct g as [r'|r' u'|r' full]; cbn [after_upgrade upgrade_post] in *.
  - destruct P as (-> & P1 & _ & E1 & E2 & EB).
    assert (EU : upgr r' = 0) by (destruct urge; [rewrite E2 by reflexivity|rewrite E1 by reflexivity]; auto).
    rewrite B1, U1 in EB. cbn [orb] in EB.
    replace (negb urge && negb ((if urge then 0 else tcid x) =? tcid x)) with false in EB
      by (destruct urge; [reflexivity|rewrite N.eqb_refl; reflexivity]).
    eapply invA_upd; try eassumption; cbn [tcid held pc mfree urge_wait]; auto; try discriminate; try congruence.
    + rewrite nupgr_cons. pose proof (nupgr_drop1 _ _ Hup). cbn [nupgr1] in *. lia.
    + intros K _. exfalso. apply nupgr_in in K. rewrite nupgr_cons in K.
      pose proof (nupgr_drop1 _ _ Hup). cbn [nupgr1] in *. lia.
  - destruct P as (P1 & E & EB & W & W3 & W4). rewrite U1 in E.
    eapply invA_upd; try eassumption; cbn [tcid held pc mfree urge_wait]; auto; try discriminate; try congruence.
    + intros Hn. apply (rep_in _ _ _ (i_rep _ _ H')); [assumption|]. cbn [rw].
      apply (rep_in _ _ _ P1); [assumption|]. rewrite E in *. destruct urge; [congruence|assumption].
    + intros Hp Hw. destruct urge; [assumption|]. destruct W as [[_ W]|(K & _)]; [|discriminate].
      exfalso. apply Hw. rewrite W. auto.
    + intros u0 K. inversion K. subst urge u0. destruct (Hurge eq_refl) as [K1 K2].
      split; [|split; assumption]. destruct K2 as [K2|K2]; [auto|].
      destruct W as [[-> _]|(_ & -> & _)]; auto.
    + intros K1 K2. rewrite E. destruct urge; [discriminate|reflexivity].
  - destruct P as (P1 & EB & E1 & E2 & W).
    assert (EU : upgr r' = tcid x) by (destruct urge; [auto|rewrite E1 by reflexivity; assumption]).
    eapply invA_upd; try eassumption; cbn [tcid held pc mfree urge_wait]; auto; try discriminate; try congruence.
    + intros Hn. apply (rep_in _ _ _ (i_rep _ _ H')); [assumption|]. cbn [rw].
      apply (rep_in _ _ _ P1); [assumption|]. rewrite EU. assumption.
    + intros Hp Hw. exfalso. apply Hw. rewrite W. destruct urge; cbn [andb].
      * destruct (Hurge eq_refl) as [_ [K|K]]; [destruct u; auto|rewrite K; reflexivity].
      * auto.
Qed.

Theorem invA_step : forall p s s' l, good_policy p -> inv s l -> invU s -> invA p s l -> step p s s' ->
  overflow s' = false -> forall l', inv s' l' -> invA p s' l'.
Proof.
  intros p s s' l [GM GP] H HU A S OV l' H'. destruct S.
  - destruct (lock_start_post (aliveb s) (mdead (mtx s)) l (rw s) m (tcid x) (i_rep _ _ H) (i_cid _ _ H _ _ H0))
      as (l1 & r1 & R & P).
    eapply invA_lock; try eassumption; rewrite H1; [destruct m|]; reflexivity.
  - destruct (lock_wake_post (aliveb s) timedout l (rw s) m (tcid x) u (i_rep _ _ H) (i_cid _ _ H _ _ H0))
      as (l1 & r1 & R & P).
    eapply invA_lock; try eassumption; try (rewrite H1).
    + destruct m, u; reflexivity.
    + reflexivity.
    + intros ->. eapply (a_lockw _ _ _ A); eassumption.
  - pose proof (nreads_upgr _ H4) as N1. pose proof (cnt_ge s l t x H H0 H2) as GE.
    destruct (upgrade_start_post (aliveb s) (mdead (mtx s)) urge l (rw s) (tcid x) (i_rep _ _ H)
                (i_cid _ _ H _ _ H0) H2) as (l0 & r0 & l1 & r1 & R0 & R1 & C1 & P); [lia|].
    assert (EU : upgr (rw s) = tcid x).
    { apply (a_upgr _ _ _ A t x H0 H4). rewrite H1. reflexivity. }
    assert (EU0 : upgr r0 = tcid x).
    { pose proof (rc_upgr _ _ _ _ _ R0) as K. rewrite EU in K. apply (cleared_live _ _ _ K H2). }
    rewrite EU0, N.eqb_refl in R1.
    assert (EW : p_urge_lock p = false -> writer r1 = 0).
    { intros Hp. pose proof (rc_writer _ _ _ _ _ R0) as W0. pose proof (rc_writer _ _ _ _ _ R1) as W1.
      assert (writer (rw s) = 0).
      { destruct (N.eq_dec (writer (rw s)) 0) as [E|E]; [assumption|].
        pose proof (a_writer _ _ _ A Hp E). pose proof (i_cid _ _ H t x H0). congruence. }
      rewrite H6 in W0. apply cleared_zero in W0.
      replace (writer (if urge then set_upgr 0 (assert_ true r0) else assert_ true r0)) with (writer r0) in W1
        by (destruct urge; reflexivity).
      rewrite W0 in W1. apply cleared_zero in W1. assumption. }
    eapply invA_upgrade; try eassumption.
    + rewrite H1. cbn. rewrite andb_false_r. reflexivity.
    + apply (rc_rep _ _ _ _ _ R1).
    + rewrite (rc_bad _ _ _ _ _ R1).
      pose proof (rc_bad _ _ _ _ _ R0) as B0. rewrite (a_bad _ _ _ A) in B0.
      destruct urge; cbn [set_upgr assert_ bad]; rewrite B0; reflexivity.
    + pose proof (rc_upgr _ _ _ _ _ R1) as U. destruct urge; cbn [set_upgr assert_ upgr] in U.
      * apply cleared_zero in U. assumption.
      * rewrite EU0 in U. apply (cleared_live _ _ _ U H2).
    + intros ->. specialize (H5 eq_refl). destruct GP as [GP|[GP _]]; [|congruence]. auto.
    + auto.
  - pose proof (i_upgr _ _ H _ _ _ _ H0 H1) as Hup.
    pose proof (nreads_upgr _ Hup) as N1. pose proof (cnt_ge s l t x H H0 H2) as GE.
    destruct (upgrade_wake_post (aliveb s) timedout urge l (rw s) (tcid x) u (i_rep _ _ H)
                (i_cid _ _ H _ _ H0) H2) as (l1 & r1 & R1 & C1 & P); [lia|].
    pose proof (rc_upgr _ _ _ _ _ R1) as U. pose proof (rc_writer _ _ _ _ _ R1) as W.
    eapply invA_upgrade; try eassumption.
    + rewrite H1. destruct urge, u; reflexivity.
    + apply (rc_rep _ _ _ _ _ R1).
    + rewrite (rc_bad _ _ _ _ _ R1). apply (a_bad _ _ _ A).
    + destruct urge.
      * destruct (a_urge _ _ _ A t x u H0 H1) as (_ & K & _). rewrite K in U. apply cleared_zero in U. assumption.
      * rewrite (a_upgr _ _ _ A t x H0 Hup) in U by (rewrite H1; reflexivity). apply (cleared_live _ _ _ U H2).
    + intros ->. destruct (a_urge _ _ _ A t x u H0 H1) as (K1 & _ & K2). auto.
    + intros -> Hp.
      assert (writer (rw s) = 0).
      { destruct (N.eq_dec (writer (rw s)) 0) as [E|E]; [assumption|].
        pose proof (a_writer _ _ _ A Hp E) as K. pose proof (i_cid _ _ H t x H0) as K2.
        rewrite (a_upgr _ _ _ A t x H0 Hup) in K by (rewrite H1; reflexivity). congruence. }
      rewrite H4 in W. apply cleared_zero in W. assumption.
  - (* read-upgr to read *)
    assert (EU : upgr (rw s) = tcid x).
    { apply (a_upgr _ _ _ A t x H0 H4). rewrite H1. reflexivity. }
    unfold downgrade_upgr in *. destruct (recd_if (aliveb s) l (rw s) (mdead (mtx s)) (i_rep _ _ H)) as [l1 R].
    set (r0 := if mdead (mtx s) then recover (aliveb s) (rw s) else rw s) in *. clearbody r0.
    assert (EU0 : upgr r0 = tcid x).
    { pose proof (rc_upgr _ _ _ _ _ R) as K. rewrite EU in K. apply (cleared_live _ _ _ K H2). }
    pose proof (a_count _ _ _ A t x H0) as CX. pose proof (nupgr_drop1 _ _ H4) as D. cbn [nupgr1] in D.
    eapply invA_upd; try eassumption; cbn [tcid held pc mfree urge_wait set_upgr assert_ upgr bad writer]; auto;
      try discriminate; try congruence.
    + rewrite EU0, N.eqb_refl. cbn [negb]. rewrite orb_false_r, (rc_bad _ _ _ _ _ R). apply (a_bad _ _ _ A).
    + rewrite nupgr_cons. cbn [nupgr1]. lia.
    + intros K _. apply nupgr_in in K. rewrite nupgr_cons in K. cbn [nupgr1] in K. lia.
    + right. intros t' x' Hx' Hne Hi. apply Hne. eapply (a_one _ _ _ A); eassumption.
  - (* the wrong branch is not entered *)
    exfalso. assert (EU : upgr (rw s) = tcid x).
    { apply (a_upgr _ _ _ A t x H0 H3). rewrite H1. reflexivity. }
    destruct GP as [GP|[_ GP]]; [|congruence].
    pose proof (a_writer _ _ _ A GP H5). pose proof (i_cid _ _ H t x H0). congruence.
  - pose proof (i_write _ _ H t x H0 H3) as EO.
    destruct (i_own _ _ H t EO) as (El & x' & Hx' & Hh & _ & _ & Ew).
    assert (x' = x) by congruence. subst x'.
    assert (EU : upgr (rw s) = 0) by (apply (a_own _ _ _ A); rewrite EO; reflexivity).
    destruct (down_write_done l (rw s) (tcid x) to_upgr (i_rep _ _ H) El (i_cid _ _ H t x H0))
      as (r' & E & R' & W' & U' & B'). rewrite E in *. cbn [after_down] in *.
    rewrite EU, Ew, !N.eqb_refl, (a_bad _ _ _ A) in B'. cbn [negb andb orb] in B'.
    assert (NU : forall t' x', nth_error (thr s) t' = Some x' -> t' <> t -> ~ In HUpgr (held x')).
    { intros t' x' Hx2 Hne Hi.
      assert (Ha : aliveb s (tcid x') = true).
      { destruct (aliveb s (tcid x')) eqn:Ed; [reflexivity|].
        destruct (i_dead _ _ H t' x' Hx2 Ed) as [K _]. rewrite K in Hi. destruct Hi. }
      pose proof (cnt_ge s l t' x' H Hx2 Ha) as GE. rewrite El in GE. cbn [cnt] in GE.
      pose proof (nreads_upgr _ Hi). lia. }
    eapply invA_upd; try eassumption; cbn [tcid held pc mfree urge_wait]; auto; try discriminate; try congruence.
    + intros Hn. apply (rep_in _ _ _ (i_rep _ _ H')); [assumption|]. cbn [rw].
      apply (rep_in _ _ _ R'); [assumption|]. destruct to_upgr; [left; auto|congruence].
    + rewrite Hh. cbn [drop1 hold_eqb]. destruct to_upgr; cbn; lia.
    + rewrite Hh. cbn [drop1 hold_eqb]. intros [K|[]] _. destruct to_upgr; [assumption|discriminate].
  - pose proof (i_write _ _ H t x H0 H3) as EO.
    destruct (i_own _ _ H t EO) as (El & x' & Hx' & Hh & _ & _ & Ew).
    assert (x' = x) by congruence. subst x'.
    assert (EU : upgr (rw s) = 0) by (apply (a_own _ _ _ A); rewrite EO; reflexivity).
    eapply invA_upd; try eassumption;
      cbn [tcid held pc mfree urge_wait unlock_write set_writer assert_ upgr bad writer]; auto; try discriminate; try congruence.
    + rewrite EU, Ew, !N.eqb_refl, (a_bad _ _ _ A).
      pose proof (i_rep _ _ H) as HR. rewrite El in HR.
      rewrite (get_readers_out [] (rw s) 0 HR) by (cbn; lia). reflexivity.
    + rewrite Hh. cbn. lia.
    + rewrite Hh. cbn [drop1 hold_eqb]. intros [].
    + left. left. reflexivity.
    + rewrite Hh. cbn [drop1 hold_eqb]. intros [].
  - pose proof (nreads_down _ _ H4) as N1. pose proof (cnt_ge s l t x H H0 H2) as GE.
    destruct (unlock_read_spec (aliveb s) (mdead (mtx s)) isupgr l (rw s) (tcid x) (i_rep _ _ H)
                (i_cid _ _ H _ _ H0) H2) as (l0 & r0 & l2 & R0 & R' & C1 & C2 & I1 & I2 & W & U & B); [lia|].
    set (r' := unlock_read _ _ _ _ _) in *. clearbody r'.
    pose proof (a_count _ _ _ A t x H0) as CX. pose proof (nupgr_drop1 _ _ H4) as D.
    pose proof (rc_upgr _ _ _ _ _ R0) as RU.
    assert (HO : In HUpgr (held x) -> upgr r0 = tcid x).
    { intros K. apply (upgr_of_holder p s l l0 r0 t x); auto. rewrite H1. reflexivity. }
    eapply invA_upd; try eassumption; cbn [tcid held pc mfree urge_wait]; auto; try discriminate; try congruence.
    + intros Hn. apply (rep_in _ _ _ (i_rep _ _ H')); [assumption|]. cbn [rw].
      apply (rep_in _ _ _ R'); [assumption|]. destruct isupgr; [congruence|]. rewrite U in *.
      pose proof (cleared_in p s l l0 r0 A R0 Hn) as Hin.
      destruct (N.eq_dec (upgr r0) (tcid x)) as [E|E]; [|auto].
      (* the connection still has its read-upgr lock *)
      assert (EU : upgr (rw s) = tcid x) by (rewrite <- (cleared_nz _ _ _ RU Hn); assumption).
      destruct HU as (t0 & x0 & Hx0 & Ec & Hi & _); [congruence|rewrite EU; assumption|].
      assert (2 <= cnt l (tcid x)).
      { rewrite (i_cnt _ _ H _ H2 (i_cid _ _ H t x H0)). cbn [hold_down] in *.
        destruct (Nat.eq_dec t0 t) as [->|Hne].
        - assert (x0 = x) by congruence. subst x0.
          pose proof (nreads_drop1 _ _ H4) as D2. cbn [nread1] in D2.
          assert (In HUpgr (drop1 HRead (held x))) by (apply drop1_other; [discriminate|assumption]).
          pose proof (nreads_upgr _ H5). pose proof (reads_in _ _ _ _ H0 eq_refl). lia.
        - pose proof (nreads_upgr _ Hi).
          pose proof (reads_two (tcid x) _ _ _ _ _ Hx0 H0 Hne (eq_trans Ec EU) eq_refl). lia. }
      rewrite E. apply cnt_pos_in. lia.
    + rewrite B, (a_bad _ _ _ A). cbn [orb]. destruct isupgr; [|reflexivity].
      rewrite (HO H4), N.eqb_refl. reflexivity.
    + intros Hp Hw. rewrite U. destruct isupgr; [reflexivity|].
      apply (writer_upgr p s l l0 r0 A R0 Hp). congruence.
    + destruct isupgr; cbn [hold_down nupgr1] in *; lia.
    + intros K _. rewrite U. destruct isupgr; cbn [hold_down nupgr1] in *.
      * apply nupgr_in in K. lia.
      * apply HO. eapply in_drop1. eassumption.
    + destruct isupgr.
      * right. intros t' x' Hx' Hne Hi. apply Hne. eapply (a_one _ _ _ A); eassumption.
      * left. rewrite U. assumption.
    + intros K. left. eapply in_drop1. eassumption.
  - (* crash *)
    assert (El : forall c', c' <> 0 -> In c' (map fst l) -> In c' (map fst l')).
    { intros c' Hc' K. apply (rep_in _ _ _ (i_rep _ _ H')); [assumption|]. cbn [rw].
      apply (rep_in _ _ _ (i_rep _ _ H)); assumption. }
    assert (KT : forall t y, nth_error (map (kill_thread c) (thr s)) t = Some y ->
       exists x, nth_error (thr s) t = Some x /\ tcid y = tcid x /\ ((held y = [] /\ pc y = Idle) \/ y = x)).
    { intros t y Hy. destruct (kill_nth _ _ _ _ Hy) as (x & Hx & ->). exists x.
      split; [assumption|]. split; [apply kill_tcid|]. unfold kill_thread.
      destruct (N.eqb_spec (tcid x) c); [left|right]; auto. }
    constructor; cbn [rw mtx thr ub].
    + intros Hn. apply El; [assumption|]. apply (a_in _ _ _ A). assumption.
    + intros t y Hy Hi Hp. destruct (KT t y Hy) as (x & Hx & E & [[K _]|K]); [rewrite K in Hi; destruct Hi|subst y].
      apply (a_upgr _ _ _ A t x); assumption.
    + intros t y t2 y2 Hy Hi Hy2 Hi2.
      destruct (KT t y Hy) as (x & Hx & E & [[K _]|K]); [rewrite K in Hi; destruct Hi|subst y].
      destruct (KT t2 y2 Hy2) as (x2 & Hx2 & E2 & [[K _]|K]); [rewrite K in Hi2; destruct Hi2|subst y2].
      eapply (a_one _ _ _ A); [exact Hx|exact Hi|exact Hx2|exact Hi2].
    + intros t y Hy. destruct (KT t y Hy) as (x & Hx & E & [[K _]|K]); [rewrite K; cbn; lia|subst y].
      eapply (a_count _ _ _ A). eassumption.
    + intros K. apply (a_own _ _ _ A). destruct (mtx s); try discriminate. reflexivity.
    + intros t y u Hy Hp. destruct (KT t y Hy) as (x & Hx & E & [[_ K]|K]); [congruence|subst y].
      eapply (a_urge _ _ _ A); eassumption.
    + apply (a_writer _ _ _ A).
    + intros t y u Hy Hp. destruct (KT t y Hy) as (x & Hx & E & [[_ K]|K]); [congruence|subst y].
      eapply (a_lockw _ _ _ A); eassumption.
    + apply (a_bad _ _ _ A).
    + apply (a_ub _ _ _ A).
  - congruence.
Qed.

Lemma invA_init : forall p s, sys_start s -> invA p s [].
Proof.
  intros p s (H1 & H2 & H3 & H4 & H5 & HF). rewrite Forall_forall in HF.
  assert (HT : forall t x, nth_error (thr s) t = Some x -> tcid x <> 0 /\ held x = [] /\ pc x = Idle).
  { intros t x Hx. apply HF. eapply nth_error_In. eassumption. }
  constructor; rewrite ?H1, ?H2; cbn [rw_init upgr writer bad mfree]; auto; try congruence; intros.
  - destruct (HT _ _ H) as (_ & K & _). rewrite K in H0. destruct H0.
  - destruct (HT _ _ H) as (_ & K & _). rewrite K in H0. destruct H0.
  - destruct (HT _ _ H) as (_ & K & _). rewrite K. cbn. lia.
  - destruct (HT _ _ H) as (_ & _ & K). congruence.
  - destruct (HT _ _ H) as (_ & _ & K). congruence.
Qed.

Theorem invA_reach : forall p s, good_policy p -> reach p s -> overflow s = false ->
  exists l, inv s l /\ invA p s l.
Proof.
  intros p s G. induction 1 as [s H|s s' R IH S]; intros OV.
  - exists []. split; [apply inv_init|apply invA_init]; assumption.
  - pose proof (overflow_mono _ _ _ S OV) as OV0. destruct (IH OV0) as (l & HI & HA).
    destruct (inv_step p s s' l HI S) as [l' HI'].
    exists l'. split; [assumption|]. apply (invA_step p s s' l G HI (invU_reach p s R OV0) HA S OV l' HI').
Qed.
