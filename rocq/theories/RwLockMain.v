(** Lemmas behind the theorems of Prop_RwLock.v. *)
From Coq Require Import List NArith Lia Bool Arith.
From Verif Require Import RwLock RwLockSpec RwLockTable RwLockProofs RwLockInv RwLockUpgr.
Import ListNotations.
Open Scope N_scope.

Local Opaque recover.

Lemma hold_eqb_true : forall a b, hold_eqb a b = true -> a = b.
Proof. destruct a, b; cbn; congruence. Qed.

Lemma holds_b_true : forall h x, holds_b h x = true -> In h (held x).
Proof.
  intros h x H. unfold holds_b in H. apply existsb_exists in H. destruct H as (y & Hy & E).
  apply hold_eqb_true in E. subst. assumption.
Qed.

Lemma idle_true : forall x, idle x = true -> pc x = Idle.
Proof. intros x. unfold idle. destruct (pc x); congruence. Qed.

Lemma exec_step : forall p a s s', exec p a s = Some s' -> step p s s'.
Proof.
  intros p a s s' E.
  assert (K : forall t x, nth_error (thr s) t = Some x -> negb (aliveb s (tcid x)) = false -> aliveb s (tcid x) = true).
  { intros t x _ K. apply negb_false_iff in K. assumption. }
  destruct a; cbn [exec] in E;
    try (destruct (nth_error (thr s) t) as [x|] eqn:Ex; [|discriminate];
         destruct (negb (aliveb s (tcid x))) eqn:Ea; [discriminate|]; apply (K t x Ex) in Ea).
  - destruct (idle x && mfree (mtx s) && _) eqn:Eb; [|discriminate].
    apply andb_true_iff in Eb. destruct Eb as [Eb E3]. apply andb_true_iff in Eb. destruct Eb as [E1 E2].
    apply idle_true in E1. inversion E. apply S_lock; auto. intros ->. assumption.
  - destruct (negb (mfree (mtx s))) eqn:Em; [discriminate|]. apply negb_false_iff in Em.
    destruct (pc x) eqn:Ep; [discriminate| |]; inversion E; [apply S_lock_wake|apply S_upgrade_wake]; auto.
  - destruct (idle x && mfree (mtx s) && _ && _) eqn:Eb; [|discriminate].
    apply andb_true_iff in Eb. destruct Eb as [Eb E4].
    apply andb_true_iff in Eb. destruct Eb as [Eb E3]. apply andb_true_iff in Eb. destruct Eb as [E1 E2].
    apply idle_true in E1. apply holds_b_true in E3. inversion E. apply S_upgrade; auto.
    intros ->. assumption.
  - destruct (idle x && mfree (mtx s) && _ && _) eqn:Eb; [|discriminate].
    apply andb_true_iff in Eb. destruct Eb as [Eb E4].
    apply andb_true_iff in Eb. destruct Eb as [Eb E3]. apply andb_true_iff in Eb. destruct Eb as [E1 E2].
    apply idle_true in E1. apply holds_b_true in E3. inversion E. apply S_down_upgr; auto.
  - destruct (idle x && _) eqn:Eb; [|discriminate]. apply andb_true_iff in Eb. destruct Eb as [E1 E3].
    apply idle_true in E1. apply holds_b_true in E3. inversion E. apply S_down_write; auto.
  - destruct (idle x && _) eqn:Eb; [|discriminate]. apply andb_true_iff in Eb. destruct Eb as [E1 E3].
    apply idle_true in E1. apply holds_b_true in E3. inversion E. apply S_unlock_write; auto.
  - destruct (idle x && mfree (mtx s) && _) eqn:Eb; [|discriminate].
    apply andb_true_iff in Eb. destruct Eb as [Eb E3]. apply andb_true_iff in Eb. destruct Eb as [E1 E2].
    apply idle_true in E1. apply holds_b_true in E3. inversion E. apply S_unlock_read; auto.
  - inversion E. apply S_crash.
Qed.

Lemma run_reach_from : forall p l s s', reach p s -> run p l s = Some s' -> reach p s'.
Proof.
  induction l as [|a l IH]; intros s s' R E; cbn [run] in E; [congruence|].
  destruct (exec p a s) as [s1|] eqn:E1; [|discriminate].
  eapply IH; [|eassumption]. eapply R_step; [eassumption|]. apply exec_step with (a := a). assumption.
Qed.

Lemma start_ok : forall cids, Forall (fun c => c <> 0) cids -> sys_start (start cids).
Proof.
  intros cids H. unfold sys_start, start. cbn. repeat split; auto.
  induction H; cbn; constructor; auto.
Qed.

Lemma run_reach : forall p l cids s', Forall (fun c => c <> 0) cids ->
  run p l (start cids) = Some s' -> reach p s'.
Proof.
  intros p l cids s' H E. eapply run_reach_from; [|eassumption]. apply R_start. apply start_ok. assumption.
Qed.

(** ** C01 *)

Lemma write_excludes : forall p s t t' h, reach p s -> holds s t HWrite -> holds s t' h -> t' = t /\ h = HWrite.
Proof.
  intros p s t t' h R (x & Hx & Hi) (x' & Hx' & Hi').
  destruct (inv_reach p s R) as [l H].
  pose proof (i_write _ _ H t x Hx Hi) as EO.
  destruct (i_own _ _ H t EO) as (El & x0 & Hx0 & Hh & _).
  assert (x0 = x) by congruence. subst x0.
  destruct (Nat.eq_dec t' t) as [->|Hne].
  - split; [reflexivity|]. assert (x' = x) by congruence. subst x'. rewrite Hh in Hi'.
    destruct Hi' as [E|[]]. congruence.
  - exfalso.
    assert (Ha : aliveb s (tcid x') = true).
    { destruct (aliveb s (tcid x')) eqn:Ed; [reflexivity|].
      destruct (i_dead _ _ H t' x' Hx' Ed) as [K _]. rewrite K in Hi'. destruct Hi'. }
    assert (K : ~ In HWrite (held x')).
    { intro K. pose proof (i_write _ _ H t' x' Hx' K). congruence. }
    pose proof (cnt_ge s l t' x' H Hx' Ha) as GE. rewrite El in GE. cbn [cnt] in GE.
    rewrite (nreads0_nil (held x')) in Hi' by (lia || assumption). destruct Hi'.
Qed.

Lemma write_once : forall p s t x, reach p s -> nth_error (thr s) t = Some x -> In HWrite (held x) ->
  held x = [HWrite].
Proof.
  intros p s t x R Hx Hi. destruct (inv_reach p s R) as [l H].
  pose proof (i_write _ _ H t x Hx Hi) as EO.
  destruct (i_own _ _ H t EO) as (El & x0 & Hx0 & Hh & _). congruence.
Qed.

Lemma reader_gets_mutex : forall p s t, reach p s -> reads_lock s t -> mfree (mtx s) = true.
Proof.
  intros p s t R Hr. destruct (mtx s) eqn:E; try reflexivity. exfalso.
  destruct (inv_reach p s R) as [l H].
  destruct (i_own _ _ H _ E) as (El & x0 & Hx0 & Hh & _).
  assert (HW : holds s t0 HWrite) by (exists x0; rewrite Hh; split; [assumption|left; reflexivity]).
  destruct Hr as [Hr|Hr]; destruct (write_excludes p s _ _ _ R HW Hr); discriminate.
Qed.

Lemma one_upgradable : forall p s t x t', good_policy p -> reach p s -> overflow s = false ->
  nth_error (thr s) t = Some x -> In HUpgr (held x) -> holds s t' HUpgr ->
  t' = t /\ ~ In HUpgr (drop1 HUpgr (held x)).
Proof.
  intros p s t x t' G R OV Hx Hi (x' & Hx' & Hi'). destruct (invA_reach p s G R OV) as (l & H & A).
  split; [eapply (a_one _ _ _ A); [exact Hx'|exact Hi'|exact Hx|exact Hi]|].
  pose proof (a_count _ _ _ A t x Hx). pose proof (nupgr_drop1 _ _ Hi) as D. cbn [nupgr1] in D.
  rewrite nupgr_in. lia.
Qed.

Lemma asserts_hold : forall p s, good_policy p -> reach p s -> overflow s = false ->
  bad (rw s) = false /\ ub s = false.
Proof.
  intros p s G R OV. destruct (invA_reach p s G R OV) as (l & H & A).
  split; [apply (a_bad _ _ _ A)|apply (a_ub _ _ _ A)].
Qed.

(** ** C02 *)

Lemma nreads_pos_holds : forall s t x, nth_error (thr s) t = Some x -> 1 <= nreads (held x) -> reads_lock s t.
Proof.
  intros s t x Hx Hn.
  assert (In HRead (held x) \/ In HUpgr (held x)).
  { induction (held x) as [|[] h IH]; [cbn in Hn; lia| | |]; rewrite nreads_cons in *; cbn [nread1 In] in *; auto.
    destruct IH; auto. }
  destruct H; [left|right]; exists x; auto.
Qed.

Lemma reads_pos : forall c th, 1 <= reads c th -> exists t x, nth_error th t = Some x /\ tcid x = c /\ 1 <= nreads (held x).
Proof.
  induction th as [|y th IH]; cbn [reads]; intros H; [lia|].
  destruct (N.eqb_spec (tcid y) c) as [E|E].
  - destruct (N.eq_dec (nreads (held y)) 0) as [E0|E0].
    + destruct IH as (t & x & Hx & Ec & Hn); [lia|]. exists (S t), x. auto.
    + exists O, y. repeat split; auto. lia.
  - destruct IH as (t & x & Hx & Ec & Hn); [lia|]. exists (S t), x. auto.
Qed.

Lemma urged_urges : forall s t x, nth_error (thr s) t = Some x -> urged_pc (pc x) = true -> urges s t.
Proof.
  intros s t x Hx Hu. exists x. split; [assumption|]. destruct (pc x) as [|[] []|[] []]; try discriminate; auto.
Qed.

Section Recovered.
  Variables (p : policy) (s : sys) (l : list ent) (r1 : rwlock).
  Hypothesis R : reach p s.
  Hypothesis OV : overflow s = false.
  Hypothesis H : inv s l.
  Hypothesis E : r1 = recover (aliveb s) (rw s).

  Let l1 := live_part (aliveb s) l.

  Lemma rec_in : forall c, In c (map fst l1) ->
    aliveb s c = true /\ exists t, thread_of s t c /\ reads_lock s t.
  Proof.
    intros c Hc. apply live_part_in in Hc. destruct Hc as [Hc Ha]. split; [assumption|].
    assert (Hc0 : c <> 0).
    { apply in_map_iff in Hc. destruct Hc as (e & <- & He). pose proof (rep_ok _ _ (i_rep _ _ H)) as F.
      rewrite Forall_forall in F. apply F in He. apply He. }
    pose proof (cnt_in_pos _ _ (rep_ok _ _ (i_rep _ _ H)) Hc) as [Hp _].
    rewrite (i_cnt _ _ H c Ha Hc0) in Hp. destruct (reads_pos _ _ Hp) as (t & x & Hx & Ec & Hn).
    exists t. split; [exists x; auto|]. eapply nreads_pos_holds; eassumption.
  Qed.

  Lemma rec_writer : writer r1 <> 0 -> exists t, in_the_way s MRead t.
  Proof.
    intros Hw. destruct (recover_rep (aliveb s) l (rw s) (i_rep _ _ H)) as (_ & _ & HW & _).
    rewrite <- E in HW. destruct (N.eqb_spec (writer (rw s)) 0) as [E0|E0]; [congruence|].
    unfold clear_dead in HW. destruct (aliveb s (writer (rw s))) eqn:Ea; [|congruence].
    destruct (i_writer _ _ H E0 Ea) as [[t Et]|(t & x & Hx & Ec & Eu)].
    - exists t. destruct (i_own _ _ H t Et) as (_ & x & Hx & Hh & _ & Hal & _).
      split; [exists (tcid x); split; [exists x; auto|assumption]|]. right. left. exists x. rewrite Hh. cbn. auto.
    - exists t. split; [exists (tcid x); split; [exists x; auto|congruence]|]. left. eapply urged_urges; eassumption.
  Qed.

  Lemma rec_upgr : upgr r1 <> 0 -> exists t, in_the_way s MUpgr t.
  Proof.
    intros Hw. destruct (recover_rep (aliveb s) l (rw s) (i_rep _ _ H)) as (_ & HU & _ & _).
    rewrite <- E in HU. destruct (N.eqb_spec (upgr (rw s)) 0) as [E0|E0]; [congruence|].
    unfold clear_dead in HU. destruct (aliveb s (upgr (rw s))) eqn:Ea; [|congruence].
    destruct (invU_reach p s R OV E0 Ea) as (t & x & Hx & Ec & Hi & _).
    exists t. split; [exists (tcid x); split; [exists x; auto|congruence]|]. right. right. left.
    split; [reflexivity|]. exists x. auto.
  Qed.

  Lemma rec_rep : rep l1 r1.
  Proof. rewrite E. apply (recover_rep (aliveb s) l (rw s) (i_rep _ _ H)). Qed.

  Lemma rec_blocked : forall m u, lock_blocked m u r1 = true ->
    (exists t, in_the_way s m t) \/ ((m = MRead \/ m = MUpgr) /\ full_of_living s).
  Proof.
    intros m u Hb.
    assert (MR : forall t, in_the_way s MRead t -> in_the_way s m t).
    { intros t [Ha [K|[K|[[K _]|[[K|K] _]]]]]; try discriminate; split; auto. }
    assert (FULL : nz (get (readers r1) (READ_LIMIT - 1)) = true -> full_of_living s).
    { intros K. apply nz_true in K. apply (get_readers_nz _ _ _ rec_rep) in K.
      pose proof (rep_len _ _ rec_rep) as L. unfold READ_LIMIT in *.
      exists (map fst l1). split; [apply (rep_nodup _ _ rec_rep)|]. split; [rewrite map_length; unfold READ_LIMIT; lia|].
      apply rec_in. }
    assert (ANY : nz (get (readers r1) 0) = true -> (m = MWrite \/ m = MUrge) -> exists t, in_the_way s m t).
    { intros K Hm. apply nz_true in K. apply (get_readers_nz _ _ _ rec_rep) in K.
      destruct l1 as [|e l2] eqn:El; [cbn in K; lia|].
      destruct (rec_in (fst e)) as (Ha & t & Ht & Hr). { fold l1. rewrite El. left. reflexivity. }
      exists t. split; [exists (fst e); auto|]. auto. }
    assert (WR : nz (writer r1) = true -> exists t, in_the_way s m t).
    { intros K. apply nz_true in K. destruct (rec_writer K) as [t Ht]. eauto. }
    destruct m; cbn [lock_blocked] in Hb.
    - apply orb_true_iff in Hb. destruct Hb as [Hb|Hb]; auto.
    - apply orb_true_iff in Hb. destruct Hb as [Hb|Hb]; auto. apply orb_true_iff in Hb. destruct Hb as [Hb|Hb]; auto.
      left. apply rec_upgr. apply nz_true. assumption.
    - apply orb_true_iff in Hb. destruct Hb as [Hb|Hb]; auto.
    - apply orb_true_iff in Hb. destruct Hb as [Hb|Hb]; auto. apply andb_true_iff in Hb. destruct Hb as [Hb _]. auto.
  Qed.
End Recovered.

Lemma lock_finish_not_wait : forall m c u r r' u', lock_finish m c u r <> Wait r' u'.
Proof.
  intros m c u r r' u'. unfold lock_finish. destruct m; try discriminate.
  - destruct (reader_add r c); discriminate.
  - destruct (reader_add (set_upgr c r) c); discriminate.
Qed.

Lemma lock_finish_fail : forall m c u r r', lock_finish m c u r <> Fail r' false.
Proof.
  intros m c u r r'. unfold lock_finish. destruct m; try discriminate.
  - destruct (reader_add r c); discriminate.
  - destruct (reader_add (set_upgr c r) c); discriminate.
Qed.

Lemma lock_test_wait : forall m c u r r' u', lock_test m c u r = Wait r' u' -> lock_blocked m u r = true.
Proof.
  intros m c u r r' u' K. unfold lock_test in K. destruct (lock_blocked m u r); [reflexivity|].
  exfalso. eapply lock_finish_not_wait. eassumption.
Qed.

Lemma recover_idem_blocked : forall alive l r m u, rep l r ->
  lock_blocked m u (recover alive (recover alive r)) = lock_blocked m u (recover alive r).
Proof.
  intros alive l r m u H.
  pose proof (recover_rep alive l r H) as (R1 & U1 & W1 & _).
  pose proof (recover_rep alive _ _ R1) as (R2 & U2 & W2 & _).
  revert U1 W1 R1 R2 U2 W2. generalize (recover alive (recover alive r)). generalize (recover alive r).
  intros q q' U1 W1 R1 R2 U2 W2.
  assert (EL : live_part alive (live_part alive l) = live_part alive l).
  { unfold live_part. clear. induction l as [|e l IH]; [reflexivity|]. cbn [filter].
    destruct (alive (fst e)) eqn:E; [|assumption]. cbn [filter]. rewrite E, IH. reflexivity. }
  rewrite EL in R2.
  assert (ER : readers q' = readers q) by (rewrite (rep_readers _ _ R2), (rep_readers _ _ R1); reflexivity).
  assert (EU : upgr q' = upgr q).
  { rewrite U2, U1. destruct (upgr r =? 0) eqn:E; [reflexivity|]. unfold clear_dead.
    destruct (alive (upgr r)) eqn:Ea; [rewrite E, Ea; reflexivity|reflexivity]. }
  assert (EW : writer q' = writer q).
  { rewrite W2, W1. destruct (writer r =? 0) eqn:E; [reflexivity|]. unfold clear_dead.
    destruct (alive (writer r)) eqn:Ea; [rewrite E, Ea; reflexivity|reflexivity]. }
  unfold lock_blocked. rewrite ER, EU, EW. reflexivity.
Qed.

Lemma blocked_only_by_living : forall p s od m c r' u',
  reach p s -> overflow s = false ->
  lock_start (aliveb s) od m c (rw s) = Wait r' u' ->
  (exists t, in_the_way s m t) \/ ((m = MRead \/ m = MUpgr) /\ full_of_living s).
Proof.
  intros p s od m c r' u' R OV K. destruct (inv_reach p s R) as [l H].
  unfold lock_start in K. cbn zeta in K.
  set (q := if od then recover (aliveb s) (rw s) else rw s) in *.
  destruct (lock_blocked m false q) eqn:Eb.
  - apply lock_test_wait in K. unfold q in K. destruct od.
    + rewrite (recover_idem_blocked _ l) in K by (apply (i_rep _ _ H)).
      eapply (rec_blocked p s l); try eassumption. reflexivity.
    + eapply (rec_blocked p s l); try eassumption. reflexivity.
  - apply lock_test_wait in K. congruence.
Qed.

Lemma timeout_only_by_living : forall p s m c u r',
  reach p s -> overflow s = false ->
  lock_wake (aliveb s) true m c u (rw s) = Fail r' false ->
  (exists t, in_the_way s m t) \/ ((m = MRead \/ m = MUpgr) /\ full_of_living s).
Proof.
  intros p s m c u r' R OV K. destruct (inv_reach p s R) as [l H].
  unfold lock_wake in K. cbn zeta in K. destruct (lock_blocked m u (recover (aliveb s) (rw s))) eqn:Eb; cbn [negb] in K.
  - eapply (rec_blocked p s l); try eassumption. reflexivity.
  - exfalso. eapply lock_finish_fail. eassumption.
Qed.

(** With nobody else alive at the lock, it is granted at once. *)
Lemma granted_alone : forall p s od m c, reach p s -> overflow s = false -> c <> 0 -> aliveb s c = true ->
  (forall t x, nth_error (thr s) t = Some x -> aliveb s (tcid x) = true -> held x = [] /\ urged_pc (pc x) = false) ->
  exists r', lock_start (aliveb s) od m c (rw s) = Done r'.
Proof.
  intros p s od m c R OV Hc Ha Hall. destruct (inv_reach p s R) as [l H].
  assert (NH : forall t h, ~ (exists c0, thread_of s t c0 /\ aliveb s c0 = true /\ holds s t h)).
  { intros t h (c0 & (x & Hx & Ec) & Ha0 & (x' & Hx' & Hi)). assert (x' = x) by congruence. subst x'.
    destruct (Hall t x Hx) as [K _]; [congruence|]. rewrite K in Hi. destruct Hi. }
  assert (LH : forall t h, holds s t h -> exists c0, thread_of s t c0 /\ aliveb s c0 = true /\ holds s t h).
  { intros t h (x & Hx & Hi). exists (tcid x). split; [exists x; auto|]. split; [|exists x; auto].
    destruct (aliveb s (tcid x)) eqn:Ed; [reflexivity|].
    destruct (i_dead _ _ H t x Hx Ed) as [K _]. rewrite K in Hi. destruct Hi. }
  destruct (lock_start (aliveb s) od m c (rw s)) as [r'|r' u'|r' full] eqn:K.
  - eauto.
  - exfalso. destruct (blocked_only_by_living p s od m c r' u' R OV K) as [(t & (c0 & Ht & Ha0) & D)|[_ (cs & ND & L & D)]].
    + destruct D as [(x & Hx & D)|[D|[(_ & D)|(_ & [D|D])]]]; try (eapply NH; apply LH; exact D).
      destruct Ht as (x' & Hx' & Ec). assert (x' = x) by congruence. subst x'.
      destruct (Hall t x Hx) as [_ Ku]; [congruence|]. destruct D as [D|D]; rewrite D in Ku; discriminate.
    + destruct cs as [|c1 cs]; [discriminate|]. destruct (D c1 (or_introl eq_refl)) as (_ & t & _ & [D'|D']);
        eapply NH; apply LH; exact D'.
  - exfalso.
    destruct (lock_start_post (aliveb s) od l (rw s) m c (i_rep _ _ H) Hc) as (l1 & r1 & RC & P).
    rewrite K in P. cbn [lock_post] in P. destruct P as (_ & _ & _ & _ & P).
    destruct full.
    + destruct (P eq_refl) as (_ & _ & E & _). rewrite (rc_cnt _ _ _ _ _ RC) in E by assumption.
      rewrite (i_cnt _ _ H c Ha Hc) in E.
      destruct (reads_pos c (thr s)) as (t & x & Hx & Ec & Hn); [lia|].
      destruct (Hall t x Hx) as [K2 _]; [congruence|]. rewrite K2 in Hn. cbn in Hn. lia.
    + unfold lock_start in K. cbn zeta in K. unfold lock_test in K.
      match type of K with (if ?b then _ else _) = _ => destruct b end.
      * destruct m; try discriminate. destruct (_ =? 0); discriminate.
      * eapply lock_finish_fail. eassumption.
Qed.

(** Upgrade: only other living readers or an urging writer are waited for. *)
Lemma upgrade_granted : forall p s od urge t x, reach p s -> overflow s = false ->
  nth_error (thr s) t = Some x -> aliveb s (tcid x) = true -> pc x = Idle -> held x = [HUpgr] ->
  mfree (mtx s) = true ->
  (forall t' x', nth_error (thr s) t' = Some x' -> t' <> t -> aliveb s (tcid x') = true ->
     held x' = [] /\ urged_pc (pc x') = false) ->
  exists r', upgrade_start (aliveb s) od urge (tcid x) (rw s) = Done r'.
Proof.
  intros p s od urge t x R OV Hx Ha Hp Hh Hm Hall. destruct (inv_reach p s R) as [l H].
  pose proof (i_cid _ _ H t x Hx) as Hc.
  assert (RD : forall c, reads c (thr s) = if tcid x =? c then 1 else
                 reads c (thr s)) by (intros c; destruct (N.eqb_spec (tcid x) c) as [<-|]; [|reflexivity];
     pose proof (reads_upd (tcid x) (thr s) t x (mkthr (tcid x) [] Idle) Hx) as U; rewrite N.eqb_refl in U;
     cbn [tcid held] in U; rewrite N.eqb_refl, Hh in U; cbn [nreads fold_right nread1] in U;
     assert (Z : reads (tcid x) (upd (thr s) t (mkthr (tcid x) [] Idle)) = 0);
     [ destruct (N.eq_dec (reads (tcid x) (upd (thr s) t (mkthr (tcid x) [] Idle))) 0) as [Z|Z]; [exact Z|];
       exfalso; destruct (reads_pos (tcid x) (upd (thr s) t (mkthr (tcid x) [] Idle))) as (t' & x' & Hx' & Ec & Hn); [lia|];
       destruct (nth_upd _ _ _ _ _ _ Hx Hx') as [[-> ->]|[Hne Hx'']]; [cbn in Hn; lia|];
       destruct (Hall t' x' Hx'' Hne) as [K _]; [congruence|]; rewrite K in Hn; cbn in Hn; lia
     | lia ]).
  assert (C1 : cnt l (tcid x) = 1).
  { rewrite (i_cnt _ _ H _ Ha Hc). rewrite RD, N.eqb_refl. reflexivity. }
  assert (CO : forall c, aliveb s c = true -> c <> 0 -> c <> tcid x -> cnt l c = 0).
  { intros c Hca Hc0 Hne. rewrite (i_cnt _ _ H _ Hca Hc0).
    destruct (N.eq_dec (reads c (thr s)) 0) as [Z|Z]; [exact Z|]. exfalso.
    destruct (reads_pos c (thr s)) as (t' & x' & Hx' & Ec & Hn); [lia|].
    destruct (Nat.eq_dec t' t) as [->|Hnt]; [congruence|].
    destruct (Hall t' x' Hx' Hnt) as [K _]; [congruence|]. rewrite K in Hn. cbn in Hn. lia. }
  assert (WZ : writer (rw s) <> 0 -> aliveb s (writer (rw s)) = false).
  { intros Hn. destruct (aliveb s (writer (rw s))) eqn:Ea; [|reflexivity]. exfalso.
    destruct (i_writer _ _ H Hn Ea) as [[t0 Et]|(t0 & x0 & Hx0 & Ec & Eu)]; [rewrite Et in Hm; discriminate|].
    destruct (Nat.eq_dec t0 t) as [->|Hnt].
    - assert (x0 = x) by congruence. subst x0. rewrite Hp in Eu. discriminate.
    - destruct (Hall t0 x0 Hx0 Hnt) as [_ K]; congruence. }
  (* the recovered state does not block *)
  assert (NB : forall l0 r0, rep l0 r0 -> (forall c, aliveb s c = true -> cnt l0 c = cnt l c) ->
     cleared (aliveb s) (writer (rw s)) (writer r0) ->
     upgrade_blocked urge false (recover (aliveb s) r0) = false).
  { intros l0 r0 HR HC HW. destruct (recover_rep (aliveb s) l0 r0 HR) as (R2 & _ & W2 & _).
    assert (EL : live_part (aliveb s) l0 = [(tcid x, 1)]).
    { assert (IN : forall c, In c (map fst (live_part (aliveb s) l0)) -> c = tcid x).
      { intros c Hin. pose proof (cnt_in_pos _ _ (rep_ok _ _ R2) Hin) as P.
        rewrite cnt_live_part in P. destruct (aliveb s c) eqn:Ec; [|lia].
        destruct (N.eq_dec c (tcid x)); [assumption|]. rewrite HC in P by assumption.
        assert (c <> 0). { apply in_map_iff in Hin. destruct Hin as (e & <- & He).
          pose proof (rep_ok _ _ R2) as F. rewrite Forall_forall in F. apply F in He. apply He. }
        rewrite CO in P by assumption. lia. }
      assert (CC : cnt (live_part (aliveb s) l0) (tcid x) = 1) by (rewrite cnt_live_part, Ha, HC by assumption; assumption).
      destruct (live_part (aliveb s) l0) as [|[c1 n1] l2]; [discriminate|].
      assert (c1 = tcid x) by (apply IN; left; reflexivity). subst c1.
      cbn [cnt] in CC. rewrite N.eqb_refl in CC. subst n1.
      destruct l2 as [|[c2 n2] l3]; [reflexivity|]. exfalso.
      assert (c2 = tcid x) by (apply IN; right; left; reflexivity). subst c2.
      pose proof (rep_nodup _ _ R2) as ND. inversion ND; subst. apply H2. left. reflexivity. }
    rewrite EL in R2.
    unfold upgrade_blocked. rewrite (get_readers_out _ _ 1 R2) by (cbn; lia).
    pose proof (get_rcount_rep [] (tcid x) 1 [] _ R2) as G. cbn [length] in G. rewrite G.
    assert (EW : writer (recover (aliveb s) r0) = 0).
    { rewrite W2. destruct (N.eqb_spec (writer r0) 0) as [E0|E0]; [reflexivity|].
      pose proof (cleared_nz _ _ _ HW E0) as EQ. unfold clear_dead. rewrite EQ, WZ by congruence. reflexivity. }
    rewrite EW. reflexivity. }
  unfold upgrade_start. cbn zeta.
  destruct (recd_if (aliveb s) l (rw s) od (i_rep _ _ H)) as [l0 R0].
  set (q0 := if od then recover (aliveb s) (rw s) else rw s) in *. clearbody q0.
  set (q := if urge then set_upgr 0 (assert_ (upgr q0 =? tcid x) q0) else assert_ (upgr q0 =? tcid x) q0).
  assert (HQ : rep l0 q) by (pose proof (rc_rep _ _ _ _ _ R0); unfold q; destruct urge; auto with rwl).
  assert (QW : writer q = writer q0) by (unfold q; destruct urge; reflexivity).
  assert (FIN : forall l2 q2, rep l2 q2 -> 1 <= cnt l2 (tcid x) -> upgrade_blocked urge false q2 = false ->
     exists r', upgrade_test urge (tcid x) false q2 = Done r').
  { intros l2 q2 HR2 Hcn Hb. unfold upgrade_test. rewrite Hb. unfold upgrade_blocked in Hb.
    apply orb_false_iff in Hb. destruct Hb as [Hb Hw]. apply orb_false_iff in Hb. destruct Hb as [E1 E2].
    apply N.ltb_ge in E2. unfold upgrade_finish.
    pose proof (in_cnt_one _ _ _ HR2 Hcn E1 E2) as ->.
    match goal with |- context [reader_del ?z _] => assert (HZ : rep [(tcid x, 1)] z) by (destruct urge; auto with rwl);
       pose proof (reader_del_rep _ z (tcid x) HZ Hc) as D; destruct (reader_del z (tcid x)) end.
    - destruct urge; eauto.
    - exfalso. apply D. left. reflexivity. }
  assert (CQ : 1 <= cnt l0 (tcid x)) by (rewrite (rc_cnt _ _ _ _ _ R0) by assumption; lia).
  match goal with |- context [upgrade_blocked urge false ?z] => change z with q end.
  destruct (upgrade_blocked urge false q) eqn:Eb.
  - apply (FIN (live_part (aliveb s) l0)).
    + apply (recover_rep (aliveb s) l0 q HQ).
    + rewrite cnt_live_part, Ha. assumption.
    + apply (NB l0 q HQ); [apply (rc_cnt _ _ _ _ _ R0)|]. rewrite QW. apply (rc_writer _ _ _ _ _ R0).
  - apply (FIN l0 q HQ CQ Eb).
Qed.

(** ** C03 *)

Lemma clean_no_trace : forall p s c, reach p s -> overflow s = false -> c <> 0 -> conn_clean s c -> no_trace s c.
Proof.
  intros p s c R OV Hc [Ha HC]. destruct (inv_reach p s R) as [l H]. repeat split.
  - intros Hin. apply (rep_in _ _ _ (i_rep _ _ H) Hc) in Hin.
    pose proof (cnt_in_pos _ _ (rep_ok _ _ (i_rep _ _ H)) Hin) as [Hp _].
    rewrite (i_cnt _ _ H c Ha Hc) in Hp. destruct (reads_pos _ _ Hp) as (t & x & Hx & Ec & Hn).
    destruct (HC t x Hx Ec) as [K _]. rewrite K in Hn. cbn in Hn. lia.
  - intros E. destruct (invU_reach p s R OV) as (t & x & Hx & Ec & Hi & _); [congruence|congruence|].
    destruct (HC t x Hx) as [K _]; [congruence|]. rewrite K in Hi. destruct Hi.
  - intros E. destruct (i_writer _ _ H) as [[t Et]|(t & x & Hx & Ec & Eu)]; [congruence|congruence| |].
    + destruct (i_own _ _ H t Et) as (_ & x & Hx & Hh & _ & _ & Ew).
      destruct (HC t x Hx) as [K _]; [congruence|]. rewrite K in Hh. discriminate.
    + destruct (HC t x Hx) as [_ K]; [congruence|]. rewrite K in Eu. discriminate.
  - intros t (x & Hx & Ec) Et. destruct (i_own _ _ H t Et) as (_ & x' & Hx' & Hh & _).
    assert (x' = x) by congruence. subst x'. destruct (HC t x Hx Ec) as [K _]. rewrite K in Hh. discriminate.
Qed.

(** Once everybody released everything (and nobody died), the structure is as after
    initialisation. *)
Lemma all_clean_initial : forall p s, reach p s -> overflow s = false -> dead s = [] ->
  (forall t x, nth_error (thr s) t = Some x -> held x = [] /\ pc x = Idle) ->
  readers (rw s) = readers rw_init /\ rcount (rw s) = rcount rw_init /\
  upgr (rw s) = 0 /\ writer (rw s) = 0 /\ mfree (mtx s) = true.
Proof.
  intros p s R OV D HA. destruct (inv_reach p s R) as [l H].
  assert (AL : forall c, aliveb s c = true) by (intros; unfold aliveb, is_dead; rewrite D; reflexivity).
  assert (l = []).
  { destruct l as [|[c n] l]; [reflexivity|]. exfalso.
    pose proof (rep_ok _ _ (i_rep _ _ H)) as F. inversion F as [|? ? [F1 F2] _]; subst. cbn [fst snd] in *.
    pose proof (i_cnt _ _ H c (AL c) F1) as K. cbn [cnt] in K. rewrite N.eqb_refl in K.
    destruct (reads_pos c (thr s)) as (t & x & Hx & Ec & Hn); [lia|].
    destruct (HA t x Hx) as [K2 _]. rewrite K2 in Hn. cbn in Hn. lia. }
  subst l. repeat split.
  - apply (rep_readers _ _ (i_rep _ _ H)).
  - apply (rep_rcount _ _ (i_rep _ _ H)).
  - destruct (N.eq_dec (upgr (rw s)) 0) as [E|E]; [assumption|]. exfalso.
    destruct (invU_reach p s R OV E (AL _)) as (t & x & Hx & Ec & Hi & _).
    destruct (HA t x Hx) as [K _]. rewrite K in Hi. destruct Hi.
  - destruct (N.eq_dec (writer (rw s)) 0) as [E|E]; [assumption|]. exfalso.
    destruct (i_writer _ _ H E (AL _)) as [[t Et]|(t & x & Hx & Ec & Eu)].
    + destruct (i_own _ _ H t Et) as (_ & x & Hx & Hh & _).
      destruct (HA t x Hx) as [K _]. rewrite K in Hh. discriminate.
    + destruct (HA t x Hx) as [_ K]. rewrite K in Eu. discriminate.
  - destruct (mtx s) eqn:E; try reflexivity. exfalso.
    destruct (i_own _ _ H t E) as (_ & x & Hx & Hh & _).
    destruct (HA t x Hx) as [K _]. rewrite K in Hh. discriminate.
Qed.
