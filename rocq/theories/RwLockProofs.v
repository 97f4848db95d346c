(** Invariants of the transition system of RwLock.v. *)
From Coq Require Import List NArith Lia Bool Arith.
From Verif Require Import RwLock RwLockTable.
Import ListNotations.
Open Scope N_scope.

Local Opaque recover.

(** ** Threads *)

Definition nread1 (h : hold) : N := match h with HRead | HUpgr => 1 | HWrite => 0 end.
Definition nreads (h : list hold) : N := fold_right (fun x n => nread1 x + n) 0 h.
Fixpoint reads (c : N) (l : list thread) : N :=
  match l with
  | [] => 0
  | x :: r => (if tcid x =? c then nreads (held x) else 0) + reads c r
  end.

Lemma nth_upd_eq : forall l t x y, nth_error l t = Some x -> nth_error (upd l t y) t = Some y.
Proof. induction l; destruct t; cbn; intros; try discriminate; eauto. Qed.

Lemma nth_upd_neq : forall l t t' y, t <> t' -> nth_error (upd l t y) t' = nth_error l t'.
Proof. induction l; destruct t, t'; cbn; intros; try congruence; auto. Qed.

Lemma nth_upd : forall l t t' x y z, nth_error l t = Some x ->
  nth_error (upd l t y) t' = Some z -> (t' = t /\ z = y) \/ (t' <> t /\ nth_error l t' = Some z).
Proof.
  intros l t t' x y z H H'. destruct (Nat.eq_dec t' t) as [->|Hne].
  - rewrite (nth_upd_eq l t x y H) in H'. left. split; congruence.
  - rewrite nth_upd_neq in H' by congruence. auto.
Qed.

Lemma reads_upd : forall c l t x y, nth_error l t = Some x ->
  reads c (upd l t y) + (if tcid x =? c then nreads (held x) else 0) =
  reads c l + (if tcid y =? c then nreads (held y) else 0).
Proof.
  induction l; destruct t; cbn [nth_error upd reads]; intros x y H; try discriminate.
  - inversion H; subst. lia.
  - specialize (IHl t x y H). lia.
Qed.

Lemma reads_in : forall c l t x, nth_error l t = Some x -> tcid x = c -> nreads (held x) <= reads c l.
Proof.
  induction l; destruct t; cbn [nth_error reads]; intros x H E; try discriminate.
  - inversion H; subst. rewrite N.eqb_refl. lia.
  - specialize (IHl t x H E). lia.
Qed.

Lemma reads_two : forall c l t x t' x', nth_error l t = Some x -> nth_error l t' = Some x' -> t <> t' ->
  tcid x = c -> tcid x' = c -> nreads (held x) + nreads (held x') <= reads c l.
Proof.
  induction l; destruct t, t'; cbn [nth_error reads]; intros; try discriminate; try congruence.
  - inversion H; subst. rewrite N.eqb_refl. pose proof (reads_in _ _ _ _ H0 H3). lia.
  - inversion H0; subst. rewrite H3, N.eqb_refl. pose proof (reads_in (tcid x) _ _ _ H eq_refl). lia.
  - assert (t <> t') by congruence. pose proof (IHl _ _ _ _ H H0 H4 H2 H3). lia.
Qed.

Lemma nreads_cons : forall k h, nreads (k :: h) = nread1 k + nreads h.
Proof. reflexivity. Qed.

Lemma nreads_upgr : forall h, In HUpgr h -> 1 <= nreads h.
Proof.
  induction h; cbn [In]; intros; [destruct H|]. rewrite nreads_cons.
  destruct H as [->|H]; cbn [nread1]; [lia|]. specialize (IHh H). lia.
Qed.

Lemma nreads_down : forall b h, In (hold_down b) h -> 1 <= nreads h.
Proof.
  intros b. induction h; cbn [In]; intros; [destruct H|]. rewrite nreads_cons.
  destruct H as [->|H]; [destruct b; cbn [nread1 hold_down]; lia|]. specialize (IHh H). lia.
Qed.

Lemma nreads_drop1 : forall k h, In k h -> nreads (drop1 k h) + nread1 k = nreads h.
Proof.
  induction h; cbn [In drop1]; intros; [destruct H|].
  rewrite nreads_cons. destruct (hold_eqb k a) eqn:E.
  - assert (k = a) by (destruct k, a; cbn in E; congruence). subst. lia.
  - destruct H as [->|H]; [destruct k; discriminate|]. specialize (IHh H).
    rewrite nreads_cons. lia.
Qed.

Lemma in_drop1 : forall k k' h, In k (drop1 k' h) -> In k h.
Proof.
  induction h; cbn [drop1 In]; intros; [assumption|].
  destruct (hold_eqb k' a); [auto|]. cbn [In] in H. destruct H; auto.
Qed.

Lemma nreads0_nil : forall h, nreads h = 0 -> ~ In HWrite h -> h = [].
Proof.
  destruct h as [|[] h]; intros; auto; rewrite nreads_cons in H; cbn [nread1] in H; try lia.
  exfalso. apply H0. left. reflexivity.
Qed.

Lemma kill_nth : forall c l t y, nth_error (map (kill_thread c) l) t = Some y ->
  exists x, nth_error l t = Some x /\ y = kill_thread c x.
Proof.
  intros c l t y H. rewrite nth_error_map in H. destruct (nth_error l t); cbn in H; [|discriminate].
  inversion H. eauto.
Qed.

Lemma kill_tcid : forall c x, tcid (kill_thread c x) = tcid x.
Proof. intros. unfold kill_thread. destruct (tcid x =? c); reflexivity. Qed.

Lemma reads_kill : forall c c' l, c' <> c -> reads c' (map (kill_thread c) l) = reads c' l.
Proof.
  induction l; intros; cbn [map reads]; [reflexivity|]. rewrite IHl by assumption. f_equal.
  rewrite kill_tcid. destruct (N.eqb_spec (tcid a) c') as [<-|]; [|reflexivity].
  unfold kill_thread. destruct (N.eqb_spec (tcid a) c); [congruence|reflexivity].
Qed.

(** ** Recovery at some point *)

(** [r1] is [r] possibly after sr_rwlock_recover(). *)
Definition cleared (alive : N -> bool) (w w1 : N) : Prop :=
  w1 = w \/ (w1 = 0 /\ alive w = false).

Record recd (alive : N -> bool) (l : list ent) (r : rwlock) (l1 : list ent) (r1 : rwlock) : Prop := {
  rc_rep : rep l1 r1;
  rc_cnt : forall c, alive c = true -> cnt l1 c = cnt l c;
  rc_in : forall c, In c (map fst l1) -> In c (map fst l);
  rc_writer : cleared alive (writer r) (writer r1);
  rc_upgr : cleared alive (upgr r) (upgr r1);
  rc_bad : bad r1 = bad r;
  (* a dead reader and a dead upgradable reader are removed together *)
  rc_upgr_in : (In (upgr r) (map fst l) -> upgr r1 <> 0 -> In (upgr r1) (map fst l1))
}.

Lemma recd_refl : forall alive l r, rep l r -> recd alive l r l r.
Proof. intros. constructor; auto; left; reflexivity. Qed.

Lemma live_part_in : forall alive l c, In c (map fst (live_part alive l)) <-> In c (map fst l) /\ alive c = true.
Proof.
  intros. unfold live_part. rewrite !in_map_iff. split.
  - intros (e & <- & H). apply filter_In in H. destruct H. split; eauto.
  - intros [(e & <- & H) E]. exists e. split; [reflexivity|]. apply filter_In. auto.
Qed.

Lemma recd_recover : forall alive l r, rep l r ->
  recd alive l r (live_part alive l) (recover alive r).
Proof.
  intros alive l r H. destruct (recover_rep alive l r H) as (HR & HU & HW & HB).
  constructor; auto.
  - intros c Hc. rewrite cnt_live_part, Hc. reflexivity.
  - intros c Hc. apply live_part_in in Hc. apply Hc.
  - unfold cleared. rewrite HW. destruct (N.eqb_spec (writer r) 0); [left; congruence|].
    unfold clear_dead. destruct (alive (writer r)) eqn:E; auto.
  - unfold cleared. rewrite HU. destruct (N.eqb_spec (upgr r) 0); [left; congruence|].
    unfold clear_dead. destruct (alive (upgr r)) eqn:E; auto.
  - intros Hin Hn. rewrite HU in *. destruct (N.eqb_spec (upgr r) 0); [congruence|].
    unfold clear_dead in *. destruct (alive (upgr r)) eqn:E; [|congruence].
    apply live_part_in. auto.
Qed.

Lemma recd_trans : forall alive l r l1 r1 l2 r2,
  recd alive l r l1 r1 -> recd alive l1 r1 l2 r2 -> recd alive l r l2 r2.
Proof.
  intros alive l r l1 r1 l2 r2 A B. destruct A, B. constructor; auto.
  - intros c Hc. rewrite rc_cnt1, rc_cnt0 by assumption. reflexivity.
  - unfold cleared in *. destruct rc_writer0 as [E|[E F]]; [rewrite E in *; assumption|].
    right. split; [|assumption]. destruct rc_writer1 as [G|[G _]]; congruence.
  - unfold cleared in *. destruct rc_upgr0 as [E|[E F]]; [rewrite E in *; assumption|].
    right. split; [|assumption]. destruct rc_upgr1 as [G|[G _]]; congruence.
  - congruence.
  - intros Hin Hn. apply rc_upgr_in1; [|assumption].
    apply rc_upgr_in0; [assumption|]. unfold cleared in *.
    intros E. rewrite E in rc_upgr1. destruct rc_upgr1 as [G|[G _]]; congruence.
Qed.

Lemma recd_if : forall alive l r (b : bool), rep l r ->
  exists l1, recd alive l r l1 (if b then recover alive r else r).
Proof.
  intros. destruct b; eexists; [apply recd_recover|apply recd_refl]; assumption.
Qed.

(** ** Effect of the parts of the lock functions *)

Ltac sp := repeat match goal with |- _ /\ _ => split | |- _ -> _ => intro end.

Definition rdmode (m : mode) : bool := match m with MRead | MUpgr => true | _ => false end.

(** [g] is the result of locking in mode [m] from the (recovered) state [r]. *)
Definition lock_post (l : list ent) (r : rwlock) (m : mode) (c : N) (u : bool) (g : seg) : Prop :=
  match g with
  | Done r' =>
    match m with
    | MRead | MUpgr =>
      (exists l', rep l' r' /\ cnt l' c = cnt l c + 1 /\ (forall c', c' <> c -> cnt l' c' = cnt l c') /\
         (forall c', In c' (map fst l') <-> c' = c \/ In c' (map fst l))) /\
      writer r = 0 /\ writer r' = 0 /\
      (m = MRead -> upgr r' = upgr r) /\ (m = MUpgr -> upgr r = 0 /\ upgr r' = c) /\ bad r' = bad r
    | MWrite =>
      l = [] /\ rep [] r' /\ writer r = 0 /\ writer r' = c /\ upgr r' = upgr r /\
      bad r' = bad r || negb (upgr r =? 0)
    | MUrge =>
      l = [] /\ rep [] r' /\
      ((u = false /\ writer r = 0 /\ writer r' = c) \/ (u = true /\ writer r' = writer r)) /\
      upgr r' = upgr r /\ bad r' = bad r || negb (upgr r =? 0) || negb (writer r' =? c)
    end
  | Wait r' u' =>
    rep l r' /\ upgr r' = upgr r /\ bad r' = bad r /\
    ((u' = u /\ writer r' = writer r) \/ (m = MUrge /\ u' = true /\ writer r = 0 /\ writer r' = c)) /\
    (m <> MUrge -> u' = u)
  | Fail r' full =>
    rep l r' /\ bad r' = bad r /\
    (full = false -> upgr r' = upgr r /\ (writer r' = writer r \/ (m = MUrge /\ u = true /\ writer r' = 0))) /\
    (full = false -> m = MUrge -> u = true -> writer r' = 0) /\
    (full = true -> rdmode m = true /\ writer r' = writer r /\ cnt l c = 255 /\
                    (m = MRead -> upgr r' = upgr r))
  end.

Lemma nz_false : forall n, nz n = false <-> n = 0.
Proof. intros. unfold nz. destruct (N.eqb_spec n 0); cbn; split; congruence. Qed.
Lemma nz_true : forall n, nz n = true <-> n <> 0.
Proof. intros. unfold nz. destruct (N.eqb_spec n 0); cbn; split; congruence. Qed.

Lemma add_not_full : forall l r, rep l r -> nz (get (readers r) (READ_LIMIT - 1)) = false ->
  length l <> READ_LIMIT.
Proof.
  intros l r H E F. apply nz_false in E.
  assert (get (readers r) (READ_LIMIT - 1) <> 0); [|congruence].
  apply (get_readers_nz _ _ _ H). rewrite F. unfold READ_LIMIT. lia.
Qed.

Lemma lock_finish_post : forall l r m c u, rep l r -> c <> 0 -> lock_blocked m u r = false ->
  lock_post l r m c u (lock_finish m c u r).
Proof.
  intros l r m c u H Hc Hb. destruct m; cbn [lock_blocked lock_finish] in *.
  - (* MRead *)
    apply orb_false_iff in Hb. destruct Hb as [Hb Hw]. apply nz_false in Hw.
    pose proof (reader_add_rep l r c H Hc) as A. destruct (reader_add r c) as [r'|] eqn:E.
    + destruct A as ((F1 & F2 & F3) & l' & A1 & A2 & A3 & A4). cbn [lock_post].
      sp; try congruence. exists l'. auto.
    + cbn [lock_post]. sp; auto; try discriminate.
      destruct A as [A|[A _]]; [assumption|]. exfalso. eapply add_not_full; eassumption.
  - (* MUpgr *)
    apply orb_false_iff in Hb. destruct Hb as [Hb Hw]. apply orb_false_iff in Hb. destruct Hb as [Hb Hu].
    apply nz_false in Hw. apply nz_false in Hu.
    pose proof (reader_add_rep l (set_upgr c r) c (rep_set_upgr _ _ _ H) Hc) as A.
    destruct (reader_add (set_upgr c r) c) as [r'|] eqn:E.
    + destruct A as ((F1 & F2 & F3) & l' & A1 & A2 & A3 & A4). cbn [set_upgr upgr writer bad] in *.
      cbn [lock_post]. sp; try congruence. exists l'. auto.
    + cbn [lock_post set_upgr upgr writer bad]. sp; auto with rwl; try discriminate.
      destruct A as [A|[A _]]; [assumption|]. exfalso. eapply add_not_full; [exact H| |exact A]. assumption.
  - (* MWrite *)
    apply orb_false_iff in Hb. destruct Hb as [Hb Hw]. apply nz_false in Hw.
    pose proof (rep_nil_readers0 l r H Hb). subst l. cbn [lock_post set_writer assert_ upgr writer bad].
    rewrite Hw. cbn [N.eqb]. rewrite andb_true_r. sp; auto with rwl.
  - (* MUrge *)
    apply orb_false_iff in Hb. destruct Hb as [Hb Hw].
    pose proof (rep_nil_readers0 l r H Hb). subst l. cbn [lock_post].
    destruct u; cbn [set_writer assert_ upgr writer bad].
    + sp; auto with rwl.
    + cbn [negb] in Hw. rewrite andb_true_r in Hw. apply nz_false in Hw. sp; auto with rwl.
Qed.

Lemma lock_test_post : forall l r m c u, rep l r -> c <> 0 ->
  lock_post l r m c u (lock_test m c u r).
Proof.
  intros l r m c u H Hc. unfold lock_test. destruct (lock_blocked m u r) eqn:E.
  - destruct m; cbn [lock_post]; try (sp; auto; fail).
    destruct (N.eqb_spec (writer r) 0); cbn [lock_post set_writer upgr writer bad]; sp; auto with rwl; congruence.
  - apply lock_finish_post; assumption.
Qed.

Lemma lock_start_post : forall alive od l r m c, rep l r -> c <> 0 ->
  exists l1 r1, recd alive l r l1 r1 /\ lock_post l1 r1 m c false (lock_start alive od m c r).
Proof.
  intros alive od l r m c H Hc. unfold lock_start.
  destruct (recd_if alive l r od H) as [l1 R1].
  set (r1 := if od then recover alive r else r) in *.
  destruct (recd_if alive l1 r1 (lock_blocked m false r1) (rc_rep _ _ _ _ _ R1)) as [l2 R2].
  exists l2, (if lock_blocked m false r1 then recover alive r1 else r1).
  split; [eapply recd_trans; eassumption|].
  apply lock_test_post; [apply (rc_rep _ _ _ _ _ R2)|assumption].
Qed.

Lemma lock_wake_post : forall alive to l r m c u, rep l r -> c <> 0 ->
  exists l1 r1, recd alive l r l1 r1 /\ lock_post l1 r1 m c u (lock_wake alive to m c u r).
Proof.
  intros alive to l r m c u H Hc. unfold lock_wake. destruct to.
  - pose proof (recd_recover alive l r H) as R.
    exists (live_part alive l), (recover alive r). split; [assumption|].
    pose proof (rc_rep _ _ _ _ _ R) as H1. clear R. revert H1. generalize (recover alive r). intros q H1.
    destruct (lock_blocked m u q) eqn:E; cbn [negb].
    + destruct m; cbn [lock_post]; try (sp; auto; discriminate).
      destruct u; sp; auto with rwl; discriminate.
    + apply lock_finish_post; assumption.
  - exists l, r. split; [apply recd_refl; assumption|]. apply lock_test_post; assumption.
Qed.

(** Upgrade from the recovered state [r]. *)
Definition upgrade_post (l : list ent) (r : rwlock) (urge : bool) (c : N) (u : bool) (g : seg) : Prop :=
  match g with
  | Done r' =>
    l = [(c, 1)] /\ rep [] r' /\
    ((writer r = 0 /\ writer r' = c /\ (urge = true -> u = false)) \/
     (urge = true /\ u = true /\ writer r' = writer r)) /\
    (urge = false -> upgr r' = 0) /\ (urge = true -> upgr r' = upgr r) /\
    bad r' = bad r || (negb urge && negb (upgr r =? c))
  | Wait r' u' =>
    rep l r' /\ upgr r' = upgr r /\ bad r' = bad r /\
    ((u' = u /\ writer r' = writer r) \/ (urge = true /\ u' = true /\ writer r = 0 /\ writer r' = c)) /\
    (urge = true -> writer r = 0 -> u' = true) /\ (urge = false -> u' = u)
  | Fail r' _ =>
    rep l r' /\ bad r' = bad r /\
    (urge = false -> upgr r' = upgr r) /\ (urge = true -> upgr r' = c) /\
    (writer r' = if urge && u then 0 else writer r)
  end.

Lemma in_cnt_one : forall l r c, rep l r -> 1 <= cnt l c ->
  nz (get (readers r) 1) = false -> get (rcount r) 0 <= 1 -> l = [(c, 1)].
Proof.
  intros l r c H Hin E1 E2. destruct (rep_one l r H E1 E2) as [->|[c' ->]].
  - cbn in Hin. lia.
  - cbn [cnt] in Hin. destruct (N.eqb_spec c' c); [congruence|lia].
Qed.

Lemma upgrade_finish_post : forall l r urge c u, rep l r -> c <> 0 -> 1 <= cnt l c ->
  nz (get (readers r) 1) = false -> get (rcount r) 0 <= 1 ->
  (nz (writer r) = false \/ urge && u = true) ->
  upgrade_post l r urge c u (upgrade_finish urge c u r).
Proof.
  intros l r urge c u H Hc Hin E1 E2 Hw.
  pose proof (in_cnt_one l r c H Hin E1 E2) as ->.
  unfold upgrade_finish.
  pose proof (get_readers_rep [] c 1 [] r H) as G. cbn [length] in G. rewrite G, N.eqb_refl, andb_true_r.
  set (r1 := if urge then assert_ true r else assert_ (upgr r =? c) r).
  assert (H1 : rep [(c, 1)] r1) by (unfold r1; destruct urge; auto with rwl).
  pose proof (reader_del_rep _ r1 c H1 Hc) as D.
  destruct (reader_del r1 c) as [r2|].
  - destruct D as ((F1 & F2 & F3) & _ & l2 & D1 & D2 & D3 & D4 & D5).
    cbn [cnt] in D2. rewrite N.eqb_refl in D2.
    assert (l2 = []).
    { destruct l2 as [|[c2 n2] l2]; [reflexivity|]. exfalso.
      assert (In c2 (map fst ((c2, n2) :: l2))) by (left; reflexivity).
      pose proof (D4 c2 H0) as K. cbn in K. destruct K as [K|[]]. subst c2.
      pose proof (cnt_in_pos _ c (rep_ok _ _ D1) H0). lia. }
    subst l2.
    assert (W1 : writer r1 = writer r) by (unfold r1; destruct urge; reflexivity).
    assert (U1 : upgr r1 = upgr r) by (unfold r1; destruct urge; reflexivity).
    assert (B1 : bad r1 = bad r || (negb urge && negb (upgr r =? c))).
    { unfold r1; destruct urge; cbn; rewrite ?orb_false_r; reflexivity. }
    destruct urge; cbn [upgrade_post].
    + destruct u; cbn [set_writer upgr writer bad andb] in *.
      * sp; try congruence; auto.
      * destruct Hw as [Hw|Hw]; [|discriminate]. apply nz_false in Hw.
        sp; try congruence; auto with rwl.
    + destruct Hw as [Hw|Hw]; [|discriminate]. apply nz_false in Hw. cbn [set_writer set_upgr upgr writer bad].
      sp; try congruence; auto with rwl. left. sp; congruence.
  - exfalso. apply D. left. reflexivity.
Qed.

Lemma upgrade_test_post : forall l r urge c u, rep l r -> c <> 0 -> 1 <= cnt l c ->
  upgrade_post l r urge c u (upgrade_test urge c u r).
Proof.
  intros l r urge c u H Hc Hin. unfold upgrade_test. destruct (upgrade_blocked urge u r) eqn:E.
  - destruct urge; cbn [andb].
    + destruct (N.eqb_spec (writer r) 0); cbn [upgrade_post set_writer upgr writer bad];
        sp; auto with rwl; congruence.
    + cbn [upgrade_post]. sp; auto with rwl; congruence.
  - unfold upgrade_blocked in E. apply orb_false_iff in E. destruct E as [E Hw].
    apply orb_false_iff in E. destruct E as [E1 E2]. apply N.ltb_ge in E2.
    apply upgrade_finish_post; auto.
    destruct (nz (writer r)); [|auto]. right. cbn [andb] in Hw. destruct (urge && u); [reflexivity|discriminate].
Qed.

(** State after the flag changes at the start of an upgrade. *)
Lemma upgrade_start_post : forall alive od (urge : bool) l r c, rep l r -> c <> 0 ->
  alive c = true -> 1 <= cnt l c ->
  exists l0 r0 l1 r1,
    recd alive l r l0 r0 /\
    recd alive l0 (if urge then set_upgr 0 (assert_ (upgr r0 =? c) r0) else assert_ (upgr r0 =? c) r0) l1 r1 /\
    1 <= cnt l1 c /\
    upgrade_post l1 r1 urge c false (upgrade_start alive od urge c r).
Proof.
  intros alive od urge l r c H Hc Ha Hin. unfold upgrade_start.
  destruct (recd_if alive l r od H) as [l1 R1].
  set (r0 := if od then recover alive r else r) in *.
  exists l1, r0.
  set (r1 := if urge then set_upgr 0 (assert_ (upgr r0 =? c) r0) else assert_ (upgr r0 =? c) r0).
  assert (H1 : rep l1 r1) by (unfold r1; destruct urge; pose proof (rc_rep _ _ _ _ _ R1); auto with rwl).
  destruct (recd_if alive l1 r1 (upgrade_blocked urge false r1) H1) as [l2 R2].
  exists l2, (if upgrade_blocked urge false r1 then recover alive r1 else r1).
  split; [assumption|]. split; [assumption|].
  assert (1 <= cnt l2 c).
  { rewrite (rc_cnt _ _ _ _ _ R2) by assumption. rewrite (rc_cnt _ _ _ _ _ R1) by assumption. assumption. }
  split; [assumption|].
  change (upgrade_post l2 (if upgrade_blocked urge false r1 then recover alive r1 else r1) urge c false
    (upgrade_test urge c false (if upgrade_blocked urge false r1 then recover alive r1 else r1))).
  apply upgrade_test_post; [apply (rc_rep _ _ _ _ _ R2)|assumption|assumption].
Qed.

Lemma upgrade_wake_post : forall alive to urge l r c u, rep l r -> c <> 0 ->
  alive c = true -> 1 <= cnt l c ->
  exists l1 r1, recd alive l r l1 r1 /\ 1 <= cnt l1 c /\ upgrade_post l1 r1 urge c u (upgrade_wake alive to urge c u r).
Proof.
  intros alive to urge l r c u H Hc Ha Hin. unfold upgrade_wake. destruct to.
  - pose proof (recd_recover alive l r H) as R.
    exists (live_part alive l), (recover alive r). split; [assumption|].
    pose proof (rc_rep _ _ _ _ _ R) as H1.
    assert (C1 : 1 <= cnt (live_part alive l) c) by (rewrite cnt_live_part, Ha; assumption).
    split; [assumption|]. clear R. revert H1. generalize (recover alive r). intros q H1.
    destruct (negb (nz (get (readers q) 1)) && (get (rcount q) 0 =? 1) &&
              (negb (nz (writer q)) || urge && u)) eqn:E.
    + apply andb_true_iff in E. destruct E as [E Hw]. apply andb_true_iff in E. destruct E as [E1 E2].
      apply N.eqb_eq in E2. apply negb_true_iff in E1.
      apply upgrade_finish_post; auto; [lia|].
      apply orb_true_iff in Hw. destruct Hw as [Hw|Hw]; [left; apply negb_true_iff; assumption|auto].
    + cbn [upgrade_post]. destruct urge, u; cbn [andb set_upgr set_writer upgr writer bad];
        sp; auto with rwl; congruence.
  - exists l, r. split; [apply recd_refl; assumption|]. split; [assumption|]. apply upgrade_test_post; assumption.
Qed.

(** ** The main invariant *)

Definition urged_pc (p : pcs) : bool :=
  match p with
  | LockWait MUrge true => true
  | UpgrWait true true => true
  | _ => false
  end.

Record inv (s : sys) (l : list ent) : Prop := mkinv {
  i_rep : rep l (rw s);
  i_cnt : forall c, aliveb s c = true -> c <> 0 -> cnt l c = reads c (thr s);
  i_write : forall t x, nth_error (thr s) t = Some x -> In HWrite (held x) -> mtx s = MOwn t;
  i_own : forall t, mtx s = MOwn t -> l = [] /\ exists x, nth_error (thr s) t = Some x /\
            held x = [HWrite] /\ pc x = Idle /\ aliveb s (tcid x) = true /\ writer (rw s) = tcid x;
  i_dead : forall t x, nth_error (thr s) t = Some x -> aliveb s (tcid x) = false -> held x = [] /\ pc x = Idle;
  i_cid : forall t x, nth_error (thr s) t = Some x -> tcid x <> 0;
  i_upgr : forall t x a b, nth_error (thr s) t = Some x -> pc x = UpgrWait a b -> In HUpgr (held x);
  i_writer : writer (rw s) <> 0 -> aliveb s (writer (rw s)) = true ->
     (exists t, mtx s = MOwn t) \/
     (exists t x, nth_error (thr s) t = Some x /\ tcid x = writer (rw s) /\ urged_pc (pc x) = true);
  i_urged : forall t x, nth_error (thr s) t = Some x -> urged_pc (pc x) = true ->
     writer (rw s) = tcid x /\ mfree (mtx s) = true;
  i_urged1 : forall t x t' x', nth_error (thr s) t = Some x -> urged_pc (pc x) = true ->
     nth_error (thr s) t' = Some x' -> urged_pc (pc x') = true -> t = t'
}.

Lemma inv_init : forall s, sys_start s -> inv s [].
Proof.
  intros s (H1 & H2 & H3 & H4 & H5 & HF). rewrite Forall_forall in HF.
  assert (HT : forall t x, nth_error (thr s) t = Some x -> tcid x <> 0 /\ held x = [] /\ pc x = Idle).
  { intros t x Hx. apply HF. eapply nth_error_In. eassumption. }
  constructor.
  - rewrite H1. apply rep_init.
  - intros c _ _. cbn [cnt]. induction (thr s) as [|x l IH]; cbn [reads]; [reflexivity|].
    rewrite <- IH.
    + destruct (HF x (or_introl eq_refl)) as (_ & -> & _). destruct (tcid x =? c); reflexivity.
    + intros y Hy. apply HF. right. assumption.
    + intros t y Hy. apply (HT (S t) y). assumption.
  - intros t x Hx Hin. destruct (HT t x Hx) as (_ & E & _). rewrite E in Hin. destruct Hin.
  - intros t E. rewrite H2 in E. discriminate.
  - intros t x Hx _. destruct (HT t x Hx) as (_ & ? & ?). auto.
  - intros t x Hx. apply (HT t x Hx).
  - intros t x a b Hx E. destruct (HT t x Hx) as (_ & _ & E'). congruence.
  - rewrite H1. cbn. congruence.
  - intros t x Hx E. destruct (HT t x Hx) as (_ & _ & E'). rewrite E' in E. discriminate.
  - intros t x t' x' Hx E. destruct (HT t x Hx) as (_ & _ & E'). rewrite E' in E. discriminate.
Qed.
