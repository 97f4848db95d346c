(** C23: buffered notifications are not lost or reordered. *)
From Coq Require Import List Bool Arith Lia.
From Verif Require Import NtfBuf NtfBufSpec NtfBufProofs NtfBufProgress.
Import ListNotations.

Lemma once_wr n tr : NoDup (wr tr) -> In (EWrite Buffered n) tr -> once (EWrite Buffered n) tr.
Proof.
  intros N H. apply in_split in H. destruct H as (x & y & ->). exists x, y. split; [reflexivity|].
  rewrite wr_app in N. cbn [wr] in N. apply NoDup_remove_2 in N. rewrite in_app_iff, !wr_in in N. tauto.
Qed.
Lemma once_dw n tr : NoDup (dw tr) -> In (EWrite Direct n) tr -> once (EWrite Direct n) tr.
Proof.
  intros N H. apply in_split in H. destruct H as (x & y & ->). exists x, y. split; [reflexivity|].
  rewrite dw_app in N. cbn [dw] in N. apply NoDup_remove_2 in N. rewrite in_app_iff, !dw_in in N. tauto.
Qed.
Lemma nodup_app_inv {A} (a b : list A) : NoDup (a ++ b) -> NoDup a /\ NoDup b /\ forall x, In x a -> ~ In x b.
Proof.
  induction a as [|x a IH]; cbn [app]; intros H; [split; [constructor|split; [exact H|intros x []]]|].
  inversion H as [|? ? H1 H2]; subst. destruct (IH H2) as (A1 & A2 & A3). split; [|split; [exact A2|]].
  - constructor; [|exact A1]. intros X. apply H1. apply in_or_app. left. exact X.
  - intros y [<-|Hy]; [|apply A3; exact Hy]. intros X. apply H1. apply in_or_app. right. exact X.
Qed.
Lemma logged_prefix tr s acc : logged tr s acc -> exists r, acc = wr tr ++ r.
Proof. unfold logged. destruct (bth s) as [ | | | |l last|l last|[]]; intros H; try (eexists; exact H). exact H. Qed.

(** Of any run of any number of senders, the buffering thread and stopping: if the stop succeeded, then every notification
    of which sending succeeded was written exactly once. *)
Theorem C23_stopped : forall tr s n h, runs tr s -> In (EStop true) tr -> In (ERet n h) tr -> h <> Refused ->
  once (EWrite h n) tr /\ forall h', In (EWrite h' n) tr -> h' = h.
Proof.
  intros tr s n h R St Hr Hh. destruct (inv_runs tr s R) as (acc & T & L).
  assert (E : bth s = BEnd true /\ buf s = []).
  { assert (B : bth s = BEnd true).
    { clear - R St. induction R as [|tr s e s' R IH Hs Hf]; [destruct St|]. apply in_app_or in St. destruct St as [St|St].
      - specialize (IH St). inversion Hs; subst; cbn [bth] in *; try assumption; try discriminate; try (rewrite IH; reflexivity).
      - inversion Hs; subst; cbn [In] in St; repeat (destruct St as [St|St]; try discriminate St); try destruct St. reflexivity. }
    split; [exact B|]. pose proof (v_last _ (sinv_runs tr s R)) as V. rewrite B in V. apply V. }
  destruct E as [E1 E2]. unfold logged in L. rewrite E1, E2 in L. cbn [pend app] in L. rewrite app_nil_r in L.
  destruct (nodup_app_inv _ _ (a_nodup _ _ _ T)) as (N1 & N2 & N3).
  destruct (a_ret _ _ _ T n h Hr) as [_ A]. destruct h; [| |congruence].
  - split; [apply once_dw; [exact N2|apply dw_in; exact A]|]. intros h' Hw. destruct h'; [reflexivity| |].
    + exfalso. apply wr_in in Hw. rewrite <- L in Hw. exact (N3 n Hw A).
    + exfalso. clear - R Hw. induction R as [|tr s e s' R IH Hs Hf]; [destruct Hw|]. apply in_app_or in Hw. destruct Hw as [Hw|Hw]; [exact (IH Hw)|].
      inversion Hs; subst; cbn [In] in Hw; repeat (destruct Hw as [Hw|Hw]; try discriminate Hw); destruct Hw.
  - rewrite L in A, N1, N3. split; [apply once_wr; [exact N1|apply wr_in; exact A]|]. intros h' Hw. destruct h'; [|reflexivity|].
    + exfalso. apply dw_in in Hw. exact (N3 n A Hw).
    + exfalso. clear - R Hw. induction R as [|tr s e s' R IH Hs Hf]; [destruct Hw|]. apply in_app_or in Hw. destruct Hw as [Hw|Hw]; [exact (IH Hw)|].
      inversion Hs; subst; cbn [In] in Hw; repeat (destruct Hw as [Hw|Hw]; try discriminate Hw); destruct Hw.
Qed.

(** At any time and whatever fails: notifications are written at most once, only after they were sent, never if sending of them
    was refused, and in the order of sending if they are written by the buffering thread. *)
Theorem C23_once : forall tr s h n, runs tr s -> In (EWrite h n) tr -> In (ECall n) tr /\ ~ In (ERet n Refused) tr /\ once (EWrite h n) tr.
Proof.
  intros tr s h n R Hw. destruct (inv_runs tr s R) as (acc & T & L). destruct (logged_prefix _ _ _ L) as [r E].
  destruct (nodup_app_inv _ _ (a_nodup _ _ _ T)) as (N1 & N2 & N3).
  assert (I : In n (acc ++ dw tr) /\ once (EWrite h n) tr).
  { destruct h.
    - split; [apply in_or_app; right; apply dw_in; exact Hw|apply once_dw; assumption].
    - split; [apply in_or_app; left; rewrite E; apply in_or_app; left; apply wr_in; exact Hw|].
      apply once_wr; [|exact Hw]. rewrite E in N1. apply nodup_app_inv in N1. apply N1.
    - exfalso. clear - R Hw. induction R as [|tr s e s' R IH Hs Hf]; [destruct Hw|]. apply in_app_or in Hw. destruct Hw as [Hw|Hw]; [exact (IH Hw)|].
      inversion Hs; subst; cbn [In] in Hw; repeat (destruct Hw as [Hw|Hw]; try discriminate Hw); destruct Hw. }
  destruct I as [I1 I2]. split; [apply (a_in _ _ _ T); exact I1|]. split; [|exact I2].
  intros X. destruct (a_ret _ _ _ T n Refused X) as [_ Y]. exact (Y I1).
Qed.
Theorem C23_order_partial : forall tr s n1 n2, runs tr s -> precedes (ERet n1 Buffered) (ECall n2) tr ->
  In (EWrite Buffered n2) tr -> precedes (EWrite Buffered n1) (EWrite Buffered n2) tr.
Proof.
  intros tr s n1 n2 R P Hw. destruct (inv_runs tr s R) as (acc & T & L). destruct (logged_prefix _ _ _ L) as [r E].
  destruct (nodup_app_inv _ _ (a_nodup _ _ _ T)) as (N1 & _ & _).
  assert (Hin : In n2 (wr tr)) by (apply wr_in; exact Hw).
  destruct (a_order _ _ _ T n1 n2 P ltac:(rewrite E; apply in_or_app; left; exact Hin)) as (x & y & z & E2).
  (* the position in what was written *)
  apply precedes_iff. apply in_split in Hw. destruct Hw as (u & v & ->). exists u, v. split; [reflexivity|].
  rewrite wr_app in E. cbn [wr] in E. rewrite E in E2, N1. rewrite <- !app_assoc in E2, N1. cbn [app] in E2, N1.
  assert (Q : wr u = x ++ n1 :: y).
  { assert (G : forall (a b c d : list nat), a ++ n2 :: b = c ++ n2 :: d -> NoDup (a ++ n2 :: b) -> a = c).
    { clear. induction a as [|h a IH]; intros b c d Eq Nd; destruct c as [|k c]; cbn [app] in Eq; try reflexivity.
      - injection Eq as <- Eq. exfalso. cbn [app] in Nd. inversion Nd as [|? ? H1 _]. apply H1. rewrite Eq. apply in_or_app. right. left. reflexivity.
      - injection Eq as -> Eq. exfalso. cbn [app] in Nd. inversion Nd as [|? ? H1 _]. apply H1. apply in_or_app. right. left. reflexivity.
      - injection Eq as -> Eq. cbn [app] in Nd. inversion Nd as [|? ? _ H2]; subst. f_equal. exact (IH b c d Eq H2). }
    apply (G _ (wr v ++ r) _ z); [|exact N1]. rewrite E2, <- app_assoc. reflexivity. }
  apply wr_in. rewrite Q. apply in_or_app. right. left. reflexivity.
Qed.
(** Until the buffering thread fails it can always go on, with what has been started before: everything sent is then written. *)
Theorem C23_goes_on_partial : forall tr s, runs tr s -> bth s <> BEnd false ->
  exists e s', runs (tr ++ e) s' /\ (forall n, ~ In (ECall n) e) /\
    (forall n h, In (ERet n h) (tr ++ e) -> h <> Refused -> In (EWrite h n) (tr ++ e)).
Proof.
  intros tr s R Hb. destruct (go_finish s (sinv_runs tr s R) Hb tr R) as (e & s' & R' & Q & F1 & F2 & F3).
  exists e, s'. split; [exact R'|]. split; [exact Q|]. intros n h Hr Hh.
  destruct (inv_runs _ _ R') as (acc & T & L).
  assert (A : acc = wr (tr ++ e)).
  { unfold logged in L. rewrite F2 in L. rewrite app_nil_r in L.
    destruct (bth s') as [ | | | |l last|l last|[]]; cbn [pend] in *; try (rewrite F1 in L); rewrite ?app_nil_r in L; try exact L. congruence. }
  destruct (a_ret _ _ _ T n h Hr) as [_ B]. destruct h; [apply dw_in; exact B|apply wr_in; rewrite <- A; exact B|congruence].
Qed.
(** Stopping does not break: the assertion does not fail and the context is unlocked at the end, also after failures. While
    there is something buffered it is locked. *)
Theorem C23_context : forall tr s, runs tr s -> stp s <> PBad /\ (stp s = PDone -> ctx s = 0) /\ (buf s <> [] -> 0 < ctx s).
Proof.
  intros tr s R. pose proof (sinv_runs tr s R) as V. split; [|split].
  - intros E. pose proof (v_join _ V) as J. rewrite E in J. exact J.
  - intros E. destruct (v_done _ V E) as [[ok B] E2]. rewrite (v_ctx _ V), B, E2. reflexivity.
  - intros H. rewrite (v_ctx _ V). destruct (buf s); [congruence|]. cbn [some]. lia.
Qed.

(** * Examples *)
Lemma runs_app tr s e s' : runs tr s -> step s e s' -> (forall n, In (ECall n) e -> ~ In (ECall n) tr) -> forall tr', tr' = tr ++ e -> runs tr' s'.
Proof. intros R St H tr' ->. exact (runs_step tr s e s' R St H). Qed.
Ltac no_call :=
  let n := fresh in let X := fresh in let Y := fresh in intros n X Y; cbn in X, Y;
  repeat match goal with H : _ \/ _ |- _ => destruct H end; try contradiction; congruence.
Lemma cons_ne (x : nat) l : x :: l <> [].
Proof. discriminate. Qed.
(** Two notifications are sent and written, then the session is stopped. *)
Example run_two : exists s, runs [ECall 1; ERet 1 Buffered; ECall 2; ERet 2 Buffered; EWrite Buffered 1; EStopCall; EWrite Buffered 2; EStop true] s.
Proof.
  assert (R0 := runs_init). unfold init in R0.
  pose proof (runs_app _ _ _ _ R0 (s_call _ _ _ _ _ _ _ _ 0 1 eq_refl) ltac:(no_call) _ eq_refl) as R1.
  pose proof (runs_app _ _ _ _ R1 (s_lock _ _ _ _ _ _ _ 0 1 eq_refl) ltac:(no_call) _ eq_refl) as R2.
  pose proof (runs_app _ _ _ _ R2 (s_put_first _ _ _ _ _ 0 1 eq_refl) ltac:(no_call) _ eq_refl) as R3.
  pose proof (runs_app _ _ _ _ R3 (s_leave _ _ _ _ _ _ _ 0 1 true eq_refl) ltac:(no_call) _ eq_refl) as R4.
  pose proof (runs_app _ _ _ _ R4 (s_call _ _ _ _ _ _ _ _ 5 2 eq_refl) ltac:(no_call) _ eq_refl) as R5.
  pose proof (runs_app _ _ _ _ R5 (s_lock _ _ _ _ _ _ _ 5 2 eq_refl) ltac:(no_call) _ eq_refl) as R6.
  pose proof (runs_app _ _ _ _ R6 (s_put _ _ _ _ _ _ 5 2 eq_refl (cons_ne _ _)) ltac:(no_call) _ eq_refl) as R7.
  pose proof (runs_app _ _ _ _ R7 (s_leave _ _ _ _ _ _ _ 5 2 true eq_refl) ltac:(no_call) _ eq_refl) as R8.
  cbn [wake app] in R8.
  pose proof (runs_app _ _ _ _ R8 (b_lock _ _ _ _ _ _) ltac:(no_call) _ eq_refl) as R9.
  pose proof (runs_app _ _ _ _ R9 (b_take true [1; 2] _ _ _ _ eq_refl) ltac:(no_call) _ eq_refl) as R10.
  pose proof (runs_app _ _ _ _ R10 (b_unlock _ _ _ _ _ _ _ _) ltac:(no_call) _ eq_refl) as R11.
  cbn [is_nil negb] in R11.
  pose proof (runs_app _ _ _ _ R11 (b_write _ _ _ _ _ _ _ _ _ _) ltac:(no_call) _ eq_refl) as R12.
  pose proof (runs_app _ _ _ _ R12 (p_call _ _ _ _ _ _ _) ltac:(no_call) _ eq_refl) as R13.
  pose proof (runs_app _ _ _ _ R13 (p_lock _ _ _ _ _ _) ltac:(no_call) _ eq_refl) as R14.
  pose proof (runs_app _ _ _ _ R14 (p_unlock _ _ _ _ _ _) ltac:(no_call) _ eq_refl) as R15.
  cbn [wake] in R15.
  pose proof (runs_app _ _ _ _ R15 (b_write _ _ _ _ _ _ _ _ _ _) ltac:(no_call) _ eq_refl) as R16.
  pose proof (runs_app _ _ _ _ R16 (b_written _ _ _ _ _ _ _ _) ltac:(no_call) _ eq_refl) as R17.
  pose proof (runs_app _ _ _ _ R17 (b_lock _ _ _ _ _ _) ltac:(no_call) _ eq_refl) as R18.
  pose proof (runs_app _ _ _ _ R18 (b_take false [] _ _ _ _ eq_refl) ltac:(no_call) _ eq_refl) as R19.
  pose proof (runs_app _ _ _ _ R19 (b_unlock _ _ _ _ _ _ _ _) ltac:(no_call) _ eq_refl) as R20.
  cbn [is_nil negb] in R20.
  pose proof (runs_app _ _ _ _ R20 (p_join _ _ [] _ _ _ eq_refl) ltac:(no_call) _ eq_refl) as R21.
  cbn [app] in R21. eexists. exact R21.
Qed.

Lemma dead s e s' : continues s e s' -> bth s = BEnd false -> forall n, ~ In (EWrite Buffered n) e.
Proof.
  induction 1 as [s|s e s1 e' s2 St _ IH]; intros E n; [intros []|].
  assert (bth s1 = BEnd false /\ ~ In (EWrite Buffered n) e).
  { inversion St; subst; cbn [bth] in *; try discriminate; try (rewrite E; cbn [wake]); split; try reflexivity; try assumption;
      cbn [In]; intuition discriminate. }
  destruct H as [H1 H2]. intros X. apply in_app_or in X. destruct X as [X|X]; [exact (H2 X)|exact (IH H1 n X)].
Qed.
(** The buffering thread ends with an error if, later than 500 ms after it was started, a sender just has the mutex when the
    thread wants it. No call failed, but what is accepted from then on is never written. *)
Theorem C23_timeout_refuted : exists tr s n, runs tr s /\ In (ERet n Buffered) tr /\ (forall m h, In (ERet m h) tr -> h = Buffered) /\
  ~ written n tr /\ forall e s', continues s e s' -> ~ In (EWrite Buffered n) e.
Proof.
  assert (R0 := runs_init). unfold init in R0.
  pose proof (runs_app _ _ _ _ R0 (s_call _ _ _ _ _ _ _ _ 0 1 eq_refl) ltac:(no_call) _ eq_refl) as R1.
  pose proof (runs_app _ _ _ _ R1 (t_late _ _ _ _ _ _ _ _) ltac:(no_call) _ eq_refl) as R2.
  pose proof (runs_app _ _ _ _ R2 (s_lock _ _ _ _ _ _ _ 0 1 eq_refl) ltac:(no_call) _ eq_refl) as R3.
  pose proof (runs_app _ _ _ _ R3 (b_timeout _ _ _ _ _ _) ltac:(no_call) _ eq_refl) as R4.
  pose proof (runs_app _ _ _ _ R4 (s_put_first _ _ _ _ _ 0 1 eq_refl) ltac:(no_call) _ eq_refl) as R5.
  pose proof (runs_app _ _ _ _ R5 (s_leave _ _ _ _ _ _ _ 0 1 true eq_refl) ltac:(no_call) _ eq_refl) as R6.
  eexists _, _, 1. split; [exact R6|]. split; [cbn; tauto|]. split.
  { intros m h X. cbn in X. intuition congruence. }
  split; [intros [X|X]; cbn in X; intuition congruence|].
  intros e s' C. exact (dead _ e s' C eq_refl 1).
Qed.
(** One notification cannot be written (there is a file of this second, C22): those accepted later are lost, too. *)
Theorem C23_failed_refuted : exists tr s n1 n2, runs tr s /\ precedes (ERet n1 Buffered) (ECall n2) tr /\ In (ERet n2 Buffered) tr /\
  ~ written n2 tr /\ forall e s', continues s e s' -> ~ In (EWrite Buffered n2) e.
Proof.
  assert (R0 := runs_init). unfold init in R0.
  pose proof (runs_app _ _ _ _ R0 (s_call _ _ _ _ _ _ _ _ 0 1 eq_refl) ltac:(no_call) _ eq_refl) as R1.
  pose proof (runs_app _ _ _ _ R1 (s_lock _ _ _ _ _ _ _ 0 1 eq_refl) ltac:(no_call) _ eq_refl) as R2.
  pose proof (runs_app _ _ _ _ R2 (s_put_first _ _ _ _ _ 0 1 eq_refl) ltac:(no_call) _ eq_refl) as R3.
  pose proof (runs_app _ _ _ _ R3 (s_leave _ _ _ _ _ _ _ 0 1 true eq_refl) ltac:(no_call) _ eq_refl) as R4.
  cbn [wake app] in R4.
  pose proof (runs_app _ _ _ _ R4 (b_lock _ _ _ _ _ _) ltac:(no_call) _ eq_refl) as R5.
  pose proof (runs_app _ _ _ _ R5 (b_take true [1] _ _ _ _ eq_refl) ltac:(no_call) _ eq_refl) as R6.
  pose proof (runs_app _ _ _ _ R6 (b_unlock _ _ _ _ _ _ _ _) ltac:(no_call) _ eq_refl) as R7.
  cbn [is_nil negb] in R7.
  pose proof (runs_app _ _ _ _ R7 (b_write_fail _ _ _ _ _ _ _ _ _ _) ltac:(no_call) _ eq_refl) as R8.
  pose proof (runs_app _ _ _ _ R8 (s_call _ _ _ _ _ _ _ _ 0 2 eq_refl) ltac:(no_call) _ eq_refl) as R9.
  pose proof (runs_app _ _ _ _ R9 (s_lock _ _ _ _ _ _ _ 0 2 eq_refl) ltac:(no_call) _ eq_refl) as R10.
  pose proof (runs_app _ _ _ _ R10 (s_put_first _ _ _ _ _ 0 2 eq_refl) ltac:(no_call) _ eq_refl) as R11.
  pose proof (runs_app _ _ _ _ R11 (s_leave _ _ _ _ _ _ _ 0 2 true eq_refl) ltac:(no_call) _ eq_refl) as R12.
  eexists _, _, 1, 2. split; [exact R12|]. cbn [app]. split; [exists [ECall 1], [], [ERet 2 Buffered]; reflexivity|].
  split; [cbn; tauto|]. split; [intros [X|X]; cbn in X; intuition congruence|].
  intros e s' C. exact (dead _ e s' C eq_refl 2).
Qed.
(** While the session is being stopped, a notification is written directly before an earlier buffered one. *)
Theorem C23_order_refuted : exists tr s n1 n2, runs tr s /\ precedes (ERet n1 Buffered) (ECall n2) tr /\
  precedes (EWrite Direct n2) (EWrite Buffered n1) tr.
Proof.
  assert (R0 := runs_init). unfold init in R0.
  pose proof (runs_app _ _ _ _ R0 (s_call _ _ _ _ _ _ _ _ 0 1 eq_refl) ltac:(no_call) _ eq_refl) as R1.
  pose proof (runs_app _ _ _ _ R1 (s_lock _ _ _ _ _ _ _ 0 1 eq_refl) ltac:(no_call) _ eq_refl) as R2.
  pose proof (runs_app _ _ _ _ R2 (s_put_first _ _ _ _ _ 0 1 eq_refl) ltac:(no_call) _ eq_refl) as R3.
  pose proof (runs_app _ _ _ _ R3 (s_leave _ _ _ _ _ _ _ 0 1 true eq_refl) ltac:(no_call) _ eq_refl) as R4.
  cbn [wake app] in R4.
  pose proof (runs_app _ _ _ _ R4 (p_call _ _ _ _ _ _ _) ltac:(no_call) _ eq_refl) as R5.
  pose proof (runs_app _ _ _ _ R5 (p_lock _ _ _ _ _ _) ltac:(no_call) _ eq_refl) as R6.
  pose proof (runs_app _ _ _ _ R6 (p_unlock _ _ _ _ _ _) ltac:(no_call) _ eq_refl) as R7.
  cbn [wake] in R7.
  pose proof (runs_app _ _ _ _ R7 (s_call _ _ _ _ _ _ _ _ 0 2 eq_refl) ltac:(no_call) _ eq_refl) as R8.
  pose proof (runs_app _ _ _ _ R8 (s_lock _ _ _ _ _ _ _ 0 2 eq_refl) ltac:(no_call) _ eq_refl) as R9.
  pose proof (runs_app _ _ _ _ R9 (s_unlock _ _ _ _ _ _ 0 2 eq_refl) ltac:(no_call) _ eq_refl) as R10.
  pose proof (runs_app _ _ _ _ R10 (s_write _ _ _ _ _ _ _ _ 0 2 eq_refl) ltac:(no_call) _ eq_refl) as R11.
  pose proof (runs_app _ _ _ _ R11 (b_lock _ _ _ _ _ _) ltac:(no_call) _ eq_refl) as R12.
  pose proof (runs_app _ _ _ _ R12 (b_take false [1] _ _ _ _ eq_refl) ltac:(no_call) _ eq_refl) as R13.
  pose proof (runs_app _ _ _ _ R13 (b_unlock _ _ _ _ _ _ _ _) ltac:(no_call) _ eq_refl) as R14.
  cbn [is_nil negb] in R14.
  pose proof (runs_app _ _ _ _ R14 (b_write _ _ _ _ _ _ _ _ _ _) ltac:(no_call) _ eq_refl) as R15.
  eexists _, _, 1, 2. split; [exact R15|]. cbn [app]. split.
  - exists [ECall 1], [EStopCall], [EWrite Direct 2; ERet 2 Direct; EWrite Buffered 1]. reflexivity.
  - exists [ECall 1; ERet 1 Buffered; EStopCall; ECall 2], [ERet 2 Direct], []. reflexivity.
Qed.

Print Assumptions C23_stopped.
Print Assumptions C23_once.
Print Assumptions C23_order_partial.
Print Assumptions C23_goes_on_partial.
Print Assumptions C23_context.
Print Assumptions C23_timeout_refuted.
Print Assumptions C23_failed_refuted.
Print Assumptions C23_order_refuted.
