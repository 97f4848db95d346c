(** Properties of processing of change events. *)
From Coq Require Import List Bool Arith NArith Lia.
From Verif Require Import ChangeEv ChangeEvSpec ChangeEvProofs ChangeEvRun.
Import ListNotations.

(** C14.  When the originator learns that an event was processed and continues (with the next
    priority, with storing the data), every living subscriber the event was meant for (with the
    priority of the event, subscribed to that kind of events, not suspended, and with a change it
    did not filter out) has been called with exactly that event before, and has accepted it if
    the event asks for an answer: in every interleaving of any number of processes with any number
    of subscriptions, with crashes of processes, timeouts and failures of locking. *)
Theorem C14_all_processed : forall filt lf st0 st, initial st0 -> suspend_settled st0 -> reach filt lf st0 st ->
  forall l1 l2 inf p i s, st_log st = l1 ++ OOk inf :: l2 -> f_ev inf <> EvAbort -> the_sub st p i s ->
    event_is_valid (f_ev inf) s = true -> s_prio s = f_prio inf -> s_esusp s = false -> filt inf p i = true ->
    exists r, In (OCall p i (f_ev inf) (f_rid inf) r) l2 /\ (answered (f_ev inf) -> r = ROk).
Proof.
  intros filt lf st0 st H0 S0 R l1 l2 inf p i s E Ne Hs V P Su F. apply (ok_complete_reach filt lf st0 st H0 S0 R l1 l2 inf p i s E Ne Hs); [|exact F].
  unfold addressed. rewrite V, P, Su, F, N.eqb_refl. destruct (s_forig s); reflexivity.
Qed.
Print Assumptions C14_all_processed.

(** C14.  A callback is called only for events that were published with its own priority, that it
    is subscribed to and that were not suspended. *)
Theorem C14_only_own_events : forall filt lf st0 st, initial st0 -> suspend_settled st0 -> reach filt lf st0 st ->
  forall p i e rid r q s, In (OCall p i e rid r) (st_log st) -> nth_error (st_procs st) p = Some q -> nth_error (p_subs q) i = Some s ->
    In (mkinfo e rid (s_prio s)) (st_pub st) /\ event_is_valid e s = true /\ s_susp s = false.
Proof.
  intros filt lf st0 st H0 S0 R p i e rid r q s Hin Hp Hs. destruct (inv_reach filt lf st0 st H0 S0 R) as (I & _).
  destruct (i_called filt st I p i e rid r q s Hin Hp Hs) as (A & _ & B & C). auto.
Qed.
Print Assumptions C14_only_own_events.

(** C14.  No subscriber is called again with an event it is done with (it did not shelve it), unless
    locking of the event fails after a timeout. *)
Theorem C14_at_most_once_partial : forall filt st0 st, initial st0 -> suspend_settled st0 -> reach filt false st0 st ->
  forall l1 l2 p i e rid r1 r2, st_log st = l1 ++ OCall p i e rid r1 :: l2 -> In (OCall p i e rid r2) l2 -> ~ final e r2.
Proof. intros filt st0 st H0 S0 R. exact (j_once st (inv2_reach filt st0 st H0 S0 R)). Qed.
Print Assumptions C14_at_most_once_partial.

(** C12.  A subscriber is called with an abort event written by the originator only if it has been
    called with the change of that request before and accepted it. *)
Theorem C12_published_abort_only_accepted : forall filt lf st0 st, (forall rid pr p i, filt (mkinfo EvAbort rid pr) p i = filt (mkinfo EvChange rid pr) p i) ->
  initial st0 -> suspend_settled st0 -> reach filt lf st0 st ->
  forall l1 l2 p i rid r, st_log st = l1 ++ OCall p i EvAbort rid r :: l2 -> In (OCall p i EvChange rid ROk) l2.
Proof. intros filt lf st0 st HF H0 S0 R. exact (abort_accepted_reach filt lf st0 st HF H0 S0 R). Qed.
Print Assumptions C12_published_abort_only_accepted.

(** ** Examples *)
Definition all : info -> nat -> nat -> bool := fun _ _ _ => true.
Definition sub (pr : N) : csub := mkcsub pr false false false false false 0 EvNone.
Definition start (procs : list (list csub)) : state := mkst (mkshm (mkinfo EvNone 0 0) 0) (map (fun l => mkproc l Idle) procs) [] [].

Lemma start_initial : forall procs, Forall (Forall (fun s => s_ev s = EvNone)) procs -> initial (start procs).
Proof.
  intros procs H. split; [reflexivity|]. split; [reflexivity|]. split; [reflexivity|]. intros p q Hp. cbn [start st_procs] in Hp.
  apply nth_error_In, in_map_iff in Hp. destruct Hp as (l & <- & Hin). split; [reflexivity|]. cbn. rewrite Forall_forall in H. apply H. exact Hin.
Qed.
Lemma start_settled : forall procs, Forall (Forall (fun s => s_esusp s = s_susp s)) procs -> suspend_settled (start procs).
Proof.
  intros procs H p q i s Hp Hs. cbn [start st_procs] in Hp. apply nth_error_In, in_map_iff in Hp. destruct Hp as (l & <- & Hin). cbn in Hs.
  rewrite Forall_forall in H. specialize (H l Hin). rewrite Forall_forall in H. apply H. apply nth_error_In with (n := i). exact Hs.
Qed.

(** Two processes, one of them with two subscriptions, of which one shelves the event first. *)
Definition pass (p : nat) (r : result) : list label := [LCall p r; LLock p].
Definition ok_trace : list label :=
  LPub (mkinfo EvChange 1 5) 3 :: LStart 0 :: LStart 1 :: pass 0 ROk ++ pass 1 ROk ++ pass 0 RShelve ++ [LLock 0; LLock 1; LStart 0] ++ pass 0 ROk ++ [LLock 0; LOk].
Example C14_nonvacuous : exists st, initial (start [[sub 5; sub 5; sub 1]; [sub 5]]) /\ suspend_settled (start [[sub 5; sub 5; sub 1]; [sub 5]]) /\
  reach all false (start [[sub 5; sub 5; sub 1]; [sub 5]]) st /\
  st_log st = [OOk (mkinfo EvChange 1 5); OCall 0 1 EvChange 1 ROk; OCall 0 1 EvChange 1 RShelve; OCall 1 0 EvChange 1 ROk; OCall 0 0 EvChange 1 ROk].
Proof.
  assert (X : exists st, run all false ok_trace (start [[sub 5; sub 5; sub 1]; [sub 5]]) = Some st /\ st_log st = [OOk (mkinfo EvChange 1 5); OCall 0 1 EvChange 1 ROk; OCall 0 1 EvChange 1 RShelve; OCall 1 0 EvChange 1 ROk; OCall 0 0 EvChange 1 ROk]) by (eexists; split; vm_compute; reflexivity).
  destruct X as (st & E & L). exists st. split; [apply start_initial; repeat constructor|]. split; [apply start_settled; repeat constructor|]. split; [|exact L].
  apply (run_reach all false ok_trace _ _ _ (R_init _ _ _) E).
Qed.

(** A change refused by the second process after the first one accepted it. *)
Definition abort_trace : list label :=
  [LPub (mkinfo EvChange 1 5) 2; LStart 0] ++ pass 0 ROk ++ [LLock 0; LStart 1] ++ pass 1 RErr ++ [LLock 1; LClear; LPub (mkinfo EvAbort 1 5) 1; LStart 0] ++ pass 0 ROk ++ [LLock 0; LOk].
Example C12_published_abort_nonvacuous : exists st, initial (start [[sub 5]; [sub 5]]) /\ suspend_settled (start [[sub 5]; [sub 5]]) /\ reach all false (start [[sub 5]; [sub 5]]) st /\
  st_log st = [OOk (mkinfo EvAbort 1 5); OCall 0 0 EvAbort 1 ROk; OCall 1 0 EvChange 1 RErr; OCall 0 0 EvChange 1 ROk].
Proof.
  assert (X : exists st, run all false abort_trace (start [[sub 5]; [sub 5]]) = Some st /\ st_log st = [OOk (mkinfo EvAbort 1 5); OCall 0 0 EvAbort 1 ROk; OCall 1 0 EvChange 1 RErr; OCall 0 0 EvChange 1 ROk]) by (eexists; split; vm_compute; reflexivity).
  destruct X as (st & E & L). exists st. split; [apply start_initial; repeat constructor|]. split; [apply start_settled; repeat constructor|]. split; [|exact L].
  apply (run_reach all false abort_trace _ _ _ (R_init _ _ _) E).
Qed.

(** ** What is not true *)

(** C14.  If locking of the event fails after the callback was called, the callback is called with
    the same event once more. *)
Definition twice_trace : list label := [LPub (mkinfo EvChange 1 5) 1; LStart 0; LCall 0 ROk; LFail 0; LStart 0; LCall 0 ROk].
Theorem C14_at_most_once_refuted : ~ (forall filt lf st0 st, initial st0 -> suspend_settled st0 -> reach filt lf st0 st ->
  forall l1 l2 p i e rid r1 r2, st_log st = l1 ++ OCall p i e rid r1 :: l2 -> In (OCall p i e rid r2) l2 -> ~ final e r2).
Proof.
  intros H. assert (X : exists st, run all true twice_trace (start [[sub 5]]) = Some st /\ st_log st = [OCall 0 0 EvChange 1 ROk; OCall 0 0 EvChange 1 ROk]) by (eexists; split; vm_compute; reflexivity).
  destruct X as (st & E & L). pose proof (run_reach all true twice_trace _ _ _ (R_init _ _ _) E) as R.
  apply (H all true _ st (start_initial [[sub 5]] ltac:(repeat constructor)) (start_settled [[sub 5]] ltac:(repeat constructor)) R [] [OCall 0 0 EvChange 1 ROk] 0 0 EvChange 1 ROk ROk L); [left; reflexivity|].
  intros (_ & Y). discriminate.
Qed.

(** C14.  While a subscription is just being suspended (it is marked in the shared table, but not in
    its process yet), it takes the event of another subscription, whose originator then continues
    although the other subscriber was not called at all. *)
Definition susp_sub : csub := mkcsub 5 false false false true false 0 EvNone.
Definition steal_trace : list label := [LPub (mkinfo EvChange 1 5) 1; LStart 0] ++ pass 0 ROk ++ [LLock 0; LOk].
Theorem C14_all_processed_while_suspending_refuted : ~ (forall filt lf st0 st, initial st0 -> reach filt lf st0 st ->
  forall l1 l2 inf p i s, st_log st = l1 ++ OOk inf :: l2 -> f_ev inf <> EvAbort -> the_sub st p i s ->
    event_is_valid (f_ev inf) s = true -> s_prio s = f_prio inf -> s_esusp s = false -> filt inf p i = true ->
    exists r, In (OCall p i (f_ev inf) (f_rid inf) r) l2 /\ (answered (f_ev inf) -> r = ROk)).
Proof.
  intros H. assert (X : exists st, run all false steal_trace (start [[susp_sub]; [sub 5]]) = Some st /\ st_log st = [OOk (mkinfo EvChange 1 5); OCall 0 0 EvChange 1 ROk] /\ nth_error (st_procs st) 1 = Some (mkproc [sub 5] Idle)) by (eexists; split; [|split]; vm_compute; reflexivity).
  destruct X as (st & E & L & Q). pose proof (run_reach all false steal_trace _ _ _ (R_init _ _ _) E) as R.
  destruct (H all false _ st (start_initial [[susp_sub]; [sub 5]] ltac:(repeat constructor)) R [] _ _ 1 0 (sub 5) L) as (r & [Y|[]] & _); try reflexivity; [discriminate| |discriminate].
  exists (mkproc [sub 5] Idle). split; [exact Q|]. split; reflexivity.
Qed.

(** C12.  A subscriber that accepted a change gets two aborts for it: its process noticed before
    reporting the acceptance that the change failed, generated the abort itself, but the abort
    written for another subscriber is processed by it as well. *)
Definition double_trace : list label :=
  [LPub (mkinfo EvChange 1 5) 3; LStart 2] ++ pass 2 ROk ++ [LLock 2; LStart 0] ++ pass 0 ROk ++ [LStart 1] ++ pass 1 RErr ++ [LLock 1; LLock 0; LClear; LPub (mkinfo EvAbort 1 5) 1; LStart 0; LCall 0 ROk].
Theorem C12_single_abort_refuted : ~ (forall filt st0 st, initial st0 -> suspend_settled st0 -> reach filt false st0 st ->
  forall p i rid r, In (OSelf p i rid) (st_log st) -> ~ In (OCall p i EvAbort rid r) (st_log st)).
Proof.
  intros H. assert (X : exists st, run all false double_trace (start [[sub 5]; [sub 5]; [sub 5]]) = Some st /\ st_log st = [OCall 0 0 EvAbort 1 ROk; OSelf 0 0 1; OCall 1 0 EvChange 1 RErr; OCall 0 0 EvChange 1 ROk; OCall 2 0 EvChange 1 ROk]) by (eexists; split; vm_compute; reflexivity).
  destruct X as (st & E & L). pose proof (run_reach all false double_trace _ _ _ (R_init _ _ _) E) as R.
  apply (H all _ st (start_initial [[sub 5]; [sub 5]; [sub 5]] ltac:(repeat constructor)) (start_settled [[sub 5]; [sub 5]; [sub 5]] ltac:(repeat constructor)) R 0 0 1 ROk); rewrite L; cbn; auto.
Qed.

(** C12.  That abort was meant for the third process, which accepted the change and reported it: the
    event is finished before it is processed there, so it never learns that the change failed. *)
Theorem C12_abort_complete_refuted : ~ (forall filt st0 st, initial st0 -> suspend_settled st0 -> reach filt false st0 st ->
  forall l1 l2 rid pr p i s, st_log st = l1 ++ OOk (mkinfo EvAbort rid pr) :: l2 -> the_sub st p i s -> s_prio s = pr ->
    In (OCall p i EvChange rid ROk) l2 -> exists r, In (OCall p i EvAbort rid r) l2 \/ In (OSelf p i rid) l2).
Proof.
  intros H. assert (X : exists st, run all false (double_trace ++ [LLock 0; LLock 0; LOk]) (start [[sub 5]; [sub 5]; [sub 5]]) = Some st /\
     st_log st = [OOk (mkinfo EvAbort 1 5); OCall 0 0 EvAbort 1 ROk; OSelf 0 0 1; OCall 1 0 EvChange 1 RErr; OCall 0 0 EvChange 1 ROk; OCall 2 0 EvChange 1 ROk] /\
     nth_error (st_procs st) 2 = Some (mkproc [set_last 1 EvChange (sub 5)] Idle)) by (eexists; split; [|split]; vm_compute; reflexivity).
  destruct X as (st & E & L & Q). pose proof (run_reach all false _ _ _ _ (R_init _ _ _) E) as R.
  destruct (H all _ st (start_initial [[sub 5]; [sub 5]; [sub 5]] ltac:(repeat constructor)) (start_settled [[sub 5]; [sub 5]; [sub 5]] ltac:(repeat constructor)) R [] _ 1 5%N 2 0 (set_last 1 EvChange (sub 5)) L) as (r & Y).
  - eexists. split; [exact Q|]. split; reflexivity.
  - reflexivity.
  - cbn. auto 10.
  - cbn in Y. clear -Y. intuition discriminate.
Qed.

(** C12.  The generated abort is for the last subscription in the array of the process, even if that
    one was never called with the change (it has a different priority). *)
Definition wrong_trace : list label :=
  [LPub (mkinfo EvChange 1 5) 2; LStart 0] ++ pass 0 ROk ++ [LTimeout; LLock 0].
Theorem C12_generated_abort_accepted_refuted : ~ (forall filt st0 st, initial st0 -> suspend_settled st0 -> reach filt false st0 st ->
  forall l1 l2 p i rid, st_log st = l1 ++ OSelf p i rid :: l2 -> In (OCall p i EvChange rid ROk) l2).
Proof.
  intros H. assert (X : exists st, run all false wrong_trace (start [[sub 5; sub 3]; [sub 5]]) = Some st /\ st_log st = [OSelf 0 1 1; OCall 0 0 EvChange 1 ROk]) by (eexists; split; vm_compute; reflexivity).
  destruct X as (st & E & L). pose proof (run_reach all false wrong_trace _ _ _ (R_init _ _ _) E) as R.
  destruct (H all _ st (start_initial [[sub 5; sub 3]; [sub 5]] ltac:(repeat constructor)) (start_settled [[sub 5; sub 3]; [sub 5]] ltac:(repeat constructor)) R [] _ 0 1 1 L) as [Y|[]]. discriminate.
Qed.
