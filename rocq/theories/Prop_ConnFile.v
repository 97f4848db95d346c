(** C61: a connection is considered alive exactly as long as it is connected. *)
From Coq Require Import NArith List Bool Lia.
From Verif Require Import ConnFile ConnFileSpec ConnFileProofs ConnFileMore.
Import ListNotations.
Local Open Scope N_scope.

(** What a check reported to be dead is not connected, now or later *)
Theorem C61_dead_is_dead : forall s t c, reach s -> In (t, c, false) (res s) -> ~ connected s c.
Proof.
  intros s t c R I (p & L). destruct (reach_inv s R) as (ic & V). destruct (v_res _ _ V t c I) as [_ NL].
  destruct (v_live _ _ V p c L) as (i & J). exact (NL p i J).
Qed.

(** Once a connection is gone (closed, or its process was killed), no check that starts
    then reports it as alive *)
Theorem C61_death_detected : forall s c l s' t, reach_ok s -> In c (used s) -> ~ connected s c ->
  run s l = Some s' -> no_listing l -> no_restart l -> ntid s <= t -> ~ In (t, c, true) (res s').
Proof.
  intros s c l s' t R U NC H NL NR Lt I. destruct (reach_tight s R) as [(ic & V) Ti].
  assert (reach s) as R0 by (destruct R as (l0 & A & B & _); exists l0; auto).
  destruct (reach_more s R0) as [RT _].
  assert (later (ntid s) c s) as L.
  { split; [lia|]. split; [exact U|]. split; [intros p i J; apply NC; exists p; apply (Ti p c i J)|]. split.
    - intros u p i T. apply (v_tid _ _ V _ _ T).
    - intros u J. apply (RT _ _ _ J). }
  pose proof (run_later l ic (ntid s) c s s' V L NL NR H) as (_ & _ & _ & _ & L5). apply L5 in I. lia.
Qed.

(** A check always ends with a result after at most five own steps *)
Theorem C61_check_ends : forall s t c, reach s -> checking s t c ->
  (exists s', step s (EStep t) = Some s') /\
  forall l s' th, thr s t = Some th -> run s l = Some s' -> ~ In (EKill (t_pid th)) l -> no_restart l ->
    (5 <= steps_of t l)%nat -> exists b, In (t, c, b) (res s').
Proof.
  intros s t c R ([p d k] & T & C & K). cbn [t_cid t_pc] in C, K. subst d. destruct (reach_inv s R) as (ic & V).
  assert (is_check k) as K' by (destruct k; exact K). split.
  - destruct (own_step s t p c k T K') as (s' & E & _). exists s'. exact E.
  - intros l s' th T' H NK NR N5. rewrite T in T'. injection T' as <-. cbn [t_pid] in NK.
    destruct (check_run l s s' t p c k H (v_tid _ _ V _ _ T) T K' NK NR) as [B|(k' & _ & K2 & L)]; [exact B|].
    exfalso. assert (left k <= 5)%nat by (destruct k; cbn [left]; lia).
    assert (1 <= left k')%nat by (destruct k'; destruct K2; cbn [left]; lia). lia.
Qed.

(** Every connection has a file locked by its process, and no two have the same CID *)
Theorem C61_locked : forall s p c, reach s -> In (p, c) (live s) ->
  (exists i, ffin s c = Some i /\ lk s i = Some p) /\ forall q, In (q, c) (live s) -> q = p.
Proof.
  intros s p c R L. destruct (reach_inv s R) as (ic & V). destruct (v_live _ _ V p c L) as (i & I). split.
  - exists i. destruct (v_lst _ _ V p c i I) as (A & B & _). auto.
  - intros q Q. destruct (v_live _ _ V q c Q) as (j & J). destruct (nodup_cid _ _ _ _ _ _ (v_uniq _ _ V) I J) as [E _]. auto.
Qed.

Lemma connect_step : forall s t p c k, reach s -> thr s t = Some (Th p c k) -> adding k ->
  exists s', step s (EStep t) = Some s' /\
    (In (p, c) (live s') \/
     exists k', thr s' t = Some (Th p c k') /\ adding k' /\
       match k with A0 => exists i, k' = A1 i | A1 _ => exists i, k' = A2 i | A2 _ => exists i, k' = A3 i | _ => False end).
Proof.
  intros s t p c k R T K. destruct (reach_inv s R) as (ic & V). pose proof (v_thr _ _ V _ _ _ _ T) as O.
  cbn [step]. rewrite T. eexists. split; [reflexivity|]. unfold tstep, goto. cbn [t_pid t_cid t_pc].
  destruct k as [|i|i|i| | | | |i|i b|]; try destruct K; cbn [ok] in O.
  - right. destruct (fnew s c) as [j|]; cbn [thr]; rewrite upd_same; eexists; (split; [reflexivity|]); (split; [exact Logic.I|]); eexists; reflexivity.
  - destruct O as (_ & _ & ->). right. cbn [thr]. rewrite upd_same. eexists. split; [reflexivity|]. split; [exact Logic.I|]. eexists; reflexivity.
  - destruct O as (_ & -> & _). right. cbn [thr]. rewrite upd_same. eexists. split; [reflexivity|]. split; [exact Logic.I|]. eexists; reflexivity.
  - left. left. reflexivity.
Qed.

Lemma reach_step : forall s e s', reach s -> (forall p c, e <> EList p c) -> step s e = Some s' -> reach s'.
Proof.
  intros s e s' (l & R & NL) N1 H. exists (l ++ [e]). split.
  - assert (forall l s0, run s0 l = Some s -> run s0 (l ++ [e]) = Some s') as G; [|apply (G l init R)].
    clear l R NL. induction l as [|a l IH]; intros s0 R; cbn [run app] in *; [injection R as ->; rewrite H; reflexivity|].
    destruct (step s0 a); [|discriminate]. apply IH. exact R.
  - intros p c I. apply in_app_iff in I. destruct I as [I|[I|[]]]; [exact (NL p c I)|exact (N1 p c I)].
Qed.

(** Connecting never fails because of the files of other connections, running or left
    over: at any point the connection is there after at most four more own steps *)
Theorem C61_connects : forall s t p c, reach s -> connecting s t p c ->
  exists n s', (n <= 4)%nat /\ run s (repeat (EStep t) n) = Some s' /\ In (p, c) (live s').
Proof.
  assert (forall n s t p c k, reach s -> thr s t = Some (Th p c k) -> adding k ->
    (n = match k with A0 => 4 | A1 _ => 3 | A2 _ => 2 | _ => 1 end)%nat ->
    exists m s', (m <= n)%nat /\ run s (repeat (EStep t) m) = Some s' /\ In (p, c) (live s')) as G.
  { induction n as [|n IH]; intros s t p c k R T K E; [destruct k; discriminate|].
    destruct (connect_step s t p c k R T K) as (s1 & S1 & [L|(k' & T' & K' & Q)]).
    - exists 1%nat, s1. split; [lia|]. cbn [repeat run]. rewrite S1. auto.
    - assert (reach s1) as R1 by (apply (reach_step s (EStep t) s1 R); [discriminate|exact S1]).
      destruct (IH s1 t p c k' R1 T' K') as (m & s' & Lm & Rm & L).
      + destruct k; try (destruct Q; fail); try (destruct K; fail); try (destruct Q as (z & ->)); cbn in E |- *; try lia.
      + exists (S m), s'. split; [lia|]. cbn [repeat run]. rewrite S1. auto. }
  intros s t p c R ([q d k] & T & P & C & K). cbn [t_pid t_cid t_pc] in P, C, K. subst q d.
  assert (adding k) as K' by (destruct k; exact K).
  destruct (G _ s t p c k R T K' eq_refl) as (m & s' & Lm & Rm & L). exists m, s'. split; [|auto].
  destruct k; lia.
Qed.

(** After disconnecting no file is left, and none appears *)
Theorem C61_no_file_left : forall s p c b, reach s -> In (p, c, b) (dres s) -> ffin s c = None.
Proof. intros s p c b R I. destruct (reach_more s R) as [_ F]. apply (F p c b I). Qed.

(** For examples *)
Definition rb (l : list (N * N * bool)) (t c : N) (b : bool) : bool :=
  existsb (fun x => N.eqb (fst (fst x)) t && N.eqb (snd (fst x)) c && Bool.eqb (snd x) b) l.
Definition cb (s : state) (c : N) : bool := existsb (fun x => N.eqb (snd x) c) (live s).

Lemma rb_in : forall l t c b, rb l t c b = true -> In (t, c, b) l.
Proof.
  intros l t c b H. apply existsb_exists in H. destruct H as ([[a d] e] & I & E). cbn [fst snd] in E.
  apply andb_true_iff in E. destruct E as [E E3]. apply andb_true_iff in E. destruct E as [E1 E2].
  apply N.eqb_eq in E1. apply N.eqb_eq in E2. apply eqb_prop in E3. subst. exact I.
Qed.

Lemma cb_true : forall s c, cb s c = true -> connected s c.
Proof.
  intros s c H. apply existsb_exists in H. destruct H as ([p d] & I & E). cbn [snd] in E. apply N.eqb_eq in E. subst d. exists p. exact I.
Qed.

Lemma cb_false : forall s c, cb s c = false -> ~ connected s c.
Proof.
  intros s c H (p & I). assert (cb s c = true) as T by (apply existsb_exists; exists (p, c); split; [exact I|apply N.eqb_refl]). congruence.
Qed.

Lemma runs : forall s0 l (f : state -> bool), match run s0 l with Some s => f s | None => false end = true ->
  exists s, run s0 l = Some s /\ f s = true.
Proof. intros s0 l f H. destruct (run s0 l) as [s|]; [|discriminate]. exists s. auto. Qed.

Ltac split_b := repeat match goal with H : (_ && _)%bool = true |- _ => apply andb_true_iff in H; destruct H end.
Ltac not_in := let I := fresh in unfold no_listing, no_failure, no_restart; intros; intro I; cbn in I;
  repeat (destruct I as [I|I]; [discriminate I|]); exact I.

(** Process 1 connects, process 2 finds it alive, process 1 is killed, process 2 finds it
    dead and the file is gone *)
Example c61_example : exists s, reach_ok s /\ In (1, 1, true) (res s) /\ In (2, 1, false) (res s) /\
  In 1 (used s) /\ ~ connected s 1 /\ ffin s 1 = None.
Proof.
  pose (l := [EConnect 1; EStep 0; EStep 0; EStep 0; EStep 0; EStep 0;
              ECheck 2 1; EStep 1; EStep 1; EStep 1; EStep 1; EKill 1;
              ECheck 2 1; EStep 2; EStep 2; EStep 2; EStep 2; EStep 2]).
  destruct (runs init l (fun s => rb (res s) 1 1 true && rb (res s) 2 1 false && existsb (N.eqb 1) (used s) &&
    negb (cb s 1) && match ffin s 1 with None => true | _ => false end)) as (s & R & F); [vm_compute; reflexivity|].
  exists s. split_b. split; [exists l; split; [exact R|split; not_in]|]. split; [apply rb_in; assumption|].
  split; [apply rb_in; assumption|]. split.
  { match goal with H : existsb _ _ = true |- _ => apply existsb_exists in H; destruct H as (x & I & E) end.
    apply N.eqb_eq in E. subst x. exact I. }
  split; [apply cb_false; apply negb_true_iff; assumption|]. destruct (ffin s 1); [discriminate|reflexivity].
Qed.

(** F198: a thread that lists connections (reading the data of sysrepo-monitoring)
    while another thread of the same process is connecting, after the rename of the lock
    file and before the connection is in the list of the process, does not see the lock
    of its own process, releases it by closing the file and removes the file: other
    processes then consider the connection dead (src/common.c 5434-5540,
    src/shm_main.c 178-278, 346-396). *)
Theorem C61_listing_own_process_refuted : exists l s, run init l = Some s /\
  connected s 1 /\ In (2, 1, false) (res s) /\ forall p c, In (EList p c) l -> p = 1.
Proof.
  pose (l := [EConnect 1; EStep 0; EStep 0; EStep 0; EList 1 1; EStep 1; EStep 1; EStep 1; EStep 1; EStep 1; EStep 0;
              ECheck 2 1; EStep 2; EStep 2]).
  destruct (runs init l (fun s => rb (res s) 2 1 false && cb s 1)) as (s & R & F); [vm_compute; reflexivity|].
  exists l, s. split_b. split; [exact R|]. split; [apply cb_true; assumption|]. split; [apply rb_in; assumption|].
  intros p c I. cbn in I. repeat (destruct I as [I|I]; [try discriminate I; injection I as <- _; reflexivity|]). destruct I.
Qed.

(** F199: sr_disconnect() reports an error when another process finds the connection dead
    between its close() and unlink() of the lock file and removes the file first
    (src/shm_main.c 433-447: ENOENT is not tolerated). *)
Theorem C61_disconnect_succeeds_refuted : exists s p c, reach_ok s /\ In (p, c, false) (dres s).
Proof.
  pose (l := [EConnect 1; EStep 0; EStep 0; EStep 0; EStep 0; EStep 0; EDisconnect 1 1;
              ECheck 2 1; EStep 2; EStep 2; EStep 2; EStep 2; EStep 2; EStep 1]).
  destruct (runs init l (fun s => rb (dres s) 1 1 false)) as (s & R & F); [vm_compute; reflexivity|].
  exists s, 1, 1. split; [exists l; split; [exact R|split; not_in]|]. apply rb_in. exact F.
Qed.

(** F200: with the lock file of a connection from before a restart still there, a process
    that lists connections removes the file that a new connection with the same CID put in its
    place after the process found the old file unlocked: the new connection is
    considered dead (src/shm_main.c 242-262, 328). *)
Theorem C61_listing_after_restart_refuted : exists l s, run init l = Some s /\
  connected s 1 /\ In (3, 1, false) (res s) /\ forall p c, In (EList p c) l -> p = 2.
Proof.
  pose (l := [EConnect 1; EStep 0; EStep 0; EStep 0; EStep 0; EStep 0; EReboot;
              EList 2 1; EStep 1; EStep 1; EStep 1; EStep 1;
              EConnect 1; EStep 2; EStep 2; EStep 2; EStep 2; EStep 1;
              ECheck 3 1; EStep 3; EStep 3]).
  destruct (runs init l (fun s => rb (res s) 3 1 false && cb s 1)) as (s & R & F); [vm_compute; reflexivity|].
  exists l, s. split_b. split; [exact R|]. split; [apply cb_true; assumption|]. split; [apply rb_in; assumption|].
  intros p c I. cbn in I. repeat (destruct I as [I|I]; [try discriminate I; injection I as <- _; reflexivity|]). destruct I.
Qed.

(** F201: sr_connect() that fails after it added the connection does not remove it from
    the list of the process, so the connection that was never made is reported as alive
    as long as the process runs (src/sysrepo.c 240-345). *)
Theorem C61_failed_connect_refuted : exists s, reach s /\ ~ connected s 1 /\
  exists l s', run s l = Some s' /\ no_listing l /\ no_restart l /\ In (ntid s, 1, true) (res s').
Proof.
  pose (l := [EConnect 1; EStep 0; EStep 0; EStep 0; EStep 0; EFail 0]).
  pose (l' := [ECheck 2 1; EStep 1; EStep 1; EStep 1; EStep 1]).
  destruct (runs init l (fun s => negb (cb s 1) && match run s l' with Some s' => rb (res s') (ntid s) 1 true | None => false end))
    as (s & R & F); [vm_compute; reflexivity|].
  exists s. split_b. split; [exists l; split; [exact R|not_in]|]. split; [apply cb_false; apply negb_true_iff; assumption|].
  exists l'. destruct (run s l') as [s'|]; [|discriminate]. exists s'. split; [reflexivity|]. split; [not_in|]. split; [not_in|].
  apply rb_in. assumption.
Qed.

Print Assumptions C61_dead_is_dead.
Print Assumptions C61_death_detected.
Print Assumptions C61_check_ends.
Print Assumptions C61_locked.
Print Assumptions C61_connects.
Print Assumptions C61_no_file_left.
