(** * C56: calls with the conventional datastores do not see each other's half-done work

    Any number of threads, each executing one call after another (reading, editing,
    committing or discarding the candidate, copying, locking and unlocking the
    candidate, ending a session), in any interleaving. *)

From Coq Require Import List Arith Bool Lia.
Import ListNotations.
From Verif Require Import Candidate CandidateSpec CandidateProofs.

(** Reading: when the data of all the modules have been read, they are what is stored,
    all at the same moment. Modules of the candidate that were not modified are only
    known not to be modified: their data are read from running, whose lock the call
    does not have ([C56_candidate_read_refuted]). *)
Theorem C56_read_partial y t d ms : reach y ->
  t_call (y_th y t) = Some (Get d ms) -> t_failed (y_th y t) = false -> t_todo (y_th y t) = [AEnd] ->
  forall m, In m ms -> exists c, t_cur (y_th y t) m = Some c /\ d_req c = d /\ agrees (y_st y) m c.
Proof.
  intros R0 Ec Ef Et m I. assert (R := inv_reach _ R0).
  destruct (where_at y t _ (ALock d ms Rd :: loads d ms) _ R Ec Ef (fun Z => Z) Et eq_refl)
    as (A0 & _ & _ & A3 & _).
  assert (M : mem m ms = true) by now apply mem_in.
  assert (Q : creq (t_cur (y_th y t)) m = Some d).
  { rewrite A3. unfold seval. cbn [fold_left sact]. rewrite (proj1 (seval_loads d ms _ m)). now rewrite M. }
  destruct (creq_some _ _ _ Q) as (c & Cc & Cd). exists c. split; [exact Cc|]. split; [exact Cd|].
  apply (v_cur _ _ _ _ (i_th _ R t) m c Rd Cc).
  - rewrite Cd. apply A0. unfold heval. cbn [fold_left]. rewrite hfold_loads. cbn [hact]. left. auto.
  - rewrite Cd. intros J. 
    assert (W := dirty_reach y R0 t _ (ALock d ms Rd :: loads d ms) Ec Ef (fun Z => Z) ltac:(rewrite Et; reflexivity) _ _ J).
    unfold wrote in W. cbn [In] in W.
    destruct W as [[W | W] | [[W | W] | [_ [W | W]]]]; try discriminate; apply in_loads_inv in W; destruct W; discriminate.
Qed.
Print Assumptions C56_read_partial.

(** Editing: before the first change is written the data that were edited are still
    what is stored, so no change of another call is lost; and when the call succeeds
    the edited data are stored (in startup and running). *)
Theorem C56_edit y t d ms f : reach y ->
  t_call (y_th y t) = Some (Edit d ms f) -> t_failed (y_th y t) = false ->
  (t_todo (y_th y t) = stores d ms ++ [AEnd] ->
     forall m, In m ms -> exists c, t_cur (y_th y t) m = Some c /\ d_req c = d /\ agrees (y_st y) m c) /\
  (t_todo (y_th y t) = [AEnd] -> d <> Candidate ->
     forall m, In m ms -> exists c, t_cur (y_th y t) m = Some c /\ d_req c = d /\
       content (y_st y) d m = Some (f m (d_val c))).
Proof.
  intros R0 Ec Ef. assert (R := inv_reach _ R0).
  set (pre := ALock d ms Up :: loads d ms ++ [AEdit f ms; APoint; AUpgrade d ms]).
  assert (Ep : program (Edit d ms f) = pre ++ stores d ms ++ [AEnd]).
  { unfold pre. cbn [program finish app]. rewrite <- !app_assoc. reflexivity. }
  assert (Cur : forall q, (forall m, creq (t_cur (y_th y t)) m = fst (seval (pre ++ q)) m) ->
    (forall r, fold_left sact q r = r) -> forall m, In m ms -> exists c, t_cur (y_th y t) m = Some c /\ d_req c = d).
  { intros q A3 Eq m I. apply creq_some. rewrite A3. unfold seval. rewrite fold_left_app, Eq.
    unfold pre. cbn [fold_left sact]. rewrite fold_left_app. cbn [fold_left sact].
    rewrite (proj1 (seval_loads d ms _ m)). apply mem_in in I. now rewrite I. }
  split.
  - intros Et m I. destruct (where_at y t _ pre _ R Ec Ef (fun Z => Z) Et Ep) as (A0 & _ & _ & A3 & _).
    destruct (Cur [] ltac:(rewrite app_nil_r; exact A3) (fun _ => eq_refl) m I) as (c & Cc & Cd).
    exists c. split; [exact Cc|]. split; [exact Cd|].
    apply (v_cur _ _ _ _ (i_th _ R t) m c Wr Cc).
    2: { intros J. assert (W := dirty_reach y R0 t _ pre Ec Ef (fun Z => Z) ltac:(rewrite Et; exact Ep) _ _ J).
      assert (Np : forall a, In a pre -> match a with ATear _ _ | AStore _ _ | AReset _ => False | _ => True end).
      { intros a Ia. unfold pre in Ia. destruct Ia as [<- | Ia]; [exact Logic.I|].
        apply in_app_or in Ia. destruct Ia as [Ia | [<- | [<- | [<- | []]]]]; try exact Logic.I.
        apply in_loads_inv in Ia. destruct Ia as [z ->]. exact Logic.I. }
      destruct W as [W | [W | [_ W]]]; exact (Np _ W). }
    rewrite Cd. apply A0. unfold heval, pre. cbn [fold_left]. rewrite fold_left_app, hfold_loads. cbn [fold_left hact].
    left. auto.
  - intros Et Nc m I.
    assert (Ep' : program (Edit d ms f) = (pre ++ stores d ms) ++ [AEnd]) by (rewrite Ep; apply app_assoc).
    destruct (where_at y t _ _ _ R Ec Ef (fun Z => Z) Et Ep') as (A0 & A1 & _ & A3 & _).
    destruct (Cur (stores d ms) A3 (sfold_stores d ms) m I) as (c & Cc & Cd).
    exists c. split; [exact Cc|]. split; [exact Cd|].
    assert (Dn : In (d, m) (t_done (y_th y t))).
    { apply A1. apply in_or_app. right. apply in_stores_store. auto. }
    assert (Co : content (y_st y) d m = t_new (y_th y t) m).
    { apply (v_done _ _ _ _ (i_th _ R t) d m Dn Nc). apply A0. unfold heval. rewrite fold_left_app, hfold_stores.
      unfold pre. cbn [fold_left]. rewrite fold_left_app, hfold_loads. cbn [fold_left hact]. left. auto. }
    destruct (t_new (y_th y t) m) as [v|] eqn:Nv.
    + destruct (edit_reach y R0 t d ms f Ec Ef m v Nv) as (_ & c' & Cc' & ->).
      rewrite Cc in Cc'. injection Cc' as <-. exact Co.
    + exfalso. destruct d; [discriminate | | now elim Nc]. cbn [content] in Co.
      assert (L : In (Lk t Running m Wr) (y_lk y)).
      { apply A0. unfold heval. rewrite fold_left_app, hfold_stores.
        unfold pre. cbn [fold_left]. rewrite fold_left_app, hfold_loads. cbn [fold_left hact]. left. auto. }
      destruct (torn_writer y m t Wr R Co L) as (_ & _ & q & Q). congruence.
Qed.
Print Assumptions C56_edit.

(** Committing: when running is about to be unlocked the modules of running are what
    was read of the candidate, and the modified modules of the candidate are still what
    was read: running became the candidate. When the call ends the candidate is
    not modified any more. What is stored in modules that were not modified in the
    candidate is what was read without running's lock ([C56_commit_lost_refuted]). *)
Theorem C56_commit_partial y t ms : reach y ->
  t_call (y_th y t) = Some (Commit ms) -> t_failed (y_th y t) = false ->
  (t_todo (y_th y t) = AUnlock Running :: resets ms ++ [AEnd] ->
     forall m, In m ms -> exists c, t_src (y_th y t) m = Some c /\
       st_run (y_st y) m = Some (d_val c) /\ d_req c = Candidate /\ agrees (y_st y) m c /\
       (forall v, st_cand (y_st y) m = Some v -> st_run (y_st y) m = Some v)) /\
  (t_todo (y_th y t) = [AEnd] -> forall m, In m ms -> st_cand (y_st y) m = None).
Proof.
  intros R0 Ec Ef. assert (R := inv_reach _ R0).
  set (pre := (ALock Candidate ms Wr :: loads Candidate ms ++ ATake ms ::
     ALock Running ms Up :: loads Running ms ++ APoint :: AUpgrade Running ms :: stores Running ms)).
  assert (Ep : program (Commit ms) = pre ++ AUnlock Running :: resets ms ++ [AEnd]).
  { unfold pre, program, replace, finish. cbn [app]. rewrite <- !app_assoc. cbn [app]. rewrite <- !app_assoc. reflexivity. }
  assert (Hv : heval pre = fun d' m' md' => (d' = Running /\ In m' ms /\ md' = Wr) \/ (~ (d' = Running /\ In m' ms) /\
      ((d' = Running /\ In m' ms /\ md' = Up) \/ ((d' = Candidate /\ In m' ms /\ md' = Wr) \/ False)))).
  { unfold heval, pre. cbn [fold_left]. rewrite fold_left_app, hfold_loads. cbn [fold_left].
    rewrite fold_left_app, hfold_loads. cbn [fold_left]. rewrite hfold_stores. reflexivity. }
  split.
  - intros Et m I. destruct (where_at y t _ pre _ R Ec Ef (fun Z => Z) Et Ep) as (A0 & A1 & _ & _ & A4).
    assert (Q : creq (t_src (y_th y t)) m = Some Candidate).
    { rewrite A4. unfold seval, pre. cbn [fold_left sact]. rewrite fold_left_app. cbn [fold_left sact].
      rewrite fold_left_app. cbn [fold_left sact]. rewrite sfold_stores, (proj2 (seval_loads Running ms _ m)).
      cbn [snd]. rewrite (proj1 (seval_loads Candidate ms _ m)). assert (M : mem m ms = true) by now apply mem_in. now rewrite M. }
    destruct (creq_some _ _ _ Q) as (c & Cc & Cd). exists c. split; [exact Cc|].
    assert (Ru : st_run (y_st y) m = Some (d_val c)).
    { rewrite <- (v_taken _ _ _ _ (i_th _ R t) m c Cc).
      apply (v_done _ _ _ _ (i_th _ R t) Running m); [|discriminate|].
      - apply A1. unfold pre. right. apply in_or_app. right. right. right. apply in_or_app. right. right. right.
        apply in_stores_store. auto.
      - apply A0. rewrite Hv. left. auto. }
    assert (Ag : agrees (y_st y) m c).
    { apply (v_src _ _ _ _ (i_th _ R t) m c Wr Cc).
      - rewrite Cd. apply A0. rewrite Hv. right. split; [intros [Z _]; discriminate|]. right. left. auto.
      - rewrite Cd. intros J.
        assert (W := dirty_reach y R0 t _ pre Ec Ef (fun Z => Z) ltac:(rewrite Et; exact Ep) _ _ J).
        assert (Np : forall a, In a pre -> match a with ATear Candidate _ | AStore Candidate _ | AReset _ => False | _ => True end).
        { intros a Ia. unfold pre in Ia. destruct Ia as [<- | Ia]; [exact Logic.I|].
          apply in_app_or in Ia. destruct Ia as [Ia | [<- | [<- | Ia]]]; [apply in_loads_inv in Ia; destruct Ia as [z ->]; exact Logic.I | exact Logic.I | exact Logic.I |].
          apply in_app_or in Ia. destruct Ia as [Ia | [<- | [<- | Ia]]]; [apply in_loads_inv in Ia; destruct Ia as [z ->]; exact Logic.I | exact Logic.I | exact Logic.I |].
          apply in_stores_inv in Ia. destruct Ia as (z & [-> | ->]); exact Logic.I. }
        destruct W as [W | [W | [_ W]]]; exact (Np _ W). }
    repeat split; auto. intros v Cv. rewrite Ru. unfold agrees in Ag. rewrite Cd in Ag.
    destruct (d_act c); congruence.
  - intros Et m I.
    assert (Ep' : program (Commit ms) = (pre ++ AUnlock Running :: resets ms) ++ [AEnd])
      by (rewrite Ep, <- app_assoc; reflexivity).
    destruct (where_at y t _ _ _ R Ec Ef (fun Z => Z) Et Ep') as (A0 & _ & A2 & _ & _).
    apply (v_gone _ _ _ _ (i_th _ R t) m).
    + apply A2. apply in_or_app. right. right. now apply in_map.
    + apply A0. unfold heval. rewrite fold_left_app. fold (heval pre). cbn [fold_left]. rewrite hfold_resets, Hv. cbn [hact].
      split; [discriminate|]. right. split; [intros [Z _]; discriminate|]. right. left. auto.
Qed.
Print Assumptions C56_commit_partial.

(** Copying: before the source is unlocked what was read is what is stored there, all at
    the same moment; and when the call succeeds it is stored in startup or running. *)
Theorem C56_copy y t s d ms : reach y ->
  t_call (y_th y t) = Some (Copy s d ms) -> t_failed (y_th y t) = false ->
  (forall q, t_todo (y_th y t) = AUnlock s :: q ->
     forall m, In m ms -> exists c, t_cur (y_th y t) m = Some c /\ d_req c = s /\ agrees (y_st y) m c) /\
  (t_todo (y_th y t) = [AEnd] -> d <> Candidate ->
     forall m, In m ms -> exists c, t_src (y_th y t) m = Some c /\ d_req c = s /\
       content (y_st y) d m = Some (d_val c)).
Proof.
  intros R0 Ec Ef. assert (R := inv_reach _ R0).
  set (pre := ALock s ms Rd :: loads s ms).
  assert (Ep : program (Copy s d ms) = pre ++ AUnlock s :: ATake ms :: replace d ms ++ [AEnd]) by reflexivity.
  split.
  - intros q Et m I.
    assert (Ep2 : program (Copy s d ms) = pre ++ AUnlock s :: q).
    { destruct (v_pos _ _ _ _ (i_th _ R t) _ Ef Ec (fun Z => Z)) as (pre' & Q & _). rewrite Et, Ep in Q.
      apply unique_split in Q; [destruct Q as [_ <-]; exact Ep| |].
      - intros [Z | Z]; [discriminate|]. apply in_loads_inv in Z. destruct Z; discriminate.
      - intros [Z | Z]; [discriminate|]. apply in_app_or in Z. destruct Z as [Z | [Z | []]]; [|discriminate].
        unfold replace, finish in Z. destruct Z as [Z | Z]; [discriminate|]. apply in_app_or in Z.
        destruct Z as [Z | [Z | [Z | Z]]]; try discriminate.
        + apply in_loads_inv in Z. destruct Z; discriminate.
        + apply in_stores_inv in Z. destruct Z as (z & [Z | Z]); discriminate. }
    destruct (where_at y t _ pre _ R Ec Ef (fun Z => Z) Et Ep2) as (A0 & _ & _ & A3 & _).
    assert (M : mem m ms = true) by now apply mem_in.
    assert (Q : creq (t_cur (y_th y t)) m = Some s).
    { rewrite A3. unfold seval, pre. cbn [fold_left sact]. rewrite (proj1 (seval_loads s ms _ m)). now rewrite M. }
    destruct (creq_some _ _ _ Q) as (c & Cc & Cd). exists c. split; [exact Cc|]. split; [exact Cd|].
    apply (v_cur _ _ _ _ (i_th _ R t) m c Rd Cc).
    + rewrite Cd. apply A0. unfold heval, pre. cbn [fold_left]. rewrite hfold_loads. cbn [hact]. left. auto.
    + rewrite Cd. intros J.
      assert (W := dirty_reach y R0 t _ pre Ec Ef (fun Z => Z) ltac:(rewrite Et; exact Ep2) _ _ J).
      unfold wrote, pre in W. cbn [In] in W.
      destruct W as [[W | W] | [[W | W] | [_ [W | W]]]]; try discriminate; apply in_loads_inv in W; destruct W; discriminate.
  - intros Et Nc m I.
    set (pre2 := pre ++ AUnlock s :: ATake ms :: ALock d ms Up :: loads d ms ++ APoint :: AUpgrade d ms :: stores d ms).
    assert (Ep2 : program (Copy s d ms) = pre2 ++ [AEnd]).
    { rewrite Ep. unfold pre2, replace, finish. rewrite <- app_assoc. cbn [app]. rewrite <- !app_assoc. reflexivity. }
    destruct (where_at y t _ pre2 _ R Ec Ef (fun Z => Z) Et Ep2) as (A0 & A1 & _ & _ & A4).
    assert (M : mem m ms = true) by now apply mem_in.
    assert (Q : creq (t_src (y_th y t)) m = Some s).
    { rewrite A4. unfold seval, pre2, pre. rewrite fold_left_app. cbn [fold_left sact]. rewrite fold_left_app. cbn [fold_left sact].
      rewrite sfold_stores, (proj2 (seval_loads d ms _ m)). cbn [snd].
      rewrite (proj1 (seval_loads s ms _ m)). now rewrite M. }
    destruct (creq_some _ _ _ Q) as (c & Cc & Cd). exists c. split; [exact Cc|]. split; [exact Cd|].
    rewrite <- (v_taken _ _ _ _ (i_th _ R t) m c Cc).
    apply (v_done _ _ _ _ (i_th _ R t) d m); [|exact Nc|].
    + apply A1. unfold pre2. apply in_or_app. right. right. right. right. apply in_or_app. right. right. right.
      apply in_stores_store. auto.
    + apply A0. unfold heval, pre2, pre. rewrite fold_left_app. cbn [fold_left]. rewrite hfold_loads. cbn [fold_left].
      rewrite fold_left_app, hfold_loads. cbn [fold_left]. rewrite hfold_stores. cbn [hact]. left. auto.
Qed.
Print Assumptions C56_copy.

(** Discarding: when the call ends the candidate is not modified. *)
Theorem C56_discard y t ms : reach y ->
  t_call (y_th y t) = Some (Discard ms) -> t_failed (y_th y t) = false -> t_todo (y_th y t) = [AEnd] ->
  forall m, In m ms -> st_cand (y_st y) m = None.
Proof.
  intros R0 Ec Ef Et m I. assert (R := inv_reach _ R0).
  destruct (where_at y t _ (ALock Candidate ms Wr :: ALock Running ms Rd :: resets ms) _ R Ec Ef (fun Z => Z) Et eq_refl)
    as (A0 & _ & A2 & _ & _).
  apply (v_gone _ _ _ _ (i_th _ R t) m).
  - apply A2. right. right. now apply in_map.
  - apply A0. unfold heval. cbn [fold_left]. rewrite hfold_resets. cbn [hact]. right. left. auto.
Qed.
Print Assumptions C56_discard.

(** Unlocking the candidate discards the changes, too. *)
Theorem C56_unlock y t ms : reach y ->
  t_call (y_th y t) = Some (UnlockC ms) -> t_failed (y_th y t) = false -> t_todo (y_th y t) = [AEnd] ->
  forall m, In m ms -> st_cand (y_st y) m = None.
Proof.
  intros R0 Ec Ef Et m I. assert (R := inv_reach _ R0).
  destruct (where_at y t _ (ALock Candidate ms Wr :: ADisown ms :: resets ms) _ R Ec Ef (fun Z => Z) Et eq_refl)
    as (A0 & _ & A2 & _ & _).
  apply (v_gone _ _ _ _ (i_th _ R t) m).
  - apply A2. right. right. now apply in_map.
  - apply A0. unfold heval. cbn [fold_left]. rewrite hfold_resets. cbn [hact]. left. auto.
Qed.
Print Assumptions C56_unlock.

(** A step of a call changes only what its ghost [t_dirty] names (or it recovers
    running), and this is empty when the call fails: a failed call has changed nothing. *)
Theorem C56_failed y t : reach y ->
  (t_failed (y_th y t) = true -> t_dirty (y_th y t) = []) /\
  (forall ok d m, content (y_st (step y t ok)) d m <> content (y_st y) d m ->
     In (d, m) (t_dirty (y_th (step y t ok) t)) \/ (d = Running /\ st_run (y_st y) m = None)).
Proof.
  intros R. apply inv_reach in R. split.
  - intros F. destruct (t_dirty (y_th y t)) as [|z r] eqn:E; [reflexivity|].
    destruct (v_write _ _ _ _ (i_th _ R t)) as [Q _]; [rewrite E; discriminate | congruence].
  - intros ok d m. now apply step_dirty.
Qed.
Print Assumptions C56_failed.

(** While a call has the lock of the data of a module nobody else changes them, and
    they are never half written except by the call itself. *)
Theorem C56_stable y t d m md : reach y -> holds y t d m md ->
  (forall t' ok, t' <> t -> ~ (d = Running /\ st_run (y_st y) m = None) ->
     content (y_st (step y t' ok)) d m = content (y_st y) d m) /\
  (d = Running -> st_run (y_st y) m = None -> exists q, t_todo (y_th y t) = AStore Running m :: q).
Proof.
  intros R H. apply inv_reach in R. unfold holds in H. split.
  - intros t' ok D N. destruct (step_same y t' ok d m R) as [Q | Q]; [|exact Q|contradiction].
    intros md' -> J. apply D. symmetry. exact (wr_alone _ _ _ _ _ _ (i_compat _ R) J H).
  - intros -> E. exact (proj2 (proj2 (torn_writer y m t md R E H))).
Qed.
Print Assumptions C56_stable.

(** The lock of the candidate: a successful call has locked an unmodified candidate, and
    nobody else changes or unlocks it. *)
Theorem C56_locked y t : reach y ->
  (forall ms, t_call (y_th y t) = Some (LockC ms) -> t_failed (y_th y t) = false -> t_todo (y_th y t) = [AEnd] ->
     forall m, In m ms -> st_owner (y_st y) m = Some t /\ st_cand (y_st y) m = None) /\
  (forall m t' ok, st_owner (y_st y) m = Some t -> t' <> t ->
     st_owner (y_st (step y t' ok)) m = Some t /\ st_cand (y_st (step y t' ok)) m = st_cand (y_st y) m).
Proof.
  intros R. split.
  - exact (lock_reach y R t).
  - intros m t' ok E D. apply inv_reach in R. now apply step_locked.
Qed.
Print Assumptions C56_locked.

(** ** Executions *)

Definition runs (y : sys) (l : list (nat * nat)) : sys :=
  fold_left (fun y e => Nat.iter (snd e) (fun y => step y (fst e) true) y) l y.

Lemma reach_iter y t n : reach y -> reach (Nat.iter n (fun y => step y t true) y).
Proof. intros R. induction n as [|n IH]; [exact R|]. cbn [Nat.iter]. now apply r_step. Qed.

Lemma reach_runs l : forall y, reach y -> reach (runs y l).
Proof.
  induction l as [|[t n] l IH]; intros y R; [exact R|]. cbn [runs fold_left fst snd]. apply IH. now apply reach_iter.
Qed.

Lemma nodup1 (m : nat) : NoDup [m].
Proof. constructor; [intros [] | constructor]. Qed.

Lemma nodup01 : NoDup [0; 1].
Proof. constructor; [intros [Q | []]; discriminate | apply nodup1]. Qed.

(** startup is 7, running is 5 *)
Definition y0 : sys := init (fun _ => 7) (fun _ => 5).

(** thread 1 changes the candidate of module 0 to 6, commits modules 0 and 1 *)
Definition y1 : sys := runs (begin y0 1 (Edit Candidate [0] (fun _ _ => 6))) [(1, 20)].
Definition y2 : sys := runs (begin y1 1 (Commit [0; 1])) [(1, 13)].

Lemma reach_y1 : reach y1.
Proof. apply reach_runs, r_begin; [apply r_init | reflexivity | apply nodup1]. Qed.

Lemma reach_y2 : reach y2.
Proof. apply reach_runs, r_begin; [apply reach_y1 | reflexivity | apply nodup01]. Qed.

(** the theorems above are about executions that exist *)
Example C56_nonvacuous :
  st_cand (y_st y1) 0 = Some 6 /\ st_run (y_st y1) 0 = Some 5 /\
  (reach y2 /\ t_call (y_th y2 1) = Some (Commit [0; 1]) /\ t_failed (y_th y2 1) = false /\
   t_todo (y_th y2 1) = AUnlock Running :: resets [0; 1] ++ [AEnd] /\ st_run (y_st y2) 0 = Some 6) /\
  (let y3 := runs y2 [(1, 3)] in t_todo (y_th y3 1) = [AEnd] /\ st_cand (y_st y3) 0 = None) /\
  (let y4 := runs (begin y1 2 (Get Candidate [0; 1])) [(2, 3)] in
   t_todo (y_th y4 2) = [AEnd] /\ t_cur (y_th y4 2) 0 = Some (Datum Candidate Candidate 6) /\
   t_cur (y_th y4 2) 1 = Some (Datum Candidate Running 5)) /\
  (let y5 := runs (begin y0 2 (LockC [0])) [(2, 2)] in t_todo (y_th y5 2) = [AEnd] /\ t_failed (y_th y5 2) = false /\
   t_failed (y_th (runs (begin y5 1 (Edit Candidate [0] (fun _ _ => 6))) [(1, 1)]) 1) = true).
Proof.
  split; [reflexivity|]. split; [reflexivity|]. split.
  { split; [exact reach_y2|]. repeat split; reflexivity. }
  repeat split; reflexivity.
Qed.

(** F171: [sr_module_file_data_append] reads running for a module that is not modified in
    the candidate, but only the candidate is locked. While another call is writing the
    file of running, parsing fails and [srpds_json_load_recover] overwrites running with
    startup. So a call that only reads the candidate changes running, and returns data that
    were neither before nor after in running. *)
Theorem C56_candidate_read_refuted :
  ~ (forall y t ms, reach y -> t_call (y_th y t) = Some (Get Candidate ms) ->
     forall ok m, content (y_st (step y t ok)) Running m = content (y_st y) Running m).
Proof.
  intros H.
  set (y := runs (begin (runs (begin y0 1 (Edit Running [0] (fun _ _ => 6))) [(1, 6)]) 2 (Get Candidate [0])) [(2, 1)]).
  assert (R : reach y).
  { unfold y. apply reach_runs, r_begin; [|reflexivity | apply nodup1].
    apply reach_runs, r_begin; [apply r_init | reflexivity | apply nodup1]. }
  assert (Q := H y 2 [0] R eq_refl true 0). vm_compute in Q. discriminate.
Qed.
Print Assumptions C56_candidate_read_refuted.

(** F172: committing replaces the data of all modules, those not modified in the candidate
    with the data of running that were read before running was locked. A change of running
    that another session made in between, with success, is lost. *)
Theorem C56_commit_lost_refuted :
  ~ (forall y t ms, reach y -> t_call (y_th y t) = Some (Commit ms) -> t_failed (y_th y t) = false ->
     t_todo (y_th y t) = stores Running ms ++ AUnlock Running :: resets ms ++ [AEnd] ->
     forall m, In m ms -> st_cand (y_st y) m = None -> t_new (y_th y t) m = st_run (y_st y) m).
Proof.
  intros H.
  set (ya := runs (begin y1 1 (Commit [0; 1])) [(1, 3)]).
  set (yb := runs (begin ya 2 (Edit Running [1] (fun _ _ => 9))) [(2, 8)]).
  set (yc := runs yb [(1, 6)]).
  assert (R : reach yc).
  { unfold yc, yb, ya. apply reach_runs. apply reach_runs, r_begin; [|reflexivity | apply nodup1].
    apply reach_runs, r_begin; [apply reach_y1 | reflexivity | apply nodup01]. }
  assert (Q := H yc 1 [0; 1] R eq_refl eq_refl eq_refl 1 (or_intror (or_introl eq_refl)) eq_refl).
  vm_compute in Q. discriminate.
Qed.
Print Assumptions C56_commit_lost_refuted.

(** F173: the RPC factory-reset resets the candidate without its lock, and without asking
    whether another session has locked the candidate datastore. *)
Theorem C56_factory_refuted :
  ~ (forall y t ms f, reach y -> forall t' m, st_owner (y_st y) m = Some t -> t' <> t -> t_todo (y_th y t') = [] ->
     forall n, st_cand (y_st (runs (begin y t' (Factory ms f)) [(t', n)])) m = st_cand (y_st y) m).
Proof.
  intros H.
  set (y := runs (begin (runs (begin y0 1 (LockC [0])) [(1, 3)]) 1 (Edit Candidate [0] (fun _ _ => 6))) [(1, 20)]).
  assert (R : reach y).
  { unfold y. apply reach_runs, r_begin; [|reflexivity | apply nodup1].
    apply reach_runs, r_begin; [apply r_init | reflexivity | apply nodup1]. }
  assert (Q := H y 1 [0] (fun _ _ => 5) R 2 0 eq_refl (fun Z => ltac:(discriminate)) eq_refl 20).
  vm_compute in Q. discriminate.
Qed.
Print Assumptions C56_factory_refuted.

(** F174: when the owner of the lock of the candidate died, [sr_shmmod_lock] recovers the
    lock but does not discard the changes, so they remain for the next session, which then
    cannot lock the candidate because it is modified. *)
Theorem C56_owner_death_refuted :
  ~ (forall y m, reach y -> st_cand (recover_owner (y_st y) m) m = None).
Proof.
  intros H.
  set (y := runs (begin (runs (begin y0 1 (LockC [0])) [(1, 3)]) 1 (Edit Candidate [0] (fun _ _ => 6))) [(1, 20)]).
  assert (R : reach y).
  { unfold y. apply reach_runs, r_begin; [|reflexivity | apply nodup1].
    apply reach_runs, r_begin; [apply r_init | reflexivity | apply nodup1]. }
  assert (Q := H y 0 R). vm_compute in Q. discriminate.
Qed.
Print Assumptions C56_owner_death_refuted.
