(** C45: a subscriber to a stream gets the stored notifications, then replay-completed, then the live ones. *)
From Coq Require Import List Bool Arith Lia.
From Verif Require Import SnDeliver SnDeliverSpec SnDeliverProofs.
Import ListNotations.

(** As long as some module was not handled, exactly stored notifications of the handled ones were received. *)
Theorem C45_replaying_partial stored h i : Forall (ordinary (length stored)) h -> i < length stored -> ~ In i (visited h) ->
  received (run stored true h) = map INtf (replays stored h).
Proof.
  intros F L N. destruct (inv_run stored h F ltac:(lia)) as [_ _ _ _ _ B _]. apply B.
  pose proof (visited_le _ _ F) as Le. destruct (Nat.eq_dec (length (visited h)) (length stored)) as [E|E]; [|lia].
  exfalso. apply N. apply (proj2 (visited_all _ _ F) E). exact L.
Qed.
(** Then exactly: the stored ones of all modules, one replay-completed, and all the live ones in the order in which
    they came, whether before or after it. *)
Theorem C45_completed_partial stored h : stored <> [] -> Forall (ordinary (length stored)) h -> (forall i, i < length stored -> In i (visited h)) ->
  received (run stored true h) = map INtf (replays stored h) ++ ICompleted :: map INtf (lives false h).
Proof.
  intros N F H. assert (P : 0 < length stored) by (destruct stored; [contradiction|cbn; lia]).
  destruct (inv_run stored h F P) as [_ _ _ _ _ _ B]. apply B. apply (visited_all _ _ F). exact H.
Qed.
(** Without a start time only the live ones. *)
Theorem C45_live stored h : Forall (ordinary (length stored)) h -> received (run stored false h) = map INtf (lives false h).
Proof. intros F. apply (live_run stored h F). Qed.

(** Every stored notification is replayed once: those of a module make an uninterrupted part of the replays. *)
Theorem C45_module stored h i : In i (visited h) ->
  exists a b, visited h = a ++ i :: b /\ ~ In i a /\ ~ In i b /\
    replays stored h = flat_map (fun j => filter n_sel (nth j stored [])) a ++ filter n_sel (nth i stored []) ++ flat_map (fun j => filter n_sel (nth j stored [])) b.
Proof.
  intros H. apply in_split in H as (a & b & E). exists a, b. pose proof (visited_nodup h) as ND. rewrite E in ND. apply NoDup_remove_2 in ND.
  split; [exact E|]. split; [intros K; apply ND; apply in_app_iff; auto|]. split; [intros K; apply ND; apply in_app_iff; auto|].
  unfold replays. rewrite E, flat_map_app. reflexivity.
Qed.

(** ** The end *)
Lemma closed_stays stored h : forall x, s_closed x = true -> fold_left (step stored) h x = x.
Proof.
  induction h as [|o h IH]; intros x C; [reflexivity|]. cbn [fold_left]. assert (E : step stored x o = x).
  { destruct o; unfold step, visit, suspend, resume, terminate, stop_time; rewrite C; reflexivity. }
  rewrite E. apply IH. exact C.
Qed.
Lemma cb_closed n x : s_closed (cb_live n x) = s_closed x.
Proof. unfold cb_live. destruct (Nat.ltb _ _); reflexivity. Qed.
Lemma module_closed stored i f l x : s_closed (visit stored i f l x) = s_closed x /\ (forall o, In o (s_out (visit stored i f l x)) -> In o (s_out x) \/ o <> ITerminated).
Proof.
  unfold visit. destruct (s_closed x) eqn:C; [auto|]. unfold module_replay.
  assert (R : forall k, s_closed (replay_notify (nth i stored []) k x) = false /\ forall o, In o (s_out (replay_notify (nth i stored []) k x)) -> In o (s_out x) \/ o <> ITerminated).
  { intros k. unfold replay_notify. cbv zeta. rewrite fold_replay. set (l0 := filter n_sel _). clearbody l0.
    assert (M : forall l1 o, In o (map INtf l1) -> o <> ITerminated) by (intros l1 o Ho; apply in_map_iff in Ho as (? & <- & _); discriminate).
    destruct k as [k|]; unfold cb_complete; [|destruct (Nat.ltb _ _)]; cbn [with_out s_closed s_out]; (split; [exact C|]); intros o Ho.
    - apply in_app_iff in Ho as [Ho|Ho]; [auto|right; eapply M; eauto].
    - apply in_app_iff in Ho as [Ho|Ho]; [auto|right; eapply M; eauto].
    - apply in_app_iff in Ho as [Ho|[<-|Ho]]; [apply in_app_iff in Ho as [Ho|Ho]; [auto|right; eapply M; eauto]|right; discriminate|right; eapply M; eauto]. }
  assert (V : forall y, s_closed y = false -> (forall o, In o (s_out y) -> In o (s_out x) \/ o <> ITerminated) ->
     s_closed (module_events l y) = false /\ (forall o, In o (s_out (module_events l y)) -> In o (s_out x) \/ o <> ITerminated)).
  { intros y Cy Hy. unfold module_events. destruct (s_susp y); [auto|]. rewrite fold_live. destruct (Nat.ltb _ _); cbn [with_out s_closed s_out]; (split; [exact Cy|]); [exact Hy|].
    intros o Ho. apply in_app_iff in Ho as [Ho|Ho]; [auto|]. right. apply in_map_iff in Ho as (? & <- & _). discriminate. }
  destruct (existsb (Nat.eqb i) (s_replayed x)); [apply V; auto|]. destruct f as [k|]; [destruct (R (Some k)) as (R1 & R2); auto|].
  destruct (R None) as (R1 & R2). apply V; [exact R1|exact R2].
Qed.
(** The notification about termination is sent once and is the last one, whatever happens. *)
Theorem C45_terminated stored replay h : In ITerminated (s_out (run stored replay h)) ->
  exists l, s_out (run stored replay h) = l ++ [ITerminated] /\ ~ In ITerminated l.
Proof.
  intros H. assert (Q : (s_closed (run stored replay h) = false /\ ~ In ITerminated (s_out (run stored replay h))) \/
     (s_closed (run stored replay h) = true /\ exists l, s_out (run stored replay h) = l ++ [ITerminated] /\ ~ In ITerminated l)).
  { clear H. unfold run. induction h as [|o h IH] using rev_ind; [left; split; [reflexivity|intros []]|]. rewrite fold_left_app. cbn [fold_left].
    set (x := fold_left (step stored) h (new_sub replay (length stored))) in *. clearbody x. destruct IH as [(C & N)|(C & R)].
    - destruct o as [i f l| | | |].
      + left. destruct (module_closed stored i f l x) as (M1 & M2). cbn [step]. split; [congruence|]. intros K. destruct (M2 _ K) as [K'|K']; [auto|congruence].
      + left. unfold step, suspend. rewrite C. cbn [orb]. destruct (s_susp x); [auto|]. cbn [s_closed s_out]. split; [reflexivity|]. intros K. apply in_app_iff in K as [K|[K|[]]]; [auto|discriminate].
      + left. unfold step, resume. rewrite C. cbn [orb]. destruct (negb (s_susp x)); [auto|]. cbn [s_closed s_out]. split; [reflexivity|]. intros K. apply in_app_iff in K as [K|[K|[]]]; [auto|discriminate].
      + right. unfold step, terminate. rewrite C. cbn [close s_closed s_out]. eauto.
      + unfold step, stop_time. rewrite C. assert (K : s_closed (close x) = true /\ exists l, s_out (close x) = l ++ [ITerminated] /\ ~ In ITerminated l) by (cbn [close s_closed s_out]; eauto).
        repeat match goal with |- context [if ?b then _ else _] => destruct b end; auto.
    - right. change (step stored x o) with (fold_left (step stored) [o] x). rewrite (closed_stays stored [o] x C). auto. }
  destruct Q as [(_ & N)|(_ & R)]; [contradiction|exact R].
Qed.
(** When the stop time comes nothing is lost: if the subscription ends then the replay is completed and all live
    notifications handled before are there, and if the replay is not completed, it does not end. *)
Theorem C45_stop_partial stored h rest : stored <> [] -> Forall (ordinary (length stored)) h ->
  ((forall i, i < length stored -> In i (visited h)) ->
     s_out (run stored true (h ++ StopTime :: rest)) = s_out (run stored true h) ++ [ITerminated]) /\
  ((exists i, i < length stored /\ ~ In i (visited h)) -> run stored true (h ++ [StopTime]) = run stored true h).
Proof.
  intros N F. assert (P : 0 < length stored) by (destruct stored; [contradiction|cbn; lia]).
  destruct (inv_run stored h F P) as [A1 A2 _ _ A5 _ _]. unfold run. split.
  - intros H. apply (visited_all _ _ F) in H. rewrite fold_left_app. cbn [fold_left step]. set (x := fold_left (step stored) h (new_sub true (length stored))) in *.
    assert (E : stop_time x = close x) by (unfold stop_time; rewrite A5, A1, A2, H, Nat.ltb_irrefl; reflexivity). rewrite E. rewrite closed_stays by reflexivity. reflexivity.
  - intros (i & Hi & Ni). assert (L : length (visited h) < length stored).
    { pose proof (visited_le _ _ F). destruct (Nat.eq_dec (length (visited h)) (length stored)) as [E|E]; [|lia]. exfalso. apply Ni. apply (proj2 (visited_all _ _ F) E). exact Hi. }
    rewrite fold_left_app. cbn [fold_left step]. set (x := fold_left (step stored) h (new_sub true (length stored))) in *. unfold stop_time. rewrite A5, A1, A2. apply Nat.ltb_lt in L. rewrite L. reflexivity.
Qed.
(** Nothing at all is sent between suspending and resuming, once the replay is completed. *)
Theorem C45_suspended_partial stored h k : stored <> [] -> Forall (ordinary (length stored)) (h ++ k) -> (forall i, i < length stored -> In i (visited h)) ->
  Forall (fun o => match o with Resume => False | _ => True end) k ->
  received (run stored true (h ++ Suspend :: k)) = received (run stored true h).
Proof.
  intros N F H K. pose proof F as F'. apply Forall_app in F' as (F1 & F2).
  assert (FS : Forall (ordinary (length stored)) (h ++ Suspend :: k)) by (apply Forall_app; split; [exact F1|constructor; [exact Logic.I|exact F2]]).
  assert (V : visited (h ++ Suspend :: k) = visited h).
  { clear N K F. induction k as [|o k IH] using rev_ind.
    - rewrite visited_snoc, app_nil_r. reflexivity.
    - apply Forall_app in F2 as (F2 & Fo). assert (FS' : Forall (ordinary (length stored)) (h ++ Suspend :: k)) by (apply Forall_app; split; [exact F1|constructor; [exact Logic.I|exact F2]]).
      specialize (IH F2 FS'). change (h ++ Suspend :: k ++ [o]) with (h ++ (Suspend :: k) ++ [o]). rewrite app_assoc, visited_snoc, IH. destruct o as [i f l| | | |]; try apply app_nil_r.
      unfold fresh. replace (existsb (Nat.eqb i) (visited h)) with true; [apply app_nil_r|]. symmetry. apply existsb_eqb. apply H. inversion Fo as [|? ? Ho _]; subst. destruct f; [destruct Ho|exact Ho]. }
  assert (L : lives false (h ++ Suspend :: k) = lives false h).
  { rewrite lives_app. cbn [lives]. replace (lives true k) with (@nil ntf); [apply app_nil_r|]. symmetry. clear - K. induction K as [|o k Ho _ IH]; [reflexivity|]. destruct o; try (destruct Ho; fail); exact IH. }
  rewrite !(C45_completed_partial stored) by (try rewrite V; assumption). unfold replays. rewrite V, L. reflexivity.
Qed.
Print Assumptions C45_replaying_partial.
Print Assumptions C45_completed_partial.
Print Assumptions C45_live.
Print Assumptions C45_module.
Print Assumptions C45_terminated.
Print Assumptions C45_stop_partial.
Print Assumptions C45_suspended_partial.

(** ** Two modules *)
Definition nt (id time : nat) : ntf := mkntf id time true true.
Definition two : list (list ntf) := [[nt 1 10; nt 2 20]; [nt 3 15]].
(** A live notification of the first module comes before stored ones of the other module are replayed. *)
Definition case : list op := [Visit 0 None [nt 4 31]; Visit 1 None [nt 5 32; mkntf 6 33 false true; mkntf 7 34 true false]; Visit 0 None [nt 8 35]; Suspend; Visit 1 None [nt 9 36]; Resume; Visit 1 None [nt 10 37]].
Example C45_example : Forall (ordinary (length two)) case /\ (forall i, i < length two -> In i (visited case)) /\
  s_out (run two true (case ++ [StopTime])) = [INtf (nt 1 10); INtf (nt 2 20); INtf (nt 3 15); ICompleted; INtf (nt 4 31); INtf (nt 5 32); INtf (nt 8 35); ISuspended; IResumed; INtf (nt 10 37); ITerminated].
Proof.
  split; [unfold case; cbn [length two]; repeat (apply Forall_cons; [cbn; lia || exact Logic.I|]); apply Forall_nil|]. split; [|vm_compute; reflexivity].
  intros i Hi. cbn in Hi. destruct i as [|[|i]]; [left; reflexivity|right; left; reflexivity|lia].
Qed.

(** ** Counterexamples *)
(** F117: stored notifications are replayed without looking at access control: one that the user may not receive
    is sent, a live one is not. *)
Theorem C45_access_refuted : exists stored h n, Forall (ordinary (length stored)) h /\ n_may n = false /\
  In (INtf n) (received (run stored true h)) /\ received (run stored false [Visit 0 None [n]]) = [].
Proof.
  exists [[mkntf 1 10 true false]], [Visit 0 None []], (mkntf 1 10 true false).
  split; [repeat (apply Forall_cons; [cbn; lia|]); apply Forall_nil|]. split; [reflexivity|]. split; [vm_compute; auto|vm_compute; reflexivity].
Qed.
(** F118: if reading of stored notifications fails in the middle, the replay starts again and what was sent is sent
    once more. *)
Theorem C45_once_refuted : exists stored h, received (run stored true h) = [INtf (nt 1 10); INtf (nt 1 10); INtf (nt 2 20); ICompleted] /\ stored = [[nt 1 10; nt 2 20]].
Proof. exists [[nt 1 10; nt 2 20]], [Visit 0 (Some 1) []; Visit 0 None []]. split; [vm_compute; reflexivity|reflexivity]. Qed.
(** F119: notifications are replayed to a suspended subscription. *)
Theorem C45_suspended_refuted : exists stored h, Forall (ordinary (length stored)) h /\
  s_out (run stored true h) = [ISuspended; INtf (nt 1 10); ICompleted].
Proof. exists [[nt 1 10]], [Suspend; Visit 0 None []]. split; [repeat (apply Forall_cons; [cbn; lia || exact Logic.I|]); apply Forall_nil|vm_compute; reflexivity]. Qed.
(** F120: no module of the stream is selected: replay-completed is never sent. *)
Theorem C45_no_modules_refuted : exists stored, (forall i, i < length stored -> In i (visited [])) /\
  forall h, Forall (ordinary (length stored)) h -> received (run stored true h) = [].
Proof.
  exists []. split; [intros i Hi; cbn in Hi; lia|]. intros h F. change (run [] true h) with (run [] false h).
  rewrite (C45_live [] h F). cbn [length] in F. enough (E : forall b, lives b h = []) by (rewrite E; reflexivity).
  induction F as [|o h Ho _ IH]; intros b; [reflexivity|]. destruct o as [i [k|] l| | | |]; cbn [ordinary] in Ho; try (destruct Ho; fail); try (exfalso; lia); apply IH.
Qed.
(** F121: stored notifications of several modules are not replayed in the order in which they were sent. *)
Theorem C45_order_refuted : exists stored h a b, Forall (ordinary (length stored)) h /\
  received (run stored true h) = [INtf a; INtf b; ICompleted] /\ n_time b < n_time a.
Proof.
  exists [[nt 2 20]; [nt 3 15]], [Visit 0 None []; Visit 1 None []], (nt 2 20), (nt 3 15).
  split; [repeat (apply Forall_cons; [cbn; lia|]); apply Forall_nil|]. split; [vm_compute; reflexivity|cbn; lia].
Qed.
