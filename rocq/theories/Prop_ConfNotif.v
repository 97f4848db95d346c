(** C64: Notifications about changes of configuration tell exactly what was changed. *)
From Coq Require Import List Bool Arith NArith Lia Sorted.
From Verif Require Import Edit EditSpec EditSem EditMain EditDiff ChangeIter ChangeIterSpec ConfNotif ConfNotifSpec ConfNotifProofs.
Import ListNotations.

Section P.
Variable kd : nat -> kind.
Variable nk : nat -> nat.
Variable kv : nat -> nat -> nat -> nat.

(** Whatever edit is applied to whatever data of startup or running: there is no notification and
    values and orders are as before, or there is one from the author of the change that lists
    every node created, deleted or with another value once, and nothing else but instances moved. *)
Theorem C64_exact : forall es ds o d subs replay se, wf_data kd ds -> wf_edit kd es -> edit_apply kd es ds = ROk o -> o_err o = false -> sound se ->
  (d = DStartup \/ d = DRunning) -> (subs <> 0 \/ replay = true) ->
  (generate kd d subs replay se (sess_diff kd nk kv (o_diff o)) = GNone /\ unchanged kd nk kv ds (o_g o)) \/
  exists n, generate kd d subs replay se (sess_diff kd nk kv (o_diff o)) = GNotif n /\ n_ds n = d /\ author se (n_user n) (n_sid n) /\ tells kd nk kv (n_edits n) ds (o_g o).
Proof. exact (generated kd nk kv). Qed.

(** In any history of changes, whoever makes them and whichever are refused, subscribers get
    notifications, in order, that account for all the way from the first data to the last; so does what is
    stored for replay. *)
Definition regular (m : commit) : Prop := wf_edit kd (m_edit m) /\ sound (m_sess m) /\ m_send m = true /\ m_store m = true.

Lemma one_commit : forall d subs replay m ds, wf_data kd ds -> regular m -> (d = DStartup \/ d = DRunning) -> (subs <> 0 \/ replay = true) ->
  exists r, do_commit kd nk kv d subs replay m ds = Some r /\ wf_data kd (r_data r) /\
    ((r_sent r = [] /\ r_stored r = [] /\ unchanged kd nk kv ds (r_data r)) \/
     exists n, n_ds n = d /\ author (m_sess m) (n_user n) (n_sid n) /\ tells kd nk kv (n_edits n) ds (r_data r) /\ r_ok r = true /\
       r_sent r = (if Nat.eqb subs 0 then [] else [n]) /\ r_stored r = (if replay then [n] else [])).
Proof.
  intros d subs replay m ds W (We & So & Se & St) D Su. unfold do_commit.
  assert (unchanged kd nk kv ds ds) as Un by (split; reflexivity).
  destruct (edit_apply kd (m_edit m) ds) as [o| |] eqn:H; [|eexists; split; [reflexivity|]; split; [exact W|left; cbn; auto]..].
  destruct (o_err o) eqn:Er; [eexists; split; [reflexivity|]; split; [exact W|left; cbn; auto]|]. cbn [orb].
  destruct (m_refuse m); [eexists; split; [reflexivity|]; split; [exact W|left; cbn; auto]|].
  destruct (edit_means kd (m_edit m) ds o W We H Er) as (W' & _).
  destruct (C64_exact (m_edit m) ds o d subs replay (m_sess m) W We H Er So D Su) as [(E & U)|(n & E & N1 & N2 & N3)]; rewrite E.
  - eexists. split; [reflexivity|]. split; [exact W'|]. left. cbn. auto.
  - rewrite Se, St. cbn [negb]. eexists. split; [reflexivity|]. split; [exact W'|]. right. exists n. cbn [r_sent r_stored r_data r_ok]. auto 10.
Qed.

Theorem C64_history : forall d subs replay ms ds, wf_data kd ds -> Forall regular ms -> (d = DStartup \/ d = DRunning) -> (subs <> 0 \/ replay = true) ->
  exists r, run kd nk kv d subs replay ms ds = Some r /\
    (subs <> 0 -> follows kd nk kv d ds (r_sent r) (r_data r)) /\
    (replay = true -> follows kd nk kv d ds (r_stored r) (r_data r)).
Proof.
  intros d subs replay ms ds W R D Su. revert ds W. induction R as [|m t Rm Rt IH]; intros ds W.
  - eexists. split; [reflexivity|]. split; intros _; apply f_nil.
  - cbn [run]. destruct (one_commit d subs replay m ds W Rm D Su) as (r & E & W' & C). rewrite E. destruct (IH (r_data r) W') as (q & Eq & F1 & F2). rewrite Eq.
    eexists. split; [reflexivity|]. cbn [r_sent r_stored r_data]. destruct C as [(-> & -> & U)|(n & N1 & _ & N3 & _ & -> & ->)].
    + split; intros Q; apply (f_quiet kd nk kv d ds (r_data r)); auto.
    + split; intros Q.
      * apply Nat.eqb_neq in Q as Q'. rewrite Q'. cbn [app]. apply (f_told kd nk kv d ds (r_data r)); auto.
      * rewrite Q. cbn [app]. apply (f_told kd nk kv d ds (r_data r)); auto.
Qed.

(** Nothing is told of changes that are refused, they change nothing. *)
Theorem C64_refused : forall d subs replay m ds r, m_refuse m = true -> do_commit kd nk kv d subs replay m ds = Some r ->
  r_data r = ds /\ r_sent r = [] /\ r_stored r = [] /\ r_ok r = false.
Proof.
  intros d subs replay m ds r R H. unfold do_commit in H. rewrite R in H. destruct (edit_apply kd (m_edit m) ds) as [o| |]; try (injection H as <-; auto).
  rewrite orb_true_r in H. injection H as <-. auto.
Qed.

(** Nor of changes of candidate and operational data. *)
Theorem C64_candidate : forall d subs replay ms ds r, d = DCandidate \/ d = DOperational -> run kd nk kv d subs replay ms ds = Some r ->
  r_sent r = [] /\ r_stored r = [].
Proof.
  intros d subs replay ms ds r D. revert ds r. induction ms as [|m t IH]; intros ds r H; cbn [run] in H; [injection H as <-; auto|].
  destruct (do_commit kd nk kv d subs replay m ds) as [r1|] eqn:E; [|discriminate]. destruct (run kd nk kv d subs replay t (r_data r1)) as [q|] eqn:Q; [|discriminate]. injection H as <-.
  destruct (IH _ _ Q) as (-> & ->). cbn [r_sent r_stored]. rewrite !app_nil_r. unfold do_commit in E. destruct (edit_apply kd (m_edit m) ds) as [o| |]; try (injection E as <-; auto).
  destruct (o_err o || m_refuse m); [injection E as <-; auto|].
  assert (generate kd d subs replay (m_sess m) (sess_diff kd nk kv (o_diff o)) = GNone) as G by (unfold generate; destruct (any_change (all_nodes kd (sess_diff kd nk kv (o_diff o)))); cbn [negb]; [destruct D as [-> | ->]; reflexivity|reflexivity]).
  rewrite G in E. injection E as <-. auto.
Qed.
End P.
Print Assumptions C64_exact.
Print Assumptions C64_history.
Print Assumptions C64_refused.
Print Assumptions C64_candidate.

(** ** An example *)
Ltac no_in := match goal with |- ~ _ => idtac | |- _ -> False => idtac end; intros X; repeat (destruct X as [X|X]; [vm_compute in X; discriminate X|]); destruct X.
Ltac wf_conj := repeat (cbn; match goal with |- _ /\ _ => split | |- Forall _ _ => constructor | |- StronglySorted _ _ => constructor | |- NoDup [] => apply NoDup_nil | |- NoDup (map _ []) => apply NoDup_nil | |- NoDup _ => apply NoDup_cons | |- wf_sibs _ _ => unfold wf_sibs | |- wf_esibs _ _ => unfold wf_esibs | |- True => exact Logic.I end).
Ltac wf_ds := cbv [wf_data wf_sibs]; wf_conj; cbn; auto with arith; try discriminate; try no_in.
Ltac wf_es := cbv [wf_edit wf_esibs]; wf_conj; cbn; auto; try discriminate; try no_in;
  try (intros a b Ha Hb P Q; repeat (destruct Ha as [<-|Ha]; [try discriminate P; repeat (destruct Hb as [<-|Hb]; [try reflexivity; discriminate Q|]); destruct Hb|]); destruct Ha).
(** 0: container, 1: leaf in it, 2: user-ordered list with 1 key in it, 3: leaf in its instances. *)
Definition ykd (s : nat) : kind := match s with 0 => KCont false | 2 => KList true | _ => KLeaf end.
Definition ynk (s : nat) : nat := match s with 2 => 1 | _ => 0 end.
Definition ykv (s v i : nat) : nat := v.
Definition cont (ch : list enode) : list enode := [E 0 0 false (Some Merge) IDefault ch].
Definition y0 : list dnode := [D 0 0 false [D 1 9 false []; D 2 5 false [D 3 1 false []]; D 2 6 false []; D 2 7 false []]].
Definition alice := mksess 17 false [].
Definition server := mksess 0 true [(4, 12); (6, 18)]%N.
Definition e1 := cont [E 1 10 false None IDefault []; E 2 8 false (Some Create) (IAfter (Some 5)) [E 3 4 false None IDefault []]].
Definition e2 := cont [E 2 5 false (Some Delete) IDefault []].
Definition ms : list commit := [mkcommit e1 alice false true true; mkcommit e2 alice true true true; mkcommit e2 server false true true; mkcommit (cont []) alice false true true].
Definition at_ (p : list (nat * nat)) : loc := ((0, 0) :: p, None).

Example C64_nonvacuous : wf_data ykd y0 /\ Forall (regular ykd) ms /\
  match run ykd ynk ykv DRunning 1 true ms y0 with
  | Some r => r_sent r = r_stored r /\
      r_sent r = [mkcn 17 0 DRunning [(at_ [(1, 0)], NReplace); (at_ [(2, 8)], NCreate); (((0, 0) :: [(2, 8)], Some 0), NCreate); (at_ [(2, 8); (3, 0)], NCreate)];
                  mkcn 18 12 DRunning [(at_ [(2, 5)], NDelete); (((0, 0) :: [(2, 5)], Some 0), NDelete); (at_ [(2, 5); (3, 0)], NDelete)]] /\
      r_data r = [D 0 0 false [D 1 10 false []; D 2 8 false [D 3 4 false []]; D 2 6 false []; D 2 7 false []]]
  | None => False
  end.
Proof.
  split; [unfold y0; wf_ds|]. split; [|vm_compute; auto].
  assert (sound alice /\ sound server) as [A B] by (split; [intros X; discriminate X|intros _; exists 18%N, 12%N, 6%N; reflexivity]).
  assert (wf_edit ykd e1) by (unfold e1, cont; wf_es). assert (wf_edit ykd e2) by (unfold e2, cont; wf_es). assert (wf_edit ykd (cont [])) by (unfold cont; wf_es).
  repeat (constructor; [split; [assumption|split; [assumption|split; reflexivity]]|]). constructor.
Qed.

(** F217: a change made in a session with the originator name netopeer2 but without the two
    pieces of data that server puts there reads behind them (or at address 0) when the notification is
    made, after the change was stored: any application may set this name. *)
Theorem C64_originator_refuted : exists se, s_np2 se = true /\ s_data se = [] /\
  do_commit ykd ynk ykv DRunning 1 false (mkcommit e1 se false true true) y0 = None.
Proof. exists (mksess 17 true []). split; [reflexivity|]. split; reflexivity. Qed.

(** F218: when the notification cannot be sent, the change is stored all the same, an error is returned
    for it, and it is in no notification, sent or stored. *)
Theorem C64_failed_refuted : exists r, do_commit ykd ynk ykv DRunning 1 true (mkcommit e1 alice false false true) y0 = Some r /\
  r_ok r = false /\ r_sent r = [] /\ r_stored r = [] /\ ~ unchanged ykd ynk ykv y0 (r_data r).
Proof.
  eexists. split; [vm_compute; reflexivity|]. do 3 (split; [reflexivity|]). intros [V _]. specialize (V (at_ [(1, 0)])). vm_compute in V. discriminate V.
Qed.

(** F219: the same notification is sent for an instance moved to one place and to another, the place is
    not told (nor of created instances): orders cannot be followed. *)
Definition mv (i : ins) := cont [E 2 5 false (Some Merge) i []].
Theorem C64_place_refuted : exists r1 r2, 
  do_commit ykd ynk ykv DRunning 1 true (mkcommit (mv (IAfter (Some 6))) alice false true true) y0 = Some r1 /\
  do_commit ykd ynk ykv DRunning 1 true (mkcommit (mv (IAfter (Some 7))) alice false true true) y0 = Some r2 /\
  r_sent r1 = r_sent r2 /\ r_sent r1 <> [] /\ ~ unchanged ykd ynk ykv (r_data r1) (r_data r2).
Proof.
  eexists _, _. split; [vm_compute; reflexivity|]. split; [vm_compute; reflexivity|]. split; [reflexivity|]. split; [discriminate|].
  intros [_ V]. specialize (V [(0, 0)] 2). vm_compute in V. discriminate V.
Qed.

(** F220: a notification is sent about instances moved there and back by one edit though nothing
    is changed by it. *)
Definition swap := cont [E 2 5 false (Some Merge) (IAfter (Some 6)) []; E 2 6 false (Some Merge) (IAfter (Some 5)) []].
Theorem C64_nothing_refuted : exists r, do_commit ykd ynk ykv DRunning 1 true (mkcommit swap alice false true true) y0 = Some r /\
  r_data r = y0 /\ map n_edits (r_sent r) = [[(at_ [(2, 5)], NMerge); (at_ [(2, 6)], NMerge)]].
Proof. eexists. split; [vm_compute; reflexivity|]. split; reflexivity. Qed.

(** F221: a value set explicitly in place of the same default value is in no notification. *)
Definition dflt : list dnode := [D 0 0 false [D 1 9 true []]].
Theorem C64_default_refuted : exists r, do_commit ykd ynk ykv DRunning 1 true (mkcommit (cont [E 1 9 false None IDefault []]) alice false true true) dflt = Some r /\
  r_ok r = true /\ r_sent r = [] /\ r_data r = [D 0 0 false [D 1 9 false []]].
Proof. eexists. split; [vm_compute; reflexivity|]. split; [reflexivity|]. split; reflexivity. Qed.
