(** C22: a replay gives exactly the stored notifications of the interval, in the order of storing. *)
From Coq Require Import List Bool NArith Lia Permutation.
From Verif Require Import Base BaseLemmas NtfJson NtfSpec NtfProofs NtfFiles NtfStore.
Import ListNotations.
Local Open Scope N_scope.

(** After any history of storing, for any filter, start time (with seconds other than 0), stop time (zero for none) and time of
    the subscription: there is exactly one run of the replay, its callbacks get the notifications of the requested interval
    which match the filter, in the order of storing, and then the end of the replay. *)
Theorem C22_replayed_partial : forall d log sel start stop since, history d log -> 0 < sec start -> 0 < sec since ->
  (stop = mkTs 0 0 \/ 0 < sec stop) ->
  exists l t, sub (fun n => requested start stop since n /\ sel n = true) log l /\
    forall r, replays d sel start (stop_ts stop since) None r <-> r = map Replayed l ++ [Complete t].
Proof.
  intros d log sel start stop since H Hs Hi Hp. destruct (inv_history d log H) as (cs & HI).
  exists (filter sel (firsts (stop_ts stop since) (skipped start log))), (stop_ts stop since).
  assert (Hpos : 0 < sec (stop_ts stop since)).
  { unfold stop_ts. destruct stop as [a b]. cbn [sec nsec] in *. destruct Hp as [Hp|Hp].
    - injection Hp as -> ->. exact Hi.
    - destruct (_ && _); assumption. }
  split.
  - pose proof (firsts_skipped sel start (stop_ts stop since) log (i_time _ _ _ HI)) as S.
    assert (W : forall n, requested start stop since n <-> within start (stop_ts stop since) n).
    { intros n. unfold requested, within, stop_ts. destruct stop as [a b]. cbn [sec nsec].
      destruct ((a =? 0) && (b =? 0)) eqn:E; cbn [negb andb].
      - apply andb_true_iff in E. rewrite !N.eqb_eq in E. destruct E as [-> ->]. tauto.
      - assert (mkTs a b <> mkTs 0 0).
        { intros X. injection X as -> ->. discriminate. }
        destruct (ts_lt since (mkTs a b)) eqn:El; cbn [negb].
        + apply ts_lt_iff in El. split; [tauto|]. intros [H1 H2]. split; [exact H1|]. split; [exact H2|]. right.
          eapply before_trans; eassumption.
        + apply ts_lt_false in El. split; [tauto|]. intros [H1 H2]. split; [exact H1|]. split; [|right; exact H2].
          revert El H2. unfold before. lia. }
    revert S. generalize (filter sel (firsts (stop_ts stop since) (skipped start log))). clear - W.
    intros l. induction 1 as [|x a b [P1 P2] S IH|x a b P S IH]; [constructor|apply sub_in|apply sub_out]; try assumption.
    + split; [apply W|]; assumption.
    + intros [Q1 Q2]. apply P. split; [apply W|]; assumption.
  - pose proof (replays_spec d log cs HI start (stop_ts stop since) ltac:(lia) Hpos sel (skipped start log) None eq_refl) as R.
    intros r. split; [|intros ->; exact R]. intros R'. exact (replays_fun _ _ _ _ _ _ R r R').
Qed.

(** Storing of the next notification when the system writes all of it succeeds, unless more than 1 MiB of notifications
    is stored in one second. *)
Theorem C22_stored : forall d log n k, history d log -> valid n -> (forall m, In m log -> ~ before (n_ts n) (n_ts m)) ->
  20 + nlen (n_json n) <= k ->
  (exists d', store [Wrote k] n d = SOk d' /\ history d' (log ++ [n])) \/
  (exists l es, log = l ++ es /\ Forall (fun m => sec (n_ts m) = sec (n_ts n)) es /\ 1024 * 1024 < space es + (20 + nlen (n_json n))).
Proof.
  intros d log n k H V Ht Hk. destruct (inv_history d log H) as (cs & HI).
  destruct (store_full d log cs n k HI V Ht Hk) as [[d' E]|[_ E]]; [left|right; exact E].
  exists d'. split; [exact E|]. exact (h_store d log n _ d' H V Ht E).
Qed.
(** And whatever is written at once: a storing which succeeds stores all. *)
Theorem C22_written : forall o n x, valid n -> writev o (iov n) = (WOk, x) -> x = concat (iov n).
Proof.
  intros o n x V E. apply (writev_ok o); [discriminate|exact (iov_fits n V)|exact E].
Qed.

(** * Examples *)
Definition t (s n : N) : ts := mkTs s n.
Definition nt (s ns : N) (j : list N) : ntf := mkNtf (t s ns) j.
Definition st1 : list nfile := [mkF 1 3 (encs [nt 1 5 [7]; nt 3 0 [8; 8]]); mkF 5 5 (encs [nt 5 1 [9]])].
Lemma store_first o n d' : valid n -> store o n [] = SOk d' -> history d' [n].
Proof. intros V E. apply (h_store [] [] n o d' h_empty V); [intros m []|exact E]. Qed.
Ltac solve_valid := split; [reflexivity|split; [reflexivity|split; reflexivity]].
(** A history with notifications in one file written in two parts, then in any order. *)
Example history_two : exists d, history d [nt 1 5 [7]; nt 3 0 [8; 8]] /\
  replays d (fun _ => true) (t 1 5) (stop_ts (t 3 1) (t 9 0)) None [Replayed (nt 1 5 [7]); Replayed (nt 3 0 [8; 8]); Complete (t 3 1)] /\
  replays d (fun _ => true) (t 1 6) (stop_ts (t 3 1) (t 9 0)) None [Replayed (nt 3 0 [8; 8]); Complete (t 3 1)] /\
  replays d (fun _ => true) (t 1 0) (stop_ts (t 3 0) (t 9 0)) None [Replayed (nt 1 5 [7]); Complete (t 3 0)] /\
  replays d (fun _ => true) (t 1 0) (stop_ts (t 0 0) (t 3 0)) None [Replayed (nt 1 5 [7]); Complete (t 3 0)].
Proof.
  exists [mkF 1 3 (encs [nt 1 5 [7]; nt 3 0 [8; 8]])].
  assert (H1 : history [mkF 1 1 (encs [nt 1 5 [7]])] [nt 1 5 [7]]).
  { apply (store_first [Wrote 18; Wrote 100]); [solve_valid|]. vm_compute. reflexivity. }
  split.
  { apply (h_store _ [nt 1 5 [7]] (nt 3 0 [8; 8]) [Wrote 100] _ H1); [solve_valid| |vm_compute; reflexivity].
    intros m [<-|[]]. unfold before. cbn. lia. }
  split; [|split; [|split]].
  - eapply (replays_next _ (fun _ => true)); [vm_compute; reflexivity|]. eapply (replays_next _ (fun _ => true)); [vm_compute; reflexivity|].
    apply replays_end. vm_compute. reflexivity.
  - eapply (replays_next _ (fun _ => true)); [vm_compute; reflexivity|]. apply replays_end. vm_compute. reflexivity.
  - eapply (replays_next _ (fun _ => true)); [vm_compute; reflexivity|]. apply replays_end. vm_compute. reflexivity.
  - eapply (replays_next _ (fun _ => true)); [vm_compute; reflexivity|]. apply replays_end. vm_compute. reflexivity.
Qed.

(** A large notification. *)
Definition big (s ns : N) : ntf := nt s ns (repeat 32 (N.to_nat (1024 * 1024))).
Lemma big_len s ns : nlen (n_json (big s ns)) = 1024 * 1024.
Proof. unfold big, nt. cbn [n_json]. unfold nlen. rewrite repeat_length, N2Nat.id. reflexivity. Qed.
Lemma big_valid s ns : 0 < s -> s < two64 -> ns < two64 -> valid (big s ns).
Proof. intros H1 H2 H3. split; [exact H1|]. split; [exact H2|]. split; [exact H3|]. rewrite big_len. reflexivity. Qed.
Lemma store_big s ns : 0 < s -> s < two64 -> ns < two64 -> store [Wrote (2 * max_size)] (big s ns) [] = SOk [mkF s s (enc (big s ns))].
Proof.
  intros H1 H2 H3. unfold store. rewrite (writev_iov (big s ns)); [reflexivity|apply big_valid; assumption|]. rewrite big_len. apply N.leb_le. reflexivity.
Qed.
Lemma history_big s ns : 0 < s -> s < two64 -> ns < two64 -> history [mkF s s (enc (big s ns))] [big s ns].
Proof.
  intros H1 H2 H3. apply (store_first [Wrote (2 * max_size)]); [apply big_valid; assumption|apply store_big; assumption].
Qed.
(** The next one goes to another file. *)
Lemma history_split : history [mkF 1 1 (enc (big 1 0)); mkF 2 2 (enc (nt 2 0 [7]))] [big 1 0; nt 2 0 [7]].
Proof.
  apply (h_store _ [big 1 0] (nt 2 0 [7]) [Wrote 100] _ (history_big 1 0 eq_refl eq_refl eq_refl)).
  - solve_valid.
  - intros m [<-|[]]. unfold before. cbn [big nt n_ts sec nsec t]. lia.
  - unfold store. rewrite (writev_iov (nt 2 0 [7])); [|solve_valid|cbn; lia].
    generalize (enc_len (big 1 0)). rewrite big_len. generalize (enc (big 1 0)). intros e He.
    unfold find_file, find_step, open_file, named. cbn [fold_left nf_from nf_to N.ltb N.eqb N.compare Pos.compare Pos.compare_cont Pos.eqb negb andb find nf_data].
    rewrite He. reflexivity.
Qed.

(** More than 1 MiB of notifications in one second: the next one in the same second is never stored. *)
Theorem C23_full_refuted : exists d log, history d log /\ forall o ns j, ns < two64 -> nlen j < two32 -> store o (nt 1 ns j) d = SErr d.
Proof.
  exists [mkF 1 1 (enc (big 1 0))], [big 1 0]. split; [exact (history_big 1 0 eq_refl eq_refl eq_refl)|].
  intros o ns j _ _. unfold store. generalize (enc_len (big 1 0)). rewrite big_len. generalize (enc (big 1 0)). intros e He.
  unfold find_file, find_step, open_file, named. cbn [fold_left nf_from nf_to N.ltb N.eqb N.compare Pos.compare Pos.compare_cont Pos.eqb negb andb find nf_data nt n_ts sec t n_json].
  rewrite He. replace (_ <=? max_size) with false; [reflexivity|]. symmetry. apply N.leb_gt. unfold max_size. lia.
Qed.
(** A start time with 0 seconds (1 ns after the epoch, which is not "no replay"): only the latest file is replayed. *)
Theorem C22_zero_refuted : exists d log, history d log /\
  replays d (fun _ => true) (t 0 1) (t 10 0) None [Replayed (nt 2 0 [7]); Complete (t 10 0)] /\ length log = 2%nat /\
  (forall n, In n log -> within (t 0 1) (t 10 0) n).
Proof.
  exists [mkF 1 1 (enc (big 1 0)); mkF 2 2 (enc (nt 2 0 [7]))], [big 1 0; nt 2 0 [7]].
  split; [exact history_split|]. split; [|split; [reflexivity|]].
  - generalize (enc (big 1 0)). intros e.
    eapply (replays_next _ (fun _ => true)); [vm_compute; reflexivity|]. apply replays_end. vm_compute. reflexivity.
  - intros n [<-|[<-|[]]]; unfold within, before; cbn [big nt n_ts sec nsec t]; lia.
Qed.

(** If the clock of the system is set back, a notification in the interval is not replayed. *)
Theorem C22_clock_refuted : exists o1 o2 n1 n2 d1 d2, valid n1 /\ valid n2 /\ store o1 n1 [] = SOk d1 /\ store o2 n2 d1 = SOk d2 /\
  within (t 1 0) (t 4 0) n2 /\ replays d2 (fun _ => true) (t 1 0) (t 4 0) None [Complete (t 4 0)].
Proof.
  exists [Wrote 100], [Wrote 100], (nt 5 0 [7]), (nt 3 0 [8]).
  eexists. eexists. split; [solve_valid|]. split; [solve_valid|].
  split; [vm_compute; reflexivity|]. split; [vm_compute; reflexivity|]. split.
  - unfold within, before. cbn. lia.
  - apply replays_end. vm_compute. reflexivity.
Qed.

(** Another process stores a notification in the middle of the replay (a replay holds no lock of the files), sent before the
    subscription. The opened file then continues with it, but it is also renamed: notifications of the file are replayed again. *)
Theorem C22_concurrent_refuted : exists n1 n2 d1 d2 st1 st2 st3,
  history d1 [n1] /\ within (t 1 0) (t 9 0) n1 /\ within (t 1 0) (t 9 0) n2 /\
  replay_next d1 (t 1 0) (t 9 0) None = NNotif n1 st1 /\ r_data st1 = [] /\
  store [Wrote 100] n2 d1 = SOk d2 /\ history d2 [n1; n2] /\
  (* the rest of the opened file *)
  replay_next d2 (t 1 0) (t 9 0) (Some (mkRn (r_from st1) (r_to st1) (enc n2))) = NNotif n2 st2 /\
  replay_next d2 (t 1 0) (t 9 0) (Some st2) = NNotif n1 st3.
Proof.
  exists (nt 1 5 [7]), (nt 3 0 [8; 8]), [mkF 1 1 (encs [nt 1 5 [7]])], [mkF 1 3 (encs [nt 1 5 [7]; nt 3 0 [8; 8]])].
  do 3 eexists.
  assert (H1 : history [mkF 1 1 (encs [nt 1 5 [7]])] [nt 1 5 [7]]).
  { apply (store_first [Wrote 100]); [solve_valid|]. vm_compute. reflexivity. }
  split; [exact H1|]. split; [unfold within, before; cbn; lia|]. split; [unfold within, before; cbn; lia|].
  split; [vm_compute; reflexivity|]. split; [reflexivity|]. split; [vm_compute; reflexivity|]. split.
  { apply (h_store _ [nt 1 5 [7]] (nt 3 0 [8; 8]) [Wrote 100] _ H1); [solve_valid| |vm_compute; reflexivity].
    intros m [<-|[]]. unfold before. cbn. lia. }
  split; [vm_compute; reflexivity|]. vm_compute. reflexivity.
Qed.

(** Writing interrupted by a signal, or of a part of the time: a failed assertion or an access out of an array. *)
Theorem C22_interrupted_refuted : forall n, valid n ->
  (forall o, store (WIntr :: o) n [] = SBad) /\ (forall k o, k < 16 -> store (Wrote k :: o) n [] = SBad).
Proof.
  assert (A : forall n k o, valid n -> k < 16 -> exists x, writev (Wrote k :: o) (iov n) = (WBad, x)).
  { intros n k o V Hk. exists (nfirstn k (concat (iov n))). cbn [writev].
    pose proof (enc_len n) as L. unfold enc in L. rewrite N.min_l by lia.
    destruct (skip_written k (iov n)) as [w r] eqn:E.
    destruct (skip_written_spec (iov n) k w r ltac:(discriminate) (N.lt_trans _ 16 two64 Hk eq_refl) (iov_fits n V) E) as [(pre & E1 & Hp & Hl & _)|[-> Hw]].
    - exfalso. destruct pre as [|v pre]; [congruence|]. unfold iov in E1. cbn [app] in E1. apply (f_equal (@hd (list N) [])) in E1. cbn [hd] in E1.
      rewrite <- E1 in Hl. cbn [concat] in Hl. rewrite nlen_app in Hl.
      change (nlen (le64 (sec (n_ts n)) ++ le64 (nsec (n_ts n)))) with 16 in Hl. lia.
    - destruct (w =? 0) eqn:Ew; [apply N.eqb_eq in Ew; congruence|reflexivity]. }
  intros n V. split.
  - intros o. unfold store. cbn [find_file fold_left N.eqb negb andb open_file find].
    destruct (A n 0 o V ltac:(lia)) as (x & E).
    assert (E' : writev (WIntr :: o) (iov n) = writev (Wrote 0 :: o) (iov n)) by reflexivity. rewrite E', E. reflexivity.
  - intros k o Hk. unfold store. cbn [find_file fold_left N.eqb negb andb open_file find].
    destruct (A n k o V Hk) as (x & E). rewrite E. reflexivity.
Qed.

(** The process dies in the middle of storing; what is stored next is then read as a part of the torn notification: none of
    the replayed notifications was ever stored. *)
Theorem C22_died_refuted : exists n1 n2 n3 d1 d2 d3 x, valid n1 /\ valid n2 /\ valid n3 /\
  store [Wrote 20] n1 [] = SDied d1 /\ store [Wrote 1000] n2 d1 = SOk d2 /\ store [Wrote 1000] n3 d2 = SOk d3 /\
  replays d3 (fun _ => true) (t 1 0) (t 9 0) None [Replayed x; Complete (t 9 0)] /\ ~ In x [n1; n2; n3].
Proof.
  exists (nt 1 0 [1; 2; 3; 4; 5; 6; 7; 8]), (nt 2 0 [9]), (nt 3 0 [10]).
  do 4 eexists. split; [solve_valid|]. split; [solve_valid|]. split; [solve_valid|].
  split; [vm_compute; reflexivity|]. split; [vm_compute; reflexivity|]. split; [vm_compute; reflexivity|]. split.
  - eapply (replays_next _ (fun _ => true)); [vm_compute; reflexivity|]. apply replays_end. vm_compute. reflexivity.
  - intros [H|[H|[H|[]]]]; discriminate H.
Qed.

Print Assumptions C22_replayed_partial.
Print Assumptions C22_stored.
Print Assumptions C22_written.
Print Assumptions C23_full_refuted.
Print Assumptions C22_zero_refuted.
Print Assumptions C22_clock_refuted.
Print Assumptions C22_concurrent_refuted.
Print Assumptions C22_interrupted_refuted.
Print Assumptions C22_died_refuted.
