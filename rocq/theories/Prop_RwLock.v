(** C01, C02, C03: the read-write lock of src/common.c. *)
From Coq Require Import List NArith Lia Bool Arith.
From Verif Require Import RwLock RwLockSpec RwLockUpgr RwLockMain.
Import ListNotations.
Open Scope N_scope.

(** * C01: mutual exclusion *)

(** Any number of threads and connections, any interleaving of lock, wake-up, timeout, upgrade,
    downgrade, unlock and crash (also inside of a lock function), any use of the lock modes:
    while a thread holds the write lock, no thread holds any other lock. *)
Theorem C01_write_excludes_all : forall p s t t' h,
  reach p s -> holds s t HWrite -> holds s t' h -> t' = t /\ h = HWrite.
Proof. exact write_excludes. Qed.
Print Assumptions C01_write_excludes_all.

(** ... and it holds it exactly once. *)
Theorem C01_write_not_recursive : forall p s t x,
  reach p s -> nth_error (thr s) t = Some x -> In HWrite (held x) -> held x = [HWrite].
Proof. exact write_once. Qed.
Print Assumptions C01_write_not_recursive.

(** A reader never finds the mutex taken by a writer, so its unlock does not fail. *)
Theorem C01_reader_gets_mutex : forall p s t, reach p s -> reads_lock s t -> mfree (mtx s) = true.
Proof. exact reader_gets_mutex. Qed.
Print Assumptions C01_reader_gets_mutex.

(** There is at most one upgradable reader.  For locks on which WRITE_URGE is not used directly,
    or on which nobody upgrades to WRITE_URGE nor downgrades READ_UPGR to READ; and without more
    than 255 read locks of one connection. *)
Theorem C01_one_upgradable : forall p s t x t', good_policy p -> reach p s -> overflow s = false ->
  nth_error (thr s) t = Some x -> In HUpgr (held x) -> holds s t' HUpgr ->
  t' = t /\ ~ In HUpgr (drop1 HUpgr (held x)).
Proof. exact one_upgradable. Qed.
Print Assumptions C01_one_upgradable.

(** Under the same conditions no assert() of the lock fails and the downgrade of an upgradable
    reader never takes the branch for writers. *)
Theorem C01_asserts_hold : forall p s, good_policy p -> reach p s -> overflow s = false ->
  bad (rw s) = false /\ ub s = false.
Proof. exact asserts_hold. Qed.
Print Assumptions C01_asserts_hold.

Definition pol_all := {| p_urge_lock := true; p_urge_relock := true; p_upgr_down := true; p_mid_crash := true |}.
Definition pol_plain := {| p_urge_lock := false; p_urge_relock := true; p_upgr_down := true; p_mid_crash := false |}.

Lemma pol_plain_good : good_policy pol_plain.
Proof. split; [reflexivity|left; reflexivity]. Qed.

Definition three : list N := [7; 8; 8].
Lemma three_ok : Forall (fun c => c <> 0) three.
Proof. repeat constructor; discriminate. Qed.

(** A run with two readers, a waiting writer, and the writer getting the lock. *)
Definition run1 : list label :=
  [L_lock 0 MRead; L_lock 1 MUpgr; L_lock 2 MWrite; L_unlock_read 0 false; L_wake 2 false;
   L_upgrade 1 true; L_wake 2 true; L_unlock_write 1; L_lock 2 MWrite].
Example C01_nonvacuous :
  match run pol_plain (firstn 6 run1) (start three), run pol_plain run1 (start three) with
  | Some s, _ => mtx s = MOwn 1 /\ map held (thr s) = [[]; [HWrite]; []] /\ overflow s = false
  | None, _ => False
  end.
Proof. vm_compute. repeat split. Qed.
Example C01_nonvacuous_reach : exists s, reach pol_plain s /\ holds s 1 HWrite /\ overflow s = false.
Proof.
  destruct (run pol_plain (firstn 6 run1) (start three)) as [s|] eqn:E; [|vm_compute in E; discriminate].
  exists s. split; [eapply run_reach; [exact three_ok|exact E]|].
  vm_compute in E. inversion E. split; [|reflexivity]. eexists. split; [reflexivity|]. left. reflexivity.
Qed.

(** If WRITE_URGE is used both directly and for upgrades (the data lock of a module), two
    threads may hold READ_UPGR at once: the upgrade gives up its mark while it waits for a
    direct urged writer, src/common.c 2694-2696, 2716-2727. *)
Theorem C01_one_upgradable_refuted : exists s, reach pol_all s /\ overflow s = false /\
  holds s 0 HUpgr /\ holds s 2 HUpgr.
Proof.
  pose (ls := [L_lock 0 MUpgr; L_lock 1 MUrge; L_upgrade 0 true; L_wake 1 true; L_lock 2 MUpgr; L_wake 0 true]).
  destruct (run pol_all ls (start [1; 2; 3])) as [s|] eqn:E; [|vm_compute in E; discriminate].
  exists s. split; [eapply run_reach; [|exact E]; repeat constructor; discriminate|].
  vm_compute in E. inversion E. repeat split; eexists; (split; [reflexivity|left; reflexivity]).
Qed.
Print Assumptions C01_one_upgradable_refuted.

(** With a direct urged writer waiting, the READ_UPGR to READ downgrade of another thread
    runs the code for the downgrade of a write lock, src/common.c 2753. *)
Theorem C01_downgrade_refuted : exists s, reach pol_all s /\ overflow s = false /\ ub s = true /\
  ~ holds s 0 HWrite.
Proof.
  pose (ls := [L_lock 0 MUpgr; L_lock 1 MUrge]).
  destruct (run pol_all ls (start [1; 2])) as [s|] eqn:E; [|vm_compute in E; discriminate].
  exists (mksys (rw s) (mtx s) (thr s) (dead s) (overflow s) true).
  pose proof (run_reach pol_all ls [1; 2] s) as R.
  assert (F : Forall (fun c => c <> 0) [1; 2]) by (repeat constructor; discriminate).
  specialize (R F E). split.
  - eapply R_step; [exact R|]. vm_compute in E. inversion E. subst s.
    eapply S_down_upgr_ub with (t := 0%nat); cbn; try reflexivity; [left; reflexivity|discriminate].
  - vm_compute in E. inversion E. repeat split. intros (x & Hx & Hi). inversion Hx. subst x.
    destruct Hi as [K|[]]. discriminate.
Qed.
Print Assumptions C01_downgrade_refuted.

(** A crash after [upgr] was stored and before the reader was added, together with a waiter
    that takes the mutex over without a recovery (src/sr_cond/sr_cond_futex.c 98-117): the
    assert in src/common.c 2507 fails although nobody did anything wrong. *)
Definition pol_mid := {| p_urge_lock := false; p_urge_relock := false; p_upgr_down := false; p_mid_crash := true |}.
Theorem C01_asserts_refuted : exists s, reach pol_mid s /\ overflow s = false /\ bad (rw s) = true.
Proof.
  destruct (run pol_mid [L_lock 0 MRead; L_lock 1 MWrite] (start [1; 2; 3])) as [s|] eqn:E;
    [|vm_compute in E; discriminate].
  pose (s1 := mksys (set_upgr 3 (rw s)) MDead (map (kill_thread 3) (thr s)) (3 :: dead s) (overflow s) (ub s)).
  assert (R1 : reach pol_mid s1).
  { eapply R_step; [eapply run_reach; [|exact E]; repeat constructor; discriminate|].
    vm_compute in E. inversion E. subst s s1.
    eapply (S_crash_mid pol_mid _ 2 (mkthr 3 [] Idle)); try reflexivity; [left; reflexivity|].
    eapply ps_cons; [|apply ps_nil]. apply p_upgr_set. reflexivity. }
  destruct (run pol_mid [L_wake 1 false; L_unlock_read 0 false; L_wake 1 false] s1) as [s2|] eqn:E2.
  - exists s2. split; [eapply run_reach_from; eassumption|].
    vm_compute in E. inversion E. subst s. vm_compute in E2. inversion E2. split; reflexivity.
  - exfalso. vm_compute in E. inversion E. subst s. vm_compute in E2. discriminate.
Qed.
Print Assumptions C01_asserts_refuted.

(** * C02: recovery after crashes *)

(** A lock call only starts to wait because of a living thread (that urges, has the write
    lock, has READ_UPGR if that is asked for, has a read lock if a write lock is asked for),
    or because of 16 living connections reading.  [od]: the mutex had a dead owner. *)
Theorem C02_blocked_only_by_living : forall p s od m c r' u',
  reach p s -> overflow s = false ->
  lock_start (aliveb s) od m c (rw s) = Wait r' u' ->
  (exists t, in_the_way s m t) \/ ((m = MRead \/ m = MUpgr) /\ full_of_living s).
Proof. exact blocked_only_by_living. Qed.
Print Assumptions C02_blocked_only_by_living.

(** A waiting lock call only times out because of that. *)
Theorem C02_timeout_only_by_living : forall p s m c u r',
  reach p s -> overflow s = false ->
  lock_wake (aliveb s) true m c u (rw s) = Fail r' false ->
  (exists t, in_the_way s m t) \/ ((m = MRead \/ m = MUpgr) /\ full_of_living s).
Proof. exact timeout_only_by_living. Qed.
Print Assumptions C02_timeout_only_by_living.

(** Whatever the crashed connections left: if no living thread has or urges for the lock,
    every kind of lock is granted immediately. *)
Theorem C02_granted_alone : forall p s od m c, reach p s -> overflow s = false -> c <> 0 -> aliveb s c = true ->
  (forall t x, nth_error (thr s) t = Some x -> aliveb s (tcid x) = true ->
     held x = [] /\ RwLockProofs.urged_pc (pc x) = false) ->
  exists r', lock_start (aliveb s) od m c (rw s) = Done r'.
Proof. exact granted_alone. Qed.
Print Assumptions C02_granted_alone.

(** The same for the upgrade by the only living holder. *)
Theorem C02_upgrade_granted : forall p s od urge t x, reach p s -> overflow s = false ->
  nth_error (thr s) t = Some x -> aliveb s (tcid x) = true -> pc x = Idle -> held x = [HUpgr] ->
  mfree (mtx s) = true ->
  (forall t' x', nth_error (thr s) t' = Some x' -> t' <> t -> aliveb s (tcid x') = true ->
     held x' = [] /\ RwLockProofs.urged_pc (pc x') = false) ->
  exists r', upgrade_start (aliveb s) od urge (tcid x) (rw s) = Done r'.
Proof. exact upgrade_granted. Qed.
Print Assumptions C02_upgrade_granted.

(** A state with a dead reader, a dead upgradable reader and a dead urging writer. *)
Definition run2 : list label :=
  [L_lock 0 MRead; L_lock 0 MRead; L_lock 1 MUpgr; L_lock 2 MUrge; L_crash 1; L_crash 2; L_crash 3].
Example C02_nonvacuous :
  match run pol_all run2 (start [1; 2; 3; 4]) with
  | Some s => upgr (rw s) = 2 /\ writer (rw s) = 3 /\ firstn 3 (readers (rw s)) = [1; 2; 0] /\
              firstn 3 (rcount (rw s)) = [2; 1; 0] /\ aliveb s 4 = true /\
              match lock_start (aliveb s) false MWrite 4 (rw s) with
              | Done r => writer r = 4 /\ upgr r = 0 /\ get (readers r) 0 = 0
              | _ => False
              end
  | None => False
  end.
Proof. vm_compute. repeat split. Qed.

(** The updates of the reader table are not crash-safe themselves: a connection dying
    inside of sr_rwlock_reader_del_() after "temporarily" removing the last reader, a living
    one, makes it disappear; a writer then gets the lock while that reader holds it. *)
Theorem C02_crash_in_table_refuted : exists s,
  reach pol_plain s /\ overflow s = false /\ holds s 0 HRead /\ thread_of s 0 1 /\
  (* thread 0 (connection 1) releases its read lock and dies at that point *)
  let r := reader_del_upto 3 (rw s) (find_slot (readers (rw s)) 1) in
  let s1 := mksys r MDead (map (kill_thread 1) (thr s)) (1 :: dead s) (overflow s) (ub s) in
  (* connection 2 still reads, connection 3 gets the write lock *)
  aliveb s1 2 = true /\ thread_of s1 1 2 /\ holds s1 1 HRead /\
  exists r1, lock_start (aliveb s1) true MWrite 3 (rw s1) = Done r1.
Proof.
  destruct (run pol_plain [L_lock 0 MRead; L_lock 1 MRead] (start [1; 2; 3])) as [s|] eqn:E;
    [|vm_compute in E; discriminate].
  exists s. split; [eapply run_reach; [|exact E]; repeat constructor; discriminate|].
  vm_compute in E. inversion E. subst s. split; [reflexivity|].
  split; [eexists; split; [reflexivity|left; reflexivity]|].
  split; [eexists; split; [reflexivity|reflexivity]|]. cbn zeta.
  split; [reflexivity|].
  split; [eexists; split; [reflexivity|reflexivity]|].
  split; [eexists; split; [reflexivity|left; reflexivity]|].
  match goal with |- exists r1, ?g = Done r1 => destruct g as [r1| |] eqn:K end;
    [exists r1; reflexivity| |]; vm_compute in K; discriminate.
Qed.
Print Assumptions C02_crash_in_table_refuted.

(** Without a crash these stores are what sr_rwlock_reader_del_() does. *)
Theorem C02_table_stores : forall rw i, (get (rcount rw) i + 255) mod 256 = 0 ->
  match run_len (skipn (i + 1) (readers rw)) with
  | O => reader_del_upto 3 rw i
  | S _ => reader_del_upto 7 rw i
  end = set_table (readers (reader_del_ rw i)) (rcount (reader_del_ rw i)) rw.
Proof.
  intros rw i H. unfold reader_del_, reader_del_upto. cbn [assert_ set_table readers rcount upgr writer bad].
  rewrite H. cbn [N.eqb negb]. destruct (run_len (skipn (i + 1) (readers rw))) as [|m]; [reflexivity|].
  cbn [readers rcount]. replace (i + S m - 1)%nat with (i + m)%nat by lia. reflexivity.
Qed.

(** * C03: nothing is left behind *)

(** A living connection whose threads hold and wait for nothing is not in the lock. *)
Theorem C03_no_trace : forall p s c, reach p s -> overflow s = false -> c <> 0 -> conn_clean s c -> no_trace s c.
Proof. exact clean_no_trace. Qed.
Print Assumptions C03_no_trace.

(** Without crashes, once everybody released everything the structure is the initial one. *)
Theorem C03_all_released_initial : forall p s, reach p s -> overflow s = false -> dead s = [] ->
  (forall t x, nth_error (thr s) t = Some x -> held x = [] /\ pc x = Idle) ->
  readers (rw s) = readers rw_init /\ rcount (rw s) = rcount rw_init /\
  upgr (rw s) = 0 /\ writer (rw s) = 0 /\ mfree (mtx s) = true.
Proof. exact all_clean_initial. Qed.
Print Assumptions C03_all_released_initial.

Definition run3 : list label :=
  [L_lock 0 MRead; L_lock 1 MUpgr; L_lock 2 MWrite; L_unlock_read 0 false; L_wake 2 true; L_upgrade 1 false;
   L_down_write 1 true; L_unlock_read 1 true].
Example C03_nonvacuous :
  match run pol_plain run3 (start three) with
  | Some s => overflow s = false /\ dead s = [] /\ map held (thr s) = [[]; []; []] /\ map pc (thr s) = [Idle; Idle; Idle]
  | None => False
  end.
Proof. vm_compute. repeat split. Qed.

(** After 255 read locks of one connection an attempt to get READ_UPGR fails but leaves its
    mark, src/common.c 2430-2434: the mark stays when everything is released. *)
Theorem C03_no_trace_overflow_refuted : exists s, reach pol_plain s /\ conn_clean s 1 /\ upgr (rw s) = 1.
Proof.
  pose (ls := repeat (L_lock 0 MRead) 255 ++ [L_lock 0 MUpgr] ++ repeat (L_unlock_read 0 false) 255).
  destruct (run pol_plain ls (start [1])) as [s|] eqn:E; [|vm_compute in E; discriminate].
  exists s. split; [eapply run_reach; [|exact E]; repeat constructor; discriminate|].
  vm_compute in E. inversion E. subst s. split; [|reflexivity]. split; [reflexivity|].
  intros [|[|t]] x Hx; cbn in Hx; try discriminate. intros _. inversion Hx. split; reflexivity.
Qed.
Print Assumptions C03_no_trace_overflow_refuted.
