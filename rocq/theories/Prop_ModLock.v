(** C04, C33: locking of several modules. *)
From Coq Require Import List NArith Bool Arith Lia Permutation Sorting.Sorted.
From Verif Require Import DsLock DsLockSpec ModLock ModLockSpec ModLockProofs.
Import ListNotations.
Local Open Scope nat_scope.

(** * C04: deadlocks *)

(** Any number of clients running operations which lock all of their modules in one round, each
    module in any mode, never deadlock, in any interleaving, also with timeouts. *)
Theorem C04_one_round_partial : forall l s, starts one_phase l -> sys_run sys_init l = Some s -> ~ deadlock s.
Proof. exact no_deadlock_one. Qed.
Print Assumptions C04_one_round_partial.

(** Any number of clients changing data (with the second round of locks for dependencies and the
    upgrades) or reading never deadlock either, if every dependency has its inverse dependency. *)
Theorem C04_changes_and_reads_partial : forall D l s, starts (two_phase D) l -> sys_run sys_init l = Some s -> ~ deadlock s.
Proof. exact no_deadlock_two. Qed.
Print Assumptions C04_changes_and_reads_partial.

Ltac sorted_tac := repeat (apply SSorted_cons || apply SSorted_nil || apply Forall_cons || apply Forall_nil || lia).

Definition chg (a r u : list nat) : list areq := map (Acq LUpgr) a ++ map (Acq LRead) r ++ map Upg u ++ map Down [].

Lemma chg_two : forall D a r u, StronglySorted lt a -> StronglySorted lt r -> StronglySorted lt u -> incl u a ->
  (forall x, In x r -> ~ In x a) -> (a <> [] -> forall y, In y r -> exists x, In x a /\ D x y) ->
  (forall y x, In y u -> D x y -> In x a) -> two_phase D (chg a r u).
Proof. intros. exists a, r, u, []. repeat split; try assumption. intros x []. Qed.

(** Module 1 depends on module 3.  A change of 3 waits for the change of 1 because 1 is its inverse
    dependency; a reader waits too. *)
Definition D13 (x y : nat) : Prop := x = 1 /\ y = 3.
Example C04_nonvacuous :
  let l := [(0, EStart (chg [1] [3] [1])); (1, EStart (chg [1; 3] [] [3])); (2, EStart (chg [] [1; 3] []));
            (0, EDo); (2, EDo); (0, EDo); (0, EUrge)] in
  starts (two_phase D13) l /\ exists s, sys_run sys_init l = Some s /\ active s 1 /\ ~ can_go s 1 /\ ~ can_go s 0 /\ can_go s 2.
Proof.
  cbv zeta. split.
  - assert (T1 : two_phase D13 (chg [1] [3] [1])).
    { apply chg_two; try sorted_tac.
      - intros x [<-|[]]. left. reflexivity.
      - intros x [<-|[]] [X|[]]. discriminate.
      - intros _ y [<-|[]]. exists 1. split; [left; reflexivity|split; reflexivity].
      - intros y x [<-|[]] (_ & X). discriminate. }
    assert (T2 : two_phase D13 (chg [1; 3] [] [3])).
    { apply chg_two; try sorted_tac.
      - intros x [<-|[]]. right. left. reflexivity.
      - intros x [].
      - intros _ y [].
      - intros y x [<-|[]] (-> & _). left. reflexivity. }
    assert (T3 : two_phase D13 (chg [] [1; 3] [])).
    { apply chg_two; try sorted_tac.
      - intros x [].
      - intros x _ [].
      - intros X. contradiction X; reflexivity.
      - intros y x []. }
    unfold starts. repeat (apply Forall_cons; [cbn [snd]; (exact T1 || exact T2 || exact T3 || exact Logic.I)|]). apply Forall_nil.
  - eexists. split; [reflexivity|]. split; [left; discriminate|]. cbn. repeat split; discriminate.
Qed.

(** In general the property does not hold.  First: an apply of changes of module 2, whose
    validation depends on module 1, and sr_lock() (or sr_copy_config(), ...) of both of them. *)
Theorem C04_second_round_refuted :
  exists l s, starts (fun p => one_phase p \/ exists D, two_phase D p) l /\ sys_run sys_init l = Some s /\ deadlock s.
Proof.
  exists [(0, EStart (chg [2] [1] [2])); (1, EStart [Acq LWrite 1; Acq LWrite 2]); (0, EDo); (1, EDo)]. eexists. split; [|split; [reflexivity|]].
  - unfold starts. apply Forall_cons; [|apply Forall_cons; [|apply Forall_cons; [exact Logic.I|apply Forall_cons; [exact Logic.I|apply Forall_nil]]]]; cbn [snd].
    + right. exists (fun x y => x = 2 /\ y = 1). apply chg_two; try sorted_tac.
      * intros x [<-|[]]. left. reflexivity.
      * intros x [<-|[]] [X|[]]. discriminate.
      * intros _ y [<-|[]]. exists 2. split; [left; reflexivity|split; reflexivity].
      * intros y x [<-|[]] (_ & X). discriminate.
    + left. exists [(LWrite, 1); (LWrite, 2)], []. split; [reflexivity|]. split; [cbn [map snd]; sorted_tac|]. intros x [].
  - split; [exists 0; left; discriminate|]. intros [|[|c]] A; [cbn; discriminate|cbn; discriminate|].
    destruct A as [A|A]; contradiction A; reflexivity.
Qed.

(** Second: even with every module locked in order and no dependencies: two applies of changes, a
    reader and an sr_lock(). *)
Theorem C04_mixed_refuted :
  exists l s, starts (fun p => one_phase p \/ two_phase (fun _ _ => False) p) l /\ sys_run sys_init l = Some s /\ deadlock s.
Proof.
  exists [(0, EStart (chg [1; 4] [] [1; 4])); (1, EStart [Acq LRead 1; Acq LRead 2]); (2, EStart [Acq LWrite 2; Acq LWrite 3]); (3, EStart (chg [3; 4] [] [3; 4]));
          (0, EDo); (0, EDo); (3, EDo); (2, EDo); (1, EDo); (0, EUrge); (2, EUrge)]. eexists. split; [|split; [reflexivity|]].
  - assert (T : forall a, StronglySorted lt a -> two_phase (fun _ _ => False) (chg a [] a)).
    { intros a S. apply chg_two; try assumption; try sorted_tac; try (intros x []); try (intros; contradiction). intros x X; exact X. }
    unfold starts. repeat (apply Forall_cons; [cbn [snd]; try exact Logic.I|]); [| | | |apply Forall_nil].
    + right. apply T. sorted_tac.
    + left. exists [(LRead, 1); (LRead, 2)], []. split; [reflexivity|]. split; [cbn [map snd]; sorted_tac|]. intros x [].
    + left. exists [(LWrite, 2); (LWrite, 3)], []. split; [reflexivity|]. split; [cbn [map snd]; sorted_tac|]. intros x [].
    + right. apply T. sorted_tac.
  - split; [exists 0; left; discriminate|]. intros [|[|[|[|c]]]] A; try (cbn; discriminate).
    destruct A as [A|A]; contradiction A; reflexivity.
Qed.

(** Third: dependencies without inverse ones (instance-identifiers, whose target modules are only
    known from the data): two applies of changes. *)
Theorem C04_no_inverse_refuted :
  exists l s, starts (fun p => exists D, two_phase D p) l /\ sys_run sys_init l = Some s /\ deadlock s.
Proof.
  exists [(0, EStart (chg [1] [3] [1])); (1, EStart (chg [3] [1] [3])); (0, EDo); (1, EDo); (0, EDo); (1, EDo)]. eexists. split; [|split; [reflexivity|]].
  - assert (T : forall x y, x <> y -> exists D, two_phase D (chg [x] [y] [x])).
    { intros x y N. exists (fun p q => p = x /\ q = y). apply chg_two; try sorted_tac.
      - intros z [<-|[]]. left. reflexivity.
      - intros z [<-|[]] [X|[]]. contradiction.
      - intros _ z [<-|[]]. exists x. split; [left; reflexivity|split; reflexivity].
      - intros z w [<-|[]] (_ & X). contradiction. }
    unfold starts. repeat (apply Forall_cons; [cbn [snd]; try exact Logic.I|]); [| |apply Forall_nil]; apply T; discriminate.
  - split; [exists 0; left; discriminate|]. intros [|[|c]] A; [cbn; discriminate|cbn; discriminate|].
    destruct A as [A|A]; contradiction A; reflexivity.
Qed.

(** * C33: failures *)

(** Whatever an operation did with its modules (locks, upgrades, downgrades, adding of modules), with
    any failures, its cleanup releases every lock it holds, each in the right mode. *)
Theorem C33_all_released : forall l ok ms, Forall mop_ok l -> mops_run l [] = (ok, ms) ->
  exists ms', modinfo_unlock ms = Some ms' /\ Forall unlocked ms' /\ length ms' = length ms.
Proof. exact all_released. Qed.
Print Assumptions C33_all_released.

(** A module lock that fails, in any way and after any number of retries, leaves the module as it
    was before. *)
Theorem C33_failed_lock_same : forall relock md h ts h', (relock = false -> h = None) ->
  (relock = true -> h = Some (match md with LWrite => LUpgr | _ => LWrite end)) ->
  Forall (fun t => t_back t = true) ts -> shmmod_lock relock md h ts = (false, h') -> h' = h.
Proof. exact failed_lock_same. Qed.
Print Assumptions C33_failed_lock_same.

(** And a successful lock has locked all the modules, in the mode asked for. *)
Theorem C33_success_locks_all : forall md ms ts ms', Forall cons_ok ms -> modinfo_lock false md ms ts = (true, ms') ->
  Forall (fun m => m_h m <> None) ms' /\ (Forall (fun m => m_h m = None) ms -> Forall (fun m => m_h m = Some md) ms').
Proof. exact lock_success. Qed.
Print Assumptions C33_success_locks_all.

Definition good := mkturn true true false true.
Definition dslocked := mkturn true true true true.
Definition timeout := mkturn false true false true.
Example C33_nonvacuous :
  exists ms, mops_run [MAdd true; MAdd true; MAdd false; MLock LUpgr false [[good]; [dslocked; good]; [good]] [];
                       MAdd false; MSort (@rev mmod); MLock LRead true [[good]] [[good]; [good]; [good]; [good]];
                       MUpgrade [[good]; [good]; [dslocked; good]; [dslocked; dslocked; timeout]]] [] = (false, ms) /\
  map m_h ms = [Some LRead; Some LUpgr; Some LWrite; Some LUpgr] /\
  option_map (map m_h) (modinfo_unlock ms) = Some [None; None; None; None].
Proof. eexists. repeat split. Qed.

(** If the relock back after a datastore lock is found fails, the module stays locked for writing
    although it is recorded as upgradable: the cleanup unlocks it wrongly. *)
Theorem C33_relock_back_refuted :
  exists l ms, mops_run l [] = (false, ms) /\ modinfo_unlock ms = None.
Proof. exists [MAdd true; MLock LUpgr false [[good]] []; MUpgrade [[mkturn true true true false]]]. eexists. split; reflexivity. Qed.
