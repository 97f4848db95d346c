(** C05, C06: datastore locks. *)
From Coq Require Import List NArith Bool.
From Verif Require Import DsLock DsLockSpec DsLockProofs.
Import ListNotations.
Open Scope N_scope.

(** * C05: exclusivity *)

(** In any execution of any number of sessions: after a session took the datastore lock of a
    module, and until it gives it back, ends or its process dies, no other session takes that lock,
    stores data of the module, or even gets a module lock with which it could. *)
Theorem C05_exclusive : forall ss c m before during c' a s, sess_ok ss -> se_sid (ss c) <> 0 ->
  run ss init (before ++ (c, DsSet m) :: during ++ [(c', a)]) = Some s ->
  Forall (fun x => ~ ends ss c m x) during -> c' <> c ->
  a <> DsSet m /\ a <> Store m /\ a <> Lock m LWrite /\ a <> Lock m LUpgr /\ a <> Upgrade m.
Proof. exact exclusive. Qed.
Print Assumptions C05_exclusive.

(** In the meantime the session is told to be the owner. *)
Theorem C05_owner_kept : forall ss c m before during s, sess_ok ss -> se_sid (ss c) <> 0 ->
  run ss init (before ++ (c, DsSet m) :: during) = Some s ->
  Forall (fun x => ~ ends ss c m x) during -> owner (ds s m) = se_sid (ss c).
Proof. exact keeps. Qed.
Print Assumptions C05_owner_kept.

(** The lock of a dead owner is available. *)
Theorem C05_dead_owner : forall ss s c m, dead s (se_cid (ss c)) = false -> held s m = [] ->
  dl_sid (ds s m) <> 0 -> dl_sid (ds s m) <> se_sid (ss c) -> dead s (dl_cid (ds s m)) = true ->
  exists s1 s2, step ss s c (Lock m LWrite) = Some s1 /\ step ss s1 c (DsSet m) = Some s2 /\ owner (ds s2 m) = se_sid (ss c).
Proof. exact dead_owner. Qed.
Print Assumptions C05_dead_owner.

(** sr_get_lock() reports a session exactly if it is the owner of all the modules asked for. *)
Theorem C05_get_lock : forall l r, get_lock l = Some r ->
  match r with
  | Some (sid, ts) => sid <> 0 /\ Forall (fun d => owner d = sid) l
  | None => forall sid, sid <> 0 -> ~ Forall (fun d => owner d = sid) l
  end.
Proof. exact get_lock_spec. Qed.
Print Assumptions C05_get_lock.

Definition two (c : nat) : sess := mksess (N.of_nat c + 1) (N.of_nat c + 10).
Lemma two_ok : sess_ok two.
Proof. intros c c' Hc _ H. unfold two in H. cbn [se_sid] in H. apply Hc. apply (f_equal N.to_nat) in H. rewrite !Nnat.N2Nat.inj_add, !Nnat.Nat2N.id in H. now apply PeanoNat.Nat.add_cancel_r in H. Qed.

Example C05_nonvacuous :
  (exists s, run two init ([(0%nat, Lock 3 LWrite)] ++ (0%nat, DsSet 3) ::
     [(0%nat, Release 3 LWrite); (1%nat, Lock 3 LRead); (0%nat, Lock 3 LUpgr); (1%nat, Release 3 LRead); (0%nat, Upgrade 3); (0%nat, Store 3); (0%nat, Release 3 LWrite)] ++
     [(1%nat, Lock 3 LRead)]) = Some s /\ dat s 3%nat = [0%nat]) /\
  run two init [(0%nat, Lock 3 LWrite); (0%nat, DsSet 3); (0%nat, Release 3 LWrite); (1%nat, Lock 3 LWrite)] = None.
Proof. split; [eexists; split; reflexivity|reflexivity]. Qed.

(** * C06: all or nothing *)

(** A failed sr_lock() over any modules, failing at any of them, changes no visible lock (provided the
    mutexes of the reversed modules are obtained). *)
Theorem C06_lock_all_or_nothing : forall cand cid sid now l rm l', Forall (fun b => b = true) rm ->
  change_dslock cand true cid sid now l rm = (false, l') -> map visible l' = map visible (map fst l).
Proof. exact lock_all_or_nothing_visible. Qed.
Print Assumptions C06_lock_all_or_nothing.

(** The same for sr_unlock() as far as the session IDs go (the connection is lost, see below). *)
Theorem C06_unlock_sid_restored_partial : forall cand cid sid now l rm l', Forall (fun b => b = true) rm ->
  Forall (fun x => dl_sid (fst x) = 0 \/ dl_sid (fst x) = sid) l ->
  change_dslock cand false cid sid now l rm = (false, l') -> map owner l' = map owner (map fst l).
Proof. exact unlock_owner_restored. Qed.
Print Assumptions C06_unlock_sid_restored_partial.

(** If the call succeeds, all of the modules are owned by the session, or unlocked. *)
Theorem C06_success_all : forall cand lock cid sid now l rm l',
  change_dslock cand lock cid sid now l rm = (true, l') ->
  length l' = length l /\ Forall (fun d => d = if lock then mkdsl cid sid now else mkdsl 0 0 0) l'.
Proof. exact success_all. Qed.
Print Assumptions C06_success_all.

Example C06_nonvacuous :
  change_dslock false true 10 1 77 [(mkdsl 0 0 0, mkout true None); (mkdsl 10 1 5, mkout true None)] [] =
    (false, [mkdsl 10 0 0; mkdsl 10 1 5]) /\
  change_dslock false true 10 1 77 [(mkdsl 0 0 0, mkout true None); (mkdsl 0 0 0, mkout true None)] [] =
    (true, [mkdsl 10 1 77; mkdsl 10 1 77]).
Proof. split; reflexivity. Qed.

(** A failed sr_unlock() over several modules does not restore the owner connection (src/sysrepo.c
    4881-4884): the lock has the session but connection 0, which is never alive ... *)
Theorem C06_unlock_connection_refuted :
  exists l l', change_dslock false false 10 1 77 l [] = (false, l') /\
    Forall (fun x => dl_sid (fst x) = 0 \/ dl_sid (fst x) = 1) l /\
    map dl_cid (map fst l) = [10; 0] /\ map owner (map fst l) = [1; 0] /\ map dl_cid l' = [0; 0].
Proof.
  exists [(mkdsl 10 1 5, mkout true None); (mkdsl 0 0 0, mkout true None)]. eexists. split; [reflexivity|].
  split; [|repeat split]. apply Forall_cons; [right; reflexivity|apply Forall_cons; [left; reflexivity|apply Forall_nil]].
Qed.

(** ... so another session then takes over the lock although the owner still lives and its
    sr_unlock() returned an error: exclusivity is lost. *)
Theorem C05_after_failed_unlock_refuted :
  exists s, run two init [(0%nat, Lock 0 LWrite); (0%nat, DsSet 0); (0%nat, Release 0 LWrite); (* sr_lock *)
                        (0%nat, Lock 0 LWrite); (0%nat, DsClear 0); (0%nat, DsReset 0); (0%nat, Release 0 LWrite); (* failed sr_unlock *)
                        (1%nat, Lock 0 LWrite); (1%nat, DsSet 0)] = Some s /\ owner (ds s 0%nat) = se_sid (two 1).
Proof. eexists. split; reflexivity. Qed.

(** The time of the lock is not restored either. *)
Theorem C06_unlock_time_refuted :
  exists l l', change_dslock false false 10 1 77 l [] = (false, l') /\ map dl_ts (map fst l) = [5; 0] /\ map dl_ts l' = [77; 0].
Proof. exists [(mkdsl 10 1 5, mkout true None); (mkdsl 0 0 0, mkout true None)]. eexists. repeat split. Qed.

(** A failed reset of the candidate datastore makes sr_unlock() return an error after everything
    was unlocked. *)
Theorem C06_candidate_reset_refuted :
  exists l l', un_lock true false 10 1 77 l [] false = (false, l') /\ map owner (map fst l) = [1] /\ map owner l' = [0].
Proof. exists [(mkdsl 10 1 5, mkout true None)]. eexists. repeat split. Qed.

(** If a mutex is not obtained while reversing, the module stays locked after the failed call. *)
Theorem C06_reverse_mutex_refuted :
  exists l l', change_dslock false true 10 1 77 l [false] = (false, l') /\ map owner (map fst l) = [0; 1] /\ map owner l' = [1; 1].
Proof. exists [(mkdsl 0 0 0, mkout true None); (mkdsl 10 1 5, mkout true None)]. eexists. repeat split. Qed.
