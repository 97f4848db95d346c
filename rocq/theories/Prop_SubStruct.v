(** * C55: exactly the subscriptions that were ended are no longer served

    Subscribing and unsubscribing by any number of threads with one subscription
    structure, in any order and interleaving. *)

From Coq Require Import List Arith Bool Permutation.
Import ListNotations.
From Verif Require Import SubStruct SubStructSpec SubStructProofs.

(** Whatever the threads did before: subscribing adds exactly the subscription
    asked for; a step of unsubscribing removes nothing or one subscription that
    the call is for; the ids are unique and the same in ext SHM; the sessions of
    subscriptions know the structure; and no assert fails.

    Missing for the full property: when several threads unsubscribe at the same
    time, unsubscribing from one subscription may do nothing
    ([C55_race_refuted]); failing subscribing
    ([C55_failed_map_refuted], [C55_failed_first_refuted]). *)
Theorem C55_exact_partial used y : reach used y ->
  NoDup (map e_id (entries (s_st y))) /\
  Permutation (map e_id (entries (s_st y))) (ext (s_st y)) /\
  (forall e, In e (entries (s_st y)) -> linked (s_st y) (e_sess e) = true) /\
  (forall t, s_pc y t <> Failed) /\
  (forall k nm id x,
     Permutation (entries (s_st (exec y (Subscribe k nm id x)))) (Entry k nm id x :: entries (s_st y))) /\
  (forall t,
     let y' := exec y (Step t) in
     entries (s_st y') = entries (s_st y) \/
     exists e, meant (s_pc y t) e /\ Permutation (entries (s_st y)) (e :: entries (s_st y'))).
Proof.
  intros R. apply reach_inv in R. assert (Iv := R). destruct R as (N & Ic & Pe & Lk & Pc).
  split; [exact N|]. split; [exact Pe|]. split; [exact Lk|].
  split; [intros t F; specialize (Pc t); rewrite F in Pc; exact Pc|].
  split; [intros k nm id x; apply subscribe_perm|].
  intros t. cbv zeta. exact (proj2 (step_inv used y t Iv)).
Qed.
Print Assumptions C55_exact_partial.

(** Unsubscribing from one subscription that is not disturbed removes exactly it,
    and fails exactly if there is none; this holds in every reachable state, also
    when other threads are in the middle of unsubscribing. *)
Theorem C55_one used y t id : reach used y ->
  let y1 := exec y (UnsubId t id) in let y2 := exec y1 (Step t) in
  (In id (map e_id (entries (s_st y))) ->
     s_pc y2 t = Done Ok /\
     exists e, e_id e = id /\ Permutation (entries (s_st y)) (e :: entries (s_st y2))) /\
  (~ In id (map e_id (entries (s_st y))) -> s_pc y1 t = Done NotFound /\ s_st y1 = s_st y).
Proof.
  intros R. cbv zeta. split.
  - intros I. apply in_map_iff in I. destruct I as (e & Q & I).
    apply (del_id_sequential y t id). now exists e.
  - intros Na. split; [exact (del_id_absent y t id Na) | reflexivity].
Qed.
Print Assumptions C55_one.

(** When the subscriptions of a session have been ended, none is left and the
    session does not know the structure any more, whatever other threads did in
    the meantime; and a thread that is not disturbed comes to this end. *)
Theorem C55_session used y t x : reach used y -> ending (s_pc y t) x ->
  (forall r, s_pc (exec y (Step t)) t = Done r ->
     r = Ok /\ linked (s_st (exec y (Step t))) x = false /\
     forall e, In e (entries (s_st (exec y (Step t)))) -> e_sess e <> x) /\
  (exists m, s_pc (alone t m y) t = Done Ok).
Proof.
  intros R E. apply reach_inv in R. split.
  - intros r D. exact (scan_done used y t x r R E D).
  - exact (ending_ends used y t x R E).
Qed.
Print Assumptions C55_session.

(** ** What does not hold *)

(** F167: two subscriptions of one module, ids 1 and 2.  A thread ends the second
    one: it is found at the indices (0, 1) and the lock SUBS is released.  Another
    thread ends the first one: the second is moved to its place.  The first thread
    finds nothing at the indices and returns success; the subscription goes on. *)
Theorem C55_race_refuted : ~ (forall used y t id k i j x, reach used y -> s_pc y t = DelAt k i j id x ->
  s_pc (exec y (Step t)) t = Done Ok -> ~ In id (map e_id (entries (s_st (exec y (Step t)))))).
Proof.
  intros H. 
  set (y := exec (exec (exec (exec (exec init (Subscribe Change 7 1 10)) (Subscribe Change 7 2 10))
    (UnsubId 1 2)) (UnsubId 2 1)) (Step 2)).
  assert (R : reach [2; 1] y).
  { unfold y. apply r_step. apply r_id; [|exact Logic.I]. apply r_id; [|exact Logic.I].
    apply r_sub; [|intros [Q | []]; discriminate|intros t []].
    apply r_sub; [apply r_init|intros []|intros t []]. }
  apply (H _ _ 1 2 Change 0 1 10 R); [reflexivity | reflexivity | vm_compute; auto].
Qed.
Print Assumptions C55_race_refuted.

(** F168: subscribing to a further module fails because its SHM cannot be opened.
    The array of modules was reallocated and is freed although the structure
    points to it: all subscriptions of other modules are in freed memory. *)
Theorem C55_failed_map_refuted : ~ (forall used y k nm, reach used y -> add_fails k (tabs (s_st y) k) nm = []).
Proof.
  intros H. assert (R : reach [1] (exec init (Subscribe Change 7 1 10))).
  { apply r_sub; [apply r_init|intros []|intros t []]. }
  specialize (H _ _ Change 8 R). vm_compute in H. discriminate.
Qed.
Print Assumptions C55_failed_map_refuted.

(** F169: a session has a subscription; a further one fails late (its first update
    failed).  The structure is taken from the session although it serves the first
    subscription: stopping the session leaves it with a freed session. *)
Theorem C55_failed_first_refuted : ~ (forall used y k nm id x s, reach used y -> ~ In id used ->
  subscribe_fails (s_st y) k nm id x = Some s ->
  forall e, In e (entries s) -> linked s (e_sess e) = true).
Proof.
  intros H. assert (R : reach [1] (exec init (Subscribe Change 7 1 10))).
  { apply r_sub; [apply r_init|intros []|intros t []]. }
  assert (N2 : ~ In 2 [1]) by (intros [Q | []]; discriminate).
  specialize (H _ _ OperPoll 8 2 10 _ R N2 eq_refl (Entry Change 7 1 10)).
  vm_compute in H. specialize (H (or_introl eq_refl)). discriminate.
Qed.
Print Assumptions C55_failed_first_refuted.

(** F170: the first update of the cache after subscribing is made for the last
    module of the array, which is another one if the module is known already. *)
Theorem C55_first_update_refuted : ~ (forall used y nm id x, reach used y -> ~ In id used ->
  first_update (s_st (exec y (Subscribe OperPoll nm id x))) = Some nm).
Proof.
  intros H. assert (R : reach [2; 1] (exec (exec init (Subscribe OperPoll 7 1 10)) (Subscribe OperPoll 8 2 10))).
  { apply r_sub; [|intros [Q | []]; discriminate|intros t []].
    apply r_sub; [apply r_init|intros []|intros t []]. }
  assert (N3 : ~ In 3 [2; 1]) by (intros [Q | [Q | []]]; discriminate).
  specialize (H _ _ 7 3 10 R N3). vm_compute in H. discriminate.
Qed.
Print Assumptions C55_first_update_refuted.

(** ** Non-vacuity *)

(** Three subscriptions of two sessions; one thread ends those of session 10 while
    another ends subscription 3 of session 11. *)
Example C55_nonvacuous :
  exists y, reach [3; 2; 1] y /\ ending (s_pc y 1) 10 /\
    entries (s_st y) = [Entry Change 8 2 10] /\
    s_pc (exec y (Step 1)) 1 = Scan Change 10 /\ entries (s_st (exec y (Step 1))) = [].
Proof.
  exists (exec (exec (exec (exec (exec (exec (exec (exec (exec (exec (exec (exec init
    (Subscribe Change 7 1 10)) (Subscribe Change 8 2 10)) (Subscribe Notif 7 3 11))
    (UnsubSess 1 10)) (Step 1)) (Step 1)) (UnsubId 2 3)) (Step 1)) (Step 2)) (Step 3)) (UnsubId 2 9)) (Step 2)).
  split.
  - repeat first [apply r_step | (apply r_id; [|exact Logic.I]) | (apply r_sess; [|exact Logic.I])
      | (apply r_sub; [|intros [Q | [Q | []]]; discriminate|intros t []])
      | (apply r_sub; [|intros [Q | []]; discriminate|intros t []])
      | (apply r_sub; [|intros []|intros t []]) | apply r_init].
  - vm_compute. auto.
Qed.
