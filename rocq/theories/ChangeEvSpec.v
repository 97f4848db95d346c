(** Specification of processing of change events. *)
From Coq Require Import List Bool Arith NArith.
From Verif Require Import ChangeEv.
Import ListNotations.

(** At the beginning nothing was published and no subscription has processed anything. *)
Definition initial (st : state) : Prop :=
  f_ev (h_inf (st_shm st)) = EvNone /\ st_pub st = [] /\ st_log st = [] /\
  (forall p q, nth_error (st_procs st) p = Some q -> p_pc q = Idle /\ Forall (fun s => s_ev s = EvNone) (p_subs q)).

Inductive reach (filt : info -> nat -> nat -> bool) (lf : bool) (st0 : state) : state -> Prop :=
| R_init : reach filt lf st0 st0
| R_step : forall st st', reach filt lf st0 st -> step filt lf st st' -> reach filt lf st0 st'.

(** Subscription [i] of process [p] (a living one). *)
Definition the_sub (st : state) (p i : nat) (s : csub) : Prop :=
  exists q, nth_error (st_procs st) p = Some q /\ alive q = true /\ nth_error (p_subs q) i = Some s.

(** No subscription is just being suspended or resumed. *)
Definition suspend_settled (st : state) : Prop :=
  forall p q i s, nth_error (st_procs st) p = Some q -> nth_error (p_subs q) i = Some s -> s_esusp s = s_susp s.

(** An event with an answer ("update" and "change"), of the others the result of the callback is ignored. *)
Definition answered (e : ev) : Prop := e = EvUpdate \/ e = EvChange.

(** The callback was called for the event and the subscription is done with it. *)
Definition final (e : ev) (r : result) : Prop := ~ (answered e /\ r = RShelve).
