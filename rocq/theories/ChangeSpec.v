(** Specification of notifying subscribers of a change. *)
From Coq Require Import List Bool Arith NArith.
From Verif Require Import Change.
Import ListNotations.
Local Open Scope N_scope.

(** Subscribers that are to be notified about an event. *)
Definition addressed (alive : asub -> bool) (k : kind) (m : amod) (s : asub) : Prop :=
  In s (m_subs m) /\ alive s = true /\ a_susp s = false /\ a_filt s = false /\ (k = KDone \/ a_done_only s = false).

(** Modules and subscriptions have unique IDs; no priority is UINT32_MAX; numbers of subscriptions
    fit their uint32_t counter in SHM. *)
Definition wf_mods (mods : list amod) : Prop :=
  NoDup (map m_id mods) /\
  (forall m, In m mods -> NoDup (map a_id (m_subs m)) /\ m_prio m <= u32_max /\ (forall s, In s (m_subs m) -> a_prio s < u32_max) /\ N.of_nat (length (m_subs m)) <= u32_max).

(** The callback is done with the event. *)
Definition is_final (k : kind) (c : call) : bool := match k, c_res c with KChange, RShelve => false | _, _ => true end.

(** What the listeners guarantee about processing of the events of one round: only subscribers of
    these modules with the priorities of the events are called, everyone is done with an event once
    (C14_only_own_events, C14_at_most_once). *)
Definition valid_round (alive : asub -> bool) (k : kind) (rd : round) : Prop :=
  (forall c, In c (r_calls rd) -> exists p s, In p (r_pend rd) /\ c_mod c = m_id (p_mod p) /\ c_sub c = a_id s /\ addressed alive k (p_mod p) s /\ a_prio s = p_prio p) /\
  NoDup (map (fun c => (c_mod c, c_sub c)) (filter (is_final k) (r_calls rd))).

(** All the subscribers the events of the round are for were called (nothing timed out). *)
Definition all_called (alive : asub -> bool) (k : kind) (rd : round) : Prop :=
  forall p s, In p (r_pend rd) -> addressed alive k (p_mod p) s -> a_prio s = p_prio p -> exists r, In (mkcall (m_id (p_mod p)) (a_id s) r) (r_calls rd).

(** Calls of callbacks in order. *)
Definition calls (rs : list round) : list call := flat_map r_calls rs.

(** Call [c] is of subscription [s] of module [m]. *)
Definition call_of (mods : list amod) (c : call) (m : amod) (s : asub) : Prop :=
  In m mods /\ In s (m_subs m) /\ c_mod c = m_id m /\ c_sub c = a_id s.

(** What the listeners guarantee about abort events, see is_new_event in ChangeEv: only those that
    accepted the change are called, each once; the event is finished once as many of them as the
    originator wrote into it were called and otherwise waits for all of them. [acc]: the calls in
    the change. *)
Definition valid_abort_round (alive : asub -> bool) (acc : list call) (rd : round) : Prop :=
  (forall c, In c (r_calls rd) -> exists p s, In p (r_pend rd) /\ c_mod c = m_id (p_mod p) /\ c_sub c = a_id s /\ addressed alive KAbort (p_mod p) s /\ a_prio s = p_prio p /\
      accepted acc (c_mod c) (c_sub c) = true) /\
  NoDup (map (fun c => (c_mod c, c_sub c)) (r_calls rd)) /\
  (forall p, In p (r_pend rd) ->
     N.of_nat (length (filter (fun c => Nat.eqb (c_mod c) (m_id (p_mod p))) (r_calls rd))) = p_cnt p \/
     forall s, addressed alive KAbort (p_mod p) s -> a_prio s = p_prio p -> accepted acc (m_id (p_mod p)) (a_id s) = true ->
       exists r, In (mkcall (m_id (p_mod p)) (a_id s) r) (r_calls rd)).
