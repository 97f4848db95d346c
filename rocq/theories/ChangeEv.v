(** Processing of events of change subscriptions of one module and datastore: the shared event
    record (sr_sub_shm_t), its originator and the listening processes. *)
From Coq Require Import List Bool Arith NArith.
Import ListNotations.

(** sr_sub_event_t, src/common_types.h and src/shm_types.h (those used for change subscriptions). *)
Inductive ev := EvNone | EvUpdate | EvChange | EvDone | EvAbort | EvSuccess | EvError | EvFinished.
Definition ev_eqb (a b : ev) : bool :=
  match a, b with
  | EvNone, EvNone | EvUpdate, EvUpdate | EvChange, EvChange | EvDone, EvDone | EvAbort, EvAbort
  | EvSuccess, EvSuccess | EvError, EvError | EvFinished, EvFinished => true
  | _, _ => false
  end.
(** SR_IS_LISTEN_EVENT, src/shm_types.h 38-41. *)
Definition is_listen (e : ev) : bool := match e with EvUpdate | EvChange | EvDone | EvAbort => true | _ => false end.

(** Result of a callback: SR_ERR_OK, SR_ERR_CALLBACK_SHELVE, any other error. *)
Inductive result := ROk | RShelve | RErr.

(** What an event is identified by for its listeners (struct info_sub_s, src/shm_sub.c 3336-3340).
    Request IDs are natural numbers here, the code uses uint32_t. *)
Record info := mkinfo { f_ev : ev; f_rid : nat; f_prio : N }.
Definition info_eqb (a b : info) : bool := ev_eqb (f_ev a) (f_ev b) && Nat.eqb (f_rid a) (f_rid b) && N.eqb (f_prio a) (f_prio b).

(** sr_sub_shm_t: event, request_id, priority and subscriber_count (src/shm_types.h). *)
Record shm := mkshm { h_inf : info; h_cnt : nat }.

(** One subscription: its options and the last processed request ID and event (struct
    modsub_changesub_s, src/subscr.h); [s_esusp] is its suspended flag in ext SHM, read by
    originators, [s_susp] the one in the subscription structure, read by the listener. *)
Record csub := mkcsub { s_prio : N; s_update : bool; s_done_only : bool; s_forig : bool; s_esusp : bool; s_susp : bool;
                        s_rid : nat; s_ev : ev }.
Definition set_last (r : nat) (e : ev) (s : csub) : csub :=
  mkcsub (s_prio s) (s_update s) (s_done_only s) (s_forig s) (s_esusp s) (s_susp s) r e.

(** sr_shmsub_change_listen_event_is_valid(), src/shm_sub.c 863-890. *)
Definition event_is_valid (e : ev) (s : csub) : bool :=
  match e with
  | EvUpdate => s_update s
  | EvChange | EvAbort => negb (s_done_only s)
  | EvDone => true
  | _ => false
  end.

(** sr_shmsub_change_listen_is_new_event(), src/shm_sub.c 3144-3181. *)
Definition is_new_event (h : shm) (s : csub) : bool :=
  is_listen (f_ev (h_inf h)) &&
  negb (Nat.eqb (f_rid (h_inf h)) (s_rid s) && ev_eqb (f_ev (h_inf h)) (s_ev s)) &&
  negb (ev_eqb (f_ev (h_inf h)) EvAbort && (negb (ev_eqb (s_ev s) EvChange) || negb (Nat.eqb (s_rid s) (f_rid (h_inf h))))) &&
  N.eqb (f_prio (h_inf h)) (s_prio s) &&
  event_is_valid (f_ev (h_inf h)) s &&
  negb (s_susp s).

(** sr_shmsub_listen_write_event(), src/shm_sub.c 3183-3242 (the data are not modelled). *)
Definition listen_write_event (h : shm) (valid : nat) (err : bool) : shm :=
  let e := if Nat.eqb (h_cnt h) valid || err
           then match f_ev (h_inf h) with
                | EvUpdate | EvChange => if err then EvError else EvSuccess
                | EvDone | EvAbort => EvFinished
                | e => e
                end
           else f_ev (h_inf h) in
  mkshm (mkinfo e (f_rid (h_inf h)) (f_prio (h_inf h))) (h_cnt h - valid).

(** Where a listening process is in sr_shmsub_change_listen_process_module_events(), src/shm_sub.c
    3412-3619: idle; before the callback of subscription [i] (3500); after it, before locking again
    (3515); after the loop, before the WRITE lock (3592), where [i] is the subscription [change_sub]
    points to.  [valid] is valid_subscr_count, [ret] the variable of that name (it is not reset
    between subscriptions), [fv] is filter_valid.  [Dead]: the process crashed. *)
Inductive pc :=
| Idle
| Call (i valid : nat) (ret : result) (inf : info)
| Called (i valid : nat) (ret : result) (fv : bool) (inf : info)
| Fin (i valid : nat) (ret : result) (fv err : bool) (inf : info)
| Dead.
Record proc := mkproc { p_subs : list csub; p_pc : pc }.

(** First subscription, at or after index [i], with a new event (the loops at 3431, 3449 and 3494). *)
Fixpoint find_new (h : shm) (l : list csub) (i : nat) : option nat :=
  match l, i with
  | [], _ => None
  | s :: r, O => if is_new_event h s then Some O else option_map S (find_new h r O)
  | _ :: r, S i' => option_map S (find_new h r i')
  end.
Fixpoint upd (i : nat) (f : csub -> csub) (l : list csub) : list csub :=
  match l, i with
  | [], _ => []
  | s :: r, O => f s :: r
  | s :: r, S i' => s :: upd i' f r
  end.

(** Next subscription of the loop, src/shm_sub.c 3494-3498. When it ends, [change_sub] points to the
    last subscription of the array. *)
Definition next_sub (h : shm) (subs : list csub) (i valid : nat) (ret : result) (fv : bool) (inf : info) : pc :=
  match find_new h subs (S i) with
  | Some j => Call j valid ret inf
  | None => Fin (length subs - 1) valid ret fv false inf
  end.

(** After the callback, with READ lock and the expected event in SHM, src/shm_sub.c 3522-3553. *)
Definition after_cb (h : shm) (subs : list csub) (i valid : nat) (ret : result) (fv : bool) (inf : info) : proc :=
  match nth_error subs i with
  | None => mkproc subs Idle
  | Some s =>
      if negb fv && s_forig s then mkproc subs (next_sub h subs i valid ret fv inf)
      else
        let upd_chg := match f_ev inf with EvUpdate | EvChange => true | _ => false end in
        match upd_chg, ret with
        | true, RShelve => mkproc subs (next_sub h subs i valid ret fv inf)
        | true, RErr =>
            mkproc (if ev_eqb (f_ev inf) EvChange then upd i (set_last (f_rid inf) EvAbort) subs else subs)
                   (Fin i valid ret fv true inf)
        | _, _ =>
            let subs' := upd i (set_last (f_rid (h_inf h)) (f_ev (h_inf h))) subs in
            mkproc subs' (next_sub h subs' i (S valid) ret fv inf)
        end
  end.

(** Whether an abort event is generated by the listener itself if the event in SHM was changed
    meanwhile, in sr_shmsub_change_listen_relock(), src/shm_sub.c 3384-3386. *)
Definition self_abort (subs : list csub) (i : nat) (ret : result) (fv : bool) (inf : info) : bool :=
  match nth_error subs i, ret with
  | Some s, ROk => ev_eqb (f_ev inf) EvChange && fv && event_is_valid EvAbort s
  | _, _ => false
  end.

(** What was observed: calls of callbacks of subscription [i] of process [p], self-generated aborts
    and the originator learning that an event was successfully processed. *)
Inductive obs :=
| OCall (p i : nat) (e : ev) (rid : nat) (r : result)
| OSelf (p i : nat) (rid : nat)
| OOk (inf : info).

(** [st_pub]: events published so far, the last one first; [st_log]: what was observed, last first.
    Both are only for stating properties. *)
Record state := mkst { st_shm : shm; st_procs : list proc; st_pub : list info; st_log : list obs }.

Section Step.
(** Whether there is a change for a subscription in the diff of an event after applying its XPath
    filter, sr_shmsub_change_filter_is_valid(), src/shm_sub.c 899-936; both the originator and the
    listener call it. *)
Variable filt : info -> nat -> nat -> bool.
(** Whether locking may fail (after a timeout). *)
Variable lock_fail : bool.

(** Subscriptions the originator counts and writes into event pipes of, src/shm_sub.c 1033-1068 and
    1145-1178. *)
Definition addressed (inf : info) (p i : nat) (s : csub) : bool :=
  event_is_valid (f_ev inf) s && N.eqb (s_prio s) (f_prio inf) && negb (s_esusp s) && negb (s_forig s && negb (filt inf p i)).

Fixpoint count_subs (f : nat -> csub -> bool) (i : nat) (l : list csub) : nat :=
  match l with [] => 0 | s :: r => (if f i s then 1 else 0) + count_subs f (S i) r end.
Definition alive (q : proc) : bool := match p_pc q with Dead => false | _ => true end.
Fixpoint count_addr (inf : info) (p : nat) (l : list proc) : nat :=
  match l with
  | [] => 0
  | q :: r => (if alive q then count_subs (addressed inf p) 0 (p_subs q) else 0) + count_addr inf (S p) r
  end.

Definition set_proc (p : nat) (q : proc) (l : list proc) : list proc := firstn p l ++ q :: skipn (S p) l.

(** Steps of the originator (the first five) and of listeners.  All accesses of SHM are protected by
    its lock, so the code between locking and unlocking is one step. *)
Inductive step (st : state) : state -> Prop :=
| S_publish : forall inf n,
    (* sr_shmsub_notify_new_wrlock() and sr_shmsub_notify_write_event(), src/shm_sub.c 342-436, 795-856:
       request IDs are new for every change and one event of a change is written once for each
       priority; in abort the counter is not the number of subscribers, src/shm_sub.c 2058-2065 *)
    f_ev (h_inf (st_shm st)) = EvNone -> is_listen (f_ev inf) = true -> ~ In inf (st_pub st) ->
    (f_ev inf <> EvAbort -> n = count_addr inf 0 (st_procs st)) ->
    step st (mkst (mkshm inf n) (st_procs st) (inf :: st_pub st) (st_log st))
| S_ok : forall inf pub,
    (* success in _sr_shmsub_notify_wait_wr(), src/shm_sub.c 563-573, 620-626 *)
    (f_ev (h_inf (st_shm st)) = EvSuccess \/ f_ev (h_inf (st_shm st)) = EvFinished) -> st_pub st = inf :: pub ->
    step st (mkst (mkshm (mkinfo EvNone (f_rid (h_inf (st_shm st))) (f_prio (h_inf (st_shm st)))) (h_cnt (st_shm st))) (st_procs st) (st_pub st) (OOk inf :: st_log st))
| S_timeout :
    (* nobody is waiting any more, src/shm_sub.c 505-552 *)
    is_listen (f_ev (h_inf (st_shm st))) = true ->
    step st (mkst (mkshm (mkinfo EvError (f_rid (h_inf (st_shm st))) (f_prio (h_inf (st_shm st)))) (h_cnt (st_shm st))) (st_procs st) (st_pub st) (st_log st))
| S_clear :
    (* clearing of an event: error noticed (2012-2023), timeout of "done" (539-541), no subscribers
       (1673-1676), dead originator (307-331) *)
    step st (mkst (mkshm (mkinfo EvNone (f_rid (h_inf (st_shm st))) (f_prio (h_inf (st_shm st)))) (h_cnt (st_shm st))) (st_procs st) (st_pub st) (st_log st))
| S_die : forall p q,
    nth_error (st_procs st) p = Some q ->
    step st (mkst (st_shm st) (set_proc p (mkproc (p_subs q) Dead) (st_procs st)) (st_pub st) (st_log st))
| S_start : forall p q i,
    nth_error (st_procs st) p = Some q -> p_pc q = Idle -> find_new (st_shm st) (p_subs q) 0 = Some i ->
    step st (mkst (st_shm st) (set_proc p (mkproc (p_subs q) (Call i 0 ROk (h_inf (st_shm st)))) (st_procs st)) (st_pub st) (st_log st))
| S_call : forall p q i valid ret inf r,
    (* src/shm_sub.c 3505-3509 *)
    nth_error (st_procs st) p = Some q -> p_pc q = Call i valid ret inf -> filt inf p i = true ->
    step st (mkst (st_shm st) (set_proc p (mkproc (p_subs q) (Called i valid r true inf)) (st_procs st)) (st_pub st)
                  (OCall p i (f_ev inf) (f_rid inf) r :: st_log st))
| S_filtered : forall p q i valid ret inf,
    nth_error (st_procs st) p = Some q -> p_pc q = Call i valid ret inf -> filt inf p i = false ->
    step st (mkst (st_shm st) (set_proc p (mkproc (p_subs q) (Called i valid ret false inf)) (st_procs st)) (st_pub st) (st_log st))
| S_relock : forall p q i valid ret fv inf,
    nth_error (st_procs st) p = Some q -> p_pc q = Called i valid ret fv inf -> info_eqb inf (h_inf (st_shm st)) = true ->
    step st (mkst (st_shm st) (set_proc p (after_cb (st_shm st) (p_subs q) i valid ret fv inf) (st_procs st)) (st_pub st) (st_log st))
| S_changed : forall p q i valid ret fv inf,
    nth_error (st_procs st) p = Some q -> p_pc q = Called i valid ret fv inf -> info_eqb inf (h_inf (st_shm st)) = false ->
    step st (mkst (st_shm st) (set_proc p (mkproc (p_subs q) Idle) (st_procs st)) (st_pub st)
                  (if self_abort (p_subs q) i ret fv inf then OSelf p i (f_rid inf) :: st_log st else st_log st))
| S_write : forall p q i valid ret fv err inf,
    nth_error (st_procs st) p = Some q -> p_pc q = Fin i valid ret fv err inf -> info_eqb inf (h_inf (st_shm st)) = true ->
    step st (mkst (listen_write_event (st_shm st) valid err) (set_proc p (mkproc (p_subs q) Idle) (st_procs st)) (st_pub st) (st_log st))
| S_write_changed : forall p q i valid ret fv err inf,
    nth_error (st_procs st) p = Some q -> p_pc q = Fin i valid ret fv err inf -> info_eqb inf (h_inf (st_shm st)) = false ->
    step st (mkst (st_shm st) (set_proc p (mkproc (p_subs q) Idle) (st_procs st)) (st_pub st)
                  (if self_abort (p_subs q) i ret fv inf then OSelf p i (f_rid inf) :: st_log st else st_log st))
| S_fail : forall p q,
    (* locking failed, src/shm_sub.c 3369-3373 *)
    lock_fail = true -> nth_error (st_procs st) p = Some q -> alive q = true ->
    step st (mkst (st_shm st) (set_proc p (mkproc (p_subs q) Idle) (st_procs st)) (st_pub st) (st_log st)).
End Step.
