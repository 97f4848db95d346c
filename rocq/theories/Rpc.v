(** RPCs and actions: any number of clients calling one RPC, the shared event record of that RPC and
    the listening subscription contexts, src/shm_sub.c and src/sysrepo.c.

    Request IDs are natural numbers here (uint32_t in the code).  The accesses of the event record
    are protected by its lock, so the code between locking and unlocking is one step; death of a
    process inside such a section is not modelled, only between them.  The internal subscription of
    the factory-reset RPC (src/shm_sub.c 2724-2734, 2762-2770) is not modelled. *)
From Coq Require Import List Bool Arith NArith.
Import ListNotations.
Local Open Scope N_scope.

Definition u32 (x : N) : N := x mod 4294967296.

(** sr_sub_event_t, those used for RPCs. *)
Inductive ev := EvNone | EvRpc | EvAbort | EvSuccess | EvError | EvFinished.
Definition ev_eqb (a b : ev) : bool :=
  match a, b with
  | EvNone, EvNone | EvRpc, EvRpc | EvAbort, EvAbort | EvSuccess, EvSuccess | EvError, EvError | EvFinished, EvFinished => true
  | _, _ => false
  end.
(** SR_IS_LISTEN_EVENT, src/shm_types.h 38-41. *)
Definition is_listen (e : ev) : bool := match e with EvRpc | EvAbort => true | _ => false end.

(** Result of a callback: SR_ERR_OK, SR_ERR_CALLBACK_SHELVE, any other error. *)
Inductive result := ROk | RShelve | RErr.

(** What an event is identified by for its listeners (struct info_sub_s). *)
Record info := mkinfo { f_ev : ev; f_rid : nat; f_prio : N }.
Definition info_eqb (a b : info) : bool := ev_eqb (f_ev a) (f_ev b) && Nat.eqb (f_rid a) (f_rid b) && N.eqb (f_prio a) (f_prio b).

(** sr_sub_shm_t: event, request_id, priority; subscriber_count; orig_cid (the client, [None] for 0);
    and the data SHM: the input written by the originator, the output written by a listener. *)
Record shm := mkshm { h_inf : info; h_cnt : N; h_orig : option nat; h_in : nat; h_out : nat }.

(** A subscription: the subscription context it belongs to, its priority (sr_mod_rpc_sub_t). *)
Record def := mkdef { d_proc : nat; d_prio : N }.
(** Its changing part: suspended flag in ext SHM (read by originators) and in struct opsub_rpcsub_s
    (read by the listener), last processed request ID and event (struct opsub_rpcsub_s, src/subscr.h). *)
Record dyn := mkdyn { y_esusp : bool; y_susp : bool; y_rid : nat; y_ev : ev }.

(** A listener in sr_shmsub_rpc_listen_process_rpc_events(), src/shm_sub.c 4380-4600: idle; before
    the callback of subscription [k]; after it, before locking again (4523); after the loop, before
    the WRITE lock (4583), where [k] is the subscription [rpc_sub] points to.  [valid] is
    valid_subscr_count, [ret] the result of the last callback and [out] its output. *)
Inductive pc :=
| Idle
| Call (k : nat) (valid : N) (inf : info) (inp : nat)
| Called (k : nat) (valid : N) (ret : result) (out : nat) (inf : info) (inp : nat)
| Fin (k : nat) (valid : N) (ret : result) (err : bool) (out : nat) (inf : info)
| Dead.

(** A client in _sr_rpc_send_tree(), src/sysrepo.c 6731-6847: not calling the RPC; in
    sr_shmsub_rpc_notify() before looking for the first subscribers (src/shm_sub.c 2713), before
    locking (2747), waiting for an event (2789); in sr_shmsub_rpc_notify_abort() before locking
    (2872), waiting for an abort event (2943); the process died; it crashed (failed assert or access
    of NULL). *)
Inductive opc :=
| OIdle
| OFirst (inp : nat) (cur : N)
| ONew (inp : nat) (prio cnt : N)
| OWait (inp rid : nat) (prio : N)
| OAbort (inp rid : nat)
| OAWait (inp rid : nat) (prio eprio ecnt : N)
| ODead
| OCrash.

(** What was observed, for stating properties. *)
Inductive obs :=
| OPub (inf : info) (inp : nat)                 (* an event was written *)
| OCall (k : nat) (e : ev) (rid : nat) (r : result) (out : nat)  (* callback of [k] called *)
| OSelf (k : nat) (rid : nat)                   (* callback of [k] called with a self-generated abort *)
| OOk (o rid : nat) (prio : N)                  (* the client learned that the event was processed with success *)
| OReply (o rid : nat) (out : nat)              (* the client got the output *)
| ONobody (o : nat)                             (* "There are no matching subscribers" *)
| ORefused (o rid : nat) (prio : N)             (* a subscriber refused *)
| OTimeout (o rid : nat) (prio : N)             (* a subscriber did not answer in time *)
| OAborted (o rid : nat) (prio : N)             (* aborts were sent, the client got the error of the subscriber of priority [prio] *)
| OATimeout (rid : nat) (prio : N)              (* an abort was not processed in time *)
| OFailed (o rid : nat)                         (* another error *)
| ONull (o : nat)                               (* no error and no output *)
| OAssert (o rid : nat).                        (* assert failed *)

Record state := mkst { st_shm : shm; st_ors : list opc; st_pcs : nat -> pc; st_dyn : nat -> dyn; st_log : list obs }.

(** The subscriptions of the RPC ([k]-th of the table in ext SHM); XPath filters on the input, see
    sr_shmsub_rpc_listen_filter_is_valid(), src/shm_sub.c 2528-2546.  What may happen: locking by
    listeners fails after a timeout; subscriptions are suspended and resumed; a client starts the RPC
    just before another one, whose call was refused, sends aborts. *)
Record config := mkcfg { subs : list def; filt : nat -> nat -> bool; lock_fail : bool; suspends : bool; concurrent : bool }.

Definition upd {A} (f : nat -> A) (k : nat) (v : A) : nat -> A := fun j => if Nat.eqb j k then v else f j.
Definition set_or (o : nat) (c : opc) (l : list opc) : list opc := firstn o l ++ c :: skipn (S o) l.

Section Model.
Variable cfg : config.

Definition nsubs : nat := length (subs cfg).
Definition proc_of (k : nat) : nat := d_proc (nth k (subs cfg) (mkdef O 0)).
Definition prio_of (k : nat) : N := d_prio (nth k (subs cfg) (mkdef O 0)).

(** sr_conn_is_alive() of the connection of the subscription. *)
Definition alive (st : state) (k : nat) : bool := match st_pcs st (proc_of k) with Dead => false | _ => true end.

(** sr_shmsub_rpc_notify_has_subscription(), src/shm_sub.c 2557-2600. *)
Definition has_subscription (st : state) (inp : nat) : bool * N :=
  fold_left (fun (acc : bool * N) k =>
    if negb (alive st k) then acc
    else if y_esusp (st_dyn st k) then acc
    else if filt cfg inp k then (true, if snd acc <? prio_of k then prio_of k else snd acc)
    else acc) (seq 0 nsubs) (false, 0).

(** sr_shmsub_rpc_notify_next_subscription(), src/shm_sub.c 2616-2688: the priority ([next] is its
    value before) and the number of subscribers. *)
Definition next_subscription (st : state) (inp : nat) (last next : N) : N * N :=
  fold_left (fun (acc : N * N) k =>
    if negb (alive st k) then acc
    else if y_esusp (st_dyn st k) then acc
    else if filt cfg inp k && (prio_of k <? last) then
      if negb (snd acc =? 0) then
        if fst acc <? prio_of k then (prio_of k, 1)
        else if prio_of k =? fst acc then (fst acc, snd acc + 1)
        else acc
      else (prio_of k, 1)
    else acc) (seq 0 nsubs) (next, 0).

(** sr_shmsub_notify_write_event(), src/shm_sub.c 795-856. *)
Definition write_event (o : nat) (e : ev) (rid : nat) (prio cnt : N) (inp : nat) (h : shm) : shm :=
  mkshm (mkinfo e rid prio) cnt (Some o) inp (h_out h).
Definition set_event (e : ev) (h : shm) : shm :=
  mkshm (mkinfo e (f_rid (h_inf h)) (f_prio (h_inf h))) (h_cnt h) None (h_in h) (h_out h).

Definition or_alive (st : state) (o : nat) : bool :=
  match nth_error (st_ors st) o with Some ODead | Some OCrash | None => false | Some _ => true end.

(** sr_shmsub_recover(), src/shm_sub.c 307-331. *)
Definition recover (st : state) (h : shm) : shm :=
  match h_orig h with
  | Some o => if or_alive st o then h else set_event EvNone h
  | None => if ev_eqb (f_ev (h_inf h)) EvNone then h else set_event EvNone h
  end.

(** sr_shmsub_notify_new_wrlock(), src/shm_sub.c 342-436: the event record once locked, [None] while
    waiting.  [ok] is lock_event. *)
Definition new_wrlock (st : state) (ok : ev) : option shm :=
  let h := st_shm st in
  let h1 := if negb (ev_eqb (f_ev (h_inf h)) EvNone) && negb (ev_eqb (f_ev (h_inf h)) ok) then recover st h else h in
  if ev_eqb (f_ev (h_inf h1)) EvNone || ev_eqb (f_ev (h_inf h1)) ok
  then Some (mkshm (h_inf h1) (h_cnt h1) None (h_in h1) (h_out h1)) else None.

(** A client whose call with request ID [rid] failed is just about to send aborts. *)
Definition aborting (st : state) (rid : nat) : bool :=
  existsb (fun c => match c with OAbort _ r => Nat.eqb r rid | _ => false end) (st_ors st).

Definition set_o (o : nat) (c : opc) (h : shm) (l : list obs) (st : state) : state :=
  mkst h (set_or o c (st_ors st)) (st_pcs st) (st_dyn st) (l ++ st_log st).
Definition set_p (p : nat) (c : pc) (h : shm) (l : list obs) (st : state) : state :=
  mkst h (st_ors st) (upd (st_pcs st) p c) (st_dyn st) (l ++ st_log st).

(** The loop of sr_shmsub_rpc_notify_abort(), src/shm_sub.c 2911-2933: the next abort event, if any,
    after those of priority [cur]. *)
Definition abort_next (st : state) (o inp rid : nat) (cur eprio ecnt : N) (h : shm) (l : list obs) : state :=
  let n := next_subscription st inp cur cur in
  let cnt := if negb (snd n =? 0) && (eprio =? fst n) then u32 (snd n + 4294967296 - ecnt) else snd n in
  if cnt =? 0 then set_o o OIdle (set_event EvNone h) (OAborted o rid eprio :: l) st
  else set_o o (OAWait inp rid (fst n) eprio ecnt) (write_event o EvAbort rid (fst n) cnt inp h) (OPub (mkinfo EvAbort rid (fst n)) inp :: l) st.

(** sr_shmsub_rpc_listen_is_new_event(), src/shm_sub.c 4292-4328, and the filter. *)
Definition is_new_event (st : state) (inp k : nat) : bool :=
  let f := h_inf (st_shm st) in
  let y := st_dyn st k in
  is_listen (f_ev f) &&
  negb (Nat.eqb (f_rid f) (y_rid y) && ev_eqb (f_ev f) (y_ev y)) &&
  negb (ev_eqb (f_ev f) EvAbort && (negb (ev_eqb (y_ev y) EvRpc) || negb (Nat.eqb (y_rid y) (f_rid f)))) &&
  N.eqb (f_prio f) (prio_of k) &&
  negb (y_susp y) &&
  filt cfg inp k.

(** First subscription of context [p], at or after [i], with a new event (loops at 4398, 4502). *)
Definition find_new (st : state) (p inp i : nat) : option nat :=
  find (fun k => Nat.eqb (proc_of k) p && is_new_event st inp k) (seq i (nsubs - i)).
(** The last subscription of context [p]. *)
Definition last_sub (p : nat) : nat := last (filter (fun k => Nat.eqb (proc_of k) p) (seq 0 nsubs)) O.

(** sr_shmsub_listen_write_event(), src/shm_sub.c 3183-3242. *)
Definition listen_write_event (h : shm) (valid : N) (err : bool) (out : nat) : shm :=
  let e := if (h_cnt h =? valid) || err
           then match f_ev (h_inf h) with
                | EvRpc => if err then EvError else EvSuccess
                | EvAbort => EvFinished
                | e => e
                end
           else f_ev (h_inf h) in
  mkshm (mkinfo e (f_rid (h_inf h)) (f_prio (h_inf h))) (h_cnt h - valid) (h_orig h) (h_in h) out.

(** sr_shmsub_rpc_listen_relock() when the event is not the expected one, src/shm_sub.c 4357-4376: an
    abort is generated if the last callback succeeded, whatever the event was. *)
Definition self_abort (k : nat) (ret : result) (inf : info) : list obs :=
  match ret with ROk => [OSelf k (f_rid inf)] | _ => [] end.

(** After the callback with the expected event, src/shm_sub.c 4528-4561. *)
Definition after_cb (p k : nat) (valid : N) (ret : result) (out : nat) (inf : info) (inp : nat) (st : state) : state :=
  let y := st_dyn st k in
  match f_ev inf, ret with
  | EvRpc, RShelve => set_p p Idle (st_shm st) [] st
  | EvRpc, RErr =>
      let st1 := mkst (st_shm st) (st_ors st) (st_pcs st) (upd (st_dyn st) k (mkdyn (y_esusp y) (y_susp y) (f_rid (h_inf (st_shm st))) EvAbort)) (st_log st) in
      set_p p (Fin k valid ret true out inf) (st_shm st) [] st1
  | _, _ =>
      let st1 := mkst (st_shm st) (st_ors st) (st_pcs st) (upd (st_dyn st) k (mkdyn (y_esusp y) (y_susp y) (f_rid (h_inf (st_shm st))) (f_ev (h_inf (st_shm st))))) (st_log st) in
      match find_new st1 p inp (S k) with
      | Some j => set_p p (Call j (valid + 1) inf inp) (st_shm st) [] st1
      | None => set_p p (Fin (last_sub p) (valid + 1) ret false out inf) (st_shm st) [] st1
      end
  end.

Inductive label :=
| LStart (o inp : nat) | LFirst (o : nat) | LNew (o : nat) | LOk (o : nat) | LErr (o : nat) | LTimeout (o : nat)
| LAbort (o : nat) | LAOk (o : nat) | LATimeout (o : nat) | LFail (o : nat) | LDieO (o : nat)
| LBegin (p : nat) | LCall (p : nat) (r : result) (out : nat) | LLock (p : nat) | LLockFail (p : nat) | LDieP (p : nat)
| LSusp (k : nat) (e s : bool).

Definition exec (l : label) (st : state) : option state :=
  let h := st_shm st in
  match l with
  | LStart o inp =>
      (* src/shm_sub.c 2705-2709 *)
      match nth_error (st_ors st) o with
      | Some OIdle =>
          let b := has_subscription st inp in
          if fst b then Some (set_o o (OFirst inp (snd b)) h [] st) else Some (set_o o OIdle h [ONobody o] st)
      | _ => None
      end
  | LFirst o =>
      (* src/shm_sub.c 2713-2721; without an output _sr_rpc_send_tree() passes NULL on to
         sr_modinfo_op_validate(), src/sysrepo.c 6807-6824 and src/modinfo.c 3288-3291 *)
      match nth_error (st_ors st) o with
      | Some (OFirst inp cur) =>
          let n := next_subscription st inp (u32 (cur + 1)) cur in
          if snd n =? 0 then Some (set_o o OCrash h [ONull o] st) else Some (set_o o (ONew inp (fst n) (snd n)) h [] st)
      | _ => None
      end
  | LNew o =>
      (* src/shm_sub.c 2747-2779 *)
      match nth_error (st_ors st) o, new_wrlock st EvNone with
      | Some (ONew inp prio cnt), Some h1 =>
          if negb (concurrent cfg) && ev_eqb (f_ev (h_inf h)) EvError && aborting st (f_rid (h_inf h)) then None
          else
            let rid := S (f_rid (h_inf h1)) in
            Some (set_o o (OWait inp rid prio) (write_event o EvRpc rid prio cnt inp h1) [OPub (mkinfo EvRpc rid prio) inp] st)
      | _, _ => None
      end
  | LOk o =>
      (* src/shm_sub.c 2808-2829 and again 2773-2786 *)
      match nth_error (st_ors st) o with
      | Some (OWait inp rid prio) =>
          if ev_eqb (f_ev (h_inf h)) EvSuccess then
            let n := next_subscription st inp prio prio in
            if snd n =? 0 then Some (set_o o OIdle (set_event EvNone h) [OReply o rid (h_out h); OOk o rid prio] st)
            else Some (set_o o (OWait inp rid (fst n)) (write_event o EvRpc rid (fst n) (snd n) inp h) [OPub (mkinfo EvRpc rid (fst n)) inp; OOk o rid prio] st)
          else None
      | _ => None
      end
  | LErr o =>
      (* src/shm_sub.c 574-612, 2798-2802, 2832-2839 *)
      match nth_error (st_ors st) o with
      | Some (OWait inp rid prio) =>
          if ev_eqb (f_ev (h_inf h)) EvError then Some (set_o o (OAbort inp rid) (set_event EvError h) [ORefused o rid prio] st) else None
      | _ => None
      end
  | LTimeout o =>
      (* src/shm_sub.c 505-552 *)
      match nth_error (st_ors st) o with
      | Some (OWait inp rid prio) =>
          if ev_eqb (f_ev (h_inf h)) EvRpc then Some (set_o o (OAbort inp rid) (set_event EvError h) [OTimeout o rid prio] st) else None
      | _ => None
      end
  | LAbort o =>
      (* src/shm_sub.c 2871-2910 *)
      match nth_error (st_ors st) o, new_wrlock st EvError with
      | Some (OAbort inp rid), Some h1 =>
          if negb (ev_eqb (f_ev (h_inf h1)) EvError) then Some (set_o o OCrash h1 [OAssert o rid] st)
          else
            let b := has_subscription st inp in
            if fst b then Some (abort_next st o inp rid (u32 (snd b + 1)) (f_prio (h_inf h1)) (h_cnt h1) h1 [])
            else Some (set_o o OIdle (set_event EvNone h1) [OAborted o rid (f_prio (h_inf h1))] st)
      | _, _ => None
      end
  | LAOk o =>
      (* src/shm_sub.c 613-623, 2943-2961 *)
      match nth_error (st_ors st) o with
      | Some (OAWait inp rid prio eprio ecnt) =>
          if ev_eqb (f_ev (h_inf h)) EvFinished then
            if eprio =? prio then Some (set_o o OIdle (set_event EvNone h) [OAborted o rid eprio] st)
            else Some (abort_next st o inp rid prio eprio ecnt h [])
          else None
      | _ => None
      end
  | LATimeout o =>
      (* src/shm_sub.c 505-541, 2952-2961 *)
      match nth_error (st_ors st) o with
      | Some (OAWait inp rid prio eprio ecnt) =>
          if ev_eqb (f_ev (h_inf h)) EvAbort then
            if eprio =? prio then Some (set_o o OIdle (set_event EvNone h) [OAborted o rid eprio; OATimeout rid prio] st)
            else Some (abort_next st o inp rid prio eprio ecnt (set_event EvNone h) [OATimeout rid prio])
          else None
      | _ => None
      end
  | LFail o =>
      (* another error: of locking, of writing into an event pipe, of parsing the output (2782-2815,
         2932-2950), the event is removed unless it is an error of "rpc" *)
      match nth_error (st_ors st) o with
      | Some (ONew _ _ _) => Some (set_o o OIdle h [OFailed o O] st)
      | Some (OWait inp rid prio) =>
          Some (set_o o OIdle (set_event (if ev_eqb (f_ev (h_inf h)) EvError then EvError else EvNone) h) [OFailed o rid] st)
      | Some (OAbort inp rid) => Some (set_o o OIdle h [OFailed o rid] st)
      | Some (OAWait inp rid prio eprio ecnt) => Some (set_o o OIdle (set_event EvNone h) [OFailed o rid] st)
      | _ => None
      end
  | LDieO o =>
      match nth_error (st_ors st) o with Some _ => Some (set_o o ODead h [] st) | None => None end
  | LBegin p =>
      (* src/shm_sub.c 4396-4448 *)
      match st_pcs st p, find_new st p (h_in h) O with
      | Idle, Some k => Some (set_p p (Call k 0 (h_inf h) (h_in h)) h [] st)
      | _, _ => None
      end
  | LCall p r out =>
      match st_pcs st p with
      | Call k valid inf inp => Some (set_p p (Called k valid r out inf inp) h [OCall k (f_ev inf) (f_rid inf) r out] st)
      | _ => None
      end
  | LLock p =>
      match st_pcs st p with
      | Called k valid ret out inf inp =>
          if info_eqb inf (h_inf h) then Some (after_cb p k valid ret out inf inp st)
          else Some (set_p p Idle h (self_abort k ret inf) st)
      | Fin k valid ret err out inf =>
          (* src/shm_sub.c 4579-4593 *)
          if info_eqb inf (h_inf h) then Some (set_p p Idle (listen_write_event h valid err out) [] st)
          else Some (set_p p Idle h (self_abort k ret inf) st)
      | _ => None
      end
  | LLockFail p =>
      (* locking failed, src/shm_sub.c 4344-4348 *)
      match st_pcs st p with
      | Idle | Dead => None
      | _ => if lock_fail cfg then Some (set_p p Idle h [] st) else None
      end
  | LDieP p => Some (set_p p Dead h [] st)
  | LSusp k e s =>
      (* _sr_subscription_suspend_change(), src/sysrepo.c 5282-5345, in two steps *)
      if suspends cfg
      then Some (mkst h (st_ors st) (st_pcs st) (upd (st_dyn st) k (mkdyn e s (y_rid (st_dyn st k)) (y_ev (st_dyn st k)))) (st_log st))
      else None
  end.

Fixpoint run (ls : list label) (st : state) : option state :=
  match ls with
  | [] => Some st
  | l :: r => match exec l st with Some st' => run r st' | None => None end
  end.
End Model.
