(** Buffering of notifications for replay: senders using one session, its buffering thread and stopping of the session.
    src/replay.c 88-296 and src/sysrepo.c 643-702, 805-827.

    A notification is a number which identifies the call of sr_notif_send (that is, its data and time). Allocation failures
    and modules without replay support are left out. A step is what happens between two actions other threads can see. *)
From Coq Require Import List Bool Arith.
Import ListNotations.

Inductive how := Direct | Buffered | Refused.
(** What can be seen: sr_notif_send called and returned (how it was stored), a notification written to the replay storage by the
    sender or by the buffering thread, sr_session_stop (sr_disconnect) called and returned. *)
Inductive ev := ECall (n : nat) | ERet (n : nat) (b : how) | EWrite (b : how) (n : nat) | EStopCall | EStop (ok : bool).

(** Who has the mutex. *)
Inductive owner := OSender (i : nat) | OThread | OStop.
(** A sender in sr_replay_store, replay.c 129-191: waiting for the mutex (line 159), with the mutex before line 164, before
    unlocking on line 174, before writing on line 182. *)
Inductive spc := SIdle | SLock (n : nat) | SHave (n : nat) | SLeave (n : nat) (ok : bool) | SDirect (n : nat).
(** The buffering thread, sr_notif_buf_thread, replay.c 234-296: before locking (line 248), with the mutex before line 255,
    waiting (line 257), waken up, with the mutex before line 279 (the taken notifications and last_check), writing
    (line 283), ended (without an error?). *)
Inductive bpc := BLock | BHave | BSleep | BWake | BTaken (l : list nat) (last : bool) | BWrite (l : list nat) (last : bool)
  | BEnd (ok : bool).
(** sr_session_notif_buf_stop, sysrepo.c 648-702: not called, before locking (line 663), before unlocking (line 675), joining
    (line 678), returned; [PBad]: the assertion on line 699 failed. *)
Inductive ppc := PIdle | PLock | PUnlock | PJoin | PDone | PBad.

Record st := mkSt {
  mutex : option owner;          (** notif_buf.lock.mutex *)
  running : bool;                (** notif_buf.thread_running *)
  buf : list nat;                (** notif_buf.first to notif_buf.last *)
  ctx : nat;                     (** CONTEXT READ locks of the buffer *)
  late : bool;                   (** time timeout_ts of the buffering thread (line 244) is over *)
  snd_ : nat -> spc; bth : bpc; stp : ppc }.

(** sr_session_notif_buffer, sysrepo.c 805-827: after the thread was created. *)
Definition init : st := mkSt None true [] 0 false (fun _ => SIdle) BLock PIdle.

Definition upd (f : nat -> spc) (i : nat) (p : spc) : nat -> spc := fun j => if j =? i then p else f j.
(** sr_cond_broadcast *)
Definition wake (b : bpc) : bpc := match b with BSleep => BWake | _ => b end.
Definition is_nil (l : list nat) : bool := match l with [] => true | _ => false end.

Inductive step : st -> list ev -> st -> Prop :=
(** replay.c 129-159 *)
| s_call m r b c t f bt p i n : f i = SIdle ->
    step (mkSt m r b c t f bt p) [ECall n] (mkSt m r b c t (upd f i (SLock n)) bt p)
| s_timeout m r b c t f bt p i n : f i = SLock n -> m <> None ->
    step (mkSt m r b c t f bt p) [ERet n Refused] (mkSt m r b c t (upd f i SIdle) bt p)
| s_lock r b c t f bt p i n : f i = SLock n ->
    step (mkSt None r b c t f bt p) [] (mkSt (Some (OSender i)) r b c t (upd f i (SHave n)) bt p)
(** lines 164-171 with sr_notif_buf_store, lines 108-117 *)
| s_put b c t f bt p i n : f i = SHave n -> b <> [] ->
    step (mkSt (Some (OSender i)) true b c t f bt p) []
      (mkSt (Some (OSender i)) true (b ++ [n]) c t (upd f i (SLeave n true)) (wake bt) p)
| s_put_first c t f bt p i n : f i = SHave n ->
    step (mkSt (Some (OSender i)) true [] c t f bt p) []
      (mkSt (Some (OSender i)) true [n] (S c) t (upd f i (SLeave n true)) (wake bt) p)
(** line 113: CONTEXT LOCK failed *)
| s_put_fail c t f bt p i n : f i = SHave n ->
    step (mkSt (Some (OSender i)) true [] c t f bt p) []
      (mkSt (Some (OSender i)) true [] c t (upd f i (SLeave n false)) (wake bt) p)
(** lines 174-179 *)
| s_leave r b c t f bt p i n ok : f i = SLeave n ok ->
    step (mkSt (Some (OSender i)) r b c t f bt p) [ERet n (if ok then Buffered else Refused)]
      (mkSt None r b c t (upd f i SIdle) bt p)
(** lines 164, 174 *)
| s_unlock b c t f bt p i n : f i = SHave n ->
    step (mkSt (Some (OSender i)) false b c t f bt p) [] (mkSt None false b c t (upd f i (SDirect n)) bt p)
(** lines 181-186 *)
| s_write m r b c t f bt p i n : f i = SDirect n ->
    step (mkSt m r b c t f bt p) [EWrite Direct n; ERet n Direct] (mkSt m r b c t (upd f i SIdle) bt p)
| s_write_fail m r b c t f bt p i n : f i = SDirect n ->
    step (mkSt m r b c t f bt p) [ERet n Refused] (mkSt m r b c t (upd f i SIdle) bt p)
(** The clock. *)
| t_late m r b c t f bt p : step (mkSt m r b c t f bt p) [] (mkSt m r b c true f bt p)
(** lines 248-251: an expired timeout is no problem if the mutex is free *)
| b_lock r b c t f p : step (mkSt None r b c t f BLock p) [] (mkSt (Some OThread) r b c t f BHave p)
| b_timeout o r b c f p : step (mkSt (Some o) r b c true f BLock p) [] (mkSt (Some o) r b c true f (BEnd false) p)
(** lines 255-258 *)
| b_sleep c t f p : step (mkSt (Some OThread) true [] c t f BHave p) [] (mkSt None true [] c t f BSleep p)
| b_spurious m r b c t f p : step (mkSt m r b c t f BSleep p) [] (mkSt m r b c t f BWake p)
| b_wake r b c t f p : step (mkSt None r b c t f BWake p) [] (mkSt (Some OThread) r b c t f BHave p)
(** lines 259-265 *)
| b_wait_fail r b c t f p : step (mkSt None r b c t f BWake p) [] (mkSt None r b c t f (BEnd false) p)
(** lines 268-276 *)
| b_take r b c t f p : is_nil b && r = false ->
    step (mkSt (Some OThread) r b c t f BHave p) [] (mkSt (Some OThread) r [] c t f (BTaken b (negb r)) p)
(** lines 279-282 and 246 *)
| b_unlock r b c t f l last p :
    step (mkSt (Some OThread) r b c t f (BTaken l last) p) []
      (mkSt None r b c t f (if is_nil l then if last then BEnd true else BLock else BWrite l last) p)
(** sr_notif_buf_thread_write_notifs, lines 207-229 *)
| b_write m r b c t f n l last p :
    step (mkSt m r b c t f (BWrite (n :: l) last) p) [EWrite Buffered n] (mkSt m r b c t f (BWrite l last) p)
(** line 217, then lines 285-290 *)
| b_write_fail m r b c t f n l last p :
    step (mkSt m r b (S c) t f (BWrite (n :: l) last) p) [] (mkSt m r b c t f (BEnd false) p)
(** lines 286, 246 *)
| b_written m r b c t f last p :
    step (mkSt m r b (S c) t f (BWrite [] last) p) [] (mkSt m r b c t f (if last then BEnd true else BLock) p)
(** sysrepo.c 656-666 *)
| p_call m r b c t f bt : step (mkSt m r b c t f bt PIdle) [EStopCall] (mkSt m r b c t f bt PLock)
| p_timeout m r b c t f bt : m <> None -> step (mkSt m r b c t f bt PLock) [EStop false] (mkSt m r b c t f bt PIdle)
(** lines 669-672 *)
| p_lock r b c t f bt : step (mkSt None r b c t f bt PLock) [] (mkSt (Some OStop) false b c t f (wake bt) PUnlock)
| p_unlock r b c t f bt : step (mkSt (Some OStop) r b c t f bt PUnlock) [] (mkSt None r b c t f bt PJoin)
(** lines 678-699. Lines 680-694: the notifications are freed and the CONTEXT lock is released. *)
| p_join m r b c t f : is_nil b = true ->
    step (mkSt m r b c t f (BEnd true) PJoin) [EStop true] (mkSt m r b c t f (BEnd true) PDone)
| p_bad m r b c t f : is_nil b = false ->
    step (mkSt m r b c t f (BEnd true) PJoin) [] (mkSt m r b c t f (BEnd true) PBad)
| p_error m r c t f :
    step (mkSt m r [] c t f (BEnd false) PJoin) [EStop false] (mkSt m r [] c t f (BEnd false) PDone)
| p_error_clean m r b c t f : is_nil b = false ->
    step (mkSt m r b (S c) t f (BEnd false) PJoin) [EStop false] (mkSt m r [] c t f (BEnd false) PDone).
