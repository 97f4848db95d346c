(** Periodic YANG push subscriptions: when updates are sent.

    Models src/utils/sn_yang_push.c 102-153 and 777-801, the timer of
    src/utils/sn_common.c 1172-1302 and the functions using it in
    src/utils/subscribed_notifications.c (271-324, 459-477, 499-572, 574-644,
    646-681).

    Simplifications: the realtime clock never goes back; the thread of the
    timer is created; a callback is one step that begins at the present time
    and ends at a later one (it holds the lock of the timer, so whoever
    changes the timer waits for its end); the content of an update is not
    modelled, only whether getting the data succeeded. *)

From Coq Require Import ZArith List Bool.
Import ListNotations.
From Verif Require Import Time.
Open Scope Z_scope.

(** The thread of a timer: created but not yet waiting, waiting, or ended by
    itself while [sntimer->tid] is still set. *)
Inductive thread := Starting | Waiting | Ended.

(** struct srsn_timer with a non-zero [tid]. *)
Record timer := Timer { th : thread; trig : timespec; intv : Z }.

(** struct srsn_sub of a periodic subscription with a clock and what was sent,
    the latest first. [anchor] is all zeros if there is none. *)
Record st := St {
  now : timespec; period : Z; anchor : timespec; susp : bool;
  tm : option timer; over : bool; sent : list timespec }.

Definition zero : timespec := {| tv_sec := 0; tv_nsec := 0 |}.

Inductive out (A : Type) := Done (a : A) | DivZero.
Arguments Done {A} a.
Arguments DivZero {A}.

(** srsn_yp_schedule_periodic_update(), lines 125-135: the first trigger.
    [int] anchor_ms, converted to unsigned by the operator [%=]. *)
Definition first_trigger (now : timespec) (period : Z) (a : option timespec) : out timespec :=
  match a with
  | None => Done now
  | Some a =>
      let d := time_sub_ms now a in
      let d := if d <? 0 then to_int (- d) else d in
      if period =? 0 then DivZero
      else Done (ts_add (Some now) (u32z (u32z d mod period)))
  end.

(** The interval: lines 138-139 and back to milliseconds, sn_common.c 1213-1214. *)
Definition interval_ms (period : Z) : Z :=
  u32z (u32z (Z.quot period 1000 * 1000) + Z.quot (u32z (Z.rem period 1000 * 1000000)) 1000000).

(** srsn_yp_schedule_periodic_update(), lines 117-153, with srsn_create_timer()
    and srsn_update_timer() of sn_common.c, 1230-1302: the thread of a timer
    that exists is kept. *)
Definition schedule (s : st) (p : Z) (a : option timespec) : out timer :=
  match first_trigger (now s) p a with
  | DivZero => DivZero
  | Done t =>
      Done (match tm s with
            | None => Timer Starting t (interval_ms p)
            | Some r => Timer (th r) t (interval_ms p)
            end)
  end.

(** srsn_yang_push_periodic(), lines 271-324. *)
Definition subscribe (t : timespec) (p : Z) (a : option timespec) : out st :=
  let s := St t p (match a with Some a => a | None => zero end) false None false [] in
  match schedule s p a with
  | DivZero => DivZero
  | Done r => Done (St t p (anchor s) false (Some r) false [])
  end.

Definition later (t : timespec) (t' : timespec) : bool := 0 <=? time_cmp t' t.

(** srsn_update_timer() with no trigger, lines 1267-1301: the thread is told to
    end and waited for. If it does not wait on the condition yet, it does not
    get the signal and waits for the trigger first (lines 1186-1198). *)
Definition stop_timer (s : st) : timespec :=
  match tm s with
  | Some (Timer Starting t _) => if later (now s) t then t else now s
  | _ => now s
  end.

Inductive event :=
| Clock (t : timespec)                      (* time passes *)
| Begin                                     (* the thread gets to waiting *)
| Fire (ok : bool) (t : timespec)           (* the callback, ended at [t] *)
| Suspend | Resume | Terminate
| Modify (p : Z) (a : option timespec).

Definition with_tm (s : st) (r : option timer) : st :=
  St (now s) (period s) (anchor s) (susp s) r (over s) (sent s).
Definition with_now (s : st) (t : timespec) : st :=
  St t (period s) (anchor s) (susp s) (tm s) (over s) (sent s).

(** After a callback, lines 1208-1221. *)
Definition next_round (t : timespec) (r : timer) : timer :=
  if intv r =? 0 then Timer Ended (trig r) (intv r)
  else Timer Waiting (ts_add (Some t) (intv r)) (intv r).

Definition ts_same (a b : timespec) : bool := time_cmp a b =? 0.

(** Whether something changes, sn_yang_push.c 782-783. *)
Definition modified (s : st) (p : Z) (a : option timespec) : bool :=
  negb (p =? period s) ||
  match a with
  | Some a => (tv_sec (anchor s) =? 0) || negb (ts_same (anchor s) a)
  | None => negb (tv_sec (anchor s) =? 0)
  end.

(** One step; [None]: not possible. A subscription that is over is not found. *)
Definition step (s : st) (e : event) : option (out st) :=
  match e with
  | Clock t => if later (now s) t then Some (Done (with_now s t)) else None
  | Begin =>
      match tm s with
      | Some (Timer Starting t i) => Some (Done (with_tm s (Some (Timer Waiting t i))))
      | _ => None
      end
  | Fire ok t =>
      match tm s with
      | Some (Timer Waiting tr i as r) =>
          if later tr (now s) && later (now s) t
          then Some (Done (St t (period s) (anchor s) (susp s) (Some (next_round t r)) (over s)
                             (if ok then now s :: sent s else sent s)))
          else None
      | _ => None
      end
  | Suspend =>
      if over s || susp s then Some (Done s)
      else Some (Done (St (stop_timer s) (period s) (anchor s) true None (over s) (sent s)))
  | Resume =>
      if over s || negb (susp s) then Some (Done s)
      else match schedule s (period s) (Some (anchor s)) with
           | DivZero => Some DivZero
           | Done r => Some (Done (St (now s) (period s) (anchor s) false (Some r) (over s) (sent s)))
           end
  | Terminate =>
      if over s then Some (Done s)
      else Some (Done (St (stop_timer s) (period s) (anchor s) (susp s) None true (sent s)))
  | Modify p a =>
      if over s || negb (modified s p a) then Some (Done s)
      else match schedule s p a with
           | DivZero => Some DivZero
           | Done r => Some (Done (St (now s) p (match a with Some a => a | None => zero end)
                                      (susp s) (Some r) (over s) (sent s)))
           end
  end.

Fixpoint run (s : st) (l : list event) : option (out st) :=
  match l with
  | nil => Some (Done s)
  | e :: r => match step s e with
              | Some (Done s') => run s' r
              | x => x
              end
  end.
