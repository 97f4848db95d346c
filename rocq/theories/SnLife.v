(** Subscriptions of subscribed notifications used and terminated by several
    threads: the array of subscriptions, its lock, and the timers of stop times.

    Models src/utils/sn_common.c 653-682 (IDs, lock), 728-868
    (srsn_sub_free_unsubscribe(), srsn_sub_free()), 873-911
    (srsn_stop_timer_cb()), 931-954 (srsn_sub_add()), 1103-1131 (srsn_find()),
    1254-1302 (srsn_update_timer() stopping a timer) and the functions of
    src/utils/subscribed_notifications.c using a subscription found by its ID
    (173-188, 398-440, 440-477, 479-497, 499-644: all call srsn_find(sub_id, 0)
    and go on with what it returned) and srsn_terminate() (646-681).

    Simplifications: what the functions do with a subscription is one step, of
    which just those matter that read [sr_sub_ids] (srsn_suspend() and
    srsn_resume() of other than periodic subscriptions, lines 519 and 594);
    unsubscribing has a beginning and an end; fewer than 2^32 subscriptions
    are created, so IDs are not used again; waiting for the dispatch thread
    (808-846) is left out. *)

From Coq Require Import List NArith Arith Bool.
Import ListNotations.

(** A subscription structure: in use, being unsubscribed, unsubscribed
    ([sr_sub_ids] is NULL), freed. *)
Inductive ostat := Alive | Busy | Unsub | Freed.

(** [cancel]: [stop_sntimer.tid] was set to 0. *)
Record object := Obj { st : ostat; cancel : bool }.

Inductive user_op := Simple | Suspending.

Inductive upc := U0 | U1 (p : nat) | UDone (found : bool).
Inductive tpc := T0 | T1 (p : nat) | T2 (p : nat) | T3 (p : nat) | T4 (p : nat) | TDone (rc : option bool).
Inductive spc := S0 | S1 | S2 | S3 | S4 | S5 | SDone.

(** Threads: one calling a function for the subscription [id], one calling
    srsn_terminate() (result [None]: not found, [Some true]: success), and the
    thread of the timer of the stop time of the subscription at [p]. *)
Inductive thread :=
| User (id : nat) (op : user_op) (pc : upc)
| Term (id : nat) (pc : tpc)
| Stop (p : nat) (pc : spc).

(** [arr] is [snstate.subs] as pairs of the ID and the pointer, [objs] the memory. *)
Record cfg := Cfg {
  arr : list (nat * nat); lock : option nat; objs : list object; ths : list thread; next_id : nat }.

Inductive out := Ok (c : cfg) | Crash.

(** srsn_find(), lines 1118-1123. *)
Fixpoint find_sub (id : nat) (l : list (nat * nat)) : option nat :=
  match l with
  | nil => None
  | (i, p) :: r => if Nat.eqb i id then Some p else find_sub id r
  end.

(** srsn_sub_free(), lines 849-867: replaced by the last one. *)
Fixpoint index_of (p : nat) (l : list (nat * nat)) : nat :=
  match l with
  | nil => 0
  | (_, q) :: r => if Nat.eqb q p then 0 else Datatypes.S (index_of p r)
  end.

Fixpoint set_nth {A} (n : nat) (a : A) (l : list A) : list A :=
  match l with
  | nil => nil
  | x :: r => match n with O => a :: r | Datatypes.S n => x :: set_nth n a r end
  end.

Definition remove_sub (p : nat) (l : list (nat * nat)) : list (nat * nat) :=
  let i := index_of p l in
  if Nat.eqb i (length l) then l
  else removelast (if Nat.ltb i (length l - 1) then set_nth i (last l (0, 0)) l else l).

Definition obj (c : cfg) (p : nat) : object := nth p (objs c) (Obj Freed true).

Definition with_th (c : cfg) (i : nat) (t : thread) : cfg :=
  Cfg (arr c) (lock c) (objs c) (set_nth i t (ths c)) (next_id c).
Definition with_lock (c : cfg) (l : option nat) : cfg :=
  Cfg (arr c) l (objs c) (ths c) (next_id c).
Definition with_st (c : cfg) (p : nat) (s : ostat) : cfg :=
  Cfg (arr c) (lock c) (set_nth p (Obj s (cancel (obj c p))) (objs c)) (ths c) (next_id c).
Definition with_cancel (c : cfg) (p : nat) : cfg :=
  Cfg (arr c) (lock c) (set_nth p (Obj (st (obj c p)) true) (objs c)) (ths c) (next_id c).

(** Freed and removed from the array. *)
Definition free_sub (c : cfg) (p : nat) : cfg :=
  let c := with_st c p Freed in
  Cfg (remove_sub p (arr c)) (lock c) (objs c) (ths c) (next_id c).

(** Whether the thread of the timer of [p] has not ended (pthread_join(), 1295-1301). *)
Definition stop_alive (p : nat) (t : thread) : bool :=
  match t with
  | Stop q pc => Nat.eqb p q && match pc with SDone => false | _ => true end
  | _ => false
  end.

(** One step of a thread; [ch]: whether sending succeeds (a timer is due).
    [None]: it cannot go on. *)
Definition step (c : cfg) (i : nat) (ch : bool) : option out :=
  match nth_error (ths c) i with
  | Some (User id op U0) =>
      match lock c with
      | Some _ => None
      | None =>
          match find_sub id (arr c) with
          | None => Some (Ok (with_th c i (User id op (UDone false))))
          | Some p => Some (Ok (with_th c i (User id op (U1 p))))
          end
      end
  | Some (User id op (U1 p)) =>
      match st (obj c p), op with
      | Freed, _ => Some Crash
      | Alive, _ => Some (Ok (with_th c i (User id op (UDone true))))
      | _, Simple => Some (Ok (with_th c i (User id op (UDone true))))
      | _, Suspending => Some Crash
      end
  | Some (Term id T0) =>
      match lock c with
      | Some _ => None
      | None =>
          match find_sub id (arr c) with
          | None => Some (Ok (with_th c i (Term id (TDone None))))
          | Some p => Some (Ok (with_th (with_lock c (Some i)) i (Term id (T1 p))))
          end
      end
  | Some (Term id (T1 p)) =>
      match st (obj c p) with
      | Alive => Some (Ok (with_th (with_st c p Busy) i (Term id (T2 p))))
      | Unsub => Some (Ok (with_th c i (Term id (T3 p))))
      | _ => Some Crash
      end
  | Some (Term id (T2 p)) => Some (Ok (with_th (with_st c p Unsub) i (Term id (T3 p))))
  | Some (Term id (T3 p)) =>
      if ch then Some (Ok (with_th (with_cancel c p) i (Term id (T4 p))))
      else Some (Ok (with_th (with_lock c None) i (Term id (TDone (Some false)))))
  | Some (Term id (T4 p)) =>
      if existsb (stop_alive p) (ths c) then None
      else match st (obj c p) with
           | Freed => Some Crash
           | _ => Some (Ok (with_th (with_lock (free_sub c p) None) i (Term id (TDone (Some true)))))
           end
  | Some (Stop p S0) =>
      if cancel (obj c p) then Some (Ok (with_th c i (Stop p SDone)))
      else if ch then Some (Ok (with_th c i (Stop p S1))) else None
  | Some (Stop p S1) =>
      match st (obj c p) with
      | Alive => Some (Ok (with_th (with_st c p Busy) i (Stop p S2)))
      | Unsub => Some (Ok (with_th c i (Stop p S3)))
      | _ => Some Crash
      end
  | Some (Stop p S2) => Some (Ok (with_th (with_st c p Unsub) i (Stop p S3)))
  | Some (Stop p S3) =>
      match st (obj c p) with
      | Freed => Some Crash
      | _ => Some (Ok (with_th c i (Stop p S4)))
      end
  | Some (Stop p S4) =>
      match lock c with
      | Some _ => None
      | None => Some (Ok (with_th (with_lock c (Some i)) i (Stop p S5)))
      end
  | Some (Stop p S5) =>
      match st (obj c p) with
      | Freed => Some Crash
      | _ => Some (Ok (with_th (with_lock (free_sub c p) None) i (Stop p SDone)))
      end
  | _ => None
  end.

Inductive event := Step (i : nat) (ch : bool) | Add.

(** srsn_sub_add(), lines 931-954, of a new structure with a new ID. *)
Definition add (c : cfg) : option out :=
  match lock c with
  | Some _ => None
  | None => Some (Ok (Cfg (arr c ++ [(next_id c, length (objs c))]) None (objs c ++ [Obj Alive false])
                          (ths c) (Datatypes.S (next_id c))))
  end.

Definition do_event (c : cfg) (e : event) : option out :=
  match e with Step i ch => step c i ch | Add => add c end.

Fixpoint run (c : cfg) (l : list event) : option out :=
  match l with
  | nil => Some (Ok c)
  | e :: r => match do_event c e with
              | Some (Ok c') => run c' r
              | x => x
              end
  end.

(** No subscriptions, threads that have not begun. *)
Definition init (ts : list thread) : cfg := Cfg [] None [] ts 1.
