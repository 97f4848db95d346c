(** The pipe between a subscription of subscribed notifications or YANG push and its receiver:
    srsn_ntf_send(), src/utils/sn_common.c 1133-1170, and srsn_read_notif(),
    src/utils/subscribed_notifications.c 830-880.

    Several threads write (the handler of sysrepo subscriptions, timers, callers of srsn_suspend() etc.), one
    reads. Writing of at most [pb] bytes (PIPE_BUF) into a pipe is atomic, otherwise any parts are written as
    there is room; the pipe holds [cap] bytes. Bytes are numbers. A read takes what is there, at most what was
    asked for. Notifications are their printed forms, never empty. *)
From Coq Require Import NArith List Bool Arith.
Import ListNotations.

Record msg := mkmsg { m_ts : list nat; m_data : list nat }.
(** uint32_t in memory (little endian). *)
Definition put32 (n : N) : list nat :=
  map N.to_nat [n mod 256; (n / 256) mod 256; (n / 65536) mod 256; (n / 16777216) mod 256]%N.
Definition get32 (l : list nat) : N :=
  match map N.of_nat l with [a; b; c; d] => a + 256 * b + 65536 * c + 16777216 * d | _ => 0 end%N.
(** The three buffers of srsn_ntf_send(), 1142-1156. *)
Definition enc (m : msg) : list nat := m_ts m ++ put32 (N.of_nat (length (m_data m))) ++ m_data m.

(** Where the reader is in srsn_read_notif(): 1) timestamp, 2) size, 3) data. *)
Inductive rstate := RTs | RSize (ts : list nat) | RData (ts : list nat) (n : nat).
(** Results of srsn_read_notif(): a notification, an error, end of file. *)
Inductive result := Got (m : msg) | Broken | Eof.
(** [p_pend]: what writers have yet to write of a long notification; [p_sent]: in the order in which writing
    was started. *)
Record pipe := mkpipe { p_bytes : list nat; p_pend : list (nat * list nat); p_closed : bool; p_read : rstate; p_sent : list msg; p_got : list result }.
Definition new_pipe : pipe := mkpipe [] [] false RTs [] [].

Section Pipe.
Variables (pb cap : nat) (nonblock : bool).
Definition pending (w : nat) (p : pipe) : option (list nat) := option_map snd (find (fun x => Nat.eqb (fst x) w) (p_pend p)).
Definition set_pend (w : nat) (l : list nat) (p : list (nat * list nat)) : list (nat * list nat) :=
  let r := filter (fun x => negb (Nat.eqb (fst x) w)) p in match l with [] => r | _ => (w, l) :: r end.
(** writev(), src/utils/sn_common.c 1159; a writer waits while there is no room. *)
Definition send (w : nat) (m : msg) (p : pipe) : pipe :=
  if p_closed p then p
  else match pending w p with
  | Some _ => p
  | None =>
      if Nat.leb (length (enc m)) pb
      then if Nat.leb (length (p_bytes p) + length (enc m)) cap
           then mkpipe (p_bytes p ++ enc m) (p_pend p) false (p_read p) (p_sent p ++ [m]) (p_got p)
           else p
      else mkpipe (p_bytes p) (set_pend w (enc m) (p_pend p)) false (p_read p) (p_sent p ++ [m]) (p_got p)
  end.
(** The kernel takes a part of a long notification. *)
Definition part (w k : nat) (p : pipe) : pipe :=
  match pending w p with
  | None => p
  | Some l =>
      if Nat.leb (length (p_bytes p) + length (firstn k l)) cap
      then mkpipe (p_bytes p ++ firstn k l) (set_pend w (skipn k l) (p_pend p)) (p_closed p) (p_read p) (p_sent p) (p_got p)
      else p
  end.
(** close() of the writing end, src/utils/sn_common.c 800; by then all writing is done. *)
Definition close (p : pipe) : pipe :=
  match p_pend p with [] => mkpipe (p_bytes p) [] true (p_read p) (p_sent p) (p_got p) | _ => p end.

Definition fails (p : pipe) (rest : list nat) (r : result) : pipe := mkpipe rest (p_pend p) (p_closed p) RTs (p_sent p) (p_got p ++ [r]).
(** read() of [n] bytes from an empty pipe in the middle of a notification: an error at the end of file or if
    non-blocking, otherwise it waits. *)
Definition read_none (p : pipe) : pipe := if p_closed p || nonblock then fails p [] Broken else p.
(** One read() of srsn_read_notif(), src/utils/subscribed_notifications.c 843, 857, 866. No notification is not
    an error (845-847). *)
Definition reading (p : pipe) : pipe :=
  match p_read p with
  | RTs =>
      match p_bytes p with
      | [] => if p_closed p then fails p [] Eof else p
      | b => if Nat.ltb (length b) 16 then fails p [] Broken
             else mkpipe (skipn 16 b) (p_pend p) (p_closed p) (RSize (firstn 16 b)) (p_sent p) (p_got p)
      end
  | RSize ts =>
      match p_bytes p with
      | [] => read_none p
      | b => if Nat.ltb (length b) 4 then fails p [] Broken
             else mkpipe (skipn 4 b) (p_pend p) (p_closed p) (RData ts (N.to_nat (get32 (firstn 4 b)))) (p_sent p) (p_got p)
      end
  | RData ts n =>
      match p_bytes p with
      | [] => read_none p
      | b => if Nat.ltb (length b) n then fails p [] Broken
             else fails p (skipn n b) (Got (mkmsg ts (firstn n b)))
      end
  end.
Inductive op := Send (w : nat) (m : msg) | Part (w k : nat) | Close | Read.
Definition step (p : pipe) (o : op) : pipe :=
  match o with Send w m => send w m p | Part w k => part w k p | Close => close p | Read => reading p end.
Definition run (h : list op) : pipe := fold_left step h new_pipe.
End Pipe.
