(** Independent specification for originator/error data (property C24). *)
From Coq Require Import List NArith.
Import ListNotations.
Open Scope N_scope.

(** Number of bytes needed to transport chunks of data: a 4-byte count and a 4-byte size
    before every chunk. *)
Definition packed_size (chunks : list (list N)) : N :=
  4 + fold_right (fun c n => 4 + N.of_nat (length c) + n) 0 chunks.

(** What a reader asking for chunk [idx] must get. *)
Definition chunk_spec (chunks : list (list N)) (idx : N) : option (list N) :=
  nth_error chunks (N.to_nat idx).

(** An error as set by a callback: code, message, optional data format and data chunks. *)
Record user_error := {
  ue_code : N;
  ue_msg : list N;
  ue_fmt : option (list N);
  ue_chunks : list (list N)
}.

(** A C string holds no zero byte. *)
Definition c_string (s : list N) : Prop := ~ In 0 s.

Definition user_error_ok (e : user_error) : Prop :=
  ue_code e < 2 ^ 32 /\ c_string (ue_msg e) /\
  match ue_fmt e with
  | Some f => c_string f /\ f <> []
  | None => ue_chunks e = []
  end /\
  packed_size (ue_chunks e) < 2 ^ 32.
