(** Common helpers for the whole model: byte blocks, C integers, option monad.
    Bytes are [N]; a block of memory is the list of its bytes. *)
From Coq Require Import List NArith ZArith Lia Bool.
Import ListNotations.
Open Scope N_scope.

(** 2^32 and 2^64, the moduli of C's uint32_t and size_t. *)
Definition two32 : N := 4294967296.
Definition two64 : N := 18446744073709551616.
Definition u32 (n : N) : N := n mod two32.
Definition u64 (n : N) : N := n mod two64.

(** Length of a block as a C size. *)
Definition nlen {A} (l : list A) : N := N.of_nat (length l).

Definition nfirstn {A} (n : N) (l : list A) : list A := firstn (N.to_nat n) l.
Definition nskipn {A} (n : N) (l : list A) : list A := skipn (N.to_nat n) l.

(** memcpy out of a block; [None] = access outside of the block (undefined behaviour). *)
Definition read_at (b : list N) (off len : N) : option (list N) :=
  if off + len <=? nlen b then Some (nfirstn len (nskipn off b)) else None.

(** memcpy into a block; [None] = access outside of the block (undefined behaviour). *)
Definition write_at (b : list N) (off : N) (data : list N) : option (list N) :=
  if off + nlen data <=? nlen b
  then Some (nfirstn off b ++ data ++ nskipn (off + nlen data) b)
  else None.

(** Little-endian representation of a uint32_t. *)
Definition le32 (n : N) : list N :=
  [n mod 256; (n / 256) mod 256; (n / 65536) mod 256; (n / 16777216) mod 256].

Definition de32 (l : list N) : N :=
  match l with
  | [a; b; c; d] => a + 256 * b + 65536 * c + 16777216 * d
  | _ => 0
  end.

Definition read32 (b : list N) (off : N) : option N :=
  match read_at b off 4 with Some l => Some (de32 l) | None => None end.

(** realloc(): the common prefix is kept, the rest of the new block is unspecified, modelled
    by a filler byte the caller supplies (theorems quantify over it). *)
Definition realloc (fill : N) (b : list N) (new_size : N) : list N :=
  nfirstn new_size b ++ repeat fill (N.to_nat (new_size - nlen b)).

Definition obind {A B} (o : option A) (f : A -> option B) : option B :=
  match o with Some x => f x | None => None end.
Notation "'do' x <- e ; f" := (obind e (fun x => f))
  (at level 200, x name, e at level 100, f at level 200, right associativity).
