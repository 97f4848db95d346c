(** Specification notions for the shared subscription memory: blocks, coverage, contents. *)
From Coq Require Import List NArith Bool.
From Verif Require Import Base ExtShm.
Import ListNotations.
Open Scope N_scope.

(** A block of the segment: offset and size. *)
Notation block := (N * N)%type.

Definition inb (b : N) (x : block) : bool := (fst x <=? b) && (b <? fst x + snd x).

(** How many of the blocks a byte belongs to. *)
Fixpoint cov (b : N) (l : list block) : nat :=
  match l with
  | [] => O
  | x :: r => ((if inb b x then 1 else 0) + cov b r)%nat
  end.

(** The free list starting at an offset, as stored in the memory. *)
Fixpoint holes_from (m : mem) (o : N) (hs : list block) : Prop :=
  match hs with
  | [] => o = 0
  | (h, s) :: r => o = h /\ h <> 0 /\ rd32 m h = Some s /\
                   exists n, rd32 m (h + 4) = Some n /\ holes_from m n r
  end.
Definition holes (m : mem) (hs : list block) : Prop :=
  exists o, rd32 m 0 = Some o /\ holes_from m o hs.

(** Ascending and not touching each other, aligned and big enough for the hole header. *)
Fixpoint hsorted (lo : N) (hs : list block) : Prop :=
  match hs with
  | [] => True
  | (h, s) :: r => lo <= h /\ 8 <= s /\ h mod 8 = 0 /\ s mod 8 = 0 /\ hsorted (h + s + 1) r
  end.

(** The segment consists exactly of the header of 8 bytes, the holes and the live blocks: each
    byte after the header belongs to exactly one of them. *)
Definition tiled (m : mem) (hs live : list block) : Prop :=
  forall b, (cov b hs + cov b live)%nat = (if (8 <=? b) && (b <? msize m) then 1 else 0)%nat.

Record well (m : mem) (hs live : list block) : Prop := {
  w_holes : holes m hs;
  w_sorted : hsorted 8 hs;
  w_tiled : tiled m hs live;
  w_size : 8 <= msize m /\ msize m mod 8 = 0 /\ msize m < 2147483648;
  w_live : Forall (fun x => snd x <> 0 /\ fst x mod 8 = 0 /\ snd x mod 8 = 0) live
}.

(** Bytes [o, o+n) of the segment. *)
Definition bytes (m : mem) (o n : N) : list N :=
  map (fun i => mb m (o + N.of_nat i)) (seq 0 (N.to_nat n)).
