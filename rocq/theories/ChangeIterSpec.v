(** What a subscriber knows after reading changes: a copy of the data it keeps up to date by playing
    every change as it is told. *)
From Coq Require Import List Bool Arith.
From Verif Require Import Edit EditSpec ChangeIter.
Import ListNotations.

(** Values with default flags of everything that exists (keys too), and the order of instances of every
    user-ordered schema node of every parent. *)
Record copy := mkcopy { c_val : loc -> option (nat * bool); c_ord : path -> nat -> list nat }.
Definition same (a b : copy) : Prop := (forall l, c_val a l = c_val b l) /\ (forall p s, c_ord a p s = c_ord b p s).

Definition id_dec : forall a b : nat * nat, {a = b} + {a <> b}.
Proof. intros [a1 a2] [b1 b2]. destruct (Nat.eq_dec a1 b1) as [->|N]; [destruct (Nat.eq_dec a2 b2) as [->|N]|]; [left; reflexivity| |]; right; congruence. Defined.
Definition path_dec : forall a b : path, {a = b} + {a <> b} := list_eq_dec id_dec.
Definition loc_dec : forall a b : loc, {a = b} + {a <> b}.
Proof. intros [p i] [q j]. destruct (path_dec p q) as [->|N]; [|right; congruence]. destruct i as [i|], j as [j|]; try (right; congruence); [destruct (Nat.eq_dec i j) as [->|N]; [left; reflexivity|right; congruence]|left; reflexivity]. Defined.

Definition set_val (l : loc) (x : option (nat * bool)) (c : copy) : copy :=
  mkcopy (fun m => if loc_dec m l then x else c_val c m) (c_ord c).
Definition set_ord (p : path) (s : nat) (x : list nat) (c : copy) : copy :=
  mkcopy (c_val c) (fun q t => if path_dec q p then if Nat.eq_dec t s then x else c_ord c q t else c_ord c q t).

(** The parent of a node; the parent of a key is its list instance. *)
Definition parent (l : loc) : path := match l with (p, None) => removelast p | (p, Some _) => p end.
Definition exists_path (p : path) (c : copy) : bool :=
  match p with [] => true | _ => match c_val c (p, None) with Some _ => true | None => false end end.

Section Play.
Variable kd : nat -> kind.
Variable nk : nat -> nat.
Variable kv : nat -> nat -> nat -> nat.
(** Are default flags followed? *)
Variable fl : bool.
Definition fv (v : nat) (b : bool) : nat * bool := (v, fl && b).
Definition fv_eqb (a b : nat * bool) : bool := Nat.eqb (fst a) (fst b) && Bool.eqb (snd a) (snd b).
Definition holds (l : loc) (x : nat * bool) (c : copy) : bool :=
  match c_val c l with Some y => fv_eqb y x | None => false end.
Definition after_of (an : option nat) : ins := match an with None => IFirst | Some a => IAfter (Some a) end.

(** Is the node itself user-ordered: keys are not. *)
Definition uo (l : loc) (s : nat) : bool := match l with (_, None) => userord (kd s) | _ => false end.

(** Playing a change; [None] if it makes no sense for the copy, also if nothing is modified or moved by it. *)
Definition play (x : chg) (c : copy) : option copy :=
  match x with
  | CCreated l s v b an =>
      match c_val c l with
      | Some _ => None
      | None =>
          if exists_path (parent l) c
          then let c1 := set_val l (Some (fv v b)) c in
               match an, uo l s with
               | Some a, true => match place (after_of a) v (c_ord c (parent l) s) with Some o => Some (set_ord (parent l) s o c1) | None => None end
               | None, false => Some c1
               | _, _ => None
               end
          else None
      end
  | CDeleted l s v b =>
      if holds l (fv v b) c
      then let c1 := set_val l None c in
           Some (if uo l s then set_ord (parent l) s (filter (fun y => negb (Nat.eqb y v)) (c_ord c (parent l) s)) c1 else c1)
      else None
  | CModified l s v0 b0 v b => if holds l (fv v0 b0) c && negb (uo l s) && negb (Nat.eqb v0 v) then Some (set_val l (Some (fv v b)) c) else None
  | CMoved l s v b an =>
      if holds l (fv v b) c && uo l s
      then match place (after_of an) v (c_ord c (parent l) s) with Some o => if list_eq_dec Nat.eq_dec o (c_ord c (parent l) s) then None else Some (set_ord (parent l) s o c) | None => None end
      else None
  end.
Fixpoint plays (xs : list chg) (c : copy) : option copy :=
  match xs with [] => Some c | x :: t => match play x c with Some c' => plays t c' | None => None end end.

(** The right copy of data. *)
Fixpoint node_at (p : path) (ds : list dnode) : option dnode :=
  match p with
  | [] => None
  | id :: r => match lk kd id ds with Some d => match r with [] => Some d | _ => node_at r (dch d) end | None => None end
  end.
Definition copy_of (ds : list dnode) : copy :=
  mkcopy
    (fun l => match l with
              | (p, None) => match node_at p ds with Some d => Some (fv (dval d) (ddflt d)) | None => None end
              | (p, Some i) =>
                  match node_at p ds with
                  | Some d => match kd (dsch d) with KList _ => if Nat.ltb i (nk (dsch d)) then Some (fv (kv (dsch d) (dval d) i) false) else None | _ => None end
                  | None => None
                  end
              end)
    (fun p s => if userord (kd s) then order s (dat kd p ds) else []).
End Play.

(** Where a change is. *)
Definition at_loc (x : chg) : loc :=
  match x with CCreated l _ _ _ _ | CDeleted l _ _ _ | CModified l _ _ _ _ _ | CMoved l _ _ _ _ => l end.
