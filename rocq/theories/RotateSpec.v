(** What rotating notifications without loss means. *)
From Coq Require Import String Ascii NArith ZArith List Bool.
From Verif Require Import Rotate.
Import ListNotations.
Local Open Scope N_scope.

(** A notification can be replayed *)
Definition served (s : state) (n : ntf) : Prop := exists x i, dir s x = Some i /\ In n (data s i).
(** A notification is in the archive *)
Definition archived (s : state) (n : ntf) : Prop :=
  exists k v, In (k, v) (arch s) /\ In n (match v with File i => data s i | Copy l => l end).

Fixpoint has_dot (s : string) : bool :=
  match s with EmptyString => false | String c s' => Ascii.eqb c "." || has_dot s' end.

(** Times of notifications of a module do not decrease and fit into time_t, names of
    modules have no dot, a notification is stored within [D] seconds of its time and
    files are not rotated before [D] seconds *)
Definition timely (D : N) (s : state) (e : event) : Prop :=
  match e with
  | EOpen m n x => last s m <= snd n < 2 ^ 63
  | ENew m n => last s m <= snd n < 2 ^ 63 /\ has_dot m = false /\ now s <= snd n + D
  | ERename m => forall x n, wr s m = Some (WRen x n) -> now s <= snd n + D
  | EConfig c => (Z.of_N D <= c_rt c)%Z
  | _ => True
  end.

(** No notification of a module is being stored while a file of it is compressed and
    removed *)
Definition apart (s : state) (e : event) : Prop :=
  match e with
  | ERot x _ => c_tar (conf s) = true -> wr s (nmod x) = None
  | EOpen m _ _ | ENew m _ => forall cur x, rot s = RTar cur x -> nmod x <> m
  | _ => True
  end.

(** ... nor moved *)
Definition calm (s : state) (e : event) : Prop :=
  match e with ERot x _ => wr s (nmod x) = None | _ => True end.

(** Files are only moved, not compressed *)
Definition moving (s : state) (e : event) : Prop :=
  match e with ERot _ _ => c_tar (conf s) = false | _ => True end.

Definition any (s : state) (e : event) : Prop := True.

Inductive reach (D : N) (P : state -> event -> Prop) : state -> Prop :=
| reach_init : forall c, (Z.of_N D <= c_rt c)%Z -> reach D P (init c)
| reach_step : forall s e s', reach D P s -> timely D s e -> P s e -> step s e = Some s' -> reach D P s'.

(** Units of older-than in seconds *)
Definition unit_secs (c : ascii) : option N :=
  match c with
  | "s" => Some 1 | "m" => Some 60 | "h" => Some 3600 | "D" => Some 86400
  | "W" => Some 604800 | "M" => Some 2592000 | "Y" => Some 31536000
  | _ => None
  end%char.

(** One pass over the names of files, undisturbed *)
Fixpoint pass (l : list name) (s : state) : option state :=
  match l with
  | [] => Some s
  | x :: l' =>
      match step s (ERot x true) with
      | Some s1 => match rot s1 with
                   | RTar _ _ => match step s1 ERemove with Some s2 => pass l' s2 | None => None end
                   | _ => pass l' s1
                   end
      | None => None
      end
  end.
