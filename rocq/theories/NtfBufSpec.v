(** Runs with buffered notifications, and what is wanted of what can be seen of them. *)
From Coq Require Import List Bool Arith.
From Verif Require Import NtfBuf.
Import ListNotations.

(** Runs from the start of buffering with what was seen; calls have different numbers. *)
Inductive runs : list ev -> st -> Prop :=
| runs_init : runs [] init
| runs_step tr s e s' : runs tr s -> step s e s' -> (forall n, In (ECall n) e -> ~ In (ECall n) tr) -> runs (tr ++ e) s'.

(** [a] happened, then [b]. *)
Definition precedes (a b : ev) (tr : list ev) : Prop := exists x y z, tr = x ++ a :: y ++ b :: z.
Definition once (a : ev) (tr : list ev) : Prop := exists x y, tr = x ++ a :: y /\ ~ In a x /\ ~ In a y.
(** Somebody wrote it. *)
Definition written (n : nat) (tr : list ev) : Prop := In (EWrite Buffered n) tr \/ In (EWrite Direct n) tr.
(** What can be seen next. *)
Inductive continues : st -> list ev -> st -> Prop :=
| cont_refl s : continues s [] s
| cont_step s e s1 e' s2 : step s e s1 -> continues s1 e' s2 -> continues s (e ++ e') s2.
