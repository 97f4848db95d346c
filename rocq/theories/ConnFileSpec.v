(** What knowing that a connection is alive means. *)
From Coq Require Import NArith List Bool.
From Verif Require Import ConnFile.
Import ListNotations.

(** Nobody lists the connections by their files (as reading the data of
    sysrepo-monitoring does) *)
Definition no_listing (l : list event) : Prop := forall p c, ~ In (EList p c) l.
(** No sr_connect() fails after it added the connection *)
Definition no_failure (l : list event) : Prop := forall t, ~ In (EFail t) l.
Definition no_restart (l : list event) : Prop := ~ In EReboot l.

(** A state after any events without listing *)
Definition reach (s : state) : Prop := exists l, run init l = Some s /\ no_listing l.
(** ... and without failures of connecting *)
Definition reach_ok (s : state) : Prop := exists l, run init l = Some s /\ no_listing l /\ no_failure l.

Definition connected (s : state) (c : N) : Prop := exists p, In (p, c) (live s).

(** A thread that checks a connection *)
Definition checking (s : state) (t c : N) : Prop :=
  exists th, thr s t = Some th /\ t_cid th = c /\
    match t_pc th with C0 | C1 | C2 _ | C3 _ _ | C4 => True | _ => False end.

(** How many steps of a thread are among the events *)
Definition mine (t : N) (e : event) : nat := match e with EStep u => if N.eqb u t then 1 else 0 | _ => 0 end.
Fixpoint steps_of (t : N) (l : list event) : nat :=
  match l with [] => 0 | e :: l' => mine t e + steps_of t l' end.

(** A thread in sr_connect() before the connection is added *)
Definition connecting (s : state) (t p c : N) : Prop :=
  exists th, thr s t = Some th /\ t_pid th = p /\ t_cid th = c /\
    match t_pc th with A0 | A1 _ | A2 _ | A3 _ => True | _ => False end.
