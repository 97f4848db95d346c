(** * Specification: what calls with the conventional datastores may rely on *)

From Coq Require Import List Arith Bool.
Import ListNotations.
From Verif Require Import Candidate.

(** the content of a datastore *)
Definition content (s : store) (d : ds) (m : nat) : option nat :=
  match d with
  | Startup => Some (st_start s m)
  | Running => st_run s m
  | Candidate => st_cand s m
  end.

(** what the candidate is for its users: the running data unless it was modified *)
Definition view (s : store) (m : nat) : option nat :=
  match st_cand s m with
  | Some v => Some v
  | None => st_run s m
  end.

(** thread [t] has locked the data *)
Definition holds (y : sys) (t : nat) (d : ds) (m : nat) (md : mode) : Prop := In (Lk t d m md) (y_lk y).

(** calls with distinct modules; the functions of copying are as in [sr_copy_config];
    the RPC factory-reset is not considered *)
Definition proper (c : call) : Prop :=
  match c with
  | Get _ ms | Edit _ ms _ | Commit ms | Discard ms | LockC ms | UnlockC ms => NoDup ms
  | Copy s d ms => NoDup ms /\ s <> d /\ ~ (s = Candidate /\ d = Running) /\ ~ (s = Running /\ d = Candidate)
  | Release _ => True
  | Factory _ _ => False
  end.

Inductive reach : sys -> Prop :=
  | r_init a b : reach (init a b)
  | r_begin y t c : reach y -> t_todo (y_th y t) = [] -> proper c -> reach (begin y t c)
  | r_step y t ok : reach y -> reach (step y t ok).

(** what was read of a module is (still) there *)
Definition agrees (s : store) (m : nat) (x : datum) : Prop :=
  match d_req x with
  | Candidate => match d_act x with
                 | Candidate => st_cand s m = Some (d_val x)
                 | _ => st_cand s m = None
                 end
  | d => content s d m = Some (d_val x)
  end.
