(** What the receiver of a stream subscription is to get, from the history of what happened to it. *)
From Coq Require Import List Bool Arith.
From Verif Require Import SnDeliver.
Import ListNotations.

(** Modules in the order in which they were first handled. *)
Fixpoint visited (h : list op) : list nat :=
  match h with
  | [] => []
  | Visit i _ _ :: t => i :: filter (fun j => negb (Nat.eqb j i)) (visited t)
  | _ :: t => visited t
  end.
(** Selected stored notifications of these modules. *)
Definition replays (stored : list (list ntf)) (h : list op) : list ntf := flat_map (fun i => filter n_sel (nth i stored [])) (visited h).
(** Live notifications that the user may receive, outside of the times when the subscription is suspended. *)
Fixpoint lives (susp : bool) (h : list op) : list ntf :=
  match h with
  | [] => []
  | Visit _ _ l :: t => (if susp then [] else filter (fun n => n_sel n && n_may n) l) ++ lives susp t
  | Suspend :: t => lives true t
  | Resume :: t => lives false t
  | _ :: t => lives susp t
  end.
(** Notifications of the stream and replay-completed, without notifications about the state. *)
Definition plain (i : item) : bool := match i with INtf _ | ICompleted => true | _ => false end.
Definition received (x : sub) : list item := filter plain (s_out x).
(** The subscription is not terminated, reading of stored notifications does not fail, modules are of the stream. *)
Definition ordinary (n : nat) (o : op) : Prop :=
  match o with Visit i None _ => i < n | Visit _ (Some _) _ => False | Suspend | Resume => True | Terminate | StopTime => False end.
