(** * Specification: which subscriptions there are *)

From Coq Require Import List Arith Bool Permutation.
Import ListNotations.
From Verif Require Import SubStruct.

(** a subscription as its subscriber made it *)
Record entry := Entry {
  e_kind : kind;
  e_name : nat;
  e_id : nat;
  e_sess : nat
}.

(** the subscriptions for which events are processed *)
Definition of_table (k : kind) (t : table) : list entry :=
  concat (map (fun g => map (fun s => Entry k (g_name g) (s_id s) (s_sess s)) (g_subs g)) t).

Definition entries (s : st) : list entry :=
  of_table Change (tabs s Change) ++ of_table OperGet (tabs s OperGet) ++
  of_table OperPoll (tabs s OperPoll) ++ of_table Notif (tabs s Notif) ++ of_table Rpc (tabs s Rpc).

(** a thread is ending the subscriptions of a session *)
Definition ending (p : pc) (x : nat) : Prop :=
  match p with
  | Scan _ y => y = x
  | ScanAt _ _ _ _ y => y = x
  | _ => False
  end.

(** a thread is doing nothing *)
Definition free (p : pc) : Prop :=
  match p with
  | Idle | Done _ => True
  | _ => False
  end.

(** Proper use: ids are new (an atomic counter in main SHM), a thread makes one
    call at a time, and nobody subscribes with a session whose subscriptions are
    being ended. *)
Inductive reach : list nat -> sys -> Prop :=
  | r_init : reach [] init
  | r_sub used y k nm id sess : reach used y -> ~ In id used -> (forall t, ~ ending (s_pc y t) sess) ->
      reach (id :: used) (exec y (Subscribe k nm id sess))
  | r_id used y t id : reach used y -> free (s_pc y t) -> reach used (exec y (UnsubId t id))
  | r_sess used y t x : reach used y -> free (s_pc y t) -> reach used (exec y (UnsubSess t x))
  | r_step used y t : reach used y -> reach used (exec y (Step t)).

(** the subscriptions a call is for *)
Definition meant (p : pc) (e : entry) : Prop :=
  match p with
  | DelAt _ _ _ id _ => e_id e = id
  | Scan _ x => e_sess e = x
  | ScanAt _ _ _ _ x => e_sess e = x
  | _ => False
  end.

(** a thread runs alone *)
Fixpoint alone (t n : nat) (y : sys) : sys :=
  match n with
  | 0 => y
  | S m => alone t m (exec y (Step t))
  end.
