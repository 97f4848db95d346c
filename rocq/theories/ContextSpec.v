(** * Specification: what a user relies on about contexts and the content id

    The installed modules are those of the registry file ([s_lyd]). *)

From Coq Require Import List.
Import ListNotations.
From Verif Require Import Context.

(** feature [f] of module [n] is enabled *)
Definition enabled (n f : nat) (s : mset) : Prop :=
  exists m, In m s /\ m_name m = n /\ In (f, true) (m_feats m).

(** module [n] is installed and defines feature [f] *)
Definition defines (n f : nat) (s : mset) : Prop :=
  exists m b, In m s /\ m_name m = n /\ In (f, b) (m_feats m).

Definition connected (c : nat) (st : state) : Prop := s_conns st c <> None.

(** A request for an installed module lists also the features enabled
    already. *)
Definition lists_enabled (q : request) (s : mset) : Prop :=
  forall f, enabled (q_name q) f s -> exists l, q_want q = Names l /\ In f l.

(** the events that change neither modules nor the registry *)
Definition plain (e : event) : Prop :=
  match e with EConnect _ | EDisconnect _ | EUse _ => True | _ => False end.

(** the events that change installed modules other than by installing *)
Definition modifies (c : nat) (e : event) : Prop :=
  match e with
  | ERemove c' _ | EUpdate c' _ _ | EFeature c' _ _ _ => c' = c
  | _ => False
  end.

(** Orderly histories of a repository: installations are not interleaved with
    other changes, they list the enabled features, and it is started anew only
    if the registry was last written by an installation or a change of replay
    support.  [reach s0 b st]: [st] is reached from the modules [s0], [b] says
    that it may be started anew. *)
Inductive reach (s0 : mset) : bool -> state -> Prop :=
  | reach_start : reach s0 true (start s0)
  | reach_plain b st e : reach s0 b st -> plain e -> reach s0 b (step st e)
  | reach_modify b st c e : reach s0 b st -> connected c st -> modifies c e ->
      reach s0 false (step st e)
  | reach_replay b st c : reach s0 b st -> connected c st -> reach s0 true (step st (EReplay c))
  | reach_install b st c qs : reach s0 b st -> connected c st ->
      NoDup (map q_name qs) -> (forall q, In q qs -> lists_enabled q (s_lyd st)) ->
      reach s0 b (step (step st (EBegin c)) (EInstall c qs))
  | reach_installed b st c qs : reach s0 b st -> connected c st ->
      NoDup (map q_name qs) -> (forall q, In q qs -> lists_enabled q (s_lyd st)) ->
      s_lyd (step (step st (EBegin c)) (EInstall c qs)) <> s_lyd st ->
      reach s0 true (step (step st (EBegin c)) (EInstall c qs))
  | reach_restart st : reach s0 true st -> reach s0 true (step st ERestart).
