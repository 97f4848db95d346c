(** * Specification: a change of the set of modules happens completely or not
    at all *)

From Coq Require Import List Arith Bool.
Import ListNotations.
From Verif Require Import Install.

(** Nothing that anybody could observe differs. *)
Definition same_world (a b : world) : Prop :=
  w_lyd a = w_lyd b /\ w_shm a = w_shm b /\
  (forall m d, w_inst a m d = w_inst b m d) /\
  (forall m, w_yang a m = w_yang b m) /\
  (forall m d, w_dat a m d = w_dat b m d) /\
  (forall m, w_push a m = w_push b m) /\
  w_cid a = w_cid b /\ w_ctx a = w_ctx b.

(** The same, except for operational data pushed for some modules. *)
Definition same_but_push (del : list md) (a b : world) : Prop :=
  w_lyd a = w_lyd b /\ w_shm a = w_shm b /\
  (forall m d, w_inst a m d = w_inst b m d) /\
  (forall m, w_yang a m = w_yang b m) /\
  (forall m d, w_dat a m d = w_dat b m d) /\
  (forall m, ~ In m (map fst del) -> w_push a m = w_push b m) /\
  w_cid a = w_cid b /\ w_ctx a = w_ctx b.

Section Spec.
Variable deps : list md -> md -> list nat.
Variable en : nat -> ds -> bool.

(** Exactly the modules [ms] are installed: both registries list them with
    their dependencies, exactly they have YANG files, exactly they are known
    to the plugins of their datastores, nothing else has data. *)
Definition installed (ms : list md) (w : world) : Prop :=
  w_lyd w = map (fun m => (m, deps ms m)) ms /\
  w_shm w = map (fun m => (m, deps ms m)) ms /\
  w_ctx w = ms /\ w_cid w = ms /\
  (forall m d, w_inst w m d = true <-> (In m (map fst ms) /\ en m d = true)) /\
  (forall m, w_yang w m = true <-> In m ms) /\
  (forall m d, w_dat w m d <> None -> w_inst w m d = true) /\
  (forall m, w_push w m = true -> In m (map fst ms)).

(** sysrepo can be started again: every module of the registry file has its
    YANG file and its data. *)
Definition startable (w : world) : Prop :=
  forall m ts, In (m, ts) (w_lyd w) ->
    w_yang w m = true /\ (forall d, en (fst m) d = true -> w_inst w (fst m) d = true).

(** A set of modules in which all dependencies can be resolved. *)
Definition closed (ms : list md) : Prop :=
  NoDup (map fst ms) /\
  forall m t, In m ms -> In t (deps ms m) -> In t (map fst ms).

End Spec.

(** At most one call fails, none kills the process. *)
Definition one_failure (o : nat -> outcome) : Prop :=
  (forall i, o i <> Dies) /\
  (forall i j, o i = Fails -> o j = Fails -> i = j).

Definition no_failure (o : nat -> outcome) : Prop := forall i, o i = Good.
