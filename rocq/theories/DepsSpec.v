(** Specification of what has to be loaded for validation. *)
From Coq Require Import List Bool.
From Verif Require Import Deps.
Import ListNotations.

(** All data of the module are loaded. *)
Definition loaded (mi : list dmod) (i : nat) : Prop := exists m, In m mi /\ d_id m = i /\ d_all m = true.

(** The data of the module selected by the path are loaded. *)
Definition loaded_path (mi : list dmod) (i x : nat) : Prop :=
  exists m, In m mi /\ d_id m = i /\ (d_all m = true \/ In x (d_paths m)).

(** Modules which have to be validated: the changed ones and those depending on modules of the edit. *)
Definition to_validate (inv : nat -> list nat) (req : list nat) (chg : nat -> bool) (i : nat) : Prop :=
  (In i req /\ chg i = true) \/ (exists r, In r req /\ In i (inv r)).
