(** C32: everything needed for validation is loaded. *)
From Coq Require Import List Bool Arith.
From Verif Require Import Deps DepsSpec DepsProofs.
Import ListNotations.

(** Every changed module and every module depending on a module of the edit is validated, with all
    its data and with the data its leafrefs, instance-identifiers, musts and whens refer to.
    For every (also cyclic) graph of dependencies, every list of modules of the edit (with
    duplicates, too) and every set of really changed modules. *)
Theorem C32_validated_with_data : forall inv deps req chg i, to_validate inv req chg i ->
  let mi := collect inv deps req chg in
  (exists m, In m mi /\ d_id m = i /\ validated m = true) /\ loaded mi i /\
  (forall t x, In (t, x) (deps i) -> loaded_path mi t x).
Proof. intros inv deps req chg i H. exact (proj1 (proj2 (collected inv deps req chg)) i H). Qed.
Print Assumptions C32_validated_with_data.

(** Nothing else is validated. *)
Theorem C32_nothing_else : forall inv deps req chg m, In m (collect inv deps req chg) -> validated m = true ->
  chg (d_id m) = true \/ exists r, In r req /\ In (d_id m) (inv r).
Proof. intros inv deps req chg m. exact (proj2 (proj2 (collected inv deps req chg)) m). Qed.
Print Assumptions C32_nothing_else.

(** No module is there twice, so it is locked and loaded once. *)
Theorem C32_once : forall inv deps req chg, NoDup (map d_id (collect inv deps req chg)).
Proof. intros inv deps req chg. exact (proj1 (collected inv deps req chg)). Qed.
Print Assumptions C32_once.

(** Modules 0 and 1 refer to each other, 2 refers to 3 and 0, the edit is of 0 (twice) and 4; only 0 is changed. *)
Definition ex_inv (i : nat) : list nat := match i with 0 => [1; 2] | 1 => [0] | 3 => [2] | _ => [] end.
Definition ex_deps (i : nat) : list (nat * nat) := match i with 0 => [(1, 10)] | 1 => [(0, 20); (0, 21)] | 2 => [(3, 30); (0, 20); (3, 31)] | _ => [] end.
Example C32_nonvacuous :
  to_validate ex_inv [0; 4; 0] (Nat.eqb 0) 0 /\ to_validate ex_inv [0; 4; 0] (Nat.eqb 0) 2 /\
  map (fun m => (d_id m, d_all m, d_paths m, validated m)) (collect ex_inv ex_deps [0; 4; 0] (Nat.eqb 0)) =
    [(0, true, [], true); (4, true, [], false); (1, true, [], true); (2, true, [], true); (3, false, [30; 31], false)].
Proof.
  split; [left; split; [left; reflexivity|reflexivity]|]. split; [right; exists 0; split; [left; reflexivity|right; left; reflexivity]|]. vm_compute. reflexivity.
Qed.
