(** What C66 says. *)
From Coq Require Import List Bool Arith Permutation.
From Verif Require Import PluginD.
Import ListNotations.

(** A name without the extension after its last dot. *)
Definition base (s b : name) : Prop := (exists x, s = b ++ dot :: x /\ ~ In dot x) \/ (~ In dot s /\ b = s).

(** A plugin is meant by the k-th of the configured names. *)
Definition listed (vs : list name) (p : plugin) (k : nat) : Prop := exists v, nth_error vs k = Some v /\ base v (p_name p).

(** Plugins in the configured order, those that are not listed at the end. *)
Definition in_order (vs : list name) (l : list plugin) : Prop :=
  forall a p b q c, l = a ++ p :: b ++ q :: c -> forall k, listed vs q k -> exists k', k' <= k /\ listed vs p k'.

(** All plugins there are: the internal ones and all files. *)
Inductive found : list file -> list plugin -> Prop :=
| f_nil : found [] []
| f_cons : forall n b id ok fs ps, base n b -> b <> [] -> found fs ps -> found (FGood n id ok :: fs) (mkplugin b id ok :: ps).

Definition init_of (p : plugin) : event := EInit (p_id p) (p_ok p).
Definition is_clean (e : event) : Prop := exists id, e = EClean id.
Definition started (es : list event) : list nat := flat_map (fun e => match e with EInit id true => [id] | _ => [] end) es.

(** What an execution looks like: first the calls of init callbacks in the order, then publishing and
    getting ready, last the cleanup of what was initialized. *)
Definition stops (fatal : bool) (l rest : list plugin) : Prop :=
  (rest = [] /\ (fatal = true -> Forall (fun p => p_ok p = true) l)) \/
  (fatal = true /\ exists l' p, l = l' ++ [p] /\ p_ok p = false /\ Forall (fun p => p_ok p = true) l').
