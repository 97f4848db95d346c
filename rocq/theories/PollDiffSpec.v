(** What C67 says. *)
From Coq Require Import List Bool Arith.
From Verif Require Import PollDiff.
Import ListNotations.

(** The configuration: the interval for each module and path. *)
Definition conf := key -> option nat.
Definition at_ (c : change) : key := match c with Created k _ | Deleted k _ | Modified k _ _ => k end.
Definition before (c : change) : option nat := match c with Created _ _ => None | Deleted _ v => Some v | Modified _ o _ => Some o end.
Definition after (c : change) : option nat := match c with Created _ v => Some v | Deleted _ _ => None | Modified _ _ n => Some n end.

(** The changes between two configurations: each place once, and nothing else differs. *)
Record between (a b : conf) (cs : list change) : Prop := {
  b_once : NoDup (map at_ cs);
  b_old : forall c, In c cs -> a (at_ c) = before c;
  b_new : forall c, In c cs -> b (at_ c) = after c;
  b_rest : forall k, ~ In k (map at_ cs) -> b k = a k }.

(** Exactly the configured subscriptions, each once. *)
Definition exactly (l : subs) (c : conf) : Prop := NoDup (map fst l) /\ forall k v, In (k, v) l <-> c k = Some v.
Definition none : conf := fun _ => None.
Definition works (f : key -> bool) : Prop := forall k, f k = false.

(** Any life of the plugin: the configuration changes when the change is accepted, also while the plugin does not run. *)
Inductive life : conf -> bool -> state -> Prop :=
| l_new : forall a, life a false (Off [])
| l_conf : forall a b s, life a false s -> life b false s
| l_init : forall a cs f s, life a false s -> between none a cs -> works f -> life a true (fst (step (Init cs f) s))
| l_change : forall a b cs f s g, life a true s -> between a b cs -> works f -> works g ->
    life b true (fst (step (Change cs f false g) s))
| l_refused : forall a b cs f s g, life a true s -> between a b cs -> works f -> works g ->
    life a true (fst (step (Change cs f true g) s))
| l_end : forall a s, life a true s -> life a false (fst (step Cleanup s)).
