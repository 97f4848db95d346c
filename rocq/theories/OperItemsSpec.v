(** What C65 says: the session's operational data as a function from paths, and discarded XPaths. *)
From Coq Require Import List Bool Arith Permutation.
From Verif Require Import OperItems.
Import ListNotations.

Record view := mkview { v_val : path -> option nat; v_disc : list nat }.

Definition same (a b : view) : Prop := (forall p, v_val a p = v_val b p) /\ Permutation (v_disc a) (v_disc b).
Definition above (q p : path) : Prop := q <> [] /\ exists r, r <> [] /\ p = q ++ r.

(** What a call makes of the data the user sees. *)
Inductive makes : call -> view -> view -> ret -> Prop :=
| m_set : forall p v f a b, v_val b p = Some v ->
    (forall q, above q p -> v_val b q = match v_val a q with Some w => Some w | None => Some 0 end) ->
    (forall q, q <> p -> ~ above q p -> v_val b q = v_val a q) ->
    Permutation (v_disc b) (v_disc a) -> makes (CSet p v f) a b ROkay
| m_delete : forall p st f a b, v_val a p <> None -> (forall r, v_val b (p ++ r) = None) ->
    (forall q, ~ (exists r, q = p ++ r) -> v_val b q = v_val a q) ->
    Permutation (v_disc b) (v_disc a) -> makes (CDelete p st f) a b ROkay
| m_absent : forall p st f a b, v_val a p = None -> same b a -> makes (CDelete p st f) a b (if st then RNotFound else ROkay)
| m_discard : forall x f a b, (forall q, v_val b q = v_val a q) -> Permutation (v_disc b) (x :: v_disc a) -> makes (CDiscardItems x f) a b ROkay.

(** All calls: stored data, and the data as they would be after the changes are applied. *)
Inductive goes : call -> view * view -> view * view -> ret -> Prop :=
| g_make : forall c s a b r, makes c a b r -> goes c (s, a) (s, b) r
| g_batch : forall ns disc s a b, (forall p w, v_val b p = Some w <-> In (p, w) ns) -> v_disc b = disc -> goes (CBatch ns disc OReplace) (s, a) (s, b) ROkay
| g_drop : forall s a b, same b s -> goes CDiscardChanges (s, a) (s, b) ROkay
| g_apply : forall s a s' b, same s' a -> same b a -> goes (CApply false) (s, a) (s', b) ROkay
| g_refused : forall s a r, r = RFailed \/ (r = ROkay /\ same a s) -> goes (CApply true) (s, a) (s, a) r.

(** What a session has stored, and what it would have after applying what is pending. *)
Definition vs (d : sdata) : view := mkview (fun p => find_node p (d_nodes d)) (d_disc d).
Definition ve (e : pend) : view := mkview (fun p => find_node p (p_nodes e)) (map fst (p_disc e)).
Definition vp (s : sess) : view := match s_pend s with Some e => ve e | None => vs (s_stored s) end.

Section Safe.
Variable mod_of : nat -> nat.
Variable refs sel : nat -> nat -> bool.
Variable mods : list nat.
Definition okx (x : nat) : Prop := (exists m, In m mods /\ sel x m = true) /\ (forall m, sel x m = true -> refs x m = true).
(** What has to be observed: nothing fails, something is left after deleting, XPaths of discarded items
    name the modules they select, and of a module with data or such XPaths something is left when changes are
    applied.  Batches are trees with the operation replace, and nothing is pending before. *)
Definition topped (l : nodes) : Prop := forall p, find_node p l <> None -> p <> [] /\ forall q, above q p -> find_node q l <> None.
Definition remains (m : nat) (v : view) : Prop :=
  (exists u q, mod_of u = m /\ v_val v (u :: q) <> None) \/ exists x, In x (v_disc v) /\ refs x m = true.
Definition safe (c : call) (s : sess) : Prop :=
  match c with
  | CSet p _ f => p <> [] /\ f = false
  | CDelete p _ f => f = false /\ (v_val (vp s) p <> None -> (exists q, v_val (vp s) q <> None /\ is_prefix p q = false) \/ v_disc (vp s) <> [])
  | CDiscardItems x f => f = false /\ okx x
  | CBatch ns disc o => s_pend s = None /\ o = OReplace /\ topped ns /\ NoDup (map fst ns) /\ Forall okx disc /\ (ns <> [] \/ disc <> [])
  | CDiscardChanges => True
  | CApply _ => (forall t r, v_val (vs (s_stored s)) (t :: r) <> None -> remains (mod_of t) (vp s)) /\
      forall x m, In x (v_disc (vs (s_stored s))) -> sel x m = true -> remains m (vp s)
  end.
Fixpoint safe_run (cs : list call) (s : sess) : Prop :=
  match cs with
  | [] => True
  | c :: t => safe c s /\ safe_run t (fst (do_call mod_of refs sel mods c s))
  end.
End Safe.

(** One call after another. *)
Inductive history : list call -> view * view -> view * view -> list ret -> Prop :=
| h_nil : forall a, history [] a a []
| h_cons : forall c cs a b d r rs, goes c a b r -> history cs b d rs -> history (c :: cs) a d (r :: rs).
Definition empty : view := mkview (fun _ => None) [].
