(** What operational data consist of. *)
From Coq Require Import String Ascii List Bool Arith.
From Verif Require Import OperReq OperReqSpec OperData.
Import ListNotations.

(** The nodes of a subscription: those selected by its XPath and all below. *)
Definition covers (s : sub) (p : ipath) : Prop := exists a b, p = a ++ b /\ sel_at (s_steps s) a = true.
(** The parent of the selected node that [p] is or is below. *)
Definition parent_of (s : sub) (p : ipath) : ipath := firstn (Nat.pred (length (s_steps s))) p.
(** What the subscribers answer, the last one decides. *)
Definition active (h : handler) : bool := h_alive h && negb (h_susp h).
Fixpoint answer (hs : list handler) (parent p : ipath) : option str :=
  match hs with
  | [] => None
  | h :: t =>
      match answer t parent p with
      | Some v => Some v
      | None => if active h then match h_call h parent with Some d => get d p | None => None end else None
      end
  end.
(** Callbacks return each node once, and only nodes they are subscribed to, below the parent they were given. *)
Definition within (s : sub) : Prop :=
  s_steps s <> [] /\ Forall node_step (s_steps s) /\
  forall h par d, In h (s_hs s) -> h_call h par = Some d -> NoDup (map fst d) /\ forall p, In p (map fst d) -> covers s p /\ parent_of s p = par.
(** Subscriptions for parents of what others provide come before them. *)
Fixpoint parents_first (l : list sub) : Prop :=
  match l with
  | [] => True
  | s :: t => (forall x p, In x t -> sel_at (removelast (s_steps s)) p = true -> ~ covers x p) /\ parents_first t
  end.

(** One layer over [cur], in the final data [R]: if the parent exists, what is answered; if nothing is, data
    of others stay only if they are to be merged. *)
Definition layer (R : ipath -> option str) (s : sub) (p : ipath) (cur v : option str) : Prop :=
  (~ covers s p -> v = cur) /\
  (covers s p -> exists w, v = match w with Some x => Some x | None => if s_merge s then cur else None end /\
     (parent_of s p = [] \/ R (parent_of s p) <> None -> w = answer (s_hs s) (parent_of s p) p) /\
     (parent_of s p <> [] -> R (parent_of s p) = None -> w = None)).
Fixpoint layers (R : ipath -> option str) (l : list sub) (p : ipath) (cur v : option str) : Prop :=
  match l with
  | [] => v = cur
  | s :: t => exists x, layer R s p cur x /\ layers R t p x v
  end.

(** *** Which subscriptions can be there together *)
(** Steps that no node fits both, at the same depth. *)
Definition diverge (a b : sub) : Prop :=
  exists l u x l' v y, s_steps a = l ++ u :: x /\ s_steps b = l' ++ v :: y /\ length l = length l' /\ forall i, ~ (smatch u i = true /\ smatch v i = true).
(** One is written as an extension of the other, or they are about different nodes. *)
Definition related (a b : sub) : Prop :=
  (exists r, s_steps b = s_steps a ++ r) \/ (exists r, s_steps a = s_steps b ++ r) \/ diverge a b.
(** The table after any subscribing and unsubscribing. *)
Inductive table : list sub -> Prop :=
| T_empty : table []
| T_add : forall l s, table l -> table (insert s l)
| T_del : forall l f, table l -> table (filter f l).
Definition good_sub (s : sub) : Prop := within s /\ Forall good_step (s_steps s).

(** ** A part of the data *)
(** Nodes as those of C40. *)
Definition elem_of (i : inst) : elem := mkelem (i_mod i) (i_name i) (key i).
Definition below_i (a b : ipath) : Prop := exists t, b = a ++ t.
(** [p] is read by an XPath: it is a selected node, its parent or is below it. *)
Definition wanted (r : path) (p : ipath) : Prop := exists T n, selects T r (map elem_of n) /\ (below_i p n \/ below_i n p).
(** Proper names and values that can be written in an XPath. *)
Definition good_inst (i : inst) : Prop :=
  ident (i_mod i) /\ ident (i_name i) /\ NoDup (map fst (i_keys i)) /\
  Forall (fun k => ident (fst k) /\ (~ In "'"%char (snd k) \/ ~ In """"%char (snd k))) (i_keys i).
(** Names of leaves in predicates of [r] and the keys of [p] are told apart. *)
Definition keys_apart (r : path) (p : ipath) : Prop := forall a b, In a (names_of r) -> In b (flat_map (fun i => map fst (i_keys i)) p) -> apart a b.
