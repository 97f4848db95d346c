(** What XPaths select, independently of how they are parsed. *)
From Coq Require Import String Ascii List Bool.
From Verif Require Import OperReq.
Import ListNotations.

(** [n='v'] with either quote; [p or q]. *)
Inductive pred := PEq (n : str) (q : ascii) (v : str) | POr (a b : pred).
(** A node with an optional module, any node, "..", ".", any descendants or self ("//."). *)
Inductive step := SName (m : option str) (n : str) (ps : list pred) | SAny (m : option str) (ps : list pred) | SUp | SSelf | SDesc.
(** Absolute or relative to the root. *)
Record path := mkpath { p_abs : bool; p_steps : list step }.

(** ** The text *)
Fixpoint pred_txt (p : pred) : str :=
  match p with
  | PEq n q v => n ++ s_ "=" ++ [q] ++ v ++ [q]
  | POr a b => pred_txt a ++ s_ " or " ++ pred_txt b
  end.
Definition preds_txt (ps : list pred) : str := flat_map (fun p => s_ "[" ++ pred_txt p ++ s_ "]") ps.
Definition mod_txt (m : option str) : str := match m with Some m => m ++ s_ ":" | None => [] end.
Definition step_txt (s : step) : str :=
  match s with
  | SName m n ps => mod_txt m ++ n ++ preds_txt ps
  | SAny m ps => mod_txt m ++ s_ "*" ++ preds_txt ps
  | SUp => s_ ".."
  | SSelf => s_ "."
  | SDesc => s_ "/."
  end.
Definition steps_txt (l : list step) : str := flat_map (fun s => s_ "/" ++ step_txt s) l.
Definition path_txt (p : path) : str := if p_abs p then steps_txt (p_steps p) else tl (steps_txt (p_steps p)).
Fixpoint union_txt (l : list path) : str :=
  match l with [] => [] | [p] => path_txt p | p :: t => path_txt p ++ s_ " | " ++ union_txt t end.

(** Proper names and literals. *)
Definition ident (n : str) : Prop := match n with c :: t => is_alpha c = true \/ c = "_"%char | [] => False end /\ Forall (fun c => is_id c = true) n.
Fixpoint good_pred (p : pred) : Prop :=
  match p with PEq n q v => ident n /\ is_quote q = true /\ ~ In q v | POr a b => good_pred a /\ good_pred b end.
Definition good_step (s : step) : Prop :=
  match s with
  | SName m n ps => (match m with Some m => ident m | None => True end) /\ ident n /\ Forall good_pred ps
  | SAny m ps => (match m with Some m => ident m | None => True end) /\ Forall good_pred ps
  | _ => True
  end.
Definition good_path (p : path) : Prop := p_steps p <> [] /\ Forall good_step (p_steps p).

(** ** The meaning: in a set of nodes, each given with all its parents. A name without a module may be of
    any module (of the parent's in fact, which selects no more). *)
Record elem := mkelem { e_mod : str; e_name : str; e_val : str -> option str }.
Fixpoint holds (e : elem) (p : pred) : Prop :=
  match p with PEq n _ v => e_val e n = Some v | POr a b => holds e a \/ holds e b end.
Definition in_mod (m : option str) (e : elem) : Prop := match m with Some m => e_mod e = m | None => True end.
Fixpoint sel (T : list elem -> Prop) (l : list step) (ctx res : list elem) : Prop :=
  match l with
  | [] => res = ctx
  | SName m n ps :: r => exists e, T (ctx ++ [e]) /\ in_mod m e /\ e_name e = n /\ Forall (holds e) ps /\ sel T r (ctx ++ [e]) res
  | SAny m ps :: r => exists e, T (ctx ++ [e]) /\ in_mod m e /\ Forall (holds e) ps /\ sel T r (ctx ++ [e]) res
  | SUp :: r => ctx <> [] /\ sel T r (removelast ctx) res
  | SSelf :: r => sel T r ctx res
  | SDesc :: r => exists d, T (ctx ++ d) /\ sel T r (ctx ++ d) res
  end.
Definition selects (T : list elem -> Prop) (p : path) (n : list elem) : Prop := sel T (p_steps p) [] n.
Definition below (a b : list elem) : Prop := exists t, b = a ++ t.
(** Some data can be both in what is read (a selected node with its parents and descendants) and in what
    is provided. *)
Definition overlap (req sub : path) : Prop :=
  exists T a b, selects T req a /\ selects T sub b /\ (below a b \/ below b a).
Definition overlaps (req sub : list path) : Prop := exists r s, In r req /\ In s sub /\ overlap r s.

(** The nodes whose values decide what is selected. *)
Definition bare (s : step) : step := match s with SName m n _ => SName m n [] | SAny m _ => SAny m [] | _ => s end.
Fixpoint pred_names (p : pred) : list str := match p with PEq n _ _ => [n] | POr a b => pred_names a ++ pred_names b end.
Definition step_preds (s : step) : list pred := match s with SName _ _ ps | SAny _ ps => ps | _ => [] end.
Fixpoint deciding (pre : list step) (l : list step) : list (list step) :=
  match l with
  | [] => []
  | s :: r => map (fun n => pre ++ [bare s; SName None n []]) (flat_map pred_names (step_preds s)) ++ deciding (pre ++ [bare s]) r
  end.

(** What a read needs from a subscriber: data that can be read, or that decide about them. *)
Definition needs (req sub : list path) : Prop :=
  overlaps req sub \/ exists r d, In r req /\ In d (deciding [] (p_steps r)) /\ overlaps [mkpath true d] sub.

(** ** Simple paths: absolute, nodes with predicates [n='v'], at most ended by "//." *)
Definition simple_pred (p : pred) : Prop := match p with PEq _ _ _ => True | _ => False end.
Fixpoint simple_steps (l : list step) : Prop :=
  match l with
  | [] => True
  | [SDesc] => True
  | (SName _ _ ps | SAny _ ps) :: r => Forall simple_pred ps /\ simple_steps r
  | _ => False
  end.
Definition simple (p : path) : Prop := p_abs p = true /\ simple_steps (p_steps p).
(** No predicates. *)
Definition plain (p : path) : Prop := Forall (fun s => step_preds s = []) (p_steps p).
(** Names of nodes in predicates that are well told apart: their second characters are letters and they
    differ also without their first characters. *)
Definition second_letter (n : str) : Prop := match n with _ :: c :: _ => is_alpha c = true | _ => False end.
Definition apart (a b : str) : Prop := a = b \/ (second_letter a /\ second_letter b /\ tl a <> tl b).
Definition names_of (p : path) : list str := flat_map pred_names (flat_map step_preds (p_steps p)).
Definition all_apart (req sub : path) : Prop := forall a b, In a (names_of req) -> In b (names_of sub) -> apart a b.

Definition simple_union (l : list path) : Prop := l <> [] /\ Forall good_path l /\ Forall simple l.
Definition node_step (s : step) : Prop := match s with SName _ _ _ | SAny _ _ => True | _ => False end.
(** The path given as a string, for showing that the paths below are the intended ones. *)
Definition reads (l : list path) (s : string) : Prop := union_txt l = s_ s.
