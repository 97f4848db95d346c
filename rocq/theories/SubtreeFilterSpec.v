(** What a subtree filter selects (RFC 6241, section 6) and what an XPath
    selects, both as sets of positions in data. Only the types of filters and
    paths are shared with the model. *)

From Coq Require Import String Ascii List NArith Bool.
Import ListNotations.
From Verif Require Import SubtreeFilter.

(** Data: module and name, value of leaves, children. *)
Inductive data := D (d_mod d_nm : N) (d_val : option N) (d_ch : list data).
Definition d_mod (t : data) := let (m, _, _, _) := t in m.
Definition d_nm (t : data) := let (_, n, _, _) := t in n.
Definition d_val (t : data) := let (_, _, v, _) := t in v.
Definition d_ch (t : data) := let (_, _, _, ch) := t in ch.

(** A position: indices from the top level down. *)
Definition pos := list nat.

Inductive exists_at : list data -> pos -> Prop :=
| ex_here l i t : nth_error l i = Some t -> exists_at l [i]
| ex_in l i t p : nth_error l i = Some t -> exists_at (d_ch t) p -> exists_at l (i :: p).

(** ** RFC 6241, section 6.2 *)

(** 6.2.1, 6.2.2: the namespace and the name agree. *)
Definition names (f : filt) (t : data) : Prop := f_ns f = Some (d_mod t) /\ f_nm f = d_nm t.

(** 6.2.5: a content match node is a leaf with content, 6.2.4: a selection node
    is empty, 6.2.3: a containment node has children. *)
Definition is_content (f : filt) : Prop := f_val f <> None.
Definition is_selection (f : filt) : Prop := f_val f = None /\ f_ch f = [].
Definition is_containment (f : filt) : Prop := f_val f = None /\ f_ch f <> [].

(** 6.2.5: all content match nodes of a sibling set are to be met. *)
Definition met (fs : list filt) (l : list data) : Prop :=
  forall f, In f fs -> is_content f -> exists t, In t l /\ names f t /\ d_val t = f_val f.

(** 6.2.5, 6.4: which positions in sibling data [l] are in the output of a set of sibling
    filter nodes [fs]. *)
Inductive rfc : list filt -> list data -> pos -> Prop :=
(* only content match nodes: all siblings *)
| rfc_all fs l p :
    fs <> [] -> Forall is_content fs -> met fs l -> exists_at l p -> rfc fs l p
(* each content match node is in the output *)
| rfc_content fs l f i t :
    met fs l -> In f fs -> is_content f ->
    nth_error l i = Some t -> names f t -> d_val t = f_val f -> rfc fs l [i]
(* selection nodes: the whole subtree *)
| rfc_selection fs l f i t p :
    met fs l -> In f fs -> is_selection f ->
    nth_error l i = Some t -> names f t -> exists_at l (i :: p) -> rfc fs l (i :: p)
(* containment nodes: what is selected inside, with the node itself *)
| rfc_inside fs l f i t p :
    met fs l -> In f fs -> is_containment f ->
    nth_error l i = Some t -> names f t -> rfc (f_ch f) (d_ch t) p -> rfc fs l (i :: p)
| rfc_node fs l f i t p :
    met fs l -> In f fs -> is_containment f ->
    nth_error l i = Some t -> names f t -> rfc (f_ch f) (d_ch t) p -> rfc fs l [i].

(** ** XPath *)

(** A name without a prefix is of the module of the context node. *)
Definition in_mod (cur : option N) (p : option N) : option N :=
  match p with Some m => Some m | None => cur end.

Definition holds (t : data) (q : pred) : Prop :=
  match q with
  | PChild p nm v =>
      exists u, In u (d_ch t) /\ Some (d_mod u) = in_mod (Some (d_mod t)) p /\ d_nm u = nm /\ d_val u = Some v
  | PText v => d_val t = Some v
  end.

Definition step_ok (cur : option N) (s : step) (t : data) : Prop :=
  Some (d_mod t) = in_mod cur (s_mod s) /\ d_nm t = s_nm s /\ Forall (holds t) (s_preds s).

(** Nodes a path selects. *)
Fixpoint selects (cur : option N) (p : path) (l : list data) (q : pos) : Prop :=
  match p, q with
  | s :: p', i :: q' =>
      exists t, nth_error l i = Some t /\ step_ok cur s t /\
                match p' with
                | [] => q' = []
                | _ => selects (Some (d_mod t)) p' (d_ch t) q'
                end
  | _, _ => False
  end.

(** What sr_get_data() returns: the subtrees of selected nodes and their parents. *)
Definition prefix (a b : pos) : Prop := exists r, b = a ++ r.

Definition output (ps : list path) (l : list data) (q : pos) : Prop :=
  exists_at l q /\
  exists p s, In p ps /\ selects None p l s /\ (prefix s q \/ prefix q s).

(** ** Well-formed filters and data *)

(** Only leaves have content, and namespaces are of implemented modules. *)
Inductive wf_filt (c : ctx) : filt -> Prop :=
| wf_F m nm v ch :
    known c m = true -> (v <> None -> ch = []) -> Forall (wf_filt c) ch -> wf_filt c (F (Some m) nm v ch).

(** Leaves have no children and (no leaf-lists) there is one of a name. *)
Definition leaves (l : list data) : Prop :=
  forall i j t u, nth_error l i = Some t -> nth_error l j = Some u ->
    d_mod t = d_mod u -> d_nm t = d_nm u -> d_val t <> None -> i = j.

Inductive wf_data : list data -> Prop :=
| wf_D l :
    leaves l -> (forall t, In t l -> d_val t <> None -> d_ch t = []) ->
    (forall t, In t l -> wf_data (d_ch t)) -> wf_data l.

(** ** Literals (XPath 1.0, production 29) *)

Fixpoint until (q : ascii) (s : string) : option (string * string) :=
  match s with
  | EmptyString => None
  | String a r =>
      if Ascii.eqb a q then Some (EmptyString, r)
      else match until q r with Some (v, rest) => Some (String a v, rest) | None => None end
  end.

(** The value of the literal at the beginning and what follows it. *)
Definition read_literal (s : string) : option (string * string) :=
  match s with
  | String a r => if Ascii.eqb a "'"%char || Ascii.eqb a """"%char then until a r else None
  | EmptyString => None
  end.
