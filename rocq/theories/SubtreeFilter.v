(** Conversion of subtree filters into XPath (srsn_filter_subtree2xpath()).

    Models src/utils/sn_common.c 69-651 and
    src/utils/subscribed_notifications.c 37-60.

    Simplifications: the XPath is kept as its abstract syntax, a union of
    absolute paths, each a list of steps with predicates (that the literals
    are printed so that they are read back as such is a separate question,
    [literal] below); names, modules and values are numbers; attributes are
    not modelled (114-145); values of identities are taken as written
    (284-320); allocation does not fail. A value with white space only is no
    value (lines 457, 493 and 517 always test both), so [f_val] is [None] then. *)

From Coq Require Import String Ascii List NArith Bool.
Import ListNotations.

(** A node of a filter: [f_ns] is the namespace ([None]: none), [f_val] the
    content of a leaf. *)
Inductive filt := F (f_ns : option N) (f_nm : N) (f_val : option N) (f_ch : list filt).

Definition f_ns (f : filt) := let (ns, _, _, _) := f in ns.
Definition f_nm (f : filt) := let (_, nm, _, _) := f in nm.
Definition f_val (f : filt) := let (_, _, v, _) := f in v.
Definition f_ch (f : filt) := let (_, _, _, ch) := f in ch.

(** A top-level node: with a schema node, or opaque with or without a prefix
    (struct lyd_node_opaq, name.prefix). An XML element in a default namespace
    has a namespace and no prefix. *)
Inductive kind := Schema | OpaqPrefix | OpaqPlain.

(** Implemented modules with the names of their top-level nodes
    (ly_ctx_get_module_iter(), lys_getnext(), lines 544-550). *)
Definition ctx := list (N * list N).

Definition known (c : ctx) (m : N) : bool := existsb (fun x => N.eqb (fst x) m) c.

(** Predicates [mod:name='value'] (line 351, 377) and [text()='value'] (171). *)
Inductive pred := PChild (p : option N) (nm v : N) | PText (v : N).

(** A step "/mod:name" with predicates; the module may be left out (415). *)
Record step := Step { s_mod : option N; s_nm : N; s_preds : list pred }.
Definition path := list step.

Definition ns_eqb (a b : option N) : bool :=
  match a, b with
  | Some x, Some y => N.eqb x y
  | None, None => true
  | _, _ => false
  end.

(** The module looked up (lines 251-272). *)
Definition ns_mod (c : ctx) (ns : option N) : option N :=
  match ns with
  | Some m => if known c m then Some m else None
  | None => None
  end.

(** srsn_filter_xpath_print_node_module(), nested nodes, lines 214-272: the
    module is left out if it is the one of the parent. *)
Definition print_mod (c : ctx) (parent ns : option N) : option N :=
  if ns_eqb ns parent then None else ns_mod c ns.

(** The same, top-level nodes, lines 207-213, 251-272. *)
Definition print_top_mod (c : ctx) (top_mod ns : option N) : option N :=
  match top_mod with Some m => Some m | None => ns_mod c ns end.

Definition has_val (f : filt) : bool := match f_val f with Some _ => true | None => false end.
Definition has_ch (f : filt) : bool := match f_ch f with nil => false | _ => true end.

(** Predicates of the content match children, srsn_filter_xpath_buf_append_content()
    called for all of them, lines 456-466. *)
Definition content (c : ctx) (ns : option N) (ch : list filt) : list pred :=
  flat_map (fun f => match f_val f with
                     | Some v => [PChild (print_mod c ns (f_ns f)) (f_nm f) v]
                     | None => []
                     end) ch.

(** srsn_filter_xpath_buf_add_r(), lines 437-501. [pre] is the buffer so far
    (given by value: [size] is restored after each child), [m] the module
    to be printed for the node. *)
Fixpoint add_r (c : ctx) (pre : path) (m : option N) (f : filt) : list path :=
  let (ns, nm, _, ch) := f in
  match ch with
  | nil => [pre ++ [Step m nm []]]
  | _ =>
      let here := pre ++ [Step m nm (content c ns ch)] in
      if forallb has_val ch then [here]
      else flat_map (fun x =>
             if has_ch x then add_r c here (print_mod c ns (f_ns x)) x
             else [here ++ [Step (print_mod c ns (f_ns x)) (f_nm x) []]]) ch
  end.

Inductive result := Paths (ps : list path) | Fail | Crash.

(** srsn_filter_xpath_create_top(), lines 512-527, with
    srsn_filter_xpath_buf_add_top_content(), 156-184. Line 164 reads the schema
    node of a node which may be opaque. *)
Definition create_top (c : ctx) (top_mod : option N) (k : kind) (f : filt) : result :=
  match f_val f with
  | Some v =>
      match top_mod, k with
      | Some m, _ => Paths [[Step (Some m) (f_nm f) [PText v]]]
      | None, Schema => Paths [[Step (f_ns f) (f_nm f) [PText v]]]
      | None, _ => Crash
      end
  | None => Paths (add_r c [] (print_top_mod c top_mod (f_ns f)) f)
  end.

Definition cat (a b : result) : result :=
  match a with
  | Crash => Crash
  | Fail => Fail
  | Paths p => match b with Paths q => Paths (p ++ q) | r => r end
  end.

(** The loop over modules, lines 544-559. *)
Fixpoint all_mods (c mods : ctx) (k : kind) (f : filt) : result :=
  match mods with
  | nil => Paths []
  | (m, tops) :: r =>
      cat (if existsb (N.eqb (f_nm f)) tops then create_top c (Some m) k f else Paths [])
          (all_mods c r k f)
  end.

(** One node of srsn_filter_create_subtree(), lines 539-572. *)
Definition create_node (c : ctx) (k : kind) (f : filt) : result :=
  match k with
  | OpaqPlain =>
      if existsb (fun x => existsb (N.eqb (f_nm f)) (snd x)) c then all_mods c c k f else Fail
  | _ => create_top c None k f
  end.

(** srsn_filter_create_subtree(), lines 530-579, and the union of
    srsn_filter_filter2xpath(), 610-651. *)
Fixpoint subtree2xpath (c : ctx) (fs : list (kind * filt)) : result :=
  match fs with
  | nil => Paths []
  | (k, f) :: r => cat (create_node c k f) (subtree2xpath c r)
  end.

(** Printing of a value, lines 370-377 (and 131-132, 170-171): in double quotes
    if there is an apostrophe in it. *)
Definition apos : ascii := "'"%char.
Definition quote : ascii := ascii_of_nat 34.

Fixpoint has_char (a : ascii) (s : string) : bool :=
  match s with
  | EmptyString => false
  | String b r => Ascii.eqb a b || has_char a r
  end.

Definition quot_of (v : string) : ascii := if has_char apos v then quote else apos.

Definition literal (v : string) : string :=
  String (quot_of v) (v ++ String (quot_of v) EmptyString).
