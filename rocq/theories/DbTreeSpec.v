(** What is meant by the data of a module, by a change of them and by the part
    of them that an XPath asks for.  Independent of rows and paths as text. *)
From Coq Require Import List NArith Bool Arith.
From Verif Require Import DbTree.
Import ListNotations.

(** The data: every node with its place. *)
Definition data := list (addr * kind).

Definition step_eq_dec (a b : step) : {a = b} + {a <> b}.
Proof. repeat decide equality. Defined.

Definition addr_eq_dec (a b : addr) : {a = b} + {a <> b} := list_eq_dec step_eq_dec a b.

Fixpoint get (a : addr) (d : data) : option kind :=
  match d with
  | [] => None
  | (b, k) :: d' => if addr_eq_dec b a then Some k else get a d'
  end.

Definition set (a : addr) (k : kind) (d : data) : data :=
  map (fun e => if addr_eq_dec (fst e) a then (fst e, k) else e) d.

Definition del (a : addr) (d : data) : data :=
  filter (fun e => if addr_eq_dec (fst e) a then false else true) d.

(** One change.  A created node did not exist; a deleted, replaced or kept node
    did.  A replaced node stays a terminal node (or stays anydata, in the same
    format); a kept node changes nothing but whether its value is the default. *)
Inductive change : addr -> kind -> dop -> bool -> data -> data -> Prop :=
| ch_create : forall (a : addr) (k : kind) (od : bool) (d : data),
    get a d = None -> change a k OCreate od d (d ++ [(a, k)])
| ch_delete : forall (a : addr) (k k0 : kind) (od : bool) (d : data),
    get a d = Some k0 -> change a k ODelete od d (del a d)
| ch_repl_term : forall (a : addr) (v v0 : str) (b : bool) (od : bool) (d : data),
    get a d = Some (KTerm v0 od) -> change a (KTerm v b) OReplace od d (set a (KTerm v b) d)
| ch_repl_any : forall (a : addr) (v v0 : str) (js : bool) (od : bool) (d : data),
    get a d = Some (KAny v0 js) -> change a (KAny v js) OReplace od d (set a (KAny v js) d)
| ch_none_term : forall (a : addr) (v : str) (b od : bool) (d : data),
    get a d = Some (KTerm v od) -> change a (KTerm v b) ONone od d (set a (KTerm v b) d)
| ch_none : forall (a : addr) (k : kind) (od : bool) (d : data),
    get a d = Some k -> (forall (v : str) (b : bool), k <> KTerm v b) -> change a k ONone od d d.

(** Bytes of names: neither quotes nor the bytes with a meaning in paths. *)
Definition name_byte (c : N) : Prop :=
  c <> cSP /\ c <> cSQ /\ c <> cDQ /\ c <> cSL /\ c <> cCL /\ c <> cEQ /\ c <> cLB.

Definition name_ok (n : str) : Prop := n <> [] /\ Forall name_byte n.

(** A value that XPath can quote. *)
Definition quotable (v : str) : Prop := ~ (In cSQ v /\ In cDQ v).

Definition pred_ok (kv : str * str) : Prop := name_ok (fst kv) /\ quotable (snd kv).

Definition step_ok (s : step) : Prop :=
  name_ok (s_mod s) /\ name_ok (s_name s) /\ Forall pred_ok (s_preds s).

(** The plugins store at most 127 keys, each of at most 16383 bytes. *)
Definition storable (s : step) : Prop :=
  (length (s_preds s) <= 127)%nat /\
  Forall (fun kv : str * str => (N.of_nat (length (snd kv)) <= 16383)%N) (s_preds s).

(** A diff: each node with its own operation or the one of its parent, from the
    top down. *)
Inductive changes : addr -> option dop -> list diffn -> data -> data -> Prop :=
| chs_nil : forall (pa : addr) (po : option dop) (d : data), changes pa po [] d d
| chs_cons : forall (pa : addr) (po op : option dop) (o : dop) (s : step) (k : kind) (od : bool)
    (cs l : list diffn) (d d1 d2 d3 : data),
    step_ok s -> storable s ->
    (op = Some o \/ (op = None /\ po = Some o)) ->
    change (pa ++ [s]) k o od d d1 ->
    changes (pa ++ [s]) (Some o) cs d1 d2 ->
    changes pa po l d2 d3 ->
    changes pa po (Df s k op od cs :: l) d d3.

(** The node agrees with the schema. *)
Definition kind_ok (sc : schema) (pa : addr) (s : step) (k : kind) : Prop :=
  let sp := spath (pa ++ [s]) in
  match k with
  | KCont | KAny _ _ => s_preds s = []
  | KList => map fst (s_preds s) = sc_keys sc sp
  | KTerm v _ => s_preds s = if sc_leaflist sc sp then [([cDT], v)] else []
  end.

(** A tree of data: the nodes are different, all parents are there. *)
Definition tree (sc : schema) (d : data) : Prop :=
  NoDup (map fst d) /\
  (forall (a : addr) (k : kind), In (a, k) d ->
     exists (pa : addr) (s : step), a = pa ++ [s] /\ Forall step_ok a /\ kind_ok sc pa s k /\
       (pa <> [] -> In pa (map fst d))).

(** A history of diffs, each leading from one tree to the next. *)
Inductive history (sc : schema) : list (list diffn) -> data -> data -> Prop :=
| h_nil : forall (d : data), history sc [] d d
| h_cons : forall (l : list diffn) (ls : list (list diffn)) (d d1 d2 : data),
    changes [] None l d d1 -> tree sc d1 -> history sc ls d1 d2 -> history sc (l :: ls) d d2.

(** [b] is [a] or below it. *)
Definition below (a b : addr) : Prop := exists (t : addr), b = a ++ t.

(** What an XPath that is a path asks for: the node and its subtree; a key is
    part of its list instance. *)
Definition asked (x : xq) (b : addr) : Prop :=
  match x_path x with
  | None => True
  | Some a => if x_key x then below (removelast a) b else below a b
  end.

(** The text of a path as libyang prints it, the first slash may be missing. *)
Definition canonical (x : xq) : Prop :=
  match x_path x with
  | None => True
  | Some a => (x_text x = path_of a \/ cSL :: x_text x = path_of a) /\
              Forall step_ok a /\ a <> [] /\ (x_key x = true -> removelast a <> [])
  end.
