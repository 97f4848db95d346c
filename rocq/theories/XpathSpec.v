(** What the path helpers are to do, on paths as lists of nodes with keys. *)
From Coq Require Import List Bool Arith.
From Verif Require Import Xpath.
Import ListNotations.

(** ** Paths *)
Record key := Key { k_name : str; k_quote : nat; k_value : str }.
Record pnode := PNode { p_ns : option str; p_name : str; p_keys : list key }.
Definition print_key (k : key) : str := c_lbr :: k_name k ++ [c_eq; k_quote k] ++ k_value k ++ [k_quote k; c_rbr].
Definition label (ns : option str) (name : str) : str := match ns with Some m => m ++ c_colon :: name | None => name end.
Definition print_node (n : pnode) : str := label (p_ns n) (p_name n) ++ concat (map print_key (p_keys n)).
Definition print (p : list pnode) : str := concat (map (fun n => c_slash :: print_node n) p).

(** Names have no characters of the syntax, a value may have any but the quote used for it. *)
Definition name_char (c : nat) : Prop :=
  c <> 0 /\ c <> c_slash /\ c <> c_colon /\ c <> c_lbr /\ c <> c_rbr /\ c <> c_eq /\ c <> c_apos /\ c <> c_quot.
Definition is_name (n : str) : Prop := n <> [] /\ Forall name_char n.
(** Names of keys may have a module name in front. *)
Definition kname_char (c : nat) : Prop := c = c_colon \/ name_char c.
Definition good_key (k : key) : Prop :=
  Forall kname_char (k_name k) /\ (k_quote k = c_apos \/ k_quote k = c_quot) /\ Forall (fun c => c <> 0 /\ c <> k_quote k) (k_value k).
Definition good_pnode (n : pnode) : Prop :=
  match p_ns n with Some m => is_name m | None => True end /\ is_name (p_name n) /\ Forall good_key (p_keys n).

(** ** A cursor *)
(** Tokens in front of a cursor. *)
Inductive tok := TNode (ns : option str) (name : str) | TKey (k : str) | TVal (q : nat) (v : str).
Definition node_tokens (n : pnode) : list tok :=
  TNode (p_ns n) (p_name n) :: concat (map (fun k => [TKey (k_name k); TVal (k_quote k) (k_value k)]) (p_keys n)).
Definition tokens (p : list pnode) : list tok := concat (map node_tokens p).

(** The current node: none yet, a node with its name as got and everything after it, or not defined. *)
Inductive acur := NoCur | Cur (got : str) (after : list tok) | Unknown.
Record cursor := At { ahead : list tok; current : acur }.

Definition eq_dec := list_eq_dec Nat.eq_dec.
(** Next node, of any name. *)
Fixpoint to_node (l : list tok) : option (option str * str * list tok) :=
  match l with [] => None | TNode ns n :: r => Some (ns, n, r) | _ :: r => to_node r end.
(** Next key and value before the next node. *)
Fixpoint to_key (l : list tok) : option (str * list tok) :=
  match l with [] | TNode _ _ :: _ => None | TKey k :: r => Some (k, r) | TVal _ _ :: r => to_key r end.
Fixpoint to_val (l : list tok) : option (str * list tok) :=
  match l with [] | TNode _ _ :: _ => None | TVal _ v :: r => Some (v, r) | TKey _ :: r => to_val r end.
(** First node of a name, of an index and the last one. *)
Fixpoint node_named (n : str) (l : list tok) : option (list tok) :=
  match l with
  | [] => None
  | TNode _ m :: r => if eq_dec n m then Some r else node_named n r
  | _ :: r => node_named n r
  end.
Fixpoint node_nth (i : nat) (l : list tok) : option (str * list tok) :=
  match l with
  | [] => None
  | TNode _ m :: r => match i with 0 => Some (m, r) | S i' => node_nth i' r end
  | _ :: r => node_nth i r
  end.
Fixpoint node_last (l : list tok) : option (str * list tok) :=
  match l with
  | [] => None
  | TNode _ m :: r => match node_last r with Some x => Some x | None => Some (m, r) end
  | _ :: r => node_last r
  end.
(** First key of a name and of an index of the node. *)
Fixpoint key_named (k : str) (l : list tok) : option (list tok) :=
  match l with
  | [] | TNode _ _ :: _ => None
  | TKey m :: r => if eq_dec k m then Some r else key_named k r
  | TVal _ _ :: r => key_named k r
  end.
Fixpoint key_nth (i : nat) (l : list tok) : option (list tok) :=
  match l with
  | [] | TNode _ _ :: _ => None
  | TKey _ :: r => match i with 0 => Some r | S i' => key_nth i' r end
  | TVal _ _ :: r => key_nth i r
  end.

Definition tok_text (t : tok) : str :=
  match t with
  | TNode ns n => c_slash :: label ns n
  | TKey k => c_lbr :: k
  | TVal q v => c_eq :: q :: v ++ [q; c_rbr]
  end.
Definition text (l : list tok) : str := concat (map tok_text l).

(** ** Calls *)
Inductive call :=
  | CNode | CNodeNs | CKey | CVal
  | CFind (n : str) | CFindIdx (i : nat) | CFindRel (n : str) | CFindIdxRel (i : nat)
  | CNodeKey (k : str) | CNodeKeyIdx (i : nat) | CKeyValue (n k : str) | CKeyValueIdx (i j : nat)
  | CLast | CRecover.
(** Value of the key found, and the cursor after it. *)
Definition value_of (r : list tok) (c : acur) (failed : cursor) : option str * cursor :=
  match to_val r with Some (v, r') => (Some v, At r' c) | None => (None, failed) end.
(** Key of the current node, of the next one if there is none. *)
Definition current_key (find : list tok -> option (list tok)) (a : cursor) : option (option str * cursor) :=
  match current a with
  | Unknown => None
  | Cur g l => Some (match find l with Some r => value_of r (Cur g l) a | None => (None, a) end)
  | NoCur =>
      Some (match to_node (ahead a) with
            | None => (None, a)
            | Some (_, n, l) => match find l with Some r => value_of r (Cur n l) (At (ahead a) Unknown) | None => (None, At (ahead a) Unknown) end
            end)
  end.
(** Result and cursor of a call; [None]: not defined, because the current node is not after a failed search. *)
Definition step (p : list pnode) (c : call) (a : cursor) : option (option str * cursor) :=
  let failed := Some (None, At (ahead a) Unknown) in
  match c with
  | CNode => Some (match to_node (ahead a) with Some (_, n, r) => (Some n, At r (Cur n r)) | None => (None, a) end)
  | CNodeNs => Some (match to_node (ahead a) with Some (ns, n, r) => (Some (label ns n), At r (Cur (label ns n) r)) | None => (None, a) end)
  | CKey => Some (match to_key (ahead a) with Some (k, r) => (Some k, At r (current a)) | None => (None, a) end)
  | CVal => Some (match to_val (ahead a) with Some (v, r) => (Some v, At r (current a)) | None => (None, a) end)
  | CFind n => match node_named n (tokens p) with Some r => Some (Some n, At r (Cur n r)) | None => failed end
  | CFindIdx i => match node_nth i (tokens p) with Some (n, r) => Some (Some n, At r (Cur n r)) | None => failed end
  | CFindRel n => match node_named n (ahead a) with Some r => Some (Some n, At r (Cur n r)) | None => None end
  | CFindIdxRel i => match node_nth i (ahead a) with Some (n, r) => Some (Some n, At r (Cur n r)) | None => failed end
  | CNodeKey k => current_key (key_named k) a
  | CNodeKeyIdx i => current_key (key_nth i) a
  | CKeyValue n k =>
      match node_named n (tokens p) with
      | Some l => match key_named k l with Some r => Some (value_of r (Cur n l) (At (ahead a) Unknown)) | None => failed end
      | None => failed
      end
  | CKeyValueIdx i j =>
      match node_nth i (tokens p) with
      | Some (n, l) => match key_nth j l with Some r => Some (value_of r (Cur n l) (At (ahead a) Unknown)) | None => failed end
      | None => failed
      end
  | CLast =>
      match node_last (ahead a) with
      | Some (n, r) => Some (Some (n ++ text r), At r (Cur n r))
      | None =>
          match current a with
          | Cur g r => Some (Some (g ++ text r), a)
          | NoCur => Some (None, a)
          | Unknown => None
          end
      end
  | CRecover => Some (None, a)
  end.
(** A call with the path given starts anew. *)
Definition begin_ (fresh : bool) (p : list pnode) (a : cursor) : cursor := if fresh then At (tokens p) NoCur else a.
Fixpoint steps (p : list pnode) (cs : list call) (a : cursor) : option (list (option str) * cursor) :=
  match cs with
  | [] => Some ([], a)
  | c :: t =>
      match step p c a with
      | Some (r, a') => match steps p t a' with Some (rs, a'') => Some (r :: rs, a'') | None => None end
      | None => None
      end
  end.
