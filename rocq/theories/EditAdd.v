(** Preparing an edit call by call: sr_edit_add(), src/edit_diff.c 2691-3402, for conventional datastores.

    The edit is a tree of [enode] as in Edit.v. A path is a list of schema nodes, each with the value of the
    keys of a list instance or of a leaf-list instance and 0 for other nodes. Simplified: paths are
    valid and resolved, so parsing of XPaths (3091-3215), forbidden nodes (2976-3002) and editing of
    keys (3292-3295) are not modelled; lists without keys, SR_EDIT_ISOLATE, anydata, origins and deleting of
    all instances of a list at once ("purge") are left out. An opaque node is created for a deleted
    leaf that cannot have an empty value (LYD_NEW_PATH_OPAQ); it is an edit node with a deleting operation here. *)
From Coq Require Import List Bool Arith.
From Verif Require Import Edit.
Import ListNotations.

Definition path := list (nat * nat).
Definition eop_eqb (a b : eop) : bool :=
  match a, b with
  | Ether, Ether | Purge, Purge | Non, Non | Merge, Merge | Replace, Replace | Create, Create | Delete, Delete | Remove, Remove => true
  | _, _ => false
  end.

(** ** sr_edit_is_superior_op(), 2704-2770 *)
Inductive sup := SErr | SNo | SYes (o : eop).
Definition superior (new cur : eop) : sup :=
  match cur with
  | Create => match new with Delete | Replace | Remove | Purge => SErr | _ => SNo end
  | Delete | Purge => SErr
  | Replace => match new with Delete | Remove | Purge => SErr | _ => SNo end
  | Remove => match new with Delete | Replace => SErr | Create | Merge => SYes Replace | _ => SNo end
  | Merge => match new with Delete | Replace | Remove | Purge => SErr | _ => SNo end
  | Non => match new with Replace | Merge => SYes new | _ => SNo end
  | Ether => match new with Replace | Merge | Non => SYes new | _ => SNo end
  end.

Section Add.
Variable kd : nat -> kind.
(** Whether the empty value is a value of the leaf; the empty value is 0. *)
Variable nullok : nat -> bool.

Definition own_of (e : enode) : option eop := match e with E _ _ _ o _ _ => o end.
Definition set_own (o : option eop) (e : enode) : enode := match e with E s v b _ i ch => E s v b o i ch end.
Definition set_ch (ch : list enode) (e : enode) : enode := match e with E s v b o i _ => E s v b o i ch end.
Definition set_v (v : nat) (e : enode) : enode := match e with E s _ b o i ch => E s v b o i ch end.
Definition ch_of (e : enode) : list enode := match e with E _ _ _ _ _ ch => ch end.
(** sr_edit_diff_find_oper(), 1107-1170: own operation or that of the closest parent; [inh] is the latter. *)
Definition oper (inh : option eop) (e : enode) : option eop := match own_of e with Some o => Some o | None => inh end.

(** The node of a path segment, lyd_find_sibling_val() and lyd_find_sibling_opaq_next() in 3166-3211. *)
Definition at_id (id : nat * nat) (e : enode) : bool :=
  Nat.eqb (esch e) (fst id) && (if inst (kd (fst id)) then Nat.eqb (eval e) (snd id) else true).
(** Update of this node; removing it for [None]. *)
Fixpoint on_id (id : nat * nat) (f : enode -> option enode) (es : list enode) : list enode :=
  match es with
  | [] => []
  | e :: t => if at_id id e then match f e with Some e' => e' :: t | None => t end else e :: on_id id f t
  end.

(** sr_edit_add_descendant_have_own_op(), 2779-2798: for a node and its descendants. *)
Fixpoint have_op (op : eop) (e : enode) : bool :=
  match e with
  | E _ _ _ own _ ch => (match own with Some o => eop_eqb o op | None => true end) && forallb (have_op op) ch
  end.

(** ** sr_edit_add_merge_op(), 2807-2930: the node matched, [MFree] when it is freed. Nodes are sorted again by
    libyang when a leaf is created anew (2880-2894), here it keeps its place. *)
Inductive mres := MKeep (e : enode) | MFree | MErr (e : enode).
Definition merge_op (inh : option eop) (op : eop) (value : nat) (e : enode) : mres :=
  match oper inh e with
  | None => MErr e (* SR_ERRINFO_INT, 2924-2926 *)
  | Some cur =>
      if eop_eqb op cur then MKeep e (* 2820-2823 *)
      else
        match cur with
        | Ether | Non => if forallb (have_op op) (ch_of e) then MKeep (set_own (Some op) e) else MErr e (* 2826-2841 *)
        | Merge | Create => match op with Remove | Delete => MFree | _ => MErr e end (* 2842-2854 *)
        | Replace =>
            match own_of e, op with
            | None, Merge | None, Create => MKeep e
            | _, _ => MErr e
            end (* 2855-2860 *)
        | Remove | Delete =>
            match op with
            | Merge | Create =>
                match kd (esch e) with
                | KLeaf => MKeep (set_own (Some Replace) (set_v value e)) (* 2867-2896 *)
                | _ => MKeep (set_own (Some Replace) (set_ch [] e)) (* 2905-2912 *)
                end
            | _ => MErr e
            end (* 2861-2921 *)
        | Purge => MErr e
        end
  end.

(** A node was found, 3261-3282: the value of a leaf that is not opaque is changed first. [value] is
    [None] when deleting. *)
Definition opaque (e : enode) : bool :=
  match own_of e with Some Delete | Some Remove => negb (nullok (esch e)) | _ => false end.
Definition matched (inh : option eop) (op : eop) (value : option nat) (e : enode) : mres :=
  match kd (esch e) with
  | KLeaf =>
      if opaque e then merge_op inh op (match value with Some v => v | None => 0 end) e
      else
        match value with
        | Some v => merge_op inh op v (set_v v e)
        | None => if nullok (esch e) then merge_op inh op 0 (set_v 0 e) else MErr e
        end
  | _ => merge_op inh op 0 e
  end.

(** The node at the path is in the edit, sr_edit_add_find_match(), 3091-3230. *)
Fixpoint in_edit_at (p : path) (es : list enode) : bool :=
  match p with
  | [] => false
  | id :: r =>
      match find (at_id id) es with
      | Some e => match r with [] => true | _ => in_edit_at r (ch_of e) end
      | None => false
      end
  end.
(** Changing the node matched; the flag says whether it succeeded. *)
Fixpoint match_r (op : eop) (value : option nat) (p : path) (inh : option eop) (es : list enode) : bool * list enode :=
  match p with
  | [] => (false, es)
  | id :: r =>
      match find (at_id id) es with
      | None => (false, es)
      | Some e =>
          match r with
          | [] =>
              match matched inh op value e with
              | MKeep e' => (true, on_id id (fun _ => Some e') es)
              | MFree => (true, on_id id (fun _ => None) es)
              | MErr e' => (false, on_id id (fun _ => Some e') es)
              end
          | _ =>
              let '(ok, ch) := match_r op value r (oper inh e) (ch_of e) in
              (ok, on_id id (fun _ => Some (set_ch ch e)) es)
          end
      end
  end.

(** ** New nodes *)
(** The created nodes, sr_lyd_new_path() in 3286-3287, with the operation and position of the last one, 3347-3360. *)
Definition new_val (s k : nat) (value : option nat) : nat :=
  match kd s with KLeaf => match value with Some v => v | None => 0 end | _ => k end.
Fixpoint chain (op : eop) (value : option nat) (i : ins) (id : nat * nat) (r : path) : enode :=
  match r with
  | [] => E (fst id) (new_val (fst id) (snd id) value) false (Some op) i []
  | id' :: r' => E (fst id) (snd id) false None IDefault [chain op value i id' r']
  end.

(** ** sr_edit_add_update_op(), 3013-3078, in the siblings where the new node is; [id] is the node we come from.
    Siblings without an operation get the current one, 3039-3051. *)
Definition mark (id : nat * nat) (op : eop) (es : list enode) : list enode :=
  map (fun e => if at_id id e then e else match own_of e with Some _ => e | None => set_own (Some op) e end) es.
(** Whether the loop ends, goes on with the next parent ([next_iter_oper] set or not) or fails. *)
Inductive loop := LStop | LGo (next : bool) | LErr.
(** One iteration with parent [e] whose children are [ch], we come from [id]; [inh] is the operation of its
    parent, [None] if there is no parent. *)
Definition iterate (def : eop) (next : bool) (id : nat * nat) (inh : option eop) (e : enode) (ch : list enode) : loop * enode :=
  match oper inh e with
  | None => (LErr, set_ch ch e) (* assert(op), 3029; a top-level node always has an operation *)
  | Some op =>
      match (if next then SYes def else superior def op) with (* 3024-3037 *)
      | SErr => (LErr, set_ch ch e)
      | SNo => (LStop, set_ch ch e)
      | SYes _ =>
          let e1 := set_ch (mark id op ch) e in
          match own_of e with
          | None => (LGo false, e1)
          | Some _ =>
              match inh with
              | None =>
                  match superior def op with (* 3063-3071 with the operation deleted above *)
                  | SErr => (LErr, e1)
                  | SNo => (LStop, set_own (Some def) e1)
                  | SYes d => (LStop, set_own (Some d) e1)
                  end
              | Some op2 =>
                  match superior def op2 with
                  | SErr => (LErr, e1)
                  | SNo => (LStop, set_own (Some def) e1)
                  | SYes _ => (LGo true, set_own None e1)
                  end
              end
          end
      end
  end.

(** Adding the new nodes below the existing ones. The first iterations may be in the created nodes: they
    have no operation nor siblings, so only the check of the operation they inherit matters, which is
    that of the closest existing node. New nodes are put last: libyang sorts siblings by schema nodes,
    the place matters only for instances of one user-ordered list, where it is the last one. *)
Fixpoint add_r (op def : eop) (value : option nat) (i : ins) (p : path) (inh : option eop) (es : list enode) : loop * list enode :=
  match p with
  | [] => (LErr, es)
  | id :: r =>
      match find (at_id id) es with
      | None =>
          (match inh with
           | None => LErr
           | Some o => match superior def o with SErr => LErr | SNo => LStop | SYes _ => LGo false end
           end, es ++ [chain op value i id r])
      | Some e =>
          match add_r op def value i r (oper inh e) (ch_of e) with
          | (LGo next, ch) =>
              let '(l, e') := iterate def next (hd id r) inh e ch in (l, on_id id (fun _ => Some e') es)
          | (l, ch) => (l, on_id id (fun _ => Some (set_ch ch e)) es)
          end
      end
  end.

(** ** sr_edit_add(), 3233-3402 *)
(** [AErr]: failed, the edit may have been changed; [ADiscard]: failed and the edit was discarded, 3389-3397. *)
Inductive ares := AOk (es : list enode) | AErr (es : list enode) | ADiscard.
Definition edit_add (op def : eop) (value : option nat) (i : ins) (p : path) (es : list enode) : ares :=
  if in_edit_at p es then
    match match_r op value p None es with (true, es') => AOk es' | (false, es') => AErr es' end (* 3255-3282 *)
  else
    match p with
    | [] => AErr es
    | id :: r =>
        match find (at_id id) es with
        | None =>
            let n := chain op value i id r in
            AOk (es ++ [match r with [] => n | _ => set_own (Some def) n end]) (* 3329-3336 *)
        | Some _ =>
            match add_r op def value i p None es with
            | (LErr, _) => ADiscard
            | (_, es') => AOk es'
            end
        end
    end.

(** ** The API: sr_set_item_str(), src/sysrepo.c 3452-3522, sr_delete_item(), 3524-3620 and sr_move_item(), 3685-3732 *)
Inductive call := CSet (p : path) (v : nat) (strict nonrec : bool) | CDel (p : path) (strict : bool)
                | CMove (p : path) (i : ins) (strict nonrec : bool).
Definition api (c : call) (es : list enode) : ares :=
  match c with
  | CSet p v strict nonrec => edit_add (if strict then Create else Merge) (if nonrec then Non else Merge) (Some v) IDefault p es
  | CDel p strict => edit_add (if strict then Delete else Remove) (if strict then Non else Ether) None IDefault p es
  | CMove p i strict nonrec => edit_add (if strict then Create else Merge) (if nonrec then Non else Merge) None i p es
  end.
(** The edit after calls that all succeeded. *)
Fixpoint prepare (cs : list call) (es : list enode) : option (list enode) :=
  match cs with
  | [] => Some es
  | c :: t => match api c es with AOk es' => prepare t es' | _ => None end
  end.
End Add.
