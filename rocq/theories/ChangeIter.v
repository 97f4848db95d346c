(** Iterating over changes in a callback: sr_get_changes_iter(), sr_dup_changes_iter(),
    sr_get_change_next() and sr_get_change_tree_next(), src/sysrepo.c 6050-6400, with
    sr_diff_set_getnext(), src/edit_diff.c 3404-3473.

    The diff tree the callback sees has also the list keys as nodes. Siblings are in the order of their
    schema nodes as libyang inserts them (instances of one schema node in the order they were added;
    libyang may keep instances of system-ordered lists sorted by their value, which is not modelled). *)
From Coq Require Import List Bool Arith.
From Verif Require Import Edit.
Import ListNotations.

(** A path of instances; a key of the list instance at a path is the path with its index. *)
Definition path := list (nat * nat).
Definition loc := (path * option nat)%type.

(** Node of the diff tree: schema node, value, default flag, index for keys, its own yang:operation,
    yang:orig-value with yang:orig-default, the anchor metadata (yang:key, yang:value), children. *)
Inductive inode := I (s v : nat) (b : bool) (k : option nat) (own : option dop) (ov : option (nat * bool)) (an : option (option nat)) (ch : list inode).
Definition inode_dec : forall a b : inode, {a = b} + {a <> b}.
Proof.
  fix IH 1. intros [s v b k own ov an ch] [s' v' b' k' own' ov' an' ch'].
  destruct (list_eq_dec IH ch ch') as [->|N]; [|right; intros X; injection X; congruence].
  assert (Dn : forall a b : option nat, {a = b} + {a <> b}) by (intros; decide equality; apply Nat.eq_dec).
  destruct (Nat.eq_dec s s') as [->|N]; [|right; congruence]. destruct (Nat.eq_dec v v') as [->|N]; [|right; congruence].
  destruct (bool_dec b b') as [->|N]; [|right; congruence]. destruct (Dn k k') as [->|N]; [|right; congruence].
  assert (Do : {own = own'} + {own <> own'}) by (repeat decide equality). destruct Do as [->|N]; [|right; congruence].
  assert (Dv : {ov = ov'} + {ov <> ov'}) by (repeat decide equality). destruct Dv as [->|N]; [|right; congruence].
  assert (Da : {an = an'} + {an <> an'}) by (decide equality; apply Dn). destruct Da as [->|N]; [|right; congruence].
  left. reflexivity.
Defined.
Definition i_own (n : inode) : option dop := match n with I _ _ _ _ own _ _ _ => own end.

(** A change as given to the application: sr_get_change_next(). The anchor is missing unless the node
    is user-ordered; [Some None] is the first place. *)
Inductive chg :=
| CCreated (l : loc) (s v : nat) (b : bool) (an : option (option nat))
| CDeleted (l : loc) (s v : nat) (b : bool)
| CModified (l : loc) (s v0 : nat) (b0 : bool) (v : nat) (b : bool)
| CMoved (l : loc) (s v : nat) (b : bool) (an : option nat).

(** A member of the set of nodes: where it is, the node and its ancestors, the closest first. *)
Record ent := mkent { e_loc : loc; e_node : inode; e_up : list inode }.

Section Iter.
Variable kd : nat -> kind.
(** Number of keys of a list and the value of a key of an instance. *)
Variable nk : nat -> nat.
Variable kv : nat -> nat -> nat -> nat.

(** *** The diff tree *)
(** lyd_insert_child(), lyd_insert_sibling(): after the last sibling that is not of a later schema node. *)
Definition f_sch (x : diff) : nat := match x with F _ s _ _ _ _ _ _ => s end.
Fixpoint ly_insert (x : diff) (l : list diff) : list diff :=
  match l with
  | [] => [x]
  | y :: t => if Nat.leb (f_sch y) (f_sch x) then y :: ly_insert x t else x :: y :: t
  end.
Definition ly_siblings (l : list diff) : list diff := fold_left (fun acc x => ly_insert x acc) l [].
Fixpoint ly_tree (x : diff) : diff :=
  match x with F op s v b ov an oan ch => F op s v b ov an oan (ly_siblings (map ly_tree ch)) end.

(** Keys are duplicated with their list, they have no metadata. *)
Definition keys_of (s v : nat) : list inode :=
  match kd s with
  | KList _ => map (fun i => I s (kv s v i) false (Some i) None None None []) (seq 0 (nk s))
  | _ => []
  end.
(** Metadata of sr_edit_diff_add(), src/edit_diff.c 1334-1392, by sr_diff_add_meta(), 337-425: every node
    has its operation; a replaced leaf its previous value and default flag; created and moved
    user-ordered nodes their place. *)
Fixpoint diff_tree (x : diff) : inode :=
  match x with
  | F op s v b ov an _ ch =>
      I s v b None (Some op)
        (match op, kd s with DReplace, KLeaf => ov | _, _ => None end)
        (match op with DCreate | DReplace => if userord (kd s) then Some an else None | _ => None end)
        (keys_of s v ++ map diff_tree ch)
  end.
Definition sess_diff (xs : list diff) : list inode := map diff_tree (ly_siblings (map ly_tree xs)).

(** sr_module_change_subscribe_enable(), src/sysrepo.c 5692-5703: all the data as created, only the top
    level has the operation; places by sr_edit_created_subtree_apply_move(), src/edit_diff.c 1666-1690. *)
Fixpoint en_tree (op : option dop) (prev : option nat) (d : dnode) : inode :=
  match d with
  | D s v b ch =>
      I s v b None op None (if userord (kd s) then Some prev else None)
        (keys_of s v ++ (fix go (seen l : list dnode) : list inode :=
            match l with [] => [] | c :: t => en_tree None (last_inst (dsch c) seen) c :: go (seen ++ [c]) t end) [] ch)
  end.
Fixpoint en_sibs (op : option dop) (seen l : list dnode) : list inode :=
  match l with [] => [] | c :: t => en_tree op (last_inst (dsch c) seen) c :: en_sibs op (seen ++ [c]) t end.
Definition enabled_diff (ds : list dnode) : list inode := en_sibs (Some DCreate) [] ds.

(** *** The set of nodes: all of them in document order; an XPath selects some *)
Definition ikey (s v : nat) : nat := if inst (kd s) then v else 0.
Fixpoint nodes (up : list inode) (p : path) (n : inode) : list ent :=
  match n with
  | I s v _ k _ _ _ ch =>
      let l := match k with None => (p ++ [(s, ikey s v)], None) | Some i => (p, Some i) end in
      mkent l n up :: flat_map (nodes (n :: up) (fst l)) ch
  end.
Definition all_nodes (t : list inode) : list ent := flat_map (nodes [] []) t.
Definition select (sel : loc -> bool) (set : list ent) : list ent := filter (fun e => sel (e_loc e)) set.

(** *** sr_diff_set_getnext(), src/edit_diff.c 3404-3473 *)
(** The (inherited) operation, 3412-3424: whether it is the node's own and the node that has it. *)
Fixpoint up_op (up : list inode) : option (inode * dop) :=
  match up with
  | [] => None
  | n :: t => match i_own n with Some o => Some (n, o) | None => up_op t end
  end.
Definition find_op (e : ent) : option (bool * inode * dop) :=
  match i_own (e_node e) with
  | Some o => Some (true, e_node e, o)
  | None => match up_op (e_up e) with Some (n, o) => Some (false, n, o) | None => None end
  end.
(** Kind of the schema node: keys are leaves. *)
Definition i_kind (n : inode) : kind := match n with I s _ _ (Some _) _ _ _ _ => KLeaf | I s _ _ None _ _ _ _ => kd s end.
Definition is_list (k : kind) : bool := match k with KList _ => true | _ => false end.
Definition is_repl (o : dop) : bool := match o with DReplace => true | _ => false end.

(** Is it a key of the list instance, 3444; nodes are compared by their contents in place of their
    addresses. *)
Definition key_at (skip : option inode) (e : ent) : bool :=
  match skip, e_loc e, e_up e with Some n, (_, Some _), m :: _ => if inode_dec n m then true else false | _, _, _ => false end.

Inductive op := OCreated | OModified | ODeleted | OMoved.
Inductive next := NEnd | NErr | NNode (o : op) (e : ent) (rest : list ent).

(** The loop; the set from the current index on, [skip]: in the loop over keys, 3441-3449. *)
Fixpoint getnext (skip : option inode) (set : list ent) : next :=
  match set with
  | [] => NEnd
  | e :: t =>
      if key_at skip e then getnext skip t
      else match find_op e with
      | None => NErr
      | Some (self, n, o) =>
          if negb self && userord (i_kind n) && is_repl o then getnext None t
          else match o with
          | DNone => getnext (if is_list (i_kind (e_node e)) then Some (e_node e) else None) t
          | DCreate => NNode OCreated e t
          | DDelete => NNode ODeleted e t
          | DReplace =>
              match i_kind (e_node e) with
              | KLeaf => NNode OModified e t
              | KList _ | KLeafList _ => NNode OMoved e t
              | KCont _ => NErr
              end
          end
      end
  end.

(** *** sr_get_change_next(), src/sysrepo.c 6214-6306 (sr_get_change_tree_next(), 6309-6387, gives the
    node itself in place of its value and fails in the same cases) *)
Inductive result := REnd | RErr | RChg (c : chg) (rest : list ent).
Definition change_of (o : op) (e : ent) : option chg :=
  match e_node e with
  | I s v b k _ ov an _ =>
      match o with
      | ODeleted => Some (CDeleted (e_loc e) s v b)
      | OModified => match ov with Some (v0, b0) => Some (CModified (e_loc e) s v0 b0 v b) | None => None end
      | OCreated =>
          if userord (i_kind (e_node e))
          then match an with Some a => Some (CCreated (e_loc e) s v b (Some a)) | None => None end
          else Some (CCreated (e_loc e) s v b None)
      | OMoved => match an with Some a => Some (CMoved (e_loc e) s v b a) | None => None end
      end
  end.
Definition change_next (set : list ent) : result :=
  match getnext None set with
  | NEnd => REnd
  | NErr => RErr
  | NNode o e t => match change_of o e with Some c => RChg c t | None => RErr end
  end.

(** The application calls it until there are no more changes; [None] if it fails. *)
Fixpoint iter_all (fuel : nat) (set : list ent) : option (list chg) :=
  match fuel with
  | 0 => None
  | S n =>
      match change_next set with
      | REnd => Some []
      | RErr => None
      | RChg c t => match iter_all n t with Some l => Some (c :: l) | None => None end
      end
  end.
Definition iterate (sel : loc -> bool) (t : list inode) : option (list chg) :=
  let set := select sel (all_nodes t) in iter_all (S (length set)) set.

(** *** Life of iterators *)
(** The diff of the callback's session or its copy. *)
Inductive tree := TSess | TCopy.
(** _sr_get_changes_iter(), src/sysrepo.c 6050-6093: the set is of nodes of the session's diff even if it
    was duplicated (6068-6075). *)
Record iter := mkiter { it_tree : tree; it_copied : bool; it_set : list ent }.
Definition new_iter (dup : bool) (sel : loc -> bool) (t : list inode) : iter := mkiter TSess dup (select sel (all_nodes t)).
(** What is allocated: the session's diff is freed after the callback (sr_session_stop(), src/shm_sub.c 3607 and src/sysrepo.c 756), the copy
    with the iterator (src/sysrepo.c 6390-6399). *)
Definition allocated (in_callback : bool) (it : iter) (t : tree) : bool :=
  match t with TSess => in_callback | TCopy => it_copied it end.
(** Using a freed node is undefined. *)
Inductive use := UFreed | UResult (r : result).
Definition iter_next (in_callback : bool) (it : iter) : use :=
  match it_set it with
  | [] => UResult REnd
  | _ => if allocated in_callback it (it_tree it) then UResult (change_next (it_set it)) else UFreed
  end.
End Iter.
