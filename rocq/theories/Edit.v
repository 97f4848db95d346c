(** Applying an edit to data and creating the diff, src/edit_diff.c.

    Data trees: siblings are a list of nodes sorted by their schema node as in libyang; instances of
    one schema node are its group. List keys are not nodes of their own, all of them are the value of
    the list instance; the check that a key has the operation of its list (2083-2091) is left out.
    Opaque nodes, anydata (treated like leaves), key-less lists, origin metadata and default flags of
    containers are not modelled. *)
From Coq Require Import List Bool Arith.
Import ListNotations.

(** Kinds of schema nodes; [np]: non-presence container; [uo]: ordered-by user. *)
Inductive kind := KCont (np : bool) | KLeaf | KLeafList (uo : bool) | KList (uo : bool).
Definition inst (k : kind) : bool := match k with KLeafList _ | KList _ => true | _ => false end.
Definition term (k : kind) : bool := match k with KLeafList _ | KLeaf => true | _ => false end.
Definition userord (k : kind) : bool := match k with KLeafList uo | KList uo => uo | _ => false end.
Definition np_cont (k : kind) : bool := match k with KCont np => np | _ => false end.

(** enum edit_op, src/edit_diff.h 28-47: those in edits. *)
Inductive eop := Ether | Purge | Non | Merge | Replace | Create | Delete | Remove.
(** enum insert_val with the anchor, src/edit_diff.c 39-45; the anchor may be missing. It is not
    modelled without "before" or "after". *)
Inductive ins := IDefault | IFirst | ILast | IBefore (a : option nat) | IAfter (a : option nat).

(** Schema node, value (of all the keys for a list), default flag, children. *)
Inductive dnode := D (s v : nat) (dflt : bool) (ch : list dnode).
Inductive enode := E (s v : nat) (dflt : bool) (op : option eop) (i : ins) (ch : list enode).
(** Diff node: operation, the node, previous value and default flag, place and previous place (the
    instance before it) and children. *)
Inductive dop := DNone | DCreate | DDelete | DReplace.
Inductive diff := F (op : dop) (s v : nat) (dflt : bool) (ov : option (nat * bool)) (an oan : option nat) (ch : list diff).

Definition dsch (d : dnode) : nat := match d with D s _ _ _ => s end.
Definition dval (d : dnode) : nat := match d with D _ v _ _ => v end.
Definition ddflt (d : dnode) : bool := match d with D _ _ b _ => b end.
Definition dch (d : dnode) : list dnode := match d with D _ _ _ ch => ch end.
Definition esch (e : enode) : nat := match e with E s _ _ _ _ _ => s end.
Definition eval (e : enode) : nat := match e with E _ v _ _ _ _ => v end.

(** Siblings of a schema node and replacing them. *)
Definition grp (s : nat) (ds : list dnode) : list dnode := filter (fun d => Nat.eqb (dsch d) s) ds.
Definition put (s : nat) (g ds : list dnode) : list dnode :=
  filter (fun d => Nat.ltb (dsch d) s) ds ++ g ++ filter (fun d => Nat.ltb s (dsch d)) ds.

(** Result: [RHard] is err_info, [RAssert] a failed assert. *)
Inductive res (A : Type) := ROk (a : A) | RHard | RAssert.
Arguments ROk {A} a.
Arguments RHard {A}.
Arguments RAssert {A}.

(** sr_edit_find_previous_instance(), src/edit_diff.c 432-447, and the next one as in 745-757; [p]
    selects the node. *)
Fixpoint prev_of (p : dnode -> bool) (last : option nat) (g : list dnode) : option nat :=
  match g with
  | [] => None
  | d :: t => if p d then last else prev_of p (Some (dval d)) t
  end.
Fixpoint next_of (p : dnode -> bool) (g : list dnode) : option nat :=
  match g with
  | [] => None
  | d :: t => if p d then match t with x :: _ => Some (dval x) | [] => None end else next_of p t
  end.
Fixpoint remove_first (p : dnode -> bool) (g : list dnode) : list dnode :=
  match g with
  | [] => []
  | d :: t => if p d then t else d :: remove_first p t
  end.
Fixpoint update_first (p : dnode -> bool) (f : dnode -> dnode) (g : list dnode) : list dnode :=
  match g with
  | [] => []
  | d :: t => if p d then f d :: t else d :: update_first p f t
  end.
Fixpoint insert_before (a : nat) (x : dnode) (g : list dnode) : option (list dnode) :=
  match g with
  | [] => None
  | d :: t => if Nat.eqb (dval d) a then Some (x :: d :: t) else option_map (cons d) (insert_before a x t)
  end.
Fixpoint insert_after (a : nat) (x : dnode) (g : list dnode) : option (list dnode) :=
  match g with
  | [] => None
  | d :: t => if Nat.eqb (dval d) a then Some (d :: x :: t) else option_map (cons d) (insert_after a x t)
  end.

(** sr_edit_insert(), src/edit_diff.c 1013-1086; [x] is not in [g]. An unknown or missing anchor is an
    error. *)
Definition edit_insert (i : ins) (x : dnode) (g : list dnode) : option (list dnode) :=
  match i with
  | IDefault | ILast => Some (g ++ [x])
  | IFirst => Some (x :: g)
  | IBefore (Some a) => insert_before a x g
  | IAfter (Some a) => insert_after a x g
  | IBefore None | IAfter None => None
  end.

Definition onat_eqb (a b : option nat) : bool :=
  match a, b with Some x, Some y => Nat.eqb x y | None, None => true | _, _ => false end.
Definition isnil {A} (l : list A) : bool := match l with [] => true | _ => false end.
Definition issome {A} (o : option A) : bool := match o with Some _ => true | None => false end.

Section Edit.
(** Kinds of schema nodes. *)
Variable kd : nat -> kind.

(** sr_edit_find_match(), src/edit_diff.c 838-873: an exact instance or any node. *)
Definition is_it (s v : nat) (d : dnode) : bool := if inst (kd s) then Nat.eqb (dval d) v else true.
(** sr_edit_find() with dflt_ll_skip, src/edit_diff.c 929-933. *)
Definition edit_find (s v : nat) (dflt : bool) (g : list dnode) : option dnode :=
  match find (is_it s v) g with
  | Some d => if inst (kd s) && ddflt d && negb dflt then None else Some d
  | None => None
  end.

(** sr_edit_userord_is_moved(), src/edit_diff.c 727-772, with the anchor from sr_edit_find(), 935-960:
    [None] if the anchor was not found. [ep] is the previous instance in the edit. *)
Definition is_moved (fr : bool) (i : ins) (ep : option nat) (s v : nat) (g : list dnode) : option bool :=
  let prev := prev_of (is_it s v) None g in
  let next := next_of (is_it s v) g in
  match i with
  | IBefore (Some a) => if existsb (fun d => Nat.eqb (dval d) a) g then Some (negb (onat_eqb next (Some a))) else None
  | IAfter (Some a) => if existsb (fun d => Nat.eqb (dval d) a) g then Some (negb (onat_eqb prev (Some a))) else None
  | IBefore None | IAfter None => None
  | IDefault => Some (if fr then negb (onat_eqb prev ep) else false)
  | IFirst => Some (if fr then negb (onat_eqb prev ep) else negb (onat_eqb prev None))
  | ILast => Some (if fr then negb (onat_eqb prev ep) else negb (onat_eqb next None))
  end.

(** val_equal of sr_edit_find(), src/edit_diff.c 906-969. *)
Definition val_equal (fr : bool) (i : ins) (ep : option nat) (s v : nat) (m : option dnode) (g : list dnode) : option bool :=
  match m with
  | None => Some false
  | Some d =>
      match kd s with
      | KCont _ => Some true
      | KLeaf => Some (Nat.eqb (dval d) v)
      | k => if userord k then option_map negb (is_moved fr i ep s v g) else Some true
      end
  end.

(** Operations in the loop, src/edit_diff.c 2110-2171. *)
Inductive iop := OOp (o : eop) | OMove | ODflt | OContinue.

(** State of sr_edit_apply_r() in the loop: the group of the edit node, data_match, diff_node, flags
    EDIT_APPLY_REPLACE_R and EDIT_APPLY_DELETE_R, whether there is a validation error, a change and
    data_del. *)
Record st := mkst { st_g : list dnode; st_m : option dnode; st_dn : option diff; st_r : bool; st_d : bool; st_err : bool; st_chg : bool; st_del : bool }.

Section Node.
(** The edit node, its insert metadata; [orph]: there is no data parent because of its own missing
    match, then inserting a node fails (lyd_insert_sibling() refuses such a sibling; if the data are
    empty it would be inserted at the top level, which is not modelled). *)
Variables (s v : nat) (dflt : bool) (i : ins) (orph : bool) (veq : bool).

(** Changing the matching node in the data. *)
Definition upd_match (f : dnode -> dnode) (x : st) (d : dnode) (dn : diff) : st :=
  mkst (update_first (is_it s v) f (st_g x)) (Some (f d)) (Some dn) (st_r x) (st_d x) (st_err x) true (st_del x).
Definition set_val (v' : nat) (b : bool) (d : dnode) : dnode := D (dsch d) v' b (dch d).
Definition set_r (x : st) : st := mkst (st_g x) (st_m x) (st_dn x) true (st_d x) (st_err x) (st_chg x) (st_del x).
Definition set_err (x : st) : st := mkst (st_g x) (st_m x) (st_dn x) (st_r x) (st_d x) true (st_chg x) (st_del x).

(** sr_edit_apply_none(), src/edit_diff.c 1490-1513. *)
Definition apply_none (x : st) : res (st * iop) :=
  match st_m x with
  | None => RHard
  | Some d =>
      ROk (match kd s with
           | KCont _ | KList _ => mkst (st_g x) (st_m x) (Some (F DNone s (dval d) (ddflt d) None None None [])) (st_r x) (st_d x) (st_err x) (st_chg x) (st_del x)
           | _ => x
           end, OContinue)
  end.

(** sr_edit_apply_ether(), src/edit_diff.c 1466-1476. *)
Definition apply_ether (x : st) : res (st * iop) :=
  ROk (x, match st_m x with None => OContinue | Some _ => OOp Non end).

(** sr_edit_apply_remove(), src/edit_diff.c 1528-1569. *)
Definition apply_remove (x : st) : res (st * iop) :=
  match st_m x with
  | None => ROk (x, OContinue)
  | Some d =>
      let oan := if userord (kd s) then prev_of (is_it s v) None (st_g x) else None in
      ROk (mkst (st_g x) (st_m x) (Some (F DDelete s (dval d) (ddflt d) None None oan [])) (st_r x) true (st_err x) true true, OContinue)
  end.

(** sr_edit_apply_move(), src/edit_diff.c 1587-1653. *)
Definition apply_move (x : st) : res (st * iop) :=
  let new := match st_m x with Some d => d | None => D s v dflt [] end in
  let op := match st_m x with Some _ => DReplace | None => DCreate end in
  let old := match st_m x with Some _ => prev_of (is_it s v) None (st_g x) | None => None end in
  let g0 := match st_m x with Some _ => remove_first (is_it s v) (st_g x) | None => st_g x end in
  if orph then RHard
  else match edit_insert i new g0 with
  | None => RHard
  | Some g1 =>
      let an := prev_of (is_it s v) None g1 in
      ROk (mkst g1 (Some new) (Some (F op s (dval new) (ddflt new) None an old [])) (st_r x) (st_d x) (st_err x) true (st_del x), OContinue)
  end.

(** sr_edit_apply_replace(), src/edit_diff.c 1706-1791. *)
Definition apply_replace (x : st) : res (st * iop) :=
  match st_m x with
  | None => ROk (x, OOp Create)
  | Some d =>
      if veq then ROk (set_r x, OOp Non)
      else match kd s with
           | KList _ | KLeafList _ => ROk (set_r x, OMove)
           | KLeaf => ROk (set_r (upd_match (set_val v false) x d (F DReplace s v false (Some (dval d, ddflt d)) None None [])), OContinue)
           | KCont _ => RHard
           end
  end.

(** sr_edit_apply_create(), src/edit_diff.c 1808-1868. *)
Definition apply_create (x : st) : res (st * iop) :=
  match st_m x with
  | Some d =>
      if np_cont (kd s) then ROk (x, OOp Non)
      else if (match kd s with KLeaf => true | _ => false end) && ddflt d then ROk (x, if veq then ODflt else OOp Replace)
      else ROk (set_err x, OContinue)
  | None =>
      if userord (kd s) then ROk (x, OMove)
      else if orph then RHard
      else ROk (mkst (st_g x ++ [D s v dflt []]) (Some (D s v dflt [])) (Some (F DCreate s v dflt None None None [])) (st_r x) (st_d x) (st_err x) true (st_del x), OContinue)
  end.

(** sr_edit_apply_merge(), src/edit_diff.c 1881-1917. *)
Definition apply_merge (x : st) : res (st * iop) :=
  match st_m x with
  | None => ROk (x, OOp Create)
  | Some d =>
      if negb veq then
        match kd s with
        | KList _ | KLeafList _ => if userord (kd s) then ROk (x, OMove) else RAssert
        | KLeaf => ROk (x, OOp Replace)
        | KCont _ => RHard
        end
      else if term (kd s) && negb (Bool.eqb (ddflt d) dflt) then ROk (x, ODflt)
      else ROk (x, OOp Non)
  end.

(** sr_edit_apply_delete(), src/edit_diff.c 1928-1946; [data_match] is reset only in the callee. *)
Definition apply_delete (x : st) : res (st * iop) :=
  match st_m x with
  | None => ROk (set_err x, OContinue)
  | Some d => if term (kd s) && ddflt d then ROk (set_err x, OContinue) else ROk (x, OOp Remove)
  end.

(** sr_edit_apply_dflt_change(), src/edit_diff.c 1960-1990. *)
Definition apply_dflt (x : st) : res (st * iop) :=
  match st_m x with
  | None => RAssert
  | Some d =>
      if negb (term (kd s)) || Bool.eqb (ddflt d) dflt then RAssert
      else ROk (upd_match (set_val (dval d) dflt) x d (F DNone s (dval d) dflt (Some (dval d, ddflt d)) None None []), OContinue)
  end.

(** The loop, src/edit_diff.c 2108-2171; at most 4 operations follow each other. Purge is done before. *)
Definition step_op (o : iop) (x : st) : res (st * iop) :=
  match o with
  | OOp Replace => apply_replace x
  | OOp Create => apply_create x
  | OOp Merge => apply_merge x
  | OOp Delete => apply_delete x
  | ODflt => apply_dflt x
  | OOp Remove | OOp Purge => apply_remove x
  | OMove => apply_move x
  | OOp Non => apply_none x
  | OOp Ether => apply_ether x
  | OContinue => RHard
  end.
Fixpoint op_loop (fuel : nat) (o : iop) (x : st) : res st :=
  match fuel with
  | O => RHard
  | S n =>
      match step_op o x with
      | ROk (x', OContinue) => ROk x'
      | ROk (x', o') => op_loop n o' x'
      | RHard => RHard
      | RAssert => RAssert
      end
  end.
End Node.

(** The previous instance among siblings. *)
Definition last_inst (s : nat) (seen : list dnode) : option nat :=
  match rev (grp s seen) with d :: _ => Some (dval d) | [] => None end.
Definition last_einst (s : nat) (seen : list enode) : option nat :=
  match rev (filter (fun c => Nat.eqb (esch c) s) seen) with c :: _ => Some (eval c) | [] => None end.

(** Diff of a deleted subtree, src/edit_diff.c 2208-2228 called with the data node in place of the edit
    node: all descendants are removed one by one, each is then the first instance. *)
Fixpoint del_diff (oan : option nat) (d : dnode) : diff :=
  match d with
  | D s v b ch => F DDelete s v b None None (if userord (kd s) then oan else None) (map (del_diff None) ch)
  end.
(** sr_edit_apply_remove_diff_subtree_add(), src/edit_diff.c 2002-2043; places of descendants before the
    deletion. *)
Fixpoint purge_diff (oan : option nat) (d : dnode) : diff :=
  match d with
  | D s v b ch => F DDelete s v b None None (if userord (kd s) then oan else None)
      ((fix go (seen l : list dnode) : list diff :=
          match l with [] => [] | c :: t => purge_diff (last_inst (dsch c) seen) c :: go (seen ++ [c]) t end) [] ch)
  end.

(** Removing children that are not in the edit, src/edit_diff.c 2206-2218. *)
Definition in_edit (es : list enode) (d : dnode) : bool :=
  existsb (fun e => Nat.eqb (esch e) (dsch d) && (if inst (kd (dsch d)) then Nat.eqb (eval e) (dval d) else true)) es.
Fixpoint drop (es : list enode) (seen ds : list dnode) : list dnode * list diff :=
  match ds with
  | [] => (seen, [])
  | d :: t =>
      if in_edit es d then drop es (seen ++ [d]) t
      else let r := drop es seen t in (fst r, del_diff (last_inst (dsch d) seen) d :: snd r)
  end.

(** sr_diff_is_redundant(), src/edit_diff.c 1389-1456, and freeing the node. *)
Definition finish (f : diff) (kids : list diff) : list diff :=
  match f with
  | F op s v b ov an oan _ =>
      match op with
      | DReplace =>
          if userord (kd s) && onat_eqb an oan
          then if isnil kids then [] else [F DNone s v b ov None None kids]
          else [F op s v b ov an oan kids]
      | DNone =>
          if term (kd s) then match ov with Some (_, b0) => if Bool.eqb b0 b then [] else [F op s v b ov an oan kids] | None => [] end
          else if isnil kids then [] else [F op s v b ov an oan kids]
      | _ => [F op s v b ov an oan kids]
      end
  end.

Record out := mkout { o_g : list dnode; o_diff : list diff; o_err : bool; o_chg : bool }.

(** The loop over edit siblings; [seen] are those before. *)
Section Fold.
Variable f : option nat -> enode -> list dnode -> res out.
Fixpoint fold_edits (seen es : list enode) (ds : list dnode) : res out :=
  match es with
  | [] => ROk (mkout ds [] false false)
  | c :: t =>
      match f (last_einst (esch c) seen) c (grp (esch c) ds) with
      | ROk o =>
          match fold_edits (seen ++ [c]) t (put (esch c) (o_g o) ds) with
          | ROk o' => ROk (mkout (o_g o') (o_diff o ++ o_diff o') (o_err o || o_err o') (o_chg o || o_chg o'))
          | RHard => RHard
          | RAssert => RAssert
          end
      | RHard => RHard
      | RAssert => RAssert
      end
  end.
End Fold.

(** Operations not allowed under a deleted node, src/edit_diff.c 2093-2100. *)
Definition bad_nested (o : eop) : bool :=
  match o with Replace | Create | Merge | Non | Ether => true | Delete | Remove | Purge => false end.
(** Missing anchor, src/edit_diff.c 164-168. *)
Definition bad_ins (s : nat) (i : ins) : bool :=
  userord (kd s) && match i with IBefore None | IAfter None => true | _ => false end.

(** sr_edit_apply_r(), src/edit_diff.c 2057-2240, on the group [g] of siblings of the edit node's schema
    node. [fr], [fd]: flags, [orph]: the parent is missing, [pop]: parent operation, [ep]: the previous
    instance in the edit. Diff nodes of children without a diff node of their parent would be put at the
    top of the diff; it happens only if there is an error and they are left out. *)
Fixpoint apply_e (fr fd orph : bool) (pop : option eop) (ep : option nat) (e : enode) (g : list dnode) {struct e} : res out :=
  match e with
  | E s v dflt own i ch =>
      match (match own with Some o => Some o | None => pop end) with
      | None => RHard
      | Some op =>
          if bad_ins s i then RHard
          else if fd && bad_nested op then RHard
          else
            let kids (fr' fd' : bool) (m : option dnode) (dn : option diff) : res (list dnode * list diff * bool * bool) :=
              let base := match m with Some d => dch d | None => [] end in
              let p := if fr' || fd' then drop ch [] base else (base, []) in
              match fold_edits (fun ep' c g' => apply_e fr' fd' (negb (issome m)) (Some op) ep' c g') [] ch (fst p) with
              | ROk o => ROk (o_g o, match dn with Some f => finish f (snd p ++ o_diff o) | None => [] end, o_err o, o_chg o || negb (isnil (snd p)))
              | RHard => RHard
              | RAssert => RAssert
              end in
            match op with
            | Purge =>
                let gone := if inst (kd s) then g else firstn 1 g in
                let rest := if inst (kd s) then [] else skipn 1 g in
                match kids fr (fd || negb (isnil gone)) None None with
                | ROk (_, _, err, chg) => ROk (mkout rest (map (purge_diff None) gone) err (chg || negb (isnil gone)))
                | RHard => RHard
                | RAssert => RAssert
                end
            | _ =>
                let m := edit_find s v dflt g in
                match val_equal fr i ep s v m g with
                | None => RHard
                | Some veq =>
                    match op_loop s v dflt i orph veq 5 (OOp op) (mkst g m None fr fd false false false) with
                    | ROk x =>
                        match kids (st_r x) (st_d x) (st_m x) (st_dn x) with
                        | ROk (ch', df, err, chg) =>
                            ROk (mkout (if st_del x then remove_first (is_it s v) (st_g x)
                                        else match st_m x with
                                             | Some _ => update_first (is_it s v) (fun d => D (dsch d) (dval d) (ddflt d) ch') (st_g x)
                                             | None => st_g x
                                             end) df (st_err x || err) (st_chg x || chg))
                        | RHard => RHard
                        | RAssert => RAssert
                        end
                    | RHard => RHard
                    | RAssert => RAssert
                    end
                end
            end
      end
  end.

(** sr_edit_mod_apply() on all the siblings, src/edit_diff.c 2242-2285; merging of diffs of different
    top-level nodes is putting them together. *)
Definition edit_apply (es : list enode) (ds : list dnode) : res out :=
  fold_edits (fun ep c g => apply_e false false false None ep c g) [] es ds.
End Edit.
