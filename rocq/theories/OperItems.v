(** Building operational data of a session with calls for items: sr_set_item_str(), src/sysrepo.c
    3452-3522, sr_delete_item(), 3524-3585, sr_discard_items(), 3626-3680, sr_edit_batch(), 3715-3830,
    sr_discard_changes(), 4344-4370, sr_apply_changes(), 4254-4313 with sr_apply_oper_changes(),
    4156-4240; src/edit_diff.c 2411-2660 (sr_oper_edit_mod_apply()).

    Data are nodes with their paths and values: a path starts with the top-level node, a name of
    an instance of a list contains its keys, inner nodes have value 0.  Origins are left out (C31).
    What the session stored is one set of data for all the modules: the code has one file for
    each of them, a discard-items node for several modules is in one of the files. *)
From Coq Require Import List Bool Arith.
Import ListNotations.

Definition path := list nat.
Definition nodes := list (path * nat).
Inductive op := OMerge | OReplace.
Definition op_eqb (a b : op) : bool := match a, b with OMerge, OMerge | OReplace, OReplace => true | _, _ => false end.

Fixpoint path_eqb (a b : path) : bool :=
  match a, b with [], [] => true | x :: a, y :: b => Nat.eqb x y && path_eqb a b | _, _ => false end.
Fixpoint is_prefix (a b : path) : bool :=
  match a, b with [], _ => true | x :: a, y :: b => Nat.eqb x y && is_prefix a b | _, _ => false end.
Definition find_node (p : path) (l : nodes) : option nat := option_map snd (find (fun n => path_eqb (fst n) p) l).

(** Stored: nodes and XPaths of discard-items.  Pending: the same with an operation for each
    top-level node and XPath. *)
Record sdata := mkdata { d_nodes : nodes; d_disc : list nat }.
Record pend := mkpend { p_nodes : nodes; p_op : nat -> op; p_disc : list (nat * op) }.
Record sess := mksess { s_stored : sdata; s_pend : option pend }.

Section M.
(** The module of a top-level node, whether an XPath has the prefix of a module (sr_xpath_refs_mod()),
    whether it selects nodes of a module (sr_modinfo_collect_xpath()), and all modules. *)
Variable mod_of : nat -> nat.
Variable refs sel : nat -> nat -> bool.
Variable mods : list nat.

Definition node_mod (m : nat) (n : path * nat) : bool := match fst n with t :: _ => Nat.eqb (mod_of t) m | [] => false end.

(** *** Adding to what is pending *)
(** sr_get_oper_changes() with replace for every top-level node, or no data (sysrepo.c 3473-3498) *)
Definition load (d : sdata) : pend := mkpend (d_nodes d) (fun _ => OReplace) (map (fun x => (x, OReplace)) (d_disc d)).

(** lyd_new_path() creates the missing parents *)
Fixpoint add_parents (done rest : path) (l : nodes) : nodes :=
  match rest with
  | [] | [_] => l
  | x :: r => let q := done ++ [x] in
              add_parents q r (match find_node q l with Some _ => l | None => l ++ [(q, 0)] end)
  end.

(** sr_edit_add() for operational data, edit_diff.c 3256-3400: the value of an existing node is changed,
    or the node is created; a new top-level node gets the default operation *)
Definition set_node (p : path) (v : nat) (e : pend) : pend :=
  match find_node p (p_nodes e) with
  | Some _ => mkpend (map (fun n => if path_eqb (fst n) p then (fst n, v) else n) (p_nodes e)) (p_op e) (p_disc e)
  | None =>
      let o := match p with
               | t :: _ => match find_node [t] (p_nodes e) with
                           | Some _ => p_op e
                           | None => fun x => if Nat.eqb x t then OReplace else p_op e x
                           end
               | [] => p_op e
               end in
      mkpend (add_parents [] p (p_nodes e) ++ [(p, v)]) o (p_disc e)
  end.

(** sysrepo.c 3551-3585: the subtree is freed *)
Definition del_node (p : path) (e : pend) : pend :=
  mkpend (filter (fun n => negb (is_prefix p (fst n))) (p_nodes e)) (p_op e) (p_disc e).

(** The end of all these functions: no nodes, nothing pending (sysrepo.c 3514-3517) *)
Definition finish (e : pend) : option pend :=
  match p_nodes e, p_disc e with [], [] => None | _, _ => Some e end.

(** *** Applying *)
Inductive res := ROk (d : sdata) | RErr | RAssert.

(** Top-level siblings, discard-items are the last ones *)
Definition roots (e : pend) : list (option nat * op) :=
  flat_map (fun n => match fst n with [t] => [(Some (mod_of t), p_op e t)] | _ => [] end) (p_nodes e) ++
  map (fun x => (None, snd x)) (p_disc e).

Definition of_mod (m : nat) (r : option nat * op) : bool := match fst r with Some k => Nat.eqb k m | None => false end.
Fixpoint from_mod (m : nat) (l : list (option nat * op)) : list (option nat * op) :=
  match l with [] => [] | r :: t => if of_mod m r then l else from_mod m t end.

(** edit_diff.c 2590-2603: also the operation of the node after those of the module is checked; the
    outer [None] is an error, the inner one no operation *)
Definition join (o : option op) (o' : op) : option (option op) :=
  match o with None => Some (Some o') | Some a => if op_eqb a o' then Some o else None end.
Fixpoint learn (m : nat) (o : option op) (l : list (option nat * op)) : option (option op) :=
  match l with
  | [] => Some o
  | r :: t => match join o (snd r) with
              | None => None
              | Some o' => if of_mod m r then learn m o' t else Some o'
              end
  end.
(** edit_diff.c 2606-2634: discard-items from the last one *)
Fixpoint learn_disc (m : nat) (o : option op) (l : list (nat * op)) : option (option op) :=
  match l with
  | [] => Some o
  | (x, o') :: t => if refs x m then match join o o' with None => None | Some q => learn_disc m q t end
                    else learn_disc m o t
  end.

(** ly_set_rm_index(): the last one is put in the place *)
Definition rm_index (j : nat) (l : list nat) : list nat :=
  match skipn j l with
  | [] => l
  | [_] => firstn j l
  | _ :: t => firstn j l ++ last t 0 :: removelast t
  end.
Fixpoint index (x : nat) (l : list nat) : option nat :=
  match l with [] => None | y :: t => if Nat.eqb x y then Some 0 else option_map S (index x t) end.

(** edit_diff.c 2488-2508: equal ones are removed from both sets *)
Fixpoint drop_equal (fuel i : nat) (a b : list nat) : list nat * list nat :=
  match fuel with
  | 0 => (a, b)
  | S n =>
      match nth_error a i with
      | None => (a, b)
      | Some x => match index x b with
                  | Some j => drop_equal n i (rm_index i a) (rm_index j b)
                  | None => drop_equal n (S i) a b
                  end
      end
  end.
Fixpoint remove_one (x : nat) (l : list nat) : list nat :=
  match l with [] => [] | y :: t => if Nat.eqb x y then t else y :: remove_one x t end.

(** sr_lyd_merge_module() *)
Definition merge_node (l : nodes) (n : path * nat) : nodes :=
  match find_node (fst n) l with
  | Some _ => map (fun k => if path_eqb (fst k) (fst n) then n else k) l
  | None => l ++ [n]
  end.

(** sr_oper_edit_mod_apply_data(), edit_diff.c 2411-2563, the assert of line 2423 first.  Simplification: of
    equal discard-items any may be removed. *)
Definition mod_apply_data (m : nat) (e : pend) (opaq : list nat) (o : option op) (d : sdata) : res :=
  match o with
  | None => RAssert
  | Some o =>
      let mine := filter (node_mod m) (p_nodes e) in
      let old := rev (filter (fun x => refs x m) (d_disc d)) in
      let ns := match o with
                | OMerge => fold_left merge_node mine (d_nodes d)
                | OReplace => filter (fun n => negb (node_mod m n)) (d_nodes d) ++ mine
                end in
      let (new, gone) := drop_equal (length opaq) 0 opaq old in
      let disc := match o with
                  | OMerge => d_disc d
                  | OReplace => fold_left (fun l x => remove_one x l) gone (d_disc d)
                  end in
      ROk (mkdata ns (disc ++ new))
  end.

(** sr_oper_edit_mod_apply(), edit_diff.c 2566-2661 *)
Definition mod_apply (m : nat) (e : pend) (d : sdata) : res :=
  match learn m None (from_mod m (roots e)) with
  | None => RErr
  | Some o =>
      match learn_disc m o (rev (p_disc e)) with
      | None => RErr
      | Some o => mod_apply_data m e (rev (filter (fun x => refs x m) (map fst (p_disc e)))) o d
      end
  end.

(** Modules of stored data and of the edit, modinfo.c 149-192 and 322-373; sr_modinfo_oper_ds_diff(), modinfo.c
    641-683 *)
Definition has_mod (m : nat) (ns : nodes) (disc : list nat) : bool := existsb (node_mod m) ns || existsb (fun x => sel x m) disc.
Definition collect (e : pend) (d : sdata) : list nat :=
  filter (fun m => has_mod m (d_nodes d) (d_disc d) || has_mod m (p_nodes e) (map fst (p_disc e))) mods.
Definition apply_all (e : pend) (d : sdata) : res :=
  fold_left (fun r m => match r with ROk d' => mod_apply m e d' | r => r end) (collect e d) (ROk d).

(** *** Calls *)
(** Loading of the stored data may fail; a subscriber may refuse the change. *)
Inductive call :=
| CSet (p : path) (v : nat) (fail : bool)
| CDelete (p : path) (strict fail : bool)
| CDiscardItems (x : nat) (fail : bool)
| CBatch (ns : nodes) (disc : list nat) (o : op)
| CDiscardChanges
| CApply (refuse : bool).

Inductive ret := ROkay | RNotFound | RFailed | RCrash.

(** A function working on what is pending: an error of sr_get_oper_changes() is not returned. *)
Definition with_edit (s : sess) (fail : bool) (f : pend -> pend * ret) : sess * ret :=
  match s_pend s with
  | Some e => let (e', r) := f e in (mksess (s_stored s) (finish e'), r)
  | None => if fail then (s, ROkay)
            else let (e', r) := f (load (s_stored s)) in (mksess (s_stored s) (finish e'), r)
  end.

Definition do_call (c : call) (s : sess) : sess * ret :=
  match c with
  | CSet p v fail => with_edit s fail (fun e => (set_node p v e, ROkay))
  | CDelete p strict fail =>
      with_edit s fail (fun e => match find_node p (p_nodes e) with
                                 | Some _ => (del_node p e, ROkay)
                                 | None => (e, if strict then RNotFound else ROkay)
                                 end)
  | CDiscardItems x fail => with_edit s fail (fun e => (mkpend (p_nodes e) (p_op e) (p_disc e ++ [(x, OReplace)]), ROkay))
  | CBatch ns disc o =>
      match s_pend s with
      | Some _ => (s, RFailed)
      | None => (mksess (s_stored s) (Some (mkpend ns (fun _ => o) (map (fun x => (x, o)) disc))), ROkay)
      end
  | CDiscardChanges => (mksess (s_stored s) None, ROkay)
  | CApply refuse =>
      match s_pend s with
      | None => (s, ROkay)
      | Some e =>
          match apply_all e (s_stored s) with
          | RErr => (s, RFailed)
          | RAssert => (s, RCrash)
          | ROk d => if refuse then (s, RFailed) else (mksess d None, ROkay)
          end
      end
  end.

Fixpoint run (cs : list call) (s : sess) : sess * list ret :=
  match cs with
  | [] => (s, [])
  | c :: t => let (s1, r) := do_call c s in let (s2, rs) := run t s1 in (s2, r :: rs)
  end.
End M.
