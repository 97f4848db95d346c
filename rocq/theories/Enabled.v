(** The configuration data present in the operational datastore: those that
    somebody is subscribed to.

    Models sr_module_oper_data_get_enabled() (src/modinfo.c 1616-1684),
    sr_lyd_get_module_data(), sr_lyd_dup_module_np_cont(),
    sr_lyd_copy_config_np_cont_r() and sr_lyd_get_enabled_xpath()
    (src/common.c 4294-4567), both when duplicating data of the cache and when
    moving the nodes of data that were loaded.

    Simplifications: a node is given by its schema node and its keys or value,
    which is unique among siblings as in all configuration data; pointers of the
    set of nodes are paths, and a pointer to a node that is not in the data is
    undefined. Of what is created implicitly (lyd_new_implicit_tree(), 4549) just
    containers of configuration are considered, and these are the ones in
    the running data, which are valid and so have all of them. Data of
    other modules, origins and flags are left out. *)

From Coq Require Import List Arith Bool.
Import ListNotations.

Record inst := Inst { i_node : nat; i_val : nat }.
Definition inst_eqb (a b : inst) : bool := Nat.eqb (i_node a) (i_node b) && Nat.eqb (i_val a) (i_val b).
Definition path := list inst.

Inductive tree := T (i : inst) (ch : list tree).
Definition forest := list tree.
Definition ti (t : tree) : inst := match t with T i _ => i end.
Definition tch (t : tree) : forest := match t with T _ ch => ch end.

Section Data.

(** Containers without presence, keys of lists, and the order of siblings:
    by schema nodes, then by values unless ordered by the user, when it is the
    same for all. *)
Variables (np key : inst -> bool) (rank : inst -> nat).

(** lyd_find_sibling_first(). *)
Fixpoint find_t (i : inst) (f : forest) : option tree :=
  match f with
  | [] => None
  | t :: r => if inst_eqb (ti t) i then Some t else find_t i r
  end.

(** lyd_insert_child(), lyd_insert_sibling(): after all of the same order. *)
Fixpoint ins (t : tree) (f : forest) : forest :=
  match f with
  | [] => [t]
  | x :: r => if Nat.ltb (rank (ti t)) (rank (ti x)) then t :: x :: r else x :: ins t r
  end.

Fixpoint upd (i : inst) (g : forest -> forest) (f : forest) : forest :=
  match f with
  | [] => []
  | t :: r => if inst_eqb (ti t) i then T i (g (tch t)) :: r else t :: upd i g r
  end.

(** lyd_merge_tree(), lyd_merge_siblings(). *)
Fixpoint merge1 (s : tree) (f : forest) : forest :=
  match s with
  | T i ch =>
      match find_t i f with
      | None => ins s f
      | Some _ => upd i (fun c => fold_left (fun acc x => merge1 x acc) ch c) f
      end
  end.
Definition merge (g f : forest) : forest := fold_left (fun acc x => merge1 x acc) g f.

(** sr_lyd_copy_config_np_cont_r(), src/common.c 4294-4350, into nothing. *)
Fixpoint skel_t (t : tree) : forest :=
  match t with T i ch => if np i then [T i (flat_map skel_t ch)] else [] end.
Definition skel (f : forest) : forest := flat_map skel_t f.

(** Containers that are created implicitly in a tree, [f] are the siblings of
    the same node in the running data. *)
Fixpoint addnp (f : forest) (t : tree) : tree :=
  match t with
  | T i ch =>
      let c := match find_t i f with Some x => tch x | None => [] end in
      T i (merge (skel c) (map (addnp c) ch))
  end.

(** The node at a path. *)
Fixpoint get (p : path) (f : forest) : option tree :=
  match p with
  | [] => None
  | i :: q =>
      match find_t i f with
      | None => None
      | Some t => match q with [] => Some t | _ => get q (tch t) end
      end
  end.

(** lyd_unlink_tree(). *)
Fixpoint unlink (p : path) (f : forest) : forest :=
  match p with
  | [] => f
  | i :: q =>
      match q with
      | [] => filter (fun t => negb (inst_eqb (ti t) i)) f
      | _ => upd i (unlink q) f
      end
  end.

(** lyd_dup_single() with parents, which have their keys, and [t] put into
    the parent (4480-4482, 4496-4501, 4513-4530); top-level root of that. *)
Fixpoint chain (p : path) (f : forest) (t : tree) : tree :=
  match p with
  | [] => t
  | i :: q =>
      match q with
      | [] => t
      | _ => match find_t i f with
             | None => t
             | Some x => T i (merge1 (chain q (tch x) t) (filter (fun k => key (ti k)) (tch x)))
             end
      end
  end.

(** Is [q] the path of [s] or of a descendant? *)
Fixpoint below (s q : path) : bool :=
  match s, q with
  | [], _ => true
  | i :: s', j :: q' => inst_eqb i j && below s' q'
  | _, _ => false
  end.

(** lyd_find_xpath(): selected nodes in the order of the data. *)
Fixpoint paths_t (t : tree) : list path :=
  match t with T i ch => [i] :: map (cons i) (flat_map paths_t ch) end.
Definition find_xpath (x : path -> bool) (f : forest) : list path := filter x (flat_map paths_t f).

Fixpoint path_eqb (a b : path) : bool :=
  match a, b with
  | [], [] => true
  | i :: a', j :: b' => inst_eqb i j && path_eqb a' b'
  | _, _ => false
  end.

(** ly_set_merge(), 4458-4475: without duplicates. *)
Definition set_add (s : list path) (p : path) : list path := if existsb (path_eqb p) s then s else s ++ [p].
Definition collect (xs : list (path -> bool)) (f : forest) : list path :=
  fold_left (fun s x => fold_left set_add (find_xpath x f) s) xs [].

(** Lines 4477-4563 with [dup]; [R] the running data. *)
Fixpoint each_dup (R : forest) (set : list path) (new : forest) : option forest :=
  match set with
  | [] => Some new
  | s :: r =>
      match get s R with
      | None => None
      | Some t => each_dup R r (merge1 (addnp R (chain s R t)) new)
      end
  end.

(** Lines 4477-4563 without: [f] the data still left; the pointers set to
    NULL (4537-4545) are those of the nodes below one that was moved. *)
Fixpoint each_move (R f : forest) (moved : list path) (set : list path) (new : forest) : option forest :=
  match set with
  | [] => Some new
  | s :: r =>
      if existsb (fun m => below m s) moved then each_move R f moved r new
      else match get s f with
           | None => None
           | Some t =>
               let new' := merge1 (addnp R (chain s f t)) new in
               if key (ti t) then each_move R f moved r new'
               else each_move R (unlink s f) (s :: moved) r new'
           end
  end.

(** Subscriptions to changes of the running datastore. *)
Record sub := Sub { s_xpath : option (path -> bool); s_passive : bool; s_alive : bool }.
Definition active (s : sub) : bool := negb (s_passive s) && s_alive s.
Definition xpaths (subs : list sub) : list (path -> bool) :=
  flat_map (fun s => match s_xpath s with Some x => if active s then [x] else [] | None => [] end) subs.

(** sr_module_oper_data_get_enabled(); [None]: undefined. *)
Definition get_enabled (R : forest) (subs : list sub) (dup : bool) : option forest :=
  let base := skel R in
  match R with
  | [] => Some base
  | _ =>
      if existsb (fun s => match s_xpath s with None => active s | _ => false end) subs
      then Some (merge R base)
      else let set := collect (xpaths subs) R in
           if dup then each_dup R set base else each_move R R [] set base
  end.

End Data.
