(** What sr_get_data() returns for the nodes selected by an XPath.

    Modelled: src/sysrepo.c 3114-3258 (sr_get_data(), from the evaluation of the XPath
    on), 2948-3006 (leaving out configuration or state data); src/common.c 4231-4266
    (copying to a depth) and 4888-4932 (redundant results).

    Simplified: [sel] says which nodes the XPath selects, the set of results is in
    document order (libyang).  A node has an identifier (its address), the keys of a
    list instance are its children with [t_key].  Copying one node copies its keys,
    copying a key into a copy of its list instance finds the key there (lyd_dup_*()).
    What NACM decides is given by [deny] and [hide], see C20: a result is denied if it
    or a parent is, and hidden nodes below are removed.  Trimming is applied to each
    result on its own: results are in different subtrees.  Nodes of the returned tree
    are listed in the order in which they are created, with the positions of their
    parents. *)
From Coq Require Import NArith List Bool Arith.
Import ListNotations.

Inductive tree := T (id : N) (key state : bool) (kids : list tree).

Definition t_id (t : tree) : N := match t with T i _ _ _ => i end.
Definition t_key (t : tree) : bool := match t with T _ k _ _ => k end.
Definition t_state (t : tree) : bool := match t with T _ _ s _ => s end.
Definition t_kids (t : tree) : list tree := match t with T _ _ _ l => l end.

(** A result: the parents, the nearest one first, and the subtree. *)
Definition result := (list tree * tree)%type.

(** sr_modinfo_get_filter(), modinfo.c 3440-3449: all selected nodes in document order *)
Fixpoint found (sel : N -> bool) (c : list tree) (t : tree) : list result :=
  match t with
  | T i k s l => (if sel i then [(c, t)] else []) ++ flat_map (found sel (t :: c)) l
  end.

Definition has (l : list N) (n : N) : bool := existsb (N.eqb n) l.

(** sr_xpath_set_filter_subtrees(), common.c 4888-4932 *)
Fixpoint filter_subtrees (seen : list N) (l : list result) : list result :=
  match l with
  | [] => []
  | r :: l' => if existsb (fun a => has seen (t_id a)) (fst r) then filter_subtrees seen l'
               else r :: filter_subtrees (t_id (snd r) :: seen) l'
  end.

(** SR_OPER_NO_STATE, SR_OPER_NO_CONFIG *)
Record opts := Opts { no_state : bool; no_config : bool }.

(** sr_oper_data_trim_r(), sysrepo.c 2948-2986: [None] if the subtree is freed *)
Fixpoint trim_r (o : opts) (t : tree) : option tree :=
  match t with
  | T i k s l =>
      if k then Some t
      else if s then (if no_state o then None else Some t)
      else
        let l' := flat_map (fun x => if t_key x then [x] else match trim_r o x with Some y => [y] | None => [] end) l in
        if no_config o && negb (existsb (fun x => negb (t_key x)) l') then None else Some (T i k s l')
  end.

Definition trim (o : opts) (t : tree) : option tree :=
  if no_state o || no_config o then trim_r o t else Some t.

(** sr_oper_data_trim(), sysrepo.c 2995-3006 *)
Definition trim_set (o : opts) (l : list result) : list result :=
  flat_map (fun r => match trim o (snd r) with Some t => [(fst r, t)] | None => [] end) l.

(** ** The returned tree *)

Definition store := list (N * option nat).

(** lyd_dup_single() of one node with its keys *)
Definition dup_one (t : tree) (par : option nat) (s : store) : store :=
  s ++ (t_id t, par) :: map (fun k => (t_id k, Some (length s))) (filter t_key (t_kids t)).

(** lyd_dup_single() with LYD_DUP_RECURSIVE *)
Fixpoint dup_all (t : tree) (par : option nat) (s : store) : store :=
  match t with
  | T i _ _ l => fold_left (fun s' x => dup_all x (Some (length s)) s') l (s ++ [(i, par)])
  end.

(** lyd_dup_single() followed by sr_lyd_dup_r(), common.c 4231-4266 *)
Fixpoint dup_depth (t : tree) (d : N) (par : option nat) (s : store) : store :=
  match t with
  | T i _ _ l =>
      if N.eqb d 0 then dup_one t par s
      else fold_left (fun s' x => if t_key x then s' else dup_depth x (N.pred d) (Some (length s)) s')
                     l (dup_one t par s)
  end.

(** sr_nacm_get_subtree_read_filter(): removing nodes that may not be read *)
Fixpoint prune (hide : N -> bool) (t : tree) : tree :=
  match t with
  | T i k s l => T i k s (flat_map (fun x => if negb (t_key x) && hide (t_id x) then [] else [prune hide x]) l)
  end.

Definition ht := list (N * nat).

Fixpoint ht_find (h : ht) (n : N) : option nat :=
  match h with
  | [] => None
  | (k, r) :: h' => if N.eqb n k then Some r else ht_find h' n
  end.

(** The nearest parent that exists in the returned tree, and the parents below it,
    sysrepo.c 3188-3197 *)
Fixpoint locate (h : ht) (c : list tree) : list tree * option nat :=
  match c with
  | [] => ([], None)
  | a :: c' => match ht_find h (t_id a) with
               | Some r => ([], Some r)
               | None => (a :: fst (locate h c'), snd (locate h c'))
               end
  end.

(** lyd_dup_single() with LYD_DUP_WITH_PARENTS: the missing parents, the topmost first;
    and sysrepo.c 3232-3246: they are stored in the table *)
Fixpoint dup_parents (l : list tree) (par : option nat) (s : store) (h : ht) : store * option nat * ht :=
  match l with
  | [] => (s, par, h)
  | a :: l' => dup_parents l' (Some (length s)) (dup_one a par s) ((t_id a, length s) :: h)
  end.

Record ctl := Ctl { c_depth : N; c_opts : opts; c_deny : N -> bool; c_hide : N -> bool }.

(** One iteration, sysrepo.c 3186-3247 *)
Definition add_result (k : ctl) (x : store * ht) (r : result) : store * ht :=
  let (s, h) := x in
  let (c, t) := r in
  if existsb (fun a => c_deny k (t_id a)) c || (negb (t_key t) && c_deny k (t_id t)) then (s, h)
  else
    let (new, par) := locate h c in
    match dup_parents (rev new) par s h with
    | (s', par', h') =>
        if t_key t then (s', h')
        else let t' := prune (c_hide k) t in
             ((if N.eqb (c_depth k) 0 then dup_all t' par' s' else dup_depth t' (c_depth k) par' s'), h')
    end.

(** sr_get_data(), sysrepo.c 3158-3247 *)
Definition get_data (k : ctl) (sel : N -> bool) (f : list tree) : store :=
  fst (fold_left (add_result k)
         (trim_set (c_opts k) (filter_subtrees [] (flat_map (found sel []) f))) ([], [])).
