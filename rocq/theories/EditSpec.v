(** Specification of edits, diffs and orders of user-ordered lists. Data are seen as values of paths,
    a path is a list of schema nodes with the value of keys of list instances. *)
From Coq Require Import List Bool Arith Sorted.
From Verif Require Import Edit.
Import ListNotations.

Section Spec.
Variable kd : nat -> kind.

(** ** Well-formed data and edits *)
Definition key (s v : nat) : nat := if inst (kd s) then v else 0.
Definition ident (d : dnode) : nat * nat := (dsch d, key (dsch d) (dval d)).
Definition eident (e : enode) : nat * nat := (esch e, key (esch e) (eval e)).
Definition eown (e : enode) : option eop := match e with E _ _ _ o _ _ => o end.
Definition ech (e : enode) : list enode := match e with E _ _ _ _ _ ch => ch end.

(** Siblings: in schema order, no instance twice. *)
Definition wf_sibs (ds : list dnode) : Prop := StronglySorted (fun a b => dsch a <= dsch b) ds /\ NoDup (map ident ds).
(** Containers have no value, only leaves may be default (default leaf-list instances are not covered)
    and leaves have no children. *)
Fixpoint wfd (d : dnode) : Prop :=
  match d with
  | D s v b ch =>
      (match kd s with KCont _ => v = 0 | _ => True end) /\ (b = true -> kd s = KLeaf) /\ (term (kd s) = true -> ch = []) /\
      wf_sibs ch /\ (fix all l := match l with [] => True | c :: t => wfd c /\ all t end) ch
  end.
Definition wf_data (ds : list dnode) : Prop := wf_sibs ds /\ Forall wfd ds.

(** In an edit, no instance is twice among siblings and nothing else of a list is there with its purge;
    purge has no children. *)
Definition wf_esibs (es : list enode) : Prop :=
  NoDup (map eident es) /\ (forall a b, In a es -> In b es -> eown a = Some Purge -> esch b = esch a -> b = a).
Fixpoint wfe (e : enode) : Prop :=
  match e with
  | E s v b own i ch =>
      b = false /\ (match kd s with KCont _ => v = 0 | _ => True end) /\ (term (kd s) = true -> ch = []) /\ (own = Some Purge -> ch = []) /\
      wf_esibs ch /\ (fix all l := match l with [] => True | c :: t => wfe c /\ all t end) ch
  end.
Definition wf_edit (es : list enode) : Prop := wf_esibs es /\ Forall wfe es.

(** ** Data as values of paths *)
Definition lk (id : nat * nat) (ds : list dnode) : option dnode :=
  find (fun d => Nat.eqb (fst (ident d)) (fst id) && Nat.eqb (snd (ident d)) (snd id)) ds.
Fixpoint get (path : list (nat * nat)) (ds : list dnode) : option nat :=
  match path with
  | [] => None
  | id :: rest =>
      match lk id ds with
      | None => None
      | Some d => match rest with [] => Some (dval d) | _ => get rest (dch d) end
      end
  end.

(** ** Meaning of an edit (RFC 6241, 7.2; none, ether and purge are sysrepo's): the resulting node, if
    any; the outer [None] is an error. *)
(** Where the parent is. *)
Inductive ctx := Present | Missing | Deleted.
Definition deletes (o : eop) : bool := match o with Delete | Remove | Purge => true | _ => false end.
Definition is_default (d : dnode) : bool := term (kd (dsch d)) && ddflt d.

Definition collect {A} (l : list (option (option A))) : option (list A) :=
  fold_right (fun r acc => match r, acc with Some (Some a), Some t => Some (a :: t) | Some None, Some t => Some t | _, _ => None end) (Some []) l.

(** Siblings the edit says nothing about. *)
Definition touched (es : list enode) (d : dnode) : bool :=
  existsb (fun e => Nat.eqb (esch e) (dsch d) &&
                    (match eown e with Some Purge => true | _ => false end || Nat.eqb (snd (eident e)) (snd (ident d)))) es.

(** [repl]: there is a replace operation in a parent. *)
Fixpoint sp (c : ctx) (repl : bool) (inh : option eop) (e : enode) (old : option dnode) {struct e} : option (option dnode) :=
  match e with
  | E s v _ own _ ch =>
      match (match own with Some o => Some o | None => inh end) with
      | None => None
      | Some op =>
          let kids (c' : ctx) (repl' : bool) (olds : list dnode) : option (list dnode) :=
            match collect (map (fun ce => sp c' repl' (Some op) ce (lk (eident ce) olds)) ch) with
            | Some rs => Some ((if repl' then [] else filter (fun d => negb (touched ch d)) olds) ++ rs)
            | None => None
            end in
          let node (value : nat) (repl' : bool) (olds : list dnode) : option (option dnode) :=
            match kids Present repl' olds with Some ds => Some (Some (D s value false ds)) | None => None end in
          let nothing (c' : ctx) (olds : list dnode) : option (option dnode) :=
            match kids c' repl olds with Some _ => Some None | None => None end in
          let missing := match c with Deleted => Deleted | _ => Missing end in
          match c, deletes op with
          | Deleted, false => None
          | _, _ =>
              match op, old with
              | Delete, Some d => if is_default d then None else nothing Deleted (dch d)
              | Delete, None => None
              | Remove, Some d => nothing Deleted (dch d)
              | Remove, None => nothing missing []
              | Purge, _ => Some None
              | Ether, None => nothing missing []
              | Ether, Some d | Non, Some d => node (dval d) repl (dch d)
              | Non, None => None
              | Merge, Some d => node v repl (dch d)
              | Replace, Some d => node v true (dch d)
              | Create, Some d =>
                  if np_cont (kd s) then node (dval d) repl (dch d)
                  else if is_default d then node v repl (dch d)
                  else None
              | Merge, None | Replace, None | Create, None =>
                  match c with Present => node v repl [] | _ => None end
              end
          end
      end
  end.

(** The meaning of an edit of the whole data. *)
Definition edit_spec (es : list enode) (ds : list dnode) : option (list dnode) :=
  match collect (map (fun e => sp Present false None e (lk (eident e) ds)) es) with
  | Some rs => Some (filter (fun d => negb (touched es d)) ds ++ rs)
  | None => None
  end.

(** Somewhere in the edit node or below: creating what exists, deleting what does not exist (or is only
    there by default) or requiring what does not exist; [old] is the node in the data. *)
Inductive conflict : option eop -> enode -> option dnode -> Prop :=
| cf_create : forall inh e d, (match eown e with Some o => Some o | None => inh end) = Some Create ->
    np_cont (kd (esch e)) = false -> is_default d = false -> conflict inh e (Some d)
| cf_delete : forall inh e old, (match eown e with Some o => Some o | None => inh end) = Some Delete ->
    (forall d, old = Some d -> is_default d = true) -> conflict inh e old
| cf_none : forall inh e, (match eown e with Some o => Some o | None => inh end) = Some Non -> conflict inh e None
| cf_child : forall inh e old o ce, (match eown e with Some o => Some o | None => inh end) = Some o -> o <> Purge -> In ce (ech e) ->
    conflict (Some o) ce (match old with Some d => lk (eident ce) (dch d) | None => None end) -> conflict inh e old.

(** No node is put before or after another one. *)
Fixpoint no_anchor (e : enode) : Prop :=
  match e with
  | E _ _ _ _ i ch => (match i with IBefore _ | IAfter _ => False | _ => True end) /\ (fix all l := match l with [] => True | c :: t => no_anchor c /\ all t end) ch
  end.

(** ** Meaning of a diff: applying it to data *)
Definition insert_at (an : option nat) (x : dnode) (g : list dnode) : option (list dnode) :=
  match an with None => Some (x :: g) | Some a => insert_after a x g end.
Section Fold.
Variable f : diff -> list dnode -> option (list dnode).
Definition fsch (x : diff) : nat := match x with F _ s _ _ _ _ _ _ => s end.
Fixpoint fold_diff (xs : list diff) (ds : list dnode) : option (list dnode) :=
  match xs with
  | [] => Some ds
  | x :: t => match f x (grp (fsch x) ds) with Some g => fold_diff t (put (fsch x) g ds) | None => None end
  end.
End Fold.
(** On all instances of the schema node. Previous values must be right, all descendants of a deleted
    node must be deleted as well; [nest]: in a deleted subtree, where previous places do not matter. *)
Definition ov_eqb (ov : option (nat * bool)) (d : dnode) : bool :=
  match ov with Some (v, b) => Nat.eqb v (dval d) && Bool.eqb b (ddflt d) | None => false end.
Fixpoint dapply (nest : bool) (x : diff) (g : list dnode) {struct x} : option (list dnode) :=
  match x with
  | F op s v b ov an oan ch =>
      let old := prev_of (is_it kd s v) None g in
      match op, find (is_it kd s v) g with
      | DCreate, None =>
          match fold_diff (dapply nest) ch [] with
          | Some ch' => if userord (kd s) then insert_at an (D s v b ch') g else Some (g ++ [D s v b ch'])
          | None => None
          end
      | DCreate, Some _ => None
      | DDelete, Some d =>
          match fold_diff (dapply true) ch (dch d) with
          | Some [] => if Nat.eqb v (dval d) && Bool.eqb b (ddflt d) && (nest || negb (userord (kd s)) || onat_eqb oan old) then Some (remove_first (is_it kd s v) g) else None
          | _ => None
          end
      | DNone, Some d | DReplace, Some d =>
          match fold_diff (dapply nest) ch (dch d) with
          | Some ch' =>
              match op, userord (kd s) with
              | DReplace, true => if onat_eqb oan old then insert_at an (D s (dval d) (ddflt d) ch') (remove_first (is_it kd s v) g) else None
              | _, _ =>
                  if term (kd s)
                  then if ov_eqb ov d then Some (update_first (is_it kd s v) (fun _ => D s v b ch') g) else None
                  else Some (update_first (is_it kd s v) (fun _ => D s (dval d) (ddflt d) ch') g)
              end
          | None => None
          end
      | _, None => None
      end
  end.
Definition diff_apply (xs : list diff) (ds : list dnode) : option (list dnode) := fold_diff (dapply false) xs ds.

(** ** Orders of user-ordered lists: [l] are the instances *)
Fixpoint before (a x : nat) (l : list nat) : option (list nat) :=
  match l with [] => None | y :: t => if Nat.eqb y a then Some (x :: y :: t) else option_map (cons y) (before a x t) end.
Fixpoint after (a x : nat) (l : list nat) : option (list nat) :=
  match l with [] => None | y :: t => if Nat.eqb y a then Some (y :: x :: t) else option_map (cons y) (after a x t) end.
(** [None]: there is no such place. *)
Definition place (i : ins) (x : nat) (l : list nat) : option (list nat) :=
  let l0 := filter (fun y => negb (Nat.eqb y x)) l in
  match i with
  | IDefault => Some (if existsb (Nat.eqb x) l then l else l ++ [x])
  | IFirst => Some (x :: l0)
  | ILast => Some (l0 ++ [x])
  | IBefore (Some a) => before a x l0
  | IAfter (Some a) => after a x l0
  | IBefore None | IAfter None => None
  end.
Definition order (s : nat) (ds : list dnode) : list nat := map dval (grp s ds).

(** The order after an edit node with operation [op]. *)
Definition writes (o : eop) : bool := match o with Merge | Replace | Create => true | _ => false end.
Definition norder (op : eop) (i : ins) (v : nat) (l : list nat) : option (list nat) :=
  if writes op then place i v l
  else Some match op with
       | Purge => []
       | Delete | Remove => filter (fun y => negb (Nat.eqb y v)) l
       | _ => l
       end.
Definition eins (e : enode) : ins := match e with E _ _ _ _ i _ => i end.
Definition eff (inh : option eop) (e : enode) : option eop := match eown e with Some o => Some o | None => inh end.
(** After all the edit siblings one after another. *)
Fixpoint norders (s : nat) (inh : option eop) (es : list enode) (l : list nat) : option (list nat) :=
  match es with
  | [] => Some l
  | e :: t =>
      if Nat.eqb (esch e) s
      then match eff inh e with
           | Some op => match norder op (eins e) (eval e) l with Some l' => norders s inh t l' | None => None end
           | None => None
           end
      else norders s inh t l
  end.

(** Children at a path: in data and in an edit, where no node of the path is being deleted; the inherited
    operation and whether there is a replace on the path. *)
Fixpoint dat (p : list (nat * nat)) (ds : list dnode) : list dnode :=
  match p with
  | [] => ds
  | id :: r => match lk id ds with Some d => dat r (dch d) | None => [] end
  end.
Fixpoint eat (p : list (nat * nat)) (inh : option eop) (repl : bool) (es : list enode) : option (option eop * bool * list enode) :=
  match p with
  | [] => Some (inh, repl, es)
  | id :: r =>
      match find (fun e => Nat.eqb (fst (eident e)) (fst id) && Nat.eqb (snd (eident e)) (snd id)) es with
      | Some e =>
          match eff inh e with
          | Some op => if deletes op then None else eat r (Some op) (repl || match op with Replace => true | _ => false end) (ech e)
          | None => None
          end
      | None => None
      end
  end.
End Spec.
