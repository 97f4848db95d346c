(** * Model: lists ordered by the user in the database plugins

    Code modelled (all under /repo/src/plugins):
    - ds_redis.c: [srpds_set_maxord] 561-581, [srpds_inc_maxord] 588-595,
      [srpds_get_maxord] 607-627, [srpds_load_prev] 640-657, [srpds_load_next]
      670-740, [srpds_shift_uo_list_recursively] 759-830,
      [srpds_insert_uo_element] 849-956, [srpds_delete_uo_element] 966-982,
      [srpds_change_next_element] 995-1062, [srpds_create_uo_op] 1082-1194,
      [srpds_delete_uo_op] 1208-1227, [srpds_replace_op] 1657-1675,
      [srpds_store_diff_recursively] 1712-1825;
    - ds_mongo.c: the functions of the same names 1221-1895, 2187-2210 and
      [srpds_load_diff_recursively] 2239-2345, [srpds_delete_op] 2129-2165;
    - common_db.c: [srpds_uo_elem_comp] 426-429, [srpds_order_uo_lists]
      487-508, [srpds_get_values] 733-787.

    Each instance of such a list or leaf-list is stored with a number, by which
    the instances are ordered when they are read, and with the predicate of the
    instance before it.

    Simplifications: commands of the database do not fail; the fields of an
    instance other than number and predecessor are left out; siblings of a diff
    that are not ordered by the user are left out; a diff of nested lists is
    several diffs, one for each parent. *)

From Coq Require Import List Arith Bool NArith ZArith.
Import ListNotations.

(** which plugin *)
Inductive plugin := Redis | Mongo.

(** A predicate that identifies an instance in its list, as printed by
    [lyd_path()]. *)
Definition key : Type := nat.

(** an instance in the database: [path], [order], [prev] ([None] is the empty
    one) *)
Record elem := E {
  e_key : key;
  e_ord : N;
  e_prev : option key
}.

(** a list: its instances, and the record with the maximum number *)
Record ulist := L {
  l_els : list elem;
  l_max : option N
}.

Definition two64 : N := (2 ^ 64)%N.
Definition w64 (n : N) : N := (n mod two64)%N.

(** [next_order - prev_order] as [uint64_t] *)
Definition sub64 (a b : N) : N := ((a + two64 - b) mod two64)%N.

(** [SRPDS_DB_UO_ELEMS_GAP_SIZE] common_db.h 32 *)
Definition gap : N := 1024.

Definition prev_is (p : option key) (e : elem) : bool :=
  match p, e_prev e with
  | None, None => true
  | Some a, Some b => a =? b
  | _, _ => false
  end.

Definition set_ord (o : N) (e : elem) : elem := E (e_key e) o (e_prev e).
Definition set_prev (p : option key) (e : elem) : elem := E (e_key e) (e_ord e) p.

(** update of the instance with the key [k] *)
Definition upd (k : key) (f : elem -> elem) (els : list elem) : list elem :=
  map (fun e => if e_key e =? k then f e else e) els.

Definition del (k : key) (els : list elem) : list elem :=
  filter (fun e => negb (e_key e =? k)) els.

(** [srpds_get_maxord]: without the record Redis replies nil and its text,
    NULL, is passed to [strtoull] (crash, [None]); Mongo leaves 0 *)
Definition get_maxord (pl : plugin) (u : ulist) (mx : N) : option N :=
  if (mx =? 0)%N then
    match l_max u, pl with
    | Some m, _ => Some m
    | None, Redis => None
    | None, Mongo => Some 0%N
    end
  else Some mx.

(** [srpds_load_prev], nil as above *)
Definition load_prev (pl : plugin) (els : list elem) (p : key) : option N :=
  match find (fun e => e_key e =? p) els, pl with
  | Some e, _ => Some (e_ord e)
  | None, Redis => None
  | None, Mongo => Some 0%N
  end.

(** what a query finds: Redis needs exactly one result, Mongo takes the first *)
Definition query (pl : plugin) (f : elem -> bool) (els : list elem) : option elem :=
  match pl, filter f els with
  | _, [] => None
  | _, [e] => Some e
  | Redis, _ => None
  | Mongo, e :: _ => Some e
  end.

(** [srpds_load_next]: 0 for none *)
Definition load_next (pl : plugin) (els : list elem) (p : option key) : N :=
  match query pl (prev_is p) els with
  | Some e => e_ord e
  | None => 0%N
  end.

(** [srpds_change_next_element] *)
Definition change_next (pl : plugin) (els : list elem) (p np : option key) : list elem :=
  match query pl (prev_is p) els with
  | Some e => upd (e_key e) (set_prev np) els
  | None => els
  end.

(** [srpds_shift_uo_list_recursively]; the outer [option] is the crash of
    [get_maxord], or too little fuel *)
Fixpoint shift (fuel : nat) (pl : plugin) (u : ulist) (o : N) (mx : N) : option (list elem * N) :=
  match fuel with
  | O => None
  | S fuel' =>
      match get_maxord pl u mx with
      | None => None
      | Some m =>
          let m1 := if (m <? o)%N then o else m in
          match query pl (fun e => (e_ord e =? o)%N) (l_els u) with
          | None => Some (l_els u, m1)
          | Some e =>
              match shift fuel' pl u (w64 (o + 1)) m1 with
              | None => None
              | Some (els, m2) => Some (upd (e_key e) (set_ord (w64 (o + 1))) els, m2)
              end
          end
      end
  end.

(** [srpds_insert_uo_element] *)
Definition insert (els : list elem) (x : key) (o : N) (p : option key) : list elem :=
  del x els ++ [E x o p].

(** What [srpds_create_uo_op] does before it inserts the instance: the list, the
    number of the instance, and [max_order].  [x] is the predicate of the
    instance, [p] that of its predecessor made of the metadata. *)
Definition create_prep (pl : plugin) (u : ulist) (mx : N) (x : key) (p : option key)
  : option (ulist * N * N) :=
  let els := l_els u in
  match p with
  | Some k =>
      match load_prev pl els k with
      | None => None
      | Some po =>
          let no := load_next pl els p in
          if (no =? 0)%N then
            match get_maxord pl u mx with
            | None => None
            | Some m => let m1 := w64 (m + gap) in Some (u, m1, m1)
            end
          else if (sub64 no po =? 1)%N then
            match shift (S (length els)) pl u no mx with
            | None => None
            | Some (els1, m) => Some (L (change_next pl els1 p (Some x)) (l_max u), no, m)
            end
          else Some (L (change_next pl els p (Some x)) (l_max u), w64 (po + sub64 no po / 2), mx)
      end
  | None =>
      let no := load_next pl els None in
      if (no =? 0)%N then Some (L els (Some gap), gap, mx)
      else if (no =? 1)%N then
        match shift (S (length els)) pl u no mx with
        | None => None
        | Some (els1, m) => Some (L (change_next pl els1 None (Some x)) (l_max u), no, m)
        end
      else Some (L (change_next pl els None (Some x)) (l_max u), (no / 2)%N, mx)
  end.

Definition create (pl : plugin) (u : ulist) (mx : N) (x : key) (p : option key)
  : option (ulist * N) :=
  match create_prep pl u mx x p with
  | None => None
  | Some (u1, o, m) => Some (L (insert (l_els u1) x o p) (l_max u1), m)
  end.

(** [srpds_delete_uo_op]; [p] is the predicate of the original predecessor *)
Definition delete (pl : plugin) (u : ulist) (x : key) (p : option key) : ulist :=
  L (del x (change_next pl (l_els u) (Some x) p)) (l_max u).

(** ** Diffs *)

(** operations of a diff with the values of the metadata: the predecessor
    ([yang:key], [yang:value]) and the original one ([yang:orig-key],
    [yang:orig-value]) *)
Inductive op :=
  | Create (x : key) (p : option key)
  | Delete (x : key) (orig : option key)
  | Move (x : key) (orig p : option key).

(** [srpds_get_values]: [mp] makes the predicate of the metadata.  For a list
    they are equal, for a leaf-list it is [[.='%s']], which differs from what
    [lyd_path()] prints if the value has an apostrophe. *)
Definition apply (mp : key -> key) (pl : plugin) (u : ulist) (mx : N) (o : op) : option (ulist * N) :=
  match o with
  | Create x p => create pl u mx x (option_map mp p)
  | Delete x orig => Some (delete pl u x (option_map mp orig), mx)
  | Move x orig p => create pl (delete pl u x (option_map mp orig)) mx x (option_map mp p)
  end.

(** The database: lists by their identity. *)
Definition db : Type := nat -> ulist.

Definition put (d : db) (i : nat) (u : ulist) : db := fun j => if j =? i then u else d j.

(** [srpds_set_maxord]: written if it changed; Mongo updates only an existing
    record *)
Definition set_maxord (pl : plugin) (u : ulist) (mx : N) : ulist :=
  if (mx =? 0)%N then u
  else match l_max u, pl with
       | None, Mongo => u
       | _, _ => L (l_els u) (Some mx)
       end.

(** The loop over the siblings, ds_redis.c 1727-1816; [nm] is the name of the
    schema node of a list, [sibling->schema->name] (a pointer into the
    dictionary, so the same for equal names). *)
Fixpoint siblings (mp : key -> key) (nm : nat -> nat) (pl : plugin) (mx : N) (d : db)
  (l : list (nat * op)) : option db :=
  match l with
  | [] => Some d
  | (i, o) :: l' =>
      match apply mp pl (d i) mx o with
      | None => None
      | Some (u, m) =>
          match l' with
          | (j, _) :: _ =>
              if nm i =? nm j then siblings mp nm pl m (put d i u) l'
              else siblings mp nm pl 0 (put d i (set_maxord pl u m)) l'
          | [] => siblings mp nm pl 0 (put d i (set_maxord pl u m)) l'
          end
      end
  end.

(** one diff after another *)
Fixpoint stores mp nm pl (d : db) (ds : list (list (nat * op))) : option db :=
  match ds with
  | [] => Some d
  | l :: ds' => match siblings mp nm pl 0 d l with
                | None => None
                | Some d' => stores mp nm pl d' ds'
                end
  end.

Definition empty_db : db := fun _ => L [] None.

(** ** Reading *)

(** [srpds_uo_elem_comp]: a difference of [int64_t] returned as [int] *)
Definition to_int (z : Z) : Z := ((z + 2 ^ 31) mod 2 ^ 32 - 2 ^ 31)%Z.

Definition comp (a b : elem) : Z := to_int (Z.of_N (e_ord a) - Z.of_N (e_ord b)).

(** what [qsort] returns is a permutation ordered with respect to [comp] *)
Fixpoint ordered (l : list elem) : Prop :=
  match l with
  | a :: (b :: _) as l' => (comp a b <= 0)%Z /\ ordered l'
  | _ => True
  end.

(** [lyd_insert_after(first, x)] for a node that is in the tree already *)
Fixpoint add_after (a x : key) (t : list key) : list key :=
  match t with
  | [] => []
  | y :: t' => if y =? a then y :: x :: t' else y :: add_after a x t'
  end.

Definition insert_after (a x : key) (t : list key) : list key :=
  add_after a x (filter (fun y => negb (y =? x)) t).

(** [srpds_order_uo_lists]: [t] is the order in which the nodes were created,
    [data] the sorted array *)
Definition order_list (data : list elem) (t : list key) : list key :=
  match data with
  | [] => t
  | d0 :: rest => fold_left (fun t e => insert_after (e_key d0) (e_key e) t) (rev rest) t
  end.

(** ** Deleting a node with children in Mongo *)

(** A path: a separator and a name with predicates for each level. *)
Definition slash : nat := 47.
Definition seg : Type := list nat.
Definition path : Type := list seg.

Definition print (p : path) : list nat := concat (map (fun s => slash :: s) p).

Fixpoint starts (a b : list nat) : bool :=
  match a, b with
  | [], _ => true
  | x :: a', y :: b' => (x =? y) && starts a' b'
  | _ :: _, [] => false
  end.

(** [srpds_delete_op], ds_mongo.c 2141-2152, a sibling with children: all
    documents whose [_id] matches ["^path"]; the special characters of the path
    are escaped, so that it is matched literally *)
Definition delete_many (p : path) (docs : list path) : list path :=
  filter (fun q => negb (starts (print p) (print q))) docs.
