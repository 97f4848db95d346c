(** Rules and groups in memory following changes of the configuration, src/utils/nacm.c 254-945. *)
From Coq Require Import List Bool Arith.
From Verif Require Import Nacm.
Import ListNotations.

(** ** Ordered lists: rule lists and rules *)
(** A change as given by sr_get_change_tree_next(): the previous instance is [None] for the first place. *)
Inductive change := Created (name : str) (prev : option str) | Moved (name : str) (prev : option str) | Deleted (name : str).

(** strncmp(name, prev, strlen(prev)): whether [p] is the beginning of [x]. *)
Fixpoint begins (p x : str) : bool :=
  match p, x with
  | [], _ => true
  | a :: p', b :: x' => Nat.eqb a b && begins p' x'
  | _ :: _, [] => false
  end.

Section Ordered.
Variables (A : Type) (name_of : A -> str) (new : str -> A).
(** Finding and unlinking, src/utils/nacm.c 592-604, 645-663, 761-773 and 816-832; [None]: assertion. *)
Fixpoint unlink (n : str) (l : list A) : option (A * list A) :=
  match l with
  | [] => None
  | x :: t => if str_eqb (name_of x) n then Some (x, t) else option_map (fun p => (fst p, x :: snd p)) (unlink n t)
  end.
(** Finding of the previous one and inserting, src/utils/nacm.c 620-642 and 791-813. *)
Fixpoint insert_found (p : str) (x : A) (l : list A) : option (list A) :=
  match l with
  | [] => None
  | y :: t => if begins p (name_of y) then Some (y :: x :: t) else option_map (cons y) (insert_found p x t)
  end.
Definition insert_prev (prev : option str) (x : A) (l : list A) : option (list A) :=
  match prev with None => Some (x :: l) | Some p => insert_found p x l end.
(** sr_nacm_rule_list_cb(), src/utils/nacm.c 590-666, sr_nacm_rule_cb(), 759-834. *)
Definition apply_change (c : change) (l : list A) : option (list A) :=
  match c with
  | Created n prev => insert_prev prev (new n) l
  | Moved n prev => match unlink n l with Some (x, l') => insert_prev prev x l' | None => None end
  | Deleted n => option_map snd (unlink n l)
  end.
Fixpoint apply_changes (cs : list change) (l : list A) : option (list A) :=
  match cs with
  | [] => Some l
  | c :: t => match apply_change c l with Some l' => apply_changes t l' | None => None end
  end.
End Ordered.

(** ** Groups and their users: arrays *)
(** Deleting of an item of an array, src/utils/nacm.c 320-324 and 373-377: the last one takes its place. *)
Definition swap_del {A} (i : nat) (l : list A) : list A :=
  match rev l with
  | [] => []
  | x :: r => let l' := rev r in if Nat.ltb i (length l') then firstn i l' ++ x :: skipn (S i) l' else l'
  end.
Fixpoint index_of {A} (f : A -> bool) (l : list A) : option nat :=
  match l with
  | [] => None
  | x :: t => if f x then Some 0 else option_map S (index_of f t)
  end.
Inductive gchange := GAdd (g : str) | GDel (g : str) | UAdd (g u : str) | UDel (g u : str).
Definition groups := list (str * list str).
Definition group_is (g : str) (p : str * list str) : bool := str_eqb (fst p) g.
(** sr_nacm_group_cb(), src/utils/nacm.c 283-385. *)
Definition apply_gchange (c : gchange) (gs : groups) : option groups :=
  match c with
  | GAdd g => Some (gs ++ [(g, [])])
  | GDel g => match index_of (group_is g) gs with Some i => Some (swap_del i gs) | None => None end
  | UAdd g u =>
      match index_of (group_is g) gs with
      | Some i => Some (firstn i gs ++ (g, snd (nth i gs (g, [])) ++ [u]) :: skipn (S i) gs)
      | None => None
      end
  | UDel g u =>
      match index_of (group_is g) gs with
      | None => Some gs
      | Some i =>
          match index_of (fun x => str_eqb x u) (snd (nth i gs (g, []))) with
          | Some j => Some (firstn i gs ++ (g, swap_del j (snd (nth i gs (g, [])))) :: skipn (S i) gs)
          | None => None
          end
      end
  end.
Fixpoint apply_gchanges (cs : list gchange) (gs : groups) : option groups :=
  match cs with
  | [] => Some gs
  | c :: t => match apply_gchange c gs with Some gs' => apply_gchanges t gs' | None => None end
  end.

(** ** Leaves of a rule *)
Inductive leaf := LRpc | LNotif | LPath.
Inductive lchange := LSet (x : leaf) (v : str) | LDel (x : leaf).
Definition type_of (x : leaf) : ttype := match x with LRpc => TRpc | LNotif => TNotif | LPath => TData end.
(** src/utils/nacm.c 871-893; the target of a new rule is [(TAny, None)], 787. *)
Definition apply_leaf (c : lchange) (t : ttype * option str) : ttype * option str :=
  match c with
  | LSet x v => (type_of x, if str_eqb v s_star then None else Some v)
  | LDel _ => (TAny, None)
  end.
Definition apply_leaves (cs : list lchange) (t : ttype * option str) : ttype * option str := fold_left (fun t c => apply_leaf c t) cs t.

(** ** Groups of a rule list: a sorted array *)
(** sr_nacm_strarr_sort_del(), src/utils/nacm.c 535-554; bsearch() finds an item equal to it. *)
Definition sort_del (x : str) (l : list str) : option (list str) :=
  match index_of (fun y => str_eqb y x) l with Some i => Some (firstn i l ++ skipn (S i) l) | None => None end.
