(** Specification of the subscription tables: what is read back from the shared memory, and the
    operations on plain lists of subscriptions. *)
From Coq Require Import List NArith Bool.
From Verif Require Import Base ExtShm ExtShmSpec SubTab.
Import ListNotations.
Open Scope N_scope.

(** * Reading a table back, as every other process does *)

Fixpoint mapo {A B} (f : A -> option B) (l : list A) : option (list B) :=
  match l with
  | [] => Some []
  | x :: r => do y <- f x; do ys <- mapo f r; Some (y :: ys)
  end.
Definition indices (n : N) : list N := map N.of_nat (seq 0 (N.to_nat n)).

(** A subscription: its xpath and the words of the rest of the item. *)
Notation sub := (option (list N) * list N)%type.

Definition read_xpath (m : mem) (a : N) : option (option str) :=
  do xo <- rd64 m a; if xo =? 0 then Some None else do s <- mstr m xo; Some (Some s).
Definition read_sub (m : mem) (k : kind) (t : tbl) (i : N) : option sub :=
  do x <- read_xpath m (item k t i);
  do ws <- mapo (field m k t i) (indices (k_words k));
  Some (x, ws).
Definition read_table (m : mem) (k : kind) (t : tbl) : option (list sub) :=
  mapo (read_sub m k t) (indices (t_cnt t)).

(** An operational get entry: xpath, type, subscriptions. *)
Notation oent := (list N * N * list (list N))%type.

Definition read_kid (m : mem) (kt : tbl) (j : N) : option words := mapo (kid_field m kt j) (indices 8).
Definition read_oent (m : mem) (t : tbl) (i : N) : option oent :=
  do xo <- rd64 m (oitem t i);
  do x <- mstr m xo;
  do ty <- rd32 m (oitem t i + 8);
  do kt <- okids m t i;
  do ks <- mapo (read_kid m kt) (indices (t_cnt kt));
  Some (x, ty, ks).
Definition read_oper (m : mem) (t : tbl) : option (list oent) :=
  mapo (read_oent m t) (indices (t_cnt t)).

(** * The same operations on lists *)

Definition s_id (k : kind) (s : sub) : N := word (snd s) (k_id k).
Definition s_cid (k : kind) (s : sub) : N := word (snd s) (k_cid k).

(** Removes the first element with a property; changes the first element with a property. *)
Fixpoint remove_first {A} (p : A -> bool) (l : list A) : list A :=
  match l with [] => [] | x :: r => if p x then r else x :: remove_first p r end.
Fixpoint change_first {A} (p : A -> bool) (f : A -> A) (l : list A) : list A :=
  match l with [] => [] | x :: r => if p x then f x :: r else x :: change_first p f r end.

Definition l_del (k : kind) (id : N) (l : list sub) : list sub := remove_first (fun s => s_id k s =? id) l.
Definition l_modify (k : kind) (id : N) (x : option str) (l : list sub) : list sub :=
  change_first (fun s => s_id k s =? id) (fun s => (x, snd s)) l.
Definition l_dead (k : kind) (alive : N -> bool) (l : list sub) : list sub :=
  filter (fun s => alive (s_cid k s) || (match k with KRpc => s_cid k s =? 0 | _ => false end)) l.

Definition e_path (e : oent) : str := fst (fst e).
Definition e_type (e : oent) : N := snd (fst e).
Definition e_kids (e : oent) : list words := snd e.

(** Where an xpath is put: after the ones which are not longer. *)
Fixpoint l_oadd (path : str) (ty : N) (ws : N -> words) (l : list oent) : list oent :=
  match l with
  | [] => [(path, ty, [ws 1])]
  | e :: r =>
    if plen path <? plen (e_path e) then (path, ty, [ws 1]) :: e :: r
    else if str_eqb (e_path e) path
    then (e_path e, e_type e, e_kids e ++ [ws (u32 (word (last (e_kids e) []) kid_prio + 1))]) :: r
    else e :: l_oadd path ty ws r
  end.
(** The xpath is among those before the first longer one. *)
Fixpoint l_ohas (path : str) (l : list oent) : bool :=
  match l with
  | [] => false
  | e :: r => if plen path <? plen (e_path e) then false
              else if str_eqb (e_path e) path then true else l_ohas path r
  end.
Definition has_id (id : N) (ks : list words) : bool := existsb (fun w => word w kid_id =? id) ks.
Fixpoint l_odel (id : N) (l : list oent) : list oent :=
  match l with
  | [] => []
  | e :: r =>
    if has_id id (e_kids e) then
      match remove_first (fun w => word w kid_id =? id) (e_kids e) with
      | [] => r
      | ks => (e_path e, e_type e, ks) :: r
      end
    else e :: l_odel id r
  end.

(** Subscriptions of dead connections and xpaths left without any are removed. *)
Definition l_odead (alive : N -> bool) (l : list oent) : list oent :=
  filter (fun e => negb (nlen (e_kids e) =? 0))
    (map (fun e => (e_path e, e_type e, filter (fun w => alive (word w kid_cid)) (e_kids e))) l).

(** * Valid arguments *)

(** C strings and 32-bit words. *)
Definition ok_str (s : str) : Prop := Forall (fun c => 0 < c /\ c < 256) s.
Definition ok_words (n : N) (ws : words) : Prop := nlen ws = n /\ Forall (fun w => w < two32) ws.
Definition ok_sub (k : kind) (s : sub) : Prop :=
  match fst s with Some x => ok_str x | None => True end /\ ok_words (k_words k) (snd s).
