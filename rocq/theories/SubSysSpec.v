(** Specification of a history: the tables are lists, and what they need in the memory. *)
From Coq Require Import List NArith Bool.
From Verif Require Import Base EvData ExtShm ExtShmSpec SubTab SubTabSpec SubSys.
Import ListNotations.
Open Scope N_scope.

(** The contents of a table. *)
Inductive cont : Type :=
| Flat (k : kind) (l : list sub)
| Nest (l : list oent).

Definition c_kind (c : cont) : tkind := match c with Flat k _ => Some k | Nest _ => None end.
Definition c_empty (k : tkind) : cont := match k with Some k => Flat k [] | None => Nest [] end.

(** What other processes read. *)
Definition read_cont (m : mem) (kt : tkind * tbl) : option cont :=
  match fst kt with
  | Some k => do l <- read_table m k (snd kt); Some (Flat k l)
  | None => do l <- read_oper m (snd kt); Some (Nest l)
  end.
Definition read_all (s : sys) : option (list cont) := mapo (read_cont (s_mem s)) (s_tabs s).

(** The operations on lists. *)
Definition lop (o : top) (c : cont) : cont :=
  match c, o with
  | Flat k l, TAdd x ws => Flat k (l ++ [(x, ws)])
  | Flat k l, TDel id => Flat k (l_del k id l)
  | Flat k l, TMod id x => Flat k (l_modify k id x l)
  | Flat k l, TDead alive => Flat k (l_dead k alive l)
  | Nest l, TOAdd path ty opts ws =>
      Nest (if l_ohas path l && (N.land opts SR_SUBSCR_OPER_MERGE =? 0) then l else l_oadd path ty ws l)
  | Nest l, TODel id => Nest (l_odel id l)
  | Nest l, TODead alive => Nest (l_odead alive l)
  | _, _ => c
  end.
Definition lstep (cs : list cont) (o : sop) : list cont :=
  match o with
  | On i o => match nth_error cs i with Some c => set_nth i (lop o c) cs | None => cs end
  | Unlock => cs
  end.

(** Valid arguments of an operation on contents. *)
Definition top_ok (o : top) (c : cont) : Prop :=
  match c, o with
  | Flat k l, TAdd x ws => ok_sub k (x, ws)
  | Flat k l, TDel id => True
  | Flat k l, TMod id x =>
      match x with
      | Some s => ok_str s
      | None => (* the allocator asserts that some memory is kept or wanted *)
                Forall (fun s => s_id k s = id -> fst s <> None) l
      end
  | Flat k l, TDead alive => True
  | Nest l, TOAdd path ty opts ws => ok_str path /\ ty < two32 /\ (forall p, p < two32 -> ok_words 8 (ws p))
  | Nest l, TODel id => True
  | Nest l, TODead alive => True
  | _, _ => False
  end.

(** The memory which an operation may need. *)
Definition top_need (o : top) (c : cont) : N :=
  match c, o with
  | Flat k l, TAdd x ws => shm_size ((nlen l + 1) * isz k) + match x with Some s => strshmlen s | None => 0 end
  | Flat k l, TMod id (Some s) => strshmlen s
  | Nest l, TOAdd path ty opts ws =>
      shm_size ((nlen l + 1) * osz) + strshmlen path +
      shm_size ((match find (fun e => str_eqb (e_path e) path) l with Some e => nlen (e_kids e) | None => 0 end + 1) * kidsz)
  | _, _ => 0
  end.

(** A history which is possible: valid operations on existing tables while the segment stays under
    2 GiB (offsets in it are 32-bit). *)
Fixpoint possible (s : sys) (cs : list cont) (h : list sop) : Prop :=
  match h with
  | [] => True
  | o :: r =>
    match o with
    | On i o => exists c, nth_error cs i = Some c /\ top_ok o c /\ msize (s_mem s) + top_need o c < 2147483648
    | Unlock => True
    end /\
    forall s', sstep s o = Some s' -> possible s' (lstep cs o) r
  end.

(** Bytes which contents take. *)
Definition sum (l : list N) : N := fold_right N.add 0 l.
Definition c_bytes (c : cont) : N :=
  match c with
  | Flat k l => shm_size (nlen l * isz k) + sum (map (fun s => match fst s with Some x => strshmlen x | None => 0 end) l)
  | Nest l => shm_size (nlen l * osz) + sum (map (fun e => strshmlen (e_path e) + shm_size (nlen (e_kids e) * kidsz)) l)
  end.

(** The blocks which a table consists of, found by following the offsets in the memory: the array
    of the items, their strings and the arrays of their subscriptions. *)
Definition arr (o n z : N) : list block := if shm_size (n * z) =? 0 then [] else [(o, shm_size (n * z))].
Definition str_block (m : mem) (a : N) : option (list block) :=
  do xo <- rd64 m a; if xo =? 0 then Some [] else do s <- mstr m xo; Some [(xo, strshmlen s)].
Definition tab_blocks (m : mem) (kt : tkind * tbl) : option (list block) :=
  let t := snd kt in
  match fst kt with
  | Some k =>
    do bs <- mapo (fun i => str_block m (item k t i)) (indices (t_cnt t));
    Some (arr (t_off t) (t_cnt t) (isz k) ++ concat bs)
  | None =>
    do bs <- mapo (fun i => do b <- str_block m (oitem t i); do kt <- okids m t i;
                            Some (b ++ arr (t_off kt) (t_cnt kt) kidsz)) (indices (t_cnt t));
    Some (arr (t_off t) (t_cnt t) osz ++ concat bs)
  end.

(** The entries of operational get subscriptions are sorted and have different xpaths. *)
Fixpoint osorted (l : list oent) : Prop :=
  match l with
  | [] => True
  | e :: r => Forall (fun e' => plen (e_path e) <= plen (e_path e') /\ e_path e <> e_path e') r /\ osorted r
  end.
Definition csorted (c : cont) : Prop := match c with Flat _ _ => True | Nest l => osorted l end.

(** All operational get subscriptions with their xpaths. *)
Definition oflat (l : list oent) : list (str * words) := flat_map (fun e => map (pair (e_path e)) (e_kids e)) l.
