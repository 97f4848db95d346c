(** All the subscription tables of an installation in one shared memory: a history of operations
    on any of them. *)
From Coq Require Import List NArith Bool.
From Verif Require Import Base ExtShm SubTab.
Import ListNotations.
Open Scope N_scope.

(** A table is plain of a kind, or the nested one of operational get subscriptions ([None]). *)
Definition tkind := option kind.

(** An operation on one table. *)
Inductive top : Type :=
| TAdd (x : option str) (ws : words)                      (* sr_shmext_*_sub_add() *)
| TDel (id : N)                                           (* sr_shmext_*_sub_del() *)
| TMod (id : N) (x : option str)                          (* sr_shmext_change_sub_modify() and alike *)
| TDead (alive : N -> bool)                               (* sr_shmext_*_sub_remove_dead() *)
| TOAdd (path : str) (ty opts : N) (ws : N -> words)      (* sr_shmext_oper_get_sub_add() *)
| TODel (id : N)                                          (* sr_shmext_oper_get_sub_del() *)
| TODead (alive : N -> bool).                             (* sr_shmext_oper_get_sub_remove_dead() *)

(** Enough steps for the loops of sr_shmext_oper_get_sub_remove_dead(): every step passes or frees
    one subscription (proved never to run out). *)
Fixpoint okcount (n : nat) (m : mem) (t : tbl) (i : N) : nat :=
  match n with
  | O => O
  | S n' => (match okids m t i with Some kt => N.to_nat (t_cnt kt) | None => O end + okcount n' m t (i + 1))%nat
  end.
Definition ofuel (m : mem) (t : tbl) : nat := S (N.to_nat (t_cnt t) + okcount (N.to_nat (t_cnt t)) m t 0).

(** The operation on the memory and the table; an operation for another kind of table is [None]. *)
Definition trun (k : tkind) (o : top) (m : mem) (t : tbl) : option (mem * tbl) :=
  match k, o with
  | Some k, TAdd x ws => sub_add m k t x ws
  | Some k, TDel id => sub_del m k t id
  | Some k, TMod id x => do m <- sub_modify m k t id x; Some (m, t)
  | Some k, TDead alive => remove_dead m k t alive
  | None, TOAdd path ty opts ws => do r <- oper_add m t path ty opts ws; Some (fst (fst r), snd (fst r))
  | None, TODel id => oper_del m t id
  | None, TODead alive => oper_remove_dead (ofuel m t) m t alive
  | _, _ => None
  end.

Record sys := mksys { s_mem : mem; s_tabs : list (tkind * tbl) }.

(** The tables of the modules are in another segment: they start empty. *)
Definition sys_init (ks : list tkind) : sys := mksys ext_open (map (fun k => (k, mktbl 0 0)) ks).

(** One step of the system: an operation on the [i]-th table, or giving the write lock back
    (sr_shmext_conn_remap_unlock(), src/shm_ext.c 122-164). *)
Inductive sop : Type :=
| On (i : nat) (o : top)
| Unlock.

Fixpoint set_nth {A} (i : nat) (x : A) (l : list A) : list A :=
  match l, i with
  | [], _ => []
  | _ :: r, O => x :: r
  | y :: r, S i' => y :: set_nth i' x r
  end.

Definition sstep (s : sys) (o : sop) : option sys :=
  match o with
  | On i o =>
    match nth_error (s_tabs s) i with
    | None => None
    | Some (k, t) =>
      do r <- trun k o (s_mem s) t;
      Some (mksys (fst r) (set_nth i (k, snd r) (s_tabs s)))
    end
  | Unlock => do m <- remap_unlock (s_mem s); Some (mksys m (s_tabs s))
  end.

Fixpoint srun (s : sys) (l : list sop) : option sys :=
  match l with
  | [] => Some s
  | o :: r => do s' <- sstep s o; srun s' r
  end.
