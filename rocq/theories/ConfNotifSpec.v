(** What C64 says. *)
From Coq Require Import List Bool Arith NArith.
From Verif Require Import Edit EditSpec ChangeIter ChangeIterSpec ConfNotif.
Import ListNotations.

Section Spec.
Variable kd : nat -> kind.
Variable nk : nat -> nat.
Variable kv : nat -> nat -> nat -> nat.

(** The value of the node (or key) at a place, and whether it is an instance of a
    user-ordered list or leaf-list. *)
Definition value (ds : list dnode) (l : loc) : option nat := option_map fst (c_val (copy_of kd nk kv false ds) l).
Definition ordered (l : loc) : Prop := exists p s k, l = (p ++ [(s, k)], None) /\ userord (kd s) = true.
(** The same values, the same orders. *)
Definition unchanged (a b : list dnode) : Prop := same (copy_of kd nk kv false a) (copy_of kd nk kv false b).

(** The list of edits tells exactly the difference: every node once, with what happened to it. *)
Record tells (l : list (loc * eop)) (a b : list dnode) : Prop := {
  t_once : NoDup (map fst l);
  t_some : l <> [];
  t_create : forall x, In (x, NCreate) l <-> value a x = None /\ value b x <> None;
  t_delete : forall x, In (x, NDelete) l <-> value a x <> None /\ value b x = None;
  t_replace : forall x, In (x, NReplace) l <-> exists v w, value a x = Some v /\ value b x = Some w /\ v <> w;
  t_merge : forall x, In (x, NMerge) l -> value a x <> None /\ value b x = value a x /\ ordered x
}.

(** Who made the change: the user of the session, or the one NETCONF server netopeer2
    has put in it. *)
Inductive author (se : session) : N -> N -> Prop :=
| a_own : s_np2 se = false -> author se (s_user se) 0
| a_netconf : forall user sid len, s_np2 se = true -> s_data se = [(4%N, sid); (len, user)] -> author se user sid.
Definition sound (se : session) : Prop := s_np2 se = true -> exists user sid len, s_data se = [(4%N, sid); (len, user)].

(** Notifications in their order account for the way from data to data: every step that
    has none changes nothing. *)
Inductive follows (d : cds) : list dnode -> list cn -> list dnode -> Prop :=
| f_nil : forall a, follows d a [] a
| f_quiet : forall a b c ns, unchanged a b -> follows d b ns c -> follows d a ns c
| f_told : forall a b c n ns, n_ds n = d -> tells (n_edits n) a b -> follows d b ns c -> follows d a (n :: ns) c.
End Spec.
