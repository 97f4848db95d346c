(** What C63 says. *)
From Coq Require Import NArith List Bool.
From Verif Require Import Access.
Import ListNotations.
Local Open Scope N_scope.

(** The permission of a file: root may everything, the owner what owners may, members of
    the group what the group may, others what others may *)
Definition is_set (p bit : N) : Prop := N.land p bit = bit.
Definition member (u : user) (g : N) : Prop := g = egid u \/ In g (sup u).
Inductive may (u : user) (a : acc) : bool -> Prop :=
| may_root : forall w : bool, euid u = 0 -> may u a w
| may_owner : forall w : bool, euid u = owner a -> is_set (perm a) (if w then 128 else 256) -> may u a w
| may_grp : forall w : bool, euid u <> owner a -> member u (group a) -> is_set (perm a) (if w then 16 else 32) -> may u a w
| may_other : forall w : bool, euid u <> owner a -> ~ member u (group a) -> is_set (perm a) (if w then 2 else 4) -> may u a w.

(** The datastore whose permissions and data are used instead of a disabled running *)
Definition real (s : state) (m : N) (d : ds) : ds := match d with Running => if norun s m then Startup else Running | _ => d end.

(** The user has the configured permission for the module in the datastore *)
Definition allowed (u : user) (s : state) (m : N) (d : ds) (w : bool) : Prop := may u (s_acc s m (real s m d)) w.

(** Where all kinds of storing data agree: a user with one group that is not the one of
    data of this user, who is not root, with real and effective IDs the same *)
Definition plain (u : user) (a : acc) : Prop :=
  ruid u = euid u /\ rgid u = egid u /\ (forall g, In g (sup u) -> g = egid u) /\ euid u <> 0 /\ ~ (euid u = owner a /\ egid u = group a).
Definition usual (u : user) (s : state) (d : ds) : Prop :=
  forall m, pl s m (real s m d) = Json \/ plain u (s_acc s m (real s m d)).

(** Files of data have the configured owners, groups and permissions *)
Definition consistent (s : state) (m : N) (d : ds) : Prop :=
  match d with
  | Running | Candidate => forall a, s_file s m d = Some a -> a = s_acc s m d
  | _ => True
  end.

(** The data of the module in the datastore *)
Definition contents (s : state) (m : N) (d : ds) : N :=
  match d with
  | Candidate => match s_file s m Candidate with Some _ => s_val s m Candidate | None => s_val s m (real s m Running) end
  | Operational => s_val s m (real s m Running)
  | _ => s_val s m (real s m d)
  end.

(** Data and permissions are as before *)
Definition untouched (s s' : state) : Prop :=
  s_val s' = s_val s /\ s_file s' = s_file s /\ s_push s' = s_push s /\ s_acc s' = s_acc s.

(** What a change of permissions should result in *)
Definition wanted (a : acc) (o g : option N) (p : N) : acc :=
  Acc (match o with Some x => x | None => owner a end) (match g with Some x => x | None => group a end) (if p =? 0 then perm a else p).
