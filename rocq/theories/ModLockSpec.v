(** Specification for locking of several modules. *)
From Coq Require Import List NArith Bool Arith Permutation Sorting.Sorted.
From Verif Require Import DsLock ModLock.
Import ListNotations.
Local Open Scope nat_scope.

(** * One operation *)

(** Nothing is held. *)
Definition unlocked (m : mmod) : Prop := m_h m = None /\ m_h2 m = None.

(** Locks back to the earlier mode do not fail (a downgrade does not wait), sorting only permutes. *)
Definition turns_ok (ts : list (list turn)) : Prop := Forall (Forall (fun t => t_back t = true)) ts.
Definition mop_ok (o : mop) : Prop :=
  match o with
  | MLock _ _ _ _ | MDowngrade _ | MAdd _ => True
  | MUpgrade ts => turns_ok ts
  | MSort f => forall l, Permutation l (f l)
  end.

(** * Many clients *)

(** A client does something: it waits for a lock, or holds some. *)
Definition active (s : sys) (c : nat) : Prop := todo s c <> [] \/ past s c <> [].

(** The client can go on at once: its next request is granted, or it has all it wanted. *)
Definition can_go (s : sys) (c : nat) : Prop :=
  match todo s c with [] => True | a :: _ => granted s c a = true end.

Definition deadlock (s : sys) : Prop := (exists c, active s c) /\ forall c, active s c -> ~ can_go s c.

(** Operations which lock all their modules in order, each in any mode (sr_get_data() and other
    readers, sr_lock(), sr_unlock(), sr_copy_config(), ...), and downgrade some in the end. *)
Definition one_phase (p : list areq) : Prop :=
  exists (a : list (lmode * nat)) (d : list nat), p = map (fun x => Acq (fst x) (snd x)) a ++ map Down d /\
    StronglySorted lt (map snd a) /\ incl d (map snd a).

(** Operations changing data (sr_apply_changes(), ...): the modules [a] are locked for reading,
    upgradable, then their dependencies [r] for reading, then [u] are upgraded for storing, and in the end some are
    downgraded.  Operations only reading have only [r].  [D x d]: validation of [x] needs data of
    [d]; inverse dependencies of the changed modules are among [a]. *)
Definition two_phase (D : nat -> nat -> Prop) (p : list areq) : Prop :=
  exists a r u d : list nat,
    p = map (Acq LUpgr) a ++ map (Acq LRead) r ++ map Upg u ++ map Down d /\
    StronglySorted lt a /\ StronglySorted lt r /\ StronglySorted lt u /\ incl u a /\ incl d a /\
    (forall x, In x r -> ~ In x a) /\
    (a <> [] -> forall y, In y r -> exists x, In x a /\ D x y) /\
    (forall y x, In y u -> D x y -> In x a).

(** All operations started in an execution. *)
Definition starts (P : list areq -> Prop) (l : list (nat * ev)) : Prop :=
  Forall (fun x => match snd x with EStart p => P p | _ => True end) l.
