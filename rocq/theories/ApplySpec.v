(** Specification of applying of changes. *)
From Coq Require Import List Bool Arith NArith.
From Verif Require Import Change ChangeSpec Apply.
Import ListNotations.

(** The subscribers were really asked about the change. *)
Definition asked (s : steps) : Prop :=
  s_collect s = true /\ s_edit s = Fine /\ s_diff s = true /\ s_nacm s = true /\ s_valid s = Fine /\ s_diff1 s = true /\ s_perm s = true /\
  s_sublock s = true /\ s_update s = Fine /\ s_diff2 s = true.

(** Processing of events by the listeners, see ChangeSpec. *)
Definition listeners_change (s : steps) : Prop :=
  forall rd, In rd (fst (notify (s_alive_c s) (s_env_c s) KChange no_err (s_mods s))) -> valid_round (s_alive_c s) KChange rd.
Definition listeners_done (s : steps) : Prop :=
  forall rd, In rd (fst (notify (s_alive_d s) (s_env_d s) KDone no_err (s_mods s))) -> valid_round (s_alive_d s) KDone rd /\ all_called (s_alive_d s) KDone rd.

Definition approved (tr : list obs) (m : amod) (x : asub) : Prop := In (ECall KChange (mkcall (m_id m) (a_id x) ROk)) tr.
Definition refused (tr : list obs) (m : amod) (x : asub) : Prop := In (ECall KChange (mkcall (m_id m) (a_id x) RErr)) tr.
Definition stored (tr : list obs) : Prop := exists m, In (EStore m) tr.

(** Pending edits: those added since the last successful apply or discard of the datastore. Adding
    another one discards all of them if it fails in certain ways. *)
Section S.
Variable E : Type.
Fixpoint pending_spec (rev_h : list (sop E)) (ds : nat) : list E :=
  match rev_h with
  | [] => []
  | SAdd _ d e r :: t =>
      if Nat.eqb ds d
      then match r with AddOk | AddErrSet => pending_spec t ds ++ [e] | AddErr => pending_spec t ds | AddErrDiscard => [] end
      else pending_spec t ds
  | SBatch _ d es ok :: t =>
      match pending_spec t ds with
      | [] => if Nat.eqb ds d && ok then es else []
      | l => l
      end
  | SApply _ d s :: t => if Nat.eqb ds d && negb (snd (apply_changes s)) then [] else pending_spec t ds
  | SDiscard _ d :: t => if Nat.eqb ds d then [] else pending_spec t ds
  end.
End S.
