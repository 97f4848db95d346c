(** The notification netconf-config-change about applied changes of configuration:
    sr_modinfo_generate_config_change_notif(), src/modinfo.c 3634-3835, and where it is
    generated, sr_changes_notify_store(), src/sysrepo.c 4097-4129.

    The diff is the one of ChangeIter.v.  Targets are places of nodes (lyd_path() of a place
    is not modelled), users and sessions are numbers.  Subscribers to changes are in Apply.v,
    here only whether somebody refused the change; validation and storing data do not fail. *)
From Coq Require Import List Bool Arith NArith.
From Verif Require Import Edit ChangeIter.
Import ListNotations.

Inductive eop := NCreate | NReplace | NDelete | NMerge.
Inductive cds := DStartup | DRunning | DCandidate | DOperational.
Record cn := mkcn { n_user : N; n_sid : N; n_ds : cds; n_edits : list (loc * eop) }.

(** A session: its user, whether the originator name is netopeer2, and pieces of
    originator data with their sizes. *)
Record session := mksess { s_user : N; s_np2 : bool; s_data : list (N * N) }.

(** Nothing is generated, a notification, an error, or undefined behaviour. *)
Inductive gen := GNone | GNotif (n : cn) | GErr | GUndef.

Section Gen.
Variable kd : nat -> kind.
Variable nk : nat -> nat.
Variable kv : nat -> nat -> nat -> nat.

(** 3650-3666: sr_edit_diff_find_oper() without parents *)
Definition own_change (n : inode) : bool :=
  match i_own n with Some DCreate | Some DDelete | Some DReplace => true | _ => false end.
Definition any_change (set : list ent) : bool := existsb (fun e => own_change (e_node e)) set.

(** 3759-3795: the operation *)
Definition op_enum (o : op) : eop :=
  match o with OCreated => NCreate | OModified => NReplace | ODeleted => NDelete | OMoved => NMerge end.
(** 3743-3801: the loop *)
Fixpoint edits (fuel : nat) (set : list ent) : option (list (loc * eop)) :=
  match fuel with
  | 0 => None
  | S n =>
      match getnext kd None set with
      | NEnd => Some []
      | NErr => None
      | NNode o e t => match edits n t with Some l => Some ((e_loc e, op_enum o) :: l) | None => None end
      end
  end.

(** 3717-3742: the name is 16 bytes from the start of the data whatever the sizes are; an
    assert checks there are 2 pieces *)
Definition changed_by (se : session) : option (N * N) :=
  if s_np2 se then
    match s_data se with
    | [(4%N, sid); (_, user)] => Some (user, sid)
    | _ => None
    end
  else Some (s_user se, 0%N).

Definition generate (d : cds) (subs : nat) (replay : bool) (se : session) (t : list inode) : gen :=
  let set := all_nodes kd t in
  if negb (any_change set) then GNone
  else match d with
  | DCandidate | DOperational => GNone
  | _ =>
      if negb replay && Nat.eqb subs 0 then GNone
      else match changed_by se with
      | None => GUndef
      | Some (user, sid) =>
          match edits (S (length set)) set with
          | None => GErr
          | Some l => GNotif (mkcn user sid d l)
          end
      end
  end.

(** *** A change of data *)
(** The edit, its session, and what happens: whether a subscriber to changes refuses it, whether
    the notification can be sent and stored for replay. *)
Record commit := mkcommit { m_edit : list enode; m_sess : session; m_refuse : bool; m_send : bool; m_store : bool }.
(** Data, what was sent to subscribers to notifications, what was stored, and success. *)
Record outcome := mkres { r_data : list dnode; r_sent : list cn; r_stored : list cn; r_ok : bool }.

(** sr_changes_notify_store(), and 3803-3829 of modinfo.c; [None] is undefined behaviour. *)
Definition do_commit (d : cds) (subs : nat) (replay : bool) (m : commit) (ds : list dnode) : option outcome :=
  match edit_apply kd (m_edit m) ds with
  | ROk o =>
      if o_err o || m_refuse m then Some (mkres ds [] [] false)
      else match generate d subs replay (m_sess m) (sess_diff kd nk kv (o_diff o)) with
      | GNone => Some (mkres (o_g o) [] [] true)
      | GErr => Some (mkres (o_g o) [] [] false)
      | GUndef => None
      | GNotif n =>
          if negb (m_send m) then Some (mkres (o_g o) [] [] false)
          else let sent := if Nat.eqb subs 0 then [] else [n] in
               if negb (m_store m) then Some (mkres (o_g o) sent [] false)
               else Some (mkres (o_g o) sent (if replay then [n] else []) true)
      end
  | _ => Some (mkres ds [] [] false)
  end.

(** One after another; all that was sent and stored. *)
Fixpoint run (d : cds) (subs : nat) (replay : bool) (ms : list commit) (ds : list dnode) : option outcome :=
  match ms with
  | [] => Some (mkres ds [] [] true)
  | m :: t =>
      match do_commit d subs replay m ds with
      | None => None
      | Some r =>
          match run d subs replay t (r_data r) with
          | None => None
          | Some q => Some (mkres (r_data q) (r_sent r ++ r_sent q) (r_stored r ++ r_stored q) (r_ok r && r_ok q))
          end
      end
  end.
End Gen.
