(** Applying changes: sr_changes_notify_store() and sr_apply_changes() in src/sysrepo.c and pending
    edits of a session. *)
From Coq Require Import List Bool Arith NArith.
From Verif Require Import Change.
Import ListNotations.

(** Result of a step: [Invalid] adds errors to [err_info2] (validation and callback errors), [Err]
    is [err_info]. *)
Inductive res := Fine | Invalid | Err.
Definition is_fine (r : res) : bool := match r with Fine => true | _ => false end.

(** Storing one module, src/modinfo.c 3850-3918: stored, not stored and an error, or an error after
    it was stored (updating the running cache or the operational push table). *)
Inductive store_res := Stored | NotStored | StoredErr.

(** What the steps do in one call. *)
Record steps := mksteps {
  s_collect : bool;        (* collecting modules, locking them and loading their data *)
  s_edit : res;            (* sr_modinfo_edit_apply() *)
  s_diff : bool;           (* there is notify_diff after it *)
  s_nacm : bool;           (* NACM check passed *)
  s_valid : res;           (* validation, including collecting of dependencies *)
  s_diff1 : bool;          (* there is still notify_diff *)
  s_perm : bool;           (* write permissions *)
  s_sublock : bool;        (* CHANGE SUB READ LOCK *)
  s_update : res;          (* sr_modinfo_change_notify_update(): Invalid if a subscriber refused *)
  s_diff2 : bool;          (* there is still notify_diff *)
  s_mods : list amod;      (* modules in notify_diff with subscriptions *)
  s_alive_c : asub -> bool; s_env_c : nat -> option (list call);   (* change event *)
  s_alive_a : asub -> bool; s_env_a : nat -> option (list call);   (* abort event *)
  s_upgrade : bool;        (* MODULES WRITE LOCK (upgrade) *)
  s_store : list (nat * store_res);  (* modules with MOD_INFO_CHANGED *)
  s_downgrade : bool;      (* MODULES READ LOCK (downgrade) *)
  s_alive_d : asub -> bool; s_env_d : nat -> option (list call);   (* done event *)
  s_notif : bool           (* netconf-config-change notification *)
}.

(** Observable effects in order. *)
Inductive obs := ECall (k : kind) (c : call) | EStore (m : nat).

Definition no_err : nat -> option (N * N) := fun _ => None.
Definition ev_calls (k : kind) (rs : list round) : list obs := map (ECall k) (flat_map r_calls rs).

(** sr_modinfo_data_store(), src/modinfo.c 3838-3923. *)
Fixpoint data_store (l : list (nat * store_res)) : list obs * bool :=
  match l with
  | [] => ([], false)
  | (m, Stored) :: l' => let r := data_store l' in (EStore m :: fst r, snd r)
  | (m, NotStored) :: _ => ([], true)
  | (m, StoredErr) :: _ => ([EStore m], true)
  end.

(** Label "store", src/sysrepo.c 4101-4131; [diff] is whether there is notify_diff, without it there
    is nothing to be sent in done events. *)
Definition store (s : steps) (diff : bool) : list obs * bool :=
  if negb diff && match s_store s with [] => true | _ => false end then ([], false)
  else if negb (s_upgrade s) then ([], true)
  else
    let d := data_store (s_store s) in
    if snd d then d
    else if negb (s_downgrade s) then (fst d, true)
    else
      let n := notify (s_alive_d s) (s_env_d s) KDone no_err (if diff then s_mods s else []) in
      let tr := fst d ++ ev_calls KDone (fst n) in
      match snd n with
      | OOk => (tr, negb (s_notif s))
      | _ => (tr, true)
      end.

(** sr_changes_notify_store(), src/sysrepo.c 3971-4143; [pre]: there are already errors in err_info2.
    The second component is whether an error is returned (err_info or err_info2). *)
Definition notify_store (s : steps) (pre : bool) : list obs * bool :=
  if negb (s_diff s) then let r := store s false in (fst r, snd r || pre)
  else if negb (s_nacm s) then ([], true)
  else match s_valid s with
  | Err | Invalid => ([], true)
  | Fine =>
  if negb (s_diff1 s) then let r := store s false in (fst r, snd r || pre)
  else if negb (s_perm s) then ([], true)
  else if negb (s_sublock s) then ([], true)
  else match s_update s with
  | Err | Invalid => ([], true)
  | Fine =>
  if pre then ([], true)
  else if negb (s_diff2 s) then store s false
  else
    let n := notify (s_alive_c s) (s_env_c s) KChange no_err (s_mods s) in
    match snd n with
    | OOk => let r := store s true in (ev_calls KChange (fst n) ++ fst r, snd r)
    | ORefused =>
        let a := notify (s_alive_a s) (s_env_a s) KAbort (errors (fst n)) (s_mods s) in
        (ev_calls KChange (fst n) ++ ev_calls KAbort (fst a), true)
    | OFailed | OFuel => (ev_calls KChange (fst n), true)
    end
  end
  end.

(** sr_apply_changes() with an edit, src/sysrepo.c 4243-4310 (not for the operational datastore). *)
Definition apply_changes (s : steps) : list obs * bool :=
  if negb (s_collect s) then ([], true)
  else match s_edit s with
  | Err => ([], true)
  | Invalid => notify_store s true
  | Fine => notify_store s false
  end.

(** ** Pending edits of a session *)
Section Session.
Variable E : Type.

(** session->dt[ds].edit: no edits are NULL (the cleanup parts of the functions free an empty edit). *)
Definition pending := nat -> list E.
Definition upd (p : pending) (ds : nat) (l : list E) : pending := fun d => if Nat.eqb d ds then l else p d.

(** Result of adding a change by sr_edit_add(), src/edit_diff.c 3255-3410: success; an error before
    anything was changed; an error after the value of a leaf already in the edit was overwritten by the
    new one (3281-3301, sr_lyd_change_term() precedes sr_edit_add_merge_op()); an error after the
    operations of parents may have been changed, the whole edit is discarded (label "error"). *)
Inductive add_res := AddOk | AddErr | AddErrSet | AddErrDiscard.
Definition add_err (r : add_res) : bool := match r with AddOk => false | _ => true end.

Inductive sop :=
| SAdd (ds : nat) (e : E) (r : add_res)          (* sr_set_item(), sr_delete_item(), sr_move_item() *)
| SBatch (ds : nat) (es : list E) (ok : bool)    (* sr_edit_batch() *)
| SApply (ds : nat) (s : steps)                  (* sr_apply_changes() *)
| SDiscard (ds : nat).                           (* sr_discard_changes() *)

(** src/sysrepo.c 3452-3512 and others; setting a value of a node in the edit is an edit added, too. *)
Definition s_add (p : pending) (ds : nat) (e : E) (r : add_res) : pending * bool :=
  (match r with
   | AddOk | AddErrSet => upd p ds (p ds ++ [e])
   | AddErr => p
   | AddErrDiscard => upd p ds []
   end, add_err r).
(** sr_edit_batch(), src/sysrepo.c 3715-3850: refused if there are changes already. *)
Definition s_batch (p : pending) (ds : nat) (es : list E) (ok : bool) : pending * bool :=
  match p ds with
  | [] => if ok then (upd p ds es, false) else (p, true)
  | _ => (p, true)
  end.
(** sr_apply_changes(), src/sysrepo.c 4251-4253 and 4297-4306; the edits applied, if any. *)
Definition s_apply (p : pending) (ds : nat) (s : steps) : pending * (list E * list obs) * bool :=
  match p ds with
  | [] => (p, ([], []), false)
  | es => let r := apply_changes s in if snd r then (p, (es, fst r), true) else (upd p ds [], (es, fst r), false)
  end.
(** sr_discard_changes(), src/sysrepo.c 4343-4368. *)
Definition s_discard (p : pending) (ds : nat) : pending := upd p ds [].

Definition sstep (p : pending) (o : sop) : pending :=
  match o with
  | SAdd ds e r => fst (s_add p ds e r)
  | SBatch ds es ok => fst (s_batch p ds es ok)
  | SApply ds s => fst (fst (s_apply p ds s))
  | SDiscard ds => s_discard p ds
  end.
Definition srun (h : list sop) : pending := fold_left sstep h (fun _ => []).
End Session.
