(** On-change YANG push: src/utils/sn_yang_push.c 155-598 and 804-832, with the timer of dampened
    notifications, src/utils/sn_common.c 1172-1303.

    The changes in the callback are those of ChangeIter.v. Access control is left out here; running out
    of memory is not modelled. Times are in milliseconds, without the wrap-around of int. Changes of one
    module are modelled; changes of several modules are reported one module after another. *)
From Coq Require Import List Bool Arith NArith.
From Verif Require Import Edit ChangeIter.
Import ListNotations.

(** srsn_yp_change_t. *)
Inductive yop := YCreate | YDelete | YInsert | YMove | YReplace.
(** "where" and "point": the first place, or after the point; the point is printed as the path of the
    target followed by the predicate of the previous instance, src/utils/sn_yang_push.c 381-404. *)
Inductive ywhere := WFirst | WAfter (base : loc) (pred : nat).
Record yedit := mkyed { y_id : N; y_op : yop; y_tgt : loc; y_where : option ywhere; y_val : option dnode }.
Record patch := mkpatch { p_id : N; p_edits : list yedit }.

(** The timer, src/utils/sn_common.c: no thread was created (or it was joined); the thread waits until
    the trigger; the thread has returned after the callback (1203-1227) but [tid] is still set. *)
Inductive timer := TNone | TWaits (trigger : N) | TReturned.
Definition tid_set (t : timer) : bool := match t with TNone => false | _ => true end.

Record sub := mksub {
  period : N;                       (* dampening_period_ms *)
  excl : yop -> bool;               (* excluded_changes *)
  pend : option patch;              (* change_ntf *)
  next_patch : N; next_edit : N;    (* patch_id, edit_id *)
  nexcl : N;                        (* excluded_change_count *)
  last : option N;                  (* last_notif, none: zero *)
  tmr : timer                       (* damp_sntimer *)
}.

Section Push.
Variable kd : nat -> kind.
(** Does a value contain an apostrophe? *)
Variable odd : nat -> bool.

(** *** The changes: sr_get_change_tree_next() until it fails, src/utils/sn_yang_push.c 491. *)
Fixpoint iter_tree (fuel : nat) (set : list ent) : list (op * ent * chg) :=
  match fuel with
  | 0 => []
  | S n =>
      match getnext kd None set with
      | NNode o e t => match change_of kd o e with Some c => (o, e, c) :: iter_tree n t | None => [] end
      | _ => []
      end
  end.
Definition tree_changes (sel : loc -> bool) (t : list inode) : list (op * ent * chg) :=
  let set := select sel (all_nodes kd t) in iter_tree (S (length set)) set.

(** srsn_yp_op_sr2yp(), src/utils/sn_yang_push.c 249-267. *)
Definition op_sr2yp (o : op) (n : inode) : yop :=
  match o with
  | OCreated => if userord (i_kind kd n) then YInsert else YCreate
  | OModified => YReplace
  | ODeleted => YDelete
  | OMoved => YMove
  end.

(** lyd_dup_single() with descendants and without metadata, 421; keys are part of the value of a list. *)
Fixpoint val_of (n : inode) : dnode :=
  match n with
  | I s v b _ _ _ _ ch => D s v b (flat_map (fun c => match c with I _ _ _ None _ _ _ _ => [val_of c] | I _ _ _ (Some _) _ _ _ _ => [] end) ch)
  end.

(** Is the node of a place a proper ancestor of another, the loop over parents in 506-512 (nodes are
    compared by their places). *)
Fixpoint prefix_of (p q : path) : bool :=
  match p, q with
  | [], _ => true
  | (a, b) :: p', (c, d) :: q' => Nat.eqb a c && Nat.eqb b d && prefix_of p' q'
  | _ :: _, [] => false
  end.
Definition path_eqb (p q : path) : bool := prefix_of p q && prefix_of q p.
Definition okey_eqb (a b : option nat) : bool := match a, b with Some i, Some j => Nat.eqb i j | None, None => true | _, _ => false end.
Definition loc_eqb (a b : loc) : bool := path_eqb (fst a) (fst b) && okey_eqb (snd a) (snd b).
Definition is_anc (a b : loc) : bool :=
  match a with (p, None) => prefix_of p (fst b) && negb (loc_eqb a b) | (_, Some _) => false end.

(** Do both kinds of quotes appear in the path: lyd_path() uses quotation marks for values with an
    apostrophe (libyang). *)
Definition both_quotes (l : loc) : bool := existsb (fun id => inst (kd (fst id)) && odd (snd id)) (fst l).

(** srsn_yp_ntf_change_edit_clear_target(), 305-333: the XPath is invalid if the target has both kinds of
    quotes. *)
Definition clear_target (es : list yedit) (l : loc) : option (list yedit) :=
  if both_quotes l then None else Some (filter (fun e => negb (loc_eqb (y_tgt e) l)) es).

(** "point" and "where", 381-416; the previous instance is in the change. *)
Definition where_of (o : yop) (c : chg) : option ywhere :=
  match o, c with
  | YInsert, CCreated l _ _ _ (Some an) | YMove, CMoved l _ _ _ an => Some (match an with None => WFirst | Some a => WAfter l a end)
  | _, _ => None
  end.
(** srsn_yp_ntf_change_edit_append(), 349-440. *)
Definition edit_of (id : N) (o : yop) (x : op * ent * chg) : yedit :=
  match x with
  | (_, e, c) =>
      mkyed id o (e_loc e) (where_of o c)
        (match o with YInsert | YCreate | YReplace => Some (val_of (e_node e)) | _ => None end)
  end.

(** State of the loop, 491-563: last_op with last_node; [bad]: an error, after which the loop is left. *)
Record lst := mklst { l_sub : sub; l_last : option (op * loc); l_bad : bool }.
Definition created (o : op) : bool := match o with OCreated => true | _ => false end.
Definition nested (last : option (op * loc)) (o : op) (l : loc) : bool :=
  match last with Some (o', l') => created o && created o' && is_anc l' l | None => false end.
Definition set_pend (s : sub) (p : option patch) (np ne : N) : sub := mksub (period s) (excl s) p np ne (nexcl s) (last s) (tmr s).
Definition loop_step (st : lst) (x : op * ent * chg) : lst :=
  let '(o, e, _) := x in
  if l_bad st then st
  else if nested (l_last st) o (e_loc e) then st
  else
    let s := l_sub st in
    let la := Some (o, e_loc e) in
    let yo := op_sr2yp o (e_node e) in
    if excl s yo then mklst (mksub (period s) (excl s) (pend s) (next_patch s) (next_edit s) (nexcl s + 1)%N (last s) (tmr s)) la false
    else
      (* a new notification, 528-556 *)
      let '(p, np, ne) := match pend s with Some p => (p, next_patch s, next_edit s) | None => (mkpatch (next_patch s) [], (next_patch s + 1)%N, 1%N) end in
      match clear_target (p_edits p) (e_loc e) with
      | None => mklst (set_pend s (Some p) np ne) la true
      | Some es => mklst (set_pend s (Some (mkpatch (p_id p) (es ++ [edit_of ne yo x]))) np (ne + 1)%N) la false
      end.

(** srsn_yp_ntf_change_send(), 161-180. *)
Definition send (now : N) (s : sub) : sub * list (N * patch) :=
  match pend s with
  | Some p => (mksub (period s) (excl s) None (next_patch s) (next_edit s) (nexcl s) (Some now) (tmr s), [(now, p)])
  | None => (s, [])
  end.
Definition due (s : sub) (per : N) : N := match last s with Some t => (t + per)%N | None => per end.
(** srsn_yp_ntf_change_ready(), 203-241. *)
Definition ready (now : N) (s : sub) : sub * bool :=
  if N.eqb (period s) 0 then (s, true)
  else if tid_set (tmr s) then (s, false)
  else if N.leb (due s (period s)) now then (s, true)
  else (mksub (period s) (excl s) (pend s) (next_patch s) (next_edit s) (nexcl s) (last s) (TWaits (due s (period s))), false).

(** srsn_yp_on_change_cb(), 452-598. *)
Definition on_change (now : N) (cs : list (op * ent * chg)) (s : sub) : sub * list (N * patch) :=
  let st := fold_left loop_step cs (mklst s None false) in
  let s1 := l_sub st in
  if l_bad st then (set_pend s1 None (next_patch s1) (next_edit s1), [])
  else match pend s1 with
       | None => (s1, [])
       | Some _ => let '(s2, r) := ready now s1 in if r then send now s2 else (s2, [])
       end.

(** srsn_timer_thread(), src/utils/sn_common.c 1175-1228, with srsn_yp_damp_timer_cb(), 184-193: the
    thread returns and nothing sets [tid] to zero. *)
Definition tick (now : N) (s : sub) : sub * list (N * patch) :=
  match tmr s with
  | TWaits t =>
      if N.leb t now
      then let '(s1, out) := send now s in (mksub (period s1) (excl s1) (pend s1) (next_patch s1) (next_edit s1) (nexcl s1) (last s1) TReturned, out)
      else (s, [])
  | _ => (s, [])
  end.

(** srsn_yp_on_change_modify(), 804-832, with srsn_update_timer(), src/utils/sn_common.c 1254-1303. *)
Definition set_period (per : N) (t : timer) (s : sub) : sub := mksub per (excl s) (pend s) (next_patch s) (next_edit s) (nexcl s) (last s) t.
Definition modify (now per : N) (s : sub) : sub * list (N * patch) :=
  if N.eqb per (period s) then (s, [])
  else if N.eqb per 0 then send now (set_period per TNone s)
  else (set_period per (match tmr s with TWaits _ => TWaits (due s per) | t => t end) s, []).

(** srsn_yang_push_on_change(), src/utils/subscribed_notifications.c 327-395: a new subscription. *)
Definition new_sub (per : N) (ex : yop -> bool) : sub := mksub per ex None 1 1 0 None TNone.

(** A history of a subscription: committed changes, passing of time, modifications. *)
Inductive event := EChange (cs : list (op * ent * chg)) | ETick | EModify (per : N).
Definition step (now : N) (ev : event) (s : sub) : sub * list (N * patch) :=
  match ev with EChange cs => on_change now cs s | ETick => tick now s | EModify per => modify now per s end.
Fixpoint run (evs : list (N * event)) (s : sub) : sub * list (N * patch) :=
  match evs with
  | [] => (s, [])
  | (now, ev) :: t => let '(s1, o1) := step now ev s in let '(s2, o2) := run t s1 in (s2, o1 ++ o2)
  end.
End Push.
