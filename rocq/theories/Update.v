(** Subscribers updating changes before they are applied (SR_SUBSCR_UPDATE).

    Modelled: src/shm_sub.c 1283-1452 (the event "update" and collecting the edits),
    950-1079 (priorities), 1128-1179 (event pipes), 1223-1280 (diffs), 3413-3615 with
    3184-3242 (a subscriber processing the event); src/modinfo.c 3508-3631 (applying the
    edits), 588-638, 694-711, 531-586; src/sysrepo.c 4010-4128
    (sr_changes_notify_store()); src/shm_ext.c 537-560 (subscribing).

    Simplified: data are values of paths (module, top-level node, node); the edit of a
    session is the list of its operations, see C15 and C16 for trees.  A validation is
    one decision about all the data and changes nothing.  The event "change" is one
    decision about the diff (C10, C11, C12).  Only one originator, one datastore.
    The event data are in one area of memory: [true] if they are the originator and the
    diff, [false] after something else was written over them. *)
From Coq Require Import NArith List Bool Arith.
Import ListNotations.

Definition path := (N * N * N)%type.
Definition p_mod (p : path) : N := fst (fst p).
Definition p_top (p : path) : N := snd (fst p).
Definition path_eqb (p q : path) : bool :=
  N.eqb (p_mod p) (p_mod q) && N.eqb (p_top p) (p_top q) && N.eqb (snd p) (snd q).

Inductive kind := KSet (v : N) | KCreate (v : N) | KDelete | KRemove.
Definition op := (path * kind)%type.
Definition data := path -> option N.

(** One operation on one node, src/edit_diff.c (see C16) *)
Definition run1 (k : kind) (v : option N) : option (option N) :=
  match k, v with
  | KSet w, _ => Some (Some w)
  | KCreate w, None => Some (Some w)
  | KCreate _, Some _ => None
  | KDelete, Some _ => Some None
  | KDelete, None => None
  | KRemove, _ => Some None
  end.

Definition upd (d : data) (p : path) (v : option N) : data := fun q => if path_eqb p q then v else d q.

Definition oeqb (a b : option N) : bool :=
  match a, b with Some x, Some y => N.eqb x y | None, None => true | _, _ => false end.

(** Changed nodes with their old and new values *)
Definition diff := list (path * (option N * option N)).

Fixpoint dfind (df : diff) (p : path) : option (option N * option N) :=
  match df with
  | [] => None
  | (q, x) :: df' => if path_eqb p q then Some x else dfind df' p
  end.

Definition dremove (df : diff) (p : path) : diff := filter (fun x => negb (path_eqb p (fst x))) df.

(** Merging one change into a diff, lyd_diff_merge_module() (modinfo.c 704) *)
Definition merge1 (df : diff) (x : path * (option N * option N)) : diff :=
  let '(p, (o, n)) := x in
  match dfind df p with
  | Some (o', _) => if oeqb o' n then dremove df p else dremove df p ++ [(p, (o', n))]
  | None => if oeqb o n then df else df ++ [(p, (o, n))]
  end.

(** sr_modinfo_diff_merge(), modinfo.c 694-711 *)
Definition merge (old new : diff) : diff := fold_left merge1 new old.

Definition apply_op (x : data * diff) (o : op) : option (data * diff) :=
  let (d, df) := x in
  let (p, k) := o in
  match run1 k (d p) with
  | None => None
  | Some v => Some (upd d p v, merge1 df (p, (d p, v)))
  end.

Fixpoint apply_ops (l : list op) (x : data * diff) : option (data * diff) :=
  match l with
  | [] => Some x
  | o :: l' => match apply_op x o with Some y => apply_ops l' y | None => None end
  end.

(** sr_modinfo_next_mod(), modinfo.c 531-586: every module once *)
Fixpoint next_mods (seen : list N) (l : list N) : list N :=
  match l with
  | [] => []
  | m :: l' => if existsb (N.eqb m) seen then next_mods seen l' else m :: next_mods (m :: seen) l'
  end.

Fixpoint apply_mods (ms : list N) (l : list op) (x : data * diff) : option (data * diff) :=
  match ms with
  | [] => Some x
  | m :: ms' => match apply_ops (filter (fun o => N.eqb (p_mod (fst o)) m) l) x with
                | Some y => apply_mods ms' l y
                | None => None
                end
  end.

(** sr_modinfo_edit_apply(), modinfo.c 588-638 *)
Definition edit_apply (l : list op) (d : data) : option (data * diff) :=
  apply_mods (next_mods [] (map (fun o => p_mod (fst o)) l)) l (d, []).

(** lyd_insert_sibling(): top-level nodes are sorted by modules and by their order in
    the schema, the same ones in the order of insertion *)
Definition after (a b : op) : bool :=
  N.ltb (p_mod (fst b)) (p_mod (fst a)) ||
  (N.eqb (p_mod (fst b)) (p_mod (fst a)) && N.ltb (p_top (fst b)) (p_top (fst a))).

Fixpoint insert (l : list op) (o : op) : list op :=
  match l with
  | [] => [o]
  | x :: l' => if after x o then o :: l else x :: insert l' o
  end.

Definition insert_all (l new : list op) : list op := fold_left insert new l.

(** ** Subscriptions *)

Record sub := Sub { s_mod : N; s_id : N; s_cid : N; s_prio : N; s_alive : bool; s_susp : bool;
                    s_update : bool; s_forig : bool; s_all : bool; s_sel : path -> bool }.

Inductive tevent :=
| TSub (s : sub)
| TUnsub (id : N)
| TDie (cid : N)
| TSusp (id : N) (b : bool).

Definition set_alive (s : sub) (b : bool) : sub :=
  Sub (s_mod s) (s_id s) (s_cid s) (s_prio s) b (s_susp s) (s_update s) (s_forig s) (s_all s) (s_sel s).
Definition set_susp (s : sub) (b : bool) : sub :=
  Sub (s_mod s) (s_id s) (s_cid s) (s_prio s) (s_alive s) b (s_update s) (s_forig s) (s_all s) (s_sel s).

(** sr_shmext_change_sub_add(), shm_ext.c 540-590: dead subscriptions are removed, two
    update subscriptions of a module have different priorities *)
Definition tstep (tab : list sub) (e : tevent) : list sub :=
  match e with
  | TSub s =>
      let tab' := filter (fun x => negb (N.eqb (s_mod x) (s_mod s)) || s_alive x) tab in
      if s_update s && existsb (fun x => N.eqb (s_mod x) (s_mod s) && s_update x && N.eqb (s_prio x) (s_prio s)) tab'
      then tab' else tab' ++ [set_susp (set_alive s true) false]
  | TUnsub id => filter (fun x => negb (N.eqb (s_id x) id)) tab
  | TDie c => map (fun x => if N.eqb (s_cid x) c then set_alive x false else x) tab
  | TSusp id b => map (fun x => if N.eqb (s_id x) id then set_susp x b else x) tab
  end.

Definition trun (l : list tevent) : list sub := fold_left tstep l [].

(** sr_shmsub_change_filter_is_valid(), shm_sub.c 898-945 *)
Definition filter_valid (s : sub) (df : diff) : bool := existsb (fun x => s_sel s (fst x)) df.

(** The conditions of the loops, shm_sub.c 967-985 and 1031-1049 *)
Definition usable (s : sub) (m : N) (df : diff) : bool :=
  N.eqb (s_mod s) m && s_alive s && negb (s_susp s) && negb (s_forig s && negb (filter_valid s df)) && s_update s.

(** sr_shmsub_change_notify_has_subscription(), shm_sub.c 950-997 *)
Definition has_sub (tab : list sub) (m : N) (df : diff) : option N :=
  fold_left (fun a s => if usable s m df
                        then Some (match a with Some p => if N.ltb p (s_prio s) then s_prio s else p | None => s_prio s end)
                        else a) tab None.

(** sr_shmsub_change_notify_next_subscription(), shm_sub.c 1014-1079: the number and the
    priority *)
Definition next_sub (tab : list sub) (m : N) (df : diff) (last : N) : nat * N :=
  fold_left (fun a s =>
    if usable s m df && N.ltb (s_prio s) last then
      match a with
      | (0, _) => (1, s_prio s)
      | (c, p) => if N.ltb p (s_prio s) then (1, s_prio s) else if N.eqb (s_prio s) p then (S c, p) else (c, p)
      end
    else a) tab (0, 0%N).

(** What a callback returns, with the changes it made in its session *)
Inductive answer := AOk (e : list op) | AFail | AShelve (e : list op).

(** A subscriber: whether its process ends before the event is announced, and the
    results of its callback, in turn *)
Record behaviour := Beh { b_gone : bool; b_answers : list answer }.

(** A callback was called: the subscription, the changes and what it returned *)
Definition call := (sub * diff * answer)%type.

Inductive listened := LOk (e : list op) | LFail | LTimeout | LMisread.

(** Processing the event, shm_sub.c 3413-3615.  The data of a session are printed also
    when the event was shelved, and then written over the event data (3556-3561,
    3228-3236). *)
Fixpoint listen (s : sub) (dl : diff) (intact : bool) (ans : list answer) : list call * listened :=
  match ans with
  | [] => ([], LTimeout)
  | a :: ans' =>
      if negb intact then ([], LMisread)
      else match a with
           | AOk e => ([(s, dl, a)], LOk e)
           | AFail => ([(s, dl, a)], LFail)
           | AShelve e => let (c, r) := listen s dl false ans' in ((s, dl, a) :: c, r)
           end
  end.

(** Subscriptions with a filter that does not match do not call the callback: shm_sub.c
    3505-3525 *)
Definition process (s : sub) (dl : diff) (b : behaviour) : list call * listened :=
  if filter_valid s dl then listen s dl true (b_answers b)
  else if s_forig s then ([], LTimeout) else ([], LOk []).

(** sr_shmsub_change_notify_get_diff(), shm_sub.c 1228-1280 *)
Definition get_diff (s : sub) (m : N) (df : diff) : diff :=
  if s_all s then df else filter (fun x => N.eqb (p_mod (fst x)) m) df.

(** The local variable [edit]: not initialised, NULL, or a tree that is already a part
    of the result.  It is read also if the subscriber has ended (1370-1372, 1406-1413);
    inserting a tree into itself again is libyang's and not modelled, the outcome is
    [UUndef] then, too. *)
Inductive cur := CUninit | CNull | CUsed.

Inductive outcome :=
| UOk (u : option (list op)) (c : cur)   (* what was collected *)
| URefused                               (* failed callback or timeout *)
| UMisread                               (* a subscriber read something else than the event *)
| UUndef                                 (* [edit] used although not set by this subscriber *)
| UAssert
| UFuel.

(** Collecting, shm_sub.c 1407-1413 *)
Definition collect (u : option (list op)) (e : list op) : option (list op) * cur :=
  match e with
  | [] => (u, CNull)
  | _ => (Some (insert_all (match u with Some l => l | None => [] end) e), CUsed)
  end.

(** The loop over priorities, shm_sub.c 1340-1419 *)
Fixpoint ask (fuel : nat) (beh : N -> behaviour) (tab : list sub) (m : N) (df : diff)
    (last : N) (u : option (list op)) (c : cur) : list call * outcome :=
  match fuel with
  | 0 => ([], UFuel)
  | S fuel' =>
      match next_sub tab m df last with
      | (0, _) => ([], UOk u c)
      | (1, p) =>
          match find (fun s => usable s m df && N.eqb (s_prio s) p) tab with
          | None => ([], UAssert)
          | Some s =>
              if b_gone (beh (s_id s)) then
                match c with
                | CNull => ask fuel' beh tab m df p u c
                | _ => ([], UUndef)
                end
              else
                match process s (get_diff s m df) (beh (s_id s)) with
                | (l, LOk e) => let (u', c') := collect u e in
                                let (l', r) := ask fuel' beh tab m df p u' c' in (l ++ l', r)
                | (l, LMisread) => (l, UMisread)
                | (l, _) => (l, URefused)
                end
          end
      | _ => ([], UAssert)
      end
  end.

Definition u32 (n : N) : N := (n mod 4294967296)%N.

(** The loop over modules, shm_sub.c 1303-1426 *)
Fixpoint ask_mods (beh : N -> behaviour) (tab : list sub) (ms : list N) (df : diff)
    (u : option (list op)) (c : cur) : list call * outcome :=
  match ms with
  | [] => ([], UOk u c)
  | m :: ms' =>
      match has_sub tab m df with
      | None => ask_mods beh tab ms' df u c
      | Some p =>
          match ask (S (length tab)) beh tab m df (u32 (p + 1)) u c with
          | (l, UOk u' c') => let (l', r) := ask_mods beh tab ms' df u' c' in (l ++ l', r)
          | x => x
          end
      end
  end.

(** sr_shmsub_change_notify_update(), shm_sub.c 1283-1452 *)
Definition notify_update (beh : N -> behaviour) (tab : list sub) (df : diff) : list call * outcome :=
  ask_mods beh tab (next_mods [] (map (fun x => p_mod (fst x)) df)) df None CUninit.

(** ** Applying changes *)

Record world := World { w_beh : N -> behaviour; w_valid : data -> bool; w_accept : diff -> bool }.

(** [f_diff]: the changes published in the event "change" *)
Inductive verdict := Applied | Refused | Undefined.
Record final := Final { f_data : data; f_verdict : verdict; f_calls : list call; f_diff : option diff }.

(** sr_changes_notify_store() from the event "change" on, sysrepo.c 4085-4125 *)
Definition publish (w : world) (d d' : data) (df : diff) (l : list call) : final :=
  match df with
  | [] => Final d' Applied l None
  | _ => if w_accept w df then Final d' Applied l (Some df) else Final d Refused l (Some df)
  end.

(** sr_apply_changes(): the edit, the validation, the event "update" and
    sr_modinfo_change_notify_update(), modinfo.c 3508-3631 *)
Definition commit (w : world) (tab : list sub) (d : data) (e : list op) : final :=
  match edit_apply e d with
  | None => Final d Refused [] None
  | Some (d1, df1) =>
      if negb (w_valid w d1) then Final d Refused [] None
      else match df1 with
      | [] => Final d1 Applied [] None
      | _ =>
        match notify_update (w_beh w) tab df1 with
        | (l, UOk None _) => publish w d d1 df1 l
        | (l, UOk (Some u) _) =>
            match edit_apply u d1 with
            | None => Final d Refused l None
            | Some (d2, df2) =>
                if negb (w_valid w d2) then Final d Refused l None
                else publish w d d2 (merge df1 df2) l
            end
        | (l, URefused) => Final d Refused l None
        | (l, _) => Final d Undefined l None
        end
      end
  end.
