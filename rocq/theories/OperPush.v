(** * Operational data pushed by sessions (src/shm_ext.c 2862-3119, src/modinfo.c, src/sysrepo.c)

    One module.  Every session that pushed operational data for the module, or that was given an
    order, has one entry in an array in ext SHM ([sr_mod_oper_push_t], src/shm_types.h 78-86), the
    data are in a file of the datastore plugin kept for each (connection, session).  Reading of the
    operational datastore goes through the array and puts the data of one session after another
    onto the configuration.

    Every operation is one step: all of them hold the lock of the module, for writing if they change
    anything (C01, C05), except for the reader that finds data of a dead connection, which lets the
    lock go ([read_race] below). *)

From Coq Require Import List NArith Bool Lia.
Import ListNotations.
Open Scope N_scope.

(** ** Data *)

(** Leaves with a path and a value; simplification: the tree is not kept, creating of parents and
    removing of subtrees is not modelled. *)
Definition data := list (N * N).

Definition rmv (p : N) (d : data) : data := filter (fun x => negb (fst x =? p)) d.
Definition put (p v : N) (d : data) : data := (p, v) :: rmv p d.
Definition get (p : N) (d : data) : option N := option_map snd (find (fun x => fst x =? p) d).

(** A discard-items XPath (src/sysrepo.c 3625-3690): a path, optionally with a predicate that another
    leaf has a value.  An XPath that selects several nodes is several of these. *)
Definition discard := (N * option (N * N))%type.

(** What a session pushed: opaque discard-items nodes and data. *)
Record layer := mklayer { l_disc : list discard; l_data : list (N * N) }.

Definition holds (c : option (N * N)) (d : data) : bool :=
  match c with None => true | Some (p, v) => match get p d with Some w => w =? v | None => false end end.

(** src/modinfo.c 1327-1361: XPath removals first, evaluated in the data collected so far.
    src/modinfo.c 1363-1371: then the data are merged, values of the session win. *)
Definition lay (l : layer) (d : data) : data :=
  fold_left (fun d x => put (fst x) (snd x) d) (l_data l)
    (fold_left (fun d x => if holds (snd x) d then rmv (fst x) d else d) (l_disc l) d).

(** No data are not merged. *)
Definition layo (l : option layer) (d : data) : data := match l with Some l => lay l d | None => d end.

(** Equality of data, [sr_lyd_diff_siblings] finds no difference (src/modinfo.c 784-787). *)
Definition opt_eqb (a b : option N) : bool :=
  match a, b with Some a, Some b => a =? b | None, None => true | _, _ => false end.
Definition deq (d1 d2 : data) : bool := forallb (fun x => opt_eqb (get (fst x) d1) (get (fst x) d2)) (d1 ++ d2).

(** Equality of stored data.  Simplification: order and repetition matter here, the code
    (src/edit_diff.c 2455-2551) compares data and sets of discard-items.  Origins are left out. *)
Definition pv_eqb (a b : N * N) : bool := (fst a =? fst b) && (snd a =? snd b).
Definition cond_eqb (a b : option (N * N)) : bool :=
  match a, b with Some a, Some b => pv_eqb a b | None, None => true | _, _ => false end.
Definition disc_eqb (a b : discard) : bool := (fst a =? fst b) && cond_eqb (snd a) (snd b).
Fixpoint list_eqb {A} (f : A -> A -> bool) (a b : list A) : bool :=
  match a, b with [], [] => true | x :: a, y :: b => f x y && list_eqb f a b | _, _ => false end.
Definition layer_eqb (a b : layer) : bool := list_eqb disc_eqb (l_disc a) (l_disc b) && list_eqb pv_eqb (l_data a) (l_data b).
Definition olayer_eqb (a b : option layer) : bool :=
  match a, b with Some a, Some b => layer_eqb a b | None, None => true | _, _ => false end.

(** ** The array *)

(** [sr_mod_oper_push_t], src/shm_types.h 78-86. *)
Record entry := mkentry { e_cid : N; e_sid : N; e_order : N; e_has : bool }.

Definition two32 : N := 4294967296.

(** The loop of [sr_shmext_oper_push_update_get_idx()], src/shm_ext.c 2889-2914: [i] is the index of
    the first entry of [arr], [order], [found] and [ins] are [*order], [*found_i] and [*insert_i]. *)
Fixpoint idx_loop (i : nat) (arr : list entry) (sid order : N) (found ins : option nat) : option (N * option nat * option nat) :=
  match arr with
  | [] => Some (order, found, ins)
  | e :: r =>
      let next order found ins :=
        (* src/shm_ext.c 2910-2913 *)
        let ins := match ins with
                   | None => if negb (order =? 0) && (order <? e_order e) then Some i else None
                   | Some k => Some k end in
        idx_loop (S i) r sid order found ins in
      if e_sid e =? sid then
        (* src/shm_ext.c 2892-2903 *)
        let order := if order =? 0 then e_order e else order in
        next order (Some i) (if e_order e =? order then Some i else ins)
      else if e_order e =? order then None                (* src/shm_ext.c 2904-2908, SR_ERR_EXISTS *)
      else next order found ins
  end.

(** src/shm_ext.c 2875-2933 with the order generated for a new entry (32-bit) and the index of the end. *)
Definition get_idx (arr : list entry) (sid order : N) : option (N * option nat * nat) :=
  match idx_loop 0 arr sid order None None with
  | None => None
  | Some (order, found, ins) =>
      let order := if order =? 0
                   then match arr with [] => 1 | _ => (e_order (last arr (mkentry 0 0 0 false)) + 1) mod two32 end
                   else order in
      Some (order, found, match ins with Some k => k | None => length arr end)
  end.

Definition set_at (k : nat) (e : entry) (arr : list entry) : list entry := firstn k arr ++ e :: skipn (S k) arr.
Definition insert_at (k : nat) (e : entry) (arr : list entry) : list entry := firstn k arr ++ e :: skipn k arr.

Inductive upd :=
| UOk (arr : list entry)
| UExists            (* the order is used, EXT WRITE LOCK is not unlocked, src/shm_ext.c 2962-2964, 3011-3020 *)
| UOob               (* writing behind the array *)
| UAssert.

(** src/shm_ext.c 3000-3009: the members, with the asserts; [has] is [has_data], [None] if -1. *)
Definition fill (k : nat) (cid sid order : N) (has : option bool) (arr : list entry) : upd :=
  match nth_error arr k with
  | None => UOob
  | Some e =>
      if (e_cid e =? cid) && (e_sid e =? sid)
      then UOk (set_at k (mkentry cid sid order (match has with Some h => h | None => e_has e end)) arr)
      else UAssert
  end.

(** [sr_shmext_oper_push_update()], src/shm_ext.c 2935-3024. *)
Definition update (arr : list entry) (cid sid order : N) (has : option bool) : upd :=
  match get_idx arr sid order with
  | None => UExists
  | Some (order, None, k) =>
      (* src/shm_ext.c 2966-2985 *)
      fill k cid sid order has (insert_at k (mkentry cid sid 0 false) arr)
  | Some (order, Some f, k) =>
      if Nat.eqb f k then fill k cid sid order has arr
      else match nth_error arr f with
      | None => UOob
      | Some tmp =>
          if Nat.ltb k f then
            (* src/shm_ext.c 2992-2993, 2998: the entries from k to f-1 are moved one up *)
            fill k cid sid order has (firstn k arr ++ tmp :: firstn (f - k) (skipn k arr) ++ skipn (S f) arr)
          else
            (* src/shm_ext.c 2994-2998: the entries from f+1 to k-1 are moved one down, the entry at k is overwritten *)
            if Nat.ltb k (length arr)
            then fill k cid sid order has
                   (firstn f arr ++ firstn (k - f - 1) (skipn (S f) arr) ++ skipn (k - 1) (firstn k arr) ++ tmp :: skipn (S k) arr)
            else UOob
      end
  end.

(** [sr_shmext_oper_push_del()], src/shm_ext.c 3087-3119: the first entry of the session, an internal
    error if there is none. *)
Fixpoint push_del (sid : N) (arr : list entry) : option (list entry) :=
  match arr with
  | [] => None
  | e :: r => if e_sid e =? sid then Some r else option_map (cons e) (push_del sid r)
  end.

Definition entry_of (sid : N) (arr : list entry) : option entry := find (fun e => e_sid e =? sid) arr.

(** ** State *)

(** The part of the edit of a session that is for this module: there is no edit at all, there is one
    without anything for this module, or there are data for it (src/sysrepo.c 3452-3850, the edit of
    the operational datastore has one operation, merge or replace, src/sysrepo.c 3782-3795). *)
Inductive eop := EMerge | EReplace.
Inductive pending := PNone | POther | PEdit (o : eop) (l : layer).

Record st := mkst {
  s_arr : list entry;
  s_files : list ((N * N) * layer);      (* files of the datastore plugin, for each connection and session *)
  s_dead : list N;                       (* connections that died *)
  s_gone : list N;                       (* stopped sessions *)
  s_pend : list (N * pending);           (* session->dt[SR_DS_OPERATIONAL].edit *)
  s_flag : list N;                       (* session->push_oper_data *)
  s_base : data;                         (* enabled configuration data *)
  s_stuck : option N                     (* connection holding EXT WRITE LOCK forever *)
}.

Definition set_arr a s := mkst a (s_files s) (s_dead s) (s_gone s) (s_pend s) (s_flag s) (s_base s) (s_stuck s).
Definition set_files f s := mkst (s_arr s) f (s_dead s) (s_gone s) (s_pend s) (s_flag s) (s_base s) (s_stuck s).
Definition set_dead x s := mkst (s_arr s) (s_files s) x (s_gone s) (s_pend s) (s_flag s) (s_base s) (s_stuck s).
Definition set_gone x s := mkst (s_arr s) (s_files s) (s_dead s) x (s_pend s) (s_flag s) (s_base s) (s_stuck s).
Definition set_pend x s := mkst (s_arr s) (s_files s) (s_dead s) (s_gone s) x (s_flag s) (s_base s) (s_stuck s).
Definition set_flag x s := mkst (s_arr s) (s_files s) (s_dead s) (s_gone s) (s_pend s) x (s_base s) (s_stuck s).
Definition set_base x s := mkst (s_arr s) (s_files s) (s_dead s) (s_gone s) (s_pend s) (s_flag s) x (s_stuck s).
Definition set_stuck x s := mkst (s_arr s) (s_files s) (s_dead s) (s_gone s) (s_pend s) (s_flag s) (s_base s) x.

Definition mem (x : N) (l : list N) : bool := existsb (N.eqb x) l.

Definition key_eqb (a b : N * N) : bool := (fst a =? fst b) && (snd a =? snd b).
Definition file (k : N * N) (fs : list ((N * N) * layer)) : option layer :=
  option_map snd (find (fun x => key_eqb (fst x) k) fs).
Definition file_del (k : N * N) (fs : list ((N * N) * layer)) := filter (fun x => negb (key_eqb (fst x) k)) fs.
Definition file_set (k : N * N) (l : option layer) (fs : list ((N * N) * layer)) :=
  match l with Some l => (k, l) :: file_del k fs | None => file_del k fs end.

Definition pend_of (sid : N) (s : st) : pending :=
  match find (fun x => fst x =? sid) (s_pend s) with Some (_, p) => p | None => PNone end.

(** A connection that waits for EXT LOCK fails if it is held by somebody alive; the lock of a dead
    one is recovered (C02). *)
Definition stuck (s : st) : bool := match s_stuck s with Some c => negb (mem c (s_dead s)) | None => false end.

(** ** Reading *)

(** [sr_shmmod_del_module_oper_data()] with [dead_only], src/shm_mod.c 910-1006, and
    [sr_shmmod_del_module_sess_oper_data()] 864-908: file and entry of every dead connection. *)
Fixpoint purge_list (l : list entry) (dead : list N) (arr : list entry) (fs : list ((N * N) * layer))
  : list entry * list ((N * N) * layer) :=
  match l with
  | [] => (arr, fs)
  | e :: r =>
      if mem (e_cid e) dead
      then match push_del (e_sid e) arr with
           | None => (arr, fs)       (* internal error, the rest is left *)
           | Some arr' => purge_list r dead arr' (if e_has e then file_del (e_cid e, e_sid e) fs else fs)
           end
      else purge_list r dead arr fs
  end.

Definition purge (s : st) : st :=
  let r := purge_list (s_arr s) (s_dead s) (s_arr s) (s_files s) in set_files (snd r) (set_arr (fst r) s).

Inductive scanr := SDead (d : data) | SDone (d : data) (hit : bool) | SAssert.

(** The loop of [sr_module_oper_data_load()], src/modinfo.c 1290-1378: [prev] is the order of the
    previous entry, [new] are the data used for the session [sid] instead of the stored ones
    ([mod_oper_data]), the loop ends after [sid]. *)
Fixpoint scan (fs : list ((N * N) * layer)) (dead : list N) (sid : N) (new : option (option layer)) (prev : option N)
  (arr : list entry) (d : data) : scanr :=
  match arr with
  | [] => SDone d false
  | e :: r =>
      if mem (e_cid e) dead then SDead d                                      (* 1292-1303 *)
      else if negb (e_has e) then scan fs dead sid new (Some (e_order e)) r d  (* 1304-1307 *)
      else if match prev with Some o => e_order e <=? o | None => false end then SAssert  (* 1310 *)
      else
        let hit := e_sid e =? sid in
        let l := match new with
                 | Some n => if hit then n else file (e_cid e, e_sid e) fs
                 | None => file (e_cid e, e_sid e) fs end in
        if hit then SDone (layo l d) true else scan fs dead sid new (Some (e_order e)) r (layo l d)
  end.

(** src/modinfo.c 1380-1384. *)
Definition finish (new : option (option layer)) (d : data) (hit : bool) : data :=
  match new with Some n => if hit then d else layo n d | None => d end.

Definition scan_st (s : st) (sid : N) (new : option (option layer)) (d : data) : scanr :=
  scan (s_files s) (s_dead s) sid new None (s_arr s) d.

(** [sr_module_oper_data_load()], src/modinfo.c 1274-1393: if there are data of a dead connection, all
    of those are removed and the function is called again, with the data merged so far.  [None]: an assert
    failed (or somebody died meanwhile, which is not modelled). *)
Definition load (s : st) (sid : N) (new : option (option layer)) (d : data) : option (st * data) :=
  match scan_st s sid new d with
  | SDone d hit => Some (s, finish new d hit)
  | SAssert => None
  | SDead d =>
      let s := purge s in
      match scan_st s sid new d with
      | SDone d hit => Some (s, finish new d hit)
      | SAssert | SDead _ => None
      end
  end.

(** ** Operations *)

Inductive obs := Rc (ok : bool) | Read (d : data).
Inductive res := Res (s : st) (o : obs) | Assert | Ub.

Section Sys.
(** Connection of every session; whether a session has the permission to write the module. *)
Variable owner : N -> N.
Variable perm : N -> bool.

Definition has_data (sid : N) (s : st) : bool :=
  existsb (fun e => (e_sid e =? sid) && e_has e) (s_arr s).

(** Stored data of the session, src/modinfo.c 2666-2683. *)
Definition current (sid : N) (s : st) : option layer :=
  match entry_of sid (s_arr s) with
  | Some e => if e_has e then file (owner sid, sid) (s_files s) else None
  | None => None
  end.

(** Merging of pushed data into those pushed before, src/edit_diff.c 2447-2453, 2487-2505, 2527-2551. *)
Definition merge (old : option layer) (l : layer) : layer :=
  match old with
  | None => l
  | Some o =>
      mklayer (l_disc o ++ filter (fun x => negb (existsb (disc_eqb x) (l_disc o))) (l_disc l))
              (fold_left (fun d x => put (fst x) (snd x) d) (l_data l) (l_data o))
  end.

(** [sr_oper_edit_mod_apply()], src/edit_diff.c 2565-2663: no edit means removing, an edit without
    anything for this module leaves no operation and the assert in src/edit_diff.c 2423 fails. *)
Definition new_layer (p : pending) (old : option layer) : option (option layer) :=
  match p with
  | PNone => Some None
  | POther => None
  | PEdit EMerge l => Some (Some (merge old l))
  | PEdit EReplace l => Some (Some l)
  end.

Definition is_edit (p : pending) : bool := match p with PEdit _ _ => true | _ => false end.

(** [sr_modinfo_data_store()], src/modinfo.c 3855-3915, for the changed module. *)
Definition store (s : st) (sid : N) (new : option layer) (del : bool) : res :=
  let s := set_files (file_set (owner sid, sid) new (s_files s)) s in
  if del then
    match new with
    | Some _ => Assert                                           (* src/modinfo.c 3901 *)
    | None => match push_del sid (s_arr s) with
              | Some arr => Res (set_arr arr s) (Rc true)
              | None => Res s (Rc false)
              end
    end
  else
    match update (s_arr s) (owner sid) sid 0 (Some (match new with Some _ => true | None => false end)) with
    | UOk arr => Res (set_flag (sid :: s_flag s) (set_arr arr s)) (Rc true)
    | UExists => Res (set_stuck (Some (owner sid)) s) (Rc false)
    | UOob => Ub
    | UAssert => Assert
    end.

(** [sr_apply_oper_changes()], src/sysrepo.c 4155-4240, and [sr_changes_notify_store()] 3970-4140: [ok] is
    whether all the subscribers accept the change.  Without a difference in the pushed data nobody is
    asked and the permission is not checked (src/sysrepo.c 4053-4057). *)
Definition apply (s : st) (sid : N) (del ok : bool) : res :=
  if stuck s then Res s (Rc false)
  else
    let p := pend_of sid s in
    if negb (has_data sid s) && negb (is_edit p) then Res s (Rc true)       (* src/modinfo.c 321-372 *)
    else
      let cur := current sid s in
      match new_layer p cur with
      | None => Assert
      | Some new =>
          match load s sid None [] with
          | None => Assert
          | Some (s1, old_data) =>
              match load s1 sid (Some new) [] with
              | None => Assert
              | Some (s2, new_data) =>
                  let notify := negb (deq old_data new_data) in
                  if notify && negb (perm sid && ok) then Res s2 (Rc false)
                  else if olayer_eqb cur new then Res s2 (Rc true)
                  else store s2 sid new del
              end
          end
      end.

Inductive op :=
| OEdit (sid : N) (p : pending)          (* sr_set_item(), sr_delete_item(), sr_discard_items(), sr_edit_batch(), sr_discard_changes() *)
| OApply (sid : N) (ok : bool)           (* sr_apply_changes(), src/sysrepo.c 4242-4310 *)
| ODiscard (sid : N) (ok : bool)         (* sr_discard_oper_changes(), src/sysrepo.c 4623-4683 *)
| OOrder (sid order : N)                 (* sr_set_oper_changes_order() of the module, src/sysrepo.c 4750-4769 *)
| OStop (sid : N) (ok : bool)            (* sr_session_stop(), src/sysrepo.c 710-760 *)
| OCrash (cid : N)                       (* the process of a connection dies *)
| OCrashFill (sid order : N)             (* it dies when adding the entry, after src/shm_ext.c 2981 *)
| OCrashAdd (sid order : N) (g : entry)  (* it dies when adding the entry, before src/shm_ext.c 2978; [g] is what was behind the array *)
| OBase (d : data)                       (* the configuration changes *)
| ORead.                                 (* sr_get_data() of the operational datastore *)

Definition drop_pend (sid : N) (s : st) : st := set_pend (filter (fun x => negb (fst x =? sid)) (s_pend s)) s.

Definition step (s : st) (o : op) : res :=
  match o with
  | OEdit sid p => Res (set_pend ((sid, p) :: s_pend s) s) (Rc true)
  | OApply sid ok =>
      match pend_of sid s with
      | PNone => Res s (Rc true)                                           (* src/sysrepo.c 4251-4253 *)
      | _ => match apply s sid false ok with
             | Res s (Rc true) => Res (drop_pend sid s) (Rc true)         (* src/sysrepo.c 4298-4302 *)
             | r => r
             end
      end
  | ODiscard sid ok => apply s sid false ok
  | OOrder sid n =>
      if n =? 0 then Res s (Rc false)                                      (* src/sysrepo.c 4756 *)
      else if stuck s then Res s (Rc false)
      else match update (s_arr s) (owner sid) sid n None with
           | UOk arr => Res (set_arr arr s) (Rc true)
           | UExists => Res (set_stuck (Some (owner sid)) s) (Rc false)
           | UOob => Ub
           | UAssert => Assert
           end
  | OStop sid ok =>
      (* src/sysrepo.c 725-728: the result is ignored (here it is shown) *)
      let free s := set_gone (sid :: s_gone s) (drop_pend sid s) in
      if mem sid (s_flag s)
      then match apply s sid true ok with
           | Res s o => Res (free s) o
           | r => r
           end
      else Res (free s) (Rc true)
  | OCrash c => Res (set_dead (c :: s_dead s) s) (Rc true)
  | OCrashFill sid n =>
      let s' := set_dead (owner sid :: s_dead s) s in
      match get_idx (s_arr s) sid n with
      | Some (_, None, k) => Res (set_arr (insert_at k (mkentry (owner sid) sid 0 false) (s_arr s)) s') (Rc true)
      | _ => Res s' (Rc true)
      end
  | OCrashAdd sid n g =>
      let s' := set_dead (owner sid :: s_dead s) s in
      match get_idx (s_arr s) sid n with
      | Some (_, None, k) => Res (set_arr (insert_at k (nth k (s_arr s) g) (s_arr s)) s') (Rc true)
      | _ => Res s' (Rc true)
      end
  | OBase d => Res (set_base d s) (Rc true)
  | ORead =>
      if stuck s then Res s (Rc false)
      else match load s 0 None (s_base s) with
           | Some (s, d) => Res s (Read d)
           | None => Assert
           end
  end.

Fixpoint run (s : st) (l : list op) : res :=
  match l with
  | [] => Res s (Rc true)
  | [o] => step s o
  | o :: l => match step s o with Res s _ => run s l | r => r end
  end.

(** A reader that finds a dead connection lets READ LOCK of the module go and takes WRITE LOCK
    (src/shm_mod.c 936-949), others can change anything meanwhile: [l] are those changes. *)
Definition read_race (s : st) (l : list op) : res :=
  match scan_st s 0 None (s_base s) with
  | SDead d =>
      match run s l with
      | Res s _ => match load (purge s) 0 None d with Some (s, d) => Res s (Read d) | None => Assert end
      | r => r
      end
  | SDone d _ => Res s (Read d)
  | SAssert => Assert
  end.

End Sys.

Definition init (base : data) : st := mkst [] [] [] [] [] [] base None.
