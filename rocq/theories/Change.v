(** Notifying the subscribers of a change: which events are written for which priorities and modules
    and in what order, src/shm_sub.c. *)
From Coq Require Import List Bool Arith NArith.
Import ListNotations.
Local Open Scope N_scope.

Definition u32_max : N := 4294967295.
Definition u32 (x : N) : N := x mod 4294967296.

(** Kinds of events, each sent by its own function. *)
Inductive kind := KChange | KDone | KAbort.

(** A record of the shared table of subscriptions of a module (sr_mod_change_sub_t, src/shm_types.h).
    [a_filt]: SR_SUBSCR_FILTER_ORIG is set and sr_shmsub_change_filter_is_valid() returns 0 for its
    XPath and the diff. *)
Record asub := mkasub { a_id : nat; a_prio : N; a_done_only : bool; a_susp : bool; a_filt : bool }.
(** A module with changes in the diff and with its priority in the datastore (data_lock_info[ds].prio). *)
Record amod := mkamod { m_id : nat; m_prio : N; m_subs : list asub }.

(** sr_shmsub_change_listen_event_is_valid(), src/shm_sub.c 863-890. *)
Definition event_valid (k : kind) (s : asub) : bool :=
  match k with KDone => true | KChange | KAbort => negb (a_done_only s) end.

(** A call of a callback of subscription [c_sub] of module [c_mod] and its result. *)
Inductive result := ROk | RShelve | RErr.
Record call := mkcall { c_mod : nat; c_sub : nat; c_res : result }.

Section Notify.
(** sr_conn_is_alive() of the connection of a subscription. *)
Variable alive : asub -> bool.

(** sr_shmsub_change_notify_has_subscription(), src/shm_sub.c 949-998: whether there is one and the
    highest priority. *)
Definition has_subscription (k : kind) (subs : list asub) : bool * N :=
  fold_left (fun (acc : bool * N) s =>
    if negb (alive s) then acc
    else if a_susp s then acc
    else if a_filt s then acc
    else if event_valid k s then (true, if snd acc <? a_prio s then a_prio s else snd acc)
    else acc) subs (false, 0).

(** sr_shmsub_change_notify_next_subscription(), src/shm_sub.c 1013-1080; [next] is the value of
    [*next_priority_p] before the call. The count is a uint32_t in the code. *)
Definition next_subscription (k : kind) (last next : N) (subs : list asub) : N * N :=
  fold_left (fun (acc : N * N) s =>
    if negb (alive s) then acc
    else if a_susp s then acc
    else if a_filt s then acc
    else if event_valid k s && (a_prio s <? last) then
      if negb (snd acc =? 0) then
        if fst acc <? a_prio s then (a_prio s, 1)
        else if a_prio s =? fst acc then (fst acc, snd acc + 1)
        else acc
      else (a_prio s, 1)
    else acc) subs (next, 0).

(** sr_shmsub_change_notify_evpipe(), src/shm_sub.c 1127-1180: number of subscribers woken up; there
    is nobody reading from the pipe of a dead connection. *)
Definition notify_evpipe (k : kind) (priority : N) (subs : list asub) : N :=
  fold_left (fun (acc : N) s =>
    if negb (event_valid k s) then acc
    else if a_susp s then acc
    else if a_filt s then acc
    else if (a_prio s =? priority) && alive s then acc + 1
    else acc) subs 0.

(** struct sr_shmsub_many_info_change_s, src/shm_sub.c 66-82: [n_err] are change_error, err_priority
    and err_subscriber_count. *)
Record nsub := mknsub { n_mod : amod; n_mprio : N; n_cur : N; n_err : option (N * N) }.
Definition set_mprio (x : N) (n : nsub) : nsub := mknsub (n_mod n) x (n_cur n) (n_err n).
Definition set_cur (x : N) (n : nsub) : nsub := mknsub (n_mod n) (n_mprio n) x (n_err n).

(** Creating notify_subs, src/shm_sub.c 1575-1605 (change), 1774-1799 (done) and 1957-1988 (abort;
    the error of a module is read in 2012-2024). [err] are modules with the "error" event in their
    SHM, its priority and the number of subscribers. *)
Definition create (k : kind) (err : nat -> option (N * N)) (mods : list amod) : list nsub :=
  flat_map (fun m =>
    let k0 := match k with KAbort => KChange | _ => k end in
    if fst (has_subscription k0 (m_subs m))
    then [mknsub m 0 (u32 (snd (has_subscription k (m_subs m)) + 1)) (match k with KAbort => err (m_id m) | _ => None end)]
    else []) mods.

(** sr_shmsub_change_notify_nsubs_set_mod_prio(), src/shm_sub.c 1523-1558; [fuel] is the number of
    modules (every iteration assigns the priority of at least one). *)
Fixpoint set_mod_prio_loop (fuel : nat) (cur left : N) (ns : list nsub) : list nsub * N :=
  match fuel with
  | O => (ns, cur)
  | S fuel' =>
      let mn := fold_left (fun mn n => if n_mprio n <? cur then mn else if n_mprio n <? mn then n_mprio n else mn) ns u32_max in
      let left' := left - N.of_nat (length (filter (fun n => n_mprio n =? mn) ns)) in
      let ns' := map (fun n => if n_mprio n =? mn then set_mprio cur n else n) ns in
      if left' =? 0 then (ns', cur + 1) else set_mod_prio_loop fuel' (cur + 1) left' ns'
  end.
Definition set_mod_prio (ns : list nsub) : list nsub * N :=
  let ns1 := map (fun n => set_mprio (m_prio (n_mod n)) n) ns in
  let r := set_mod_prio_loop (length ns) 0 (N.of_nat (length ns)) ns1 in
  (fst r, snd r - 1).

(** An event written for a module: its priority and the number of subscribers in SHM. *)
Record pend := mkpend { p_mod : amod; p_prio : N; p_cnt : N }.

(** One iteration of the inner loops, src/shm_sub.c 1615-1685 (change), 1808-1878 (done), 2044-2121
    (abort): the module afterwards, the event written, if any, and whether [last_priority] was set.
    In "change" SHM has the number of subscribers woken up, in others the one found before. *)
Definition pick (k : kind) (cur : N) (n : nsub) : nsub * option pend * bool :=
  if negb (n_mprio n =? cur) then (n, None, false)
  else
    let pc := next_subscription k (n_cur n) (n_cur n) (m_subs (n_mod n)) in
    let n' := set_cur (fst pc) n in
    let hit := match n_err n with Some (ep, _) => ep =? fst pc | None => false end in
    let cnt := match n_err n with
               | Some (_, ec) => if hit && negb (snd pc =? 0) then u32 (snd pc + 4294967296 - ec) else snd pc
               | None => snd pc
               end in
    if cnt =? 0 then (n', None, hit)
    else
      let woken := notify_evpipe k (fst pc) (m_subs (n_mod n)) in
      if woken =? 0 then (n', None, hit)
      else (n', Some (mkpend (n_mod n) (fst pc) (match k with KChange => woken | _ => cnt end)), hit).

(** What was done in one iteration of the outer loop: events written and the calls of callbacks, in
    order, until all the events were processed or the wait timed out. *)
Record round := mkround { r_pend : list pend; r_calls : list call }.

(** The event was processed by all its subscribers with success. *)
Definition accepted (cs : list call) (m s : nat) : bool :=
  existsb (fun c => Nat.eqb (c_mod c) m && Nat.eqb (c_sub c) s && match c_res c with ROk => true | _ => false end) cs.
Definition acceptors (cs : list call) (m : amod) (prio : N) : list asub :=
  filter (fun s => (a_prio s =? prio) && accepted cs (m_id m) (a_id s)) (m_subs m).
(** The subscriber count left in SHM, src/shm_sub.c 3227; all acceptances were reported. *)
Definition left_count (cs : list call) (p : pend) : N :=
  p_cnt p - N.of_nat (length (acceptors cs (p_mod p) (p_prio p))).

Inductive outcome :=
| OOk        (* all the events were sent and processed *)
| ORefused   (* cb_err_info: an event was refused or not processed in time *)
| OFailed    (* err_info: another error, such as a lock timeout *)
| OFuel.

(** What happens in the i-th round that writes events: [None] if waiting for the events fails because
    of another error, otherwise the calls of callbacks. *)
Variable env : nat -> option (list call).

(** The outer loops, src/shm_sub.c 1613-1732, 1806-1915 and 2042-2152. *)
Fixpoint loop (k : kind) (fuel : nat) (r : nat) (cur : N) (ns : list nsub) : list round * outcome :=
  match fuel with
  | O => ([], OFuel)
  | S fuel' =>
      let l := map (pick k cur) ns in
      let ns' := map (fun x => fst (fst x)) l in
      let pends := flat_map (fun x => match snd (fst x) with Some p => [p] | None => [] end) l in
      let last := existsb (fun x => snd x) l in
      match pends with
      | [] => if cur =? 0 then ([], OOk) else if last then ([], OOk) else loop k fuel' r (cur - 1) ns'
      | _ =>
          match env r with
          | None => ([mkround pends []], OFailed)
          | Some cs =>
              match k with
              | KChange =>
                  if forallb (fun p => left_count cs p =? 0) pends
                  then let t := loop k fuel' (S r) cur ns' in (mkround pends cs :: fst t, snd t)
                  else ([mkround pends cs], ORefused)
              | KDone => let t := loop k fuel' (S r) cur ns' in (mkround pends cs :: fst t, snd t)
              | KAbort => if last then ([mkround pends cs], OOk)
                          else let t := loop k fuel' (S r) cur ns' in (mkround pends cs :: fst t, snd t)
              end
          end
      end
  end.

(** sr_shmsub_change_notify_change(), _done() and _abort(), src/shm_sub.c 1560-1758, 1760-1939 and
    1941-2175. *)
Definition notify (k : kind) (err : nat -> option (N * N)) (mods : list amod) : list round * outcome :=
  match create k err mods with
  | [] => ([], OOk)
  | ns => let p := set_mod_prio ns in
          loop k (S (N.to_nat (snd p) + length (flat_map (fun n => m_subs (n_mod n)) ns))) 0 (snd p) (fst p)
  end.
End Notify.

(** Modules with "error" in SHM after a refused change: those of the last round with an event that
    was not processed by all. *)
Definition errors (rs : list round) (m : nat) : option (N * N) :=
  match last rs (mkround [] []) with
  | mkround ps cs =>
      match find (fun p => Nat.eqb (m_id (p_mod p)) m && negb (left_count cs p =? 0)) ps with
      | Some p => Some (p_prio p, left_count cs p)
      | None => None
      end
  end.
