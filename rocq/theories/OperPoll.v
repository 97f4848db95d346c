(** Periodic retrieval of operational data into the cache of a connection
    (sr_oper_poll_subscribe()) and reading from that cache.

    Modelled: src/shm_sub.c 3838-4111 (search for a provider, validity of the cache,
    update of the caches of a subscription structure), 4777-4813 (stop times),
    4887-4957 (the thread of a structure); src/sysrepo.c 5099-5205 (the part about
    polling), 5319-5326, 7725-7855; src/modinfo.c 1172-1225 and 1519-1529 (use of
    the cache by readers); src/common.c 2947-3040 and 3271-3300.

    Simplified: data are sets of nodes with values, [sel p n] says that the path [p]
    selects the node [n]; what the providers return for a path is the part of the
    operational data [s_oper] selected by it (its composition is the subject of C41);
    libyang computes differences of trees correctly ([diff_tree]).  Reading waits for
    an update of the cache that is being done (CACHE DATA lock), so an update is one
    step.  The clock of the system is [s_now]; [s_mono] is time itself, [s_log] what
    the operational data were at which time, and [c_rep] what was reported: these
    three are not read by the program. *)
From Coq Require Import ZArith NArith List Bool.
From Verif Require Import Time.
Import ListNotations.
Local Open Scope Z_scope.

Definition path := list N.

Fixpoint path_eqb (a b : path) : bool :=
  match a, b with
  | [], [] => true
  | x :: a', y :: b' => N.eqb x y && path_eqb a' b'
  | _, _ => false
  end.

(** ** Data *)

Definition tree := list (N * N).

Fixpoint get (n : N) (t : tree) : option N :=
  match t with
  | [] => None
  | (k, v) :: t' => if N.eqb n k then Some v else get n t'
  end.

Definition restrict (sel : path -> N -> bool) (p : path) (t : tree) : tree :=
  filter (fun kv => sel p (fst kv)) t.

Inductive dop := DCreate (n v : N) | DReplace (n v : N) | DDelete (n : N).

(** sr_lyd_diff_siblings(): what is gone, what is new or has another value. *)
Definition diff_tree (a b : tree) : list dop :=
  flat_map (fun kv => match get (fst kv) b with None => [DDelete (fst kv)] | Some _ => [] end) a ++
  flat_map (fun kv => match get (fst kv) a, get (fst kv) b with
                      | None, Some v => [DCreate (fst kv) v]
                      | Some o, Some v => if N.eqb o v then [] else [DReplace (fst kv) v]
                      | _, None => []
                      end) b.

(** ** State *)

(** struct modsub_operpollsub_s, common_types.h *)
Record psub := PSub { p_id : N; p_path : path; p_valid : Z; p_diff : bool; p_susp : bool }.

(** struct sr_oper_poll_cache_s, common_types.h *)
Record cache := Cache {
  c_id : N; c_mod : N; c_path : path; c_data : tree; c_ts : timespec;
  c_rep : list (list dop) }.

(** sr_mod_oper_get_sub_t with the flags "suspended" of its subscriptions *)
Record gsub := GSub { g_mod : N; g_path : path; g_susp : list bool }.

(** A subscription structure: its poll subscriptions by modules, whether its thread
    runs, and when the thread stops waiting at the latest (time, not clock). *)
Record strct := Strct { t_groups : list (N * list psub); t_alive : bool; t_dl : option Z }.

Record st := St {
  s_mono : Z; s_now : timespec; s_oper : tree; s_log : list (Z * tree);
  s_gets : list gsub; s_caches : list cache; s_strs : list strct; s_next : N }.

Definition ts_zero : timespec := {| tv_sec := 0; tv_nsec := 0 |}.
Definition ts_is_zero (t : timespec) : bool := (tv_sec t =? 0) && (tv_nsec t =? 0).

(** Time passes. *)
Definition adv (t : timespec) (n : Z) : timespec :=
  {| tv_sec := tv_sec t + (tv_nsec t + n) / 1000000000;
     tv_nsec := (tv_nsec t + n) mod 1000000000 |}.

Definition pass (n : Z) (o : tree) (s : st) : st :=
  St (s_mono s + n) (adv (s_now s) n) o ((s_mono s + n, o) :: s_log s)
     (s_gets s) (s_caches s) (s_strs s) (s_next s).

Definition set_caches (l : list cache) (s : st) : st :=
  St (s_mono s) (s_now s) (s_oper s) (s_log s) (s_gets s) l (s_strs s) (s_next s).
Definition set_strs (l : list strct) (s : st) : st :=
  St (s_mono s) (s_now s) (s_oper s) (s_log s) (s_gets s) (s_caches s) l (s_next s).
Definition set_gets (l : list gsub) (s : st) : st :=
  St (s_mono s) (s_now s) (s_oper s) (s_log s) l (s_caches s) (s_strs s) (s_next s).

(** ** Providers and caches *)

(** sr_shmsub_oper_poll_listen_find_get_sub(), shm_sub.c 3838-3882 *)
Fixpoint find_get (l : list gsub) (m : N) (p : path) : bool :=
  match l with
  | [] => false
  | g :: l' => if N.eqb (g_mod g) m && path_eqb p (g_path g)
               then existsb negb (g_susp g) else find_get l' m p
  end.

(** sr_shmsub_oper_poll_listen_is_cache_valid(), shm_sub.c 3895-3923 *)
Definition cache_valid (c : cache) (valid_ms : Z) (cur : timespec) : option timespec :=
  if tv_sec (c_ts c) =? 0 then None
  else let t := ts_add (Some (c_ts c)) valid_ms in
       if time_cmp t cur <=? 0 then None else Some (time_sub t cur).

Fixpoint cache_by_id (l : list cache) (id : N) : option cache :=
  match l with
  | [] => None
  | c :: l' => if N.eqb (c_id c) id then Some c else cache_by_id l' id
  end.

Fixpoint set_cache (l : list cache) (id : N) (f : cache -> cache) : list cache :=
  match l with
  | [] => []
  | c :: l' => if N.eqb (c_id c) id then f c :: l' else c :: set_cache l' id f
  end.

Definition clear_cache (c : cache) : cache :=
  Cache (c_id c) (c_mod c) (c_path c) [] ts_zero (c_rep c).

Definition fill_cache (d : tree) (t : timespec) (r : list (list dop)) (c : cache) : cache :=
  Cache (c_id c) (c_mod c) (c_path c) d t (c_rep c ++ r).

(** sr_conn_oper_cache_add(), common.c 2947-2993: [None] if the path is polled already *)
Definition cache_add (l : list cache) (id m : N) (p : path) : option (list cache) :=
  if existsb (fun c => path_eqb (c_path c) p) l then None
  else Some (l ++ [Cache id m p [] ts_zero []]).

(** The last element replaces the removed one, common.c 3024-3028. *)
Fixpoint del_first {A} (f : A -> bool) (l : list A) (lst : A) : list A :=
  match l with
  | [] => []
  | x :: l' => if f x then (match l' with [] => [] | _ => lst :: removelast l' end)
               else x :: del_first f l' lst
  end.

Definition del_swap {A} (f : A -> bool) (l : list A) : list A :=
  match l with [] => [] | x :: _ => del_first f l (last l x) end.

(** sr_conn_oper_cache_del(), common.c 2995-3040 (it exists, see the assert there) *)
Definition cache_del (l : list cache) (id : N) : list cache :=
  del_swap (fun c => N.eqb (c_id c) id) l.

(** ** Updating the caches *)

(** What happens while the data of a subscription are retrieved: how long it takes,
    what the operational data are at the end, whether it fails (1: timeout, 2: other
    error), whether a subscriber refuses the event "update". *)
Record env := Env { e_dur : Z; e_oper : tree; e_fail : N; e_refuse : bool }.

Definition upd_wake (w : option timespec) (inv : timespec) : option timespec :=
  match w with
  | None => None
  | Some x => if (tv_sec x =? 0) || (time_cmp inv x <? 0) then Some inv else Some x
  end.

Inductive res :=
| POk (s : st) (w : option timespec)
| PErr (s : st) (timeout : bool)
| PAssert.

(** One iteration of sr_shmsub_oper_poll_listen_process_module_events(),
    shm_sub.c 3970-4094 *)
Definition poll_sub (sel : path -> N -> bool) (e : env) (m : N) (p : psub) (s : st)
    (w : option timespec) : res :=
  if p_susp p then POk s w
  else match cache_by_id (s_caches s) (p_id p) with
  | None => PAssert
  | Some c =>
      if negb (find_get (s_gets s) m (p_path p))
      then POk (set_caches (set_cache (s_caches s) (p_id p) clear_cache) s) w
      else match cache_valid c (p_valid p) (s_now s) with
      | Some inv => POk s (upd_wake w inv)
      | None =>
          let data := restrict sel (p_path p) (s_oper s) in
          let s1 := pass (e_dur e) (e_oper e) s in
          if negb (N.eqb (e_fail e) 0) then PErr s1 (N.eqb (e_fail e) 1)
          else
            let d := if p_diff p then diff_tree (c_data c) data else [] in
            if (match d with [] => false | _ => true end) && e_refuse e then PErr s1 false
            else
              POk (set_caches (set_cache (s_caches s1) (p_id p)
                     (fill_cache data (s_now s1) (match d with [] => [] | _ => [d] end))) s1)
                  (upd_wake w (ts_add None (p_valid p)))
      end
  end.

(** sr_shmsub_oper_poll_listen_process_module_events(), shm_sub.c 3925-4111 *)
Fixpoint poll_subs (sel : path -> N -> bool) (env : N -> env) (m : N) (l : list psub) (s : st)
    (w : option timespec) : res :=
  match l with
  | [] => POk s w
  | p :: l' => match poll_sub sel (env (p_id p)) m p s w with
               | POk s' w' => poll_subs sel env m l' s' w'
               | r => r
               end
  end.

(** The part of sr_subscription_process_events() about polling, sysrepo.c 5152-5158 *)
Fixpoint poll_groups (sel : path -> N -> bool) (env : N -> env) (l : list (N * list psub)) (s : st)
    (w : option timespec) : res :=
  match l with
  | [] => POk s w
  | (m, ps) :: l' => match poll_subs sel env m ps s w with
                     | POk s' w' => poll_groups sel env l' s' w'
                     | r => r
                     end
  end.

(** ** The thread *)

(** sr_shmsub_listen_thread(), shm_sub.c 4922-4932: argument of poll(), of type int *)
Definition poll_timeout (w : timespec) : Z :=
  to_int (to_int (tv_sec w * 1000) + Z.quot (tv_nsec w) 1000000).

(** When the thread goes on at the latest: never ([None]) if nothing is scheduled
    (shm_sub.c 4942-4945) or if the argument of poll() is negative. *)
Definition wait_until (mono : Z) (w : timespec) : option Z :=
  if ts_is_zero w then None
  else if poll_timeout w <? 0 then None
  else Some (mono + poll_timeout w * 1000000).

(** sr_shmsub_notif_listen_module_get_stop_time_in(), shm_sub.c 4777-4813, for the
    nearest stop time [stop] of a module *)
Definition stop_time_in (stop cur : timespec) (w : timespec) : timespec :=
  if time_cmp cur stop >? -1 then {| tv_sec := tv_sec w; tv_nsec := 1 |}
  else let i := time_sub stop cur in
       if ts_is_zero w || (time_cmp w i >? 0) then i else w.

Fixpoint set_nth {A} (n : nat) (f : A -> A) (l : list A) : list A :=
  match l, n with
  | [], _ => []
  | x :: l', O => f x :: l'
  | x :: l', S n' => x :: set_nth n' f l'
  end.

(** ** Events *)

(** sr_shmsub_notify_evpipe(): the thread goes on as soon as it can. *)
Definition wake_now (mono : Z) (t : strct) : strct :=
  Strct (t_groups t) (t_alive t)
        (Some (match t_dl t with Some d => Z.min d mono | None => mono end)).

(** sr_shmsub_oper_poll_get_sub_change_notify_evpipe(), shm_sub.c 4116-4167 *)
Definition get_changed (mono : Z) (m : N) (p : path) (t : strct) : strct :=
  if existsb (fun g => N.eqb (fst g) m &&
                existsb (fun q => path_eqb p (p_path q) && negb (p_susp q)) (snd g)) (t_groups t)
  then wake_now mono t else t.

Fixpoint put_get (m : N) (p : path) (fl : list bool) (l : list gsub) : list gsub :=
  match l with
  | [] => match fl with [] => [] | _ => [GSub m p fl] end
  | g :: l' => if N.eqb (g_mod g) m && path_eqb p (g_path g)
               then match fl with [] => l' | _ => GSub m p fl :: l' end
               else g :: put_get m p fl l'
  end.

(** sr_subscr_oper_poll_sub_add(), subscr.c 307-383 *)
Fixpoint add_psub (m : N) (p : psub) (l : list (N * list psub)) : list (N * list psub) :=
  match l with
  | [] => [(m, [p])]
  | g :: l' => if N.eqb (fst g) m then (fst g, snd g ++ [p]) :: l' else g :: add_psub m p l'
  end.

(** sr_subscr_oper_poll_sub_del(), subscr.c 385-427; simplified: the order of the
    remaining subscriptions (the last one replaces the removed one). *)
Definition del_psub (id : N) (l : list (N * list psub)) : list (N * list psub) :=
  filter (fun g => match snd g with [] => false | _ => true end)
    (map (fun g => (fst g, filter (fun p => negb (N.eqb (p_id p) id)) (snd g))) l).

Definition map_psub (id : N) (f : psub -> psub) (l : list (N * list psub)) : list (N * list psub) :=
  map (fun g => (fst g, map (fun p => if N.eqb (p_id p) id then f p else p) (snd g))) l.

Inductive event :=
| Tick (n : Z)                                  (* time passes *)
| Provide (o : tree)                            (* the operational data change *)
| SetClock (t : timespec)                       (* the clock of the system is set *)
| Gets (m : N) (p : path) (fl : list bool)      (* providers of a path change *)
| Flush                                         (* sr_conn_ctx_switch() *)
| PollAdd (i : nat) (m : N) (p : path) (valid : Z) (diff : bool) (env : N -> env)
| PollDel (i : nat) (id : N)
| PollSusp (i : nat) (id : N) (b : bool)
| Process (i : nat) (env : N -> env).           (* the thread processes events *)

(** sr_oper_poll_subscribe(), sysrepo.c 7725-7855: [i] is the structure, one behind the
    last is a new one.  A failed call changes nothing but the time that has passed. *)
Definition poll_add (sel : path -> N -> bool) (i : nat) (m : N) (p : path) (valid : Z) (diff : bool)
    (env : N -> env) (s : st) : option st :=
  let strs := if (i <? length (s_strs s))%nat then s_strs s else s_strs s ++ [Strct [] true None] in
  match nth_error strs i with
  | None => Some s
  | Some t =>
      let id := s_next s in
      if valid =? 0 then Some s
      else match cache_add (s_caches s) id m p with
      | None => Some s
      | Some cs =>
          let groups := add_psub m (PSub id p valid diff false) (t_groups t) in
          let s1 := St (s_mono s) (s_now s) (s_oper s) (s_log s) (s_gets s) cs strs (id + 1) in
          (* the first update, of the last module in the structure (C55) *)
          match poll_groups sel env (match rev groups with [] => [] | g :: _ => [g] end) s1 None with
          | PAssert => None
          | PErr s2 _ => Some (set_caches (cache_del (s_caches s2) id) s2)
          | POk s2 _ =>
              Some (set_strs (set_nth i (fun t => wake_now (s_mono s2) (Strct groups (t_alive t) (t_dl t)))
                                      (s_strs s2)) s2)
          end
      end
  end.

Definition process (sel : path -> N -> bool) (i : nat) (env : N -> env) (s : st) : option st :=
  match nth_error (s_strs s) i with
  | None => Some s
  | Some t =>
      if negb (t_alive t) then Some s
      else match poll_groups sel env (t_groups t) s (Some ts_zero) with
      | PAssert => None
      | PErr s' true =>
          Some (set_strs (set_nth i (fun t => Strct (t_groups t) true (Some (s_mono s'))) (s_strs s')) s')
      | PErr s' false =>
          Some (set_strs (set_nth i (fun t => Strct (t_groups t) false None) (s_strs s')) s')
      | POk s' w =>
          Some (set_strs (set_nth i (fun t => Strct (t_groups t) true
                            (match w with Some x => wait_until (s_mono s') x | None => None end))
                          (s_strs s')) s')
      end
  end.

Definition exec (sel : path -> N -> bool) (s : st) (e : event) : option st :=
  match e with
  | Tick n => Some (pass n (s_oper s) s)
  | Provide o => Some (pass 0 o s)
  | SetClock t => Some (St (s_mono s) t (s_oper s) (s_log s) (s_gets s) (s_caches s) (s_strs s) (s_next s))
  | Gets m p fl =>
      Some (set_strs (map (get_changed (s_mono s) m p) (s_strs s))
                     (set_gets (put_get m p fl (s_gets s)) s))
  | Flush => Some (set_caches (map clear_cache (s_caches s)) s)
  | PollAdd i m p valid diff env => poll_add sel i m p valid diff env s
  | PollDel i id =>
      match nth_error (s_strs s) i with
      | None => Some s
      | Some t =>
          if existsb (fun g => existsb (fun p => N.eqb (p_id p) id) (snd g)) (t_groups t)
          (* identifiers are unique: no other structure has this one *)
          then Some (set_caches (cache_del (s_caches s) id)
                       (set_strs (map (fun t => Strct (del_psub id (t_groups t)) (t_alive t) (t_dl t))
                                      (s_strs s)) s))
          else Some s
      end
  | PollSusp i id b =>
      Some (set_strs (set_nth i (fun t => Strct (map_psub id (fun p => PSub (p_id p) (p_path p) (p_valid p)
                                                    (p_diff p) b) (t_groups t)) (t_alive t) (t_dl t))
                              (s_strs s)) s)
  | Process i env => process sel i env s
  end.

(** ** Reading *)

Fixpoint strip (p q : path) : option path :=
  match p, q with
  | [], _ => Some q
  | x :: p', y :: q' => if N.eqb x y then strip p' q' else None
  | _ :: _, [] => None
  end.

(** The paths are compared as texts, modinfo.c 1195-1202; 47 is the slash. *)
Definition covers (p q : path) : bool :=
  match strip p q with
  | None => false
  | Some [] => true
  | Some (c :: _) => N.eqb c 47
  end.

(** sr_module_oper_data_update_cached(), modinfo.c 1172-1225 *)
Fixpoint find_cache (l : list cache) (m : N) (q : path) : option cache :=
  match l with
  | [] => None
  | c :: l' => if N.eqb (c_mod c) m && covers (c_path c) q then Some c else find_cache l' m q
  end.

(** What a session of this connection gets for a path [q] with providers, modinfo.c
    1519-1529: the cache or what the providers return now. *)
Definition read (sel : path -> N -> bool) (s : st) (m : N) (q : path) : tree :=
  match find_cache (s_caches s) m q with
  | Some c => c_data c
  | None => restrict sel q (s_oper s)
  end.
