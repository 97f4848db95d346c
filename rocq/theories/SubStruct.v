(** * Model: the subscription structure of an application

    Code modelled (all under /repo/src):
    - subscr.c: [sr_subscr_change_sub_add]/[_del] 39-172, [sr_subscr_oper_get_sub_add]/[_del]
      175-304, [sr_subscr_oper_poll_sub_add]/[_del] 307-428, [sr_subscr_notif_sub_add]/[_del]
      431-611, [sr_subscr_rpc_sub_add]/[_del] 613-748, [sr_subscr_session_count]
      850-915, [sr_change_sub_del] 931-1013, [sr_oper_get_sub_del] 1026-1115,
      [sr_oper_poll_sub_del] 1128-1211, [sr_notif_sub_del] 1225-1306, [sr_rpc_sub_del]
      1319-1443, [sr_subscr_del_session] 1445-1553, [sr_subscr_del_id] 1555-1671,
      [sr_subscr_del_all] 1673-1744, [sr_subscr_notif_del_stop_time] 1746-1774;
    - common.c: [sr_ptr_add] 110-148, [sr_ptr_del] 150-181;
    - sysrepo.c: [sr_unsubscribe_sub] 5408-5427, [sr_session_unsubscribe] 788-803,
      [sr_module_change_subscribe] 5893-5935, [sr_oper_get_subscribe] 7665-7713,
      [sr_oper_poll_subscribe] 7795-7850.

    A subscription structure has an array of modules (or RPCs) for each kind of
    subscriptions, and each of them an array of subscriptions.  It is used by
    several threads; the lock SUBS of the structure is released between finding a
    subscription that is to be removed and removing it.

    Simplifications: there is one subscription structure; whether it is in the
    list of a session is a boolean for each session; of a subscription only the
    id and the session are modelled; the subscriptions in ext SHM are their ids
    (how they are stored is property C09); locks are always obtained, and
    functions fail only where a failure is modelled. *)

From Coq Require Import List Arith Bool.
Import ListNotations.

Inductive kind := Change | OperGet | OperPoll | Notif | Rpc.

Definition kind_eqb (a b : kind) : bool :=
  match a, b with
  | Change, Change | OperGet, OperGet | OperPoll, OperPoll | Notif, Notif | Rpc, Rpc => true
  | _, _ => false
  end.

(** the order in which the arrays are searched *)
Definition next (k : kind) : option kind :=
  match k with
  | Change => Some OperGet
  | OperGet => Some OperPoll
  | OperPoll => Some Notif
  | Notif => Some Rpc
  | Rpc => None
  end.

Record sub := Sub {
  s_id : nat;
  s_sess : nat
}.

(** [modsub_change_s] and so on; the name stands for module and datastore, or the
    path of an RPC *)
Record group := G {
  g_name : nat;
  g_subs : list sub
}.

Definition table := list group.

(** ** Arrays *)

Fixpoint set_nth {A} (i : nat) (x : A) (l : list A) : list A :=
  match l, i with
  | [], _ => []
  | _ :: l', 0 => x :: l'
  | y :: l', S i' => y :: set_nth i' x l'
  end.

(** an item is replaced with the last one, and there is one less *)
Definition swap_del {A} (i : nat) (l : list A) : list A :=
  match nth_error l (length l - 1) with
  | None => l
  | Some z => removelast (if i <? length l - 1 then set_nth i z l else l)
  end.

(** index of the first item *)
Fixpoint index {A} (f : A -> bool) (l : list A) : option nat :=
  match l with
  | [] => None
  | x :: l' => if f x then Some 0 else option_map S (index f l')
  end.

(** ** The functions of one table *)

(** [sr_subscr_*_sub_add] without failures *)
Definition tab_add (t : table) (nm : nat) (s : sub) : table :=
  match index (fun g => g_name g =? nm) t with
  | None => t ++ [G nm [s]]
  | Some i => match nth_error t i with
              | Some g => set_nth i (G (g_name g) (g_subs g ++ [s])) t
              | None => t
              end
  end.

(** indices of the first subscription with [f] *)
Fixpoint find2 (f : sub -> bool) (t : table) : option (nat * nat) :=
  match t with
  | [] => None
  | g :: t' => match index f (g_subs g) with
               | Some j => Some (0, j)
               | None => match find2 f t' with
                         | Some (i, j) => Some (S i, j)
                         | None => None
                         end
               end
  end.

Definition at2 (t : table) (i j : nat) : option sub :=
  match nth_error t i with
  | Some g => nth_error (g_subs g) j
  | None => None
  end.

(** [sr_subscr_*_sub_del]; [None] is the failing [assert(0)] *)
Definition tab_del (t : table) (id : nat) : option table :=
  match find2 (fun s => s_id s =? id) t with
  | None => None
  | Some (i, j) =>
      match nth_error t i with
      | None => None
      | Some g =>
          let subs := swap_del j (g_subs g) in
          Some (match subs with
                | [] => swap_del i t
                | _ => set_nth i (G (g_name g) subs) t
                end)
      end
  end.

(** ** State *)

Record st := St {
  tabs : kind -> table;
  ext : list nat;            (** ids in ext SHM *)
  linked : nat -> bool       (** the structure is in [session->subscriptions] *)
}.

Definition set_tab (f : kind -> table) (k : kind) (t : table) : kind -> table :=
  fun k' => if kind_eqb k' k then t else f k'.

Definition set_link (f : nat -> bool) (x : nat) (b : bool) : nat -> bool :=
  fun y => if y =? x then b else f y.

Definition ext_del (l : list nat) (id : nat) : list nat := filter (fun x => negb (x =? id)) l.

(** the part of subscribing under the locks: ext SHM, structure, session *)
Definition subscribe (s : st) (k : kind) (nm id sess : nat) : st :=
  St (set_tab (tabs s) k (tab_add (tabs s k) nm (Sub id sess))) (id :: ext s)
     (set_link (linked s) sess true).

(** [sr_subscr_session_count] is not 0 *)
Definition has_sess (t : table) (x : nat) : bool :=
  existsb (fun g => existsb (fun s => s_sess s =? x) (g_subs g)) t.

Definition session_count0 (s : st) (x : nat) : bool :=
  negb (has_sess (tabs s Change) x || has_sess (tabs s OperGet) x || has_sess (tabs s OperPoll) x
        || has_sess (tabs s Notif) x || has_sess (tabs s Rpc) x).

(** [sr_*_sub_del] after the locks were taken: the check whether the subscription
    is still at the indices, and the removal; [None] is the failing assert *)
Definition checked_del (s : st) (k : kind) (i j id : nat) : option st :=
  match at2 (tabs s k) i j with
  | Some u =>
      if s_id u =? id then
        match tab_del (tabs s k) id with
        | Some t => Some (St (set_tab (tabs s) k t) (ext_del (ext s) id) (linked s))
        | None => None
        end
      else Some s
  | None => Some s
  end.

(** the end of [sr_subscr_del_id] *)
Definition unlink_if_last (s : st) (x : nat) : st :=
  if session_count0 s x then St (tabs s) (ext s) (set_link (linked s) x false) else s.

(** the search of [sr_subscr_del_id] in the arrays one after another *)
Fixpoint find_kind (ks : list kind) (s : st) (id : nat) : option (kind * nat * nat) :=
  match ks with
  | [] => None
  | k :: ks' => match find2 (fun u => s_id u =? id) (tabs s k) with
                | Some (i, j) => Some (k, i, j)
                | None => find_kind ks' s id
                end
  end.

Definition kinds : list kind := [Change; OperGet; OperPoll; Notif; Rpc].

(** ** Threads *)

Inductive res := Ok | NotFound.

(** what a thread is doing *)
Inductive pc :=
  | Idle
  | DelAt (k : kind) (i j id sess : nat)     (** in [sr_*_sub_del] of [sr_subscr_del_id], SUBS released *)
  | Scan (k : kind) (x : nat)                (** [sr_subscr_del_session] at the label of kind [k] *)
  | ScanAt (k : kind) (i j id x : nat)       (** in [sr_*_sub_del] of [sr_subscr_del_session] *)
  | Done (r : res)
  | Failed.                                  (** assert *)

Record sys := Sys {
  s_st : st;
  s_pc : nat -> pc
}.

Definition set_pc (f : nat -> pc) (t : nat) (p : pc) : nat -> pc :=
  fun t' => if t' =? t then p else f t'.

(** the start of [sr_subscr_del_id], until SUBS is released *)
Definition start_id (s : st) (id : nat) : pc :=
  match find_kind kinds s id with
  | None => Done NotFound
  | Some (k, i, j) => match at2 (tabs s k) i j with
                      | Some u => DelAt k i j id (s_sess u)
                      | None => Done NotFound
                      end
  end.

(** one step of a thread *)
Definition step1 (s : st) (p : pc) : st * pc :=
  match p with
  | DelAt k i j id x =>
      match checked_del s k i j id with
      | None => (s, Failed)
      | Some s1 => (unlink_if_last s1 x, Done Ok)
      end
  | Scan k x =>
      match find2 (fun u => s_sess u =? x) (tabs s k) with
      | Some (i, j) => match at2 (tabs s k) i j with
                       | Some u => (s, ScanAt k i j (s_id u) x)
                       | None => (s, p)
                       end
      | None => match next k with
                | Some k' => (s, Scan k' x)
                | None => (St (tabs s) (ext s) (set_link (linked s) x false), Done Ok)
                end
      end
  | ScanAt k i j id x =>
      match checked_del s k i j id with
      | None => (s, Failed)
      | Some s1 => (s1, Scan k x)
      end
  | Idle | Done _ | Failed => (s, p)
  end.

Inductive ev :=
  | Subscribe (k : kind) (nm id sess : nat)  (** by any thread *)
  | UnsubId (t id : nat)
  | UnsubSess (t x : nat)
  | Step (t : nat).

Definition exec (y : sys) (e : ev) : sys :=
  match e with
  | Subscribe k nm id sess => Sys (subscribe (s_st y) k nm id sess) (s_pc y)
  | UnsubId t id => Sys (s_st y) (set_pc (s_pc y) t (start_id (s_st y) id))
  | UnsubSess t x => Sys (s_st y) (set_pc (s_pc y) t (Scan Change x))
  | Step t => let r := step1 (s_st y) (s_pc y t) in Sys (fst r) (set_pc (s_pc y) t (snd r))
  end.

Definition init : sys := Sys (St (fun _ => []) [] (fun _ => false)) (fun _ => Idle).

(** ** Failures *)

(** [sr_oper_poll_subscribe] when the first update of the cache fails (a callback
    of operational data failed), and [sr_oper_get_subscribe] when the event pipe
    cannot be written: labels error4 and error3 *)
Definition subscribe_fails (s : st) (k : kind) (nm id sess : nat) : option st :=
  let s1 := subscribe s k nm id sess in
  match tab_del (tabs s1 k) id with
  | None => None
  | Some t => Some (St (set_tab (tabs s1) k t) (ext_del (ext s1) id) (set_link (linked s1) sess false))
  end.

(** The first update of the cache in [sr_oper_poll_subscribe], sysrepo.c
    7813-7817: the module it is made for *)
Definition first_update (s : st) : option nat :=
  match nth_error (tabs s OperPoll) (length (tabs s OperPoll) - 1) with
  | Some g => Some (g_name g)
  | None => None
  end.

(** [sr_subscr_*_sub_add] when [sr_shmsub_open_map] fails: memory that is freed
    although the structure points to it.  For a new module it is the array of all
    modules ([mem[0]], with [mem[1]] only a name), for operational get
    subscriptions of a known module the array of its subscriptions ([mem[2]]).
    The result is the subscriptions of the table that are in freed memory. *)
Definition add_fails (k : kind) (t : table) (nm : nat) : list sub :=
  match index (fun g => g_name g =? nm) t with
  | None => concat (map g_subs t)
  | Some i => match k, nth_error t i with
              | OperGet, Some g => g_subs g
              | _, _ => []
              end
  end.
