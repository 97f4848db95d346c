(** Delivery of notifications of a stream subscription (subscribed notifications): replay of the stored ones,
    the live ones and the state of the subscription; src/utils/sn_common.c 1412-1600, 870-910,
    src/utils/subscribed_notifications.c 499-680, src/sysrepo.c 5167-5196, src/shm_sub.c 4625-4760, 4862-4886 and
    src/replay.c 298-386.

    A stream has several modules, each of them has its own sysrepo subscription; all are handled by one thread.
    Stored notifications of a module are those of the interval of the replay (C22). Printing and writing of a
    notification always succeed. All the subscriptions are suspended and resumed at once. *)
From Coq Require Import List Bool Arith.
Import ListNotations.

(** A notification: identity, time, whether the filter of the subscription selects it and whether the user may
    receive it. *)
Record ntf := mkntf { n_id : nat; n_time : nat; n_sel : bool; n_may : bool }.
(** What is written for the receiver. *)
Inductive item := INtf (n : ntf) | ICompleted | ISuspended | IResumed | ITerminated.

(** struct srsn_sub, src/utils/sn_common.h: [s_done] is [replay_complete_count], [s_total] is [sr_sub_id_count],
    [s_buf] is [rt_notifs]; [s_replayed] are modules whose sysrepo subscriptions are marked as replayed. *)
Record sub := mksub { s_total : nat; s_done : nat; s_replayed : list nat; s_buf : list ntf; s_susp : bool; s_closed : bool; s_out : list item }.
Definition with_out (o : list item) (x : sub) : sub := mksub (s_total x) (s_done x) (s_replayed x) (s_buf x) (s_susp x) (s_closed x) (s_out x ++ o).

(** srsn_sn_sr_subscribe(), src/utils/sn_common.c 1524-1545: number of modules; nothing is to be completed without
    a start time. *)
Definition new_sub (replay : bool) (total : nat) : sub := mksub total (if replay then 0 else total) (if replay then [] else seq 0 total) [] false false [].

(** srsn_sn_rpc_subscribe_cb(), SR_EV_NOTIF_REPLAY, 1501-1508. *)
Definition cb_replay (n : ntf) (x : sub) : sub := with_out [INtf n] x.
(** SR_EV_NOTIF_REPLAY_COMPLETE, 1462-1488: the last one sends replay-completed and what was buffered. *)
Definition cb_complete (x : sub) : sub :=
  if Nat.ltb (s_done x + 1) (s_total x)
  then mksub (s_total x) (s_done x + 1) (s_replayed x) (s_buf x) (s_susp x) (s_closed x) (s_out x)
  else mksub (s_total x) (s_done x + 1) (s_replayed x) (s_buf x) (s_susp x) (s_closed x) (s_out x ++ ICompleted :: map INtf (s_buf x)).
(** SR_EV_NOTIF_REALTIME, 1489-1500. *)
Definition cb_live (n : ntf) (x : sub) : sub :=
  if Nat.ltb (s_done x) (s_total x)
  then mksub (s_total x) (s_done x) (s_replayed x) (s_buf x ++ [n]) (s_susp x) (s_closed x) (s_out x)
  else with_out [INtf n] x.

(** sr_replay_notify(), src/replay.c 343-379: the filter is checked, access is not. [fail]: reading fails after
    that many notifications, then the replay is not completed. *)
Definition replay_notify (stored : list ntf) (fail : option nat) (x : sub) : sub :=
  let l := match fail with None => stored | Some k => firstn k stored end in
  let y := fold_left (fun a n => cb_replay n a) (filter n_sel l) x in
  match fail with None => cb_complete y | Some _ => y end.
Definition mark (i : nat) (x : sub) : sub := mksub (s_total x) (s_done x) (i :: s_replayed x) (s_buf x) (s_susp x) (s_closed x) (s_out x).
(** sr_shmsub_notif_listen_module_replay(), src/shm_sub.c 4862-4886, whether or not the subscription is
    suspended; whether it succeeded. *)
Definition module_replay (stored : list (list ntf)) (i : nat) (fail : option nat) (x : sub) : bool * sub :=
  if existsb (Nat.eqb i) (s_replayed x) then (true, x)
  else match fail with
       | None => (true, mark i (replay_notify (nth i stored []) None x))
       | Some k => (false, replay_notify (nth i stored []) (Some k) x)
       end.
(** sr_shmsub_notif_listen_process_module_events(), src/shm_sub.c 4680-4725, for every new notification of the
    module. *)
Definition module_events (live : list ntf) (x : sub) : sub :=
  if s_susp x then x else fold_left (fun a n => cb_live n a) (filter (fun n => n_sel n && n_may n) live) x.
(** One module in sr_subscription_process_events(), src/sysrepo.c 5167-5189. *)
Definition visit (stored : list (list ntf)) (i : nat) (fail : option nat) (live : list ntf) (x : sub) : sub :=
  if s_closed x then x
  else match module_replay stored i fail x with
       | (true, y) => module_events live y
       | (false, y) => y
       end.

(** srsn_suspend() with a reason, src/utils/subscribed_notifications.c 499-572, srsn_resume(), 574-643. *)
Definition suspend (x : sub) : sub :=
  if s_closed x || s_susp x then x
  else mksub (s_total x) (s_done x) (s_replayed x) (s_buf x) true (s_closed x) (s_out x ++ [ISuspended]).
Definition resume (x : sub) : sub :=
  if s_closed x || negb (s_susp x) then x
  else mksub (s_total x) (s_done x) (s_replayed x) (s_buf x) false (s_closed x) (s_out x ++ [IResumed]).
Definition close (x : sub) : sub :=
  mksub (s_total x) (s_done x) (s_replayed x) (s_buf x) (s_susp x) true (s_out x ++ [ITerminated]).
(** srsn_terminate() with a reason, src/utils/subscribed_notifications.c 646-680. *)
Definition terminate (x : sub) : sub := if s_closed x then x else close x.
(** srsn_stop_timer_cb(), src/utils/sn_common.c 873-911, one look whether the replay is completed; once it is,
    the subscription is unsubscribed and terminated. *)
Definition stop_time (x : sub) : sub :=
  if s_closed x then x else if Nat.ltb (s_done x) (s_total x) then x else close x.

Inductive op := Visit (i : nat) (fail : option nat) (live : list ntf) | Suspend | Resume | Terminate | StopTime.
Definition step (stored : list (list ntf)) (x : sub) (o : op) : sub :=
  match o with
  | Visit i fail live => visit stored i fail live x
  | Suspend => suspend x
  | Resume => resume x
  | Terminate => terminate x
  | StopTime => stop_time x
  end.
Definition run (stored : list (list ntf)) (replay : bool) (h : list op) : sub := fold_left (step stored) h (new_sub replay (length stored)).
