(** Specification of calling RPCs. *)
From Coq Require Import List Bool Arith NArith.
From Verif Require Import Rpc.
Import ListNotations.
Local Open Scope N_scope.

(** Subscriptions of one RPC have different priorities (checked when subscribing, src/shm_ext.c
    1525-1550), here none is UINT32_MAX. *)
Definition wf (cfg : config) : Prop :=
  NoDup (map d_prio (subs cfg)) /\ forall d, In d (subs cfg) -> d_prio d < 4294967295.

(** At the beginning nobody has called the RPC; a subscription is either suspended or not. *)
Definition initial (st : state) : Prop :=
  f_ev (h_inf (st_shm st)) = EvNone /\ h_orig (st_shm st) = None /\ st_log st = [] /\
  (forall o c, nth_error (st_ors st) o = Some c -> c = OIdle) /\
  (forall p, st_pcs st p = Idle) /\
  (forall k, y_ev (st_dyn st k) = EvNone /\ y_esusp (st_dyn st k) = y_susp (st_dyn st k)).

Inductive reach (cfg : config) (st0 : state) : state -> Prop :=
| R_init : reach cfg st0 st0
| R_step : forall l st st', reach cfg st0 st -> exec cfg l st = Some st' -> reach cfg st0 st'.

(** Subscription [k] is there: its process lives, it is not suspended. *)
Definition present (cfg : config) (st : state) (k : nat) : Prop :=
  (k < length (subs cfg))%nat /\ st_pcs st (d_proc (nth k (subs cfg) (mkdef O 0))) <> Dead /\ y_esusp (st_dyn st k) = false.

(** The calls of callbacks with the RPC with request ID [rid], the last one first. *)
Definition rpc_calls (rid : nat) (l : list obs) : list (nat * result * nat) :=
  flat_map (fun x => match x with OCall k EvRpc r res out => if Nat.eqb r rid then [(k, res, out)] else [] | _ => [] end) l.

(** Subscription [k] accepted the RPC [rid]. *)
Definition accepted (l : list obs) (k rid : nat) : Prop := exists out, In (OCall k EvRpc rid ROk out) l.
(** Subscription [k] was told to abort it. *)
Definition undone (l : list obs) (k rid : nat) : Prop := (exists r out, In (OCall k EvAbort rid r out) l) \/ In (OSelf k rid) l.

(** The callback was called and the subscription is done with the event. *)
Definition final (e : ev) (r : result) : Prop := e = EvAbort \/ r <> RShelve.
