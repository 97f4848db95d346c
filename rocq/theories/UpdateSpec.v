(** What updating changes means, without the functions of the model (only its types). *)
From Coq Require Import NArith List Bool Sorted.
From Verif Require Import Update.
Import ListNotations.

Definition deq (a b : data) : Prop := forall p, a p = b p.

(** The meaning of one operation on one node *)
Inductive does : kind -> option N -> option N -> Prop :=
| does_set : forall w v, does (KSet w) v (Some w)
| does_create : forall w, does (KCreate w) None (Some w)
| does_delete : forall v, does KDelete (Some v) None
| does_remove : forall v, does KRemove v None.

(** The operations one after another, in the order given *)
Inductive steps : data -> list op -> data -> Prop :=
| steps_nil : forall d d', deq d d' -> steps d [] d'
| steps_cons : forall (d d1 d' : data) (p : path) (k : kind) (l : list op),
    does k (d p) (d1 p) -> (forall q, q <> p -> d1 q = d q) ->
    steps d1 l d' -> steps d ((p, k) :: l) d'.

(** The changes from [d] to [d'], every changed node once *)
Definition exact (df : diff) (d d' : data) : Prop :=
  NoDup (map fst df) /\
  forall p o n, In (p, (o, n)) df <-> (o = d p /\ n = d' p /\ o <> n).

(** The changes a subscription is interested in: of its module or of all of them *)
Definition seen_by (s : sub) (df : diff) (x : path * (option N * option N)) : Prop :=
  In x df /\ (s_all s = false -> p_mod (fst x) = s_mod s).

(** Who is to be asked about the changes [df] of the module [m] *)
Definition wanted (tab : list sub) (df : diff) (m : N) (s : sub) : Prop :=
  In s tab /\ s_mod s = m /\ s_update s = true /\ s_alive s = true /\ s_susp s = false /\
  exists x, seen_by s df x /\ s_sel s (fst x) = true.

(** [l]: all of these, by decreasing priorities *)
Definition in_order (tab : list sub) (df : diff) (m : N) (l : list sub) : Prop :=
  StronglySorted (fun a b => (s_prio b < s_prio a)%N) l /\ forall s, In s l <-> wanted tab df m s.

Definition who (c : call) : sub := fst (fst c).
Definition shown (c : call) : diff := snd (fst c).
Definition updates (l : list call) : list op :=
  flat_map (fun c => match snd c with AOk e => e | _ => [] end) l.

(** No subscriber ends in the middle, none postpones the event, priorities are below the
    maximum, and a filter checked by the originator selects only what its subscriber is
    shown *)
Definition calm (w : world) (tab : list sub) : Prop :=
  (forall i, b_gone (w_beh w i) = false) /\
  (forall i e, ~ In (AShelve e) (b_answers (w_beh w i))) /\
  (forall s, In s tab -> (s_prio s < 4294967295)%N) /\
  (forall s p, In s tab -> s_forig s = true -> s_all s = false -> s_sel s p = true -> p_mod p = s_mod s).

(** Validation depends only on the data *)
Definition sound (w : world) : Prop := forall a b, deq a b -> w_valid w a = w_valid w b.

(** Subscriptions after any history *)
Definition table (tab : list sub) : Prop := exists h, tab = trun h.

(** A callback that failed, or that never answered *)
Definition refuses (w : world) (s : sub) : Prop :=
  match b_answers (w_beh w (s_id s)) with AOk _ :: _ => False | _ => True end.
