(** What users of sr_oper_poll_subscribe() rely on. *)
From Coq Require Import ZArith NArith List Bool.
From Verif Require Import Time TimeProofs OperPoll.
Import ListNotations.
Local Open Scope Z_scope.

(** A connection without subscriptions. *)
Definition init (now : timespec) (o : tree) : st :=
  St 0 now o [(0, o)] [] [] [] 0.

Fixpoint run (sel : path -> N -> bool) (s : st) (l : list event) : option st :=
  match l with
  | [] => Some s
  | e :: l' => match exec sel s e with None => None | Some s' => run sel s' l' end
  end.

(** A path that continues another selects only nodes below. *)
Definition path_selection (sel : path -> N -> bool) : Prop :=
  forall (p r : path) (n : N), sel (p ++ 47%N :: r) n = true -> sel p n = true.

(** ** Age of the data *)

(** What is read for [q] was the state of all nodes selected by [q] at some moment at
    most [bound] nanoseconds ago. *)
Definition fresh (sel : path -> N -> bool) (bound : Z) (s : st) (m : N) (q : path) : Prop :=
  exists (t : Z) (o : tree), In (t, o) (s_log s) /\ s_mono s - t <= bound /\
    forall n : N, sel q n = true -> get n (read sel s m q) = get n o.

(** All threads go on at most [delta] nanoseconds after they should. *)
Definition timely (delta : Z) (s : st) : Prop :=
  forall (t : strct) (d : Z), In t (s_strs s) -> t_alive t = true -> t_dl t = Some d ->
    s_mono s <= d + delta.

(** Retrieving data succeeds and takes at most [rho] nanoseconds. *)
Definition env_ok (rho : Z) (e : N -> env) : Prop :=
  forall id : N, 0 <= e_dur (e id) <= rho /\ e_fail (e id) = 0%N /\ e_refuse (e id) = false.

(** Providers of a path that is polled stay. *)
Definition keeps_providers (s : st) (e : event) : Prop :=
  match e with
  | Gets m p fl => (exists c, In c (s_caches s) /\ c_mod c = m /\ c_path c = p) -> existsb negb fl = true
  | _ => True
  end.

(** No faults: the clock is not set, the context is not switched, polling is not
    suspended, retrieving succeeds, every subscription has its own structure (thread)
    and a provider, and is for at most [v] milliseconds. *)
Definition no_fault (v rho : Z) (s : st) (e : event) : Prop :=
  match e with
  | Tick n => 0 <= n
  | SetClock _ | Flush | PollSusp _ _ _ => False
  | PollAdd i m p valid _ env =>
      i = length (s_strs s) /\ 1 <= valid <= v /\ env_ok rho env /\ find_get (s_gets s) m p = true
  | Process _ env => env_ok rho env
  | _ => True
  end.

Inductive calm_run (sel : path -> N -> bool) (v rho delta : Z) : st -> st -> Prop :=
| calm_nil : forall s, calm_run sel v rho delta s s
| calm_step : forall s0 s e s', calm_run sel v rho delta s0 s ->
    no_fault v rho s e -> keeps_providers s e -> exec sel s e = Some s' -> timely delta s' ->
    calm_run sel v rho delta s0 s'.

(** The polling subscriptions of all structures. *)
Definition polls (s : st) : list (N * psub) :=
  flat_map (fun t => flat_map (fun g => map (fun p => (fst g, p)) (snd g)) (t_groups t)) (s_strs s).

(** Every subscription that polls [q] or something above it does so at least every [v]
    milliseconds. *)
Definition polled_within (v : Z) (s : st) (m : N) (q : path) : Prop :=
  forall p : psub, In (m, p) (polls s) -> (q = p_path p \/ exists r, q = p_path p ++ 47%N :: r) -> p_valid p <= v.

(** ** Reported changes *)

Definition apply_op (f : N -> option N) (o : dop) : N -> option N :=
  fun n => match o with
           | DCreate k v | DReplace k v => if N.eqb n k then Some v else f n
           | DDelete k => if N.eqb n k then None else f n
           end.

(** What somebody knows who has received all reports. *)
Definition known (r : list (list dop)) : N -> option N :=
  fold_left (fun f d => fold_left apply_op d f) r (fun _ => None).

Inductive steady_run (sel : path -> N -> bool) : st -> st -> Prop :=
| steady_nil : forall s, steady_run sel s s
| steady_step : forall s0 s e s', steady_run sel s0 s ->
    e <> Flush -> keeps_providers s e -> exec sel s e = Some s' -> steady_run sel s0 s'.

(** ** Any history in which threads go on when they should *)

Inductive timed_run (sel : path -> N -> bool) (delta : Z) : st -> list event -> st -> Prop :=
| timed_nil : forall s, timed_run sel delta s [] s
| timed_step : forall s e s1 l s2, (forall n, e = Tick n -> 0 <= n) -> exec sel s e = Some s1 -> timely delta s1 ->
    timed_run sel delta s1 l s2 -> timed_run sel delta s (e :: l) s2.
