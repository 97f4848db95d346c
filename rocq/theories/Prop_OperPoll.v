(** C58: how old polled operational data can be, and what is reported about them. *)
From Coq Require Import ZArith NArith List Bool Lia.
From Verif Require Import Time TimeProofs OperPoll OperPollSpec OperPollProofs OperPollReports OperPollOwned OperPollFresh.
Import ListNotations.
Local Open Scope Z_scope.

(** Whatever happens, every polling subscription has its cache (the asserts in
    sr_shmsub_oper_poll_listen_process_module_events() and sr_conn_oper_cache_del()
    hold), and there are no other caches. *)
Theorem C58_cache_exists : forall (sel : path -> N -> bool) (now : timespec) (o : tree) (l : list event),
  exists s : st, run sel (init now o) l = Some s /\
    (forall m p, In (m, p) (polls s) -> exists c, In c (s_caches s) /\ c_id c = p_id p /\ c_mod c = m /\ c_path c = p_path p) /\
    (forall c, In c (s_caches s) -> exists p, In (c_mod c, p) (polls s) /\ c_id c = p_id p /\ c_path c = p_path p) /\
    NoDup (map c_id (s_caches s)).
Proof.
  intros sel now o l. destruct (run_invA sel l _ (invA_init now o)) as (s & E & H). exists s. split; auto.
  assert (O : owned s) by (apply (run_owned sel l (init now o)); auto; [apply invA_init|intros c []]).
  split; [apply (a_has _ _ H)|]. split; [|apply (a_nodup _ _ H)].
  intros c Hc. destruct (O c Hc) as (m & p & H1 & H2). change (tpolls (s_strs s)) with (polls s) in H1.
  destruct (a_has _ _ H m p H1) as (c' & Hc' & E1 & E2 & E3).
  assert (c' = c) by (eapply (id_unique (s_caches s)); eauto; [apply (a_nodup _ _ H)|congruence]). subst c'.
  exists p. rewrite E2. auto.
Qed.
Print Assumptions C58_cache_exists.

(** Without faults, what is read was current at some moment at most [u] milliseconds
    ago, plus the delay of the thread and the time retrieving the data takes; [u] is
    the longest period of the subscriptions polling what is read. *)
Theorem C58_fresh_partial : forall (sel : path -> N -> bool) (v rho delta u : Z) (now : timespec) (o : tree) (s : st) (m : N) (q : path),
  path_selection sel -> normalised now -> 1 <= tv_sec now ->
  v <= 2147483647 -> 0 <= rho -> 0 <= delta -> 0 <= u ->
  calm_run sel v rho delta (init now o) s -> polled_within u s m q ->
  fresh sel (u * 1000000 + delta + rho) s m q.
Proof.
  intros sel v rho delta u now o s m q Hs Hn1 Hn2 Hv Hr Hd Hu H Hw.
  destruct (calm_invF sel v rho delta (ns now) (init now o) s Hv Hr (invF_init sel v rho now o Hn1 Hn2)) as [I T]; auto.
  - intros t d [].
  - eapply invF_fresh; eauto.
Qed.
Print Assumptions C58_fresh_partial.

(** If no provider of polled data disappears and the context is not switched, all
    reports of a subscription together are the data in its cache, even if retrieving
    fails, updates are refused, subscriptions are suspended or the clock is set. *)
Theorem C58_reports_partial : forall (sel : path -> N -> bool) (now : timespec) (o : tree) (s : st) (m : N) (p : psub) (c : cache),
  steady_run sel (init now o) s -> In (m, p) (polls s) -> p_diff p = true -> In c (s_caches s) -> c_id c = p_id p ->
  forall n, known (c_rep c) n = get n (c_data c).
Proof.
  intros sel now o s m p c H Hp Hd Hc Ei. apply (r_told _ _ (steady_invR sel _ s (invR_init now o) H) m p c); auto.
Qed.
Print Assumptions C58_reports_partial.

(** ** Cases *)

(** One container 1 with leaves. *)
Definition sel_ex (p : path) (n : N) : bool := match strip p [47; 1; 47; n]%N with Some _ => true | None => false end.

Lemma strip_app_some : forall (p r x : path), strip (p ++ r) x <> None -> strip p x <> None.
Proof.
  induction p as [|a p IH]; intros r x H; cbn [app strip] in *; [congruence|].
  destruct x as [|b x]; [congruence|]. destruct (N.eqb a b); [eapply IH; eauto|congruence].
Qed.

Lemma sel_ex_ok : path_selection sel_ex.
Proof.
  intros p r n H. unfold sel_ex in *. pose proof (strip_app_some p (47%N :: r) [47; 1; 47; n]%N) as K.
  destruct (strip (p ++ 47%N :: r) [47; 1; 47; n]%N); [|discriminate].
  destruct (strip p [47; 1; 47; n]%N); auto. exfalso. apply K; congruence.
Qed.

Definition pt : path := [47; 1]%N.
Definition p1 : path := [47; 1; 47; 1]%N.
Definition p2 : path := [47; 1; 47; 2]%N.
Definition t0 : timespec := {| tv_sec := 1000; tv_nsec := 0 |}.
Definition o0 : tree := [(1, 10); (2, 20)]%N.
Definition o1 : tree := [(1, 11); (2, 21)]%N.
Definition good (o : tree) : N -> env := fun _ => Env 0 o 0 false.
Definition ms (n : Z) : Z := n * 1000000.

Definition timelyb (delta : Z) (s : st) : bool :=
  forallb (fun t => match t_dl t with Some d => negb (t_alive t) || (s_mono s <=? d + delta) | None => true end) (s_strs s).

Lemma timelyb_ok : forall delta s, timelyb delta s = true -> timely delta s.
Proof.
  intros delta s H t d Ht Ha Hd. unfold timelyb in H. rewrite forallb_forall in H. specialize (H t Ht). rewrite Hd, Ha in H.
  apply Z.leb_le in H. auto.
Qed.

Fixpoint timedb (sel : path -> N -> bool) (delta : Z) (s : st) (l : list event) : option st :=
  match l with
  | [] => Some s
  | e :: l' =>
      if (match e with Tick n => 0 <=? n | _ => true end)
      then match exec sel s e with
           | Some s' => if timelyb delta s' then timedb sel delta s' l' else None
           | None => None
           end
      else None
  end.

Lemma timedb_ok : forall sel delta l s s', timedb sel delta s l = Some s' -> timed_run sel delta s l s'.
Proof.
  intros sel delta l. induction l as [|e l IH]; intros s s' H; cbn [timedb] in H; [injection H as <-; constructor|].
  destruct (match e with Tick n => 0 <=? n | _ => true end) eqn:E0; [|discriminate].
  destruct (exec sel s e) as [s1|] eqn:E; [|discriminate]. destruct (timelyb delta s1) eqn:T; [|discriminate].
  apply timed_step with s1; auto.
  - intros n ->. apply Z.leb_le. auto.
  - apply timelyb_ok; auto.
Qed.

Definition oeqb (a b : option N) : bool :=
  match a, b with Some x, Some y => N.eqb x y | None, None => true | _, _ => false end.

Definition stale (sel : path -> N -> bool) (bound : Z) (s : st) (m : N) (q : path) (n : N) : bool :=
  sel q n && forallb (fun x => negb (s_mono s - fst x <=? bound) || negb (oeqb (get n (read sel s m q)) (get n (snd x)))) (s_log s).

Lemma stale_ok : forall sel bound s m q n, stale sel bound s m q n = true -> ~ fresh sel bound s m q.
Proof.
  intros sel bound s m q n H (t & o & Hl & Hb & Hg). unfold stale in H. apply andb_true_iff in H as [H1 H2].
  rewrite forallb_forall in H2. specialize (H2 _ Hl). cbn [fst snd] in H2. rewrite (Hg n H1) in H2.
  rewrite (proj2 (Z.leb_le _ _) Hb) in H2. destruct (get n o); cbn in H2; [rewrite N.eqb_refl in H2|]; discriminate.
Qed.

Ltac stale_case n :=
  eexists; split; [apply timedb_ok; vm_compute; reflexivity|
                   apply (stale_ok _ _ _ _ _ n); vm_compute; reflexivity].

(** Data change, time passes, the thread updates the cache: a calm history, in which
    data 300 ms old are read. *)
Definition calm : list event :=
  [Gets 0 p1 [false]; PollAdd 0 0 p1 500 true (good o0); Process 0 (good o0); Tick (ms 200);
   Provide o1; Tick (ms 300); Process 0 (good o1); Tick (ms 100); Provide o0; Tick (ms 300)].

Ltac calm_ev e G :=
  match goal with C : calm_run ?sel ?v ?r ?d ?a ?s |- _ =>
    let x := eval vm_compute in (exec sel s e) in
    match x with Some ?s' =>
      let C' := fresh in
      assert (C' : calm_run sel v r d a s');
      [apply (calm_step sel v r d a s e s' C);
       [cbn [no_fault]; first [exact Logic.I | apply G | unfold ms; lia
                              | split; [reflexivity|split; [lia|split; [apply G|reflexivity]]]]
       |cbn [keeps_providers]; first [exact Logic.I | intros _; reflexivity]
       |vm_compute; reflexivity|apply timelyb_ok; vm_compute; reflexivity]
      |clear C; rename C' into C]
    end
  end.

Ltac steady_ev e :=
  match goal with C : steady_run ?sel ?a ?s |- _ =>
    let x := eval vm_compute in (exec sel s e) in
    match x with Some ?s' =>
      let C' := fresh in
      assert (C' : steady_run sel a s');
      [apply (steady_step sel a s e s' C);
       [discriminate|cbn [keeps_providers]; first [exact Logic.I | intros _; reflexivity]|vm_compute; reflexivity]
      |clear C; rename C' into C]
    end
  end.

Example calm_case : exists s, calm_run sel_ex 500 0 0 (init t0 o0) s /\ run sel_ex (init t0 o0) calm = Some s /\
  read sel_ex s 0 p1 = [(1, 11)]%N /\ s_oper s = o0 /\ polled_within 500 s 0 p1 /\ fresh sel_ex (ms 500) s 0 p1.
Proof.
  assert (G : forall o, env_ok 0 (good o)) by (intros o id; cbn; split; [lia|auto]).
  assert (X : exists s, calm_run sel_ex 500 0 0 (init t0 o0) s /\ run sel_ex (init t0 o0) calm = Some s).
  { pose proof (calm_nil sel_ex 500 0 0 (init t0 o0)) as C.
    calm_ev (Gets 0 p1 [false]) G. calm_ev (PollAdd 0 0 p1 500 true (good o0)) G. calm_ev (Process 0 (good o0)) G.
    calm_ev (Tick (ms 200)) G. calm_ev (Provide o1) G. calm_ev (Tick (ms 300)) G. calm_ev (Process 0 (good o1)) G.
    calm_ev (Tick (ms 100)) G. calm_ev (Provide o0) G. calm_ev (Tick (ms 300)) G.
    eexists. split; [exact C|]. vm_compute. reflexivity. }
  destruct X as (s & X1 & X2). exists s. split; auto. split; auto.
  assert (W : polled_within 500 s 0 p1).
  { vm_compute in X2. injection X2 as <-. intros p [E|[]] _. injection E as <-. cbn. lia. }
  split; [vm_compute in X2; injection X2 as <-; reflexivity|].
  split; [vm_compute in X2; injection X2 as <-; reflexivity|]. split; auto.
  replace (ms 500) with (500 * 1000000 + 0 + 0) by reflexivity.
  eapply C58_fresh_partial with (now := t0) (o := o0) (v := 500); eauto; try lia; try apply sel_ex_ok.
  - unfold normalised. cbn. lia.
  - cbn. lia.
Qed.

Example reports_case : exists s c, steady_run sel_ex (init t0 o0) s /\
  s_caches s = [c] /\ c_rep c = [[DCreate 1 10]; [DReplace 1 11]]%N /\ c_data c = [(1, 11)]%N /\
  polls s = [(0%N, PSub 0 p1 500 true false)].
Proof.
  pose proof (steady_nil sel_ex (init t0 o0)) as C.
  steady_ev (Gets 0 p1 [false]). steady_ev (PollAdd 0 0 p1 500 true (good o0)). steady_ev (Provide o1).
  steady_ev (Tick (ms 600)). steady_ev (Process 0 (good o1)).
  eexists. eexists. split; [exact C|]. repeat split.
Qed.

(** ** What does not hold *)

(** F182: two polling subscriptions in one subscription structure: a wake-up due in
    less than a second has no seconds and is taken for none (shm_sub.c 4013, 4093), so
    the next subscription overwrites it with its own, later one: data polled every
    500 ms are served 899 ms old by a thread that is never late. *)
Theorem C58_shared_structure_refuted :
  exists s, timed_run sel_ex 0 (init t0 o0)
    [Gets 0 p1 [false]; Gets 0 p2 [false]; PollAdd 0 0 p1 500 false (good o0); Process 0 (good o0);
     Provide o1; Tick (ms 400);
     PollAdd 0 0 p2 500 false (good o1); Process 0 (good o1); Tick (ms 490)] s /\
  ~ fresh sel_ex (ms 889) s 0 p1.
Proof. stale_case 1%N. Qed.

(** F183: a path is polled that has no provider of its own, but there is a provider of
    something below it: the thread clears the cache every time (shm_sub.c 3989-3997)
    and readers are given the empty cache, the provider is never asked (modinfo.c
    1195-1224): its data are always missing. *)
Theorem C58_nested_provider_refuted :
  exists s, timed_run sel_ex 0 (init t0 o0)
    [Gets 0 p1 [false]; PollAdd 0 0 pt 500 false (good o0); Process 0 (good o0)] s /\
  ~ fresh sel_ex (ms 1000000) s 0 p1.
Proof. stale_case 1%N. Qed.

(** F184: when the context of the connection is switched, all caches are emptied
    (common.c 3271-3300) but stay in use: until the thread goes on, readers get no
    data. *)
Theorem C58_context_switch_refuted :
  exists s, timed_run sel_ex 0 (init t0 o0)
    [Gets 0 p1 [false]; PollAdd 0 0 p1 500 false (good o0); Process 0 (good o0); Flush; Tick (ms 499)] s /\
  ~ fresh sel_ex (ms 1000000) s 0 p1.
Proof. stale_case 1%N. Qed.

(** F185: when the only provider is gone or suspended, the cached data are dropped
    without reporting their deletion (shm_sub.c 3989-3997): who has followed the
    reports still sees them, and is told later that they are created again. *)
Theorem C58_provider_gone_refuted :
  exists s c, run sel_ex (init t0 o0)
    [Gets 0 p1 [false]; PollAdd 0 0 p1 500 true (good o0); Process 0 (good o0); Gets 0 p1 [];
     Process 0 (good o0); Gets 0 p1 [false]; Process 0 (good o0); Gets 0 p1 [true]; Process 0 (good o0)] = Some s /\
  s_caches s = [c] /\ polls s = [(0%N, PSub 0 p1 500 true false)] /\
  c_rep c = [[DCreate 1 10]; [DCreate 1 10]]%N /\ known (c_rep c) 1 <> get 1 (c_data c).
Proof.
  eexists. eexists. split; [vm_compute; reflexivity|]. split; [reflexivity|]. split; [reflexivity|].
  split; [reflexivity|]. vm_compute. discriminate.
Qed.

(** F186: if a provider fails once (or a subscriber refuses the event "update"), the
    error ends the thread of the structure for good (shm_sub.c 4905-4920); the cache
    stays and is served from then on, however old it is. *)
Theorem C58_failed_once_refuted : forall (fail : N) (refuse : bool), In (fail, refuse) [(2%N, false); (0%N, true)] ->
  exists s, timed_run sel_ex 0 (init t0 o0)
    [Gets 0 p1 [false]; PollAdd 0 0 p1 500 true (good o0); Process 0 (good o0); Provide o1; Tick (ms 500);
     Process 0 (fun _ => Env 0 o1 fail refuse); Tick (ms 1000000); Process 0 (good o1)] s /\
  ~ fresh sel_ex (ms 1000000) s 0 p1.
Proof.
  intros fail refuse [E|[E|[]]]; injection E as <- <-; stale_case 1%N.
Qed.

(** F187: ages are computed with the clock of the system (sr_realtime_get()): if it is
    set back, the cache is valid for that much longer. *)
Theorem C58_clock_set_back_refuted :
  exists s, timed_run sel_ex 0 (init t0 o0)
    [Gets 0 p1 [false]; PollAdd 0 0 p1 500 false (good o0); SetClock {| tv_sec := 100; tv_nsec := 0 |};
     Process 0 (good o0); Provide o1; Tick (ms 900000); Process 0 (good o1)] s /\
  ~ fresh sel_ex (ms 899999) s 0 p1.
Proof. stale_case 1%N. Qed.

(** F188: the cache of a suspended subscription is not updated but still served; also
    resuming it does not wake the thread, which may have nothing to wait for. *)
Theorem C58_suspended_refuted :
  exists s, timed_run sel_ex 0 (init t0 o0)
    [Gets 0 p1 [false]; PollAdd 0 0 p1 500 false (good o0); PollSusp 0 0 true; Process 0 (good o0);
     Provide o1; PollSusp 0 0 false; Tick (ms 1000000)] s /\
  ~ fresh sel_ex (ms 999999) s 0 p1.
Proof. stale_case 1%N. Qed.

(** F189: periods from 2^31 ms on make the argument of poll() negative (shm_sub.c
    4922-4932): the thread never wakes up. *)
Theorem C58_long_period_refuted :
  exists s, timed_run sel_ex 0 (init t0 o0)
    [Gets 0 p1 [false]; PollAdd 0 0 p1 2147483648 false (good o0); Process 0 (good o0);
     Provide o1; Tick (ms 1000000000000)] s /\
  ~ fresh sel_ex (ms 999999999999) s 0 p1.
Proof. stale_case 1%N. Qed.

(** F190: for a stop time of a notification subscription that has passed, only the
    nanoseconds of the next wake-up are set (shm_sub.c 4795-4797): if something else is
    due in 9 s, the thread waits these 9 s. *)
Theorem C58_stop_time_refuted :
  exists stop cur w : timespec, ns stop <= ns cur /\ poll_timeout (stop_time_in stop cur w) = 9000.
Proof.
  exists {| tv_sec := 10; tv_nsec := 0 |}, {| tv_sec := 11; tv_nsec := 0 |}, {| tv_sec := 9; tv_nsec := 0 |}.
  split; [cbn; lia|reflexivity].
Qed.
