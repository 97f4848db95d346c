(** C29: for one RPC, subscribers are called by descending priority, the originator gets the output of
    the last one; if one fails, exactly the subscribers that had succeeded get the abort event.

    The model is Rpc.v: any number of clients call the RPC, any number of subscription contexts with
    any number of subscriptions process it, all may die at any time, callbacks may take arbitrarily
    long, fail or be shelved, waiting may time out.  [reach cfg st0 st]: any such execution leads from
    [st0] to [st].  [st_log st] is what was observed, the last first.  [rid] is the request ID, it
    identifies one call of the RPC. *)
From Coq Require Import List Bool Arith NArith Lia.
From Verif Require Import Rpc RpcSpec RpcProofs RpcStep RpcInv RpcOnce RpcAcc.
Import ListNotations.
Local Open Scope N_scope.

(** Priority of a subscription and the context it belongs to. *)
Definition priority (cfg : config) (k : nat) : N := d_prio (nth k (subs cfg) (mkdef O 0)).
Definition context (cfg : config) (k : nat) : nat := d_proc (nth k (subs cfg) (mkdef O 0)).

(** Callbacks are called by descending priority (one is called repeatedly only after it had shelved
    the event). *)
Theorem C29_order : forall cfg st0 st later earlier k k' rid r r' out out',
  wf cfg -> suspends cfg = false -> concurrent cfg = false -> initial st0 -> reach cfg st0 st ->
  st_log st = later ++ OCall k EvRpc rid r out :: earlier ->
  In (OCall k' EvRpc rid r' out') earlier ->
  priority cfg k <= priority cfg k' /\ (lock_fail cfg = false -> r' <> RShelve -> priority cfg k < priority cfg k').
Proof.
  intros cfg st0 st later earlier k k' rid r r' out out' W NS NC I R E H.
  assert (V : inv cfg st) by (eapply reach_inv; eauto). destruct V as [A O L].
  assert (LE : priority cfg k <= priority cfg k') by (exact (c_order cfg st A later earlier k k' rid r r' out out' E H)).
  split; [exact LE|]. intros NL NR. destruct (reach_J cfg W NS NC NL st0 st I R) as (_ & J).
  destruct (N.eq_dec (priority cfg k) (priority cfg k')) as [P|P]; [|lia]. exfalso.
  assert (K1 : (k < nsubs cfg)%nat). { apply (c_call cfg st A k EvRpc rid r out). rewrite E. apply in_or_app. right. left. reflexivity. }
  assert (K2 : (k' < nsubs cfg)%nat). { apply (c_call cfg st A k' EvRpc rid r' out'). rewrite E. apply in_or_app. right. right. exact H. }
  assert (k = k') by (apply (prio_inj cfg W); auto). subst k'. eapply (j_once cfg st J); eauto. right. exact NR.
Qed.
Print Assumptions C29_order.

(** Each callback is called once with the RPC and once with its abort (again only after it had shelved
    the event), if listeners never fail to lock the event record. *)
Theorem C29_once : forall cfg st0 st later earlier k e rid r r' out out',
  wf cfg -> suspends cfg = false -> concurrent cfg = false -> lock_fail cfg = false -> initial st0 -> reach cfg st0 st ->
  st_log st = later ++ OCall k e rid r out :: earlier ->
  In (OCall k e rid r' out') earlier -> r' = RShelve /\ e <> EvAbort.
Proof.
  intros cfg st0 st later earlier k e rid r r' out out' W NS NC NL I R E H.
  destruct (reach_J cfg W NS NC NL st0 st I R) as (V & J). pose proof (j_once cfg st J _ _ _ _ _ _ _ _ _ E H) as F.
  split; [destruct r'; auto; exfalso; apply F; right; discriminate|]. intros ->. apply F. left. reflexivity.
Qed.
Print Assumptions C29_once.

(** When the client gets an output [out]: the callback called last accepted with this output; all
    subscriptions that are (still) there and want an RPC with this input accepted it and none of them
    has a lower priority; nobody is ever told to abort it. *)
Theorem C29_reply : forall cfg st0 st later earlier o rid out,
  wf cfg -> suspends cfg = false -> concurrent cfg = false -> initial st0 -> reach cfg st0 st ->
  st_log st = later ++ OReply o rid out :: earlier ->
  (exists k inp rest, rpc_calls rid earlier = (k, ROk, out) :: rest /\ (exists pr, In (OPub (mkinfo EvRpc rid pr) inp) earlier) /\ filt cfg inp k = true /\
     forall k', present cfg st k' -> filt cfg inp k' = true -> accepted earlier k' rid /\ priority cfg k <= priority cfg k') /\
  (forall k, ~ undone (st_log st) k rid).
Proof.
  intros cfg st0 st later earlier o rid out W NS NC I R E.
  assert (V : inv cfg st) by (eapply reach_inv; eauto). destruct V as [A O L]. split.
  - destruct (l_complete cfg st L _ _ _ _ _ E) as (k & inp & (rest & H1) & H2 & H3 & H4 & H5). exists k, inp, rest. repeat (split; [assumption|]).
    intros k' (P1 & P2 & P3) F. apply H5. repeat (split; [assumption|]). split; [|auto]. unfold alive. destruct (st_pcs st (proc_of cfg k')) eqn:X; auto; destruct P2; exact X.
  - assert (IN : In (OReply o rid out) (st_log st)) by (rewrite E; apply in_or_app; right; left; reflexivity).
    destruct (l_reply cfg st L o rid out IN) as (_ & _ & _ & H4 & H5). intros k [(r & out0 & H)|H]; [|apply (H5 k H)].
    destruct (c_call cfg st A _ _ _ _ _ H) as (_ & ip & P & _). apply (H4 _ _ P); reflexivity.
Qed.
Print Assumptions C29_reply.

(** Once a subscriber failed, none with a lower priority is called, before or after. *)
Theorem C29_stops : forall cfg st0 st o rid ep k r out,
  wf cfg -> suspends cfg = false -> concurrent cfg = false -> initial st0 -> reach cfg st0 st ->
  In (ORefused o rid ep) (st_log st) \/ In (OTimeout o rid ep) (st_log st) ->
  In (OCall k EvRpc rid r out) (st_log st) -> ep <= priority cfg k.
Proof.
  intros cfg st0 st o rid ep k r out W NS NC I R F H.
  assert (V : inv cfg st) by (eapply reach_inv; eauto). destruct V as [A O L].
  destruct (c_call cfg st A _ _ _ _ _ H) as (_ & ip & P & _). destruct (l_stop cfg st L o rid ep F) as (_ & _ & H3). exact (H3 _ _ P eq_refl eq_refl).
Qed.
Print Assumptions C29_stops.

(** Only those that accepted the RPC are called with its abort. *)
Theorem C29_acceptors : forall cfg st0 st later earlier k rid r out,
  wf cfg -> suspends cfg = false -> concurrent cfg = false -> initial st0 -> reach cfg st0 st ->
  st_log st = later ++ OCall k EvAbort rid r out :: earlier -> accepted earlier k rid.
Proof.
  intros cfg st0 st later earlier k rid r out W NS NC I R E.
  assert (V : inv cfg st) by (eapply reach_inv; eauto). exact (c_abort cfg st (i_A cfg st V) _ _ _ _ _ _ E).
Qed.
Print Assumptions C29_acceptors.

(** Before the client gets the error of the subscriber with priority [ep], each one with a higher
    priority that is still there was told to abort, unless it did not process the abort in time. *)
Theorem C29_aborted : forall cfg st0 st later earlier o rid ep k,
  wf cfg -> suspends cfg = false -> concurrent cfg = false -> initial st0 -> reach cfg st0 st ->
  st_log st = later ++ OAborted o rid ep :: earlier ->
  present cfg st k -> accepted (st_log st) k rid -> ep < priority cfg k ->
  (exists r out, In (OCall k EvAbort rid r out) earlier) \/ In (OATimeout rid (priority cfg k)) earlier.
Proof.
  intros cfg st0 st later earlier o rid ep k W NS NC I R E (P1 & P2 & P3) (out & AC) LT.
  destruct (reach_K cfg W NS NC st0 st I R) as ([A O L] & K).
  destruct (l_aborted cfg st L _ _ _ _ _ E) as (F & T).
  assert (TH : there cfg st k). { split; [exact P1|]. split; [|exact P3]. unfold alive. destruct (st_pcs st (proc_of cfg k)) eqn:X; auto; destruct P2; exact X. }
  apply (T k TH); [|exact LT].
  assert (X : exists x a b, earlier = a ++ x :: b /\ (x = ORefused o rid ep \/ x = OTimeout o rid ep)).
  { destruct F as [F|F]; apply in_split in F; destruct F as (a & b & F); eauto 6. }
  destruct X as (x & a & b & -> & X). destruct (c_call cfg st A _ _ _ _ _ AC) as (_ & ip & PU & _).
  assert (E' : st_log st = (later ++ OAborted o rid ep :: a) ++ x :: b) by (rewrite E, <- app_assoc; reflexivity).
  destruct (k_fail cfg st K _ _ _ _ _ _ E' X _ _ PU LT) as (k0 & K1 & K2 & K3). assert (k0 = k) by (apply (prio_inj cfg W); auto). subst k0.
  apply (accepted_app (a ++ [x])) in K3. rewrite <- app_assoc in K3. exact K3.
Qed.
Print Assumptions C29_aborted.

(** Altogether: the client got an error.  Each subscription, the only one in its context, that accepted
    the RPC, is still there and whose listener has nothing to do was told to abort, unless it did not
    process the abort in time. *)
Theorem C29_told_partial : forall cfg st0 st o rid ep k,
  wf cfg -> suspends cfg = false -> concurrent cfg = false -> lock_fail cfg = false -> initial st0 -> reach cfg st0 st ->
  In (OAborted o rid ep) (st_log st) ->
  (forall k', (k' < length (subs cfg))%nat -> context cfg k' = context cfg k -> k' = k) ->
  present cfg st k -> st_pcs st (context cfg k) = Idle -> accepted (st_log st) k rid ->
  undone (st_log st) k rid \/ In (OATimeout rid (priority cfg k)) (st_log st).
Proof.
  intros cfg st0 st o rid ep k W NS NC NL I R H ONE PR ID AC. pose proof AC as (out & AC').
  destruct (reach_J cfg W NS NC NL st0 st I R) as (V & J). pose proof V as [A OO L].
  apply in_split in H. destruct H as (later & earlier & E). destruct (l_aborted cfg st L _ _ _ _ _ E) as (F & _).
  assert (IN : forall x, In x earlier -> In x (st_log st)) by (intros x X; rewrite E; apply in_or_app; right; right; exact X).
  assert (F' : failed (st_log st) o rid ep) by (destruct F as [F|F]; [left|right]; auto).
  pose proof (C29_stops cfg st0 st o rid ep k ROk out W NS NC I R F' AC') as LE.
  destruct (N.eq_dec ep (priority cfg k)) as [P|P].
  - destruct F' as [F'|F'].
    + exfalso. destruct (j_ref cfg st J o rid ep F') as (k0 & out0 & K1 & K2 & K3). assert (k0 = k) by (apply (prio_inj cfg W); [exact K1|apply PR|unfold priority in P; unfold prio_of at 2; congruence]). subst k0.
      destruct (once_sym cfg st k EvRpc rid ROk out RErr out0 J AC' K3); [right; discriminate|right; discriminate|discriminate].
    + rewrite P in F'. assert (LS : k = last_sub cfg (proc_of cfg k)).
      { unfold last_sub. assert (PK : (k < nsubs cfg)%nat) by apply PR.
        assert (X : forall l, (forall j, In j l -> j = k) -> l <> [] -> last l O = k).
        { clear. induction l as [|a l IH]; intros H1 H2; [congruence|]. destruct l as [|b l]; [apply H1; left; reflexivity|]. change (last (a :: b :: l) O) with (last (b :: l) O). apply IH; [|discriminate]. intros j Hj. apply H1. right. exact Hj. }
        symmetry. apply X.
        - intros j Hj. apply filter_In in Hj. destruct Hj as (J1 & J2). apply in_seq in J1. apply Nat.eqb_eq in J2. apply ONE; [unfold nsubs in J1; lia|exact J2].
        - intros Y. assert (Z : In k (filter (fun k0 => Nat.eqb (proc_of cfg k0) (proc_of cfg k)) (seq 0 (nsubs cfg)))) by (apply filter_In; split; [apply in_seq; lia|apply Nat.eqb_refl]). rewrite Y in Z. destruct Z. }
      destruct (j_to cfg st J o rid k F' AC LS) as [X|X]; [left; right; exact X|]. unfold context in ID. change (st_pcs st (proc_of cfg k) = Idle) in ID. rewrite ID in X. destruct X.
  - destruct (C29_aborted cfg st0 st later earlier o rid ep k W NS NC I R E PR AC) as [(r & o0 & X)|X]; [lia|left; left; eauto|right; auto].
Qed.
Print Assumptions C29_told_partial.

(** ** Executions *)
Lemma run_reach : forall cfg ls st0 st1 st, reach cfg st0 st1 -> run cfg ls st1 = Some st -> reach cfg st0 st.
Proof.
  intros cfg ls st0. induction ls as [|l ls IH]; intros st1 st R E; cbn in E; [injection E as <-; exact R|].
  destruct (exec cfg l st1) as [st2|] eqn:X; [|discriminate]. apply (IH st2 st); [|exact E]. eapply R_step; eauto.
Qed.
Definition ex_st (clients : nat) : state :=
  mkst (mkshm (mkinfo EvNone O 0) 0 None O O) (repeat OIdle clients) (fun _ => Idle) (fun _ => mkdyn false false O EvNone) [].
Lemma ex_init : forall c, initial (ex_st c).
Proof.
  intros c. repeat split. intros o x H. apply nth_error_In in H. apply repeat_spec in H. exact H.
Qed.
Definition ex_log (cfg : config) (clients : nat) (ls : list label) : list obs := match run cfg ls (ex_st clients) with Some st => st_log st | None => [] end.
Lemma ex_reach : forall cfg c ls x l, ex_log cfg c ls = x :: l -> exists st, run cfg ls (ex_st c) = Some st /\ reach cfg (ex_st c) st /\ st_log st = x :: l.
Proof.
  intros cfg c ls x l H. unfold ex_log in H. destruct (run cfg ls (ex_st c)) as [st|] eqn:E; [|discriminate]. exists st. split; [reflexivity|]. split; [|exact H]. eapply run_reach; [apply R_init|exact E].
Qed.

(** Three contexts with one subscription each; the filter of the last one does not match input 7. *)
Definition ex_cfg (lf su co : bool) : config :=
  mkcfg [mkdef 0 10; mkdef 1 20; mkdef 2 5] (fun inp k => negb (Nat.eqb inp 7 && Nat.eqb k 2)) lf su co.
Lemma ex_wf : forall lf su co, wf (ex_cfg lf su co).
Proof.
  intros. split; [repeat constructor; cbn; intros H; repeat destruct H as [H|H]; try discriminate; contradiction|].
  intros d [<-|[<-|[<-|[]]]]; reflexivity.
Qed.
Definition start o inp : list label := [LStart o inp; LFirst o; LNew o].
Definition does p r out : list label := [LBegin p; LCall p r out; LLock p; LLock p].

(** All three accept, the one with priority 20 after shelving it. *)
Example ex_accepted : ex_log (ex_cfg false false false) 1 (start 0 3 ++ [LBegin 1; LCall 1 RShelve 0; LLock 1] ++ does 1 ROk 51 ++ [LOk 0%nat] ++ does 0 ROk 52 ++ [LOk 0%nat] ++ does 2 ROk 53 ++ [LOk 0%nat]) =
  [OReply 0 1 53; OOk 0 1 5; OCall 2 EvRpc 1 ROk 53; OPub (mkinfo EvRpc 1 5) 3; OOk 0 1 10; OCall 0 EvRpc 1 ROk 52; OPub (mkinfo EvRpc 1 10) 3; OOk 0 1 20; OCall 1 EvRpc 1 ROk 51; OCall 1 EvRpc 1 RShelve 0; OPub (mkinfo EvRpc 1 20) 3].
Proof. reflexivity. Qed.
(** The last one refuses, the others are told to abort. *)
Example ex_refused : ex_log (ex_cfg false false false) 1 (start 0 3 ++ does 1 ROk 51 ++ [LOk 0%nat] ++ does 0 ROk 52 ++ [LOk 0%nat; LBegin 2; LCall 2 RErr 53; LLock 2; LLock 2; LErr 0; LAbort 0] ++ does 1 ROk 0 ++ [LAOk 0%nat] ++ does 0 ROk 0 ++ [LAOk 0%nat]) =
  [OAborted 0 1 5; OCall 0 EvAbort 1 ROk 0; OPub (mkinfo EvAbort 1 10) 3; OCall 1 EvAbort 1 ROk 0; OPub (mkinfo EvAbort 1 20) 3; ORefused 0 1 5; OCall 2 EvRpc 1 RErr 53; OPub (mkinfo EvRpc 1 5) 3; OOk 0 1 10; OCall 0 EvRpc 1 ROk 52; OPub (mkinfo EvRpc 1 10) 3; OOk 0 1 20; OCall 1 EvRpc 1 ROk 51; OPub (mkinfo EvRpc 1 20) 3].
Proof. reflexivity. Qed.
(** The second one accepts too late, it generates its own abort. *)
Example ex_timeout : ex_log (ex_cfg false false false) 1 (start 0 3 ++ does 1 ROk 51 ++ [LOk 0%nat; LBegin 0; LTimeout 0; LCall 0 ROk 52; LAbort 0] ++ does 1 ROk 0 ++ [LAOk 0%nat; LLock 0]) =
  [OSelf 0 1; OAborted 0 1 10; OCall 1 EvAbort 1 ROk 0; OPub (mkinfo EvAbort 1 20) 3; OCall 0 EvRpc 1 ROk 52; OTimeout 0 1 10; OPub (mkinfo EvRpc 1 10) 3; OOk 0 1 20; OCall 1 EvRpc 1 ROk 51; OPub (mkinfo EvRpc 1 20) 3].
Proof. reflexivity. Qed.

(** ** What does not hold *)
Lemma runs : forall cfg ls st, match run cfg ls st with Some _ => true | None => false end = true -> exists s, run cfg ls st = Some s.
Proof. intros cfg ls st H. destruct (run cfg ls st) as [s|]; [eauto|discriminate]. Qed.
Ltac nowhere := cbn; intros H; repeat destruct H as [H|H]; try discriminate; contradiction.

(** Another client calls the RPC just after a subscriber refused it and before aborts are sent: the
    error in the event record is taken for an abandoned event and removed.  The first client then fails
    an assert and the one that had accepted is never told. *)
Theorem C29_concurrent_refuted : exists cfg, wf cfg /\ suspends cfg = false /\ lock_fail cfg = false /\ exists st0 st, initial st0 /\ reach cfg st0 st /\
  In (ORefused 0 1 10) (st_log st) /\ In (OAssert 0 1) (st_log st) /\ accepted (st_log st) 1 1 /\ ~ undone (st_log st) 1 1 /\
  nth_error (st_ors st) 0 = Some OCrash /\ st_pcs st (context cfg 1) = Idle.
Proof.
  exists (ex_cfg false false true). split; [apply ex_wf|]. split; [reflexivity|]. split; [reflexivity|].
  set (ls := start 0 7 ++ does 1 ROk 51 ++ [LOk 0%nat; LStart 1 7; LFirst 1; LBegin 0; LCall 0 RErr 0; LLock 0; LLock 0; LErr 0; LNew 1] ++ does 1 ROk 61 ++ [LOk 1%nat] ++ does 0 ROk 62 ++ [LOk 1%nat; LAbort 0]).
  destruct (runs (ex_cfg false false true) ls (ex_st 2)) as (s & E); [vm_compute; reflexivity|]. exists (ex_st 2), s. split; [apply ex_init|]. split; [eapply run_reach; [apply R_init|exact E]|].
  vm_compute in E. injection E as <-. cbn [st_log st_ors st_pcs]. split; [cbn; tauto|]. split; [cbn; tauto|]. split; [exists 51%nat; cbn; tauto|].
  split; [intros [(r & out & H)|H]; revert H; nowhere|]. split; reflexivity.
Qed.
Print Assumptions C29_concurrent_refuted.

(** A callback that processes an abort so slowly that the client stops waiting is called with an abort
    again. *)
Theorem C29_abort_once_refuted : exists cfg, wf cfg /\ suspends cfg = false /\ concurrent cfg = false /\ lock_fail cfg = false /\ exists st0 st, initial st0 /\ reach cfg st0 st /\
  exists later earlier out, st_log st = later ++ OCall 1 EvAbort 1 ROk out :: earlier /\ In (OSelf 1 1) later.
Proof.
  exists (ex_cfg false false false). repeat (split; [try apply ex_wf; reflexivity|]). 
  set (ls := start 0 7 ++ does 1 ROk 51 ++ [LOk 0%nat; LBegin 0; LCall 0 RErr 0; LLock 0; LLock 0; LErr 0; LAbort 0; LBegin 1; LCall 1 ROk 0; LATimeout 0; LLock 1]).
  destruct (runs (ex_cfg false false false) ls (ex_st 2)) as (s & E); [vm_compute; reflexivity|]. exists (ex_st 2), s. split; [apply ex_init|]. split; [eapply run_reach; [apply R_init|exact E]|].
  vm_compute in E. injection E as <-. cbn [st_log]. eexists [_; _; _], _, _. split; [reflexivity|]. cbn. tauto.
Qed.
Print Assumptions C29_abort_once_refuted.

(** Two subscriptions in one context: the first accepts too late, the abort is delivered to the other
    one, which has never been called. *)
Theorem C29_context_refuted : exists cfg, wf cfg /\ suspends cfg = false /\ concurrent cfg = false /\ lock_fail cfg = false /\ exists st0 st, initial st0 /\ reach cfg st0 st /\
  In (OSelf 1 1) (st_log st) /\ (forall r out, ~ In (OCall 1 EvRpc 1 r out) (st_log st)) /\
  In (OAborted 0 1 20) (st_log st) /\ accepted (st_log st) 0 1 /\ ~ undone (st_log st) 0 1 /\ st_pcs st (context cfg 0) = Idle.
Proof.
  set (cfg := mkcfg [mkdef 0 20; mkdef 0 10] (fun _ _ => true) false false false).
  exists cfg. split. { split; [repeat constructor; cbn; intros H; repeat destruct H as [H|H]; try discriminate; contradiction|]. intros d [<-|[<-|[]]]; reflexivity. }
  repeat (split; [reflexivity|]).
  set (ls := start 0 7 ++ [LBegin 0; LCall 0 ROk 51; LLock 0; LTimeout 0; LAbort 0; LLock 0]).
  destruct (runs cfg ls (ex_st 2)) as (s & E); [vm_compute; reflexivity|]. exists (ex_st 2), s. split; [apply ex_init|]. split; [eapply run_reach; [apply R_init|exact E]|].
  vm_compute in E. injection E as <-. cbn [st_log st_ors st_pcs]. split; [cbn; tauto|]. split; [intros r out; nowhere|]. split; [cbn; tauto|]. split; [exists 51%nat; cbn; tauto|].
  split; [intros [(r & out & H)|H]; revert H; nowhere|]. reflexivity.
Qed.
Print Assumptions C29_context_refuted.

(** The only subscriber has priority UINT32_MAX: it is not found and the client crashes. *)
Theorem C29_priority_refuted : exists cfg, NoDup (map d_prio (subs cfg)) /\ (forall d, In d (subs cfg) -> d_prio d <= 4294967295) /\ suspends cfg = false /\ concurrent cfg = false /\ lock_fail cfg = false /\
  exists st0 st, initial st0 /\ reach cfg st0 st /\ present cfg st 0 /\ (forall inp, filt cfg inp 0 = true) /\ nth_error (st_ors st) 0 = Some OCrash /\ st_log st = [ONull 0].
Proof.
  set (cfg := mkcfg [mkdef 0 4294967295] (fun _ _ => true) false false false).
  exists cfg. split; [repeat constructor; intros []|]. split; [intros d [<-|[]]; cbn; lia|]. repeat (split; [reflexivity|]).
  destruct (runs cfg [LStart 0 7; LFirst 0] (ex_st 2)) as (s & E); [vm_compute; reflexivity|]. exists (ex_st 2), s. split; [apply ex_init|]. split; [eapply run_reach; [apply R_init|exact E]|].
  vm_compute in E. injection E as <-. split; [split; [cbn; lia|split; [discriminate|reflexivity]]|]. repeat split.
Qed.
Print Assumptions C29_priority_refuted.

(** The only subscriber dies just after the client has seen it: the client crashes. *)
Theorem C29_died_refuted : exists cfg, wf cfg /\ suspends cfg = false /\ concurrent cfg = false /\ lock_fail cfg = false /\
  exists st0 st, initial st0 /\ reach cfg st0 st /\ nth_error (st_ors st) 0 = Some OCrash /\ st_log st = [ONull 0].
Proof.
  set (cfg := mkcfg [mkdef 0 10] (fun _ _ => true) false false false).
  exists cfg. split. { split; [repeat constructor; intros []|]. intros d [<-|[]]; reflexivity. } repeat (split; [reflexivity|]).
  destruct (runs cfg [LStart 0 7; LDieP 0; LFirst 0] (ex_st 2)) as (s & E); [vm_compute; reflexivity|]. exists (ex_st 2), s. split; [apply ex_init|]. split; [eapply run_reach; [apply R_init|exact E]|].
  vm_compute in E. injection E as <-. repeat split.
Qed.
Print Assumptions C29_died_refuted.

(** The client fails for another reason than a refusal or a timeout: those that accepted are not told. *)
Theorem C29_failed_refuted : exists cfg, wf cfg /\ suspends cfg = false /\ concurrent cfg = false /\ lock_fail cfg = false /\ exists st0 st, initial st0 /\ reach cfg st0 st /\
  In (OFailed 0 1) (st_log st) /\ accepted (st_log st) 1 1 /\ ~ undone (st_log st) 1 1 /\ present cfg st 1 /\ st_pcs st (context cfg 1) = Idle /\ nth_error (st_ors st) 0 = Some OIdle.
Proof.
  exists (ex_cfg false false false). split; [apply ex_wf|]. repeat (split; [reflexivity|]).
  set (ls := start 0 7 ++ does 1 ROk 51 ++ [LOk 0%nat] ++ does 0 ROk 52 ++ [LFail 0]).
  destruct (runs (ex_cfg false false false) ls (ex_st 2)) as (s & E); [vm_compute; reflexivity|]. exists (ex_st 2), s. split; [apply ex_init|]. split; [eapply run_reach; [apply R_init|exact E]|].
  vm_compute in E. injection E as <-. cbn [st_log st_ors]. split; [cbn; tauto|]. split; [exists 51%nat; cbn; tauto|]. split; [intros [(r & out & H)|H]; revert H; nowhere|].
  split; [split; [cbn; lia|split; [discriminate|reflexivity]]|]. split; reflexivity.
Qed.
Print Assumptions C29_failed_refuted.

(** A subscription suspended meanwhile is not told to abort what it accepted. *)
Theorem C29_suspended_refuted : exists cfg, wf cfg /\ concurrent cfg = false /\ lock_fail cfg = false /\ exists st0 st, initial st0 /\ reach cfg st0 st /\
  In (OAborted 0 1 10) (st_log st) /\ accepted (st_log st) 1 1 /\ ~ undone (st_log st) 1 1 /\ ~ In (OATimeout 1 20) (st_log st) /\ present cfg st 1 /\ st_pcs st (context cfg 1) = Idle.
Proof.
  exists (ex_cfg false true false). split; [apply ex_wf|]. repeat (split; [reflexivity|]).
  set (ls := start 0 7 ++ does 1 ROk 51 ++ [LOk 0%nat; LSusp 1 true false; LSusp 1 true true; LBegin 0; LCall 0 RErr 0; LLock 0; LLock 0; LErr 0; LAbort 0; LSusp 1 false false]).
  destruct (runs (ex_cfg false true false) ls (ex_st 2)) as (s & E); [vm_compute; reflexivity|]. exists (ex_st 2), s. split; [apply ex_init|]. split; [eapply run_reach; [apply R_init|exact E]|].
  vm_compute in E. injection E as <-. cbn [st_log]. split; [cbn; tauto|]. split; [exists 51%nat; cbn; tauto|]. split; [intros [(r & out & H)|H]; revert H; nowhere|]. split; [nowhere|].
  split; [split; [cbn; lia|split; [discriminate|reflexivity]]|]. reflexivity.
Qed.
Print Assumptions C29_suspended_refuted.

(** A listener fails to lock the event record after its callback accepted: it is called again. *)
Theorem C29_lock_refuted : exists cfg, wf cfg /\ suspends cfg = false /\ concurrent cfg = false /\ exists st0 st, initial st0 /\ reach cfg st0 st /\
  exists later, st_log st = later ++ [OCall 1 EvRpc 1 ROk 51; OPub (mkinfo EvRpc 1 20) 7] /\ In (OCall 1 EvRpc 1 ROk 52) later.
Proof.
  exists (ex_cfg true false false). split; [apply ex_wf|]. repeat (split; [reflexivity|]).
  set (ls := start 0 7 ++ [LBegin 1; LCall 1 ROk 51; LLockFail 1; LBegin 1; LCall 1 ROk 52]).
  destruct (runs (ex_cfg true false false) ls (ex_st 2)) as (s & E); [vm_compute; reflexivity|]. exists (ex_st 2), s. split; [apply ex_init|]. split; [eapply run_reach; [apply R_init|exact E]|].
  vm_compute in E. injection E as <-. cbn [st_log]. exists [OCall 1 EvRpc 1 ROk 52]. split; [reflexivity|left; reflexivity].
Qed.
Print Assumptions C29_lock_refuted.
