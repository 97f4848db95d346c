(** Theorems about applying of changes (C11, C12, C13, C34). *)
From Coq Require Import List Bool Arith NArith Lia.
From Verif Require Import Change ChangeSpec ChangeProofs ChangeProofs2 Prop_Change Apply ApplySpec ApplyProofs.
Import ListNotations.

Definition has_diff (s : steps) : Prop := s_diff s = true /\ s_diff1 s = true /\ s_diff2 s = true.

(** C11: something is stored only after everybody asked has approved, and nobody refused. *)
Theorem C11_stored_only_if_approved : forall s, has_diff s -> wf_mods (s_mods s) -> listeners_change s -> stored (fst (apply_changes s)) ->
  asked s /\
  exists before after, fst (apply_changes s) = before ++ after /\ ~ stored before /\
    (forall m x, In m (s_mods s) -> addressed (s_alive_c s) KChange m x -> approved before m x) /\
    (forall m x, In m (s_mods s) -> ~ refused (fst (apply_changes s)) m x).
Proof.
  intros s (D0 & D1 & D2) W L (k & Hk). destruct (diff_path s D0 D1 D2) as [(E & _)|(A & rs & o & En & Ea)]; [rewrite E in Hk; destruct Hk|]. split; [exact A|].
  assert (V : forall rd, In rd rs -> valid_round (s_alive_c s) KChange rd) by (unfold listeners_change in L; rewrite En in L; exact L).
  destruct o; rewrite Ea in *; cbn [fst snd] in *.
  - destruct (C10_everybody_accepted _ _ _ _ _ W En V) as (Acc & NoR). exists (ev_calls KChange rs), (fst (store s true)). split; [reflexivity|]. split; [intros (m & X); apply (ev_no_store _ _ _ X)|]. split.
    + intros m x Hm Hx. apply ev_in. split; [reflexivity|]. apply Acc; assumption.
    + intros m x Hm X. apply in_app_or in X. destruct X as [X|X]; [|apply (store_change _ _ _ X)]. apply ev_in in X. destruct X as (_ & X). apply (NoR _ X). reflexivity.
  - exfalso. apply in_app_or in Hk. destruct Hk as [Hk|Hk]; apply (ev_no_store _ _ _ Hk).
  - exfalso. apply (ev_no_store _ _ _ Hk).
  - exfalso. apply (ev_no_store _ _ _ Hk).
Qed.

(** C11: if anybody asked does not approve (refuses, fails, times out), an error is returned and
    nothing is stored. *)
Theorem C11_refused_unchanged : forall s, has_diff s -> wf_mods (s_mods s) -> listeners_change s ->
  forall m x, In m (s_mods s) -> addressed (s_alive_c s) KChange m x -> ~ approved (fst (apply_changes s)) m x \/ refused (fst (apply_changes s)) m x ->
  ~ stored (fst (apply_changes s)) /\ snd (apply_changes s) = true.
Proof.
  intros s D W L m x Hm Hx R. split.
  - intros St. destruct (C11_stored_only_if_approved s D W L St) as (_ & b & a & E & _ & Ap & No). destruct R as [R|R]; [|apply (No m x Hm R)]. apply R. specialize (Ap m x Hm Hx). unfold approved in *. rewrite E. apply in_or_app. left. exact Ap.
  - destruct D as (D0 & D1 & D2). destruct (diff_path s D0 D1 D2) as [(E & _)|(A & rs & o & En & Ea)]; [rewrite E; reflexivity|]. destruct o; rewrite Ea in *; cbn [fst snd] in *; try reflexivity. exfalso.
    assert (V : forall rd, In rd rs -> valid_round (s_alive_c s) KChange rd) by (unfold listeners_change in L; rewrite En in L; exact L). destruct (C10_everybody_accepted _ _ _ _ _ W En V) as (Acc & NoR). destruct R as [R|R].
    + apply R. unfold approved. apply in_or_app. left. apply ev_in. split; [reflexivity|]. apply Acc; assumption.
    + unfold refused in R. apply in_app_or in R. destruct R as [R|R]; [|apply (store_change _ _ _ R)]. apply ev_in in R. destruct R as (_ & R). apply (NoR _ R). reflexivity.
Qed.

(** C11: if everybody approves and nothing else fails, all the changed modules are stored and the
    call succeeds. *)
Theorem C11_approved_applied : forall s, has_diff s -> wf_mods (s_mods s) -> listeners_change s -> asked s ->
  (forall m x, In m (s_mods s) -> addressed (s_alive_c s) KChange m x -> approved (fst (apply_changes s)) m x) ->
  snd (notify (s_alive_c s) (s_env_c s) KChange no_err (s_mods s)) <> OFailed ->
  s_upgrade s = true -> Forall (fun p => snd p = Stored) (s_store s) -> s_downgrade s = true -> snd (notify (s_alive_d s) (s_env_d s) KDone no_err (s_mods s)) <> OFailed -> s_notif s = true ->
  snd (apply_changes s) = false /\ forall p, In p (s_store s) -> In (EStore (fst p)) (fst (apply_changes s)).
Proof.
  intros s (D0 & D1 & D2) W L A Ap Nf U St Dn Nd Nt. destruct (diff_path s D0 D1 D2) as [(_ & X)|(_ & rs & o & En & Ea)]; [contradiction|]. rewrite En in Nf. cbn [snd] in Nf.
  assert (V : forall rd, In rd rs -> valid_round (s_alive_c s) KChange rd) by (unfold listeners_change in L; rewrite En in L; exact L).
  assert (Ho : o = OOk). { destruct o; [reflexivity| |contradiction|].
    - exfalso. destruct (C10_refused_by_somebody _ _ _ _ _ W En V) as (m & x & Hm & Hx & No). apply No. specialize (Ap m x Hm Hx). unfold approved in Ap. rewrite Ea in Ap. cbn [fst] in Ap. apply in_app_or in Ap. destruct Ap as [Ap|Ap]; apply ev_in in Ap; [apply Ap|destruct Ap; discriminate].
    - destruct (notify_spec _ _ W _ KChange _ _ _ ltac:(discriminate) En) as (_ & []). }
  subst o. rewrite Ea. cbn [fst snd]. unfold store. cbn [negb andb]. rewrite U, (data_store_all _ St), Dn. cbn [negb]. destruct (data_store_ok _ (data_store_all _ St)) as (Eq & _).
  destruct (notify (s_alive_d s) (s_env_d s) KDone no_err (s_mods s)) as (rd & od) eqn:Ed. cbn [fst snd] in *. destruct (notify_spec _ _ W _ KDone _ _ _ ltac:(discriminate) Ed) as (_ & Od). destruct od; [|destruct Od as (X & _); discriminate|contradiction|destruct Od].
  rewrite Nt. split; [reflexivity|]. intros p Hp. apply in_or_app. right. cbn [fst]. apply in_or_app. left. rewrite Eq. apply in_map_iff. exists p. auto.
Qed.

(** C13: after a successful call that changed something every matching subscriber got one done event. *)
Theorem C13_done_to_everybody : forall s, has_diff s -> wf_mods (s_mods s) -> listeners_done s -> snd (apply_changes s) = false ->
  forall m x, In m (s_mods s) -> addressed (s_alive_d s) KDone m x ->
  length (filter (fun e => match e with ECall KDone c => Nat.eqb (c_mod c) (m_id m) && Nat.eqb (c_sub c) (a_id x) | _ => false end) (fst (apply_changes s))) = 1.
Proof.
  intros s (D0 & D1 & D2) W L Ok m x Hm Hx. destruct (diff_path s D0 D1 D2) as [(E & _)|(A & rs & o & En & Ea)]; [rewrite E in Ok; discriminate|]. destruct o; rewrite Ea in Ok; cbn [snd] in Ok; try discriminate. rewrite Ea. cbn [fst].
  destruct (store_trace s true) as (st & dn & Es & N1 & N2 & N3 & _ & Fin). destruct (Fin Ok (or_introl eq_refl)) as (_ & rd & Edn & Ed). cbn in Ed. rewrite Es.
  set (f := fun e => match e with ECall KDone c => Nat.eqb (c_mod c) (m_id m) && Nat.eqb (c_sub c) (a_id x) | _ => false end).
  assert (Z : forall l, (forall c, ~ In (ECall KDone c) l) -> filter f l = []).
  { induction l as [|e l IH]; intros H; [reflexivity|]. cbn [filter]. destruct e as [k c|n]; [destruct k|]; cbn [f]; try (apply IH; intros c' Hc'; apply (H c'); right; exact Hc'). destruct (H c). left. reflexivity. }
  rewrite !filter_app, (Z (ev_calls KChange rs)), (Z st); [|intros c; apply N1|intros c Hc; apply ev_in in Hc; destruct Hc; discriminate]. cbn [app]. rewrite Edn.
  unfold listeners_done in L. rewrite Ed in L. cbn [fst] in L. destruct (notify_spec _ _ W _ KDone _ _ _ ltac:(discriminate) Ed) as (RO & Wr & _).
  assert (Hs : In x (m_subs m)) by apply Hx.
  pose proof (at_most_once _ _ W KDone rd m x RO (fun r H => proj1 (L r H)) Hm Hs) as Once.
  assert (Eq : length (filter f (ev_calls KDone rd)) = length (finals KDone rd m x)).
  { unfold finals, ev_calls. fold (calls rd). clear. induction (calls rd) as [|c l IH]; [reflexivity|]. cbn [map filter f is_final andb]. destruct (Nat.eqb (c_mod c) (m_id m) && Nat.eqb (c_sub c) (a_id x)); cbn [length]; rewrite IH; reflexivity. }
  rewrite Eq. destruct (Wr m x Hm Hx) as (r & p & Hr & Hp & Em & Ep). destruct (L r Hr) as (_ & All). subst m. destruct (All p x Hp Hx (eq_sym Ep)) as (rr & Hc).
  assert (X : In (mkcall (m_id (p_mod p)) (a_id x) rr) (finals KDone rd (p_mod p) x)) by (unfold finals; apply filter_In; split; [apply in_flat_map; exists r; auto|cbn; rewrite !Nat.eqb_refl; reflexivity]).
  destruct (finals KDone rd (p_mod p) x) as [|a [|b t]]; cbn in *; [destruct X|reflexivity|lia].
Qed.

(** C13: nobody gets a done event unless everything was stored before. *)
Theorem C13_done_only_after_store : forall s, has_diff s -> forall l1 c l2, fst (apply_changes s) = l1 ++ ECall KDone c :: l2 -> forall p, In p (s_store s) -> In (EStore (fst p)) l1.
Proof.
  intros s (D0 & D1 & D2) l1 c l2 E p Hp. destruct (diff_path s D0 D1 D2) as [(X & _)|(A & rs & o & En & Ea)]; [rewrite X in E; destruct l1; discriminate|].
  assert (Hin : In (ECall KDone c) (fst (apply_changes s))) by (rewrite E; apply in_or_app; right; left; reflexivity).
  destruct o; rewrite Ea in *; cbn [fst] in *.
  - destruct (store_trace s true) as (st & dn & Es & N1 & N2 & N3 & Fst & _). rewrite Es in *.
    assert (Dn : dn <> []). { intros ->. rewrite app_nil_r in Hin. apply in_app_or in Hin. destruct Hin as [H|H]; [apply ev_in in H; destruct H; discriminate|exact (N1 _ _ H)]. }
    specialize (Fst Dn).
    assert (G : forall a b l1 l2 (e : obs), a ++ b = l1 ++ e :: l2 -> ~ In e a -> exists l, l1 = a ++ l).
    { clear. induction a as [|y a IH]; intros b l1 l2 e E N; [exists l1; reflexivity|]. destruct l1 as [|z l1]; cbn [app] in E; injection E as E0 E; [destruct N; left; exact E0|]. destruct (IH b l1 l2 e E) as (l & ->); [intros X; apply N; right; exact X|]. exists l. subst. reflexivity. }
    rewrite app_assoc in E. destruct (G _ _ _ _ _ E) as (l & ->); [|apply in_or_app; left; apply in_or_app; right; rewrite Fst; apply in_map_iff; exists p; auto].
    intros X. apply in_app_or in X. destruct X as [X|X]; [apply ev_in in X; destruct X; discriminate|exact (N1 _ _ X)].
  - exfalso. apply in_app_or in Hin. destruct Hin as [H|H]; apply ev_in in H; destruct H; discriminate.
  - exfalso. apply ev_in in Hin. destruct Hin; discriminate.
  - exfalso. apply ev_in in Hin. destruct Hin; discriminate.
Qed.

(** C34: pending changes after any history are those added since the last successful apply or
    discard in the datastore, or adding that failed so that it discarded them. *)
Theorem C34_pending : forall (E : Type) (h : list (sop E)) ds, srun E h ds = pending_spec E (rev h) ds.
Proof. exact srun_spec. Qed.

(** C34: a failed apply keeps all of them, so the next one applies them again; a successful one
    leaves none; other datastores are not affected. *)
Theorem C34_apply : forall (E : Type) (p : pending E) ds s, p ds <> [] ->
  fst (snd (fst (s_apply E p ds s))) = p ds /\ snd (s_apply E p ds s) = snd (apply_changes s) /\
  (snd (apply_changes s) = true -> forall d, fst (fst (s_apply E p ds s)) d = p d) /\
  (snd (apply_changes s) = false -> fst (fst (s_apply E p ds s)) ds = [] /\ forall d, d <> ds -> fst (fst (s_apply E p ds s)) d = p d).
Proof.
  intros E p ds s Ne. unfold s_apply. destruct (p ds) as [|e l] eqn:Ep; [contradiction|]. destruct (snd (apply_changes s)) eqn:Sa; cbn [fst snd]; (split; [reflexivity|]; split; [reflexivity|]; split; [intros X; try discriminate; intros d; reflexivity|intros X; try discriminate]).
  split; [apply upd_same|]. intros d Nd. unfold upd. destruct (Nat.eqb_spec d ds); [contradiction|reflexivity].
Qed.

(** ** Concrete cases *)
Definition envok (r : nat) : option (list call) := match r with O => Some [mkcall 2 5 ROk] | S O => Some [mkcall 1 1 ROk; mkcall 1 2 ROk] | S (S O) => Some [mkcall 1 3 ROk] | _ => Some [] end.
Definition envdone (r : nat) : option (list call) := match r with O => Some [mkcall 2 5 ROk] | S O => Some [mkcall 1 2 ROk; mkcall 1 1 ROk] | S (S O) => Some [mkcall 1 4 ROk] | S (S (S O)) => Some [mkcall 1 3 RErr] | _ => Some [] end.
Definition steps0 (envc : nat -> option (list call)) (st : list (nat * store_res)) (down : bool) : steps :=
  mksteps true Fine true true Fine true true true Fine true mods0 all_alive envc all_alive enva0 true st down all_alive envdone true.

Example C11_applied_example : apply_changes (steps0 envok [(1, Stored); (2, Stored)] true) =
  ([ECall KChange (mkcall 2 5 ROk); ECall KChange (mkcall 1 1 ROk); ECall KChange (mkcall 1 2 ROk); ECall KChange (mkcall 1 3 ROk); EStore 1; EStore 2;
    ECall KDone (mkcall 2 5 ROk); ECall KDone (mkcall 1 2 ROk); ECall KDone (mkcall 1 1 ROk); ECall KDone (mkcall 1 4 ROk); ECall KDone (mkcall 1 3 RErr)], false).
Proof. vm_compute. reflexivity. Qed.
Example C11_refused_example : apply_changes (steps0 env0 [(1, Stored); (2, Stored)] true) =
  ([ECall KChange (mkcall 2 5 ROk); ECall KChange (mkcall 1 1 RShelve); ECall KChange (mkcall 1 2 RErr); ECall KChange (mkcall 1 1 ROk);
    ECall KAbort (mkcall 2 5 ROk); ECall KAbort (mkcall 1 1 ROk)], true).
Proof. vm_compute. reflexivity. Qed.

Lemma addr_mod0 : forall k m x, addressed all_alive k m x -> In m mods0 -> In x (m_subs m) /\ (k = KDone \/ a_done_only x = false).
Proof. intros k m x (A & _ & _ & _ & B) _. auto. Qed.

(** The hypotheses of the theorems are met. *)
Example C11_nonvacuous : let s := steps0 envok [(1, Stored); (2, Stored)] true in has_diff s /\ wf_mods (s_mods s) /\ listeners_change s /\ listeners_done s /\ asked s /\ stored (fst (apply_changes s)).
Proof.
  cbv zeta. split; [repeat split|]. split; [exact mods0_wf|].
  assert (Ev : notify all_alive envok KChange no_err mods0 = ([mkround [mkpend mB 0 1] [mkcall 2 5 ROk]; mkround [mkpend mA 10 2] [mkcall 1 1 ROk; mkcall 1 2 ROk]; mkround [mkpend mA 5 1] [mkcall 1 3 ROk]], OOk)) by (vm_compute; reflexivity).
  assert (Ed : notify all_alive envdone KDone no_err mods0 = ([mkround [mkpend mB 0 1] [mkcall 2 5 ROk]; mkround [mkpend mA 10 2] [mkcall 1 2 ROk; mkcall 1 1 ROk]; mkround [mkpend mA 7 1] [mkcall 1 4 ROk]; mkround [mkpend mA 5 1] [mkcall 1 3 RErr]], OOk)) by (vm_compute; reflexivity).
  split; [|split; [|split; [repeat split|]]].
  - unfold listeners_change. cbn [steps0 s_alive_c s_env_c s_mods]. rewrite Ev. clear Ev Ed. cbn [fst]. intros rd [<-|[<-|[<-|[]]]]; (split; [|cbn; repeat constructor; cbn; intuition discriminate]).
    + intros c [<-|[]]. exists (mkpend mB 0 1), s5. split; [left; reflexivity|]. split; [reflexivity|]. split; [reflexivity|]. split; [apply addr0; cbn; auto|reflexivity].
    + intros c [<-|[<-|[]]]; [exists (mkpend mA 10 2), s1|exists (mkpend mA 10 2), s2]; (split; [left; reflexivity|]; split; [reflexivity|]; split; [reflexivity|]; split; [apply addr0; cbn; auto|reflexivity]).
    + intros c [<-|[]]. exists (mkpend mA 5 1), s3. split; [left; reflexivity|]. split; [reflexivity|]. split; [reflexivity|]. split; [apply addr0; cbn; auto|reflexivity].
  - unfold listeners_done. cbn [steps0 s_alive_d s_env_d s_mods]. rewrite Ed. clear Ev Ed. cbn [fst]. intros rd [<-|[<-|[<-|[<-|[]]]]]; (split; [split; [|cbn; repeat constructor; cbn; intuition discriminate]|]).
    + intros c [<-|[]]. exists (mkpend mB 0 1), s5. split; [left; reflexivity|]. split; [reflexivity|]. split; [reflexivity|]. split; [apply addr0; cbn; auto|reflexivity].
    + intros p x [<-|[]] (Hx & _) Ep. cbn in Hx, Ep. destruct Hx as [<-|[]]. exists ROk. left. reflexivity.
    + intros c [<-|[<-|[]]]; [exists (mkpend mA 10 2), s2|exists (mkpend mA 10 2), s1]; (split; [left; reflexivity|]; split; [reflexivity|]; split; [reflexivity|]; split; [apply addr0; cbn; auto|reflexivity]).
    + intros p x [<-|[]] (Hx & _) Ep. cbn in Hx, Ep. destruct Hx as [<-|[<-|[<-|[<-|[]]]]]; cbn in Ep; try discriminate; exists ROk; cbn; auto.
    + intros c [<-|[]]. exists (mkpend mA 7 1), s4. split; [left; reflexivity|]. split; [reflexivity|]. split; [reflexivity|]. split; [apply addr0; cbn; auto|reflexivity].
    + intros p x [<-|[]] (Hx & _) Ep. cbn in Hx, Ep. destruct Hx as [<-|[<-|[<-|[<-|[]]]]]; cbn in Ep; try discriminate; exists ROk; cbn; auto.
    + intros c [<-|[]]. exists (mkpend mA 5 1), s3. split; [left; reflexivity|]. split; [reflexivity|]. split; [reflexivity|]. split; [apply addr0; cbn; auto|reflexivity].
    + intros p x [<-|[]] (Hx & _) Ep. cbn in Hx, Ep. destruct Hx as [<-|[<-|[<-|[<-|[]]]]]; cbn in Ep; try discriminate; exists RErr; cbn; auto.
  - rewrite C11_applied_example. exists 1. cbn. auto 10.
Qed.

Example C34_nonvacuous : srun nat [SAdd nat 0 7 AddOk; SAdd nat 0 8 AddOk; SAdd nat 1 9 AddOk; SApply nat 0 (steps0 env0 [(1, Stored)] true); SAdd nat 0 9 AddErr; SBatch nat 0 [4] true] 0 = [7; 8] /\
  srun nat [SAdd nat 0 7 AddOk; SAdd nat 1 9 AddOk; SApply nat 0 (steps0 envok [(1, Stored)] true)] 0 = [] /\
  srun nat [SAdd nat 0 7 AddOk; SAdd nat 1 9 AddOk; SApply nat 0 (steps0 envok [(1, Stored)] true)] 1 = [9].
Proof. vm_compute. auto. Qed.

(** C11 as stated is false in the other direction: everybody approves, the data are stored and an
    error is returned anyway because taking the lock back for reading fails; nobody gets the done
    event then, so that part of C13 is false, too. *)
Theorem C11_error_means_unchanged_refuted : exists s, has_diff s /\ asked s /\ wf_mods (s_mods s) /\ snd (apply_changes s) = true /\ stored (fst (apply_changes s)) /\
  (exists m x, In m (s_mods s) /\ addressed (s_alive_d s) KDone m x) /\ forall c, ~ In (ECall KDone c) (fst (apply_changes s)).
Proof.
  exists (steps0 envok [(1, Stored); (2, Stored)] false). assert (E : apply_changes (steps0 envok [(1, Stored); (2, Stored)] false) =
    ([ECall KChange (mkcall 2 5 ROk); ECall KChange (mkcall 1 1 ROk); ECall KChange (mkcall 1 2 ROk); ECall KChange (mkcall 1 3 ROk); EStore 1; EStore 2], true)) by (vm_compute; reflexivity). rewrite E.
  split; [repeat split|]. split; [repeat split|]. split; [exact mods0_wf|]. split; [reflexivity|]. split; [exists 1; cbn; auto 10|]. split; [exists mA, s1; split; [left; reflexivity|apply addr0; cbn; auto]|]. intros c H. cbn in H. intuition discriminate.
Qed.

(** A change of two modules is not atomic if storing of the second one fails. *)
Theorem C11_atomic_refuted : exists s, has_diff s /\ asked s /\ wf_mods (s_mods s) /\ snd (apply_changes s) = true /\ In 2 (map fst (s_store s)) /\
  In (EStore 1) (fst (apply_changes s)) /\ ~ In (EStore 2) (fst (apply_changes s)).
Proof.
  exists (steps0 envok [(1, Stored); (2, NotStored)] true). assert (E : apply_changes (steps0 envok [(1, Stored); (2, NotStored)] true) =
    ([ECall KChange (mkcall 2 5 ROk); ECall KChange (mkcall 1 1 ROk); ECall KChange (mkcall 1 2 ROk); ECall KChange (mkcall 1 3 ROk); EStore 1], true)) by (vm_compute; reflexivity). rewrite E.
  split; [repeat split|]. split; [repeat split|]. split; [exact mods0_wf|]. split; [reflexivity|]. split; [cbn; auto|]. split; [cbn; auto 10|]. intros H. cbn in H. intuition discriminate.
Qed.

(** C12: if sending of the change event fails for another reason than a refusal, those that accepted
    the change so far get no abort event. *)
Definition envfail (r : nat) : option (list call) := match r with O => Some [mkcall 2 5 ROk] | _ => None end.
Theorem C12_failed_change_not_aborted_refuted : exists s, has_diff s /\ asked s /\ wf_mods (s_mods s) /\ snd (apply_changes s) = true /\ ~ stored (fst (apply_changes s)) /\
  (exists m x, In m (s_mods s) /\ addressed (s_alive_a s) KAbort m x /\ approved (fst (apply_changes s)) m x) /\ forall c, ~ In (ECall KAbort c) (fst (apply_changes s)).
Proof.
  exists (steps0 envfail [(1, Stored); (2, Stored)] true). assert (E : apply_changes (steps0 envfail [(1, Stored); (2, Stored)] true) = ([ECall KChange (mkcall 2 5 ROk)], true)) by (vm_compute; reflexivity). rewrite E.
  split; [repeat split|]. split; [repeat split|]. split; [exact mods0_wf|]. split; [reflexivity|]. split; [intros (m & H); cbn in H; intuition discriminate|]. split; [exists mB, s5; split; [right; left; reflexivity|]; split; [apply addr0; cbn; auto|left; reflexivity]|]. intros c H. cbn in H. intuition discriminate.
Qed.

(** Operations that failed may have an effect on the pending changes. *)
Theorem C34_failed_add_refuted : exists (p : pending nat), (exists ds e r, snd (s_add nat p ds e r) = true /\ fst (s_add nat p ds e r) ds <> p ds /\ fst (s_add nat p ds e r) ds = []) /\
  exists ds e r, snd (s_add nat p ds e r) = true /\ fst (s_add nat p ds e r) ds = p ds ++ [e].
Proof. exists (fun _ => [1]). split; [exists 0, 2, AddErrDiscard|exists 0, 2, AddErrSet]; cbn; repeat split; discriminate. Qed.

Print Assumptions C11_stored_only_if_approved.
Print Assumptions C11_refused_unchanged.
Print Assumptions C11_approved_applied.
Print Assumptions C13_done_to_everybody.
Print Assumptions C13_done_only_after_store.
Print Assumptions C34_pending.
Print Assumptions C34_apply.
Print Assumptions C11_error_means_unchanged_refuted.
Print Assumptions C11_atomic_refuted.
Print Assumptions C12_failed_change_not_aborted_refuted.
