(** Proofs about calling RPCs: subscribers with a higher priority than the one that failed had
    accepted before. *)
From Coq Require Import List Bool Arith NArith Lia.
From Verif Require Import Rpc RpcSpec RpcProofs RpcStep RpcInv.
Import ListNotations.
Local Open Scope N_scope.

Section Proofs.
Variable cfg : config.
Hypothesis WF : wf cfg.
Hypothesis NS : suspends cfg = false.
Hypothesis NC : concurrent cfg = false.
Notation n := (nsubs cfg).
Notation prio := (prio_of cfg).
Notation proc := (proc_of cfg).

Definition acc (log : list obs) (rid : nat) (pr : N) : Prop := exists k, (k < n)%nat /\ prio k = pr /\ accepted log k rid.
Record invK (st : state) : Prop := {
  k_cur : rse (f_ev (h_inf (st_shm st))) -> forall pr inp, In (OPub (mkinfo EvRpc (f_rid (h_inf (st_shm st))) pr) inp) (st_log st) -> f_prio (h_inf (st_shm st)) < pr -> acc (st_log st) (f_rid (h_inf (st_shm st))) pr;
  k_fail : forall l1 l2 x o rid ep, st_log st = l1 ++ x :: l2 -> x = ORefused o rid ep \/ x = OTimeout o rid ep ->
    forall pr inp, In (OPub (mkinfo EvRpc rid pr) inp) (st_log st) -> ep < pr -> acc l2 rid pr
}.

Definition dull (x : obs) : Prop := match x with OPub _ _ | ORefused _ _ _ | OTimeout _ _ _ => False | _ => True end.

Lemma acc_app : forall l log rid pr, acc log rid pr -> acc (l ++ log) rid pr.
Proof. intros l log rid pr (k & H1 & H2 & H3). exists k. repeat (split; [assumption|]). apply accepted_app. exact H3. Qed.

Lemma K_same : forall st st' l, invK st -> st_log st' = l ++ st_log st -> Forall dull l ->
  (rse (f_ev (h_inf (st_shm st'))) -> rse (f_ev (h_inf (st_shm st))) /\ f_rid (h_inf (st_shm st')) = f_rid (h_inf (st_shm st)) /\ f_prio (h_inf (st_shm st')) = f_prio (h_inf (st_shm st))) -> invK st'.
Proof.
  intros st st' l K EL F H. 
  assert (IP : forall i ip, In (OPub i ip) (l ++ st_log st) -> In (OPub i ip) (st_log st)) by (intros i ip X; eapply in_plain; eauto; exact (fun x => x)).
  constructor; rewrite EL.
  - intros R pr inp X LT. destruct (H R) as (R0 & E1 & E2). rewrite E1, E2 in *. apply acc_app. eapply (k_cur st K); eauto.
  - intros l1 l2 x o rid ep E X pr inp P LT. assert (ND : ~ dull x) by (destruct X as [->| ->]; exact (fun x => x)).
    destruct (split_plain dull l (st_log st) l1 x l2 F ND E) as (l1' & E'). eapply (k_fail st K); eauto.
Qed.

(** The current event fails. *)
Lemma K_failed : forall st h' ors x o, invK st -> rse (f_ev (h_inf (st_shm st))) ->
  f_rid (h_inf h') = f_rid (h_inf (st_shm st)) -> f_prio (h_inf h') = f_prio (h_inf (st_shm st)) ->
  x = ORefused o (f_rid (h_inf (st_shm st))) (f_prio (h_inf (st_shm st))) \/ x = OTimeout o (f_rid (h_inf (st_shm st))) (f_prio (h_inf (st_shm st))) ->
  invK (mkst h' ors (st_pcs st) (st_dyn st) (x :: st_log st)).
Proof.
  intros st h' ors x o K RS R P X.
  assert (IP : forall i ip, In (OPub i ip) (x :: st_log st) -> In (OPub i ip) (st_log st)) by (intros i ip [Y|Y]; [destruct X; congruence|exact Y]).
  constructor; cbn [st_shm st_log].
  - intros _ pr inp Y LT. rewrite R, P in *. apply (acc_app [x]). eapply (k_cur st K); eauto.
  - intros l1 l2 y o0 rid ep E Y pr inp Z LT. apply IP in Z. destruct l1 as [|z l1]; injection E as E1 E2; [|eapply (k_fail st K); eauto].
    subst y l2. destruct X as [X|X]; rewrite X in Y; destruct Y as [Y|Y]; try discriminate; injection Y as _ <- <-; eapply (k_cur st K); eauto.
Qed.

(** An event is written. *)
Lemma K_pub : forall st inf inp ors h' l, inv cfg st -> invK st -> Forall dull l -> Forall neutral l -> may_pub (st_shm st) inf inp -> h_inf h' = inf ->
  invK (mkst h' ors (st_pcs st) (st_dyn st) (OPub inf inp :: l ++ st_log st)).
Proof.
  intros st inf inp ors h' l [A O L] K F FN M HI.
  assert (IP : forall i ip, In (OPub i ip) (OPub inf inp :: l ++ st_log st) -> (i = inf /\ ip = inp) \/ In (OPub i ip) (st_log st)).
  { intros i ip [Y|Y]; [injection Y as <- <-; auto|]. right. eapply in_plain; eauto; exact (fun x => x). }
  constructor; cbn [st_shm st_log]; rewrite ?HI.
  - intros RS pr ip H LT. destruct (IP _ _ H) as [(X & _)|X]; [rewrite <- X in LT; cbn in LT; lia|].
    destruct M as [(M1 & M2)|[(M1 & M2 & M3 & M4 & _)|(M1 & _)]].
    + exfalso. pose proof (s_rid cfg st A _ _ X) as Y. cbn in Y. lia.
    + rewrite M2 in *. assert (RS0 : rse (f_ev (h_inf (st_shm st)))) by (right; left; exact M3). pose proof (s_low cfg st A RS0 _ _ X eq_refl eq_refl) as Y. cbn in Y.
      apply (acc_app [_]). apply acc_app. destruct (N.eq_dec pr (f_prio (h_inf (st_shm st)))) as [Z|Z].
      * destruct (c_succ cfg st A M3) as (k & K1 & K2 & K3). exists k. split; [exact K1|]. split; [congruence|]. eexists. apply newest_in in K3. exact K3.
      * eapply (k_cur st K); eauto. lia.
    + rewrite M1 in RS. destruct RS as [X1|[X1|X1]]; discriminate.
  - intros l1 l2 x o rid ep E X pr ip H LT. assert (ND : ~ dull x) by (destruct X as [->| ->]; exact (fun x => x)).
    destruct l1 as [|z l1]; injection E as E1 E2; [subst x; destruct X; discriminate|]. destruct (split_plain dull l (st_log st) l1 x l2 F ND E2) as (l1' & E').
    destruct (IP _ _ H) as [(Y & _)|Y]; [|eapply (k_fail st K); eauto]. exfalso.
    assert (FL : failed (st_log st) o rid ep) by (rewrite E'; destruct X as [->| ->]; [left|right]; apply in_or_app; right; left; reflexivity).
    destruct (l_stop cfg st L o rid ep FL) as (Z1 & Z2 & _). rewrite <- Y in M. destruct M as [(_ & M2)|[(_ & M2 & M3 & _)|(M1 & _)]]; [cbn in M2; lia| |discriminate]. cbn in M2. destruct (Z2 M2). contradiction.
Qed.

Lemma K_set : forall st o c h' l, invK st -> Forall dull l -> (h' = st_shm st \/ (f_ev (h_inf h') = EvNone \/ (f_ev (h_inf h') = EvError /\ f_ev (h_inf (st_shm st)) = EvError)) /\ f_rid (h_inf h') = f_rid (h_inf (st_shm st)) /\ f_prio (h_inf h') = f_prio (h_inf (st_shm st))) -> invK (set_o o c h' l st).
Proof.
  intros st o c h' l K F H. eapply K_same with (st := st) (l := l); auto. cbn [st_shm set_o]. destruct H as [->|(H & H1 & H2)]; [auto|]. intros RS. split; [|auto].
  destruct H as [H|(_ & H)]; [rewrite H in RS; destruct RS as [X|[X|X]]; discriminate|right; right; exact H].
Qed.

Ltac dl := try match goal with |- Forall _ _ => repeat constructor end.

Lemma K_abort : forall st o inp rid cur ep ec h l, inv cfg st -> invK st -> Forall dull l -> Forall neutral l ->
  f_rid (h_inf h) = f_rid (h_inf (st_shm st)) -> f_prio (h_inf h) = f_prio (h_inf (st_shm st)) ->
  (forall pr, pr < cur -> may_pub (st_shm st) (mkinfo EvAbort rid pr) inp) -> invK (abort_next cfg st o inp rid cur ep ec h l).
Proof.
  intros st o inp rid cur ep ec h l I K F FN H1 H2 MP. unfold abort_next.
  destruct (next_spec cfg WF st inp cur cur) as [(S0 & NX)|(S1 & k & K1 & K2 & K3 & K4)].
  - rewrite S0. cbn [N.eqb negb andb]. apply K_set; [exact K|constructor; [exact Logic.I|exact F]|]. right. cbn. auto.
  - match goal with |- invK (if ?b then _ else _) => destruct b end.
    + apply K_set; [exact K|constructor; [exact Logic.I|exact F]|]. right. cbn. auto.
    + unfold set_o. cbn [app]. apply K_pub; auto. apply MP. rewrite <- K2. exact K3.
Qed.

Theorem step_K : forall lb st st', inv cfg st -> invK st -> exec cfg lb st = Some st' -> invK st'.
Proof.
  intros lb st st' I K E. pose proof I as [A O L]. destruct lb; cbn [exec] in E.
  - destruct (nth_error (st_ors st) o) as [c|] eqn:Q; [|discriminate]. destruct c; try discriminate.
    destruct (fst (has_subscription cfg st inp)); injection E as <-; apply K_set; auto; dl.
  - destruct (nth_error (st_ors st) o) as [c|] eqn:Q; [|discriminate]. destruct c; try discriminate.
    destruct (_ =? 0); injection E as <-; apply K_set; auto; dl.
  - destruct (nth_error (st_ors st) o) as [c|] eqn:Q; [|discriminate]. destruct c; try discriminate. destruct (new_wrlock st EvNone) as [h1|] eqn:NW; [|discriminate].
    rewrite NC in E. cbn [negb andb] in E. destruct (ev_eqb _ _ && aborting _ _) eqn:G; [discriminate|]. injection E as <-.
    destruct (no_owner_new cfg st h1 I NW G) as (NO & R). unfold set_o. cbn [app]. apply (K_pub st _ _ _ _ []); auto. left. cbn. rewrite R. split; [reflexivity|lia].
  - destruct (nth_error (st_ors st) o) as [c|] eqn:Q; [|discriminate]. destruct c; try discriminate. destruct (ev_eqb _ EvSuccess) eqn:EV; [|discriminate]. apply ev_eqb_eq in EV.
    pose proof (o_ok cfg st O o _ Q) as X. cbn [ok_o] in X. destruct X as (K1 & K2 & K3 & K4 & K5 & K6). subst rid prio inp.
    destruct (next_spec cfg WF st (h_in (st_shm st)) (f_prio (h_inf (st_shm st))) (f_prio (h_inf (st_shm st)))) as [(S0 & NX)|(S1 & k & K3 & K4 & K8 & K9)].
    + rewrite S0 in E. cbn [N.eqb] in E. injection E as <-. apply K_set; auto; dl; right; cbn; auto.
    + rewrite S1 in E. cbn [N.eqb] in E. injection E as <-. unfold set_o. cbn [app]. apply (K_pub st _ _ _ _ [_]); auto; dl. right. left. cbn. rewrite <- K4. auto.
  - destruct (nth_error (st_ors st) o) as [c|] eqn:Q; [|discriminate]. destruct c; try discriminate. destruct (ev_eqb _ EvError) eqn:EV; [|discriminate]. apply ev_eqb_eq in EV. injection E as <-.
    pose proof (o_ok cfg st O o _ Q) as X. cbn [ok_o] in X. destruct X as (K1 & K2 & K3 & K4 & K5 & K6). subst rid prio inp. unfold set_o. eapply K_failed with (o := o); eauto.
  - destruct (nth_error (st_ors st) o) as [c|] eqn:Q; [|discriminate]. destruct c; try discriminate. destruct (ev_eqb _ EvRpc) eqn:EV; [|discriminate]. apply ev_eqb_eq in EV. injection E as <-.
    pose proof (o_ok cfg st O o _ Q) as X. cbn [ok_o] in X. destruct X as (K1 & K2 & K3 & K4 & K5 & K6). subst rid prio inp. unfold set_o. eapply K_failed with (o := o); eauto.
  - destruct (nth_error (st_ors st) o) as [c|] eqn:Q; [|discriminate]. destruct c; try discriminate.
    pose proof (o_ok cfg st O o _ Q) as X. cbn [ok_o] in X. destruct X as (K1 & K2 & K3 & K4 & K5). rewrite (new_wrlock_err st K1) in E. cbn [h_inf h_cnt] in E. rewrite K1 in E. cbn [ev_eqb negb] in E.
    destruct (fst (has_subscription cfg st inp)); injection E as <-.
    + apply K_abort; auto; dl. intros pr LT. right. right. cbn. repeat split; auto.
    + apply K_set; auto; dl; right; cbn; auto.
  - destruct (nth_error (st_ors st) o) as [c|] eqn:Q; [|discriminate]. destruct c; try discriminate. destruct (ev_eqb _ EvFinished) eqn:EV; [|discriminate]. apply ev_eqb_eq in EV.
    pose proof (o_ok cfg st O o _ Q) as X. cbn [ok_o] in X. destruct X as (K1 & K2 & K3 & K4 & K5 & -> & K7 & K8).
    destruct (eprio =? prio) eqn:EP; injection E as <-.
    + apply K_set; auto; dl; right; cbn; auto.
    + apply K_abort; auto; dl. intros pr LT. right. right. cbn. repeat split; auto; right; split; [auto|lia].
  - destruct (nth_error (st_ors st) o) as [c|] eqn:Q; [|discriminate]. destruct c; try discriminate. destruct (ev_eqb _ EvAbort) eqn:EV; [|discriminate]. apply ev_eqb_eq in EV.
    pose proof (o_ok cfg st O o _ Q) as X. cbn [ok_o] in X. destruct X as (K1 & K2 & K3 & K4 & K5 & -> & K7 & K8).
    destruct (eprio =? prio) eqn:EP; injection E as <-.
    + apply K_set; auto; dl; right; cbn; auto.
    + apply K_abort; auto; dl. intros pr LT. right. right. cbn. repeat split; auto; right; split; [auto|lia].
  - destruct (nth_error (st_ors st) o) as [c|] eqn:Q; [|discriminate]. destruct c; try discriminate; injection E as <-; apply K_set; auto; dl.
    + right. destruct (ev_eqb (f_ev (h_inf (st_shm st))) EvError) eqn:EV; cbn; auto. apply ev_eqb_eq in EV. auto.
  - destruct (nth_error (st_ors st) o) as [c|] eqn:Q; [|discriminate]. injection E as <-. apply K_set; auto; dl.
  - destruct (st_pcs st p); try discriminate. destruct (find_new cfg st p (h_in (st_shm st)) 0%nat) as [k|]; [|discriminate]. injection E as <-. eapply K_same with (st := st) (l := []); auto.
  - destruct (st_pcs st p); try discriminate. injection E as <-. eapply K_same with (st := st) (l := [_]); cbn [set_p st_log]; try reflexivity; auto; dl.
  - destruct (st_pcs st p) eqn:PC; try discriminate.
    + destruct (info_eqb inf (h_inf (st_shm st))) eqn:IE; injection E as <-.
      * unfold after_cb. destruct (f_ev inf); destruct ret; try destruct (find_new cfg _ p inp (S k)); eapply K_same with (st := st) (l := []); auto.
      * destruct ret; [eapply K_same with (st := st) (l := [_]); cbn [set_p st_log self_abort]; try reflexivity; auto; dl|eapply K_same with (st := st) (l := []); auto|eapply K_same with (st := st) (l := []); auto].
    + destruct (info_eqb inf (h_inf (st_shm st))) eqn:IE; injection E as <-.
      * apply info_eqb_eq in IE. pose proof (p_ok cfg st A p) as X. rewrite PC in X. cbn [pc_ok] in X. destruct X as (k' & ip & KB & KC & KN & KE). assert (LI : is_listen (f_ev (h_inf (st_shm st))) = true) by (rewrite <- IE; apply KB).
        eapply K_same with (st := st) (l := []); auto. cbn [set_p st_shm]. unfold listen_write_event. cbn [h_inf f_ev f_rid f_prio]. intros RS. split; [|auto].
        destruct (f_ev (h_inf (st_shm st))) eqn:EV; try discriminate; [left; reflexivity|]. exfalso. destruct (_ || err) in RS; destruct RS as [X|[X|X]]; discriminate.
      * destruct ret; [eapply K_same with (st := st) (l := [_]); cbn [set_p st_log self_abort]; try reflexivity; auto; dl|eapply K_same with (st := st) (l := []); auto|eapply K_same with (st := st) (l := []); auto].
  - destruct (st_pcs st p); try discriminate; destruct (lock_fail cfg); try discriminate; injection E as <-; eapply K_same with (st := st) (l := []); auto.
  - injection E as <-. eapply K_same with (st := st) (l := []); auto.
  - rewrite NS in E. discriminate.
Qed.

Theorem reach_K : forall st0 st, initial st0 -> reach cfg st0 st -> inv cfg st /\ invK st.
Proof.
  intros st0 st I R. induction R as [|l st st' R (IH1 & IH2) E].
  - split; [apply inv_init; auto|]. destruct I as (H1 & H2 & H3 & _). constructor; rewrite H3; [intros _ pr inp []|]. intros [|z l1]; discriminate.
  - split; [eapply step_inv; eauto|eapply step_K; eauto].
Qed.
End Proofs.
