(** Proofs about calling RPCs: every step keeps the invariants. *)
From Coq Require Import List Bool Arith NArith Lia.
From Verif Require Import Rpc RpcSpec RpcProofs RpcStep.
Import ListNotations.
Local Open Scope N_scope.

Section Proofs.
Variable cfg : config.
Hypothesis WF : wf cfg.
Hypothesis NS : suspends cfg = false.
Hypothesis NC : concurrent cfg = false.
Notation n := (nsubs cfg).
Notation prio := (prio_of cfg).
Notation proc := (proc_of cfg).

Record inv (st : state) : Prop := { i_A : invA cfg st; i_O : invO cfg st; i_L : invL cfg st }.

Lemma set_or_self : forall o c l, nth_error l o = Some c -> set_or o c l = l.
Proof.
  intros o c l. revert o. unfold set_or. induction l as [|x l IH]; intros o H; [destruct o; discriminate|]. destruct o; cbn in *.
  - congruence.
  - rewrite IH by exact H. reflexivity.
Qed.
Lemma state_eta : forall st, mkst (st_shm st) (st_ors st) (st_pcs st) (st_dyn st) (st_log st) = st.
Proof. intros []. reflexivity. Qed.

(** Steps of clients which leave the event record alone. *)
Lemma I_o : forall st o c0 c l, inv st -> nth_error (st_ors st) o = Some c0 -> Forall neutral l -> Forall plain l -> ~ owner c ->
  ok_o cfg (mkst (st_shm st) (set_or o c (st_ors st)) (st_pcs st) (st_dyn st) (l ++ st_log st)) o c ->
  inv (set_o o c (st_shm st) l st).
Proof.
  intros st o c0 c l [A O L] H F1 F2 W K. unfold set_o. constructor.
  - apply A_shm; auto.
  - eapply O_set; eauto; contradiction.
  - eapply L_same with (st := st) (l := l); cbn [st_shm st_log st_pcs]; auto. rewrite Forall_forall in F2 |- *. intros x X. left. auto.
Qed.

(** A client clears the event record ([l] is unremarkable). *)
Lemma I_clear : forall st o c0 l, inv st -> nth_error (st_ors st) o = Some c0 -> owner c0 -> Forall neutral l -> Forall plain l ->
  inv (set_o o OIdle (set_event EvNone (st_shm st)) l st).
Proof.
  intros st o c0 l [A O L] H W F1 F2. unfold set_o. constructor.
  - apply A_shm; auto. right. cbn. repeat split; try discriminate; auto.
  - eapply O_set; eauto; [|exact Logic.I]. right. eapply others; eauto.
  - eapply L_same with (st := st) (l := l); cbn [st_shm st_log st_pcs]; auto; cbn.
    + rewrite Forall_forall in F2 |- *. intros x X. left. auto.
    + split; discriminate.
Qed.

(** Before aborts: the first of them, the next one or the end. *)
Lemma there_avail : forall st inp k rid, invA cfg st -> there cfg st k -> accepted (st_log st) k rid -> rid = f_rid (h_inf (st_shm st)) -> inp = h_in (st_shm st) -> avail cfg st inp k.
Proof.
  intros st inp k rid A (T1 & T2 & T3) (out & AC) -> ->. destruct (c_call cfg st A _ _ _ _ _ AC) as (_ & ip & P1 & P2).
  assert (ip = h_in (st_shm st)) by (apply (s_in cfg st A _ _ P1); reflexivity). subst ip. repeat (split; [assumption|]). exact P2.
Qed.

Lemma A_log : forall st l, invA cfg st -> Forall neutral l -> invA cfg (mkst (st_shm st) (st_ors st) (st_pcs st) (st_dyn st) (l ++ st_log st)).
Proof. intros. apply A_shm; auto. Qed.
Lemma L_log : forall st l, invA cfg st -> invL cfg st -> Forall plain l -> invL cfg (mkst (st_shm st) (st_ors st) (st_pcs st) (st_dyn st) (l ++ st_log st)).
Proof.
  intros st l A L F. eapply L_same with (st := st) (l := l); cbn [st_shm st_log st_pcs]; auto. rewrite Forall_forall in F |- *. intros x X. left. auto.
Qed.

(** The aborts are over. *)
Lemma I_aborted : forall st o c0 l rid ep h', inv st -> nth_error (st_ors st) o = Some c0 -> owner c0 -> Forall neutral l -> Forall plain l ->
  failed (st_log st) o rid ep -> (forall k, there cfg st k -> accepted (st_log st) k rid -> ep < prio k -> told cfg (l ++ st_log st) k rid) ->
  f_rid (h_inf h') = f_rid (h_inf (st_shm st)) -> f_ev (h_inf h') = EvNone -> f_prio (h_inf h') = f_prio (h_inf (st_shm st)) -> h_in h' = h_in (st_shm st) ->
  inv (set_o o OIdle h' (OAborted o rid ep :: l) st).
Proof.
  intros st o c0 l rid ep h' [A O L] H W F1 F2 FL TO R E P IN. unfold set_o. constructor.
  - apply A_shm; auto; [constructor; [exact Logic.I|exact F1]|]. right. rewrite E. cbn. repeat split; try discriminate; auto.
  - eapply O_set; eauto; [|exact Logic.I]. right. eapply others; eauto.
  - set (s1 := mkst (st_shm st) (st_ors st) (st_pcs st) (st_dyn st) (l ++ st_log st)).
    change (invL cfg (mkst h' (set_or o OIdle (st_ors st)) (st_pcs s1) (st_dyn s1) (OAborted o rid ep :: st_log s1))).
    apply L_aborted; auto.
    + apply A_log; auto.
    + apply L_log; auto.
    + apply failed_app. exact FL.
    + intros k T (out & AC) LT. apply TO; auto. exists out. apply (in_neutral l); [exact F1|exact (fun x => x)|exact AC].
Qed.

(** An event is written. *)
Lemma I_pub : forall st o c0 c l h' inf inp, inv st -> nth_error (st_ors st) o = Some c0 -> Forall neutral l -> Forall plain l ->
  (forall o' c', o' <> o -> nth_error (st_ors st) o' = Some c' -> ~ owner c') ->
  may_pub (st_shm st) inf inp -> h_inf h' = inf -> h_in h' = inp -> h_cnt h' = 1 ->
  ok_o cfg (mkst h' (set_or o c (st_ors st)) (st_pcs st) (st_dyn st) (OPub inf inp :: l ++ st_log st)) o c ->
  inv (set_o o c h' (OPub inf inp :: l) st).
Proof.
  intros st o c0 c l h' inf inp [A O L] H F1 F2 OT M H1 H2 H3 K. unfold set_o.
  set (s1 := mkst (st_shm st) (st_ors st) (st_pcs st) (st_dyn st) (l ++ st_log st)).
  assert (A1 : invA cfg s1) by (apply A_log; auto). assert (L1 : invL cfg s1) by (apply L_log; auto).
  constructor.
  - exact (A_pub cfg s1 inf inp (set_or o c (st_ors st)) h' A1 M H1 H2 H3).
  - eapply O_set; eauto.
  - exact (L_pub cfg s1 inf inp (set_or o c (st_ors st)) h' A1 L1 M H1).
Qed.

(** The loop sending aborts. *)
Lemma I_abort : forall st o c0 inp rid cur ep h l, inv st -> nth_error (st_ors st) o = Some c0 -> owner c0 -> rid = f_rid (h_inf (st_shm st)) -> inp = h_in (st_shm st) ->
  failed (st_log st) o rid ep -> Forall neutral l -> Forall plain l ->
  f_rid (h_inf h) = f_rid (h_inf (st_shm st)) -> f_prio (h_inf h) = f_prio (h_inf (st_shm st)) -> h_in h = h_in (st_shm st) ->
  (forall k, avail cfg st inp k -> cur <= prio k -> ep < prio k -> told cfg (l ++ st_log st) k rid) ->
  (forall pr, pr < cur -> may_pub (st_shm st) (mkinfo EvAbort rid pr) inp) ->
  inv (abort_next cfg st o inp rid cur ep 1 h l).
Proof.
  intros st o c0 inp rid cur ep h l I H W R IN FL F1 F2 h1 h2 h3 TO MP. unfold abort_next.
  assert (AB : (forall k, avail cfg st inp k -> ep < prio k -> told cfg (l ++ st_log st) k rid) -> inv (set_o o OIdle (set_event EvNone h) (OAborted o rid ep :: l) st)).
  { intros T. apply (I_aborted st o c0 l rid ep); auto. intros k K1 K2 K3. apply T; [|exact K3]. eapply there_avail; eauto. apply (i_A st I). }
  destruct (next_spec cfg WF st inp cur cur) as [(S0 & NX)|(S1 & k & K1 & K2 & K3 & K4)].
  - rewrite S0. cbn [N.eqb negb andb]. apply AB. intros k K1 K2. apply TO; auto.
  - rewrite S1. cbn [N.eqb Pos.eqb negb andb]. destruct (ep =? fst (next_subscription cfg st inp cur cur)) eqn:EP.
    + replace (u32 (1 + 4294967296 - 1)) with 0 by reflexivity. cbn [N.eqb]. apply AB. intros k' K5 K6. apply N.eqb_eq in EP. apply TO; auto.
      destruct (N.lt_ge_cases (prio k') cur) as [X|X]; [|exact X]. specialize (K4 k' K5 X). lia.
    + cbn [N.eqb]. rewrite <- K2. apply (I_pub st o c0); auto.
      * eapply others; eauto. apply (i_O st I).
      * cbn [ok_o st_shm st_log write_event h_orig h_inf f_rid f_prio h_in f_ev]. repeat (split; [solve [auto]|]). split; [exact (failed_app (_ :: l) _ _ _ _ FL)|].
        intros k' K5 K6 K7. apply (told_app cfg [_]). apply TO; auto. destruct (N.lt_ge_cases (prio k') cur) as [X|X]; [|exact X]. specialize (K4 k' K5 X). lia.
Qed.

(** Listeners. *)
Lemma I_p : forall st p c d l, inv st -> (forall k, d k = st_dyn st k \/ (y_esusp (d k) = y_esusp (st_dyn st k) /\ (y_ev (d k) = EvRpc -> accepted (st_log st) k (y_rid (d k))))) ->
  (st_pcs st p = Dead -> c = Dead) ->
  (pc_inf c = None \/ pc_inf c = pc_inf (st_pcs st p) \/ (pc_inf c = Some (h_inf (st_shm st)) /\ is_listen (f_ev (h_inf (st_shm st))) = true)) ->
  pc_ok cfg (st_shm st) (st_log st) p c ->
  (l = [] \/ exists k inf, l = [OSelf k (f_rid inf)] /\ pc_inf (st_pcs st p) = Some inf /\ inf <> h_inf (st_shm st)) ->
  inv (mkst (st_shm st) (st_ors st) (upd (st_pcs st) p c) d (l ++ st_log st)).
Proof.
  intros st p c d l [A O L] D DE P K LL.
  assert (AL : forall k, alive cfg (mkst (st_shm st) (st_ors st) (upd (st_pcs st) p c) d (l ++ st_log st)) k = true -> alive cfg st k = true).
  { intros k. unfold alive. cbn [st_pcs]. unfold upd. destruct (Nat.eqb (proc_of cfg k) p) eqn:E; [|auto]. apply Nat.eqb_eq in E. rewrite E. destruct (st_pcs st p) eqn:E2; auto. rewrite DE by reflexivity. auto. }
  assert (SU : forall k, y_esusp (d k) = false -> y_esusp (st_dyn st k) = false).
  { intros k X. destruct (D k) as [Y|(Y & _)]; rewrite <- Y; exact X. }
  assert (AV : forall inp k, avail cfg (mkst (st_shm st) (st_ors st) (upd (st_pcs st) p c) d (l ++ st_log st)) inp k -> avail cfg st inp k).
  { intros inp k (X1 & X2 & X3 & X4). repeat (split; [solve [auto]|]). exact X4. }
  constructor.
  - apply A_pc; auto.
    + intros k. destruct (D k) as [X|(_ & X)]; auto.
    + destruct P as [P|[P|(P & _)]]; auto.
  - eapply O_pcs with (st := st) (l := l); auto.
  - eapply L_same with (st := st) (l := l); cbn [st_shm st_log st_pcs]; auto.
    + intros k (X1 & X2 & X3). split; [auto|]. split; auto.
    + destruct LL as [->|(k & inf & -> & X & _)]; [constructor|]. constructor; [|constructor]. right. exists k, inf, p. auto.
    + intros p0 inf. unfold upd. destruct (Nat.eqb p0 p) eqn:E; [|auto]. apply Nat.eqb_eq in E. subst p0. intros X. destruct P as [P|[P|(P & Q)]]; [congruence|left; congruence|].
      right. rewrite P in X. injection X as <-. auto.
Qed.

Lemma find_new_spec : forall st p inp i k, find_new cfg st p inp i = Some k -> (i <= k)%nat /\ (k < n)%nat /\ proc k = p /\ is_new_event cfg st inp k = true.
Proof.
  intros st p inp i k H. unfold find_new in H. apply find_some in H. destruct H as (H1 & H2). apply in_seq in H1. apply andb_prop in H2. destruct H2 as (H2 & H3). apply Nat.eqb_eq in H2.
  repeat split; auto; lia.
Qed.
Lemma is_new_spec : forall st inp k, is_new_event cfg st inp k = true ->
  is_listen (f_ev (h_inf (st_shm st))) = true /\ f_prio (h_inf (st_shm st)) = prio k /\ filt cfg inp k = true /\ y_susp (st_dyn st k) = false /\
  ~ (f_rid (h_inf (st_shm st)) = y_rid (st_dyn st k) /\ f_ev (h_inf (st_shm st)) = y_ev (st_dyn st k)) /\
  (f_ev (h_inf (st_shm st)) = EvAbort -> y_ev (st_dyn st k) = EvRpc /\ y_rid (st_dyn st k) = f_rid (h_inf (st_shm st))).
Proof.
  intros st inp k H. unfold is_new_event in H. rewrite !andb_true_iff in H. destruct H as (((((H1 & H2) & H3) & H4) & H5) & H6).
  apply N.eqb_eq in H4. apply negb_true_iff in H5, H2, H3. repeat (split; [solve [auto]|]). split.
  - intros (X & Y). rewrite X, Y, Nat.eqb_refl in H2. destruct (y_ev (st_dyn st k)); discriminate.
  - intros X. rewrite X in H3. cbn in H3. apply orb_false_iff in H3. destruct H3 as (H3 & H7). apply negb_false_iff in H3, H7. apply ev_eqb_eq in H3. apply Nat.eqb_eq in H7. auto.
Qed.

Lemma no_owner_new : forall st h1, inv st -> new_wrlock st EvNone = Some h1 -> ev_eqb (f_ev (h_inf (st_shm st))) EvError && aborting st (f_rid (h_inf (st_shm st))) = false ->
  (forall o c, nth_error (st_ors st) o = Some c -> ~ owner c) /\ f_rid (h_inf h1) = f_rid (h_inf (st_shm st)).
Proof.
  intros st h1 [A O L] H G. unfold new_wrlock in H.
  assert (R : f_rid (h_inf h1) = f_rid (h_inf (st_shm st))).
  { destruct (negb (ev_eqb (f_ev (h_inf (st_shm st))) EvNone) && negb (ev_eqb (f_ev (h_inf (st_shm st))) EvNone)).
    - destruct (ev_eqb _ _ || ev_eqb _ _) in H; [|discriminate]. injection H as <-. cbn [h_inf]. unfold recover. destruct (h_orig (st_shm st)) as [q|]; [destruct (or_alive st q)|destruct (ev_eqb (f_ev (h_inf (st_shm st))) EvNone)]; reflexivity.
    - destruct (ev_eqb _ _ || ev_eqb _ _) in H; [|discriminate]. injection H as <-. reflexivity. }
  split; [|exact R]. intros o c Q W. pose proof (owner_ev cfg st o c O Q W) as NE. apply ev_eqb_neq in NE. rewrite NE in H. cbn [negb andb] in H.
  unfold recover in H. pose proof (o_ok cfg st O o c Q) as K.
  assert (SO : h_orig (st_shm st) = Some o \/ exists inp rid, c = OAbort inp rid).
  { destruct c; try contradiction; cbn [ok_o] in K; [left; apply K|right; eauto|left; apply K]. }
  destruct SO as [SO|(inp & rid & ->)].
  - rewrite SO in H. assert (X : or_alive st o = true) by (unfold or_alive; rewrite Q; destruct c; try contradiction; reflexivity). rewrite X in H. rewrite !NE in H. discriminate.
  - destruct K as (K1 & K2 & K3 & _). rewrite K1 in G. cbn [ev_eqb andb] in G. unfold aborting in G.
    assert (X : existsb (fun c => match c with OAbort _ r => Nat.eqb r (f_rid (h_inf (st_shm st))) | _ => false end) (st_ors st) = true); [|congruence].
    apply existsb_exists. exists (OAbort inp rid). split; [eapply nth_error_In; exact Q|]. rewrite K3. apply Nat.eqb_refl.
Qed.

Lemma new_wrlock_err : forall st, f_ev (h_inf (st_shm st)) = EvError ->
  new_wrlock st EvError = Some (mkshm (h_inf (st_shm st)) (h_cnt (st_shm st)) None (h_in (st_shm st)) (h_out (st_shm st))).
Proof. intros st E. unfold new_wrlock. rewrite E. cbn [ev_eqb negb andb orb]. rewrite E. reflexivity. Qed.

Ltac pn := try match goal with
  | |- Forall _ _ => repeat constructor
  | |- owner _ => exact Logic.I
  | |- ~ owner _ => exact (fun x => x)
  | |- ok_o _ _ _ OIdle => exact Logic.I
  | |- ok_o _ _ _ ODead => exact Logic.I
  | |- ok_o _ _ _ OCrash => exact Logic.I
  | |- ok_o _ _ _ _ => cbn [ok_o st_shm st_log write_event h_orig h_inf f_rid f_prio h_in f_ev]; unfold rse; repeat (split; [solve [auto]|])
  end.

Theorem step_inv : forall lb st st', inv st -> exec cfg lb st = Some st' -> inv st'.
Proof.
  intros lb st st' I E. pose proof I as [A O L]. destruct lb; cbn [exec] in E.
  - (* LStart *)
    destruct (nth_error (st_ors st) o) as [c|] eqn:Q; [|discriminate]. destruct c; try discriminate.
    destruct (has_spec cfg WF st inp) as (H1 & H2). destruct (fst (has_subscription cfg st inp)) eqn:B; injection E as <-; apply (I_o st o OIdle); auto; pn.
    intros k AV. apply (H1 k AV).
  - (* LFirst *)
    destruct (nth_error (st_ors st) o) as [c|] eqn:Q; [|discriminate]. destruct c; try discriminate. pose proof (o_ok cfg st O o _ Q) as (K1 & K2).
    assert (U : u32 (cur + 1) = cur + 1) by (unfold u32; apply N.mod_small; lia). rewrite U in E.
    destruct (next_spec cfg WF st inp (cur + 1) cur) as [(S0 & NX)|(S1 & k & K3 & K4 & K5 & K6)].
    + rewrite S0 in E. cbn [N.eqb] in E. injection E as <-. eapply I_o; eauto; pn.
    + rewrite S1 in E. cbn [N.eqb] in E. injection E as <-. eapply I_o; eauto; pn. intros k' AV. rewrite <- K4. apply K6; [exact AV|]. specialize (K2 k' AV). lia.
  - (* LNew *)
    destruct (nth_error (st_ors st) o) as [c|] eqn:Q; [|discriminate]. destruct c; try discriminate. destruct (new_wrlock st EvNone) as [h1|] eqn:NW; [|discriminate].
    rewrite NC in E. cbn [negb andb] in E. destruct (ev_eqb _ _ && aborting _ _) eqn:G; [discriminate|]. injection E as <-.
    destruct (no_owner_new st h1 I NW G) as (NO & R). pose proof (o_ok cfg st O o _ Q) as (-> & K2). rewrite R. eapply I_pub; eauto; pn.
    + cbn. left. cbn. split; [reflexivity|lia].
    + intros k AV LT. exfalso. specialize (K2 k AV). lia.
  - (* LOk *)
    destruct (nth_error (st_ors st) o) as [c|] eqn:Q; [|discriminate]. destruct c; try discriminate. destruct (ev_eqb _ EvSuccess) eqn:EV; [|discriminate]. apply ev_eqb_eq in EV.
    pose proof (o_ok cfg st O o _ Q) as K. cbn [ok_o] in K. destruct K as (K1 & K2 & K3 & K4 & K5 & K6). subst rid prio inp.
    destruct (next_spec cfg WF st (h_in (st_shm st)) (f_prio (h_inf (st_shm st))) (f_prio (h_inf (st_shm st)))) as [(S0 & NX)|(S1 & k & K3 & K4 & K8 & K9)].
    + rewrite S0 in E. cbn [N.eqb] in E. injection E as <-. unfold set_o. constructor.
      * apply A_shm; auto; [pn|]. right. cbn. repeat split; try discriminate; auto.
      * eapply O_set; eauto; try exact Logic.I; try contradiction. right. eapply others; eauto. exact Logic.I.
      * set (s1 := mkst (st_shm st) (st_ors st) (st_pcs st) (st_dyn st) ([OOk o (f_rid (h_inf (st_shm st))) (f_prio (h_inf (st_shm st)))] ++ st_log st)).
        refine (L_reply cfg WF s1 o _ (set_event EvNone (st_shm st)) _ _ EV _ eq_refl eq_refl).
        -- apply A_log; auto. pn.
        -- apply L_log; auto. pn.
        -- intros k AV. split; [apply NX; exact AV|]. intros LT. apply (accepted_app [_]). apply K6; auto.
    + rewrite S1 in E. cbn [N.eqb] in E. injection E as <-. rewrite <- K4. eapply I_pub; eauto; pn.
      * eapply others; eauto. exact Logic.I.
      * right. left. cbn. repeat split; auto. 
      * intros k' AV LT. destruct (N.lt_ge_cases (prio_of cfg k') (f_prio (h_inf (st_shm st)))) as [X|X].
        -- specialize (K9 k' AV X). lia.
        -- apply (accepted_app [_; _]). destruct (N.eq_dec (prio_of cfg k') (f_prio (h_inf (st_shm st)))) as [Y|Y]; [|apply K6; [exact AV|lia]].
           destruct (c_succ cfg st A EV) as (k0 & Z1 & Z2 & Z3). assert (k0 = k') by (apply (prio_inj cfg WF); [exact Z1|apply AV|congruence]). subst k0. eexists. apply newest_in in Z3. exact Z3.
  - (* LErr *)
    destruct (nth_error (st_ors st) o) as [c|] eqn:Q; [|discriminate]. destruct c; try discriminate. destruct (ev_eqb _ EvError) eqn:EV; [|discriminate]. apply ev_eqb_eq in EV. injection E as <-.
    pose proof (o_ok cfg st O o _ Q) as K. cbn [ok_o] in K. destruct K as (K1 & K2 & K3 & K4 & K5 & K6). subst rid prio inp. unfold set_o. constructor.
    + apply A_shm; auto; [pn|]. right. cbn. repeat split; try discriminate; auto. apply (s_cnt cfg st A). auto.
    + eapply O_set; eauto.
      * right. eapply others; eauto. exact Logic.I.
      * cbn. repeat split; auto. left. left. reflexivity.
      * intros _. eapply others; eauto. exact Logic.I.
    + eapply L_fail with (o := o); eauto.
  - (* LTimeout *)
    destruct (nth_error (st_ors st) o) as [c|] eqn:Q; [|discriminate]. destruct c; try discriminate. destruct (ev_eqb _ EvRpc) eqn:EV; [|discriminate]. apply ev_eqb_eq in EV. injection E as <-.
    pose proof (o_ok cfg st O o _ Q) as K. cbn [ok_o] in K. destruct K as (K1 & K2 & K3 & K4 & K5 & K6). subst rid prio inp. unfold set_o. constructor.
    + apply A_shm; auto; [pn|]. right. cbn. repeat split; try discriminate; auto. apply (s_cnt cfg st A). auto.
    + eapply O_set; eauto.
      * right. eapply others; eauto. exact Logic.I.
      * cbn. repeat split; auto. right. left. reflexivity.
      * intros _. eapply others; eauto. exact Logic.I.
    + eapply L_fail with (o := o); eauto.
  - (* LAbort *)
    destruct (nth_error (st_ors st) o) as [c|] eqn:Q; [|discriminate]. destruct c; try discriminate.
    pose proof (o_ok cfg st O o _ Q) as K. cbn [ok_o] in K. destruct K as (K1 & K2 & K3 & K4 & K5). rewrite (new_wrlock_err st K1) in E. cbn [h_inf h_cnt] in E. rewrite K1 in E. cbn [ev_eqb negb] in E.
    assert (C1 : h_cnt (st_shm st) = 1) by (apply (s_cnt cfg st A); auto). rewrite C1 in E.
    destruct (has_spec cfg WF st inp) as (H1 & H2). destruct (fst (has_subscription cfg st inp)) eqn:B; injection E as <-.
    + assert (U : u32 (snd (has_subscription cfg st inp) + 1) = snd (has_subscription cfg st inp) + 1) by (unfold u32; apply N.mod_small; lia). rewrite U.
      eapply I_abort; eauto; pn.
      * intros k AV LE LT. exfalso. destruct (H1 k AV). lia.
      * intros pr LT. right. right. cbn. repeat split; auto.
    + eapply I_aborted; eauto; pn. intros k T AC LT. exfalso. destruct (H1 k) as (X & _); [eapply there_avail; eauto|discriminate].
  - (* LAOk *)
    destruct (nth_error (st_ors st) o) as [c|] eqn:Q; [|discriminate]. destruct c; try discriminate. destruct (ev_eqb _ EvFinished) eqn:EV; [|discriminate]. apply ev_eqb_eq in EV.
    pose proof (o_ok cfg st O o _ Q) as K. cbn [ok_o] in K. destruct K as (K1 & K2 & K3 & K4 & K5 & -> & K7 & K8).
    assert (TO : forall k, avail cfg st inp k -> prio <= prio_of cfg k -> eprio < prio_of cfg k -> told cfg (st_log st) k rid).
    { intros k AV LE LT. destruct (N.eq_dec (prio_of cfg k) prio) as [Y|Y]; [|apply K8; auto; lia].
      destruct (c_fin cfg st A EV) as (k0 & r & out & Z1 & Z2 & Z3). assert (k0 = k) by (apply (prio_inj cfg WF); [exact Z1|apply AV|congruence]). subst k0. left. rewrite K2. eauto. }
    destruct (eprio =? prio) eqn:EP; injection E as <-.
    + apply N.eqb_eq in EP. eapply I_aborted; eauto; pn. intros k T AC LT. apply TO; [eapply there_avail; eauto|lia|exact LT].
    + eapply I_abort; eauto; pn. intros pr LT. right. right. cbn. repeat split; auto. right. split; [auto|]. lia.
  - (* LATimeout *)
    destruct (nth_error (st_ors st) o) as [c|] eqn:Q; [|discriminate]. destruct c; try discriminate. destruct (ev_eqb _ EvAbort) eqn:EV; [|discriminate]. apply ev_eqb_eq in EV.
    pose proof (o_ok cfg st O o _ Q) as K. cbn [ok_o] in K. destruct K as (K1 & K2 & K3 & K4 & K5 & -> & K7 & K8).
    assert (TO : forall k, avail cfg st inp k -> prio <= prio_of cfg k -> eprio < prio_of cfg k -> told cfg ([OATimeout rid prio] ++ st_log st) k rid).
    { intros k AV LE LT. destruct (N.eq_dec (prio_of cfg k) prio) as [Y|Y]; [|apply told_app; apply K8; auto; lia]. right. left. rewrite Y. reflexivity. }
    destruct (eprio =? prio) eqn:EP; injection E as <-.
    + apply N.eqb_eq in EP. eapply I_aborted; eauto; pn. intros k T AC LT. apply TO; [eapply there_avail; eauto|lia|exact LT].
    + eapply I_abort; eauto; pn. intros pr LT. right. right. cbn. repeat split; auto. right. split; [auto|]. lia.
  - (* LFail *)
    destruct (nth_error (st_ors st) o) as [c|] eqn:Q; [|discriminate]. destruct c; try discriminate; injection E as <-.
    + eapply I_o; eauto; pn.
    + destruct (ev_eqb (f_ev (h_inf (st_shm st))) EvError) eqn:EV; [|eapply I_clear; eauto; pn]. apply ev_eqb_eq in EV. unfold set_o. constructor.
      * apply A_shm; auto; [pn|]. right. cbn. repeat split; try discriminate; auto; [right; right; exact EV|]. apply (s_cnt cfg st A). auto.
      * eapply O_set; eauto; try exact Logic.I; try contradiction. right. eapply others; eauto. exact Logic.I.
      * eapply L_same with (st := st) (l := [OFailed o rid]); cbn [st_shm st_log st_pcs]; auto; cbn; try rewrite EV; auto. constructor; [left; exact Logic.I|constructor].
    + eapply I_o; eauto; pn.
    + eapply I_clear; eauto; pn.
  - (* LDieO *)
    destruct (nth_error (st_ors st) o) as [c|] eqn:Q; [|discriminate]. injection E as <-. eapply I_o; eauto; pn.
  - (* LBegin *)
    destruct (st_pcs st p) eqn:PC; try discriminate. destruct (find_new cfg st p (h_in (st_shm st)) 0%nat) as [k|] eqn:FN; [|discriminate]. injection E as <-.
    destruct (find_new_spec _ _ _ _ _ FN) as (_ & K1 & K2 & K3). destruct (is_new_spec _ _ _ K3) as (N1 & N2 & N3 & N4 & N5 & N6).
    apply (I_p st p); auto; [congruence|]. cbn [pc_ok]. split; [reflexivity|]. repeat (split; [solve [auto using (s_cur cfg st A)]|]). split.
    + intros inf' inp' P1 P2 P3 P4. apply (s_low cfg st A (or_introl P3) inf' inp'); auto.
    + intros AB. destruct (N6 AB) as (Y1 & Y2). rewrite <- Y2. apply (c_dyn cfg st A k Y1).
  - (* LCall *)
    destruct (st_pcs st p) eqn:PC; try discriminate. injection E as <-. unfold set_p. cbn [app].
    assert (AL : forall k0, alive cfg (mkst (st_shm st) (st_ors st) (upd (st_pcs st) p (Called k valid r out inf inp)) (st_dyn st) (OCall k (f_ev inf) (f_rid inf) r out :: st_log st)) k0 = true -> alive cfg st k0 = true).
    { intros k0. unfold alive. cbn [st_pcs]. unfold upd. destruct (Nat.eqb (proc_of cfg k0) p) eqn:X; [|auto]. apply Nat.eqb_eq in X. rewrite X, PC. auto. }
    constructor.
    + apply (A_call cfg WF); auto.
    + eapply O_pcs with (st := st) (l := [OCall k (f_ev inf) (f_rid inf) r out]); auto. intros ip k0 (X1 & X2 & X3 & X4). repeat (split; [solve [auto]|]). exact X4.
    + eapply L_same with (st := st) (l := [OCall k (f_ev inf) (f_rid inf) r out]); cbn [st_shm st_log st_pcs]; auto.
      * intros ip k0 (X1 & X2 & X3 & X4). repeat (split; [solve [auto]|]). exact X4.
      * intros k0 (X1 & X2 & X3). split; [auto|]. split; auto.
      * constructor; [left; exact Logic.I|constructor].
      * intros p0 i. unfold upd. destruct (Nat.eqb p0 p) eqn:X; [|auto]. apply Nat.eqb_eq in X. subst p0. rewrite PC. auto.
  - (* LLock *)
    destruct (st_pcs st p) eqn:PC; try discriminate.
    + destruct (info_eqb inf (h_inf (st_shm st))) eqn:IE.
      * apply info_eqb_eq in IE. injection E as <-. pose proof (p_ok cfg st A p) as K. rewrite PC in K. cbn [pc_ok] in K. destruct K as (V0 & KB & KC & KN). subst valid.
        destruct KB as (B1 & B2 & B3 & B4 & B5 & B6 & B7 & B8).
        assert (PB : pcb cfg (st_log st) p k inf inp) by (repeat (split; [assumption|]); assumption).
        assert (GO : (f_ev inf = EvRpc -> ret = ROk) -> forall d, (forall k0, d k0 = if Nat.eqb k0 k then mkdyn (y_esusp (st_dyn st k)) (y_susp (st_dyn st k)) (f_rid (h_inf (st_shm st))) (f_ev (h_inf (st_shm st))) else st_dyn st k0) ->
          inv (match find_new cfg (mkst (st_shm st) (st_ors st) (st_pcs st) d (st_log st)) p inp (S k) with
               | Some j => set_p p (Call j (0 + 1) inf inp) (st_shm st) [] (mkst (st_shm st) (st_ors st) (st_pcs st) d (st_log st))
               | None => set_p p (Fin (last_sub cfg p) (0 + 1) ret false out inf) (st_shm st) [] (mkst (st_shm st) (st_ors st) (st_pcs st) d (st_log st)) end)).
        { intros RO d D. destruct (find_new cfg _ p inp (S k)) as [j|] eqn:FN.
          - exfalso. destruct (find_new_spec _ _ _ _ _ FN) as (J1 & J2 & J3 & J4). destruct (is_new_spec _ _ _ J4) as (_ & J5 & _). cbn [st_shm] in J5. rewrite <- IE, <- B3 in J5.
            apply (prio_inj cfg WF) in J5; auto. lia.
          - unfold set_p. cbn [st_shm st_ors st_pcs st_dyn st_log]. apply (I_p st p); auto.
            + intros k0. rewrite D. destruct (Nat.eqb k0 k) eqn:X; [|auto]. apply Nat.eqb_eq in X. subst k0. right. split; [reflexivity|]. cbn. rewrite <- IE. intros Y. rewrite Y in KC. rewrite (RO Y) in KC. eexists; exact KC.
            + congruence.
            + right. left. rewrite PC. reflexivity.
            + cbn [pc_ok]. exists k, inp. split; [exact PB|]. split; [exact KC|]. split; [exact KN|]. split; [reflexivity|]. auto. }
        unfold after_cb. destruct (f_ev inf) eqn:EV; try discriminate; [destruct ret|].
        -- apply GO; auto.
        -- apply (I_p st p); auto; try congruence; exact Logic.I.
        -- unfold set_p. cbn [st_shm st_ors st_pcs st_dyn st_log]. apply (I_p st p); auto.
           ++ intros k0. unfold upd. destruct (Nat.eqb k0 k) eqn:X; [|auto]. apply Nat.eqb_eq in X. subst k0. right. split; [reflexivity|]. discriminate.
           ++ congruence.
           ++ right. left. rewrite PC. reflexivity.
           ++ cbn [pc_ok]. exists k, inp. rewrite EV. repeat (split; [solve [auto]|]). auto.
        -- apply GO; [discriminate|]. auto.
      * apply info_eqb_neq in IE. injection E as <-. apply (I_p st p); auto; try congruence; try exact Logic.I. rewrite PC. destruct ret; cbn [self_abort]; auto. right. exists k, inf. auto.
    + destruct (info_eqb inf (h_inf (st_shm st))) eqn:IE.
      * apply info_eqb_eq in IE. injection E as <-. unfold set_p. cbn [app].
        pose proof (p_ok cfg st A p) as K. rewrite PC in K. cbn [pc_ok] in K. destruct K as (k' & ip & KB & KC & KN & KE).
        assert (LI : is_listen (f_ev (h_inf (st_shm st))) = true) by (rewrite <- IE; apply KB).
        set (st1 := mkst (listen_write_event (st_shm st) valid err out) (st_ors st) (upd (st_pcs st) p Idle) (st_dyn st) (st_log st)).
        assert (AL : forall k0, alive cfg st1 k0 = true -> alive cfg st k0 = true).
        { intros k0. unfold alive, st1. cbn [st_pcs]. unfold upd. destruct (Nat.eqb (proc_of cfg k0) p) eqn:X; [|auto]. apply Nat.eqb_eq in X. rewrite X, PC. auto. }
        assert (EV : f_ev (h_inf (listen_write_event (st_shm st) valid err out)) = f_ev (h_inf (st_shm st)) \/ (f_ev (h_inf (st_shm st)) = EvRpc /\ rse (f_ev (h_inf (listen_write_event (st_shm st) valid err out)))) \/
          (f_ev (h_inf (st_shm st)) = EvAbort /\ f_ev (h_inf (listen_write_event (st_shm st) valid err out)) = EvFinished)).
        { unfold listen_write_event. cbn [h_inf f_ev]. destruct (_ || err); [|auto]. destruct (f_ev (h_inf (st_shm st))); try discriminate; unfold rse; destruct err; auto 10. }
        constructor.
        -- eapply A_write; eauto.
        -- eapply O_pcs with (st := st) (l := []); auto. intros inp k0 (X1 & X2 & X3 & X4). repeat (split; [solve [auto]|]). exact X4.
        -- eapply L_same with (st := st) (l := []); cbn [st_shm st_log st_pcs]; auto.
           ++ intros inp k0 (X1 & X2 & X3 & X4). repeat (split; [solve [auto]|]). exact X4.
           ++ intros k0 (X1 & X2 & X3). split; [auto|]. split; auto.
           ++ intros X. rewrite X in LI. discriminate.
           ++ intros X1 X2. change (st_shm st1) with (listen_write_event (st_shm st) valid err out). destruct EV as [EV|[(EV & _)|(_ & EV)]]; [rewrite EV; auto|contradiction|rewrite EV; split; discriminate].
           ++ intros p0 i. change (st_pcs st1) with (upd (st_pcs st) p Idle). unfold upd. destruct (Nat.eqb p0 p) eqn:X; [|auto]. discriminate.
      * apply info_eqb_neq in IE. injection E as <-. apply (I_p st p); auto; try congruence; try exact Logic.I. rewrite PC. destruct ret; cbn [self_abort]; auto. right. exists k, inf. auto.
  - (* LLockFail *)
    destruct (st_pcs st p) eqn:PC; try discriminate; destruct (lock_fail cfg); try discriminate; injection E as <-; apply (I_p st p); auto; try congruence; exact Logic.I.
  - (* LDieP *)
    injection E as <-. apply (I_p st p); auto. exact Logic.I.
  - rewrite NS in E. discriminate.
Qed.

Lemma inv_init : forall st, initial st -> inv st.
Proof.
  intros st (H1 & H2 & H3 & H4 & H5 & H6). constructor.
  - constructor; rewrite ?H1, ?H3; try (intros; contradiction); try (cbn; intros; try contradiction; discriminate).
    + intros [X|[X|X]]; discriminate.
    + intros [X|X]; discriminate.
    + intros p. rewrite H5. exact Logic.I.
    + intros p inf. rewrite H5. discriminate.
    + intros k X. destruct (H6 k) as (Y & _). congruence.
    + intros [|x l1]; discriminate.
    + intros [|x l1]; discriminate.
  - constructor.
    + intros o c Q. rewrite (H4 o c Q). exact Logic.I.
    + intros o o' i r i' r' Q. specialize (H4 _ _ Q). discriminate.
  - constructor; rewrite ?H1, ?H3.
    + intros o rid ep [[]|[]].
    + intros o rid out [].
    + intros [|x l1]; discriminate.
    + intros [|x l1]; discriminate.
Qed.

Theorem reach_inv : forall st0 st, initial st0 -> reach cfg st0 st -> inv st.
Proof. intros st0 st I R. induction R; [apply inv_init; exact I|]. eapply step_inv; eauto. Qed.
End Proofs.
