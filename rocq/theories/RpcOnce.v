(** Proofs about calling RPCs when listeners never fail to lock the event record: callbacks are
    called once, those that accepted learn that the RPC failed. *)
From Coq Require Import List Bool Arith NArith Lia.
From Verif Require Import Rpc RpcSpec RpcProofs RpcStep RpcInv.
Import ListNotations.
Local Open Scope N_scope.

Section Proofs.
Variable cfg : config.
Hypothesis WF : wf cfg.
Hypothesis NS : suspends cfg = false.
Hypothesis NC : concurrent cfg = false.
Hypothesis NL : lock_fail cfg = false.
Notation n := (nsubs cfg).
Notation prio := (prio_of cfg).
Notation proc := (proc_of cfg).

Definition pc_ret (c : pc) : option result := match c with Called _ _ r _ _ _ | Fin _ _ r _ _ _ => Some r | _ => None end.
Definition pend (c : pc) (k rid : nat) : Prop :=
  match c with
  | Called k' _ r _ inf _ => k' = k /\ r = ROk /\ f_rid inf = rid /\ f_ev inf = EvRpc
  | Fin k' _ r _ _ inf => k' = last_sub cfg (proc k) /\ r = ROk /\ f_rid inf = rid /\ f_ev inf = EvRpc
  | Dead => True
  | _ => False
  end.

Record invJ (st : state) : Prop := {
  j_once : forall l1 l2 k e rid r out r' out', st_log st = l1 ++ OCall k e rid r out :: l2 -> In (OCall k e rid r' out') l2 -> ~ final e r';
  j_call : forall p k v inf inp r out, st_pcs st p = Call k v inf inp -> In (OCall k (f_ev inf) (f_rid inf) r out) (st_log st) -> ~ final (f_ev inf) r;
  j_called : forall p k v o inf inp r out, st_pcs st p = Called k v RShelve o inf inp -> f_ev inf = EvRpc -> In (OCall k EvRpc (f_rid inf) r out) (st_log st) -> ~ final EvRpc r;
  j_cur : forall k r out, is_listen (f_ev (h_inf (st_shm st))) = true -> (k < n)%nat -> prio k = f_prio (h_inf (st_shm st)) ->
    In (OCall k (f_ev (h_inf (st_shm st))) (f_rid (h_inf (st_shm st))) r out) (st_log st) -> final (f_ev (h_inf (st_shm st))) r ->
    (pc_inf (st_pcs st (proc k)) = Some (h_inf (st_shm st)) /\ pc_ret (st_pcs st (proc k)) = Some r) \/ st_pcs st (proc k) = Dead;
  j_err : forall o, f_ev (h_inf (st_shm st)) = EvError -> h_orig (st_shm st) = Some o -> exists k out, (k < n)%nat /\ prio k = f_prio (h_inf (st_shm st)) /\ In (OCall k EvRpc (f_rid (h_inf (st_shm st))) RErr out) (st_log st);
  j_ref : forall o rid ep, In (ORefused o rid ep) (st_log st) -> exists k out, (k < n)%nat /\ prio k = ep /\ In (OCall k EvRpc rid RErr out) (st_log st);
  j_to : forall o rid k, In (OTimeout o rid (prio k)) (st_log st) -> accepted (st_log st) k rid -> k = last_sub cfg (proc k) -> In (OSelf k rid) (st_log st) \/ pend (st_pcs st (proc k)) k rid
}.

Definition quiet (x : obs) : Prop := match x with OCall _ _ _ _ _ | OSelf _ _ => False | _ => True end.

Lemma fresh : forall st inf inp k r out, invA cfg st -> may_pub (st_shm st) inf inp -> prio k = f_prio inf -> ~ In (OCall k (f_ev inf) (f_rid inf) r out) (st_log st).
Proof.
  intros st inf inp k r out A M P H. destruct (c_call cfg st A _ _ _ _ _ H) as (_ & ip & H1 & _). rewrite P, info_eta in H1.
  destruct M as [(M1 & M2)|[(M1 & M2 & M3 & M4 & _)|(M1 & M2 & M3 & M4)]].
  - pose proof (s_rid cfg st A _ _ H1). lia.
  - assert (RS : rse (f_ev (h_inf (st_shm st)))) by (right; left; exact M3). pose proof (s_low cfg st A RS _ _ H1 M1 M2). lia.
  - destruct M4 as [M4|(M4 & M5)].
    + assert (RS : rse (f_ev (h_inf (st_shm st)))) by (right; right; exact M4). exact (s_noab cfg st A RS _ _ H1 M1 M2).
    + pose proof (s_lowab cfg st A M4 _ _ H1 M1 M2). lia.
Qed.

(** Steps of clients. *)
Lemma J_c : forall st h' ors l, invA cfg st -> invJ st -> Forall quiet l ->
  (is_listen (f_ev (h_inf h')) = false \/ h_inf h' = h_inf (st_shm st) \/ may_pub (st_shm st) (h_inf h') (h_in h')) ->
  (f_ev (h_inf h') <> EvError \/ h_orig h' = None \/ h' = st_shm st) ->
  (forall o rid ep, In (ORefused o rid ep) l -> rid = f_rid (h_inf (st_shm st)) /\ ep = f_prio (h_inf (st_shm st)) /\ f_ev (h_inf (st_shm st)) = EvError /\ exists o', h_orig (st_shm st) = Some o') ->
  (forall o rid ep, In (OTimeout o rid ep) l -> rid = f_rid (h_inf (st_shm st)) /\ ep = f_prio (h_inf (st_shm st)) /\ f_ev (h_inf (st_shm st)) = EvRpc) ->
  invJ (mkst h' ors (st_pcs st) (st_dyn st) (l ++ st_log st)).
Proof.
  intros st h' ors l A J F HI HE RF TO.
  assert (IN : forall x, ~ quiet x -> In x (l ++ st_log st) -> In x (st_log st)) by (intros x X Y; eapply in_plain; eauto).
  assert (IC : forall k e rid r out, In (OCall k e rid r out) (l ++ st_log st) -> In (OCall k e rid r out) (st_log st)) by (intros k e rid r out; apply IN; exact (fun x => x)).
  constructor; cbn [st_shm st_pcs st_log].
  - intros l1 l2 k e rid r out r' out' E. destruct (split_plain quiet l (st_log st) l1 (OCall k e rid r out) l2 F (fun x => x) E) as (l1' & E'). eapply (j_once st J); eauto.
  - intros p k v inf inp r out H1 H2. eapply (j_call st J); eauto.
  - intros p k v o inf inp r out H1 H2 H3. eapply (j_called st J); eauto.
  - intros k r out H1 H2 H3 H4 H5. apply IC in H4. destruct HI as [X|[X|X]]; [congruence|rewrite X in *; eapply (j_cur st J); eauto|]. exfalso. exact (fresh st _ _ k r out A X H3 H4).
  - intros o H1 H2. destruct HE as [X|[X|X]]; [contradiction|congruence|]. subst h'. destruct (j_err st J o H1 H2) as (k & out & K1 & K2 & K3). exists k, out. repeat (split; [assumption|]). apply in_or_app; auto.
  - intros o rid ep H. apply in_app_or in H. destruct H as [H|H].
    + destruct (RF o rid ep H) as (-> & -> & X & o' & Y). destruct (j_err st J o' X Y) as (k & out & K1 & K2 & K3). exists k, out. repeat (split; [assumption|]). apply in_or_app; auto.
    + destruct (j_ref st J o rid ep H) as (k & out & K1 & K2 & K3). exists k, out. repeat (split; [assumption|]). apply in_or_app; auto.
  - intros o rid k H (out & AC) LS. apply IC in AC. apply in_app_or in H. destruct H as [H|H].
    + destruct (TO o rid _ H) as (-> & P & EV). right. destruct (c_call cfg st A _ _ _ _ _ AC) as (KN & _).
      assert (LI : is_listen (f_ev (h_inf (st_shm st))) = true) by (rewrite EV; reflexivity).
      rewrite <- EV in AC. destruct (j_cur st J k ROk out LI KN P AC) as [(X & Y)|X]; [right; discriminate| |rewrite X; exact Logic.I].
      pose proof (p_ok cfg st A (proc k)) as K. destruct (st_pcs st (proc k)) eqn:PC; try discriminate; cbn [pc_inf pc_ret] in X, Y; injection X as X; injection Y as Y; cbn [pc_ok] in K; cbn [pend]; subst.
      * destruct K as (_ & KB & _). split; [|auto]. apply (prio_inj cfg WF); [apply KB|exact KN|]. destruct KB as (_ & _ & KB & _). congruence.
      * destruct K as (k' & ip & _ & KC & _ & KE). destruct err; [destruct KE as (_ & _ & KE & _); discriminate|]. destruct KE as (_ & _ & KE). auto.
    + destruct (j_to st J o rid k H (ex_intro _ out AC) LS) as [X|X]; [left; apply in_or_app; auto|auto].
Qed.

(** Steps of listeners without a callback. *)
Lemma J_p : forall st h' p c d l, inv cfg st -> invJ st ->
  f_rid (h_inf h') = f_rid (h_inf (st_shm st)) -> f_prio (h_inf h') = f_prio (h_inf (st_shm st)) ->
  (f_ev (h_inf h') = f_ev (h_inf (st_shm st)) \/ is_listen (f_ev (h_inf h')) = false) ->
  (f_ev (h_inf h') = EvError -> f_ev (h_inf (st_shm st)) = EvError /\ h_orig h' = h_orig (st_shm st) \/ exists k out, (k < n)%nat /\ prio k = f_prio (h_inf (st_shm st)) /\ In (OCall k EvRpc (f_rid (h_inf (st_shm st))) RErr out) (st_log st)) ->
  (l = [] \/ exists k inf, l = [OSelf k (f_rid inf)]) ->
  (forall k v inf inp r out, c = Call k v inf inp -> In (OCall k (f_ev inf) (f_rid inf) r out) (st_log st) -> ~ final (f_ev inf) r) ->
  (forall k v r o inf inp, c <> Called k v r o inf inp) ->
  (is_listen (f_ev (h_inf h')) = true -> forall k r out, (k < n)%nat -> proc k = p -> prio k = f_prio (h_inf h') -> In (OCall k (f_ev (h_inf h')) (f_rid (h_inf h')) r out) (st_log st) -> final (f_ev (h_inf h')) r ->
     (pc_inf c = Some (h_inf h') /\ pc_ret c = Some r) \/ c = Dead) ->
  (forall k rid, k = last_sub cfg (proc k) -> proc k = p -> pend (st_pcs st p) k rid -> (exists o, In (OTimeout o rid (prio k)) (st_log st)) -> In (OSelf k rid) l \/ pend c k rid) ->
  invJ (mkst h' (st_ors st) (upd (st_pcs st) p c) d (l ++ st_log st)).
Proof.
  intros st h' p c d l [A O L] J R P EV ER LL CC NC' CU PE.
  assert (F : Forall (fun x => match x with OSelf _ _ => True | _ => False end) l) by (destruct LL as [->|(k & inf & ->)]; repeat constructor).
  assert (IN : forall x, (forall k r, x <> OSelf k r) -> In x (l ++ st_log st) -> In x (st_log st)).
  { intros x X Y. eapply in_plain; eauto. intros Z. destruct x; try contradiction. eapply X; reflexivity. }
  assert (IC : forall k e rid r out, In (OCall k e rid r out) (l ++ st_log st) -> In (OCall k e rid r out) (st_log st)) by (intros k e rid r out; apply IN; discriminate).
  constructor; cbn [st_shm st_pcs st_log].
  - intros l1 l2 k e rid r out r' out' E. destruct (split_plain _ l (st_log st) l1 (OCall k e rid r out) l2 F (fun x => x) E) as (l1' & E'). eapply (j_once st J); eauto.
  - intros p0 k v inf inp r out H1 H2. unfold upd in H1. destruct (Nat.eqb p0 p); [eapply CC; eauto|eapply (j_call st J); eauto].
  - intros p0 k v o inf inp r out H1 H2 H3. unfold upd in H1. destruct (Nat.eqb p0 p); [destruct (NC' _ _ _ _ _ _ H1)|eapply (j_called st J); eauto].
  - intros k r out H1 H2 H3 H4 H5. apply IC in H4. unfold upd. destruct (Nat.eqb (proc k) p) eqn:X; [apply Nat.eqb_eq in X; eapply CU; eauto|].
    destruct EV as [EV|EV]; [|congruence]. assert (E : h_inf h' = h_inf (st_shm st)) by (rewrite <- (info_eta (h_inf h')), <- (info_eta (h_inf (st_shm st))); congruence).
    rewrite E in *. eapply (j_cur st J); eauto.
  - intros o H1 H2. rewrite P, R. destruct (ER H1) as [(X & Y)|(k & out & K1 & K2 & K3)].
    + rewrite Y in H2. destruct (j_err st J o X H2) as (k & out & K1 & K2 & K3). exists k, out. repeat (split; [assumption|]). apply in_or_app; auto.
    + exists k, out. repeat (split; [assumption|]). apply in_or_app; auto.
  - intros o rid ep H. apply IN in H; [|discriminate]. destruct (j_ref st J o rid ep H) as (k & out & K1 & K2 & K3). exists k, out. repeat (split; [assumption|]). apply in_or_app; auto.
  - intros o rid k H (out & AC) LS. apply IC in AC. apply IN in H; [|discriminate]. destruct (j_to st J o rid k H (ex_intro _ out AC) LS) as [X|X]; [left; apply in_or_app; auto|].
    unfold upd. destruct (Nat.eqb (proc k) p) eqn:Y; [|auto]. apply Nat.eqb_eq in Y. rewrite Y in X. destruct (PE k rid LS Y X) as [Z|Z]; [eauto|left; apply in_or_app; auto|auto].
Qed.

(** A callback is called. *)
Lemma J_call : forall st p k v inf inp r out, inv cfg st -> invJ st -> st_pcs st p = Call k v inf inp ->
  invJ (mkst (st_shm st) (st_ors st) (upd (st_pcs st) p (Called k v r out inf inp)) (st_dyn st) (OCall k (f_ev inf) (f_rid inf) r out :: st_log st)).
Proof.
  intros st p k v inf inp r out [A O L] J PC. pose proof (p_ok cfg st A p) as K. rewrite PC in K. cbn [pc_ok] in K. destruct K as (V0 & KB). pose proof KB as (B1 & B2 & B3 & B4 & B5 & _).
  constructor; cbn [st_shm st_pcs st_log].
  - intros l1 l2 k0 e rid r0 out0 r' out' E H. destruct l1 as [|z l1]; [|injection E as E1 E2; eapply (j_once st J); eauto].
    injection E as <- <- <- <- <- <-. eapply (j_call st J); eauto.
  - intros p0 k0 v0 inf0 inp0 r0 out0 H1 H2. unfold upd in H1. destruct (Nat.eqb p0 p) eqn:X; [discriminate|]. apply Nat.eqb_neq in X.
    destruct H2 as [H2|H2]; [|eapply (j_call st J); eauto]. injection H2 as -> Q1 Q2 -> ->. exfalso.
    pose proof (p_ok cfg st A p0) as K0. rewrite H1 in K0. cbn [pc_ok] in K0. destruct K0 as (_ & _ & K0 & _). congruence.
  - intros p0 k0 v0 o0 inf0 inp0 r0 out0 H1 H2 H3. unfold upd in H1. destruct (Nat.eqb p0 p) eqn:X.
    + injection H1 as -> -> -> -> -> ->. destruct H3 as [H3|H3].
      * injection H3 as _ <- _. intros [Y|Y]; [discriminate|apply Y; reflexivity].
      * rewrite <- H2 in H3 |- *. eapply (j_call st J); eauto.
    + apply Nat.eqb_neq in X. destruct H3 as [H3|H3]; [|eapply (j_called st J); eauto]. injection H3 as -> Q1 Q2 -> ->. exfalso.
      pose proof (p_ok cfg st A p0) as K0. rewrite H1 in K0. cbn [pc_ok] in K0. destruct K0 as (_ & (_ & K0 & _) & _). congruence.
  - intros k0 r0 out0 H1 H2 H3 [H4|H4] H5.
    + injection H4 as -> Q1 Q2 -> ->. left. rewrite B2, upd_eq. cbn [pc_inf pc_ret]. split; [|reflexivity]. f_equal. rewrite <- (info_eta inf), <- (info_eta (h_inf (st_shm st))). congruence.
    + unfold upd. destruct (Nat.eqb (proc k0) p) eqn:X; [|eapply (j_cur st J); eauto]. apply Nat.eqb_eq in X. destruct (j_cur st J k0 r0 out0 H1 H2 H3 H4 H5) as [(_ & Y)|Y]; rewrite X, PC in Y; discriminate.
  - intros o H1 H2. destruct (j_err st J o H1 H2) as (k0 & out0 & K1 & K2 & K3). exists k0, out0. repeat (split; [assumption|]). right. exact K3.
  - intros o rid ep [H|H]; [discriminate|]. destruct (j_ref st J o rid ep H) as (k0 & out0 & K1 & K2 & K3). exists k0, out0. repeat (split; [assumption|]). right. exact K3.
  - intros o rid k0 [H|H] (out0 & AC) LS; [discriminate|]. destruct AC as [AC|AC].
    + injection AC as -> Q1 Q2 -> ->. right. rewrite B2, upd_eq. cbn [pend]. auto.
    + destruct (j_to st J o rid k0 H (ex_intro _ out0 AC) LS) as [X|X]; [left; right; exact X|]. unfold upd. destruct (Nat.eqb (proc k0) p) eqn:Y; [|auto]. apply Nat.eqb_eq in Y. rewrite Y, PC in X. destruct X.
Qed.

Lemma J_set : forall st o c h' l, invA cfg st -> invJ st -> Forall quiet l ->
  (is_listen (f_ev (h_inf h')) = false \/ h_inf h' = h_inf (st_shm st) \/ may_pub (st_shm st) (h_inf h') (h_in h')) ->
  (f_ev (h_inf h') <> EvError \/ h_orig h' = None \/ h' = st_shm st) ->
  (forall x, In x l -> match x with ORefused _ _ _ | OTimeout _ _ _ => False | _ => True end) ->
  invJ (set_o o c h' l st).
Proof.
  intros st o c h' l A J F H1 H2 H3. unfold set_o. apply J_c; auto; intros o0 rid ep X; destruct (H3 _ X).
Qed.

Ltac qs := repeat match goal with
  | |- Forall _ _ => repeat constructor
  | |- forall x, In x _ -> match x with _ => _ end => let x := fresh "x" in let X := fresh "X" in intros x X; cbn [In] in X; repeat (destruct X as [X|X]; [subst x; exact Logic.I|]); destruct X
  end.

Lemma J_abort : forall st o inp rid cur ep ec h l, invA cfg st -> invJ st -> inp = h_in (st_shm st) -> Forall quiet l -> (forall x, In x l -> match x with ORefused _ _ _ | OTimeout _ _ _ => False | _ => True end) ->
  (forall pr, pr < cur -> may_pub (st_shm st) (mkinfo EvAbort rid pr) inp) ->
  invJ (abort_next cfg st o inp rid cur ep ec h l).
Proof.
  intros st o inp rid cur ep ec h l A J IN F T MP. unfold abort_next.
  destruct (next_spec cfg WF st inp cur cur) as [(S0 & NX)|(S1 & k & K1 & K2 & K3 & K4)].
  - rewrite S0. cbn [N.eqb negb andb]. apply J_set; auto.
    + constructor; [exact Logic.I|exact F].
    + intros x [<-|X]; [exact Logic.I|apply (T x X)].
  - match goal with |- invJ (if ?b then _ else _) => destruct b end.
    + apply J_set; auto.
      * constructor; [exact Logic.I|exact F].
      * intros x [<-|X]; [exact Logic.I|apply (T x X)].
    + apply J_set; auto.
      * constructor; [exact Logic.I|exact F].
      * right. right. cbn [write_event h_inf h_in]. apply MP. rewrite <- K2. exact K3.
      * left. discriminate.
      * intros x [<-|X]; [exact Logic.I|apply (T x X)].
Qed.

Theorem step_J : forall lb st st', inv cfg st -> invJ st -> exec cfg lb st = Some st' -> invJ st'.
Proof.
  intros lb st st' I J E. pose proof I as [A O L]. destruct lb; cbn [exec] in E.
  - destruct (nth_error (st_ors st) o) as [c|] eqn:Q; [|discriminate]. destruct c; try discriminate.
    destruct (fst (has_subscription cfg st inp)); injection E as <-; apply J_set; auto; qs.
  - destruct (nth_error (st_ors st) o) as [c|] eqn:Q; [|discriminate]. destruct c; try discriminate.
    destruct (_ =? 0); injection E as <-; apply J_set; auto; qs.
  - destruct (nth_error (st_ors st) o) as [c|] eqn:Q; [|discriminate]. destruct c; try discriminate. destruct (new_wrlock st EvNone) as [h1|] eqn:NW; [|discriminate].
    rewrite NC in E. cbn [negb andb] in E. destruct (ev_eqb _ _ && aborting _ _) eqn:G; [discriminate|]. injection E as <-.
    destruct (no_owner_new cfg st h1 I NW G) as (NO & R). apply J_set; auto; qs; [|left; discriminate]. right. right. left. cbn. rewrite R. split; [reflexivity|lia].
  - destruct (nth_error (st_ors st) o) as [c|] eqn:Q; [|discriminate]. destruct c; try discriminate. destruct (ev_eqb _ EvSuccess) eqn:EV; [|discriminate]. apply ev_eqb_eq in EV.
    pose proof (o_ok cfg st O o _ Q) as K. cbn [ok_o] in K. destruct K as (K1 & K2 & K3 & K4 & K5 & K6). subst rid prio inp.
    destruct (next_spec cfg WF st (h_in (st_shm st)) (f_prio (h_inf (st_shm st))) (f_prio (h_inf (st_shm st)))) as [(S0 & NX)|(S1 & k & K3 & K4 & K8 & K9)].
    + rewrite S0 in E. cbn [N.eqb] in E. injection E as <-. apply J_set; auto; qs.
    + rewrite S1 in E. cbn [N.eqb] in E. injection E as <-. apply J_set; auto; qs; [|left; discriminate]. right. right. right. left. cbn. rewrite <- K4. auto.
  - destruct (nth_error (st_ors st) o) as [c|] eqn:Q; [|discriminate]. destruct c; try discriminate. destruct (ev_eqb _ EvError) eqn:EV; [|discriminate]. apply ev_eqb_eq in EV. injection E as <-.
    pose proof (o_ok cfg st O o _ Q) as K. cbn [ok_o] in K. destruct K as (K1 & K2 & K3 & K4 & K5 & K6). subst rid prio inp. unfold set_o. apply J_c; auto; qs.
    + intros o0 rid ep [X|[]]. injection X as _ <- <-. eauto.
    + intros o0 rid ep [X|[]]. discriminate.
  - destruct (nth_error (st_ors st) o) as [c|] eqn:Q; [|discriminate]. destruct c; try discriminate. destruct (ev_eqb _ EvRpc) eqn:EV; [|discriminate]. apply ev_eqb_eq in EV. injection E as <-.
    pose proof (o_ok cfg st O o _ Q) as K. cbn [ok_o] in K. destruct K as (K1 & K2 & K3 & K4 & K5 & K6). subst rid prio inp. unfold set_o. apply J_c; auto; qs.
    + intros o0 rid ep [X|[]]. discriminate.
    + intros o0 rid ep [X|[]]. injection X as _ <- <-. auto.
  - destruct (nth_error (st_ors st) o) as [c|] eqn:Q; [|discriminate]. destruct c; try discriminate.
    pose proof (o_ok cfg st O o _ Q) as K. cbn [ok_o] in K. destruct K as (K1 & K2 & K3 & K4 & K5). rewrite (new_wrlock_err st K1) in E. cbn [h_inf h_cnt] in E. rewrite K1 in E. cbn [ev_eqb negb] in E.
    destruct (fst (has_subscription cfg st inp)); injection E as <-.
    + apply J_abort; auto; qs. intros pr LT. right. right. cbn. repeat split; auto.
    + apply J_set; auto; qs.
  - destruct (nth_error (st_ors st) o) as [c|] eqn:Q; [|discriminate]. destruct c; try discriminate. destruct (ev_eqb _ EvFinished) eqn:EV; [|discriminate]. apply ev_eqb_eq in EV.
    pose proof (o_ok cfg st O o _ Q) as K. cbn [ok_o] in K. destruct K as (K1 & K2 & K3 & K4 & K5 & -> & K7 & K8).
    destruct (eprio =? prio) eqn:EP; injection E as <-.
    + apply J_set; auto; qs.
    + apply J_abort; auto; qs. intros pr LT. right. right. cbn. repeat split; auto. right. split; [auto|]. lia.
  - destruct (nth_error (st_ors st) o) as [c|] eqn:Q; [|discriminate]. destruct c; try discriminate. destruct (ev_eqb _ EvAbort) eqn:EV; [|discriminate]. apply ev_eqb_eq in EV.
    pose proof (o_ok cfg st O o _ Q) as K. cbn [ok_o] in K. destruct K as (K1 & K2 & K3 & K4 & K5 & -> & K7 & K8).
    destruct (eprio =? prio) eqn:EP; injection E as <-.
    + apply J_set; auto; qs.
    + apply J_abort; auto; qs. intros pr LT. right. right. cbn. repeat split; auto. right. split; [auto|]. lia.
  - destruct (nth_error (st_ors st) o) as [c|] eqn:Q; [|discriminate]. destruct c; try discriminate; injection E as <-; apply J_set; auto; qs.
    destruct (ev_eqb _ EvError); auto.
  - destruct (nth_error (st_ors st) o) as [c|] eqn:Q; [|discriminate]. injection E as <-. apply J_set; auto; qs.
  - (* LBegin *)
    destruct (st_pcs st p) eqn:PC; try discriminate. destruct (find_new cfg st p (h_in (st_shm st)) 0%nat) as [k|] eqn:FN; [|discriminate]. injection E as <-.
    destruct (find_new_spec _ _ _ _ _ _ FN) as (_ & K1 & K2 & K3). destruct (is_new_spec _ _ _ _ K3) as (N1 & N2 & N3 & N4 & N5 & N6).
    assert (NF : forall k0 r out, (k0 < n)%nat -> proc k0 = p -> prio k0 = f_prio (h_inf (st_shm st)) -> In (OCall k0 (f_ev (h_inf (st_shm st))) (f_rid (h_inf (st_shm st))) r out) (st_log st) -> ~ final (f_ev (h_inf (st_shm st))) r).
    { intros k0 r out X1 X2 X3 X4 X5. destruct (j_cur st J k0 r out N1 X1 X3 X4 X5) as [(X & _)|X]; rewrite X2, PC in X; discriminate. }
    apply J_p; auto; try congruence.
    + intros k0 v inf inp r out X. injection X as <- _ <- _. apply NF; auto.
    + intros _ k0 r out X1 X2 X3 X4 X5. destruct (NF k0 r out X1 X2 X3 X4 X5).
    + rewrite PC. intros k0 rid _ _ [].
  - (* LCall *)
    destruct (st_pcs st p) eqn:PC; try discriminate. injection E as <-. apply J_call; auto.
  - (* LLock *)
    assert (NPE : forall k rid ret inf, ret = ROk -> f_rid inf = rid -> f_ev inf = EvRpc -> inf = h_inf (st_shm st) -> (exists o, In (OTimeout o rid (prio k)) (st_log st)) -> @eq result ret ret -> False).
    { intros k rid ret inf _ X1 X2 X3 (o & X4) _. destruct (l_stop cfg st L o rid (prio k) (or_intror X4)) as (_ & Y & _). destruct Y; congruence. }
    destruct (st_pcs st p) eqn:PC; try discriminate.
    + pose proof (p_ok cfg st A p) as K. rewrite PC in K. cbn [pc_ok] in K. destruct K as (V0 & KB & KC & KN). pose proof KB as (B1 & B2 & B3 & B4 & _).
      destruct (info_eqb inf (h_inf (st_shm st))) eqn:IE.
      * apply info_eqb_eq in IE. injection E as <-. subst valid.
        assert (ONE : forall k0, (k0 < n)%nat -> prio k0 = f_prio (h_inf (st_shm st)) -> k0 = k) by (intros k0 X1 X2; apply (prio_inj cfg WF); auto; congruence).
        assert (GO : (f_ev inf = EvRpc -> ret <> RShelve) -> forall kk v err d, invJ (mkst (st_shm st) (st_ors st) (upd (st_pcs st) p (Fin kk v ret err out inf)) d ([] ++ st_log st))).
        { intros RO kk v err d. apply J_p; auto; try (intros; discriminate).
          - intros _ k0 r out0 X1 X2 X3 X4 X5. left. cbn [pc_inf pc_ret]. split; [congruence|]. destruct (j_cur st J k0 r out0) as [(_ & Y)|Y]; auto; [rewrite <- IE; exact B4| |]; rewrite X2, PC in Y; [exact Y|discriminate].
          - rewrite PC. cbn [pend]. intros k0 rid _ _ (-> & X1 & X2 & X3) X4. exfalso. eapply NPE; eauto. }
        unfold after_cb. destruct (f_ev inf) eqn:EV; try discriminate; [destruct ret|].
        -- destruct (find_new cfg _ p inp (S k)) as [j|] eqn:FN; [|apply GO; discriminate]. exfalso. destruct (find_new_spec _ _ _ _ _ _ FN) as (J1 & J2 & J3 & J4). destruct (is_new_spec _ _ _ _ J4) as (_ & J5 & _). cbn [st_shm] in J5.
           specialize (ONE j J2 (eq_sym J5)). lia.
        -- apply J_p; auto; try (intros; discriminate).
           ++ intros _ k0 r out0 X1 X2 X3 X4 X5. exfalso. specialize (ONE k0 X1 X3). subst k0. rewrite <- IE, EV in X4, X5. exact (j_called st J p k _ _ inf inp r out0 PC EV X4 X5).
           ++ rewrite PC. cbn [pend]. intros k0 rid _ _ (_ & X & _). discriminate.
        -- apply GO; discriminate.
        -- destruct (find_new cfg _ p inp (S k)) as [j|] eqn:FN; [|apply GO; discriminate]. exfalso. destruct (find_new_spec _ _ _ _ _ _ FN) as (J1 & J2 & J3 & J4). destruct (is_new_spec _ _ _ _ J4) as (_ & J5 & _). cbn [st_shm] in J5.
           specialize (ONE j J2 (eq_sym J5)). lia.
      * apply info_eqb_neq in IE. injection E as <-. apply J_p; auto; try (intros; discriminate).
        -- destruct ret; cbn [self_abort]; eauto.
        -- intros LI k0 r out0 X1 X2 X3 X4 X5. destruct (j_cur st J k0 r out0) as [(Y & _)|Y]; auto; rewrite X2, PC in Y; [cbn [pc_inf] in Y; congruence|discriminate].
        -- rewrite PC. cbn [pend]. intros k0 rid _ _ (-> & -> & <- & X3) X4. left. left. reflexivity.
    + pose proof (p_ok cfg st A p) as K. rewrite PC in K. cbn [pc_ok] in K. destruct K as (k' & ip & KB & KC & KN & KE). pose proof KB as (B1 & B2 & B3 & B4 & _).
      destruct (info_eqb inf (h_inf (st_shm st))) eqn:IE.
      * apply info_eqb_eq in IE. injection E as <-.
        assert (C1 : h_cnt (st_shm st) = 1). { apply (s_cnt cfg st A). rewrite <- IE. destruct (f_ev inf); try discriminate; auto. }
        assert (EV : f_ev (h_inf (listen_write_event (st_shm st) valid err out)) = match f_ev inf with EvRpc => if err then EvError else EvSuccess | _ => EvFinished end).
        { unfold listen_write_event. cbn [h_inf f_ev]. rewrite C1, <- IE. destruct err; [rewrite orb_true_r|destruct KE as (-> & _); cbn [N.eqb Pos.eqb orb]]; destruct (f_ev inf); try discriminate; reflexivity. }
        apply J_p; auto; try (intros; discriminate).
        -- right. rewrite EV. destruct (f_ev inf); try discriminate; destruct err; reflexivity.
        -- rewrite EV. intros X. right. exists k', out. destruct (f_ev inf) eqn:EV2; try discriminate. destruct err; [|discriminate]. destruct KE as (_ & _ & -> & _). rewrite IE in *. auto.
        -- rewrite EV. intros LI. destruct (f_ev inf); try discriminate; destruct err; discriminate.
        -- rewrite PC. cbn [pend]. intros k0 rid _ _ (-> & X1 & X2 & X3) X4. exfalso. eapply NPE; eauto.
      * apply info_eqb_neq in IE. injection E as <-. apply J_p; auto; try (intros; discriminate).
        -- destruct ret; cbn [self_abort]; eauto.
        -- intros LI k0 r out0 X1 X2 X3 X4 X5. destruct (j_cur st J k0 r out0) as [(Y & _)|Y]; auto; rewrite X2, PC in Y; [cbn [pc_inf] in Y; congruence|discriminate].
        -- rewrite PC. cbn [pend]. intros k0 rid LS <- (-> & -> & <- & X3) X4. left. rewrite <- LS. left. reflexivity.
  - destruct (st_pcs st p); try discriminate; rewrite NL in E; discriminate.
  - injection E as <-. apply J_p; auto; try (intros; discriminate).
    intros k rid _ _ _ _. right. exact Logic.I.
  - rewrite NS in E. discriminate.
Qed.

Lemma J_init : forall st, initial st -> invJ st.
Proof.
  intros st (H1 & H2 & H3 & H4 & H5 & H6). constructor; rewrite ?H1, ?H3.
  - intros [|x l1]; discriminate.
  - intros p k v inf inp r out. rewrite H5. discriminate.
  - intros p k v o inf inp r out. rewrite H5. discriminate.
  - discriminate.
  - discriminate.
  - intros o rid ep [].
  - intros o rid k [].
Qed.
Theorem reach_J : forall st0 st, initial st0 -> reach cfg st0 st -> inv cfg st /\ invJ st.
Proof.
  intros st0 st I R. induction R as [|l st st' R (IH1 & IH2) E]; [split; [apply inv_init; auto|apply J_init; auto]|].
  split; [eapply step_inv; eauto|eapply step_J; eauto].
Qed.

Lemma once_sym : forall st k e rid r out r' out', invJ st -> In (OCall k e rid r out) (st_log st) -> In (OCall k e rid r' out') (st_log st) -> final e r -> final e r' -> r = r' /\ out = out'.
Proof.
  intros st k e rid r out r' out' J H1 H2 F1 F2. apply in_split in H1. destruct H1 as (l1 & l2 & E). rewrite E in H2. apply in_app_or in H2. destruct H2 as [H2|[H2|H2]].
  - exfalso. apply in_split in H2. destruct H2 as (l3 & l4 & ->). rewrite <- app_assoc in E. cbn in E. eapply (j_once st J); [exact E| |exact F1]. apply in_or_app. right. left. reflexivity.
  - injection H2 as -> ->. auto.
  - exfalso. eapply (j_once st J); eauto.
Qed.
End Proofs.
