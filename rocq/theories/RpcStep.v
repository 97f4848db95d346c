(** Proofs about calling RPCs: the clients, and every step keeps the invariant. *)
From Coq Require Import List Bool Arith NArith Lia.
From Verif Require Import Rpc RpcSpec RpcProofs.
Import ListNotations.
Local Open Scope N_scope.

Section Proofs.
Variable cfg : config.
Hypothesis WF : wf cfg.
Hypothesis NS : suspends cfg = false.
Hypothesis NC : concurrent cfg = false.
Notation n := (nsubs cfg).
Notation prio := (prio_of cfg).
Notation proc := (proc_of cfg).

Definition told (log : list obs) (k rid : nat) : Prop := (exists r out, In (OCall k EvAbort rid r out) log) \/ In (OATimeout rid (prio k)) log.
Definition failed (log : list obs) (o rid : nat) (ep : N) : Prop := In (ORefused o rid ep) log \/ In (OTimeout o rid ep) log.

Definition ok_o (st : state) (o : nat) (c : opc) : Prop :=
  match c with
  | OFirst inp cur => cur < 4294967295 /\ forall k, avail cfg st inp k -> prio k <= cur
  | ONew inp pr cnt => cnt = 1 /\ forall k, avail cfg st inp k -> prio k <= pr
  | OWait inp rid pr => h_orig (st_shm st) = Some o /\ rid = f_rid (h_inf (st_shm st)) /\ pr = f_prio (h_inf (st_shm st)) /\ inp = h_in (st_shm st) /\
      rse (f_ev (h_inf (st_shm st))) /\ forall k, avail cfg st inp k -> pr < prio k -> accepted (st_log st) k rid
  | OAbort inp rid => f_ev (h_inf (st_shm st)) = EvError /\ h_orig (st_shm st) = None /\ rid = f_rid (h_inf (st_shm st)) /\ inp = h_in (st_shm st) /\
      failed (st_log st) o rid (f_prio (h_inf (st_shm st)))
  | OAWait inp rid pr ep ec => h_orig (st_shm st) = Some o /\ rid = f_rid (h_inf (st_shm st)) /\ pr = f_prio (h_inf (st_shm st)) /\ inp = h_in (st_shm st) /\
      (f_ev (h_inf (st_shm st)) = EvAbort \/ f_ev (h_inf (st_shm st)) = EvFinished) /\ ec = 1 /\ failed (st_log st) o rid ep /\
      forall k, avail cfg st inp k -> pr < prio k -> ep < prio k -> told (st_log st) k rid
  | _ => True
  end.
Definition owner (c : opc) : Prop := match c with OWait _ _ _ | OAbort _ _ | OAWait _ _ _ _ _ => True | _ => False end.

(** The clients. *)
Record invO (st : state) : Prop := {
  o_ok : forall o c, nth_error (st_ors st) o = Some c -> ok_o st o c;
  o_one : forall o o' inp rid inp' rid', nth_error (st_ors st) o = Some (OAbort inp rid) -> nth_error (st_ors st) o' = Some (OAbort inp' rid') -> o = o'
}.

Definition there (st : state) (k : nat) : Prop := (k < n)%nat /\ alive cfg st k = true /\ y_esusp (st_dyn st k) = false.

(** What clients were told. *)
Record invL (st : state) : Prop := {
  l_stop : forall o rid ep, failed (st_log st) o rid ep -> (rid <= f_rid (h_inf (st_shm st)))%nat /\
    (rid = f_rid (h_inf (st_shm st)) -> f_ev (h_inf (st_shm st)) <> EvRpc /\ f_ev (h_inf (st_shm st)) <> EvSuccess) /\
    forall inf inp, In (OPub inf inp) (st_log st) -> f_ev inf = EvRpc -> f_rid inf = rid -> ep <= f_prio inf;
  l_reply : forall o rid out, In (OReply o rid out) (st_log st) -> (rid <= f_rid (h_inf (st_shm st)))%nat /\
    (rid = f_rid (h_inf (st_shm st)) -> f_ev (h_inf (st_shm st)) = EvNone) /\
    (forall p inf, pc_inf (st_pcs st p) = Some inf -> f_rid inf <> rid) /\
    (forall inf inp, In (OPub inf inp) (st_log st) -> f_ev inf = EvAbort -> f_rid inf <> rid) /\
    (forall k, ~ In (OSelf k rid) (st_log st));
  l_complete : forall l1 l2 o rid out, st_log st = l1 ++ OReply o rid out :: l2 -> exists k inp, newest l2 rid k ROk out /\ (exists pr, In (OPub (mkinfo EvRpc rid pr) inp) l2) /\ (k < n)%nat /\ filt cfg inp k = true /\
    forall k', avail cfg st inp k' -> accepted l2 k' rid /\ prio k <= prio k';
  l_aborted : forall l1 l2 o rid ep, st_log st = l1 ++ OAborted o rid ep :: l2 -> failed l2 o rid ep /\
    forall k, there st k -> accepted l2 k rid -> ep < prio k -> told l2 k rid
}.

Definition plain (x : obs) : Prop := match x with OPub _ _ | OReply _ _ _ | ORefused _ _ _ | OTimeout _ _ _ | OAborted _ _ _ | OSelf _ _ => False | _ => True end.

Lemma split_plain : forall (P : obs -> Prop) l log l1 x l2, Forall P l -> ~ P x -> l ++ log = l1 ++ x :: l2 -> exists l1', log = l1' ++ x :: l2.
Proof.
  intros P l log l1 x l2 F. revert l1. induction F as [|y l Hy F IH]; intros l1 H E; [exists l1; exact E|].
  destruct l1 as [|z l1]; cbn in E; injection E as E1 E2; [subst y; contradiction|]. apply (IH l1 H E2).
Qed.
Lemma in_plain : forall (P : obs -> Prop) l log x, Forall P l -> ~ P x -> In x (l ++ log) -> In x log.
Proof. intros P l log x F H I. apply in_app_or in I. destruct I as [I|I]; [|exact I]. exfalso. apply H. rewrite Forall_forall in F. auto. Qed.

(** The event record is only cleared, refused or reported; nothing special is logged. *)
Lemma L_same : forall st st' l, invA cfg st -> invL st -> st_log st' = l ++ st_log st -> (forall inp k, avail cfg st' inp k -> avail cfg st inp k) -> (forall k, there st' k -> there st k) ->
  Forall (fun x => plain x \/ exists k inf p, x = OSelf k (f_rid inf) /\ pc_inf (st_pcs st p) = Some inf) l ->
  f_rid (h_inf (st_shm st')) = f_rid (h_inf (st_shm st)) ->
  (f_ev (h_inf (st_shm st)) = EvNone -> f_ev (h_inf (st_shm st')) = EvNone) ->
  (f_ev (h_inf (st_shm st)) <> EvRpc -> f_ev (h_inf (st_shm st)) <> EvSuccess -> f_ev (h_inf (st_shm st')) <> EvRpc /\ f_ev (h_inf (st_shm st')) <> EvSuccess) ->
  (forall p inf, pc_inf (st_pcs st' p) = Some inf -> pc_inf (st_pcs st p) = Some inf \/ (inf = h_inf (st_shm st) /\ is_listen (f_ev inf) = true)) -> invL st'.
Proof.
  intros st st' l A L EL AV TH F R N0 E2 PC.
  set (P := fun x => plain x \/ exists k inf p, x = OSelf k (f_rid inf) /\ pc_inf (st_pcs st p) = Some inf) in F.
  assert (NP : forall x, ~ plain x -> (forall k r, x <> OSelf k r) -> ~ P x) by (intros x H1 H2 [H|(k & i & p & H & _)]; [auto|apply (H2 k (f_rid i) H)]).
  assert (IN : forall x, ~ plain x -> (forall k r, x <> OSelf k r) -> In x (l ++ st_log st) -> In x (st_log st)) by (intros; eapply in_plain; eauto).
  assert (FA : forall o rid ep, failed (l ++ st_log st) o rid ep -> failed (st_log st) o rid ep).
  { intros o rid ep [H|H]; [left|right]; (apply IN; [exact (fun x => x)|congruence|exact H]). }
  constructor; rewrite EL, ?R.
  - intros o rid ep H. destruct (l_stop st L o rid ep (FA _ _ _ H)) as (H1 & H2 & H3). split; [exact H1|]. split; [intros X; destruct (H2 X); auto|].
    intros inf inp H4. apply (H3 inf inp). apply IN; [exact (fun x => x)|congruence|exact H4].
  - intros o rid out H. apply IN in H; [|exact (fun x => x)|congruence]. destruct (l_reply st L o rid out H) as (H1 & H2 & H3 & H4 & H5). split; [exact H1|]. split; [auto|].
    split; [|split].
    + intros p inf H6. destruct (PC p inf H6) as [X|(-> & X)]; [apply (H3 p inf X)|]. intros Y. rewrite (H2 (eq_sym Y)) in X. discriminate.
    + intros inf inp H6. apply (H4 inf inp). apply IN; [exact (fun x => x)|congruence|exact H6].
    + intros k H6. apply in_app_or in H6. destruct H6 as [H6|H6]; [|apply (H5 k H6)]. rewrite Forall_forall in F. destruct (F _ H6) as [[]|(k0 & inf & p & X & Y)]. injection X as _ X. apply (H3 p inf Y). auto.
  - intros l1 l2 o rid out E. destruct (split_plain P l (st_log st) l1 (OReply o rid out) l2 F (NP (OReply o rid out) (fun x => x) ltac:(intros; discriminate)) E) as (l1' & E').
    destruct (l_complete st L l1' l2 o rid out E') as (k & inp & H1 & H2 & H3 & H4 & H5). exists k, inp. repeat (split; [solve [auto]|]). auto.
  - intros l1 l2 o rid ep E. destruct (split_plain P l (st_log st) l1 (OAborted o rid ep) l2 F (NP (OAborted o rid ep) (fun x => x) ltac:(intros; discriminate)) E) as (l1' & E').
    destruct (l_aborted st L l1' l2 o rid ep E') as (H1 & H2). split; [exact H1|]. auto.
Qed.

(** An event is written. *)
Lemma L_pub : forall st inf inp ors h', invA cfg st -> invL st -> may_pub (st_shm st) inf inp -> h_inf h' = inf ->
  invL (mkst h' ors (st_pcs st) (st_dyn st) (OPub inf inp :: st_log st)).
Proof.
  intros st inf inp ors h' A L M Hi.
  assert (LE : (f_rid (h_inf (st_shm st)) <= f_rid inf)%nat) by (destruct M as [(_ & M)|[(_ & M & _)|(_ & M & _)]]; lia).
  assert (FA : forall o rid ep, failed (OPub inf inp :: st_log st) o rid ep -> failed (st_log st) o rid ep).
  { intros o rid ep [[H|H]|[H|H]]; try discriminate; [left|right]; exact H. }
  constructor; cbn [st_shm st_log st_pcs]; rewrite ?Hi.
  - intros o rid ep H. destruct (l_stop st L o rid ep (FA _ _ _ H)) as (H1 & H2 & H3). split; [lia|]. 
    assert (X : rid = f_rid inf -> f_ev inf = EvAbort).
    { intros X. destruct M as [(_ & M)|[(_ & M & M1 & _)|(M & _)]]; [lia| |exact M]. exfalso. destruct (H2 ltac:(lia)). contradiction. }
    split; [intros Y; rewrite (X Y); split; discriminate|]. intros i ip [Y|Y]; [|apply (H3 i ip Y)]. injection Y as <- <-. intros E1 E2. specialize (X (eq_sym E2)). congruence.
  - intros o rid out [H|H]; [discriminate|]. destruct (l_reply st L o rid out H) as (H1 & H2 & H3 & H4 & H5).
    assert (X : rid <> f_rid inf).
    { intros X. assert (Y : rid = f_rid (h_inf (st_shm st)) -> f_ev (h_inf (st_shm st)) <> EvNone -> False) by auto.
      destruct M as [(_ & M)|[(_ & M & M1 & _)|(_ & M & _ & M1)]]; [lia| |].
      - rewrite H2 in M1 by lia. discriminate.
      - rewrite H2 in M1 by lia. destruct M1 as [M1|([M1|M1] & _)]; discriminate. }
    split; [lia|]. split; [intros Y; contradiction|]. split; [exact H3|]. split; [|intros k [Y|Y]; [discriminate|apply (H5 k Y)]].
    intros i ip [Y|Y]; [|apply (H4 i ip Y)]. injection Y as <- <-. auto.
  - intros l1 l2 o rid out E. destruct l1 as [|z l1]; injection E as E1 E2; [discriminate|]. exact (l_complete st L l1 l2 o rid out E2).
  - intros l1 l2 o rid ep E. destruct l1 as [|z l1]; injection E as E1 E2; [discriminate|]. exact (l_aborted st L l1 l2 o rid ep E2).
Qed.

Lemma newest_in : forall log rid k r out, newest log rid k r out -> In (OCall k EvRpc rid r out) log.
Proof.
  intros log rid k r out (l & H). assert (I : In (k, r, out) (rpc_calls rid log)) by (rewrite H; left; reflexivity).
  apply in_flat_map in I. destruct I as (x & I1 & I2). destruct x; try contradiction. destruct e; try contradiction.
  destruct (Nat.eqb rid0 rid) eqn:E; [|contradiction]. apply Nat.eqb_eq in E. destruct I2 as [I2|[]]. injection I2 as -> -> ->. subst. exact I1.
Qed.

(** A client learns that a subscriber refused or did not answer. *)
Lemma L_fail : forall st x o ors h', invA cfg st -> invL st -> rse (f_ev (h_inf (st_shm st))) ->
  x = ORefused o (f_rid (h_inf (st_shm st))) (f_prio (h_inf (st_shm st))) \/ x = OTimeout o (f_rid (h_inf (st_shm st))) (f_prio (h_inf (st_shm st))) ->
  f_rid (h_inf h') = f_rid (h_inf (st_shm st)) -> f_ev (h_inf h') = EvError ->
  invL (mkst h' ors (st_pcs st) (st_dyn st) (x :: st_log st)).
Proof.
  intros st x o ors h' A L RS X R E.
  assert (IN : forall y, In y (x :: st_log st) -> (forall o r e, y <> ORefused o r e /\ y <> OTimeout o r e) -> In y (st_log st)).
  { intros y [Y|Y] H; [|exact Y]. subst y. destruct X as [X|X]; destruct (H o (f_rid (h_inf (st_shm st))) (f_prio (h_inf (st_shm st)))); contradiction. }
  assert (IP : forall i ip, In (OPub i ip) (x :: st_log st) -> In (OPub i ip) (st_log st)) by (intros i ip H; apply IN; [exact H|split; discriminate]).
  constructor; cbn [st_shm st_log st_pcs]; rewrite ?R, ?E.
  - intros o0 rid ep H. assert (Y : failed (st_log st) o0 rid ep \/ (rid = f_rid (h_inf (st_shm st)) /\ ep = f_prio (h_inf (st_shm st)))).
    { destruct H as [[H|H]|[H|H]]; [right|left; left; exact H|right|left; right; exact H]; subst x; destruct X as [X|X]; try discriminate; injection X as _ -> ->; auto. }
    destruct Y as [Y|(-> & ->)].
    + destruct (l_stop st L o0 rid ep Y) as (H1 & H2 & H3). split; [exact H1|]. split; [split; discriminate|]. intros i ip H4. apply (H3 i ip (IP _ _ H4)).
    + split; [lia|]. split; [split; discriminate|]. intros i ip H4. apply (s_low cfg st A RS i ip (IP _ _ H4)).
  - intros o0 rid out H. apply IN in H; [|split; discriminate]. destruct (l_reply st L o0 rid out H) as (H1 & H2 & H3 & H4 & H5).
    split; [exact H1|]. split; [intros Y; rewrite (H2 Y) in RS; destruct RS as [Z|[Z|Z]]; discriminate|]. split; [exact H3|]. split.
    + intros i ip H6. apply (H4 i ip (IP _ _ H6)).
    + intros k H6. apply (H5 k). apply IN; [exact H6|split; discriminate].
  - intros l1 l2 o0 rid out Q. destruct l1 as [|z l1]; injection Q as E1 E2; [destruct X as [X|X]; congruence|]. exact (l_complete st L l1 l2 o0 rid out E2).
  - intros l1 l2 o0 rid ep Q. destruct l1 as [|z l1]; injection Q as E1 E2; [destruct X as [X|X]; congruence|]. exact (l_aborted st L l1 l2 o0 rid ep E2).
Qed.

(** A client gets the output. *)
Lemma L_reply : forall st o ors h', invA cfg st -> invL st -> f_ev (h_inf (st_shm st)) = EvSuccess ->
  (forall k, avail cfg st (h_in (st_shm st)) k -> f_prio (h_inf (st_shm st)) <= prio k /\ (f_prio (h_inf (st_shm st)) < prio k -> accepted (st_log st) k (f_rid (h_inf (st_shm st))))) ->
  f_rid (h_inf h') = f_rid (h_inf (st_shm st)) -> f_ev (h_inf h') = EvNone ->
  invL (mkst h' ors (st_pcs st) (st_dyn st) (OReply o (f_rid (h_inf (st_shm st))) (h_out (st_shm st)) :: st_log st)).
Proof.
  intros st o ors h' A L SU AC R E.
  assert (RS : rse (f_ev (h_inf (st_shm st)))) by (right; left; exact SU).
  constructor; cbn [st_shm st_log st_pcs]; rewrite ?R, ?E.
  - intros o0 rid ep H. assert (Y : failed (st_log st) o0 rid ep) by (destruct H as [[H|H]|[H|H]]; try discriminate; [left|right]; exact H).
    destruct (l_stop st L o0 rid ep Y) as (H1 & H2 & H3). split; [exact H1|]. split; [split; discriminate|]. intros i ip [H4|H4]; [discriminate|]. apply (H3 i ip H4).
  - intros o0 rid out [H|H].
    + injection H as <- <- <-. split; [lia|]. split; [reflexivity|]. split; [|split].
      * intros p inf H1 H2. destruct (pub_inf cfg st p inf A H1) as (ip & H3 & H4). destruct (f_ev inf) eqn:EV; try discriminate.
        -- destruct (p_stale cfg st A p inf H1 EV H2). congruence.
        -- apply (s_noab cfg st A RS inf ip H3 EV H2).
      * intros i ip [H1|H1]; [discriminate|]. apply (s_noab cfg st A RS i ip H1).
      * intros k [H1|H1]; [discriminate|]. apply (s_noself cfg st A (or_intror SU) k H1).
    + destruct (l_reply st L o0 rid out H) as (H1 & H2 & H3 & H4 & H5). split; [exact H1|]. split; [auto|]. split; [exact H3|]. split.
      * intros i ip [H6|H6]; [discriminate|]. apply (H4 i ip H6).
      * intros k [H6|H6]; [discriminate|]. apply (H5 k H6).
  - intros l1 l2 o0 rid out Q. destruct l1 as [|z l1]; [|injection Q as E1 E2; exact (l_complete st L l1 l2 o0 rid out E2)].
    injection Q as <- <- <- <-. destruct (c_succ cfg st A SU) as (k & K1 & K2 & K3).
    exists k, (h_in (st_shm st)). pose proof (newest_in _ _ _ _ _ K3) as K4. destruct (c_call cfg st A _ _ _ _ _ K4) as (_ & ip & K5 & K6).
    assert (ip = h_in (st_shm st)) by (apply (s_in cfg st A _ _ K5); reflexivity). subst ip.
    split; [exact K3|]. split; [eauto|]. split; [exact K1|]. split; [exact K6|]. intros k' AV. destruct (AC k' AV) as (A1 & A2). rewrite K2. split; [|exact A1].
    destruct (N.eq_dec (prio k') (prio k)) as [P|P]; [|apply A2; lia]. apply (prio_inj cfg WF) in P; [|apply AV|exact K1]. subst k'. eexists; exact K4.
  - intros l1 l2 o0 rid ep Q. destruct l1 as [|z l1]; injection Q as E1 E2; [discriminate|]. exact (l_aborted st L l1 l2 o0 rid ep E2).
Qed.

(** A client is done with aborts. *)
Lemma L_aborted : forall st o rid ep ors h', invA cfg st -> invL st -> failed (st_log st) o rid ep -> (forall k, there st k -> accepted (st_log st) k rid -> ep < prio k -> told (st_log st) k rid) ->
  f_rid (h_inf h') = f_rid (h_inf (st_shm st)) -> f_ev (h_inf h') = EvNone ->
  invL (mkst h' ors (st_pcs st) (st_dyn st) (OAborted o rid ep :: st_log st)).
Proof.
  intros st o rid0 ep0 ors h' A L FL TO R E.
  constructor; cbn [st_shm st_log st_pcs]; rewrite ?R, ?E.
  - intros o0 rid ep H. assert (Y : failed (st_log st) o0 rid ep) by (destruct H as [[H|H]|[H|H]]; try discriminate; [left|right]; exact H).
    destruct (l_stop st L o0 rid ep Y) as (H1 & H2 & H3). split; [exact H1|]. split; [split; discriminate|]. intros i ip [H4|H4]; [discriminate|]. apply (H3 i ip H4).
  - intros o0 rid out [H|H]; [discriminate|]. destruct (l_reply st L o0 rid out H) as (H1 & H2 & H3 & H4 & H5). split; [exact H1|]. split; [auto|]. split; [exact H3|]. split.
    + intros i ip [H6|H6]; [discriminate|]. apply (H4 i ip H6).
    + intros k [H6|H6]; [discriminate|]. apply (H5 k H6).
  - intros l1 l2 o0 rid out Q. destruct l1 as [|z l1]; injection Q as E1 E2; [discriminate|]. exact (l_complete st L l1 l2 o0 rid out E2).
  - intros l1 l2 o0 rid ep Q. destruct l1 as [|z l1]; [|injection Q as E1 E2; exact (l_aborted st L l1 l2 o0 rid ep E2)]. injection Q as <- <- <- <-. split; [exact FL|exact TO].
Qed.

(** ** Clients *)
Lemma told_app : forall l log k rid, told log k rid -> told (l ++ log) k rid.
Proof. intros l log k rid [(r & out & H)|H]; [left; exists r, out|right]; apply in_or_app; auto. Qed.
Lemma failed_app : forall l log o rid ep, failed log o rid ep -> failed (l ++ log) o rid ep.
Proof. intros l log o rid ep [H|H]; [left|right]; apply in_or_app; auto. Qed.

Lemma owner_ev : forall st o c, invO st -> nth_error (st_ors st) o = Some c -> owner c -> f_ev (h_inf (st_shm st)) <> EvNone.
Proof.
  intros st o c O H W E. pose proof (o_ok st O o c H) as K. destruct c; try contradiction; cbn [ok_o] in K.
  - destruct K as (_ & _ & _ & _ & [K|[K|K]] & _); congruence.
  - destruct K as (K & _). congruence.
  - destruct K as (_ & _ & _ & _ & [K|K] & _); congruence.
Qed.
Lemma owner_unique : forall st o c o' c', invO st -> nth_error (st_ors st) o = Some c -> owner c -> nth_error (st_ors st) o' = Some c' -> owner c' -> o = o'.
Proof.
  intros st o c o' c' O H W H' W'. pose proof (o_ok st O o c H) as K. pose proof (o_ok st O o' c' H') as K'.
  destruct c, c'; try contradiction; cbn [ok_o] in K, K';
  try (destruct K as (K & _), K' as (K' & _); congruence);
  try (destruct K as (K & _), K' as (_ & K' & _); congruence);
  try (destruct K as (_ & K & _), K' as (K' & _); congruence).
  eapply (o_one st O); eauto.
Qed.

(** A client whose record of events did not change stays as it is. *)
Lemma ok_frame : forall st st' l o c, ok_o st o c -> st_log st' = l ++ st_log st -> (forall inp k, avail cfg st' inp k -> avail cfg st inp k) ->
  (owner c -> h_orig (st_shm st') = h_orig (st_shm st) /\ f_rid (h_inf (st_shm st')) = f_rid (h_inf (st_shm st)) /\ f_prio (h_inf (st_shm st')) = f_prio (h_inf (st_shm st)) /\ h_in (st_shm st') = h_in (st_shm st) /\
     (f_ev (h_inf (st_shm st')) = f_ev (h_inf (st_shm st)) \/ (f_ev (h_inf (st_shm st)) = EvRpc /\ rse (f_ev (h_inf (st_shm st')))) \/
      (f_ev (h_inf (st_shm st)) = EvAbort /\ f_ev (h_inf (st_shm st')) = EvFinished))) -> ok_o st' o c.
Proof.
  intros st st' l o c K EL AV W. destruct c; cbn [ok_o owner] in *; auto.
  - destruct K as (K1 & K2). split; auto.
  - destruct K as (K1 & K2). split; auto.
  - destruct (W Logic.I) as (W1 & W2 & W3 & W4 & W5). destruct K as (K1 & K2 & K3 & K4 & K5 & K6). rewrite W1, W2, W3, W4, EL. repeat (split; [solve [auto]|]). split.
    + destruct W5 as [W5|[(_ & W5)|(W5 & _)]]; [rewrite W5; exact K5|exact W5|]. destruct K5 as [X|[X|X]]; congruence.
    + intros k H1 H2. apply accepted_app. apply (K6 k); auto.
  - destruct (W Logic.I) as (W1 & W2 & W3 & W4 & W5). destruct K as (K1 & K2 & K3 & K4 & K5). rewrite W1, W2, W3, W4, EL. split.
    + destruct W5 as [W5|[(W5 & _)|(W5 & _)]]; congruence.
    + repeat (split; [solve [auto]|]). apply failed_app. exact K5.
  - destruct (W Logic.I) as (W1 & W2 & W3 & W4 & W5). destruct K as (K1 & K2 & K3 & K4 & K5 & K6 & K7 & K8). rewrite W1, W2, W3, W4, EL. repeat (split; [solve [auto]|]). split.
    + destruct W5 as [W5|[(W5 & _)|(W5 & X)]]; [rewrite W5; exact K5| |right; exact X]. destruct K5; congruence.
    + split; [exact K6|]. split; [apply failed_app; exact K7|]. intros k H1 H2 H3. apply told_app. apply (K8 k); auto.
Qed.

(** Only one client moves. *)
Lemma O_set : forall st o c0 c h' l, invO st -> nth_error (st_ors st) o = Some c0 ->
  (h' = st_shm st \/ forall o' c', o' <> o -> nth_error (st_ors st) o' = Some c' -> ~ owner c') ->
  ok_o (mkst h' (set_or o c (st_ors st)) (st_pcs st) (st_dyn st) (l ++ st_log st)) o c ->
  (owner c -> forall o' c', o' <> o -> nth_error (st_ors st) o' = Some c' -> ~ owner c') ->
  invO (mkst h' (set_or o c (st_ors st)) (st_pcs st) (st_dyn st) (l ++ st_log st)).
Proof.
  intros st o c0 c h' l O H HS K OW. constructor; cbn [st_ors].
  - intros o' c'. rewrite (nth_set_or o c _ c0) by exact H. destruct (Nat.eqb o' o) eqn:E.
    + intros Q. injection Q as <-. apply Nat.eqb_eq in E. subst o'. exact K.
    + intros Q. apply Nat.eqb_neq in E. eapply ok_frame; [exact (o_ok st O o' c' Q)|reflexivity|auto|]. cbn [st_shm]. intros W.
      destruct HS as [->|HS]; [|destruct (HS o' c' E Q W)]. auto 10.
  - intros o1 o2 i1 r1 i2 r2. rewrite !(nth_set_or o c _ c0) by exact H. destruct (Nat.eqb o1 o) eqn:E1, (Nat.eqb o2 o) eqn:E2; intros Q1 Q2.
    + apply Nat.eqb_eq in E1, E2. congruence.
    + injection Q1 as ->. apply Nat.eqb_neq in E2. destruct (OW Logic.I o2 _ E2 Q2 Logic.I).
    + injection Q2 as ->. apply Nat.eqb_neq in E1. destruct (OW Logic.I o1 _ E1 Q1 Logic.I).
    + exact (o_one st O o1 o2 i1 r1 i2 r2 Q1 Q2).
Qed.
Lemma others : forall st o c, invO st -> nth_error (st_ors st) o = Some c -> owner c -> forall o' c', o' <> o -> nth_error (st_ors st) o' = Some c' -> ~ owner c'.
Proof. intros st o c O H W o' c' N H' W'. apply N. eapply owner_unique; eauto. Qed.

(** Listeners move. *)
Lemma O_pcs : forall st st' l, invO st -> st_ors st' = st_ors st -> st_log st' = l ++ st_log st -> (forall inp k, avail cfg st' inp k -> avail cfg st inp k) ->
  h_orig (st_shm st') = h_orig (st_shm st) -> f_rid (h_inf (st_shm st')) = f_rid (h_inf (st_shm st)) -> f_prio (h_inf (st_shm st')) = f_prio (h_inf (st_shm st)) -> h_in (st_shm st') = h_in (st_shm st) ->
  (f_ev (h_inf (st_shm st')) = f_ev (h_inf (st_shm st)) \/ (f_ev (h_inf (st_shm st)) = EvRpc /\ rse (f_ev (h_inf (st_shm st')))) \/
      (f_ev (h_inf (st_shm st)) = EvAbort /\ f_ev (h_inf (st_shm st')) = EvFinished)) -> invO st'.
Proof.
  intros st st' l O E1 E2 AV H1 H2 H3 H4 H5. constructor; rewrite E1.
  - intros o c Q. eapply ok_frame; [exact (o_ok st O o c Q)|exact E2|exact AV|]. auto 10.
  - exact (o_one st O).
Qed.
End Proofs.
