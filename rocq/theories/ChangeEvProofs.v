(** Proofs about processing of change events. *)
From Coq Require Import List Bool Arith NArith Lia.
From Verif Require Import ChangeEv ChangeEvSpec.
Import ListNotations.

(** * Basic facts *)
Lemma ev_eqb_eq : forall a b, ev_eqb a b = true <-> a = b.
Proof. intros a b. destruct a, b; cbn; split; intros H; try reflexivity; try discriminate. Qed.
Lemma ev_eqb_refl : forall a, ev_eqb a a = true.
Proof. destruct a; reflexivity. Qed.
Lemma info_eqb_eq : forall a b, info_eqb a b = true <-> a = b.
Proof.
  intros [e r n] [e' r' n']. unfold info_eqb. cbn. rewrite !andb_true_iff, ev_eqb_eq, Nat.eqb_eq, N.eqb_eq. split.
  - intros ((-> & ->) & ->). reflexivity.
  - intros H. injection H as -> -> ->. auto.
Qed.
Lemma info_eqb_neq : forall a b, info_eqb a b = false <-> a <> b.
Proof. intros a b. rewrite <- info_eqb_eq. destruct (info_eqb a b); split; congruence. Qed.

Lemma nth_set_proc : forall p q l q0 p', nth_error l p = Some q0 ->
  nth_error (set_proc p q l) p' = if Nat.eqb p p' then Some q else nth_error l p'.
Proof.
  unfold set_proc. induction p as [|p IH]; intros q l q0 p' H; destruct l as [|x l]; try discriminate.
  - cbn. destruct p'; reflexivity.
  - cbn [firstn skipn app]. destruct p' as [|p']; [reflexivity|]. cbn [nth_error Nat.eqb]. apply (IH q l q0 p' H).
Qed.

Lemma nth_upd : forall i f l j, nth_error (upd i f l) j = if Nat.eqb i j then option_map f (nth_error l j) else nth_error l j.
Proof.
  induction i as [|i IH]; intros f l j; destruct l as [|s l]; destruct j as [|j]; try reflexivity.
  - cbn. destruct (Nat.eqb i j); reflexivity.
  - cbn [upd nth_error Nat.eqb]. apply IH.
Qed.
Lemma length_upd : forall i f l, length (upd i f l) = length l.
Proof. induction i as [|i IH]; intros f [|s l]; cbn; congruence. Qed.

Lemma find_new_some : forall h l i j, find_new h l i = Some j -> i <= j /\ exists s, nth_error l j = Some s /\ is_new_event h s = true.
Proof.
  intros h. induction l as [|s l IH]; intros i j H; [discriminate|]. cbn [find_new] in H. destruct i as [|i].
  - destruct (is_new_event h s) eqn:E.
    + injection H as <-. split; [lia|]. exists s. split; [reflexivity|exact E].
    + destruct (find_new h l 0) as [k|] eqn:Ek; [|discriminate]. injection H as <-. destruct (IH _ _ Ek) as (_ & s' & H1 & H2). split; [lia|]. exists s'. split; assumption.
  - destruct (find_new h l i) as [k|] eqn:Ek; [|discriminate]. injection H as <-. destruct (IH _ _ Ek) as (L & s' & H1 & H2). split; [lia|]. exists s'. split; assumption.
Qed.

(** ** Sums *)
Fixpoint wsum (w : nat -> proc -> nat) (k : nat) (l : list proc) : nat :=
  match l with [] => 0 | q :: r => w k q + wsum w (S k) r end.

Lemma wsum_set : forall w p l q q' k, nth_error l p = Some q -> wsum w k (set_proc p q' l) + w (k + p) q = wsum w k l + w (k + p) q'.
Proof.
  intros w. unfold set_proc. induction p as [|p IH]; intros l q q' k H; destruct l as [|x l]; try discriminate.
  - injection H as ->. cbn. rewrite Nat.add_0_r. lia.
  - specialize (IH l q q' (S k) H). change (firstn (S p) (x :: l) ++ q' :: skipn (S (S p)) (x :: l)) with (x :: (firstn p l ++ q' :: skipn (S p) l)).
    cbn [wsum]. replace (k + S p) with (S k + p) by lia. lia.
Qed.

Lemma wsum_in : forall w l p q k, nth_error l p = Some q -> w (k + p) q <= wsum w k l.
Proof.
  intros w. induction l as [|x l IH]; intros p q k H; [destruct p; discriminate|]. cbn [wsum]. destruct p as [|p].
  - injection H as ->. rewrite Nat.add_0_r. lia.
  - specialize (IH p q (S k) H). replace (k + S p) with (S k + p) by lia. lia.
Qed.
Lemma wsum_le : forall w w' l k, (forall p q, nth_error l p = Some q -> w (k + p) q <= w' (k + p) q) -> wsum w k l <= wsum w' k l.
Proof.
  intros w w'. induction l as [|x l IH]; intros k H; [reflexivity|]. cbn [wsum]. pose proof (H 0 x eq_refl) as H0. rewrite Nat.add_0_r in H0.
  assert (IH' : wsum w (S k) l <= wsum w' (S k) l). { apply IH. intros p q Hp. specialize (H (S p) q Hp). replace (k + S p) with (S k + p) in H by lia. exact H. } lia.
Qed.

Definition b2n (b : bool) : nat := if b then 1 else 0.
Lemma count_upd : forall f g i l s k, nth_error l i = Some s -> count_subs f k (upd i g l) + b2n (f (k + i) s) = count_subs f k l + b2n (f (k + i) (g s)).
Proof.
  intros f g. induction i as [|i IH]; intros l s k H; destruct l as [|x l]; try discriminate.
  - injection H as ->. cbn [upd count_subs]. rewrite Nat.add_0_r. unfold b2n. lia.
  - cbn [upd count_subs]. specialize (IH l s (S k) H). replace (k + S i) with (S k + i) by lia. lia.
Qed.
Lemma count_le : forall f g l k, (forall i s, nth_error l i = Some s -> f (k + i) s = true -> g (k + i) s = true) -> count_subs f k l <= count_subs g k l.
Proof.
  intros f g. induction l as [|x l IH]; intros k H; [reflexivity|]. cbn [count_subs]. pose proof (H 0 x eq_refl) as H0. rewrite Nat.add_0_r in H0.
  assert (IH' : count_subs f (S k) l <= count_subs g (S k) l). { apply IH. intros i s Hi. specialize (H (S i) s Hi). replace (k + S i) with (S k + i) in H by lia. exact H. }
  destruct (f k x); [rewrite H0 by reflexivity; lia|]. destruct (g k x); lia.
Qed.
Lemma count_in : forall f l i s k, nth_error l i = Some s -> f (k + i) s = true -> 1 <= count_subs f k l.
Proof.
  intros f. induction l as [|x l IH]; intros i s k H F; [destruct i; discriminate|]. cbn [count_subs]. destruct i as [|i].
  - injection H as ->. rewrite Nat.add_0_r in F. rewrite F. lia.
  - replace (k + S i) with (S k + i) in F by lia. specialize (IH i s (S k) H F). lia.
Qed.

Lemma count_addr_wsum : forall filt inf l k, count_addr filt inf k l = wsum (fun p q => if alive q then count_subs (addressed filt inf p) 0 (p_subs q) else 0) k l.
Proof. intros filt inf. induction l as [|q l IH]; intros k; [reflexivity|]. cbn [count_addr wsum]. rewrite IH. reflexivity. Qed.

(** * The invariant *)
Section Inv.
Variables (filt : info -> nat -> nat -> bool) (lf : bool).

Definition done_with (inf : info) (s : csub) : bool := Nat.eqb (s_rid s) (f_rid inf) && ev_eqb (s_ev s) (f_ev inf).
Definition pc_info (c : pc) : option info :=
  match c with Idle | Dead => None | Call _ _ _ f => Some f | Called _ _ _ _ f => Some f | Fin _ _ _ _ _ f => Some f end.
Definition pc_valid (c : pc) : nat := match c with Idle | Dead => 0 | Call _ v _ _ => v | Called _ v _ _ _ => v | Fin _ v _ _ _ _ => v end.
Definition pc_cur (c : pc) : option nat := match c with Call i _ _ _ => Some i | Called i _ _ _ _ => Some i | _ => None end.
(** Subscriptions that did not process the event yet and those whose processing was not reported. *)
Definition vld (inf : info) (c : pc) : nat := match pc_info c with Some f => if info_eqb f inf then pc_valid c else 0 | None => 0 end.
Definition weight (inf : info) (p : nat) (q : proc) : nat :=
  if alive q then count_subs (fun i s => addressed filt inf p i s && negb (done_with inf s)) 0 (p_subs q) + vld inf (p_pc q) else 0.

Definition all_done (inf : info) (procs : list proc) : Prop :=
  forall p q i s, nth_error procs p = Some q -> alive q = true -> nth_error (p_subs q) i = Some s -> addressed filt inf p i s = true -> done_with inf s = true.

Definition matching (inf : info) (s : csub) : Prop := s_prio s = f_prio inf /\ event_is_valid (f_ev inf) s = true /\ s_susp s = false.

(** What the last event a subscription remembers says. *)
Definition remembered (log : list obs) (p i : nat) (s : csub) : Prop :=
  is_listen (s_ev s) = true -> s_ev s <> EvAbort -> filt (mkinfo (s_ev s) (s_rid s) (s_prio s)) p i = true ->
  exists r, In (OCall p i (s_ev s) (s_rid s) r) log /\ (answered (s_ev s) -> r = ROk).

Definition pc_ok (st : state) (p : nat) (q : proc) : Prop :=
  (forall f, pc_info (p_pc q) = Some f -> In f (st_pub st) /\ is_listen (f_ev f) = true) /\
  (forall i f, pc_cur (p_pc q) = Some i -> pc_info (p_pc q) = Some f -> exists s, nth_error (p_subs q) i = Some s /\ matching f s /\ done_with f s = false /\
     (f_ev f = EvAbort -> s_ev s = EvChange /\ s_rid s = f_rid f)) /\
  (forall i v r fv f, p_pc q = Called i v r fv f -> fv = filt f p i /\ (fv = true -> In (OCall p i (f_ev f) (f_rid f) r) (st_log st))) /\
  (forall i v r fv f, p_pc q = Fin i v r fv true f -> answered (f_ev f)).

Definition called_ok (st : state) : Prop :=
  forall p i e rid r q s, In (OCall p i e rid r) (st_log st) -> nth_error (st_procs st) p = Some q -> nth_error (p_subs q) i = Some s ->
    In (mkinfo e rid (s_prio s)) (st_pub st) /\ is_listen e = true /\ event_is_valid e s = true /\ s_susp s = false.

Record inv (st : state) : Prop := {
  i_listen : is_listen (f_ev (h_inf (st_shm st))) = true -> exists pub, st_pub st = h_inf (st_shm st) :: pub;
  i_done : f_ev (h_inf (st_shm st)) = EvSuccess \/ f_ev (h_inf (st_shm st)) = EvFinished ->
           exists inf pub, st_pub st = inf :: pub /\ is_listen (f_ev inf) = true /\ (f_ev inf <> EvAbort -> all_done inf (st_procs st));
  i_count : is_listen (f_ev (h_inf (st_shm st))) = true -> f_ev (h_inf (st_shm st)) <> EvAbort ->
            wsum (weight (h_inf (st_shm st))) 0 (st_procs st) <= h_cnt (st_shm st);
  i_rem : forall p q i s, nth_error (st_procs st) p = Some q -> nth_error (p_subs q) i = Some s -> remembered (st_log st) p i s;
  i_pc : forall p q, nth_error (st_procs st) p = Some q -> pc_ok st p q;
  i_called : called_ok st }.

Lemma remembered_incl : forall log log' p i s, incl log log' -> remembered log p i s -> remembered log' p i s.
Proof. intros log log' p i s H R A B C. destruct (R A B C) as (r & H1 & H2). exists r. split; [apply H; exact H1|exact H2]. Qed.

Lemma pc_ok_incl : forall st st' p q, incl (st_log st) (st_log st') -> incl (st_pub st) (st_pub st') -> pc_ok st p q -> pc_ok st' p q.
Proof.
  intros st st' p q L P (A & B & C & D). split; [|split; [|split; [|exact D]]].
  - intros f H. destruct (A f H) as (H1 & H2). split; [apply P; exact H1|exact H2].
  - exact B.
  - intros i v r fv f H. destruct (C i v r fv f H) as (H1 & H2). split; [exact H1|]. intros H3. apply L. apply H2. exact H3.
Qed.

(** A step of process [p] that does not change what its subscriptions remember. *)
Lemma inv_local : forall st p q c o, inv st -> nth_error (st_procs st) p = Some q -> (alive (mkproc (p_subs q) c) = true -> alive q = true) ->
  (is_listen (f_ev (h_inf (st_shm st))) = true -> vld (h_inf (st_shm st)) c <= vld (h_inf (st_shm st)) (p_pc q)) ->
  (forall p' i e rid r, In (OCall p' i e rid r) o -> p' = p /\ forall s, nth_error (p_subs q) i = Some s -> In (mkinfo e rid (s_prio s)) (st_pub st) /\ is_listen e = true /\ event_is_valid e s = true /\ s_susp s = false) ->
  let st' := mkst (st_shm st) (set_proc p (mkproc (p_subs q) c) (st_procs st)) (st_pub st) (o ++ st_log st) in
  pc_ok st' p (mkproc (p_subs q) c) -> inv st'.
Proof.
  intros st p q c o I Hp Ha Hv Ho st' Hpc. destruct I as [I1 I2 I3 I4 I5 I6]. unfold st'. constructor; cbn [st_shm st_procs st_pub st_log].
  - exact I1.
  - intros H. destruct (I2 H) as (inf & pub & E & L & D). exists inf, pub. split; [exact E|]. split; [exact L|]. intros Ne p' q' i s Hq Al Hs Had. rewrite (nth_set_proc _ _ _ q _ Hp) in Hq.
    destruct (Nat.eqb_spec p p') as [->|Np].
    + injection Hq as <-. cbn [p_subs] in Hs. apply (D Ne p' q i s Hp (Ha Al) Hs Had).
    + apply (D Ne p' q' i s Hq Al Hs Had).
  - intros L Ne. specialize (I3 L Ne). pose proof (wsum_set (weight (h_inf (st_shm st))) p (st_procs st) q (mkproc (p_subs q) c) 0 Hp) as W. cbn [Nat.add] in W.
    assert (W' : weight (h_inf (st_shm st)) p (mkproc (p_subs q) c) <= weight (h_inf (st_shm st)) p q).
    { unfold weight. destruct (alive (mkproc (p_subs q) c)) eqn:Al; [|lia]. rewrite (Ha eq_refl). cbn [p_subs p_pc]. specialize (Hv L). lia. }
    lia.
  - intros p' q' i s Hq Hs. apply (remembered_incl (st_log st)); [intros x Hx; apply in_or_app; right; exact Hx|]. rewrite (nth_set_proc _ _ _ q _ Hp) in Hq.
    destruct (Nat.eqb_spec p p') as [->|Np]; [injection Hq as <-; apply (I4 p' q i s Hp Hs)|apply (I4 p' q' i s Hq Hs)].
  - intros p' q' Hq. rewrite (nth_set_proc _ _ _ q _ Hp) in Hq. destruct (Nat.eqb_spec p p') as [->|Np]; [injection Hq as <-; exact Hpc|].
    apply (pc_ok_incl st); [intros x Hx; apply in_or_app; right; exact Hx|apply incl_refl|]. apply I5. exact Hq.
  - intros p' i e rid r q' s Hin Hq Hs. cbn [st_procs st_pub st_log] in *. rewrite (nth_set_proc _ _ _ q _ Hp) in Hq. apply in_app_or in Hin. destruct Hin as [Hin|Hin].
    + destruct (Ho _ _ _ _ _ Hin) as (-> & Ho'). rewrite Nat.eqb_refl in Hq. injection Hq as <-. apply Ho'. exact Hs.
    + destruct (Nat.eqb_spec p p') as [->|Np]; [injection Hq as <-; apply (I6 p' i e rid r q s Hin Hp Hs)|apply (I6 p' i e rid r q' s Hin Hq Hs)].
Qed.

Lemma pc_ok_idle : forall st p l, pc_ok st p (mkproc l Idle).
Proof. intros. split; [|split; [|split]]; cbn; intros; discriminate. Qed.
Lemma pc_ok_dead : forall st p l, pc_ok st p (mkproc l Dead).
Proof. intros. split; [|split; [|split]]; cbn; intros; discriminate. Qed.

Lemma is_new_facts : forall h s, is_new_event h s = true -> is_listen (f_ev (h_inf h)) = true /\ matching (h_inf h) s /\ done_with (h_inf h) s = false /\
  (f_ev (h_inf h) = EvAbort -> s_ev s = EvChange /\ s_rid s = f_rid (h_inf h)).
Proof.
  intros h s H. unfold is_new_event in H. repeat (apply andb_true_iff in H; destruct H as (H & ?)). split; [exact H|]. split; [|split].
  - unfold matching. apply N.eqb_eq in H2. apply negb_true_iff in H0. auto.
  - unfold done_with. rewrite Nat.eqb_sym. apply negb_true_iff in H4. destruct (Nat.eqb (f_rid (h_inf h)) (s_rid s)); [|reflexivity]. cbn [andb] in *.
    destruct (ev_eqb (s_ev s) (f_ev (h_inf h))) eqn:E; [|reflexivity]. apply ev_eqb_eq in E. rewrite E, ev_eqb_refl in H4. discriminate.
  - intros Ha. rewrite Ha, ev_eqb_refl in H3. cbn [andb] in H3. apply negb_true_iff in H3. apply orb_false_iff in H3. destruct H3 as (H5 & H6). apply negb_false_iff in H5, H6. apply ev_eqb_eq in H5. apply Nat.eqb_eq in H6. auto.
Qed.

Lemma inv_shm : forall st h, inv st -> is_listen (f_ev (h_inf h)) = false -> f_ev (h_inf h) <> EvSuccess -> f_ev (h_inf h) <> EvFinished -> forall o, (forall p i e rid r, ~ In (OCall p i e rid r) o) ->
  inv (mkst h (st_procs st) (st_pub st) (o ++ st_log st)).
Proof.
  intros st h [I1 I2 I3 I4 I5 I6] L N1 N2 o Ho. constructor; cbn [st_shm st_procs st_pub st_log].
  - congruence.
  - intros [H|H]; contradiction.
  - congruence.
  - intros p q i s Hq Hs. apply (remembered_incl (st_log st)); [intros x Hx; apply in_or_app; right; exact Hx|]. apply (I4 p q i s Hq Hs).
  - intros p q Hq. apply (pc_ok_incl st); [intros x Hx; apply in_or_app; right; exact Hx|apply incl_refl|]. apply I5. exact Hq.
  - intros p i e rid r q s Hin Hq Hs. cbn in *. apply in_app_or in Hin. destruct Hin as [Hin|Hin]; [destruct (Ho _ _ _ _ _ Hin)|]. apply (I6 p i e rid r q s Hin Hq Hs).
Qed.

Lemma inv_publish : forall st inf n, inv st -> is_listen (f_ev inf) = true -> ~ In inf (st_pub st) -> (f_ev inf <> EvAbort -> n = count_addr filt inf 0 (st_procs st)) ->
  inv (mkst (mkshm inf n) (st_procs st) (inf :: st_pub st) (st_log st)).
Proof.
  intros st inf n [I1 I2 I3 I4 I5 I6] L Ni Hn. constructor; cbn [st_shm st_procs st_pub st_log h_inf h_cnt].
  - intros _. exists (st_pub st). reflexivity.
  - intros [H|H]; rewrite H in L; discriminate.
  - intros _ Ne. rewrite (Hn Ne), count_addr_wsum. apply wsum_le. intros p q Hq. unfold weight. destruct (alive q) eqn:Al; [|lia].
    assert (V : vld inf (p_pc q) = 0). { unfold vld. destruct (pc_info (p_pc q)) as [f|] eqn:E; [|reflexivity]. destruct (info_eqb f inf) eqn:Ef; [|reflexivity]. apply info_eqb_eq in Ef. subst f.
      destruct (I5 p q Hq) as (A & _). destruct (A _ E) as (A' & _). contradiction. }
    rewrite V, Nat.add_0_r. apply count_le. intros i s _ H. apply andb_true_iff in H. apply H.
  - exact I4.
  - intros p q Hq. apply (pc_ok_incl st); [apply incl_refl|intros x Hx; right; exact Hx|]. apply I5. exact Hq.
  - intros p i e rid r q s Hin Hq Hs. destruct (I6 p i e rid r q s Hin Hq Hs) as (A & B). split; [right; exact A|exact B].
Qed.

(** ** Processing of the result of a callback *)
Definition same_static (s s' : csub) : Prop :=
  s_prio s' = s_prio s /\ s_update s' = s_update s /\ s_done_only s' = s_done_only s /\ s_forig s' = s_forig s /\ s_esusp s' = s_esusp s /\ s_susp s' = s_susp s.
Lemma same_static_refl : forall s, same_static s s.
Proof. intros s. repeat split. Qed.
Lemma same_valid : forall s s' e, same_static s s' -> event_is_valid e s' = event_is_valid e s.
Proof. intros s s' e (A & B & C & _). unfold event_is_valid. rewrite B, C. reflexivity. Qed.
Lemma same_addr : forall s s' inf p i, same_static s s' -> addressed filt inf p i s' = addressed filt inf p i s.
Proof. intros s s' inf p i H. unfold addressed. rewrite (same_valid s s' _ H). destruct H as (A & B & C & D & E & F). rewrite A, D, E. reflexivity. Qed.

Lemma inv_proc : forall st p q q', inv st -> nth_error (st_procs st) p = Some q -> is_listen (f_ev (h_inf (st_shm st))) = true ->
  (forall i s', nth_error (p_subs q') i = Some s' -> exists s, nth_error (p_subs q) i = Some s /\ same_static s s') ->
  (f_ev (h_inf (st_shm st)) <> EvAbort -> weight (h_inf (st_shm st)) p q' <= weight (h_inf (st_shm st)) p q) ->
  (forall i s', nth_error (p_subs q') i = Some s' -> remembered (st_log st) p i s') ->
  pc_ok st p q' ->
  inv (mkst (st_shm st) (set_proc p q' (st_procs st)) (st_pub st) (st_log st)).
Proof.
  intros st p q q' I Hp L Hs Hw Hr Hpc. destruct I as [I1 I2 I3 I4 I5 I6]. constructor; cbn [st_shm st_procs st_pub st_log].
  - exact I1.
  - intros [H|H]; rewrite H in L; discriminate.
  - intros _ Ne. specialize (I3 L Ne). pose proof (wsum_set (weight (h_inf (st_shm st))) p (st_procs st) q q' 0 Hp) as W. cbn [Nat.add] in W. specialize (Hw Ne). lia.
  - intros p' q0 i s Hq Hi. rewrite (nth_set_proc _ _ _ q _ Hp) in Hq. destruct (Nat.eqb_spec p p') as [->|Np]; [injection Hq as <-; apply Hr; exact Hi|apply (I4 p' q0 i s Hq Hi)].
  - intros p' q0 Hq. rewrite (nth_set_proc _ _ _ q _ Hp) in Hq. destruct (Nat.eqb_spec p p') as [->|Np]; [injection Hq as <-; exact Hpc|apply (I5 p' q0 Hq)].
  - intros p' i e rid r q0 s' Hin Hq Hi. cbn [st_procs st_pub st_log] in *. rewrite (nth_set_proc _ _ _ q _ Hp) in Hq. destruct (Nat.eqb_spec p p') as [->|Np]; [|apply (I6 p' i e rid r q0 s' Hin Hq Hi)].
    injection Hq as <-. destruct (Hs i s' Hi) as (s & Hs' & SS). destruct (I6 p' i e rid r q s Hin Hp Hs') as (A & B & C & D). rewrite (same_valid s s' e SS). destruct SS as (E1 & _ & _ & _ & _ & E6). rewrite E1, E6. auto.
Qed.

Lemma next_sub_info : forall h l i v r fv f, pc_info (next_sub h l i v r fv f) = Some f /\ pc_valid (next_sub h l i v r fv f) = v /\
  (forall j, pc_cur (next_sub h l i v r fv f) = Some j -> i < j /\ exists s, nth_error l j = Some s /\ is_new_event h s = true) /\
  (forall j v' r' fv' f', next_sub h l i v r fv f <> Called j v' r' fv' f') /\ next_sub h l i v r fv f <> Dead.
Proof.
  intros h l i v r fv f. unfold next_sub. destruct (find_new h l (S i)) as [j|] eqn:E.
  - destruct (find_new_some _ _ _ _ E) as (Lt & s & H1 & H2). cbn. split; [reflexivity|]. split; [reflexivity|]. split; [|split; [intros; discriminate|discriminate]]. intros j0 Hj. injection Hj as <-. split; [lia|]. exists s. split; assumption.
  - cbn. split; [reflexivity|]. split; [reflexivity|]. split; [intros; discriminate|split; [intros; discriminate|discriminate]].
Qed.

Lemma after_cb_cases : forall h l i v r fv f s, nth_error l i = Some s -> let q' := after_cb h l i v r fv f in
  (q' = mkproc l (next_sub h l i v r fv f) /\ ((fv = false /\ s_forig s = true) \/ (answered (f_ev f) /\ r = RShelve))) \/
  (~ (fv = false /\ s_forig s = true) /\ answered (f_ev f) /\ r = RErr /\
     q' = mkproc (if ev_eqb (f_ev f) EvChange then upd i (set_last (f_rid f) EvAbort) l else l) (Fin i v r fv true f)) \/
  (~ (fv = false /\ s_forig s = true) /\ (answered (f_ev f) -> r = ROk) /\
     let l' := upd i (set_last (f_rid (h_inf h)) (f_ev (h_inf h))) l in q' = mkproc l' (next_sub h l' i (S v) r fv f)).
Proof.
  intros h l i v r fv f s H. cbv zeta. unfold after_cb. rewrite H. destruct (negb fv && s_forig s) eqn:E.
  - left. split; [reflexivity|]. left. apply andb_true_iff in E. destruct E as (E1 & E2). apply negb_true_iff in E1. auto.
  - assert (Nf : ~ (fv = false /\ s_forig s = true)) by (intros (A & B); rewrite A, B in E; discriminate).
    destruct (f_ev f) eqn:Ee; try (right; right; split; [exact Nf|split; [intros [X|X]; discriminate|reflexivity]]).
    + destruct r; [right; right; split; [exact Nf|split; [reflexivity|reflexivity]]|left; split; [reflexivity|right; split; [left; reflexivity|reflexivity]]|right; left; split; [exact Nf|split; [left; reflexivity|split; reflexivity]]].
    + destruct r; [right; right; split; [exact Nf|split; [reflexivity|reflexivity]]|left; split; [reflexivity|right; split; [right; reflexivity|reflexivity]]|right; left; split; [exact Nf|split; [right; reflexivity|split; reflexivity]]].
Qed.

Lemma alive_not_dead : forall q, p_pc q <> Dead -> alive q = true.
Proof. intros [l c] H. destruct c; try reflexivity. contradiction. Qed.

Lemma vld_same : forall f c, pc_info c = Some f -> vld f c = pc_valid c.
Proof. intros f c H. unfold vld. rewrite H. rewrite (proj2 (info_eqb_eq f f) eq_refl). reflexivity. Qed.

Lemma pc_ok_next : forall st p l i v r fv, is_listen (f_ev (h_inf (st_shm st))) = true -> In (h_inf (st_shm st)) (st_pub st) ->
  pc_ok st p (mkproc l (next_sub (st_shm st) l i v r fv (h_inf (st_shm st)))).
Proof.
  intros st p l i v r fv L Hin. destruct (next_sub_info (st_shm st) l i v r fv (h_inf (st_shm st))) as (A & B & C & D & E). split; [|split; [|split]]; cbn [p_pc p_subs].
  - intros f Hf. rewrite A in Hf. injection Hf as <-. auto.
  - intros j f Hj Hf. rewrite A in Hf. injection Hf as <-. destruct (C j Hj) as (_ & s & Hs & Hn). exists s. split; [exact Hs|]. apply is_new_facts in Hn. destruct Hn as (_ & M & Dn & Ab). auto.
  - intros j v' r' fv' f' H. destruct (D _ _ _ _ _ H).
  - intros j v' r' fv' f' H. unfold next_sub in H. destruct (find_new (st_shm st) l (S i)); discriminate.
Qed.

Lemma inv_relock : forall st p q i v r fv f, suspend_settled st -> inv st -> nth_error (st_procs st) p = Some q -> p_pc q = Called i v r fv f -> info_eqb f (h_inf (st_shm st)) = true ->
  inv (mkst (st_shm st) (set_proc p (after_cb (st_shm st) (p_subs q) i v r fv f) (st_procs st)) (st_pub st) (st_log st)).
Proof.
  intros st p q i v r fv f SU I Hp Hpc Hf. apply info_eqb_eq in Hf. destruct (i_pc st I p q Hp) as (A & B & C & _). rewrite Hpc in A, B, C. cbn [pc_info pc_cur] in A, B.
  destruct (A f eq_refl) as (Hin & L). destruct (B i f eq_refl eq_refl) as (s & Hs & (M1 & M2 & M3) & Nd & Ab). destruct (C _ _ _ _ _ eq_refl) as (Hfv & Hlog). subst f.
  set (h := st_shm st) in *. assert (Al : alive q = true) by (apply alive_not_dead; rewrite Hpc; discriminate).
  assert (Vq : vld (h_inf h) (p_pc q) = v) by (rewrite Hpc; apply vld_same; reflexivity).
  assert (Vn : forall l v' fv', vld (h_inf h) (next_sub h l i v' r fv' (h_inf h)) = v') by (intros l v' fv'; destruct (next_sub_info h l i v' r fv' (h_inf h)) as (X1 & X2 & _); rewrite (vld_same _ _ X1); exact X2).
  destruct (after_cb_cases h (p_subs q) i v r fv (h_inf h) s Hs) as [(-> & _)|[(Nf & An & Er & ->)|(Nf & An & ->)]]; cbv zeta.
  - apply (inv_proc st p q); try assumption; cbn [p_subs].
    + intros j s' H. exists s'. split; [exact H|apply same_static_refl].
    + intros _. unfold weight. rewrite Al. rewrite alive_not_dead by (apply next_sub_info). cbn [p_subs p_pc]. fold h. rewrite Vq, Vn. lia.
    + intros j s' H. apply (i_rem st I p q j s' Hp H).
    + apply pc_ok_next; assumption.
  - assert (U : forall j s', nth_error (if ev_eqb (f_ev (h_inf h)) EvChange then upd i (set_last (f_rid (h_inf h)) EvAbort) (p_subs q) else p_subs q) j = Some s' ->
             exists s0, nth_error (p_subs q) j = Some s0 /\ (s' = s0 \/ (j = i /\ f_ev (h_inf h) = EvChange /\ s' = set_last (f_rid (h_inf h)) EvAbort s0))).
    { intros j s' H. destruct (ev_eqb (f_ev (h_inf h)) EvChange) eqn:Ec; [|exists s'; auto]. apply ev_eqb_eq in Ec. rewrite nth_upd in H. destruct (Nat.eqb_spec i j) as [->|Nj]; [|exists s'; auto].
      rewrite Hs in H. cbn in H. injection H as <-. exists s. auto. }
    apply (inv_proc st p q); try assumption; cbn [p_subs].
    + intros j s' H. destruct (U j s' H) as (s0 & H0 & [->|(_ & _ & ->)]); exists s0; (split; [exact H0|]); [apply same_static_refl|repeat split].
    + intros _. unfold weight. rewrite Al. cbn [alive p_pc p_subs]. fold h. rewrite Vq. assert (Vf : vld (h_inf h) (Fin i v r fv true (h_inf h)) = v) by (apply vld_same; reflexivity). rewrite Vf.
      destruct (ev_eqb (f_ev (h_inf h)) EvChange) eqn:Ec; [|lia]. apply ev_eqb_eq in Ec.
      match goal with |- count_subs ?F 0 _ + _ <= _ => pose proof (count_upd F (set_last (f_rid (h_inf h)) EvAbort) i (p_subs q) s 0 Hs) as Cu end. cbn [Nat.add] in Cu. cbv beta in Cu.
      assert (E1 : done_with (h_inf h) (set_last (f_rid (h_inf h)) EvAbort s) = false) by (unfold done_with; cbn [set_last s_ev s_rid]; rewrite Ec; apply andb_false_r).
      rewrite E1, Nd in Cu. rewrite (same_addr s (set_last (f_rid (h_inf h)) EvAbort s)) in Cu by (repeat split). lia.
    + intros j s' H. destruct (U j s' H) as (s0 & H0 & [->|(_ & _ & ->)]); [apply (i_rem st I p q j s0 Hp H0)|]. intros _ X _. cbn in X. contradiction.
    + split; [|split; [|split]]; cbn [p_pc pc_info pc_cur].
      * intros f E. injection E as <-. auto.
      * intros; discriminate.
      * intros; discriminate.
      * intros j v' r' fv' f' E. injection E as <- <- <- <- <-. exact An.
  - set (l' := upd i (set_last (f_rid (h_inf h)) (f_ev (h_inf h))) (p_subs q)).
    assert (U : forall j s', nth_error l' j = Some s' -> exists s0, nth_error (p_subs q) j = Some s0 /\ (s' = s0 \/ (j = i /\ s' = set_last (f_rid (h_inf h)) (f_ev (h_inf h)) s0))).
    { intros j s' H. unfold l' in H. rewrite nth_upd in H. destruct (Nat.eqb_spec i j) as [->|Nj]; [|exists s'; auto].
      rewrite Hs in H. cbn in H. injection H as <-. exists s. auto. }
    apply (inv_proc st p q); try assumption; cbn [p_subs].
    + intros j s' H. destruct (U j s' H) as (s0 & H0 & [->|(_ & ->)]); exists s0; (split; [exact H0|]); [apply same_static_refl|repeat split].
    + intros _. unfold weight. rewrite Al. rewrite alive_not_dead by (apply next_sub_info). cbn [p_subs p_pc]. fold h. rewrite Vq, Vn. unfold l'.
      match goal with |- count_subs ?F 0 _ + _ <= _ => pose proof (count_upd F (set_last (f_rid (h_inf h)) (f_ev (h_inf h))) i (p_subs q) s 0 Hs) as Cu end. cbn [Nat.add] in Cu. cbv beta in Cu.
      assert (E1 : done_with (h_inf h) (set_last (f_rid (h_inf h)) (f_ev (h_inf h)) s) = true) by (unfold done_with; cbn [set_last s_ev s_rid]; rewrite Nat.eqb_refl, ev_eqb_refl; reflexivity).
      assert (E2 : addressed filt (h_inf h) p i s = true).
      { unfold addressed. rewrite M2, M1, N.eqb_refl. cbn [andb]. rewrite (SU p q i s Hp Hs), M3. cbn [negb andb]. rewrite <- Hfv. apply negb_true_iff. destruct (s_forig s); [|reflexivity]. cbn [andb]. destruct fv; [reflexivity|]. exfalso. apply Nf. auto. }
      rewrite E1, Nd, E2, andb_false_r in Cu. cbn [b2n andb negb] in Cu. lia.
    + intros j s' H. destruct (U j s' H) as (s0 & H0 & [->|(-> & ->)]); [apply (i_rem st I p q j s0 Hp H0)|]. rewrite Hs in H0. injection H0 as <-.
      intros _ _ Hf. cbn [set_last s_ev s_rid s_prio] in *. exists r. assert (Ei : mkinfo (f_ev (h_inf h)) (f_rid (h_inf h)) (s_prio s) = h_inf h) by (rewrite M1; destruct (h_inf h); reflexivity).
      rewrite Ei in Hf. split; [apply Hlog; congruence|exact An].
    + apply pc_ok_next; assumption.
Qed.

Lemma inv_write : forall st p q i v r fv err f, inv st -> nth_error (st_procs st) p = Some q -> p_pc q = Fin i v r fv err f -> info_eqb f (h_inf (st_shm st)) = true ->
  inv (mkst (listen_write_event (st_shm st) v err) (set_proc p (mkproc (p_subs q) Idle) (st_procs st)) (st_pub st) (st_log st)).
Proof.
  intros st p q i v r fv err f I Hp Hpc Hf. apply info_eqb_eq in Hf. destruct (i_pc st I p q Hp) as (A & _ & _ & An). rewrite Hpc in A, An. cbn [pc_info] in A. destruct (A f eq_refl) as (Hin & L). subst f.
  assert (I' : inv (mkst (st_shm st) (set_proc p (mkproc (p_subs q) Idle) (st_procs st)) (st_pub st) ([] ++ st_log st))).
  { apply (inv_local st p q Idle []); try assumption.
    - intros _. apply alive_not_dead. rewrite Hpc. discriminate.
    - intros _. cbn. lia.
    - intros p' j e rid r' [].
    - apply pc_ok_idle. }
  cbn [app] in I'. pose proof (wsum_set (weight (h_inf (st_shm st))) p (st_procs st) q (mkproc (p_subs q) Idle) 0 Hp) as W. cbn [Nat.add] in W.
  assert (Al : alive q = true) by (apply alive_not_dead; rewrite Hpc; discriminate).
  assert (Wq : weight (h_inf (st_shm st)) p q = weight (h_inf (st_shm st)) p (mkproc (p_subs q) Idle) + v).
  { unfold weight. rewrite Al. cbn [alive p_pc p_subs]. rewrite Hpc. rewrite (vld_same (h_inf (st_shm st)) (Fin i v r fv err (h_inf (st_shm st)))) by reflexivity. unfold vld. cbn [pc_info pc_valid]. lia. }
  unfold listen_write_event. destruct (Nat.eqb (h_cnt (st_shm st)) v || err) eqn:E.
  - destruct I' as [I1 I2 I3 I4 I5 I6]. cbn [st_shm st_procs st_pub st_log] in *.
    assert (D : err = false -> f_ev (h_inf (st_shm st)) <> EvAbort -> all_done (h_inf (st_shm st)) (set_proc p (mkproc (p_subs q) Idle) (st_procs st))).
    { intros -> Ne. rewrite orb_false_r in E. apply Nat.eqb_eq in E. pose proof (i_count st I L Ne) as Ic. assert (Z : wsum (weight (h_inf (st_shm st))) 0 (set_proc p (mkproc (p_subs q) Idle) (st_procs st)) = 0) by lia.
      intros p' q' j s Hq Ha Hs Had. pose proof (wsum_in (weight (h_inf (st_shm st))) _ p' q' 0 Hq) as Wi. cbn [Nat.add] in Wi. unfold weight at 1 in Wi. rewrite Ha in Wi. cbn iota in Wi. rewrite Z in Wi.
      destruct (done_with (h_inf (st_shm st)) s) eqn:Ed; [reflexivity|]. exfalso.
      pose proof (count_in (fun j s => addressed filt (h_inf (st_shm st)) p' j s && negb (done_with (h_inf (st_shm st)) s)) (p_subs q') j s 0 Hs) as Ci. cbn [Nat.add] in Ci. cbv beta in Ci. rewrite Had, Ed in Ci. specialize (Ci eq_refl). lia. }
    destruct (i_listen st I L) as (pub & Epub).
    constructor; cbn [st_shm st_procs st_pub st_log h_inf h_cnt f_ev].
    + destruct (f_ev (h_inf (st_shm st))) eqn:Ee; try discriminate; try (destruct err; discriminate).
    + intros H. exists (h_inf (st_shm st)), pub. split; [exact Epub|]. split; [exact L|]. intros Ne. apply D; [|exact Ne].
      destruct err; [|reflexivity]. exfalso. destruct (An i v r fv (h_inf (st_shm st)) eq_refl) as [X|X]; rewrite X in H; destruct H; discriminate.
    + destruct (f_ev (h_inf (st_shm st))) eqn:Ee; try discriminate; try (destruct err; discriminate).
    + exact I4.
    + intros p' q' Hq. apply (pc_ok_incl (mkst (st_shm st) (set_proc p (mkproc (p_subs q) Idle) (st_procs st)) (st_pub st) (st_log st))); [apply incl_refl|apply incl_refl|]. apply I5. exact Hq.
    + exact I6.
  - apply orb_false_iff in E. destruct E as (E & ->). destruct I' as [I1 I2 I3 I4 I5 I6]. cbn [st_shm st_procs st_pub st_log] in *.
    assert (Ei : mkinfo (f_ev (h_inf (st_shm st))) (f_rid (h_inf (st_shm st))) (f_prio (h_inf (st_shm st))) = h_inf (st_shm st)) by (destruct (h_inf (st_shm st)); reflexivity). rewrite Ei.
    constructor; cbn [st_shm st_procs st_pub st_log h_inf h_cnt]; try assumption.
    intros _ Ne. pose proof (i_count st I L Ne) as Ic. lia.
Qed.

(** ** All steps *)
Lemma step_static : forall st st', step filt lf st st' -> forall p q' i s', nth_error (st_procs st') p = Some q' -> nth_error (p_subs q') i = Some s' ->
  exists q s, nth_error (st_procs st) p = Some q /\ nth_error (p_subs q) i = Some s /\ same_static s s' /\ (alive q' = true -> alive q = true).
Proof.
  assert (Hsame : forall (l : list proc) p q' i s', nth_error l p = Some q' -> nth_error (p_subs q') i = Some s' ->
     exists q s, nth_error l p = Some q /\ nth_error (p_subs q) i = Some s /\ same_static s s' /\ (alive q' = true -> alive q = true)) by (intros l p q' i s' H1 H2; exists q', s'; split; [exact H1|split; [exact H2|split; [apply same_static_refl|auto]]]).
  assert (Hset : forall (l : list proc) p0 q0 qn p q' i s', nth_error l p0 = Some q0 -> (alive qn = true -> alive q0 = true) ->
     (forall i s', nth_error (p_subs qn) i = Some s' -> exists s, nth_error (p_subs q0) i = Some s /\ same_static s s') ->
     nth_error (set_proc p0 qn l) p = Some q' -> nth_error (p_subs q') i = Some s' ->
     exists q s, nth_error l p = Some q /\ nth_error (p_subs q) i = Some s /\ same_static s s' /\ (alive q' = true -> alive q = true)).
  { intros l p0 q0 qn p q' i s' H0 Ha Hs H1 H2. rewrite (nth_set_proc _ _ _ q0 _ H0) in H1. destruct (Nat.eqb_spec p0 p) as [->|N]; [|apply (Hsame l p q' i s' H1 H2)].
    injection H1 as <-. destruct (Hs i s' H2) as (s & X & Y). exists q0, s. auto. }
  assert (Hid : forall l c i s', nth_error (p_subs (mkproc l c)) i = Some s' -> exists s, nth_error l i = Some s /\ same_static s s') by (intros l c i s' H; exists s'; split; [exact H|apply same_static_refl]).
  intros st st' Hst p q' i s' H1 H2. destruct Hst as [inf n _ _ _ _|inf pub _ _|_| |p0 q0 Hp|p0 q0 j Hp Hc _|p0 q0 j v r f r' Hp Hc _|p0 q0 j v r f Hp Hc _|p0 q0 j v r fv f Hp Hc _|p0 q0 j v r fv f Hp Hc _|p0 q0 j v r fv err f Hp Hc _|p0 q0 j v r fv err f Hp Hc _|p0 q0 _ Hp Ha]; cbn [st_procs] in H1;
    try (apply (Hsame (st_procs st) p q' i s' H1 H2));
    try (refine (Hset (st_procs st) p0 q0 _ p q' i s' Hp _ _ H1 H2); [first [discriminate | intros _; first [exact Ha | apply alive_not_dead; rewrite Hc; discriminate]]|apply Hid]).
  refine (Hset (st_procs st) p0 q0 _ p q' i s' Hp _ _ H1 H2); [intros _; apply alive_not_dead; rewrite Hc; discriminate|].
  intros k s0 Hk. unfold after_cb in Hk. destruct (nth_error (p_subs q0) j) as [sj|] eqn:Ej; [|apply Hid in Hk; exact Hk].
  assert (Hu : forall g c, (forall s, same_static s (g s)) -> nth_error (p_subs (mkproc (upd j g (p_subs q0)) c)) k = Some s0 -> exists s, nth_error (p_subs q0) k = Some s /\ same_static s s0).
  { intros g c Hg H. cbn [p_subs] in H. rewrite nth_upd in H. destruct (Nat.eqb j k); [|exists s0; split; [exact H|apply same_static_refl]]. destruct (nth_error (p_subs q0) k) as [sk|]; [|discriminate]. injection H as <-. exists sk. auto. }
  destruct (negb fv && s_forig sj); [apply Hid in Hk; exact Hk|].
  destruct (f_ev f); try (eapply Hu; [|exact Hk]; intros; repeat split);
  (destruct r; [eapply Hu; [|exact Hk]; intros; repeat split|apply Hid in Hk; exact Hk|]); cbn [ev_eqb] in Hk; first [apply Hid in Hk; exact Hk | eapply Hu; [|exact Hk]; intros; repeat split].
Qed.

Lemma settled_step : forall st st', step filt lf st st' -> suspend_settled st -> suspend_settled st'.
Proof.
  intros st st' H S p q i s Hq Hs. destruct (step_static st st' H p q i s Hq Hs) as (q0 & s0 & H1 & H2 & (_ & _ & _ & _ & E1 & E2) & _). rewrite E1, E2. apply (S p q0 i s0 H1 H2).
Qed.

Lemma inv_step : forall st st', suspend_settled st -> inv st -> step filt lf st st' -> inv st'.
Proof.
  intros st st' SU I Hst. destruct Hst as [inf n He Hl Hn Hc|inf pub He Hp|Hl| |p q Hp|p q i Hp Hc Hf|p q i v r f r' Hp Hc Hf|p q i v r f Hp Hc Hf|p q i v r fv f Hp Hc Hf|p q i v r fv f Hp Hc Hf|p q i v r fv err f Hp Hc Hf|p q i v r fv err f Hp Hc Hf|p q Hlf Hp Ha].
  - apply inv_publish; assumption.
  - apply (inv_shm st _ I) with (o := [OOk inf]); cbn; try reflexivity; try discriminate. intros p i e rid r [H|[]]. discriminate.
  - apply (inv_shm st _ I) with (o := []); cbn; try reflexivity; try discriminate. auto.
  - apply (inv_shm st _ I) with (o := []); cbn; try reflexivity; try discriminate. auto.
  - apply (inv_local st p q Dead [] I Hp); [discriminate|cbn; lia|intros ? ? ? ? ? []|apply pc_ok_dead].
  - destruct (find_new_some _ _ _ _ Hf) as (_ & s & Hs & Hn). destruct (is_new_facts _ _ Hn) as (L & M & D & Ab). destruct (i_listen st I L) as (pub & Ep).
    apply (inv_local st p q _ [] I Hp); [intros _; apply alive_not_dead; rewrite Hc; discriminate| |intros ? ? ? ? ? []|].
    + intros _. unfold vld. cbn [pc_info pc_valid]. destruct (info_eqb _ _); lia.
    + split; [|split; [|split]]; cbn [p_pc p_subs pc_info pc_cur st_pub].
      * intros f E. injection E as <-. split; [rewrite Ep; left; reflexivity|exact L].
      * intros j f E1 E2. injection E1 as <-. injection E2 as <-. exists s. auto.
      * intros; discriminate.
      * intros; discriminate.
  - destruct (i_pc st I p q Hp) as (A & B & C & D). rewrite Hc in A, B. cbn [pc_info pc_cur] in A, B. destruct (A f eq_refl) as (Hin & L). destruct (B i f eq_refl eq_refl) as (s & Hs & M & Nd & Ab).
    apply (inv_local st p q _ [OCall p i (f_ev f) (f_rid f) r'] I Hp); [intros _; apply alive_not_dead; rewrite Hc; discriminate| | |].
    + intros _. rewrite Hc. apply le_n.
    + intros p' j e rid r0 [E|[]]. injection E as <- <- <- <- <-. split; [reflexivity|]. intros s' Hs'. rewrite Hs in Hs'. injection Hs' as <-. destruct M as (M1 & M2 & M3). rewrite M1.
      split; [replace (mkinfo (f_ev f) (f_rid f) (f_prio f)) with f by (destruct f; reflexivity); exact Hin|]. auto.
    + split; [|split; [|split]]; cbn [p_pc p_subs pc_info pc_cur st_pub st_log].
      * intros f0 E. injection E as <-. auto.
      * intros j f0 E1 E2. injection E1 as <-. injection E2 as <-. exists s. auto.
      * intros j v' r0 fv f0 E. injection E as <- <- <- <- <-. split; [symmetry; exact Hf|]. intros _. left. reflexivity.
      * intros; discriminate.
  - destruct (i_pc st I p q Hp) as (A & B & C & D). rewrite Hc in A, B. cbn [pc_info pc_cur] in A, B. destruct (A f eq_refl) as (Hin & L). destruct (B i f eq_refl eq_refl) as (s & Hs & M & Nd & Ab).
    apply (inv_local st p q _ [] I Hp); [intros _; apply alive_not_dead; rewrite Hc; discriminate|intros _; rewrite Hc; apply le_n|intros ? ? ? ? ? []|].
    split; [|split; [|split]]; cbn [p_pc p_subs pc_info pc_cur st_pub st_log].
      * intros f0 E. injection E as <-. auto.
      * intros j f0 E1 E2. injection E1 as <-. injection E2 as <-. exists s. auto.
      * intros j v' r0 fv f0 E. injection E as <- <- <- <- <-. split; [symmetry; exact Hf|]. discriminate.
      * intros; discriminate.
  - apply (inv_relock st p q i v r fv f); assumption.
  - assert (X : inv (mkst (st_shm st) (set_proc p (mkproc (p_subs q) Idle) (st_procs st)) (st_pub st) ((if self_abort (p_subs q) i r fv f then [OSelf p i (f_rid f)] else []) ++ st_log st))).
    { apply (inv_local st p q Idle _ I Hp); [intros _; apply alive_not_dead; rewrite Hc; discriminate|intros _; cbn; lia| |apply pc_ok_idle]. destruct (self_abort (p_subs q) i r fv f); cbn; [|intros ? ? ? ? ? []]. intros ? ? ? ? ? [H|[]]. discriminate. }
    destruct (self_abort (p_subs q) i r fv f); exact X.
  - apply (inv_write st p q i v r fv err f); assumption.
  - assert (X : inv (mkst (st_shm st) (set_proc p (mkproc (p_subs q) Idle) (st_procs st)) (st_pub st) ((if self_abort (p_subs q) i r fv f then [OSelf p i (f_rid f)] else []) ++ st_log st))).
    { apply (inv_local st p q Idle _ I Hp); [intros _; apply alive_not_dead; rewrite Hc; discriminate|intros _; cbn; lia| |apply pc_ok_idle]. destruct (self_abort (p_subs q) i r fv f); cbn; [|intros ? ? ? ? ? []]. intros ? ? ? ? ? [H|[]]. discriminate. }
    destruct (self_abort (p_subs q) i r fv f); exact X.
  - apply (inv_local st p q Idle [] I Hp); [intros _; exact Ha|cbn; lia|intros ? ? ? ? ? []|apply pc_ok_idle].
Qed.

Lemma inv_initial : forall st, initial st -> inv st.
Proof.
  intros st (E & P & L & Q). constructor; rewrite ?E, ?P, ?L.
  - discriminate.
  - intros [H|H]; discriminate.
  - discriminate.
  - intros p q i s Hq Hs. destruct (Q p q Hq) as (_ & F). rewrite Forall_forall in F. specialize (F s (nth_error_In _ _ Hs)). intros X. rewrite F in X. discriminate.
  - intros p q Hq. destruct (Q p q Hq) as (Hc & _). destruct q as [l c]. cbn in Hc. subst c. apply pc_ok_idle.
  - intros p i e rid r q s Hin. rewrite L in Hin. destruct Hin.
Qed.

Lemma inv_reach : forall st0 st, initial st0 -> suspend_settled st0 -> reach filt lf st0 st -> inv st /\ suspend_settled st.
Proof.
  intros st0 st H0 S0 R. induction R as [|st st' R IH Hst]; [split; [apply inv_initial; exact H0|exact S0]|].
  destruct IH as (I & S). split; [apply (inv_step st st' S I Hst)|apply (settled_step st st' Hst S)].
Qed.
End Inv.

(** * Every addressed subscriber processes an event before its originator continues *)
Definition ok_complete (filt : info -> nat -> nat -> bool) (st : state) : Prop :=
  forall l1 l2 inf p i s, st_log st = l1 ++ OOk inf :: l2 -> f_ev inf <> EvAbort -> the_sub st p i s ->
    addressed filt inf p i s = true -> filt inf p i = true ->
    exists r, In (OCall p i (f_ev inf) (f_rid inf) r) l2 /\ (answered (f_ev inf) -> r = ROk).

Lemma log_step : forall filt lf st st', step filt lf st st' -> st_log st' = st_log st \/ exists o, st_log st' = o :: st_log st.
Proof.
  intros filt lf st st' H. destruct H; cbn; try (left; reflexivity); try (right; eexists; reflexivity); destruct (self_abort _ _ _ _ _); [right; eexists; reflexivity|left; reflexivity|right; eexists; reflexivity|left; reflexivity].
Qed.

Lemma the_sub_step : forall filt lf st st' p i s', step filt lf st st' -> the_sub st' p i s' -> exists s, the_sub st p i s /\ same_static s s'.
Proof.
  intros filt lf st st' p i s' H (q' & Hq & Ha & Hs). destruct (step_static filt lf st st' H p q' i s' Hq Hs) as (q & s & H1 & H2 & H3 & H4). exists s. split; [|exact H3]. exists q. auto.
Qed.

Lemma ok_complete_reach : forall filt lf st0 st, initial st0 -> suspend_settled st0 -> reach filt lf st0 st -> ok_complete filt st.
Proof.
  intros filt lf st0 st H0 S0 R. induction R as [|st st' R IH Hst].
  - intros l1 l2 inf p i s E. destruct H0 as (_ & _ & L & _). rewrite L in E. destruct l1; discriminate.
  - destruct (inv_reach filt lf st0 st H0 S0 R) as (I & _). intros l1 l2 inf p i s' E Ne Hs' Ha Hf.
    destruct (the_sub_step filt lf st st' p i s' Hst Hs') as (s & Hs & SS). rewrite (same_addr filt s s' inf p i SS) in Ha.
    destruct (log_step filt lf st st' Hst) as [EL|(o & EL)].
    + rewrite EL in E. apply (IH l1 l2 inf p i s E Ne Hs Ha Hf).
    + rewrite EL in E. destruct l1 as [|o' l1]; cbn [app] in E; [|injection E as _ E; apply (IH l1 l2 inf p i s E Ne Hs Ha Hf)].
      injection E as -> <-. assert (X : (f_ev (h_inf (st_shm st)) = EvSuccess \/ f_ev (h_inf (st_shm st)) = EvFinished) /\ exists pub, st_pub st = inf :: pub).
      { clear -Hst EL. destruct Hst; cbn in EL; try (exfalso; apply (f_equal (@length obs)) in EL; cbn in EL; clear -EL; lia); try discriminate.
        - injection EL as <-. split; [assumption|exists pub; assumption].
        - destruct (self_abort _ _ _ _ _); [discriminate|exfalso; apply (f_equal (@length obs)) in EL; cbn in EL; lia].
        - destruct (self_abort _ _ _ _ _); [discriminate|exfalso; apply (f_equal (@length obs)) in EL; cbn in EL; lia]. }
      destruct X as (Xe & pub & Xp). destruct (i_done filt st I Xe) as (inf' & pub' & Ep & L & D). rewrite Xp in Ep. injection Ep as <- _. destruct Hs as (q & Hq & Hal & Hsn). specialize (D Ne p q i s Hq Hal Hsn Ha).
      unfold done_with in D. apply andb_true_iff in D. destruct D as (D1 & D2). apply Nat.eqb_eq in D1. apply ev_eqb_eq in D2.
      assert (Pr : s_prio s = f_prio inf) by (unfold addressed in Ha; repeat (apply andb_true_iff in Ha; destruct Ha as (Ha & ?)); apply N.eqb_eq; assumption).
      pose proof (i_rem filt st I p q i s Hq Hsn) as Rm. unfold remembered in Rm. rewrite D1, D2, Pr in Rm. replace (mkinfo (f_ev inf) (f_rid inf) (f_prio inf)) with inf in Rm by (destruct inf; reflexivity). apply (Rm L Ne Hf).
Qed.

(** * Abort events written by the originator *)
Definition abort_accepted (filt : info -> nat -> nat -> bool) (st : state) : Prop :=
  forall l1 l2 p i rid r, st_log st = l1 ++ OCall p i EvAbort rid r :: l2 -> In (OCall p i EvChange rid ROk) l2.

Lemma call_step : forall filt lf st st' p i e rid r, step filt lf st st' -> st_log st' = OCall p i e rid r :: st_log st ->
  exists q v ret f, nth_error (st_procs st) p = Some q /\ p_pc q = Call i v ret f /\ filt f p i = true /\ e = f_ev f /\ rid = f_rid f /\
    st' = mkst (st_shm st) (set_proc p (mkproc (p_subs q) (Called i v r true f)) (st_procs st)) (st_pub st) (st_log st').
Proof.
  intros filt lf st st' p i e rid r Hst EL. destruct Hst as [inf n _ _ _ _|inf pub _ _|_| |p0 q0 Hp|p0 q0 j Hp Hc _|p0 q0 j v r0 f r' Hp Hc Hf|p0 q0 j v r0 f Hp Hc _|p0 q0 j v r0 fv f Hp Hc _|p0 q0 j v r0 fv f Hp Hc _|p0 q0 j v r0 fv err f Hp Hc _|p0 q0 j v r0 fv err f Hp Hc _|p0 q0 _ Hp Ha]; cbn [st_log] in EL;
    try (destruct (self_abort _ _ _ _ _)); try discriminate; try (exfalso; apply (f_equal (@length obs)) in EL; cbn in EL; clear -EL; lia).
  injection EL as <- <- <- <- <-. exists q0, v, r0, f. repeat split; assumption.
Qed.

Lemma abort_accepted_reach : forall filt lf st0 st, (forall rid pr p i, filt (mkinfo EvAbort rid pr) p i = filt (mkinfo EvChange rid pr) p i) ->
  initial st0 -> suspend_settled st0 -> reach filt lf st0 st -> abort_accepted filt st.
Proof.
  intros filt lf st0 st HF H0 S0 R. induction R as [|st st' R IH Hst].
  - intros l1 l2 p i rid r E. destruct H0 as (_ & _ & L & _). rewrite L in E. destruct l1; discriminate.
  - destruct (inv_reach filt lf st0 st H0 S0 R) as (I & _). intros l1 l2 p i rid r E. destruct (log_step filt lf st st' Hst) as [EL|(o & EL)].
    + rewrite EL in E. apply (IH l1 l2 p i rid r E).
    + destruct l1 as [|o' l1]; cbn [app] in E; [|rewrite EL in E; injection E as _ E; apply (IH l1 l2 p i rid r E)].
      assert (E2 : st_log st = l2) by (rewrite EL in E; injection E as _ E; exact E). rewrite <- E2 in *.
      destruct (call_step filt lf st st' p i _ _ _ Hst E) as (q & v & ret & f & Hp & Hc & Hf & Ee & Er & _).
      destruct (i_pc filt st I p q Hp) as (_ & B & _). rewrite Hc in B. destruct (B i f eq_refl eq_refl) as (s & Hs & (M1 & M2 & M3) & _ & Ab). destruct (Ab (eq_sym Ee)) as (A1 & A2).
      pose proof (i_rem filt st I p q i s Hp Hs) as Rm. unfold remembered in Rm. rewrite A1, A2, M1 in Rm.
      assert (Hf' : filt (mkinfo EvChange (f_rid f) (f_prio f)) p i = true) by (rewrite <- HF, Ee; destruct f; exact Hf).
      destruct (Rm eq_refl ltac:(discriminate) Hf') as (r0 & Hin & An). rewrite (An (or_intror eq_refl)) in Hin. rewrite Er. exact Hin.
Qed.

(** * No event is processed twice *)
Definition call_once (st : state) : Prop :=
  forall l1 l2 p i e rid r1 r2, st_log st = l1 ++ OCall p i e rid r1 :: l2 -> In (OCall p i e rid r2) l2 -> ~ final e r2.

Record inv2 (st : state) : Prop := {
  j_fin : forall p q i s e rid r, nth_error (st_procs st) p = Some q -> nth_error (p_subs q) i = Some s -> In (OCall p i e rid r) (st_log st) -> final e r ->
     done_with (mkinfo e rid (s_prio s)) s = true \/ h_inf (st_shm st) <> mkinfo e rid (s_prio s) \/ alive q = false \/
     (exists v r' fv, p_pc q = Called i v r' fv (mkinfo e rid (s_prio s))) \/ (exists j v r' fv, p_pc q = Fin j v r' fv true (mkinfo e rid (s_prio s)));
  j_call : forall p q i v r f r0, nth_error (st_procs st) p = Some q -> p_pc q = Call i v r f -> In (OCall p i (f_ev f) (f_rid f) r0) (st_log st) -> ~ final (f_ev f) r0;
  j_called : forall p q i v r fv f r0, nth_error (st_procs st) p = Some q -> p_pc q = Called i v r fv f -> In (OCall p i (f_ev f) (f_rid f) r0) (st_log st) -> final (f_ev f) r0 -> r0 = r /\ fv = true;
  j_once : call_once st }.

Lemma final_dec : forall e r, {final e r} + {~ final e r}.
Proof. intros e r. unfold final, answered. destruct r; [left; intros (_ & H); discriminate| |left; intros (_ & H); discriminate]. destruct e; try (left; intros ([X|X] & _); discriminate); right; intros H; apply H; auto. Qed.

Section Once.
Variable filt : info -> nat -> nat -> bool.

(** Steps changing the event only. *)
Lemma inv2_shm : forall st h pub o, inv filt st -> inv2 st -> incl (st_pub st) pub ->
  (forall f, In f (st_pub st) -> is_listen (f_ev f) = true -> h_inf (st_shm st) <> f -> h_inf h <> f) -> (forall p i e rid r, ~ In (OCall p i e rid r) o) ->
  inv2 (mkst h (st_procs st) pub (o ++ st_log st)).
Proof.
  intros st h pub o I [J1 J2 J3 J4] Hp Hh Ho.
  assert (In' : forall p i e rid r, In (OCall p i e rid r) (o ++ st_log st) -> In (OCall p i e rid r) (st_log st)) by (intros p i e rid r H; apply in_app_or in H; destruct H as [H|H]; [destruct (Ho _ _ _ _ _ H)|exact H]).
  constructor; cbn [st_shm st_procs st_pub st_log].
  - intros p q i s e rid r Hq Hs Hin F. apply In' in Hin. destruct (J1 p q i s e rid r Hq Hs Hin F) as [H|[H|H]]; [left; exact H| |right; right; exact H].
    right. left. destruct (i_called filt st I p i e rid r q s Hin Hq Hs) as (X & Y & _). apply (Hh _ X Y H).
  - intros p q i v r f r0 Hq Hc Hin. apply In' in Hin. apply (J2 p q i v r f r0 Hq Hc Hin).
  - intros p q i v r fv f r0 Hq Hc Hin. apply In' in Hin. apply (J3 p q i v r fv f r0 Hq Hc Hin).
  - intros l1 l2 p i e rid r1 r2 E. cbn [st_log] in E. revert l1 E. induction o as [|x o IHo]; intros l1 E; [apply (J4 l1 l2 p i e rid r1 r2 E)|].
    destruct l1 as [|y l1]; cbn [app] in E; injection E as E1 E2.
    + subst x. exfalso. apply (Ho p i e rid r1). left. reflexivity.
    + apply (IHo (fun p i e rid r H => Ho p i e rid r (or_intror H)) ) with (l1 := l1); [|exact E2]. intros p0 i0 e0 rid0 r0 H. apply in_app_or in H. destruct H as [H|H]; [destruct (Ho p0 i0 e0 rid0 r0 (or_intror H))|exact H].
Qed.

(** Steps of a process which calls nothing. *)
Lemma inv2_proc : forall st p q q' o h, inv filt st -> inv2 st -> nth_error (st_procs st) p = Some q -> (forall p i e rid r, ~ In (OCall p i e rid r) o) ->
  (forall f, In f (st_pub st) -> is_listen (f_ev f) = true -> h_inf (st_shm st) <> f -> h_inf h <> f) ->
  (forall i s' e rid r, nth_error (p_subs q') i = Some s' -> In (OCall p i e rid r) (st_log st) -> final e r ->
     done_with (mkinfo e rid (s_prio s')) s' = true \/ h_inf h <> mkinfo e rid (s_prio s') \/ alive q' = false \/
     (exists v r' fv, p_pc q' = Called i v r' fv (mkinfo e rid (s_prio s'))) \/ (exists j v r' fv, p_pc q' = Fin j v r' fv true (mkinfo e rid (s_prio s')))) ->
  (forall i v r f r0, p_pc q' = Call i v r f -> In (OCall p i (f_ev f) (f_rid f) r0) (st_log st) -> ~ final (f_ev f) r0) ->
  (forall i v r fv f r0, p_pc q' = Called i v r fv f -> In (OCall p i (f_ev f) (f_rid f) r0) (st_log st) -> final (f_ev f) r0 -> r0 = r /\ fv = true) ->
  inv2 (mkst h (set_proc p q' (st_procs st)) (st_pub st) (o ++ st_log st)).
Proof.
  intros st p q q' o h I J Hp Ho Hh H1 H2 H3. pose proof (inv2_shm st h (st_pub st) o I J (incl_refl _) Hh Ho) as [J1 J2 J3 J4]. cbn [st_shm st_procs st_pub st_log] in *.
  assert (In' : forall p i e rid r, In (OCall p i e rid r) (o ++ st_log st) -> In (OCall p i e rid r) (st_log st)) by (intros p0 i e rid r H; apply in_app_or in H; destruct H as [H|H]; [destruct (Ho _ _ _ _ _ H)|exact H]).
  constructor; cbn [st_shm st_procs st_pub st_log].
  - intros p' q0 i s e rid r Hq Hs Hin F. rewrite (nth_set_proc _ _ _ q _ Hp) in Hq. destruct (Nat.eqb_spec p p') as [->|N]; [|apply (J1 p' q0 i s e rid r Hq Hs Hin F)]. injection Hq as <-. apply (H1 i s e rid r Hs (In' _ _ _ _ _ Hin) F).
  - intros p' q0 i v r f r0 Hq Hc Hin. rewrite (nth_set_proc _ _ _ q _ Hp) in Hq. destruct (Nat.eqb_spec p p') as [->|N]; [|apply (J2 p' q0 i v r f r0 Hq Hc Hin)]. injection Hq as <-. apply (H2 i v r f r0 Hc (In' _ _ _ _ _ Hin)).
  - intros p' q0 i v r fv f r0 Hq Hc Hin. rewrite (nth_set_proc _ _ _ q _ Hp) in Hq. destruct (Nat.eqb_spec p p') as [->|N]; [|apply (J3 p' q0 i v r fv f r0 Hq Hc Hin)]. injection Hq as <-. apply (H3 i v r fv f r0 Hc (In' _ _ _ _ _ Hin)).
  - exact J4.
Qed.

Lemma mkinfo_eta : forall f, mkinfo (f_ev f) (f_rid f) (f_prio f) = f.
Proof. intros []. reflexivity. Qed.

Lemma write_inf : forall h v err, is_listen (f_ev (h_inf h)) = true -> h_inf (listen_write_event h v err) = h_inf h /\ err = false \/ is_listen (f_ev (h_inf (listen_write_event h v err))) = false.
Proof.
  intros h v err L. unfold listen_write_event. destruct (Nat.eqb (h_cnt h) v || err) eqn:E; cbn [h_inf f_ev].
  - right. destruct (f_ev (h_inf h)); try discriminate; destruct err; reflexivity.
  - left. apply orb_false_iff in E. split; [apply mkinfo_eta|apply E].
Qed.

Lemma listen_neq : forall (h f : info), is_listen (f_ev f) = true -> is_listen (f_ev h) = false -> h <> f.
Proof. intros h f L N E. rewrite E, L in N. discriminate. Qed.

Lemma inv2_call : forall st p q i v ret f r, inv filt st -> inv2 st -> nth_error (st_procs st) p = Some q -> p_pc q = Call i v ret f ->
  inv2 (mkst (st_shm st) (set_proc p (mkproc (p_subs q) (Called i v r true f)) (st_procs st)) (st_pub st) (OCall p i (f_ev f) (f_rid f) r :: st_log st)).
Proof.
  intros st p q i v ret f r I J Hp Hc. destruct J as [J1 J2 J3 J4]. destruct (i_pc filt st I p q Hp) as (_ & B & _). rewrite Hc in B. destruct (B i f eq_refl eq_refl) as (s & Hs & (M1 & _) & _ & _).
  constructor; cbn [st_shm st_procs st_pub st_log].
  - intros p' q0 j s0 e rid r0 Hq Hs0 Hin F. rewrite (nth_set_proc _ _ _ q _ Hp) in Hq. destruct Hin as [Hin|Hin].
    + injection Hin as <- <- <- <- <-. rewrite Nat.eqb_refl in Hq. injection Hq as <-. cbn [p_subs] in Hs0. rewrite Hs in Hs0. injection Hs0 as <-. right. right. right. left. exists v, r, true. cbn [p_pc]. rewrite M1, mkinfo_eta. reflexivity.
    + destruct (Nat.eqb_spec p p') as [->|N]; [|apply (J1 p' q0 j s0 e rid r0 Hq Hs0 Hin F)]. injection Hq as <-. cbn [p_subs] in Hs0.
      destruct (J1 p' q j s0 e rid r0 Hp Hs0 Hin F) as [H|[H|[H|[(v' & r' & fv & H)|(k & v' & r' & fv & H)]]]]; [left; exact H|right; left; exact H| |rewrite Hc in H; discriminate|rewrite Hc in H; discriminate].
      unfold alive in H. rewrite Hc in H. discriminate.
  - intros p' q0 j v' r' f' r0 Hq Hc' Hin. rewrite (nth_set_proc _ _ _ q _ Hp) in Hq. destruct (Nat.eqb_spec p p') as [->|N]; [injection Hq as <-; discriminate|]. destruct Hin as [Hin|Hin]; [injection Hin as E1; congruence|]. apply (J2 p' q0 j v' r' f' r0 Hq Hc' Hin).
  - intros p' q0 j v' r' fv f' r0 Hq Hc' Hin F. rewrite (nth_set_proc _ _ _ q _ Hp) in Hq. destruct (Nat.eqb_spec p p') as [->|N].
    + injection Hq as <-. cbn [p_pc] in Hc'. injection Hc' as <- <- <- <- <-. destruct Hin as [Hin|Hin]; [injection Hin as ->; auto|]. destruct (J2 p' q i v ret f r0 Hp Hc Hin F).
    + destruct Hin as [Hin|Hin]; [injection Hin as E1; congruence|]. apply (J3 p' q0 j v' r' fv f' r0 Hq Hc' Hin F).
  - intros l1 l2 p' j e rid r1 r2 E Hin. cbn [st_log] in E. destruct l1 as [|x l1]; cbn [app] in E.
    + injection E as <- <- <- <- <- <-. apply (J2 p q i v ret f r2 Hp Hc Hin).
    + injection E as _ E. apply (J4 l1 l2 p' j e rid r1 r2 E Hin).
Qed.

Lemma inv2_relock : forall st p q i v r fv f, inv filt st -> inv2 st -> nth_error (st_procs st) p = Some q -> p_pc q = Called i v r fv f -> info_eqb f (h_inf (st_shm st)) = true ->
  inv2 (mkst (st_shm st) (set_proc p (after_cb (st_shm st) (p_subs q) i v r fv f) (st_procs st)) (st_pub st) (st_log st)).
Proof.
  intros st p q i v r fv f I J Hp Hpc Hf. apply info_eqb_eq in Hf. destruct (i_pc filt st I p q Hp) as (A & B & C & _). rewrite Hpc in A, B, C. cbn [pc_info pc_cur] in A, B.
  destruct (B i f eq_refl eq_refl) as (s & Hs & (M1 & M2 & M3) & Nd & Ab). subst f. set (h := st_shm st) in *.
  assert (G : forall q', (forall j s' e rid r0, nth_error (p_subs q') j = Some s' -> In (OCall p j e rid r0) (st_log st) -> final e r0 ->
     done_with (mkinfo e rid (s_prio s')) s' = true \/ h_inf h <> mkinfo e rid (s_prio s') \/ alive q' = false \/
     (exists v r' fv, p_pc q' = Called j v r' fv (mkinfo e rid (s_prio s'))) \/ (exists k v r' fv, p_pc q' = Fin k v r' fv true (mkinfo e rid (s_prio s')))) ->
     ((exists l v', q' = mkproc l (next_sub h l i v' r fv (h_inf h))) \/ (exists l, q' = mkproc l (Fin i v r fv true (h_inf h)))) ->
     inv2 (mkst h (set_proc p q' (st_procs st)) (st_pub st) (st_log st))).
  { intros q' H1 Hq'. apply (inv2_proc st p q q' [] h I J Hp); [intros ? ? ? ? ? []|auto|exact H1| |].
    - intros j v' r' f0 r0 Hc Hin F. destruct Hq' as [(l & v0 & ->)|(l & ->)]; [|discriminate]. cbn [p_pc] in Hc. destruct (next_sub_info h l i v0 r fv (h_inf h)) as (X1 & X2 & X3 & X4 & X5). rewrite Hc in X1, X3. cbn in X1. injection X1 as ->.
      destruct (X3 j eq_refl) as (_ & s' & Hs' & Hn). destruct (is_new_facts _ _ Hn) as (_ & (N1 & _) & N2 & _).
      destruct (H1 j s' _ _ r0 Hs' Hin F) as [H|[H|[H|[(v1 & r1 & fv1 & H)|(k & v1 & r1 & fv1 & H)]]]]; rewrite ?N1, ?mkinfo_eta in H.
      + congruence.
      + apply H. reflexivity.
      + unfold alive in H. cbn [p_pc] in H. rewrite Hc in H. discriminate.
      + cbn [p_pc] in H. rewrite Hc in H. discriminate.
      + cbn [p_pc] in H. rewrite Hc in H. discriminate.
    - intros j v' r' fv' f0 r0 Hc. destruct Hq' as [(l & v0 & ->)|(l & ->)]; [|discriminate]. cbn [p_pc] in Hc. destruct (next_sub_info h l i v0 r fv (h_inf h)) as (_ & _ & _ & X4 & _). destruct (X4 _ _ _ _ _ Hc). }
  assert (P : forall j s0 e rid r0, nth_error (p_subs q) j = Some s0 -> In (OCall p j e rid r0) (st_log st) -> final e r0 ->
     done_with (mkinfo e rid (s_prio s0)) s0 = true \/ h_inf h <> mkinfo e rid (s_prio s0) \/ (j = i /\ mkinfo e rid (s_prio s0) = h_inf h /\ r0 = r /\ fv = true)).
  { intros j s0 e rid r0 H0 Hin F. destruct (j_fin st J p q j s0 e rid r0 Hp H0 Hin F) as [H|[H|[H|[(v1 & r1 & fv1 & H)|(k & v1 & r1 & fv1 & H)]]]]; [left; exact H|right; left; exact H| | |rewrite Hpc in H; discriminate].
    - unfold alive in H. rewrite Hpc in H. discriminate.
    - rewrite Hpc in H. injection H as -> -> -> -> E. right. right. split; [reflexivity|]. split; [symmetry; exact E|]. assert (Ee : e = f_ev (h_inf h)) by (rewrite E; reflexivity). assert (Er : rid = f_rid (h_inf h)) by (rewrite E; reflexivity). subst e rid.
      apply (j_called st J p q j v1 r1 fv1 (h_inf h) r0 Hp Hpc Hin F). }
  destruct (after_cb_cases h (p_subs q) i v r fv (h_inf h) s Hs) as [(-> & Why)|[(Nf & An & Er & ->)|(Nf & An & ->)]]; cbv zeta; apply G; cbn [p_subs].
  - intros j s0 e rid r0 H0 Hin F. destruct (P j s0 e rid r0 H0 Hin F) as [H|[H|(-> & E & -> & ->)]]; [left; exact H|right; left; exact H|]. exfalso. destruct Why as [(X & _)|(X & ->)]; [discriminate|]. apply F. split; [|reflexivity]. rewrite <- E in X. exact X.
  - left. eexists. eexists. reflexivity.
  - intros j s0 e rid r0 H0 Hin F. destruct (info_eqb (mkinfo e rid (s_prio s0)) (h_inf h)) eqn:Ei.
    + apply info_eqb_eq in Ei. right. right. right. right. exists i, v, r, fv. cbn [p_pc]. rewrite Ei. reflexivity.
    + apply info_eqb_neq in Ei. right. left. congruence.
  - right. eexists. reflexivity.
  - intros j s0 e rid r0 H0 Hin F. rewrite nth_upd in H0. destruct (Nat.eqb_spec i j) as [<-|Nj].
    + rewrite Hs in H0. cbn [option_map] in H0. injection H0 as <-. destruct (info_eqb (mkinfo e rid (s_prio s)) (h_inf h)) eqn:Ei.
      * apply info_eqb_eq in Ei. left. cbn [set_last s_prio]. rewrite Ei. unfold done_with. cbn. rewrite Nat.eqb_refl, ev_eqb_refl. reflexivity.
      * apply info_eqb_neq in Ei. right. left. cbn [set_last s_prio]. congruence.
    + destruct (P j s0 e rid r0 H0 Hin F) as [H|[H|(-> & _)]]; [left; exact H|right; left; exact H|congruence].
  - left. eexists. eexists. reflexivity.
Qed.

Lemma inv2_step : forall st st', inv filt st -> inv2 st -> step filt false st st' -> inv2 st'.
Proof.
  intros st st' I J Hst. destruct Hst as [inf n He Hl Hn Hc|inf pub He Hp|Hl| |p q Hp|p q i Hp Hc Hf|p q i v r f r' Hp Hc Hf|p q i v r f Hp Hc Hf|p q i v r fv f Hp Hc Hf|p q i v r fv f Hp Hc Hf|p q i v r fv err f Hp Hc Hf|p q i v r fv err f Hp Hc Hf|p q Hlf Hp Ha].
  - apply (inv2_shm st _ _ [] I J); [intros x Hx; right; exact Hx| |intros ? ? ? ? ? []]. cbn [h_inf]. intros f Hin _ _ E. subst f. contradiction.
  - apply (inv2_shm st _ _ [OOk inf] I J (incl_refl _)); [|intros ? ? ? ? ? [H|[]]; discriminate]. intros f _ L _. apply listen_neq; [exact L|reflexivity].
  - apply (inv2_shm st _ _ [] I J (incl_refl _)); [|intros ? ? ? ? ? []]. intros f _ L _. apply listen_neq; [exact L|reflexivity].
  - apply (inv2_shm st _ _ [] I J (incl_refl _)); [|intros ? ? ? ? ? []]. intros f _ L _. apply listen_neq; [exact L|reflexivity].
  - apply (inv2_proc st p q _ [] (st_shm st) I J Hp); [intros ? ? ? ? ? []|auto| |discriminate|discriminate]. intros. right. right. left. reflexivity.
  - assert (P : forall j s0 e rid r0, nth_error (p_subs q) j = Some s0 -> In (OCall p j e rid r0) (st_log st) -> final e r0 -> done_with (mkinfo e rid (s_prio s0)) s0 = true \/ h_inf (st_shm st) <> mkinfo e rid (s_prio s0)).
    { intros j s0 e rid r0 H0 Hin F. destruct (j_fin st J p q j s0 e rid r0 Hp H0 Hin F) as [H|[H|[H|[(v1 & r1 & fv1 & H)|(k & v1 & r1 & fv1 & H)]]]]; [left; exact H|right; exact H| |rewrite Hc in H; discriminate|rewrite Hc in H; discriminate]. unfold alive in H. rewrite Hc in H. discriminate. }
    apply (inv2_proc st p q _ [] (st_shm st) I J Hp); [intros ? ? ? ? ? []|auto| | |discriminate].
    + intros j s0 e rid r0 H0 Hin F. destruct (P j s0 e rid r0 H0 Hin F) as [H|H]; auto.
    + intros j v r f r0 E Hin F. cbn [p_pc] in E. injection E as <- _ _ <-. destruct (find_new_some _ _ _ _ Hf) as (_ & s & Hs & Hn). destruct (is_new_facts _ _ Hn) as (_ & (N1 & _) & N2 & _).
      destruct (P i s _ _ r0 Hs Hin F) as [H|H]; rewrite N1, mkinfo_eta in H; congruence.
  - apply inv2_call with (ret := r); assumption.
  - apply (inv2_proc st p q _ [] (st_shm st) I J Hp); [intros ? ? ? ? ? []|auto| |discriminate|].
    + intros j s0 e rid r0 H0 Hin F. destruct (j_fin st J p q j s0 e rid r0 Hp H0 Hin F) as [H|[H|[H|[(v1 & r1 & fv1 & H)|(k & v1 & r1 & fv1 & H)]]]]; [left; exact H|right; left; exact H| |rewrite Hc in H; discriminate|rewrite Hc in H; discriminate]. unfold alive in H. rewrite Hc in H. discriminate.
    + intros j v' r' fv f0 r0 E Hin F. cbn [p_pc] in E. injection E as <- _ _ _ <-. destruct (j_call st J p q i v r f r0 Hp Hc Hin F).
  - apply (inv2_relock st p q i v r fv f); assumption.
  - assert (X : inv2 (mkst (st_shm st) (set_proc p (mkproc (p_subs q) Idle) (st_procs st)) (st_pub st) ((if self_abort (p_subs q) i r fv f then [OSelf p i (f_rid f)] else []) ++ st_log st))).
    { apply (inv2_proc st p q _ _ (st_shm st) I J Hp); [|auto| |discriminate|discriminate].
      - destruct (self_abort (p_subs q) i r fv f); cbn; [|intros ? ? ? ? ? []]. intros ? ? ? ? ? [H|[]]. discriminate.
      - intros j s0 e rid r0 H0 Hin F. destruct (j_fin st J p q j s0 e rid r0 Hp H0 Hin F) as [H|[H|[H|[(v1 & r1 & fv1 & H)|(k & v1 & r1 & fv1 & H)]]]]; [left; exact H|right; left; exact H| | |rewrite Hc in H; discriminate].
        + unfold alive in H. rewrite Hc in H. discriminate.
        + rewrite Hc in H. injection H as -> _ _ _ E. apply info_eqb_neq in Hf. right. left. congruence. }
    destruct (self_abort (p_subs q) i r fv f); exact X.
  - destruct (i_pc filt st I p q Hp) as (A & _). rewrite Hc in A. destruct (A f eq_refl) as (_ & L). apply info_eqb_eq in Hf. subst f.
    assert (Wn : forall f, is_listen (f_ev f) = true -> h_inf (st_shm st) <> f -> h_inf (listen_write_event (st_shm st) v err) <> f).
    { intros f Lf Nf. destruct (write_inf (st_shm st) v err L) as [(-> & _)|X]; [exact Nf|apply listen_neq; assumption]. }
    apply (inv2_proc st p q _ [] _ I J Hp); [intros ? ? ? ? ? []|intros f _; apply Wn| |discriminate|discriminate].
    intros j s0 e rid r0 H0 Hin F. destruct (i_called filt st I p j e rid r0 q s0 Hin Hp H0) as (_ & Le & _).
    destruct (j_fin st J p q j s0 e rid r0 Hp H0 Hin F) as [H|[H|[H|[(v1 & r1 & fv1 & H)|(k & v1 & r1 & fv1 & H)]]]]; [left; exact H|right; left; apply Wn; [exact Le|exact H]| |rewrite Hc in H; discriminate|].
    + unfold alive in H. rewrite Hc in H. discriminate.
    + rewrite Hc in H. injection H as _ _ _ _ -> E. right. left. destruct (write_inf (st_shm st) v true L) as [(_ & X)|X]; [discriminate|]. apply listen_neq; [exact Le|exact X].
  - assert (X : inv2 (mkst (st_shm st) (set_proc p (mkproc (p_subs q) Idle) (st_procs st)) (st_pub st) ((if self_abort (p_subs q) i r fv f then [OSelf p i (f_rid f)] else []) ++ st_log st))).
    { apply (inv2_proc st p q _ _ (st_shm st) I J Hp); [|auto| |discriminate|discriminate].
      - destruct (self_abort (p_subs q) i r fv f); cbn; [|intros ? ? ? ? ? []]. intros ? ? ? ? ? [H|[]]. discriminate.
      - intros j s0 e rid r0 H0 Hin F. destruct (j_fin st J p q j s0 e rid r0 Hp H0 Hin F) as [H|[H|[H|[(v1 & r1 & fv1 & H)|(k & v1 & r1 & fv1 & H)]]]]; [left; exact H|right; left; exact H| |rewrite Hc in H; discriminate|].
        + unfold alive in H. rewrite Hc in H. discriminate.
        + rewrite Hc in H. injection H as _ _ _ _ _ E. apply info_eqb_neq in Hf. right. left. congruence. }
    destruct (self_abort (p_subs q) i r fv f); exact X.
  - discriminate.
Qed.

Lemma inv2_reach : forall st0 st, initial st0 -> suspend_settled st0 -> reach filt false st0 st -> inv2 st.
Proof.
  intros st0 st H0 S0 R. induction R as [|st st' R IH Hst].
  - destruct H0 as (E & P & L & Q). constructor; intros; try (rewrite L in *; contradiction). intros l1 l2 p i e rid r1 r2 El. rewrite L in El. destruct l1; discriminate.
  - destruct (inv_reach filt false st0 st H0 S0 R) as (I & _). apply (inv2_step st st' I IH Hst).
Qed.
End Once.
