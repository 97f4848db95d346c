(** * Proofs: successful installation, removal, update *)

From Coq Require Import List Arith Bool Lia.
Import ListNotations.
From Verif Require Import Install InstallSpec InstallProofs.

Lemma no_failure_spent : forall o k, no_failure o -> spent o k.
Proof. intros o k N j _. apply N. Qed.

Section Ok.
Variable deps : list md -> md -> list nat.
Variable en : nat -> ds -> bool.

Section Inst.
Variable w0 : world.
Variable ms new : list md.
Variable upd : nat -> ds -> option nat.
Hypothesis inst0 : installed deps en ms w0.
Hypothesis cl1 : closed deps (ms ++ new).

Record SInv (r : run) : Prop := {
  sv_push : forall m, w_push (r_w r) m = w_push w0 m;
  sv_inst : forall m d, w_inst (r_w r) m d = true <->
              (w_inst w0 m d = true \/ In (m, d) (r_flg r));
  sv_flg : forall m d, In (m, d) (r_flg r) -> In m (map fst new) /\ en m d = true;
  sv_yang : forall m, w_yang (r_w r) m = true <-> (w_yang w0 m = true \/ In m (r_yflg r));
  sv_yflg : forall m, In m (r_yflg r) -> In m new;
  sv_dat : forall m d, w_dat (r_w r) m d <> None -> w_inst (r_w r) m d = true
}.

Lemma SInv0 : SInv (Rn w0 [] []).
Proof.
  destruct inst0 as (_ & _ & _ & _ & A & B & C & _).
  constructor; cbn [r_w r_flg r_yflg]; auto.
  - intros. split; [auto|]. intros [H|[]]; exact H.
  - intros m d [].
  - intros. split; [auto|]. intros [H|[]]; exact H.
  - intros m [].
Qed.

Definition sallowed (r : run) (a : act) : Prop :=
  match a with
  | ACheck | ALyd _ | AShm _ => True
  | AInst m d => In m (map fst new) /\ en m d = true
  | AYang m => In m new
  | ADat m d v => w_inst (r_w r) m d = true
  | _ => False
  end.

Lemma SInv_eff : forall a r, sallowed r a -> SInv r -> SInv (eff a r).
Proof.
  intros a r Al [I1 I2 I3 I4 I5 I6].
  destruct a; cbn [sallowed] in Al; try contradiction;
    constructor; cbn [eff r_w r_flg r_yflg w_ctx w_cid w_push w_inst w_dat w_yang
      set_lyd set_shm set_inst set_yang set_dat] in *; auto.
  - (* AInst *) intros m' d'. destruct (key_dec (m', d') (m, d)) as [E1|E1].
    + assert (m' = m) by congruence. assert (d' = d) by congruence. subst.
      rewrite upd2_same. split; [|reflexivity]. intros _. right. left. reflexivity.
    + rewrite upd2_other by exact E1. rewrite I2. split; intros [H|H]; auto.
      * right. right. exact H.
      * destruct H as [H|H]; [exfalso; apply E1; congruence|auto].
  - intros m' d' [H|H]; [|auto]. assert (m' = m) by congruence.
    assert (d' = d) by congruence. subst. exact Al.
  - intros m' d'. destruct (key_dec (m', d') (m, d)) as [E1|E1].
    + assert (m' = m) by congruence. assert (d' = d) by congruence. subst.
      rewrite !upd2_same. reflexivity.
    + rewrite !upd2_other by exact E1. auto.
  - (* AYang *) intros m'. destruct (md_dec m' m) as [E1|E1].
    + subst. rewrite upd_md_same. split; [|reflexivity]. intros _. right. left. reflexivity.
    + rewrite upd_md_other by exact E1. rewrite I4. split; intros [H|H]; auto.
      * right. right. exact H.
      * destruct H as [H|H]; [exfalso; apply E1; congruence|auto].
  - intros m' [H|H]; [subst; exact Al|auto].
  - (* ADat *) intros m' d' H. destruct (key_dec (m', d') (m, d)) as [E1|E1].
    + assert (m' = m) by congruence. assert (d' = d) by congruence. subst. exact Al.
    + rewrite upd2_other in H by exact E1. auto.
Qed.

Lemma SInv_exec : forall o l r k r' k' x,
  (forall a q, In a l -> sallowed q a) ->
  SInv r -> exec o l r k = (r', k', x) -> SInv r'.
Proof.
  intros o l r k r' k' x A I H.
  apply (exec_inv SInv o l r k r' k' x); auto.
  intros a q Ia Iq Sk. apply SInv_eff; auto.
Qed.

Lemma in_name : forall (m : md) l, In m l -> In (fst m) (map fst l).
Proof. intros m l I. apply in_map. exact I. Qed.

Theorem install_ok : forall o checks init r,
  install deps en o checks init upd ms new w0 = (r, ROk) ->
  installed deps en (ms ++ new) (r_w r) /\
  (forall m d, In m (map fst (ms ++ new)) -> en m d = true -> In d upd_ds ->
     w_dat (r_w r) m d = upd m d) /\
  (forall m, w_push (r_w r) m = w_push w0 m).
Proof.
  intros o checks init r H. unfold install in H.
  destruct (exec o (repeat ACheck checks) (Rn w0 [] []) 0) as [[r1 k1] x1] eqn:E1.
  pose proof (exec_checks _ _ _ _ _ _ _ E1) as ->.
  assert (CF : forall q k, cleanup o new q k = (r, ROk) -> False).
  { intros q k X. unfold cleanup in X.
    destruct (exec o (revert_acts new) q k) as [[a b] []]; discriminate X. }
  assert (EF : forall c q k, error deps o c ms new q k = (r, ROk) -> False).
  { intros c q k X. unfold error in X.
    destruct (write_lyd deps o (ms ++ new) ms q k) as [[[a b] y] g].
    destruct y; try discriminate X; [|eapply CF; exact X].
    destruct c; [|eapply CF; exact X].
    destruct (exec1 o (AShm g) a b) as [[a' b'] []]; try discriminate X;
      eapply CF; exact X. }
  destruct x1; [|exfalso; eapply CF; exact H|discriminate H].
  unfold write_lyd in H. rewrite (add_deps_closed _ _ cl1) in H.
  set (reg := map (fun m => (m, deps (ms ++ new) m)) (ms ++ new)) in *.
  destruct (exec1 o (ALyd reg) (Rn w0 [] []) k1) as [[r2 k2] x2] eqn:E2.
  destruct x2; [|exfalso; eapply CF; exact H|discriminate H].
  assert (R2 : r2 = eff (ALyd reg) (Rn w0 [] [])).
  { apply exec1_cases in E2. destruct E2 as [[-> C] | [_ ->]]; [|reflexivity].
    destruct (C eq_refl) as [X|[X _]]; discriminate X. }
  subst r2.
  assert (I2 : SInv (eff (ALyd reg) (Rn w0 [] []))) by (apply SInv_eff; [exact Logic.I|exact SInv0]).
  destruct (exec o (update_acts en init new) (eff (ALyd reg) (Rn w0 [] [])) k2)
    as [[r3 k3] x3] eqn:E3.
  assert (I3 : SInv r3).
  { eapply SInv_exec; [|exact I2|exact E3]. intros a q Ia. apply in_update in Ia.
    destruct Ia as [-> | (m & d & Im & En & ->)]; cbn; auto using in_name. }
  assert (L3 : w_lyd (r_w r3) = reg).
  { rewrite (exec_lyd _ _ _ _ _ _ _ (fun a Ia => proj1 (update_no en new init a Ia)) E3).
    reflexivity. }
  destruct x3; [|exfalso; eapply EF; exact H|discriminate H].
  destruct (exec1 o (AShm reg) r3 k3) as [[r4 k4] x4] eqn:E4.
  destruct x4; [|exfalso; eapply EF; exact H|discriminate H].
  assert (R4 : r4 = eff (AShm reg) r3).
  { apply exec1_cases in E4. destruct E4 as [[-> C] | [_ ->]]; [|reflexivity].
    destruct (C eq_refl) as [X|[X _]]; discriminate X. }
  subst r4.
  assert (I4 : SInv (eff (AShm reg) r3)) by (apply SInv_eff; [exact Logic.I|exact I3]).
  destruct (exec o (finish_acts en new) (eff (AShm reg) r3) k4) as [[r5 k5] x5] eqn:E5.
  destruct x5.
  2:{ exfalso. destruct (exec o (revert_acts new) r5 k5) as [[a b] []];
        try discriminate H; eapply EF; exact H. }
  2: discriminate H.
  assert (I5 : SInv r5).
  { eapply SInv_exec; [|exact I4|exact E5]. intros a q Ia. apply in_finish in Ia.
    destruct Ia as (m & Im & [(d & En & ->) | ->]); cbn; auto using in_name. }
  destruct (finish_flags en new _ _ _ _ _ E5) as [F5 Y5].
  assert (L5 : w_lyd (r_w r5) = reg).
  { rewrite (exec_lyd _ _ _ _ _ _ _ (fun a Ia => proj1 (finish_no en new a Ia)) E5). exact L3. }
  assert (S5 : w_shm (r_w r5) = reg).
  { rewrite (exec_shm _ _ _ _ _ _ _ (fun a Ia => proj2 (finish_no en new a Ia)) E5). reflexivity. }
  destruct (exec o (store_acts en upd (ms ++ new)) r5 k5) as [[r6 k6] x6] eqn:E6.
  destruct x6; [|exfalso; eapply EF; exact H|discriminate H].
  assert (SF : forall q, SInv q ->
    (forall m d, In m (map fst new) -> en m d = true -> In (m, d) (r_flg q)) ->
    forall a, In a (store_acts en upd (ms ++ new)) -> sallowed q a).
  { intros q Iq Fq a Ia. apply in_store in Ia. destruct Ia as (m & d & Im & Id & En & ->).
    cbn [sallowed]. apply (sv_inst q Iq). apply in_app_iff in Im. destruct Im as [Im|Im].
    - left. destruct inst0 as (_ & _ & _ & _ & A & _). apply A.
      split; [apply in_map; exact Im|exact En].
    - right. apply Fq; [apply in_map; exact Im|exact En]. }
  assert (I6 : SInv r6 /\
    (forall m d, In m (map fst new) -> en m d = true -> In (m, d) (r_flg r6)) /\
    (forall m, In m new -> In m (r_yflg r6)) /\ w_lyd (r_w r6) = reg /\ w_shm (r_w r6) = reg).
  { apply (exec_inv (fun q => SInv q /\
      (forall m d, In m (map fst new) -> en m d = true -> In (m, d) (r_flg q)) /\
      (forall m, In m new -> In m (r_yflg q)) /\ w_lyd (r_w q) = reg /\ w_shm (r_w q) = reg)
      o (store_acts en upd (ms ++ new)) r5 k5 r6 k6 ROk); auto.
    - intros a q Ia (Iq & Fq & Yq & Lq & Sq) Sk.
      split; [apply SInv_eff; auto|].
      apply in_store in Ia. destruct Ia as (m & d & Im & Id & En & ->).
      cbn [eff r_w r_flg r_yflg set_dat w_lyd w_shm]. auto. }
  destruct I6 as (I6 & F6 & Y6 & L6 & S6).
  assert (D6 : forall m d, In m (map fst (ms ++ new)) -> en m d = true -> In d upd_ds ->
     w_dat (r_w r6) m d = upd m d).
  { intros m d Im En Id. apply in_map_iff in Im. destruct Im as (y & <- & Iy).
    apply (exec_done (fun q => w_dat (r_w q) (fst y) d = upd (fst y) d) o
             (ADat (fst y) d (upd (fst y) d)) (store_acts en upd (ms ++ new)) r5 k5 r6 k6); auto.
    - intros q Sk. cbn [skip] in Sk. apply opt_eqb_spec. exact Sk.
    - intros q _. cbn [eff r_w set_dat w_dat]. apply upd2_same.
    - intros b q Ib Q _. apply in_store in Ib. destruct Ib as (z & d' & _ & _ & _ & ->).
      cbn [eff r_w set_dat w_dat].
      destruct (key_dec (fst y, d) (fst z, d')) as [Eq|Eq].
      + assert (Ea : fst y = fst z) by congruence. assert (Eb : d = d') by congruence.
        rewrite Ea, Eb. apply upd2_same.
      + rewrite upd2_other by exact Eq. exact Q.
    - apply in_store. exists y, d. auto. }
  assert (R : r = Rn (set_ctx (r_w r6) (ms ++ new)) (r_flg r6) (r_yflg r6)) by congruence.
  subst r. cbn [r_w set_ctx w_dat w_push].
  split; [|split; [exact D6|exact (sv_push r6 I6)]].
  destruct inst0 as (_ & _ & _ & _ & A & B & _ & P).
  unfold installed. cbn [set_ctx w_lyd w_shm w_ctx w_cid w_inst w_yang w_dat w_push].
  split; [exact L6|]. split; [exact S6|]. split; [reflexivity|]. split; [reflexivity|].
  split; [|split; [|split; [exact (sv_dat r6 I6)|]]].
  - intros m d. rewrite (sv_inst r6 I6), A, map_app, in_app_iff. split.
    + intros [[H1 H2]|H1]; [auto|]. apply (sv_flg r6 I6) in H1. destruct H1. auto.
    + intros [[H1|H1] H2]; auto.
  - intros m. rewrite (sv_yang r6 I6), B, in_app_iff. split.
    + intros [H1|H1]; [auto|]. apply (sv_yflg r6 I6) in H1. auto.
    + intros [H1|H1]; auto.
  - intros m Pm. rewrite (sv_push r6 I6) in Pm. rewrite map_app, in_app_iff. auto.
Qed.

Theorem install_no_failure : forall o checks init,
  no_failure o -> exists r, install deps en o checks init upd ms new w0 = (r, ROk).
Proof.
  intros o checks init N. unfold install.
  assert (G : forall k, spent o k) by (intros k; apply no_failure_spent; exact N).
  destruct (exec_good o (repeat ACheck checks) (Rn w0 [] []) 0 (G _)) as (r1 & k1 & -> & _).
  unfold write_lyd. rewrite (add_deps_closed _ _ cl1).
  set (reg := map (fun m => (m, deps (ms ++ new) m)) (ms ++ new)) in *.
  destruct (exec1_good o (ALyd reg) r1 k1 (G _)) as (k2 & -> & _).
  destruct (exec_good o (update_acts en init new)
    (if skip (ALyd reg) r1 then r1 else eff (ALyd reg) r1) k2 (G _)) as (r3 & k3 & -> & _).
  destruct (exec1_good o (AShm reg) r3 k3 (G _)) as (k4 & -> & _).
  destruct (exec_good o (finish_acts en new)
    (if skip (AShm reg) r3 then r3 else eff (AShm reg) r3) k4 (G _)) as (r5 & k5 & -> & _).
  destruct (exec_good o (store_acts en upd (ms ++ new)) r5 k5 (G _)) as (r6 & k6 & -> & _).
  eauto.
Qed.

Hypothesis cl0 : closed deps ms.
Hypothesis deps_same : forall m, In m ms -> deps (ms ++ new) m = deps ms m.

Theorem install_alive : forall o checks init r x,
  (forall i, o i <> Dies) ->
  install deps en o checks init upd ms new w0 = (r, x) -> x <> RDead.
Proof.
  intros o checks init r x D H. unfold install in H.
  assert (CF : forall q k, cleanup o new q k = (r, x) -> x <> RDead).
  { intros q k X. unfold cleanup in X.
    destruct (exec o (revert_acts new) q k) as [[a b] y] eqn:E.
    pose proof (exec_nodie _ _ _ _ _ _ _ D E). destruct y; congruence. }
  assert (EF : forall c q k, error deps o c ms new q k = (r, x) -> x <> RDead).
  { intros c q k X. unfold error, write_lyd in X.
    rewrite (add_deps_old deps ms new cl0 deps_same) in X.
    destruct (exec1 o (ALyd _) q k) as [[a b] y] eqn:E.
    pose proof (exec1_nodie _ _ _ _ _ _ _ D E).
    destruct y; [|eapply CF; exact X|congruence].
    destruct c; [|eapply CF; exact X].
    destruct (exec1 o (AShm _) a b) as [[a' b'] y] eqn:E'.
    pose proof (exec1_nodie _ _ _ _ _ _ _ D E').
    destruct y; [eapply CF; exact X|eapply CF; exact X|congruence]. }
  destruct (exec o (repeat ACheck checks) (Rn w0 [] []) 0) as [[r1 k1] x1] eqn:E1.
  pose proof (exec_nodie _ _ _ _ _ _ _ D E1) as N1.
  destruct x1; [|eapply CF; exact H|congruence].
  unfold write_lyd in H. rewrite (add_deps_closed _ _ cl1) in H.
  destruct (exec1 o (ALyd _) r1 k1) as [[r2 k2] x2] eqn:E2.
  pose proof (exec1_nodie _ _ _ _ _ _ _ D E2) as N2.
  destruct x2; [|eapply CF; exact H|congruence].
  destruct (exec o (update_acts en init new) r2 k2) as [[r3 k3] x3] eqn:E3.
  pose proof (exec_nodie _ _ _ _ _ _ _ D E3) as N3.
  destruct x3; [|eapply EF; exact H|congruence].
  destruct (exec1 o (AShm _) r3 k3) as [[r4 k4] x4] eqn:E4.
  pose proof (exec1_nodie _ _ _ _ _ _ _ D E4) as N4.
  destruct x4; [|eapply EF; exact H|congruence].
  destruct (exec o (finish_acts en new) r4 k4) as [[r5 k5] x5] eqn:E5.
  pose proof (exec_nodie _ _ _ _ _ _ _ D E5) as N5.
  destruct x5; [| |congruence].
  2:{ destruct (exec o (revert_acts new) r5 k5) as [[r6 k6] x6] eqn:E6.
      pose proof (exec_nodie _ _ _ _ _ _ _ D E6) as N6.
      destruct x6; [eapply EF; exact H|eapply EF; exact H|congruence]. }
  destruct (exec o (store_acts en upd (ms ++ new)) r5 k5) as [[r6 k6] x6] eqn:E6.
  pose proof (exec_nodie _ _ _ _ _ _ _ D E6) as N6.
  destruct x6; [congruence|eapply EF; exact H|congruence].
Qed.

End Inst.

(** ** Removal *)

Section Rem.
Variable w0 : world.
Variable ms del : list md.
Variable upd : nat -> ds -> option nat.
Hypothesis inst0 : installed deps en ms w0.
Hypothesis nodup : NoDup (map fst ms).
Hypothesis sub : incl del ms.

Lemma in_without : forall m, In m (without del ms) <-> (In m ms /\ ~ In m del).
Proof.
  intros m. unfold without. rewrite filter_In, negb_true_iff.
  rewrite <- (has_md_spec m del). destruct (has_md m del); split; intros [A B]; split;
    congruence.
Qed.

Lemma name_inj : forall (l : list md), NoDup (map fst l) ->
  forall a b, In a l -> In b l -> fst a = fst b -> a = b.
Proof.
  induction l as [|x l IH]; intros N a b Ia Ib E; [destruct Ia|].
  cbn [map] in N. inversion N as [|? ? N1 N2]; subst.
  destruct Ia as [-> | Ia], Ib as [-> | Ib]; auto.
  - exfalso. apply N1. rewrite E. apply in_map. exact Ib.
  - exfalso. apply N1. rewrite <- E. apply in_map. exact Ia.
Qed.

Lemma name_without : forall m,
  In m (map fst (without del ms)) <-> (In m (map fst ms) /\ ~ In m (map fst del)).
Proof.
  intros m. rewrite !in_map_iff. split.
  - intros (x & <- & Ix). apply in_without in Ix. destruct Ix as [Ix Nx]. split; [eauto|].
    intros (y & E & Iy). apply Nx.
    rewrite <- (name_inj ms nodup y x (sub y Iy) Ix E). exact Iy.
  - intros ((x & <- & Ix) & Nx). exists x. split; [reflexivity|]. apply in_without.
    split; [exact Ix|]. intros C. apply Nx. eauto.
Qed.

Lemma in_del : forall a,
  In a (del_acts en del) <->
  exists m, In m del /\ ((exists d, en (fst m) d = true /\ a = AUninst (fst m) d) \/ a = AUnyang m).
Proof.
  intros a. unfold del_acts. rewrite in_flat_map. split.
  - intros (m & Im & H). exists m. split; [exact Im|].
    apply in_app_iff in H. destruct H as [H|[<-|[]]]; [left|right; reflexivity].
    apply in_flat_map in H. destruct H as (d & _ & H).
    destruct (en (fst m) d) eqn:E; [|destruct H].
    destruct H as [<-|[]]. eauto.
  - intros (m & Im & H). exists m. split; [exact Im|]. apply in_app_iff.
    destruct H as [(d & E & ->) | ->]; [left|right; left; reflexivity].
    apply in_flat_map. exists d. split; [apply all_ds_all|]. rewrite E. left. reflexivity.
Qed.

Lemma same_but_push_refl : forall w, same_but_push del w w.
Proof. intros w. unfold same_but_push. auto 10. Qed.

Lemma first_phase : forall o checks r' k' x,
  exec o (repeat ACheck checks ++ map (fun m => APush (fst m)) del ++ [ACheck])
       (Rn w0 [] []) 0 = (r', k', x) ->
  same_but_push del (r_w r') w0 /\ (forall m, w_push (r_w r') m = true -> w_push w0 m = true).
Proof.
  intros o checks r' k' x H.
  apply (exec_inv (fun q => same_but_push del (r_w q) w0 /\
      forall m, w_push (r_w q) m = true -> w_push w0 m = true)
    o (repeat ACheck checks ++ map (fun m => APush (fst m)) del ++ [ACheck])
    (Rn w0 [] []) 0 r' k' x); [|split; [apply same_but_push_refl|auto]|exact H].
  intros a q Ia [P Pt] _. apply in_app_iff in Ia. destruct Ia as [Ia|Ia].
  - apply repeat_spec in Ia. subst. split; assumption.
  - apply in_app_iff in Ia. destruct Ia as [Ia|[<-|[]]]; [|split; assumption].
    apply in_map_iff in Ia. destruct Ia as (m & <- & Im).
    destruct P as (P1 & P2 & P3 & P4 & P5 & P6 & P7 & P8).
    unfold same_but_push. cbn [eff r_w set_push w_lyd w_shm w_inst w_yang w_dat w_push w_cid w_ctx].
    split.
    + repeat (split; [assumption|]). split; [|split; assumption].
      intros m' N'. unfold upd_n. destruct (m' =? fst m) eqn:E; [|auto].
      apply Nat.eqb_eq in E. subst. exfalso. apply N'. apply in_map. exact Im.
    + intros m'. unfold upd_n. destruct (m' =? fst m); [discriminate|]. apply Pt.
Qed.

Theorem remove_before_registry : forall o checks r x,
  del <> [] -> closed deps (without del ms) ->
  remove deps en o checks upd ms del w0 = (r, x) -> x <> ROk ->
  map fst (w_lyd (r_w r)) = map fst (w_lyd w0) ->
  same_but_push del (r_w r) w0.
Proof.
  intros o checks r x Nd cl H Nx L. unfold remove in H.
  destruct (exec o _ (Rn w0 [] []) 0) as [[r1 k1] x1] eqn:E1.
  apply first_phase in E1. destruct E1 as [P1 _].
  destruct x1; [|assert (r1 = r) by congruence; subst; exact P1
                |assert (r1 = r) by congruence; subst; exact P1].
  unfold write_lyd in H. rewrite (add_deps_closed _ _ cl) in H.
  set (reg := map _ (without del ms)) in *.
  destruct (exec1 o (ALyd reg) r1 k1) as [[r2 k2] x2] eqn:E2.
  assert (R2 : x2 <> ROk -> r2 = r1).
  { intros X. unfold exec1 in E2. cbn [skip] in E2. destruct (o k1); congruence. }
  destruct x2; [|assert (r2 = r) by congruence; subst; rewrite R2 by discriminate; exact P1
                |assert (r2 = r) by congruence; subst; rewrite R2 by discriminate; exact P1].
  exfalso.
  assert (L2 : w_lyd (r_w r2) = reg).
  { apply exec1_cases in E2. destruct E2 as [[-> C] | [_ ->]]; [|reflexivity].
    destruct (C eq_refl) as [X|[X _]]; discriminate X. }
  destruct (exec o (AShm reg :: del_acts en del ++ store_acts en upd (without del ms)) r2 k2)
    as [[r3 k3] x3] eqn:E3.
  assert (L3 : w_lyd (r_w r3) = reg).
  { rewrite <- L2. eapply exec_lyd; [|exact E3]. intros a [<-|Ia]; [exact Logic.I|].
    apply in_app_iff in Ia. destruct Ia as [Ia|Ia].
    - apply in_del in Ia. destruct Ia as (m & _ & [(d & _ & ->) | ->]); exact Logic.I.
    - apply in_store in Ia. destruct Ia as (m & d & _ & _ & _ & ->). exact Logic.I. }
  assert (RR : w_lyd (r_w r) = reg).
  { destruct x3; [|assert (r3 = r) by congruence; subst; exact L3
                  |assert (r3 = r) by congruence; subst; exact L3].
    congruence. }
  rewrite RR in L. destruct inst0 as (L0 & _). rewrite L0 in L.
  unfold reg in L. rewrite !map_map in L. cbn [fst] in L. rewrite !map_id in L.
  destruct del as [|m del']; [congruence|].
  assert (In m ms) by (apply sub; left; reflexivity).
  rewrite <- L in H0. unfold without in H0. apply filter_In in H0. destruct H0 as [_ C].
  apply negb_true_iff in C. assert (X : has_md m (m :: del') = true).
  { apply has_md_spec. left. reflexivity. }
  congruence.
Qed.

Theorem remove_startable : forall o checks r x,
  closed deps (without del ms) ->
  remove deps en o checks upd ms del w0 = (r, x) -> startable en (r_w r).
Proof.
  intros o checks r x cl H. unfold remove in H.
  destruct inst0 as (L0 & _ & _ & _ & A & B & _).
  destruct (exec o _ (Rn w0 [] []) 0) as [[r1 k1] x1] eqn:E1.
  apply first_phase in E1. destruct E1 as [P1 _].
  assert (S1 : startable en (r_w r1)).
  { destruct P1 as (P1 & _ & P3 & P4 & _). intros m ts I. rewrite P1, L0 in I.
    apply in_map_iff in I. destruct I as (y & Ey & Iy).
    assert (y = m) by congruence. subst y. rewrite P4. split; [apply B; exact Iy|].
    intros d E. rewrite P3. apply A. split; [apply in_map; exact Iy|exact E]. }
  destruct x1; [|assert (r1 = r) by congruence; subst; exact S1
                |assert (r1 = r) by congruence; subst; exact S1].
  unfold write_lyd in H. rewrite (add_deps_closed _ _ cl) in H.
  set (reg := map _ (without del ms)) in *.
  destruct (exec1 o (ALyd reg) r1 k1) as [[r2 k2] x2] eqn:E2.
  assert (R2 : x2 <> ROk -> r2 = r1).
  { intros X. unfold exec1 in E2. cbn [skip] in E2. destruct (o k1); congruence. }
  destruct x2; [|assert (r2 = r) by congruence; subst; rewrite R2 by discriminate; exact S1
                |assert (r2 = r) by congruence; subst; rewrite R2 by discriminate; exact S1].
  assert (R2' : r2 = eff (ALyd reg) r1).
  { apply exec1_cases in E2. destruct E2 as [[-> C] | [_ ->]]; [|reflexivity].
    destruct (C eq_refl) as [X|[X _]]; discriminate X. }
  destruct (exec o (AShm reg :: del_acts en del ++ store_acts en upd (without del ms)) r2 k2)
    as [[r3 k3] x3] eqn:E3.
  assert (S3 : w_lyd (r_w r3) = reg /\
    (forall m d, ~ In m (map fst del) -> w_inst (r_w r3) m d = w_inst w0 m d) /\
    (forall m, ~ In m del -> w_yang (r_w r3) m = w_yang w0 m)).
  { apply (exec_inv (fun q => w_lyd (r_w q) = reg /\
      (forall m d, ~ In m (map fst del) -> w_inst (r_w q) m d = w_inst w0 m d) /\
      (forall m, ~ In m del -> w_yang (r_w q) m = w_yang w0 m))
      o (AShm reg :: del_acts en del ++ store_acts en upd (without del ms)) r2 k2 r3 k3 x3);
      [| |exact E3].
    - intros a q Ia (Q1 & Q2 & Q3) _. destruct Ia as [<-|Ia]; [cbn; auto|].
      apply in_app_iff in Ia. destruct Ia as [Ia|Ia].
      + apply in_del in Ia. destruct Ia as (m & Im & [(d & _ & ->) | ->]);
          cbn [eff r_w set_inst set_yang w_lyd w_inst w_yang].
        * split; [exact Q1|]. split; [|exact Q3]. intros m' d' N.
          rewrite upd2_other; [auto|]. intros E. apply N.
          assert (m' = fst m) by congruence. subst. apply in_map. exact Im.
        * split; [exact Q1|]. split; [exact Q2|]. intros m' N.
          rewrite upd_md_other; [auto|]. intros ->. contradiction.
      + apply in_store in Ia. destruct Ia as (m & d & _ & _ & _ & ->). cbn. auto.
    - subst r2. destruct P1 as (_ & _ & P3 & P4 & _). cbn. auto. }
  assert (S3' : startable en (r_w r3)).
  { destruct S3 as (Q1 & Q2 & Q3). intros m ts I. rewrite Q1 in I. unfold reg in I.
    apply in_map_iff in I. destruct I as (y & Ey & Iy).
    assert (y = m) by congruence. subst y.
    pose proof (proj1 (in_without m) Iy) as [Im Nm].
    assert (Nn : ~ In (fst m) (map fst del)).
    { apply (proj1 (name_without (fst m))). apply in_map. exact Iy. }
    rewrite Q3 by exact Nm. split; [apply B; exact Im|].
    intros d E. rewrite Q2 by exact Nn. apply A. split; [apply in_map; exact Im|exact E]. }
  destruct x3; [|assert (r3 = r) by congruence; subst; exact S3'
                |assert (r3 = r) by congruence; subst; exact S3'].
  assert (R : r_w r = set_ctx (r_w r3) (without del ms)).
  { assert (R : r = Rn (set_ctx (r_w r3) (without del ms)) (r_flg r3) (r_yflg r3)) by congruence.
    subst r. reflexivity. }
  rewrite R. exact S3'.
Qed.

Theorem remove_ok : forall o checks,
  no_failure o -> closed deps (without del ms) ->
  exists r, remove deps en o checks upd ms del w0 = (r, ROk) /\
    installed deps en (without del ms) (r_w r) /\
    (forall m d, In m (map fst (without del ms)) -> en m d = true -> In d upd_ds ->
       w_dat (r_w r) m d = upd m d).
Proof.
  intros o checks NF cl. unfold remove.
  assert (G : forall k, spent o k) by (intros k; apply no_failure_spent; exact NF).
  assert (NF' : forall k j : nat, k <= j -> o j <> Fails).
  { intros k j _. rewrite NF. discriminate. }
  destruct inst0 as (L0 & _ & _ & _ & A & B & C & P).
  destruct (exec_good o (repeat ACheck checks ++ map (fun m => APush (fst m)) del ++ [ACheck])
              (Rn w0 [] []) 0 (G _)) as (r1 & k1 & E1 & _).
  rewrite E1.
  assert (Pu : forall m, In m (map fst del) -> w_push (r_w r1) m = false).
  { intros m Im. apply in_map_iff in Im. destruct Im as (y & <- & Iy).
    apply (exec_done (fun q => w_push (r_w q) (fst y) = false) o (APush (fst y))
      (repeat ACheck checks ++ map (fun m => APush (fst m)) del ++ [ACheck])
      (Rn w0 [] []) 0 r1 k1); [left; reflexivity| | | | |exact E1].
    - intros q Sk. discriminate Sk.
    - intros q _. cbn [eff r_w set_push w_push]. unfold upd_n. rewrite Nat.eqb_refl. reflexivity.
    - intros b q Ib Q _. apply in_app_iff in Ib. destruct Ib as [Ib|Ib].
      + apply repeat_spec in Ib. subst. exact Q.
      + apply in_app_iff in Ib. destruct Ib as [Ib|[<-|[]]]; [|exact Q].
        apply in_map_iff in Ib. destruct Ib as (z & <- & _).
        cbn [eff r_w set_push w_push]. unfold upd_n.
        destruct (fst y =? fst z); auto.
    - apply in_app_iff. right. apply in_app_iff. left. apply in_map_iff. eauto. }
  apply first_phase in E1. destruct E1 as [P1 Pt].
  unfold write_lyd. rewrite (add_deps_closed _ _ cl).
  set (reg := map _ (without del ms)) in *.
  destruct (exec1_good o (ALyd reg) r1 k1 (G _)) as (k2 & -> & _). cbn [skip].
  set (l := AShm reg :: del_acts en del ++ store_acts en upd (without del ms)).
  destruct (exec_good o l (eff (ALyd reg) r1) k2 (G _)) as (r3 & k3 & E3 & _).
  rewrite E3. eexists. split; [reflexivity|].
  cbn [r_w].
  (* facts about r3 *)
  assert (In_l : forall a, In a l -> a = AShm reg \/
     (exists m d, In m del /\ en (fst m) d = true /\ a = AUninst (fst m) d) \/
     (exists m, In m del /\ a = AUnyang m) \/
     (exists m d, In m (without del ms) /\ In d upd_ds /\ en (fst m) d = true /\
                  a = ADat (fst m) d (upd (fst m) d))).
  { intros a [<-|Ia]; [auto|]. apply in_app_iff in Ia. destruct Ia as [Ia|Ia].
    - apply in_del in Ia. destruct Ia as (m & Im & [(d & En & ->) | ->]).
      + right. left. eauto.
      + right. right. left. eauto.
    - apply in_store in Ia. right. right. right. exact Ia. }
  destruct P1 as (P11 & P12 & P13 & P14 & P15 & P16 & P17 & P18).
  assert (K : w_lyd (r_w r3) = reg /\
    (forall m d, ~ In m (map fst del) -> w_inst (r_w r3) m d = w_inst w0 m d) /\
    (forall m, ~ In m del -> w_yang (r_w r3) m = w_yang w0 m) /\
    (forall m, w_push (r_w r3) m = w_push (r_w r1) m) /\
    (forall m d, w_inst (r_w r3) m d = true -> w_inst w0 m d = true) /\
    (forall m, w_yang (r_w r3) m = true -> w_yang w0 m = true) /\
    (forall m d, w_dat (r_w r3) m d <> None -> w_inst (r_w r3) m d = true)).
  { apply (exec_inv (fun q => w_lyd (r_w q) = reg /\
      (forall m d, ~ In m (map fst del) -> w_inst (r_w q) m d = w_inst w0 m d) /\
      (forall m, ~ In m del -> w_yang (r_w q) m = w_yang w0 m) /\
      (forall m, w_push (r_w q) m = w_push (r_w r1) m) /\
      (forall m d, w_inst (r_w q) m d = true -> w_inst w0 m d = true) /\
      (forall m, w_yang (r_w q) m = true -> w_yang w0 m = true) /\
      (forall m d, w_dat (r_w q) m d <> None -> w_inst (r_w q) m d = true))
      o l (eff (ALyd reg) r1) k2 r3 k3 ROk); [| |exact E3].
    - intros a q Ia (Q1 & Q2 & Q3 & Q4 & Q5 & Q6 & Q7) _. apply In_l in Ia.
      destruct Ia as [-> | [(m & d & Im & En & ->) | [(m & Im & ->) | (m & d & Im & Id & En & ->)]]];
        cbn [eff r_w set_shm set_inst set_yang set_dat w_lyd w_inst w_yang w_push w_dat].
      + auto 10.
      + split; [exact Q1|]. split; [|split; [exact Q3|split; [exact Q4|split; [|split; [exact Q6|]]]]].
        * intros m' d' N. rewrite upd2_other; [auto|]. intros E. apply N.
          assert (m' = fst m) by congruence. subst. apply in_map. exact Im.
        * intros m' d' T. destruct (key_dec (m', d') (fst m, d)) as [E|E].
          -- assert (m' = fst m) by congruence. assert (d' = d) by congruence. subst.
             rewrite upd2_same in T. discriminate T.
          -- rewrite upd2_other in T by exact E. auto.
        * intros m' d' T. destruct (key_dec (m', d') (fst m, d)) as [E|E].
          -- assert (m' = fst m) by congruence. assert (d' = d) by congruence. subst.
             rewrite upd2_same in T. exfalso. apply T. reflexivity.
          -- rewrite upd2_other in T by exact E. rewrite upd2_other by exact E. auto.
      + split; [exact Q1|]. split; [exact Q2|]. split; [|split; [exact Q4|split; [exact Q5|split; [|exact Q7]]]].
        * intros m' N. rewrite upd_md_other; [auto|]. intros ->. contradiction.
        * intros m' T. destruct (md_dec m' m) as [->|E].
          -- rewrite upd_md_same in T. discriminate T.
          -- rewrite upd_md_other in T by exact E. auto.
      + split; [exact Q1|]. repeat (split; [assumption|]).
        intros m' d' T. destruct (key_dec (m', d') (fst m, d)) as [E|E].
        * assert (m' = fst m) by congruence. assert (d' = d) by congruence. subst.
          assert (Nn : In (fst m) (map fst ms) /\ ~ In (fst m) (map fst del)).
          { apply name_without. apply in_map. exact Im. }
          rewrite Q2 by apply Nn. apply A. split; [apply Nn|exact En].
        * rewrite upd2_other in T by exact E. auto.
    - cbn [eff r_w set_lyd w_lyd w_inst w_yang w_push w_dat].
      split; [reflexivity|]. split; [auto|]. split; [auto|]. split; [auto|].
      split; [intros m d; rewrite P13; auto|]. split; [intros m; rewrite P14; auto|].
      intros m d. rewrite P13, P15. auto. }
  destruct K as (K1 & K2 & K3 & K4 & K5 & K6 & K7).
  assert (Un : forall m d, In m (map fst del) -> en m d = true -> w_inst (r_w r3) m d = false).
  { intros m d Im En. apply in_map_iff in Im. destruct Im as (y & <- & Iy).
    apply (exec_done (fun q => w_inst (r_w q) (fst y) d = false) o (AUninst (fst y) d)
      l (eff (ALyd reg) r1) k2 r3 k3); [left; reflexivity| | | | |exact E3].
    - intros q Sk. discriminate Sk.
    - intros q _. cbn [eff r_w set_inst w_inst]. apply upd2_same.
    - intros b q Ib Q _. apply In_l in Ib.
      destruct Ib as [-> | [(m & d' & _ & _ & ->) | [(m & _ & ->) | (m & d' & _ & _ & _ & ->)]]];
        try exact Q.
      cbn [eff r_w set_inst w_inst]. unfold upd2. destruct ((fst y =? fst m) && ds_eqb d d'); auto.
    - right. apply in_app_iff. left. apply in_del. exists y. split; [exact Iy|]. left. eauto. }
  assert (Uy : forall m, In m del -> w_yang (r_w r3) m = false).
  { intros m Im.
    apply (exec_done (fun q => w_yang (r_w q) m = false) o (AUnyang m)
      l (eff (ALyd reg) r1) k2 r3 k3); [right; apply NF'| | | | |exact E3].
    - intros q Sk. discriminate Sk.
    - intros q _. cbn [eff r_w set_yang w_yang]. apply upd_md_same.
    - intros b q Ib Q _. apply In_l in Ib.
      destruct Ib as [-> | [(y & d' & _ & _ & ->) | [(y & _ & ->) | (y & d' & _ & _ & _ & ->)]]];
        try exact Q.
      cbn [eff r_w set_yang w_yang]. unfold upd_md. destruct (md_eqb m y); auto.
    - right. apply in_app_iff. left. apply in_del. exists m. auto. }
  assert (Sh : w_shm (r_w r3) = reg).
  { apply (exec_done (fun q => w_shm (r_w q) = reg) o (AShm reg)
      l (eff (ALyd reg) r1) k2 r3 k3); [left; reflexivity| | | | |exact E3].
    - intros q Sk. discriminate Sk.
    - intros q _. reflexivity.
    - intros b q Ib Q _. apply In_l in Ib.
      destruct Ib as [-> | [(y & d' & _ & _ & ->) | [(y & _ & ->) | (y & d' & _ & _ & _ & ->)]]];
        try exact Q. reflexivity.
    - left. reflexivity. }
  split.
  - unfold installed. cbn [set_ctx w_lyd w_shm w_ctx w_cid w_inst w_yang w_dat w_push].
    split; [exact K1|]. split; [exact Sh|]. split; [reflexivity|]. split; [reflexivity|].
    split; [|split; [|split; [exact K7|]]].
    + intros m d. rewrite name_without. split.
      * intros T. pose proof (proj1 (A m d) (K5 m d T)) as [Im En].
        split; [|exact En]. split; [exact Im|]. intros Id. rewrite (Un m d Id En) in T.
        discriminate T.
      * intros [[Im Nd] En]. rewrite K2 by exact Nd. apply A. auto.
    + intros m. rewrite in_without. split.
      * intros T. split; [apply B; auto|]. intros Id. rewrite (Uy m Id) in T. discriminate T.
      * intros [Im Nd]. rewrite K3 by exact Nd. apply B. exact Im.
    + intros m T. rewrite K4 in T. apply name_without. split; [apply P; auto|].
      intros Id. rewrite (Pu m Id) in T. discriminate T.
  - intros m d Im En Id. cbn [set_ctx w_dat]. apply in_map_iff in Im. destruct Im as (y & <- & Iy).
    apply (exec_done (fun q => w_dat (r_w q) (fst y) d = upd (fst y) d) o
             (ADat (fst y) d (upd (fst y) d)) l (eff (ALyd reg) r1) k2 r3 k3);
      [left; reflexivity| | | | |exact E3].
    + intros q Sk. cbn [skip] in Sk. apply opt_eqb_spec. exact Sk.
    + intros q _. cbn [eff r_w set_dat w_dat]. apply upd2_same.
    + intros b q Ib Q _. apply In_l in Ib.
      destruct Ib as [-> | [(m & d' & Im & _ & ->) | [(m & _ & ->) | (m & d' & _ & _ & _ & ->)]]];
        try exact Q; cbn [eff r_w set_inst set_dat w_dat].
      * rewrite upd2_other; [exact Q|]. intros E.
        assert (Ea : fst y = fst m) by congruence.
        assert (Nn : In (fst y) (map fst ms) /\ ~ In (fst y) (map fst del)).
        { apply name_without. apply in_map. exact Iy. }
        apply (proj2 Nn). rewrite Ea. apply in_map. exact Im.
      * destruct (key_dec (fst y, d) (fst m, d')) as [Eq|Eq].
        -- assert (Ea : fst y = fst m) by congruence. assert (Eb : d = d') by congruence.
           rewrite Ea, Eb. apply upd2_same.
        -- rewrite upd2_other by exact Eq. exact Q.
    + right. apply in_app_iff. right. apply in_store. exists y, d. auto.
Qed.

End Rem.
End Ok.
