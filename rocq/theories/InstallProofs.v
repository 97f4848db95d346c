(** * Proofs: changes of the set of modules *)

From Coq Require Import List Arith Bool Lia.
Import ListNotations.
From Verif Require Import Install InstallSpec.

Lemma ds_eqb_spec : forall a b, ds_eqb a b = true <-> a = b.
Proof. destruct a, b; cbn; split; congruence. Qed.

Lemma md_eqb_spec : forall a b, md_eqb a b = true <-> a = b.
Proof.
  intros [a1 a2] [b1 b2]. unfold md_eqb. cbn [fst snd].
  rewrite andb_true_iff, !Nat.eqb_eq. split; [intros [-> ->]|intros H; injection H]; auto.
Qed.

Lemma md_eqb_refl : forall a, md_eqb a a = true.
Proof. intros a. apply md_eqb_spec. reflexivity. Qed.

Lemma ds_eqb_refl : forall a, ds_eqb a a = true.
Proof. intros a. apply ds_eqb_spec. reflexivity. Qed.

Lemma key_eqb : forall m d m' d',
  (m =? m') && ds_eqb d d' = true <-> (m = m' /\ d = d').
Proof. intros. rewrite andb_true_iff, Nat.eqb_eq, ds_eqb_spec. reflexivity. Qed.

Lemma has_md_spec : forall m l, has_md m l = true <-> In m l.
Proof.
  intros m l. unfold has_md. rewrite existsb_exists. split.
  - intros (x & I & E). apply md_eqb_spec in E. subst. exact I.
  - intros I. exists m. split; [exact I|apply md_eqb_refl].
Qed.

Lemma has_flg_spec : forall m d l, has_flg m d l = true <-> In (m, d) l.
Proof.
  intros m d l. unfold has_flg. rewrite existsb_exists. split.
  - intros ([x y] & I & E). apply key_eqb in E. cbn [fst snd] in E.
    destruct E as [-> ->]. exact I.
  - intros I. exists (m, d). split; [exact I|]. apply key_eqb. split; reflexivity.
Qed.

Lemma has_name_spec : forall m l, has_name m l = true <-> In m (map fst l).
Proof.
  intros m l. unfold has_name. rewrite existsb_exists, in_map_iff. split.
  - intros (x & I & E). apply Nat.eqb_eq in E. exists x. auto.
  - intros (x & E & I). exists x. rewrite Nat.eqb_eq. auto.
Qed.

Lemma opt_eqb_spec : forall a b, opt_eqb a b = true <-> a = b.
Proof.
  intros [a|] [b|]; cbn; try (split; congruence).
  rewrite Nat.eqb_eq. split; congruence.
Qed.

Lemma all_ds_all : forall d, In d all_ds.
Proof. destruct d; cbn; auto 6. Qed.

(** ** Running calls *)

Definition unl (a : act) : bool :=
  match a with ARevYang _ | AUnyang _ => true | _ => false end.

Lemma exec_app : forall o l1 l2 r k,
  exec o (l1 ++ l2) r k =
  match exec o l1 r k with
  | (r', k', ROk) => exec o l2 r' k'
  | x => x
  end.
Proof.
  induction l1 as [|a l1 IH]; intros l2 r k; [reflexivity|].
  cbn [app exec]. destruct (exec1 o a r k) as [[r' k'] []]; auto.
Qed.

(** all a call can do to the run *)
Lemma exec1_cases : forall o a r k r' k' x,
  exec1 o a r k = (r', k', x) ->
  (r' = r /\ (x = ROk -> skip a r = true \/ (unl a = true /\ o k = Fails))) \/
  (skip a r = false /\ r' = eff a r).
Proof.
  intros o a r k r' k' x H. unfold exec1 in H.
  destruct (skip a r) eqn:Sk.
  - assert (r' = r) by congruence. left. split; auto.
  - destruct (o k) eqn:E.
    + right. split; [reflexivity|].
      destruct a; try congruence. destruct (o (k + 1)); congruence.
    + left. destruct a; cbn [unl]; split; try congruence; intros; right; split;
        auto; congruence.
    + left. split; [congruence|]. congruence.
Qed.

Lemma exec1_k : forall o a r k r' k' x, exec1 o a r k = (r', k', x) -> k <= k'.
Proof.
  intros o a r k r' k' x H. unfold exec1 in H.
  destruct (skip a r); [assert (k = k') by congruence; lia|].
  destruct (o k).
  - destruct a; try (assert (k' = k + 1) by congruence; lia).
    destruct (o (k + 1)); assert (k' = k + 2) by congruence; lia.
  - destruct a; assert (k' = k + 1) by congruence; lia.
  - assert (k' = k + 1) by congruence; lia.
Qed.

Lemma exec_k : forall o l r k r' k' x, exec o l r k = (r', k', x) -> k <= k'.
Proof.
  induction l as [|a l IH]; intros r k r' k' x H; cbn [exec] in H.
  - assert (k = k') by congruence. lia.
  - destruct (exec1 o a r k) as [[r1 k1] y] eqn:E. apply exec1_k in E.
    destruct y; [apply IH in H; lia| |]; assert (k1 = k') by congruence; lia.
Qed.

Lemma exec_inv : forall (P : run -> Prop) o l r k r' k' x,
  (forall a r, In a l -> P r -> skip a r = false -> P (eff a r)) ->
  P r -> exec o l r k = (r', k', x) -> P r'.
Proof.
  induction l as [|a l IH]; intros r k r' k' x St Pr H; cbn [exec] in H.
  - assert (r = r') by congruence. subst. exact Pr.
  - destruct (exec1 o a r k) as [[r1 k1] y] eqn:E.
    assert (P1 : P r1).
    { apply exec1_cases in E. destruct E as [[-> _] | [Sk ->]]; [exact Pr|].
      apply St; auto. left. reflexivity. }
    destruct y.
    + eapply IH; [| exact P1 | exact H]. intros b rb Ib. apply St. right. exact Ib.
    + assert (r1 = r') by congruence. subst. exact P1.
    + assert (r1 = r') by congruence. subst. exact P1.
Qed.

Lemma exec1_inv : forall (P : run -> Prop) o a r k r' k' x,
  (P r -> skip a r = false -> P (eff a r)) ->
  P r -> exec1 o a r k = (r', k', x) -> P r'.
Proof.
  intros P o a r k r' k' x St Pr H. apply exec1_cases in H.
  destruct H as [[-> _] | [Sk ->]]; auto.
Qed.

(** after success every call was made *)
Lemma exec_done : forall (Q : run -> Prop) o a l r k r' k',
  (unl a = false \/ forall j, k <= j -> o j <> Fails) ->
  (forall r, skip a r = true -> Q r) ->
  (forall r, skip a r = false -> Q (eff a r)) ->
  (forall b r, In b l -> Q r -> skip b r = false -> Q (eff b r)) ->
  In a l -> exec o l r k = (r', k', ROk) -> Q r'.
Proof.
  intros Q o a l. induction l as [|b l IH]; intros r k r' k' U Q1 Q2 Q3 I H; [destruct I|].
  cbn [exec] in H. destruct (exec1 o b r k) as [[r1 k1] y] eqn:E.
  destruct y; try discriminate H.
  pose proof (exec1_k _ _ _ _ _ _ _ E) as K.
  destruct I as [-> | I].
  - apply exec1_cases in E.
    assert (QQ : Q r1).
    { destruct E as [[-> E] | [Sk ->]]; [|auto].
      destruct (E eq_refl) as [Sk|[U1 F]]; [auto|].
      destruct U as [U|U]; [congruence|]. exfalso. exact (U k (le_n _) F). }
    eapply (exec_inv Q); [| exact QQ | exact H].
    intros c rc Ic. apply Q3. right. exact Ic.
  - eapply (IH r1 k1); eauto.
    + destruct U as [U|U]; [left; exact U|right]. intros j J. apply U. lia.
    + intros c rc Ic. apply Q3. right. exact Ic.
Qed.

Definition spent (o : nat -> outcome) (k : nat) : Prop := forall j, k <= j -> o j = Good.

Lemma one_spent : forall o i k, one_failure o -> o i = Fails -> i < k -> spent o k.
Proof.
  intros o i k [D U] F L j J. destruct (o j) eqn:E; [reflexivity| |].
  - assert (i = j) by (apply U; assumption). lia.
  - exfalso. exact (D j E).
Qed.

Lemma exec1_fail_spent : forall o a r k r' k',
  one_failure o -> exec1 o a r k = (r', k', RFail) -> spent o k'.
Proof.
  intros o a r k r' k' O H. unfold exec1 in H.
  destruct (skip a r); [discriminate H|].
  destruct (o k) eqn:E; try discriminate H.
  - destruct a; try discriminate H.
    destruct (o (k + 1)) eqn:E1; try discriminate H.
    apply (one_spent o (k + 1)); auto. assert (k' = k + 2) by congruence. lia.
  - assert (k' = k + 1) by (destruct a; congruence).
    apply (one_spent o k); auto. lia.
Qed.

Lemma exec_fail_spent : forall o l r k r' k',
  one_failure o -> exec o l r k = (r', k', RFail) -> spent o k'.
Proof.
  induction l as [|a l IH]; intros r k r' k' O H; cbn [exec] in H; [discriminate H|].
  destruct (exec1 o a r k) as [[r1 k1] y] eqn:E.
  destruct y.
  - eapply IH; eauto.
  - assert (k1 = k') by congruence. subst. eapply exec1_fail_spent; eauto.
  - discriminate H.
Qed.

Lemma exec1_nodie : forall o a r k r' k' x,
  (forall i, o i <> Dies) -> exec1 o a r k = (r', k', x) -> x <> RDead.
Proof.
  intros o a r k r' k' x D H. unfold exec1 in H.
  destruct (skip a r); [congruence|].
  destruct (o k) eqn:E; [| | exfalso; exact (D k E)].
  - destruct a; try congruence.
    destruct (o (k + 1)) eqn:E1; [congruence|congruence|exfalso; exact (D _ E1)].
  - destruct a; congruence.
Qed.

Lemma exec_nodie : forall o l r k r' k' x,
  (forall i, o i <> Dies) -> exec o l r k = (r', k', x) -> x <> RDead.
Proof.
  induction l as [|a l IH]; intros r k r' k' x D H; cbn [exec] in H; [congruence|].
  destruct (exec1 o a r k) as [[r1 k1] y] eqn:E.
  pose proof (exec1_nodie _ _ _ _ _ _ _ D E). destruct y; [eauto|congruence|congruence].
Qed.

Lemma exec1_good : forall o a r k,
  spent o k -> exists k', exec1 o a r k = (if skip a r then r else eff a r, k', ROk)
    /\ spent o k'.
Proof.
  intros o a r k G. unfold exec1. destruct (skip a r); [eauto|].
  rewrite (G k (le_n _)).
  assert (G1 : spent o (k + 1)) by (intros j J; apply G; lia).
  assert (G2 : spent o (k + 2)) by (intros j J; apply G; lia).
  destruct a; eauto. rewrite (G (k + 1)) by lia. eauto.
Qed.

Lemma exec_good : forall o l r k,
  spent o k -> exists r' k', exec o l r k = (r', k', ROk) /\ spent o k'.
Proof.
  induction l as [|a l IH]; intros r k G; cbn [exec]; [eauto|].
  destruct (exec1_good o a r k G) as (k1 & -> & G1). apply IH. exact G1.
Qed.

(** acts that leave a part of the world alone *)

Definition no_lyd (a : act) : Prop := match a with ALyd _ => False | _ => True end.
Definition no_shm (a : act) : Prop := match a with AShm _ => False | _ => True end.

Lemma exec_lyd : forall o l r k r' k' x,
  (forall a, In a l -> no_lyd a) -> exec o l r k = (r', k', x) ->
  w_lyd (r_w r') = w_lyd (r_w r).
Proof.
  intros o l r k r' k' x N H.
  apply (exec_inv (fun q => w_lyd (r_w q) = w_lyd (r_w r)) o l r k r' k' x); auto.
  intros a q Ia E _. specialize (N a Ia). destruct a; try exact E. destruct N.
Qed.

Lemma exec_shm : forall o l r k r' k' x,
  (forall a, In a l -> no_shm a) -> exec o l r k = (r', k', x) ->
  w_shm (r_w r') = w_shm (r_w r).
Proof.
  intros o l r k r' k' x N H.
  apply (exec_inv (fun q => w_shm (r_w q) = w_shm (r_w r)) o l r k r' k' x); auto.
  intros a q Ia E _. specialize (N a Ia). destruct a; try exact E. destruct N.
Qed.

Lemma exec_checks : forall o n r k r' k' x,
  exec o (repeat ACheck n) r k = (r', k', x) -> r' = r.
Proof.
  intros o n r k r' k' x H.
  apply (exec_inv (fun q => q = r) o (repeat ACheck n) r k r' k' x); auto.
  intros a q Ia E _. apply repeat_spec in Ia. subst a. exact E.
Qed.

Section Install.
Variable deps : list md -> md -> list nat.
Variable en : nat -> ds -> bool.

Lemma add_deps_closed : forall ms,
  closed deps ms -> add_deps deps ms ms = Some (map (fun m => (m, deps ms m)) ms).
Proof.
  intros ms [_ C]. unfold add_deps.
  replace (forallb _ ms) with true; [reflexivity|]. symmetry.
  apply forallb_forall. intros m Im. apply andb_true_iff. split.
  - apply has_name_spec. apply in_map. exact Im.
  - apply forallb_forall. intros t It. apply has_name_spec. eapply C; eauto.
Qed.

Lemma map_deps_ext : forall c c' ms,
  (forall m, In m ms -> deps c m = deps c' m) ->
  map (fun m => (m, deps c m)) ms = map (fun m => (m, deps c' m)) ms.
Proof. intros c c' ms H. apply map_ext_in. intros m Im. rewrite H; auto. Qed.

Lemma add_deps_old : forall ms new,
  closed deps ms ->
  (forall m, In m ms -> deps (ms ++ new) m = deps ms m) ->
  add_deps deps (ms ++ new) ms = Some (map (fun m => (m, deps ms m)) ms).
Proof.
  intros ms new [_ C] E. unfold add_deps.
  replace (forallb _ ms) with true.
  - f_equal. apply map_deps_ext. exact E.
  - symmetry. apply forallb_forall. intros m Im. apply andb_true_iff. split.
    + apply has_name_spec. rewrite map_app, in_app_iff. left. apply in_map. exact Im.
    + apply forallb_forall. intros t It. apply has_name_spec.
      rewrite (E m Im) in It. eapply C; eauto.
Qed.

(** membership in the lists of calls *)

Lemma in_update : forall init new a,
  In a (update_acts en init new) ->
  a = ACheck \/ exists m d, In m new /\ en (fst m) d = true /\ a = AInst (fst m) d.
Proof.
  intros init new a H. unfold update_acts in H. apply in_app_iff in H.
  destruct H as [H|[<-|[]]]; [|auto].
  destruct init; [destruct H|].
  apply in_flat_map in H. destruct H as (d & _ & H).
  apply in_flat_map in H. destruct H as (m & Im & H).
  destruct (en (fst m) d) eqn:E; [|destruct H].
  destruct H as [<-|[<-|[]]]; [right; exists m, d; auto|auto].
Qed.

Lemma in_finish : forall new a,
  In a (finish_acts en new) <->
  exists m, In m new /\ ((exists d, en (fst m) d = true /\ a = AInst (fst m) d) \/ a = AYang m).
Proof.
  intros new a. unfold finish_acts. rewrite in_flat_map. split.
  - intros (m & Im & H). exists m. split; [exact Im|].
    apply in_app_iff in H. destruct H as [H|[<-|[]]]; [left|right; reflexivity].
    apply in_flat_map in H. destruct H as (d & _ & H).
    destruct (en (fst m) d) eqn:E; [|destruct H].
    destruct H as [<-|[]]. eauto.
  - intros (m & Im & H). exists m. split; [exact Im|]. apply in_app_iff.
    destruct H as [(d & E & ->) | ->]; [left|right; left; reflexivity].
    apply in_flat_map. exists d. split; [apply all_ds_all|]. rewrite E. left. reflexivity.
Qed.

Lemma in_revert : forall new a,
  In a (revert_acts new) <->
  exists m, In m new /\ ((exists d, a = ARevert (fst m) d) \/ a = ARevYang m).
Proof.
  intros new a. unfold revert_acts. rewrite in_flat_map. split.
  - intros (m & Im & H). exists m. split; [exact Im|].
    apply in_app_iff in H. destruct H as [H|[<-|[]]]; [left|right; reflexivity].
    apply in_map_iff in H. destruct H as (d & <- & _). eauto.
  - intros (m & Im & H). exists m. split; [exact Im|]. apply in_app_iff.
    destruct H as [(d & ->) | ->]; [left|right; left; reflexivity].
    apply in_map_iff. exists d. split; [reflexivity|apply all_ds_all].
Qed.

Lemma in_store : forall upd ms a,
  In a (store_acts en upd ms) <->
  exists m d, In m ms /\ In d upd_ds /\ en (fst m) d = true /\ a = ADat (fst m) d (upd (fst m) d).
Proof.
  intros upd ms a. unfold store_acts. rewrite in_flat_map. split.
  - intros (d & Id & H). apply in_flat_map in H. destruct H as (m & Im & H).
    destruct (en (fst m) d) eqn:E; [|destruct H]. destruct H as [<-|[]].
    exists m, d. auto.
  - intros (m & d & Im & Id & E & ->). exists d. split; [exact Id|].
    apply in_flat_map. exists m. split; [exact Im|]. rewrite E. left. reflexivity.
Qed.

Section One.
Variable w0 : world.
Variable ms new : list md.
Variable upd : nat -> ds -> option nat.
Hypothesis inst0 : installed deps en ms w0.
Hypothesis cl0 : closed deps ms.
Hypothesis cl1 : closed deps (ms ++ new).

Let names := map fst new.

Lemma disj : forall m, In m names -> ~ In m (map fst ms).
Proof.
  intros m I J. destruct cl1 as [N _]. rewrite map_app in N.
  assert (G : forall (a b : list nat), NoDup (a ++ b) -> In m a -> In m b -> False).
  { clear. induction a as [|x a IH]; intros b N I J; [destruct I|].
    cbn [app] in N. inversion N as [|? ? N1 N2]; subst. destruct I as [-> | I].
    - apply N1. apply in_app_iff. right. exact J.
    - eapply IH; eauto. }
  eapply G; eauto.
Qed.

Lemma disj_md : forall m, In m new -> ~ In m ms.
Proof. intros m I J. apply (disj (fst m)); apply in_map; assumption. Qed.

Lemma fresh_inst : forall m d, In m names -> w_inst w0 m d = false.
Proof.
  intros m d I. destruct inst0 as (_ & _ & _ & _ & A & _).
  destruct (w_inst w0 m d) eqn:E; [|reflexivity].
  apply A in E. exfalso. apply (disj m I). apply E.
Qed.

Lemma fresh_dat : forall m d, In m names -> w_dat w0 m d = None.
Proof.
  intros m d I. destruct inst0 as (_ & _ & _ & _ & _ & _ & A & _).
  destruct (w_dat w0 m d) eqn:E; [|reflexivity].
  assert (X : w_inst w0 m d = true) by (apply A; congruence).
  rewrite fresh_inst in X by exact I. discriminate X.
Qed.

Lemma fresh_yang : forall m, In m new -> w_yang w0 m = false.
Proof.
  intros m I. destruct inst0 as (_ & _ & _ & _ & _ & A & _).
  destruct (w_yang w0 m) eqn:E; [|reflexivity].
  apply A in E. exfalso. exact (disj_md m I E).
Qed.

(** what holds during the installation while data of other modules do not
    change *)
Record Inv (r : run) : Prop := {
  iv_ctx : w_ctx (r_w r) = w_ctx w0;
  iv_cid : w_cid (r_w r) = w_cid w0;
  iv_push : forall m, w_push (r_w r) m = w_push w0 m;
  iv_inst : forall m d, ~ In m names -> w_inst (r_w r) m d = w_inst w0 m d;
  iv_dat : forall m d, ~ In m names -> w_dat (r_w r) m d = w_dat w0 m d;
  iv_yang : forall m, ~ In m new -> w_yang (r_w r) m = w_yang w0 m;
  iv_finst : forall m d, In m names -> w_inst (r_w r) m d = true -> In (m, d) (r_flg r);
  iv_fdat : forall m d, In m names -> w_dat (r_w r) m d <> None -> In (m, d) (r_flg r);
  iv_fyang : forall m, In m new -> w_yang (r_w r) m = true -> In m (r_yflg r)
}.

Lemma Inv0 : Inv (Rn w0 [] []).
Proof.
  constructor; cbn [r_w r_flg r_yflg]; intros; try reflexivity.
  - rewrite fresh_inst in H0 by assumption. discriminate H0.
  - rewrite fresh_dat in H0 by assumption. exfalso. apply H0. reflexivity.
  - rewrite fresh_yang in H0 by assumption. discriminate H0.
Qed.

Definition allowed (a : act) : Prop :=
  match a with
  | ACheck | ALyd _ | AShm _ => True
  | AInst m d | ARevert m d => In m names
  | AYang m | ARevYang m => In m new
  | ADat m d v => In m names \/ v = w_dat w0 m d
  | AUninst _ _ | AUnyang _ | APush _ => False
  end.

Definition flagged (r : run) (a : act) : Prop :=
  match a with
  | ADat m d _ => In m names -> In (m, d) (r_flg r)
  | _ => True
  end.

Lemma in_dec_n : forall (m : nat) l, In m l \/ ~ In m l.
Proof. intros m l. destruct (in_dec Nat.eq_dec m l); auto. Qed.

Lemma upd2_same : forall A (f : nat -> ds -> A) m d v, upd2 f m d v m d = v.
Proof.
  intros. unfold upd2. rewrite Nat.eqb_refl, ds_eqb_refl. reflexivity.
Qed.

Lemma upd2_other : forall A (f : nat -> ds -> A) m d v m' d',
  (m', d') <> (m, d) -> upd2 f m d v m' d' = f m' d'.
Proof.
  intros. unfold upd2. destruct ((m' =? m) && ds_eqb d' d) eqn:E; [|reflexivity].
  apply key_eqb in E. destruct E as [-> ->]. exfalso. apply H. reflexivity.
Qed.

Lemma key_dec : forall (a b : nat * ds), {a = b} + {a <> b}.
Proof. decide equality; [decide equality|apply Nat.eq_dec]. Qed.

Lemma md_dec : forall (a b : md), {a = b} + {a <> b}.
Proof. decide equality; apply Nat.eq_dec. Qed.

Lemma upd_md_same : forall f m v, upd_md f m v m = v.
Proof. intros. unfold upd_md. rewrite md_eqb_refl. reflexivity. Qed.

Lemma upd_md_other : forall f m v m', m' <> m -> upd_md f m v m' = f m'.
Proof.
  intros. unfold upd_md. destruct (md_eqb m' m) eqn:E; [|reflexivity].
  apply md_eqb_spec in E. contradiction.
Qed.

Lemma Inv_eff : forall a r,
  allowed a -> flagged r a -> Inv r -> skip a r = false -> Inv (eff a r).
Proof.
  intros a r Al Fl I Sk. destruct I as [I1 I2 I3 I4 I5 I6 I7 I8 I9].
  destruct a; cbn [allowed] in Al; cbn [flagged] in Fl; try contradiction;
    constructor; cbn [eff r_w r_flg r_yflg w_ctx w_cid w_push w_inst w_dat w_yang
      set_lyd set_shm set_inst set_yang set_dat] in *; auto.
  - (* AInst *) intros m' d' N. rewrite upd2_other; auto. intros E.
    assert (m' = m) by congruence. subst. contradiction.
  - intros m' d' N. rewrite upd2_other; auto. intros E.
    assert (m' = m) by congruence. subst. contradiction.
  - intros m' d' N E. destruct (key_dec (m', d') (m, d)) as [E1|E1].
    + left. congruence.
    + right. rewrite upd2_other in E by exact E1. auto.
  - intros m' d' N E. destruct (key_dec (m', d') (m, d)) as [E1|E1].
    + left. congruence.
    + right. rewrite upd2_other in E by exact E1. auto.
  - (* ARevert *) intros m' d' N. rewrite upd2_other; auto. intros E.
    assert (m' = m) by congruence. subst. contradiction.
  - intros m' d' N. rewrite upd2_other; auto. intros E.
    assert (m' = m) by congruence. subst. contradiction.
  - intros m' d' N E. destruct (key_dec (m', d') (m, d)) as [E1|E1].
    + assert (m' = m) by congruence. assert (d' = d) by congruence. subst.
      rewrite upd2_same in E. discriminate E.
    + rewrite upd2_other in E by exact E1. apply filter_In. split; [auto|].
      cbn [fst snd]. apply negb_true_iff.
      destruct ((m' =? m) && ds_eqb d' d) eqn:X; [|reflexivity].
      apply key_eqb in X. exfalso. apply E1. destruct X. congruence.
  - intros m' d' N E. destruct (key_dec (m', d') (m, d)) as [E1|E1].
    + assert (m' = m) by congruence. assert (d' = d) by congruence. subst.
      rewrite upd2_same in E. exfalso. apply E. reflexivity.
    + rewrite upd2_other in E by exact E1. apply filter_In. split; [auto|].
      cbn [fst snd]. apply negb_true_iff.
      destruct ((m' =? m) && ds_eqb d' d) eqn:X; [|reflexivity].
      apply key_eqb in X. exfalso. apply E1. destruct X. congruence.
  - (* AYang *) intros m' N. rewrite upd_md_other; auto. intros ->. contradiction.
  - intros m' N E. destruct (md_dec m' m) as [E1|E1]; [left; auto|].
    right. rewrite upd_md_other in E by exact E1. auto.
  - (* ARevYang *) intros m' N. rewrite upd_md_other; auto. intros ->. contradiction.
  - intros m' N E. destruct (md_dec m' m) as [E1|E1].
    + subst m'. rewrite upd_md_same in E. discriminate E.
    + rewrite upd_md_other in E by exact E1. apply filter_In. split; [auto|].
      apply negb_true_iff. destruct (md_eqb m m') eqn:X; [|reflexivity].
      apply md_eqb_spec in X. congruence.
  - (* ADat *) intros m' d' N. destruct (key_dec (m', d') (m, d)) as [E1|E1].
    + assert (m' = m) by congruence. assert (d' = d) by congruence. subst.
      destruct Al as [Al|Al]; [contradiction|]. rewrite upd2_same. exact Al.
    + rewrite upd2_other by exact E1. auto.
  - intros m' d' N E. destruct (key_dec (m', d') (m, d)) as [E1|E1].
    + assert (m' = m) by congruence. assert (d' = d) by congruence. subst. auto.
    + rewrite upd2_other in E by exact E1. auto.
Qed.

Lemma Inv_exec : forall o l r k r' k' x,
  (forall a, In a l -> allowed a /\ (forall q, flagged q a)) ->
  Inv r -> exec o l r k = (r', k', x) -> Inv r'.
Proof.
  intros o l r k r' k' x A I H.
  apply (exec_inv Inv o l r k r' k' x); auto.
  intros a q Ia Iq Sk. destruct (A a Ia) as [A1 A2]. apply Inv_eff; auto.
Qed.

Lemma in_names : forall m, In m new -> In (fst m) names.
Proof. intros m I. unfold names. apply in_map. exact I. Qed.

Lemma update_allowed : forall init a, In a (update_acts en init new) ->
  allowed a /\ (forall q, flagged q a).
Proof.
  intros init a H. apply in_update in H. destruct H as [-> | (m & d & Im & _ & ->)];
    cbn; auto using in_names.
Qed.

Lemma finish_allowed : forall a, In a (finish_acts en new) ->
  allowed a /\ (forall q, flagged q a).
Proof.
  intros a H. apply in_finish in H. destruct H as (m & Im & [(d & _ & ->) | ->]);
    cbn; auto using in_names.
Qed.

Lemma revert_allowed : forall a, In a (revert_acts new) ->
  allowed a /\ (forall q, flagged q a).
Proof.
  intros a H. apply in_revert in H. destruct H as (m & Im & [(d & ->) | ->]);
    cbn; auto using in_names.
Qed.

(** ** reverting *)

Lemma same_of_inv : forall r,
  Inv r -> w_lyd (r_w r) = w_lyd w0 -> w_shm (r_w r) = w_shm w0 ->
  (forall m d, In m names -> ~ In (m, d) (r_flg r)) ->
  (forall m, In m new -> ~ In m (r_yflg r)) ->
  same_world (r_w r) w0.
Proof.
  intros r [I1 I2 I3 I4 I5 I6 I7 I8 I9] L Sh F Y.
  unfold same_world.
  split; [exact L|]. split; [exact Sh|].
  split; [|split; [|split; [|split; [exact I3|split; assumption]]]].
  - intros m d. destruct (in_dec_n m names) as [N|N]; [|auto].
    rewrite (fresh_inst m d N).
    destruct (w_inst (r_w r) m d) eqn:E; [|reflexivity].
    exfalso. apply (F m d N). apply I7; assumption.
  - intros m. destruct (in_dec md_dec m new) as [N|N]; [|auto].
    rewrite (fresh_yang m N).
    destruct (w_yang (r_w r) m) eqn:E; [|reflexivity].
    exfalso. apply (Y m N). apply I9; assumption.
  - intros m d. destruct (in_dec_n m names) as [N|N]; [|auto].
    rewrite (fresh_dat m d N).
    destruct (w_dat (r_w r) m d) eqn:E; [|reflexivity].
    exfalso. apply (F m d N). apply I8; [assumption|congruence].
Qed.

Lemma revert_flags : forall o r k r' k',
  spent o k -> exec o (revert_acts new) r k = (r', k', ROk) ->
  (forall m d, In m names -> ~ In (m, d) (r_flg r')) /\
  (forall m, In m new -> ~ In m (r_yflg r')).
Proof.
  intros o r k r' k' G H.
  assert (NF : forall j, k <= j -> o j <> Fails).
  { intros j J. rewrite (G j J). discriminate. }
  split.
  - intros m d N. unfold names in N. apply in_map_iff in N. destruct N as (x & <- & Ix).
    apply (exec_done (fun q => ~ In (fst x, d) (r_flg q)) o (ARevert (fst x) d)
             (revert_acts new) r k r' k'); auto.
    + intros q Sk C. cbn [skip] in Sk. apply negb_true_iff in Sk.
      apply has_flg_spec in C. congruence.
    + intros q _ C. cbn [eff r_flg] in C. apply filter_In in C. destruct C as [_ C].
      cbn [fst snd] in C. rewrite Nat.eqb_refl, ds_eqb_refl in C. discriminate C.
    + intros b q Ib Nq _ C. apply in_revert in Ib.
      destruct Ib as (y & Iy & [(d' & ->) | ->]); cbn [eff r_flg] in C.
      * apply filter_In in C. apply Nq. apply C.
      * exact (Nq C).
    + apply in_revert. exists x. split; [exact Ix|]. left. eauto.
  - intros m N.
    apply (exec_done (fun q => ~ In m (r_yflg q)) o (ARevYang m)
             (revert_acts new) r k r' k'); auto.
    + intros q Sk C. cbn [skip] in Sk. apply negb_true_iff in Sk.
      apply has_md_spec in C. congruence.
    + intros q _ C. cbn [eff r_yflg] in C. apply filter_In in C. destruct C as [_ C].
      rewrite md_eqb_refl in C. discriminate C.
    + intros b q Ib Nq _ C. apply in_revert in Ib.
      destruct Ib as (y & Iy & [(d' & ->) | ->]); cbn [eff r_yflg] in C.
      * exact (Nq C).
      * apply filter_In in C. apply Nq. apply C.
    + apply in_revert. exists m. split; [exact N|]. right. reflexivity.
Qed.

Lemma revert_no : forall a, In a (revert_acts new) -> no_lyd a /\ no_shm a.
Proof.
  intros a H. apply in_revert in H. destruct H as (m & _ & [(d & ->) | ->]); cbn; auto.
Qed.

Lemma cleanup_same : forall o r k r' x,
  spent o k -> Inv r -> w_lyd (r_w r) = w_lyd w0 -> w_shm (r_w r) = w_shm w0 ->
  cleanup o new r k = (r', x) -> x = RFail /\ same_world (r_w r') w0.
Proof.
  intros o r k r' x G I L Sh H. unfold cleanup in H.
  destruct (exec_good o (revert_acts new) r k G) as (r1 & k1 & E & G1).
  rewrite E in H.
  assert (x = RFail) by congruence. assert (r1 = r') by congruence. subst.
  split; [reflexivity|].
  destruct (revert_flags o r k r' k1 G E) as [F Y].
  apply same_of_inv; auto.
  - eapply Inv_exec; [exact revert_allowed| |exact E]. exact I.
  - rewrite (exec_lyd _ _ _ _ _ _ _ (fun a Ia => proj1 (revert_no a Ia)) E). exact L.
  - rewrite (exec_shm _ _ _ _ _ _ _ (fun a Ia => proj2 (revert_no a Ia)) E). exact Sh.
Qed.

Hypothesis deps_same : forall m, In m ms -> deps (ms ++ new) m = deps ms m.
Hypothesis dat_same : forall m d, In m (map fst ms) -> en m d = true ->
  In d upd_ds -> upd m d = w_dat w0 m d.

Lemma Inv_set : forall r reg reg', Inv r ->
  Inv (Rn (set_lyd (r_w r) reg) (r_flg r) (r_yflg r)) /\
  Inv (Rn (set_shm (r_w r) reg') (r_flg r) (r_yflg r)).
Proof.
  intros r reg reg' I. split.
  - apply (Inv_eff (ALyd reg)); cbn; auto.
  - apply (Inv_eff (AShm reg')); cbn; auto.
Qed.

Lemma error_same : forall o changed r k r' x,
  spent o k -> Inv r -> (changed = false -> w_shm (r_w r) = w_shm w0) ->
  error deps o changed ms new r k = (r', x) -> x = RFail /\ same_world (r_w r') w0.
Proof.
  intros o changed r k r' x G I Sh H. unfold error, write_lyd in H.
  rewrite (add_deps_old ms new cl0 deps_same) in H.
  set (reg := map (fun m => (m, deps ms m)) ms) in *.
  assert (L0 : w_lyd w0 = reg) by (apply inst0).
  assert (S0 : w_shm w0 = reg) by (apply inst0).
  destruct (exec1_good o (ALyd reg) r k G) as (k1 & E & G1).
  rewrite E in H. cbn [skip eff] in H.
  destruct (Inv_set r reg reg I) as [IL _].
  destruct changed.
  - destruct (exec1_good o (AShm reg) (Rn (set_lyd (r_w r) reg) (r_flg r) (r_yflg r)) k1 G1)
      as (k2 & E2 & G2).
    rewrite E2 in H. cbn [skip eff] in H.
    eapply cleanup_same; [exact G2| | | |exact H].
    + apply (Inv_set _ reg reg IL).
    + cbn [r_w set_shm set_lyd w_lyd]. congruence.
    + cbn [r_w set_shm set_lyd w_shm]. congruence.
  - eapply cleanup_same; [exact G1|exact IL| | |exact H].
    + cbn [r_w set_lyd w_lyd]. congruence.
    + cbn [r_w set_lyd w_shm]. auto.
Qed.

Lemma update_no : forall init a, In a (update_acts en init new) -> no_lyd a /\ no_shm a.
Proof.
  intros init a H. apply in_update in H. destruct H as [-> | (m & d & _ & _ & ->)]; cbn; auto.
Qed.

Lemma finish_no : forall a, In a (finish_acts en new) -> no_lyd a /\ no_shm a.
Proof.
  intros a H. apply in_finish in H. destruct H as (m & _ & [(d & _ & ->) | ->]); cbn; auto.
Qed.

Lemma finish_flags : forall o r k r' k',
  exec o (finish_acts en new) r k = (r', k', ROk) ->
  (forall m d, In m names -> en m d = true -> In (m, d) (r_flg r')) /\
  (forall m, In m new -> In m (r_yflg r')).
Proof.
  intros o r k r' k' H. split.
  - intros m d N E. unfold names in N. apply in_map_iff in N. destruct N as (x & <- & Ix).
    apply (exec_done (fun q => In (fst x, d) (r_flg q)) o (AInst (fst x) d)
             (finish_acts en new) r k r' k'); auto.
    + intros q Sk. cbn [skip] in Sk. apply has_flg_spec. exact Sk.
    + intros q _. cbn [eff r_flg]. left. reflexivity.
    + intros b q Ib Nq _. apply in_finish in Ib.
      destruct Ib as (y & Iy & [(d' & _ & ->) | ->]); cbn [eff r_flg]; auto.
      right. exact Nq.
    + apply in_finish. exists x. split; [exact Ix|]. left. eauto.
  - intros m N.
    apply (exec_done (fun q => In m (r_yflg q)) o (AYang m)
             (finish_acts en new) r k r' k'); auto.
    + intros q Sk. discriminate Sk.
    + intros q _. cbn [eff r_yflg]. left. reflexivity.
    + intros b q Ib Nq _. apply in_finish in Ib.
      destruct Ib as (y & Iy & [(d' & _ & ->) | ->]); cbn [eff r_yflg]; auto.
      right. exact Nq.
    + apply in_finish. exists m. split; [exact N|]. right. reflexivity.
Qed.

Lemma store_inv : forall o r k r' k' x,
  Inv r -> (forall m d, In m names -> en m d = true -> In (m, d) (r_flg r)) ->
  exec o (store_acts en upd (ms ++ new)) r k = (r', k', x) -> Inv r'.
Proof.
  intros o r k r' k' x I F H.
  apply (exec_inv (fun q => Inv q /\ forall m d, In m names -> en m d = true -> In (m, d) (r_flg q))
           o (store_acts en upd (ms ++ new)) r k r' k' x); auto.
  intros a q Ia [Iq Fq] Sk. apply in_store in Ia.
  destruct Ia as (m & d & Im & Id & E & ->).
  split; [|exact Fq].
  apply Inv_eff; auto.
  - cbn [allowed]. apply in_app_iff in Im. destruct Im as [Im|Im].
    + right. apply dat_same; auto. apply in_map. exact Im.
    + left. apply in_names. exact Im.
  - cbn [flagged]. intros N. apply Fq; auto.
Qed.

Theorem install_fail : forall o checks init r,
  one_failure o ->
  install deps en o checks init upd ms new w0 = (r, RFail) ->
  same_world (r_w r) w0.
Proof.
  intros o checks init r O H. unfold install in H.
  destruct (exec o (repeat ACheck checks) (Rn w0 [] []) 0) as [[r1 k1] x1] eqn:E1.
  pose proof (exec_checks _ _ _ _ _ _ _ E1) as ->.
  destruct x1; [| |discriminate H].
  2:{ eapply cleanup_same; [|exact Inv0| | |exact H]; try reflexivity.
      eapply exec_fail_spent; [exact O|exact E1]. }
  unfold write_lyd in H. rewrite (add_deps_closed _ cl1) in H.
  set (reg := map (fun m => (m, deps (ms ++ new) m)) (ms ++ new)) in *.
  destruct (exec1 o (ALyd reg) (Rn w0 [] []) k1) as [[r2 k2] x2] eqn:E2.
  destruct x2; [| |discriminate H].
  2:{ assert (r2 = Rn w0 [] []).
      { unfold exec1 in E2. cbn [skip] in E2. destruct (o k1); congruence. }
      subst r2.
      eapply cleanup_same; [|exact Inv0| | |exact H]; try reflexivity.
      eapply exec1_fail_spent; [exact O|exact E2]. }
  assert (I2 : Inv r2).
  { eapply (exec1_inv Inv); [|exact Inv0|exact E2]. intros _ _. apply Inv_eff; cbn; auto.
    exact Inv0. }
  assert (S2 : w_shm (r_w r2) = w_shm w0).
  { apply exec1_cases in E2. destruct E2 as [[-> _] | [_ ->]]; reflexivity. }
  destruct (exec o (update_acts en init new) r2 k2) as [[r3 k3] x3] eqn:E3.
  assert (I3 : Inv r3) by (eapply Inv_exec; [apply update_allowed|exact I2|exact E3]).
  assert (S3 : w_shm (r_w r3) = w_shm w0).
  { rewrite (exec_shm _ _ _ _ _ _ _ (fun a Ia => proj2 (update_no init a Ia)) E3). exact S2. }
  destruct x3; [| |discriminate H].
  2:{ eapply error_same; [|exact I3| |exact H]; [|auto].
      eapply exec_fail_spent; [exact O|exact E3]. }
  destruct (exec1 o (AShm reg) r3 k3) as [[r4 k4] x4] eqn:E4.
  assert (I4 : Inv r4).
  { eapply (exec1_inv Inv); [|exact I3|exact E4]. intros _ _. apply Inv_eff; cbn; auto. }
  destruct x4; [| |discriminate H].
  2:{ assert (r4 = r3).
      { unfold exec1 in E4. cbn [skip] in E4. destruct (o k3); congruence. }
      subst r4.
      eapply error_same; [|exact I3| |exact H]; [|auto].
      eapply exec1_fail_spent; [exact O|exact E4]. }
  destruct (exec o (finish_acts en new) r4 k4) as [[r5 k5] x5] eqn:E5.
  assert (I5 : Inv r5) by (eapply Inv_exec; [apply finish_allowed|exact I4|exact E5]).
  destruct x5; [| |discriminate H].
  2:{ assert (G : spent o k5) by (eapply exec_fail_spent; [exact O|exact E5]).
      destruct (exec_good o (revert_acts new) r5 k5 G) as (r6 & k6 & E6 & G6).
      rewrite E6 in H.
      assert (I6 : Inv r6) by (eapply Inv_exec; [exact revert_allowed|exact I5|exact E6]).
      eapply error_same; [exact G6|exact I6| |exact H]. intros C. discriminate C. }
  destruct (exec o (store_acts en upd (ms ++ new)) r5 k5) as [[r6 k6] x6] eqn:E6.
  assert (I6 : Inv r6).
  { eapply store_inv; [exact I5| |exact E6]. apply (finish_flags _ _ _ _ _ E5). }
  destruct x6; [discriminate H| |discriminate H].
  eapply error_same; [|exact I6| |exact H].
  - eapply exec_fail_spent; [exact O|exact E6].
  - intros C. discriminate C.
Qed.

End One.
End Install.
