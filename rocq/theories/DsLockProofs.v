From Coq Require Import List NArith Lia Bool Arith.
From Verif Require Import DsLock DsLockSpec.
Import ListNotations.
Open Scope N_scope.

Lemma lmode_eqb_eq : forall a b, lmode_eqb a b = true <-> a = b.
Proof. intros [] []; cbn; split; intros; congruence. Qed.

Lemma upd_same : forall A (f : nat -> A) i x, upd f i x i = x.
Proof. intros. unfold upd. rewrite Nat.eqb_refl. reflexivity. Qed.
Lemma upd_other : forall A (f : nat -> A) i j x, j <> i -> upd f i x j = f j.
Proof. intros. unfold upd. destruct (Nat.eqb_spec j i); [contradiction|reflexivity]. Qed.

Lemma holds_in : forall h c m, holds h c m = true <-> In (c, m) h.
Proof.
  intros h c m. unfold holds. rewrite existsb_exists. split.
  - intros ([c' m'] & Hi & H). apply andb_prop in H. destruct H as (H1 & H2). cbn [fst snd] in *. apply Nat.eqb_eq in H1. apply lmode_eqb_eq in H2. subst. exact Hi.
  - intros Hi. exists (c, m). split; [exact Hi|]. cbn [fst snd]. rewrite Nat.eqb_refl, (proj2 (lmode_eqb_eq m m) eq_refl). reflexivity.
Qed.

Lemma del1_in : forall h c m x, In x (del1 c m h) -> In x h.
Proof.
  induction h as [|y r IH]; intros c m x H; cbn [del1] in H; [exact H|]. destruct (Nat.eqb (fst y) c && lmode_eqb (snd y) m).
  - right. exact H.
  - destruct H as [<-|H]; [left; reflexivity|right; eapply IH; exact H].
Qed.

(** * The invariant *)

(** A writer is alone; next to an upgradable reader are only readers. *)
Definition excl (h : list (nat * lmode)) : Prop :=
  (forall c, In (c, LWrite) h -> h = [(c, LWrite)]) /\
  (forall c h1 h2, h = h1 ++ (c, LUpgr) :: h2 -> Forall (fun x => snd x = LRead) (h1 ++ h2)).

Definition inv (ss : nat -> sess) (s : st) : Prop :=
  forall m, excl (held s m) /\
    (forall c md, In (c, md) (held s m) -> dead s (se_cid (ss c)) = false) /\
    (forall c md, In (c, md) (held s m) -> md <> LRead -> dl_sid (ds s m) = 0 \/ dl_sid (ds s m) = se_sid (ss c)).

Lemma excl_nil : excl [].
Proof. split; [intros c []|]. intros c [|] h2 H; discriminate. Qed.

Lemma excl_write : forall h c, excl h -> In (c, LWrite) h -> h = [(c, LWrite)].
Proof. intros h c (H & _). apply H. Qed.

Lemma excl_sub : forall h h', (exists f : nat * lmode -> bool, h' = filter f h) -> excl h -> excl h'.
Proof.
  intros h h' (f & ->) (H1 & H2). split.
  - intros c Hc. pose proof Hc as Hc'. apply filter_In in Hc'. destruct Hc' as (Hi & Hf). rewrite (H1 c Hi). cbn [filter]. rewrite Hf. reflexivity.
  - intros c h1 h2 E. assert (Hi : In (c, LUpgr) (filter f h)) by (rewrite E; apply in_or_app; right; left; reflexivity).
    apply filter_In in Hi. destruct Hi as (Hi & Hf). destruct (in_split _ _ Hi) as (a & b & Eh). pose proof (H2 c a b Eh) as F.
    rewrite Eh, filter_app in E. cbn [filter] in E. rewrite Hf in E.
    assert (U : forall (p q p' q' : list (nat * lmode)), Forall (fun x => snd x = LRead) (p ++ q) -> p ++ (c, LUpgr) :: q = p' ++ (c, LUpgr) :: q' -> p = p' /\ q = q').
    { induction p as [|x p IH]; intros q p' q' FF EE; destruct p' as [|y p']; cbn [app] in *.
      - injection EE as ->. split; reflexivity.
      - injection EE as E1 E2. exfalso. rewrite E2 in FF. rewrite Forall_forall in FF. specialize (FF (c, LUpgr) ltac:(apply in_or_app; right; left; reflexivity)). discriminate.
      - injection EE as E1 E2. subst x. inversion FF; subst. discriminate.
      - injection EE as E1 E2. inversion FF; subst. destruct (IH q p' q' H4 E2) as (-> & ->). split; reflexivity. }
    destruct (U (filter f a) (filter f b) h1 h2) as (<- & <-).
    + rewrite <- filter_app. rewrite Forall_forall in *. intros x Hx. apply filter_In in Hx. apply F. tauto.
    + exact E.
    + rewrite <- filter_app. rewrite Forall_forall in *. intros x Hx. apply filter_In in Hx. apply F. tauto.
Qed.

Lemma excl_del1 : forall h c m, excl h -> excl (del1 c m h).
Proof.
  intros h c m H. assert (D : exists a b, del1 c m h = a ++ b /\ (h = a ++ b \/ exists x, h = a ++ x :: b)).
  { clear H. induction h as [|y r IH]; cbn [del1]; [exists [], []; split; [reflexivity|left; reflexivity]|].
    destruct (Nat.eqb (fst y) c && lmode_eqb (snd y) m).
    - exists [], r. split; [reflexivity|right; exists y; reflexivity].
    - destruct IH as (a & b & E & O). exists (y :: a), b. cbn [app]. split; [congruence|]. destruct O as [->|(x & ->)]; [left; reflexivity|right; exists x; reflexivity]. }
  destruct D as (a & b & E & [Eh|(x & Eh)]); rewrite E; [rewrite <- Eh; exact H|]. destruct H as (H1 & H2). split.
  - intros k Hk. assert (Hi : In (k, LWrite) h) by (rewrite Eh; apply in_or_app; apply in_app_or in Hk; destruct Hk; [left|right; right]; assumption).
    pose proof (H1 k Hi) as E1. rewrite Eh in E1. destruct a as [|y a]; cbn [app] in *.
    + injection E1 as E2 E3. rewrite E3 in Hk. inversion Hk.
    + injection E1 as E2 E3. destruct a; discriminate.
  - intros k h1 h2 Ek. assert (G : exists p q, h = p ++ (k, LUpgr) :: q /\ incl (h1 ++ h2) (p ++ q)).
    { rewrite Eh. clear -Ek. revert h1 Ek. induction a as [|y a IH]; intros h1 Ek; cbn [app] in *.
      - rewrite Ek. exists (x :: h1), h2. split; [reflexivity|]. intros z Hz. right. exact Hz.
      - destruct h1 as [|z h1]; cbn [app] in *.
        + injection Ek as -> <-. exists [], (a ++ x :: b). split; [reflexivity|]. cbn [app]. intros z Hz. apply in_or_app. apply in_app_or in Hz. destruct Hz; [left|right; right]; assumption.
        + injection Ek as -> Ek. destruct (IH h1 Ek) as (p & q & E1 & E2). exists (z :: p), q. cbn [app]. split; [congruence|]. intros w [<-|Hw]; [left; reflexivity|right; apply E2; exact Hw]. }
    destruct G as (p & q & E1 & E2). pose proof (H2 k p q E1) as F. rewrite Forall_forall in *. intros z Hz. apply F. apply E2. exact Hz.
Qed.

Lemma excl_cons : forall h c m, excl h -> compatible h m = true -> excl ((c, m) :: h).
Proof.
  intros h c m (H1 & H2) C. destruct m; cbn [compatible] in C.
  - (* read *) rewrite forallb_forall in C. split.
    + intros k [E|Hk]; [discriminate|]. exfalso. specialize (C _ Hk). cbn in C. discriminate.
    + intros k h1 h2 E. destruct h1 as [|y h1]; cbn [app] in *; [discriminate|]. injection E as <- E. constructor; [reflexivity|]. eapply H2. exact E.
  - (* upgradable *) rewrite forallb_forall in C. assert (F : Forall (fun x => snd x = LRead) h) by (rewrite Forall_forall; intros x Hx; apply lmode_eqb_eq; apply C; exact Hx). split.
    + intros k [E|Hk]; [discriminate|]. exfalso. specialize (C _ Hk). cbn in C. discriminate.
    + intros k h1 h2 E. destruct h1 as [|y h1]; cbn [app] in *; [injection E as <- <-; exact F|]. injection E as <- E. exfalso. rewrite E in F. rewrite Forall_forall in F.
      specialize (F (k, LUpgr) ltac:(apply in_or_app; right; left; reflexivity)). discriminate.
  - (* write *) destruct h; [|discriminate]. split.
    + intros k [E|[]]. injection E as <-. reflexivity.
    + intros k h1 h2 E. destruct h1 as [|y h1]; cbn [app] in *; [discriminate|]. injection E as <- E. destruct h1; discriminate.
Qed.

Lemma excl_single : forall c m, excl [(c, m)].
Proof. intros. apply excl_cons; [apply excl_nil|]. destruct m; reflexivity. Qed.

Lemma ds_test_spec : forall dd sid d d', ds_test dd sid d = Some d' -> dl_sid d' = 0 \/ dl_sid d' = sid.
Proof.
  intros dd sid d d' H. unfold ds_test in H. destruct (N.eqb_spec (dl_sid d) 0) as [E|E]; cbn [negb andb] in H.
  - injection H as <-. left. exact E.
  - destruct (N.eqb_spec (dl_sid d) sid) as [E2|E2]; cbn [negb] in H; [injection H as <-; right; exact E2|].
    destruct (dd (dl_cid d)); [injection H as <-; left; reflexivity|discriminate].
Qed.

Lemma ds_test_cases : forall dd sid d d', ds_test dd sid d = Some d' ->
  d' = d \/ (d' = mkdsl 0 0 0 /\ dd (dl_cid d) = true /\ dl_sid d <> sid).
Proof.
  intros dd sid d d' H. unfold ds_test in H. destruct (N.eqb_spec (dl_sid d) 0) as [E|E]; cbn [negb andb] in H.
  - injection H as <-. left. reflexivity.
  - destruct (N.eqb_spec (dl_sid d) sid) as [E2|E2]; cbn [negb] in H; [injection H as <-; left; reflexivity|].
    destruct (dd (dl_cid d)) eqn:Ed; [injection H as <-; right; repeat split; assumption|discriminate].
Qed.

Ltac inv_h := match goal with H : Some _ = Some _ |- _ => injection H as <- | H : None = Some _ |- _ => discriminate H end.

Lemma step_inv : forall ss s c a s', inv ss s -> step ss s c a = Some s' -> inv ss s'.
Proof.
  intros ss s c a s' I H. unfold step in H. destruct (dead s (se_cid (ss c))) eqn:Ed; [discriminate|].
  assert (HW : forall m, holds (held s m) c LWrite = true -> held s m = [(c, LWrite)]).
  { intros m Hm. apply holds_in in Hm. destruct (I m) as (Hx & _). apply excl_write; assumption. }
  destruct a as [m md|m|m md|m md|m|m|m|m|m|m|].
  - destruct (compatible (held s m) md) eqn:Ec; [|discriminate].
    assert (G : forall d, (md <> LRead -> dl_sid d = 0 \/ dl_sid d = se_sid (ss c)) -> (md = LRead -> d = ds s m) ->
                inv ss (set_ds (set_held s m ((c, md) :: held s m)) m d)).
    { intros d Hd Hr j. unfold set_ds, set_held. cbn [held ds dead]. destruct (Nat.eq_dec j m) as [->|Hj]; [rewrite !upd_same|rewrite !upd_other by assumption; apply I].
      destruct (I m) as (I1 & I2 & I3). split; [apply excl_cons; assumption|]. split.
      - intros k md' [E|Hk]; [injection E as <- <-; exact Ed|eapply I2; exact Hk].
      - intros k md' [E|Hk] Hn; [injection E as <- <-; apply Hd; exact Hn|].
        destruct md; cbn [compatible] in Ec.
        + rewrite (Hr eq_refl). eapply I3; eassumption.
        + rewrite forallb_forall in Ec. specialize (Ec _ Hk). cbn [snd] in Ec. apply lmode_eqb_eq in Ec. contradiction.
        + destruct (held s m); [destruct Hk|discriminate]. }
    destruct md; [|destruct (ds_test (dead s) (se_sid (ss c)) (ds s m)) as [d|] eqn:Et; [|discriminate]; inv_h; apply G; [intros _; eapply ds_test_spec; exact Et|discriminate]..].
    inv_h. assert (G' := G (ds s m) ltac:(congruence) ltac:(reflexivity)). intros j. specialize (G' j). cbn [held ds dead set_ds set_held] in *.
    destruct (Nat.eq_dec j m) as [->|Hj]; [rewrite !upd_same in *; exact G'|rewrite !upd_other in * by assumption; exact G'].
  - destruct (holds (held s m) c LUpgr && compatible (del1 c LUpgr (held s m)) LWrite) eqn:Ec; [|discriminate].
    destruct (ds_test (dead s) (se_sid (ss c)) (ds s m)) as [d|] eqn:Et; [|discriminate]. inv_h.
    intros j. cbn [held ds dead set_ds set_held]. destruct (Nat.eq_dec j m) as [->|Hj]; [rewrite !upd_same|rewrite !upd_other by assumption; apply I].
    split; [apply excl_single|]. split; intros k md' [E|[]]; injection E as <- <-; [exact Ed|]. intros _. eapply ds_test_spec. exact Et.
  - destruct (holds (held s m) c LWrite && negb (lmode_eqb md LWrite)) eqn:Ec; [|discriminate]. inv_h. apply andb_prop in Ec. destruct Ec as (E1 & E2).
    pose proof (HW m E1) as Eh. intros j. cbn [held ds dead set_held]. destruct (Nat.eq_dec j m) as [->|Hj]; [rewrite !upd_same|rewrite !upd_other by assumption; apply I].
    destruct (I m) as (I1 & I2 & I3). rewrite Eh in *. cbn [del1 fst snd]. rewrite Nat.eqb_refl. cbn [lmode_eqb andb]. split; [apply excl_single|].
    split; intros k md' [E|[]]; injection E as <- <-; [exact Ed|]. intros _. apply (I3 c LWrite); [left; reflexivity|discriminate].
  - destruct (holds (held s m) c md); [|discriminate]. inv_h. intros j. cbn [held ds dead set_held]. destruct (Nat.eq_dec j m) as [->|Hj]; [rewrite !upd_same|rewrite !upd_other by assumption; apply I].
    destruct (I m) as (I1 & I2 & I3). split; [apply excl_del1; exact I1|]. split.
    + intros k md' Hk. eapply I2. eapply del1_in. exact Hk.
    + intros k md' Hk. eapply I3. eapply del1_in. exact Hk.
  - destruct (holds (held s m) c LWrite && (dl_sid (ds s m) =? 0)) eqn:Ec; [|discriminate]. inv_h. apply andb_prop in Ec. destruct Ec as (E1 & E2).
    pose proof (HW m E1) as Eh. intros j. cbn [held ds dead set_ds]. destruct (Nat.eq_dec j m) as [->|Hj]; [rewrite !upd_same|rewrite !upd_other by assumption; apply I].
    destruct (I m) as (I1 & I2 & I3). split; [exact I1|]. split; [exact I2|]. rewrite Eh. intros k md' [E|[]] _. injection E as <- <-. right. reflexivity.
  - destruct (holds (held s m) c LWrite && negb (dl_sid (ds s m) =? 0)) eqn:Ec; [|discriminate]. inv_h.
    intros j. cbn [held ds dead set_ds]. destruct (Nat.eq_dec j m) as [->|Hj]; [rewrite !upd_same|rewrite !upd_other by assumption; apply I].
    destruct (I m) as (I1 & I2 & I3). split; [exact I1|]. split; [exact I2|]. intros. left. reflexivity.
  - destruct (holds (held s m) c LWrite && (dl_sid (ds s m) =? se_sid (ss c))) eqn:Ec; [|discriminate]. inv_h.
    intros j. cbn [held ds dead set_ds]. destruct (Nat.eq_dec j m) as [->|Hj]; [rewrite !upd_same|rewrite !upd_other by assumption; apply I].
    destruct (I m) as (I1 & I2 & I3). split; [exact I1|]. split; [exact I2|]. intros. left. reflexivity.
  - destruct (holds (held s m) c LWrite && (dl_sid (ds s m) =? 0)) eqn:Ec; [|discriminate]. inv_h. apply andb_prop in Ec. destruct Ec as (E1 & E2).
    pose proof (HW m E1) as Eh. intros j. cbn [held ds dead set_ds]. destruct (Nat.eq_dec j m) as [->|Hj]; [rewrite !upd_same|rewrite !upd_other by assumption; apply I].
    destruct (I m) as (I1 & I2 & I3). split; [exact I1|]. split; [exact I2|]. rewrite Eh. intros k md' [E|[]] _. injection E as <- <-. right. reflexivity.
  - destruct (holds (held s m) c LWrite); [|discriminate]. inv_h. exact I.
  - destruct (N.eqb_spec (dl_sid (ds s m)) (se_sid (ss c))); inv_h; [|exact I].
    intros j. cbn [held ds dead set_ds]. destruct (Nat.eq_dec j m) as [->|Hj]; [rewrite !upd_same|rewrite !upd_other by assumption; apply I].
    destruct (I m) as (I1 & I2 & I3). split; [exact I1|]. split; [exact I2|]. intros. left. reflexivity.
  - inv_h. intros j. cbn [held ds dead]. destruct (I j) as (I1 & I2 & I3). split; [eapply excl_sub; [eexists; reflexivity|exact I1]|]. split.
    + intros k md' Hk. apply filter_In in Hk. destruct Hk as (Hk & Hn). cbn [fst] in Hn. apply negb_true_iff in Hn. rewrite Hn. cbn [orb]. eapply I2. exact Hk.
    + intros k md' Hk. apply filter_In in Hk. destruct Hk as (Hk & _). eapply I3. exact Hk.
Qed.

Lemma init_inv : forall ss, inv ss init.
Proof. intros ss m. cbn. split; [apply excl_nil|]. split; intros c md []. Qed.

Lemma run_inv : forall ss l s s', inv ss s -> run ss s l = Some s' -> inv ss s'.
Proof.
  induction l as [|(c, a) r IH]; intros s s' I H; cbn [run] in H; [injection H as <-; exact I|].
  destruct (step ss s c a) as [s1|] eqn:E; [|discriminate]. eapply IH; [eapply step_inv; eassumption|exact H].
Qed.

Lemma run_app : forall ss l1 l2 s s', run ss s (l1 ++ l2) = Some s' -> exists s1, run ss s l1 = Some s1 /\ run ss s1 l2 = Some s'.
Proof.
  induction l1 as [|(c, a) r IH]; intros l2 s s' H; cbn [app run] in *; [exists s; split; [reflexivity|exact H]|].
  destruct (step ss s c a) as [s1|]; [|discriminate]. apply IH. exact H.
Qed.

(** * Exclusivity *)

(** The lock is owned by a session of a connection that is alive. *)
Definition owns (ss : nat -> sess) (s : st) (c m : nat) : Prop :=
  dl_sid (ds s m) = se_sid (ss c) /\ dl_cid (ds s m) = se_cid (ss c) /\ dead s (se_cid (ss c)) = false.

Lemma owns_step : forall ss s c m c' a s', sess_ok ss -> se_sid (ss c) <> 0 -> inv ss s -> owns ss s c m ->
  step ss s c' a = Some s' -> ~ ends ss c m (c', a) -> owns ss s' c m.
Proof.
  intros ss s c m c' a s' Ok Hnz I (O1 & O2 & O3) H Hn. unfold step in H. destruct (dead s (se_cid (ss c'))) eqn:Ed; [discriminate|].
  assert (HW : forall j, holds (held s j) c' LWrite = true -> j = m -> c' = c).
  { intros j Hj ->. apply holds_in in Hj. destruct (I m) as (_ & _ & I3). destruct (I3 c' LWrite Hj ltac:(discriminate)) as [E|E]; [congruence|].
    destruct (Nat.eq_dec c' c) as [|Hc]; [assumption|exfalso]. apply (Ok c c'); congruence. }
  assert (HT : forall d, ds_test (dead s) (se_sid (ss c')) (ds s m) = Some d -> d = ds s m).
  { intros d Ht. destruct (ds_test_cases _ _ _ _ Ht) as [E|(_ & E & _)]; [exact E|]. rewrite O2, O3 in E. discriminate. }
  assert (K : forall s1, ds s1 m = ds s m -> dead s1 = dead s -> owns ss s1 c m).
  { intros s1 E1 E2. unfold owns. rewrite E1, E2. repeat split; assumption. }
  assert (KO : forall s1 j d, s1 = set_ds s j d -> j <> m -> owns ss s1 c m).
  { intros s1 j d -> Hj. apply K; [|reflexivity]. cbn [ds set_ds]. apply upd_other. congruence. }
  destruct a as [j md|j|j md|j md|j|j|j|j|j|j|].
  - destruct (compatible (held s j) md); [|discriminate]. destruct md; [inv_h; apply K; reflexivity|..];
      (destruct (ds_test (dead s) (se_sid (ss c')) (ds s j)) as [d|] eqn:Et; [|discriminate]; inv_h; apply K; [|reflexivity]; cbn [ds set_ds];
       destruct (Nat.eq_dec m j) as [<-|Hj]; [rewrite upd_same; apply HT; exact Et|apply upd_other; assumption]).
  - destruct (holds (held s j) c' LUpgr && compatible (del1 c' LUpgr (held s j)) LWrite); [|discriminate].
    destruct (ds_test (dead s) (se_sid (ss c')) (ds s j)) as [d|] eqn:Et; [|discriminate]; inv_h; apply K; [|reflexivity]; cbn [ds set_ds].
    destruct (Nat.eq_dec m j) as [<-|Hj]; [rewrite upd_same; apply HT; exact Et|apply upd_other; assumption].
  - destruct (holds (held s j) c' LWrite && negb (lmode_eqb md LWrite)); [|discriminate]. inv_h. apply K; reflexivity.
  - destruct (holds (held s j) c' md); [|discriminate]. inv_h. apply K; reflexivity.
  - destruct (holds (held s j) c' LWrite && (dl_sid (ds s j) =? 0)) eqn:Ec; [|discriminate]. inv_h. apply andb_prop in Ec. destruct Ec as (E1 & E2). apply N.eqb_eq in E2.
    eapply KO; [reflexivity|]. intros ->. congruence.
  - destruct (holds (held s j) c' LWrite && negb (dl_sid (ds s j) =? 0)) eqn:Ec; [|discriminate]. inv_h. apply andb_prop in Ec. destruct Ec as (E1 & E2).
    eapply KO; [reflexivity|]. intros ->. apply Hn. rewrite (HW m E1 eq_refl). left. reflexivity.
  - destruct (holds (held s j) c' LWrite && (dl_sid (ds s j) =? se_sid (ss c'))) eqn:Ec; [|discriminate]. inv_h. apply andb_prop in Ec. destruct Ec as (E1 & E2).
    eapply KO; [reflexivity|]. intros ->. apply Hn. rewrite (HW m E1 eq_refl). right. left. reflexivity.
  - destruct (holds (held s j) c' LWrite && (dl_sid (ds s j) =? 0)) eqn:Ec; [|discriminate]. inv_h. apply andb_prop in Ec. destruct Ec as (E1 & E2). apply N.eqb_eq in E2.
    eapply KO; [reflexivity|]. intros ->. congruence.
  - destruct (holds (held s j) c' LWrite); [|discriminate]. inv_h. apply K; reflexivity.
  - destruct (N.eqb_spec (dl_sid (ds s j)) (se_sid (ss c'))) as [E|E]; inv_h; [|apply K; reflexivity]. eapply KO; [reflexivity|]. intros ->.
    apply Hn. right. right. left. destruct (Nat.eq_dec c' c) as [->|Hc]; [reflexivity|exfalso]. apply (Ok c c'); congruence.
  - inv_h. unfold owns. cbn [ds dead]. repeat split; try assumption. destruct (N.eqb_spec (se_cid (ss c)) (se_cid (ss c'))) as [E|E]; [|exact O3].
    exfalso. apply Hn. right. right. right. cbn [fst snd]. split; [reflexivity|congruence].
Qed.

Lemma owns_run : forall ss l s s' c m, sess_ok ss -> se_sid (ss c) <> 0 -> inv ss s -> owns ss s c m ->
  run ss s l = Some s' -> Forall (fun x => ~ ends ss c m x) l -> owns ss s' c m /\ inv ss s'.
Proof.
  induction l as [|(c', a) r IH]; intros s s' c m Ok Hnz I O H F; cbn [run] in H; [injection H as <-; split; assumption|].
  destruct (step ss s c' a) as [s1|] eqn:E; [|discriminate]. pose proof (Forall_inv F) as F1. pose proof (Forall_inv_tail F) as F2.
  eapply IH; [exact Ok|exact Hnz|eapply step_inv; eassumption| |exact H|exact F2]. eapply owns_step; eassumption.
Qed.

Lemma set_owns : forall ss s c m s', step ss s c (DsSet m) = Some s' -> owns ss s' c m.
Proof.
  intros ss s c m s' H. unfold step in H. destruct (dead s (se_cid (ss c))) eqn:Ed; [discriminate|].
  destruct (holds (held s m) c LWrite && (dl_sid (ds s m) =? 0)); [|discriminate]. inv_h. unfold owns. cbn [ds dead set_ds]. rewrite upd_same. repeat split. exact Ed.
Qed.

(** Taken by [c] and not given back: nobody else takes it nor stores data. *)
Theorem exclusive : forall ss c m before during c' a s, sess_ok ss -> se_sid (ss c) <> 0 ->
  run ss init (before ++ (c, DsSet m) :: during ++ [(c', a)]) = Some s ->
  Forall (fun x => ~ ends ss c m x) during -> c' <> c ->
  a <> DsSet m /\ a <> Store m /\ a <> Lock m LWrite /\ a <> Lock m LUpgr /\ a <> Upgrade m.
Proof.
  intros ss c m before during c' a s Ok Hnz H F Hc.
  destruct (run_app _ _ _ _ _ H) as (s0 & R0 & R1). pose proof (run_inv _ _ _ _ (init_inv ss) R0) as I0.
  cbn [run] in R1. destruct (step ss s0 c (DsSet m)) as [s1|] eqn:E1; [|discriminate].
  pose proof (step_inv _ _ _ _ _ I0 E1) as I1. pose proof (set_owns _ _ _ _ _ E1) as O1.
  destruct (run_app _ _ _ _ _ R1) as (s2 & R2 & R3). destruct (owns_run _ _ _ _ _ _ Ok Hnz I1 O1 R2 F) as ((O2 & O3 & O4) & I2).
  cbn [run] in R3. destruct (step ss s2 c' a) as [s3|] eqn:E3; [|discriminate].
  assert (HW : holds (held s2 m) c' LWrite = true -> False).
  { intros Q. apply holds_in in Q. destruct (I2 m) as (_ & _ & J3). destruct (J3 c' LWrite Q ltac:(discriminate)) as [E|E]; [congruence|]. apply (Ok c c'); congruence. }
  assert (HT : forall d, ds_test (dead s2) (se_sid (ss c')) (ds s2 m) = Some d -> False).
  { intros d Ht. destruct (ds_test_cases _ _ _ _ Ht) as [E|(_ & E & _)].
    - subst d. destruct (ds_test_spec _ _ _ _ Ht) as [E|E]; [congruence|]. apply (Ok c c'); congruence.
    - rewrite O3, O4 in E. discriminate. }
  unfold step in E3. destruct (dead s2 (se_cid (ss c'))); [discriminate|].
  split; [|split; [|split; [|split]]]; intros ->.
  - destruct (holds (held s2 m) c' LWrite); [apply HW; reflexivity|discriminate].
  - destruct (holds (held s2 m) c' LWrite); [apply HW; reflexivity|discriminate].
  - destruct (compatible (held s2 m) LWrite); [|discriminate]. destruct (ds_test (dead s2) (se_sid (ss c')) (ds s2 m)) eqn:Et; [eapply HT; reflexivity|discriminate].
  - destruct (compatible (held s2 m) LUpgr); [|discriminate]. destruct (ds_test (dead s2) (se_sid (ss c')) (ds s2 m)) eqn:Et; [eapply HT; reflexivity|discriminate].
  - destruct (holds (held s2 m) c' LUpgr && compatible (del1 c' LUpgr (held s2 m)) LWrite); [|discriminate].
    destruct (ds_test (dead s2) (se_sid (ss c')) (ds s2 m)) eqn:Et; [eapply HT; reflexivity|discriminate].
Qed.

(** The owner, as told by sr_get_lock(), in the meantime. *)
Theorem keeps : forall ss c m before during s, sess_ok ss -> se_sid (ss c) <> 0 ->
  run ss init (before ++ (c, DsSet m) :: during) = Some s ->
  Forall (fun x => ~ ends ss c m x) during -> owner (ds s m) = se_sid (ss c).
Proof.
  intros ss c m before during s Ok Hnz H F.
  destruct (run_app _ _ _ _ _ H) as (s0 & R0 & R1). pose proof (run_inv _ _ _ _ (init_inv ss) R0) as I0.
  cbn [run] in R1. destruct (step ss s0 c (DsSet m)) as [s1|] eqn:E1; [|discriminate].
  destruct (owns_run _ _ _ _ _ _ Ok Hnz (step_inv _ _ _ _ _ I0 E1) (set_owns _ _ _ _ _ E1) R1 F) as ((O2 & _) & _). exact O2.
Qed.

(** A dead owner does not prevent others: the lock is taken over. *)
Theorem dead_owner : forall ss s c m, dead s (se_cid (ss c)) = false -> held s m = [] ->
  dl_sid (ds s m) <> 0 -> dl_sid (ds s m) <> se_sid (ss c) -> dead s (dl_cid (ds s m)) = true ->
  exists s1 s2, step ss s c (Lock m LWrite) = Some s1 /\ step ss s1 c (DsSet m) = Some s2 /\ owner (ds s2 m) = se_sid (ss c).
Proof.
  intros ss s c m Hd Hh H0 H1 H2. unfold step. rewrite Hd, Hh. cbn [compatible]. unfold ds_test.
  rewrite (proj2 (N.eqb_neq _ _) H0), (proj2 (N.eqb_neq _ _) H1), H2. cbn [negb andb]. eexists. eexists. split; [reflexivity|].
  cbn [dead held ds set_ds set_held]. rewrite Hd, !upd_same. cbn [holds existsb fst snd dl_sid]. rewrite Nat.eqb_refl. cbn [lmode_eqb andb orb N.eqb]. split; [reflexivity|].
  unfold owner. cbn [ds set_ds]. rewrite upd_same. reflexivity.
Qed.

(** * All or nothing *)

Lemma change_fail : forall cand lock cid sid now l l', change_loop cand lock cid sid now l = (false, l') ->
  let n := changed cand lock cid sid now l in
  skipn n l' = skipn n (map fst l) /\ length l' = length l /\ Forall (fun d => d = if lock then mkdsl cid sid now else mkdsl 0 0 0) (firstn n l') /\
  Forall (fun x => if lock then dl_sid (fst x) = 0 else dl_sid (fst x) <> 0) (firstn n l).
Proof.
  intros cand lock cid sid now. induction l as [|(d, o) r IH]; intros l' H; cbn [change_loop changed] in *; [discriminate|].
  destruct (change_one cand lock cid sid now o d) as [d'|] eqn:E.
  - destruct (change_loop cand lock cid sid now r) as [ok r'] eqn:Er. injection H as -> <-. destruct (IH r' eq_refl) as (A & B & C & D).
    cbn [skipn firstn map fst length]. split; [exact A|]. split; [congruence|].
    unfold change_one in E. destruct (negb (o_mutex o)); [discriminate|]. destruct (N.eqb_spec (dl_sid d) 0) as [Z|Z]; destruct lock; cbn [negb andb] in E; try discriminate.
    + destruct (cand && match o_modified o with Some b => b | None => true end); [discriminate|]. injection E as <-. split; constructor; auto.
    + injection E as <-. split; constructor; auto.
  - injection H as <-. cbn [skipn firstn map fst length]. rewrite map_length. repeat split; constructor.
Qed.

Lemma reverse_owner : forall n lock sid now rm l, Forall (fun b => b = true) rm ->
  map owner (reverse_n n lock sid now rm l) = map (fun _ => if lock then 0 else sid) (firstn n l) ++ map owner (skipn n l).
Proof.
  induction n as [|n IH]; intros lock sid now rm l F; [reflexivity|]. destruct l as [|d r]; [reflexivity|]. cbn [reverse_n map firstn skipn app].
  f_equal.
  - unfold reverse_one. destruct rm as [|b rm]; [destruct lock; reflexivity|]. rewrite (Forall_inv F). destruct lock; reflexivity.
  - apply IH. destruct rm; [constructor|]. exact (Forall_inv_tail F).
Qed.

Lemma firstn_owner : forall n (l : list (dsl * outcome)) (P : N), Forall (fun x => dl_sid (fst x) = P) (firstn n l) ->
  map owner (map fst l) = map (fun _ => P) (firstn n l) ++ map owner (skipn n (map fst l)).
Proof.
  induction n as [|n IH]; intros l P F; [reflexivity|]. destruct l as [|x r]; [reflexivity|]. cbn [firstn skipn map app] in *. f_equal; [exact (Forall_inv F)|].
  apply IH. exact (Forall_inv_tail F).
Qed.

Lemma map_const_len : forall A B C (c : C) (l : list A) (l' : list B), length l = length l' -> map (fun _ => c) l = map (fun _ => c) l'.
Proof. induction l as [|x r IH]; intros [|y r'] H; try discriminate; [reflexivity|]. cbn [map]. f_equal. apply IH. cbn in H. congruence. Qed.

Theorem lock_all_or_nothing : forall cand cid sid now l rm l', Forall (fun b => b = true) rm ->
  change_dslock cand true cid sid now l rm = (false, l') -> map owner l' = map owner (map fst l).
Proof.
  intros cand cid sid now l rm l' F H. unfold change_dslock in H. destruct (change_loop cand true cid sid now l) as [ok l1] eqn:E. destruct ok; [discriminate|].
  injection H as <-. destruct (change_fail _ _ _ _ _ _ _ E) as (A & B & C & D). set (n := changed cand true cid sid now l) in *.
  rewrite reverse_owner by exact F. rewrite A. rewrite (firstn_owner n l 0 D). f_equal. apply map_const_len. rewrite !firstn_length. congruence.
Qed.

Lemma reverse_visible : forall n sid now rm l, Forall (fun b => b = true) rm ->
  map visible (reverse_n n true sid now rm l) = map (fun _ => None) (firstn n l) ++ map visible (skipn n l).
Proof.
  induction n as [|n IH]; intros sid now rm l F; [reflexivity|]. destruct l as [|d r]; [reflexivity|]. cbn [reverse_n map firstn skipn app].
  f_equal.
  - unfold reverse_one. destruct rm as [|b rm]; [reflexivity|]. rewrite (Forall_inv F). reflexivity.
  - apply IH. destruct rm; [constructor|]. exact (Forall_inv_tail F).
Qed.

Lemma firstn_visible : forall n (l : list (dsl * outcome)), Forall (fun x => dl_sid (fst x) = 0) (firstn n l) ->
  map visible (map fst l) = map (fun _ => None) (firstn n l) ++ map visible (skipn n (map fst l)).
Proof.
  induction n as [|n IH]; intros l F; [reflexivity|]. destruct l as [|x r]; [reflexivity|]. cbn [firstn skipn map app] in *. f_equal.
  - unfold visible. rewrite (Forall_inv F). reflexivity.
  - apply IH. exact (Forall_inv_tail F).
Qed.

Theorem lock_all_or_nothing_visible : forall cand cid sid now l rm l', Forall (fun b => b = true) rm ->
  change_dslock cand true cid sid now l rm = (false, l') -> map visible l' = map visible (map fst l).
Proof.
  intros cand cid sid now l rm l' F H. unfold change_dslock in H. destruct (change_loop cand true cid sid now l) as [ok l1] eqn:E. destruct ok; [discriminate|].
  injection H as <-. destruct (change_fail _ _ _ _ _ _ _ E) as (A & B & C & D). set (n := changed cand true cid sid now l) in *.
  rewrite reverse_visible by exact F. rewrite A. rewrite (firstn_visible n l D). f_equal. apply map_const_len. rewrite !firstn_length. congruence.
Qed.

(** Unlocking: the owners are restored if the session owned all of the changed modules (which the
    module lock test guarantees). *)
Theorem unlock_owner_restored : forall cand cid sid now l rm l', Forall (fun b => b = true) rm ->
  Forall (fun x => dl_sid (fst x) = 0 \/ dl_sid (fst x) = sid) l ->
  change_dslock cand false cid sid now l rm = (false, l') -> map owner l' = map owner (map fst l).
Proof.
  intros cand cid sid now l rm l' F S H. unfold change_dslock in H. destruct (change_loop cand false cid sid now l) as [ok l1] eqn:E. destruct ok; [discriminate|].
  injection H as <-. destruct (change_fail _ _ _ _ _ _ _ E) as (A & B & C & D). set (n := changed cand false cid sid now l) in *.
  rewrite reverse_owner by exact F. rewrite A. rewrite (firstn_owner n l sid).
  - f_equal. apply map_const_len. rewrite !firstn_length. congruence.
  - rewrite Forall_forall in *. intros x Hx. specialize (D x Hx). cbn beta iota in D. destruct (S x) as [Q|Q]; [|contradiction|exact Q].
    rewrite <- (firstn_skipn n l). apply in_or_app. left. exact Hx.
Qed.

Theorem success_all : forall cand lock cid sid now l rm l',
  change_dslock cand lock cid sid now l rm = (true, l') ->
  length l' = length l /\ Forall (fun d => d = if lock then mkdsl cid sid now else mkdsl 0 0 0) l'.
Proof.
  intros cand lock cid sid now l rm l' H. unfold change_dslock in H. destruct (change_loop cand lock cid sid now l) as [ok l1] eqn:E. destruct ok; [|discriminate]. injection H as <-.
  revert l1 E. induction l as [|(d, o) r IH]; intros l1 E; cbn [change_loop] in E; [injection E as <-; split; [reflexivity|constructor]|].
  destruct (change_one cand lock cid sid now o d) as [d'|] eqn:E1; [|discriminate]. destruct (change_loop cand lock cid sid now r) as [ok r'] eqn:Er. injection E as -> <-.
  destruct (IH r' eq_refl) as (A & B). split; [cbn [length]; congruence|]. constructor; [|exact B].
  unfold change_one in E1. destruct (negb (o_mutex o)); [discriminate|]. destruct (negb (dl_sid d =? 0) && lock); [discriminate|]. destruct ((dl_sid d =? 0) && negb lock); [discriminate|].
  destruct (lock && cand && match o_modified o with Some b => b | None => true end); [discriminate|]. destruct lock; injection E1 as <-; reflexivity.
Qed.

(** sr_get_lock() tells a session exactly if it owns all the modules. *)
Lemma get_loop_spec : forall l sid ts s t, sid <> 0 -> (get_lock_loop l sid ts = Some (s, t) <-> s = sid /\ t = ts /\ Forall (fun d => dl_sid d = sid) l).
Proof.
  induction l as [|d r IH]; intros sid ts s t Hs; cbn [get_lock_loop].
  - split; [intros H; injection H as <- <-; repeat split; constructor|intros (-> & -> & _); reflexivity].
  - destruct (N.eqb_spec (dl_sid d) 0) as [Z|Z].
    + split; [discriminate|]. intros (_ & _ & F). pose proof (Forall_inv F). congruence.
    + rewrite (proj2 (N.eqb_neq _ _) Hs). destruct (N.eqb_spec sid (dl_sid d)) as [E|E]; cbn [negb].
      * rewrite (IH sid ts s t Hs). split; intros (A & B & F); repeat split; try assumption; [constructor; [congruence|exact F]|exact (Forall_inv_tail F)].
      * split; [discriminate|]. intros (_ & _ & F). pose proof (Forall_inv F). congruence.
Qed.

Theorem get_lock_spec : forall l r, get_lock l = Some r ->
  match r with
  | Some (sid, ts) => sid <> 0 /\ Forall (fun d => owner d = sid) l
  | None => forall sid, sid <> 0 -> ~ Forall (fun d => owner d = sid) l
  end.
Proof.
  intros [|d l] r H; [discriminate|]. cbn [get_lock] in H. injection H as <-. cbn [get_lock_loop N.eqb].
  destruct (N.eqb_spec (dl_sid d) 0) as [Z|Z].
  - intros sid Hs F. pose proof (Forall_inv F) as F1. cbn beta in F1. unfold owner in F1. congruence.
  - destruct (get_lock_loop l (dl_sid d) (dl_ts d)) as [[s t]|] eqn:E.
    + apply get_loop_spec in E; [|exact Z]. destruct E as (-> & _ & F). split; [exact Z|]. constructor; [reflexivity|exact F].
    + intros sid Hs F. pose proof (Forall_inv F) as F1. cbn beta in F1. unfold owner in F1. subst sid.
      assert (Q : get_lock_loop l (dl_sid d) (dl_ts d) = Some (dl_sid d, dl_ts d)) by (apply get_loop_spec; [exact Z|]; repeat split; exact (Forall_inv_tail F)). congruence.
Qed.
