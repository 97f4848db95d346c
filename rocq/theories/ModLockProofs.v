From Coq Require Import List NArith Lia Bool Arith Permutation Sorting.Sorted.
From Verif Require Import DsLock DsLockSpec DsLockProofs ModLock ModLockSpec.
Import ListNotations.
Local Open Scope nat_scope.

(** * One operation *)

(** The flags tell exactly what is held. *)
Definition cons_ok (m : mmod) : Prop :=
  let f := m_fl m in
  m_h m = (if f_r f then Some LRead else if f_u f then Some LUpgr else if f_w f then Some LWrite else None) /\
  m_h2 m = (if f_r2 f then Some LRead else None) /\
  (f_r f = true -> f_u f = false /\ f_w f = false) /\ (f_u f = true -> f_w f = false).

Lemma lock_new : forall md ts ok h, shmmod_lock false md None ts = (ok, h) -> h = if ok then Some md else None.
Proof.
  intros md. induction ts as [|t r IH]; intros ok h H; cbn [shmmod_lock] in H; [injection H as <- <-; reflexivity|].
  destruct (t_lock t); cbn [negb] in H; [|injection H as <- <-; reflexivity].
  destruct md; [injection H as <- <-; reflexivity|..]; (destruct (t_mutex t); cbn [negb] in H; [|injection H as <- <-; reflexivity];
    destruct (t_dslocked t); cbn [andb] in H; [apply IH; exact H|injection H as <- <-; reflexivity]).
Qed.

Lemma lock_up : forall ts ok h, Forall (fun t => t_back t = true) ts -> shmmod_lock true LWrite (Some LUpgr) ts = (ok, h) ->
  h = if ok then Some LWrite else Some LUpgr.
Proof.
  induction ts as [|t r IH]; intros ok h F H; cbn [shmmod_lock] in H; [injection H as <- <-; reflexivity|].
  rewrite (Forall_inv F) in H. destruct (t_lock t); cbn [negb andb] in H; [|injection H as <- <-; reflexivity].
  destruct (t_mutex t); cbn [negb] in H; [|injection H as <- <-; reflexivity].
  destruct (t_dslocked t); [apply IH; [exact (Forall_inv_tail F)|exact H]|injection H as <- <-; reflexivity].
Qed.

Lemma lock_down : forall h0 ts ok h, shmmod_lock true LRead h0 ts = (ok, h) -> h = if ok then Some LRead else h0.
Proof.
  intros h0 ts ok h H. destruct ts as [|t r]; cbn [shmmod_lock] in H; [injection H as <- <-; reflexivity|].
  destruct (t_lock t); cbn [negb] in H; injection H as <- <-; reflexivity.
Qed.

Lemma modinfo_lock_ok : forall sec md ms ts ok ms', (sec = true -> md = LRead) -> Forall cons_ok ms -> modinfo_lock sec md ms ts = (ok, ms') -> Forall cons_ok ms'.
Proof.
  intros sec md. induction ms as [|m r IH]; intros ts ok ms' Hs F H; cbn [modinfo_lock] in H; [injection H as _ <-; constructor|].
  pose proof (Forall_inv F) as Fm. pose proof (Forall_inv_tail F) as Fr. set (f := m_fl m) in *.
  destruct (if sec then f_r2 f else f_r f || f_u f || f_w f) eqn:Eb.
  - destruct (modinfo_lock sec md r (tl ts)) as [ok1 r1] eqn:Er. injection H as _ <-. constructor; [exact Fm|]. eapply IH; eassumption.
  - destruct (shmmod_lock false md (if sec then m_h2 m else m_h m) (hd [] ts)) as [ok1 h] eqn:El.
    destruct Fm as (A & B & C & E). fold f in A, B, C, E.
    assert (Hn : (if sec then m_h2 m else m_h m) = None).
    { destruct sec; [rewrite B, Eb; reflexivity|]. rewrite A. destruct (f_r f), (f_u f), (f_w f); try discriminate. reflexivity. }
    rewrite Hn in El. apply lock_new in El. subst h. destruct ok1.
    + destruct (modinfo_lock sec md r (tl ts)) as [ok2 r1] eqn:Er. injection H as _ <-. constructor; [|eapply IH; eassumption].
      destruct sec.
      * rewrite (Hs eq_refl). unfold cons_ok. cbn [m_fl m_h m_h2 f_r f_u f_w f_r2]. repeat split; try assumption; apply C; assumption.
      * unfold cons_ok. destruct (f_r f) eqn:E1, (f_u f) eqn:E2, (f_w f) eqn:E3; try discriminate.
        destruct md; cbn [set_flag m_fl m_h m_h2 f_r f_u f_w f_r2]; rewrite ?E1, ?E2, ?E3; repeat split; try assumption; discriminate.
    + injection H as _ <-. constructor; [|exact Fr]. unfold cons_ok. destruct sec; cbn [m_fl m_h m_h2]; fold f; repeat split; try assumption; try (apply C; assumption); congruence.
Qed.

Lemma modinfo_upgrade_ok : forall ms ts ok ms', turns_ok ts -> Forall cons_ok ms -> modinfo_upgrade ms ts = (ok, ms') -> Forall cons_ok ms'.
Proof.
  induction ms as [|m r IH]; intros ts ok ms' Ht F H; cbn [modinfo_upgrade] in H; [injection H as _ <-; constructor|].
  pose proof (Forall_inv F) as Fm. pose proof (Forall_inv_tail F) as Fr. set (f := m_fl m) in *.
  assert (Ht' : turns_ok (tl ts)) by (destruct ts; [constructor|exact (Forall_inv_tail Ht)]).
  destruct (f_u f && f_req f) eqn:Eb.
  - apply andb_prop in Eb. destruct Eb as (E1 & _). destruct Fm as (A & B & C & E). fold f in A, B, C, E.
    assert (E0 : f_r f = false) by (destruct (f_r f); [destruct (C eq_refl); congruence|reflexivity]). rewrite E0, E1 in A.
    destruct (shmmod_lock true LWrite (m_h m) (hd [] ts)) as [ok1 h] eqn:El. rewrite A in El. apply lock_up in El; [|destruct ts; [constructor|exact (Forall_inv Ht)]]. subst h. destruct ok1.
    + destruct (modinfo_upgrade r (tl ts)) as [ok2 r1] eqn:Er. injection H as _ <-. constructor; [|eapply IH; eassumption].
      unfold cons_ok. cbn [m_fl m_h m_h2 f_r f_u f_w f_r2]. rewrite E0. repeat split; try assumption; discriminate.
    + injection H as _ <-. constructor; [|exact Fr]. unfold cons_ok. cbn [m_fl m_h m_h2]. fold f. rewrite E0, E1. repeat split; try assumption; try discriminate. intros _. apply E. exact E1.
  - destruct (modinfo_upgrade r (tl ts)) as [ok2 r1] eqn:Er. injection H as _ <-. constructor; [exact Fm|eapply IH; eassumption].
Qed.

Lemma modinfo_downgrade_ok : forall ms ts ok ms', Forall cons_ok ms -> modinfo_downgrade ms ts = (ok, ms') -> Forall cons_ok ms'.
Proof.
  induction ms as [|m r IH]; intros ts ok ms' F H; cbn [modinfo_downgrade] in H; [injection H as _ <-; constructor|].
  pose proof (Forall_inv F) as Fm. pose proof (Forall_inv_tail F) as Fr. set (f := m_fl m) in *.
  destruct (f_w f || f_u f) eqn:Eb.
  - destruct (shmmod_lock true LRead (m_h m) (hd [] ts)) as [ok1 h] eqn:El. apply lock_down in El. subst h. destruct Fm as (A & B & C & E). fold f in A, B, C, E. destruct ok1.
    + destruct (modinfo_downgrade r (tl ts)) as [ok2 r1] eqn:Er. injection H as _ <-. constructor; [|eapply IH; eassumption].
      unfold cons_ok. cbn [m_fl m_h m_h2 f_r f_u f_w f_r2]. repeat split; try assumption; discriminate.
    + injection H as _ <-. constructor; [|exact Fr]. unfold cons_ok. cbn [m_fl m_h m_h2]. fold f. split; [exact A|]. split; [exact B|]. split; [exact C|exact E].
  - destruct (modinfo_downgrade r (tl ts)) as [ok2 r1] eqn:Er. injection H as _ <-. constructor; [exact Fm|eapply IH; eassumption].
Qed.

Lemma mop_inv : forall o ms ok ms', mop_ok o -> Forall cons_ok ms -> mop_run o ms = (ok, ms') -> Forall cons_ok ms'.
Proof.
  intros o ms ok ms' Ho F H. destruct o as [md two ts ts2|ts|ts|req|f]; cbn [mop_run mop_ok] in *.
  - unfold modinfo_rdwrlock in H. destruct (modinfo_lock false md ms ts) as [ok1 ms1] eqn:E. pose proof (modinfo_lock_ok false _ _ _ _ _ ltac:(discriminate) F E) as F1.
    destruct ok1; cbn [negb] in H; [|injection H as _ <-; exact F1]. destruct two; [|injection H as _ <-; exact F1]. eapply modinfo_lock_ok; [|exact F1|exact H]. reflexivity.
  - eapply modinfo_upgrade_ok; eassumption.
  - eapply modinfo_downgrade_ok; eassumption.
  - injection H as _ <-. apply Forall_app. split; [exact F|]. constructor; [|constructor]. unfold cons_ok. cbn. repeat split; discriminate.
  - injection H as _ <-. eapply Permutation_Forall; [apply Ho|exact F].
Qed.

Lemma mops_inv : forall l ms ok ms', Forall mop_ok l -> Forall cons_ok ms -> mops_run l ms = (ok, ms') -> Forall cons_ok ms'.
Proof.
  induction l as [|o r IH]; intros ms ok ms' Ho F H; cbn [mops_run] in H; [injection H as _ <-; exact F|].
  destruct (mop_run o ms) as [ok1 ms1] eqn:E. pose proof (mop_inv _ _ _ _ (Forall_inv Ho) F E) as F1. destruct ok1; [|injection H as _ <-; exact F1].
  eapply IH; [exact (Forall_inv_tail Ho)|exact F1|exact H].
Qed.

Lemma unlock_ok : forall ms, Forall cons_ok ms -> exists ms', modinfo_unlock ms = Some ms' /\ Forall unlocked ms' /\ length ms' = length ms.
Proof.
  induction ms as [|m r IH]; intros F; cbn [modinfo_unlock]; [exists []; repeat split; constructor|].
  destruct (IH (Forall_inv_tail F)) as (r' & E & Fr & L). destruct (Forall_inv F) as (A & B & C & D). unfold modinfo_unlock1. rewrite A, B, E.
  destruct (f_r (m_fl m)), (f_u (m_fl m)), (f_w (m_fl m)), (f_r2 (m_fl m)); cbn [orb unlock1 lmode_eqb];
    (eexists; split; [reflexivity|split; [constructor; [split; reflexivity|exact Fr]|cbn [length]; congruence]]).
Qed.

Theorem all_released : forall l ok ms, Forall mop_ok l -> mops_run l [] = (ok, ms) ->
  exists ms', modinfo_unlock ms = Some ms' /\ Forall unlocked ms' /\ length ms' = length ms.
Proof. intros l ok ms Ho H. apply unlock_ok. eapply mops_inv; [exact Ho|constructor|exact H]. Qed.

(** A failed lock changes nothing of the module at which it failed. *)
Theorem failed_lock_same : forall relock md h ts h', (relock = false -> h = None) -> (relock = true -> h = Some (match md with LWrite => LUpgr | _ => LWrite end)) ->
  Forall (fun t => t_back t = true) ts -> shmmod_lock relock md h ts = (false, h') -> h' = h.
Proof.
  intros [|] md h ts h' H1 H2 F H.
  - specialize (H2 eq_refl). subst h. destruct md; [apply lock_down in H; exact H| |apply lock_up in H; [exact H|exact F]].
    revert h' H F. induction ts as [|t r IH]; intros h' H F; cbn [shmmod_lock] in H; [injection H as <-; reflexivity|]. rewrite (Forall_inv F) in H.
    destruct (t_lock t); cbn [negb andb] in H; [|injection H as <-; reflexivity]. destruct (t_mutex t); cbn [negb] in H; [|injection H as <-; reflexivity].
    destruct (t_dslocked t); [apply IH; [exact H|exact (Forall_inv_tail F)]|discriminate].
  - specialize (H1 eq_refl). subst h. apply lock_new in H. exact H.
Qed.

(** If all the locks succeed, all the modules are locked in the mode. *)
Theorem lock_success : forall md ms ts ms', Forall cons_ok ms -> modinfo_lock false md ms ts = (true, ms') ->
  Forall (fun m => m_h m <> None) ms' /\ (Forall (fun m => m_h m = None) ms -> Forall (fun m => m_h m = Some md) ms').
Proof.
  intros md. induction ms as [|m r IH]; intros ts ms' F H; cbn [modinfo_lock] in H; [injection H as <-; split; [|intros _]; constructor|].
  pose proof (Forall_inv F) as Fm. pose proof (Forall_inv_tail F) as Fr. destruct Fm as (A & B & C & E).
  destruct (f_r (m_fl m) || f_u (m_fl m) || f_w (m_fl m)) eqn:Eb.
  - destruct (modinfo_lock false md r (tl ts)) as [ok1 r1] eqn:Er. injection H as -> <-. destruct (IH _ _ Fr Er) as (P & Q).
    assert (Hn : m_h m <> None) by (rewrite A; destruct (f_r (m_fl m)), (f_u (m_fl m)), (f_w (m_fl m)); discriminate).
    split; [constructor; assumption|]. intros G. exfalso. apply Hn. exact (Forall_inv G).
  - destruct (shmmod_lock false md (m_h m) (hd [] ts)) as [ok1 h] eqn:El. assert (Hn : m_h m = None) by (rewrite A; destruct (f_r (m_fl m)), (f_u (m_fl m)), (f_w (m_fl m)); try discriminate; reflexivity).
    rewrite Hn in El. apply lock_new in El. subst h. destruct ok1; [|discriminate]. destruct (modinfo_lock false md r (tl ts)) as [ok2 r1] eqn:Er. injection H as -> <-.
    destruct (IH _ _ Fr Er) as (P & Q). split; [constructor; [discriminate|exact P]|]. intros G. constructor; [reflexivity|]. apply Q. exact (Forall_inv_tail G).
Qed.

(** * Many clients *)

Definition lock_of (a : areq) : nat := match a with Acq _ l | Upg l | Down l => l end.
Definition mode_of (a : areq) : lmode := match a with Acq m _ => m | Upg _ => LWrite | Down _ => LRead end.

(** The mode in which a client holds a lock after its requests. *)
Fixpoint eff (l : nat) (p : list areq) : option lmode :=
  match p with
  | [] => None
  | a :: r => match eff l r with Some m => Some m | None => if Nat.eqb (lock_of a) l then Some (mode_of a) else None end
  end.

Lemma eff_app : forall l p q, eff l (p ++ q) = match eff l q with Some m => Some m | None => eff l p end.
Proof. induction p as [|a r IH]; intros q; cbn [app eff]; [destruct (eff l q); reflexivity|]. rewrite IH. destruct (eff l q); reflexivity. Qed.

Lemma eff_none : forall l p, eff l p = None <-> ~ In l (map lock_of p).
Proof.
  induction p as [|a r IH]; cbn [eff map In]; [split; [intros _ []|reflexivity]|]. destruct (eff l r) eqn:E.
  - split; [discriminate|]. intros H. exfalso. apply H. right. destruct (in_dec Nat.eq_dec l (map lock_of r)) as [|N]; [assumption|]. apply IH in N. discriminate.
  - destruct (Nat.eqb_spec (lock_of a) l) as [->|N]; [split; [discriminate|]; intros H; exfalso; apply H; left; reflexivity|].
    split; [|reflexivity]. intros _ [H|H]; [contradiction|]. apply (proj1 IH eq_refl H).
Qed.

(** Programs which do not lock anything twice and upgrade only what they hold upgradable. *)
Definition wf (p : list areq) : Prop :=
  forall p1 a p2, p = p1 ++ a :: p2 ->
    match a with Acq _ l => eff l p1 = None | Upg l => eff l p1 = Some LUpgr | Down l => eff l p1 <> None end.

Definition inv2 (P : list areq -> Prop) (s : sys) : Prop :=
  (forall c, active s c -> P (past s c ++ todo s c)) /\
  (forall l c m, In (c, m) (lk s l) <-> eff l (past s c) = Some m) /\
  (forall l, excl (lk s l)) /\
  (forall l c, urg s l = Some c -> exists r, todo s c = Acq LWrite l :: r \/ todo s c = Upg l :: r).

Lemma eff_snoc : forall l p a, eff l (p ++ [a]) = if Nat.eqb (lock_of a) l then Some (mode_of a) else eff l p.
Proof. intros. rewrite eff_app. cbn [eff]. destruct (Nat.eqb (lock_of a) l); reflexivity. Qed.

Lemma urg_clear : forall s c l j k, clear_urg s c l j = Some k -> urg s j = Some k /\ (j = l -> k <> c).
Proof.
  intros s c l j k H. unfold clear_urg in H. destruct (urg s l) as [c'|] eqn:E; [|split; [exact H|intros ->; congruence]].
  destruct (Nat.eqb_spec c c') as [<-|N].
  - destruct (Nat.eq_dec j l) as [->|Hj]; [rewrite upd_same in H; discriminate|rewrite upd_other in H by assumption]. split; [exact H|intros; contradiction].
  - split; [exact H|]. intros ->. congruence.
Qed.

Lemma step_inv2 : forall (P : list areq -> Prop) s c e s', (forall p, P p -> wf p) -> inv2 P s -> sys_step s c e = Some s' ->
  (forall p, e = EStart p -> P p) -> inv2 P s'.
Proof.
  intros P s c e s' W (I1 & I2 & I3 & I4) H Hp.
  assert (Rel : inv2 P (release_all s c)).
  { split; [|split; [|split]].
    - intros k A. unfold release_all, active in *. cbn [past todo] in *. destruct (Nat.eq_dec k c) as [->|Hk]; [rewrite !upd_same in A; destruct A; contradiction|rewrite !upd_other in * by assumption; apply I1; exact A].
    - intros l k m. unfold release_all. cbn [past lk]. rewrite filter_In. cbn [fst]. destruct (Nat.eq_dec k c) as [->|Hk].
      + rewrite upd_same, Nat.eqb_refl. cbn. split; [intros (_ & X)|intros X]; discriminate.
      + rewrite upd_other by assumption. rewrite (proj2 (Nat.eqb_neq k c) Hk). cbn [negb]. rewrite I2. tauto.
    - intros l. cbn [release_all lk]. eapply excl_sub; [eexists; reflexivity|apply I3].
    - intros l k Hu. unfold release_all in *. cbn [urg todo] in *. destruct (urg s l) as [c'|] eqn:E; [|discriminate]. destruct (Nat.eqb_spec c c') as [|N]; [discriminate|]. injection Hu as <-.
      rewrite upd_other by congruence. eapply I4. exact E. }
  destruct e as [| | | |p]; cbn [sys_step] in H.
  - (* do *)
    destruct (todo s c) as [|a r] eqn:Et; [discriminate|]. destruct (granted s c a) eqn:Eg; [|discriminate]. injection H as <-.
    assert (Pc : P (past s c ++ a :: r)) by (rewrite <- Et; apply I1; left; congruence).
    pose proof (W _ Pc _ _ _ eq_refl) as Wa.
    assert (J1 : forall k, upd (todo s) c r k <> [] \/ upd (past s) c (past s c ++ [a]) k <> [] ->
                 P (upd (past s) c (past s c ++ [a]) k ++ upd (todo s) c r k)).
    { intros k A. destruct (Nat.eq_dec k c) as [->|Hk]; [rewrite !upd_same, <- app_assoc; exact Pc|rewrite !upd_other in * by assumption; apply I1; exact A]. }
    assert (J4 : forall l k, clear_urg s c (lock_of a) l = Some k -> exists r0, upd (todo s) c r k = Acq LWrite l :: r0 \/ upd (todo s) c r k = Upg l :: r0).
    { intros l k Hu. destruct (urg_clear _ _ _ _ _ Hu) as (U1 & U2). destruct (I4 _ _ U1) as (r0 & U3). destruct (Nat.eq_dec k c) as [->|Hk].
      - exfalso. rewrite Et in U3. apply (U2); [|reflexivity]. destruct U3 as [U3|U3]; injection U3 as -> _; reflexivity.
      - rewrite upd_other by assumption. exists r0. exact U3. }
    assert (J2 : forall lk', (forall l, l <> lock_of a -> lk' l = lk s l) -> (forall k m, In (k, m) (lk' (lock_of a)) <-> (k = c /\ m = mode_of a) \/ (k <> c /\ In (k, m) (lk s (lock_of a)))) ->
                 forall l k m, In (k, m) (lk' l) <-> eff l (upd (past s) c (past s c ++ [a]) k) = Some m).
    { intros lk' L1 L2 l k m. destruct (Nat.eq_dec l (lock_of a)) as [->|Hl].
      - rewrite L2. destruct (Nat.eq_dec k c) as [->|Hk].
        + rewrite upd_same, eff_snoc, Nat.eqb_refl. split; [intros [(_ & ->)|(X & _)]; [reflexivity|contradiction]|intros X; injection X as <-; left; split; reflexivity].
        + rewrite upd_other by assumption. rewrite <- I2. split; [intros [(X & _)|(_ & X)]; [contradiction|exact X]|intros X; right; split; assumption].
      - rewrite (L1 l Hl). rewrite I2. destruct (Nat.eq_dec k c) as [->|Hk]; [|rewrite upd_other by assumption; reflexivity].
        rewrite upd_same, eff_snoc. rewrite (proj2 (Nat.eqb_neq _ _)) by congruence. reflexivity. }
    destruct a as [md l|l|l]; unfold perform; rewrite Et; cbn [tl lock_of mode_of] in *.
    + assert (Cm : compatible (lk s l) md = true) by (unfold granted in Eg; destruct md; apply andb_prop in Eg; tauto).
      split; [exact J1|]. split; [|split; [|exact J4]].
      * cbn [lk past]. apply J2; [intros j Hj; apply upd_other; exact Hj|]. intros k m. rewrite upd_same. cbn [In].
        assert (Nc : ~ In (c, m) (lk s l)) by (rewrite I2; congruence). split.
        -- intros [X|X]; [injection X as <- <-; left; split; reflexivity|]. right. split; [|exact X]. intros ->. contradiction.
        -- intros [(-> & ->)|(_ & X)]; [left; reflexivity|right; exact X].
      * intros j. cbn [lk]. destruct (Nat.eq_dec j l) as [->|Hj]; [rewrite upd_same; apply excl_cons; [apply I3|exact Cm]|rewrite upd_other by assumption; apply I3].
    + assert (Cm : lk s l = [(c, LUpgr)]).
      { unfold granted in Eg. apply andb_prop in Eg. destruct Eg as (Eg & _). destruct (lk s l) as [|[c' []] [|]]; try discriminate. apply Nat.eqb_eq in Eg. congruence. }
      split; [exact J1|]. split; [|split; [|exact J4]].
      * cbn [lk past]. apply J2; [intros j Hj; apply upd_other; exact Hj|]. intros k m. rewrite upd_same, Cm. cbn [In]. split.
        -- intros [X|[]]. injection X as <- <-. left. split; reflexivity.
        -- intros [(-> & ->)|(N & [X|[]])]; [left; reflexivity|]. injection X as <- _. contradiction.
      * intros j. cbn [lk]. destruct (Nat.eq_dec j l) as [->|Hj]; [rewrite upd_same; apply excl_single|rewrite upd_other by assumption; apply I3].
    + split; [exact J1|]. split; [|split].
      * cbn [lk past]. apply J2; [intros j Hj; apply upd_other; exact Hj|]. intros k m. rewrite upd_same. cbn [In]. rewrite filter_In. cbn [fst]. split.
        -- intros [X|(X & N)]; [injection X as <- <-; left; split; reflexivity|]. right. split; [|exact X]. intros ->. rewrite Nat.eqb_refl in N. discriminate.
        -- intros [(-> & ->)|(N & X)]; [left; reflexivity|]. right. split; [exact X|]. rewrite (proj2 (Nat.eqb_neq k c) N). reflexivity.
      * intros j. cbn [lk]. destruct (Nat.eq_dec j l) as [->|Hj]; [rewrite upd_same|rewrite upd_other by assumption; apply I3].
        apply excl_cons; [eapply excl_sub; [eexists; reflexivity|apply I3]|]. cbn [compatible]. apply forallb_forall. intros [k m] X. apply filter_In in X. cbn [fst snd] in *. destruct X as (X & N).
        destruct m; try reflexivity. exfalso. pose proof (excl_write _ _ (I3 l) X) as E. destruct (eff l (past s c)) as [m|] eqn:Ee; [|contradiction Wa; reflexivity].
        apply I2 in Ee. rewrite E in Ee. destruct Ee as [Ee|[]]. injection Ee as -> _. rewrite Nat.eqb_refl in N. discriminate.
      * intros j k Hu. cbn [urg todo] in *. destruct (I4 _ _ Hu) as (r0 & U3). destruct (Nat.eq_dec k c) as [->|Hk]; [exfalso; rewrite Et in U3; destruct U3; discriminate|].
        rewrite upd_other by assumption. exists r0. exact U3.
  - (* urge *)
    destruct (todo s c) as [|a r] eqn:Et; [discriminate|].
    assert (G : forall l, (a = Acq LWrite l \/ a = Upg l) -> inv2 P (mksys (lk s) (upd (urg s) l (Some c)) (past s) (todo s))).
    { intros l Ha. split; [exact I1|]. split; [exact I2|]. split; [exact I3|]. intros j k Hu. cbn [urg todo] in *. destruct (Nat.eq_dec j l) as [->|Hj].
      - rewrite upd_same in Hu. injection Hu as <-. exists r. rewrite Et. destruct Ha as [->| ->]; [left|right]; reflexivity.
      - rewrite upd_other in Hu by assumption. apply I4. exact Hu. }
    destruct a as [[] l|l|l]; try discriminate; (match type of H with (if ?b then _ else _) = _ => destruct b; [discriminate|] end; destruct (urg s l); [discriminate|]; injection H as <-; apply G; auto).
  - destruct (todo s c); [|discriminate]. injection H as <-. exact Rel.
  - destruct (todo s c); [discriminate|]. injection H as <-. exact Rel.
  - destruct (todo s c) as [|] eqn:Et; [|discriminate]. destruct (past s c) as [|] eqn:Ep; [|discriminate]. injection H as <-. split; [|split; [exact I2|split; [exact I3|]]].
    + intros k A. unfold active in A. cbn [past todo] in *. destruct (Nat.eq_dec k c) as [->|Hk]; [rewrite upd_same, Ep; apply Hp; reflexivity|rewrite upd_other in * by assumption; apply I1; exact A].
    + intros l k Hu. cbn [urg todo] in *. destruct (I4 _ _ Hu) as (r0 & U3). destruct (Nat.eq_dec k c) as [->|Hk]; [exfalso; rewrite Et in U3; destruct U3; discriminate|].
      rewrite upd_other by assumption. exists r0. exact U3.
Qed.

Lemma init_inv2 : forall P, inv2 P sys_init.
Proof.
  intros P. split; [|split; [|split]].
  - intros c [A|A]; contradiction A; reflexivity.
  - intros l c m. cbn. split; [intros []|discriminate].
  - intros l. apply excl_nil.
  - intros l c H. discriminate.
Qed.

Lemma run_inv2 : forall (P : list areq -> Prop) l s s', (forall p, P p -> wf p) -> inv2 P s -> starts P l -> sys_run s l = Some s' -> inv2 P s'.
Proof.
  intros P l. induction l as [|(c, e) r IH]; intros s s' W I F H; cbn [sys_run] in H; [injection H as <-; exact I|].
  destruct (sys_step s c e) as [s1|] eqn:E; [|discriminate]. eapply IH; [exact W| |exact (Forall_inv_tail F)|exact H].
  eapply step_inv2; [exact W|exact I|exact E|]. intros p ->. exact (Forall_inv F).
Qed.

(** Only finitely many clients ever did something. *)
Lemma step_bound : forall s c e s' n, sys_step s c e = Some s' -> (forall k, active s k -> k < n) -> c < n -> forall k, active s' k -> k < n.
Proof.
  intros s c e s' n H B Hc k A. destruct (Nat.eq_dec k c) as [->|Hk]; [exact Hc|]. apply B. unfold active in *.
  assert (G : todo s' k = todo s k /\ past s' k = past s k); [|destruct G as (G1 & G2); rewrite G1, G2 in A; exact A].
  destruct e as [| | | |p]; cbn [sys_step] in H; destruct (todo s c) as [|a r]; try discriminate.
  - destruct (granted s c a); [|discriminate]. injection H as <-. destruct a; cbn [perform past todo]; rewrite !upd_other by assumption; split; reflexivity.
  - destruct a as [[] l|l|l]; try discriminate; (match type of H with (if ?b then _ else _) = _ => destruct b; [discriminate|] end; destruct (urg s l); [discriminate|]; injection H as <-; split; reflexivity).
  - injection H as <-. cbn [release_all past todo]. rewrite !upd_other by assumption. split; reflexivity.
  - injection H as <-. cbn [release_all past todo]. rewrite !upd_other by assumption. split; reflexivity.
  - destruct (past s c); [|discriminate]. injection H as <-. cbn [past todo]. rewrite upd_other by assumption. split; reflexivity.
Qed.

Lemma run_bound : forall l s s' n, sys_run s l = Some s' -> (forall k, active s k -> k < n) -> (forall x, In x l -> fst x < n) -> forall k, active s' k -> k < n.
Proof.
  induction l as [|(c, e) r IH]; intros s s' n H B L; cbn [sys_run] in H; [injection H as <-; exact B|].
  destruct (sys_step s c e) as [s1|] eqn:E; [|discriminate]. eapply IH; [exact H| |intros x Hx; apply L; right; exact Hx].
  eapply step_bound; [exact E|exact B|]. apply (L (c, e)). left. reflexivity.
Qed.

Lemma run_finite : forall l s, sys_run sys_init l = Some s -> exists n, forall k, active s k -> k < n.
Proof.
  intros l s H. exists (S (list_max (map fst l))). eapply run_bound; [exact H| |].
  - intros k [A|A]; contradiction A; reflexivity.
  - intros x Hx. assert (M : list_max (map fst l) <= list_max (map fst l)) by lia. apply list_max_le in M. rewrite Forall_forall in M. specialize (M (fst x) (in_map fst _ _ Hx)). lia.
Qed.

(** No infinite ascent among finitely many clients. *)
Lemma no_ascent : forall (A : nat -> Prop) (rank : nat -> nat) n, (forall c, A c -> c < n) ->
  (forall c, A c -> exists c', A c' /\ rank c < rank c') -> forall c, ~ A c.
Proof.
  intros A rank n B Up. set (M := list_max (map rank (seq 0 n))).
  assert (HM : forall c, A c -> rank c <= M).
  { intros c Hc. assert (Q : list_max (map rank (seq 0 n)) <= M) by (unfold M; lia). apply list_max_le in Q. rewrite Forall_forall in Q. apply Q. apply in_map. apply in_seq. specialize (B c Hc). lia. }
  assert (G : forall k c, A c -> M - rank c < k -> False).
  { induction k as [|k IH]; intros c Hc Hk; [lia|]. destruct (Up c Hc) as (c' & Hc' & Hr). pose proof (HM c' Hc'). apply (IH c' Hc'). lia. }
  intros c Hc. apply (G (S (M - rank c)) c Hc). lia.
Qed.

(** ** Splitting of programs *)

Lemma app_split : forall A (l1 l2 p q : list A) x, l1 ++ l2 = p ++ x :: q ->
  (exists q1, l1 = p ++ x :: q1) \/ (exists p1, p = l1 ++ p1 /\ l2 = p1 ++ x :: q).
Proof.
  induction l1 as [|y l1 IH]; intros l2 p q x H; cbn [app] in H; [right; exists p; split; [reflexivity|exact H]|].
  destruct p as [|z p]; cbn [app] in H; injection H as <- H; [left; exists l1; reflexivity|].
  destruct (IH _ _ _ _ H) as [(q1 & ->)|(p1 & -> & E)]; [left; exists q1; reflexivity|right; exists p1; split; [reflexivity|exact E]].
Qed.

Lemma map_split : forall A B (f : A -> B) l p x q, map f l = p ++ x :: q -> exists l1 y l2, l = l1 ++ y :: l2 /\ map f l1 = p /\ f y = x.
Proof.
  intros A B f. induction l as [|z l IH]; intros p x q H; cbn [map] in H; [destruct p; discriminate|].
  destruct p as [|w p]; cbn [app] in H; injection H as E H; [exists [], z, l; repeat split; exact E|].
  destruct (IH _ _ _ H) as (l1 & y & l2 & -> & <- & Ey). exists (z :: l1), y, l2. cbn [map app]. repeat split; congruence.
Qed.

Lemma sorted_mid : forall (l1 l2 : list nat) x, StronglySorted lt (l1 ++ x :: l2) -> forall y, In y l1 -> y < x.
Proof.
  induction l1 as [|z l1 IH]; intros l2 x S y Hy; [destruct Hy|]. cbn [app] in S. inversion S; subst. destruct Hy as [->|Hy]; [|eapply IH; eassumption].
  rewrite Forall_forall in H2. apply H2. apply in_or_app. right. left. reflexivity.
Qed.

Lemma locks_map : forall A (f : A -> areq) (g : A -> nat) l, (forall x, lock_of (f x) = g x) -> map lock_of (map f l) = map g l.
Proof. intros A f g l H. rewrite map_map. apply map_ext. exact H. Qed.

(** The first phase only. *)
Lemma one_phase_cases : forall p1 x p2, one_phase (p1 ++ x :: p2) ->
  (exists md l, x = Acq md l /\ (forall y, In y (map lock_of p1) -> y < l)) \/ (exists l, x = Down l /\ In l (map lock_of p1)).
Proof.
  intros p1 x p2 (a & d & E & S & Id). symmetry in E. destruct (app_split _ _ _ _ _ _ E) as [(q1 & E1)|(q1 & -> & E1)].
  - destruct (map_split _ _ _ _ _ _ _ E1) as (a1 & (md, l) & a2 & -> & <- & <-). left. exists md, l. split; [reflexivity|]. rewrite map_app in S. cbn [map snd] in S.
    rewrite (locks_map _ _ snd) by reflexivity. intros y Hy. eapply sorted_mid; eassumption.
  - destruct (map_split _ _ _ _ _ _ _ E1) as (d1 & l & d2 & -> & <- & <-). right. exists l. split; [reflexivity|]. rewrite map_app. apply in_or_app. left.
    rewrite (locks_map _ _ snd) by reflexivity. apply Id. apply in_or_app. right. left. reflexivity.
Qed.

Lemma one_phase_wf : forall p, one_phase p -> wf p.
Proof.
  intros p H p1 x p2 ->. destruct (one_phase_cases _ _ _ H) as [(md & l & -> & L)|(l & -> & L)].
  - apply eff_none. intros Hi. specialize (L _ Hi). lia.
  - intros E. apply eff_none in E. contradiction.
Qed.

Lemma two_phase_cases : forall D p1 x p2, two_phase D (p1 ++ x :: p2) ->
  exists a r u d : list nat,
    StronglySorted lt a /\ StronglySorted lt r /\ StronglySorted lt u /\ incl u a /\ incl d a /\
    (forall x, In x r -> ~ In x a) /\
    (a <> [] -> forall y, In y r -> exists x, In x a /\ D x y) /\
    (forall y x, In y u -> D x y -> In x a) /\
    ((exists l a1 a2, x = Acq LUpgr l /\ a = a1 ++ l :: a2 /\ p1 = map (Acq LUpgr) a1) \/
     (exists l r1 r2, x = Acq LRead l /\ r = r1 ++ l :: r2 /\ p1 = map (Acq LUpgr) a ++ map (Acq LRead) r1) \/
     (exists l u1 u2, x = Upg l /\ u = u1 ++ l :: u2 /\ p1 = map (Acq LUpgr) a ++ map (Acq LRead) r ++ map Upg u1) \/
     (exists l d1, x = Down l /\ In l d /\ p1 = map (Acq LUpgr) a ++ map (Acq LRead) r ++ map Upg u ++ map Down d1)).
Proof.
  intros D p1 x p2 (a & r & u & d & E & Sa & Sr & Su & Iu & Id & Ir & Dr & Du). exists a, r, u, d.
  split; [exact Sa|]. split; [exact Sr|]. split; [exact Su|]. split; [exact Iu|]. split; [exact Id|]. split; [exact Ir|]. split; [exact Dr|]. split; [exact Du|].
  symmetry in E. destruct (app_split _ _ _ _ _ _ E) as [(q1 & E1)|(q1 & -> & E1)].
  - destruct (map_split _ _ _ _ _ _ _ E1) as (a1 & l & a2 & -> & <- & <-). left. exists l, a1, a2. repeat split.
  - right. destruct (app_split _ _ _ _ _ _ E1) as [(q2 & E2)|(q2 & -> & E2)].
    + destruct (map_split _ _ _ _ _ _ _ E2) as (a1 & l & a2 & -> & <- & <-). left. exists l, a1, a2. repeat split.
    + right. destruct (app_split _ _ _ _ _ _ E2) as [(q3 & E3)|(q3 & -> & E3)].
      * destruct (map_split _ _ _ _ _ _ _ E3) as (a1 & l & a2 & -> & <- & <-). left. exists l, a1, a2. repeat split.
      * destruct (map_split _ _ _ _ _ _ _ E3) as (a1 & l & a2 & -> & <- & <-). right. exists l, a1. repeat split. apply in_or_app. right. left. reflexivity.
Qed.

Lemma map_id_locks : forall (f : nat -> areq) l, (forall x, lock_of (f x) = x) -> map lock_of (map f l) = l.
Proof. intros f l H. rewrite (locks_map _ f (fun x => x) l H). apply map_id. Qed.

Lemma eff_map : forall (f : nat -> areq) m l x, (forall y, lock_of (f y) = y) -> (forall y, mode_of (f y) = m) -> In x l -> eff x (map f l) = Some m.
Proof.
  intros f m l x H1 H2. induction l as [|y l IH]; intros Hx; [destruct Hx|]. cbn [map eff]. destruct (eff x (map f l)) as [m'|] eqn:E.
  - destruct (in_dec Nat.eq_dec x l) as [i|n]; [exact (IH i)|]. exfalso. assert (Q : eff x (map f l) = None) by (apply eff_none; rewrite map_id_locks by exact H1; exact n). congruence.
  - rewrite H1, H2. destruct Hx as [->|Hx]; [rewrite Nat.eqb_refl; reflexivity|]. specialize (IH Hx). discriminate.
Qed.

Lemma eff_map_none : forall (f : nat -> areq) l x, (forall y, lock_of (f y) = y) -> ~ In x l -> eff x (map f l) = None.
Proof. intros f l x H N. apply eff_none. rewrite map_id_locks by exact H. exact N. Qed.

Lemma eff_map_inv : forall (f : nat -> areq) m m' l x, (forall y, lock_of (f y) = y) -> (forall y, mode_of (f y) = m) -> eff x (map f l) = Some m' -> In x l /\ m' = m.
Proof.
  intros f m m' l x H1 H2 E. destruct (in_dec Nat.eq_dec x l) as [i|n]; [|rewrite eff_map_none in E by assumption; discriminate]. rewrite (eff_map f m) in E by assumption. split; congruence.
Qed.

Lemma two_phase_wf : forall D p, two_phase D p -> wf p.
Proof.
  intros D p H p1 x p2 ->. destruct (two_phase_cases _ _ _ _ H) as (a & r & u & d & Sa & Sr & Su & Iu & Id & Ir & _ & _ & C).
  destruct C as [(l & a1 & a2 & -> & Ea & ->)|[(l & r1 & r2 & -> & Er & ->)|[(l & u1 & u2 & -> & Eu & ->)|(l & d1 & -> & Hd & ->)]]].
  - apply eff_map_none; [reflexivity|]. intros Hi. subst a. pose proof (sorted_mid _ _ _ Sa _ Hi). lia.
  - rewrite eff_app, !eff_map_none; try reflexivity; subst r.
    + apply Ir. apply in_or_app. right. left. reflexivity.
    + intros Hi. pose proof (sorted_mid _ _ _ Sr _ Hi). lia.
  - assert (Hu : In l u) by (subst u; apply in_or_app; right; left; reflexivity). rewrite !eff_app, (eff_map_none Upg), (eff_map_none (Acq LRead)); try reflexivity.
    + apply eff_map; try reflexivity. apply Iu. exact Hu.
    + intros Hi. apply (Ir l Hi). apply Iu. exact Hu.
    + intros Hi. subst u. pose proof (sorted_mid _ _ _ Su _ Hi). lia.
  - rewrite eff_none. rewrite map_app, map_id_locks by reflexivity. intros N. apply N. apply in_or_app. left. apply Id. exact Hd.
Qed.

(** ** No deadlock *)

(** Why a request waits. *)
Lemma blocked : forall s c a, granted s c a = false ->
  (exists l c', lock_of a = l /\ urg s l = Some c' /\ (c' <> c \/ (exists md, a = Acq md l /\ md <> LWrite))) \/
  (exists md l, a = Acq md l /\ compatible (lk s l) md = false) \/
  (exists l, a = Upg l /\ lk s l <> [(c, LUpgr)]).
Proof.
  intros s c a H. destruct a as [md l|l|l]; cbn [granted] in H.
  - assert (G : compatible (lk s l) md = false \/ exists c', urg s l = Some c' /\ (c' <> c \/ md <> LWrite)).
    { destruct (compatible (lk s l) md) eqn:E; [right|left; reflexivity]. unfold free_for in H. destruct md; rewrite ?E in H; cbn [andb] in H;
        (destruct (urg s l) as [c'|]; [exists c'; split; [reflexivity|]|discriminate]).
      - right. discriminate.
      - right. discriminate.
      - left. apply Nat.eqb_neq in H. congruence. }
    destruct G as [G|(c' & U & G)]; [right; left; exists md, l; split; [reflexivity|exact G]|]. left. exists l, c'. split; [reflexivity|]. split; [exact U|].
    destruct G as [G|G]; [left; exact G|right]. exists md. split; [reflexivity|exact G].
  - destruct (match lk s l with [(c', LUpgr)] => Nat.eqb c c' | _ => false end) eqn:E; cbn [andb] in H.
    + left. exists l. unfold free_for in H. destruct (urg s l) as [c'|]; [|discriminate]. exists c'. split; [reflexivity|]. split; [reflexivity|]. left. apply Nat.eqb_neq in H. congruence.
    + right. right. exists l. split; [reflexivity|]. intros X. rewrite X, Nat.eqb_refl in E. discriminate.
  - discriminate.
Qed.

Lemma not_compatible : forall h md, compatible h md = false -> exists c m, In (c, m) h /\ (md = LRead -> m = LWrite) /\ (md = LUpgr -> m <> LRead).
Proof.
  intros h md H. destruct md; cbn [compatible] in H.
  - assert (E : exists x, In x h /\ negb (lmode_eqb (snd x) LWrite) = false).
    { clear -H. induction h as [|x r IH]; [discriminate|]. cbn [forallb] in H. apply andb_false_iff in H. destruct H as [H|H]; [exists x; split; [left; reflexivity|exact H]|].
      destruct (IH H) as (y & Hy & E). exists y. split; [right; exact Hy|exact E]. }
    destruct E as ((c, m) & Hx & E). exists c, m. split; [exact Hx|]. apply negb_false_iff, lmode_eqb_eq in E. split; intros; [exact E|discriminate].
  - assert (E : exists x, In x h /\ lmode_eqb (snd x) LRead = false).
    { clear -H. induction h as [|x r IH]; [discriminate|]. cbn [forallb] in H. apply andb_false_iff in H. destruct H as [H|H]; [exists x; split; [left; reflexivity|exact H]|].
      destruct (IH H) as (y & Hy & E). exists y. split; [right; exact Hy|exact E]. }
    destruct E as ((c, m) & Hx & E). exists c, m. split; [exact Hx|]. split; [discriminate|]. intros _ ->. discriminate.
  - destruct h as [|(c, m) h]; [discriminate|]. exists c, m. split; [left; reflexivity|]. split; discriminate.
Qed.

Definition pos (s : sys) (c : nat) : nat := match todo s c with a :: _ => lock_of a | [] => 0 end.
Definition urges (s : sys) (c : nat) : nat := match urg s (pos s c) with Some c' => if Nat.eqb c c' then 1 else 0 | None => 0 end.
Definition rank (s : sys) (c : nat) : nat := 2 * pos s c + urges s c.

Lemma urger_rank : forall P s l c', inv2 P s -> urg s l = Some c' -> active s c' /\ pos s c' = l /\ rank s c' = 2 * l + 1.
Proof.
  intros P s l c' (_ & _ & _ & I4) H. destruct (I4 _ _ H) as (r & T). assert (Hp : pos s c' = l) by (unfold pos; destruct T as [-> | ->]; reflexivity).
  split; [left; destruct T as [-> | ->]; discriminate|]. split; [exact Hp|]. unfold rank, urges. rewrite Hp, H, Nat.eqb_refl. reflexivity.
Qed.

Lemma rank_bounds : forall s c, 2 * pos s c <= rank s c <= 2 * pos s c + 1.
Proof. intros s c. unfold rank, urges. destruct (urg s (pos s c)) as [c'|]; [destruct (Nat.eqb c c')|]; lia. Qed.

Lemma not_urger_rank : forall s c c', urg s (pos s c) = Some c' -> c' <> c -> rank s c = 2 * pos s c.
Proof. intros s c c' H N. unfold rank, urges. rewrite H. rewrite (proj2 (Nat.eqb_neq c c')) by congruence. lia. Qed.

Theorem no_deadlock_one : forall l s, starts one_phase l -> sys_run sys_init l = Some s -> ~ deadlock s.
Proof.
  intros l s F H ((c0 & A0) & DL). pose proof (run_inv2 _ _ _ _ one_phase_wf (init_inv2 _) F H) as I. destruct (run_finite _ _ H) as (n & B).
  refine (no_ascent (active s) (rank s) n B _ c0 A0). intros c A. specialize (DL c A) as Dc. pose proof I as (I1 & I2 & I3 & I4).
  unfold can_go in Dc. destruct (todo s c) as [|a r] eqn:Et; [contradiction Dc; exact Logic.I|]. pose proof (I1 c A) as Pc. rewrite Et in Pc.
  assert (Ep : pos s c = lock_of a) by (unfold pos; rewrite Et; reflexivity).
  destruct (one_phase_cases _ _ _ Pc) as [(md & k & -> & Lk)|(k & -> & Lk)]; [|contradiction Dc; reflexivity]. cbn [lock_of] in Ep.
  destruct (blocked s c (Acq md k)) as [(k' & c' & <- & U & O)|[(md' & k' & E & Cm)|(k' & E & _)]]; [destruct (granted s c (Acq md k)); [contradiction Dc; reflexivity|reflexivity]| | |discriminate].
  - (* urged by somebody *) cbn [lock_of] in U. destruct (urger_rank _ _ _ _ I U) as (A' & P' & R'). exists c'. split; [exact A'|].
    assert (N : c' <> c). { destruct O as [N|(md' & E & N)]; [exact N|]. intros ->. destruct (I4 _ _ U) as (r0 & T). rewrite Et in T. injection E as ->. destruct T as [T|T]; [injection T as -> _|discriminate]. contradiction. }
    rewrite R'. rewrite (not_urger_rank s c c'); [lia| |exact N]. rewrite Ep. exact U.
  - (* held by somebody *) injection E as <- <-. destruct (not_compatible _ _ Cm) as (c' & m & Hi & _). apply I2 in Hi.
    assert (Ht : In k (map lock_of (past s c'))) by (destruct (in_dec Nat.eq_dec k (map lock_of (past s c'))) as [|N]; [assumption|apply eff_none in N; congruence]).
    assert (A' : active s c') by (right; intros X; rewrite X in Ht; destruct Ht). specialize (DL c' A') as Dc'. unfold can_go in Dc'. destruct (todo s c') as [|a' r'] eqn:Et'; [contradiction Dc'; exact Logic.I|].
    pose proof (I1 c' A') as Pc'. rewrite Et' in Pc'. destruct (one_phase_cases _ _ _ Pc') as [(md2 & k2 & -> & Lk2)|(k2 & -> & Lk2)]; [|contradiction Dc'; reflexivity].
    exists c'. split; [exact A'|]. specialize (Lk2 _ Ht). assert (Ep' : pos s c' = k2) by (unfold pos; rewrite Et'; reflexivity). pose proof (rank_bounds s c). pose proof (rank_bounds s c'). lia.
Qed.

(** Two clients with the same upgradable (or upgraded) lock. *)
Lemma same_upgr : forall h c c' m m', excl h -> In (c, m) h -> In (c', m') h -> m <> LRead -> m' <> LRead -> c = c'.
Proof.
  intros h c c' m m' (E1 & E2) Hc Hc' Hm Hm'. destruct m; [contradiction Hm; reflexivity| |rewrite (E1 c Hc) in Hc'; destruct Hc' as [X|[]]; injection X as -> _; reflexivity].
  destruct m'; [contradiction Hm'; reflexivity| |rewrite (E1 c' Hc') in Hc; destruct Hc as [X|[]]; injection X as <- _; reflexivity].
  destruct (in_split _ _ Hc) as (h1 & h2 & ->). pose proof (E2 c h1 h2 eq_refl) as F. rewrite Forall_forall in F. apply in_app_or in Hc'. destruct Hc' as [X|[X|X]].
  - specialize (F (c', LUpgr) (in_or_app _ _ _ (or_introl X))). discriminate.
  - congruence.
  - specialize (F (c', LUpgr) (in_or_app _ _ _ (or_intror X))). discriminate.
Qed.

Theorem no_deadlock_two : forall D l s, starts (two_phase D) l -> sys_run sys_init l = Some s -> ~ deadlock s.
Proof.
  intros D l s F H ((c0 & A0) & DL). pose proof (run_inv2 _ _ _ _ (two_phase_wf D) (init_inv2 _) F H) as I. destruct (run_finite _ _ H) as (n & B). pose proof I as (I1 & I2 & I3 & I4).
  (* the clients past the first phase *)
  set (late := fun c => active s c /\ exists a r, todo s c = a :: r /\ (exists k, a = Acq LRead k \/ a = Upg k)).
  (* a client holding something and waiting *)
  assert (Wt : forall c m k, eff k (past s c) = Some m -> exists a r, todo s c = a :: r /\ granted s c a = false /\ active s c /\ two_phase D (past s c ++ a :: r)).
  { intros c m k E. assert (A : active s c) by (right; intros X; rewrite X in E; discriminate). specialize (DL c A). unfold can_go in DL. destruct (todo s c) as [|a r] eqn:Et; [contradiction DL; exact Logic.I|].
    exists a, r. split; [reflexivity|]. split; [destruct (granted s c a); [contradiction DL; reflexivity|reflexivity]|]. split; [exact A|]. rewrite <- Et. apply I1. exact A. }
  assert (Late : forall c, ~ late c).
  { refine (no_ascent late (rank s) n _ _); [intros c (A & _); apply B; exact A|]. intros c (A & a & r & Et & k & Ha).
    assert (Ng : granted s c a = false) by (specialize (DL c A); unfold can_go in DL; rewrite Et in DL; destruct (granted s c a); [contradiction DL; reflexivity|reflexivity]).
    assert (Pc := I1 c A). rewrite Et in Pc. assert (Ep : pos s c = k) by (unfold pos; rewrite Et; destruct Ha as [-> | ->]; reflexivity).
    destruct (blocked s c a Ng) as [(k' & c' & El & U & O)|[(md & k' & E & Cm)|(k' & E & Cm)]].
    - (* urged *) assert (Ek : k' = k) by (destruct Ha as [-> | ->]; exact (eq_sym El)). rewrite Ek in U, O. clear El Ek k'.
      destruct (urger_rank _ _ _ _ I U) as (A' & P' & R'). exists c'. destruct (I4 _ _ U) as (r0 & T).
      assert (N : c' <> c). { destruct O as [N|(md & E & N)]; [exact N|]. intros ->. rewrite Et in T. destruct Ha as [-> | ->]; [|discriminate]. destruct T as [T|T]; [injection T; discriminate|discriminate]. }
      split.
      + split; [exact A'|]. destruct T as [T|T]; [|exists (Upg k), r0; split; [exact T|exists k; right; reflexivity]].
        exfalso. pose proof (I1 c' A') as Pc'. rewrite T in Pc'. destruct (two_phase_cases _ _ _ _ Pc') as (? & ? & ? & ? & _ & _ & _ & _ & _ & _ & _ & _ & C).
        destruct C as [(? & ? & ? & X & _)|[(? & ? & ? & X & _)|[(? & ? & ? & X & _)|(? & ? & X & _)]]]; discriminate.
      + rewrite R', (not_urger_rank s c c'); [lia| |exact N]. rewrite Ep. exact U.
    - (* waiting for reading, a writer *) destruct Ha as [-> | ->]; [|discriminate]. injection E as <- <-. destruct (not_compatible _ _ Cm) as (c' & m & Hi & Hm & _). specialize (Hm eq_refl). subst m. apply I2 in Hi.
      destruct (Wt _ _ _ Hi) as (a' & r' & Et' & Ng' & A' & Pc'). destruct (two_phase_cases _ _ _ _ Pc') as (aa & rr & uu & dd & Sa & Sr & Su & Iu & Id & Ir & _ & _ & C).
      destruct C as [(x & a1 & a2 & -> & Ea & E2)|[(x & r1 & r2 & -> & Er & E2)|[(x & u1 & u2 & -> & Eu & E2)|(x & d1 & -> & Hd & E2)]]]; [..|discriminate Ng'].
      + rewrite E2 in Hi. apply (eff_map_inv _ LUpgr) in Hi; [destruct Hi; discriminate|reflexivity|reflexivity].
      + rewrite E2, eff_app in Hi. destruct (eff k (map (Acq LRead) r1)) eqn:Q.
        * apply (eff_map_inv _ LRead) in Q; [|reflexivity|reflexivity]. destruct Q as (_ & ->). discriminate.
        * apply (eff_map_inv _ LUpgr) in Hi; [destruct Hi; discriminate|reflexivity|reflexivity].
      + assert (Hk : In k u1).
        { rewrite E2, !eff_app in Hi. destruct (eff k (map Upg u1)) eqn:Q; [apply (eff_map_inv _ LWrite) in Q; [tauto|reflexivity|reflexivity]|].
          destruct (eff k (map (Acq LRead) rr)) eqn:Q2; [apply (eff_map_inv _ LRead) in Q2; [|reflexivity|reflexivity]; destruct Q2 as (_ & ->); discriminate|].
          apply (eff_map_inv _ LUpgr) in Hi; [destruct Hi; discriminate|reflexivity|reflexivity]. }
        exists c'. split; [split; [exact A'|]; exists (Upg x), r'; split; [exact Et'|exists x; right; reflexivity]|].
        subst uu. pose proof (sorted_mid _ _ _ Su _ Hk). assert (Ep' : pos s c' = x) by (unfold pos; rewrite Et'; reflexivity). pose proof (rank_bounds s c). pose proof (rank_bounds s c'). lia.
    - (* waiting for the upgrade, other readers *) destruct Ha as [-> | ->]; [discriminate|]. injection E as <-.
      assert (Ec : eff k (past s c) = Some LUpgr) by (apply (two_phase_wf D _ Pc (past s c) (Upg k) r eq_refl)).
      pose proof Ec as Ec'. apply I2 in Ec'.
      assert (O : exists c' m, In (c', m) (lk s k) /\ c' <> c).
      { destruct (in_split _ _ Ec') as (h1 & h2 & Eh). destruct (h1 ++ h2) as [|(c', m) hh] eqn:Eq; [apply app_eq_nil in Eq; destruct Eq as (-> & ->); contradiction|].
        exists c', m. assert (Hin : In (c', m) (h1 ++ h2)) by (rewrite Eq; left; reflexivity). assert (Hin2 : In (c', m) (lk s k)) by (rewrite Eh; apply in_or_app; apply in_app_or in Hin; destruct Hin; [left|right; right]; assumption).
        split; [exact Hin2|]. intros ->. destruct (I3 k) as (_ & X2). pose proof (X2 c h1 h2 Eh) as FF. rewrite Forall_forall in FF. specialize (FF _ Hin). cbn [snd] in FF. subst m.
        apply I2 in Hin2. congruence. }
      destruct O as (c' & m & Hi & N). assert (Em : m = LRead).
      { destruct m; [reflexivity|exfalso; apply N|exfalso; apply N]; symmetry; eapply same_upgr; [apply (I3 k)|exact Ec'|exact Hi|discriminate|discriminate|apply (I3 k)|exact Ec'|exact Hi|discriminate|discriminate]. }
      subst m. apply I2 in Hi. destruct (Wt _ _ _ Hi) as (a' & r' & Et' & Ng' & A' & Pc').
      destruct (two_phase_cases _ _ _ _ Pc) as (ca & cr & cu & cd & _ & _ & cSu & cIu & _ & _ & _ & cDu & CC).
      destruct CC as [(x & ? & ? & X & _)|[(x & ? & ? & X & _)|[(x & u1 & u2 & X & Eu & Epc)|(x & ? & X & _)]]]; try discriminate. injection X as <-.
      assert (Hku : In k cu) by (subst cu; apply in_or_app; right; left; reflexivity).
      (* the upgrading client holds all of its first phase *)
      assert (Hall : forall y, In y ca -> exists m, eff y (past s c) = Some m /\ m <> LRead).
      { intros y Hy. rewrite Epc, !eff_app. destruct (eff y (map Upg u1)) eqn:Q; [exists l0; apply (eff_map_inv _ LWrite) in Q; [|reflexivity|reflexivity]; destruct Q as (_ & ->); split; [reflexivity|discriminate]|].
        destruct (two_phase_cases _ _ _ _ Pc) as (ca' & cr' & cu' & cd' & _ & _ & _ & _ & _ & cIr' & _ & _ & CC').
        destruct (eff y (map (Acq LRead) cr)) eqn:Q2.
        - (* not possible *) exfalso. apply (eff_map_inv _ LRead) in Q2; [|reflexivity|reflexivity]. destruct Q2 as (Q2 & _).
          clear - Epc Pc Q2 Hy CC' cIr'. destruct CC' as [(x & ? & ? & X & _)|[(x & ? & ? & X & _)|[(x & u1' & u2' & X & _ & Epc')|(x & ? & X & _)]]]; try discriminate.
          (* same decomposition *)
          assert (G : forall (a a' r r' u u' : list nat), map (Acq LUpgr) a ++ map (Acq LRead) r ++ map Upg u = map (Acq LUpgr) a' ++ map (Acq LRead) r' ++ map Upg u' -> a = a' /\ r = r').
          { clear. induction a as [|y a IH]; intros a' r r' u u' E; destruct a' as [|z a']; cbn [map app] in E.
            - split; [reflexivity|]. revert r' E. induction r as [|y r IHr]; intros r' E; destruct r' as [|z r']; cbn [map app] in E; [reflexivity|destruct u; discriminate|destruct u'; discriminate|]. injection E as -> E. f_equal. apply IHr. exact E.
            - destruct r; [destruct u|]; discriminate.
            - destruct r'; [destruct u'|]; discriminate.
            - injection E as -> E. destruct (IH _ _ _ _ _ E) as (-> & ->). split; reflexivity. }
          rewrite Epc in Epc'. destruct (G _ _ _ _ _ _ Epc') as (-> & ->). exact (cIr' y Q2 Hy).
        - exists LUpgr. split; [apply eff_map; [reflexivity|reflexivity|exact Hy]|discriminate]. }
      destruct (two_phase_cases _ _ _ _ Pc') as (aa & rr & uu & dd & Sa & Sr & Su & Iu & Id & Ir & Dr & _ & C).
      (* the reader: it read [k] as a dependency or it only reads *)
      assert (Pure : In k rr -> (forall y, In y aa -> exists m, eff y (past s c') = Some m /\ m <> LRead) -> aa = []).
      { intros Hk Hh. destruct aa as [|y0 aa0] eqn:Eaa; [reflexivity|exfalso]. destruct (Dr ltac:(discriminate) k Hk) as (x & Hx & Dx). pose proof (cDu k x Hku Dx) as Hxc.
        destruct (Hall x Hxc) as (m1 & E1 & N1). destruct (Hh x Hx) as (m2 & E2 & N2). apply I2 in E1. apply I2 in E2. apply N. eapply same_upgr; [apply (I3 x)|exact E2|exact E1|exact N2|exact N1]. }
      destruct C as [(x & a1 & a2 & -> & Ea & E2)|[(x & r1 & r2 & -> & Er & E2)|[(x & u1' & u2' & -> & Eu' & E2)|(x & d1 & -> & Hd & E2)]]]; [..|discriminate Ng'].
      + rewrite E2 in Hi. apply (eff_map_inv _ LUpgr) in Hi; [destruct Hi; discriminate|reflexivity|reflexivity].
      + assert (Hk : In k r1).
        { rewrite E2, eff_app in Hi. destruct (eff k (map (Acq LRead) r1)) eqn:Q; [apply (eff_map_inv _ LRead) in Q; [tauto|reflexivity|reflexivity]|].
          apply (eff_map_inv _ LUpgr) in Hi; [destruct Hi; discriminate|reflexivity|reflexivity]. }
        exists c'. split; [split; [exact A'|]; exists (Acq LRead x), r'; split; [exact Et'|exists x; left; reflexivity]|].
        subst rr. pose proof (sorted_mid _ _ _ Sr _ Hk). assert (Ep' : pos s c' = x) by (unfold pos; rewrite Et'; reflexivity). pose proof (rank_bounds s c). pose proof (rank_bounds s c'). lia.
      + exfalso. assert (Hk : In k rr).
        { rewrite E2, !eff_app in Hi. destruct (eff k (map Upg u1')) eqn:Q; [apply (eff_map_inv _ LWrite) in Q; [|reflexivity|reflexivity]; destruct Q as (_ & ->); discriminate|].
          destruct (eff k (map (Acq LRead) rr)) eqn:Q2; [apply (eff_map_inv _ LRead) in Q2; [tauto|reflexivity|reflexivity]|].
          apply (eff_map_inv _ LUpgr) in Hi; [destruct Hi; discriminate|reflexivity|reflexivity]. }
        assert (Ha : aa = []).
        { apply Pure; [exact Hk|]. intros y Hy. rewrite E2, !eff_app. destruct (eff y (map Upg u1')) eqn:Q; [exists l0; apply (eff_map_inv _ LWrite) in Q; [|reflexivity|reflexivity]; destruct Q as (_ & ->); split; [reflexivity|discriminate]|].
          rewrite (eff_map_none (Acq LRead)); [|reflexivity|intros X; exact (Ir y X Hy)]. exists LUpgr. split; [apply eff_map; [reflexivity|reflexivity|exact Hy]|discriminate]. }
        subst aa uu. destruct (Iu x). apply in_or_app. right. left. reflexivity. }
  (* nobody is past the first phase *)
  refine (no_ascent (active s) (pos s) n B _ c0 A0). intros c A. pose proof (Late c) as Lc. specialize (DL c A) as Dc. unfold can_go in Dc. destruct (todo s c) as [|a r] eqn:Et; [contradiction Dc; exact Logic.I|].
  assert (Ng : granted s c a = false) by (destruct (granted s c a); [contradiction Dc; reflexivity|reflexivity]).
  pose proof (I1 c A) as Pc. rewrite Et in Pc. destruct (two_phase_cases _ _ _ _ Pc) as (aa & rr & uu & dd & Sa & _ & _ & _ & _ & _ & _ & _ & C).
  destruct C as [(k & a1 & a2 & -> & Ea & E2)|[(x & r1 & r2 & -> & Er & E2)|[(x & u1 & u2 & -> & Eu & E2)|(x & d1 & -> & Hd & E2)]]]; [| | |discriminate Ng].
  2: { exfalso. apply Lc. split; [exact A|]. exists (Acq LRead x), r. split; [exact Et|exists x; left; reflexivity]. }
  2: { exfalso. apply Lc. split; [exact A|]. exists (Upg x), r. split; [exact Et|exists x; right; reflexivity]. }
  assert (Ep : pos s c = k) by (unfold pos; rewrite Et; reflexivity).
  destruct (blocked s c _ Ng) as [(k' & c' & El & U & O)|[(md & k' & E & Cm)|(k' & E & Cm)]]; [| |discriminate].
  - exfalso. destruct (urger_rank _ _ _ _ I U) as (A' & P' & R'). destruct (I4 _ _ U) as (r0 & T). apply (Late c'). split; [exact A'|].
    destruct T as [T|T]; [|exists (Upg k'), r0; split; [exact T|exists k'; right; reflexivity]].
    exfalso. pose proof (I1 c' A') as Pc'. rewrite T in Pc'. destruct (two_phase_cases _ _ _ _ Pc') as (? & ? & ? & ? & _ & _ & _ & _ & _ & _ & _ & _ & C).
    destruct C as [(? & ? & ? & X & _)|[(? & ? & ? & X & _)|[(? & ? & ? & X & _)|(? & ? & X & _)]]]; discriminate.
  - injection E as <- <-. destruct (not_compatible _ _ Cm) as (c' & m & Hi & _ & Hm). specialize (Hm eq_refl). apply I2 in Hi. destruct (Wt _ _ _ Hi) as (a' & r' & Et' & Ng' & A' & Pc').
    exists c'. split; [exact A'|]. destruct (two_phase_cases _ _ _ _ Pc') as (aa' & rr' & uu' & dd' & Sa' & _ & _ & _ & _ & _ & _ & _ & C).
    destruct C as [(x & a1' & a2' & -> & Ea' & E2')|[(x & r1 & r2 & -> & Er & E2')|[(x & u1 & u2 & -> & Eu & E2')|(x & d1 & -> & Hd & E2')]]]; [| | |discriminate Ng'].
    + rewrite E2' in Hi. apply (eff_map_inv _ LUpgr) in Hi; [|reflexivity|reflexivity]. destruct Hi as (Hi & _). subst aa'. pose proof (sorted_mid _ _ _ Sa' _ Hi). unfold pos at 2. rewrite Et'. cbn [lock_of]. lia.
    + exfalso. apply (Late c'). split; [exact A'|]. exists (Acq LRead x), r'. split; [exact Et'|exists x; left; reflexivity].
    + exfalso. apply (Late c'). split; [exact A'|]. exists (Upg x), r'. split; [exact Et'|exists x; right; reflexivity].
Qed.
