From Coq Require Import List Bool Arith Lia.
From Verif Require Import NtfBuf NtfBufSpec NtfBufProofs.
Import ListNotations.

(** Steps without new calls. *)
Definition quiet (e : list ev) : Prop := forall n, ~ In (ECall n) e.
Inductive goes : st -> list ev -> st -> Prop :=
| goes_refl s : goes s [] s
| goes_step s e s1 e' s2 : step s e s1 -> quiet e -> goes s1 e' s2 -> goes s (e ++ e') s2.
Lemma goes_runs s e s' : goes s e s' -> forall tr, runs tr s -> runs (tr ++ e) s' /\ quiet e.
Proof.
  induction 1 as [s|s e s1 e' s2 St Q _ IH]; intros tr R.
  - rewrite app_nil_r. split; [exact R|]. intros n [].
  - assert (R1 : runs (tr ++ e) s1) by (apply (runs_step tr s e s1 R St); intros n X; elim (Q n X)).
    destruct (IH _ R1) as [R2 Q2]. rewrite app_assoc. split; [exact R2|]. intros n X. apply in_app_or in X.
    destruct X as [X|X]; [exact (Q n X)|exact (Q2 n X)].
Qed.
Lemma goes_trans s e s1 e' s2 : goes s e s1 -> goes s1 e' s2 -> goes s (e ++ e') s2.
Proof. induction 1 as [s|s e s1 e1 s3 St Q _ IH]; intros G; [exact G|]. rewrite <- app_assoc. apply (goes_step s e s1); auto. Qed.
Lemma goes_one s s1 e' s2 : step s [] s1 -> goes s1 e' s2 -> goes s e' s2.
Proof. intros St G. apply (goes_step s [] s1 e' s2 St); [intros n []|exact G]. Qed.
Definition finished (s : st) : Prop := pend (bth s) = [] /\ buf s = [] /\ bth s <> BEnd false.

Lemma go_write l : forall m r b c t f last p, exists e, goes (mkSt m r b (S c) t f (BWrite l last) p) e
  (mkSt m r b c t f (if last then BEnd true else BLock) p).
Proof.
  induction l as [|n l IH]; intros m r b c t f last p.
  - exists []. eapply goes_one; [apply b_written|apply goes_refl].
  - destruct (IH m r b c t f last p) as [e G]. exists ([EWrite Buffered n] ++ e).
    eapply goes_step; [apply b_write| |exact G]. intros k [X|[]]. discriminate.
Qed.
Lemma go_taken l m r c t f last p : m = Some OThread -> (c = batch (BTaken l last)) ->
  exists e s', goes (mkSt m r [] c t f (BTaken l last) p) e s' /\ finished s'.
Proof.
  intros -> Hc. destruct l as [|n l].
  - do 2 eexists. split; [eapply goes_one; [apply b_unlock|apply goes_refl]|]. destruct last; (split; [reflexivity|split; [reflexivity|discriminate]]).
  - cbn [batch] in Hc. subst c. destruct (go_write (n :: l) None r [] 0 t f last p) as [e G].
    do 2 eexists. split; [eapply goes_one; [apply b_unlock|exact G]|].
    destruct last; (split; [reflexivity|split; [reflexivity|discriminate]]).
Qed.
Lemma go_have r b c t f p : c = some b -> exists e s', goes (mkSt (Some OThread) r b c t f BHave p) e s' /\ finished s'.
Proof.
  intros Hc. destruct (is_nil b && r) eqn:E.
  - apply andb_true_iff in E. destruct E as [E ->]. apply is_nil_true in E. subst b.
    do 2 eexists. split; [eapply goes_one; [apply b_sleep|apply goes_refl]|]. split; [reflexivity|split; [reflexivity|discriminate]].
  - destruct (go_taken b (Some OThread) r c t f (negb r) p eq_refl) as (e & s' & G & Fi).
    { rewrite Hc. destruct b; reflexivity. }
    exists e, s'. split; [|exact Fi]. eapply goes_one; [apply b_take; exact E|exact G].
Qed.
Lemma go_thread s : SInv s -> (mutex s = None \/ mutex s = Some OThread) -> bth s <> BEnd false ->
  exists e s', goes s e s' /\ finished s'.
Proof.
  intros [V1 V2 V3 V4 V5 V6 V7 V8] Hm Hb. destruct s as [m r b c t f bt p]. cbn [mutex running buf ctx late snd_ bth stp] in *.
  assert (Hfree : b_holds bt -> m = Some OThread) by (intros X; apply V2; exact X).
  assert (Hnot : ~ b_holds bt -> m = None) by (intros X; destruct Hm as [Hm|Hm]; [exact Hm|apply V2 in Hm; tauto]).
  destruct bt as [ | | | |l last|l last|ok]; cbn [b_holds batch] in *.
  - rewrite (Hnot (fun x => x)) in *. destruct (go_have r b c t f p ltac:(lia)) as (e & s' & G & Fi). exists e, s'. split; [|exact Fi].
    eapply goes_one; [apply b_lock|exact G].
  - rewrite (Hfree I) in *. apply go_have. lia.
  - exists [], (mkSt m r b c t f BSleep p). split; [apply goes_refl|]. destruct (V5 eq_refl) as [_ ->].
    split; [reflexivity|split; [reflexivity|discriminate]].
  - rewrite (Hnot (fun x => x)) in *. destruct (go_have r b c t f p ltac:(lia)) as (e & s' & G & Fi). exists e, s'. split; [|exact Fi].
    eapply goes_one; [apply b_wake|exact G].
  - rewrite (Hfree I) in *. destruct l as [|n l].
    + destruct last.
      * destruct V4 as [_ ->]. apply go_taken; [reflexivity|exact V6].
      * destruct (go_have r b c t f p ltac:(lia)) as (e & s' & G & Fi). exists e, s'. split; [|exact Fi].
        eapply goes_one; [apply b_unlock|]. cbn [is_nil]. eapply goes_one; [apply b_lock|exact G].
    + destruct (go_write (n :: l) None r b (some b) t f last p) as [e G].
      assert (Ec : c = S (some b)) by lia. clear V6. subst c. destruct last.
      * destruct V4 as [_ ->]. do 2 eexists. split; [eapply goes_one; [apply b_unlock|exact G]|].
        split; [reflexivity|split; [reflexivity|discriminate]].
      * destruct (go_have r b (some b) t f p eq_refl) as (e' & s' & G' & Fi). exists (e ++ e'), s'. split; [|exact Fi].
        eapply goes_one; [apply b_unlock|]. cbn [is_nil]. eapply goes_trans; [exact G|]. eapply goes_one; [apply b_lock|exact G'].
  - rewrite (Hnot (fun x => x)) in *. destruct (go_write l None r b (some b) t f last p) as [e G].
    assert (Ec : c = S (some b)) by lia. clear V6. subst c. destruct last.
    + destruct V4 as [_ ->]. do 2 eexists. split; [exact G|]. split; [reflexivity|split; [reflexivity|discriminate]].
    + destruct (go_have r b (some b) t f p eq_refl) as (e' & s' & G' & Fi). exists (e ++ e'), s'. split; [|exact Fi].
      eapply goes_trans; [exact G|]. eapply goes_one; [apply b_lock|exact G'].
  - destruct ok; [|congruence]. destruct V4 as [_ ->]. exists [], (mkSt m r [] c t f (BEnd true) p). split; [apply goes_refl|].
    split; [reflexivity|split; [reflexivity|discriminate]].
Qed.
(** Whoever has the mutex returns it. *)
Lemma go_release s : SInv s -> bth s <> BEnd false ->
  exists e s', goes s e s' /\ (mutex s' = None \/ mutex s' = Some OThread) /\ bth s' <> BEnd false.
Proof.
  intros V Hb. destruct s as [m r b c t f bt p]. destruct m as [[i| |]|].
  - pose proof (proj1 (v_snd _ V i) eq_refl) as H. cbn [snd_ bth] in *.
    assert (W : wake bt <> BEnd false) by (destruct bt; cbn [wake]; congruence).
    assert (L : forall b c f bt n ok, f i = SLeave n ok -> bt <> BEnd false ->
      exists e s', goes (mkSt (Some (OSender i)) r b c t f bt p) e s' /\ (mutex s' = None \/ mutex s' = Some OThread) /\ bth s' <> BEnd false).
    { intros b0 c0 f0 bt0 n ok E Hb0. do 2 eexists. split; [eapply goes_step; [eapply s_leave; exact E| |apply goes_refl]|].
      - intros k [X|[]]. discriminate.
      - split; [left; reflexivity|exact Hb0]. }
    destruct (f i) as [|n|n|n ok|n] eqn:E; cbn [s_holds] in H; try tauto.
    + destruct r.
      * destruct b as [|x b].
        -- destruct (L [n] (S c) (upd f i (SLeave n true)) (wake bt) n true (upd_same _ _ _) W) as (e & s' & G & R).
           exists e, s'. split; [|exact R]. eapply goes_one; [apply s_put_first; exact E|exact G].
        -- destruct (L ((x :: b) ++ [n]) c (upd f i (SLeave n true)) (wake bt) n true (upd_same _ _ _) W) as (e & s' & G & R).
           exists e, s'. split; [|exact R]. eapply goes_one; [apply s_put; [exact E|discriminate]|exact G].
      * do 2 eexists. split; [eapply goes_one; [eapply s_unlock; exact E|apply goes_refl]|]. split; [left; reflexivity|exact Hb].
    + exact (L b c f bt n ok E Hb).
  - exists [], (mkSt (Some OThread) r b c t f bt p). split; [apply goes_refl|]. split; [right; reflexivity|exact Hb].
  - pose proof (proj1 (v_stp _ V) eq_refl) as H. cbn [stp] in H. subst p.
    do 2 eexists. split; [eapply goes_one; [apply p_unlock|apply goes_refl]|]. split; [left; reflexivity|exact Hb].
  - exists [], (mkSt None r b c t f bt p). split; [apply goes_refl|]. split; [left; reflexivity|exact Hb].
Qed.
Lemma go_finish s : SInv s -> bth s <> BEnd false -> forall tr, runs tr s ->
  exists e s', runs (tr ++ e) s' /\ quiet e /\ finished s'.
Proof.
  intros V Hb tr R. destruct (go_release s V Hb) as (e & s1 & G & Hm & Hb1).
  destruct (goes_runs _ _ _ G tr R) as [R1 Q1].
  destruct (go_thread s1 (sinv_runs _ _ R1) Hm Hb1) as (e' & s2 & G2 & Fi).
  exists (e ++ e'), s2. destruct (goes_runs _ _ _ (goes_trans _ _ _ _ _ G G2) tr R) as [R2 Q2]. auto.
Qed.
