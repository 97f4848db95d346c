(** Theorems about notifying subscribers of a change (C10, C12, C35). *)
From Coq Require Import List Bool Arith NArith Lia.
From Verif Require Import Change ChangeSpec ChangeProofs ChangeProofs2 ChangeProofs3 ChangeProofs4.
Import ListNotations.
Local Open Scope N_scope.

(** C10: subscribers of a module are called in the order of priorities: once a subscriber was called,
    no subscriber of the module with a higher priority is called afterwards. Same for done events. *)
Theorem C10_priority_order : forall alive env mods k err rs o, k <> KAbort -> wf_mods mods -> notify alive env k err mods = (rs, o) -> (forall rd, In rd rs -> valid_round alive k rd) ->
  forall l1 c1 l2 c2 m s1 s2, calls rs = l1 ++ c1 :: l2 -> In c2 l2 -> call_of mods c1 m s1 -> call_of mods c2 m s2 -> a_prio s2 <= a_prio s1.
Proof.
  intros alive env mods k err rs o Hk W E V l1 c1 l2 c2 m s1 s2 Ec H2 C1 C2. destruct (notify_spec alive mods W env k err rs o Hk E) as (RO & _).
  apply (order alive mods W k rs l1 c1 l2 c2 m s1 m s2 RO V Ec H2 C1 C2). reflexivity.
Qed.

(** C35: and modules in their order. *)
Theorem C35_module_order : forall alive env mods k err rs o, k <> KAbort -> wf_mods mods -> notify alive env k err mods = (rs, o) -> (forall rd, In rd rs -> valid_round alive k rd) ->
  forall l1 c1 l2 c2 m1 s1 m2 s2, calls rs = l1 ++ c1 :: l2 -> In c2 l2 -> call_of mods c1 m1 s1 -> call_of mods c2 m2 s2 -> m_prio m2 <= m_prio m1.
Proof.
  intros alive env mods k err rs o Hk W E V l1 c1 l2 c2 m1 s1 m2 s2 Ec H2 C1 C2. destruct (notify_spec alive mods W env k err rs o Hk E) as (RO & _).
  apply (order alive mods W k rs l1 c1 l2 c2 m1 s1 m2 s2 RO V Ec H2 C1 C2).
Qed.

(** C10: nobody processes the event twice and only subscribers the event is for are called. *)
Theorem C10_at_most_once : forall alive env mods k err rs o, k <> KAbort -> wf_mods mods -> notify alive env k err mods = (rs, o) -> (forall rd, In rd rs -> valid_round alive k rd) ->
  (forall m s, In m mods -> In s (m_subs m) -> (length (filter (fun c => is_final k c && Nat.eqb (c_mod c) (m_id m) && Nat.eqb (c_sub c) (a_id s)) (calls rs)) <= 1)%nat) /\
  (forall c, In c (calls rs) -> exists m s, call_of mods c m s /\ addressed alive k m s).
Proof.
  intros alive env mods k err rs o Hk W E V. destruct (notify_spec alive mods W env k err rs o Hk E) as (RO & _). split.
  - intros m s Hm Hs. apply (at_most_once alive mods W k rs m s RO V Hm Hs).
  - intros c Hc. unfold calls in Hc. apply in_flat_map in Hc. destruct Hc as (rd & Hr & Hc). apply (call_has alive mods k rs rd c RO Hr (V rd Hr) Hc).
Qed.

(** C10: if the change succeeded, every subscriber accepted it (once, see above). *)
Theorem C10_everybody_accepted : forall alive env mods err rs, wf_mods mods -> notify alive env KChange err mods = (rs, OOk) -> (forall rd, In rd rs -> valid_round alive KChange rd) ->
  (forall m s, In m mods -> addressed alive KChange m s -> In (mkcall (m_id m) (a_id s) ROk) (calls rs)) /\
  (forall c, In c (calls rs) -> c_res c <> RErr).
Proof.
  intros alive env mods err rs W E V. destruct (notify_spec alive mods W env KChange err rs OOk ltac:(discriminate) E) as (RO & Wr & Ok). specialize (Ok eq_refl). rewrite Forall_forall in Ok. split.
  - intros m s Hm Ha. destruct (Wr m s Hm Ha) as (rd & p & Hr & Hp & Em & Ep). subst m. pose proof (left_zero alive mods W KChange rs rd p RO Hr (V rd Hr) Hp (Ok rd Hr p Hp) s Ha (eq_sym Ep)) as Ac. apply accepted_in in Ac. destruct Ac as (c & Hc & C1 & C2 & C3). apply in_flat_map. exists rd. split; [exact Hr|]. rewrite <- C1, <- C2, <- C3. destruct c; exact Hc.
  - intros c Hc Ce. apply in_flat_map in Hc. destruct Hc as (rd & Hr & Hc). destruct (call_has alive mods KChange rs rd c RO Hr (V rd Hr) Hc) as (m & s & Cm & _). exact (refused_left alive mods W rs rd c m s RO Hr (V rd Hr) Hc Cm Ce (Ok rd Hr)).
Qed.

Lemma not_ok_last : forall alive env mods err rs o a rd b, wf_mods mods -> notify alive env KChange err mods = (rs, o) -> rs = a ++ rd :: b -> ~ all_ok rd -> r_calls rd <> [] -> o = ORefused /\ b = [].
Proof.
  intros alive env mods err rs o a rd b W E Er No Nc. destruct (notify_spec alive mods W env KChange err rs o ltac:(discriminate) E) as (_ & O). destruct o.
  - destruct O as (_ & Ok). specialize (Ok eq_refl). rewrite Forall_forall in Ok. destruct No. apply Ok. rewrite Er. apply in_or_app. right. left. reflexivity.
  - split; [reflexivity|]. destruct O as (_ & l & x & El & Ok & _). destruct (exists_last (l := rd :: b) ltac:(discriminate)) as (b' & y & Eb). rewrite Er, Eb, app_assoc in El. apply app_inj_tail in El. destruct El as (El & _). destruct b as [|z b]; [reflexivity|]. exfalso. destruct b' as [|w b']; [discriminate|]. cbn [app] in Eb. injection Eb as Ew _. subst w. apply No. rewrite Forall_forall in Ok. apply Ok. rewrite <- El. apply in_or_app. right. left. reflexivity.
  - exfalso. destruct O as (l & x & El & Ex & Ok). specialize (Ok eq_refl). destruct (exists_last (l := rd :: b) ltac:(discriminate)) as (b' & y & Eb). rewrite Er, Eb, app_assoc in El. apply app_inj_tail in El. destruct El as (El & Ey). subst y. destruct b' as [|w b'].
    + cbn [app] in Eb. injection Eb as Ew _. subst x. contradiction.
    + cbn [app] in Eb. injection Eb as Ew _. subst w. apply No. rewrite Forall_forall in Ok. apply Ok. rewrite <- El. apply in_or_app. right. left. reflexivity.
  - destruct O.
Qed.

(** C10: after somebody refused, nobody of a lower priority or of a later module is asked. *)
Theorem C10_stops_at_refusal : forall alive env mods err rs o, wf_mods mods -> notify alive env KChange err mods = (rs, o) -> (forall rd, In rd rs -> valid_round alive KChange rd) ->
  forall l1 c1 l2, calls rs = l1 ++ c1 :: l2 -> c_res c1 = RErr -> o = ORefused /\
  forall c2 m1 s1 m2 s2, In c2 l2 -> call_of mods c1 m1 s1 -> call_of mods c2 m2 s2 -> m_prio m2 = m_prio m1 /\ (m1 = m2 -> a_prio s2 = a_prio s1).
Proof.
  intros alive env mods err rs o W E V l1 c1 l2 Ec R1. destruct (notify_spec alive mods W env KChange err rs o ltac:(discriminate) E) as (RO & _).
  assert (Bad : forall rd, In rd rs -> In c1 (r_calls rd) -> ~ all_ok rd /\ r_calls rd <> []).
  { intros rd Hr Hc. split; [|intros Z; rewrite Z in Hc; destruct Hc]. destruct (call_has alive mods KChange rs rd c1 RO Hr (V rd Hr) Hc) as (m & s & Cm & _). apply (refused_left alive mods W rs rd c1 m s RO Hr (V rd Hr) Hc Cm R1). }
  assert (H1 : In c1 (calls rs)) by (rewrite Ec; apply in_or_app; right; left; reflexivity). apply in_flat_map in H1. destruct H1 as (rd0 & Hr0 & Hc0). split.
  - destruct (Bad rd0 Hr0 Hc0) as (B1 & B2). apply in_split in Hr0. destruct Hr0 as (a & b & Er). apply (not_ok_last alive env mods err rs o a rd0 b W E Er B1 B2).
  - intros c2 m1 s1 m2 s2 H2 C1 C2. destruct (calls_split rs l1 c1 l2 c2 Ec H2) as [(a & rd & b & x & y & Er & Ex & Hy)|(a & rd1 & b & rd2 & Er & Hc1 & Hr2 & Hc2)].
    + assert (Hr : In rd rs) by (rewrite Er; apply in_or_app; right; left; reflexivity).
      destruct (call_pend alive mods W KChange _ rd c1 m1 s1 RO Hr (V rd Hr)) as (p1 & P1 & P2 & P3 & _); [rewrite Ex; apply in_or_app; right; left; reflexivity|exact C1|].
      destruct (call_pend alive mods W KChange _ rd c2 m2 s2 RO Hr (V rd Hr)) as (p2 & Q1 & Q2 & Q3 & _); [rewrite Ex; apply in_or_app; right; right; exact Hy|exact C2|].
      destruct (ro_same _ _ _ _ RO rd p1 p2 Hr P1 Q1) as (A & B). rewrite P2, Q2 in *. split; [lia|]. intros Em. specialize (B Em). subst p2. lia.
    + exfalso. assert (Hr1 : In rd1 rs) by (rewrite Er; apply in_or_app; right; left; reflexivity). destruct (Bad rd1 Hr1 Hc1) as (B1 & B2). destruct (not_ok_last alive env mods err rs o a rd1 b W E Er B1 B2) as (_ & ->). destruct Hr2.
Qed.

(** C10: a change is refused only if somebody it was sent to did not accept it. *)
Theorem C10_refused_by_somebody : forall alive env mods err rs, wf_mods mods -> notify alive env KChange err mods = (rs, ORefused) -> (forall rd, In rd rs -> valid_round alive KChange rd) ->
  exists m s, In m mods /\ addressed alive KChange m s /\ ~ In (mkcall (m_id m) (a_id s) ROk) (calls rs).
Proof.
  intros alive env mods err rs W E V. destruct (notify_spec alive mods W env KChange err rs ORefused ltac:(discriminate) E) as (RO & _ & l & rd & El & Ok & No).
  assert (Hr : In rd rs) by (rewrite El; apply in_or_app; right; left; reflexivity). destruct (not_ok_ex alive mods KChange rs rd RO Hr (V rd Hr) No) as (p & s & Hp & Ha & Ep & Ac). destruct (ro_from _ _ _ _ RO rd p Hr Hp) as (Hm & _).
  exists (p_mod p), s. split; [exact Hm|]. split; [exact Ha|]. intros X. unfold calls in X. apply in_flat_map in X. destruct X as (rd' & Hr' & Hc).
  destruct (call_pend alive mods W KChange rs rd' _ (p_mod p) s RO Hr' (V rd' Hr') Hc) as (p' & Hp' & Em' & Ep' & _); [split; [exact Hm|split; [apply Ha|split; reflexivity]]|].
  assert (rd = rd') by (apply (same_round alive mods rs RO rd rd' p p'); auto; congruence). subst rd'. assert (Y : accepted (r_calls rd) (m_id (p_mod p)) (a_id s) = true) by (apply accepted_in; eexists; split; [exact Hc|auto]). congruence.
Qed.

(** C12, partial: if nobody dies between the change and the abort and the listeners process the abort
    events as specified in valid_abort_round (what they really do is in Prop_ChangeEv, the full
    statement is refuted there), exactly those that accepted the change get one abort event. *)
Theorem C12_abort_exactly_acceptors_partial : forall alive envc enva mods err rs ra, wf_mods mods ->
  notify alive envc KChange err mods = (rs, ORefused) -> (forall rd, In rd rs -> valid_round alive KChange rd) ->
  notify alive enva KAbort (errors rs) mods = (ra, OOk) -> (forall rd, In rd ra -> valid_abort_round alive (calls rs) rd) ->
  forall m s, In m mods -> In s (m_subs m) ->
    length (filter (fun c => Nat.eqb (c_mod c) (m_id m) && Nat.eqb (c_sub c) (a_id s)) (calls ra)) = (if accepted (calls rs) (m_id m) (a_id s) then 1 else 0)%nat.
Proof.
  intros alive envc enva mods err rs ra W E V Ea Va m s Hm Hs. destruct (notify_spec alive mods W envc KChange err rs ORefused ltac:(discriminate) E) as (RO & _).
  pose proof (notify_follow alive mods W envc enva err rs E) as F. cbv zeta in F. rewrite Ea in F. cbn [fst snd] in F. apply (abort_exact alive mods W rs ra RO V F Va m s Hm Hs).
Qed.

(** ** Concrete cases *)
Definition all_alive (_ : asub) : bool := true.
Definition s1 := mkasub 1 10 false false false.
Definition s2 := mkasub 2 10 false false false.
Definition s3 := mkasub 3 5 false false false.
Definition s4 := mkasub 4 7 true false false.
Definition s5 := mkasub 5 0 false false false.
Definition mA := mkamod 1 3 [s1; s2; s3; s4].
Definition mB := mkamod 2 100 [s5].
Definition mods0 := [mA; mB].

Lemma mods0_wf : wf_mods mods0.
Proof.
  split; [repeat constructor; cbn; intuition discriminate|]. intros m [<-|[<-|[]]]; cbn [mA mB m_subs m_prio map]; repeat split; try (unfold u32_max; cbn; lia); try (repeat constructor; cbn; intuition discriminate);
  intros s Hs; cbn in Hs; unfold u32_max; repeat (destruct Hs as [<-|Hs]; [cbn; lia|]); destruct Hs.
Qed.

(** Module 2 first, then both with priority 10; [s2] refuses. *)
Definition env0 (r : nat) : option (list call) :=
  match r with O => Some [mkcall 2 5 ROk] | S O => Some [mkcall 1 1 RShelve; mkcall 1 2 RErr; mkcall 1 1 ROk] | _ => Some [] end.
Definition enva0 (r : nat) : option (list call) := match r with O => Some [mkcall 2 5 ROk] | S O => Some [mkcall 1 1 ROk] | _ => Some [] end.

Example refused0 : notify all_alive env0 KChange (fun _ => None) mods0 =
  ([mkround [mkpend mB 0 1] [mkcall 2 5 ROk]; mkround [mkpend mA 10 2] [mkcall 1 1 RShelve; mkcall 1 2 RErr; mkcall 1 1 ROk]], ORefused).
Proof. vm_compute. reflexivity. Qed.
Example aborted0 : notify all_alive enva0 KAbort (errors (fst (notify all_alive env0 KChange (fun _ => None) mods0))) mods0 =
  ([mkround [mkpend mB 0 1] [mkcall 2 5 ROk]; mkround [mkpend mA 10 1] [mkcall 1 1 ROk]], OOk).
Proof. vm_compute. reflexivity. Qed.

Lemma addr0 : forall k m s, In s (m_subs m) -> a_susp s = false -> a_filt s = false -> (k = KDone \/ a_done_only s = false) -> addressed all_alive k m s.
Proof. intros. repeat split; auto. Qed.

(** The hypotheses of the theorems hold of these rounds. *)
Example C10_nonvacuous : (forall rd, In rd (fst (notify all_alive env0 KChange (fun _ => None) mods0)) -> valid_round all_alive KChange rd) /\
  (forall rd, In rd (fst (notify all_alive enva0 KAbort (errors (fst (notify all_alive env0 KChange (fun _ => None) mods0))) mods0)) -> valid_abort_round all_alive (calls (fst (notify all_alive env0 KChange (fun _ => None) mods0))) rd).
Proof.
  rewrite aborted0, refused0. cbn [fst]. split.
  - intros rd [<-|[<-|[]]]; split.
    + intros c [<-|[]]. exists (mkpend mB 0 1), s5. cbn. intuition; try (apply addr0; cbn; auto).
    + cbn. repeat constructor. intros [].
    + intros c [<-|[<-|[<-|[]]]]; [exists (mkpend mA 10 2), s1|exists (mkpend mA 10 2), s2|exists (mkpend mA 10 2), s1]; (split; [left; reflexivity|]; split; [reflexivity|]; split; [reflexivity|]; split; [apply addr0; cbn; auto|reflexivity]).
    + cbn. repeat constructor; cbn; intuition discriminate.
  - intros rd [<-|[<-|[]]]; (split; [|split]).
    + intros c [<-|[]]. exists (mkpend mB 0 1), s5. split; [left; reflexivity|]. split; [reflexivity|]. split; [reflexivity|]. split; [apply addr0; cbn; auto|]. split; reflexivity.
    + cbn. repeat constructor. intros [].
    + intros p [<-|[]]. left. reflexivity.
    + intros c [<-|[]]. exists (mkpend mA 10 1), s1. split; [left; reflexivity|]. split; [reflexivity|]. split; [reflexivity|]. split; [apply addr0; cbn; auto|]. split; reflexivity.
    + cbn. repeat constructor. intros [].
    + intros p [<-|[]]. left. reflexivity.
Qed.

(** Without the condition on priorities C10 does not hold: a subscriber with the priority UINT32_MAX
    makes the priority the loop starts with wrap to 0 and nobody of the module is asked. *)
Theorem C10_priority_max_refuted : exists mods, NoDup (map m_id mods) /\ (forall m s, In m mods -> In s (m_subs m) -> a_prio s <= u32_max) /\
  (exists m s, In m mods /\ addressed all_alive KChange m s) /\
  forall env, notify all_alive env KChange (fun _ => None) mods = ([], OOk).
Proof.
  exists [mkamod 1 0 [mkasub 1 u32_max false false false; mkasub 2 5 false false false]]. split; [repeat constructor; intros []|]. split.
  - intros m s [<-|[]] Hs. cbn in Hs. destruct Hs as [<-|[<-|[]]]; cbn; unfold u32_max; lia.
  - split; [exists (mkamod 1 0 [mkasub 1 u32_max false false false; mkasub 2 5 false false false]), (mkasub 2 5 false false false); split; [left; reflexivity|apply addr0; cbn; auto]|]. intros env. vm_compute. reflexivity.
Qed.

(** If the subscriber that refused the change dies before the abort, the number of subscribers with
    the error is subtracted though it is no longer among those found and those of its priority that
    accepted the change are not told: C12 is false then. *)
Definition dead2 (s : asub) : bool := negb (Nat.eqb (a_id s) 2).
Theorem C12_refuser_died_refuted : exists rs, notify all_alive env0 KChange (fun _ => None) mods0 = (rs, ORefused) /\
  accepted (calls rs) (m_id mA) (a_id s1) = true /\ dead2 s1 = true /\
  forall enva rd p, In rd (fst (notify dead2 enva KAbort (errors rs) mods0)) -> In p (r_pend rd) -> p_mod p <> mA.
Proof.
  eexists. split; [exact refused0|]. split; [reflexivity|]. split; [reflexivity|]. intros enva rd p Hr Hp.
  assert (X : r_pend rd = [mkpend mB 0 1]).
  { revert Hr. unfold notify. cbv beta iota zeta. remember (create dead2 KAbort _ mods0) as ns eqn:En. vm_compute in En. subst ns. cbv beta iota. remember (set_mod_prio _) as q eqn:Eq. vm_compute in Eq. subst q. cbn [fst snd].
    remember (S (N.to_nat 1 + _)) as f eqn:Ef. vm_compute in Ef. subst f. rewrite loop_unfold. remember (pends_of _ _ _ _) as ps eqn:Eps. vm_compute in Eps. subst ps. remember (existsb _ _) as lst eqn:El. vm_compute in El. subst lst. cbv beta iota zeta. destruct (enva 0%nat) as [cs|]; [|intros [<-|[]]; reflexivity].
    remember (after dead2 KAbort _ _) as n2 eqn:E2. vm_compute in E2. subst n2. rewrite loop_unfold. remember (pends_of _ _ _ _) as ps eqn:Eps. vm_compute in Eps. subst ps. remember (existsb _ _) as lst eqn:El. vm_compute in El. subst lst. cbv beta iota zeta.
    remember (1 =? 0) as b eqn:Eb. vm_compute in Eb. subst b. cbv beta iota.
    remember (after dead2 KAbort _ _) as n2 eqn:E2. vm_compute in E2. subst n2. remember (1 - 1) as z eqn:Ez. vm_compute in Ez. subst z. rewrite loop_unfold. remember (pends_of _ _ _ _) as ps eqn:Eps. vm_compute in Eps. subst ps. remember (existsb _ _) as lst eqn:El. vm_compute in El. subst lst. cbv beta iota zeta. cbn [fst snd N.eqb]. intros [<-|[]]. reflexivity. }
  rewrite X in Hp. destruct Hp as [<-|[]]. cbn. discriminate.
Qed.

Print Assumptions C10_priority_order.
Print Assumptions C10_at_most_once.
Print Assumptions C10_everybody_accepted.
Print Assumptions C10_stops_at_refusal.
Print Assumptions C10_refused_by_somebody.
Print Assumptions C35_module_order.
Print Assumptions C12_abort_exactly_acceptors_partial.
Print Assumptions C10_priority_max_refuted.
Print Assumptions C12_refuser_died_refuted.
