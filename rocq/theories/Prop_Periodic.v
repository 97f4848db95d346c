(** C48: updates of periodic subscriptions come every period. *)

From Coq Require Import ZArith List Bool Lia.
Import ListNotations.
From Verif Require Import Time TimeProofs Periodic.
Open Scope Z_scope.

(** Times are in nanoseconds ([ns]), periods in milliseconds. *)
Definition ms (p : Z) : Z := p * 1000000.

(** Periods up to about 49.7 days, and no zero. *)
Definition good_period (p : Z) : Prop := 0 < p /\ p + 999 < 4294967296.
Definition good_anchor (a : option timespec) : Prop :=
  match a with Some a => normalised a | None => True end.
Definition good_event (e : event) : Prop :=
  match e with
  | Clock t | Fire _ t => normalised t
  | Modify p a => good_period p /\ good_anchor a
  | _ => True
  end.

(** An update is due within a period. *)
Definition due (s : st) : Prop :=
  exists r, tm s = Some r /\ th r <> Ended /\ ns (trig r) <= ns (now s) + ms (period s).

(** ** Invariant *)

Record inv (s : st) : Prop := Inv {
  i_now : normalised (now s);
  i_anchor : normalised (anchor s);
  i_period : good_period (period s);
  i_tm : forall r, tm s = Some r ->
           th r <> Ended /\ normalised (trig r) /\ intv r = period s /\
           ns (trig r) <= ns (now s) + ms (period s);
  i_over : over s = true -> tm s = None;
  i_active : over s = false -> susp s = false -> tm s <> None }.

Ltac Zify.zify_post_hook ::= Z.to_euclidean_division_equations.

Lemma interval_ok p : 0 <= p < 4294967296 -> interval_ms p = p.
Proof.
  intro H. unfold interval_ms, u32z, two32z.
  rewrite (Z.mod_small (Z.quot p 1000 * 1000)) by lia.
  rewrite (Z.mod_small (Z.rem p 1000 * 1000000)) by lia.
  rewrite Z.mod_small by lia. lia.
Qed.

Lemma later_ok t t' : normalised t -> normalised t' -> later t t' = true <-> ns t <= ns t'.
Proof.
  intros H H'. unfold later. rewrite time_cmp_ok by assumption. rewrite Z.leb_le.
  rewrite Z.sgn_nonneg. lia.
Qed.

Lemma first_trigger_ok t p a : normalised t -> good_period p -> good_anchor a ->
  exists u, first_trigger t p a = Done u /\ normalised u /\ ns t <= ns u <= ns t + ms p.
Proof.
  intros Ht [Hp Hp'] Ha. unfold first_trigger. destruct a as [a|].
  - destruct (Z.eqb_spec p 0) as [E|_]; [lia|].
    set (d := if time_sub_ms t a <? 0 then _ else _). clearbody d.
    assert (Hm : 0 <= u32z d mod p < p) by (apply Z.mod_pos_bound; exact Hp).
    assert (Hu : u32z (u32z d mod p) = u32z d mod p) by (unfold u32z at 1, two32z; apply Z.mod_small; lia).
    rewrite Hu. set (m := u32z d mod p) in *. clearbody m.
    destruct (ts_add_ok t m) as [E N]; [exact Ht|lia| |].
    + assert (Hn : tv_nsec t / 1000000 <= 999) by (unfold normalised in Ht; lia).
      unfold two32z. lia.
    + eexists. split; [reflexivity|]. split; [exact N|]. rewrite E. unfold ms. lia.
  - exists t. split; [reflexivity|]. split; [exact Ht|]. unfold ms. lia.
Qed.

Lemma schedule_ok s p a : normalised (now s) -> good_period p -> good_anchor a ->
  (forall r, tm s = Some r -> th r <> Ended) ->
  exists r, schedule s p a = Done r /\ th r <> Ended /\ normalised (trig r) /\ intv r = p /\
            ns (now s) <= ns (trig r) <= ns (now s) + ms p.
Proof.
  intros Hn Hp Ha Ht. unfold schedule.
  destruct (first_trigger_ok (now s) p a Hn Hp Ha) as (u & -> & Nu & Hu).
  assert (Hi : interval_ms p = p) by (apply interval_ok; destruct Hp; lia).
  destruct (tm s) as [r|].
  - eexists. split; [reflexivity|]. cbn [th trig intv]. rewrite Hi. auto 6.
  - eexists. split; [reflexivity|]. cbn [th trig intv]. rewrite Hi. split; [discriminate|]. auto.
Qed.

Lemma stop_timer_ok s : inv s -> normalised (stop_timer s) /\ ns (now s) <= ns (stop_timer s).
Proof.
  intros I. unfold stop_timer. destruct (tm s) as [[th t i]|] eqn:E.
  - destruct (i_tm _ I _ E) as (_ & Nt & _ & _). cbn [trig] in Nt.
    destruct th; try (split; [apply (i_now _ I)|lia]).
    destruct (later (now s) t) eqn:L.
    + apply later_ok in L; [|apply (i_now _ I)|exact Nt]. auto.
    + split; [apply (i_now _ I)|lia].
  - split; [apply (i_now _ I)|lia].
Qed.

Lemma subscribe_inv t p a : normalised t -> good_period p -> good_anchor a ->
  exists s, subscribe t p a = Done s /\ inv s /\ sent s = [] /\ now s = t /\ period s = p /\ over s = false /\ susp s = false.
Proof.
  intros Ht Hp Ha. unfold subscribe.
  set (s0 := St t p _ false None false []).
  destruct (schedule_ok s0 p a) as (r & -> & A & B & C & D); try assumption; [discriminate|].
  eexists. split; [reflexivity|]. split; [|cbn [sent now period over susp]; auto 6].
  constructor; cbn [now period anchor tm over susp]; try assumption; try discriminate.
  - unfold s0. cbn [anchor]. destruct a; [exact Ha|]. unfold normalised, zero; cbn [tv_nsec]. lia.
  - intros r' E. injection E as <-. cbn [now] in D. unfold s0 in D. cbn [now] in D. split; [exact A|]. split; [exact B|]. split; [exact C|]. lia.
Qed.

(** Steps keep it, and never divide by zero. *)
Lemma step_inv s e o : inv s -> good_event e -> step s e = Some o -> exists s', o = Done s' /\ inv s'.
Proof.
  intros I He H. pose proof I as [In Ia Ip It Io Iac]. destruct e as [t| |ok t| | | |p a]; cbn [step] in H.
  - destruct (later (now s) t) eqn:L; [|discriminate]. injection H as <-.
    apply later_ok in L; [|assumption|exact He].
    eexists; split; [reflexivity|]. unfold with_now. constructor; cbn [now period anchor susp tm over]; auto.
    intros r E. destruct (It r E) as (A & B & C & D). do 3 (split; [assumption|]). lia.
  - destruct (tm s) as [[[] t i]|] eqn:E; try discriminate. injection H as <-.
    eexists; split; [reflexivity|]. unfold with_tm. destruct (It _ eq_refl) as (A & B & C & D).
    cbn [trig intv] in *.
    constructor; cbn [now period anchor susp tm over]; auto; try discriminate.
    + intros r E'. injection E' as <-. cbn [th trig intv]. split; [discriminate|]. auto.
    + intro O. specialize (Io O). discriminate.
  - destruct (tm s) as [[[] tr i]|] eqn:E; try discriminate.
    destruct (later tr (now s) && later (now s) t) eqn:L; [|discriminate]. injection H as <-.
    apply andb_true_iff in L. destruct L as [L1 L2].
    destruct (It _ eq_refl) as (A & B & C & D). cbn [trig intv th] in *. cbn [good_event] in He.
    apply later_ok in L1; [|assumption|assumption]. apply later_ok in L2; [|assumption|assumption].
    eexists; split; [reflexivity|].
    constructor; cbn [now period anchor susp tm over]; auto; try discriminate.
    + intros r E'. injection E' as <-. unfold next_round. cbn [intv trig].
      destruct Ip as [P1 P2]. destruct (Z.eqb_spec i 0) as [Z0|_]; [lia|]. cbn [th trig intv].
      subst i. destruct (ts_add_ok t (period s)) as [T1 T2]; [exact He|lia| |].
      { assert (Hn : tv_nsec t / 1000000 <= 999) by (unfold normalised in He; lia). unfold two32z. lia. }
      split; [discriminate|]. split; [exact T2|]. split; [reflexivity|]. rewrite T1. unfold ms. lia.
    + intro O. specialize (Io O). discriminate.
  - destruct (over s || susp s) eqn:E.
    + injection H as <-. eauto.
    + injection H as <-. apply orb_false_iff in E. destruct E as [E1 E2].
      destruct (stop_timer_ok s I) as [N L]. eexists; split; [reflexivity|].
      constructor; cbn [now period anchor susp tm over]; auto; discriminate.
  - destruct (over s || negb (susp s)) eqn:E.
    + injection H as <-. eauto.
    + apply orb_false_iff in E. destruct E as [E1 E2].
      destruct (schedule_ok s (period s) (Some (anchor s))) as (r & Hs & A & B & C & D); auto.
      { intros r' E'. apply (It r' E'). }
      rewrite Hs in H. injection H as <-. eexists; split; [reflexivity|].
      constructor; cbn [now period anchor susp tm over]; auto; try discriminate.
      * intros r' E'. injection E' as <-. do 3 (split; [assumption|]). lia.
      * congruence.
  - destruct (over s) eqn:E.
    + injection H as <-. eauto.
    + injection H as <-. destruct (stop_timer_ok s I) as [N L]. eexists; split; [reflexivity|].
      constructor; cbn [now period anchor susp tm over]; auto; discriminate.
  - destruct (over s || negb (modified s p a)) eqn:E.
    + injection H as <-. eauto.
    + apply orb_false_iff in E. destruct E as [E1 E2]. destruct He as [Hp Ha].
      destruct (schedule_ok s p a) as (r & Hs & A & B & C & D); auto.
      { intros r' E'. apply (It r' E'). }
      rewrite Hs in H. injection H as <-. eexists; split; [reflexivity|].
      constructor; cbn [now period anchor susp tm over]; auto; try discriminate.
      * destruct a; [exact Ha|]. unfold normalised, zero; cbn [tv_nsec]. lia.
      * intros r' E'. injection E' as <-. do 3 (split; [assumption|]). lia.
      * congruence.
Qed.

Lemma run_inv l : forall s o, inv s -> Forall good_event l -> run s l = Some o -> exists s', o = Done s' /\ inv s'.
Proof.
  induction l as [|e l IH]; intros s o I Hl H; cbn [run] in H.
  - injection H as <-. eauto.
  - apply Forall_cons_iff in Hl. destruct Hl as [He Hl].
    destruct (step s e) as [[s1|]|] eqn:E; try discriminate.
    + destruct (step_inv s e _ I He E) as (s1' & E1 & I1).
      assert (s1' = s1) by congruence. subst s1'. eapply IH; eauto.
    + destruct (step_inv s e _ I He E) as (s1' & E1 & I1). discriminate.
Qed.

Lemma reach t p a s0 l0 s :
  normalised t -> good_period p -> good_anchor a -> Forall good_event l0 ->
  subscribe t p a = Done s0 -> run s0 l0 = Some (Done s) -> inv s.
Proof.
  intros Ht Hp Ha Hl Hs Hr.
  destruct (subscribe_inv t p a Ht Hp Ha) as (s1 & E & I & _). assert (s1 = s0) by congruence. subst s1.
  destruct (run_inv l0 s0 _ I Hl Hr) as (s' & E' & I'). assert (s' = s) by congruence. subst s'. exact I'.
Qed.

(** ** Theorems *)

(** After any history of an active subscription the next update is due within
    the period in force: updates never cease, whatever was modified, suspended
    and resumed.
    Missing: periods of zero (refuted below) and over 49.7 days less a second. *)
Theorem C48_due_partial : forall t p a s l o,
  normalised t -> good_period p -> good_anchor a -> Forall good_event l ->
  subscribe t p a = Done s -> run s l = Some o ->
  exists s', o = Done s' /\ (over s' = false -> susp s' = false -> due s').
Proof.
  intros t p a s l o Ht Hp Ha Hl Hs Hr.
  destruct (subscribe_inv t p a Ht Hp Ha) as (s0 & E & I & _). assert (s0 = s) by congruence. subst s0.
  destruct (run_inv l s o I Hl Hr) as (s' & -> & I'). exists s'. split; [reflexivity|].
  intros O S. pose proof (i_active _ I' O S) as A. destruct (tm s') as [r|] eqn:T; [|congruence].
  destruct (i_tm _ I' _ T) as (B & _ & _ & C). exists r. auto.
Qed.
Print Assumptions C48_due_partial.

Definition quiet (e : event) : Prop :=
  match e with Clock _ | Begin | Fire _ _ => True | _ => False end.

Lemma spacing : forall s r l s',
  inv s -> tm s = Some r -> Forall good_event l -> Forall quiet l ->
  run s l = Some (Done s') ->
  exists new, sent s' = new ++ sent s /\
    ForallOrdPairs (fun later earlier => ns earlier + ms (period s) <= ns later) new /\
    Forall (fun u => ns (trig r) <= ns u) new.
Proof.
  intros s r l. revert s r. induction l as [|e l IH]; intros s r s' I Hr Hg Hq H.
  - cbn [run] in H. assert (s' = s) by congruence. subst s'.
    exists []. split; [reflexivity|]. split; constructor.
  - apply Forall_cons_iff in Hg. destruct Hg as [He Hg]. apply Forall_cons_iff in Hq. destruct Hq as [Hqe Hq].
    cbn [run] in H. destruct (step s e) as [[s1|]|] eqn:E; try discriminate.
    destruct (step_inv s e _ I He E) as (s1' & E1 & I1). assert (s1' = s1) by congruence. subst s1'. clear E1.
    destruct e as [t| |ok t| | | |p a]; try contradiction; cbn [step] in E.
    + destruct (later (now s) t); [|discriminate]. assert (s1 = with_now s t) by congruence. subst s1.
      apply (IH (with_now s t) r s' I1 Hr Hg Hq H).
    + rewrite Hr in E. destruct r as [[] tr i]; try discriminate.
      assert (s1 = with_tm s (Some (Timer Waiting tr i))) by congruence. subst s1.
      apply (IH _ (Timer Waiting tr i) s' I1 eq_refl Hg Hq H).
    + rewrite Hr in E. destruct r as [[] tr i]; try discriminate.
      destruct (later tr (now s) && later (now s) t) eqn:L; [|discriminate].
      apply andb_true_iff in L. destruct L as [L1 L2].
      destruct (i_tm _ I _ Hr) as (_ & B & C & _). cbn [trig intv] in B, C. cbn [good_event] in He.
      apply later_ok in L1; [|exact B|apply (i_now _ I)]. apply later_ok in L2; [|apply (i_now _ I)|exact He].
      assert (Hs1 : s1 = St t (period s) (anchor s) (susp s) (Some (next_round t (Timer Waiting tr i))) (over s)
                          (if ok then now s :: sent s else sent s)) by congruence.
      assert (Ht1 : tm s1 = Some (next_round t (Timer Waiting tr i))) by (rewrite Hs1; reflexivity).
      assert (Hp1 : period s1 = period s) by (rewrite Hs1; reflexivity).
      destruct (IH s1 _ s' I1 Ht1 Hg Hq H) as (new & Hn & Hsp & Hall). rewrite Hp1 in Hsp.
      assert (Hdue : ns (now s) + ms (period s) <= ns (trig (next_round t (Timer Waiting tr i)))).
      { unfold next_round. cbn [intv]. pose proof (i_period _ I) as [P1 P2].
        destruct (Z.eqb_spec i 0) as [Z0|_]; [lia|]. cbn [trig]. subst i.
        destruct (ts_add_ok t (period s)) as [T1 T2]; [exact He|lia| |].
        { assert (Hn' : tv_nsec t / 1000000 <= 999) by (unfold normalised in He; lia). unfold two32z. lia. }
        rewrite T1. unfold ms. lia. }
      pose proof (i_period _ I) as [P1 _].
      assert (Hall' : Forall (fun u => ns (now s) + ms (period s) <= ns u) new).
      { eapply Forall_impl; [|exact Hall]. cbn beta. intros u Hu. lia. }
      cbn [trig].
      assert (Hsent : sent s1 = if ok then now s :: sent s else sent s) by (rewrite Hs1; reflexivity).
      rewrite Hsent in Hn. destruct ok.
      * exists (new ++ [now s]). split; [rewrite <- app_assoc; exact Hn|]. split.
        -- clear -Hsp Hall'. induction Hsp as [|x l Hx Hl IHl]; cbn [app].
           ++ constructor; constructor.
           ++ apply Forall_cons_iff in Hall'. destruct Hall' as [Hx' Hl'].
              constructor; [|apply IHl; exact Hl'].
              apply Forall_app. split; [exact Hx|]. constructor; [exact Hx'|constructor].
        -- apply Forall_app. split; [|constructor; [lia|constructor]].
           eapply Forall_impl; [|exact Hall']. cbn beta. unfold ms. intros u Hu. lia.
      * exists new. split; [exact Hn|]. split; [exact Hsp|].
        eapply Forall_impl; [|exact Hall']. cbn beta. unfold ms. intros u Hu. lia.
Qed.
(** Two updates, with the parameters unchanged between them, are at least a period apart
    however long the callbacks take and however late they come, and none comes
    before it is due. Missing: nothing for these periods. *)
Theorem C48_spacing_partial : forall t p a s0 l0 s r l s',
  normalised t -> good_period p -> good_anchor a -> Forall good_event (l0 ++ l) ->
  subscribe t p a = Done s0 -> run s0 l0 = Some (Done s) -> tm s = Some r ->
  Forall quiet l -> run s l = Some (Done s') ->
  exists new, sent s' = new ++ sent s /\
    ForallOrdPairs (fun later earlier => ns earlier + ms (period s) <= ns later) new /\
    Forall (fun u => ns (trig r) <= ns u) new.
Proof.
  intros t p a s0 l0 s r l s' Ht Hp Ha Hl Hs H0 Hr Hq H.
  apply Forall_app in Hl. destruct Hl as [Hl0 Hl].
  pose proof (reach t p a s0 l0 s Ht Hp Ha Hl0 Hs H0) as I. apply (spacing s r l s'); assumption.
Qed.
Print Assumptions C48_spacing_partial.

(** Every update is made when it is due and takes the time [d]. *)
Fixpoint takes (d : Z) (s : st) (l : list event) : Prop :=
  match l with
  | nil => True
  | e :: r =>
      match e with
      | Fire ok t => ok = true /\ ns t = ns (now s) + d /\ (forall r, tm s = Some r -> ns (now s) = ns (trig r))
      | _ => True
      end /\
      match step s e with Some (Done s') => takes d s' r | _ => True end
  end.

(** The times of the first [n] updates. *)
Fixpoint every (first gap : Z) (n : nat) : list Z :=
  match n with O => [] | Datatypes.S n => first :: every (first + gap) gap n end.

Lemma times : forall d s r l s',
  0 <= d -> inv s -> tm s = Some r -> Forall good_event l -> Forall quiet l -> takes d s l ->
  run s l = Some (Done s') ->
  exists new, sent s' = new ++ sent s /\
    rev (map ns new) = every (ns (trig r)) (ms (period s) + d) (length new).
Proof.
  intros d s r l s' Hd. revert s r s'. induction l as [|e l IH]; intros s r s' I Hr Hg Hq Ht H.
  - cbn [run] in H. assert (s' = s) by congruence. subst s'. exists []. split; reflexivity.
  - apply Forall_cons_iff in Hg. destruct Hg as [He Hg]. apply Forall_cons_iff in Hq. destruct Hq as [Hqe Hq].
    cbn [takes] in Ht. destruct Ht as [Hf Ht].
    cbn [run] in H. destruct (step s e) as [[s1|]|] eqn:E; try discriminate.
    destruct (step_inv s e _ I He E) as (s1' & E1 & I1). assert (s1' = s1) by congruence. subst s1'. clear E1.
    destruct e as [t| |ok t| | | |p a]; try contradiction; cbn [step] in E.
    + destruct (later (now s) t); [|discriminate]. assert (s1 = with_now s t) by congruence. subst s1.
      apply (IH (with_now s t) r s' I1 Hr Hg Hq Ht H).
    + rewrite Hr in E. destruct r as [[] tr i]; try discriminate.
      assert (s1 = with_tm s (Some (Timer Waiting tr i))) by congruence. subst s1.
      apply (IH _ (Timer Waiting tr i) s' I1 eq_refl Hg Hq Ht H).
    + destruct Hf as (-> & Hend & Hat). specialize (Hat _ Hr).
      rewrite Hr in E. destruct r as [[] tr i]; try discriminate.
      destruct (later tr (now s) && later (now s) t) eqn:L; [|discriminate].
      destruct (i_tm _ I _ Hr) as (_ & B & C & _). cbn [trig intv] in *. cbn [good_event] in He.
      assert (Hs1 : s1 = St t (period s) (anchor s) (susp s) (Some (next_round t (Timer Waiting tr i))) (over s)
                          (now s :: sent s)) by congruence.
      assert (Ht1 : tm s1 = Some (next_round t (Timer Waiting tr i))) by (rewrite Hs1; reflexivity).
      assert (Hp1 : period s1 = period s) by (rewrite Hs1; reflexivity).
      assert (Hsent : sent s1 = now s :: sent s) by (rewrite Hs1; reflexivity).
      destruct (IH s1 _ s' I1 Ht1 Hg Hq Ht H) as (new & Hn & Hev). rewrite Hp1 in Hev. rewrite Hsent in Hn.
      assert (Hdue : ns (trig (next_round t (Timer Waiting tr i))) = ns tr + (ms (period s) + d)).
      { unfold next_round. cbn [intv]. pose proof (i_period _ I) as [P1 P2].
        destruct (Z.eqb_spec i 0) as [Z0|_]; [lia|]. cbn [trig]. subst i.
        destruct (ts_add_ok t (period s)) as [T1 T2]; [exact He|lia| |].
        { assert (Hn' : tv_nsec t / 1000000 <= 999) by (unfold normalised in He; lia). unfold two32z. lia. }
        rewrite T1. unfold ms. lia. }
      exists (new ++ [now s]). split; [rewrite <- app_assoc; exact Hn|].
      rewrite app_length. cbn [length]. rewrite Nat.add_comm. cbn [plus every].
      rewrite map_app, rev_app_distr. cbn [map rev app]. rewrite Hev, Hdue, Hat. reflexivity.
Qed.
(** If updates take no time, they are sent exactly at the first time and every
    period after it; if each takes [d], the distance is the period and [d]. *)
Theorem C48_times_partial : forall d t p a s0 l0 s r l s',
  0 <= d -> normalised t -> good_period p -> good_anchor a -> Forall good_event (l0 ++ l) ->
  subscribe t p a = Done s0 -> run s0 l0 = Some (Done s) -> tm s = Some r ->
  Forall quiet l -> takes d s l -> run s l = Some (Done s') ->
  exists new, sent s' = new ++ sent s /\
    rev (map ns new) = every (ns (trig r)) (ms (period s) + d) (length new).
Proof.
  intros d t p a s0 l0 s r l s' Hd Ht Hp Ha Hl Hs H0 Hr Hq Htk H.
  apply Forall_app in Hl. destruct Hl as [Hl0 Hl].
  pose proof (reach t p a s0 l0 s Ht Hp Ha Hl0 Hs H0) as I. apply (times d s r l s'); assumption.
Qed.
Print Assumptions C48_times_partial.

(** Without an anchor the first update is due at once. *)
Theorem C48_first : forall t p s, subscribe t p None = Done s -> exists r, tm s = Some r /\ trig r = t.
Proof.
  intros t p s H. unfold subscribe, schedule, first_trigger in H. cbn [now tm anchor] in H.
  assert (s = St t p zero false (Some (Timer Starting t (interval_ms p))) false []) by congruence.
  subst s. eexists. split; reflexivity.
Qed.
Print Assumptions C48_first.

(** The first update is at a multiple of the period from the anchor (to the
    millisecond). *)
Definition anchored (s : st) (p : Z) (a : timespec) : Prop :=
  exists r k, tm s = Some r /\ 0 <= ns (trig r) - (ns a + k * ms p) < 1000000.

(** With an anchor in the past (up to 24.8 days) that is so just if twice the time since the
    anchor is a multiple of the period. *)
Theorem C48_anchor_partial : forall t p a s,
  normalised t -> normalised a -> good_period p -> ns a <= ns t -> (ns t - ns a) / 1000000 < 2147483648 ->
  subscribe t p (Some a) = Done s ->
  anchored s p a <-> (2 * ((ns t - ns a) / 1000000)) mod p = 0.
Proof.
  intros t p a s Ht Ha [Hp Hp'] Hle Hlim H. unfold subscribe, schedule, first_trigger in H. cbn [now tm anchor] in H.
  rewrite time_sub_ms_ok in H by assumption.
  destruct (Z.leb_spec (ns a) (ns t)) as [_|]; [|lia].
  set (d := (ns t - ns a) / 1000000) in *.
  assert (Hd0 : 0 <= d) by (unfold d; apply Z.div_pos; lia).
  destruct (Z.ltb_spec d 0) as [|_]; [lia|].
  destruct (Z.eqb_spec p 0) as [|_]; [lia|].
  assert (Hu : u32z d = d) by (unfold u32z, two32z; apply Z.mod_small; lia). rewrite Hu in H.
  assert (Hm : 0 <= d mod p < p) by (apply Z.mod_pos_bound; exact Hp).
  assert (Hu' : u32z (d mod p) = d mod p) by (unfold u32z, two32z; apply Z.mod_small; lia). rewrite Hu' in H.
  destruct (ts_add_ok t (d mod p)) as [E N]; [exact Ht|lia| |].
  { assert (Hn : tv_nsec t / 1000000 <= 999) by (unfold normalised in Ht; lia). unfold two32z. lia. }
  set (u := ts_add (Some t) (d mod p)) in *.
  assert (Hs : s = St t p a false (Some (Timer Starting u (interval_ms p))) false []) by congruence.
  assert (Hdiff : ns t - ns a = d * 1000000 + (ns t - ns a) mod 1000000).
  { unfold d. pose proof (Z.div_mod (ns t - ns a) 1000000). lia. }
  assert (Hr : 0 <= (ns t - ns a) mod 1000000 < 1000000) by (apply Z.mod_pos_bound; lia).
  set (x := (ns t - ns a) mod 1000000) in *. clearbody x.
  assert (H2 : (2 * d) mod p = (d + d mod p) mod p).
  { rewrite Z.add_mod_idemp_r by lia. f_equal. lia. }
  rewrite H2. unfold anchored. split.
  - intros (r & k & Hk & Hb). rewrite Hs in Hk. cbn [tm] in Hk. injection Hk as <-. cbn [trig] in Hb.
    rewrite E in Hb. unfold ms in Hb.
    assert (Heq : d + d mod p = k * p).
    { assert (0 <= (d + d mod p - k * p) * 1000000 + x < 1000000) by lia. lia. }
    rewrite Heq. apply Z.mod_mul. lia.
  - intro Hz. apply Z.mod_divide in Hz; [|lia]. destruct Hz as (k & Hk).
    exists (Timer Starting u (interval_ms p)), k. rewrite Hs. split; [reflexivity|]. cbn [trig].
    rewrite E. unfold ms. lia.
Qed.
Print Assumptions C48_anchor_partial.

(** Modified parameters are in force at once, whether the subscription is active
    or suspended. *)
Theorem C48_modified : forall t p0 a0 s0 l s p a s',
  normalised t -> good_period p0 -> good_anchor a0 -> Forall good_event l ->
  subscribe t p0 a0 = Done s0 -> run s0 l = Some (Done s) -> over s = false ->
  good_period p -> good_anchor a -> step s (Modify p a) = Some (Done s') ->
  period s' = p /\
  match a with Some a => tv_sec a <> 0 -> ns (anchor s') = ns a | None => tv_sec (anchor s') = 0 end.
Proof.
  intros t p0 a0 s0 l s p a s' Ht Hp0 Ha0 Hl Hs Hr O Hp Ha H.
  pose proof (reach t p0 a0 s0 l s Ht Hp0 Ha0 Hl Hs Hr) as I.
  cbn [step] in H. rewrite O in H. cbn [orb] in H.
  destruct (modified s p a) eqn:M; cbn [negb] in H.
  - destruct (schedule s p a); [|discriminate]. injection H as <-. cbn [period anchor].
    split; [reflexivity|]. destruct a; reflexivity.
  - assert (s' = s) by congruence. subst s'. unfold modified in M. apply orb_false_iff in M.
    destruct M as [M1 M2]. apply negb_false_iff, Z.eqb_eq in M1. split; [congruence|].
    destruct a as [a|].
    + intro Hz. apply orb_false_iff in M2. destruct M2 as [_ M2]. apply negb_false_iff in M2.
      unfold ts_same in M2. apply Z.eqb_eq in M2.
      rewrite time_cmp_ok in M2 by (try exact Ha; apply (i_anchor _ I)).
      apply Z.sgn_null_iff in M2. lia.
    + apply negb_false_iff, Z.eqb_eq in M2. exact M2.
Qed.
Print Assumptions C48_modified.

(** No parameters are modified while suspended. *)
Fixpoint calm (s : st) (l : list event) : Prop :=
  match l with
  | nil => True
  | e :: r =>
      match e with Modify _ _ => susp s = false | _ => True end /\
      match step s e with Some (Done s') => calm s' r | _ => True end
  end.

(** No update can be sent while the subscription is suspended.
    Missing: modifying a suspended subscription, refuted below. *)
Theorem C48_suspended_partial : forall t p a s l s',
  subscribe t p a = Done s -> calm s l -> run s l = Some (Done s') -> susp s' = true ->
  forall ok u, step s' (Fire ok u) = None.
Proof.
  intros t p a s l s' Hs Hc Hr Hsu ok u.
  assert (J0 : susp s = true -> tm s = None).
  { unfold subscribe in Hs. destruct (schedule _ p a); [|discriminate].
    assert (Hx : susp s = false) by (injection Hs as <-; reflexivity). congruence. }
  assert (J : susp s' = true -> tm s' = None).
  { clear Hs Hsu t p a. revert s J0 Hc Hr. induction l as [|e l IH]; intros s J0 Hc Hr; cbn [run] in Hr.
    - assert (s' = s) by congruence. subst s'. exact J0.
    - cbn [calm] in Hc. destruct Hc as [Hce Hc].
      destruct (step s e) as [[s1|]|] eqn:E; try discriminate.
      apply (IH s1); auto. clear IH Hc Hr.
      destruct e as [t| |ok' t| | | |p a]; cbn [step] in E.
      + destruct (later (now s) t); [|discriminate]. assert (s1 = with_now s t) by congruence. subst s1. exact J0.
      + destruct (tm s) as [[[] t i]|]; try discriminate. injection E as <-. unfold with_tm. cbn [susp tm].
        intro A. specialize (J0 A). discriminate.
      + destruct (tm s) as [[[] tr i]|]; try discriminate.
        destruct (later tr (now s) && later (now s) t); [|discriminate]. injection E as <-. cbn [susp tm].
        intro A. specialize (J0 A). discriminate.
      + destruct (over s || susp s); injection E as <-; [exact J0|reflexivity].
      + destruct (over s || negb (susp s)); [injection E as <-; exact J0|].
        destruct (schedule s (period s) (Some (anchor s))); [|discriminate]. injection E as <-.
        cbn [susp]. discriminate.
      + destruct (over s); injection E as <-; [exact J0|reflexivity].
      + destruct (over s || negb (modified s p a)); [injection E as <-; exact J0|].
        destruct (schedule s p a); [|discriminate]. injection E as <-. cbn [susp]. congruence. }
  cbn [step]. rewrite (J Hsu). reflexivity.
Qed.
Print Assumptions C48_suspended_partial.

(** And none after it was terminated, whatever happens. *)
Theorem C48_terminated : forall s l s',
  over s = true -> tm s = None -> run s l = Some (Done s') ->
  over s' = true /\ tm s' = None /\ sent s' = sent s.
Proof.
  intros s l. revert s. induction l as [|e l IH]; intros s s' O T H; cbn [run] in H.
  - assert (s' = s) by congruence. subst s'. auto.
  - destruct (step s e) as [[s1|]|] eqn:E; try discriminate.
    assert (Hs1 : over s1 = true /\ tm s1 = None /\ sent s1 = sent s).
    { destruct e as [t| |ok t| | | |p a]; cbn [step] in E.
      - destruct (later (now s) t); [|discriminate]. assert (s1 = with_now s t) by congruence. subst s1. auto.
      - rewrite T in E. discriminate.
      - rewrite T in E. discriminate.
      - rewrite O in E. cbn [orb] in E. assert (s1 = s) by congruence. subst s1. auto.
      - rewrite O in E. cbn [orb] in E. assert (s1 = s) by congruence. subst s1. auto.
      - rewrite O in E. assert (s1 = s) by congruence. subst s1. auto.
      - rewrite O in E. cbn [orb] in E. assert (s1 = s) by congruence. subst s1. auto. }
    destruct Hs1 as (A & B & C). destruct (IH s1 s' A B H) as (A' & B' & C'). rewrite C in C'. auto.
Qed.
Print Assumptions C48_terminated.

Theorem C48_terminate : forall s, over s = false ->
  exists s', step s Terminate = Some (Done s') /\ over s' = true /\ tm s' = None /\ sent s' = sent s.
Proof. intros s O. cbn [step]. rewrite O. eexists. split; [reflexivity|]. auto. Qed.
Print Assumptions C48_terminate.

(** ** Concrete cases *)

Definition at_ms (n : Z) : timespec := {| tv_sec := n / 1000; tv_nsec := n mod 1000 * 1000000 |}.

(** A period of 3 s from time 100 s: three updates, suspended and resumed. *)
Definition h0 : list event :=
  [Begin; Fire true (at_ms 100000); Clock (at_ms 103000); Fire true (at_ms 103000);
   Clock (at_ms 106000); Fire true (at_ms 106000); Suspend; Clock (at_ms 107000); Resume; Begin].

Example C48_case :
  match subscribe (at_ms 100000) 3000 None with
  | Done s => match run s h0 with
              | Some (Done s') => map ns (sent s') = [106000000000; 103000000000; 100000000000] /\ tm s' <> None
              | _ => False
              end
  | DivZero => False
  end /\ Forall good_event h0 /\ good_period 3000 /\ normalised (at_ms 100000).
Proof.
  split; [vm_compute; split; [reflexivity|discriminate]|].
  split; [unfold h0; repeat constructor; unfold normalised; cbn; lia|].
  split; [split; reflexivity|]. unfold normalised; cbn; lia.
Qed.

(** F130: with an anchor in the past the remainder since the anchor is added to
    the present time instead of being subtracted from the period, and with one
    in the future (the difference is then -1) the first update comes in 1 ms:
    updates are not at multiples of the period from the anchor
    (src/utils/sn_yang_push.c 127-135, src/common.c 1412-1416). *)
Theorem C48_anchor_refuted :
  ~ (forall t p a s, normalised t -> normalised a -> good_period p ->
       ns a <= ns t -> subscribe t p (Some a) = Done s -> anchored s p a) /\
  ~ (forall t p a s, normalised t -> normalised a -> good_period p ->
       ns t <= ns a -> subscribe t p (Some a) = Done s -> anchored s p a).
Proof.
  split; intro H.
  - assert (E : subscribe (at_ms 101000) 3000 (Some (at_ms 100000)) =
                Done (St (at_ms 101000) 3000 (at_ms 100000) false (Some (Timer Starting (at_ms 102000) 3000)) false []))
      by (vm_compute; reflexivity).
    destruct (H (at_ms 101000) 3000 (at_ms 100000) _ ltac:(unfold normalised; cbn; lia) ltac:(unfold normalised; cbn; lia)
                ltac:(split; reflexivity) ltac:(vm_compute; discriminate) E) as (r & k & Hr & Hb).
    cbn [tm] in Hr. injection Hr as <-. cbn [trig] in Hb.
    change (ns (at_ms 102000)) with 102000000000 in Hb. change (ns (at_ms 100000)) with 100000000000 in Hb.
    unfold ms in Hb. lia.
  - assert (E : subscribe (at_ms 100000) 3000 (Some (at_ms 101000)) =
                Done (St (at_ms 100000) 3000 (at_ms 101000) false (Some (Timer Starting (at_ms 100001) 3000)) false []))
      by (vm_compute; reflexivity).
    destruct (H (at_ms 100000) 3000 (at_ms 101000) _ ltac:(unfold normalised; cbn; lia) ltac:(unfold normalised; cbn; lia)
                ltac:(split; reflexivity) ltac:(vm_compute; discriminate) E) as (r & k & Hr & Hb).
    cbn [tm] in Hr. injection Hr as <-. cbn [trig] in Hb.
    change (ns (at_ms 100001)) with 100001000000 in Hb. change (ns (at_ms 101000)) with 101000000000 in Hb.
    unfold ms in Hb. lia.
Qed.
Print Assumptions C48_anchor_refuted.

(** F131: a period of zero is not refused; with an anchor it is a division by
    zero (src/utils/sn_yang_push.c 133; no check in
    src/utils/subscribed_notifications.c 271-290, 460-471). *)
Theorem C48_zero_refuted :
  ~ (forall t p a, normalised t -> normalised a -> 0 <= p -> subscribe t p (Some a) <> DivZero).
Proof.
  intro H. apply (H (at_ms 101000) 0 (at_ms 100000)); try (unfold normalised; cbn; lia); try lia.
  vm_compute. reflexivity.
Qed.
Print Assumptions C48_zero_refuted.

(** F132: without an anchor a period of zero sends one update, then the thread of
    the timer ends with its ID still set; a valid period set later has no
    effect, there is no update ever again (src/utils/sn_common.c 1209-1227,
    src/utils/sn_yang_push.c 141-149). *)
Theorem C48_ended_refuted :
  ~ (forall t p s l s', normalised t -> 0 <= p -> subscribe t p None = Done s ->
       run s l = Some (Done s') -> good_period (period s') ->
       over s' = false -> susp s' = false -> due s').
Proof.
  intro H.
  destruct (H (at_ms 100000) 0 _ [Begin; Fire true (at_ms 100000); Modify 3000 None] _
              ltac:(unfold normalised; cbn; lia) ltac:(lia) eq_refl eq_refl) as (r & Hr & Hth & _);
    try reflexivity.
  - split; reflexivity.
  - vm_compute in Hr. injection Hr as <-. apply Hth. reflexivity.
Qed.
Print Assumptions C48_ended_refuted.

(** F133: the next update is scheduled a period after the end of the previous
    one, not after its time: if making an update takes 1 ms, updates drift from
    multiples of the period by 1 ms each (src/utils/sn_common.c 1208-1217). *)
Theorem C48_drift_refuted :
  ~ (forall t p s r l s', normalised t -> good_period p -> subscribe t p None = Done s -> tm s = Some r ->
       Forall good_event l -> Forall quiet l -> takes 1000000 s l -> run s l = Some (Done s') ->
       rev (map ns (sent s')) = every (ns (trig r)) (ms p) (length (sent s'))).
Proof.
  intro H.
  assert (Hs : subscribe (at_ms 100000) 3000 None =
               Done (St (at_ms 100000) 3000 zero false (Some (Timer Starting (at_ms 100000) 3000)) false []))
    by (vm_compute; reflexivity).
  set (l := [Begin; Fire true (at_ms 100001); Clock (at_ms 103001); Fire true (at_ms 103002)]).
  assert (Hr : exists s', run (St (at_ms 100000) 3000 zero false (Some (Timer Starting (at_ms 100000) 3000)) false []) l
                          = Some (Done s') /\ map ns (sent s') = [103001000000; 100000000000])
    by (eexists; split; vm_compute; reflexivity).
  destruct Hr as (s' & Hr & Hn).
  assert (Ht : takes 1000000 (St (at_ms 100000) 3000 zero false (Some (Timer Starting (at_ms 100000) 3000)) false []) l).
  { vm_compute. do 3 (split; [try exact Logic.I; try (do 2 (split; [reflexivity|]); intros r E; injection E as <-; reflexivity)|]).
    split; [|exact Logic.I]. do 2 (split; [reflexivity|]). intros r E; injection E as <-; reflexivity. }
  specialize (H (at_ms 100000) 3000 _ _ l s' ltac:(unfold normalised, at_ms; cbn; lia) ltac:(split; reflexivity) Hs eq_refl
                ltac:(repeat constructor; unfold normalised; cbn; lia) ltac:(repeat constructor) Ht Hr).
  rewrite Hn in H. destruct (sent s') as [|a [|b [|c r]]]; try discriminate Hn.
  vm_compute in H. discriminate H.
Qed.
Print Assumptions C48_drift_refuted.

(** F134: modifying the period of a suspended subscription creates the timer:
    updates are sent although it is suspended, and suspending it again has no
    effect (src/utils/sn_yang_push.c 782-787, 141-145;
    src/utils/subscribed_notifications.c 538-541). *)
Theorem C48_suspended_refuted :
  ~ (forall t p a s l s', normalised t -> good_period p -> good_anchor a -> Forall good_event l ->
       subscribe t p a = Done s -> run s l = Some (Done s') -> susp s' = true ->
       forall ok u, step s' (Fire ok u) = None).
Proof.
  intro H.
  specialize (H (at_ms 100000) 3000 None _ [Begin; Suspend; Modify 4000 None; Begin; Suspend] _
                ltac:(unfold normalised; cbn; lia) ltac:(split; reflexivity) Logic.I
                ltac:(repeat constructor) eq_refl eq_refl eq_refl true (at_ms 100000)).
  vm_compute in H. discriminate H.
Qed.
Print Assumptions C48_suspended_refuted.

(** F135: resuming a subscription without an anchor passes the zeros that stand for
    no anchor as one: the update that comes at once after subscribing and
    modifying comes up to a period later (src/utils/subscribed_notifications.c 619). *)
Theorem C48_resume_refuted :
  ~ (forall t p s l s', normalised t -> good_period p -> Forall good_event l ->
       subscribe t p None = Done s -> run s (l ++ [Resume]) = Some (Done s') ->
       (forall e, In e l -> match e with Modify _ _ | Resume => False | _ => True end) -> In Suspend l ->
       over s' = false -> exists r, tm s' = Some r /\ ns (trig r) = ns (now s')).
Proof.
  intro H.
  destruct (H (at_ms 100000) 3000 _ [Suspend] _ ltac:(unfold normalised; cbn; lia) ltac:(split; reflexivity)
              ltac:(repeat constructor) eq_refl eq_refl) as (r & Hr & Hn).
  - intros e [<- | []]. exact Logic.I.
  - left. reflexivity.
  - reflexivity.
  - vm_compute in Hr. injection Hr as <-. vm_compute in Hn. discriminate Hn.
Qed.
Print Assumptions C48_resume_refuted.

(** F136: a timer stopped before its thread waits loses the signal: the thread
    waits for the trigger and whoever suspends or terminates the subscription
    waits for the thread, up to a period (for the timer of the stop time until the
    stop time), with the lock of all subscriptions in srsn_terminate()
    (src/utils/sn_common.c 1183-1198, 1289-1301). *)
Theorem C48_prompt_refuted :
  ~ (forall t p a s l s' s'', normalised t -> good_period p -> good_anchor a -> Forall good_event l ->
       subscribe t p a = Done s -> run s l = Some (Done s') -> step s' Terminate = Some (Done s'') ->
       ns (now s'') = ns (now s')).
Proof.
  intro H.
  specialize (H (at_ms 102000) 3000 (Some (at_ms 100000)) _ [] _ _
                ltac:(unfold normalised; cbn; lia) ltac:(split; reflexivity) ltac:(unfold good_anchor, normalised; cbn; lia)
                ltac:(repeat constructor) eq_refl eq_refl eq_refl).
  vm_compute in H. discriminate H.
Qed.
Print Assumptions C48_prompt_refuted.
