(** * C53: every connection works with the modules that are installed, and the
    content id tells sets of modules apart *)

From Coq Require Import List Arith Bool Lia.
Import ListNotations.
From Verif Require Import Context ContextSpec ContextProofs.

(** In orderly histories a connection that uses the API has exactly the
    installed modules, with their revisions and features, in its context.
    Missing (see the refutations): other restarts, installations that overlap
    with other changes or that do not list the enabled features. *)
Theorem C53_context_partial s0 b st c k :
  reach s0 b st -> s_conns (step st (EUse c)) c = Some k -> c_ctx k = s_lyd st.
Proof.
  intros R H. apply reach_inv in R. destruct R as (A & B & _ & E). cbn [step] in H.
  destruct (s_conns st c) as [k0|] eqn:Ek; [|congruence].
  cbn [s_conns] in H. rewrite put_same in H.
  assert (k = lock st k0) by congruence. subst k.
  apply (lock_current st k0 A B). apply (E c). exact Ek.
Qed.

(** The content id is the same exactly if the installed modules are. *)
Theorem C53_content_id_partial s1 b1 st1 s2 b2 st2 :
  reach s1 b1 st1 -> reach s2 b2 st2 -> (s_cid st1 = s_cid st2 <-> s_lyd st1 = s_lyd st2).
Proof.
  intros R1 R2. apply reach_inv in R1, R2.
  destruct R1 as (_ & B1 & _), R2 as (_ & B2 & _). rewrite B1, B2. reflexivity.
Qed.

(** Starting anew keeps modules and content id. *)
Theorem C53_restart_partial s0 st :
  reach s0 true st ->
  s_lyd (step st ERestart) = s_lyd st /\ s_cid (step st ERestart) = s_cid st /\
  s_shm (step st ERestart) = s_shm st.
Proof.
  intros R. apply reach_inv in R. destruct R as (A & B & D & _). cbn [step s_lyd s_cid s_shm].
  rewrite (D eq_refl). auto.
Qed.

(** Installing an installed module with a list of features enables exactly
    those of them the module defines, and disables none, as far as the
    registry, and so every other connection, is concerned. *)
Theorem C53_enable_partial s0 b st c q l n f :
  reach s0 b st -> connected c st ->
  (exists m, In m (s_lyd st) /\ m_name m = q_name q) -> q_want q = Names l ->
  (enabled n f (s_lyd (step (step st (EBegin c)) (EInstall c [q]))) <->
   enabled n f (s_lyd st) \/ (n = q_name q /\ defines n f (s_lyd st) /\ In f l)).
Proof.
  intros R K Hi W. apply reach_inv in R. destruct R as (A & B & _ & E). unfold connected in K.
  apply has_In in Hi.
  assert (X : s_lyd (step (step st (EBegin c)) (EInstall c [q])) = apply1 reg_feats (s_lyd st) q).
  { cbn [step]. destruct (s_conns st c) as [k|] eqn:Ek; [|congruence].
    cbn [s_conns s_lyd s_lid s_shm s_cid]. rewrite put_same. cbn [c_new c_ctx c_id].
    rewrite A, forallb_self. unfold apply_reg. cbn [fold_left].
    destruct (mset_eqb (apply1 reg_feats (s_lyd st) q) (s_lyd st)) eqn:Q; [|reflexivity].
    apply mset_eqb_eq in Q. now rewrite Q. }
  rewrite X. destruct (Nat.eq_dec n (q_name q)) as [-> | D].
  - rewrite (apply1_enabled (s_lyd st) q l f Hi W). tauto.
  - rewrite (apply1_enabled_other (s_lyd st) q n f D). tauto.
Qed.

(** ** Examples and refutations *)

Definition mA (a b : bool) : module := M 1 1 [(10, a); (11, b)].
Definition mB : module := M 2 1 [].
Definition rB : request := Rq 2 1 [] (Names []).

(** An orderly history: a module is installed by one connection, then another
    one disables a feature; the first one notices. *)
Example C53_not_vacuous :
  exists st, reach [mA true false] false st /\ s_lyd st = [mA false false; mB] /\
    (exists k, s_conns st 0 = Some k /\ c_ctx k = [mA true false; mB]) /\
    (exists k, s_conns (step st (EUse 0)) 0 = Some k /\ c_ctx k = [mA false false; mB]).
Proof.
  set (st0 := start [mA true false]).
  set (st1 := step (step st0 (EConnect 0)) (EConnect 1)).
  set (st2 := step (step st1 (EBegin 0)) (EInstall 0 [rB])).
  exists (step st2 (EFeature 1 1 10 false)).
  assert (R1 : reach [mA true false] true st1).
  { apply reach_plain; [|exact Logic.I]. apply reach_plain; [|exact Logic.I]. apply reach_start. }
  assert (R2 : reach [mA true false] true st2).
  { apply reach_install; [exact R1 | unfold connected; cbn; discriminate | |].
    - cbn. constructor; [intros [] | constructor].
    - intros q [<- | []] f (m & I & Eq & _). cbn in I. destruct I as [<- | []]. discriminate. }
  split; [|split; [reflexivity|split; eexists; split; reflexivity]].
  apply (reach_modify _ true st2 1); [exact R2 | unfold connected; cbn; discriminate | reflexivity].
Qed.

(** F156: removing or updating modules and changing features writes the content
    id of the modules before the change into the registry file (the tree is
    parsed with the old context).  The next start of sysrepo takes it over: the
    content id is then that of another set of modules. *)
Theorem C53_restart_refuted :
  exists s0 es, let st := run es (start s0) in
    s_lyd st <> s0 /\ s_cid st = s_cid (start s0) /\
    s_cid (run [EConnect 0; EFeature 0 1 10 true] (start s0)) <> s_cid st /\
    s_lyd (run [EConnect 0; EFeature 0 1 10 true] (start s0)) = s_lyd st.
Proof.
  exists [mA false false], [EConnect 0; EFeature 0 1 10 true; ERestart].
  vm_compute. repeat split; discriminate.
Qed.

(** F157: after such a start, undoing the change gives the content id the other
    connections have already: they keep a context with the feature enabled
    although it is disabled, however often they use the API. *)
Theorem C53_stale_refuted :
  exists s0 es, let st := run es (start s0) in
    forall n, exists k, s_conns (run (repeat (EUse 1) n) st) 1 = Some k /\ c_ctx k <> s_lyd st.
Proof.
  exists [mA false false],
    [EConnect 0; EFeature 0 1 10 true; ERestart; EConnect 0; EConnect 1; EFeature 0 1 10 false].
  set (st0 := run _ _). cbv zeta. intros n.
  assert (H : forall n st, s_lyd st = s_lyd st0 -> s_cid st = s_cid st0 ->
              s_conns st 1 = s_conns st0 1 -> s_conns (run (repeat (EUse 1) n) st) 1 = s_conns st0 1).
  { clear n. induction n as [|n IH]; intros st L Cd Cn; [exact Cn|].
    cbn [repeat run fold_left]. apply IH; cbn [step]; rewrite Cn; cbn [s_lyd s_cid s_conns];
      try assumption.
    replace (s_conns st0 1) with (Some (C [mA true false] [mA false false] None)) by reflexivity.
    cbn [s_conns]. rewrite put_same. unfold lock. rewrite Cd. reflexivity. }
  rewrite (H n st0 eq_refl eq_refl eq_refl).
  exists (C [mA true false] [mA false false] None). split; [reflexivity | vm_compute; discriminate].
Qed.

(** F158: an installation loads the current modules before it takes the context
    lock.  If a feature is enabled by another connection in between, the
    installation succeeds but its connection goes on without the feature. *)
Theorem C53_install_race_refuted :
  exists s0 es k, let st := run es (start s0) in
    enabled 1 10 (s_lyd st) /\ s_conns (step st (EUse 0)) 0 = Some k /\ ~ enabled 1 10 (c_ctx k).
Proof.
  exists [mA false false],
    [EConnect 0; EConnect 1; EBegin 0; EFeature 1 1 10 true; EInstall 0 [rB]].
  eexists. cbv zeta. split; [|split; [reflexivity|]].
  - exists (mA true false). vm_compute. auto.
  - intros (m & I & Eq & J). vm_compute in I. destruct I as [<- | [<- | []]].
    + vm_compute in J. destruct J as [J | [J | []]]; discriminate.
    + discriminate.
Qed.

(** F159: enabling a further feature by installing an installed module stores
    NULL for the features enabled already into the array of features to enable.
    The connection goes on with a context in which neither the features enabled
    before nor the new one are enabled. *)
Theorem C53_feature_array_refuted :
  exists s0 es k, let st := run es (start s0) in
    enabled 1 10 (s_lyd st) /\ enabled 1 11 (s_lyd st) /\
    s_conns (step st (EUse 0)) 0 = Some k /\
    ~ enabled 1 10 (c_ctx k) /\ ~ enabled 1 11 (c_ctx k).
Proof.
  exists [mA true false],
    [EConnect 0; EBegin 0; EInstall 0 [Rq 1 1 [10; 11] (Names [11])]].
  eexists. cbv zeta. split; [|split; [|split; [reflexivity|split]]].
  - exists (mA true true). vm_compute. auto.
  - exists (mA true true). vm_compute. auto.
  - intros (m & I & Eq & J). vm_compute in I. destruct I as [<- | []].
    vm_compute in J. destruct J as [J | [J | []]]; discriminate.
  - intros (m & I & Eq & J). vm_compute in I. destruct I as [<- | []].
    vm_compute in J. destruct J as [J | [J | []]]; discriminate.
Qed.

(** F160: installing an installed module with the features "*" succeeds without
    enabling any feature: "*" is compared with the names of the features. *)
Theorem C53_star_refuted :
  exists s0 es, let st := run es (start s0) in
    es = [EConnect 0; EBegin 0; EInstall 0 [Rq 1 1 [10; 11] Star]] /\
    defines 1 10 s0 /\ ~ enabled 1 10 (s_lyd st) /\ s_conns st 0 <> None.
Proof.
  exists [mA false false], [EConnect 0; EBegin 0; EInstall 0 [Rq 1 1 [10; 11] Star]].
  cbv zeta. split; [reflexivity|]. split; [|split].
  - exists (mA false false), false. vm_compute. auto.
  - intros (m & I & Eq & J). vm_compute in I. destruct I as [<- | []].
    vm_compute in J. destruct J as [J | [J | []]]; discriminate.
  - vm_compute. discriminate.
Qed.

(** F161: if a module is removed by another connection between the loading of
    the modules and the context lock of an installation, the installing process
    ends (failed assertion, or NULL is dereferenced) after the registry was
    written: the new module is in the registry, and others do not see it. *)
Theorem C53_install_crash_refuted :
  exists s0 es, let st := run es (start s0) in
    s_conns (run (removelast es) (start s0)) 0 <> None /\ s_conns st 0 = None /\
    exists k, s_conns (step st (EUse 1)) 1 = Some k /\ c_ctx k <> s_lyd st.
Proof.
  exists [mA false false; M 3 1 []],
    [EConnect 0; EConnect 1; EBegin 0; ERemove 1 [3]; EInstall 0 [rB]].
  cbv zeta. split; [vm_compute; discriminate|]. split; [reflexivity|].
  eexists. split; [reflexivity | vm_compute; discriminate].
Qed.

Print Assumptions C53_context_partial.
Print Assumptions C53_content_id_partial.
Print Assumptions C53_restart_partial.
Print Assumptions C53_enable_partial.
Print Assumptions C53_restart_refuted.
Print Assumptions C53_stale_refuted.
Print Assumptions C53_install_race_refuted.
Print Assumptions C53_feature_array_refuted.
Print Assumptions C53_star_refuted.
Print Assumptions C53_install_crash_refuted.
