(** C65: Operational data of a session are what its calls made of them. *)
From Coq Require Import List Bool Arith Lia Permutation.
From Verif Require Import OperItems OperItemsSpec OperItemsProofs.
Import ListNotations.

Section P.
Variable mod_of : nat -> nat.
Variable refs sel : nat -> nat -> bool.
Variable mods : list nat.
Notation do_call := (do_call mod_of refs sel mods).
Notation run := (run mod_of refs sel mods).

(** Any calls on a new session: each has exactly its effect on what is pending, applying makes this the
    stored data, refused changes and discarded changes leave them as they were. *)
Theorem C65_history : forall cs, (forall t, In (mod_of t) mods) -> safe_run mod_of refs sel mods cs (mksess (mkdata [] []) None) ->
  exists s rs, run cs (mksess (mkdata [] []) None) = (s, rs) /\ history cs (empty, empty) (vs (s_stored s), vp s) rs.
Proof.
  intros cs A F.
  assert (good refs sel mods (mksess (mkdata [] []) None)) as G.
  { constructor; cbn [s_stored s_pend d_nodes d_disc]; [|constructor|intros e X; discriminate|intros e X; discriminate]. intros p H. destruct (H eq_refl). }
  change (empty, empty) with (vs (s_stored (mksess (mkdata [] []) None)), vp (mksess (mkdata [] []) None)).
  revert F G. generalize (mksess (mkdata [] []) None). induction cs as [|c cs IH]; intros s F G.
  - exists s, []. split; [reflexivity|constructor].
  - cbn [safe_run] in F. destruct F as [F1 F2]. destruct (step mod_of refs sel mods A c s G F1) as (s1 & r & E & G1 & H). rewrite E in F2. cbn [fst] in F2.
    destruct (IH s1 F2 G1) as (s2 & rs & E2 & H2). exists s2, (r :: rs). cbn [OperItems.run]. rewrite E, E2. split; [reflexivity|]. econstructor; eauto.
Qed.

(** In any state, only applying changes what is stored, and only if it succeeds. *)
Theorem C65_stored : forall c s, s_stored (fst (do_call c s)) <> s_stored s -> c = CApply false /\ snd (do_call c s) = ROkay.
Proof.
  intros c s H.
  assert (forall f g, s_stored (fst (with_edit s f g)) = s_stored s) as W.
  { intros f g. unfold with_edit. destruct (s_pend s) as [e|]; [destruct (g e); reflexivity|]. destruct f; [reflexivity|]. destruct (g (load (s_stored s))); reflexivity. }
  destruct c as [p v f|p st f|x f|ns disc o| |refuse]; cbn [OperItems.do_call] in *; try (rewrite W in H; congruence).
  - destruct (s_pend s); cbn in H; congruence.
  - cbn in H. congruence.
  - destruct (s_pend s) as [e|]; [|cbn in H; congruence]. destruct (apply_all mod_of refs sel mods e (s_stored s)); [|cbn in H; congruence..].
    destruct refuse; [cbn in H; congruence|auto].
Qed.

(** Failed and refused changes stay pending and can be applied again or discarded. *)
Theorem C65_kept : forall rf s, snd (do_call (CApply rf) s) <> ROkay -> fst (do_call (CApply rf) s) = s.
Proof.
  intros rf s H. cbn [OperItems.do_call] in *. destruct (s_pend s) as [e|]; [|reflexivity]. destruct (apply_all mod_of refs sel mods e (s_stored s)); [|reflexivity..].
  destruct rf; [reflexivity|]. destruct (H eq_refl).
Qed.

(** A batch is refused when something is pending, and changes nothing. *)
Theorem C65_busy : forall ns disc o s, s_pend s <> None -> do_call (CBatch ns disc o) s = (s, RFailed).
Proof. intros ns disc o s H. cbn [OperItems.do_call]. destruct (s_pend s); [reflexivity|congruence]. Qed.
End P.
Print Assumptions C65_history.
Print Assumptions C65_stored.
Print Assumptions C65_kept.
Print Assumptions C65_busy.

(** ** An example *)
(** Top-level nodes below 3 are of module 0, the others of module 1; XPath 7 is of module 0, XPath 8 of both, XPath 9
    selects nodes of module 0 without its prefix. *)
Definition ymod (t : nat) : nat := if Nat.ltb t 3 then 0 else 1.
Definition yrefs (x m : nat) : bool := match x, m with 7, 0 | 8, 0 | 8, 1 => true | _, _ => false end.
Definition ysel (x m : nat) : bool := match x, m with 7, 0 | 8, 0 | 9, 0 => true | _, _ => false end.
Definition new := mksess (mkdata [] []) None.
Definition ycalls := [CSet [1; 4] 5 false; CSet [3] 6 false; CDiscardItems 7 false; CApply true; CApply false; CDelete [1; 4] false false; CDelete [2] true false;
  CSet [2; 5] 9 false; CApply false; CSet [1] 0 false; CDelete [2] false false; CDiscardItems 8 false; CDiscardChanges; CApply false;
  CDiscardItems 8 false; CDiscardItems 7 false; CApply false; CBatch [([1], 0); ([1; 6], 2); ([3], 7)] [7] OReplace; CApply false].

Example C65_nonvacuous : (forall t, In (ymod t) [0; 1]) /\ safe_run ymod yrefs ysel [0; 1] ycalls new /\
  run ymod yrefs ysel [0; 1] ycalls new =
    (mksess (mkdata [([1], 0); ([1; 6], 2); ([3], 7)] [7]) None,
     [ROkay; ROkay; ROkay; RFailed; ROkay; ROkay; RNotFound; ROkay; ROkay; ROkay; ROkay; ROkay; ROkay; ROkay; ROkay; ROkay; ROkay; ROkay; ROkay]).
Proof.
  split; [intros t; unfold ymod; destruct (Nat.ltb t 3); cbn; auto|]. split; [|vm_compute; reflexivity].
  assert (okx yrefs ysel [0; 1] 7 /\ okx yrefs ysel [0; 1] 8) as [O7 O8].
  { split; (split; [exists 0; split; [left; reflexivity|reflexivity]|intros [|[|m]] H; [reflexivity|discriminate H|discriminate H]]). }
  assert (forall rf s, v_val (vp s) [1] <> None /\ v_val (vp s) [3] <> None -> safe ymod yrefs ysel [0; 1] (CApply rf) s) as Ya.
  { intros rf s [H1 H3]. assert (forall m, m = 0 \/ m = 1 -> remains ymod yrefs m (vp s)) as K.
    { intros m [-> | ->]; left; [exists 1, []|exists 3, []]; auto. }
    split; [intros t r _; apply K; unfold ymod; destruct (Nat.ltb t 3); auto|]. intros x m _ S. apply K. left. destruct m as [|m]; [reflexivity|].
    unfold ysel in S. do 10 (destruct x as [|x]; [discriminate|]). discriminate. }
  assert (forall s, s_pend s = None -> safe ymod yrefs ysel [0; 1] (CBatch [([1], 0); ([1; 6], 2); ([3], 7)] [7] OReplace) s) as Yb.
  { intros s P. split; [exact P|]. split; [reflexivity|]. split; [|split; [|split; [repeat constructor; apply O7|left; discriminate]]].
    - intros p H. destruct (find_node p _) as [k|] eqn:E; [|congruence]. apply find_some in E.
      assert (p <> []) as N by (destruct E as [E|[E|[E|[]]]]; injection E as <- _; discriminate). split; [exact N|].
      intros q (Nq & r & Nr & ->). destruct q as [|a q]; [congruence|].
      destruct E as [E|[E|[E|[]]]]; injection E as <- E _; destruct q as [|b q]; try (vm_compute; discriminate); try (destruct r; [congruence|discriminate]).
      injection E as <- E. destruct q; [|discriminate]. destruct r; [congruence|discriminate].
    - cbn. repeat constructor; cbn; intuition discriminate. }
  unfold ycalls. cbn [safe_run]. 
  repeat (match goal with
    | |- safe _ _ _ _ _ _ /\ _ => split
    | |- True => exact Logic.I
    | |- safe _ _ _ _ (CSet _ _ _) _ => split; [discriminate|reflexivity]
    | |- safe _ _ _ _ (CDiscardItems 7 _) _ => split; [reflexivity|exact O7]
    | |- safe _ _ _ _ (CDiscardItems 8 _) _ => split; [reflexivity|exact O8]
    | |- safe _ _ _ _ (CDelete _ _ _) _ => split; [reflexivity|intros _; left; exists [3]; split; [vm_compute; discriminate|reflexivity]]
    | |- safe _ _ _ _ CDiscardChanges _ => exact Logic.I
    | |- safe _ _ _ _ (CBatch _ _ _) _ => apply Yb; vm_compute; reflexivity
    | |- safe _ _ _ _ (CApply _) _ => apply Ya; split; vm_compute; discriminate
    end).
Qed.

(** F222: deleting the last of the operational data of a session is lost: nothing is pending afterwards, applying
    succeeds and the data stay; they are also back in the next change. *)
Theorem C65_last_refuted :
  run ymod yrefs ysel [0; 1] [CSet [1] 5 false; CApply false; CDelete [1] true false; CApply false] new =
    (mksess (mkdata [([1], 5)] []) None, [ROkay; ROkay; ROkay; ROkay]) /\
  run ymod yrefs ysel [0; 1] [CSet [1] 5 false; CApply false; CDelete [1] true false; CSet [2] 6 false; CApply false] new =
    (mksess (mkdata [([1], 5); ([2], 6)] []) None, [ROkay; ROkay; ROkay; ROkay; ROkay]).
Proof. split; vm_compute; reflexivity. Qed.

(** F223: deleting all operational data of one of the modules a session has data of fails an assert when it
    is applied (they are deleted if there are no asserts). *)
Theorem C65_module_refuted : exists s, 
  run ymod yrefs ysel [0; 1] [CSet [1] 5 false; CSet [3] 6 false; CApply false; CDelete [1] true false; CApply false] new =
    (s, [ROkay; ROkay; ROkay; ROkay; RCrash]).
Proof. eexists. vm_compute. reflexivity. Qed.

(** F224: an error of loading the stored data is not returned: setting, deleting and discarding of operational items then
    succeed without doing anything. *)
Theorem C65_load_refuted : run ymod yrefs ysel [0; 1] [CSet [1] 5 true; CApply false] new = (new, [ROkay; ROkay]).
Proof. vm_compute. reflexivity. Qed.

(** F225: XPaths of discarded items are stored in the opposite order, though what they select may depend
    on those before. *)
Theorem C65_order_refuted : 
  run ymod yrefs ysel [0; 1] [CDiscardItems 7 false; CDiscardItems 8 false; CApply false] new = (mksess (mkdata [] [8; 7]) None, [ROkay; ROkay; ROkay]).
Proof. vm_compute. reflexivity. Qed.

(** F226: an item set after a batch that merges data cannot be applied, even if it is of another module. *)
Theorem C65_batch_refuted : exists s, 
  run ymod yrefs ysel [0; 1] [CBatch [([1], 5)] [] OMerge; CSet [3] 6 false; CApply false] new = (s, [ROkay; ROkay; RFailed]).
Proof. eexists. vm_compute. reflexivity. Qed.

(** F227: discarding of an XPath without prefixes of the modules it selects fails an assert when it is applied. *)
Theorem C65_xpath_refuted : exists s, run ymod yrefs ysel [0; 1] [CDiscardItems 9 false; CApply false] new = (s, [ROkay; RCrash]).
Proof. eexists. vm_compute. reflexivity. Qed.
