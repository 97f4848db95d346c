(** The loop over changes, dampening, and histories of a subscription. *)
From Coq Require Import List Bool Arith NArith Lia Sorted Permutation.
From Verif Require Import Edit EditSpec EditProofs EditOps EditSem EditMain EditDiff ChangeIter ChangeIterSpec ChangeIterProofs ChangeIterPlay ChangeIterShape ChangeIterEn YangPush YangPushSpec YangPushProofs YangPushFollow YangPushShape.
Import ListNotations.

Section P.
Variable kd : nat -> kind.
Variable nk : nat -> nat.
Variable kv : nat -> nat -> nat -> nat.
Variable odd : nat -> bool.
Notation loop_step := (loop_step kd odd).
Notation on_change := (on_change kd odd).
Notation step := (step kd odd).
Notation run := (run kd odd).
Notation ed := (ed kd).
Notation apply_edit := (apply_edit kd nk kv false).
Notation apply_edits := (apply_edits kd nk kv false).
Notation apply_patches := (apply_patches kd nk kv false).
Notation copy_of := (copy_of kd nk kv false).

Definition cloc (x : op * ent * chg) : loc := e_loc (snd (fst x)).
Lemma ed_tgt : forall x, y_tgt (ed x) = cloc x.
Proof. intros [[o e] c]. reflexivity. Qed.
Lemma ed_noid : forall n x, noid (edit_of n (op_sr2yp kd (fst (fst x)) (e_node (snd (fst x)))) x) = ed x.
Proof. intros n [[o e] c]. reflexivity. Qed.
Lemma keep_in : forall cs la x, In x (fst (keep la cs)) -> In x cs.
Proof.
  induction cs as [|[[o e] c] t IH]; intros la x H; [exact H|]. cbn [keep] in H. destruct (nested la o (e_loc e)); [right; apply (IH _ _ H)|]. cbn [fst] in H. destruct H as [H|H]; [left; exact H|right; apply (IH _ _ H)].
Qed.
Lemma filter_none : forall es l, ~ In l (map y_tgt es) -> filter (fun e => negb (loc_eqb (y_tgt e) l)) es = es.
Proof.
  induction es as [|e t IH]; intros l H; [reflexivity|]. cbn [map] in H. cbn [filter]. destruct (loc_eqb (y_tgt e) l) eqn:E; [exfalso; apply H; left; apply (proj1 (loc_eqb_eq kd nk kv _ _)); exact E|]. cbn [negb]. f_equal. apply IH. intros X. apply H. right. exact X.
Qed.

Lemma loop_keep : forall cs s la, (forall o, excl s o = false) -> (forall x, In x cs -> both_quotes kd odd (cloc x) = false) ->
  NoDup (map y_tgt (pedits s) ++ map cloc (fst (keep la cs))) ->
  let r := fold_left loop_step cs (mklst s la false) in
  l_bad r = false /\ excl (l_sub r) = excl s /\ period (l_sub r) = period s /\ last (l_sub r) = last s /\ tmr (l_sub r) = tmr s /\
  map noid (pedits (l_sub r)) = map noid (pedits s) ++ map ed (fst (keep la cs)) /\
  (pend (l_sub r) = None -> fst (keep la cs) = [] /\ pend s = None).
Proof.
  induction cs as [|[[o e] c] t IH]; intros s la X Q N; [cbn; rewrite app_nil_r; do 6 (split; [reflexivity|]); intros H; split; [reflexivity|exact H]|].
  cbn [fold_left keep YangPush.loop_step l_bad l_last l_sub] in *. destruct (nested la o (e_loc e)); [apply IH; [exact X|intros y Hy; apply Q; right; exact Hy|exact N]|].
  rewrite X. cbn [fst map] in N. cbn [fst].
  set (pn := match pend s with Some p => (p, next_patch s, next_edit s) | None => (mkpatch (next_patch s) [], (next_patch s + 1)%N, 1%N) end).
  assert (Pe : p_edits (fst (fst pn)) = pedits s) by (unfold pn, pedits, waits; destruct (pend s); cbn [flat_map fst]; rewrite ?app_nil_r; reflexivity).
  destruct pn as [[p np] ne]. cbn [fst] in Pe. unfold clear_target. pose proof (Q (o, e, c) (or_introl eq_refl)) as Qx. unfold cloc in Qx. cbn [fst snd] in Qx. rewrite Qx.
  change (cloc (o, e, c)) with (e_loc e) in N.
  assert (Ni : ~ In (e_loc e) (map y_tgt (pedits s))) by (apply NoDup_remove_2 in N; intros Y; apply N; apply in_or_app; left; exact Y).
  rewrite filter_none by (rewrite Pe; exact Ni).
  match goal with |- context [mklst (set_pend s ?a ?b ?d)] => set (s1 := set_pend s a b d) end.
  assert (P1 : pedits s1 = pedits s ++ [edit_of ne (op_sr2yp kd o (e_node e)) (o, e, c)]) by (unfold s1, set_pend; rewrite <- Pe; unfold pedits, waits; cbn [pend p_edits flat_map]; rewrite app_nil_r; reflexivity).
  destruct (IH s1 (Some (o, e_loc e)) X) as (A & B & C & D & E & F & G).
  - intros y Hy. apply Q. right. exact Hy.
  - rewrite P1, map_app, <- app_assoc. exact N.
  - split; [exact A|]. split; [exact B|]. split; [exact C|]. split; [exact D|]. split; [exact E|]. split.
    + rewrite F, P1, map_app, <- app_assoc. cbn [map app]. reflexivity.
    + intros Hn. destruct (G Hn) as (_ & G2). discriminate G2.
Qed.

(** ** What was sent and what waits *)
Definition flat (s : sub) (out : list (N * patch)) : list yedit := map noid (flat_map p_edits (map snd out ++ waits s)).
Lemma flat_nil : forall s, flat s [] = map noid (pedits s).
Proof. intros s. reflexivity. Qed.
Lemma send_flat : forall now s, flat (fst (send now s)) (snd (send now s)) = map noid (pedits s).
Proof. intros now s. unfold send, flat, pedits, waits. destruct (pend s) eqn:E; cbn [fst snd map app flat_map pend]; rewrite ?E; cbn [flat_map map app]; rewrite ?app_nil_r; reflexivity. Qed.
Lemma send_excl : forall now s, excl (fst (send now s)) = excl s /\ period (fst (send now s)) = period s.
Proof. intros now s. unfold send. destruct (pend s); split; reflexivity. Qed.

Lemma change_flat : forall now cs s, (forall o, excl s o = false) -> (forall x, In x cs -> both_quotes kd odd (cloc x) = false) ->
  NoDup (map y_tgt (pedits s) ++ map cloc (fst (keep None cs))) ->
  let r := on_change now cs s in
  excl (fst r) = excl s /\ period (fst r) = period s /\ flat (fst r) (snd r) = map noid (pedits s) ++ map ed (fst (keep None cs)) /\ (period s = 0%N -> pend (fst r) = None).
Proof.
  intros now cs s X Q N. destruct (loop_keep cs s None X Q N) as (A & B & C & D & E & F & G). cbv zeta. unfold YangPush.on_change.
  set (r := fold_left loop_step cs (mklst s None false)) in *. clearbody r. rewrite A. destruct (pend (l_sub r)) as [p|] eqn:Pn.
  - unfold ready. rewrite C, E. destruct (N.eqb_spec (period s) 0) as [Z|Z].
    + cbn [fst snd]. destruct (send_excl now (l_sub r)) as (S1 & S2). rewrite S1, S2, send_flat, F. repeat (split; [assumption || reflexivity|]). intros _. unfold send. rewrite Pn. reflexivity.
    + destruct (tid_set (tmr s)); [cbn [fst snd]; rewrite flat_nil, F; do 3 (split; [assumption || reflexivity|]); intros Z'; contradiction|].
      destruct (N.leb _ _); [cbn [fst snd]; destruct (send_excl now (l_sub r)) as (S1 & S2); rewrite S1, S2, send_flat, F|cbn [fst snd]; rewrite flat_nil; cbn [excl period]; unfold pedits at 1; unfold waits; cbn [pend]; fold (waits (l_sub r)); fold (pedits (l_sub r)); rewrite F]; do 3 (split; [assumption || reflexivity|]); intros Z'; contradiction.
  - cbn [fst snd]. rewrite flat_nil, F. destruct (G eq_refl) as (G1 & G2). split; [exact B|]. split; [exact C|]. split; [reflexivity|]. intros _. exact Pn.
Qed.
Lemma tick_flat : forall now s, let r := tick now s in excl (fst r) = excl s /\ period (fst r) = period s /\ flat (fst r) (snd r) = map noid (pedits s) /\ (pend s = None -> pend (fst r) = None).
Proof.
  intros now s. cbv zeta. unfold tick. destruct (tmr s) as [|t|]; try (cbn [fst snd]; rewrite flat_nil; repeat split; auto; fail).
  destruct (N.leb t now); [|cbn [fst snd]; rewrite flat_nil; repeat split; auto].
  pose proof (send_flat now s) as S0. destruct (send_excl now s) as (S1 & S2). unfold send in *. destruct (pend s) eqn:E; cbn [fst snd] in *; cbn [excl period pend]; (split; [exact S1|]); (split; [exact S2|]); (split; [exact S0|]); intros H; [reflexivity|exact E].
Qed.
Lemma modify_flat : forall now per s, let r := modify now per s in excl (fst r) = excl s /\ flat (fst r) (snd r) = map noid (pedits s).
Proof.
  intros now per s. cbv zeta. unfold modify. destruct (N.eqb per (period s)); [cbn [fst snd]; rewrite flat_nil; split; reflexivity|]. destruct (N.eqb per 0); [|cbn [fst snd]; rewrite flat_nil; split; reflexivity].
  rewrite send_flat. split; [exact (proj1 (send_excl now (set_period per TNone s)))|reflexivity].
Qed.

(** ** Edits are applied whatever their numbers *)
Lemma apply_noid : forall e c, apply_edit (noid e) c = apply_edit e c.
Proof. intros [id o t w v] c. reflexivity. Qed.
Lemma edits_noid : forall es c, apply_edits (map noid es) c = apply_edits es c.
Proof. induction es as [|e t IH]; intros c; [reflexivity|]. cbn [map YangPushSpec.apply_edits]. rewrite apply_noid. destruct (apply_edit e c); [apply IH|reflexivity]. Qed.
Lemma patches_flat : forall ps c, apply_patches ps c = apply_edits (flat_map p_edits ps) c.
Proof.
  induction ps as [|p t IH]; intros c; [reflexivity|]. cbn [YangPushSpec.apply_patches flat_map]. destruct (apply_edits (p_edits p) c) as [c1|] eqn:E.
  - rewrite IH. symmetry. apply edits_app. exact E.
  - revert c E. generalize (p_edits p). induction l as [|e u IHu]; intros c E; [discriminate E|]. cbn [YangPushSpec.apply_edits app] in *. destruct (apply_edit e c); [rewrite <- (IHu _ E); reflexivity|reflexivity].
Qed.
Lemma patches_app : forall a b c c1, apply_patches a c = Some c1 -> apply_patches (a ++ b) c = apply_patches b c1.
Proof. induction a as [|p t IH]; intros b c c1 H; cbn [YangPushSpec.apply_patches app] in *; [injection H as <-; reflexivity|]. destruct (apply_edits (p_edits p) c); [apply IH; exact H|discriminate]. Qed.

(** ** Histories *)
Lemma commit_kept : forall es ds o, wf_data kd ds -> wf_edit kd es -> edit_apply kd es ds = ROk o -> o_err o = false -> Forall (inorder kd) (o_diff o) ->
  let cs := tree_changes kd (fun _ => true) (sess_diff kd nk kv (o_diff o)) in
  NoDup (map cloc (fst (keep None cs))) /\
  forall c, same c (copy_of ds) -> exists c', apply_edits (map ed (fst (keep None cs))) c = Some c' /\ same c' (copy_of (o_g o)).
Proof.
  intros es ds o W We H Er I0. cbv zeta. destruct (edit_diff_exact kd es ds o W We H Er) as (Dx & _). pose proof (edit_wfx kd es ds o W We H Er) as Wx. destruct (edit_tidy0 kd es ds o W We H Er) as (T0 & Nd & _).
  assert (T : Forall (tidy kd) (o_diff o)) by (apply Forall_forall; intros x Hx; apply tidy_of; [apply (proj1 (Forall_forall _ _) T0 x Hx)|apply (proj1 (Forall_forall _ _) I0 x Hx)]).
  unfold sess_diff. set (ys := ly_siblings (map ly_tree (o_diff o))).
  assert (Xs : Forall (wfx kd) ys) by (apply (tree_Forall (wfx kd)); [intros x Hx; apply ly_tree_wfx; exact Hx|exact Wx]).
  assert (Ts : Forall (tidy kd) ys) by (apply (tree_Forall (tidy kd)); [exact (ly_tidy kd)|exact T]).
  assert (Ns : NoDup (map (fid kd) ys)) by (apply siblings_nodup; exact Nd).
  pose proof (kept_yrep kd nk kv ys Xs Ts Ns) as K. split.
  - rewrite <- (map_ext _ _ ed_tgt), <- map_map, K. apply yreps_nodup; [apply Forall_forall; intros x _; intros p; apply yrep_nodup|exact Ts|exact Ns].
  - intros c Sc. rewrite K. exact (follow_diff kd nk kv (o_diff o) ds (o_g o) W Wx T Dx c Sc).
Qed.

Lemma places_in : forall x cs, In x cs -> In (cloc x) (places (EChange cs)).
Proof. intros x cs H. cbn [places]. apply (in_map (fun x => e_loc (snd (fst x)))). exact H. Qed.
Lemma quiet_bq : forall evs now cs x, quiet odd evs -> In (now, EChange cs) evs -> In x cs -> both_quotes kd odd (cloc x) = false.
Proof.
  intros evs now cs x Q H Hx. unfold both_quotes. destruct (existsb _ _) eqn:E; [|reflexivity]. apply existsb_exists in E. destruct E as (id & Hi & E). apply andb_true_iff in E. destruct E as (_ & E).
  rewrite (Q now (EChange cs) (cloc x) id H (places_in _ _ Hx) Hi) in E. discriminate E.
Qed.

(** After a step: the copy of a receiver that was sent what was sent by now. *)
Lemma mid : forall s1 o1 c0 c1, NoDup (map y_tgt (flat s1 o1)) -> apply_edits (flat s1 o1) c0 = Some c1 ->
  NoDup (map y_tgt (pedits s1)) /\ exists m, apply_patches (map snd o1) c0 = Some m /\ apply_edits (pedits s1) m = Some c1.
Proof.
  intros s1 o1 c0 c1 N E. unfold flat in *. rewrite edits_noid, <- patches_flat in E. split.
  - rewrite flat_map_app, !map_app in N. rewrite !map_map in N. clear - N. revert N. change (flat_map p_edits (waits s1)) with (pedits s1). cbn [noid y_tgt].
    match goal with |- NoDup (?a ++ _) -> _ => generalize a end. induction l as [|z u IHu]; intros Q1; [exact Q1|]. cbn [app] in Q1. inversion Q1; subst. apply IHu. assumption.
  - clear - E. revert c0 E. generalize (map snd o1). induction l as [|p t IHl]; intros c0 Ea.
    + exists c0. split; [reflexivity|]. rewrite <- Ea. rewrite patches_flat. reflexivity.
    + cbn [app YangPushSpec.apply_patches] in Ea |- *. destruct (apply_edits (p_edits p) c0) as [c2|]; [apply IHl; exact Ea|discriminate Ea].
Qed.
Lemma noid_tgts : forall es, map y_tgt (map noid es) = map y_tgt es.
Proof. intros es. rewrite map_map. reflexivity. Qed.
Lemma run_cons : forall now ev evs s, run ((now, ev) :: evs) s = (fst (run evs (fst (step now ev s))), snd (step now ev s) ++ snd (run evs (fst (step now ev s)))).
Proof. intros. cbn [YangPush.run]. destruct (step now ev s) as [s1 o1]. cbn [fst snd]. destruct (run evs s1). reflexivity. Qed.

(** The receiver, given what was sent and what waits, has the data. *)
Lemma follow_gen : forall ds evs ds', history kd nk kv ds evs ds' -> forall s c0 c, wf_data kd ds -> (forall o, excl s o = false) -> quiet odd evs -> apart kd odd evs s ->
  NoDup (map y_tgt (pedits s)) -> apply_edits (pedits s) c0 = Some c -> same c (copy_of ds) ->
  exists c', apply_patches (map snd (snd (run evs s)) ++ waits (fst (run evs s))) c0 = Some c' /\ same c' (copy_of ds').
Proof.
  intros ds evs ds' H.
  assert (Tail : forall ev evs' now s s1 o1 c0 m (P : copy -> Prop), step now ev s = (s1, o1) -> apply_patches (map snd o1) c0 = Some m ->
    (exists c', apply_patches (map snd (snd (run evs' s1)) ++ waits (fst (run evs' s1))) m = Some c' /\ P c') ->
    exists c', apply_patches (map snd (snd (run ((now, ev) :: evs') s)) ++ waits (fst (run ((now, ev) :: evs') s))) c0 = Some c' /\ P c').
  { intros ev evs' now s s1 o1 c0 m P E M (c' & F1 & F2). rewrite run_cons, E. cbn [fst snd]. exists c'. split; [|exact F2]. rewrite map_app, <- app_assoc. rewrite (patches_app _ _ _ _ M). exact F1. }
  induction H as [ds|ds es o now evs ds' We Ap Er Io H IH|ds now evs ds' H IH|ds now per evs ds' H IH]; intros s c0 c W X Q A N E0 Sc.
  - cbn [YangPush.run fst snd map app]. exists c. split; [rewrite patches_flat; exact E0|exact Sc].
  - set (cs := tree_changes kd (fun _ => true) (sess_diff kd nk kv (o_diff o))) in *.
    destruct (commit_kept es ds o W We Ap Er Io) as (Nk & Fk). fold cs in Nk, Fk. destruct (Fk c Sc) as (c1 & E1 & S1).
    cbn [apart] in A. destruct A as (A1 & A2).
    assert (Nn : NoDup (map y_tgt (pedits s) ++ map cloc (fst (keep None cs)))).
    { apply nodup_app; [exact N|exact Nk|]. intros l Hl X0. apply in_map_iff in Hl. destruct Hl as (e & <- & He). apply (A1 e He). apply in_map_iff in X0. destruct X0 as (x & Ex & Hx). rewrite <- Ex. apply places_in. apply (keep_in cs None). exact Hx. }
    destruct (change_flat now cs s X) as (B1 & B2 & B3 & _); [intros x Hx; apply (quiet_bq _ now cs x Q); [left; reflexivity|exact Hx]|exact Nn|].
    destruct (step now (EChange cs) s) as [s1 o1] eqn:St. cbn [YangPush.step] in St. rewrite St in B1, B2, B3. cbn [fst snd] in B1, B2, B3, A2.
    destruct (mid s1 o1 c0 c1) as (Ns1 & m & M1 & M2).
    { rewrite B3, map_app, noid_tgts. rewrite (map_map ed y_tgt). rewrite (map_ext _ cloc ed_tgt). exact Nn. }
    { rewrite B3. apply (edits_app2 kd nk kv) with c; [rewrite edits_noid; exact E0|exact E1]. }
    apply (Tail _ _ _ _ s1 o1 c0 m); [exact St|exact M1|].
    apply (IH s1 m c1); try assumption.
    + apply (edit_means kd es ds o W We Ap Er).
    + rewrite B1. exact X.
    + intros n ev l id Hin. apply (Q n ev l id). right. exact Hin.
  - destruct (tick_flat now s) as (B1 & B2 & B3 & _). cbn [apart] in A. destruct A as (_ & A2). destruct (step now ETick s) as [s1 o1] eqn:St. cbn [YangPush.step] in St. rewrite St in B1, B2, B3. cbn [fst snd] in B1, B2, B3, A2.
    destruct (mid s1 o1 c0 c) as (Ns1 & m & M1 & M2); [rewrite B3, noid_tgts; exact N|rewrite B3, edits_noid; exact E0|].
    apply (Tail _ _ _ _ s1 o1 c0 m); [exact St|exact M1|]. apply (IH s1 m c); try assumption; [rewrite B1; exact X|]. intros n ev l id Hin. apply (Q n ev l id). right. exact Hin.
  - destruct (modify_flat now per s) as (B1 & B3). cbn [apart] in A. destruct A as (_ & A2). destruct (step now (EModify per) s) as [s1 o1] eqn:St. cbn [YangPush.step] in St. rewrite St in B1, B3. cbn [fst snd] in B1, B3, A2.
    destruct (mid s1 o1 c0 c) as (Ns1 & m & M1 & M2); [rewrite B3, noid_tgts; exact N|rewrite B3, edits_noid; exact E0|].
    apply (Tail _ _ _ _ s1 o1 c0 m); [exact St|exact M1|]. apply (IH s1 m c); try assumption; [rewrite B1; exact X|]. intros n ev l id Hin. apply (Q n ev l id). right. exact Hin.
Qed.

(** ** Without dampening nothing waits *)
Definition no_modify (evs : list (N * event)) : Prop := forall now per, ~ In (now, EModify per) evs.
Lemma pend_change0 : forall now cs s, period s = 0%N -> period (fst (on_change now cs s)) = 0%N /\ pend (fst (on_change now cs s)) = None.
Proof.
  intros now cs s Z. assert (Pe : forall st, period (l_sub (fold_left loop_step cs st)) = period (l_sub st)).
  { induction cs as [|[[o e] c] t IH]; intros st; [reflexivity|]. cbn [fold_left]. rewrite IH. unfold YangPush.loop_step. destruct (l_bad st); [reflexivity|]. destruct (nested _ _ _); [reflexivity|]. destruct (excl _ _); [reflexivity|].
    destruct (pend (l_sub st)); cbn zeta; destruct (clear_target _ _ _ _); reflexivity. }
  unfold YangPush.on_change. specialize (Pe (mklst s None false)). set (r := fold_left loop_step cs (mklst s None false)) in *. clearbody r. cbn [l_sub] in Pe. rewrite Z in Pe.
  destruct (l_bad r); [split; [exact Pe|reflexivity]|]. destruct (pend (l_sub r)) eqn:E; [|split; assumption]. unfold ready. rewrite Pe. cbn [N.eqb]. unfold send. rewrite E. split; [exact Pe|reflexivity].
Qed.
Lemma nothing_waits : forall evs s, no_modify evs -> period s = 0%N -> pend s = None ->
  apart kd odd evs s /\ pend (fst (run evs s)) = None.
Proof.
  induction evs as [|[now ev] t IH]; intros s M Z P; [split; [exact Logic.I|exact P]|].
  assert (St : period (fst (step now ev s)) = 0%N /\ pend (fst (step now ev s)) = None).
  { destruct ev as [cs| |per]; cbn [YangPush.step].
    - apply pend_change0. exact Z.
    - destruct (tick_flat now s) as (_ & T2 & _ & T4). split; [rewrite T2; exact Z|apply T4; exact P].
    - exfalso. apply (M now per). left. reflexivity. }
  destruct St as (S1 & S2). destruct (IH _ (fun n p H => M n p (or_intror H)) S1 S2) as (A & B). split.
  - cbn [apart]. split; [|exact A]. intros e He. unfold pedits, waits in He. rewrite P in He. destruct He.
  - rewrite run_cons. exact B.
Qed.
End P.
