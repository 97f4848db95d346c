(** The diff of an edit is exactly the change. *)
From Coq Require Import List Bool Arith Lia Sorted Permutation.
From Verif Require Import Edit EditSpec EditProofs EditOps EditSem EditMain.
Import ListNotations.

Section P.
Variable kd : nat -> kind.
Notation it := (is_it kd).
Notation key := (EditSpec.key kd).
Notation ident := (EditSpec.ident kd).
Notation eident := (EditSpec.eident kd).
Notation wfg := (wfg kd).
Notation dapply := (dapply kd).

(** ** Diffs of one group *)
Fixpoint gfold (nest : bool) (xs : list diff) (g : list dnode) : option (list dnode) :=
  match xs with [] => Some g | x :: t => match dapply nest x g with Some g' => gfold nest t g' | None => None end end.

Lemma all_remove : forall s p g, all_s s g -> all_s s (remove_first p g).
Proof. intros s p g H. apply Forall_forall. intros d Hd. exact (proj1 (Forall_forall _ _) H d (in_remove _ _ _ Hd)). Qed.
Lemma all_update : forall s p f g, all_s s g -> (forall d, dsch (f d) = s) -> all_s s (update_first p f g).
Proof. intros s p f g H Hf. induction H as [|d t Hd H IH]; [constructor|]. cbn [update_first]. destruct (p d); constructor; auto. Qed.
Lemma all_insert_after : forall s a x g g1, all_s s g -> dsch x = s -> insert_after a x g = Some g1 -> all_s s g1.
Proof.
  intros s a x g g1 H Hx I. destruct (insert_after_split a x g g1 I) as (l & r & -> & ->). apply Forall_app in H. apply Forall_app. split; [apply H|]. constructor; [exact Hx|apply H].
Qed.
Lemma dapply_all : forall nest x g g', dapply nest x g = Some g' -> all_s (fsch x) g -> all_s (fsch x) g'.
Proof.
  intros nest [op s v b ov an oan ch] g g' H A. cbn [fsch] in *. cbn [EditSpec.dapply] in H.
  assert (I : forall c g0 v' b', all_s s g0 -> insert_at an (D s v' b' c) g0 = Some g' -> all_s s g').
  { intros c g0 v' b' Ag X. destruct an as [a|]; cbn [insert_at] in X; [apply (all_insert_after s a (D s v' b' c) g0); auto|]. injection X as <-. constructor; [reflexivity|exact Ag]. }
  destruct op, (find (is_it kd s v) g) as [d|]; try discriminate.
  - destruct (fold_diff (EditSpec.dapply kd nest) ch (dch d)) as [c|]; [|discriminate]. destruct (term (kd s)); [destruct (ov_eqb ov d); [|discriminate]|]; injection H as <-; apply all_update; auto.
  - destruct (fold_diff (EditSpec.dapply kd nest) ch []) as [c|]; [|discriminate]. destruct (userord (kd s)); [apply (I c g v b); assumption|]. injection H as <-. apply Forall_app. split; [exact A|]. constructor; [reflexivity|constructor].
  - destruct (fold_diff (EditSpec.dapply kd true) ch (dch d)) as [[|c t]|]; try discriminate. match type of H with (if ?X then _ else _) = _ => destruct X; [|discriminate] end. injection H as <-. apply all_remove. exact A.
  - destruct (fold_diff (EditSpec.dapply kd nest) ch (dch d)) as [c|]; [|discriminate]. destruct (userord (kd s)).
    + match type of H with (if ?X then _ else _) = _ => destruct X; [|discriminate] end. apply (I c (remove_first (is_it kd s v) g) (dval d) (ddflt d)); [apply all_remove; exact A|exact H].
    + destruct (term (kd s)); [destruct (ov_eqb ov d); [|discriminate]|]; injection H as <-; apply all_update; auto.
Qed.

Lemma fold_diff_group : forall nest s xs ds, Forall (fun x => fsch x = s) xs -> srt ds ->
  fold_diff (dapply nest) xs ds = match gfold nest xs (grp s ds) with Some g => Some (put s g ds) | None => None end.
Proof.
  intros nest s xs. induction xs as [|x t IH]; intros ds F S; cbn [fold_diff gfold].
  - rewrite put_grp by exact S. reflexivity.
  - inversion F as [|? ? Fx Ft]; subst. destruct (dapply nest x (grp (fsch x) ds)) as [g|] eqn:Dx; [|reflexivity].
    assert (A : all_s (fsch x) g) by (apply (dapply_all nest x _ g Dx); apply grp_all).
    rewrite IH by (assumption || apply srt_put; assumption). rewrite grp_put_same by exact A. destruct (gfold nest t g) as [g'|]; [|reflexivity]. rewrite put_put by exact A. reflexivity.
Qed.
Lemma fold_diff_app : forall f xs ys ds, fold_diff f (xs ++ ys) ds = match fold_diff f xs ds with Some d => fold_diff f ys d | None => None end.
Proof. intros f. induction xs as [|x t IH]; intros ys ds; [reflexivity|]. cbn [app fold_diff]. destruct (f x (grp (fsch x) ds)) as [g|]; [apply IH|reflexivity]. Qed.
Lemma put_all : forall s g g', all_s s g -> put s g' g = g'.
Proof.
  intros s g g' A. unfold put. rewrite (filter_none _ _ g), (filter_none _ _ g); [apply app_nil_r| |]; intros x Hx; rewrite (proj1 (Forall_forall _ _) A x Hx); apply Nat.ltb_irrefl.
Qed.

(** ** Places *)
Definition lastv (l : list dnode) (o : option nat) : option nat := match rev l with x :: _ => Some (dval x) | [] => o end.
Lemma lastv_cons : forall d l o, lastv (d :: l) o = lastv l (Some (dval d)).
Proof. intros d l o. unfold lastv. cbn [rev]. destruct (rev l); reflexivity. Qed.
Lemma prev_split : forall (p : dnode -> bool) l d r o, find p l = None -> p d = true -> prev_of p o (l ++ d :: r) = lastv l o.
Proof.
  intros p. induction l as [|x l IH]; intros d r o F P; cbn [app prev_of].
  - rewrite P. reflexivity.
  - cbn [find] in F. destruct (p x); [discriminate|]. rewrite IH by assumption. symmetry. apply lastv_cons.
Qed.
Lemma update_split : forall (p : dnode -> bool) f l d r, find p l = None -> p d = true -> update_first p f (l ++ d :: r) = l ++ f d :: r.
Proof. intros p f. induction l as [|x l IH]; intros d r F P; cbn [app update_first]; [rewrite P; reflexivity|]. cbn [find] in F. destruct (p x); [discriminate|]. rewrite IH by assumption. reflexivity. Qed.
Lemma remove_split : forall (p : dnode -> bool) l d r, find p l = None -> p d = true -> remove_first p (l ++ d :: r) = l ++ r.
Proof. intros p. induction l as [|x l IH]; intros d r F P; cbn [app remove_first]; [rewrite P; reflexivity|]. cbn [find] in F. destruct (p x); [discriminate|]. rewrite IH by assumption. reflexivity. Qed.
Lemma find_decomp : forall (p : dnode -> bool) g d, find p g = Some d -> exists l r, g = l ++ d :: r /\ find p l = None /\ p d = true.
Proof.
  intros p. induction g as [|x g IH]; intros d H; [discriminate|]. cbn [find] in H. destruct (p x) eqn:P.
  - injection H as ->. exists [], g. repeat split. exact P.
  - destruct (IH d H) as (l & r & -> & F & Pd). exists (x :: l), r. split; [reflexivity|]. split; [cbn [find]; rewrite P; exact F|exact Pd].
Qed.
Lemma insert_at_split : forall l r x, NoDup (map dval (l ++ r)) -> insert_at (lastv l None) x (l ++ r) = Some (l ++ x :: r).
Proof.
  intros l r x N. destruct l as [|y l'] using rev_ind; [reflexivity|]. clear IHl'. unfold lastv. rewrite rev_app_distr. cbn [rev app insert_at]. rewrite <- app_assoc in *. cbn [app] in *.
  induction l' as [|z l' IH]; cbn [app insert_after].
  - rewrite Nat.eqb_refl. reflexivity.
  - cbn [app map] in N. inversion N as [|? ? Nz Nt]; subst. destruct (Nat.eqb_spec (dval z) (dval y)) as [Q|Q].
    + exfalso. apply Nz. rewrite Q. apply in_map. apply in_or_app. right. left. reflexivity.
    + rewrite IH by exact Nt. reflexivity.
Qed.
Lemma lastv_inj : forall l r l0 r0, NoDup (map dval (l ++ r)) -> l ++ r = l0 ++ r0 -> lastv l None = lastv l0 None -> l = l0.
Proof.
  intros l r l0 r0 N E L. destruct l as [|y l'] using rev_ind.
  - destruct l0 as [|y0 l0'] using rev_ind; [reflexivity|]. unfold lastv in L. rewrite rev_app_distr in L. discriminate.
  - clear IHl'. destruct l0 as [|y0 l0'] using rev_ind; [unfold lastv in L; rewrite rev_app_distr in L; discriminate|]. clear IHl0'.
    unfold lastv in L. rewrite !rev_app_distr in L. cbn in L. injection L as L. rewrite <- !app_assoc in *. cbn [app] in *.
    revert l0' E N. induction l' as [|z l' IH]; intros l0' E N.
    + destruct l0' as [|z0 l0']; [cbn in E; injection E as -> _; reflexivity|]. exfalso. cbn [app] in E. injection E as -> E. cbn [app map] in N. inversion N as [|? ? Nz Nt]; subst. apply Nz. rewrite L. rewrite map_app. apply in_or_app. right. left. reflexivity.
    + destruct l0' as [|z0 l0']; cbn [app] in E; injection E as Ez E.
      * exfalso. cbn [app map] in N. inversion N as [|? ? Nz Nt]; subst. apply Nz. rewrite <- L. rewrite map_app. apply in_or_app. right. left. reflexivity.
      * subst z0. cbn [app]. f_equal. apply IH; [exact E|]. cbn [app map] in N. inversion N; assumption.
Qed.
Lemma wfg_vals : forall s g, wfg s g -> userord (kd s) = true -> NoDup (map dval g).
Proof. intros s g (_ & N & _) U. assert (I := inst_userord kd s U). replace (map dval g) with (map (fun d => key s (dval d)) g); [exact N|]. apply map_ext. intros d. unfold EditSpec.key. rewrite I. reflexivity. Qed.
Lemma onat_refl : forall a, onat_eqb a a = true.
Proof. intros [a|]; [apply Nat.eqb_refl|reflexivity]. Qed.
Lemma onat_eq : forall a b, onat_eqb a b = true -> a = b.
Proof. intros [a|] [b|] H; try discriminate; [apply Nat.eqb_eq in H; congruence|reflexivity]. Qed.

(** ** Deleted subtrees *)
Definition dels (d : dnode) (x : diff) : Prop :=
  exists ov an oan chd, x = F DDelete (dsch d) (dval d) (ddflt d) ov an oan chd /\ fold_diff (dapply true) chd (dch d) = Some [].

Lemma grp_split : forall d a b, grp (dsch d) (a ++ d :: b) = grp (dsch d) a ++ d :: grp (dsch d) b.
Proof. intros d a b. unfold grp. rewrite filter_app. cbn [filter]. rewrite Nat.eqb_refl. reflexivity. Qed.
Lemma put_remove : forall d a b, srt (a ++ d :: b) -> put (dsch d) (grp (dsch d) (a ++ b)) (a ++ d :: b) = a ++ b.
Proof.
  intros d a b S. assert (S' : srt (a ++ b)).
  { induction a as [|x a IH]; cbn [app] in *; [inversion S; assumption|]. inversion S as [|? ? S1 S2]; subst. constructor; [apply IH; exact S1|]. apply Forall_app in S2. apply Forall_app. split; [apply S2|]. destruct S2 as (_ & S2). inversion S2; assumption. }
  rewrite <- (put_grp (dsch d) (a ++ b) S') at 2. unfold put. rewrite !filter_app. cbn [filter]. rewrite Nat.ltb_irrefl. reflexivity.
Qed.
Lemma find_group_none : forall a d b, NoDup (map ident (a ++ d :: b)) -> find (it (dsch d) (dval d)) (grp (dsch d) a) = None.
Proof.
  intros a d b N. destruct (find (it (dsch d) (dval d)) (grp (dsch d) a)) as [y|] eqn:Fy; [|reflexivity]. exfalso. apply find_some in Fy. destruct Fy as (Hy & Iy). apply filter_In in Hy. destruct Hy as (Hy & Sy). apply Nat.eqb_eq in Sy. apply it_key in Iy.
  rewrite map_app in N. cbn [map] in N. apply NoDup_remove_2 in N. apply N. apply in_or_app. left. apply in_map_iff. exists y. split; [|exact Hy]. unfold EditSpec.ident. rewrite Sy. congruence.
Qed.
Lemma dels_step : forall nest a d b x, wf_sibs kd (a ++ d :: b) -> dels d x ->
  (nest = true \/ (exists op s v bb ov an ch, x = F op s v bb ov an (if userord (kd s) then last_inst (dsch d) a else None) ch)) ->
  fold_diff (dapply nest) [x] (a ++ d :: b) = Some (a ++ b).
Proof.
  intros nest a d b x (S & N) (ov & an & oan & chd & -> & Hc) Ho. cbn [fold_diff fsch]. rewrite grp_split. cbn [EditSpec.dapply].
  pose proof (find_group_none a d b N) as Fn. assert (Is : it (dsch d) (dval d) d = true) by (apply it_key; reflexivity).
  rewrite find_app1, Fn. cbn [find]. rewrite Is, Hc, Nat.eqb_refl, Bool.eqb_reflx. cbn [andb]. rewrite (prev_split _ _ _ _ _ Fn Is).
  replace (nest || negb (userord (kd (dsch d))) || onat_eqb oan (lastv (grp (dsch d) a) None)) with true.
  - rewrite (remove_split _ _ _ _ Fn Is). f_equal. etransitivity; [|exact (put_remove d a b S)]. f_equal. unfold grp. rewrite filter_app. reflexivity.
  - symmetry. destruct Ho as [->|(op & s & v & bb & ov' & an' & ch' & Q)]; [reflexivity|]. injection Q as _ <- _ _ _ _ -> _. destruct (userord (kd (dsch d))); [|rewrite orb_true_r; reflexivity]. unfold last_inst, lastv. rewrite onat_refl, !orb_true_r. reflexivity.
Qed.
Lemma wf_sibs_remove : forall a d b, wf_sibs kd (a ++ d :: b) -> wf_sibs kd (a ++ b).
Proof.
  intros a d b (S & N). split.
  - induction a as [|x a IH]; cbn [app] in *; [inversion S; assumption|]. inversion S as [|? ? S1 S2]; subst. inversion N; subst. constructor; [apply IH; assumption|]. apply Forall_app in S2. apply Forall_app. split; [apply S2|]. destruct S2 as (_ & S2). inversion S2; assumption.
  - rewrite map_app in *. cbn [map] in N. apply NoDup_remove_1 in N. exact N.
Qed.
Lemma dels_all : forall xs ds, wf_sibs kd ds -> Forall2 dels ds xs -> fold_diff (dapply true) xs ds = Some [].
Proof.
  intros xs ds W H. induction H as [|d x ds xs Hd H IH]; [reflexivity|]. change (x :: xs) with ([x] ++ xs). rewrite fold_diff_app. rewrite (dels_step true [] d ds x W Hd (or_introl eq_refl) : fold_diff (dapply true) [x] (d :: ds) = Some ds). apply IH. exact (wf_sibs_remove [] d ds W).
Qed.

Lemma del_dels : forall d oan, wfd kd d -> dels d (del_diff kd oan d).
Proof.
  intros d. induction d as [s v b ch IH] using dnode_ind2. intros oan W. apply wfd_all in W. destruct W as (_ & _ & _ & W1 & W2). cbn [del_diff]. eexists _, _, _, _. split; [reflexivity|]. cbn [dch]. apply dels_all; [exact W1|].
  clear W1. induction ch as [|c t IHt]; cbn [map]; constructor; inversion IH; inversion W2; subst; auto.
Qed.
Lemma purge_dels : forall d oan, wfd kd d -> dels d (purge_diff kd oan d).
Proof.
  intros d. induction d as [s v b ch IH] using dnode_ind2. intros oan W. apply wfd_all in W. destruct W as (_ & _ & _ & W1 & W2). cbn [purge_diff]. eexists _, _, _, _. split; [reflexivity|]. cbn [dch]. apply dels_all; [exact W1|].
  clear W1. match goal with |- Forall2 _ _ (?f [] ch) => enough (Z : forall seen, Forall2 dels ch (f seen ch)) by apply Z end. induction ch as [|c t IHt]; intros seen; [constructor|]. inversion IH as [|? ? IHc IHr]; inversion W2 as [|? ? Wc Wr]; subst. constructor; [apply IHc; exact Wc|apply IHt; assumption].
Qed.

Lemma drop_diff : forall nest es ds seen, wf_data kd (seen ++ ds) ->
  fold_diff (dapply nest) (snd (drop kd es seen ds)) (seen ++ ds) = Some (fst (drop kd es seen ds)).
Proof.
  intros nest es. induction ds as [|d t IH]; intros seen W; cbn [drop].
  - cbn [fst snd fold_diff]. rewrite app_nil_r. reflexivity.
  - destruct (in_edit kd es d).
    + replace (seen ++ d :: t) with ((seen ++ [d]) ++ t) in * by (rewrite <- app_assoc; reflexivity). apply IH. exact W.
    + cbn [fst snd]. destruct W as (W1 & W2). change (del_diff kd (last_inst (dsch d) seen) d :: snd (drop kd es seen t)) with ([del_diff kd (last_inst (dsch d) seen) d] ++ snd (drop kd es seen t)). rewrite fold_diff_app.
      assert (Wd : wfd kd d) by (apply Forall_app in W2; destruct W2 as (_ & W2); inversion W2; assumption).
      rewrite (dels_step nest seen d t _ W1 (del_dels d _ Wd)).
      * apply IH. split; [exact (wf_sibs_remove seen d t W1)|]. apply Forall_app in W2. apply Forall_app. split; [apply W2|]. destruct W2 as (_ & W2). inversion W2; assumption.
      * right. destruct d as [s v b ch]. cbn [del_diff dsch]. do 7 eexists. reflexivity.
Qed.

(** Nothing stays under a deleted node. *)
Lemma sp_deleted : forall repl inh e old r, sp kd Deleted repl inh e old = Some r -> r = None.
Proof.
  intros repl inh [s v b own i ch] old r H. cbn [sp] in H. destruct (match own with Some o => Some o | None => inh end) as [op|]; [|discriminate].
  destruct op; cbn [deletes] in H; try discriminate; [congruence| |]; destruct old as [d|]; try discriminate; try (destruct (is_default kd d); [discriminate|]);
    match type of H with match match ?X with _ => _ end with _ => _ end = _ => destruct X end; congruence.
Qed.
Lemma lk_nil : forall ds, (forall id, lk kd id ds = None) -> ds = [].
Proof. intros [|d t] H; [reflexivity|]. exfalso. specialize (H (ident d)). unfold lk in H. cbn [find] in H. rewrite !Nat.eqb_refl in H. discriminate. Qed.

(** ** Induction over edits *)
Definition P17 (e : enode) : Prop := forall fr fd orph pop ep g o,
  wfe kd e -> wfg (esch e) g -> (orph = true -> g = []) -> pop <> Some Purge ->
  apply_e kd fr fd orph pop ep e g = ROk o -> o_err o = false ->
  Forall (fun x => fsch x = esch e) (o_diff o) /\ (forall nest, gfold nest (o_diff o) g = Some (o_g o)) /\ (o_chg o = false -> o_diff o = []).

Lemma fold17 : forall fr fd orph pop es, Forall P17 es -> pop <> Some Purge -> Forall (wfe kd) es -> forall seen ds o,
  wf_data kd ds -> (orph = true -> ds = []) ->
  fold_edits (fun ep c g => apply_e kd fr fd orph pop ep c g) seen es ds = ROk o -> o_err o = false ->
  (forall nest, fold_diff (dapply nest) (o_diff o) ds = Some (o_g o)) /\ (o_chg o = false -> o_diff o = []).
Proof.
  intros fr fd orph pop es HP NP. induction HP as [|c t Hc Ht IH]; intros We seen ds o Wd O H Er.
  - cbn [fold_edits] in H. injection H as <-. split; reflexivity.
  - cbn [fold_edits] in H. destruct (apply_e kd fr fd orph pop (last_einst (esch c) seen) c (grp (esch c) ds)) as [o1| |] eqn:A; try discriminate.
    destruct (fold_edits _ (seen ++ [c]) t (put (esch c) (o_g o1) ds)) as [o2| |] eqn:B; try discriminate. injection H as <-. cbn [o_g o_err o_diff o_chg] in *. apply orb_false_iff in Er. destruct Er as (Er1 & Er2).
    inversion We as [|? ? Wc Wt]; subst.
    destruct (Hc fr fd orph pop _ _ o1 Wc (wf_grp kd ds (esch c) Wd) (fun X => f_equal (grp (esch c)) (O X)) NP A Er1) as (D1 & D2 & D3).
    destruct (p15 kd c fr fd orph pop _ _ o1 Wc (wf_grp kd ds (esch c) Wd) (fun X => f_equal (grp (esch c)) (O X)) NP A Er1) as (G1 & G2 & _).
    destruct (IH Wt _ _ o2 (wf_put kd ds (esch c) (o_g o1) Wd G1) (fun X => eq_trans (f_equal2 (put (esch c)) (G2 X) (O X)) eq_refl) B Er2) as (I1 & I2).
    split.
    + intros nest. rewrite fold_diff_app, (fold_diff_group nest (esch c) _ ds D1) by apply Wd. rewrite D2. apply I1.
    + intros X. apply orb_false_iff in X. destruct X as (X1 & X2). rewrite (D3 X1), (I2 X2). reflexivity.
Qed.

Lemma update_id : forall s v f g d, find (it s v) g = Some d -> f d = d -> update_first (it s v) f g = g.
Proof. intros s v f. induction g as [|x t IH]; intros d H Q; [reflexivity|]. cbn [find update_first] in *. destruct (it s v x); [injection H as ->; rewrite Q; reflexivity|]. f_equal. apply (IH d); assumption. Qed.
Lemma update_const : forall s v f h g d, find (it s v) g = Some d -> f d = h d -> update_first (it s v) f g = update_first (it s v) h g.
Proof. intros s v f h. induction g as [|x t IH]; intros d H Q; [reflexivity|]. cbn [find update_first] in *. destruct (it s v x); [injection H as ->; rewrite Q; reflexivity|]. f_equal. apply (IH d); assumption. Qed.
Lemma update_twice : forall s v f h g, (forall d, it s v d = true -> it s v (f d) = true) -> update_first (it s v) h (update_first (it s v) f g) = update_first (it s v) (fun d => h (f d)) g.
Proof. intros s v f h g K. induction g as [|x t IH]; [reflexivity|]. cbn [update_first]. destruct (it s v x) eqn:I; cbn [update_first]; [rewrite (K x I); reflexivity|]. rewrite I, IH. reflexivity. Qed.

Lemma p17 : forall e, P17 e.
Proof.
  apply enode_ind2. intros s v b own i ch HP fr fd orph pop ep g o We W O NP H Er. cbn [esch eval] in *.
  destruct (match own with Some o => Some o | None => pop end) as [op|] eqn:Ho; [|cbn [apply_e] in H; rewrite Ho in H; discriminate].
  destruct (purges_dec (E s v b own i ch)) as [P|P].
  - (* purge *)
    unfold purges in P. cbn [eown] in P. subst own. injection Ho as <-. pose proof We as We'. apply wfe_all in We'. destruct We' as (-> & Hv & _ & Hp & _). specialize (Hp eq_refl). subst ch.
    cbn [apply_e] in H. destruct (bad_ins kd s i); [discriminate|]. destruct (fd && bad_nested Purge); [discriminate|]. cbn [fold_edits] in H. injection H as <-. cbn [o_g o_diff o_chg].
    assert (G1 : inst (kd s) = false -> g = [] \/ exists a, g = [a]).
    { intros X. pose proof (purge_nil kd s g W X) as Z. destruct g as [|a [|c t]]; [left; reflexivity|right; exists a; reflexivity|discriminate Z]. }
    repeat match goal with |- context [if inst (kd s) then g else ?X] => replace (if inst (kd s) then g else X) with g by (destruct (inst (kd s)); [reflexivity|destruct (G1 eq_refl) as [->|(a & ->)]; reflexivity]) end.
    repeat match goal with |- context [if inst (kd s) then [] else ?X] => replace (if inst (kd s) then [] else X) with (@nil dnode) by (destruct (inst (kd s)); [reflexivity|destruct (G1 eq_refl) as [->|(a & ->)]; reflexivity]) end.
    clear G1.
    clear Er O. split; [|split].
    + apply Forall_forall. intros x Hx. apply in_map_iff in Hx. destruct Hx as (d & <- & Hd). rewrite <- (proj1 (Forall_forall _ _) (proj1 W) d Hd). destruct d; reflexivity.
    + intros nest. destruct W as (Wa & Wn & Ww).
      assert (Ws : wf_sibs kd g). { split; [apply (srt_all s); exact Wa|]. rewrite (map_ident kd s g Wa). apply (proj2 (nodup_pair s _)). exact Wn. }
      clear Wn. induction g as [|d t IH]; [reflexivity|]. inversion Wa as [|? ? Wa1 Wa2]; subst. inversion Ww as [|? ? Ww1 Ww2]; subst.
      assert (St : fold_diff (dapply nest) [purge_diff kd None d] ([] ++ d :: t) = Some ([] ++ t)).
      { apply dels_step; [exact Ws|apply purge_dels; exact Ww1|]. right. destruct d as [sd vd bd chd]. cbn [purge_diff dsch]. do 7 eexists. replace (last_inst sd []) with (@None nat) by reflexivity. reflexivity. }
      rewrite (fold_diff_group nest (dsch d)) in St by (constructor; [destruct d; reflexivity|constructor] || apply Ws). cbn [app] in St.
      replace (grp (dsch d) (d :: t)) with (d :: t) in St by (symmetry; apply filter_all; intros y Hy; apply Nat.eqb_eq; exact (proj1 (Forall_forall _ _) Wa y Hy)).
      cbn [map gfold] in *. destruct (dapply nest (purge_diff kd None d) (d :: t)) as [g'|]; [|discriminate]. injection St as St. rewrite put_all in St by exact Wa. subst g'. apply IH; try assumption. exact (wf_sibs_remove [] d t Ws).
    + intros X. apply orb_false_iff in X. destruct X as (_ & X). destruct g; [reflexivity|discriminate X].
  - assert (NPo : op <> Purge) by (intros ->; destruct own as [o0|]; [injection Ho as ->; apply P; reflexivity|congruence]).
    destruct (apply_inv kd fr fd orph pop ep s v b own i ch g o op We W O NPo Ho H Er) as (x & oc & N).
    pose proof We as We'. apply wfe_all in We'. destruct We' as (-> & Hv & Ht & _ & Wc).
    pose proof (n_act _ _ _ _ _ _ _ _ _ _ _ _ _ _ N) as A. pose proof (act_ok kd s v i orph fr fd g op x W Hv O A) as K.
    assert (HP15 : Forall (P15 kd) ch) by (apply Forall_forall; intros e _; apply p15).
    destruct (kids_sem kd fr fd orph op ep s v i ch g o x oc HP15 Wc Ht NPo K N) as (C1 & C2 & _).
    destruct (base_wf kd _ _ _ _ _ K) as (B1 & B2).
    assert (Dw : wf_data kd (fst (dropped kd x ch))).
    { unfold dropped. destruct (st_r x || st_d x); [rewrite drop_fst; cbn [app]; apply wf_data_filter; exact B1|exact B1]. }
    assert (Do : negb (issome (st_m x)) = true -> fst (dropped kd x ch) = []).
    { intros X. unfold dropped. destruct (st_m x); [discriminate|]. cbn [base_of]. destruct (st_r x || st_d x); reflexivity. }
    assert (NPs : Some op <> Some Purge) by congruence.
    destruct (fold17 (st_r x) (st_d x) (negb (issome (st_m x))) (Some op) ch HP NPs (proj2 Wc) [] _ oc Dw Do (n_fold _ _ _ _ _ _ _ _ _ _ _ _ _ _ N) (n_err _ _ _ _ _ _ _ _ _ _ _ _ _ _ N)) as (F1 & F2).
    destruct (fold_sem kd (st_r x) (st_d x) (negb (issome (st_m x))) (Some op) ch HP15 NPs (proj2 Wc) (proj1 Wc) [] _ oc Dw Do (n_fold _ _ _ _ _ _ _ _ _ _ _ _ _ _ N) (n_err _ _ _ _ _ _ _ _ _ _ _ _ _ _ N)) as (_ & _ & rs & F3).
    assert (KD : forall nest, fold_diff (dapply nest) (snd (dropped kd x ch) ++ o_diff oc) (base_of (st_m x)) = Some (o_g oc)).
    { intros nest. rewrite fold_diff_app. replace (fold_diff (dapply nest) (snd (dropped kd x ch)) (base_of (st_m x))) with (Some (fst (dropped kd x ch))); [apply F1|].
      unfold dropped. destruct (st_r x || st_d x); [|reflexivity]. symmetry. exact (drop_diff nest ch (base_of (st_m x)) [] B1). }
    assert (Dl : st_d x = true -> o_g oc = []).
    { intros X. apply lk_nil. intros id. destruct F3 as [E1 E2 E3]. rewrite X in *. cbn [ctxof] in *.
      destruct (id_case kd ch id) as [(e & He & Pe & Q)|(Np & [(e & He & Q)|Ne])].
      - exact (E2 e id He Pe Q).
      - assert (Pe : ~ purges e) by (intros Pe; apply (Np e He Pe); rewrite <- Q; reflexivity). subst id. clear - E1 He Pe. revert E1. generalize (fst (dropped kd x ch)). intros D0 E1. induction E1 as [|c r t rs (R1 & R2 & R3 & R4) E1 IH]; [destruct He|]. destruct He as [->|He]; [|apply IH; exact He]. apply sp_deleted in R1. subst r. specialize (R4 Pe). cbn [req] in R4. destruct (lk kd (eident e) (o_g oc)); [destruct R4|reflexivity].
      - rewrite (E3 id Ne Np). unfold dropped. rewrite X, orb_true_r, drop_fst. cbn [app]. apply lk_none. intros d Hd Q. apply filter_In in Hd. destruct Hd as (_ & Hd). apply in_edit_ident in Hd. destruct Hd as (e & He & Qe). apply (Ne e He). congruence. }
    rewrite (n_diff _ _ _ _ _ _ _ _ _ _ _ _ _ _ N), (n_g _ _ _ _ _ _ _ _ _ _ _ _ _ _ N), (n_chg _ _ _ _ _ _ _ _ _ _ _ _ _ _ N).
    assert (Kn : o_chg oc || negb (isnil (snd (dropped kd x ch))) = false -> snd (dropped kd x ch) ++ o_diff oc = []).
    { intros X. apply orb_false_iff in X. destruct X as (X1 & X2). rewrite (F2 X1), app_nil_r. destruct (snd (dropped kd x ch)); [reflexivity|discriminate]. }
    remember (snd (dropped kd x ch) ++ o_diff oc) as ks eqn:Eks. remember (o_chg oc || negb (isnil (snd (dropped kd x ch)))) as kc eqn:Ekc.
    assert (Tk : term (kd s) = true -> ks = []).
    { intros T. rewrite Eks. pose proof (n_fold _ _ _ _ _ _ _ _ _ _ _ _ _ _ N) as Hf. rewrite (Ht T) in Hf |- *. cbn [fold_edits] in Hf. injection Hf as <-. cbn [o_diff]. rewrite app_nil_r. unfold dropped. rewrite (B2 T). destruct (st_r x || st_d x); reflexivity. }
    clear Eks Ekc F1 F2 F3 Dw Do H Er N HP HP15 P. pose proof K as [K1 K2 _ _ _]. unfold base_of in *.
    remember (find (it s v) g) as m eqn:Em. symmetry in Em.
    destruct A as [op H|op d H1 H2 H3 H4 H5|op H1 H2 H3|op g1 H1 H2 H3 H4|op d g1 H1 H2 H3 H4 H5|op d H1 H2 H3|op d H1 H2 H3 H4|op d H];
      cbn [st_r st_d st_m st_del st_dn st_g st_chg issome negb orb dch dsch dval ddflt] in *.
    + (* missing *) split; [constructor|]. split; reflexivity.
    + (* kept *)
      destruct (find_some _ _ Em) as (Hd & Id). pose proof (proj1 (Forall_forall _ _) (proj1 W) d Hd) as Sd. cbn beta in Sd.
      assert (Same : o_g oc = dch d -> update_first (it s v) (fun d => D (dsch d) (dval d) (ddflt d) (o_g oc)) g = g).
      { intros X. apply (update_id s v _ g d Em). rewrite X. destruct d; reflexivity. }
      destruct (term (kd s)) eqn:T.
      * specialize (B2 eq_refl). rewrite B2 in *. split; [constructor|]. split; [|reflexivity]. intros nest. cbn [gfold]. rewrite Same; [reflexivity|]. rewrite C2; reflexivity.
      * cbn [finish]. rewrite T. destruct ks as [|k ks]; cbn [isnil].
        -- split; [constructor|]. split; [|reflexivity]. intros nest. specialize (KD nest). cbn [fold_diff] in KD. injection KD as KD. cbn [gfold]. rewrite Same by congruence. reflexivity.
        -- split; [constructor; [reflexivity|constructor]|]. split; [|intros X; specialize (Kn X); discriminate]. intros nest. specialize (KD nest). cbn [gfold EditSpec.dapply].
           assert (Fi : find (is_it kd s (dval d)) g = Some d) by (apply it_key in Id; unfold is_it, EditSpec.key in *; destruct (inst (kd s)); [rewrite Id; exact Em|exact Em]).
           rewrite Fi, KD. rewrite T. f_equal.
           replace (is_it kd s (dval d)) with (it s v) by (apply it_key in Id; unfold is_it, EditSpec.key in *; destruct (inst (kd s)); [rewrite Id; reflexivity|reflexivity]).
           apply (update_const s v _ _ g d Em). rewrite Sd. reflexivity.
    + (* created *)
      cbn [finish]. split; [constructor; [reflexivity|constructor]|]. split; [|discriminate]. intros nest. specialize (KD nest). cbn [gfold EditSpec.dapply]. rewrite Em, KD, H2. f_equal. rewrite update_split; [reflexivity|exact Em|apply it_self].
    + (* created in a place *)
      cbn [finish]. split; [constructor; [reflexivity|constructor]|]. split; [|discriminate]. intros nest. specialize (KD nest). cbn [gfold EditSpec.dapply]. rewrite Em, KD, H2.
      destruct (insert_split _ _ _ _ H4) as (l & r & -> & ->). rewrite find_app1 in Em. destruct (find (it s v) l) eqn:Fl; [discriminate|].
      rewrite prev_split by (exact Fl || apply it_self). rewrite update_split by (exact Fl || apply it_self). cbn [dsch dval ddflt]. rewrite insert_at_split; [reflexivity|]. apply (wfg_vals s); assumption.
    + (* moved *)
      destruct (find_decomp _ _ _ Em) as (l0 & r0 & -> & Fl0 & Id). rewrite (remove_split _ _ _ _ Fl0 Id) in H5. destruct (insert_split _ _ _ _ H5) as (l & r & Elr & ->).
      assert (Sd : dsch d = s) by (apply (proj1 (Forall_forall _ _) (proj1 W) d); apply in_or_app; right; left; reflexivity).
      assert (Nv : NoDup (map dval (l ++ r))).
      { apply (wfg_vals s); [|exact H2]. rewrite <- Elr, <- (remove_split (it s v) l0 d r0 Fl0 Id). apply wfg_remove. exact W. }
      assert (Fl : find (it s v) l = None).
      { assert (X : find (it s v) (l ++ r) = None) by (rewrite <- Elr, <- (remove_split (it s v) l0 d r0 Fl0 Id); apply find_remove_same; apply W). rewrite find_app1 in X. destruct (find (it s v) l); [discriminate|reflexivity]. }
      rewrite (prev_split _ _ _ _ _ Fl Id), (prev_split _ _ _ _ _ Fl0 Id), (update_split _ _ _ _ _ Fl Id). cbn [finish]. rewrite H2. cbn [andb].
      destruct (onat_eqb (lastv l None) (lastv l0 None)) eqn:Q.
      * apply onat_eq in Q. assert (l = l0) by (apply (lastv_inj l r l0 r0); congruence). subst l0. apply app_inv_head in Elr. subst r0.
        destruct ks as [|k ks]; cbn [isnil].
        -- split; [constructor|]. split; [|reflexivity]. intros nest. specialize (KD nest). cbn [fold_diff] in KD. injection KD as KD. cbn [gfold]. rewrite <- KD. destruct d; reflexivity.
        -- split; [constructor; [reflexivity|constructor]|]. split; [|discriminate]. intros nest. specialize (KD nest). cbn [gfold EditSpec.dapply]. rewrite Em, KD.
           destruct (term (kd s)) eqn:T; [discriminate (Tk eq_refl)|]. rewrite (update_split _ _ _ _ _ Fl Id), Sd. reflexivity.
      * split; [constructor; [reflexivity|constructor]|]. split; [|discriminate]. intros nest. specialize (KD nest). cbn [gfold EditSpec.dapply]. rewrite Em, KD, H2. rewrite (prev_split _ _ _ _ _ Fl0 Id), onat_refl, (remove_split _ _ _ _ Fl0 Id), Elr. rewrite insert_at_split by exact Nv. rewrite Sd. reflexivity.
    + (* set *)
      assert (T : term (kd s) = true) by (rewrite H2; reflexivity). rewrite (Tk T) in *. destruct (find_some _ _ Em) as (Hd & Id). pose proof (proj1 (Forall_forall _ _) (proj1 W) d Hd) as Sd. cbn beta in Sd.
      assert (U : userord (kd s) = false) by (rewrite H2; reflexivity).
      cbn [finish]. rewrite U. cbn [andb]. split; [constructor; [reflexivity|constructor]|]. split; [|discriminate]. intros nest. specialize (KD nest). cbn [gfold EditSpec.dapply]. rewrite Em, KD, U, T. cbn [ov_eqb]. rewrite Nat.eqb_refl, Bool.eqb_reflx. cbn [andb].
      rewrite update_twice by (intros y _; unfold is_it; rewrite H2; reflexivity). f_equal. apply (update_const s v _ _ g d Em). cbn [dsch dval ddflt]. rewrite Sd. reflexivity.
    + (* default *)
      assert (T : term (kd s) = true) by (rewrite H2; reflexivity). rewrite (Tk T) in *. destruct (find_some _ _ Em) as (Hd & Id). pose proof (proj1 (Forall_forall _ _) (proj1 W) d Hd) as Sd. cbn beta in Sd.
      assert (U : userord (kd s) = false) by (rewrite H2; reflexivity).
      cbn [finish]. rewrite T. cbn [Bool.eqb]. split; [constructor; [reflexivity|constructor]|]. split; [|discriminate]. intros nest. specialize (KD nest). cbn [gfold EditSpec.dapply]. rewrite Em, KD, T. cbn [ov_eqb]. rewrite H3, H4, Nat.eqb_refl. cbn [andb Bool.eqb].
      rewrite update_twice by (intros y _; unfold is_it; rewrite H2; reflexivity). f_equal. apply (update_const s v _ _ g d Em). cbn [dsch dval ddflt]. rewrite Sd. reflexivity.
    + (* deleted *)
      cbn [finish]. split; [constructor; [reflexivity|constructor]|]. split; [|discriminate]. intros nest. cbn [gfold EditSpec.dapply].
      destruct (find_some _ _ Em) as (Hd & Id).
      assert (Ei : is_it kd s (dval d) = it s v) by (apply it_key in Id; unfold is_it, EditSpec.key in *; destruct (inst (kd s)); [rewrite Id; reflexivity|reflexivity]).
      rewrite Ei, Em, (KD true), (Dl eq_refl), Nat.eqb_refl, Bool.eqb_reflx. cbn [andb]. replace (nest || negb (userord (kd s)) || onat_eqb (if userord (kd s) then prev_of (it s v) None g else None) (prev_of (it s v) None g)) with true; [reflexivity|]. destruct (userord (kd s)); [rewrite onat_refl, orb_true_r; reflexivity|rewrite orb_true_r; reflexivity].
Qed.

Theorem edit_diff_exact : forall es ds o, wf_data kd ds -> wf_edit kd es -> edit_apply kd es ds = ROk o -> o_err o = false ->
  diff_apply kd (o_diff o) ds = Some (o_g o) /\ (o_chg o = false -> o_diff o = []).
Proof.
  intros es ds o W (We1 & We2) H Er. destruct (fold17 false false false None es) with (seen := @nil enode) (ds := ds) (o := o) as (A & B); try assumption; try discriminate.
  - apply Forall_forall. intros e _. apply p17.
  - split; [apply A|exact B].
Qed.
End P.
