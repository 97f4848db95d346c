(** A receiver that applies the edits of a diff has the data the diff leads to. *)
From Coq Require Import List Bool Arith NArith Lia Sorted Permutation.
From Verif Require Import Edit EditSpec EditProofs EditSem EditDiff ChangeIter ChangeIterSpec ChangeIterProofs ChangeIterPlay ChangeIterShape ChangeIterEn YangPush YangPushSpec YangPushProofs.
From Verif Require EditOrder.
Import ListNotations.

Section P.
Variable kd : nat -> kind.
Variable nk : nat -> nat.
Variable kv : nat -> nat -> nat -> nat.
Notation it := (is_it kd).
Notation key := (EditSpec.key kd).
Notation wfx := (wfx kd).
Notation kseq := (kseq kd nk).
Notation diff_tree := (diff_tree kd nk kv).
Notation tidy := (tidy kd).
Notation fid := (fid kd).
Notation copy_of := (copy_of kd nk kv false).
Notation agree := (agree kd nk kv false).
Notation topv := (topv kd nk kv false).
Notation ordv := (ordv kd).
Notation graft := (graft kd nk kv).
Notation apply_edit := (apply_edit kd nk kv false).
Notation apply_edits := (apply_edits kd nk kv false).
Notation yrep := (yrep kd nk kv).
Notation own_ed := (own_ed kd nk kv).
Notation dapply := (dapply kd).

(** ** Values of created subtrees *)
Definition vald (x : diff) : dnode := val_of (diff_tree x).
Lemma vald_eq : forall op s v b ov an oan ch, vald (F op s v b ov an oan ch) = D s v b (map vald ch).
Proof.
  intros. unfold vald. cbn [ChangeIter.diff_tree val_of]. f_equal. rewrite flat_map_app, keys_spec, !flat_map_map. rewrite flat_map_nil by reflexivity. cbn [app].
  rewrite <- (flat_map_single _ _ (fun x => val_of (diff_tree x))). apply flat_map_ext. intros [op' s' v' b' ov' an' oan' ch']. reflexivity.
Qed.
Lemma vald_sch : forall x, dsch (vald x) = fsch x.
Proof. intros [op s v b ov an oan ch]. rewrite vald_eq. reflexivity. Qed.
Lemma vald_val : forall x, dval (vald x) = fval x.
Proof. intros [op s v b ov an oan ch]. rewrite vald_eq. reflexivity. Qed.
Lemma grp_vald : forall s l, grp s (map vald l) = map vald (of_s s l).
Proof.
  intros s l. unfold grp, of_s. induction l as [|x t IH]; [reflexivity|]. cbn [map filter]. rewrite vald_sch. destruct (Nat.eqb (fsch x) s); cbn [map]; rewrite IH; reflexivity.
Qed.
(** Siblings in the order of schema nodes, everywhere. *)
Fixpoint lys (x : diff) : Prop :=
  match x with F _ _ _ _ _ _ _ ch => sorted ch /\ (fix all l := match l with [] => True | c :: t => lys c /\ all t end) ch end.
Lemma lys_all : forall op s v b ov an oan ch, lys (F op s v b ov an oan ch) <-> sorted ch /\ Forall lys ch.
Proof.
  intros. cbn [lys]. assert (Q : (fix all l := match l with [] => True | c :: t => lys c /\ all t end) ch <-> Forall lys ch).
  { induction ch as [|c t IH]; [split; [constructor|exact (fun _ => Logic.I)]|]. rewrite Forall_cons_iff, <- IH. reflexivity. }
  rewrite Q. reflexivity.
Qed.
Lemma chained_last : forall a x b prev, chained prev (a ++ x :: b) -> fan x = match rev a with y :: _ => Some (fval y) | [] => prev end.
Proof.
  intros a x b. induction a as [|y t IH]; intros prev H; [apply H|]. cbn [app chained] in H. destruct H as (_ & H). rewrite (IH _ H). cbn [rev]. destruct (rev t) as [|z r]; reflexivity.
Qed.
Lemma lastv_map : forall l, lastv (map vald l) None = match rev l with y :: _ => Some (fval y) | [] => None end.
Proof. intros l. unfold lastv. rewrite <- map_rev. destruct (rev l) as [|y r]; [reflexivity|]. cbn [map]. rewrite vald_val. reflexivity. Qed.

Lemma nodup_filter_fid : forall s l, inst (kd s) = true -> NoDup (map fid l) -> NoDup (map fval (of_s s l)).
Proof.
  intros s l Is. induction l as [|x t IH]; intros N; [constructor|]. cbn [map] in N. inversion N as [|? ? Nx Nt]; subst. unfold of_s. cbn [filter]. destruct (Nat.eqb_spec (fsch x) s) as [E|E]; [|apply IH; exact Nt].
  cbn [map]. constructor; [|apply IH; exact Nt]. intros X. apply in_map_iff in X. destruct X as (y & Ey & Hy). apply filter_In in Hy. destruct Hy as (Hy & Sy). apply Nat.eqb_eq in Sy. apply Nx. apply in_map_iff. exists y. split; [|exact Hy].
  destruct x as [op1 s1 v1 b1 ov1 an1 oan1 ch1], y as [op2 s2 v2 b2 ov2 an2 oan2 ch2]. cbn [fsch fval YangPushProofs.fid] in *. subst. reflexivity.
Qed.

Definition okval (x : diff) : Prop := fop x = DCreate -> tidy x -> lys x -> forall nest g g', all_s (fsch x) g -> (userord (kd (fsch x)) = true -> NoDup (map dval g) /\ fan x = lastv g None) ->
  dapply nest x g = Some g' -> g' = g ++ [vald x].
Lemma kids_val : forall ch nest ch', Forall okval ch -> NoDup (map fid ch) -> Forall (fun c => fop c = DCreate) ch -> (forall t, userord (kd t) = true -> chained None (of_s t ch)) -> Forall tidy ch -> sorted ch -> Forall lys ch ->
  fold_diff (dapply nest) ch [] = Some ch' -> ch' = map vald ch.
Proof.
  intros ch nest ch' IH T1 T4 T5 T3 Y1 Y2 Fc.
  assert (K : forall l don ds', ch = don ++ l -> fold_diff (dapply nest) l (map vald don) = Some ds' -> ds' = map vald ch).
  { induction l as [|c t IHt]; intros don ds' Ech Hf; [cbn [fold_diff] in Hf; injection Hf as <-; rewrite Ech, app_nil_r; reflexivity|].
    assert (Hc : In c ch) by (rewrite Ech; apply in_or_app; right; left; reflexivity).
    cbn [fold_diff] in Hf. rewrite grp_vald in Hf. destruct (dapply nest c (map vald (of_s (fsch c) don))) as [gc|] eqn:Dc; [|discriminate].
    assert (Egc : gc = map vald (of_s (fsch c) don) ++ [vald c]).
    { apply (proj1 (Forall_forall _ _) IH c Hc (proj1 (Forall_forall _ _) T4 c Hc) (proj1 (Forall_forall _ _) T3 c Hc) (proj1 (Forall_forall _ _) Y2 c Hc) nest); [|  |exact Dc].
      - rewrite <- grp_vald. apply grp_all.
      - intros Uc. assert (Is : inst (kd (fsch c)) = true) by (destruct (kd (fsch c)); try discriminate Uc; reflexivity). split.
        + rewrite map_map. assert (Nd : NoDup (map fid don)). { rewrite Ech, map_app in T1. clear - T1. induction (map fid don) as [|z l IHl]; [constructor|]. cbn [app] in T1. inversion T1 as [|? ? N1 N2]; subst. constructor; [intros X; apply N1; apply in_or_app; left; exact X|apply IHl; exact N2]. }
          rewrite (map_ext _ fval) by (intros y; apply vald_val). apply nodup_filter_fid; assumption.
        + rewrite lastv_map. specialize (T5 (fsch c) Uc). rewrite Ech in T5. unfold of_s in T5. rewrite filter_app in T5. cbn [filter] in T5. rewrite Nat.eqb_refl in T5. rewrite (chained_last _ _ _ _ T5). reflexivity. }
    apply (IHt (don ++ [c]) ds'); [rewrite <- app_assoc; exact Ech|]. rewrite map_app. cbn [map]. rewrite <- (put_last (vald c) (map vald don)).
    - rewrite vald_sch, grp_vald, <- Egc. exact Hf.
    - change [vald c] with (map vald [c]). rewrite <- map_app. unfold sorted in Y1. rewrite Ech in Y1. replace (don ++ c :: t) with ((don ++ [c]) ++ t) in Y1 by (rewrite <- app_assoc; reflexivity).
      clear - Y1. induction (don ++ [c]) as [|z l IHl]; [constructor|]. cbn [app] in Y1. inversion Y1 as [|? ? S1 S2]; subst. cbn [map]. constructor; [apply IHl; exact S1|]. apply Forall_app in S2. destruct S2 as (S2 & _). clear - S2. induction S2 as [|w u Hw Hu IHu]; [constructor|]. cbn [map]. constructor; [rewrite !vald_sch; exact Hw|exact IHu]. }
  apply (K ch [] ch' eq_refl). exact Fc.
Qed.
Lemma all_okval : forall x, okval x.
Proof.
  intros x. induction x as [op s v b ov an oan ch IH] using diff_ind2. intros E T Y nest g g' Ag U H. cbn [fop] in E. subst op. cbn [fsch fan] in *.
  apply tidy_all in T. destruct T as (T1 & T2 & T3). destruct (T2 eq_refl) as (T4 & T5). apply lys_all in Y. destruct Y as (Y1 & Y2).
  cbn [EditSpec.dapply] in H. destruct (find (it s v) g) as [d|] eqn:Fd; [discriminate|]. destruct (fold_diff (dapply nest) ch []) as [ch'|] eqn:Fc; [|discriminate].
  pose proof (kids_val ch nest ch' IH T1 T4 T5 T3 Y1 Y2 Fc) as Ec.
  rewrite vald_eq, <- Ec. destruct (userord (kd s)) eqn:Us; [|injection H as <-; reflexivity].
  destruct (U eq_refl) as (Ng & Ea). rewrite Ea in H. rewrite <- (app_nil_r g) in H at 2. rewrite insert_at_split in H; [injection H as <-; reflexivity|]. rewrite app_nil_r. exact Ng.
Qed.
Lemma created_kids : forall s v b ov an oan ch nest ch', tidy (F DCreate s v b ov an oan ch) -> lys (F DCreate s v b ov an oan ch) -> fold_diff (dapply nest) ch [] = Some ch' -> ch' = map vald ch.
Proof.
  intros s v b ov an oan ch nest ch' T Y H. apply tidy_all in T. destruct T as (T1 & T2 & T3). destruct (T2 eq_refl) as (T4 & T5). apply lys_all in Y. destruct Y as (Y1 & Y2).
  apply (kids_val ch nest ch'); try assumption. apply Forall_forall. intros x _. apply all_okval.
Qed.

(** ** Grafting *)
Lemma strip_app : forall p r, strip p (p ++ r) = Some r.
Proof. induction p as [|a p IH]; intros r; [reflexivity|]. cbn [app strip]. destruct (id_dec a a); [apply IH|congruence]. Qed.
Lemma strip_some : forall p q r, strip p q = Some r -> q = p ++ r.
Proof. induction p as [|a p IH]; intros q r H; [injection H as <-; reflexivity|]. destruct q as [|b q]; [discriminate|]. cbn [strip] in H. destruct (id_dec a b) as [->|]; [|discriminate]. cbn [app]. f_equal. apply IH. exact H. Qed.
Lemma graft_child : forall p id s new c, child p (p ++ [id]) s c (graft p id new c).
Proof.
  intros p id s new c. split.
  - intros (q, k) N. cbn [YangPushSpec.graft c_val fst snd] in *. destruct (strip (p ++ [id]) q) as [r|] eqn:Q; [|reflexivity]. exfalso. exact (N r (strip_some _ _ _ Q)).
  - intros q t N _. cbn [YangPushSpec.graft c_ord]. destruct (strip (p ++ [id]) q) as [r|] eqn:Q; [|reflexivity]. exfalso. exact (N r (strip_some _ _ _ Q)).
Qed.
Lemma graft_top : forall p id new c k, c_val (graft p id new c) (p ++ [id], k) = topv (lk kd id new) k.
Proof. intros p id new c k. cbn [YangPushSpec.graft c_val fst snd]. rewrite <- (app_nil_r (p ++ [id])) at 2. rewrite strip_app. apply cv_top. Qed.
Lemma graft_agree : forall p id new c, agree (p ++ [id]) (graft p id new c) (kidsof (lk kd id new)).
Proof.
  intros p id new c. split.
  - intros r k N. cbn [YangPushSpec.graft c_val fst snd]. rewrite strip_app. apply cv_sub. exact N.
  - intros r s. cbn [YangPushSpec.graft c_ord]. rewrite strip_app. apply co_sub.
Qed.
Lemma graft_ord : forall p id new c s, c_ord (graft p id new c) p s = c_ord c p s.
Proof.
  intros p id new c s. cbn [YangPushSpec.graft c_ord]. destruct (strip (p ++ [id]) p) as [r|] eqn:Q; [|reflexivity]. apply strip_some in Q. rewrite <- app_assoc in Q. exfalso. exact (app_ne p _ _ Q).
Qed.
Lemma lk_one : forall s v b ch, lk kd (s, key s v) [D s v b ch] = Some (D s v b ch).
Proof. intros. unfold lk. cbn [find EditSpec.ident fst snd]. rewrite !Nat.eqb_refl. reflexivity. Qed.

(** ** Edits that do nothing any more *)
Lemma edits_app : forall a l c c1, apply_edits a c = Some c1 -> apply_edits (a ++ l) c = apply_edits l c1.
Proof. induction a as [|e t IH]; intros l c c1 A; [injection A as <-; reflexivity|]. cbn [app YangPushSpec.apply_edits] in *. destruct (apply_edit e c); [|discriminate]. apply IH. exact A. Qed.
Lemma edits_app2 : forall a l c c1 c2, apply_edits a c = Some c1 -> apply_edits l c1 = Some c2 -> apply_edits (a ++ l) c = Some c2.
Proof. intros a l c c1 c2 A B. rewrite (edits_app a l c c1 A). exact B. Qed.
Lemma edits_one : forall e c c1, apply_edit e c = Some c1 -> apply_edits [e] c = Some c1.
Proof. intros e c c1 A. cbn [YangPushSpec.apply_edits]. rewrite A. reflexivity. Qed.
Lemma edits_cons : forall e l c c1 c2, apply_edit e c = Some c1 -> apply_edits l c1 = Some c2 -> apply_edits (e :: l) c = Some c2.
Proof. intros e l c c1 c2 A B. cbn [YangPushSpec.apply_edits]. rewrite A. exact B. Qed.
Lemma keys_gone : forall q c l, (forall k, c_val c (q, k) = None) -> apply_edits (map (fun i => mkyed 0 YDelete (q, Some i) None None) l) c = Some c.
Proof. intros q c l H. induction l as [|i t IH]; [reflexivity|]. cbn [map]. apply (edits_cons _ _ c c c); [|exact IH]. unfold YangPushSpec.apply_edit. cbn [y_tgt y_op]. unfold there. rewrite H. reflexivity. Qed.
Lemma below_gone : forall x, fop x = DDelete -> wfx x -> forall p c, (forall r k, c_val c (p ++ fid x :: r, k) = None) -> apply_edits (yrep p x) c = Some c.
Proof.
  intros x. induction x as [op s v b ov an oan ch IH] using diff_ind2. intros E W p c H. cbn [fop] in E. subst op. apply wfx_all in W. destruct W as (_ & W2 & _ & W4). specialize (W2 eq_refl). cbn [YangPushProofs.yrep YangPushProofs.fid] in *. set (q := p ++ [(s, key s v)]).
  assert (Hq : forall r k, c_val c (q ++ r, k) = None) by (intros r k; unfold q; rewrite <- app_assoc; apply H).
  assert (Hq0 : forall k, c_val c (q, k) = None) by (intros k; rewrite <- (app_nil_r q); apply Hq).
  apply (edits_app2 _ _ c c c).
  - cbn [YangPushProofs.own_ed]. apply (edits_cons _ _ c c c); [|apply keys_gone; exact Hq0].
    unfold YangPushSpec.apply_edit. cbn [y_tgt y_op y_val y_where]. assert (R : rev q = (s, key s v) :: rev p) by (unfold q; rewrite rev_app_distr; reflexivity). rewrite R. cbn zeta. unfold there. rewrite Hq0. reflexivity.
  - clear - IH W2 W4 Hq. induction IH as [|x t Hx Ht IHt]; [reflexivity|]. inversion W2 as [|? ? D1 D2]; subst. inversion W4 as [|? ? X1 X2]; subst. cbn [flat_map]. apply (edits_app2 _ _ c c c); [|apply IHt; assumption]. apply (Hx D1 X1). intros r k. apply Hq.
Qed.

(** ** A node and its descendants *)
Definition okrx (x : diff) : Prop := forall nest p c ds g, wf_data kd ds -> agree p c ds -> exists_path p c = true -> wfx x -> tidy x -> lys x ->
  dapply nest x (grp (fsch x) ds) = Some g ->
  exists c', apply_edits (yrep p x) c = Some c' /\ agree p c' (put (fsch x) g ds) /\ below p c c' /\ wf_data kd (put (fsch x) g ds).
Lemma okrxs : forall xs, Forall okrx xs -> forall nest p c ds ds', wf_data kd ds -> agree p c ds -> exists_path p c = true ->
  Forall wfx xs -> Forall tidy xs -> Forall lys xs -> fold_diff (dapply nest) xs ds = Some ds' ->
  exists c', apply_edits (flat_map (yrep p) xs) c = Some c' /\ agree p c' ds' /\ below p c c' /\ wf_data kd ds'.
Proof.
  intros xs H. induction H as [|x t Hx Ht IH]; intros nest p c ds ds' W A E X T Y Fd.
  - cbn [fold_diff] in Fd. injection Fd as <-. exists c. split; [reflexivity|]. split; [exact A|]. split; [apply below_refl|exact W].
  - cbn [fold_diff] in Fd. destruct (dapply nest x (grp (fsch x) ds)) as [g|] eqn:Dx; [|discriminate]. inversion X as [|? ? Xx Xt]; subst. inversion T as [|? ? Tx Tt]; subst. inversion Y as [|? ? Yx Yt]; subst.
    destruct (Hx nest p c ds g W A E Xx Tx Yx Dx) as (c1 & P1 & A1 & B1 & W1).
    assert (Et : exists_path p c1 = true) by (rewrite (below_exists _ _ _ B1); exact E).
    destruct (IH nest p c1 _ ds' W1 A1 Et Xt Tt Yt Fd) as (c2 & P2 & A2 & B2 & W2).
    exists c2. cbn [flat_map]. split; [apply (edits_app2 _ _ c c1 c2); assumption|]. split; [exact A2|]. split; [apply (below_trans _ _ c1); assumption|exact W2].
Qed.
Lemma rx_tail : forall x s v p c ds g c2 od,
  agree p c ds -> apply_edits (yrep p x) c = Some c2 -> child p (p ++ [(s, key s v)]) s c c2 ->
  (forall k, c_val c2 (p ++ [(s, key s v)], k) = topv od k) -> agree (p ++ [(s, key s v)]) c2 (kidsof od) ->
  c_ord c2 p s = ordv s (put s g ds) ->
  all_s s g -> find (it s v) g = od -> (forall v', key s v' <> key s v -> find (it s v') g = find (it s v') (grp s ds)) ->
  wf_data kd (put s g ds) ->
  exists c', apply_edits (yrep p x) c = Some c' /\ agree p c' (put s g ds) /\ below p c c' /\ wf_data kd (put s g ds).
Proof.
  intros x s v p c ds g c2 od A P2 Cc T2 A2 Oo Ga Gf Go Wp. exists c2. split; [exact P2|]. split; [|split; [exact (child_below p _ s c c2 Cc)|exact Wp]].
  destruct (put_others kd s v g ds Ga Go) as (Po1 & Po2).
  assert (Lk : lk kd (s, key s v) (put s g ds) = od) by (rewrite lk_put by exact Ga; exact Gf).
  apply (agree_child kd nk kv false p (s, key s v) s c c2 ds (put s g ds) A Cc Po1 Po2); rewrite ?Lk; assumption.
Qed.

Lemma put_at_an : forall q an v l, put_at false (wh q an) v l = place (after_of an) v l.
Proof. intros q [a|] v l; reflexivity. Qed.
Ltac thr c b H := match goal with |- context [there ?X c] => replace (there X c) with b by (symmetry; exact H) end.
Lemma rx_del : forall p s v c, there (p ++ [(s, v)], None) c = true ->
  apply_edit (mkyed 0 YDelete (p ++ [(s, v)], None) None None) c = Some (if userord (kd s) then set_ord p s (filter (fun y => negb (Nat.eqb y v)) (c_ord c p s)) (graft p (s, v) [] c) else graft p (s, v) [] c).
Proof. intros p s v c H. unfold YangPushSpec.apply_edit. cbn [y_tgt y_op y_val y_where]. rewrite rev_app_distr. cbn [rev app]. cbn zeta. thr c true H. rewrite rev_involutive. reflexivity. Qed.
Lemma rx_gone : forall p s v c, there (p ++ [(s, v)], None) c = false -> apply_edit (mkyed 0 YDelete (p ++ [(s, v)], None) None None) c = Some c.
Proof. intros p s v c H. unfold YangPushSpec.apply_edit. cbn [y_tgt y_op y_val y_where]. rewrite rev_app_distr. cbn [rev app]. cbn zeta. thr c false H. reflexivity. Qed.
Lemma rx_move : forall p s v c q an o, there (p ++ [(s, v)], None) c = true -> place (after_of an) v (c_ord c p s) = Some o ->
  apply_edit (mkyed 0 YMove (p ++ [(s, v)], None) (Some (wh q an)) None) c = Some (set_ord p s o c).
Proof. intros p s v c q an o H P. unfold YangPushSpec.apply_edit. cbn [y_tgt y_op y_val y_where]. rewrite rev_app_distr. cbn [rev app]. cbn zeta. thr c true H. rewrite rev_involutive, put_at_an, P. reflexivity. Qed.
Lemma rx_replace : forall p s v c d, exists_path p c = true -> apply_edit (mkyed 0 YReplace (p ++ [(s, v)], None) None (Some d)) c = Some (graft p (s, v) [d] c).
Proof. intros p s v c d H. unfold YangPushSpec.apply_edit. cbn [y_tgt y_op y_val y_where]. rewrite rev_app_distr. cbn [rev app]. cbn zeta. rewrite rev_involutive, H. reflexivity. Qed.
Lemma rx_create : forall p s v c d, there (p ++ [(s, v)], None) c = false -> exists_path p c = true -> apply_edit (mkyed 0 YCreate (p ++ [(s, v)], None) None (Some d)) c = Some (graft p (s, v) [d] c).
Proof. intros p s v c d T H. unfold YangPushSpec.apply_edit. cbn [y_tgt y_op y_val y_where]. rewrite rev_app_distr. cbn [rev app]. cbn zeta. thr c false T. rewrite rev_involutive, H. reflexivity. Qed.
Lemma rx_insert : forall p s v c d q an o, there (p ++ [(s, v)], None) c = false -> exists_path p c = true -> place (after_of an) v (c_ord c p s) = Some o ->
  apply_edit (mkyed 0 YInsert (p ++ [(s, v)], None) (Some (wh q an)) (Some d)) c = Some (set_ord p s o (graft p (s, v) [d] c)).
Proof. intros p s v c d q an o T H P. unfold YangPushSpec.apply_edit. cbn [y_tgt y_op y_val y_where]. rewrite rev_app_distr. cbn [rev app]. cbn zeta. thr c false T. rewrite rev_involutive, H, put_at_an. cbn [negb andb]. rewrite P. reflexivity. Qed.
Lemma all_okrx : forall x, okrx x.
Proof.
  intros x. induction x as [op s v b ov an oan ch IH] using diff_ind2. intros nest p c ds g W A E X T Y H. cbn [fsch fop] in *.
  pose proof X as X0. pose proof T as T0. pose proof Y as Y0.
  apply wfx_all in X. destruct X as (X1 & X2 & (Xc & Xb & Xt) & X4). apply tidy_all in T. destruct T as (T1 & T2 & T3). apply lys_all in Y. destruct Y as (Y1 & Y2).
  pose proof (wf_grp kd ds s W) as G. pose proof (proj1 G) as Gs. pose proof (proj2 (proj2 G)) as Gw.
  pose proof (proj1 (agree_iff kd nk kv false p c ds) A) as (Ai & Ao). specialize (Ai (s, key s v)). destruct Ai as (At & Aq). rewrite lk_find in At, Aq.
  cbn [EditSpec.dapply] in H.
  set (q := p ++ [(s, key s v)]) in *.
  assert (R : rev q = (s, key s v) :: rev p) by (unfold q; rewrite rev_app_distr; reflexivity).
  destruct (find (it s v) (grp s ds)) as [d|] eqn:Fd.
  - (* there *)
    pose proof (find_some _ _ Fd) as (Hd & Id). pose proof (proj1 (Forall_forall _ _) Gs d Hd) as Sd. cbn beta in Sd. pose proof (proj1 (Forall_forall _ _) Gw d Hd) as Wd.
    pose proof (key_of_it kd s v d Id) as Kd.
    assert (Wd' : (match kd s with KCont _ => dval d = 0 | _ => True end) /\ (ddflt d = true -> kd s = KLeaf) /\ (term (kd s) = true -> dch d = []) /\ wf_data kd (dch d)).
    { destruct d as [s' v' b' ch']. cbn [dsch] in Sd. subst s'. apply (ChangeIterPlay.wfd_all kd nk kv) in Wd. exact Wd. }
    destruct Wd' as (D1 & D2 & D3 & D4).
    assert (Th : there (q, None) c = true) by (unfold there; rewrite At; reflexivity).
    assert (Eq : forall c1, (forall k, c_val c1 (q, k) = topv (Some d) k) -> exists_path q c1 = true). { intros c1 Z. specialize (Z None). unfold exists_path. clear - Z. clearbody q. destruct q; [reflexivity|]. exact (f_equal (fun o => match o with Some _ => true | None => false end) Z). }
    (* children are changed in a node that is there *)
    assert (Kids : forall op' c1 ch', op' <> DCreate -> apply_edits (own_ed q (F op' s v b ov an oan ch)) c = Some c1 -> (forall k, c_val c1 (q, k) = topv (Some d) k) -> agree q c1 (dch d) -> fold_diff (dapply nest) ch (dch d) = Some ch' ->
      exists c2, apply_edits (yrep p (F op' s v b ov an oan ch)) c = Some c2 /\ agree q c2 ch' /\ below q c1 c2 /\ wf_data kd ch').
    { intros op' c1 ch' No P1 V1 A1 Fch. destruct (okrxs ch IH nest q c1 (dch d) ch' D4 A1 (Eq c1 V1) X4 T3 Y2 Fch) as (c2 & P2 & A2 & B2 & W2).
      exists c2. split; [|split; [exact A2|split; [exact B2|exact W2]]]. cbn [YangPushProofs.yrep]. fold q. apply (edits_app2 _ _ c c1 c2 P1). destruct op'; [exact P2|congruence|exact P2|exact P2]. }
    assert (Stay : forall v1 b1 ch', it s v (D s v1 b1 ch') = true -> (match kd s with KCont _ => v1 = 0 | _ => True end) -> (b1 = true -> kd s = KLeaf) -> (userord (kd s) = true -> v1 = dval d) ->
      fold_diff (dapply nest) ch (dch d) = Some ch' -> g = update_first (it s v) (fun _ => D s v1 b1 ch') (grp s ds) ->
      forall c2, apply_edits (yrep p (F op s v b ov an oan ch)) c = Some c2 -> child p q s c c2 -> c_ord c2 p s = c_ord c p s -> (forall k, c_val c2 (q, k) = topv (Some (D s v1 b1 ch')) k) -> agree q c2 ch' -> wf_data kd ch' ->
      exists c', apply_edits (yrep p (F op s v b ov an oan ch)) c = Some c' /\ agree p c' (put s g ds) /\ below p c c' /\ wf_data kd (put s g ds)).
    { intros v1 b1 ch' I1 V1 B1 U1 Fch Eg c2 P2 C2 O2 Z2 A2 Wk. pose proof (key_of_it kd s v _ I1) as K1. cbn [dval] in K1.
      assert (Ga : all_s s g) by (rewrite Eg; apply all_update; [exact Gs|reflexivity]).
      apply (rx_tail _ s v p c ds g c2 (Some (D s v1 b1 ch'))); try assumption.
      - rewrite O2, Ao, ord_put by exact Ga. unfold ChangeIterPlay.ordv, order. destruct (userord (kd s)) eqn:U; [|reflexivity]. rewrite Eg. clear - Fd U1 U. specialize (U1 eq_refl). subst v1. revert Fd. generalize (grp s ds). intros g0. induction g0 as [|y t IHt]; intros Fd; [reflexivity|]. cbn [find update_first map] in *. destruct (it s v y); [injection Fd as ->; reflexivity|]. cbn [map]. rewrite <- IHt by exact Fd. reflexivity.
      - rewrite Eg. apply (find_update_same kd s v (fun _ => D s v1 b1 ch') _ d Fd I1).
      - intros v' N. rewrite Eg. apply (find_update_other kd); [exact N|]. intros. exact I1.
      - apply wf_put; [exact W|]. rewrite Eg. apply wfg_update; [exact G|]. intros y Hy Iy. split; [reflexivity|]. split; [cbn [dval]; rewrite K1; symmetry; apply key_of_it; exact Iy|].
        apply (ChangeIterPlay.wfd_all kd nk kv). split; [exact V1|]. split; [exact B1|]. split; [|exact Wk]. intros Tm. rewrite (D3 Tm), (Xt Tm) in Fch. injection Fch as <-. reflexivity. }
    destruct op; [|congruence| |].
    + (* none *)
      destruct (fold_diff (dapply nest) ch (dch d)) as [ch'|] eqn:Fch; [|discriminate].
      assert (N1 : DNone <> DCreate) by discriminate.
      destruct (Kids DNone c ch' N1 eq_refl At Aq eq_refl) as (c2 & P2 & A2 & B2 & W2). assert (Cc : child p q s c c2) by (apply below_child; exact B2).
      assert (O2 : c_ord c2 p s = c_ord c p s) by exact (below_ord_above _ _ _ _ s B2).
      destruct (term (kd s)) eqn:Tm.
      * destruct (ov_eqb ov d) eqn:Ov; [|discriminate]. injection H as <-. destruct (X1 eq_refl) as (b0 & Q). subst ov. cbn [ov_eqb] in Ov. apply andb_true_iff in Ov. destruct Ov as (Ov1 & Ov2). apply Nat.eqb_eq in Ov1.
        apply (Stay v b ch' (it_refl kd _ _ _ _) Xc Xb (fun _ => Ov1) eq_refl eq_refl c2 P2 Cc O2); [|exact A2|exact W2].
        intros k. rewrite (below_top _ _ _ _ B2), At. unfold ChangeIterPlay.topv. cbn [dval ddflt dsch]. rewrite Sd. destruct k as [i|]; [destruct (kd s); try reflexivity; discriminate Tm|]. unfold ChangeIterSpec.fv. rewrite <- Ov1. reflexivity.
      * injection H as <-. assert (I1 : it s v (D s (dval d) (ddflt d) ch') = true) by (apply it_key; exact Kd).
        apply (Stay (dval d) (ddflt d) ch' I1 D1 D2 (fun _ => eq_refl) eq_refl eq_refl c2 P2 Cc O2); [|exact A2|exact W2].
        intros k. rewrite (below_top _ _ _ _ B2), At. unfold ChangeIterPlay.topv. cbn [dval ddflt dsch]. rewrite Sd. reflexivity.
    + (* delete *)
      destruct (fold_diff (dapply true) ch (dch d)) as [[|? ?]|] eqn:Fch; try discriminate.
      destruct (Nat.eqb v (dval d) && Bool.eqb b (ddflt d) && _) eqn:Q; [|discriminate]. injection H as <-. apply andb_true_iff in Q. destruct Q as (Q & _). apply andb_true_iff in Q. destruct Q as (Q1 & Q2). apply Nat.eqb_eq in Q1.
      set (g := remove_first (it s v) (grp s ds)) in *.
      assert (Ga : all_s s g) by (apply all_remove; exact Gs).
      set (c0 := graft p (s, key s v) [] c).
      set (c1 := if userord (kd s) then set_ord p s (filter (fun y => negb (Nat.eqb y (key s v))) (c_ord c p s)) c0 else c0).
      assert (V1 : forall r k, c_val c1 (q ++ r, k) = None).
      { intros r k. assert (Q : c_val c1 = c_val c0) by (unfold c1; destruct (userord (kd s)); reflexivity). rewrite Q. unfold c0. cbn [YangPushSpec.graft c_val fst snd]. fold q. rewrite strip_app. destruct k; reflexivity. }
      assert (V10 : forall k, c_val c1 (q, k) = None) by (intros k; rewrite <- (app_nil_r q); apply V1).
      assert (P1 : apply_edits (yrep p (F DDelete s v b ov an oan ch)) c = Some c1).
      { cbn [YangPushProofs.yrep]. fold q. apply (edits_app2 _ _ c c1 c1).
        - cbn [YangPushProofs.own_ed]. apply (edits_cons _ _ c c1 c1); [|apply keys_gone; exact V10]. exact (rx_del p s (key s v) c Th).
        - specialize (X2 eq_refl). clear - X2 X4 V1. induction ch as [|x t IHt]; [reflexivity|]. inversion X2 as [|? ? Z1 Z2]; subst. inversion X4 as [|? ? Z3 Z4]; subst. cbn [flat_map]. apply (edits_app2 _ _ c1 c1 c1); [|apply IHt; assumption]. apply below_gone; [exact Z1|exact Z3|]. intros r k. apply V1. }
      apply (rx_tail _ s v p c ds g c1 None A P1); fold q; try assumption.
      * unfold c1. destruct (userord (kd s)); [|apply graft_child]. apply (child_trans p q s c c0); [apply graft_child|apply set_ord_child].
      * assert (A0 : agree q c0 []) by exact (graft_agree p (s, key s v) [] c). cbn [kidsof]. unfold c1. destruct (userord (kd s)); [apply agree_set_ord; exact A0|exact A0].
      * rewrite ord_put by exact Ga. unfold c1. rewrite Ao. unfold ChangeIterPlay.ordv, order. destruct (userord (kd s)) eqn:U; [rewrite set_ord_same|unfold c0; rewrite graft_ord, Ao; unfold ChangeIterPlay.ordv; rewrite U; reflexivity].
        assert (Is : inst (kd s) = true) by (destruct (kd s); try discriminate U; reflexivity). assert (Kk : key s v = v) by (unfold EditSpec.key; rewrite Is; reflexivity). rewrite Kk. symmetry. apply remove_vals; [exact Is|apply (wfg_vals kd s); assumption].
      * apply (find_remove_same kd). apply G.
      * intros v' N. apply (find_remove_other kd). exact N.
      * apply wf_put; [exact W|]. apply wfg_remove. exact G.
    + (* replace *)
      destruct (fold_diff (dapply nest) ch (dch d)) as [ch'|] eqn:Fch; [|discriminate].
      assert (N1 : DReplace <> DCreate) by discriminate.
      destruct (userord (kd s)) eqn:U.
      * (* moved *)
        match type of H with (if onat_eqb oan ?y then _ else _) = _ => destruct (onat_eqb oan y) eqn:Eo end; [|discriminate]. apply onat_eq in Eo.
        assert (Is : inst (kd s) = true) by (destruct (kd s); try discriminate U; reflexivity). assert (Kk : key s v = v) by (unfold EditSpec.key; rewrite Is; reflexivity).
        assert (Vd : dval d = v) by (unfold is_it in Id; rewrite Is in Id; apply Nat.eqb_eq; exact Id).
        destruct (insert_at_mid _ _ _ _ H) as (l & r & Er & Eg & El).
        set (nw := D s (dval d) (ddflt d) ch') in *.
        assert (Fr : find (it s v) (l ++ r) = None) by (rewrite <- Er; apply (find_remove_same kd); apply G).
        assert (Inw : it s v nw = true) by (apply it_key; exact Kd).
        assert (Ga : all_s s g). { rewrite Eg. assert (Z : all_s s (l ++ r)) by (rewrite <- Er; apply all_remove; exact Gs). apply Forall_app in Z. apply Forall_app. split; [apply Z|]. constructor; [reflexivity|apply Z]. }
        assert (Pl : place (after_of an) v (c_ord c p s) = Some (map dval g)).
        { rewrite <- Vd. change (dval d) with (dval nw). apply (place_insert an nw (remove_first (it s v) (grp s ds)) g); [exact H|]. rewrite Ao. unfold ChangeIterPlay.ordv, order. rewrite U. cbn [dval nw]. rewrite Vd. symmetry. apply remove_vals; [exact Is|apply (wfg_vals kd s); assumption]. }
        set (c1 := set_ord p s (map dval g) c).
        assert (P1 : apply_edits (own_ed q (F DReplace s v b ov an oan ch)) c = Some c1).
        { cbn [YangPushProofs.own_ed]. rewrite U. apply edits_one. rewrite <- Kk in Pl at 1. exact (rx_move p s (key s v) c q an _ Th Pl). }
        destruct (Kids DReplace c1 ch' N1 P1 At (agree_set_ord kd nk kv false _ _ _ _ _ _ Aq) eq_refl) as (c2 & P2 & A2 & B2 & W2).
        apply (rx_tail _ s v p c ds g c2 (Some nw) A P2); fold q; try assumption.
        -- apply (child_trans p q s c c1); [apply set_ord_child|apply below_child; exact B2].
        -- intros k. rewrite (below_top _ _ _ _ B2). unfold c1. cbn [set_ord c_val]. rewrite At. unfold ChangeIterPlay.topv. cbn [dval ddflt dsch nw]. rewrite Sd. reflexivity.
        -- rewrite (below_ord_above _ _ _ _ s B2). unfold c1. rewrite set_ord_same, ord_put, U by exact Ga. reflexivity.
        -- rewrite Eg. apply find_new; assumption.
        -- intros v' N. rewrite Eg. rewrite find_mid by (destruct (it s v' nw) eqn:Z; [exfalso; apply N; exact (it_swap kd _ _ _ _ Z Inw)|reflexivity]). rewrite <- Er. apply (find_remove_other kd). exact N.
        -- apply wf_put; [exact W|]. apply (wfg_perm kd s (l ++ r) nw); [rewrite <- Er; apply wfg_remove; exact G|reflexivity| |cbn [dval nw]; rewrite Vd; exact Fr|exists l, r; split; [reflexivity|exact Eg]].
           apply (ChangeIterPlay.wfd_all kd nk kv). split; [exact D1|]. split; [exact D2|]. split; [|exact W2]. intros Tm. rewrite (D3 Tm), (Xt Tm) in Fch. injection Fch as <-. reflexivity.
      * (* modified *)
        destruct X1 as [(X1 & _)|(K & vo & bo & Ovn & Nv)]; [discriminate|]. assert (Tm : term (kd s) = true) by (rewrite K; reflexivity). rewrite Tm in H.
        destruct (ov_eqb ov d) eqn:Ov; [|discriminate]. injection H as <-. pose proof (Xt Tm) as Ech. subst ch. cbn [fold_diff] in Fch. injection Fch as Fch. rewrite (D3 Tm) in Fch. subst ch'.
        set (c1 := graft p (s, key s v) [D s v b []] c).
        assert (P1 : apply_edits (yrep p (F DReplace s v b ov an oan [])) c = Some c1).
        { cbn [YangPushProofs.yrep flat_map]. fold q. rewrite app_nil_r. cbn [YangPushProofs.own_ed]. rewrite U. apply edits_one. pose proof (vald_eq DReplace s v b ov an oan []) as Vr. unfold vald in Vr. rewrite Vr. exact (rx_replace p s (key s v) c _ E). }
        assert (Lk : lk kd (s, key s v) [D s v b []] = Some (D s v b [])) by apply lk_one.
        assert (Uo : false = true -> v = dval d) by discriminate.
        assert (F0 : fold_diff (dapply nest) [] (dch d) = Some []) by (rewrite (D3 Tm); reflexivity).
        apply (Stay v b [] (it_refl kd _ _ _ _) Xc Xb Uo eq_refl eq_refl c1 P1); try assumption.
        -- apply graft_child.
        -- apply graft_ord.
        -- intros k. rewrite <- Lk. apply graft_top.
        -- pose proof (graft_agree p (s, key s v) [D s v b []] c) as Z. rewrite Lk in Z. exact Z.
        -- apply ChangeIterPlay.wf_data_nil.
  - (* missing *)
    destruct op; try discriminate.
    destruct (fold_diff (dapply nest) ch []) as [ch'|] eqn:Fch; [|discriminate].
    pose proof (created_kids s v b ov an oan ch nest ch' T0 Y0 Fch) as Ec.
    set (nw := D s v b ch') in *.
    assert (Inw : it s v nw = true) by apply it_refl.
    assert (Vn : val_of (diff_tree (F DCreate s v b ov an oan ch)) = nw) by (unfold nw; rewrite Ec; exact (vald_eq DCreate s v b ov an oan ch)).
    assert (Mid : exists l r, grp s ds = l ++ r /\ g = l ++ nw :: r). { destruct (userord (kd s)); [destruct (insert_at_mid _ _ _ _ H) as (l & r & Z1 & Z2 & _); exists l, r; split; assumption|]. injection H as <-. exists (grp s ds), []. rewrite app_nil_r. split; reflexivity. }
    destruct Mid as (l & r & El & Eg).
    assert (Ga : all_s s g). { rewrite Eg. assert (Z : all_s s (l ++ r)) by (rewrite <- El; exact Gs). apply Forall_app in Z. apply Forall_app. split; [apply Z|]. constructor; [reflexivity|apply Z]. }
    assert (Th : there (q, None) c = false) by (unfold there; rewrite At; reflexivity).
    set (c0 := graft p (s, key s v) [nw] c).
    set (c1 := if userord (kd s) then set_ord p s (map dval g) c0 else c0).
    assert (P1 : apply_edits (yrep p (F DCreate s v b ov an oan ch)) c = Some c1).
    { cbn [YangPushProofs.yrep]. fold q. rewrite app_nil_r. cbn [YangPushProofs.own_ed]. rewrite Vn. unfold c1. destruct (userord (kd s)) eqn:U; apply edits_one; [|exact (rx_create p s (key s v) c nw Th E)].
      assert (Is : inst (kd s) = true) by (destruct (kd s); try discriminate U; reflexivity). assert (Kk : key s v = v) by (unfold EditSpec.key; rewrite Is; reflexivity).
      assert (Pl : place (after_of an) v (c_ord c p s) = Some (map dval g)). { change v with (dval nw). apply (place_insert an nw (grp s ds) g); [exact H|]. rewrite Ao. unfold ChangeIterPlay.ordv, order. rewrite U. apply filter_id. apply (find_none_notin kd s); assumption. }
      rewrite <- Kk in Pl at 1. exact (rx_insert p s (key s v) c nw q an _ Th E Pl). }
    assert (Lk : lk kd (s, key s v) [nw] = Some nw) by apply lk_one.
    assert (Wk : wf_data kd ch').
    { assert (Okn : Forall (oknode kd nk kv false) ch) by (apply Forall_forall; intros x _; apply all_oknode).
      assert (A0 : agree [] (copy_of []) []) by (split; reflexivity). assert (L0 : false = true -> Forall (loud kd) ch) by discriminate.
      destruct (oknodes kd nk kv false ch Okn nest [] (copy_of []) [] ch' (ChangeIterPlay.wf_data_nil kd) A0 (or_intror eq_refl) X4 L0 Fch) as (_ & _ & _ & _ & Z). exact Z. }
    apply (rx_tail _ s v p c ds g c1 (Some nw) A P1); fold q; try assumption.
    + unfold c1. destruct (userord (kd s)); [|apply graft_child]. apply (child_trans p q s c c0); [apply graft_child|apply set_ord_child].
    + intros k. rewrite <- Lk. assert (Q : c_val c1 = c_val c0) by (unfold c1; destruct (userord (kd s)); reflexivity). rewrite Q. apply graft_top.
    + pose proof (graft_agree p (s, key s v) [nw] c) as Z. fold q c0 in Z. rewrite Lk in Z. unfold c1. destruct (userord (kd s)); [apply agree_set_ord; exact Z|exact Z].
    + rewrite ord_put by exact Ga. unfold c1. destruct (userord (kd s)) eqn:U; [rewrite set_ord_same; reflexivity|unfold c0; rewrite graft_ord, Ao; unfold ChangeIterPlay.ordv; rewrite U; reflexivity].
    + rewrite Eg. apply find_new; [exact Inw|]. rewrite <- El. exact Fd.
    + intros v' N. rewrite Eg, find_mid by (destruct (it s v' nw) eqn:Z; [exfalso; apply N; exact (it_swap kd _ _ _ _ Z Inw)|reflexivity]). rewrite <- El. reflexivity.
    + apply wf_put; [exact W|]. apply (wfg_perm kd s (grp s ds) nw); [exact G|reflexivity| |exact Fd|exists l, r; split; assumption].
      apply (ChangeIterPlay.wfd_all kd nk kv). split; [exact Xc|]. split; [exact Xb|]. split; [|exact Wk]. intros Tm. rewrite (Xt Tm) in Fch. injection Fch as <-. reflexivity.
Qed.

(** ** Siblings in the order of schema nodes *)
Lemma insert_perm : forall x l, Permutation (x :: l) (ly_insert x l).
Proof. intros x. induction l as [|y t IH]; cbn [ly_insert]; [apply Permutation_refl|]. destruct (Nat.leb _ _); [|apply Permutation_refl]. eapply perm_trans; [apply perm_swap|]. apply perm_skip. exact IH. Qed.
Lemma siblings_perm : forall l, Permutation l (ly_siblings l).
Proof.
  intros l. unfold ly_siblings. assert (Q : forall acc, Permutation (l ++ acc) (fold_left (fun acc x => ly_insert x acc) l acc)).
  { induction l as [|x t IH]; intros acc; cbn [fold_left app]; [apply Permutation_refl|]. eapply perm_trans; [|apply IH]. eapply perm_trans; [apply Permutation_middle|]. apply Permutation_app_head. apply insert_perm. }
  specialize (Q []). rewrite app_nil_r in Q. exact Q.
Qed.
Lemma siblings_sorted : forall l, sorted (ly_siblings l).
Proof.
  intros l. unfold ly_siblings. assert (Q : forall acc, sorted acc -> sorted (fold_left (fun acc x => ly_insert x acc) l acc)).
  { induction l as [|x t IH]; intros acc H; cbn [fold_left]; [exact H|]. apply IH. apply insert_sorted. exact H. }
  apply Q. constructor.
Qed.
Lemma insert_of_s : forall s x l, sorted l -> of_s s (ly_insert x l) = of_s s (l ++ [x]).
Proof.
  intros s x l H. unfold sorted in H. induction H as [|y t H IH Hy]; [reflexivity|]. cbn [ly_insert app]. rewrite (fsch_eq x), (fsch_eq y). destruct (Nat.leb_spec (fsch y) (fsch x)) as [L|L].
  - unfold of_s in *. cbn [filter]. rewrite IH. reflexivity.
  - unfold of_s. change (y :: t ++ [x]) with ((y :: t) ++ [x]). rewrite filter_app. cbn [filter]. destruct (Nat.eqb_spec (fsch x) s) as [E|E]; [|rewrite app_nil_r; reflexivity].
    assert (Z : filter (fun d => Nat.eqb (fsch d) s) t = []). { clear - Hy L E. induction Hy as [|z u Hz Hu IHu]; [reflexivity|]. cbn [filter]. destruct (Nat.eqb_spec (fsch z) s) as [Ez|]; [lia|exact IHu]. }
    rewrite Z. destruct (Nat.eqb_spec (fsch y) s) as [Ey|]; [lia|]. reflexivity.
Qed.
Lemma siblings_of_s : forall s l, of_s s (ly_siblings l) = of_s s l.
Proof.
  intros s l. unfold ly_siblings. assert (Q : forall acc, sorted acc -> of_s s (fold_left (fun acc x => ly_insert x acc) l acc) = of_s s (acc ++ l)).
  { induction l as [|x t IH]; intros acc H; cbn [fold_left]; [rewrite app_nil_r; reflexivity|]. rewrite IH by (apply insert_sorted; exact H). unfold of_s. rewrite filter_app. fold (of_s s (ly_insert x acc)). rewrite insert_of_s by exact H. unfold of_s. rewrite <- filter_app, <- app_assoc. reflexivity. }
  apply (Q []). constructor.
Qed.
Lemma ly_fid : forall x, fid (ly_tree x) = fid x.
Proof. intros [? ? ? ? ? ? ? ?]. reflexivity. Qed.
Lemma siblings_nodup : forall l, NoDup (map fid l) -> NoDup (map fid (ly_siblings (map ly_tree l))).
Proof.
  intros l N. apply (Permutation_NoDup (l := map fid (map ly_tree l))); [apply Permutation_map; apply siblings_perm|]. rewrite map_map. rewrite (map_ext _ fid) by apply ly_fid. exact N.
Qed.
Lemma chained_map : forall l prev, chained prev (map ly_tree l) <-> chained prev l.
Proof. induction l as [|[op s v b ov an oan ch] t IH]; intros prev; [reflexivity|]. cbn [map chained ly_tree fan fval]. rewrite IH. reflexivity. Qed.
Lemma of_s_map : forall s l, of_s s (map ly_tree l) = map ly_tree (of_s s l).
Proof. intros s. unfold of_s. induction l as [|[op s0 v b ov an oan ch] t IH]; [reflexivity|]. cbn [map filter ly_tree fsch]. destruct (Nat.eqb s0 s); cbn [map]; rewrite IH; reflexivity. Qed.
Lemma ly_tidy : forall x, tidy x -> tidy (ly_tree x).
Proof.
  intros x. induction x as [op s v b ov an oan ch IH] using diff_ind2. intros T. apply tidy_all in T. destruct T as (T1 & T2 & T3). cbn [ly_tree]. apply tidy_all. split; [apply siblings_nodup; exact T1|]. split.
  - intros E. destruct (T2 E) as (A & B). split.
    + apply ly_siblings_Forall. apply Forall_forall. intros y Hy. apply in_map_iff in Hy. destruct Hy as (z & <- & Hz). pose proof (proj1 (Forall_forall _ _) A z Hz) as Q. destruct z. exact Q.
    + intros t U. rewrite siblings_of_s, of_s_map, chained_map. apply B. exact U.
  - apply ly_siblings_Forall. clear - IH T3. induction IH as [|c t Hc Ht IHt]; [constructor|]. inversion T3; subst. cbn [map]. constructor; [apply Hc; assumption|apply IHt; assumption].
Qed.
Lemma ly_lys : forall x, lys (ly_tree x).
Proof.
  intros x. induction x as [op s v b ov an oan ch IH] using diff_ind2. cbn [ly_tree]. apply lys_all. split; [apply siblings_sorted|]. apply ly_siblings_Forall. clear - IH. induction IH; [constructor|]. cbn [map]. constructor; assumption.
Qed.

(** ** A diff *)
Theorem follow_diff : forall xs ds ds', wf_data kd ds -> Forall wfx xs -> Forall tidy xs -> diff_apply kd xs ds = Some ds' -> forall c, same c (copy_of ds) ->
  exists c', apply_edits (flat_map (yrep []) (ly_siblings (map ly_tree xs))) c = Some c' /\ same c' (copy_of ds').
Proof.
  intros xs ds ds' W X T H c (Sv & So).
  set (ys := ly_siblings (map ly_tree xs)).
  assert (Ok : Forall okrx ys) by (apply Forall_forall; intros x _; apply all_okrx).
  assert (Xs : Forall wfx ys) by (apply (tree_Forall wfx); [intros x Hx; apply ly_tree_wfx; exact Hx|exact X]).
  assert (Ts : Forall tidy ys) by (apply (tree_Forall tidy); [exact ly_tidy|exact T]).
  assert (Ls : Forall lys ys) by (apply ly_siblings_Forall; apply Forall_forall; intros y Hy; apply in_map_iff in Hy; destruct Hy as (z & <- & _); apply ly_lys).
  assert (Fd : fold_diff (dapply false) ys ds = Some ds') by (rewrite <- H; exact (diff_apply_tree kd xs ds)).
  assert (A0 : agree [] c ds) by (split; [intros r k _; apply Sv|intros r s; apply So]).
  destruct (okrxs ys Ok false [] c ds ds' W A0 eq_refl Xs Ts Ls Fd) as (c' & P & A & B & _).
  exists c'. split; [exact P|]. split; [|intros p s; exact (proj2 A p s)]. intros (p, k). destruct p as [|id p]; [|exact (proj1 A (id :: p) k ltac:(discriminate))]. etransitivity; [exact (below_top _ _ _ k B)|]. rewrite Sv. destruct k; reflexivity.
Qed.
End P.
