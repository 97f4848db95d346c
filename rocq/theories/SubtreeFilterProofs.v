(** The union of paths selects what the filter does. *)

From Coq Require Import String Ascii List NArith Bool Lia.
Import ListNotations.
From Verif Require Import SubtreeFilter SubtreeFilterSpec.

Section FiltInd.
  Variable P : filt -> Prop.
  Hypothesis H : forall ns nm v ch, Forall P ch -> P (F ns nm v ch).
  Fixpoint filt_ind2 (f : filt) : P f :=
    match f with
    | F ns nm v ch =>
        H ns nm v ch ((fix go l : Forall P l :=
                         match l with
                         | nil => Forall_nil P
                         | x :: r => Forall_cons x (filt_ind2 x) (go r)
                         end) ch)
    end.
End FiltInd.

(** Paths of the children. *)
Definition child_paths (c : ctx) (ns : option N) (x : filt) : list path :=
  if has_ch x then add_r c [] (print_mod c ns (f_ns x)) x
  else [[Step (print_mod c ns (f_ns x)) (f_nm x) []]].

Lemma add_r_app c f : forall pre m, add_r c pre m f = map (app pre) (add_r c [] m f).
Proof.
  induction f as [ns nm v ch IH] using filt_ind2. intros pre m.
  destruct ch as [|x r]; [reflexivity|].
  cbn [add_r]. destruct (forallb has_val (x :: r)); [reflexivity|].
  set (pr := content c ns (x :: r)). clearbody pr.
  revert IH. generalize (x :: r) as l. clear x r. induction l as [|x r IHl]; intro IH; [reflexivity|].
  apply Forall_cons_iff in IH. destruct IH as [Hx Hr].
  cbn [flat_map]. rewrite (IHl Hr), map_app. f_equal.
  destruct (has_ch x).
  - rewrite (Hx (pre ++ [Step m nm pr])), (Hx ([] ++ [Step m nm pr])), map_map.
    apply map_ext. intro a. cbn [app]. rewrite <- app_assoc. reflexivity.
  - cbn [map app]. rewrite <- app_assoc. reflexivity.
Qed.

Lemma add_r_containment c m ns nm v ch :
  ch <> [] -> forallb has_val ch = false ->
  add_r c [] m (F ns nm v ch) =
  map (cons (Step m nm (content c ns ch))) (flat_map (child_paths c ns) ch).
Proof.
  intros Hne Ha. destruct ch as [|x r]; [congruence|]. cbn [add_r]. rewrite Ha.
  set (s := Step m nm (content c ns (x :: r))). clearbody s. clear Ha Hne.
  generalize (x :: r) as l. clear x r. cbn [app].
  induction l as [|x r IHl]; [reflexivity|].
  cbn [flat_map]. rewrite map_app, IHl. f_equal. unfold child_paths.
  destruct (has_ch x); [apply add_r_app|reflexivity].
Qed.

Lemma add_r_ne c f : forall m, add_r c [] m f <> [].
Proof.
  induction f as [ns nm v ch IH] using filt_ind2. intro m.
  destruct ch as [|x r]; [discriminate|].
  cbn [add_r]. destruct (forallb has_val (x :: r)); [discriminate|].
  cbn [flat_map]. intro H. apply app_eq_nil in H. destruct H as [H _]. revert H.
  destruct (has_ch x); [|discriminate].
  rewrite add_r_app. intro H. apply map_eq_nil in H.
  apply Forall_cons_iff in IH. destruct IH as [IH _]. eapply IH, H.
Qed.

Lemma add_r_paths_ne c f : forall m p, In p (add_r c [] m f) -> p <> [].
Proof.
  intros m p. destruct f as [ns nm v ch]. destruct ch as [|x r].
  - intros [<- | []]. discriminate.
  - destruct (forallb has_val (x :: r)) eqn:E.
    + cbn [add_r]. rewrite E. intros [<- | []]. discriminate.
    + rewrite add_r_containment by (try discriminate; exact E).
      intro H. apply in_map_iff in H. destruct H as (q & <- & _). discriminate.
Qed.

Lemma child_paths_ne c ns x p : In p (child_paths c ns x) -> p <> [].
Proof.
  unfold child_paths. destruct (has_ch x).
  - apply add_r_paths_ne.
  - intros [<- | []]. discriminate.
Qed.

(** Output in a context. *)
Definition out_in (cur : option N) (ps : list path) (l : list data) (q : pos) : Prop :=
  exists_at l q /\
  exists p s, In p ps /\ selects cur p l s /\ (prefix s q \/ prefix q s).

Lemma exists_inv l i q :
  exists_at l (i :: q) -> exists t, nth_error l i = Some t /\ (q = [] \/ exists_at (d_ch t) q).
Proof. inversion 1; subst; eauto. Qed.

Lemma exists_ne l q : exists_at l q -> q <> [].
Proof. inversion 1; discriminate. Qed.

Lemma selects_exists p : forall cur l s, selects cur p l s -> exists_at l s.
Proof.
  induction p as [|st p IH]; intros cur l s; [intros []|].
  destruct s as [|i s]; [intros []|]. cbn [selects].
  intros (t & Hn & _ & Hr). destruct p as [|st' p'].
  - subst. econstructor 1; eauto.
  - econstructor 2; eauto.
Qed.

Lemma out_map cur s ps l q :
  (forall p, In p ps -> p <> []) ->
  out_in cur (map (cons s) ps) l q <->
  exists i t r, q = i :: r /\ nth_error l i = Some t /\ step_ok cur s t /\
    ((r = [] /\ exists r', out_in (Some (d_mod t)) ps (d_ch t) r') \/
     out_in (Some (d_mod t)) ps (d_ch t) r).
Proof.
  intro Hne. split.
  - intros (He & p & z & Hp & Hs & Hz). apply in_map_iff in Hp. destruct Hp as (p' & <- & Hp').
    destruct z as [|i z]; [destruct Hs|]. cbn [selects] in Hs. destruct Hs as (t & Hn & Hok & Hs).
    assert (Hs' : selects (Some (d_mod t)) p' (d_ch t) z)
      by (destruct p'; [destruct (Hne _ Hp'); reflexivity|exact Hs]).
    pose proof (selects_exists _ _ _ _ Hs') as Hez. pose proof (exists_ne _ _ Hez) as Hzn.
    destruct q as [|j r]; [destruct (exists_ne _ _ He); reflexivity|].
    assert (j = i) as -> by (destruct Hz as [(w & Hw) | (w & Hw)]; cbn [app] in Hw; congruence).
    exists i, t, r. do 3 (split; [solve [auto]|]).
    destruct (exists_inv _ _ _ He) as (t' & Hn' & Hr). assert (t' = t) by congruence. subst t'.
    destruct Hr as [-> | Hr].
    + left. split; [reflexivity|]. exists z. split; [exact Hez|]. exists p', z.
      do 2 (split; [assumption|]). left. exists []. symmetry. apply app_nil_r.
    + right. split; [exact Hr|]. exists p', z. do 2 (split; [assumption|]).
      destruct Hz as [(w & Hw) | (w & Hw)]; [left | right]; exists w; cbn [app] in Hw; congruence.
  - intros (i & t & r & -> & Hn & Hok & Hr).
    assert (Hsel : forall p' z, In p' ps -> selects (Some (d_mod t)) p' (d_ch t) z ->
                    selects cur (s :: p') l (i :: z)).
    { intros p' z Hp' Hz. cbn [selects]. exists t. do 2 (split; [assumption|]).
      destruct p'; [destruct (Hne _ Hp'); reflexivity|exact Hz]. }
    destruct Hr as [(-> & r' & He & p' & z & Hp' & Hz & _) | (He & p' & z & Hp' & Hz & Hpre)].
    + split; [econstructor 1; eauto|]. exists (s :: p'), (i :: z).
      split; [apply in_map; exact Hp'|]. split; [auto|]. right. exists z. reflexivity.
    + split; [econstructor 2; eauto|]. exists (s :: p'), (i :: z).
      split; [apply in_map; exact Hp'|]. split; [auto|].
      destruct Hpre as [(w & Hw) | (w & Hw)]; [left | right]; exists w; cbn [app]; congruence.
Qed.

Lemma out_flat {A} cur (g : A -> list path) xs l q :
  out_in cur (flat_map g xs) l q <-> exists x, In x xs /\ out_in cur (g x) l q.
Proof.
  split.
  - intros (He & p & s & Hp & Hr). apply in_flat_map in Hp. destruct Hp as (x & Hx & Hp).
    exists x. split; [exact Hx|]. split; [exact He|]. exists p, s. tauto.
  - intros (x & Hx & He & p & s & Hp & Hr). split; [exact He|]. exists p, s.
    split; [|exact Hr]. apply in_flat_map. eauto.
Qed.

Lemma out_one cur s l q :
  out_in cur [[s]] l q <->
  exists i t r, q = i :: r /\ nth_error l i = Some t /\ step_ok cur s t /\ exists_at l q.
Proof.
  split.
  - intros (He & p & z & [<- | []] & Hs & Hz). destruct z as [|i z]; [destruct Hs|].
    cbn [selects] in Hs. destruct Hs as (t & Hn & Hok & ->).
    destruct q as [|j r]; [destruct (exists_ne _ _ He); reflexivity|].
    assert (j = i) as -> by (destruct Hz as [(w & Hw) | (w & Hw)]; cbn [app] in Hw; congruence).
    exists i, t, r. auto.
  - intros (i & t & r & -> & Hn & Hok & He). split; [exact He|].
    exists [s], [i]. split; [left; reflexivity|]. split.
    + cbn [selects]. exists t. auto.
    + left. exists r. reflexivity.
Qed.

(** Names resolve. *)
Lemma print_mod_in c m m' : known c m' = true ->
  in_mod (Some m) (print_mod c (Some m) (Some m')) = Some m'.
Proof.
  intro Hk. unfold print_mod, ns_eqb. destruct (N.eqb_spec m' m) as [-> | Hne]; [reflexivity|].
  cbn [ns_mod]. rewrite Hk. reflexivity.
Qed.

Lemma wf_ns c f : wf_filt c f -> exists m, f_ns f = Some m /\ known c m = true.
Proof. inversion 1; subst. cbn [f_ns]. eauto. Qed.

Lemma holds_met c ch t m :
  Forall (wf_filt c) ch -> d_mod t = m ->
  Forall (holds t) (content c (Some m) ch) <-> met ch (d_ch t).
Proof.
  intros Hwf <-. unfold content. rewrite Forall_flat_map. rewrite Forall_forall. unfold met.
  split; intros H f Hf; specialize (H f Hf);
    (assert (Hw : wf_filt c f) by (rewrite Forall_forall in Hwf; auto));
    destruct (wf_ns _ _ Hw) as (m' & Hns & Hk); unfold is_content, names in *.
  - intro Hc. destruct (f_val f) as [v|]; [|congruence].
    apply Forall_inv in H. cbn [holds] in H. destruct H as (u & Hu & Hm & Hn & Hv).
    rewrite Hns, print_mod_in in Hm by exact Hk. exists u. do 2 (split; [try assumption; auto|]); auto.
    split; congruence.
  - destruct (f_val f) as [v|] eqn:Ev; [|constructor]. constructor; [|constructor].
    cbn [holds]. destruct H as (u & Hu & (Hm & Hn) & Hv); [discriminate|].
    exists u. rewrite Hns, print_mod_in by exact Hk. do 3 (split; [congruence || assumption|]). assumption.
Qed.

Lemma wf_data_at l i t : wf_data l -> nth_error l i = Some t -> wf_data (d_ch t).
Proof. inversion 1; subst. intro Hn. apply nth_error_In in Hn. auto. Qed.

Lemma all_content ch : forallb has_val ch = true <-> Forall is_content ch.
Proof.
  rewrite forallb_forall, Forall_forall. unfold has_val, is_content.
  split; intros H x Hx; specialize (H x Hx); destruct (f_val x); congruence.
Qed.

(** A content match node among others: under [met], the node of that name. *)
Lemma content_child c ch t x q :
  Forall (wf_filt c) ch -> wf_data (d_ch t) -> met ch (d_ch t) -> In x ch -> is_content x ->
  forall m, d_mod t = m ->
  out_in (Some m) [[Step (print_mod c (Some m) (f_ns x)) (f_nm x) []]] (d_ch t) q <->
  exists i u, q = [i] /\ nth_error (d_ch t) i = Some u /\ names x u /\ d_val u = f_val x.
Proof.
  intros Hwf Hd Hmet Hx Hc m Hm. rewrite out_one.
  assert (Hw : wf_filt c x) by (rewrite Forall_forall in Hwf; auto).
  destruct (wf_ns _ _ Hw) as (m' & Hns & Hk).
  unfold step_ok. cbn [s_mod s_nm s_preds]. rewrite Hns, print_mod_in by exact Hk.
  destruct (Hmet x Hx Hc) as (u & Hu & (Hum & Hun) & Huv).
  apply In_nth_error in Hu. destruct Hu as (j & Hj).
  inversion Hd as [l' Hl Hleaf Hsub El]; subst l'.
  assert (Huc : d_ch u = []) by (apply Hleaf; [eapply nth_error_In; eauto|unfold is_content in Hc; congruence]).
  split.
  - intros (i & u' & r & -> & Hi & (Hm' & Hn' & _) & He).
    assert (i = j) as ->.
    { symmetry. refine (Hl j i u u' Hj Hi _ _ _); unfold is_content in Hc; congruence. }
    assert (u' = u) by congruence. subst u'.
    destruct (exists_inv _ _ _ He) as (u' & Hj' & Hr). assert (u' = u) by congruence. subst u'.
    destruct Hr as [-> | Hr].
    + exists j, u. unfold names. rewrite Hns. do 3 (split; [try assumption; auto|]). assumption.
    + exfalso. rewrite Huc in Hr. inversion Hr; subst;
      match goal with H : nth_error [] ?k = Some _ |- _ => destruct k; discriminate H end.
  - intros (i & u' & -> & Hi & (Hm' & Hn') & Hv'). exists i, u', [].
    do 2 (split; [auto|]). split.
    + split; [congruence|]. split; [auto|constructor].
    + econstructor 1; eauto.
Qed.

(** The sibling set is the union of its nodes. *)
Lemma rfc_split ch l p :
  met ch l -> ~ Forall is_content ch ->
  rfc ch l p <->
  exists x, In x ch /\
    ((is_content x /\ exists i u, p = [i] /\ nth_error l i = Some u /\ names x u /\ d_val u = f_val x) \/
     (~ is_content x /\ rfc [x] l p)).
Proof.
  intros Hmet Hnc.
  assert (Hm1 : forall x, ~ is_content x -> met [x] l)
    by (intros x Hx f [<- | []]; contradiction).
  split.
  - intro H. inversion H; subst.
    + contradiction.
    + exists f. split; [assumption|]. left. split; [assumption|]. eauto 6.
    + exists f. split; [assumption|]. right.
      assert (~ is_content f) by (unfold is_content; destruct H2 as [E _]; congruence).
      split; [assumption|]. eapply rfc_selection; eauto. left; reflexivity.
    + exists f. split; [assumption|]. right.
      assert (~ is_content f) by (unfold is_content; destruct H2 as [E _]; congruence).
      split; [assumption|]. eapply rfc_inside; eauto. left; reflexivity.
    + exists f. split; [assumption|]. right.
      assert (~ is_content f) by (unfold is_content; destruct H2 as [E _]; congruence).
      split; [assumption|]. eapply rfc_node; eauto. left; reflexivity.
  - intros (x & Hx & [(Hc & i & u & -> & Hi & Hn & Hv) | (Hc & H)]).
    + eapply rfc_content; eauto.
    + inversion H; subst.
      * exfalso. apply Hc. match goal with H : Forall is_content [x] |- _ => inversion H; assumption end.
      * match goal with H : In _ [x] |- _ => destruct H as [<- | []] end. contradiction.
      * match goal with H : In _ [x] |- _ => destruct H as [<- | []] end. eapply rfc_selection; eauto.
      * match goal with H : In _ [x] |- _ => destruct H as [<- | []] end. eapply rfc_inside; eauto.
      * match goal with H : In _ [x] |- _ => destruct H as [<- | []] end. eapply rfc_node; eauto.
Qed.

(** Nothing is in the output of a set that is not met. *)
Lemma rfc_met ch l p : rfc ch l p -> met ch l.
Proof. intro H; inversion H; assumption. Qed.

(** A containment node alone. *)
Lemma rfc_containment f l q :
  is_containment f ->
  rfc [f] l q <->
  exists i t r, q = i :: r /\ nth_error l i = Some t /\ names f t /\
    ((r = [] /\ exists r', rfc (f_ch f) (d_ch t) r') \/ rfc (f_ch f) (d_ch t) r).
Proof.
  intro Hf. destruct Hf as [Hv Hch].
  assert (Hnc : ~ is_content f) by (unfold is_content; congruence).
  assert (Hmet : met [f] l) by (intros g [<- | []]; contradiction).
  split.
  - intro H. inversion H; subst;
      try (match goal with H : In _ [f] |- _ => destruct H as [<- | []] end).
    + exfalso. match goal with H : Forall is_content [f] |- _ => inversion H; contradiction end.
    + contradiction.
    + match goal with H : is_selection f |- _ => destruct H; congruence end.
    + exists i, t, p. auto 6.
    + exists i, t, []. eauto 10.
  - intros (i & t & r & -> & Hi & Hn & [(-> & r' & Hr) | Hr]).
    + eapply rfc_node; eauto; [left; reflexivity | split; assumption].
    + eapply rfc_inside; eauto; [left; reflexivity | split; assumption].
Qed.

Lemma rfc_selection_one f l q :
  is_selection f ->
  rfc [f] l q <->
  exists i t r, q = i :: r /\ nth_error l i = Some t /\ names f t /\ exists_at l q.
Proof.
  intro Hf. pose proof Hf as [Hv Hch].
  assert (Hnc : ~ is_content f) by (unfold is_content; congruence).
  assert (Hmet : met [f] l) by (intros g [<- | []]; contradiction).
  split.
  - intro H. inversion H; subst;
      try (match goal with H : In _ [f] |- _ => destruct H as [<- | []] end).
    + exfalso. match goal with H : Forall is_content [f] |- _ => inversion H; contradiction end.
    + contradiction.
    + exists i, t, p. auto.
    + match goal with H : is_containment f |- _ => destruct H; congruence end.
    + match goal with H : is_containment f |- _ => destruct H; congruence end.
  - intros (i & t & r & -> & Hi & Hn & He). eapply rfc_selection; eauto. left; reflexivity.
Qed.

Lemma rfc_exists fs l q : rfc fs l q -> exists_at l q.
Proof.
  induction 1; try assumption.
  - econstructor 1; eauto.
  - econstructor 2; eauto.
  - econstructor 1; eauto.
Qed.

Theorem add_r_spec c f : forall cur m l q,
  wf_filt c f -> wf_data l -> ~ is_content f -> in_mod cur m = f_ns f ->
  out_in cur (add_r c [] m f) l q <-> rfc [f] l q.
Proof.
  induction f as [ns nm v ch IH] using filt_ind2. intros cur m l q Hwf Hd Hnc Hm.
  inversion Hwf as [mf nm' v' ch' Hk Hvc Hch E]; subst ns nm' v' ch'. cbn [f_ns] in Hm.
  assert (Hv : v = None) by (unfold is_content in Hnc; cbn [f_val] in Hnc; destruct v; [exfalso; apply Hnc; discriminate|reflexivity]).
  subst v.
  assert (Hstep : forall t prs, step_ok cur (Step m nm prs) t <->
             names (F (Some mf) nm None ch) t /\ Forall (holds t) prs).
  { intros t prs. unfold step_ok, names. cbn [s_mod s_nm s_preds f_ns f_nm]. rewrite Hm.
    split; [intros (A & B & C) | intros ((A & B) & C)]; (split; [|try split; try assumption]);
      try congruence; auto; split; congruence. }
  destruct ch as [|x r].
  { rewrite rfc_selection_one by (split; reflexivity). cbn [add_r app]. rewrite out_one.
    split; intros (i & t & r & -> & Hi & Hs & He); exists i, t, r; do 2 (split; [auto|]);
      (split; [|exact He]).
    - apply Hstep in Hs. tauto.
    - apply Hstep. split; [exact Hs|constructor]. }
  rewrite rfc_containment by (split; [reflexivity|discriminate]). cbn [f_ch].
  remember (x :: r) as ch eqn:Ech. assert (Hne : ch <> []) by (subst; discriminate).
  destruct (forallb has_val ch) eqn:Eall.
  - assert (Hadd : add_r c [] m (F (Some mf) nm None ch) = [[Step m nm (content c (Some mf) ch)]]).
    { rewrite Ech in *. cbn [add_r]. rewrite Eall. reflexivity. }
    rewrite Hadd, out_one. clear Hadd. apply all_content in Eall.
    split.
    + intros (i & t & p & -> & Hi & Hs & He). apply Hstep in Hs. destruct Hs as [Hn Hh].
      assert (Hmt : d_mod t = mf) by (destruct Hn as [A _]; cbn [f_ns] in A; congruence).
      rewrite (holds_met c ch t mf Hch Hmt) in Hh.
      exists i, t, p. do 3 (split; [auto|]).
      destruct (exists_inv _ _ _ He) as (t' & Hi' & Hp). assert (t' = t) by congruence. subst t'.
      destruct Hp as [-> | Hp].
      * left. split; [reflexivity|].
        destruct (Hh x) as (u & Hu & _); [rewrite Ech; left; reflexivity| |].
        { rewrite Forall_forall in Eall. apply Eall. rewrite Ech. left; reflexivity. }
        apply In_nth_error in Hu. destruct Hu as (j & Hj).
        exists [j]. apply rfc_all; auto. econstructor 1; eauto.
      * right. apply rfc_all; auto.
    + intros (i & t & p & -> & Hi & Hn & Hr).
      assert (Hmt : d_mod t = mf) by (destruct Hn as [A _]; cbn [f_ns] in A; congruence).
      exists i, t, p. do 2 (split; [auto|]).
      assert (Hmet : met ch (d_ch t)) by (destruct Hr as [(_ & r' & Hr) | Hr]; apply (rfc_met _ _ _ Hr)).
      split.
      * apply Hstep. split; [exact Hn|]. rewrite (holds_met c ch t mf Hch Hmt). exact Hmet.
      * destruct Hr as [(-> & _) | Hr]; [econstructor 1; eauto|].
        econstructor 2; eauto. eapply rfc_exists; eauto.
  - rewrite add_r_containment by assumption.
    assert (Hnall : ~ Forall is_content ch) by (rewrite <- all_content; congruence).
    rewrite out_map.
    2:{ intros p Hp. apply in_flat_map in Hp. destruct Hp as (y & _ & Hp). eapply child_paths_ne; eauto. }
    assert (Hkids : forall i t, nth_error l i = Some t -> d_mod t = mf -> met ch (d_ch t) ->
              forall p, out_in (Some (d_mod t)) (flat_map (child_paths c (Some mf)) ch) (d_ch t) p <->
                        rfc ch (d_ch t) p).
    { intros i t Hi Hmt Hmet p. pose proof (wf_data_at _ _ _ Hd Hi) as Hdt.
      rewrite out_flat, rfc_split by assumption. rewrite Hmt.
      assert (Hone : forall y, In y ch -> is_content y ->
                (out_in (Some mf) (child_paths c (Some mf) y) (d_ch t) p <->
                 exists j u, p = [j] /\ nth_error (d_ch t) j = Some u /\ names y u /\ d_val u = f_val y)).
      { intros y Hy Hc. unfold child_paths.
        assert (Hw : wf_filt c y) by (rewrite Forall_forall in Hch; auto).
        assert (Hyc : f_ch y = []) by (inversion Hw; subst; unfold is_content in Hc; cbn [f_val f_ch] in *; auto).
        unfold has_ch. rewrite Hyc. apply (content_child c ch t y p); auto. }
      assert (Htwo : forall y, In y ch -> ~ is_content y ->
                (out_in (Some mf) (child_paths c (Some mf) y) (d_ch t) p <-> rfc [y] (d_ch t) p)).
      { intros y Hy Hc. unfold child_paths.
        assert (Hw : wf_filt c y) by (rewrite Forall_forall in Hch; auto).
        destruct (wf_ns _ _ Hw) as (my & Hns & Hky).
        assert (Hin : in_mod (Some mf) (print_mod c (Some mf) (f_ns y)) = f_ns y)
          by (rewrite Hns; apply print_mod_in; exact Hky).
        destruct (has_ch y) eqn:Eh.
        - rewrite Forall_forall in IH. apply IH; auto.
        - rewrite Forall_forall in IH.
          assert (Ea : [[Step (print_mod c (Some mf) (f_ns y)) (f_nm y) []]] =
                       add_r c [] (print_mod c (Some mf) (f_ns y)) y).
          { destruct y as [a b d e]. unfold has_ch in Eh. cbn [f_ch] in Eh.
            destruct e; [reflexivity|discriminate]. }
          rewrite Ea. apply IH; auto. }
      assert (Hdec : forall y, is_content y \/ ~ is_content y).
      { intro y. unfold is_content. destruct (f_val y); [left; discriminate|right; intro A; apply A; reflexivity]. }
      split.
      - intros (y & Hy & Ho). exists y. split; [exact Hy|]. destruct (Hdec y) as [Hc | Hc].
        + left. split; [exact Hc|]. apply Hone; assumption.
        + right. split; [exact Hc|]. apply Htwo; assumption.
      - intros (y & Hy & [(Hc & Ho) | (Hc & Ho)]); exists y; (split; [exact Hy|]).
        + apply Hone; assumption.
        + apply Htwo; assumption. }
    split; intros (i & t & p & -> & Hi & Hs & Hr); exists i, t, p; do 2 (split; [auto|]).
    + apply Hstep in Hs. destruct Hs as [Hn Hh].
      assert (Hmt : d_mod t = mf) by (destruct Hn as [A _]; cbn [f_ns] in A; congruence).
      rewrite (holds_met c ch t mf Hch Hmt) in Hh.
      split; [exact Hn|]. pose proof (Hkids i t Hi Hmt Hh) as Hk'.
      destruct Hr as [(-> & r' & Hr) | Hr]; [left; split; [reflexivity|exists r'] | right]; apply Hk'; exact Hr.
    + assert (Hmt : d_mod t = mf) by (destruct Hs as [A _]; cbn [f_ns] in A; congruence).
      assert (Hmet : met ch (d_ch t)) by (destruct Hr as [(_ & r' & Hr) | Hr]; apply (rfc_met _ _ _ Hr)).
      split.
      * apply Hstep. split; [exact Hs|]. rewrite (holds_met c ch t mf Hch Hmt). exact Hmet.
      * pose proof (Hkids i t Hi Hmt Hmet) as Hk'.
        destruct Hr as [(-> & r' & Hr) | Hr]; [left; split; [reflexivity|exists r'] | right]; apply Hk'; exact Hr.
Qed.

(** ** Literals *)

Lemma until_spec q v rest : has_char q v = false -> until q (v ++ String q rest) = Some (v, rest).
Proof.
  induction v as [|a v IH]; cbn [has_char String.append until].
  - intros _. rewrite Ascii.eqb_refl. reflexivity.
  - intro H. apply orb_false_iff in H. destruct H as [H1 H2].
    rewrite Ascii.eqb_sym, H1, (IH H2). reflexivity.
Qed.

Lemma until_stops q v rest w r : has_char q v = true -> until q (v ++ rest) = Some (w, r) -> w <> v.
Proof.
  revert w. induction v as [|a v IH]; cbn [has_char String.append until]; [discriminate|].
  intros w H. rewrite Ascii.eqb_sym. destruct (Ascii.eqb q a); cbn [orb] in H.
  - injection 1 as <- <-. discriminate.
  - destruct (until q (v ++ rest)) as [[w' r']|] eqn:E; [|discriminate].
    injection 1 as <- <-. intro A. injection A as A. apply (IH w' H eq_refl A).
Qed.

Lemma str_app_assoc (a b c : string) : ((a ++ b) ++ c = a ++ (b ++ c))%string.
Proof. induction a as [|x a IH]; cbn [String.append]; [reflexivity|]. rewrite IH. reflexivity. Qed.
