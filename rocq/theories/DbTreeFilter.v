(** Proofs about DbTree.v: loading with XPath filters. *)
From Coq Require Import List NArith Bool Arith Lia Permutation.
From Verif Require Import DbTree DbTreeSpec DbTreeProofs DbTreeStore DbTreeLoad.
Import ListNotations.

Lemma str_prefix_spec : forall (p s : str), str_prefix p s = true <-> exists t, s = p ++ t.
Proof.
  induction p as [|x p IH]; intros s; cbn [str_prefix].
  - split; [intros _; exists s; auto|auto].
  - destruct s as [|y s].
    + split; [discriminate|intros [t E]; discriminate].
    + rewrite andb_true_iff, IH. split.
      * intros [E [t ->]]. apply N.eqb_eq in E. subst y. exists t. auto.
      * intros [t E]. injection E as -> ->. split; [apply N.eqb_refl|eauto].
Qed.

(** ** The text of a filter *)

Lemma parse_escape : forall (p r cur : str) (st : bool),
  parse_filter cur st false (escape p ++ r) = parse_filter (cur ++ p) st false r.
Proof.
  induction p as [|c p IH]; intros r cur st; cbn [escape].
  - cbn [app]. rewrite app_nil_r. auto.
  - destruct (is_punct c) eqn:E.
    + cbn [app parse_filter]. change (cBS =? cBS)%N with true. cbv iota.
      rewrite IH, <- app_assoc. auto.
    + cbn [app parse_filter].
      assert (H : forall x, is_punct x = true -> (c =? x)%N = false).
      { intros x Hx. apply N.eqb_neq. intros ->. congruence. }
      rewrite (H cBS eq_refl), (H cBR eq_refl), (H cSP eq_refl), (H cST eq_refl).
      rewrite IH, <- app_assoc. auto.
Qed.

Lemma parse_item : forall (i : item) (r : str),
  (r = [] \/ exists x, r = cSP :: x) ->
  parse_filter [] false false (item_text i ++ r) =
  match i with IPref p => parse_filter p true false r | IExact p => parse_filter p false false r end.
Proof.
  intros [p|p] r _; cbn [item_text].
  - rewrite <- app_assoc, parse_escape. cbn [app parse_filter]. reflexivity.
  - rewrite parse_escape. reflexivity.
Qed.

Lemma parse_join : forall (l : list item) (i : item),
  parse_filter [] false false (join_items (i :: l)) = i :: l.
Proof.
  induction l as [|j l IH]; intros i.
  - cbn [join_items]. rewrite <- (app_nil_r (item_text i)). rewrite parse_item by auto.
    destruct i; reflexivity.
  - change (join_items (i :: j :: l)) with (item_text i ++ [cSP; cBR; cSP] ++ join_items (j :: l)).
    rewrite parse_item by (right; eexists; reflexivity).
    assert (H : forall (c : str) (b : bool),
              parse_filter c b false ([cSP; cBR; cSP] ++ join_items (j :: l)) = mk_item c b :: (j :: l)).
    { intros c b. rewrite <- (IH j) at 2. reflexivity. }
    destruct i; rewrite H; reflexivity.
Qed.

Definition no_comma (p : str) : Prop := ~ In cCM p.

Lemma tags_plain : forall (s cur : str), no_comma s -> tags cur s = [cur ++ s].
Proof.
  induction s as [|c s IH]; intros cur H; cbn [tags].
  - rewrite app_nil_r. auto.
  - assert (Hc : (c =? cCM)%N = false) by (apply N.eqb_neq; intros ->; apply H; left; auto).
    rewrite Hc, IH, <- app_assoc; auto. intros Hi. apply H. right. auto.
Qed.

Lemma redis_mongo : forall (l : list item) (p : str), no_comma p -> redis_match l p = mongo_match l p.
Proof.
  intros l p H. unfold redis_match, mongo_match. rewrite tags_plain by auto. cbn [app existsb].
  apply orb_false_r.
Qed.

(** ** The items of an XPath *)

Lemma path_ne : forall (a : addr), a <> [] -> path_of a <> [].
Proof. intros [|s a] H; [contradiction|]. unfold path_of. cbn [path_from]. discriminate. Qed.

Lemma parents_ok : forall (a : addr) (fuel : nat), Forall step_ok a -> (length (path_of a) < fuel)%nat ->
  exists ps, parents_f fuel (path_of a) = Some ps /\
    forall p, In p ps <-> exists q t, q <> [] /\ a = q ++ t /\ p = path_of q.
Proof.
  induction a as [|s a IH] using rev_ind; intros fuel Hok Hf.
  - destruct fuel as [|f]; [lia|]. exists []. split; auto. intros p. split; [intros []|].
    intros (q & t & Hq & E & _). destruct q; [contradiction|discriminate].
  - destruct fuel as [|f]; [lia|]. cbn [parents_f].
    apply Forall_app in Hok as [Ha Hs]. inversion Hs as [|? ? Hs1 _]; subst.
    pose proof (parent_path_text a s Hs1) as Ep.
    destruct (path_of (a ++ [s])) as [|c r] eqn:E.
    { exfalso. apply (path_ne (a ++ [s])); auto. destruct a; discriminate. }
    rewrite Ep.
    assert (Hlen : (length (path_of a) < length (c :: r))%nat).
    { rewrite <- E. unfold path_of. rewrite !path_text, text_app, app_length. cbn [text_from length]. lia. }
    destruct (IH f Ha) as (ps & E2 & Hps); [lia|]. rewrite E2.
    exists ((c :: r) :: ps). split; auto. intros p. cbn [In]. rewrite Hps. split.
    + intros [<-|(q & t & Hq & Eq & ->)].
      * exists (a ++ [s]), []. split; [destruct a; discriminate|]. split; auto. rewrite app_nil_r. auto.
      * exists q, (t ++ [s]). split; auto. split; auto. rewrite Eq, <- app_assoc. auto.
    + intros (q & t & Hq & Eq & ->). destruct t as [|x t] using rev_ind.
      * left. rewrite app_nil_r in Eq. subst q. auto.
      * right. rewrite app_assoc in Eq. apply app_inj_tail in Eq as [-> <-]. exists q, t. auto.
Qed.

Definition base (x : xq) (a : addr) : addr := if x_key x then removelast a else a.

Lemma snoc_of : forall (a : addr), a <> [] -> exists s, a = removelast a ++ [s].
Proof. intros a H. exists (last a (mkStep [] [] [])). apply app_removelast_last. auto. Qed.

Lemma path_head : forall (a : addr), Forall step_ok a -> a <> [] ->
  exists c r, path_of a = cSL :: c :: r /\ c <> cSL.
Proof.
  intros [|s a] H Hne; [contradiction|]. inversion H as [|? ? Hs _]; subst.
  unfold path_of. cbn [path_from]. pose proof Hs as ([Hm Hmb] & _).
  unfold step_text. rewrite str_eqb_neq by auto.
  destruct (s_mod s) as [|c m]; [contradiction|]. cbn [app].
  exists c. eexists. split; [reflexivity|]. inversion Hmb as [|? ? Hc _]; subst. apply Hc.
Qed.

Lemma base_text : forall (x : xq) (a : addr), x_path x = Some a -> canonical x ->
  xq_base x = Some (path_of (base x a)) /\ Forall step_ok (base x a) /\ base x a <> [].
Proof.
  intros x a Ex Hc. unfold canonical in Hc. rewrite Ex in Hc. destruct Hc as (Ht & Hok & Hne & Hk).
  destruct (path_head a Hok Hne) as (c & r & Ep & Hcc).
  assert (Eb : (match x_text x with
                | c :: _ => if (c =? cSL)%N then x_text x else cSL :: x_text x
                | [] => [cSL] end) = path_of a).
  { destruct Ht as [-> | Ht].
    - rewrite Ep. rewrite N.eqb_refl. auto.
    - rewrite Ep in *. injection Ht as ->. apply N.eqb_neq in Hcc. rewrite Hcc. auto. }
  unfold xq_base, base. rewrite Eb. destruct (x_key x).
  - destruct (snoc_of a Hne) as [s Es].
    assert (Hr : Forall step_ok (removelast a ++ [s])) by (rewrite <- Es; auto).
    apply Forall_app in Hr as [Hr Hs]. inversion Hs; subst. split; auto.
    rewrite Es at 1. apply parent_path_text; auto.
  - auto.
Qed.

(** What the items of an XPath match. *)
Definition matches (b : addr) (p : str) : Prop :=
  (exists t, p = path_of b ++ t) \/
  (exists q t, q <> [] /\ t <> [] /\ b = q ++ t /\ p = path_of q).

Lemma items_ok : forall (x : xq) (a : addr), x_path x = Some a -> canonical x ->
  exists i l, xq_items x = Some (i :: l) /\
    forall p, existsb (item_match p) (i :: l) = true <-> matches (base x a) p.
Proof.
  intros x a Ex Hc. destruct (base_text x a Ex Hc) as (Eb & Hok & Hne).
  unfold xq_items. rewrite Eb. set (b := base x a) in *. clearbody b.
  destruct (snoc_of b Hne) as [s Es].
  assert (Hr : Forall step_ok (removelast b ++ [s])) by (rewrite <- Es; auto).
  apply Forall_app in Hr as [Hr Hs]. inversion Hs; subst.
  assert (Epp : parent_path (path_of b) = Some (path_of (removelast b))).
  { rewrite Es at 1. apply parent_path_text; auto. }
  rewrite Epp.
  destruct (parents_ok (removelast b) (S (length (path_of (removelast b)))) Hr) as (ps & -> & Hps); [lia|].
  exists (IPref (path_of b)), (map IExact ps). split; auto.
  intros p. cbn [existsb item_match]. rewrite orb_true_iff, str_prefix_spec. unfold matches.
  assert (Hex : existsb (item_match p) (map IExact ps) = true <-> In p ps).
  { rewrite existsb_exists. split.
    - intros (i & Hi & Hm). apply in_map_iff in Hi as (q & <- & Hq). cbn [item_match] in Hm.
      apply str_eqb_eq in Hm. subst; auto.
    - intros Hi. exists (IExact p). split; [apply in_map; auto|]. cbn [item_match]. apply str_eqb_refl. }
  rewrite Hex, Hps. split; intros [H|H]; auto; right.
  - destruct H as (q & t & Hq & E & ->). exists q, (t ++ [s]). split; auto.
    split; [destruct t; discriminate|]. split; auto. rewrite Es, E, <- app_assoc. auto.
  - destruct H as (q & t & Hq & Ht & E & ->). exists q, (removelast t). split; auto. split; auto.
    rewrite E. apply removelast_app. auto.
Qed.

Lemma matches_below : forall (b x : addr), below b x -> matches b (path_of x).
Proof.
  intros b x [t ->]. left. unfold path_of. rewrite !path_text, text_app. eauto.
Qed.

(** The parent of a match is a match. *)
Lemma matches_parent : forall (b pa : addr) (s : step), Forall step_ok b -> Forall step_ok (pa ++ [s]) ->
  pa <> [] -> matches b (path_of (pa ++ [s])) -> matches b (path_of pa).
Proof.
  intros b pa s Hb Hok Hne [[t E]|(q & t & Hq & Ht & Eb & E)].
  - assert (Epath : path_of (pa ++ [s]) = path_of pa ++ cSL :: step_text (amod [] pa) s).
    { unfold path_of. rewrite !path_text, text_app. cbn [text_from]. rewrite app_nil_r. auto. }
    rewrite Epath in E.
    apply Forall_app in Hok as [Hpa _].
    assert (Hcmp : (exists u, path_of pa = path_of b ++ u) \/ (exists c u, path_of b = path_of pa ++ c :: u)).
    { clear -E. revert E. generalize (path_of pa) (path_of b) (cSL :: step_text (amod [] pa) s).
      intros x y z. revert y. induction x as [|c x IH]; intros [|e y] E.
      - left. exists []. auto.
      - right. exists e, y. auto.
      - left. exists (c :: x). auto.
      - cbn [app] in E. injection E as <- E. destruct (IH y E) as [[u ->]|(c' & u & ->)].
        + left. exists u. auto.
        + right. exists c', u. auto. }
    destruct Hcmp as [[u Eu]|(c & u & Eu)].
    + left. exists u. auto.
    + right. rewrite Eu, <- app_assoc in E. apply app_inv_head in E. cbn [app] in E.
      injection E as <- E.
      unfold path_of in Eu. rewrite !path_text in Eu. symmetry in Eu.
      rewrite <- (app_nil_r (text_from cSL [] b)) in Eu.
      destruct (text_prefix cSL pa b [] u [] (or_introl eq_refl) Hpa Hb (or_introl eq_refl) Eu) as [w Ew].
      exists pa, w. split; auto. split; auto. intros ->. rewrite !app_nil_r in *. subst b.
      apply (f_equal (@length N)) in Eu. rewrite app_length in Eu. cbn [length] in Eu. lia.
  - right. apply path_inj in E; auto.
    + subst q. exists pa, (s :: t). split; auto. split; [discriminate|]. split; auto.
      rewrite Eb, <- app_assoc. auto.
    + rewrite Eb in Hb. apply Forall_app in Hb. apply Hb.
Qed.

(** ** All XPaths *)

Lemma redis_items : forall (xs : list xq) (acc : list item),
  Forall canonical xs -> Forall (fun x => x_path x <> None) xs -> xs <> [] \/ acc <> [] ->
  exists i l, redis_filter xs acc = FSome (i :: l) /\ mongo_filter xs acc = FSome (i :: l) /\
    forall p, existsb (item_match p) (i :: l) = true <->
      existsb (item_match p) acc = true \/
      exists x a, In x xs /\ x_path x = Some a /\ matches (base x a) p.
Proof.
  intros xs acc Hc. revert acc. induction Hc as [|x xs Hx Hc IH]; intros acc Hp Hne.
  - cbn [redis_filter mongo_filter]. destruct acc as [|i l]; [destruct Hne; contradiction|].
    exists i, l. split; auto. split; auto. intros p. split; auto.
    intros [H|(x & a & [] & _)]; auto.
  - inversion Hp as [|? ? Hpx Hpxs]; subst. cbn [redis_filter mongo_filter].
    destruct (x_path x) as [a|] eqn:Ex; [|contradiction].
    destruct (items_ok x a Ex Hx) as (i & l & -> & Hil).
    destruct (IH (acc ++ i :: l)) as (i2 & l2 & E1 & E2 & H2); auto.
    { right. destruct acc; discriminate. }
    exists i2, l2. split; auto. split; auto. intros p. rewrite H2, existsb_app, orb_true_iff, Hil. split.
    + intros [[H|H]|(y & b & Hy & Ey & Hm)]; auto.
      * right. exists x, a. split; [left; auto|auto].
      * right. exists y, b. split; [right; auto|auto].
    + intros [H|(y & b & [<-|Hy] & Ey & Hm)]; auto.
      * left. right. rewrite Ex in Ey. injection Ey as <-. auto.
      * right. exists y, b. auto.
Qed.

Lemma mongo_all : forall (xs : list xq) (acc : list item), Forall canonical xs ->
  Exists (fun x => x_path x = None) xs -> mongo_filter xs acc = FAll.
Proof.
  intros xs acc Hc. revert acc. induction Hc as [|x xs Hx Hc IH]; intros acc H.
  - inversion H.
  - cbn [mongo_filter]. destruct (x_path x) as [a|] eqn:Ex; auto.
    destruct (items_ok x a Ex Hx) as (i & l & -> & _). apply IH.
    inversion H; subst; [congruence|auto].
Qed.

Lemma sel_map : forall (f : str -> bool) (d : data), Forall place_ok d ->
  sel_rows f (db_of d) = map rowe (filter (fun e => f (path_of (fst e))) d).
Proof.
  intros f d H. unfold sel_rows, db_of. induction H as [|e d He _ IH]; cbn [map filter]; auto.
  assert (Ep : w_path (snd (entry e)) = Some (path_of (fst e))).
  { destruct He as (pa & s & E & _). destruct e as [a k]. cbn [fst] in E. subst a. unfold entry.
    cbn [fst snd]. rewrite row_of_snoc. destruct k; auto. }
  rewrite Ep. destruct (f (path_of (fst e))); cbn [map]; rewrite IH; auto.
Qed.

Lemma filter_closed : forall (sc : schema) (d : data) (f : str -> bool), closed sc d ->
  (forall (pa : addr) (s : step) (k : kind), In (pa ++ [s], k) d -> pa <> [] ->
     f (path_of (pa ++ [s])) = true -> f (path_of pa) = true) ->
  closed sc (filter (fun e => f (path_of (fst e))) d).
Proof.
  intros sc d f (Hnd & Hp & Hcl) Hf. split; [|split].
  - clear -Hnd. induction d as [|[a k] d IH]; cbn [filter map fst]; auto.
    cbn [map fst] in Hnd. inversion Hnd as [|? ? Hn Hd]; subst.
    destruct (f (path_of a)); auto. cbn [map fst]. constructor; auto.
    intros Hi. apply Hn. apply in_map_iff in Hi as (x & <- & Hx). apply filter_In in Hx as [Hx _].
    apply in_map; auto.
  - apply Forall_forall. intros x Hx. apply filter_In in Hx as [Hx _]. rewrite Forall_forall in Hp. auto.
  - intros pa s k Hi. apply filter_In in Hi as [Hi Hfi]. cbn [fst] in Hfi.
    destruct (Hcl pa s k Hi) as [Hk Hpar]. split; auto. intros Hne.
    pose proof (Hpar Hne) as Hin. apply in_map_iff in Hin as ([pa' kp] & E & Hin). cbn [fst] in E. subst pa'.
    apply in_map_iff. exists (pa, kp). split; auto. apply filter_In. split; auto. cbn [fst].
    eapply Hf; eauto.
Qed.

Lemma filter_ext_dok : forall (f g : str -> bool) (d : data),
  (forall a k, In (a, k) d -> f (path_of a) = g (path_of a)) ->
  filter (fun e => f (path_of (fst e))) d = filter (fun e => g (path_of (fst e))) d.
Proof.
  intros f g d H. apply filter_ext_in. intros [a k] Hi. cbn [fst]. eapply H; eauto.
Qed.
