(** C47: a subtree filter turned into XPath selects what RFC 6241 says. *)

From Coq Require Import String Ascii List NArith Bool Lia.
Import ListNotations.
From Verif Require Import SubtreeFilter SubtreeFilterSpec SubtreeFilterProofs.

(** The property: whatever filter is converted, the data selected by the XPath
    are the ones the filter selects. *)
Definition faithful (c : ctx) (fs : list (kind * filt)) (l : list data) : Prop :=
  exists ps, subtree2xpath c fs = Paths ps /\
             forall q, output ps l q <-> rfc (map snd fs) l q.

Lemma output_app ps qs l q : output (ps ++ qs) l q <-> output ps l q \/ output qs l q.
Proof.
  unfold output. split.
  - intros (He & p & s & Hp & Hr). apply in_app_or in Hp. destruct Hp; [left | right]; split; eauto.
  - intros [(He & p & s & Hp & Hr) | (He & p & s & Hp & Hr)]; (split; [exact He|]);
      exists p, s; (split; [apply in_or_app; auto|exact Hr]).
Qed.

(** Filters of any size with namespaces of implemented modules and no content
    match node at the top level, on any data without leaf-lists.

    Missing: content match nodes at the top level, leaf-lists with content
    match nodes, namespaces that are not those of implemented modules, opaque
    nodes in a default namespace; all of these are refuted below. *)
Theorem C47_selected_partial : forall c fs l,
  wf_data l ->
  (forall k f, In (k, f) fs -> k <> OpaqPlain /\ wf_filt c f /\ ~ is_content f) ->
  faithful c fs l.
Proof.
  intros c fs l Hd. unfold faithful.
  assert (Hun : forall gs q, (forall f, In f gs -> ~ is_content f) ->
             (rfc gs l q <-> exists f, In f gs /\ rfc [f] l q)).
  { intros gs q Hg. destruct gs as [|g0 gs'].
    - split.
      + intro H. inversion H; subst; try contradiction.
      + intros (f & [] & _).
    - rewrite rfc_split.
      + split.
        * intros (x & Hx & [(Hc & _) | (_ & H)]); [destruct (Hg x Hx Hc)|eauto].
        * intros (x & Hx & H). exists x. split; [exact Hx|]. right. auto.
      + intros f Hf Hc. destruct (Hg f Hf Hc).
      + intro HF. inversion HF; subst. apply (Hg g0); [left; reflexivity|assumption]. }
  induction fs as [|[k f] r IH]; intro Hall.
  - exists []. split; [reflexivity|]. intro q. split.
    + intros (_ & p & s & [] & _).
    + intro H. inversion H; subst; try contradiction.
  - destruct IH as (ps & Hps & Hq); [intros; apply Hall; right; assumption|].
    destruct (Hall k f) as (Hk & Hwf & Hc); [left; reflexivity|].
    assert (Hv : f_val f = None) by (unfold is_content in Hc; destruct (f_val f); [exfalso; apply Hc; discriminate|reflexivity]).
    assert (Hmod : print_top_mod c None (f_ns f) = f_ns f).
    { destruct (wf_ns _ _ Hwf) as (m & Hns & Hkn). rewrite Hns. cbn [print_top_mod ns_mod]. rewrite Hkn. reflexivity. }
    exists (add_r c [] (f_ns f) f ++ ps). split.
    + cbn [subtree2xpath]. unfold create_node, create_top. rewrite Hv, Hmod, Hps.
      destruct k; [reflexivity|reflexivity|congruence].
    + intro q. rewrite output_app, Hq. cbn [map snd].
      assert (Ho : output (add_r c [] (f_ns f) f) l q <-> rfc [f] l q).
      { apply (add_r_spec c f None (f_ns f) l q); auto. destruct (f_ns f); reflexivity. }
      assert (Hg : forall g, In g (f :: map snd r) -> ~ is_content g).
      { intros g [<- | Hg]; [exact Hc|]. apply in_map_iff in Hg. destruct Hg as ([k' g'] & <- & Hg).
        apply (Hall k' g'). right; exact Hg. }
      rewrite Ho, (Hun (f :: map snd r)) by exact Hg.
      rewrite (Hun (map snd r)) by (intros g A; apply Hg; right; exact A).
      split.
      * intros [H | (g & Hin & H)]; [exists f; split; [left; reflexivity|exact H]|exists g; split; [right; exact Hin|exact H]].
      * intros (g & [<- | Hin] & H); [left; exact H|right; exists g; auto].
Qed.
Print Assumptions C47_selected_partial.

(** A filter is never turned into no XPath (which selects everything). *)
Theorem C47_nonempty : forall c fs ps,
  fs <> [] -> subtree2xpath c fs = Paths ps -> ps <> [].
Proof.
  intros c fs ps Hne. destruct fs as [|[k f] r]; [congruence|]. clear Hne.
  assert (Htop : forall tm k p, create_top c tm k f = Paths p -> p <> []).
  { intros tm k' p. unfold create_top. destruct (f_val f).
    - destruct tm; [|destruct k']; try discriminate; injection 1 as <-; discriminate.
    - intro E. assert (p = add_r c [] (print_top_mod c tm (f_ns f)) f) by congruence. subst p. apply add_r_ne. }
  assert (Hnode : forall p, create_node c k f = Paths p -> p <> []).
  { intro p. unfold create_node. destruct k; try apply Htop.
    destruct (existsb _ c) eqn:E; [|discriminate].
    assert (Hall : forall mods p, existsb (fun x => existsb (N.eqb (f_nm f)) (snd x)) mods = true ->
               all_mods c mods OpaqPlain f = Paths p -> p <> []).
    { clear p E. induction mods as [|[m tops] mods IH]; intros p; cbn [existsb all_mods snd]; [discriminate|].
      destruct (existsb (N.eqb (f_nm f)) tops) eqn:Et; cbn [orb].
      - intros _. destruct (create_top c (Some m) OpaqPlain f) as [p1| |] eqn:Ec; cbn [cat]; try discriminate.
        destruct (all_mods c mods OpaqPlain f) as [p2| |]; try discriminate.
        intro A. assert (p = p1 ++ p2) by congruence. subst p. intro B. apply app_eq_nil in B.
        apply (Htop _ _ _ Ec), B.
      - intro E. cbn [cat]. destruct (all_mods c mods OpaqPlain f) as [p2| |] eqn:Ea; try discriminate.
        intro A. cbn [app] in A. assert (p = p2) by congruence. subst p. apply IH; auto. }
    apply Hall, E. }
  cbn [subtree2xpath]. destruct (create_node c k f) as [p1| |] eqn:Ec; cbn [cat]; try discriminate.
  destruct (subtree2xpath c r) as [p2| |]; try discriminate.
  intro A. assert (ps = p1 ++ p2) by congruence. subst ps. intro B. apply app_eq_nil in B.
  apply (Hnode _ eq_refl), B.
Qed.
Print Assumptions C47_nonempty.

(** A top-level selection node without a namespace selects the nodes of its
    name in all modules (6.2.1). Data are of implemented modules. Missing:
    nodes with children. *)
Theorem C47_wildcard_partial : forall c nm l q,
  (exists m tops, In (m, tops) c /\ In nm tops) ->
  (forall t, In t l -> exists tops, In (d_mod t, tops) c /\ In (d_nm t) tops) ->
  exists ps, subtree2xpath c [(OpaqPlain, F None nm None [])] = Paths ps /\
    (output ps l q <-> exists_at l q /\ exists i t r, q = i :: r /\ nth_error l i = Some t /\ d_nm t = nm).
Proof.
  intros c nm l q Hex Hl. cbn [subtree2xpath create_node f_nm].
  assert (E : existsb (fun x : N * list N => existsb (N.eqb nm) (snd x)) c = true).
  { destruct Hex as (m & tops & Hc & Ht). apply existsb_exists. exists (m, tops). split; [exact Hc|].
    apply existsb_exists. exists nm. split; [exact Ht|apply N.eqb_refl]. }
  rewrite E.
  assert (Hall : forall mods, exists ps, all_mods c mods OpaqPlain (F None nm None []) = Paths ps /\
            forall p, In p ps <-> exists m tops, In (m, tops) mods /\ In nm tops /\ p = [Step (Some m) nm []]).
  { induction mods as [|[m tops] mods IH].
    - exists []. split; [reflexivity|]. intro p. split; [intros []|intros (m & tops & [] & _)].
    - destruct IH as (ps & Hps & Hin). cbn [all_mods f_nm]. rewrite Hps.
      unfold create_top. cbn [f_val f_ns print_top_mod add_r app].
      destruct (existsb (N.eqb nm) tops) eqn:Et.
      + assert (Ht : In nm tops) by (apply existsb_exists in Et; destruct Et as (y & Hy & Ey); apply N.eqb_eq in Ey; subst; exact Hy).
        exists ([Step (Some m) nm []] :: ps). split; [reflexivity|]. intro p. cbn [In]. rewrite Hin. split.
        * intros [<- | (m' & t' & A & B)]; [exists m, tops; auto|exists m', t'; auto].
        * intros (m' & t' & [A | A] & B & ->); [left; congruence|right; exists m', t'; auto].
      + exists ps. split; [reflexivity|]. intro p. rewrite Hin. split.
        * intros (m' & t' & A & B). exists m', t'. split; [right; exact A|exact B].
        * intros (m' & t' & [A | A] & B & ->); [|exists m', t'; auto].
          exfalso. assert (existsb (N.eqb nm) tops = true); [|congruence].
          apply existsb_exists. exists nm. split; [congruence|apply N.eqb_refl]. }
  destruct (Hall c) as (ps & Hps & Hin). exists ps. split.
  { rewrite Hps. cbn [cat]. rewrite app_nil_r. reflexivity. }
  unfold output. split.
  - intros (He & p & s & Hp & Hs & Hz). split; [exact He|].
    apply Hin in Hp. destruct Hp as (m & tops & _ & _ & ->).
    assert (Ho : out_in None [[Step (Some m) nm []]] l q)
      by (split; [exact He|]; eexists; exists s; split; [left; reflexivity|auto]).
    apply out_one in Ho. destruct Ho as (i & t & r & -> & Hi & (_ & Hn & _) & _).
    exists i, t, r. auto.
  - intros (He & i & t & r & -> & Hi & Hn). split; [exact He|].
    destruct (Hl t) as (tops & Hc & Ht); [eapply nth_error_In; eauto|].
    exists [Step (Some (d_mod t)) nm []], [i]. split; [|split].
    + apply Hin. exists (d_mod t), tops. rewrite Hn in Ht. do 2 (split; [assumption|]). reflexivity.
    + cbn [selects]. exists t. split; [exact Hi|]. split; [|reflexivity]. split; [reflexivity|]. split; [exact Hn|constructor].
    + left. exists r. reflexivity.
Qed.
Print Assumptions C47_wildcard_partial.

(** A value with at most one kind of quotes is printed as an XPath literal with
    this very value, whatever follows.
    Missing: values with both kinds, refuted below. *)
Theorem C47_literal_partial : forall v rest,
  has_char "'"%char v = false \/ has_char """"%char v = false ->
  read_literal (literal v ++ rest) = Some (v, rest).
Proof.
  intros v rest H. unfold literal, read_literal. cbn [String.append].
  assert (Hq : has_char (quot_of v) v = false).
  { unfold quot_of, apos. destruct (has_char "'"%char v) eqn:E.
    - destruct H; [discriminate|exact H].
    - exact E. }
  assert (Hb : Ascii.eqb (quot_of v) "'" || Ascii.eqb (quot_of v) """" = true)
    by (unfold quot_of; destruct (has_char apos v); reflexivity).
  rewrite Hb, str_app_assoc. cbn [String.append]. apply until_spec, Hq.
Qed.
Print Assumptions C47_literal_partial.

(** And with both kinds never: the value compared is another one. *)
Theorem C47_literal_both : forall v rest,
  has_char "'"%char v = true -> has_char """"%char v = true ->
  forall r, read_literal (literal v ++ rest) <> Some (v, r).
Proof.
  intros v rest H1 H2 r. unfold literal, read_literal, quot_of, apos. rewrite H1.
  cbn [String.append]. intro E.
  replace (Ascii.eqb quote "'" || Ascii.eqb quote """") with true in E by reflexivity.
  rewrite str_app_assoc in E. apply (until_stops _ _ _ _ _ H2 E). reflexivity.
Qed.
Print Assumptions C47_literal_both.

(** F124: a value with both an apostrophe and a quotation mark ends the literal
    early and the rest of it becomes part of the XPath: whoever supplies the
    value of a content match node supplies XPath. Here what follows the first
    literal is an "or" with a condition that always holds
    (src/utils/sn_common.c 369-377, also 131, 170). *)
Theorem C47_literal_refuted :
  ~ (forall v rest, read_literal (literal v ++ rest) = Some (v, rest)).
Proof.
  intro H.
  specialize (H "'"" or ""1""=""1"%string "]"%string).
  assert (E : read_literal (literal "'"" or ""1""=""1" ++ "]")%string =
              Some ("'"%string, " or ""1""=""1""]"%string)) by (vm_compute; reflexivity).
  rewrite E in H. discriminate H.
Qed.
Print Assumptions C47_literal_refuted.

(** ** Concrete cases *)

(** Module 1 (top-level nodes 10, 11 and 12) and module 2 (11). *)
Definition c0 : ctx := [(1, [10; 11; 12]); (2, [11])]%N.
Definition leaf (m n v : N) : data := D m n (Some v) [].
Definition sel (m n : N) : filt := F (Some m) n None [].
Definition cont (m n v : N) : filt := F (Some m) n (Some v) [].

(** A list 20 in a container 10 with key 21, a leaf 22 of module 2. *)
Definition l0 : list data :=
  [D 1 10 None [D 1 20 None [leaf 1 21 5; leaf 2 22 7]; D 1 20 None [leaf 1 21 6; leaf 2 22 8]]; leaf 1 11 3]%N.
Definition f0 : list (kind * filt) :=
  [(Schema, F (Some 1%N) 10%N None [F (Some 1%N) 20%N None [cont 1 21 5; sel 2 22]])].

Ltac lv := intros i j t u Hi Hj;
  destruct i as [|[|[|i]]]; destruct j as [|[|[|j]]]; cbn [nth_error l0] in Hi, Hj;
  try discriminate Hi; try discriminate Hj;
  try (injection Hi as <-); try (injection Hj as <-);
  cbn [leaf d_mod d_nm d_val]; congruence.

Example C47_case : wf_data l0 /\
  (forall k f, In (k, f) f0 -> k <> OpaqPlain /\ wf_filt c0 f /\ ~ is_content f) /\
  faithful c0 f0 l0 /\ rfc (map snd f0) l0 [0; 0; 1]%nat /\ ~ rfc (map snd f0) l0 [0; 1; 1]%nat.
Proof.
  assert (Hd : wf_data l0).
  { assert (Hleaf : forall m n v, wf_data (d_ch (leaf m n v))).
    { intros. constructor; [intros i j t u Hi; destruct i; discriminate Hi|intros t []|intros t []]. }
    constructor.
    - lv.
    - intros t [<- | [<- | []]]; cbn [d_val d_ch]; [congruence|reflexivity].
    - intros t [<- | [<- | []]]; [|apply Hleaf]. cbn [d_ch]. constructor.
      + lv.
      + intros t [<- | [<- | []]]; cbn [d_val]; congruence.
      + intros t [<- | [<- | []]]; cbn [d_ch]; (constructor;
          [lv
          |intros t [<- | [<- | []]]; reflexivity
          |intros t [<- | [<- | []]]; apply Hleaf]). }
  assert (Hf : forall k f, In (k, f) f0 -> k <> OpaqPlain /\ wf_filt c0 f /\ ~ is_content f).
  { intros k f [E | []]. injection E as <- <-. split; [discriminate|].
    split; [|intro A; apply A; reflexivity].
    repeat (constructor; try reflexivity; try congruence). }
  pose proof (C47_selected_partial c0 f0 l0 Hd Hf) as Hfa.
  split; [exact Hd|]. split; [exact Hf|]. split; [exact Hfa|]. split.
  - cbn [map snd f0].
    assert (Hm : forall f l, ~ is_content f -> met [f] l) by (intros f l A g [<- | []]; contradiction).
    eapply rfc_inside; [apply Hm; intro A; apply A; reflexivity|left; reflexivity|split; [reflexivity|discriminate]| reflexivity|split; reflexivity|].
    cbn [f_ch d_ch].
    eapply rfc_inside; [apply Hm; intro A; apply A; reflexivity|left; reflexivity|split; [reflexivity|discriminate]| reflexivity|split; reflexivity|].
    cbn [f_ch d_ch].
    eapply rfc_selection; [|right; left; reflexivity|split; reflexivity|reflexivity|split; reflexivity|econstructor 1; reflexivity].
    intros g [<- | [<- | []]] A; [|destruct A; reflexivity].
    exists (leaf 1 21 5). split; [left; reflexivity|]. split; [split|]; reflexivity.
  - destruct Hfa as (ps & Hps & Hq). rewrite <- Hq. intros (_ & p & s & Hp & Hs & Hz).
    vm_compute in Hps. injection Hps as <-. 
    destruct Hp as [<- | [<- | []]];
      destruct s as [|i [|j s]]; try (destruct Hs; fail);
      cbn [selects] in Hs;
      try (destruct Hs as (t & _ & _ & Hs); contradiction);
      destruct Hs as (t & Hi & _ & u & Hj & (_ & _ & Hp) & _);
      (assert (i = 0%nat) by (destruct Hz as [(w & E) | (w & E)]; cbn [app] in E; congruence); subst i;
       assert (j = 1%nat) by (destruct Hz as [(w & E) | (w & E)]; cbn [app] in E; congruence); subst j;
       cbn [nth_error l0] in Hi; injection Hi as <-; cbn [d_ch nth_error] in Hj; injection Hj as <-;
       cbn [s_preds] in Hp; apply Forall_inv in Hp; cbn [holds d_ch] in Hp;
       destruct Hp as (x & [<- | [<- | []]] & Hm & Hn & Hv); discriminate).
Qed.

(** F125: content match nodes at the top level restrict nothing else: with
    "leaf 11 is 4 and leaf 12" as the filter, leaf 12 is selected although leaf
    11 has another value (RFC 6241, 6.2.5: none of the sibling set is selected;
    src/utils/sn_common.c 512-527). *)
Theorem C47_top_content_refuted :
  ~ (forall c fs l, wf_data l -> (forall k f, In (k, f) fs -> k = Schema /\ wf_filt c f) -> faithful c fs l).
Proof.
  intro H.
  destruct (H c0 [(Schema, cont 1 11 4); (Schema, sel 1 12)] [leaf 1 11 3; leaf 1 12 9]) as (ps & Hps & Hq).
  - constructor.
    + lv.
    + intros t [<- | [<- | []]]; reflexivity.
    + intros t [<- | [<- | []]]; (constructor; [intros i j t u Hi; destruct i; discriminate Hi|intros t []|intros t []]).
  - intros k f [E | [E | []]]; injection E as <- <-; (split; [reflexivity|]);
      constructor; try reflexivity; constructor.
  - vm_compute in Hps. injection Hps as <-.
    assert (Ho : rfc (map snd [(Schema, cont 1 11 4); (Schema, sel 1 12)]) [leaf 1 11 3; leaf 1 12 9] [1]).
    { apply Hq. split; [econstructor 1; reflexivity|].
      eexists; exists [1]. split; [right; left; reflexivity|]. split.
      - cbn [selects]. eexists. split; [reflexivity|]. split; [|reflexivity].
        split; [reflexivity|]. split; [reflexivity|constructor].
      - left. exists []. reflexivity. }
    apply rfc_met in Ho. destruct (Ho (cont 1 11 4)) as (t & [<- | [<- | []]] & (A & B) & C);
      try discriminate; left; reflexivity.
Qed.
Print Assumptions C47_top_content_refuted.

(** F126: a content match node at the top level that is opaque (a value not valid for its
    type, or an unknown node) and has a prefix: the module of its schema node,
    which it does not have, is read (src/utils/sn_common.c 163-165, 566-568). *)
Theorem C47_opaque_content_refuted :
  ~ (forall c fs, (forall k f, In (k, f) fs -> wf_filt c f) -> subtree2xpath c fs <> Crash).
Proof.
  intro H. apply (H c0 [(OpaqPrefix, cont 1 11 4)]); [|reflexivity].
  intros k f [E | []]. injection E as <- <-. constructor; try reflexivity; constructor.
Qed.
Print Assumptions C47_opaque_content_refuted.

(** F127: an opaque top-level node in a default namespace has no prefix and is
    taken for one without a namespace: nodes of this name of other modules are
    selected, too (src/utils/sn_common.c 540). *)
Theorem C47_default_namespace_refuted :
  ~ (forall c fs l, wf_data l -> (forall k f, In (k, f) fs -> wf_filt c f /\ ~ is_content f) -> faithful c fs l).
Proof.
  intro H. destruct (H c0 [(OpaqPlain, sel 1 11)] [leaf 2 11 3]) as (ps & Hps & Hq).
  - constructor.
    + lv.
    + intros t [<- | []]; reflexivity.
    + intros t [<- | []]; (constructor; [intros i j t u Hi; destruct i; discriminate Hi|intros t []|intros t []]).
  - intros k f [E | []]. injection E as <- <-. split; [|intro A; apply A; reflexivity].
    constructor; try reflexivity; try congruence; constructor.
  - vm_compute in Hps. injection Hps as <-.
    assert (Ho : rfc (map snd [(OpaqPlain, sel 1 11)]) [leaf 2 11 3] [0]).
    { apply Hq. split; [econstructor 1; reflexivity|].
      eexists; exists [0]. split; [right; left; reflexivity|]. split.
      - cbn [selects]. eexists. split; [reflexivity|]. split; [|reflexivity].
        split; [reflexivity|]. split; [reflexivity|constructor].
      - left. exists []. reflexivity. }
    cbn [map snd] in Ho. apply rfc_selection_one in Ho; [|split; reflexivity].
    destruct Ho as (i & t & r & E & Hi & (A & _) & _). injection E as <- <-.
    cbn [nth_error] in Hi. injection Hi as <-. discriminate A.
Qed.
Print Assumptions C47_default_namespace_refuted.

(** F128: a nested node in a namespace of no implemented module is printed
    without a module, which means the one of its parent: it selects a node in
    another namespace instead of nothing (src/utils/sn_common.c 251-272). *)
Theorem C47_unknown_namespace_refuted :
  ~ (forall c fs l, wf_data l -> (forall k f, In (k, f) fs -> k = Schema /\ ~ is_content f) -> faithful c fs l).
Proof.
  intro H.
  destruct (H c0 [(Schema, F (Some 1%N) 10%N None [sel 9 21])] [D 1 10 None [leaf 1 21 5]]) as (ps & Hps & Hq).
  - constructor.
    + lv.
    + intros t [<- | []]; cbn [d_val]; congruence.
    + intros t [<- | []]; cbn [d_ch]. constructor.
      * lv.
      * intros t [<- | []]; reflexivity.
      * intros t [<- | []]; (constructor; [intros i j t u Hi; destruct i; discriminate Hi|intros t []|intros t []]).
  - intros k f [E | []]. injection E as <- <-. split; [reflexivity|]. intro A; apply A; reflexivity.
  - vm_compute in Hps. injection Hps as <-.
    assert (Ho : rfc (map snd [(Schema, F (Some 1%N) 10%N None [sel 9 21])]) [D 1 10 None [leaf 1 21 5]] [0; 0]).
    { apply Hq. split; [econstructor 2; [reflexivity|econstructor 1; reflexivity]|].
      eexists; exists [0; 0]. split; [left; reflexivity|]. split.
      - cbn [selects]. eexists. split; [reflexivity|].
        split; [split; [reflexivity|]; split; [reflexivity|constructor]|].
        eexists. split; [reflexivity|]. split; [|reflexivity].
        split; [reflexivity|]. split; [reflexivity|constructor].
      - left. exists []. reflexivity. }
    cbn [map snd] in Ho. apply rfc_containment in Ho; [|split; [reflexivity|discriminate]].
    destruct Ho as (i & t & r & E & Hi & _ & Hr). injection E as <- <-.
    cbn [nth_error] in Hi. injection Hi as <-. cbn [f_ch d_ch] in Hr.
    destruct Hr as [(E & _) | Hr]; [discriminate E|].
    apply rfc_selection_one in Hr; [|split; reflexivity].
    destruct Hr as (i & t & r & E & Hi & (A & _) & _). injection E as <- <-.
    cbn [nth_error] in Hi. injection Hi as <-. discriminate A.
Qed.
Print Assumptions C47_unknown_namespace_refuted.

(** F129: a content match node for a value of a leaf-list, with other nodes
    beside it, puts all values of the leaf-list in the output
    (src/utils/sn_common.c 483-497). *)
Theorem C47_leaf_list_refuted :
  ~ (forall c fs l, (forall k f, In (k, f) fs -> k = Schema /\ wf_filt c f /\ ~ is_content f) -> faithful c fs l).
Proof.
  intro H.
  destruct (H c0 [(Schema, F (Some 1%N) 10%N None [cont 1 21 5; sel 1 22])]
              [D 1 10 None [leaf 1 21 5; leaf 1 21 6]]) as (ps & Hps & Hq).
  - intros k f [E | []]. injection E as <- <-. split; [reflexivity|]. split; [|intro A; apply A; reflexivity].
    repeat (constructor; try reflexivity; try congruence).
  - vm_compute in Hps. injection Hps as <-.
    assert (Ho : rfc (map snd [(Schema, F (Some 1%N) 10%N None [cont 1 21 5; sel 1 22])])
                     [D 1 10 None [leaf 1 21 5; leaf 1 21 6]] [0; 1]).
    { apply Hq. split; [econstructor 2; [reflexivity|econstructor 1; reflexivity]|].
      eexists; exists [0; 1]. split; [left; reflexivity|]. split.
      - cbn [selects]. eexists. split; [reflexivity|].
        split.
        { split; [reflexivity|]. split; [reflexivity|]. constructor; [|constructor].
          cbn [holds]. exists (leaf 1 21 5). split; [left; reflexivity|]. auto. }
        eexists. split; [reflexivity|]. split; [|reflexivity].
        split; [reflexivity|]. split; [reflexivity|constructor].
      - left. exists []. reflexivity. }
    cbn [map snd] in Ho. apply rfc_containment in Ho; [|split; [reflexivity|discriminate]].
    destruct Ho as (i & t & r & E & Hi & _ & Hr). injection E as <- <-.
    cbn [nth_error] in Hi. injection Hi as <-. cbn [f_ch d_ch] in Hr.
    destruct Hr as [(E & _) | Hr]; [discriminate E|].
    pose proof (rfc_met _ _ _ Hr) as Hm.
    apply rfc_split in Hr; [|exact Hm|].
    + destruct Hr as (x & [<- | [<- | []]] & [(Hc & i & u & E & Hi & Hn & Hv) | (Hc & Hr)]).
      * injection E as <-. cbn [nth_error] in Hi. injection Hi as <-. discriminate Hv.
      * apply Hc. discriminate.
      * apply Hc. reflexivity.
      * apply rfc_selection_one in Hr; [|split; reflexivity].
        destruct Hr as (i & u & r & E & Hi & (_ & A) & _). injection E as <- <-.
        cbn [nth_error] in Hi. injection Hi as <-. discriminate A.
    + intro A. inversion A as [|? ? _ B]; subst. inversion B as [|? ? C _]; subst. apply C. reflexivity.
Qed.
Print Assumptions C47_leaf_list_refuted.
