(** The decision about a node: groups, rules, defaults. *)
From Coq Require Import List Bool Arith Lia.
From Verif Require Import Nacm NacmSpec NacmPath.
Import ListNotations.

(** ** Comparing of strings *)
Lemma scmp_eq a : forall b, scmp a b = Eq <-> a = b.
Proof.
  induction a as [|x a IH]; intros [|y b]; cbn [scmp]; split; intros H; try discriminate; auto.
  - destruct (Nat.compare_spec x y); try discriminate. subst. f_equal. now apply IH.
  - injection H as -> ->. rewrite Nat.compare_refl. now apply IH.
Qed.
Lemma scmp_anti a : forall b, scmp a b = CompOpp (scmp b a).
Proof.
  induction a as [|x a IH]; intros [|y b]; cbn [scmp]; auto.
  rewrite (Nat.compare_antisym y x). destruct (Nat.compare y x); cbn [CompOpp]; auto.
Qed.
Lemma scmp_le_trans a : forall b d, scmp a b <> Gt -> scmp b d <> Gt -> scmp a d <> Gt.
Proof.
  induction a as [|x a IH]; intros [|y b] [|z d]; cbn [scmp]; intros H1 H2; try congruence.
  destruct (Nat.compare_spec x y), (Nat.compare_spec y z), (Nat.compare_spec x z); subst; try congruence; try lia; eauto.
Qed.
Lemma scmp_refl a : scmp a a = Eq.
Proof. now apply scmp_eq. Qed.
Lemma scmp_le_anti a b : scmp a b <> Gt -> scmp b a <> Gt -> a = b.
Proof.
  intros H1 H2. apply scmp_eq. rewrite (scmp_anti a b) in H1 |- *. destruct (scmp b a); cbn [CompOpp] in *; congruence.
Qed.

(** ** Groups *)
Lemma group_match_ok f : forall gs us, length gs + length us <= f -> sorted gs -> sorted us -> ~ In s_star gs ->
  (group_match f gs us = true <-> exists g, In g gs /\ In g us).
Proof.
  induction f as [|f IH]; intros gs us Hf Sg Su NS.
  - destruct gs as [|g gs]; cbn [length] in Hf; [|lia].
    cbn [group_match]. split; [discriminate|]. intros (g & [] & _).
  - destruct gs as [|g gs]; [cbn [group_match]; split; [discriminate|]; intros (g & [] & _)|].
    destruct us as [|u us]; [cbn [group_match]; split; [discriminate|]; intros (x & _ & [])|].
    cbn [group_match]. rewrite str_eqb_neq by (intros ->; apply NS; now left).
    cbn [sorted] in Sg, Su. destruct Sg as [Lg Sg], Su as [Lu Su]. cbn [length] in Hf.
    destruct (scmp g u) eqn:E.
    + split; [|auto]. intros _. apply scmp_eq in E. subst u. exists g. split; now left.
    + rewrite IH; cbn [length sorted]; auto; try lia.
      * split.
        -- intros (x & H1 & H2). exists x. split; [now right|auto].
        -- intros (x & [<-|H1] & H2); [|now exists x].
           exfalso. destruct H2 as [<-|H2].
           ++ rewrite scmp_refl in E. discriminate E.
           ++ apply Lu in H2. rewrite (scmp_anti g u) in E. destruct (scmp u g); cbn [CompOpp] in E; congruence.
      * intros H. apply NS. now right.
    + rewrite IH; cbn [length sorted]; auto; try lia.
      split.
      * intros (x & H1 & H2). exists x. split; [auto|now right].
      * intros (x & H1 & [<-|H2]); [|now exists x].
        exfalso. destruct H1 as [<-|H1].
        -- rewrite scmp_refl in E. discriminate E.
        -- apply Lg in H1. congruence.
Qed.
Lemma rule_group_match_ok gs us : sorted gs -> star_first gs -> sorted us -> us <> [] ->
  (rule_group_match gs us = true <-> exists g, In g gs /\ (g = s_star \/ In g us)).
Proof.
  intros Sg F Su Hne. unfold rule_group_match.
  destruct gs as [|g gs].
  - destruct us; cbn [length Nat.add group_match]; (split; [discriminate|intros (x & [] & _)]).
  - destruct (str_dec g s_star) as [->|D].
    + destruct us as [|u us]; [congruence|]. cbn [length Nat.add group_match]. rewrite str_eqb_refl.
      split; [|auto]. intros _. exists s_star. split; [now left|now left].
    + assert (NS : ~ In s_star (g :: gs)).
      { intros [H|H]; [congruence|]. apply D. apply scmp_le_anti; [now apply Sg|]. apply F. now left. }
      rewrite group_match_ok by auto. split.
      * intros (x & H1 & H2). exists x. auto.
      * intros (x & H1 & [->|H2]); [tauto|]. exists x. auto.
Qed.

(** ** Rules *)
Lemma opt_eq_ok o s : opt_eq o s = true <-> is_opt o s.
Proof. destruct o; cbn [opt_eq is_opt]; [apply str_eqb_eq|tauto]. Qed.
Definition matchb (u : str) (o : oper) (nd : node) (r : rule) : bool := match check_rule u o nd r with VMatch => true | _ => false end.

Lemma check_rule_ok u o n r : Forall good_seg (sn_path n) -> (sn_type n = NOther -> sn_path n <> []) ->
  (forall t, sr_what r = WData t -> Forall good_rseg t /\ compat t (sn_path n)) ->
  check_rule u o (rep_node n) (rep_rule r) <> VUb /\
  (matchb u o (rep_node n) (rep_rule r) = true <-> rule_applies u o n r).
Proof.
  intros Gn Hne Gr. unfold matchb, check_rule, rule_applies, rep_node, rep_rule.
  cbn [n_type n_top n_name n_mod n_path r_mod r_target r_type r_ops r_deny].
  rewrite <- opt_eq_ok.
  destruct (sr_ops r o); cbn [negb]; [|split; [discriminate|split; [discriminate|intros (H & _); discriminate H]]].
  assert (M : forall b : bool, (if b then VMatch else VSkip) <> VUb) by (intros []; discriminate).
  assert (M2 : forall b : bool, match (if b then VMatch else VSkip) with VMatch => true | _ => false end = b) by (intros []; reflexivity).
  destruct (sr_what r) as [|nm|nm|t] eqn:W; cbn [about].
  - split; [apply M|]. rewrite M2. tauto.
  - rewrite <- opt_eq_ok. destruct (sn_type n); [|split; [discriminate|split; [discriminate|intros (_ & _ & H & _); discriminate H]] ..].
    destruct (opt_eq nm (sn_name n)); [|split; [discriminate|split; [discriminate|intros (_ & _ & _ & H); discriminate H]]].
    split; [apply M|]. rewrite M2. tauto.
  - rewrite <- opt_eq_ok. destruct (sn_type n); [split; [discriminate|split; [discriminate|intros (_ & _ & H & _); discriminate H]]| |split; [discriminate|split; [discriminate|intros (_ & _ & H & _); discriminate H]]].
    destruct (sn_top n); cbn [andb]; [|split; [discriminate|split; [discriminate|intros (_ & _ & _ & H & _); discriminate H]]].
    destruct (opt_eq nm (sn_name n)); [|split; [discriminate|split; [discriminate|intros (_ & _ & _ & _ & H); discriminate H]]].
    split; [apply M|]. rewrite M2. tauto.
  - destruct (Gr t eq_refl) as [Gt Ct].
    destruct (sn_type n) eqn:Ty; [split; [discriminate|split; [discriminate|intros (_ & _ & H & _); discriminate H]] ..|].
    destruct (path_full u t (sn_path n) Gt Gn (Hne eq_refl) Ct) as [P1 P2].
    destruct (allowed_path u (pr_target t) (pr_path (sn_path n))) eqn:E.
    + split; [discriminate|split; [discriminate|]]. intros (_ & _ & _ & H). apply P1 in H. discriminate H.
    + split; [apply M|]. rewrite M2. tauto.
    + split; [discriminate|split; [discriminate|]]. intros (_ & _ & _ & H). apply P1 in H. discriminate H.
    + congruence.
Qed.

Lemma loop_find u o nd rs : forall pp pd, (forall r, In r rs -> check_rule u o nd r <> VUb) ->
  exists pp' pd', loop_rules u o nd rs pp pd = Some (find (matchb u o nd) rs, pp', pd').
Proof.
  induction rs as [|r rs IH]; intros pp pd H; cbn [loop_rules find]; [eauto|].
  unfold matchb at 1. pose proof (H r (or_introl eq_refl)) as Hr.
  destruct (check_rule u o nd r); [|eauto|eauto|congruence];
    apply IH; intros x Hx; apply H; now right.
Qed.

Lemma find_map {A B} (g : A -> B) (f : B -> bool) l : find f (map g l) = option_map g (find (fun x => f (g x)) l).
Proof. induction l as [|a l IH]; cbn [map find option_map]; auto. destruct (f (g a)); auto. Qed.
Lemma find_none_iff {A} (f : A -> bool) l : find f l = None <-> forall x, In x l -> f x = false.
Proof.
  induction l as [|a l IH]; cbn [find].
  - split; [intros _ x []|auto].
  - destruct (f a) eqn:E.
    + split; [discriminate|]. intros H. rewrite H in E by now left. discriminate E.
    + rewrite IH. split.
      * intros H x [<-|Hx]; auto.
      * intros H x Hx. apply H. now right.
Qed.
Lemma find_app {A} (f : A -> bool) a b : find f (a ++ b) = match find f a with Some x => Some x | None => find f b end.
Proof. induction a as [|x a IH]; cbn [app find]; auto. destruct (f x); auto. Qed.
Lemma find_some_iff {A} (f : A -> bool) l r : find f l = Some r <-> exists l1 l2, l = l1 ++ r :: l2 /\ f r = true /\ forall x, In x l1 -> f x = false.
Proof.
  split.
  - induction l as [|a l IH]; cbn [find]; [discriminate|]. destruct (f a) eqn:E.
    + intros H. injection H as <-. exists [], l. split; [reflexivity|split; [auto|intros x []]].
    + intros H. destruct (IH H) as (l1 & l2 & -> & H1 & H2). exists (a :: l1), l2.
      split; [reflexivity|split; [auto|]]. intros x [<-|Hx]; auto.
  - intros (l1 & l2 & -> & H1 & H2). rewrite find_app. rewrite (proj2 (find_none_iff f l1) H2). cbn [find]. now rewrite H1.
Qed.

(** Rules of a user, one rule list after another. *)
Definition srules (groups : list str) (ls : list slist) : list srule :=
  flat_map (fun l => if rule_group_match (sl_groups l) groups then sl_rules l else []) ls.
Lemma user_rules_rep en c groups : groups <> [] -> user_rules (rep_config en c) groups = map rep_rule (srules groups (sc_lists c)).
Proof.
  intros H. unfold user_rules. destruct groups as [|g gs]; [congruence|]. unfold srules, rep_config. cbn [c_lists].
  generalize (g :: gs) as G. intros G. clear.
  induction (sc_lists c) as [|l ls IH]; cbn [flat_map map]; [reflexivity|].
  rewrite map_app, IH. f_equal. unfold rep_list. cbn [l_groups l_rules]. destruct (rule_group_match (sl_groups l) G); reflexivity.
Qed.

Lemma first_rule_find u groups o n ls (f : srule -> bool) :
  (forall l, In l ls -> (rule_group_match (sl_groups l) groups = true <-> list_applies groups l)) ->
  (forall l r, In l ls -> In r (sl_rules l) -> (f r = true <-> rule_applies u o n r)) ->
  forall r, find f (srules groups ls) = Some r <-> first_rule u groups o n ls r.
Proof.
  intros HG HR r. split.
  - revert HG HR. induction ls as [|l ls IH]; intros HG HR; cbn [srules flat_map find]; [discriminate|].
    fold (srules groups ls). rewrite find_app.
    destruct (find f (if rule_group_match (sl_groups l) groups then sl_rules l else [])) as [x|] eqn:E.
    + intros H. injection H as ->.
      destruct (rule_group_match (sl_groups l) groups) eqn:EG; [|discriminate E].
      apply find_some_iff in E as (rs1 & rs2 & E & Hf & Hn).
      exists [], l, ls, rs1, rs2. split; [reflexivity|]. split; [exact E|].
      split; [apply HG; [now left|auto]|].
      split; [apply (HR l); [now left|rewrite E; apply in_elt|auto]|].
      split; [|intros k x []].
      intros x Hx Ha. assert (f x = true). { apply (HR l); [now left| |auto]. rewrite E. apply in_or_app. now left. }
      rewrite Hn in H by auto. discriminate H.
    + intros H. destruct IH as (ls1 & k & ls2 & rs1 & rs2 & E1 & E2 & E3 & E4 & E5 & E6); auto.
      * intros k Hk. apply HG. now right.
      * intros k x Hk. apply HR. now right.
      * exists (l :: ls1), k, ls2, rs1, rs2. subst ls. split; [reflexivity|].
        split; [auto|]. split; [auto|]. split; [auto|]. split; [auto|].
        intros j x [<-|Hj] Hl Hx Ha; [|now apply (E6 j x)].
        apply HG in Hl; [|now left]. rewrite Hl in E.
        assert (f x = true) as Hfx by (apply (HR l); [now left|auto|auto]).
        rewrite (proj1 (find_none_iff f _) E) in Hfx by auto. discriminate Hfx.
  - intros (ls1 & l & ls2 & rs1 & rs2 & -> & E2 & E3 & E4 & E5 & E6).
    unfold srules. rewrite flat_map_app. rewrite find_app.
    rewrite (proj2 (find_none_iff f _)).
    + cbn [flat_map]. rewrite (proj2 (HG l (in_elt l ls1 ls2)) E3). rewrite E2, <- app_assoc. rewrite find_app.
      rewrite (proj2 (find_none_iff f _)).
      * cbn [app find]. assert (Hfr : f r = true).
        { apply (HR l); [apply in_elt|rewrite E2; apply in_elt|auto]. }
        now rewrite Hfr.
      * intros x Hx. destruct (f x) eqn:Ef; auto. exfalso. apply (E5 x Hx). apply (HR l); [apply in_elt| |auto].
        rewrite E2. apply in_or_app. now left.
    + intros x Hx. apply in_flat_map in Hx as (k & Hk & Hx).
      destruct (rule_group_match (sl_groups k) groups) eqn:EG; [|destruct Hx].
      destruct (f x) eqn:Ef; auto. exfalso.
      assert (Hin : In k (ls1 ++ l :: ls2)) by (apply in_or_app; now left).
      apply (E6 k x Hk); [now apply HG|auto|]. now apply (HR k).
Qed.

(** ** The decision *)
Definition good_lists (c : sconfig) : Prop := forall l, In l (sc_lists c) -> sorted (sl_groups l) /\ star_first (sl_groups l).
Definition good_node (n : snode) : Prop := Forall good_seg (sn_path n) /\ (sn_type n = NOther -> sn_path n <> []).

Lemma defaults_ok en c o n : is_permit (defaults (rep_config en c) o (rep_node n)) = negb (default_deny c o n).
Proof.
  unfold defaults, default_deny, rep_config, rep_node. cbn [n_dall n_dwrite c_read_deny c_exec_deny c_write_deny].
  destruct o; cbn [writes andb]; rewrite ?orb_false_r; destruct (sn_dall n); cbn [orb negb is_permit]; auto;
    try (destruct (sn_dwrite n); cbn [orb negb is_permit]; auto);
    first [destruct (sc_read_deny c); reflexivity|destruct (sc_exec_deny c); reflexivity|destruct (sc_write_deny c); reflexivity].
Qed.
Lemma adjust_permit a (pp pd : bool) :
  is_permit (match a with Deny => if pp then PDeny else Deny | Permit => if pd then PPermit else Permit | _ => a end) = is_permit a.
Proof. destruct a, pp, pd; reflexivity. Qed.

Lemma no_groups_first u o n ls r : ~ first_rule u [] o n ls r.
Proof. intros (ls1 & l & ls2 & rs1 & rs2 & _ & _ & [H _] & _). congruence. Qed.

Theorem decide en c u groups o n : good_lists c -> sorted groups -> good_node n -> good_config c n ->
  exists a, allowed_node (rep_config en c) u groups o (rep_node n) = Some a /\
  (is_permit a = true <-> permitted c u groups o n).
Proof.
  intros GL SG [Gn Hne] GC. unfold allowed_node. cbv zeta.
  destruct groups as [|g gs].
  - cbn [user_rules loop_rules]. eexists. split; [reflexivity|].
    pose proof (adjust_permit (defaults (rep_config en c) o (rep_node n)) false false) as A. cbn iota in A. rewrite A.
    rewrite defaults_ok, negb_true_iff. unfold permitted. split.
    + intros H. right. split; [apply no_groups_first|auto].
    + intros [(r & H & _)|[_ H]]; [|auto]. now apply no_groups_first in H.
  - rewrite user_rules_rep by discriminate. set (G := g :: gs) in *.
    assert (GN : G <> []) by discriminate.
    assert (HR : forall l r, In l (sc_lists c) -> In r (sl_rules l) ->
       check_rule u o (rep_node n) (rep_rule r) <> VUb /\
       (matchb u o (rep_node n) (rep_rule r) = true <-> rule_applies u o n r)).
    { intros l r Hl Hr. apply check_rule_ok; auto. intros t Ht. apply (GC l r t Hl Hr Ht). }
    assert (HG : forall l, In l (sc_lists c) -> (rule_group_match (sl_groups l) G = true <-> list_applies G l)).
    { intros l Hl. destruct (GL l Hl) as [S1 S2]. rewrite rule_group_match_ok by auto. unfold list_applies. tauto. }
    destruct (loop_find u o (rep_node n) (map rep_rule (srules G (sc_lists c))) false false) as (pp & pd & ->).
    { intros r Hr. apply in_map_iff in Hr as (x & <- & Hx). apply in_flat_map in Hx as (l & Hl & Hx).
      destruct (rule_group_match (sl_groups l) G); [|destruct Hx]. now apply (HR l x). }
    rewrite find_map. set (f := fun x => matchb u o (rep_node n) (rep_rule x)).
    assert (HF : forall r, find f (srules G (sc_lists c)) = Some r <-> first_rule u G o n (sc_lists c) r).
    { apply first_rule_find; auto. intros l r Hl Hr. now apply (HR l r). }
    eexists. split; [reflexivity|]. rewrite adjust_permit.
    destruct (find f (srules G (sc_lists c))) as [r|]; cbn [option_map].
    + pose proof (proj1 (HF r) eq_refl) as Hr. unfold rep_rule at 1. cbn [r_deny].
      unfold permitted. destruct (sr_deny r) eqn:D; cbn [is_permit].
      * split; [discriminate|]. intros [(r' & H & D')|[H _]].
        -- apply HF in H. injection H as <-. congruence.
        -- now apply H in Hr.
      * split; [|auto]. intros _. left. now exists r.
    + rewrite defaults_ok, negb_true_iff. unfold permitted. split.
      * intros H. right. split; [|auto]. intros r Hr. apply HF in Hr. discriminate Hr.
      * intros [(r' & H & _)|[_ H]]; [|auto]. apply HF in H. discriminate H.
Qed.

(** ** Groups of a user *)
Lemma sorted_nth l : sorted l -> forall i j, i <= j -> j < length l -> scmp (nth i l []) (nth j l []) <> Gt.
Proof.
  induction l as [|x l IH]; cbn [sorted length]; intros S i j Hij Hj; [lia|].
  destruct S as [L S]. destruct j as [|j].
  - destruct i; [|lia]. cbn [nth]. rewrite scmp_refl. discriminate.
  - destruct i as [|i]; cbn [nth].
    + apply L. apply nth_In. lia.
    + apply IH; auto; lia.
Qed.
Lemma sorted_app a : forall b, sorted a -> sorted b -> (forall x y, In x a -> In y b -> scmp x y <> Gt) -> sorted (a ++ b).
Proof.
  induction a as [|x a IH]; intros b Sa Sb H; cbn [app]; auto. cbn [sorted] in *. destruct Sa as [L Sa].
  split.
  - intros y Hy. apply in_app_or in Hy as [Hy|Hy]; [auto|]. apply H; [now left|auto].
  - apply IH; auto. intros p q Hp Hq. apply H; [now right|auto].
Qed.
Lemma sorted_sub a : forall b, sorted (a ++ b) -> sorted a /\ sorted b.
Proof.
  induction a as [|x a IH]; intros b S; cbn [app] in S; [split; [exact I|auto]|].
  cbn [sorted] in *. destruct S as [L S]. destruct (IH b S) as [Sa Sb]. split; [|auto]. split; [|auto].
  intros y Hy. apply L. apply in_or_app. now left.
Qed.
Lemma in_firstn_nth (l : list str) : forall k y, In y (firstn k l) -> exists j, j < k /\ j < length l /\ nth j l [] = y.
Proof.
  induction l as [|x l IH]; intros k y H.
  - rewrite firstn_nil in H. destruct H.
  - destruct k as [|k]; cbn [firstn] in H; [destruct H|]. destruct H as [<-|H].
    + exists 0. cbn [nth length]. split; [lia|split; [lia|reflexivity]].
    + destruct (IH k y H) as (j & H1 & H2 & H3). exists (S j). cbn [nth length]. split; [lia|split; [lia|auto]].
Qed.
Lemma in_skipn_nth (l : list str) : forall k y, In y (skipn k l) -> exists j, k <= j /\ j < length l /\ nth j l [] = y.
Proof.
  induction l as [|x l IH]; intros k y H.
  - rewrite skipn_nil in H. destruct H.
  - destruct k as [|k]; cbn [skipn] in H.
    + destruct (In_nth _ _ [] H) as (j & H1 & H2). exists j. split; [lia|auto].
    + destruct (IH k y H) as (j & H1 & H2 & H3). exists (S j). cbn [nth length]. split; [lia|split; [lia|auto]].
Qed.
Lemma sorted_insert l x k : sorted l ->
  (forall j, j < k -> j < length l -> scmp (nth j l []) x <> Gt) ->
  (forall j, k <= j -> j < length l -> scmp x (nth j l []) <> Gt) ->
  sorted (firstn k l ++ x :: skipn k l).
Proof.
  intros S H1 H2. pose proof S as S'. rewrite <- (firstn_skipn k l) in S'. apply sorted_sub in S' as [Sa Sb].
  apply sorted_app; auto.
  - cbn [sorted]. split; [|auto]. intros y Hy. apply in_skipn_nth in Hy as (j & Hk & Hl & <-). now apply H2.
  - intros a b Ha [<-|Hb].
    + apply in_firstn_nth in Ha as (j & Hk & Hl & <-). now apply H1.
    + apply in_firstn_nth in Ha as (j & Hk & Hl & <-). apply in_skipn_nth in Hb as (i & Hk' & Hl' & <-).
      apply sorted_nth; auto. lia.
Qed.
Lemma back_ok l x : forall i, i <= length l -> sorted l ->
  back l x i <= i /\ (forall j, j < back l x i -> scmp (nth j l []) x <> Gt) /\
  (forall j, back l x i <= j -> j < i -> scmp (nth j l []) x = Gt).
Proof.
  induction i as [|i IH]; intros Hi S; cbn [back].
  - split; [lia|split; intros j Hj; intros; lia].
  - destruct (scmp (nth i l []) x) eqn:E.
    1, 2: split; [lia|split; [|intros; lia]]; intros j Hj;
      apply (scmp_le_trans _ (nth i l [])); [apply sorted_nth; auto; lia|congruence].
    destruct (IH ltac:(lia) S) as (A & B & C). split; [lia|split; [auto|]].
    intros j Hj Hj'. destruct (Nat.eq_dec j i) as [->|]; [auto|]. apply C; lia.
Qed.
Lemma forth_ok l x : forall f i, length l <= i + f -> i <= length l ->
  let k := forth l x i f in
  i <= k <= length l /\ (forall j, i <= j -> j < k -> scmp (nth j l []) x = Lt) /\
  (k < length l -> scmp (nth k l []) x <> Lt).
Proof.
  induction f as [|f IH]; intros i H Hi; cbn [forth]; cbv zeta.
  - split; [lia|split; [intros; lia|intros; lia]].
  - destruct (Nat.ltb_spec i (length l)) as [L|L].
    + destruct (scmp (nth i l []) x) eqn:E.
      1, 3: split; [lia|split; [intros; lia|congruence]].
      destruct (IH (S i) ltac:(lia) ltac:(lia)) as (A & B & C). split; [lia|split; [|auto]].
      intros j Hj Hj'. destruct (Nat.eq_dec j i) as [->|]; [auto|]. apply B; lia.
    + split; [lia|split; [intros; lia|intros; lia]].
Qed.
Lemma gt_le a b : scmp a b = Gt -> scmp b a <> Gt.
Proof. rewrite (scmp_anti a b). destruct (scmp b a); cbn [CompOpp]; congruence. Qed.
Lemma lt_le a b : scmp a b = Lt -> scmp a b <> Gt.
Proof. congruence. Qed.
Lemma nlt_le a b : scmp a b <> Lt -> scmp b a <> Gt.
Proof. rewrite (scmp_anti a b). destruct (scmp b a); cbn [CompOpp]; congruence. Qed.

Lemma sort_add_sorted i x l : sorted l -> (l <> [] -> i < length l) -> sorted (sort_add i x l).
Proof.
  intros S Hi. unfold sort_add. destruct l as [|y l]; [rewrite firstn_nil, skipn_nil; cbn; split; [intros y []|exact I]|].
  set (L := y :: l) in *. specialize (Hi ltac:(discriminate)).
  destruct (scmp (nth i L []) x) eqn:E; apply sorted_insert; auto.
  - intros j Hj Hl. apply (scmp_le_trans _ (nth i L [])); [apply sorted_nth; auto; lia|congruence].
  - intros j Hj Hl. apply (scmp_le_trans _ (nth i L [])); [|apply sorted_nth; auto; lia].
    apply scmp_eq in E. rewrite E, scmp_refl. discriminate.
  - destruct (forth_ok L x (length L) i ltac:(lia) ltac:(lia)) as (A & B & C). intros j Hj Hl.
    destruct (le_lt_dec i j); [rewrite B by lia; discriminate|].
    apply (scmp_le_trans _ (nth i L [])); [apply sorted_nth; auto; lia|congruence].
  - destruct (forth_ok L x (length L) i ltac:(lia) ltac:(lia)) as (A & B & C). intros j Hj Hl.
    apply (scmp_le_trans _ (nth (forth L x i (length L)) L [])); [|apply sorted_nth; auto; lia].
    apply nlt_le. apply C. lia.
  - destruct (back_ok L x i ltac:(lia) S) as (A & B & C). intros j Hj Hl. now apply B.
  - destruct (back_ok L x i ltac:(lia) S) as (A & B & C). intros j Hj Hl.
    destruct (le_lt_dec i j).
    + apply (scmp_le_trans _ (nth i L [])); [now apply gt_le|apply sorted_nth; auto; lia].
    + apply gt_le. apply C; lia.
Qed.
Lemma sort_add_in i x l y : In y (sort_add i x l) <-> y = x \/ In y l.
Proof.
  unfold sort_add. match goal with |- context [firstn ?k l] => generalize k end. intros k.
  rewrite in_app_iff. cbn [In]. rewrite <- (firstn_skipn k l) at 3. rewrite in_app_iff. intuition congruence.
Qed.
Lemma sort_add_length i x l : length (sort_add i x l) = S (length l).
Proof.
  unfold sort_add. match goal with |- context [firstn ?k l] => generalize k end. intros k.
  rewrite app_length. cbn [length]. rewrite <- (firstn_skipn k l) at 3. rewrite app_length. lia.
Qed.

(** A guess is an index into the array. *)
Definition good_guess (g : str -> nat -> nat) : Prop := forall x n, 0 < n -> g x n < n.
Theorem collect_ok g user groups system : good_guess g ->
  sorted (collect_groups g user groups system) /\
  forall x, In x (collect_groups g user groups system) <->
    (exists users, In (x, users) groups /\ In user users) \/ In x system.
Proof.
  intros GG. unfold collect_groups.
  set (add := fun x l => sort_add (g x (length l)) x l).
  assert (AS : forall x l, sorted l -> sorted (add x l)).
  { intros x l S. apply sort_add_sorted; auto. intros Hl. apply GG. destruct l; [congruence|cbn [length]; lia]. }
  assert (AI : forall x l y, In y (add x l) <-> y = x \/ In y l) by (intros; apply sort_add_in).
  set (inner := fun l (p : str * list str) => fold_left (fun l u => if str_eqb u user then add (fst p) l else l) (snd p) l).
  assert (I1 : forall us nm l, sorted l ->
     let r := fold_left (fun l u => if str_eqb u user then add nm l else l) us l in
     sorted r /\ forall y, In y r <-> (y = nm /\ In user us) \/ In y l).
  { induction us as [|u us IH]; intros nm l S; cbn [fold_left].
    - split; [auto|]. intros y. cbn [In]. tauto.
    - destruct (IH nm (if str_eqb u user then add nm l else l)) as [H1 H2].
      + destruct (str_eqb u user); auto.
      + split; [exact H1|]. intros y. rewrite H2. cbn [In]. destruct (str_eqb u user) eqn:E.
        * rewrite AI. apply str_eqb_eq in E. tauto.
        * assert (u <> user) by (intros ->; rewrite str_eqb_refl in E; discriminate E). tauto. }
  assert (I2 : forall gs l, sorted l -> sorted (fold_left inner gs l) /\
     forall y, In y (fold_left inner gs l) <-> (exists users, In (y, users) gs /\ In user users) \/ In y l).
  { induction gs as [|[nm us] gs IH]; intros l S; cbn [fold_left].
    - split; [auto|]. intros y. split; [auto|]. intros [(users & [] & _)|H]; auto.
    - destruct (I1 us nm l S) as [H1 H2]. cbv zeta in H1, H2. destruct (IH _ H1) as [H3 H4].
      split; [exact H3|]. intros y. unfold inner at 2. cbn [fst snd]. unfold inner in H4. cbn [fst snd] in H4.
      unfold inner. rewrite H4, H2. split.
      + intros [(users & A & B)|[[-> B]|A]]; [left; exists users; split; [now right|auto]|left; exists us; split; [now left|auto]|now right].
      + intros [(users & [A|A] & B)|A]; [injection A as <- <-; right; left; auto|left; eauto|right; now right]. }
  assert (I3 : forall sy l, sorted l ->
     let r := fold_left (fun l x => if existsb (str_eqb x) l then l else add x l) sy l in
     sorted r /\ forall y, In y r <-> In y sy \/ In y l).
  { induction sy as [|x sy IH]; intros l S; cbn [fold_left].
    - split; [auto|]. intros y. cbn [In]. tauto.
    - destruct (IH (if existsb (str_eqb x) l then l else add x l)) as [H1 H2].
      + destruct (existsb (str_eqb x) l); auto.
      + split; [exact H1|]. intros y. rewrite H2. cbn [In]. destruct (existsb (str_eqb x) l) eqn:E.
        * apply existsb_exists in E as (z & Hz & E). apply str_eqb_eq in E. subst z. intuition congruence.
        * rewrite AI. intuition congruence. }
  destruct (I2 groups [] I) as [H1 H2]. destruct (I3 system _ H1) as [H3 H4]. cbv zeta in H3, H4.
  split; [exact H3|]. intros x. eapply iff_trans; [exact (H4 x)|]. rewrite H2. cbn [In]. tauto.
Qed.
