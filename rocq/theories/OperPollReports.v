(** Reported changes lead to the data that are served. *)
From Coq Require Import ZArith NArith List Bool Lia Permutation.
From Verif Require Import Time TimeProofs OperPoll OperPollSpec OperPollProofs.
Import ListNotations.
Local Open Scope Z_scope.

Definition told (c : cache) : Prop := forall n, known (c_rep c) n = get n (c_data c).

Record invR (L : list (N * psub)) (s : st) : Prop := InvR {
  r_a : invA L s;
  r_told : forall m p c, In (m, p) L -> p_diff p = true -> In c (s_caches s) -> c_id c = p_id p -> told c;
  r_prov : forall c, In c (s_caches s) -> c_data c = [] \/ find_get (s_gets s) (c_mod c) (c_path c) = true;
  r_fun : forall m p m' p', In (m, p) L -> In (m', p') L -> p_id p = p_id p' -> p_diff p = p_diff p' }.

Lemma find_put_same : forall (m : N) (p : path) (fl : list bool) (l : list gsub), existsb negb fl = true ->
  find_get (put_get m p fl l) m p = true.
Proof.
  intros m p fl l H. assert (R : path_eqb p p = true) by (apply path_eqb_eq; auto).
  induction l as [|g l IH]; cbn [put_get].
  - destruct fl as [|b fl]; [discriminate|]. cbn [find_get g_mod g_path g_susp]. rewrite N.eqb_refl, R. auto.
  - destruct (N.eqb (g_mod g) m && path_eqb p (g_path g)) eqn:E.
    + destruct fl as [|b fl]; [discriminate|]. cbn [find_get g_mod g_path g_susp]. rewrite N.eqb_refl, R. auto.
    + cbn [find_get]. rewrite E. auto.
Qed.

Lemma find_put_other : forall (m m' : N) (p p' : path) (fl : list bool) (l : list gsub), (m, p) <> (m', p') ->
  find_get (put_get m p fl l) m' p' = find_get l m' p'.
Proof.
  intros m m' p p' fl l H. induction l as [|g l IH]; cbn [put_get].
  - destruct fl as [|b fl]; auto. cbn [find_get g_mod g_path].
    destruct (N.eqb m m' && path_eqb p' p) eqn:E; auto. apply andb_true_iff in E as [E1 E2].
    apply N.eqb_eq in E1. apply path_eqb_eq in E2. congruence.
  - destruct (N.eqb (g_mod g) m && path_eqb p (g_path g)) eqn:E.
    + apply andb_true_iff in E as [E1 E2]. apply N.eqb_eq in E1. apply path_eqb_eq in E2.
      assert (K : N.eqb (g_mod g) m' && path_eqb p' (g_path g) = false).
      { apply not_true_iff_false. intros K. apply andb_true_iff in K as [K1 K2]. apply N.eqb_eq in K1.
        apply path_eqb_eq in K2. congruence. }
      destruct fl as [|b fl]; cbn [find_get g_mod g_path].
      * rewrite K. auto.
      * destruct (N.eqb m m' && path_eqb p' p) eqn:E'; [|rewrite K; auto].
        apply andb_true_iff in E' as [E3 E4]. apply N.eqb_eq in E3. apply path_eqb_eq in E4. congruence.
    + cbn [find_get]. rewrite IH. auto.
Qed.

Lemma told_fill : forall (c : cache) (d : tree) (t : timespec) (ds : list dop), told c -> ds = diff_tree (c_data c) d ->
  told (fill_cache d t (match ds with [] => [] | _ => [ds] end) c).
Proof.
  intros c d t ds H E n. unfold fill_cache. cbn [c_rep c_data]. destruct ds as [|o ds].
  - rewrite app_nil_r, (H n). apply diff_nil. auto.
  - rewrite known_snoc, E. apply diff_ok. exact H.
Qed.

Lemma poll_sub_invR : forall (sel : path -> N -> bool) (e : env) (m : N) (p : psub) (s : st) (w : option timespec)
    (L : list (N * psub)), invR L s -> In (m, p) L ->
  match poll_sub sel e m p s w with
  | POk s' _ => invR L s'
  | PErr s' _ => invR L s'
  | PAssert => False
  end.
Proof.
  intros sel e m p s w L I Hin. pose proof (poll_sub_frame sel e m p s w L (r_a _ _ I) Hin) as F.
  destruct I as [A T P Fn]. pose proof (a_nodup _ _ A) as ND.
  destruct (a_has _ _ A m p Hin) as (c & Hc & E1 & E2 & E3).
  revert F. unfold poll_sub. destruct (p_susp p); [intros; constructor; auto|].
  rewrite <- E1, (by_id_in _ c ND Hc).
  destruct (find_get (s_gets s) m (p_path p)) eqn:Eg; cbn [negb].
  2:{ intros F. constructor; auto.
      - eapply invA_frame; eauto.
      - intros m' p' c' Hp' Hd Hc' Ei. cbn [set_caches s_caches] in Hc'.
        apply set_cache_in in Hc' as [[Hc' _]|(c0 & Hc0 & Ei0 & ->)]; auto; [eapply T; eauto|].
        assert (c0 = c) by (eapply id_unique; eauto). subst c0.
        assert (K : told c) by (eapply T; eauto; destruct c; exact Ei).
        destruct (P c Hc) as [Z|Z]; [|congruence].
        intros n. specialize (K n). rewrite Z in K. exact K.
      - intros c' Hc'. cbn [set_caches s_caches] in Hc'.
        apply set_cache_in in Hc' as [[Hc' _]|(c0 & Hc0 & Ei0 & ->)]; auto. }
  destruct (cache_valid c (p_valid p) (s_now s)) as [inv|]; [intros; constructor; auto|].
  destruct (N.eqb (e_fail e) 0); cbn [negb].
  2:{ intros [F Ec]. constructor; auto. eapply invA_frame; eauto. }
  match goal with |- context [if ?b then PErr _ _ else _] => destruct b end.
  { intros [F Ec]. constructor; auto. eapply invA_frame; eauto. }
  intros F. constructor; auto.
  - eapply invA_frame; eauto.
  - intros m' p' c' Hp' Hd Hc' Ei. cbn [set_caches s_caches pass] in Hc'.
    apply set_cache_in in Hc' as [[Hc' _]|(c0 & Hc0 & Ei0 & ->)]; auto; [eapply T; eauto|].
    assert (c0 = c) by (eapply id_unique; eauto). subst c0. cbn [fill_cache c_id] in Ei.
    assert (Ed : p_diff p = true) by (rewrite <- Hd; eapply Fn; eauto; congruence). rewrite Ed.
    apply told_fill; auto. eapply T; eauto.
  - intros c' Hc'. cbn [set_caches s_caches pass s_gets] in *.
    apply set_cache_in in Hc' as [[Hc' _]|(c0 & Hc0 & Ei0 & ->)]; auto.
    assert (c0 = c) by (eapply id_unique; eauto). subst c0. right. cbn [fill_cache c_mod c_path]. congruence.
Qed.

Lemma poll_groups_invR : forall (sel : path -> N -> bool) (ev : N -> env) (l : list (N * list psub)) (L : list (N * psub)) (s : st)
    (w : option timespec), invR L s -> (forall x, In x (gpolls l) -> In x L) ->
  match poll_groups sel ev l s w with POk s' _ => invR L s' | PErr s' _ => invR L s' | PAssert => False end.
Proof.
  intros sel ev l L s w I Hl. apply (poll_groups_ind sel ev (fun s' => invR L s')); auto.
  intros m p s0 w0 Hin F. apply poll_sub_invR; auto.
Qed.

Lemma invR_same : forall (L L' : list (N * psub)) (s s' : st), invR L s -> (forall x, In x L' -> In x L) ->
  s_caches s' = s_caches s -> s_next s' = s_next s -> s_gets s' = s_gets s -> invR L' s'.
Proof.
  intros L L' s s' [A T P Fn] H E1 E2 E3. constructor; rewrite ?E1, ?E3; eauto. eapply invA_sub; eauto.
Qed.

Lemma exec_invR : forall (sel : path -> N -> bool) (s s' : st) (e : event), invR (polls s) s -> e <> Flush ->
  keeps_providers s e -> exec sel s e = Some s' -> invR (polls s') s'.
Proof.
  intros sel s s' e I Hf Hk H. pose proof (exec_invA sel s e (r_a _ _ I)) as IA. rewrite H in IA.
  revert H Hk. destruct e as [n|o|t|m p fl| |i m p valid diff ev|i id|i id b|i ev]; cbn [exec keeps_providers].
  - intros H _. injection H as <-. eapply invR_same; eauto.
  - intros H _. injection H as <-. eapply invR_same; eauto.
  - intros H _. injection H as <-. eapply invR_same; eauto.
  - intros H Hk. injection H as <-.
    assert (Hsub : forall x, In x (polls (set_strs (map (get_changed (s_mono s) m p) (s_strs s)) (set_gets (put_get m p fl (s_gets s)) s))) ->
      In x (polls s)).
    { intros x Hx. rewrite polls_eq in *. cbn [set_strs s_strs set_gets] in Hx.
      apply tpolls_in in Hx as (t & Ht & Hx). apply in_map_iff in Ht as (t0 & <- & Ht). apply tpolls_in.
      exists t0. split; auto. unfold get_changed in Hx.
      match type of Hx with context [if ?b then _ else _] => destruct b end; auto. }
    destruct I as [A T P Fn]. constructor; cbn [set_strs set_gets s_caches s_gets]; eauto.
    intros c Hc. destruct (P c Hc) as [?|Hg]; auto. right.
    destruct (N.eq_dec m (c_mod c)) as [Em|Em].
    + destruct (path_eqb p (c_path c)) eqn:Ep.
      * apply path_eqb_eq in Ep. subst. apply find_put_same. apply Hk. eauto.
      * rewrite find_put_other; auto. intros K. injection K as _ K.
        rewrite K in Ep. assert (path_eqb (c_path c) (c_path c) = true) by (apply path_eqb_eq; auto). congruence.
    + rewrite find_put_other; auto. congruence.
  - congruence.
  - intros H _. unfold poll_add in H. set (b := (i <? length (s_strs s))%nat) in H.
    set (strs := if b then s_strs s else s_strs s ++ [Strct [] true None]) in H.
    destruct (nth_error strs i) as [t|] eqn:Et; [|injection H as <-; auto].
    destruct (valid =? 0); [injection H as <-; auto|].
    destruct (cache_add (s_caches s) (s_next s) m p) as [cs|] eqn:Ec; [|injection H as <-; auto].
    set (q := PSub (s_next s) p valid diff false) in H.
    assert (I1 : invR ((m, q) :: polls s) (St (s_mono s) (s_now s) (s_oper s) (s_log s) (s_gets s) cs strs (s_next s + 1))).
    { pose proof (invA_new (polls s) s strs m q cs (r_a _ _ I) Ec eq_refl) as A1.
      destruct I as [A T P Fn]. apply cache_add_some in Ec as [-> _].
      constructor; cbn [s_caches s_gets]; auto.
      - intros m' p' c' Hp' Hd Hc' Ei. apply in_app_or in Hc' as [Hc'|[<-|[]]].
        + destruct Hp' as [Hp'|Hp'].
          * injection Hp' as <- <-. cbn [q p_id] in Ei. pose proof (a_next _ _ A c' Hc'). lia.
          * eapply T; eauto.
        + intros n. reflexivity.
      - intros c' Hc'. apply in_app_or in Hc' as [Hc'|[<-|[]]]; auto.
      - intros m1 p1 m2 p2 [X1|X1] [X2|X2] Ei; try (injection X1 as <- <-); try (injection X2 as <- <-); auto; try (eapply Fn; eauto; fail).
        + cbn [q p_id] in Ei. pose proof (invA_id_lt _ _ _ _ A X2). lia.
        + cbn [q p_id] in Ei. pose proof (invA_id_lt _ _ _ _ A X1). lia. }
    assert (Hg : forall x, In x (gpolls (add_psub m q (t_groups t))) -> In x ((m, q) :: polls s)).
    { intros x Hx. apply add_psub_in in Hx as [->|Hx]; [left; auto|]. right. rewrite polls_eq.
      apply (in_app_strs (s_strs s) b). fold strs. apply tpolls_in. exists t. split; auto. eapply nth_error_In; eauto. }
    pose proof (poll_groups_frame sel ev (match rev (add_psub m q (t_groups t)) with [] => [] | g :: _ => [g] end)
      ((m, q) :: polls s) _ None (r_a _ _ I1) (fun x Hx => Hg x (last_group _ x Hx))) as F.
    pose proof (poll_groups_invR sel ev (match rev (add_psub m q (t_groups t)) with [] => [] | g :: _ => [g] end)
      ((m, q) :: polls s) _ None I1 (fun x Hx => Hg x (last_group _ x Hx))) as K.
    destruct (poll_groups _ _ _ _ _) as [s2 w2|s2 to|]; [| |discriminate].
    + injection H as <-. eapply invR_same; eauto.
      intros x Hx. rewrite polls_eq in Hx. cbn [set_strs s_strs] in Hx. apply tpolls_in in Hx as (t' & Ht' & Hx).
      destruct F as (_ & _ & F3 & _). rewrite F3 in Ht'. cbn [s_strs] in Ht'.
      apply set_nth_in in Ht' as [Ht'|(y & Hy & ->)].
      * right. rewrite polls_eq. apply (in_app_strs (s_strs s) b). fold strs. apply tpolls_in. eauto.
      * apply Hg. cbn [wake_now t_groups] in Hx. auto.
    + injection H as <-. destruct F as (_ & _ & F3 & _).
      assert (Hp : forall x, In x (polls (set_caches (cache_del (s_caches s2) (s_next s)) s2)) -> In x (polls s)).
      { intros x Hx. rewrite polls_eq in *. cbn [set_caches s_strs] in Hx. rewrite F3 in Hx. cbn [s_strs] in Hx.
        unfold strs in Hx. apply in_app_strs in Hx. auto. }
      destruct K as [A2 T2 P2 Fn2].
      destruct (a_has _ _ A2 m q (or_introl eq_refl)) as (c & Hc & Ei & _). cbn [q p_id] in Ei.
      pose proof (a_nodup _ _ A2) as ND2.
      constructor; auto.
      * intros m' p' c' Hp' Hd Hc' Ei'. apply (cache_del_in _ _ _ _ ND2 Hc Ei) in Hc' as [Hc' _].
        eapply (T2 m' p'); eauto. right. auto.
      * intros c' Hc'. apply (cache_del_in _ _ _ _ ND2 Hc Ei) in Hc' as [Hc' _]. apply (P2 c'); auto.
      * intros m1 p1 m2 p2 X1 X2. apply (Fn2 m1 p1 m2 p2); right; auto.
  - intros H _. destruct (nth_error (s_strs s) i) as [t|] eqn:Et; [|injection H as <-; auto].
    destruct (existsb _ (t_groups t)) eqn:Ex; [|injection H as <-; auto]. injection H as <-.
    apply existsb_exists in Ex as ([m ps] & Hm & Hp). cbn [snd] in Hp. apply existsb_exists in Hp as (p & Hp & Hid).
    apply N.eqb_eq in Hid.
    assert (Hin : In (m, p) (polls s)).
    { rewrite polls_eq. apply tpolls_in. exists t. split; [eapply nth_error_In; eauto|]. apply gpolls_in. eauto. }
    destruct I as [A T P Fn]. destruct (a_has _ _ A m p Hin) as (c & Hc & E1 & _). rewrite Hid in E1.
    pose proof (a_nodup _ _ A) as ND.
    assert (Hsub : forall x, In x (polls (set_caches (cache_del (s_caches s) id)
               (set_strs (map (fun t => Strct (del_psub id (t_groups t)) (t_alive t) (t_dl t)) (s_strs s)) s))) -> In x (polls s)).
    { intros x Hx. rewrite polls_eq in *. cbn [set_caches set_strs s_strs] in Hx.
      apply tpolls_in in Hx as (t' & Ht' & Hx). apply in_map_iff in Ht' as (t0 & <- & Ht0). cbn [t_groups] in Hx.
      apply del_psub_in in Hx as [Hx _]. apply tpolls_in. eauto. }
    constructor; auto.
    + intros m' p' c' Hp' Hd Hc' Ei'. apply (cache_del_in _ _ _ _ ND Hc E1) in Hc' as [Hc' _]. apply (T m' p' c'); auto.
    + intros c' Hc'. apply (cache_del_in _ _ _ _ ND Hc E1) in Hc' as [Hc' _]. apply (P c'); auto.
    + intros m1 p1 m2 p2 X1 X2. apply (Fn m1 p1 m2 p2); auto.
  - intros H _. injection H as <-. destruct I as [A T P Fn].
    assert (Hsub : forall m p, In (m, p) (polls (set_strs (set_nth i (fun t => Strct (map_psub id (fun p => PSub (p_id p) (p_path p) (p_valid p)
                                                    (p_diff p) b) (t_groups t)) (t_alive t) (t_dl t)) (s_strs s)) s)) ->
      exists p0, In (m, p0) (polls s) /\ p_id p0 = p_id p /\ p_diff p0 = p_diff p).
    { intros m p Hx. rewrite polls_eq in Hx. cbn [set_strs s_strs] in Hx. apply tpolls_in in Hx as (t & Ht & Hx).
      apply set_nth_in in Ht as [Ht|(y & Hy & ->)].
      - exists p. split; auto. rewrite polls_eq. apply tpolls_in. eauto.
      - cbn [t_groups] in Hx. apply map_psub_in in Hx as (p0 & Hp0 & Hp). exists p0.
        split; [rewrite polls_eq; apply tpolls_in; exists y; split; auto; eapply nth_error_In; eauto|].
        destruct Hp as [-> | ->]; auto. }
    constructor; auto.
    + intros m p c Hp Hd Hc Ei. destruct (Hsub m p Hp) as (p0 & Hp0 & X1 & X2).
      apply (T m p0 c); auto; congruence.
    + intros m1 p1 m2 p2 X1 X2 Ei. destruct (Hsub m1 p1 X1) as (q1 & Q1 & U1 & U2). destruct (Hsub m2 p2 X2) as (q2 & Q2 & V1 & V2).
      rewrite <- U2, <- V2. eapply Fn; eauto. congruence.
  - intros H _. unfold process in H. destruct (nth_error (s_strs s) i) as [t|] eqn:Et; [|injection H as <-; auto].
    destruct (t_alive t); cbn [negb] in H; [|injection H as <-; auto].
    assert (Hg : forall x, In x (gpolls (t_groups t)) -> In x (polls s)).
    { intros x Hx. rewrite polls_eq. apply tpolls_in. exists t. split; auto. eapply nth_error_In; eauto. }
    pose proof (poll_groups_frame sel ev (t_groups t) (polls s) s (Some ts_zero) (r_a _ _ I) Hg) as F.
    pose proof (poll_groups_invR sel ev (t_groups t) (polls s) s (Some ts_zero) I Hg) as K.
    assert (Hn : forall (s2 : st) (a : bool) (d : option Z), frame s s2 -> invR (polls s) s2 ->
      invR (polls (set_strs (set_nth i (fun t => Strct (t_groups t) a d) (s_strs s2)) s2))
           (set_strs (set_nth i (fun t => Strct (t_groups t) a d) (s_strs s2)) s2)).
    { intros s2 a d F2 I2. eapply invR_same; eauto.
      intros x Hx. rewrite polls_eq in *. cbn [set_strs s_strs] in Hx. destruct F2 as (_ & _ & F3 & _). rewrite F3 in Hx.
      apply tpolls_in in Hx as (t' & Ht' & Hx). apply tpolls_in.
      apply set_nth_in in Ht' as [Ht'|(y & Hy & ->)]; [eauto|]. exists y. split; auto. eapply nth_error_In; eauto. }
    destruct (poll_groups _ _ _ _ _) as [s2 w2|s2 [|]|]; [injection H as <-; auto..|discriminate].
Qed.

Lemma invR_init : forall (now : timespec) (o : tree), invR (polls (init now o)) (init now o).
Proof. intros. constructor; [apply invA_init|intros m p c []|intros c []|intros m p m' p' []]. Qed.

Lemma steady_invR : forall (sel : path -> N -> bool) (s0 s : st), invR (polls s0) s0 -> steady_run sel s0 s -> invR (polls s) s.
Proof.
  intros sel s0 s I H. induction H as [|s0 s e s' H IH Hf Hk He]; auto. apply (exec_invR sel s s' e); auto.
Qed.
