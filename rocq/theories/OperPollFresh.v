(** The age of what is read. *)
From Coq Require Import ZArith NArith List Bool Lia Permutation.
From Verif Require Import Time TimeProofs OperPoll OperPollSpec OperPollProofs OperPollReports.
Import ListNotations.
Local Open Scope Z_scope.

(** ** Time *)

Lemma adv_ok : forall (t : timespec) (n : Z), normalised (adv t n) /\ ns (adv t n) = ns t + n.
Proof.
  intros [a b] n. unfold normalised, ns, adv. cbn [tv_sec tv_nsec].
  pose proof (Z.mod_pos_bound (b + n) 1000000000). pose proof (Z.div_mod (b + n) 1000000000). lia.
Qed.

Lemma to_int_small : forall z, 0 <= z < 2147483648 -> to_int z = z.
Proof. intros z H. unfold to_int, two32z. rewrite Z.mod_small; lia. Qed.

Lemma ns_ms : forall w, normalised w -> ns w / 1000000 = tv_sec w * 1000 + tv_nsec w / 1000000.
Proof.
  intros [a b] H. unfold ns, normalised in *. cbn [tv_sec tv_nsec] in *.
  replace (a * 1000000000 + b) with (b + (a * 1000) * 1000000) by lia. rewrite Z.div_add by lia. lia.
Qed.

Lemma poll_timeout_ok : forall w, normalised w -> 0 <= ns w -> ns w / 1000000 <= 2147483647 ->
  poll_timeout w = ns w / 1000000.
Proof.
  intros w H H0 H1. pose proof (ns_ms w H) as E. unfold normalised in H. unfold poll_timeout.
  rewrite Z.quot_div_nonneg by lia.
  assert (0 <= tv_nsec w / 1000000 < 1000) by (split; [apply Z.div_pos; lia|apply Z.div_lt_upper_bound; lia]).
  assert (0 <= tv_sec w) by (unfold ns in H0; lia).
  rewrite (to_int_small (tv_sec w * 1000)) by lia. rewrite to_int_small by lia. lia.
Qed.

Lemma wait_ok : forall (mono : Z) (w : timespec), normalised w -> 0 < ns w -> ns w / 1000000 <= 2147483647 ->
  exists d, wait_until mono w = Some d /\ d <= mono + ns w.
Proof.
  intros mono w H H0 H1. unfold wait_until.
  assert (Z : ts_is_zero w = false).
  { unfold ts_is_zero. apply andb_false_iff. unfold ns, normalised in *.
    destruct (Z.eqb_spec (tv_sec w) 0); auto. right. apply Z.eqb_neq. lia. }
  rewrite Z, poll_timeout_ok by (auto; lia).
  assert (0 <= ns w / 1000000) by (apply Z.div_pos; lia).
  destruct (Z.ltb_spec (ns w / 1000000) 0); [lia|]. eexists. split; [reflexivity|].
  pose proof (Z.mul_div_le (ns w) 1000000). lia.
Qed.

(** ** The invariant *)

Record invF (sel : path -> N -> bool) (v rho off : Z) (s : st) : Prop := InvF {
  f_a : invA (polls s) s;
  f_now : normalised (s_now s) /\ ns (s_now s) = s_mono s + off /\ 1000000000 <= ns (s_now s);
  f_log : In (s_mono s, s_oper s) (s_log s);
  f_str : forall t, In t (s_strs s) -> t_alive t = true /\
    (t_groups t = [] \/ exists m p d, t_groups t = [(m, [p])] /\ p_susp p = false /\ 1 <= p_valid p <= v /\
       t_dl t = Some d /\
       forall c, In c (s_caches s) -> c_id c = p_id p -> d <= ns (c_ts c) - off + p_valid p * 1000000);
  f_cache : forall c, In c (s_caches s) -> normalised (c_ts c) /\ 1000000000 <= ns (c_ts c) <= ns (s_now s) /\
    find_get (s_gets s) (c_mod c) (c_path c) = true /\
    exists t o, In (t, o) (s_log s) /\ ns (c_ts c) - off - rho <= t /\ c_data c = restrict sel (c_path c) o;
  f_own : forall c, In c (s_caches s) -> exists t m p, In t (s_strs s) /\ t_groups t = [(m, [p])] /\ p_id p = c_id c }.

Lemma pass_invF : forall (sel : path -> N -> bool) (v rho off n : Z) (o : tree) (s : st), 0 <= n ->
  invF sel v rho off s -> invF sel v rho off (pass n o s).
Proof.
  intros sel v rho off n o s Hn [A (N1 & N2 & N3) Lg S C O]. destruct (adv_ok (s_now s) n) as [P1 P2]. constructor.
  - eapply invA_sub; eauto.
  - cbn [pass s_now s_mono]. split; auto. lia.
  - cbn [pass s_mono s_oper s_log]. left. auto.
  - exact S.
  - cbn [pass s_now s_log s_caches s_gets]. intros c Hc. destruct (C c Hc) as (C1 & C2 & C3 & t & o' & C4 & C5).
    split; auto. split; [lia|]. split; auto. exists t, o'. split; auto. right. auto.
  - exact O.
Qed.

Lemma single_in : forall (s : st) (t : strct) (m : N) (p : psub), In t (s_strs s) -> t_groups t = [(m, [p])] ->
  In (m, p) (polls s).
Proof.
  intros s t m p H E. rewrite polls_eq. apply tpolls_in. exists t. split; auto. rewrite E. left. auto.
Qed.

(** What is done for the only subscription of a structure. *)
Lemma poll_single : forall (sel : path -> N -> bool) (v rho off : Z) (s : st) (ev : N -> env) (m : N) (p : psub) (c : cache),
  v <= 2147483647 -> env_ok rho ev ->
  normalised (s_now s) -> 1000000000 <= ns (s_now s) ->
  NoDup (map c_id (s_caches s)) -> In c (s_caches s) -> c_id c = p_id p -> p_susp p = false ->
  1 <= p_valid p <= v -> find_get (s_gets s) m (p_path p) = true ->
  (c_ts c = ts_zero \/ normalised (c_ts c) /\ 1000000000 <= ns (c_ts c) <= ns (s_now s)) ->
  forall w0,
  (exists inv, poll_groups sel ev [(m, [p])] s w0 = POk s (upd_wake w0 inv) /\ c_ts c <> ts_zero /\
     normalised inv /\ 0 < ns inv /\ ns inv = ns (c_ts c) + p_valid p * 1000000 - ns (s_now s) /\
     ns inv / 1000000 <= 2147483647) \/
  (exists n o r, 0 <= n <= rho /\
     let s1 := pass n o s in
     poll_groups sel ev [(m, [p])] s w0 =
       POk (set_caches (set_cache (s_caches s) (p_id p)
              (fill_cache (restrict sel (p_path p) (s_oper s)) (s_now s1) r)) s1)
           (upd_wake w0 (ts_add None (p_valid p)))).
Proof.
  intros sel v rho off s ev m p c Hv He Hn1 Hn2 ND Hc Ei Hs Hp Hg Ht w0.
  cbn [poll_groups poll_subs]. unfold poll_sub. rewrite Hs, <- Ei, (by_id_in _ c ND Hc), Hg. cbn [negb].
  destruct (cache_valid c (p_valid p) (s_now s)) as [inv|] eqn:Ev.
  - left. exists inv. split; auto. unfold cache_valid in Ev. destruct Ht as [Ht|[T1 T2]].
    { rewrite Ht in Ev. discriminate. }
    assert (X1 : 0 <= tv_nsec (c_ts c) / 1000000 < 1000).
    { unfold normalised in T1. split; [apply Z.div_pos; lia|apply Z.div_lt_upper_bound; lia]. }
    destruct (ts_add_ok (c_ts c) (p_valid p) T1) as [A1 A2]; [lia|unfold two32z; lia|].
    destruct (tv_sec (c_ts c) =? 0); [discriminate|].
    rewrite time_cmp_ok in Ev by auto.
    destruct (Z.leb_spec (Z.sgn (ns (ts_add (Some (c_ts c)) (p_valid p)) - ns (s_now s))) 0) as [Q|Q]; [discriminate|].
    injection Ev as <-. pose proof (time_sub_ok (ts_add (Some (c_ts c)) (p_valid p)) (s_now s) A2 Hn1) as B.
    destruct (Z.leb_spec (ns (s_now s)) (ns (ts_add (Some (c_ts c)) (p_valid p)))) as [Q'|Q']; [|lia].
    destruct B as [B1 B2]. split; [intros K; rewrite K in T2; unfold ns in T2; cbn in T2; lia|].
    split; auto. split; [lia|]. split; [lia|].
    apply Z.le_trans with (p_valid p); [|lia]. apply Z.div_le_upper_bound; lia.
  - right. destruct (He (c_id c)) as (D1 & D2 & D3). rewrite D2. cbn [N.eqb negb]. rewrite D3, andb_false_r.
    exists (e_dur (ev (c_id c))), (e_oper (ev (c_id c))). eexists. split; [exact D1|]. cbv zeta. reflexivity.
Qed.

Lemma set_cache_hit : forall (f : cache -> cache) (id : N) (l : list cache) (c : cache), NoDup (map c_id l) -> In c l ->
  (c_id c = id -> In (f c) (set_cache l id f)) /\ (c_id c <> id -> In c (set_cache l id f)).
Proof.
  intros f id l. induction l as [|x l IH]; intros c Hd Hin; [destruct Hin|]. cbn [map] in Hd. inversion Hd as [|? ? X1 X2]; subst.
  cbn [set_cache]. destruct Hin as [->|Hin].
  - split; intros E.
    + rewrite (proj2 (N.eqb_eq _ _) E). left. auto.
    + rewrite (proj2 (N.eqb_neq _ _) E). left. auto.
  - destruct (N.eqb_spec (c_id x) id) as [E|E]; destruct (IH c X2 Hin) as [I1 I2].
    + split; intros E'; [exfalso; apply X1; rewrite E, <- E'; apply in_map; auto|right; auto].
    + split; intros E'; right; auto.
Qed.

Lemma upd_wake_zero : forall inv, upd_wake (Some ts_zero) inv = Some inv.
Proof. reflexivity. Qed.

Lemma set_nth_hit : forall (A : Type) (i : nat) (f : A -> A) (l : list A) (x : A), In x l ->
  In x (set_nth i f l) \/ (nth_error l i = Some x /\ In (f x) (set_nth i f l)).
Proof.
  intros A i. induction i as [|i IH]; intros f [|y l] x H; try destruct H; subst; cbn [set_nth nth_error].
  - right. split; auto. left; auto.
  - left. right. auto.
  - left. left. auto.
  - destruct (IH f l x H) as [?|[? ?]]; [left; right; auto|right; split; auto; right; auto].
Qed.

Lemma set_nth_last : forall (A : Type) (f : A -> A) (l : list A) (x : A),
  (forall y, In y l -> In y (set_nth (length l) f (l ++ [x]))) /\ In (f x) (set_nth (length l) f (l ++ [x])).
Proof.
  intros A f l x. induction l as [|z l [IH1 IH2]]; cbn [length app set_nth].
  - split; [intros y []|left; auto].
  - split; [|right; auto]. intros y [->|Hy]; [left; auto|right; auto].
Qed.

(** The cache of the subscription is filled. *)
Lemma fill_invF : forall (sel : path -> N -> bool) (v rho off : Z) (s : st) (m : N) (p : psub) (n : Z) (o : tree) (r : list (list dop)) (i : nat) (t : strct),
  v <= 2147483647 -> invF sel v rho off s -> nth_error (s_strs s) i = Some t -> t_groups t = [(m, [p])] ->
  p_susp p = false -> 1 <= p_valid p <= v -> 0 <= n <= rho ->
  let s1 := pass n o s in
  let s2 := set_caches (set_cache (s_caches s) (p_id p)
              (fill_cache (restrict sel (p_path p) (s_oper s)) (s_now s1) r)) s1 in
  invF sel v rho off (set_strs (set_nth i (fun t => Strct (t_groups t) true
                            (wait_until (s_mono s2) (ts_add None (p_valid p)))) (s_strs s2)) s2).
Proof.
  intros sel v rho off s m p n o r i t Hv I Et Eg Hs Hp Hn s1 s2.
  pose proof (pass_invF sel v rho off n o s ltac:(lia) I) as I1.
  destruct I as [A (N1 & N2 & N3) Lg S C O]. destruct I1 as [A' (N1' & N2' & N3') Lg' _ C' _].
  fold s1 in A', N1', N2', N3', Lg', C'.
  pose proof (a_nodup _ _ A) as ND.
  assert (Hin : In (m, p) (polls s)) by (eapply single_in; eauto; eapply nth_error_In; eauto).
  destruct (a_has _ _ A m p Hin) as (c & Hc & E1 & E2 & E3).
  assert (Em : s_mono s1 = s_mono s + n) by reflexivity.
  destruct (adv_ok (s_now s) n) as [W1 W2]. change (adv (s_now s) n) with (s_now s1) in W1, W2.
  destruct (ts_add_null (p_valid p)) as [V1 V2]; [unfold two32z; lia|].
  assert (V3 : ns (ts_add None (p_valid p)) / 1000000 <= 2147483647).
  { rewrite V1, Z.div_mul by lia. lia. }
  destruct (wait_ok (s_mono s2) (ts_add None (p_valid p)) V2 ltac:(lia) V3) as (d & Ed & Hd).
  assert (Hk : forall c', In c' (s_caches s2) -> exists c0, In c0 (s_caches s) /\ key c' = key c0 /\ ns (c_ts c0) <= ns (c_ts c') /\
     (c0 = c' /\ c_id c' <> p_id p \/ c0 = c /\ c' = fill_cache (restrict sel (p_path p) (s_oper s)) (s_now s1) r c)).
  { intros c' Hc'. unfold s2 in Hc'. cbn [set_caches s_caches] in Hc'.
    apply set_cache_in in Hc' as [[Hc' Hne]|(c0 & Hc0 & Ei0 & ->)]; auto.
    - exists c'. split; auto. split; auto. split; [lia|]. left. auto.
    - assert (c0 = c) by (eapply id_unique; eauto; congruence). subst c0. exists c. split; auto. split; [reflexivity|].
      split; [|right; auto]. cbn [fill_cache c_ts]. destruct (C c Hc) as (_ & C2 & _). lia. }
  constructor.
  - eapply (invA_sub (polls s) _ s2).
    + eapply invA_frame; [|exact A]. split; [|repeat split]. unfold s2. cbn [set_caches s_caches]. apply set_cache_key. intros; apply fill_key.
    + intros x Hx. rewrite polls_eq in *. cbn [set_strs s_strs] in Hx. apply tpolls_in in Hx as (t' & Ht' & Hx).
      apply tpolls_in. apply set_nth_in in Ht' as [Ht'|(y & Hy & ->)]; [exists t'; auto|].
      exists y. split; auto. apply nth_error_In in Hy. exact Hy.
    + reflexivity.
    + reflexivity.
  - cbn [set_strs s_now s_mono s2 set_caches]. auto.
  - exact Lg'.
  - intros t' Ht'. cbn [set_strs s_strs] in Ht'. apply set_nth_in in Ht' as [Ht'|(y & Hy & ->)].
    + change (s_strs s2) with (s_strs s) in Ht'. destruct (S t' Ht') as [S1 S2]. split; auto.
      destruct S2 as [S2|(m' & p' & d' & G1 & G2 & G3 & G4 & G5)]; auto. right.
      exists m', p', d'. split; auto. split; auto. split; auto. split; auto.
      intros c' Hc' Ei'. change (s_caches (set_strs _ s2)) with (s_caches s2) in Hc'.
      destruct (Hk c' Hc') as (c0 & Hc0 & K1 & K2 & _). assert (c_id c0 = p_id p') by (unfold key in K1; congruence).
      specialize (G5 c0 Hc0 H). lia.
    + change (s_strs s2) with (s_strs s) in Hy. rewrite Et in Hy. injection Hy as <-. split; auto. right.
      exists m, p, d. cbn [t_groups t_dl]. split; auto. split; auto. split; auto. split; [exact Ed|].
      intros c' Hc' Ei'. change (s_caches (set_strs _ s2)) with (s_caches s2) in Hc'.
      destruct (Hk c' Hc') as (c0 & Hc0 & K1 & K2 & [[_ K3]|[_ ->]]); [congruence|].
      cbn [fill_cache c_ts]. change (s_mono s2) with (s_mono s1) in Hd. lia.
  - intros c' Hc'. change (s_caches (set_strs _ s2)) with (s_caches s2) in Hc'.
    destruct (Hk c' Hc') as (c0 & Hc0 & K1 & K2 & [[-> K3]|[_ ->]]).
    + apply C'. exact Hc0.
    + cbn [fill_cache c_ts c_mod c_path c_data]. split; auto. split; [change (s_now (set_strs _ s2)) with (s_now s1); lia|].
      destruct (C c Hc) as (_ & _ & Hg & _). split; [exact Hg|].
      exists (s_mono s), (s_oper s). split; [right; exact Lg|]. split; [lia|]. rewrite E3. auto.
  - intros c' Hc'. change (s_caches (set_strs _ s2)) with (s_caches s2) in Hc'.
    destruct (Hk c' Hc') as (c0 & Hc0 & K1 & _). destruct (O c0 Hc0) as (t' & m' & p' & O1 & O2 & O3).
    cbn [set_strs s_strs]. change (s_strs s2) with (s_strs s).
    assert (O4 : p_id p' = c_id c') by (unfold key in K1; congruence).
    destruct (set_nth_hit _ i (fun t => Strct (t_groups t) true (wait_until (s_mono s2) (ts_add None (p_valid p)))) (s_strs s) t' O1) as [H|[_ H]].
    + exists t', m', p'. auto.
    + exists (Strct (t_groups t') true (wait_until (s_mono s2) (ts_add None (p_valid p)))), m', p'. cbn [t_groups]. auto.
Qed.

Lemma exec_invF : forall (sel : path -> N -> bool) (v rho off : Z) (s s' : st) (e : event), v <= 2147483647 -> 0 <= rho ->
  invF sel v rho off s -> no_fault v rho s e -> keeps_providers s e -> exec sel s e = Some s' -> invF sel v rho off s'.
Proof.
  intros sel v rho off s s' e Hv Hr I Hf Hk H.
  pose proof (exec_invA sel s e (f_a _ _ _ _ _ I)) as IA. rewrite H in IA. revert H Hf Hk.
  destruct e as [n|o|t|m p fl| |i m p valid diff ev|i id|i id b|i ev]; cbn [exec no_fault keeps_providers].
  - intros H Hf _. injection H as <-. apply pass_invF; auto.
  - intros H _ _. injection H as <-. apply pass_invF; auto. lia.
  - intros _ [].
  - intros H _ Hk. injection H as <-. destruct I as [A Nw Lg S C O]. constructor; auto.
    + intros t Ht. cbn [set_strs s_strs] in Ht. apply in_map_iff in Ht as (t0 & <- & Ht). destruct (S t0 Ht) as [S1 S2].
      unfold get_changed. match goal with |- context [if ?b then _ else _] => destruct b end; auto.
      cbn [wake_now t_alive t_groups t_dl]. split; auto. destruct S2 as [?|(m' & p' & d & G1 & G2 & G3 & G4 & G5)]; auto. right.
      exists m', p', (Z.min d (s_mono s)). rewrite G4. split; auto. split; auto. split; auto. split; auto.
      intros c Hc Ei. specialize (G5 c Hc Ei). lia.
    + intros c Hc. destruct (C c Hc) as (C1 & C2 & C3 & C4). split; auto. split; auto. split; auto.
      cbn [set_strs set_gets s_gets]. destruct (N.eq_dec m (c_mod c)) as [Em|Em].
      * destruct (path_eqb p (c_path c)) eqn:Ep.
        -- apply path_eqb_eq in Ep. subst. apply find_put_same. apply Hk. eauto.
        -- rewrite find_put_other; auto. intros K. injection K as _ K.
           rewrite K in Ep. assert (path_eqb (c_path c) (c_path c) = true) by (apply path_eqb_eq; auto). congruence.
      * rewrite find_put_other; auto. congruence.
    + intros c Hc. destruct (O c Hc) as (t & m' & p' & O1 & O2 & O3). exists (get_changed (s_mono s) m p t), m', p'.
      split; [cbn [set_strs s_strs]; apply in_map; auto|]. split; auto. unfold get_changed.
      match goal with |- context [if ?b then _ else _] => destruct b end; auto.
  - intros _ [].
  - intros H (Hi & Hp & He & Hg) _. unfold poll_add in H. subst i. rewrite Nat.ltb_irrefl in H.
    assert (En : nth_error (s_strs s ++ [Strct [] true None]) (length (s_strs s)) = Some (Strct [] true None)).
    { rewrite nth_error_app2, Nat.sub_diag by lia. auto. }
    rewrite En in H. destruct (Z.eqb_spec valid 0); [lia|].
    destruct (cache_add (s_caches s) (s_next s) m p) as [cs|] eqn:Ec; [|injection H as <-; auto].
    cbn [t_groups add_psub rev app] in H. set (q := PSub (s_next s) p valid diff false) in H.
    set (s1 := St (s_mono s) (s_now s) (s_oper s) (s_log s) (s_gets s) cs (s_strs s ++ [Strct [] true None]) (s_next s + 1)) in H.
    pose proof (invA_new (polls s) s (s_strs s ++ [Strct [] true None]) m q cs (f_a _ _ _ _ _ I) Ec eq_refl) as A1. fold s1 in A1.
    apply cache_add_some in Ec as [Ecs _].
    set (c := Cache (s_next s) m p [] ts_zero []) in Ecs.
    assert (Hc : In c (s_caches s1)) by (unfold s1; cbn [s_caches]; rewrite Ecs; apply in_or_app; right; left; auto).
    destruct I as [A (N1 & N2 & N3) Lg S C O].
    destruct (poll_single sel v rho off s1 ev m q c Hv He N1 N3 (a_nodup _ _ A1) Hc eq_refl eq_refl Hp Hg (or_introl eq_refl) None)
      as [(inv & _ & K & _)|(n1 & o1 & r1 & Hn1 & E)]; [exfalso; apply K; reflexivity|].
    cbv zeta in E. rewrite E in H. injection H as H.
    set (s2 := pass n1 o1 s1) in *.
    set (f := fill_cache (restrict sel (p_path q) (s_oper s1)) (s_now s2) r1) in *.
    assert (Hcs : In (f c) (set_cache (s_caches s1) (p_id q) f) /\ forall c', In c' (set_cache (s_caches s1) (p_id q) f) ->
        (In c' (s_caches s) /\ (c_id c' < s_next s)%N) \/ c' = f c).
    { split; [apply (proj1 (set_cache_hit f (p_id q) (s_caches s1) c (a_nodup _ _ A1) Hc)); reflexivity|].
      intros c' Hc'. apply set_cache_in in Hc' as [[Hc' Hne]|(c0 & Hc0 & Ei0 & ->)]; [| |apply (a_nodup _ _ A1)].
      - unfold s1 in Hc'. cbn [s_caches] in Hc'. rewrite Ecs in Hc'. apply in_app_or in Hc' as [Hc'|[<-|[]]]; [|cbn in Hne; congruence].
        left. split; auto. apply (a_next _ _ A); auto.
      - right. f_equal. eapply (id_unique (s_caches s1)); eauto. apply (a_nodup _ _ A1). }
    destruct Hcs as [Hcs1 Hcs2].
    destruct (adv_ok (s_now s) n1) as [W1 W2].
    assert (W3 : s_now s2 = adv (s_now s) n1) by reflexivity.
    assert (W4 : s_mono s2 = s_mono s + n1) by reflexivity.
    assert (Hst : forall t, In t (set_nth (length (s_strs s)) (fun t => wake_now (s_mono s2) (Strct [(m, [q])] (t_alive t) (t_dl t)))
        (s_strs s ++ [Strct [] true None])) -> In t (s_strs s) \/ t = Strct [(m, [q])] true (Some (s_mono s2))).
    { intros t Ht. apply In_nth_error in Ht as [j Hj]. apply set_nth_nth in Hj as [[J1 J2]|[J1 (x & Hx & ->)]].
      - left. destruct (Nat.ltb_spec j (length (s_strs s))) as [L|L].
        + rewrite nth_error_app1 in J2 by auto. eapply nth_error_In; eauto.
        + assert (Lj : (j < length (s_strs s ++ [Strct [] true None]))%nat) by (apply nth_error_Some; congruence).
          rewrite app_length in Lj. cbn [length] in Lj. lia.
      - rewrite En in Hx. injection Hx as <-. right. reflexivity. }
    subst s'. constructor; auto.
    + cbn [set_strs set_caches s_now s_mono]. rewrite W3, W4. split; auto. lia.
    + cbn [set_strs set_caches s_log s_mono s_oper]. left. reflexivity.
    + intros t Ht. cbn [set_strs set_caches s_strs] in Ht. destruct (Hst t Ht) as [Ht'| ->].
      * destruct (S t Ht') as [S1 S2]. split; auto. destruct S2 as [?|(m' & p' & d & G1 & G2 & G3 & G4 & G5)]; auto. right.
        exists m', p', d. split; auto. split; auto. split; auto. split; auto. intros c' Hc' Ei.
        cbn [set_strs set_caches s_caches] in Hc'. destruct (Hcs2 c' Hc') as [[Hc'' _]| ->]; [apply G5; auto|].
        pose proof (invA_id_lt _ _ _ _ A (single_in s t m' p' Ht' G1)). cbn [f fill_cache c c_id] in Ei. lia.
      * cbn [t_alive t_groups t_dl]. split; auto. right. exists m, q, (s_mono s2). split; auto. split; auto. split; [exact Hp|]. split; auto.
        intros c' Hc' Ei. cbn [set_strs set_caches s_caches] in Hc'. destruct (Hcs2 c' Hc') as [[_ Hlt]| ->].
        -- cbn [q p_id] in Ei. lia.
        -- cbn [f fill_cache c_ts q p_valid]. rewrite W3, W4. lia.
    + intros c' Hc'. cbn [set_strs set_caches s_caches s_now s_gets s_log] in *. destruct (Hcs2 c' Hc') as [[Hc'' _]| ->].
      * destruct (C c' Hc'') as (C1 & C2 & C3 & t & o' & C4 & C5). split; auto. rewrite W3. split; [lia|]. split; auto.
        exists t, o'. split; auto. right. auto.
      * cbn [f fill_cache c_ts c_mod c_path c_data c]. rewrite W3. split; auto. split; [lia|]. split; [exact Hg|].
        exists (s_mono s), (s_oper s). split; [right; exact Lg|]. split; [lia|]. reflexivity.
    + intros c' Hc'. cbn [set_strs set_caches s_caches s_strs] in *.
      assert (Hold : forall t, In t (s_strs s) -> In t (set_nth (length (s_strs s)) (fun t => wake_now (s_mono s2) (Strct [(m, [q])] (t_alive t) (t_dl t)))
        (s_strs s ++ [Strct [] true None]))).
      { intros t Ht. apply set_nth_last; auto. }
      destruct (Hcs2 c' Hc') as [[Hc'' _]| ->].
      * destruct (O c' Hc'') as (t & m' & p' & O1 & O2 & O3). exists t, m', p'. split; auto.
      * exists (Strct [(m, [q])] true (Some (s_mono s2))), m, q. split; auto.
        apply (set_nth_last _ (fun t => wake_now (s_mono s2) (Strct [(m, [q])] (t_alive t) (t_dl t))) (s_strs s) (Strct [] true None)).
  - intros H _ _. destruct (nth_error (s_strs s) i) as [t|] eqn:Et; [|injection H as <-; auto].
    destruct (existsb _ (t_groups t)) eqn:Ex; [|injection H as <-; auto]. injection H as <-.
    apply existsb_exists in Ex as ([m ps] & Hm & Hp). cbn [snd] in Hp. apply existsb_exists in Hp as (p & Hp & Hid).
    apply N.eqb_eq in Hid.
    destruct I as [A Nw Lg S C O]. pose proof (a_nodup _ _ A) as ND.
    assert (Hin : In (m, p) (polls s)).
    { rewrite polls_eq. apply tpolls_in. exists t. split; [eapply nth_error_In; eauto|]. apply gpolls_in. eauto. }
    destruct (a_has _ _ A m p Hin) as (c & Hc & E1 & _). rewrite Hid in E1.
    constructor; auto.
    + intros t' Ht'. cbn [set_caches set_strs s_strs] in Ht'. apply in_map_iff in Ht' as (t0 & <- & Ht0). cbn [t_alive t_groups t_dl].
      destruct (S t0 Ht0) as [S1 S2]. split; auto. destruct S2 as [G1|(m' & p' & d & G1 & G2 & G3 & G4 & G5)].
      { left. rewrite G1. auto. }
      rewrite G1. unfold del_psub. cbn [map fst snd filter]. destruct (N.eqb_spec (p_id p') id) as [E|E]; cbn [negb filter snd].
      { left. auto. }
      right. exists m', p', d. split; auto. split; auto. split; auto. split; auto.
      intros c' Hc' Ei. apply (cache_del_in _ _ _ _ ND Hc E1) in Hc' as [Hc' _]. apply G5; auto.
    + intros c' Hc'. apply (cache_del_in _ _ _ _ ND Hc E1) in Hc' as [Hc' _]. apply (C c'); auto.
    + intros c' Hc'. apply (cache_del_in _ _ _ _ ND Hc E1) in Hc' as [Hc' Hne].
      destruct (O c' Hc') as (t0 & m' & p' & O1 & O2 & O3). exists (Strct (del_psub id (t_groups t0)) (t_alive t0) (t_dl t0)), m', p'.
      split; [cbn [set_caches set_strs s_strs]; apply in_map_iff; exists t0; auto|]. split; auto. cbn [t_groups]. rewrite O2.
      unfold del_psub. cbn [map fst snd filter]. destruct (N.eqb_spec (p_id p') id) as [E|E]; [congruence|]. reflexivity.
  - intros _ [].
  - intros H He _. unfold process in H. destruct (nth_error (s_strs s) i) as [t|] eqn:Et; [|injection H as <-; auto].
    assert (Ht : In t (s_strs s)) by (eapply nth_error_In; eauto).
    destruct (f_str _ _ _ _ _ I t Ht) as [S1 S2]. rewrite S1 in H. cbn [negb] in H.
    destruct S2 as [G1|(m & p & d & G1 & G2 & G3 & G4 & G5)]; rewrite G1 in H.
    + cbn [poll_groups] in H. injection H as <-. destruct I as [A Nw Lg S C O]. constructor; auto.
      * intros t' Ht'. cbn [set_strs s_strs] in Ht'. apply set_nth_in in Ht' as [Ht'|(y & Hy & ->)]; [apply S; auto|].
        rewrite Et in Hy. injection Hy as <-. cbn [t_alive t_groups]. split; auto.
      * intros c Hc. destruct (O c Hc) as (t0 & m' & p' & O1 & O2 & O3). cbn [set_strs s_strs].
        destruct (set_nth_hit _ i (fun t => Strct (t_groups t) true (wait_until (s_mono s) ts_zero)) (s_strs s) t0 O1) as [K|[K1 K2]].
        -- exists t0, m', p'. auto.
        -- rewrite Et in K1. injection K1 as <-. congruence.
    + destruct (f_now _ _ _ _ _ I) as (N1 & N2 & N3). pose proof (a_nodup _ _ (f_a _ _ _ _ _ I)) as ND.
      destruct (a_has _ _ (f_a _ _ _ _ _ I) m p (single_in s t m p Ht G1)) as (c & Hc & E1 & E2 & E3).
      destruct (f_cache _ _ _ _ _ I c Hc) as (C1 & C2 & C3 & C4). rewrite E2, E3 in C3.
      destruct (poll_single sel v rho off s ev m p c Hv He N1 N3 ND Hc E1 G2 G3 C3 (or_intror (conj C1 C2)) (Some ts_zero))
        as [(inv & E & _ & V1 & V2 & V3 & V4)|(n1 & o1 & r1 & Hn1 & E)].
      * rewrite E in H. injection H as <-. destruct (wait_ok (s_mono s) inv V1 V2 V4) as (d' & Ed & Hd).
        destruct I as [A Nw Lg S C O]. constructor; auto.
        -- intros t' Ht'. cbn [set_strs s_strs] in Ht'. apply set_nth_in in Ht' as [Ht'|(y & Hy & ->)]; [apply S; auto|].
           rewrite Et in Hy. injection Hy as <-. cbn [t_alive t_groups t_dl]. split; auto. right. exists m, p, d'.
           split; auto. split; auto. split; auto. split; [exact Ed|]. intros c' Hc' Ei.
           assert (c' = c) by (eapply (id_unique (s_caches s)); eauto; congruence). subst c'. lia.
        -- intros c' Hc'. destruct (O c' Hc') as (t0 & m' & p' & O1 & O2 & O3). cbn [set_strs s_strs].
           match goal with |- context [set_nth i ?g _] => destruct (set_nth_hit _ i g (s_strs s) t0 O1) as [K|[K1 K2]] end.
           ++ exists t0, m', p'. auto.
           ++ eexists _, m', p'. split; [exact K2|]. split; auto.
      * cbv zeta in E. rewrite E in H. injection H as <-.
        apply (fill_invF sel v rho off s m p n1 o1 r1 i t); auto.
Qed.

Lemma invF_init : forall (sel : path -> N -> bool) (v rho : Z) (now : timespec) (o : tree), normalised now -> 1 <= tv_sec now ->
  invF sel v rho (ns now) (init now o).
Proof.
  intros sel v rho now o H1 H2. constructor.
  - apply invA_init.
  - cbn [init s_now s_mono]. split; auto. unfold ns, normalised in *. lia.
  - left. auto.
  - intros t [].
  - intros c [].
  - intros c [].
Qed.

Lemma calm_invF : forall (sel : path -> N -> bool) (v rho delta off : Z) (s0 s : st), v <= 2147483647 -> 0 <= rho ->
  invF sel v rho off s0 -> timely delta s0 -> calm_run sel v rho delta s0 s -> invF sel v rho off s /\ timely delta s.
Proof.
  intros sel v rho delta off s0 s Hv Hr I T H. induction H as [|s0 s e s' H IH Hf Hk He Ht]; auto.
  destruct (IH I T) as [I' T']. split; auto. apply (exec_invF sel v rho off s s' e); auto.
Qed.

Lemma find_cache_some : forall (l : list cache) (m : N) (q : path) (c : cache), find_cache l m q = Some c ->
  In c l /\ c_mod c = m /\ covers (c_path c) q = true.
Proof.
  induction l as [|x l IH]; intros m q c H; cbn [find_cache] in H; [discriminate|].
  destruct (N.eqb (c_mod x) m && covers (c_path x) q) eqn:E.
  - injection H as <-. apply andb_true_iff in E as [E1 E2]. apply N.eqb_eq in E1. split; [left|]; auto.
  - apply IH in H as (? & ? & ?). split; [right|]; auto.
Qed.

Lemma covers_eq : forall (p q : path), covers p q = true -> q = p \/ exists r, q = p ++ 47%N :: r.
Proof.
  intros p q H. unfold covers in H. destruct (strip p q) as [[|c r]|] eqn:E; [| |discriminate]; apply strip_app in E.
  - left. rewrite E. apply app_nil_r.
  - apply N.eqb_eq in H. subst c. right. eauto.
Qed.

Lemma invF_fresh : forall (sel : path -> N -> bool) (v rho delta off u : Z) (s : st) (m : N) (q : path), path_selection sel ->
  0 <= u -> 0 <= rho -> 0 <= delta -> polled_within u s m q -> invF sel v rho off s -> timely delta s ->
  fresh sel (u * 1000000 + delta + rho) s m q.
Proof.
  intros sel v rho delta off u s m q Hs Hu Hr Hd Hw I T. unfold fresh, read.
  destruct (find_cache (s_caches s) m q) as [c|] eqn:E.
  - apply find_cache_some in E as (Hc & Em & Ecov). destruct (f_cache _ _ _ _ _ I c Hc) as (C1 & C2 & C3 & t & o & C4 & C5 & C6).
    destruct (f_own _ _ _ _ _ I c Hc) as (z & m' & p & O1 & O2 & O3).
    destruct (f_str _ _ _ _ _ I z O1) as [S1 [S2|(m2 & p2 & d & G1 & G2 & G3 & G4 & G5)]]; [congruence|].
    rewrite O2 in G1. injection G1 as <- <-. specialize (G5 c Hc ltac:(auto)). specialize (T z d O1 S1 G4).
    pose proof (single_in s z m' p O1 O2) as Hin.
    destruct (a_has _ _ (f_a _ _ _ _ _ I) m' p Hin) as (c' & Hc' & E1 & E2 & E3).
    assert (c' = c) by (eapply (id_unique (s_caches s)); eauto; [apply (a_nodup _ _ (f_a _ _ _ _ _ I))|congruence]). subst c'.
    assert (p_valid p <= u).
    { apply (Hw p); [congruence|]. apply covers_eq in Ecov. rewrite E3 in Ecov. auto. }
    exists t, o. split; auto. split; [lia|]. intros n Hn. rewrite C6. apply get_restrict. eapply covers_sel; eauto.
  - exists (s_mono s), (s_oper s). split; [apply (f_log _ _ _ _ _ I)|]. split; [lia|].
    intros n Hn. apply get_restrict. auto.
Qed.
