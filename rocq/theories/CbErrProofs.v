(** Proofs about errors of callbacks. *)
From Coq Require Import String Ascii List NArith Lia Bool.
From Verif Require Import Base BaseLemmas EvData EvDataProofs EvDataSpec EvDataProofs2 CbErr CbErrSpec.
Import ListNotations.
Open Scope N_scope.

Definition blk (cs : list (list N)) : option (list N) := match cs with [] => None | _ => Some (enc cs) end.
Definition mk (u : user_error) : err := mkerr (ue_code u) (Some (ue_msg u)) (ue_fmt u) (blk (ue_chunks u)).

Lemma beq_eq : forall a b, beq a b = true <-> a = b.
Proof.
  induction a; destruct b; cbn [beq]; split; intros H; try discriminate; try reflexivity.
  - apply andb_true_iff in H. destruct H as [H1 H2]. apply N.eqb_eq in H1. apply IHa in H2. congruence.
  - injection H as -> ->. rewrite N.eqb_refl. apply IHa. reflexivity.
Qed.
Lemma one_of_in : forall l x, one_of l x = true <-> In x (map bytes l).
Proof.
  intros l x. unfold one_of. rewrite existsb_exists, in_map_iff. split.
  - intros (s & Hi & Hb). apply beq_eq in Hb. exists s. auto.
  - intros (s & Hb & Hi). exists s. split; [assumption|]. apply beq_eq. assumption.
Qed.
Lemma upd_last_app : forall l e f, upd_last (l ++ [e]) f = (do x <- f e; Some (l ++ [x])).
Proof.
  induction l; intros e f; cbn [app upd_last]. { destruct (f e); reflexivity. }
  destruct (l ++ [e]) eqn:E. { destruct l; discriminate. }
  rewrite <- E, IHl. destruct (f e); reflexivity.
Qed.
Lemma last_fmt_app : forall l e, last_fmt (l ++ [e]) = match r_fmt e with Some _ => true | None => false end.
Proof. intros. unfold last_fmt. rewrite rev_app_distr. reflexivity. Qed.

Lemma ev_push_blk : forall fill cs d, packed_size (cs ++ [d]) < 2 ^ 32 -> ev_data_push fill (blk cs) d = Some (enc (cs ++ [d])).
Proof.
  intros fill cs d H. rewrite packed_size_enc in H. change (2 ^ 32) with two32 in H.
  destruct cs; cbn [blk]; [apply push_none | apply push_some]; assumption.
Qed.
Lemma blk_snoc : forall cs d, blk (cs ++ [d]) = Some (enc (cs ++ [d])).
Proof. intros [] d; reflexivity. Qed.

Lemma packed_app : forall a b, packed_size a <= packed_size (a ++ b).
Proof.
  intros a b. rewrite !packed_size_enc, !nlen_enc, encs_app, nlen_app. lia.
Qed.

Lemma push_ok : forall fill ev l u d, settable ev = true -> d <> [] -> ue_fmt u <> None -> packed_size (ue_chunks u ++ [d]) < 2 ^ 32 ->
  push fill ev (map mk (l ++ [u])) d = Some (map mk (l ++ [add_chunk u d]), 0).
Proof.
  intros fill ev l u d He Hd Hf Hp. unfold push. rewrite !map_app. cbn [map]. rewrite last_fmt_app, He.
  cbn [mk r_fmt]. destruct (ue_fmt u) eqn:E; [|congruence]. destruct d as [|x d]; [congruence|].
  cbn [nil_b negb andb]. rewrite upd_last_app. cbn [mk r_data r_code r_msg r_fmt]. rewrite ev_push_blk by assumption.
  cbn [obind]. unfold mk, add_chunk. cbn [ue_code ue_msg ue_fmt ue_chunks]. rewrite blk_snoc, E. reflexivity.
Qed.
Lemma pushes_ok : forall fill ev ds l u, settable ev = true -> Forall (fun d => d <> []) ds -> ue_fmt u <> None -> packed_size (ue_chunks u ++ ds) < 2 ^ 32 ->
  pushes fill ev (map mk (l ++ [u])) ds = Some (map mk (l ++ [Build_user_error (ue_code u) (ue_msg u) (ue_fmt u) (ue_chunks u ++ ds)])).
Proof.
  induction ds as [|d ds IH]; intros l u He Hd Hf Hp; cbn [pushes].
  - rewrite app_nil_r. destruct u; reflexivity.
  - apply Forall_cons_iff in Hd. destruct Hd as [Hd Hds].
    replace (ue_chunks u ++ d :: ds) with ((ue_chunks u ++ [d]) ++ ds) in * by (rewrite <- app_assoc; reflexivity).
    rewrite push_ok; try assumption.
    2:{ eapply N.le_lt_trans; [apply packed_app|exact Hp]. }
    cbn [obind fst]. rewrite IH; try assumption. reflexivity.
Qed.

Lemma nc_chunks_ne : forall ty tag app path infos, Forall (fun d => d <> []) (nc_chunks ty tag app path infos).
Proof.
  intros. unfold nc_chunks. apply Forall_app. split.
  - constructor; [destruct ty; discriminate|]. constructor; [destruct tag; discriminate|].
    constructor; [destruct app as [[]|]; discriminate|]. constructor; [destruct path as [[]|]; discriminate|].
    constructor; [discriminate|constructor].
  - induction infos as [|[a b] t IH]; cbn [flat_map]; [constructor|].
    constructor; [destruct a; discriminate|]. constructor; [destruct b; discriminate|]. exact IH.
Qed.

Lemma settable_explains : forall ev, explains ev <-> settable ev = true.
Proof. intros []; unfold explains; cbn [settable]; split; intros H; auto; try discriminate; destruct H as [H|[H|[H|H]]]; discriminate. Qed.

Lemma fits_last : forall l u, fits (l ++ [u]) -> packed_size (ue_chunks u) < 2 ^ 32.
Proof. intros l u H. apply Forall_app in H. destruct H as [_ H]. apply Forall_cons_iff in H. tauto. Qed.
Lemma says_fits : forall l o l' ok, says l o l' ok -> fits l' -> fits l.
Proof.
  intros l o l' ok H F. destruct H; try assumption; apply Forall_app in F; destruct F as [F1 F2]; try assumption.
  - apply Forall_app. split; [assumption|]. constructor; [|constructor]. apply Forall_cons_iff in F2. destruct F2 as [F2 _]. exact F2.
  - apply Forall_app. split; [assumption|]. constructor; [|constructor]. apply Forall_cons_iff in F2. destruct F2 as [F2 _].
    cbn [add_chunk ue_chunks] in F2. eapply N.le_lt_trans; [apply packed_app|exact F2].
Qed.
Lemma say_all_fits : forall l os l', say_all l os l' -> fits l' -> fits l.
Proof. induction 1; intros F; [assumption|]. eapply says_fits; eauto. Qed.

Lemma do_op_says : forall fill ev l o l' ok, explains ev -> says l o l' ok -> fits l' ->
  do_op fill ev (map mk l) o = Some (map mk l', if ok then 0 else 1).
Proof.
  intros fill ev l o l' ok He H F. apply settable_explains in He. destruct H; cbn [do_op].
  - rewrite He. apply N.eqb_neq in H. rewrite H. cbn [negb andb]. rewrite map_app. reflexivity.
  - rewrite N.eqb_refl, andb_false_r. reflexivity.
  - rewrite He, map_app. reflexivity.
  - rewrite He, !map_app. cbn [map andb]. rewrite upd_last_app. destruct (map mk l); reflexivity.
  - rewrite andb_false_r. reflexivity.
  - apply push_ok; try assumption. apply fits_last in F. exact F.
  - unfold push. destruct H as [->|[->|(l' & e & -> & Hf)]].
    + rewrite andb_false_r. reflexivity.
    + cbn [map last_fmt List.rev]. rewrite andb_false_r. reflexivity.
    + rewrite map_app. cbn [map]. rewrite last_fmt_app. cbn [mk r_fmt]. rewrite Hf, andb_false_r. reflexivity.
  - unfold set_netconf. apply one_of_in in H. apply one_of_in in H0. change types with ["transport"; "rpc"; "protocol"; "application"]%string.
    rewrite H. unfold tags. rewrite H0. replace (is_ev ev) with true by (destruct ev; [discriminate He|reflexivity..]). cbn [andb].
    change [mkerr SR_OPFAILED (Some msg) (Some netconf) None] with (map mk [Build_user_error 10 msg (Some (bytes "NETCONF")) []]).
    rewrite <- map_app.
    change ([cstr ty; cstr tag; cstr (or_empty app); cstr (or_empty path); le32 (nlen infos)] ++ flat_map (fun i => [cstr (fst i); cstr (snd i)]) infos)
      with (nc_chunks ty tag app path infos).
    apply fits_last in F. rewrite pushes_ok; try assumption.
    + reflexivity.
    + apply nc_chunks_ne.
    + discriminate.
  - unfold set_netconf.
    assert (E : is_ev ev && one_of types ty && one_of tags tag = false).
    { destruct H as [H|H].
      - destruct (one_of types ty) eqn:E; [|rewrite andb_false_r; reflexivity]. apply one_of_in in E. contradiction.
      - destruct (one_of tags tag) eqn:E; [|rewrite andb_false_r; reflexivity]. apply one_of_in in E. contradiction. }
    rewrite E. reflexivity.
Qed.
Lemma do_ops_says : forall fill ev os l l', explains ev -> say_all l os l' -> fits l' -> do_ops fill ev (map mk l) os = Some (map mk l').
Proof.
  intros fill ev os l l' He H. induction H; intros F; cbn [do_ops]; [reflexivity|].
  rewrite (do_op_says fill ev _ _ _ _ He H) by (eapply say_all_fits; eauto). cbn [obind fst]. auto.
Qed.

(** Every call says something definite. *)
Lemma says_total : forall l o, exists l' ok, says l o l' ok.
Proof.
  intros l o. destruct o as [fmt code msg|msg|f|d|ty tag app path msg infos].
  - destruct (N.eq_dec code 0) as [->|H]; eexists; eexists; [apply S_no_code|apply S_error; assumption].
  - eexists; eexists; apply S_message.
  - destruct l as [|e l _] using rev_ind; eexists; eexists; [apply S_no_format|apply S_format].
  - destruct l as [|e l _] using rev_ind; [eexists; eexists; apply S_no_push; auto|].
    destruct d as [|x d]; [eexists; eexists; apply S_no_push; auto|].
    destruct (ue_fmt e) eqn:E.
    + eexists; eexists; apply S_push; [discriminate|congruence].
    + eexists; eexists; apply S_no_push. right. right. eauto.
  - destruct (one_of types ty) eqn:E1; [destruct (one_of tags tag) eqn:E2|].
    + eexists; eexists; apply S_netconf; apply one_of_in; assumption.
    + eexists; eexists; apply S_no_netconf. right. intros H. apply one_of_in in H. change (one_of tags tag = true) in H. congruence.
    + eexists; eexists; apply S_no_netconf. left. intros H. apply one_of_in in H. change (one_of types ty = true) in H. congruence.
Qed.
Lemma say_all_total : forall os l, exists l', say_all l os l'.
Proof.
  induction os as [|o os IH]; intros l. { exists l. constructor. }
  destruct (says_total l o) as (l1 & ok & H1). destruct (IH l1) as (l2 & H2). exists l2. econstructor; eauto.
Qed.

Lemma say_all_app : forall a l l', say_all l a l' -> forall b l'', say_all l' b l'' -> say_all l (a ++ b) l''.
Proof. induction 1; intros b l2 H2; cbn [app]; [assumption|]. econstructor; eauto. Qed.
Lemma say_all_split : forall a b l l'', say_all l (a ++ b) l'' -> exists l', say_all l a l' /\ say_all l' b l''.
Proof.
  induction a as [|o a IH]; intros b l l'' H; cbn [app] in H. { exists l. split; [constructor|assumption]. }
  remember (o :: a ++ b) as os eqn:Eo. destruct H; [discriminate|]. injection Eo as -> ->.
  destruct (IH _ _ _ H0) as (m & H1 & H2). exists m. split; [econstructor; eauto|assumption].
Qed.

(** *** The listener *)
Lemma listen_pass : forall fill ev cbs l said post, explains ev -> Forall (passes ev) cbs -> say_all l (flat_map c_ops cbs) said -> fits said ->
  listen fill ev (map mk l) (cbs ++ post) = listen fill ev (map mk said) post.
Proof.
  induction cbs as [|c cbs IH]; intros l said post He Hp H F; cbn [flat_map app] in *.
  - inversion H. reflexivity.
  - apply Forall_cons_iff in Hp. destruct Hp as [Hc Hp]. apply say_all_split in H. destruct H as (m & H1 & H2).
    cbn [listen]. rewrite (do_ops_says fill ev _ _ _ He H1) by (eapply say_all_fits; eauto). cbn [obind].
    destruct Hc as [Hc|[Hc Hn]]; rewrite Hc.
    + change (0 =? 0) with true. cbn iota. apply IH; assumption.
    + change (15 =? 0) with false. change (15 =? SR_SHELVE) with true. cbn iota.
      destruct ev; try congruence; apply IH; assumption.
Qed.

Lemma strerror_text : forall code, strerror code = text code.
Proof.
  intros code. destruct (N.lt_ge_cases code 16) as [H|H].
  - assert (E : In code (map N.of_nat (seq 0 16))).
    { apply in_map_iff. exists (N.to_nat code). split; [lia|]. apply in_seq. lia. }
    cbn in E. repeat (destruct E as [<-|E]; [reflexivity|]). contradiction.
  - unfold strerror. rewrite N.min_r by assumption. change (nth (N.to_nat 16) errlist "Unknown error"%string) with "Unknown error"%string.
    unfold text. f_equal. destruct code as [|p]; [lia|].
    do 5 (destruct p as [p|p|]; try reflexivity; try lia).
Qed.

Lemma to_write_set : forall fill said code, fits said -> Forall2 (set_by fill) (reported code said) (to_write (map mk said) code).
Proof.
  intros fill said code F. unfold to_write, reported. destruct said as [|u t].
  - cbn [map]. constructor; [|constructor]. exists None. split; [reflexivity|]. cbn [r_code r_msg r_fmt r_data]. rewrite strerror_text. reflexivity.
  - assert (A : forall l, fits l -> Forall2 (set_by fill) l
      (map (fun e => Build_cb_err (r_code e) (match r_msg e with Some m => m | None => strerror code end) (r_fmt e) (r_data e)) (map mk l))).
    { induction l as [|v l IH]; intros Fl; cbn [map]; constructor.
      - apply Forall_cons_iff in Fl. destruct Fl as [Fl _]. exists (blk (ue_chunks v)). split.
        + rewrite packed_size_enc in Fl. change (2 ^ 32) with two32 in Fl. apply push_all_none. assumption.
        + reflexivity.
      - apply Forall_cons_iff in Fl. apply IH. tauto. }
    exact (A (u :: t) F).
Qed.

Lemma api_code_last : forall es rs, Forall2 same_error es rs -> es <> [] -> forall d, api_code rs = ue_code (last es d).
Proof.
  intros es rs H Hn d. destruct es as [|e es _] using rev_ind; [congruence|].
  apply Forall2_app_inv_l in H. destruct H as (r1 & r2 & H1 & H2 & ->).
  remember [e] as x eqn:Ex. destruct H2 as [|e' r es' rs' Hs Ht]; [discriminate|]. injection Ex as -> ->.
  inversion Ht. subst rs'.
  unfold api_code. rewrite rev_app_distr, last_last. cbn [List.rev app]. apply Hs.
Qed.

Lemma reported_ok : forall code said, code < 2 ^ 32 -> Forall user_error_ok said -> Forall user_error_ok (reported code said).
Proof.
  intros code said Hc H. destruct said; [|exact H]. constructor; [|constructor].
  split; [exact Hc|]. split; [|split; [reflexivity|reflexivity]].
  cbn [ue_msg]. rewrite <- strerror_text. unfold strerror, c_string.
  assert (A : forallb (fun s => negb (existsb (N.eqb 0) (bytes s))) ("Unknown error"%string :: errlist) = true) by reflexivity.
  rewrite forallb_forall in A. intros Hi.
  set (s := nth (N.to_nat (N.min code 16)) errlist "Unknown error"%string) in *.
  assert (Hs : In s ("Unknown error"%string :: errlist)).
  { destruct (nth_in_or_default (N.to_nat (N.min code 16)) errlist "Unknown error"%string) as [Hn|Hn]; [right; exact Hn|left; symmetry; exact Hn]. }
  specialize (A s Hs). apply negb_true_iff in A.
  assert (B : existsb (N.eqb 0) (bytes s) = true) by (apply existsb_exists; exists 0; split; [exact Hi|reflexivity]). congruence.
Qed.
Lemma ok_fits : forall l, Forall user_error_ok l -> fits l.
Proof. intros l H. eapply Forall_impl; [|exact H]. intros e (_ & _ & _ & Hp). exact Hp. Qed.

Lemma outcome_all : forall fill junk ev pre c post said,
  explains ev -> Forall (passes ev) pre -> fails c ->
  say_all [] (flat_map c_ops pre ++ c_ops c) said -> Forall user_error_ok said -> N.of_nat (List.length said) < 2 ^ 32 ->
  exists rs, outcome fill junk ev (pre ++ c :: post) = Some rs /\ Forall2 same_error (reported (c_ret c) said) rs /\
    forall d, api_code rs = ue_code (last (reported (c_ret c) said) d).
Proof.
  intros fill junk ev pre c post said He Hp (Hc1 & Hc2 & Hc3) H Hok Hl. apply say_all_split in H. destruct H as (m & H1 & H2).
  assert (F : fits said) by (apply ok_fits; assumption).
  destruct (error_transport fill fill (reported (c_ret c) said) (to_write (map mk said) (c_ret c)) junk) as (buf & rs & E1 & E2 & E3).
  - apply reported_ok; assumption.
  - destruct said; [reflexivity|exact Hl].
  - apply to_write_set. assumption.
  - exists rs. split; [|split; [exact E3|]].
    + unfold outcome. change (@nil err) with (map mk []). rewrite (listen_pass fill ev pre [] m (c :: post) He Hp H1) by (eapply say_all_fits; eauto).
      cbn [listen]. rewrite (do_ops_says fill ev _ _ _ He H2 F). cbn [obind].
      apply N.eqb_neq in Hc1. apply N.eqb_neq in Hc2. rewrite Hc1. unfold SR_SHELVE. rewrite Hc2. cbn [obind fst snd]. rewrite Hc1, E1. exact E2.
    + intros d. apply api_code_last; [exact E3|]. destruct said; discriminate.
Qed.

Lemma outcome_success : forall fill junk ev cbs said, explains ev -> Forall (passes ev) cbs ->
  say_all [] (flat_map c_ops cbs) said -> fits said -> outcome fill junk ev cbs = Some [].
Proof.
  intros fill junk ev cbs said He Hp H F. unfold outcome. change (@nil err) with (map mk []). rewrite <- (app_nil_r cbs).
  rewrite (listen_pass fill ev cbs [] said [] He Hp H F). reflexivity.
Qed.

Lemma quiet_all : forall ev pre, Forall (fun c => passes ev c /\ say_all [] (c_ops c) []) pre -> Forall (passes ev) pre /\ say_all [] (flat_map c_ops pre) [].
Proof.
  induction 1 as [|c t [H1 H2] Ht [I1 I2]]; cbn [flat_map]. { split; constructor. }
  split; [constructor; assumption|]. eapply say_all_app; eauto.
Qed.

(** *** NETCONF errors *)
Lemma strlen_cstr : forall s, c_string s -> strlen (s ++ [0]) = Some (nlen s).
Proof.
  induction s as [|x s IH]; intros H; cbn [app strlen]; [reflexivity|].
  assert (Hx : x <> 0) by (intros ->; apply H; left; reflexivity). apply N.eqb_neq in Hx. rewrite Hx.
  rewrite IH by (intros Hi; apply H; right; exact Hi). cbn [obind]. rewrite nlen_cons. f_equal. lia.
Qed.
Lemma chunk_str_cstr : forall s, c_string s -> chunk_str (s ++ [0]) = Some s.
Proof.
  intros s H. unfold chunk_str. rewrite strlen_cstr by assumption. cbn [obind]. unfold read_at. rewrite N.add_0_l.
  rewrite nlen_app. replace (nlen s <=? nlen s + nlen [0]) with true by (symmetry; apply N.leb_le; lia).
  unfold nfirstn, nskipn. cbn [N.to_nat skipn]. rewrite firstn_app. unfold nlen. rewrite Nnat.Nat2N.id, PeanoNat.Nat.sub_diag, firstn_all. cbn [firstn].
  rewrite app_nil_r. reflexivity.
Qed.

Lemma get_str_spec : forall u e idx s, same_error u e -> nth_error (ue_chunks u) (N.to_nat idx) = Some (s ++ [0]) -> c_string s ->
  get_str e idx = Some (Some s).
Proof.
  intros u e idx s (_ & _ & _ & H) Hn Hs. unfold get_str. rewrite H. unfold get_spec, chunk_spec. rewrite Hn. cbn [obind].
  rewrite chunk_str_cstr by assumption. reflexivity.
Qed.
Definition pairs_of (infos : list (list N * list N)) := flat_map (fun i : list N * list N => [fst i ++ [0]; snd i ++ [0]]) infos.
Lemma get_infos_spec : forall infos u e pre idx, same_error u e -> ue_chunks u = pre ++ pairs_of infos -> idx = nlen pre ->
  Forall (fun i => c_string (fst i) /\ c_string (snd i)) infos -> get_infos e (List.length infos) idx = Some (Some infos).
Proof.
  induction infos as [|[a b] t IH]; intros u e pre idx Hs Hc Hi Hf; cbn [get_infos List.length]; [reflexivity|].
  apply Forall_cons_iff in Hf. destruct Hf as [[Ha Hb] Hf]. cbn [pairs_of flat_map fst snd app] in *.
  rewrite (get_str_spec u e idx a Hs); [|rewrite Hc, Hi; unfold nlen; rewrite Nnat.Nat2N.id, nth_error_app2 by lia; rewrite PeanoNat.Nat.sub_diag; reflexivity|assumption].
  cbn [obind].
  rewrite (get_str_spec u e (idx + 1) b Hs);
    [|rewrite Hc, Hi; unfold nlen; rewrite nth_error_app2 by lia; replace (N.to_nat (N.of_nat (List.length pre) + 1) - List.length pre)%nat with 1%nat by lia; reflexivity|assumption].
  cbn [obind].
  rewrite (IH u e (pre ++ [a ++ [0]; b ++ [0]]) (idx + 2) Hs).
  - reflexivity.
  - rewrite Hc, <- app_assoc. reflexivity.
  - rewrite nlen_app, Hi. reflexivity.
  - assumption.
Qed.

Lemma get_netconf_spec : forall e ty tag app path msg infos,
  same_error (Build_user_error 10 msg (Some (bytes "NETCONF")) (nc_chunks ty tag app path infos)) e ->
  c_string ty -> c_string tag -> (forall s, app = Some s -> c_string s) -> (forall s, path = Some s -> c_string s) ->
  Forall (fun i => c_string (fst i) /\ c_string (snd i)) infos -> N.of_nat (List.length infos) < 2 ^ 32 ->
  get_netconf e = Some (NcOk (mknc ty tag (nonempty (or_empty app)) (nonempty (or_empty path)) msg infos)).
Proof.
  intros e ty tag app path msg infos H H1 H2 H3 H4 H5 H6.
  assert (Ha : c_string (or_empty app)) by (destruct app; [apply H3; reflexivity|intros []]).
  assert (Hp : c_string (or_empty path)) by (destruct path; [apply H4; reflexivity|intros []]).
  set (u := Build_user_error 10 msg (Some (bytes "NETCONF")) (nc_chunks ty tag app path infos)) in *.
  pose proof H as (Hc & Hm & Hf & Hd). cbn [u ue_code ue_msg ue_fmt] in Hc, Hm, Hf.
  unfold get_netconf. rewrite Hf. change (beq (bytes "NETCONF") netconf) with true. cbn iota.
  rewrite (get_str_spec u e 0 ty H) by (try assumption; reflexivity). cbn [obind].
  rewrite (get_str_spec u e 1 tag H) by (try assumption; reflexivity). cbn [obind].
  rewrite (get_str_spec u e 2 (or_empty app) H) by (try assumption; reflexivity). cbn [obind].
  rewrite (get_str_spec u e 3 (or_empty path) H) by (try assumption; reflexivity). cbn [obind].
  rewrite Hd. replace (get_spec (ue_chunks u) 4) with (EvChunk 4 (le32 (nlen infos))) by reflexivity. cbn [obind].
  replace (read32 (le32 (nlen infos)) 0) with (Some (nlen infos)).
  2:{ symmetry. exact (read32_mid 0 [] (nlen infos) [] eq_refl H6). }
  cbn [obind]. unfold nlen at 1. rewrite Nnat.Nat2N.id.
  rewrite (get_infos_spec infos u e [ty ++ [0]; tag ++ [0]; or_empty app ++ [0]; or_empty path ++ [0]; le32 (nlen infos)] 5 H); try assumption; try reflexivity.
  cbn [obind]. rewrite Hm. reflexivity.
Qed.

Definition nc_ue (a : nc_arg) : user_error := Build_user_error 10 (na_msg a) (Some (bytes "NETCONF")) (nc_chunks (na_type a) (na_tag a) (na_app a) (na_path a) (na_infos a)).
Lemma nc_say_all : forall as_ l, Forall nc_arg_ok as_ -> say_all l (map nc_op as_) (l ++ map nc_ue as_).
Proof.
  induction as_ as [|a t IH]; intros l H; cbn [map]. { rewrite app_nil_r. constructor. }
  apply Forall_cons_iff in H. destruct H as [(H1 & H2 & _) H]. econstructor; [apply S_netconf; assumption|].
  replace (l ++ nc_ue a :: map nc_ue t) with ((l ++ [nc_ue a]) ++ map nc_ue t) by (rewrite <- app_assoc; reflexivity). apply IH. assumption.
Qed.
Lemma nc_ue_ok : forall a, nc_arg_ok a -> user_error_ok (nc_ue a).
Proof.
  intros a (_ & _ & H3 & _ & _ & _ & H7). split; [reflexivity|]. split; [exact H3|]. split; [|exact H7].
  cbn [nc_ue ue_fmt]. split; [|discriminate]. unfold c_string. cbn. intros H. repeat (destruct H as [H|H]; [discriminate|]). exact H.
Qed.
Lemma names_c_string : forall l x, In x (map bytes l) -> forallb (fun s => negb (existsb (N.eqb 0) (bytes s))) l = true -> c_string x.
Proof.
  intros l x H A Hi. apply in_map_iff in H. destruct H as (s & <- & Hs). rewrite forallb_forall in A. specialize (A s Hs). apply negb_true_iff in A.
  assert (B : existsb (N.eqb 0) (bytes s) = true) by (apply existsb_exists; exists 0; split; [exact Hi|reflexivity]). congruence.
Qed.
Lemma infos_small : forall ty tag ap path infos, N.of_nat (List.length infos) <= packed_size (nc_chunks ty tag ap path infos).
Proof.
  intros. rewrite packed_size_enc, nlen_enc. unfold nc_chunks. cbn [app]. cbn [encs]. rewrite !nlen_app.
  pose proof (nlen_encs_count (flat_map (fun i : list N * list N => [fst i ++ [0]; snd i ++ [0]]) infos)) as H.
  assert (L : (List.length infos <= List.length (flat_map (fun i : list N * list N => [fst i ++ [0%N]; snd i ++ [0%N]]) infos))%nat).
  { clear. induction infos as [|i t IH]; cbn [flat_map List.length app]; lia. }
  unfold nlen at 1 in H. lia.
Qed.
Lemma present_eq : forall o, nonempty (or_empty o) = present o.
Proof. intros [[|]|]; reflexivity. Qed.
Lemma nc_read : forall a e, nc_arg_ok a -> same_error (nc_ue a) e ->
  get_netconf e = Some (NcOk (mknc (na_type a) (na_tag a) (present (na_app a)) (present (na_path a)) (na_msg a) (na_infos a))).
Proof.
  intros a e (H1 & H2 & H3 & H4 & H5 & H6 & H7) Hs. rewrite <- !present_eq. apply get_netconf_spec; try assumption.
  - eapply names_c_string; [exact H1|reflexivity].
  - eapply names_c_string; [exact H2|reflexivity].
  - eapply N.le_lt_trans; [apply infos_small|exact H7].
Qed.
