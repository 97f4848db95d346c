From Coq Require Import List NArith ZArith Lia Bool Arith.
From Verif Require Import Base BaseLemmas EvData EvDataProofs ExtShm ExtShmSpec ExtShmProofs ExtShmHoles ExtShmAlloc ExtShmRealloc SubTab SubTabSpec TabProofs SubTabProofs OperTabProofs OperTabAdd OperTabDead SubSys SubSysSpec.
Import ListNotations.
Open Scope N_scope.

(** * One table *)

Definition crep (m : mem) (t : tbl) (c : cont) (bl : list block) : Prop :=
  match c with
  | Flat k l => exists bls, stab k m t l bls /\ bl = sblocks k t bls
  | Nest l => Forall (fun e => e_kids e <> []) l /\ exists bls, otab m t l bls /\ bl = oblocks t bls
  end.

Lemma crep_frame : forall m m' t c bl, crep m t c bl -> (forall b, (1 <= cov b bl)%nat -> mb m' b = mb m b) -> crep m' t c bl.
Proof.
  intros m m' t [k l|l] bl H F; cbn [crep] in *.
  - destruct H as (bls & T & ->). exists bls. split; [|reflexivity]. eapply tabrep_frame; [apply isz_nz|apply Rsub_move|exact T|exact F].
  - destruct H as (K & bls & T & ->). split; [exact K|]. exists bls. split; [|reflexivity]. eapply tabrep_frame; [apply osz_nz|apply Rent_move|exact T|exact F].
Qed.

Lemma crep_read : forall m hs live t c bl, well m hs (bl ++ live) -> crep m t c bl -> read_cont m (c_kind c, t) = Some c.
Proof.
  intros m hs live t [k l|l] bl W H; cbn [crep c_kind] in *; unfold read_cont; cbn [fst snd].
  - destruct H as (bls & T & ->). rewrite (read_table_spec _ _ _ _ _ _ _ W T). reflexivity.
  - destruct H as (K & bls & T & ->). rewrite (read_oper_spec _ _ _ _ _ _ W T). reflexivity.
Qed.

Lemma okcount_spec : forall m hs live t bls xs2 xs1, well m hs (oblocks t bls ++ live) -> otab m t (xs1 ++ xs2) bls ->
  okcount (length xs2) m t (nlen xs1) = nkids xs2.
Proof.
  intros m hs live t bls. induction xs2 as [|e r IH]; intros xs1 W T; [reflexivity|]. cbn [okcount length].
  destruct (ofocus _ _ _ _ _ _ _ _ W T) as (b1 & b2 & xo & kt & kbls & _ & _ & _ & _ & _ & _ & _ & E & KT & _). rewrite E.
  rewrite (tr_cnt _ _ _ _ _ _ _ KT). assert (Hx : nlen xs1 + 1 = nlen (xs1 ++ [e])) by (rewrite nlen_app; reflexivity). rewrite Hx, IH; [|exact W|rewrite <- app_assoc; exact T].
  cbn [nkids fold_right]. unfold nlen. rewrite Nat2N.id. reflexivity.
Qed.

Lemma trun_spec : forall o m hs live t c bl, well m hs (bl ++ live) -> crep m t c bl -> top_ok o c ->
  msize m + top_need o c < 2147483648 ->
  exists m' hs' t' bl', trun (c_kind c) o m t = Some (m', t') /\ well m' hs' (bl' ++ live) /\ crep m' t' (lop o c) bl' /\
    (forall b, (1 <= cov b live)%nat -> mb m' b = mb m b).
Proof.
  intros o m hs live t [k l|l] bl W H Ok Hn.
  - cbn [crep] in H. destruct H as (bls & T & ->). pose proof (tr_cnt _ _ _ _ _ _ _ T) as Hc.
    destruct o as [x ws|id|id x|alive|path ty opts ws|id|alive]; cbn [top_ok] in Ok; try contradiction; cbn [trun c_kind lop].
    + destruct (sub_add_spec k m hs live t l bls (x, ws) W T Ok) as (m' & hs' & t' & bls' & E & W' & T' & _ & F).
      { unfold add_cost. rewrite Hc. cbn [fst]. cbn [top_need] in Hn. unfold xsize. lia. }
      cbn [fst snd] in E. exists m', hs', t', (sblocks k t' bls'). split; [exact E|]. split; [exact W'|]. split; [|exact F].
      cbn [crep]. exists bls'. split; [exact T'|reflexivity].
    + destruct (sub_del_spec k m hs live t l bls id W T) as (m' & hs' & t' & bls' & E & W' & T' & _ & F).
      exists m', hs', t', (sblocks k t' bls'). split; [exact E|]. split; [exact W'|]. split; [|exact F].
      cbn [crep]. exists bls'. split; [exact T'|reflexivity].
    + destruct (sub_modify_spec k m hs live t l bls id x W T) as (m' & hs' & bls' & E & W' & T' & _ & F).
      { destruct x; [exact Ok|exact I]. }
      { intros ->. exact Ok. }
      { cbn [top_need] in Hn. destruct x; cbn [xsize]; lia. }
      exists m', hs', t, (sblocks k t bls'). split; [rewrite E; reflexivity|]. split; [exact W'|]. split; [|exact F].
      cbn [crep]. exists bls'. split; [exact T'|reflexivity].
    + destruct (remove_dead_spec k alive m hs live t l bls W T) as (m' & hs' & t' & bls' & E & W' & T' & _ & F).
      exists m', hs', t', (sblocks k t' bls'). split; [exact E|]. split; [exact W'|]. split; [|exact F].
      cbn [crep]. exists bls'. split; [exact T'|reflexivity].
  - cbn [crep] in H. destruct H as (K & bls & T & ->). pose proof (tr_cnt _ _ _ _ _ _ _ T) as Hc.
    destruct o as [x ws|id|id x|alive|path ty opts ws|id|alive]; cbn [top_ok] in Ok; try contradiction; cbn [trun c_kind lop].
    + destruct Ok as (O1 & O2 & O3).
      destruct (oper_add_spec m hs live t l bls path ty opts ws W T K O1 O2 O3) as (m' & hs' & t' & bls' & E & W' & T' & _ & F).
      { unfold ocost, kids_of. rewrite Hc. cbn [top_need] in Hn. lia. }
      exists m', hs', t', (oblocks t' bls'). split; [rewrite E; reflexivity|]. split; [exact W'|]. split; [|exact F].
      cbn [crep]. split; [|exists bls'; split; [exact T'|reflexivity]].
      destruct (l_ohas path l && (N.land opts SR_SUBSCR_OPER_MERGE =? 0)); [exact K|apply l_oadd_kids; exact K].
    + destruct (oper_del_spec m hs live t l bls id W T) as (m' & hs' & t' & bls' & E & W' & T' & _ & F).
      exists m', hs', t', (oblocks t' bls'). split; [exact E|]. split; [exact W'|]. split; [|exact F].
      cbn [crep]. split; [apply l_odel_kids; exact K|]. exists bls'. split; [exact T'|reflexivity].
    + assert (Hf : ofuel m t = S (length l + nkids l)).
      { unfold ofuel. rewrite Hc. replace (N.to_nat (nlen l)) with (length l) by (unfold nlen; lia).
        pose proof (okcount_spec m hs live t bls l [] W T) as Q. change (nlen (@nil oent)) with 0 in Q. rewrite Q. reflexivity. }
      rewrite Hf.
      destruct (oper_dead_spec alive (S (length l + nkids l)) m hs live t l bls W T K ltac:(lia) ltac:(lia)) as (m' & hs' & t' & bls' & E & W' & T' & _ & F).
      exists m', hs', t', (oblocks t' bls'). split; [exact E|]. split; [exact W'|]. split; [|exact F].
      cbn [crep]. split; [apply l_odead_kids|]. exists bls'. split; [exact T'|reflexivity].
Qed.

Lemma lop_kind : forall o c, c_kind (lop o c) = c_kind c.
Proof. intros o [k l|l]; destruct o; reflexivity. Qed.

(** * All tables *)

Inductive reps (m : mem) : list (tkind * tbl) -> list cont -> list (list block) -> Prop :=
| reps_nil : reps m [] [] []
| reps_cons : forall k t c bl ts cs bs, k = c_kind c -> crep m t c bl -> reps m ts cs bs -> reps m ((k, t) :: ts) (c :: cs) (bl :: bs).

Lemma reps_frame : forall m m' ts cs bs, reps m ts cs bs -> (forall b, (1 <= cov b (concat bs))%nat -> mb m' b = mb m b) -> reps m' ts cs bs.
Proof.
  intros m m' ts cs bs H. induction H as [|k t c bl ts cs bs Hk Hc Hr IH]; intros F; [constructor|]. cbn [concat] in F. constructor.
  - exact Hk.
  - eapply crep_frame; [exact Hc|]. intros b Hb. apply F. rewrite cov_app. lia.
  - apply IH. intros b Hb. apply F. rewrite cov_app. lia.
Qed.

Lemma reps_nth : forall m ts cs bs, reps m ts cs bs -> forall i c, nth_error cs i = Some c ->
  exists t bl b1 b2, nth_error ts i = Some (c_kind c, t) /\ crep m t c bl /\ bs = b1 ++ bl :: b2 /\ length b1 = i.
Proof.
  intros m ts cs bs H. induction H as [|k t c bl ts cs bs Hk Hc Hr IH]; intros i c' E; [destruct i; discriminate E|].
  destruct i as [|i]; cbn [nth_error] in *.
  - apply Some_inj in E. subst c' k. exists t, bl, [], bs. repeat split; assumption.
  - destruct (IH i c' E) as (t' & bl' & b1 & b2 & A & B & C & D). exists t', bl', (bl :: b1), b2. split; [exact A|]. split; [exact B|].
    split; [cbn [app]; congruence|]. cbn [length]. congruence.
Qed.

Lemma reps_set : forall m m' ts cs bs, reps m ts cs bs -> forall i c t' c' bl bl' b1 b2,
  nth_error cs i = Some c -> c_kind c' = c_kind c -> bs = b1 ++ bl :: b2 -> length b1 = i ->
  crep m' t' c' bl' -> (forall b, (1 <= cov b (concat (b1 ++ b2)))%nat -> mb m' b = mb m b) ->
  reps m' (set_nth i (c_kind c, t') ts) (set_nth i c' cs) (b1 ++ bl' :: b2).
Proof.
  intros m m' ts cs bs H. induction H as [|k t c bl ts cs bs Hk Hc Hr IH]; intros i c1 t' c' bl1 bl' b1 b2 E Ek Eb El Hc' F; [destruct i; discriminate E|].
  destruct i as [|i]; cbn [nth_error set_nth] in *.
  - apply Some_inj in E. subst c1. destruct b1; [|discriminate El]. cbn [app] in *. injection Eb as <- <-.
    constructor; [symmetry; exact Ek|exact Hc'|]. eapply reps_frame; [exact Hr|exact F].
  - destruct b1 as [|x b1]; [discriminate El|]. cbn [app length] in *. injection El as El. injection Eb as <- Eb. constructor.
    + exact Hk.
    + eapply crep_frame; [exact Hc|]. intros b Hb. apply F. cbn [concat]. rewrite cov_app. lia.
    + eapply IH; try eassumption. intros b Hb. apply F. cbn [concat]. rewrite cov_app. lia.
Qed.

Definition sinv (s : sys) (cs : list cont) : Prop :=
  exists hs bs, well (s_mem s) hs (concat bs) /\ reps (s_mem s) (s_tabs s) cs bs.

Lemma well_perm : forall m hs b1 bl b2, well m hs (concat (b1 ++ bl :: b2)) -> well m hs (bl ++ concat (b1 ++ b2)).
Proof.
  intros m hs b1 bl b2 W. eapply well_live_eq; [exact W| |].
  - intros b. rewrite !concat_app. cbn [concat]. rewrite !cov_app. lia.
  - pose proof (w_live _ _ _ W) as G. rewrite concat_app in *. cbn [concat] in G. apply Forall_app in G. destruct G as (G1 & G). apply Forall_app in G. destruct G as (G2 & G3).
    apply Forall_app. split; [exact G2|]. apply Forall_app. split; assumption.
Qed.
Lemma well_perm2 : forall m hs b1 bl b2, well m hs (bl ++ concat (b1 ++ b2)) -> well m hs (concat (b1 ++ bl :: b2)).
Proof.
  intros m hs b1 bl b2 W. eapply well_live_eq; [exact W| |].
  - intros b. rewrite !concat_app. cbn [concat]. rewrite !cov_app. lia.
  - pose proof (w_live _ _ _ W) as G. apply Forall_app in G. destruct G as (G1 & G). rewrite concat_app in *. apply Forall_app in G. destruct G as (G2 & G3).
    cbn [concat]. apply Forall_app. split; [exact G2|]. apply Forall_app. split; assumption.
Qed.

Lemma step_inv : forall s cs o, sinv s cs ->
  match o with On i o => exists c, nth_error cs i = Some c /\ top_ok o c /\ msize (s_mem s) + top_need o c < 2147483648 | Unlock => True end ->
  exists s', sstep s o = Some s' /\ sinv s' (lstep cs o).
Proof.
  intros [m ts] cs o (hs & bs & W & R) Ok. cbn [s_mem s_tabs] in *. destruct o as [i o|].
  - destruct Ok as (c & Ec & Ok & Hn). destruct (reps_nth _ _ _ _ R _ _ Ec) as (t & bl & b1 & b2 & Et & Hc & -> & El).
    apply well_perm in W.
    destruct (trun_spec o m hs _ t c bl W Hc Ok Hn) as (m' & hs' & t' & bl' & E & W' & C' & F).
    cbn [sstep s_tabs s_mem]. rewrite Et, E. cbn [obind fst snd].
    eexists. split; [reflexivity|]. cbn [lstep]. rewrite Ec. exists hs', (b1 ++ bl' :: b2). cbn [s_mem s_tabs]. split; [apply well_perm2; exact W'|].
    eapply reps_set; [exact R|exact Ec|apply lop_kind|reflexivity|exact El|exact C'|exact F].
  - destruct (remap_unlock_spec m hs _ W) as (m' & hs' & E & W' & _ & F & _). cbn [sstep s_mem s_tabs]. rewrite E. cbn [obind].
    eexists. split; [reflexivity|]. exists hs', bs. cbn [s_mem s_tabs lstep]. split; [exact W'|]. eapply reps_frame; [exact R|exact F].
Qed.

Lemma init_inv : forall ks, sinv (sys_init ks) (map c_empty ks).
Proof.
  intros ks. exists [], (map (fun _ => []) ks). cbn [sys_init s_mem s_tabs]. split.
  - replace (concat (map (fun _ : tkind => []) ks)) with (@nil block); [exact ext_open_well|]. induction ks; [reflexivity|assumption].
  - induction ks as [|k r IH]; cbn [map]; [constructor|]. constructor; [destruct k; reflexivity| |exact IH].
    destruct k as [k|]; cbn [c_empty crep].
    + exists []. split; [apply tabrep_nil|reflexivity].
    + split; [constructor|]. exists []. split; [apply tabrep_nil|reflexivity].
Qed.

Lemma run_inv : forall h s cs, sinv s cs -> possible s cs h ->
  exists s', srun s h = Some s' /\ sinv s' (fold_left lstep h cs).
Proof.
  induction h as [|o r IH]; intros s cs I P.
  - exists s. split; [reflexivity|exact I].
  - cbn [possible] in P. destruct P as (P1 & P2). destruct (step_inv s cs o I P1) as (s1 & E1 & I1).
    cbn [srun fold_left]. rewrite E1. cbn [obind]. apply IH; [exact I1|]. apply P2. exact E1.
Qed.

Lemma reps_read : forall m hs ts cs bs, reps m ts cs bs -> forall live, well m hs (concat bs ++ live) -> mapo (read_cont m) ts = Some cs.
Proof.
  intros m hs ts cs bs H. induction H as [|k t c bl ts cs bs Hk Hc Hr IH]; intros live W; [reflexivity|]. cbn [mapo concat] in *.
  rewrite <- app_assoc in W. subst k. rewrite (crep_read _ _ _ _ _ _ W Hc). cbn [obind].
  rewrite (IH (bl ++ live)); [reflexivity|]. eapply well_live_eq; [exact W| |].
  - intros b. rewrite !cov_app. lia.
  - pose proof (w_live _ _ _ W) as G. apply Forall_app in G. destruct G as (G1 & G). apply Forall_app in G. destruct G as (G2 & G3).
    apply Forall_app. split; [exact G2|]. apply Forall_app. split; assumption.
Qed.

Theorem sinv_read : forall s cs, sinv s cs -> read_all s = Some cs.
Proof. intros s cs (hs & bs & W & R). unfold read_all. eapply reps_read; [exact R|]. rewrite app_nil_r. exact W. Qed.

(** * Counting bytes *)

Definition sizes (l : list block) : N := sum (map snd l).
Definition cnt (f : N -> nat) (n : nat) : nat := list_sum (map (fun i => f (N.of_nat i)) (seq 0 n)).

Lemma cnt_S : forall f n, cnt f (S n) = (cnt f n + f (N.of_nat n))%nat.
Proof.
  intros. unfold cnt. rewrite seq_S, map_app, list_sum_app. cbn. lia.
Qed.
Lemma cnt_ext : forall f g n, (forall b, f b = g b) -> cnt f n = cnt g n.
Proof. intros. induction n; [reflexivity|]. rewrite !cnt_S, IHn, H. reflexivity. Qed.
Lemma cnt_add : forall f g n, cnt (fun b => (f b + g b)%nat) n = (cnt f n + cnt g n)%nat.
Proof. intros. induction n; [reflexivity|]. rewrite !cnt_S, IHn. lia. Qed.

Lemma cnt_inb : forall o s n, cnt (fun b => if inb b (o, s) then 1%nat else 0%nat) n = N.to_nat (N.min (N.of_nat n) (o + s) - N.min (N.of_nat n) o).
Proof.
  intros o s n. induction n as [|n IH]; [cbn [cnt seq map list_sum fold_right]; unfold cnt; cbn; lia|]. rewrite cnt_S, IH.
  destruct (inb (N.of_nat n) (o, s)) eqn:E; rewrite ?inb_true, ?inb_false in E; lia.
Qed.

Lemma cnt_cov : forall l n, (forall o s, In (o, s) l -> o + s <= N.of_nat n) -> cnt (fun b => cov b l) n = N.to_nat (sizes l).
Proof.
  induction l as [|(o, s) r IH]; intros n H.
  - cbn. induction n; [reflexivity|]. rewrite cnt_S, IHn; [reflexivity|]. intros ? ? [].
  - rewrite (cnt_ext _ (fun b => ((if inb b (o, s) then 1 else 0) + cov b r)%nat)) by reflexivity.
    rewrite cnt_add, cnt_inb, IH by (intros; apply H; right; assumption). pose proof (H o s (or_introl eq_refl)).
    unfold sizes. cbn [map sum fold_right snd]. unfold sum. lia.
Qed.

Lemma sizes_app : forall a b, sizes (a ++ b) = sizes a + sizes b.
Proof. intros. unfold sizes, sum. induction a as [|x r IH]; cbn [app map fold_right]; [reflexivity|]. rewrite IH. lia. Qed.
Lemma sizes_blk : forall o s, sizes (blk o s) = s.
Proof. intros. unfold blk. destruct (N.eqb_spec s 0); cbn; lia. Qed.

Lemma well_sizes : forall m hs live, well m hs live -> msize m = 8 + sizes hs + sizes live.
Proof.
  intros m hs live W. pose proof (proj1 (well_wellE _ _ _) W) as WE. pose proof (w_size _ _ _ W) as (Z & _).
  pose proof (cnt_cov hs (N.to_nat (msize m))) as A. pose proof (cnt_cov live (N.to_nat (msize m))) as B. rewrite N2Nat.id in A, B.
  specialize (A (e_mem _ _ _ _ WE)). clear B.
  assert (B : cnt (fun b => cov b live) (N.to_nat (msize m)) = N.to_nat (sizes live)).
  { apply cnt_cov. rewrite N2Nat.id. intros o s Hi. apply (wellE_live_in _ _ _ _ o s WE Hi). }
  assert (C : cnt (fun b => (cov b hs + cov b live)%nat) (N.to_nat (msize m)) = N.to_nat (msize m - 8)).
  { rewrite (cnt_ext _ (fun b => if inb b (8, msize m - 8) then 1%nat else 0%nat)).
    - rewrite cnt_inb. lia.
    - intros b. rewrite (w_tiled _ _ _ W b). unfold inb. cbn [fst snd]. replace (8 + (msize m - 8)) with (msize m) by lia. reflexivity. }
  rewrite cnt_add, A, B in C. lia.
Qed.

Lemma crep_bytes : forall m t c bl, crep m t c bl -> sizes bl = c_bytes c.
Proof.
  assert (Con : forall X (R : mem -> N -> X -> list block -> Prop) z m (f : X -> N) xs a bls,
    (forall a x bl, R m a x bl -> sizes bl = f x) -> items X R z m a xs bls -> sizes (concat bls) = sum (map f xs)).
  { intros X R z m f. induction xs as [|x r IH]; intros a bls Hf H; destruct bls as [|bl bls]; cbn [items] in H; try contradiction; [reflexivity|].
    destruct H as (H1 & H2). cbn [concat map sum fold_right]. rewrite sizes_app, (Hf _ _ _ H1), (IH _ _ Hf H2). reflexivity. }
  intros m t [k l|l] bl H; cbn [crep c_bytes] in *.
  - destruct H as (bls & T & ->). unfold tblocks. rewrite sizes_app, sizes_blk, (tr_cnt _ _ _ _ _ _ _ T). f_equal.
    eapply Con; [|exact (tr_items _ _ _ _ _ _ _ T)]. intros a x bl (_ & _ & xo & _ & _ & -> & _). rewrite sizes_blk. reflexivity.
  - destruct H as (_ & bls & T & ->). unfold tblocks. rewrite sizes_app, sizes_blk, (tr_cnt _ _ _ _ _ _ _ T). f_equal.
    eapply Con; [|exact (tr_items _ _ _ _ _ _ _ T)]. intros a x bl (_ & _ & _ & xo & kt & kbls & _ & _ & _ & _ & _ & _ & _ & _ & KT & ->).
    change (sizes ((xo, strshmlen (e_path x)) :: kblocks kt kbls)) with (strshmlen (e_path x) + sizes (kblocks kt kbls)). f_equal.
    unfold tblocks. rewrite sizes_app, sizes_blk, (tr_cnt _ _ _ _ _ _ _ KT).
    assert (Z : sizes (concat kbls) = sum (map (fun _ : words => 0) (e_kids x))).
    { eapply Con; [|exact (tr_items _ _ _ _ _ _ _ KT)]. intros a' w bl' (_ & _ & ->). reflexivity. }
    rewrite Z. clear. induction (e_kids x) as [|w r IH]; [cbn; lia|]. cbn [map sum fold_right] in *. unfold sum in *. cbn [map fold_right]. 
    assert (Q : forall l : list words, fold_right N.add 0 (map (fun _ => 0) l) = 0) by (induction l; [reflexivity|assumption]). rewrite !Q. lia.
Qed.

Lemma reps_bytes : forall m ts cs bs, reps m ts cs bs -> sizes (concat bs) = sum (map c_bytes cs).
Proof.
  intros m ts cs bs H. induction H as [|k t c bl ts cs bs Hk Hc Hr IH]; [reflexivity|].
  cbn [concat map sum fold_right]. rewrite sizes_app, (crep_bytes _ _ _ _ Hc), IH. reflexivity.
Qed.

Theorem sinv_bytes : forall s cs, sinv s cs ->
  exists hs, holes (s_mem s) hs /\ msize (s_mem s) = 8 + sum (map snd hs) + sum (map c_bytes cs).
Proof.
  intros s cs (hs & bs & W & R). exists hs. split; [exact (w_holes _ _ _ W)|]. rewrite (well_sizes _ _ _ W), (reps_bytes _ _ _ _ R). reflexivity.
Qed.

(** Everything removed: one hole, or nothing after unlocking. *)
Lemma c_bytes_0 : forall c, c_bytes c = 0 -> c = c_empty (c_kind c).
Proof.
  intros [k l|l] H; cbn [c_bytes c_empty c_kind] in *; destruct l as [|x r]; try reflexivity; exfalso.
  - assert (shm_size (nlen (x :: r) * isz k) <> 0) by (apply arr_nz; [unfold nlen; cbn [length]; lia|apply isz_nz]). lia.
  - assert (shm_size (nlen (x :: r) * osz) <> 0) by (apply arr_nz; [unfold nlen; cbn [length]; lia|apply osz_nz]). lia.
Qed.

Lemma empty_one_hole : forall m hs, well m hs [] -> (msize m = 8 /\ hs = []) \/ (hs = [(8, msize m - 8)]).
Proof.
  intros m hs W. pose proof (w_size _ _ _ W) as (Z & _). pose proof (proj1 (well_wellE _ _ _) W) as WE.
  pose proof (e_mem _ _ _ _ WE) as Hm. pose proof (w_sorted _ _ _ W) as Hs.
  assert (T : forall b, 8 <= b -> b < msize m -> (1 <= cov b hs)%nat).
  { intros b B1 B2. pose proof (w_tiled _ _ _ W b) as T. cbn [cov] in T. replace (8 <=? b) with true in T by (symmetry; apply N.leb_le; lia).
    replace (b <? msize m) with true in T by (symmetry; apply N.ltb_lt; lia). cbn [andb] in T. lia. }
  destruct hs as [|(h, s) r].
  - left. split; [|reflexivity]. destruct (N.eq_dec (msize m) 8) as [|Q]; [assumption|]. specialize (T 8 ltac:(lia) ltac:(lia)). cbn [cov] in T. lia.
  - right. pose proof Hs as Hs'. cbn [hsorted] in Hs'. destruct Hs' as (S1 & S2 & _ & _ & S5).
    pose proof (Hm h s (or_introl eq_refl)) as Hin.
    assert (h = 8).
    { destruct (N.eq_dec h 8) as [|Q]; [assumption|exfalso]. specialize (T 8 ltac:(lia) ltac:(lia)). destruct (cov_ex _ _ T) as (o & z & [E|Hi] & I2 & I3).
      - injection E as <- <-. lia.
      - pose proof (hsorted_in _ _ _ _ S5 Hi). lia. }
    subst h. assert (Hend : 8 + s = msize m).
    { destruct (N.eq_dec (8 + s) (msize m)) as [|Q]; [assumption|exfalso]. specialize (T (8 + s) ltac:(lia) ltac:(lia)). destruct (cov_ex _ _ T) as (o & z & [E|Hi] & I2 & I3).
      - injection E as <- <-. lia.
      - pose proof (hsorted_in _ _ _ _ S5 Hi). lia. }
    destruct r as [|(h2, s2) r2]; [f_equal; f_equal; lia|exfalso].
    pose proof (Hm h2 s2 (or_intror (or_introl eq_refl))). pose proof (hsorted_in _ _ h2 s2 S5 (or_introl eq_refl)). lia.
Qed.

Lemma reps_empty : forall m ts cs bs, reps m ts cs bs -> Forall (fun c => c = c_empty (c_kind c)) cs -> concat bs = [].
Proof.
  intros m ts cs bs H. induction H as [|k t c bl ts cs bs Hk Hc Hr IH]; intros F; [reflexivity|]. inversion F as [|? ? Ec Fr]; subst.
  cbn [concat]. rewrite (IH Fr), app_nil_r.
  assert (Q : forall X R z (mm : mem) tt (bls : list (list block)), tabrep X R z mm tt [] bls -> tblocks z tt bls = []).
  { intros X R z mm tt bls [A B C]. destruct bls; [|contradiction]. unfold tblocks. change (nlen (@nil X)) with 0 in A. rewrite A, N.mul_0_l. reflexivity. }
  destruct c as [k l|l]; cbn [crep c_empty c_kind] in *; injection Ec as ->.
  - destruct Hc as (bls & T & ->). eapply Q. exact T.
  - destruct Hc as (_ & bls & T & ->). eapply Q. exact T.
Qed.

Theorem sinv_empty : forall s cs, sinv s cs -> Forall (fun c => c = c_empty (c_kind c)) cs ->
  ((msize (s_mem s) = 8 /\ holes (s_mem s) []) \/ holes (s_mem s) [(8, msize (s_mem s) - 8)]) /\
  exists m', remap_unlock (s_mem s) = Some m' /\ msize m' = 8.
Proof.
  intros s cs (hs & bs & W & R) F. rewrite (reps_empty _ _ _ _ R F) in W. split.
  - destruct (empty_one_hole _ _ W) as [(Z & ->)| ->]; [left; split; [exact Z|]|right]; exact (w_holes _ _ _ W).
  - destruct (remap_unlock_empty _ _ W) as (m' & E & _ & Z). exists m'. split; assumption.
Qed.

(** * The blocks are what is found in the memory *)

Lemma nth_mid : forall A (b1 : list A) x b2 (n : N) d, length b1 = N.to_nat n -> nth (N.to_nat n) (b1 ++ x :: b2) d = x.
Proof. intros. rewrite <- H, app_nth2 by lia. rewrite Nat.sub_diag. reflexivity. Qed.

Lemma crep_blocks : forall m hs live t c bl, well m hs (bl ++ live) -> crep m t c bl -> tab_blocks m (c_kind c, t) = Some bl.
Proof.
  intros m hs live t [k l|l] bl W H; cbn [crep c_kind] in *; unfold tab_blocks; cbn [fst snd].
  - destruct H as (bls & T & ->). pose proof (items_len _ _ _ _ _ _ _ (tr_items _ _ _ _ _ _ _ T)) as Hl.
    rewrite (mapo_ext _ _ _ (fun i => nth (N.to_nat i) bls [])).
    + rewrite (tr_cnt _ _ _ _ _ _ _ T). replace (nlen l) with (nlen bls) at 1 by (unfold nlen; rewrite Hl; reflexivity). rewrite indices_nth. cbn [obind].
      unfold tblocks, arr, blk. rewrite (tr_cnt _ _ _ _ _ _ _ T). reflexivity.
    + intros i Hi. rewrite (tr_cnt _ _ _ _ _ _ _ T) in Hi. apply indices_in in Hi. destruct (nth_split_len _ l i Hi) as (l1 & x & l2 & -> & <-).
      destruct (sub_fields _ _ _ _ _ _ _ _ _ W T) as (_ & _ & b1 & xo & b2 & -> & Hb & Hr & Hz & _ & Hs).
      rewrite nth_mid by (rewrite Hb; unfold nlen; lia). unfold str_block. rewrite Hr. cbn [obind]. unfold xsize, blk in *.
      destruct (fst x) as [s|].
      * rewrite Hs. cbn [obind]. destruct (N.eqb_spec xo 0) as [Q|Q].
        -- apply Hz in Q. rewrite Q. reflexivity.
        -- destruct (N.eqb_spec (strshmlen s) 0) as [Q2|Q2]; [apply Hz in Q2; contradiction|reflexivity].
      * rewrite (proj1 Hz eq_refl). reflexivity.
  - destruct H as (_ & bls & T & ->). pose proof (items_len _ _ _ _ _ _ _ (tr_items _ _ _ _ _ _ _ T)) as Hl.
    rewrite (mapo_ext _ _ _ (fun i => nth (N.to_nat i) bls [])).
    + rewrite (tr_cnt _ _ _ _ _ _ _ T). replace (nlen l) with (nlen bls) at 1 by (unfold nlen; rewrite Hl; reflexivity). rewrite indices_nth. cbn [obind].
      unfold tblocks, arr, blk. rewrite (tr_cnt _ _ _ _ _ _ _ T). reflexivity.
    + intros i Hi. rewrite (tr_cnt _ _ _ _ _ _ _ T) in Hi. apply indices_in in Hi. destruct (nth_split_len _ l i Hi) as (l1 & x & l2 & -> & <-).
      destruct (ofocus _ _ _ _ _ _ _ _ W T) as (b1 & b2 & xo & kt & kbls & -> & Hb & Hx & _ & Hr & Hs & _ & Hk & KT & _).
      rewrite nth_mid by (rewrite Hb; unfold nlen; lia). unfold str_block. rewrite Hr. cbn [obind]. rewrite (proj2 (N.eqb_neq xo 0) Hx), Hs. cbn [obind]. rewrite Hk. cbn [obind app].
      f_equal. f_equal. unfold tblocks, arr, blk. 
      assert (Q : concat kbls = []).
      { pose proof (tr_items _ _ _ _ _ _ _ KT) as C. clear -C. revert C. generalize (t_off kt) as a. generalize (e_kids x) as ks. induction kbls as [|b r IH]; intros ks a C; [reflexivity|].
        destruct ks as [|w ks]; cbn [items] in C; [contradiction|]. destruct C as ((_ & _ & ->) & C). cbn [concat app]. eapply IH. exact C. }
      rewrite Q, app_nil_r. reflexivity.
Qed.

Lemma reps_blocks : forall m hs ts cs bs, reps m ts cs bs -> forall live, well m hs (concat bs ++ live) -> mapo (tab_blocks m) ts = Some bs.
Proof.
  intros m hs ts cs bs H. induction H as [|k t c bl ts cs bs Hk Hc Hr IH]; intros live W; [reflexivity|]. cbn [mapo concat] in *.
  rewrite <- app_assoc in W. subst k. rewrite (crep_blocks _ _ _ _ _ _ W Hc). cbn [obind].
  rewrite (IH (bl ++ live)); [reflexivity|]. eapply well_live_eq; [exact W| |].
  - intros b. rewrite !cov_app. lia.
  - pose proof (w_live _ _ _ W) as G. apply Forall_app in G. destruct G as (G1 & G). apply Forall_app in G. destruct G as (G2 & G3).
    apply Forall_app. split; [exact G2|]. apply Forall_app. split; assumption.
Qed.

Theorem sinv_tiled : forall s cs, sinv s cs ->
  exists hs bs, holes (s_mem s) hs /\ mapo (tab_blocks (s_mem s)) (s_tabs s) = Some bs /\ tiled (s_mem s) hs (concat bs).
Proof.
  intros s cs (hs & bs & W & R). exists hs, bs. split; [exact (w_holes _ _ _ W)|]. split; [|exact (w_tiled _ _ _ W)].
  eapply reps_blocks; [exact R|]. rewrite app_nil_r. exact W.
Qed.

(** Histories. *)
Theorem history : forall ks h, possible (sys_init ks) (map c_empty ks) h ->
  exists s, srun (sys_init ks) h = Some s /\ sinv s (fold_left lstep h (map c_empty ks)).
Proof. intros ks h P. apply run_inv; [apply init_inv|exact P]. Qed.

Lemma hist_inv : forall ks h s, possible (sys_init ks) (map c_empty ks) h -> srun (sys_init ks) h = Some s ->
  sinv s (fold_left lstep h (map c_empty ks)).
Proof. intros ks h s P E. destruct (history ks h P) as (s' & E' & I). rewrite E in E'. apply Some_inj in E'. subst s'. exact I. Qed.

Lemma possible_step : forall s cs o r,
  match o with On i o => exists c, nth_error cs i = Some c /\ top_ok o c /\ msize (s_mem s) + top_need o c < 2147483648 | Unlock => True end ->
  possible (match sstep s o with Some x => x | None => s end) (lstep cs o) r -> possible s cs (o :: r).
Proof. intros s cs o r H P. cbn [possible]. split; [exact H|]. intros s' E. rewrite E in P. exact P. Qed.

(** * Facts about the lists *)

Lemma set_nth_other : forall A (l : list A) i j x, i <> j -> nth_error (set_nth i x l) j = nth_error l j.
Proof.
  induction l as [|y r IH]; intros i j x H; [destruct i; reflexivity|]. destruct i as [|i]; destruct j as [|j]; cbn [set_nth nth_error]; try reflexivity; try contradiction.
  apply IH. congruence.
Qed.
Lemma set_nth_same : forall A (l : list A) i x, (i < length l)%nat -> nth_error (set_nth i x l) i = Some x.
Proof.
  induction l as [|y r IH]; intros i x H; [cbn in H; lia|]. destruct i as [|i]; cbn [set_nth nth_error length] in *; [reflexivity|]. apply IH. lia.
Qed.

Lemma lstep_other : forall cs i o j, i <> j -> nth_error (lstep cs (On i o)) j = nth_error cs j.
Proof. intros. cbn [lstep]. destruct (nth_error cs i); [apply set_nth_other; assumption|reflexivity]. Qed.
Lemma lstep_same : forall cs i o c, nth_error cs i = Some c -> nth_error (lstep cs (On i o)) i = Some (lop o c).
Proof. intros cs i o c H. cbn [lstep]. rewrite H. apply set_nth_same. apply nth_error_Some. congruence. Qed.

Lemma remove_first_filter : forall A (f : A -> N) v l, NoDup (map f l) -> remove_first (fun x => f x =? v) l = filter (fun x => negb (f x =? v)) l.
Proof.
  induction l as [|x r IH]; intros H; [reflexivity|]. cbn [map remove_first filter] in *. inversion H as [|? ? N1 N2]; subst.
  destruct (N.eqb_spec (f x) v) as [E|E]; cbn [negb].
  - symmetry. clear IH. induction r as [|y r IH]; [reflexivity|]. cbn [filter map] in *. destruct (N.eqb_spec (f y) v) as [E2|E2]; [exfalso; apply N1; left; congruence|].
    cbn [negb]. f_equal. apply IH; [constructor; [intros Q; apply N1; right; exact Q|inversion N2; assumption]|intros Q; apply N1; right; exact Q|inversion N2; assumption].
  - f_equal. apply IH. exact N2.
Qed.


Lemma osorted_filter : forall f l, osorted l -> osorted (filter f l).
Proof.
  induction l as [|e r IH]; intros H; [exact I|]. cbn [osorted filter] in *. destruct H as (H1 & H2). destruct (f e); [|auto]. cbn [osorted]. split; [|auto].
  rewrite Forall_forall in *. intros x Hx. apply filter_In in Hx. apply H1. tauto.
Qed.
Lemma osorted_map : forall g l, (forall e, e_path (g e) = e_path e) -> osorted l -> osorted (map g l).
Proof.
  induction l as [|e r IH]; intros Hg H; [exact I|]. cbn [osorted map] in *. destruct H as (H1 & H2). split; [|auto].
  rewrite Forall_forall in *. intros x Hx. apply in_map_iff in Hx. destruct Hx as (y & <- & Hy). rewrite !Hg. auto.
Qed.
Lemma osorted_odel : forall id l, osorted l -> osorted (l_odel id l).
Proof.
  induction l as [|e r IH]; intros H; [exact I|]. cbn [osorted l_odel] in *. destruct H as (H1 & H2).
  assert (Sub : forall x, In x (l_odel id r) -> exists y, In y r /\ e_path x = e_path y).
  { clear. induction r as [|e r IH]; intros x Hx; [destruct Hx|]. cbn [l_odel] in Hx. destruct (has_id id (e_kids e)).
    - destruct (remove_first (fun w => word w kid_id =? id) (e_kids e)); [exists x; split; [right; exact Hx|reflexivity]|].
      destruct Hx as [<-|Hx]; [exists e; split; [left; reflexivity|reflexivity]|exists x; split; [right; exact Hx|reflexivity]].
    - destruct Hx as [<-|Hx]; [exists e; split; [left; reflexivity|reflexivity]|]. destruct (IH x Hx) as (y & A & B). exists y. split; [right; exact A|exact B]. }
  destruct (has_id id (e_kids e)).
  - destruct (remove_first (fun w => word w kid_id =? id) (e_kids e)); [exact H2|]. cbn [osorted]. split; [exact H1|exact H2].
  - cbn [osorted]. split; [|auto]. rewrite Forall_forall in *. intros x Hx. destruct (Sub x Hx) as (y & A & B). rewrite B. auto.
Qed.
Lemma osorted_oadd : forall path ty ws l, osorted l -> osorted (l_oadd path ty ws l).
Proof.
  intros path ty ws. induction l as [|e r IH]; intros H; cbn [l_oadd]; [cbn; split; [constructor|exact I]|].
  pose proof H as H'. cbn [osorted] in H'. destruct H' as (H1 & H2).
  destruct (N.ltb_spec (plen path) (plen (e_path e))) as [L|L].
  - cbn [osorted]. split; [|exact H]. constructor; [cbn [e_path fst]; split; [lia|intros Q; rewrite Q in L; lia]|].
    rewrite Forall_forall in *. intros x Hx. specialize (H1 x Hx). cbn [e_path fst] in *. split; [unfold e_path in *; lia|]. intros Q. rewrite Q in L. unfold e_path in *. lia.
  - destruct (str_eqb (e_path e) path) eqn:Es.
    + cbn [osorted]. split; [exact H1|exact H2].
    + cbn [osorted]. split; [|auto].
      assert (Sub : forall x, In x (l_oadd path ty ws r) -> e_path x = path \/ exists y, In y r /\ e_path x = e_path y).
      { clear. induction r as [|e r IH]; intros x Hx; cbn [l_oadd] in Hx.
        - destruct Hx as [<-|[]]. left. reflexivity.
        - destruct (plen path <? plen (e_path e)).
          + destruct Hx as [<-|Hx]; [left; reflexivity|right; exists x; split; [exact Hx|reflexivity]].
          + destruct (str_eqb (e_path e) path).
            * destruct Hx as [<-|Hx]; [right; exists e; split; [left; reflexivity|reflexivity]|right; exists x; split; [right; exact Hx|reflexivity]].
            * destruct Hx as [<-|Hx]; [right; exists e; split; [left; reflexivity|reflexivity]|]. destruct (IH x Hx) as [A|(y & A & B)]; [left; exact A|right; exists y; split; [right; exact A|exact B]]. }
      rewrite Forall_forall in *. intros x Hx. destruct (Sub x Hx) as [A|(y & A & B)].
      * rewrite A. split; [exact L|]. intros Q. rewrite <- Q in Es. unfold str_eqb in Es. destruct (list_eq_dec N.eq_dec (e_path e) (e_path e)); [discriminate|contradiction].
      * rewrite B. auto.
Qed.

Lemma lop_sorted : forall o c, csorted c -> csorted (lop o c).
Proof.
  intros o [k l|l] H; destruct o; cbn [lop csorted] in *; try exact I; try exact H.
  - destruct (l_ohas path l && (N.land opts SR_SUBSCR_OPER_MERGE =? 0)); [exact H|apply osorted_oadd; exact H].
  - apply osorted_odel. exact H.
  - apply osorted_filter. apply osorted_map; [reflexivity|exact H].
Qed.
Lemma lstep_sorted : forall o cs, Forall csorted cs -> Forall csorted (lstep cs o).
Proof.
  intros [i o|] cs H; cbn [lstep]; [|exact H]. destruct (nth_error cs i) as [c|] eqn:E; [|exact H].
  assert (Hc : csorted (lop o c)). { apply lop_sorted. rewrite Forall_forall in H. apply H. eapply nth_error_In. exact E. }
  revert Hc. generalize (lop o c). clear E c. revert i. induction H as [|y r Hy Hr IH]; intros i c Hc; [destruct i; constructor|].
  destruct i as [|i]; cbn [set_nth]; constructor; auto.
Qed.
Lemma hist_sorted : forall h cs, Forall csorted cs -> Forall csorted (fold_left lstep h cs).
Proof. induction h as [|o r IH]; intros cs H; [exact H|]. cbn [fold_left]. apply IH. apply lstep_sorted. exact H. Qed.
Lemma empty_sorted : forall ks, Forall csorted (map c_empty ks).
Proof. induction ks as [|[k|] r IH]; cbn [map]; constructor; auto; exact I. Qed.

(** In a sorted table the search of an xpath finds it if it is there. *)
Lemma l_ohas_in : forall path l, osorted l -> (l_ohas path l = true <-> exists e, In e l /\ e_path e = path).
Proof.
  intros path. induction l as [|e r IH]; intros H; cbn [l_ohas].
  - split; [discriminate|intros (e & [] & _)].
  - cbn [osorted] in H. destruct H as (H1 & H2). rewrite Forall_forall in H1.
    destruct (N.ltb_spec (plen path) (plen (e_path e))) as [L|L].
    + split; [discriminate|]. intros (x & [<-|Hx] & E); [rewrite E in L; lia|]. specialize (H1 x Hx). rewrite E in H1. lia.
    + unfold str_eqb. destruct (list_eq_dec N.eq_dec (e_path e) path) as [E|E].
      * split; [|reflexivity]. intros _. exists e. split; [left; reflexivity|exact E].
      * rewrite (IH H2). split; intros (x & Hx & Ex); [exists x; split; [right; exact Hx|exact Ex]|]. destruct Hx as [<-|Hx]; [contradiction|]. exists x. split; assumption.
Qed.


Lemma oadd_flat : forall path ty ws l, exists p l1 l2, oflat l = l1 ++ l2 /\ oflat (l_oadd path ty ws l) = l1 ++ (path, ws p) :: l2.
Proof.
  intros path ty ws. induction l as [|e r IH]; cbn [l_oadd].
  - exists 1, [], []. split; reflexivity.
  - destruct (plen path <? plen (e_path e)).
    + exists 1, [], (oflat (e :: r)). split; reflexivity.
    + destruct (str_eqb (e_path e) path) eqn:Es.
      * unfold str_eqb in Es. destruct (list_eq_dec N.eq_dec (e_path e) path) as [E|E]; [|discriminate].
        eexists _, (map (pair (e_path e)) (e_kids e)), (oflat r). split; [reflexivity|]. cbn [oflat flat_map e_path e_kids fst snd].
        unfold oflat. rewrite map_app. cbn [map]. rewrite <- app_assoc. cbn [app]. unfold e_path, e_kids in *. cbn [fst snd] in *. rewrite E. reflexivity.
      * destruct IH as (p & l1 & l2 & A & B). exists p, (map (pair (e_path e)) (e_kids e) ++ l1), l2.
        unfold oflat in *. cbn [flat_map]. rewrite A, B, <- !app_assoc. split; reflexivity.
Qed.

Lemma odel_flat : forall id l, oflat (l_odel id l) = remove_first (fun x => word (snd x) kid_id =? id) (oflat l).
Proof.
  intros id. 
  assert (R1 : forall p (ks : list words) r, has_id id ks = true -> remove_first (fun x => word (snd x) kid_id =? id) (map (@pair str words p) ks ++ r) = map (pair p) (remove_first (fun w => word w kid_id =? id) ks) ++ r).
  { intros p. induction ks as [|w ks IH]; intros r H; [discriminate|]. unfold has_id in *. cbn [map app remove_first existsb snd] in *. destruct (word w kid_id =? id); [reflexivity|]. cbn [orb] in H. rewrite (IH _ H). reflexivity. }
  assert (R2 : forall p (ks : list words) r, has_id id ks = false -> remove_first (fun x => word (snd x) kid_id =? id) (map (@pair str words p) ks ++ r) = map (pair p) ks ++ remove_first (fun x => word (snd x) kid_id =? id) r).
  { intros p. induction ks as [|w ks IH]; intros r H; [reflexivity|]. unfold has_id in *. cbn [map app remove_first existsb snd] in *. destruct (word w kid_id =? id); [discriminate|]. cbn [orb] in H. rewrite (IH _ H). reflexivity. }
  induction l as [|e r IH]; [reflexivity|]. cbn [l_odel]. unfold oflat in *. cbn [flat_map].
  destruct (has_id id (e_kids e)) eqn:E.
  - rewrite (R1 _ _ _ E). destruct (remove_first (fun w => word w kid_id =? id) (e_kids e)); reflexivity.
  - rewrite (R2 _ _ _ E). cbn [flat_map]. rewrite IH. reflexivity.
Qed.

Lemma odead_flat : forall alive l, oflat (l_odead alive l) = filter (fun x => alive (word (snd x) kid_cid)) (oflat l).
Proof.
  intros alive. unfold l_odead. induction l as [|e r IH]; [reflexivity|]. unfold oflat in *. cbn [map filter flat_map e_kids snd].
  rewrite filter_app.
  assert (Q : forall p (ks : list words), filter (fun x => alive (word (snd x) kid_cid)) (map (@pair str words p) ks) = map (pair p) (filter (fun w => alive (word w kid_cid)) ks)).
  { intros p. induction ks as [|w ks IHk]; [reflexivity|]. cbn [map filter snd]. destruct (alive (word w kid_cid)); cbn [map]; rewrite IHk; reflexivity. }
  rewrite Q, <- IH. unfold e_kids at 1. cbn [snd]. destruct (filter (fun w => alive (word w kid_cid)) (e_kids e)) as [|w ks] eqn:Ef.
  - cbn [nlen length]. reflexivity.
  - replace (nlen (w :: ks) =? 0) with false by (symmetry; apply N.eqb_neq; unfold nlen; cbn [length]; lia). cbn [negb flat_map]. reflexivity.
Qed.

(** * The properties *)

Lemma no_shared_byte : forall ks h, possible (sys_init ks) (map c_empty ks) h ->
  exists s hs bs, srun (sys_init ks) h = Some s /\
    holes (s_mem s) hs /\ mapo (tab_blocks (s_mem s)) (s_tabs s) = Some bs /\
    forall b, (cov b [(0, 8)%N] + cov b hs + cov b (concat bs) <= 1)%nat.
Proof.
  intros ks h P. destruct (history ks h P) as (s & E & I). destruct (sinv_tiled _ _ I) as (hs & bs & H1 & H2 & H3).
  exists s, hs, bs. split; [exact E|]. split; [exact H1|]. split; [exact H2|]. intros b. specialize (H3 b). cbn [cov].
  destruct (inb b (0, 8)) eqn:Eb; rewrite ?inb_true, ?inb_false in Eb; destruct (N.leb_spec 8 b); cbn [andb] in H3; try lia.
  destruct (b <? msize (s_mem s)); lia.
Qed.

Lemma every_byte : forall ks h, possible (sys_init ks) (map c_empty ks) h ->
  exists s hs bs, srun (sys_init ks) h = Some s /\
    holes (s_mem s) hs /\ mapo (tab_blocks (s_mem s)) (s_tabs s) = Some bs /\
    forall b, b < msize (s_mem s) -> (1 <= cov b ((0, 8)%N :: hs ++ concat bs))%nat.
Proof.
  intros ks h P. destruct (history ks h P) as (s & E & I). destruct (sinv_tiled _ _ I) as (hs & bs & H1 & H2 & H3).
  exists s, hs, bs. split; [exact E|]. split; [exact H1|]. split; [exact H2|]. intros b Hb. specialize (H3 b). cbn [cov]. rewrite cov_app.
  destruct (inb b (0, 8)) eqn:Eb; rewrite ?inb_true, ?inb_false in Eb; [lia|].
  replace (8 <=? b) with true in H3 by (symmetry; apply N.leb_le; lia). replace (b <? msize (s_mem s)) with true in H3 by (symmetry; apply N.ltb_lt; lia). cbn [andb] in H3. lia.
Qed.

Lemma size_exact : forall ks h, possible (sys_init ks) (map c_empty ks) h ->
  exists s hs, srun (sys_init ks) h = Some s /\ holes (s_mem s) hs /\
    msize (s_mem s) = 8 + sum (map snd hs) + sum (map c_bytes (fold_left lstep h (map c_empty ks))).
Proof.
  intros ks h P. destruct (history ks h P) as (s & E & I). destruct (sinv_bytes _ _ I) as (hs & H1 & H2). exists s, hs. split; [exact E|]. split; assumption.
Qed.

Lemma all_removed : forall ks h, possible (sys_init ks) (map c_empty ks) h ->
  fold_left lstep h (map c_empty ks) = map c_empty ks ->
  exists s m', srun (sys_init ks) h = Some s /\
    (msize (s_mem s) = 8 /\ holes (s_mem s) [] \/ holes (s_mem s) [(8, msize (s_mem s) - 8)]) /\
    remap_unlock (s_mem s) = Some m' /\ msize m' = msize ext_open.
Proof.
  intros ks h P Q. destruct (history ks h P) as (s & E & I). rewrite Q in I.
  destruct (sinv_empty _ _ I) as (H1 & m' & H2 & H3).
  { clear. induction ks as [|[k|] r IH]; cbn [map]; constructor; auto; reflexivity. }
  exists s, m'. split; [exact E|]. split; [exact H1|]. split; [exact H2|]. rewrite H3. reflexivity.
Qed.

Lemma tables_are_lists : forall ks h, possible (sys_init ks) (map c_empty ks) h ->
  exists s, srun (sys_init ks) h = Some s /\ read_all s = Some (fold_left lstep h (map c_empty ks)).
Proof. intros ks h P. destruct (history ks h P) as (s & E & I). exists s. split; [exact E|]. apply sinv_read. exact I. Qed.

Lemma possible_app : forall h1 h2 s cs, possible s cs (h1 ++ h2) ->
  possible s cs h1 /\ forall s', srun s h1 = Some s' -> possible s' (fold_left lstep h1 cs) h2.
Proof.
  induction h1 as [|o r IH]; intros h2 s cs P.
  - split; [exact I|]. intros s' E. apply Some_inj in E. subst s'. exact P.
  - cbn [app possible] in *. destruct P as (P1 & P2). split.
    + split; [exact P1|]. intros s' E. apply (IH h2). apply P2. exact E.
    + intros s' E. cbn [srun fold_left] in *. destruct (sstep s o) as [s1|] eqn:E1; [|discriminate]. cbn [obind] in E.
      apply (IH h2 s1 (lstep cs o)); [apply P2; reflexivity|exact E].
Qed.

Lemma last_step : forall ks h i o s s' cs cs', possible (sys_init ks) (map c_empty ks) (h ++ [On i o]) ->
  srun (sys_init ks) h = Some s -> sstep s (On i o) = Some s' -> read_all s = Some cs -> read_all s' = Some cs' ->
  cs = fold_left lstep h (map c_empty ks) /\ cs' = lstep cs (On i o) /\ exists c, nth_error cs i = Some c /\ top_ok o c.
Proof.
  intros ks h i o s s' cs cs' P E Es R R'. destruct (possible_app _ _ _ _ P) as (P1 & P2). specialize (P2 s E).
  pose proof (hist_inv _ _ _ P1 E) as I. rewrite (sinv_read _ _ I) in R. apply Some_inj in R. subst cs.
  cbn [possible] in P2. destruct P2 as (P2 & _). destruct (step_inv s _ (On i o) I P2) as (s1 & E1 & I1).
  rewrite Es in E1. apply Some_inj in E1. subst s1. rewrite (sinv_read _ _ I1) in R'. apply Some_inj in R'. subst cs'.
  split; [reflexivity|]. split; [reflexivity|]. destruct P2 as (c & A & B & _). exists c. split; assumption.
Qed.

Lemma other_tables : forall ks h i o s s' cs cs',
  possible (sys_init ks) (map c_empty ks) (h ++ [On i o]) ->
  srun (sys_init ks) h = Some s -> sstep s (On i o) = Some s' ->
  read_all s = Some cs -> read_all s' = Some cs' ->
  forall j, j <> i -> nth_error cs' j = nth_error cs j.
Proof. intros ks h i o s s' cs cs' P E Es R R' j Hj. destruct (last_step _ _ _ _ _ _ _ _ P E Es R R') as (_ & -> & _). apply lstep_other. congruence. Qed.

Lemma add_exact : forall ks h i x ws s s' cs cs' k l,
  possible (sys_init ks) (map c_empty ks) (h ++ [On i (TAdd x ws)]) ->
  srun (sys_init ks) h = Some s -> sstep s (On i (TAdd x ws)) = Some s' ->
  read_all s = Some cs -> read_all s' = Some cs' -> nth_error cs i = Some (Flat k l) ->
  nth_error cs' i = Some (Flat k (l ++ [(x, ws)])).
Proof. intros ks h i x ws s s' cs cs' k l P E Es R R' Hi. destruct (last_step _ _ _ _ _ _ _ _ P E Es R R') as (_ & -> & _). rewrite (lstep_same _ _ _ _ Hi). reflexivity. Qed.

Lemma del_exact : forall ks h i id s s' cs cs' k l,
  possible (sys_init ks) (map c_empty ks) (h ++ [On i (TDel id)]) ->
  srun (sys_init ks) h = Some s -> sstep s (On i (TDel id)) = Some s' ->
  read_all s = Some cs -> read_all s' = Some cs' -> nth_error cs i = Some (Flat k l) ->
  NoDup (map (s_id k) l) ->
  nth_error cs' i = Some (Flat k (filter (fun x => negb (s_id k x =? id)) l)).
Proof.
  intros ks h i id s s' cs cs' k l P E Es R R' Hi Nd. destruct (last_step _ _ _ _ _ _ _ _ P E Es R R') as (_ & -> & _). rewrite (lstep_same _ _ _ _ Hi).
  cbn [lop]. unfold l_del. rewrite remove_first_filter by exact Nd. reflexivity.
Qed.

Lemma dead_exact : forall ks h i alive s s' cs cs' k l,
  possible (sys_init ks) (map c_empty ks) (h ++ [On i (TDead alive)]) ->
  srun (sys_init ks) h = Some s -> sstep s (On i (TDead alive)) = Some s' ->
  read_all s = Some cs -> read_all s' = Some cs' -> nth_error cs i = Some (Flat k l) ->
  nth_error cs' i =
  Some (Flat k (filter (fun x => alive (s_cid k x) || match k with KRpc => s_cid k x =? 0 | _ => false end) l)).
Proof. intros ks h i alive s s' cs cs' k l P E Es R R' Hi. destruct (last_step _ _ _ _ _ _ _ _ P E Es R R') as (_ & -> & _). rewrite (lstep_same _ _ _ _ Hi). reflexivity. Qed.

Lemma oper_sorted : forall ks h s cs l,
  possible (sys_init ks) (map c_empty ks) h -> srun (sys_init ks) h = Some s -> read_all s = Some cs ->
  In (Nest l) cs -> osorted l.
Proof.
  intros ks h s cs l P E R Hl. rewrite (sinv_read _ _ (hist_inv _ _ _ P E)) in R. apply Some_inj in R. subst cs.
  pose proof (hist_sorted h _ (empty_sorted ks)) as F. rewrite Forall_forall in F. exact (F _ Hl).
Qed.

Lemma oper_add_exact : forall ks h i path ty opts ws s s' cs cs' l,
  possible (sys_init ks) (map c_empty ks) (h ++ [On i (TOAdd path ty opts ws)]) ->
  srun (sys_init ks) h = Some s -> sstep s (On i (TOAdd path ty opts ws)) = Some s' ->
  read_all s = Some cs -> read_all s' = Some cs' -> nth_error cs i = Some (Nest l) ->
  exists l', nth_error cs' i = Some (Nest l') /\
    ((exists e, In e l /\ e_path e = path) /\ N.land opts SR_SUBSCR_OPER_MERGE = 0 /\ l' = l \/
     (~ (exists e, In e l /\ e_path e = path) \/ N.land opts SR_SUBSCR_OPER_MERGE <> 0) /\
     exists p l1 l2, oflat l = l1 ++ l2 /\ oflat l' = l1 ++ (path, ws p) :: l2).
Proof.
  intros ks h i path ty opts ws s s' cs cs' l P E Es R R' Hi.
  assert (So : osorted l).
  { destruct (possible_app _ _ _ _ P) as (P1 & _). eapply oper_sorted; [exact P1|exact E|exact R|]. eapply nth_error_In. exact Hi. }
  destruct (last_step _ _ _ _ _ _ _ _ P E Es R R') as (_ & -> & _). rewrite (lstep_same _ _ _ _ Hi). cbn [lop]. eexists. split; [reflexivity|].
  pose proof (l_ohas_in path l So) as Ho. pose proof (oadd_flat path ty ws l) as Fl. destruct (l_ohas path l) eqn:Eh; cbn [andb].
  - destruct (N.eqb_spec (N.land opts SR_SUBSCR_OPER_MERGE) 0) as [Q|Q].
    + left. split; [apply Ho; reflexivity|]. split; [exact Q|reflexivity].
    + right. split; [right; exact Q|exact Fl].
  - right. split; [left; intros Q; apply Ho in Q; discriminate|exact Fl].
Qed.

Lemma oper_del_exact : forall ks h i id s s' cs cs' l,
  possible (sys_init ks) (map c_empty ks) (h ++ [On i (TODel id)]) ->
  srun (sys_init ks) h = Some s -> sstep s (On i (TODel id)) = Some s' ->
  read_all s = Some cs -> read_all s' = Some cs' -> nth_error cs i = Some (Nest l) ->
  NoDup (map (fun x => word (snd x) kid_id) (oflat l)) ->
  exists l', nth_error cs' i = Some (Nest l') /\
    oflat l' = filter (fun x => negb (word (snd x) kid_id =? id)) (oflat l).
Proof.
  intros ks h i id s s' cs cs' l P E Es R R' Hi Nd. destruct (last_step _ _ _ _ _ _ _ _ P E Es R R') as (_ & -> & _). rewrite (lstep_same _ _ _ _ Hi). cbn [lop].
  eexists. split; [reflexivity|]. rewrite odel_flat. apply (remove_first_filter _ (fun x => word (snd x) kid_id)). exact Nd.
Qed.

Lemma oper_dead_exact : forall ks h i alive s s' cs cs' l,
  possible (sys_init ks) (map c_empty ks) (h ++ [On i (TODead alive)]) ->
  srun (sys_init ks) h = Some s -> sstep s (On i (TODead alive)) = Some s' ->
  read_all s = Some cs -> read_all s' = Some cs' -> nth_error cs i = Some (Nest l) ->
  exists l', nth_error cs' i = Some (Nest l') /\
    oflat l' = filter (fun x => alive (word (snd x) kid_cid)) (oflat l).
Proof.
  intros ks h i alive s s' cs cs' l P E Es R R' Hi. destruct (last_step _ _ _ _ _ _ _ _ P E Es R R') as (_ & -> & _). rewrite (lstep_same _ _ _ _ Hi). cbn [lop].
  eexists. split; [reflexivity|]. apply odead_flat.
Qed.
