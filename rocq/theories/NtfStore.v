From Coq Require Import List Bool NArith Lia Permutation Sorted.
From Verif Require Import Base BaseLemmas NtfJson NtfSpec NtfProofs NtfFiles.
Import ListNotations.
Local Open Scope N_scope.

(** * Storing keeps the invariant *)
Definition put (a b b' : N) (x : list N) (f : nfile) : nfile := if named a b f then mkF a b' (nf_data f ++ x) else f.
Lemma named_true a b f : named a b f = true -> nf_from f = a /\ nf_to f = b.
Proof. unfold named. rewrite andb_true_iff, !N.eqb_eq. tauto. Qed.
Lemma rename_append a b b' x d : b <= b' -> (forall f, In f d -> nf_from f = a -> nf_to f = b) ->
  rename a b b' (append a b x d) = map (put a b b' x) d.
Proof.
  intros Hb Hu. unfold rename. destruct (b' <=? b) eqn:E.
  - apply N.leb_le in E. assert (b' = b) by lia. subst b'. unfold append. apply map_ext. intros f. unfold put.
    destruct (named a b f) eqn:En; [|reflexivity]. apply named_true in En. destruct En as [-> ->]. reflexivity.
  - apply N.leb_gt in E.
    assert (Ef : filter (fun f => negb (named a b' f)) (append a b x d) = append a b x d).
    { assert (H : forall f, In f (append a b x d) -> negb (named a b' f) = true).
      { intros f Hf. unfold append in Hf. apply in_map_iff in Hf. destruct Hf as (g & Eg & Hg).
        apply negb_true_iff. destruct (named a b' f) eqn:En; [|reflexivity]. apply named_true in En. destruct En as [E1 E2].
        destruct (named a b g) eqn:Eng.
        - apply named_true in Eng. subst f. cbn [nf_to] in E2. lia.
        - subst f. specialize (Hu g Hg E1). lia. }
      revert H. generalize (append a b x d). intros l. induction l as [|f l IH]; intros H; cbn [filter]; [reflexivity|].
      rewrite (H f (or_introl eq_refl)). f_equal. apply IH. intros g Hg. apply H. right. exact Hg. }
    rewrite Ef. unfold append. rewrite map_map. apply map_ext. intros f. unfold put.
    destruct (named a b f) eqn:En; [|rewrite En; reflexivity].
    apply named_true in En. destruct En as [E1 E2].
    unfold named. cbn [nf_from nf_to nf_data]. rewrite E1, E2, !N.eqb_refl. reflexivity.
Qed.

Section WithInv.
Variables (d : list nfile) (log : list ntf) (cs : list chunk).
Hypothesis HI : Inv d log cs.
Variable n : ntf.
Hypothesis Hv : valid n.
Hypothesis Ht : forall m, In m log -> ~ before (n_ts n) (n_ts m).

Lemma to_le c : In c cs -> nf_to (fst c) <= sec (n_ts n).
Proof.
  intros H. pose proof (cs_good _ _ _ HI c H) as G. destruct c as [f es]. destruct G as (_ & _ & _ & (e & He & E)).
  cbn [fst]. rewrite <- E. apply le_sec. apply Ht. rewrite (i_log _ _ _ HI). unfold entries. apply in_flat_map.
  exists (f, es). split; assumption.
Qed.
Lemma log_time : StronglySorted le (log ++ [n]).
Proof. apply ssorted_snoc; [apply (i_time _ _ _ HI)|]. intros y Hy. apply Ht. exact Hy. Qed.
Lemma log_valid : Forall valid (log ++ [n]).
Proof. apply Forall_app. split; [apply (i_valid _ _ _ HI)|]. constructor; [exact Hv|constructor]. Qed.
Lemma iov_fits : nlen (concat (iov n)) < two64.
Proof.
  fold (enc n). rewrite enc_len. destruct Hv as (_ & _ & _ & H). unfold two32, two64 in *. lia.
Qed.
Lemma good_one : good (mkF (sec (n_ts n)) (sec (n_ts n)) (enc n), [n]).
Proof.
  unfold good. cbn [nf_data nf_from nf_to encs flat_map]. rewrite app_nil_r. split; [reflexivity|]. split; [|split].
  - intros e [<-|[]]. lia.
  - exists n. split; [left|]; reflexivity.
  - exists n. split; [left|]; reflexivity.
Qed.
Lemma inv_create d' o :
  match open_file (sec (n_ts n)) (sec (n_ts n)) d with
  | Some _ => SErr d
  | None =>
      match writev o (iov n) with
      | (WOk, x) => SOk (d ++ [mkF (sec (n_ts n)) (sec (n_ts n)) x])
      | (WErr, x) => SErr (d ++ [mkF (sec (n_ts n)) (sec (n_ts n)) x])
      | (WDied, x) => SDied (d ++ [mkF (sec (n_ts n)) (sec (n_ts n)) x])
      | (WBad, _) => SBad
      end
  end = SOk d' -> exists cs', Inv d' (log ++ [n]) cs'.
Proof.
  intros E. destruct (open_file _ _ d) eqn:Eo; [discriminate|].
  destruct (writev o (iov n)) as [[] x] eqn:Ew; try discriminate. injection E as <-.
  apply writev_ok in Ew; [|discriminate|exact iov_fits]. subst x. fold (enc n).
  exists (cs ++ [(mkF (sec (n_ts n)) (sec (n_ts n)) (enc n), [n])]).
  split.
  - rewrite map_app. apply Permutation_app; [apply (i_perm _ _ _ HI)|apply Permutation_refl].
  - apply Forall_app. split; [apply (i_good _ _ _ HI)|]. constructor; [exact good_one|constructor].
  - apply ssorted_snoc; [apply (i_sort _ _ _ HI)|]. intros c Hc. unfold after. cbn [fst nf_from].
    pose proof (to_le c Hc) as Hle. pose proof (cs_pos _ _ _ HI c Hc) as [P1 P2]. split; [|exact Hle].
    destruct (N.eq_dec (nf_from (fst c)) (sec (n_ts n))) as [Ef|Ef]; [|lia].
    exfalso. pose proof (open_found _ _ _ HI c Hc) as O. replace (nf_to (fst c)) with (sec (n_ts n)) in O by lia.
    rewrite Ef in O. rewrite O in Eo. discriminate.
  - unfold entries. rewrite flat_map_app. rewrite (i_log _ _ _ HI). cbn [flat_map snd]. reflexivity.
  - exact log_time.
  - exact log_valid.
Qed.
Lemma inv_store d' o : store o n d = SOk d' -> exists cs', Inv d' (log ++ [n]) cs'.
Proof.
  unfold store. intros E.
  destruct (find_file 0 0 d) as [ff ft] eqn:Ef.
  destruct (negb (ff =? 0) && negb (ft =? 0)) eqn:Ez; [|apply (inv_create d' o); exact E].
  destruct (open_file ff ft d) as [f|] eqn:Eo; [|discriminate].
  destruct (_ <=? max_size); [|apply (inv_create d' o); exact E].
  destruct (writev o (iov n)) as [[] x] eqn:Ew; try discriminate. injection E as <-.
  apply writev_ok in Ew; [|discriminate|exact iov_fits]. subst x. fold (enc n).
  (* the latest file *)
  destruct (@exists_last _ cs) as (pre & c & Ec).
  { intros ->. pose proof (i_perm _ _ _ HI) as P. cbn [map] in P. apply Permutation_sym, Permutation_nil in P. subst d.
    cbn in Ef. injection Ef as <- <-. discriminate. }
  pose proof (find_last _ _ _ HI pre c Ec) as F. rewrite Ef in F. unfold name in F. injection F as -> ->.
  assert (Hc : In c cs) by (rewrite Ec; apply in_or_app; right; left; reflexivity).
  destruct c as [f0 es]. cbn [fst] in *.
  assert (Hother : forall c', In c' pre -> nf_from (fst c') <> nf_from f0).
  { intros c' Hc' Ef'. pose proof (i_sort _ _ _ HI) as S. rewrite Ec in S. apply ssorted_app in S.
    destruct S as (_ & _ & A). specialize (A c' (f0, es) Hc' (or_introl eq_refl)). destruct A as [A _]. cbn [fst] in A. lia. }
  rewrite rename_append.
  2: { apply (to_le (f0, es) Hc). }
  2: { intros g Hg Eg. apply (in_dir _ _ _ HI) in Hg. destruct Hg as (c' & Hc' & <-).
       rewrite (names_unique _ _ _ HI c' (f0, es) Hc' Hc Eg). reflexivity. }
  set (s := sec (n_ts n)) in *.
  exists (pre ++ [(mkF (nf_from f0) s (nf_data f0 ++ enc n), es ++ [n])]).
  pose proof (cs_good _ _ _ HI _ Hc) as (G1 & G2 & (e1 & G3 & G4) & (e2 & G5 & G6)).
  pose proof (to_le (f0, es) Hc) as Hle. cbn [fst] in Hle.
  split.
  - apply Permutation_trans with (map (put (nf_from f0) (nf_to f0) s (enc n)) (map fst cs)).
    { apply Permutation_map. apply (i_perm _ _ _ HI). }
    rewrite Ec, !map_app. cbn [map fst]. apply Permutation_app.
    + rewrite map_map.
      replace (map (fun x : chunk => put (nf_from f0) (nf_to f0) s (enc n) (fst x)) pre) with (map fst pre); [apply Permutation_refl|].
      symmetry. apply map_ext_in. intros c' Hc'. unfold put. destruct (named _ _ (fst c')) eqn:En; [|reflexivity]. apply named_true in En.
      exfalso. apply (Hother c' Hc'). apply En.
    + unfold put, named. rewrite !N.eqb_refl. apply Permutation_refl.
  - pose proof (i_good _ _ _ HI) as G. rewrite Ec in G. apply Forall_app in G. apply Forall_app. split; [apply G|].
    constructor; [|constructor]. unfold good. cbn [nf_data nf_from nf_to]. split; [|split; [|split]].
    + rewrite G1. unfold encs. rewrite flat_map_app. cbn [flat_map]. rewrite app_nil_r. reflexivity.
    + intros e He. apply in_app_or in He. destruct He as [He|[<-|[]]].
      * specialize (G2 e He). lia.
      * fold s. split; [|lia]. pose proof (cs_pos _ _ _ HI _ Hc) as [P1 P2]. cbn [fst] in *. lia.
    + exists e1. split; [apply in_or_app; left; exact G3|exact G4].
    + exists n. split; [apply in_or_app; right; left|]; reflexivity.
  - pose proof (i_sort _ _ _ HI) as S. rewrite Ec in S. apply ssorted_app in S. destruct S as (S1 & _ & S2).
    apply ssorted_snoc; [exact S1|]. intros c' Hc'. exact (S2 c' (f0, es) Hc' (or_introl eq_refl)).
  - rewrite (i_log _ _ _ HI), Ec. unfold entries. rewrite !flat_map_app. cbn [flat_map snd]. rewrite !app_nil_r, app_assoc. reflexivity.
  - exact log_time.
  - exact log_valid.
Qed.
End WithInv.

Lemma inv_history d log : history d log -> exists cs, Inv d log cs.
Proof.
  induction 1 as [|d d' log H [cs IH] P|d log n o d' H [cs IH] Hv Ht E|d log n o H IH E].
  - exists []. split; try constructor.
  - exists cs. destruct IH. split; try assumption. apply Permutation_trans with d; [apply Permutation_sym|]; assumption.
  - exact (inv_store d log cs IH n Hv Ht d' o E).
  - exact IH.
Qed.

(** * Replaying *)
Definition skipped (start : ts) := fix f (l : list ntf) : list ntf :=
  match l with [] => [] | n :: t => if ts_lt (n_ts n) start then f t else n :: t end.
Lemma skip_loop_encs start : forall es fuel, (length (encs es) < fuel)%nat -> Forall valid es ->
  skip_loop fuel start (encs es) =
  Some (match skipped start es with [] => (mkTs 0 0, []) | n :: t => (n_ts n, le32 (nlen (n_json n)) ++ n_json n ++ encs t) end).
Proof.
  induction es as [|n es IH]; intros fuel Hf Hv.
  - destruct fuel; [lia|]. reflexivity.
  - inversion Hv as [|? ? V Hv']; subst. destruct fuel as [|fuel]; [cbn in Hf; lia|].
    assert (Hlen : (length (encs es) < fuel)%nat).
    { unfold encs in *. cbn [flat_map] in Hf. rewrite app_length in Hf.
      pose proof (enc_len n) as L. unfold nlen in L. lia. }
    cbn [skip_loop encs flat_map]. rewrite (read_ts_enc n (flat_map enc es) V).
    replace (sec (n_ts n) =? 0) with false by (symmetry; apply N.eqb_neq; destruct V; lia). cbn [orb skipped].
    destruct (ts_lt (n_ts n) start); cbn [negb]; [|reflexivity].
    rewrite (skip_notif_enc n (flat_map enc es) V). apply IH; assumption.
Qed.
(** What is replayed of times not decreasing: the part which starts with the first not before the start, and ends with the last
    before the stop. *)
Definition firsts (stop : ts) := fix f (l : list ntf) : list ntf :=
  match l with [] => [] | n :: t => if ts_lt (n_ts n) stop then n :: f t else [] end.
Lemma skipped_in start l n : In n (skipped start l) -> In n l.
Proof.
  induction l as [|m l IH]; cbn [skipped]; [tauto|]. destruct (ts_lt _ _); [intros H; right; auto|tauto].
Qed.
Lemma le_trans a b c : le a b -> le b c -> le a c.
Proof. unfold le, before. lia. Qed.
Lemma skipped_ge start l n : StronglySorted le l -> In n (skipped start l) -> ts_lt (n_ts n) start = false.
Proof.
  induction l as [|m l IH]; cbn [skipped]; [intros _ []|]. intros S H. apply StronglySorted_inv in S. destruct S as [S1 S2].
  destruct (ts_lt (n_ts m) start) eqn:E; [apply IH; assumption|].
  destruct H as [<-|H]; [exact E|]. rewrite Forall_forall in S2. specialize (S2 n H).
  apply ts_lt_false in E. apply ts_lt_false. unfold le, before in *. lia.
Qed.
Lemma skipped_all start l : (forall n, In n l -> ts_lt (n_ts n) start = true) -> skipped start l = [].
Proof.
  induction l as [|m l IH]; intros H; cbn [skipped]; [reflexivity|]. rewrite (H m (or_introl eq_refl)). apply IH.
  intros n Hn. apply H. right. exact Hn.
Qed.
Lemma skipped_none start l : (forall n, In n l -> ts_lt (n_ts n) start = false) -> skipped start l = l.
Proof. destruct l as [|m l]; intros H; cbn [skipped]; [reflexivity|]. rewrite (H m (or_introl eq_refl)). reflexivity. Qed.
Lemma skipped_app start a b : skipped start (a ++ b) = match skipped start a with [] => skipped start b | n :: t => n :: t ++ b end.
Proof. induction a as [|m a IH]; cbn [app skipped]; [reflexivity|]. destruct (ts_lt _ _); [exact IH|reflexivity]. Qed.
Lemma firsts_none stop l : (forall n, In n l -> ts_lt (n_ts n) stop = false) -> firsts stop l = [].
Proof. destruct l as [|m l]; intros H; cbn [firsts]; [reflexivity|]. rewrite (H m (or_introl eq_refl)). reflexivity. Qed.

Lemma entries_app a b : entries (a ++ b) = entries a ++ entries b.
Proof. unfold entries. apply flat_map_app. Qed.
Section Replay.
Variables (d : list nfile) (log : list ntf) (cs : list chunk).
Hypothesis HI : Inv d log cs.
Variables (start stop : ts).
Hypothesis Hstart : sec start <> 0.
Hypothesis Hstop : 0 < sec stop.

Lemma zero_before : ts_lt (mkTs 0 0) stop = true.
Proof. unfold ts_lt. cbn [sec nsec]. replace (0 <? sec stop) with true by (symmetry; apply N.ltb_lt; exact Hstop). reflexivity. Qed.
(** Where the next notification is: [pend] remain to be replayed, after those of [c] there are those of [post]. *)
Definition at_ (st : option rn) (pend : list ntf) : Prop :=
  match st with
  | None => pend = skipped start log
  | Some st => exists pre f es post es', cs = pre ++ (f, es) :: post /\ r_from st = nf_from f /\ r_to st = nf_to f /\
      r_data st = encs es' /\ Forall valid es' /\ (forall e, In e (es' ++ entries post) -> ts_lt (n_ts e) start = false) /\
      pend = es' ++ entries post
  end.
(** [files] looking after the given name. *)
Lemma files_spec : forall fuel pre post from to, cs = pre ++ post -> (length post < fuel)%nat ->
  find_file from to d = match post with [] => (0, 0) | g :: _ => name (fst g) end ->
  match skipped start (entries post) with
  | [] => files fuel d start stop from to = NEnd
  | n :: t =>
      if ts_lt (n_ts n) stop then exists st, files fuel d start stop from to = NNotif n st /\ at_ (Some st) t
      else files fuel d start stop from to = NEnd
  end.
Proof.
  induction fuel as [|fuel IH]; intros pre post from to E Hl Hf; [lia|]. cbn [files]. rewrite Hf.
  destruct post as [|g post].
  { cbn. reflexivity. }
  assert (Hg : In g cs) by (rewrite E; apply in_or_app; right; left; reflexivity).
  pose proof (cs_pos _ _ _ HI g Hg) as [P1 P2]. unfold name.
  replace (nf_from (fst g) =? 0) with false by (symmetry; apply N.eqb_neq; lia).
  replace (nf_to (fst g) =? 0) with false by (symmetry; apply N.eqb_neq; lia). cbn [negb andb].
  pose proof (i_time _ _ _ HI) as T. rewrite (i_log _ _ _ HI), E in T. unfold entries in T. rewrite flat_map_app in T.
  apply ssorted_app in T. destruct T as (_ & T & _). fold (entries (g :: post)) in T.
  destruct (nf_from (fst g) <=? sec stop) eqn:Es.
  2: { (* all after the stop *)
    apply N.leb_gt in Es.
    assert (A : forall n, In n (entries (g :: post)) -> ts_lt (n_ts n) stop = false).
    { intros n Hn. unfold entries in Hn. apply in_flat_map in Hn. destruct Hn as (c & Hc & Hn).
      assert (Hc' : In c cs) by (rewrite E; apply in_or_app; right; exact Hc).
      pose proof (cs_good _ _ _ HI c Hc') as G. destruct c as [f es]. destruct G as (_ & G & _). specialize (G n Hn).
      assert (nf_from (fst g) <= nf_from f).
      { destruct Hc as [->|Hc]; [cbn [fst]; lia|].
        pose proof (i_sort _ _ _ HI) as S. rewrite E in S. apply ssorted_app in S. destruct S as (_ & S & _).
        apply StronglySorted_inv in S. destruct S as [_ S]. rewrite Forall_forall in S. specialize (S _ Hc).
        destruct S as [S _]. cbn [fst] in *. lia. }
      apply ts_lt_false. unfold before. lia. }
    destruct (skipped start (entries (g :: post))) as [|n t] eqn:Ek; [reflexivity|].
    rewrite (A n); [reflexivity|]. apply (skipped_in start). rewrite Ek. left. reflexivity. }
  rewrite (open_found _ _ _ HI g Hg).
  assert (Hvg : Forall valid (snd g)) by (rewrite Forall_forall; intros e He; exact (cs_valid _ _ _ HI g e Hg He)).
  destruct g as [f es]. cbn [fst snd] in *.
  pose proof (cs_good _ _ _ HI _ Hg) as (G1 & G2 & _).
  rewrite G1, skip_loop_encs by (try exact Hvg; lia).
  change (entries ((f, es) :: post)) with (es ++ entries post) in *. rewrite skipped_app.
  destruct (skipped start es) as [|n t] eqn:Ek.
  - (* the next file *)
    unfold after_ts. cbn [sec N.eqb negb andb]. rewrite zero_before. cbn [negb].
    assert (E' : cs = (pre ++ [(f, es)]) ++ post) by (rewrite E, <- app_assoc; reflexivity).
    apply (IH (pre ++ [(f, es)]) post (nf_from f) (nf_to f) E' ltac:(cbn [length] in Hl; lia)).
    exact (find_next _ _ _ HI pre (f, es) post E).
  - assert (Hn : In n es) by (apply (skipped_in start); rewrite Ek; left; reflexivity).
    rewrite Forall_forall in Hvg. pose proof (Hvg n Hn) as Vn.
    unfold after_ts. replace (sec (n_ts n) =? 0) with false by (symmetry; apply N.eqb_neq; destruct Vn; lia). cbn [negb andb].
    destruct (ts_lt (n_ts n) stop) eqn:El; cbn [negb]; [|reflexivity].
    rewrite (read_notif_enc n (encs t) Vn). exists (mkRn (nf_from f) (nf_to f) (encs t)).
    split; [destruct n; reflexivity|].
    exists pre, f, es, post, t. split; [exact E|]. split; [reflexivity|]. split; [reflexivity|]. split; [reflexivity|].
    split; [|split; [|reflexivity]].
    + rewrite Forall_forall. intros e He. apply Hvg. apply (skipped_in start). rewrite Ek. right. exact He.
    + intros e He. apply (skipped_ge start (es ++ entries post)); [exact T|]. rewrite skipped_app, Ek. right. exact He.
Qed.
Lemma dir_length pre post : cs = pre ++ post -> (length post < S (length d))%nat.
Proof.
  intros E. rewrite (Permutation_length (i_perm _ _ _ HI)), map_length, E, app_length. lia.
Qed.
(** The first file of which the last time is not before the start. *)
Lemma first_split l : exists pre post, l = pre ++ post /\ (forall c : chunk, In c pre -> nf_to (fst c) < sec start) /\
  match post with [] => True | g :: _ => sec start <= nf_to (fst g) end.
Proof.
  induction l as [|c l (pre & post & E & H1 & H2)].
  - exists [], []. split; [reflexivity|]. split; [intros c []|exact I].
  - destruct (N.lt_ge_cases (nf_to (fst c)) (sec start)) as [H|H].
    + exists (c :: pre), post. split; [cbn [app]; congruence|]. split; [|exact H2]. intros x [<-|Hx]; [exact H|apply H1; exact Hx].
    + exists [], (c :: l). split; [reflexivity|]. split; [intros x []|exact H].
Qed.
Lemma next_spec st pend : at_ st pend ->
  match pend with
  | [] => replay_next d start stop st = NEnd
  | n :: t =>
      if ts_lt (n_ts n) stop then exists st', replay_next d start stop st = NNotif n st' /\ at_ (Some st') t
      else replay_next d start stop st = NEnd
  end.
Proof.
  destruct st as [st|]; cbn [at_ replay_next].
  - intros (pre & f & es & post & es' & E & Ef & Et & Ed & Hv & Hs & ->).
    destruct st as [rf rt rd]. cbn [r_from r_to r_data] in *. subst rf rt rd.
    destruct es' as [|n es'].
    + cbn [encs flat_map app] in *. rewrite read_ts_nil. unfold after_ts. cbn [sec N.eqb negb andb]. rewrite zero_before. cbn [negb].
      assert (E' : cs = (pre ++ [(f, es)]) ++ post) by (rewrite E, <- app_assoc; reflexivity).
      pose proof (files_spec (S (length d)) _ post (nf_from f) (nf_to f) E' (dir_length _ _ E')
        (find_next _ _ _ HI pre (f, es) post E)) as F.
      rewrite (skipped_none start (entries post) Hs) in F. exact F.
    + assert (Vn : valid n) by (inversion Hv; assumption). assert (Hv' : Forall valid es') by (inversion Hv; assumption).
      cbn [encs flat_map app]. rewrite (read_ts_enc n (flat_map enc es') Vn).
      unfold after_ts. replace (sec (n_ts n) =? 0) with false by (symmetry; apply N.eqb_neq; destruct Vn; lia). cbn [negb andb].
      destruct (ts_lt (n_ts n) stop) eqn:El; cbn [negb]; [|reflexivity].
      rewrite (read_notif_enc n (flat_map enc es') Vn). exists (mkRn (nf_from f) (nf_to f) (encs es')).
      split; [destruct n; reflexivity|].
      exists pre, f, es, post, es'. split; [exact E|]. split; [reflexivity|]. split; [reflexivity|]. split; [reflexivity|].
      split; [exact Hv'|]. split; [|reflexivity]. intros e He. apply Hs. right. exact He.
  - intros ->. destruct (first_split cs) as (pre & post & E & H1 & H2).
    pose proof (files_spec (S (length d)) pre post (sec start) 0 E (dir_length _ _ E)
      (find_first _ _ _ HI (sec start) pre post Hstart E H1 H2)) as F.
    assert (Ek : skipped start log = skipped start (entries post)).
    { rewrite (i_log _ _ _ HI), E. rewrite entries_app, skipped_app.
      rewrite (skipped_all start (entries pre)); [reflexivity|].
      intros n Hn. unfold entries in Hn. apply in_flat_map in Hn. destruct Hn as (c & Hc & Hn).
      assert (Hc' : In c cs) by (rewrite E; apply in_or_app; left; exact Hc).
      pose proof (cs_good _ _ _ HI c Hc') as G. destruct c as [f es]. destruct G as (_ & G & _). specialize (G n Hn).
      specialize (H1 _ Hc). cbn [fst] in H1. apply ts_lt_iff. left. lia. }
    rewrite Ek. exact F.
Qed.
Lemma replays_spec sel : forall pend st, at_ st pend ->
  replays d sel start stop st (map Replayed (filter sel (firsts stop pend)) ++ [Complete stop]).
Proof.
  induction pend as [|n pend IH]; intros st H; apply next_spec in H.
  - apply replays_end. exact H.
  - cbn [firsts]. destruct (ts_lt (n_ts n) stop); [|apply replays_end; exact H].
    destruct H as (st' & H & H'). cbn [filter].
    assert (R := replays_next d sel start stop st n st' _ H (IH _ H')). destruct (sel n); exact R.
Qed.
End Replay.
Lemma replays_fun d sel start stop st l : replays d sel start stop st l -> forall l', replays d sel start stop st l' -> l' = l.
Proof.
  induction 1 as [st E|st n st' l E _ IH]; intros l' H'; inversion H' as [st0 E' E1 E2|st0 n0 st0' l0 E' R E1 E2]; clear H'.
  - reflexivity.
  - rewrite E in E'. discriminate.
  - rewrite E in E'. discriminate.
  - rewrite E in E'. injection E' as <- <-. rewrite (IH l0 R). reflexivity.
Qed.
(** The replayed part is those within the interval. *)
Lemma firsts_skipped sel start stop l : StronglySorted le l ->
  sub (fun n => within start stop n /\ sel n = true) l (filter sel (firsts stop (skipped start l))).
Proof.
  assert (A : forall l, StronglySorted le l -> (forall n, In n l -> ts_lt (n_ts n) start = false) ->
    sub (fun n => within start stop n /\ sel n = true) l (filter sel (firsts stop l))).
  { intros l0. induction l0 as [|n l0 IH]; intros S H; cbn [firsts]; [constructor|].
    apply StronglySorted_inv in S. destruct S as [S1 S2].
    destruct (ts_lt (n_ts n) stop) eqn:E; cbn [filter].
    - assert (W : within start stop n).
      { split; [apply ts_lt_false; apply H; left; reflexivity|apply ts_lt_iff; exact E]. }
      destruct (sel n) eqn:Es; [apply sub_in|apply sub_out].
      + split; assumption.
      + apply IH; [exact S1|intros m Hm; apply H; right; exact Hm].
      + intros [_ X]. congruence.
      + apply IH; [exact S1|intros m Hm; apply H; right; exact Hm].
    - assert (B : forall m, In m (n :: l0) -> ~ (within start stop m /\ sel m = true)).
      { intros m Hm [[_ Hb] _]. apply ts_lt_false in E. destruct Hm as [<-|Hm]; [tauto|].
        rewrite Forall_forall in S2. specialize (S2 m Hm). unfold le, before in *. lia. }
      clear - B. revert B. generalize (n :: l0). intros l. induction l as [|m l IH]; intros B; [constructor|].
      apply sub_out; [apply B; left; reflexivity|]. apply IH. intros x Hx. apply B. right. exact Hx. }
  induction l as [|n l IH]; intros S; cbn [skipped]; [constructor|].
  pose proof S as S'. apply StronglySorted_inv in S. destruct S as [S1 S2].
  destruct (ts_lt (n_ts n) start) eqn:E.
  - apply sub_out; [|apply IH; exact S1]. intros [[W _] _]. apply ts_lt_iff in E. tauto.
  - apply A; [exact S'|]. intros m Hm. apply (skipped_ge start (n :: l)); [exact S'|]. cbn [skipped]. rewrite E. exact Hm.
Qed.

(** * Storing succeeds *)
Lemma writev_all (a b c : list N) k : nlen (a ++ b ++ c) < two64 -> nlen (a ++ b ++ c) <= k ->
  writev [Wrote k] [a; b; c] = (WOk, a ++ b ++ c).
Proof.
  intros Hl Hk. cbn [writev]. assert (Ec : concat [a; b; c] = a ++ b ++ c) by (cbn [concat]; rewrite app_nil_r; reflexivity).
  rewrite Ec, N.min_r by exact Hk.
  rewrite !nlen_app in *. cbn [skip_written].
  assert (U : forall x y, x < two64 -> y <= x -> u64 (x + two64 - y) = x - y).
  { intros x y Hx Hy. unfold u64. replace (x + two64 - y) with (x - y + 1 * two64) by lia.
    rewrite N.mod_add by (unfold two64; lia). apply N.mod_small. lia. }
  rewrite (U (nlen a + (nlen b + nlen c)) (nlen a)) by lia.
  replace (nlen b <=? nlen a + (nlen b + nlen c) - nlen a) with true by (symmetry; apply N.leb_le; lia).
  rewrite (U (nlen a + (nlen b + nlen c) - nlen a) (nlen b)) by lia.
  replace (nlen c <=? nlen a + (nlen b + nlen c) - nlen a - nlen b) with true by (symmetry; apply N.leb_le; lia).
  rewrite (U (nlen a + (nlen b + nlen c) - nlen a - nlen b) (nlen c)) by lia.
  replace (nlen a + (nlen b + nlen c) - nlen a - nlen b - nlen c) with 0 by lia. cbn [N.eqb]. f_equal.
  apply nfirstn_all. rewrite !nlen_app. lia.
Qed.
Lemma writev_iov n k : valid n -> 20 + nlen (n_json n) <= k -> writev [Wrote k] (iov n) = (WOk, enc n).
Proof.
  intros V Hk. pose proof (enc_len n) as L. rewrite enc_eq in *. unfold iov. apply writev_all; rewrite L.
  - destruct V as (_ & _ & _ & V). unfold two32, two64 in *. lia.
  - exact Hk.
Qed.
Lemma encs_space l : nlen (encs l) = space l.
Proof.
  induction l as [|n l IH]; cbn [encs flat_map space fold_right]; [reflexivity|]. rewrite nlen_app, enc_len.
  unfold encs, space in IH. rewrite IH. reflexivity.
Qed.
Lemma store_full d log cs n k : Inv d log cs -> valid n -> (forall m, In m log -> ~ before (n_ts n) (n_ts m)) ->
  20 + nlen (n_json n) <= k ->
  (exists d', store [Wrote k] n d = SOk d') \/
  (store [Wrote k] n d = SErr d /\ exists l es, log = l ++ es /\ Forall (fun m => sec (n_ts m) = sec (n_ts n)) es /\
    1024 * 1024 < space es + (20 + nlen (n_json n))).
Proof.
  intros HI V Ht Hk. unfold store. rewrite (writev_iov n k V Hk).
  destruct (list_eq_dec (fun a b : chunk => ltac:(repeat decide equality)) cs []) as [->|Hne].
  - pose proof (i_perm _ _ _ HI) as P. cbn [map] in P. apply Permutation_sym, Permutation_nil in P. subst d.
    cbn [find_file fold_left N.eqb negb andb open_file find]. left. eexists. reflexivity.
  - destruct (exists_last Hne) as (pre & c & Ec).
    rewrite (find_last _ _ _ HI pre c Ec). unfold name.
    assert (Hc : In c cs) by (rewrite Ec; apply in_or_app; right; left; reflexivity).
    pose proof (cs_pos _ _ _ HI c Hc) as [P1 P2].
    replace (nf_from (fst c) =? 0) with false by (symmetry; apply N.eqb_neq; lia).
    replace (nf_to (fst c) =? 0) with false by (symmetry; apply N.eqb_neq; lia). cbn [negb andb].
    rewrite (open_found _ _ _ HI c Hc).
    destruct (_ <=? max_size) eqn:Es; [left; eexists; reflexivity|]. apply N.leb_gt in Es.
    destruct (open_file (sec (n_ts n)) (sec (n_ts n)) d) as [f|] eqn:Eo; [|left; eexists; reflexivity].
    right. split; [reflexivity|].
    assert (Hf : In f d /\ nf_from f = sec (n_ts n)).
    { unfold open_file in Eo. apply find_some in Eo. destruct Eo as [H1 H2]. apply named_true in H2. split; [exact H1|apply H2]. }
    destruct Hf as [Hf Ef]. apply (in_dir _ _ _ HI) in Hf. destruct Hf as (c' & Hc' & <-).
    pose proof (to_le _ _ _ HI n Ht c Hc) as Hle.
    assert (c' = c).
    { destruct (cs_split _ _ _ HI pre c [] c' Ec Hc') as [[A _]|[A|[[] _]]]; [lia|exact A]. }
    subst c'. destruct c as [f es]. cbn [fst] in *.
    pose proof (cs_good _ _ _ HI _ Hc) as (G1 & G2 & _).
    exists (entries pre), es. split; [|split].
    + rewrite (i_log _ _ _ HI), Ec, entries_app. cbn [entries flat_map snd]. rewrite app_nil_r. reflexivity.
    + rewrite Forall_forall. intros m Hm. specialize (G2 m Hm). lia.
    + rewrite G1, encs_space in Es. unfold max_size in Es. lia.
Qed.
