From Coq Require Import List Bool NArith Lia Permutation.
From Verif Require Import Base BaseLemmas NtfJson NtfSpec.
Import ListNotations.
Local Open Scope N_scope.

(** * Times *)
Lemma ts_lt_iff a b : ts_lt a b = true <-> before a b.
Proof. unfold ts_lt, before. rewrite orb_true_iff, andb_true_iff, !N.ltb_lt, N.eqb_eq. reflexivity. Qed.
Lemma ts_lt_false a b : ts_lt a b = false <-> ~ before a b.
Proof. rewrite <- ts_lt_iff. destruct (ts_lt a b); split; congruence. Qed.
Lemma before_dec a b : {before a b} + {~ before a b}.
Proof. destruct (ts_lt a b) eqn:E; [left; apply ts_lt_iff; exact E|right; apply ts_lt_false; exact E]. Qed.
Lemma before_trans a b c : before a b -> before b c -> before a c.
Proof. unfold before. lia. Qed.
(** a <= b. *)
Definition le (a b : ntf) : Prop := ~ before (n_ts b) (n_ts a).
Lemma le_sec a b : le a b -> sec (n_ts a) <= sec (n_ts b).
Proof. unfold le, before. lia. Qed.

(** * Reading of one notification *)
Definition enc (n : ntf) : list N := concat (iov n).
Definition encs (l : list ntf) : list N := flat_map enc l.
Lemma le64_len n : nlen (le64 n) = 8.
Proof. reflexivity. Qed.
Lemma de64_le64 n : n < two64 -> de64 (le64 n) = n.
Proof.
  intros H. unfold de64, le64. rewrite (nfirstn_app_exact N 4) by reflexivity. rewrite (nskipn_app_exact N 4) by reflexivity.
  assert (n / two32 < two32).
  { apply N.div_lt_upper_bound; [unfold two32; lia|]. unfold two64, two32 in *. lia. }
  rewrite !de32_le32 by (try assumption; apply N.mod_lt; unfold two32; lia).
  pose proof (N.div_mod n two32 ltac:(unfold two32; lia)). lia.
Qed.
Lemma enc_eq n : enc n = (le64 (sec (n_ts n)) ++ le64 (nsec (n_ts n))) ++ le32 (nlen (n_json n)) ++ n_json n.
Proof. unfold enc, iov. cbn [concat]. rewrite app_nil_r. reflexivity. Qed.
Lemma enc_len n : nlen (enc n) = 20 + nlen (n_json n).
Proof. rewrite enc_eq, !nlen_app, !le64_len, le32_len. lia. Qed.
Lemma read_ts_enc n r : valid n -> read_ts (enc n ++ r) = (n_ts n, le32 (nlen (n_json n)) ++ n_json n ++ r).
Proof.
  intros (_ & Hs & Hn & _). unfold read_ts.
  assert (E : enc n ++ r = (le64 (sec (n_ts n)) ++ le64 (nsec (n_ts n))) ++ (le32 (nlen (n_json n)) ++ n_json n ++ r))
    by (rewrite enc_eq, <- !app_assoc; reflexivity).
  assert (F : nfirstn 16 (enc n ++ r) = le64 (sec (n_ts n)) ++ le64 (nsec (n_ts n)))
    by (rewrite E; apply nfirstn_app_exact; reflexivity).
  assert (G : nskipn 16 (enc n ++ r) = le32 (nlen (n_json n)) ++ n_json n ++ r)
    by (rewrite E; apply nskipn_app_exact; reflexivity).
  rewrite F, G.
  replace (16 - nlen (enc n ++ r)) with 0 by (rewrite nlen_app, enc_len; lia). cbn [N.to_nat repeat]. rewrite app_nil_r.
  rewrite (nfirstn_app_exact N 8), (nskipn_app_exact N 8) by reflexivity.
  rewrite !de64_le64 by assumption. destruct (n_ts n). reflexivity.
Qed.
Lemma read_ts_nil : read_ts [] = (mkTs 0 0, []).
Proof. reflexivity. Qed.
Lemma read_notif_enc n r : valid n -> read_notif (le32 (nlen (n_json n)) ++ n_json n ++ r) = Some (n_json n, r).
Proof.
  intros (_ & _ & _ & Hl). unfold read_notif. rewrite nlen_app, le32_len.
  replace (4 + nlen (n_json n ++ r) <? 4) with false by (symmetry; apply N.ltb_ge; lia).
  rewrite (nfirstn_app_exact N 4), (nskipn_app_exact N 4) by reflexivity. rewrite de32_le32 by exact Hl.
  rewrite nlen_app. replace (nlen (n_json n) + nlen r <? nlen (n_json n)) with false by (symmetry; apply N.ltb_ge; lia).
  rewrite nfirstn_app_exact, nskipn_app_exact by reflexivity. reflexivity.
Qed.
Lemma skip_notif_enc n r : valid n -> skip_notif (le32 (nlen (n_json n)) ++ n_json n ++ r) = Some r.
Proof.
  intros (_ & _ & _ & Hl). unfold skip_notif. rewrite nlen_app, le32_len.
  replace (4 + nlen (n_json n ++ r) <? 4) with false by (symmetry; apply N.ltb_ge; lia).
  rewrite (nfirstn_app_exact N 4), (nskipn_app_exact N 4) by reflexivity. rewrite de32_le32 by exact Hl.
  rewrite nskipn_app_exact by reflexivity. reflexivity.
Qed.

(** * Writing: success means that everything was written *)
Lemma skip_written_spec : forall iov written w r, iov <> [] -> written < two64 -> nlen (concat iov) < two64 ->
  skip_written written iov = (w, r) ->
  (exists pre, iov = pre ++ r /\ pre <> [] /\ nlen (concat pre) + w = written /\ (forall v t, r = v :: t -> w < nlen v)) \/
  (r = [] /\ w <> 0).
Proof.
  induction iov as [|v t IH]; intros written w r Hn Hw Hl E; [congruence|]. cbn [skip_written] in E.
  assert (Hlt : nlen v + nlen (concat t) < two64) by (cbn [concat] in Hl; rewrite nlen_app in Hl; exact Hl).
  set (w1 := u64 (written + two64 - nlen v)) in *.
  assert (H1 : (nlen v <= written /\ w1 = written - nlen v) \/ (written < nlen v /\ w1 = written + two64 - nlen v)).
  { unfold w1, u64. destruct (N.le_gt_cases (nlen v) written) as [H|H].
    - left. split; [exact H|]. replace (written + two64 - nlen v) with (written - nlen v + 1 * two64) by lia.
      rewrite N.mod_add by (unfold two64; lia). apply N.mod_small. lia.
    - right. split; [exact H|]. apply N.mod_small. lia. }
  assert (Hw1 : w1 < two64) by (destruct H1 as [[? ->]|[? ->]]; lia).
  destruct t as [|v2 t].
  - injection E as <- <-. destruct H1 as [[H ->]|[H ->]].
    + destruct (N.eq_dec (written - nlen v) 0) as [E|E].
      * left. exists [v]. split; [reflexivity|]. split; [discriminate|]. cbn [concat]. rewrite app_nil_r. split; [lia|]. discriminate.
      * right. split; [reflexivity|exact E].
    + right. split; [reflexivity|]. lia.
  - assert (Hc : nlen (concat (v2 :: t)) < two64) by lia.
    destruct (nlen v2 <=? w1) eqn:El.
    + apply N.leb_le in El. destruct H1 as [[H H1]|[H H1]].
      * destruct (IH w1 w r ltac:(discriminate) Hw1 Hc E) as [(pre & E1 & Hp & Hs & Hv)|R]; [|right; exact R].
        left. exists (v :: pre). split; [cbn [app]; congruence|]. split; [discriminate|].
        cbn [concat]. rewrite nlen_app. split; [lia|exact Hv].
      * (* wrapped: the rest is shorter than what was subtracted from *)
        right. clear El. assert (Hbig : nlen (concat (v2 :: t)) < w1) by lia.
        clearbody w1. clear - E Hbig Hw1 Hc. revert v2 w1 E Hbig Hw1 Hc. induction t as [|v3 t IH]; intros v2 w1 E Hbig Hw1 Hc.
        -- cbn [skip_written] in E. injection E as <- <-. split; [reflexivity|].
           cbn [concat] in Hbig. rewrite app_nil_r in Hbig. unfold u64.
           replace (w1 + two64 - nlen v2) with (w1 - nlen v2 + 1 * two64) by lia.
           rewrite N.mod_add by (unfold two64; lia). rewrite N.mod_small by lia. lia.
        -- remember (v3 :: t) as t3 eqn:Et. cbn [skip_written] in E. rewrite Et in E at 1.
           cbn [concat] in Hbig, Hc. rewrite nlen_app in Hbig, Hc.
           set (w2 := u64 (w1 + two64 - nlen v2)) in *.
           assert (H2 : w2 = w1 - nlen v2).
           { unfold w2, u64. replace (w1 + two64 - nlen v2) with (w1 - nlen v2 + 1 * two64) by lia.
             rewrite N.mod_add by (unfold two64; lia). apply N.mod_small. lia. }
           assert (H3 : nlen v3 + nlen (concat t) = nlen (concat t3)) by (rewrite Et; cbn [concat]; rewrite nlen_app; reflexivity).
           replace (nlen v3 <=? w2) with true in E by (symmetry; apply N.leb_le; lia).
           rewrite Et in E. apply (IH v3 w2 E); rewrite <- ?Et; lia.
    + apply N.leb_gt in El. injection E as <- <-. destruct H1 as [[H H1]|[H H1]].
      * left. exists [v]. split; [reflexivity|]. split; [discriminate|]. cbn [concat]. rewrite app_nil_r. split; [lia|].
        intros v' t' Ev. injection Ev as <- _. exact El.
      * cbn [concat] in Hlt. rewrite nlen_app in Hlt. lia.
Qed.
Lemma nfirstn_app2 {A} n (a b : list A) : nlen a <= n -> nfirstn n (a ++ b) = a ++ nfirstn (n - nlen a) b.
Proof.
  intros H. unfold nfirstn, nlen in *. rewrite firstn_app. rewrite firstn_all2 by lia. f_equal. f_equal. lia.
Qed.
Lemma concat_app2 {A} (a b : list (list A)) : concat (a ++ b) = concat a ++ concat b.
Proof. apply concat_app. Qed.
Lemma writev_ok : forall o iov x, iov <> [] -> nlen (concat iov) < two64 -> writev o iov = (WOk, x) -> x = concat iov.
Proof.
  induction o as [|y o IH]; intros iov x Hn Hl E; [discriminate|].
  assert (STEP : forall k, k <= nlen (concat iov) ->
    match skip_written k iov with
    | (w, []) => if w =? 0 then (WOk, nfirstn k (concat iov)) else (WBad, nfirstn k (concat iov))
    | (w, v :: t) =>
        let r := if w =? 0 then writev o (v :: t) else writev o (nskipn w v :: t) in
        (fst r, nfirstn k (concat iov) ++ snd r)
    end = (WOk, x) -> x = concat iov).
  { clear E. intros k Hk E.
    destruct (skip_written k iov) as [w r] eqn:Es.
    destruct (skip_written_spec iov k w r Hn ltac:(lia) Hl Es) as [(pre & E1 & Hp & Hs & Hv)|[-> Hw]].
    2: { destruct (w =? 0) eqn:Ew; [apply N.eqb_eq in Ew; congruence|discriminate]. }
    destruct r as [|v t].
    { destruct (w =? 0) eqn:Ew; [|discriminate]. apply N.eqb_eq in Ew; subst w. injection E as <-.
      rewrite app_nil_r in E1. subst iov. apply nfirstn_all. lia. }
    specialize (Hv v t eq_refl).
    assert (Ek : nfirstn k (concat iov) = concat pre ++ nfirstn w v).
    { rewrite E1, concat_app2, nfirstn_app2 by lia. f_equal. replace (k - nlen (concat pre)) with w by lia.
      cbn [concat]. unfold nfirstn, nlen in *. rewrite firstn_app. replace (N.to_nat w - length v)%nat with 0%nat by lia.
      cbn [firstn]. apply app_nil_r. }
    assert (Ht : nlen (concat (v :: t)) < two64) by (rewrite E1, concat_app2, nlen_app in Hl; lia).
    cbv zeta in E. destruct (w =? 0) eqn:Ew.
    - apply N.eqb_eq in Ew; subst w.
      destruct (writev o (v :: t)) as [z b] eqn:Ez. cbn [fst snd] in E. injection E as -> <-.
      apply IH in Ez; [|discriminate|exact Ht]. subst b. rewrite Ek, E1, concat_app2.
      change (nfirstn 0 v) with (@nil N). rewrite app_nil_r. reflexivity.
    - destruct (writev o (nskipn w v :: t)) as [z b] eqn:Ez. cbn [fst snd] in E. injection E as -> <-.
      apply IH in Ez; [|discriminate|].
      + subst b. rewrite Ek, E1, concat_app2. cbn [concat]. rewrite <- app_assoc. f_equal.
        rewrite app_assoc, nfirstn_nskipn. reflexivity.
      + cbn [concat] in Ht |- *. rewrite nlen_app in Ht |- *. rewrite nlen_nskipn. lia. }
  cbn [writev] in E. destruct y as [n| |]; [| |discriminate]; cbv zeta in E.
  - apply (STEP (N.min n (nlen (concat iov)))); [lia|exact E].
  - apply (STEP 0); [lia|exact E].
Qed.
