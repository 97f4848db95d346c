From Coq Require Import List Bool NArith Lia Permutation Sorted.
From Verif Require Import Base BaseLemmas NtfJson NtfSpec NtfProofs.
Import ListNotations.
Local Open Scope N_scope.

(** * Files with their notifications, in the order of time *)
Definition chunk : Type := (nfile * list ntf)%type.
Definition good (c : chunk) : Prop :=
  let '(f, es) := c in
  nf_data f = encs es /\ (forall e, In e es -> nf_from f <= sec (n_ts e) <= nf_to f) /\
  (exists e, In e es /\ sec (n_ts e) = nf_from f) /\ (exists e, In e es /\ sec (n_ts e) = nf_to f).
Definition after (a b : chunk) : Prop := nf_from (fst a) < nf_from (fst b) /\ nf_to (fst a) <= nf_from (fst b).
Definition entries (cs : list chunk) : list ntf := flat_map snd cs.

Record Inv (d : list nfile) (log : list ntf) (cs : list chunk) : Prop := mkInv {
  i_perm : Permutation d (map fst cs);
  i_good : Forall good cs;
  i_sort : StronglySorted after cs;
  i_log : log = entries cs;
  i_time : StronglySorted le log;
  i_valid : Forall valid log }.

Definition name (f : nfile) : N * N := (nf_from f, nf_to f).
(** Order of files by their names. *)
Definition prec (f g : nfile) : Prop := nf_from f < nf_from g /\ nf_to f <= nf_to g.
Definition pos (f : nfile) : Prop := 0 < nf_from f /\ nf_from f <= nf_to f.

(** The earliest of candidates. *)
Section Min.
Variable cand : nfile -> bool.
Variable step : N * N -> nfile -> N * N.
Hypothesis Hstep : forall acc f, pos f -> step acc f =
  if negb (cand f) then acc
  else if (negb (fst acc =? 0) && (fst acc <=? nf_from f)) && (negb (snd acc =? 0) && (snd acc <=? nf_to f)) then acc
  else name f.
Lemma pick_none d acc : (forall f, In f d -> pos f /\ cand f = false) -> fold_left step d acc = acc.
Proof.
  revert acc. induction d as [|f d IH]; intros acc H; cbn [fold_left]; [reflexivity|].
  destruct (H f (or_introl eq_refl)) as [Hp Hc]. rewrite Hstep by exact Hp. rewrite Hc. cbn [negb].
  apply IH. intros g Hg. apply H. right. exact Hg.
Qed.
Lemma pick_keep m d : pos m -> (forall f, In f d -> pos f /\ (cand f = true -> name f = name m \/ prec m f)) ->
  fold_left step d (name m) = name m.
Proof.
  intros Hm. induction d as [|f d IH]; intros H; cbn [fold_left]; [reflexivity|].
  destruct (H f (or_introl eq_refl)) as [Hp Hc]. rewrite Hstep by exact Hp.
  assert (IH' : fold_left step d (name m) = name m) by (apply IH; intros g Hg; apply H; right; exact Hg).
  destruct (cand f); cbn [negb]; [|exact IH'].
  unfold name at 1 2 3 4. cbn [fst snd].
  assert (E : nf_from m <= nf_from f /\ nf_to m <= nf_to f).
  { destruct (Hc eq_refl) as [E|[P1 P2]]; [unfold name in E; injection E as -> ->|]; lia. }
  destruct Hm as [M1 M2].
  replace (nf_from m =? 0) with false by (symmetry; apply N.eqb_neq; lia).
  replace (nf_to m =? 0) with false by (symmetry; apply N.eqb_neq; lia).
  replace (nf_from m <=? nf_from f) with true by (symmetry; apply N.leb_le; lia).
  replace (nf_to m <=? nf_to f) with true by (symmetry; apply N.leb_le; lia). cbn [negb andb]. exact IH'.
Qed.
Lemma pick_min m d acc : pos m -> In m d -> cand m = true ->
  (forall f, In f d -> pos f /\ (cand f = true -> name f = name m \/ prec m f)) ->
  (acc = (0, 0) \/ exists c, acc = name c /\ (name c = name m \/ prec m c)) ->
  fold_left step d acc = name m.
Proof.
  intros Hm Hin Hcm. revert acc. induction d as [|f d IH]; intros acc H Ha; [destruct Hin|]. cbn [fold_left].
  destruct (H f (or_introl eq_refl)) as [Hp Hc].
  assert (H' : forall g, In g d -> pos g /\ (cand g = true -> name g = name m \/ prec m g))
    by (intros g Hg; apply H; right; exact Hg).
  rewrite Hstep by exact Hp.
  destruct Hin as [->|Hin].
  - rewrite Hcm. cbn [negb]. destruct Ha as [->|(c & -> & Ha)].
    + cbn. apply pick_keep; assumption.
    + destruct Ha as [->|[P1 P2]].
      * destruct (_ && _); apply pick_keep; assumption.
      * cbn [name fst snd]. replace (nf_from c <=? nf_from m) with false by (symmetry; apply N.leb_gt; lia).
        rewrite andb_false_r. cbn [andb]. apply pick_keep; assumption.
  - destruct (cand f); cbn [negb]; [|apply IH; assumption].
    destruct (_ && _); apply IH; try assumption. right. exists f. split; [reflexivity|]. apply Hc. reflexivity.
Qed.
End Min.
(** The latest of all. *)
Lemma latest_keep m d : pos m -> (forall f, In f d -> pos f /\ (name f = name m \/ prec f m)) ->
  fold_left (find_step 0 0) d (name m) = name m.
Proof.
  intros Hm. induction d as [|f d IH]; intros H; cbn [fold_left]; [reflexivity|].
  destruct (H f (or_introl eq_refl)) as [Hp Hc].
  assert (IH' : fold_left (find_step 0 0) d (name m) = name m) by (apply IH; intros g Hg; apply H; right; exact Hg).
  unfold find_step at 2. unfold name at 1. cbn [N.eqb negb andb].
  assert (E : nf_from f <= nf_from m /\ nf_to f <= nf_to m).
  { destruct Hc as [E|[P1 P2]]; [unfold name in E; injection E as -> ->|]; lia. }
  destruct Hm as [M1 M2], Hp as [P1 P2].
  replace (nf_to f <? nf_from f) with false by (symmetry; apply N.ltb_ge; lia).
  replace (nf_from m =? 0) with false by (symmetry; apply N.eqb_neq; lia).
  replace (nf_to m =? 0) with false by (symmetry; apply N.eqb_neq; lia).
  replace (nf_from f <=? nf_from m) with true by (symmetry; apply N.leb_le; lia).
  replace (nf_to f <=? nf_to m) with true by (symmetry; apply N.leb_le; lia). cbn [negb andb]. exact IH'.
Qed.
Lemma latest_max m d acc : pos m -> In m d -> (forall f, In f d -> pos f /\ (name f = name m \/ prec f m)) ->
  (acc = (0, 0) \/ exists c, acc = name c /\ pos c /\ (name c = name m \/ prec c m)) ->
  fold_left (find_step 0 0) d acc = name m.
Proof.
  intros Hm Hin. revert acc. induction d as [|f d IH]; intros acc H Ha; [destruct Hin|]. cbn [fold_left].
  destruct (H f (or_introl eq_refl)) as [Hp Hc].
  assert (H' : forall g, In g d -> pos g /\ (name g = name m \/ prec g m))
    by (intros g Hg; apply H; right; exact Hg).
  assert (Ef : nf_to f <? nf_from f = false) by (apply N.ltb_ge; destruct Hp; lia).
  destruct Hin as [->|Hin].
  - assert (E : find_step 0 0 acc m = name m).
    { unfold find_step. destruct acc as [ff ft]. rewrite Ef. cbn [N.eqb negb andb].
      destruct Ha as [Ha|(c & Ha & Hpc & Hc')].
      - injection Ha as -> ->. reflexivity.
      - unfold name in Ha. injection Ha as -> ->. destruct Hc' as [E|[P1 P2]].
        + unfold name in E. injection E as -> ->. destruct (_ && _); reflexivity.
        + replace (nf_from m <=? nf_from c) with false by (symmetry; apply N.leb_gt; lia).
          rewrite andb_false_r. reflexivity. }
    rewrite E. apply latest_keep; assumption.
  - apply IH; try assumption. unfold find_step. destruct acc as [ff ft]. rewrite Ef. cbn [N.eqb negb andb].
    destruct (_ && _); [exact Ha|]. right. exists f. split; [reflexivity|]. split; [exact Hp|exact Hc].
Qed.
Lemma find_next_step from to acc f : from <> 0 -> to <> 0 -> pos f -> find_step from to acc f =
  if negb (negb ((nf_from f <? from) || (nf_to f <? to) || ((from =? nf_from f) && (to =? nf_to f)))) then acc
  else if (negb (fst acc =? 0) && (fst acc <=? nf_from f)) && (negb (snd acc =? 0) && (snd acc <=? nf_to f)) then acc
  else name f.
Proof.
  intros H1 H2 [P1 P2]. unfold find_step. destruct acc as [ff ft]. cbn [fst snd].
  replace (nf_to f <? nf_from f) with false by (symmetry; apply N.ltb_ge; lia).
  replace (from =? 0) with false by (symmetry; apply N.eqb_neq; exact H1).
  replace (to =? 0) with false by (symmetry; apply N.eqb_neq; exact H2). cbn [negb andb]. rewrite negb_involutive. reflexivity.
Qed.
Lemma find_first_step from acc f : from <> 0 -> pos f -> find_step from 0 acc f =
  if negb (negb (nf_to f <? from)) then acc
  else if (negb (fst acc =? 0) && (fst acc <=? nf_from f)) && (negb (snd acc =? 0) && (snd acc <=? nf_to f)) then acc
  else name f.
Proof.
  intros H1 [P1 P2]. unfold find_step. destruct acc as [ff ft]. cbn [fst snd].
  replace (nf_to f <? nf_from f) with false by (symmetry; apply N.ltb_ge; lia).
  replace (from =? 0) with false by (symmetry; apply N.eqb_neq; exact H1).
  cbn [N.eqb negb andb]. rewrite negb_involutive. reflexivity.
Qed.

(** * The files of the invariant *)
Lemma ssorted_app {A} (R : A -> A -> Prop) l1 l2 : StronglySorted R (l1 ++ l2) ->
  StronglySorted R l1 /\ StronglySorted R l2 /\ forall x y, In x l1 -> In y l2 -> R x y.
Proof.
  induction l1 as [|a l1 IH]; intros H; cbn [app] in H.
  - split; [constructor|]. split; [exact H|]. intros x y [].
  - apply StronglySorted_inv in H. destruct H as [H1 H2]. destruct (IH H1) as (A1 & A2 & A3).
    rewrite Forall_forall in H2. split; [|split; [exact A2|]].
    + constructor; [exact A1|]. rewrite Forall_forall. intros x Hx. apply H2. apply in_or_app. left. exact Hx.
    + intros x y [->|Hx] Hy; [apply H2; apply in_or_app; right; exact Hy|apply A3; assumption].
Qed.
Lemma ssorted_snoc {A} (R : A -> A -> Prop) l x : StronglySorted R l -> (forall y, In y l -> R y x) -> StronglySorted R (l ++ [x]).
Proof.
  induction l as [|a l IH]; intros H Hx; cbn [app].
  - constructor; constructor.
  - apply StronglySorted_inv in H. destruct H as [H1 H2]. constructor.
    + apply IH; [exact H1|]. intros y Hy. apply Hx. right. exact Hy.
    + rewrite Forall_forall in *. intros y Hy. apply in_app_or in Hy. destruct Hy as [Hy|[<-|[]]]; [apply H2; exact Hy|].
      apply Hx. left. reflexivity.
Qed.

Section WithInv.
Variables (d : list nfile) (log : list ntf) (cs : list chunk).
Hypothesis HI : Inv d log cs.

Lemma cs_good c : In c cs -> good c.
Proof. intros H. pose proof (i_good _ _ _ HI) as G. rewrite Forall_forall in G. apply G. exact H. Qed.
Lemma cs_valid c e : In c cs -> In e (snd c) -> valid e.
Proof.
  intros H He. pose proof (i_valid _ _ _ HI) as G. rewrite Forall_forall in G. apply G. rewrite (i_log _ _ _ HI).
  unfold entries. apply in_flat_map. exists c. split; assumption.
Qed.
Lemma cs_pos c : In c cs -> pos (fst c).
Proof.
  intros H. pose proof (cs_good c H) as G. destruct c as [f es]. destruct G as (_ & G & (e & He & E) & _).
  pose proof (cs_valid (f, es) e H He) as (V & _). specialize (G e He). unfold pos. cbn [fst]. lia.
Qed.
Lemma in_dir f : In f d <-> exists c, In c cs /\ fst c = f.
Proof.
  split; intros H.
  - apply (Permutation_in _ (i_perm _ _ _ HI)) in H. apply in_map_iff in H. destruct H as (c & E & H). exists c. split; assumption.
  - destruct H as (c & H & <-). apply (Permutation_in _ (Permutation_sym (i_perm _ _ _ HI))). apply in_map. exact H.
Qed.
Lemma after_prec a b : In b cs -> after a b -> prec (fst a) (fst b).
Proof. intros H [A1 A2]. pose proof (cs_pos b H) as [P1 P2]. unfold prec. lia. Qed.
Lemma cs_split pre c post x : cs = pre ++ c :: post -> In x cs -> after x c \/ x = c \/ (In x post /\ after c x).
Proof.
  intros E H. pose proof (i_sort _ _ _ HI) as S. rewrite E in S. apply ssorted_app in S. destruct S as (_ & S & A).
  rewrite E in H. apply in_app_or in H. destruct H as [H|[->|H]].
  - left. apply A; [exact H|left; reflexivity].
  - right. left. reflexivity.
  - right. right. split; [exact H|]. apply StronglySorted_inv in S. destruct S as [_ S]. rewrite Forall_forall in S. apply S. exact H.
Qed.
Lemma find_next pre c post : cs = pre ++ c :: post ->
  find_file (nf_from (fst c)) (nf_to (fst c)) d = match post with [] => (0, 0) | g :: _ => name (fst g) end.
Proof.
  intros E. assert (Hc : In c cs) by (rewrite E; apply in_or_app; right; left; reflexivity).
  pose proof (cs_pos c Hc) as [P1 P2].
  unfold find_file.
  assert (Hst := find_next_step (nf_from (fst c)) (nf_to (fst c))).
  destruct post as [|g post].
  - apply (pick_none _ _ (fun acc f Hp => Hst acc f ltac:(lia) ltac:(lia) Hp)).
    intros f Hf. apply in_dir in Hf. destruct Hf as (x & Hx & <-). split; [apply cs_pos; exact Hx|].
    apply negb_false_iff. destruct (cs_split pre c [] x E Hx) as [[A1 A2]|[->|[[] _]]].
    + replace (nf_from (fst x) <? nf_from (fst c)) with true by (symmetry; apply N.ltb_lt; exact A1). reflexivity.
    + rewrite !N.eqb_refl. rewrite orb_comm. reflexivity.
  - assert (Hg : In g cs) by (rewrite E; apply in_or_app; right; right; left; reflexivity).
    apply (pick_min _ _ (fun acc f Hp => Hst acc f ltac:(lia) ltac:(lia) Hp)).
    + apply cs_pos. exact Hg.
    + apply in_dir. exists g. split; [exact Hg|reflexivity].
    + destruct (cs_split pre c (g :: post) g E Hg) as [A|[A|[_ A]]].
      * exfalso. pose proof (i_sort _ _ _ HI) as S. rewrite E in S. apply ssorted_app in S. destruct S as (_ & S & _).
        apply StronglySorted_inv in S. destruct S as [_ S]. rewrite Forall_forall in S. specialize (S g (or_introl eq_refl)).
        destruct A as [A _], S as [S _]. lia.
      * exfalso. pose proof (i_sort _ _ _ HI) as S. rewrite E in S. apply ssorted_app in S. destruct S as (_ & S & _).
        apply StronglySorted_inv in S. destruct S as [_ S]. rewrite Forall_forall in S. specialize (S g (or_introl eq_refl)).
        destruct S as [S _]. rewrite A in S. lia.
      * apply (after_prec c g Hg) in A. destruct A as [A1 A2].
        apply negb_true_iff. replace (nf_from (fst g) <? nf_from (fst c)) with false by (symmetry; apply N.ltb_ge; lia).
        replace (nf_to (fst g) <? nf_to (fst c)) with false by (symmetry; apply N.ltb_ge; lia).
        replace (nf_from (fst c) =? nf_from (fst g)) with false by (symmetry; apply N.eqb_neq; lia). reflexivity.
    + intros f Hf. apply in_dir in Hf. destruct Hf as (x & Hx & <-). split; [apply cs_pos; exact Hx|].
      intros Hcd. apply negb_true_iff in Hcd.
      destruct (cs_split pre c (g :: post) x E Hx) as [[A1 A2]|[->|[Hp A]]].
      * replace (nf_from (fst x) <? nf_from (fst c)) with true in Hcd by (symmetry; apply N.ltb_lt; exact A1). discriminate.
      * rewrite !N.eqb_refl, orb_comm in Hcd. discriminate.
      * assert (E' : cs = (pre ++ [c]) ++ g :: post) by (rewrite E, <- app_assoc; reflexivity).
        destruct Hp as [->|Hp]; [left; reflexivity|]. right.
        destruct (cs_split (pre ++ [c]) g post x E' Hx) as [B|[->|[_ B]]].
        -- exfalso. pose proof (i_sort _ _ _ HI) as S. rewrite E' in S. apply ssorted_app in S. destruct S as (_ & S & _).
           apply StronglySorted_inv in S. destruct S as [_ S]. rewrite Forall_forall in S. specialize (S x Hp).
           destruct B as [B _], S as [S _]. lia.
        -- exfalso. pose proof (i_sort _ _ _ HI) as S. rewrite E' in S. apply ssorted_app in S. destruct S as (_ & S & _).
           apply StronglySorted_inv in S. destruct S as [_ S]. rewrite Forall_forall in S. specialize (S g Hp).
           destruct S as [S _]. lia.
        -- apply after_prec; [exact Hx|exact B].
    + left. reflexivity.
Qed.
Lemma find_first s pre post : s <> 0 -> cs = pre ++ post -> (forall c, In c pre -> nf_to (fst c) < s) ->
  (match post with [] => True | g :: _ => s <= nf_to (fst g) end) ->
  find_file s 0 d = match post with [] => (0, 0) | g :: _ => name (fst g) end.
Proof.
  intros Hs E Hpre Hg0. unfold find_file. assert (Hst := find_first_step s).
  destruct post as [|g post].
  - apply (pick_none _ _ (fun acc f Hp => Hst acc f Hs Hp)).
    intros f Hf. apply in_dir in Hf. destruct Hf as (x & Hx & <-). split; [apply cs_pos; exact Hx|].
    apply negb_false_iff. apply N.ltb_lt. apply Hpre. rewrite E, app_nil_r in Hx. exact Hx.
  - assert (Hg : In g cs) by (rewrite E; apply in_or_app; right; left; reflexivity).
    apply (pick_min _ _ (fun acc f Hp => Hst acc f Hs Hp)).
    + apply cs_pos. exact Hg.
    + apply in_dir. exists g. split; [exact Hg|reflexivity].
    + apply negb_true_iff. apply N.ltb_ge. exact Hg0.
    + intros f Hf. apply in_dir in Hf. destruct Hf as (x & Hx & <-). split; [apply cs_pos; exact Hx|].
      intros Hcd. apply negb_true_iff, N.ltb_ge in Hcd.
      assert (Hx' := Hx). rewrite E in Hx'. apply in_app_or in Hx'. destruct Hx' as [Hx'|Hx'].
      * specialize (Hpre x Hx'). lia.
      * destruct Hx' as [->|Hx']; [left; reflexivity|right].
        pose proof (i_sort _ _ _ HI) as S. rewrite E in S. apply ssorted_app in S. destruct S as (_ & S & _).
        apply StronglySorted_inv in S. destruct S as [_ S]. rewrite Forall_forall in S.
        apply after_prec; [exact Hx|]. apply S. exact Hx'.
    + left. reflexivity.
Qed.
Lemma find_last pre c : cs = pre ++ [c] -> find_file 0 0 d = name (fst c).
Proof.
  intros E. assert (Hc : In c cs) by (rewrite E; apply in_or_app; right; left; reflexivity).
  unfold find_file. apply latest_max.
  - apply cs_pos. exact Hc.
  - apply in_dir. exists c. split; [exact Hc|reflexivity].
  - intros f Hf. apply in_dir in Hf. destruct Hf as (x & Hx & <-). split; [apply cs_pos; exact Hx|].
    destruct (cs_split pre c [] x E Hx) as [A|[->|[[] _]]]; [right; apply after_prec; assumption|left; reflexivity].
  - left. reflexivity.
Qed.
(** Files have different names. *)
Lemma names_unique c c' : In c cs -> In c' cs -> nf_from (fst c) = nf_from (fst c') -> c = c'.
Proof.
  intros H H' E. apply in_split in H. destruct H as (pre & post & Ec).
  destruct (cs_split pre c post c' Ec H') as [[A _]|[->|[_ [A _]]]]; [lia|reflexivity|lia].
Qed.
Lemma open_found c : In c cs -> open_file (nf_from (fst c)) (nf_to (fst c)) d = Some (fst c).
Proof.
  intros H. unfold open_file.
  destruct (find (named (nf_from (fst c)) (nf_to (fst c))) d) as [f|] eqn:E.
  - apply find_some in E. destruct E as [Hf Hn]. unfold named in Hn. apply andb_true_iff in Hn. destruct Hn as [Hn _].
    apply N.eqb_eq in Hn. apply in_dir in Hf. destruct Hf as (x & Hx & <-).
    rewrite (names_unique x c Hx H Hn). reflexivity.
  - exfalso. assert (Hf : In (fst c) d) by (apply in_dir; exists c; split; [exact H|reflexivity]).
    pose proof (find_none _ _ E _ Hf) as N. unfold named in N. rewrite !N.eqb_refl in N. discriminate.
Qed.
End WithInv.
