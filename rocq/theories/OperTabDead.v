From Coq Require Import List NArith ZArith Lia Bool Arith.
From Verif Require Import Base BaseLemmas EvData EvDataProofs ExtShm ExtShmSpec ExtShmProofs ExtShmHoles ExtShmAlloc ExtShmRealloc SubTab SubTabSpec TabProofs SubTabProofs OperTabProofs OperTabAdd.
Import ListNotations.
Open Scope N_scope.

(** * Removing subscriptions of dead connections *)

Definition keep_kids (alive : N -> bool) (ks : list words) : list words := filter (fun w => alive (word w kid_cid)) ks.
Definition all_alive (alive : N -> bool) (ks : list words) : Prop := Forall (fun w => alive (word w kid_cid) = true) ks.
Definition nkids (l : list oent) : nat := fold_right (fun e n => (length (e_kids e) + n)%nat) 0%nat l.

Lemma keep_all : forall alive ks, all_alive alive ks -> keep_kids alive ks = ks.
Proof. induction ks as [|k r IH]; intros F; [reflexivity|]. inversion F; subst. unfold keep_kids in *. cbn [filter]. rewrite H1. f_equal. apply IH. assumption. Qed.

Lemma l_odead_cons : forall alive e r, l_odead alive (e :: r) =
  match keep_kids alive (e_kids e) with [] => l_odead alive r | ks => (e_path e, e_type e, ks) :: l_odead alive r end.
Proof.
  intros. unfold l_odead. cbn [map filter]. unfold e_kids at 1. cbn [snd]. fold (keep_kids alive (e_kids e)).
  destruct (keep_kids alive (e_kids e)) as [|k ks]; [reflexivity|].
  replace (nlen (k :: ks) =? 0) with false by (symmetry; apply N.eqb_neq; unfold nlen; cbn [length]; lia). reflexivity.
Qed.

Lemma keep_drop : forall alive ks1 k ks2, alive (word k kid_cid) = false -> keep_kids alive (ks1 ++ k :: ks2) = keep_kids alive (ks1 ++ ks2).
Proof. intros. unfold keep_kids. rewrite !filter_app. cbn [filter]. rewrite H. reflexivity. Qed.

Lemma odead_in_spec : forall alive fuel m hs live t xs1 e xs2 bls ks1 ks2,
  well m hs (oblocks t bls ++ live) -> otab m t (xs1 ++ e :: xs2) bls ->
  e_kids e = ks1 ++ ks2 -> all_alive alive ks1 -> e_kids e <> [] -> Forall (fun e => e_kids e <> []) xs2 ->
  (length ks2 + nkids xs2 < fuel)%nat ->
  exists m' hs' t' bls' r, odead_in fuel m t (oitem t (nlen xs1)) alive (nlen xs1) (nlen ks1) = Some (m', t') /\
    well m' hs' (oblocks t' bls' ++ live) /\ otab m' t' (xs1 ++ r) bls' /\ msize m' = msize m /\
    (forall b, (1 <= cov b live)%nat -> mb m' b = mb m b) /\
    ((r = [] /\ l_odead alive (e :: xs2) = []) \/
     (exists e' xs2', r = e' :: xs2' /\ l_odead alive (e :: xs2) = e' :: l_odead alive xs2' /\
        (length xs2' <= length xs2)%nat /\ (nkids xs2' <= nkids xs2)%nat /\ Forall (fun e => e_kids e <> []) xs2')).
Proof.
  intros alive. induction fuel as [|f IH]; intros m hs live t xs1 e xs2 bls ks1 ks2 W T Ek Fa Hne F2 Hf; [lia|].
  cbn [odead_in].
  destruct (ofocus _ _ _ _ _ _ _ _ W T) as (b1 & b2 & xo & kt & kbls & Eb & Hl & Hxo & Hxo2 & Hrd & Hms & Hty & Eo & KT & Ok1 & Ok2 & KW & Hto & Hi & Hin).
  unfold okids in Eo. destruct (rd64 m (oitem t (nlen xs1) + 16)) as [ko|]; [|discriminate Eo]. cbn [obind] in *.
  destruct (rd32 m (oitem t (nlen xs1) + 24)) as [kc|]; [|discriminate Eo]. cbn [obind] in *. apply Some_inj in Eo.
  pose proof (tr_cnt _ _ _ _ _ _ _ KT) as Hkc. rewrite <- Eo in Hkc. cbn [t_cnt] in Hkc. rewrite Hkc, Ek, nlen_app.
  destruct ks2 as [|k ks2].
  - change (nlen (@nil words)) with 0. rewrite N.add_0_r, N.ltb_irrefl. rewrite app_nil_r in Ek.
    exists m, hs, t, bls, (e :: xs2). split; [reflexivity|]. split; [exact W|]. split; [exact T|]. split; [reflexivity|]. split; [reflexivity|].
    right. exists e, xs2. split; [reflexivity|]. split; [|split; [lia|]; split; [lia|exact F2]].
    rewrite l_odead_cons, Ek, (keep_all _ _ Fa). rewrite <- Ek. destruct e as [[p ty] ks]. cbn [e_kids e_path e_type fst snd] in *.
    destruct ks; [contradiction|reflexivity].
  - replace (nlen ks1 <? nlen ks1 + nlen (k :: ks2)) with true by (symmetry; apply N.ltb_lt; unfold nlen; cbn [length]; lia).
    pose proof KT as KT'. rewrite Ek in KT'. destruct (kid_fields _ _ _ _ _ _ _ _ KW KT') as (_ & Hfld & _). rewrite <- Eo in Hfld.
    rewrite Hkc, Ek, nlen_app in Hfld. rewrite Hfld by (unfold kid_cid; lia). cbn [obind].
    destruct (alive (word k kid_cid)) eqn:Ea.
    + assert (Hn : nlen ks1 + 1 = nlen (ks1 ++ [k])) by (rewrite nlen_app; reflexivity). rewrite Hn.
      apply (IH m hs live t xs1 e xs2 bls (ks1 ++ [k]) ks2 W T); [rewrite <- app_assoc; exact Ek| |exact Hne|exact F2|cbn [length] in Hf; lia].
      apply Forall_app. split; [exact Fa|]. constructor; [exact Ea|constructor].
    + destruct (oper_free_spec _ _ _ _ _ _ _ _ _ _ _ W T Ek) as (m1 & hs1 & t1 & bls1 & E1 & W1 & T1 & Z1 & F1 & Ho1 & Hst).
      rewrite E1. cbn [obind fst snd]. unfold drop_kid in T1.
      destruct (ks1 ++ ks2) as [|k0 kr] eqn:Eks.
      * assert (ks1 = [] /\ ks2 = []) as (-> & ->) by (destruct ks1; destruct ks2; try discriminate Eks; split; reflexivity).
        destruct xs2 as [|e2 xs3].
        -- (* the last item: what is read is the freed memory *)
           destruct (Hst eq_refl eq_refl) as (Bs & Hbs). unfold osz in Hbs. destruct f as [|f]; [cbn [length] in Hf; lia|]. cbn [odead_in].
           assert (R1 : exists v, rd64 m1 (oitem t (nlen xs1) + 16) = Some v).
           { unfold rd64, rd32. replace (oitem t (nlen xs1) + 16 + 4 <=? msize m1) with true by (symmetry; apply N.leb_le; lia).
             replace (oitem t (nlen xs1) + 16 + 4 + 4 <=? msize m1) with true by (symmetry; apply N.leb_le; lia). cbn [obind]. eexists; reflexivity. }
           destruct R1 as (v & ->). cbn [obind]. rewrite (rd32_bytes _ _ 0 Bs) by (unfold two32; lia). cbn [obind].
           change (nlen (@nil words) <? 0) with false. cbv iota.
           exists m1, hs1, t1, bls1, []. split; [reflexivity|]. split; [exact W1|]. split; [exact T1|]. split; [exact Z1|]. split; [exact F1|].
           left. split; [reflexivity|]. rewrite l_odead_cons, Ek. unfold keep_kids. cbn [app filter]. rewrite Ea. reflexivity.
        -- (* the next item is there now *)
           inversion F2 as [|? ? Fe2 F3]; subst.
           assert (Hcn : t_cnt t1 <> 0) by (rewrite (tr_cnt _ _ _ _ _ _ _ T1), nlen_app; unfold nlen; cbn [length]; lia).
           assert (Eoi : oitem t (nlen xs1) = oitem t1 (nlen xs1)) by (unfold oitem; rewrite (Ho1 Hcn); reflexivity). rewrite Eoi.
           destruct (IH m1 hs1 live t1 xs1 e2 xs3 bls1 [] (e_kids e2) W1 T1 eq_refl ltac:(constructor) Fe2 F3) as (m' & hs' & t' & bls' & r & E2 & W2 & T2 & Z2 & Fr & Hr).
           { cbn [nkids fold_right length] in Hf. unfold nkids. lia. }
           exists m', hs', t', bls', r. split; [exact E2|]. split; [exact W2|]. split; [exact T2|]. split; [congruence|].
           split; [intros b Hb; rewrite Fr, F1 by assumption; reflexivity|].
           assert (El : l_odead alive (e :: e2 :: xs3) = l_odead alive (e2 :: xs3)).
           { rewrite (l_odead_cons alive e), Ek. unfold keep_kids. cbn [app filter]. rewrite Ea. reflexivity. }
           rewrite El. destruct Hr as [Hr|(e' & x' & R1 & R2 & R3 & R4 & R5)]; [left; exact Hr|right].
           exists e', x'. split; [exact R1|]. split; [exact R2|]. split; [cbn [length]; lia|]. split; [cbn [nkids fold_right]; unfold nkids in *; lia|exact R5].
      * assert (Hcn : t_cnt t1 <> 0) by (rewrite (tr_cnt _ _ _ _ _ _ _ T1), nlen_app; unfold nlen; cbn [length]; lia).
        assert (Eoi : oitem t (nlen xs1) = oitem t1 (nlen xs1)) by (unfold oitem; rewrite (Ho1 Hcn); reflexivity). rewrite Eoi.
        destruct (IH m1 hs1 live t1 xs1 (e_path e, e_type e, k0 :: kr) xs2 bls1 ks1 ks2 W1 T1) as (m' & hs' & t' & bls' & r & E2 & W2 & T2 & Z2 & Fr & Hr).
        { cbn [e_kids snd]. symmetry. exact Eks. }
        { exact Fa. }
        { cbn [e_kids snd]. discriminate. }
        { exact F2. }
        { cbn [length] in Hf. lia. }
        exists m', hs', t', bls', r. split; [exact E2|]. split; [exact W2|]. split; [exact T2|]. split; [congruence|].
        split; [intros b Hb; rewrite Fr, F1 by assumption; reflexivity|].
        assert (El : l_odead alive (e :: xs2) = l_odead alive ((e_path e, e_type e, k0 :: kr) :: xs2)).
        { rewrite !l_odead_cons. cbn [e_kids e_path e_type fst snd]. rewrite Ek, keep_drop by exact Ea. rewrite Eks. reflexivity. }
        rewrite El. exact Hr.
Qed.

Lemma odead_out_spec : forall alive fuel n m hs live t xs1 xs2 bls,
  well m hs (oblocks t bls ++ live) -> otab m t (xs1 ++ xs2) bls -> Forall (fun e => e_kids e <> []) xs2 ->
  (length xs2 < n)%nat -> (nkids xs2 < fuel)%nat ->
  exists m' hs' t' bls', odead_out n fuel m t alive (nlen xs1) = Some (m', t') /\
    well m' hs' (oblocks t' bls' ++ live) /\ otab m' t' (xs1 ++ l_odead alive xs2) bls' /\ msize m' = msize m /\
    (forall b, (1 <= cov b live)%nat -> mb m' b = mb m b).
Proof.
  intros alive fuel. induction n as [|n IH]; intros m hs live t xs1 xs2 bls W T F Hn Hf; [lia|]. cbn [odead_out].
  rewrite (tr_cnt _ _ _ _ _ _ _ T), nlen_app. destruct xs2 as [|e r].
  - change (nlen (@nil oent)) with 0. rewrite N.add_0_r, N.ltb_irrefl.
    exists m, hs, t, bls. split; [reflexivity|]. split; [exact W|]. split; [exact T|]. split; reflexivity.
  - replace (nlen xs1 <? nlen xs1 + nlen (e :: r)) with true by (symmetry; apply N.ltb_lt; unfold nlen; cbn [length]; lia).
    inversion F as [|? ? Fe Fr]; subst.
    destruct (odead_in_spec alive fuel m hs live t xs1 e r bls [] (e_kids e) W T eq_refl ltac:(constructor) Fe Fr) as (m1 & hs1 & t1 & bls1 & r1 & E1 & W1 & T1 & Z1 & F1 & Hr).
    { cbn [nkids fold_right] in Hf. unfold nkids. lia. }
    change (nlen (@nil words)) with 0 in E1. rewrite E1. cbn [obind fst snd].
    destruct Hr as [(-> & El)|(e' & x' & -> & El & L1 & L2 & L3)].
    + destruct n as [|n]; [cbn [length] in Hn; lia|]. cbn [odead_out]. rewrite (tr_cnt _ _ _ _ _ _ _ T1), app_nil_r.
      replace (nlen xs1 + 1 <? nlen xs1) with false by (symmetry; apply N.ltb_ge; lia).
      exists m1, hs1, t1, bls1. split; [reflexivity|]. split; [exact W1|]. split; [rewrite El; exact T1|]. split; [exact Z1|exact F1].
    + assert (T1' : otab m1 t1 ((xs1 ++ [e']) ++ x') bls1) by (rewrite <- app_assoc; exact T1).
      assert (Hx : nlen xs1 + 1 = nlen (xs1 ++ [e'])) by (rewrite nlen_app; reflexivity). rewrite Hx.
      destruct (IH m1 hs1 live t1 (xs1 ++ [e']) x' bls1 W1 T1' L3) as (m2 & hs2 & t2 & bls2 & E2 & W2 & T2 & Z2 & F2).
      { cbn [length] in Hn. lia. }
      { cbn [nkids fold_right] in Hf. unfold nkids in *. lia. }
      exists m2, hs2, t2, bls2. split; [exact E2|]. split; [exact W2|]. split; [rewrite El; rewrite <- app_assoc in T2; exact T2|]. split; [congruence|].
      intros b Hb. rewrite F2, F1 by assumption. reflexivity.
Qed.

Lemma oper_dead_spec : forall alive fuel m hs live t xs bls,
  well m hs (oblocks t bls ++ live) -> otab m t xs bls -> Forall (fun e => e_kids e <> []) xs ->
  (length xs < fuel)%nat -> (nkids xs < fuel)%nat ->
  exists m' hs' t' bls', oper_remove_dead fuel m t alive = Some (m', t') /\
    well m' hs' (oblocks t' bls' ++ live) /\ otab m' t' (l_odead alive xs) bls' /\ msize m' = msize m /\
    (forall b, (1 <= cov b live)%nat -> mb m' b = mb m b).
Proof.
  intros alive fuel m hs live t xs bls W T F H1 H2. unfold oper_remove_dead.
  exact (odead_out_spec alive fuel fuel m hs live t [] xs bls W T F H1 H2).
Qed.

Lemma l_odead_kids : forall alive l, Forall (fun e => e_kids e <> []) (l_odead alive l).
Proof.
  intros alive l. induction l as [|e r IH]; [constructor|]. rewrite l_odead_cons.
  destruct (keep_kids alive (e_kids e)); [exact IH|]. constructor; [cbn; discriminate|exact IH].
Qed.
