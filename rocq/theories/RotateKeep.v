(** Nothing is lost. *)
From Coq Require Import String Ascii NArith ZArith List Bool Lia.
From Verif Require Import Rotate RotateSpec RotateStr RotateProofs.
Import ListNotations.
Local Open Scope N_scope.

Definition linked (s : state) (i : N) : Prop := (exists y, dir s y = Some i) \/ (exists k, In (k, File i) (arch s)).

Record Keep (D : N) (s : state) : Prop := MkKeep {
  k_link : forall m w, wr s m = Some w -> match w with WFd _ i _ | WNew i _ => linked s i | WRen _ _ => True end;
  k_arch : forall k v, In (k, v) (arch s) -> nto (snd k) + D < now s /\
             match v with File i => dir s (snd k) = None /\ i < nino s | Copy l => forall i, dir s (snd k) = Some i -> incl l (data s i) end;
  k_tar : forall cur x, rot s = RTar cur x -> wr s (nmod x) = None /\
            exists k l, In (k, Copy l) (arch s) /\ snd k = x /\ forall i, dir s x = Some i -> incl (data s i) l;
  k_all : forall n, In n (written s) -> served s n \/ archived s n
}.

(** A name whose time is recent is not in the archive *)
Lemma fresh_name : forall D s z, Keep D s -> now s <= nto z + D -> forall k v, In (k, v) (arch s) -> snd k <> z.
Proof. intros D s z K L k v I E. destruct (k_arch _ _ K k v I) as [A _]. rewrite E in A. lia. Qed.

(** The archive and the files of others grow *)
Lemma covered_mono : forall s s' n, (forall x i, dir s x = Some i -> In n (data s i) -> served s' n \/ archived s' n) ->
  (forall k v, In (k, v) (arch s) -> In n (match v with File i => data s i | Copy l => l end) -> served s' n \/ archived s' n) ->
  served s n \/ archived s n -> served s' n \/ archived s' n.
Proof. intros s s' n H1 H2 [(x & i & E & I)|(k & v & E & I)]; eauto. Qed.

Lemma step_keep : forall D im s e s', Base D im s -> Keep D s -> timely D s e -> apart s e -> step s e = Some s' -> Keep D s'.
Proof.
  intros D im s e s' B K T A H. destruct e as [d|m n x|m n|m|m|c| |x ok| |]; cbn [step timely apart] in *.
  - injection H as <-. destruct K. constructor; cbn [now dir data nino wr rot conf arch written]; auto.
    intros k v I. destruct (k_arch0 k v I) as [Q1 Q2]. split; [lia|exact Q2].
  - destruct (wr s m) as [w|] eqn:W; [discriminate|]. destruct (dir s x) as [i|] eqn:E; [|discriminate].
    destruct (String.eqb (nmod x) m) eqn:M; [|discriminate]. injection H as <-.
    constructor; cbn [now dir data nino wr rot conf arch written]; try apply K.
    + intros m' w H. destruct (str_dec m' m) as [->|Em].
      * rewrite sset_same in H. injection H as <-. left. exists x. exact E.
      * rewrite sset_other in H by exact Em. apply (k_link _ _ K m' w H).
    + intros cur y R. destruct (k_tar _ _ K cur y R) as [Q1 Q2]. split; [|exact Q2].
      rewrite sset_other; [exact Q1|]. apply (A cur y R).
  - destruct (wr s m) as [w|] eqn:W; [discriminate|]. destruct T as (T1 & T2 & T3).
    destruct (dir s (m, snd n, snd n)) as [i|] eqn:E; injection H as <-; [exact K|].
    set (z := (m, snd n, snd n)) in *.
    pose proof (fresh_name D s z K T3) as Fr.
    assert (forall y j, dir s y = Some j -> y <> z /\ j <> nino s) as O.
    { intros y j H. split; [intros ->; congruence|]. apply (b_dir _ _ _ B) in H. lia. }
    assert (forall y j, dir s y = Some j -> dset (dir s) z (Some (nino s)) y = Some j) as G.
    { intros y j H. rewrite dset_other by (apply (O y j H)). exact H. }
    constructor; cbn [now dir data nino wr rot conf arch written].
    + intros m' w H. destruct (str_dec m' m) as [->|Em].
      * rewrite sset_same in H. injection H as <-. left. exists z. cbn [dir]. apply dset_same.
      * rewrite sset_other in H by exact Em. pose proof (k_link _ _ K m' w H) as Q. destruct w as [y j n'|j n'|y n']; [| |exact Q].
        -- destruct Q as [(y' & Q)|Q]; [left; exists y'; apply G; exact Q|right; exact Q].
        -- destruct Q as [(y' & Q)|Q]; [left; exists y'; apply G; exact Q|right; exact Q].
    + intros k v I. destruct (k_arch _ _ K k v I) as [Q1 Q2]. split; [exact Q1|]. rewrite dset_other by (apply (Fr k v I)).
      destruct v as [i|l]; [split; [tauto|lia]|]. intros i Hi. rewrite iset_other by (apply (O _ _ Hi)). apply Q2. exact Hi.
    + intros cur y R. destruct (k_tar _ _ K cur y R) as (Q1 & k & l & Q2 & Q3 & Q4). pose proof (A cur y R) as Ne.
      split; [rewrite sset_other by exact Ne; exact Q1|]. exists k, l. split; [exact Q2|]. split; [exact Q3|].
      rewrite dset_other by (intros ->; apply Ne; reflexivity). intros i Hi. rewrite iset_other by (apply (O _ _ Hi)). apply Q4. exact Hi.
    + intros n' I. refine (covered_mono s _ n' _ _ (k_all _ _ K n' I)).
      * intros y j Hy Ij. left. exists y, j. cbn [dir data]. rewrite iset_other by (apply (O _ _ Hy)). auto.
      * intros k v Ik Iv. right. exists k, v. cbn [arch data]. split; [exact Ik|]. destruct v as [i|l]; [|exact Iv].
        rewrite iset_other; [exact Iv|]. destruct (k_arch _ _ K _ _ Ik) as (_ & _ & Q). lia.
  - destruct (wr s m) as [w|] eqn:W; [|discriminate].
    assert (forall i n w', wok im s m w -> match w with WFd _ j _ | WNew j _ => j = i | _ => False end -> w' = None \/ (exists y, w' = Some (WRen y n)) ->
      Keep D (St (now s) (dir s) (iset (data s) i (data s i ++ [n])) (nino s) (sset (wr s) m w') (rot s) (conf s) (arch s) (cnt s) (last s) (n :: written s) (alog s))) as G.
    { intros i n w' Wk Wi Ww.
      assert (im i = m /\ linked s i) as [Im Li].
      { pose proof (k_link _ _ K m w W) as Q. destruct w as [y j n'|j n'|y n']; cbn [wok] in Wk; [| |contradiction]; subst j; tauto. }
      constructor; cbn [now dir data nino wr rot conf arch written].
      - intros m' u Hu. destruct (str_dec m' m) as [->|Em].
        + rewrite sset_same in Hu. subst w'. destruct Ww as [Ww|(y & Ww)]; [discriminate|]. injection Ww as ->. exact Logic.I.
        + rewrite sset_other in Hu by exact Em. apply (k_link _ _ K m' u Hu).
      - intros k v I. destruct (k_arch _ _ K k v I) as [Q1 Q2]. split; [exact Q1|]. destruct v as [j|l]; [exact Q2|].
        intros j Hj a Ia. apply put_mono. apply (Q2 j Hj a Ia).
      - intros cur y R. destruct (k_tar _ _ K cur y R) as (Q1 & k & l & Q2 & Q3 & Q4).
        assert (nmod y <> m) as Ne by (intro X; rewrite X in Q1; congruence).
        split; [rewrite sset_other by exact Ne; exact Q1|]. exists k, l. split; [exact Q2|]. split; [exact Q3|].
        intros j Hj. rewrite iset_other; [apply Q4; exact Hj|]. intros ->. apply (b_dir _ _ _ B) in Hj. destruct Hj as (_ & _ & Hj & _). congruence.
      - intros n' [<-|I].
        + destruct Li as [(y & Hy)|(k & Hk)].
          * left. exists y, i. cbn [dir data]. rewrite iset_same. split; [exact Hy|]. apply in_app_iff. right. left. reflexivity.
          * right. exists k, (File i). cbn [arch data]. rewrite iset_same. split; [exact Hk|]. apply in_app_iff. right. left. reflexivity.
        + refine (covered_mono s _ n' _ _ (k_all _ _ K n' I)).
          * intros y j Hy Ij. left. exists y, j. cbn [dir data]. split; [exact Hy|apply put_mono; exact Ij].
          * intros k v Ik Iv. right. exists k, v. cbn [arch data]. split; [exact Ik|]. destruct v as [j|l]; [apply put_mono; exact Iv|exact Iv]. }
    pose proof (b_wr _ _ _ B m w W) as Wk.
    destruct w as [x i n|i n|x n]; [| |discriminate]; injection H as <-.
    + apply (G i n); [exact Wk|reflexivity|right; exists x; reflexivity].
    + apply (G i n); [exact Wk|reflexivity|left; reflexivity].
  - destruct (wr s m) as [w|] eqn:W; [|discriminate]. destruct w as [x i n|i n|x n]; try discriminate.
    pose proof (b_wr _ _ _ B m _ W) as O. cbn [wok] in O. destruct O as [O1 O2]. specialize (T x n eq_refl).
    assert (Keep D (St (now s) (dir s) (data s) (nino s) (sset (wr s) m None) (rot s) (conf s) (arch s) (cnt s) (last s) (written s) (alog s))) as K0.
    { constructor; cbn [now dir data nino wr rot conf arch written]; try apply K.
      - intros m' w Hu. destruct (str_dec m' m) as [->|Em]; [rewrite sset_same in Hu; discriminate|].
        rewrite sset_other in Hu by exact Em. apply (k_link _ _ K m' w Hu).
      - intros cur y R. destruct (k_tar _ _ K cur y R) as [Q1 Q2]. split; [|exact Q2].
        destruct (str_dec (nmod y) m) as [Em|Em]; [rewrite Em; apply sset_same|rewrite sset_other by exact Em; exact Q1]. }
    destruct (snd n <=? nto x) eqn:Le; [injection H as <-; exact K0|]. apply N.leb_gt in Le.
    destruct (dir s x) as [i|] eqn:E; injection H as <-; [|exact K0].
    set (z := (nmod x, nfrom x, snd n)).
    assert (now s <= nto z + D) as Tz by exact T. pose proof (fresh_name D s z K Tz) as Fr.
    assert (z <> x) as Zx. { intro X. assert (nto z = nto x) as Y by (rewrite X; reflexivity). unfold z in Y. unfold nto at 1 in Y. cbn [snd] in Y. lia. }
    assert (dir s z = None) as Nz.
    { destruct (dir s z) as [j|] eqn:Q; [|reflexivity]. exfalso. destruct x as [[mx ax] bx]. unfold z, nmod, nfrom, nto in *. cbn [fst snd] in *.
      pose proof (b_uniq _ _ _ B mx ax _ _ _ _ Q E). lia. }
    assert (forall y j, dir s y = Some j -> exists y', dset (dset (dir s) x None) z (Some i) y' = Some j) as G.
    { intros y j H. destruct (name_dec y x) as [->|Ex].
      - exists z. rewrite dset_same. congruence.
      - exists y. rewrite dset_other by (intros ->; congruence). rewrite dset_other by exact Ex. exact H. }
    assert (forall y, y <> z -> forall j, dset (dset (dir s) x None) z (Some i) y = Some j -> dir s y = Some j) as G2.
    { intros y Ez j H. rewrite dset_other in H by exact Ez. destruct (name_dec y x) as [->|Ex]; [rewrite dset_same in H; discriminate|].
      rewrite dset_other in H by exact Ex. exact H. }
    constructor; cbn [now dir data nino wr rot conf arch written].
    + intros m' w H. pose proof (k_link _ _ K0 m' w H) as Q. destruct w as [y j n'|j n'|y n']; [| |exact Q].
      * destruct Q as [(y' & Q)|Q]; [left; apply (G y' j Q)|right; exact Q].
      * destruct Q as [(y' & Q)|Q]; [left; apply (G y' j Q)|right; exact Q].
    + intros k v I. destruct (k_arch _ _ K k v I) as [Q1 Q2]. split; [exact Q1|]. pose proof (Fr k v I) as Nk. destruct v as [j|l].
      * destruct Q2 as [Q2 Q3]. split; [|exact Q3]. destruct (dset (dset (dir s) x None) z (Some i) (snd k)) as [j'|] eqn:X; [|reflexivity].
        apply (G2 _ Nk) in X. congruence.
      * intros j Hj. apply Q2. apply (G2 _ Nk). exact Hj.
    + intros cur y R. destruct (k_tar _ _ K0 cur y R) as (Q1 & k & l & Q2 & Q3 & Q4). split; [exact Q1|]. exists k, l. split; [exact Q2|].
      split; [exact Q3|]. intros j Hj. apply Q4. apply (G2 y); [|exact Hj]. subst y. apply (Fr k _ Q2).
    + intros n' I. refine (covered_mono s _ n' _ _ (k_all _ _ K n' I)).
      * intros y j Hy Ij. left. destruct (G y j Hy) as (y' & Hy'). exists y', j. auto.
      * intros k v Ik Iv. right. exists k, v. auto.
  - injection H as <-. destruct K. constructor; cbn [now dir data nino wr rot conf arch written]; auto.
  - destruct (rot s) eqn:R; [| |discriminate]; injection H as <-; destruct K;
      constructor; cbn [now dir data nino wr rot conf arch written]; auto; discriminate.
  - destruct (rot s) as [|cur|] eqn:R; try discriminate. injection H as <-.
    destruct (rotate_cases D im s cur x ok B R) as [->|(i & E & Du & ->)]; [exact K|].
    pose proof (b_rot _ _ _ B) as Rc. rewrite R in Rc. pose proof (b_conf _ _ _ B) as Cf.
    assert (nto x + D < cur) as L by (apply (due_true D _ _ (c_rt (conf s)) Cf Du)).
    destruct (b_dir _ _ _ B x i E) as (_ & Li & _ & _).
    assert (forall t v k' v', In (k', v') (arch s) -> In (k', v') (put (arch s) (c_dir (conf s), t, x) v) \/ (snd k' = x /\ exists l, v' = Copy l /\ incl l (data s i))) as G.
    { intros t v k' v' I. destruct (keqb k' (c_dir (conf s), t, x)) eqn:X.
      - apply keqb_eq in X. right. destruct (k_arch _ _ K k' v' I) as [_ Q]. subst k'. cbn [snd] in Q |- *. split; [reflexivity|].
        destruct v' as [j|l]; [destruct Q; congruence|]. exists l. split; [reflexivity|]. apply Q. exact E.
      - left. apply put_in. right. split; [exact I|]. intros Y. apply keqb_eq in Y. congruence. }
    destruct (c_tar (conf s)) eqn:Ct.
    + assert (forall t v j, linked s j -> (exists y, dir s y = Some j) \/ (exists k, In (k, File j) (put (arch s) (c_dir (conf s), t, x) v))) as GL.
      { intros t v j [Q|(k & Q)]; [left; exact Q|]. right. destruct (G t v k _ Q) as [Q'|(_ & l & Q' & _)]; [exists k; exact Q'|discriminate]. }
      constructor; cbn [now dir data nino wr rot conf arch written].
      * intros m' w H. pose proof (k_link _ _ K m' w H) as Q. destruct w; auto; apply GL; exact Q.
      * intros k v I. apply put_in in I. destruct I as [I|[I _]]; [|apply (k_arch _ _ K k v I)].
        injection I as -> ->. cbn [snd]. split; [lia|]. intros j Hj. rewrite E in Hj. injection Hj as <-. apply incl_refl.
      * intros cur' y X. injection X as <- <-. split; [apply A; reflexivity|].
        exists (c_dir (conf s), true, x), (data s i).
        split; [apply put_in; left; reflexivity|]. split; [reflexivity|]. intros j Hj. rewrite E in Hj. injection Hj as <-. apply incl_refl.
      * intros n' I. refine (covered_mono s _ n' _ _ (k_all _ _ K n' I)).
        -- intros y j Hy Ij. left. exists y, j. auto.
        -- intros k v Ik Iv. right. destruct (G true (Copy (data s i)) k v Ik) as [Q|(_ & l & -> & Q)].
           ++ exists k, v. auto.
           ++ exists (c_dir (conf s), true, x), (Copy (data s i)). split; [apply put_in; left; reflexivity|]. apply Q. exact Iv.
    + assert (forall y j, dir s y = Some j -> dset (dir s) x None y = Some j \/ (y = x /\ j = i)) as GD.
      { intros y j Hy. destruct (name_dec y x) as [->|Ex]; [right; split; congruence|]. left. rewrite dset_other by exact Ex. exact Hy. }
      assert (forall y j, dset (dir s) x None y = Some j -> dir s y = Some j) as GD'.
      { intros y j Hy. destruct (name_dec y x) as [->|Ex]; [rewrite dset_same in Hy; discriminate|]. rewrite dset_other in Hy by exact Ex. exact Hy. }
      assert (forall j, linked s j -> (exists y, dset (dir s) x None y = Some j) \/ (exists k, In (k, File j) (put (arch s) (c_dir (conf s), false, x) (File i)))) as GL.
      { intros j [(y & Q)|(k & Q)].
        - destruct (GD y j Q) as [Q'|[_ ->]]; [left; exists y; exact Q'|]. right. eexists. apply put_in. left. reflexivity.
        - right. destruct (G false (File i) k _ Q) as [Q'|(_ & l & Q' & _)]; [exists k; exact Q'|discriminate]. }
      constructor; cbn [now dir data nino wr rot conf arch written].
      * intros m' w H. pose proof (k_link _ _ K m' w H) as Q. destruct w; auto; apply GL; exact Q.
      * intros k v I. apply put_in in I. destruct I as [I|[I _]].
        -- injection I as -> ->. cbn [snd]. split; [lia|]. split; [apply dset_same|exact Li].
        -- destruct (k_arch _ _ K k v I) as [Q1 Q2]. split; [exact Q1|]. destruct v as [j|l].
           ++ destruct Q2 as [Q2 Q3]. split; [|exact Q3]. destruct (dset (dir s) x None (snd k)) as [j'|] eqn:X; [|reflexivity].
              apply GD' in X. congruence.
           ++ intros j Hj. apply Q2. apply GD'. exact Hj.
      * discriminate.
      * intros n' I. refine (covered_mono s _ n' _ _ (k_all _ _ K n' I)).
        -- intros y j Hy Ij. destruct (GD y j Hy) as [Q|[_ ->]]; [left; exists y, j; auto|]. right.
           exists (c_dir (conf s), false, x), (File i). split; [apply put_in; left; reflexivity|exact Ij].
        -- intros k v Ik Iv. right. destruct (G false (File i) k v Ik) as [Q|(_ & l & -> & Q)].
           ++ exists k, v. auto.
           ++ exists (c_dir (conf s), false, x), (File i). split; [apply put_in; left; reflexivity|]. apply Q. exact Iv.
  - destruct (rot s) as [| |cur x] eqn:R; try discriminate. injection H as <-.
    destruct (k_tar _ _ K cur x R) as (Q1 & k0 & l0 & Q2 & Q3 & Q4).
    assert (forall y j, dir s y = Some j -> dset (dir s) x None y = Some j \/ y = x) as GD.
    { intros y j Hy. destruct (name_dec y x) as [->|Ex]; [right; reflexivity|]. left. rewrite dset_other by exact Ex. exact Hy. }
    assert (forall y j, dset (dir s) x None y = Some j -> dir s y = Some j) as GD'.
    { intros y j Hy. destruct (name_dec y x) as [->|Ex]; [rewrite dset_same in Hy; discriminate|]. rewrite dset_other in Hy by exact Ex. exact Hy. }
    assert (forall m i, im i = m -> m <> nmod x -> linked s i -> (exists y, dset (dir s) x None y = Some i) \/ (exists k, In (k, File i) (arch s))) as GL.
    { intros m i Im Ne [(y & Q)|Q]; [|right; exact Q]. left. exists y. destruct (GD y i Q) as [Q'| ->]; [exact Q'|].
      exfalso. apply (b_dir _ _ _ B) in Q. destruct Q as (_ & _ & Q & _). congruence. }
    constructor; cbn [now dir data nino wr rot conf arch written].
    + intros m w H. pose proof (k_link _ _ K m w H) as Q. pose proof (b_wr _ _ _ B m w H) as Wk.
      assert (m <> nmod x) as Ne by (intros ->; congruence).
      destruct w as [y j n'|j n'|y n']; cbn [wok] in Wk; [apply (GL m); tauto|apply (GL m); tauto|exact Logic.I].
    + intros k v I. destruct (k_arch _ _ K k v I) as [P1 P2]. split; [exact P1|]. destruct v as [j|l].
      * destruct P2 as [P2 P3]. split; [|exact P3]. destruct (dset (dir s) x None (snd k)) as [j'|] eqn:X; [|reflexivity].
        apply GD' in X. congruence.
      * intros j Hj. apply P2. apply GD'. exact Hj.
    + discriminate.
    + intros n' I. refine (covered_mono s _ n' _ _ (k_all _ _ K n' I)).
      * intros y j Hy Ij. destruct (GD y j Hy) as [Q| ->]; [left; exists y, j; auto|]. right. exists k0, (Copy l0). split; [exact Q2|].
        apply (Q4 j Hy). exact Ij.
      * intros k v Ik Iv. right. exists k, v. auto.
  - injection H as <-. destruct K. constructor; cbn [now dir data nino wr rot conf arch written]; auto. discriminate.
Qed.

Lemma reach_keep : forall D s, reach D apart s -> Keep D s.
Proof.
  intros D s R. induction R as [c H|s e s' R K T A H].
  - constructor; cbn; try discriminate; intros; contradiction.
  - destruct (reach_base _ _ _ R) as (im & B). apply (step_keep D im s e s' B K T A H).
Qed.

(** Archived files are old *)
Definition old_log (s : state) : Prop := forall cur rt x l, In (cur, rt, x, l) (alog s) ->
  (Z.of_N (nto x) + rt < Z.of_N cur)%Z /\ cur <= now s.
Definition old_notifs (s : state) : Prop := forall cur rt x l n, In (cur, rt, x, l) (alog s) -> In n l -> snd n <= nto x.

Lemma due_Z : forall cur t rt, due cur t rt = true -> (Z.of_N t + rt < Z.of_N cur)%Z.
Proof. intros cur t rt E. unfold due in E. apply andb_true_iff in E. destruct E as [E1 E2]. apply Z.ltb_lt in E2. lia. Qed.

Lemma step_alog : forall D im s e s', Base D im s -> step s e = Some s' -> now s <= now s' /\
  (alog s' = alog s /\ cnt s' = cnt s \/
   exists cur x i ok, e = ERot x ok /\ rot s = RScan cur /\ dir s x = Some i /\ due cur (nto x) (c_rt (conf s)) = true /\
     alog s' = (cur, c_rt (conf s), x, data s i) :: alog s /\ cnt s' = cnt s + 1).
Proof.
  intros D im s e s' B H. destruct e as [d|m n x|m n|m|m|c| |x ok| |]; cbn [step] in H.
  - injection H as <-. cbn. split; [lia|auto].
  - destruct (wr s m); [discriminate|]. destruct (dir s x); [|discriminate]. destruct (String.eqb (nmod x) m); [|discriminate].
    injection H as <-. cbn. split; [lia|auto].
  - destruct (wr s m); [discriminate|]. destruct (dir s (m, snd n, snd n)); injection H as <-; cbn; (split; [lia|auto]).
  - destruct (wr s m) as [[x i n|i n|x n]|]; try discriminate; injection H as <-; cbn; (split; [lia|auto]).
  - destruct (wr s m) as [[x i n|i n|x n]|]; try discriminate. destruct (snd n <=? nto x); [injection H as <-; cbn; split; [lia|auto]|].
    destruct (dir s x); injection H as <-; cbn; (split; [lia|auto]).
  - injection H as <-. cbn. split; [lia|auto].
  - destruct (rot s); [| |discriminate]; injection H as <-; cbn; (split; [lia|auto]).
  - destruct (rot s) as [|cur|] eqn:R; try discriminate. injection H as <-.
    destruct (rotate_cases D im s cur x ok B R) as [->|(i & E & Du & ->)]; [split; [lia|auto]|].
    destruct (c_tar (conf s)); cbn [now alog cnt]; (split; [lia|]); right; exists cur, x, i, ok; auto 10.
  - destruct (rot s) as [| |cur x]; try discriminate. injection H as <-. cbn. split; [lia|auto].
  - injection H as <-. cbn. split; [lia|auto].
Qed.

Lemma reach_old : forall D P s, reach D P s -> old_log s.
Proof.
  intros D P s R. induction R as [c H|s e s' R IH T A H]; [intros cur rt x l []|].
  destruct (reach_base _ _ _ R) as (im & B).
  destruct (step_alog D im s e s' B H) as [L [[E _]|(cur & x & i & ok & _ & Rs & _ & Du & E & _)]]; unfold old_log; rewrite E.
  - intros cur rt x l I. destruct (IH cur rt x l I). split; [assumption|lia].
  - intros c rt y l [I|I].
    + injection I as <- <- <- <-. split; [apply due_Z; exact Du|]. pose proof (b_rot _ _ _ B) as Q. rewrite Rs in Q. lia.
    + destruct (IH c rt y l I). split; [assumption|lia].
Qed.

Lemma reach_calm : forall D s, reach D calm s -> old_notifs s.
Proof.
  intros D s R. induction R as [c H|s e s' R IH T A H]; [intros cur rt x l n []|].
  destruct (reach_base _ _ _ R) as (im & B).
  destruct (step_alog D im s e s' B H) as [L [[E _]|(cur & x & i & ok & -> & Rs & Dx & Du & E & _)]]; unfold old_notifs; rewrite E; [exact IH|].
  intros c rt y l n [I|I] J; [|apply (IH c rt y l n I J)]. injection I as <- <- <- <-. cbn [calm] in A.
  destruct (b_data _ _ _ B x i n Dx J) as [Q|(n' & Q & _)]; [exact Q|congruence].
Qed.

Lemma reach_cnt : forall D P s, reach D P s -> cnt s = N.of_nat (List.length (alog s)).
Proof.
  intros D P s R. induction R as [c H|s e s' R IH T A H]; [reflexivity|].
  destruct (reach_base _ _ _ R) as (im & B).
  destruct (step_alog D im s e s' B H) as [L [[E ->]|(cur & x & i & ok & _ & _ & _ & _ & E & ->)]]; rewrite E; [exact IH|].
  cbn [List.length]. lia.
Qed.
