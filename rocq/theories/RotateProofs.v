(** Invariants of storing and rotating. *)
From Coq Require Import String Ascii NArith ZArith List Bool Lia.
From Verif Require Import Rotate RotateSpec RotateStr.
Import ListNotations.
Local Open Scope N_scope.

Lemma neqb_eq : forall x y, neqb x y = true <-> x = y.
Proof.
  intros [[m a] b] [[m' a'] b']. unfold neqb, nmod, nfrom, nto. cbn [fst snd].
  rewrite !andb_true_iff, String.eqb_eq, !N.eqb_eq. split.
  - intros [[-> ->] ->]. reflexivity.
  - intro H. injection H as -> -> ->. auto.
Qed.
Lemma name_dec : forall x y : name, x = y \/ x <> y.
Proof.
  intros x y. destruct (neqb x y) eqn:E; [left; apply neqb_eq; exact E|]. right. intros ->.
  assert (neqb y y = true) by (apply neqb_eq; reflexivity). congruence.
Qed.
Lemma dset_same : forall f x v, dset f x v x = v.
Proof. intros f x v. unfold dset. rewrite (proj2 (neqb_eq x x) eq_refl). reflexivity. Qed.
Lemma dset_other : forall f x v y, y <> x -> dset f x v y = f y.
Proof. intros f x v y H. unfold dset. destruct (neqb x y) eqn:E; [|reflexivity]. apply neqb_eq in E. congruence. Qed.
Lemma sset_same : forall A (f : string -> A) x v, sset f x v x = v.
Proof. intros A f x v. unfold sset. rewrite String.eqb_refl. reflexivity. Qed.
Lemma sset_other : forall A (f : string -> A) x v y, y <> x -> sset f x v y = f y.
Proof. intros A f x v y H. unfold sset. destruct (String.eqb x y) eqn:E; [|reflexivity]. apply String.eqb_eq in E. congruence. Qed.
Lemma iset_same : forall f x v, iset f x v x = v.
Proof. intros f x v. unfold iset. rewrite N.eqb_refl. reflexivity. Qed.
Lemma iset_other : forall f x v y, y <> x -> iset f x v y = f y.
Proof. intros f x v y H. unfold iset. destruct (x =? y) eqn:E; [|reflexivity]. apply N.eqb_eq in E. congruence. Qed.
Lemma keqb_eq : forall a b, keqb a b = true <-> a = b.
Proof.
  intros [[d t] x] [[d' t'] x']. unfold keqb. cbn [fst snd]. rewrite !andb_true_iff, String.eqb_eq, eqb_true_iff, neqb_eq.
  split; [intros [[-> ->] ->]; reflexivity|]. intro H. injection H as -> -> ->. auto.
Qed.
Lemma put_in : forall a k v k' v', In (k', v') (put a k v) <-> (k', v') = (k, v) \/ (In (k', v') a /\ k' <> k).
Proof.
  intros a k v k' v'. unfold put. cbn [In]. rewrite filter_In, negb_true_iff. cbn [fst].
  assert (keqb k' k = false <-> k' <> k) as ->.
  { split; [intros E ->; assert (keqb k k = true) by (apply keqb_eq; reflexivity); congruence|].
    intro N. destruct (keqb k' k) eqn:E; [|reflexivity]. apply keqb_eq in E. contradiction. }
  split; intros [H|H]; auto.
Qed.
Lemma str_dec : forall a b : string, a = b \/ a <> b.
Proof. intros a b. destruct (String.eqb a b) eqn:E; [left; apply String.eqb_eq; exact E|right; apply String.eqb_neq; exact E]. Qed.

Lemma put_mono : forall (f : N -> list ntf) i n j x, In x (f j) -> In x (iset f i (f i ++ [n]) j).
Proof.
  intros f i n j x H. destruct (N.eq_dec j i) as [->|E]; [rewrite iset_same; apply in_app_iff; auto|rewrite iset_other; auto].
Qed.

(** What [w] does at module [m], with owners [im] of files *)
Definition wok (im : N -> string) (s : state) (m : string) (w : writer) : Prop :=
  match w with
  | WFd x i n => nmod x = m /\ snd n = last s m /\ i < nino s /\ im i = m /\ (forall y, dir s y = Some i -> y = x)
  | WNew i n => snd n = last s m /\ i < nino s /\ im i = m /\ (forall y, dir s y = Some i -> snd n <= nto y)
  | WRen x n => nmod x = m /\ snd n = last s m
  end.

Record Base (D : N) (im : N -> string) (s : state) : Prop := MkBase {
  b_dir : forall x i, dir s x = Some i -> (nfrom x <= nto x /\ nto x <= last s (nmod x)) /\ i < nino s /\ im i = nmod x /\ has_dot (nmod x) = false;
  b_last : forall m, last s m < 2 ^ 63;
  b_uniq : forall m a b b' i j, dir s (m, a, b) = Some i -> dir s (m, a, b') = Some j -> b = b';
  b_inj : forall x y i, dir s x = Some i -> dir s y = Some i -> x = y;
  b_wr : forall m w, wr s m = Some w -> wok im s m w;
  b_rot : match rot s with RIdle => True | RScan cur => cur <= now s | RTar cur x => cur <= now s /\ nto x + D < cur /\ has_dot (nmod x) = false end;
  b_conf : (Z.of_N D <= c_rt (conf s))%Z;
  b_data : forall x i n, dir s x = Some i -> In n (data s i) ->
             snd n <= nto x \/ exists n', wr s (nmod x) = Some (WRen x n') /\ snd n <= snd n'
}.

Lemma due_true : forall D cur t rt, (Z.of_N D <= rt)%Z -> due cur t rt = true -> t + D < cur.
Proof. intros D cur t rt H E. unfold due in E. apply andb_true_iff in E. destruct E as [E1 E2]. apply Z.leb_le in E1. apply Z.ltb_lt in E2. lia. Qed.

(** What [rotate] does with a file that is there *)
Lemma rotate_cases : forall D im s cur x ok, Base D im s -> rot s = RScan cur ->
  rotate s cur x ok = s \/
  exists i, dir s x = Some i /\ due cur (nto x) (c_rt (conf s)) = true /\
    rotate s cur x ok =
      (if c_tar (conf s)
       then St (now s) (dir s) (data s) (nino s) (wr s) (RTar cur x) (conf s) (put (arch s) (c_dir (conf s), true, x) (Copy (data s i)))
              (cnt s + 1) (last s) (written s) ((cur, c_rt (conf s), x, data s i) :: alog s)
       else St (now s) (dset (dir s) x None) (data s) (nino s) (wr s) (RScan cur) (conf s) (put (arch s) (c_dir (conf s), false, x) (File i))
              (cnt s + 1) (last s) (written s) ((cur, c_rt (conf s), x, data s i) :: alog s)).
Proof.
  intros D im s cur x ok B R. unfold rotate.
  destruct (format_check (fname (nmod x) (nfrom x) (nto x))) as [[t1 t2]|] eqn:F; [|left; reflexivity].
  destruct (due cur t2 (c_rt (conf s))) eqn:Du; [|left; reflexivity].
  destruct (dir s x) as [i|] eqn:E; [|left; reflexivity]. destruct ok; [|left; reflexivity]. right. exists i. split; [reflexivity|].
  destruct (b_dir _ _ _ B x i E) as ((H1 & H2) & _ & _ & H3). pose proof (b_last _ _ _ B (nmod x)) as H4.
  assert (2 ^ 63 < two64) as T by reflexivity.
  rewrite format_ok in F by (first [exact H3|lia]). injection F as <- <-. split; [exact Du|].
  destruct (c_tar (conf s)); reflexivity.
Qed.

(** Dropping a name *)
Lemma base_drop : forall D im s x r a c lg, Base D im s ->
  match r with RIdle => True | RScan cur => cur <= now s | RTar cur y => cur <= now s /\ nto y + D < cur /\ has_dot (nmod y) = false end ->
  Base D im (St (now s) (dset (dir s) x None) (data s) (nino s) (wr s) r (conf s) a c (last s) (written s) lg).
Proof.
  intros D im s x r a c lg B R.
  assert (forall y j, dset (dir s) x None y = Some j -> dir s y = Some j) as G.
  { intros y j H. destruct (name_dec y x) as [->|E]; [rewrite dset_same in H; discriminate|]. rewrite dset_other in H by exact E. exact H. }
  destruct B. constructor; cbn [now dir data nino wr rot conf last]; auto.
  - intros m p b b' i j H H'. apply (b_uniq0 m p b b' i j); auto.
  - intros y z i H H'. apply (b_inj0 y z i); auto.
  - intros m w H. specialize (b_wr0 m w H). destruct w; cbn [wok nino last dir] in *.
    + destruct b_wr0 as (A1 & A2 & A3 & A4 & A5). auto 10.
    + destruct b_wr0 as (A1 & A2 & A3 & A4). auto 10.
    + exact b_wr0.
  - intros y i n H. apply (b_data0 y i n). auto.
Qed.

Lemma step_base : forall D im s e s', Base D im s -> timely D s e -> step s e = Some s' -> exists im', Base D im' s' /\ forall i, i < nino s -> im' i = im i.
Proof.
  intros D im s e s' B T H. destruct e as [d|m n x|m n|m|m|c| |x ok| |]; cbn [step timely] in *.
  - injection H as <-. exists im. split; [|auto]. destruct B. constructor; cbn [now dir data nino wr rot conf last]; auto.
    revert b_rot0. destruct (rot s); intros; [exact Logic.I|lia|]. destruct b_rot0 as (Q1 & Q2 & Q3). repeat split; auto. lia.
  - destruct (wr s m) as [w|] eqn:W; [discriminate|]. destruct (dir s x) as [i|] eqn:E; [|discriminate].
    destruct (String.eqb (nmod x) m) eqn:M; [|discriminate]. injection H as <-. apply String.eqb_eq in M.
    exists im. split; [|auto]. pose proof (b_dir _ _ _ B x i E) as (X1 & X2 & X3 & X4).
    assert (forall m', last s m' <= sset (last s) m (snd n) m') as Lm.
    { intro m'. destruct (str_dec m' m) as [->|Em]; [rewrite sset_same; lia|rewrite sset_other by exact Em; lia]. }
    constructor; cbn [now dir data nino wr rot conf last]; try apply B.
    + intros y j H. destruct (b_dir _ _ _ B y j H) as ((Y1 & Y1') & Y2). split; [|exact Y2]. specialize (Lm (nmod y)). split; lia.
    + intro m'. destruct (str_dec m' m) as [->|Em]; [rewrite sset_same; lia|rewrite sset_other by exact Em; apply B].
    + intros m' w H. destruct (str_dec m' m) as [->|Em].
      * rewrite sset_same in H. injection H as <-. cbn [wok last nino dir]. rewrite sset_same.
        split; [exact M|]. split; [reflexivity|]. split; [exact X2|]. split; [congruence|]. intros y H. apply (b_inj _ _ _ B y x i H E).
      * rewrite sset_other in H by exact Em. apply (b_wr _ _ _ B) in H. destruct w; cbn [wok last nino dir] in *; rewrite sset_other by exact Em; exact H.
    + intros y j n' H I. destruct (b_data _ _ _ B y j n' H I) as [Q|(n2 & Q & Q')]; [left; exact Q|]. right. exists n2. split; [|exact Q'].
      rewrite sset_other; [exact Q|]. intros Em. rewrite Em in Q. congruence.
  - destruct (wr s m) as [w|] eqn:W; [discriminate|]. destruct T as (T1 & T2 & T3).
    destruct (dir s (m, snd n, snd n)) as [i|] eqn:E; injection H as <-; [exists im; split; [exact B|auto]|].
    exists (fun i => if i =? nino s then m else im i).
    assert (forall i, i < nino s -> (if i =? nino s then m else im i) = im i) as Old.
    { intros i L. destruct (i =? nino s) eqn:Q; [apply N.eqb_eq in Q; lia|reflexivity]. }
    split; [|exact Old].
    assert (forall m', last s m' <= sset (last s) m (snd n) m') as Lm.
    { intro m'. destruct (str_dec m' m) as [->|Em]; [rewrite sset_same; lia|rewrite sset_other by exact Em; lia]. }
    assert (forall y j, dset (dir s) (m, snd n, snd n) (Some (nino s)) y = Some j ->
      (y = (m, snd n, snd n) /\ j = nino s) \/ (y <> (m, snd n, snd n) /\ dir s y = Some j)) as G.
    { intros y j H. destruct (name_dec y (m, snd n, snd n)) as [->|Ey]; [rewrite dset_same in H; injection H as <-; auto|].
      rewrite dset_other in H by exact Ey. auto. }
    constructor; cbn [now dir data nino wr rot conf last]; try apply B.
    + intros y j H. destruct (G y j H) as [[-> ->]|[Ey H']].
      * unfold nfrom, nto, nmod. cbn [fst snd]. rewrite sset_same, N.eqb_refl. repeat split; try lia. exact T2.
      * destruct (b_dir _ _ _ B y j H') as ((Y1 & Y1') & Y2 & Y3 & Y4). specialize (Lm (nmod y)).
        split; [split; lia|]. split; [lia|]. rewrite Old by exact Y2. auto.
    + intro m'. destruct (str_dec m' m) as [->|Em]; [rewrite sset_same; lia|rewrite sset_other by exact Em; apply B].
    + assert (forall b j, dir s (m, snd n, b) = Some j -> False) as K.
      { intros b j H. destruct (b_dir _ _ _ B _ _ H) as ((Y1 & Y1') & _). unfold nfrom, nto, nmod in *. cbn [fst snd] in *.
        assert (b = snd n) as -> by lia. congruence. }
      intros m' a b b' i j H H'. destruct (G _ _ H) as [[Q _]|[Q H1]]; destruct (G _ _ H') as [[Q' _]|[Q' H1']].
      * congruence.
      * injection Q as -> -> ->. exfalso. exact (K _ _ H1').
      * injection Q' as -> -> ->. exfalso. exact (K _ _ H1).
      * apply (b_uniq _ _ _ B m' a b b' i j); auto.
    + intros y z i H H'. destruct (G _ _ H) as [[Q Q2]|[Q H1]]; destruct (G _ _ H') as [[Q' Q2']|[Q' H1']].
      * congruence.
      * subst i. apply (b_dir _ _ _ B) in H1'. lia.
      * subst i. apply (b_dir _ _ _ B) in H1. lia.
      * apply (b_inj _ _ _ B y z i); auto.
    + intros m' w H. destruct (str_dec m' m) as [->|Em].
      * rewrite sset_same in H. injection H as <-. cbn [wok last nino dir]. rewrite sset_same, N.eqb_refl.
        split; [reflexivity|]. split; [lia|]. split; [reflexivity|]. intros y Hy. destruct (G _ _ Hy) as [[-> _]|[_ Hy']].
        -- unfold nto. cbn [snd]. lia.
        -- apply (b_dir _ _ _ B) in Hy'. lia.
      * rewrite sset_other in H by exact Em. apply (b_wr _ _ _ B) in H. destruct w; cbn [wok last nino dir] in *; rewrite sset_other by exact Em.
        -- destruct H as (A1 & A2 & A3 & A4 & A5). rewrite Old by exact A3. repeat split; auto; try lia.
           intros y Hy. destruct (G _ _ Hy) as [[_ ->]|[_ Hy']]; [lia|auto].
        -- destruct H as (A1 & A2 & A3 & A4). rewrite Old by exact A2. repeat split; auto; try lia.
           intros y Hy. destruct (G _ _ Hy) as [[_ ->]|[_ Hy']]; [lia|auto].
        -- exact H.
    + intros y j n' H I. destruct (G _ _ H) as [[-> ->]|[Ey H']].
      * rewrite iset_same in I. destruct I.
      * rewrite iset_other in I by (apply (b_dir _ _ _ B) in H'; lia).
        destruct (b_data _ _ _ B y j n' H' I) as [Q|(n2 & Q & Q')]; [left; exact Q|]. right. exists n2. split; [|exact Q'].
        rewrite sset_other; [exact Q|]. intros Em. rewrite Em in Q. congruence.
  - destruct (wr s m) as [w|] eqn:W; [|discriminate]. pose proof (b_wr _ _ _ B m w W) as O. exists im.
    destruct w as [x i n|i n|x n]; [| |discriminate]; injection H as <-; (split; [|auto]); cbn [wok] in O.
    + destruct O as (O1 & O2 & O3 & O4 & O5). constructor; cbn [now dir data nino wr rot conf last]; try apply B.
      * intros m' w H. destruct (str_dec m' m) as [->|Em]; [rewrite sset_same in H; injection H as <-; cbn; auto|].
        rewrite sset_other in H by exact Em. apply (b_wr _ _ _ B m' w H).
      * intros y j n' H I. assert (y = x /\ n' = n \/ In n' (data s j)) as [[-> ->]|I'].
        { destruct (N.eq_dec j i) as [->|Ej]; [|rewrite iset_other in I by exact Ej; auto].
          rewrite iset_same in I. apply in_app_iff in I. destruct I as [I|[<-|[]]]; auto. }
        -- right. exists n. rewrite O1, sset_same. split; [reflexivity|lia].
        -- destruct (b_data _ _ _ B y j n' H I') as [Q|(n2 & Q & Q')]; [left; exact Q|]. right. exists n2. split; [|exact Q'].
           rewrite sset_other; [exact Q|]. intros Em. rewrite Em in Q. congruence.
    + destruct O as (O2 & O3 & O4 & O5). constructor; cbn [now dir data nino wr rot conf last]; try apply B.
      * intros m' w H. destruct (str_dec m' m) as [->|Em]; [rewrite sset_same in H; discriminate|].
        rewrite sset_other in H by exact Em. apply (b_wr _ _ _ B m' w H).
      * intros y j n' H I. assert (j = i /\ n' = n \/ In n' (data s j)) as [[-> ->]|I'].
        { destruct (N.eq_dec j i) as [->|Ej]; [|rewrite iset_other in I by exact Ej; auto].
          rewrite iset_same in I. apply in_app_iff in I. destruct I as [I|[<-|[]]]; auto. }
        -- left. apply O5. exact H.
        -- destruct (b_data _ _ _ B y j n' H I') as [Q|(n2 & Q & Q')]; [left; exact Q|]. right. exists n2. split; [|exact Q'].
           rewrite sset_other; [exact Q|]. intros Em. rewrite Em in Q. congruence.
  - destruct (wr s m) as [w|] eqn:W; [|discriminate]. destruct w as [x i n|i n|x n]; try discriminate.
    pose proof (b_wr _ _ _ B m _ W) as O. cbn [wok] in O. destruct O as [O1 O2]. exists im. split; [|auto].
    assert (forall m' w, sset (wr s) m None m' = Some w -> m' <> m /\ wr s m' = Some w) as Gw.
    { intros m' w Hw. destruct (str_dec m' m) as [->|Em]; [rewrite sset_same in Hw; discriminate|]. rewrite sset_other in Hw by exact Em. auto. }
    destruct (snd n <=? nto x) eqn:Le.
    + injection H as <-. apply N.leb_le in Le. constructor; cbn [now dir data nino wr rot conf last]; try apply B.
      * intros m' w H. apply Gw in H. destruct H as [_ H]. apply (b_wr _ _ _ B m' w H).
      * intros y j n' H I. destruct (b_data _ _ _ B y j n' H I) as [Q|(n2 & Q & Q')]; [left; exact Q|].
        destruct (str_dec (nmod y) m) as [Em|Em]; [|right; exists n2; rewrite sset_other by exact Em; auto].
        left. rewrite Em, W in Q. injection Q as -> ->. lia.
    + apply N.leb_gt in Le. destruct (dir s x) as [i|] eqn:E.
      * injection H as <-. set (z := (nmod x, nfrom x, snd n)).
        destruct (b_dir _ _ _ B x i E) as ((X1 & X1') & X2 & X3 & X4).
        assert (forall y j, dset (dset (dir s) x None) z (Some i) y = Some j -> (y = z /\ j = i) \/ (y <> z /\ y <> x /\ dir s y = Some j)) as G.
        { intros y j H. destruct (name_dec y z) as [->|Ez]; [rewrite dset_same in H; injection H as <-; auto|].
          rewrite dset_other in H by exact Ez. destruct (name_dec y x) as [->|Ex]; [rewrite dset_same in H; discriminate|].
          rewrite dset_other in H by exact Ex. auto. }
        constructor; cbn [now dir data nino wr rot conf last]; try apply B.
        -- intros y j H. destruct (G y j H) as [[-> ->]|(_ & _ & H')]; [|apply (b_dir _ _ _ B y j H')].
           unfold z, nfrom, nto, nmod in *. cbn [fst snd] in *. rewrite <- O1 in O2. repeat split; auto; lia.
        -- assert (forall b j, dir s (nmod x, nfrom x, b) = Some j -> (nmod x, nfrom x, b) <> x -> False) as K.
           { intros b j H Ne. apply Ne. destruct x as [[mx ax] bx]. unfold nmod, nfrom in *. cbn [fst snd] in *.
             rewrite (b_uniq _ _ _ B mx ax b bx j i H E). reflexivity. }
           intros m' a b b' j j' H H'. destruct (G _ _ H) as [[Q _]|(Q & Q2 & H1)]; destruct (G _ _ H') as [[Q' _]|(Q' & Q2' & H1')].
           ++ congruence.
           ++ injection Q as -> -> ->. exfalso. exact (K _ _ H1' Q2').
           ++ injection Q' as -> -> ->. exfalso. exact (K _ _ H1 Q2).
           ++ apply (b_uniq _ _ _ B m' a b b' j j'); auto.
        -- intros y y' j H H'. destruct (G _ _ H) as [[Q Q1]|(Q & Q2 & H1)]; destruct (G _ _ H') as [[Q' Q1']|(Q' & Q2' & H1')].
           ++ congruence.
           ++ subst j. exfalso. apply Q2'. apply (b_inj _ _ _ B y' x i H1' E).
           ++ subst j. exfalso. apply Q2. apply (b_inj _ _ _ B y x i H1 E).
           ++ apply (b_inj _ _ _ B y y' j); auto.
        -- intros m' w H. apply Gw in H. destruct H as [Em H]. apply (b_wr _ _ _ B) in H.
           assert (forall j y, im j = m' -> dset (dset (dir s) x None) z (Some i) y = Some j -> dir s y = Some j) as K.
           { intros j y Hj Hy. destruct (G _ _ Hy) as [[_ ->]|(_ & _ & H')]; [|exact H']. congruence. }
           destruct w; cbn [wok last nino dir] in *.
           ++ destruct H as (A1 & A2 & A3 & A4 & A5). do 4 (split; [assumption|]). intros y Hy. apply A5. apply (K _ _ A4 Hy).
           ++ destruct H as (A1 & A2 & A3 & A4). do 3 (split; [assumption|]). intros y Hy. apply A4. apply (K _ _ A3 Hy).
           ++ exact H.
        -- intros y j n' H I. destruct (G y j H) as [[-> ->]|(Q1 & Q2 & H')].
           ++ left. unfold z, nto. cbn [snd]. destruct (b_data _ _ _ B x i n' E I) as [Q|(n2 & Q & Q')]; [unfold nto in *; lia|].
              rewrite O1, W in Q. injection Q as <-. exact Q'.
           ++ destruct (b_data _ _ _ B y j n' H' I) as [Q|(n2 & Q & Q')]; [left; exact Q|].
              destruct (str_dec (nmod y) m) as [Em|Em]; [|right; exists n2; rewrite sset_other by exact Em; auto].
              rewrite Em, W in Q. injection Q as -> _. contradiction.
      * injection H as <-. constructor; cbn [now dir data nino wr rot conf last]; try apply B.
        -- intros m' w H. apply Gw in H. destruct H as [_ H]. apply (b_wr _ _ _ B m' w H).
        -- intros y j n' H I. destruct (b_data _ _ _ B y j n' H I) as [Q|(n2 & Q & Q')]; [left; exact Q|].
           destruct (str_dec (nmod y) m) as [Em|Em]; [|right; exists n2; rewrite sset_other by exact Em; auto].
           rewrite Em, W in Q. injection Q as -> _. congruence.
  - injection H as <-. exists im. split; [|auto]. destruct B. constructor; cbn [now dir data nino wr rot conf last]; auto.
  - destruct (rot s) eqn:R; [| |discriminate]; injection H as <-; exists im; (split; [|auto]); destruct B;
      constructor; cbn [now dir data nino wr rot conf last]; auto; lia.
  - destruct (rot s) as [|cur|] eqn:R; try discriminate. injection H as <-. exists im.
    destruct (rotate_cases D im s cur x ok B R) as [->|(i & E & Du & ->)]; [auto|].
    pose proof (b_rot _ _ _ B) as Rc. rewrite R in Rc. pose proof (b_conf _ _ _ B) as Cf.
    destruct (c_tar (conf s)); (split; [|auto]).
    + assert (nto x + D < cur) as L by (apply (due_true D _ _ (c_rt (conf s)) Cf Du)).
      destruct (b_dir _ _ _ B x i E) as (_ & _ & _ & Nd).
      destruct B. constructor; cbn [now dir data nino wr rot conf last]; auto.
    + apply base_drop; auto.
  - destruct (rot s) as [| |cur x] eqn:R; try discriminate. injection H as <-. exists im. split; [|auto].
    apply base_drop; [exact B|]. pose proof (b_rot _ _ _ B) as Rc. rewrite R in Rc. tauto.
  - injection H as <-. exists im. split; [|auto]. destruct B. constructor; cbn [now dir data nino wr rot conf last]; auto.
Qed.

Lemma init_base : forall D c, (Z.of_N D <= c_rt c)%Z -> Base D (fun _ => EmptyString) (init c).
Proof. intros D c H. constructor; cbn; try discriminate; auto. intro m. reflexivity. Qed.

Lemma reach_base : forall D P s, reach D P s -> exists im, Base D im s.
Proof.
  intros D P s R. induction R as [c H|s e s' R (im & B) T _ H]; [exists (fun _ => EmptyString); apply init_base; exact H|].
  destruct (step_base D im s e s' B T H) as (im' & B' & _). exists im'. exact B'.
Qed.
