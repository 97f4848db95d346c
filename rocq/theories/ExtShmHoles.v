From Coq Require Import List NArith ZArith Lia Bool Arith.
From Verif Require Import Base BaseLemmas EvData Time ExtShm ExtShmSpec ExtShmProofs.
Import ListNotations.
Open Scope N_scope.

(** * sr_ext_hole_add() *)

Lemma add_loop_spec : forall fuel m off hs prev h lo,
  seg m h hs 0 -> hsorted lo hs -> off < 2147483648 -> (length hs < fuel)%nat ->
  exists hs1 hs2, hs = hs1 ++ hs2 /\ (forall x s, In (x, s) hs1 -> x <= off) /\
    (forall x s, In (x, s) hs2 -> off < x) /\
    hole_add_loop fuel m off prev h = Some (hlast prev hs1, hfirst hs2).
Proof.
  induction fuel as [|f IH]; intros m off hs prev h lo Hc Hs Ho Hl; [lia|].
  destruct hs as [|[x s] r]; cbn [seg] in Hc.
  - subst h. exists [], []. cbn. repeat split; intros ? ? [].
  - destruct Hc as (-> & Hx & Hr & n & Hn & Hc). cbn [hole_add_loop].
    destruct (N.eqb_spec x 0); [contradiction|]. rewrite as_int_small by assumption.
    cbn [hsorted] in Hs. destruct Hs as (S1 & S2 & S3 & S4 & S5).
    destruct (Z.gtb_spec (Z.of_N x) (Z.of_N off)) as [G|G].
    + exists [], ((x, s) :: r). split; [reflexivity|]. split; [intros ? ? []|]. split; [|reflexivity].
      intros y t [E|Hi]; [injection E as <- <-; lia|]. destruct (hsorted_in _ _ _ _ S5 Hi). lia.
    + rewrite hole_next_nz by assumption. rewrite Hn. cbn [obind].
      cbn [length] in Hl. destruct (IH m off r x n (x + s + 1) Hc S5 Ho ltac:(lia)) as (h1 & h2 & E & A & B & C).
      exists ((x, s) :: h1), h2. split; [cbn [app]; congruence|]. split.
      * intros y t [K|Hi]; [injection K as <- <-; lia|]. eapply A; eassumption.
      * split; [assumption|]. exact C.
Qed.

(** Writing the link that precedes the rest of the list. *)
Lemma set_link : forall m hs1 o x v,
  rd32 m 0 = Some o -> seg m o hs1 x -> hsorted 8 hs1 -> v < two32 ->
  exists m', (if negb (hlast 0 hs1 =? 0) then wr32 m (hlast 0 hs1 + 4) v else wr32 m 0 v) = Some m' /\
    msize m' = msize m /\ (exists o', rd32 m' 0 = Some o' /\ seg m' o' hs1 v) /\
    (forall b, 4 <= b -> (forall h s, In (h, s) hs1 -> b < h \/ h + 8 <= b) -> mb m' b = mb m b).
Proof.
  intros m hs1 o x v Ho Hc Hs Hv. destruct (list_snoc_cases _ hs1) as [->|(a & (h, s) & ->)].
  - cbn [hlast fold_left N.eqb negb].
    destruct (wr32_spec m 0 v ltac:(pose proof (rd32_bound _ _ _ Ho); lia) Hv) as (m' & E & S1 & R & F).
    exists m'. split; [exact E|]. split; [exact S1|]. split.
    + exists v. split; [exact R|]. cbn [seg]. reflexivity.
    + intros b Hb _. apply F. lia.
  - rewrite hlast_snoc. apply seg_app in Hc. destruct Hc as (y & C1 & C2).
    cbn [seg] in C2. destruct C2 as (-> & Hh & Hr & n & Hn & ->).
    destruct (N.eqb_spec h 0); [contradiction|]. cbn [negb].
    pose proof (rd32_bound _ _ _ Hn) as Hb.
    destruct (wr32_spec m (h + 4) v ltac:(lia) Hv) as (m' & E & S1 & R & F).
    exists m'. split; [exact E|]. split; [exact S1|].
    assert (Hh8 : 8 <= h). { destruct (hsorted_in _ _ h s Hs) as (K & _); [apply in_or_app; right; left; reflexivity|exact K]. }
    split.
    + exists o. split; [rewrite <- Ho; apply rd32_frame; [assumption|]; intros; apply F; lia|].
      apply seg_app. exists h. split.
      * eapply seg_frame; [exact S1| |exact C1]. intros h' s' b Hi B1 B2. apply F.
        pose proof (hsorted_apart a h s [] 8 h' s' Hs Hi).
        destruct (hsorted_in _ _ h' s' Hs) as (_ & K & _); [apply in_or_app; left; exact Hi|]. lia.
      * cbn [seg]. split; [reflexivity|]. split; [assumption|]. split.
        -- rewrite <- Hr. apply rd32_frame; [assumption|]. intros. apply F. lia.
        -- exists v. split; [exact R|reflexivity].
    + intros b B1 B2. apply F. specialize (B2 h s). destruct B2; [apply in_or_app; right; left; reflexivity| |]; lia.
Qed.

Lemma seg_bound : forall m hs o e h s, seg m o hs e -> In (h, s) hs -> rd32 m h = Some s /\ h + 8 <= msize m /\ h <> 0.
Proof.
  induction hs as [|[h' s'] r IH]; intros o e h s H Hi; [destruct Hi|]. cbn [seg] in H.
  destruct H as (A & B & C & n & D & E). destruct Hi as [K|Hi].
  - injection K as <- <-. pose proof (rd32_bound _ _ _ D). repeat split; [assumption|lia|assumption].
  - eapply IH; eassumption.
Qed.

Definition in_mem (m : mem) (hs : list block) := forall h s, In (h, s) hs -> h + s <= msize m.

Lemma fuel_enough : forall m hs, hsorted 8 hs -> in_mem m hs -> (length hs < hole_fuel m)%nat.
Proof.
  intros m hs Hs Hm. unfold hole_fuel. destruct (hsorted_len hs 8 (msize m) Hs Hm) as [H| ->].
  - assert (N.of_nat (length hs) <= msize m / 8). { apply N.div_le_lower_bound; lia. } lia.
  - apply Nat.lt_0_succ.
Qed.

Lemma in_mem_app : forall m a b, in_mem m (a ++ b) <-> in_mem m a /\ in_mem m b.
Proof.
  intros. unfold in_mem. split.
  - intros H. split; intros h s Hi; apply H; apply in_or_app; tauto.
  - intros (A & B) h s Hi. apply in_app_or in Hi. destruct Hi; [apply A|apply B]; assumption.
Qed.

Definition hole_add_post (m : mem) (hs : list block) (off size : N) (r : option mem) : Prop :=
  exists m' hs', r = Some m' /\ msize m' = msize m /\ holes m' hs' /\ hsorted 8 hs' /\ in_mem m' hs' /\
    (forall b, cov b hs' = (cov b hs + cov b [(off, size)])%nat) /\
    (forall b, 8 <= b -> cov b hs' = 0%nat -> mb m' b = mb m b).

Lemma cov0_out : forall b hs h s, cov b hs = 0%nat -> In (h, s) hs -> b < h \/ h + s <= b.
Proof.
  intros b hs h s H Hi. apply inb_false. destruct (inb b (h, s)) eqn:E; [|reflexivity].
  pose proof (cov_in _ _ _ Hi E). lia.
Qed.

Lemma hole_add_spec : forall m hs off size,
  holes m hs -> hsorted 8 hs -> in_mem m hs -> msize m < 2147483648 ->
  8 <= off -> off mod 8 = 0 -> size mod 8 = 0 -> size <> 0 -> off + size <= msize m ->
  (forall b, (cov b hs + cov b [(off, size)] <= 1)%nat) ->
  hole_add_post m hs off size (hole_add m off size).
Proof.
  intros m hs off size (o & Ho & Hc) Hs Hm HM H8 Ha Hsa Hnz Hend Hd.
  apply holes_seg in Hc.
  assert (Hsz : 8 <= size). { destruct (N.lt_ge_cases size 8) as [L|L]; [|assumption]. rewrite N.mod_small in Hsa by assumption. contradiction. }
  unfold hole_add. destruct (N.eqb_spec size 0); [contradiction|].
  unfold hole_next at 1. cbn [N.eqb]. rewrite Ho. cbn [obind].
  destruct (add_loop_spec (hole_fuel m) m off hs 0 o 8 Hc Hs ltac:(lia) (fuel_enough m hs Hs Hm)) as (hs1 & hs2 & E & A & B & C).
  rewrite C. cbn [obind fst snd].
  subst hs. apply seg_app in Hc. destruct Hc as (x & C1 & C2).
  pose proof (seg_first _ _ _ C2) as Hx. subst x.
  pose proof (proj1 (hsorted_app_iff _ _ _) Hs) as (S1 & S2).
  apply in_mem_app in Hm. destruct Hm as (M1 & M2).
  (* the new block lies between them *)
  assert (P1 : forall h s, In (h, s) hs1 -> h + s <= off).
  { intros h s Hi. destruct (N.le_gt_cases (h + s) off) as [L|L]; [assumption|exfalso].
    specialize (Hd off). rewrite cov_app in Hd.
    pose proof (cov_in off hs1 (h, s) Hi ltac:(apply inb_true; specialize (A _ _ Hi); lia)).
    assert (inb off (off, size) = true) by (apply inb_true; lia). cbn [cov] in Hd. rewrite H0 in Hd. lia. }
  assert (P2 : forall h s, In (h, s) hs2 -> off + size <= h).
  { intros h s Hi. destruct (N.le_gt_cases (off + size) h) as [L|L]; [assumption|exfalso].
    specialize (Hd h). rewrite cov_app in Hd.
    destruct (hsorted_in _ _ _ _ S2 Hi) as (_ & K & _).
    pose proof (cov_in h hs2 (h, s) Hi ltac:(apply inb_true; lia)).
    assert (inb h (off, size) = true) by (apply inb_true; specialize (B _ _ Hi); lia). cbn [cov] in Hd. rewrite H0 in Hd. lia. }
  clear A B C Hd.
  rewrite (u32_small (off + size)) by (unfold two32; lia).
  rewrite as_int_small by lia.
  destruct (list_snoc_cases _ hs1) as [E1|(a & (ph, ps) & E1)].
  - (* no previous hole *)
    subst hs1. cbn [hlast fold_left N.eqb obind andb negb app].
    cbn [seg] in C1. subst o.
    destruct hs2 as [|[nh ns] r2].
    + (* no next hole *)
      cbn [hfirst N.eqb negb andb] in *.
      destruct (wr32_spec m 0 off ltac:(lia) ltac:(unfold two32; lia)) as (m1 & W1 & Z1 & R1 & F1). rewrite W1. cbn [obind].
      destruct (wr32_spec m1 off size ltac:(lia) ltac:(unfold two32; lia)) as (m2 & W2 & Z2 & R2 & F2). rewrite W2. cbn [obind].
      destruct (wr32_spec m2 (off + 4) 0 ltac:(lia) ltac:(unfold two32; lia)) as (m3 & W3 & Z3 & R3 & F3). rewrite W3.
      exists m3, [(off, size)]. split; [reflexivity|]. split; [congruence|]. split.
      { exists off. split; [rewrite (rd32_frame m1 m3 0); [assumption|congruence|]; intros; rewrite F3, F2 by lia; reflexivity|].
        cbn [holes_from]. split; [reflexivity|]. split; [lia|]. split.
        - rewrite (rd32_frame m2 m3 off); [assumption|congruence|]; intros; rewrite F3 by lia; reflexivity.
        - exists 0. split; [assumption|reflexivity]. }
      split; [cbn [hsorted]; repeat split; assumption|]. split; [intros h s [K|[]]; injection K as <- <-; lia|]. split.
      { intros b. reflexivity. }
      intros b Hb Hcv. pose proof (cov0_out b _ off size Hcv (or_introl eq_refl)). rewrite F3, F2, F1 by lia. reflexivity.
    + (* a next hole *)
      cbn [hfirst] in *. cbn [seg] in C2. destruct C2 as (_ & Hnh & Hns & n2 & Hn2 & C2).
      destruct (N.eqb_spec nh 0); [contradiction|]. cbn [negb andb].
      pose proof (P2 nh ns (or_introl eq_refl)) as Hge.
      cbn [hsorted hend] in S2. destruct S2 as (T1 & T2 & T3 & T4 & T5).
      pose proof (M2 nh ns (or_introl eq_refl)) as Hnm.
      destruct (Z.eqb_spec (Z.of_N (off + size)) (Z.of_N nh)) as [Q|Q].
      * (* connecting with next *)
        assert (Q' : nh = off + size) by lia. subst nh.
        destruct (wr32_spec m 0 off ltac:(lia) ltac:(unfold two32; lia)) as (m1 & W1 & Z1 & R1 & F1). rewrite W1. cbn [obind].
        rewrite (rd32_frame m m1 (off + size)) by (try assumption; intros; apply F1; lia). rewrite Hns. cbn [obind].
        rewrite (u32_small (size + ns)) by (unfold two32; lia).
        destruct (wr32_spec m1 off (size + ns) ltac:(lia) ltac:(unfold two32; lia)) as (m2 & W2 & Z2 & R2 & F2). rewrite W2. cbn [obind].
        assert (Rn : rd32 m2 (off + size + 4) = Some n2).
        { rewrite (rd32_frame m m2); [assumption|congruence|]; intros; rewrite F2, F1 by lia; reflexivity. }
        rewrite Rn. cbn [obind].
        assert (n2 < two32).
        { destruct r2 as [|[h3 s3] r3]; cbn [seg] in C2; [subst; unfold two32; lia|]. destruct C2 as (-> & _).
          specialize (M2 h3 s3 (or_intror (or_introl eq_refl))). unfold two32. lia. }
        destruct (wr32_spec m2 (off + 4) n2 ltac:(lia) ltac:(assumption)) as (m3 & W3 & Z3 & R3 & F3). rewrite W3.
        exists m3, ((off, size + ns) :: r2). split; [reflexivity|]. split; [congruence|]. split.
        { exists off. split; [rewrite (rd32_frame m1 m3 0); [assumption|congruence|]; intros; rewrite F3, F2 by lia; reflexivity|].
          cbn [holes_from]. split; [reflexivity|]. split; [lia|]. split.
          - rewrite (rd32_frame m2 m3 off); [assumption|congruence|]; intros; rewrite F3 by lia; reflexivity.
          - exists n2. split; [assumption|]. apply holes_seg. eapply seg_frame with (m := m); [congruence| |exact C2].
            intros h s b Hi B1 B2. pose proof (hsorted_in _ _ _ _ T5 Hi). rewrite F3, F2, F1 by lia. reflexivity. }
        split. { cbn [hsorted]. repeat split; try assumption; try lia; [rewrite N.add_mod, Hsa, T4 by lia; reflexivity|].
                 replace (off + (size + ns) + 1) with (off + size + ns + 1) by lia. assumption. }
        split. { intros h s [K|Hi]; [injection K as <- <-; lia|]. rewrite Z3, Z2, Z1. apply M2. right. assumption. }
        split. { intros b. cbn [cov]. inbs. }
        intros b Hb Hcv. pose proof (cov0_out b _ _ _ Hcv (or_introl eq_refl)). rewrite F3, F2, F1 by lia. reflexivity.
      * destruct (wr32_spec m 0 off ltac:(lia) ltac:(unfold two32; lia)) as (m1 & W1 & Z1 & R1 & F1). rewrite W1. cbn [obind].
        destruct (wr32_spec m1 off size ltac:(lia) ltac:(unfold two32; lia)) as (m2 & W2 & Z2 & R2 & F2). rewrite W2. cbn [obind].
        destruct (wr32_spec m2 (off + 4) nh ltac:(lia) ltac:(unfold two32; lia)) as (m3 & W3 & Z3 & R3 & F3). rewrite W3.
        exists m3, ((off, size) :: (nh, ns) :: r2). split; [reflexivity|]. split; [congruence|]. split.
        { exists off. split; [rewrite (rd32_frame m1 m3 0); [assumption|congruence|]; intros; rewrite F3, F2 by lia; reflexivity|].
          apply holes_seg. cbn [seg]. split; [reflexivity|]. split; [lia|]. split.
          - rewrite (rd32_frame m2 m3 off); [assumption|congruence|]; intros; rewrite F3 by lia; reflexivity.
          - exists nh. split; [assumption|]. change (seg m3 nh ((nh, ns) :: r2) 0).
            eapply seg_frame with (m := m); [congruence| |].
            + intros h s b Hi B1 B2. assert (nh <= h). { destruct Hi as [K|Hi]; [injection K as <- <-; lia|]. pose proof (hsorted_in _ _ _ _ T5 Hi). lia. }
              rewrite F3, F2, F1 by lia. reflexivity.
            + cbn [seg]. repeat split; try assumption. exists n2. split; assumption. }
        split. { cbn [hsorted]. repeat split; try assumption; lia. }
        split. { intros h s [K|Hi]; [injection K as <- <-; lia|]. rewrite Z3, Z2, Z1. apply M2. assumption. }
        split. { intros b. cbn [cov]. inbs. }
        intros b Hb Hcv. pose proof (cov0_out b _ _ _ Hcv (or_introl eq_refl)). rewrite F3, F2, F1 by lia. reflexivity.
  - (* a previous hole *)
    subst hs1. rewrite hlast_snoc.
    pose proof (P1 ph ps ltac:(apply in_or_app; right; left; reflexivity)) as Hle.
    pose proof (seg_bound _ _ _ _ ph ps C1 ltac:(apply in_or_app; right; left; reflexivity)) as (Rp & Bp & Np).
    pose proof (hsorted_in _ _ ph ps S1 ltac:(apply in_or_app; right; left; reflexivity)) as (G1 & G2 & G3 & G4).
    destruct (N.eqb_spec ph 0); [contradiction|]. rewrite Rp. cbn [obind negb].
    rewrite hend_snoc in S2.
    pose proof C1 as C1'. apply seg_app in C1'. destruct C1' as (y & C3 & C4).
    cbn [seg] in C4. destruct C4 as (-> & _ & _ & n1 & Hn1 & ->).
    assert (Fa : forall m', msize m' = msize m -> (forall b, b < ph -> 8 <= b -> mb m' b = mb m b) -> seg m' o a ph).
    { intros m' Z F. eapply seg_frame; [exact Z| |exact C3]. intros h s b Hi B1 B2. apply F.
      - pose proof (hsorted_apart a ph ps [] 8 h s S1 Hi).
        pose proof (hsorted_in _ _ h s S1 ltac:(apply in_or_app; left; exact Hi)). lia.
      - pose proof (hsorted_in _ _ h s S1 ltac:(apply in_or_app; left; exact Hi)). lia. }
    assert (Hpm : ph + ps <= msize m) by (apply M1; apply in_or_app; right; left; reflexivity).
    assert (Ma : in_mem m a) by (intros h s Hi; apply M1; apply in_or_app; left; assumption).
    pose proof (proj1 (hsorted_app _ _ _ S1)) as Sa.
    assert (Hea : hend 8 a <= ph). { apply hsorted_app_iff in S1. destruct S1 as (_ & S1). cbn [hsorted] in S1. lia. }
    destruct (N.eqb_spec (ph + ps) off) as [Cp|Cp].
    + (* connecting with prev *)
      cbn [andb]. destruct hs2 as [|[nh ns] r2].
      * cbn [hfirst N.eqb negb andb obind] in *.
        rewrite (u32_small (ps + size)) by (unfold two32; lia).
        destruct (wr32_spec m ph (ps + size) ltac:(lia) ltac:(unfold two32; lia)) as (m1 & W1 & Z1 & R1 & F1). rewrite W1.
        exists m1, (a ++ [(ph, ps + size)]). split; [reflexivity|]. split; [assumption|]. split.
        { exists o. split; [rewrite <- Ho; apply rd32_frame; [assumption|]; intros; apply F1; lia|].
          apply holes_seg. apply seg_app. exists ph. split; [apply Fa; [assumption|]; intros; apply F1; lia|].
          cbn [seg]. split; [reflexivity|]. split; [assumption|]. split; [assumption|]. exists 0.
          split; [rewrite <- Hn1; apply rd32_frame; [assumption|]; intros; apply F1; lia|reflexivity]. }
        split. { apply hsorted_app_iff. split; [assumption|]. cbn [hsorted]. repeat split; try assumption; try lia.
                 rewrite N.add_mod, Hsa, G4 by lia. reflexivity. }
        split. { intros h s Hi. rewrite Z1. apply in_app_or in Hi. destruct Hi as [Hi|[K|[]]]; [apply Ma; assumption|].
                 injection K as <- <-. lia. }
        split. { intros b. rewrite app_nil_r, !cov_app. cbn [cov]. inbs. }
        intros b Hb Hcv. rewrite cov_app in Hcv. assert (Hcv' : cov b [(ph, ps + size)] = 0%nat) by lia.
        pose proof (cov0_out b _ _ _ Hcv' (or_introl eq_refl)). apply F1. lia.
      * cbn [hfirst] in *. cbn [seg] in C2. destruct C2 as (_ & Hnh & Hns & n2 & Hn2 & C2).
        destruct (N.eqb_spec nh 0); [contradiction|]. cbn [negb andb].
        pose proof (P2 nh ns (or_introl eq_refl)) as Hge.
        cbn [hsorted] in S2. destruct S2 as (T1 & T2 & T3 & T4 & T5).
        pose proof (M2 nh ns (or_introl eq_refl)) as Hnm.
        destruct (Z.eqb_spec (Z.of_N (off + size)) (Z.of_N nh)) as [Q|Q].
        -- assert (Q' : nh = off + size) by lia. subst nh. rewrite Hns. cbn [obind].
           rewrite (u32_small (size + ns)) by (unfold two32; lia). rewrite (u32_small (ps + (size + ns))) by (unfold two32; lia).
           destruct (wr32_spec m ph (ps + (size + ns)) ltac:(lia) ltac:(unfold two32; lia)) as (m1 & W1 & Z1 & R1 & F1). rewrite W1. cbn [obind].
           assert (Rn : rd32 m1 (off + size + 4) = Some n2).
           { rewrite (rd32_frame m m1); [assumption|congruence|]; intros; rewrite F1 by lia; reflexivity. }
           rewrite Rn. cbn [obind].
           assert (n2 < two32).
           { destruct r2 as [|[h3 s3] r3]; cbn [seg] in C2; [subst; unfold two32; lia|]. destruct C2 as (-> & _).
             specialize (M2 h3 s3 (or_intror (or_introl eq_refl))). unfold two32. lia. }
           destruct (wr32_spec m1 (ph + 4) n2 ltac:(lia) ltac:(assumption)) as (m2 & W2 & Z2 & R2 & F2). rewrite W2.
           exists m2, (a ++ (ph, ps + (size + ns)) :: r2). split; [reflexivity|]. split; [congruence|]. split.
           { exists o. split; [rewrite <- Ho; apply rd32_frame; [congruence|]; intros; rewrite F2, F1 by lia; reflexivity|].
             apply holes_seg. apply seg_app. exists ph. split; [apply Fa; [congruence|]; intros; rewrite F2, F1 by lia; reflexivity|].
             cbn [seg]. split; [reflexivity|]. split; [assumption|].
             split; [rewrite <- R1; apply rd32_frame; [congruence|]; intros; rewrite F2 by lia; reflexivity|]. exists n2.
             split; [assumption|]. eapply seg_frame with (m := m); [congruence| |exact C2].
             intros h s b Hi B1 B2. pose proof (hsorted_in _ _ _ _ T5 Hi). rewrite F2, F1 by lia. reflexivity. }
           split. { apply hsorted_app_iff. split; [assumption|]. cbn [hsorted]. repeat split; try assumption; try lia.
                 { rewrite N.add_mod, G4 by lia. rewrite (N.add_mod size), Hsa, T4 by lia. reflexivity. }
                 replace (ph + (ps + (size + ns)) + 1) with (off + size + ns + 1) by lia. assumption. }
           split. { intros h s Hi. rewrite Z2, Z1. apply in_app_or in Hi. destruct Hi as [Hi|[K|Hi]]; [apply Ma; assumption| |].
                 - injection K as <- <-. lia.
                 - apply M2. right. assumption. }
           split. { intros b. rewrite !cov_app. cbn [cov]. inbs. }
           intros b Hb Hcv. rewrite cov_app in Hcv. cbn [cov] in Hcv.
           assert (Hcv' : cov b [(ph, ps + (size + ns))] = 0%nat) by (cbn [cov]; lia).
           pose proof (cov0_out b _ _ _ Hcv' (or_introl eq_refl)). rewrite F2, F1 by lia. reflexivity.
        -- rewrite (u32_small (ps + size)) by (unfold two32; lia). cbn [obind].
           destruct (wr32_spec m ph (ps + size) ltac:(lia) ltac:(unfold two32; lia)) as (m1 & W1 & Z1 & R1 & F1). rewrite W1.
           exists m1, (a ++ (ph, ps + size) :: (nh, ns) :: r2). split; [reflexivity|]. split; [assumption|]. split.
           { exists o. split; [rewrite <- Ho; apply rd32_frame; [assumption|]; intros; apply F1; lia|].
             apply holes_seg. apply seg_app. exists ph. split; [apply Fa; [assumption|]; intros; apply F1; lia|].
             cbn [seg]. split; [reflexivity|]. split; [assumption|]. split; [assumption|]. exists nh.
             split; [rewrite <- Hn1; apply rd32_frame; [assumption|]; intros; apply F1; lia|].
             change (seg m1 nh ((nh, ns) :: r2) 0).
             eapply seg_frame with (m := m); [congruence| |].
             - intros h s b Hi B1 B2. assert (nh <= h). { destruct Hi as [K|Hi]; [injection K as <- <-; lia|]. pose proof (hsorted_in _ _ _ _ T5 Hi). lia. }
               rewrite F1 by lia. reflexivity.
             - cbn [seg]. repeat split; try assumption. exists n2. split; assumption. }
           split. { apply hsorted_app_iff. split; [assumption|]. cbn [hsorted]. repeat split; try assumption; try lia.
                 rewrite N.add_mod, Hsa, G4 by lia. reflexivity. }
           split. { intros h s Hi. rewrite Z1. apply in_app_or in Hi. destruct Hi as [Hi|[K|Hi]]; [apply Ma; assumption| |].
                 - injection K as <- <-. lia.
                 - apply M2. assumption. }
           split. { intros b. rewrite !cov_app. cbn [cov]. inbs. }
           intros b Hb Hcv. rewrite cov_app in Hcv. cbn [cov] in Hcv.
           assert (Hcv' : cov b [(ph, ps + size)] = 0%nat) by (cbn [cov]; lia).
           pose proof (cov0_out b _ _ _ Hcv' (or_introl eq_refl)). rewrite F1 by lia. reflexivity.
    + (* not connecting with prev *)
      cbn [andb]. assert (Hlt : ph + ps + 1 <= off) by lia.
      destruct (wr32_spec m (ph + 4) off ltac:(lia) ltac:(unfold two32; lia)) as (m1 & W1 & Z1 & R1 & F1).
      destruct hs2 as [|[nh ns] r2].
      * cbn [hfirst N.eqb negb andb] in *. rewrite W1. cbn [obind].
        destruct (wr32_spec m1 off size ltac:(lia) ltac:(unfold two32; lia)) as (m2 & W2 & Z2 & R2 & F2). rewrite W2. cbn [obind].
        destruct (wr32_spec m2 (off + 4) 0 ltac:(lia) ltac:(unfold two32; lia)) as (m3 & W3 & Z3 & R3 & F3). rewrite W3.
        exists m3, (a ++ [(ph, ps); (off, size)]). split; [reflexivity|]. split; [congruence|]. split.
        { exists o. split; [rewrite <- Ho; apply rd32_frame; [congruence|]; intros; rewrite F3, F2, F1 by lia; reflexivity|].
          apply holes_seg. apply seg_app. exists ph. split; [apply Fa; [congruence|]; intros; rewrite F3, F2, F1 by lia; reflexivity|].
          cbn [seg]. split; [reflexivity|]. split; [assumption|].
          split; [rewrite <- Rp; apply rd32_frame; [congruence|]; intros; rewrite F3, F2, F1 by lia; reflexivity|]. exists off.
          split; [rewrite <- R1; apply rd32_frame; [congruence|]; intros; rewrite F3, F2 by lia; reflexivity|].
          split; [reflexivity|]. split; [lia|].
          split; [rewrite <- R2; apply rd32_frame; [congruence|]; intros; rewrite F3 by lia; reflexivity|].
          exists 0. split; [assumption|reflexivity]. }
        split. { apply hsorted_app_iff. split; [assumption|]. cbn [hsorted]. repeat split; try assumption; try lia. }
        split. { intros h s Hi. rewrite Z3, Z2, Z1. apply in_app_or in Hi. destruct Hi as [Hi|[K|[K|[]]]]; [apply Ma; assumption| |]; injection K as <- <-; lia. }
        split. { intros b. rewrite app_nil_r, !cov_app. cbn [cov]. inbs. }
        intros b Hb Hcv. rewrite cov_app in Hcv. cbn [cov] in Hcv.
        assert (Hcv1 : cov b [(ph, ps)] = 0%nat) by (cbn [cov]; lia). pose proof (cov0_out b _ _ _ Hcv1 (or_introl eq_refl)).
        assert (Hcv2 : cov b [(off, size)] = 0%nat) by (cbn [cov]; lia). pose proof (cov0_out b _ _ _ Hcv2 (or_introl eq_refl)).
        rewrite F3, F2, F1 by lia. reflexivity.
      * cbn [hfirst] in *. cbn [seg] in C2. destruct C2 as (_ & Hnh & Hns & n2 & Hn2 & C2).
        destruct (N.eqb_spec nh 0); [contradiction|]. cbn [negb andb].
        pose proof (P2 nh ns (or_introl eq_refl)) as Hge.
        cbn [hsorted] in S2. destruct S2 as (T1 & T2 & T3 & T4 & T5).
        pose proof (M2 nh ns (or_introl eq_refl)) as Hnm.
        destruct (Z.eqb_spec (Z.of_N (off + size)) (Z.of_N nh)) as [Q|Q].
        -- assert (Q' : nh = off + size) by lia. subst nh. rewrite W1. cbn [obind].
           rewrite (rd32_frame m m1 (off + size)) by (try assumption; intros; apply F1; lia). rewrite Hns. cbn [obind].
           rewrite (u32_small (size + ns)) by (unfold two32; lia).
           destruct (wr32_spec m1 off (size + ns) ltac:(lia) ltac:(unfold two32; lia)) as (m2 & W2 & Z2 & R2 & F2). rewrite W2. cbn [obind].
           assert (Rn : rd32 m2 (off + size + 4) = Some n2).
           { rewrite (rd32_frame m m2); [assumption|congruence|]; intros; rewrite F2, F1 by lia; reflexivity. }
           rewrite Rn. cbn [obind].
           assert (n2 < two32).
           { destruct r2 as [|[h3 s3] r3]; cbn [seg] in C2; [subst; unfold two32; lia|]. destruct C2 as (-> & _).
             specialize (M2 h3 s3 (or_intror (or_introl eq_refl))). unfold two32. lia. }
           destruct (wr32_spec m2 (off + 4) n2 ltac:(lia) ltac:(assumption)) as (m3 & W3 & Z3 & R3 & F3). rewrite W3.
           exists m3, (a ++ (ph, ps) :: (off, size + ns) :: r2). split; [reflexivity|]. split; [congruence|]. split.
           { exists o. split; [rewrite <- Ho; apply rd32_frame; [congruence|]; intros; rewrite F3, F2, F1 by lia; reflexivity|].
             apply holes_seg. apply seg_app. exists ph. split; [apply Fa; [congruence|]; intros; rewrite F3, F2, F1 by lia; reflexivity|].
             cbn [seg]. split; [reflexivity|]. split; [assumption|].
             split; [rewrite <- Rp; apply rd32_frame; [congruence|]; intros; rewrite F3, F2, F1 by lia; reflexivity|]. exists off.
             split; [rewrite <- R1; apply rd32_frame; [congruence|]; intros; rewrite F3, F2 by lia; reflexivity|].
             split; [reflexivity|]. split; [lia|].
             split; [rewrite <- R2; apply rd32_frame; [congruence|]; intros; rewrite F3 by lia; reflexivity|].
             exists n2. split; [assumption|]. eapply seg_frame with (m := m); [congruence| |exact C2].
             intros h s b Hi B1 B2. pose proof (hsorted_in _ _ _ _ T5 Hi). rewrite F3, F2, F1 by lia. reflexivity. }
           split. { apply hsorted_app_iff. split; [assumption|]. cbn [hsorted]. repeat split; try assumption; try lia.
                    { rewrite N.add_mod, Hsa, T4 by lia. reflexivity. }
                    replace (off + (size + ns) + 1) with (off + size + ns + 1) by lia. assumption. }
           split. { intros h s Hi. rewrite Z3, Z2, Z1. apply in_app_or in Hi. destruct Hi as [Hi|[K|[K|Hi]]]; [apply Ma; assumption| | |].
                    - injection K as <- <-; lia.
                    - injection K as <- <-; lia.
                    - apply M2. right. assumption. }
           split. { intros b. rewrite !cov_app. cbn [cov]. inbs. }
           intros b Hb Hcv. rewrite cov_app in Hcv. cbn [cov] in Hcv.
           assert (Hcv1 : cov b [(ph, ps)] = 0%nat) by (cbn [cov]; lia). pose proof (cov0_out b _ _ _ Hcv1 (or_introl eq_refl)).
           assert (Hcv2 : cov b [(off, size + ns)] = 0%nat) by (cbn [cov]; lia). pose proof (cov0_out b _ _ _ Hcv2 (or_introl eq_refl)).
           rewrite F3, F2, F1 by lia. reflexivity.
        -- rewrite W1. cbn [obind].
           destruct (wr32_spec m1 off size ltac:(lia) ltac:(unfold two32; lia)) as (m2 & W2 & Z2 & R2 & F2). rewrite W2. cbn [obind].
           destruct (wr32_spec m2 (off + 4) nh ltac:(lia) ltac:(unfold two32; lia)) as (m3 & W3 & Z3 & R3 & F3). rewrite W3.
           exists m3, (a ++ (ph, ps) :: (off, size) :: (nh, ns) :: r2). split; [reflexivity|]. split; [congruence|]. split.
           { exists o. split; [rewrite <- Ho; apply rd32_frame; [congruence|]; intros; rewrite F3, F2, F1 by lia; reflexivity|].
             apply holes_seg. apply seg_app. exists ph. split; [apply Fa; [congruence|]; intros; rewrite F3, F2, F1 by lia; reflexivity|].
             cbn [seg]. split; [reflexivity|]. split; [assumption|].
             split; [rewrite <- Rp; apply rd32_frame; [congruence|]; intros; rewrite F3, F2, F1 by lia; reflexivity|]. exists off.
             split; [rewrite <- R1; apply rd32_frame; [congruence|]; intros; rewrite F3, F2 by lia; reflexivity|].
             split; [reflexivity|]. split; [lia|].
             split; [rewrite <- R2; apply rd32_frame; [congruence|]; intros; rewrite F3 by lia; reflexivity|].
             exists nh. split; [assumption|]. change (seg m3 nh ((nh, ns) :: r2) 0).
             eapply seg_frame with (m := m); [congruence| |].
             - intros h s b Hi B1 B2. assert (nh <= h). { destruct Hi as [K|Hi]; [injection K as <- <-; lia|]. pose proof (hsorted_in _ _ _ _ T5 Hi). lia. }
               rewrite F3, F2, F1 by lia. reflexivity.
             - cbn [seg]. repeat split; try assumption. exists n2. split; assumption. }
           split. { apply hsorted_app_iff. split; [assumption|]. cbn [hsorted]. repeat split; try assumption; try lia. }
           split. { intros h s Hi. rewrite Z3, Z2, Z1. apply in_app_or in Hi. destruct Hi as [Hi|[K|[K|Hi]]]; [apply Ma; assumption| | |].
                    - injection K as <- <-; lia.
                    - injection K as <- <-; lia.
                    - apply M2. assumption. }
           split. { intros b. rewrite !cov_app. cbn [cov]. inbs. }
           intros b Hb Hcv. rewrite cov_app in Hcv. cbn [cov] in Hcv.
           assert (Hcv1 : cov b [(ph, ps)] = 0%nat) by (cbn [cov]; lia). pose proof (cov0_out b _ _ _ Hcv1 (or_introl eq_refl)).
           assert (Hcv2 : cov b [(off, size)] = 0%nat) by (cbn [cov]; lia). pose proof (cov0_out b _ _ _ Hcv2 (or_introl eq_refl)).
           rewrite F3, F2, F1 by lia. reflexivity.
Qed.
