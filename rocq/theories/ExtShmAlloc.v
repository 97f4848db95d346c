From Coq Require Import List NArith ZArith Lia Bool Arith.
From Verif Require Import Base BaseLemmas EvData EvDataProofs Time ExtShm ExtShmSpec ExtShmProofs ExtShmHoles.
Import ListNotations.
Open Scope N_scope.

(** * sr_ext_hole_del(), sr_ext_hole_find() *)

Lemma del_loop_spec : forall fuel m a h s b prev o lo e,
  seg m o (a ++ (h, s) :: b) e -> hsorted lo (a ++ (h, s) :: b) -> (length (a ++ (h, s) :: b) < fuel)%nat ->
  hole_del_loop fuel m h prev o = Some (hlast prev a).
Proof.
  induction fuel as [|f IH]; intros m a h s b prev o lo e Hc Hs Hl; [lia|]. cbn [hole_del_loop].
  destruct a as [|[x t] r]; cbn [app seg] in Hc; destruct Hc as (-> & Hx & Hr & n & Hn & Hc).
  - destruct (N.eqb_spec h 0); [contradiction|]. rewrite N.eqb_refl. reflexivity.
  - destruct (N.eqb_spec x 0); [contradiction|].
    cbn [app hsorted length] in Hs, Hl. destruct Hs as (_ & S2 & _ & _ & S5).
    destruct (N.eqb_spec x h) as [E|E].
    + exfalso. destruct (hsorted_in _ _ h s S5 ltac:(apply in_or_app; right; left; reflexivity)). lia.
    + rewrite hole_next_nz by assumption. rewrite Hn. cbn [obind].
      rewrite (IH m r h s b x n (x + t + 1) e Hc S5) by lia. reflexivity.
Qed.

Lemma hole_del_spec : forall m a h s b,
  holes m (a ++ (h, s) :: b) -> hsorted 8 (a ++ (h, s) :: b) -> in_mem m (a ++ (h, s) :: b) -> msize m < 2147483648 ->
  exists m', hole_del m h = Some m' /\ msize m' = msize m /\ holes m' (a ++ b) /\ hsorted 8 (a ++ b) /\ in_mem m' (a ++ b) /\
    (forall x, 8 <= x -> cov x (a ++ b) = 0%nat -> mb m' x = mb m x).
Proof.
  intros m a h s b (o & Ho & Hc) Hs Hm HM. apply holes_seg in Hc.
  unfold hole_del. unfold hole_next at 1. cbn [N.eqb]. rewrite Ho. cbn [obind].
  rewrite (del_loop_spec _ _ _ _ _ _ 0 _ _ _ Hc Hs (fuel_enough _ _ Hs Hm)). cbn [obind].
  apply seg_app in Hc. destruct Hc as (x & C1 & C2). cbn [seg] in C2. destruct C2 as (-> & Hh & Hr & n & Hn & C2).
  rewrite Hn. cbn [obind].
  pose proof (proj1 (hsorted_app_iff _ _ _) Hs) as (S1 & S2). cbn [hsorted] in S2. destruct S2 as (T1 & T2 & T3 & T4 & T5).
  assert (Hn2 : n < two32).
  { destruct b as [|[h3 s3] r3]; cbn [seg] in C2; [subst; unfold two32; lia|]. destruct C2 as (-> & _).
    specialize (Hm h3 s3 ltac:(apply in_or_app; right; right; left; reflexivity)). unfold two32. lia. }
  destruct (set_link m a o h n Ho C1 S1 Hn2) as (m' & W & Z & (o' & R & C3) & F).
  exists m'. split; [exact W|]. split; [exact Z|].
  assert (Hh8 : hend 8 a <= h) by assumption.
  split. { exists o'. split; [exact R|]. apply holes_seg. apply seg_app. exists n. split; [exact C3|].
           eapply seg_frame with (m := m); [assumption| |exact C2]. intros h' s' y Hi B1 B2. apply F.
           - pose proof (hsorted_in _ _ _ _ T5 Hi). pose proof (hend_ge _ _ S1). lia.
           - intros h2 s2 Hi2. right. pose proof (hsorted_apart a h s b 8 h2 s2 Hs Hi2).
             pose proof (hsorted_in _ _ _ _ T5 Hi). pose proof (hsorted_in _ _ _ _ S1 Hi2). lia. }
  split. { apply hsorted_app_iff. split; [assumption|]. eapply hsorted_weak; [|exact T5]. lia. }
  split. { intros h' s' Hi. rewrite Z. apply Hm. apply in_app_or in Hi. apply in_or_app. destruct Hi; [left|right; right]; assumption. }
  intros y Hy Hcv. rewrite cov_app in Hcv. apply F; [lia|]. intros h2 s2 Hi2.
  destruct (cov0_out y a h2 s2 ltac:(lia) Hi2); [left; assumption|right].
  pose proof (hsorted_in _ _ _ _ S1 Hi2). lia.
Qed.

Lemma find_loop_spec : forall fuel m off min hs o lo,
  seg m o hs 0 -> hsorted lo hs -> (length hs < fuel)%nat -> off < 2147483648 ->
  exists r, hole_find_loop fuel m off min o = Some r /\
    ((r = 0 /\ (off = 0 -> forall h s, In (h, s) hs -> s < min)) \/
     (exists s, In (r, s) hs /\ min <= s /\ (off <> 0 -> r = off))).
Proof.
  induction fuel as [|f IH]; intros m off min hs o lo Hc Hs Hl Hoff; [lia|]. cbn [hole_find_loop].
  destruct hs as [|[x t] r]; cbn [seg] in Hc.
  - subst o. cbn [N.eqb]. exists 0. split; [reflexivity|]. left. split; [reflexivity|]. intros _ h s [].
  - destruct Hc as (-> & Hx & Hr & n & Hn & Hc). destruct (N.eqb_spec x 0); [contradiction|].
    rewrite Hr. cbn [obind]. rewrite hole_next_nz by assumption. rewrite Hn. cbn [obind].
    cbn [hsorted length] in Hs, Hl. destruct Hs as (_ & S2 & _ & _ & S5).
    destruct (IH m off min r n (x + t + 1) Hc S5 ltac:(lia) Hoff) as (r' & E & P).
    destruct (N.eqb_spec off 0) as [O|O]; cbn [negb].
    + destruct (N.leb_spec min t).
      * exists x. split; [reflexivity|]. right. exists t. split; [left; reflexivity|]. split; [assumption|contradiction].
      * exists r'. split; [exact E|]. destruct P as [(-> & P)|(s & P1 & P2 & P3)].
        -- left. split; [reflexivity|]. intros _ h s [K|Hi]; [injection K as <- <-; assumption|]. eapply P; eassumption.
        -- right. exists s. split; [right; assumption|]. split; assumption.
    + rewrite as_int_small by assumption.
      destruct (Z.eqb_spec (Z.of_N x) (Z.of_N off)) as [Q|Q]; cbn [andb].
      * destruct (N.leb_spec min t).
        -- exists x. split; [reflexivity|]. right. exists t. split; [left; reflexivity|]. split; [assumption|]. intros; lia.
        -- destruct (Z.gtb_spec (Z.of_N x) (Z.of_N off)); [lia|].
           exists r'. split; [exact E|]. destruct P as [(-> & P)|(s & P1 & P2 & P3)].
           ++ left. split; [reflexivity|]. contradiction.
           ++ right. exists s. split; [right; assumption|]. split; assumption.
      * destruct (Z.gtb_spec (Z.of_N x) (Z.of_N off)).
        -- exists 0. split; [reflexivity|]. left. split; [reflexivity|]. contradiction.
        -- exists r'. split; [exact E|]. destruct P as [(-> & P)|(s & P1 & P2 & P3)].
           ++ left. split; [reflexivity|]. contradiction.
           ++ right. exists s. split; [right; assumption|]. split; assumption.
Qed.

Lemma hole_find_spec : forall m off min hs,
  holes m hs -> hsorted 8 hs -> in_mem m hs -> off < 2147483648 ->
  exists r, hole_find m off min = Some r /\
    ((r = 0 /\ (off = 0 -> forall h s, In (h, s) hs -> s < min)) \/
     (exists s, In (r, s) hs /\ min <= s /\ (off <> 0 -> r = off))).
Proof.
  intros m off min hs (o & Ho & Hc) Hs Hm Hoff. apply holes_seg in Hc.
  unfold hole_find. unfold hole_next. cbn [N.eqb]. rewrite Ho. cbn [obind].
  eapply find_loop_spec; [exact Hc|exact Hs|apply fuel_enough; assumption|assumption].
Qed.

(** * sr_shmrealloc_use_hole() *)

Lemma use_hole_spec : forall m hs h s used,
  holes m hs -> hsorted 8 hs -> in_mem m hs -> msize m < 2147483648 -> In (h, s) hs ->
  used <= s -> used mod 8 = 0 -> used <> 0 ->
  exists m' hs', use_hole m h used = Some m' /\ msize m' = msize m /\ holes m' hs' /\ hsorted 8 hs' /\ in_mem m' hs' /\
    (forall b, (cov b hs' + cov b [(h, used)])%nat = cov b hs) /\
    (forall b, 8 <= b -> cov b hs' = 0%nat -> mb m' b = mb m b).
Proof.
  intros m hs h s used Hh Hs Hm HM Hi Hu Hum Hu0.
  destruct (in_split _ _ Hi) as (a & b & E). subst hs.
  pose proof (Hm h s Hi) as Hhs. destruct (hsorted_in _ _ _ _ Hs Hi) as (G1 & G2 & G3 & G4).
  assert (Hrd : rd32 m h = Some s).
  { destruct Hh as (o & _ & Hc). apply holes_seg in Hc. eapply seg_bound; eassumption. }
  unfold use_hole. rewrite Hrd. cbn [obind].
  destruct (hole_del_spec m a h s b Hh Hs Hm HM) as (m1 & E1 & Z1 & H1 & S1 & M1 & F1). rewrite E1. cbn [obind].
  assert (Hnew : u32 (s + two32 - u32 used) = s - used).
  { rewrite (u32_small used) by (unfold two32; lia). unfold u32. replace (s + two32 - used) with (s - used + 1 * two32) by lia.
    rewrite N.mod_add by (unfold two32; lia). apply N.mod_small. unfold two32. lia. }
  rewrite Hnew. destruct (N.eqb_spec (s - used) 0) as [Q|Q]; cbn [negb].
  - assert (s = used) by lia. subst s. exists m1, (a ++ b). split; [reflexivity|]. split; [assumption|]. split; [assumption|].
    split; [assumption|]. split; [assumption|]. split.
    + intros x. rewrite !cov_app. cbn [cov]. lia.
    + exact F1.
  - rewrite (u32_small (h + used)) by (unfold two32; lia).
    destruct (hole_add_spec m1 (a ++ b) (h + used) (s - used) H1 S1 M1 ltac:(lia)) as (m2 & hs2 & E2 & Z2 & H2 & S2 & M2 & C2 & F2).
    + lia.
    + rewrite N.add_mod, G3, Hum by lia. reflexivity.
    + assert (s = 8 * (s / 8)) by (rewrite (N.div_mod s 8) at 1; lia). assert (used = 8 * (used / 8)) by (rewrite (N.div_mod used 8) at 1; lia).
      replace (s - used) with ((s / 8 - used / 8) * 8) by lia. apply N.mod_mul. lia.
    + assumption.
    + lia.
    + intros x. rewrite cov_app. cbn [cov].
      destruct (inb x (h + used, s - used)) eqn:Eb; [|].
      * apply inb_true in Eb. assert (cov x a = 0%nat).
        { destruct (cov x a) eqn:Ec; [reflexivity|]. destruct (cov_pos x a ltac:(lia)) as ([h' s'] & Hi' & Hb').
          apply inb_true in Hb'. pose proof (hsorted_apart a h s b 8 h' s' Hs Hi'). lia. }
        assert (cov x b = 0%nat).
        { destruct (cov x b) eqn:Ec; [reflexivity|]. destruct (cov_pos x b ltac:(lia)) as ([h' s'] & Hi' & Hb').
          apply inb_true in Hb'. pose proof (hsorted_apart2 a h s b 8 h' s' Hs Hi'). lia. }
        lia.
      * assert (cov x (a ++ b) <= 1)%nat; [|rewrite cov_app in *; lia].
        clear - S1. revert S1. generalize (a ++ b). generalize 8. intros lo l. revert lo.
        induction l as [|[h' s'] r IH]; intros lo S; cbn [cov]; [lia|].
        cbn [hsorted] in S. destruct S as (A & B & _ & _ & C).
        destruct (inb x (h', s')) eqn:Eb; [|apply IH in C; lia].
        apply inb_true in Eb. rewrite (hsorted_lo r _ x C) by lia. lia.
    + exists m2, hs2. split; [exact E2|]. split; [congruence|]. split; [assumption|]. split; [assumption|].
      split; [intros h' s' Hi'; apply M2; assumption|]. split.
      * intros x. rewrite C2, !cov_app. cbn [cov]. inbs.
      * intros x Hx Hcv. rewrite F2 by assumption. apply F1; [assumption|]. rewrite C2 in Hcv. lia.
Qed.

(** * Segments whose size is still to be increased to [E] *)

Record wellE (E : N) (m : mem) (hs live : list block) : Prop := {
  e_holes : holes m hs;
  e_sorted : hsorted 8 hs;
  e_mem : in_mem m hs;
  e_tiled : forall b, (cov b hs + cov b live)%nat = (if ((8 <=? b) && (b <? E))%N then 1 else 0)%nat;
  e_size : 8 <= msize m /\ msize m <= E /\ E mod 8 = 0 /\ E < 2147483648;
  e_live : Forall (fun x => snd x <> 0 /\ fst x mod 8 = 0 /\ snd x mod 8 = 0) live
}.

Lemma well_wellE : forall m hs live, well m hs live <-> wellE (msize m) m hs live.
Proof.
  intros m hs live. split.
  - intros [A B C D F]. constructor; try assumption; [|intuition lia].
    intros h s Hi. destruct (hsorted_in _ _ _ _ B Hi) as (G1 & G2 & _).
    specialize (C (h + s - 1)). pose proof (cov_in (h + s - 1) hs (h, s) Hi ltac:(apply inb_true; lia)).
    destruct (N.ltb_spec (h + s - 1) (msize m)); [lia|]. rewrite andb_false_r in C. lia.
  - intros [A B C D F G]. constructor; try assumption. intuition.
Qed.

Lemma wellE_live_eq : forall E m hs l l', wellE E m hs l -> (forall b, cov b l' = cov b l) ->
  Forall (fun x => snd x <> 0 /\ fst x mod 8 = 0 /\ snd x mod 8 = 0) l' -> wellE E m hs l'.
Proof. intros E m hs l l' [A B C D F G] H H'. constructor; try assumption. intros b. rewrite H. apply D. Qed.

Lemma well_live_eq : forall m hs l l', well m hs l -> (forall b, cov b l' = cov b l) ->
  Forall (fun x => snd x <> 0 /\ fst x mod 8 = 0 /\ snd x mod 8 = 0) l' -> well m hs l'.
Proof. intros m hs l l' H. rewrite !well_wellE in *. eapply wellE_live_eq. exact H. Qed.

(** Live blocks lie after the header and inside of the segment. *)
Lemma wellE_live_in : forall E m hs live o s, wellE E m hs live -> In (o, s) live -> 8 <= o /\ o + s <= E /\ s <> 0 /\ 8 <= s.
Proof.
  intros E m hs live o s [A B C D F G] Hi.
  rewrite Forall_forall in G. specialize (G _ Hi). cbn [fst snd] in G. destruct G as (G1 & G2 & G3).
  assert (8 <= s). { destruct (N.lt_ge_cases s 8) as [L|L]; [|assumption]. rewrite N.mod_small in G3 by assumption. contradiction. }
  pose proof (D o) as D1. pose proof (cov_in o live (o, s) Hi ltac:(apply inb_true; lia)).
  pose proof (D (o + s - 1)) as D2. pose proof (cov_in (o + s - 1) live (o, s) Hi ltac:(apply inb_true; lia)).
  destruct (N.leb_spec 8 o); cbn [andb] in D1; [|lia].
  destruct (N.ltb_spec (o + s - 1) E); [|rewrite andb_false_r in D2; lia]. lia.
Qed.

(** Bytes of live blocks are not bytes of holes. *)
Lemma wellE_live_nohole : forall E m hs live b, wellE E m hs live -> (1 <= cov b live)%nat -> cov b hs = 0%nat /\ 8 <= b /\ b < E.
Proof.
  intros E m hs live b [A B C D F G] H. specialize (D b).
  destruct (N.leb_spec 8 b); destruct (N.ltb_spec b E); cbn [andb] in D; lia.
Qed.

(** Changing bytes of live blocks only keeps the free list. *)
Lemma wellE_frame : forall E m m' hs live, wellE E m hs live -> msize m' = msize m ->
  (forall b, b < 8 \/ (1 <= cov b hs)%nat -> mb m' b = mb m b) -> wellE E m' hs live.
Proof.
  intros E m m' hs live [A B C D F G] Z H.
  assert (A' : holes m' hs).
  { destruct A as (o & Ho & Hc). apply holes_seg in Hc. exists o. split.
    - rewrite <- Ho. apply rd32_frame; [assumption|]. intros b B1 B2. apply H. left. lia.
    - apply holes_seg. eapply seg_frame with (m := m); [assumption| |exact Hc].
      intros h s b Hi B1 B2. apply H. right. destruct (hsorted_in _ _ _ _ B Hi) as (_ & K & _).
      eapply cov_in; [exact Hi|]. apply inb_true. lia. }
  constructor; try assumption.
  - intros h s Hi. rewrite Z. apply C. assumption.
  - rewrite Z. assumption.
Qed.

Lemma wellE_resize : forall E m hs live, wellE E m hs live ->
  well (resize m E) hs live /\ (forall b, b < msize m -> mb (resize m E) b = mb m b).
Proof.
  intros E m hs live H. pose proof H as [A B C D F G].
  assert (Hb : forall b, b < msize m -> mb (resize m E) b = mb m b).
  { intros b Hb. cbn [resize mb]. destruct (N.ltb_spec b (N.min E (msize m))); [reflexivity|lia]. }
  split; [|exact Hb]. apply well_wellE. cbn [resize msize].
  assert (Hrd : forall o v, rd32 m o = Some v -> rd32 (resize m E) o = Some v).
  { intros o v R. pose proof (rd32_bound _ _ _ R). rewrite <- R. unfold rd32. rewrite !Hb by lia. cbn [resize msize].
    destruct (N.leb_spec (o + 4) E); [|lia]. destruct (N.leb_spec (o + 4) (msize m)); [reflexivity|lia]. }
  constructor; try assumption.
  - destruct A as (o & Ho & Hc). exists o. split; [apply Hrd; assumption|]. clear Ho. revert o Hc. clear - Hrd.
    induction hs as [|[h s] r IH]; intros o Hc; cbn [holes_from] in *; [assumption|].
    destruct Hc as (K1 & K2 & K3 & n & K4 & K5). split; [assumption|]. split; [assumption|]. split; [apply Hrd; assumption|].
    exists n. split; [apply Hrd; assumption|]. apply IH. assumption.
  - intros h s Hi. cbn [resize msize]. specialize (C h s Hi). lia.
  - cbn [resize msize]. lia.
Qed.

(** Freeing a live block. *)
Lemma well_free : forall E m hs o s live, wellE E m hs ((o, s) :: live) -> o + s <= msize m ->
  exists m' hs', hole_add m o s = Some m' /\ msize m' = msize m /\ wellE E m' hs' live /\
    (forall b, (1 <= cov b live)%nat -> mb m' b = mb m b) /\
    (forall b, cov b hs' = (cov b hs + cov b [(o, s)])%nat).
Proof.
  intros E m hs o s live H Hos. pose proof H as [A B C D F G].
  pose proof (wellE_live_in _ _ _ _ o s H (or_introl eq_refl)) as (L1 & L2 & L3 & L4).
  inversion G as [|x l (G1 & G2 & G3) G4]; subst. cbn [fst snd] in *.
  destruct (hole_add_spec m hs o s A B C ltac:(lia) L1 G2 G3 G1 Hos) as (m' & hs' & E1 & Z1 & H1 & S1 & M1 & C1 & F1).
  { intros b. specialize (D b). cbn [cov] in *. destruct ((8 <=? b) && (b <? E)); lia. }
  exists m', hs'. split; [exact E1|]. split; [exact Z1|].
  assert (W : wellE E m' hs' live).
  { constructor; try assumption.
    - intros b. rewrite C1, <- D. cbn [cov]. lia.
    - rewrite Z1. assumption. }
  split; [exact W|]. split; [|exact C1].
  intros b Hb. destruct (wellE_live_nohole _ _ _ _ b W Hb) as (K1 & K2 & _). apply F1; assumption.
Qed.

(** Placing a new block. *)
Lemma place_spec : forall E m hs live size,
  wellE E m hs live -> size mod 8 = 0 -> size <> 0 -> E + size < 2147483648 ->
  exists h m' hs' o E', hole_find m 0 size = Some h /\ place m h size E = Some (m', o, E') /\
    msize m' = msize m /\ wellE E' m' hs' ((o, size) :: live) /\ E <= E' /\ E' <= E + size /\
    (forall b, (1 <= cov b live)%nat -> mb m' b = mb m b) /\
    (* the segment grows only if no hole is big enough *)
    (E' <> E -> forall h s, In (h, s) hs -> s < size).
Proof.
  intros E m hs live size H Hm8 Hs0 Hlim. pose proof H as [A B C D F G].
  destruct (hole_find_spec m 0 size hs A B C ltac:(lia)) as (r & Hf & [(-> & P)|(s & P1 & P2 & _)]).
  - exists 0, m, hs, E, (E + size). split; [exact Hf|]. unfold place. cbn [N.eqb negb].
    split; [reflexivity|]. split; [reflexivity|]. split.
    { constructor; try assumption.
      - intros b. specialize (D b). cbn [cov].
        destruct (inb b (E, size)) eqn:Eb; [apply inb_true in Eb|apply inb_false in Eb];
          destruct (N.leb_spec 8 b); destruct (N.ltb_spec b E); destruct (N.ltb_spec b (E + size)); cbn [andb] in *; lia.
      - destruct F as (F1 & F2 & F3 & F4). repeat split; try assumption; try lia. rewrite N.add_mod, F3, Hm8 by lia. reflexivity.
      - constructor; [cbn [fst snd]; intuition|assumption]. }
    split; [lia|]. split; [lia|]. split; [reflexivity|]. intros _. apply P. reflexivity.
  - destruct (hsorted_in _ _ _ _ B P1) as (G1 & G2 & G3 & G4).
    destruct (use_hole_spec m hs r s size A B C ltac:(lia) P1 P2 Hm8 Hs0) as (m' & hs' & E1 & Z1 & H1 & S1 & M1 & C1 & F1).
    exists r, m', hs', r, E. split; [exact Hf|]. unfold place. destruct (N.eqb_spec r 0); [lia|]. cbn [negb]. rewrite E1. cbn [obind].
    split; [reflexivity|]. split; [exact Z1|].
    assert (W : wellE E m' hs' ((r, size) :: live)).
    { constructor; try assumption.
      - intros b. rewrite <- D, <- C1. cbn [cov]. lia.
      - rewrite Z1. assumption.
      - constructor; [cbn [fst snd]; repeat split; assumption|assumption]. }
    split; [exact W|]. split; [lia|]. split; [lia|]. split; [|intros K; contradiction].
    intros b Hb. destruct (wellE_live_nohole _ _ _ _ b W) as (K1 & K2 & _); [cbn [cov]; lia|]. apply F1; assumption.
Qed.
