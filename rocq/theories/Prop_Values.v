(** C51: a value read through the API can be written back. *)

From Coq Require Import List ZArith Bool Lia.
Import ListNotations.
From Verif Require Import Values ValuesSpec ValuesProofs.
Open Scope Z_scope.

(** What was read from a leaf whose type is no union is written back as it was. *)
Theorem C51_read_write_partial : forall t v, wft t -> no_union t -> member t v -> narrow v ->
  write t (fst (ly2sr v)) (snd (ly2sr v)) = WStored v.
Proof.
  assert (B : forall t u v, wft t -> (forall ms, t <> LUnion ms) -> (forall t', t <> LRef t') -> member t v -> narrow v ->
    wft u -> (forall s, store u s = store t s) -> (forall f, t = LDec f -> fdigits u = FDigits f) ->
    write u (fst (ly2sr v)) (snd (ly2sr v)) = WStored v).
  { intros t u v W NU NR M N Wu E F. destruct (store_back t v W NU NR M N) as (s & T & S).
    destruct (member_shape t v W NU NR M) as [M1 M2].
    rewrite (sr2str_text u v s Wu M1).
    - rewrite E, S. reflexivity.
    - intros f n Hv. destruct (M2 f n Hv) as (A & A2 & A3). split; [exact A|]. split; [exact A2|]. apply F. exact A3.
    - exact T.
    - left. rewrite E. exact S. }
  intros t v W NU M N. destruct t as [sg b|f| | |k a|ms|t].
  1-5: apply (B _ _ _ W); try assumption; try (intros; discriminate); try reflexivity; intros f' Hf; first [discriminate Hf | injection Hf as <-; reflexivity].
  - destruct NU.
  - inversion W; subst. apply (B t (LRef t) v); try assumption; try reflexivity.
    + intros ms Hms. subst t. destruct NU.
    + intros f Hf. subst t. reflexivity.
Qed.
Print Assumptions C51_read_write_partial.

(** What was read from a leaf whose type is a union is written back as it was,
    if no member before that of the value accepts its text and, for a decimal, decimals
    before it have as many fraction digits. *)
Theorem C51_union_partial : forall ms1 m ms2 v t, t = LUnion (ms1 ++ m :: ms2) \/ t = LRef (LUnion (ms1 ++ m :: ms2)) ->
  wft t -> (forall ms, m <> LUnion ms) -> (forall t', m <> LRef t') -> member m v -> narrow (VUnion v) ->
  (forall m' s, In m' ms1 -> sr2str t (fst (ly2sr v)) (snd (ly2sr v)) = RText s -> store m' s = None) ->
  (v = VEmpty -> ms1 = []) ->
  (forall f f', m = LDec f -> In (LDec f') ms1 -> f' = f) ->
  write t (fst (ly2sr v)) (snd (ly2sr v)) = WStored (VUnion v).
Proof.
  intros ms1 m ms2 v t Ht W NU NR M N HE HZ HF0.
  assert (HF : forall f, m = LDec f -> first_dec (ms1 ++ m :: ms2) = Some f).
  { intros f ->. assert (F := fun f' => HF0 f f' eq_refl). clear - F. induction ms1 as [|x r IH]; [reflexivity|].
    cbn [app first_dec]. destruct x; try (apply IH; intros f' Hf; apply F; right; exact Hf).
    f_equal. apply F. left. reflexivity. }
  assert (Wm : wft m).
  { assert (forall ms, wft (LUnion ms) -> In m ms -> wft m). { intros ms Wms Hm. inversion Wms; subst. eapply Forall_forall; eauto. }
    apply (H (ms1 ++ m :: ms2)); [|apply in_or_app; right; left; reflexivity]. destruct Ht as [-> | ->]; [exact W|]. inversion W; assumption. }
  assert (N' : narrow v).
  { destruct v; try exact Logic.I; [exact N|]. exfalso. destruct M as (s0 & S).
    destruct m; cbn [store] in S; try congruence.
    - destruct (parse_int s0); [|discriminate]. destruct (in_range signed bits z); discriminate.
    - destruct (parse_dec fd s0); [|discriminate]. destruct (in_range true 64 z); discriminate.
    - destruct (text_eqb s0 t_true); [discriminate|]. destruct (text_eqb s0 t_false); discriminate.
    - destruct (text_eqb s0 []); discriminate.
    - destruct (accept s0); discriminate. }
  destruct (store_back m v Wm NU NR M N') as (s & T & S). destruct (member_shape m v Wm NU NR M) as [M1 M2].
  assert (HD : forall f n, v = VDec f n -> (1 <= f <= 18)%nat /\ - 2 ^ 63 <= n < 2 ^ 63 /\ fdigits t = FDigits f).
  { intros f n Hv. destruct (M2 f n Hv) as (A & A2 & A3). split; [exact A|]. split; [exact A2|].
    destruct Ht as [-> | ->]; unfold fdigits; cbn [resolve]; rewrite (HF f A3); reflexivity. }
  assert (U : store t s = Some (VUnion v)).
  { assert (X : store (LUnion (ms1 ++ m :: ms2)) s = Some (VUnion v)); [|destruct Ht as [-> | ->]; exact X].
    apply store_union; [|exact S]. intros m' Hm.
    destruct v; try (apply (HE m' s Hm); cbn [ly2sr fst snd sr2str val_text fd_of] in *).
    - injection T as <-. destruct (M1 _ _ _ eq_refl) as [B1 B2]. destruct (in_range_abs _ _ _ B1 B2) as [A1 A2].
      apply to_buf_ok. pose proof (show_i_len n A1 A2). lia.
    - injection T as <-. destruct (HD _ _ eq_refl) as (B1 & B2 & ->). apply to_buf_ok. apply dec_text; assumption.
    - injection T as <-. reflexivity.
    - rewrite (HZ eq_refl) in Hm. destruct Hm.
    - injection T as <-. reflexivity.
    - discriminate T. }
  rewrite (sr2str_text t v s W M1 HD T); [rewrite U; reflexivity|]. right. exists (VUnion v). exact U.
Qed.
Print Assumptions C51_union_partial.

(** Buffers are large enough for all that is read from a leaf whose type is no union. *)
Theorem C51_buffer_partial : forall t v, wft t -> no_union t -> member t v ->
  sr2str t (fst (ly2sr v)) (snd (ly2sr v)) <> ROverflow /\ sr2str t (fst (ly2sr v)) (snd (ly2sr v)) <> RUndef.
Proof.
  assert (B : forall t u v, wft t -> (forall ms, t <> LUnion ms) -> (forall t', t <> LRef t') -> member t v ->
    (forall f, t = LDec f -> fdigits u = FDigits f) ->
    exists s, sr2str u (fst (ly2sr v)) (snd (ly2sr v)) = RText s \/ sr2str u (fst (ly2sr v)) (snd (ly2sr v)) = RNull).
  { intros t u v W NU NR M F. destruct (member_shape t v W NU NR M) as [M1 M2].
    destruct v; cbn [ly2sr fst snd sr2str]; try (eexists; left; reflexivity); try (exists []; right; reflexivity).
    - destruct (M1 _ _ _ eq_refl) as [B1 B2]. destruct (in_range_abs _ _ _ B1 B2) as [A1 A2].
      exists (show_i n). left. apply to_buf_ok. pose proof (show_i_len n A1 A2). lia.
    - destruct (M2 _ _ eq_refl) as (B1 & B2 & B3). rewrite (F _ B3). eexists. left. apply to_buf_ok. apply dec_text; assumption.
    - exfalso. destruct M as (s0 & S). destruct t; cbn [store] in S; try congruence.
      + destruct (parse_int s0); [|discriminate]. destruct (in_range signed bits z); discriminate.
      + destruct (parse_dec fd s0); [|discriminate]. destruct (in_range true 64 z); discriminate.
      + destruct (text_eqb s0 t_true); [discriminate|]. destruct (text_eqb s0 t_false); discriminate.
      + destruct (text_eqb s0 []); discriminate.
      + destruct (accept s0); discriminate. }
  intros t v W NU M.
  assert (X : exists s, sr2str t (fst (ly2sr v)) (snd (ly2sr v)) = RText s \/ sr2str t (fst (ly2sr v)) (snd (ly2sr v)) = RNull).
  { destruct t as [sg b|f| | |k a|ms|t].
    1-5: apply (B _ _ _ W); try assumption; try (intros; discriminate); intros f' Hf; first [discriminate Hf | injection Hf as <-; reflexivity].
    - destruct NU.
    - inversion W; subst. apply (B t (LRef t) v); try assumption.
      + intros ms Hms. subst t. destruct NU.
      + intros f Hf. subst t. reflexivity. }
  destruct X as (s & [-> | ->]); split; discriminate.
Qed.
Print Assumptions C51_buffer_partial.

Lemma rne_le : forall p q N, 0 < q -> p <= N * q -> rne p q <= N.
Proof.
  intros p q N Hq H. pose proof (rne_err p q Hq). destruct (Z_le_gt_dec (rne p q) N); [assumption|].
  assert (q * (N + 1) <= q * rne p q) by (apply Z.mul_le_mono_nonneg_l; lia). lia.
Qed.

(** A decimal given as a double is stored as the nearest number with the
    fraction digits of the leaf, if that is in the range of decimals. *)
Theorem C51_write_decimal_partial : forall fd m e, (1 <= fd <= 18)%nat ->
  Z.abs m * 2 ^ Z.max 0 e * 10 ^ Z.of_nat fd <= (2 ^ 63 - 1) * 2 ^ Z.max 0 (- e) ->
  exists n, write (LDec fd) SDec (DDbl (DFin m e)) = WStored (VDec fd n) /\ nearest m e fd n.
Proof.
  intros fd m e Hf H. pose proof (pow10_pos fd) as Q. set (q := 10 ^ Z.of_nat fd) in *.
  assert (X : 0 <= scaled m e fd <= 2 ^ 63 - 1 /\
    2 * Z.abs (scaled m e fd * 2 ^ Z.max 0 (- e) - Z.abs m * 2 ^ Z.max 0 e * q) <= 2 ^ Z.max 0 (- e)).
  { unfold scaled. fold q. destruct (0 <=? e) eqn:E.
    - apply Z.leb_le in E. assert (E1 : Z.max 0 e = e) by lia. assert (E2 : Z.max 0 (- e) = 0) by lia. rewrite E1, E2 in *. change (2 ^ 0) with 1 in *.
      assert (0 <= 2 ^ e) by (apply Z.pow_nonneg; lia).
      split; [split|]; [|lia|lia]. repeat apply Z.mul_nonneg_nonneg; lia.
    - apply Z.leb_gt in E. assert (E1 : Z.max 0 e = 0) by lia. assert (E2 : Z.max 0 (- e) = - e) by lia. rewrite E1, E2 in *. change (2 ^ 0) with 1 in *. rewrite Z.mul_1_r in *.
      assert (U : 0 < 2 ^ - e) by (apply Z.pow_pos_nonneg; lia).
      split; [split|].
      + apply rne_nonneg; [|exact U]. apply Z.mul_nonneg_nonneg; lia.
      + apply rne_le; assumption.
      + rewrite (Z.mul_comm (rne _ _)). apply rne_err. exact U. }
  destruct X as [[X0 X1] X2]. set (x := scaled m e fd) in *.
  exists (if m <? 0 then - x else x). split.
  - unfold write, sr2str. cbn [fdigits resolve fmt_f]. fold x. rewrite to_buf_ok.
    + cbn [store]. rewrite parse_show_dec by lia. rewrite (proj2 (in_range_64 _)); [reflexivity|]. destruct (m <? 0); lia.
    + pose proof (show_dec_len (m <? 0) fd x (19 - fd) X0 ltac:(lia)) as L. replace (19 - fd + fd)%nat with 19%nat in L by lia.
      assert (x < 10 ^ Z.of_nat 19) by (change (Z.of_nat 19) with 19; lia). specialize (L H0). lia.
  - unfold nearest. fold q. intro n'. set (u := 2 ^ Z.max 0 (- e)) in *. set (w := 2 ^ Z.max 0 e) in *.
    assert (U : 0 < u) by (apply Z.pow_pos_nonneg; lia).
    assert (K : 2 * Z.abs ((if m <? 0 then - x else x) * u - m * w * q) <= u).
    { destruct (m <? 0) eqn:Em.
      - apply Z.ltb_lt in Em. replace (- x * u - m * w * q) with (- (x * u - Z.abs m * w * q)) by (rewrite (Z.abs_neq m) by lia; ring). rewrite Z.abs_opp. exact X2.
      - apply Z.ltb_ge in Em. rewrite (Z.abs_eq m) in X2 by lia. exact X2. }
    set (n := if m <? 0 then - x else x) in *. destruct (Z.eq_dec n' n) as [-> | Hne]; [lia|].
    assert (Z.abs (n' * u - n * u) >= u).
    { rewrite <- Z.mul_sub_distr_r, Z.abs_mul, (Z.abs_eq u) by lia.
      assert (1 * u <= Z.abs (n' - n) * u) by (apply Z.mul_le_mono_nonneg_r; lia). lia. }
    lia.
Qed.
Print Assumptions C51_write_decimal_partial.

(** sr_equal_val() tells exactly whether two values are the same. *)
Theorem C51_equal : forall a b, wfv a -> wfv b -> (equal_val a b = true <-> same a b).
Proof.
  assert (K : forall a b, kind_eqb a b = true <-> a = b) by (intros [] []; split; intro; congruence || discriminate || reflexivity).
  assert (T : forall a b, sty_eqb a b = true <-> a = b).
  { intros a b. destruct a, b; cbn [sty_eqb]; try (split; intro; congruence || discriminate || reflexivity).
    - rewrite K. split; congruence.
    - rewrite andb_true_iff, eqb_true_iff, Z.eqb_eq. split; [intros []; congruence|]. intro E. injection E as <- <-. auto. }
  assert (C : forall a b, cmp_str a b = true <-> a = b).
  { intros [a|] [b|]; cbn [cmp_str]; try (split; intro; congruence || discriminate || reflexivity).
    rewrite text_eqb_eq. split; congruence. }
  assert (D : forall x y, dbl_eqb x y = true <-> same_dbl x y).
  { intros [m e|x|] [m' e'|y|]; cbn [dbl_eqb same_dbl].
    1: { destruct (e <=? e') eqn:E.
      - apply Z.leb_le in E. rewrite Z.min_l by lia. rewrite Z.sub_diag, Z.pow_0_r, Z.mul_1_r, Z.eqb_eq. reflexivity.
      - apply Z.leb_gt in E. rewrite Z.min_r by lia. rewrite Z.sub_diag, Z.pow_0_r, Z.mul_1_r, Z.eqb_eq. reflexivity. }
    4: apply eqb_true_iff.
    all: split; [discriminate|intros []]. }
  intros [xa ta da fa oa] [xb tb db fb ob] Wa Wb. unfold equal_val, same, wfv in *. cbn [v_ty v_orig v_xpath v_dflt v_dat] in *.
  destruct (sty_eqb ta tb) eqn:E1; cbn [negb orb];
    [apply T in E1; subst tb|split; [discriminate|]; intros (_ & X & _); apply T in X; congruence].
  destruct (cmp_str oa ob) eqn:E2; cbn [negb orb];
    [apply C in E2; subst ob|split; [discriminate|]; intros (_ & _ & _ & X & _); apply C in X; congruence].
  destruct (cmp_str xa xb) eqn:E3; cbn [negb orb];
    [apply C in E3; subst xb|split; [discriminate|]; intros (X & _); apply C in X; congruence].
  destruct (Bool.eqb fa fb) eqn:E4; cbn [negb orb];
    [apply eqb_prop in E4; subst fb|split; [discriminate|]; intros (_ & _ & X & _); apply eqb_true_iff in X; congruence].
  assert (R : forall (P Q : Prop), (P <-> Q) -> (P <-> xa = xa /\ ta = ta /\ fa = fa /\ oa = oa /\ Q)) by tauto.
  apply R.
  destruct ta; destruct da; try contradiction; destruct db; try contradiction; cbn [str_of cmp_str]; try tauto;
    try (rewrite text_eqb_eq; split; congruence); try (split; intro; discriminate).
  - rewrite eqb_true_iff. split; congruence.
  - apply D.
  - rewrite Z.eqb_eq. split; congruence.
Qed.
Print Assumptions C51_equal.

(** A copy of a value without an origin that is no anydata or anyxml is the same. *)
Theorem C51_dup_partial : forall v, wfv v -> v_orig v = None -> v_ty v <> SAnyxml -> v_ty v <> SAnydata ->
  exists w, dup_val v = VOk w /\ same w v.
Proof.
  intros [x t d f o] W O N1 N2. unfold wfv, dup_val, dup_data, new_val, set_str_data in *.
  cbn [v_ty v_orig v_xpath v_dflt v_dat] in *. subst o.
  assert (R : forall y, y <> DNan -> same_dbl y y).
  { intros [m e|b|] Hy; cbn [same_dbl]; [reflexivity|reflexivity|congruence]. }
  destruct t; destruct d; try contradiction; try congruence; cbn [str_of is_str_type edit_string];
    (eexists; split; [reflexivity|]); unfold same; cbn [v_ty v_orig v_xpath v_dflt v_dat]; auto 10.
Qed.
Print Assumptions C51_dup_partial.

(** Setting a text of a value that is new or has another text. *)
Theorem C51_set_text_partial : forall v k s, (v_dat v = DZero \/ exists o, v_dat v = DStr o) ->
  exists w, set_str_data v (SText k) (Some s) = VOk w /\ v_ty w = SText k /\ v_dat w = DStr s /\
    v_xpath w = v_xpath v /\ v_orig w = v_orig v /\ v_dflt w = v_dflt v.
Proof.
  intros [x t d f o] k s H. cbn [v_dat] in H. unfold set_str_data. cbn [is_str_type v_dat].
  assert (E : edit_string d (Some s) = Some (DStr s)).
  { destruct H as [-> | (old & ->)]; [reflexivity|]. cbn [edit_string]. destruct (Nat.leb_spec (length s) (length old)); [|reflexivity].
    unfold strcpy. destruct (Nat.leb_spec (S (length s)) (S (length old))); [reflexivity|lia]. }
  rewrite E. eexists. split; [reflexivity|]. cbn. auto.
Qed.
Print Assumptions C51_set_text_partial.

(** F142: a decimal with 16 or more digits read from a leaf and written back
    is another number because values have it as a double (documented in
    src/sysrepo_types.h 250): 900719925474099.3 becomes 900719925474099.2. *)
Theorem C51_precision_refuted : exists v w, member (LDec 1) v /\ v <> w /\
  write (LDec 1) (fst (ly2sr v)) (snd (ly2sr v)) = WStored w.
Proof.
  exists (VDec 1 9007199254740993), (VDec 1 9007199254740992). split; [|split; [discriminate|reflexivity]].
  exists (show_dec false 1 9007199254740993). reflexivity.
Qed.
Print Assumptions C51_precision_refuted.

(** F143: a decimal near the limit of its type that was read from a leaf is
    refused when it is written back, its double is out of the range of the type. *)
Theorem C51_range_refuted : exists v, member (LDec 1) v /\
  write (LDec 1) (fst (ly2sr v)) (snd (ly2sr v)) = WRefused.
Proof.
  exists (VDec 1 (2 ^ 63 - 1)). split; [|reflexivity]. exists (show_dec false 1 (2 ^ 63 - 1)). reflexivity.
Qed.
Print Assumptions C51_range_refuted.

(** F144: a decimal of a union is written with the fraction digits of the first
    decimal of the union instead of its own (src/common.c 4166-4172), 1.234 becomes 1.2. *)
Theorem C51_union_digits_refuted : exists t v w, wft t /\ member t v /\ v <> w /\ narrow v /\
  write t (fst (ly2sr v)) (snd (ly2sr v)) = WStored w.
Proof.
  exists (LUnion [LDec 1; LDec 3]), (VUnion (VDec 3 1234)), (VUnion (VDec 1 12)).
  split; [constructor; repeat constructor|]. split; [|split; [discriminate|split; [reflexivity|reflexivity]]].
  exists [49; 46; 50; 51; 52]. reflexivity.
Qed.
Print Assumptions C51_union_digits_refuted.

(** F145: a decimal of a member of a union that is a leafref cannot be written
    at all, no decimal is found in the union (src/common.c 4168) and no text is created. *)
Theorem C51_union_leafref_refuted : exists t v, wft t /\ member t v /\ narrow v /\
  write t (fst (ly2sr v)) (snd (ly2sr v)) = WRefused.
Proof.
  exists (LUnion [LRef (LDec 1); LBool]), (VUnion (VDec 1 15)). split; [|split; [|split; reflexivity]].
  - constructor. repeat constructor. discriminate.
  - exists [49; 46; 53]. reflexivity.
Qed.
Print Assumptions C51_union_leafref_refuted.

(** F146: writing a value an application got from a decimal of a union
    overflows the buffer of 22 bytes on the stack (src/sysrepo.c 3428, src/common.c 4176):
    922337203685477580.7 of a member with one fraction digit is printed with 18 of them. *)
Theorem C51_union_overflow_refuted : exists t v, wft t /\ member t v /\
  write t (fst (ly2sr v)) (snd (ly2sr v)) = WOverflow.
Proof.
  exists (LUnion [LDec 18; LDec 1]), (VUnion (VDec 1 (2 ^ 63 - 1))). split; [|split].
  - constructor. repeat constructor.
  - exists (show_dec false 1 (2 ^ 63 - 1)). reflexivity.
  - reflexivity.
Qed.
Print Assumptions C51_union_overflow_refuted.

(** F147: a value with a decimal that is too large, as 1e20, is not refused
    but overflows the buffer of 22 bytes on the stack (src/common.c 4176). *)
Theorem C51_overflow_refuted : exists fd d, wft (LDec fd) /\ write (LDec fd) SDec (DDbl d) = WOverflow.
Proof. exists 1%nat, (DFin (10 ^ 20) 0). split; [repeat constructor|reflexivity]. Qed.
Print Assumptions C51_overflow_refuted.

(** F148: a copy of a value of an anydata node has no data and a copy of any
    value has no origin (src/utils/values.c 322-325, 283-329), sr_equal_val() says they differ. *)
Theorem C51_dup_refuted : exists v w, wfv v /\ v_orig v = None /\ dup_val v = VOk w /\ equal_val v w = false.
Proof.
  exists (mkval (Some [47]) SAnydata (DStr [60]) false None). eexists. split; [exact Logic.I|]. split; [reflexivity|].
  split; [reflexivity|]. reflexivity.
Qed.
Print Assumptions C51_dup_refuted.

Theorem C51_dup_origin_refuted : exists v w, wfv v /\ v_ty v = SBool /\ dup_val v = VOk w /\ equal_val v w = false.
Proof.
  exists (mkval (Some [47]) SBool (DBool true) false (Some [111])). eexists. split; [exact Logic.I|]. split; [reflexivity|].
  split; [reflexivity|]. reflexivity.
Qed.
Print Assumptions C51_dup_origin_refuted.

(** F149: setting a text of a value that has a number uses the number as a
    pointer (src/utils/values.c 168, 240-247). *)
Theorem C51_set_text_refuted : exists v k s, wfv v /\ set_str_data v (SText k) (Some s) = VCrash.
Proof. exists (mkval (Some [47]) (SInt true 8) (DNum 5) false None), KString, [97]. split; [exact Logic.I|reflexivity]. Qed.
Print Assumptions C51_set_text_refuted.

(** The hypotheses can be met. *)
Example C51_example :
  let t := LRef (LDec 3) in let v := VDec 3 (-1234567) in
  wft t /\ no_union t /\ member t v /\ narrow v /\
  write t (fst (ly2sr v)) (snd (ly2sr v)) = WStored v.
Proof.
  cbv zeta. assert (W : wft (LRef (LDec 3))) by (constructor; [constructor; lia|discriminate]).
  split; [exact W|]. split; [exact Logic.I|].
  assert (M : member (LRef (LDec 3)) (VDec 3 (-1234567))) by (exists [45; 49; 50; 51; 52; 46; 53; 54; 55]; reflexivity).
  split; [exact M|]. split; [reflexivity|]. apply C51_read_write_partial; [exact W|exact Logic.I|exact M|reflexivity].
Qed.

Example C51_union_example :
  let t := LUnion [LBool; LInt true 8; LDec 2] in
  wft t /\ member (LDec 2) (VDec 2 150) /\ write t (fst (ly2sr (VDec 2 150))) (snd (ly2sr (VDec 2 150))) = WStored (VUnion (VDec 2 150)).
Proof.
  cbv zeta. assert (W : wft (LUnion [LBool; LInt true 8; LDec 2])) by (constructor; repeat apply Forall_cons; try apply Forall_nil; constructor; lia).
  assert (M : member (LDec 2) (VDec 2 150)) by (exists [49; 46; 53]; reflexivity).
  split; [exact W|]. split; [exact M|].
  apply (C51_union_partial [LBool; LInt true 8] (LDec 2) [] (VDec 2 150) (LUnion [LBool; LInt true 8; LDec 2]));
    try assumption; try discriminate.
  - left. reflexivity.
  - reflexivity.
  - intros m' s Hm E. cbv in E. injection E as <-. destruct Hm as [<- | [<- | []]]; reflexivity.
  - intros f f' _ [E | [E | []]]; discriminate E.
Qed.
