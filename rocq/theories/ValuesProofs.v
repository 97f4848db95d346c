From Coq Require Import List ZArith Bool Lia.
Import ListNotations.
From Verif Require Import Values ValuesSpec.
Open Scope Z_scope.

(** * Digits *)

Lemma pow10_pos : forall w, 0 < 10 ^ Z.of_nat w.
Proof. intro. apply Z.pow_pos_nonneg; lia. Qed.

Lemma pow10_S : forall w, 10 ^ Z.of_nat (S w) = 10 * 10 ^ Z.of_nat w.
Proof. intro. rewrite Nat2Z.inj_succ. apply Z.pow_succ_r. lia. Qed.

Lemma padw_len : forall w n, length (padw w n) = w.
Proof. induction w; intro n; cbn [padw]; [reflexivity|]. rewrite app_length, IHw. cbn. lia. Qed.

Lemma padw_digit : forall w n, forallb is_digit (padw w n) = true.
Proof.
  induction w; intro n; cbn [padw]; [reflexivity|]. rewrite forallb_app, IHw. cbn [forallb].
  unfold is_digit. pose proof (Z.mod_pos_bound n 10). rewrite !(proj2 (Z.leb_le _ _)) by lia. reflexivity.
Qed.

Lemma padw_val : forall w n, 0 <= n -> fold_left (fun a c => 10 * a + (c - 48)) (padw w n) 0 = n mod 10 ^ Z.of_nat w.
Proof.
  induction w; intros n Hn.
  - cbn. rewrite Z.mod_1_r. reflexivity.
  - cbn [padw]. rewrite fold_left_app, IHw by (apply Z.div_pos; lia). cbn [fold_left].
    rewrite pow10_S. rewrite Z.rem_mul_r by (try lia; apply pow10_pos). lia.
Qed.

Lemma nd_spec : forall fuel n, 0 <= n -> Z.log2 n <= Z.of_nat fuel ->
  n < 10 ^ Z.of_nat (nd fuel n) /\ (nd fuel n = 1%nat \/ 10 ^ (Z.of_nat (nd fuel n) - 1) <= n) /\ (1 <= nd fuel n)%nat.
Proof.
  induction fuel; intros n Hn Hl; cbn [nd].
  - assert (n < 2). { destruct (Z.eq_dec n 0); [lia|]. apply Z.log2_lt_cancel. change (Z.log2 2) with 1. lia. }
    cbn. lia.
  - destruct (n <? 10) eqn:E; [apply Z.ltb_lt in E; cbn; lia|]. apply Z.ltb_ge in E.
    assert (D : 0 <= n / 10) by (apply Z.div_pos; lia).
    assert (L : Z.log2 (n / 10) <= Z.of_nat fuel).
    { assert (n / 10 <= n / 2). { apply Z.div_le_compat_l; lia. }
      assert (Z.log2 (n / 2) <= Z.of_nat fuel).
      { rewrite <- (Z.pow_1_r 2) at 1. rewrite <- Z.shiftr_div_pow2, Z.log2_shiftr by lia. lia. }
      pose proof (Z.log2_le_mono _ _ H). lia. }
    specialize (IHfuel _ D L). destruct IHfuel as (A & B & C).
    rewrite pow10_S.
    assert (M := Z.mul_div_le n 10 ltac:(lia)). assert (M2 := Z.mul_succ_div_gt n 10 ltac:(lia)).
    split; [lia|]. split; [|lia]. right.
    replace (Z.of_nat (S (nd fuel (n / 10))) - 1) with (Z.of_nat (nd fuel (n / 10))) by lia.
    destruct B as [B | B]; [rewrite B; cbn; lia|].
    replace (Z.of_nat (nd fuel (n / 10))) with (Z.succ (Z.of_nat (nd fuel (n / 10)) - 1)) by lia.
    rewrite Z.pow_succ_r by lia. lia.
Qed.

Lemma ndig_spec : forall n, 0 <= n ->
  n < 10 ^ Z.of_nat (ndig n) /\ (ndig n = 1%nat \/ 10 ^ (Z.of_nat (ndig n) - 1) <= n) /\ (1 <= ndig n)%nat.
Proof. intros n Hn. apply nd_spec; [exact Hn|]. rewrite Z2Nat.id by apply Z.log2_nonneg. lia. Qed.

Lemma ndig_le : forall n k, 0 <= n -> (1 <= k)%nat -> n < 10 ^ Z.of_nat k -> (ndig n <= k)%nat.
Proof.
  intros n k Hn Hk H. destruct (ndig_spec n Hn) as (_ & [A | A] & _); [lia|].
  assert (10 ^ (Z.of_nat (ndig n) - 1) < 10 ^ Z.of_nat k) by lia.
  apply Z.pow_lt_mono_r_iff in H0; lia.
Qed.

Lemma digits_of : forall s, s <> [] -> forallb is_digit s = true ->
  digits s = Some (fold_left (fun a c => 10 * a + (c - 48)) s 0).
Proof. intros s H1 H2. unfold digits. rewrite H2. destruct s; [congruence|]. reflexivity. Qed.

Lemma padw_nonnil : forall w n, (1 <= w)%nat -> padw w n <> [].
Proof. intros w n H E. apply (f_equal (@length Z)) in E. rewrite padw_len in E. cbn in E. lia. Qed.

Lemma digits_padw : forall w n, (1 <= w)%nat -> 0 <= n -> digits (padw w n) = Some (n mod 10 ^ Z.of_nat w).
Proof. intros w n H Hn. rewrite digits_of; [rewrite padw_val by exact Hn; reflexivity | apply padw_nonnil; exact H | apply padw_digit]. Qed.

Lemma digits_show : forall n, 0 <= n -> digits (show_u n) = Some n.
Proof.
  intros n Hn. destruct (ndig_spec n Hn) as (A & _ & C). unfold show_u. rewrite digits_padw by assumption.
  rewrite Z.mod_small by lia. reflexivity.
Qed.

Lemma signed_of_digit : forall f s, (exists c r, s = c :: r /\ is_digit c = true) -> signed_of f s = f s.
Proof.
  intros f s (c & r & -> & H). cbn [signed_of]. destruct (c =? minus) eqn:E; [|reflexivity].
  apply Z.eqb_eq in E. subst. discriminate H.
Qed.

Lemma show_u_head : forall n, 0 <= n -> exists c r, show_u n = c :: r /\ is_digit c = true.
Proof.
  intros n Hn. unfold show_u. pose proof (padw_digit (ndig n) n) as D. destruct (padw (ndig n) n) as [|c r] eqn:E.
  - exfalso. refine (padw_nonnil _ _ _ E). apply (ndig_spec n Hn).
  - exists c, r. split; [reflexivity|]. cbn in D. apply andb_prop in D. tauto.
Qed.

Lemma parse_show : forall n, parse_int (show_i n) = Some n.
Proof.
  intro n. unfold parse_int, show_i. destruct (n <? 0) eqn:E.
  - apply Z.ltb_lt in E. cbn [signed_of]. rewrite Z.eqb_refl, digits_show by lia. cbn. rewrite Z.opp_involutive. reflexivity.
  - apply Z.ltb_ge in E. rewrite signed_of_digit by (apply show_u_head; exact E). apply digits_show. exact E.
Qed.

Lemma cut_digits : forall a b, forallb is_digit a = true -> cut dot (a ++ dot :: b) = (a, Some b).
Proof.
  induction a as [|c a IH]; intros b H; cbn [cut app]; [reflexivity|]. cbn in H. apply andb_prop in H. destruct H as [Hc Ha].
  destruct (c =? dot) eqn:E; [apply Z.eqb_eq in E; subst; discriminate Hc|]. rewrite IH by exact Ha. reflexivity.
Qed.

Lemma parse_show_dec : forall neg fd a, (1 <= fd)%nat -> 0 <= a ->
  parse_dec fd (show_dec neg fd a) = Some (if neg then - a else a).
Proof.
  intros neg fd a Hf Ha. pose proof (pow10_pos fd) as P.
  assert (Q : 0 <= a / 10 ^ Z.of_nat fd) by (apply Z.div_pos; lia).
  assert (B : forall s, s = show_u (a / 10 ^ Z.of_nat fd) ++ dot :: padw fd a ->
    match cut dot s with
    | (x, None) => option_map (fun i => i * 10 ^ Z.of_nat fd) (digits x)
    | (x, Some b) =>
      if Nat.leb (length b) fd
      then match digits x, digits b with
           | Some i, Some f => Some (i * 10 ^ Z.of_nat fd + f * 10 ^ Z.of_nat (fd - length b))
           | _, _ => None
           end
      else None
    end = Some a).
  { intros s ->. rewrite cut_digits by apply padw_digit. rewrite padw_len, Nat.leb_refl, digits_show by exact Q.
    rewrite digits_padw by assumption. rewrite Nat.sub_diag. cbn [Z.of_nat]. rewrite Z.pow_0_r.
    f_equal. pose proof (Z.div_mod a (10 ^ Z.of_nat fd)). lia. }
  unfold parse_dec, show_dec. destruct neg; cbn [app].
  - cbn [signed_of]. rewrite Z.eqb_refl. rewrite B by reflexivity. reflexivity.
  - rewrite signed_of_digit; [apply B; reflexivity|].
    destruct (show_u_head _ Q) as (c & r & E & D). exists c, (r ++ dot :: padw fd a). rewrite E. auto.
Qed.

Lemma show_dec_len : forall neg fd a k, 0 <= a -> (1 <= k)%nat -> a < 10 ^ Z.of_nat (k + fd) ->
  (length (show_dec neg fd a) <= 2 + k + fd)%nat.
Proof.
  intros neg fd a k Ha Hk H. pose proof (pow10_pos fd) as P. unfold show_dec. rewrite !app_length, padw_len. unfold show_u. rewrite padw_len.
  assert (ndig (a / 10 ^ Z.of_nat fd) <= k)%nat.
  { apply ndig_le; [apply Z.div_pos; lia | exact Hk |]. apply Z.div_lt_upper_bound; [lia|].
    rewrite <- Z.pow_add_r by lia. rewrite Nat2Z.inj_add in H. rewrite Z.add_comm. exact H. }
  destruct neg; cbn [length]; lia.
Qed.

Lemma show_i_len : forall n, Z.abs n < 10 ^ 20 -> (n < 0 -> Z.abs n < 10 ^ 19) -> (length (show_i n) <= 20)%nat.
Proof.
  intros n H1 H2. unfold show_i, show_u. destruct (n <? 0) eqn:E; cbn [length]; rewrite padw_len.
  - apply Z.ltb_lt in E. specialize (H2 E). assert (ndig (- n) <= 19)%nat; [|lia].
    apply ndig_le; [lia|lia|]. change (Z.of_nat 19) with 19. lia.
  - apply Z.ltb_ge in E. apply ndig_le; [lia|lia|]. change (Z.of_nat 20) with 20. lia.
Qed.

(** * Rounding *)

Lemma rne_err : forall p q, 0 < q -> 2 * Z.abs (q * rne p q - p) <= q.
Proof.
  intros p q Hq. unfold rne. pose proof (Z.div_mod p q). pose proof (Z.mod_pos_bound p q Hq).
  set (f := p / q) in *. set (r := p mod q) in *.
  destruct (2 * r <? q) eqn:E1; [apply Z.ltb_lt in E1; lia|]. apply Z.ltb_ge in E1.
  destruct (q <? 2 * r) eqn:E2; [apply Z.ltb_lt in E2; lia|]. apply Z.ltb_ge in E2.
  destruct (Z.even f); lia.
Qed.

Lemma rne_unique : forall p q n, 0 < q -> 2 * Z.abs (q * n - p) < q -> rne p q = n.
Proof.
  intros p q n Hq H. pose proof (rne_err p q Hq).
  assert (Z.abs (q * (rne p q - n)) < q) by lia.
  rewrite Z.abs_mul in H1. rewrite (Z.abs_eq q) in H1 by lia.
  assert (Z.abs (rne p q - n) < 1); [|lia]. apply (Z.mul_lt_mono_pos_l q); lia.
Qed.

Lemma rne_nonneg : forall p q, 0 <= p -> 0 < q -> 0 <= rne p q.
Proof.
  intros p q Hp Hq. pose proof (rne_err p q Hq). destruct (Z_lt_le_dec (rne p q) 0); [|assumption].
  assert (q * rne p q <= q * -1) by (apply Z.mul_le_mono_nonneg_l; lia). lia.
Qed.

(** The mantissa has at least 53 bits. *)
Lemma dexp_low : forall a q, 0 < a -> 0 < q ->
  let e := dexp a q in
  (0 <= e -> 2 ^ 52 * 2 ^ e * q <= a) /\ (e < 0 -> 2 ^ 52 * q <= a * 2 ^ (- e)).
Proof.
  intros a q Ha Hq e. subst e. unfold dexp. set (e0 := Z.log2 a - Z.log2 q - 53).
  pose proof (Z.log2_spec a Ha) as [A1 A2]. pose proof (Z.log2_spec q Hq) as [Q1 Q2].
  pose proof (Z.log2_nonneg a) as LA. pose proof (Z.log2_nonneg q) as LQ.
  (* a / q > 2^(k-1) *)
  assert (X : (0 <= e0 -> 2 ^ 52 * 2 ^ e0 * q <= a) /\ (e0 < 0 -> 2 ^ 52 * q <= a * 2 ^ (- e0))).
  { split; intro He.
    - assert (2 ^ 52 * 2 ^ e0 * q <= 2 ^ 52 * 2 ^ e0 * 2 ^ Z.succ (Z.log2 q)).
      { apply Z.mul_le_mono_nonneg_l; [|lia]. apply Z.mul_nonneg_nonneg; apply Z.pow_nonneg; lia. }
      rewrite <- !Z.pow_add_r in H by lia.
      replace (52 + e0 + Z.succ (Z.log2 q)) with (Z.log2 a) in H by (unfold e0; lia). rewrite <- Z.pow_add_r by lia. lia.
    - assert (2 ^ 52 * q <= 2 ^ 52 * 2 ^ Z.succ (Z.log2 q)) by (apply Z.mul_le_mono_nonneg_l; lia).
      assert (2 ^ Z.log2 a * 2 ^ (- e0) <= a * 2 ^ (- e0)) by (apply Z.mul_le_mono_nonneg_r; [apply Z.pow_nonneg|]; lia).
      rewrite <- Z.pow_add_r in H by lia. rewrite <- Z.pow_add_r in H0 by lia.
      replace (Z.log2 a + - e0) with (52 + Z.succ (Z.log2 q)) in H0 by (unfold e0; lia). lia. }
  clearbody e0. destruct (0 <=? e0) eqn:E0.
  - apply Z.leb_le in E0. destruct (2 ^ 53 * 2 ^ e0 * q <=? a) eqn:E1; [|exact X].
    apply Z.leb_le in E1. split; intro He; [|lia].
    replace (2 ^ 52 * 2 ^ (e0 + 1)) with (2 ^ 53 * 2 ^ e0); [exact E1|]. rewrite <- !Z.pow_add_r by lia. f_equal. lia.
  - apply Z.leb_gt in E0. destruct (2 ^ 53 * q <=? a * 2 ^ (- e0)) eqn:E1; [|exact X].
    apply Z.leb_le in E1.
    assert (P : 2 ^ (- e0) = 2 * 2 ^ (- (e0 + 1))) by (rewrite <- Z.pow_succ_r by lia; f_equal; lia).
    rewrite P in E1. change (2 ^ 53) with (2 * 2 ^ 52) in E1.
    split; intro He.
    + assert (e0 = -1) by lia. subst e0. change (2 ^ (-1 + 1)) with 1. change (2 ^ - (-1 + 1)) with 1 in E1. lia.
    + lia.
Qed.

(** Error of a number that becomes a double and a number again. *)
Lemma double_err : forall a fd, 0 < a ->
  let q := 10 ^ Z.of_nat fd in let e := dexp a q in
  let m := if 0 <=? e then rne a (q * 2 ^ e) else rne (a * 2 ^ (- e)) q in
  0 <= m /\ Z.abs (scaled m e fd - a) <= a / 2 ^ 53 + 1 /\ (a < 2 ^ 52 -> scaled m e fd = a).
Proof.
  intros a fd Ha q e m. pose proof (pow10_pos fd) as Hq. fold q in Hq.
  pose proof (dexp_low a q Ha Hq) as [L1 L2]. fold e in L1, L2.
  unfold scaled. fold q. subst m. destruct (0 <=? e) eqn:E.
  - apply Z.leb_le in E. specialize (L1 E). assert (P : 0 < 2 ^ e) by (apply Z.pow_pos_nonneg; lia).
    assert (PQ : 0 < q * 2 ^ e) by (apply Z.mul_pos_pos; lia).
    pose proof (rne_nonneg a (q * 2 ^ e) ltac:(lia) PQ) as N. pose proof (rne_err a (q * 2 ^ e) PQ) as R.
    split; [exact N|]. rewrite (Z.abs_eq _ N).
    replace (rne a (q * 2 ^ e) * 2 ^ e * q) with (q * 2 ^ e * rne a (q * 2 ^ e)) by ring.
    split.
    + assert (Z.abs (q * 2 ^ e * rne a (q * 2 ^ e) - a) <= a / 2 ^ 53); [|lia].
      apply Z.div_le_lower_bound; [lia|]. change (2 ^ 53) with (2 * 2 ^ 52).
      replace (2 ^ 52 * 2 ^ e * q) with (2 ^ 52 * (q * 2 ^ e)) in L1 by ring. lia.
    + intro H. exfalso. assert (1 <= 2 ^ e * q) by lia. assert (2 ^ 52 * 1 <= 2 ^ 52 * (2 ^ e * q)) by (apply Z.mul_le_mono_nonneg_l; lia). lia.
  - apply Z.leb_gt in E. specialize (L2 E). assert (P : 0 < 2 ^ (- e)) by (apply Z.pow_pos_nonneg; lia).
    assert (A : 0 <= a * 2 ^ (- e)) by (apply Z.mul_nonneg_nonneg; lia).
    pose proof (rne_nonneg _ q A Hq) as N. pose proof (rne_err (a * 2 ^ (- e)) q Hq) as R.
    split; [exact N|]. rewrite (Z.abs_eq _ N). set (m := rne (a * 2 ^ (- e)) q) in *. set (u := 2 ^ (- e)) in *.
    pose proof (rne_err (m * q) u P) as R2. set (x := rne (m * q) u) in *.
    split.
    + (* |u x - u a| <= u/2 + q/2 <= u/2 + a u / 2^53 *)
      assert (K : 2 * (u * Z.abs (x - a)) <= u + q).
      { replace (u * Z.abs (x - a)) with (Z.abs (u * (x - a))) by (rewrite Z.abs_mul, (Z.abs_eq u) by lia; reflexivity). lia. }
      pose proof (Z.mul_succ_div_gt a (2 ^ 53) ltac:(lia)) as D.
      set (k := a / 2 ^ 53) in *. change (2 ^ 53) with (2 * 2 ^ 52) in D. clearbody k.
      assert (T0 : 0 < 2 ^ 52) by lia. set (T := 2 ^ 52) in *. clearbody T.
      assert (H1 : T * (2 * (u * Z.abs (x - a))) <= T * (u + q)) by (apply Z.mul_le_mono_nonneg_l; lia).
      assert (H2 : u * a < u * (2 * T * Z.succ k)) by (apply Z.mul_lt_mono_pos_l; lia).
      assert (H3 : 2 * T * u * Z.abs (x - a) < 2 * T * u * (k + 2)).
      { replace (2 * T * u * Z.abs (x - a)) with (T * (2 * (u * Z.abs (x - a)))) by ring.
        replace (2 * T * u * (k + 2)) with (u * (2 * T * Z.succ k) + 2 * (T * u)) by ring.
        assert (0 < T * u) by (apply Z.mul_pos_pos; lia). rewrite Z.mul_add_distr_l in H1. lia. }
      apply (Z.mul_lt_mono_pos_l (2 * T * u)) in H3; [lia|]. repeat apply Z.mul_pos_pos; lia.
    + intro H. apply rne_unique; [exact P|]. rewrite (Z.mul_comm u a), (Z.mul_comm m q).
      assert (T : 2 ^ 52 * q < 2 ^ 52 * u).
      { eapply Z.le_lt_trans; [exact L2|]. rewrite (Z.mul_comm (2 ^ 52) u), (Z.mul_comm a u). apply Z.mul_lt_mono_pos_l; lia. }
      assert (q < u) by (apply (Z.mul_lt_mono_pos_l (2 ^ 52)); lia). lia.
Qed.

(** * Values of leaves *)

Lemma to_buf_ok : forall s, (length s <= 21)%nat -> to_buf s = RText s.
Proof. intros s H. unfold to_buf, buf_size. destruct (Nat.leb_spec (S (length s)) 22); [reflexivity|lia]. Qed.

Lemma in_range_64 : forall n, in_range true 64 n = true <-> - 2 ^ 63 <= n < 2 ^ 63.
Proof. intro n. unfold in_range. change (64 - 1) with 63. rewrite andb_true_iff, Z.leb_le, Z.ltb_lt. reflexivity. Qed.

Lemma in_range_abs : forall sg b n, 1 <= b <= 64 -> in_range sg b n = true ->
  Z.abs n < 10 ^ 20 /\ (n < 0 -> Z.abs n < 10 ^ 19).
Proof.
  intros sg b n Hb H. unfold in_range in H. destruct sg; apply andb_prop in H; destruct H as [H1 H2].
  - assert (2 ^ (b - 1) <= 2 ^ 63) by (apply Z.pow_le_mono_r; lia). apply Z.leb_le in H1. apply Z.ltb_lt in H2. lia.
  - assert (2 ^ b <= 2 ^ 64) by (apply Z.pow_le_mono_r; lia). apply Z.leb_le in H1. apply Z.ltb_lt in H2. lia.
Qed.

Lemma strtod_fmt : forall n fd, n <> 0 ->
  exists m, 0 <= m /\ strtod n fd = DFin (Z.sgn n * m) (dexp (Z.abs n) (10 ^ Z.of_nat fd)) /\
    let x := scaled (Z.sgn n * m) (dexp (Z.abs n) (10 ^ Z.of_nat fd)) fd in
    0 <= x /\ Z.abs (x - Z.abs n) <= Z.abs n / 2 ^ 53 + 1 /\
    (Z.abs n < 2 ^ 52 -> x = Z.abs n /\ (n < 0 -> 0 < m)).
Proof.
  intros n fd Hn. unfold strtod. destruct (n =? 0) eqn:E; [apply Z.eqb_eq in E; lia|].
  assert (Ha : 0 < Z.abs n) by lia.
  pose proof (double_err (Z.abs n) fd Ha) as D. cbv zeta in D.
  set (e := dexp (Z.abs n) (10 ^ Z.of_nat fd)) in *.
  set (m := if 0 <=? e then rne (Z.abs n) (10 ^ Z.of_nat fd * 2 ^ e) else rne (Z.abs n * 2 ^ - e) (10 ^ Z.of_nat fd)) in *.
  destruct D as (D1 & D2 & D3).
  assert (S : scaled (Z.sgn n * m) e fd = scaled m e fd).
  { unfold scaled. replace (Z.abs (Z.sgn n * m)) with (Z.abs m); [reflexivity|]. destruct (Z.sgn_spec n) as [[_ ->] | [[H ->] | [_ ->]]]; lia. }
  exists m. split; [exact D1|]. split; [reflexivity|]. cbv zeta. rewrite S.
  split; [|split; [exact D2|]].
  - unfold scaled. pose proof (pow10_pos fd). destruct (0 <=? e) eqn:Ee.
    + apply Z.mul_nonneg_nonneg; [|lia]. apply Z.mul_nonneg_nonneg; [lia|]. apply Z.pow_nonneg. lia.
    + apply Z.leb_gt in Ee. apply rne_nonneg; [apply Z.mul_nonneg_nonneg; lia|]. apply Z.pow_pos_nonneg; lia.
  - intro H. specialize (D3 H). split; [exact D3|]. intros _. destruct (Z.eq_dec m 0) as [Hm|]; [|lia].
    exfalso. clearbody m. subst m. unfold scaled in D3. cbn [Z.abs] in D3. rewrite !Z.mul_0_l in D3. destruct (0 <=? e) eqn:Ee; [lia|].
    apply Z.leb_gt in Ee. assert (0 < 2 ^ - e) by (apply Z.pow_pos_nonneg; lia).
    rewrite (rne_unique 0 (2 ^ - e) 0) in D3 by lia. lia.
Qed.

Lemma fmt_zero : forall fd, fmt_f fd (DFin 0 0) = show_dec false fd 0.
Proof. intro. reflexivity. Qed.

Lemma dec_text : forall fd n, (1 <= fd <= 18)%nat -> - 2 ^ 63 <= n < 2 ^ 63 ->
  (length (fmt_f fd (strtod n fd)) <= 21)%nat /\
  (Z.abs n < 2 ^ 52 -> parse_dec fd (fmt_f fd (strtod n fd)) = Some n).
Proof.
  intros fd n Hf Hn. destruct (Z.eq_dec n 0) as [-> | N0].
  - change (strtod 0 fd) with (DFin 0 0). rewrite fmt_zero. split.
    + pose proof (show_dec_len false fd 0 1). pose proof (pow10_pos (1 + fd)). lia.
    + intros _. rewrite parse_show_dec by lia. reflexivity.
  - destruct (strtod_fmt n fd N0) as (m & M0 & E & X). cbv zeta in X. rewrite E. cbn [fmt_f].
    set (e := dexp (Z.abs n) (10 ^ Z.of_nat fd)) in *. set (x := scaled (Z.sgn n * m) e fd) in *. destruct X as (X0 & X1 & X2).
    split.
    + assert (x < 10 ^ 19).
      { assert (Z.abs n / 2 ^ 53 <= 2 ^ 63 / 2 ^ 53) by (apply Z.div_le_mono; lia). change (2 ^ 63 / 2 ^ 53) with 1024 in H. lia. }
      pose proof (show_dec_len (Z.sgn n * m <? 0) fd x (19 - fd) X0 ltac:(lia)) as L.
      replace (19 - fd + fd)%nat with 19%nat in L by lia. specialize (L H). lia.
    + intro H. destruct (X2 H) as [X3 X4]. rewrite parse_show_dec by lia. f_equal. rewrite X3.
      destruct (Z_lt_le_dec n 0) as [L | L].
      * specialize (X4 L). rewrite Z.sgn_neg by lia. rewrite (proj2 (Z.ltb_lt _ _)) by lia. lia.
      * rewrite Z.sgn_pos by lia. rewrite (proj2 (Z.ltb_ge _ _)) by lia. lia.
Qed.

(** Storing what was read. *)
Lemma write_plain : forall t ty d s v, sr2str t ty d = RText s -> store t s = Some v -> write t ty d = WStored v.
Proof. intros t ty d s v H1 H2. unfold write. rewrite H1, H2. reflexivity. Qed.

Lemma text_eqb_eq : forall a b, text_eqb a b = true <-> a = b.
Proof. intros a b. unfold text_eqb. destruct (list_eq_dec Z.eq_dec a b); split; congruence. Qed.

Lemma text_eqb_refl : forall a, text_eqb a a = true.
Proof. intro. apply text_eqb_eq. reflexivity. Qed.

(** The same text whatever the leaf, unless it is a decimal. *)
Definition val_text (fd : nat) (v : lval) : option text :=
  match v with
  | VInt _ _ n => Some (show_i n)
  | VDec f n => Some (fmt_f fd (strtod n f))
  | VBool b => Some (if b then t_true else t_false)
  | VEmpty => Some []
  | VText _ s => Some s
  | VUnion _ => None
  end.

Definition fd_of (v : lval) : nat := match v with VDec f _ => f | _ => 1%nat end.

(** One member of a union or a type that is none. *)
Lemma store_back : forall t v, wft t -> (forall ms, t <> LUnion ms) -> (forall t', t <> LRef t') -> member t v -> narrow v ->
  exists s, val_text (fd_of v) v = Some s /\ store t s = Some v.
Proof.
  intros t v W NU NR (s0 & S) N. destruct t; cbn [store] in S.
  - destruct (parse_int s0) as [n|]; [|discriminate]. destruct (in_range signed bits n) eqn:R; [|discriminate].
    injection S as <-. eexists. split; [reflexivity|]. cbn [store]. rewrite parse_show, R. reflexivity.
  - destruct (parse_dec fd s0) as [n|]; [|discriminate]. destruct (in_range true 64 n) eqn:R; [|discriminate].
    injection S as <-. eexists. split; [reflexivity|]. cbn [store fd_of]. inversion W; subst.
    destruct (dec_text fd n H0 (proj1 (in_range_64 n) R)) as [_ D]. rewrite (D N), R. reflexivity.
  - destruct (text_eqb s0 t_true); [|destruct (text_eqb s0 t_false); [|discriminate]]; injection S as <-;
      (eexists; split; [reflexivity|]); reflexivity.
  - destruct (text_eqb s0 []) eqn:E; [|discriminate]. injection S as <-. exists []. split; reflexivity.
  - destruct (accept s0) as [c|] eqn:A; [|discriminate]. injection S as <-. exists c. split; [reflexivity|]. cbn [store].
    inversion W; subst. rewrite (H0 _ _ A). reflexivity.
  - congruence.
  - congruence.
Qed.

(** What is stored of a member is no value of a union. *)
Lemma sr2str_text : forall t v s, wft t ->
  (forall sg b n, v = VInt sg b n -> 1 <= b <= 64 /\ in_range sg b n = true) ->
  (forall f n, v = VDec f n -> (1 <= f <= 18)%nat /\ - 2 ^ 63 <= n < 2 ^ 63 /\ fdigits t = FDigits f) ->
  val_text (fd_of v) v = Some s -> store t s = Some v \/ (exists w, store t s = Some w) ->
  write t (fst (ly2sr v)) (snd (ly2sr v)) = match store t s with Some w => WStored w | None => WRefused end.
Proof.
  intros t v s W HI HD T S. destruct v; cbn [ly2sr fst snd val_text fd_of] in *; unfold write, sr2str.
  - injection T as <-. destruct (HI _ _ _ eq_refl) as [B R]. destruct (in_range_abs _ _ _ B R) as [A1 A2].
    rewrite to_buf_ok by (pose proof (show_i_len n A1 A2); lia). reflexivity.
  - injection T as <-. destruct (HD _ _ eq_refl) as (F & R & ->). rewrite to_buf_ok by (apply dec_text; assumption). reflexivity.
  - injection T as <-. reflexivity.
  - injection T as <-. reflexivity.
  - injection T as <-. reflexivity.
  - discriminate.
Qed.

(** Values of members. *)
Lemma member_shape : forall t v, wft t -> (forall ms, t <> LUnion ms) -> (forall t', t <> LRef t') -> member t v ->
  (forall sg b n, v = VInt sg b n -> 1 <= b <= 64 /\ in_range sg b n = true) /\
  (forall f n, v = VDec f n -> (1 <= f <= 18)%nat /\ - 2 ^ 63 <= n < 2 ^ 63 /\ t = LDec f).
Proof.
  intros t v W NU NR (s0 & S). destruct t; cbn [store] in S; try congruence.
  - destruct (parse_int s0) as [n|]; [|discriminate]. destruct (in_range signed bits n) eqn:R; [|discriminate].
    injection S as <-. split; [|intros; discriminate]. intros sg b n' E. injection E as <- <- <-. inversion W; subst. auto.
  - destruct (parse_dec fd s0) as [n|]; [|discriminate]. destruct (in_range true 64 n) eqn:R; [|discriminate].
    injection S as <-. split; [intros; discriminate|]. intros f n' E. injection E as <- <-. inversion W; subst.
    apply in_range_64 in R. auto.
  - destruct (text_eqb s0 t_true); [|destruct (text_eqb s0 t_false); [|discriminate]]; injection S as <-; split; intros; discriminate.
  - destruct (text_eqb s0 []); [|discriminate]. injection S as <-. split; intros; discriminate.
  - destruct (accept s0); [|discriminate]. injection S as <-. split; intros; discriminate.
Qed.

Lemma store_union : forall ms1 m ms2 s v, (forall m', In m' ms1 -> store m' s = None) -> store m s = Some v ->
  store (LUnion (ms1 ++ m :: ms2)) s = Some (VUnion v).
Proof.
  intros ms1 m ms2 s v H1 H2. cbn [store]. induction ms1 as [|x r IH]; cbn [app fold_right].
  - rewrite H2. reflexivity.
  - rewrite (H1 x) by (left; reflexivity). apply IH. intros m' Hm. apply H1. right. exact Hm.
Qed.
