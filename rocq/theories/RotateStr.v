(** Names of files and the configured time. *)
From Coq Require Import String Ascii NArith ZArith List Bool Lia Decimal DecimalString DecimalN DecimalPos.
From Verif Require Import Rotate RotateSpec.
Import ListNotations.
Local Open Scope N_scope.

Fixpoint uval (v : N) (u : uint) : N :=
  match u with
  | Nil => v
  | D0 u => uval (v * 10 + 0) u | D1 u => uval (v * 10 + 1) u | D2 u => uval (v * 10 + 2) u
  | D3 u => uval (v * 10 + 3) u | D4 u => uval (v * 10 + 4) u | D5 u => uval (v * 10 + 5) u
  | D6 u => uval (v * 10 + 6) u | D7 u => uval (v * 10 + 7) u | D8 u => uval (v * 10 + 8) u
  | D9 u => uval (v * 10 + 9) u
  end.

Lemma uval_acc : forall u p, Npos (Pos.of_uint_acc u p) = uval (Npos p) u.
Proof.
  induction u; intro p; cbn [Pos.of_uint_acc uval]; [reflexivity|..]; rewrite IHu; f_equal; lia.
Qed.

Lemma uval_of : forall u, N.of_uint u = uval 0 u.
Proof.
  unfold N.of_uint. induction u; cbn [Pos.of_uint uval]; try reflexivity; try (apply uval_acc). exact IHu.
Qed.

Lemma digits_uint : forall u v r, (forall c r', r = String c r' -> digit c = None) ->
  digits v (NilEmpty.string_of_uint u ++ r) = (uval v u, r).
Proof.
  induction u; intros v r H; cbn [NilEmpty.string_of_uint append uval];
    try (cbn [digits]; match goal with |- context [digit ?c] => let d := eval vm_compute in (digit c) in change (digit c) with d end;
         cbv iota; apply IHu; exact H).
  destruct r as [|c r]; [reflexivity|]. cbn [digits]. rewrite (H c r eq_refl). reflexivity.
Qed.

Lemma dec_head : forall n, exists c r, dec n = String c r /\ digit c <> None /\ space c = false /\ Ascii.eqb c "-" = false /\ Ascii.eqb c "+" = false /\ Ascii.eqb c "." = false.
Proof.
  intro n. unfold dec. assert (N.to_uint n <> Nil) as H.
  { destruct n as [|p]; [discriminate|]. apply Unsigned.to_uint_nonnil. }
  destruct (N.to_uint n); [contradiction|..]; cbn [NilEmpty.string_of_uint];
    (eexists; eexists; split; [reflexivity|]; split; [vm_compute; discriminate|repeat split]).
Qed.

Lemma strtoul_dec : forall n r, n < two64 -> (forall c r', r = String c r' -> digit c = None) ->
  strtoul (dec n ++ r) = Some (n, r).
Proof.
  intros n r Ln H. destruct (dec_head n) as (c & r0 & E & Dc & Sc & Mc & Pc & _).
  assert (digits 0 (dec n ++ r) = (n, r)) as DG.
  { unfold dec. rewrite digits_uint by exact H. rewrite <- uval_of, DecimalN.Unsigned.of_to. reflexivity. }
  rewrite E in DG |- *. cbn [append] in DG |- *. cbn [strtoul]. rewrite Sc, Mc, Pc. unfold number.
  destruct (digit c); [|contradiction]. rewrite DG. apply N.leb_gt in Ln. rewrite Ln. reflexivity.
Qed.

Lemma after_app : forall c s r, after c s = None -> after c (s ++ r) = after c r.
Proof.
  induction s as [|x s IH]; intros r H; [reflexivity|]. cbn [after append] in *. destruct (Ascii.eqb x c); [discriminate|auto].
Qed.

Lemma after_nodot : forall s, has_dot s = false -> after "." s = None.
Proof.
  induction s as [|x s IH]; intro H; [reflexivity|]. cbn [has_dot after] in *. apply orb_false_iff in H. destruct H as [-> H]. auto.
Qed.

Lemma after_dec : forall n, after "-" (dec n) = None.
Proof. intro n. unfold dec. induction (N.to_uint n); cbn [NilEmpty.string_of_uint after]; try exact IHu; reflexivity. Qed.

Lemma app_assoc_s : forall a b c : string, ((a ++ b) ++ c = a ++ (b ++ c))%string.
Proof. induction a as [|x a IH]; intros b c; [reflexivity|]. cbn [append]. rewrite IH. reflexivity. Qed.

Lemma app_nil_s : forall a : string, (a ++ "" = a)%string.
Proof. induction a as [|x a IH]; [reflexivity|]. cbn [append]. rewrite IH. reflexivity. Qed.

Lemma sub0 : forall s, substring 0 0 s = EmptyString.
Proof. destruct s; reflexivity. Qed.

Lemma format_ok : forall m a b, has_dot m = false -> a < two64 -> b < two64 -> format_check (fname m a b) = Some (a, b).
Proof.
  intros m a b H La Lb. unfold format_check, fname. rewrite after_app by (apply after_nodot; exact H).
  change (after "." (".notif." ++ dec a ++ "-" ++ dec b)) with (Some ("notif." ++ dec a ++ "-" ++ dec b)%string). cbv iota.
  assert (substring 0 6 ("notif." ++ dec a ++ "-" ++ dec b) = "notif."%string) as ->.
  { cbn [append substring]. rewrite sub0. reflexivity. }
  change (String.eqb "notif." "notif.") with true. cbv iota.
  change (after "." ("notif." ++ dec a ++ "-" ++ dec b)) with (Some (dec a ++ "-" ++ dec b)%string). cbv iota.
  rewrite strtoul_dec; [|exact La|intros c r' E; injection E as <- _; reflexivity].
  rewrite after_app by apply after_dec. change (after "-" ("-" ++ dec b)) with (Some (dec b)). cbv iota.
  rewrite <- (app_nil_s (dec b)), strtoul_dec; [reflexivity|exact Lb|discriminate].
Qed.

Lemma mul_ok : forall x k, (0 <= x)%Z -> (0 < k)%Z -> (x * k < 2 ^ 63)%Z -> mul (Some x) k = Some (x * k)%Z.
Proof.
  intros x k Hx Hk L. unfold mul. assert (0 <= x * k)%Z by (apply Z.mul_nonneg_nonneg; lia).
  destruct (- 2 ^ 63 <=? x * k)%Z eqn:E1; [|apply Z.leb_gt in E1; lia].
  destruct (x * k <? 2 ^ 63)%Z eqn:E2; [reflexivity|apply Z.ltb_ge in E2; lia].
Qed.

Lemma period_ok : forall n c k, unit_secs c = Some k -> n * k < 2 ^ 63 -> period (dec n ++ String c "") = Some (Z.of_N (n * k)).
Proof.
  intros n c k U L.
  assert (0 < k /\ n <= n * k) as [Kp Ln].
  { assert (0 < k) as Kp.
    { unfold unit_secs in U. destruct c as [b0 b1 b2 b3 b4 b5 b6 b7].
      destruct b0, b1, b2, b3, b4, b5, b6, b7; try discriminate; injection U as <-; reflexivity. }
    split; [exact Kp|]. rewrite <- (N.mul_1_r n) at 1. apply N.mul_le_mono_l. lia. }
  assert (digit c = None) as Dc.
  { unfold unit_secs in U. destruct c as [b0 b1 b2 b3 b4 b5 b6 b7].
    destruct b0, b1, b2, b3, b4, b5, b6, b7; try discriminate; reflexivity. }
  unfold period. rewrite strtoul_dec; [|apply N.le_lt_trans with (n * k); [exact Ln|apply N.lt_trans with (2 ^ 63); [exact L|reflexivity]]|intros d r' E; injection E as <- _; exact Dc].
  assert (time_t n = Z.of_N n) as T.
  { unfold time_t. destruct (n <? 2 ^ 63) eqn:E; [reflexivity|]. apply N.ltb_ge in E. lia. }
  rewrite T. assert (Z.of_N n * Z.of_N k < 2 ^ 63)%Z as LZ.
  { change (2 ^ 63)%Z with (Z.of_N (2 ^ 63)). rewrite <- N2Z.inj_mul. lia. }
  rewrite N2Z.inj_mul. set (z := Z.of_N n) in *. assert (0 <= z)%Z as Z0 by (unfold z; lia). clearbody z. clear T L Ln.
  unfold unit_secs in U. destruct c as [b0 b1 b2 b3 b4 b5 b6 b7].
  destruct b0, b1, b2, b3, b4, b5, b6, b7; try discriminate; injection U as <-; cbv beta iota zeta delta [Ascii.eqb Bool.eqb];
    match type of LZ with (z * ?q < _)%Z => let q' := eval compute in q in change q with q' in * end;
    repeat (rewrite mul_ok by lia); f_equal; lia.
Qed.
