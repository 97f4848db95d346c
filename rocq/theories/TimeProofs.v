From Coq Require Import ZArith Lia Bool.
From Verif Require Import Time.
Open Scope Z_scope.

(** A time as a number of nanoseconds. *)
Definition ns (t : timespec) : Z := tv_sec t * 1000000000 + tv_nsec t.
Definition normalised (t : timespec) : Prop := 0 <= tv_nsec t < 1000000000.

Ltac Zify.zify_post_hook ::= Z.to_euclidean_division_equations.

Lemma ts_add_ok : forall t ms,
  normalised t -> 0 <= ms -> ms + tv_nsec t / 1000000 < two32z ->
  ns (ts_add (Some t) ms) = ns t + ms * 1000000 /\ normalised (ts_add (Some t) ms).
Proof.
  intros [s n] ms Hn H0 H. unfold normalised, ns, ts_add, u32z, two32z in *. cbn [tv_sec tv_nsec] in *.
  destruct (Z.eqb_spec ms 0) as [->|Hms]; cbn [tv_sec tv_nsec]. { lia. }
  destruct (Z.eqb_spec n 0) as [->|Hz]; cbn [tv_sec tv_nsec].
  - rewrite Z.mod_small by lia. lia.
  - rewrite (Z.mod_small (ms + _)) by lia. rewrite Z.mod_small by lia. lia.
Qed.

Lemma ts_add_null : forall ms, 0 <= ms < two32z ->
  ns (ts_add None ms) = ms * 1000000 /\ normalised (ts_add None ms).
Proof.
  intros ms H. unfold ns, normalised, ts_add, u32z, two32z in *.
  destruct (Z.eqb_spec ms 0) as [->|Hms]; cbn [tv_sec tv_nsec]. { lia. }
  cbn [Z.eqb tv_sec tv_nsec]. rewrite Z.mod_small by lia. lia.
Qed.

Lemma time_cmp_ok : forall a b, normalised a -> normalised b ->
  time_cmp a b = Z.sgn (ns a - ns b).
Proof.
  intros [s n] [s' n'] Ha Hb. unfold normalised, ns, time_cmp in *. cbn [tv_sec tv_nsec] in *.
  destruct (Z.gtb_spec s s'); destruct (Z.ltb_spec s s'); destruct (Z.gtb_spec n n');
    destruct (Z.ltb_spec n n'); lia.
Qed.

Lemma time_sub_ok : forall a b, normalised a -> normalised b ->
  if ns b <=? ns a
  then ns (time_sub a b) = ns a - ns b /\ normalised (time_sub a b)
  else time_sub a b = {| tv_sec := 0; tv_nsec := -1 |}.
Proof.
  intros [s n] [s' n'] Ha Hb. unfold normalised, ns, time_sub in *. cbn [tv_sec tv_nsec] in *.
  destruct (Z.leb_spec (s' * 1000000000 + n') (s * 1000000000 + n));
  destruct (Z.ltb_spec s s'); destruct (Z.eqb_spec s s'); destruct (Z.ltb_spec n n');
    cbn [orb andb tv_sec tv_nsec]; try reflexivity; try lia.
Qed.

Lemma time_sub_ms_ok : forall a b, normalised a -> normalised b ->
  (ns a - ns b) / 1000000 < 2147483648 ->
  time_sub_ms a b = if ns b <=? ns a then (ns a - ns b) / 1000000 else -1.
Proof.
  intros a b Ha Hb H. pose proof (time_sub_ok a b Ha Hb) as Hs. unfold time_sub_ms.
  destruct (Z.leb_spec (ns b) (ns a)) as [Hle|Hlt].
  - destruct Hs as [E Hn]. destruct (time_sub a b) as [s n]. unfold ns at 1 in E.
    unfold normalised in Hn. cbn [tv_sec tv_nsec] in *.
    replace (n =? -1) with false by (symmetry; apply Z.eqb_neq; lia). rewrite andb_false_r.
    unfold to_int, two32z.
    set (d := ns a - ns b) in *.
    assert (Q : s * 1000 + Z.quot n 1000000 = d / 1000000) by lia.
    rewrite Q. rewrite Z.mod_small by lia. lia.
  - rewrite Hs. reflexivity.
Qed.

Lemma timeout_remaining : forall t ms, normalised t -> 0 <= ms < 2147483648 ->
  ms + tv_nsec t / 1000000 < two32z ->
  time_sub_ms (ts_add (Some t) ms) t = ms.
Proof.
  intros t ms Hn H H2. destruct (ts_add_ok t ms Hn ltac:(lia) H2) as [E N].
  rewrite time_sub_ms_ok; try assumption; rewrite E.
  - replace (ns t + ms * 1000000 - ns t) with (ms * 1000000) by lia.
    rewrite Z.div_mul by lia.
    destruct (Z.leb_spec (ns t) (ns t + ms * 1000000)); [reflexivity|lia].
  - replace (ns t + ms * 1000000 - ns t) with (ms * 1000000) by lia.
    rewrite Z.div_mul by lia. lia.
Qed.
