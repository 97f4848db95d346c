From Coq Require Import List NArith ZArith Lia Bool.
From Verif Require Import Base.
Import ListNotations.
Open Scope N_scope.

Lemma nlen_app : forall A (a b : list A), nlen (a ++ b) = nlen a + nlen b.
Proof. intros. unfold nlen. rewrite app_length. lia. Qed.

Lemma nlen_nil : forall A, nlen (@nil A) = 0.
Proof. reflexivity. Qed.

Lemma nlen_cons : forall A (x : A) l, nlen (x :: l) = 1 + nlen l.
Proof. intros. unfold nlen. cbn [length]. lia. Qed.

Lemma nlen_repeat : forall A (x : A) n, nlen (repeat x n) = N.of_nat n.
Proof. intros. unfold nlen. rewrite repeat_length. reflexivity. Qed.

Lemma nfirstn_app_exact : forall A n (a b : list A), n = nlen a -> nfirstn n (a ++ b) = a.
Proof.
  intros. subst. unfold nfirstn, nlen. rewrite Nnat.Nat2N.id.
  rewrite firstn_app, Nat.sub_diag, firstn_all. cbn. apply app_nil_r.
Qed.

Lemma nskipn_app_exact : forall A n (a b : list A), n = nlen a -> nskipn n (a ++ b) = b.
Proof.
  intros. subst. unfold nskipn, nlen. rewrite Nnat.Nat2N.id.
  rewrite skipn_app, Nat.sub_diag, skipn_all. reflexivity.
Qed.

Lemma nfirstn_all : forall A n (a : list A), nlen a <= n -> nfirstn n a = a.
Proof. intros. unfold nfirstn, nlen in *. apply firstn_all2. lia. Qed.

Lemma nskipn_all : forall A n (a : list A), nlen a <= n -> nskipn n a = [].
Proof. intros. unfold nskipn, nlen in *. apply skipn_all2. lia. Qed.

Lemma nlen_nfirstn : forall A n (a : list A), nlen (nfirstn n a) = N.min n (nlen a).
Proof. intros. unfold nfirstn, nlen. rewrite firstn_length. lia. Qed.

Lemma nlen_nskipn : forall A n (a : list A), nlen (nskipn n a) = nlen a - n.
Proof. intros. unfold nskipn, nlen. rewrite skipn_length. lia. Qed.

Lemma nfirstn_nskipn : forall A n (a : list A), nfirstn n a ++ nskipn n a = a.
Proof. intros. apply firstn_skipn. Qed.

Lemma read_at_mid : forall off len a m r,
  off = nlen a -> len = nlen m -> read_at (a ++ m ++ r) off len = Some m.
Proof.
  intros. unfold read_at.
  replace (off + len <=? nlen (a ++ m ++ r)) with true.
  - rewrite nskipn_app_exact by assumption. rewrite nfirstn_app_exact by assumption. reflexivity.
  - symmetry. apply N.leb_le. rewrite !nlen_app. lia.
Qed.

Lemma write_at_mid : forall off a m m' r,
  off = nlen a -> nlen m' = nlen m -> write_at (a ++ m ++ r) off m' = Some (a ++ m' ++ r).
Proof.
  intros. unfold write_at.
  replace (off + nlen m' <=? nlen (a ++ m ++ r)) with true.
  - rewrite nfirstn_app_exact by assumption.
    replace (nskipn (off + nlen m') (a ++ m ++ r)) with r; [reflexivity|].
    symmetry. rewrite (app_assoc a m r). apply nskipn_app_exact.
    rewrite nlen_app. lia.
  - symmetry. apply N.leb_le. rewrite !nlen_app. lia.
Qed.

Lemma le32_len : forall n, nlen (le32 n) = 4.
Proof. reflexivity. Qed.

Lemma de32_le32 : forall n, n < two32 -> de32 (le32 n) = n.
Proof.
  intros n H. unfold de32, le32, two32 in *.
  pose proof (N.div_mod n 256 ltac:(lia)).
  pose proof (N.div_mod (n / 256) 256 ltac:(lia)).
  pose proof (N.div_mod (n / 65536) 256 ltac:(lia)).
  rewrite !N.div_div in * by lia.
  change (256 * 256) with 65536 in *. change (65536 * 256) with 16777216 in *.
  assert (n / 16777216 < 256) by (apply N.div_lt_upper_bound; lia).
  rewrite (N.mod_small (n / 16777216)) by assumption. lia.
Qed.

Lemma read32_mid : forall off a n r,
  off = nlen a -> n < two32 -> read32 (a ++ le32 n ++ r) off = Some n.
Proof.
  intros. unfold read32. rewrite (read_at_mid off 4 a (le32 n) r) by (try assumption; reflexivity).
  f_equal. apply de32_le32. assumption.
Qed.

Lemma u32_small : forall n, n < two32 -> u32 n = n.
Proof. intros. apply N.mod_small. assumption. Qed.

Lemma Some_inj : forall A (x y : A), Some x = Some y -> x = y.
Proof. intros. congruence. Qed.

Lemma Forall2_len : forall A B (R : A -> B -> Prop) l m, Forall2 R l m -> length l = length m.
Proof. induction 1; cbn [length]; congruence. Qed.
