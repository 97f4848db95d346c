From Coq Require Import List NArith ZArith Lia Bool Arith.
From Verif Require Import Base BaseLemmas EvData Time ExtShm ExtShmSpec.
Import ListNotations.
Open Scope N_scope.

(** * Memory *)

Lemma wr32_spec : forall m o v, o + 4 <= msize m -> v < two32 ->
  exists m', wr32 m o v = Some m' /\ msize m' = msize m /\ rd32 m' o = Some v /\
    (forall b, b < o \/ o + 4 <= b -> mb m' b = mb m b).
Proof.
  intros m o v H Hv. unfold wr32, wr. rewrite le32_len.
  replace (o + 4 <=? msize m) with true by (symmetry; apply N.leb_le; assumption).
  eexists. split; [reflexivity|]. split; [reflexivity|]. split.
  - unfold rd32. cbn [msize mb]. replace (o + 4 <=? msize m) with true by (symmetry; apply N.leb_le; assumption).
    f_equal.
    assert (E : forall k, k < 4 -> (o <=? o + k) && (o + k <? o + 4) = true).
    { intros k Hk. apply andb_true_intro. split; [apply N.leb_le|apply N.ltb_lt]; lia. }
    pose proof (E 0 ltac:(lia)) as E0. rewrite N.add_0_r in E0. rewrite E0.
    rewrite (E 1), (E 2), (E 3) by lia.
    rewrite N.sub_diag. replace (o + 1 - o) with 1 by lia. replace (o + 2 - o) with 2 by lia.
    replace (o + 3 - o) with 3 by lia.
    change (N.to_nat 0) with 0%nat. change (N.to_nat 1) with 1%nat.
    change (N.to_nat 2) with 2%nat. change (N.to_nat 3) with 3%nat.
    pose proof (de32_le32 v Hv) as D. unfold de32, le32 in D. unfold le32. cbn [nth]. exact D.
  - intros b Hb. cbn [mb]. destruct (o <=? b) eqn:E1; destruct (b <? o + 4) eqn:E2; cbn [andb]; try reflexivity.
    apply N.leb_le in E1. apply N.ltb_lt in E2. lia.
Qed.

Lemma rd32_frame : forall m m' o, msize m' = msize m ->
  (forall b, o <= b -> b < o + 4 -> mb m' b = mb m b) -> rd32 m' o = rd32 m o.
Proof.
  intros m m' o Hs H. unfold rd32. rewrite Hs. destruct (o + 4 <=? msize m); [|reflexivity].
  rewrite !H by lia. reflexivity.
Qed.

Lemma rd32_bound : forall m o v, rd32 m o = Some v -> o + 4 <= msize m.
Proof. intros m o v H. unfold rd32 in H. destruct (N.leb_spec (o + 4) (msize m)); [assumption|discriminate]. Qed.

(** * Coverage *)

Lemma cov_app : forall b l l', cov b (l ++ l') = (cov b l + cov b l')%nat.
Proof. induction l as [|x l IH]; intros; cbn [cov app]; [reflexivity|]. rewrite IH. lia. Qed.

Lemma inb_true : forall b o s, inb b (o, s) = true <-> o <= b /\ b < o + s.
Proof.
  intros. unfold inb. cbn [fst snd]. rewrite andb_true_iff, N.leb_le, N.ltb_lt. tauto.
Qed.

Lemma inb_false : forall b o s, inb b (o, s) = false <-> b < o \/ o + s <= b.
Proof.
  intros. unfold inb. cbn [fst snd]. rewrite andb_false_iff, N.leb_gt, N.ltb_ge. tauto.
Qed.

Lemma cov_in : forall b l x, In x l -> inb b x = true -> (1 <= cov b l)%nat.
Proof.
  induction l as [|y l IH]; intros x Hi Hb; [destruct Hi|]. cbn [cov]. destruct Hi as [->|Hi].
  - rewrite Hb. lia.
  - specialize (IH x Hi Hb). lia.
Qed.

Lemma cov_pos : forall b l, (1 <= cov b l)%nat -> exists x, In x l /\ inb b x = true.
Proof.
  induction l as [|y l IH]; intros H; cbn [cov] in H; [lia|].
  destruct (inb b y) eqn:E; [exists y; split; [left; reflexivity|assumption]|].
  destruct IH as (x & Hx & Hb); [lia|]. exists x. split; [right|]; assumption.
Qed.

(** Case analysis on all the coverage tests in the goal and the context. *)
Lemma inb_eq : forall b o s, inb b (o, s) = ((o <=? b) && (b <? o + s)).
Proof. reflexivity. Qed.
Ltac inbs :=
  repeat match goal with
  | H : context [inb ?b (?o, ?s)] |- _ => rewrite (inb_eq b o s) in H
  | |- context [inb ?b (?o, ?s)] => rewrite (inb_eq b o s)
  end;
  repeat match goal with
  | |- context [N.leb ?x ?y] => destruct (N.leb_spec x y)
  | |- context [N.ltb ?x ?y] => destruct (N.ltb_spec x y)
  | H : context [N.leb ?x ?y] |- _ => destruct (N.leb_spec x y)
  | H : context [N.ltb ?x ?y] |- _ => destruct (N.ltb_spec x y)
  end; cbn [andb] in *; try lia.

Lemma cov_split : forall b o s u, u <= s ->
  cov b [(o, s)] = (cov b [(o, u)] + cov b [((o + u)%N, (s - u)%N)])%nat.
Proof. intros. cbn [cov]. inbs. Qed.

Lemma cov_one_le : forall b x, (cov b [x] <= 1)%nat.
Proof. intros. cbn [cov]. destruct (inb b x); lia. Qed.

(** * The free list *)

Lemma hsorted_weak : forall hs lo lo', lo' <= lo -> hsorted lo hs -> hsorted lo' hs.
Proof. intros [|[h s] r] lo lo' Hl H; cbn [hsorted] in *; [trivial|]. intuition lia. Qed.

Lemma hsorted_lo : forall hs lo b, hsorted lo hs -> b < lo -> cov b hs = 0%nat.
Proof.
  induction hs as [|[h s] r IH]; intros lo b H Hb; cbn [hsorted cov] in *; [reflexivity|].
  destruct H as (H1 & H2 & H3 & H4 & H5). rewrite (IH (h + s + 1) b H5) by lia. inbs.
Qed.

Lemma hsorted_in : forall hs lo h s, hsorted lo hs -> In (h, s) hs -> lo <= h /\ 8 <= s /\ h mod 8 = 0 /\ s mod 8 = 0.
Proof.
  induction hs as [|[h' s'] r IH]; intros lo h s H Hi; cbn [hsorted] in H; [destruct Hi|].
  destruct H as (H1 & H2 & H3 & H4 & H5). destruct Hi as [E|Hi].
  - injection E as <- <-. tauto.
  - destruct (IH _ _ _ H5 Hi) as (A & B & C & D). repeat split; lia.
Qed.

Lemma hsorted_app : forall a b lo, hsorted lo (a ++ b) -> hsorted lo a /\ hsorted lo b.
Proof.
  induction a as [|[h s] r IH]; intros b lo H; cbn [hsorted app] in *; [tauto|].
  destruct H as (H1 & H2 & H3 & H4 & H5). destruct (IH _ _ H5) as (A & B).
  split; [tauto|]. eapply hsorted_weak; [|exact B]. lia.
Qed.

(** The end of the last block of an ascending list. *)
Fixpoint hend (lo : N) (hs : list block) : N :=
  match hs with [] => lo | (h, s) :: r => hend (h + s + 1) r end.

Lemma hend_ge : forall hs lo, hsorted lo hs -> lo <= hend lo hs.
Proof.
  induction hs as [|[h s] r IH]; intros lo H; cbn [hsorted hend] in *; [lia|].
  destruct H as (H1 & H2 & H3 & H4 & H5). specialize (IH _ H5). lia.
Qed.

Lemma hsorted_app_iff : forall a b lo, hsorted lo (a ++ b) <-> hsorted lo a /\ hsorted (hend lo a) b.
Proof.
  induction a as [|[h s] r IH]; intros b lo; cbn [hsorted app hend]; [tauto|]. rewrite IH. tauto.
Qed.

Lemma hend_snoc : forall a lo h s, hend lo (a ++ [(h, s)]) = h + s + 1.
Proof. induction a as [|[h' s'] r IH]; intros; cbn [hend app]; [reflexivity|]. apply IH. Qed.

Lemma hend_cov : forall hs lo b, hsorted lo hs -> hend lo hs <= b -> cov b hs = 0%nat.
Proof.
  induction hs as [|[h s] r IH]; intros lo b H Hb; cbn [hsorted cov hend] in *; [reflexivity|].
  destruct H as (H1 & H2 & H3 & H4 & H5). rewrite (IH _ _ H5) by assumption.
  pose proof (hend_ge _ _ H5). inbs.
Qed.

(** The part of the free list up to a given next offset. *)
Fixpoint seg (m : mem) (o : N) (hs : list block) (e : N) : Prop :=
  match hs with
  | [] => o = e
  | (h, s) :: r => o = h /\ h <> 0 /\ rd32 m h = Some s /\ exists n, rd32 m (h + 4) = Some n /\ seg m n r e
  end.

Lemma holes_seg : forall m hs o, holes_from m o hs <-> seg m o hs 0.
Proof.
  induction hs as [|[h s] r IH]; intros o; cbn [holes_from seg]; [tauto|].
  split; intros (A & B & C & n & D & E); repeat (split; [assumption|]); exists n; (split; [assumption|]); apply IH; assumption.
Qed.

Lemma seg_app : forall m a b o e, seg m o (a ++ b) e <-> exists x, seg m o a x /\ seg m x b e.
Proof.
  induction a as [|[h s] r IH]; intros b o e; cbn [seg app].
  - split; [intros H; exists o; tauto|intros (x & -> & H); assumption].
  - split.
    + intros (A & B & C & n & D & E). apply IH in E. destruct E as (x & E & F).
      exists x. split; [|assumption]. repeat (split; [assumption|]). exists n. tauto.
    + intros (x & (A & B & C & n & D & E) & F). repeat (split; [assumption|]). exists n.
      split; [assumption|]. apply IH. exists x. tauto.
Qed.

Lemma seg_frame : forall m m' hs o e, msize m' = msize m ->
  (forall h s b, In (h, s) hs -> h <= b -> b < h + 8 -> mb m' b = mb m b) ->
  seg m o hs e -> seg m' o hs e.
Proof.
  induction hs as [|[h s] r IH]; intros o e Hs Hf H; cbn [seg] in *; [assumption|].
  destruct H as (A & B & C & n & D & E). split; [assumption|]. split; [assumption|].
  assert (E1 : rd32 m' h = rd32 m h).
  { apply rd32_frame; [assumption|]. intros; apply (Hf h s); [left; reflexivity|lia|lia]. }
  assert (E2 : rd32 m' (h + 4) = rd32 m (h + 4)).
  { apply rd32_frame; [assumption|]. intros; apply (Hf h s); [left; reflexivity|lia|lia]. }
  split; [congruence|]. exists n. split; [congruence|].
  apply IH; [assumption| |assumption]. intros h' s' b Hi. apply (Hf h' s' b). right. assumption.
Qed.

(** Blocks of an ascending list are disjoint from what follows. *)
Lemma hsorted_apart : forall a h s b lo h' s', hsorted lo (a ++ (h, s) :: b) ->
  In (h', s') a -> h' + s' < h.
Proof.
  induction a as [|[h0 s0] r IH]; intros h s b lo h' s' H Hi; [destruct Hi|].
  cbn [hsorted app] in H. destruct H as (H1 & H2 & H3 & H4 & H5). destruct Hi as [E|Hi].
  - injection E as <- <-. apply hsorted_app in H5. destruct H5 as (_ & H5).
    cbn [hsorted] in H5. lia.
  - eapply IH; eassumption.
Qed.

Lemma hsorted_apart2 : forall a h s b lo h' s', hsorted lo (a ++ (h, s) :: b) ->
  In (h', s') b -> h + s < h'.
Proof.
  intros a h s b lo h' s' H Hi. apply hsorted_app in H. destruct H as (_ & H).
  cbn [hsorted] in H. destruct H as (_ & _ & _ & _ & H). destruct (hsorted_in _ _ _ _ H Hi). lia.
Qed.

(** Number of holes against the fuel. *)
Lemma hsorted_len : forall hs lo M, hsorted lo hs -> (forall h s, In (h, s) hs -> h + s <= M) ->
  N.of_nat (length hs) * 8 + lo <= M + 8 \/ hs = [].
Proof.
  induction hs as [|[h s] r IH]; intros lo M H Hm; [right; reflexivity|]. left.
  cbn [hsorted length] in *. destruct H as (H1 & H2 & H3 & H4 & H5).
  assert (Hm' : forall h0 s0, In (h0, s0) r -> h0 + s0 <= M) by (intros; apply Hm; right; assumption).
  specialize (IH _ M H5 Hm'). destruct IH as [IH| ->].
  - rewrite Nat2N.inj_succ. lia.
  - cbn [length]. specialize (Hm h s (or_introl eq_refl)). lia.
Qed.

Lemma as_int_small : forall n, n < 2147483648 -> as_int n = Z.of_N n.
Proof.
  intros n H. unfold as_int, to_int, two32z. rewrite Z.mod_small by lia. lia.
Qed.

Lemma hole_next_nz : forall m h, h <> 0 -> hole_next m h = rd32 m (h + 4).
Proof. intros m h H. unfold hole_next. destruct (N.eqb_spec h 0); [contradiction|reflexivity]. Qed.

(** The first offset of a list, [0] if empty. *)
Definition hfirst (hs : list block) : N := match hs with [] => 0 | (h, _) :: _ => h end.
Definition hlast (d : N) (hs : list block) : N := fold_left (fun _ x => fst x) hs d.

Lemma seg_first : forall m hs o, seg m o hs 0 -> o = hfirst hs.
Proof. intros m [|[h s] r] o H; cbn [seg hfirst] in *; tauto. Qed.

Lemma hlast_snoc : forall l d h s, hlast d (l ++ [(h, s)]) = h.
Proof. intros. unfold hlast. rewrite fold_left_app. reflexivity. Qed.

Lemma list_snoc_cases : forall A (l : list A), l = [] \/ exists a x, l = a ++ [x].
Proof. intros A l. destruct l using rev_ind; [left; reflexivity|right; eauto]. Qed.
