(** Proofs about polling of operational data. *)
From Coq Require Import List Bool Arith Lia Permutation.
From Verif Require Import PollDiff PollDiffSpec.
Import ListNotations.

Lemma key_eqb_eq : forall a b, key_eqb a b = true <-> a = b.
Proof.
  intros [a1 a2] [b1 b2]. unfold key_eqb. cbn [fst snd]. rewrite andb_true_iff, !Nat.eqb_eq. split; [intros [-> ->]; reflexivity|]. intros H. injection H as -> ->. auto.
Qed.
Lemma key_dec : forall a b : key, {a = b} + {a <> b}.
Proof. intros a b. destruct (key_eqb a b) eqn:E; [left; now apply key_eqb_eq|right]. intros H. apply key_eqb_eq in H. congruence. Qed.

Lemma del_perm : forall k l v, In (k, v) l -> exists w l', del k l = Some l' /\ Permutation l ((k, w) :: l').
Proof.
  intros k l v. induction l as [|[j u] t IH]; intros H; [destruct H|]. cbn [del fst]. destruct (key_eqb j k) eqn:E.
  - apply key_eqb_eq in E. subst j. exists u. eexists. split; [reflexivity|]. destruct t as [|y t]; [apply Permutation_refl|]. apply perm_skip.
    assert (y :: t <> []) as N by discriminate. rewrite (app_removelast_last (k, u) N) at 1. symmetry. apply Permutation_cons_append.
  - destruct H as [H|H]; [injection H as -> _; now rewrite (proj2 (key_eqb_eq k k) eq_refl) in E|]. destruct (IH H) as (w & l' & D & P). rewrite D. cbn [option_map].
    exists w. eexists. split; [reflexivity|]. eapply Permutation_trans; [apply perm_skip; exact P|]. apply perm_swap.
Qed.

(** One change. *)
Definition put (a : conf) (k : key) (o : option nat) : conf := fun j => if key_eqb j k then o else a j.
Lemma put_same : forall a k o, put a k o k = o.
Proof. intros. unfold put. now rewrite (proj2 (key_eqb_eq k k) eq_refl). Qed.
Lemma put_other : forall a k o j, j <> k -> put a k o j = a j.
Proof. intros a k o j N. unfold put. destruct (key_eqb j k) eqn:E; [apply key_eqb_eq in E; congruence|reflexivity]. Qed.

Lemma add_ok : forall a l k v, exactly l a -> a k = None -> exactly (l ++ [(k, v)]) (put a k (Some v)).
Proof.
  intros a l k v [N H] A. split.
  - rewrite map_app. cbn [map fst]. eapply Permutation_NoDup; [apply Permutation_cons_append|]. constructor; [|exact N].
    intros I. apply in_map_iff in I as ([j u] & E & I). cbn in E. subst j. apply H in I. congruence.
  - intros j u. rewrite in_app_iff, H. destruct (key_dec j k) as [->|D].
    + rewrite put_same, A. split; [intros [X|[X|[]]]; [discriminate|congruence]|]. intros X. right. left. congruence.
    + rewrite put_other by exact D. split; [intros [X|[X|[]]]; [exact X|congruence]|auto].
Qed.
Lemma del_ok : forall a l k v, exactly l a -> a k = Some v -> exists l', del k l = Some l' /\ exactly l' (put a k None).
Proof.
  intros a l k v [N H] A. apply H in A. destruct (del_perm k l v A) as (w & l' & D & P). exists l'. split; [exact D|].
  pose proof (Permutation_NoDup (Permutation_map fst P) N) as N'. cbn [map fst] in N'. inversion N' as [|? ? N1 N2]; subst. split; [exact N2|].
  intros j u. destruct (key_dec j k) as [->|J].
  - rewrite put_same. split; [|discriminate]. intros I. destruct N1. apply in_map_iff. exists (k, u). auto.
  - rewrite put_other by exact J. rewrite <- H. split; intros I.
    + eapply Permutation_in; [symmetry; exact P|now right].
    + apply (Permutation_in _ P) in I as [I|I]; [congruence|exact I].
Qed.
Lemma exactly_ext : forall l a b, exactly l a -> (forall k, a k = b k) -> exactly l b.
Proof. intros l a b [N H] E. split; [exact N|]. intros k v. rewrite <- E. apply H. Qed.

(** All the changes. *)
Lemma process_ok : forall f, works f -> forall cs a b l, exactly l a -> between a b cs -> exists l', process f cs l = ROk l' /\ exactly l' b.
Proof.
  intros f W. induction cs as [|c cs IH]; intros a b l X [O1 O2 O3 O4].
  - exists l. split; [reflexivity|]. eapply exactly_ext; [exact X|]. intros k. symmetry. apply O4. intros [].
  - cbn [map] in O1. inversion O1 as [|? ? N1 N2]; subst.
    assert (between (put a (at_ c) (after c)) b cs) as B.
    { constructor; [exact N2| | |].
      - intros d I. rewrite put_other; [apply O2; now right|]. intros E. apply N1. rewrite <- E. now apply in_map.
      - intros d I. apply O3. now right.
      - intros k I. destruct (key_dec k (at_ c)) as [->|J]; [rewrite put_same; apply O3; left; reflexivity|]. rewrite put_other by exact J. apply O4. intros [E|E]; [congruence|auto]. }
    pose proof (O2 c (or_introl eq_refl)) as A. destruct c as [k v|k v|k o n]; cbn [at_ before after] in A, B; cbn [process]; unfold add; rewrite ?W.
    + apply (IH (put a k (Some v)) b); [now apply add_ok|exact B].
    + destruct (del_ok a l k v X A) as (l' & D & X'). rewrite D. now apply (IH (put a k None) b).
    + destruct (del_ok a l k o X A) as (l' & D & X'). rewrite D. apply (IH (put a k (Some n)) b); [|exact B].
      eapply exactly_ext; [apply (add_ok (put a k None)); [exact X'|apply put_same]|]. intros j. destruct (key_dec j k) as [->|J]; [now rewrite !put_same|now rewrite !put_other].
Qed.
Lemma reverse_between : forall a b cs, between a b cs -> between b a (map reverse cs).
Proof.
  intros a b cs [O1 O2 O3 O4]. assert (map at_ (map reverse cs) = map at_ cs) as E by (rewrite map_map; apply map_ext; intros []; reflexivity).
  constructor; rewrite ?E; auto.
  - intros c I. apply in_map_iff in I as (d & <- & I). specialize (O3 d I). destruct d; exact O3.
  - intros c I. apply in_map_iff in I as (d & <- & I). specialize (O2 d I). destruct d; exact O2.
  - intros k I. symmetry. now apply O4.
Qed.
