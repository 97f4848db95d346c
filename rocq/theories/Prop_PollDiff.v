(** C67: Operational data are polled exactly as configured. *)
From Coq Require Import List Bool Arith Lia Permutation.
From Verif Require Import PollDiff PollDiffSpec PollDiffProofs.
Import ListNotations.

(** At any time of any life of the plugin in which subscribing works: while it runs exactly what is configured is polled, also after
    refused changes; while it does not run nothing is; it never crashes. *)
Theorem C67_life : forall a run s, life a run s -> if run then exists l, s = Running l /\ exactly l a else s = Off [].
Proof.
  intros a run s L. induction L as [a|a b s L IH|a cs f s L IH B W|a b cs f s g L IH B W W2|a b cs f s g L IH B W W2|a s L IH].
  - reflexivity.
  - exact IH.
  - cbn [step]. rewrite IH. cbn [step]. destruct (process_ok f W cs none a []) as (l & P & X); [split; [constructor|intros k v; split; [intros []|discriminate]]|exact B|].
    rewrite P. exists l. auto.
  - destruct IH as (l & -> & X). cbn [step]. destruct (process_ok f W cs a b l X B) as (l' & P & X'). rewrite P. exists l'. auto.
  - destruct IH as (l & -> & X). cbn [step]. destruct (process_ok f W cs a b l X B) as (l' & P & X'). rewrite P.
    destruct (process_ok g W2 (map reverse cs) b a l' X' (reverse_between a b cs B)) as (l'' & P' & X''). rewrite P'. exists l''. auto.
  - destruct IH as (l & -> & X). reflexivity.
Qed.

(** In a correct state a change is accepted by the plugin exactly if no subscribing fails that it needs. *)
Theorem C67_accept : forall a b cs f g l, exactly l a -> between a b cs ->
  snd (step (Change cs f false g) (Running l)) = true <-> forall c, In c cs -> after c <> None -> f (at_ c) = false.
Proof.
  intros a b cs f g l X B. cbn [step].
  assert ((exists l', process f cs l = ROk l') <-> forall c, In c cs -> after c <> None -> f (at_ c) = false) as K.
  { clear g. revert a l X B. induction cs as [|c cs IH]; intros a l X B.
    - split; [intros _ c []|]. intros _. exists l. reflexivity.
    - destruct B as [O1 O2 O3 O4]. cbn [map] in O1. inversion O1 as [|? ? N1 N2]; subst.
      assert (between (put a (at_ c) (after c)) b cs) as B.
      { constructor; [exact N2| | |].
        - intros d I. rewrite put_other; [apply O2; now right|]. intros E. apply N1. rewrite <- E. now apply in_map.
        - intros d I. apply O3. now right.
        - intros k I. destruct (key_dec k (at_ c)) as [->|J]; [rewrite put_same; apply O3; left; reflexivity|]. rewrite put_other by exact J. apply O4. intros [E|E]; [congruence|auto]. }
      pose proof (O2 c (or_introl eq_refl)) as A.
      assert ((after c <> None -> f (at_ c) = false) -> (exists l', process f cs l' = process f (c :: cs) l /\ exactly l' (put a (at_ c) (after c)))) as S1.
      { destruct c as [k v|k v|k o n]; cbn [at_ before after process] in *; intros H; unfold add.
        - rewrite H by discriminate. eexists. split; [reflexivity|]. now apply add_ok.
        - destruct (del_ok a l k v X A) as (l' & D & X'). rewrite D. exists l'. auto.
        - destruct (del_ok a l k o X A) as (l' & D & X'). rewrite D, H by discriminate. eexists. split; [reflexivity|].
          eapply exactly_ext; [apply (add_ok (put a k None)); [exact X'|apply put_same]|]. intros j. destruct (key_dec j k) as [->|J]; [now rewrite !put_same|now rewrite !put_other]. }
      split.
      + intros (l' & P).
        assert (after c <> None -> f (at_ c) = false) as Hc.
        { destruct c as [k v|k v|k o n]; cbn [at_ after process] in *; unfold add in P; intros H; [|congruence|].
          - destruct (f k); [discriminate|reflexivity].
          - destruct (del k l); [|discriminate]. destruct (f k); [discriminate|reflexivity]. }
        destruct (S1 Hc) as (l1 & E & X1). rewrite <- E in P. intros d [<-|I]; [exact Hc|]. apply (IH _ l1 X1 B); eauto.
      + intros H. destruct (S1 (H c (or_introl eq_refl))) as (l1 & E & X1). rewrite <- E. apply (IH _ l1 X1 B). intros d I. apply H. now right. }
  rewrite <- K. destruct (process f cs l); cbn [snd]; split; try discriminate; try (intros (l' & E); discriminate); eauto.
Qed.
Print Assumptions C67_life.
Print Assumptions C67_accept.

(** ** An example *)
Definition aa : conf := fun k => if key_eqb k (1, 1) then Some 100 else if key_eqb k (1, 2) then Some 200 else None.
Definition bb : conf := fun k => if key_eqb k (1, 2) then Some 300 else if key_eqb k (2, 1) then Some 400 else None.
Definition fine : key -> bool := fun _ => false.
Definition acs := [Created (1, 1) 100; Created (1, 2) 200].
Definition bcs := [Deleted (1, 1) 100; Modified (1, 2) 200 300; Created (2, 1) 400].
Ltac keys := match goal with |- forall c, In c _ -> _ => intros c H; repeat (destruct H as [<-|H]; [reflexivity|]); destruct H end.
Example C67_nonvacuous :
  life bb true (fst (step (Change bcs fine false fine) (fst (step (Change bcs fine true fine) (fst (step (Init acs fine) (Off []))))))) /\
  fst (step (Change bcs fine false fine) (fst (step (Change bcs fine true fine) (fst (step (Init acs fine) (Off [])))))) = Running [((1, 2), 300); ((2, 1), 400)].
Proof.
  assert (works fine) as W by (intros k; reflexivity).
  assert (between none aa acs) as A.
  { constructor; [cbn; repeat constructor; cbn; intuition discriminate|keys|keys|]. intros k N. unfold aa, none. destruct (key_eqb k (1, 1)) eqn:E1; [apply key_eqb_eq in E1; subst; destruct N; left; reflexivity|].
    destruct (key_eqb k (1, 2)) eqn:E2; [apply key_eqb_eq in E2; subst; destruct N; right; left; reflexivity|reflexivity]. }
  assert (between aa bb bcs) as B.
  { constructor; [cbn; repeat constructor; cbn; intuition discriminate|keys|keys|]. intros k N. unfold aa, bb. cbn [map at_ bcs] in N.
    destruct (key_eqb k (1, 1)) eqn:E1; [apply key_eqb_eq in E1; subst; destruct N; left; reflexivity|].
    destruct (key_eqb k (1, 2)) eqn:E2; [apply key_eqb_eq in E2; subst; destruct N; right; left; reflexivity|].
    destruct (key_eqb k (2, 1)) eqn:E3; [apply key_eqb_eq in E3; subst; destruct N; right; right; left; reflexivity|reflexivity]. }
  split; [|vm_compute; reflexivity]. apply (l_change aa bb); auto. apply (l_refused aa bb); auto. apply l_init; auto. constructor.
Qed.

Definition bad (k : key) : key -> bool := key_eqb k.

(** F232: a change that is refused because subscribing fails is not taken back: what it added before is polled, what it
    deleted or was to change is not polled any more. *)
Theorem C67_refused_refuted :
  step (Change [Created (2, 1) 400; Created (2, 2) 500] (bad (2, 2)) false fine) (Running [((1, 1), 100)]) = (Running [((1, 1), 100); ((2, 1), 400)], false) /\
  step (Change [Modified (1, 1) 100 200] (bad (1, 1)) false fine) (Running [((1, 1), 100)]) = (Running [], false).
Proof. split; vm_compute; reflexivity. Qed.

(** F233: after such a refused change deleting of the subscription, or a change of its interval, fails an assert. *)
Theorem C67_crash_refuted :
  fst (step (Change [Deleted (1, 1) 100] fine false fine) (fst (step (Change [Modified (1, 1) 100 200] (bad (1, 1)) false fine) (Running [((1, 1), 100)])))) = Crashed.
Proof. vm_compute. reflexivity. Qed.

(** F234: if one configured subscription fails when the plugin is initialized, the ones before it go on being polled though the plugin
    failed. *)
Theorem C67_init_refuted : step (Init acs (bad (1, 2))) (Off []) = (Off [((1, 1), 100)], false).
Proof. vm_compute. reflexivity. Qed.
