From Coq Require Import List Bool Arith Lia.
From Verif Require Import Deps DepsSpec.
Import ListNotations.

Definition ids (mi : list dmod) := map d_id mi.

(** ** The list of modules *)

Definition get (i : nat) (mi : list dmod) : option dmod := find (fun m => Nat.eqb (d_id m) i) mi.

Lemma get_in : forall mi i m, get i mi = Some m -> In m mi /\ d_id m = i.
Proof. intros mi i m H. apply find_some in H. destruct H as (H & E). apply Nat.eqb_eq in E. split; assumption. Qed.

Lemma get_nodup : forall mi m, NoDup (ids mi) -> In m mi -> get (d_id m) mi = Some m.
Proof.
  induction mi as [|x r IH]; intros m N H; [destruct H|]. unfold get. cbn [find]. inversion N; subst. destruct H as [->|H]; [rewrite Nat.eqb_refl; reflexivity|].
  destruct (Nat.eqb_spec (d_id x) (d_id m)) as [E|E]; [exfalso; apply H2; rewrite E; apply in_map; exact H|]. apply IH; assumption.
Qed.

Lemma get_none : forall mi i, get i mi = None <-> ~ In i (ids mi).
Proof.
  induction mi as [|x r IH]; intros i; unfold get; cbn [find ids map In]; [split; [intros _ []|reflexivity]|].
  destruct (Nat.eqb_spec (d_id x) i) as [E|E]; [split; [discriminate|intros H; exfalso; apply H; left; exact E]|].
  fold (get i r). rewrite IH. unfold ids. split; [intros H [X|X]; [exact (E X)|exact (H X)]|intros H X; apply H; right; exact X].
Qed.

(** mi_add and mod_new as maps. *)
Definition add_fresh (i : nat) (xp : option nat) : dmod := set_xp (match xp with Some x => [x] | None => [] end) (set_new true (fresh i)).

Lemma d_id_add_to : forall xp m, d_id (add_to xp m) = d_id m.
Proof.
  intros xp m. unfold add_to. destruct (d_req m && match d_xp m with [] => true | _ => false end); [reflexivity|].
  destruct (negb (d_req m)); destruct xp as [x|]; try reflexivity; match goal with |- context [existsb ?f ?l] => destruct (existsb f l) end; reflexivity.
Qed.

Lemma get_mi_add : forall mi i xp j, get j (mi_add i xp mi) =
  if Nat.eqb i j then Some (match get i mi with Some m => add_to xp m | None => add_fresh i xp end) else get j mi.
Proof.
  unfold get. induction mi as [|m r IH]; intros i xp j; cbn [mi_add find].
  - cbn [d_id set_xp set_new fresh]. destruct (Nat.eqb i j); reflexivity.
  - destruct (Nat.eqb_spec (d_id m) i) as [E|E]; cbn [find].
    + rewrite d_id_add_to. rewrite E. destruct (Nat.eqb i j); reflexivity.
    + rewrite IH. destruct (Nat.eqb_spec (d_id m) j) as [E2|E2]; [|reflexivity]. subst j. destruct (Nat.eqb_spec i (d_id m)) as [E3|E3]; [congruence|reflexivity].
Qed.

Lemma ids_mi_add : forall mi i xp, ids (mi_add i xp mi) = if existsb (Nat.eqb i) (ids mi) then ids mi else ids mi ++ [i].
Proof.
  induction mi as [|m r IH]; intros i xp; cbn [mi_add ids map existsb]; [reflexivity|]. destruct (Nat.eqb_spec (d_id m) i) as [E|E]; cbn [map].
  - rewrite d_id_add_to. rewrite E, Nat.eqb_refl. reflexivity.
  - fold (ids (mi_add i xp r)). rewrite IH. rewrite (proj2 (Nat.eqb_neq i (d_id m))) by congruence. cbn [orb]. unfold ids. destruct (existsb (Nat.eqb i) (map d_id r)); reflexivity.
Qed.

Lemma get_mod_new : forall mi i t j, get j (mod_new i t mi) =
  if Nat.eqb i j then Some (match get i mi with Some m => set_new false (set_type t m) | None => set_type t (fresh i) end) else get j mi.
Proof.
  unfold get. induction mi as [|m r IH]; intros i t j; cbn [mod_new find].
  - cbn [d_id set_type fresh]. destruct (Nat.eqb i j); reflexivity.
  - destruct (Nat.eqb_spec (d_id m) i) as [E|E]; cbn [find].
    + cbn [d_id set_new set_type]. rewrite E. destruct (Nat.eqb i j); reflexivity.
    + rewrite IH. destruct (Nat.eqb_spec (d_id m) j) as [E2|E2]; [|reflexivity]. subst j. destruct (Nat.eqb_spec i (d_id m)) as [E3|E3]; [congruence|reflexivity].
Qed.

Lemma ids_mod_new : forall mi i t, ids (mod_new i t mi) = if existsb (Nat.eqb i) (ids mi) then ids mi else ids mi ++ [i].
Proof.
  induction mi as [|m r IH]; intros i t; cbn [mod_new ids map existsb]; [reflexivity|]. destruct (Nat.eqb_spec (d_id m) i) as [E|E]; cbn [map d_id set_new set_type].
  - rewrite E, Nat.eqb_refl. reflexivity.
  - fold (ids (mod_new i t r)). rewrite IH. rewrite (proj2 (Nat.eqb_neq i (d_id m))) by congruence. cbn [orb]. unfold ids. destruct (existsb (Nat.eqb i) (map d_id r)); reflexivity.
Qed.

Lemma nodup_snoc : forall l i, NoDup l -> existsb (Nat.eqb i) l = false -> NoDup (l ++ [i]).
Proof.
  intros l i N E. assert (H : ~ In i l). { intros H. assert (X : existsb (Nat.eqb i) l = true) by (apply existsb_exists; exists i; split; [exact H|apply Nat.eqb_refl]). congruence. }
  clear E. induction l as [|x r IH]; cbn [app]; [constructor; [intros []|constructor]|]. inversion N; subst. constructor.
  - rewrite in_app_iff. intros [X|[X|[]]]; [exact (H2 X)|]. apply H. left. congruence.
  - apply IH; [exact H3|]. intros X. apply H. right. exact X.
Qed.
Lemma nodup_add : forall mi i xp, NoDup (ids mi) -> NoDup (ids (mi_add i xp mi)).
Proof. intros. rewrite ids_mi_add. destruct (existsb (Nat.eqb i) (ids mi)) eqn:E; [assumption|apply nodup_snoc; assumption]. Qed.
Lemma nodup_new : forall mi i t, NoDup (ids mi) -> NoDup (ids (mod_new i t mi)).
Proof. intros. rewrite ids_mod_new. destruct (existsb (Nat.eqb i) (ids mi)) eqn:E; [assumption|apply nodup_snoc; assumption]. Qed.

Lemma get_map : forall f mi i, (forall m, d_id (f m) = d_id m) -> get i (map f mi) = option_map f (get i mi).
Proof.
  intros f mi i H. unfold get. induction mi as [|m r IH]; [reflexivity|]. cbn [map find]. rewrite H. destruct (Nat.eqb (d_id m) i); [reflexivity|exact IH].
Qed.
Lemma ids_map : forall f mi, (forall m, d_id (f m) = d_id m) -> ids (map f mi) = ids mi.
Proof. intros f mi H. unfold ids. rewrite map_map. apply map_ext. exact H. Qed.
Lemma d_id_load1 : forall m, d_id (load1 m) = d_id m.
Proof. intros m. unfold load1. destruct (d_data m); [reflexivity|]. destruct (d_xp m); reflexivity. Qed.

(** ** The first round *)

Definition st0 (m : dmod) : Prop := d_new m = true /\ d_req m = false /\ d_inv m = false /\ d_data m = false /\ d_xp m = [].

Lemma first_add : forall req mi, NoDup (ids mi) -> (forall m, In m mi -> st0 m) ->
  let mi' := fold_left (fun acc i => mi_add i None acc) req mi in
  NoDup (ids mi') /\ (forall m, In m mi' -> st0 m) /\ (forall i, In i (ids mi') <-> In i req \/ In i (ids mi)).
Proof.
  induction req as [|i req IH]; intros mi N S; cbn [fold_left]; [cbn; split; [exact N|split; [exact S|intros i; cbn; tauto]]|].
  specialize (IH (mi_add i None mi) (nodup_add _ _ _ N)). cbv zeta in *. destruct IH as (A & B & C).
  - intros m H. pose proof (get_nodup _ _ (nodup_add _ i None N) H) as G. rewrite get_mi_add in G. destruct (Nat.eqb_spec i (d_id m)) as [E|E].
    + injection G as <-. destruct (get i mi) as [m0|] eqn:G0; [|repeat split].
      destruct (get_in _ _ _ G0) as (H0 & _). destruct (S _ H0) as (S1 & S2 & S3 & S4 & S5). unfold add_to. rewrite S2. cbn [andb negb]. repeat split; cbn; assumption.
    + destruct (get_in _ _ _ G) as (H0 & _). apply S. exact H0.
  - split; [exact A|]. split; [exact B|]. intros j. rewrite C, ids_mi_add. cbn [In]. destruct (existsb (Nat.eqb i) (ids mi)) eqn:E.
    + split; [tauto|]. intros [[<-|H]|H]; [|left; exact H|right; exact H]. right. apply existsb_exists in E. destruct E as (x & Hx & Ex). apply Nat.eqb_eq in Ex. congruence.
    + rewrite in_app_iff. cbn [In]. tauto.
Qed.

(** After the first round every module has all its data; the flags are as expected. *)
Definition st1 (inv : nat -> list nat) (req : list nat) (m : dmod) : Prop :=
  d_new m = false /\ d_data m = true /\ d_all m = true /\ d_xp m = [] /\
  (d_req m = true <-> In (d_id m) req) /\ (d_inv m = true <-> exists r, In r req /\ In (d_id m) (inv r)).

(** During the loop over inverse dependencies. *)
Definition mid (req : list nat) (done : nat -> Prop) (m : dmod) : Prop :=
  d_new m = false /\ d_data m = false /\ d_xp m = [] /\
  (d_req m = true <-> In (d_id m) req) /\ (d_inv m = true <-> done (d_id m)).

Lemma mid_ext : forall req d d' m, (d (d_id m) <-> d' (d_id m)) -> mid req d m -> mid req d' m.
Proof. intros req d d' m E (A & B & C & D & F). repeat split; try assumption; try apply D. - intros H. apply E. apply F. exact H. - intros H. apply F. apply E. exact H. Qed.

Lemma inv_loop : forall req l mi done, NoDup (ids mi) -> (forall m, In m mi -> mid req done m) ->
  (forall i, In i req -> In i (ids mi)) -> (forall i, done i -> In i (ids mi)) ->
  let mi' := fold_left (fun mi x => mod_new x TInv mi) l mi in
  let done' := fun i => done i \/ In i l in
  NoDup (ids mi') /\ (forall m, In m mi' -> mid req done' m) /\ (forall i, In i req -> In i (ids mi')) /\ (forall i, done' i -> In i (ids mi')).
Proof.
  induction l as [|x l IH]; intros mi done N M R Dn; cbv zeta; cbn [fold_left].
  - split; [exact N|]. split; [intros m H; eapply mid_ext; [|apply M; exact H]; cbn; tauto|]. split; [exact R|]. intros i [H|[]]. apply Dn. exact H.
  - assert (Ix : forall i, In i (ids mi) -> In i (ids (mod_new x TInv mi))) by (intros i H; rewrite ids_mod_new; destruct (existsb (Nat.eqb x) (ids mi)); [exact H|apply in_or_app; left; exact H]).
    specialize (IH (mod_new x TInv mi) (fun i => done i \/ i = x) (nodup_new _ _ _ N)). cbv zeta in IH. destruct IH as (A & B & C & D).
    + intros m H. pose proof (get_nodup _ _ (nodup_new _ x TInv N) H) as G. rewrite get_mod_new in G. destruct (Nat.eqb_spec x (d_id m)) as [E|E].
      * injection G as G. destruct (get x mi) as [m0|] eqn:G0.
        -- destruct (get_in _ _ _ G0) as (H0 & E0). destruct (M _ H0) as (M1 & M2 & M3 & M4 & M5). subst m. cbn in *. split; [reflexivity|]. split; [exact M2|]. split; [exact M3|]. split; [exact M4|].
           cbn. split; [intros _; right; exact E0|reflexivity].
        -- subst m. cbn. assert (Nx : ~ In x (ids mi)) by (apply get_none; exact G0). split; [reflexivity|]. split; [reflexivity|]. split; [reflexivity|]. cbn. split.
           ++ split; [discriminate|]. intros Hr. exfalso. apply Nx. apply R. exact Hr.
           ++ split; [intros _; right; reflexivity|reflexivity].
      * destruct (get_in _ _ _ G) as (H0 & _). eapply mid_ext; [|apply M; exact H0]. cbn beta. split; [tauto|]. intros [X|X]; [exact X|].
        congruence.
    + intros i Hi. apply Ix. apply R. exact Hi.
    + intros i [H|H]; [apply Ix; apply Dn; exact H|]. subst i. rewrite ids_mod_new. destruct (existsb (Nat.eqb x) (ids mi)) eqn:E; [|apply in_or_app; right; left; reflexivity].
      apply existsb_exists in E. destruct E as (y & Hy & Ey). apply Nat.eqb_eq in Ey. congruence.
    + split; [exact A|]. split; [intros m H; eapply mid_ext; [|apply B; exact H]; cbn; intuition|]. split; [exact C|]. intros i H. apply D. cbn in H. intuition.
Qed.

Lemma inv_loop2 : forall inv req l mi done, NoDup (ids mi) -> (forall m, In m mi -> mid req done m) ->
  (forall i, In i req -> In i (ids mi)) -> (forall i, done i -> In i (ids mi)) ->
  let mi' := fold_left (fun acc i => mod_inv_deps inv i acc) l mi in
  let done' := fun i => done i \/ exists r, In r l /\ In i (inv r) in
  NoDup (ids mi') /\ (forall m, In m mi' -> mid req done' m) /\ (forall i, In i req -> In i (ids mi')) /\ (forall i, done' i -> In i (ids mi')).
Proof.
  intros inv req. induction l as [|x l IH]; intros mi done N M R Dn; cbv zeta; cbn [fold_left].
  - split; [exact N|]. split; [intros m H; eapply mid_ext; [|apply M; exact H]; split; [tauto|intros [X|(r & [] & _)]; exact X]|]. split; [exact R|]. intros i [H|(r & [] & _)]. apply Dn. exact H.
  - unfold mod_inv_deps at 2 4 6 8. destruct (inv_loop req (inv x) mi done N M R Dn) as (A & B & C & D). destruct (IH _ _ A B C D) as (A' & B' & C' & D').
    assert (E : forall i, ((done i \/ In i (inv x)) \/ (exists r, In r l /\ In i (inv r))) <-> (done i \/ exists r, In r (x :: l) /\ In i (inv r))).
    { intros i. split.
      - intros [[H|H]|(r & H1 & H2)]; [left; exact H|right; exists x; split; [left; reflexivity|exact H]|right; exists r; split; [right; exact H1|exact H2]].
      - intros [H|(r & [->|H1] & H2)]; [left; left; exact H|left; right; exact H2|right; exists r; split; assumption]. }
    split; [exact A'|]. split; [intros m H; eapply mid_ext; [|apply B'; exact H]; apply E|]. split; [exact C'|]. intros i H. apply D'. apply E. exact H.
Qed.

Lemma first_round : forall inv req, let mi := consolidate inv TReq true (fold_left (fun acc i => mi_add i None acc) req []) in
  NoDup (ids mi) /\ (forall m, In m mi -> st1 inv req m) /\ (forall i, In i req -> In i (ids mi)) /\
  (forall i, (exists r, In r req /\ In i (inv r)) -> In i (ids mi)).
Proof.
  intros inv req. cbv zeta. destruct (first_add req [] ltac:(constructor) ltac:(intros m [])) as (A & B & C). cbv zeta in *.
  set (mi := fold_left (fun acc i => mi_add i None acc) req []) in *. unfold consolidate.
  destruct (existsb d_new mi) eqn:E; cbn [negb].
  - set (mi1 := map (fun m => if d_new m then set_new false (set_type TReq m) else m) mi).
    assert (I1 : ids mi1 = ids mi) by (apply ids_map; intros m; destruct (d_new m); reflexivity).
    assert (Hreq : forall m, In m mi1 -> mid req (fun _ => False) m).
    { intros m H. apply in_map_iff in H. destruct H as (m0 & <- & H0). destruct (B _ H0) as (S1 & S2 & S3 & S4 & S5). rewrite S1. cbn. repeat split; cbn; try assumption; try congruence.
      - intros _. destruct (proj1 (C (d_id m0)) (in_map _ _ _ H0)) as [X|[]]. exact X.
      - contradiction. }
    assert (Ef : map d_id (filter (has_type TReq) mi1) = ids mi).
    { rewrite <- I1. unfold ids. f_equal. clear -Hreq I1 C. assert (G : forall m, In m mi1 -> d_req m = true).
      { intros m H. destruct (Hreq m H) as (_ & _ & _ & X & _). apply X. assert (H' : In (d_id m) (ids mi)) by (rewrite <- I1; apply in_map; exact H). apply C in H'. destruct H' as [H'|[]]. exact H'. }
      clear -G. induction mi1 as [|m r IH]; [reflexivity|]. cbn [filter has_type]. rewrite (G m (or_introl eq_refl)). f_equal. apply IH. intros x H. apply G. right. exact H. }
    rewrite Ef. destruct (inv_loop2 inv req (ids mi) mi1 (fun _ => False)) as (A' & B' & C' & D').
    { rewrite I1. exact A. } { exact Hreq. } { intros i H. rewrite I1. apply C. left. exact H. } { intros i []. }
    cbv zeta in *. set (mi2 := fold_left (fun acc i => mod_inv_deps inv i acc) (ids mi) mi1) in *. rewrite (ids_map load1) by exact d_id_load1.
    split; [exact A'|]. split; [|split; [exact C'|]].
    + intros m H. apply in_map_iff in H. destruct H as (m0 & <- & H0). destruct (B' _ H0) as (M1 & M2 & M3 & M4 & M5). unfold load1. rewrite M2, M3. unfold st1. cbn.
      repeat split; try assumption; try apply M4.
      * intros Hi. apply M5 in Hi. destruct Hi as [[]|(r & Hr & Hi)]. exists r. split; [|exact Hi]. apply C in Hr. destruct Hr as [Hr|[]]. exact Hr.
      * intros (r & Hr & Hi). apply M5. right. exists r. split; [|exact Hi]. apply C. left. exact Hr.
    + intros i (r & Hr & Hi). apply D'. right. exists r. split; [|exact Hi]. apply C. left. exact Hr.
  - (* no modules at all *)
    assert (Em : mi = []). { destruct mi as [|m r]; [reflexivity|]. cbn [existsb] in E. destruct (B m (or_introl eq_refl)) as (X & _). rewrite X in E. discriminate. }
    assert (Er : req = []). { destruct req as [|i r]; [reflexivity|]. exfalso. assert (X : In i (ids mi)) by (apply C; left; left; reflexivity). rewrite Em in X. destruct X. }
    rewrite Em, Er. cbn. split; [constructor|]. split; [intros m []|]. split; [intros i []|]. intros i (r & [] & _).
Qed.

(** ** The second round *)

(** While dependencies are being added: modules of the first round keep their data, the others are
    new, with paths. *)
Definition st2 (inv : nat -> list nat) (req : list nat) (chg : nat -> bool) (m : dmod) : Prop :=
  ((d_chg m = true -> chg (d_id m) = true) /\ (d_req m || d_inv m = true -> d_chg m = chg (d_id m))) /\
  (d_req m = true <-> In (d_id m) req) /\ (d_inv m = true <-> exists r, In r req /\ In (d_id m) (inv r)) /\
  ((d_data m = true /\ d_all m = true) \/ (d_new m = true /\ d_data m = false /\ d_xp m <> [] /\ d_req m = false /\ d_inv m = false)).

Definition wants (i x : nat) (mi : list dmod) : Prop := exists m, In m mi /\ d_id m = i /\ (d_all m = true \/ In x (d_xp m)).

Lemma add_to_same : forall xp m, d_chg (add_to xp m) = d_chg m /\ d_req (add_to xp m) = d_req m /\ d_inv (add_to xp m) = d_inv m /\ d_data (add_to xp m) = d_data m /\ d_all (add_to xp m) = d_all m /\
  (d_new m = true -> d_new (add_to xp m) = true) /\ incl (d_xp m) (d_xp (add_to xp m)).
Proof.
  intros xp m. unfold add_to. destruct (d_req m && match d_xp m with [] => true | _ => false end); [repeat split; auto; apply incl_refl|].
  destruct (d_req m) eqn:Er; cbn [negb]; (destruct xp as [x|]; [match goal with |- context [existsb ?f ?l] => destruct (existsb f l) end|]); cbn; repeat split; auto; try (apply incl_refl); intros y H; apply in_or_app; left; exact H.
Qed.

Lemma add_to_wants : forall x m, (d_req m = true -> d_all m = true) -> d_all (add_to (Some x) m) = true \/ In x (d_xp (add_to (Some x) m)).
Proof.
  intros x m R. unfold add_to. destruct (d_req m) eqn:Er; cbn [andb negb].
  - destruct (d_xp m) as [|y l] eqn:Ex; [left; apply R; reflexivity|]. destruct (existsb (Nat.eqb x) (y :: l)) eqn:E.
    + right. rewrite Ex. apply existsb_exists in E. destruct E as (z & Hz & Ez). apply Nat.eqb_eq in Ez. congruence.
    + right. cbn [d_xp set_xp]. apply in_or_app. right. left. reflexivity.
  - cbn [d_xp set_new]. destruct (existsb (Nat.eqb x) (d_xp m)) eqn:E.
    + right. cbn. apply existsb_exists in E. destruct E as (z & Hz & Ez). apply Nat.eqb_eq in Ez. congruence.
    + right. cbn [d_xp set_xp]. apply in_or_app. right. left. reflexivity.
Qed.

Section Second.
Variables (inv : nat -> list nat) (req : list nat) (chg : nat -> bool).

(** Nothing of the modules to be validated is missing. *)
Definition complete (mi : list dmod) : Prop :=
  NoDup (ids mi) /\ (forall m, In m mi -> st2 inv req chg m) /\ (forall i, In i req -> In i (ids mi)) /\
  (forall i, (exists r, In r req /\ In i (inv r)) -> In i (ids mi)).

Lemma in_get : forall mi m, NoDup (ids mi) -> In m mi -> get (d_id m) mi = Some m.
Proof. intros. apply get_nodup; assumption. Qed.

Lemma add_complete : forall mi t x, complete mi -> complete (mi_add t (Some x) mi) /\ wants t x (mi_add t (Some x) mi) /\
  (forall i y, wants i y mi -> wants i y (mi_add t (Some x) mi)).
Proof.
  intros mi t x (N & S & R & V).
  assert (N' : NoDup (ids (mi_add t (Some x) mi))) by (apply nodup_add; exact N).
  assert (Ii : forall i, In i (ids mi) -> In i (ids (mi_add t (Some x) mi))) by (intros i H; rewrite ids_mi_add; destruct (existsb (Nat.eqb t) (ids mi)); [exact H|apply in_or_app; left; exact H]).
  assert (W : wants t x (mi_add t (Some x) mi)).
  { assert (G : get t (mi_add t (Some x) mi) = Some (match get t mi with Some m => add_to (Some x) m | None => add_fresh t (Some x) end)) by (rewrite get_mi_add, Nat.eqb_refl; reflexivity).
    destruct (get_in _ _ _ G) as (G1 & G2). eexists. split; [exact G1|]. split; [exact G2|]. destruct (get t mi) as [m|] eqn:Gm; [|right; left; reflexivity].
    apply add_to_wants. intros Er. destruct (get_in _ _ _ Gm) as (Hm & _). destruct (S _ Hm) as (_ & S2 & _ & [(_ & S4)|(_ & _ & _ & S4 & _)]); [exact S4|congruence]. }
  split; [|split; [exact W|]].
  - split; [exact N'|]. split; [|split; [intros i H; apply Ii; apply R; exact H|intros i H; apply Ii; apply V; exact H]].
    intros m H. pose proof (in_get _ _ N' H) as G. rewrite get_mi_add in G. destruct (Nat.eqb_spec t (d_id m)) as [E|E].
    + injection G as G. destruct (get t mi) as [m0|] eqn:G0.
      * destruct (get_in _ _ _ G0) as (H0 & E0). destruct (S _ H0) as (S1 & S2 & S3 & S4). destruct (add_to_same (Some x) m0) as (A1 & A2 & A3 & A4 & A5 & A6 & A7). subst m.
        unfold st2. rewrite A1, A2, A3, A4, A5, d_id_add_to. split; [exact S1|]. split; [exact S2|]. split; [exact S3|]. destruct S4 as [S4|(S5 & S6 & S7 & S8)]; [left; exact S4|right].
        split; [apply A6; exact S5|]. split; [exact S6|]. split; [|exact S8]. intros X. rewrite X in A7. destruct (d_xp m0) as [|z l]; [apply S7; reflexivity|]. destruct (A7 z (or_introl eq_refl)).
      * assert (Nt : ~ In t (ids mi)) by (apply get_none; exact G0). subst m. unfold st2. cbn. split; [split; discriminate|]. split; [split; [discriminate|intros X; exfalso; apply Nt; apply R; exact X]|].
        split; [split; [discriminate|intros X; exfalso; apply Nt; apply V; exact X]|]. right. repeat split. discriminate.
    + destruct (get_in _ _ _ G) as (H0 & _). apply S. exact H0.
  - intros i y (m & H & Ei & Hy). pose proof (in_get _ _ N H) as G. destruct (Nat.eq_dec t i) as [->|Ne].
    + assert (G' : get i (mi_add i (Some x) mi) = Some (add_to (Some x) m)) by (rewrite get_mi_add, Nat.eqb_refl; rewrite <- Ei at 1; rewrite G; reflexivity).
      destruct (get_in _ _ _ G') as (G1 & G2). eexists. split; [exact G1|]. split; [exact G2|]. destruct (add_to_same (Some x) m) as (_ & _ & _ & _ & A5 & _ & A7). rewrite A5. destruct Hy as [Hy|Hy]; [left; exact Hy|right; apply A7; exact Hy].
    + assert (G' : get i (mi_add t (Some x) mi) = Some m) by (rewrite get_mi_add, (proj2 (Nat.eqb_neq t i) Ne); rewrite <- Ei; exact G).
      destruct (get_in _ _ _ G') as (G1 & G2). exists m. split; [exact G1|]. split; [exact G2|exact Hy].
Qed.

Lemma add_list_complete : forall l mi, complete mi -> let mi' := fold_left (fun acc d => mi_add (fst d) (Some (snd d)) acc) l mi in
  complete mi' /\ (forall t x, In (t, x) l -> wants t x mi') /\ (forall i y, wants i y mi -> wants i y mi').
Proof.
  induction l as [|(t, x) l IH]; intros mi C; cbv zeta; cbn [fold_left]; [split; [exact C|split; [intros t x []|auto]]|].
  destruct (add_complete mi t x C) as (C1 & W1 & K1). cbn [fst snd] in *. destruct (IH _ C1) as (C2 & W2 & K2). split; [exact C2|]. split; [|intros i y H; apply K2; apply K1; exact H].
  intros t' x' [E|H]; [injection E as <- <-; apply K2; exact W1|apply W2; exact H].
Qed.

Lemma collect_loop : forall (deps : nat -> list (nat * nat)) l mi, complete mi -> let mi' := fold_left (fun acc i => fold_left (fun acc d => mi_add (fst d) (Some (snd d)) acc) (deps i) acc) l mi in
  complete mi' /\ (forall i t x, In i l -> In (t, x) (deps i) -> wants t x mi') /\ (forall i y, wants i y mi -> wants i y mi').
Proof.
  intros deps. induction l as [|i l IH]; intros mi C; cbv zeta; cbn [fold_left]; [split; [exact C|split; [intros i t x []|auto]]|].
  destruct (add_list_complete (deps i) mi C) as (C1 & W1 & K1). destruct (IH _ C1) as (C2 & W2 & K2). split; [exact C2|]. split; [|intros j y H; apply K2; apply K1; exact H].
  intros j t x [<-|H] Hd; [apply K2; apply W1; exact Hd|eapply W2; eassumption].
Qed.

Lemma validate_in : forall mi i, complete mi -> to_validate inv req chg i -> In i (map d_id (filter (fun m => (d_req m && d_chg m) || d_inv m) mi)).
Proof.
  intros mi i (N & S & R & V) H. assert (Hi : In i (ids mi)) by (destruct H as [(H & _)|H]; [apply R; exact H|apply V; exact H]).
  apply in_map_iff in Hi. destruct Hi as (m & <- & Hm). apply in_map. apply filter_In. split; [exact Hm|]. destruct (S _ Hm) as ((_ & S1) & S2 & S3 & _).
  destruct H as [(H & Hc)|H].
  - apply S2 in H. rewrite S1 by (rewrite H; reflexivity). rewrite H, Hc. reflexivity.
  - apply S3 in H. rewrite H. apply orb_true_r.
Qed.

(** The data of a module that is there stay, those asked for are loaded. *)
Lemma final_load : forall mi, complete mi -> let mi' := consolidate inv TDep false mi in
  NoDup (ids mi') /\
  (forall t x, wants t x mi -> loaded_path mi' t x) /\
  (forall m, In m mi -> exists m', In m' mi' /\ d_id m' = d_id m /\ d_chg m' = d_chg m /\ d_inv m' = d_inv m /\ (d_all m = true -> d_all m' = true)) /\
  (forall m', In m' mi' -> exists m, In m mi /\ d_id m' = d_id m /\ d_chg m' = d_chg m /\ d_inv m' = d_inv m).
Proof.
  intros mi (N & S & R & V). cbv zeta. unfold consolidate. destruct (existsb d_new mi) eqn:E; cbn [negb].
  - set (f := fun m => load1 (if d_new m then set_new false (set_type TDep m) else m)). rewrite map_map. fold f.
    assert (Fi : forall m, d_id (f m) = d_id m) by (intros m; unfold f; rewrite d_id_load1; destruct (d_new m); reflexivity).
    assert (Fc : forall m, d_chg (f m) = d_chg m /\ d_inv (f m) = d_inv m /\ (d_all m = true -> d_all (f m) = true)).
    { intros m. unfold f, load1. destruct (d_new m); cbn [d_data d_xp set_new set_type]; (destruct (d_data m); [repeat split; auto|]); (destruct (d_xp m); repeat split; auto). }
    split; [rewrite (ids_map f) by exact Fi; exact N|]. split; [|split].
    + intros t x (m & Hm & Et & Hx). exists (f m). split; [apply in_map; exact Hm|]. split; [rewrite Fi; exact Et|]. destruct Hx as [Hx|Hx]; [left; apply Fc; exact Hx|].
      destruct (S _ Hm) as (_ & _ & _ & [(S4 & S5)|(S4 & S5 & S6 & _)]); [left; apply Fc; exact S5|]. right. unfold f, load1. rewrite S4. cbn [d_data d_xp set_new set_type]. rewrite S5. destruct (d_xp m); [destruct Hx|]. exact Hx.
    + intros m Hm. exists (f m). split; [apply in_map; exact Hm|]. split; [apply Fi|]. apply Fc.
    + intros m' Hm. apply in_map_iff in Hm. destruct Hm as (m & <- & Hm). exists m. split; [exact Hm|]. split; [apply Fi|]. split; apply Fc.
  - split; [exact N|]. split; [|split].
    + intros t x (m & Hm & Et & Hx). exists m. split; [exact Hm|]. split; [exact Et|]. destruct (S _ Hm) as (_ & _ & _ & [(_ & S4)|(S4 & _)]); [left; exact S4|].
      exfalso. assert (X : existsb d_new mi = true) by (apply existsb_exists; exists m; split; assumption). congruence.
    + intros m Hm. exists m. auto.
    + intros m Hm. exists m. auto.
Qed.
End Second.

(** * The property *)
Lemma first_complete : forall inv req chg, complete inv req chg (map (fun m => set_chg (chg (d_id m)) m) (consolidate inv TReq true (fold_left (fun acc i => mi_add i None acc) req []))).
Proof.
  intros inv req chg. destruct (first_round inv req) as (A & B & C & D). cbv zeta in *. set (mi1 := consolidate _ _ _ _) in *.
  set (mi2 := map (fun m => set_chg (chg (d_id m)) m) mi1). assert (I2 : ids mi2 = ids mi1) by (apply ids_map; reflexivity). unfold complete. rewrite I2.
  split; [exact A|]. split; [|split; assumption]. intros m Hm. apply in_map_iff in Hm. destruct Hm as (m0 & <- & H0). specialize (B _ H0). unfold st1 in B. unfold st2. cbn.
  split; [split; [auto|reflexivity]|]. split; [apply B|]. split; [apply B|]. left. split; apply B.
Qed.

Theorem collected : forall inv deps req chg, let mi := collect inv deps req chg in
  NoDup (ids mi) /\
  (forall i, to_validate inv req chg i ->
     (exists m, In m mi /\ d_id m = i /\ validated m = true) /\ loaded mi i /\ (forall t x, In (t, x) (deps i) -> loaded_path mi t x)) /\
  (forall m, In m mi -> validated m = true -> chg (d_id m) = true \/ exists r, In r req /\ In (d_id m) (inv r)).
Proof.
  intros inv deps req chg. cbv zeta. unfold collect. pose proof (first_complete inv req chg) as C0. set (mi2 := map _ _) in *.
  unfold collect_deps. set (l := map d_id (filter _ mi2)). destruct (collect_loop inv req chg deps l mi2 C0) as (C1 & W1 & _). cbv zeta in *. set (mi3 := fold_left _ l mi2) in *.
  destruct (final_load inv req chg mi3 C1) as (N & L & K & K'). cbv zeta in *. split; [exact N|]. split.
  2: { intros m' Hm' Hv. destruct (K' _ Hm') as (m & Hm & E1 & E2 & E3). destruct C1 as (_ & S & _ & _). destruct (S _ Hm) as ((S1 & _) & _ & S3 & _). unfold validated in Hv. rewrite E1. rewrite E2, E3 in Hv.
       apply orb_true_iff in Hv. destruct Hv as [Hv|Hv]; [left; apply S1; exact Hv|right; apply S3; exact Hv]. }
  intros i H.
  assert (Hi : In i (ids mi3)) by (destruct C1 as (_ & _ & R & V); destruct H as [(H & _)|H]; [apply R; exact H|apply V; exact H]).
  apply in_map_iff in Hi. destruct Hi as (m & Ei & Hm). destruct C1 as (_ & S & _ & _). destruct (S _ Hm) as ((_ & S1) & S2 & S3 & S4). destruct (K _ Hm) as (m' & Hm' & K1 & K2 & K3 & K4).
  assert (Hr : d_req m || d_inv m = true) by (destruct H as [(H & _)|H]; rewrite <- Ei in H; [apply S2 in H; rewrite H; reflexivity|apply S3 in H; rewrite H; apply orb_true_r]).
  split; [|split].
  - exists m'. split; [exact Hm'|]. split; [congruence|]. unfold validated. rewrite K2, K3, S1 by exact Hr. destruct H as [(_ & H)|H]; [rewrite Ei, H; reflexivity|]. rewrite <- Ei in H. apply S3 in H. rewrite H. apply orb_true_r.
  - exists m'. split; [exact Hm'|]. split; [congruence|]. apply K4. destruct S4 as [(_ & S4)|(_ & _ & _ & S4 & S5)]; [exact S4|]. rewrite S4, S5 in Hr. discriminate.
  - intros t x Hd. apply L. apply (W1 i t x); [|exact Hd]. apply (validate_in inv req chg mi2 i C0 H).
Qed.
