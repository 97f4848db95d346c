(** Proofs for C63: changes and permissions. *)
From Coq Require Import NArith List Bool Lia.
From Verif Require Import Access AccessSpec AccessProofs.
Import ListNotations.
Local Open Scope N_scope.

Lemma prepare_same : forall u s d l s', prepare u s d l = Some s' -> same_but_cache s s'.
Proof.
  intros u s d l s' H. assert (same_but_cache s s) as R by (unfold same_but_cache; auto 12).
  assert (forall X, (if use_cache s d then cache_all u s l else match load_all u s d l with None => None | Some _ => Some s end) = Some X -> same_but_cache s X) as G.
  { intros X E. destruct (use_cache s d); [apply (cache_same u l); exact E|]. destruct (load_all u s d l); [|discriminate]. injection E as <-. exact R. }
  destruct d; cbn [prepare] in H; try (apply G; exact H). injection H as <-. exact R.
Qed.

Lemma same_untouched : forall s s', same_but_cache s s' -> untouched s s'.
Proof. intros s s' (A & B & C & D & E & F & G & H & I & J). unfold untouched. auto. Qed.

Lemma perm_same : forall u s s' d w, same_but_cache s s' -> forall m, perm_check u s' m d w = perm_check u s m d w.
Proof. intros u s s' d w (A & B & C & D & E & F & G & H & I & J) m. unfold perm_check, eds. rewrite A, B, G. reflexivity. Qed.

(** Whether something is to be reported about this change *)
Definition visible (d : ds) (chg : list (N * N)) (notify : bool) : bool :=
  match d with Operational => notify | _ => negb (match chg with [] => true | _ => false end) end.

Lemma apply_unfold : forall u s sid d req deps chg notify, apply u s sid d req deps chg notify =
  match prepare u s d (req ++ deps) with
  | None => (s, false, false)
  | Some s1 => if visible d chg notify then
        if perm_strict (fun m => perm_check u s m d true) (map (fun m => (m, true)) (req ++ map fst chg))
        then (store_all u s1 sid d chg, true) else (s1, false, false)
      else (store_all u s1 sid d chg, false)
  end.
Proof. reflexivity. Qed.

(** The outcome for somebody who lacks a permission *)
Lemma apply_refused : forall u s sid d req deps chg notify s' ok pub m, usual u s d ->
  apply u s sid d req deps chg notify = (s', ok, pub) -> visible d chg notify = true ->
  In m (req ++ map fst chg) -> ~ allowed u s m d true -> ok = false /\ pub = false /\ untouched s s'.
Proof.
  intros u s sid d req deps chg notify s' ok pub m U H V I A. rewrite apply_unfold, V in H.
  destruct (prepare u s d (req ++ deps)) as [s1|] eqn:P.
  - assert (perm_strict (fun m => perm_check u s m d true) (map (fun m => (m, true)) (req ++ map fst chg)) = false) as E.
    { destruct (perm_strict _ _) eqn:E; [|reflexivity]. exfalso. apply A. apply (perm_allowed u s d U).
      apply (proj1 (strict_map (fun m => perm_check u s m d true) _) E m I). }
    rewrite E in H. injection H as <- <- <-. split; [reflexivity|]. split; [reflexivity|]. apply same_untouched, (prepare_same u s d _ s1 P).
  - injection H as <- <- <-. split; [reflexivity|]. split; [reflexivity|]. unfold untouched. auto.
Qed.

Lemma store_nil : forall u s sid d, store_all u s sid d [] = (s, true).
Proof. reflexivity. Qed.

Lemma apply_allowed : forall u s sid d req deps chg notify s' ok pub, usual u s d ->
  apply u s sid d req deps chg notify = (s', ok, pub) -> visible d chg notify = true -> (pub = true \/ ~ untouched s s') ->
  forall m, In m (req ++ map fst chg) -> allowed u s m d true.
Proof.
  intros u s sid d req deps chg notify s' ok pub U H V C m I. apply (perm_allowed u s d U).
  destruct (perm_check u s m d true) eqn:E; [reflexivity|]. exfalso.
  assert (~ allowed u s m d true) as A by (intro X; apply (perm_allowed u s d U) in X; congruence).
  destruct (apply_refused u s sid d req deps chg notify s' ok pub m U H V I A) as (_ & B & D).
  destruct C as [C|C]; [congruence|contradiction].
Qed.

(** Storing for somebody who has the permissions *)
Definition conventional (d : ds) : Prop := d = Startup \/ d = Running \/ d = Candidate.

Lemma real_conv : forall s m d, conventional d -> conventional (real s m d).
Proof. intros s m d [->|[->| ->]]; cbn [real]; unfold conventional; auto. destruct (norun s m); auto. Qed.

Lemma file_consistent : forall s m d a, conventional d -> consistent s m d -> file_of s m d = Some a -> a = s_acc s m d.
Proof. intros s m d a [->|[->| ->]] C F; cbn [file_of consistent] in *; [injection F as <-; reflexivity|apply C; exact F|apply C; exact F]. Qed.

Lemma store_ok : forall u s sid m d v, conventional d -> sgroup s = None -> consistent s m (real s m d) ->
  (pl s m (real s m d) = Json -> may u (s_acc s m (real s m d)) true) ->
  exists s', store u s sid m d v = Some s'.
Proof.
  intros u s sid m d v Cd G C M.
  assert (may_group u (match sgroup s with Some g => g | None => egid u end) = true) as Mg.
  { rewrite G. unfold may_group. rewrite N.eqb_refl. rewrite orb_true_r. reflexivity. }
  assert (forall a, pl s m (real s m d) = Json -> file_of s m (real s m d) = Some a -> eaccess u a true = true) as Fa.
  { intros a J F. apply eaccess_may. rewrite (file_consistent s m (real s m d) a (real_conv s m d Cd) C F). apply M. exact J. }
  unfold store. change (eds s m d) with (real s m d).
  assert (d <> Operational) as Nd by (destruct Cd as [->|[->| ->]]; discriminate).
  destruct d; try (exfalso; apply Nd; reflexivity);
  (match goal with |- context [real s m ?e] => destruct (pl s m (real s m e)) eqn:J; [|eexists; reflexivity];
     destruct (file_of s m (real s m e)) as [a|] eqn:F; [rewrite (Fa a eq_refl eq_refl); eexists; reflexivity|rewrite Mg; eexists; reflexivity] end).
Qed.

Lemma store_all_ok : forall u sid d l s, conventional d -> sgroup s = None -> NoDup (map fst l) ->
  (forall m, In m (map fst l) -> consistent s m (real s m d)) ->
  (forall m, In m (map fst l) -> pl s m (real s m d) = Json -> may u (s_acc s m (real s m d)) true) ->
  exists s', store_all u s sid d l = (s', true) /\ s_acc s' = s_acc s /\ s_push s' = s_push s /\ norun s' = norun s /\
    (forall m v, In (m, v) l -> s_val s' m (real s m d) = v /\ contents s' m d = v) /\
    (forall m e, ~ (In m (map fst l) /\ e = real s m d) -> s_val s' m e = s_val s m e /\ s_file s' m e = s_file s m e).
Proof.
  intros u sid d l. induction l as [|[m v] l IH]; intros s Cd G ND C M.
  { exists s. split; [reflexivity|]. do 3 (split; [reflexivity|]). split; [intros ? ? []|intros; split; reflexivity]. }
  cbn [map fst] in *. inversion ND as [|x y Nm Nl]; subst. cbn [store_all].
  assert (d <> Operational) as Nd by (destruct Cd as [->|[->| ->]]; discriminate).
  destruct (store_ok u s sid m d v Cd G (C m (or_introl eq_refl)) (M m (or_introl eq_refl))) as [s1 S1]. rewrite S1.
  destruct (store_effect u s sid m d v s1 Nd S1) as (V & A & P & R & Gr & Pu & F & Fc).
  assert (forall x, real s1 x d = real s x d) as Re by (intro x; unfold real; rewrite R; reflexivity).
  assert (forall x, x <> m -> forall e e' : ds, (x, e) <> (m, e')) as Ne by (intros x N e e' E; congruence).
  assert (forall x, In x (map fst l) -> x <> m) as Nx by (intros x I ->; contradiction).
  destruct (IH s1 Cd) as (s' & H1 & H2 & H3 & H4 & H5 & H6).
  - rewrite Gr. exact G.
  - exact Nl.
  - intros x I. rewrite Re. specialize (C x (or_intror I)). specialize (Nx x I).
    destruct (real s x d); cbn [consistent] in *; try exact C; intros a Ha; rewrite A; apply C; rewrite <- Ha; symmetry; apply F, Ne, Nx.
  - intros x I. rewrite Re, A, P. apply M. right. exact I.
  - exists s'. split; [exact H1|]. split; [congruence|]. split; [congruence|]. split; [congruence|]. split.
    + intros x w [E|I].
      * injection E as -> ->.
        destruct (H6 x (real s x d)) as [K1 K2]; [intros [I _]; contradiction|].
        assert (s_val s' x (real s x d) = w) as K by (rewrite K1, V; apply upd2_same).
        split; [exact K|]. destruct d; cbn [contents]; try (exfalso; apply Nd; reflexivity); try exact K.
        -- unfold real in *. rewrite H4, R. exact K.
        -- cbn [real] in *. rewrite K2. destruct (s_file s1 x Candidate) eqn:E; [exact K|]. exfalso. exact (Fc eq_refl eq_refl).
      * destruct (H5 x w I) as [K1 K2]. rewrite Re in K1. split; assumption.
    + intros x e N. destruct (H6 x e) as [K1 K2].
      { intros [I E]. apply N. split; [right; exact I|]. rewrite E. apply Re. }
      assert ((x, e) <> (m, real s m d)) as Q by (intro E; injection E as -> ->; apply N; split; [left; reflexivity|reflexivity]).
      rewrite K1, K2, V. split; [apply upd2_other; exact Q|apply F; exact Q].
Qed.

Lemma apply_granted : forall u s sid d req deps chg notify s1, usual u s d -> conventional d -> sgroup s = None -> NoDup (map fst chg) ->
  prepare u s d (req ++ deps) = Some s1 ->
  (forall m, In m (map fst chg) -> consistent s m (real s m d)) ->
  (forall m, In m (req ++ map fst chg) -> allowed u s m d true) ->
  exists s' pub, apply u s sid d req deps chg notify = (s', true, pub) /\ s_acc s' = s_acc s /\ s_push s' = s_push s /\
    (forall m v, In (m, v) chg -> contents s' m d = v) /\
    (forall m e, ~ (In m (map fst chg) /\ e = real s m d) -> s_val s' m e = s_val s m e /\ s_file s' m e = s_file s m e).
Proof.
  intros u s sid d req deps chg notify s1 U Cd G ND P C M. rewrite apply_unfold, P.
  assert (perm_strict (fun m => perm_check u s m d true) (map (fun m => (m, true)) (req ++ map fst chg)) = true) as St.
  { apply strict_map. intros m I. apply (perm_allowed u s d U). apply M. exact I. }
  rewrite St. pose proof (prepare_same u s d _ s1 P) as SB.
  assert (forall m e, consistent s1 m e = consistent s m e) as Co.
  { intros m e. destruct SB as (A1 & A2 & A3 & A4 & A5 & A6 & A7 & A8 & A9 & A10). unfold consistent. rewrite A7, A8. reflexivity. }
  assert (forall m, real s1 m d = real s m d) as Re by (intro m; unfold real; rewrite (proj1 (proj2 SB)); reflexivity).
  assert (pl s1 = pl s /\ sgroup s1 = sgroup s /\ s_acc s1 = s_acc s /\ s_push s1 = s_push s /\ s_val s1 = s_val s /\ s_file s1 = s_file s) as (B1 & B2 & B3 & B4 & B5 & B6).
  { destruct SB as (A1 & A2 & A3 & A4 & A5 & A6 & A7 & A8 & A9 & A10). auto 10. }
  destruct (store_all_ok u sid d chg s1 Cd) as (s' & H1 & H2 & H3 & H4 & H5 & H6).
  - congruence.
  - exact ND.
  - intros m I. rewrite Re, Co. apply C. exact I.
  - intros m I _. rewrite Re, B3. apply M. apply in_or_app. right. exact I.
  - exists s'. rewrite H1. exists (visible d chg notify). split; [destruct (visible d chg notify); reflexivity|].
    split; [congruence|]. split; [congruence|]. split.
    + intros m v I. apply (H5 m v I).
    + intros m e N. rewrite <- B5, <- B6. apply H6. rewrite Re. exact N.
Qed.

(** * Changing permissions *)

Lemma chmodown_done : forall u a c a', chmodown u a c = (a', true) -> a' = wanted a (n_owner c) (n_group c) (n_perm c).
Proof.
  intros u a c a' H. unfold chmodown in H. destruct (chown_ok u a c); [|discriminate]. unfold wanted.
  destruct (n_perm c =? 0); [injection H as <-; reflexivity|].
  destruct ((euid u =? 0) || (euid u =? owner (chown a c))); [|discriminate]. injection H as <-. reflexivity.
Qed.

Lemma chmodown_owner : forall u a c a' ok, chmodown u a c = (a', ok) -> a' <> a -> euid u = 0 \/ euid u = owner a.
Proof.
  intros u a c a' ok H N. unfold chmodown in H. destruct (N.eqb_spec (euid u) 0) as [|Z]; [left; assumption|right].
  destruct (N.eqb_spec (euid u) (owner a)) as [|Q]; [assumption|exfalso]. apply N.
  unfold chown_ok in H. apply N.eqb_neq in Z, Q. rewrite Z, Q in H. cbn [orb andb] in H.
  destruct (n_owner c) as [o|] eqn:O1; cbn [andb] in H; [injection H as <- _; reflexivity|].
  destruct (n_group c) as [g|] eqn:G1; [injection H as <- _; reflexivity|].
  assert (chown a c = a) as Ca by (unfold chown; rewrite O1, G1; destruct a; reflexivity).
  rewrite Ca, Q in H. destruct (n_perm c =? 0); injection H as <- _; reflexivity.
Qed.

Lemma wanted_none : forall a, wanted a None None 0 = a.
Proof. intros []. reflexivity. Qed.

(** What changes, as one step *)
Lemma set_access_cases : forall u s m d c s' ok, set_access u s m d c = (s', ok) ->
  s' = s /\ (ok = true -> masked s c = Ch None None 0) \/
  (pl s m (real s m d) = Db /\ ok = true /\ s' = set_acc s (upd2 (s_acc s) m (real s m d)
      (wanted (s_acc s m (real s m d)) (n_owner (masked s c)) (n_group (masked s c)) (n_perm (masked s c))))) \/
  (pl s m (real s m d) = Json /\ exists s1 ok1,
      (s1 = s /\ ok1 = true /\ (real s m d = Running \/ real s m d = Candidate -> s_file s m (real s m d) = None) \/
       exists f f', (real s m d = Running \/ real s m d = Candidate) /\ s_file s m (real s m d) = Some f /\
         chmodown u f (masked s c) = (f', ok1) /\ s1 = set_file s (upd2 (s_file s) m (real s m d) (Some f'))) /\
      (ok1 = false /\ ok = false /\ s' = s1 \/
       ok1 = true /\ exists a', chmodown u (s_acc s m (real s m d)) (masked s c) = (a', ok) /\
         s' = set_acc s1 (upd2 (s_acc s) m (real s m d) a'))).
Proof.
  intros u s m d c s' ok H. unfold set_access in H.
  destruct (negb (N.land (n_perm c) 73 =? 0) || (511 <? n_perm c)); [injection H as <- <-; left; split; [reflexivity|discriminate]|].
  destruct (masked s c) as [o g p] eqn:Mk. cbn [n_owner n_group n_perm] in *.
  change (eds s m d) with (real s m d) in H.
  assert ((o = None /\ g = None /\ p = 0) \/
    (match pl s m (real s m d) with
        | Db => (set_acc s (upd2 (s_acc s) m (real s m d) (wanted (s_acc s m (real s m d)) o g p)), true)
        | Json =>
            let (s1, ok) :=
              match real s m d with
              | Running | Candidate =>
                  match s_file s m (real s m d) with
                  | None => (s, true)
                  | Some f => let (f', ok) := chmodown u f (Ch o g p) in (set_file s (upd2 (s_file s) m (real s m d) (Some f')), ok)
                  end
              | _ => (s, true)
              end in
            if ok then let (a', ok') := chmodown u (s_acc s m (real s m d)) (Ch o g p) in (set_acc s1 (upd2 (s_acc s1) m (real s m d) a'), ok')
            else (s1, false)
        end = (s', ok))) as [(-> & -> & ->)|K].
  { destruct o; [right; exact H|]. destruct g; [right; exact H|]. destruct p; [left; auto|right; exact H]. }
  { injection H as <- <-. left. split; [reflexivity|]. intros _. reflexivity. }
  clear H. right. destruct (pl s m (real s m d)) eqn:Pl; [right|left; injection K as <- <-; auto].
  split; [reflexivity|].
  assert (forall s1 ok1, s_acc s1 = s_acc s -> (if ok1 : bool then let (a', ok') := chmodown u (s_acc s m (real s m d)) (Ch o g p) in (set_acc s1 (upd2 (s_acc s1) m (real s m d) a'), ok')
            else (s1, false)) = (s', ok) ->
     ok1 = false /\ ok = false /\ s' = s1 \/
       ok1 = true /\ exists a', chmodown u (s_acc s m (real s m d)) (Ch o g p) = (a', ok) /\
         s' = set_acc s1 (upd2 (s_acc s) m (real s m d) a')) as Fin.
  { intros s1 ok1 Sa E. destruct ok1; [right|left; injection E as <- <-; auto]. split; [reflexivity|].
    destruct (chmodown u (s_acc s m (real s m d)) (Ch o g p)) as [a' ok'] eqn:Cm. injection E as <- <-. rewrite Sa. exists a'. auto. }
  destruct (real s m d) eqn:Rd.
  1,4,5: exists s, true; (split; [left; do 2 (split; [reflexivity|]); intros [Q|Q]; discriminate|apply Fin; [reflexivity|exact K]]).
  - destruct (s_file s m Running) as [f|] eqn:F.
    + destruct (chmodown u f (Ch o g p)) as [f' ok1] eqn:Cf. eexists _, ok1. split; [right; exists f, f'; auto|]. apply Fin; [reflexivity|exact K].
    + exists s, true. split; [left; auto|]. apply Fin; [reflexivity|exact K].
  - destruct (s_file s m Candidate) as [f|] eqn:F.
    + destruct (chmodown u f (Ch o g p)) as [f' ok1] eqn:Cf. eexists _, ok1. split; [right; exists f, f'; auto|]. apply Fin; [reflexivity|exact K].
    + exists s, true. split; [left; auto|]. apply Fin; [reflexivity|exact K].
Qed.

Lemma set_done : forall u s m d c s', (pl s m (real s m d) = Json -> consistent s m (real s m d)) -> set_access u s m d c = (s', true) ->
  s_acc s' m (real s m d) = wanted (s_acc s m (real s m d)) (n_owner (masked s c)) (n_group (masked s c)) (n_perm (masked s c)) /\
  (pl s m (real s m d) = Json -> consistent s' m (real s m d)) /\ norun s' = norun s /\ pl s' = pl s /\ s_val s' = s_val s /\ s_push s' = s_push s /\
  (forall m' e, (m', e) <> (m, real s m d) -> s_acc s' m' e = s_acc s m' e) /\
  (forall m' e, (m', e) <> (m, real s m d) -> s_file s' m' e = s_file s m' e) /\
  (forall m' e, s_file s' m' e = None <-> s_file s m' e = None).
Proof.
  intros u s m d c s' C H. destruct (set_access_cases u s m d c s' true H) as [(-> & E)|[(P & _ & ->)|(P & s1 & ok1 & S1 & S2)]].
  - rewrite (E eq_refl). cbn [n_owner n_group n_perm]. rewrite wanted_none.
    split; [reflexivity|]. split; [exact C|]. do 4 (split; [reflexivity|]). split; [reflexivity|]. split; [reflexivity|]. intros m' e. reflexivity.
  - cbn [set_acc s_acc s_file norun pl s_val s_push]. split; [apply upd2_same|]. split; [rewrite P; discriminate|]. do 4 (split; [reflexivity|]).
    split; [intros m' e N; apply upd2_other; exact N|]. split; [reflexivity|]. intros m' e. reflexivity.
  - destruct S2 as [(_ & E & _)|(E1 & a' & Ca & ->)]; [discriminate|]. apply chmodown_done in Ca.
    cbn [set_acc s_acc s_file norun pl s_val s_push]. specialize (C P).
    destruct S1 as [(-> & _ & F)|(f & f' & Rd & F & Cf & ->)].
    + split; [rewrite upd2_same; exact Ca|]. split.
      * intros _. destruct (real s m d) eqn:Rd; cbn [consistent]; try exact Logic.I; intros a Ha; cbn in Ha; rewrite F in Ha by auto; discriminate.
      * do 4 (split; [reflexivity|]). split; [intros m' e N; apply upd2_other; exact N|]. split; [reflexivity|]. intros m' e. reflexivity.
    + rewrite E1 in Cf. apply chmodown_done in Cf. cbn [set_file s_acc s_file norun pl s_val s_push].
      split; [rewrite upd2_same; exact Ca|]. split.
      * intros _. assert (f = s_acc s m (real s m d)) as Ef by (destruct Rd as [Rd|Rd]; rewrite Rd in C, F |- *; apply C; exact F).
        assert (forall a, upd2 (s_file s) m (real s m d) (Some f') m (real s m d) = Some a -> a = upd2 (s_acc s) m (real s m d) a' m (real s m d)) as K.
        { intros a Ha. rewrite upd2_same in Ha. rewrite upd2_same. injection Ha as <-. rewrite Cf, Ca, Ef. reflexivity. }
        destruct Rd as [Rd|Rd]; rewrite Rd in K |- *; exact K.
      * do 4 (split; [reflexivity|]). split; [intros m' e N; apply upd2_other; exact N|]. split; [intros m' e N; apply upd2_other; exact N|].
        intros m' e. unfold upd2. destruct ((m =? m') && ds_eqb (real s m d) e) eqn:Q; [|reflexivity].
        apply andb_true_iff in Q. destruct Q as [Q1 Q2]. apply N.eqb_eq in Q1. apply ds_eqb_eq in Q2. subst m' e. rewrite F. split; discriminate.
Qed.

(** Nobody else changes permissions of files *)
Lemma set_owner : forall u s m d c s' ok, pl s m (real s m d) = Json -> consistent s m (real s m d) -> set_access u s m d c = (s', ok) ->
  (exists m' e, s_acc s' m' e <> s_acc s m' e \/ s_file s' m' e <> s_file s m' e) ->
  euid u = 0 \/ euid u = owner (s_acc s m (real s m d)).
Proof.
  intros u s m d c s' ok P C H (m' & e & X).
  destruct (N.eqb_spec (euid u) 0) as [|Z]; [left; assumption|]. destruct (N.eqb_spec (euid u) (owner (s_acc s m (real s m d)))) as [|Q]; [right; assumption|exfalso].
  assert (forall a a' k, a = s_acc s m (real s m d) -> chmodown u a (masked s c) = (a', k) -> a' = a) as K.
  { intros a a' k E Cm. destruct (N.eq_dec (owner a') (owner a)) as [E1|E1]; [|exfalso; destruct (chmodown_owner u a _ a' k Cm); [intros ->; contradiction|contradiction|subst a; contradiction]].
    destruct (N.eq_dec (group a') (group a)) as [E2|E2]; [|exfalso; destruct (chmodown_owner u a _ a' k Cm); [intros ->; contradiction|contradiction|subst a; contradiction]].
    destruct (N.eq_dec (perm a') (perm a)) as [E3|E3]; [|exfalso; destruct (chmodown_owner u a _ a' k Cm); [intros ->; contradiction|contradiction|subst a; contradiction]].
    destruct a, a'. cbn in *. subst. reflexivity. }
  assert (forall (A : Type) (f : N -> ds -> A) x e0, upd2 f m e0 x m' e <> f m' e -> x <> f m e0) as Up.
  { intros A f x e0 N E. apply N. unfold upd2. destruct ((m =? m') && ds_eqb e0 e) eqn:T; [|reflexivity].
    apply andb_true_iff in T. destruct T as [T1 T2]. apply N.eqb_eq in T1. apply ds_eqb_eq in T2. subst. reflexivity. }
  destruct (set_access_cases u s m d c s' ok H) as [(-> & _)|[(P' & _)|(_ & s1 & ok1 & S1 & S2)]]; [destruct X as [X|X]; apply X; reflexivity|congruence|].
  assert (s_acc s1 = s_acc s /\ s_file s1 m' e = s_file s m' e) as [A1 A2].
  { destruct S1 as [(-> & _)|(f & f' & Rd & F & Cf & ->)]; [split; reflexivity|]. cbn [set_file s_acc s_file]. split; [reflexivity|].
    assert (f = s_acc s m (real s m d)) as Ef by (destruct Rd as [Rd|Rd]; rewrite Rd in C, F |- *; apply C; exact F).
    rewrite (K f f' ok1 Ef Cf). unfold upd2. destruct ((m =? m') && ds_eqb (real s m d) e) eqn:T; [|reflexivity].
    apply andb_true_iff in T. destruct T as [T1 T2]. apply N.eqb_eq in T1. apply ds_eqb_eq in T2. subst m' e. symmetry. exact F. }
  destruct S2 as [(_ & _ & ->)|(_ & a' & Ca & ->)]; [destruct X as [X|X]; congruence|].
  cbn [set_acc s_acc s_file] in X. destruct X as [X|X]; [|contradiction].
  apply Up in X. apply X. apply (K _ a' ok eq_refl Ca).
Qed.
