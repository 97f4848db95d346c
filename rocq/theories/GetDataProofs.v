(** The order in which nodes are copied. *)
From Coq Require Import NArith List Bool Arith Lia.
From Verif Require Import GetData GetDataSpec.
Import ListNotations.

Lemma tree_ind2 : forall P : tree -> Prop, (forall i k s l, Forall P l -> P (T i k s l)) -> forall t, P t.
Proof.
  intros P H. fix IH 1. intros [i k s l]. apply H. induction l as [|x l IHl]; constructor; [apply IH|exact IHl].
Qed.

Lemma has_in : forall l n, has l n = true <-> In n l.
Proof.
  intros l n. unfold has. rewrite existsb_exists. split.
  - intros (x & H & E). apply N.eqb_eq in E. subst. auto.
  - intros H. exists n. split; auto. apply N.eqb_refl.
Qed.

Lemma nodup_app : forall (A : Type) (a b : list A), NoDup (a ++ b) <-> NoDup a /\ NoDup b /\ forall x, In x a -> ~ In x b.
Proof.
  intros A a b. induction a as [|x a IH]; cbn [app].
  - split; [intros H; split; [constructor|split; [auto|intros x []]]|intros (_ & H & _); auto].
  - split.
    + intros H. inversion H as [|? ? H1 H2]; subst. apply IH in H2 as (K1 & K2 & K3). split; [|split; auto].
      * constructor; auto. intros K. apply H1. apply in_or_app. auto.
      * intros y [<-|Hy]; auto. intros K. apply H1. apply in_or_app. auto.
    + intros (H1 & H2 & H3). inversion H1 as [|? ? K1 K2]; subst. constructor.
      * intros K. apply in_app_or in K as [K|K]; auto. apply (H3 x); [left|]; auto.
      * apply IH. split; auto. split; auto. intros y Hy. apply H3. right. auto.
Qed.

(** ** Redundant results *)

Fixpoint outer (sel : N -> bool) (c : list tree) (t : tree) : list result :=
  match t with T i k s l => if sel i then [(c, t)] else flat_map (outer sel (t :: c)) l end.

Lemma found_chain : forall sel t c r, In r (found sel c t) -> forall a, In a c -> In a (fst r).
Proof.
  intros sel t. induction t as [i k s l IH] using tree_ind2. intros c r H a Ha. cbn [found] in H.
  apply in_app_or in H as [H|H].
  - destruct (sel i); [|destruct H]. destruct H as [<-|[]]. auto.
  - apply in_flat_map in H as (x & Hx & H). rewrite Forall_forall in IH. apply (IH x Hx (T i k s l :: c) r H a). right. auto.
Qed.

Lemma filter_drop : forall l seen rest, (forall r, In r l -> existsb (fun a => has seen (t_id a)) (fst r) = true) ->
  filter_subtrees seen (l ++ rest) = filter_subtrees seen rest.
Proof.
  intros l. induction l as [|r l IH]; intros seen rest H; [auto|]. cbn [app filter_subtrees]. rewrite (H r) by (left; auto).
  apply IH. intros r' Hr'. apply H. right. auto.
Qed.

Lemma outer_ids : forall sel t c r, In r (outer sel c t) -> In (t_id (snd r)) (preorder t).
Proof.
  intros sel t. induction t as [i k s l IH] using tree_ind2. intros c r H. cbn [outer] in H. destruct (sel i).
  - destruct H as [<-|[]]. left. auto.
  - apply in_flat_map in H as (x & Hx & H). rewrite Forall_forall in IH. right. apply in_flat_map. exists x. split; auto.
    apply (IH x Hx (T i k s l :: c)); auto.
Qed.

Lemma filter_outer : forall sel t c seen rest,
  NoDup (preorder t) -> (forall a, In a c -> ~ In (t_id a) (preorder t)) ->
  (forall a, In a c -> ~ In (t_id a) seen) -> (forall n, In n (preorder t) -> ~ In n seen) ->
  filter_subtrees seen (found sel c t ++ rest) =
  outer sel c t ++ filter_subtrees (rev (map (fun r => t_id (snd r)) (outer sel c t)) ++ seen) rest.
Proof.
  intros sel t. induction t as [i k s l IH] using tree_ind2. intros c seen rest Hnd Hct Hc Hs. cbn [found outer].
  destruct (sel i).
  - cbn [app filter_subtrees fst snd t_id map rev].
    assert (E : existsb (fun a => has seen (t_id a)) c = false).
    { apply not_true_is_false. intros K. apply existsb_exists in K as (a & Ha & K). apply has_in in K. eapply Hc; eauto. }
    rewrite E. f_equal. apply filter_drop. intros r Hr. apply existsb_exists. exists (T i k s l). split.
    + apply in_flat_map in Hr as (x & Hx & Hr). eapply found_chain; eauto. left. auto.
    + apply has_in. left. auto.
  - cbn [app]. cbn [preorder] in *. set (t := T i k s l) in *.
    assert (X : forall l0 seen, incl l0 l -> NoDup (ids l0) -> (forall a, In a (t :: c) -> ~ In (t_id a) (ids l0)) ->
      (forall a, In a (t :: c) -> ~ In (t_id a) seen) -> (forall n, In n (ids l0) -> ~ In n seen) ->
      filter_subtrees seen (flat_map (found sel (t :: c)) l0 ++ rest) =
      flat_map (outer sel (t :: c)) l0 ++
      filter_subtrees (rev (map (fun r => t_id (snd r)) (flat_map (outer sel (t :: c)) l0)) ++ seen) rest).
    { intros l0. induction l0 as [|x l0 IHl]; intros sn Hi H1 H2 H3 H4; [auto|]. cbn [flat_map ids] in *.
      apply nodup_app in H1 as (N1 & N2 & N3). rewrite <- !app_assoc. rewrite Forall_forall in IH.
      rewrite (IH x (Hi x (or_introl eq_refl))); auto.
      - f_equal. rewrite IHl; auto.
        + f_equal. f_equal. rewrite map_app, rev_app_distr, app_assoc. reflexivity.
        + intros y Hy. apply Hi. right. auto.
        + intros a Ha K. apply (H2 a Ha). apply in_or_app. auto.
        + intros a Ha K. apply in_app_or in K as [K|K]; [|eapply H3; eauto]. apply in_rev, in_map_iff in K as (r & E & Hr).
          apply outer_ids in Hr. rewrite E in Hr. apply (H2 a Ha). apply in_or_app. auto.
        + intros n Hn K. apply in_app_or in K as [K|K]; [|apply (H4 n); auto; apply in_or_app; auto].
          apply in_rev, in_map_iff in K as (r & E & Hr). apply outer_ids in Hr. rewrite E in Hr. apply (N3 n); auto.
      - intros a Ha K. apply (H2 a Ha). apply in_or_app. auto.
      - intros n Hn. apply H4. apply in_or_app. auto. }
    inversion Hnd as [|? ? M1 M2]; subst. apply X; auto.
    + apply incl_refl.
    + intros a [<-|Ha]; [exact M1|]. intros K. apply (Hct a Ha). right. auto.
    + intros a [<-|Ha]; auto. apply Hs. left. auto.
    + intros n Hn. apply Hs. right. auto.
Qed.

Lemma filter_forest : forall sel f seen, NoDup (ids f) -> (forall n, In n (ids f) -> ~ In n seen) ->
  filter_subtrees seen (flat_map (found sel []) f) = flat_map (outer sel []) f.
Proof.
  intros sel f. induction f as [|t f IH]; intros seen Hnd Hs; [auto|]. cbn [flat_map ids] in *.
  apply nodup_app in Hnd as (N1 & N2 & N3). rewrite filter_outer; auto.
  - f_equal. apply IH; auto. intros n Hn K. apply in_app_or in K as [K|K].
    + apply in_rev, in_map_iff in K as (r & E & Hr). apply outer_ids in Hr. rewrite E in Hr. apply (N3 n); auto.
    + apply (Hs n); auto. apply in_or_app. auto.
  - intros n Hn. apply Hs. apply in_or_app. auto.
Qed.

(** ** What is copied *)

Definition keyids (t : tree) : list N := map t_id (filter t_key (t_kids t)).

Fixpoint pred (t : tree) (d : N) : list N :=
  match t with
  | T i _ _ l => i :: map t_id (filter t_key l) ++
      (if N.eqb d 0 then [] else flat_map (fun x => if t_key x then [] else pred x (N.pred d)) l)
  end.

Definition body (k : ctl) (t : tree) : list N :=
  let t' := prune (c_hide k) t in if N.eqb (c_depth k) 0 then preorder t' else pred t' (c_depth k).

Definition unwrap (x : option (list N)) : list N := match x with Some l => l | None => [] end.
Definition is_none (x : option (list N)) : bool := match x with None => true | _ => false end.

Fixpoint em (k : ctl) (sel : N -> bool) (dn : bool) (t : tree) : option (list N) :=
  match t with
  | T i key _ l =>
      if sel i then
        match trim (c_opts k) t with
        | None => None
        | Some t' => if dn || (negb key && c_deny k i) then None else Some (if key then [] else body k t')
        end
      else
        let ems := map (em k sel (dn || c_deny k i)) l in
        if forallb is_none ems then None
        else Some (i :: map t_id (filter t_key l) ++ flat_map unwrap ems)
  end.

Lemma dup_one_ids : forall t par s, map fst (dup_one t par s) = map fst s ++ t_id t :: keyids t.
Proof. intros t par s. unfold dup_one, keyids. rewrite map_app. cbn [map fst]. rewrite map_map. reflexivity. Qed.

Lemma dup_all_ids : forall t par s, map fst (dup_all t par s) = map fst s ++ preorder t.
Proof.
  intros t. induction t as [i k st l IH] using tree_ind2. intros par s. cbn [dup_all preorder].
  assert (X : forall l0 s0 p, incl l0 l -> map fst (fold_left (fun s' x => dup_all x p s') l0 s0) = map fst s0 ++ flat_map preorder l0).
  { intros l0. induction l0 as [|x l0 IHl]; intros s0 p Hi; cbn [fold_left flat_map]; [rewrite app_nil_r; auto|].
    rewrite IHl by (intros y Hy; apply Hi; right; auto). rewrite Forall_forall in IH.
    rewrite (IH x (Hi x (or_introl eq_refl))), <- app_assoc. auto. }
  rewrite X by apply incl_refl. rewrite map_app, <- app_assoc. reflexivity.
Qed.

Lemma dup_depth_ids : forall t d par s, map fst (dup_depth t d par s) = map fst s ++ pred t d.
Proof.
  intros t. induction t as [i k st l IH] using tree_ind2. intros d par s. cbn [dup_depth pred].
  destruct (N.eqb d 0).
  - rewrite dup_one_ids. cbn [t_id keyids t_kids]. rewrite app_nil_r. auto.
  - assert (X : forall l0 s0 p, incl l0 l -> map fst (fold_left (fun s' x => if t_key x then s' else dup_depth x (N.pred d) p s') l0 s0) =
      map fst s0 ++ flat_map (fun x => if t_key x then [] else pred x (N.pred d)) l0).
    { intros l0. induction l0 as [|x l0 IHl]; intros s0 p Hi; cbn [fold_left flat_map]; [rewrite app_nil_r; auto|].
      rewrite IHl by (intros y Hy; apply Hi; right; auto). destruct (t_key x); [auto|]. rewrite Forall_forall in IH.
      rewrite (IH x (Hi x (or_introl eq_refl))), <- app_assoc. auto. }
    rewrite X by apply incl_refl. rewrite dup_one_ids. cbn [t_id keyids t_kids]. rewrite <- app_assoc. reflexivity.
Qed.

Definition anc (l : list tree) : list N := flat_map (fun a => t_id a :: keyids a) l.

Lemma dup_parents_ok : forall l par s h s' par' h', dup_parents l par s h = (s', par', h') ->
  map fst s' = map fst s ++ anc l /\
  (forall a, In a l -> ht_find h' (t_id a) <> None) /\
  (forall n, ht_find h n <> None -> ht_find h' n <> None) /\
  (forall n, ~ In n (map t_id l) -> ht_find h' n = ht_find h n).
Proof.
  intros l. induction l as [|a l IH]; intros par s h s' par' h' H; cbn [dup_parents] in H.
  - injection H as <- <- <-. split; [rewrite app_nil_r; auto|]. split; [intros a []|]. split; auto.
  - apply IH in H as (H1 & H2 & H3 & H4). split; [|split; [|split]].
    + rewrite H1, dup_one_ids. unfold anc. cbn [flat_map]. rewrite <- app_assoc. auto.
    + intros b [<-|Hb]; auto. apply H3. cbn [ht_find]. rewrite N.eqb_refl. discriminate.
    + intros n Hn. apply H3. cbn [ht_find]. destruct (N.eqb n (t_id a)); [discriminate|auto].
    + intros n Hn. cbn [map] in Hn. rewrite H4 by (intros K; apply Hn; right; auto). cbn [ht_find].
      destruct (N.eqb_spec n (t_id a)); auto. exfalso. apply Hn. left. auto.
Qed.

Definition chain_ok (h : ht) (c : list tree) : Prop :=
  forall c1 a c2, c = c1 ++ a :: c2 -> ht_find h (t_id a) <> None -> forall b, In b c2 -> ht_find h (t_id b) <> None.

Lemma locate_ok : forall h c, chain_ok h c ->
  (forall a, In a (fst (locate h c)) -> In a c /\ ht_find h (t_id a) = None) /\
  (forall a, In a c -> In a (fst (locate h c)) \/ ht_find h (t_id a) <> None).
Proof.
  intros h c. induction c as [|a c IH]; intros H; cbn [locate].
  - split; intros a [].
  - destruct (ht_find h (t_id a)) as [r|] eqn:E; cbn [fst].
    + split; [intros b []|]. intros b [<-|Hb]; right; [congruence|]. apply (H [] a c eq_refl); auto. congruence.
    + destruct IH as [I1 I2].
      { intros c1 b c2 -> . apply (H (a :: c1) b c2 eq_refl). }
      split.
      * intros b [<-|Hb]; [split; [left|]; auto|]. apply I1 in Hb as [? ?]. split; [right|]; auto.
      * intros b [<-|Hb]; [left; left; auto|]. destruct (I2 b Hb); [left; right; auto|right; auto].
Qed.

Lemma locate_all : forall h c, (forall a, In a c -> ht_find h (t_id a) <> None) -> fst (locate h c) = [].
Proof.
  intros h [|a c] H; [auto|]. cbn [locate]. specialize (H a (or_introl eq_refl)).
  destruct (ht_find h (t_id a)); [auto|congruence].
Qed.

Lemma trim_r_same : forall o t t', trim_r o t = Some t' -> t_id t' = t_id t /\ t_key t' = t_key t /\ t_state t' = t_state t.
Proof.
  intros o [i k s l] t' H. cbn [trim_r] in H. destruct k; [injection H as <-; auto|].
  destruct s; [destruct (no_state o); [discriminate|injection H as <-; auto]|].
  match type of H with context [if ?b then _ else _] => destruct b end; [discriminate|]. injection H as <-. auto.
Qed.

Lemma trim_same : forall o t t', trim o t = Some t' -> t_id t' = t_id t /\ t_key t' = t_key t /\ t_state t' = t_state t.
Proof.
  intros o t t' H. unfold trim in H. destruct (no_state o || no_config o); [eapply trim_r_same; eauto|injection H as <-; auto].
Qed.

Lemma trim_set_app : forall o a b, trim_set o (a ++ b) = trim_set o a ++ trim_set o b.
Proof. intros. unfold trim_set. apply flat_map_app. Qed.

Definition run_set (k : ctl) (l : list result) (x : store * ht) : store * ht :=
  fold_left (add_result k) (trim_set (c_opts k) l) x.

Lemma run_set_app : forall k a b x, run_set k (a ++ b) x = run_set k b (run_set k a x).
Proof. intros. unfold run_set. rewrite trim_set_app, fold_left_app. auto. Qed.

Definition emitted (k : ctl) (c : list tree) (res : list result) (ns : list N) (e : option (list N)) (s : store) (h : ht) : Prop :=
  match e with
  | None => run_set k res (s, h) = (s, h)
  | Some l => exists s' h', run_set k res (s, h) = (s', h') /\
      map fst s' = map fst s ++ anc (rev (fst (locate h c))) ++ l /\
      (forall a, In a c -> ht_find h' (t_id a) <> None) /\
      (forall n, ~ In n (map t_id c) -> ~ In n ns -> ht_find h' n = ht_find h n)
  end.

Lemma emit_ok : forall k sel t c s h,
  NoDup (preorder t) -> (forall a, In a c -> ~ In (t_id a) (preorder t)) ->
  (forall n, In n (preorder t) -> ht_find h n = None) -> chain_ok h c ->
  emitted k c (outer sel c t) (preorder t) (em k sel (existsb (fun a => c_deny k (t_id a)) c) t) s h.
Proof.
  intros k sel t. induction t as [i key st l IH] using tree_ind2. intros c s h Hnd Hct Hh Hc.
  cbn [outer em]. set (dn := existsb (fun a => c_deny k (t_id a)) c). set (t := T i key st l) in *.
  destruct (sel i).
  - destruct (trim (c_opts k) t) as [t'|] eqn:Et.
    + pose proof (trim_same _ _ _ Et) as (T1 & T2 & T3). cbn [t t_id t_key t_state] in T1, T2, T3.
      assert (R : run_set k [(c, t)] (s, h) = add_result k (s, h) (c, t')).
      { unfold run_set, trim_set. cbn [flat_map fst snd]. rewrite Et. reflexivity. }
      cbn [add_result] in R. fold dn in R. rewrite T1, T2 in R.
      destruct (dn || negb key && c_deny k i); cbn [emitted]; [exact R|].
      destruct (locate h c) as [new par] eqn:El. destruct (dup_parents (rev new) par s h) as [[s' par'] h'] eqn:Ed.
      apply dup_parents_ok in Ed as (D1 & D2 & D3 & D4). destruct (locate_ok h c Hc) as [L1 L2]. rewrite El in L1, L2. cbn [fst] in L1, L2.
      assert (Ha : forall a, In a c -> ht_find h' (t_id a) <> None).
      { intros a Ha. destruct (L2 a Ha); [apply D2; apply in_rev; rewrite rev_involutive; auto|auto]. }
      assert (Hn : forall n, ~ In n (map t_id c) -> ~ In n (preorder t) -> ht_find h' n = ht_find h n).
      { intros n Hn _. apply D4. intros K. apply Hn. apply in_map_iff in K as (a & <- & K). apply in_map. apply L1. apply in_rev. auto. }
      destruct key.
      * exists s', h'. split; [exact R|]. split; [rewrite app_nil_r; exact D1|]. auto.
      * eexists _, h'. split; [exact R|]. split; [|auto]. unfold body. cbn [fst]. rewrite app_assoc, <- D1.
        destruct (N.eqb (c_depth k) 0); [apply dup_all_ids|apply dup_depth_ids].
    + cbn [emitted]. unfold run_set, trim_set. cbn [flat_map fst snd]. rewrite Et. reflexivity.
  - assert (Ed : (dn || c_deny k i) = existsb (fun a => c_deny k (t_id a)) (t :: c)).
    { cbn [existsb t t_id]. apply orb_comm. }
    rewrite Ed. clear Ed. set (c' := t :: c).
    assert (X : forall l0 s h, incl l0 l -> NoDup (ids l0) -> (forall a, In a c' -> ~ In (t_id a) (ids l0)) ->
      (forall n, In n (ids l0) -> ht_find h n = None) -> chain_ok h c' ->
      let ems := map (em k sel (existsb (fun a => c_deny k (t_id a)) c')) l0 in
      emitted k c' (flat_map (outer sel c') l0) (ids l0)
        (if forallb is_none ems then None else Some (flat_map unwrap ems)) s h).
    { intros l0. induction l0 as [|x l0 IHl]; intros s0 h0 Hi H1 H2 H3 H4 ems; [reflexivity|].
      cbn [ids flat_map] in H1, H2, H3. apply nodup_app in H1 as (N1 & N2 & N3). rewrite Forall_forall in IH.
      pose proof (IH x (Hi x (or_introl eq_refl)) c' s0 h0 N1
        (fun a Ha K => H2 a Ha (in_or_app _ _ _ (or_introl K))) (fun n Hn => H3 n (in_or_app _ _ _ (or_introl Hn))) H4) as E0.
      unfold ems. cbn [flat_map map forallb unwrap]. set (em' := em k sel (existsb (fun a => c_deny k (t_id a)) c')) in *.
      assert (Hi' : incl l0 l) by (intros y Hy; apply Hi; right; auto).
      assert (H2' : forall a, In a c' -> ~ In (t_id a) (ids l0)) by (intros a Ha K; apply (H2 a Ha); apply in_or_app; auto).
      destruct (em' x) as [lx|] eqn:Ex; cbn [is_none andb unwrap].
      - destruct E0 as (s1 & h1 & R1 & S1 & A1 & F1).
        assert (H3' : forall n, In n (ids l0) -> ht_find h1 n = None).
        { intros n Hn. rewrite F1; [apply H3; apply in_or_app; auto| |].
          - intros K. apply in_map_iff in K as (a & <- & Ha). apply (H2' a Ha Hn).
          - intros K. apply (N3 n); auto. }
        assert (H4' : chain_ok h1 c').
        { intros c1 a c2 E _ b Hb. apply A1. rewrite E. apply in_or_app. right. right. auto. }
        pose proof (IHl s1 h1 Hi' N2 H2' H3' H4') as E1. cbv zeta in E1. fold em' in E1.
        destruct (forallb is_none (map em' l0)) eqn:En; cbn [emitted] in *.
        + exists s1, h1. rewrite run_set_app, R1. split; auto. split; [|split; auto].
          * rewrite S1. f_equal. f_equal. replace (flat_map unwrap (map em' l0)) with (@nil N); [rewrite app_nil_r; auto|].
            symmetry. clear - En. induction l0 as [|y l0 IHl]; [auto|]. cbn [map forallb flat_map] in *. apply andb_true_iff in En as [E1 E2].
            destruct (em' y); [discriminate|]. cbn [unwrap app]. auto.
          * intros n Hn1 Hn2. apply F1; auto. intros K. apply Hn2. cbn [ids flat_map]. apply in_or_app. auto.
        + destruct E1 as (s2 & h2 & R2 & S2 & A2 & F2). exists s2, h2. rewrite run_set_app, R1. split; auto. split; [|split; auto].
          * rewrite S2, S1, (locate_all h1 c' A1). cbn [rev anc flat_map app]. rewrite <- !app_assoc. reflexivity.
          * intros n Hn1 Hn2. rewrite F2, F1; auto; intros K; apply Hn2; cbn [ids flat_map]; apply in_or_app; auto.
      - cbn [emitted] in E0.
        pose proof (IHl s0 h0 Hi' N2 H2' (fun n Hn => H3 n (in_or_app _ _ _ (or_intror Hn))) H4) as E1. cbv zeta in E1. fold em' in E1.
        destruct (forallb is_none (map em' l0)) eqn:En; cbn [emitted] in *.
        + rewrite run_set_app, E0. auto.
        + destruct E1 as (s2 & h2 & R2 & S2 & A2 & F2). exists s2, h2. rewrite run_set_app, E0. split; auto. split; [exact S2|split; auto].
          intros n Hn1 Hn2. apply F2; auto; intros K; apply Hn2; cbn [ids flat_map]; apply in_or_app; auto. }
    cbn [preorder t] in Hnd. inversion Hnd as [|? ? M1 M2]; subst.
    assert (Hti : ht_find h i = None) by (apply Hh; left; auto).
    assert (Hc' : chain_ok h c').
    { intros [|b c1] a c2 E Ha b' Hb; cbn [app] in E; injection E as E1 E2.
      - subst a. cbn [t t_id] in Ha. congruence.
      - eapply Hc; eauto. }
    pose proof (X l s h (incl_refl l) M2
      (fun a Ha => match Ha with or_introl E => eq_ind t (fun a => ~ In (t_id a) (ids l)) M1 a E
                   | or_intror Hb => fun K => Hct a Hb (or_intror K) end)
      (fun n Hn => Hh n (or_intror Hn)) Hc') as E. cbv zeta in E.
    destruct (forallb is_none _); cbn [emitted] in *; [exact E|].
    destruct E as (s' & h' & R & S1 & A & F). exists s', h'. split; [exact R|]. split; [|split].
    + rewrite S1. f_equal. cbn [c' locate t_id t]. rewrite Hti. cbn [fst rev]. unfold anc. rewrite flat_map_app. cbn [flat_map].
      rewrite app_nil_r, <- !app_assoc. reflexivity.
    + intros a Ha. apply A. right. auto.
    + intros n Hn1 Hn2. apply F.
      * intros [K|K]; auto. apply Hn2. left. auto.
      * intros K. apply Hn2. right. auto.
Qed.

Lemma get_data_ids : forall k sel f, NoDup (ids f) ->
  map fst (get_data k sel f) = flat_map (fun t => unwrap (em k sel false t)) f.
Proof.
  intros k sel f Hnd. unfold get_data. rewrite filter_forest by auto. fold (run_set k (flat_map (outer sel []) f) ([], [])).
  assert (X : forall f s h, NoDup (ids f) -> (forall n, In n (ids f) -> ht_find h n = None) ->
    map fst (fst (run_set k (flat_map (outer sel []) f) (s, h))) = map fst s ++ flat_map (fun t => unwrap (em k sel false t)) f).
  { clear. intros f. induction f as [|t f IH]; intros s h H1 H2; cbn [flat_map].
    - rewrite app_nil_r. auto.
    - cbn [ids flat_map] in H1, H2. apply nodup_app in H1 as (N1 & N2 & N3). rewrite run_set_app.
      pose proof (emit_ok k sel t [] s h N1 (fun a (H : In a []) => match H with end) (fun n Hn => H2 n (in_or_app _ _ _ (or_introl Hn)))) as E.
      assert (C : chain_ok h []) by (intros [|? ?] ? ? K; discriminate). specialize (E C). cbn [existsb] in E.
      destruct (em k sel false t) as [l|]; cbn [emitted unwrap] in *.
      + destruct E as (s' & h' & R & S1 & _ & F). rewrite R, IH; auto.
        * rewrite S1. cbn [locate fst rev anc flat_map app]. rewrite <- app_assoc. auto.
        * intros n Hn. rewrite F; auto; [apply H2; apply in_or_app; auto|]. intros K. apply (N3 n); auto.
      + rewrite E, IH; auto. intros n Hn. apply H2. apply in_or_app. auto. }
  rewrite X; auto.
Qed.
