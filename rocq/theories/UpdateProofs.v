(** Proofs about data, edits and diffs. *)
From Coq Require Import NArith List Bool Arith Lia Sorted.
From Verif Require Import Update UpdateSpec.
Import ListNotations.

Lemma path_eqb_eq : forall p q, path_eqb p q = true <-> p = q.
Proof.
  intros [[a b] c] [[a' b'] c']. unfold path_eqb, p_mod, p_top. cbn [fst snd].
  rewrite !andb_true_iff, !N.eqb_eq. split.
  - intros [[-> ->] ->]. reflexivity.
  - intro H. injection H as -> -> ->. auto.
Qed.

Lemma path_eqb_refl : forall p, path_eqb p p = true.
Proof. intro p. apply path_eqb_eq. reflexivity. Qed.

Lemma path_eqb_neq : forall p q, p <> q -> path_eqb p q = false.
Proof. intros p q H. destruct (path_eqb p q) eqn:E; [|reflexivity]. apply path_eqb_eq in E. contradiction. Qed.

Lemma oeqb_eq : forall a b, oeqb a b = true <-> a = b.
Proof.
  intros [a|] [b|]; cbn; split; intro H; try discriminate; try reflexivity.
  - apply N.eqb_eq in H. subst. reflexivity.
  - injection H as ->. apply N.eqb_refl.
Qed.

Lemma does_run1 : forall k v v', does k v v' <-> run1 k v = Some v'.
Proof.
  intros k v v'. split.
  - intro H. destruct H; reflexivity.
  - destruct k; destruct v; cbn; intro H; try discriminate; injection H as <-; constructor.
Qed.

(** The operations on one node *)
Definition only (p : path) (l : list op) : list op := filter (fun o => path_eqb p (fst o)) l.

Fixpoint runs (l : list op) (v : option N) : option (option N) :=
  match l with
  | [] => Some v
  | o :: l' => match run1 (snd o) v with Some v' => runs l' v' | None => None end
  end.

Lemma upd_same : forall d p v, upd d p v p = v.
Proof. intros. unfold upd. rewrite path_eqb_refl. reflexivity. Qed.

Lemma upd_other : forall d p v q, q <> p -> upd d p v q = d q.
Proof. intros d p v q H. unfold upd. rewrite path_eqb_neq; auto. Qed.

Lemma only_same : forall p k l, only p ((p, k) :: l) = (p, k) :: only p l.
Proof. intros. unfold only. cbn [filter fst]. rewrite path_eqb_refl. reflexivity. Qed.

Lemma only_other : forall p q k l, q <> p -> only q ((p, k) :: l) = only q l.
Proof. intros. unfold only. cbn [filter fst]. rewrite path_eqb_neq; auto. Qed.

Lemma path_dec : forall p q : path, {p = q} + {p <> q}.
Proof.
  intros p q. destruct (path_eqb p q) eqn:E; [left|right].
  - apply path_eqb_eq. exact E.
  - intros ->. rewrite path_eqb_refl in E. discriminate.
Qed.

Lemma apply_ops_runs : forall l d df d' df',
  apply_ops l (d, df) = Some (d', df') -> forall p, runs (only p l) (d p) = Some (d' p).
Proof.
  induction l as [|[p k] l IH]; intros d df d' df' H q.
  - cbn in H. injection H as <- <-. reflexivity.
  - cbn [apply_ops apply_op] in H. destruct (run1 k (d p)) as [v|] eqn:R; [|discriminate].
    specialize (IH _ _ _ _ H q). destruct (path_dec q p) as [->|E].
    + rewrite only_same. cbn [runs snd]. rewrite R. rewrite upd_same in IH. exact IH.
    + rewrite only_other by exact E. rewrite upd_other in IH by exact E. exact IH.
Qed.

Lemma runs_apply_ops : forall l d df,
  (forall p, runs (only p l) (d p) <> None) -> exists d' df', apply_ops l (d, df) = Some (d', df').
Proof.
  induction l as [|[p k] l IH]; intros d df H.
  - exists d, df. reflexivity.
  - cbn [apply_ops apply_op]. pose proof (H p) as Hp. rewrite only_same in Hp. cbn [runs snd] in Hp.
    destruct (run1 k (d p)) as [v|] eqn:R; [|contradiction].
    apply IH. intro q. destruct (path_dec q p) as [->|E].
    + rewrite upd_same. exact Hp.
    + rewrite upd_other by exact E. specialize (H q). rewrite only_other in H by exact E. exact H.
Qed.

Lemma steps_runs : forall d l d', steps d l d' -> forall p, runs (only p l) (d p) = Some (d' p).
Proof.
  intros d l d' H. induction H as [d d' E | d d1 d' p k l D O H IH]; intro q.
  - cbn. rewrite (E q). reflexivity.
  - destruct (path_dec q p) as [->|E].
    + rewrite only_same. cbn [runs snd]. apply does_run1 in D. rewrite D. apply IH.
    + rewrite only_other by exact E. rewrite <- (O q E). apply IH.
Qed.

Lemma runs_steps : forall l d d', (forall p, runs (only p l) (d p) = Some (d' p)) -> steps d l d'.
Proof.
  induction l as [|[p k] l IH]; intros d d' H.
  - constructor. intro p. specialize (H p). cbn in H. injection H as E. exact E.
  - pose proof (H p) as Hp. rewrite only_same in Hp. cbn [runs snd] in Hp.
    destruct (run1 k (d p)) as [v|] eqn:R; [|discriminate].
    apply steps_cons with (d1 := upd d p v).
    + rewrite upd_same. apply does_run1. exact R.
    + intros q E. apply upd_other. exact E.
    + apply IH. intro q. destruct (path_dec q p) as [->|E].
      * rewrite upd_same. exact Hp.
      * rewrite upd_other by exact E. specialize (H q). rewrite only_other in H by exact E. exact H.
Qed.

Lemma only_app : forall p a b, only p (a ++ b) = only p a ++ only p b.
Proof. intros. apply filter_app. Qed.

Lemma runs_app : forall a b v, runs (a ++ b) v = match runs a v with Some v' => runs b v' | None => None end.
Proof.
  induction a as [|o a IH]; intros b v; [reflexivity|].
  cbn [app runs]. destruct (run1 (snd o) v); [apply IH|reflexivity].
Qed.

(** Module by module *)
Lemma apply_ops_app : forall a b x,
  apply_ops (a ++ b) x = match apply_ops a x with Some y => apply_ops b y | None => None end.
Proof.
  induction a as [|o a IH]; intros b x; [reflexivity|].
  cbn [app apply_ops]. destruct (apply_op x o); [apply IH|reflexivity].
Qed.

Definition by_mods (ms : list N) (l : list op) : list op :=
  flat_map (fun m => filter (fun o => N.eqb (p_mod (fst o)) m) l) ms.

Lemma apply_mods_flat : forall ms l x, apply_mods ms l x = apply_ops (by_mods ms l) x.
Proof.
  induction ms as [|m ms IH]; intros l x; [reflexivity|].
  cbn [apply_mods]. unfold by_mods. cbn [flat_map]. rewrite apply_ops_app.
  destruct (apply_ops _ x); [apply IH|reflexivity].
Qed.

Lemma existsb_eqb : forall m l, existsb (N.eqb m) l = true <-> In m l.
Proof.
  intros m l. rewrite existsb_exists. split.
  - intros (x & I & E). apply N.eqb_eq in E. subst. exact I.
  - intro I. exists m. split; [exact I|apply N.eqb_refl].
Qed.

Lemma next_mods_in : forall l seen m, In m (next_mods seen l) <-> (In m l /\ ~ In m seen).
Proof.
  induction l as [|a l IH]; intros seen m; cbn [next_mods].
  - cbn. tauto.
  - destruct (existsb (N.eqb a) seen) eqn:E.
    + apply existsb_eqb in E. rewrite IH. cbn [In]. split.
      * tauto.
      * intros [[->|I] J]; [contradiction|auto].
    + assert (~ In a seen) as F by (intro J; apply existsb_eqb in J; congruence).
      cbn [In]. rewrite IH. cbn [In]. split.
      * intros [->|[I J]]; [auto|]. split; [auto|]. intro K. apply J. auto.
      * intros [[->|I] J]; [auto|]. destruct (N.eq_dec a m) as [->|G]; [auto|].
        right. split; [exact I|]. intros [K|K]; auto.
Qed.

Lemma next_mods_nodup : forall l seen, NoDup (next_mods seen l).
Proof.
  induction l as [|a l IH]; intros seen; cbn [next_mods]; [constructor|].
  destruct (existsb (N.eqb a) seen); [apply IH|].
  constructor; [|apply IH]. rewrite next_mods_in. cbn [In]. tauto.
Qed.

Lemma only_filter : forall p m l,
  only p (filter (fun o => N.eqb (p_mod (fst o)) m) l) = if N.eqb (p_mod p) m then only p l else [].
Proof.
  intros p m l. induction l as [|[q k] l IH]; cbn [filter fst].
  - destruct (N.eqb (p_mod p) m); reflexivity.
  - destruct (path_dec p q) as [<-|E].
    + destruct (N.eqb (p_mod p) m) eqn:F.
      * rewrite !only_same. rewrite IH. reflexivity.
      * exact IH.
    + destruct (N.eqb (p_mod q) m); rewrite ?only_other by exact E; exact IH.
Qed.

Lemma only_by_mods_out : forall p ms l, ~ In (p_mod p) ms -> only p (by_mods ms l) = [].
Proof.
  induction ms as [|m ms IH]; intros l H; [reflexivity|].
  unfold by_mods. cbn [flat_map]. rewrite only_app, only_filter.
  destruct (N.eqb (p_mod p) m) eqn:E.
  - apply N.eqb_eq in E. exfalso. apply H. left. auto.
  - cbn [app]. apply IH. intro I. apply H. right. exact I.
Qed.

Lemma only_by_mods : forall p ms l, NoDup ms -> In (p_mod p) ms -> only p (by_mods ms l) = only p l.
Proof.
  induction ms as [|m ms IH]; intros l ND I; [destruct I|].
  apply NoDup_cons_iff in ND. destruct ND as [NI ND].
  unfold by_mods. cbn [flat_map]. rewrite only_app, only_filter.
  destruct (N.eqb (p_mod p) m) eqn:E.
  - apply N.eqb_eq in E. change (flat_map _ ms) with (by_mods ms l).
    rewrite only_by_mods_out by (rewrite E; exact NI). apply app_nil_r.
  - cbn [app]. apply IH; [exact ND|]. destruct I as [I|I]; [|exact I].
    subst m. rewrite N.eqb_refl in E. discriminate.
Qed.

Lemma only_nil : forall p l, ~ In (p_mod p) (map (fun o : op => p_mod (fst o)) l) -> only p l = [].
Proof.
  intros p l. induction l as [|[q k] l IH]; intro H; [reflexivity|].
  cbn [map fst In] in H. rewrite only_other.
  - apply IH. tauto.
  - intros ->. tauto.
Qed.

Lemma only_edit : forall p l,
  only p (by_mods (next_mods [] (map (fun o : op => p_mod (fst o)) l)) l) = only p l.
Proof.
  intros p l. destruct (in_dec N.eq_dec (p_mod p) (map (fun o : op => p_mod (fst o)) l)) as [I|I].
  - apply only_by_mods; [apply next_mods_nodup|]. apply next_mods_in. cbn. tauto.
  - rewrite only_by_mods_out by (rewrite next_mods_in; tauto). rewrite only_nil; auto.
Qed.

(** Diffs *)
Lemma dfind_some : forall df p x, dfind df p = Some x -> In (p, x) df.
Proof.
  induction df as [|[q y] df IH]; intros p x H; cbn [dfind] in H; [discriminate|].
  destruct (path_eqb p q) eqn:E.
  - apply path_eqb_eq in E. injection H as ->. subst. left. reflexivity.
  - right. apply IH. exact H.
Qed.

Lemma dfind_none : forall df p x, dfind df p = None -> ~ In (p, x) df.
Proof.
  induction df as [|[q y] df IH]; intros p x H I; cbn [dfind] in H; [destruct I|].
  destruct (path_eqb p q) eqn:E; [discriminate|]. destruct I as [I|I].
  - injection I as -> ->. rewrite path_eqb_refl in E. discriminate.
  - exact (IH p x H I).
Qed.

Lemma dremove_in : forall df p q x, In (q, x) (dremove df p) <-> In (q, x) df /\ q <> p.
Proof.
  intros df p q x. unfold dremove. rewrite filter_In. cbn [fst]. split; intros [I H]; split; auto.
  - intros ->. rewrite path_eqb_refl in H. discriminate.
  - rewrite path_eqb_neq; auto.
Qed.

Lemma nodup_filter_fst : forall (f : path * (option N * option N) -> bool) df,
  NoDup (map fst df) -> NoDup (map fst (filter f df)).
Proof.
  intros f df. induction df as [|x df IH]; intro H; cbn [filter map] in *; [constructor|].
  apply NoDup_cons_iff in H. destruct H as [NI H]. destruct (f x); [|auto].
  cbn [map]. constructor; [|auto]. intro I. apply NI. apply in_map_iff in I.
  destruct I as (y & E & I). apply filter_In in I. rewrite <- E. apply in_map. apply I.
Qed.

Lemma nodup_snoc : forall (l : list path) p, NoDup l -> ~ In p l -> NoDup (l ++ [p]).
Proof.
  induction l as [|a l IH]; intros p H I; cbn [app].
  - constructor; [intros []|constructor].
  - apply NoDup_cons_iff in H. destruct H as [NI H]. constructor.
    + rewrite in_app_iff. cbn [In] in *. intros [J|[J|[]]]; [auto|]. apply I. auto.
    + apply IH; auto. intro J. apply I. right. exact J.
Qed.

Lemma exact_nil : forall d, exact [] d d.
Proof. intro d. split; [constructor|]. intros p o n. split; [intros []|]. intros (-> & -> & H). congruence. Qed.

Lemma exact_deq : forall df d a b, deq a b -> exact df d a -> exact df d b.
Proof. intros df d a b E [ND H]. split; [exact ND|]. intros p o n. rewrite H. rewrite (E p). tauto. Qed.

Lemma exact_merge1 : forall df d0 d p v, exact df d0 d -> exact (merge1 df (p, (d p, v))) d0 (upd d p v).
Proof.
  intros df d0 d p v [ND H]. unfold merge1. destruct (dfind df p) as [[o' n']|] eqn:F.
  - apply dfind_some in F. pose proof (proj1 (H _ _ _) F) as (Eo & En & Ne).
    assert (NoDup (map fst (dremove df p))) as ND' by (apply nodup_filter_fst; exact ND).
    destruct (oeqb o' v) eqn:Q.
    + apply oeqb_eq in Q. split; [exact ND'|]. intros q o n. rewrite dremove_in, H.
      destruct (path_dec q p) as [->|E].
      * rewrite upd_same. split; [tauto|]. intros (-> & -> & K). exfalso. apply K. congruence.
      * rewrite upd_other by exact E. tauto.
    + split.
      * rewrite map_app. cbn [map fst]. apply nodup_snoc; [exact ND'|]. intro I. apply in_map_iff in I.
        destruct I as ([q x] & E & I). cbn [fst] in E. subst q. apply dremove_in in I. tauto.
      * intros q o n. rewrite in_app_iff, dremove_in, H. cbn [In].
        destruct (path_dec q p) as [->|E].
        -- rewrite upd_same. split.
           ++ intros [[_ K]|[K|[]]]; [congruence|]. injection K as <- <-. split; [exact Eo|]. split; [reflexivity|].
              intro K. apply oeqb_eq in K. congruence.
           ++ intros (-> & -> & K). right. left. rewrite Eo. reflexivity.
        -- rewrite upd_other by exact E. split.
           ++ intros [[K _]|[K|[]]]; [exact K|]. injection K as K _ _. congruence.
           ++ intro K. left. auto.
  - assert (d0 p = d p) as Same.
    { destruct (oeqb (d0 p) (d p)) eqn:Q; [apply oeqb_eq; exact Q|]. exfalso.
      apply (dfind_none df p (d0 p, d p) F). apply H. repeat split. intro K. apply oeqb_eq in K. congruence. }
    destruct (oeqb (d p) v) eqn:Q.
    + apply oeqb_eq in Q. apply exact_deq with d; [|split; assumption]. intro q.
      destruct (path_dec q p) as [->|E]; [rewrite upd_same; exact Q|rewrite upd_other by exact E; reflexivity].
    + split.
      * rewrite map_app. cbn [map fst]. apply nodup_snoc; [exact ND|]. intro I. apply in_map_iff in I.
        destruct I as ([q x] & E & I). cbn [fst] in E. subst q. exact (dfind_none df p x F I).
      * intros q o n. rewrite in_app_iff, H. cbn [In]. destruct (path_dec q p) as [->|E].
        -- rewrite upd_same. split.
           ++ intros [(-> & -> & K)|[K|[]]]; [congruence|]. injection K as <- <-. split; [auto|]. split; [reflexivity|].
              intro K. apply oeqb_eq in K. congruence.
           ++ intros (-> & -> & K). right. left. rewrite Same. reflexivity.
        -- rewrite upd_other by exact E. split.
           ++ intros [K|[K|[]]]; [exact K|]. injection K as K _ _. congruence.
           ++ intro K. left. exact K.
Qed.

Lemma apply_ops_exact : forall l d0 d df d' df',
  exact df d0 d -> apply_ops l (d, df) = Some (d', df') -> exact df' d0 d'.
Proof.
  induction l as [|[p k] l IH]; intros d0 d df d' df' X H.
  - cbn in H. injection H as <- <-. exact X.
  - cbn [apply_ops apply_op] in H. destruct (run1 k (d p)) as [v|]; [|discriminate].
    apply (IH d0 _ _ _ _ (exact_merge1 df d0 d p v X) H).
Qed.

Lemma exact_merge_gen : forall df2 df d0 d d2,
  exact df d0 d -> exact df2 d d2 -> exact (merge df df2) d0 d2.
Proof.
  unfold merge. induction df2 as [|[p [o n]] df2 IH]; intros df d0 d d2 X Y.
  - cbn [fold_left]. apply exact_deq with d; [|exact X]. intro p.
    destruct (oeqb (d p) (d2 p)) eqn:Q; [apply oeqb_eq; exact Q|]. exfalso.
    apply (proj2 Y p (d p) (d2 p)). repeat split. intro K. apply oeqb_eq in K. congruence.
  - cbn [fold_left]. destruct Y as [ND Y]. cbn [map fst] in ND. apply NoDup_cons_iff in ND. destruct ND as [NI ND].
    pose proof (proj1 (Y p o n) (or_introl eq_refl)) as (-> & -> & Ne).
    apply IH with (d := upd d p (d2 p)).
    + apply exact_merge1. exact X.
    + split; [exact ND|]. intros q a b. destruct (path_dec q p) as [->|E].
      * rewrite upd_same. split.
        -- intro I. exfalso. apply NI. apply in_map_iff. exists (p, (a, b)). auto.
        -- intros (-> & -> & K). congruence.
      * rewrite upd_other by exact E. rewrite <- Y. cbn [In]. split; [auto|].
        intros [K|K]; [injection K as K _ _; congruence|exact K].
Qed.

(** What applying an edit does *)
Lemma edit_apply_steps : forall l d d' df, edit_apply l d = Some (d', df) -> steps d l d' /\ exact df d d'.
Proof.
  intros l d d' df H. unfold edit_apply in H. rewrite apply_mods_flat in H. split.
  - apply runs_steps. intro p. rewrite <- only_edit. apply (apply_ops_runs _ _ _ _ _ H).
  - apply (apply_ops_exact _ d d [] d' df (exact_nil d) H).
Qed.

Lemma steps_edit_apply : forall l d d', steps d l d' -> exists d2 df, edit_apply l d = Some (d2, df) /\ deq d2 d'.
Proof.
  intros l d d' H. unfold edit_apply. rewrite apply_mods_flat.
  destruct (runs_apply_ops (by_mods (next_mods [] (map (fun o : op => p_mod (fst o)) l)) l) d []) as (d2 & df & E).
  { intro p. rewrite only_edit, (steps_runs _ _ _ H). discriminate. }
  exists d2, df. split; [exact E|]. intro p.
  pose proof (apply_ops_runs _ _ _ _ _ E p) as A. rewrite only_edit, (steps_runs _ _ _ H p) in A.
  injection A as A. symmetry. exact A.
Qed.

Lemma steps_app : forall a b d d1 d2, steps d a d1 -> steps d1 b d2 -> steps d (a ++ b) d2.
Proof.
  intros a b d d1 d2 A B. apply runs_steps. intro p.
  rewrite only_app, runs_app, (steps_runs _ _ _ A p). apply (steps_runs _ _ _ B).
Qed.

Lemma steps_split : forall a b d d2, steps d (a ++ b) d2 -> exists d1, steps d a d1 /\ steps d1 b d2.
Proof.
  induction a as [|[p k] a IH]; intros b d d2 H; cbn [app] in H.
  - exists d. split; [constructor; intro; reflexivity|exact H].
  - inversion H as [|? d1 ? ? ? ? D O T]; subst. destruct (IH _ _ _ T) as (d3 & A & B).
    exists d3. split; [|exact B]. apply steps_cons with d1; assumption.
Qed.

Lemma steps_only : forall a b d d', (forall p, only p a = only p b) -> steps d a d' -> steps d b d'.
Proof. intros a b d d' E H. apply runs_steps. intro p. rewrite <- E. apply (steps_runs _ _ _ H). Qed.

Lemma steps_start : forall a d e d', deq d e -> steps d a d' -> steps e a d'.
Proof. intros a d e d' E H. apply runs_steps. intro p. rewrite <- E. apply (steps_runs _ _ _ H). Qed.

Lemma steps_det : forall a d x y, steps d a x -> steps d a y -> deq x y.
Proof.
  intros a d x y X Y p. pose proof (steps_runs _ _ _ X p) as A. rewrite (steps_runs _ _ _ Y p) in A.
  injection A as A. symmetry. exact A.
Qed.

(** Inserting keeps the order of operations on every node *)
Definition le_op (a b : op) : Prop := after a b = false.

Lemma after_key : forall a b, after a b = true <->
  (p_mod (fst b) < p_mod (fst a) \/ (p_mod (fst b) = p_mod (fst a) /\ p_top (fst b) < p_top (fst a)))%N.
Proof. intros. unfold after. rewrite orb_true_iff, andb_true_iff, !N.ltb_lt, N.eqb_eq. tauto. Qed.

Lemma after_false : forall a b, after a b = false <->
  ~ (p_mod (fst b) < p_mod (fst a) \/ (p_mod (fst b) = p_mod (fst a) /\ p_top (fst b) < p_top (fst a)))%N.
Proof. intros. rewrite <- after_key. destruct (after a b); intuition congruence. Qed.

Lemma insert_in : forall l o x, In x (insert l o) <-> x = o \/ In x l.
Proof.
  induction l as [|a l IH]; intros o x; cbn [insert In].
  - intuition congruence.
  - destruct (after a o); cbn [In]; [intuition congruence|]. rewrite IH. intuition congruence.
Qed.

Lemma insert_sorted : forall l o, StronglySorted le_op l -> StronglySorted le_op (insert l o).
Proof.
  induction l as [|a l IH]; intros o H; cbn [insert].
  - constructor; constructor.
  - inversion H as [|? ? S1 F]; subst. destruct (after a o) eqn:E.
    + constructor; [exact H|]. rewrite Forall_forall in F. apply after_key in E. constructor.
      * apply after_false. intro K. lia.
      * apply Forall_forall. intros x I. specialize (F x I). unfold le_op in *. rewrite after_false in *. lia.
    + constructor; [apply IH; exact S1|]. apply Forall_forall. intros x I. apply insert_in in I.
      destruct I as [->|I]; [exact E|]. rewrite Forall_forall in F. apply F. exact I.
Qed.

Lemma only_insert : forall p l o, StronglySorted le_op l -> only p (insert l o) = only p (l ++ [o]).
Proof.
  intros p l o. induction l as [|a l IH]; intro H; [reflexivity|].
  inversion H as [|? ? S1 F]; subst. cbn [insert]. destruct (after a o) eqn:E.
  - destruct (path_dec p (fst o)) as [->|G].
    + assert (only (fst o) (a :: l) = []) as Z.
      { unfold only. rewrite Forall_forall in F. apply after_key in E.
        assert (forall x, In x (a :: l) -> path_eqb (fst o) (fst x) = false) as Q.
        { intros x I. apply path_eqb_neq. intro K. destruct I as [<-|I].
          - rewrite K in E. lia.
          - specialize (F x I). unfold le_op in F. rewrite after_false in F. rewrite <- K in F. lia. }
        revert Q. generalize (a :: l). clear. intros m Q. induction m as [|x m IHm]; [reflexivity|].
        cbn [filter]. rewrite Q by (left; reflexivity). apply IHm. intros y I. apply Q. right. exact I. }
      rewrite only_app, Z. destruct o as [q k]. cbn [fst] in *. rewrite !only_same, Z. reflexivity.
    + rewrite only_app. destruct o as [q k]. cbn [fst] in G. rewrite !only_other by exact G.
      unfold only at 3. cbn [filter]. rewrite app_nil_r. reflexivity.
  - cbn [app]. destruct a as [q k]. destruct (path_dec p q) as [<-|G].
    + rewrite !only_same. f_equal. apply IH. exact S1.
    + rewrite !only_other by exact G. apply IH. exact S1.
Qed.

Lemma insert_all_only : forall e l, StronglySorted le_op l ->
  StronglySorted le_op (insert_all l e) /\ forall p, only p (insert_all l e) = only p (l ++ e).
Proof.
  unfold insert_all. induction e as [|o e IH]; intros l H; cbn [fold_left].
  - rewrite app_nil_r. auto.
  - destruct (IH (insert l o) (insert_sorted l o H)) as [A B]. split; [exact A|].
    intro p. rewrite B, !only_app, only_insert by exact H. rewrite <- !only_app, <- app_assoc. reflexivity.
Qed.

Lemma insert_all_app : forall l a b, insert_all (insert_all l a) b = insert_all l (a ++ b).
Proof. intros. unfold insert_all. rewrite fold_left_app. reflexivity. Qed.
