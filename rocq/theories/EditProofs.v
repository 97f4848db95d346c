(** Siblings, groups of instances and lookups. *)
From Coq Require Import List Bool Arith Lia Sorted Permutation.
From Verif Require Import Edit EditSpec.
Import ListNotations.

Lemma dnode_ind2 : forall P : dnode -> Prop, (forall s v b ch, Forall P ch -> P (D s v b ch)) -> forall d, P d.
Proof.
  intros P H. fix IH 1. intros [s v b ch]. apply H. induction ch as [|c t IHt]; constructor; [apply IH|exact IHt].
Qed.
Lemma enode_ind2 : forall P : enode -> Prop, (forall s v b o i ch, Forall P ch -> P (E s v b o i ch)) -> forall e, P e.
Proof.
  intros P H. fix IH 1. intros [s v b o i ch]. apply H. induction ch as [|c t IHt]; constructor; [apply IH|exact IHt].
Qed.

(** ** Filters *)
Lemma filter_none : forall (A : Type) (f : A -> bool) l, (forall x, In x l -> f x = false) -> filter f l = [].
Proof. induction l as [|x l IH]; intros H; [reflexivity|]. cbn [filter]. rewrite (H x (or_introl eq_refl)). apply IH. intros y Hy. apply H. right. exact Hy. Qed.
Lemma filter_all : forall (A : Type) (f : A -> bool) l, (forall x, In x l -> f x = true) -> filter f l = l.
Proof. induction l as [|x l IH]; intros H; [reflexivity|]. cbn [filter]. rewrite (H x (or_introl eq_refl)). f_equal. apply IH. intros y Hy. apply H. right. exact Hy. Qed.
Lemma filter_filter : forall (A : Type) (f g : A -> bool) l, filter f (filter g l) = filter (fun x => g x && f x) l.
Proof. induction l as [|x l IH]; [reflexivity|]. cbn [filter]. destruct (g x) eqn:G; cbn [filter andb]; [destruct (f x); rewrite IH; reflexivity|exact IH]. Qed.

Definition all_s (s : nat) (g : list dnode) : Prop := Forall (fun d => dsch d = s) g.

Lemma grp_all : forall s ds, all_s s (grp s ds).
Proof. intros. apply Forall_forall. intros d H. apply filter_In in H. apply Nat.eqb_eq. apply H. Qed.

Lemma grp_put_same : forall s g ds, all_s s g -> grp s (put s g ds) = g.
Proof.
  intros s g ds H. unfold grp, put. rewrite !filter_app, !filter_filter. rewrite (filter_none _ _ ds), (filter_none _ _ ds), (filter_all _ _ g).
  - rewrite app_nil_r. reflexivity.
  - intros x Hx. apply Nat.eqb_eq. exact (proj1 (Forall_forall _ _) H x Hx).
  - intros x _. destruct (Nat.ltb_spec s (dsch x)); [|reflexivity]. cbn. apply Nat.eqb_neq. lia.
  - intros x _. destruct (Nat.ltb_spec (dsch x) s); [|reflexivity]. cbn. apply Nat.eqb_neq. lia.
Qed.
Lemma grp_put_other : forall s s' g ds, s' <> s -> all_s s g -> grp s' (put s g ds) = grp s' ds.
Proof.
  intros s s' g ds N H. unfold grp, put. rewrite !filter_app, !filter_filter. rewrite (filter_none _ _ g).
  2:{ intros x Hx. apply Nat.eqb_neq. rewrite (proj1 (Forall_forall _ _) H x Hx). congruence. }
  cbn [app]. destruct (Nat.lt_total s' s) as [L|[L|L]]; [|contradiction|].
  - rewrite (filter_none _ (fun x => Nat.ltb s (dsch x) && _)), app_nil_r.
    + apply filter_ext. intros x. destruct (Nat.eqb_spec (dsch x) s'); [|rewrite andb_false_r; reflexivity]. destruct (Nat.ltb_spec (dsch x) s); [reflexivity|lia].
    + intros x _. destruct (Nat.ltb_spec s (dsch x)); [|reflexivity]. cbn. apply Nat.eqb_neq. lia.
  - rewrite (filter_none _ (fun x => Nat.ltb (dsch x) s && _)).
    + cbn [app]. apply filter_ext. intros x. destruct (Nat.eqb_spec (dsch x) s'); [|rewrite andb_false_r; reflexivity]. destruct (Nat.ltb_spec s (dsch x)); [reflexivity|lia].
    + intros x _. destruct (Nat.ltb_spec (dsch x) s); [|reflexivity]. cbn. apply Nat.eqb_neq. lia.
Qed.
Lemma put_put : forall s g g' ds, all_s s g' -> put s g (put s g' ds) = put s g ds.
Proof.
  intros s g g' ds H. unfold put. rewrite !filter_app, !filter_filter.
  rewrite (filter_none _ (fun d => Nat.ltb (dsch d) s) g'), (filter_none _ (fun d => Nat.ltb s (dsch d)) g').
  2,3: intros x Hx; rewrite (proj1 (Forall_forall _ _) H x Hx); apply Nat.ltb_irrefl.
  rewrite (filter_none _ (fun x => Nat.ltb s (dsch x) && Nat.ltb (dsch x) s) ds), (filter_none _ (fun x => Nat.ltb (dsch x) s && Nat.ltb s (dsch x)) ds).
  2,3: intros x _; destruct (Nat.ltb_spec s (dsch x)); destruct (Nat.ltb_spec (dsch x) s); try reflexivity; lia.
  cbn [app]. rewrite app_nil_r. f_equal; [|f_equal].
  - apply filter_ext. intros. apply andb_diag.
  - apply filter_ext. intros. apply andb_diag.
Qed.
Notation srt := (StronglySorted (fun a b => dsch a <= dsch b)).
Lemma srt_filter : forall f ds, srt ds -> srt (filter f ds).
Proof.
  induction ds as [|d t IH]; intros H; [exact H|]. inversion H as [|? ? Ht Hd]; subst. cbn [filter]. destruct (f d); [|apply IH; exact Ht]. constructor; [apply IH; exact Ht|]. apply Forall_forall. intros x Hx. apply filter_In in Hx. apply (proj1 (Forall_forall _ _) Hd). apply Hx.
Qed.
Lemma srt_app : forall a b, srt a -> srt b -> (forall x y, In x a -> In y b -> dsch x <= dsch y) -> srt (a ++ b).
Proof.
  induction a as [|x a IH]; intros b Ha Hb H; [exact Hb|]. inversion Ha as [|? ? Ht Hd]; subst. cbn [app]. constructor.
  - apply IH; [exact Ht|exact Hb|]. intros y z Hy Hz. apply H; [right; exact Hy|exact Hz].
  - apply Forall_forall. intros y Hy. apply in_app_or in Hy. destruct Hy as [Hy|Hy]; [apply (proj1 (Forall_forall _ _) Hd); exact Hy|apply H; [left; reflexivity|exact Hy]].
Qed.
Lemma srt_all : forall s g, all_s s g -> srt g.
Proof. induction g as [|d t IH]; intros H; constructor; inversion H; subst; [apply IH; assumption|]. apply Forall_forall. intros x Hx. match goal with F : Forall _ t |- _ => rewrite (proj1 (Forall_forall _ _) F x Hx) end. lia. Qed.
Lemma srt_put : forall s g ds, srt ds -> all_s s g -> srt (put s g ds).
Proof.
  intros s g ds H Hg. unfold put. apply srt_app; [apply srt_filter; exact H| |].
  - apply srt_app; [apply (srt_all s); exact Hg|apply srt_filter; exact H|]. intros x y Hx Hy. apply filter_In in Hy. destruct Hy as (_ & Hy). apply Nat.ltb_lt in Hy. rewrite (proj1 (Forall_forall _ _) Hg x Hx). lia.
  - intros x y Hx Hy. apply filter_In in Hx. destruct Hx as (_ & Hx). apply Nat.ltb_lt in Hx. apply in_app_or in Hy. destruct Hy as [Hy|Hy].
    + rewrite (proj1 (Forall_forall _ _) Hg y Hy). lia.
    + apply filter_In in Hy. destruct Hy as (_ & Hy). apply Nat.ltb_lt in Hy. lia.
Qed.
Lemma put_grp : forall s ds, srt ds -> put s (grp s ds) ds = ds.
Proof.
  intros s. induction ds as [|d t IH]; intros H; [reflexivity|]. inversion H as [|? ? Ht Hd]; subst. specialize (IH Ht). unfold put, grp in *. cbn [filter].
  destruct (Nat.lt_total (dsch d) s) as [L|[L|L]].
  - rewrite (proj2 (Nat.ltb_lt _ _) L), (proj2 (Nat.eqb_neq _ _) (Nat.lt_neq _ _ L)), (proj2 (Nat.ltb_ge _ _) (Nat.lt_le_incl _ _ L)). cbn [app]. f_equal. exact IH.
  - subst s. rewrite Nat.ltb_irrefl, Nat.eqb_refl. rewrite (filter_none _ (fun x => Nat.ltb (dsch x) (dsch d)) t) in *.
    2,3: intros x Hx; apply Nat.ltb_ge; apply (proj1 (Forall_forall _ _) Hd); exact Hx.
    cbn [app] in *. f_equal. exact IH.
  - assert (Z : forall x, In x t -> s < dsch x) by (intros x Hx; pose proof (proj1 (Forall_forall _ _) Hd x Hx) as Q; cbn beta in Q; lia).
    rewrite (proj2 (Nat.ltb_ge _ _) (Nat.lt_le_incl _ _ L)), (proj2 (Nat.eqb_neq (dsch d) s) (fun X => Nat.lt_neq _ _ L (eq_sym X))), (proj2 (Nat.ltb_lt _ _) L).
    rewrite (filter_none _ (fun x => Nat.ltb (dsch x) s) t), (filter_none _ (fun x => Nat.eqb (dsch x) s) t), (filter_all _ (fun x => Nat.ltb s (dsch x)) t).
    + reflexivity.
    + intros x Hx. apply Nat.ltb_lt. apply Z. exact Hx.
    + intros x Hx. apply Nat.eqb_neq. specialize (Z x Hx). lia.
    + intros x Hx. apply Nat.ltb_ge. specialize (Z x Hx). lia.
Qed.
Lemma in_put : forall s g ds d, In d (put s g ds) -> In d g \/ In d ds.
Proof. intros s g ds d H. unfold put in H. rewrite !in_app_iff, !filter_In in H. tauto. Qed.

Section P.
Variable kd : nat -> kind.
Notation it := (is_it kd).
Notation key := (key kd).
Notation ident := (ident kd).
Notation eident := (eident kd).

Lemma nodup_grp : forall ds, NoDup (map ident ds) <-> forall s, NoDup (map ident (grp s ds)).
Proof.
  intros ds. split.
  - intros H s. induction ds as [|d t IH]; [constructor|]. inversion H as [|? ? N T]; subst. unfold grp in *. cbn [filter]. destruct (Nat.eqb (dsch d) s); [|apply IH; exact T]. cbn [map]. constructor; [|apply IH; exact T]. intros X. apply N. apply in_map_iff in X. destruct X as (y & Ey & Hy). apply filter_In in Hy. apply in_map_iff. exists y. split; [exact Ey|apply Hy].
  - induction ds as [|d t IH]; intros H; [constructor|]. cbn [map]. constructor.
    + specialize (H (dsch d)). unfold grp in H. cbn [filter] in H. rewrite Nat.eqb_refl in H. cbn [map] in H. inversion H as [|? ? N T]; subst. intros X. apply N. apply in_map_iff in X. destruct X as (y & Ey & Hy). apply in_map_iff. exists y. split; [exact Ey|]. apply filter_In. split; [exact Hy|]. apply Nat.eqb_eq. injection Ey as Es _. exact Es.
    + apply IH. intros s. specialize (H s). unfold grp in *. cbn [filter] in H. destruct (Nat.eqb (dsch d) s); [cbn [map] in H; inversion H; assumption|exact H].
Qed.

(** A group of instances of [s]. *)
Definition wfg (s : nat) (g : list dnode) : Prop := all_s s g /\ NoDup (map (fun d => key s (dval d)) g) /\ Forall (wfd kd) g.

Lemma map_ident : forall s g, all_s s g -> map ident g = map (fun k => (s, k)) (map (fun d => key s (dval d)) g).
Proof. intros s g H. rewrite map_map. apply map_ext_in. intros d Hd. unfold EditSpec.ident. rewrite (proj1 (Forall_forall _ _) H d Hd). reflexivity. Qed.
Lemma nodup_pair : forall (s : nat) (l : list nat), NoDup (map (fun k => (s, k)) l) <-> NoDup l.
Proof.
  intros s l. split; [apply NoDup_map_inv|]. intros H. induction H as [|x l N T IH]; [constructor|]. cbn [map]. constructor; [|exact IH]. intros X. apply in_map_iff in X. destruct X as (y & Ey & Hy). injection Ey as ->. contradiction.
Qed.

Lemma wf_grp : forall ds s, wf_data kd ds -> wfg s (grp s ds).
Proof.
  intros ds s ((Hs & Hn) & Hw). split; [apply grp_all|]. split.
  - apply (proj1 (nodup_pair s _)). rewrite <- map_ident by apply grp_all. apply (proj1 (nodup_grp _)). exact Hn.
  - apply Forall_forall. intros d Hd. apply filter_In in Hd. apply (proj1 (Forall_forall _ _) Hw). apply Hd.
Qed.
Lemma wf_put : forall ds s g, wf_data kd ds -> wfg s g -> wf_data kd (put s g ds).
Proof.
  intros ds s g ((Hs & Hn) & Hw) (Ga & Gn & Gw). split; [split|].
  - apply srt_put; assumption.
  - apply (proj2 (nodup_grp _)). intros s'. destruct (Nat.eq_dec s' s) as [->|N].
    + rewrite grp_put_same by exact Ga. rewrite (map_ident s) by exact Ga. apply (proj2 (nodup_pair s _)). exact Gn.
    + rewrite grp_put_other by assumption. apply (proj1 (nodup_grp _)). exact Hn.
  - apply Forall_forall. intros d Hd. apply in_put in Hd. destruct Hd as [Hd|Hd]; [apply (proj1 (Forall_forall _ _) Gw); exact Hd|apply (proj1 (Forall_forall _ _) Hw); exact Hd].
Qed.

(** Selecting an instance. *)
Lemma it_key : forall s v d, it s v d = true <-> key s (dval d) = key s v.
Proof. intros s v d. unfold is_it, EditSpec.key. destruct (inst (kd s)); [apply Nat.eqb_eq|split; reflexivity]. Qed.
Lemma lk_find : forall s v ds, lk kd (s, key s v) ds = find (it s v) (grp s ds).
Proof.
  intros s v ds. unfold lk, grp. induction ds as [|d t IH]; [reflexivity|]. cbn [find filter fst snd EditSpec.ident]. destruct (Nat.eqb_spec (dsch d) s) as [E|E]; cbn [andb]; [|exact IH]. cbn [find].
  assert (Q : Nat.eqb (key (dsch d) (dval d)) (key s v) = it s v d).
  { rewrite E. destruct (it s v d) eqn:I; [apply it_key in I; apply Nat.eqb_eq; exact I|]. apply Nat.eqb_neq. intros X. apply it_key in X. congruence. }
  rewrite Q. destruct (it s v d); [reflexivity|exact IH].
Qed.
Lemma lk_eident : forall e ds, lk kd (eident e) ds = find (it (esch e) (eval e)) (grp (esch e) ds).
Proof. intros. apply lk_find. Qed.
(** Any identifier is that of a value. *)
Lemma lk_grp : forall id ds, lk kd id ds = lk kd id (grp (fst id) ds).
Proof.
  intros id ds. unfold lk, grp. induction ds as [|d t IH]; [reflexivity|]. cbn [find filter EditSpec.ident fst snd]. destruct (Nat.eqb_spec (dsch d) (fst id)) as [E|E]; cbn [andb]; [|exact IH]. cbn [find EditSpec.ident fst snd]. rewrite (proj2 (Nat.eqb_eq _ _) E). cbn [andb]. destruct (Nat.eqb (key (dsch d) (dval d)) (snd id)); [reflexivity|exact IH].
Qed.

Lemma it_swap : forall s v v' d, it s v d = true -> it s v' d = true -> key s v = key s v'.
Proof. intros s v v' d A B. apply it_key in A. apply it_key in B. congruence. Qed.

Lemma find_in : forall (p : dnode -> bool) g d, find p g = Some d -> In d g /\ p d = true.
Proof. intros. apply find_some. assumption. Qed.

Lemma find_app1 : forall (p : dnode -> bool) a b, find p (a ++ b) = match find p a with Some d => Some d | None => find p b end.
Proof. induction a as [|x a IH]; intros b; [reflexivity|]. cbn [app find]. destruct (p x); [reflexivity|apply IH]. Qed.

Lemma find_remove_same : forall s v g, NoDup (map (fun d => key s (dval d)) g) -> find (it s v) (remove_first (it s v) g) = None.
Proof.
  intros s v. induction g as [|d t IH]; intros N; [reflexivity|]. inversion N as [|? ? Nd Nt]; subst. cbn [remove_first]. destruct (it s v d) eqn:I.
  - destruct (find (it s v) t) as [x|] eqn:Fx; [|reflexivity]. exfalso. apply find_some in Fx. destruct Fx as (Hx & Ix). apply Nd. apply in_map_iff. exists x. split; [|exact Hx]. apply it_key in I. apply it_key in Ix. congruence.
  - cbn [find]. rewrite I. apply IH. exact Nt.
Qed.
Lemma find_remove_other : forall s v v' g, key s v' <> key s v -> find (it s v') (remove_first (it s v) g) = find (it s v') g.
Proof.
  intros s v v' g N. induction g as [|d t IH]; [reflexivity|]. cbn [remove_first find]. destruct (it s v d) eqn:I.
  - destruct (it s v' d) eqn:I'; [|reflexivity]. exfalso. apply N. exact (it_swap _ _ _ _ I' I).
  - cbn [find]. destruct (it s v' d); [reflexivity|exact IH].
Qed.
Lemma find_update_same : forall s v f g d, find (it s v) g = Some d -> it s v (f d) = true -> find (it s v) (update_first (it s v) f g) = Some (f d).
Proof.
  intros s v f. induction g as [|x t IH]; intros d H I; [discriminate|]. cbn [find update_first] in *. destruct (it s v x) eqn:Ix.
  - injection H as ->. cbn [find]. rewrite I. reflexivity.
  - cbn [find]. rewrite Ix. apply IH; assumption.
Qed.
Lemma find_update_other : forall s v v' f g, key s v' <> key s v -> (forall d, it s v d = true -> it s v (f d) = true) -> find (it s v') (update_first (it s v) f g) = find (it s v') g.
Proof.
  intros s v v' f g N K. induction g as [|d t IH]; [reflexivity|]. cbn [update_first find]. destruct (it s v d) eqn:I.
  - cbn [find]. destruct (it s v' (f d)) eqn:I1; [exfalso; apply N; exact (it_swap _ _ _ _ I1 (K d I))|]. destruct (it s v' d) eqn:I2; [exfalso; apply N; exact (it_swap _ _ _ _ I2 I)|]. reflexivity.
  - cbn [find]. destruct (it s v' d); [reflexivity|exact IH].
Qed.
Lemma in_remove : forall p g d, In d (remove_first p g) -> In d g.
Proof. induction g as [|x t IH]; intros d H; [exact H|]. cbn [remove_first] in H. destruct (p x); [right; exact H|]. destruct H as [H|H]; [left; exact H|right; apply IH; exact H]. Qed.

(** Well-formed groups are kept. *)
Lemma wfg_nil : forall s, wfg s [].
Proof. intros. repeat split; constructor. Qed.
Lemma wfg_remove : forall s v g, wfg s g -> wfg s (remove_first (it s v) g).
Proof.
  intros s v g (A & N & W). split; [|split].
  - apply Forall_forall. intros d Hd. apply (proj1 (Forall_forall _ _) A). apply (in_remove _ _ _ Hd).
  - clear A W. induction g as [|d t IH]; [constructor|]. inversion N as [|? ? Nd Nt]; subst. cbn [remove_first]. destruct (it s v d); [exact Nt|]. cbn [map]. constructor; [|apply IH; exact Nt]. intros X. apply Nd. apply in_map_iff in X. destruct X as (y & Ey & Hy). apply in_map_iff. exists y. split; [exact Ey|]. apply (in_remove _ _ _ Hy).
  - apply Forall_forall. intros d Hd. apply (proj1 (Forall_forall _ _) W). apply (in_remove _ _ _ Hd).
Qed.
Lemma wfg_update : forall s v f g, wfg s g -> (forall d, In d g -> it s v d = true -> dsch (f d) = s /\ key s (dval (f d)) = key s (dval d) /\ wfd kd (f d)) -> wfg s (update_first (it s v) f g).
Proof.
  intros s v f g. induction g as [|d t IH]; intros (A & N & W) H; [apply wfg_nil|]. inversion A as [|? ? Ad At]; inversion N as [|? ? Nd Nt]; inversion W as [|? ? Wd Wt]; subst. cbn [update_first].
  destruct (it (dsch d) v d) eqn:I.
  - destruct (H d (or_introl eq_refl) I) as (H1 & H2 & H3). split; [constructor; assumption|]. split; [cbn [map]; constructor; [rewrite H2; exact Nd|exact Nt]|constructor; assumption].
  - destruct IH as (A' & N' & W'); [split; [exact At|split; assumption]|intros x Hx; apply H; right; exact Hx|]. split; [constructor; [reflexivity|exact A']|]. split; [|constructor; assumption].
    cbn [map]. constructor; [|exact N'].
    assert (M : map (fun x => key (dsch d) (dval x)) (update_first (it (dsch d) v) f t) = map (fun x => key (dsch d) (dval x)) t).
    { clear - H. assert (H' : forall x, In x t -> it (dsch d) v x = true -> key (dsch d) (dval (f x)) = key (dsch d) (dval x)) by (intros x Hx Ix; apply (H x (or_intror Hx) Ix)). clear H. induction t as [|x t IH]; [reflexivity|]. cbn [update_first]. destruct (it (dsch d) v x) eqn:I; cbn [map]; [rewrite (H' x (or_introl eq_refl) I); reflexivity|]. f_equal. apply IH. intros y Hy. apply H'. right. exact Hy. }
    rewrite M. exact Nd.
Qed.
Lemma wfg_perm : forall s g x g1, wfg s g -> dsch x = s -> wfd kd x -> find (it s (dval x)) g = None -> (exists a b, g = a ++ b /\ g1 = a ++ x :: b) -> wfg s g1.
Proof.
  intros s g x g1 (A & N & W) Sx Wx Fx (a & b & -> & ->). assert (Nx : ~ In (key s (dval x)) (map (fun d => key s (dval d)) (a ++ b))).
  { intros X. apply in_map_iff in X. destruct X as (y & Ey & Hy). assert (Z := find_none _ _ Fx y Hy). apply it_key in Ey. congruence. }
  split; [|split].
  - apply Forall_app in A. apply Forall_app. split; [apply A|]. constructor; [exact Sx|apply A].
  - rewrite map_app in *. cbn [map]. apply (Permutation.Permutation_NoDup (Permutation.Permutation_middle _ _ _)). constructor; assumption.
  - apply Forall_app in W. apply Forall_app. split; [apply W|]. constructor; [exact Wx|apply W].
Qed.
End P.
