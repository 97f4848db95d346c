(** Proofs about who is asked, in which order. *)
From Coq Require Import NArith List Bool Arith Lia Sorted Permutation.
From Verif Require Import Update UpdateSpec UpdateProofs.
Import ListNotations.

(** Update subscriptions of a module have different priorities *)
Definition apart (a b : sub) : Prop :=
  s_mod a = s_mod b -> s_update a = true -> s_update b = true -> s_prio a <> s_prio b.

Lemma fop_filter : forall (f : sub -> bool) l, ForallOrdPairs apart l -> ForallOrdPairs apart (filter f l).
Proof.
  intros f l H. induction H as [|a l F H IH]; cbn [filter]; [constructor|].
  destruct (f a); [|exact IH]. constructor; [|exact IH].
  apply Forall_forall. intros x I. apply filter_In in I. rewrite Forall_forall in F. apply F. apply I.
Qed.

Lemma fop_map : forall (f : sub -> sub) l,
  (forall s, s_mod (f s) = s_mod s /\ s_update (f s) = s_update s /\ s_prio (f s) = s_prio s) ->
  ForallOrdPairs apart l -> ForallOrdPairs apart (map f l).
Proof.
  intros f l E H. induction H as [|a l F H IH]; cbn [map]; [constructor|].
  constructor; [|exact IH]. apply Forall_forall. intros x I. apply in_map_iff in I.
  destruct I as (y & <- & I). rewrite Forall_forall in F. specialize (F y I). unfold apart in *.
  destruct (E a) as (-> & -> & ->). destruct (E y) as (-> & -> & ->). exact F.
Qed.

Lemma fop_snoc : forall l s, ForallOrdPairs apart l -> Forall (fun a => apart a s) l -> ForallOrdPairs apart (l ++ [s]).
Proof.
  intros l s H. induction H as [|a l F H IH]; intro G; cbn [app].
  - constructor; constructor.
  - inversion G as [|? ? Ga Gl]; subst. constructor; [|apply IH; exact Gl].
    apply Forall_app. split; [exact F|]. constructor; [exact Ga|constructor].
Qed.

Lemma tstep_apart : forall tab e, ForallOrdPairs apart tab -> ForallOrdPairs apart (tstep tab e).
Proof.
  intros tab e H. destruct e as [s|id|c|id b]; cbn [tstep].
  - set (tab' := filter _ tab). assert (ForallOrdPairs apart tab') as H' by (apply fop_filter; exact H).
    destruct (s_update s && existsb _ tab') eqn:E; [exact H'|].
    apply fop_snoc; [exact H'|]. apply Forall_forall. intros x I M U U' P. cbn in M, U', P.
    rewrite U' in E. cbn [andb] in E.
    assert (existsb (fun x => N.eqb (s_mod x) (s_mod s) && s_update x && N.eqb (s_prio x) (s_prio s)) tab' = true) as T.
    { apply existsb_exists. exists x. split; [exact I|]. rewrite M, U, P, !N.eqb_refl. reflexivity. }
    congruence.
  - apply fop_filter. exact H.
  - apply fop_map; [|exact H]. intro s. destruct (N.eqb (s_cid s) c); auto.
  - apply fop_map; [|exact H]. intro s. destruct (N.eqb (s_id s) id); auto.
Qed.

Lemma table_apart : forall tab, table tab -> ForallOrdPairs apart tab.
Proof.
  intros tab [h ->]. unfold trun.
  assert (forall l t, ForallOrdPairs apart t -> ForallOrdPairs apart (fold_left tstep l t)) as G.
  { induction l as [|e l IH]; intros t H; cbn [fold_left]; [exact H|]. apply IH. apply tstep_apart. exact H. }
  apply G. constructor.
Qed.

Lemma usable_props : forall s m df, usable s m df = true <->
  s_mod s = m /\ s_alive s = true /\ s_susp s = false /\ (s_forig s = true -> filter_valid s df = true) /\ s_update s = true.
Proof.
  intros s m df. unfold usable. rewrite !andb_true_iff, N.eqb_eq, negb_true_iff.
  destruct (s_forig s), (filter_valid s df), (s_susp s); cbn; intuition congruence.
Qed.

Lemma apart_same : forall tab m df a b, ForallOrdPairs apart tab ->
  In a tab -> In b tab -> usable a m df = true -> usable b m df = true -> s_prio a = s_prio b -> a = b.
Proof.
  intros tab m df a b H Ia Ib Ua Ub P. apply usable_props in Ua. apply usable_props in Ub.
  destruct Ua as (Ma & _ & _ & _ & Xa). destruct Ub as (Mb & _ & _ & _ & Xb).
  destruct (ForallOrdPairs_In H a b Ia Ib) as [E|[E|E]]; [exact E| |]; exfalso; apply E; congruence.
Qed.

(** Folding with a condition *)
Lemma fold_cond : forall (A : Type) (f : sub -> bool) (g : A -> sub -> A) l a,
  fold_left (fun a s => if f s then g a s else a) l a = fold_left g (filter f l) a.
Proof.
  intros A f g l. induction l as [|s l IH]; intro a; cbn [fold_left filter]; [reflexivity|].
  destruct (f s); cbn [fold_left]; apply IH.
Qed.

Definition nstep (a : nat * N) (s : sub) : nat * N :=
  match a with
  | (0, _) => (1, s_prio s)
  | (c, p) => if N.ltb p (s_prio s) then (1, s_prio s) else if N.eqb (s_prio s) p then (S c, p) else (c, p)
  end.

Lemma nstep_max : forall l, (forall a b, In a l -> In b l -> s_prio a = s_prio b -> a = b) -> NoDup l ->
  match l with
  | [] => True
  | _ => exists s, In s l /\ fold_left nstep l (0, 0%N) = (1, s_prio s) /\ forall x, In x l -> (s_prio x <= s_prio s)%N
  end.
Proof.
  intro l. induction l as [|a l IH] using rev_ind; intros U ND; [exact Logic.I|].
  assert (exists s, In s (l ++ [a]) /\ fold_left nstep (l ++ [a]) (0, 0%N) = (1, s_prio s) /\
          forall x, In x (l ++ [a]) -> (s_prio x <= s_prio s)%N) as G.
  { apply NoDup_remove in ND. rewrite app_nil_r in ND. destruct ND as [ND NI].
    rewrite fold_left_app. cbn [fold_left]. destruct l as [|b l].
    - exists a. cbn. split; [auto|]. split; [reflexivity|]. intros x [->|[]]. lia.
    - destruct IH as (s & I & E & M); [|exact ND|].
      { intros x y X Y. apply U; apply in_app_iff; auto. }
      rewrite E. cbn [nstep]. destruct (N.ltb (s_prio s) (s_prio a)) eqn:L.
      + apply N.ltb_lt in L. exists a. split; [apply in_app_iff; cbn; auto|]. split; [reflexivity|].
        intros x X. apply in_app_iff in X. destruct X as [X|[->|[]]]; [|lia]. specialize (M x X). lia.
      + apply N.ltb_ge in L. destruct (N.eqb (s_prio a) (s_prio s)) eqn:Q.
        * apply N.eqb_eq in Q. exfalso. apply NI. rewrite (U a s); auto; apply in_app_iff; cbn; auto.
        * exists s. split; [apply in_app_iff; auto|]. split; [reflexivity|].
          intros x X. apply in_app_iff in X. destruct X as [X|[<-|[]]]; [apply M; exact X|lia]. }
  destruct (l ++ [a]); [exact Logic.I|exact G].
Qed.

Definition cand (m : N) (df : diff) (last : N) (s : sub) : bool := usable s m df && N.ltb (s_prio s) last.

Lemma apart_nodup : forall (f : sub -> bool) tab, ForallOrdPairs apart tab ->
  (forall s, f s = true -> s_update s = true) -> NoDup (filter f tab).
Proof.
  intros f tab H U. induction H as [|a l F H IH]; cbn [filter]; [constructor|].
  destruct (f a) eqn:E; [|exact IH]. constructor; [|exact IH].
  intro I. apply filter_In in I. rewrite Forall_forall in F. specialize (F a (proj1 I)).
  unfold apart in F. specialize (U a E). apply F; auto.
Qed.

Lemma cand_update : forall m df last s, cand m df last s = true -> s_update s = true.
Proof. intros m df last s H. unfold cand in H. apply andb_true_iff in H. destruct H as [H _]. apply usable_props in H. tauto. Qed.

Lemma next_sub_spec : forall tab m df last, ForallOrdPairs apart tab ->
  (filter (cand m df last) tab = [] /\ fst (next_sub tab m df last) = 0) \/
  exists s, In s tab /\ cand m df last s = true /\ next_sub tab m df last = (1, s_prio s) /\
    forall x, In x tab -> cand m df last x = true -> (s_prio x <= s_prio s)%N.
Proof.
  intros tab m df last H. unfold next_sub.
  rewrite (fold_cond _ (cand m df last) nstep).
  pose proof (nstep_max (filter (cand m df last) tab)) as G.
  destruct (filter (cand m df last) tab) as [|b l] eqn:E; [left; auto|].
  right. rewrite <- E in *. destruct G as (s & I & X & M).
  - intros x y Ix Iy P. apply filter_In in Ix. apply filter_In in Iy. destruct Ix as [Ix Cx]. destruct Iy as [Iy Cy].
    unfold cand in Cx, Cy. apply andb_true_iff in Cx. apply andb_true_iff in Cy.
    apply (apart_same tab m df); tauto.
  - apply apart_nodup; [exact H|]. apply cand_update.
  - exists s. apply filter_In in I. destruct I as [I C]. repeat split; auto.
    intros x Ix Cx. apply M. apply filter_In. auto.
Qed.

(** Asking a list of subscriptions *)
Fixpoint ask_list (beh : N -> behaviour) (l : list sub) (df : diff) (u : option (list op)) (c : cur) : list call * outcome :=
  match l with
  | [] => ([], UOk u c)
  | s :: l' =>
      if b_gone (beh (s_id s)) then
        match c with CNull => ask_list beh l' df u c | _ => ([], UUndef) end
      else match process s (get_diff s (s_mod s) df) (beh (s_id s)) with
           | (k, LOk e) => let (u', c') := collect u e in
                           let (k', r) := ask_list beh l' df u' c' in (k ++ k', r)
           | (k, LMisread) => (k, UMisread)
           | (k, _) => (k, URefused)
           end
  end.

Definition gt_prio (a b : sub) : Prop := (s_prio b < s_prio a)%N.

Lemma ask_is_list : forall beh tab m df, ForallOrdPairs apart tab ->
  forall l last fuel u c, StronglySorted gt_prio l ->
  (forall s, In s l <-> (In s tab /\ cand m df last s = true)) -> length l < fuel ->
  ask fuel beh tab m df last u c = ask_list beh l df u c.
Proof.
  intros beh tab m df H. induction l as [|s l IH]; intros last fuel u c SS B L; (destruct fuel as [|fuel]; [cbn in L; lia|]); cbn [ask].
  - destruct (next_sub_spec tab m df last H) as [[_ E]|(s & I & C & _)].
    + destruct (next_sub tab m df last) as [n p]. cbn [fst] in E. subst n. reflexivity.
    + exfalso. apply (proj2 (B s)). auto.
  - inversion SS as [|? ? SS' F]; subst. rewrite Forall_forall in F.
    destruct (proj1 (B s) (or_introl eq_refl)) as [Is Cs].
    destruct (next_sub_spec tab m df last H) as [[E _]|(t & It & Ct & E & M)].
    + exfalso. assert (In s (filter (cand m df last) tab)) as Q by (apply filter_In; auto). rewrite E in Q. destruct Q.
    + assert (t = s) as ->.
      { destruct (proj2 (B t) (conj It Ct)) as [Q|Q]; [auto|].
        specialize (F t Q). unfold gt_prio in F. specialize (M s Is Cs). lia. }
      rewrite E. unfold cand in Cs. apply andb_true_iff in Cs. destruct Cs as [Us Ls]. apply N.ltb_lt in Ls.
      destruct (find (fun x => usable x m df && N.eqb (s_prio x) (s_prio s)) tab) as [t|] eqn:D.
      2:{ exfalso. apply (find_none _ _ D s) in Is. rewrite Us, N.eqb_refl in Is. discriminate. }
      apply find_some in D. destruct D as [Dt D]. apply andb_true_iff in D. destruct D as [D1 D2]. apply N.eqb_eq in D2.
      assert (t = s) as -> by (apply (apart_same tab m df); auto).
      assert (forall u' c', ask fuel beh tab m df (s_prio s) u' c' = ask_list beh l df u' c') as R.
      { intros u' c'. apply IH; [exact SS'| |cbn in L; lia]. intro x. unfold cand. rewrite andb_true_iff, N.ltb_lt. split.
        - intro I. pose proof (proj1 (B x) (or_intror I)) as [Ix Cx]. unfold cand in Cx. apply andb_true_iff in Cx.
          split; [exact Ix|]. split; [tauto|]. apply (F x I).
        - intros (Ix & Ux & Lx). assert (cand m df last x = true) as Cx.
          { unfold cand. rewrite Ux. cbn [andb]. apply N.ltb_lt. lia. }
          destruct (proj2 (B x) (conj Ix Cx)) as [Q|Q]; [subst; lia|exact Q]. }
      cbn [ask_list]. apply usable_props in Us. destruct Us as [Ms _]. rewrite Ms, !R.
      destruct (b_gone (beh (s_id s))); [reflexivity|].
      destruct (process s (get_diff s m df) (beh (s_id s))) as [k r]. destruct r; try reflexivity.
      destruct (collect u e) as [u' c']. rewrite R. reflexivity.
Qed.

(** Sorting *)
Fixpoint sinsert (s : sub) (l : list sub) : list sub :=
  match l with
  | [] => [s]
  | x :: l' => if N.ltb (s_prio x) (s_prio s) then s :: l else x :: sinsert s l'
  end.
Definition ssort (l : list sub) : list sub := fold_right sinsert [] l.

Lemma sinsert_perm : forall s l, Permutation (s :: l) (sinsert s l).
Proof.
  intros s l. induction l as [|x l IH]; cbn [sinsert]; [reflexivity|].
  destruct (N.ltb (s_prio x) (s_prio s)); [reflexivity|]. rewrite perm_swap. constructor. exact IH.
Qed.

Lemma ssort_perm : forall l, Permutation l (ssort l).
Proof.
  induction l as [|s l IH]; cbn [ssort fold_right]; [constructor|].
  rewrite <- sinsert_perm. constructor. exact IH.
Qed.

Lemma sinsert_sorted : forall s l, StronglySorted gt_prio l -> (forall x, In x l -> s_prio x <> s_prio s) ->
  StronglySorted gt_prio (sinsert s l).
Proof.
  intros s l. induction l as [|x l IH]; intros H D; cbn [sinsert]; [constructor; constructor|].
  inversion H as [|? ? H' F]; subst. destruct (N.ltb (s_prio x) (s_prio s)) eqn:E.
  - apply N.ltb_lt in E. constructor; [exact H|]. constructor; [exact E|].
    rewrite Forall_forall in *. intros y I. specialize (F y I). unfold gt_prio in *. lia.
  - apply N.ltb_ge in E. constructor; [apply IH; [exact H'|]; intros y I; apply D; right; exact I|].
    apply Forall_forall. intros y I. apply (Permutation_in _ (Permutation_sym (sinsert_perm s l))) in I.
    destruct I as [<-|I]; [|rewrite Forall_forall in F; apply F; exact I].
    unfold gt_prio. specialize (D x (or_introl eq_refl)). lia.
Qed.

Definition lst (tab : list sub) (df : diff) (m : N) : list sub := ssort (filter (fun s => usable s m df) tab).

Lemma ssort_sorted : forall m df l, ForallOrdPairs apart l -> (forall s, In s l -> usable s m df = true) ->
  StronglySorted gt_prio (ssort l).
Proof.
  intros m df l H. induction H as [|a l F H IH]; intro U; cbn [ssort fold_right]; [constructor|].
  apply sinsert_sorted; [apply IH; intros s I; apply U; right; exact I|].
  intros x I. apply (Permutation_in _ (Permutation_sym (ssort_perm l))) in I.
  rewrite Forall_forall in F. specialize (F x I).
  pose proof (U a (or_introl eq_refl)) as Ua. pose proof (U x (or_intror I)) as Ux.
  apply usable_props in Ua. apply usable_props in Ux. unfold apart in F.
  intro K. apply F; try tauto; try congruence. destruct Ua as [-> _]. destruct Ux as [-> _]. reflexivity.
Qed.

Lemma lst_sorted : forall tab df m, ForallOrdPairs apart tab -> StronglySorted gt_prio (lst tab df m).
Proof.
  intros tab df m H. apply (ssort_sorted m df); [apply fop_filter; exact H|].
  intros s I. apply filter_In in I. tauto.
Qed.

Lemma lst_in : forall tab df m s, In s (lst tab df m) <-> In s tab /\ usable s m df = true.
Proof.
  intros tab df m s. unfold lst. rewrite <- (filter_In (fun s => usable s m df)). split; apply Permutation_in.
  - apply Permutation_sym, ssort_perm.
  - apply ssort_perm.
Qed.

Lemma filter_le : forall (f : sub -> bool) l, length (filter f l) <= length l.
Proof. intros f l. induction l as [|a l IH]; cbn [filter length]; [lia|]. destruct (f a); cbn [length]; lia. Qed.

Lemma has_sub_spec : forall tab m df,
  match has_sub tab m df with
  | None => forall s, In s tab -> usable s m df = false
  | Some p => (exists s, In s tab /\ usable s m df = true /\ s_prio s = p) /\
              forall s, In s tab -> usable s m df = true -> (s_prio s <= p)%N
  end.
Proof.
  intros tab m df. unfold has_sub. induction tab as [|a tab IH] using rev_ind; [intros s []|].
  rewrite fold_left_app. cbn [fold_left]. set (r := fold_left _ tab None) in *.
  destruct (usable a m df) eqn:E.
  - destruct r as [p|].
    + destruct IH as [(s & I & U & P) M]. destruct (N.ltb p (s_prio a)) eqn:L.
      * apply N.ltb_lt in L. split; [exists a; rewrite in_app_iff; cbn; auto|].
        intros x I' U'. apply in_app_iff in I'. destruct I' as [I'|[<-|[]]]; [specialize (M x I' U')|]; lia.
      * apply N.ltb_ge in L. split; [exists s; rewrite in_app_iff; auto|].
        intros x I' U'. apply in_app_iff in I'. destruct I' as [I'|[<-|[]]]; [apply M; auto|lia].
    + split; [exists a; rewrite in_app_iff; cbn; auto|].
      intros x I' U'. apply in_app_iff in I'. destruct I' as [I'|[<-|[]]]; [|lia]. rewrite (IH x I') in U'. discriminate.
  - destruct r as [p|].
    + destruct IH as [(s & I & U & P) M]. split; [exists s; rewrite in_app_iff; auto|].
      intros x I' U'. apply in_app_iff in I'. destruct I' as [I'|[<-|[]]]; [apply M; auto|congruence].
    + intros x I'. apply in_app_iff in I'. destruct I' as [I'|[<-|[]]]; [apply IH; exact I'|exact E].
Qed.

Lemma ask_list_app : forall beh a b df u c,
  ask_list beh (a ++ b) df u c =
  match ask_list beh a df u c with
  | (k, UOk u' c') => let (k', r) := ask_list beh b df u' c' in (k ++ k', r)
  | x => x
  end.
Proof.
  intros beh a b df. induction a as [|s a IH]; intros u c; cbn [app ask_list].
  - destruct (ask_list beh b df u c). reflexivity.
  - destruct (b_gone (beh (s_id s))); [destruct c; try reflexivity; apply IH|].
    destruct (process s (get_diff s (s_mod s) df) (beh (s_id s))) as [k r]. destruct r; try reflexivity.
    destruct (collect u e) as [u' c']. rewrite IH. destruct (ask_list beh a df u' c') as [k' r'].
    destruct r'; try reflexivity. destruct (ask_list beh b df u0 c0) as [k2 r2]. rewrite app_assoc. reflexivity.
Qed.

Lemma ask_mods_list : forall beh tab df, ForallOrdPairs apart tab -> (forall s, In s tab -> (s_prio s < 4294967295)%N) ->
  forall ms u c, ask_mods beh tab ms df u c = ask_list beh (flat_map (lst tab df) ms) df u c.
Proof.
  intros beh tab df H Pm. induction ms as [|m ms IH]; intros u c; cbn [ask_mods flat_map]; [reflexivity|].
  rewrite ask_list_app. pose proof (has_sub_spec tab m df) as G. destruct (has_sub tab m df) as [p|].
  - destruct G as [(s & I & U & P) M]. pose proof (Pm s I) as Lp. rewrite P in Lp.
    assert (u32 (p + 1) = p + 1)%N as -> by (apply N.mod_small; lia).
    rewrite (ask_is_list beh tab m df H (lst tab df m)).
    + destruct (ask_list beh (lst tab df m) df u c) as [k r]. destruct r; try reflexivity. rewrite IH. reflexivity.
    + apply lst_sorted. exact H.
    + intro x. rewrite lst_in. unfold cand. rewrite andb_true_iff, N.ltb_lt. split; [|tauto].
      intros [Ix Ux]. repeat split; auto. specialize (M x Ix Ux). lia.
    + unfold lst. rewrite <- (Permutation_length (ssort_perm _)). pose proof (filter_le (fun s => usable s m df) tab). lia.
  - assert (lst tab df m = []) as ->.
    { destruct (lst tab df m) as [|s l] eqn:E; [reflexivity|]. exfalso.
      assert (In s (lst tab df m)) as I by (rewrite E; left; reflexivity). apply lst_in in I.
      rewrite (G s (proj1 I)) in I. destruct I. discriminate. }
    cbn [ask_list]. rewrite IH. destruct (ask_list beh _ df u c). reflexivity.
Qed.
