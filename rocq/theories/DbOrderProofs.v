(** * Proofs: lists ordered by the user in databases *)

From Coq Require Import List Arith Bool NArith ZArith Lia Permutation.
Import ListNotations.
From Verif Require Import DbOrder DbOrderSpec.

Local Open Scope N_scope.

(** ** Chains of predecessors *)

Fixpoint chain (p : option key) (l : list elem) : Prop :=
  match l with
  | [] => True
  | e :: l' => e_prev e = p /\ chain (Some (e_key e)) l'
  end.

Fixpoint lastk (p : option key) (l : list elem) : option key :=
  match l with
  | [] => p
  | e :: l' => lastk (Some (e_key e)) l'
  end.

Notation keys := (map e_key).

Lemma chain_app p a b : chain p (a ++ b) <-> chain p a /\ chain (lastk p a) b.
Proof.
  revert p. induction a as [|e a IH]; intros p; cbn [List.app chain lastk]; [tauto|].
  rewrite IH. tauto.
Qed.

Lemma lastk_snoc p a e : lastk p (a ++ [e]) = Some (e_key e).
Proof. revert p. induction a as [|f a IH]; intros p; cbn [List.app lastk]; [reflexivity | apply IH]. Qed.

Lemma lastk_in p a : lastk p a = p \/ exists k, lastk p a = Some k /\ In k (keys a).
Proof.
  revert p. induction a as [|e a IH]; intros p; [now left|]. right. cbn [lastk map].
  destruct (IH (Some (e_key e))) as [-> | (k & -> & I)].
  - exists (e_key e). split; [reflexivity | now left].
  - exists k. split; [reflexivity | now right].
Qed.

Lemma prev_is_eq p e : prev_is p e = true <-> e_prev e = p.
Proof.
  unfold prev_is. destruct p as [a|], (e_prev e) as [b|]; try (split; congruence).
  rewrite Nat.eqb_eq. split; congruence.
Qed.

(** every predecessor in a chain is the first one or a key before *)
Lemma chain_prev p l e : chain p l -> In e l ->
  e_prev e = p \/ exists k, e_prev e = Some k /\ In k (keys l).
Proof.
  revert p. induction l as [|f l IH]; intros p C I; [destruct I|].
  destruct C as [C1 C2]. destruct I as [-> | I]; [now left|].
  right. destruct (IH _ C2 I) as [Q | (k & Q & J)].
  - exists (e_key f). split; [exact Q | now left].
  - exists k. split; [exact Q | now right].
Qed.

Lemma filter_none {A} (f : A -> bool) l : (forall x, In x l -> f x = false) -> filter f l = [].
Proof.
  induction l as [|x l IH]; intros H; [reflexivity|]. cbn [filter].
  rewrite (H x (or_introl eq_refl)). apply IH. intros y I. apply H. now right.
Qed.

(** in the first part nobody has the last key as predecessor *)
Lemma filter_front q a : chain q a -> NoDup (keys a) ->
  (forall k, q = Some k -> ~ In k (keys a)) -> a <> [] ->
  filter (prev_is (lastk q a)) a = [].
Proof.
  revert q. induction a as [|e a IH]; intros q C N Q Ne; [congruence|].
  destruct C as [C1 C2]. cbn [map] in N. inversion N as [|? ? N1 N2]; subst.
  cbn [lastk filter].
  assert (D : prev_is (lastk (Some (e_key e)) a) e = false).
  { apply not_true_iff_false. rewrite prev_is_eq. intros P.
    destruct (lastk_in (Some (e_key e)) a) as [L | (k & L & I)].
    - rewrite L in P. apply (Q _ P). now left.
    - rewrite L in P. apply (Q _ P). now right. }
  rewrite D. destruct a as [|e' a'].
  - reflexivity.
  - apply IH; [exact C2 | exact N2 | | discriminate].
    intros k Ek. injection Ek as <-. exact N1.
Qed.

Lemma NoDup_app_l {A} (a b : list A) : NoDup (a ++ b) -> NoDup a.
Proof. induction b as [|x b IH] in a |- *; [now rewrite app_nil_r|]. intros N. apply NoDup_remove_1 in N. auto. Qed.

Lemma NoDup_app_r {A} (a b : list A) : NoDup (a ++ b) -> NoDup b.
Proof. induction a as [|x a IH]; [auto|]. intros N. inversion N; subst. auto. Qed.

Lemma NoDup_app_disj {A} (a b : list A) x : NoDup (a ++ b) -> In x a -> In x b -> False.
Proof.
  induction a as [|y a IH]; intros N I J; [destruct I|].
  cbn [List.app] in N. inversion N as [|? ? N1 N2]; subst.
  destruct I as [-> | I]; [apply N1, in_or_app; now right | now apply IH].
Qed.

Lemma filter_back p b : chain p b -> NoDup (keys b) ->
  (forall k, p = Some k -> ~ In k (keys b)) ->
  filter (prev_is p) b = firstn 1 b.
Proof.
  intros C N Q. destruct b as [|e b]; [reflexivity|].
  destruct C as [C1 C2]. cbn [filter firstn].
  replace (prev_is p e) with true by (symmetry; now apply prev_is_eq).
  f_equal. apply filter_none. intros f I. apply not_true_iff_false. rewrite prev_is_eq. intros P.
  cbn [map] in N. inversion N as [|? ? N1 N2]; subst.
  destruct (chain_prev _ _ _ C2 I) as [R | (k & R & J)].
  - rewrite R in P. apply (Q _ (eq_sym P)). now left.
  - rewrite R in P. apply (Q _ (eq_sym P)). now right.
Qed.

Lemma filter_split a b : chain None (a ++ b) -> NoDup (keys (a ++ b)) ->
  filter (prev_is (lastk None a)) (a ++ b) = firstn 1 b.
Proof.
  intros C N. apply chain_app in C. destruct C as [C1 C2]. rewrite map_app in N.
  rewrite filter_app.
  assert (F : filter (prev_is (lastk None a)) a = []).
  { destruct a as [|e a]; [reflexivity|]. apply filter_front; [exact C1 | now apply NoDup_app_l in N | | ];
      discriminate. }
  rewrite F. cbn [List.app]. apply filter_back; [exact C2 | now apply NoDup_app_r in N |].
  intros k Ek I. destruct (lastk_in None a) as [L | (k' & L & J)]; [congruence|].
  assert (k' = k) by congruence. subst k'. exact (NoDup_app_disj _ _ k N J I).
Qed.

(** ** Permutations *)

Lemma perm_filter {A} (f : A -> bool) l l' : Permutation l l' -> Permutation (filter f l) (filter f l').
Proof.
  induction 1 as [|x l l' P IH|x y l|l1 l2 l3 P1 IH1 P2 IH2]; cbn [filter].
  - constructor.
  - destruct (f x); [now constructor | exact IH].
  - destruct (f x), (f y); try apply Permutation_refl. constructor.
  - now transitivity (filter f l2).
Qed.

Lemma query_perm pl f els l : Permutation els l -> (length (filter f l) <= 1)%nat ->
  query pl f els = hd_error (filter f l).
Proof.
  intros P Len. apply (perm_filter f) in P. unfold query.
  destruct (filter f l) as [|x [|y r]]; cbn [length] in Len; [| |lia].
  - apply Permutation_sym, Permutation_nil in P. rewrite P. now destruct pl.
  - apply Permutation_sym, Permutation_length_1_inv in P. rewrite P. now destruct pl.
Qed.

Lemma query_next pl els a b : Permutation els (a ++ b) -> chain None (a ++ b) ->
  NoDup (keys (a ++ b)) -> query pl (prev_is (lastk None a)) els = hd_error b.
Proof.
  intros P C N. assert (F := filter_split a b C N).
  rewrite (query_perm pl _ els (a ++ b) P); rewrite F; destruct b; cbn [firstn hd_error length];
    try reflexivity; lia.
Qed.

Lemma upd_perm k f l l' : Permutation l l' -> Permutation (upd k f l) (upd k f l').
Proof. apply Permutation_map. Qed.

Lemma upd_absent k f l : ~ In k (keys l) -> upd k f l = l.
Proof.
  intros N. unfold upd. rewrite <- (map_id l) at 2. apply map_ext_in. intros e I.
  replace (e_key e =? k)%nat with false; [reflexivity|].
  symmetry. apply Nat.eqb_neq. intros <-. apply N. now apply in_map.
Qed.

Lemma upd_at f a e b : NoDup (keys (a ++ e :: b)) ->
  upd (e_key e) f (a ++ e :: b) = a ++ f e :: b.
Proof.
  intros N. rewrite map_app in N. cbn [map] in N. apply NoDup_remove_2 in N.
  unfold upd. rewrite map_app. cbn [map]. rewrite Nat.eqb_refl.
  fold (upd (e_key e) f a). fold (upd (e_key e) f b).
  rewrite !upd_absent; [reflexivity | |]; intros I; apply N, in_or_app; auto.
Qed.

Lemma del_absent k l : ~ In k (keys l) -> del k l = l.
Proof.
  intros N. induction l as [|e l IH]; [reflexivity|]. cbn [map] in N. unfold del in *. cbn [filter].
  destruct (Nat.eqb_spec (e_key e) k) as [<- | D]; [exfalso; apply N; now left|].
  cbn [negb]. f_equal. apply IH. intros I. apply N. now right.
Qed.

Lemma del_at a e b : NoDup (keys (a ++ e :: b)) -> del (e_key e) (a ++ e :: b) = a ++ b.
Proof.
  intros N. rewrite map_app in N. cbn [map] in N. apply NoDup_remove_2 in N.
  unfold del. rewrite filter_app. cbn [filter]. rewrite Nat.eqb_refl. cbn [negb].
  fold (del (e_key e) a). fold (del (e_key e) b).
  rewrite !del_absent; [reflexivity | |]; intros I; apply N, in_or_app; auto.
Qed.

(** ** Increasing numbers *)

(** strictly increasing from [lo] *)
Fixpoint sf (lo : N) (l : list elem) : Prop :=
  match l with
  | [] => True
  | e :: l' => lo <= e_ord e /\ sf (e_ord e + 1) l'
  end.

Fixpoint hi (lo : N) (l : list elem) : N :=
  match l with
  | [] => lo
  | e :: l' => hi (e_ord e + 1) l'
  end.

Lemma sf_app lo a b : sf lo (a ++ b) <-> sf lo a /\ sf (hi lo a) b.
Proof.
  revert lo. induction a as [|e a IH]; intros lo; cbn [List.app sf hi]; [tauto|].
  rewrite IH. tauto.
Qed.

Lemma hi_snoc lo a e : hi lo (a ++ [e]) = e_ord e + 1.
Proof. revert lo. induction a as [|f a IH]; intros lo; cbn [List.app hi]; [reflexivity | apply IH]. Qed.

Lemma sf_weaken lo lo' l : sf lo l -> lo' <= lo -> sf lo' l.
Proof. destruct l as [|e l]; cbn [sf]; [auto|]. intros [A B] C. split; [lia | exact B]. Qed.

Lemma sf_lt lo l : sf lo l -> Forall (fun e => e_ord e < hi lo l) l.
Proof.
  revert lo. induction l as [|e l IH]; intros lo H; [constructor|].
  destruct H as [H1 H2]. cbn [hi].
  assert (G : e_ord e + 1 <= hi (e_ord e + 1) l).
  { clear -H2. revert H2. generalize (e_ord e + 1). induction l as [|f l IH]; intros n H; [cbn; lia|].
    destruct H as [H1 H2]. cbn [hi]. specialize (IH _ H2). lia. }
  constructor; [lia | now apply IH].
Qed.

Lemma sf_ge lo l : sf lo l -> Forall (fun e => lo <= e_ord e) l.
Proof.
  revert lo. induction l as [|e l IH]; intros lo H; [constructor|].
  destruct H as [H1 H2]. constructor; [exact H1|].
  apply (Forall_impl _ (P := fun f => e_ord e + 1 <= e_ord f)); [intros f; lia | now apply IH].
Qed.

Lemma hi_le lo M l : lo <= M + 1 -> Forall (fun e => e_ord e <= M) l -> hi lo l <= M + 1.
Proof.
  revert lo. induction l as [|e l IH]; intros lo A F; [exact A|].
  inversion F; subst. cbn [hi]. apply IH; [lia | assumption].
Qed.

(** ** Shifting *)

Fixpoint bump (o : N) (l : list elem) : list elem :=
  match l with
  | [] => []
  | e :: l' => if e_ord e =? o then set_ord (o + 1) e :: bump (o + 1) l' else e :: l'
  end.

Lemma bump_keys o l : keys (bump o l) = keys l.
Proof.
  revert o. induction l as [|e l IH]; intros o; [reflexivity|]. cbn [bump].
  destruct (e_ord e =? o); [|reflexivity]. cbn [map set_ord e_key]. f_equal. apply IH.
Qed.

Lemma bump_chain o l p : chain p l -> chain p (bump o l).
Proof.
  revert o p. induction l as [|e l IH]; intros o p C; [exact C|]. cbn [bump].
  destruct (e_ord e =? o); [|exact C]. destruct C as [C1 C2]. cbn [chain set_ord e_prev e_key].
  split; [exact C1 | now apply IH].
Qed.

Lemma bump_sf o l : sf o l -> sf (o + 1) (bump o l).
Proof.
  revert o. induction l as [|e l IH]; intros o H; [exact H|]. destruct H as [H1 H2]. cbn [bump].
  destruct (N.eqb_spec (e_ord e) o) as [Q | D]; cbn [sf set_ord e_ord].
  - rewrite Q in H2. split; [lia | now apply IH].
  - split; [lia | exact H2].
Qed.

Lemma filter_ord o a b : Forall (fun e => e_ord e < o) a -> sf o b ->
  filter (fun e => e_ord e =? o) (a ++ b) =
  match b with e :: _ => if e_ord e =? o then [e] else [] | [] => [] end.
Proof.
  intros F H. rewrite filter_app.
  rewrite (filter_none _ a).
  2:{ intros e I. rewrite Forall_forall in F. specialize (F e I). apply N.eqb_neq. lia. }
  cbn [List.app]. destruct b as [|e b]; [reflexivity|]. destruct H as [H1 H2]. cbn [filter].
  rewrite (filter_none _ b).
  2:{ intros f I. apply sf_ge in H2. rewrite Forall_forall in H2. specialize (H2 f I).
      apply N.eqb_neq. lia. }
  reflexivity.
Qed.

Definition eff (u : ulist) (mx : N) : option N := if mx =? 0 then l_max u else Some mx.

Lemma get_eff pl u mx M : eff u mx = Some M -> get_maxord pl u mx = Some M.
Proof.
  unfold eff, get_maxord. destruct (mx =? 0); [|auto]. intros ->. reflexivity.
Qed.

Lemma shift_ok pl u b : forall fuel a o mx M,
  (length b < fuel)%nat -> Permutation (l_els u) (a ++ b) -> NoDup (keys (a ++ b)) ->
  Forall (fun e => e_ord e < o) a -> sf o b ->
  eff u mx = Some M -> 0 < M -> o <= M + 1 -> M + 2 < two64 ->
  Forall (fun e => e_ord e <= M) b ->
  exists els m, shift fuel pl u o mx = Some (els, m) /\ Permutation els (a ++ bump o b) /\
    M <= m <= M + 1 /\ o <= m /\ Forall (fun e => e_ord e <= m) (bump o b).
Proof.
  induction b as [|e b IH]; intros fuel a o mx M Fl P N F H Ef M0 Om Mw Fb;
    (destruct fuel as [|fuel]; [cbn [length] in Fl; lia|]); cbn [shift];
    rewrite (get_eff pl u mx M Ef).
  - assert (Q := filter_ord o a [] F H). cbv beta iota in Q.
    rewrite (query_perm pl _ _ (a ++ []) P); rewrite Q; [|cbn; lia]. cbn [hd_error].
    exists (l_els u), (if M <? o then o else M). split; [reflexivity|]. split; [exact P|].
    split; [destruct (N.ltb_spec M o); lia | split; [destruct (N.ltb_spec M o); lia | constructor]].
  - assert (Q := filter_ord o a (e :: b) F H). cbv beta iota in Q.
    destruct H as [H1 H2]. inversion Fb as [|? ? Fe Fb']; subst.
    rewrite (query_perm pl _ _ (a ++ e :: b) P);
      [|rewrite Q; destruct (e_ord e =? o); cbn [length]; lia].
    rewrite Q. destruct (N.eqb_spec (e_ord e) o) as [Eo | D]; cbn [hd_error bump].
    + rewrite Eo, N.eqb_refl.
      assert (Lt : (M <? o) = false) by (apply N.ltb_ge; lia). rewrite Lt.
      assert (W : w64 (o + 1) = o + 1) by (unfold w64; apply N.mod_small; lia). rewrite W.
      destruct (IH fuel (a ++ [e]) (o + 1) M M) as (els & m & Sh & Pe & Bm & Om' & Fm).
      * cbn [length] in Fl. lia.
      * now rewrite <- app_assoc.
      * now rewrite <- app_assoc.
      * apply Forall_app. split; [apply (Forall_impl _ (P := fun f => e_ord f < o)); [intros f; lia | exact F]|].
        constructor; [lia | constructor].
      * now rewrite <- Eo.
      * unfold eff. destruct (N.eqb_spec M 0); [lia | reflexivity].
      * exact M0.
      * lia.
      * exact Mw.
      * exact Fb'.
      * rewrite Sh. exists (upd (e_key e) (set_ord (o + 1)) els), m. split; [reflexivity|].
        split.
        { rewrite <- app_assoc in Pe. cbn [List.app] in Pe.
          apply (upd_perm (e_key e) (set_ord (o + 1))) in Pe.
          rewrite (upd_at (set_ord (o + 1)) a e (bump (o + 1) b)) in Pe; [exact Pe|].
          rewrite map_app in N |- *. cbn [map] in N |- *. now rewrite bump_keys. }
        split; [exact Bm|]. split; [lia|]. constructor; [cbn [set_ord e_ord]; lia | exact Fm].
    + assert (B : (e_ord e =? o) = false) by now apply N.eqb_neq. rewrite B.
      exists (l_els u), (if M <? o then o else M). split; [reflexivity|]. split; [exact P|].
      assert (G : M <= (if M <? o then o else M) <= M + 1) by (destruct (N.ltb_spec M o); lia).
      split; [exact G|]. split; [destruct (N.ltb_spec M o); lia|].
      apply (Forall_impl _ (P := fun f => e_ord f <= M)); [intros f; lia | exact Fb].
Qed.

(** ** The invariant of a list *)

Definition fits (u : ulist) (mx B : N) (l : list elem) : Prop :=
  match eff u mx with
  | None => l = []
  | Some M => gap <= M <= B /\ Forall (fun e => e_ord e <= M) l
  end.

Definition inv (l : list key) (u : ulist) (mx B : N) : Prop :=
  exists s, Permutation (l_els u) s /\ keys s = l /\ NoDup l /\ chain None s /\ sf 1 s /\
    fits u mx B s /\ (l_max u = None -> mx = 0).

Definition head_prev (p : option key) (l : list elem) : list elem :=
  match l with
  | [] => []
  | e :: l' => set_prev p e :: l'
  end.

Lemma head_prev_keys p l : keys (head_prev p l) = keys l.
Proof. now destruct l. Qed.

Lemma head_prev_chain p q l : chain p l -> chain q (head_prev q l).
Proof. destruct l as [|e l]; [auto|]. intros [_ C]. split; [reflexivity | exact C]. Qed.

Lemma head_prev_sf p lo l : sf lo l -> sf lo (head_prev p l).
Proof. now destruct l. Qed.

Lemma head_prev_le p M l : Forall (fun e => e_ord e <= M) l -> Forall (fun e => e_ord e <= M) (head_prev p l).
Proof. destruct l as [|e l]; [auto|]. intros F. inversion F; subst. constructor; assumption. Qed.

Lemma change_next_ok pl els a b np : Permutation els (a ++ b) -> chain None (a ++ b) ->
  NoDup (keys (a ++ b)) ->
  Permutation (change_next pl els (lastk None a) np) (a ++ head_prev np b).
Proof.
  intros P C N. unfold change_next. rewrite (query_next pl els a b P C N).
  destruct b as [|e b]; [exact P|]. cbn [hd_error head_prev].
  apply (upd_perm (e_key e) (set_prev np)) in P. now rewrite (upd_at _ a e b N) in P.
Qed.

Lemma load_next_ok pl els a b : Permutation els (a ++ b) -> chain None (a ++ b) ->
  NoDup (keys (a ++ b)) ->
  load_next pl els (lastk None a) = match b with [] => 0 | e :: _ => e_ord e end.
Proof.
  intros P C N. unfold load_next. rewrite (query_next pl els a b P C N). now destruct b.
Qed.

Lemma load_prev_ok pl els a e b : Permutation els (a ++ e :: b) -> NoDup (keys (a ++ e :: b)) ->
  load_prev pl els (e_key e) = Some (e_ord e).
Proof.
  intros P N. unfold load_prev.
  assert (I : In e els) by (apply (Permutation_in e (Permutation_sym P)), in_or_app; right; now left).
  destruct (find (fun e0 => (e_key e0 =? e_key e)%nat) els) as [f|] eqn:Fd.
  - apply find_some in Fd. destruct Fd as [J K]. apply Nat.eqb_eq in K.
    assert (f = e); [|now subst].
    assert (N' : NoDup (keys els)) by (apply (Permutation_NoDup (Permutation_map e_key (Permutation_sym P)) N)).
    clear -N' I J K. induction els as [|g els IH]; [destruct I|].
    cbn [map] in N'. inversion N' as [|? ? N1 N2]; subst.
    destruct I as [-> | I], J as [-> | J]; auto.
    + exfalso. apply N1. rewrite <- K. now apply in_map.
    + exfalso. apply N1. rewrite K. now apply in_map.
  - exfalso. apply (find_none _ _ Fd e) in I. now rewrite Nat.eqb_refl in I.
Qed.

Lemma insert_ok els x o p a b : Permutation els (a ++ b) -> ~ In x (keys (a ++ b)) ->
  Permutation (insert els x o p) (a ++ E x o p :: b).
Proof.
  intros P N. unfold insert. rewrite del_absent.
  2:{ intros I. apply N. now apply (Permutation_in x (Permutation_map e_key P)). }
  apply Permutation_sym. eapply Permutation_trans; [apply Permutation_sym, Permutation_middle|].
  eapply Permutation_trans; [|apply Permutation_cons_append].
  constructor. now apply Permutation_sym.
Qed.

Lemma sub64_small a b : b <= a -> a < two64 -> sub64 a b = a - b.
Proof.
  intros A B. unfold sub64. replace (a + two64 - b) with ((a - b) + 1 * two64) by lia.
  rewrite N.mod_add by (unfold two64; lia). apply N.mod_small. lia.
Qed.

(** assembling the invariant after an insertion *)
Lemma inv_insert u2 mx2 B2 x o a b2 p els :
  p = lastk None a -> Permutation els (a ++ b2) ->
  l_els u2 = insert els x o p ->
  NoDup (keys (a ++ b2)) -> ~ In x (keys (a ++ b2)) ->
  chain None a -> chain (Some x) b2 ->
  sf 1 a -> hi 1 a <= o -> sf (o + 1) b2 ->
  fits u2 mx2 B2 (a ++ E x o p :: b2) -> (l_max u2 = None -> mx2 = 0) ->
  inv (keys a ++ x :: keys b2) u2 mx2 B2.
Proof.
  intros Ep P Eu N Nx Ca Cb Sa Ho Sb Ft Mx.
  exists (a ++ E x o p :: b2). split; [rewrite Eu; now apply insert_ok|].
  split; [rewrite map_app; reflexivity|].
  split.
  { rewrite map_app in N, Nx. apply (Permutation_NoDup (Permutation_middle (keys a) (keys b2) x)).
    constructor; assumption. }
  split; [apply chain_app; split; [exact Ca | split; [now rewrite <- Ep | exact Cb]]|].
  split; [apply sf_app; split; [exact Sa | split; [exact Ho | exact Sb]]|].
  split; [exact Ft | exact Mx].
Qed.

Lemma create_ok pl u mx B x a b :
  Permutation (l_els u) (a ++ b) -> NoDup (keys (a ++ b)) -> chain None (a ++ b) -> sf 1 (a ++ b) ->
  fits u mx B (a ++ b) -> (l_max u = None -> mx = 0) ->
  ~ In x (keys (a ++ b)) -> B + gap + gap < two64 -> 
  (gap <= B + gap) ->
  exists u' mx', create pl u mx x (lastk None a) = Some (u', mx') /\
    inv (keys a ++ x :: keys b) u' mx' (B + gap).
Proof.
  intros P N C Sr Ft Mx Nx Bw _.
  assert (Ca := proj1 (proj1 (chain_app _ _ _) C)).
  assert (Cb := proj2 (proj1 (chain_app _ _ _) C)).
  assert (Sa := proj1 (proj1 (sf_app _ _ _) Sr)).
  assert (Sb := proj2 (proj1 (sf_app _ _ _) Sr)).
  assert (Gp : gap = 1024) by reflexivity.
  unfold create, create_prep.
  destruct (eff u mx) as [M|] eqn:Ef.
  2:{ (* empty list, never used *)
      assert (Hn : a ++ b = []) by (unfold fits in Ft; now rewrite Ef in Ft).
      apply app_eq_nil in Hn. destruct Hn as [-> ->]. cbn [lastk].
      assert (Ln := load_next_ok pl (l_els u) [] [] P C N). cbn [lastk] in Ln. rewrite Ln.
      cbn [N.eqb l_els l_max]. eexists. eexists. split; [reflexivity|].
      apply (inv_insert _ mx (B + gap) x gap [] [] None (l_els u)); auto.
      - cbn [hi]. lia.
      - unfold fits, eff in *. destruct (N.eqb_spec mx 0) as [-> | D]; [|congruence].
        cbn [l_max]. split; [lia|]. constructor; [cbn [e_ord]; lia | constructor].
      - cbn [l_max]. discriminate. }
  unfold fits in Ft. rewrite Ef in Ft. destruct Ft as [[M1 M2] FM].
  assert (Fa := proj1 (proj1 (Forall_app _ _ _) FM)).
  assert (Fb := proj2 (proj1 (Forall_app _ _ _) FM)).
  destruct (lastk None a) as [k|] eqn:Lk.
  - (* there is a predecessor *)
    destruct (exists_last (l := a)) as (a0 & e & ->); [intros ->; discriminate Lk|].
    rewrite lastk_snoc in Lk. injection Lk as <-.
    rewrite (load_prev_ok pl (l_els u) a0 e b); [|now rewrite <- app_assoc in P|now rewrite <- app_assoc in N].
    assert (Ln := load_next_ok pl (l_els u) (a0 ++ [e]) b P C N). rewrite lastk_snoc in Ln. rewrite Ln.
    rewrite hi_snoc in Sb.
    assert (Fe : e_ord e <= M) by (apply Forall_app in Fa; destruct Fa as [_ Fa]; now inversion Fa).
    destruct b as [|f b].
    + (* at the end *)
      rewrite N.eqb_refl, (get_eff pl u mx M Ef). cbv zeta.
      assert (W : w64 (M + gap) = M + gap) by (unfold w64; apply N.mod_small; lia). rewrite W.
      eexists. eexists. split; [reflexivity|].
      apply (inv_insert _ (M + gap) (B + gap) x (M + gap) (a0 ++ [e]) [] (Some (e_key e)) (l_els u)); auto.
      * now rewrite lastk_snoc.
      * rewrite hi_snoc. lia.
      * unfold fits, eff. destruct (N.eqb_spec (M + gap) 0); [lia|]. split; [lia|].
        apply Forall_app. split.
        { apply (Forall_impl _ (P := fun g => e_ord g <= M)); [intros g; lia | exact Fa]. }
        constructor; [cbn [e_ord]; lia | constructor].
      * cbn [l_max]. intros Mn. exfalso. unfold eff in Ef. rewrite Mn in Ef.
        rewrite (Mx Mn) in Ef. cbn in Ef. discriminate.
    + destruct Sb as [Sf1 Sf2]. assert (Ff : e_ord f <= M) by now inversion Fb.
      destruct (N.eqb_spec (e_ord f) 0); [lia|].
      rewrite sub64_small by lia.
      destruct (N.eqb_spec (e_ord f - e_ord e) 1) as [D1 | D1].
      * (* no gap *)
        assert (Sb' : sf (e_ord f) (f :: b)) by (split; [lia | exact Sf2]).
        destruct (shift_ok pl u (f :: b) (S (length (l_els u))) (a0 ++ [e]) (e_ord f) mx M)
          as (els & m & Sh & Pe & Bm & Om' & Fm); auto.
        { rewrite (Permutation_length P), app_length. lia. }
        { apply sf_lt in Sa. rewrite hi_snoc in Sa.
          apply (Forall_impl _ (P := fun g => e_ord g < e_ord e + 1)); [intros g; lia | exact Sa]. }
        { lia. } { lia. } { lia. }
        rewrite Sh.
        assert (Kb : keys ((a0 ++ [e]) ++ bump (e_ord f) (f :: b)) = keys ((a0 ++ [e]) ++ f :: b))
          by (rewrite !(map_app e_key (a0 ++ [e])), bump_keys; reflexivity).
        assert (Cc : chain None ((a0 ++ [e]) ++ bump (e_ord f) (f :: b))).
        { apply chain_app. split; [exact Ca|]. apply bump_chain. now rewrite lastk_snoc. }
        assert (Pc := change_next_ok pl els (a0 ++ [e]) (bump (e_ord f) (f :: b)) (Some x) Pe Cc
                        (eq_ind_r (fun z => NoDup z) N Kb)).
        rewrite lastk_snoc in Pc. cbn [l_els l_max].
        eexists. eexists. split; [reflexivity|].
        replace (keys (a0 ++ [e]) ++ x :: keys (f :: b))
          with (keys (a0 ++ [e]) ++ x :: keys (head_prev (Some x) (bump (e_ord f) (f :: b))))
          by (rewrite head_prev_keys, bump_keys; reflexivity).
        assert (Kh : keys ((a0 ++ [e]) ++ head_prev (Some x) (bump (e_ord f) (f :: b))) =
                     keys ((a0 ++ [e]) ++ f :: b))
          by (rewrite (map_app e_key (a0 ++ [e]) (head_prev _ _)), head_prev_keys, bump_keys,
                (map_app e_key (a0 ++ [e])); reflexivity).
        apply (inv_insert _ m (B + gap) x (e_ord f) (a0 ++ [e])
                 (head_prev (Some x) (bump (e_ord f) (f :: b))) (Some (e_key e))
                 (change_next pl els (Some (e_key e)) (Some x))); auto.
        { now rewrite lastk_snoc. }
        { now rewrite Kh. }
        { now rewrite Kh. }
        { apply (head_prev_chain (Some (e_key e))). now apply bump_chain. }
        { rewrite hi_snoc. lia. }
        { apply head_prev_sf. now apply bump_sf. }
        { unfold fits, eff. destruct (N.eqb_spec m 0); [lia|]. split; [lia|].
          apply Forall_app. split.
          - apply (Forall_impl _ (P := fun g => e_ord g <= M)); [intros g; lia | exact Fa].
          - constructor; [cbn [e_ord]; lia|]. now apply head_prev_le. }
        { cbn [l_max]. intros Mn. exfalso. unfold eff in Ef. rewrite Mn in Ef.
          rewrite (Mx Mn) in Ef. cbn in Ef. discriminate. }
      * (* in the middle of the gap *)
        assert (H1 : 1 <= (e_ord f - e_ord e) / 2) by (apply N.div_le_lower_bound; lia).
        assert (H2 : (e_ord f - e_ord e) / 2 < e_ord f - e_ord e) by (apply N.div_lt; lia).
        assert (W : w64 (e_ord e + (e_ord f - e_ord e) / 2) = e_ord e + (e_ord f - e_ord e) / 2)
          by (unfold w64; apply N.mod_small; lia).
        rewrite W.
        assert (Pc := change_next_ok pl (l_els u) (a0 ++ [e]) (f :: b) (Some x) P C N).
        rewrite lastk_snoc in Pc. cbn [l_els l_max].
        eexists. eexists. split; [reflexivity|].
        replace (keys (a0 ++ [e]) ++ x :: keys (f :: b))
          with (keys (a0 ++ [e]) ++ x :: keys (head_prev (Some x) (f :: b))) by reflexivity.
        assert (Kh : keys ((a0 ++ [e]) ++ head_prev (Some x) (f :: b)) = keys ((a0 ++ [e]) ++ f :: b))
          by (rewrite !(map_app e_key (a0 ++ [e])); reflexivity).
        apply (inv_insert _ mx (B + gap) x (e_ord e + (e_ord f - e_ord e) / 2) (a0 ++ [e])
                 (head_prev (Some x) (f :: b)) (Some (e_key e))
                 (change_next pl (l_els u) (Some (e_key e)) (Some x))); auto.
        { now rewrite lastk_snoc. }
        { now rewrite Kh. }
        { now rewrite Kh. }
        { now apply (head_prev_chain (Some (e_key e))). }
        { rewrite hi_snoc. lia. }
        { apply head_prev_sf. split; [lia | exact Sf2]. }
        { unfold fits. change (eff (L _ (l_max u)) mx) with (eff u mx). rewrite Ef. split; [lia|].
          apply Forall_app. split; [exact Fa|]. constructor; [cbn [e_ord]; lia|]. now apply head_prev_le. }
  - (* first *)
    assert (a = []) as ->.
    { destruct (lastk_in None a) as [_ | (k & L1 & _)]; [|congruence].
      destruct a as [|e a]; [reflexivity|]. exfalso.
      destruct (exists_last (l := e :: a)) as (a0 & g & Q); [discriminate|].
      rewrite Q, lastk_snoc in Lk. discriminate. }
    assert (Ln := load_next_ok pl (l_els u) [] b P C N). cbn [lastk] in Ln. rewrite Ln.
    cbn [List.app map lastk hi] in *. destruct b as [|f b].
    + rewrite N.eqb_refl. cbn [l_els l_max]. eexists. eexists. split; [reflexivity|].
      apply (inv_insert _ mx (B + gap) x gap [] [] None (l_els u)); auto.
      * cbn [hi]. lia.
      * unfold fits, eff in *. cbn [l_max]. destruct (N.eqb_spec mx 0) as [-> | D].
        { split; [lia|]. constructor; [cbn [e_ord]; lia | constructor]. }
        { injection Ef as <-. split; [lia|]. constructor; [cbn [e_ord]; lia | constructor]. }
      * cbn [l_max]. discriminate.
    + destruct Sb as [Sf1 Sf2]. assert (Ff : e_ord f <= M) by now inversion Fb.
      destruct (N.eqb_spec (e_ord f) 0); [lia|].
      destruct (N.eqb_spec (e_ord f) 1) as [D1 | D1].
      * assert (Sb' : sf (e_ord f) (f :: b)) by (split; [lia | exact Sf2]).
        destruct (shift_ok pl u (f :: b) (S (length (l_els u))) [] (e_ord f) mx M)
          as (els & m & Sh & Pe & Bm & Om' & Fm); auto.
        { rewrite (Permutation_length P). cbn [List.app]. lia. }
        { lia. } { lia. } { lia. }
        rewrite Sh. cbn [List.app] in Pe.
        assert (Kb := bump_keys (e_ord f) (f :: b)).
        assert (Pc := change_next_ok pl els [] (bump (e_ord f) (f :: b)) (Some x) Pe
                        (bump_chain (e_ord f) (f :: b) None C)
                        (eq_ind_r (fun z => NoDup z) N Kb)).
        cbn [lastk List.app] in Pc. cbn [l_els l_max].
        eexists. eexists. split; [reflexivity|].
        assert (Kh : keys (head_prev (Some x) (bump (e_ord f) (f :: b))) = keys (f :: b))
          by (rewrite head_prev_keys, bump_keys; reflexivity).
        change (e_key f :: keys b) with (keys (f :: b)). rewrite <- Kh.
        change (x :: keys (head_prev (Some x) (bump (e_ord f) (f :: b))))
          with (keys [] ++ x :: keys (head_prev (Some x) (bump (e_ord f) (f :: b)))).
        apply (inv_insert _ m (B + gap) x (e_ord f) []
                 (head_prev (Some x) (bump (e_ord f) (f :: b))) None
                 (change_next pl els None (Some x))); auto.
        { cbn [List.app]. now rewrite Kh. }
        { cbn [List.app]. now rewrite Kh. }
        { apply (head_prev_chain None). now apply bump_chain. }
        { apply head_prev_sf. now apply bump_sf. }
        { unfold fits, eff. destruct (N.eqb_spec m 0); [lia|]. split; [lia|].
          cbn [List.app]. constructor; [cbn [e_ord]; lia|]. now apply head_prev_le. }
        { cbn [l_max]. intros Mn. exfalso. unfold eff in Ef. rewrite Mn in Ef.
          rewrite (Mx Mn) in Ef. cbn in Ef. discriminate. }
      * assert (H1 : 1 <= e_ord f / 2) by (apply N.div_le_lower_bound; lia).
        assert (H2 : e_ord f / 2 < e_ord f) by (apply N.div_lt; lia).
        assert (Pc := change_next_ok pl (l_els u) [] (f :: b) (Some x) P C N).
        cbn [lastk List.app] in Pc. cbn [l_els l_max].
        eexists. eexists. split; [reflexivity|].
        change (x :: e_key f :: keys b) with (keys [] ++ x :: keys (head_prev (Some x) (f :: b))).
        apply (inv_insert _ mx (B + gap) x (e_ord f / 2) [] (head_prev (Some x) (f :: b)) None
                 (change_next pl (l_els u) None (Some x))); auto.
        { now apply (head_prev_chain None). }
        { apply head_prev_sf. split; [lia | exact Sf2]. }
        { unfold fits. change (eff (L _ (l_max u)) mx) with (eff u mx). rewrite Ef. split; [lia|].
          cbn [List.app]. constructor; [cbn [e_ord]; lia|]. now apply head_prev_le. }
Qed.

Lemma delete_ok pl u mx B a e b :
  Permutation (l_els u) (a ++ e :: b) -> NoDup (keys (a ++ e :: b)) ->
  chain None (a ++ e :: b) -> sf 1 (a ++ e :: b) -> fits u mx B (a ++ e :: b) ->
  (l_max u = None -> mx = 0) ->
  inv (keys (a ++ b)) (delete pl u (e_key e) (lastk None a)) mx B.
Proof.
  intros P N C Sr Ft Mx. unfold delete.
  assert (Q : a ++ e :: b = (a ++ [e]) ++ b) by now rewrite <- app_assoc.
  assert (Pc := change_next_ok pl (l_els u) (a ++ [e]) b (lastk None a)).
  rewrite <- !Q in Pc. specialize (Pc P C N). rewrite lastk_snoc in Pc.
  rewrite <- app_assoc in Pc. cbn [List.app] in Pc.
  assert (N' : NoDup (keys (a ++ e :: head_prev (lastk None a) b))).
  { rewrite map_app in N |- *. cbn [map] in N |- *. now rewrite head_prev_keys. }
  assert (K : keys (a ++ head_prev (lastk None a) b) = keys (a ++ b))
    by (rewrite !map_app, head_prev_keys; reflexivity).
  exists (a ++ head_prev (lastk None a) b). cbn [l_els l_max].
  split.
  { rewrite <- (del_at a e _ N'). unfold del. now apply perm_filter. }
  split; [exact K|].
  split.
  { rewrite map_app in N |- *. cbn [map] in N. now apply NoDup_remove_1 in N. }
  apply chain_app in C. destruct C as [C1 [C2 C3]].
  apply sf_app in Sr. destruct Sr as [S1 [S2 S3]].
  split; [apply chain_app; split; [exact C1 | now apply (head_prev_chain (Some (e_key e)))]|].
  split.
  { apply sf_app. split; [exact S1|]. apply head_prev_sf. apply (sf_weaken (e_ord e + 1)); [exact S3 | lia]. }
  split; [|exact Mx].
  unfold fits in *.
  change (eff (L _ (l_max u)) mx) with (eff u mx). destruct (eff u mx) as [M|].
  - destruct Ft as [Ft1 Ft2]. split; [exact Ft1|]. apply Forall_app in Ft2. destruct Ft2 as [F1 F2].
    inversion F2; subst. apply Forall_app. split; [exact F1 | now apply head_prev_le].
  - exfalso. destruct a; discriminate.
Qed.

(** ** Operations *)

Lemma fits_mono u mx B B' l : fits u mx B l -> B <= B' -> fits u mx B' l.
Proof. unfold fits. destruct (eff u mx); [|auto]. intros [A F] L. split; [lia | exact F]. Qed.

Lemma inv_mono l u mx B B' : inv l u mx B -> B <= B' -> inv l u mx B'.
Proof.
  intros (s & A1 & A2 & A3 & A4 & A5 & A6 & A7) L. exists s. repeat (split; [assumption|]).
  split; [now apply (fits_mono u mx B) | assumption].
Qed.

Lemma create_inv pl u mx B x p l l' : inv l u mx B -> ~ In x l -> after p x l l' ->
  B + gap + gap < two64 ->
  exists u' mx', create pl u mx x p = Some (u', mx') /\ inv l' u' mx' (B + gap).
Proof.
  intros (s & P & K & Nd & C & Sr & Ft & Mx) Nx Af Bw.
  assert (Sp : exists a b, s = a ++ b /\ p = lastk None a /\ l' = keys a ++ x :: keys b).
  { destruct p as [k|].
    - destruct Af as (l1 & l2 & E1 & E2). rewrite E1 in K.
      apply map_eq_app in K. destruct K as (a & b & -> & Ka & Kb).
      destruct b as [|e b]; [discriminate|]. injection Kb as Ke Kb.
      exists (a ++ [e]), b. rewrite lastk_snoc, <- app_assoc.
      split; [reflexivity|]. split; [now rewrite Ke|].
      rewrite E2, map_app, Ka, Kb, <- app_assoc. cbn [map List.app]. now rewrite Ke.
    - exists [], s. split; [reflexivity|]. split; [reflexivity|]. cbn [after] in Af. rewrite Af, K. reflexivity. }
  destruct Sp as (a & b & -> & -> & ->).
  rewrite <- K in Nd, Nx. apply create_ok; auto. lia.
Qed.

Lemma delete_inv pl u mx B x p l l' : inv l u mx B -> taken p x l l' ->
  inv l' (delete pl u x p) mx B /\ ~ In x l'.
Proof.
  intros (s & P & K & Nd & C & Sr & Ft & Mx) Tk.
  assert (Sp : exists a e b, s = a ++ e :: b /\ p = lastk None a /\ x = e_key e /\ l' = keys (a ++ b)).
  { destruct p as [k|].
    - destruct Tk as (l1 & l2 & E1 & E2). rewrite E1 in K.
      apply map_eq_app in K. destruct K as (a & b & -> & Ka & Kb).
      destruct b as [|e [|f b]]; [discriminate | discriminate |]. injection Kb as Ke Kf Kb.
      exists (a ++ [e]), f, b. rewrite lastk_snoc, <- app_assoc.
      split; [reflexivity|]. split; [now rewrite Ke|]. split; [now rewrite Kf|].
      rewrite E2, <- app_assoc, map_app, Ka. cbn [List.app map]. now rewrite Ke, Kb.
    - cbn [taken] in Tk. rewrite Tk in K. destruct s as [|e s]; [discriminate|].
      injection K as Ke K. exists [], e, s. auto. }
  destruct Sp as (a & e & b & -> & -> & -> & ->).
  rewrite <- K in Nd. split; [now apply delete_ok|].
  rewrite map_app in Nd |- *. cbn [map] in Nd. now apply NoDup_remove_2 in Nd.
Qed.

Lemma apply_inv mp pl u mx B o l l' : (forall x, mp x = x) -> inv l u mx B -> means o l l' ->
  B + gap + gap < two64 ->
  exists u' mx', apply mp pl u mx o = Some (u', mx') /\ inv l' u' mx' (B + gap).
Proof.
  intros Hm Iv Me Bw.
  assert (Om : forall q, option_map mp q = q) by (intros [k|]; cbn [option_map]; [now rewrite Hm | reflexivity]).
  destruct o as [x p | x p | x q p]; cbn [apply means] in *; rewrite ?Om.
  - destruct Me as [M1 M2]. now apply (create_inv pl u mx B x p l).
  - destruct (delete_inv pl u mx B x p l l' Iv Me) as [D _].
    eexists. eexists. split; [reflexivity|]. apply (inv_mono _ _ _ B); [exact D | lia].
  - destruct Me as (l1 & M1 & M2).
    destruct (delete_inv pl u mx B x q l l1 Iv M1) as [D Nx].
    now apply (create_inv pl _ mx B x p l1).
Qed.

Lemma set_maxord_inv pl l u mx B : inv l u mx B -> inv l (set_maxord pl u mx) 0 B.
Proof.
  unfold set_maxord. destruct (N.eqb_spec mx 0) as [-> | D]; [auto|].
  intros (s & P & K & Nd & C & Sr & Ft & Mx).
  destruct (l_max u) as [m|] eqn:Lm; [|exfalso; auto].
  exists s. cbn [l_els l_max]. do 5 (split; [assumption|]).
  split; [|discriminate]. unfold fits, eff in *. cbn [l_max N.eqb].
  destruct (N.eqb_spec mx 0); [congruence | exact Ft].
Qed.

Lemma inv_zero l u mx B : inv l u mx B -> mx = 0 -> inv l u 0 B.
Proof. now intros Iv <-. Qed.

Definition at_head (l : list (nat * op)) (j : nat) : bool :=
  match l with (i, _) :: _ => (j =? i)%nat | [] => false end.

Lemma put_same d i u : put d i u i = u.
Proof. unfold put. now rewrite Nat.eqb_refl. Qed.

Lemma put_other d i u j : j <> i -> put d i u j = d j.
Proof. intros D. unfold put. apply Nat.eqb_neq in D. now rewrite D. Qed.

Lemma siblings_inv mp nm pl : (forall x, mp x = x) -> (forall i j : nat, nm i = nm j :> nat -> i = j) ->
  forall l s s', diff_means l s s' -> forall d mx B,
  (forall j, inv (s j) (d j) (if at_head l j then mx else 0) B) ->
  B + gap * N.of_nat (length l) + gap < two64 ->
  exists d', siblings mp nm pl mx d l = Some d' /\
    forall j, inv (s' j) (d' j) 0 (B + gap * N.of_nat (length l)).
Proof.
  intros Hm Hn. induction 1 as [s s' Eq | i o l s s1 s' Me Ot Dm IH]; intros d mx B Iv Bw.
  - exists d. split; [reflexivity|]. intros j. rewrite Eq. cbn [length].
    apply (inv_mono _ _ _ B); [apply Iv | lia].
  - assert (Gp : gap = 1024) by reflexivity.
    cbn [length] in *. cbn [siblings].
    assert (Ii := Iv i). cbn [at_head] in Ii. rewrite Nat.eqb_refl in Ii.
    destruct (apply_inv mp pl (d i) mx B o (s i) (s1 i) Hm Ii Me) as (u & m & Ap & Iu); [lia|].
    rewrite Ap.
    assert (Io : forall j, j <> i -> inv (s1 j) (d j) 0 (B + gap)).
    { intros j D. rewrite (Ot j D). assert (Ij := Iv j). cbn [at_head] in Ij.
      apply Nat.eqb_neq in D. rewrite D in Ij. apply (inv_mono _ _ _ B); [exact Ij | lia]. }
    assert (Bl : B + gap * N.of_nat (S (length l)) = B + gap + gap * N.of_nat (length l)) by lia.
    rewrite Bl in *.
    assert (Zero : exists d', siblings mp nm pl 0 (put d i (set_maxord pl u m)) l = Some d' /\
      forall j, inv (s' j) (d' j) 0 (B + gap + gap * N.of_nat (length l))).
    { apply IH; [|lia]. intros j.
      replace (if at_head l j then 0 else 0) with 0 by now destruct (at_head l j).
      destruct (Nat.eq_dec j i) as [-> | D].
      - rewrite put_same. now apply set_maxord_inv.
      - rewrite put_other by exact D. now apply Io. }
    destruct l as [|[k o'] l]; [exact Zero|].
    destruct (Nat.eqb_spec (nm i) (nm k)) as [En | _]; [|exact Zero].
    apply Hn in En. subst k. apply IH; [|lia]. intros j. cbn [at_head].
    destruct (Nat.eqb_spec j i) as [-> | D].
    + now rewrite put_same.
    + rewrite put_other by exact D. now apply Io.
Qed.

Definition count (ds : list (list (nat * op))) : nat := length (concat ds).

Lemma stores_inv mp nm pl : (forall x, mp x = x) -> (forall i j : nat, nm i = nm j :> nat -> i = j) ->
  forall ds s s', diffs_mean ds s s' -> forall d B,
  (forall j, inv (s j) (d j) 0 B) ->
  B + gap * N.of_nat (count ds) + gap < two64 ->
  exists d', stores mp nm pl d ds = Some d' /\
    forall j, inv (s' j) (d' j) 0 (B + gap * N.of_nat (count ds)).
Proof.
  intros Hm Hn. induction 1 as [s s' Eq | l ds s s1 s' Dm _ IH]; intros d B Iv Bw.
  - exists d. split; [reflexivity|]. intros j. rewrite Eq. apply (inv_mono _ _ _ B); [apply Iv | lia].
  - unfold count in *. cbn [concat] in *. rewrite app_length in *.
    destruct (siblings_inv mp nm pl Hm Hn l s s1 Dm d 0 B) as (d1 & Sb & I1).
    { intros j. replace (if at_head l j then 0 else 0) with 0 by now destruct (at_head l j). apply Iv. }
    { lia. }
    cbn [stores]. rewrite Sb.
    destruct (IH d1 (B + gap * N.of_nat (length l)) I1) as (d2 & St & I2); [lia|].
    exists d2. split; [exact St|]. intros j. apply (inv_mono _ _ _ _ _ (I2 j)). lia.
Qed.

Lemma inv_empty B : inv [] (L [] None) 0 B.
Proof.
  exists []. cbn [l_els l_max map chain sf]. split; [constructor|]. split; [reflexivity|].
  split; [constructor|]. do 2 (split; [exact Logic.I|]). split; [reflexivity | reflexivity].
Qed.

(** ** Reading *)

Fixpoint inc (l : list elem) : Prop :=
  match l with
  | a :: (b :: _) as l' => e_ord a <= e_ord b /\ inc l'
  | _ => True
  end.

Lemma comp_small a b : e_ord a < 2147483648 -> e_ord b < 2147483648 ->
  comp a b = (Z.of_N (e_ord a) - Z.of_N (e_ord b))%Z.
Proof.
  intros A B. unfold comp, to_int. change (2 ^ 31)%Z with 2147483648%Z. change (2 ^ 32)%Z with 4294967296%Z.
  rewrite Z.mod_small by lia. lia.
Qed.

Lemma ordered_inc l : Forall (fun e => e_ord e < 2147483648) l -> ordered l -> inc l.
Proof.
  induction l as [|a l IH]; intros F O; [exact Logic.I|].
  destruct l as [|b l]; [exact Logic.I|]. inversion F as [|? ? Fa Fl]; subst.
  assert (Fb : e_ord b < 2147483648) by now inversion Fl.
  destruct O as [O1 O2]. rewrite comp_small in O1 by assumption.
  split; [lia | now apply IH].
Qed.

Lemma inc_le l a : inc (a :: l) -> Forall (fun e => e_ord a <= e_ord e) l.
Proof.
  revert a. induction l as [|b l IH]; intros a H; [constructor|].
  destruct H as [H1 H2]. constructor; [exact H1|].
  apply (Forall_impl _ (P := fun e => e_ord b <= e_ord e)); [intros e; lia | now apply IH].
Qed.

Lemma sorted_unique s : forall lo data, sf lo s -> inc data -> Permutation data s -> data = s.
Proof.
  induction s as [|e s IH]; intros lo data Sr In P.
  - now apply Permutation_sym, Permutation_nil in P.
  - destruct data as [|d data]; [now apply Permutation_nil in P|].
    destruct Sr as [S1 S2]. assert (G := sf_ge _ _ S2). rewrite Forall_forall in G.
    assert (Le := inc_le _ _ In). rewrite Forall_forall in Le.
    assert (d = e).
    { assert (I1 : List.In d (e :: s)) by (apply (Permutation_in d P); now left).
      assert (I2 : List.In e (d :: data)) by (apply (Permutation_in e (Permutation_sym P)); now left).
      destruct I1 as [-> | I1]; [reflexivity|]. destruct I2 as [-> | I2]; [reflexivity|].
      specialize (G d I1). specialize (Le e I2). lia. }
    subst d. f_equal. apply (IH (e_ord e + 1)); [exact S2 | | now apply Permutation_cons_inv in P].
    destruct data; [exact Logic.I | now destruct In].
Qed.

Lemma add_after_at a x l r : ~ In a l -> add_after a x (l ++ a :: r) = l ++ a :: x :: r.
Proof.
  induction l as [|y l IH]; intros N; cbn [List.app add_after].
  - now rewrite Nat.eqb_refl.
  - destruct (Nat.eqb_spec y a) as [-> | D]; [exfalso; apply N; now left|].
    f_equal. apply IH. intros I. apply N. now right.
Qed.

Lemma filter_keep (x : key) (l : list key) : ~ In x l -> filter (fun y => negb (y =? x)%nat) l = l.
Proof.
  induction l as [|y l IH]; intros N; [reflexivity|]. cbn [filter].
  destruct (Nat.eqb_spec y x) as [-> | D]; [exfalso; apply N; now left|].
  cbn [negb]. apply (f_equal (cons y)), IH. intros I. apply N. now right.
Qed.

Lemma fold_order k0 rest : forall acc X Y, NoDup (X ++ k0 :: acc ++ Y) ->
  Permutation (X ++ Y) (keys rest) ->
  fold_left (fun t e => insert_after k0 (e_key e) t) (rev rest) (X ++ k0 :: acc ++ Y) =
  k0 :: keys rest ++ acc.
Proof.
  induction rest as [|z rest IH] using rev_ind; intros acc X Y N P.
  - cbn [map] in P. apply Permutation_sym, Permutation_nil, app_eq_nil in P. destruct P as [-> ->].
    cbn [rev fold_left List.app map]. now rewrite app_nil_r.
  - rewrite rev_app_distr. cbn [rev List.app fold_left].
    rewrite map_app in P. cbn [map] in P. set (kz := e_key z) in *.
    assert (Iz : In kz (X ++ Y)) by (apply (Permutation_in kz (Permutation_sym P)), in_or_app; right; now left).
    assert (Nxy : Permutation (X ++ k0 :: acc ++ Y) ((k0 :: acc) ++ X ++ Y)).
    { change (X ++ k0 :: acc ++ Y) with (X ++ (k0 :: acc) ++ Y). rewrite !app_assoc.
      apply Permutation_app_tail, Permutation_app_comm. }
    assert (N1 : NoDup ((k0 :: acc) ++ X ++ Y)) by now apply (Permutation_NoDup Nxy).
    assert (Nz : ~ In kz (k0 :: acc)) by (intros I; exact (NoDup_app_disj _ _ kz N1 I Iz)).
    assert (N0 : ~ In k0 (X ++ Y)) by (intros I; exact (NoDup_app_disj _ _ k0 N1 (or_introl eq_refl) I)).
    assert (Nr : ~ In kz (keys rest)).
    { apply NoDup_app_r in N1. apply (Permutation_NoDup P) in N1.
      apply NoDup_remove_2 in N1. now rewrite app_nil_r in N1. }
    unfold insert_after at 2. unfold key in *.
    rewrite filter_app. cbn [filter].
    destruct (Nat.eqb_spec k0 kz) as [Q | _]; [exfalso; apply Nz; now left|]. cbn [negb].
    set (f := fun y : nat => negb (y =? kz)%nat) in *.
    assert (Fk : filter f (acc ++ Y) = acc ++ filter f Y).
    { rewrite filter_app. f_equal. apply filter_keep. intros I. apply Nz. now right. }
    rewrite Fk.
    rewrite add_after_at.
    2:{ intros I. apply filter_In in I. destruct I as [I _]. apply N0, in_or_app. now left. }
    change (filter f X ++ k0 :: kz :: acc ++ filter f Y)
      with (filter f X ++ k0 :: (kz :: acc) ++ filter f Y).
    assert (Pr : Permutation (filter f X ++ filter f Y) (keys rest)).
    { rewrite <- filter_app.
      assert (Fr : filter f (keys rest ++ [kz]) = keys rest).
      { rewrite filter_app. unfold f at 2. cbn [filter]. rewrite Nat.eqb_refl. cbn [negb].
        rewrite app_nil_r. exact (filter_keep kz (keys rest) Nr). }
      rewrite <- Fr. now apply perm_filter. }
    rewrite (IH (kz :: acc) (filter f X) (filter f Y)).
    + rewrite map_app. cbn [map]. now rewrite <- app_assoc.
    + assert (Pn : Permutation (X ++ k0 :: acc ++ Y) (filter f X ++ k0 :: (kz :: acc) ++ filter f Y)).
      { eapply Permutation_trans; [exact Nxy|].
        eapply Permutation_trans; [apply Permutation_app_head, P|].
        eapply Permutation_trans; [|].
        2:{ apply Permutation_sym.
            change (filter f X ++ k0 :: (kz :: acc) ++ filter f Y)
              with (filter f X ++ (k0 :: kz :: acc) ++ filter f Y).
            rewrite app_assoc.
            eapply Permutation_trans; [apply Permutation_app_tail, Permutation_app_comm|].
            rewrite <- app_assoc. apply Permutation_app_head, Pr. }
        cbn [List.app]. constructor. eapply Permutation_trans; [apply Permutation_app_comm|].
        rewrite <- app_assoc. cbn [List.app].
        eapply Permutation_trans; [apply Permutation_sym, Permutation_middle|]. constructor.
        apply Permutation_app_comm. }
      exact (Permutation_NoDup Pn N).
    + exact Pr.
Qed.

Lemma order_list_ok data t : NoDup (keys data) -> Permutation t (keys data) ->
  order_list data t = keys data.
Proof.
  intros N P. destruct data as [|d data].
  - cbn [map] in P. apply Permutation_sym, Permutation_nil in P. now rewrite P.
  - cbn [order_list map] in *.
    assert (I : In (e_key d) t) by (apply (Permutation_in _ (Permutation_sym P)); now left).
    apply in_split in I. destruct I as (X & Y & ->).
    assert (Nt : NoDup (X ++ e_key d :: Y)) by (apply (Permutation_NoDup (Permutation_sym P)), N).
    assert (Pr : Permutation (X ++ Y) (keys data)).
    { apply (Permutation_cons_inv (a := e_key d)).
      eapply Permutation_trans; [apply Permutation_middle | exact P]. }
    assert (F := fold_order (e_key d) data [] X Y Nt Pr). cbn [List.app] in F.
    now rewrite app_nil_r in F.
Qed.

Lemma inv_read l u B data t : inv l u 0 B -> B < 2147483648 ->
  Permutation data (l_els u) -> ordered data -> Permutation t (keys data) ->
  order_list data t = l.
Proof.
  intros (s & P & K & Nd & C & Sr & Ft & Mx) Bs Pd Od Pt.
  assert (Ps : Permutation data s) by (eapply Permutation_trans; eassumption).
  assert (Fd : Forall (fun e => e_ord e < 2147483648) data).
  { apply (Permutation_Forall (Permutation_sym Ps)).
    unfold fits in Ft. destruct (eff u 0) as [M|].
    - destruct Ft as [F1 F2]. apply (Forall_impl _ (P := fun e => e_ord e <= M)); [intros e; lia | exact F2].
    - rewrite Ft. constructor. }
  assert (data = s) by (apply (sorted_unique s 1); [exact Sr | now apply ordered_inc | exact Ps]).
  subst s. rewrite <- K. rewrite <- K in Nd. now apply order_list_ok.
Qed.

(** ** Deleting a node with children *)

Lemma starts_spec a b : starts a b = true <-> exists r, b = a ++ r.
Proof.
  revert b. induction a as [|x a IH]; intros b; cbn [starts].
  - split; [intros _; now exists b | reflexivity].
  - destruct b as [|y b].
    + split; [discriminate | intros (r & Q); discriminate].
    + rewrite andb_true_iff, Nat.eqb_eq, IH. split.
      * intros [-> (r & ->)]. now exists r.
      * intros (r & Q). injection Q as -> ->. split; [reflexivity | now exists r].
Qed.

Lemma print_app p q : print (p ++ q) = print p ++ print q.
Proof. unfold print. now rewrite map_app, concat_app. Qed.

Lemma print_head q : print q = [] \/ exists r, print q = slash :: r.
Proof. destruct q as [|s q]; [now left | right; cbn; eauto]. Qed.

(** equal texts start with equal segments *)
Lemma seg_eq s s' (x y : list nat) : ~ In slash s -> ~ In slash s' ->
  (x = [] \/ exists r, x = slash :: r) -> (y = [] \/ exists r, y = slash :: r) ->
  s ++ x = s' ++ y -> s = s' /\ x = y.
Proof.
  revert s'. induction s as [|c s IH]; intros s' Ns Ns' Hx Hy Q; destruct s' as [|c' s'];
    cbn [List.app] in Q.
  - now split.
  - exfalso. destruct Hx as [-> | (r & ->)]; [discriminate|]. injection Q as Qc _.
    apply Ns'. left. now symmetry.
  - exfalso. destruct Hy as [-> | (r & ->)]; [discriminate|]. injection Q as Qc _.
    apply Ns. now left.
  - injection Q as -> Q. destruct (IH s') as [-> ->]; auto; intros I; [apply Ns | apply Ns']; now right.
Qed.

Lemma starts_path p : forall q, Forall (fun s => ~ In slash s) p -> Forall (fun s => ~ In slash s) q ->
  p <> [] -> starts (print p) (print q) = true ->
  exists p0 s t r, p = p0 ++ [s] /\ q = p0 ++ (s ++ t) :: r.
Proof.
  induction p as [|s p IH]; intros q Fp Fq Ne H; [congruence|].
  apply starts_spec in H. destruct H as (r & H).
  destruct q as [|s' q]; [discriminate|].
  unfold print in H. cbn [map concat List.app] in H. injection H as H.
  fold (print p) in H. fold (print q) in H.
  inversion Fp as [|? ? Fs Fp']; subst. inversion Fq as [|? ? Fs' Fq']; subst.
  destruct p as [|s2 p].
  - change (print []) with (@nil nat) in H. rewrite app_nil_r in H.
    exists [], s.
    (* s' ++ print q = s ++ r, s' has no separator *)
    assert (G : exists t, s' = s ++ t).
    { clear -H Fs. revert s' H. induction s as [|c s IHs]; intros s' H; [now exists s'|].
      destruct s' as [|c' s'].
      - exfalso. cbn [List.app] in H. destruct (print_head q) as [E1 | (r' & E1)]; rewrite E1 in H;
          [discriminate|]. injection H as Hc _. apply Fs. left. now symmetry.
      - cbn [List.app] in H. injection H as -> H.
        destruct (IHs (fun I => Fs (or_intror I)) s' H) as (t & ->). now exists t. }
    destruct G as (t & ->). exists t, q. now split.
  - rewrite <- app_assoc in H.
    destruct (seg_eq s' s (print q) (print (s2 :: p) ++ r)) as [-> Q]; auto.
    + apply print_head.
    + right. cbn. eauto.
    + destruct (IH q) as (p0 & s3 & t & r' & E1 & E2); auto.
      * discriminate.
      * apply starts_spec. now exists r.
      * exists (s :: p0), s3, t, r'. rewrite E1, E2. now split.
Qed.

Lemma starts_below p q : below p q -> starts (print p) (print q) = true.
Proof. intros (r & ->). apply starts_spec. exists (print r). apply print_app. Qed.

Lemma inv_ordered l u B : inv l u 0 B -> B < 2147483648 ->
  exists data, Permutation data (l_els u) /\ ordered data.
Proof.
  intros (s & P & K & Nd & C & Sr & Ft & Mx) Bs. exists s. split; [now apply Permutation_sym|].
  assert (Fd : Forall (fun e => e_ord e < 2147483648) s).
  { unfold fits in Ft. destruct (eff u 0) as [M|].
    - destruct Ft as [F1 F2]. apply (Forall_impl _ (P := fun e => e_ord e <= M)); [intros e; lia | exact F2].
    - rewrite Ft. constructor. }
  clear -Sr Fd. revert Sr Fd. generalize 1. induction s as [|e s IH]; intros lo Sr Fd; [exact Logic.I|].
  destruct Sr as [S1 S2]. inversion Fd as [|? ? Fe Fs]; subst.
  destruct s as [|f s]; [exact Logic.I|]. split.
  - rewrite comp_small; [|exact Fe | now inversion Fs]. destruct S2 as [S2 _]. lia.
  - exact (IH _ S2 Fs).
Qed.

(** ** Appending and deleting again and again *)

Fixpoint churn (n : nat) (rest : list (list (nat * op))) : list (list (nat * op)) :=
  match n with
  | O => rest
  | S n' => [(0%nat, Create 2%nat (Some 1%nat))] :: [(0%nat, Delete 2%nat (Some 1%nat))] :: churn n' rest
  end.

Lemma churn_step pl nm d m : d 0%nat = L [E 1%nat gap None] (Some m) -> 0 < m -> m + gap < two64 ->
  exists d', (forall ds, stores (fun x => x) nm pl d ([(0%nat, Create 2%nat (Some 1%nat))] :: ds) =
              stores (fun x => x) nm pl d' ds) /\
    d' 0%nat = L [E 1%nat gap None; E 2%nat (m + gap) (Some 1%nat)] (Some (m + gap)).
Proof.
  intros D M0 Mw.
  exists (put d 0%nat (L [E 1%nat gap None; E 2%nat (m + gap) (Some 1%nat)] (Some (m + gap)))).
  split; [|apply put_same]. intros ds. cbn [stores siblings]. rewrite D.
  assert (W : w64 (m + gap) = m + gap) by (unfold w64; apply N.mod_small; exact Mw).
  cbn [apply option_map]. unfold create, create_prep, load_prev, load_next, query, get_maxord.
  cbn [l_els l_max find filter e_key e_ord e_prev Nat.eqb prev_is N.eqb].
  destruct pl; cbn [N.eqb]; rewrite W; unfold set_maxord;
    destruct (N.eqb_spec (m + gap) 0); try lia; reflexivity.
Qed.

Lemma churn_back pl nm d m : 
  d 0%nat = L [E 1%nat gap None; E 2%nat m (Some 1%nat)] (Some m) ->
  exists d', (forall ds, stores (fun x => x) nm pl d ([(0%nat, Delete 2%nat (Some 1%nat))] :: ds) =
              stores (fun x => x) nm pl d' ds) /\
    d' 0%nat = L [E 1%nat gap None] (Some m).
Proof.
  intros D. exists (put d 0%nat (L [E 1%nat gap None] (Some m))). split; [|apply put_same].
  intros ds. cbn [stores siblings]. rewrite D.
  cbn [apply option_map]. unfold delete, change_next, query. destruct pl; reflexivity.
Qed.

Lemma churn_stores pl nm n : forall d m rest, d 0%nat = L [E 1%nat gap None] (Some m) -> 0 < m ->
  m + gap * N.of_nat n < two64 ->
  exists d', stores (fun x => x) nm pl d (churn n rest) = stores (fun x => x) nm pl d' rest /\
    d' 0%nat = L [E 1%nat gap None] (Some (m + gap * N.of_nat n)).
Proof.
  assert (Gp : gap = 1024) by reflexivity.
  induction n as [|n IH]; intros d m rest D M0 Mw.
  - exists d. split; [reflexivity|]. rewrite D. do 2 f_equal. lia.
  - cbn [churn].
    destruct (churn_step pl nm d m D M0) as (d1 & S1 & D1); [lia|].
    destruct (churn_back pl nm d1 (m + gap) D1) as (d2 & S2 & D2).
    destruct (IH d2 (m + gap) rest D2) as (d3 & S3 & D3); [lia | lia |].
    exists d3. rewrite S1, S2, S3. split; [reflexivity|]. rewrite D3. do 2 f_equal. lia.
Qed.

Lemma churn_means n rest (s s' : lists) : s 0%nat = [1%nat] ->
  (forall s1 : lists, s1 0%nat = [1%nat] -> (forall j, j <> 0%nat -> s1 j = s j) -> diffs_mean rest s1 s') ->
  diffs_mean (churn n rest) s s'.
Proof.
  revert s. induction n as [|n IH]; intros s E H; [now apply H|]. cbn [churn].
  apply ds_cons with (s1 := fun j => if (j =? 0)%nat then [1%nat; 2%nat] else s j).
  - apply dm_cons with (s1 := fun j => if (j =? 0)%nat then [1%nat; 2%nat] else s j).
    + cbn [means after]. rewrite E. split; [cbn; intros [Q | []]; discriminate|]. now exists [], [].
    + intros j Nj. apply Nat.eqb_neq in Nj. now rewrite Nj.
    + now constructor.
  - apply ds_cons with (s1 := fun j => if (j =? 0)%nat then [1%nat] else s j).
    + apply dm_cons with (s1 := fun j => if (j =? 0)%nat then [1%nat] else s j).
      * cbn [means taken]. now exists [], [].
      * intros j Nj. apply Nat.eqb_neq in Nj. now rewrite Nj.
      * now constructor.
    + apply IH; [reflexivity|]. intros s1 E1 O1. apply H; [exact E1|].
      intros j Nj. rewrite (O1 j Nj). apply Nat.eqb_neq in Nj. now rewrite Nj.
Qed.
