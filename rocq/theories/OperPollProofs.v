(** Proofs about periodic retrieval: data and reports, identities of caches. *)
From Coq Require Import ZArith NArith List Bool Lia Permutation.
From Verif Require Import Time TimeProofs OperPoll OperPollSpec.
Import ListNotations.
Local Open Scope Z_scope.

(** ** Paths and data *)

Lemma path_eqb_eq : forall (a b : path), path_eqb a b = true <-> a = b.
Proof.
  induction a as [|x a IH]; intros [|y b]; cbn [path_eqb]; split; intros H; auto; try discriminate.
  - apply andb_true_iff in H as [H1 H2]. apply N.eqb_eq in H1. apply IH in H2. subst. auto.
  - injection H as <- <-. rewrite N.eqb_refl. cbn [andb]. apply IH. auto.
Qed.

Lemma strip_app : forall (p q r : path), strip p q = Some r -> q = p ++ r.
Proof.
  induction p as [|x p IH]; intros q r H; cbn [strip] in H.
  - injection H as <-. auto.
  - destruct q as [|y q]; [discriminate|]. destruct (N.eqb_spec x y) as [->|]; [|discriminate].
    apply IH in H. subst. auto.
Qed.

Lemma covers_sel : forall (sel : path -> N -> bool) (p q : path) (n : N), path_selection sel ->
  covers p q = true -> sel q n = true -> sel p n = true.
Proof.
  intros sel p q n Hs Hc Hq. unfold covers in Hc. destruct (strip p q) as [[|c r]|] eqn:E; try discriminate.
  - apply strip_app in E. rewrite app_nil_r in E. subst. auto.
  - apply strip_app in E. apply N.eqb_eq in Hc. subst. eapply Hs; eauto.
Qed.

Lemma get_restrict : forall (sel : path -> N -> bool) (p : path) (t : tree) (n : N),
  sel p n = true -> get n (restrict sel p t) = get n t.
Proof.
  intros sel p t n H. induction t as [|[k v] t IH]; cbn [restrict filter fst get]; auto.
  destruct (sel p k) eqn:E; cbn [get].
  - destruct (N.eqb n k); auto.
  - destruct (N.eqb_spec n k) as [->|]; [congruence|]. auto.
Qed.

(** ** Reports *)

Definition op_node (o : dop) : N := match o with DCreate k _ | DReplace k _ | DDelete k => k end.
Definition op_val (o : dop) : option N :=
  match o with DCreate _ v | DReplace _ v => Some v | DDelete _ => None end.

Lemma apply_op_eq : forall (f : N -> option N) (o : dop) (n : N),
  apply_op f o n = if N.eqb n (op_node o) then op_val o else f n.
Proof. intros f [k v|k v|k] n; reflexivity. Qed.

Lemma apply_ops : forall (g : N -> option N) (d : list dop) (f : N -> option N) (n : N),
  Forall (fun o => op_val o = g (op_node o)) d ->
  (In n (map op_node d) \/ f n = g n) -> fold_left apply_op d f n = g n.
Proof.
  intros g d. induction d as [|o d IH]; intros f n H1 H2; cbn [fold_left].
  - destruct H2 as [[]|]; auto.
  - inversion H1; subst. apply IH; auto. rewrite apply_op_eq.
    destruct (N.eqb_spec n (op_node o)) as [->|E]; auto.
    destruct H2 as [[H2|H2]|H2]; auto. congruence.
Qed.

Lemma get_in : forall (t : tree) (n : N), get n t <> None -> exists v, In (n, v) t.
Proof.
  induction t as [|[k v] t IH]; intros x H; cbn [get] in H; [congruence|].
  destruct (N.eqb x k) eqn:E.
  - apply N.eqb_eq in E. exists v. left. congruence.
  - destruct (IH x H) as [v' Hv]. exists v'. right. auto.
Qed.

Lemma diff_ok : forall (a b : tree) (f : N -> option N), (forall n, f n = get n a) ->
  forall n, fold_left apply_op (diff_tree a b) f n = get n b.
Proof.
  intros a b f Hf n. unfold diff_tree.
  apply (apply_ops (fun n => get n b)).
  - apply Forall_app. split; apply Forall_forall; intros o Ho; apply in_flat_map in Ho as ([k v] & Hin & Ho);
      cbn [fst] in Ho.
    + destruct (get k b) eqn:E; [destruct Ho|]. destruct Ho as [<-|[]]. cbn [op_val op_node]. auto.
    + destruct (get k a) as [x|] eqn:Ea; destruct (get k b) as [y|] eqn:Eb; try destruct Ho.
      * destruct (N.eqb x y); [destruct Ho|]. destruct Ho as [<-|[]]. cbn [op_val op_node]. auto.
      * subst o. cbn [op_val op_node]. auto.
      * destruct H.
  - rewrite Hf. destruct (get n a) as [x|] eqn:Ea; destruct (get n b) as [y|] eqn:Eb; auto.
    + destruct (N.eqb_spec x y) as [->|E]; auto. left. rewrite map_app. apply in_or_app. right.
      destruct (get_in b n) as [v Hv]; [congruence|]. apply in_map_iff. exists (DReplace n y). split; auto.
      apply in_flat_map. exists (n, v). split; auto. cbn [fst]. rewrite Ea, Eb.
      destruct (N.eqb_spec x y); [contradiction|]. left. auto.
    + left. rewrite map_app. apply in_or_app. left.
      destruct (get_in a n) as [v Hv]; [congruence|]. apply in_map_iff. exists (DDelete n). split; auto.
      apply in_flat_map. exists (n, v). split; auto. cbn [fst]. rewrite Eb. left. auto.
    + left. rewrite map_app. apply in_or_app. right.
      destruct (get_in b n) as [v Hv]; [congruence|]. apply in_map_iff. exists (DCreate n y). split; auto.
      apply in_flat_map. exists (n, v). split; auto. cbn [fst]. rewrite Ea, Eb. left. auto.
Qed.

Lemma diff_nil : forall (a b : tree), diff_tree a b = [] -> forall n, get n a = get n b.
Proof. intros a b H n. pose proof (diff_ok a b (fun n => get n a) (fun n => eq_refl) n) as E. rewrite H in E. auto. Qed.

Lemma known_snoc : forall (r : list (list dop)) (d : list dop),
  known (r ++ [d]) = fold_left apply_op d (known r).
Proof. intros. unfold known. rewrite fold_left_app. reflexivity. Qed.

(** ** Caches *)

Definition key (c : cache) : N * N * path := (c_id c, c_mod c, c_path c).

Lemma set_cache_key : forall (f : cache -> cache) (id : N) (l : list cache), (forall c, key (f c) = key c) ->
  map key (set_cache l id f) = map key l.
Proof.
  intros f id l Hf. induction l as [|c l IH]; cbn [set_cache map]; auto.
  destruct (N.eqb (c_id c) id); cbn [map]; [rewrite Hf; auto|rewrite IH; auto].
Qed.

Lemma clear_key : forall c, key (clear_cache c) = key c.
Proof. intros []; reflexivity. Qed.
Lemma fill_key : forall d t r c, key (fill_cache d t r c) = key c.
Proof. intros d t r []; reflexivity. Qed.

Lemma key_ids : forall (l l' : list cache), map key l = map key l' -> map c_id l = map c_id l'.
Proof.
  intros l l' H. apply (f_equal (map (fun k : N * N * path => fst (fst k)))) in H.
  rewrite !map_map in H. exact H.
Qed.

Lemma by_id_some : forall (l : list cache) (id : N) (c : cache), cache_by_id l id = Some c ->
  In c l /\ c_id c = id.
Proof.
  induction l as [|x l IH]; intros id c H; cbn [cache_by_id] in H; [discriminate|].
  destruct (N.eqb_spec (c_id x) id) as [E|E].
  - injection H as <-. split; auto. left; auto.
  - apply IH in H as [? ?]. split; auto. right; auto.
Qed.

Lemma by_id_in : forall (l : list cache) (c : cache), NoDup (map c_id l) -> In c l ->
  cache_by_id l (c_id c) = Some c.
Proof.
  induction l as [|x l IH]; intros c Hd Hin; [destruct Hin|].
  cbn [map] in Hd. inversion Hd; subst. cbn [cache_by_id]. destruct Hin as [->|Hin].
  - rewrite N.eqb_refl. auto.
  - destruct (N.eqb_spec (c_id x) (c_id c)) as [E|E]; auto. exfalso. apply H1. rewrite E. apply in_map. auto.
Qed.

Lemma id_unique : forall (l : list cache) (c c' : cache), NoDup (map c_id l) -> In c l -> In c' l ->
  c_id c = c_id c' -> c = c'.
Proof.
  intros l c c' Hd H1 H2 E. pose proof (by_id_in l c Hd H1) as A. pose proof (by_id_in l c' Hd H2) as B.
  rewrite E in A. congruence.
Qed.

Lemma set_cache_in : forall (f : cache -> cache) (id : N) (l : list cache) (c : cache),
  NoDup (map c_id l) -> In c (set_cache l id f) ->
  (In c l /\ c_id c <> id) \/ (exists c0, In c0 l /\ c_id c0 = id /\ c = f c0).
Proof.
  intros f id l. induction l as [|x l IH]; intros c Hd Hin; cbn [set_cache] in Hin; [destruct Hin|].
  cbn [map] in Hd. inversion Hd; subst. destruct (N.eqb_spec (c_id x) id) as [E|E].
  - destruct Hin as [<-|Hin].
    + right. exists x. split; [left; auto|auto].
    + left. split; [right; auto|]. intros E'. apply H1. rewrite E, <- E'. apply in_map. auto.
  - destruct Hin as [<-|Hin].
    + left. split; [left; auto|auto].
    + destruct (IH c H2 Hin) as [[A B]|(c0 & A & B & C)]; [left; split; auto; right; auto|].
      right. exists c0. split; [right; auto|auto].
Qed.

Lemma del_first_ok : forall (A : Type) (f : A -> bool) (l : list A) (lst d : A),
  existsb f l = true -> lst = last l d ->
  exists x, f x = true /\ Permutation (x :: del_first f l lst) l.
Proof.
  intros A f l. induction l as [|y l IH]; intros lst d H E; cbn [existsb del_first] in *; [discriminate|].
  destruct (f y) eqn:Ef.
  - exists y. split; auto. destruct l as [|z l]; [auto|].
    constructor. change (last (y :: z :: l) d) with (last (z :: l) d) in E. subst lst.
    assert (Q : z :: l = removelast (z :: l) ++ [last (z :: l) d]) by (apply app_removelast_last; discriminate).
    etransitivity; [apply Permutation_cons_append|]. rewrite <- Q. auto.
  - cbn [orb] in H. destruct l as [|z l]; [discriminate|].
    destruct (IH lst d H) as (x & Hx & P); [exact E|]. exists x. split; auto.
    etransitivity; [apply perm_swap|]. constructor. auto.
Qed.

Lemma del_swap_ok : forall (A : Type) (f : A -> bool) (l : list A), existsb f l = true ->
  exists x, f x = true /\ Permutation (x :: del_swap f l) l.
Proof.
  intros A f [|y l] H; [discriminate|]. unfold del_swap. eapply del_first_ok; eauto.
Qed.

Lemma cache_del_in : forall (l : list cache) (id : N) (c0 c : cache), NoDup (map c_id l) -> In c0 l -> c_id c0 = id ->
  (In c (cache_del l id) <-> In c l /\ c_id c <> id) /\ NoDup (map c_id (cache_del l id)).
Proof.
  intros l id c0 c Hd Hin E. destruct (del_swap_ok _ (fun c => N.eqb (c_id c) id) l) as (x & Hx & P).
  { apply existsb_exists. exists c0. split; auto. apply N.eqb_eq. auto. }
  fold (cache_del l id) in P. apply N.eqb_eq in Hx.
  assert (D : NoDup (map c_id (x :: cache_del l id))).
  { eapply Permutation_NoDup; [|exact Hd]. apply Permutation_map. symmetry. auto. }
  cbn [map] in D. inversion D as [|? ? Dn Dd]; subst. split; auto. split.
  - intros H. split; [eapply Permutation_in; [exact P|]; right; auto|].
    intros E'. apply Dn. replace (c_id x) with (c_id c) by congruence. apply in_map. auto.
  - intros [H1 H2]. apply (Permutation_in c (Permutation_sym P)) in H1. destruct H1 as [<-|]; auto. contradiction.
Qed.

(** ** Subscriptions *)

Definition gpolls (l : list (N * list psub)) : list (N * psub) :=
  flat_map (fun g => map (fun p => (fst g, p)) (snd g)) l.

Definition tpolls (l : list strct) : list (N * psub) := flat_map (fun t => gpolls (t_groups t)) l.

Lemma polls_eq : forall (s : st), polls s = tpolls (s_strs s).
Proof. reflexivity. Qed.

Lemma gpolls_in : forall (l : list (N * list psub)) (m : N) (p : psub), In (m, p) (gpolls l) <->
  exists ps, In (m, ps) l /\ In p ps.
Proof.
  intros l m p. unfold gpolls. rewrite in_flat_map. split.
  - intros ([m' ps] & H1 & H2). cbn [fst snd] in H2. apply in_map_iff in H2 as (q & E & H2).
    injection E as <- <-. eauto.
  - intros (ps & H1 & H2). exists (m, ps). split; auto. cbn [fst snd]. apply in_map_iff. eauto.
Qed.

Lemma tpolls_in : forall (l : list strct) (x : N * psub), In x (tpolls l) <->
  exists t, In t l /\ In x (gpolls (t_groups t)).
Proof. intros l x. unfold tpolls. rewrite in_flat_map. reflexivity. Qed.

Lemma add_psub_in : forall (m : N) (p : psub) (l : list (N * list psub)) (x : N * psub),
  In x (gpolls (add_psub m p l)) -> x = (m, p) \/ In x (gpolls l).
Proof.
  intros m p l x. induction l as [|g l IH]; cbn [add_psub].
  - cbn. intros [<-|[]]. auto.
  - destruct (N.eqb_spec (fst g) m) as [E|E].
    + unfold gpolls. cbn [flat_map]. intros H. apply in_app_or in H as [H|H].
      * cbn [fst snd] in H. rewrite map_app in H. apply in_app_or in H as [H|H].
        -- right. apply in_or_app. left. auto.
        -- cbn in H. destruct H as [<-|[]]. left. rewrite E. auto.
      * right. apply in_or_app. right. auto.
    + unfold gpolls. cbn [flat_map]. intros H. apply in_app_or in H as [H|H].
      * right. apply in_or_app. auto.
      * destruct (IH H) as [?|?]; auto. right. apply in_or_app. auto.
Qed.

Lemma del_psub_in : forall (id : N) (l : list (N * list psub)) (x : N * psub),
  In x (gpolls (del_psub id l)) -> In x (gpolls l) /\ p_id (snd x) <> id.
Proof.
  intros id l [m p] H. apply gpolls_in in H as (ps & H1 & H2). unfold del_psub in H1.
  apply filter_In in H1 as [H1 _]. apply in_map_iff in H1 as ([m' ps'] & E & H1). cbn [fst snd] in E.
  injection E as <- <-. apply filter_In in H2 as [H2 H3]. cbn [snd]. split.
  - apply gpolls_in. eauto.
  - intros E. rewrite E, N.eqb_refl in H3. discriminate.
Qed.

Lemma map_psub_in : forall (id : N) (f : psub -> psub) (l : list (N * list psub)) (m : N) (p : psub),
  In (m, p) (gpolls (map_psub id f l)) -> exists p0, In (m, p0) (gpolls l) /\ (p = p0 \/ p = f p0).
Proof.
  intros id f l m p H. apply gpolls_in in H as (ps & H1 & H2). unfold map_psub in H1.
  apply in_map_iff in H1 as ([m' ps'] & E & H1). cbn [fst snd] in E. injection E as <- <-.
  apply in_map_iff in H2 as (q & E & H2). exists q. split; [apply gpolls_in; eauto|].
  destruct (N.eqb (p_id q) id); auto.
Qed.

Lemma set_nth_in : forall (A : Type) (i : nat) (f : A -> A) (l : list A) (x : A), In x (set_nth i f l) ->
  In x l \/ exists y, nth_error l i = Some y /\ x = f y.
Proof.
  intros A i. induction i as [|i IH]; intros f [|y l] x H; cbn [set_nth] in H; try destruct H; subst; auto.
  - right. exists y. split; auto.
  - left. right. auto.
  - left. left. auto.
  - destruct (IH f l x H) as [?|?]; [left; right; auto|right; auto].
Qed.

Lemma set_nth_nth : forall (A : Type) (i j : nat) (f : A -> A) (l : list A) (y : A),
  nth_error (set_nth i f l) j = Some y ->
  (j <> i /\ nth_error l j = Some y) \/ (j = i /\ exists x, nth_error l i = Some x /\ y = f x).
Proof.
  intros A i. induction i as [|i IH]; intros [|j] f [|z l] y H; cbn [set_nth nth_error] in *; try discriminate.
  - right. split; auto. exists z. split; auto. injection H as <-. auto.
  - left. auto.
  - left. auto.
  - destruct (IH j f l y H) as [[H1 H2]|[H1 H2]]; [left|right]; split; auto.
Qed.

(** ** Every subscription has its cache *)

Record invA (L : list (N * psub)) (s : st) : Prop := InvA {
  a_nodup : NoDup (map c_id (s_caches s));
  a_next : forall c, In c (s_caches s) -> (c_id c < s_next s)%N;
  a_has : forall m p, In (m, p) L -> exists c, In c (s_caches s) /\ c_id c = p_id p /\ c_mod c = m /\ c_path c = p_path p }.

Definition frame (s s' : st) : Prop :=
  map key (s_caches s') = map key (s_caches s) /\ s_gets s' = s_gets s /\ s_strs s' = s_strs s /\
  s_next s' = s_next s.

Lemma frame_refl : forall s, frame s s.
Proof. intros s. repeat split. Qed.

Lemma in_key : forall (l l' : list cache) (c : cache), map key l' = map key l -> In c l ->
  exists c', In c' l' /\ key c' = key c.
Proof.
  intros l l' c E H. apply (in_map key) in H. rewrite <- E in H. apply in_map_iff in H as (c' & ? & ?). eauto.
Qed.

Lemma invA_frame : forall (L : list (N * psub)) (s s' : st), frame s s' -> invA L s -> invA L s'.
Proof.
  intros L s s' (F1 & F2 & F3 & F4) [A1 A2 A3]. constructor.
  - rewrite (key_ids _ _ F1). auto.
  - intros c H. rewrite F4. symmetry in F1. destruct (in_key _ _ _ F1 H) as (c' & Hc' & E).
    assert (E1 : c_id c' = c_id c) by (apply (f_equal (fun k : N * N * path => fst (fst k))) in E; exact E).
    rewrite <- E1. auto.
  - intros m p H. destruct (A3 m p H) as (c & Hc & E1 & E2 & E3).
    destruct (in_key _ _ _ F1 Hc) as (c' & Hc' & E). unfold key in E. injection E as X1 X2 X3.
    exists c'. split; auto. repeat split; congruence.
Qed.

Lemma frame_trans : forall a b c, frame a b -> frame b c -> frame a c.
Proof. intros a b c (A & B & C & D) (A' & B' & C' & D'). repeat split; congruence. Qed.

Lemma poll_sub_frame : forall (sel : path -> N -> bool) (e : env) (m : N) (p : psub) (s : st) (w : option timespec)
    (L : list (N * psub)), invA L s -> In (m, p) L ->
  match poll_sub sel e m p s w with
  | POk s' _ => frame s s'
  | PErr s' _ => frame s s' /\ s_caches s' = s_caches s
  | PAssert => False
  end.
Proof.
  intros sel e m p s w L I Hin. unfold poll_sub. destruct (p_susp p); [apply frame_refl|].
  destruct (a_has L s I m p Hin) as (c & Hc & E1 & _). rewrite <- E1, (by_id_in _ c (a_nodup L s I) Hc).
  destruct (find_get (s_gets s) m (p_path p)); cbn [negb].
  2:{ repeat split. cbn [set_caches s_caches]. apply set_cache_key. apply clear_key. }
  destruct (cache_valid c (p_valid p) (s_now s)); [apply frame_refl|].
  destruct (N.eqb (e_fail e) 0); cbn [negb]; [|repeat split].
  match goal with |- context [if ?b then PErr _ _ else _] => destruct b end; [repeat split|].
  repeat split. cbn [set_caches s_caches pass]. apply set_cache_key. intros x. apply fill_key.
Qed.

Lemma poll_groups_ind : forall (sel : path -> N -> bool) (ev : N -> env) (P : st -> Prop) (l : list (N * list psub)),
  (forall m p s w, In (m, p) (gpolls l) -> P s ->
     match poll_sub sel (ev (p_id p)) m p s w with POk s' _ => P s' | PErr s' _ => P s' | PAssert => False end) ->
  forall s w, P s ->
  match poll_groups sel ev l s w with POk s' _ => P s' | PErr s' _ => P s' | PAssert => False end.
Proof.
  intros sel ev P l. induction l as [|[m ps] l IH]; intros Hstep s w H; cbn [poll_groups]; auto.
  assert (Hs : forall s w, P s -> match poll_subs sel ev m ps s w with POk s' _ => P s' | PErr s' _ => P s' | PAssert => False end).
  { clear s w H. assert (Hp : forall p, In p ps -> In (m, p) (gpolls ((m, ps) :: l))).
    { intros p Hp. apply gpolls_in. exists ps. split; auto. left. auto. }
    clear IH. induction ps as [|p ps' IH']; intros s w H; cbn [poll_subs]; auto.
    assert (Hp1 : In (m, p) (gpolls ((m, p :: ps') :: l))) by (apply Hp; left; auto).
    pose proof (Hstep m p s w Hp1 H) as K.
    destruct (poll_sub sel (ev (p_id p)) m p s w) as [s' w'|s' b|]; auto.
    apply IH'; auto.
    - intros m0 p0 s0 w0 Hin. apply Hstep. apply gpolls_in in Hin as (q & [E|Hq] & Hq2); apply gpolls_in.
      + injection E as <- <-. exists (p :: ps'). split; [left; auto|right; auto].
      + exists q. split; [right; auto|auto].
    - intros q Hq. apply gpolls_in. exists ps'. split; auto. left; auto. }
  specialize (Hs s w H). destruct (poll_subs sel ev m ps s w) as [s' w'|s' b|]; auto.
  apply IH; auto. intros m0 p0 s0 w0 Hin. apply Hstep. apply gpolls_in in Hin as (q & Hq & Hq2). apply gpolls_in.
  exists q. split; auto. right; auto.
Qed.

Lemma poll_groups_frame : forall (sel : path -> N -> bool) (ev : N -> env) (l : list (N * list psub)) (L : list (N * psub)) (s : st)
    (w : option timespec), invA L s -> (forall x, In x (gpolls l) -> In x L) ->
  match poll_groups sel ev l s w with POk s' _ => frame s s' | PErr s' _ => frame s s' | PAssert => False end.
Proof.
  intros sel ev l L s w I Hl.
  apply (poll_groups_ind sel ev (fun s' => frame s s')); [|apply frame_refl].
  intros m p s0 w0 Hin F. pose proof (poll_sub_frame sel (ev (p_id p)) m p s0 w0 L (invA_frame L s s0 F I) (Hl _ Hin)) as K.
  destruct (poll_sub sel (ev (p_id p)) m p s0 w0); auto.
  - eapply frame_trans; eauto.
  - destruct K as [K _]. eapply frame_trans; eauto.
Qed.

Lemma last_group : forall (l : list (N * list psub)) (x : N * psub),
  In x (gpolls (match rev l with [] => [] | g :: _ => [g] end)) -> In x (gpolls l).
Proof.
  intros l [m p] H. apply gpolls_in in H as (ps & H1 & H2). apply gpolls_in. exists ps. split; auto.
  apply in_rev. destruct (rev l) as [|g r]; [destruct H1|]. destruct H1 as [->|[]]. left. auto.
Qed.

Lemma cache_add_some : forall (l l' : list cache) (id m : N) (p : path), cache_add l id m p = Some l' ->
  l' = l ++ [Cache id m p [] ts_zero []] /\ (forall c, In c l -> c_path c <> p).
Proof.
  intros l l' id m p H. unfold cache_add in H. destruct (existsb _ l) eqn:E; [discriminate|]. injection H as <-.
  split; auto. intros c Hc Ep. assert (existsb (fun c => path_eqb (c_path c) p) l = true); [|congruence].
  apply existsb_exists. exists c. split; auto. apply path_eqb_eq. auto.
Qed.

Lemma in_app_strs : forall (l : list strct) (b : bool) (x : N * psub),
  In x (tpolls (if b then l else l ++ [Strct [] true None])) -> In x (tpolls l).
Proof.
  intros l [|] x H; auto. unfold tpolls in H. rewrite flat_map_app in H. apply in_app_or in H as [H|H]; auto. destruct H.
Qed.

Lemma invA_new : forall (L : list (N * psub)) (s : st) (strs : list strct) (m : N) (p : psub) (cs : list cache),
  invA L s -> cache_add (s_caches s) (s_next s) m (p_path p) = Some cs -> p_id p = s_next s ->
  invA ((m, p) :: L) (St (s_mono s) (s_now s) (s_oper s) (s_log s) (s_gets s) cs strs (s_next s + 1)).
Proof.
  intros L s strs m p cs [A1 A2 A3] H E. apply cache_add_some in H as [-> _].
  constructor; cbn [s_caches s_next].
  - rewrite map_app. cbn [map c_id]. apply (Permutation_NoDup (l := s_next s :: map c_id (s_caches s))).
    + apply Permutation_cons_append.
    + constructor; auto. intros K. apply in_map_iff in K as (c & Ec & Hc). specialize (A2 c Hc). lia.
  - intros c Hc. apply in_app_or in Hc as [Hc|[<-|[]]]; cbn [c_id]; [specialize (A2 c Hc); lia|lia].
  - intros m' p' [K|K].
    + injection K as <- <-. eexists. split; [apply in_or_app; right; left; reflexivity|]. cbn. auto.
    + destruct (A3 m' p' K) as (c & Hc & ?). exists c. split; auto. apply in_or_app. auto.
Qed.

Lemma invA_sub : forall (L L' : list (N * psub)) (s s' : st), invA L s -> (forall x, In x L' -> In x L) ->
  s_caches s' = s_caches s -> s_next s' = s_next s -> invA L' s'.
Proof.
  intros L L' s s' [A1 A2 A3] H E1 E2. constructor; rewrite ?E1, ?E2; auto.
Qed.

Lemma invA_id_lt : forall (L : list (N * psub)) (s : st) (m : N) (p : psub), invA L s -> In (m, p) L -> (p_id p < s_next s)%N.
Proof.
  intros L s m p I H. destruct (a_has L s I m p H) as (c & Hc & E & _). rewrite <- E. apply (a_next L s I); auto.
Qed.

Lemma exec_invA : forall (sel : path -> N -> bool) (s : st) (e : event), invA (polls s) s ->
  match exec sel s e with None => False | Some s' => invA (polls s') s' end.
Proof.
  intros sel s e I. destruct e as [n|o|t|m p fl| |i m p valid diff ev|i id|i id b|i ev]; cbn [exec].
  - eapply invA_sub; eauto.
  - eapply invA_sub; eauto.
  - eapply invA_sub; eauto.
  - eapply invA_sub; eauto. intros x Hx. rewrite polls_eq in *. cbn [set_strs s_strs set_gets] in Hx.
    apply tpolls_in in Hx as (t & Ht & Hx). apply in_map_iff in Ht as (t0 & <- & Ht). apply tpolls_in.
    exists t0. split; auto. unfold get_changed in Hx. destruct (existsb _ _); auto.
  - destruct I as [A1 A2 A3]. assert (K : map key (map clear_cache (s_caches s)) = map key (s_caches s)).
    { rewrite map_map. apply map_ext. apply clear_key. }
    eapply (invA_frame (polls s) s); [|constructor; auto]. repeat split. exact K.
  - unfold poll_add. set (b := (i <? length (s_strs s))%nat).
    set (strs := if b then s_strs s else s_strs s ++ [Strct [] true None]).
    destruct (nth_error strs i) as [t|] eqn:Et; [|auto].
    destruct (valid =? 0); [auto|].
    destruct (cache_add (s_caches s) (s_next s) m p) as [cs|] eqn:Ec; [|auto].
    set (q := PSub (s_next s) p valid diff false).
    assert (I1 : invA ((m, q) :: polls s) (St (s_mono s) (s_now s) (s_oper s) (s_log s) (s_gets s) cs strs (s_next s + 1))).
    { apply invA_new; auto. }
    assert (Hg : forall x, In x (gpolls (add_psub m q (t_groups t))) -> In x ((m, q) :: polls s)).
    { intros x Hx. apply add_psub_in in Hx as [->|Hx]; [left; auto|]. right. rewrite polls_eq.
      apply (in_app_strs (s_strs s) b). fold strs. apply tpolls_in. exists t. split; auto. eapply nth_error_In; eauto. }
    pose proof (poll_groups_frame sel ev (match rev (add_psub m q (t_groups t)) with [] => [] | g :: _ => [g] end)
      ((m, q) :: polls s) _ None I1 (fun x Hx => Hg x (last_group _ x Hx))) as F.
    destruct (poll_groups _ _ _ _ _) as [s2 w2|s2 to|]; auto.
    + pose proof (invA_frame _ _ _ F I1) as I2. eapply invA_sub; eauto.
      intros x Hx. rewrite polls_eq in Hx. cbn [set_strs s_strs] in Hx. apply tpolls_in in Hx as (t' & Ht' & Hx).
      destruct F as (_ & _ & F3 & _). rewrite F3 in Ht'. cbn [s_strs] in Ht'.
      apply set_nth_in in Ht' as [Ht'|(y & Hy & ->)].
      * right. rewrite polls_eq. apply (in_app_strs (s_strs s) b). fold strs. apply tpolls_in. eauto.
      * apply Hg. cbn [wake_now t_groups] in Hx. auto.
    + pose proof (invA_frame _ _ _ F I1) as [B1 B2 B3]. destruct F as (_ & _ & F3 & F4).
      destruct (B3 m q (or_introl eq_refl)) as (c & Hc & E1 & _). cbn [p_id q] in E1.
      assert (HD : NoDup (map c_id (cache_del (s_caches s2) (s_next s)))) by (eapply cache_del_in; eauto).
      constructor; cbn [set_caches s_caches s_next].
      * auto.
      * intros c' Hc'. apply (cache_del_in _ _ _ _ B1 Hc E1) in Hc' as [? ?]. auto.
      * intros m' p' Hx. rewrite polls_eq in Hx. cbn [set_caches s_strs] in Hx. rewrite F3 in Hx. cbn [s_strs] in Hx.
        unfold strs in Hx. apply in_app_strs in Hx.
        assert (Hlt := invA_id_lt _ _ _ _ I Hx).
        destruct (B3 m' p' (or_intror Hx)) as (c' & Hc' & X1 & X2).
        exists c'. split; auto. apply (cache_del_in _ _ _ _ B1 Hc E1). split; auto. lia.
  - destruct (nth_error (s_strs s) i) as [t|] eqn:Et; [|auto]. destruct (existsb _ (t_groups t)) eqn:Ex; [|auto].
    apply existsb_exists in Ex as ([m ps] & Hm & Hp). cbn [snd] in Hp. apply existsb_exists in Hp as (p & Hp & Hid).
    apply N.eqb_eq in Hid.
    assert (Hin : In (m, p) (polls s)).
    { rewrite polls_eq. apply tpolls_in. exists t. split; [eapply nth_error_In; eauto|]. apply gpolls_in. eauto. }
    destruct I as [A1 A2 A3]. destruct (A3 m p Hin) as (c & Hc & E1 & _). rewrite Hid in E1.
    assert (HD : NoDup (map c_id (cache_del (s_caches s) id))) by (eapply cache_del_in; eauto).
    constructor; cbn [set_caches set_strs s_caches s_next]; auto.
    + intros c' Hc'. apply (cache_del_in _ _ _ _ A1 Hc E1) in Hc' as [? ?]. auto.
    + intros m' p' Hx. rewrite polls_eq in Hx. cbn [set_caches set_strs s_strs] in Hx.
      apply tpolls_in in Hx as (t' & Ht' & Hx). apply in_map_iff in Ht' as (t0 & <- & Ht0). cbn [t_groups] in Hx.
      apply del_psub_in in Hx as [Hx Hne]. cbn [snd] in Hne.
      destruct (A3 m' p') as (c' & Hc' & X1 & X2). { rewrite polls_eq. apply tpolls_in. eauto. }
      exists c'. split; auto. apply (cache_del_in _ _ _ _ A1 Hc E1). split; auto. congruence.
  - destruct I as [A1 A2 A3]. constructor; cbn [set_strs s_caches s_next]; auto.
    intros m p Hx. rewrite polls_eq in Hx. cbn [set_strs s_strs] in Hx. apply tpolls_in in Hx as (t & Ht & Hx).
    apply set_nth_in in Ht as [Ht|(y & Hy & ->)].
    + apply A3. rewrite polls_eq. apply tpolls_in. eauto.
    + cbn [t_groups] in Hx. apply map_psub_in in Hx as (p0 & Hp0 & Hp).
      destruct (A3 m p0) as (c & Hc & X1 & X2 & X3).
      { rewrite polls_eq. apply tpolls_in. exists y. split; auto. eapply nth_error_In; eauto. }
      exists c. split; auto. destruct Hp as [-> | ->]; cbn [p_id p_path]; auto.
  - unfold process. destruct (nth_error (s_strs s) i) as [t|] eqn:Et; [|auto].
    destruct (t_alive t); cbn [negb]; [|auto].
    assert (Hg : forall x, In x (gpolls (t_groups t)) -> In x (polls s)).
    { intros x Hx. rewrite polls_eq. apply tpolls_in. exists t. split; auto. eapply nth_error_In; eauto. }
    pose proof (poll_groups_frame sel ev (t_groups t) (polls s) s (Some ts_zero) I Hg) as F.
    assert (Hn : forall (s2 : st) (a : bool) (d : option Z), frame s s2 ->
      invA (polls (set_strs (set_nth i (fun t => Strct (t_groups t) a d) (s_strs s2)) s2))
           (set_strs (set_nth i (fun t => Strct (t_groups t) a d) (s_strs s2)) s2)).
    { intros s2 a d F2. pose proof (invA_frame _ _ _ F2 I) as I2. eapply invA_sub; eauto.
      intros x Hx. rewrite polls_eq in *. cbn [set_strs s_strs] in Hx. destruct F2 as (_ & _ & F3 & _). rewrite F3 in Hx.
      apply tpolls_in in Hx as (t' & Ht' & Hx). apply tpolls_in.
      apply set_nth_in in Ht' as [Ht'|(y & Hy & ->)]; [eauto|]. exists y. split; auto. eapply nth_error_In; eauto. }
    destruct (poll_groups _ _ _ _ _) as [s2 w2|s2 [|]|]; auto.
Qed.

Lemma run_invA : forall (sel : path -> N -> bool) (l : list event) (s : st), invA (polls s) s ->
  exists s', run sel s l = Some s' /\ invA (polls s') s'.
Proof.
  intros sel l. induction l as [|e l IH]; intros s I; cbn [run]; [eauto|].
  pose proof (exec_invA sel s e I) as K. destruct (exec sel s e) as [s1|]; [auto|destruct K].
Qed.

Lemma invA_init : forall (now : timespec) (o : tree), invA (polls (init now o)) (init now o).
Proof. intros. constructor; cbn; [constructor|intros c []|intros m p []]. Qed.
