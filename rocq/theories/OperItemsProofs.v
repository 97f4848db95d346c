(** Proofs for C65. *)
From Coq Require Import List Bool Arith Lia Permutation.
From Verif Require Import OperItems OperItemsSpec.
Import ListNotations.

(** ** Paths and nodes *)
Lemma path_eqb_eq : forall a b, path_eqb a b = true <-> a = b.
Proof.
  induction a as [|x a IH]; destruct b as [|y b]; cbn [path_eqb]; try (split; [discriminate|discriminate]); [split; reflexivity|].
  rewrite andb_true_iff, Nat.eqb_eq, IH. split; [intros [-> ->]; reflexivity|intros E; injection E; auto].
Qed.
Lemma path_eqb_refl : forall a, path_eqb a a = true.
Proof. intros a. now apply path_eqb_eq. Qed.
Lemma path_eqb_neq : forall a b, a <> b -> path_eqb a b = false.
Proof. intros a b H. destruct (path_eqb a b) eqn:E; auto. apply path_eqb_eq in E. congruence. Qed.
Lemma is_prefix_iff : forall a b, is_prefix a b = true <-> exists r, b = a ++ r.
Proof.
  induction a as [|x a IH]; intros b; cbn [is_prefix app]; [split; [eauto|reflexivity]|].
  destruct b as [|y b]; [split; [discriminate|intros [r E]; discriminate]|]. rewrite andb_true_iff, Nat.eqb_eq, IH. split.
  - intros [-> [r ->]]. exists r. reflexivity.
  - intros [r E]. injection E as -> ->. eauto.
Qed.

Lemma find_app : forall p a b, find_node p (a ++ b) = match find_node p a with Some v => Some v | None => find_node p b end.
Proof.
  intros p a b. unfold find_node. induction a as [|n a IH]; cbn [app find]; [reflexivity|]. destruct (path_eqb (fst n) p); cbn; auto.
Qed.
Lemma find_one : forall p q v, find_node p [(q, v)] = if path_eqb q p then Some v else None.
Proof. intros. unfold find_node. cbn. destruct (path_eqb q p); reflexivity. Qed.
Lemma find_filter : forall (f : path -> bool) p l, find_node p (filter (fun n => f (fst n)) l) = if f p then find_node p l else None.
Proof.
  intros f p l. unfold find_node. induction l as [|n l IH]; cbn [filter find]; [destruct (f p); reflexivity|].
  destruct (path_eqb (fst n) p) eqn:E.
  - apply path_eqb_eq in E. subst p. destruct (f (fst n)) eqn:F; cbn [find]; [rewrite path_eqb_refl; reflexivity|exact IH].
  - destruct (f (fst n)); cbn [find]; rewrite ?E; exact IH.
Qed.
Lemma find_update : forall p v q l, find_node q (map (fun n => if path_eqb (fst n) p then (fst n, v) else n) l) =
  if path_eqb p q then option_map (fun _ => v) (find_node q l) else find_node q l.
Proof.
  intros p v q l. unfold find_node. induction l as [|n l IH]; cbn [map find]; [destruct (path_eqb p q); reflexivity|].
  destruct (path_eqb (fst n) p) eqn:E; cbn [fst].
  - apply path_eqb_eq in E. rewrite E. destruct (path_eqb p q) eqn:F; [reflexivity|exact IH].
  - destruct (path_eqb (fst n) q) eqn:F; [|exact IH]. apply path_eqb_eq in F. rewrite F in E.
    rewrite (path_eqb_neq p q); [reflexivity|]. intros ->. rewrite path_eqb_refl in E. discriminate.
Qed.
Lemma find_some : forall p l v, find_node p l = Some v -> In (p, v) l.
Proof.
  intros p l v. unfold find_node. destruct (find _ l) as [[q w]|] eqn:E; cbn; [|discriminate]. intros X. injection X as <-.
  apply find_some in E as [H K]. cbn in K. apply path_eqb_eq in K. now subst.
Qed.
Lemma find_in : forall p v l, In (p, v) l -> find_node p l <> None.
Proof.
  intros p v l H. unfold find_node. destruct (find _ l) as [n|] eqn:E; [discriminate|].
  apply (find_none _ _ E) in H. cbn in H. rewrite path_eqb_refl in H. discriminate.
Qed.

Lemma parents_keep : forall rest done l q w, find_node q l = Some w -> find_node q (add_parents done rest l) = Some w.
Proof.
  induction rest as [|x rest IH]; intros done l q w H; cbn [add_parents]; [exact H|]. destruct rest as [|y r]; [exact H|].
  apply IH. destruct (find_node (done ++ [x]) l); [exact H|]. now rewrite find_app, H.
Qed.
Lemma parents_new : forall rest done l r1 r2, rest = r1 ++ r2 -> r1 <> [] -> r2 <> [] -> find_node (done ++ r1) l = None ->
  find_node (done ++ r1) (add_parents done rest l) = Some 0.
Proof.
  induction rest as [|x rest IH]; intros done l r1 r2 E N1 N2 H; [destruct r1; [congruence|discriminate]|].
  destruct r1 as [|x' r1]; [congruence|]. cbn [app] in E. injection E as <- E. cbn [add_parents].
  destruct rest as [|y r]; [symmetry in E; apply app_eq_nil in E as [_ ->]; congruence|].
  destruct r1 as [|z r1].
  - apply parents_keep. rewrite H, find_app, H, find_one, path_eqb_refl. reflexivity.
  - replace (done ++ x :: z :: r1) with ((done ++ [x]) ++ z :: r1) in * by (now rewrite <- app_assoc).
    apply (IH (done ++ [x]) _ (z :: r1) r2); [exact E|discriminate|exact N2|].
    destruct (find_node (done ++ [x]) l); [exact H|]. rewrite find_app, H, find_one, path_eqb_neq; [reflexivity|].
    intros K. rewrite <- (app_nil_r (done ++ [x])) in K at 1. apply app_inv_head in K. discriminate.
Qed.
Lemma parents_other : forall rest done l q, (forall r1 r2, rest = r1 ++ r2 -> r1 <> [] -> r2 <> [] -> q <> done ++ r1) ->
  find_node q (add_parents done rest l) = find_node q l.
Proof.
  induction rest as [|x rest IH]; intros done l q H; cbn [add_parents]; [reflexivity|]. destruct rest as [|y r]; [reflexivity|].
  rewrite IH.
  - destruct (find_node (done ++ [x]) l); [reflexivity|]. rewrite find_app, find_one, path_eqb_neq; [now destruct (find_node q l)|].
    intros K. apply (H [x] (y :: r)); [reflexivity|discriminate|discriminate|auto].
  - intros r1 r2 E N1 N2 K. apply (H (x :: r1) r2); [cbn; now rewrite E|discriminate|exact N2|]. rewrite K, <- app_assoc. reflexivity.
Qed.

(** ** Sets of XPaths *)
Definition cnt := count_occ Nat.eq_dec.
Lemma cnt_app : forall a b x, cnt (a ++ b) x = cnt a x + cnt b x.
Proof. intros. apply count_occ_app. Qed.
Lemma cnt_perm : forall a b, Permutation a b <-> forall x, cnt a x = cnt b x.
Proof. intros. apply Permutation_count_occ. Qed.
Lemma cnt_filter : forall (f : nat -> bool) l x, cnt (filter f l) x = if f x then cnt l x else 0.
Proof.
  intros f l x. unfold cnt. induction l as [|y l IH]; cbn [filter count_occ]; [destruct (f x); reflexivity|].
  destruct (f y) eqn:F; cbn [count_occ]; destruct (Nat.eq_dec y x) as [->|N]; rewrite ?IH, ?F; auto.
Qed.
Lemma cnt_rev : forall l x, cnt (rev l) x = cnt l x.
Proof. intros l. apply cnt_perm. symmetry. apply Permutation_rev. Qed.
Lemma cnt_in : forall l x, In x l <-> cnt l x > 0.
Proof. intros. apply count_occ_In. Qed.
Lemma cnt_nil : forall l, (forall x, cnt l x = 0) -> l = [].
Proof. intros [|y l] H; [reflexivity|]. specialize (H y). assert (In y (y :: l)) as I by (left; reflexivity). apply cnt_in in I. lia. Qed.

Lemma skipn_nth : forall (l : list nat) j x, nth_error l j = Some x -> skipn j l = x :: skipn (S j) l.
Proof. induction l as [|y l IH]; intros [|j] x H; cbn in H; try discriminate; [injection H as ->; reflexivity|]. now apply IH. Qed.
Lemma rm_perm : forall j l x, nth_error l j = Some x -> Permutation l (x :: rm_index j l).
Proof.
  intros j l x H. unfold rm_index. pose proof (skipn_nth l j x H) as E. rewrite <- (firstn_skipn j l) at 1. rewrite E.
  destruct (skipn (S j) l) as [|y t] eqn:T.
  - symmetry. apply Permutation_cons_append.
  - assert (y :: t <> []) as N by discriminate. rewrite (app_removelast_last 0 N) at 1.
    rewrite <- Permutation_middle. apply perm_skip. apply Permutation_app_head. symmetry. apply Permutation_cons_append.
Qed.
Lemma rm_firstn : forall j l x, nth_error l j = Some x -> firstn j (rm_index j l) = firstn j l.
Proof.
  intros j l x H. unfold rm_index. rewrite (skipn_nth l j x H).
  assert (length (firstn j l) = j) as L by (apply firstn_length_le; apply Nat.lt_le_incl, nth_error_Some; congruence).
  destruct (skipn (S j) l) as [|y t].
  - rewrite firstn_firstn. now rewrite Nat.min_id.
  - rewrite firstn_app, L, Nat.sub_diag. cbn [firstn]. rewrite app_nil_r, firstn_firstn. now rewrite Nat.min_id.
Qed.
Lemma index_some : forall x l j, index x l = Some j -> nth_error l j = Some x.
Proof.
  intros x l. induction l as [|y l IH]; intros j H; cbn in H; [discriminate|]. destruct (Nat.eqb x y) eqn:E.
  - injection H as <-. apply Nat.eqb_eq in E. now subst.
  - destruct (index x l) as [i|]; [|discriminate]. injection H as <-. now apply IH.
Qed.
Lemma index_none : forall x l, index x l = None -> ~ In x l.
Proof.
  intros x l. induction l as [|y l IH]; intros H; cbn in H; [auto|]. destruct (Nat.eqb x y) eqn:E; [discriminate|].
  destruct (index x l); [discriminate|]. apply Nat.eqb_neq in E. intros [->|K]; [congruence|]. now apply IH.
Qed.
Lemma firstn_succ : forall (l : list nat) i x, nth_error l i = Some x -> firstn (S i) l = firstn i l ++ [x].
Proof. induction l as [|y l IH]; intros [|i] x H; cbn in H; try discriminate; [injection H as ->; reflexivity|]. cbn [firstn app]. f_equal. now apply IH. Qed.
Lemma drop_spec : forall n i a b, length a <= n + i -> (forall x, In x (firstn i a) -> ~ In x b) ->
  exists c, Permutation a (c ++ fst (drop_equal n i a b)) /\ Permutation b (c ++ snd (drop_equal n i a b)) /\
    forall x, In x (fst (drop_equal n i a b)) -> ~ In x (snd (drop_equal n i a b)).
Proof.
  induction n as [|n IH]; intros i a b L H; cbn [drop_equal].
  - exists []. split; [apply Permutation_refl|]. split; [apply Permutation_refl|]. rewrite firstn_all2 in H by lia. exact H.
  - destruct (nth_error a i) as [x|] eqn:E.
    + destruct (index x b) as [j|] eqn:J.
      * pose proof (rm_perm i a x E) as Pa. apply index_some in J. pose proof (rm_perm j b x J) as Pb.
        destruct (IH i (rm_index i a) (rm_index j b)) as (c & C1 & C2 & C3).
        -- apply Permutation_length in Pa. cbn in Pa. lia.
        -- intros y Hy K. rewrite (rm_firstn i a x E) in Hy. apply (H y Hy). eapply Permutation_in; [symmetry; exact Pb|]. now right.
        -- exists (x :: c). split; [eapply Permutation_trans; [exact Pa|]; cbn [app]; apply perm_skip; exact C1|]. split; [eapply Permutation_trans; [exact Pb|]; cbn [app]; apply perm_skip; exact C2|exact C3].
      * apply (IH (S i)); [lia|]. intros y Hy. rewrite (firstn_succ a i x E) in Hy. apply in_app_or in Hy as [Hy|[<-|[]]]; [now apply H|]. now apply index_none.
    + exists []. split; [apply Permutation_refl|]. split; [apply Permutation_refl|]. apply nth_error_None in E. rewrite firstn_all2 in H by lia. exact H.
Qed.
Lemma drop_sub : forall a b, exists new gone, drop_equal (length a) 0 a b = (new, gone) /\
  (forall x, cnt new x = cnt a x - cnt b x) /\ forall x, cnt gone x = cnt b x - cnt a x.
Proof.
  intros a b. destruct (drop_spec (length a) 0 a b) as (c & C1 & C2 & C3); [lia|intros x []|].
  destruct (drop_equal (length a) 0 a b) as [a' b'] eqn:E. cbn [fst snd] in *.
  pose proof (proj1 (cnt_perm _ _) C1) as K1. pose proof (proj1 (cnt_perm _ _) C2) as K2. exists a', b'. split; [reflexivity|].
  assert (forall x, cnt a' x = cnt a x - cnt b x /\ cnt b' x = cnt b x - cnt a x) as K; [|split; intros x; apply (K x)].
  intros x. specialize (K1 x). specialize (K2 x). rewrite cnt_app in K1, K2.
  destruct (cnt b' x) as [|k] eqn:B; [lia|]. assert (In x b') as I by (apply cnt_in; lia).
  destruct (cnt a' x) as [|k'] eqn:A; [lia|]. assert (In x a') as I' by (apply cnt_in; lia). destruct (C3 x I' I).
Qed.
Lemma cnt_cons : forall x l y, cnt (x :: l) y = (if Nat.eqb x y then 1 else 0) + cnt l y.
Proof. intros x l y. unfold cnt. cbn [count_occ]. destruct (Nat.eq_dec x y) as [->|N]; [now rewrite Nat.eqb_refl|]. apply Nat.eqb_neq in N. now rewrite N. Qed.
Lemma remove_cnt : forall x l y, cnt (remove_one x l) y = cnt l y - (if Nat.eqb x y then 1 else 0).
Proof.
  intros x l y. induction l as [|z l IH]; [now destruct (Nat.eqb x y)|]. cbn [remove_one]. destruct (Nat.eqb x z) eqn:E.
  - apply Nat.eqb_eq in E. subst z. rewrite cnt_cons. destruct (Nat.eqb x y); lia.
  - rewrite !cnt_cons, IH. destruct (Nat.eqb z y) eqn:Z; [|lia]. apply Nat.eqb_eq in Z. subst z. rewrite E. lia.
Qed.
Lemma removes_cnt : forall g l y, cnt (fold_left (fun l x => remove_one x l) g l) y = cnt l y - cnt g y.
Proof.
  induction g as [|x g IH]; intros l y; cbn [fold_left]; [cbn; lia|]. rewrite IH, remove_cnt, cnt_cons. lia.
Qed.

(** ** Applying *)
Section M.
Variable mod_of : nat -> nat.
Variable refs sel : nat -> nat -> bool.
Variable mods : list nat.
Notation node_mod := (node_mod mod_of).
Definition mp (m : nat) (p : path) : bool := match p with t :: _ => Nat.eqb (mod_of t) m | [] => false end.
Definition replaces (e : pend) : Prop := (forall t, find_node [t] (p_nodes e) <> None -> p_op e t = OReplace) /\ Forall (fun x => snd x = OReplace) (p_disc e).

Definition rep (o : option op) : Prop := o = None \/ o = Some OReplace.
Lemma learn_rep : forall m l o, rep o -> Forall (fun r => snd r = OReplace) l -> learn m o l = Some (match l with [] => o | _ => Some OReplace end).
Proof.
  intros m l o R F. revert o R. induction F as [|r t E F IH]; intros o R; cbn [learn]; [reflexivity|].
  assert (join o (snd r) = Some (Some OReplace)) as J by (rewrite E; destruct R as [-> | ->]; reflexivity). rewrite J.
  destruct (of_mod m r); [|reflexivity]. rewrite IH by (right; reflexivity). destruct t; reflexivity.
Qed.
Lemma learn_disc_rep : forall m l o, rep o -> Forall (fun x => snd x = OReplace) l ->
  learn_disc refs m o l = Some (if existsb (fun x => refs (fst x) m) l then Some OReplace else o).
Proof.
  intros m l o R F. revert o R. induction F as [|[x q] t E F IH]; intros o R; cbn [learn_disc existsb fst]; [reflexivity|]. cbn in E. subst q.
  destruct (refs x m); [|cbn [orb]; now apply IH]. cbn [orb].
  assert (join o OReplace = Some (Some OReplace)) as J by (destruct R as [-> | ->]; reflexivity). rewrite J, IH by (right; reflexivity). destruct (existsb _ t); reflexivity.
Qed.
Lemma roots_rep : forall e, replaces e -> Forall (fun r => snd r = OReplace) (roots mod_of e).
Proof.
  intros e [H1 H2]. unfold roots. apply Forall_app. split.
  - apply Forall_forall. intros r Hr. apply in_flat_map in Hr as ([p v] & Hn & Hr). cbn [fst] in Hr. destruct p as [|t [|y q]]; [destruct Hr| |destruct Hr].
    destruct Hr as [<-|[]]. cbn. apply H1. eapply find_in; eauto.
  - apply Forall_forall. intros r Hr. apply in_map_iff in Hr as (x & <- & Hx). cbn. rewrite Forall_forall in H2. auto.
Qed.
Lemma from_sub : forall m l, Forall (fun r => snd r = OReplace) l -> Forall (fun r => snd r = OReplace) (from_mod m l).
Proof. intros m l F. induction F as [|r t E F IH]; cbn [from_mod]; [constructor|]. destruct (of_mod m r); [now constructor|auto]. Qed.
Lemma from_some : forall m l r, In r l -> of_mod m r = true -> from_mod m l <> [].
Proof. intros m l r. induction l as [|y t IH]; [intros []|]. intros [->|H] K; cbn [from_mod]; [rewrite K; discriminate|]. destruct (of_mod m y); [discriminate|auto]. Qed.
Lemma roots_in : forall e t, find_node [t] (p_nodes e) <> None -> In (Some (mod_of t), p_op e t) (roots mod_of e).
Proof.
  intros e t H. destruct (find_node [t] (p_nodes e)) as [v|] eqn:E; [|congruence]. apply find_some in E.
  unfold roots. apply in_or_app. left. apply in_flat_map. exists ([t], v). split; [exact E|]. left. reflexivity.
Qed.

(** A module with something pending. *)
Definition pending (m : nat) (e : pend) : Prop :=
  (exists t, mod_of t = m /\ find_node [t] (p_nodes e) <> None) \/ exists x, In x (map fst (p_disc e)) /\ refs x m = true.

Lemma one_mod : forall m e d, replaces e -> pending m e ->
  exists d', mod_apply mod_of refs m e d = ROk d' /\
    (forall q, find_node q (d_nodes d') = if mp m q then find_node q (p_nodes e) else find_node q (d_nodes d)) /\
    (forall x, cnt (d_disc d') x = if refs x m then cnt (map fst (p_disc e)) x else cnt (d_disc d) x).
Proof.
  intros m e d Rp P. unfold mod_apply. pose proof (roots_rep e Rp) as Rr. rewrite learn_rep by (try (left; reflexivity); now apply from_sub).
  destruct Rp as [R1 R2]. rewrite learn_disc_rep; [|destruct (from_mod m (roots mod_of e)); [left|right]; reflexivity|now apply Forall_rev].
  assert ((if existsb (fun x => refs (fst x) m) (rev (p_disc e)) then Some OReplace else match from_mod m (roots mod_of e) with [] => None | _ => Some OReplace end) = Some OReplace) as O.
  { destruct P as [(t & <- & Ht)|(x & Hx & Rx)].
    - pose proof (from_some (mod_of t) (roots mod_of e) _ (roots_in e t Ht)) as F. unfold of_mod in F. cbn [fst] in F. specialize (F (Nat.eqb_refl _)).
      destruct (from_mod (mod_of t) (roots mod_of e)); [congruence|]. destruct (existsb _ _); reflexivity.
    - apply in_map_iff in Hx as (y & <- & Hy). assert (existsb (fun x => refs (fst x) m) (rev (p_disc e)) = true) as ->; [|reflexivity].
      apply existsb_exists. exists y. split; [now apply -> in_rev|exact Rx]. }
  rewrite O. unfold mod_apply_data.
  destruct (drop_sub (rev (filter (fun x => refs x m) (map fst (p_disc e)))) (rev (filter (fun x => refs x m) (d_disc d)))) as (new & gone & E & N & Go).
  rewrite E. eexists. split; [reflexivity|]. cbn [d_nodes d_disc]. split.
  - intros q. rewrite find_app. 
    pose proof (find_filter (fun p => negb (mp m p)) q (d_nodes d) : find_node q (filter (fun n => negb (node_mod m n)) (d_nodes d)) = _) as F1.
    pose proof (find_filter (mp m) q (p_nodes e) : find_node q (filter (node_mod m) (p_nodes e)) = _) as F2. rewrite F1, F2.
    destruct (mp m q); cbn [negb]; [reflexivity|]. now destruct (find_node q (d_nodes d)).
  - intros x. rewrite cnt_app, removes_cnt, N, Go, !cnt_rev, !cnt_filter. destruct (refs x m); lia.
Qed.

Definition step_ (e : pend) (r : res) (m : nat) : res := match r with ROk d' => mod_apply mod_of refs m e d' | r => r end.
Lemma all_mods : forall e ms d, replaces e -> (forall m, In m ms -> pending m e) ->
  exists d', fold_left (step_ e) ms (ROk d) = ROk d' /\
    (forall q, find_node q (d_nodes d') = if existsb (fun m => mp m q) ms then find_node q (p_nodes e) else find_node q (d_nodes d)) /\
    (forall x, cnt (d_disc d') x = if existsb (refs x) ms then cnt (map fst (p_disc e)) x else cnt (d_disc d) x).
Proof.
  intros e ms. induction ms as [|m ms IH]; intros d Rp P; [exists d; split; [reflexivity|]; split; reflexivity|].
  cbn [fold_left existsb]. destruct (one_mod m e d Rp) as (d1 & E & V & C); [apply P; left; reflexivity|].
  unfold step_ at 2. rewrite E. destruct (IH d1 Rp) as (d' & E' & V' & C'); [intros; apply P; right; auto|].
  exists d'. split; [exact E'|]. split.
  - intros q. rewrite V', V. destruct (mp m q), (existsb (fun m0 => mp m0 q) ms); reflexivity.
  - intros x. rewrite C', C. destruct (refs x m), (existsb (refs x) ms); reflexivity.
Qed.

(** ** Histories *)
Notation okx := (okx refs sel mods).

Definition left_ (v : view) : Prop := (exists q, v_val v q <> None) \/ v_disc v <> [].
Record good (s : sess) : Prop := {
  g_top : topped (d_nodes (s_stored s));
  g_ok : Forall okx (d_disc (s_stored s));
  g_pend : forall e, s_pend s = Some e -> topped (p_nodes e) /\ replaces e /\ Forall okx (map fst (p_disc e));
  g_ne : forall e, s_pend s = Some e -> left_ (ve e) }.
Lemma load_good : forall s, good s -> topped (p_nodes (load (s_stored s))) /\ replaces (load (s_stored s)) /\ Forall okx (map fst (p_disc (load (s_stored s)))).
Proof.
  intros s [G1 G2 G3 G4]. assert (map fst (p_disc (load (s_stored s))) = d_disc (s_stored s)) as E by (unfold load; cbn [p_disc]; rewrite map_map; cbn [fst]; apply map_id).
  rewrite E. split; [exact G1|]. split; [split; [reflexivity|]|exact G2].
  apply Forall_forall. intros x Hx. apply in_map_iff in Hx as (y & <- & _). reflexivity.
Qed.
Lemma load_view : forall d, ve (load d) = vs d.
Proof. intros d. unfold ve, vs, load. cbn [p_nodes p_disc]. rewrite map_map. cbn [fst]. now rewrite map_id. Qed.

(** What the functions make of what is pending. *)
Definition okp (s : sess) (e : pend) : Prop := topped (p_nodes e) /\ replaces e /\ Forall okx (map fst (p_disc e)).

Lemma finish_left : forall e, left_ (ve e) -> finish e = Some e.
Proof.
  intros e [(q & H)|H]; unfold finish; cbn in H.
  - destruct (p_nodes e); [destruct (H eq_refl)|reflexivity].
  - destruct (p_nodes e); [|reflexivity]. destruct (p_disc e); [destruct (H eq_refl)|reflexivity].
Qed.
Lemma finish_some : forall e w, finish e = Some w -> left_ (ve w).
Proof.
  intros e w H. unfold finish in H. destruct (p_nodes e) as [|n l] eqn:Pn; [destruct (p_disc e) as [|y l] eqn:Pd; [discriminate|]|]; injection H as <-.
  - right. cbn [ve v_disc]. rewrite Pd. discriminate.
  - left. exists (fst n). cbn [ve v_val]. rewrite Pn. destruct n as [q k]. cbn [fst]. apply (find_in q k). left. reflexivity.
Qed.
Lemma with_good : forall s f g, good s ->
  (forall e, okp s e -> ve e = vp s -> okp s (fst (g e)) /\ (left_ (ve (fst (g e))) \/ (ve (fst (g e)) = ve e /\ ve e = vs (s_stored s)))) -> f = false ->
  exists e, okp s e /\ ve e = vp s /\ with_edit s f g = (mksess (s_stored s) (finish (fst (g e))), snd (g e)) /\
    good (mksess (s_stored s) (finish (fst (g e)))) /\ vp (mksess (s_stored s) (finish (fst (g e)))) = ve (fst (g e)).
Proof.
  intros s f g G H ->.
  assert (exists e, okp s e /\ ve e = vp s /\ with_edit s false g = (mksess (s_stored s) (finish (fst (g e))), snd (g e))) as (e & K & V & E).
  { unfold with_edit, vp. destruct (s_pend s) as [e|] eqn:P.
    - exists e. split; [exact (g_pend s G e P)|]. split; [reflexivity|]. destruct (g e). reflexivity.
    - exists (load (s_stored s)). split; [exact (load_good s G)|]. split; [apply load_view|]. destruct (g (load (s_stored s))). reflexivity. }
  exists e. split; [exact K|]. split; [exact V|]. split; [exact E|]. destruct (H e K V) as [K' L]. destruct G as [G1 G2 G3 G4].
  assert (forall w, finish w = Some w \/ finish w = None) as Fc by (intros w; unfold finish; destruct (p_nodes w), (p_disc w); auto).
  split.
  - constructor; cbn [s_stored s_pend]; auto; [|intros e' F; eapply finish_some; eauto]. intros e' F. destruct (Fc (fst (g e))) as [C|C]; rewrite C in F; [injection F as <-; exact K'|discriminate].
  - unfold vp. cbn [s_pend s_stored]. destruct L as [L|[L1 L2]]; [now rewrite (finish_left _ L)|].
    destruct (Fc (fst (g e))) as [C|C]; rewrite C; [reflexivity|]. now rewrite L1.
Qed.

(** sr_set_item() *)
Lemma set_view : forall p v e, p <> [] ->
  find_node p (p_nodes (set_node p v e)) = Some v /\
  (forall q, above q p -> find_node p (p_nodes e) = None -> find_node q (p_nodes (set_node p v e)) = match find_node q (p_nodes e) with Some w => Some w | None => Some 0 end) /\
  (forall q, q <> p -> (above q p -> find_node p (p_nodes e) <> None) -> find_node q (p_nodes (set_node p v e)) = find_node q (p_nodes e)).
Proof.
  intros p v e Np. unfold set_node. destruct (find_node p (p_nodes e)) as [w|] eqn:E; cbn [p_nodes].
  - split; [rewrite find_update, path_eqb_refl, E; reflexivity|]. split; [intros q _ X; discriminate|].
    intros q N _. rewrite find_update, path_eqb_neq by congruence. reflexivity.
  - split.
    + rewrite find_app. rewrite (parents_other p [] (p_nodes e) p).
      * rewrite E, find_one, path_eqb_refl. reflexivity.
      * intros r1 r2 Ep N1 N2 K. cbn [app] in K. rewrite Ep in K. rewrite <- (app_nil_r r1) in K at 2. apply app_inv_head in K. congruence.
    + split.
      * intros q (Nq & r & Nr & Ep) _. rewrite find_app. destruct (find_node q (p_nodes e)) as [w|] eqn:F.
        -- now rewrite (parents_keep p [] (p_nodes e) q w F).
        -- pose proof (parents_new p [] (p_nodes e) q r Ep Nq Nr F) as H. cbn [app] in H. now rewrite H.
      * intros q N Na. rewrite find_app, find_one, (path_eqb_neq p q) by congruence. rewrite (parents_other p [] (p_nodes e) q); [now destruct (find_node q (p_nodes e))|].
        intros r1 r2 Ep N1 N2 K. cbn [app] in K. subst r1. apply Na; [|reflexivity]. split; [exact N1|]. eauto.
Qed.

Lemma above_trans : forall a b c, above a b -> above b c -> above a c.
Proof. intros a b c (N & r & Nr & ->) (_ & r' & Nr' & ->). split; [exact N|]. exists (r ++ r'). split; [destruct r; [congruence|discriminate]|]. now rewrite app_assoc. Qed.
Lemma above_not : forall p, ~ above p p.
Proof. intros p (_ & r & Nr & E). rewrite <- (app_nil_r p) in E at 1. apply app_inv_head in E. congruence. Qed.
Lemma above_dec : forall q p, above q p \/ ~ above q p.
Proof.
  intros q p. destruct (is_prefix q p) eqn:E.
  - apply is_prefix_iff in E as [r ->]. destruct q as [|x q]; [right; intros [N _]; congruence|]. destruct r as [|y r].
    + right. rewrite app_nil_r. apply above_not.
    + left. split; [discriminate|]. exists (y :: r). split; [discriminate|reflexivity].
  - right. intros (_ & r & _ & ->). assert (is_prefix q (q ++ r) = true) by (apply is_prefix_iff; eauto). congruence.
Qed.

(** The whole view after sr_set_item(). *)
Lemma set_whole : forall p v e, p <> [] -> topped (p_nodes e) ->
  find_node p (p_nodes (set_node p v e)) = Some v /\
  (forall q, above q p -> find_node q (p_nodes (set_node p v e)) = match find_node q (p_nodes e) with Some w => Some w | None => Some 0 end) /\
  (forall q, q <> p -> ~ above q p -> find_node q (p_nodes (set_node p v e)) = find_node q (p_nodes e)).
Proof.
  intros p v e Np T. destruct (set_view p v e Np) as (A & B & C). split; [exact A|]. split.
  - intros q Aq. destruct (find_node p (p_nodes e)) as [w|] eqn:E; [|now apply B].
    assert (find_node q (p_nodes e) <> None) as F by (apply (T p); [congruence|exact Aq]).
    rewrite C; [now destruct (find_node q (p_nodes e))|intros ->; exact (above_not p Aq)|discriminate].
  - intros q N Na. apply C; [exact N|intros X; destruct (Na X)].
Qed.
Lemma set_okp : forall s p v e, p <> [] -> okp s e -> okp s (set_node p v e).
Proof.
  intros s p v e Np (T & (R1 & R2) & O). destruct (set_whole p v e Np T) as (A & B & C).
  assert (p_disc (set_node p v e) = p_disc e) as Ed by (unfold set_node; destruct (find_node p (p_nodes e)); reflexivity).
  assert (forall q, find_node q (p_nodes (set_node p v e)) <> None <-> find_node q (p_nodes e) <> None \/ q = p \/ above q p) as W.
  { intros q. destruct (list_eq_dec Nat.eq_dec q p) as [->|N]; [rewrite A; split; [auto|discriminate]|].
    destruct (above_dec q p) as [Y|Y]; [rewrite B by exact Y; split; [auto|destruct (find_node q (p_nodes e)); discriminate]|].
    rewrite C by auto. split; [auto|]. intros [H|[H|H]]; [exact H|congruence|destruct (Y H)]. }
  unfold okp. rewrite Ed. split; [|split; [|exact O]].
  - intros q H. apply W in H as [H|[->|H]].
    + destruct (T q H) as [N K]. split; [exact N|]. intros a Ha. apply W. left. now apply K.
    + split; [exact Np|]. intros a Ha. apply W. auto.
    + split; [apply H|]. intros a Ha. apply W. right. right. eapply above_trans; eauto.
  - split; [|now rewrite Ed]. intros t Ht. unfold set_node. destruct (find_node p (p_nodes e)) as [w|] eqn:E; cbn [p_op].
    + apply R1. apply W in Ht as [Ht|[Ht|Ht]]; [exact Ht|rewrite Ht, E; discriminate|]. apply (T p); [congruence|exact Ht].
    + destruct p as [|u r]; [congruence|]. destruct (find_node [u] (p_nodes e)) as [w|] eqn:U.
      * apply R1. apply W in Ht as [Ht|[Ht|(Nt & r' & Nr & Ht)]]; [exact Ht|injection Ht as -> _; congruence|].
        cbn [app] in Ht. injection Ht as -> _. congruence.
      * destruct (Nat.eqb t u) eqn:Tu; [reflexivity|]. apply Nat.eqb_neq in Tu. apply R1.
        apply W in Ht as [Ht|[Ht|(Nt & r' & Nr & Ht)]]; [exact Ht|injection Ht as -> _; congruence|]. cbn [app] in Ht. injection Ht as -> _. congruence.
Qed.

(** sr_delete_item() *)
Lemma del_view : forall p e q, find_node q (p_nodes (del_node p e)) = if is_prefix p q then None else find_node q (p_nodes e).
Proof.
  intros p e q. unfold del_node. cbn [p_nodes]. rewrite (find_filter (fun k => negb (is_prefix p k)) q). destruct (is_prefix p q); reflexivity.
Qed.
Lemma del_okp : forall s p e, okp s e -> okp s (del_node p e).
Proof.
  intros s p e (T & (R1 & R2) & O). split; [|split; [split; [|exact R2]|exact O]].
  - intros q H. rewrite del_view in H. destruct (is_prefix p q) eqn:E; [congruence|]. destruct (T q H) as [N K]. split; [exact N|].
    intros a Ha. rewrite del_view. destruct (is_prefix p a) eqn:F; [|now apply K]. apply is_prefix_iff in F as [r ->]. destruct Ha as (_ & r' & _ & ->).
    assert (is_prefix p ((p ++ r) ++ r') = true) by (apply is_prefix_iff; exists (r ++ r'); now rewrite app_assoc). congruence.
  - intros t Ht. rewrite del_view in Ht. destruct (is_prefix p [t]); [congruence|]. cbn [del_node p_op]. now apply R1.
Qed.

Notation safe := (safe mod_of refs sel mods).
Lemma same_refl : forall v, same v v.
Proof. intros v. split; [reflexivity|apply Permutation_refl]. Qed.
Notation do_call := (do_call mod_of refs sel mods).
Hypothesis all_in : forall t, In (mod_of t) mods.

Lemma top_find : forall l t r, topped l -> find_node (t :: r) l <> None -> find_node [t] l <> None.
Proof. intros l t r T H. destruct r as [|x r]; [exact H|]. apply (T (t :: x :: r) H). split; [discriminate|]. exists (x :: r). split; [discriminate|reflexivity]. Qed.

Theorem step : forall c s, good s -> safe c s ->
  exists s' r, do_call c s = (s', r) /\ good s' /\ goes c (vs (s_stored s), vp s) (vs (s_stored s'), vp s') r.
Proof.
  intros c s G F. destruct c as [p v f|p st f|x f|ns disc o| |refuse]; cbn [OperItemsSpec.safe] in F; cbn [OperItems.do_call].
  - destruct F as [Np Ff]. destruct (with_good s f (fun e => (set_node p v e, ROkay)) G) as (e & K & V & E & G' & V'); [|exact Ff|].
    + intros e K V. cbn [fst]. split; [now apply set_okp|]. left. left. exists p. cbn. destruct K as (T & _). rewrite (proj1 (set_whole p v e Np T)). discriminate.
    + eexists _, _. split; [exact E|]. split; [exact G'|]. cbn [fst snd s_stored] in *. rewrite V'. apply g_make. destruct K as (T & _).
      destruct (set_whole p v e Np T) as (A & B & C). rewrite <- V. apply m_set; cbn [ve v_val v_disc]; auto.
      assert (p_disc (set_node p v e) = p_disc e) as -> by (unfold set_node; destruct (find_node p (p_nodes e)); reflexivity). apply Permutation_refl.
  - destruct F as [Ff Fl].
    set (g := fun e => match find_node p (p_nodes e) with Some _ => (del_node p e, ROkay) | None => (e, if st then RNotFound else ROkay) end).
    destruct (with_good s f g G) as (e & K & V & E & G' & V'); [|exact Ff|].
    + intros e K V. unfold g. destruct (find_node p (p_nodes e)) as [w|] eqn:P; cbn [fst].
      * split; [now apply del_okp|]. left. rewrite <- V in Fl. cbn [ve v_val v_disc] in Fl. destruct Fl as [(q & Q1 & Q2)|Q]; [congruence| |right; exact Q].
        left. exists q. cbn [ve v_val]. rewrite del_view, Q2. exact Q1.
      * split; [exact K|]. destruct (p_nodes e) as [|n l] eqn:Pn.
        -- destruct (p_disc e) as [|y l] eqn:Pd; [right|left; right; cbn [ve v_disc]; rewrite Pd; discriminate]. split; [reflexivity|].
           unfold vp in V. destruct (s_pend s) as [e0|] eqn:Ps; [|exact V].
           destruct (g_ne s G e0 Ps) as [(q & Q)|Q]; rewrite <- V in Q; cbn [ve v_val v_disc] in Q; [rewrite Pn in Q; destruct (Q eq_refl)|rewrite Pd in Q; destruct (Q eq_refl)].
        -- left. left. exists (fst n). cbn [ve v_val]. rewrite Pn. destruct n as [q w]. cbn [fst]. apply (find_in q w). left. reflexivity.
    + eexists _, _. split; [exact E|]. split; [exact G'|]. cbn [s_stored] in *. rewrite V'. apply g_make. unfold g. rewrite <- V.
      destruct (find_node p (p_nodes e)) as [w|] eqn:P; cbn [fst snd].
      * apply m_delete; cbn [ve v_val v_disc]; [congruence| | |apply Permutation_refl].
        -- intros r. rewrite del_view. assert (is_prefix p (p ++ r) = true) as -> by (apply is_prefix_iff; eauto). reflexivity.
        -- intros q N. rewrite del_view. destruct (is_prefix p q) eqn:Q; [|reflexivity]. apply is_prefix_iff in Q. destruct (N Q).
      * apply m_absent; [exact P|apply same_refl].
  - destruct F as [Ff Fx]. destruct (with_good s f (fun e => (mkpend (p_nodes e) (p_op e) (p_disc e ++ [(x, OReplace)]), ROkay)) G) as (e & K & V & E & G' & V'); [|exact Ff|].
    + intros e (T & (R1 & R2) & O) V. cbn [fst]. split.
      * split; [exact T|]. cbn [p_nodes p_op p_disc]. rewrite map_app. split; [split; [exact R1|apply Forall_app; split; [exact R2|constructor; [reflexivity|constructor]]]|].
        apply Forall_app; split; [exact O|constructor; [exact Fx|constructor]].
      * left. right. cbn [ve v_disc p_disc]. rewrite map_app. destruct (map fst (p_disc e)); discriminate.
    + eexists _, _. split; [exact E|]. split; [exact G'|]. cbn [fst snd s_stored] in *. rewrite V'. apply g_make. rewrite <- V. apply m_discard; cbn [ve v_val v_disc p_nodes p_disc]; [reflexivity|].
      rewrite map_app. symmetry. apply Permutation_cons_append.
  - destruct F as (P & -> & T & Nd & Ox & Ne). rewrite P. eexists _, _. split; [reflexivity|]. destruct G as [G1 G2 G3 G4].
    assert (map fst (map (fun x => (x, OReplace)) disc) = disc) as Ed by (rewrite map_map; cbn [fst]; apply map_id). split.
    + constructor; cbn [s_stored s_pend]; auto; intros e' X; injection X as <-; cbn [p_nodes p_disc ve v_val v_disc].
      * rewrite Ed. split; [exact T|]. split; [|exact Ox]. split; [reflexivity|]. apply Forall_forall. intros y Hy. cbn [p_disc] in Hy. apply in_map_iff in Hy as (z & <- & _). reflexivity.
      * destruct Ne as [Ne|Ne]; [left|right; cbn [ve v_disc p_disc]; rewrite Ed; exact Ne]. destruct ns as [|[q w] l]; [congruence|]. exists q. cbn [ve v_val p_nodes]. apply (find_in q w). left. reflexivity.
    + cbn [s_stored]. unfold vp at 2. cbn [s_pend]. apply g_batch; cbn [ve v_val v_disc p_nodes p_disc]; [|exact Ed].
      intros q w. split; [apply find_some|]. intros I. destruct (find_node q ns) as [k|] eqn:K; [|destruct (find_in _ _ _ I K)]. f_equal. apply find_some in K.
      clear - Nd I K. induction ns as [|[a b] l IH]; [destruct I|]. cbn [map fst] in Nd. inversion Nd as [|? ? N1 N2]; subst.
      destruct I as [I|I], K as [K|K]; [congruence| | |now apply IH].
      * injection I as -> ->. destruct N1. apply in_map_iff. exists (q, k). auto.
      * injection K as -> ->. destruct N1. apply in_map_iff. exists (q, w). auto.
  - eexists _, _. split; [reflexivity|]. destruct G as [G1 G2 G3 G4]. split; [constructor; cbn [s_stored s_pend]; auto; intros e' X; discriminate|].
    cbn [s_stored]. apply g_drop. unfold vp. cbn [s_pend s_stored]. apply same_refl.
  - unfold vp in *. destruct (s_pend s) as [e|] eqn:P.
    + destruct (g_pend s G e P) as (T & R & O). destruct F as [F F2]. cbn [vs v_val v_disc] in F, F2. pose proof (g_top s G) as Ts. pose proof (g_ok s G) as Os.
      assert (forall m, remains mod_of refs m (ve e) -> pending m e) as Rem.
      { intros m [(u & q & U1 & U2)|H]; [left; exists u; split; [exact U1|exact (top_find _ u q T U2)]|right; exact H]. }
      destruct (all_mods e (collect mod_of sel mods e (s_stored s)) (s_stored s) R) as (d & E & V & C).
      * intros m Hm. apply filter_In in Hm as [_ Hm]. apply orb_true_iff in Hm as [Hm|Hm]; apply orb_true_iff in Hm as [Hm|Hm]; apply existsb_exists in Hm as (y & Hy & Ey).
        -- destruct y as [q w]. unfold OperItems.node_mod in Ey. cbn [fst] in Ey. destruct q as [|t r]; [discriminate|]. apply Nat.eqb_eq in Ey. subst m.
           apply Rem, (F t r). exact (find_in _ _ _ Hy).
        -- apply Rem. exact (F2 y m Hy Ey).
        -- destruct y as [q w]. unfold OperItems.node_mod in Ey. cbn [fst] in Ey. destruct q as [|t r]; [discriminate|]. apply Nat.eqb_eq in Ey. subst m.
           left. exists t. split; [reflexivity|]. apply (top_find _ t r T). eapply find_in; eauto.
        -- right. exists y. split; [exact Hy|]. rewrite Forall_forall in O. now apply (O y Hy).
      * assert (apply_all mod_of refs sel mods e (s_stored s) = ROk d) as A by exact E. rewrite A.
        assert (forall q, find_node q (d_nodes d) = find_node q (p_nodes e)) as Vd.
        { intros q. rewrite V. destruct (existsb (fun m => mp m q) (collect mod_of sel mods e (s_stored s))) eqn:X; [reflexivity|].
          destruct q as [|t r].
          - destruct (find_node [] (d_nodes (s_stored s))) eqn:Y; [destruct (Ts []) as [N _]; [congruence|congruence]|].
            destruct (find_node [] (p_nodes e)) eqn:Z; [destruct (T []) as [N _]; [congruence|congruence]|reflexivity].
          - assert (forall l k, find_node (t :: r) l = Some k -> existsb (OperItems.node_mod mod_of (mod_of t)) l = true) as Ex.
            { intros l k Hk. apply existsb_exists. exists (t :: r, k). split; [now apply find_some|]. unfold OperItems.node_mod. cbn [fst]. apply Nat.eqb_refl. }
            assert (In (mod_of t) (collect mod_of sel mods e (s_stored s)) -> False) as Nc.
            { intros I. assert (existsb (fun m => mp m (t :: r)) (collect mod_of sel mods e (s_stored s)) = true); [|congruence]. apply existsb_exists. exists (mod_of t). split; [exact I|]. cbn. apply Nat.eqb_refl. }
            destruct (find_node (t :: r) (d_nodes (s_stored s))) as [k|] eqn:Y.
            + destruct Nc. apply filter_In. split; [apply all_in|]. unfold has_mod. now rewrite (Ex _ _ Y).
            + destruct (find_node (t :: r) (p_nodes e)) as [k|] eqn:Z; [|reflexivity]. destruct Nc. apply filter_In. split; [apply all_in|]. unfold has_mod. rewrite (Ex _ _ Z). cbn [orb]. apply orb_true_r. }
        assert (Permutation (d_disc d) (map fst (p_disc e))) as Pd.
        { apply cnt_perm. intros x. rewrite C. destruct (existsb (refs x) (collect mod_of sel mods e (s_stored s))) eqn:X; [reflexivity|].
          assert (forall l, Forall okx l -> (forall m, existsb (fun y => sel y m) l = true -> In m mods -> In m (collect mod_of sel mods e (s_stored s))) -> cnt l x = 0) as K.
          { intros l Ol Il. destruct (cnt l x) as [|k] eqn:Y; [reflexivity|]. exfalso. assert (In x l) as I by (apply cnt_in; lia).
            rewrite Forall_forall in Ol. destruct (Ol x I) as [(m & Hm & Sm) Rm].
            assert (existsb (refs x) (collect mod_of sel mods e (s_stored s)) = true); [|congruence]. apply existsb_exists. exists m. split; [|now apply Rm].
            apply Il; [|exact Hm]. apply existsb_exists. eauto. }
          rewrite !K; auto; intros m Em Hm; apply filter_In; (split; [exact Hm|]); unfold has_mod; rewrite Em, !orb_true_r; reflexivity. }
        destruct refuse.
        -- eexists _, _. split; [reflexivity|]. split; [exact G|]. rewrite P. apply g_refused. auto.
        -- eexists _, _. split; [reflexivity|]. split.
           ++ constructor; cbn [s_stored s_pend]; [| |intros e' X; discriminate|intros e' X; discriminate].
              ** intros q Hq. rewrite Vd in Hq. destruct (T q Hq) as [N K]. split; [exact N|]. intros a Ha. rewrite Vd. now apply K.
              ** apply Forall_forall. intros x Hx. rewrite Forall_forall in O. apply O. eapply Permutation_in; eauto.
           ++ cbn [s_stored s_pend]. apply g_apply; (split; [exact Vd|exact Pd]).
    + destruct refuse; eexists _, _; (split; [reflexivity|]); (split; [exact G|]); rewrite P.
      * apply g_refused. right. split; [reflexivity|apply same_refl].
      * apply g_apply; apply same_refl.
Qed.
End M.
