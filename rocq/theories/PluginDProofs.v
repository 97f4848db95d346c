(** Proofs about the plugin daemon. *)
From Coq Require Import List Bool Arith Lia Permutation.
From Verif Require Import PluginD PluginDSpec.
Import ListNotations.

Lemma name_eqb_eq : forall a b, name_eqb a b = true <-> a = b.
Proof.
  induction a as [|x a IH]; intros [|y b]; cbn; split; intros H; try discriminate; try reflexivity.
  - apply andb_true_iff in H as [H1 H2]. apply Nat.eqb_eq in H1. apply IH in H2. congruence.
  - injection H as -> ->. rewrite Nat.eqb_refl. now apply IH.
Qed.
Lemma cut_spec : forall s, match cut s with Some b => exists x, s = b ++ dot :: x /\ ~ In dot x | None => ~ In dot s end.
Proof.
  induction s as [|c t IH]; cbn [cut]; [auto|]. destruct (cut t) as [b|].
  - destruct IH as (x & -> & N). exists x. auto.
  - destruct (Nat.eqb c dot) eqn:E.
    + apply Nat.eqb_eq in E. subst c. exists t. auto.
    + apply Nat.eqb_neq in E. intros [H|H]; [congruence|auto].
Qed.
Lemma base_no_ext : forall s, base s (no_ext s).
Proof. intros s. unfold no_ext, base. pose proof (cut_spec s) as H. destruct (cut s); auto. Qed.
Lemma last_dot : forall b x c y, ~ In dot x -> ~ In dot y -> b ++ dot :: x = c ++ dot :: y -> b = c.
Proof.
  induction b as [|k b IH]; intros x [|j c] y Nx Ny H; cbn [List.app] in H.
  - reflexivity.
  - injection H as H1 H2. destruct Nx. rewrite H2. apply in_or_app. right. left. reflexivity.
  - injection H as H1 H2. destruct Ny. rewrite <- H2. apply in_or_app. right. left. reflexivity.
  - injection H as -> H. f_equal. exact (IH x c y Nx Ny H).
Qed.
Lemma base_det : forall s a b, base s a -> base s b -> a = b.
Proof.
  intros s a b [(x & -> & N)|[N ->]] [(y & E & M)|[M ->]].
  - exact (last_dot _ _ _ _ N M E).
  - destruct M. apply in_or_app. right. left. reflexivity.
  - destruct N. rewrite E. apply in_or_app. right. left. reflexivity.
  - reflexivity.
Qed.
Lemma matches_iff : forall p v, matches p v = true <-> base v (p_name p).
Proof.
  intros p v. unfold matches. rewrite name_eqb_eq. split; [intros ->; apply base_no_ext|]. intros H. exact (base_det _ _ _ H (base_no_ext v)).
Qed.

(** ** Sorting *)
Lemma pass_spec : forall v rest front mid, Forall (fun p => matches p v = false) mid ->
  exists g, fst (pass v front mid rest) = front ++ g /\ Forall (fun p => matches p v = true) g /\
    Forall (fun p => matches p v = false) (snd (pass v front mid rest)) /\ Permutation (g ++ snd (pass v front mid rest)) (mid ++ rest).
Proof.
  intros v rest. induction rest as [|x t IH]; intros front mid M; cbn [pass].
  - exists []. cbn [fst snd]. rewrite !app_nil_r. auto.
  - destruct (matches x v) eqn:E.
    + destruct (IH (front ++ [x]) (match mid with [] => [] | y :: m => m ++ [y] end)) as (g & G1 & G2 & G3 & G4).
      { destruct mid as [|y m]; [constructor|]. inversion M; subst. apply Forall_app. auto. }
      exists (x :: g). rewrite G1, <- app_assoc. split; [reflexivity|]. split; [now constructor|]. split; [exact G3|].
      cbn [List.app]. eapply Permutation_trans; [apply perm_skip; exact G4|]. eapply Permutation_trans; [|apply Permutation_middle]. apply perm_skip.
      apply Permutation_app_tail. destruct mid as [|y m]; [constructor|]. symmetry. apply Permutation_cons_append.
    + destruct (IH front (mid ++ [x])) as (g & G1 & G2 & G3 & G4); [apply Forall_app; auto|].
      exists g. split; [exact G1|]. split; [exact G2|]. split; [exact G3|]. eapply Permutation_trans; [exact G4|]. rewrite <- app_assoc. apply Permutation_refl.
Qed.

(** What is sorted: each is followed by those that are listed later only. *)
Definition rk (vs : list name) (p : plugin) (k : nat) : Prop := exists v, nth_error vs k = Some v /\ matches p v = true.
Lemma sort_spec : forall vs done front rest,
  (forall a p b, front = a ++ p :: b -> forall q, In q (b ++ rest) -> forall k, rk (done ++ vs) q k -> exists k', k' <= k /\ rk (done ++ vs) p k') ->
  (forall q k, In q rest -> rk done q k -> False) ->
  let l := sort_from vs front rest in Permutation l (front ++ rest) /\
  forall a p b q c, l = a ++ p :: b ++ q :: c -> forall k, rk (done ++ vs) q k -> exists k', k' <= k /\ rk (done ++ vs) p k'.
Proof.
  induction vs as [|v vs IH]; intros done front rest Hf Hr l; subst l; cbn [sort_from].
  - split; [apply Permutation_refl|]. rewrite app_nil_r in *. intros a p b q c E k Hk.
    assert (In q (b ++ q :: c)) as Iq by (apply in_or_app; right; left; reflexivity).
    destruct (le_lt_dec (length front) (length a)) as [L|L].
    + exfalso. apply (Hr q k); [|exact Hk]. assert (rest = skipn (length front) (a ++ p :: b ++ q :: c)) as -> by (rewrite <- E, skipn_app, skipn_all, Nat.sub_diag; reflexivity).
      rewrite skipn_app. apply in_or_app. right. replace (length front - length a) with 0 by lia. right. exact Iq.
    + assert (front = a ++ p :: firstn (length front - length a - 1) (b ++ q :: c)) as Ef.
      { assert (front = firstn (length front) (a ++ p :: b ++ q :: c)) as X by (rewrite <- E, firstn_app, Nat.sub_diag, firstn_all; cbn; now rewrite app_nil_r).
        rewrite X at 1. rewrite firstn_app, firstn_all2 by lia. f_equal. destruct (length front - length a) as [|n] eqn:D; [lia|]. cbn [firstn]. f_equal. f_equal. lia. }
      apply (Hf a p _ Ef q); [|exact Hk].
      rewrite Ef in E. rewrite <- app_assoc in E. apply app_inv_head in E. cbn [List.app] in E. injection E as E. rewrite E. exact Iq.
  - destruct (pass_spec v rest front []) as (g & G1 & G2 & G3 & G4); [constructor|]. destruct (pass v front [] rest) as [f r]. cbn [fst snd List.app] in *. subst f.
    assert (done ++ v :: vs = (done ++ [v]) ++ vs) as Ev by (rewrite <- app_assoc; reflexivity).
    destruct (IH (done ++ [v]) (front ++ g) r) as [P1 P2].
    + rewrite <- Ev. intros a p b E q Iq k Hk. 
      destruct (le_lt_dec (length front) (length a)) as [L|L].
      * (* in the new group *)
        assert (g = skipn (length front) a ++ p :: b) as Eg.
        { assert (g = skipn (length front) (a ++ p :: b)) as -> by (rewrite <- E, skipn_app, skipn_all, Nat.sub_diag; reflexivity). rewrite skipn_app. replace (length front - length a) with 0 by lia. reflexivity. }
        exists (length done). split.
        -- assert (In q rest) as I. 
           { eapply Permutation_in; [exact G4|]. apply in_app_or in Iq as [Iq|Iq]; apply in_or_app; [left; rewrite Eg; apply in_or_app; right; right; exact Iq|now right]. }
           destruct (le_lt_dec (length done) k) as [Lk|Lk]; [exact Lk|]. exfalso. apply (Hr q k I). destruct Hk as (w & W1 & W2). exists w. split; [|exact W2]. now rewrite nth_error_app1 in W1 by lia.
        -- exists v. split; [rewrite nth_error_app2, Nat.sub_diag by lia; reflexivity|]. rewrite Forall_forall in G2. apply G2. rewrite Eg. apply in_or_app. right. left. reflexivity.
      * assert (exists b', front = a ++ p :: b' /\ b = b' ++ g) as (b' & Ef & ->).
        { exists (firstn (length front - length a - 1) b).
          assert (front = a ++ p :: firstn (length front - length a - 1) b) as Ef.
          { assert (front = firstn (length front) (a ++ p :: b)) as X by (rewrite <- E, firstn_app, Nat.sub_diag, firstn_all; cbn; now rewrite app_nil_r).
            rewrite X at 1. rewrite firstn_app, firstn_all2 by lia. f_equal. destruct (length front - length a) as [|n] eqn:D; [lia|]. cbn [firstn]. f_equal. f_equal. lia. }
          split; [exact Ef|]. rewrite Ef in E at 1. rewrite <- app_assoc in E. apply app_inv_head in E. cbn [List.app] in E. injection E as E. now symmetry. }
        apply (Hf a p b' Ef q); [|exact Hk]. rewrite <- app_assoc in Iq. apply in_app_or in Iq as [Iq|Iq]; apply in_or_app; [now left|right]. eapply Permutation_in; [exact G4|exact Iq].
    + intros q k Iq (w & W1 & W2). assert (In q rest) as I by (eapply Permutation_in; [exact G4|apply in_or_app; now right]).
      destruct (le_lt_dec (length done) k) as [Lk|Lk].
      * rewrite nth_error_app2 in W1 by lia. destruct (k - length done) as [|n]; [|destruct n; discriminate W1]. injection W1 as <-. rewrite Forall_forall in G3. rewrite (G3 q Iq) in W2. discriminate.
      * apply (Hr q k I). exists w. split; [|exact W2]. now rewrite nth_error_app1 in W1 by lia.
    + rewrite Ev. split; [|exact P2]. eapply Permutation_trans; [exact P1|]. rewrite <- app_assoc. apply Permutation_app_head. exact G4.
Qed.
Lemma sort_order : forall vs ps, Permutation (sort vs ps) ps /\ in_order vs (sort vs ps).
Proof.
  intros vs ps. destruct (sort_spec vs [] [] ps) as [P O].
  - intros a p b E. destruct a; discriminate.
  - intros q k _ (v & V & _). destruct k; discriminate.
  - split; [exact P|]. cbn [List.app] in O. intros a p b q c E k (v & V1 & V2). destruct (O a p b q c E k) as (k' & L & w & W1 & W2); [exists v; split; [exact V1|now apply matches_iff]|].
    exists k'. split; [exact L|]. exists w. split; [exact W1|now apply matches_iff].
Qed.

(** ** Loading *)
Lemma load_spec : forall fs ps l, load ps fs = (l, true) -> exists qs, l = ps ++ qs /\ found fs qs.
Proof.
  induction fs as [|f fs IH]; intros ps l H; cbn [load] in H.
  - injection H as <-. exists []. rewrite app_nil_r. split; [reflexivity|constructor].
  - destruct f as [|n id ok]; [discriminate|]. destruct (no_ext n) as [|c b] eqn:E; [discriminate|]. destruct (IH _ _ H) as (qs & -> & F).
    exists (mkplugin (c :: b) id ok :: qs). rewrite <- app_assoc. split; [reflexivity|]. constructor; [rewrite <- E; apply base_no_ext|discriminate|exact F].
Qed.
Lemma load_all : forall fs qs, found fs qs -> forall ps, load ps fs = (ps ++ qs, true).
Proof.
  intros fs qs F. induction F as [|n b id ok fs ps B N F IH]; intros l; cbn [load]; [now rewrite app_nil_r|].
  rewrite <- (base_det _ _ _ B (base_no_ext n)). destruct b as [|c b]; [congruence|]. rewrite IH, <- app_assoc. reflexivity.
Qed.

(** ** Init callbacks *)
Lemma inits_spec : forall fatal ps l es go, inits fatal ps = (l, es, go) ->
  exists run rest, ps = run ++ rest /\ es = map init_of run /\ l = map (fun p => (p, p_ok p)) run ++ map (fun p => (p, false)) rest /\
    ((go = true /\ rest = [] /\ (fatal = true -> Forall (fun p => p_ok p = true) run)) \/
     (go = false /\ fatal = true /\ exists l' p, run = l' ++ [p] /\ p_ok p = false /\ Forall (fun p => p_ok p = true) l')).
Proof.
  intros fatal ps. induction ps as [|p t IH]; intros l es go H; cbn [inits] in H.
  - injection H as <- <- <-. exists [], []. repeat split; auto. 
  - destruct (negb (p_ok p) && fatal) eqn:E.
    + injection H as <- <- <-. apply andb_true_iff in E as [E1 ->]. apply negb_true_iff in E1. exists [p], t. unfold init_of. cbn [List.app map]. rewrite E1. repeat split; auto.
      right. repeat split. exists [], p. auto.
    + destruct (inits fatal t) as [[l0 es0] go0] eqn:I. injection H as <- <- <-. destruct (IH _ _ _ eq_refl) as (run & rest & -> & -> & -> & C).
      exists (p :: run), rest. repeat split. destruct C as [(-> & -> & C)|(-> & -> & l' & q & -> & Q & C)].
      * left. repeat split. intros F. constructor; [|auto]. subst fatal. rewrite andb_true_r in E. now apply negb_false_iff in E.
      * right. repeat split. exists (p :: l'), q. repeat split; auto. constructor; [|exact C]. rewrite andb_true_r in E. now apply negb_false_iff in E.
Qed.
Lemma cleanup_spec : forall run rest, cleanup (map (fun p => (p, p_ok p)) run ++ map (fun p => (p, false)) rest) = map EClean (started (map init_of run)).
Proof.
  intros run rest. unfold cleanup. rewrite flat_map_app.
  assert (flat_map (fun x : plugin * bool => if snd x then [EClean (p_id (fst x))] else []) (map (fun p => (p, false)) rest) = []) as -> by (induction rest; [reflexivity|exact IHrest]).
  rewrite app_nil_r. induction run as [|p run IH]; [reflexivity|]. cbn [map flat_map started fst snd]. rewrite IH. unfold init_of at 2. destruct (p_ok p); reflexivity.
Qed.
Lemma publish_gaps : forall l i c, publish true i c l = Some (map (fun x => p_name (fst x)) (filter snd l)).
Proof. induction l as [|[p b] t IH]; intros i c; [reflexivity|]. cbn [publish filter snd orb]. destruct b; rewrite IH; reflexivity. Qed.
Lemma publish_some : forall g l i c ns, publish g i c l = Some ns -> ns = map (fun x => p_name (fst x)) (filter snd l).
Proof.
  intros g. induction l as [|[p b] t IH]; intros i c ns H; cbn [publish] in H; [now injection H as <-|]. cbn [filter snd]. destruct b; [|eauto].
  destruct (g || Nat.eqb i c); [|discriminate]. destruct (publish g (S i) (S c) t) as [m|] eqn:E; [|discriminate]. injection H as <-. cbn [map fst]. f_equal. eauto.
Qed.
Lemma publish_full : forall g l i, Forall (fun x => snd x = true) l -> publish g i i l <> None.
Proof.
  intros g l. induction l as [|[p b] t IH]; intros i F; cbn [publish]; [discriminate|]. inversion F as [|? ? F1 F2]; subst. cbn in F1. subst b. rewrite Nat.eqb_refl, orb_true_r.
  specialize (IH (S i) F2). destruct (publish g (S i) (S i) t); [discriminate|congruence].
Qed.
Lemma filter_run : forall run, map (fun x : plugin * bool => p_name (fst x)) (filter snd (map (fun p => (p, p_ok p)) run)) = map p_name (filter p_ok run).
Proof. induction run as [|p run IH]; [reflexivity|]. cbn [map filter snd]. destruct (p_ok p); cbn [map fst]; now rewrite IH. Qed.
