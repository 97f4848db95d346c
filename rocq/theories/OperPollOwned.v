(** Every cache belongs to a subscription. *)
From Coq Require Import ZArith NArith List Bool Lia Permutation.
From Verif Require Import Time OperPoll OperPollSpec OperPollProofs.
Import ListNotations.
Local Open Scope Z_scope.

Definition has_id (l : list strct) (id : N) : Prop := exists m p, In (m, p) (tpolls l) /\ p_id p = id.
Definition owned (s : st) : Prop := forall c, In c (s_caches s) -> has_id (s_strs s) (c_id c).

Lemma set_nth_fwd : forall (A : Type) (i : nat) (f : A -> A) (l : list A) (x : A), In x l ->
  In x (set_nth i f l) \/ (nth_error l i = Some x /\ In (f x) (set_nth i f l)).
Proof.
  intros A i. induction i as [|i IH]; intros f [|y l] x H; try destruct H; subst; cbn [set_nth nth_error].
  - right. split; auto. left; auto.
  - left. right. auto.
  - left. left. auto.
  - destruct (IH f l x H) as [?|[? ?]]; [left; right; auto|right; split; auto; right; auto].
Qed.

Lemma set_nth_at : forall (A : Type) (i : nat) (f : A -> A) (l : list A) (x : A), nth_error l i = Some x -> In (f x) (set_nth i f l).
Proof.
  intros A i. induction i as [|i IH]; intros f [|z l] x H; cbn [nth_error set_nth] in *; try discriminate.
  - injection H as ->. left. reflexivity.
  - right. auto.
Qed.

Lemma has_id_group : forall (l : list strct) (t : strct) (m : N) (ps : list psub) (p : psub), In t l -> In (m, ps) (t_groups t) -> In p ps ->
  has_id l (p_id p).
Proof. intros l t m ps p H1 H2 H3. exists m, p. split; auto. apply tpolls_in. exists t. split; auto. apply gpolls_in. eauto. Qed.

Lemma has_id_inv : forall (l : list strct) (id : N), has_id l id ->
  exists t m ps p, In t l /\ In (m, ps) (t_groups t) /\ In p ps /\ p_id p = id.
Proof.
  intros l id (m & p & H & E). apply tpolls_in in H as (t & Ht & H). apply gpolls_in in H as (ps & H1 & H2). eauto 8.
Qed.

(** Replacing a structure by one with at least the same identifiers. *)
Lemma has_id_set : forall (i : nat) (f : strct -> strct) (l : list strct) (id : N),
  (forall t m ps p, nth_error l i = Some t -> In (m, ps) (t_groups t) -> In p ps ->
     exists m' ps' p', In (m', ps') (t_groups (f t)) /\ In p' ps' /\ p_id p' = p_id p) ->
  has_id l id -> has_id (set_nth i f l) id.
Proof.
  intros i f l id Hf H. apply has_id_inv in H as (t & m & ps & p & H1 & H2 & H3 & <-).
  destruct (set_nth_fwd _ i f l t H1) as [K|[K1 K2]].
  - eapply has_id_group; eauto.
  - destruct (Hf t m ps p K1 H2 H3) as (m' & ps' & p' & X1 & X2 & <-). eapply has_id_group; eauto.
Qed.

Lemma has_id_map : forall (f : strct -> strct) (l : list strct) (id : N),
  (forall t m ps p, In (m, ps) (t_groups t) -> In p ps -> p_id p = id ->
     exists m' ps' p', In (m', ps') (t_groups (f t)) /\ In p' ps' /\ p_id p' = p_id p) ->
  has_id l id -> has_id (map f l) id.
Proof.
  intros f l id Hf H. apply has_id_inv in H as (t & m & ps & p & H1 & H2 & H3 & <-).
  destruct (Hf t m ps p H2 H3 eq_refl) as (m' & ps' & p' & X1 & X2 & <-). eapply has_id_group; eauto. apply in_map. auto.
Qed.

Lemma add_psub_new : forall (m : N) (p : psub) (l : list (N * list psub)), exists ps, In (m, ps) (add_psub m p l) /\ In p ps.
Proof.
  intros m p l. induction l as [|g l (ps & IH1 & IH2)]; cbn [add_psub].
  - exists [p]. split; left; auto.
  - destruct (N.eqb_spec (fst g) m) as [<-|E].
    + eexists. split; [left; reflexivity|]. apply in_or_app. right. left. auto.
    + exists ps. split; [right|]; auto.
Qed.

Lemma add_psub_old : forall (m : N) (p : psub) (l : list (N * list psub)) (m' : N) (ps : list psub) (q : psub), In (m', ps) l -> In q ps ->
  exists ps', In (m', ps') (add_psub m p l) /\ In q ps'.
Proof.
  intros m p l m' ps q. induction l as [|g l IH]; intros H Hq; [destruct H|]. cbn [add_psub]. destruct H as [->|H].
  - cbn [fst snd]. destruct (N.eqb m' m).
    + eexists. split; [left; reflexivity|]. apply in_or_app. auto.
    + exists ps. split; [left|]; auto.
  - destruct (IH H Hq) as (ps' & X1 & X2). destruct (N.eqb (fst g) m).
    + exists ps. split; [right|]; auto.
    + exists ps'. split; [right|]; auto.
Qed.

Lemma owned_frame : forall (s s' : st), frame s s' -> owned s -> owned s'.
Proof.
  intros s s' (F1 & _ & F3 & _) H c Hc. rewrite F3. symmetry in F1. destruct (in_key _ _ _ F1 Hc) as (c0 & Hc0 & E).
  assert (E1 : c_id c0 = c_id c) by (unfold key in E; congruence). rewrite <- E1. auto.
Qed.

Lemma exec_owned : forall (sel : path -> N -> bool) (s s' : st) (e : event), invA (polls s) s -> owned s -> exec sel s e = Some s' -> owned s'.
Proof.
  intros sel s s' e I O. destruct e as [n|o|t|m p fl| |i m p valid diff ev|i id|i id b|i ev]; cbn [exec].
  - intros H; injection H as <-. exact O.
  - intros H; injection H as <-. exact O.
  - intros H; injection H as <-. exact O.
  - intros H; injection H as <-. intros c Hc. cbn [set_strs s_strs]. apply has_id_map; [|apply O; auto].
    intros t m' ps q H1 H2 _. exists m', ps, q. split; auto. unfold get_changed.
    match goal with |- context [if ?b then _ else _] => destruct b end; auto.
  - intros H; injection H as <-. intros c Hc. cbn [set_caches s_caches s_strs] in *. apply in_map_iff in Hc as (c0 & <- & Hc).
    apply (O c0); auto.
  - unfold poll_add. set (b := (i <? length (s_strs s))%nat).
    set (strs := if b then s_strs s else s_strs s ++ [Strct [] true None]).
    destruct (nth_error strs i) as [t|] eqn:Et; [|intros H; injection H as <-; auto].
    destruct (valid =? 0); [intros H; injection H as <-; auto|].
    destruct (cache_add (s_caches s) (s_next s) m p) as [cs|] eqn:Ec; [|intros H; injection H as <-; auto].
    set (q := PSub (s_next s) p valid diff false).
    assert (I1 : invA ((m, q) :: polls s) (St (s_mono s) (s_now s) (s_oper s) (s_log s) (s_gets s) cs strs (s_next s + 1))).
    { apply invA_new; auto. }
    assert (Hg : forall x, In x (gpolls (add_psub m q (t_groups t))) -> In x ((m, q) :: polls s)).
    { intros x Hx. apply add_psub_in in Hx as [->|Hx]; [left; auto|]. right. rewrite polls_eq.
      apply (in_app_strs (s_strs s) b). fold strs. apply tpolls_in. exists t. split; auto. eapply nth_error_In; eauto. }
    pose proof (poll_groups_frame sel ev (match rev (add_psub m q (t_groups t)) with [] => [] | g :: _ => [g] end)
      ((m, q) :: polls s) _ None I1 (fun x Hx => Hg x (last_group _ x Hx))) as F.
    apply cache_add_some in Ec as [-> _].
    assert (Hold : forall c, In c (s_caches s) -> has_id strs (c_id c)).
    { intros c Hc. destruct (O c Hc) as (m' & p' & X1 & X2). exists m', p'. split; auto. unfold strs.
      apply tpolls_in in X1 as (t' & Ht' & X1). apply tpolls_in. exists t'. split; auto. destruct b; auto. apply in_or_app. auto. }
    assert (Hk : forall s2, frame (St (s_mono s) (s_now s) (s_oper s) (s_log s) (s_gets s)
        (s_caches s ++ [Cache (s_next s) m p [] ts_zero []]) strs (s_next s + 1)) s2 ->
        forall c, In c (s_caches s2) -> c_id c = s_next s \/ has_id strs (c_id c)).
    { intros s2 (F1 & _) c Hc. symmetry in F1. destruct (in_key _ _ _ F1 Hc) as (c0 & Hc0 & E). cbn [s_caches] in Hc0.
      assert (E1 : c_id c0 = c_id c) by (unfold key in E; congruence). rewrite <- E1.
      apply in_app_or in Hc0 as [Hc0|[<-|[]]]; [right; auto|left; auto]. }
    destruct (poll_groups _ _ _ _ _) as [s2 w2|s2 to|]; [| |discriminate]; intros H; injection H as <-.
    + intros c Hc. pose proof F as (F1 & F2 & F3 & F4). cbn [set_strs s_strs s_caches] in *. rewrite F3. cbn [s_strs].
      destruct (Hk s2 F c Hc) as [->|Ho].
      * destruct (add_psub_new m q (t_groups t)) as (ps & X1 & X2). change (s_next s) with (p_id q).
        eapply has_id_group; [exact (set_nth_at _ i (fun t0 => wake_now (s_mono s2) (Strct (add_psub m q (t_groups t)) (t_alive t0) (t_dl t0))) strs t Et)|exact X1|exact X2].
      * apply has_id_set; auto. intros t' m' ps p' K1 K2 K3. rewrite Et in K1. injection K1 as <-. cbn [wake_now t_groups].
        destruct (add_psub_old m q (t_groups t) m' ps p' K2 K3) as (ps' & X1 & X2). eauto 6.
    + pose proof (invA_frame _ _ _ F I1) as [B1 B2 B3].
      destruct (B3 m q (or_introl eq_refl)) as (c1 & Hc1 & E1 & _). cbn [p_id q] in E1.
      intros c Hc. cbn [set_caches s_caches s_strs] in *. apply (cache_del_in _ _ _ _ B1 Hc1 E1) in Hc as [Hc Hne].
      destruct (Hk s2 F c Hc) as [Ho|Ho]; [congruence|]. destruct F as (_ & _ & F3 & _). rewrite F3. exact Ho.
  - destruct (nth_error (s_strs s) i) as [t|] eqn:Et; [|intros H; injection H as <-; auto].
    destruct (existsb _ (t_groups t)) eqn:Ex; [|intros H; injection H as <-; auto]. intros H; injection H as <-.
    apply existsb_exists in Ex as ([m ps] & Hm & Hp). cbn [snd] in Hp. apply existsb_exists in Hp as (p & Hp & Hid).
    apply N.eqb_eq in Hid.
    assert (Hin : In (m, p) (polls s)).
    { rewrite polls_eq. apply tpolls_in. exists t. split; [eapply nth_error_In; eauto|]. apply gpolls_in. eauto. }
    destruct I as [A1 A2 A3]. destruct (A3 m p Hin) as (c1 & Hc1 & E1 & _). rewrite Hid in E1.
    intros c Hc. cbn [set_caches set_strs s_caches s_strs] in *. apply (cache_del_in _ _ _ _ A1 Hc1 E1) in Hc as [Hc Hne].
    apply has_id_map; [|apply O; auto]. intros t' m' ps' p' H1 H2 H3. cbn [t_groups].
    assert (X : In p' (filter (fun p => negb (N.eqb (p_id p) id)) ps')).
    { apply filter_In. split; auto. destruct (N.eqb_spec (p_id p') id); auto. congruence. }
    exists m', (filter (fun p => negb (N.eqb (p_id p) id)) ps'), p'. split; [|auto]. unfold del_psub. apply filter_In. split.
    + apply in_map_iff. exists (m', ps'). auto.
    + cbn [snd]. destruct (filter _ ps'); [destruct X|auto].
  - intros H; injection H as <-. intros c Hc. cbn [set_strs s_strs s_caches] in *. apply has_id_set; [|apply O; auto].
    intros t m ps p K1 K2 K3. cbn [t_groups]. unfold map_psub.
    eexists m, _, (if N.eqb (p_id p) id then PSub (p_id p) (p_path p) (p_valid p) (p_diff p) b else p).
    split; [apply in_map_iff; exists (m, ps); split; [reflexivity|auto]|]. cbn [fst snd]. split.
    + apply in_map_iff. exists p. auto.
    + destruct (N.eqb (p_id p) id); auto.
  - unfold process. destruct (nth_error (s_strs s) i) as [t|] eqn:Et; [|intros H; injection H as <-; auto].
    destruct (t_alive t); cbn [negb]; [|intros H; injection H as <-; auto].
    assert (Hg : forall x, In x (gpolls (t_groups t)) -> In x (polls s)).
    { intros x Hx. rewrite polls_eq. apply tpolls_in. exists t. split; auto. eapply nth_error_In; eauto. }
    pose proof (poll_groups_frame sel ev (t_groups t) (polls s) s (Some ts_zero) I Hg) as F.
    assert (Hn : forall (s2 : st) (a : bool) (d : option Z), frame s s2 ->
      owned (set_strs (set_nth i (fun t => Strct (t_groups t) a d) (s_strs s2)) s2)).
    { intros s2 a d F2 c Hc. cbn [set_strs s_strs s_caches] in *. apply has_id_set; [|apply (owned_frame _ _ F2 O); auto].
      intros t' m ps p K1 K2 K3. exists m, ps, p. auto. }
    destruct (poll_groups _ _ _ _ _) as [s2 w2|s2 [|]|]; [| | |discriminate]; intros H; injection H as <-; auto.
Qed.

Lemma run_owned : forall (sel : path -> N -> bool) (l : list event) (s s' : st), invA (polls s) s -> owned s -> run sel s l = Some s' -> owned s'.
Proof.
  intros sel l. induction l as [|e l IH]; intros s s' I O H; cbn [run] in H; [injection H as <-; auto|].
  pose proof (exec_invA sel s e I) as K. destruct (exec sel s e) as [s1|] eqn:E; [|discriminate].
  apply (IH s1 s'); auto. apply (exec_owned sel s s1 e); auto.
Qed.
