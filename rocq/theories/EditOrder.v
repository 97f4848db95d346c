(** Orders of user-ordered lists after an edit. *)
From Coq Require Import List Bool Arith Lia Sorted Permutation.
From Verif Require Import Edit EditSpec EditProofs EditOps EditSem EditMain EditDiff.
Import ListNotations.

(** ** Lists of values *)
Definition rmv (v : nat) (l : list nat) : list nat := filter (fun y => negb (Nat.eqb y v)) l.
Lemma rmv_notin : forall v l, ~ In v l -> rmv v l = l.
Proof. intros v l H. apply filter_all. intros x Hx. apply negb_true_iff. apply Nat.eqb_neq. intros ->. contradiction. Qed.
Lemma rmv_mid : forall v l r, ~ In v l -> ~ In v r -> rmv v (l ++ v :: r) = l ++ r.
Proof. intros v l r H1 H2. unfold rmv. rewrite filter_app. cbn [filter]. rewrite Nat.eqb_refl. cbn [negb]. fold (rmv v l). fold (rmv v r). rewrite !rmv_notin by assumption. reflexivity. Qed.
Lemma nodup_mid : forall (A : Type) (v : A) l r, NoDup (l ++ v :: r) -> ~ In v l /\ ~ In v r /\ NoDup (l ++ r).
Proof. intros A v l r H. pose proof (NoDup_remove_1 _ _ _ H) as H1. pose proof (NoDup_remove_2 _ _ _ H) as H2. split; [|split; [|exact H1]]; intros X; apply H2; apply in_or_app; [left|right]; exact X. Qed.
Lemma before_mid : forall a x l r, ~ In a l -> before a x (l ++ a :: r) = Some (l ++ x :: a :: r).
Proof. intros a x. induction l as [|y l IH]; intros r H; cbn [app before]; [rewrite Nat.eqb_refl; reflexivity|]. destruct (Nat.eqb_spec y a) as [->|_]; [exfalso; apply H; left; reflexivity|]. rewrite IH; [reflexivity|]. intros X. apply H. right. exact X. Qed.
Lemma after_mid : forall a x l r, ~ In a l -> after a x (l ++ a :: r) = Some (l ++ a :: x :: r).
Proof. intros a x. induction l as [|y l IH]; intros r H; cbn [app after]; [rewrite Nat.eqb_refl; reflexivity|]. destruct (Nat.eqb_spec y a) as [->|_]; [exfalso; apply H; left; reflexivity|]. rewrite IH; [reflexivity|]. intros X. apply H. right. exact X. Qed.
Lemma insert_before_vals : forall a x g g1, insert_before a x g = Some g1 -> before a (dval x) (map dval g) = Some (map dval g1).
Proof.
  intros a x. induction g as [|d t IH]; intros g1 H; [discriminate|]. cbn [insert_before] in H. cbn [map before]. destruct (Nat.eqb (dval d) a); [injection H as <-; reflexivity|]. destruct (insert_before a x t) as [g2|]; [|discriminate]. injection H as <-. cbn [map]. rewrite (IH g2 eq_refl). reflexivity.
Qed.
Lemma insert_after_vals : forall a x g g1, insert_after a x g = Some g1 -> after a (dval x) (map dval g) = Some (map dval g1).
Proof.
  intros a x. induction g as [|d t IH]; intros g1 H; [discriminate|]. cbn [insert_after] in H. cbn [map after]. destruct (Nat.eqb (dval d) a); [injection H as <-; reflexivity|]. destruct (insert_after a x t) as [g2|]; [|discriminate]. injection H as <-. cbn [map]. rewrite (IH g2 eq_refl). reflexivity.
Qed.

(** Replacing: existing instances are kept where they are only right after the previous one of the edit,
    others are put at the end. *)
Fixpoint prevv (v : nat) (last : option nat) (l : list nat) : option nat :=
  match l with [] => None | y :: t => if Nat.eqb y v then last else prevv v (Some y) t end.
Definition rstep (fr : bool) (ep : option nat) (v : nat) (l : list nat) : list nat :=
  if existsb (Nat.eqb v) l then if fr && negb (onat_eqb (prevv v None l) ep) then rmv v l ++ [v] else l else l ++ [v].
Definition lastn (l : list nat) : option nat := match rev l with x :: _ => Some x | [] => None end.
Fixpoint rsteps (fr : bool) (seen vs l : list nat) : list nat :=
  match vs with [] => l | v :: t => rsteps fr (seen ++ [v]) t (rstep fr (lastn seen) v l) end.

Lemma existsb_in : forall v l, existsb (Nat.eqb v) l = true <-> In v l.
Proof. intros v l. rewrite existsb_exists. split; [intros (x & H & Q); apply Nat.eqb_eq in Q; subst x; exact H|intros H; exists v; split; [exact H|apply Nat.eqb_refl]]. Qed.
Lemma lastn_snoc : forall l x, lastn (l ++ [x]) = Some x.
Proof. intros l x. unfold lastn. rewrite rev_app_distr. reflexivity. Qed.
Lemma lastn_in : forall l x, lastn l = Some x -> In x l.
Proof. intros l x H. destruct l as [|y l'] using rev_ind; [discriminate|]. rewrite lastn_snoc in H. injection H as ->. apply in_or_app. right. left. reflexivity. Qed.
Lemma prevv_mid : forall v l r o, ~ In v l -> prevv v o (l ++ v :: r) = match lastn l with Some x => Some x | None => o end.
Proof.
  intros v. induction l as [|y l IH]; intros r o H; cbn [app prevv].
  - rewrite Nat.eqb_refl. reflexivity.
  - destruct (Nat.eqb_spec y v) as [->|_]; [exfalso; apply H; left; reflexivity|]. rewrite IH by (intros X; apply H; right; exact X). unfold lastn. cbn [rev]. destruct (rev l); reflexivity.
Qed.
Lemma lastn_app : forall a b, lastn (a ++ b) = match lastn b with Some x => Some x | None => lastn a end.
Proof. intros a b. unfold lastn. rewrite rev_app_distr. destruct (rev b); reflexivity. Qed.
Lemma lastn_none : forall l, lastn l = None -> l = [].
Proof. intros l H. destruct l as [|y l'] using rev_ind; [reflexivity|]. rewrite lastn_snoc in H. discriminate. Qed.

Lemma rsteps_fr : forall rest done l,
  NoDup (done ++ rest) -> (exists a u b, l = a ++ u ++ b /\ done = a ++ b /\ NoDup l /\ (forall x, In x u -> In x rest)) -> rsteps true done rest l = done ++ rest.
Proof.
  induction rest as [|v rest IH]; intros done l N (a & u & b & -> & -> & Nl & Hu).
  - destruct u as [|x u]; [cbn [rsteps app]; rewrite app_nil_r; reflexivity|]. exfalso. exact (Hu x (or_introl eq_refl)).
  - cbn [rsteps]. replace ((a ++ b) ++ v :: rest) with (((a ++ b) ++ [v]) ++ rest) in * by (rewrite <- app_assoc; reflexivity).
    apply IH; [exact N|]. clear IH.
    assert (Nv : ~ In v (a ++ b)).
    { intros X. rewrite <- app_assoc in N. cbn [app] in N. apply nodup_mid in N. destruct N as (N & _). contradiction. }
    assert (Hu' : forall x, In x u -> x <> v -> In x rest) by (intros x Hx Nx; destruct (Hu x Hx) as [->|X]; [congruence|exact X]).
    unfold rstep. destruct (existsb (Nat.eqb v) (a ++ u ++ b)) eqn:Ex.
    + apply existsb_in in Ex. assert (Vu : In v u) by (rewrite !in_app_iff in *; tauto). apply in_split in Vu. destruct Vu as (u1 & u2 & ->).
      assert (El : a ++ (u1 ++ v :: u2) ++ b = (a ++ u1) ++ v :: (u2 ++ b)) by (rewrite <- !app_assoc; reflexivity). rewrite El in *. clear Ex.
      destruct (nodup_mid _ _ _ _ Nl) as (N1 & N2 & N3). rewrite (prevv_mid v _ _ None N1). rewrite (rmv_mid v _ _ N1 N2).
      assert (Hin : forall x, In x (u1 ++ u2) -> In x rest).
      { intros x Hx. apply Hu'; [rewrite in_app_iff in *; cbn; tauto|]. intros ->. rewrite in_app_iff in Hx. destruct Hx as [Hx|Hx]; [apply N1|apply N2]; apply in_or_app; [right|left]; exact Hx. }
      assert (Mv : exists a' u' b', (a ++ u1) ++ (u2 ++ b) ++ [v] = a' ++ u' ++ b' /\ (a ++ b) ++ [v] = a' ++ b' /\ NoDup ((a ++ u1) ++ (u2 ++ b) ++ [v]) /\ (forall x, In x u' -> In x rest)).
      { exists a, (u1 ++ u2), (b ++ [v]). split; [rewrite <- !app_assoc; reflexivity|]. split; [rewrite <- app_assoc; reflexivity|]. split; [|exact Hin].
        rewrite app_assoc. apply (Permutation_NoDup (l := v :: (a ++ u1) ++ u2 ++ b)); [apply Permutation_cons_append|]. constructor; [|exact N3]. rewrite in_app_iff. tauto. }
      cbn [andb]. destruct (onat_eqb _ _) eqn:Q; cbn [negb]; [|rewrite <- app_assoc; exact Mv].
      apply onat_eq in Q.
      (* right after the previous one *)
      destruct u1 as [|y u1'] using rev_ind.
      * rewrite app_nil_r in *. destruct b as [|z b'] using rev_ind.
        -- exists (a ++ [v]), u2, []. rewrite !app_nil_r. split; [rewrite <- app_assoc; reflexivity|]. split; [reflexivity|]. split; [rewrite app_nil_r in Nl; exact Nl|]. intros x Hx. apply Hin. exact Hx.
        -- exfalso. clear IHb'. rewrite app_assoc, lastn_snoc in Q. assert (Z : In z a) by (destruct (lastn a) as [w|] eqn:La; [injection Q as ->; apply lastn_in; exact La|discriminate]).
           clear - N3 Z. apply in_split in Z. destruct Z as (a1 & a2 & ->). rewrite <- app_assoc in N3. cbn [app] in N3. apply nodup_mid in N3. destruct N3 as (_ & N3 & _). apply N3. rewrite !in_app_iff. cbn. tauto.
      * exfalso. clear IHu1'. rewrite app_assoc, lastn_snoc in Q. symmetry in Q. apply lastn_in in Q. clear - N3 Q. rewrite <- !app_assoc in N3. cbn [app] in N3. rewrite app_assoc in N3. apply nodup_mid in N3. destruct N3 as (Na & Nb & _). rewrite in_app_iff in *. tauto.
    + assert (Nv' : ~ In v (a ++ u ++ b)) by (intros X; apply existsb_in in X; congruence).
      exists a, u, (b ++ [v]). split; [rewrite <- !app_assoc; reflexivity|]. split; [rewrite <- app_assoc; reflexivity|]. split.
      * apply (Permutation_NoDup (l := v :: a ++ u ++ b)); [apply Permutation_cons_append|]. constructor; assumption.
      * intros x Hx. apply Hu'; [exact Hx|]. intros ->. apply Nv'. rewrite !in_app_iff. tauto.
Qed.
Lemma rsteps_new : forall fr rest done, NoDup (done ++ rest) -> rsteps fr done rest done = done ++ rest.
Proof.
  intros fr. induction rest as [|v rest IH]; intros done N; cbn [rsteps]; [rewrite app_nil_r; reflexivity|].
  assert (Nv : ~ In v done) by (apply nodup_mid in N; apply N). unfold rstep. destruct (existsb (Nat.eqb v) done) eqn:Ex; [apply existsb_in in Ex; contradiction|].
  rewrite IH; rewrite <- app_assoc; [reflexivity|exact N].
Qed.

Section P.
Variable kd : nat -> kind.
Notation it := (is_it kd).
Notation key := (EditSpec.key kd).
Notation ident := (EditSpec.ident kd).
Notation eident := (EditSpec.eident kd).
Notation wfg := (wfg kd).

(** ** One node *)
Lemma prev_vals : forall s v g o, userord (kd s) = true -> prev_of (it s v) o g = prevv v o (map dval g).
Proof.
  intros s v g o U. revert o. assert (I := inst_userord kd s U). induction g as [|d t IH]; intros o; [reflexivity|]. cbn [prev_of prevv map]. unfold is_it at 1. rewrite I. destruct (Nat.eqb (dval d) v); [reflexivity|apply IH].
Qed.
Lemma find_vals : forall s v g, userord (kd s) = true -> (exists d, find (it s v) g = Some d) <-> In v (map dval g).
Proof.
  intros s v g U. assert (I := inst_userord kd s U). split.
  - intros (d & H). apply find_some in H. destruct H as (Hd & Q). unfold is_it in Q. rewrite I in Q. apply Nat.eqb_eq in Q. subst v. apply in_map. exact Hd.
  - intros H. apply in_map_iff in H. destruct H as (d & Q & Hd). destruct (find (it s v) g) as [x|] eqn:Fx; [exists x; reflexivity|]. exfalso. assert (Z := find_none _ _ Fx d Hd). unfold is_it in Z. rewrite I, Q, Nat.eqb_refl in Z. discriminate.
Qed.
Lemma remove_vals : forall s v g, wfg s g -> userord (kd s) = true -> map dval (remove_first (it s v) g) = rmv v (map dval g).
Proof.
  intros s v g W U. destruct (find (it s v) g) as [d|] eqn:Fd.
  - destruct (find_decomp _ _ _ Fd) as (l & r & -> & Fl & Id). rewrite (remove_split _ _ _ _ Fl Id). pose proof (wfg_vals kd s _ W U) as N. assert (Vd := find_inst kd s v _ d (inst_userord kd s U) Fd). rewrite !map_app in *. cbn [map] in *. rewrite Vd in *. apply nodup_mid in N. rewrite rmv_mid by apply N. reflexivity.
  - assert (X : ~ In v (map dval g)) by (intros X; apply (find_vals s v g U) in X; destruct X as (d & X); congruence). rewrite rmv_notin by exact X. f_equal. clear - Fd. induction g as [|d t IH]; [reflexivity|]. cbn [find remove_first] in *. destruct (it s v d); [discriminate|]. f_equal. apply IH. exact Fd.
Qed.
Lemma update_vals : forall (p : dnode -> bool) f g, (forall d, dval (f d) = dval d) -> map dval (update_first p f g) = map dval g.
Proof. intros p f g H. induction g as [|d t IH]; [reflexivity|]. cbn [update_first]. destruct (p d); cbn [map]; [rewrite H; reflexivity|rewrite IH; reflexivity]. Qed.
Lemma insert_vals : forall i x g g1, edit_insert i x g = Some g1 -> ~ In (dval x) (map dval g) -> place i (dval x) (map dval g) = Some (map dval g1).
Proof.
  intros i x g g1 H N. unfold place. fold (rmv (dval x) (map dval g)). rewrite (rmv_notin _ _ N). destruct i as [| | |[a|]|[a|]]; cbn [edit_insert] in H; try discriminate.
  - injection H as <-. destruct (existsb (Nat.eqb (dval x)) (map dval g)) eqn:Ex; [apply existsb_in in Ex; contradiction|]. rewrite map_app. reflexivity.
  - injection H as <-. reflexivity.
  - injection H as <-. rewrite map_app. reflexivity.
  - apply insert_before_vals. exact H.
  - apply insert_after_vals. exact H.
Qed.

(** Kept in place or moved. *)
Lemma loop_uo : forall s v i fr fd orph g d op x veq, userord (kd s) = true -> wfg s g -> find (it s v) g = Some d -> op = Merge \/ op = Replace -> orph = false ->
  op_loop kd s v false i orph veq 5 (OOp op) (mkst g (Some d) None fr fd false false false) = ROk x ->
  if veq then st_g x = g else edit_insert i d (remove_first (it s v) g) = Some (st_g x).
Proof.
  intros s v i fr fd orph g d op x veq U W Fd Hop Or H. subst orph.
  assert (B : ddflt d = false).
  { apply find_some in Fd. destruct Fd as (Hd & _). destruct W as (Wa & _ & Ww). pose proof (proj1 (Forall_forall _ _) Wa d Hd) as Sd. pose proof (proj1 (Forall_forall _ _) Ww d Hd) as Wd. destruct d as [s' v' b ch]. cbn in Sd. subst s'. apply wfd_all in Wd. destruct Wd as (_ & Wb & _). cbn. destruct b; [|reflexivity]. rewrite (Wb eq_refl) in U. discriminate. }
  destruct veq.
  - destruct Hop as [->| ->]; cbn [op_loop step_op apply_merge apply_replace st_m negb set_r] in H.
    + rewrite B in H. cbn [Bool.eqb negb] in H. rewrite andb_false_r in H. cbn [op_loop step_op apply_none st_m] in H. destruct (kd s); injection H as <-; reflexivity.
    + cbn [op_loop step_op apply_none st_m set_r] in H. destruct (kd s); injection H as <-; reflexivity.
  - destruct Hop as [->| ->]; cbn [op_loop step_op apply_merge apply_replace st_m negb] in H; destruct (kd s) as [np| |uo|uo]; try discriminate U; cbn [userord] in U; subst uo; cbn [userord op_loop step_op] in H; unfold apply_move, set_r in H; cbn [st_m st_g] in H;
      (destruct (edit_insert i d (remove_first (it s v) g)) as [g1|]; [|discriminate]); injection H as <-; reflexivity.
Qed.

Lemma next_mid : forall s l d r, find (it s (dval d)) l = None -> next_of (it s (dval d)) (l ++ d :: r) = match r with x :: _ => Some (dval x) | [] => None end.
Proof.
  intros s l d r F. induction l as [|y l IH]; cbn [app next_of].
  - replace (it s (dval d) d) with true by (symmetry; apply it_key; reflexivity). destruct r; reflexivity.
  - cbn [find] in F. destruct (it s (dval d) y); [discriminate|]. apply IH. exact F.
Qed.
Lemma kept_place : forall s v i ep g d, userord (kd s) = true -> wfg s g -> find (it s v) g = Some d -> is_moved kd false i ep s v g = Some false -> place i v (map dval g) = Some (map dval g).
Proof.
  intros s v i ep g d U W Fd M. assert (Vd := find_inst kd s v g d (inst_userord kd s U) Fd). subst v. destruct (find_decomp _ _ _ Fd) as (l & r & -> & Fl & Id).
  pose proof (wfg_vals kd s _ W U) as N. rewrite map_app in N. cbn [map] in N. pose proof (nodup_mid _ _ _ _ N) as (N1 & N2 & N3).
  assert (Pv := prev_split _ l d r None Fl Id). assert (Nx := next_mid s l d r Fl).
  unfold place. fold (rmv (dval d) (map dval (l ++ d :: r))). rewrite map_app. cbn [map]. rewrite (rmv_mid _ _ _ N1 N2).
  unfold is_moved in M. rewrite Pv, Nx in M. destruct i as [| | |[a|]|[a|]]; try discriminate.
  - replace (existsb (Nat.eqb (dval d)) (map dval l ++ dval d :: map dval r)) with true; [reflexivity|]. symmetry. apply existsb_in. apply in_or_app. right. left. reflexivity.
  - injection M as M. apply negb_false_iff in M. apply onat_eq in M. destruct l as [|y l'] using rev_ind; [reflexivity|]. unfold lastv in M. rewrite rev_app_distr in M. discriminate.
  - injection M as M. apply negb_false_iff in M. apply onat_eq in M. destruct r; [|discriminate]. cbn [map]. rewrite app_nil_r. reflexivity.
  - destruct (existsb (fun x => Nat.eqb (dval x) a) (l ++ d :: r)); [|discriminate]. injection M as M. apply negb_false_iff in M. apply onat_eq in M. destruct r as [|y r]; [discriminate|]. injection M as <-. cbn [map] in *. apply before_mid. clear - N3. apply nodup_mid in N3. apply N3.
  - destruct (existsb (fun x => Nat.eqb (dval x) a) (l ++ d :: r)); [|discriminate]. injection M as M. apply negb_false_iff in M. apply onat_eq in M. destruct l as [|y l'] using rev_ind; [discriminate|]. clear IHl'. unfold lastv in M. rewrite rev_app_distr in M. cbn in M. injection M as <-. rewrite map_app in *. cbn [map] in *. rewrite <- !app_assoc in *. cbn [app] in *. apply after_mid. clear - N3. apply nodup_mid in N3. apply N3.
Qed.
Lemma moved_place : forall s v i g d g1, userord (kd s) = true -> wfg s g -> find (it s v) g = Some d -> i <> IDefault -> edit_insert i d (remove_first (it s v) g) = Some g1 -> place i v (map dval g) = Some (map dval g1).
Proof.
  intros s v i g d g1 U W Fd Ni H. assert (Vd := find_inst kd s v g d (inst_userord kd s U) Fd). transitivity (place i (dval d) (map dval g)); [rewrite Vd; reflexivity|].
  assert (Hn : ~ In (dval d) (map dval (remove_first (it s v) g))). { rewrite Vd, (remove_vals s v g W U). intros X. apply filter_In in X. destruct X as (_ & X). rewrite Nat.eqb_refl in X. discriminate. }
  rewrite <- (insert_vals i d _ g1 H Hn). rewrite (remove_vals s v g W U). unfold place. fold (rmv (dval d) (rmv v (map dval g))). fold (rmv (dval d) (map dval g)). rewrite Vd.
  replace (rmv v (rmv v (map dval g))) with (rmv v (map dval g)) by (unfold rmv; rewrite filter_filter; apply filter_ext; intros; rewrite andb_diag; reflexivity).
  destruct i as [| | |[a|]|[a|]]; try reflexivity; try congruence; discriminate.
Qed.

(** The order of instances after one edit node. *)
Lemma node_order : forall fr fd orph pop ep s v b own i ch g o op,
  wfe kd (E s v b own i ch) -> wfg s g -> (orph = true -> g = []) -> op <> Purge -> userord (kd s) = true ->
  (match own with Some o => Some o | None => pop end) = Some op ->
  apply_e kd fr fd orph pop ep (E s v b own i ch) g = ROk o -> o_err o = false ->
  (fr = false -> norder op i v (map dval g) = Some (map dval (o_g o))) /\ (writes op = true -> i = IDefault -> map dval (o_g o) = rstep fr ep v (map dval g)).
Proof.
  intros fr fd orph pop ep s v b own i ch g o op We W O NPo U Ho H Er.
  destruct (apply_inv kd fr fd orph pop ep s v b own i ch g o op We W O NPo Ho H Er) as (x & oc & N).
  pose proof We as We'. apply wfe_all in We'. destruct We' as (-> & Hv & _).
  assert (Hg : map dval (o_g o) = if st_del x then map dval (remove_first (it s v) (st_g x)) else map dval (st_g x)).
  { rewrite (n_g _ _ _ _ _ _ _ _ _ _ _ _ _ _ N). destruct (st_del x); [reflexivity|]. destruct (st_m x); [|reflexivity]. apply update_vals. reflexivity. }
  rewrite Hg. clear Hg. destruct (n_loop _ _ _ _ _ _ _ _ _ _ _ _ _ _ N) as (veq & Q & L). pose proof (n_act _ _ _ _ _ _ _ _ _ _ _ _ _ _ N) as A. clear N H Er We.
  remember (find (it s v) g) as m eqn:Em. symmetry in Em.
  assert (Ex : m = None -> ~ In v (map dval g)) by (intros -> X; apply (find_vals s v g U) in X; destruct X as (d & X); congruence).
  assert (Kr : forall d, m = Some d -> (op = Merge \/ op = Replace) -> (fr = false -> place i v (map dval g) = Some (map dval (st_g x))) /\ (i = IDefault -> map dval (st_g x) = rstep fr ep v (map dval g))).
  { intros d -> Hop. assert (Or : orph = false) by (destruct orph; [rewrite (O eq_refl) in Em; discriminate|reflexivity]).
    pose proof (loop_uo s v i fr fd orph g d op x veq U W Em Hop Or L) as Z.
    assert (Qm : exists mv, is_moved kd fr i ep s v g = Some mv /\ veq = negb mv).
    { unfold val_equal in Q. destruct (kd s) as [np| |uo|uo]; try discriminate U; cbn [userord] in U; subst uo; cbn [userord] in Q; (destruct (is_moved kd fr i ep s v g) as [mv|]; [|discriminate]); cbn [option_map] in Q; exists mv; split; congruence. }
    destruct Qm as (mv & Qm & ->). destruct mv; cbn [negb] in Z.
    - (* moved *)
      split.
      + intros ->. apply (moved_place s v i g d (st_g x) U W Em); [|exact Z]. intros ->. cbn [is_moved] in Qm. discriminate.
      + intros ->. cbn [is_moved] in Qm. destruct fr; [|discriminate]. injection Qm as Qm. rewrite (prev_vals s v g None U) in Qm. unfold rstep. rewrite (proj2 (existsb_in v (map dval g))) by (apply (find_vals s v g U); exists d; exact Em). rewrite Qm. cbn [andb].
        cbn [edit_insert] in Z. injection Z as <-. rewrite map_app. cbn [map]. rewrite (remove_vals s v g W U), (find_inst kd s v g d (inst_userord kd s U) Em). reflexivity.
    - rewrite Z. split.
      + intros ->. exact (kept_place s v i ep g d U W Em Qm).
      + intros ->. unfold rstep. rewrite (proj2 (existsb_in v (map dval g))) by (apply (find_vals s v g U); exists d; exact Em). cbn [is_moved] in Qm. destruct fr; [|reflexivity]. injection Qm as Qm. rewrite (prev_vals s v g None U) in Qm. rewrite Qm. reflexivity. }
  assert (Ni : forall g1, m = None -> edit_insert i (D s v false []) g = Some g1 -> place i v (map dval g) = Some (map dval g1) /\ (i = IDefault -> map dval g1 = rstep fr ep v (map dval g))).
  { intros g1 Hm I. split; [apply (insert_vals i (D s v false []) g g1 I); apply Ex; exact Hm|]. intros ->. cbn [edit_insert] in I. injection I as <-. rewrite map_app. cbn [map dval]. unfold rstep. destruct (existsb (Nat.eqb v) (map dval g)) eqn:X; [apply existsb_in in X; exfalso; exact (Ex Hm X)|reflexivity]. }
  destruct A as [op H|op d H1 H2 H3 H4 H5|op H1 H2 H3|op g1 H1 H2 H3 H4|op d g1 H1 H2 H3 H4 H5|op d H1 H2 H3|op d H1 H2 H3 H4|op d H];
    cbn [st_r st_d st_m st_del st_dn st_g st_chg] in *.
  - split; [|destruct H as [->| ->]; discriminate]. intros _. destruct H as [->| ->]; unfold norder; cbn [writes]; [reflexivity|]. f_equal. apply (rmv_notin v). apply Ex. reflexivity.
  - destruct op; try congruence; unfold norder; cbn [writes]; try (split; [reflexivity|discriminate]).
    + destruct (Kr d eq_refl (or_introl eq_refl)) as (A1 & A2). split; [exact A1|intros _; exact A2].
    + destruct (Kr d eq_refl (or_intror eq_refl)) as (A1 & A2). split; [exact A1|intros _; exact A2].
    + exfalso. specialize (H4 eq_refl). destruct (kd s); discriminate.
  - congruence.
  - destruct (Ni g1 eq_refl H4) as (A1 & A2). unfold norder. replace (writes op) with true by (destruct H1 as [->|[->| ->]]; reflexivity). split; [intros _; exact A1|intros _; exact A2].
  - destruct (Kr d eq_refl H1) as (A1 & A2). unfold norder. replace (writes op) with true by (destruct H1 as [->| ->]; reflexivity). split; [exact A1|intros _; exact A2].
  - rewrite H2 in U. discriminate.
  - rewrite H2 in U. discriminate.
  - rewrite (remove_vals s v g W U). split; [|destruct H as [->|(-> & _)]; discriminate]. intros _. destruct H as [->|(-> & _)]; reflexivity.
Qed.

(** ** Siblings *)
Notation fold fr fd orph pop := (fold_edits (fun ep c g => apply_e kd fr fd orph pop ep c g)).
Lemma order_put_same : forall s g ds, all_s s g -> order s (put s g ds) = map dval g.
Proof. intros s g ds H. unfold order. rewrite grp_put_same by exact H. reflexivity. Qed.
Lemma order_put_other : forall s s' g ds, s <> s' -> all_s s' g -> order s (put s' g ds) = order s ds.
Proof. intros s s' g ds N H. unfold order. rewrite grp_put_other by assumption. reflexivity. Qed.

Lemma fold_inv : forall fr fd orph pop c t seen ds o, fold fr fd orph pop seen (c :: t) ds = ROk o -> o_err o = false ->
  exists o1 o2, apply_e kd fr fd orph pop (last_einst (esch c) seen) c (grp (esch c) ds) = ROk o1 /\ o_err o1 = false /\
    fold fr fd orph pop (seen ++ [c]) t (put (esch c) (o_g o1) ds) = ROk o2 /\ o_err o2 = false /\ o_g o = o_g o2.
Proof.
  intros fr fd orph pop c t seen ds o H Er. cbn [fold_edits] in H.
  destruct (apply_e kd fr fd orph pop (last_einst (esch c) seen) c (grp (esch c) ds)) as [o1| |]; try discriminate.
  destruct (fold_edits _ (seen ++ [c]) t (put (esch c) (o_g o1) ds)) as [o2| |] eqn:B; try discriminate. injection H as <-. cbn [o_g o_err] in *. apply orb_false_iff in Er. destruct Er as (Er1 & Er2).
  exists o1, o2. auto 6.
Qed.

Lemma step_order : forall fr fd orph pop ep e g o,
  wfe kd e -> wfg (esch e) g -> (orph = true -> g = []) -> pop <> Some Purge -> userord (kd (esch e)) = true ->
  apply_e kd fr fd orph pop ep e g = ROk o -> o_err o = false ->
  exists op, eff pop e = Some op /\ (fr = false -> norder op (eins e) (eval e) (map dval g) = Some (map dval (o_g o))) /\
    (writes op = true -> eins e = IDefault -> map dval (o_g o) = rstep fr ep (eval e) (map dval g)).
Proof.
  intros fr fd orph pop ep e g o We W O NP U H Er. destruct (p15 kd e fr fd orph pop ep g o We W O NP H Er) as (_ & _ & r & _ & _ & Hp & _).
  destruct e as [s v b own i ch]. unfold eff. cbn [esch eval eown eins] in *.
  destruct (match own with Some o => Some o | None => pop end) as [op|] eqn:Ho; [|cbn [apply_e] in H; rewrite Ho in H; discriminate].
  exists op. split; [reflexivity|]. destruct (purges_dec (E s v b own i ch)) as [P|P].
  - destruct (Hp P) as (_ & ->). unfold purges in P. cbn [eown] in P. subst own. injection Ho as <-. split; [reflexivity|discriminate].
  - assert (NPo : op <> Purge) by (intros ->; destruct own as [o0|]; [injection Ho as ->; apply P; reflexivity|congruence]).
    exact (node_order fr fd orph pop ep s v b own i ch g o op We W O NPo U Ho H Er).
Qed.

Lemma fold_order : forall s fd orph pop es, userord (kd s) = true -> pop <> Some Purge -> Forall (wfe kd) es -> forall seen ds o,
  wf_data kd ds -> (orph = true -> ds = []) -> fold false fd orph pop seen es ds = ROk o -> o_err o = false ->
  norders s pop es (order s ds) = Some (order s (o_g o)).
Proof.
  intros s fd orph pop es U NP. induction es as [|c t IH]; intros We seen ds o Wd O H Er.
  - cbn [fold_edits] in H. injection H as <-. reflexivity.
  - inversion We as [|? ? Wc Wt]; subst. destruct (fold_inv _ _ _ _ _ _ _ _ _ H Er) as (o1 & o2 & A & E1 & B & E2 & ->). clear H Er.
    destruct (p15 kd c _ _ _ _ _ _ _ Wc (wf_grp kd ds (esch c) Wd) (fun X => f_equal (grp (esch c)) (O X)) NP A E1) as (G1 & G2 & _).
    pose proof (IH Wt _ _ o2 (wf_put kd _ _ _ Wd G1) (fun X => eq_trans (f_equal2 (put (esch c)) (G2 X) (O X)) eq_refl) B E2) as Z.
    cbn [norders]. destruct (Nat.eqb_spec (esch c) s) as [<-|N].
    + rewrite order_put_same in Z by apply G1. destruct (step_order _ _ _ _ _ _ _ _ Wc (wf_grp kd ds (esch c) Wd) (fun X => f_equal (grp (esch c)) (O X)) NP U A E1) as (op & -> & Q & _). unfold order at 1. rewrite (Q eq_refl). exact Z.
    + rewrite order_put_other in Z; [exact Z|congruence|apply G1].
Qed.

Definition evals (s : nat) (es : list enode) : list nat := map eval (filter (fun e => Nat.eqb (esch e) s) es).
Definition all_written (s : nat) (pop : option eop) (es : list enode) : Prop :=
  forall e, In e es -> esch e = s -> eins e = IDefault /\ exists op, eff pop e = Some op /\ writes op = true.
Lemma evals_cons : forall s c t, evals s (c :: t) = if Nat.eqb (esch c) s then eval c :: evals s t else evals s t.
Proof. intros s c t. unfold evals. cbn [filter]. destruct (Nat.eqb (esch c) s); reflexivity. Qed.
Lemma last_einst_vals : forall s seen, last_einst s seen = lastn (evals s seen).
Proof. intros s seen. unfold last_einst, lastn, evals. rewrite <- map_rev. destruct (rev (filter _ seen)); reflexivity. Qed.
Lemma fold_repl : forall s fr fd orph pop es, userord (kd s) = true -> pop <> Some Purge -> Forall (wfe kd) es -> all_written s pop es -> forall seen ds o,
  wf_data kd ds -> (orph = true -> ds = []) -> fold fr fd orph pop seen es ds = ROk o -> o_err o = false ->
  order s (o_g o) = rsteps fr (evals s seen) (evals s es) (order s ds).
Proof.
  intros s fr fd orph pop es U NP. induction es as [|c t IH]; intros We Aw seen ds o Wd O H Er.
  - cbn [fold_edits] in H. injection H as <-. reflexivity.
  - inversion We as [|? ? Wc Wt]; subst. destruct (fold_inv _ _ _ _ _ _ _ _ _ H Er) as (o1 & o2 & A & E1 & B & E2 & ->). clear H Er.
    destruct (p15 kd c _ _ _ _ _ _ _ Wc (wf_grp kd ds (esch c) Wd) (fun X => f_equal (grp (esch c)) (O X)) NP A E1) as (G1 & G2 & _).
    rewrite (IH Wt (fun e He => Aw e (or_intror He)) _ _ o2 (wf_put kd _ _ _ Wd G1) (fun X => eq_trans (f_equal2 (put (esch c)) (G2 X) (O X)) eq_refl) B E2).
    assert (Es : evals s (seen ++ [c]) = evals s seen ++ evals s [c]) by (unfold evals; rewrite filter_app, map_app; reflexivity). rewrite Es. rewrite (evals_cons s c t), (evals_cons s c []). destruct (Nat.eqb_spec (esch c) s) as [<-|N].
    + cbn [rsteps]. change (evals (esch c) []) with (@nil nat). f_equal. rewrite order_put_same by apply G1. destruct (Aw c (or_introl eq_refl) eq_refl) as (Ai & op' & Ae & Ao).
      destruct (step_order _ _ _ _ _ _ _ _ Wc (wf_grp kd ds (esch c) Wd) (fun X => f_equal (grp (esch c)) (O X)) NP U A E1) as (op & Q1 & _ & Q2). rewrite Q1 in Ae. injection Ae as <-. rewrite last_einst_vals in Q2. exact (Q2 Ao Ai).
    + change (evals s []) with (@nil nat). rewrite app_nil_r. rewrite order_put_other by (congruence || apply G1). reflexivity.
Qed.

Lemma evals_nodup : forall s es, userord (kd s) = true -> NoDup (map eident es) -> NoDup (evals s es).
Proof.
  intros s es U. assert (I := inst_userord kd s U). induction es as [|e t IH]; intros N; [constructor|]. cbn [map] in N. inversion N as [|? ? N1 N2]; subst. unfold evals. cbn [filter]. destruct (Nat.eqb_spec (esch e) s) as [Q|_]; [|apply IH; exact N2]. cbn [map]. constructor; [|apply IH; exact N2].
  intros X. apply in_map_iff in X. destruct X as (e' & Q1 & X). apply filter_In in X. destruct X as (X & Q2). apply Nat.eqb_eq in Q2. apply N1. apply in_map_iff. exists e'. split; [|exact X]. unfold EditSpec.eident. congruence.
Qed.
Lemma level_repl : forall s fr fd orph pop es ds o, userord (kd s) = true -> pop <> Some Purge -> wf_edit kd es -> all_written s pop es ->
  wf_data kd ds -> (orph = true -> ds = []) -> (fr = true /\ (forall d, In d ds -> in_edit kd es d = true) \/ ds = []) -> fold fr fd orph pop [] es ds = ROk o -> o_err o = false ->
  order s (o_g o) = evals s es.
Proof.
  intros s fr fd orph pop es ds o U NP ((Nd & _) & We) Aw Wd O Hd H Er. rewrite (fold_repl s fr fd orph pop es U NP We Aw [] ds o Wd O H Er). pose proof (evals_nodup s es U Nd) as N. change (evals s []) with (@nil nat).
  destruct Hd as [(-> & Hd)| ->].
  - apply (rsteps_fr (evals s es) [] (order s ds)); [exact N|]. exists [], (order s ds), []. rewrite app_nil_r. split; [reflexivity|]. split; [reflexivity|]. split; [exact (wfg_vals kd s _ (wf_grp kd ds s Wd) U)|].
    intros x Hx. apply in_map_iff in Hx. destruct Hx as (d & <- & Hx). apply filter_In in Hx. destruct Hx as (Hx & Q). apply Nat.eqb_eq in Q. specialize (Hd d Hx). apply in_edit_ident in Hd. destruct Hd as (e & He & Qi). unfold EditSpec.eident, EditSpec.ident in Qi. injection Qi as Qs Qk. apply in_map_iff. exists e. split.
    + unfold EditSpec.key in Qk. rewrite Qs, Q, (inst_userord kd s U) in Qk. exact Qk.
    + apply filter_In. split; [exact He|]. apply Nat.eqb_eq. congruence.
  - exact (rsteps_new fr (evals s es) [] N).
Qed.

(** The part of a run about one edit node among its siblings. *)
Lemma fold_member : forall fr fd orph pop es, pop <> Some Purge -> Forall (wfe kd) es -> wf_esibs kd es -> forall seen ds o e,
  wf_data kd ds -> (orph = true -> ds = []) -> fold fr fd orph pop seen es ds = ROk o -> o_err o = false -> In e es -> ~ purges e ->
  exists ep g oe, wfg (esch e) g /\ (orph = true -> g = []) /\ (ds = [] -> find (it (esch e) (eval e)) g = None) /\ apply_e kd fr fd orph pop ep e g = ROk oe /\ o_err oe = false /\
    lk kd (eident e) ds = find (it (esch e) (eval e)) g /\ lk kd (eident e) (o_g o) = find (it (esch e) (eval e)) (o_g oe).
Proof.
  intros fr fd orph pop es NP. induction es as [|c t IH]; intros We (N & U) seen ds o e Wd O H Er He Pe; [destruct He|].
  inversion We as [|? ? Wc Wt]; subst. destruct (fold_inv _ _ _ _ _ _ _ _ _ H Er) as (o1 & o2 & A & E1 & B & E2 & ->). clear H Er.
  destruct (p15 kd c _ _ _ _ _ _ _ Wc (wf_grp kd ds (esch c) Wd) (fun X => f_equal (grp (esch c)) (O X)) NP A E1) as (G1 & G2 & r & _ & _ & _ & R4).
  pose proof (wf_put kd _ _ _ Wd G1) as Wp. assert (Op : orph = true -> put (esch c) (o_g o1) ds = []) by (intros X; exact (eq_trans (f_equal2 (put (esch c)) (G2 X) (O X)) eq_refl)).
  cbn [map] in N. inversion N as [|? ? Nc Nt]; subst.
  assert (Ut : wf_esibs kd t) by (split; [exact Nt|intros a b Ha Hb; apply U; right; assumption]).
  destruct He as [->|He].
  - exists (last_einst (esch e) seen), (grp (esch e) ds), o1. split; [apply wf_grp; exact Wd|]. split; [intros X; rewrite (O X); reflexivity|]. split; [intros ->; reflexivity|]. split; [exact A|]. split; [exact E1|]. split; [apply lk_eident|].
    destruct (fold_sem kd fr fd orph pop t (proj2 (Forall_forall _ _) (fun x _ => p15 kd x)) NP Wt Ut _ _ o2 Wp Op B E2) as (_ & _ & rs & [_ _ F3]).
    rewrite F3.
    + rewrite lk_put_same by (reflexivity || apply G1). unfold EditSpec.eident. apply lk_group. apply G1.
    + intros x Hx X. apply Nc. rewrite <- X. apply in_map. exact Hx.
    + intros x Hx Px X. assert (e = x) by (apply U; [right; exact Hx|left; reflexivity|exact Px|cbn in X; congruence]). subst x. contradiction.
  - destruct (IH Wt Ut _ _ o2 e Wp Op B E2 He Pe) as (ep & g & oe & X1 & X2 & _ & X4 & X5 & X6 & X7). exists ep, g, oe. split; [exact X1|]. split; [exact X2|].
    assert (Z : lk kd (eident e) ds = find (it (esch e) (eval e)) g).
    { rewrite <- X6. symmetry. assert (Ne : eident c <> eident e) by (intros X; apply Nc; rewrite X; apply in_map; exact He).
      assert (NPc : purges c -> esch c <> esch e) by (intros P X; assert (e = c) by (apply U; [left; reflexivity|right; exact He|exact P|congruence]); subst e; apply Nc; apply in_map; exact He).
      destruct (Nat.eq_dec (esch c) (esch e)) as [Q|Q].
      - rewrite lk_put_same by (cbn; congruence || apply G1). rewrite (lk_eident kd e ds). destruct (R4 (fun P => NPc P Q)) as (_ & R5). unfold EditSpec.eident in *. rewrite Q in *. rewrite lk_group by apply G1. apply R5. congruence.
      - apply lk_put_other; [cbn; congruence|apply G1]. }
    split; [intros ->; rewrite <- Z; reflexivity|]. auto.
Qed.

(** ** At a path *)
Lemma eat_mono : forall p inh es x, eat kd p inh true es = Some x -> snd (fst x) = true.
Proof.
  induction p as [|id r IH]; intros inh es x H; cbn [eat] in H; [injection H as <-; reflexivity|].
  destruct (find _ es) as [e|]; [|discriminate]. destruct (eff inh e) as [op|]; [|discriminate]. destruct (deletes op); [discriminate|]. cbn [orb] in H. exact (IH _ _ _ H).
Qed.
Lemma eat_nil : forall p inh repl inh' repl' es', eat kd p inh repl [] = Some (inh', repl', es') -> p = [] /\ es' = [].
Proof. intros [|id r] inh repl inh' repl' es' H; cbn [eat find] in H; [injection H as _ _ <-; split; reflexivity|discriminate]. Qed.
Lemma dat_nil : forall p, dat kd p [] = [].
Proof. intros [|id r]; reflexivity. Qed.

Lemma path_step : forall fr orph pop es ds o id r repl inh' repl' es', pop <> Some Purge -> wf_edit kd es -> wf_data kd ds -> (orph = true -> ds = []) ->
  fold fr false orph pop [] es ds = ROk o -> o_err o = false -> eat kd (id :: r) pop repl es = Some (inh', repl', es') ->
  exists (fr2 orph2 : bool) (op : eop) (ch : list enode) (b : list dnode) (oc : out), Some op <> Some Purge /\ wf_edit kd ch /\ wf_data kd (if fr2 then filter (in_edit kd ch) b else b) /\ (orph2 = true -> b = []) /\
    fold fr2 false orph2 (Some op) [] ch (if fr2 then filter (in_edit kd ch) b else b) = ROk oc /\ o_err oc = false /\
    eat kd r (Some op) (repl || match op with Replace => true | _ => false end) ch = Some (inh', repl', es') /\
    dat kd (id :: r) ds = dat kd r b /\ dat kd (id :: r) (o_g o) = dat kd r (o_g oc) /\
    (fr = true -> fr2 = true) /\ (ds = [] -> b = []) /\ (op = Replace -> fr2 = true \/ b = []) /\ (fr2 = true -> fr = true \/ op = Replace \/ ch = [] /\ b = []).
Proof.
  intros fr orph pop es ds o id r repl inh' repl' es' NP (Ws & We) Wd O H Er Ea. cbn [eat] in Ea.
  destruct (find _ es) as [e|] eqn:Fe; [|discriminate]. apply find_some in Fe. destruct Fe as (He & Qi). apply andb_true_iff in Qi. destruct Qi as (Q1 & Q2). apply Nat.eqb_eq in Q1, Q2. assert (Qi : eident e = id) by (destruct id; cbn in *; unfold EditSpec.eident; congruence). subst id. clear Q1 Q2.
  destruct (eff pop e) as [op|] eqn:Ho; [|discriminate]. destruct (deletes op) eqn:De; [discriminate|].
  assert (NPo : op <> Purge) by (intros ->; discriminate).
  assert (Pe : ~ purges e) by (unfold purges; intros X; unfold eff in Ho; rewrite X in Ho; congruence).
  destruct (fold_member fr false orph pop es NP We Ws [] ds o e Wd O H Er He Pe) as (ep & g & oe & W & Og & Dn & A & E1 & L1 & L2). clear H Er.
  pose proof (proj1 (Forall_forall _ _) We e He) as Wfe. cbn beta in Wfe. destruct e as [s v b own i ch]. cbn [esch eval ech] in *. unfold eff in Ho. cbn [eown] in Ho.
  destruct (apply_inv kd fr false orph pop ep s v b own i ch g oe op Wfe W Og NPo Ho A E1) as (x & oc & N).
  apply wfe_all in Wfe. destruct Wfe as (-> & Hv & Ht & _ & Wc).
  pose proof (n_act _ _ _ _ _ _ _ _ _ _ _ _ _ _ N) as Ac. pose proof (act_ok kd s v i orph fr false g op x W Hv Og Ac) as K.
  destruct (kids_sem kd fr false orph op ep s v i ch g oe x oc (proj2 (Forall_forall _ _) (fun y _ => p15 kd y)) Wc Ht NPo K N) as (C1 & C2 & _).
  destruct (node_out kd fr false orph op ep s v i ch g oe x oc K N C1 C2) as (_ & _ & R3 & _).
  destruct (base_wf kd _ _ _ _ _ K) as (B1 & B2).
  assert (Sd : st_d x = false /\ st_del x = false) by (destruct Ac as [? H|? ? H1|? H1|? ? H1|? ? ? H1|? ? H1|? ? H1|? ? H]; cbn; try (split; reflexivity); exfalso; destruct H as [->|(-> & _)]; discriminate).
  destruct Sd as (Sd & Sdel).
  assert (Bo : base_of (st_m x) = base_of (find (it s v) g)).
  { destruct Ac as [? H|? ? H1|? H1|? ? H1|? ? ? H1|? ? H1|? ? H1|? ? H]; reflexivity. }
  exists (st_r x), (negb (issome (st_m x))), op, ch, (base_of (st_m x)), oc.
  assert (Dr : fst (dropped kd x ch) = if st_r x then filter (in_edit kd ch) (base_of (st_m x)) else base_of (st_m x)) by (unfold dropped; rewrite Sd, orb_false_r; destruct (st_r x); [rewrite drop_fst|]; reflexivity).
  split; [congruence|]. split; [exact Wc|]. split; [destruct (st_r x); [apply wf_data_filter|]; exact B1|]. split; [destruct (st_m x); [discriminate|reflexivity]|].
  pose proof (n_fold _ _ _ _ _ _ _ _ _ _ _ _ _ _ N) as Nf. rewrite Sd, Dr in Nf. split; [exact Nf|]. split; [exact (n_err _ _ _ _ _ _ _ _ _ _ _ _ _ _ N)|]. split; [exact Ea|].
  split; [cbn [dat]; rewrite L1, Bo; destruct (find (it s v) g); cbn [base_of]; [reflexivity|rewrite dat_nil; reflexivity]|].
  split.
  { cbn [dat]. rewrite L2, R3, Sdel. destruct (st_m x) as [d|] eqn:M; [reflexivity|]. cbn [base_of] in Nf. clear - Nf C1 kd Wc NPo N M Sd Dr.
    assert (Z : o_g oc = []).
    { cbn [issome negb] in Nf. destruct (fold_sem kd (st_r x) false true (Some op) ch (proj2 (Forall_forall _ _) (fun y _ => p15 kd y)) ltac:(congruence) (proj2 Wc) (proj1 Wc) [] (if st_r x then filter (in_edit kd ch) [] else []) oc ltac:(destruct (st_r x); apply wf_data_nil) ltac:(intros; destruct (st_r x); reflexivity) Nf (n_err _ _ _ _ _ _ _ _ _ _ _ _ _ _ N)) as (_ & Z & _). apply Z. reflexivity. }
    rewrite Z, dat_nil. reflexivity. }
  assert (Nb : find (it s v) g = None -> base_of (st_m x) = []) by (intros X; rewrite Bo, X; reflexivity).
  split; [intros ->; clear - Ac; destruct Ac as [? H|? ? H1|? H1|? ? H1|? ? ? H1|? ? H1|? ? H1|? ? H]; cbn; try reflexivity; destruct op; reflexivity|].
  split; [intros X; apply Nb; apply Dn; exact X|].
  split.
  - intros ->. clear - Ac Nb De. remember (find (it s v) g) as m. inversion Ac; subst; cbn [st_r st_m base_of]; auto; exfalso; intuition discriminate.
  - intros X. destruct (term (kd s)) eqn:T; [right; right; split; [exact (Ht eq_refl)|exact (B2 eq_refl)]|]. clear - Ac X T. destruct Ac as [? H|? ? H1|? H1|? ? H1|? ? ? H1|? ? H1 H2|? ? H1 H2|? ? H]; cbn [st_r] in X; auto; try (destruct op; auto; fail). rewrite H2 in T. discriminate.
Qed.

Theorem path_order : forall s p orph pop es ds o inh' es', userord (kd s) = true -> pop <> Some Purge -> wf_edit kd es -> wf_data kd ds -> (orph = true -> ds = []) ->
  fold false false orph pop [] es ds = ROk o -> o_err o = false -> eat kd p pop false es = Some (inh', false, es') ->
  norders s inh' es' (order s (dat kd p ds)) = Some (order s (dat kd p (o_g o))).
Proof.
  intros s. induction p as [|id r IH]; intros orph pop es ds o inh' es' U NP We Wd O H Er Ea.
  - cbn [eat] in Ea. injection Ea as <- <-. cbn [dat]. exact (fold_order s false orph pop es U NP (proj2 We) [] ds o Wd O H Er).
  - destruct (path_step false orph pop es ds o id r false inh' false es' NP We Wd O H Er Ea) as (fr2 & orph2 & op & ch & b & oc & P1 & P2 & P3 & P4 & P5 & P6 & P7 & P8 & P9 & _ & P11 & P12 & P13).
    rewrite P8, P9. destruct fr2.
    + destruct (P13 eq_refl) as [X|[->|(-> & ->)]]; [discriminate|apply eat_mono in P7; discriminate|].
      apply eat_nil in P7. destruct P7 as (-> & ->). cbn [fold_edits] in P5. injection P5 as <-. reflexivity.
    + assert (Or : match op with Replace => true | _ => false end = false) by (destruct op; try reflexivity; apply eat_mono in P7; discriminate). rewrite Or in P7. cbn [orb] in P7.
      exact (IH orph2 (Some op) ch b oc inh' es' U P1 P2 P3 P4 P5 P6 P7).
Qed.

Theorem path_repl : forall s p fr orph pop es ds o repl inh' es', userord (kd s) = true -> pop <> Some Purge -> wf_edit kd es -> wf_data kd ds -> (orph = true -> ds = []) ->
  (repl = true -> fr = true \/ ds = []) -> (fr = true -> forall d, In d ds -> in_edit kd es d = true) ->
  fold fr false orph pop [] es ds = ROk o -> o_err o = false -> eat kd p pop repl es = Some (inh', true, es') -> all_written s inh' es' ->
  order s (dat kd p (o_g o)) = evals s es'.
Proof.
  intros s. induction p as [|id r IH]; intros fr orph pop es ds o repl inh' es' U NP We Wd O Hr Hi H Er Ea Aw.
  - cbn [eat] in Ea. injection Ea as <- -> <-. cbn [dat]. apply (level_repl s fr false orph pop es ds o U NP We Aw Wd O); try assumption. destruct (Hr eq_refl) as [->| ->]; auto.
  - destruct (path_step fr orph pop es ds o id r repl inh' true es' NP We Wd O H Er Ea) as (fr2 & orph2 & op & ch & b & oc & P1 & P2 & P3 & P4 & P5 & P6 & P7 & P8 & P9 & P10 & P11 & P12 & _).
    rewrite P9. apply (IH fr2 orph2 (Some op) ch (if fr2 then filter (in_edit kd ch) b else b) oc _ inh' es' U P1 P2 P3) in P7; try assumption.
    + intros X. rewrite (P4 X). destruct fr2; reflexivity.
    + intros X. apply orb_true_iff in X. assert (Z : fr2 = true \/ b = []). { destruct X as [->|X]; [destruct (Hr eq_refl) as [->| ->]; auto|]. destruct op; try discriminate. apply P12. reflexivity. }
      destruct Z as [Z| ->]; [left; exact Z|right; destruct fr2; reflexivity].
    + intros -> d Hd. apply filter_In in Hd. apply Hd.
Qed.
End P.
