(** Playing the changes of a diff does the same as applying the diff. *)
From Coq Require Import List Bool Arith Lia Sorted.
From Verif Require Import Edit EditSpec EditProofs EditDiff ChangeIter ChangeIterSpec ChangeIterProofs.
From Verif Require EditOrder.
Import ListNotations.

Section P.
Variable kd : nat -> kind.
Variable nk : nat -> nat.
Variable kv : nat -> nat -> nat -> nat.
Variable fl : bool.
Notation it := (is_it kd).
Notation key := (EditSpec.key kd).
Notation fv := (fv fl).
Notation play := (play kd fl).
Notation plays := (plays kd fl).
Notation copy_of := (copy_of kd nk kv fl).
Notation rep := (rep kd nk kv).
Notation own_rep := (own_rep kd nk kv).
Notation dapply := (dapply kd).
Notation wfx := (wfx kd).
Notation kseq := (kseq kd nk).

(** Nodes whose change of the default flag is not reported. *)
Fixpoint loud (x : diff) : Prop :=
  match x with
  | F op s v b ov an oan ch => (op = DNone -> term (kd s) = false) /\ (fix all l := match l with [] => True | c :: t => loud c /\ all t end) ch
  end.
Lemma loud_all : forall op s v b ov an oan ch, loud (F op s v b ov an oan ch) <-> (op = DNone -> term (kd s) = false) /\ Forall loud ch.
Proof.
  intros. cbn [loud]. assert (Q : (fix all l := match l with [] => True | c :: t => loud c /\ all t end) ch <-> Forall loud ch).
  { induction ch as [|c t IH]; [split; [constructor|exact (fun _ => Logic.I)]|]. rewrite Forall_cons_iff, <- IH. reflexivity. }
  rewrite Q. reflexivity.
Qed.

Lemma plays_app : forall xs ys c, plays (xs ++ ys) c = match plays xs c with Some c' => plays ys c' | None => None end.
Proof. induction xs as [|x t IH]; intros ys c; [reflexivity|]. cbn [app ChangeIterSpec.plays]. destruct (play x c); [apply IH|reflexivity]. Qed.

(** ** Copies *)
Definition kidsof (od : option dnode) : list dnode := match od with Some d => dch d | None => [] end.
Definition topv (od : option dnode) (k : option nat) : option (nat * bool) :=
  match od with
  | None => None
  | Some d =>
      match k with
      | None => Some (fv (dval d) (ddflt d))
      | Some i => match kd (dsch d) with KList _ => if Nat.ltb i (nk (dsch d)) then Some (fv (kv (dsch d) (dval d) i) false) else None | _ => None end
      end
  end.
Definition ordv (s : nat) (ds : list dnode) : list nat := if userord (kd s) then order s ds else [].

Lemma node_at_nil : forall p, node_at kd p [] = None.
Proof. intros [|id r]; reflexivity. Qed.
Lemma dat_nil : forall p, dat kd p [] = [].
Proof. intros [|id r]; reflexivity. Qed.
Lemma cv_top : forall id k ds, c_val (copy_of ds) ([id], k) = topv (lk kd id ds) k.
Proof. intros id k ds. cbn [ChangeIterSpec.copy_of c_val node_at]. destruct (lk kd id ds) as [d|]; destruct k; reflexivity. Qed.
Lemma cv_sub : forall id r k ds, r <> [] -> c_val (copy_of ds) (id :: r, k) = c_val (copy_of (kidsof (lk kd id ds))) (r, k).
Proof.
  intros id r k ds N. cbn [ChangeIterSpec.copy_of c_val]. assert (Q : node_at kd (id :: r) ds = node_at kd r (kidsof (lk kd id ds))).
  { cbn [node_at]. destruct (lk kd id ds) as [d|]; cbn [kidsof]; [destruct r; [congruence|reflexivity]|rewrite node_at_nil; reflexivity]. }
  rewrite Q. reflexivity.
Qed.
Lemma co_sub : forall id r s ds, c_ord (copy_of ds) (id :: r) s = c_ord (copy_of (kidsof (lk kd id ds))) r s.
Proof. intros id r s ds. cbn [ChangeIterSpec.copy_of c_ord dat]. destruct (lk kd id ds) as [d|]; cbn [kidsof]; [reflexivity|rewrite dat_nil; reflexivity]. Qed.

(** The copy is right below a path. *)
Definition agree (p : path) (c : copy) (ds : list dnode) : Prop :=
  (forall r k, r <> [] -> c_val c (p ++ r, k) = c_val (copy_of ds) (r, k)) /\ (forall r s, c_ord c (p ++ r) s = c_ord (copy_of ds) r s).

Lemma agree_iff : forall p c ds, agree p c ds <->
  (forall id, (forall k, c_val c (p ++ [id], k) = topv (lk kd id ds) k) /\ agree (p ++ [id]) c (kidsof (lk kd id ds))) /\ (forall s, c_ord c p s = ordv s ds).
Proof.
  intros p c ds. split.
  - intros (A & B). split.
    + intros id. split; [intros k; rewrite A by discriminate; apply cv_top|]. split.
      * intros r k N. rewrite <- app_assoc. cbn [app]. rewrite A by discriminate. apply cv_sub. exact N.
      * intros r s. rewrite <- app_assoc. cbn [app]. rewrite B. apply co_sub.
    + intros s. specialize (B [] s). rewrite app_nil_r in B. exact B.
  - intros (A & B). split.
    + intros [|id r] k N; [congruence|]. destruct (A id) as (A1 & A2 & _). destruct r as [|id' r]; [rewrite cv_top; apply A1|]. rewrite cv_sub by discriminate. rewrite <- (A2 (id' :: r) k) by discriminate. rewrite <- app_assoc. reflexivity.
    + intros [|id r] s; [rewrite app_nil_r; apply B|]. destruct (A id) as (_ & _ & A3). rewrite co_sub, <- A3, <- app_assoc. reflexivity.
Qed.

(** What is changed: below a path; of one child (with the order of its siblings). *)
Definition below (p : path) (c c' : copy) : Prop :=
  (forall l, (forall r, r <> [] -> fst l <> p ++ r) -> c_val c' l = c_val c l) /\ (forall q s, (forall r, q <> p ++ r) -> c_ord c' q s = c_ord c q s).
Definition child (p q : path) (s : nat) (c c' : copy) : Prop :=
  (forall l, (forall r, fst l <> q ++ r) -> c_val c' l = c_val c l) /\ (forall q' t, (forall r, q' <> q ++ r) -> ~ (q' = p /\ t = s) -> c_ord c' q' t = c_ord c q' t).

Lemma app_ne : forall (p : path) id r, p <> p ++ id :: r.
Proof. intros p id r H. apply (f_equal (@length _)) in H. rewrite app_length in H. cbn [length] in H. lia. Qed.
Lemma child_below : forall p id s c c', child p (p ++ [id]) s c c' -> below p c c'.
Proof.
  intros p id s c c' (A & B). split.
  - intros l N. apply A. intros r. rewrite <- app_assoc. apply N. discriminate.
  - intros q t N. apply B; [intros r; rewrite <- app_assoc; apply N|]. intros (-> & _). apply (N []). rewrite app_nil_r. reflexivity.
Qed.
Lemma below_refl : forall p c, below p c c.
Proof. intros. split; reflexivity. Qed.
Lemma below_trans : forall p a b c, below p a b -> below p b c -> below p a c.
Proof. intros p a b c (A & B) (C & D). split; intros; [rewrite C, A by assumption|rewrite D, B by assumption]; reflexivity. Qed.
Lemma child_trans : forall p q s a b c, child p q s a b -> child p q s b c -> child p q s a c.
Proof. intros p q s a b c (A & B) (C & D). split; intros; [rewrite C, A by assumption|rewrite D, B by assumption]; reflexivity. Qed.
Lemma below_child : forall p q s c c', below q c c' -> child p q s c c'.
Proof. intros p q s c c' (A & B). split; intros; [apply A; intros; auto|apply B; assumption]. Qed.
Lemma below_top : forall q c c' k, below q c c' -> c_val c' (q, k) = c_val c (q, k).
Proof. intros q c c' k (A & _). apply A. intros [|id r] N; [congruence|]. apply app_ne. Qed.
Lemma below_exists : forall p c c', below p c c' -> exists_path p c' = exists_path p c.
Proof. intros p c c' H. unfold exists_path. destruct p; [reflexivity|]. rewrite (below_top _ _ _ _ H). reflexivity. Qed.
Lemma below_ord_above : forall p id c c' s, below (p ++ [id]) c c' -> c_ord c' p s = c_ord c p s.
Proof. intros p id c c' s (_ & B). apply B. intros r. rewrite <- app_assoc. apply app_ne. Qed.

(** The children are right again if the changed one is and others are as they were. *)
Lemma agree_child : forall p id s c c' ds ds', agree p c ds -> child p (p ++ [id]) s c c' ->
  (forall id', id' <> id -> lk kd id' ds' = lk kd id' ds) -> (forall t, t <> s -> ordv t ds' = ordv t ds) ->
  (forall k, c_val c' (p ++ [id], k) = topv (lk kd id ds') k) -> agree (p ++ [id]) c' (kidsof (lk kd id ds')) -> c_ord c' p s = ordv s ds' -> agree p c' ds'.
Proof.
  intros p id s c c' ds ds' A (C1 & C2) L Ot T K Oo. apply agree_iff. apply agree_iff in A. destruct A as (A1 & A2). split.
  - intros id'. destruct (id_dec id' id) as [->|N]; [split; assumption|].
    assert (Ne : forall r r', (p ++ [id']) ++ r <> (p ++ [id]) ++ r') by (intros r r' X; rewrite <- !app_assoc in X; apply app_inv_head in X; cbn [app] in X; congruence).
    destruct (A1 id') as (B1 & B2 & B3). rewrite (L id' N). split; [|split].
    + intros k. rewrite C1; [apply B1|]. intros r. cbn [fst]. specialize (Ne [] r). rewrite app_nil_r in Ne. exact Ne.
    + intros r k Nr. rewrite C1; [apply B2; exact Nr|]. intros r'. apply Ne.
    + intros r t. rewrite C2; [apply B3|intros r'; apply Ne|]. intros (X & _). apply (app_ne p id' r). rewrite <- app_assoc in X. symmetry. exact X.
  - intros t. destruct (Nat.eq_dec t s) as [->|N]; [exact Oo|]. rewrite C2; [rewrite A2, Ot by exact N; reflexivity|intros r; rewrite <- app_assoc; apply app_ne|]. intros (_ & X). contradiction.
Qed.

(** ** Playing single changes *)
Lemma set_val_same : forall l x c, c_val (set_val l x c) l = x.
Proof. intros. cbn [set_val c_val]. destruct (loc_dec l l); congruence. Qed.
Lemma set_val_other : forall l x c m, m <> l -> c_val (set_val l x c) m = c_val c m.
Proof. intros. cbn [set_val c_val]. destruct (loc_dec m l); congruence. Qed.
Lemma fv_eqb_refl : forall x, fv_eqb x x = true.
Proof. intros [v b]. unfold fv_eqb. cbn [fst snd]. rewrite Nat.eqb_refl, eqb_reflx. reflexivity. Qed.
Lemma holds_eq : forall l x c, c_val c l = Some x -> holds l x c = true.
Proof. intros l x c H. unfold holds. rewrite H. apply fv_eqb_refl. Qed.
Lemma parent_key : forall q i, parent (q, Some i) = q.
Proof. reflexivity. Qed.
Lemma parent_node : forall p id, parent (p ++ [id], None) = p.
Proof. intros. cbn [parent]. apply removelast_last. Qed.

(** Keys of a created list instance. *)
Lemma keys_created : forall s v q l c, NoDup l -> exists_path q c = true -> (forall i, In i l -> c_val c (q, Some i) = None) ->
  exists c', plays (map (fun i => CCreated (q, Some i) s (kv s v i) false None) l) c = Some c' /\
    (forall i, In i l -> c_val c' (q, Some i) = Some (fv (kv s v i) false)) /\ (forall m, (forall i, In i l -> m <> (q, Some i)) -> c_val c' m = c_val c m) /\ c_ord c' = c_ord c.
Proof.
  intros s v q. induction l as [|i t IH]; intros c N E K; [exists c; repeat split; intros; contradiction|]. inversion N as [|? ? Ni Nt]; subst.
  cbn [map ChangeIterSpec.plays ChangeIterSpec.play parent uo]. rewrite (K i (or_introl eq_refl)), E. cbn zeta iota.
  set (c1 := set_val (q, Some i) (Some (fv (kv s v i) false)) c).
  assert (E1 : exists_path q c1 = true). { unfold exists_path in *. destruct q as [|id q]; [reflexivity|]. unfold c1. rewrite set_val_other by congruence. exact E. }
  assert (K1 : forall j, In j t -> c_val c1 (q, Some j) = None). { intros j Hj. unfold c1. rewrite set_val_other by (intros X; injection X as ->; contradiction). apply K. right. exact Hj. }
  destruct (IH c1 Nt E1 K1) as (c' & P1 & P2 & P3 & P4). exists c'. split; [exact P1|]. split; [|split].
  - intros j [<-|Hj]; [|apply P2; exact Hj]. rewrite P3 by (intros j Hj X; injection X as ->; contradiction). apply set_val_same.
  - intros m Hm. rewrite P3 by (intros j Hj; apply Hm; right; exact Hj). apply set_val_other. apply Hm. left. reflexivity.
  - rewrite P4. reflexivity.
Qed.
Lemma keys_deleted : forall s v q l c, NoDup l -> (forall i, In i l -> c_val c (q, Some i) = Some (fv (kv s v i) false)) ->
  exists c', plays (map (fun i => CDeleted (q, Some i) s (kv s v i) false) l) c = Some c' /\
    (forall i, In i l -> c_val c' (q, Some i) = None) /\ (forall m, (forall i, In i l -> m <> (q, Some i)) -> c_val c' m = c_val c m) /\ c_ord c' = c_ord c.
Proof.
  intros s v q. induction l as [|i t IH]; intros c N K; [exists c; repeat split; intros; contradiction|]. inversion N as [|? ? Ni Nt]; subst.
  cbn [map ChangeIterSpec.plays ChangeIterSpec.play parent uo]. rewrite (holds_eq _ _ _ (K i (or_introl eq_refl))). cbn zeta iota.
  set (c1 := set_val (q, Some i) None c).
  assert (K1 : forall j, In j t -> c_val c1 (q, Some j) = Some (fv (kv s v j) false)). { intros j Hj. unfold c1. rewrite set_val_other by (intros X; injection X as ->; contradiction). apply K. right. exact Hj. }
  destruct (IH c1 Nt K1) as (c' & P1 & P2 & P3 & P4). exists c'. split; [exact P1|]. split; [|split].
  - intros j [<-|Hj]; [|apply P2; exact Hj]. rewrite P3 by (intros j Hj X; injection X as ->; contradiction). apply set_val_same.
  - intros m Hm. rewrite P3 by (intros j Hj; apply Hm; right; exact Hj). apply set_val_other. apply Hm. left. reflexivity.
  - rewrite P4. reflexivity.
Qed.

(** ** Groups *)
Lemma lk_id : forall s k, (exists v, k = key s v) \/ (forall ds, lk kd (s, k) ds = None).
Proof.
  intros s k. unfold EditSpec.key. destruct (inst (kd s)) eqn:Is; [left; exists k; reflexivity|]. destruct k as [|k]; [left; exists 0; reflexivity|right].
  intros ds. rewrite lk_grp. cbn [fst]. unfold lk. pose proof (grp_all s ds) as A. induction A as [|d t Hd Ht IH]; [reflexivity|]. cbn [find EditSpec.ident fst snd]. rewrite Hd. unfold EditSpec.key. rewrite Is. cbn [Nat.eqb]. rewrite andb_false_r. exact IH.
Qed.
(** Replacing a group where only one instance differs. *)
Lemma put_others : forall s v g ds, all_s s g -> (forall v', key s v' <> key s v -> find (it s v') g = find (it s v') (grp s ds)) ->
  (forall id', id' <> (s, key s v) -> lk kd id' (put s g ds) = lk kd id' ds) /\ (forall t, t <> s -> ordv t (put s g ds) = ordv t ds).
Proof.
  intros s v g ds A H. split.
  - intros (s', k) N. destruct (Nat.eq_dec s' s) as [->|Ns].
    + destruct (lk_id s k) as [(v' & ->)|Q]; [|rewrite !Q; reflexivity]. rewrite !lk_find, grp_put_same by exact A. apply H. congruence.
    + rewrite (lk_grp kd (s', k)), (lk_grp kd (s', k) ds). cbn [fst]. rewrite grp_put_other by assumption. reflexivity.
  - intros t N. unfold ordv, order. rewrite grp_put_other by assumption. reflexivity.
Qed.
Lemma ord_put : forall s g ds, all_s s g -> ordv s (put s g ds) = if userord (kd s) then map dval g else [].
Proof. intros s g ds A. unfold ordv, order. rewrite grp_put_same by exact A. reflexivity. Qed.
Lemma lk_put : forall s v g ds, all_s s g -> lk kd (s, key s v) (put s g ds) = find (it s v) g.
Proof. intros s v g ds A. rewrite lk_find, grp_put_same by exact A. reflexivity. Qed.

Lemma find_mid : forall (f : dnode -> bool) a x b, f x = false -> find f (a ++ x :: b) = find f (a ++ b).
Proof. intros f a x b H. rewrite !find_app1. cbn [find]. rewrite H. reflexivity. Qed.
Lemma find_new : forall (f : dnode -> bool) a x b, f x = true -> find f (a ++ b) = None -> find f (a ++ x :: b) = Some x.
Proof. intros f a x b H N. rewrite find_app1 in *. destruct (find f a); [discriminate|]. cbn [find]. rewrite H. reflexivity. Qed.
Lemma it_refl : forall s v b ch, it s v (D s v b ch) = true.
Proof. intros. apply it_key. reflexivity. Qed.

Lemma insert_at_mid : forall an x g g1, insert_at an x g = Some g1 -> exists a b, g = a ++ b /\ g1 = a ++ x :: b /\ lastv a None = an.
Proof.
  intros [n|] x g g1 H; [|injection H as <-; exists [], g; split; [|split]; reflexivity]. cbn [insert_at] in H. revert g1 H. induction g as [|d t IH]; intros g1 H; [discriminate|]. cbn [insert_after] in H. destruct (Nat.eqb_spec (dval d) n) as [En|En].
  - injection H as <-. exists [d], t. split; [|split]; [reflexivity..|]. cbn. rewrite En. reflexivity.
  - destruct (insert_after n x t) as [t1|] eqn:Q; [|discriminate]. injection H as <-. destruct (IH t1 eq_refl) as (a & b & -> & -> & La). exists (d :: a), b. split; [|split]; [reflexivity..|]. rewrite lastv_cons. unfold lastv in *. destruct (rev a); [discriminate La|exact La].
Qed.
Lemma filter_id : forall v l, ~ In v l -> filter (fun y => negb (Nat.eqb y v)) l = l.
Proof. intros v l H. apply filter_all. intros y Hy. destruct (Nat.eqb_spec y v) as [->|]; [contradiction|reflexivity]. Qed.
Lemma after_insert : forall a x g g1, insert_after a x g = Some g1 -> after a (dval x) (map dval g) = Some (map dval g1).
Proof.
  intros a x. induction g as [|d t IH]; intros g1 H; [discriminate|]. cbn [insert_after map after] in *. destruct (Nat.eqb (dval d) a); [injection H as <-; reflexivity|]. destruct (insert_after a x t) as [t1|]; [|discriminate]. injection H as <-. rewrite (IH t1 eq_refl). reflexivity.
Qed.
Lemma place_insert : forall an x g g1 l, insert_at an x g = Some g1 -> filter (fun y => negb (Nat.eqb y (dval x))) l = map dval g -> place (after_of an) (dval x) l = Some (map dval g1).
Proof.
  intros [a|] x g g1 l H Q; cbn [after_of place insert_at] in *; rewrite Q; [apply after_insert; exact H|injection H as <-; reflexivity].
Qed.
Lemma find_none_notin : forall s v g, inst (kd s) = true -> find (it s v) g = None -> ~ In v (map dval g).
Proof. intros s v g Is H X. apply in_map_iff in X. destruct X as (d & E & Hd). pose proof (find_none _ _ H d Hd) as Z. unfold is_it in Z. rewrite Is in Z. apply Nat.eqb_neq in Z. contradiction. Qed.
Lemma remove_vals : forall s v g, inst (kd s) = true -> NoDup (map dval g) -> map dval (remove_first (it s v) g) = filter (fun y => negb (Nat.eqb y v)) (map dval g).
Proof.
  intros s v g Is. induction g as [|d t IH]; intros N; [reflexivity|]. inversion N as [|? ? Nd Nt]; subst. cbn [remove_first map filter]. unfold is_it at 1. rewrite Is. destruct (Nat.eqb_spec (dval d) v) as [E|E]; cbn [negb].
  - symmetry. apply filter_id. rewrite <- E. exact Nd.
  - cbn [map]. rewrite (IH Nt). reflexivity.
Qed.

(** ** A node and its descendants *)
Definition oknode (x : diff) : Prop := forall nest p c ds g, wf_data kd ds -> agree p c ds -> (fop x = DDelete \/ exists_path p c = true) -> wfx x -> (fl = true -> loud x) ->
  dapply nest x (grp (fsch x) ds) = Some g ->
  exists c', plays (rep p x) c = Some c' /\ agree p c' (put (fsch x) g ds) /\ below p c c' /\ wf_data kd (put (fsch x) g ds).

Lemma oknodes : forall xs, Forall oknode xs -> forall nest p c ds ds', wf_data kd ds -> agree p c ds -> (Forall (fun x => fop x = DDelete) xs \/ exists_path p c = true) ->
  Forall wfx xs -> (fl = true -> Forall loud xs) -> fold_diff (dapply nest) xs ds = Some ds' ->
  exists c', plays (flat_map (rep p) xs) c = Some c' /\ agree p c' ds' /\ below p c c' /\ wf_data kd ds'.
Proof.
  intros xs H. induction H as [|x t Hx Ht IH]; intros nest p c ds ds' W A E X L Fd.
  - cbn [fold_diff] in Fd. injection Fd as <-. exists c. split; [reflexivity|]. split; [exact A|]. split; [apply below_refl|exact W].
  - cbn [fold_diff] in Fd. destruct (dapply nest x (grp (fsch x) ds)) as [g|] eqn:Dx; [|discriminate]. inversion X as [|? ? Xx Xt]; subst.
    assert (Ex : fop x = DDelete \/ exists_path p c = true) by (destruct E as [E|E]; [inversion E; left; assumption|right; exact E]).
    assert (Lx : fl = true -> loud x) by (intros Q; specialize (L Q); inversion L; assumption). assert (Lt : fl = true -> Forall loud t) by (intros Q; specialize (L Q); inversion L; assumption).
    destruct (Hx nest p c ds g W A Ex Xx Lx Dx) as (c1 & P1 & A1 & B1 & W1).
    assert (Et : Forall (fun x => fop x = DDelete) t \/ exists_path p c1 = true) by (rewrite (below_exists _ _ _ B1); destruct E as [E|E]; [inversion E; left; assumption|right; exact E]).
    destruct (IH nest p c1 _ ds' W1 A1 Et Xt Lt Fd) as (c2 & P2 & A2 & B2 & W2).
    exists c2. cbn [flat_map]. rewrite plays_app, P1. split; [exact P2|]. split; [exact A2|]. split; [apply (below_trans _ _ c1); assumption|exact W2].
Qed.

Lemma wfd_all : forall s v b ch, wfd kd (D s v b ch) <-> (match kd s with KCont _ => v = 0 | _ => True end) /\ (b = true -> kd s = KLeaf) /\ (term (kd s) = true -> ch = []) /\ wf_data kd ch.
Proof.
  intros s v b ch. cbn [wfd]. unfold wf_data. assert (Q : (fix all l := match l with [] => True | c :: t => wfd kd c /\ all t end) ch <-> Forall (wfd kd) ch).
  { induction ch as [|c t IH]; [split; [constructor|exact (fun _ => Logic.I)]|]. rewrite Forall_cons_iff, <- IH. reflexivity. }
  rewrite Q. tauto.
Qed.
Lemma wf_data_nil : wf_data kd [].
Proof. split; [split; constructor|constructor]. Qed.
Lemma kseq_nodup : forall s, NoDup (kseq s).
Proof. intros s. unfold ChangeIterProofs.kseq. destruct (kd s); try constructor. apply seq_NoDup. Qed.
Lemma topv_keys : forall d i, (In i (kseq (dsch d)) -> topv (Some d) (Some i) = Some (fv (kv (dsch d) (dval d) i) false)) /\ (~ In i (kseq (dsch d)) -> topv (Some d) (Some i) = None).
Proof.
  intros d i. unfold ChangeIterProofs.kseq. cbn [topv]. destruct (kd (dsch d)); try (split; [intros []|reflexivity]). split; intros H.
  - apply in_seq in H. destruct (Nat.ltb_spec i (nk (dsch d))); [reflexivity|lia].
  - destruct (Nat.ltb_spec i (nk (dsch d))); [|reflexivity]. exfalso. apply H. apply in_seq. lia.
Qed.
Lemma in_kseq_dec : forall i s, {In i (kseq s)} + {~ In i (kseq s)}.
Proof. intros. apply in_dec. apply Nat.eq_dec. Qed.
Lemma ikey_key : forall s v, ikey kd s v = key s v.
Proof. reflexivity. Qed.
Lemma set_val_child : forall p q s k x c, child p q s c (set_val (q, k) x c).
Proof. intros p q s k x c. split; [|reflexivity]. intros l N. apply set_val_other. intros ->. apply (N []). rewrite app_nil_r. reflexivity. Qed.
Lemma set_ord_child : forall p q s x c, child p q s c (set_ord p s x c).
Proof. intros p q s x c. split; [reflexivity|]. intros q' t _ N. cbn [set_ord c_ord]. destruct (path_dec q' p) as [->|]; [|reflexivity]. destruct (Nat.eq_dec t s) as [->|]; [|reflexivity]. exfalso. apply N. split; reflexivity. Qed.
Lemma set_ord_same : forall p s x c, c_ord (set_ord p s x c) p s = x.
Proof. intros. cbn [set_ord c_ord]. destruct (path_dec p p); [|congruence]. destruct (Nat.eq_dec s s); congruence. Qed.
Lemma agree_set_ord : forall p id s x c ds, agree (p ++ [id]) c ds -> agree (p ++ [id]) (set_ord p s x c) ds.
Proof.
  intros p id s x c ds (A & B). split; [exact A|]. intros r t. cbn [set_ord c_ord]. destruct (path_dec ((p ++ [id]) ++ r) p) as [E|]; [|apply B]. exfalso. rewrite <- app_assoc in E. exact (app_ne p id r (eq_sym E)).
Qed.
Lemma agree_vals : forall q c c' ds, agree q c ds -> (forall r k, r <> [] -> c_val c' (q ++ r, k) = c_val c (q ++ r, k)) -> c_ord c' = c_ord c -> agree q c' ds.
Proof. intros q c c' ds (A & B) H E. split; [intros r k N; rewrite H by exact N; apply A; exact N|intros r s; rewrite E; apply B]. Qed.
Lemma exists_set : forall p id x c, exists_path (p ++ [id]) (set_val (p ++ [id], None) (Some x) c) = true.
Proof. intros p id x c. unfold exists_path. destruct (p ++ [id]) eqn:E; [reflexivity|]. rewrite <- E, set_val_same. reflexivity. Qed.

Lemma node_tail : forall op s v b ov an oan ch p c ds g nest c1 od base,
  Forall oknode ch -> Forall wfx ch -> (fl = true -> Forall loud ch) -> agree p c ds ->
  plays (own_rep (p ++ [(s, key s v)]) (F op s v b ov an oan ch)) c = Some c1 ->
  child p (p ++ [(s, key s v)]) s c c1 ->
  (forall k, c_val c1 (p ++ [(s, key s v)], k) = topv od k) ->
  agree (p ++ [(s, key s v)]) c1 base -> wf_data kd base ->
  (Forall (fun x => fop x = DDelete) ch \/ od <> None) ->
  fold_diff (dapply nest) ch base = Some (kidsof od) ->
  c_ord c1 p s = ordv s (put s g ds) ->
  all_s s g -> find (it s v) g = od -> (forall v', key s v' <> key s v -> find (it s v') g = find (it s v') (grp s ds)) ->
  (wf_data kd (kidsof od) -> wf_data kd (put s g ds)) ->
  exists c', plays (rep p (F op s v b ov an oan ch)) c = Some c' /\ agree p c' (put s g ds) /\ below p c c' /\ wf_data kd (put s g ds).
Proof.
  intros op s v b ov an oan ch p c ds g nest c1 od base Ok X L A P1 C1 T1 A1 Wb E Fd Oo Ga Gf Go Wp.
  set (q := p ++ [(s, key s v)]) in *.
  assert (E1 : Forall (fun x => fop x = DDelete) ch \/ exists_path q c1 = true).
  { destruct E as [E|E]; [left; exact E|right]. unfold exists_path. destruct q eqn:Eq; [reflexivity|]. rewrite <- Eq in *. rewrite T1. destruct od as [d|]; [reflexivity|congruence]. }
  destruct (oknodes ch Ok nest q c1 base (kidsof od) Wb A1 E1 X L Fd) as (c2 & P2 & A2 & B2 & W2).
  exists c2. assert (Cc : child p q s c c2) by (apply (child_trans p q s c c1 c2 C1); apply below_child; exact B2).
  split; [|split; [|split; [exact (child_below p _ s c c2 Cc)|apply Wp; exact W2]]].
  - cbn [ChangeIterProofs.rep]. rewrite plays_app. fold (key s v). rewrite ikey_key. fold q. rewrite P1. exact P2.
  - destruct (put_others s v g ds Ga Go) as (Po1 & Po2).
    assert (Lk : lk kd (s, key s v) (put s g ds) = od) by (rewrite lk_put by exact Ga; exact Gf).
    apply (agree_child p (s, key s v) s c c2 ds (put s g ds) A Cc Po1 Po2); rewrite ?Lk.
    + intros k. fold q. rewrite (below_top _ _ _ _ B2). apply T1.
    + exact A2.
    + rewrite (below_ord_above _ _ _ _ s B2). exact Oo.
Qed.

Lemma key_of_it : forall s v d, it s v d = true -> key s (dval d) = key s v.
Proof. intros s v d H. apply it_key. exact H. Qed.

Lemma all_oknode : forall x, oknode x.
Proof.
  intros x. induction x as [op s v b ov an oan ch IH] using diff_ind2. intros nest p c ds g W A E X L H. cbn [fsch fop] in *.
  apply wfx_all in X. destruct X as (X1 & X2 & (Xc & Xb & Xt) & X4).
  assert (Lc : fl = true -> Forall loud ch) by (intros Q; apply (proj1 (loud_all _ _ _ _ _ _ _ _) (L Q))).
  assert (Ln : fl = true -> op = DNone -> term (kd s) = false) by (intros Q; apply (proj1 (loud_all _ _ _ _ _ _ _ _) (L Q))). clear L.
  pose proof (wf_grp kd ds s W) as G. pose proof (proj1 G) as Gs. pose proof (proj2 (proj2 G)) as Gw.
  pose proof (proj1 (agree_iff p c ds) A) as (Ai & Ao). specialize (Ai (s, key s v)). destruct Ai as (At & Aq). rewrite lk_find in At, Aq.
  cbn [EditSpec.dapply] in H.
  set (q := p ++ [(s, key s v)]) in *.
  assert (Pq : parent (q, None) = p) by apply parent_node.
  destruct (find (it s v) (grp s ds)) as [d|] eqn:Fd.
  - (* there *)
    pose proof (find_some _ _ Fd) as (Hd & Id). pose proof (proj1 (Forall_forall _ _) Gs d Hd) as Sd. cbn beta in Sd. pose proof (proj1 (Forall_forall _ _) Gw d Hd) as Wd.
    pose proof (key_of_it s v d Id) as Kd.
    assert (Wd' : (match kd s with KCont _ => dval d = 0 | _ => True end) /\ (ddflt d = true -> kd s = KLeaf) /\ (term (kd s) = true -> dch d = []) /\ wf_data kd (dch d)).
    { destruct d as [s' v' b' ch']. cbn [dsch] in Sd. subst s'. apply wfd_all in Wd. exact Wd. }
    destruct Wd' as (D1 & D2 & D3 & D4).
    assert (NC : op <> DCreate) by (intros ->; discriminate).
    (* nodes that stay where they are *)
    assert (Stay : forall v1 b1 c1 ch', it s v (D s v1 b1 ch') = true -> (match kd s with KCont _ => v1 = 0 | _ => True end) -> (b1 = true -> kd s = KLeaf) -> (userord (kd s) = true -> v1 = dval d) ->
      op <> DDelete -> fold_diff (dapply nest) ch (dch d) = Some ch' -> g = update_first (it s v) (fun _ => D s v1 b1 ch') (grp s ds) ->
      plays (own_rep q (F op s v b ov an oan ch)) c = Some c1 -> (forall k, c_val c1 (q, k) = topv (Some (D s v1 b1 ch')) k) -> (forall r k, r <> [] -> c_val c1 (q ++ r, k) = c_val c (q ++ r, k)) -> (forall l, (forall r, fst l <> q ++ r) -> c_val c1 l = c_val c l) -> c_ord c1 = c_ord c ->
      exists c', plays (rep p (F op s v b ov an oan ch)) c = Some c' /\ agree p c' (put s g ds) /\ below p c c' /\ wf_data kd (put s g ds)).
    { intros v1 b1 c1 ch' I1 V1 B1 U1 NDel Fch Eg P1 T1 S1 C1 O1. pose proof (key_of_it s v _ I1) as K1. cbn [dval] in K1.
      assert (Ga : all_s s g) by (rewrite Eg; apply all_update; [exact Gs|reflexivity]).
      apply (node_tail op s v b ov an oan ch p c ds g nest c1 (Some (D s v1 b1 ch')) (dch d)); try assumption.
      - split; [exact C1|]. intros. rewrite O1. reflexivity.
      - apply (agree_vals q c c1 (dch d) Aq S1 O1).
      - right. discriminate.
      - rewrite O1, Ao, ord_put by exact Ga. unfold ordv, order. destruct (userord (kd s)) eqn:U; [|reflexivity]. rewrite Eg. clear - Fd U1 U. specialize (U1 eq_refl). subst v1. revert Fd. generalize (grp s ds). intros g0. induction g0 as [|y t IHt]; intros Fd; [reflexivity|]. cbn [find update_first map] in *. destruct (it s v y); [injection Fd as ->; reflexivity|]. cbn [map]. rewrite <- IHt by exact Fd. reflexivity.
      - rewrite Eg. apply (find_update_same kd s v (fun _ => D s v1 b1 ch') _ d Fd I1).
      - intros v' N. rewrite Eg. apply (find_update_other kd); [exact N|]. intros. exact I1.
      - intros Wk. cbn [kidsof dch] in Wk. apply wf_put; [exact W|]. rewrite Eg. apply wfg_update; [exact G|]. intros y Hy Iy. split; [reflexivity|]. split; [cbn [dval]; rewrite K1; symmetry; apply key_of_it; exact Iy|].
        apply wfd_all. split; [exact V1|]. split; [exact B1|]. split; [|exact Wk]. intros T. rewrite (D3 T), (Xt T) in Fch. injection Fch as <-. reflexivity. }
    destruct op; [|congruence| |].
    + (* none *)
      destruct (fold_diff (dapply nest) ch (dch d)) as [ch'|] eqn:Fch; [|discriminate].
      destruct (term (kd s)) eqn:T.
      * destruct (ov_eqb ov d) eqn:Ov; [|discriminate]. injection H as <-. destruct (X1 eq_refl) as (b0 & Q). subst ov. cbn [ov_eqb] in Ov. apply andb_true_iff in Ov. destruct Ov as (Ov1 & Ov2). apply Nat.eqb_eq in Ov1. apply eqb_prop in Ov2.
        assert (Ff : fl = false) by (destruct fl; [specialize (Ln eq_refl eq_refl); congruence|reflexivity]).
        apply (Stay v b c ch'); auto; [apply it_refl|discriminate|].
        intros k. rewrite At. unfold topv. cbn [dval ddflt dsch]. rewrite Sd. destruct k as [i|]; [destruct (kd s); try reflexivity; discriminate T|]. unfold ChangeIterSpec.fv. rewrite Ff, <- Ov1. reflexivity.
      * injection H as <-. apply (Stay (dval d) (ddflt d) c ch'); auto; [discriminate|]. intros k. rewrite At. unfold topv. cbn [dval ddflt dsch]. rewrite Sd. reflexivity.
    + (* delete *)
      destruct (fold_diff (dapply true) ch (dch d)) as [[|? ?]|] eqn:Fch; try discriminate.
      destruct (Nat.eqb v (dval d) && Bool.eqb b (ddflt d) && _) eqn:Q; [|discriminate]. injection H as <-. apply andb_true_iff in Q. destruct Q as (Q & _). apply andb_true_iff in Q. destruct Q as (Q1 & Q2). apply Nat.eqb_eq in Q1. apply eqb_prop in Q2.
      set (g := remove_first (it s v) (grp s ds)) in *.
      assert (Ga : all_s s g) by (apply all_remove; exact Gs).
      (* the node *)
      set (c0 := set_val (q, None) None c).
      set (c1 := if userord (kd s) then set_ord p s (filter (fun y => negb (Nat.eqb y v)) (c_ord c p s)) c0 else c0).
      assert (P1 : play (CDeleted (q, None) s v b) c = Some c1). { cbn [ChangeIterSpec.play uo]. rewrite Pq, holds_eq; [reflexivity|]. rewrite At. cbn [topv]. rewrite Q1, Q2. reflexivity. }
      assert (V1 : c_val c1 = c_val c0) by (unfold c1; destruct (userord (kd s)); reflexivity).
      assert (Kk : forall i, In i (kseq s) -> c_val c1 (q, Some i) = Some (fv (kv s v i) false)).
      { intros i Hi. rewrite V1. unfold c0. rewrite set_val_other by congruence. rewrite At, Q1, <- Sd. rewrite <- Sd in Hi. apply (topv_keys d i). exact Hi. }
      destruct (keys_deleted s v q (kseq s) c1 (kseq_nodup s) Kk) as (c2 & P2 & K1 & K2 & K3).
      apply (node_tail DDelete s v b ov an oan ch p c ds g true c2 None (dch d)); try assumption; fold q.
      * cbn [ChangeIterProofs.own_rep ChangeIterSpec.plays]. match goal with |- context [play ?X c] => replace (play X c) with (Some c1) by (symmetry; exact P1) end. exact P2.
      * split.
        -- intros l N. rewrite K2 by (intros i _ ->; apply (N []); rewrite app_nil_r; reflexivity). rewrite V1. unfold c0. apply set_val_other. intros ->. apply (N []). rewrite app_nil_r. reflexivity.
        -- intros q' t N N2. rewrite K3. unfold c1. destruct (userord (kd s)); [|reflexivity]. rewrite (proj2 (set_ord_child p q s _ c0)) by assumption. reflexivity.
      * intros k. destruct k as [i|].
        -- destruct (in_kseq_dec i s) as [Hi|Hi]; [apply K1; exact Hi|]. rewrite K2 by (intros j Hj Y; injection Y as ->; contradiction). rewrite V1. unfold c0. rewrite set_val_other by congruence. rewrite At. cbn [topv]. rewrite <- Sd in Hi. apply (topv_keys d i). exact Hi.
        -- rewrite K2 by congruence. rewrite V1. apply set_val_same.
      * apply (agree_vals q c1 c2); [|intros r k N; apply K2; intros i _ Y; injection Y as Y _; destruct r; [congruence|]; exact (app_ne q _ _ (eq_sym Y))|exact K3].
        assert (A0 : agree q c0 (dch d)) by (apply (agree_vals q c c0 (dch d) Aq); [|reflexivity]; intros r k N; unfold c0; apply set_val_other; intros Y; injection Y as Y _; destruct r; [congruence|]; exact (app_ne q _ _ (eq_sym Y))).
        unfold c1. destruct (userord (kd s)); [apply agree_set_ord; exact A0|exact A0].
      * left. apply X2. reflexivity.
      * rewrite K3, ord_put by exact Ga. unfold c1. rewrite Ao. unfold ordv, order. destruct (userord (kd s)) eqn:U; [rewrite set_ord_same|unfold c0; cbn [set_val c_ord]; rewrite Ao; unfold ordv; rewrite U; reflexivity]. symmetry. apply remove_vals; [destruct (kd s); try discriminate U; reflexivity|apply (wfg_vals kd s); assumption].
      * apply (find_remove_same kd). apply G.
      * intros v' N. apply (find_remove_other kd). exact N.
      * intros _. apply wf_put; [exact W|]. apply wfg_remove. exact G.
    + (* replace *)
      destruct (fold_diff (dapply nest) ch (dch d)) as [ch'|] eqn:Fch; [|discriminate].
      destruct (userord (kd s)) eqn:U.
      * (* moved *)
        destruct X1 as [(_ & Xa)|(K & _)]; [|rewrite K in U; discriminate U]. match type of H with (if onat_eqb oan ?y then _ else _) = _ => destruct (onat_eqb oan y) eqn:Eo end; [|discriminate]. apply onat_eq in Eo.
        assert (Is : inst (kd s) = true) by (destruct (kd s); try discriminate U; reflexivity).
        assert (Vd : dval d = v) by (unfold is_it in Id; rewrite Is in Id; apply Nat.eqb_eq; exact Id).
        assert (Bd : b = ddflt d). { destruct b, (ddflt d); try reflexivity; [rewrite (Xb eq_refl) in U; discriminate U|rewrite (D2 eq_refl) in U; discriminate U]. }
        destruct (insert_at_mid _ _ _ _ H) as (l & r & Er & Eg & El).
        set (nw := D s (dval d) (ddflt d) ch') in *.
        assert (Fr : find (it s v) (l ++ r) = None) by (rewrite <- Er; apply (find_remove_same kd); apply G).
        assert (Inw : it s v nw = true) by (apply it_key; exact Kd).
        assert (Ga : all_s s g). { rewrite Eg. assert (Z : all_s s (l ++ r)) by (rewrite <- Er; apply all_remove; exact Gs). apply Forall_app in Z. apply Forall_app. split; [apply Z|]. constructor; [reflexivity|apply Z]. }
        assert (Pl : place (after_of an) v (c_ord c p s) = Some (map dval g)).
        { rewrite <- Vd. change (dval d) with (dval nw). apply (place_insert an nw (remove_first (it s v) (grp s ds)) g); [exact H|]. rewrite Ao. unfold ordv, order. rewrite U. cbn [dval nw]. rewrite Vd. symmetry. apply remove_vals; [exact Is|apply (wfg_vals kd s); assumption]. }
        assert (Mv : map dval g <> c_ord c p s).
        { intros Q. apply Xa. rewrite Ao in Q. unfold ordv, order in Q. rewrite U in Q. rewrite Eo, (EditOrder.prev_vals kd) by exact U. fold (grp s ds) in Q. rewrite <- Q, <- (EditOrder.prev_vals kd s v) by exact U. rewrite Eg, prev_split; [symmetry; exact El| |exact Inw].
          rewrite find_app1 in Fr. destruct (find (it s v) l); [discriminate Fr|reflexivity]. }
        apply (node_tail DReplace s v b ov an oan ch p c ds g nest (set_ord p s (map dval g) c) (Some nw) (dch d)); try assumption; fold q.
        -- assert (P1 : play (CMoved (q, None) s v b an) c = Some (set_ord p s (map dval g) c)) by (cbn [ChangeIterSpec.play uo]; rewrite Pq, holds_eq by (rewrite At; cbn [topv]; rewrite Vd, Bd; reflexivity); rewrite U; cbn [andb]; rewrite Pl; destruct (list_eq_dec Nat.eq_dec (map dval g) (c_ord c p s)); [contradiction|reflexivity]).
           cbn [ChangeIterProofs.own_rep]. rewrite U. cbn [ChangeIterSpec.plays]. match goal with |- match ?X with _ => _ end = _ => replace X with (Some (set_ord p s (map dval g) c)) by (symmetry; exact P1) end. reflexivity.
        -- apply set_ord_child.
        -- intros k. cbn [set_ord c_val]. rewrite At. unfold topv. cbn [dval ddflt dsch nw]. rewrite Sd. reflexivity.
        -- apply agree_set_ord. exact Aq.
        -- right. discriminate.
        -- rewrite set_ord_same, ord_put, U by exact Ga. reflexivity.
        -- rewrite Eg. apply find_new; assumption.
        -- intros v' N. rewrite Eg. rewrite find_mid by (destruct (it s v' nw) eqn:Y; [exfalso; apply N; exact (it_swap kd _ _ _ _ Y Inw)|reflexivity]). rewrite <- Er. apply (find_remove_other kd). exact N.
        -- intros Wk. apply wf_put; [exact W|]. apply (wfg_perm kd s (l ++ r) nw); [rewrite <- Er; apply wfg_remove; exact G|reflexivity| |cbn [dval nw]; rewrite Vd; exact Fr|exists l, r; split; [reflexivity|exact Eg]].
           apply wfd_all. split; [exact D1|]. split; [exact D2|]. split; [|exact Wk]. intros T. rewrite (D3 T), (Xt T) in Fch. injection Fch as <-. reflexivity.
      * (* modified *)
        destruct X1 as [(X1 & _)|(K & vo & bo & Ovn & Nv)]; [discriminate|]. assert (T : term (kd s) = true) by (rewrite K; reflexivity). rewrite T in H.
        destruct (ov_eqb ov d) eqn:Ov; [|discriminate]. injection H as <-. destruct ov as [[v0 b0]|]; [|discriminate]. injection Ovn as <- <-. apply Nat.eqb_neq in Nv. cbn [ov_eqb] in Ov. apply andb_true_iff in Ov. destruct Ov as (Ov1 & Ov2). apply Nat.eqb_eq in Ov1. apply eqb_prop in Ov2.
        apply (Stay v b (set_val (q, None) (Some (fv v b)) c) ch'); auto; try (rewrite K; exact Logic.I).
        -- apply it_refl.
        -- discriminate.
        -- discriminate.
        -- assert (P1 : play (CModified (q, None) s v0 b0 v b) c = Some (set_val (q, None) (Some (fv v b)) c)) by (cbn [ChangeIterSpec.play uo]; rewrite holds_eq by (rewrite At; cbn [topv]; rewrite <- Ov1, <- Ov2; reflexivity); rewrite U, Nv; reflexivity).
           cbn [ChangeIterProofs.own_rep]. rewrite U. cbn [ChangeIterSpec.plays]. match goal with |- match ?X with _ => _ end = _ => replace X with (Some (set_val (q, None) (Some (fv v b)) c)) by (symmetry; exact P1) end. reflexivity.
        -- intros k. destruct k as [i|]; [|apply set_val_same]. rewrite set_val_other by congruence. rewrite At. unfold topv. cbn [dval ddflt dsch]. rewrite Sd, K. reflexivity.
        -- intros r k N. apply set_val_other. intros Y. injection Y as Y _. destruct r; [congruence|]. exact (app_ne q _ _ (eq_sym Y)).
        -- intros l N. apply set_val_other. intros ->. apply (N []). rewrite app_nil_r. reflexivity.
  - (* missing *)
    destruct op; try discriminate. destruct E as [E|E]; [discriminate|].
    destruct (fold_diff (dapply nest) ch []) as [ch'|] eqn:Fch; [|discriminate].
    set (nw := D s v b ch') in *.
    assert (Inw : it s v nw = true) by apply it_refl.
    assert (Mid : exists l r, grp s ds = l ++ r /\ g = l ++ nw :: r). { destruct (userord (kd s)); [destruct (insert_at_mid _ _ _ _ H) as (l & r & Y1 & Y2 & _); exists l, r; split; assumption|]. injection H as <-. exists (grp s ds), []. rewrite app_nil_r. split; reflexivity. }
    destruct Mid as (l & r & El & Eg).
    assert (Ga : all_s s g). { rewrite Eg. assert (Z : all_s s (l ++ r)) by (rewrite <- El; exact Gs). apply Forall_app in Z. apply Forall_app. split; [apply Z|]. constructor; [reflexivity|apply Z]. }
    set (c0 := set_val (q, None) (Some (fv v b)) c).
    set (c1 := if userord (kd s) then set_ord p s (map dval g) c0 else c0).
    assert (P1 : play (CCreated (q, None) s v b (if userord (kd s) then Some an else None)) c = Some c1).
    { cbn [ChangeIterSpec.play uo]. rewrite At, Pq, E. cbn [topv]. cbn zeta. unfold c1. destruct (userord (kd s)) eqn:U; [|reflexivity].
      assert (Is : inst (kd s) = true) by (destruct (kd s); try discriminate U; reflexivity).
      assert (Pl : place (after_of an) v (c_ord c p s) = Some (map dval g)). { change v with (dval nw). apply (place_insert an nw (grp s ds) g); [exact H|]. rewrite Ao. unfold ordv, order. rewrite U. apply filter_id. apply (find_none_notin s); assumption. }
      rewrite Pl. reflexivity. }
    assert (V1 : c_val c1 = c_val c0) by (unfold c1; destruct (userord (kd s)); reflexivity).
    assert (Eq1 : c_val c1 (q, None) = Some (fv v b)) by (rewrite V1; apply set_val_same).
    assert (E1 : exists_path q c1 = true). { unfold exists_path. clear - Eq1. clearbody q. destruct q; [reflexivity|]. exact (f_equal (fun o => match o with Some _ => true | None => false end) Eq1). }
    assert (Kk : forall i, In i (kseq s) -> c_val c1 (q, Some i) = None). { intros i Hi. rewrite V1. unfold c0. rewrite set_val_other by congruence. rewrite At. reflexivity. }
    destruct (keys_created s v q (kseq s) c1 (kseq_nodup s) E1 Kk) as (c2 & P2 & K1 & K2 & K3).
    apply (node_tail DCreate s v b ov an oan ch p c ds g nest c2 (Some nw) []); try assumption; fold q.
    + cbn [ChangeIterProofs.own_rep ChangeIterSpec.plays]. match goal with |- context [play ?X c] => replace (play X c) with (Some c1) by (symmetry; exact P1) end. exact P2.
    + split.
      * intros m N. rewrite K2 by (intros i _ ->; apply (N []); rewrite app_nil_r; reflexivity). rewrite V1. unfold c0. apply set_val_other. intros ->. apply (N []). rewrite app_nil_r. reflexivity.
      * intros q' t N N2. rewrite K3. unfold c1. destruct (userord (kd s)); [|reflexivity]. rewrite (proj2 (set_ord_child p q s _ c0)) by assumption. reflexivity.
    + intros k. destruct k as [i|].
      * destruct (in_kseq_dec i s) as [Hi|Hi]; [rewrite K1 by exact Hi; symmetry; exact (proj1 (topv_keys nw i) Hi)|]. rewrite K2 by (intros j Hj Y; injection Y as ->; contradiction). rewrite V1. unfold c0. rewrite set_val_other by congruence. rewrite At. symmetry. exact (proj2 (topv_keys nw i) Hi).
      * rewrite K2 by congruence. rewrite V1. apply set_val_same.
    + apply (agree_vals q c1 c2); [|intros r' k N; apply K2; intros i _ Y; injection Y as Y _; destruct r'; [congruence|]; exact (app_ne q _ _ (eq_sym Y))|exact K3].
      assert (A0 : agree q c0 []) by (apply (agree_vals q c c0 [] Aq); [|reflexivity]; intros r' k N; unfold c0; apply set_val_other; intros Y; injection Y as Y _; destruct r'; [congruence|]; exact (app_ne q _ _ (eq_sym Y))).
      unfold c1. destruct (userord (kd s)); [apply agree_set_ord; exact A0|exact A0].
    + apply wf_data_nil.
    + right. discriminate.
    + rewrite K3, ord_put by exact Ga. unfold c1. destruct (userord (kd s)) eqn:U; [rewrite set_ord_same; reflexivity|unfold c0; cbn [set_val c_ord]; rewrite Ao; unfold ordv; rewrite U; reflexivity].
    + rewrite Eg. apply find_new; [exact Inw|]. rewrite <- El. exact Fd.
    + intros v' N. rewrite Eg, find_mid by (destruct (it s v' nw) eqn:Y; [exfalso; apply N; exact (it_swap kd _ _ _ _ Y Inw)|reflexivity]). rewrite <- El. reflexivity.
    + intros Wk. apply wf_put; [exact W|]. apply (wfg_perm kd s (grp s ds) nw); [exact G|reflexivity| |exact Fd|exists l, r; split; assumption].
      apply wfd_all. split; [exact Xc|]. split; [exact Xb|]. split; [|exact Wk]. intros T. rewrite (Xt T) in Fch. injection Fch as <-. reflexivity.
Qed.

Theorem plays_diff : forall xs ds ds' c, wf_data kd ds -> Forall wfx xs -> (fl = true -> Forall loud xs) -> diff_apply kd xs ds = Some ds' ->
  same c (copy_of ds) -> exists c', plays (flat_map (rep []) xs) c = Some c' /\ (forall l, fst l <> [] -> c_val c' l = c_val (copy_of ds') l) /\ (forall p s, c_ord c' p s = c_ord (copy_of ds') p s) /\ (forall k, c_val c' ([], k) = c_val c ([], k)).
Proof.
  intros xs ds ds' c W X L H (Sv & So).
  assert (Ok : Forall oknode xs) by (apply Forall_forall; intros x _; apply all_oknode).
  destruct (oknodes xs Ok false [] c ds ds' W) as (c' & P & A & B & _); try assumption.
  - split; [intros r k _; apply Sv|intros r s; apply So].
  - right. reflexivity.
  - exists c'. split; [exact P|]. split; [|split].
    + intros (p, k) N. exact (proj1 A p k N).
    + intros p s. exact (proj2 A p s).
    + intros k. exact (below_top _ _ _ k B).
Qed.
End P.
