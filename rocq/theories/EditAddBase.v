(** The meaning of an edit by identifiers of siblings; paths. *)
From Coq Require Import List Bool Arith Lia.
From Verif Require Import Edit EditSpec EditProofs EditOps EditSem EditTotal EditAdd EditAddSpec.
Import ListNotations.

Lemma same_id_eq : forall a b, same_id a b = true <-> a = b.
Proof.
  intros [a1 a2] [b1 b2]. unfold same_id. cbn [fst snd]. rewrite andb_true_iff, !Nat.eqb_eq. split; [intros (-> & ->); reflexivity|intros H; injection H as -> ->; split; reflexivity].
Qed.
Lemma same_id_refl : forall a, same_id a a = true.
Proof. intros a. apply same_id_eq. reflexivity. Qed.
Lemma same_id_neq : forall a b, same_id a b = false <-> a <> b.
Proof. intros a b. rewrite <- same_id_eq. destruct (same_id a b); split; congruence. Qed.
Lemma eop_eqb_eq : forall a b, eop_eqb a b = true <-> a = b.
Proof. intros [] []; cbn; split; congruence. Qed.

Section P.
Variable kd : nat -> kind.
Notation key := (EditSpec.key kd).
Notation ident := (EditSpec.ident kd).
Notation eident := (EditSpec.eident kd).
Notation lk := (EditSpec.lk kd).
Notation get := (EditSpec.get kd).
Notation sp := (EditSpec.sp kd).

Definition id_ok (id : nat * nat) : Prop := inst (kd (fst id)) = false -> snd id = 0.
Lemma eident_ok : forall e, id_ok (eident e).
Proof. intros e H. unfold EditSpec.eident, EditSpec.key in *. cbn [fst snd] in *. rewrite H. reflexivity. Qed.
Lemma at_id_eq : forall id e, id_ok id -> (at_id kd id e = true <-> eident e = id).
Proof.
  intros [s k] e H. unfold at_id, EditSpec.eident, EditSpec.key, id_ok in *. cbn [fst snd] in *. rewrite andb_true_iff, Nat.eqb_eq. split.
  - intros (Q & R). rewrite Q. destruct (inst (kd s)); [apply Nat.eqb_eq in R; congruence|]. rewrite H; reflexivity.
  - intros Q. injection Q as Q1 Q2. split; [exact Q1|]. rewrite Q1 in Q2. destruct (inst (kd s)); [apply Nat.eqb_eq; exact Q2|reflexivity].
Qed.
Lemma at_id_self : forall e, at_id kd (eident e) e = true.
Proof. intros e. apply at_id_eq; [apply eident_ok|reflexivity]. Qed.
Lemma at_id_other : forall id e, id_ok id -> eident e <> id -> at_id kd id e = false.
Proof. intros id e H N. destruct (at_id kd id e) eqn:A; [apply at_id_eq in A; [contradiction|exact H]|reflexivity]. Qed.

(** ** Siblings *)
Definition kids (c : ctx) (inh : option eop) (es : list enode) (olds : list dnode) : option (list dnode) :=
  match collect (map (fun e => sp c false inh e (lk (eident e) olds)) es) with
  | Some rs => Some (filter (fun d => negb (touched kd es d)) olds ++ rs)
  | None => None
  end.
Lemma edit_spec_kids : forall es ds, edit_spec kd es ds = kids Present None es ds.
Proof. reflexivity. Qed.

(** A node with its children given by [K]. *)
Definition spk (c : ctx) (s v : nat) (op : eop) (K : ctx -> list dnode -> option (list dnode)) (old : option dnode) : option (option dnode) :=
  let node (value : nat) (olds : list dnode) := match K Present olds with Some ds => Some (Some (D s value false ds)) | None => None end in
  let nothing (c' : ctx) (olds : list dnode) := match K c' olds with Some _ => Some None | None => None end in
  let missing := match c with Deleted => Deleted | _ => Missing end in
  match c, deletes op with
  | Deleted, false => None
  | _, _ =>
      match op, old with
      | Delete, Some d => if is_default kd d then None else nothing Deleted (dch d)
      | Delete, None => None
      | Remove, Some d => nothing Deleted (dch d)
      | Remove, None => nothing missing []
      | Purge, _ => Some None
      | Ether, None => nothing missing []
      | Ether, Some d | Non, Some d => node (dval d) (dch d)
      | Non, None => None
      | Merge, Some d => node v (dch d)
      | Replace, _ => None
      | Create, Some d =>
          if np_cont (kd s) then node (dval d) (dch d)
          else if is_default kd d then node v (dch d)
          else None
      | Merge, None | Create, None =>
          match c with Present => node v [] | _ => None end
      end
  end.
Definition ope (inh : option eop) (own : option eop) : option eop := match own with Some o => Some o | None => inh end.
Lemma sp_spk : forall c inh s v b own i ch op old, ope inh own = Some op -> op <> Replace ->
  sp c false inh (E s v b own i ch) old = spk c s v op (fun c' olds => kids c' (Some op) ch olds) old.
Proof.
  intros c inh s v b own i ch op old Ho N. cbn [EditSpec.sp]. unfold ope in Ho. rewrite Ho. unfold spk, kids.
  destruct c, op, old as [d|]; cbn [deletes]; try reflexivity; try congruence;
    try (destruct (is_default kd d); [reflexivity|]); try (destruct (np_cont (kd s)); [|destruct (is_default kd d)]);
    repeat match goal with |- context [match collect ?x with _ => _ end] => destruct (collect x) end; reflexivity.
Qed.
Lemma sp_none : forall c inh s v b own i ch old, ope inh own = None -> sp c false inh (E s v b own i ch) old = None.
Proof. intros c inh s v b own i ch old H. cbn [EditSpec.sp]. unfold ope in H. rewrite H. reflexivity. Qed.

Definition okop (o : eop) : Prop := o <> Replace /\ o <> Purge.
Definition okown (e : enode) : Prop := match eown e with Some o => okop o | None => True end.
Definition okinh (inh : option eop) : Prop := match inh with Some o => okop o | None => True end.

(** The result is the same node. *)
Lemma spk_ident : forall c s v op K old r, spk c s v op K old = Some (Some r) -> (forall d, old = Some d -> ident d = (s, key s v)) -> ident r = (s, key s v).
Proof.
  intros c s v op K old r H Ho. unfold spk in H.
  destruct c, op, old as [d|]; cbn [deletes] in H; try discriminate;
    try (destruct (is_default kd d) eqn:Df; try discriminate);
    try (destruct (np_cont (kd s)) eqn:Np; try discriminate);
    repeat match type of H with match ?x with _ => _ end = _ => destruct x; try discriminate end;
    injection H as <-; unfold EditSpec.ident; cbn [dsch dval]; try reflexivity;
    specialize (Ho d eq_refl); unfold EditSpec.ident in Ho; injection Ho as Hs Hk; rewrite Hs in Hk; rewrite Hk; reflexivity.
Qed.
Lemma sp_ident : forall c inh e old r, okown e -> okinh inh -> sp c false inh e old = Some (Some r) -> (forall d, old = Some d -> ident d = eident e) -> ident r = eident e.
Proof.
  intros c inh [s v b own i ch] old r Hk Hi H Ho. unfold okown in Hk. cbn [eown] in Hk. destruct (ope inh own) as [op|] eqn:Op.
  - assert (N : op <> Replace) by (destruct own; cbn [ope] in Op; [injection Op as ->|subst inh]; [apply Hk|apply Hi]).
    rewrite (sp_spk _ _ _ _ _ _ _ _ op) in H by assumption. exact (spk_ident _ _ _ _ _ _ _ H Ho).
  - rewrite sp_none in H by exact Op. discriminate.
Qed.

Lemma kids_each : forall c inh es olds K, kids c inh es olds = Some K -> forall e, In e es -> exists r, sp c false inh e (lk (eident e) olds) = Some r.
Proof.
  intros c inh es olds K H e He. unfold kids in H. destruct (collect _) as [rs|] eqn:C; [|discriminate].
  exact (collect_each _ _ (fun e => sp c false inh e (lk (eident e) olds)) es rs C e He).
Qed.
Lemma kids_make : forall c inh es olds, (forall e, In e es -> sp c false inh e (lk (eident e) olds) <> None) -> exists K, kids c inh es olds = Some K.
Proof.
  intros c inh es olds H. unfold kids.
  assert (Z : exists rs, Forall2 (fun e r => sp c false inh e (lk (eident e) olds) = Some r) es rs).
  { induction es as [|e t IH]; [exists []; constructor|]. destruct (sp c false inh e (lk (eident e) olds)) as [r|] eqn:S; [|exfalso; exact (H e (or_introl eq_refl) S)].
    destruct (IH (fun x Hx => H x (or_intror Hx))) as (rs & R). exists (r :: rs). constructor; assumption. }
  destruct Z as (rs & Z). rewrite (collect_some _ (fun e => sp c false inh e (lk (eident e) olds)) es rs Z). eexists. reflexivity.
Qed.

Definition fe (id : nat * nat) (es : list enode) : option enode := find (fun e => same_id (eident e) id) es.
Lemma fe_some : forall id es e, fe id es = Some e -> In e es /\ eident e = id.
Proof. intros id es e H. apply find_some in H. destruct H as (H1 & H2). apply same_id_eq in H2. split; assumption. Qed.
Lemma fe_none : forall id es, fe id es = None -> forall e, In e es -> eident e <> id.
Proof. intros id es H e He Q. unfold fe in H. apply (find_none _ _ H) in He. rewrite Q, same_id_refl in He. discriminate. Qed.
Lemma fe_in : forall es e, NoDup (map eident es) -> In e es -> fe (eident e) es = Some e.
Proof.
  intros es e N H. unfold fe. induction es as [|x t IH]; [destruct H|]. cbn [map] in N. inversion N as [|? ? Nx Nt]; subst. cbn [find].
  destruct H as [->|H]; [rewrite same_id_refl; reflexivity|]. destruct (same_id (eident x) (eident e)) eqn:Q; [|apply IH; assumption].
  exfalso. apply Nx. apply same_id_eq in Q. rewrite Q. apply in_map. exact H.
Qed.
Lemma fe_at : forall id es, id_ok id -> find (at_id kd id) es = fe id es.
Proof.
  intros id es H. unfold fe. induction es as [|e t IH]; [reflexivity|]. cbn [find]. rewrite IH.
  assert (Q : at_id kd id e = same_id (eident e) id) by (apply Bool.eq_iff_eq_true; rewrite at_id_eq by exact H; rewrite same_id_eq; reflexivity).
  rewrite Q. reflexivity.
Qed.

Lemma lk_cons : forall id d ds, lk id (d :: ds) = if same_id (ident d) id then Some d else lk id ds.
Proof. reflexivity. Qed.
Lemma kids_lk : forall c inh es olds K, kids c inh es olds = Some K -> NoDup (map eident es) -> Forall okown es -> okinh inh ->
  forall id, lk id K = match fe id es with
                       | Some e => match sp c false inh e (lk id olds) with Some r => r | None => None end
                       | None => lk id olds
                       end.
Proof.
  intros c inh es olds K H N Ok Oi id. unfold kids in H. destruct (collect _) as [rs|] eqn:C; [|discriminate]. injection H as <-.
  rewrite lk_app.
  assert (Rs : lk id rs = match fe id es with Some e => match sp c false inh e (lk id olds) with Some r => r | None => None end | None => None end).
  { revert rs N Ok C. induction es as [|e t IH]; intros rs N Ok C; [cbn in C; injection C as <-; reflexivity|].
    cbn [map] in N. inversion N as [|? ? Nx Nt]; subst. inversion Ok as [|? ? Oe Ot]; subst.
    unfold collect in C. cbn [map fold_right] in C. destruct (sp c false inh e (lk (eident e) olds)) as [r|] eqn:S; [|discriminate].
    destruct (fold_right _ (Some []) (map _ t)) as [rt|] eqn:Ct; [|destruct r; discriminate].
    specialize (IH rt Nt Ot Ct).
    assert (Id : forall d, r = Some d -> ident d = eident e).
    { intros d ->. apply (sp_ident c inh e (lk (eident e) olds)); try assumption. intros x Hx. apply lk_some in Hx. apply Hx. }
    unfold fe. cbn [find]. fold (fe id t). destruct (same_id (eident e) id) eqn:Q.
    - apply same_id_eq in Q. rewrite <- Q, S. destruct r as [d|]; injection C as <-.
      + rewrite lk_cons, (Id d eq_refl), same_id_refl. reflexivity.
      + rewrite Q, IH. destruct (fe id t) as [x|] eqn:F; [|reflexivity]. exfalso. apply fe_some in F. destruct F as (F1 & F2). apply Nx. rewrite Q, <- F2. apply in_map. exact F1.
    - destruct r as [d|]; injection C as <-; [|exact IH]. rewrite lk_cons, (Id d eq_refl), Q. exact IH. }
  destruct (fe id es) as [e|] eqn:F.
  - rewrite Rs. assert (Z : lk id (filter (fun d => negb (touched kd es d)) olds) = None).
    { apply lk_none. intros d Hd Q. apply filter_In in Hd. destruct Hd as (_ & Hd). apply negb_true_iff in Hd. apply fe_some in F. destruct F as (F1 & F2).
      rewrite (proj2 (touched_spec kd es d)) in Hd; [discriminate|]. exists e. split; [exact F1|]. right. congruence. }
    rewrite Z. reflexivity.
  - rewrite Rs. rewrite lk_filter; [destruct (lk id olds); reflexivity|]. intros d Hd Q. apply negb_true_iff. destruct (touched kd es d) eqn:T; [|reflexivity].
    exfalso. apply touched_spec in T. destruct T as (e & He & [(P & _)|T]).
    + rewrite Forall_forall in Ok. specialize (Ok e He). unfold okown, purges in *. rewrite P in Ok. apply (proj2 Ok). reflexivity.
    + exact (fe_none id es F e He (eq_trans T Q)).
Qed.

(** ** Values below a node *)
Definition nview (o : option dnode) (r : path) : option nat :=
  match o with None => None | Some d => match r with [] => Some (dval d) | _ => get r (dch d) end end.
Lemma get_cons : forall id r K, get (id :: r) K = nview (lk id K) r.
Proof. reflexivity. Qed.
Lemma get_nil : forall p, get p [] = None.
Proof. intros [|id r]; reflexivity. Qed.

Lemma prefix_refl : forall p, prefix p p = true.
Proof. induction p as [|a p IH]; [reflexivity|]. cbn [prefix]. rewrite same_id_refl. exact IH. Qed.
Lemma prefix_cons : forall id p q, prefix (id :: p) (id :: q) = prefix p q.
Proof. intros. cbn [prefix]. rewrite same_id_refl. reflexivity. Qed.
Lemma prefix_anti : forall p q, prefix p q = true -> prefix q p = true -> p = q.
Proof.
  induction p as [|a p IH]; intros [|b q] H1 H2; try reflexivity; try discriminate. cbn [prefix] in *. apply andb_prop in H1. apply andb_prop in H2.
  destruct H1 as (H1 & H1'). destruct H2 as (_ & H2). apply same_id_eq in H1. subst b. f_equal. apply IH; assumption.
Qed.
Lemma eq_path_eq : forall p q, eq_path p q = true <-> p = q.
Proof.
  intros p q. unfold eq_path. split; [intros H; apply andb_prop in H; apply prefix_anti; apply H|intros ->; rewrite prefix_refl; reflexivity].
Qed.
Lemma value_at_cons : forall id p v, p <> [] -> value_at kd (id :: p) v = value_at kd p v.
Proof. intros id p v N. unfold value_at. destruct p as [|a p]; [contradiction|]. reflexivity. Qed.

(** The effect of setting below [id]: [f] are the values below it before. *)
Definition nset (id : nat * nat) (r : path) (v : nat) (f : view) : view := fun r' =>
  match r, r' with
  | [], [] => Some (value_at kd [id] v)
  | [], _ => f r'
  | _, [] => match f [] with Some x => Some x | None => Some (value_at kd [id] 0) end
  | _, _ => vset kd r v f r'
  end.
Lemma vset_same : forall id r v m r', vset kd (id :: r) v m (id :: r') = nset id r v (fun x => m (id :: x)) r'.
Proof.
  intros id r v m r'. unfold vset, nset. unfold eq_path. rewrite !prefix_cons. destruct r as [|a r], r' as [|b r']; try reflexivity.
Qed.
Lemma vset_other : forall id id' r v m r', id' <> id -> vset kd (id :: r) v m (id' :: r') = m (id' :: r').
Proof. intros id id' r v m r' N. unfold vset, eq_path. cbn [prefix]. rewrite (proj2 (same_id_neq id' id) N). reflexivity. Qed.
Lemma vset_nil : forall p v m, p <> [] -> vset kd p v m [] = None.
Proof. intros [|a p] v m N; [contradiction|reflexivity]. Qed.
Lemma vset_ext : forall p v m m', (forall q, m q = m' q) -> forall q, vset kd p v m q = vset kd p v m' q.
Proof. intros p v m m' H q. unfold vset. destruct (eq_path q p); [reflexivity|]. destruct q; [reflexivity|]. rewrite H. reflexivity. Qed.
Definition ndel (r : path) (f : view) : view := fun r' => match r with [] => None | _ => match r' with [] => f [] | _ => vdel r f r' end end.
Lemma vdel_same : forall id r m r', vdel (id :: r) m (id :: r') = ndel r (fun x => m (id :: x)) r'.
Proof. intros id r m r'. unfold vdel, ndel. rewrite prefix_cons. destruct r as [|a r]; [reflexivity|]. destruct r' as [|b r']; reflexivity. Qed.
Lemma vdel_other : forall id id' r m r', id' <> id -> vdel (id :: r) m (id' :: r') = m (id' :: r').
Proof. intros id id' r m r' N. unfold vdel. cbn [prefix]. rewrite (proj2 (same_id_neq id id')) by congruence. reflexivity. Qed.
Lemma vdel_ext : forall p m m', (forall q, m q = m' q) -> forall q, vdel p m q = vdel p m' q.
Proof. intros p m m' H q. unfold vdel. destruct (prefix p q); [reflexivity|apply H]. Qed.

Lemma parents_sub : forall id r (m : view), r <> [] -> parents_in m (id :: r) -> m [id] <> None /\ parents_in (fun x => m (id :: x)) r.
Proof.
  intros id r m N H. split.
  - apply (H [id]); [discriminate|]. unfold parent_of. cbn [prefix]. rewrite same_id_refl. destruct r; [contradiction|reflexivity].
  - intros q Nq Q. apply (H (id :: q)); [discriminate|]. unfold parent_of in *. rewrite !prefix_cons. exact Q.
Qed.
Lemma parents_ext : forall (m m' : view) p, (forall q, q <> [] -> m q = m' q) -> parents_in m p -> parents_in m' p.
Proof. intros m m' p H P q N Q. unfold exists_in. rewrite <- H by exact N. exact (P q N Q). Qed.
End P.
