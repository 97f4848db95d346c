(** Iterating over a diff tree gives the changes of its nodes one after another. *)
From Coq Require Import List Bool Arith Lia Sorted.
From Verif Require Import Edit EditSpec EditProofs EditDiff ChangeIter ChangeIterSpec.
Import ListNotations.

Lemma diff_ind2 : forall P : diff -> Prop, (forall op s v b ov an oan ch, Forall P ch -> P (F op s v b ov an oan ch)) -> forall x, P x.
Proof. intros P H. fix IH 1. intros [op s v b ov an oan ch]. apply H. induction ch; constructor; [apply IH|assumption]. Qed.
Lemma flat_map_ext_Forall : forall (A B : Type) (f g : A -> list B) l, Forall (fun x => f x = g x) l -> flat_map f l = flat_map g l.
Proof. intros A B f g l H. induction H as [|x t Hx Ht IH]; [reflexivity|]. cbn [flat_map]. rewrite Hx, IH. reflexivity. Qed.
Lemma flat_map_map : forall (A B C : Type) (f : B -> list C) (g : A -> B) l, flat_map f (map g l) = flat_map (fun x => f (g x)) l.
Proof. intros A B C f g l. induction l as [|x t IH]; [reflexivity|]. cbn [flat_map map]. rewrite IH. reflexivity. Qed.
Lemma flat_map_single : forall (A B : Type) (f : A -> B) l, flat_map (fun x => [f x]) l = map f l.
Proof. intros A B f l. induction l as [|x t IH]; [reflexivity|]. cbn [flat_map map]. rewrite IH. reflexivity. Qed.
Lemma flat_map_nil : forall (A B : Type) (f : A -> list B) l, (forall x, In x l -> f x = []) -> flat_map f l = [].
Proof. intros A B f l H. induction l as [|x t IH]; [reflexivity|]. cbn [flat_map]. rewrite (H x (or_introl eq_refl)), IH by (intros y Hy; apply H; right; exact Hy). reflexivity. Qed.

Section P.
Variable kd : nat -> kind.
Variable nk : nat -> nat.
Variable kv : nat -> nat -> nat -> nat.
Notation getnext := (getnext kd).
Notation change_of := (change_of kd).
Notation iter_all := (iter_all kd).
Notation nodes := (nodes kd).
Notation keys_of := (keys_of kd nk kv).
Notation diff_tree := (diff_tree kd nk kv).

(** What one member of the set gives. *)
Definition cls (e : ent) : option (option chg) :=
  let one (o : op) := match change_of o e with Some c => Some (Some c) | None => None end in
  match find_op e with
  | None => None
  | Some (self, n, o) =>
      if negb self && userord (i_kind kd n) && is_repl o then Some None
      else match o with
      | DNone => Some None
      | DCreate => one OCreated
      | DDelete => one ODeleted
      | DReplace => match i_kind kd (e_node e) with KLeaf => one OModified | KList _ | KLeafList _ => one OMoved | KCont _ => None end
      end
  end.
Definition outs1 (e : ent) : list chg := match cls e with Some (Some c) => [c] | _ => [] end.
Definition outs (set : list ent) : list chg := flat_map outs1 set.

Record good (e : ent) : Prop := mkgood {
  g_cls : cls e <> None;
  g_key : snd (e_loc e) <> None -> i_own (e_node e) = None;
  g_none : is_list (i_kind kd (e_node e)) = true -> (exists n, find_op e = Some (false, n, DNone)) -> False }.
Definition skipok (skip : option inode) : Prop := match skip with Some n => i_own n = Some DNone | None => True end.

Lemma key_at_skip : forall skip e, good e -> skipok skip -> key_at skip e = true -> outs1 e = [].
Proof.
  intros skip e G K H. unfold key_at in H. destruct skip as [n|]; [|discriminate]. destruct (e_loc e) as [q [i|]] eqn:L; [|discriminate].
  destruct (e_up e) as [|m up] eqn:U; [discriminate|]. destruct (inode_dec n m) as [->|]; [|discriminate]. cbn [skipok] in K.
  unfold outs1, cls, find_op. rewrite (g_key e G) by (rewrite L; discriminate). rewrite U. cbn [up_op]. rewrite K. cbn [negb andb is_repl]. rewrite andb_false_r. reflexivity.
Qed.

(** The next change. *)
Lemma getnext_outs : forall set skip, Forall good set -> skipok skip ->
  match getnext skip set with
  | NEnd => outs set = []
  | NErr => False
  | NNode o e t => exists c, change_of o e = Some c /\ outs set = c :: outs t /\ Forall good t /\ length t < length set
  end.
Proof.
  induction set as [|e t IH]; intros skip G K; [reflexivity|]. inversion G as [|? ? Ge Gt]; subst. cbn [ChangeIter.getnext].
  assert (Skip : forall sk, skipok sk -> outs1 e = [] ->
    match getnext sk t with NEnd => outs (e :: t) = [] | NErr => False | NNode o e0 t0 => exists c, change_of o e0 = Some c /\ outs (e :: t) = c :: outs t0 /\ Forall good t0 /\ length t0 < length (e :: t) end).
  { intros sk Ks Q. specialize (IH sk Gt Ks). unfold outs in *. cbn [flat_map length]. rewrite Q. cbn [app]. destruct (getnext sk t); try assumption. destruct IH as (c & A & B & C & D). exists c. repeat split; try assumption. lia. }
  destruct (key_at skip e) eqn:KA; [apply Skip; [exact K|apply (key_at_skip skip); assumption]|].
  pose proof (g_cls e Ge) as Gc. unfold outs1 in Skip. unfold cls in Skip, Gc. pose proof (g_none e Ge) as Gn.
  assert (One : forall o c, cls e = Some (Some c) -> change_of o e = Some c -> exists c, change_of o e = Some c /\ outs (e :: t) = c :: outs t /\ Forall good t /\ length t < length (e :: t)).
  { intros o c Q R. exists c. repeat split; try assumption; [|cbn [length]; lia]. unfold outs. cbn [flat_map]. unfold outs1. rewrite Q. reflexivity. }
  unfold cls in One.
  destruct (find_op e) as [[[self n] o]|] eqn:Fo; [|apply Gc; reflexivity].
  destruct (negb self && userord (i_kind kd n) && is_repl o) eqn:M; [apply Skip; [exact Logic.I|reflexivity]|].
  destruct o.
  - apply Skip; [|reflexivity]. destruct (is_list (i_kind kd (e_node e))) eqn:L; [|exact Logic.I]. destruct self; [|exfalso; apply Gn; [reflexivity|exists n; reflexivity]].
    cbn [skipok]. unfold find_op in Fo. destruct (i_own (e_node e)); [injection Fo as _ ->; reflexivity|destruct (up_op (e_up e)) as [[? ?]|]; discriminate].
  - destruct (change_of OCreated e) as [c|] eqn:C; [|congruence]. pose proof (One OCreated c) as X. rewrite C in X. apply X; reflexivity.
  - destruct (change_of ODeleted e) as [c|] eqn:C; [|congruence]. pose proof (One ODeleted c) as X. rewrite C in X. apply X; reflexivity.
  - destruct (i_kind kd (e_node e)); try congruence;
    [destruct (change_of OModified e) as [c|] eqn:C; [|congruence]; pose proof (One OModified c) as X; rewrite C in X; apply X; reflexivity
    |destruct (change_of OMoved e) as [c|] eqn:C; [|congruence]; pose proof (One OMoved c) as X; rewrite C in X; apply X; reflexivity
    |destruct (change_of OMoved e) as [c|] eqn:C; [|congruence]; pose proof (One OMoved c) as X; rewrite C in X; apply X; reflexivity].
Qed.

Lemma iter_outs : forall fuel set, Forall good set -> length set < fuel -> iter_all fuel set = Some (outs set).
Proof.
  induction fuel as [|n IH]; intros set G L; [lia|]. cbn [ChangeIter.iter_all]. unfold change_next. pose proof (getnext_outs set None G Logic.I) as H.
  destruct (getnext None set) as [| |o e t]; [rewrite H; reflexivity|destruct H|]. destruct H as (c & A & B & C & D). rewrite A, B, (IH t) by (assumption || lia). reflexivity.
Qed.

(** A change is where its node is. *)
Lemma change_loc : forall o e c, change_of o e = Some c -> at_loc c = e_loc e.
Proof.
  intros o e c. unfold ChangeIter.change_of. destruct (e_node e) as [s v b k own ov an ch]. destruct o.
  - destruct (userord _); [destruct an; [|discriminate]|]; intros H; injection H as <-; reflexivity.
  - destruct ov as [[v0 b0]|]; [|discriminate]. intros H; injection H as <-; reflexivity.
  - intros H; injection H as <-; reflexivity.
  - destruct an; [|discriminate]. intros H; injection H as <-; reflexivity.
Qed.
Lemma cls_loc : forall e c, cls e = Some (Some c) -> at_loc c = e_loc e.
Proof.
  intros e c. unfold cls. destruct (find_op e) as [[[self n] o]|]; [|discriminate]. destruct (negb self && _ && _); [discriminate|].
  destruct o; try discriminate; try (destruct (i_kind kd (e_node e)); try discriminate);
    match goal with |- context [change_of ?o e] => destruct (change_of o e) as [c'|] eqn:C; [|discriminate]; intros H; injection H as <-; exact (change_loc _ _ _ C) end.
Qed.
Lemma outs_select : forall sel set, outs (select sel set) = filter (fun c => sel (at_loc c)) (outs set).
Proof.
  intros sel set. induction set as [|e t IH]; [reflexivity|]. unfold select, outs in *. cbn [filter flat_map]. rewrite filter_app.
  assert (Q : filter (fun c => sel (at_loc c)) (outs1 e) = if sel (e_loc e) then outs1 e else []).
  { unfold outs1. destruct (cls e) as [[c|]|] eqn:C; cbn [filter]; try (destruct (sel (e_loc e)); reflexivity). rewrite (cls_loc e c C). reflexivity. }
  rewrite Q. destruct (sel (e_loc e)); cbn [flat_map app]; rewrite IH; reflexivity.
Qed.
Lemma good_select : forall sel set, Forall good set -> Forall good (select sel set).
Proof. intros sel set H. apply Forall_forall. intros e He. apply filter_In in He. apply (proj1 (Forall_forall _ _) H). apply He. Qed.

Lemma iterate_outs : forall sel t, Forall good (all_nodes kd t) -> iterate kd sel t = Some (filter (fun c => sel (at_loc c)) (outs (all_nodes kd t))).
Proof. intros sel t G. unfold iterate. rewrite iter_outs; [|apply good_select; exact G|lia]. rewrite outs_select. reflexivity. Qed.

(** ** The changes of a diff *)
Definition kseq (s : nat) : list nat := match kd s with KList _ => seq 0 (nk s) | _ => [] end.
Definition own_rep (q : path) (x : diff) : list chg :=
  match x with
  | F op s v b ov an _ _ =>
      match op with
      | DNone => []
      | DCreate => CCreated (q, None) s v b (if userord (kd s) then Some an else None) :: map (fun i => CCreated (q, Some i) s (kv s v i) false None) (kseq s)
      | DDelete => CDeleted (q, None) s v b :: map (fun i => CDeleted (q, Some i) s (kv s v i) false) (kseq s)
      | DReplace => if userord (kd s) then [CMoved (q, None) s v b an] else match ov with Some (v0, b0) => [CModified (q, None) s v0 b0 v b] | None => [] end
      end
  end.
Fixpoint rep (p : path) (x : diff) : list chg :=
  match x with
  | F _ s v _ _ _ _ ch => own_rep (p ++ [(s, ikey kd s v)]) x ++ flat_map (rep (p ++ [(s, ikey kd s v)])) ch
  end.

(** Diffs as they are made: nodes without a change but for their default flag have their previous value,
    only leaves and user-ordered instances are replaced, by something else, all below a deleted node is deleted, and the
    nodes are those of well-formed data. *)
Definition fop (x : diff) : dop := match x with F op _ _ _ _ _ _ _ => op end.
Fixpoint wfx (x : diff) : Prop :=
  match x with
  | F op s v b ov an oan ch =>
      match op with
      | DNone => term (kd s) = true -> exists b0, ov = Some (v, b0)
      | DReplace => (userord (kd s) = true /\ an <> oan) \/ (kd s = KLeaf /\ exists v0 b0, ov = Some (v0, b0) /\ v0 <> v)
      | _ => True
      end /\
      (op = DDelete -> Forall (fun c => fop c = DDelete) ch) /\
      ((match kd s with KCont _ => v = 0 | _ => True end) /\ (b = true -> kd s = KLeaf) /\ (term (kd s) = true -> ch = [])) /\
      (fix all l := match l with [] => True | c :: t => wfx c /\ all t end) ch
  end.
Lemma wfx_all : forall op s v b ov an oan ch, wfx (F op s v b ov an oan ch) <->
      match op with
      | DNone => term (kd s) = true -> exists b0, ov = Some (v, b0)
      | DReplace => (userord (kd s) = true /\ an <> oan) \/ (kd s = KLeaf /\ exists v0 b0, ov = Some (v0, b0) /\ v0 <> v)
      | _ => True
      end /\ (op = DDelete -> Forall (fun c => fop c = DDelete) ch) /\
      ((match kd s with KCont _ => v = 0 | _ => True end) /\ (b = true -> kd s = KLeaf) /\ (term (kd s) = true -> ch = [])) /\ Forall wfx ch.
Proof.
  intros. cbn [wfx]. assert (Q : (fix all l := match l with [] => True | c :: t => wfx c /\ all t end) ch <-> Forall wfx ch).
  { induction ch as [|c t IH]; [split; [constructor|exact (fun _ => Logic.I)]|]. rewrite Forall_cons_iff, <- IH. reflexivity. }
  rewrite Q. reflexivity.
Qed.

Lemma keys_spec : forall s v, keys_of s v = map (fun i => I s (kv s v i) false (Some i) None None None []) (kseq s).
Proof. intros s v. unfold ChangeIter.keys_of, kseq. destruct (kd s); reflexivity. Qed.

Lemma up_head : forall n o up, i_own n = Some o -> up_op (n :: up) = Some (n, o).
Proof. intros n o up H. cbn [up_op]. rewrite H. reflexivity. Qed.

Lemma tree_outs : forall x up p, wfx x ->
  outs (nodes up p (diff_tree x)) = rep p x /\ Forall good (nodes up p (diff_tree x)).
Proof.
  intros x. induction x as [op s v b ov an oan ch IH] using diff_ind2. intros up p W. apply wfx_all in W. destruct W as (W1 & _ & _ & W3).
  cbn [ChangeIter.diff_tree ChangeIter.nodes fst snd rep].
  set (q := p ++ [(s, ikey kd s v)]).
  set (n := I s v b None (Some op) _ _ _).
  assert (On : i_own n = Some op) by reflexivity.
  assert (Kn : i_kind kd n = kd s) by reflexivity.
  (* children *)
  assert (C : outs (flat_map (nodes (n :: up) q) (map diff_tree ch)) = flat_map (rep q) ch /\ Forall good (flat_map (nodes (n :: up) q) (map diff_tree ch))).
  { clear - IH W3. clearbody n q. induction IH as [|c t Hc Ht IHt]; [split; [reflexivity|constructor]|]. inversion W3 as [|? ? Wc Wt]; subst. destruct (Hc (n :: up) q Wc) as (A1 & A2). destruct (IHt Wt) as (B1 & B2).
    cbn [map flat_map]. split; [|apply Forall_app; split; assumption]. unfold outs in *. rewrite flat_map_app, A1, B1. reflexivity. }
  destruct C as (C1 & C2).
  (* the node *)
  assert (N : good (mkent (q, None) n up) /\ outs1 (mkent (q, None) n up) ++ outs (flat_map (nodes (n :: up) q) (keys_of s v)) = own_rep q (F op s v b ov an oan ch) /\ Forall good (flat_map (nodes (n :: up) q) (keys_of s v))).
  { rewrite keys_spec, flat_map_map. cbn [ChangeIter.nodes fst flat_map]. rewrite flat_map_single.
    assert (Fo : find_op (mkent (q, None) n up) = Some (true, n, op)) by reflexivity.
    assert (Fk : forall i, find_op (mkent (q, Some i) (I s (kv s v i) false (Some i) None None None []) (n :: up)) = Some (false, n, op)) by (intros i; unfold find_op; cbn [e_node i_own e_up]; rewrite (up_head n op up On); reflexivity).
    split; [|split].
    - constructor.
      + unfold cls. rewrite Fo. cbn [negb andb e_node]. rewrite Kn. unfold ChangeIter.change_of. cbn [e_node e_loc n]. cbn [i_kind].
        destruct op; try discriminate.
        * unfold n. cbn [i_kind]. destruct (userord (kd s)) eqn:U; discriminate.
        * destruct W1 as [(U & _)|(K & vo & bo & Ov & _)]; [destruct (kd s) as [np| |uo|uo] eqn:K; try discriminate U; cbn [userord] in U; rewrite U; discriminate|]. rewrite K. rewrite Ov. discriminate.
      + cbn [e_loc snd]. congruence.
      + intros _ (m & Q). rewrite Fo in Q. discriminate.
    - unfold outs1, cls. rewrite Fo. cbn [negb andb e_node]. rewrite Kn.
      assert (Ko : outs (map (fun i => mkent (q, Some i) (I s (kv s v i) false (Some i) None None None []) (n :: up)) (kseq s)) =
                   match op with DCreate => map (fun i => CCreated (q, Some i) s (kv s v i) false None) (kseq s) | DDelete => map (fun i => CDeleted (q, Some i) s (kv s v i) false) (kseq s) | _ => [] end).
      { unfold outs. rewrite flat_map_map. destruct op.
        - apply flat_map_nil. intros i _. unfold outs1, cls. rewrite Fk. cbn [negb andb is_repl]. rewrite andb_false_r. reflexivity.
        - rewrite <- flat_map_single. apply flat_map_ext. intros i. unfold outs1, cls. rewrite Fk. cbn [negb andb is_repl]. rewrite andb_false_r. reflexivity.
        - rewrite <- flat_map_single. apply flat_map_ext. intros i. unfold outs1, cls. rewrite Fk. cbn [negb andb is_repl]. rewrite andb_false_r. reflexivity.
        - destruct W1 as [(U & _)|(K & vo & bo & Ov & _)]; [|unfold kseq; rewrite K; reflexivity]. apply flat_map_nil. intros i _. unfold outs1, cls. rewrite Fk, Kn, U. reflexivity. }
      etransitivity; [exact (f_equal2 (@app chg) eq_refl Ko)|]. unfold ChangeIter.change_of. cbn [e_node e_loc n i_kind own_rep]. destruct op; try reflexivity.
      + destruct (userord (kd s)); reflexivity.
      + destruct W1 as [(U & _)|(K & vo & bo & Ov & _)]; [destruct (kd s) as [np| |uo|uo] eqn:K; try discriminate U; cbn [userord] in U |- *; rewrite U; reflexivity|]. rewrite K. cbn [userord]. rewrite Ov. reflexivity.
    - apply Forall_forall. intros e He. apply in_map_iff in He. destruct He as (i & <- & Hi). constructor.
      + unfold cls. rewrite Fk, Kn. destruct (negb false && userord (kd s) && is_repl op) eqn:M; [discriminate|]. destruct op; try discriminate. cbn [negb is_repl andb] in M. destruct W1 as [(U & _)|(K & vo & bo & Ov & _)]; [rewrite U in M; discriminate|]. unfold kseq in Hi. rewrite K in Hi. destruct Hi.
      + reflexivity.
      + cbn. discriminate. }
  destruct N as (N1 & N2 & N3). split.
  - rewrite flat_map_app. unfold outs in *. cbn [flat_map]. rewrite flat_map_app, app_assoc, N2, C1. reflexivity.
  - constructor; [exact N1|]. rewrite flat_map_app. apply Forall_app. split; assumption.
Qed.

Lemma trees_outs : forall xs, Forall wfx xs ->
  outs (all_nodes kd (map diff_tree xs)) = flat_map (rep []) xs /\ Forall good (all_nodes kd (map diff_tree xs)).
Proof.
  intros xs H. unfold all_nodes. induction H as [|x t Hx Ht (A & B)]; [split; [reflexivity|constructor]|]. destruct (tree_outs x [] [] Hx) as (C & D).
  cbn [map flat_map]. split; [|apply Forall_app; split; assumption]. unfold outs in *. rewrite flat_map_app, C, A. reflexivity.
Qed.
End P.
