(** The edits of a notification made of a diff. *)
From Coq Require Import List Bool Arith NArith Lia Sorted.
From Verif Require Import Edit EditSpec EditProofs EditDiff ChangeIter ChangeIterSpec ChangeIterProofs ChangeIterPlay ChangeIterShape YangPush YangPushSpec.
Import ListNotations.

Section P.
Variable kd : nat -> kind.
Variable nk : nat -> nat.
Variable kv : nat -> nat -> nat -> nat.
Notation wfx := (wfx kd).
Notation kseq := (kseq kd nk).
Notation key := (EditSpec.key kd).
Notation diff_tree := (diff_tree kd nk kv).
Notation nodes := (nodes kd).
Notation outs1 := (outs1 kd).
Notation change_of := (change_of kd).
Notation good := (good kd).

(** ** Changes with their nodes *)
Definition opof (c : chg) : op := match c with CCreated _ _ _ _ _ => OCreated | CDeleted _ _ _ _ => ODeleted | CModified _ _ _ _ _ _ => OModified | CMoved _ _ _ _ _ => OMoved end.
Definition ents (e : ent) : list (op * ent * chg) := map (fun c => (opof c, e, c)) (outs1 e).
Lemma change_op : forall o e c, change_of o e = Some c -> opof c = o.
Proof.
  intros o e c. unfold ChangeIter.change_of. destruct (e_node e) as [s v b k own ov an ch]. destruct o.
  - destruct (userord _); [destruct an; [|discriminate]|]; intros H; injection H as <-; reflexivity.
  - destruct ov as [[v0 b0]|]; [|discriminate]. intros H; injection H as <-; reflexivity.
  - intros H; injection H as <-; reflexivity.
  - destruct an; [|discriminate]. intros H; injection H as <-; reflexivity.
Qed.

Lemma getnext_ents : forall set skip, Forall good set -> skipok skip ->
  match getnext kd skip set with
  | NEnd => flat_map ents set = []
  | NErr => False
  | NNode o e t => exists c, change_of o e = Some c /\ flat_map ents set = (o, e, c) :: flat_map ents t /\ Forall good t /\ length t < length set
  end.
Proof.
  induction set as [|e t IH]; intros skip G K; [reflexivity|]. inversion G as [|? ? Ge Gt]; subst. cbn [ChangeIter.getnext].
  assert (Skip : forall sk, skipok sk -> outs1 e = [] ->
    match getnext kd sk t with NEnd => flat_map ents (e :: t) = [] | NErr => False | NNode o e0 t0 => exists c, change_of o e0 = Some c /\ flat_map ents (e :: t) = (o, e0, c) :: flat_map ents t0 /\ Forall good t0 /\ length t0 < length (e :: t) end).
  { intros sk Ks Q. specialize (IH sk Gt Ks). cbn [flat_map length]. assert (Qe : ents e = []) by (unfold ents; rewrite Q; reflexivity). rewrite Qe. cbn [app]. destruct (getnext kd sk t); try assumption. destruct IH as (c & A & B & C & D). exists c. repeat split; try assumption. lia. }
  destruct (key_at skip e) eqn:KA; [apply Skip; [exact K|apply (key_at_skip kd skip); assumption]|].
  pose proof (g_cls kd e Ge) as Gc. unfold ChangeIterProofs.outs1 in Skip. unfold cls in Skip, Gc. pose proof (g_none kd e Ge) as Gn.
  assert (One : forall o c, cls kd e = Some (Some c) -> change_of o e = Some c -> exists c, change_of o e = Some c /\ flat_map ents (e :: t) = (o, e, c) :: flat_map ents t /\ Forall good t /\ length t < length (e :: t)).
  { intros o c Q R. exists c. repeat split; try assumption; [|cbn [length]; lia]. cbn [flat_map]. assert (Qe : ents e = [(o, e, c)]) by (unfold ents, ChangeIterProofs.outs1; rewrite Q; cbn [map]; rewrite (change_op _ _ _ R); reflexivity). rewrite Qe. reflexivity. }
  unfold cls in One.
  destruct (find_op e) as [[[self n] o]|] eqn:Fo; [|apply Gc; reflexivity].
  destruct (negb self && userord (i_kind kd n) && is_repl o) eqn:M; [apply Skip; [exact Logic.I|reflexivity]|].
  destruct o.
  - apply Skip; [|reflexivity]. destruct (is_list (i_kind kd (e_node e))) eqn:L; [|exact Logic.I]. destruct self; [|exfalso; apply Gn; [reflexivity|exists n; reflexivity]].
    cbn [skipok]. unfold find_op in Fo. destruct (i_own (e_node e)); [injection Fo as _ ->; reflexivity|destruct (up_op (e_up e)) as [[? ?]|]; discriminate].
  - destruct (change_of OCreated e) as [c|] eqn:C; [|congruence]. pose proof (One OCreated c) as X. rewrite C in X. apply X; reflexivity.
  - destruct (change_of ODeleted e) as [c|] eqn:C; [|congruence]. pose proof (One ODeleted c) as X. rewrite C in X. apply X; reflexivity.
  - destruct (i_kind kd (e_node e)); try congruence;
    [destruct (change_of OModified e) as [c|] eqn:C; [|congruence]; pose proof (One OModified c) as X; rewrite C in X; apply X; reflexivity
    |destruct (change_of OMoved e) as [c|] eqn:C; [|congruence]; pose proof (One OMoved c) as X; rewrite C in X; apply X; reflexivity
    |destruct (change_of OMoved e) as [c|] eqn:C; [|congruence]; pose proof (One OMoved c) as X; rewrite C in X; apply X; reflexivity].
Qed.
Lemma iter_ents : forall fuel set, Forall good set -> length set < fuel -> iter_tree kd fuel set = flat_map ents set.
Proof.
  induction fuel as [|n IH]; intros set G L; [lia|]. cbn [iter_tree]. pose proof (getnext_ents set None G Logic.I) as H.
  destruct (getnext kd None set) as [| |o e t]; [rewrite H; reflexivity|destruct H|]. destruct H as (c & A & B & C & D). rewrite A, B, (IH t) by (assumption || lia). reflexivity.
Qed.
Lemma select_all : forall l, select (fun _ => true) l = l.
Proof. induction l as [|x t IH]; [reflexivity|]. cbn. f_equal. exact IH. Qed.
Lemma changes_ents : forall xs, Forall wfx xs -> tree_changes kd (fun _ => true) (map diff_tree xs) = flat_map ents (all_nodes kd (map diff_tree xs)).
Proof.
  intros xs W. destruct (trees_outs kd nk kv xs W) as (_ & G). unfold tree_changes. rewrite select_all. apply iter_ents; [exact G|]. lia.
Qed.

(** ** Which changes become edits *)
Fixpoint keep (la : option (op * loc)) (cs : list (op * ent * chg)) : list (op * ent * chg) * option (op * loc) :=
  match cs with
  | [] => ([], la)
  | x :: t =>
      let '(o, e, c) := x in
      if nested la o (e_loc e) then keep la t
      else let r := keep (Some (o, e_loc e)) t in (x :: fst r, snd r)
  end.
Lemma keep_app : forall a b la, keep la (a ++ b) = (fst (keep la a) ++ fst (keep (snd (keep la a)) b), snd (keep (snd (keep la a)) b)).
Proof.
  induction a as [|[[o e] c] t IH]; intros b la; [cbn [app keep fst snd]; destruct (keep la b); reflexivity|]. cbn [app keep]. destruct (nested la o (e_loc e)); [apply IH|]. rewrite IH. cbn [fst snd app]. reflexivity.
Qed.
(** Edits without their numbers. *)
Definition ed (x : op * ent * chg) : yedit := let '(o, e, _) := x in edit_of 0%N (op_sr2yp kd o (e_node e)) x.
Definition noid (e : yedit) : yedit := mkyed 0%N (y_op e) (y_tgt e) (y_where e) (y_val e).

(** ** Paths *)
Lemma prefix_app : forall p q, prefix_of p q = true <-> exists r, q = p ++ r.
Proof.
  induction p as [|(a, b) p IH]; intros q; cbn [prefix_of app]; [split; [intros _; exists q; reflexivity|reflexivity]|]. destruct q as [|(c, d) q]; [split; [discriminate|intros (r & E); discriminate]|].
  rewrite !andb_true_iff, !Nat.eqb_eq, IH. split; [intros ((-> & ->) & r & ->); exists r; reflexivity|intros (r & E); injection E as -> -> ->; split; [split; reflexivity|exists r; reflexivity]].
Qed.
Lemma path_eqb_eq : forall p q, path_eqb p q = true <-> p = q.
Proof.
  intros p q. unfold path_eqb. rewrite andb_true_iff, !prefix_app. split; [|intros ->; split; exists []; rewrite app_nil_r; reflexivity].
  intros ((r & ->) & (r' & E)). rewrite <- app_assoc in E. destruct r as [|i r]; [rewrite app_nil_r; reflexivity|]. exfalso. exact (app_ne p i _ E).
Qed.
Lemma loc_eqb_eq : forall a b, loc_eqb a b = true <-> a = b.
Proof.
  intros (p, k) (q, j). unfold loc_eqb. cbn [fst snd]. rewrite andb_true_iff, path_eqb_eq. destruct k as [k|], j as [j|]; cbn [okey_eqb]; rewrite ?Nat.eqb_eq; intuition congruence.
Qed.
Lemma app_diff : forall (p : path) a b r r', a <> b -> p ++ a :: r <> p ++ b :: r'.
Proof. intros p a b r r' N E. apply app_inv_head in E. congruence. Qed.

(** ** Shape of diffs *)
Definition fid (x : diff) : nat * nat := match x with F _ s v _ _ _ _ _ => (s, key s v) end.
Fixpoint tidy (x : diff) : Prop :=
  match x with
  | F op s v b ov an oan ch =>
      NoDup (map fid ch) /\
      (op = DCreate -> Forall (fun c => fop c = DCreate) ch /\ forall t, userord (kd t) = true -> chained None (of_s t ch)) /\
      (fix all l := match l with [] => True | c :: t => tidy c /\ all t end) ch
  end.
Lemma tidy_all : forall op s v b ov an oan ch, tidy (F op s v b ov an oan ch) <->
  NoDup (map fid ch) /\ (op = DCreate -> Forall (fun c => fop c = DCreate) ch /\ forall t, userord (kd t) = true -> chained None (of_s t ch)) /\ Forall tidy ch.
Proof.
  intros. cbn [tidy]. assert (Q : (fix all l := match l with [] => True | c :: t => tidy c /\ all t end) ch <-> Forall tidy ch).
  { induction ch as [|c t IH]; [split; [constructor|exact (fun _ => Logic.I)]|]. rewrite Forall_cons_iff, <- IH. reflexivity. }
  rewrite Q. reflexivity.
Qed.

(** ** Edits of a diff *)
Definition wh (q : path) (an : option nat) : ywhere := match an with None => WFirst | Some a => WAfter (q, None) a end.
Definition own_ed (q : path) (x : diff) : list yedit :=
  match x with
  | F op s v b ov an _ _ =>
      match op with
      | DNone => []
      | DCreate => [if userord (kd s) then mkyed 0 YInsert (q, None) (Some (wh q an)) (Some (val_of (diff_tree x))) else mkyed 0 YCreate (q, None) None (Some (val_of (diff_tree x)))]
      | DDelete => mkyed 0 YDelete (q, None) None None :: map (fun i => mkyed 0 YDelete (q, Some i) None None) (kseq s)
      | DReplace => if userord (kd s) then [mkyed 0 YMove (q, None) (Some (wh q an)) None] else [mkyed 0 YReplace (q, None) None (Some (val_of (diff_tree x)))]
      end
  end.
Fixpoint yrep (p : path) (x : diff) : list yedit :=
  match x with
  | F op s v _ _ _ _ ch => own_ed (p ++ [(s, key s v)]) x ++ match op with DCreate => [] | _ => flat_map (yrep (p ++ [(s, key s v)])) ch end
  end.

(** The last created node is not above what comes. *)
Definition ok_la (p : path) (done : list (nat * nat)) (la : option (op * loc)) : Prop :=
  match la with Some (OCreated, (l, None)) => forall id r, ~ In id done -> prefix_of l (p ++ id :: r) = false | _ => True end.
Definition la_in (q : path) (la la' : option (op * loc)) : Prop :=
  la' = la \/ match la' with Some (_, (l, _)) => exists r, l = q ++ r | None => False end.
Lemma ok_nested : forall p done la id r o k, ok_la p done la -> ~ In id done -> nested la o (p ++ id :: r, k) = false.
Proof.
  intros p done la id r o k H N. unfold nested. destruct la as [[o' [l [j|]]]|]; [cbn [is_anc]; apply andb_false_r| |reflexivity].
  destruct o'; try (cbn [created]; rewrite ?andb_false_r; reflexivity). cbn [is_anc fst]. rewrite (H id r N). cbn [andb]. apply andb_false_r.
Qed.
Lemma ok_down : forall p done la id, ok_la p done la -> ~ In id done -> ok_la (p ++ [id]) [] la.
Proof.
  intros p done la id H N. unfold ok_la in *. destruct la as [[[] [l [j|]]]|]; try exact Logic.I. intros id' r _. rewrite <- app_assoc. cbn [app]. apply H. exact N.
Qed.
Lemma ok_next : forall p done la la' id, ok_la p done la -> la_in (p ++ [id]) la la' -> ok_la p (id :: done) la'.
Proof.
  intros p done la la' id H [->|L]; unfold ok_la in *.
  - destruct la as [[[] [l [j|]]]|]; try exact Logic.I. intros id' r N. apply H. intros X. apply N. right. exact X.
  - destruct la' as [[[] [l [j|]]]|]; try exact Logic.I. destruct L as (r0 & ->). intros id' r N. destruct (prefix_of ((p ++ [id]) ++ r0) (p ++ id' :: r)) eqn:Q; [|reflexivity]. exfalso.
    apply prefix_app in Q. destruct Q as (r1 & Q). rewrite <- !app_assoc in Q. cbn [app] in Q. revert Q. apply app_diff. intros ->. apply N. left. reflexivity.
Qed.
Lemma la_trans : forall q a b c, la_in q a b -> la_in q b c -> la_in q a c.
Proof. intros q a b c [->|H] [->|K]; [left; reflexivity|right; exact K|right; exact H|right; exact K]. Qed.
Lemma la_up : forall q id a b, la_in (q ++ [id]) a b -> la_in q a b.
Proof. intros q id a b [->|H]; [left; reflexivity|right]. destruct b as [[o [l k]]|]; [|exact H]. destruct H as (r & ->). exists (id :: r). rewrite <- app_assoc. reflexivity. Qed.

(** What the node of a diff and its keys give. *)
Definition nd (x : diff) : inode := diff_tree x.
Lemma self_outs : forall op s v b ov an oan ch up q, wfx (F op s v b ov an oan ch) ->
  outs1 (mkent (q, None) (nd (F op s v b ov an oan ch)) up) =
    match op with
    | DNone => []
    | DCreate => [CCreated (q, None) s v b (if userord (kd s) then Some an else None)]
    | DDelete => [CDeleted (q, None) s v b]
    | DReplace => if userord (kd s) then [CMoved (q, None) s v b an] else match ov with Some (v0, b0) => [CModified (q, None) s v0 b0 v b] | None => [] end
    end.
Proof.
  intros op s v b ov an oan ch up q W. apply wfx_all in W. destruct W as (W1 & _). unfold nd. cbn [ChangeIter.diff_tree]. unfold ChangeIterProofs.outs1, cls, find_op. cbn [e_node i_own negb andb i_kind]. unfold ChangeIter.change_of. cbn [e_node e_loc i_kind].
  destruct op; try reflexivity.
  - destruct (userord (kd s)); reflexivity.
  - destruct W1 as [(U & _)|(K & vo & bo & Ov & _)]; [destruct (kd s) as [np| |uo|uo] eqn:K; try discriminate U; cbn [userord] in U |- *; rewrite U; reflexivity|]. rewrite K. cbn [userord]. rewrite Ov. reflexivity.
Qed.
Lemma key_outs : forall op s v b ov an oan ch up q i, In i (kseq s) -> wfx (F op s v b ov an oan ch) ->
  outs1 (mkent (q, Some i) (I s (kv s v i) false (Some i) None None None []) (nd (F op s v b ov an oan ch) :: up)) =
    match op with DCreate => [CCreated (q, Some i) s (kv s v i) false None] | DDelete => [CDeleted (q, Some i) s (kv s v i) false] | _ => [] end.
Proof.
  intros op s v b ov an oan ch up q i Hi W. apply wfx_all in W. destruct W as (W1 & _). unfold nd. cbn [ChangeIter.diff_tree]. unfold ChangeIterProofs.outs1, cls, find_op. cbn [e_node i_own e_up up_op negb andb i_kind]. unfold ChangeIter.change_of. cbn [e_node e_loc i_kind userord].
  destruct op; cbn [is_repl]; rewrite ?andb_false_r, ?andb_true_r; try reflexivity.
  destruct W1 as [(U & _)|(K & vo & bo & Ov & _)]; [rewrite U; reflexivity|]. unfold ChangeIterProofs.kseq in Hi. rewrite K in Hi. destruct Hi.
Qed.
Lemma nodes_diff : forall op s v b ov an oan ch up p,
  nodes up p (diff_tree (F op s v b ov an oan ch)) =
    mkent (p ++ [(s, key s v)], None) (nd (F op s v b ov an oan ch)) up ::
    map (fun i => mkent (p ++ [(s, key s v)], Some i) (I s (kv s v i) false (Some i) None None None []) (nd (F op s v b ov an oan ch) :: up)) (kseq s) ++
    flat_map (fun c => nodes (nd (F op s v b ov an oan ch) :: up) (p ++ [(s, key s v)]) (diff_tree c)) ch.
Proof.
  intros. unfold nd. cbn [ChangeIter.diff_tree ChangeIter.nodes fst]. f_equal. rewrite flat_map_app, keys_spec, !flat_map_map. f_equal.
Qed.

Lemma created_under : forall x up p y, wfx x -> tidy x -> fop x = DCreate -> In y (flat_map ents (nodes up p (diff_tree x))) ->
  fst (fst y) = OCreated /\ exists r, fst (e_loc (snd (fst y))) = p ++ fid x :: r.
Proof.
  intros x. induction x as [op s v b ov an oan ch IH] using diff_ind2. intros up p y W T E Hy. cbn [fop] in E. subst op. pose proof W as W0. apply wfx_all in W. destruct W as (W1 & _ & _ & W4).
  apply tidy_all in T. destruct T as (_ & T2 & T3). destruct (T2 eq_refl) as (T2' & _). rewrite nodes_diff in Hy. cbn [flat_map] in Hy. rewrite flat_map_app in Hy. cbn [fid].
  apply in_app_or in Hy. destruct Hy as [Hy|Hy].
  - unfold ents in Hy. rewrite (self_outs _ _ _ _ _ _ _ _ _ _ W0) in Hy. cbn [map In] in Hy. destruct Hy as [<-|[]]. split; [reflexivity|]. exists []. reflexivity.
  - apply in_app_or in Hy. destruct Hy as [Hy|Hy].
    + rewrite flat_map_map in Hy. apply in_flat_map in Hy. destruct Hy as (i & Hi & Hy). unfold ents in Hy. rewrite (key_outs _ _ _ _ _ _ _ _ _ _ i Hi W0) in Hy. cbn [map In] in Hy. destruct Hy as [<-|[]]. split; [reflexivity|]. exists []. reflexivity.
    + apply in_flat_map in Hy. destruct Hy as (e & He & Hy). apply in_flat_map in He. destruct He as (c & Hc & He).
      destruct (proj1 (Forall_forall _ _) IH c Hc (nd (F DCreate s v b ov an oan ch) :: up) (p ++ [(s, key s v)]) y) as (A & r & B).
      * exact (proj1 (Forall_forall _ _) W4 c Hc).
      * exact (proj1 (Forall_forall _ _) T3 c Hc).
      * exact (proj1 (Forall_forall _ _) T2' c Hc).
      * apply in_flat_map. exists e. split; assumption.
      * split; [exact A|]. rewrite <- app_assoc in B. cbn [app] in B. eexists. exact B.
Qed.
Lemma keep_nested : forall cs la, (forall y, In y cs -> nested la (fst (fst y)) (e_loc (snd (fst y))) = true) -> keep la cs = ([], la).
Proof.
  induction cs as [|[[o e] c] t IH]; intros la H; [reflexivity|]. cbn [keep]. pose proof (H _ (or_introl eq_refl)) as Q. cbn [fst snd] in Q. rewrite Q. apply IH. intros y Hy. apply H. right. exact Hy.
Qed.

Definition okkeep (x : diff) : Prop := forall up p done la, wfx x -> tidy x -> ok_la p done la -> ~ In (fid x) done ->
  map ed (fst (keep la (flat_map ents (nodes up p (diff_tree x))))) = yrep p x /\ la_in (p ++ [fid x]) la (snd (keep la (flat_map ents (nodes up p (diff_tree x))))).
Lemma okkeeps : forall xs, Forall okkeep xs -> forall up p done la, Forall wfx xs -> Forall tidy xs -> NoDup (map fid xs) -> (forall x, In x xs -> ~ In (fid x) done) -> ok_la p done la ->
  map ed (fst (keep la (flat_map ents (flat_map (fun c => nodes up p (diff_tree c)) xs)))) = flat_map (yrep p) xs /\
  la_in p la (snd (keep la (flat_map ents (flat_map (fun c => nodes up p (diff_tree c)) xs)))).
Proof.
  intros xs H. induction H as [|x t Hx Ht IH]; intros up p done la W T N D L; [split; [reflexivity|left; reflexivity]|].
  inversion W as [|? ? Wx Wt]; subst. inversion T as [|? ? Tx Tt]; subst. cbn [map] in N. inversion N as [|? ? Nx Nt]; subst.
  cbn [flat_map]. rewrite flat_map_app, keep_app. destruct (Hx up p done la Wx Tx L (D x (or_introl eq_refl))) as (A & B). cbn [fst snd]. set (la1 := snd (keep la (flat_map ents (nodes up p (diff_tree x))))) in *.
  destruct (IH up p (fid x :: done) la1 Wt Tt Nt) as (C & E).
  - intros y Hy [X|X]; [apply Nx; rewrite X; apply in_map; exact Hy|exact (D y (or_intror Hy) X)].
  - exact (ok_next p done la la1 (fid x) L B).
  - split; [rewrite map_app, A, C; reflexivity|]. exact (la_trans p la la1 _ (la_up p (fid x) la la1 B) E).
Qed.

Lemma keys_keep : forall s v (up : list inode) q (o : op) l la, o <> OCreated ->
  keep la (flat_map (fun i => [(o, mkent (q, Some i) (I s (kv s v i) false (Some i) None None None []) up, CDeleted (q, Some i) s (kv s v i) false)]) l) =
    (map (fun i => (o, mkent (q, Some i) (I s (kv s v i) false (Some i) None None None []) up, CDeleted (q, Some i) s (kv s v i) false)) l,
     match rev l with [] => la | i :: _ => Some (o, (q, Some i)) end).
Proof.
  intros s v up q o l. induction l as [|i t IH]; intros la N; [reflexivity|]. cbn [flat_map app keep e_loc].
  assert (Q : nested la o (q, Some i) = false) by (unfold nested; destruct la as [[o' l']|]; [destruct o; [congruence|reflexivity..]|reflexivity]).
  rewrite Q, IH by exact N. cbn [fst snd map rev]. f_equal. destruct (rev t) as [|j r]; reflexivity.
Qed.

Lemma all_okkeep : forall x, okkeep x.
Proof.
  intros x. induction x as [op s v b ov an oan ch IH] using diff_ind2. intros up p done la W T L N. cbn [fid] in N |- *.
  pose proof W as W0. apply wfx_all in W. destruct W as (W1 & _ & _ & W4). pose proof T as T0. apply tidy_all in T. destruct T as (T1 & T2 & T3).
  set (q := p ++ [(s, key s v)]). rewrite nodes_diff. fold q. set (n := nd (F op s v b ov an oan ch)) in *.
  cbn [flat_map]. rewrite flat_map_app, flat_map_map. unfold ents at 1 4. rewrite !(self_outs _ _ _ _ _ _ _ _ _ _ W0).
  assert (Ko : forall f, (forall i, In i (kseq s) -> outs1 (mkent (q, Some i) (I s (kv s v i) false (Some i) None None None []) (n :: up)) = f i) ->
     flat_map (fun i => ents (mkent (q, Some i) (I s (kv s v i) false (Some i) None None None []) (n :: up))) (kseq s) = flat_map (fun i => map (fun c => (opof c, mkent (q, Some i) (I s (kv s v i) false (Some i) None None None []) (n :: up), c)) (f i)) (kseq s)).
  { intros f Hf. apply flat_map_ext_Forall. apply Forall_forall. intros i Hi. unfold ents. rewrite (Hf i Hi). reflexivity. }
  assert (Nq : forall o la', nested la' o (q, None) = false -> True) by trivial.
  assert (Nest0 : forall o, nested la o (q, None) = false) by (intros o; unfold q; apply (ok_nested p done la (s, key s v) [] o None L N)).
  cbn [yrep]. fold q.
  destruct op.
  - (* none *)
    rewrite (Ko (fun _ => [])) by (intros i Hi; exact (key_outs _ _ _ _ _ _ _ _ up q i Hi W0)). rewrite flat_map_nil by reflexivity. cbn [map app own_ed].
    destruct (okkeeps ch IH (n :: up) q [] la W4 T3 T1 (fun _ _ X => X) (ok_down p done la _ L N)) as (A & B). split; assumption.
  - (* create *)
    rewrite (Ko (fun i => [CCreated (q, Some i) s (kv s v i) false None])) by (intros i Hi; exact (key_outs _ _ _ _ _ _ _ _ up q i Hi W0)).
    cbn [map app opof keep e_loc]. rewrite (Nest0 OCreated). cbn [fst snd].
    rewrite keep_nested.
    + cbn [fst snd map own_ed ed e_node]. split; [|right; exists []; rewrite app_nil_r; reflexivity]. f_equal. unfold edit_of. cbn [e_loc e_node]. unfold n, nd. cbn [ChangeIter.diff_tree op_sr2yp i_kind]. destruct (userord (kd s)); [|reflexivity]. cbn [where_of]. unfold wh. reflexivity.
    + intros y Hy. assert (X : fst (fst y) = OCreated /\ (exists i, e_loc (snd (fst y)) = (q, Some i)) \/ fst (fst y) = OCreated /\ exists id r, fst (e_loc (snd (fst y))) = q ++ id :: r).
      { apply in_app_or in Hy. destruct Hy as [Hy|Hy].
        - left. apply in_flat_map in Hy. destruct Hy as (i & Hi & Hy). cbn [map In] in Hy. destruct Hy as [<-|[]]. split; [reflexivity|]. exists i. reflexivity.
        - right. apply in_flat_map in Hy. destruct Hy as (e & He & Hy). apply in_flat_map in He. destruct He as (c & Hc & He).
          destruct (created_under c (n :: up) q y) as (A & r & B).
          + exact (proj1 (Forall_forall _ _) W4 c Hc).
          + exact (proj1 (Forall_forall _ _) T3 c Hc).
          + exact (proj1 (Forall_forall _ _) (proj1 (T2 eq_refl)) c Hc).
          + apply in_flat_map. exists e. split; assumption.
          + split; [exact A|]. eexists. eexists. exact B. }
      unfold nested. destruct X as [(A & i & B)|(A & id & r & B)]; rewrite A; cbn [created andb is_anc].
      * rewrite B. cbn [fst]. assert (P : prefix_of q q = true) by (apply prefix_app; exists []; rewrite app_nil_r; reflexivity). rewrite P. unfold loc_eqb. cbn [fst snd okey_eqb]. rewrite andb_false_r. reflexivity.
      * rewrite B. assert (P : prefix_of q (q ++ id :: r) = true) by (apply prefix_app; exists (id :: r); reflexivity). rewrite P. destruct (loc_eqb (q, None) (e_loc (snd (fst y)))) eqn:Q; [|reflexivity]. apply loc_eqb_eq in Q. rewrite <- Q in B. cbn [fst] in B. exfalso. exact (app_ne q id r B).
  - (* delete *)
    rewrite (Ko (fun i => [CDeleted (q, Some i) s (kv s v i) false])) by (intros i Hi; exact (key_outs _ _ _ _ _ _ _ _ up q i Hi W0)).
    cbn [map app opof keep e_loc]. rewrite (Nest0 ODeleted). rewrite keep_app, keys_keep by discriminate. cbn [fst snd].
    set (la1 := match rev (kseq s) with [] => Some (ODeleted, (q, None)) | i :: _ => Some (ODeleted, (q, Some i)) end).
    assert (L1 : ok_la q [] la1) by (unfold la1; destruct (rev (kseq s)); exact Logic.I).
    destruct (okkeeps ch IH (n :: up) q [] la1 W4 T3 T1 (fun _ _ X => X) L1) as (A & B). split.
    + cbn [map own_ed]. rewrite map_app, map_map. cbn [app]. f_equal. f_equal. exact A.
    + refine (la_trans q la la1 _ _ B). right. unfold la1. destruct (rev (kseq s)); exists []; rewrite app_nil_r; reflexivity.
  - (* replace *)
    rewrite (Ko (fun _ => [])) by (intros i Hi; exact (key_outs _ _ _ _ _ _ _ _ up q i Hi W0)). rewrite flat_map_nil by reflexivity. cbn [app own_ed].
    destruct (userord (kd s)) eqn:U.
    + cbn [map app opof keep e_loc]. rewrite (Nest0 OMoved). cbn [fst snd].
      destruct (okkeeps ch IH (n :: up) q [] (Some (OMoved, (q, None))) W4 T3 T1 (fun _ _ X => X) Logic.I) as (A & B). split.
      * cbn [map]. cbn [app]. f_equal. exact A.
      * refine (la_trans q la (Some (OMoved, (q, None))) _ _ B). right. exists []. rewrite app_nil_r. reflexivity.
    + destruct W1 as [(X & _)|(K & vo & bo & -> & _)]; [congruence|]. cbn [map app opof keep e_loc]. rewrite (Nest0 OModified). cbn [fst snd].
      destruct (okkeeps ch IH (n :: up) q [] (Some (OModified, (q, None))) W4 T3 T1 (fun _ _ X => X) Logic.I) as (A & B). split.
      * cbn [map]. cbn [app]. f_equal. exact A.
      * refine (la_trans q la (Some (OModified, (q, None))) _ _ B). right. exists []. rewrite app_nil_r. reflexivity.
Qed.

Lemma kept_yrep : forall xs, Forall wfx xs -> Forall tidy xs -> NoDup (map fid xs) ->
  map ed (fst (keep None (tree_changes kd (fun _ => true) (map diff_tree xs)))) = flat_map (yrep []) xs.
Proof.
  intros xs W T N. rewrite changes_ents by exact W. unfold all_nodes. rewrite flat_map_map.
  apply (okkeeps xs) with (done := []); try assumption; [|intros x _ X; exact X|exact Logic.I]. apply Forall_forall. intros x _. apply all_okkeep.
Qed.

(** ** Targets are different *)
Lemma yrep_under : forall x p e, In e (yrep p x) -> exists r, fst (y_tgt e) = p ++ fid x :: r.
Proof.
  intros x. induction x as [op s v b ov an oan ch IH] using diff_ind2. intros p e He. cbn [yrep fid] in *. apply in_app_or in He. destruct He as [He|He].
  - exists []. cbn [own_ed] in He. destruct op; [destruct He| | |].
    + destruct He as [<-|[]]. destruct (userord (kd s)); reflexivity.
    + destruct He as [<-|He]; [reflexivity|]. apply in_map_iff in He. destruct He as (i & <- & _). reflexivity.
    + destruct (userord (kd s)); destruct He as [<-|[]]; reflexivity.
  - assert (Q : In e (flat_map (yrep (p ++ [(s, key s v)])) ch)) by (destruct op; [exact He|destruct He|exact He|exact He]). apply in_flat_map in Q. destruct Q as (c & Hc & Q).
    destruct (proj1 (Forall_forall _ _) IH c Hc _ _ Q) as (r & R). rewrite <- app_assoc in R. cbn [app] in R. eexists. exact R.
Qed.
Lemma nodup_app : forall (A : Type) (a b : list A), NoDup a -> NoDup b -> (forall x, In x a -> ~ In x b) -> NoDup (a ++ b).
Proof.
  intros A a b Na Nb H. induction Na as [|x t Hx Nt IH]; [exact Nb|]. cbn [app]. constructor.
  - intros X. apply in_app_or in X. destruct X as [X|X]; [contradiction|exact (H x (or_introl eq_refl) X)].
  - apply IH. intros y Hy. apply H. right. exact Hy.
Qed.
Lemma yreps_nodup : forall xs p, Forall (fun x => forall p, tidy x -> NoDup (map y_tgt (yrep p x))) xs -> Forall tidy xs -> NoDup (map fid xs) -> NoDup (map y_tgt (flat_map (yrep p) xs)).
Proof.
  intros xs p H. induction H as [|x t Hx Ht IH]; intros T N; [constructor|]. inversion T as [|? ? Tx Tt]; subst. cbn [map] in N. inversion N as [|? ? Nx Nt]; subst. cbn [flat_map]. rewrite map_app. apply nodup_app; [apply Hx; exact Tx|apply IH; assumption|].
  intros l Hl X. apply in_map_iff in Hl. destruct Hl as (e & <- & He). apply in_map_iff in X. destruct X as (e' & Ee & He'). apply in_flat_map in He'. destruct He' as (y & Hy & He').
  destruct (yrep_under x p e He) as (r & R). destruct (yrep_under y p e' He') as (r' & R'). rewrite Ee, R in R'. revert R'. apply app_diff. intros E. apply Nx. rewrite E. apply in_map. exact Hy.
Qed.
Lemma yrep_nodup : forall x p, tidy x -> NoDup (map y_tgt (yrep p x)).
Proof.
  intros x. induction x as [op s v b ov an oan ch IH] using diff_ind2. intros p T. apply tidy_all in T. destruct T as (T1 & T2 & T3). cbn [yrep]. set (q := p ++ [(s, key s v)]). rewrite map_app.
  pose proof (yreps_nodup ch q IH T3 T1) as Nc.
  assert (Own : NoDup (map y_tgt (own_ed q (F op s v b ov an oan ch)))).
  { cbn [own_ed]. destruct op; [constructor| | |].
    - destruct (userord (kd s)); cbn [map]; constructor; try constructor; intros [].
    - cbn [map y_tgt]. rewrite map_map. constructor; [intros X; apply in_map_iff in X; destruct X as (i & X & _); discriminate X|]. cbn [y_tgt]. pose proof (kseq_nodup kd nk s) as Nk. clear - Nk. induction Nk as [|i t Hi Nt IHt]; [constructor|]. cbn [map]. constructor; [|exact IHt]. intros X. apply in_map_iff in X. destruct X as (j & E & Hj). injection E as ->. contradiction.
    - destruct (userord (kd s)); cbn [map]; constructor; try constructor; intros []. }
  assert (Ol : forall l, In l (map y_tgt (own_ed q (F op s v b ov an oan ch))) -> fst l = q).
  { intros l Hl. apply in_map_iff in Hl. destruct Hl as (e & <- & He). cbn [own_ed] in He. destruct op; [destruct He| | |].
    - destruct He as [<-|[]]. destruct (userord (kd s)); reflexivity.
    - destruct He as [<-|He]; [reflexivity|]. apply in_map_iff in He. destruct He as (i & <- & _). reflexivity.
    - destruct (userord (kd s)); destruct He as [<-|[]]; reflexivity. }
  assert (Kids : forall l, In l (map y_tgt (own_ed q (F op s v b ov an oan ch))) -> ~ In l (map y_tgt (flat_map (yrep q) ch))).
  { intros l Hl X. apply in_map_iff in X. destruct X as (e & E & He). apply in_flat_map in He. destruct He as (c & Hc & He). destruct (yrep_under c q e He) as (r & R). rewrite E, (Ol l Hl) in R. exact (app_ne q _ _ R). }
  destruct op; (apply nodup_app; [exact Own|try exact Nc|try exact Kids]); [constructor|intros l _ []].
Qed.
End P.
