(** Iterating over the data of an enabled subscription, and all the theorems about iterating together. *)
From Coq Require Import List Bool Arith Lia Sorted Permutation.
From Verif Require Import Edit EditSpec EditProofs EditOps EditSem EditMain EditDiff ChangeIter ChangeIterSpec ChangeIterProofs ChangeIterPlay ChangeIterShape.
Import ListNotations.

Section P.
Variable kd : nat -> kind.
Variable nk : nat -> nat.
Variable kv : nat -> nat -> nat -> nat.
Notation it := (is_it kd).
Notation wfx := (wfx kd).
Notation rep := (rep kd nk kv).

(** The diff that creates data. *)
Fixpoint cr (prev : option nat) (d : dnode) : diff :=
  match d with
  | D s v b ch => F DCreate s v b None prev None
      ((fix go (seen l : list dnode) : list diff := match l with [] => [] | c :: t => cr (last_inst (dsch c) seen) c :: go (seen ++ [c]) t end) [] ch)
  end.
Fixpoint crs (seen l : list dnode) : list diff := match l with [] => [] | c :: t => cr (last_inst (dsch c) seen) c :: crs (seen ++ [c]) t end.
Lemma cr_eq : forall prev s v b ch, cr prev (D s v b ch) = F DCreate s v b None prev None (crs [] ch).
Proof. reflexivity. Qed.
Lemma en_eq : forall op prev s v b ch, en_tree kd nk kv op prev (D s v b ch) = I s v b None op None (if userord (kd s) then Some prev else None) (keys_of kd nk kv s v ++ en_sibs kd nk kv None [] ch).
Proof.
  intros. cbn [en_tree]. f_equal. f_equal.
  set (go := fix go (seen l : list dnode) : list inode := match l with [] => [] | c :: t => en_tree kd nk kv None (last_inst (dsch c) seen) c :: go (seen ++ [c]) t end).
  assert (K : forall l seen, go seen l = en_sibs kd nk kv None seen l) by (induction l as [|c t IH]; intros seen; [reflexivity|]; cbn [en_sibs go]; f_equal; apply IH).
  apply K.
Qed.

Definition created (op : option dop) (up : list inode) : Prop := op = Some DCreate \/ (op = None /\ exists n, up_op up = Some (n, DCreate)).

Lemma en_outs : forall d op prev up p, created op up ->
  outs kd (nodes kd up p (en_tree kd nk kv op prev d)) = rep p (cr prev d) /\ Forall (good kd) (nodes kd up p (en_tree kd nk kv op prev d)).
Proof.
  intros d. induction d as [s v b ch IH] using dnode_ind2. intros op prev up p C. rewrite en_eq, cr_eq. cbn [ChangeIter.nodes fst snd ChangeIterProofs.rep].
  set (q := p ++ [(s, ikey kd s v)]). set (n := I s v b None op _ _ _).
  assert (Kn : i_kind kd n = kd s) by reflexivity.
  assert (On : i_own n = op) by reflexivity.
  assert (Cu : exists m, up_op (n :: up) = Some (m, DCreate)).
  { cbn [up_op]. rewrite On. destruct C as [->|(-> & m & Q)]; [exists n; reflexivity|exists m; exact Q]. }
  assert (K : forall seen, outs kd (flat_map (nodes kd (n :: up) q) (en_sibs kd nk kv None seen ch)) = flat_map (rep q) (crs seen ch) /\ Forall (good kd) (flat_map (nodes kd (n :: up) q) (en_sibs kd nk kv None seen ch))).
  { clear - IH Cu. clearbody n q. induction IH as [|c t Hc Ht IHt]; intros seen; [split; [reflexivity|constructor]|]. cbn [en_sibs crs flat_map]. destruct (Hc None (last_inst (dsch c) seen) (n :: up) q (or_intror (conj eq_refl Cu))) as (A1 & A2). destruct (IHt (seen ++ [c])) as (B1 & B2).
    split; [|apply Forall_app; split; assumption]. unfold outs in *. rewrite flat_map_app, A1, B1. reflexivity. }
  destruct (K []) as (C1 & C2). clear K.
  assert (Fo : exists self m, find_op (mkent (q, None) n up) = Some (self, m, DCreate)).
  { unfold find_op. cbn [e_node e_up]. rewrite On. destruct C as [->|(-> & m & Q)]; [exists true, n; reflexivity|]. rewrite Q. exists false, m. reflexivity. }
  destruct Fo as (self & m0 & Fo). destruct Cu as (m & Cu).
  assert (Fk : forall i, find_op (mkent (q, Some i) (I s (kv s v i) false (Some i) None None None []) (n :: up)) = Some (false, m, DCreate)) by (intros i; unfold find_op; cbn [e_node i_own e_up]; rewrite Cu; reflexivity).
  assert (N : good kd (mkent (q, None) n up) /\ outs1 kd (mkent (q, None) n up) ++ outs kd (flat_map (nodes kd (n :: up) q) (keys_of kd nk kv s v)) = own_rep kd nk kv q (F DCreate s v b None prev None []) /\ Forall (good kd) (flat_map (nodes kd (n :: up) q) (keys_of kd nk kv s v))).
  { rewrite keys_spec, flat_map_map. cbn [ChangeIter.nodes fst flat_map]. rewrite flat_map_single. split; [|split].
    - constructor.
      + unfold cls. rewrite Fo. cbn [is_repl]. rewrite andb_false_r. unfold change_of, n. cbn [e_node i_kind]. destruct (userord (kd s)); discriminate.
      + cbn [e_loc snd]. congruence.
      + intros _ (x & Q). rewrite Fo in Q. discriminate.
    - assert (Ko : outs kd (map (fun i => mkent (q, Some i) (I s (kv s v i) false (Some i) None None None []) (n :: up)) (kseq kd nk s)) = map (fun i => CCreated (q, Some i) s (kv s v i) false None) (kseq kd nk s)).
      { unfold outs. rewrite flat_map_map, <- flat_map_single. apply flat_map_ext. intros i. unfold outs1, cls. rewrite Fk. cbn [is_repl]. rewrite andb_false_r. reflexivity. }
      etransitivity; [exact (f_equal2 (@app chg) eq_refl Ko)|]. unfold outs1, cls. rewrite Fo. cbn [is_repl]. rewrite andb_false_r. unfold change_of, n. cbn [e_node i_kind own_rep e_loc]. destruct (userord (kd s)); reflexivity.
    - apply Forall_forall. intros e He. apply in_map_iff in He. destruct He as (i & <- & Hi). constructor.
      + unfold cls. rewrite Fk. cbn [is_repl]. rewrite andb_false_r. discriminate.
      + reflexivity.
      + cbn. discriminate. }
  destruct N as (N1 & N2 & N3). split.
  - rewrite flat_map_app. unfold outs in *. cbn [flat_map]. rewrite flat_map_app, app_assoc, N2, C1. reflexivity.
  - constructor; [exact N1|]. rewrite flat_map_app. apply Forall_app. split; assumption.
Qed.
Lemma ens_outs : forall ds seen, outs kd (all_nodes kd (en_sibs kd nk kv (Some DCreate) seen ds)) = flat_map (rep []) (crs seen ds) /\ Forall (good kd) (all_nodes kd (en_sibs kd nk kv (Some DCreate) seen ds)).
Proof.
  unfold all_nodes. induction ds as [|d t IH]; intros seen; [split; [reflexivity|constructor]|]. cbn [en_sibs crs flat_map]. destruct (en_outs d (Some DCreate) (last_inst (dsch d) seen) [] [] (or_introl eq_refl)) as (A & B). destruct (IH (seen ++ [d])) as (C & D0).
  split; [|apply Forall_app; split; assumption]. unfold outs in *. rewrite flat_map_app, A, C. reflexivity.
Qed.

Lemma crs_ok : forall ds seen, Forall (wfd kd) ds -> Forall wfx (crs seen ds) /\ Forall (loud kd) (crs seen ds).
Proof.
  assert (One : forall d, wfd kd d -> forall prev, wfx (cr prev d) /\ loud kd (cr prev d)).
  { intros d. induction d as [s v b ch IH] using dnode_ind2. intros W prev. apply EditSem.wfd_all in W. destruct W as (W1 & W2 & W3 & _ & W4). rewrite cr_eq.
    assert (K : forall seen, Forall wfx (crs seen ch) /\ Forall (loud kd) (crs seen ch)).
    { clear - IH W4. induction IH as [|c t Hc Ht IHt]; intros seen; [split; constructor|]. inversion W4 as [|? ? Wc Wt]; subst. cbn [crs]. destruct (Hc Wc (last_inst (dsch c) seen)) as (A & B). destruct (IHt Wt (seen ++ [c])) as (C & D0). split; constructor; assumption. }
    destruct (K []) as (K1 & K2). split.
    - apply wfx_all. split; [exact Logic.I|]. split; [discriminate|]. split; [split; [exact W1|split; [exact W2|intros T; rewrite (W3 T); reflexivity]]|exact K1].
    - apply loud_all. split; [discriminate|exact K2]. }
  induction ds as [|d t IH]; intros seen W; [split; constructor|]. inversion W as [|? ? Wd Wt]; subst. cbn [crs]. destruct (One d Wd (last_inst (dsch d) seen)) as (A & B). destruct (IH (seen ++ [d]) Wt) as (C & D0). split; constructor; assumption.
Qed.

Lemma put_last : forall d seen, StronglySorted (fun a b => dsch a <= dsch b) (seen ++ [d]) -> put (dsch d) (grp (dsch d) seen ++ [d]) seen = seen ++ [d].
Proof.
  intros d seen S0. pose proof (put_grp (dsch d) (seen ++ [d]) S0) as P. rewrite <- P. unfold put, grp. rewrite !filter_app. cbn [filter]. rewrite Nat.eqb_refl, !Nat.ltb_irrefl, !app_nil_r. reflexivity.
Qed.
Lemma crs_apply : forall ds, wf_data kd ds -> forall nest, fold_diff (dapply kd nest) (crs [] ds) [] = Some ds.
Proof.
  assert (One : forall d, wfd kd d -> forall nest seen rest prev, wf_sibs kd (seen ++ d :: rest) -> prev = last_inst (dsch d) seen -> dapply kd nest (cr prev d) (grp (dsch d) seen) = Some (grp (dsch d) seen ++ [d])).
  { intros d. induction d as [s v b ch IH] using dnode_ind2. intros W nest seen rest prev Ws ->. apply EditSem.wfd_all in W. destruct W as (_ & _ & _ & Wc & W4). rewrite cr_eq. cbn [EditSpec.dapply dsch].
    pose proof (find_group_none kd seen (D s v b ch) rest (proj2 Ws)) as Fn. cbn [dsch dval] in Fn. rewrite Fn.
    assert (K : forall l seen0, ch = seen0 ++ l -> fold_diff (dapply kd nest) (crs seen0 l) seen0 = Some ch).
    { induction l as [|c t IHt]; intros seen0 E; [cbn [crs fold_diff]; rewrite E, app_nil_r; reflexivity|]. cbn [crs fold_diff].
      assert (Hc : In c ch) by (rewrite E; apply in_or_app; right; left; reflexivity).
      assert (Fc : fsch (cr (last_inst (dsch c) seen0) c) = dsch c) by (destruct c; reflexivity). rewrite Fc.
      rewrite (proj1 (Forall_forall _ _) IH c Hc (proj1 (Forall_forall _ _) W4 c Hc) nest seen0 t); [|rewrite <- E; exact Wc|reflexivity].
      rewrite put_last; [apply IHt; rewrite <- app_assoc; exact E|]. destruct Wc as (Sc & _). rewrite E in Sc. replace (seen0 ++ c :: t) with ((seen0 ++ [c]) ++ t) in Sc by (rewrite <- app_assoc; reflexivity). clear - Sc. induction (seen0 ++ [c]) as [|y l IHl]; [constructor|]. cbn [app] in Sc. inversion Sc as [|? ? S1 S2]; subst. constructor; [apply IHl; exact S1|]. apply Forall_app in S2. apply S2. }
    rewrite (K ch [] eq_refl). destruct (userord (kd s)) eqn:U; [|reflexivity].
    change (last_inst s seen) with (lastv (grp s seen) None). rewrite <- (app_nil_r (grp s seen)) at 2. apply insert_at_split. rewrite app_nil_r. destruct Ws as (_ & Nd).
    pose proof (proj1 (nodup_grp kd _) Nd s) as Ng. unfold grp in *. rewrite filter_app in Ng. rewrite map_app in Ng. clear - Ng U.
    assert (Na : NoDup (map (EditSpec.ident kd) (filter (fun d => Nat.eqb (dsch d) s) seen))). { clear - Ng. induction (map (EditSpec.ident kd) (filter (fun d => Nat.eqb (dsch d) s) seen)) as [|x l IHl]; [constructor|]. cbn [app] in Ng. inversion Ng as [|? ? N1 N2]; subst. constructor; [intros X; apply N1; apply in_or_app; left; exact X|apply IHl; exact N2]. }
    rewrite (map_ident kd s) in Na by (apply grp_all). apply nodup_pair in Na. unfold EditSpec.key in Na. assert (Is : inst (kd s) = true) by (destruct (kd s); try discriminate U; reflexivity). rewrite Is in Na. exact Na. }
  intros ds ((Sd & Nd) & Wd) nest.
  assert (K : forall l seen0, ds = seen0 ++ l -> fold_diff (dapply kd nest) (crs seen0 l) seen0 = Some ds).
  { induction l as [|c t IHt]; intros seen0 E; [cbn [crs fold_diff]; rewrite E, app_nil_r; reflexivity|]. cbn [crs fold_diff].
    assert (Hc : In c ds) by (rewrite E; apply in_or_app; right; left; reflexivity).
    assert (Fc : fsch (cr (last_inst (dsch c) seen0) c) = dsch c) by (destruct c; reflexivity). rewrite Fc.
    rewrite (One c (proj1 (Forall_forall _ _) Wd c Hc) nest seen0 t); [|rewrite <- E; split; assumption|reflexivity].
    rewrite put_last; [apply IHt; rewrite <- app_assoc; exact E|]. pose proof Sd as Sc. rewrite E in Sc. replace (seen0 ++ c :: t) with ((seen0 ++ [c]) ++ t) in Sc by (rewrite <- app_assoc; reflexivity). clear - Sc. induction (seen0 ++ [c]) as [|y l IHl]; [constructor|]. cbn [app] in Sc. inversion Sc as [|? ? S1 S2]; subst. constructor; [apply IHl; exact S1|]. apply Forall_app in S2. apply S2. }
  apply K. reflexivity.
Qed.

(** ** Theorems *)
Lemma copy_top : forall fl ds k, c_val (copy_of kd nk kv fl ds) ([], k) = None.
Proof. intros fl ds [i|]; reflexivity. Qed.
Lemma plays_same : forall fl xs ds ds', wf_data kd ds -> Forall wfx xs -> (fl = true -> Forall (loud kd) xs) -> diff_apply kd xs ds = Some ds' ->
  exists c', plays kd fl (flat_map (rep []) xs) (copy_of kd nk kv fl ds) = Some c' /\ same c' (copy_of kd nk kv fl ds').
Proof.
  intros fl xs ds ds' W X L H. destruct (plays_diff kd nk kv fl xs ds ds' (copy_of kd nk kv fl ds) W X L H) as (c' & P & A & B & C); [split; reflexivity|].
  exists c'. split; [exact P|]. split; [|exact B]. intros (p, k). destruct p as [|id p]; [|apply A; discriminate]. rewrite C, !copy_top. reflexivity.
Qed.

Theorem iterate_edit : forall es ds o, wf_data kd ds -> wf_edit kd es -> edit_apply kd es ds = ROk o -> o_err o = false ->
  exists cs, (forall sel, iterate kd sel (sess_diff kd nk kv (o_diff o)) = Some (filter (fun c => sel (at_loc c)) cs)) /\
    (forall fl, (fl = true -> Forall (loud kd) (o_diff o)) -> exists c', plays kd fl cs (copy_of kd nk kv fl ds) = Some c' /\ same c' (copy_of kd nk kv fl (o_g o))).
Proof.
  intros es ds o W We H Er. destruct (edit_diff_exact kd es ds o W We H Er) as (Ex & _). pose proof (edit_wfx kd es ds o W We H Er) as X.
  set (xs := ly_siblings (map ly_tree (o_diff o))).
  assert (Xs : Forall wfx xs) by (apply (tree_Forall wfx); [intros x Hx; apply ly_tree_wfx; exact Hx|exact X]).
  destruct (trees_outs kd nk kv xs Xs) as (O1 & O2). exists (flat_map (rep []) xs). split.
  - intros sel. unfold sess_diff. fold xs. rewrite iterate_outs by exact O2. rewrite O1. reflexivity.
  - intros fl L. apply plays_same; try assumption.
    + intros E. apply (tree_Forall (loud kd)); [intros x; apply ly_tree_loud|apply L; exact E].
    + unfold xs. rewrite diff_apply_tree. exact Ex.
Qed.
Theorem iterate_enabled : forall ds, wf_data kd ds ->
  exists cs, (forall sel, iterate kd sel (enabled_diff kd nk kv ds) = Some (filter (fun c => sel (at_loc c)) cs)) /\
    (forall fl, exists c', plays kd fl cs (copy_of kd nk kv fl []) = Some c' /\ same c' (copy_of kd nk kv fl ds)).
Proof.
  intros ds W. destruct (ens_outs ds []) as (O1 & O2). destruct (crs_ok ds [] (proj2 W)) as (C1 & C2). exists (flat_map (rep []) (crs [] ds)). split.
  - intros sel. unfold enabled_diff. rewrite iterate_outs by exact O2. rewrite O1. reflexivity.
  - intros fl. apply plays_same; [apply wf_data_nil|exact C1|intros _; exact C2|]. apply crs_apply. exact W.
Qed.
End P.
