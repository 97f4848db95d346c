(** Proofs for C64. *)
From Coq Require Import List Bool Arith NArith Lia Permutation.
From Verif Require Import Edit EditSpec EditProofs EditSem EditMain EditDiff ChangeIter ChangeIterSpec ChangeIterProofs ChangeIterPlay ChangeIterShape ChangeIterEn
  YangPush YangPushSpec YangPushProofs YangPushFollow YangPushShape ConfNotif ConfNotifSpec.
Import ListNotations.

Section P.
Variable kd : nat -> kind.
Variable nk : nat -> nat.
Variable kv : nat -> nat -> nat -> nat.
Notation wfx := (wfx kd).
Notation kseq := (kseq kd nk).
Notation diff_tree := (diff_tree kd nk kv).
Notation nodes := (nodes kd).
Notation rep := (rep kd nk kv).
Notation own_rep := (own_rep kd nk kv).
Notation fid := (fid kd).
Notation good := (good kd).
Notation plays := (plays kd false).
Notation play := (play kd false).

(** ** The loop gives the changes *)
Definition entry (c : chg) : loc * eop := (at_loc c, op_enum (opof c)).

Lemma edits_outs : forall fuel set, Forall good set -> length set < fuel -> edits kd fuel set = Some (map entry (outs kd set)).
Proof.
  induction fuel as [|n IH]; intros set G L; [lia|]. cbn [edits]. pose proof (getnext_outs kd set None G Logic.I) as H.
  destruct (getnext kd None set) as [| |o e t]; [rewrite H; reflexivity|destruct H|]. destruct H as (c & A & B & C & D). rewrite (IH t) by (assumption || lia).
  rewrite B. cbn [map]. unfold entry at 2. rewrite (change_loc kd o e c A), (change_op kd o e c A). reflexivity.
Qed.

(** ** Is there a change *)
Lemma any_app : forall a b, any_change (a ++ b) = any_change a || any_change b.
Proof. intros a b. apply existsb_app. Qed.

Lemma any_rep : forall x up p, wfx x -> any_change (nodes up p (diff_tree x)) = negb (match rep p x with [] => true | _ => false end).
Proof.
  intros x. induction x as [op s v b ov an oan ch IH] using diff_ind2. intros up p W. apply wfx_all in W. destruct W as (W1 & _ & _ & W3).
  cbn [ChangeIter.diff_tree ChangeIter.nodes fst snd ChangeIterProofs.rep].
  set (q := p ++ [(s, ikey kd s v)]). set (n := I s v b None (Some op) _ _ _).
  assert (C : any_change (flat_map (nodes (n :: up) q) (map diff_tree ch)) = negb (match flat_map (rep q) ch with [] => true | _ => false end)).
  { clear - IH W3. clearbody n q. induction IH as [|c t Hc Ht IHt]; [reflexivity|]. inversion W3 as [|? ? Wc Wt]; subst. cbn [map flat_map]. rewrite any_app, (Hc (n :: up) q Wc), (IHt Wt).
    destruct (rep q c); reflexivity. }
  assert (K : any_change (flat_map (nodes (n :: up) q) (keys_of kd nk kv s v)) = false).
  { rewrite keys_spec, flat_map_map. cbn [ChangeIter.nodes fst flat_map]. rewrite flat_map_single. clear. induction (kseq s) as [|i t IHt]; [reflexivity|]. cbn. exact IHt. }
  change (any_change (mkent (q, None) n up :: flat_map (nodes (n :: up) q) (keys_of kd nk kv s v ++ map diff_tree ch)))
    with (own_change n || any_change (flat_map (nodes (n :: up) q) (keys_of kd nk kv s v ++ map diff_tree ch))).
  rewrite flat_map_app, any_app, K, C. cbn [orb]. destruct op; cbn [ChangeIterProofs.own_rep app]; try reflexivity.
  destruct W1 as [(U & _)|(Kl & vo & bo & Ov & _)]; [rewrite U; reflexivity|]. rewrite Kl. cbn [userord]. rewrite Ov. reflexivity.
Qed.

Lemma any_reps : forall xs, Forall wfx xs -> any_change (all_nodes kd (map diff_tree xs)) = negb (match flat_map (rep []) xs with [] => true | _ => false end).
Proof.
  intros xs W. unfold all_nodes. induction W as [|x t Wx Wt IH]; [reflexivity|]. cbn [map flat_map]. rewrite any_app, (any_rep x [] [] Wx), IH. destruct (rep [] x); reflexivity.
Qed.

(** ** Every place is listed once *)
Fixpoint dis (x : diff) : Prop :=
  match x with F _ _ _ _ _ _ _ ch => NoDup (map fid ch) /\ (fix all l := match l with [] => True | c :: t => dis c /\ all t end) ch end.
Lemma dis_all : forall op s v b ov an oan ch, dis (F op s v b ov an oan ch) <-> NoDup (map fid ch) /\ Forall dis ch.
Proof.
  intros. cbn [dis]. assert (Q : (fix all l := match l with [] => True | c :: t => dis c /\ all t end) ch <-> Forall dis ch).
  { induction ch as [|c t IH]; [split; [constructor|exact (fun _ => Logic.I)]|]. rewrite Forall_cons_iff, <- IH. reflexivity. }
  rewrite Q. reflexivity.
Qed.
Lemma tidy0_dis : forall x, tidy0 kd x -> dis (ly_tree x).
Proof.
  intros x. induction x as [op s v b ov an oan ch IH] using diff_ind2. intros T. apply tidy0_all in T. destruct T as (T1 & _ & T3). cbn [ly_tree]. apply dis_all.
  split; [apply siblings_nodup; exact T1|]. apply ly_siblings_Forall. clear - IH T3. induction IH as [|c t Hc Ht IHt]; [constructor|]. inversion T3; subst. cbn [map]. constructor; [apply Hc; assumption|apply IHt; assumption].
Qed.

Lemma rep_under : forall x p c, In c (rep p x) -> exists r, fst (at_loc c) = p ++ fid x :: r.
Proof.
  intros x. induction x as [op s v b ov an oan ch IH] using diff_ind2. intros p c H. cbn [ChangeIterProofs.rep] in H. apply in_app_or in H. destruct H as [H|H].
  - exists []. cbn [ChangeIterProofs.own_rep] in H. destruct op; [destruct H| | |].
    + destruct H as [<-|H]; [reflexivity|]. apply in_map_iff in H. destruct H as (i & <- & _). reflexivity.
    + destruct H as [<-|H]; [reflexivity|]. apply in_map_iff in H. destruct H as (i & <- & _). reflexivity.
    + destruct (userord (kd s)); [destruct H as [<-|[]]; reflexivity|]. destruct ov as [[v0 b0]|]; [|destruct H]. destruct H as [<-|[]]; reflexivity.
  - apply in_flat_map in H. destruct H as (y & Hy & H). destruct (proj1 (Forall_forall _ _) IH y Hy _ _ H) as (r & R). exists (fid y :: r). rewrite R, <- app_assoc. reflexivity.
Qed.

Lemma rep_moved : forall x p l s v b an, In (CMoved l s v b an) (rep p x) -> ordered kd l.
Proof.
  intros x. induction x as [op s v b ov an oan ch IH] using diff_ind2. intros p l s0 v0 b0 an0 H. cbn [ChangeIterProofs.rep] in H. apply in_app_or in H. destruct H as [H|H].
  - cbn [ChangeIterProofs.own_rep] in H. destruct op; [destruct H| | |].
    + destruct H as [H|H]; [discriminate|]. apply in_map_iff in H. destruct H as (i & H & _). discriminate.
    + destruct H as [H|H]; [discriminate|]. apply in_map_iff in H. destruct H as (i & H & _). discriminate.
    + destruct (userord (kd s)) eqn:U; [destruct H as [H|[]]; injection H as <- <- _ _ _; exists p, s, (ikey kd s v); split; [reflexivity|exact U]|]. destruct ov as [[v1 b1]|]; [|destruct H]. destruct H as [H|[]]; discriminate.
  - apply in_flat_map in H. destruct H as (y & Hy & H). exact (proj1 (Forall_forall _ _) IH y Hy _ _ _ _ _ _ H).
Qed.

Lemma keys_nodup : forall (q : path) s (f : nat -> chg), (forall i, at_loc (f i) = (q, Some i)) -> NoDup (map at_loc (map f (kseq s))).
Proof.
  intros q s f E. rewrite map_map. pose proof (kseq_nodup kd nk s) as Nk. induction Nk as [|i t Hi Nt IH]; [constructor|]. cbn [map]. constructor; [|exact IH].
  intros X. apply in_map_iff in X. destruct X as (j & X & Hj). rewrite !E in X. injection X as ->. contradiction.
Qed.

Lemma reps_nodup : forall xs p, Forall (fun x => forall p, dis x -> NoDup (map at_loc (rep p x))) xs -> Forall dis xs -> NoDup (map fid xs) -> NoDup (map at_loc (flat_map (rep p) xs)).
Proof.
  intros xs p H. induction H as [|x t Hx Ht IH]; intros T N; [constructor|]. inversion T as [|? ? Tx Tt]; subst. cbn [map] in N. inversion N as [|? ? Nx Nt]; subst. cbn [flat_map]. rewrite map_app. apply nodup_app; [apply Hx; exact Tx|apply IH; assumption|].
  intros l Hl X. apply in_map_iff in Hl. destruct Hl as (e & <- & He). apply in_map_iff in X. destruct X as (e' & Ee & He'). apply in_flat_map in He'. destruct He' as (y & Hy & He').
  destruct (rep_under x p e He) as (r & R). destruct (rep_under y p e' He') as (r' & R'). rewrite Ee, R in R'. revert R'. apply app_diff. intros E. apply Nx. rewrite E. apply in_map. exact Hy.
Qed.

Lemma rep_nodup : forall x p, dis x -> NoDup (map at_loc (rep p x)).
Proof.
  intros x. induction x as [op s v b ov an oan ch IH] using diff_ind2. intros p T. apply dis_all in T. destruct T as (T1 & T2). cbn [ChangeIterProofs.rep]. set (q := p ++ [(s, ikey kd s v)]). rewrite map_app.
  apply nodup_app; [|apply reps_nodup; assumption|].
  - cbn [ChangeIterProofs.own_rep]. destruct op; [constructor| | |].
    + cbn [map at_loc]. constructor; [|apply (keys_nodup q); reflexivity]. intros X. rewrite map_map in X. apply in_map_iff in X. destruct X as (i & X & _). discriminate X.
    + cbn [map at_loc]. constructor; [|apply (keys_nodup q); reflexivity]. intros X. rewrite map_map in X. apply in_map_iff in X. destruct X as (i & X & _). discriminate X.
    + destruct (userord (kd s)); [constructor; [intros []|constructor]|]. destruct ov as [[v0 b0]|]; [constructor; [intros []|constructor]|constructor].
  - intros l Hl X. assert (fst l = q) as Fl.
    { apply in_map_iff in Hl. destruct Hl as (c & <- & Hc). cbn [ChangeIterProofs.own_rep] in Hc. destruct op; [destruct Hc| | |].
      - destruct Hc as [<-|Hc]; [reflexivity|]. apply in_map_iff in Hc. destruct Hc as (i & <- & _). reflexivity.
      - destruct Hc as [<-|Hc]; [reflexivity|]. apply in_map_iff in Hc. destruct Hc as (i & <- & _). reflexivity.
      - destruct (userord (kd s)); [destruct Hc as [<-|[]]; reflexivity|]. destruct ov as [[v0 b0]|]; [|destruct Hc]. destruct Hc as [<-|[]]; reflexivity. }
    apply in_map_iff in X. destruct X as (c & E & Hc). apply in_flat_map in Hc. destruct Hc as (y & Hy & Hc). destruct (rep_under y q c Hc) as (r & R).
    rewrite E, Fl in R. apply (f_equal (@length _)) in R. rewrite app_length in R. cbn [length] in R. lia.
Qed.

(** ** What playing changes says of values *)
Definition val (c : copy) (l : loc) : option nat := option_map fst (c_val c l).
Definition meets (x : chg) (c c' : copy) : Prop :=
  match opof x with
  | OCreated => val c (at_loc x) = None /\ val c' (at_loc x) <> None
  | ODeleted => val c (at_loc x) <> None /\ val c' (at_loc x) = None
  | OModified => exists v w, val c (at_loc x) = Some v /\ val c' (at_loc x) = Some w /\ v <> w
  | OMoved => val c (at_loc x) <> None /\ val c' (at_loc x) = val c (at_loc x)
  end.

Lemma holds_val : forall l x c, holds l x c = true -> val c l = Some (fst x).
Proof.
  intros l x c H. unfold holds in H. unfold val. destruct (c_val c l) as [y|]; [|discriminate]. cbn [option_map]. unfold fv_eqb in H. apply andb_true_iff in H. destruct H as [H _]. apply Nat.eqb_eq in H. rewrite H. reflexivity.
Qed.
Lemma val_set : forall l x c m, val (set_val l x c) m = if loc_dec m l then option_map fst x else val c m.
Proof. intros l x c m. unfold val, set_val. cbn [c_val]. destruct (loc_dec m l); reflexivity. Qed.
Lemma val_ord : forall p s x c m, val (set_ord p s x c) m = val c m.
Proof. reflexivity. Qed.

Lemma play_meets : forall x c c', play x c = Some c' -> meets x c c' /\ forall l, l <> at_loc x -> val c' l = val c l.
Proof.
  intros x c c' H. unfold meets. destruct x as [l s v b an|l s v b|l s v0 b0 v b|l s v b an]; cbn [ChangeIterSpec.play opof at_loc] in *.
  - assert (val c l = None /\ (forall m, val c' m = if loc_dec m l then Some v else val c m)) as [A B].
    { unfold val at 1. destruct (c_val c l) as [y|]; [discriminate|]. split; [reflexivity|].
      destruct (exists_path (parent l) c); [|discriminate]. destruct an as [a|], (uo kd l s); try discriminate.
      - destruct (place (after_of a) v (c_ord c (parent l) s)); [|discriminate]. injection H as <-. intros m. rewrite val_ord, val_set. reflexivity.
      - injection H as <-. intros m. rewrite val_set. reflexivity. }
    split; [split; [exact A|]|].
    + rewrite B. destruct (loc_dec l l); [discriminate|contradiction].
    + intros m N. rewrite B. destruct (loc_dec m l); [contradiction|reflexivity].
  - destruct (holds l (fv false v b) c) eqn:Ho; [|discriminate]. apply holds_val in Ho. injection H as <-.
    assert (forall m, val (if uo kd l s then set_ord (parent l) s (filter (fun y => negb (Nat.eqb y v)) (c_ord c (parent l) s)) (set_val l None c) else set_val l None c) m = if loc_dec m l then None else val c m) as B.
    { intros m. destruct (uo kd l s); rewrite ?val_ord, val_set; reflexivity. }
    split; [split; [rewrite Ho; discriminate|]|].
    + rewrite B. destruct (loc_dec l l); [reflexivity|contradiction].
    + intros m N. rewrite B. destruct (loc_dec m l); [contradiction|reflexivity].
  - destruct (holds l (fv false v0 b0) c) eqn:Ho; [|discriminate]. apply holds_val in Ho. cbn [andb] in H. destruct (negb (uo kd l s) && negb (Nat.eqb v0 v)) eqn:Q; [|discriminate]. injection H as <-.
    apply andb_true_iff in Q. destruct Q as [_ Q]. apply negb_true_iff, Nat.eqb_neq in Q. cbn [fv fst] in Ho.
    split; [exists v0, v; split; [exact Ho|]; split; [|exact Q]|].
    + rewrite val_set. destruct (loc_dec l l); [reflexivity|contradiction].
    + intros m N. rewrite val_set. destruct (loc_dec m l); [contradiction|reflexivity].
  - destruct (holds l (fv false v b) c) eqn:Ho; [|discriminate]. apply holds_val in Ho. cbn [andb] in H. destruct (uo kd l s); [|discriminate].
    destruct (place (after_of an) v (c_ord c (parent l) s)); [|discriminate]. destruct (list_eq_dec Nat.eq_dec l0 (c_ord c (parent l) s)); [discriminate|]. injection H as <-.
    split; [split; [rewrite Ho; discriminate|apply val_ord]|]. intros m _. apply val_ord.
Qed.

Lemma meets_ext : forall x c c' d d', val d (at_loc x) = val c (at_loc x) -> val d' (at_loc x) = val c' (at_loc x) -> meets x c c' -> meets x d d'.
Proof. intros x c c' d d' A B. unfold meets. rewrite A, B. exact (fun H => H). Qed.

Lemma plays_meet : forall cs c c', plays cs c = Some c' -> NoDup (map at_loc cs) ->
  (forall x, In x cs -> meets x c c') /\ (forall l, ~ In l (map at_loc cs) -> val c' l = val c l).
Proof.
  induction cs as [|x t IH]; intros c c' H N.
  - cbn [ChangeIterSpec.plays] in H. injection H as <-. split; [intros x []|reflexivity].
  - cbn [ChangeIterSpec.plays] in H. destruct (play x c) as [c1|] eqn:P; [|discriminate]. destruct (play_meets x c c1 P) as [M1 M2].
    cbn [map] in N. inversion N as [|? ? Nx Nt]; subst. destruct (IH c1 c' H Nt) as [I1 I2]. split.
    + intros y [<-|Hy].
      * apply (meets_ext x c c1); [reflexivity|apply I2; exact Nx|exact M1].
      * apply (meets_ext y c1 c'); [|reflexivity|apply I1; exact Hy]. symmetry. apply M2. intros E. apply Nx. rewrite <- E. apply in_map. exact Hy.
    + intros l Hl. cbn [map In] in Hl. rewrite I2 by (intros X; apply Hl; right; exact X). apply M2. intros ->. apply Hl. left. reflexivity.
Qed.

(** ** The list tells the difference *)
Lemma in_entry : forall x o cs, In (x, o) (map entry cs) <-> exists c, In c cs /\ at_loc c = x /\ op_enum (opof c) = o.
Proof.
  intros x o cs. rewrite in_map_iff. unfold entry. split.
  - intros (c & E & I). injection E as <- <-. exists c. auto.
  - intros (c & I & <- & <-). exists c. auto.
Qed.

Lemma cs_tells : forall cs a b c, plays cs (copy_of kd nk kv false a) = Some c -> same c (copy_of kd nk kv false b) -> NoDup (map at_loc cs) ->
  (forall l s v f an, In (CMoved l s v f an) cs -> ordered kd l) -> cs <> [] -> tells kd nk kv (map entry cs) a b.
Proof.
  intros cs a b c P [S _] N Mo Ne. destruct (plays_meet cs _ c P N) as [M1 M2].
  assert (forall l, val c l = value kd nk kv b l) as Vb by (intros l; unfold val, value; rewrite S; reflexivity).
  assert (forall x, value kd nk kv a x <> value kd nk kv b x -> exists c0, In c0 cs /\ at_loc c0 = x) as Li.
  { intros x D. destruct (in_dec loc_dec x (map at_loc cs)) as [I|I]; [apply in_map_iff in I; destruct I as (c0 & E & I); exists c0; auto|].
    exfalso. apply D. rewrite <- Vb. symmetry. apply (M2 x I). }
  assert (forall c0, In c0 cs -> match opof c0 with
     | OCreated => value kd nk kv a (at_loc c0) = None /\ value kd nk kv b (at_loc c0) <> None
     | ODeleted => value kd nk kv a (at_loc c0) <> None /\ value kd nk kv b (at_loc c0) = None
     | OModified => exists v w, value kd nk kv a (at_loc c0) = Some v /\ value kd nk kv b (at_loc c0) = Some w /\ v <> w
     | OMoved => value kd nk kv a (at_loc c0) <> None /\ value kd nk kv b (at_loc c0) = value kd nk kv a (at_loc c0) end) as Me.
  { intros c0 I. specialize (M1 c0 I). unfold meets in M1. rewrite Vb in M1. exact M1. }
  constructor.
  - rewrite map_map. exact N.
  - destruct cs; [contradiction|discriminate].
  - intros x. rewrite in_entry. split.
    + intros (c0 & I & <- & E). specialize (Me c0 I). destruct (opof c0); try discriminate E. exact Me.
    + intros [A B]. destruct (Li x) as (c0 & I & E); [congruence|]. exists c0. split; [exact I|]. split; [exact E|]. specialize (Me c0 I). rewrite E in Me.
      destruct (opof c0); [reflexivity| | |]; [destruct Me as (v & w & E1 & _); congruence|destruct Me; contradiction|destruct Me; contradiction].
  - intros x. rewrite in_entry. split.
    + intros (c0 & I & <- & E). specialize (Me c0 I). destruct (opof c0); try discriminate E. exact Me.
    + intros [A B]. destruct (Li x) as (c0 & I & E); [congruence|]. exists c0. split; [exact I|]. split; [exact E|]. specialize (Me c0 I). rewrite E in Me.
      destruct (opof c0); [| |reflexivity|]; [destruct Me; contradiction|destruct Me as (v & w & E1 & E2 & _); congruence|destruct Me; congruence].
  - intros x. rewrite in_entry. split.
    + intros (c0 & I & <- & E). specialize (Me c0 I). destruct (opof c0); try discriminate E. exact Me.
    + intros (v & w & A & B & D). destruct (Li x) as (c0 & I & E); [congruence|]. exists c0. split; [exact I|]. split; [exact E|]. specialize (Me c0 I). rewrite E in Me.
      destruct (opof c0); [|reflexivity| |]; destruct Me; congruence.
  - intros x H. apply in_entry in H. destruct H as (c0 & I & <- & E). specialize (Me c0 I). destruct c0 as [l s v f an|l s v f|l s v0 b0 v f|l s v f an]; cbn in E; try discriminate E. cbn [opof at_loc] in *.
    split; [apply Me|]. split; [apply Me|]. exact (Mo l s v f an I).
Qed.

(** ** What is generated *)
Theorem generated : forall es ds o d subs replay se, wf_data kd ds -> wf_edit kd es -> edit_apply kd es ds = ROk o -> o_err o = false -> sound se ->
  (d = DStartup \/ d = DRunning) -> (subs <> 0 \/ replay = true) ->
  (generate kd d subs replay se (sess_diff kd nk kv (o_diff o)) = GNone /\ unchanged kd nk kv ds (o_g o)) \/
  exists n, generate kd d subs replay se (sess_diff kd nk kv (o_diff o)) = GNotif n /\ n_ds n = d /\ author se (n_user n) (n_sid n) /\ tells kd nk kv (n_edits n) ds (o_g o).
Proof.
  intros es ds o d subs replay se W We H Er So D Su. pose proof (edit_wfx kd es ds o W We H Er) as X. destruct (edit_tidy0 kd es ds o W We H Er) as (T0 & Nf & _).
  destruct (edit_diff_exact kd es ds o W We H Er) as (Ex & _).
  unfold sess_diff. set (xs := ly_siblings (map ly_tree (o_diff o))).
  assert (Xs : Forall wfx xs) by (apply (tree_Forall wfx); [intros x Hx; apply ly_tree_wfx; exact Hx|exact X]).
  assert (Ds : Forall dis xs).
  { apply ly_siblings_Forall. clear - T0. induction T0; [constructor|]. cbn [map]. constructor; [apply tidy0_dis; assumption|assumption]. }
  assert (Nx : NoDup (map fid xs)) by (apply siblings_nodup; exact Nf).
  destruct (trees_outs kd nk kv xs Xs) as (O1 & O2).
  destruct (plays_same kd nk kv false xs ds (o_g o) W Xs) as (c & P & Sa); [discriminate|unfold xs; rewrite diff_apply_tree; exact Ex|].
  unfold generate. rewrite (any_reps xs Xs). 
  assert (Ed : edits kd (S (length (all_nodes kd (map diff_tree xs)))) (all_nodes kd (map diff_tree xs)) = Some (map entry (flat_map (rep []) xs))).
  { rewrite edits_outs by (exact O2 || lia). rewrite O1. reflexivity. }
  rewrite Ed.
  assert (Nd : NoDup (map at_loc (flat_map (rep []) xs))).
  { apply reps_nodup; [|exact Ds|exact Nx]. apply Forall_forall. intros x _ p. apply rep_nodup. }
  assert (Mo : forall l s v f an, In (CMoved l s v f an) (flat_map (rep []) xs) -> ordered kd l).
  { intros l s v f an I. apply in_flat_map in I. destruct I as (y & _ & I). exact (rep_moved y [] l s v f an I). }
  destruct (flat_map (rep []) xs) as [|x0 cs] eqn:Ecs.
  - left. cbn [negb]. split; [reflexivity|]. cbn [ChangeIterSpec.plays] in P. injection P as <-. exact Sa.
  - right. cbn [negb]. assert (negb replay && Nat.eqb subs 0 = false) as Q.
    { destruct Su as [Su| ->]; [apply Nat.eqb_neq in Su; rewrite Su; apply andb_false_r|reflexivity]. }
    rewrite Q. assert (exists user sid, changed_by se = Some (user, sid) /\ author se user sid) as (user & sid & Cb & Au).
    { unfold changed_by. destruct (s_np2 se) eqn:Np.
      - destruct (So Np) as (user & sid & len & E). rewrite E. exists user, sid. split; [reflexivity|]. apply (a_netconf se user sid len Np E).
      - exists (s_user se), 0%N. split; [reflexivity|]. apply a_own. exact Np. }
    exists (mkcn user sid d (map entry (x0 :: cs))). split; [rewrite Cb; destruct D as [-> | ->]; reflexivity|]. split; [reflexivity|]. split; [exact Au|].
    apply (cs_tells (x0 :: cs) ds (o_g o) c); [exact P|exact Sa|exact Nd|exact Mo|discriminate].
Qed.
End P.
