(** Proofs about the order of subscriptions and about reading parts of operational data. *)
From Coq Require Import String Ascii List Bool Arith Lia Sorting.Sorted.
From Verif Require Import OperReq OperReqSpec OperReqProofs Prop_OperReq OperData OperDataSpec OperDataProofs.
Import ListNotations.

(** ** The order *)
Lemma id_plain : forall c, is_id c = true -> ch c "[" = false /\ ch c "]" = false /\ is_quote c = false.
Proof.
  intros c. assert (H : (implb (is_id c) (negb (ch c "[") && negb (ch c "]") && negb (is_quote c))) = true) by (apply (by_chars (fun c => implb (is_id c) (negb (ch c "[") && negb (ch c "]") && negb (is_quote c)))); vm_compute; reflexivity).
  intro I. rewrite I in H. cbn [implb] in H. destruct (ch c "["), (ch c "]"), (is_quote c); try discriminate. auto.
Qed.
Lemma plen_id : forall n r k d, Forall (fun c => is_id c = true) n -> plen (n ++ r) k d None = plen r (k + length n) d None.
Proof.
  induction n as [|c n IH]; intros r k d F; [cbn; f_equal; lia|]. inversion F as [|? ? F1 F2]; subst. destruct (id_plain c F1) as (A & B & C). cbn [app plen]. rewrite A, B, C. rewrite IH by exact F2. f_equal. cbn. lia.
Qed.
Lemma plen_lit : forall q v r k d, ~ In q v -> plen (v ++ q :: r) k d (Some q) = plen r k d None.
Proof.
  induction v as [|c v IH]; intros r k d N; cbn [app plen].
  - rewrite ch_refl. reflexivity.
  - rewrite ch_neq by (intro E; apply N; left; exact E). apply IH. intro X. apply N. right. exact X.
Qed.
Lemma quote_facts : forall q, is_quote q = true -> ch q "[" = false /\ ch q "]" = false.
Proof.
  intros c. assert (H : (implb (is_quote c) (negb (ch c "[") && negb (ch c "]"))) = true) by (apply (by_chars (fun c => implb (is_quote c) (negb (ch c "[") && negb (ch c "]")))); vm_compute; reflexivity).
  intro I. rewrite I in H. cbn [implb] in H. destruct (ch c "["), (ch c "]"); try discriminate. auto.
Qed.
Fixpoint wpred (p : pred) : nat := match p with PEq n _ _ => S (length n) | POr a b => wpred a + 4 + wpred b end.
Lemma plen_pred : forall p r k d, good_pred p -> plen (pred_txt p ++ r) k d None = plen r (k + wpred p) d None.
Proof.
  induction p as [n q v|a IHa b IHb]; intros r k d G; cbn [pred_txt wpred good_pred] in *.
  - destruct G as ((_ & I) & Q & V). rewrite <- !app_assoc. rewrite plen_id by exact I. cbn [s_ list_ascii_of_string app plen].
    change (ch "=" "[") with false. change (ch "=" "]") with false. change (is_quote "=") with false. cbn iota. destruct (quote_facts q Q) as (A & B). rewrite A, B, Q. rewrite plen_lit by exact V. f_equal. lia.
  - destruct G as (Ga & Gb). rewrite <- !app_assoc. rewrite IHa by exact Ga. cbn [s_ list_ascii_of_string app plen].
    change (ch " " "[") with false. change (ch " " "]") with false. change (is_quote " ") with false.
    change (ch "o" "[") with false. change (ch "o" "]") with false. change (is_quote "o") with false.
    change (ch "r" "[") with false. change (ch "r" "]") with false. change (is_quote "r") with false. cbn iota. rewrite IHb by exact Gb. f_equal. lia.
Qed.
Fixpoint wpreds (ps : list pred) : nat := match ps with [] => 0 | p :: t => wpred p + wpreds t end.
Lemma plen_preds : forall ps r k, Forall good_pred ps -> plen (preds_txt ps ++ r) k 0 None = plen r (k + wpreds ps) 0 None.
Proof.
  induction ps as [|p ps IH]; intros r k F; cbn [preds_txt flat_map wpreds]; [cbn; f_equal; lia|]. inversion F as [|? ? F1 F2]; subst. fold (preds_txt ps). rewrite <- !app_assoc. cbn [s_ list_ascii_of_string app plen].
  change (ch "[" "[") with true. cbn iota. rewrite plen_pred by exact F1. cbn [plen]. change (ch "]" "[") with false. change (ch "]" "]") with true. cbn iota. cbn [Nat.pred]. rewrite IH by exact F2. f_equal. lia.
Qed.
Definition wmod (m : option str) : nat := match m with Some m => S (length m) | None => 0 end.
Lemma plen_mod : forall m r k, match m with Some m => ident m | None => True end -> plen (mod_txt m ++ r) k 0 None = plen r (k + wmod m) 0 None.
Proof.
  intros [m|] r k G; cbn [mod_txt wmod]; [|cbn; f_equal; lia]. rewrite <- app_assoc. rewrite plen_id by exact (proj2 G). cbn [s_ list_ascii_of_string app plen]. change (ch ":" "[") with false. change (ch ":" "]") with false. change (is_quote ":") with false. cbn iota. f_equal. lia.
Qed.
Definition wstep (s : step) : nat :=
  match s with SName m n ps => wmod m + length n + wpreds ps | SAny m ps => wmod m + 1 + wpreds ps | SUp => 2 | SSelf => 1 | SDesc => 2 end.
Lemma plen_step : forall s r k, good_step s -> plen (step_txt s ++ r) k 0 None = plen r (k + wstep s) 0 None.
Proof.
  intros [m n ps|m ps| | |] r k G; cbn [step_txt wstep good_step] in *.
  - destruct G as (Gm & Gn & Gp). rewrite <- !app_assoc. rewrite plen_mod by exact Gm. rewrite plen_id by exact (proj2 Gn). rewrite plen_preds by exact Gp. f_equal. lia.
  - destruct G as (Gm & Gp). rewrite <- !app_assoc. rewrite plen_mod by exact Gm. cbn [s_ list_ascii_of_string app plen]. change (ch "*" "[") with false. change (ch "*" "]") with false. change (is_quote "*") with false. cbn iota. rewrite plen_preds by exact Gp. f_equal. lia.
  - cbn [s_ list_ascii_of_string app plen]. change (ch "." "[") with false. change (ch "." "]") with false. change (is_quote ".") with false. cbn iota. f_equal. lia.
  - cbn [s_ list_ascii_of_string app plen]. change (ch "." "[") with false. change (ch "." "]") with false. change (is_quote ".") with false. cbn iota. f_equal. lia.
  - cbn [s_ list_ascii_of_string app plen]. change (ch "/" "[") with false. change (ch "/" "]") with false. change (is_quote "/") with false. change (ch "." "[") with false. change (ch "." "]") with false. change (is_quote ".") with false. cbn iota. f_equal. lia.
Qed.
Fixpoint wsteps (l : list step) : nat := match l with [] => 0 | s :: t => S (wstep s) + wsteps t end.
Lemma plen_steps : forall l r k, Forall good_step l -> plen (steps_txt l ++ r) k 0 None = plen r (k + wsteps l) 0 None.
Proof.
  induction l as [|s l IH]; intros r k F; [cbn; f_equal; lia|]. inversion F as [|? ? F1 F2]; subst. rewrite steps_cons. rewrite <- !app_assoc. cbn [s_ list_ascii_of_string app plen].
  change (ch "/" "[") with false. change (ch "/" "]") with false. change (is_quote "/") with false. cbn iota. rewrite plen_step by exact F1. rewrite IH by exact F2. f_equal. cbn [wsteps]. lia.
Qed.
Lemma wsteps_app : forall a b, wsteps (a ++ b) = wsteps a + wsteps b.
Proof. induction a as [|s a IH]; intro b; [reflexivity|]. cbn [app wsteps]. rewrite IH. lia. Qed.
Lemma plen_sub : forall s, Forall good_step (s_steps s) -> plen_txt (sub_txt s) = wsteps (s_steps s).
Proof. intros s G. unfold plen_txt, sub_txt, path_txt. cbn [p_abs p_steps]. rewrite <- (app_nil_r (steps_txt _)). rewrite plen_steps by exact G. reflexivity. Qed.

Definition before (a b : sub) : Prop := plen_txt (sub_txt a) <= plen_txt (sub_txt b).
Lemma insert_in : forall s l x, In x (insert s l) <-> x = s \/ In x l.
Proof.
  intros s. induction l as [|y l IH]; intro x; cbn [insert].
  - split; [intros [E|[]]; left; congruence|intros [E|[]]; left; congruence].
  - destruct (Nat.ltb _ _); [split; [intros [E|E]; [left; congruence|right; exact E]|intros [E|E]; [left; congruence|right; exact E]]|].
    split.
    + intros [E|E]; [right; left; exact E|]. apply IH in E. destruct E as [E|E]; [left; exact E|right; right; exact E].
    + intros [E|[E|E]]; [right; apply IH; left; exact E|left; exact E|right; apply IH; right; exact E].
Qed.
Lemma insert_sorted : forall s l, StronglySorted before l -> StronglySorted before (insert s l).
Proof.
  intros s. induction l as [|y l IH]; intro H; cbn [insert].
  - constructor; [constructor|constructor].
  - inversion H as [|? ? H1 H2]; subst. destruct (Nat.ltb _ _) eqn:E.
    + apply Nat.ltb_lt in E. constructor; [exact H|]. constructor; [unfold before; lia|]. rewrite Forall_forall in *. intros x Hx. specialize (H2 x Hx). unfold before in *. lia.
    + apply Nat.ltb_ge in E. constructor; [apply IH; exact H1|]. rewrite Forall_forall in *. intros x Hx. apply insert_in in Hx. destruct Hx as [->|Hx]; [exact E|apply H2; exact Hx].
Qed.
Lemma filter_sorted : forall (f : sub -> bool) l, StronglySorted before l -> StronglySorted before (filter f l).
Proof.
  intros f. induction l as [|y l IH]; intro H; [exact H|]. inversion H as [|? ? H1 H2]; subst. cbn [filter]. destruct (f y); [|apply IH; exact H1]. constructor; [apply IH; exact H1|].
  rewrite Forall_forall in *. intros x Hx. apply filter_In in Hx. apply H2. exact (proj1 Hx).
Qed.
Lemma table_sorted : forall l, table l -> StronglySorted before l.
Proof. intros l H. induction H; [constructor|apply insert_sorted; assumption|apply filter_sorted; assumption]. Qed.

Lemma sel_nth : forall l u x p, sel_at (l ++ u :: x) p = true -> exists i, nth_error p (length l) = Some i /\ smatch u i = true.
Proof.
  induction l as [|s l IH]; intros u x [|i p] H; cbn [app sel_at] in H; try discriminate; apply andb_prop in H; destruct H as (H1 & H2).
  - exists i. split; [reflexivity|exact H1].
  - cbn [length nth_error]. exact (IH u x p H2).
Qed.
Lemma nth_firstn : forall {A} n (p : list A) k i, nth_error (firstn n p) k = Some i -> nth_error p k = Some i.
Proof. induction n as [|n IH]; intros [|a p] [|k] i H; cbn in *; try discriminate; [exact H|apply IH; exact H]. Qed.
Lemma related_ok : forall a b p, s_steps a <> [] -> Forall good_step (s_steps a) -> Forall good_step (s_steps b) -> before a b -> related a b -> sel_at (removelast (s_steps a)) p = true -> ~ covers b p.
Proof.
  intros a b p NE Ga Gb B R S C. apply covers_iff in C. pose proof (inside_len _ _ C) as L. pose proof (sel_len _ _ S) as L2. rewrite removelast_firstn_len, firstn_length in L2.
  assert (N0 : length (s_steps a) <> 0) by (destruct (s_steps a); [contradiction|discriminate]).
  destruct R as [(r & E)|[(r & E)|(l & u & x & l' & v & y & E1 & E2 & E3 & NO)]].
  - rewrite E, app_length in L. lia.
  - unfold before in B. rewrite !plen_sub in B by assumption. rewrite E, wsteps_app in B. destruct r as [|s r]; [rewrite app_nil_r in E; rewrite <- E in L; lia|]. cbn [wsteps] in B. lia.
  - destruct x as [|s x].
    + rewrite E1 in *. rewrite app_length in *. cbn [length] in *. rewrite E2, app_length in L. cbn [length] in L. lia.
    + rewrite E1 in S. assert (RL : removelast (l ++ u :: s :: x) = l ++ u :: removelast (s :: x)) by (rewrite removelast_app by discriminate; reflexivity). rewrite RL in S.
      destruct (sel_nth _ _ _ _ S) as (i & I1 & I2). unfold inside in C. rewrite E2 in C. destruct (sel_nth _ _ _ _ C) as (j & J1 & J2). apply nth_firstn in J1. rewrite <- E3 in J1. rewrite J1 in I1. injection I1 as ->. exact (NO i (conj I2 J2)).
Qed.
Lemma sorted_parents : forall l, StronglySorted before l -> Forall good_sub l -> (forall a b, In a l -> In b l -> related a b) -> parents_first l.
Proof.
  induction l as [|s l IH]; intros H G R; [exact Logic.I|]. inversion H as [|? ? H1 H2]; subst. inversion G as [|? ? G1 G2]; subst. split.
  - intros x p Hx S. rewrite Forall_forall in H2, G2. apply (related_ok s x p); [exact (proj1 (proj1 G1))|exact (proj2 G1)|exact (proj2 (G2 x Hx))|exact (H2 x Hx)|apply R; [left; reflexivity|right; exact Hx]|exact S].
  - apply IH; [exact H1|exact G2|]. intros a b Ha Hb. apply R; right; assumption.
Qed.

(** ** Reading a part *)
Definition any (n : list elem) : Prop := True.
Lemma sel_any : forall T l ctx res, sel T l ctx res -> sel any l ctx res.
Proof.
  intros T. induction l as [|[m n ps|m ps| | |] l IH]; intros ctx res H; cbn [sel] in *.
  - exact H.
  - destruct H as (e & _ & H1 & H2 & H3 & H4). exists e. split; [exact Logic.I|]. split; [exact H1|]. split; [exact H2|]. split; [exact H3|]. apply IH. exact H4.
  - destruct H as (e & _ & H1 & H2 & H3). exists e. split; [exact Logic.I|]. split; [exact H1|]. split; [exact H2|]. apply IH. exact H3.
  - destruct H as (H1 & H2). split; [exact H1|apply IH; exact H2].
  - apply IH. exact H.
  - destruct H as (d & _ & H). exists d. split; [exact Logic.I|apply IH; exact H].
Qed.
Lemma pmatch_holds : forall i p, pmatch i p = true -> holds (elem_of i) p.
Proof.
  intros i. induction p as [n q v|a IHa b IHb]; intro H; cbn [pmatch holds elem_of e_val] in *.
  - destruct (key i n) as [w|]; [|discriminate]. apply str_eqb_eq in H. subst. reflexivity.
  - apply orb_prop in H. destruct H as [H|H]; [left; exact (IHa H)|right; exact (IHb H)].
Qed.
Lemma preds_hold : forall i ps, forallb (pmatch i) ps = true -> Forall (holds (elem_of i)) ps.
Proof. intros i ps H. rewrite forallb_forall in H. apply Forall_forall. intros p Hp. apply pmatch_holds. apply H. exact Hp. Qed.
Lemma mmatch_in : forall m i, mmatch m i = true -> in_mod m (elem_of i).
Proof. intros [m|] i H; cbn in *; [apply str_eqb_eq; exact H|exact Logic.I]. Qed.
Lemma sel_at_sel : forall l p ctx, sel_at l p = true -> sel any l ctx (ctx ++ map elem_of p).
Proof.
  induction l as [|s l IH]; intros [|i p] ctx H; cbn [sel_at] in H; try discriminate.
  - cbn. rewrite app_nil_r. reflexivity.
  - apply andb_prop in H. destruct H as (H1 & H2). assert (R : sel any l (ctx ++ [elem_of i]) (ctx ++ map elem_of (i :: p))) by (replace (ctx ++ map elem_of (i :: p)) with ((ctx ++ [elem_of i]) ++ map elem_of p) by (rewrite <- app_assoc; reflexivity); apply IH; exact H2).
    destruct s as [m n ps|m ps| | |]; cbn [smatch] in H1; try discriminate; cbn [sel]; exists (elem_of i); split; try exact Logic.I.
    + apply andb_prop in H1. destruct H1 as (H1 & P). apply andb_prop in H1. destruct H1 as (M & N). split; [apply mmatch_in; exact M|]. split; [apply str_eqb_eq; exact N|]. split; [apply preds_hold; exact P|exact R].
    + apply andb_prop in H1. destruct H1 as (M & P). split; [apply mmatch_in; exact M|]. split; [apply preds_hold; exact P|exact R].
Qed.
Lemma comparable : forall (a b p : ipath), below_i a p -> below_i b p -> below_i a b \/ below_i b a.
Proof.
  intros a b p (x & ->) (y & E). revert b y E. induction a as [|i a IH]; intros b y E; [left; exists b; reflexivity|]. destruct b as [|j b]; [right; exists (i :: a); reflexivity|]. cbn in E. injection E as <- E.
  destruct (IH b y E) as [(t & T)|(t & T)]; [left|right]; exists t; cbn; rewrite T; reflexivity.
Qed.
Lemma below_map : forall a b, below_i a b -> below (map elem_of a) (map elem_of b).
Proof. intros a b (t & ->). exists (map elem_of t). apply map_app. Qed.
Lemma below_trans : forall a b c, below_i a b -> below_i b c -> below_i a c.
Proof. intros a b c (x & ->) (y & ->). exists (x ++ y). rewrite app_assoc. reflexivity. Qed.
(** A node at the start of one that is read. *)
Lemma wanted_up : forall r p a, wanted r p -> below_i a p -> wanted r a.
Proof.
  intros r p a (T & n & S & C) B. exists T, n. split; [exact S|]. destruct C as [C|C]; [left; exact (below_trans _ _ _ B C)|]. destruct (comparable a n p B C) as [X|X]; [left; exact X|right; exact X].
Qed.
Lemma wanted_overlap : forall r a l, wanted r a -> sel_at l a = true -> overlap r (mkpath true l).
Proof.
  intros r a l (T & n & S & C) L. exists any, (map elem_of n), (map elem_of a). split; [exact (sel_any T _ _ _ S)|]. split; [exact (sel_at_sel l a [] L)|]. destruct C as [C|C]; [right|left]; apply below_map; exact C.
Qed.

(** *** The path of an instance *)
Lemma find_key : forall l k v, NoDup (map fst l) -> In (k, v) l -> find (fun e : str * str => str_eqb (fst e) k) l = Some (k, v).
Proof.
  induction l as [|[a b] l IH]; intros k v N H; [destruct H|]. inversion N as [|? ? N1 N2]; subst. cbn [find fst]. destruct H as [E|H].
  - injection E as -> ->. rewrite str_eqb_refl. reflexivity.
  - destruct (str_eqb a k) eqn:E; [|apply IH; assumption]. apply str_eqb_eq in E. subst a. exfalso. apply N1. exact (in_map fst _ _ H).
Qed.
Lemma inst_sel : forall p m, Forall good_inst p -> sel_at (inst_steps m p) p = true.
Proof.
  induction p as [|i p IH]; intros m G; [reflexivity|]. inversion G as [|? ? G1 G2]; subst. cbn [inst_steps sel_at smatch]. rewrite IH by exact G2. rewrite andb_true_r. rewrite str_eqb_refl.
  assert (M : mmatch (match m with Some x => if str_eqb x (i_mod i) then None else Some (i_mod i) | None => Some (i_mod i) end) i = true).
  { destruct m as [x|]; [destruct (str_eqb x (i_mod i)); [reflexivity|]|]; cbn; apply str_eqb_refl. }
  rewrite M. cbn [andb]. apply forallb_forall. intros q Q. apply in_map_iff in Q. destruct Q as ((k, v) & <- & Hk). unfold key_pred. cbn [pmatch fst snd]. unfold key. destruct G1 as (_ & _ & N & _). rewrite (find_key _ _ _ N Hk). apply str_eqb_refl.
Qed.
Lemma inst_good : forall p m, Forall good_inst p -> Forall good_step (inst_steps m p) /\ simple_steps (inst_steps m p).
Proof.
  induction p as [|i p IH]; intros m G; [split; [constructor|exact Logic.I]|]. inversion G as [|? ? G1 G2]; subst. destruct (IH (Some (i_mod i)) G2) as (I1 & I2). destruct G1 as (Gm & Gn & _ & Gk). rewrite Forall_forall in Gk. cbn [inst_steps]. split.
  - constructor; [|exact I1]. cbn [good_step]. split; [destruct m as [x|]; [destruct (str_eqb x (i_mod i)); [exact Logic.I|exact Gm]|exact Gm]|]. split; [exact Gn|]. apply Forall_forall. intros q Q. apply in_map_iff in Q. destruct Q as ((k, v) & <- & Hk). unfold key_pred. cbn [good_pred fst snd].
    destruct (Gk _ Hk) as (K1 & K2). cbn [fst snd] in *. split; [exact K1|]. destruct (existsb (ch "'") v) eqn:E.
    + split; [reflexivity|]. destruct K2 as [K2|K2]; [|exact K2]. exfalso. apply K2. apply existsb_exists in E. destruct E as (c & C & X). apply ch_eq in X. subst c. exact C.
    + split; [reflexivity|]. intro X. assert (Y : existsb (ch "'") v = true) by (apply existsb_exists; exists "'"%char; split; [exact X|apply ch_refl]). congruence.
  - assert (SP : Forall simple_pred (map key_pred (i_keys i))) by (apply Forall_forall; intros q Q; apply in_map_iff in Q; destruct Q as (k & <- & _); exact Logic.I). cbn [simple_steps]. destruct (inst_steps (Some (i_mod i)) p) as [|t l] eqn:E; split; assumption || exact Logic.I.
Qed.
Lemma inst_names : forall p m x, In x (flat_map pred_names (flat_map step_preds (inst_steps m p))) -> In x (flat_map (fun i => map fst (i_keys i)) p).
Proof.
  induction p as [|i p IH]; intros m x H; [exact H|]. cbn [inst_steps flat_map step_preds] in *. rewrite flat_map_app in H. apply in_app_or in H. apply in_or_app. destruct H as [H|H]; [left|right; exact (IH _ x H)].
  apply in_flat_map in H. destruct H as (q & Q & X). apply in_map_iff in Q. destruct Q as (k & <- & K). cbn in X. destruct X as [<-|[]]. apply in_map. exact K.
Qed.
Lemma inst_ne : forall p m, p <> [] -> inst_steps m p <> [].
Proof. intros [|i p] m N; [contradiction|discriminate]. Qed.
Lemma inst_union : forall p, p <> [] -> Forall good_inst p -> simple_union [mkpath true (inst_steps None p)] /\ union_txt [mkpath true (inst_steps None p)] = inst_txt p.
Proof.
  intros p N G. destruct (inst_good p None G) as (G1 & G2). split; [|reflexivity]. split; [discriminate|]. split; constructor; try constructor; cbn [p_steps p_abs]; try assumption; try reflexivity. apply inst_ne. exact N.
Qed.

(** *** Asking *)
Lemma requiring_ok : forall us x sub, Forall simple_union us -> simple_union sub -> x = union_txt sub -> exists l, requiring (map union_txt us) x = Some l /\
  (forall y, In y l -> exists u, In u us /\ y = union_txt u) /\ (forall u, In u us -> required (Some (union_txt u)) x = Some true -> In (union_txt u) l).
Proof.
  induction us as [|u us IH]; intros x sub F S X; cbn [map requiring].
  - exists []. split; [reflexivity|]. split; [intros y []|intros y []].
  - inversion F as [|? ? F1 F2]; subst. destruct (IH (union_txt sub) sub F2 S eq_refl) as (l & L & A & B). destruct (C40_defined_partial u sub F1 S) as (b & D). rewrite D, L. eexists. split; [reflexivity|]. split.
    + intros y Y. destruct b; [destruct Y as [<-|Y]; [exists u; split; [left; reflexivity|reflexivity]|]|]; destruct (A y Y) as (w & W & ->); exists w; split; auto using in_cons.
    + intros w [<-|W] Q; [rewrite D in Q; injection Q as ->; left; reflexivity|]. specialize (B w W Q). destruct b; [right; exact B|exact B].
Qed.
Lemma any_ok : forall l x sub u, simple_union sub -> x = union_txt sub -> (forall y, In y l -> exists w, simple_union w /\ y = union_txt w) -> In (union_txt u) l -> required (Some (union_txt u)) x = Some true -> any_required l x = Some true.
Proof.
  induction l as [|y l IH]; intros x sub u S X A H Q; [destruct H|]. cbn [any_required]. destruct (A y (or_introl eq_refl)) as (w & W & ->). subst x. destruct (C40_defined_partial w sub W S) as (b & D). rewrite D. destruct b; [reflexivity|].
  destruct H as [E|H]; [rewrite E in D; congruence|]. apply (IH _ sub u S eq_refl); [intros z Z; apply A; right; exact Z|exact H|exact Q].
Qed.

Definition part_sub (r : path) (s : sub) : Prop := good_sub s /\ simple_steps (s_steps s) /\ all_apart r (mkpath true (s_steps s)).
Lemma sub_union : forall r s, part_sub r s -> simple_union [mkpath true (s_steps s)] /\ union_txt [mkpath true (s_steps s)] = sub_txt s.
Proof.
  intros r s ((W & G) & P & _). split; [|reflexivity]. split; [discriminate|]. split; constructor; try constructor; cbn [p_steps p_abs]; try assumption; try reflexivity. exact (proj1 W).
Qed.
Lemma part_lay : forall us u r s p R R' cur, Forall simple_union us -> In u us -> In r u -> part_sub r s -> wanted r p -> Forall good_inst p -> keys_apart r p ->
  (parent_of s p <> [] -> inside (s_steps s) p = true -> R' (parent_of s p) = R (parent_of s p)) -> lay (map union_txt us) R' p cur s = lay [] R p cur s.
Proof.
  intros us u r s p R R' cur F Hu Hr PS Wp Gp KA E. unfold lay. cbn [asked]. destruct (inside (s_steps s) p) eqn:IN; [|rewrite andb_false_r; reflexivity]. rewrite Forall_forall in F. pose proof (F u Hu) as Su.
  destruct (sub_union r s PS) as (SU & ST). destruct PS as ((W & G) & P & AP).
  assert (RQ : required (Some (union_txt u)) (sub_txt s) = Some true).
  { rewrite <- ST. apply (C40_asked_partial u _ r (mkpath true (s_steps s)) Su SU Hr (or_introl eq_refl)); [|exact AP]. apply (wanted_overlap r (firstn (length (s_steps s)) p)); [|exact IN]. apply (wanted_up r p); [exact Wp|]. exists (skipn (length (s_steps s)) p). symmetry. apply firstn_skipn. }
  assert (F' : Forall simple_union us) by (apply Forall_forall; exact F).
  destruct (requiring_ok us (sub_txt s) _ F' SU (eq_sym ST)) as (l & L & A & B). specialize (B u Hu RQ).
  assert (AS : asked (map union_txt us) s = true).
  { unfold asked, req_of. rewrite L. destruct (map union_txt us); [reflexivity|]. destruct l; [destruct B|reflexivity]. }
  rewrite AS. cbn [andb]. destruct (is_nil (parent_of s p)) eqn:NI; [reflexivity|]. cbn [orb]. assert (NN : parent_of s p <> []) by (intro Z; rewrite Z in NI; discriminate). rewrite (E NN eq_refl).
  assert (BP : below_i (parent_of s p) p) by (exists (skipn (Nat.pred (length (s_steps s))) p); symmetry; apply firstn_skipn).
  assert (GP : Forall good_inst (parent_of s p)) by (destruct BP as (t & T); rewrite T in Gp; apply Forall_app in Gp; exact (proj1 Gp)).
  destruct (inst_union (parent_of s p) NN GP) as (IU & IT).
  assert (PR : par_req (req_of (map union_txt us) s) (parent_of s p) = true).
  { unfold req_of. rewrite L. assert (AR : any_required l (inst_txt (parent_of s p)) = Some true).
    - apply (any_ok l _ _ u IU (eq_sym IT)); [intros y Y; destruct (A y Y) as (w & Hw & ->); exists w; split; [apply F; exact Hw|reflexivity]|exact B|]. rewrite <- IT.
      apply (C40_asked_partial u _ r (mkpath true (inst_steps None (parent_of s p))) Su IU Hr (or_introl eq_refl)).
      + apply (wanted_overlap r (parent_of s p)); [exact (wanted_up r p _ Wp BP)|apply inst_sel; exact GP].
      + intros a b Ha Hb. apply KA; [exact Ha|]. unfold names_of in Hb. cbn [p_steps] in Hb. apply inst_names in Hb. destruct BP as (t & T). rewrite T. rewrite flat_map_app. apply in_or_app. left. exact Hb.
    - unfold par_req. destruct (parent_of s p) as [|i t]; [reflexivity|]. rewrite AR. destruct l; reflexivity. }
  assert (PR0 : par_req (req_of [] s) (parent_of s p) = true) by (change (req_of [] s) with (@nil str); destruct (parent_of s p); reflexivity). rewrite PR, PR0. reflexivity.
Qed.
Lemma part_ok : forall us u r l base d dr, Forall simple_union us -> In u us -> In r u -> Forall (part_sub r) l -> parents_first l ->
  update [] l base = ROk d -> update (map union_txt us) l base = ROk dr ->
  forall n p, length p <= n -> wanted r p -> Forall good_inst p -> keys_apart r p -> get dr p = get d p.
Proof.
  intros us u r l base d dr F Hu Hr PS PF U1 U2. assert (W : Forall within l) by (apply Forall_forall; intros s Hs; rewrite Forall_forall in PS; exact (proj1 (proj1 (PS s Hs)))).
  pose proof (update_ok _ _ _ _ W PF U1) as E1. pose proof (update_ok _ _ _ _ W PF U2) as E2.
  induction n as [|n IH]; intros p Lp Wp Gp KA.
  - destruct p; [|cbn in Lp; lia]. rewrite E1, E2. rewrite !lays_out; [reflexivity| |]; intros s Hs; (destruct (inside (s_steps s) []) eqn:Z; [|reflexivity]); apply inside_len in Z; rewrite Forall_forall in W; pose proof (proj1 (W s Hs)) as NE; destruct (s_steps s); [contradiction|cbn in Z; lia|contradiction|cbn in Z; lia].
  - rewrite E1, E2. generalize (get base p) as cur. rewrite Forall_forall in PS. clear - PS IH F Hu Hr Wp Gp KA Lp W.
    assert (X : forall m, (forall s, In s m -> In s l) -> forall cur, fold_left (lay (map union_txt us) (get dr) p) m cur = fold_left (lay [] (get d) p) m cur).
    { induction m as [|s m IHm]; intros I cur; [reflexivity|]. cbn [fold_left]. assert (Hs : In s l) by (apply I; left; reflexivity).
      rewrite (part_lay us u r s p (get d) (get dr) cur F Hu Hr (PS s Hs) Wp Gp KA).
      - apply IHm. intros x Hx. apply I. right. exact Hx.
      - intros NN IN. rewrite Forall_forall in W. pose proof (proj1 (W s Hs)) as NE. pose proof (inside_len _ _ IN) as L.
        assert (BP : below_i (parent_of s p) p) by (exists (skipn (Nat.pred (length (s_steps s))) p); symmetry; apply firstn_skipn).
        apply IH.
        + unfold parent_of. rewrite firstn_length. destruct (s_steps s); [contradiction|]. cbn in *. lia.
        + exact (wanted_up r p _ Wp BP).
        + destruct BP as (t & T). rewrite T in Gp. apply Forall_app in Gp. exact (proj1 Gp).
        + intros a b Ha Hb. apply KA; [exact Ha|]. destruct BP as (t & T). rewrite T. rewrite flat_map_app. apply in_or_app. left. exact Hb. }
    intro cur. apply X. exact (fun _ h => h).
Qed.
