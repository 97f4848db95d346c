(** Parsing of simple XPaths and comparing of their atoms. *)
From Coq Require Import String Ascii List Bool Arith Lia.
From Verif Require Import OperReq OperReqSpec.
Import ListNotations.

(** ** Characters *)
Lemma ch_eq : forall c d, ch c d = true <-> c = d.
Proof. intros. apply Ascii.eqb_eq. Qed.
Lemma ch_refl : forall c, ch c c = true.
Proof. intros. apply ch_eq. reflexivity. Qed.
Lemma ch_neq : forall c d, c <> d -> ch c d = false.
Proof. intros. apply Ascii.eqb_neq. assumption. Qed.
Lemma str_eqb_eq : forall a b, str_eqb a b = true <-> a = b.
Proof.
  induction a as [|c a IH]; intros [|d b]; cbn [str_eqb]; try (split; [discriminate|discriminate]); [split; reflexivity|].
  rewrite andb_true_iff, ch_eq, IH. split; [intros (-> & ->); reflexivity|intros H; injection H; auto].
Qed.
Lemma str_eqb_refl : forall a, str_eqb a a = true.
Proof. intros. apply str_eqb_eq. reflexivity. Qed.

(** All the facts about single characters by trying all of them. *)
Definition chars : list ascii := map ascii_of_nat (seq 0 256).
Lemma in_chars : forall c, In c chars.
Proof. intros c. unfold chars. apply in_map_iff. exists (nat_of_ascii c). split; [apply ascii_nat_embedding|]. apply in_seq. pose proof (nat_ascii_bounded c). lia. Qed.
Lemma by_chars : forall (p : ascii -> bool), forallb p chars = true -> forall c, p c = true.
Proof. intros p H c. exact (proj1 (forallb_forall _ _) H c (in_chars c)). Qed.

Definition special (c : ascii) : bool := ch c "/" || ch c "[" || ch c "]" || ch c "=" || ch c ":" || ch c "(" || ch c "'" || ch c """" || ch c " " || ch c "*" || ch c "|" || ch c ",".
Lemma id_not_special : forall c, is_id c = true -> special c = false.
Proof. intros c H. pose proof (by_chars (fun c => negb (is_id c) || negb (special c)) ltac:(vm_compute; reflexivity) c) as Q. cbn beta in Q. rewrite H in Q. destruct (special c); [discriminate|reflexivity]. Qed.
Lemma first_facts : forall c, is_alpha c = true \/ c = "_"%char -> ch c "." = false /\ ch c "/" = false /\ ch c "*" = false /\ (negb (is_alpha c) && negb (ch c "_") = false) /\ is_space c = false /\ is_quote c = false /\ is_digit c = false /\ is_id c = true.
Proof.
  intros c H. assert (Q : is_alpha c || ch c "_" = true) by (destruct H as [-> | ->]; [reflexivity|apply orb_true_r]).
  pose proof (by_chars (fun c => negb (is_alpha c || ch c "_") || (negb (ch c ".") && negb (ch c "/") && negb (ch c "*") && negb (negb (is_alpha c) && negb (ch c "_")) && negb (is_space c) && negb (is_quote c) && negb (is_digit c) && is_id c)) ltac:(vm_compute; reflexivity) c) as X. cbn beta in X. rewrite Q in X. cbn [negb orb] in X.
  repeat (apply andb_true_iff in X; destruct X as (X & ?)). repeat (match goal with H : negb _ = true |- _ => apply negb_true_iff in H end). auto 10.
Qed.

(** ** Identifiers *)
Definition not_id (r : str) : Prop := match r with c :: _ => is_id c = false | [] => True end.
Lemma span_all : forall p n r, Forall (fun c => p c = true) n -> match r with c :: _ => p c = false | [] => True end -> span p (n ++ r) = (n, r).
Proof.
  intros p n r H. induction H as [|c t Hc Ht IH]; intros N.
  - destruct r as [|c r]; [reflexivity|]. cbn [app span]. rewrite N. reflexivity.
  - cbn [app span]. rewrite Hc, (IH N). reflexivity.
Qed.
Lemma next_ident : forall n r, ident n -> not_id r -> next_identifier (n ++ r) = (n, r).
Proof.
  intros [|c t] r (H1 & H2) N; [destruct H1|]. inversion H2 as [|? ? _ H3]; subst. destruct (first_facts c H1) as (A1 & A2 & A3 & A4 & _).
  unfold next_identifier. change (s_ "..") with ["."; "."]%char. change (s_ "/.") with ["/"; "."]%char. cbn [app prefix].
  assert (Q1 : ch "." c = false) by (apply ch_neq; intros <-; rewrite ch_refl in A1; discriminate). assert (Q2 : ch "/" c = false) by (apply ch_neq; intros <-; rewrite ch_refl in A2; discriminate). rewrite Q1, Q2. cbn [andb orb]. rewrite A3, A1, A4. cbn [orb].
  rewrite (span_all is_id t r H3 N). reflexivity.
Qed.
Definition delim (r : str) : Prop := match r with c :: _ => is_id c = false /\ c <> ":"%char | [] => True end.
Lemma delim_not_id : forall r, delim r -> not_id r.
Proof. intros [|c r]; [trivial|intros (H & _); exact H]. Qed.
Definition opt_ident (m : option str) : Prop := match m with Some m => ident m | None => True end.
Definition mtxt (m : option str) : str := match m with Some m => m | None => [] end.
Definition hasm (m : option str) : bool := match m with Some _ => true | None => false end.
Lemma qname_name : forall m n r, opt_ident m -> ident n -> delim r -> next_qname (mod_txt m ++ n ++ r) = (mtxt m, hasm m, n, r).
Proof.
  intros [m|] n r Hm Hn D; unfold next_qname; cbn [mod_txt mtxt hasm].
  - rewrite <- app_assoc. rewrite (next_ident m (s_ ":" ++ n ++ r) Hm) by reflexivity. cbn [app]. change (s_ ":" ++ n ++ r) with (":"%char :: n ++ r). cbv iota beta. rewrite (next_ident n r Hn) by (apply delim_not_id; exact D). reflexivity.
  - cbn [app]. rewrite (next_ident n r Hn) by (apply delim_not_id; exact D). destruct r as [|c r]; [reflexivity|]. destruct D as (_ & D). rewrite (ch_neq c ":" D). reflexivity.
Qed.
Lemma qname_any : forall m r, opt_ident m -> delim r -> next_qname (mod_txt m ++ s_ "*" ++ r) = (mtxt m, hasm m, s_ "*", r).
Proof.
  intros [m|] r Hm D; unfold next_qname; cbn [mod_txt mtxt hasm].
  - rewrite <- app_assoc. rewrite (next_ident m (s_ ":" ++ s_ "*" ++ r) Hm) by reflexivity. reflexivity.
  - cbn [app]. change (s_ "*" ++ r) with ("*"%char :: r). cbn. destruct r as [|c r]; [reflexivity|]. destruct D as (_ & D). rewrite (ch_neq c ":" D). reflexivity.
Qed.
Lemma qname_desc : next_qname (s_ "/.") = ([], false, s_ "/.", []).
Proof. reflexivity. Qed.

(** Names of steps. *)
Definition nm (s : step) : option str * str :=
  match s with SName m n _ => (m, n) | SAny m _ => (m, s_ "*") | SDesc => (None, s_ "/.") | SUp => (None, s_ "..") | SSelf => (None, s_ ".") end.
Definition is_desc (s : step) : bool := match s with SDesc => true | _ => false end.
Definition name_txt (s : step) : str := mod_txt (fst (nm s)) ++ snd (nm s).
Lemma step_split : forall s, step_txt s = name_txt s ++ preds_txt (step_preds s).
Proof. intros [m n ps|m ps| | |]; unfold name_txt; cbn [step_txt nm fst snd step_preds]; rewrite <- ?app_assoc; reflexivity. Qed.
Lemma step_good_opt : forall s, good_step s -> opt_ident (fst (nm s)).
Proof. intros [m n ps|m ps| | |] H; cbn in *; try exact Logic.I; apply H. Qed.
Definition node_or_desc (s : step) : Prop := node_step s \/ s = SDesc.
Lemma qname_step : forall s r, good_step s -> node_or_desc s -> delim r -> next_qname (name_txt s ++ r) = (mtxt (fst (nm s)), hasm (fst (nm s)), snd (nm s), r).
Proof.
  intros [m n ps|m ps| | |] r G [N|N] D; try discriminate N; try contradiction; unfold name_txt; cbn [nm fst snd]; rewrite <- ?app_assoc.
  - apply qname_name; [apply G|apply G|exact D].
  - apply qname_any; [apply G|exact D].
  - unfold next_qname. cbn [mod_txt app]. assert (E : next_identifier (s_ "/." ++ r) = (s_ "/.", r)) by reflexivity. rewrite E. destruct r as [|c r]; [reflexivity|]. destruct D as (_ & D). rewrite (ch_neq c ":" D). reflexivity.
Qed.
Lemma name_ne : forall s, good_step s -> node_or_desc s -> length (name_txt s) <> 0.
Proof.
  intros [m n ps|m ps| | |] G [N|N]; try discriminate N; try contradiction; unfold name_txt; cbn [nm fst snd]; rewrite app_length.
  - destruct G as (_ & (Hn & _) & _). destruct n; [destruct Hn|]. cbn [length]. lia.
  - cbn [length s_ list_ascii_of_string]. lia.
  - discriminate.
Qed.

(** ** Parsing *)
Definition lit (q : ascii) (v : str) : str := [q] ++ v ++ [q].
Lemma literal_ok : forall q v r, ~ In q v -> literal (lit q v ++ r) = Some (lit q v, r).
Proof.
  intros q v r H. unfold lit, literal. cbn [app]. rewrite <- app_assoc. rewrite span_all.
  - reflexivity.
  - apply Forall_forall. intros c Hc. rewrite ch_neq; [reflexivity|]. intros ->. contradiction.
  - cbn [app]. rewrite ch_refl. reflexivity.
Qed.
Definition patom (pre : str) (p : pred) : str := match p with PEq n q v => pre ++ s_ "[" ++ n ++ s_ "=" ++ lit q v ++ s_ "]" | _ => [] end.

Lemma skip_ws_id : forall c r, is_space c = false -> skip_ws (c :: r) = c :: r.
Proof. intros c r H. unfold skip_ws. cbn [span]. rewrite H. reflexivity. Qed.
Lemma find_op_eq : forall r, find_op ("="%char :: r) = Some (s_ "=").
Proof. reflexivity. Qed.
Lemma find_op_br : forall r, find_op ("]"%char :: r) = None.
Proof. reflexivity. Qed.
Lemma expr_br : forall f r prev l, expr (S f) ("]"%char :: r) prev EBr l = PR l ("]"%char :: r).
Proof. reflexivity. Qed.

(** One predicate: from its name to its "]". *)
Lemma expr_pred : forall p r cur l f, simple_pred p -> good_pred p -> 4 <= f -> expr f (pred_txt p ++ s_ "]" ++ r) cur EBr l = PR (add (patom cur p) false l) ("]"%char :: r).
Proof.
  intros [n q v|] r cur l f S0 Gp Hf; [|destruct S0]. destruct Gp as (Gn & Gq & Gv).
  destruct f as [|[|[|[|f]]]]; try lia. clear Hf.
  cbn [pred_txt patom]. rewrite <- !app_assoc. destruct n as [|c t]; [exact (False_rect _ (proj1 Gn))|].
  pose proof Gn as (Hc & Hid). destruct (first_facts c Hc) as (A1 & A2 & A3 & A4 & A5 & A6 & A7 & A8).
  remember (s_ "=" ++ [q] ++ v ++ [q] ++ s_ "]" ++ r) as rest eqn:Er.
  cbn [expr]. cbn [app]. rewrite (skip_ws_id c _ A5). cbn [ends_at at_quote at_digit]. rewrite A6, A7.
  assert (A9 : ch c "]" = false). { apply ch_neq. intros ->. discriminate A8. } rewrite A9, A2.
  cbn [seg]. pose proof (qname_name None (c :: t) rest Logic.I Gn) as Qn. cbn [mod_txt app mtxt hasm] in Qn. rewrite Qn by (rewrite Er; split; [reflexivity|discriminate]).
  assert (Le : Nat.eqb (length rest) (length (c :: t ++ rest)) = false) by (apply Nat.eqb_neq; cbn [length]; rewrite app_length; lia). rewrite Le.
  rewrite Er. change (s_ "=" ++ [q] ++ v ++ [q] ++ s_ "]" ++ r) with ("="%char :: [q] ++ v ++ [q] ++ s_ "]" ++ r).
  cbv beta iota. cbn [hd_is ch Ascii.eqb Bool.eqb negb orb].
  change (Ascii.eqb "=" "(") with false. change (Ascii.eqb "=" "/") with false. change (Ascii.eqb "=" "[") with false. cbn [negb orb]. 
  cbn [fin]. rewrite (skip_ws_id "=" _ eq_refl). cbn [no_ends andb ends_at]. change (ch "=" "]") with false. cbn [orb].
  rewrite find_op_eq. change (str_eqb (s_ "=") (s_ "=")) with true. cbn [andb length s_ list_ascii_of_string skipn].
  assert (Sq : is_space q = false). { unfold is_quote in Gq. apply orb_true_iff in Gq. destruct Gq as [Q|Q]; apply ch_eq in Q; rewrite Q; reflexivity. }
  cbn [app]. rewrite (skip_ws_id q _ Sq). cbn [at_quote]. rewrite Gq.
  pose proof (literal_ok q v (s_ "]" ++ r) Gv) as Lk. unfold lit in Lk. cbn [app] in Lk. rewrite <- app_assoc in Lk. cbn [app] in Lk. change (s_ "]" ++ r) with ("]"%char :: r) in *. rewrite Lk.
  rewrite app_length. cbn [length]. assert (Lt : Nat.ltb (length cur) (length cur + S (S (length t))) = true) by (apply Nat.ltb_lt; lia).
  match goal with |- context [Nat.ltb ?a ?b] => replace (Nat.ltb a b) with true by (symmetry; apply Nat.ltb_lt; cbn [length app s_ list_ascii_of_string]; lia) end.
  change (s_ "]" ++ r) with ("]"%char :: r). rewrite (skip_ws_id "]" _ eq_refl), find_op_br.
  change (hd_is "|" ("="%char :: q :: v ++ q :: "]"%char :: r)) with false. cbn [andb].
  rewrite expr_br. f_equal. unfold lit. cbn [app]. f_equal. f_equal. f_equal.
  assert (Sk : forall (cur t : str) c, match cur ++ "/"%char :: c :: t with [] => [] | _ :: l0 => skipn (length cur) l0 end = c :: t).
  { clear. intros cur t c. destruct cur as [|d cur]; [reflexivity|]. cbn [app length]. change (S (length cur)) with (1 + length cur).
    replace (1 + length cur) with (length (cur ++ ["/"%char])) by (rewrite app_length; cbn [length]; lia).
    replace (cur ++ "/"%char :: c :: t) with ((cur ++ ["/"%char]) ++ c :: t) by (rewrite <- app_assoc; reflexivity).
    rewrite skipn_app, skipn_all, Nat.sub_diag. reflexivity. }
  rewrite Sk. reflexivity.
Qed.

Lemma in_add : forall t b l x, In x (add t b l) -> In x l \/ x = mkatom t b.
Proof. intros t b l x. unfold add. destruct (existsb _ l); [auto|]. intros H. apply in_app_or in H. destruct H as [H|[<-|[]]]; auto. Qed.
Lemma add_ne : forall t b l, add t b l <> [].
Proof. intros t b l. unfold add. destruct (existsb _ l) eqn:E; [intros ->; discriminate|intros Q; destruct l; discriminate]. Qed.
Lemma add_keeps : forall t b l x, In x l -> In x (add t b l).
Proof. intros t b l x H. unfold add. destruct (existsb _ l); [exact H|]. apply in_or_app. left. exact H. Qed.
Lemma add_has : forall t b l, exists x, In x (add t b l) /\ a_txt x = t.
Proof.
  intros t b l. unfold add. destruct (existsb _ l) eqn:E.
  - apply existsb_exists in E. destruct E as (x & Hx & Ex). apply str_eqb_eq in Ex. eauto.
  - eexists. split; [apply in_or_app; right; left; reflexivity|reflexivity].
Qed.

(** All the predicates of a node, after the first "[". *)
Lemma preds_ok : forall ps p r cur l f, Forall simple_pred (p :: ps) -> Forall good_pred (p :: ps) -> hd_is "[" r = false -> 6 + length ps <= f ->
  exists l', preds f (pred_txt p ++ s_ "]" ++ preds_txt ps ++ r) cur l = PR l' r /\ l' <> [] /\
  (forall x, In x l' -> In x l \/ exists q, In q (p :: ps) /\ x = mkatom (patom cur q) false) /\
  (forall x, In x l -> In x l') /\ (forall q, In q (p :: ps) -> exists x, In x l' /\ a_txt x = patom cur q).
Proof.
  induction ps as [|p2 ps IH]; intros p r cur l f S0 G0 N Hf; inversion S0 as [|? ? S1 S2]; subst; inversion G0 as [|? ? G1 G2]; subst; (destruct f as [|f]; [cbn in Hf; lia|]); cbn [preds]; rewrite (expr_pred p _ cur l f S1 G1) by (cbn [length] in Hf; lia); change (hd_is "]" ("]"%char :: ?x)) with true; cbn [negb andb]; rewrite andb_false_r.
  - cbn [preds_txt flat_map app]. rewrite N. eexists. split; [reflexivity|]. split; [apply add_ne|]. split; [|split].
    + intros x Hx. destruct (in_add _ _ _ _ Hx) as [H| ->]; [left; exact H|right]. exists p. split; [left; reflexivity|reflexivity].
    + intros x Hx. apply add_keeps. exact Hx.
    + intros q [<-|[]]. apply add_has.
  - assert (Hh : preds_txt (p2 :: ps) ++ r = "["%char :: pred_txt p2 ++ s_ "]" ++ preds_txt ps ++ r). { cbn [preds_txt flat_map]. rewrite <- !app_assoc. reflexivity. }
    rewrite Hh. cbn [hd_is tl]. rewrite ch_refl. destruct (IH p2 r cur (add (patom cur p) false l) f S2 G2 N ltac:(cbn [length] in Hf; lia)) as (l' & E & Ne & Hl & Hk & Hc). exists l'. split; [exact E|]. split; [exact Ne|]. split; [|split].
    + intros x Hx. destruct (Hl x Hx) as [Hx'|(q & Hq & ->)].
      * destruct (in_add _ _ _ _ Hx') as [H| ->]; [left; exact H|right]. exists p. split; [left; reflexivity|reflexivity].
      * right. exists q. split; [right; exact Hq|reflexivity].
    + intros x Hx. apply Hk, add_keeps. exact Hx.
    + intros q [<-|Hq]; [|exact (Hc q Hq)]. destruct (add_has (patom cur p) false l) as (x & Hx & Ex). exists x. split; [apply Hk; exact Hx|exact Ex].
Qed.

(** The atoms of the steps [l] after the plain text [cur]: all the text, or the text up to a step with one
    of its predicates. *)
Definition plain_txt (l : list step) : str := flat_map (fun s => s_ "/" ++ name_txt s) l.
Inductive atom_of (l : list step) : str -> Prop :=
  | ao_all : atom_of l (plain_txt l)
  | ao_pred : forall a s b p, l = a ++ s :: b -> In p (step_preds s) -> atom_of l (patom (plain_txt (a ++ [s])) p).
Lemma plain_app : forall a b, plain_txt (a ++ b) = plain_txt a ++ plain_txt b.
Proof. intros. unfold plain_txt. apply flat_map_app. Qed.
Lemma steps_cons : forall s l, steps_txt (s :: l) = s_ "/" ++ step_txt s ++ steps_txt l.
Proof. intros. unfold steps_txt. cbn [flat_map]. rewrite <- app_assoc. reflexivity. Qed.
(** What can follow a path: nothing or the other parts of a union. *)
Definition trail (r : str) : Prop := r = [] \/ exists x, r = s_ " | " ++ x.
Lemma trail_delim : forall r, trail r -> delim r.
Proof. intros r [-> | (x & ->)]; [exact Logic.I|split; [reflexivity|discriminate]]. Qed.
Lemma tail_delim : forall l r, trail r -> delim (steps_txt l ++ r).
Proof. intros [|s l] r T; [apply trail_delim; exact T|]. rewrite steps_cons. split; [reflexivity|discriminate]. Qed.
Lemma preds_delim : forall ps r, delim r -> delim (preds_txt ps ++ r).
Proof. intros [|p ps] r D; [exact D|]. cbn [preds_txt flat_map]. rewrite <- !app_assoc. split; [reflexivity|discriminate]. Qed.
Lemma fin_end : forall f r cur l last stored, trail r ->
  fin (S f) r cur (s_ "/") ENone l last stored = PR (if negb stored && Nat.ltb 1 (length cur) then add cur (is_nil r) l else l) (skip_ws r).
Proof. intros f r cur l last stored [-> | (x & ->)]; [reflexivity|]. cbn. destruct last; reflexivity. Qed.

Definition size (l : list step) : nat := fold_right (fun s n => 10 + length (step_preds s) + n) 10 l.

(** Collected from the predicates of the steps. *)
Definition from_preds (done : list step) (al : list atom) : Prop :=
  forall x, In x al -> exists a y b p, done = a ++ y :: b /\ In p (step_preds y) /\ x = mkatom (patom (plain_txt (a ++ [y])) p) false.
Lemma from_more : forall done al l, from_preds done al -> from_preds (done ++ l) al.
Proof. intros done al l H x Hx. destruct (H x Hx) as (a & y & b & p & -> & Hp & ->). exists a, y, (b ++ l), p. rewrite <- app_assoc. auto. Qed.
Lemma from_atoms : forall done al, from_preds done al -> forall x, In x al -> atom_of done (a_txt x) /\ (a_sel x = true -> a_txt x = plain_txt done).
Proof. intros done al H x Hx. destruct (H x Hx) as (a & y & b & p & E & Hp & ->). split; [cbn [a_txt]; rewrite E; econstructor; [reflexivity|exact Hp]|discriminate]. Qed.
(** Every predicate has its atom. *)
Definition covers (l : list step) (al : list atom) : Prop :=
  forall a y b p, l = a ++ y :: b -> In p (step_preds y) -> exists x, In x al /\ a_txt x = patom (plain_txt (a ++ [y])) p.
Lemma covers_last : forall done s al al', covers done al -> (forall x, In x al -> In x al') -> (forall q, In q (step_preds s) -> exists x, In x al' /\ a_txt x = patom (plain_txt (done ++ [s])) q) -> covers (done ++ [s]) al'.
Proof.
  intros done s al al' C K H a y b p E Hp. destruct b as [|z b] using rev_ind.
  - apply app_inj_tail in E. destruct E as (-> & ->). exact (H p Hp).
  - rewrite app_comm_cons, app_assoc in E. apply app_inj_tail in E. destruct E as (E & _). destruct (C a y b p E Hp) as (x & Hx & Ex). eauto.
Qed.
Definition good_atoms (l : list step) (al : list atom) : Prop :=
  al <> [] /\ forall x, In x al -> atom_of l (a_txt x) /\ (a_sel x = true -> a_txt x = plain_txt l).
Lemma fin_ok : forall f r done al last stored, trail r -> 1 < length (plain_txt done) -> from_preds done al -> (stored = true -> al <> []) ->
  exists al', fin (S f) r (plain_txt done) (s_ "/") ENone al last stored = PR al' (skip_ws r) /\ good_atoms done al' /\ (forall x, In x al -> In x al') /\ (al = [] -> al' = [mkatom (plain_txt done) (is_nil r)]).
Proof.
  intros f r done al last stored T L Ha Hs. rewrite (fin_end _ _ _ _ _ _ T). rewrite (proj2 (Nat.ltb_lt _ _) L), andb_true_r. eexists. split; [reflexivity|].
  destruct stored; cbn [negb].
  - split; [split; [auto|apply from_atoms; exact Ha]|]. split; [auto|]. intros ->. destruct (Hs eq_refl). reflexivity.
  - split.
    + split; [apply add_ne|]. intros x Hx. destruct (in_add _ _ _ _ Hx) as [H| ->]; [exact (from_atoms _ _ Ha x H)|]. cbn [a_txt a_sel]. split; [constructor|reflexivity].
    + split; [intros x Hx; apply add_keeps; exact Hx|]. intros ->. reflexivity.
Qed.
Lemma plain_last : forall done s, plain_txt (done ++ [s]) = plain_txt done ++ s_ "/" ++ mtxt (fst (nm s)) ++ (if hasm (fst (nm s)) then s_ ":" else []) ++ snd (nm s).
Proof. intros. rewrite plain_app. f_equal. unfold plain_txt. cbn [flat_map]. rewrite app_nil_r. unfold name_txt. destruct (nm s) as [[m|] n]; cbn [fst snd mod_txt mtxt hasm]; rewrite <- ?app_assoc; reflexivity. Qed.
Lemma simple_inv : forall s l, simple_steps (s :: l) -> node_or_desc s /\ Forall simple_pred (step_preds s) /\ simple_steps l /\ (s = SDesc -> l = []).
Proof.
  intros [m n ps|m ps| | |] l H; cbn in H; try (destruct l; destruct H; fail).
  - destruct H as (H1 & H2). split; [left; exact Logic.I|]. split; [exact H1|]. split; [exact H2|discriminate].
  - destruct H as (H1 & H2). split; [left; exact Logic.I|]. split; [exact H1|]. split; [exact H2|discriminate].
  - destruct l; [|destruct H]. split; [right; reflexivity|]. split; [constructor|]. split; [exact Logic.I|reflexivity].
Qed.
Lemma good_preds : forall s, good_step s -> Forall good_pred (step_preds s).
Proof. intros [m n ps|m ps| | |] H; cbn in *; try constructor; apply H. Qed.
Lemma long_plain : forall done s, good_step s -> node_or_desc s -> 1 < length (plain_txt (done ++ [s])).
Proof. intros done s G N. rewrite plain_app, app_length. unfold plain_txt at 2. cbn [flat_map]. rewrite app_nil_r, app_length. change (length (s_ "/")) with 1. pose proof (name_ne s G N). lia. Qed.

(** From the first step on. *)
Lemma seg_ok : forall r, trail r -> forall l s done al last f, Forall good_step (s :: l) -> simple_steps (s :: l) -> size (s :: l) <= f -> from_preds done al -> covers done al ->
  exists al', seg f (step_txt s ++ steps_txt l ++ r) (plain_txt done) (s_ "/") ENone al last = PR al' (skip_ws r) /\ good_atoms (done ++ s :: l) al' /\ covers (done ++ s :: l) al' /\
  (al = [] -> Forall (fun s => step_preds s = []) (s :: l) -> al' = [mkatom (plain_txt (done ++ s :: l)) (is_nil r)]).
Proof.
  intros r T. induction l as [|s2 l IH]; intros s done al last f G0 S0 Hf Ha Cv; inversion G0 as [|? ? G1 G2]; subst; cbn [size fold_right] in Hf; (destruct f as [|f]; [lia|]); (destruct f as [|f]; [lia|]);
    destruct (simple_inv _ _ S0) as (N & Sp & Sl & _).
  - rewrite step_split. change (steps_txt []) with (@nil ascii). cbn [app]. rewrite <- app_assoc. cbn [seg]. rewrite (qname_step s (preds_txt (step_preds s) ++ r) G1 N) by (apply preds_delim; apply trail_delim; exact T).
    pose proof (name_ne s G1 N) as Ne. pose proof (long_plain done s G1 N) as Lp.
    replace (Nat.eqb _ _) with false by (symmetry; apply Nat.eqb_neq; rewrite !app_length; lia).
    pose proof (good_preds s G1) as Gp. destruct (step_preds s) as [|p ps] eqn:Ep.
    + cbn [preds_txt flat_map app]. assert (R1 : hd_is "(" r = false) by (destruct T as [-> | (x & ->)]; reflexivity). rewrite R1. cbn [negb]. rewrite <- plain_last. destruct (fin_ok f r (done ++ [s]) al (true || last) false T Lp (from_more _ _ _ Ha) ltac:(discriminate)) as (al' & E & Ga & Gk & Gn). exists al'.
      assert (Cv' : covers (done ++ [s]) al') by (apply (covers_last done s al al' Cv Gk); rewrite Ep; intros q []). destruct T as [-> | (x & ->)]; auto.
    + assert (Hh : preds_txt (p :: ps) ++ r = "["%char :: pred_txt p ++ s_ "]" ++ preds_txt ps ++ r). { cbn [preds_txt flat_map]. rewrite <- !app_assoc. reflexivity. }
      rewrite Hh. cbn [hd_is]. change (ch "[" "(") with false. change (ch "[" "/") with false. change (ch "[" "[") with true. cbn [negb]. rewrite <- plain_last.
      destruct (preds_ok ps p r (plain_txt (done ++ [s])) al (S f) Sp Gp ltac:(destruct T as [-> | (x & ->)]; reflexivity) ltac:(cbn [length] in Hf; lia)) as (l' & E & Nl & Hl & Hk & Hc). rewrite E. assert (R1 : hd_is "/" r = false) by (destruct T as [-> | (x & ->)]; reflexivity). rewrite R1.
      assert (Ha' : from_preds (done ++ [s]) l'). { intros x Hx. destruct (Hl x Hx) as [Hx'|(q & Hq & ->)]; [exact (from_more _ _ _ Ha x Hx')|]. exists done, s, [], q. rewrite Ep. auto. }
      destruct (fin_ok f r (done ++ [s]) l' false (Nat.ltb (length al) (length l')) T Lp Ha' (fun _ => Nl)) as (al' & E' & Ga & Gk & Gn). exists al'. split; [exact E'|]. split; [exact Ga|]. split; [apply (covers_last done s al al' Cv (fun x H => Gk x (Hk x H))); rewrite Ep; intros q Hq; destruct (Hc q Hq) as (x & Hx & Ex); exists x; auto|]. intros _ Q. inversion Q as [|? ? Q1 _]; subst. rewrite Ep in Q1. discriminate.
  - rewrite step_split, <- app_assoc. remember (steps_txt (s2 :: l) ++ r) as rest eqn:Er. assert (Dr : delim rest) by (rewrite Er; apply tail_delim; exact T). cbn [seg]. rewrite (qname_step s _ G1 N) by (apply preds_delim; exact Dr).
    pose proof (name_ne s G1 N) as Ne.
    replace (Nat.eqb _ _) with false by (symmetry; apply Nat.eqb_neq; rewrite !app_length; lia).
    assert (Eq : done ++ s :: s2 :: l = (done ++ [s]) ++ s2 :: l) by (rewrite <- app_assoc; reflexivity).
    assert (Hs : Forall (fun s => step_preds s = []) (s :: s2 :: l) -> Forall (fun s => step_preds s = []) (s2 :: l)) by (intros Q; inversion Q; assumption).
    rewrite steps_cons, <- !app_assoc in Er. change (s_ "/" ++ step_txt s2 ++ steps_txt l ++ r) with ("/"%char :: step_txt s2 ++ steps_txt l ++ r) in Er.
    pose proof (good_preds s G1) as Gp. destruct (step_preds s) as [|p ps] eqn:Ep.
    + cbn [preds_txt flat_map app]. rewrite Er. cbn [hd_is]. change (ch "/" "(") with false. change (ch "/" "/") with true. cbn [negb]. rewrite <- plain_last.
      destruct (IH s2 (done ++ [s]) al (true || last) (S f) G2 Sl ltac:(cbn [size fold_right]; lia) (from_more _ _ _ Ha) ltac:(apply (covers_last done s al al Cv (fun x H => H)); rewrite Ep; intros q [])) as (al' & E & Ga & Gc & Gn). exists al'. rewrite Eq. split; [exact E|]. split; [exact Ga|]. auto.
    + assert (Hh : preds_txt (p :: ps) ++ rest = "["%char :: pred_txt p ++ s_ "]" ++ preds_txt ps ++ rest). { cbn [preds_txt flat_map]. rewrite <- !app_assoc. reflexivity. }
      rewrite Hh. cbn [hd_is]. change (ch "[" "(") with false. change (ch "[" "/") with false. change (ch "[" "[") with true. cbn [negb]. rewrite <- plain_last.
      destruct (preds_ok ps p rest (plain_txt (done ++ [s])) al (S f) Sp Gp ltac:(rewrite Er; reflexivity) ltac:(cbn [length] in Hf; lia)) as (l' & E & Nl & Hl & Hk & Hc). rewrite E. rewrite Er. cbn [hd_is tl]. change (ch "/" "/") with true. cbv iota.
      assert (Ha' : from_preds (done ++ [s]) l'). { intros x Hx. destruct (Hl x Hx) as [Hx'|(q & Hq & ->)]; [exact (from_more _ _ _ Ha x Hx')|]. exists done, s, [], q. rewrite Ep. auto. }
      destruct (IH s2 (done ++ [s]) l' (true || last) (S f) G2 Sl ltac:(cbn [size fold_right]; lia) Ha' ltac:(apply (covers_last done s al l' Cv Hk); rewrite Ep; exact Hc)) as (al' & E' & Ga & Gc & Gn). exists al'. rewrite Eq. split; [exact E'|]. split; [exact Ga|]. split; [exact Gc|]. intros _ Q. inversion Q as [|? ? Q1 _]; subst. rewrite Ep in Q1. discriminate.
Qed.

(** ** Unions *)
Lemma name_len : forall s, good_step s -> node_or_desc s -> 1 <= length (name_txt s).
Proof. intros s G N. pose proof (name_ne s G N). lia. Qed.
Lemma preds_len : forall ps, length ps <= length (preds_txt ps).
Proof. induction ps as [|p ps IH]; [apply Nat.le_refl|]. unfold preds_txt in *. cbn [flat_map length]. rewrite !app_length. change (length (s_ "[")) with 1. lia. Qed.
Lemma size_len : forall l, Forall good_step l -> simple_steps l -> size l <= 10 + 6 * length (steps_txt l).
Proof.
  induction l as [|s l IH]; intros G S0; [cbn; lia|]. inversion G as [|? ? G1 G2]; subst. destruct (simple_inv _ _ S0) as (N & _ & S1 & _).
  rewrite steps_cons, step_split, !app_length. pose proof (name_len s G1 N). pose proof (preds_len (step_preds s)). specialize (IH G2 S1). unfold size in *. cbn [fold_right]. change (length (s_ "/")) with 1. lia.
Qed.
Definition parsed (p : path) (al : list atom) : Prop :=
  good_atoms (p_steps p) al /\ covers (p_steps p) al /\ (plain p -> exists b, al = [mkatom (plain_txt (p_steps p)) b]).
Lemma expr_ok : forall p pre r f, good_path p -> simple p -> pre = [] \/ pre = s_ " " -> trail r -> 8 * S (length (path_txt p)) <= f ->
  exists al, expr f (pre ++ path_txt p ++ r) (s_ "/") ENone [] = PR al (skip_ws r) /\ parsed p al.
Proof.
  intros [ab st] pre r f (Hne & G) (Hab & S0) Hp T Hf. cbn [p_abs p_steps] in *. subst ab. unfold path_txt in *. cbn [p_abs p_steps] in *.
  destruct st as [|s l]; [contradiction|]. pose proof (size_len _ G S0) as Sz. assert (L2 : 2 <= length (steps_txt (s :: l))).
  { rewrite steps_cons, step_split, !app_length. inversion G; subst. pose proof (name_len s H1 (proj1 (simple_inv _ _ S0))). change (length (s_ "/")) with 1. lia. }
  destruct f as [|f]; [lia|]. cbn [expr].
  assert (E : skip_ws (pre ++ steps_txt (s :: l) ++ r) = "/"%char :: step_txt s ++ steps_txt l ++ r).
  { rewrite steps_cons, <- !app_assoc. destruct Hp as [-> | ->]; reflexivity. }
  rewrite E. cbn [ends_at at_quote at_digit]. change (is_quote "/") with false. change (is_digit "/") with false. change (ch "/" "/") with true. cbv iota beta.
  destruct (seg_ok r T l s [] [] false f G S0 ltac:(lia) ltac:(intros x []) ltac:(intros a y b p Q; destruct a; discriminate Q)) as (al & Es & Ga & Gc & Gp). change (plain_txt []) with (@nil ascii) in Es. rewrite Es. exists al. split; [reflexivity|]. split; [exact Ga|]. split; [exact Gc|]. intros Hpl. exists (is_nil r). apply Gp; [reflexivity|exact Hpl].
Qed.
Lemma unions_ok : forall l p pre u f, Forall good_path (p :: l) -> Forall simple (p :: l) -> pre = [] \/ pre = s_ " " -> length (p :: l) <= f ->
  exists us, unions f (pre ++ union_txt (p :: l)) u = GAtoms (u ++ us) /\ Forall2 parsed (p :: l) us.
Proof.
  induction l as [|p2 l IH]; intros p pre u f G S0 Hp Hf; inversion G as [|? ? G1 G2]; subst; inversion S0 as [|? ? S1 S2]; subst; (destruct f as [|f]; [cbn in Hf; lia|]); cbn [unions].
  - cbn [union_txt]. assert (Ln : length (path_txt p) <> 0). { destruct p as [ab [|s st]]; destruct G1 as (Hn & G1); [contradiction Hn; reflexivity|]. destruct S1 as (Ha & _). cbn in Ha. subst ab. unfold path_txt. cbn [p_abs p_steps]. rewrite steps_cons, app_length. change (length (s_ "/")) with 1. lia. }
    destruct (expr_ok p pre [] (8 * S (length (pre ++ path_txt p))) G1 S1 Hp (or_introl eq_refl) ltac:(rewrite app_length; lia)) as (al & E & Pa). rewrite app_nil_r in E. rewrite E. change (skip_ws []) with (@nil ascii).
    replace (Nat.eqb (length []) (length (pre ++ path_txt p))) with false by (symmetry; apply Nat.eqb_neq; rewrite app_length; cbn [length]; lia). cbn [hd_is]. exists [al]. auto.
  - assert (Ut : union_txt (p :: p2 :: l) = path_txt p ++ s_ " | " ++ union_txt (p2 :: l)) by reflexivity. rewrite Ut.
    destruct (expr_ok p pre (s_ " | " ++ union_txt (p2 :: l)) (8 * S (length (pre ++ path_txt p ++ s_ " | " ++ union_txt (p2 :: l)))) G1 S1 Hp (or_intror (ex_intro _ _ eq_refl)) ltac:(rewrite !app_length; lia)) as (al & E & Pa). rewrite E.
    assert (Ek : skip_ws (s_ " | " ++ union_txt (p2 :: l)) = "|"%char :: s_ " " ++ union_txt (p2 :: l)) by reflexivity. rewrite Ek.
    replace (Nat.eqb _ _) with false by (symmetry; apply Nat.eqb_neq; rewrite !app_length; cbn [length]; rewrite app_length; change (length (s_ " | ")) with 3; change (length (s_ " ")) with 1; lia).
    cbn [hd_is tl]. rewrite ch_refl. destruct (IH p2 (s_ " ") (u ++ [al]) f G2 S2 (or_intror eq_refl) ltac:(cbn [length] in *; lia)) as (us & Eu & F). exists (al :: us). rewrite Eu, <- app_assoc. split; [reflexivity|]. constructor; [exact Pa|exact F].
Qed.
Lemma union_len : forall l, Forall good_path l -> Forall simple l -> length l <= length (union_txt l).
Proof.
  induction l as [|p l IH]; intros G S0; [apply Nat.le_refl|]. inversion G as [|? ? G1 G2]; subst. inversion S0 as [|? ? S1 S2]; subst. specialize (IH G2 S2).
  assert (Ln : length (path_txt p) <> 0). { destruct p as [ab [|s st]]; destruct G1 as (Hn & G1); [contradiction Hn; reflexivity|]. destruct S1 as (Ha & _). cbn in Ha. subst ab. unfold path_txt. cbn [p_abs p_steps]. rewrite steps_cons, app_length. change (length (s_ "/")) with 1. lia. }
  destruct l as [|p2 l]; [cbn [union_txt length]; lia|]. change (union_txt (p :: p2 :: l)) with (path_txt p ++ s_ " | " ++ union_txt (p2 :: l)). rewrite !app_length. cbn [length] in *. lia.
Qed.
Lemma atoms_ok : forall l, l <> [] -> Forall good_path l -> Forall simple l -> exists us, text_atoms (union_txt l) = GAtoms us /\ Forall2 parsed l us.
Proof.
  intros [|p l] Hn G S0; [contradiction|]. unfold text_atoms. pose proof (union_len _ G S0).
  destruct (unions_ok l p [] [] (S (length (union_txt (p :: l)))) G S0 (or_introl eq_refl) ltac:(lia)) as (us & E & F). exists us. split; [exact E|exact F].
Qed.

(** ** Comparing *)
Fixpoint fits (l : list step) (n : list elem) : Prop :=
  match l with
  | [] => True
  | SName m x ps :: r => match n with e :: n' => (in_mod m e /\ e_name e = x /\ Forall (holds e) ps) /\ fits r n' | [] => False end
  | SAny m ps :: r => match n with e :: n' => (in_mod m e /\ Forall (holds e) ps) /\ fits r n' | [] => False end
  | SDesc :: _ => True
  | _ => False
  end.
Lemma fits_more : forall l n t, fits l n -> fits l (n ++ t).
Proof. induction l as [|[m x ps|m ps| | |] l IH]; intros [|e n] t H; cbn in *; auto; try contradiction; destruct H; split; auto. Qed.
Lemma sel_fits : forall T l ctx res, simple_steps l -> sel T l ctx res -> exists t, res = ctx ++ t /\ fits l t.
Proof.
  intros T. induction l as [|s l IH]; intros ctx res S0 H.
  - exists []. rewrite app_nil_r. split; [exact H|exact Logic.I].
  - destruct (simple_inv _ _ S0) as (N & _ & S1 & Sd). destruct s as [m n ps|m ps| | |]; cbn [sel] in H; try (destruct N as [N|N]; [contradiction|discriminate]).
    + destruct H as (e & _ & H1 & H2 & H3 & H). destruct (IH _ _ S1 H) as (t & -> & F). exists (e :: t). rewrite <- app_assoc. split; [reflexivity|]. cbn [fits]. auto.
    + destruct H as (e & _ & H1 & H3 & H). destruct (IH _ _ S1 H) as (t & -> & F). exists (e :: t). rewrite <- app_assoc. split; [reflexivity|]. cbn [fits]. auto.
    + rewrite (Sd eq_refl) in *. destruct H as (d & _ & H). cbn in H. exists d. split; [exact H|exact Logic.I].
Qed.
Lemma overlap_fits : forall r s, simple r -> simple s -> overlap r s -> exists n, fits (p_steps r) n /\ fits (p_steps s) n.
Proof.
  intros r s (_ & Sr) (_ & Ss) (T & a & b & Ha & Hb & Hab). destruct (sel_fits T _ _ _ Sr Ha) as (ta & Ea & Fa). destruct (sel_fits T _ _ _ Ss Hb) as (tb & Eb & Fb). cbn [app] in Ea, Eb. subst ta tb.
  destruct Hab as [(t & ->)|(t & ->)]; [exists (a ++ t)|exists (b ++ t)]; split; auto using fits_more.
Qed.

Lemma wild_ident : forall n, ident n -> wild n = false.
Proof.
  intros [|c t] (H & _); [destruct H|]. destruct (first_facts c H) as (_ & A2 & A3 & _). unfold wild. change (s_ "*") with ["*"%char]. change (s_ "/.") with ["/"; "."]%char. cbn [str_eqb]. rewrite A3, A2. reflexivity.
Qed.
Definition compat (s t : step) : bool :=
  negb (differ (mtxt (fst (nm s))) (mtxt (fst (nm t)))) && (wild (snd (nm s)) || wild (snd (nm t)) || str_eqb (snd (nm s)) (snd (nm t))).
Lemma req_step : forall s t r1 r2 f, good_step s -> good_step t -> node_or_desc s -> node_or_desc t -> delim r1 -> delim r2 ->
  atoms_req (S f) (s_ "/" ++ name_txt s ++ r1) (s_ "/" ++ name_txt t ++ r2) =
  if compat s t then
    if hd_is "[" r1 && hd_is "[" r2 then match pred_match (length r1) (tl r1) (tl r2) with PClash => Some AClash | PEnd => None | _ => Some AYes end
    else if hd_is "[" r1 || hd_is "[" r2 then Some AYes else if is_nil r1 || is_nil r2 then Some AYes else atoms_req f r1 r2
  else Some ANo.
Proof.
  intros s t r1 r2 f Gs Gt Ns Nt D1 D2. cbn [atoms_req s_ list_ascii_of_string app]. rewrite (qname_step s r1 Gs Ns D1), (qname_step t r2 Gt Nt D2). unfold compat.
  destruct (differ _ _); [reflexivity|]. cbn [negb andb]. destruct (wild (snd (nm s))); [reflexivity|]. destruct (wild (snd (nm t))); [reflexivity|]. destruct (str_eqb (snd (nm s)) (snd (nm t))); reflexivity.
Qed.
Lemma compat_fits : forall s t l1 l2 e n, good_step s -> good_step t -> s <> SDesc -> t <> SDesc -> fits (s :: l1) (e :: n) -> fits (t :: l2) (e :: n) -> compat s t = true.
Proof.
  assert (D : forall m m' e, in_mod m e -> in_mod m' e -> differ (mtxt m) (mtxt m') = false).
  { intros [m|] [m'|] e; cbn [in_mod mtxt]; unfold differ; cbn [is_nil negb andb]; intros; subst; rewrite ?andb_false_r; try reflexivity. rewrite str_eqb_refl. cbn [negb]. apply andb_false_r. }
  intros [m n ps|m ps| | |] [m' n' ps'|m' ps'| | |] l1 l2 e x G1 G2 N1 N2 F1 F2; try contradiction; cbn [fits] in F1, F2; unfold compat; cbn [nm fst snd]; destruct F1 as (F1 & _), F2 as (F2 & _);
    rewrite (D m m' e) by (apply F1 || apply F2); cbn [negb andb]; try reflexivity.
  - destruct F1 as (_ & F1 & _), F2 as (_ & F2 & _). rewrite <- F1, <- F2, str_eqb_refl, !orb_true_r. reflexivity.
  - rewrite orb_true_r. reflexivity.
Qed.
Lemma compat_desc_l : forall t, compat SDesc t = true.
Proof. reflexivity. Qed.
Lemma compat_desc_r : forall s, compat s SDesc = true.
Proof. intros s. unfold compat. cbn [nm fst snd]. unfold differ. cbn [mtxt is_nil negb]. rewrite andb_false_r. cbn [negb andb andb]. change (wild (s_ "/.")) with true. rewrite orb_true_r. reflexivity. Qed.

(** *** Predicates *)
Lemma ident_part : forall z, Forall (fun c => is_id c = true) z -> exists i z', (forall y, next_identifier (z ++ "="%char :: y) = (i, z' ++ "="%char :: y)) /\ length z' <= length z /\ Forall (fun c => is_id c = true) z'.
Proof.
  intros [|c t] H.
  - exists [], []. split; [reflexivity|]. split; [apply Nat.le_refl|constructor].
  - inversion H as [|? ? Hc Ht]; subst. assert (C1 : ch c "/" = false) by (apply ch_neq; intros ->; discriminate). assert (C2 : ch c "*" = false) by (apply ch_neq; intros ->; discriminate).
    assert (C3 : ch "/" c = false) by (apply ch_neq; intros <-; discriminate).
    destruct (ch c ".") eqn:C4.
    + apply ch_eq in C4. subst c. destruct t as [|d t].
      * exists ["."%char], []. split; [reflexivity|]. split; [cbn; lia|constructor].
      * inversion Ht as [|? ? Hd Ht']; subst. destruct (ch "." d) eqn:C5.
        -- apply ch_eq in C5. subst d. exists ["."; "."]%char, t. split; [reflexivity|]. split; [cbn [length]; lia|exact Ht'].
        -- exists ["."%char], (d :: t). split; [|split; [cbn [length]; lia|exact Ht]]. intros y. unfold next_identifier. change (s_ "..") with ["."; "."]%char. change (s_ "/.") with ["/"; "."]%char. cbn [app prefix]. rewrite C5, C3. reflexivity.
    + assert (C6 : ch "." c = false) by (apply ch_neq; intros <-; rewrite ch_refl in C4; discriminate).
      destruct (negb (is_alpha c) && negb (ch c "_")) eqn:C7.
      * exists [], (c :: t). split; [|split; [apply Nat.le_refl|exact H]]. intros y. unfold next_identifier. change (s_ "..") with ["."; "."]%char. change (s_ "/.") with ["/"; "."]%char. cbn [app prefix]. rewrite C6, C3. cbn [andb orb]. rewrite C2, C4, C7. reflexivity.
      * exists (c :: t), []. split; [|split; [cbn; lia|constructor]]. intros y. unfold next_identifier. change (s_ "..") with ["."; "."]%char. change (s_ "/.") with ["/"; "."]%char. cbn [app prefix]. rewrite C6, C3. cbn [andb orb]. rewrite C2, C4, C7. cbn [orb].
        rewrite (span_all is_id t ("="%char :: y) Ht eq_refl). reflexivity.
Qed.
Lemma qname_part : forall z, Forall (fun c => is_id c = true) z -> exists i z', (forall y, next_qname (z ++ "="%char :: y) = ([], false, i, z' ++ "="%char :: y)) /\ length z' <= length z /\ Forall (fun c => is_id c = true) z'.
Proof.
  intros z H. destruct (ident_part z H) as (i & z' & E & L & F). exists i, z'. split; [|auto]. intros y. unfold next_qname. rewrite E. destruct F as [|c z' Hc F]; [reflexivity|]. cbn [app].
  assert (C : ch c ":" = false) by (apply ch_neq; intros ->; discriminate). rewrite C. reflexivity.
Qed.
Lemma same_name : forall f w q v q' r r', Forall (fun c => is_id c = true) w -> w <> [] -> length w <= f -> ~ In q v -> ~ In q' v ->
  pred_match f (w ++ s_ "=" ++ lit q v ++ r) (w ++ s_ "=" ++ lit q' v ++ r') = PSame.
Proof.
  induction f as [|f IH]; intros w q v q' r r' F Hn Hl Q Q'; [destruct w; [contradiction|cbn in Hl; lia]|].
  destruct w as [|c t]; [contradiction|]. inversion F as [|? ? _ Ft]; subst. cbn [app pred_match]. change (s_ "=" ++ ?x) with ("="%char :: x). destruct (qname_part t Ft) as (i & z' & E & L & Fz). rewrite !E. cbn [differ is_nil negb andb]. rewrite str_eqb_refl. cbn [negb].
  destruct z' as [|d z'].
  - cbn [app hd_is]. rewrite ch_refl. cbn [orb andb tl]. rewrite !literal_ok by assumption. unfold lit. cbn [app tl]. rewrite !removelast_last. rewrite str_eqb_refl. reflexivity.
  - cbn [app hd_is]. inversion Fz as [|? ? Hd _]; subst. assert (C : ch d "=" = false) by (apply ch_neq; intros ->; discriminate). rewrite C. cbn [orb].
    apply (IH (d :: z') q v q' r r' Fz); [discriminate|cbn [length] in *; lia|exact Q|exact Q'].
Qed.
Lemma pred_ok : forall p p' e r r' f, simple_pred p -> simple_pred p' -> good_pred p -> good_pred p' -> holds e p -> holds e p' ->
  (forall a b, In a (pred_names p) -> In b (pred_names p') -> apart a b) -> length (pred_txt p) <= f ->
  pred_match f (pred_txt p ++ r) (pred_txt p' ++ r') = PSame \/ pred_match f (pred_txt p ++ r) (pred_txt p' ++ r') = PDiff.
Proof.
  intros [n q v|] [n' q' v'|] e r r' f S1 S2 G1 G2 H1 H2 A Hf; try contradiction. destruct G1 as (I1 & Q1 & V1), G2 as (I2 & Q2 & V2). cbn [holds] in H1, H2. cbn [pred_txt] in *.
  destruct (A n n' (or_introl eq_refl) (or_introl eq_refl)) as [<-|(L1 & L2 & Ne)].
  - assert (Ev : v' = v) by congruence. subst v'. left. rewrite <- !app_assoc. pose proof (same_name f n q v q' r r' (proj2 I1)) as X. unfold lit in X. rewrite <- !app_assoc in X. apply X; auto.
    + intros ->. exact (proj1 I1).
    + rewrite !app_length in Hf. lia.
  - right. rewrite <- !app_assoc. destruct n as [|c [|d t]]; try contradiction. destruct n' as [|c' [|d' t']]; try contradiction. cbn [second_letter tl] in *.
    destruct f as [|f]; [cbn [length app] in Hf; lia|]. cbn [app pred_match].
    assert (J1 : ident (d :: t)) by (split; [left; exact L1|destruct I1 as (_ & I1); inversion I1; assumption]). assert (J2 : ident (d' :: t')) by (split; [left; exact L2|destruct I2 as (_ & I2); inversion I2; assumption]).
    assert (De : forall y, delim (s_ "=" ++ y)) by (intros y; split; [reflexivity|discriminate]).
    pose proof (fun y => qname_name None (d :: t) (s_ "=" ++ y) Logic.I J1 (De y)) as X1. pose proof (fun y => qname_name None (d' :: t') (s_ "=" ++ y) Logic.I J2 (De y)) as X2.
    cbn [mod_txt app mtxt hasm] in X1, X2. rewrite X1, X2. cbn [differ is_nil negb andb]. destruct (str_eqb (d :: t) (d' :: t')) eqn:Ee; [|reflexivity]. apply str_eqb_eq in Ee. contradiction.
Qed.

(** *** Atoms *)
Definition otxt (o : option pred) : str := match o with Some p => s_ "[" ++ pred_txt p ++ s_ "]" | None => [] end.
Definition opt_in (o : option pred) (s : step) : Prop := match o with Some p => In p (step_preds s) | None => True end.
Lemma prefix_simple : forall a b, simple_steps (a ++ b) -> simple_steps a.
Proof.
  induction a as [|s a IH]; intros b H; [exact Logic.I|]. cbn [app] in H. destruct (simple_inv _ _ H) as (N & P & S1 & Sd). destruct s as [m n ps|m ps| | |]; try (destruct N as [N|N]; [contradiction|discriminate]); cbn [simple_steps step_preds] in *.
  - split; [exact P|exact (IH b S1)].
  - split; [exact P|exact (IH b S1)].
  - specialize (Sd eq_refl). destruct a; [exact Logic.I|discriminate].
Qed.
Lemma fits_prefix : forall a b n, fits (a ++ b) n -> fits a n.
Proof. induction a as [|[m x ps|m ps| | |] a IH]; intros b [|e n] H; cbn in *; try exact Logic.I; try contradiction; destruct H as (H1 & H2); split; try exact H1; exact (IH _ _ H2). Qed.
Lemma atom_shape : forall l t, Forall good_step l -> simple_steps l -> l <> [] -> atom_of l t -> exists a o b, l = a ++ b /\ a <> [] /\ opt_in o (last a SSelf) /\ t = plain_txt a ++ otxt o.
Proof.
  intros l t G S0 Ne [|a s b p E Hp].
  - exists l, None, []. rewrite !app_nil_r. cbn. auto.
  - exists (a ++ [s]), (Some p), b. rewrite last_last. cbn [opt_in]. rewrite <- app_assoc. split; [exact E|]. split; [intros Q; destruct a; discriminate|]. split; [exact Hp|].
    destruct p as [n q v|]; [cbn [patom otxt pred_txt]; unfold lit; rewrite <- !app_assoc; reflexivity|]. exfalso. subst l. revert S0 Hp. clear. induction a as [|x a IH]; cbn [app]; intros S0 Hp; destruct (simple_inv _ _ S0) as (_ & P & S1 & _); [|auto].
    rewrite Forall_forall in P. exact (P _ Hp).
Qed.
Lemma plain_cons : forall s a, plain_txt (s :: a) = s_ "/" ++ name_txt s ++ plain_txt a.
Proof. intros. unfold plain_txt. cbn [flat_map]. rewrite <- app_assoc. reflexivity. Qed.
Lemma atom_delim : forall a o, delim (plain_txt a ++ otxt o).
Proof. intros [|s a] [p|]; cbn; auto; try (split; [reflexivity|discriminate]). Qed.
Lemma holds_in : forall s l e n p, s <> SDesc -> fits (s :: l) (e :: n) -> In p (step_preds s) -> holds e p.
Proof. intros [m x ps|m ps| | |] l e n p N F H; try contradiction; cbn [fits step_preds] in *; destruct F as (F & _); [destruct F as (_ & _ & F)|destruct F as (_ & F)]; rewrite Forall_forall in F; auto. Qed.
Lemma fits_pop : forall s l e n, s <> SDesc -> fits (s :: l) (e :: n) -> fits l n.
Proof. intros [m x ps|m ps| | |] l e n N F; try contradiction; apply F. Qed.
Lemma fits_some : forall s l n, s <> SDesc -> fits (s :: l) n -> exists e n', n = e :: n'.
Proof. intros [m x ps|m ps| | |] l [|e n] N F; try contradiction; eauto. Qed.
Definition step_names (l : list step) : list str := flat_map pred_names (flat_map step_preds l).
Lemma in_step_names : forall l s p a, In s l -> In p (step_preds s) -> In a (pred_names p) -> In a (step_names l).
Proof. intros l s p a Hs Hp Ha. unfold step_names. apply in_flat_map. exists p. split; [|exact Ha]. apply in_flat_map. exists s. auto. Qed.

Lemma desc_dec : forall s, s = SDesc \/ s <> SDesc.
Proof. intros []; try (right; discriminate). left; reflexivity. Qed.
Lemma req_ok : forall A B oa ob n f, A <> [] -> B <> [] -> Forall good_step A -> Forall good_step B -> simple_steps A -> simple_steps B ->
  fits A n -> fits B n -> opt_in oa (last A SSelf) -> opt_in ob (last B SSelf) ->
  (forall a b, In a (step_names A) -> In b (step_names B) -> apart a b) -> length A <= f ->
  atoms_req f (plain_txt A ++ otxt oa) (plain_txt B ++ otxt ob) = Some AYes.
Proof.
  induction A as [|s A IH]; intros B oa ob n f NA NB GA GB SA SB FA FB OA OB AP Hf; [contradiction|]. destruct B as [|t B]; [contradiction|]. destruct f as [|f]; [cbn in Hf; lia|].
  inversion GA as [|? ? Ga GA']; subst. inversion GB as [|? ? Gb GB']; subst. destruct (simple_inv _ _ SA) as (Ns & Ps & SA' & Ds). destruct (simple_inv _ _ SB) as (Nt & Pt & SB' & Dt).
  rewrite !plain_cons, <- !app_assoc. rewrite (req_step s t _ _ f Ga Gb Ns Nt (atom_delim A oa) (atom_delim B ob)).
  assert (Ro : forall X o, X <> [] -> hd_is "[" (plain_txt X ++ otxt o) = false). { intros [|x X] o N; [contradiction|]. rewrite plain_cons. reflexivity. }
  destruct (desc_dec s) as [Es|Es].
  { subst s. rewrite (Ds eq_refl) in *. cbn [last] in OA. destruct oa as [p|]; [destruct OA|]. rewrite compat_desc_l. cbn [plain_txt flat_map otxt app hd_is andb is_nil orb]. destruct (hd_is "[" _); reflexivity. }
  destruct (desc_dec t) as [Et|Et].
  { subst t. rewrite (Dt eq_refl) in *. cbn [last] in OB. destruct ob as [p|]; [destruct OB|]. rewrite compat_desc_r. cbn [otxt]. change (plain_txt []) with (@nil ascii). cbn [app hd_is is_nil]. rewrite andb_false_r, !orb_true_r. destruct (hd_is "[" _); reflexivity. }
  destruct (fits_some s A n Es FA) as (e & n' & ->). rewrite (compat_fits s t A B e n' Ga Gb Es Et FA FB).
  destruct A as [|s2 A].
  - destruct oa as [p|].
    + cbn [last opt_in] in OA. destruct B as [|t2 B].
      * destruct ob as [p'|].
        -- cbn [last opt_in] in OB. change (plain_txt []) with (@nil ascii). cbn [otxt app]. change (s_ "[" ++ ?x) with ("["%char :: x). cbn [hd_is tl]. rewrite ch_refl. cbn [andb].
           rewrite Forall_forall in Ps, Pt. pose proof (good_preds s Ga) as Gs. pose proof (good_preds t Gb) as Gt. rewrite Forall_forall in Gs, Gt.
           destruct (pred_ok p p' e (s_ "]") (s_ "]") (length ("["%char :: pred_txt p ++ s_ "]")) (Ps _ OA) (Pt _ OB) (Gs _ OA) (Gt _ OB) (holds_in s [] e n' p Es FA OA) (holds_in t [] e n' p' Et FB OB)
             (fun a b Ha Hb => AP a b (in_step_names [s] s p a (or_introl eq_refl) OA Ha) (in_step_names [t] t p' b (or_introl eq_refl) OB Hb)) ltac:(cbn [length]; rewrite app_length; lia)) as [E|E]; rewrite E; reflexivity.
        -- reflexivity.
      * rewrite (Ro (t2 :: B) ob) by discriminate. rewrite andb_false_r. reflexivity.
    + change (plain_txt []) with (@nil ascii). cbn [otxt app hd_is andb orb is_nil]. destruct (hd_is "[" _); reflexivity.
  - rewrite (Ro (s2 :: A) oa) by discriminate. cbn [andb orb]. destruct B as [|t2 B].
    + destruct ob as [p'|].
      * change (plain_txt []) with (@nil ascii). cbn [otxt app]. reflexivity.
      * change (plain_txt []) with (@nil ascii). cbn [otxt app hd_is is_nil]. rewrite orb_true_r. reflexivity.
    + rewrite (Ro (t2 :: B) ob) by discriminate. assert (In1 : is_nil (plain_txt (s2 :: A) ++ otxt oa) = false) by (rewrite plain_cons; reflexivity). assert (In2 : is_nil (plain_txt (t2 :: B) ++ otxt ob) = false) by (rewrite plain_cons; reflexivity). rewrite In1, In2. cbn [orb].
      apply (IH (t2 :: B) oa ob n' f); try discriminate; auto.
      * exact (fits_pop s _ e n' Es FA).
      * exact (fits_pop t _ e n' Et FB).
      * intros a b Ha Hb. apply AP; unfold step_names in *; cbn [flat_map]; rewrite flat_map_app; apply in_or_app; right; assumption.
      * cbn [length] in *. lia.
Qed.

(** *** Always defined *)
Lemma pred_def : forall f w w' q v q' v' r r', Forall (fun c => is_id c = true) w -> Forall (fun c => is_id c = true) w' -> w <> [] -> w' <> [] -> length w <= f -> ~ In q v -> ~ In q' v' ->
  pred_match f (w ++ s_ "=" ++ lit q v ++ r) (w' ++ s_ "=" ++ lit q' v' ++ r') <> PEnd.
Proof.
  induction f as [|f IH]; intros w w' q v q' v' r r' F F' Hn Hn' Hl Q Q'; [destruct w; [contradiction|cbn in Hl; lia]|].
  destruct w as [|c t]; [contradiction|]. destruct w' as [|c' t']; [contradiction|]. inversion F as [|? ? _ Ft]; subst. inversion F' as [|? ? _ Ft']; subst. cbn [app pred_match]. change (s_ "=" ++ ?x) with ("="%char :: x).
  destruct (qname_part t Ft) as (i & z & E & L & Fz). destruct (qname_part t' Ft') as (i' & z' & E' & L' & Fz'). rewrite E, E'. cbn [differ is_nil negb andb]. destruct (str_eqb i i'); [|discriminate]. cbn [negb].
  destruct z as [|d z].
  - cbn [app hd_is]. rewrite ch_refl. cbn [orb andb tl]. destruct z' as [|d' z'].
    + cbn [app hd_is]. rewrite ch_refl. cbn [tl]. rewrite !literal_ok by assumption. destruct (str_eqb _ _); discriminate.
    + cbn [app hd_is]. inversion Fz' as [|? ? Hd _]; subst. assert (C : ch d' "=" = false) by (apply ch_neq; intros ->; discriminate). rewrite C. discriminate.
  - cbn [app hd_is]. inversion Fz as [|? ? Hd _]; subst. assert (C : ch d "=" = false) by (apply ch_neq; intros ->; discriminate). rewrite C. cbn [orb andb]. destruct z' as [|d' z'].
    + cbn [app hd_is]. rewrite ch_refl. discriminate.
    + cbn [app hd_is]. inversion Fz' as [|? ? Hd' _]; subst. assert (C' : ch d' "=" = false) by (apply ch_neq; intros ->; discriminate). rewrite C'.
      apply (IH (d :: z) (d' :: z') q v q' v' r r'); auto; try discriminate. cbn [length] in *; lia.
Qed.
Lemma req_def : forall A B oa ob f, A <> [] -> B <> [] -> Forall good_step A -> Forall good_step B -> simple_steps A -> simple_steps B ->
  opt_in oa (last A SSelf) -> opt_in ob (last B SSelf) -> length A <= f -> atoms_req f (plain_txt A ++ otxt oa) (plain_txt B ++ otxt ob) <> None.
Proof.
  induction A as [|s A IH]; intros B oa ob f NA NB GA GB SA SB OA OB Hf; [contradiction|]. destruct B as [|t B]; [contradiction|]. destruct f as [|f]; [cbn in Hf; lia|].
  inversion GA as [|? ? Ga GA']; subst. inversion GB as [|? ? Gb GB']; subst. destruct (simple_inv _ _ SA) as (Ns & Ps & SA' & Ds). destruct (simple_inv _ _ SB) as (Nt & Pt & SB' & Dt).
  rewrite !plain_cons, <- !app_assoc. rewrite (req_step s t _ _ f Ga Gb Ns Nt (atom_delim A oa) (atom_delim B ob)). destruct (compat s t); [|discriminate].
  assert (Ro : forall X o, X <> [] -> hd_is "[" (plain_txt X ++ otxt o) = false). { intros [|x X] o N; [contradiction|]. rewrite plain_cons. reflexivity. }
  destruct A as [|s2 A].
  - destruct oa as [p|].
    + destruct B as [|t2 B].
      * destruct ob as [p'|]; [|discriminate]. cbn [last opt_in] in OA, OB. rewrite Forall_forall in Ps, Pt. pose proof (good_preds s Ga) as Gs. pose proof (good_preds t Gb) as Gt. rewrite Forall_forall in Gs, Gt.
        pose proof (Gs _ OA) as G1. pose proof (Gt _ OB) as G2. pose proof (Ps _ OA) as S1. pose proof (Pt _ OB) as S2. destruct p as [n q v|]; [|contradiction]. destruct p' as [n' q' v'|]; [|contradiction]. destruct G1 as (I1 & _ & V1), G2 as (I2 & _ & V2).
        change (plain_txt []) with (@nil ascii). cbn [otxt app]. change (s_ "[" ++ ?x) with ("["%char :: x). cbn [hd_is tl]. rewrite ch_refl. cbn [andb pred_txt]. rewrite <- !app_assoc.
        pose proof (pred_def (length ("["%char :: n ++ s_ "=" ++ [q] ++ v ++ [q] ++ s_ "]")) n n' q v q' v' (s_ "]") (s_ "]") (proj2 I1) (proj2 I2)) as X. unfold lit in X. rewrite <- !app_assoc in X.
        destruct (pred_match _ _ _); try discriminate. exfalso. apply X; auto; try (intros ->; first [exact (proj1 I1)|exact (proj1 I2)]). cbn [length]. rewrite app_length. lia.
      * rewrite (Ro (t2 :: B) ob) by discriminate. rewrite andb_false_r. discriminate.
    + change (plain_txt []) with (@nil ascii). cbn [otxt app hd_is andb orb is_nil]. destruct (hd_is "[" _); discriminate.
  - rewrite (Ro (s2 :: A) oa) by discriminate. cbn [andb orb]. destruct B as [|t2 B].
    + destruct ob as [p'|].
      * change (plain_txt []) with (@nil ascii). cbn [otxt app]. discriminate.
      * change (plain_txt []) with (@nil ascii). cbn [otxt app hd_is is_nil]. rewrite orb_true_r. discriminate.
    + rewrite (Ro (t2 :: B) ob) by discriminate. assert (In1 : is_nil (plain_txt (s2 :: A) ++ otxt oa) = false) by (rewrite plain_cons; reflexivity). assert (In2 : is_nil (plain_txt (t2 :: B) ++ otxt ob) = false) by (rewrite plain_cons; reflexivity). rewrite In1, In2. cbn [orb].
      apply (IH (t2 :: B) oa ob f); try discriminate; auto. cbn [length] in *. lia.
Qed.

(** *** The loops *)
Definition areq (ra sa : atom) : option ar := atoms_req (S (length (a_txt ra))) (a_txt ra) (a_txt sa).
Lemma sub_loop_yes : forall ra sl req, (forall sa, In sa sl -> areq ra sa = Some AYes) -> sub_loop ra sl req = Some (false, match sl with [] => req | _ => true end).
Proof.
  induction sl as [|sa sl IH]; intros req H; [reflexivity|]. cbn [sub_loop]. pose proof (H sa (or_introl eq_refl)) as E. unfold areq in E. rewrite E. rewrite IH by (intros; apply H; right; assumption). destruct sl; reflexivity.
Qed.
Lemma req_loop_yes : forall rl sl req, sl <> [] -> (forall ra sa, In ra rl -> In sa sl -> areq ra sa = Some AYes) -> req_loop rl sl req = Some (match rl with [] => req | _ => true end).
Proof.
  induction rl as [|ra rl IH]; intros sl req Hs H; [reflexivity|]. cbn [req_loop]. rewrite (sub_loop_yes ra sl req) by (intros; apply H; [left; reflexivity|assumption]).
  rewrite (IH sl _ Hs) by (intros ra0 sa Hr1 Hs1; apply H; [right; exact Hr1|exact Hs1]). destruct sl; [contradiction|]. destruct rl; reflexivity.
Qed.
Lemma sub_loop_def : forall ra sl req, (forall sa, In sa sl -> areq ra sa <> None) -> sub_loop ra sl req <> None.
Proof.
  induction sl as [|sa sl IH]; intros req H; [discriminate|]. cbn [sub_loop]. pose proof (H sa (or_introl eq_refl)) as E. unfold areq in E. destruct (atoms_req _ _ _) as [[| |]|]; [destruct (_ && _); [discriminate|]| |discriminate|contradiction]; apply IH; intros; apply H; right; assumption.
Qed.
Lemma req_loop_def : forall rl sl req, (forall ra sa, In ra rl -> In sa sl -> areq ra sa <> None) -> req_loop rl sl req <> None.
Proof.
  induction rl as [|ra rl IH]; intros sl req H; [discriminate|]. cbn [req_loop]. pose proof (sub_loop_def ra sl req ltac:(intros; apply H; [left; reflexivity|assumption])) as E. destruct (sub_loop ra sl req) as [[[|] q]|]; [discriminate| |contradiction]. apply IH. intros; apply H; [right; assumption|assumption].
Qed.

(** A part of the read and a part of the subscription. *)
Lemma good_prefix : forall (a b : list step), Forall good_step (a ++ b) -> Forall good_step a.
Proof. intros a b H. apply Forall_app in H. apply H. Qed.
Lemma plain_txt_len : forall a, length a <= length (plain_txt a).
Proof. induction a as [|s a IH]; [apply Nat.le_refl|]. rewrite plain_cons, !app_length. change (length (s_ "/")) with 1. cbn [length]. lia. Qed.
Lemma parsed_def : forall r s al bl, good_path r -> good_path s -> simple r -> simple s -> parsed r al -> parsed s bl -> req_loop al bl false <> None.
Proof.
  intros r s al bl (Nr & Gr) (Ns & Gs) (_ & Sr) (_ & Ss) ((_ & Ar) & _) ((_ & As) & _). apply req_loop_def. intros ra sa Hr Hs. unfold areq.
  destruct (atom_shape _ _ Gr Sr Nr (proj1 (Ar _ Hr))) as (A & oa & A' & Ea & Na & Oa & ->). destruct (atom_shape _ _ Gs Ss Ns (proj1 (As _ Hs))) as (B & ob & B' & Eb & Nb & Ob & ->). rewrite Ea in *. rewrite Eb in *.
  apply req_def; eauto using good_prefix, prefix_simple. rewrite app_length. pose proof (plain_txt_len A). lia.
Qed.
Lemma parsed_yes : forall r s al bl, good_path r -> good_path s -> simple r -> simple s -> parsed r al -> parsed s bl -> all_apart r s -> overlap r s -> req_loop al bl false = Some true.
Proof.
  intros r s al bl Gr0 Gs0 Sr0 Ss0 Pr Ps AP OV. destruct (overlap_fits r s Sr0 Ss0 OV) as (n & Fr & Fs). destruct Gr0 as (Nr & Gr), Gs0 as (Ns & Gs), Sr0 as (_ & Sr), Ss0 as (_ & Ss), Pr as ((N1 & Ar) & _), Ps as ((N2 & As) & _).
  rewrite req_loop_yes; [destruct al; [contradiction|reflexivity]|exact N2|]. intros ra sa Hr Hs. unfold areq.
  destruct (atom_shape _ _ Gr Sr Nr (proj1 (Ar _ Hr))) as (A & oa & A' & Ea & Na & Oa & ->). destruct (atom_shape _ _ Gs Ss Ns (proj1 (As _ Hs))) as (B & ob & B' & Eb & Nb & Ob & ->). unfold all_apart, names_of in AP. rewrite Ea in *. rewrite Eb in *.
  apply (req_ok A B oa ob n); eauto using good_prefix, prefix_simple, fits_prefix.
  - intros a b Ha Hb. apply AP; rewrite !flat_map_app; apply in_or_app; left; assumption.
  - rewrite app_length. pose proof (plain_txt_len A). lia.
Qed.

(** Without predicates. *)
Fixpoint meets (A B : list step) : bool :=
  match A, B with s :: A', t :: B' => compat s t && meets A' B' | _, _ => true end.
Lemma req_plain : forall A B f, A <> [] -> B <> [] -> Forall good_step A -> Forall good_step B -> simple_steps A -> simple_steps B -> length A <= f ->
  atoms_req f (plain_txt A) (plain_txt B) = Some (if meets A B then AYes else ANo).
Proof.
  induction A as [|s A IH]; intros B f NA NB GA GB SA SB Hf; [contradiction|]. destruct B as [|t B]; [contradiction|]. destruct f as [|f]; [cbn in Hf; lia|].
  inversion GA as [|? ? Ga GA']; subst. inversion GB as [|? ? Gb GB']; subst. destruct (simple_inv _ _ SA) as (Ns & Ps & SA' & Ds). destruct (simple_inv _ _ SB) as (Nt & Pt & SB' & Dt).
  rewrite !plain_cons. pose proof (fun X => atom_delim X None) as D. cbn [otxt] in D. pose proof (D A) as D1. pose proof (D B) as D2. rewrite app_nil_r in D1, D2. rewrite (req_step s t _ _ f Ga Gb Ns Nt D1 D2). cbn [meets]. destruct (compat s t); [|reflexivity]. cbn [andb].
  assert (Ro : forall X, hd_is "[" (plain_txt X) = false). { intros [|x X]; [reflexivity|]. rewrite plain_cons. reflexivity. }
  rewrite !Ro. cbn [andb orb]. destruct A as [|s2 A]; [destruct B; reflexivity|]. destruct B as [|t2 B]; [rewrite orb_true_r; reflexivity|].
  assert (In1 : forall x X, is_nil (plain_txt (x :: X)) = false) by (intros; rewrite plain_cons; reflexivity). rewrite !In1. cbn [orb]. apply IH; try discriminate; auto. cbn [length] in *; lia.
Qed.
Lemma fits_meets : forall A B n, Forall good_step A -> Forall good_step B -> simple_steps A -> simple_steps B -> fits A n -> fits B n -> meets A B = true.
Proof.
  induction A as [|s A IH]; intros [|t B] n GA GB SA SB FA FB; try reflexivity. inversion GA as [|? ? Ga GA']; subst. inversion GB as [|? ? Gb GB']; subst. destruct (simple_inv _ _ SA) as (Ns & Ps & SA' & Ds). destruct (simple_inv _ _ SB) as (Nt & Pt & SB' & Dt). cbn [meets].
  destruct (desc_dec s) as [-> |Es]; [rewrite compat_desc_l, (Ds eq_refl); reflexivity|]. destruct (desc_dec t) as [-> |Et]; [rewrite compat_desc_r, (Dt eq_refl); destruct A; reflexivity|].
  destruct (fits_some s A n Es FA) as (e & n' & ->). rewrite (compat_fits s t A B e n' Ga Gb Es Et FA FB). cbn [andb]. exact (IH B n' GA' GB' SA' SB' (fits_pop _ _ _ _ Es FA) (fits_pop _ _ _ _ Et FB)).
Qed.
(** A node both select, one of them with some of its parents. *)
Definition pick_mod (s t : step) : str := match fst (nm s), fst (nm t) with Some m, _ => m | None, Some m => m | _, _ => s_ "m" end.
Definition pick_name (s t : step) : str := if wild (snd (nm s)) then if wild (snd (nm t)) then s_ "n" else snd (nm t) else snd (nm s).
Definition own (s : step) : elem := mkelem (match fst (nm s) with Some m => m | None => s_ "m" end) (if wild (snd (nm s)) then s_ "n" else snd (nm s)) (fun _ => None).
Definition all (_ : list elem) : Prop := True.
Fixpoint owns (l : list step) : list elem := match l with [] => [] | SDesc :: _ => [] | s :: r => own s :: owns r end.
Lemma sel_own : forall l ctx, Forall good_step l -> simple_steps l -> Forall (fun s => step_preds s = []) l -> sel all l ctx (ctx ++ owns l).
Proof.
  induction l as [|s l IH]; intros ctx G S0 P; [cbn; apply app_nil_r|]. inversion G as [|? ? G1 G2]; subst. inversion P as [|? ? P1 P2]; subst. destruct (simple_inv _ _ S0) as (N & _ & S1 & Sd).
  destruct s as [m n ps|m ps| | |]; try (destruct N as [N|N]; [contradiction|discriminate]); cbn [step_preds] in P1; subst; cbn [sel owns].
  - exists (own (SName m n [])). split; [exact Logic.I|]. split; [unfold in_mod, own; cbn; destruct m; reflexivity|]. split; [unfold own; cbn [nm snd e_name]; rewrite (wild_ident n (proj1 (proj2 G1))); reflexivity|]. split; [constructor|].
    specialize (IH (ctx ++ [own (SName m n [])]) G2 S1 P2). rewrite <- app_assoc in IH. exact IH.
  - exists (own (SAny m [])). split; [exact Logic.I|]. split; [unfold in_mod, own; cbn; destruct m; reflexivity|]. split; [constructor|].
    specialize (IH (ctx ++ [own (SAny m [])]) G2 S1 P2). rewrite <- app_assoc in IH. exact IH.
  - rewrite (Sd eq_refl). exists []. split; [exact Logic.I|]. cbn [sel]. rewrite !app_nil_r. reflexivity.
Qed.
Lemma differ_iff : forall m m', opt_ident m -> opt_ident m' -> differ (mtxt m) (mtxt m') = false -> forall a b, m = Some a -> m' = Some b -> a = b.
Proof.
  intros m m' I1 I2 H a b -> ->. cbn [mtxt] in H. unfold differ in H. destruct a as [|c a]; [destruct I1 as ([] & _)|]. destruct b as [|d b]; [destruct I2 as ([] & _)|]. cbn [is_nil negb andb] in H. apply negb_false_iff in H. apply str_eqb_eq in H. exact H.
Qed.
Lemma pick_ok : forall s t e, good_step s -> good_step t -> s <> SDesc -> t <> SDesc -> node_or_desc s -> node_or_desc t -> step_preds s = [] -> step_preds t = [] -> compat s t = true ->
  e = mkelem (pick_mod s t) (pick_name s t) (fun _ => None) ->
  (forall (T : list elem -> Prop) l ctx res, T (ctx ++ [e]) -> sel T l (ctx ++ [e]) res -> sel T (s :: l) ctx res) /\ (forall (T : list elem -> Prop) l ctx res, T (ctx ++ [e]) -> sel T l (ctx ++ [e]) res -> sel T (t :: l) ctx res).
Proof.
  intros s t e Gs Gt Ds Dt Ns Nt Ps Pt C He. unfold compat in C. apply andb_true_iff in C. destruct C as (C1 & C2). apply negb_true_iff in C1. pose proof (differ_iff _ _ (step_good_opt s Gs) (step_good_opt t Gt) C1) as Dm.
  assert (M1 : in_mod (fst (nm s)) e). { subst e. unfold in_mod. cbn [e_mod]. unfold pick_mod. destruct (fst (nm s)); [reflexivity|exact Logic.I]. }
  assert (M2 : in_mod (fst (nm t)) e). { subst e. unfold in_mod. cbn [e_mod]. unfold pick_mod. destruct (fst (nm t)) as [b|]; [|exact Logic.I]. destruct (fst (nm s)) as [a|]; [exact (Dm a b eq_refl eq_refl)|reflexivity]. }
  split; intros T l ctx res HT Hs.
  - destruct s as [m n ps|m ps| | |]; try (destruct Ns as [N|N]; [contradiction|discriminate]); [| |contradiction]; cbn [step_preds nm fst snd] in *; subst ps; cbn [sel]; exists e.
    + split; [exact HT|]. split; [exact M1|]. split; [subst e; cbn [e_name]; unfold pick_name; cbn [nm snd]; rewrite (wild_ident n (proj1 (proj2 Gs))); reflexivity|]. split; [constructor|exact Hs].
    + split; [exact HT|]. split; [exact M1|]. split; [constructor|exact Hs].
  - destruct t as [m n ps|m ps| | |]; try (destruct Nt as [N|N]; [contradiction|discriminate]); [| |contradiction]; cbn [step_preds nm fst snd] in *; subst ps; cbn [sel]; exists e.
    + split; [exact HT|]. split; [exact M2|]. split; [|split; [constructor|exact Hs]]. subst e. cbn [e_name]. unfold pick_name. cbn [nm snd]. rewrite (wild_ident n (proj1 (proj2 Gt))) in *. cbn [orb] in C2. destruct (wild (snd (nm s))); [reflexivity|]. cbn [orb] in C2. apply str_eqb_eq in C2. exact C2.
    + split; [exact HT|]. split; [exact M2|]. split; [constructor|exact Hs].
Qed.
Lemma meets_sel : forall A B ctx, Forall good_step A -> Forall good_step B -> simple_steps A -> simple_steps B -> Forall (fun s => step_preds s = []) A -> Forall (fun s => step_preds s = []) B -> meets A B = true ->
  exists a b, sel all A ctx a /\ sel all B ctx b /\ (below a b \/ below b a).
Proof.
  induction A as [|s A IH]; intros B ctx GA GB SA SB PA PB M.
  - exists ctx, (ctx ++ owns B). split; [reflexivity|]. split; [apply sel_own; assumption|]. left. exists (owns B). reflexivity.
  - destruct B as [|t B].
    + exists (ctx ++ owns (s :: A)), ctx. split; [apply sel_own; assumption|]. split; [reflexivity|]. right. exists (owns (s :: A)). reflexivity.
    + destruct (simple_inv _ _ SA) as (Ns & _ & SA' & Ds). destruct (simple_inv _ _ SB) as (Nt & _ & SB' & Dt). destruct (desc_dec s) as [-> |Es].
      { rewrite (Ds eq_refl). exists ctx, (ctx ++ owns (t :: B)). split; [exists []; rewrite app_nil_r; split; [exact Logic.I|reflexivity]|]. split; [apply sel_own; assumption|]. left. eexists. reflexivity. }
      destruct (desc_dec t) as [-> |Et].
      { rewrite (Dt eq_refl). exists (ctx ++ owns (s :: A)), ctx. split; [apply sel_own; assumption|]. split; [exists []; rewrite app_nil_r; split; [exact Logic.I|reflexivity]|]. right. eexists. reflexivity. }
      inversion GA as [|? ? Ga GA']; subst. inversion GB as [|? ? Gb GB']; subst. inversion PA as [|? ? Pa PA']; subst. inversion PB as [|? ? Pb PB']; subst. cbn [meets] in M. apply andb_true_iff in M. destruct M as (C & M).
      destruct (pick_ok s t _ Ga Gb Es Et Ns Nt Pa Pb C eq_refl) as (K1 & K2). set (e := mkelem (pick_mod s t) (pick_name s t) (fun _ => None)) in *.
      destruct (IH B (ctx ++ [e]) GA' GB' SA' SB' PA' PB' M) as (a & b & H1 & H2 & H3). exists a, b. split; [apply K1; [exact Logic.I|exact H1]|]. split; [apply K2; [exact Logic.I|exact H2]|exact H3].
Qed.
Lemma meets_overlap : forall r s, good_path r -> good_path s -> simple r -> simple s -> plain r -> plain s -> (meets (p_steps r) (p_steps s) = true <-> overlap r s).
Proof.
  intros r s Gr Gs Sr Ss Pr Ps. split.
  - intros M. destruct (meets_sel _ _ [] (proj2 Gr) (proj2 Gs) (proj2 Sr) (proj2 Ss) Pr Ps M) as (a & b & H1 & H2 & H3). exists all, a, b. auto.
  - intros H. destruct (overlap_fits r s Sr Ss H) as (n & F1 & F2). exact (fits_meets _ _ n (proj2 Gr) (proj2 Gs) (proj2 Sr) (proj2 Ss) F1 F2).
Qed.
Lemma parsed_plain : forall r s al bl, good_path r -> good_path s -> simple r -> simple s -> plain r -> plain s -> parsed r al -> parsed s bl -> req_loop al bl false = Some (meets (p_steps r) (p_steps s)).
Proof.
  intros r s al bl (Nr & Gr) (Ns & Gs) (_ & Sr) (_ & Ss) Pr Ps (_ & _ & Ar) (_ & _ & As). destruct (Ar Pr) as (b1 & ->). destruct (As Ps) as (b2 & ->). cbn [req_loop sub_loop a_txt a_sel].
  rewrite (req_plain _ _ _ Nr Ns Gr Gs Sr Ss) by (pose proof (plain_txt_len (p_steps r)); lia). destruct (meets _ _); [reflexivity|]. destruct (b1 && b2); reflexivity.
Qed.

(** ** The unions compared *)
Lemma sub_unions_spec : forall rl su, (forall sl, In sl su -> req_loop rl sl false <> None) ->
  sub_unions rl su <> None /\ (sub_unions rl su = Some true <-> exists sl, In sl su /\ req_loop rl sl false = Some true).
Proof.
  intros rl. induction su as [|sl su IH]; intros D; cbn [sub_unions].
  - split; [discriminate|]. split; [discriminate|intros (x & [] & _)].
  - pose proof (D sl (or_introl eq_refl)) as D0. destruct IH as (I1 & I2); [intros; apply D; right; assumption|]. destruct (req_loop rl sl false) as [[|]|] eqn:E; [| |contradiction].
    + split; [discriminate|]. split; [|reflexivity]. intros _. exists sl. split; [left; reflexivity|exact E].
    + split; [exact I1|]. rewrite I2. split; intros (x & Hx & Ex); exists x; [split; [right; exact Hx|exact Ex]|]. destruct Hx as [<-|Hx]; [congruence|auto].
Qed.
Lemma req_unions_spec : forall ru su, (forall rl sl, In rl ru -> In sl su -> req_loop rl sl false <> None) ->
  req_unions ru su <> None /\ (req_unions ru su = Some true <-> exists rl sl, In rl ru /\ In sl su /\ req_loop rl sl false = Some true).
Proof.
  induction ru as [|rl ru IH]; intros su D; cbn [req_unions].
  - split; [discriminate|]. split; [discriminate|intros (x & y & [] & _)].
  - destruct (sub_unions_spec rl su) as (S1 & S2); [intros; apply D; [left; reflexivity|assumption]|]. destruct (IH su) as (I1 & I2); [intros; apply D; [right; assumption|assumption]|].
    destruct (sub_unions rl su) as [[|]|] eqn:E; [| |contradiction].
    + split; [discriminate|]. split; [|reflexivity]. intros _. destruct (proj1 S2 eq_refl) as (sl & Hs & Es). exists rl, sl. split; [left; reflexivity|auto].
    + split; [exact I1|]. rewrite I2. split; intros (x & y & Hx & Hy & Ex); exists x, y; [split; [right; exact Hx|auto]|]. destruct Hx as [<-|Hx]; [|auto]. exfalso. assert (Some false = Some true) by (apply S2; exists y; auto). discriminate.
Qed.
Lemma forall2_in : forall {A B} (R : A -> B -> Prop) l m, Forall2 R l m -> (forall y, In y m -> exists x, In x l /\ R x y) /\ (forall x, In x l -> exists y, In y m /\ R x y).
Proof.
  intros A B R l m F. induction F as [|x y l m H F (I1 & I2)]; [split; intros ? []|]. split.
  - intros z [<-|Hz]; [exists x; split; [left; reflexivity|exact H]|]. destruct (I1 z Hz) as (w & Hw & Rw). exists w. split; [right; exact Hw|exact Rw].
  - intros z [<-|Hz]; [exists y; split; [left; reflexivity|exact H]|]. destruct (I2 z Hz) as (w & Hw & Rw). exists w. split; [right; exact Hw|exact Rw].
Qed.
Lemma required_spec : forall req sub, simple_union req -> simple_union sub ->
  exists ru su, Forall2 parsed req ru /\ Forall2 parsed sub su /\ required (Some (union_txt req)) (union_txt sub) <> None /\
  (required (Some (union_txt req)) (union_txt sub) = Some true <-> exists rl sl, In rl ru /\ In sl su /\ req_loop rl sl false = Some true).
Proof.
  intros req sub (Nr & Gr & Sr) (Ns & Gs & Ss). destruct (atoms_ok req Nr Gr Sr) as (ru & Er & Fr). destruct (atoms_ok sub Ns Gs Ss) as (su & Es & Fs). exists ru, su. split; [exact Fr|]. split; [exact Fs|].
  unfold required. rewrite Er, Es. apply req_unions_spec. intros rl sl Hr Hs. destruct (proj1 (forall2_in _ _ _ Fr) rl Hr) as (r & Hr' & Pr). destruct (proj1 (forall2_in _ _ _ Fs) sl Hs) as (s & Hs' & Ps).
  rewrite Forall_forall in Gr, Sr, Gs, Ss. exact (parsed_def r s rl sl (Gr _ Hr') (Gs _ Hs') (Sr _ Hr') (Ss _ Hs') Pr Ps).
Qed.

(** ** The parent *)
Lemma trim_name : forall w t, Forall (fun c => c <> "/"%char /\ c <> "]"%char) w -> trim (w ++ t) false = trim t false.
Proof. induction w as [|c w IH]; intros t F; [reflexivity|]. inversion F as [|? ? (H1 & H2) F']; subst. cbn [app trim negb andb orb]. rewrite (ch_neq _ _ H1), (ch_neq _ _ H2). exact (IH t F'). Qed.
Lemma trim_skip : forall w t, ~ In "["%char w -> trim (w ++ t) true = trim t true.
Proof. induction w as [|c w IH]; intros t F; [reflexivity|]. cbn [app trim negb andb orb]. rewrite (ch_neq c "["); [apply IH; intros Q; apply F; right; exact Q|]. intros ->. apply F. left. reflexivity. Qed.
Lemma trim_pred : forall p t, ~ In "["%char (pred_txt p) -> trim (List.rev (s_ "[" ++ pred_txt p ++ s_ "]") ++ t) false = trim t false.
Proof.
  intros p t H. rewrite !rev_app_distr. change (List.rev (s_ "[")) with ["["%char]. change (List.rev (s_ "]")) with ["]"%char]. rewrite <- !app_assoc. cbn [app trim]. change (ch "]" "/") with false. change (ch "]" "[") with false. change (ch "]" "]") with true. cbn [negb andb orb].
  rewrite trim_skip by (intros Q; apply H; apply in_rev; exact Q). cbn [trim negb andb]. rewrite ch_refl. reflexivity.
Qed.
Lemma trim_preds : forall ps t, Forall (fun p => ~ In "["%char (pred_txt p)) ps -> trim (List.rev (preds_txt ps) ++ t) false = trim t false.
Proof.
  induction ps as [|p ps IH]; intros t F; [reflexivity|]. inversion F as [|? ? H F']; subst. unfold preds_txt in *. cbn [flat_map]. rewrite rev_app_distr, <- app_assoc, IH by exact F'. apply trim_pred. exact H.
Qed.
Lemma id_trim : forall n, ident n -> Forall (fun c => c <> "/"%char /\ c <> "]"%char) n.
Proof. intros n (_ & F). rewrite Forall_forall in *. intros c Hc. specialize (F c Hc). split; intros ->; discriminate. Qed.
Lemma name_trim : forall s, good_step s -> node_step s -> Forall (fun c => c <> "/"%char /\ c <> "]"%char) (name_txt s).
Proof.
  intros s G N. unfold name_txt. apply Forall_app. split.
  - pose proof (step_good_opt s G) as O1. destruct (fst (nm s)) as [m|]; [|constructor]. cbn [mod_txt]. apply Forall_app. split; [apply id_trim; exact O1|]. repeat constructor; discriminate.
  - destruct s as [m n ps|m ps| | |]; try contradiction; cbn [nm snd]; [apply id_trim; apply G|]. repeat constructor; discriminate.
Qed.
Lemma last_char : forall s, good_step s -> node_step s -> forall x, exists c y, List.rev (x ++ s_ "/" ++ step_txt s) = c :: y /\ c <> "/"%char.
Proof.
  intros s G N x. rewrite step_split. destruct (step_preds s) as [|p ps] eqn:Ep.
  - cbn [preds_txt flat_map]. rewrite app_nil_r, !rev_app_distr. pose proof (name_ne s G (or_introl N)) as L. pose proof (name_trim s G N) as F. apply Forall_rev in F. destruct (List.rev (name_txt s)) as [|c y] eqn:E; [apply (f_equal (@length _)) in E; rewrite rev_length in E; cbn in E; lia|].
    inversion F as [|? ? (H1 & _) _]; subst. eexists. eexists. split; [reflexivity|exact H1].
  - assert (H : exists z, preds_txt (p :: ps) = z ++ ["]"%char]). { clear. revert p. induction ps as [|q ps IH]; intros p; [exists (s_ "[" ++ pred_txt p); unfold preds_txt; cbn [flat_map]; rewrite app_nil_r, <- app_assoc; reflexivity|]. destruct (IH q) as (z & E). exists ((s_ "[" ++ pred_txt p ++ s_ "]") ++ z). unfold preds_txt in *. cbn [flat_map] in *. rewrite E, <- !app_assoc. reflexivity. }
    destruct H as (z & ->). rewrite !rev_app_distr. cbn [List.rev app]. rewrite <- ?app_assoc. cbn [app]. eexists. eexists. split; [reflexivity|discriminate].
Qed.
Lemma steps_app : forall a b, steps_txt (a ++ b) = steps_txt a ++ steps_txt b.
Proof. intros. unfold steps_txt. apply flat_map_app. Qed.
Lemma trim_ok : forall l s, Forall good_step (l ++ [s]) -> Forall node_step (l ++ [s]) -> Forall (fun p => ~ In "["%char (pred_txt p)) (step_preds s) ->
  trim_last (steps_txt (l ++ [s])) = match l with [] => TNone | _ => TParent (steps_txt l) end.
Proof.
  intros l s G N P. apply Forall_app in G. destruct G as (Gl & Gs). apply Forall_app in N. destruct N as (Nl & Ns). inversion Gs as [|? ? Gs' _]; subst. inversion Ns as [|? ? Ns' _]; subst.
  unfold trim_last. rewrite steps_app, steps_cons. change (steps_txt []) with (@nil ascii). rewrite app_nil_r, step_split, !rev_app_distr, <- !app_assoc. rewrite trim_preds by exact P. rewrite trim_name by (apply Forall_rev; apply name_trim; assumption).
  change (List.rev (s_ "/")) with ["/"%char]. cbn [app trim negb andb]. rewrite ch_refl. destruct l as [|x l]; [reflexivity|].
  destruct (@exists_last _ (x :: l) ltac:(discriminate)) as (l' & y & E). rewrite E in *. apply Forall_app in Gl. destruct Gl as (_ & Gl). apply Forall_app in Nl. destruct Nl as (_ & Nl). inversion Gl as [|? ? Gy _]; subst. inversion Nl as [|? ? Ny _]; subst.
  destruct (last_char y Gy Ny (steps_txt l')) as (c & z & Ec & Hc). rewrite steps_app, steps_cons. change (steps_txt []) with (@nil ascii). rewrite app_nil_r, Ec. rewrite (ch_neq _ _ Hc). rewrite <- Ec, rev_involutive. destruct (l' ++ [y]) eqn:E2; [destruct l'; discriminate|]. reflexivity.
Qed.

(** ** Values that exclude each other *)
Lemma same_name_clash : forall f w q v q' v' r r', Forall (fun c => is_id c = true) w -> w <> [] -> length w <= f -> ~ In q v -> ~ In q' v' -> v <> v' ->
  pred_match f (w ++ s_ "=" ++ lit q v ++ r) (w ++ s_ "=" ++ lit q' v' ++ r') = PClash.
Proof.
  induction f as [|f IH]; intros w q v q' v' r r' F Hn Hl Q Q' Nv; [destruct w; [contradiction|cbn in Hl; lia]|].
  destruct w as [|c t]; [contradiction|]. inversion F as [|? ? _ Ft]; subst. cbn [app pred_match]. change (s_ "=" ++ ?x) with ("="%char :: x). destruct (qname_part t Ft) as (i & z' & E & L & Fz). rewrite !E. cbn [differ is_nil negb andb]. rewrite str_eqb_refl. cbn [negb].
  destruct z' as [|d z'].
  - cbn [app hd_is]. rewrite ch_refl. cbn [orb andb tl]. rewrite !literal_ok by assumption. unfold lit. cbn [app tl]. rewrite !removelast_last. destruct (str_eqb v v') eqn:Ev; [|reflexivity]. apply str_eqb_eq in Ev. contradiction.
  - cbn [app hd_is]. inversion Fz as [|? ? Hd _]; subst. assert (C : ch d "=" = false) by (apply ch_neq; intros ->; discriminate). rewrite C. cbn [orb].
    apply (IH (d :: z') q v q' v' r r' Fz); auto; [discriminate|cbn [length] in *; lia].
Qed.
Lemma bare_nm : forall s t, bare s = bare t -> nm s = nm t.
Proof. intros [m n ps|m ps| | |] [m' n' ps'|m' ps'| | |] H; cbn in *; try discriminate; try reflexivity; congruence. Qed.
Lemma compat_bare : forall s t, bare s = bare t -> compat s t = true.
Proof. intros s t H. unfold compat. rewrite (bare_nm s t H). unfold differ. rewrite !str_eqb_refl. cbn [negb]. rewrite andb_false_r, !orb_true_r. reflexivity. Qed.
Lemma req_clash : forall a b s t n q v q' v' f, Forall good_step (a ++ [s]) -> Forall good_step (b ++ [t]) -> simple_steps (a ++ [s]) -> simple_steps (b ++ [t]) -> map bare (a ++ [s]) = map bare (b ++ [t]) ->
  good_pred (PEq n q v) -> good_pred (PEq n q' v') -> v <> v' -> length a < f ->
  atoms_req f (plain_txt (a ++ [s]) ++ otxt (Some (PEq n q v))) (plain_txt (b ++ [t]) ++ otxt (Some (PEq n q' v'))) = Some AClash.
Proof.
  induction a as [|x a IH]; intros b s t n q v q' v' f GA GB SA SB E G1 G2 Nv Hf; (destruct f as [|f]; [lia|]).
  - destruct b as [|y b]; [|apply (f_equal (@length _)) in E; cbn [map app length] in E; rewrite map_length, app_length in E; cbn in E; lia]. cbn [app] in *. injection E as E.
    inversion GA; subst. inversion GB; subst. rewrite !plain_cons, <- !app_assoc. rewrite (req_step s t) by (auto; try apply (atom_delim []); first [exact (proj1 (simple_inv _ _ SA))|exact (proj1 (simple_inv _ _ SB))]). rewrite (compat_bare s t E).
    change (plain_txt []) with (@nil ascii). cbn [otxt app]. change (s_ "[" ++ ?x) with ("["%char :: x). cbn [hd_is tl]. rewrite ch_refl. cbn [andb pred_txt]. rewrite <- !app_assoc.
    destruct G1 as (I1 & _ & V1), G2 as (_ & _ & V2).
    pose proof (same_name_clash (length ("["%char :: n ++ s_ "=" ++ [q] ++ v ++ [q] ++ s_ "]")) n q v q' v' (s_ "]") (s_ "]") (proj2 I1)) as X. unfold lit in X. rewrite <- !app_assoc in X.
    rewrite X; auto; [intros ->; exact (proj1 I1)|cbn [length]; rewrite app_length; lia].
  - destruct b as [|y b]; [apply (f_equal (@length _)) in E; cbn [map app length] in E; rewrite map_length, app_length in E; cbn in E; lia|]. cbn [app map] in E. injection E as E1 E2. cbn [app] in *.
    inversion GA; subst. inversion GB; subst. destruct (simple_inv _ _ SA) as (N1 & _ & SA' & _). destruct (simple_inv _ _ SB) as (N2 & _ & SB' & _). rewrite (plain_cons x), (plain_cons y), <- !app_assoc. rewrite (req_step x y) by (auto using atom_delim). rewrite (compat_bare x y E1).
    assert (Ro : forall z u o, hd_is "[" (plain_txt (z ++ [u]) ++ o) = false /\ is_nil (plain_txt (z ++ [u]) ++ o) = false). { intros [|w z] u o; cbn [app]; rewrite plain_cons; split; reflexivity. }
    rewrite !(proj1 (Ro _ _ _)), !(proj2 (Ro _ _ _)). cbn [andb orb]. apply IH; auto. cbn [length] in Hf. lia.
Qed.
Lemma sub_loop_clash : forall ra sl req sa, (forall x, In x sl -> areq ra x <> None) -> In sa sl -> areq ra sa = Some AClash -> sub_loop ra sl req = Some (true, false).
Proof.
  induction sl as [|x sl IH]; intros req sa D Hin E; [destruct Hin|]. cbn [sub_loop]. destruct Hin as [-> |Hin]; [unfold areq in E; rewrite E; reflexivity|]. pose proof (D x (or_introl eq_refl)) as Dx. unfold areq in Dx.
  destruct (atoms_req _ (a_txt ra) (a_txt x)) as [[| |]|]; [destruct (a_sel ra && a_sel x); [reflexivity|]| |reflexivity|contradiction]; exact (IH _ sa (fun u Hu => D u (or_intror Hu)) Hin E).
Qed.
Lemma sub_loop_stop : forall ra sl req q, sub_loop ra sl req = Some (true, q) -> q = false.
Proof.
  induction sl as [|x sl IH]; intros req q H; cbn [sub_loop] in H; [discriminate|]. destruct (atoms_req _ _ _) as [[| |]|]; [destruct (_ && _); [congruence|eauto]|eauto|congruence|discriminate].
Qed.
Lemma req_loop_clash : forall rl sl req ra sa, (forall x y, In x rl -> In y sl -> areq x y <> None) -> In ra rl -> In sa sl -> areq ra sa = Some AClash -> req_loop rl sl req = Some false.
Proof.
  induction rl as [|x rl IH]; intros sl req ra sa D Hr Hs E; [destruct Hr|]. cbn [req_loop]. destruct Hr as [-> |Hr].
  - rewrite (sub_loop_clash ra sl req sa (fun y Hy => D ra y (or_introl eq_refl) Hy) Hs E). reflexivity.
  - pose proof (sub_loop_def x sl req ltac:(intros; apply D; [left; reflexivity|assumption])) as D0. destruct (sub_loop x sl req) as [[[|] q]|] eqn:Es; [rewrite (sub_loop_stop _ _ _ _ Es); reflexivity| |contradiction]. exact (IH sl q ra sa (fun u y Hu Hy => D u y (or_intror Hu) Hy) Hr Hs E).
Qed.
Lemma parsed_clash : forall r s al bl a x a' b y b' n q v q' v', good_path r -> good_path s -> simple r -> simple s -> parsed r al -> parsed s bl ->
  p_steps r = a ++ x :: a' -> p_steps s = b ++ y :: b' -> map bare (a ++ [x]) = map bare (b ++ [y]) -> In (PEq n q v) (step_preds x) -> In (PEq n q' v') (step_preds y) -> v <> v' -> req_loop al bl false = Some false.
Proof.
  intros r s al bl a x a' b y b' n q v q' v' (Nr & Gr) (Ns & Gs) (_ & Sr) (_ & Ss) ((_ & Ar) & Cr & _) ((_ & As) & Cs & _) Er Es Eb Hx Hy Nv.
  destruct (Cr a x a' _ Er Hx) as (ra & Hra & Ea). destruct (Cs b y b' _ Es Hy) as (sa & Hsa & Eb').
  apply (req_loop_clash al bl false ra sa); auto.
  - intros u w Hu Hw. unfold areq. destruct (atom_shape _ _ Gr Sr Nr (proj1 (Ar _ Hu))) as (A & oa & A' & Ea' & Na & Oa & ->). destruct (atom_shape _ _ Gs Ss Ns (proj1 (As _ Hw))) as (B & ob & B' & Eb'' & Nb & Ob & ->). rewrite Ea' in Gr, Sr. rewrite Eb'' in Gs, Ss.
    apply req_def; eauto using good_prefix, prefix_simple. rewrite app_length. pose proof (plain_txt_len A). lia.
  - unfold areq. rewrite Ea, Eb'. assert (Pt : forall pre n q v, patom pre (PEq n q v) = pre ++ otxt (Some (PEq n q v))). { intros. cbn [patom otxt pred_txt]. unfold lit. rewrite <- !app_assoc. reflexivity. } rewrite !Pt.
    assert (Er' : p_steps r = (a ++ [x]) ++ a') by (rewrite Er, <- app_assoc; reflexivity). assert (Es' : p_steps s = (b ++ [y]) ++ b') by (rewrite Es, <- app_assoc; reflexivity). rewrite Er' in Gr, Sr. rewrite Es' in Gs, Ss. apply good_prefix in Gr. apply good_prefix in Gs. apply prefix_simple in Sr. apply prefix_simple in Ss.
    assert (G1 : good_pred (PEq n q v)). { apply Forall_app in Gr. destruct Gr as (_ & Gr). inversion Gr as [|? ? G _]; subst. pose proof (good_preds x G) as Gp. rewrite Forall_forall in Gp. exact (Gp _ Hx). }
    assert (G2 : good_pred (PEq n q' v')). { apply Forall_app in Gs. destruct Gs as (_ & Gs). inversion Gs as [|? ? G _]; subst. pose proof (good_preds y G) as Gp. rewrite Forall_forall in Gp. exact (Gp _ Hy). }
    apply req_clash; auto. pose proof (plain_txt_len (a ++ [x])) as L. rewrite !app_length in *. cbn [length] in L. lia.
Qed.
