(** The path helpers are the cursor of the specification. *)
From Coq Require Import List Bool Arith Lia.
From Verif Require Import Xpath XpathSpec XpathProofs.
Import ListNotations.

(** ** Texts *)
(** Characters that are not a part of the syntax looked for outside of values. *)
Definition plain (c : nat) : Prop := c <> 0 /\ c <> c_slash /\ c <> c_lbr /\ c <> c_apos /\ c <> c_quot.
Definition good_tok (t : tok) : Prop :=
  match t with
  | TNode ns n => match ns with Some m => is_name m | None => True end /\ is_name n
  | TKey k => Forall kname_char k
  | TVal q v => (q = c_apos \/ q = c_quot) /\ Forall (fun c => c <> 0 /\ c <> q) v
  end.
(** A key is followed by a value and a node is not. *)
Fixpoint good_toks (l : list tok) : Prop :=
  match l with
  | [] => True
  | t :: r => good_tok t /\ match t, r with TKey _, TVal _ _ :: _ => True | TKey _, _ => False | TNode _ _, TVal _ _ :: _ => False | _, _ => True end /\ good_toks r
  end.
Lemma good_cons t r : good_toks (t :: r) -> good_tok t /\ good_toks r.
Proof. cbn [good_toks]. tauto. Qed.
Lemma good_tail t r : good_toks (t :: r) -> good_toks r.
Proof. intros H. now apply good_cons in H. Qed.

Lemma name_plain c : name_char c -> plain c.
Proof. unfold name_char, plain. tauto. Qed.
Lemma kname_plain c : kname_char c -> plain c.
Proof. intros [->|H]; [|now apply name_plain]. unfold plain, c_colon, c_slash, c_lbr, c_apos, c_quot. repeat split; discriminate. Qed.
Lemma names_plain n : Forall name_char n -> Forall plain n.
Proof. apply Forall_impl. apply name_plain. Qed.
Lemma label_plain ns n : good_tok (TNode ns n) -> Forall plain (label ns n).
Proof.
  intros [M [_ N]]. unfold label. destruct ns as [m|]; [|now apply names_plain]. apply Forall_app. split; [apply names_plain; apply M|].
  constructor; [|now apply names_plain]. apply kname_plain. now left.
Qed.
Lemma plain_nonzero w : Forall plain w -> Forall (fun c => c <> 0) w.
Proof. apply Forall_impl. intros c H. apply H. Qed.
Lemma quote_false c : plain c -> quote c = false.
Proof.
  intros (_ & _ & _ & A & Q). unfold quote. apply orb_false_intro; now apply Nat.eqb_neq.
Qed.

(** What loops over characters pass. *)
Definition passq (stop : nat -> bool) (x : str) : Prop := forall l, scanq None stop (x ++ l) = option_map (Nat.add (length x)) (scanq None stop l).
Definition passv (stop : nat -> bool) (x : str) : Prop := forall l, scan stop (x ++ l) = option_map (Nat.add (length x)) (scan stop l).
Lemma option_map_comp (a b : nat) (o : option nat) : option_map (Nat.add a) (option_map (Nat.add b) o) = option_map (Nat.add (a + b)) o.
Proof. destruct o; cbn [option_map]; auto. f_equal. lia. Qed.
Lemma option_map_S (a : nat) (o : option nat) : option_map S (option_map (Nat.add a) o) = option_map (Nat.add (S a)) o.
Proof. destruct o; reflexivity. Qed.
Lemma option_map_0 (o : option nat) : option_map (Nat.add 0) o = o.
Proof. destruct o; reflexivity. Qed.
Lemma passq_app stop x y : passq stop x -> passq stop y -> passq stop (x ++ y).
Proof. intros X Y l. now rewrite <- app_assoc, X, Y, app_length, option_map_comp. Qed.
Lemma passq_nil stop : passq stop [].
Proof. intros l. cbn [app length]. now rewrite option_map_0. Qed.
Lemma passq_char stop c : plain c -> stop c = false -> passq stop [c].
Proof.
  intros P S1 l. cbn [app scanq length]. rewrite (quote_false c P), S1. destruct P as (Z & _). apply Nat.eqb_neq in Z. rewrite Z. cbn [orb].
  destruct (scanq None stop l); reflexivity.
Qed.
Lemma passq_plain stop x : Forall plain x -> (forall c, plain c -> stop c = false) -> passq stop x.
Proof.
  intros F S1. induction F as [|c x P F IH]; [apply passq_nil|]. apply (passq_app stop [c] x); auto. apply passq_char; auto.
Qed.
Lemma scanq_in stop q v l : (q = c_apos \/ q = c_quot) -> Forall (fun c => c <> 0 /\ c <> q) v ->
  scanq (Some q) stop (v ++ q :: l) = option_map (Nat.add (length v + 1)) (scanq None stop l).
Proof.
  intros Q. induction v as [|c v IH]; intros F; cbn [app scanq length].
  - destruct (Nat.eqb_spec q 0) as [->|_]; [destruct Q; discriminate|]. cbn [orb]. rewrite Nat.eqb_refl. destruct (scanq None stop l); reflexivity.
  - inversion F as [|? ? [Z N] F']; subst. apply Nat.eqb_neq in Z, N. rewrite Z, N. cbn [orb]. rewrite IH by auto. now rewrite option_map_S.
Qed.
Lemma passq_val stop q v : good_tok (TVal q v) -> (forall c, plain c -> stop c = false) -> stop q = false -> passq stop (tok_text (TVal q v)).
Proof.
  intros [Q F] S1 Sq l. cbn [tok_text app]. cbn [scanq].
  assert (E : Nat.eqb c_eq 0 || stop c_eq = false).
  { rewrite S1; [reflexivity|]. unfold plain. repeat split; discriminate. }
  rewrite E. assert (E2 : quote c_eq = false) by reflexivity. rewrite E2.
  assert (Q0 : Nat.eqb q 0 = false) by (destruct Q as [-> | ->]; reflexivity). rewrite Q0, Sq. cbn [orb].
  assert (Qq : quote q = true) by (destruct Q as [-> | ->]; reflexivity). rewrite Qq.
  rewrite <- app_assoc. cbn [app]. rewrite scanq_in by auto.
  assert (R : scanq None stop (c_rbr :: l) = option_map (Nat.add 1) (scanq None stop l)).
  { apply (passq_char stop c_rbr). - unfold plain. repeat split; discriminate. - apply S1. unfold plain. repeat split; discriminate. }
  rewrite R. cbn [length]. rewrite option_map_comp, !option_map_S, app_length. cbn [length]. f_equal. f_equal. lia.
Qed.
Lemma passv_app stop x y : passv stop x -> passv stop y -> passv stop (x ++ y).
Proof. intros X Y l. now rewrite <- app_assoc, X, Y, app_length, option_map_comp. Qed.
Lemma passv_nil stop : passv stop [].
Proof. intros l. cbn [app length]. now rewrite option_map_0. Qed.
Lemma passv_chars (P : nat -> Prop) stop x : Forall P x -> (forall c, P c -> c <> 0 /\ stop c = false) -> passv stop x.
Proof.
  intros F S1. induction F as [|c x H F IH]; [apply passv_nil|]. apply (passv_app stop [c] x); auto.
  intros l. cbn [app scan length]. destruct (S1 c H) as [Z ->]. apply Nat.eqb_neq in Z. rewrite Z. cbn [orb]. destruct (scan stop l); reflexivity.
Qed.
Lemma scan_stop stop c l : stop c = true \/ c = 0 -> scan stop (c :: l) = Some 0.
Proof. cbn [scan]. intros [->| ->]; [now rewrite orb_true_r|reflexivity]. Qed.
Lemma scanq_stop stop c l : stop c = true \/ c = 0 -> scanq None stop (c :: l) = Some 0.
Proof. cbn [scanq]. intros [->| ->]; [now rewrite orb_true_r|reflexivity]. Qed.

(** ** Texts of tokens in front of the next node, key and value *)
Lemma text_cons t r : text (t :: r) = tok_text t ++ text r.
Proof. reflexivity. Qed.
Definition s_node := Nat.eqb c_slash.
Definition s_key := fun c => Nat.eqb c c_lbr || Nat.eqb c c_slash.
Definition s_val := fun c => quote c || Nat.eqb c c_slash.
Lemma s_node_plain c : plain c -> s_node c = false.
Proof. intros (_ & H & _). apply Nat.eqb_neq. auto. Qed.
Lemma s_key_plain c : plain c -> s_key c = false.
Proof. intros (_ & H & H' & _). unfold s_key. apply orb_false_intro; now apply Nat.eqb_neq. Qed.
Lemma s_val_plain c : plain c -> s_val c = false.
Proof. intros P. unfold s_val. rewrite quote_false by auto. destruct P as (_ & H & _). now apply Nat.eqb_neq. Qed.

Lemma split_node l : good_toks l ->
  match to_node l with
  | Some (ns, n, r) => exists mid, passq s_node mid /\ text l = mid ++ c_slash :: label ns n ++ text r /\ good_tok (TNode ns n) /\ good_toks (TNode ns n :: r)
  | None => passq s_node (text l)
  end.
Proof.
  induction l as [|t l IH]; intros G; cbn [to_node]; [apply passq_nil|]. pose proof G as G0. apply good_cons in G as [Gt G]. specialize (IH G). destruct t as [ns n|k|q v].
  - exists []. split; [apply passq_nil|]. split; [reflexivity|]. auto.
  - assert (P : passq s_node (tok_text (TKey k))).
    { cbn [tok_text]. cbn [good_tok] in Gt. apply (passq_app s_node [c_lbr] k).
      - intros x. cbn [app scanq]. assert (E : Nat.eqb c_lbr 0 || s_node c_lbr = false) by reflexivity. rewrite E. assert (E2 : quote c_lbr = false) by reflexivity. rewrite E2. destruct (scanq None s_node x); reflexivity.
      - apply passq_plain; [|apply s_node_plain]. eapply Forall_impl; [|exact Gt]. apply kname_plain. }
    destruct (to_node l) as [[[ns n] r]|].
    + destruct IH as (mid & Pm & E & H). exists (tok_text (TKey k) ++ mid). split; [now apply passq_app|]. rewrite text_cons, E, <- app_assoc. auto.
    + rewrite text_cons. now apply passq_app.
  - assert (P : passq s_node (tok_text (TVal q v))).
    { apply passq_val; auto; [apply s_node_plain|]. destruct Gt as [[-> | ->] _]; reflexivity. }
    destruct (to_node l) as [[[ns n] r]|].
    + destruct IH as (mid & Pm & E & H). exists (tok_text (TVal q v) ++ mid). split; [now apply passq_app|]. rewrite text_cons, E, <- app_assoc. auto.
    + rewrite text_cons. now apply passq_app.
Qed.
Lemma split_key l : good_toks l ->
  match to_key l with
  | Some (k, r) => exists mid q v r', passq s_key mid /\ text l = mid ++ c_lbr :: k ++ text r /\ Forall kname_char k /\ good_toks r /\ r = TVal q v :: r'
  | None => exists mid t, passq s_key mid /\ text l ++ [0] = mid ++ t /\ exists c t', t = c :: t' /\ (c = 0 \/ c = c_slash)
  end.
Proof.
  induction l as [|t l IH]; intros G; cbn [to_key].
  - exists [], [0]. split; [apply passq_nil|]. split; [reflexivity|]. exists 0, []. auto.
  - pose proof G as G0. apply good_cons in G as [Gt G]. specialize (IH G). destruct t as [ns n|k|q v].
    + exists [], (text (TNode ns n :: l) ++ [0]). split; [apply passq_nil|]. split; [reflexivity|]. eexists _, _. split; [reflexivity|auto].
    + cbn [good_toks] in G0. destruct G0 as (_ & V & _). destruct l as [|[ns n|k'|q v] l]; try destruct V.
      exists [], q, v, l. split; [apply passq_nil|]. split; [reflexivity|]. auto.
    + assert (P : passq s_key (tok_text (TVal q v))).
      { apply passq_val; auto; [apply s_key_plain|]. destruct Gt as [[-> | ->] _]; reflexivity. }
      destruct (to_key l) as [[k r]|].
      * destruct IH as (mid & q' & v' & r' & Pm & E & H). exists (tok_text (TVal q v) ++ mid), q', v', r'. split; [now apply passq_app|].
        rewrite text_cons, E, <- app_assoc. auto.
      * destruct IH as (mid & t & Pm & E & H). exists (tok_text (TVal q v) ++ mid), t. split; [now apply passq_app|].
        rewrite text_cons, <- !app_assoc, E. auto.
Qed.
Lemma split_val l : good_toks l ->
  match to_val l with
  | Some (v, r) => exists mid q, passv s_val mid /\ text l = mid ++ q :: v ++ q :: c_rbr :: text r /\ good_tok (TVal q v) /\ good_toks r
  | None => exists mid t, passv s_val mid /\ text l ++ [0] = mid ++ t /\ exists c t', t = c :: t' /\ (c = 0 \/ c = c_slash)
  end.
Proof.
  induction l as [|t l IH]; intros G; cbn [to_val].
  - exists [], [0]. split; [apply passv_nil|]. split; [reflexivity|]. exists 0, []. auto.
  - apply good_cons in G as [Gt G]. specialize (IH G). destruct t as [ns n|k|q v].
    + exists [], (text (TNode ns n :: l) ++ [0]). split; [apply passv_nil|]. split; [reflexivity|]. eexists _, _. split; [reflexivity|auto].
    + assert (P : passv s_val (tok_text (TKey k))).
      { cbn [tok_text]. apply (passv_chars (fun c => c = c_lbr \/ plain c)).
        - constructor; [now left|]. cbn [good_tok] in Gt. eapply Forall_impl; [|exact Gt]. intros c H. right. now apply kname_plain.
        - intros c [->|H]; [split; [discriminate|reflexivity]|]. split; [apply H|now apply s_val_plain]. }
      destruct (to_val l) as [[v r]|].
      * destruct IH as (mid & q & Pm & E & H). exists (tok_text (TKey k) ++ mid), q. split; [now apply passv_app|]. rewrite text_cons, E, <- app_assoc. auto.
      * destruct IH as (mid & t & Pm & E & H). exists (tok_text (TKey k) ++ mid), t. split; [now apply passv_app|]. rewrite text_cons, <- !app_assoc, E. auto.
    + exists [c_eq], q. split.
      * apply (passv_chars (fun c => c = c_eq)); [constructor; auto|]. intros c ->. split; [discriminate|reflexivity].
      * split; [|auto]. rewrite text_cons. cbn [tok_text app]. now rewrite <- app_assoc.
Qed.

(** ** One step *)
Section Sim.
Variable p : list pnode.
Let w := text (tokens p).
Let orig := w ++ [0].
Hypothesis Hgood : good_toks (tokens p).
Hypothesis Hw : Forall (fun c => c <> 0) w.

(** [i] is where only plain characters are in front of the text of [l]. *)
Definition points (i : nat) (l : list tok) : Prop := exists lead, Forall plain lead /\ skipn i orig = lead ++ text l ++ [0] /\ good_toks l.
Definition rel_cur (c : option nat) (a : acur) : Prop :=
  match a with
  | Unknown => True
  | NoCur => c = None
  | Cur g l => exists i, c = Some i /\ g <> [] /\ Forall plain g /\ skipn i orig = g ++ text l ++ [0] /\ good_toks l
  end.
Definition rel (a : cursor) (st : ctx) : Prop := inv w st /\ points (start st) (ahead a) /\ rel_cur (cur st) (current a).
(** The same without a zero put. *)
Definition crel (a : cursor) (st : ctx) : Prop := clean w st /\ points (start st) (ahead a) /\ rel_cur (cur st) (current a).
Lemma rel_recover a st : rel a st -> crel a (recover st).
Proof. intros (I & P & C). split; [now apply inv_recover|]. split; [exact P|exact C]. Qed.
Lemma crel_rel a st : crel a st -> rel a st.
Proof. intros (I & P & C). split; [now apply clean_inv|]. auto. Qed.
(** Results. *)
Definition got (r : res) (o : option str) (a : cursor) : Prop :=
  match r, o with
  | Ret (Some i) st, Some x => rel a st /\ cstr (buf st) i = x
  | Ret None st, None => crel a st
  | _, _ => False
  end.

Lemma scanq_lead stop lead x c t i b : Forall plain lead -> (forall c, plain c -> stop c = false) -> passq stop x -> (stop c = true \/ c = 0) ->
  skipn i b = lead ++ x ++ c :: t -> exists k, scanq None stop (skipn i b) = Some k /\ skipn (i + k) b = c :: t /\ at_ b (i + k) = c.
Proof.
  intros Fl Sp Px Sc E. pose proof (passq_app stop lead x (passq_plain stop lead Fl Sp) Px) as P. rewrite app_assoc in E.
  exists (length (lead ++ x)). rewrite E, P, (scanq_stop stop c t Sc). cbn [option_map]. split; [f_equal; lia|].
  split; [now apply (skip_add b i (lead ++ x))|now apply (at_skip b i (lead ++ x) c t)].
Qed.
Lemma scan_lead stop x c t i b : passv stop x -> (stop c = true \/ c = 0) ->
  skipn i b = x ++ c :: t -> exists k, scan stop (skipn i b) = Some k /\ k = length x /\ skipn (i + k) b = c :: t /\ at_ b (i + k) = c.
Proof.
  intros P Sc E. exists (length x). rewrite E, P, (scan_stop stop c t Sc). cbn [option_map]. split; [f_equal; lia|]. split; [reflexivity|].
  split; [now apply (skip_add b i x)|now apply (at_skip b i x c t)].
Qed.

(** First character of what follows a node. *)
Lemma text_head ns n l : good_toks (TNode ns n :: l) -> exists c t, text l ++ [0] = c :: t /\ (c = c_slash \/ c = c_lbr \/ c = 0).
Proof.
  intros (_ & V & _). destruct l as [|[ns' n'|k|q v] l]; [exists 0, []; auto| | |destruct V]; eexists _, _; (split; [reflexivity|auto]).
Qed.
Lemma skip_S (b : str) i c t : skipn i b = c :: t -> skipn (S i) b = t.
Proof. intros H. replace (S i) with (i + length [c]) by (cbn [length]; lia). now apply (skip_add b i [c] t). Qed.

(** A name put to its end. *)
Lemma put_name i x c t a l g : Forall plain x -> skipn i orig = x ++ c :: t -> skipn i orig = x ++ text l ++ [0] ->
  (c = c_slash \/ c = c_lbr \/ c = 0) -> good_toks l ->
  match g with Some q => q < length orig | None => True end -> rel_cur g a ->
  rel (At l a) (mk (upd (i + length x) 0 orig) g (i + length x) c) /\ cstr (upd (i + length x) 0 orig) i = x.
Proof.
  intros Fx E El Hc G Lg Rg. pose proof (skip_lt orig i x c t E) as L. pose proof (at_skip orig i x c t E) as A. split.
  - split; [apply put_inv; auto|]. split; [|exact Rg]. unfold start. cbn [rc rp ahead].
    assert (Q : quote c = false) by (destruct Hc as [-> | [-> | ->]]; reflexivity). rewrite Q. exists []. split; [constructor|]. split; [|auto].
    rewrite E in El. apply app_inv_head in El. rewrite (skip_add orig i x (c :: t) E). exact El.
  - apply (cstr_at _ _ _ t); [now apply plain_nonzero|]. apply skip_upd with (x := c). exact E.
Qed.

Definition s3 := fun c => Nat.eqb c c_slash || Nat.eqb c c_colon || Nat.eqb c c_lbr.
Definition s2 := fun c => Nat.eqb c c_slash || Nat.eqb c c_lbr.
Lemma name_s3 x : Forall name_char x -> passv s3 x.
Proof.
  intros F. apply (passv_chars name_char); auto. intros c (Z & S1 & K & B & _). split; [auto|]. unfold s3. apply Nat.eqb_neq in S1, K, B. now rewrite S1, K, B.
Qed.
Lemma plain_s2 x : Forall plain x -> passv s2 x.
Proof.
  intros F. apply (passv_chars plain); auto. intros c (Z & S1 & B & _). split; [auto|]. unfold s2. apply Nat.eqb_neq in S1, B. now rewrite S1, B.
Qed.

Lemma node_step (skip : bool) a st : crel a st ->
  match to_node (ahead a) with
  | Some (ns, n, r) => let g := if skip then n else label ns n in got (node_body skip st) (Some g) (At r (Cur g r))
  | None => got (node_body skip st) None a
  end.
Proof.
  intros (C & (lead & Fl & E & G) & Rc). pose proof C as (B & R & L & Cu). fold orig in B. pose proof (split_node (ahead a) G) as S1.
  destruct (to_node (ahead a)) as [[[ns n] r]|].
  - destruct S1 as (mid & Pm & Et & Gt & Gr). rewrite Et in E. rewrite <- app_assoc in E. cbn [app] in E. rewrite <- app_assoc in E.
    destruct (scanq_lead s_node lead mid c_slash _ (start st) orig Fl s_node_plain Pm (or_introl eq_refl) E) as (k & K1 & K2 & K3).
    unfold node_body. rewrite B. fold s_node. rewrite K1, K3. cbn zeta.
    assert (Z : Nat.eqb c_slash 0 = false) by reflexivity. rewrite Z. clear Z.
    set (i := start st + k) in *. apply skip_S in K2. destruct (text_head ns n r Gr) as (c & t & Ec & Hc).
    pose proof (label_plain ns n Gt) as Pl. destruct Gt as [Gm [Nn Gn]]. apply good_tail in Gr.
    fold s3. fold s2. unfold label in *. destruct ns as [m|].
    + rewrite <- app_assoc in K2. cbn [app] in K2.
      destruct (scan_lead s3 m c_colon _ (S i) orig (name_s3 m (proj2 Gm)) (or_introl eq_refl) K2) as (k2 & J1 & Jk & J2 & J3).
      rewrite J1. rewrite J3. assert (Z : Nat.eqb c_colon c_colon = true) by reflexivity. rewrite Z. clear Z.
      assert (Hs2 : s2 c = true \/ c = 0) by (destruct Hc as [-> | [-> | ->]]; auto).
      destruct skip.
      * apply skip_S in J2. pose proof J2 as J2'. rewrite Ec in J2.
        destruct (scan_lead s2 n c t (S (S i + k2)) orig (plain_s2 n (names_plain n Gn)) Hs2 J2) as (k3 & M1 & Mk & M2 & M3).
        rewrite M1, M3. cbn [got]. subst k3. apply (put_name (S (S i + k2)) n c t); auto; [now apply names_plain| |].
        -- pose proof (skip_lt orig _ _ _ _ J2); cbn [length] in *; lia.
        -- cbn [rel_cur]. eexists. split; [reflexivity|]. auto using names_plain.
      * assert (J4 : skipn (S i + k2) orig = (c_colon :: n) ++ c :: t) by (rewrite J2; cbn [app]; now rewrite Ec).
        assert (Pc : Forall plain (c_colon :: n)) by (apply Forall_app in Pl; apply Pl).
        destruct (scan_lead s2 (c_colon :: n) c t (S i + k2) orig (plain_s2 _ Pc) Hs2 J4) as (k3 & M1 & Mk & M2 & M3).
        rewrite M1, M3. cbn [got].
        assert (K4 : skipn (S i) orig = (m ++ c_colon :: n) ++ c :: t) by (rewrite K2, <- app_assoc; cbn [app]; now rewrite Ec).
        assert (Ln : S i + k2 + k3 = S i + length (m ++ c_colon :: n)) by (rewrite app_length; lia). rewrite Ln.
        apply (put_name (S i) (m ++ c_colon :: n) c t); auto.
        -- rewrite K2, <- app_assoc. reflexivity.
        -- pose proof (skip_lt orig _ _ _ _ K4). lia.
        -- cbn [rel_cur]. eexists. split; [reflexivity|]. split; [destruct m; discriminate|]. split; [auto|]. split; [|auto]. rewrite K2, <- app_assoc. reflexivity.
    + pose proof K2 as K2'. rewrite Ec in K2.
      assert (Hs3 : s3 c = true \/ c = 0) by (destruct Hc as [-> | [-> | ->]]; auto).
      destruct (scan_lead s3 n c t (S i) orig (name_s3 n Gn) Hs3 K2) as (k2 & J1 & Jk & J2 & J3).
      rewrite J1, J3. assert (Z : Nat.eqb c c_colon = false) by (destruct Hc as [-> | [-> | ->]]; reflexivity). rewrite Z. clear Z.
      subst k2. assert (Q : (if skip then n else n) = n) by (destruct skip; reflexivity). rewrite Q. cbn [got].
      apply (put_name (S i) n c t); auto.
      * pose proof (skip_lt orig _ _ _ _ K2). lia.
      * cbn [rel_cur]. eexists. split; [reflexivity|]. auto.
  - unfold node_body. rewrite B. fold s_node. 
    destruct (scanq_lead s_node lead (text (ahead a)) 0 [] (start st) orig Fl s_node_plain S1 (or_intror eq_refl) E) as (k & K1 & K2 & K3).
    rewrite K1, K3. cbn [Nat.eqb got]. split; [exact C|]. split; [exists lead; auto|exact Rc].
Qed.

Lemma scan_eq x l : Forall kname_char x -> scan (Nat.eqb c_eq) (x ++ c_eq :: l) = Some (length x).
Proof.
  intros F. rewrite (passv_chars kname_char (Nat.eqb c_eq) x F); [|].
  - rewrite scan_stop by now left. cbn [option_map]. f_equal. lia.
  - intros c [->|H]; [split; [discriminate|reflexivity]|]. destruct H as (Z & _ & _ & _ & _ & Q & _). split; [auto|]. apply Nat.eqb_neq. auto.
Qed.
Lemma key_step a st : crel a st ->
  match to_key (ahead a) with
  | Some (k, r) => got (key_body st) (Some k) (At r (current a))
  | None => got (key_body st) None a
  end.
Proof.
  intros (C & (lead & Fl & E & G) & Rc). pose proof C as (B & R & L & Cu). fold orig in B. pose proof (split_key (ahead a) G) as S1.
  destruct (to_key (ahead a)) as [[k r]|].
  - destruct S1 as (mid & q & v & r' & Pm & Et & Fk & Gr & Er). rewrite Et in E. rewrite <- app_assoc in E. cbn [app] in E. rewrite <- app_assoc in E.
    destruct (scanq_lead s_key lead mid c_lbr _ (start st) orig Fl s_key_plain Pm (or_introl eq_refl) E) as (k1 & K1 & K2 & K3).
    unfold key_body. rewrite B. fold s_key. rewrite K1, K3. cbn zeta.
    assert (Z : Nat.eqb c_lbr 0 || Nat.eqb c_lbr c_slash = false) by reflexivity. rewrite Z. clear Z.
    set (i := start st + k1) in *. apply skip_S in K2. pose proof K2 as K2'.
    rewrite Er in K2. rewrite text_cons in K2. cbn [tok_text app] in K2.
    assert (J1 : scan (Nat.eqb c_eq) (skipn (S i) orig) = Some (length k)) by (rewrite K2; now apply scan_eq).
    rewrite J1. pose proof (at_skip orig (S i) k _ _ K2) as A. rewrite A. rewrite Nat.eqb_refl. cbn [got].
    pose proof (skip_lt orig (S i) k _ _ K2) as Lk. split.
    + split; [apply put_inv; auto|]. split; [|exact Rc]. unfold start. cbn [rc rp ahead]. assert (Q : quote c_eq = false) by reflexivity. rewrite Q.
      exists []. split; [constructor|]. split; [|exact Gr]. now apply (skip_add orig (S i) k).
    + eapply cstr_at; [|eapply skip_upd; exact K2]. eapply Forall_impl; [|exact Fk]. intros c H. now apply kname_plain in H as (Z & _).
  - destruct S1 as (mid & t & Pm & Et & c & t' & -> & Hc). rewrite Et in E.
    assert (Hs : s_key c = true \/ c = 0) by (destruct Hc as [-> | ->]; auto).
    destruct (scanq_lead s_key lead mid c _ (start st) orig Fl s_key_plain Pm Hs E) as (k1 & K1 & K2 & K3).
    unfold key_body. rewrite B. fold s_key. rewrite K1, K3. cbn zeta.
    assert (Z : Nat.eqb c 0 || Nat.eqb c c_slash = true) by (destruct Hc as [-> | ->]; reflexivity). rewrite Z. cbn [got].
    split; [exact C|]. split; [|exact Rc]. exists lead. split; [auto|]. split; [|auto]. rewrite Et. exact E.
Qed.
Lemma val_step a st : crel a st ->
  match to_val (ahead a) with
  | Some (v, r) => got (val_body st) (Some v) (At r (current a))
  | None => got (val_body st) None a
  end.
Proof.
  intros (C & (lead & Fl & E & G) & Rc). pose proof C as (B & R & L & Cu). fold orig in B. pose proof (split_val (ahead a) G) as S1.
  assert (Pl : passv s_val lead). { apply (passv_chars plain); auto. intros c H. split; [apply H|now apply s_val_plain]. }
  destruct (to_val (ahead a)) as [[v r]|].
  - destruct S1 as (mid & q & Pm & Et & [Hq Fv] & Gr). rewrite Et in E. rewrite <- app_assoc in E. cbn [app] in E. rewrite <- app_assoc in E. cbn [app] in E.
    rewrite app_assoc in E.
    assert (Hs : s_val q = true \/ q = 0) by (destruct Hq as [-> | ->]; auto).
    destruct (scan_lead s_val (lead ++ mid) q _ (start st) orig (passv_app _ _ _ Pl Pm) Hs E) as (k1 & K1 & _ & K2 & K3).
    unfold val_body. rewrite B. fold s_val. rewrite K1, K3. cbn zeta.
    assert (Z : Nat.eqb q 0 || Nat.eqb q c_slash = false) by (destruct Hq as [-> | ->]; reflexivity). rewrite Z. clear Z.
    set (i := start st + k1) in *. apply skip_S in K2.
    assert (Pv : passv (Nat.eqb q) v). { apply (passv_chars _ _ v Fv). intros c [Z N]. split; [auto|]. apply Nat.eqb_neq. auto. }
    assert (Hs' : Nat.eqb q q = true \/ q = 0) by (left; apply Nat.eqb_refl).
    destruct (scan_lead (Nat.eqb q) v q _ (S i) orig Pv Hs' K2) as (k2 & J1 & -> & J2 & J3).
    rewrite J1, J3, Nat.eqb_refl. cbn [got]. pose proof (skip_lt orig (S i) v _ _ K2) as Lk. split.
    + split; [apply put_inv; auto|]. split; [|exact Rc]. unfold start. cbn [rc rp ahead]. assert (Q : quote q = true) by (destruct Hq as [-> | ->]; reflexivity). rewrite Q.
      exists [c_rbr]. split; [constructor; [unfold plain; repeat split; discriminate|constructor]|]. split; [|exact Gr]. now apply skip_S in J2.
    + eapply cstr_at; [|eapply skip_upd; exact K2]. eapply Forall_impl; [|exact Fv]. intros c [Z _]. exact Z.
  - destruct S1 as (mid & t & Pm & Et & c & t' & -> & Hc). rewrite Et in E. rewrite app_assoc in E.
    assert (Hs : s_val c = true \/ c = 0) by (destruct Hc as [-> | ->]; auto).
    destruct (scan_lead s_val (lead ++ mid) c _ (start st) orig (passv_app _ _ _ Pl Pm) Hs E) as (k1 & K1 & _ & K2 & K3).
    unfold val_body. rewrite B. fold s_val. rewrite K1, K3. cbn zeta.
    assert (Z : Nat.eqb c 0 || Nat.eqb c c_slash = true) by (destruct Hc as [-> | ->]; reflexivity). rewrite Z. cbn [got].
    split; [exact C|]. split; [|exact Rc]. exists lead. split; [auto|]. split; [|auto]. rewrite Et, app_assoc. exact E.
Qed.

(** ** Searches *)
Lemma named_next n l : node_named n l = match to_node l with Some (_, m, r) => if eq_dec n m then Some r else node_named n r | None => None end.
Proof. induction l as [|[ns m|k|q v] l IH]; cbn [node_named to_node]; auto. Qed.
Lemma nth_next i l : node_nth i l = match to_node l with Some (_, m, r) => match i with 0 => Some (m, r) | S i' => node_nth i' r end | None => None end.
Proof. induction l as [|[ns m|k|q v] l IH]; cbn [node_nth to_node]; auto. Qed.
Lemma last_next l : node_last l = match to_node l with Some (_, m, r) => match node_last r with Some x => Some x | None => Some (m, r) end | None => None end.
Proof. induction l as [|[ns m|k|q v] l IH]; cbn [node_last to_node]; auto. Qed.
Lemma key_named_next n l : key_named n l = match to_key l with Some (m, r) => if eq_dec n m then Some r else key_named n r | None => None end.
Proof. induction l as [|[ns m|k|q v] l IH]; cbn [key_named to_key]; auto. Qed.
Lemma key_nth_next i l : key_nth i l = match to_key l with Some (m, r) => match i with 0 => Some r | S i' => key_nth i' r end | None => None end.
Proof. induction l as [|[ns m|k|q v] l IH]; cbn [key_nth to_key]; auto. Qed.
Lemma to_node_shorter l ns n r : to_node l = Some (ns, n, r) -> length r < length l.
Proof.
  induction l as [|[ns' m|k|q v] l IH]; cbn [to_node length]; [discriminate| | |]; intros H; try (specialize (IH H); lia). injection H as _ _ <-. lia.
Qed.
Lemma to_key_shorter l k r : to_key l = Some (k, r) -> length r < length l.
Proof.
  induction l as [|[ns' m|k'|q v] l IH]; cbn [to_key length]; try discriminate; intros H; try (specialize (IH H); lia). injection H as _ <-. lia.
Qed.
Lemma got_some r o a : got r (Some o) a -> exists i st, r = Ret (Some i) st /\ rel a st /\ cstr (buf st) i = o.
Proof. unfold got. destruct r as [[i|] st| |]; intros H; try destruct H. exists i, st. auto. Qed.
Lemma got_none r a : got r None a -> exists st, r = Ret None st /\ crel a st.
Proof. unfold got. destruct r as [[i|] st| |]; intros H; try destruct H. exists st. split; [reflexivity|]. split; auto. Qed.
Lemma next_node_step a st : rel a st ->
  match to_node (ahead a) with Some (_, n, r) => got (next_node false st) (Some n) (At r (Cur n r)) | None => got (next_node false st) None a end.
Proof. intros R. apply rel_recover in R. pose proof (node_step true a _ R) as H. unfold next_node. cbn [enter]. destruct (to_node (ahead a)) as [[[ns n] r]|]; exact H. Qed.
Lemma next_key_step a st : rel a st ->
  match to_key (ahead a) with Some (k, r) => got (next_key false st) (Some k) (At r (current a)) | None => got (next_key false st) None a end.
Proof. intros R. apply rel_recover in R. exact (key_step a _ R). Qed.
Lemma next_val_step a st : rel a st ->
  match to_val (ahead a) with Some (v, r) => got (next_val false st) (Some v) (At r (current a)) | None => got (next_val false st) None a end.
Proof. intros R. apply rel_recover in R. exact (val_step a _ R). Qed.

Lemma find_node f n : forall a st, rel a st -> length (ahead a) < f ->
  match node_named n (ahead a) with
  | Some r => got (find f next_node n st) (Some n) (At r (Cur n r))
  | None => exists b st', find f next_node n st = Ret None st' /\ crel b st'
  end.
Proof.
  induction f as [|f IH]; intros a st R L; [lia|]. cbn [find]. rewrite named_next. pose proof (next_node_step a st R) as H.
  destruct (to_node (ahead a)) as [[[ns m] r]|] eqn:E.
  - apply got_some in H as (i & st' & -> & R' & C). rewrite C, str_eqb_dec. destruct (eq_dec n m) as [->|N].
    + cbn [got]. auto.
    + apply to_node_shorter in E. specialize (IH _ _ R'). cbn [ahead] in IH. apply IH. lia.
  - apply got_none in H as (st' & -> & C). exists a, st'. auto.
Qed.
Lemma find_node_idx j : forall a st, rel a st ->
  match node_nth j (ahead a) with
  | Some (n, r) => got (find_idx next_node j st) (Some n) (At r (Cur n r))
  | None => exists b st', find_idx next_node j st = Ret None st' /\ crel b st'
  end.
Proof.
  induction j as [|j IH]; intros a st R; cbn [find_idx]; rewrite nth_next; pose proof (next_node_step a st R) as H;
    destruct (to_node (ahead a)) as [[[ns m] r]|] eqn:E.
  - apply got_some in H as (i & st' & -> & R' & C). cbn [got]. auto.
  - apply got_none in H as (st' & -> & C). exists a, st'. auto.
  - apply got_some in H as (i & st' & -> & R' & C). apply (IH _ _ R').
  - apply got_none in H as (st' & -> & C). exists a, st'. auto.
Qed.
Lemma find_key f n : forall a st, rel a st -> length (ahead a) < f ->
  match key_named n (ahead a) with
  | Some r => got (find f next_key n st) (Some n) (At r (current a))
  | None => exists b st', find f next_key n st = Ret None st' /\ crel b st' /\ current b = current a
  end.
Proof.
  induction f as [|f IH]; intros a st R L; [lia|]. cbn [find]. rewrite key_named_next. pose proof (next_key_step a st R) as H.
  destruct (to_key (ahead a)) as [[m r]|] eqn:E.
  - apply got_some in H as (i & st' & -> & R' & C). rewrite C, str_eqb_dec. destruct (eq_dec n m) as [->|N].
    + cbn [got]. auto.
    + apply to_key_shorter in E. specialize (IH _ _ R'). cbn [ahead current] in IH. apply IH. lia.
  - apply got_none in H as (st' & -> & C). exists a, st'. auto.
Qed.
Lemma find_key_idx j : forall a st, rel a st ->
  match key_nth j (ahead a) with
  | Some r => exists n, got (find_idx next_key j st) (Some n) (At r (current a))
  | None => exists b st', find_idx next_key j st = Ret None st' /\ crel b st' /\ current b = current a
  end.
Proof.
  induction j as [|j IH]; intros a st R; cbn [find_idx]; rewrite key_nth_next; pose proof (next_key_step a st R) as H;
    destruct (to_key (ahead a)) as [[m r]|] eqn:E.
  - apply got_some in H as (i & st' & -> & R' & C). exists m. cbn [got]. auto.
  - apply got_none in H as (st' & -> & C). exists a, st'. auto.
  - apply got_some in H as (i & st' & -> & R' & C). apply (IH _ _ R').
  - apply got_none in H as (st' & -> & C). exists a, st'. auto.
Qed.

Lemma restore_unknown a old b st : crel a old -> crel b st -> crel (At (ahead a) Unknown) (restore old st).
Proof. intros (C & P & _) (C' & _ & _). split; [now apply clean_restore|]. split; [exact P|exact I]. Qed.
Lemma restore_known a old b st : crel a old -> crel b st -> current b = current a -> crel a (restore old st).
Proof. intros (C & P & _) (C' & _ & K) E. split; [now apply clean_restore|]. split; [exact P|]. rewrite E in K. exact K. Qed.
Lemma start_all st : clean w st -> crel (At (tokens p) NoCur) (from_start st).
Proof.
  intros C. split; [now apply clean_start|]. destruct C as (B & _). unfold from_start, start. cbn [rc rp cur ahead current].
  assert (Q : quote (at_ (buf st) 0) = false).
  { rewrite B. unfold w, tokens, at_. destruct p as [|n t]; reflexivity. }
  rewrite Q. split; [|reflexivity]. exists []. auto.
Qed.
Lemma text_long l : length l <= length (text l).
Proof. induction l as [|t l IH]; [auto|]. rewrite text_cons, app_length. cbn [length]. destruct t; cbn [tok_text length]; lia. Qed.
Lemma points_short i l : points i l -> length l < length orig.
Proof.
  intros (lead & _ & E & _). pose proof (skipn_length i orig) as L. rewrite E, !app_length in L. cbn [length] in L. pose proof (text_long l). lia.
Qed.
Lemma cur_points g l i : g <> [] -> Forall plain g -> skipn i orig = g ++ text l ++ [0] -> good_toks l -> points i l /\ quote (at_ orig i) = false.
Proof.
  intros N F E G. split; [exists g; auto|]. destruct g as [|c g]; [contradiction|]. inversion F as [|? ? P F']; subst.
  pose proof (at_skip orig i [] c _ E) as A. cbn [length] in A. rewrite Nat.add_0_r in A. rewrite A. now apply quote_false.
Qed.

(** Keys of the current node. *)
Section Keys.
Variables (search : ctx -> res) (sfind : list tok -> option (list tok)).
Hypothesis Hsearch : forall a st, rel a st ->
  match sfind (ahead a) with
  | Some r => exists n, got (search st) (Some n) (At r (current a))
  | None => exists b st', search st = Ret None st' /\ crel b st' /\ current b = current a
  end.
(** Values follow keys. *)
Hypothesis Hval : forall l r, good_toks l -> sfind l = Some r -> exists v r', to_val r = Some (v, r').
Definition keys_of (old : ctx) : res :=
  to_current old (fun s => match search s with Ret (Some _) st' => next_val false st' | r => or_restore old r end).
Lemma keys_at a old s g l : crel a old -> crel (At l (Cur g l)) s ->
  match sfind l with
  | Some r => got (match search s with Ret (Some _) st' => next_val false st' | r => or_restore old r end) (fst (value_of r (Cur g l) a)) (snd (value_of r (Cur g l) a))
  | None => exists b st', (match search s with Ret (Some _) st' => next_val false st' | r => or_restore old r end) = Ret None (restore old st') /\ crel b st' /\ current b = Cur g l
  end.
Proof.
  intros Ra Rs. pose proof (Hsearch _ _ (crel_rel _ _ Rs)) as H. cbn [ahead current] in H. destruct (sfind l) as [r|] eqn:E.
  - destruct H as (n & H). apply got_some in H as (i & st' & -> & R' & C).
    pose proof (next_val_step _ _ R') as V. cbn [ahead current] in V.
    assert (G : good_toks l) by (destruct Rs as (_ & (lead & _ & _ & G) & _); exact G).
    destruct (Hval l r G E) as (v & r' & Ev). unfold value_of. rewrite Ev in *. cbn [fst snd]. exact V.
  - destruct H as (b & st' & -> & C & K). exists b, st'. auto.
Qed.
Lemma keys_step a old o a' : crel a old -> current_key sfind a = Some (o, a') -> got (keys_of old) o a'.
Proof.
  intros R H. pose proof R as (C & P & K). unfold current_key in H. unfold keys_of, to_current. destruct (current a) as [|g l|] eqn:Ec; [| |discriminate H]; cbn [rel_cur] in K.
  - rewrite K. cbn zeta. injection H as H. pose proof (next_node_step a old (crel_rel _ _ R)) as N.
    destruct (to_node (ahead a)) as [[[ns n] l]|].
    + apply got_some in N as (i & st' & -> & R' & _). apply rel_recover in R'. destruct R' as (C' & P' & (j & Ej & Ng & Fg & El & Gl)). rewrite Ej.
      assert (Rs : crel (At l (Cur n l)) (mk (buf (recover st')) (Some j) j (at_ (buf (recover st')) j))).
      { destruct (cur_points n l j Ng Fg El Gl) as [Pj Q].
        split; [apply clean_at; auto|].
        - destruct C' as (_ & _ & _ & C'). now rewrite Ej in C'.
        - destruct C' as (_ & _ & _ & C'). now rewrite Ej in C'.
        - destruct C' as (B' & _). fold orig in B'. unfold start. cbn [rc rp cur ahead current]. rewrite B', Q. split; [exact Pj|].
          cbn [rel_cur]. exists j. auto. }
      assert (Ru : crel (At (ahead a) Unknown) old) by (split; [auto|split; [auto|exact I]]).
      pose proof (keys_at (At (ahead a) Unknown) old _ n l Ru Rs) as KA. destruct (sfind l) as [r|].
      * destruct (value_of r (Cur n l) (At (ahead a) Unknown)) as [o1 a1]. injection H as <- <-. exact KA.
      * destruct KA as (b & st1 & -> & Cb & _). injection H as <- <-. cbn [got]. exact (restore_unknown a old b st1 R Cb).
    + apply got_none in N as (st' & -> & C'). injection H as <- <-. cbn [got]. apply rel_recover. now apply crel_rel.
  - destruct K as (j & Ej & Ng & Fg & El & Gl). rewrite Ej. cbn zeta. injection H as H.
    assert (Rs : crel (At l (Cur g l)) (mk (buf old) (Some j) j (at_ (buf old) j))).
    { destruct (cur_points g l j Ng Fg El Gl) as [Pj Q].
      split; [apply clean_at; auto|].
      - destruct C as (_ & _ & _ & C'). now rewrite Ej in C'.
      - destruct C as (_ & _ & _ & C'). now rewrite Ej in C'.
      - destruct C as (B' & _). fold orig in B'. unfold start. cbn [rc rp cur ahead current]. rewrite B', Q. split; [exact Pj|].
        cbn [rel_cur]. exists j. auto. }
    pose proof (keys_at a old _ g l R Rs) as KA. destruct (sfind l) as [r|].
    + destruct (value_of r (Cur g l) a) as [o1 a1]. injection H as <- <-. exact KA.
    + destruct KA as (b & st1 & -> & Cb & Kb). injection H as <- <-. cbn [got]. apply (restore_known a old b st1 R Cb). now rewrite Ec.
Qed.
End Keys.
Lemma key_named_val k l : forall r, good_toks l -> key_named k l = Some r -> exists v r', to_val r = Some (v, r').
Proof.
  induction l as [|[ns m|k'|q v] l IH]; intros r G; cbn [key_named]; try discriminate.
  - destruct G as (_ & V & G). destruct l as [|[ns m|k''|q v] l]; try destruct V. destruct (eq_dec k k').
    + intros H. injection H as <-. exists v, l. reflexivity.
    + now apply IH.
  - apply good_tail in G. now apply IH.
Qed.
Lemma key_nth_val l : forall i r, good_toks l -> key_nth i l = Some r -> exists v r', to_val r = Some (v, r').
Proof.
  induction l as [|[ns m|k'|q v] l IH]; intros i r G; cbn [key_nth]; try discriminate.
  - destruct G as (_ & V & G). destruct l as [|[ns m|k''|q v] l]; try destruct V. destruct i.
    + intros H. injection H as <-. exists v, l. reflexivity.
    + now apply IH.
  - apply good_tail in G. now apply IH.
Qed.

(** The last node. *)
Lemma cur_text a st g r : crel a st -> current a = Cur g r -> exists j, cur st = Some j /\ cstr (buf st) j = g ++ text r.
Proof.
  intros (Cl & _ & K) Ec. rewrite Ec in K. destruct K as (j & Ej & Ng & Fg & El & Gl). exists j. split; [exact Ej|].
  destruct Cl as (B & _). rewrite B. fold orig. rewrite app_assoc in El. eapply cstr_at; [|exact El].
  apply Forall_forall. intros c Hc Z. subst c. apply in_split in Hc as (x & y & Hxy).
  assert (E0 : skipn j orig = x ++ 0 :: y ++ [0]) by (rewrite El, Hxy, <- app_assoc; reflexivity).
  pose proof (skip_lt orig j x 0 (y ++ [0]) E0) as Lx. pose proof (at_skip orig j x 0 (y ++ [0]) E0) as Ax.
  apply (orig_zero w Hw) in Ax; [|exact Lx].
  pose proof (skipn_length j orig) as Ls. rewrite E0 in Ls. unfold orig in Ls. rewrite !app_length in Ls. cbn [length] in Ls. rewrite app_length in Ls. cbn [length] in Ls. lia.
Qed.
Lemma last_step f : forall a st, rel a st -> length (ahead a) < f ->
  match node_last (ahead a) with
  | Some (n, r) => got (last_loop f st) (Some (n ++ text r)) (At r (Cur n r))
  | None => exists st', last_loop f st = Ret (cur st') st' /\ crel a st'
  end.
Proof.
  induction f as [|f IH]; intros a st R L; [lia|]. cbn [last_loop]. rewrite last_next. pose proof (next_node_step a st R) as H.
  destruct (to_node (ahead a)) as [[[ns m] r]|] eqn:E.
  - apply got_some in H as (i & st' & -> & R' & C). apply to_node_shorter in E. specialize (IH _ _ R'). cbn [ahead] in IH. specialize (IH ltac:(lia)).
    destruct (node_last r) as [[n' r']|]; [exact IH|]. destruct IH as (s1 & -> & C1). destruct (cur_text _ _ _ _ C1 eq_refl) as (j & -> & T).
    cbn [got]. split; [now apply crel_rel|exact T].
  - apply got_none in H as (st' & -> & C). exists st'. auto.
Qed.

(** ** Calls *)
Section Calls.
Variable f : nat.
Hypothesis Hf : length orig <= f.
Lemma short a st : rel a st -> length (ahead a) < f.
Proof. intros (_ & P & _). apply points_short in P. lia. Qed.
Lemma node_call n a st : rel a st ->
  match node_named n (tokens p) with
  | Some r => got (node f false n st) (Some n) (At r (Cur n r))
  | None => got (node f false n st) None (At (ahead a) Unknown)
  end.
Proof.
  intros R. pose proof (rel_recover a st R) as Rr. assert (ST : crel (At (tokens p) NoCur) (from_start (recover st))) by (apply start_all; apply Rr).
  pose proof (crel_rel _ _ ST) as STr. pose proof (short _ _ STr) as LT. cbn [ahead] in LT.
  unfold node. cbn [enter]. cbn zeta. pose proof (find_node f n _ _ STr LT) as H. cbn [ahead] in H. destruct (node_named n (tokens p)) as [r|].
  - apply got_some in H as (i & st' & -> & R' & C). cbn [or_restore got]. auto.
  - destruct H as (b & st' & -> & C). cbn [or_restore got]. exact (restore_unknown a _ b st' Rr C).
Qed.
Lemma node_idx_call i a st : rel a st ->
  match node_nth i (tokens p) with
  | Some (n, r) => got (node_idx false i st) (Some n) (At r (Cur n r))
  | None => got (node_idx false i st) None (At (ahead a) Unknown)
  end.
Proof.
  intros R. pose proof (rel_recover a st R) as Rr. assert (ST : crel (At (tokens p) NoCur) (from_start (recover st))) by (apply start_all; apply Rr).
  pose proof (crel_rel _ _ ST) as STr. 
  unfold node_idx. cbn [enter]. cbn zeta. pose proof (find_node_idx i _ _ STr) as H. cbn [ahead] in H. destruct (node_nth i (tokens p)) as [[n r]|].
  - apply got_some in H as (j & st' & -> & R' & C). cbn [or_restore got]. auto.
  - destruct H as (b & st' & -> & C). cbn [or_restore got]. exact (restore_unknown a _ b st' Rr C).
Qed.
Lemma node_key_call k a st o a' : rel a st -> current_key (key_named k) a = Some (o, a') -> got (node_key_value f false k st) o a'.
Proof.
  intros R H. apply rel_recover in R. apply (keys_step (find f next_key k) (key_named k)) with (a := a); auto.
  - intros b s Rb. pose proof (find_key f k b s Rb (short b s Rb)) as K. destruct (key_named k (ahead b)); [exists k; exact K|exact K].
  - intros l r. apply key_named_val.
Qed.
Lemma node_key_idx_call k a st o a' : rel a st -> current_key (key_nth k) a = Some (o, a') -> got (node_key_value_idx false k st) o a'.
Proof.
  intros R H. apply rel_recover in R. apply (keys_step (find_idx next_key k) (key_nth k)) with (a := a); auto.
  - intros b s Rb. exact (find_key_idx k b s Rb).
  - intros l r. apply key_nth_val.
Qed.
Lemma got_or_restore a old r o b : crel a old -> got r o b -> got (or_restore old r) o (match o with Some _ => b | None => At (ahead a) Unknown end).
Proof.
  intros R G. destruct o as [x|].
  - apply got_some in G as (i & st & -> & H). exact H.
  - apply got_none in G as (st & -> & H). cbn [or_restore got]. exact (restore_unknown a old b st R H).
Qed.

Theorem exec_step c a st o a' : rel a st -> step p c a = Some (o, a') -> got (exec f false c st) o a'.
Proof.
  intros R S1. pose proof (rel_recover a st R) as Rr. pose proof (crel_rel _ _ Rr) as Rrr.
  destruct c; cbn [step exec] in *.
  - pose proof (next_node_step a st R) as H. destruct (to_node (ahead a)) as [[[ns n] r]|]; injection S1 as <- <-; exact H.
  - pose proof (node_step false a _ Rr) as H. unfold next_node_ns. cbn [enter]. destruct (to_node (ahead a)) as [[[ns n] r]|]; injection S1 as <- <-; exact H.
  - pose proof (next_key_step a st R) as H. destruct (to_key (ahead a)) as [[k r]|]; injection S1 as <- <-; exact H.
  - pose proof (next_val_step a st R) as H. destruct (to_val (ahead a)) as [[v r]|]; injection S1 as <- <-; exact H.
  - pose proof (node_call n a st R) as H. destruct (node_named n (tokens p)) as [r|]; injection S1 as <- <-; exact H.
  - pose proof (node_idx_call i a st R) as H. destruct (node_nth i (tokens p)) as [[n r]|]; injection S1 as <- <-; exact H.
  - unfold node_rel. cbn [enter]. cbn zeta. pose proof (find_node f n a _ Rrr (short a st R)) as H. destruct (node_named n (ahead a)) as [r|]; [|discriminate S1].
    injection S1 as <- <-. apply got_some in H as (j & st' & E & R' & C). rewrite E. rewrite (find_cur w _ _ _ _ _ (proj1 Rrr) E). cbn [got]. auto.
  - unfold node_idx_rel. cbn [enter]. cbn zeta. pose proof (find_node_idx i a _ Rrr) as H. destruct (node_nth i (ahead a)) as [[n r]|].
    + injection S1 as <- <-. apply got_some in H as (j & st' & -> & R' & C). cbn [or_restore got]. auto.
    + injection S1 as <- <-. destruct H as (b & st' & -> & C). cbn [or_restore got]. exact (restore_unknown a _ b st' Rr C).
  - now apply node_key_call with (a := a).
  - now apply node_key_idx_call with (a := a).
  - unfold key_value. cbn [enter]. cbn zeta. pose proof (node_call n a _ Rrr) as H. destruct (node_named n (tokens p)) as [l|].
    + apply got_some in H as (j & st' & -> & R' & C).
      assert (G : good_toks l) by (destruct R' as (_ & (lead & _ & _ & G) & _); exact G).
      destruct (key_named k l) as [r|] eqn:Ek.
      * destruct (key_named_val k l r G Ek) as (v & r' & Ev). unfold value_of in *. rewrite Ev in *. injection S1 as <- <-.
        assert (K : got (node_key_value f false k st') (Some v) (At r' (Cur n l))).
        { apply (node_key_call k (At l (Cur n l)) st'); [exact R'|]. unfold current_key, value_of. cbn [current]. now rewrite Ek, Ev. }
        exact (got_or_restore a _ _ _ _ Rr K).
      * injection S1 as <- <-.
        assert (K : got (node_key_value f false k st') None (At l (Cur n l))).
        { apply (node_key_call k (At l (Cur n l)) st'); [exact R'|]. unfold current_key. cbn [current]. now rewrite Ek. }
        exact (got_or_restore a _ _ _ _ Rr K).
    + apply got_none in H as (st' & -> & C). injection S1 as <- <-. exact C.
  - unfold key_value_idx. cbn [enter]. cbn zeta. pose proof (node_idx_call i a _ Rrr) as H. destruct (node_nth i (tokens p)) as [[n l]|].
    + apply got_some in H as (j' & st' & -> & R' & C).
      assert (G : good_toks l) by (destruct R' as (_ & (lead & _ & _ & G) & _); exact G).
      destruct (key_nth j l) as [r|] eqn:Ek.
      * destruct (key_nth_val l j r G Ek) as (v & r' & Ev). unfold value_of in *. rewrite Ev in *. injection S1 as <- <-.
        assert (K : got (node_key_value_idx false j st') (Some v) (At r' (Cur n l))).
        { apply (node_key_idx_call j (At l (Cur n l)) st'); [exact R'|]. unfold current_key, value_of. cbn [current]. now rewrite Ek, Ev. }
        exact (got_or_restore a _ _ _ _ Rr K).
      * injection S1 as <- <-.
        assert (K : got (node_key_value_idx false j st') None (At l (Cur n l))).
        { apply (node_key_idx_call j (At l (Cur n l)) st'); [exact R'|]. unfold current_key. cbn [current]. now rewrite Ek. }
        exact (got_or_restore a _ _ _ _ Rr K).
    + apply got_none in H as (st' & -> & C). injection S1 as <- <-. exact C.
  - unfold last_node. cbn [enter]. pose proof (last_step f a _ Rrr (short a st R)) as H. destruct (node_last (ahead a)) as [[n r]|].
    + injection S1 as <- <-. exact H.
    + destruct H as (st' & -> & C). destruct (current a) as [|g l|] eqn:Ec; [| |discriminate S1].
      * injection S1 as <- <-. pose proof C as (_ & _ & K). rewrite Ec in K. cbn [rel_cur] in K. rewrite K. exact C.
      * injection S1 as <- <-. destruct (cur_text a st' g l C Ec) as (j & -> & T). cbn [got]. split; [now apply crel_rel|exact T].
  - injection S1 as <- <-. exact Rr.
Qed.
End Calls.
End Sim.
