(** C26: helpers walking paths. *)
From Coq Require Import String Ascii List Bool Arith Lia.
From Verif Require Import Xpath XpathSpec XpathProofs XpathSim.
Import ListNotations.
Local Open Scope string_scope.
Local Open Scope list_scope.

Definition s (x : string) : str := map nat_of_ascii (list_ascii_of_string x).
(** Memory with the string [w], and the state after it is given. *)
Definition memory (w : str) : ctx := mk (w ++ [0]) None 0 0.
Definition given (w : str) : ctx := enter true (memory w).

(** A sequence of calls with their results, as strings read at the moment; [None]: out of memory or not finished. *)
Fixpoint run (f : nat) (cs : list call) (st : ctx) : option (list (option str) * ctx) :=
  match cs with
  | [] => Some ([], st)
  | c :: t =>
      match exec f false c st with
      | Ret r st' => match run f t st' with Some (rs, st'') => Some (option_map (cstr (buf st')) r :: rs, st'') | None => None end
      | _ => None
      end
  end.

(** Giving the string with a call is giving it before the call. *)
Lemma clean_same w st : clean w st -> recover st = st.
Proof. intros (B & R & _ & _). unfold recover. rewrite B, upd_same by auto. destruct st. cbn in *. now rewrite B. Qed.
Lemma given_clean w : Forall (fun c => c <> 0) w -> clean w (given w).
Proof. intros _. unfold given, enter, memory. cbn [buf]. split; [reflexivity|]. cbn [rp rc cur]. split; [reflexivity|]. split; [rewrite app_length; cbn [length]; lia|exact I]. Qed.
Theorem C26_given w f c : Forall (fun x => x <> 0) w -> c <> CRecover -> exec f true c (memory w) = exec f false c (given w).
Proof.
  intros Hw N. pose proof (clean_same w _ (given_clean w Hw)) as E.
  destruct c; cbn [exec]; try contradiction;
    unfold next_node, next_node_ns, next_key, next_val, node, node_idx, node_rel, node_idx_rel, node_key_value, node_key_value_idx, key_value, key_value_idx, last_node;
    change (enter false (given w)) with (recover (given w)); rewrite E; reflexivity.
Qed.

(** ** Any string *)
(** Whatever is called for any string, no memory out of it is used and the string is got back. *)
Theorem C26_recovered w f cs : Forall (fun c => c <> 0) w ->
  (forall cs1 c cs2 rs st, cs = cs1 ++ c :: cs2 -> run f cs1 (given w) = Some (rs, st) -> exec f false c st <> Bad) /\
  (forall rs st, run f cs (given w) = Some (rs, st) -> buf (recover st) = w ++ [0]).
Proof.
  intros Hw.
  assert (K : forall cs st0 rs st, inv w st0 -> run f cs st0 = Some (rs, st) -> inv w st).
  { clear cs. induction cs as [|c cs IH]; intros st0 rs st I R; cbn [run] in R; [injection R as _ <-; auto|].
    pose proof (exec_safe w f c st0 I) as S1. destruct (exec f false c st0) as [r st'| |]; try discriminate R. cbn [safe] in S1.
    destruct (run f cs st') as [[rs' st'']|] eqn:E; [|discriminate R]. injection R as <- <-. exact (IH st' rs' st'' (proj1 S1) E). }
  pose proof (clean_inv w _ (given_clean w Hw)) as I0. split.
  - intros cs1 c cs2 rs st _ R E. apply K in R; [|exact I0]. pose proof (exec_safe w f c st R) as S1. rewrite E in S1. exact S1.
  - intros rs st R. apply K in R; [|exact I0]. destruct R as (B & _). exact B.
Qed.
Print Assumptions C26_recovered.

(** Calls that do not look for a key by its name finish. *)
Definition by_key (c : call) : Prop := match c with CNodeKey _ | CKeyValue _ _ => True | _ => False end.
Lemma find_finishes w name : Forall (fun c => c <> 0) w -> forall f st, inv w st -> length w + 1 - rp st < f -> find f next_node name st <> Hang.
Proof.
  intros Hw. induction f as [|f IH]; intros st I L; [lia|]. cbn [find]. pose proof (inv_recover w st I) as C.
  destruct (node_any w true _ C) as (q & s1 & E & I1 & H). unfold next_node at 1. cbn [enter]. rewrite E. destruct q as [q|]; [|discriminate].
  destruct (str_eqb name (cstr (buf s1) q)); [discriminate|]. apply IH; auto. destruct H as (_ & H & _). cbn [recover rp] in H.
  destruct I as (_ & L0 & _). rewrite app_length in L0. cbn [length] in L0. lia.
Qed.
Lemma last_finishes w : Forall (fun c => c <> 0) w -> forall f st, inv w st -> length w + 1 - rp st < f -> last_loop f st <> Hang.
Proof.
  intros Hw. induction f as [|f IH]; intros st I L; [lia|]. cbn [last_loop]. pose proof (inv_recover w st I) as C.
  destruct (node_any w true _ C) as (q & s1 & E & I1 & H). unfold next_node at 1. cbn [enter]. rewrite E. destruct q as [q|]; [|discriminate].
  apply IH; auto. destruct H as (_ & H & _). cbn [recover rp] in H. destruct I as (_ & L0 & _). rewrite app_length in L0. cbn [length] in L0. lia.
Qed.
Lemma nkv_finishes (old : ctx) search : (forall st, search st <> Hang) -> (forall st, next_node false st <> Hang) -> (forall st, next_val false st <> Hang) ->
  to_current old (fun s => match search s with Ret (Some _) st' => next_val false st' | r => or_restore old r end) <> Hang.
Proof.
  intros S1 N V. unfold to_current.
  assert (K : forall s, match search s with Ret (Some _) st' => next_val false st' | r => or_restore old r end <> Hang).
  { intros s1. specialize (S1 s1). destruct (search s1) as [[i|] st'| |]; try discriminate; auto. }
  destruct (cur old).
  - apply K.
  - pose proof (N old) as N0. destruct (next_node false old) as [[i|] st'| |]; try discriminate; auto. destruct (cur (recover st')); [apply K|discriminate].
Qed.
Lemma body_finishes : (forall skip st, node_body skip st <> Hang) /\ (forall st, key_body st <> Hang) /\ (forall st, val_body st <> Hang).
Proof.
  split; [|split].
  - intros skip st. unfold node_body. destruct (scanq _ _ _); [|discriminate]. cbn zeta. destruct (Nat.eqb _ 0); [discriminate|].
    destruct (scan _ _); [|discriminate]. destruct (Nat.eqb _ c_colon); [|discriminate]. destruct (scan _ _); discriminate.
  - intros st. unfold key_body. destruct (scanq _ _ _); [|discriminate]. cbn zeta. destruct (_ || _); [discriminate|].
    destruct (scan _ _); [|discriminate]. destruct (Nat.eqb _ c_eq); discriminate.
  - intros st. unfold val_body. destruct (scan _ _); [|discriminate]. cbn zeta. destruct (_ || _); [discriminate|].
    destruct (scan _ _); [|discriminate]. destruct (Nat.eqb _ _); discriminate.
Qed.
Lemma idx_finishes next i : (forall st, next false st <> Hang) -> forall st, find_idx next i st <> Hang.
Proof.
  intros N. induction i as [|i IH]; intros st; cbn [find_idx]; specialize (N st); destruct (next false st) as [[j|] st'| |]; try discriminate; auto.
Qed.
Lemma or_restore_finishes old r : r <> Hang -> or_restore old r <> Hang.
Proof. destruct r as [[i|] st'| |]; cbn [or_restore]; auto; discriminate. Qed.
Theorem C26_finishes w f c st : Forall (fun c => c <> 0) w -> length w + 1 < f -> inv w st -> ~ by_key c -> exec f false c st <> Hang.
Proof.
  intros Hw F I N. destruct body_finishes as (B1 & B2 & B3).
  assert (N1 : forall st, next_node false st <> Hang) by (intros s1; apply B1).
  assert (N2 : forall st, next_key false st <> Hang) by (intros s1; apply B2).
  assert (N3 : forall st, next_val false st <> Hang) by (intros s1; apply B3).
  pose proof (inv_recover w st I) as C. pose proof (clean_inv w _ C) as CI.
  destruct c; cbn [exec by_key] in *; try tauto; auto.
  - apply B1.
  - unfold node. cbn [enter]. cbn zeta. apply or_restore_finishes. apply (find_finishes w); auto; [apply clean_inv; now apply clean_start|]. lia.
  - unfold node_idx. cbn [enter]. cbn zeta. apply or_restore_finishes. now apply idx_finishes.
  - unfold node_rel. cbn [enter]. cbn zeta. pose proof (find_finishes w n Hw f (recover st) CI) as K.
    specialize (K ltac:(lia)). destruct (find f next_node n (recover st)) as [r st'| |]; try discriminate; auto. destruct (cur st'); discriminate.
  - unfold node_idx_rel. cbn [enter]. cbn zeta. apply or_restore_finishes. now apply idx_finishes.
  - unfold node_key_value_idx. cbn [enter]. cbn zeta. apply (nkv_finishes (recover st) (find_idx next_key i)); auto. now apply idx_finishes.
  - unfold key_value_idx. cbn [enter]. cbn zeta.
    assert (K : node_idx false i (recover st) <> Hang) by (unfold node_idx; cbn zeta; apply or_restore_finishes; now apply idx_finishes).
    destruct (node_idx false i (recover st)) as [[q|] st'| |]; try discriminate; auto. apply or_restore_finishes.
    unfold node_key_value_idx. cbn zeta. apply (nkv_finishes (enter false st') (find_idx next_key j)); auto. now apply idx_finishes.
  - unfold last_node. cbn [enter]. apply (last_finishes w); auto. lia.
  - discriminate.
Qed.
Print Assumptions C26_finishes.
(** A key looked for by its name in a node with a position is looked for forever. *)
Theorem C26_finishes_refuted : exists w c, Forall (fun x => x <> 0) w /\ forall f, exec f true c (memory w) = Hang.
Proof.
  exists (s "/m:a[1]"), (CNodeKey (s "k")). split; [vm_compute; repeat (constructor; [discriminate|]); constructor|]. intros f. cbn [exec].
  unfold node_key_value. cbn zeta.
  set (old := enter true (memory (s "/m:a[1]"))).
  assert (E : forall k, to_current old k = k (mk (s "/m:a[1]" ++ [0]) (Some 3) 3 (at_ (s "/m:a[1]" ++ [0]) 3))) by (intros k; vm_compute; reflexivity).
  rewrite E. set (st := mk (s "/m:a[1]" ++ [0]) (Some 3) 3 (at_ (s "/m:a[1]" ++ [0]) 3)).
  assert (H : find f next_key (s "k") st = Hang).
  { induction f as [|f IH]; [reflexivity|]. cbn [find]. assert (N : next_key false st = Ret (Some 5) st) by (vm_compute; reflexivity). rewrite N.
    assert (Q : str_eqb (s "k") (cstr (buf st) 5) = false) by (vm_compute; reflexivity). rewrite Q. exact IH. }
  now rewrite H.
Qed.

(** ** Paths *)
Lemma text_app a b : text (a ++ b) = text a ++ text b.
Proof. unfold text. now rewrite map_app, concat_app. Qed.
Lemma tokens_text p : text (tokens p) = print p.
Proof.
  induction p as [|n p IH]; [reflexivity|]. unfold tokens, print in *. cbn [map concat]. rewrite text_app, IH. f_equal.
  unfold node_tokens, print_node. rewrite text_cons. cbn [tok_text app]. f_equal. f_equal.
  induction (p_keys n) as [|k ks IHk]; [reflexivity|]. cbn [map concat app]. rewrite !text_cons, IHk. unfold print_key. cbn [tok_text app].
  rewrite <- !app_assoc. cbn [app]. rewrite <- app_assoc. reflexivity.
Qed.
Lemma tokens_good p : Forall good_pnode p -> good_toks (tokens p).
Proof.
  assert (K : forall ks l, Forall good_key ks -> good_toks l -> good_toks (concat (map (fun k => [TKey (k_name k); TVal (k_quote k) (k_value k)]) ks) ++ l)).
  { induction ks as [|k ks IH]; intros l F G; [exact G|]. inversion F as [|? ? (A & B & C) F']; subst. cbn [map concat app good_toks].
    split; [exact A|]. split; [exact I|]. split; [split; auto|]. split; [exact I|]. apply IH; auto. }
  induction p as [|n p IH]; intros F; [exact I|]. inversion F as [|? ? (A & B & C) F']; subst. unfold tokens. cbn [map concat]. unfold node_tokens at 1. cbn [app].
  cbn [good_toks]. split; [split; auto|]. split.
  - destruct (p_keys n) as [|k ks]; cbn [map concat app]; [|exact I]. destruct p as [|n' p]; exact I.
  - apply K; auto.
Qed.
Lemma good_nonzero p : Forall good_pnode p -> Forall (fun c => c <> 0) (text (tokens p)).
Proof.
  intros F. apply tokens_good in F. induction (tokens p) as [|t l IH]; [constructor|]. apply good_cons in F as [Gt G]. rewrite text_cons. apply Forall_app. split; [|auto].
  destruct t as [ns n|k|q v].
  - cbn [tok_text]. constructor; [discriminate|]. apply plain_nonzero. now apply label_plain.
  - cbn [tok_text]. constructor; [discriminate|]. apply plain_nonzero. eapply Forall_impl; [|exact Gt]. apply kname_plain.
  - cbn [tok_text]. destruct Gt as [Q Fv]. assert (q <> 0) by (destruct Q as [-> | ->]; discriminate).
    constructor; [discriminate|]. constructor; [auto|]. apply Forall_app. split; [|constructor; [auto|constructor; [discriminate|constructor]]].
    eapply Forall_impl; [|exact Fv]. intros c [Z _]. exact Z.
Qed.

(** Any calls for any path have the results of the cursor of the specification, and the path is got back. *)
Theorem C26_cursor p f cs rs a : Forall good_pnode p -> length (print p) < f ->
  steps p cs (At (tokens p) NoCur) = Some (rs, a) ->
  exists st, run f cs (given (print p)) = Some (rs, st) /\ buf (recover st) = print p ++ [0].
Proof.
  intros G F S1. pose proof (tokens_good p G) as Gt. pose proof (good_nonzero p G) as Hw.
  assert (K : forall cs a0 st0 rs a, rel p a0 st0 -> steps p cs a0 = Some (rs, a) -> exists st, run f cs st0 = Some (rs, st) /\ rel p a st).
  { clear - Gt Hw F. induction cs as [|c cs IH]; intros a0 st0 rs a R S1; cbn [steps run] in *.
    - injection S1 as <- <-. exists st0. auto.
    - destruct (step p c a0) as [[o a1]|] eqn:E; [|discriminate S1]. destruct (steps p cs a1) as [[rs1 a2]|] eqn:E2; [|discriminate S1]. injection S1 as <- <-.
      assert (Hf : length (text (tokens p) ++ [0]) <= f) by (rewrite tokens_text, app_length; cbn [length]; lia).
      pose proof (exec_step p Gt Hw f Hf c a0 st0 o a1 R E) as H. destruct o as [x|].
      + apply got_some in H as (i & st' & -> & R' & C). destruct (IH a1 st' rs1 a2 R' E2) as (st & -> & R2). exists st. cbn [option_map]. rewrite C. auto.
      + apply got_none in H as (st' & -> & C). destruct (IH a1 st' rs1 a2 (crel_rel p _ _ C) E2) as (st & -> & R2). exists st. auto. }
  destruct (K cs (At (tokens p) NoCur) (given (print p)) rs a) as (st & R & Rl); [|exact S1|].
  - apply crel_rel. rewrite <- tokens_text. apply (start_all p Gt Hw (given (text (tokens p)))). now apply given_clean.
  - exists st. split; [exact R|]. destruct Rl as ((B & _) & _). rewrite tokens_text in B. exact B.
Qed.
Print Assumptions C26_cursor.

(** Walking all of a path: node names with their keys and values, in order, each node ended by no more keys. *)
Definition walk (p : list pnode) : list call :=
  concat (map (fun n => CNode :: concat (map (fun _ => [CKey; CVal]) (p_keys n)) ++ [CKey]) p) ++ [CNode].
Definition walked (p : list pnode) : list (option str) :=
  concat (map (fun n => Some (p_name n) :: concat (map (fun k => [Some (k_name k); Some (k_value k)]) (p_keys n)) ++ [None]) p) ++ [None].
Lemma steps_app p cs1 : forall cs2 a rs1 a1 rs2 a2, steps p cs1 a = Some (rs1, a1) -> steps p cs2 a1 = Some (rs2, a2) -> steps p (cs1 ++ cs2) a = Some (rs1 ++ rs2, a2).
Proof.
  induction cs1 as [|c cs1 IH]; intros cs2 a rs1 a1 rs2 a2 H1 H2; cbn [steps app] in *; [injection H1 as <- <-; exact H2|].
  destruct (step p c a) as [[r a']|]; [|discriminate H1]. destruct (steps p cs1 a') as [[rs a'']|] eqn:E; [|discriminate H1]. injection H1 as <- <-.
  now rewrite (IH cs2 a' rs a'' rs2 a2 E H2).
Qed.
Theorem C26_walk p f : Forall good_pnode p -> length (print p) < f ->
  exists st, run f (walk p) (given (print p)) = Some (walked p, st) /\ buf (recover st) = print p ++ [0].
Proof.
  intros G F.
  assert (K : forall q cu, exists a, steps p (walk q) (At (tokens q) cu) = Some (walked q, a)).
  { clear. unfold walk, walked, tokens. induction q as [|n q IH]; intros cu.
    - eexists. reflexivity.
    - cbn [map concat]. set (l := concat (map node_tokens q)) in *. rewrite <- !app_assoc.
      assert (N : exists cu', steps p (CNode :: concat (map (fun _ => [CKey; CVal]) (p_keys n)) ++ [CKey]) (At (node_tokens n ++ l) cu) =
                Some (Some (p_name n) :: concat (map (fun k => [Some (k_name k); Some (k_value k)]) (p_keys n)) ++ [None], At l cu')).
      { unfold node_tokens. cbn [app steps step ahead to_node]. set (cu' := Cur _ _). clearbody cu'. exists cu'.
        assert (E : steps p (concat (map (fun _ => [CKey; CVal]) (p_keys n)) ++ [CKey]) (At (concat (map (fun k => [TKey (k_name k); TVal (k_quote k) (k_value k)]) (p_keys n)) ++ l) cu') =
                    Some (concat (map (fun k => [Some (k_name k); Some (k_value k)]) (p_keys n)) ++ [None], At l cu')).
        { induction (p_keys n) as [|k ks IHk].
          - cbn [map concat app steps step ahead]. assert (E0 : to_key l = None) by (unfold l; destruct q; reflexivity). now rewrite E0.
          - cbn [map concat app steps step ahead to_key to_val current]. rewrite IHk. reflexivity. }
        now rewrite E. }
      destruct N as (cu' & N). destruct (IH cu') as (a & IHa). exists a.
      apply (steps_app p (CNode :: _ ++ [CKey])) with (a1 := At l cu'); [exact N|exact IHa]. }
  destruct (K p NoCur) as (a & E). apply (C26_cursor p f (walk p) (walked p) a G F E).
Qed.
Print Assumptions C26_walk.

(** ** The last node of a path, sr_xpath_node_name() *)
Definition passb (x : str) : Prop := forall pre post, pre <> [] -> back (pre ++ x ++ post) None (length pre + length x - 1) = back (pre ++ x ++ post) None (length pre - 1).
Lemma passb_app x y : passb x -> passb y -> passb (x ++ y).
Proof.
  intros X Y pre post N. specialize (X pre (y ++ post) N). specialize (Y (pre ++ x) post). rewrite <- (app_assoc pre x (y ++ post)) in Y.
  rewrite <- (app_assoc x y post), !app_length, Nat.add_assoc in *. rewrite Y; [exact X|]. destruct pre; [contradiction|discriminate].
Qed.
Lemma passb_nil : passb [].
Proof. intros pre post N. cbn [length]. now rewrite Nat.add_0_r. Qed.
Lemma at_mid pre c (post : str) : at_ (pre ++ c :: post) (length pre) = c.
Proof. unfold at_. rewrite app_nth2, Nat.sub_diag by lia. reflexivity. Qed.
Lemma back_step q pre c post : pre <> [] ->
  back (pre ++ c :: post) q (length pre) =
  match q with
  | None => if Nat.eqb c c_slash then length pre else back (pre ++ c :: post) (if quote c then Some c else None) (length pre - 1)
  | Some x => back (pre ++ c :: post) (if Nat.eqb c x then None else q) (length pre - 1)
  end.
Proof.
  intros N. pose proof (at_mid pre c post) as A. destruct (length pre) as [|m] eqn:L; [destruct pre; [contradiction|discriminate L]|].
  cbn [back]. rewrite A. replace (S m - 1) with m by lia. destruct q; reflexivity.
Qed.
Lemma passb_char c : c <> c_slash -> quote c = false -> passb [c].
Proof.
  intros S1 Q pre post N. cbn [length app]. replace (length pre + 1 - 1) with (length pre) by lia. rewrite back_step by auto.
  apply Nat.eqb_neq in S1. now rewrite S1, Q.
Qed.
Lemma passb_chars x : Forall (fun c => c <> c_slash /\ quote c = false) x -> passb x.
Proof. induction 1 as [|c x [A B] F IH]; [apply passb_nil|]. apply (passb_app [c] x); auto. now apply passb_char. Qed.
Lemma passb_plain x : Forall plain x -> passb x.
Proof. intros F. apply passb_chars. eapply Forall_impl; [|exact F]. intros c P. split; [apply P|now apply quote_false]. Qed.
Lemma back_in q v : Forall (fun c => c <> 0 /\ c <> q) v -> forall pre post, pre <> [] ->
  back (pre ++ v ++ post) (Some q) (length pre + length v - 1) = back (pre ++ v ++ post) (Some q) (length pre - 1).
Proof.
  induction v as [|c v IH]; intros F pre post N; cbn [length app]; [now rewrite Nat.add_0_r|]. inversion F as [|? ? [_ Q] F']; subst.
  specialize (IH F' (pre ++ [c]) post). rewrite <- app_assoc in IH. cbn [app] in IH. rewrite app_length in IH. cbn [length] in IH.
  replace (length pre + S (length v) - 1) with (length pre + 1 + length v - 1) by lia. rewrite IH by (destruct pre; discriminate).
  replace (length pre + 1 - 1) with (length pre) by lia. rewrite back_step by auto. apply Nat.eqb_neq in Q. now rewrite Q.
Qed.
Lemma passb_val q v : good_tok (TVal q v) -> passb (tok_text (TVal q v)).
Proof.
  intros [Q F]. cbn [tok_text].
  replace (c_eq :: q :: v ++ [q; c_rbr]) with ([c_eq] ++ (q :: v ++ [q]) ++ [c_rbr]) by (cbn [app]; rewrite <- app_assoc; reflexivity).
  apply passb_app; [apply passb_char; [discriminate|reflexivity]|]. apply passb_app; [|apply passb_char; [discriminate|reflexivity]].
  intros pre post N. cbn [length app]. rewrite <- app_assoc. cbn [app]. rewrite app_length. cbn [length].
  assert (E1 : pre ++ q :: v ++ q :: post = (pre ++ q :: v) ++ q :: post) by now rewrite <- app_assoc.
  assert (Ns : (pre ++ q :: v) <> []) by (destruct pre; discriminate).
  pose proof (back_step None (pre ++ q :: v) q post Ns) as B1. rewrite <- E1 in B1. rewrite app_length in B1. cbn [length] in B1.
  replace (length pre + S (length v + 1) - 1) with (length pre + S (length v)) by lia. rewrite B1.
  assert (Qs : Nat.eqb q c_slash = false) by (destruct Q as [-> | ->]; reflexivity). assert (Qq : quote q = true) by (destruct Q as [-> | ->]; reflexivity).
  rewrite Qs, Qq. pose proof (back_in q v F (pre ++ [q]) (q :: post)) as B2. rewrite <- app_assoc in B2. cbn [app] in B2. rewrite app_length in B2. cbn [length] in B2.
  replace (length pre + S (length v) - 1) with (length pre + 1 + length v - 1) by lia. rewrite B2 by (destruct pre; discriminate).
  replace (length pre + 1 - 1) with (length pre) by lia. rewrite back_step by auto. now rewrite Nat.eqb_refl.
Qed.
Lemma passb_node n : good_pnode n -> passb (print_node n).
Proof.
  intros (A & B & C). unfold print_node. apply passb_app; [apply passb_plain; apply label_plain; split; auto|].
  induction C as [|k ks (K1 & K2 & K3) C IH]; [apply passb_nil|]. cbn [map concat]. apply passb_app; [|exact IH]. unfold print_key.
  change (passb ((c_lbr :: k_name k) ++ tok_text (TVal (k_quote k) (k_value k)))). apply passb_app; [|apply passb_val; split; auto].
  apply passb_chars. constructor; [split; [discriminate|reflexivity]|]. eapply Forall_impl; [|exact K1]. intros c P. apply kname_plain in P.
  split; [apply P|now apply quote_false].
Qed.
Theorem C26_node_name p n : p <> [] -> Forall good_pnode (p ++ [n]) ->
  exists i, node_name (print (p ++ [n]) ++ [0]) = Some (Some i) /\ cstr (print (p ++ [n]) ++ [0]) i = print_node n.
Proof.
  intros Np G. pose proof (good_nonzero _ G) as Z. rewrite tokens_text in Z. pose proof (proj2 (proj1 (Forall_app _ _ _) G)) as Gn. inversion Gn as [|? ? Gn' _]; subst.
  assert (E : print (p ++ [n]) = print p ++ c_slash :: print_node n).
  { unfold print. rewrite map_app, concat_app. cbn [map concat]. now rewrite app_nil_r. }
  rewrite E in *. assert (Lp : print p <> []) by (destruct p as [|x p]; [contradiction|discriminate]).
  unfold node_name. rewrite zstr_app by exact Z. rewrite app_length. cbn [length].
  replace (length (print p) + S (length (print_node n))) with (S (length (print p) + length (print_node n))) by lia.
  pose proof (passb_node n Gn' (print p ++ [c_slash]) [0]) as B. rewrite <- !app_assoc in *. cbn [app] in *. rewrite app_length in B. cbn [length] in B.
  replace (length (print p) + 1 + length (print_node n) - 1) with (length (print p) + length (print_node n)) in B by lia.
  rewrite B by (destruct (print p); discriminate). replace (length (print p) + 1 - 1) with (length (print p)) by lia. rewrite back_step by auto.
  rewrite Nat.eqb_refl. destruct (length (print p)) as [|m] eqn:L; [destruct (print p); [contradiction|discriminate L]|].
  exists (S (S m)). split; [reflexivity|]. apply cstr_at with (t := []); [apply Forall_app in Z as [_ Z]; now inversion Z|].
  replace (S (S m)) with (length (print p) + 1) by lia. rewrite skipn_app, skipn_all2 by lia. replace (length (print p) + 1 - length (print p)) with 1 by lia. reflexivity.
Qed.
Print Assumptions C26_node_name.
(** Not for a path of one node, although it has a slash, and memory before the empty string is read. *)
Theorem C26_node_name_refuted : (exists n, good_pnode n /\ node_name (print [n] ++ [0]) = Some None) /\ node_name (print [] ++ [0]) = None.
Proof.
  split; [|reflexivity]. exists (PNode (Some (s "m")) (s "node") []). split; [|vm_compute; reflexivity].
  unfold good_pnode, is_name, name_char. cbn [p_ns p_name p_keys]. split; [|split; [|constructor]]; (split; [discriminate|]); vm_compute;
    repeat (constructor; [repeat (split; [discriminate|]); discriminate|]); constructor.
Qed.

(** ** What searches that fail do *)
(** A node that is not found is documented as NULL; the last node is returned. *)
Theorem C26_node_rel_refuted : exists w n i st, exec 20 true (CFindRel n) (memory w) = Ret (Some i) st /\ cstr (buf st) i <> n.
Proof. exists (s "/m:a/m:b"), (s "x"). eexists _, _. split; [vm_compute; reflexivity|vm_compute; discriminate]. Qed.
(** A node that is not found changes the current node: its key is that of another node. *)
Theorem C26_current_refuted : exists w cs rs st, run 40 cs (given w) = Some (rs, st) /\
  cs = [CNode; CFind (s "x"); CNodeKey (s "k")] /\ rs = [Some (s "a"); None; Some (s "2")] /\ w = s "/m:a[k='1']/m:b[k='2']".
Proof. eexists _, _, _, _. split; [|auto]. vm_compute. reflexivity. Qed.
(** The name of a key is taken from another node if there is a position instead of a key. *)
Theorem C26_position_refuted : exists rs st, run 40 [CNode; CKey] (given (s "/m:a[1]/m:b[k='2']")) = Some (rs, st) /\ rs = [Some (s "a"); Some (s "1]/m:b[k")].
Proof. eexists _, _. split; [vm_compute; reflexivity|]. vm_compute. reflexivity. Qed.

(** ** Examples *)
Definition ex_path : list pnode :=
  [PNode (Some (s "m")) (s "cont") []; PNode None (s "list") [Key (s "k1") c_apos (s "a/b[c]"); Key (s "m:k2") c_quot (s "it's")]; PNode (Some (s "n")) (s "leaf") []].
Ltac chars := vm_compute; repeat (constructor; [first [repeat split; discriminate|right; repeat split; discriminate|left; reflexivity]|]); constructor.
Example C26_example_good : Forall good_pnode ex_path.
Proof.
  unfold ex_path. constructor; [|constructor; [|constructor; [|constructor]]]; (split; [|split]); cbn [p_ns p_name p_keys].
  - split; [discriminate|chars].
  - split; [discriminate|chars].
  - constructor.
  - exact I.
  - split; [discriminate|chars].
  - constructor; [|constructor; [|constructor]]; (split; [|split]); cbn [k_name k_quote k_value]; [chars|auto|chars|chars|auto|chars].
  - split; [discriminate|chars].
  - split; [discriminate|chars].
  - constructor.
Qed.
Example C26_example_walk : exists st, run 60 (walk ex_path) (given (s "/m:cont/list[k1='a/b[c]'][m:k2=""it's""]/n:leaf")) =
  Some ([Some (s "cont"); None; Some (s "list"); Some (s "k1"); Some (s "a/b[c]"); Some (s "m:k2"); Some (s "it's"); None; Some (s "leaf"); None; None], st).
Proof. eexists. vm_compute. reflexivity. Qed.
Example C26_example_search : exists st, run 60 [CKeyValue (s "list") (s "m:k2"); CFindIdx 1; CNodeKeyIdx 0; CNodeNs; CLast; CFind (s "x"); CNode]
  (given (print ex_path)) = Some ([Some (s "it's"); Some (s "list"); Some (s "a/b[c]"); Some (s "n:leaf"); Some (s "n:leaf"); None; None], st).
Proof. eexists. vm_compute. reflexivity. Qed.
