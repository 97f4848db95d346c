(** Proofs about the path helpers. *)
From Coq Require Import List Bool Arith Lia.
From Verif Require Import Xpath XpathSpec.
Import ListNotations.

(** ** Memory *)
Lemma upd_length b : forall i c, length (upd i c b) = length b.
Proof. induction b as [|x b IH]; intros [|i] c; cbn [upd length]; auto. Qed.
Lemma upd_same b : forall i c, at_ b i = c -> upd i c b = b.
Proof.
  unfold at_. induction b as [|x b IH]; intros [|i] c H; cbn [upd nth] in *; auto; [now subst|]. now rewrite IH.
Qed.
Lemma upd_upd b : forall i c d, upd i c (upd i d b) = upd i c b.
Proof. induction b as [|x b IH]; intros [|i] c d; cbn [upd]; auto. now rewrite IH. Qed.
Lemma at_upd b : forall i c, i < length b -> at_ (upd i c b) i = c.
Proof. unfold at_. induction b as [|x b IH]; intros [|i] c H; cbn [upd nth length] in *; auto; try lia. apply IH. lia. Qed.
Lemma at_skip b : forall i a x t, skipn i b = a ++ x :: t -> at_ b (i + length a) = x.
Proof.
  intros i a x t H. unfold at_. rewrite <- (firstn_skipn i b), H.
  assert (L : i <= length b). { destruct (le_lt_dec i (length b)) as [|G]; auto. rewrite skipn_all2 in H by lia. destruct a; discriminate H. }
  rewrite app_nth2; rewrite firstn_length_le by lia; [|lia]. replace (i + length a - i) with (length a) by lia.
  rewrite app_nth2 by lia. now rewrite Nat.sub_diag.
Qed.
Lemma skip_lt (b : str) i a x t : skipn i b = a ++ x :: t -> i + length a < length b.
Proof.
  intros H. assert (E : length (skipn i b) = length b - i) by apply skipn_length. rewrite H, app_length in E. cbn [length] in E. lia.
Qed.
Lemma skip_add (b : str) i a t : skipn i b = a ++ t -> skipn (i + length a) b = t.
Proof.
  revert i. induction b as [|y b IH]; intros i H.
  - rewrite skipn_nil in *. destruct a; [cbn [app] in H; now rewrite H|discriminate H].
  - destruct i as [|i]; [|cbn [skipn Nat.add] in *; now apply IH].
    cbn [skipn] in H. rewrite H. cbn [Nat.add]. rewrite skipn_app, skipn_all, Nat.sub_diag. reflexivity.
Qed.
Lemma skip_upd b : forall i a x t c, skipn i b = a ++ x :: t -> skipn i (upd (i + length a) c b) = a ++ c :: t.
Proof.
  induction b as [|y b IH]; intros i a x t c H.
  - rewrite skipn_nil in H. destruct a; discriminate H.
  - destruct i as [|i].
    + cbn [skipn Nat.add] in *. revert y b IH H. induction a as [|z a IHa]; intros y b IH H; cbn [app length upd] in *.
      * injection H as -> ->. reflexivity.
      * injection H as -> H. f_equal. destruct b as [|y' b]; [destruct a; discriminate H|]. apply IHa; auto.
        intros i a' x' t' c' H'. specialize (IH (S i) a' x' t' c'). cbn [skipn] in IH. now apply IH.
    + cbn [skipn Nat.add upd] in *. now apply IH with (x := x).
Qed.
Lemma zstr_app a t : Forall (fun c => c <> 0) a -> zstr (a ++ 0 :: t) = a.
Proof.
  induction a as [|c a IH]; intros F; cbn [app zstr Nat.eqb]; [reflexivity|]. inversion F; subst.
  destruct (Nat.eqb_spec c 0); [contradiction|]. now rewrite IH.
Qed.
Lemma cstr_at b i a t : Forall (fun c => c <> 0) a -> skipn i b = a ++ 0 :: t -> cstr b i = a.
Proof. intros F H. unfold cstr. rewrite H. now apply zstr_app. Qed.
Lemma str_eqb_dec a : forall b, str_eqb a b = if eq_dec a b then true else false.
Proof.
  induction a as [|x a IH]; intros [|y b]; cbn [str_eqb]; try reflexivity.
  rewrite IH. destruct (Nat.eqb_spec x y) as [->|N]; cbn [andb].
  - destruct (eq_dec a b) as [->|N]; [destruct (eq_dec (y :: b) (y :: b)); congruence|].
    destruct (eq_dec (y :: a) (y :: b)) as [E|_]; [congruence|reflexivity].
  - destruct (eq_dec (x :: a) (y :: b)) as [E|_]; [congruence|reflexivity].
Qed.

(** ** Loops over characters of any string *)
Lemma scan_some stop l : In 0 l -> exists a x t, scan stop l = Some (length a) /\ l = a ++ x :: t /\ (x = 0 \/ stop x = true) /\ (forall y, In y a -> y <> 0 /\ stop y = false).
Proof.
  induction l as [|c l IH]; intros H; [destruct H|]. cbn [scan].
  destruct (Nat.eqb_spec c 0) as [->|N]; cbn [orb].
  - exists [], 0, l. split; [reflexivity|]. split; [reflexivity|]. split; [auto|]. intros y [].
  - destruct (stop c) eqn:E.
    + exists [], c, l. split; [reflexivity|]. split; [reflexivity|]. split; [auto|]. intros y [].
    + destruct H as [->|H]; [contradiction|]. destruct (IH H) as (a & x & t & S1 & -> & X & F). exists (c :: a), x, t.
      rewrite S1. split; [reflexivity|]. split; [reflexivity|]. split; [auto|]. intros y [<-|Hy]; auto.
Qed.
Lemma scanq_some stop l : forall q, In 0 l -> exists a x t, scanq q stop l = Some (length a) /\ l = a ++ x :: t /\ (x = 0 \/ stop x = true) /\ (forall y, In y a -> y <> 0).
Proof.
  induction l as [|c l IH]; intros q H; [destruct H|]. cbn [scanq].
  destruct (Nat.eqb_spec c 0) as [->|N]; cbn [orb].
  - exists [], 0, l. split; [reflexivity|]. split; [reflexivity|]. split; [auto|]. intros y [].
  - destruct (match q with None => stop c | Some _ => false end) eqn:E.
    + exists [], c, l. split; [reflexivity|]. split; [reflexivity|]. split; [|intros y []]. destruct q; [discriminate E|auto].
    + destruct H as [->|H]; [contradiction|].
      destruct (IH (match q with Some x => if Nat.eqb c x then None else q | None => if quote c then Some c else None end) H) as (a & x & t & S1 & -> & X & F).
      exists (c :: a), x, t. rewrite S1. split; [reflexivity|]. split; [reflexivity|]. split; [auto|]. intros y [<-|Hy]; auto.
Qed.

(** ** The string is never lost *)
Section Any.
Variable w : str.
Hypothesis Hw : Forall (fun c => c <> 0) w.
Let orig := w ++ [0].
(** States of the helpers for the string [w]; [Clean]: without a zero put. *)
Definition inv (st : ctx) : Prop :=
  upd (rp st) (rc st) (buf st) = orig /\ rp st < length orig /\ match cur st with Some p => p < length orig | None => True end.
Definition clean (st : ctx) : Prop :=
  buf st = orig /\ at_ orig (rp st) = rc st /\ rp st < length orig /\ match cur st with Some p => p < length orig | None => True end.
Lemma clean_inv st : clean st -> inv st.
Proof. intros (B & R & L & C). split; [rewrite B; now apply upd_same|auto]. Qed.
Lemma inv_recover st : inv st -> clean (recover st).
Proof.
  intros (B & L & C). unfold recover. split; [exact B|]. cbn [buf rp rc cur]. split; [|auto]. rewrite <- B. apply at_upd.
  rewrite <- (upd_length (buf st) (rp st) (rc st)), B. exact L.
Qed.
Lemma orig_in i : i < length orig -> In 0 (skipn i orig).
Proof.
  unfold orig. rewrite app_length. cbn [length]. intros L. rewrite skipn_app. replace (i - length w) with 0 by lia.
  apply in_or_app. right. now left.
Qed.
Lemma orig_zero i : i < length orig -> at_ orig i = 0 -> i = length w.
Proof.
  unfold orig, at_. rewrite app_length. cbn [length]. intros L Z. destruct (Nat.eq_dec i (length w)); auto. exfalso.
  rewrite app_nth1 in Z by lia. pose proof (proj1 (Forall_forall _ w) Hw (nth i w 0)) as F. apply F; auto. apply nth_In. lia.
Qed.
Lemma orig_next i : i < length orig -> at_ orig i <> 0 -> S i < length orig.
Proof.
  intros L N. destruct (Nat.eq_dec (S i) (length orig)) as [E|]; [|lia]. exfalso. apply N. unfold orig, at_ in *. rewrite app_length in *.
  cbn [length] in *. rewrite app_nth2 by lia. replace (i - length w) with 0 by lia. reflexivity.
Qed.
Lemma start_lt st : clean st -> rp st <= start st < length orig.
Proof.
  intros (B & R & L & C). unfold start. destruct (quote (rc st)) eqn:Q; [|lia]. split; [lia|]. apply orig_next; auto. rewrite R. intros Z. rewrite Z in Q. discriminate Q.
Qed.

Definition good (P : ctx -> Prop) (r : res) : Prop := exists p st', r = Ret p st' /\ inv st' /\ P st' /\ match p with Some i => i < length orig | None => clean st' end.
(** A step forward, or nothing. *)
Lemma scan_pos stop i : i < length orig -> exists k, scan stop (skipn i orig) = Some k /\ i + k < length orig /\ (at_ orig (i + k) = 0 \/ stop (at_ orig (i + k)) = true).
Proof.
  intros L. destruct (scan_some stop _ (orig_in i L)) as (a & x & t & S1 & E & X & F). exists (length a). split; [auto|].
  split; [now apply (skip_lt orig i a x t)|]. now rewrite (at_skip orig i a x t E).
Qed.
Lemma scanq_pos stop i : i < length orig -> exists k, scanq None stop (skipn i orig) = Some k /\ i + k < length orig /\ (at_ orig (i + k) = 0 \/ stop (at_ orig (i + k)) = true).
Proof.
  intros L. destruct (scanq_some stop _ None (orig_in i L)) as (a & x & t & S1 & E & X & F). exists (length a). split; [auto|].
  split; [now apply (skip_lt orig i a x t)|]. now rewrite (at_skip orig i a x t E).
Qed.
Lemma put_inv i c p : i < length orig -> match p with Some q => q < length orig | None => True end -> c = at_ orig i -> inv (mk (upd i 0 orig) p i c).
Proof. intros L C ->. split; cbn [buf rp rc cur]; [|auto]. rewrite upd_upd. now apply upd_same. Qed.

Lemma node_any skip st : clean st -> exists p st', node_body skip st = Ret p st' /\ inv st' /\
  match p with Some i => i < length orig /\ rp st < rp st' /\ cur st' = Some i | None => st' = st end.
Proof.
  intros C. pose proof (start_lt st C) as SL. destruct C as (B & R & L & Cu). unfold node_body. rewrite B.
  destruct (scanq_pos (Nat.eqb c_slash) (start st) (proj2 SL)) as (k & -> & L1 & _). cbn zeta.
  destruct (Nat.eqb_spec (at_ orig (start st + k)) 0) as [Z|Z].
  - exists None, st. split; [reflexivity|]. split; [|reflexivity]. apply clean_inv. split; auto.
  - pose proof (orig_next _ L1 Z) as L2.
    destruct (scan_pos (fun c => Nat.eqb c c_slash || Nat.eqb c c_colon || Nat.eqb c c_lbr) _ L2) as (k2 & -> & L3 & _).
    set (j := S (start st + k) + k2) in *.
    destruct (Nat.eqb_spec (at_ orig j) c_colon) as [K|K].
    + assert (LJ : S j < length orig) by (apply orig_next; [auto|rewrite K; discriminate]).
      destruct skip.
      * destruct (scan_pos (fun c => Nat.eqb c c_slash || Nat.eqb c c_lbr) _ LJ) as (k3 & -> & L5 & _).
        eexists _, _. split; [reflexivity|]. split; [apply put_inv; auto|]. cbn [rp cur]. split; [auto|]. split; [unfold j; lia|reflexivity].
      * destruct (scan_pos (fun c => Nat.eqb c c_slash || Nat.eqb c c_lbr) _ L3) as (k3 & -> & L5 & _).
        eexists _, _. split; [reflexivity|]. split; [apply put_inv; auto|]. cbn [rp cur]. split; [auto|]. split; [unfold j; lia|reflexivity].
    + eexists _, _. split; [reflexivity|]. split; [apply put_inv; auto|]. cbn [rp cur]. split; [auto|]. split; [unfold j; lia|reflexivity].
Qed.
Lemma key_any st : clean st -> exists p st', key_body st = Ret p st' /\ inv st' /\ cur st' = cur st /\
  match p with Some i => i < length orig | None => st' = st end.
Proof.
  intros C. pose proof (start_lt st C) as SL. pose proof C as (B & R & L & Cu). unfold key_body. rewrite B.
  destruct (scanq_pos (fun c => Nat.eqb c c_lbr || Nat.eqb c c_slash) (start st) (proj2 SL)) as (k & -> & L1 & _). cbn zeta.
  destruct (Nat.eqb_spec (at_ orig (start st + k)) 0) as [Z|Z]; cbn [orb].
  { exists None, st. split; [reflexivity|]. split; [|auto]. now apply clean_inv. }
  destruct (Nat.eqb (at_ orig (start st + k)) c_slash).
  { exists None, st. split; [reflexivity|]. split; [|auto]. now apply clean_inv. }
  pose proof (orig_next _ L1 Z) as L2.
  destruct (scan_pos (Nat.eqb c_eq) _ L2) as (k2 & -> & L3 & _).
  destruct (Nat.eqb (at_ orig (S (start st + k) + k2)) c_eq).
  - eexists _, _. split; [reflexivity|]. split; [apply put_inv; auto|]. auto.
  - eexists _, _. split; [reflexivity|]. split; [now apply clean_inv|]. auto.
Qed.
Lemma val_any st : clean st -> exists p st', val_body st = Ret p st' /\ inv st' /\ cur st' = cur st /\
  match p with Some i => i < length orig | None => st' = st end.
Proof.
  intros C. pose proof (start_lt st C) as SL. pose proof C as (B & R & L & Cu). unfold val_body. rewrite B.
  destruct (scan_pos (fun c => quote c || Nat.eqb c c_slash) (start st) (proj2 SL)) as (k & -> & L1 & _). cbn zeta.
  destruct (Nat.eqb_spec (at_ orig (start st + k)) 0) as [Z|Z]; cbn [orb].
  { exists None, st. split; [reflexivity|]. split; [|auto]. now apply clean_inv. }
  destruct (Nat.eqb (at_ orig (start st + k)) c_slash).
  { exists None, st. split; [reflexivity|]. split; [|auto]. now apply clean_inv. }
  pose proof (orig_next _ L1 Z) as L2.
  destruct (scan_pos (Nat.eqb (at_ orig (start st + k))) _ L2) as (k2 & -> & L3 & _).
  destruct (Nat.eqb (at_ orig (S (start st + k) + k2)) (at_ orig (start st + k))).
  - eexists _, _. split; [reflexivity|]. split; [apply put_inv; auto|]. auto.
  - eexists _, _. split; [reflexivity|]. split; [now apply clean_inv|]. auto.
Qed.

(** A call that is safe: it does not leave the memory and keeps the string; it may not finish. *)
Definition safe (r : res) : Prop :=
  match r with
  | Ret p st' => inv st' /\ match p with Some i => i < length orig | None => clean st' end
  | Bad => False
  | Hang => True
  end.
Definition safe_next (next : bool -> ctx -> res) : Prop := forall st, inv st -> safe (next false st).
Lemma safe_node skip : safe_next (fun f st => node_body skip (enter f st)).
Proof.
  intros st I. apply inv_recover in I. destruct (node_any skip (recover st) I) as (p & st' & E & I' & H). cbn [enter]. rewrite E. cbn [safe].
  split; [auto|]. destruct p; [apply H|now subst].
Qed.
Lemma safe_key : safe_next next_key.
Proof.
  intros st I. apply inv_recover in I. destruct (key_any (recover st) I) as (p & st' & E & I' & _ & H). unfold next_key. cbn [enter]. rewrite E. cbn [safe].
  split; [auto|]. destruct p; [apply H|now subst].
Qed.
Lemma safe_val : safe_next next_val.
Proof.
  intros st I. apply inv_recover in I. destruct (val_any (recover st) I) as (p & st' & E & I' & _ & H). unfold next_val. cbn [enter]. rewrite E. cbn [safe].
  split; [auto|]. destruct p; [apply H|now subst].
Qed.
Lemma safe_find f next name : safe_next next -> forall st, inv st -> safe (find f next name st).
Proof.
  intros N. induction f as [|f IH]; intros st I; cbn [find]; [exact Logic.I|]. pose proof (N st I) as H.
  destruct (next false st) as [[p|] st'| |]; auto. destruct (str_eqb name (cstr (buf st') p)); auto. apply IH. apply H.
Qed.
Lemma safe_find_idx next i : safe_next next -> forall st, inv st -> safe (find_idx next i st).
Proof.
  intros N. induction i as [|i IH]; intros st I; cbn [find_idx]; pose proof (N st I) as H;
    destruct (next false st) as [[p|] st'| |]; auto. apply IH. apply H.
Qed.
Lemma clean_restore old st : clean old -> clean st -> clean (restore old st).
Proof. intros (B & R & L & C) (B' & R' & L' & C'). unfold restore. split; [exact B'|]. cbn [rp rc cur]. auto. Qed.
Lemma safe_or_restore old r : clean old -> safe r -> safe (or_restore old r).
Proof.
  intros C S1. destruct r as [[p|] st| |]; cbn [or_restore]; auto. cbn [safe] in *. destruct S1 as [_ S1].
  pose proof (clean_restore old st C S1) as K. split; [now apply clean_inv|auto].
Qed.
Lemma clean_start st : clean st -> clean (from_start st).
Proof.
  intros (B & R & L & C). unfold from_start. split; [exact B|]. cbn [rp rc cur]. rewrite B. split; [reflexivity|]. split; [lia|exact Logic.I].
Qed.
Lemma clean_at st p : clean st -> p < length orig -> forall c, (match c with Some q => q < length orig | None => True end) -> clean (mk (buf st) c p (at_ (buf st) p)).
Proof. intros (B & R & L & C) P c Hc. split; [exact B|]. cbn [rp rc cur]. rewrite B. auto. Qed.
Lemma safe_to_current st k : clean st -> (forall s, clean s -> safe (k s)) -> safe (to_current st k).
Proof.
  intros C K. unfold to_current. pose proof C as (B & R & L & Cu). destruct (cur st) as [p|] eqn:E; cbn zeta.
  - apply K. apply clean_at; auto.
  - pose proof (clean_inv st C) as I. apply inv_recover in I. destruct (node_any true (recover st) I) as (p & st' & E1 & I1 & H).
    unfold next_node. cbn [enter]. rewrite E1. destruct p as [p|].
    + destruct H as (Lp & _ & Cp). apply inv_recover in I1. assert (Cr : cur (recover st') = Some p) by exact Cp. rewrite Cr. apply K. now apply clean_at.
    + apply inv_recover in I1. cbn [safe]. split; [now apply clean_inv|auto].
Qed.
Lemma safe_last f : forall st, inv st -> safe (last_loop f st).
Proof.
  induction f as [|f IH]; intros st I; cbn [last_loop]; [exact Logic.I|].
  pose proof (safe_node true st I) as H. unfold next_node. destruct (node_body true (enter false st)) as [[p|] st'| |]; auto.
  - apply IH. apply H.
  - cbn [safe] in *. destruct H as [I' C]. split; [auto|]. destruct (cur st') as [q|] eqn:E; [|auto]. destruct C as (_ & _ & _ & C). now rewrite E in C.
Qed.

(** Any call. *)
Definition exec (f : nat) (fresh : bool) (c : call) (st : ctx) : res :=
  match c with
  | CNode => next_node fresh st
  | CNodeNs => next_node_ns fresh st
  | CKey => next_key fresh st
  | CVal => next_val fresh st
  | CFind n => node f fresh n st
  | CFindIdx i => node_idx fresh i st
  | CFindRel n => node_rel f fresh n st
  | CFindIdxRel i => node_idx_rel fresh i st
  | CNodeKey k => node_key_value f fresh k st
  | CNodeKeyIdx i => node_key_value_idx fresh i st
  | CKeyValue n k => key_value f fresh n k st
  | CKeyValueIdx i j => key_value_idx fresh i j st
  | CLast => last_node f fresh st
  | CRecover => Ret None (recover st)
  end.
Lemma find_cur f name : forall st p st', inv st -> find f next_node name st = Ret (Some p) st' -> cur st' = Some p.
Proof.
  induction f as [|f IH]; intros st p st' I; cbn [find]; [discriminate|]. pose proof (inv_recover st I) as C.
  destruct (node_any true _ C) as (q & s1 & E & I1 & H). unfold next_node at 1. cbn [enter]. rewrite E. destruct q as [q|]; [|discriminate].
  destruct (str_eqb name (cstr (buf s1) q)).
  - intros X. injection X as <- <-. now destruct H as (_ & _ & ->).
  - now apply IH.
Qed.
Lemma enter_clean st : inv st -> forall c, c = enter false st -> clean c.
Proof. intros I c ->. now apply inv_recover. Qed.
Lemma safe_nkv find : (forall s, inv s -> safe (find s)) -> forall old, clean old ->
  safe (to_current old (fun s => match find s with Ret (Some _) st' => next_val false st' | r => or_restore old r end)).
Proof.
  intros F old C. apply safe_to_current; [auto|]. intros s Cs. pose proof (F s (clean_inv s Cs)) as H.
  destruct (find s) as [[p|] st'| |].
  - apply safe_val. apply H.
  - now apply safe_or_restore.
  - destruct H.
  - exact Logic.I.
Qed.
Lemma exec_safe f c st : inv st -> safe (exec f false c st).
Proof.
  intros I. pose proof (inv_recover st I) as C.
  assert (NK : forall k s, inv s -> safe (node_key_value f false k s)).
  { intros k s Is. unfold node_key_value. cbn [enter]. apply safe_nkv; [|now apply inv_recover].
    intros s1 I1. now apply safe_find; [apply safe_key|]. }
  assert (NKI : forall k s, inv s -> safe (node_key_value_idx false k s)).
  { intros k s Is. unfold node_key_value_idx. cbn [enter]. apply safe_nkv; [|now apply inv_recover].
    intros s1 I1. now apply safe_find_idx; [apply safe_key|]. }
  assert (ND : forall n s, inv s -> safe (node f false n s)).
  { intros n s Is. unfold node. cbn [enter]. apply safe_or_restore; [now apply inv_recover|].
    apply safe_find; [apply safe_node|]. apply clean_inv, clean_start. now apply inv_recover. }
  assert (NDI : forall n s, inv s -> safe (node_idx false n s)).
  { intros n s Is. unfold node_idx. cbn [enter]. apply safe_or_restore; [now apply inv_recover|].
    apply safe_find_idx; [apply safe_node|]. apply clean_inv, clean_start. now apply inv_recover. }
  destruct c; cbn [exec]; auto.
  - now apply safe_node.
  - now apply safe_node.
  - now apply safe_key.
  - now apply safe_val.
  - unfold node_rel. cbn [enter]. pose proof (safe_find f next_node n (safe_node true) _ (clean_inv _ C)) as H.
    destruct (find f next_node n (recover st)) as [p st'| |] eqn:F; auto. cbn [safe] in *. destruct H as [I' H].
    pose proof I' as (_ & _ & Cu). destruct (cur st') as [q|] eqn:E; [cbn [safe]; auto|]. cbn [safe].
    destruct p as [p|].
    + exfalso. apply find_cur in F; [congruence|now apply clean_inv].
    + pose proof (clean_restore _ _ C H) as K. split; [now apply clean_inv|auto].
  - unfold node_idx_rel. cbn [enter]. apply safe_or_restore; auto. apply safe_find_idx; [apply safe_node|]. now apply clean_inv.
  - unfold key_value. cbn [enter]. pose proof (ND n (recover st) (clean_inv _ C)) as H.
    destruct (node f false n (recover st)) as [[p|] st'| |]; auto. apply safe_or_restore; auto. apply NK. apply H.
  - unfold key_value_idx. cbn [enter]. pose proof (NDI i (recover st) (clean_inv _ C)) as H.
    destruct (node_idx false i (recover st)) as [[p|] st'| |]; auto. apply safe_or_restore; auto. apply NKI. apply H.
  - unfold last_node. cbn [enter]. apply safe_last. now apply clean_inv.
  - cbn [safe]. split; [now apply clean_inv|auto].
Qed.
End Any.
