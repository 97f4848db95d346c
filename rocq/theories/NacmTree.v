(** Reading and changing of whole trees: decisions about a node against those about its descendants. *)
From Coq Require Import List Bool Arith Lia.
From Verif Require Import Nacm NacmSpec NacmPath NacmDecide.
Import ListNotations.

(** ** Longer paths *)
Lemma upto_quote_app n s : forall v m, upto_quote n = Some (v, m) -> upto_quote (n ++ s) = Some (v, m ++ s).
Proof.
  induction n as [|c n IH]; intros v m; cbn [app upto_quote]; try discriminate.
  destruct (Nat.eqb c c_quote).
  - intros H. injection H as <- <-. reflexivity.
  - destruct (upto_quote n) as [[a b]|]; cbn [option_map]; try discriminate.
    intros H. injection H as <- <-. rewrite (IH a b eq_refl). reflexivity.
Qed.
Lemma skip_pred_app n s : forall q m, skip_pred q n = Some m -> skip_pred q (n ++ s) = Some (m ++ s).
Proof.
  induction n as [|c n IH]; intros q m; cbn [app skip_pred]; try discriminate.
  destruct q; [apply IH|]. destruct (Nat.eqb c c_rbr); [|apply IH]. intros H. now injection H as <-.
Qed.
Lemma AP_longer u s k : forall rp np r n, length n <= k ->
  (AP u rp np r n = MNo -> AP u rp np r (n ++ s) = MNo) /\ (AP u rp np r n = MFull -> AP u rp np r (n ++ s) = MFull).
Proof.
  induction k as [|k IH]; intros rp np r n Hk.
  - destruct n; cbn [length] in Hk; [|lia]. destruct r; [|split; discriminate]. rewrite !AP_nil. split; [discriminate|auto].
  - destruct r as [|rc rt]; [rewrite !AP_nil; split; [discriminate|auto]|].
    destruct n as [|nc nt]; [split; discriminate|]. cbn [app length] in *. rewrite !AP_step.
    destruct (Nat.eqb rc nc); [apply IH; lia|].
    destruct (_ && _ && (_ && _)).
    + destruct (after_user rt); [|split; [auto|discriminate]].
      destruct (upto_quote nt) as [[v m]|] eqn:E; [|split; discriminate].
      pose proof (upto_quote_length _ _ _ E) as L. rewrite (upto_quote_app _ s _ _ E).
      destruct (str_eqb u v); [|split; [auto|discriminate]]. apply IH. lia.
    + destruct (_ && _); [|split; [auto|discriminate]].
      destruct (skip_pred false (nc :: nt)) as [m|] eqn:E; [|split; discriminate].
      pose proof (skip_pred_length _ _ _ E) as L. cbn [length] in L.
      change (nc :: nt ++ s) with ((nc :: nt) ++ s). rewrite (skip_pred_app _ s _ _ E). apply IH. lia.
Qed.
Lemma path_longer u r n s :
  (allowed_path u r n = MNo -> allowed_path u r (n ++ s) = MNo) /\ (allowed_path u r n = MFull -> allowed_path u r (n ++ s) = MFull).
Proof. rewrite !allowed_AP. apply (AP_longer u s (length n)). auto. Qed.

(** ** A node and its descendant of the same module *)
Record below (nd nd' : node) : Prop := mkbelow {
  b_type : n_type nd = NOther; b_type' : n_type nd' = NOther; b_mod : n_mod nd' = n_mod nd;
  b_path : exists s, n_path nd' = n_path nd ++ s }.

Lemma check_below u o nd nd' r : below nd nd' ->
  (check_rule u o nd r = VSkip -> check_rule u o nd' r = VSkip) /\ (check_rule u o nd r = VMatch -> check_rule u o nd' r = VMatch).
Proof.
  intros [T T' M (s & P)]. unfold check_rule. rewrite T, T', M, P.
  assert (X : forall x, (x = VSkip -> x = VSkip) /\ (x = VMatch -> x = VMatch)) by auto.
  destruct (negb (r_ops r o)); [apply X|].
  destruct (r_type r); try apply X;
    (destruct (r_target r) as [t|]; [|apply X]; destruct (path_longer u t (n_path nd) s) as [P1 P2];
     destruct (allowed_path u t (n_path nd)); [rewrite P1 by reflexivity; apply X|rewrite P2 by reflexivity; apply X|split; discriminate ..]).
Qed.

Lemma loop_flags u o nd rs : forall pp pd r pp' pd', loop_rules u o nd rs pp pd = Some (r, pp', pd') ->
  (pp = true -> pp' = true) /\ (pd = true -> pd' = true).
Proof.
  induction rs as [|x rs IH]; intros pp pd r pp' pd'; cbn [loop_rules].
  - intros H. injection H as <- <- <-. auto.
  - destruct (check_rule u o nd x); try discriminate.
    + apply IH.
    + intros H. apply IH in H as [H1 H2]. split; intros ->; [apply H1|apply H2]; reflexivity.
    + intros H. injection H as <- <- <-. auto.
Qed.
Lemma loop_permit u o nd nd' rs : below nd nd' -> forall pp pd qp qd r pp' r' qp' qd',
  loop_rules u o nd rs pp pd = Some (Some r, pp', false) -> r_deny r = false ->
  loop_rules u o nd' rs qp qd = Some (r', qp', qd') -> exists x, r' = Some x /\ r_deny x = false.
Proof.
  intros B. induction rs as [|x rs IH]; intros pp pd qp qd r pp' r' qp' qd'; cbn [loop_rules]; [discriminate|].
  destruct (check_below u o nd nd' x B) as [C1 C2].
  destruct (check_rule u o nd x); try discriminate.
  - rewrite C1 by reflexivity. apply IH.
  - intros H D. destruct (r_deny x) eqn:Dx.
    { apply loop_flags in H as [_ H]. rewrite orb_true_r in H. discriminate (H eq_refl). }
    destruct (check_rule u o nd' x); try discriminate.
    + apply (IH _ _ _ _ _ _ _ _ _ H D).
    + apply (IH _ _ _ _ _ _ _ _ _ H D).
    + intros H'. injection H' as <- _ _. eauto.
  - rewrite C2 by reflexivity. intros H D H'. injection H as <- _ _. injection H' as <- _ _. eauto.
Qed.
Lemma loop_deny u o nd nd' rs : below nd nd' -> forall pp pd qp qd r pd' r' qp' qd',
  loop_rules u o nd rs pp pd = Some (r, false, pd') -> (forall x, r = Some x -> r_deny x = true) ->
  loop_rules u o nd' rs qp qd = Some (r', qp', qd') ->
  (exists x, r' = Some x /\ r_deny x = true) \/ (r = None /\ r' = None).
Proof.
  intros B. induction rs as [|x rs IH]; intros pp pd qp qd r pd' r' qp' qd'; cbn [loop_rules].
  - intros H _ H'. injection H as <- _ _. injection H' as <- _ _. auto.
  - destruct (check_below u o nd nd' x B) as [C1 C2].
    destruct (check_rule u o nd x); try discriminate.
    + rewrite C1 by reflexivity. apply IH.
    + intros H D. destruct (r_deny x) eqn:Dx.
      * destruct (check_rule u o nd' x); try discriminate.
        -- apply (IH _ _ _ _ _ _ _ _ _ H D).
        -- apply (IH _ _ _ _ _ _ _ _ _ H D).
        -- intros H'. injection H' as <- _ _. eauto.
      * apply loop_flags in H as [H _]. rewrite orb_true_r in H. discriminate (H eq_refl).
    + rewrite C2 by reflexivity. intros H D H'. injection H as <- _ _. injection H' as <- _ _. eauto.
Qed.

Section Tree.
Variables (c : config) (user : str) (groups : list str).
Definition allows (o : oper) (nd : node) : Prop := exists a, allowed_node c user groups o nd = Some a /\ is_permit a = true.
Definition refuses (o : oper) (nd : node) : Prop := exists a, allowed_node c user groups o nd = Some a /\ is_permit a = false.

(** An explicit permission is inherited. *)
Lemma permit_below o nd nd' : below nd nd' -> allowed_node c user groups o nd = Some Permit -> ~ refuses o nd'.
Proof.
  intros B H (a & H' & Ha). unfold allowed_node in *. cbv zeta in *.
  destruct (loop_rules user o nd (user_rules c groups) false false) as [[[r pp] pd]|] eqn:E; [|discriminate H].
  destruct (loop_rules user o nd' (user_rules c groups) false false) as [[[r' qp] qd]|] eqn:E'; [|discriminate H'].
  injection H as H. injection H' as H'.
  destruct r as [r|].
  - destruct (r_deny r) eqn:D; [destruct pp; discriminate H|]. destruct pd; [discriminate H|].
    destruct (loop_permit user o nd nd' _ B _ _ _ _ _ _ _ _ _ E D E') as (x & -> & Dx).
    rewrite Dx in H'. destruct qd; subst a; discriminate Ha.
  - unfold defaults in H. destruct (n_dall nd || writes o && n_dwrite nd); [destruct pp; discriminate H|].
    destruct (match o with ORead => c_read_deny c | OExec => c_exec_deny c | _ => c_write_deny c end); [destruct pp; discriminate H|discriminate H].
Qed.
(** A refusal also, if there is no rule that permits something below, except for that of an extension. *)
Lemma deny_below o nd nd' : below nd nd' -> allowed_node c user groups o nd = Some Deny ->
  n_dall nd || writes o && n_dwrite nd = false -> ~ allows o nd'.
Proof.
  intros B H X (a & H' & Ha). unfold allowed_node in *. cbv zeta in *.
  destruct (loop_rules user o nd (user_rules c groups) false false) as [[[r pp] pd]|] eqn:E; [|discriminate H].
  destruct (loop_rules user o nd' (user_rules c groups) false false) as [[[r' qp] qd]|] eqn:E'; [|discriminate H'].
  injection H as H. injection H' as H'.
  assert (PP : pp = false).
  { destruct pp; auto. destruct r as [r|]; [destruct (r_deny r); [discriminate H|destruct pd; discriminate H]|].
    destruct (defaults c o nd); try discriminate H. destruct pd; discriminate H. }
  subst pp.
  assert (D : forall x, r = Some x -> r_deny x = true).
  { intros x ->. destruct (r_deny x); auto. destruct pd; discriminate H. }
  destruct (loop_deny user o nd nd' _ B _ _ _ _ _ _ _ _ _ E D E') as [(x & -> & Dx)|[-> ->]].
  - rewrite Dx in H'. destruct qp; subst a; discriminate Ha.
  - unfold defaults in *. rewrite X in H.
    destruct (match o with ORead => c_read_deny c | OExec => c_exec_deny c | _ => c_write_deny c end).
    + destruct (n_dall nd' || writes o && n_dwrite nd'); destruct qp; subst a; discriminate Ha.
    + discriminate H.
Qed.

(** ** Reading *)
(** [at_ p t q y]: node [y] with the parent path [q] is in the tree [t] with the parent path [p]. *)
Inductive at_ : str -> tree -> str -> tree -> Prop :=
| at_here : forall p t, at_ p t p t
| at_child : forall p t x q y, In x (t_ch t) -> at_ (p ++ t_piece t) x q y -> at_ p t q y.
Definition one_module (t : tree) : Prop := forall p q y, at_ p t q y -> t_mod y = t_mod t.
Definition t_dall (t : tree) : bool := match t with T _ _ _ d _ _ => d end.

Fixpoint tsize (t : tree) : nat := match t with T _ _ _ _ _ ch => S (list_sum (map tsize ch)) end.
Lemma tsize_child t x : In x (t_ch t) -> tsize x < tsize t.
Proof.
  destruct t as [i pc m d k ch]. cbn [t_ch tsize]. induction ch as [|y ch IH]; [intros []|].
  cbn [map list_sum fold_right]. intros [->|H]; [unfold list_sum; lia|]. specialize (IH H). unfold list_sum in *. cbn [fold_right]. lia.
Qed.
Lemma one_module_child t x : one_module t -> In x (t_ch t) -> one_module x.
Proof.
  intros H Hx p q y Hy. rewrite (H [] ([] ++ t_piece t) x).
  - destruct t as [i pc m d k ch].
    (* parent paths only accumulate, any start will do *)
    assert (G : forall p t q y, at_ p t q y -> forall p', exists q', at_ p' t q' y).
    { clear. intros p t q y A. induction A as [p t|p t x q y Hin A IH]; intros p'; [exists p'; constructor|].
      destruct (IH (p' ++ t_piece t)) as (q' & A'). exists q'. now apply (at_child p' t x). }
    destruct (G _ _ _ _ Hy ([] ++ t_piece (T i pc m d k ch))) as (q' & A').
    apply (H [] q' y). now apply (at_child [] _ x).
  - apply (at_child _ _ x); auto. constructor.
Qed.
Lemma at_path p t q y : at_ p t q y -> exists s, q ++ t_piece y = (p ++ t_piece t) ++ s.
Proof.
  induction 1 as [p t|p t x q y Hin A (s & IH)]; [exists []; now rewrite app_nil_r|].
  exists (t_piece x ++ s). rewrite IH. now rewrite !app_assoc.
Qed.
Lemma at_below p t q y : one_module t -> at_ p t q y -> below (tnode p t) (tnode q y).
Proof.
  intros M A. pose proof (M _ _ _ A) as E. destruct (at_path _ _ _ _ A) as (s & P).
  destruct t as [i pc m d k ch], y as [i' pc' m' d' k' ch']. cbn [t_mod t_piece tnode] in *.
  constructor; cbn [n_type n_mod n_path]; auto. now exists s.
Qed.
Lemma at_trans p t q y : at_ p t q y -> forall r z, at_ q y r z -> at_ p t r z.
Proof. induction 1 as [p t|p t x q y Hin A IH]; intros r z H; auto. apply (at_child p t x); auto. Qed.

(** The loop over children. *)
Section Kids.
Variable f : tree -> option (bool * option tree).
Fixpoint fkids (l : list tree) : option (bool * list tree) :=
  match l with
  | [] => Some (false, [])
  | x :: rest => match f x, fkids rest with
                 | Some (a, o), Some (b, l') => Some (a || b, match o with Some x' => x' :: l' | None => l' end)
                 | _, _ => None
                 end
  end.
End Kids.
Definition with_ch (t : tree) (l : list tree) : tree := match t with T i pc m d k _ => T i pc m d k l end.
Lemma filter_unfold p t : filter_r c user groups p t =
  match reads c user groups p t with
  | None => None
  | Some Deny => Some (false, if t_key t then Some t else None)
  | Some Permit => Some (true, Some t)
  | Some PPermit => match fkids (filter_r c user groups (p ++ t_piece t)) (t_ch t) with Some (_, l) => Some (true, Some (with_ch t l)) | None => None end
  | Some PDeny => match fkids (filter_r c user groups (p ++ t_piece t)) (t_ch t) with
                  | Some (true, l) => Some (true, Some (with_ch t l))
                  | Some (false, l) => Some (false, if t_key t then Some (with_ch t l) else None)
                  | None => None
                  end
  end.
Proof. destruct t as [i pc m d k ch]. reflexivity. Qed.

Lemma fkids_out f l : forall b l', fkids f l = Some (b, l') ->
  (forall y, In y l' -> exists x a, In x l /\ f x = Some (a, Some y)) /\
  (b = true -> exists x o, In x l /\ f x = Some (true, o)).
Proof.
  induction l as [|x l IH]; intros b l'; cbn [fkids].
  - intros H. injection H as <- <-. split; [intros y []|discriminate].
  - destruct (f x) as [[a o]|] eqn:E; [|discriminate]. destruct (fkids f l) as [[b0 l0]|]; [|discriminate].
    intros H. injection H as <- <-. destruct (IH _ _ eq_refl) as [I1 I2]. split.
    + intros y Hy. destruct o as [x'|].
      * destruct Hy as [<-|Hy]; [exists x, a; split; [now left|auto]|].
        destruct (I1 y Hy) as (z & a' & H1 & H2). exists z, a'. split; [now right|auto].
      * destruct (I1 y Hy) as (z & a' & H1 & H2). exists z, a'. split; [now right|auto].
    + intros H. destruct a.
      * exists x, o. split; [now left|auto].
      * cbn [orb] in H. destruct (I2 H) as (z & o' & H1 & H2). exists z, o'. split; [now right|auto].
Qed.
Lemma fkids_in f l : forall b l', fkids f l = Some (b, l') -> forall x, In x l ->
  exists a o, f x = Some (a, o) /\ (a = true -> b = true) /\ (forall y, o = Some y -> In y l').
Proof.
  induction l as [|x l IH]; intros b l'; cbn [fkids]; [intros _ x []|].
  destruct (f x) as [[a o]|] eqn:E; [|discriminate]. destruct (fkids f l) as [[b0 l0]|]; [|discriminate].
  intros H. injection H as <- <-. intros z [<-|Hz].
  - exists a, o. split; [auto|]. split; [intros ->; reflexivity|]. intros y ->. now left.
  - destruct (IH _ _ eq_refl z Hz) as (a' & o' & H1 & H2 & H3). exists a', o'. split; [auto|].
    split; [intros Ha; rewrite (H2 Ha); apply orb_true_r|]. intros y Hy. destruct o; [right; auto|auto].
Qed.

Lemma tnode_with p t l : tnode p (with_ch t l) = tnode p t.
Proof. destruct t; reflexivity. Qed.
Lemma piece_with t l : t_piece (with_ch t l) = t_piece t.
Proof. destruct t; reflexivity. Qed.
Lemma key_with t l : t_key (with_ch t l) = t_key t.
Proof. destruct t; reflexivity. Qed.
Lemma id_with t l : t_id (with_ch t l) = t_id t.
Proof. destruct t; reflexivity. Qed.
Lemma ch_with t l : t_ch (with_ch t l) = l.
Proof. destruct t; reflexivity. Qed.

(** Leading to a node which may be read. *)
Definition leads (p : str) (t : tree) : Prop := exists q y, at_ p t q y /\ allows ORead (tnode q y).

Theorem filter_safe n : forall p t b t', tsize t <= n -> one_module t -> (forall q y, at_ p t q y -> t_key y = true -> t_ch y = []) ->
  filter_r c user groups p t = Some (b, Some t') ->
  (b = true -> leads p t') /\
  (forall q y, at_ p t' q y -> refuses ORead (tnode q y) -> t_key y = true \/ leads q y).
Proof.
  induction n as [|n IH]; intros p t b t' Hn M K F; [destruct t; cbn [tsize] in Hn; lia|].
  rewrite filter_unfold in F. unfold reads in F.
  destruct (allowed_node c user groups ORead (tnode p t)) as [a|] eqn:E; [|discriminate F].
  assert (KC : forall x, In x (t_ch t) -> forall q y, at_ (p ++ t_piece t) x q y -> t_key y = true -> t_ch y = []).
  { intros x Hx q y A. apply (K q y). now apply (at_child p t x). }
  assert (C : forall bb l, fkids (filter_r c user groups (p ++ t_piece t)) (t_ch t) = Some (bb, l) ->
    (bb = true -> exists y, In y l /\ leads (p ++ t_piece t) y) /\
    (forall x q y, In x l -> at_ (p ++ t_piece t) x q y -> refuses ORead (tnode q y) -> t_key y = true \/ leads q y)).
  { intros bb l Fk. destruct (fkids_out _ _ _ _ Fk) as [O1 O2]. split.
    - intros Hb. destruct (O2 Hb) as (x & o & Hx & Hf).
      assert (exists y, o = Some y) as (y & ->).
      { rewrite filter_unfold in Hf. destruct (reads c user groups (p ++ t_piece t) x) as [[]|]; try discriminate Hf.
        - destruct (fkids (filter_r c user groups ((p ++ t_piece t) ++ t_piece x)) (t_ch x)) as [[[] l0]|]; try discriminate Hf.
          injection Hf as <-. eauto.
        - destruct (fkids (filter_r c user groups ((p ++ t_piece t) ++ t_piece x)) (t_ch x)) as [[b0 l0]|]; try discriminate Hf.
          injection Hf as <-. eauto.
        - injection Hf as <-. eauto. }
      destruct (fkids_in _ _ _ _ Fk x Hx) as (a' & o' & H1 & _ & H3). rewrite Hf in H1. injection H1 as <- <-.
      exists y. split; [now apply H3|].
      assert (Hs : tsize x <= n) by (apply tsize_child in Hx; lia).
      now apply (proj1 (IH _ x true y Hs (one_module_child t x M Hx) (KC x Hx) Hf)).
    - intros x' q y Hx' A R. destruct (O1 x' Hx') as (x & a' & Hx & Hf).
      assert (Hs : tsize x <= n) by (apply tsize_child in Hx; lia).
      now apply (proj2 (IH _ x a' x' Hs (one_module_child t x M Hx) (KC x Hx) Hf)). }
  destruct a.
  - destruct (t_key t) eqn:Kt; [|discriminate F]. injection F as <- <-. split; [discriminate|].
    intros q y A _. left. inversion A as [? ? | ? ? x ? ? Hx A']; subst; [auto|].
    rewrite (K p t) in Hx; [destruct Hx|constructor|auto].
  - destruct (fkids (filter_r c user groups (p ++ t_piece t)) (t_ch t)) as [[bb l]|] eqn:Fk; [|discriminate F]. destruct (C bb l eq_refl) as [C1 C2]. destruct bb.
    + injection F as <- <-. destruct (C1 eq_refl) as (y & Hy & (q & z & A & W)).
      assert (L : leads p (with_ch t l)).
      { exists q, z. split; [|auto]. apply (at_child p _ y); [now rewrite ch_with|]. now rewrite piece_with. }
      split; [auto|]. intros q' y' A' R. inversion A' as [? ? | ? ? x ? ? Hx A2]; subst; [now right|].
      rewrite ch_with in Hx. rewrite piece_with in A2. now apply (C2 x).
    + destruct (t_key t) eqn:Kt; [|discriminate F]. injection F as <- <-. split; [discriminate|].
      intros q y A _. left. inversion A as [? ? | ? ? x ? ? Hx A']; subst; [now rewrite key_with|].
      rewrite ch_with in Hx. rewrite (K p t) in Fk by (auto; constructor). cbn [fkids] in Fk. injection Fk as <-. destruct Hx.
  - destruct (fkids (filter_r c user groups (p ++ t_piece t)) (t_ch t)) as [[bb l]|] eqn:Fk; [|discriminate F]. destruct (C bb l eq_refl) as [C1 C2].
    injection F as <- <-.
    assert (W : allows ORead (tnode p t)) by (exists PPermit; auto).
    split.
    + intros _. exists p, (with_ch t l). split; [constructor|]. now rewrite tnode_with.
    + intros q y A R. inversion A as [? ? | ? ? x ? ? Hx A2]; subst.
      * exfalso. rewrite tnode_with in R. destruct R as (a1 & R1 & R2), W as (a2 & W1 & W2). congruence.
      * rewrite ch_with in Hx. rewrite piece_with in A2. now apply (C2 x).
  - injection F as <- <-. split.
    + intros _. exists p, t. split; [constructor|]. exists Permit. auto.
    + intros q y A R. exfalso. apply (permit_below ORead (tnode p t) (tnode q y)); auto. now apply at_below.
Qed.

Theorem filter_complete p t q y : at_ p t q y -> forall b o, one_module t ->
  (forall q' z, at_ p t q' z -> at_ q' z q y -> t_dall z = true -> allows ORead (tnode q' z)) ->
  allows ORead (tnode q y) -> filter_r c user groups p t = Some (b, o) ->
  b = true /\ exists t' y', o = Some t' /\ at_ p t' q y' /\ t_id y' = t_id y /\ tnode q y' = tnode q y.
Proof.
  induction 1 as [p t|p t x q y Hin A IH]; intros b o M X W F; rewrite filter_unfold in F; unfold reads in F.
  - destruct W as (a & W & Wa). rewrite W in F. destruct a; try discriminate Wa.
    + destruct (fkids (filter_r c user groups (p ++ t_piece t)) (t_ch t)) as [[bb l]|]; [|discriminate F]. injection F as <- <-. split; [auto|].
      exists (with_ch t l), (with_ch t l). split; [auto|]. split; [constructor|]. rewrite id_with, tnode_with. auto.
    + injection F as <- <-. split; [auto|]. exists t, t. split; [auto|]. split; [constructor|]. auto.
  - assert (XC : forall q' z, at_ (p ++ t_piece t) x q' z -> at_ q' z q y -> t_dall z = true -> allows ORead (tnode q' z)).
    { intros q' z A1 A2. apply X; auto. now apply (at_child p t x). }
    assert (CC : forall bb l, fkids (filter_r c user groups (p ++ t_piece t)) (t_ch t) = Some (bb, l) ->
       bb = true /\ exists x' y', In x' l /\ at_ (p ++ t_piece t) x' q y' /\ t_id y' = t_id y /\ tnode q y' = tnode q y).
    { intros bb l Fk. destruct (fkids_in _ _ _ _ Fk x Hin) as (a' & o' & H1 & H2 & H3).
      destruct (IH a' o' (one_module_child t x M Hin) XC W H1) as (Ha & x' & y' & Ho & A' & I1 & I2).
      split; [auto|]. exists x', y'. split; [auto|]. auto. }
    destruct (allowed_node c user groups ORead (tnode p t)) as [a|] eqn:E; [|discriminate F].
    assert (AT : at_ p t q y) by now apply (at_child p t x).
    destruct a.
    + exfalso. destruct (t_dall t) eqn:D.
      * destruct (X p t (at_here p t) AT D) as (a' & W1 & W2). rewrite E in W1. injection W1 as <-. discriminate W2.
      * apply (deny_below ORead (tnode p t) (tnode q y)); auto; [now apply at_below|].
        destruct t. cbn [tnode n_dall n_dwrite writes andb t_dall] in *. now rewrite D.
    + destruct (fkids (filter_r c user groups (p ++ t_piece t)) (t_ch t)) as [[bb l]|] eqn:Fk; [|discriminate F].
      destruct (CC bb l eq_refl) as (-> & x' & y' & Hx & A' & I1 & I2). injection F as <- <-.
      split; [auto|]. exists (with_ch t l), y'. split; [auto|]. split; [|auto].
      apply (at_child p _ x'); [now rewrite ch_with|now rewrite piece_with].
    + destruct (fkids (filter_r c user groups (p ++ t_piece t)) (t_ch t)) as [[bb l]|] eqn:Fk; [|discriminate F].
      destruct (CC bb l eq_refl) as (-> & x' & y' & Hx & A' & I1 & I2). injection F as <- <-.
      split; [auto|]. exists (with_ch t l), y'. split; [auto|]. split; [|auto].
      apply (at_child p _ x'); [now rewrite ch_with|now rewrite piece_with].
    + injection F as <- <-. split; [auto|]. exists t, y. auto.
Qed.

(** Nothing is added: every node left is one of the tree. *)
Theorem filter_from n : forall p t b t', tsize t <= n -> filter_r c user groups p t = Some (b, Some t') ->
  forall q y, at_ p t' q y -> exists y0, at_ p t q y0 /\ t_id y0 = t_id y /\ tnode q y0 = tnode q y.
Proof.
  induction n as [|n IH]; intros p t b t' Hn F q y A; [destruct t; cbn [tsize] in Hn; lia|].
  rewrite filter_unfold in F.
  assert (C : forall bb l, fkids (filter_r c user groups (p ++ t_piece t)) (t_ch t) = Some (bb, l) -> at_ p (with_ch t l) q y ->
     exists y0, at_ p t q y0 /\ t_id y0 = t_id y /\ tnode q y0 = tnode q y).
  { intros bb l Fk A'. inversion A' as [? ? | ? ? x ? ? Hx A2]; subst.
    - exists t. split; [constructor|]. now rewrite id_with, tnode_with.
    - rewrite ch_with in Hx. rewrite piece_with in A2.
      destruct (proj1 (fkids_out _ _ _ _ Fk) x Hx) as (z & a & Hz & Hf).
      destruct (IH (p ++ t_piece t) z a x) with (q := q) (y := y) as (y0 & B1 & B2 & B3); auto.
      + apply tsize_child in Hz. lia.
      + exists y0. split; [|auto]. now apply (at_child p t z). }
  destruct (reads c user groups p t) as [[]|]; try discriminate F.
  - destruct (t_key t); [|discriminate F]. injection F as <- <-. exists y. auto.
  - destruct (fkids (filter_r c user groups (p ++ t_piece t)) (t_ch t)) as [[[] l]|] eqn:Fk; [| |discriminate F].
    + injection F as <- <-. now apply (C true l).
    + destruct (t_key t); [|discriminate F]. injection F as <- <-. now apply (C false l).
  - destruct (fkids (filter_r c user groups (p ++ t_piece t)) (t_ch t)) as [[bb l]|] eqn:Fk; [|discriminate F]. injection F as <- <-. now apply (C bb l).
  - injection F as <- <-. exists y. auto.
Qed.

(** ** Changing *)
(** [dat p inh t q o y]: diff node [y] with the parent path [q] and the effective operation [o]. *)
Definition d_ch (t : dtree) : list dtree := match t with DT _ _ _ _ _ ch => ch end.
Definition d_piece (t : dtree) : str := match t with DT _ pc _ _ _ _ => pc end.
Definition d_mod (t : dtree) : str := match t with DT _ _ m _ _ _ => m end.
Definition d_op (inh : option (option oper)) (t : dtree) : option (option oper) :=
  match t with DT own _ _ _ _ _ => match own with Some o => Some o | None => inh end end.
Inductive dat : str -> option (option oper) -> dtree -> str -> option (option oper) -> dtree -> Prop :=
| dat_here : forall p i t, dat p i t p (d_op i t) t
| dat_child : forall p i t x q o y, In x (d_ch t) -> dat (p ++ d_piece t) (d_op i t) x q o y -> dat p i t q o y.
(** Nodes below a changed node are changed the same way and are of its module. *)
Definition uniform (p : str) (i : option (option oper)) (t : dtree) : Prop :=
  forall q o y r o' z, dat p i t q (Some (Some o)) y -> dat q (Some (Some o)) y r o' z -> o' = Some (Some o) /\ d_mod z = d_mod y.

Fixpoint dsize (t : dtree) : nat := match t with DT _ _ _ _ _ ch => S (list_sum (map dsize ch)) end.
Lemma dsize_child t x : In x (d_ch t) -> dsize x < dsize t.
Proof.
  destruct t as [o pc m d k ch]. cbn [d_ch dsize]. induction ch as [|y ch IH]; [intros []|].
  cbn [map list_sum fold_right]. intros [->|H]; [unfold list_sum; lia|]. specialize (IH H). unfold list_sum in *. cbn [fold_right]. lia.
Qed.
Section Dkids.
Variable f : dtree -> option bool.
Fixpoint dkids (l : list dtree) : option bool :=
  match l with
  | [] => Some false
  | x :: rest => match f x with None => None | Some true => Some true | Some false => dkids rest end
  end.
End Dkids.
Lemma denied_unfold p i t : diff_denied c user groups p i t =
  match d_op i t with
  | None => None
  | Some None => dkids (diff_denied c user groups (p ++ d_piece t) (d_op i t)) (d_ch t)
  | Some (Some o) =>
      match allowed_node c user groups o (dtnode p t) with
      | None => None
      | Some Permit => Some false
      | Some Deny => Some true
      | Some _ => dkids (diff_denied c user groups (p ++ d_piece t) (d_op i t)) (d_ch t)
      end
  end.
Proof. destruct t as [own pc m d k ch]. cbn [d_op d_piece d_ch]. destruct own as [[o|]|], i as [[o'|]|]; reflexivity. Qed.
Lemma dkids_false f l : dkids f l = Some false -> forall x, In x l -> f x = Some false.
Proof.
  induction l as [|x l IH]; cbn [dkids]; intros H y Hy; [destruct Hy|].
  destruct (f x) as [[]|] eqn:E; try discriminate H. destruct Hy as [<-|Hy]; auto.
Qed.
Lemma dkids_true f l : dkids f l = Some true -> exists x, In x l /\ f x = Some true.
Proof.
  induction l as [|x l IH]; cbn [dkids]; [discriminate|].
  destruct (f x) as [[]|] eqn:E; try discriminate.
  - intros _. exists x. split; [now left|auto].
  - intros H. destruct (IH H) as (y & Hy & Hf). exists y. split; [now right|auto].
Qed.
Lemma dat_path p i t q o y : dat p i t q o y -> exists s, q ++ d_piece y = (p ++ d_piece t) ++ s.
Proof.
  induction 1 as [p i t|p i t x q o y Hin A (s & IH)]; [exists []; now rewrite app_nil_r|].
  exists (d_piece x ++ s). rewrite IH. now rewrite !app_assoc.
Qed.

(** A rule of the user which permits the operation somewhere below the node. *)
Definition permits_below (o : oper) (nd : node) : Prop :=
  exists r, In r (user_rules c groups) /\ r_deny r = false /\ check_rule user o nd r = VPartial.
Lemma loop_pp o nd rs : forall pp pd r pp' pd', loop_rules user o nd rs pp pd = Some (r, pp', pd') -> pp' = true ->
  pp = true \/ exists x, In x rs /\ r_deny x = false /\ check_rule user o nd x = VPartial.
Proof.
  induction rs as [|x rs IH]; intros pp pd r pp' pd'; cbn [loop_rules].
  - intros H ->. injection H as _ -> _. auto.
  - destruct (check_rule user o nd x) eqn:E; try discriminate.
    + intros H P. destruct (IH _ _ _ _ _ H P) as [H1|(z & H1 & H2)]; [auto|]. right. exists z. split; [now right|auto].
    + intros H P. destruct (IH _ _ _ _ _ H P) as [H1|(z & H1 & H2)].
      * destruct (r_deny x) eqn:D; [rewrite orb_false_r in H1; auto|]. right. exists x. split; [now left|auto].
      * right. exists z. split; [now right|auto].
    + intros H ->. injection H as _ -> _. auto.
Qed.
Lemma pdeny_below o nd : allowed_node c user groups o nd = Some PDeny -> permits_below o nd.
Proof.
  unfold allowed_node. cbv zeta. destruct (loop_rules user o nd (user_rules c groups) false false) as [[[r pp] pd]|] eqn:E; [|discriminate].
  intros H. injection H as H.
  assert (PP : pp = true).
  { destruct pp; auto. destruct r as [r|]; [destruct (r_deny r); [discriminate H|destruct pd; discriminate H]|].
    unfold defaults in H. destruct (n_dall nd || writes o && n_dwrite nd); [discriminate H|].
    destruct (match o with ORead => c_read_deny c | OExec => c_exec_deny c | _ => c_write_deny c end); discriminate H. }
  destruct (loop_pp _ _ _ _ _ _ _ _ E PP) as [H1|H1]; [discriminate H1|exact H1].
Qed.

Theorem diff_accepted p i t q o y : dat p i t q o y -> uniform p i t -> diff_denied c user groups p i t = Some false ->
  forall op, o = Some (Some op) -> refuses op (dtnode q y) -> permits_below op (dtnode q y).
Proof.
  induction 1 as [p i t|p i t x q o y Hin A IH]; intros U F op Ho R; rewrite denied_unfold in F.
  - rewrite Ho in F. destruct R as (a & R1 & R2). rewrite R1 in F. destruct a; try discriminate R2; [discriminate F|].
    now apply pdeny_below.
  - assert (UC : uniform (p ++ d_piece t) (d_op i t) x).
    { intros q1 o1 y1 r1 o1' z1 A1. apply U. now apply (dat_child p i t x). }
    destruct (d_op i t) as [[o0|]|] eqn:EO; [| |discriminate F].
    + destruct (allowed_node c user groups o0 (dtnode p t)) as [a|] eqn:E; [|discriminate F]. destruct a.
      * discriminate F.
      * apply (dkids_false _ _ F) in Hin. now apply (IH UC Hin).
      * apply (dkids_false _ _ F) in Hin. now apply (IH UC Hin).
      * exfalso. assert (H0 : dat p i t p (Some (Some o0)) t) by (rewrite <- EO; constructor).
        assert (H1 : d_op (Some (Some o0)) t = Some (Some o0)).
        { destruct t as [own pc m d w ch]. cbn [d_op] in *. destruct own; auto. }
        assert (A' : dat p (Some (Some o0)) t q o y).
        { apply (dat_child p (Some (Some o0)) t x); [auto|]. now rewrite H1. }
        destruct (U _ _ _ _ _ _ H0 A') as [Eo Em]. rewrite Ho in Eo. injection Eo as ->.
        apply (permit_below o0 (dtnode p t) (dtnode q y)); auto.
        destruct (dat_path _ _ _ _ _ _ A') as (s & P).
        destruct t as [? pc m d w ch], y as [? pc' m' d' w' ch']. cbn [d_mod d_piece dtnode] in *.
        constructor; cbn [n_type n_mod n_path]; auto. now exists s.
    + apply (dkids_false _ _ F) in Hin. now apply (IH UC Hin).
Qed.
Theorem diff_refused n : forall p i t, dsize t <= n -> diff_denied c user groups p i t = Some true ->
  exists q o y, dat p i t q (Some (Some o)) y /\ refuses o (dtnode q y).
Proof.
  induction n as [|n IH]; intros p i t Hn F; [destruct t; cbn [dsize] in Hn; lia|].
  rewrite denied_unfold in F.
  assert (C : dkids (diff_denied c user groups (p ++ d_piece t) (d_op i t)) (d_ch t) = Some true ->
    exists q o y, dat p i t q (Some (Some o)) y /\ refuses o (dtnode q y)).
  { intros H. apply dkids_true in H as (x & Hx & Hf). apply IH in Hf as (q & o & y & A & R).
    - exists q, o, y. split; [|auto]. now apply (dat_child p i t x).
    - apply dsize_child in Hx. lia. }
  destruct (d_op i t) as [[o0|]|] eqn:EO; [| |discriminate F].
  - destruct (allowed_node c user groups o0 (dtnode p t)) as [a|] eqn:E; [|discriminate F]. destruct a.
    + exists p, o0, t. split; [rewrite <- EO; constructor|]. exists Deny. auto.
    + now apply C.
    + now apply C.
    + discriminate F.
  - now apply C.
Qed.
End Tree.
