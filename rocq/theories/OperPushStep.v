(** * Pushed operational data: every operation does what the specification says *)

From Coq Require Import List NArith PeanoNat Bool Lia Sorting.Sorted.
From Verif Require Import OperPush OperPushSpec OperPushArr OperPushProofs.
Import ListNotations.
Open Scope N_scope.

Lemma merged_merge old l : merged old l (merge old l).
Proof.
  unfold merged, merge. destruct old as [o|]; [|reflexivity]. cbn [l_disc l_data]. split.
  - intros x. rewrite in_app_iff, filter_In. split; [tauto|]. intros [H|H]; [left; exact H|].
    destruct (existsb (disc_eqb x) (l_disc o)) eqn:E; [|right; rewrite negb_true_iff; auto]. left.
    apply existsb_exists in E. destruct E as (y & I & E). assert (x = y); [|subst; exact I].
    destruct x as [p c], y as [q c']. unfold disc_eqb in E. cbn in E. apply andb_true_iff in E. destruct E as [E1 E2]. apply N.eqb_eq in E1.
    f_equal; [exact E1|]. destruct c as [[u v]|], c' as [[u' v']|]; cbn in E2; try discriminate; [|reflexivity].
    apply andb_true_iff in E2. cbn in E2. destruct E2 as [A B]. apply N.eqb_eq in A, B. congruence.
  - intros p. apply get_puts.
Qed.

Lemma list_eqb_eq {A} (f : A -> A -> bool) : (forall x y, f x y = true -> x = y) -> forall a b, list_eqb f a b = true -> a = b.
Proof.
  intros F. induction a as [|x a IH]; intros [|y b] E; cbn in E; try discriminate; [reflexivity|]. apply andb_true_iff in E. destruct E as [E1 E2].
  f_equal; [apply F, E1|apply IH, E2].
Qed.

Lemma pv_eqb_eq a b : pv_eqb a b = true -> a = b.
Proof. destruct a, b. unfold pv_eqb. cbn. rewrite andb_true_iff, !N.eqb_eq. intros [-> ->]. reflexivity. Qed.
Lemma disc_eqb_eq a b : disc_eqb a b = true -> a = b.
Proof.
  destruct a as [p c], b as [q c']. unfold disc_eqb. cbn. rewrite andb_true_iff, N.eqb_eq. intros [-> E]. f_equal.
  destruct c, c'; cbn in E; try discriminate; [f_equal; apply pv_eqb_eq, E|reflexivity].
Qed.
Lemma olayer_eqb_eq a b : olayer_eqb a b = true -> a = b.
Proof.
  destruct a as [[d1 x1]|], b as [[d2 x2]|]; cbn; try discriminate; [|reflexivity]. unfold layer_eqb. cbn. rewrite andb_true_iff. intros [A B].
  apply (list_eqb_eq _ disc_eqb_eq) in A. apply (list_eqb_eq _ pv_eqb_eq) in B. subst. reflexivity.
Qed.

Section Sys.
Variable owner : N -> N.
Variable perm : N -> bool.

Notation inv := (inv owner).
Notation usable := (usable owner).

Lemma usable_eq s s' sid : s_dead s' = s_dead s -> s_gone s' = s_gone s -> usable s' sid <-> usable s sid.
Proof. intros D G. unfold OperPushProofs.usable. rewrite D, G. tauto. Qed.

Lemma inv_put a s s' sid l1 l2 o h edit' : inv a s -> usable s sid -> others sid (s_arr s) = l1 ++ l2 -> o <> 0 ->
  Forall (fun e => e_order e < o) l1 -> Forall (fun e => e_order e = 0 \/ o < e_order e) l2 ->
  s_arr s' = l1 ++ mkentry (owner sid) sid o h :: l2 ->
  s_dead s' = s_dead s -> s_gone s' = s_gone s -> s_base s' = s_base s ->
  (forall k, k <> (owner sid, sid) -> file k (s_files s') = file k (s_files s)) ->
  (h = true -> exists l, file (owner sid, sid) (s_files s') = Some l) ->
  (forall x, In x (s_flag s) -> In x (s_flag s')) -> (h = true -> In sid (s_flag s')) ->
  (forall x, usable s x -> edit' x = pend_of x s') ->
  inv (mkabs (updf (a_view a) sid (Some (o, if h then file (owner sid, sid) (s_files s') else None))) edit' (a_base a)) s'.
Proof.
  intros I U OT Z A B AR D G BS FS FH FL FLH ED. destruct (nodup_others sid _ (i_nd _ _ _ I)) as [ND NI].
  assert (PI : forall e, In e (s_arr s') -> e = mkentry (owner sid) sid o h \/ (In e (s_arr s) /\ e_sid e <> sid)).
  { intros e E. rewrite AR in E. apply in_elt_inv in E. destruct E as [<-|E]; [left; reflexivity|right]. rewrite <- OT in E. apply in_others in E. exact E. }
  assert (ND' : NoDup (sids (s_arr s'))).
  { rewrite AR. apply nodup_put; cbn [e_sid]; rewrite <- OT; assumption. }
  constructor.
  - exact ND'.
  - rewrite AR. apply put_srt; cbn [e_order]; [rewrite <- OT; apply srt_others, (i_srt _ _ _ I)|exact Z|exact A|exact B].
  - intros e E. apply PI in E. destruct E as [->|[E _]]; [cbn; split; [reflexivity|apply U]|apply (i_cid _ _ _ I), E].
  - intros e E ZE. apply PI in E. rewrite D. destruct E as [->|[E _]]; [cbn in ZE; contradiction|apply (i_zero _ _ _ I); assumption].
  - intros e E H. apply PI in E. destruct E as [->|[E N]]; [cbn in *; apply FH, H|]. rewrite FS; [apply (i_file _ _ _ I); assumption|]. intros X. injection X as _ X. contradiction.
  - intros e E H. apply PI in E. rewrite G in H. destruct E as [->|[E _]]; [cbn in H; exfalso; apply U, H|apply (i_gone _ _ _ I); assumption].
  - intros e E H. apply PI in E. destruct E as [->|[E _]]; [cbn in *; apply FLH, H|apply FL, (i_flag _ _ _ I); assumption].
  - intros x UX. apply (usable_eq s s' x D G) in UX. cbn [a_view]. unfold updf. destruct (N.eqb_spec x sid) as [->|NE].
    + rewrite (entry_of_in sid _ (mkentry (owner sid) sid o h)); [reflexivity|exact ND'|rewrite AR; apply in_elt|reflexivity].
    + rewrite (i_view _ _ _ I x UX). destruct (entry_of x (s_arr s)) as [e|] eqn:E.
      * apply entry_of_some in E. destruct E as [E ES]. rewrite (entry_of_in x (s_arr s') e); [|exact ND'| |exact ES].
        -- rewrite FS; [reflexivity|]. intros X. injection X as _ X. contradiction.
        -- rewrite AR. apply in_or_app. assert (X : In e (l1 ++ l2)) by (rewrite <- OT; apply in_others; rewrite ES; auto). apply in_app_or in X. cbn. tauto.
      * apply entry_of_none in E. assert (E2 : entry_of x (s_arr s') = None); [|rewrite E2; reflexivity].
        apply entry_of_none. intros X. unfold sids in X. apply in_map_iff in X. destruct X as (e & ES & X). apply PI in X. destruct X as [->|[X _]]; [cbn in ES; congruence|].
        apply E. rewrite <- ES. apply in_map, X.
  - intros x UX. rewrite (usable_eq s s' x D G) in UX. cbn [a_view]. unfold updf. destruct (N.eqb_spec x sid) as [->|NE]; [contradiction|apply (i_off _ _ _ I), UX].
  - intros x UX. apply (usable_eq s s' x D G) in UX. cbn. apply ED, UX.
  - cbn. rewrite BS. apply (i_base _ _ _ I).
Qed.

Definition edit_none (a : abs) (sid : N) : abs := mkabs (a_view a) (updf (a_edit a) sid PNone) (a_base a).

Lemma pend_drop sid x s : pend_of x (drop_pend sid s) = if x =? sid then PNone else pend_of x s.
Proof.
  unfold pend_of, drop_pend. cbn [s_pend set_pend]. induction (s_pend s) as [|[y p] l IH]; cbn [filter find fst].
  - destruct (x =? sid); reflexivity.
  - destruct (N.eqb_spec y sid) as [->|NE]; cbn [negb].
    + rewrite IH. rewrite (N.eqb_sym sid x). destruct (N.eqb_spec x sid) as [->|NX]; reflexivity.
    + cbn [find fst]. destruct (N.eqb_spec y x) as [->|NX]; [|exact IH]. assert (x =? sid = false) by (apply N.eqb_neq; exact NE). rewrite H. reflexivity.
Qed.

Lemma inv_drop a s sid : inv a s -> inv (edit_none a sid) (drop_pend sid s).
Proof.
  intros I. constructor; try apply I.
  intros x U. change (usable s x) in U. cbn [edit_none a_edit]. unfold updf. rewrite pend_drop. destruct (x =? sid); [reflexivity|apply (i_edit _ _ _ I), U].
Qed.

Lemma last_max arr : srt arr -> (forall e, In e arr -> e_order e <> 0) -> arr <> [] -> forall x, In x arr -> e_order x <= e_order (last arr (mkentry 0 0 0 false)).
Proof.
  intros S Z NE x I. rewrite (app_removelast_last (mkentry 0 0 0 false) NE) in I, S. apply in_app_or in I. destruct I as [I|[<-|[]]]; [|lia].
  apply srt_app in S. destruct S as (_ & _ & S).
  assert (IL : In (last arr (mkentry 0 0 0 false)) arr) by (rewrite (app_removelast_last (mkentry 0 0 0 false) NE) at 2; apply in_or_app; right; left; reflexivity).
  apply N.lt_le_incl. apply S; apply in_ords; split.
  - apply Z. rewrite (app_removelast_last (mkentry 0 0 0 false) NE). apply in_or_app. left. exact I.
  - exists x. auto.
  - apply Z, IL.
  - exists (last arr (mkentry 0 0 0 false)). split; [left; reflexivity|reflexivity].
Qed.

(** Orders do not reach the highest one. *)
Definition fits (s : st) : Prop := forall e, In e (s_arr s) -> e_order e < two32 - 1.

(** Storing of data, the entry of a session that has none is the last one. *)
Lemma store_ok a s sid new edit' : inv a s -> usable s sid -> fits s ->
  ((exists l1 e l2, s_arr s = l1 ++ e :: l2 /\ e_sid e = sid /\ e_has e = true /\ forall x, In x l1 -> ~ In (e_cid x) (s_dead s)) \/
   (forall x, In x (s_arr s) -> ~ In (e_cid x) (s_dead s))) ->
  (forall x, usable s x -> edit' x = pend_of x s) ->
  exists s' o, store owner s sid new false = Res s' (Rc true) /\ order_for a sid o /\ s_pend s' = s_pend s /\
    s_dead s' = s_dead s /\ s_gone s' = s_gone s /\ s_stuck s' = s_stuck s /\
    inv (mkabs (updf (a_view a) sid (Some (o, new))) edit' (a_base a)) s'.
Proof.
  intros I U FT LD ED. unfold store. cbn [s_arr set_files].
  set (h := match new with Some _ => true | None => false end). set (fs := file_set (owner sid, sid) new (s_files s)).
  assert (FK : forall k, k <> (owner sid, sid) -> file k fs = file k (s_files s)).
  { intros k K. unfold fs. rewrite file_set_get. destruct (key_eqb k (owner sid, sid)) eqn:E; [|reflexivity]. apply key_eqb_eq in E. contradiction. }
  assert (FO : file (owner sid, sid) fs = new).
  { unfold fs. rewrite file_set_get. assert (key_eqb (owner sid, sid) (owner sid, sid) = true) by (apply key_eqb_eq; reflexivity). rewrite H. reflexivity. }
  assert (FH : h = true -> exists l, file (owner sid, sid) fs = Some l) by (rewrite FO; unfold h; destruct new; [eauto|discriminate]).
  assert (NW : (if h then file (owner sid, sid) fs else None) = new) by (rewrite FO; unfold h; destruct new; reflexivity).
  destruct (entry_of sid (s_arr s)) as [e|] eqn:E.
  - apply entry_of_some in E. destruct E as [IE ES]. destruct (i_cid _ _ _ I e IE) as [EC _]. rewrite ES in EC.
    assert (ZE : e_order e <> 0) by (intros X; destruct U as (_ & UD & _); apply UD; rewrite <- EC; apply (i_zero _ _ _ I); assumption).
    assert (SP : exists l1 l2, s_arr s = l1 ++ e :: l2 /\ forall x, In x l1 -> e_order x <> 0).
    { destruct LD as [(l1 & e' & l2 & AR & ES' & _ & NL)|NL].
      - assert (e' = e). { pose proof (entry_of_in sid (s_arr s) e (i_nd _ _ _ I) IE ES). pose proof (entry_of_in sid (s_arr s) e' (i_nd _ _ _ I)) as Y. rewrite Y in H; [congruence|rewrite AR; apply in_elt|exact ES']. }
        subst e'. exists l1, l2. split; [exact AR|]. intros x X Z0. apply (NL x X), (i_zero _ _ _ I); [rewrite AR; apply in_or_app; left; exact X|exact Z0].
      - apply in_split in IE. destruct IE as (l1 & l2 & AR). exists l1, l2. split; [exact AR|]. intros x X Z0. assert (In x (s_arr s)) by (rewrite AR; apply in_or_app; left; exact X). apply (NL x H), (i_zero _ _ _ I); assumption. }
    destruct SP as (l1 & l2 & AR & ZL). pose proof (i_nd _ _ _ I) as ND. pose proof (i_srt _ _ _ I) as SR. rewrite AR in ND, SR.
    rewrite AR, (upd_same l1 e l2 (owner sid) sid 0 (Some h) EC ES (or_introl (conj eq_refl ZL)) ZE ND SR).
    eexists. exists (e_order e). split; [reflexivity|]. split.
    { unfold order_for. rewrite (i_view _ _ _ I sid U), (entry_of_in sid _ e (i_nd _ _ _ I)); [reflexivity|rewrite AR; apply in_elt|exact ES]. }
    split; [reflexivity|]. split; [reflexivity|]. split; [reflexivity|]. split; [reflexivity|].
    rewrite <- NW at 1. apply srt_app in SR. destruct SR as (S1 & S2 & S3). unfold srt in S2. rewrite ords_cons in S2. apply N.eqb_neq in ZE. rewrite ZE in *. apply StronglySorted_inv in S2. destruct S2 as [S2 F2]. rewrite Forall_forall in F2.
    match goal with |- OperPushProofs.inv _ _ ?X => apply (inv_put a s X sid l1 l2 (e_order e) h edit' I U) end; try reflexivity; try exact FK; try exact FH; try exact ED.
    + rewrite AR. apply others_mid; assumption.
    + apply N.eqb_neq, ZE.
    + rewrite Forall_forall. intros x X. apply S3; [apply in_ords; split; [apply ZL, X|eauto]|]. rewrite ords_cons, ZE. left. reflexivity.
    + rewrite Forall_forall. intros x X. destruct (N.eq_dec (e_order x) 0) as [|NX]; [left; assumption|right]. apply F2. apply in_ords. split; [exact NX|eauto].
    + intros x X. right. exact X.
    + intros _. left. reflexivity.
  - apply entry_of_none in E.
    assert (NZ : forall x, In x (s_arr s) -> e_order x <> 0).
    { destruct LD as [(l1 & e' & l2 & AR & ES' & _)|NL]; [exfalso; apply E; rewrite <- ES'; apply in_map; rewrite AR; apply in_elt|].
      intros x X Z0. apply (NL x X), (i_zero _ _ _ I); assumption. }
    rewrite (upd_new (s_arr s) (owner sid) sid (Some h) E NZ).
    set (o := match s_arr s with [] => 1 | _ => (e_order (last (s_arr s) (mkentry 0 0 0 false)) + 1) mod two32 end).
    assert (OO : 0 < o /\ forall x, In x (s_arr s) -> e_order x < o).
    { unfold o. destruct (s_arr s) as [|y r] eqn:AR; [split; [lia|intros x []]|].
      assert (IL : In (last (y :: r) (mkentry 0 0 0 false)) (y :: r)) by (rewrite (@app_removelast_last _ (y :: r) (mkentry 0 0 0 false)) at 2 by discriminate; apply in_or_app; right; left; reflexivity).
      assert (FL := FT (last (y :: r) (mkentry 0 0 0 false))). rewrite AR in FL. specialize (FL IL). rewrite N.mod_small by (unfold two32 in *; lia). split; [lia|].
      intros x X. pose proof (last_max (y :: r)) as LM. rewrite <- AR in LM at 1. specialize (LM (i_srt _ _ _ I)). specialize (LM NZ ltac:(discriminate) x X). lia. }
    destruct OO as [OZ OM]. eexists. exists o. split; [reflexivity|]. split.
    { unfold order_for. rewrite (i_view _ _ _ I sid U). apply entry_of_none in E. rewrite E. split; [exact OZ|].
      intros x o' l V. destruct (usable_dec owner s x) as [UX|UX]; [|rewrite (i_off _ _ _ I _ UX) in V; discriminate].
      rewrite (i_view _ _ _ I _ UX) in V. destruct (entry_of x (s_arr s)) as [y|] eqn:EX; [|discriminate]. injection V as <- _. apply entry_of_some in EX. apply OM, EX. }
    split; [reflexivity|]. split; [reflexivity|]. split; [reflexivity|]. split; [reflexivity|].
    rewrite <- NW at 1.
    match goal with |- OperPushProofs.inv _ _ ?X => apply (inv_put a s X sid (s_arr s) [] o h edit' I U) end; try reflexivity; try exact FK; try exact FH; try exact ED.
    + rewrite app_nil_r. apply others_none. exact E.
    + lia.
    + rewrite Forall_forall. exact OM.
    + constructor.
    + intros x X. right. exact X.
    + intros _. left. reflexivity.
Qed.

(** ** What users have to keep to *)

Definition proper (s : st) (o : op) : Prop :=
  match o with
  | OEdit sid _ => usable s sid
  | OApply sid _ => usable s sid /\ fits s /\ (pend_of sid s = POther -> has_data sid s = false)
  | ODiscard sid _ => usable s sid /\ fits s /\ pend_of sid s = PNone
  | OOrder sid n => usable s sid /\ (forall e, In e (s_arr s) -> e_sid e = sid -> n <= e_order e)
  | OStop sid ok => usable s sid /\ pend_of sid s = PNone /\ ok = true /\ perm sid = true /\ stuck s = false
  | OCrash _ => True
  | OCrashFill sid _ => usable s sid
  | OCrashAdd _ _ _ => False
  | OBase _ => True
  | ORead => read_safe s
  end.

Lemma fits_purge s : NoDup (sids (s_arr s)) -> fits s -> fits (purge s).
Proof. intros ND F e E. rewrite purge_arr in E by exact ND. apply filter_In in E. apply F, E. Qed.

Ltac obs4 := split; [reflexivity|].

(** The loads before a change is stored. *)
Lemma loads_ok a s sid new : inv a s -> usable s sid -> fits s -> exists s1 d1 s2 d2,
  load s sid None [] = Some (s1, d1) /\ load s1 sid (Some new) [] = Some (s2, d2) /\ inv a s2 /\ usable s2 sid /\ fits s2 /\
  s_pend s2 = s_pend s /\ s_dead s2 = s_dead s /\ s_gone s2 = s_gone s /\ s_stuck s2 = s_stuck s /\
  ((exists l1 e l2, s_arr s2 = l1 ++ e :: l2 /\ e_sid e = sid /\ e_has e = true /\ forall x, In x l1 -> ~ In (e_cid x) (s_dead s2)) \/
   (forall x, In x (s_arr s2) -> ~ In (e_cid x) (s_dead s2))).
Proof.
  intros I U F. destruct (load_ok owner a s sid None [] I) as (s1 & d1 & L1 & I1 & D1 & G1 & _ & P1 & _ & K1 & W1 & _).
  destruct (load_ok owner a s1 sid (Some new) [] I1) as (s2 & d2 & L2 & I2 & D2 & G2 & _ & P2 & _ & K2 & W2 & X).
  exists s1, d1, s2, d2. split; [exact L1|]. split; [exact L2|]. split; [exact I2|].
  split; [unfold OperPushProofs.usable in *; rewrite D2, D1, G2, G1; exact U|].
  assert (F1 : fits s1) by (destruct W1 as [->| ->]; [exact F|apply fits_purge; [apply (i_nd _ _ _ I)|exact F]]).
  split; [destruct W2 as [->| ->]; [exact F1|apply fits_purge; [apply (i_nd _ _ _ I1)|exact F1]]|].
  split; [congruence|]. split; [congruence|]. split; [congruence|]. split; [congruence|exact X].
Qed.

Lemma data_current a s s2 sid : inv a s -> inv a s2 -> usable s sid -> usable s2 sid -> current owner sid s2 = current owner sid s.
Proof. intros I I2 U U2. rewrite <- (inv_data owner a s sid I U), <- (inv_data owner a s2 sid I2 U2). reflexivity. Qed.

(** What [apply] does when nothing is removed from the array. *)
Lemma apply_ok a s sid ok new : inv a s -> usable s sid -> fits s -> stuck s = false ->
  new_layer (pend_of sid s) (current owner sid s) = Some new -> (has_data sid s = true \/ is_edit (pend_of sid s) = true) ->
  (exists s', apply owner perm s sid false ok = Res s' (Rc false) /\ inv a s' /\ perm sid && ok = false /\ s_stuck s' = s_stuck s) \/
  (exists s' o, apply owner perm s sid false ok = Res s' (Rc true) /\ order_for a sid o /\ (forall x, usable s x -> pend_of x s' = pend_of x s) /\
    s_dead s' = s_dead s /\ s_gone s' = s_gone s /\ s_stuck s' = s_stuck s /\
    inv (mkabs (updf (a_view a) sid (Some (o, new))) (a_edit a) (a_base a)) s').
Proof.
  intros I U F SK NW HD. unfold apply. rewrite SK.
  assert (HC : negb (has_data sid s) && negb (is_edit (pend_of sid s)) = false) by (destruct HD as [-> | ->]; [reflexivity|apply andb_false_r]).
  rewrite HC, NW. destruct (loads_ok a s sid new I U F) as (s1 & d1 & s2 & d2 & L1 & L2 & I2 & U2 & F2 & P2 & D2 & G2 & K2 & X). rewrite L1, L2.
  destruct (negb (deq d1 d2) && negb (perm sid && ok)) eqn:NT.
  { left. exists s2. split; [reflexivity|]. split; [exact I2|]. split; [|exact K2]. apply andb_true_iff in NT. destruct NT as [_ NT]. apply negb_true_iff in NT. exact NT. }
  right.
  destruct (olayer_eqb (current owner sid s) new) eqn:EQ.
  - apply olayer_eqb_eq in EQ. assert (HE : exists e, entry_of sid (s_arr s) = Some e /\ new = (if e_has e then file (owner sid, sid) (s_files s) else None)).
    { assert (NN : exists r, new = Some r).
      { rewrite (has_current owner a s sid I U), EQ in HD. destruct (pend_of sid s) as [| |[] l]; cbn in NW; try discriminate; injection NW as <-; [|eauto|eauto]. destruct HD as [HD|HD]; discriminate. }
      destruct NN as [r NN]. rewrite NN in EQ. rewrite NN. unfold current in EQ. destruct (entry_of sid (s_arr s)) as [e|]; [|discriminate]. exists e. split; [reflexivity|symmetry; exact EQ]. }
    destruct HE as (e & E & NE). exists s2, (e_order e). split; [reflexivity|]. split; [unfold order_for; rewrite (i_view _ _ _ I sid U), E; reflexivity|].
    split; [intros x _; unfold pend_of; rewrite P2; reflexivity|]. split; [exact D2|]. split; [exact G2|]. split; [exact K2|].
    assert (V : forall x, updf (a_view a) sid (Some (e_order e, new)) x = a_view a x).
    { intros x. unfold updf. destruct (N.eqb_spec x sid) as [->|]; [|reflexivity]. rewrite (i_view _ _ _ I sid U), E, NE. reflexivity. }
    constructor; try apply I2.
    + intros x UX. cbn. rewrite V. apply (i_view _ _ _ I2), UX.
    + intros x UX. cbn. rewrite V. apply (i_off _ _ _ I2), UX.
  - destruct (store_ok a s2 sid new (a_edit a) I2 U2 F2 X) as (s' & o & ST & OF & P3 & D3 & G3 & K3 & I3).
    { intros x UX. apply (i_edit _ _ _ I2), UX. }
    exists s', o. split; [exact ST|]. split; [exact OF|]. split; [intros x _; unfold pend_of; rewrite P3, P2; reflexivity|]. split; [congruence|]. split; [congruence|]. split; [congruence|exact I3].
Qed.

(** When an operation may fail. *)
Definition refused (s : st) (o : op) : Prop :=
  match o with
  | OApply sid ok | ODiscard sid ok => stuck s = true \/ perm sid && ok = false
  | OOrder sid n => stuck s = true \/ n = 0 \/ exists e, In e (s_arr s) /\ e_sid e <> sid /\ e_order e = n
  | ORead => stuck s = true
  | _ => False
  end.

Definition fair (s : st) (o : op) (b : obs) (s' : st) : Prop :=
  (b = Rc false -> refused s o) /\ (s_stuck s' = s_stuck s \/ exists sid n, o = OOrder sid n /\ b = Rc false).

Lemma fair_ok s o b s' : b <> Rc false -> s_stuck s' = s_stuck s -> fair s o b s'.
Proof. intros B K. split; [intros X; contradiction|left; exact K]. Qed.

Lemma fair_no s o s' : refused s o -> s_stuck s' = s_stuck s -> fair s o (Rc false) s'.
Proof. intros R K. split; [intros _; exact R|left; exact K]. Qed.

Ltac fok := apply fair_ok; [discriminate|].

Lemma step_apply a s sid ok : inv a s -> proper s (OApply sid ok) -> exists s' b a', step owner perm s (OApply sid ok) = Res s' b /\ a_step owner a (OApply sid ok) b a' /\ fair s (OApply sid ok) b s' /\ inv a' s'.
Proof.
  intros I (U & F & PO). cbn [step]. assert (E := i_edit _ _ _ I sid U).
  destruct (pend_of sid s) as [| |e l] eqn:P.
  - exists s, (Rc true), (edit_none a sid). split; [reflexivity|]. split; [apply A_nothing; intros e l; rewrite E; discriminate|]. split; [fok; reflexivity|].
    constructor; try apply I. intros x UX. cbn. unfold updf. destruct (N.eqb_spec x sid) as [->|]; [symmetry; exact P|apply (i_edit _ _ _ I), UX].
  - unfold apply. destruct (stuck s) eqn:SK.
    + exists s, (Rc false), a. split; [reflexivity|]. split; [apply A_failed; exact Logic.I|]. split; [apply fair_no; [left; exact SK|reflexivity]|exact I].
    + rewrite P, (PO eq_refl). cbn [is_edit negb andb]. exists (drop_pend sid s), (Rc true), (edit_none a sid).
      split; [reflexivity|]. split; [apply A_nothing; intros e l; rewrite E; discriminate|]. split; [fok; reflexivity|apply inv_drop, I].
  - destruct (stuck s) eqn:SK.
    + exists s, (Rc false), a. split; [unfold apply; rewrite SK; reflexivity|]. split; [apply A_failed; exact Logic.I|]. split; [apply fair_no; [left; exact SK|reflexivity]|exact I].
    + assert (NW : exists r, new_layer (pend_of sid s) (current owner sid s) = Some (Some r) /\ pushed e (data_of a sid) l r).
      { rewrite P, (inv_data owner a s sid I U). destruct e; cbn; eexists; (split; [reflexivity|]); [apply merged_merge|reflexivity]. }
      destruct NW as (r & NW & PU).
      destruct (apply_ok a s sid ok (Some r) I U F SK NW) as [(s' & AP & I' & RF & KK)|(s' & o & AP & OF & PD & DD & GG & KK & I')].
      { right. rewrite P. reflexivity. }
      * rewrite AP. exists s', (Rc false), a. split; [reflexivity|]. split; [apply A_failed; exact Logic.I|]. split; [apply fair_no; [right; exact RF|exact KK]|exact I'].
      * rewrite AP. exists (drop_pend sid s'), (Rc true). eexists. split; [reflexivity|]. split; [eapply A_push; eassumption|]. split; [fok; exact KK|].
        apply (inv_drop _ _ sid) in I'. exact I'.
Qed.

Lemma step_discard a s sid ok : inv a s -> proper s (ODiscard sid ok) -> exists s' b a', step owner perm s (ODiscard sid ok) = Res s' b /\ a_step owner a (ODiscard sid ok) b a' /\ fair s (ODiscard sid ok) b s' /\ inv a' s'.
Proof.
  intros I (U & F & P). cbn [step]. destruct (stuck s) eqn:SK.
  - exists s, (Rc false), a. split; [unfold apply; rewrite SK; reflexivity|]. split; [apply A_failed; exact Logic.I|]. split; [apply fair_no; [left; exact SK|reflexivity]|exact I].
  - destruct (has_data sid s) eqn:H.
    + destruct (apply_ok a s sid ok None I U F SK) as [(s' & AP & I' & RF & KK)|(s' & o & AP & OF & PD & DD & GG & KK & I')].
      { rewrite P. reflexivity. }
      { left. exact H. }
      * rewrite AP. exists s', (Rc false), a. split; [reflexivity|]. split; [apply A_failed; exact Logic.I|]. split; [apply fair_no; [right; exact RF|exact KK]|exact I'].
      * rewrite AP. exists s', (Rc true). eexists. split; [reflexivity|]. split; [|split; [fok; exact KK|exact I']].
        rewrite (has_data_entry owner a s sid I U) in H. pose proof (i_view _ _ _ I sid U) as V. unfold order_for in OF. destruct (entry_of sid (s_arr s)) as [e|]; [|discriminate].
        rewrite V in OF. subst o. eapply A_discard. exact V.
    + exists s, (Rc true), a. split; [unfold apply; rewrite SK, H, P; reflexivity|]. split; [|split; [fok; reflexivity|exact I]]. apply A_discard_nothing.
      rewrite (inv_data owner a s sid I U). rewrite (has_current owner a s sid I U) in H. destruct (current owner sid s); [discriminate|reflexivity].
Qed.

Lemma idx_exists arr sid n e : n <> 0 -> In e arr -> e_sid e <> sid -> e_order e = n -> forall i f k, idx_loop i arr sid n f k = None.
Proof.
  intros Z. induction arr as [|x arr IH]; intros I NS O i f k; [destruct I|]. cbn [idx_loop]. assert (Y : n =? 0 = false) by (apply N.eqb_neq; exact Z).
  destruct I as [->|I].
  - apply N.eqb_neq in NS. rewrite NS, O, N.eqb_refl. reflexivity.
  - rewrite Y. destruct (e_sid x =? sid); [apply IH; assumption|]. destruct (e_order x =? n); [reflexivity|apply IH; assumption].
Qed.

Lemma others_put_same arr e sid : NoDup (sids arr) -> In e arr -> e_sid e = sid -> exists l1 l2, arr = l1 ++ e :: l2 /\ others sid arr = l1 ++ l2.
Proof. intros ND I E. apply in_split in I. destruct I as (l1 & l2 & AR). exists l1, l2. split; [exact AR|]. rewrite AR. apply others_mid; [exact E|]. rewrite <- AR. exact ND. Qed.

Lemma step_order a s sid n : inv a s -> proper s (OOrder sid n) -> exists s' b a', step owner perm s (OOrder sid n) = Res s' b /\ a_step owner a (OOrder sid n) b a' /\ fair s (OOrder sid n) b s' /\ inv a' s'.
Proof.
  intros I (U & LO). cbn [step]. destruct (N.eqb_spec n 0) as [->|Z].
  { exists s, (Rc false), a. split; [reflexivity|]. split; [apply A_failed; exact Logic.I|]. split; [apply fair_no; [cbn; tauto|reflexivity]|exact I]. }
  destruct (stuck s) eqn:SK.
  { exists s, (Rc false), a. split; [reflexivity|]. split; [apply A_failed; exact Logic.I|]. split; [apply fair_no; [cbn; tauto|reflexivity]|exact I]. }
  destruct (existsb (fun e => negb (e_sid e =? sid) && (e_order e =? n)) (s_arr s)) eqn:EX.
  { apply existsb_exists in EX. destruct EX as (e & IE & EE). apply andb_true_iff in EE. rewrite negb_true_iff, N.eqb_neq, N.eqb_eq in EE. destruct EE as [E1 E2].
    unfold update, get_idx. rewrite (idx_exists _ sid n e Z IE E1 E2). eexists. exists (Rc false), a. split; [reflexivity|]. split; [apply A_failed; exact Logic.I|].
    split; [split; [intros _; right; right; exists e; auto|right; eauto]|].
    constructor; apply I. }
  assert (NX : forall e, In e (s_arr s) -> e_sid e <> sid -> e_order e <> n).
  { intros e IE N1 N2. assert (X : existsb (fun e => negb (e_sid e =? sid) && (e_order e =? n)) (s_arr s) = true); [|congruence].
    apply existsb_exists. exists e. split; [exact IE|]. rewrite andb_true_iff, negb_true_iff, N.eqb_neq, N.eqb_eq. auto. }
  assert (AS : a_step owner a (OOrder sid n) (Rc true) (mkabs (updf (a_view a) sid (Some (n, data_of a sid))) (a_edit a) (a_base a))).
  { apply A_order; [exact Z|]. intros x l NE V. destruct (usable_dec owner s x) as [UX|UX]; [|rewrite (i_off _ _ _ I _ UX) in V; discriminate].
    rewrite (i_view _ _ _ I _ UX) in V. destruct (entry_of x (s_arr s)) as [y|] eqn:E; [|discriminate]. injection V as V _. apply entry_of_some in E. destruct E as [E E2].
    apply (NX y E); congruence. }
  assert (ED : forall arr x, usable s x -> a_edit a x = pend_of x (set_arr arr s)) by (intros arr x UX; apply (i_edit _ _ _ I), UX).
  destruct (entry_of sid (s_arr s)) as [e|] eqn:E.
  - pose proof (i_view _ _ _ I sid U) as V. rewrite E in V. apply entry_of_some in E. destruct E as [IE ES]. destruct (i_cid _ _ _ I e IE) as [EC _]. rewrite ES in EC.
    assert (ZE : e_order e <> 0) by (intros X; destruct U as (_ & UD & _); apply UD; rewrite <- EC; apply (i_zero _ _ _ I); assumption).
    assert (DA : data_of a sid = if e_has e then file (owner sid, sid) (s_files s) else None) by (unfold data_of; rewrite V; reflexivity).
    assert (UP : exists l1 l2, others sid (s_arr s) = l1 ++ l2 /\ Forall (fun e => e_order e < n) l1 /\ Forall (fun e => e_order e = 0 \/ n < e_order e) l2 /\
      update (s_arr s) (owner sid) sid n None = UOk (l1 ++ mkentry (owner sid) sid n (e_has e) :: l2)).
    { specialize (LO e IE ES). destruct (N.eq_dec n (e_order e)) as [->|NE].
      - destruct (others_put_same (s_arr s) e sid (i_nd _ _ _ I) IE ES) as (l1 & l2 & AR & OT). exists l1, l2. split; [exact OT|].
        pose proof (i_nd _ _ _ I) as ND. pose proof (i_srt _ _ _ I) as SR. rewrite AR in ND, SR.
        pose proof (upd_same l1 e l2 (owner sid) sid (e_order e) None EC ES (or_intror eq_refl) ZE ND SR) as UU. cbv iota in UU. rewrite AR, UU.
        apply srt_app in SR. destruct SR as (S1 & S2 & S3). unfold srt in S2. rewrite ords_cons in S2. apply N.eqb_neq in ZE. rewrite ZE in *. apply StronglySorted_inv in S2. destruct S2 as [S2 F2]. rewrite Forall_forall in F2.
        split; [|split; [|reflexivity]]; rewrite Forall_forall; intros x X.
        + destruct (N.eq_dec (e_order x) 0) as [->|NX0]; [lia|]. apply S3; [apply in_ords; split; [exact NX0|eauto]|]. rewrite ords_cons, ZE. left. reflexivity.
        + destruct (N.eq_dec (e_order x) 0) as [|NX0]; [left; assumption|right]. apply F2. apply in_ords. split; [exact NX0|eauto].
      - assert (L : n < e_order e) by lia. apply (upd_lower (s_arr s) e (owner sid) sid n None IE EC ES Z L (i_nd _ _ _ I) (i_srt _ _ _ I)).
        intros x IX. destruct (N.eq_dec (e_sid x) sid) as [X|X]; [|apply NX; assumption].
        assert (x = e) by (pose proof (entry_of_in sid _ x (i_nd _ _ _ I) IX X); pose proof (entry_of_in sid _ e (i_nd _ _ _ I) IE ES); congruence). subst x. lia. }
    destruct UP as (l1 & l2 & OT & A & B & UP). rewrite UP. eexists. exists (Rc true). eexists. split; [reflexivity|]. split; [exact AS|]. split; [fok; reflexivity|].
    rewrite DA. match goal with |- OperPushProofs.inv _ _ ?X => apply (inv_put a s X sid l1 l2 n (e_has e) (a_edit a) I U OT Z A B) end; try reflexivity; try apply ED; try (intros; assumption).
    + intros H. destruct (i_file _ _ _ I e IE H) as (l & L). rewrite EC, ES in L. exists l. exact L.
    + intros H. rewrite <- ES. apply (i_flag _ _ _ I); assumption.
  - assert (NI := E). apply entry_of_none in NI.
    destruct (upd_new_order (s_arr s) (owner sid) sid n None Z NI (i_srt _ _ _ I)) as (l1 & l2 & AR & A & B & UP).
    { intros x IX. apply NX; [exact IX|]. intros X. apply NI. rewrite <- X. apply in_map, IX. }
    rewrite UP. eexists. exists (Rc true). eexists. split; [reflexivity|]. split; [exact AS|]. split; [fok; reflexivity|].
    assert (DA : data_of a sid = None) by (unfold data_of; rewrite (i_view _ _ _ I sid U), E; reflexivity). rewrite DA.
    match goal with |- OperPushProofs.inv _ _ ?X => apply (inv_put a s X sid l1 l2 n false (a_edit a) I U) end; try reflexivity; try exact A; try exact B; try exact Z; try apply ED; try (intros; assumption); try discriminate.
    rewrite <- AR. apply others_none, NI.
Qed.

Lemma inv_stop a s sid : inv a s -> usable s sid -> (forall e, In e (s_arr s) -> e_sid e = sid -> e_has e = false) ->
  inv (mkabs (updf (a_view a) sid None) (updf (a_edit a) sid PNone) (a_base a)) (set_gone (sid :: s_gone s) (drop_pend sid s)).
Proof.
  intros I U NH. assert (US : forall x, usable (set_gone (sid :: s_gone s) (drop_pend sid s)) x <-> usable s x /\ x <> sid).
  { intros x. unfold OperPushProofs.usable. cbn. split; [intros (A & B & C); split; [split; [exact A|]; split; [exact B|tauto]|intros ->; tauto]|intros ((A & B & C) & D); split; [exact A|]; split; [exact B|]; intros [X|X]; [congruence|tauto]]. }
  constructor; try apply I.
  - intros e E [G|G]; [apply NH; [exact E|symmetry; exact G]|apply (i_gone _ _ _ I); assumption].
  - intros x UX. apply US in UX. destruct UX as [UX NE]. cbn [a_view]. unfold updf. apply N.eqb_neq in NE. rewrite NE. apply (i_view _ _ _ I), UX.
  - intros x UX. cbn [a_view]. unfold updf. destruct (N.eqb_spec x sid) as [->|NE]; [reflexivity|]. apply (i_off _ _ _ I). intros X. apply UX, US. auto.
  - intros x UX. apply US in UX. destruct UX as [UX NE]. cbn [a_edit]. unfold updf. change (pend_of x (set_gone (sid :: s_gone s) (drop_pend sid s))) with (pend_of x (drop_pend sid s)).
    rewrite pend_drop. destruct (x =? sid); [reflexivity|]. apply (i_edit _ _ _ I), UX.
Qed.

Lemma inv_del a s sid arr : inv a s -> usable s sid -> push_del sid (s_arr s) = Some arr ->
  forall new, inv (mkabs (updf (a_view a) sid None) (a_edit a) (a_base a)) (set_arr arr (set_files (file_set (owner sid, sid) new (s_files s)) s)) /\ ~ In sid (sids arr).
Proof.
  intros I U PD new. assert (IN : In sid (sids (s_arr s))).
  { destruct (in_dec N.eq_dec sid (sids (s_arr s))) as [X|X]; [exact X|]. exfalso. revert arr PD. induction (s_arr s) as [|e l IH]; intros arr PD; [discriminate|]. cbn in PD.
    destruct (N.eqb_spec (e_sid e) sid) as [E|E]; [apply X; left; exact E|]. destruct (push_del sid l) as [r|] eqn:R; [|discriminate]. eapply (IH ltac:(intros Y; apply X; right; exact Y)). reflexivity. }
  unfold sids in IN. apply in_map_iff in IN. destruct IN as (e & ES & IE).
  destruct (others_put_same (s_arr s) e sid (i_nd _ _ _ I) IE ES) as (l1 & l2 & AR & OT).
  assert (EA : arr = others sid (s_arr s)).
  { assert (NS : ~ In sid (sids l1)).
    { pose proof (i_nd _ _ _ I) as ND. rewrite AR in ND. unfold sids in *. rewrite map_app in ND. cbn [map] in ND. apply NoDup_remove_2 in ND. rewrite in_app_iff, ES in ND. tauto. }
    rewrite AR, push_del_mid in PD by assumption. injection PD as <-. symmetry. exact OT. }
  destruct (nodup_others sid _ (i_nd _ _ _ I)) as [ND NI]. rewrite <- EA in ND, NI. split; [|exact NI].
  assert (PI : forall x, In x arr <-> In x (s_arr s) /\ e_sid x <> sid) by (intros x; rewrite EA; apply in_others).
  constructor; cbn [s_arr s_dead s_gone s_flag s_files s_pend s_base set_arr set_files].
  - exact ND.
  - rewrite EA. apply srt_others, (i_srt _ _ _ I).
  - intros x X. apply PI in X. apply (i_cid _ _ _ I), X.
  - intros x X. apply PI in X. apply (i_zero _ _ _ I), X.
  - intros x X H. apply PI in X. destruct X as [X NE]. rewrite file_set_get. destruct (key_eqb (e_cid x, e_sid x) (owner sid, sid)) eqn:K; [apply key_eqb_eq in K; injection K as _ K; contradiction|]. apply (i_file _ _ _ I); assumption.
  - intros x X. apply PI in X. apply (i_gone _ _ _ I), X.
  - intros x X. apply PI in X. apply (i_flag _ _ _ I), X.
  - intros x UX. change (usable s x) in UX. cbn [a_view]. unfold updf. destruct (N.eqb_spec x sid) as [->|NE].
    + apply entry_of_none in NI. rewrite NI. reflexivity.
    + rewrite (i_view _ _ _ I x UX). destruct (entry_of x (s_arr s)) as [y|] eqn:E.
      * apply entry_of_some in E. destruct E as [E E2]. rewrite (entry_of_in x arr y ND); [|apply PI; split; [exact E|congruence]|exact E2].
        rewrite file_set_get. destruct (key_eqb (owner x, x) (owner sid, sid)) eqn:K; [apply key_eqb_eq in K; injection K as _ K; contradiction|reflexivity].
      * apply entry_of_none in E. assert (E2 : entry_of x arr = None); [|rewrite E2; reflexivity]. apply entry_of_none. intros X. apply E. unfold sids in *. apply in_map_iff in X.
        destruct X as (y & Y1 & Y2). apply PI in Y2. rewrite <- Y1. apply in_map, Y2.
  - intros x UX. change (~ usable s x) in UX. cbn [a_view]. unfold updf. destruct (x =? sid); [reflexivity|apply (i_off _ _ _ I), UX].
  - intros x UX. apply (i_edit _ _ _ I), UX.
  - apply (i_base _ _ _ I).
Qed.

Lemma inv_ext a a' s : inv a s -> (forall x, a_view a' x = a_view a x) -> (forall x, a_edit a' x = a_edit a x) -> a_base a' = a_base a -> inv a' s.
Proof. intros I V E B. constructor; try apply I; intros; rewrite ?V, ?E, ?B; apply I; assumption. Qed.

Lemma step_stop a s sid ok : inv a s -> proper s (OStop sid ok) -> exists s' b a', step owner perm s (OStop sid ok) = Res s' b /\ a_step owner a (OStop sid ok) b a' /\ fair s (OStop sid ok) b s' /\ inv a' s'.
Proof.
  intros I (U & P & -> & PE & SK). cbn [step].
  assert (NOH : has_data sid s = false -> forall e, In e (s_arr s) -> e_sid e = sid -> e_has e = false).
  { intros H e IE ES. rewrite (has_data_entry owner a s sid I U), (entry_of_in sid _ e (i_nd _ _ _ I) IE ES) in H. exact H. }
  destruct (mem sid (s_flag s)) eqn:FL.
  - unfold apply. rewrite SK, P. cbn [is_edit negb]. rewrite andb_true_r. destruct (has_data sid s) eqn:H; cbn [negb].
    + cbn [new_layer].
      destruct (load_ok owner a s sid None [] I) as (s1 & d1 & L1 & I1 & D1 & G1 & _ & P1 & _ & K1 & W1 & _).
      destruct (load_ok owner a s1 sid (Some None) [] I1) as (s2 & d2 & L2 & I2 & D2 & G2 & _ & P2 & _ & K2 & W2 & _).
      rewrite L1, L2, PE. cbn [andb negb]. rewrite andb_false_r.
      assert (U2 : usable s2 sid) by (unfold OperPushProofs.usable in *; rewrite D2, D1, G2, G1; exact U).
      rewrite (has_current owner a s sid I U) in H. destruct (current owner sid s) as [l|] eqn:C; [|discriminate]. cbn [olayer_eqb]. unfold store. cbn [s_arr set_files].
      assert (IN : In sid (sids (s_arr s2))).
      { rewrite <- (data_current a s s2 sid I I2 U U2) in C. unfold current in C. destruct (entry_of sid (s_arr s2)) as [e|] eqn:E; [|discriminate]. apply entry_of_some in E. destruct E as [E <-]. apply in_map, E. }
      destruct (push_del sid (s_arr s2)) as [arr|] eqn:PD.
      * destruct (inv_del a s2 sid arr I2 U2 PD None) as [ID NI]. eexists. exists (Rc true). eexists. split; [reflexivity|]. split; [apply A_stop|]. split; [fok; cbn; congruence|].
        apply (inv_stop _ _ sid) in ID; [|exact U2|].
        -- eapply inv_ext; [exact ID| | |reflexivity]; intros x; cbn; [|reflexivity]. unfold updf. destruct (x =? sid); reflexivity.
        -- intros e IE ES. exfalso. apply NI. rewrite <- ES. apply in_map, IE.
      * exfalso. clear -IN PD. induction (s_arr s2) as [|x l0 IH]; [destruct IN|]. cbn in PD. destruct (N.eqb_spec (e_sid x) sid) as [E|E]; [discriminate|].
        destruct (push_del sid l0); [discriminate|]. destruct IN as [IN|IN]; [contradiction|]. apply IH; [exact IN|reflexivity].
    + eexists. exists (Rc true). eexists. split; [reflexivity|]. split; [apply A_stop|]. split; [fok; reflexivity|]. apply inv_stop; [exact I|exact U|apply NOH; reflexivity].
  - eexists. exists (Rc true). eexists. split; [reflexivity|]. split; [apply A_stop|]. split; [fok; reflexivity|]. apply inv_stop; [exact I|exact U|].
    intros e IE ES. destruct (e_has e) eqn:H; [|reflexivity]. apply (i_flag _ _ _ I) in H; [|exact IE]. rewrite ES in H. apply mem_in in H. congruence.
Qed.

Lemma inv_crash a s c : inv a s -> inv (mkabs (fun x => if owner x =? c then None else a_view a x) (a_edit a) (a_base a)) (set_dead (c :: s_dead s) s).
Proof.
  intros I. assert (US : forall x, usable (set_dead (c :: s_dead s) s) x <-> usable s x /\ owner x <> c).
  { intros x. unfold OperPushProofs.usable. cbn. split; [intros (A & B & C); split; [split; [exact A|]; split; [tauto|exact C]|intros X; apply B; left; congruence]|intros ((A & B & C) & D); split; [exact A|]; split; [intros [X|X]; [congruence|tauto]|exact C]]. }
  constructor; try apply I.
  - intros e E Z. right. apply (i_zero _ _ _ I); assumption.
  - intros x UX. apply US in UX. destruct UX as [UX NE]. cbn [a_view]. apply N.eqb_neq in NE. rewrite NE. apply (i_view _ _ _ I), UX.
  - intros x UX. cbn [a_view]. destruct (N.eqb_spec (owner x) c) as [|NE]; [reflexivity|]. apply (i_off _ _ _ I). intros X. apply UX, US. auto.
  - intros x UX. apply US in UX. apply (i_edit _ _ _ I), UX.
Qed.

Lemma idx_found arr sid : forall i n f k r, In sid (sids arr) \/ f <> None -> idx_loop i arr sid n f k = Some r -> snd (fst r) <> None.
Proof.
  induction arr as [|e arr IH]; intros i n f k r H; cbn [idx_loop].
  - intros X. injection X as <-. destruct H as [[]|H]; exact H.
  - destruct (N.eqb_spec (e_sid e) sid) as [E|E].
    + intros X. eapply IH; [|exact X]. right. discriminate.
    + destruct (e_order e =? n); [discriminate|]. intros X. eapply IH; [|exact X]. destruct H as [[H|H]|H]; [contradiction|left; exact H|right; exact H].
Qed.

Lemma step_crash_fill a s sid n : inv a s -> proper s (OCrashFill sid n) -> exists s' b a', step owner perm s (OCrashFill sid n) = Res s' b /\ a_step owner a (OCrashFill sid n) b a' /\ fair s (OCrashFill sid n) b s' /\ inv a' s'.
Proof.
  intros I U. cbn [step proper] in *. pose proof (inv_crash a s (owner sid) I) as IC.
  assert (DEF : exists s' b a', Res (set_dead (owner sid :: s_dead s) s) (Rc true) = Res s' b /\ a_step owner a (OCrashFill sid n) b a' /\ fair s (OCrashFill sid n) b s' /\ inv a' s').
  { eexists. eexists. eexists. split; [reflexivity|]. split; [apply A_crash_in|]. split; [fok; reflexivity|exact IC]. }
  destruct (get_idx (s_arr s) sid n) as [[[o [f|]] k]|] eqn:G; [exact DEF| |exact DEF].
  assert (NI : ~ In sid (sids (s_arr s))).
  { unfold get_idx in G. destruct (idx_loop 0 (s_arr s) sid n None None) as [[[o' f'] k']|] eqn:L; [|discriminate]. injection G as _ F _. intros X.
    apply (idx_found _ _ _ _ _ _ _ (or_introl X) L). exact F. }
  eexists. exists (Rc true). eexists. split; [reflexivity|]. split; [apply A_crash_in|]. split; [fok; reflexivity|].
  set (x := mkentry (owner sid) sid 0 false). set (s0 := set_dead (owner sid :: s_dead s) s) in *.
  assert (EQ : s_arr s = firstn k (s_arr s) ++ skipn k (s_arr s)) by (symmetry; apply firstn_skipn).
  unfold insert_at. set (l1 := firstn k (s_arr s)) in *. set (l2 := skipn k (s_arr s)) in *.
  assert (PI : forall e, In e (l1 ++ x :: l2) -> e = x \/ In e (s_arr s)).
  { intros e E. apply in_elt_inv in E. rewrite EQ. destruct E as [E|E]; [left; exact E|right; exact E]. }
  assert (ND : NoDup (sids (l1 ++ x :: l2))) by (apply nodup_put; cbn [e_sid x]; rewrite <- EQ; [apply (i_nd _ _ _ I)|exact NI]).
  constructor; cbn [s_arr s_dead s_gone s_flag s_files s_pend s_base set_arr].
  - exact ND.
  - unfold srt. rewrite ords_app, ords_cons. cbn [e_order x N.eqb]. rewrite <- ords_app, <- EQ. apply (i_srt _ _ _ I).
  - intros e E. apply PI in E. destruct E as [->|E]; [split; [reflexivity|apply U]|apply (i_cid _ _ _ IC), E].
  - intros e E Z. apply PI in E. destruct E as [->|E]; [left; reflexivity|apply (i_zero _ _ _ IC); assumption].
  - intros e E H. apply PI in E. destruct E as [->|E]; [discriminate|apply (i_file _ _ _ IC); assumption].
  - intros e E H. apply PI in E. destruct E as [->|E]; [reflexivity|apply (i_gone _ _ _ IC); assumption].
  - intros e E H. apply PI in E. destruct E as [->|E]; [discriminate|apply (i_flag _ _ _ IC); assumption].
  - intros y UY. change (usable s0 y) in UY. rewrite (i_view _ _ _ IC y UY). assert (NE : y <> sid) by (intros ->; destruct UY as (_ & UY & _); apply UY; left; reflexivity).
    assert (EN : entry_of y (l1 ++ x :: l2) = entry_of y (s_arr s)).
    { destruct (entry_of y (s_arr s)) as [e|] eqn:E.
      - apply entry_of_some in E. destruct E as [E ES]. apply entry_of_in; [exact ND| |exact ES]. rewrite EQ in E. apply in_app_or in E. apply in_or_app. cbn. tauto.
      - apply entry_of_none. apply entry_of_none in E. intros X. unfold sids in X. apply in_map_iff in X. destruct X as (e & ES & X). apply PI in X.
        destruct X as [->|X]; [cbn in ES; congruence|]. apply E. rewrite <- ES. apply in_map, X. }
    rewrite EN. reflexivity.
  - intros y UY. apply (i_off _ _ _ IC). exact UY.
  - intros y UY. apply (i_edit _ _ _ IC). exact UY.
  - apply (i_base _ _ _ I).
Qed.

(** A proper operation never ends with a failed assert or outside of the array, and it does what the
    specification says. *)
Lemma step_ok a s o : inv a s -> proper s o -> exists s' b a', step owner perm s o = Res s' b /\ a_step owner a o b a' /\ fair s o b s' /\ inv a' s'.
Proof.
  intros I P. destruct o.
  - eexists. exists (Rc true). eexists. split; [reflexivity|]. split; [apply A_edit|]. split; [fok; reflexivity|]. constructor; try apply I.
    intros x U. cbn [a_edit]. unfold updf, pend_of. cbn [s_pend set_pend find fst]. rewrite (N.eqb_sym sid x). destruct (x =? sid); [reflexivity|]. apply (i_edit _ _ _ I), U.
  - apply step_apply; assumption.
  - apply step_discard; assumption.
  - apply step_order; assumption.
  - apply step_stop; assumption.
  - eexists. exists (Rc true). eexists. split; [reflexivity|]. split; [apply A_crash|]. split; [fok; reflexivity|apply inv_crash, I].
  - apply step_crash_fill; assumption.
  - destruct P.
  - eexists. exists (Rc true). eexists. split; [reflexivity|]. split; [apply A_base|]. split; [fok; reflexivity|]. constructor; try apply I. reflexivity.
  - cbn [step]. destruct (stuck s) eqn:SK.
    + exists s, (Rc false), a. split; [reflexivity|]. split; [apply A_failed; exact Logic.I|]. split; [apply fair_no; [exact SK|reflexivity]|exact I].
    + destruct (load_read owner a s I P) as (s' & d & L & I' & SH & K). rewrite L. exists s', (Read d), a. split; [reflexivity|]. split; [apply A_read, SH|]. split; [fok; exact K|exact I'].
Qed.

Lemma inv_init base : inv (a_init base) (init base).
Proof. constructor; cbn; intros; try contradiction; try reflexivity; constructor. Qed.

End Sys.
