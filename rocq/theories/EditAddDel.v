(** Deleting, and nodes of the edit found by a call: the meaning of the edit. *)
From Coq Require Import List Bool Arith Lia.
From Verif Require Import Edit EditSpec EditProofs EditOps EditSem EditTotal EditAdd EditAddSpec EditAddBase EditAddInv EditAddPres EditAddSem.
Import ListNotations.

Section P.
Variable kd : nat -> kind.
Variable nullok : nat -> bool.
Notation key := (EditSpec.key kd).
Notation ident := (EditSpec.ident kd).
Notation eident := (EditSpec.eident kd).
Notation lk := (EditSpec.lk kd).
Notation get := (EditSpec.get kd).
Notation sp := (EditSpec.sp kd).
Notation kids := (kids kd).
Notation fe := (fe kd).
Notation nview := (nview kd).

Lemma own_eown : forall e, own_of e = eown e.
Proof. intros [s v b o i ch]. reflexivity. Qed.
Lemma inve_term : forall dl hr e, inve kd dl hr e -> term (kd (esch e)) = true -> ch_of e = [].
Proof. intros dl hr [s v b own i ch] H. apply inve_iff in H. destruct H as (((_ & _ & T & _) & _) & _). exact T. Qed.
Lemma inve_tgt : forall dl hr e, inve kd dl hr e -> ch_of e = [] -> tgt (own_of e).
Proof. intros dl hr [s v b own i ch] H. apply inve_iff in H. destruct H as ((_ & (_ & T & _) & _) & _). exact T. Qed.
Lemma inve_cont : forall dl hr e, inve kd dl hr e -> match kd (esch e) with KCont _ => eval e = 0 | _ => True end.
Proof. intros dl hr [s v b own i ch] H. apply inve_iff in H. destruct H as (((_ & V & _) & _) & _). exact V. Qed.
(** Values of nodes that are not leaves. *)
Lemma eval_id : forall dl hr e id, inve kd dl hr e -> eident e = id -> kd (esch e) <> KLeaf -> eval e = snd id.
Proof.
  intros dl hr e id H <- N. apply inve_cont in H. unfold EditSpec.eident, EditSpec.key. cbn [snd]. destruct (kd (esch e)); cbn [inst]; try reflexivity; try exact H; exfalso; apply N; reflexivity.
Qed.
Lemma chain_own : forall op value i id id' r, own_of (chain kd op value i id (id' :: r)) = None.
Proof. reflexivity. Qed.

(** ** Everything removed *)
Lemma rm_all : forall e, have_op Remove e = true -> forall c old, sp c false (Some Remove) e old = Some None.
Proof.
  apply (enode_ind2 (fun e => have_op Remove e = true -> forall c old, sp c false (Some Remove) e old = Some None)). intros s v b own i ch IH H c old.
  cbn [have_op] in H. apply andb_prop in H. destruct H as (H1 & H2). rewrite forallb_forall in H2. rewrite Forall_forall in IH.
  assert (Kk : forall c' olds, exists K, kids c' (Some Remove) ch olds = Some K).
  { intros c' olds. apply kids_make. intros e He. rewrite (IH e He (H2 e He)). discriminate. }
  rewrite (sp_spk kd c (Some Remove) s v b own i ch Remove old); [|destruct own as [o|]; [apply eop_eqb_eq in H1; subst o|]; reflexivity|discriminate].
  unfold spk. cbn [deletes]. destruct old as [d|].
  - destruct (Kk Deleted (dch d)) as (K & ->). destruct c; reflexivity.
  - destruct (Kk Deleted []) as (K1 & Q1). destruct (Kk Missing []) as (K2 & Q2). destruct c; try rewrite Q1; try rewrite Q2; reflexivity.
Qed.
Lemma rm_kids : forall ch c olds, forallb (have_op Remove) ch = true -> exists K, kids c (Some Remove) ch olds = Some K.
Proof. intros ch c olds H. rewrite forallb_forall in H. apply kids_make. intros e He. rewrite (rm_all e (H e He)). discriminate. Qed.
Lemma have_op_chain : forall op value i r id, have_op op (chain kd op value i id r) = true.
Proof.
  intros op value i. induction r as [|id' r IH]; intros id; cbn [chain have_op forallb]; [|rewrite IH; reflexivity]. rewrite (proj2 (eop_eqb_eq op op) eq_refl). reflexivity.
Qed.

(** Everything deleted: it was there before. *)
Definition eno (o : eop) (op : eop) : Prop := o = Ether \/ o = Non \/ o = op.
Lemma base_lk : forall id olds y, lk id (base_of olds) = Some y -> exists d, olds = Some d.
Proof. intros id [d|] y H; [exists d; reflexivity|discriminate]. Qed.
Lemma del_all : forall e, forall dl hr c inh old r o, inve kd dl hr e -> have_op Delete e = true -> okinh inh -> oper inh e = Some o -> eno o Delete ->
  (forall d, old = Some d -> ident d = eident e) -> sp c false inh e old = Some r ->
  (exists d, old = Some d) /\ forall c', sp c' false (Some Delete) e old = Some None.
Proof.
  apply (enode_ind2 (fun e => forall dl hr c inh old r o, inve kd dl hr e -> have_op Delete e = true -> okinh inh -> oper inh e = Some o -> eno o Delete ->
    (forall d, old = Some d -> ident d = eident e) -> sp c false inh e old = Some r -> (exists d, old = Some d) /\ forall c', sp c' false (Some Delete) e old = Some None)).
  intros s v b own i ch IH dl hr c inh old r o Iv H Oi Oe En Io Hs. assert (Oke := inve_ok _ _ _ _ Iv). assert (Ok := okop_oper inh _ o Oi Oke Oe).
  assert (Od : oper (Some Delete) (E s v b own i ch) = Some Delete).
  { cbn [have_op] in H. apply andb_prop in H. destruct H as (H & _). unfold oper. cbn [own_of]. destruct own as [o1|]; [apply eop_eqb_eq in H; subst o1|]; reflexivity. }
  assert (OkD : okinh (Some Delete)) by (split; discriminate).
  rewrite (sp_e kd c inh _ old o Oi Oke Oe) in Hs. cbn [esch eval ch_of] in Hs.
  assert (Fn : forall d K, old = Some d -> is_default kd d = false -> kids Deleted (Some Delete) ch (dch d) = Some K -> (exists d, old = Some d) /\ forall c', sp c' false (Some Delete) (E s v b own i ch) old = Some None).
  { intros d K -> Df Hk. split; [exists d; reflexivity|]. intros c'. rewrite (sp_e kd c' (Some Delete) _ (Some d) Delete OkD Oke Od). cbn [esch eval ch_of]. unfold spk. cbn [deletes]. rewrite Df, Hk. destruct c'; reflexivity. }
  assert (Dd : o = Delete -> (exists d, old = Some d) /\ forall c', sp c' false (Some Delete) (E s v b own i ch) old = Some None).
  { intros ->. unfold spk in Hs. cbn [deletes] in Hs. destruct old as [d|]; [|destruct c; discriminate]. destruct (is_default kd d) eqn:Df; [destruct c; discriminate|].
    destruct (kids Deleted (Some Delete) ch (dch d)) as [K|] eqn:Hk; [|destruct c; discriminate]. exact (Fn d K eq_refl Df Hk). }
  assert (On : o = Ether \/ o = Non -> (exists d, old = Some d) /\ forall c', sp c' false (Some Delete) (E s v b own i ch) old = Some None).
  { intros E0. assert (Nc : ch <> []).
    { intros X. assert (T := inve_tgt _ _ _ Iv X). unfold oper in Oe. cbn [own_of] in *. destruct own as [o1|]; [injection Oe as ->; destruct E0 as [-> | ->]; exact T|exact T]. }
    destruct (spk_io kd _ _ _ _ _ _ _ Ok Hs) as (val & Ke & Hke & _). assert (Ic := inve_ch kd _ _ _ Iv). cbn [own_of ch_of] in Ic.
    cbn [have_op] in H. apply andb_prop in H. destruct H as (_ & H). rewrite forallb_forall in H. rewrite Forall_forall in IH.
    assert (Ch : forall y, In y ch -> (exists d, lk (eident y) (base_of old) = Some d) /\ forall c', sp c' false (Some Delete) y (lk (eident y) (base_of old)) = Some None).
    { intros y Hy. destruct (kids_each kd _ _ _ _ _ Hke y Hy) as (ry & Ry). destruct (sp_e_none kd _ _ _ _ _ Ry) as (oy & Oy). assert (Iy := inv_in _ _ _ _ _ Ic Hy).
      apply (IH y Hy _ _ (cc c o old) (Some o) (lk (eident y) (base_of old)) ry oy Iy (H y Hy)); [exact Ok|exact Oy| | |exact Ry].
      - assert (Hy' := H y Hy). destruct y as [s1 v1 b1 own1 i1 ch1]. cbn [have_op] in Hy'. apply andb_prop in Hy'. unfold oper in Oy. cbn [own_of] in Oy. destruct own1 as [o1|]; injection Oy as <-.
        + right. right. apply eop_eqb_eq. apply Hy'.
        + destruct E0 as [-> | ->]; [left|right; left]; reflexivity.
      - intros d Hd. apply lk_some in Hd. apply Hd. }
    destruct ch as [|y0 ch0]; [contradiction|]. destruct (Ch y0 (or_introl eq_refl)) as ((d0 & Hd0) & _). destruct (base_lk _ _ _ Hd0) as (d & Od0).
    destruct (kids_make kd Deleted (Some Delete) (y0 :: ch0) (dch d)) as (K & Hk).
    { intros y Hy. destruct (Ch y Hy) as (_ & X). rewrite Od0 in X. cbn [base_of] in X. rewrite X. discriminate. }
    apply (Fn d K Od0); [|exact Hk]. unfold is_default. assert (T : term (kd (dsch d)) = false); [|rewrite T; reflexivity].
    specialize (Io d Od0). unfold EditSpec.ident, EditSpec.eident in Io. injection Io as -> _. destruct (term (kd s)) eqn:T; [|reflexivity]. apply (inve_term _ _ _ Iv) in T. discriminate. }
  destruct En as [-> |[-> |En]]; [apply On; left; reflexivity|apply On; right; reflexivity|exact (Dd En)].
Qed.

(** ** Everything set: it is there after. *)
Lemma set_all : forall op, op = Merge \/ op = Create -> forall e, forall dl hr c inh old r o, inve kd dl hr e -> have_op op e = true -> okinh inh -> oper inh e = Some o -> eno o op ->
  (c = Present \/ (c = Missing /\ old = None)) -> sp c false inh e old = Some r -> c = Present /\ r <> None.
Proof.
  intros op Op. apply (enode_ind2 (fun e => forall dl hr c inh old r o, inve kd dl hr e -> have_op op e = true -> okinh inh -> oper inh e = Some o -> eno o op ->
    (c = Present \/ (c = Missing /\ old = None)) -> sp c false inh e old = Some r -> c = Present /\ r <> None)).
  intros s v b own i ch IH dl hr c inh old r o Iv H Oi Oe En Hc Hs. assert (Oke := inve_ok _ _ _ _ Iv). assert (Ok := okop_oper inh _ o Oi Oke Oe).
  rewrite (sp_e kd c inh _ old o Oi Oke Oe) in Hs. cbn [esch eval ch_of] in Hs. destruct (spk_io kd _ _ _ _ _ _ _ Ok Hs) as (val & Ke & Hke & Er & _). destruct (spk_ctx kd _ _ _ _ _ _ _ Hs) as (_ & Cx).
  assert (Dd : o = op -> c = Present /\ r <> None).
  { intros ->. split; [|rewrite Er; destruct Op as [-> | ->]; discriminate]. destruct Hc as [-> |(-> & ->)]; [reflexivity|]. exfalso. destruct (Cx eq_refl) as (_ & _ & X). destruct X as [X|X]; [discriminate|destruct Op as [-> | ->]; discriminate|destruct Op as [-> | ->]; discriminate]. }
  assert (On : o = Ether \/ o = Non -> c = Present /\ r <> None).
  { intros E0. assert (Nc : ch <> []).
    { intros X. assert (T := inve_tgt _ _ _ Iv X). unfold oper in Oe. cbn [own_of] in *. destruct own as [o1|]; [injection Oe as ->; destruct E0 as [-> | ->]; exact T|exact T]. }
    assert (Ic := inve_ch kd _ _ _ Iv). cbn [own_of ch_of] in Ic. cbn [have_op] in H. apply andb_prop in H. destruct H as (_ & H). rewrite forallb_forall in H. rewrite Forall_forall in IH.
    destruct ch as [|y ch0]; [contradiction|]. destruct (kids_each kd _ _ _ _ _ Hke y (or_introl eq_refl)) as (ry & Ry). destruct (sp_e_none kd _ _ _ _ _ Ry) as (oy & Oy).
    destruct (IH y (or_introl eq_refl) _ _ (cc c o old) (Some o) (lk (eident y) (base_of old)) ry oy (inv_in _ _ _ _ _ Ic (or_introl eq_refl)) (H y (or_introl eq_refl)) Ok Oy) as (Cp & _).
    - assert (Hy' := H y (or_introl eq_refl)). destruct y as [s1 v1 b1 own1 i1 ch1]. cbn [have_op] in Hy'. apply andb_prop in Hy'. unfold oper in Oy. cbn [own_of] in Oy. destruct own1 as [o1|]; injection Oy as <-.
      + right. right. apply eop_eqb_eq. apply Hy'.
      + destruct E0 as [-> | ->]; [left|right; left]; reflexivity.
    - destruct old as [d|]; [destruct E0 as [-> | ->]; left; reflexivity|]. destruct (Cx eq_refl) as (C1 & _). destruct E0 as [-> | ->]; [|contradiction]. right. split; [|reflexivity]. destruct Hc as [-> |(-> & _)]; reflexivity.
    - exact Ry.
    - destruct old as [d|].
      + split; [destruct Hc as [-> |(_ & X)]; [reflexivity|discriminate]|]. rewrite Er. destruct E0 as [-> | ->]; discriminate.
      + exfalso. destruct (Cx eq_refl) as (C1 & _). destruct E0 as [-> | ->]; [|contradiction]. destruct c; discriminate. }
  destruct En as [-> |[-> |En]]; [apply On; left; reflexivity|apply On; right; reflexivity|exact (Dd En)].
Qed.
(** Children under an operation that only checks. *)
Lemma set_kids : forall op dl hr c o ch old Ke, op = Merge \/ op = Create -> inv kd dl hr ch -> forallb (have_op op) ch = true -> ch <> [] -> o = Ether \/ o = Non ->
  (c = Present \/ (c = Missing /\ old = None)) -> kids c (Some o) ch (base_of old) = Some Ke -> c = Present.
Proof.
  intros op dl hr c o ch old Ke Op Ic H Nc E0 Hc Hke. rewrite forallb_forall in H. destruct ch as [|y ch0]; [contradiction|]. assert (Ok : okop o) by (destruct E0 as [-> | ->]; split; discriminate).
  destruct (kids_each kd _ _ _ _ _ Hke y (or_introl eq_refl)) as (ry & Ry). destruct (sp_e_none kd _ _ _ _ _ Ry) as (oy & Oy).
  destruct (set_all op Op y _ _ c (Some o) (lk (eident y) (base_of old)) ry oy (inv_in _ _ _ _ _ Ic (or_introl eq_refl)) (H y (or_introl eq_refl)) Ok Oy) as (Cp & _); [| |exact Ry|exact Cp].
  - assert (Hy' := H y (or_introl eq_refl)). destruct y as [s1 v1 b1 own1 i1 ch1]. cbn [have_op] in Hy'. apply andb_prop in Hy'. unfold oper in Oy. cbn [own_of] in Oy. destruct own1 as [o1|]; injection Oy as <-.
    + right. right. apply eop_eqb_eq. apply Hy'.
    + destruct E0 as [-> | ->]; [left|right; left]; reflexivity.
  - destruct Hc as [-> |(-> & ->)]; [left; reflexivity|right; split; reflexivity].
Qed.
(** Merging of what is merged below anyway. *)
Lemma kids_eq : forall c inh inh' es olds K, kids c inh es olds = Some K -> (forall e r, In e es -> sp c false inh e (lk (eident e) olds) = Some r -> sp c false inh' e (lk (eident e) olds) = Some r) -> kids c inh' es olds = Some K.
Proof.
  intros c inh inh' es olds K H Q. unfold EditAddBase.kids in *. assert (X : map (fun e => sp c false inh' e (lk (eident e) olds)) es = map (fun e => sp c false inh e (lk (eident e) olds)) es).
  { apply map_ext_in. intros e He. destruct (kids_each kd c inh es olds K H e He) as (r & R). rewrite R. exact (Q e r He R). }
  rewrite X. exact H.
Qed.
Lemma mrg_all : forall e, forall dl hr inh old r o, inve kd dl hr e -> have_op Merge e = true -> okinh inh -> oper inh e = Some o -> eno o Merge ->
  (forall d, old = Some d -> wfd kd d /\ ident d = eident e) -> sp Present false inh e old = Some r -> sp Present false (Some Merge) e old = Some r.
Proof.
  apply (enode_ind2 (fun e => forall dl hr inh old r o, inve kd dl hr e -> have_op Merge e = true -> okinh inh -> oper inh e = Some o -> eno o Merge ->
    (forall d, old = Some d -> wfd kd d /\ ident d = eident e) -> sp Present false inh e old = Some r -> sp Present false (Some Merge) e old = Some r)).
  intros s v b own i ch IH dl hr inh old r o Iv H Oi Oe En Io Hs. assert (Oke := inve_ok _ _ _ _ Iv). assert (Ok := okop_oper inh _ o Oi Oke Oe).
  destruct own as [o1|] eqn:Eo; [rewrite (sp_own_some kd Present inh (Some Merge) _ _ o1); [exact Hs|reflexivity]|].
  assert (Einh : inh = Some o) by exact Oe.
  assert (Dd : o = Merge -> sp Present false (Some Merge) (E s v b None i ch) old = Some r) by (intros X; rewrite <- X, <- Einh; exact Hs).
  assert (On : o = Ether \/ o = Non -> sp Present false (Some Merge) (E s v b None i ch) old = Some r).
  { intros E0. rewrite (sp_e kd Present inh _ old o Oi Oke Oe) in Hs. cbn [esch eval ch_of] in Hs. destruct (spk_io kd _ _ _ _ _ _ _ Ok Hs) as (val & Ke & Hke & Er & Val & _). destruct (spk_ctx kd _ _ _ _ _ _ _ Hs) as (_ & Cx).
    assert (Nc : ch <> []) by (intros X; exact (inve_tgt _ _ _ Iv X)).
    assert (Ic := inve_ch kd _ _ _ Iv). cbn [own_of ch_of] in Ic. cbn [have_op] in H. apply andb_prop in H. destruct H as (_ & H).
    assert (Cp : cc Present o old = Present).
    { apply (set_kids Merge _ _ _ o ch old Ke (or_introl eq_refl) Ic H Nc E0); [|exact Hke]. destruct old as [d|]; [left; destruct E0 as [-> | ->]; reflexivity|]. destruct (Cx eq_refl) as (C1 & _). destruct E0 as [-> | ->]; [|contradiction]. right. split; reflexivity. }
    destruct old as [d|]; [|exfalso; destruct E0 as [-> | ->]; discriminate]. rewrite Cp in Hke. cbn [base_of] in Hke. destruct (Io d eq_refl) as (Wd & Id).
    assert (T : term (kd s) = false) by (destruct (term (kd s)) eqn:T; [apply (inve_term _ _ _ Iv) in T; contradiction|reflexivity]).
    assert (Vd : dval d = v) by (apply (nonterm_val kd s v d _ Id); [reflexivity|exact Wd|exact T|exact (inve_cont _ _ _ Iv)]).
    assert (Hk : kids Present (Some Merge) ch (dch d) = Some Ke).
    { apply (kids_eq Present (Some o) (Some Merge) ch (dch d) Ke Hke). intros y ry Hy Ry. rewrite forallb_forall in H. rewrite Forall_forall in IH. destruct (sp_e_none kd _ _ _ _ _ Ry) as (oy & Oy).
      apply (IH y Hy _ _ (Some o) _ ry oy (inv_in _ _ _ _ _ Ic Hy) (H y Hy) Ok Oy); [| |exact Ry].
      - assert (Hy' := H y Hy). destruct y as [s1 v1 b1 own1 i1 ch1]. cbn [have_op] in Hy'. apply andb_prop in Hy'. unfold oper in Oy. cbn [own_of] in Oy. destruct own1 as [o1|]; injection Oy as <-.
        + right. right. apply eop_eqb_eq. apply Hy'.
        + destruct E0 as [-> | ->]; [left|right; left]; reflexivity.
      - intros x Hx. assert (Wc : wf_data kd (dch d)) by (destruct d; apply wfd_all in Wd; apply Wd). destruct (lk_wfd kd _ _ _ Wc Hx) as (A & B & _). split; assumption. }
    rewrite (sp_spk kd Present (Some Merge) s v b None i ch Merge (Some d) eq_refl); [|discriminate]. unfold spk. cbn [deletes]. rewrite Hk. rewrite Er. f_equal.
    destruct Val as [-> |(d' & Q & ->)]; [destruct E0 as [-> | ->]; reflexivity|injection Q as <-; rewrite Vd; destruct E0 as [-> | ->]; reflexivity]. }
  destruct En as [-> |[-> |En]]; [apply On; left; reflexivity|apply On; right; reflexivity|exact (Dd En)].
Qed.
Lemma mrg_kids : forall dl hr o ch olds Ke, inv kd dl hr ch -> forallb (have_op Merge) ch = true -> o = Ether \/ o = Non -> wf_data kd olds ->
  kids Present (Some o) ch olds = Some Ke -> kids Present (Some Merge) ch olds = Some Ke.
Proof.
  intros dl hr o ch olds Ke Ic H E0 W Hke. apply (kids_eq Present (Some o) (Some Merge) ch olds Ke Hke). intros y ry Hy Ry. rewrite forallb_forall in H. destruct (sp_e_none kd _ _ _ _ _ Ry) as (oy & Oy). assert (Ok : okop o) by (destruct E0 as [-> | ->]; split; discriminate).
  apply (mrg_all y _ _ (Some o) _ ry oy (inv_in _ _ _ _ _ Ic Hy) (H y Hy) Ok Oy); [| |exact Ry].
  - assert (Hy' := H y Hy). destruct y as [s1 v1 b1 own1 i1 ch1]. cbn [have_op] in Hy'. apply andb_prop in Hy'. unfold oper in Oy. cbn [own_of] in Oy. destruct own1 as [o1|]; injection Oy as <-.
    + right. right. apply eop_eqb_eq. apply Hy'.
    + destruct E0 as [-> | ->]; [left|right; left]; reflexivity.
  - intros x Hx. destruct (lk_wfd kd _ _ _ W Hx) as (A & B & _). split; assumption.
Qed.
End P.
