(** The invariant of prepared edits is kept by calls that do not get into each other's way. *)
From Coq Require Import List Bool Arith Lia.
From Verif Require Import Edit EditSpec EditProofs EditOps EditSem EditTotal EditAdd EditAddSpec EditAddBase EditAddInv.
Import ListNotations.

(** All own operations are of a class. *)
Fixpoint opsA (A : eop -> bool) (e : enode) : bool :=
  match e with E _ _ _ own _ ch => (match own with Some o => A o | None => true end) && forallb (opsA A) ch end.
Definition inhA (A : eop -> bool) (inh : option eop) : Prop := match inh with Some o => A o = true | None => True end.
Definition delA (o : eop) : bool := match o with Ether | Non | Remove | Delete => true | _ => false end.
Definition weakA (o : eop) : bool := match o with Ether | Remove => true | _ => false end.

Section P.
Variable kd : nat -> kind.
Variable nullok : nat -> bool.
Notation key := (EditSpec.key kd).
Notation ident := (EditSpec.ident kd).
Notation eident := (EditSpec.eident kd).

Definition defop (d : eop) : Prop := d = Merge \/ d = Non \/ d = Ether.
Lemma sup_yes : forall def o d, superior def o = SYes d -> defop def -> deletes o = false \/ def <> Merge -> d = def /\ (o = Ether \/ o = Non).
Proof. intros def o d H [-> |[-> | ->]] [D|D]; destruct o; cbn in H; try discriminate; try congruence; injection H as <-; split; auto; discriminate || contradiction. Qed.
Lemma dl_oper : forall inh e, dl_of (delo inh) (own_of e) = delo (oper inh e).
Proof. intros inh e. unfold oper, dl_of. destruct (own_of e); reflexivity. Qed.
Lemma okinh_oper : forall inh e, okinh inh -> okown e -> okinh (oper inh e).
Proof. intros inh [s v b own i ch] H K. unfold oper, okown in *. cbn [own_of eown] in *. destruct own; assumption. Qed.

Lemma inv_hist0 : forall dl hr ch b, inv kd dl hr ch -> inv kd dl (([], b) :: hr) ch.
Proof.
  intros dl hr ch b (N & J & F). split; [exact N|]. split; [|exact F]. intros id r b' [X|X]; [discriminate|]. exact (J id r b' X).
Qed.

(** A node on the path with new children. *)
Lemma inve_path : forall dl hr r b e own' ch', inve kd dl hr e -> r <> [] -> term (kd (esch e)) = false -> ch' <> [] ->
  (own' = own_of e \/ (dl_of dl (own_of e) = false /\ dl = false /\ (own' = None \/ own' = Some Merge \/ own' = Some Non))) ->
  inv kd (dl_of dl own') ((r, b) :: hr) ch' -> inve kd dl ((r, b) :: hr) (set_own own' (set_ch ch' e)).
Proof.
  intros dl hr r b [s v bb own i ch] own' ch' H Nr T Nc Q I. cbn [own_of esch set_own set_ch] in *. apply inve_iff in H. apply inve_iff. destruct H as (((B & V & _ & Ii) & (H2 & H3 & H4) & (A & Bn & C & Dn)) & _).
  split; [split; [split; [exact B|split; [exact V|split; [intros X; congruence|exact Ii]]]|split]|exact I].
  - destruct Q as [-> |(_ & _ & [-> |[-> | ->]])].
    + split; [exact H2|]. split; [intros X; contradiction|exact H4].
    + split; [exact Logic.I|]. split; [intros X; contradiction|discriminate].
    + split; [split; discriminate|]. split; [intros X; contradiction|discriminate].
    + split; [split; discriminate|]. split; [intros X; contradiction|discriminate].
  - assert (Z : In ([], true) ((r, b) :: hr) -> In ([], true) hr) by (intros [X|X]; [injection X as -> ->; contradiction|exact X]).
    destruct Q as [-> |(Q1 & -> & Q)].
    + split; [intros X; right; exact (A X)|]. split; [intros X; exact (Bn (Z X))|]. split; [exact C|discriminate].
    + split; [intros X; destruct Q as [-> |[-> | ->]]; discriminate|]. split; [intros X; specialize (Bn (Z X)); congruence|]. split; [discriminate|discriminate].
Qed.
Lemma set_own_same : forall e, set_own (own_of e) e = e.
Proof. intros [s v b own i ch]. reflexivity. Qed.
Lemma own_ch : forall ch e, own_of (set_ch ch e) = own_of e.
Proof. intros ch' [s v b own i ch]. reflexivity. Qed.
Lemma set_own_ch : forall ch e, set_own (own_of e) (set_ch ch e) = set_ch ch e.
Proof. intros ch' [s v b own i ch]. reflexivity. Qed.
Lemma esch_id : forall id e, eident e = id -> esch e = fst id.
Proof. intros id e <-. reflexivity. Qed.
Lemma inve_ch : forall dl hr e, inve kd dl hr e -> inv kd (dl_of dl (own_of e)) hr (ch_of e).
Proof. intros dl hr [s v b own i ch] H. apply inve_iff in H. apply H. Qed.
Lemma inve_j9 : forall dl hr e, inve kd dl hr e -> dl = true -> own_of e = None \/ delo (own_of e) = true.
Proof. intros dl hr [s v b own i ch] H. apply inve_iff in H. destruct H as ((_ & _ & (_ & _ & C & _)) & _). exact C. Qed.
Lemma inve_j4 : forall dl hr e, inve kd dl hr e -> delo (own_of e) = true -> In ([], true) hr.
Proof. intros dl hr [s v b own i ch] H. apply inve_iff in H. destruct H as ((_ & _ & (A & _)) & _). exact A. Qed.
Lemma inve_j2 : forall dl hr e, inve kd dl hr e -> In ([], true) hr -> dl_of dl (own_of e) = true.
Proof. intros dl hr [s v b own i ch] H. apply inve_iff in H. destruct H as ((_ & _ & (_ & B & _)) & _). exact B. Qed.
Lemma inve_j0 : forall dl hr e, inve kd dl hr e -> hr <> [].
Proof. intros dl hr [s v b own i ch] H. apply inve_iff in H. destruct H as ((_ & _ & (_ & _ & _ & B)) & _). exact B. Qed.
Lemma inv_nonempty : forall dl id r b hr ch, inv kd dl ((id :: r, b) :: hr) ch -> ch <> [].
Proof. intros dl id r b hr ch (_ & J & _) ->. destruct (J id r b (or_introl eq_refl)) as (ce & [] & _). Qed.

Lemma no_del_on_path : forall dl hr id r e b, inve kd dl (res id hr) e -> (b = false -> forall q, In (q, true) hr -> prefix q (id :: r) = false) -> b = false ->
  delo (own_of e) = false.
Proof.
  intros dl hr id r e b H Nd B. destruct (delo (own_of e)) eqn:D; [|reflexivity]. exfalso. apply (inve_j4 _ _ _ H) in D. apply res_in in D. specialize (Nd B _ D). cbn [prefix] in Nd. rewrite same_id_refl in Nd. discriminate.
Qed.

Lemma inv_add : forall op def value b, opb op b -> defop def -> (b = true -> def <> Merge) ->
  forall p es inh hr l es', path_ok kd p -> inv kd (delo inh) hr es -> okinh inh -> in_edit_at kd p es = false ->
  (op = Create -> np_cont (kd (fst (last p (0, 0)))) = false) -> (b = false -> delo inh = false) ->
  (b = false -> forall q, In (q, true) hr -> prefix q p = false) ->
  add_r kd op def value IDefault p inh es = (l, es') -> l <> LErr ->
  inv kd (delo inh) ((p, b) :: hr) es' /\ (forall nx, l = LGo nx -> exists o, inh = Some o /\ superior def o = SYes def /\ (o = Ether \/ o = Non)).
Proof.
  intros op def value b Ob Od Bd. induction p as [|id r IH]; intros es inh hr l es' P Iv Oi Ne Np Dl Nd H L; [destruct P|].
  assert (Hid : id_ok kd id) by (apply (path_ok_id kd id r); exact P). cbn [add_r in_edit_at] in *. rewrite (fe_at kd id es Hid) in *. destruct (fe kd id es) as [e|] eqn:Fe.
  - destruct r as [|id' r']; [discriminate|]. set (r := id' :: r') in *. destruct (fe_some _ _ _ _ Fe) as (Hin & Eid).
    assert (Ie : inve kd (delo inh) (res id hr) e) by (rewrite <- Eid; exact (inv_in _ _ _ _ _ Iv Hin)).
    assert (Pr : path_ok kd r /\ term (kd (esch e)) = false) by (rewrite (esch_id _ _ Eid); destruct id; destruct P as (_ & T & P); split; assumption). destruct Pr as (Pr & T).
    assert (Np' : op = Create -> np_cont (kd (fst (last r (0, 0)))) = false) by (intros X; exact (Np X)).
    assert (Dl' : b = false -> delo (oper inh e) = false).
    { intros X. rewrite <- dl_oper. specialize (no_del_on_path _ _ _ _ _ _ Ie Nd X). intros Y. unfold dl_of, delo in *. destruct (own_of e); [exact Y|apply Dl; exact X]. }
    assert (Nd' : b = false -> forall q, In (q, true) (res id hr) -> prefix q r = false).
    { intros X q Hq. apply res_in in Hq. specialize (Nd X _ Hq). cbn [prefix] in Nd. rewrite same_id_refl in Nd. exact Nd. }
    destruct (add_r kd op def value IDefault r (oper inh e) (ch_of e)) as (l', ch') eqn:Ar.
    assert (Ic : inv kd (delo (oper inh e)) (res id hr) (ch_of e)) by (rewrite <- dl_oper; apply inve_ch; exact Ie).
    assert (Oo : okinh (oper inh e)) by (apply okinh_oper; [exact Oi|exact (inve_ok _ _ _ _ Ie)]).
    assert (Z : l' <> LErr) by (intros ->; injection H as <- _; apply L; reflexivity).
    specialize (IH (ch_of e) (oper inh e) (res id hr) l' ch' Pr Ic Oo Ne Np' Dl' Nd' Ar Z). destruct IH as (IH & Go).
    assert (Nc : ch' <> []) by (exact (inv_nonempty _ _ _ _ _ _ IH)).
    assert (St : forall own', (own' = own_of e \/ (dl_of (delo inh) (own_of e) = false /\ delo inh = false /\ (own' = None \/ own' = Some Merge \/ own' = Some Non))) ->
                 forall ch'', ch'' <> [] -> inv kd (dl_of (delo inh) own') ((r, b) :: res id hr) ch'' ->
                 inv kd (delo inh) ((id :: r, b) :: hr) (on_id kd id (fun _ => Some (set_own own' (set_ch ch'' e))) es)).
    { intros own' Q ch'' Nc'' Ic''. apply (inv_on_id kd (delo inh) hr es id r b _ e (set_own own' (set_ch ch'' e))); try assumption; [reflexivity|rewrite eident_own, eident_ch; exact Eid|].
      apply inve_path; try assumption. discriminate. }
    destruct l' as [|nx|]; [| |contradiction].
    + injection H as <- <-. split; [|discriminate]. rewrite <- (set_own_ch ch' e). apply St; [left; reflexivity|exact Nc|]. rewrite dl_oper. exact IH.
    + destruct (Go nx eq_refl) as (o & Oe & Su & Eo). cbn [hd] in H. change (hd id r) with id' in H. unfold iterate in H. rewrite Oe in H.
      assert (Q : (if nx then SYes def else superior def o) = SYes def) by (destruct nx; [reflexivity|exact Su]). rewrite Q in H.
      assert (Do : deletes o = false) by (destruct Eo as [-> | ->]; reflexivity).
      assert (D0 : dl_of (delo inh) (own_of e) = false) by (rewrite dl_oper, Oe; exact Do).
      assert (D1 : delo inh = false).
      { destruct (delo inh) eqn:X; [|reflexivity]. destruct (inve_j9 _ _ _ Ie eq_refl) as [Y|Y]; [rewrite Y in D0; cbn in D0; congruence|]. unfold dl_of, delo in *. destruct (own_of e); congruence. }
      assert (Im : inv kd false ((r, b) :: res id hr) (mark kd id' o ch')).
      { apply inv_mark; [rewrite Oe in IH; cbn [delo] in IH; rewrite Do in IH; exact IH| |exact Do|]; destruct Eo as [-> | ->]; try (split; discriminate); discriminate. }
      assert (Nm : mark kd id' o ch' <> []) by (unfold mark; destruct ch'; [contradiction|discriminate]).
      assert (Dd : def = Merge \/ def = Non) by (destruct Od as [-> |[-> | ->]]; auto; destruct Eo as [-> | ->]; discriminate).
      assert (Sd : inv kd (delo inh) ((id :: r, b) :: hr) (on_id kd id (fun _ => Some (set_own (Some def) (set_ch (mark kd id' o ch') e))) es)).
      { apply St; [right; split; [exact D0|split; [exact D1|]]; destruct Dd as [-> | ->]; auto|exact Nm|]. rewrite D1. destruct Dd as [-> | ->]; exact Im. }
      assert (Sn : inv kd (delo inh) ((id :: r, b) :: hr) (on_id kd id (fun _ => Some (set_own None (set_ch (mark kd id' o ch') e))) es)).
      { apply St; [right; split; [exact D0|split; [exact D1|left; reflexivity]]|exact Nm|]. rewrite D1. exact Im. }
      destruct (own_of e) as [oo|] eqn:Oo'.
      * destruct inh as [op2|].
        -- destruct (superior def op2) as [| |d2] eqn:S2; injection H as <- <-; [contradiction|split; [exact Sd|discriminate]|]. split; [exact Sn|]. intros nx' X. exists op2. split; [reflexivity|].
           cbn [delo] in D1. destruct (sup_yes def op2 d2 S2 Od (or_introl D1)) as (-> & E2). split; [exact S2|exact E2].
        -- rewrite Su in H. injection H as <- <-. split; [exact Sd|discriminate].
      * injection H as <- <-. assert (Es : set_ch (mark kd id' o ch') e = set_own None (set_ch (mark kd id' o ch') e)) by (rewrite <- Oo'; symmetry; apply set_own_ch). rewrite Es. split; [exact Sn|].
        intros nx' _. unfold oper in Oe. rewrite Oo' in Oe. exists o. split; [exact Oe|split; [exact Su|exact Eo]].
  - injection H as Hl <-. split.
    + apply inv_new; [exact Iv|exact Fe|apply chain_ident; exact P|]. apply chain_inve; assumption.
    + intros nx ->. destruct inh as [o|]; [|discriminate]. destruct (superior def o) as [| |d] eqn:S; try discriminate. exists o. split; [reflexivity|].
      assert (X : deletes o = false \/ def <> Merge) by (destruct b; [right; apply Bd; reflexivity|left; apply Dl; reflexivity]). destruct (sup_yes def o d S Od X) as (-> & E). split; [exact S|exact E].
Qed.

(** ** A node that is already in the edit *)
Lemma inve_dl : forall op, deletes op = true -> forall e dl hr, inve kd dl hr e -> have_op op e = true -> inve kd true hr e.
Proof.
  intros op D. apply (enode_ind2 (fun e => forall dl hr, inve kd dl hr e -> have_op op e = true -> inve kd true hr e)). intros s v b own i ch IH dl hr H Q.
  apply inve_iff in H. apply inve_iff. destruct H as ((H1 & H2 & (A & B & C & Dn)) & (N & J & F)). cbn [have_op] in Q. apply andb_prop in Q. destruct Q as (Q1 & Q2).
  assert (Eo : own = None \/ delo own = true) by (destruct own as [o|]; [right; apply eop_eqb_eq in Q1; subst o; exact D|left; reflexivity]).
  assert (Dt : dl_of true own = true) by (destruct Eo as [-> |E]; [reflexivity|destruct own; [exact E|reflexivity]]).
  split; [split; [exact H1|split; [exact H2|]]|].
  - split; [exact A|]. split; [intros _; exact Dt|]. split; [intros _; exact Eo|exact Dn].
  - split; [exact N|]. split; [exact J|]. apply Forall_forall. intros x Hx. rewrite Forall_forall in IH, F. rewrite forallb_forall in Q2. rewrite Dt. exact (IH x Hx _ _ (F x Hx) (Q2 x Hx)).
Qed.
Lemma inv_dl : forall op dl hr es, deletes op = true -> inv kd dl hr es -> forallb (have_op op) es = true -> inv kd true hr es.
Proof.
  intros op dl hr es D (N & J & F) Q. split; [exact N|]. split; [exact J|]. rewrite Forall_forall in *. rewrite forallb_forall in Q. intros x Hx. exact (inve_dl op D x _ _ (F x Hx) (Q x Hx)).
Qed.
Lemma eident_v : forall v e, kd (esch e) = KLeaf -> eident (set_v v e) = eident e.
Proof. intros v' [s v b own i ch] K. unfold EditSpec.eident, EditSpec.key. cbn [esch eval set_v] in *. rewrite K. reflexivity. Qed.
Lemma inve_v : forall dl hr v e, kd (esch e) = KLeaf -> inve kd dl hr e -> inve kd dl hr (set_v v e).
Proof.
  intros dl hr v' [s v b own i ch] K H. cbn [esch] in K. cbn [set_v]. apply inve_iff in H. apply inve_iff. destruct H as (((B & V & T & Ii) & H2) & I). split; [split; [|exact H2]|exact I]. rewrite K in *. split; [exact B|]. split; [exact Logic.I|]. split; assumption.
Qed.
Lemma inve_keep : forall dl hr b e, inve kd dl hr e -> (b = true -> dl_of dl (own_of e) = true) -> inve kd dl (([], b) :: hr) e.
Proof.
  intros dl hr b [s v bb own i ch] H Q. cbn [own_of] in Q. apply inve_iff in H. apply inve_iff. destruct H as ((H1 & H2 & (A & B & C & Dn)) & I). split; [split; [exact H1|split; [exact H2|]]|apply inv_hist0; exact I].
  split; [intros X; right; exact (A X)|]. split; [intros [X|X]; [injection X as ->; apply Q; reflexivity|exact (B X)]|]. split; [exact C|discriminate].
Qed.
Lemma inve_set : forall hr b op e, inve kd false hr e -> opb op b -> dl_of false (own_of e) = false -> (op = Create -> np_cont (kd (esch e)) = false) ->
  (deletes op = true -> forallb (have_op op) (ch_of e) = true) -> inve kd false (([], b) :: hr) (set_own (Some op) e).
Proof.
  intros hr b op [s v bb own i ch] H O Df Np Hv. cbn [own_of esch ch_of set_own] in *. apply inve_iff in H. apply inve_iff. destruct H as ((H1 & (H2 & H3 & H4) & (A & B & C & Dn)) & I).
  split; [split; [exact H1|split]|].
  - destruct b; destruct O as [-> | ->]; (split; [split; discriminate|]; split; [intros _; exact Logic.I|]); try discriminate. intros _. apply Np. reflexivity.
  - cbn [delo dl_of]. split; [|split; [|split; [discriminate|discriminate]]].
    + intros X. destruct b; [left; reflexivity|]. destruct O as [-> | ->]; discriminate.
    + intros [X|X]; [injection X as ->; destruct O as [-> | ->]; reflexivity|]. specialize (B X). congruence.
  - apply inv_hist0. rewrite Df in I. cbn [dl_of]. destruct (deletes op) eqn:D; [|exact I]. apply (inv_dl op false); auto.
Qed.

Definition no_free (b : bool) (p : path) (hr : hist) (es : list enode) (inh : option eop) : Prop :=
  b = true -> (forall q, In (q, false) hr -> prefix p q = false) /\
              ((forallb (opsA delA) es = true /\ inhA delA inh) \/ (forall q, In (q, true) hr -> parent_of p q = false)).
Lemma opsA_own : forall A e inh, opsA A e = true -> inhA A inh -> inhA A (oper inh e).
Proof. intros A [s v b own i ch] inh H I. cbn [opsA] in H. apply andb_prop in H. unfold oper. cbn [own_of]. destruct own; [apply H|exact I]. Qed.
Lemma opsA_ch : forall A e, opsA A e = true -> forallb (opsA A) (ch_of e) = true.
Proof. intros A [s v b own i ch] H. cbn [opsA] in H. apply andb_prop in H. apply H. Qed.

Lemma merge_inv : forall op b value id hr e inh m, opb op b -> inve kd (delo inh) (res id hr) e -> okinh inh -> eident e = id ->
  (op = Create -> np_cont (kd (esch e)) = false) -> (b = false -> delo (oper inh e) = false) ->
  (b = true -> (forall q, In (q, false) hr -> prefix [id] q = false) /\ (inhA delA (oper inh e) \/ (forall q, In (q, true) hr -> parent_of [id] q = false))) ->
  merge_op kd inh op value e = m -> (exists e', m = MKeep e' /\ inve kd (delo inh) (([], b) :: res id hr) e' /\ eident e' = id) \/ (exists e', m = MErr e').
Proof.
  intros op b value id hr e inh m O H Oi Eid Np Dl Nf M. unfold merge_op in M. destruct (oper inh e) as [cur|] eqn:Oe; [|right; eexists; symmetry; exact M].
  assert (Ok : okop cur) by (generalize (okinh_oper inh e Oi (inve_ok _ _ _ _ H)); rewrite Oe; intros X; exact X).
  destruct (eop_eqb op cur) eqn:Eq.
  - apply eop_eqb_eq in Eq. subst cur. left. exists e. split; [symmetry; exact M|]. split; [|exact Eid]. apply inve_keep; [exact H|]. intros ->. rewrite dl_oper, Oe. destruct O as [-> | ->]; reflexivity.
  - assert (Ea : deletes cur = false -> (if forallb (have_op op) (ch_of e) then MKeep (set_own (Some op) e) else MErr e) = m -> (exists e', m = MKeep e' /\ inve kd (delo inh) (([], b) :: res id hr) e' /\ eident e' = id) \/ (exists e', m = MErr e')).
    { intros Dc X. destruct (forallb (have_op op) (ch_of e)) eqn:Hv; [|right; eexists; symmetry; exact X]. left. exists (set_own (Some op) e). split; [symmetry; exact X|]. split; [|rewrite eident_own; exact Eid].
      assert (D0 : dl_of (delo inh) (own_of e) = false) by (rewrite dl_oper, Oe; exact Dc).
      assert (D1 : delo inh = false).
      { destruct (delo inh) eqn:Y; [|reflexivity]. destruct (inve_j9 _ _ _ H eq_refl) as [Z|Z]; [rewrite Z in D0; cbn in D0; congruence|]. unfold dl_of, delo in *. destruct (own_of e); congruence. }
      rewrite D1 in *. apply inve_set; auto. }
    destruct cur.
    + exact (Ea eq_refl M).
    + destruct Ok as (_ & X). exfalso. apply X. reflexivity.
    + exact (Ea eq_refl M).
    + assert (Fr : b = true -> False).
      { intros ->. destruct (Nf eq_refl) as (N1 & N2). destruct (res id hr) as [|(q, bq) t] eqn:R; [exact (inve_j0 _ _ _ H eq_refl)|].
        assert (Hq : In (id :: q, bq) hr) by (apply res_in; rewrite R; left; reflexivity). destruct bq.
        - destruct N2 as [N2|N2]; [discriminate|]. destruct q as [|x q]; [assert (Y : dl_of (delo inh) (own_of e) = true) by (apply (inve_j2 _ _ _ H); left; reflexivity); rewrite dl_oper, Oe in Y; discriminate|].
          specialize (N2 _ Hq). unfold parent_of in N2. cbn [prefix] in N2. rewrite same_id_refl in N2. discriminate.
        - specialize (N1 _ Hq). cbn [prefix] in N1. rewrite same_id_refl in N1. discriminate. }
      destruct b; [destruct (Fr eq_refl)|]. destruct O as [-> | ->]; [discriminate|]. right. eexists. symmetry. exact M.
    + destruct Ok as (X & _). exfalso. apply X. reflexivity.
    + assert (Fr : b = true -> False).
      { intros ->. destruct (Nf eq_refl) as (N1 & N2). destruct (res id hr) as [|(q, bq) t] eqn:R; [exact (inve_j0 _ _ _ H eq_refl)|].
        assert (Hq : In (id :: q, bq) hr) by (apply res_in; rewrite R; left; reflexivity). destruct bq.
        - destruct N2 as [N2|N2]; [discriminate|]. destruct q as [|x q]; [assert (Y : dl_of (delo inh) (own_of e) = true) by (apply (inve_j2 _ _ _ H); left; reflexivity); rewrite dl_oper, Oe in Y; discriminate|].
          specialize (N2 _ Hq). unfold parent_of in N2. cbn [prefix] in N2. rewrite same_id_refl in N2. discriminate.
        - specialize (N1 _ Hq). cbn [prefix] in N1. rewrite same_id_refl in N1. discriminate. }
      destruct b; [destruct (Fr eq_refl)|]. destruct O as [-> | ->]; [|discriminate]. right. eexists. symmetry. exact M.
    + destruct b; [|discriminate (Dl eq_refl)]. right. destruct O as [-> | ->]; eexists; symmetry; exact M.
    + destruct b; [|discriminate (Dl eq_refl)]. right. destruct O as [-> | ->]; eexists; symmetry; exact M.
Qed.
Lemma matched_inv : forall op b value id hr e inh m, opb op b -> inve kd (delo inh) (res id hr) e -> okinh inh -> eident e = id ->
  (op = Create -> np_cont (kd (esch e)) = false) -> (b = false -> delo (oper inh e) = false) ->
  (b = true -> (forall q, In (q, false) hr -> prefix [id] q = false) /\ (inhA delA (oper inh e) \/ (forall q, In (q, true) hr -> parent_of [id] q = false))) ->
  matched kd nullok inh op value e = m -> (exists e', m = MKeep e' /\ inve kd (delo inh) (([], b) :: res id hr) e' /\ eident e' = id) \/ (exists e', m = MErr e').
Proof.
  intros op b value id hr e inh m O H Oi Eid Np Dl Nf M. unfold matched in M.
  assert (G : forall v x, x = e \/ (kd (esch e) = KLeaf /\ exists v', x = set_v v' e) -> merge_op kd inh op v x = m ->
    (exists e', m = MKeep e' /\ inve kd (delo inh) (([], b) :: res id hr) e' /\ eident e' = id) \/ (exists e', m = MErr e')).
  { intros v x [-> |(K & v' & ->)] X; [apply (merge_inv op b v id hr e inh m); assumption|].
    assert (Oe : oper inh (set_v v' e) = oper inh e) by (destruct e; reflexivity). assert (Es : esch (set_v v' e) = esch e) by (destruct e; reflexivity).
    apply (merge_inv op b v id hr (set_v v' e) inh m); try assumption; try (rewrite Es; assumption); try (rewrite Oe; assumption); [apply inve_v; assumption|rewrite eident_v; assumption]. }
  destruct (kd (esch e)) eqn:K; try (apply (G 0 e); [left; reflexivity|exact M]).
  destruct (opaque nullok e); [apply (G _ e (or_introl eq_refl) M)|]. destruct value as [v|].
  - apply (G v (set_v v e)); [right; split; [reflexivity|exists v; reflexivity]|exact M].
  - destruct (nullok (esch e)); [|right; eexists; symmetry; exact M]. apply (G 0 (set_v 0 e)); [right; split; [reflexivity|exists 0; reflexivity]|exact M].
Qed.

Lemma inv_match : forall op value b, opb op b -> forall p es inh hr es', path_ok kd p -> inv kd (delo inh) hr es -> okinh inh ->
  (op = Create -> np_cont (kd (fst (last p (0, 0)))) = false) -> (b = false -> delo inh = false) ->
  (b = false -> forall q, In (q, true) hr -> prefix q p = false) -> no_free b p hr es inh ->
  match_r kd nullok op value p inh es = (true, es') -> inv kd (delo inh) ((p, b) :: hr) es'.
Proof.
  intros op value b Ob. induction p as [|id r IH]; intros es inh hr es' P Iv Oi Np Dl Nd Nf H; [destruct P|].
  assert (Hid : id_ok kd id) by (apply (path_ok_id kd id r); exact P). cbn [match_r] in H. rewrite (fe_at kd id es Hid) in H. destruct (fe kd id es) as [e|] eqn:Fe; [|discriminate].
  destruct (fe_some _ _ _ _ Fe) as (Hin & Eid).
  assert (Ie : inve kd (delo inh) (res id hr) e) by (rewrite <- Eid; exact (inv_in _ _ _ _ _ Iv Hin)).
  assert (Dl' : b = false -> delo (oper inh e) = false).
  { intros X. rewrite <- dl_oper. specialize (no_del_on_path _ _ _ _ _ _ Ie Nd X). intros Y. unfold dl_of, delo in *. destruct (own_of e); [exact Y|apply Dl; exact X]. }
  destruct r as [|id' r'].
  - assert (Np' : op = Create -> np_cont (kd (esch e)) = false) by (intros X; rewrite (esch_id _ _ Eid); exact (Np X)).
    assert (Nf' : b = true -> (forall q, In (q, false) hr -> prefix [id] q = false) /\ (inhA delA (oper inh e) \/ (forall q, In (q, true) hr -> parent_of [id] q = false))).
    { intros X. destruct (Nf X) as (N1 & N2). split; [exact N1|]. destruct N2 as [(A & B)|N2]; [left|right; exact N2]. rewrite forallb_forall in A. apply opsA_own; [exact (A e Hin)|exact B]. }
    destruct (matched_inv op b value id hr e inh _ Ob Ie Oi Eid Np' Dl' Nf' eq_refl) as [(e' & M & I' & E')|(e' & M)]; rewrite M in H; [|discriminate]. injection H as <-.
    apply (inv_on_id kd (delo inh) hr es id [] b (fun _ => Some e') e e'); try assumption. reflexivity.
  - set (r := id' :: r') in *. destruct (match_r kd nullok op value r (oper inh e) (ch_of e)) as (ok, ch') eqn:Mr. injection H as -> <-.
    assert (Pr : path_ok kd r /\ term (kd (esch e)) = false) by (rewrite (esch_id _ _ Eid); destruct id; destruct P as (_ & T & P); split; assumption). destruct Pr as (Pr & T).
    assert (Nd' : b = false -> forall q, In (q, true) (res id hr) -> prefix q r = false).
    { intros X q Hq. apply res_in in Hq. specialize (Nd X _ Hq). cbn [prefix] in Nd. rewrite same_id_refl in Nd. exact Nd. }
    assert (Nf' : no_free b r (res id hr) (ch_of e) (oper inh e)).
    { intros X. destruct (Nf X) as (N1 & N2). split; [intros q Hq; apply res_in in Hq; specialize (N1 _ Hq); rewrite prefix_cons in N1; exact N1|].
      destruct N2 as [(A & B)|N2]; [left|right].
      - rewrite forallb_forall in A. split; [apply opsA_ch; exact (A e Hin)|apply opsA_own; [exact (A e Hin)|exact B]].
      - intros q Hq. apply res_in in Hq. specialize (N2 _ Hq). unfold parent_of in *. rewrite !prefix_cons in N2. exact N2. }
    assert (Ic : inv kd (delo (oper inh e)) (res id hr) (ch_of e)) by (rewrite <- dl_oper; apply inve_ch; exact Ie).
    assert (Oo : okinh (oper inh e)) by (apply okinh_oper; [exact Oi|exact (inve_ok _ _ _ _ Ie)]).
    assert (Np' : op = Create -> np_cont (kd (fst (last r (0, 0)))) = false) by (intros X; exact (Np X)).
    specialize (IH (ch_of e) (oper inh e) (res id hr) ch' Pr Ic Oo Np' Dl' Nd' Nf' Mr).
    apply (inv_on_id kd (delo inh) hr es id r b (fun _ => Some (set_ch ch' e)) e (set_ch ch' e)); try assumption; [reflexivity|rewrite eident_ch; exact Eid|].
    rewrite <- (set_own_ch ch' e). apply inve_path; try assumption; [discriminate|exact (inv_nonempty _ _ _ _ _ _ IH)|left; reflexivity|]. rewrite dl_oper. exact IH.
Qed.

(** ** Classes of operations *)
Lemma forallb_on_id : forall A id f es, forallb (opsA A) es = true -> (forall e e', opsA A e = true -> f e = Some e' -> opsA A e' = true) -> forallb (opsA A) (on_id kd id f es) = true.
Proof.
  intros A id f es H F. induction es as [|x t IH]; [reflexivity|]. cbn [forallb on_id] in *. apply andb_prop in H. destruct H as (H1 & H2). destruct (at_id kd id x).
  - destruct (f x) as [x'|] eqn:Q; [|exact H2]. cbn [forallb]. rewrite (F x x' H1 Q), H2. reflexivity.
  - cbn [forallb]. rewrite H1, (IH H2). reflexivity.
Qed.
Lemma opsA_chain : forall A op value i r id, A op = true -> opsA A (chain kd op value i id r) = true.
Proof. intros A op value i. induction r as [|id' r IH]; intros id H; cbn [chain opsA forallb]; [rewrite H; reflexivity|]. rewrite (IH id' H). reflexivity. Qed.
Lemma opsA_set_ch : forall A ch e, opsA A e = true -> forallb (opsA A) ch = true -> opsA A (set_ch ch e) = true.
Proof. intros A ch' [s v b own i ch] H Q. cbn [opsA set_ch] in *. apply andb_prop in H. rewrite Q, (proj1 H). reflexivity. Qed.
Lemma opsA_set_own : forall A o e, opsA A e = true -> inhA A o -> opsA A (set_own o e) = true.
Proof. intros A o [s v b own i ch] H Q. cbn [opsA set_own] in *. apply andb_prop in H. rewrite (proj2 H). destruct o; [cbn in Q; rewrite Q|]; reflexivity. Qed.
Lemma opsA_mark : forall A id o es, forallb (opsA A) es = true -> A o = true -> forallb (opsA A) (mark kd id o es) = true.
Proof.
  intros A id o es H Q. rewrite forallb_forall in *. intros x Hx. unfold mark in Hx. apply in_map_iff in Hx. destruct Hx as (y & <- & Hy). specialize (H y Hy).
  destruct (at_id kd id y); [exact H|]. destruct (own_of y); [exact H|]. apply opsA_set_own; assumption.
Qed.
Lemma ops_add : forall A op def value i, A op = true -> A def = true -> (forall o d, superior def o = SYes d -> d = def) ->
  forall p es inh l es', forallb (opsA A) es = true -> inhA A inh -> add_r kd op def value i p inh es = (l, es') -> forallb (opsA A) es' = true.
Proof.
  intros A op def value i Ao Ad Sd. induction p as [|id r IH]; intros es inh l es' H I Q; cbn [add_r] in Q; [injection Q as _ <-; exact H|].
  destruct (find (at_id kd id) es) as [e|] eqn:F.
  - apply find_some in F. destruct F as (Hin & _). assert (He : opsA A e = true) by (rewrite forallb_forall in H; exact (H e Hin)).
    destruct (add_r kd op def value i r (oper inh e) (ch_of e)) as (l', ch') eqn:Ar. assert (Hc : forallb (opsA A) ch' = true) by (apply (IH _ _ _ _ (opsA_ch A e He) (opsA_own A e inh He I) Ar)).
    assert (G : forall x, opsA A x = true -> forallb (opsA A) (on_id kd id (fun _ => Some x) es) = true).
    { intros x Hx. apply forallb_on_id; [exact H|]. intros y y' _ Y. injection Y as <-. exact Hx. }
    destruct l' as [|nx|]; [injection Q as _ <-; apply G; apply opsA_set_ch; assumption| |injection Q as _ <-; apply G; apply opsA_set_ch; assumption].
    destruct (iterate kd def nx (hd id r) inh e ch') as (l2, e2) eqn:It. injection Q as _ <-. apply G. unfold iterate in It.
    destruct (oper inh e) as [o|] eqn:Oe; [|injection It as _ <-; apply opsA_set_ch; assumption]. assert (Ho : A o = true) by (generalize (opsA_own A e inh He I); rewrite Oe; intros X; exact X).
    assert (H1 : opsA A (set_ch (mark kd (hd id r) o ch') e) = true) by (apply opsA_set_ch; [exact He|]; apply opsA_mark; assumption).
    destruct (if nx then SYes def else superior def o); try (injection It as _ <-; apply opsA_set_ch; assumption).
    destruct (own_of e); [|injection It as _ <-; exact H1]. destruct inh as [op2|].
    + destruct (superior def op2); injection It as _ <-; [exact H1|apply opsA_set_own; assumption|apply opsA_set_own; [exact H1|exact Logic.I]].
    + destruct (superior def o) eqn:So; injection It as _ <-; [exact H1|apply opsA_set_own; assumption|]. rewrite (Sd _ _ So). apply opsA_set_own; assumption.
  - injection Q as _ <-. rewrite forallb_app, H. cbn [forallb]. rewrite opsA_chain by exact Ao. reflexivity.
Qed.
Lemma ops_matched : forall A op value e inh, A op = true -> (op = Remove \/ op = Delete) -> opsA A e = true ->
  match matched kd nullok inh op value e with MKeep e' | MErr e' => opsA A e' = true | MFree => True end.
Proof.
  intros A op value e inh Ao Oo He.
  assert (M : forall v x, opsA A x = true -> match merge_op kd inh op v x with MKeep e' | MErr e' => opsA A e' = true | MFree => True end).
  { intros v x Hx. unfold merge_op. destruct (oper inh x) as [cur|]; [|exact Hx]. destruct (eop_eqb op cur); [exact Hx|].
    destruct cur; try exact Hx; try (destruct (forallb (have_op op) (ch_of x)); [apply opsA_set_own; assumption|exact Hx]); destruct Oo as [-> | ->]; try exact Hx; try exact Logic.I; destruct (own_of x); exact Hx. }
  assert (V : forall v, opsA A (set_v v e) = true) by (intros v; destruct e; exact He).
  unfold matched. destruct (kd (esch e)); try (apply M; exact He). destruct (opaque nullok e); [apply M; exact He|]. destruct value; [apply M; apply V|]. destruct (nullok (esch e)); [apply M; apply V|exact He].
Qed.
Lemma ops_match : forall A op value, A op = true -> (op = Remove \/ op = Delete) -> forall p es inh l es', forallb (opsA A) es = true ->
  match_r kd nullok op value p inh es = (l, es') -> forallb (opsA A) es' = true.
Proof.
  intros A op value Ao Oo. induction p as [|id r IH]; intros es inh l es' H Q; cbn [match_r] in Q; [injection Q as _ <-; exact H|].
  destruct (find (at_id kd id) es) as [e|] eqn:F; [|injection Q as _ <-; exact H].
  apply find_some in F. destruct F as (Hin & _). assert (He : opsA A e = true) by (rewrite forallb_forall in H; exact (H e Hin)).
  destruct r as [|id' r'].
  - generalize (ops_matched A op value e inh Ao Oo He). intros M. destruct (matched kd nullok inh op value e); injection Q as _ <-; apply forallb_on_id; try exact H; intros y y' _ Y; try discriminate; injection Y as <-; exact M.
  - destruct (match_r kd nullok op value (id' :: r') (oper inh e) (ch_of e)) as (l', ch') eqn:Mr. injection Q as _ <-. apply forallb_on_id; [exact H|]. intros y y' _ Y. injection Y as <-. apply opsA_set_ch; [exact He|]. exact (IH _ _ _ _ (opsA_ch A e He) Mr).
Qed.
End P.
