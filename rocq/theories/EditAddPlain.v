(** Calls that only set, and calls that only delete, both in the plain way. *)
From Coq Require Import List Bool Arith Lia.
From Verif Require Import Edit EditSpec EditProofs EditOps EditSem EditMain EditTotal EditAdd EditAddSpec EditAddBase EditAddInv EditAddPres EditAddSem EditAddDel EditAddStep EditAddStep2 EditAddMain.
Import ListNotations.

Section P.
Variable kd : nat -> kind.
Variable nullok : nat -> bool.
Notation eident := (EditSpec.eident kd).
Notation get := (EditSpec.get kd).

(** ** From the meaning to the result *)
Lemma good_apply : forall h T ds m, wf_data kd ds -> good kd h T ds m -> exists o, edit_apply kd T ds = ROk o /\ o_err o = false /\ forall p, get p (o_g o) = m p.
Proof.
  intros h T ds m W [Iv (K & Hk & Gk) _ _ _]. destruct (inv_wf kd _ _ _ Iv) as (We & Na). destruct (edit_total kd T ds K W We Na Hk) as (o & Ha & Er). exists o. split; [exact Ha|]. split; [exact Er|].
  destruct (edit_means kd T ds o W We Ha Er) as (_ & ds' & Sp & G). assert (X : ds' = K) by (change (edit_spec kd T ds = Some K) in Hk; rewrite Hk in Sp; injection Sp as ->; reflexivity). subst ds'. intros p. rewrite G. apply Gk.
Qed.

(** ** Only sets *)
Definition plain_set (c : call) : Prop := exists p v, c = CSet p v false false /\ path_ok kd p.
Definition isM (o : eop) : bool := match o with Merge => true | _ => false end.
Definition topM (es : list enode) : Prop := Forall (fun e => own_of e = Some Merge) es /\ forallb (opsA isM) es = true.
Definition botM (inh : option eop) (es : list enode) : Prop := (inh = Some Merge \/ (inh = None /\ Forall (fun e => own_of e = Some Merge) es)) /\ forallb (opsA isM) es = true.
Lemma botM_oper : forall inh es e, botM inh es -> In e es -> oper inh e = Some Merge /\ botM (Some Merge) (ch_of e) /\ (own_of e = Some Merge \/ own_of e = None).
Proof.
  intros inh es e (A & B) He. rewrite forallb_forall in B. specialize (B e He). split; [|split; [split; [left; reflexivity|apply opsA_ch; exact B]|]].
  - unfold oper. destruct e as [s v b own i ch]. cbn [opsA own_of] in *. apply andb_prop in B. destruct B as (B & _). destruct own as [[]|]; try discriminate; try reflexivity. destruct A as [->|(_ & A)]; [reflexivity|]. rewrite Forall_forall in A. specialize (A _ He). discriminate.
  - destruct e as [s v b own i ch]. cbn [opsA own_of] in *. apply andb_prop in B. destruct B as (B & _). destruct own as [[]|]; try discriminate; auto.
Qed.
Lemma on_id_forall : forall (Q : enode -> Prop) id f es, Forall Q es -> (forall e e', In e es -> f e = Some e' -> Q e -> Q e') -> Forall Q (on_id kd id f es).
Proof.
  intros Q id f es H F. induction es as [|x t IH]; [constructor|]. inversion H as [|? ? Hx Ht]; subst. cbn [on_id]. destruct (at_id kd id x).
  - destruct (f x) as [x'|] eqn:E; [|exact Ht]. constructor; [exact (F x x' (or_introl eq_refl) E Hx)|exact Ht].
  - constructor; [exact Hx|]. apply IH; [exact Ht|]. intros e e' He. apply F. right. exact He.
Qed.
Lemma match_sets : forall v p inh es, botM inh es -> in_edit_at kd p es = true -> exists es', match_r kd nullok Merge (Some v) p inh es = (true, es') /\ botM inh es'.
Proof.
  intros v. induction p as [|id r IH]; intros inh es B N; [discriminate|]. cbn [match_r in_edit_at] in *. destruct (find (at_id kd id) es) as [e|] eqn:F; [|discriminate]. apply find_some in F. destruct F as (He & Ae).
  destruct (botM_oper inh es e B He) as (Oe & Bc & Ow). destruct B as (B1 & B2). assert (Be : opsA isM e = true) by (rewrite forallb_forall in B2; exact (B2 e He)).
  assert (Fin : forall n, own_of n = own_of e -> opsA isM n = true -> botM inh (on_id kd id (fun _ => Some n) es)).
  { intros n On Bn. split.
    - destruct B1 as [X|(X & Y)]; [left; exact X|right; split; [exact X|]]. apply on_id_forall; [exact Y|]. intros e0 e' _ Q _. injection Q as <-. rewrite On. rewrite Forall_forall in Y. exact (Y e He).
    - apply forallb_on_id; [exact B2|]. intros e0 e' _ Q. injection Q as <-. exact Bn. }
  destruct r as [|id' r'].
  - assert (M : exists n, matched kd nullok inh Merge (Some v) e = MKeep n /\ own_of n = own_of e /\ opsA isM n = true).
    { unfold matched, merge_op. assert (Oq : opaque nullok e = false) by (unfold opaque; destruct Ow as [-> | ->]; reflexivity). rewrite Oq, Oe. assert (Ov : oper inh (set_v v e) = Some Merge) by (destruct e; exact Oe). rewrite Ov. cbn [eop_eqb].
      destruct (kd (esch e)); (eexists; split; [reflexivity|]; destruct e; split; [reflexivity|exact Be]). }
    destruct M as (n & -> & On & Bn). eexists. split; [reflexivity|]. apply Fin; assumption.
  - set (r := id' :: r') in *. rewrite Oe. destruct (IH (Some Merge) (ch_of e) Bc N) as (ch' & -> & _ & Bn). eexists. split; [reflexivity|]. apply Fin; [destruct e; reflexivity|]. apply opsA_set_ch; assumption.
Qed.
Lemma add_sets : forall v p inh es, botM inh es -> p <> [] -> (inh = None -> find (at_id kd (hd (0, 0) p)) es <> None) -> in_edit_at kd p es = false -> exists es', add_r kd Merge Merge (Some v) IDefault p inh es = (LStop, es') /\ botM inh es'.
Proof.
  intros v. induction p as [|id r IH]; intros inh es B Np Ni Ne; [contradiction|]. cbn [add_r in_edit_at hd] in *. destruct (find (at_id kd id) es) as [e|] eqn:F.
  - apply find_some in F. destruct F as (He & Ae). destruct (botM_oper inh es e B He) as (Oe & Bc & Ow). destruct B as (B1 & B2). assert (Be : opsA isM e = true) by (rewrite forallb_forall in B2; exact (B2 e He)).
    destruct r as [|id' r']; [discriminate|]. set (r := id' :: r') in *. rewrite Oe. destruct (IH (Some Merge) (ch_of e) Bc) as (ch' & -> & _ & Bn); [discriminate|discriminate|exact Ne|]. eexists. split; [reflexivity|]. split.
    + destruct B1 as [X|(X & Y)]; [left; exact X|right; split; [exact X|]]. apply on_id_forall; [exact Y|]. intros e0 e' _ Q _. injection Q as <-. rewrite Forall_forall in Y. specialize (Y e He). destruct e; exact Y.
    + apply forallb_on_id; [exact B2|]. intros e0 e' _ Q. injection Q as <-. apply opsA_set_ch; assumption.
  - destruct B as (B1 & B2). destruct inh as [o|]; [|exfalso; exact (Ni eq_refl eq_refl)]. destruct B1 as [X|(X & _)]; [|discriminate]. injection X as ->. cbn [superior]. eexists. split; [reflexivity|]. split; [left; reflexivity|].
    rewrite forallb_app, B2. cbn [forallb]. rewrite opsA_chain by reflexivity. reflexivity.
Qed.
Lemma set_done : forall p v es, p <> [] -> botM None es -> exists es', api kd nullok (CSet p v false false) es = AOk es' /\ botM None es'.
Proof.
  intros p v es Np B. cbn [api]. unfold edit_add. destruct (in_edit_at kd p es) eqn:N.
  - destruct (match_sets v p None es B N) as (es' & -> & B'). exists es'. split; [reflexivity|exact B'].
  - destruct p as [|id r]; [contradiction|]. destruct (find (at_id kd id) es) as [e|] eqn:F.
    + destruct (add_sets v (id :: r) None es B) as (es' & -> & B'); [discriminate|intros _; cbn [hd]; rewrite F; discriminate|exact N|]. exists es'. split; [reflexivity|exact B'].
    + eexists. split; [reflexivity|]. destruct B as (B1 & B2). split.
      * right. split; [reflexivity|]. destruct B1 as [X|(_ & X)]; [discriminate|]. apply Forall_app. split; [exact X|]. constructor; [|constructor]. destruct r; reflexivity.
      * rewrite forallb_app, B2. cbn [forallb]. assert (C := opsA_chain kd isM Merge (Some v) IDefault r id eq_refl). destruct r; [rewrite C; reflexivity|]. rewrite opsA_set_own; [reflexivity|exact C|reflexivity].
Qed.
Lemma path_nonempty : forall p, path_ok kd p -> p <> [].
Proof. intros [|a p] H; [destruct H|discriminate]. Qed.
Theorem sets_together : forall ds, wf_data kd ds -> forall cs h es m, Forall plain_set cs -> forallb is_set h = true -> good kd h es ds m -> botM None es ->
  exists T m' h', prepare kd nullok cs es = Some T /\ one_by_one kd cs m m' /\ good kd h' T ds m'.
Proof.
  intros ds W. induction cs as [|c cs IH]; intros h es m Pl Hs G B.
  - exists es, m, h. split; [reflexivity|]. split; [constructor; reflexivity|exact G].
  - inversion Pl as [|? ? (p & v & -> & P) Pt]; subst. destruct (set_done p v es (path_nonempty p P) B) as (es' & Ha & B'). cbn [prepare]. rewrite Ha.
    assert (Sq : set_ok p false false m) by (split; discriminate).
    assert (Cl : clear kd ds h m (CSet p v false false)).
    { split; [|discriminate]. intros q st Hq. exfalso. rewrite forallb_forall in Hs. specialize (Hs _ Hq). discriminate. }
    destruct (IH (CSet p v false false :: h) es' (vset kd p v m) Pt Hs (step kd nullok ds h m (CSet p v false false) es es' W P Cl G Sq Ha) B') as (T & m' & h' & A1 & A2 & A3).
    exists T, m', h'. split; [exact A1|]. split; [constructor; assumption|exact A3].
Qed.

(** ** Only deletions *)
Definition plain_del (c : call) : Prop := exists p, c = CDel p false /\ path_ok kd p.
Definition botR (inh : option eop) (es : list enode) : Prop :=
  match inh with
  | None => Forall (fun e => (own_of e = Some Ether \/ own_of e = Some Remove) /\ forallb (have_op Remove) (ch_of e) = true) es
  | Some o => (o = Ether \/ o = Remove) /\ forallb (have_op Remove) es = true
  end.
Lemma botR_oper : forall inh es e, botR inh es -> In e es -> exists o, oper inh e = Some o /\ (o = Ether \/ o = Remove) /\ forallb (have_op Remove) (ch_of e) = true.
Proof.
  intros inh es e B He. unfold botR in B. destruct inh as [o|].
  - destruct B as (Ho & B). rewrite forallb_forall in B. specialize (B e He). destruct e as [s v b own i ch]. cbn [have_op] in B. apply andb_prop in B. destruct B as (B1 & B2). unfold oper. cbn [own_of ch_of]. destruct own as [o1|].
    + apply eop_eqb_eq in B1. subst o1. exists Remove. split; [reflexivity|]. split; [right; reflexivity|exact B2].
    + exists o. split; [reflexivity|]. split; assumption.
  - rewrite Forall_forall in B. destruct (B e He) as (Ho & B2). unfold oper. destruct Ho as [-> | ->]; eexists; (split; [reflexivity|]); (split; [auto|exact B2]).
Qed.
Lemma botR_set : forall inh es id e n, botR inh es -> In e es -> (own_of n = own_of e \/ own_of n = Some Remove) -> forallb (have_op Remove) (ch_of n) = true -> botR inh (on_id kd id (fun _ => Some n) es).
Proof.
  intros inh es id e n B He On Cn. unfold botR in *. destruct inh as [o|].
  - destruct B as (Ho & B). split; [exact Ho|]. assert (Bn : have_op Remove n = true).
    { rewrite forallb_forall in B. specialize (B e He). destruct n as [s v b own i ch], e as [s0 v0 b0 own0 i0 ch0]. cbn [have_op own_of ch_of] in *. apply andb_prop in B. destruct B as (B & _). rewrite Cn, andb_true_r. destruct On as [-> | ->]; [exact B|reflexivity]. }
    clear - B Bn. induction es as [|x t IH]; [reflexivity|]. cbn [forallb on_id] in *. apply andb_prop in B. destruct B as (B1 & B2). destruct (at_id kd id x); cbn [forallb]; [rewrite Bn, B2; reflexivity|rewrite B1, (IH B2); reflexivity].
  - assert (Hn : (own_of n = Some Ether \/ own_of n = Some Remove) /\ forallb (have_op Remove) (ch_of n) = true).
    { split; [|exact Cn]. destruct On as [X|X]; [|right; exact X]. rewrite X. rewrite Forall_forall in B. apply B. exact He. }
    apply on_id_forall; [exact B|]. intros e0 e' _ Q _. injection Q as <-. exact Hn.
Qed.
Lemma match_dels : forall p inh es dl hr, path_ok kd p -> inv kd dl hr es -> botR inh es -> in_edit_at kd p es = true -> exists es', match_r kd nullok Remove None p inh es = (true, es') /\ botR inh es'.
Proof.
  induction p as [|id r IH]; intros inh es dl hr P Iv B N; [discriminate|]. cbn [match_r in_edit_at] in *. destruct (find (at_id kd id) es) as [e|] eqn:F; [|discriminate]. apply find_some in F. destruct F as (He & Ae).
  destruct (botR_oper inh es e B He) as (o & Oe & Ho & Bc). assert (Ie := inv_in _ _ _ _ _ Iv He).
  destruct r as [|id' r'].
  - assert (M : exists n, matched kd nullok inh Remove None e = MKeep n /\ (own_of n = own_of e \/ own_of n = Some Remove) /\ forallb (have_op Remove) (ch_of n) = true).
    { assert (Mo : forall x w, oper inh x = Some o -> own_of x = own_of e -> ch_of x = ch_of e -> exists n, merge_op kd inh Remove w x = MKeep n /\ (own_of n = own_of e \/ own_of n = Some Remove) /\ forallb (have_op Remove) (ch_of n) = true).
      { intros x w Ox Owx Cx. unfold merge_op. rewrite Ox. destruct Ho as [-> | ->]; cbn [eop_eqb].
        - rewrite Cx, Bc. eexists. split; [reflexivity|]. destruct x; cbn [set_own own_of ch_of] in *. split; [right; reflexivity|rewrite Cx; exact Bc].
        - eexists. split; [reflexivity|]. rewrite Owx, Cx. split; [left; reflexivity|exact Bc]. }
      unfold matched. destruct (kd (esch e)) eqn:Kd0; try (apply Mo; [exact Oe|reflexivity|reflexivity]).
      assert (Own : own_of e = Some Remove).
      { assert (Te : ch_of e = []) by (apply (inve_term kd _ _ _ Ie); rewrite Kd0; reflexivity). assert (T := inve_tgt kd _ _ _ Ie Te). unfold oper in Oe. destruct (own_of e) as [o1|]; [|destruct T]. injection Oe as ->. destruct Ho as [-> | ->]; [destruct T|reflexivity]. }
      assert (Oq : opaque nullok e = negb (nullok (esch e))) by (unfold opaque; rewrite Own; reflexivity). rewrite Oq. destruct (nullok (esch e)) eqn:Nl; cbn [negb].
      - apply Mo; [destruct e; exact Oe|destruct e; reflexivity|destruct e; reflexivity].
      - apply Mo; [exact Oe|reflexivity|reflexivity]. }
    destruct M as (n & -> & On & Bn). eexists. split; [reflexivity|]. exact (botR_set inh es id e n B He On Bn).
  - set (r := id' :: r') in *. rewrite Oe. assert (Pr : path_ok kd r) by (destruct id; destruct P as (_ & _ & P); exact P).
    destruct (IH (Some o) (ch_of e) _ _ Pr (inve_ch kd _ _ _ Ie) (conj Ho Bc) N) as (ch' & -> & _ & Bn). eexists. split; [reflexivity|]. apply (botR_set inh es id e); [exact B|exact He|left; destruct e; reflexivity|destruct e; exact Bn].
Qed.
Lemma add_dels : forall p inh es, botR inh es -> p <> [] -> (inh = None -> find (at_id kd (hd (0, 0) p)) es <> None) -> in_edit_at kd p es = false -> exists es', add_r kd Remove Ether None IDefault p inh es = (LStop, es') /\ botR inh es'.
Proof.
  induction p as [|id r IH]; intros inh es B Np Ni Ne; [contradiction|]. cbn [add_r in_edit_at hd] in *. destruct (find (at_id kd id) es) as [e|] eqn:F.
  - apply find_some in F. destruct F as (He & Ae). destruct (botR_oper inh es e B He) as (o & Oe & Ho & Bc).
    destruct r as [|id' r']; [discriminate|]. set (r := id' :: r') in *. rewrite Oe. destruct (IH (Some o) (ch_of e) (conj Ho Bc)) as (ch' & -> & _ & Bn); [discriminate|discriminate|exact Ne|]. eexists. split; [reflexivity|].
    apply (botR_set inh es id e); [exact B|exact He|left; destruct e; reflexivity|destruct e; exact Bn].
  - destruct inh as [o|]; [|exfalso; exact (Ni eq_refl eq_refl)]. destruct B as (Ho & B). destruct Ho as [-> | ->]; cbn [superior]; (eexists; split; [reflexivity|]); (split; [auto|]); rewrite forallb_app, B; cbn [forallb]; rewrite have_op_chain; reflexivity.
Qed.
Lemma del_done : forall p es dl hr, path_ok kd p -> inv kd dl hr es -> botR None es -> exists es', api kd nullok (CDel p false) es = AOk es' /\ botR None es'.
Proof.
  intros p es dl hr P Iv B. cbn [api]. unfold edit_add. destruct (in_edit_at kd p es) eqn:N.
  - destruct (match_dels p None es dl hr P Iv B N) as (es' & -> & B'). exists es'. split; [reflexivity|exact B'].
  - destruct p as [|id r]; [destruct P|]. destruct (find (at_id kd id) es) as [e|] eqn:F.
    + destruct (add_dels (id :: r) None es B) as (es' & -> & B'); [discriminate|intros _; cbn [hd]; rewrite F; discriminate|exact N|]. exists es'. split; [reflexivity|exact B'].
    + eexists. split; [reflexivity|]. cbn [botR]. apply Forall_app. split; [exact B|]. constructor; [|constructor]. assert (H := have_op_chain kd Remove None IDefault r id). destruct r as [|id' r]; cbn [chain set_own own_of ch_of have_op forallb] in *.
      * split; [right; reflexivity|reflexivity].
      * split; [left; reflexivity|exact H].
Qed.
Theorem dels_together : forall ds, wf_data kd ds -> forall cs h es m, Forall plain_del cs -> forallb is_weak_del h = true -> good kd h es ds m -> botR None es ->
  exists T m' h', prepare kd nullok cs es = Some T /\ one_by_one kd cs m m' /\ good kd h' T ds m'.
Proof.
  intros ds W. induction cs as [|c cs IH]; intros h es m Pl Hs G B.
  - exists es, m, h. split; [reflexivity|]. split; [constructor; reflexivity|exact G].
  - inversion Pl as [|? ? (p & -> & P) Pt]; subst. destruct (del_done p es _ _ P (g_inv kd _ _ _ _ G) B) as (es' & Ha & B'). cbn [prepare]. rewrite Ha.
    assert (Sq : del_ok p false m) by discriminate.
    assert (Dl : forallb is_del h = true) by (rewrite forallb_forall in *; intros x Hx; specialize (Hs x Hx); destruct x as [|? []|]; try discriminate; reflexivity).
    assert (Cl : clear kd ds h m (CDel p false)).
    { split; [|split; [right; exact Hs|split; [left; exact Dl|discriminate]]]. intros q v st nr Hq. exfalso. rewrite forallb_forall in Dl. specialize (Dl _ Hq). discriminate. }
    destruct (IH (CDel p false :: h) es' (vdel p m) Pt Hs (step kd nullok ds h m (CDel p false) es es' W P Cl G Sq Ha) B') as (T & m' & h' & A1 & A2 & A3).
    exists T, m', h'. split; [exact A1|]. split; [constructor; assumption|exact A3].
Qed.
End P.
