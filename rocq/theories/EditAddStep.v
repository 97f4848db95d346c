(** One call: the meaning of the edit after it. *)
From Coq Require Import List Bool Arith Lia.
From Verif Require Import Edit EditSpec EditProofs EditOps EditSem EditTotal EditAdd EditAddSpec EditAddBase EditAddInv EditAddPres EditAddSem EditAddDel.
Import ListNotations.

Section P.
Variable kd : nat -> kind.
Variable nullok : nat -> bool.
Notation key := (EditSpec.key kd).
Notation ident := (EditSpec.ident kd).
Notation eident := (EditSpec.eident kd).
Notation lk := (EditSpec.lk kd).
Notation get := (EditSpec.get kd).
Notation sp := (EditSpec.sp kd).
Notation kids := (kids kd).
Notation fe := (fe kd).
Notation nview := (nview kd).

(** ** The node at [id] replaced, the operations inherited and the context are the same *)
Lemma repl_same : forall c inh es es' olds K hr hr' dl dl' id n x, kids c inh es olds = Some K -> inv kd dl hr es -> okinh inh -> inv kd dl' hr' es' ->
  fe id es' = Some n -> (forall i, i <> id -> fe i es' = fe i es) -> sp c false inh n (lk id olds) = Some x ->
  exists K', kids c inh es' olds = Some K' /\ lk id K' = x /\ forall i, i <> id -> lk i K' = lk i K.
Proof.
  intros c inh es es' olds K hr hr' dl dl' id n x Hk Iv Oi Iv' Fn Fo Sx. apply (repl1 kd c c inh inh es es' olds K id n x Hk (proj1 Iv) (inv_ok _ _ _ _ Iv) Oi (proj1 Iv') (inv_ok _ _ _ _ Iv') Oi Fn Sx).
  intros i Ni. rewrite (Fo i Ni). destruct (fe i es) as [y|]; [|reflexivity]. exists y. split; [reflexivity|]. intros r R. exact R.
Qed.
Lemma fe_set : forall id es e n, NoDup (map eident es) -> id_ok kd id -> fe id es = Some e -> eident n = id ->
  fe id (on_id kd id (fun _ => Some n) es) = Some n /\ forall i, i <> id -> fe i (on_id kd id (fun _ => Some n) es) = fe i es.
Proof.
  intros id es e n N Hid Fe En. assert (X := fun i => fe_on_id kd id (fun _ => Some n) es e n i N Hid Fe eq_refl En). split; [rewrite X, same_id_refl; reflexivity|]. intros i Ni. rewrite X, (proj2 (same_id_neq id i)) by congruence. reflexivity.
Qed.
Lemma get_upd : forall (U : view -> view) id K K', (forall m, m [] = None -> U m [] = None) -> (forall m i r', i <> id -> U m (i :: r') = m (i :: r')) -> (forall i, i <> id -> lk i K' = lk i K) ->
  (forall r', nview (lk id K') r' = U (fun q => get q K) (id :: r')) -> forall q, get q K' = U (fun q => get q K) q.
Proof.
  intros U id K K' U0 Uo A B [|i r']; [rewrite U0; reflexivity|]. rewrite get_cons. destruct (ident_dec i id) as [-> |Ni]; [apply B|]. rewrite (A i Ni), Uo by exact Ni. reflexivity.
Qed.
Lemma vdel_none : forall id r m r', (forall x, m (id :: x) = None) -> vdel (id :: r) m (id :: r') = None.
Proof. intros id r m r' H. unfold vdel. destruct (prefix (id :: r) (id :: r')); [reflexivity|apply H]. Qed.
Lemma vdel_nil : forall p m, p <> [] -> m [] = None -> vdel p m [] = None.
Proof. intros [|a p] m N H; [contradiction|exact H]. Qed.
Lemma vdel_self : forall id m r', vdel [id] m (id :: r') = None.
Proof. intros id m r'. unfold vdel. cbn [prefix]. rewrite same_id_refl. reflexivity. Qed.

Lemma isn_ctx : forall c s v o Kf old re, okop o -> spk kd c s v o Kf old = Some re -> (c = Present -> isn o old = true -> cc c o old = Present) /\ (cc c o old = Present -> isn o old = true /\ deletes o = false).
Proof.
  intros c s v o Kf old re (N1 & N2) H. unfold spk, isn, cc, miss in *. destruct o; try congruence; destruct old as [d|]; destruct c; cbn [deletes negb andb] in *; try discriminate; split; try discriminate; try reflexivity; try (intros _; split; reflexivity).
Qed.
(** A node on the path of a deletion. *)
Lemma path_del : forall id r es inh olds hr c K e ch' es' o hr' dl', r <> [] -> id_ok kd id -> inv kd (delo inh) hr es -> okinh inh -> kids c inh es olds = Some K -> fe id es = Some e -> oper inh e = Some o ->
  es' = on_id kd id (fun _ => Some (set_ch ch' e)) es -> inv kd dl' hr' es' ->
  (forall Ke re, spk kd c (esch e) (eval e) o (fun c' olds0 => kids c' (Some o) (ch_of e) olds0) (lk id olds) = Some re ->
    (cc c o (lk id olds) = Present -> forall q, q <> [] -> get (id :: q) K = get q Ke) -> (cc c o (lk id olds) = Present -> get [id] K <> None) ->
    kids (cc c o (lk id olds)) (Some o) (ch_of e) (base_of (lk id olds)) = Some Ke ->
    exists Ke', kids (cc c o (lk id olds)) (Some o) ch' (base_of (lk id olds)) = Some Ke' /\ (cc c o (lk id olds) = Present -> forall q, get q Ke' = vdel r (fun q => get q Ke) q)) ->
  exists K', kids c inh es' olds = Some K' /\ (c = Present -> forall q, get q K' = vdel (id :: r) (fun q => get q K) q).
Proof.
  intros id r es inh olds hr c K e ch' es' o hr' dl' Nr Hid Iv Oi Hk Fe Oe Ees Iv' Hsub. destruct (fe_some _ _ _ _ Fe) as (Hin & Eid). assert (Ie := inv_in _ _ _ _ _ Iv Hin). assert (Oke := inve_ok _ _ _ _ Ie).
  destruct (kids_each kd _ _ _ _ _ Hk e Hin) as (re & Re). rewrite Eid in Re. assert (Oko : okop o) by (exact (okop_oper inh e o Oi Oke Oe)).
  assert (Lid : lk id K = re) by (rewrite (kids_lk kd _ _ _ _ _ Hk (proj1 Iv) (inv_ok _ _ _ _ Iv) Oi), Fe, Re; reflexivity).
  rewrite (sp_e kd _ _ _ _ o Oi Oke Oe) in Re. destruct (spk_io kd _ _ _ _ _ _ _ Oko Re) as (val & Ke & Hke & Ere & Val & Redo). destruct (isn_ctx _ _ _ _ _ _ _ Oko Re) as (Ic & Ip).
  assert (Gk : isn o (lk id olds) = true -> forall q, q <> [] -> get (id :: q) K = get q Ke).
  { intros X q Nq. rewrite get_cons, Lid, Ere, X. cbn [EditAddBase.nview dch]. destruct q; [contradiction|reflexivity]. }
  assert (Gi : isn o (lk id olds) = true -> get [id] K = Some val) by (intros X; rewrite get_cons, Lid, Ere, X; reflexivity).
  destruct (Hsub Ke re Re) as (Ke' & Hk' & G').
  { intros X. apply Gk. apply Ip. exact X. }
  { intros X. rewrite Gi by (apply Ip; exact X). discriminate. }
  { exact Hke. }
  destruct (fe_set id es e (set_ch ch' e) (proj1 Iv) Hid Fe) as (F1 & F2); [rewrite eident_ch; exact Eid|]. rewrite <- Ees in F1, F2.
  destruct (repl_same c inh es es' olds K hr hr' (delo inh) dl' id (set_ch ch' e) (if isn o (lk id olds) then Some (D (esch e) val false Ke') else None) Hk Iv Oi Iv' F1 F2) as (K' & H1 & H2 & H3).
  { rewrite (sp_e kd c inh (set_ch ch' e) _ o Oi); [|destruct e; exact Oke|destruct e; exact Oe].
    assert (X : esch (set_ch ch' e) = esch e /\ eval (set_ch ch' e) = eval e /\ ch_of (set_ch ch' e) = ch') by (destruct e; split; [reflexivity|split; reflexivity]). destruct X as (-> & -> & ->). apply Redo. exact Hk'. }
  exists K'. split; [exact H1|]. intros Cp. apply (get_upd (vdel (id :: r)) id K K'); [intros m M; apply vdel_nil; [discriminate|exact M]|intros m i r' Ni; apply vdel_other; exact Ni|exact H3|].
  intros r'. rewrite H2. destruct (isn o (lk id olds)) eqn:In0.
  - rewrite vdel_same. unfold ndel. destruct r as [|a r]; [contradiction|]. destruct r' as [|a' r']; cbn [EditAddBase.nview dval dch].
    + rewrite Gi by reflexivity. reflexivity.
    + rewrite (G' (Ic Cp eq_refl)). unfold vdel. destruct (prefix (a :: r) (a' :: r')); [reflexivity|]. symmetry. apply Gk; [reflexivity|discriminate].
  - symmetry. apply vdel_none. intros x. rewrite get_cons, Lid, Ere. reflexivity.
Qed.

(** ** Deleting what is in the edit *)
Lemma match_del : forall op value, op = Remove \/ op = Delete -> forall p es inh olds hr c K es', path_ok kd p -> inv kd (delo inh) hr es -> okinh inh -> no_free true p hr es inh ->
  kids c inh es olds = Some K -> match_r kd nullok op value p inh es = (true, es') ->
  exists K', kids c inh es' olds = Some K' /\ (c = Present -> forall q, get q K' = vdel p (fun q => get q K) q).
Proof.
  intros op value Op. assert (Ob : opb op true) by exact Op. assert (Dop : deletes op = true) by (destruct Op as [-> | ->]; reflexivity).
  induction p as [|id r IH]; intros es inh olds hr c K es' P Iv Oi Nf Hk Ha; [destruct P|].
  assert (Hid : id_ok kd id) by (apply (path_ok_id kd id r); exact P).
  assert (Iv' : inv kd (delo inh) ((id :: r, true) :: hr) es').
  { apply (inv_match kd nullok op value true Ob (id :: r) es inh hr es' P Iv Oi); try assumption; try discriminate. intros X. subst op. discriminate. }
  cbn [match_r] in Ha. rewrite (fe_at kd id es Hid) in Ha. destruct (fe id es) as [e|] eqn:Fe; [|discriminate]. destruct (fe_some _ _ _ _ Fe) as (Hin & Eid).
  assert (Ie : inve kd (delo inh) (res id hr) e) by (rewrite <- Eid; exact (inv_in _ _ _ _ _ Iv Hin)). assert (Oke := inve_ok _ _ _ _ Ie).
  destruct (kids_each kd _ _ _ _ _ Hk e Hin) as (re & Re). rewrite Eid in Re. destruct (sp_e_none kd _ _ _ _ _ Re) as (o & Oe). assert (Oko : okop o) by (exact (okop_oper inh e o Oi Oke Oe)).
  assert (Lid : lk id K = re) by (rewrite (kids_lk kd _ _ _ _ _ Hk (proj1 Iv) (inv_ok _ _ _ _ Iv) Oi), Fe, Re; reflexivity).
  assert (NfE : (forall q, In (q, false) hr -> prefix (id :: r) q = false) /\ (inhA delA (oper inh e) /\ forallb (opsA delA) (ch_of e) = true \/ (forall q, In (q, true) hr -> parent_of (id :: r) q = false))).
  { destruct (Nf eq_refl) as (A & B). split; [exact A|]. destruct B as [(B1 & B2)|B]; [left|right; exact B]. rewrite forallb_forall in B1. split; [apply opsA_own; [exact (B1 e Hin)|exact B2]|apply opsA_ch; exact (B1 e Hin)]. }
  destruct r as [|id' r'].
  - (* the node itself *)
    rewrite (sp_e kd _ _ _ _ o Oi Oke Oe) in Re.
    assert (Fin : forall n, eident n = id -> es' = on_id kd id (fun _ => Some n) es -> sp c false inh n (lk id olds) = Some None -> exists K', kids c inh es' olds = Some K' /\ (c = Present -> forall q, get q K' = vdel [id] (fun q => get q K) q)).
    { intros n En Ees Sn. destruct (fe_set id es e n (proj1 Iv) Hid Fe En) as (F1 & F2). rewrite <- Ees in F1, F2.
      destruct (repl_same c inh es es' olds K _ _ _ _ id n None Hk Iv Oi Iv' F1 F2 Sn) as (K' & H1 & H2 & H3). exists K'. split; [exact H1|]. intros _.
      apply (get_upd (vdel [id]) id K K'); [intros m M; exact M|intros m i r' Ni; apply vdel_other; exact Ni|exact H3|]. intros r'. rewrite H2, vdel_self. reflexivity. }
    assert (Same : forall x, esch x = esch e -> own_of x = own_of e -> ch_of x = ch_of e -> eident x = id -> okown x -> inve kd (delo inh) (res id hr) x ->
      forall w n, merge_op kd inh op w x = MKeep n -> eident n = id /\ sp c false inh n (lk id olds) = Some None).
    { intros x Ex Ow Cx Ix Okx Ivx w n M. unfold merge_op in M. assert (Ox : oper inh x = Some o) by (unfold oper in *; rewrite Ow; exact Oe). rewrite Ox in M. destruct (eop_eqb op o) eqn:Eq.
      - apply eop_eqb_eq in Eq. subst o. injection M as <-. split; [exact Ix|]. rewrite (sp_e kd _ _ _ _ op Oi Okx Ox), Ex, Cx.
        destruct (spk_io kd _ _ _ _ _ _ _ Oko Re) as (val & Ke & Hke & Ere & _). unfold spk in *. destruct Op as [-> | ->]; cbn [deletes] in *.
        + destruct (lk id olds) as [d|]; unfold cc, miss in Hke; cbn [deletes base_of] in Hke; destruct c; rewrite Hke; reflexivity.
        + destruct (lk id olds) as [d|]; [|destruct c; discriminate]. destruct (is_default kd d); [destruct c; discriminate|]. unfold cc in Hke. cbn [deletes base_of] in Hke. destruct c; rewrite Hke; reflexivity.
      - assert (Hv : forall X, (o = Ether \/ o = Non) -> (if forallb (have_op op) (ch_of x) then MKeep (set_own (Some op) x) else MErr X) = MKeep n -> eident n = id /\ sp c false inh n (lk id olds) = Some None).
        { intros X E0 Mx. destruct (forallb (have_op op) (ch_of x)) eqn:Hv; [|discriminate]. injection Mx as <-. rewrite eident_own. split; [exact Ix|]. rewrite Cx in Hv.
          assert (Osx : okown (set_own (Some op) x)) by (destruct x; destruct Op as [-> | ->]; split; discriminate).
          rewrite (sp_e kd c inh (set_own (Some op) x) _ op Oi Osx) by (destruct x; reflexivity).
          assert (Z : esch (set_own (Some op) x) = esch e /\ ch_of (set_own (Some op) x) = ch_of e) by (rewrite <- Ex, <- Cx; destruct x; split; reflexivity). destruct Z as (-> & ->).
          destruct Op as [-> | ->]; unfold spk; cbn [deletes].
          - destruct (lk id olds) as [d|].
            + destruct (rm_kids kd (ch_of e) Deleted (dch d) Hv) as (K1 & ->). destruct c; reflexivity.
            + destruct (rm_kids kd (ch_of e) Deleted [] Hv) as (K1 & Q1). destruct (rm_kids kd (ch_of e) Missing [] Hv) as (K2 & Q2). destruct c; try rewrite Q1; try rewrite Q2; reflexivity.
          - assert (Nc : ch_of e <> []).
            { intros Y. assert (T := inve_tgt _ _ _ _ Ie Y). unfold oper in Oe. destruct (own_of e) as [o1|]; [injection Oe as ->; destruct E0 as [-> | ->]; exact T|exact T]. }
            destruct (spk_io kd _ _ _ _ _ _ _ Oko Re) as (val & Ke & Hke & _). assert (Ic := inve_ch kd _ _ _ Ie). rewrite forallb_forall in Hv.
            assert (Ch : forall y, In y (ch_of e) -> (exists d, lk (eident y) (base_of (lk id olds)) = Some d) /\ forall c', sp c' false (Some Delete) y (lk (eident y) (base_of (lk id olds))) = Some None).
            { intros y Hy. destruct (kids_each kd _ _ _ _ _ Hke y Hy) as (ry & Ry). destruct (sp_e_none kd _ _ _ _ _ Ry) as (oy & Oy).
              apply (del_all kd y _ _ (cc c o (lk id olds)) (Some o) _ ry oy (inv_in _ _ _ _ _ Ic Hy) (Hv y Hy) Oko Oy); [| |exact Ry].
              - assert (Hy' := Hv y Hy). destruct y as [s1 v1 b1 own1 i1 ch1]. cbn [have_op] in Hy'. apply andb_prop in Hy'. unfold oper in Oy. cbn [own_of] in Oy. destruct own1 as [o1|]; injection Oy as <-.
                + right. right. apply eop_eqb_eq. apply Hy'.
                + destruct E0 as [-> | ->]; [left|right; left]; reflexivity.
              - intros d Hd. apply lk_some in Hd. apply Hd. }
            destruct (ch_of e) as [|y0 ch0] eqn:Ech; [contradiction|]. destruct (Ch y0 (or_introl eq_refl)) as ((d0 & Hd0) & _). destruct (base_lk kd _ _ _ Hd0) as (d & Ld). rewrite Ld in *. cbn [base_of] in *.
            destruct (kids_make kd Deleted (Some Delete) (y0 :: ch0) (dch d)) as (Kd & Hkd).
            { intros y Hy. destruct (Ch y Hy) as (_ & Z). rewrite Z. discriminate. }
            assert (Df : is_default kd d = false).
            { unfold is_default. assert (T : term (kd (dsch d)) = false); [|rewrite T; reflexivity]. apply lk_some in Ld. destruct Ld as (_ & Id). rewrite <- Eid in Id. unfold EditSpec.ident, EditSpec.eident in Id. injection Id as -> _.
              destruct (term (kd (esch e))) eqn:T; [|reflexivity]. apply (inve_term _ _ _ _ Ie) in T. congruence. }
            rewrite Df, Hkd. destruct c; reflexivity. }
        destruct o; try discriminate; try (destruct Op as [-> | ->]; discriminate); try (apply (Hv x); [|exact M]; (left; reflexivity) || (right; reflexivity)).
        destruct (own_of x); [discriminate|]; destruct Op as [-> | ->]; discriminate. }
    assert (Nfe : true = true -> (forall q, In (q, false) hr -> prefix [id] q = false) /\ (inhA delA (oper inh e) \/ (forall q, In (q, true) hr -> parent_of [id] q = false))).
    { intros _. destruct NfE as (A & [(B & _)|B]); split; try exact A; [left|right]; exact B. }
    destruct (matched_inv kd nullok op true value id hr e inh (matched kd nullok inh op value e) Ob Ie Oi Eid) as [(n & M & _ & _)|(n & M)]; [intros X; subst op; discriminate|discriminate|exact Nfe|reflexivity| |rewrite M in Ha; discriminate].
    rewrite M in Ha. injection Ha as Ees.
    assert (Z : eident n = id /\ sp c false inh n (lk id olds) = Some None).
    { unfold matched in M. destruct (kd (esch e)) eqn:Kd0; try (apply (Same e eq_refl eq_refl eq_refl Eid Oke Ie 0 n M)).
      assert (Sv : forall w0 w, merge_op kd inh op w0 (set_v w e) = MKeep n -> eident n = id /\ sp c false inh n (lk id olds) = Some None).
      { intros w0 w M0. apply (Same (set_v w e)) with (w := w0); try exact M0; try (destruct e; reflexivity).
        - rewrite eident_v by exact Kd0. exact Eid.
        - destruct e; exact Oke.
        - apply inve_v; assumption. }
      destruct (opaque nullok e); [exact (Same e eq_refl eq_refl eq_refl Eid Oke Ie _ n M)|]. destruct value as [w|]; [exact (Sv _ w M)|]. destruct (nullok (esch e)); [exact (Sv _ 0 M)|discriminate]. }
    destruct Z as (En & Sn). exact (Fin n En (eq_sym Ees) Sn).
  - (* on the path *)
    set (r := id' :: r') in *. rewrite Oe in Ha. destruct (match_r kd nullok op value r (Some o) (ch_of e)) as (ok, ch') eqn:Mr. injection Ha as -> Ees.
    assert (Pr : path_ok kd r) by (destruct id; destruct P as (_ & _ & P); exact P).
    assert (Ic : inv kd (delo (Some o)) (res id hr) (ch_of e)) by (rewrite <- Oe, <- dl_oper; apply inve_ch; exact Ie).
    apply (path_del id r es inh olds hr c K e ch' es' o ((id :: r, true) :: hr) (delo inh)); try assumption; [discriminate|symmetry; exact Ees|].
    intros Ke re0 _ _ _ Hke. apply (IH (ch_of e) (Some o) (base_of (lk id olds)) (res id hr) (cc c o (lk id olds)) Ke ch' Pr Ic Oko); [|exact Hke|exact Mr].
    intros _. destruct NfE as (A & B). split.
    + intros q Hq. apply res_in in Hq. specialize (A _ Hq). rewrite prefix_cons in A. exact A.
    + destruct B as [(B1 & B2)|B]; [left; split; [exact B2|rewrite Oe in B1; exact B1]|right]. intros q Hq. apply res_in in Hq. specialize (B _ Hq). unfold parent_of in *. rewrite !prefix_cons in B. exact B.
Qed.
End P.
