(** One call: setting what is in the edit, deleting of what is not. *)
From Coq Require Import List Bool Arith Lia.
From Verif Require Import Edit EditSpec EditProofs EditOps EditSem EditTotal EditAdd EditAddSpec EditAddBase EditAddInv EditAddPres EditAddSem EditAddDel EditAddStep.
Import ListNotations.

Section P.
Variable kd : nat -> kind.
Variable nullok : nat -> bool.
Notation key := (EditSpec.key kd).
Notation ident := (EditSpec.ident kd).
Notation eident := (EditSpec.eident kd).
Notation lk := (EditSpec.lk kd).
Notation get := (EditSpec.get kd).
Notation sp := (EditSpec.sp kd).
Notation kids := (kids kd).
Notation fe := (fe kd).
Notation nview := (nview kd).

(** ** Setting what is in the edit *)
Lemma match_set : forall op v, op = Merge \/ op = Create -> forall p es inh olds hr c K es', path_ok kd p -> inv kd (delo inh) hr es -> okinh inh -> delo inh = false -> wf_data kd olds ->
  (forall q, In (q, true) hr -> prefix q p = false) -> (op = Create -> np_cont (kd (fst (last p (0, 0)))) = false) ->
  kids c inh es olds = Some K -> (c = Present \/ (c = Missing /\ olds = [])) -> (op = Create -> get p K = None) ->
  match_r kd nullok op (Some v) p inh es = (true, es') ->
  c = Present /\ exists K', kids Present inh es' olds = Some K' /\ forall q, get q K' = vset kd p v (fun q => get q K) q.
Proof.
  intros op v Op. assert (Ob : opb op false) by exact Op.
  induction p as [|id r IH]; intros es inh olds hr c K es' P Iv Oi Di W Nd Np Hk Hc Hcr Ha; [destruct P|].
  assert (Hid : id_ok kd id) by (apply (path_ok_id kd id r); exact P).
  assert (Iv' : inv kd (delo inh) ((id :: r, false) :: hr) es').
  { apply (inv_match kd nullok op (Some v) false Ob (id :: r) es inh hr es' P Iv Oi); try assumption; try (intros _; assumption); intros X; discriminate. }
  cbn [match_r] in Ha. rewrite (fe_at kd id es Hid) in Ha. destruct (fe id es) as [e|] eqn:Fe; [|discriminate]. destruct (fe_some _ _ _ _ Fe) as (Hin & Eid).
  assert (Ie : inve kd (delo inh) (res id hr) e) by (rewrite <- Eid; exact (inv_in _ _ _ _ _ Iv Hin)). assert (Oke := inve_ok _ _ _ _ Ie).
  destruct (kids_each kd _ _ _ _ _ Hk e Hin) as (re & Re). rewrite Eid in Re. destruct (sp_e_none kd _ _ _ _ _ Re) as (o & Oe). assert (Oko : okop o) by (exact (okop_oper inh e o Oi Oke Oe)).
  assert (Lid : lk id K = re) by (rewrite (kids_lk kd _ _ _ _ _ Hk (proj1 Iv) (inv_ok _ _ _ _ Iv) Oi), Fe, Re; reflexivity).
  assert (Do : deletes o = false).
  { destruct (deletes o) eqn:D; [|reflexivity]. exfalso. unfold oper in Oe. destruct (own_of e) as [oo|] eqn:Oo; [|rewrite Oe in Di; cbn in Di; congruence]. injection Oe as ->.
    assert (X : delo (own_of e) = true) by (rewrite Oo; exact D). apply (inve_j4 kd _ _ _ Ie) in X. apply res_in in X. specialize (Nd _ X). cbn [prefix] in Nd. rewrite same_id_refl in Nd. discriminate. }
  rewrite (sp_e kd _ _ _ _ o Oi Oke Oe) in Re. destruct (spk_io kd _ _ _ _ _ _ _ Oko Re) as (val & Ke & Hke & Ere & Val & Redo). destruct (spk_ctx kd _ _ _ _ _ _ _ Re) as (_ & Cx). destruct (isn_ctx kd _ _ _ _ _ _ _ Oko Re) as (Icx & Ipx).
  (* in present data *)
  assert (Cp : cc c o (lk id olds) = Present -> c = Present).
  { intros X. destruct Hc as [-> |(-> & ->)]; [reflexivity|]. exfalso. destruct (Cx eq_refl) as (_ & _ & Y). destruct Y as [Y|Y]; [discriminate|subst o; discriminate|congruence]. }
  assert (Hc' : cc c o (lk id olds) = Present \/ (cc c o (lk id olds) = Missing /\ lk id olds = None)).
  { unfold cc. destruct (lk id olds) as [d|] eqn:Ld; [rewrite Do; left; reflexivity|]. destruct (Cx eq_refl) as (C1 & C2 & _). destruct Oko. destruct o; try contradiction; try discriminate; auto. right. split; [|reflexivity]. destruct Hc as [-> |(-> & _)]; reflexivity. }
  destruct r as [|id' r'].
  - (* the node itself *)
    assert (Ow : delo (own_of e) = false) by (unfold oper in Oe; destruct (own_of e) as [oo|]; [injection Oe as ->; exact Do|reflexivity]).
    assert (Fin : forall n w, c = Present -> isn o (lk id olds) = true -> eident n = id -> es' = on_id kd id (fun _ => Some n) es -> w = value_at kd [id] v -> sp Present false inh n (lk id olds) = Some (Some (D (esch e) w false Ke)) ->
      c = Present /\ exists K', kids Present inh es' olds = Some K' /\ forall q, get q K' = vset kd [id] v (fun q => get q K) q).
    { intros n w Cpp In0 En Ees Ew Sn. split; [exact Cpp|]. rewrite Cpp in *. destruct (fe_set kd id es e n (proj1 Iv) Hid Fe En) as (F1 & F2). rewrite <- Ees in F1, F2.
      destruct (repl_same kd Present inh es es' olds K _ _ _ _ id n _ Hk Iv Oi Iv' F1 F2 Sn) as (K' & H1 & H2 & H3). exists K'. split; [exact H1|].
      apply (get_upd kd (vset kd [id] v) id K K'); [intros m M; apply vset_nil; discriminate|intros m i r' Ni; apply vset_other; exact Ni|exact H3|]. intros r'. rewrite H2, vset_same. unfold nset. destruct r' as [|a r'].
      - cbn [EditAddBase.nview dval]. rewrite Ew. reflexivity.
      - cbn [EditAddBase.nview dch]. rewrite (get_cons kd id), Lid, Ere, In0. reflexivity. }
    assert (Core : forall x w0 n, esch x = esch e -> own_of x = own_of e -> ch_of x = ch_of e -> eident x = id -> okown x -> eval x = value_at kd [id] v -> (kd (esch e) <> KLeaf -> eval x = eval e) ->
      merge_op kd inh op w0 x = MKeep n -> c = Present /\ isn o (lk id olds) = true /\ eident n = id /\ sp Present false inh n (lk id olds) = Some (Some (D (esch e) (value_at kd [id] v) false Ke))).
    { intros x w0 n Ex Owx Cxx Ix Okx Vx Vnl M. unfold merge_op in M. assert (Ox : oper inh x = Some o) by (unfold oper in *; rewrite Owx; exact Oe). rewrite Ox in M.
      assert (NoCr : isn o (lk id olds) = true -> op = Merge) by (intros In0; destruct Op as [Q|Q]; [exact Q|]; exfalso; specialize (Hcr Q); rewrite get_cons, Lid, Ere, In0 in Hcr; discriminate).
      destruct (eop_eqb op o) eqn:Eq.
      - apply eop_eqb_eq in Eq. subst o. injection M as <-.
        assert (In0 : isn op (lk id olds) = true) by (unfold isn; rewrite Do; destruct Op as [-> | ->]; reflexivity). assert (Q := NoCr In0). subst op.
        assert (Cc : cc c Merge (lk id olds) = Present) by (unfold cc; destruct (lk id olds); reflexivity). split; [exact (Cp Cc)|]. split; [exact In0|]. split; [exact Ix|]. rewrite Cc in Hke.
        rewrite (sp_e kd _ _ _ _ Merge Oi Okx Ox), Ex, Cxx, Vx. unfold spk. cbn [deletes]. destruct (lk id olds) as [d|]; cbn [base_of] in Hke; rewrite Hke; reflexivity.
      - assert (Hv : (o = Ether \/ o = Non) -> (if forallb (have_op op) (ch_of x) then MKeep (set_own (Some op) x) else MErr x) = MKeep n ->
          c = Present /\ isn o (lk id olds) = true /\ eident n = id /\ sp Present false inh n (lk id olds) = Some (Some (D (esch e) (value_at kd [id] v) false Ke))).
        { intros E0 Mx. destruct (forallb (have_op op) (ch_of x)) eqn:Hv; [|discriminate]. injection Mx as <-. rewrite Cxx in Hv.
          assert (Nc : ch_of e <> []).
          { intros Y. assert (T := inve_tgt _ _ _ _ Ie Y). unfold oper in Oe. destruct (own_of e) as [o1|]; [injection Oe as ->; destruct E0 as [-> | ->]; exact T|exact T]. }
          assert (T : term (kd (esch e)) = false) by (destruct (term (kd (esch e))) eqn:T; [apply (inve_term _ _ _ _ Ie) in T; contradiction|reflexivity]).
          assert (Ic := inve_ch kd _ _ _ Ie). assert (Cc : cc c o (lk id olds) = Present).
          { apply (set_kids kd op _ _ _ o (ch_of e) (lk id olds) Ke Op Ic Hv Nc E0 Hc' Hke). }
          destruct (Ipx Cc) as (In0 & _). split; [exact (Cp Cc)|]. split; [exact In0|]. rewrite eident_own. split; [exact Ix|]. assert (Q := NoCr In0). subst op.
          rewrite Cc in Hke. assert (Hk2 := mrg_kids kd _ _ o (ch_of e) _ Ke Ic Hv E0 (base_wfd kd id olds W) Hke).
          assert (Osx : okown (set_own (Some Merge) x)) by (destruct x; split; discriminate).
          rewrite (sp_e kd Present inh (set_own (Some Merge) x) _ Merge Oi Osx) by (destruct x; reflexivity).
          assert (Z : esch (set_own (Some Merge) x) = esch e /\ ch_of (set_own (Some Merge) x) = ch_of e /\ eval (set_own (Some Merge) x) = value_at kd [id] v) by (rewrite <- Ex, <- Cxx, <- Vx; destruct x; split; [reflexivity|split; reflexivity]). destruct Z as (-> & -> & ->).
          unfold spk. cbn [deletes]. destruct (lk id olds) as [d|]; cbn [base_of] in Hk2; rewrite Hk2; reflexivity. }
        destruct o; try discriminate; try (destruct Op as [-> | ->]; discriminate); try (apply Hv; [|exact M]; (left; reflexivity) || (right; reflexivity)).
        destruct Oko as (X & _). contradiction. }
    destruct (matched kd nullok inh op (Some v) e) as [n| |n] eqn:M; [| |discriminate].
    + injection Ha as Ees.
      assert (Z : c = Present /\ isn o (lk id olds) = true /\ eident n = id /\ sp Present false inh n (lk id olds) = Some (Some (D (esch e) (value_at kd [id] v) false Ke))).
      { assert (Vnl : kd (esch e) <> KLeaf -> eval e = value_at kd [id] v).
        { intros X. rewrite (eval_id kd _ _ e id Ie Eid X). assert (Es := esch_id kd _ _ Eid). unfold value_at. cbn [last]. destruct id as [s k]. cbn [fst snd] in *. rewrite Es in X. destruct (kd s); try reflexivity. contradiction. }
        unfold matched in M. destruct (kd (esch e)) eqn:Kd0; try (apply (Core e 0 n eq_refl eq_refl eq_refl Eid Oke); [apply Vnl; discriminate|reflexivity|exact M]).
        assert (Opq : opaque nullok e = false) by (unfold opaque; destruct (own_of e) as [[]|]; try reflexivity; discriminate). rewrite Opq in M.
        apply (Core (set_v v e) v n); try exact M; try (destruct e; reflexivity).
        - rewrite eident_v by exact Kd0. exact Eid.
        - destruct e; exact Oke.
        - assert (Es := esch_id kd _ _ Eid). unfold value_at. cbn [last]. destruct id as [s k]. cbn [fst] in Es. rewrite Es in Kd0. rewrite Kd0. destruct e; reflexivity.
        - intros X. contradiction. }
      destruct Z as (A & B & C & Dd). exact (Fin n _ A B C (eq_sym Ees) eq_refl Dd).
    + (* not freed *)
      exfalso. destruct (matched_inv kd nullok op false (Some v) id hr e inh MFree Ob Ie Oi Eid) as [(n & X & _)|(n & X)]; try discriminate; [|intros _; rewrite Oe; exact Do|exact M].
      intros X. rewrite (esch_id kd _ _ Eid). exact (Np X).
  - (* on the path *)
    set (r := id' :: r') in *. assert (Nr : r <> []) by discriminate. rewrite Oe in Ha. destruct (match_r kd nullok op (Some v) r (Some o) (ch_of e)) as (ok, ch') eqn:Mr. injection Ha as -> Ees.
    assert (Pr : path_ok kd r) by (destruct id; destruct P as (_ & _ & P); exact P).
    assert (Ic : inv kd (delo (Some o)) (res id hr) (ch_of e)) by (rewrite <- Oe, <- dl_oper; apply inve_ch; exact Ie).
    assert (Gk : isn o (lk id olds) = true -> forall q, q <> [] -> get (id :: q) K = get q Ke).
    { intros X q Nq. rewrite get_cons, Lid, Ere, X. cbn [EditAddBase.nview dch]. destruct q; [contradiction|reflexivity]. }
    destruct (IH (ch_of e) (Some o) (base_of (lk id olds)) (res id hr) (cc c o (lk id olds)) Ke ch' Pr Ic Oko Do (base_wfd kd id olds W)) as (Cc & K1 & Hk1 & G1).
    + intros q Hq. apply res_in in Hq. specialize (Nd _ Hq). rewrite prefix_cons in Nd. exact Nd.
    + exact Np.
    + exact Hke.
    + destruct Hc' as [X|(X & Y)]; [left; exact X|right; split; [exact X|rewrite Y; reflexivity]].
    + intros X. specialize (Hcr X). destruct (isn o (lk id olds)) eqn:In0; [rewrite <- (Gk eq_refl r Nr); exact Hcr|].
      destruct Hc' as [Y|(Y & Z)]; [destruct (Ipx Y); discriminate|]. rewrite Y, Z in Hke. cbn [base_of] in Hke. exact (kids_missing kd (Some o) (ch_of e) Ke _ _ Hke Ic Oko r).
    + exact Mr.
    + assert (Cpp := Cp Cc). split; [exact Cpp|]. destruct (Ipx Cc) as (In0 & _). destruct (fe_set kd id es e (set_ch ch' e) (proj1 Iv) Hid Fe) as (F1 & F2); [rewrite eident_ch; exact Eid|]. rewrite Ees in F1, F2.
      rewrite Cpp in *. destruct (repl_same kd Present inh es es' olds K _ _ _ _ id (set_ch ch' e) (Some (D (esch e) val false K1)) Hk Iv Oi Iv' F1 F2) as (K' & H1 & H2 & H3).
      { rewrite (sp_e kd Present inh (set_ch ch' e) _ o Oi); [|destruct e; exact Oke|destruct e; exact Oe].
        assert (X : esch (set_ch ch' e) = esch e /\ eval (set_ch ch' e) = eval e /\ ch_of (set_ch ch' e) = ch') by (destruct e; split; [reflexivity|split; reflexivity]). destruct X as (-> & -> & ->).
        rewrite (Redo (fun c' olds0 => kids c' (Some o) ch' olds0) K1), In0; [reflexivity|]. rewrite Cc. exact Hk1. }
      exists K'. split; [exact H1|]. apply (get_upd kd (vset kd (id :: r) v) id K K'); [intros m M; apply vset_nil; discriminate|intros m i r0 Ni; apply vset_other; exact Ni|exact H3|].
      intros r0. rewrite H2, vset_same. unfold nset. fold r. destruct r as [|a r1] eqn:Er0; [contradiction|]. rewrite <- Er0 in *. destruct r0 as [|a0 r0].
      * cbn [EditAddBase.nview dval]. rewrite get_cons, Lid, Ere, In0. reflexivity.
      * cbn [EditAddBase.nview dch]. rewrite G1. unfold vset. destruct (eq_path (a0 :: r0) r); [reflexivity|]. rewrite (Gk In0) by discriminate. reflexivity.
Qed.

(** ** Deleting what is not in the edit, not strictly *)
Notation del_chain := (chain kd Remove None IDefault).
Lemma okown_del : forall id r, okown (del_chain id r).
Proof. intros id [|a r]; unfold okown; cbn [chain eown]; [split; discriminate|exact I]. Qed.
Lemma chain_kids : forall c o id r olds x, path_ok kd (id :: r) -> okop o -> sp c false (Some o) (del_chain id r) (lk id olds) = Some x ->
  exists K, kids c (Some o) [del_chain id r] olds = Some K /\ lk id K = x /\ forall i, i <> id -> lk i K = lk i olds.
Proof.
  intros c o id r olds x P Ok Sx. assert (Cn : eident (del_chain id r) = id) by (apply chain_ident; exact P).
  destruct (kids_make kd c (Some o) [] olds (fun e (He : In e []) => match He with end)) as (K0 & H0).
  assert (G0 : forall i, lk i K0 = lk i olds) by (intros i; rewrite (kids_lk kd _ _ _ _ _ H0 (NoDup_nil _) (Forall_nil _) Ok); reflexivity).
  destruct (repl1 kd c c (Some o) (Some o) [] [del_chain id r] olds K0 id (del_chain id r) x H0 (NoDup_nil _) (Forall_nil _) Ok) as (K1 & H1 & L1 & L2).
  - cbn [map]. constructor; [intros []|constructor].
  - constructor; [apply okown_del|constructor].
  - exact Ok.
  - unfold EditAddBase.fe. cbn [find]. rewrite Cn, same_id_refl. reflexivity.
  - exact Sx.
  - intros i Ni. unfold EditAddBase.fe. cbn [find]. rewrite Cn, (proj2 (same_id_neq id i)) by congruence. reflexivity.
  - exists K1. split; [exact H1|]. split; [exact L1|]. intros i Ni. rewrite (L2 i Ni). apply G0.
Qed.
Lemma chain_del : forall r id olds o c, path_ok kd (id :: r) -> wf_data kd olds -> okop o -> (c = Deleted -> o = Remove) -> (c = Missing -> olds = [] /\ (o = Ether \/ o = Remove)) -> (c = Present -> deletes o = false) ->
  (o = Create -> olds = []) -> (c = Present -> o = Ether \/ r = [] \/ parents_in (fun q => get q olds) (id :: r)) ->
  exists x, sp c false (Some o) (del_chain id r) (lk id olds) = Some x /\ (c = Present -> forall r', nview x r' = vdel (id :: r) (fun q => get q olds) (id :: r')).
Proof.
  induction r as [|id' r IH]; intros id olds o c P W Ok C1 C2 C3 Cr Pa.
  - exists None. split; [|intros _ r'; rewrite vdel_self; reflexivity]. assert (X := rm_all kd (del_chain id []) (have_op_chain kd Remove None IDefault [] id) c (lk id olds)). exact X.
  - destruct (eop_eqb o Remove) eqn:Er.
    { apply eop_eqb_eq in Er. subst o. exists None. split; [apply rm_all; apply have_op_chain|]. intros X. specialize (C3 X). discriminate. }
    assert (Nrm : o <> Remove) by (intros X; apply eop_eqb_eq in X; congruence).
    assert (Cd : c <> Deleted) by (intros X; exact (Nrm (C1 X))).
    assert (Do : deletes o = false) by (destruct c; [apply C3; reflexivity|destruct (C2 eq_refl) as (_ & [-> | ->]); [reflexivity|contradiction]|contradiction]).
    assert (Pr : path_ok kd (id' :: r) /\ term (kd (fst id)) = false) by (destruct id; destruct P as (_ & T & P); split; assumption). destruct Pr as (Pr & T).
    assert (Hid : id_ok kd id) by (apply (path_ok_id kd id (id' :: r)); exact P).
    destruct (lk id olds) as [d|] eqn:Ld.
    + assert (Cp : c = Present) by (destruct c; [reflexivity|destruct (C2 eq_refl) as (X & _); rewrite X in Ld; discriminate|contradiction]). subst c.
      assert (Ncr : o <> Create) by (intros X; rewrite (Cr X) in Ld; discriminate).
      destruct (lk_wfd kd _ _ _ W Ld) as (Wd & Id & Wc).
      destruct (IH id' (dch d) o Present Pr Wc Ok) as (x & Sx & Vx); try discriminate; [intros _; exact Do|intros X; contradiction| |].
      { intros _. destruct (Pa eq_refl) as [X|[X|X]]; [left; exact X|discriminate|]. right. right. apply (parents_sub id (id' :: r) (fun q => get q olds)) in X; [|discriminate]. destruct X as (_ & X). apply (parents_ext (fun x => get (id :: x) olds)); [|exact X].
        intros q Nq. rewrite get_cons, Ld. destruct q; [contradiction|reflexivity]. }
      destruct (chain_kids Present o id' r (dch d) x Pr Ok Sx) as (K1 & H1 & L1 & L2).
      assert (Vd : dval d = snd id).
      { apply (nonterm_val kd (fst id) (snd id) d id Id); [|exact Wd|exact T|].
        - destruct id as [s k]. unfold EditSpec.key. cbn [fst snd] in *. destruct (inst (kd s)) eqn:Is; [reflexivity|]. f_equal. exact (Hid Is).
        - destruct (kd (fst id)) eqn:Kd; try exact I. apply Hid. rewrite Kd. reflexivity. }
      exists (Some (D (fst id) (dval d) false K1)). split.
      * cbn [chain]. rewrite (sp_spk kd Present (Some o) (fst id) (snd id) false None IDefault _ o _ eq_refl (proj1 Ok)). unfold spk. destruct Ok as (O1 & O2). destruct o; try contradiction; try discriminate; cbn [deletes]; rewrite H1; try reflexivity. rewrite Vd. reflexivity.
      * intros _ r'. rewrite vdel_same. unfold ndel. destruct r' as [|a r']; [cbn [EditAddBase.nview dval]; rewrite get_cons, Ld; reflexivity|].
        change (nview (Some (D (fst id) (dval d) false K1)) (a :: r')) with (nview (lk a K1) r'). destruct (ident_dec a id') as [-> |Na].
        -- rewrite L1. rewrite (Vx eq_refl). unfold vdel. destruct (prefix (id' :: r) (id' :: r')); [reflexivity|]. rewrite (get_cons kd id), Ld. reflexivity.
        -- rewrite (L2 a Na), vdel_other by exact Na. rewrite (get_cons kd id), Ld. reflexivity.
    + assert (E0 : o = Ether).
      { destruct c; [|destruct (C2 eq_refl) as (_ & [X|X]); [exact X|contradiction]|contradiction]. destruct (Pa eq_refl) as [X|[X|X]]; [exact X|discriminate|]. exfalso. apply (parents_sub id (id' :: r) (fun q => get q olds)) in X; [|discriminate]. destruct X as (X & _). apply X. rewrite get_cons, Ld. reflexivity. }
      subst o. destruct (IH id' [] Ether Missing Pr (wf_data_nil kd) Ok) as (x & Sx & _); try discriminate; [intros _; split; [reflexivity|left; reflexivity]|].
      destruct (chain_kids Missing Ether id' r [] x Pr Ok Sx) as (K1 & H1 & _).
      exists None. split.
      * cbn [chain]. rewrite (sp_spk kd c (Some Ether) (fst id) (snd id) false None IDefault _ Ether _ eq_refl); [|discriminate]. unfold spk. cbn [deletes]. destruct c; [| |contradiction]; rewrite H1; reflexivity.
      * intros _ r'. symmetry. apply vdel_none. intros q. rewrite get_cons, Ld. reflexivity.
Qed.

Lemma sup_ether : forall o d, superior Ether o <> SYes d.
Proof. intros [] d; discriminate. Qed.
Lemma weak_add : forall p es inh olds hr c K l es', path_ok kd p -> inv kd (delo inh) hr es -> okinh inh -> wf_data kd olds -> in_edit_at kd p es = false -> kids c inh es olds = Some K ->
  (c = Deleted -> delo inh = true) -> (c = Missing -> olds = [] /\ (inh = Some Ether \/ inh = Some Remove)) -> (c = Present -> delo inh = false) -> (inh = Some Create -> olds = []) ->
  (c = Present -> parents_in (fun q => get q K) p \/ (forallb (opsA weakA) es = true /\ inhA weakA inh)) ->
  add_r kd Remove Ether None IDefault p inh es = (l, es') -> l <> LErr ->
  l = LStop /\ exists K', kids c inh es' olds = Some K' /\ (c = Present -> forall q, get q K' = vdel p (fun q => get q K) q).
Proof.
  assert (Ob : opb Remove true) by (left; reflexivity). assert (Od : defop Ether) by (right; right; reflexivity). assert (Bd : true = true -> Ether <> Merge) by discriminate.
  induction p as [|id r IH]; intros es inh olds hr c K l es' P Iv Oi W Ne Hk C1 C2 C3 Ccr Pa Ha L; [destruct P|].
  assert (Hid : id_ok kd id) by (apply (path_ok_id kd id r); exact P).
  destruct (inv_add kd Remove Ether None true Ob Od Bd (id :: r) es inh hr l es' P Iv Oi Ne) as (Iv' & _); try assumption; try discriminate.
  cbn [add_r in_edit_at] in *. rewrite (fe_at kd id es Hid) in *. destruct (fe id es) as [e|] eqn:Fe.
  - destruct r as [|id' r']; [discriminate|]. set (r := id' :: r') in *. assert (Nr : r <> []) by discriminate. destruct (fe_some _ _ _ _ Fe) as (Hin & Eid).
    assert (Ie : inve kd (delo inh) (res id hr) e) by (rewrite <- Eid; exact (inv_in _ _ _ _ _ Iv Hin)). assert (Oke := inve_ok _ _ _ _ Ie).
    destruct (kids_each kd _ _ _ _ _ Hk e Hin) as (re & Re). rewrite Eid in Re. destruct (sp_e_none kd _ _ _ _ _ Re) as (o & Oe). assert (Oko : okop o) by (exact (okop_oper inh e o Oi Oke Oe)).
    rewrite (sp_e kd _ _ _ _ o Oi Oke Oe) in Re. destruct (spk_ctx kd _ _ _ _ _ _ _ Re) as (Cd & Cx). destruct (isn_ctx kd _ _ _ _ _ _ _ Oko Re) as (_ & Ipx).
    assert (Pr : path_ok kd r /\ term (kd (esch e)) = false) by (rewrite (esch_id kd _ _ Eid); destruct id; destruct P as (_ & T & P); split; assumption). destruct Pr as (Pr & T).
    assert (Ic : inv kd (delo (Some o)) (res id hr) (ch_of e)) by (rewrite <- Oe, <- dl_oper; apply inve_ch; exact Ie).
    assert (Cc : cc c o (lk id olds) = Present -> c = Present).
    { intros X. destruct c; [reflexivity| |].
      - exfalso. destruct (C2 eq_refl) as (Y & _). assert (Z : lk id olds = None) by (rewrite Y; reflexivity). destruct (Cx Z) as (_ & _ & V). destruct (Ipx X) as (_ & D). rewrite Z in X. unfold cc in X. destruct V as [V|V]; [discriminate|subst o; discriminate|congruence].
      - exfalso. destruct (Ipx X) as (_ & D). rewrite (Cd eq_refl) in D. discriminate. }
    rewrite Oe in Ha. destruct (add_r kd Remove Ether None IDefault r (Some o) (ch_of e)) as (l', ch') eqn:Ar.
    assert (L' : l' <> LErr) by (intros ->; injection Ha as <- _; apply L; reflexivity).
    assert (Hsub : forall Ke re0, spk kd c (esch e) (eval e) o (fun c' olds0 => kids c' (Some o) (ch_of e) olds0) (lk id olds) = Some re0 ->
      (cc c o (lk id olds) = Present -> forall q, q <> [] -> get (id :: q) K = get q Ke) -> (cc c o (lk id olds) = Present -> get [id] K <> None) ->
      kids (cc c o (lk id olds)) (Some o) (ch_of e) (base_of (lk id olds)) = Some Ke ->
      l' = LStop /\ exists Ke', kids (cc c o (lk id olds)) (Some o) ch' (base_of (lk id olds)) = Some Ke' /\ (cc c o (lk id olds) = Present -> forall q, get q Ke' = vdel r (fun q => get q Ke) q)).
    { intros Ke re0 _ Gk _ Hke. apply (IH (ch_of e) (Some o) (base_of (lk id olds)) (res id hr) (cc c o (lk id olds)) Ke l' ch' Pr Ic Oko (base_wfd kd id olds W) Ne Hke); try assumption.
      - unfold cc, miss. cbn [delo]. destruct (lk id olds) as [d|]; [destruct (deletes o); [reflexivity|discriminate]|]. destruct o; try reflexivity; try discriminate; destruct c; try discriminate; intros _; exact (Cd eq_refl).
      - intros X. unfold cc, miss in X. destruct (lk id olds) as [d|]; [destruct (deletes o); discriminate|]. split; [reflexivity|]. destruct (Cx eq_refl) as (N1 & N2 & _). destruct Oko as (N3 & N4). destruct o; try contradiction; try discriminate; [left|right]; reflexivity.
      - intros X. apply Ipx. exact X.
      - intros X. injection X as ->. unfold oper in Oe. destruct (own_of e) as [oo|] eqn:Oo; [|rewrite (Ccr Oe); reflexivity]. injection Oe as ->.
        destruct (lk id olds) as [d|] eqn:Ld; [|reflexivity]. exfalso. unfold spk in Re. cbn [deletes] in Re.
        assert (Vn : np_cont (kd (esch e)) = false) by (destruct e as [s v b own i ch]; apply inve_iff in Ie; destruct Ie as ((_ & (_ & _ & Z) & _) & _); exact (Z Oo)). rewrite Vn in Re.
        assert (Df : is_default kd d = false) by (unfold is_default; apply lk_some in Ld; destruct Ld as (_ & Id); rewrite <- Eid in Id; unfold EditSpec.ident, EditSpec.eident in Id; injection Id as -> _; rewrite T; reflexivity). rewrite Df in Re. destruct c; discriminate.
      - intros X. destruct (Pa (Cc X)) as [Y|(Y1 & Y2)].
        + left. apply (parents_sub id r (fun q => get q K)) in Y; [|exact Nr]. destruct Y as (_ & Y). apply (parents_ext (fun x => get (id :: x) K)); [|exact Y]. exact (Gk X).
        + right. rewrite forallb_forall in Y1. split; [apply opsA_ch; exact (Y1 e Hin)|rewrite <- Oe; apply opsA_own; [exact (Y1 e Hin)|exact Y2]]. }
    assert (Ls : l' = LStop).
    { destruct (spk_io kd _ _ _ _ _ _ _ Oko Re) as (val & Ke & Hke & Ere & _).
      assert (Lid : lk id K = re). { rewrite (kids_lk kd _ _ _ _ _ Hk (proj1 Iv) (inv_ok _ _ _ _ Iv) Oi), Fe, (sp_e kd _ _ _ _ o Oi Oke Oe), Re. reflexivity. }
      apply (Hsub Ke re Re); [| |exact Hke].
      - intros X q Nq. rewrite get_cons, Lid, Ere, (proj1 (Ipx X)). cbn [EditAddBase.nview dch]. destruct q; [contradiction|reflexivity].
      - intros X. rewrite get_cons, Lid, Ere, (proj1 (Ipx X)). discriminate. }
    subst l'. injection Ha as <- Ees. split; [reflexivity|].
    apply (path_del kd id r es inh olds hr c K e ch' es' o ((id :: r, true) :: hr) (delo inh)); try assumption; [symmetry; exact Ees|].
    intros Ke re0 X1 X2 X3 X4. destruct (Hsub Ke re0 X1 X2 X3 X4) as (_ & X). exact X.
  - destruct inh as [o|]; [|injection Ha as <- _; contradiction]. assert (Oko : okop o) by exact Oi.
    assert (Sn : superior Ether o = SNo).
    { destruct (superior Ether o) as [| |d] eqn:S; [injection Ha as <- _; contradiction|reflexivity|exfalso; exact (sup_ether o d S)]. }
    rewrite Sn in Ha. injection Ha as <- Ees. split; [reflexivity|].
    assert (Cn : eident (del_chain id r) = id) by (apply chain_ident; exact P).
    assert (Lid : lk id K = lk id olds) by (rewrite (kids_lk kd _ _ _ _ _ Hk (proj1 Iv) (inv_ok _ _ _ _ Iv) Oi), Fe; reflexivity).
    assert (F1 : fe id es' = Some (del_chain id r)) by (rewrite <- Ees, fe_app, Fe, Cn, same_id_refl; reflexivity).
    assert (F2 : forall i, i <> id -> fe i es' = fe i es) by (intros i Ni; rewrite <- Ees, fe_app, Cn, (proj2 (same_id_neq id i)) by congruence; destruct (fe i es); reflexivity).
    destruct (chain_del r id olds o c P W Oko) as (x & Sx & Vx).
    { intros X. specialize (C1 X). cbn [delo] in C1. destruct Oko. destruct o; try discriminate; try contradiction; reflexivity. }
    { intros X. destruct (C2 X) as (Y & Z). split; [exact Y|]. destruct Z as [Z|Z]; injection Z as ->; [left|right]; reflexivity. }
    { intros X. exact (C3 X). }
    { intros X. apply Ccr. rewrite X. reflexivity. }
    { intros X. destruct (Pa X) as [Y|(_ & Y)].
      - right. right. intros q Nq Q. specialize (Y q Nq Q). unfold exists_in in *. destruct q as [|i q]; [contradiction|]. unfold parent_of in Q. cbn [prefix] in Q. apply andb_prop in Q. destruct Q as (Q & _). apply andb_prop in Q. destruct Q as (Q & _). apply same_id_eq in Q. subst i.
        rewrite get_cons in *. rewrite <- Lid. exact Y.
      - left. cbn [inhA] in Y. specialize (C3 X). cbn [delo] in C3. destruct o; try discriminate; reflexivity. }
    destruct (repl_same kd c (Some o) es es' olds K _ _ _ _ id (del_chain id r) x Hk Iv Oi Iv' F1 F2 Sx) as (K' & H1 & H2 & H3). exists K'. split; [exact H1|]. intros Cp.
    apply (get_upd kd (vdel (id :: r)) id K K'); [intros m M; apply vdel_nil; [discriminate|exact M]|intros m i r' Ni; apply vdel_other; exact Ni|exact H3|]. intros r'. rewrite H2, (Vx Cp). unfold vdel. destruct (prefix (id :: r) (id :: r')); [reflexivity|]. rewrite !get_cons, Lid. reflexivity.
Qed.
End P.
