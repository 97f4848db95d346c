(** All the calls. *)
From Coq Require Import List Bool Arith Lia.
From Verif Require Import Edit EditSpec EditProofs EditOps EditSem EditTotal EditAdd EditAddSpec EditAddBase EditAddInv EditAddPres EditAddSem EditAddDel EditAddStep EditAddStep2.
Import ListNotations.

Section P.
Variable kd : nat -> kind.
Variable nullok : nat -> bool.
Notation key := (EditSpec.key kd).
Notation ident := (EditSpec.ident kd).
Notation eident := (EditSpec.eident kd).
Notation lk := (EditSpec.lk kd).
Notation get := (EditSpec.get kd).
Notation sp := (EditSpec.sp kd).
Notation kids := (kids kd).
Notation fe := (fe kd).
Notation nview := (nview kd).

(** ** Setting *)
Definition set_c (op def : eop) (p : path) (m : view) : Prop := (op = Create -> m p = None) /\ (def = Non -> parents_in m p).
Lemma vset_ext1 : forall p v m m' q, q <> [] -> (forall q, q <> [] -> m q = m' q) -> vset kd p v m q = vset kd p v m' q.
Proof. intros p v m m' q N H. unfold vset. destruct (eq_path q p); [reflexivity|]. destruct q; [contradiction|]. rewrite H by exact N. reflexivity. Qed.
Lemma last_set : forall op v, op = Merge \/ op = Create -> forall def id olds m o, path_ok kd [id] -> set_c op def [id] m -> True -> wf_data kd olds -> (forall r', m (id :: r') = nview (lk id olds) r') ->
  exists x, sp Present false o (chain kd op (Some v) IDefault id []) (lk id olds) = Some x /\ forall r', nview x r' = vset kd [id] v m (id :: r').
Proof.
  intros op v Op def id olds m o P (Oc & _) _ W Q. cbn [chain]. set (nv := new_val kd (fst id) (snd id) (Some v)).
  assert (Oko : okop op) by (destruct Op as [-> | ->]; split; discriminate).
  destruct (kids_make kd Present (Some op) [] (base_of (lk id olds)) (fun e (He : In e []) => match He with end)) as (K0 & H0).
  assert (G0 : forall i, lk i K0 = lk i (base_of (lk id olds))) by (intros i; rewrite (kids_lk kd _ _ _ _ _ H0 (NoDup_nil _) (Forall_nil _) Oko); reflexivity).
  exists (Some (D (fst id) nv false K0)). split.
  - rewrite (sp_spk kd Present o (fst id) nv false (Some op) IDefault [] op _ eq_refl (proj1 Oko)). unfold spk. destruct Op as [-> | ->]; cbn [deletes].
    + destruct (lk id olds); cbn [base_of] in H0; rewrite H0; reflexivity.
    + specialize (Oc eq_refl). rewrite Q in Oc. destruct (lk id olds); [discriminate|]. cbn [base_of] in H0. rewrite H0. reflexivity.
  - intros r'. rewrite vset_same. unfold nset. destruct r' as [|a r'].
    + cbn [EditAddBase.nview dval]. f_equal. unfold nv, new_val, value_at. cbn [last]. destruct id as [s k]. cbn [fst snd]. destruct (kd s); reflexivity.
    + change (nview (Some (D (fst id) nv false K0)) (a :: r')) with (nview (lk a K0) r'). rewrite G0, Q. destruct (lk id olds); reflexivity.
Qed.
Lemma go_set : forall op def v, op = Merge \/ op = Create -> def = Merge \/ def = Non ->
  forall p es olds hr K es', path_ok kd p -> inv kd false hr es -> wf_data kd olds -> in_edit_at kd p es = false -> (forall q, In (q, true) hr -> prefix q p = false) ->
  (op = Create -> np_cont (kd (fst (last p (0, 0)))) = false) -> kids Present None es olds = Some K -> set_c op def p (fun q => get q K) ->
  edit_add kd nullok op def (Some v) IDefault p es = AOk es' ->
  inv kd false ((p, false) :: hr) es' /\ exists K', kids Present None es' olds = Some K' /\ forall q, get q K' = vset kd p v (fun q => get q K) q.
Proof.
  intros op def v Op Hd p es olds hr K es' P Iv W Ne Nd Np Hk Ok Ha.
  apply (go_top kd op def (Some v) (fun p m => vset kd p v m) (set_c op def) (fun _ _ => True) Hd false Op) with (nullok := nullok) (es := es); try assumption; try (intros; exact I).
  - discriminate.
  - intros q m Nq _. apply vset_nil. exact Nq.
  - intros id id' r m r' N. apply vset_other. exact N.
  - intros id r m r' N _. rewrite vset_same. unfold nset. destruct r as [|a r]; [contradiction|]. destruct r' as [|a' r']; [destruct (m [id]); reflexivity|reflexivity].
  - intros q m m' q' Nq H. apply vset_ext1; assumption.
  - intros id r m N (A & B). split; [exact A|]. intros X. exact (proj2 (parents_sub id r m N (B X))).
  - intros q m m' N H (A & B). split; [intros X; rewrite <- H by exact N; exact (A X)|]. intros X. exact (parents_ext m m' q H (B X)).
  - intros id r m N X (_ & B). exact (proj1 (parents_sub id r m N (B X))).
  - intros id0 olds0 m o. apply last_set. exact Op.
  - intros _. exact Nd.
Qed.

(** ** Deleting strictly *)
Definition del_c (p : path) (m : view) : Prop := m p <> None /\ parents_in m p.
Lemma go_del : forall p es olds hr K es', path_ok kd p -> inv kd false hr es -> wf_data kd olds -> in_edit_at kd p es = false ->
  kids Present None es olds = Some K -> del_c p (fun q => get q K) -> default_at kd p olds = false ->
  edit_add kd nullok Delete Non None IDefault p es = AOk es' ->
  inv kd false ((p, true) :: hr) es' /\ exists K', kids Present None es' olds = Some K' /\ forall q, get q K' = vdel p (fun q => get q K) q.
Proof.
  intros p es olds hr K es' P Iv W Ne Hk Ok Dk Ha.
  apply (go_top kd Delete Non None vdel del_c (fun p olds => default_at kd p olds = false) (or_intror eq_refl) true (or_intror eq_refl)) with (nullok := nullok) (es := es); try assumption; try discriminate.
  - reflexivity.
  - intros q m Nq H. apply vdel_nil; assumption.
  - intros id id' r m r' N. apply vdel_other. exact N.
  - intros id r m r' N (_ & B). rewrite vdel_same. unfold ndel. destruct r as [|a r]; [contradiction|]. destruct r' as [|a' r']; [|reflexivity]. destruct (parents_sub id (a :: r) m N B) as (X & _). destruct (m [id]); [reflexivity|contradiction].
  - intros q m m' q' Nq H. unfold vdel. destruct (prefix q q'); [reflexivity|]. apply H. exact Nq.
  - intros id r m N (A & B). split; [exact A|]. exact (proj2 (parents_sub id r m N B)).
  - intros q m m' N H (A & B). split; [rewrite <- H by exact N; exact A|]. exact (parents_ext m m' q H B).
  - intros id r m N _ (_ & B). exact (proj1 (parents_sub id r m N B)).
  - intros id r olds0 d N L0 X. cbn [default_at] in X. rewrite L0 in X. destruct r; [contradiction|exact X].
  - intros [|a r]; reflexivity.
  - intros id olds0 m o P0 (A & _) X W0 Q. rewrite Q in A. cbn [default_at] in X. destruct (lk id olds0) as [d|] eqn:L0; [|exfalso; apply A; reflexivity].
    exists None. split; [|intros r'; rewrite vdel_self; reflexivity]. cbn [chain].
    destruct (kids_make kd Deleted (Some Delete) [] (dch d) (fun e (He : In e []) => match He with end)) as (K0 & H0).
    rewrite (sp_spk kd Present o (fst id) _ false (Some Delete) IDefault [] Delete _ eq_refl); [|discriminate]. unfold spk. cbn [deletes]. rewrite X, H0. reflexivity.
Qed.

(** ** Deleting, not strictly *)
Lemma go_weak : forall p es olds hr K es', path_ok kd p -> inv kd false hr es -> wf_data kd olds -> in_edit_at kd p es = false ->
  kids Present None es olds = Some K -> (parents_in (fun q => get q K) p \/ forallb (opsA weakA) es = true) ->
  edit_add kd nullok Remove Ether None IDefault p es = AOk es' ->
  inv kd false ((p, true) :: hr) es' /\ exists K', kids Present None es' olds = Some K' /\ forall q, get q K' = vdel p (fun q => get q K) q.
Proof.
  assert (Ob : opb Remove true) by (left; reflexivity). assert (Od : defop Ether) by (right; right; reflexivity). assert (Bd : true = true -> Ether <> Merge) by discriminate.
  intros p es olds hr K es' P Iv W Ne Hk Pa Ha. unfold edit_add in Ha. rewrite Ne in Ha. destruct p as [|id r]; [destruct P|].
  assert (Hid : id_ok kd id) by (apply (path_ok_id kd id r); exact P). rewrite (fe_at kd id es Hid) in Ha. destruct (fe id es) as [e|] eqn:Fe.
  - destruct (add_r kd Remove Ether None IDefault (id :: r) None es) as (l, es1) eqn:Ar. assert (L : l <> LErr) by (intros ->; discriminate).
    assert (Ees : es1 = es') by (destruct l; [injection Ha as <-; reflexivity|injection Ha as <-; reflexivity|contradiction]). subst es1.
    destruct (inv_add kd Remove Ether None true Ob Od Bd (id :: r) es None hr l es' P Iv I Ne) as (Iv' & _); try assumption; try discriminate. split; [exact Iv'|].
    destruct (weak_add kd (id :: r) es None olds hr Present K l es' P Iv I W Ne Hk) as (_ & K' & H1 & H2); try discriminate; try assumption; try reflexivity.
    + intros _. destruct Pa as [Pa|Pa]; [left; exact Pa|right; split; [exact Pa|exact I]].
    + exists K'. split; [exact H1|exact (H2 eq_refl)].
  - injection Ha as <-. set (n := chain kd Remove None IDefault id r) in *. set (n' := match r with [] => n | _ => set_own (Some Ether) n end).
    assert (Cn : eident n = id) by (apply chain_ident; exact P).
    assert (Cn' : eident n' = id) by (unfold n'; destruct r; [exact Cn|rewrite eident_own; exact Cn]).
    assert (In0 : inve kd false [(r, true)] n) by (apply chain_inve; [exact P|exact Ob|reflexivity|discriminate]).
    assert (In' : inve kd false [(r, true)] n').
    { unfold n'. destruct r as [|id' r]; [exact In0|]. apply inve_own; [exact In0|reflexivity| | |reflexivity|]; try reflexivity; try discriminate; split; discriminate. }
    assert (Iv' : inv kd false ((id :: r, true) :: hr) (es ++ [n'])) by (apply inv_new; assumption). split; [exact Iv'|].
    assert (Lid : lk id K = lk id olds) by (rewrite (kids_lk kd _ _ _ _ _ Hk (proj1 Iv) (inv_ok _ _ _ _ Iv) I), Fe; reflexivity).
    destruct (chain_del kd r id olds Ether Present P W) as (x & Sx & Vx); try discriminate; try reflexivity; [split; discriminate|intros _; left; reflexivity|].
    assert (Sx' : sp Present false None n' (lk id olds) = Some x).
    { unfold n', n. destruct r as [|id' r]; [rewrite (sp_own_some kd Present (Some Ether) None (chain kd Remove None IDefault id []) (lk id olds) Remove eq_refl); exact Sx|]. rewrite (sp_own kd Present (Some Ether) Ether (chain kd Remove None IDefault id (id' :: r)) (lk id olds) eq_refl eq_refl None). exact Sx. }
    destruct (repl_same kd Present None es (es ++ [n']) olds K _ _ _ _ id n' x Hk Iv I Iv') as (K' & H1 & H2 & H3).
    { rewrite fe_app, Fe, Cn', same_id_refl. reflexivity. }
    { intros i Ni. rewrite fe_app, Cn', (proj2 (same_id_neq id i)) by congruence. destruct (fe i es); reflexivity. }
    { exact Sx'. }
    exists K'. split; [exact H1|]. apply (get_upd kd (vdel (id :: r)) id K K'); [intros m M; apply vdel_nil; [discriminate|exact M]|intros m i r' Ni; apply vdel_other; exact Ni|exact H3|].
    intros r'. rewrite H2, (Vx eq_refl). unfold vdel. destruct (prefix (id :: r) (id :: r')); [reflexivity|]. rewrite !get_cons, Lid. reflexivity.
Qed.

(** ** One call *)
Definition hist_of (h : list call) : hist := map (fun c => (target c, is_del c)) h.
Definition known (c : call) : Prop := is_set c = true \/ is_del c = true.
Lemma hist_del : forall h q, In (q, true) (hist_of h) -> exists st, In (CDel q st) h.
Proof.
  intros h q H. unfold hist_of in H. apply in_map_iff in H. destruct H as (c & E & H). injection E as E1 E2. destruct c as [| p st|]; try discriminate. cbn [target] in E1. subst p. exists st. exact H.
Qed.
Lemma hist_set : forall h q, Forall known h -> In (q, false) (hist_of h) -> exists v st nr, In (CSet q v st nr) h.
Proof.
  intros h q Kn H. unfold hist_of in H. apply in_map_iff in H. destruct H as (c & E & H). injection E as E1 E2. rewrite Forall_forall in Kn. destruct (Kn c H) as [Z|Z]; destruct c as [p v st nr|p st|p i st nr]; try discriminate. cbn [target] in E1. subst p. exists v, st, nr. exact H.
Qed.
Record good (h : list call) (es : list enode) (ds : list dnode) (m : view) : Prop := mkgood {
  g_inv : inv kd false (hist_of h) es;
  g_view : exists K, kids Present None es ds = Some K /\ forall q, get q K = m q;
  g_known : Forall known h;
  g_del : forallb is_del h = true -> forallb (opsA delA) es = true;
  g_weak : forallb is_weak_del h = true -> forallb (opsA weakA) es = true }.

Lemma ops_edit_add : forall A op def p es es', A op = true -> A def = true -> (forall o d, superior def o = SYes d -> d = def) -> (op = Remove \/ op = Delete) -> forallb (opsA A) es = true ->
  edit_add kd nullok op def None IDefault p es = AOk es' -> forallb (opsA A) es' = true.
Proof.
  intros A op def p es es' Ao Ad Sd Op H Ha. unfold edit_add in Ha. destruct (in_edit_at kd p es).
  - destruct (match_r kd nullok op None p None es) as (ok, es1) eqn:M. destruct ok; [|discriminate]. injection Ha as <-. exact (ops_match kd nullok A op None Ao Op p es None true es1 H M).
  - destruct p as [|id r]; [discriminate|]. destruct (find (at_id kd id) es).
    + destruct (add_r kd op def None IDefault (id :: r) None es) as (l, es1) eqn:Ar. assert (Z := ops_add kd A op def None IDefault Ao Ad Sd (id :: r) es None l es1 H I Ar). destruct l; try discriminate; injection Ha as <-; exact Z.
    + injection Ha as <-. rewrite forallb_app, H. cbn [forallb]. assert (C := opsA_chain kd A op None IDefault r id Ao). destruct r; [rewrite C; reflexivity|]. rewrite opsA_set_own; [reflexivity|exact C|exact Ad].
Qed.
Lemma sup_weak : forall def o d, def = Ether \/ def = Non -> superior def o = SYes d -> d = def.
Proof. intros def o d [-> | ->] H; destruct o; cbn in H; try discriminate; injection H as <-; reflexivity. Qed.

Lemma step : forall ds h m c es es', wf_data kd ds -> path_ok kd (target c) -> clear kd ds h m c -> good h es ds m ->
  match c with CSet p _ strict nonrec => set_ok p strict nonrec m | CDel p strict => del_ok p strict m | CMove _ _ _ _ => False end ->
  api kd nullok c es = AOk es' -> good (c :: h) es' ds (effect kd c m).
Proof.
  intros ds h m c es es' W P Cl [Iv (K & Hk & Gk) Kn Gd Gw] Sq Ha. destruct c as [p v strict nonrec|p strict|p i strict nonrec]; cbn [target effect api] in *; [| |contradiction].
  - destruct Cl as (Nd & Np). destruct Sq as (S1 & S2). set (op := if strict then Create else Merge) in *. set (def := if nonrec then Non else Merge) in *.
    assert (Op : op = Merge \/ op = Create) by (unfold op; destruct strict; [right|left]; reflexivity). assert (Hd : def = Merge \/ def = Non) by (unfold def; destruct nonrec; [right|left]; reflexivity).
    assert (Nd' : forall q, In (q, true) (hist_of h) -> prefix q p = false) by (intros q Hq; apply hist_del in Hq; destruct Hq as (st & Hq); exact (Nd q st Hq)).
    assert (Np' : op = Create -> np_cont (kd (fst (last p (0, 0)))) = false) by (intros X; apply Np; unfold op in X; destruct strict; [reflexivity|discriminate]).
    assert (Z : inv kd false ((p, false) :: hist_of h) es' /\ exists K', kids Present None es' ds = Some K' /\ forall q, get q K' = vset kd p v (fun q => get q K) q).
    { destruct (in_edit_at kd p es) eqn:Ne.
      - unfold edit_add in Ha. rewrite Ne in Ha. destruct (match_r kd nullok op (Some v) p None es) as (ok, es1) eqn:M. destruct ok; [|discriminate]. injection Ha as <-. split.
        + apply (inv_match kd nullok op (Some v) false Op p es None (hist_of h) es1 P Iv I Np'); [reflexivity|intros _; exact Nd'|discriminate|exact M].
        + destruct (match_set kd nullok op v Op p es None ds (hist_of h) Present K es1 P Iv I eq_refl W Nd' Np' Hk (or_introl eq_refl)) as (_ & X); [|exact M|exact X].
          intros X. rewrite Gk. destruct (m p) eqn:Q; [|reflexivity]. exfalso. apply S1; [unfold op in X; destruct strict; [reflexivity|discriminate]|]. unfold exists_in. rewrite Q. discriminate.
      - apply (go_set op def v Op Hd p es ds (hist_of h) K es' P Iv W Ne Nd' Np' Hk); [|exact Ha]. split.
        + intros X. rewrite Gk. destruct (m p) eqn:Q; [|reflexivity]. exfalso. apply S1; [unfold op in X; destruct strict; [reflexivity|discriminate]|]. unfold exists_in. rewrite Q. discriminate.
        + intros X. apply (parents_ext m); [intros q _; symmetry; apply Gk|]. apply S2. unfold def in X. destruct nonrec; [reflexivity|discriminate]. }
    destruct Z as (Iv' & K' & Hk' & G'). constructor.
    + exact Iv'.
    + exists K'. split; [exact Hk'|]. intros q. rewrite G'. apply vset_ext. exact Gk.
    + constructor; [left; reflexivity|exact Kn].
    + discriminate.
    + discriminate.
  - destruct Cl as (Nf & Pa & Nd & Df).
    assert (NoF : no_free true p (hist_of h) es None).
    { intros _. split.
      - intros q Hq. destruct (hist_set h q Kn Hq) as (v & st & nr & X). exact (Nf q v st nr X).
      - destruct Nd as [X|X]; [left; split; [exact (Gd X)|exact I]|right]. intros q Hq. destruct (hist_del h q Hq) as (st & Y). exact (X q st Y). }
    set (op := if strict then Delete else Remove) in *. set (def := if strict then Non else Ether) in *. assert (Op : op = Remove \/ op = Delete) by (unfold op; destruct strict; [right|left]; reflexivity).
    assert (Z : inv kd false ((p, true) :: hist_of h) es' /\ exists K', kids Present None es' ds = Some K' /\ forall q, get q K' = vdel p (fun q => get q K) q).
    { destruct (in_edit_at kd p es) eqn:Ne.
      - unfold edit_add in Ha. rewrite Ne in Ha. destruct (match_r kd nullok op None p None es) as (ok, es1) eqn:M. destruct ok; [|discriminate]. injection Ha as <-. split.
        + apply (inv_match kd nullok op None true Op p es None (hist_of h) es1 P Iv I); try discriminate; try assumption. intros X. destruct Op as [Y|Y]; rewrite Y in X; discriminate.
        + destruct (match_del kd nullok op None Op p es None ds (hist_of h) Present K es1 P Iv I NoF Hk M) as (K' & X & Y). exists K'. split; [exact X|exact (Y eq_refl)].
      - unfold op, def in Ha. destruct strict.
        + apply (go_del p es ds (hist_of h) K es' P Iv W Ne Hk); [|apply Df; reflexivity|exact Ha]. destruct (Sq eq_refl) as (A & B). split; [rewrite Gk; exact A|]. apply (parents_ext m); [intros q _; symmetry; apply Gk|exact B].
        + apply (go_weak p es ds (hist_of h) K es' P Iv W Ne Hk); [|exact Ha]. destruct Pa as [Pa|Pa]; [left|right; exact (Gw Pa)]. apply (parents_ext m); [intros q _; symmetry; apply Gk|exact Pa]. }
    destruct Z as (Iv' & K' & Hk' & G'). constructor.
    + exact Iv'.
    + exists K'. split; [exact Hk'|]. intros q. rewrite G'. apply vdel_ext. exact Gk.
    + constructor; [right; reflexivity|exact Kn].
    + cbn [forallb is_del]. intros X. apply (ops_edit_add delA op def p es es'); try exact Ha; [| | |exact Op|exact (Gd X)].
      * destruct Op as [-> | ->]; reflexivity.
      * unfold def. destruct strict; reflexivity.
      * intros o d. apply sup_weak. unfold def. destruct strict; [right|left]; reflexivity.
    + cbn [forallb]. intros X. apply andb_prop in X. destruct X as (X1 & X2). unfold op, def in Ha. destruct strict; [discriminate|]. apply (ops_edit_add weakA Remove Ether p es es'); try exact Ha; try reflexivity; [|left; reflexivity|exact (Gw X2)].
      intros o d. apply sup_weak. left. reflexivity.
Qed.

(** ** All of them *)
Lemma vset_ext0 : forall p v m m', (forall q, m q = m' q) -> forall q, vset kd p v m q = vset kd p v m' q.
Proof. exact (vset_ext kd). Qed.
Lemma prepared : forall ds, wf_data kd ds -> forall cs h es m T m', good h es ds m -> clear_all kd ds h m cs -> prepare kd nullok cs es = Some T -> one_by_one kd cs m m' -> exists h', good h' T ds m'.
Proof.
  intros ds W. induction cs as [|c cs IH]; intros h es m T m' G Cl Pr Ob.
  - injection Pr as <-. inversion Ob; subst. exists h. destruct G as [A (K & Hk & Gk) C D0 E0]. constructor; try assumption. exists K. split; [exact Hk|]. intros q. rewrite Gk. symmetry. apply H.
  - cbn [clear_all] in Cl. destruct Cl as (P & C & Cl). cbn [prepare] in Pr. destruct (api kd nullok c es) as [es'| |] eqn:Ha; try discriminate.
    assert (St : good (c :: h) es' ds (effect kd c m)) by (apply (step ds h m c es es' W P C G); [inversion Ob; subst; assumption|exact Ha]).
    apply (IH (c :: h) es' (effect kd c m) T m' St Cl Pr). inversion Ob; subst; assumption.
Qed.
Lemma good0 : forall ds, good [] [] ds (fun p => get p ds).
Proof.
  intros ds. constructor.
  - split; [constructor|]. split; [intros id r b []|constructor].
  - destruct (kids_make kd Present None [] ds (fun e (He : In e []) => match He with end)) as (K0 & H0). exists K0. split; [exact H0|]. intros [|id r]; [reflexivity|]. rewrite !get_cons, (kids_lk kd _ _ _ _ _ H0 (NoDup_nil _) (Forall_nil _) I). reflexivity.
  - constructor.
  - reflexivity.
  - reflexivity.
Qed.
End P.
