(** The meaning of an edit after one more call. *)
From Coq Require Import List Bool Arith Lia.
From Verif Require Import Edit EditSpec EditProofs EditOps EditSem EditTotal EditAdd EditAddSpec EditAddBase EditAddInv EditAddPres.
Import ListNotations.

Section P.
Variable kd : nat -> kind.
Notation key := (EditSpec.key kd).
Notation ident := (EditSpec.ident kd).
Notation eident := (EditSpec.eident kd).
Notation lk := (EditSpec.lk kd).
Notation get := (EditSpec.get kd).
Notation sp := (EditSpec.sp kd).
Notation kids := (kids kd).
Notation fe := (fe kd).
Notation nview := (nview kd).

(** ** One node *)
Definition miss (c : ctx) : ctx := match c with Deleted => Deleted | _ => Missing end.
Definition cc (c : ctx) (o : eop) (old : option dnode) : ctx :=
  match old with
  | Some _ => if deletes o then Deleted else Present
  | None => match o with Merge | Create => Present | _ => miss c end
  end.
Definition isn (o : eop) (old : option dnode) : bool :=
  negb (deletes o) && match o, old with Ether, None => false | _, _ => true end.
Lemma spk_io : forall c s v o Kf old re, okop o -> spk kd c s v o Kf old = Some re ->
  exists val Ke, Kf (cc c o old) (base_of old) = Some Ke /\ re = (if isn o old then Some (D s val false Ke) else None) /\
    (val = v \/ exists d, old = Some d /\ val = dval d) /\
    (forall Kf' Ke', Kf' (cc c o old) (base_of old) = Some Ke' -> spk kd c s v o Kf' old = Some (if isn o old then Some (D s val false Ke') else None)).
Proof.
  intros c s v o Kf old re (N1 & N2) H. unfold spk, cc, isn, base_of, miss in *. destruct o; try congruence; destruct old as [d|]; destruct c; cbn [deletes negb andb] in *; try discriminate;
    try (destruct (is_default kd d) eqn:Df; try discriminate); try (destruct (np_cont (kd s)) eqn:Np; try discriminate);
    match type of H with match ?x with _ => _ end = _ => destruct x as [Ke|] eqn:Q; [|discriminate] end; injection H as <-;
    first [ exists v, Ke; split; [reflexivity|]; split; [reflexivity|]; split; [left; reflexivity|]; intros Kf' Ke' ->; reflexivity
          | exists (dval d), Ke; split; [reflexivity|]; split; [reflexivity|]; split; [right; exists d; split; reflexivity|]; intros Kf' Ke' ->; reflexivity ].
Qed.
(** What the context of a node allows. *)
Lemma spk_ctx : forall c s v o Kf old re, spk kd c s v o Kf old = Some re -> (c = Deleted -> deletes o = true) /\ (old = None -> o <> Non /\ o <> Delete /\ (c <> Present -> o = Ether \/ deletes o = true)).
Proof.
  intros c s v o Kf old re H. split; [intros ->; unfold spk in H; destruct o; cbn [deletes] in *; try discriminate; reflexivity|].
  intros ->. unfold spk in H. destruct o, c; cbn [deletes] in *; try discriminate; (split; [discriminate|split; [discriminate|]]); intros X; try (left; reflexivity); try (right; reflexivity); exfalso; apply X; reflexivity.
Qed.
Lemma okop_oper : forall inh e o, okinh inh -> okown e -> oper inh e = Some o -> okop o.
Proof. intros inh e o H K Q. generalize (okinh_oper inh e H K). rewrite Q. intros X. exact X. Qed.
Lemma sp_e : forall c inh e old o, okinh inh -> okown e -> oper inh e = Some o -> sp c false inh e old = spk kd c (esch e) (eval e) o (fun c' olds => kids c' (Some o) (ch_of e) olds) old.
Proof.
  intros c inh [s v b own i ch] old o H K Q. cbn [esch eval ch_of]. apply sp_spk; [exact Q|]. apply (okop_oper inh (E s v b own i ch) o); assumption.
Qed.
Lemma sp_e_none : forall c inh e old r, sp c false inh e old = Some r -> exists o, oper inh e = Some o.
Proof.
  intros c inh [s v b own i ch] old r H. unfold oper. cbn [own_of]. destruct (match own with Some o => Some o | None => inh end) as [o|] eqn:Q; [exists o; reflexivity|]. rewrite sp_none in H by exact Q. discriminate.
Qed.

(** In missing or removed data. *)
Lemma sp_missing : forall inh e r, okinh inh -> okown e -> sp Missing false inh e None = Some r -> r = None /\ sp Present false inh e None = Some None.
Proof.
  intros inh e r H K Q. destruct (sp_e_none _ _ _ _ _ Q) as (o & Oe). rewrite (sp_e Missing inh e None o H K Oe) in Q. rewrite (sp_e Present inh e None o H K Oe). unfold spk in *.
  destruct (okop_oper inh e o H K Oe) as (N1 & N2). destruct o; cbn [deletes] in *; try discriminate; try congruence;
    match type of Q with match ?x with _ => _ end = _ => destruct x; [|discriminate] end; injection Q as <-; split; reflexivity.
Qed.
Lemma kids_missing : forall inh es K hr dl, kids Missing inh es [] = Some K -> inv kd dl hr es -> okinh inh -> forall q, get q K = None.
Proof.
  intros inh es K hr dl H I Oi [|id r]; [reflexivity|]. rewrite get_cons. rewrite (kids_lk kd _ _ _ _ _ H (proj1 I) (inv_ok _ _ _ _ I) Oi). destruct (fe id es) as [e|] eqn:F; [|reflexivity].
  cbn [EditSpec.lk find]. destruct (sp Missing false inh e None) as [x|] eqn:S; [|reflexivity]. destruct (fe_some _ _ _ _ F) as (Hin & _). assert (K' : okown e) by (exact (inve_ok _ _ _ _ (inv_in _ _ _ _ _ I Hin))). destruct (sp_missing inh e x Oi K' S) as (-> & _). reflexivity.
Qed.

(** ** One of the siblings changed or added *)
Lemma repl1 : forall c c' inh inh' es es'' olds K id e' x, kids c inh es olds = Some K -> NoDup (map eident es) -> Forall okown es -> okinh inh ->
  NoDup (map eident es'') -> Forall okown es'' -> okinh inh' -> fe id es'' = Some e' -> sp c' false inh' e' (lk id olds) = Some x ->
  (forall i, i <> id -> match fe i es'' with
                        | Some y' => exists y, fe i es = Some y /\ (forall r, sp c false inh y (lk i olds) = Some r -> sp c' false inh' y' (lk i olds) = Some r)
                        | None => fe i es = None
                        end) ->
  exists K', kids c' inh' es'' olds = Some K' /\ lk id K' = x /\ forall i, i <> id -> lk i K' = lk i K.
Proof.
  intros c c' inh inh' es es'' olds K id e' x H N O Oi N'' O'' Oi' Fe Sx Ot.
  assert (M : exists K', kids c' inh' es'' olds = Some K').
  { apply kids_make. intros z Hz. assert (Fz : fe (eident z) es'' = Some z) by (apply fe_in; assumption). destruct (ident_dec (eident z) id) as [Q|Q].
    - rewrite Q in *. rewrite Fe in Fz. injection Fz as ->. congruence.
    - specialize (Ot _ Q). rewrite Fz in Ot. destruct Ot as (y & Fy & Sy). destruct (fe_some _ _ _ _ Fy) as (Hy & Ey). destruct (kids_each kd _ _ _ _ _ H y Hy) as (r & R). rewrite Ey in R. rewrite (Sy r R). discriminate. }
  destruct M as (K' & M). exists K'. split; [exact M|]. split.
  - rewrite (kids_lk kd _ _ _ _ _ M N'' O'' Oi'), Fe, Sx. reflexivity.
  - intros i Ni. rewrite (kids_lk kd _ _ _ _ _ M N'' O'' Oi'), (kids_lk kd _ _ _ _ _ H N O Oi). specialize (Ot i Ni). destruct (fe i es'') as [y'|]; [|rewrite Ot; reflexivity].
    destruct Ot as (y & Fy & Sy). rewrite Fy. destruct (fe_some _ _ _ _ Fy) as (Hy & Ey). destruct (kids_each kd _ _ _ _ _ H y Hy) as (r & R). rewrite Ey in R. rewrite R, (Sy r R). reflexivity.
Qed.
Lemma fe_mark : forall i id o es, id_ok kd id -> fe i (mark kd id o es) = match fe i es with Some y => Some (if same_id (eident y) id then y else match own_of y with Some _ => y | None => set_own (Some o) y end) | None => None end.
Proof.
  intros i id o es Hi. unfold EditAddBase.fe, mark. induction es as [|x t IH]; [reflexivity|]. cbn [map find].
  assert (Q : at_id kd id x = same_id (eident x) id) by (apply Bool.eq_iff_eq_true; rewrite at_id_eq by exact Hi; rewrite same_id_eq; reflexivity). rewrite Q.
  assert (Ex : eident (if same_id (eident x) id then x else match own_of x with Some _ => x | None => set_own (Some o) x end) = eident x).
  { destruct (same_id (eident x) id); [reflexivity|]. destruct (own_of x); [reflexivity|]. apply eident_own. }
  rewrite Ex. destruct (same_id (eident x) i); [reflexivity|exact IH].
Qed.
Lemma fe_app : forall i es n, fe i (es ++ [n]) = match fe i es with Some e => Some e | None => if same_id (eident n) i then Some n else None end.
Proof. intros i es n. unfold EditAddBase.fe. induction es as [|x t IH]; [reflexivity|]. cbn [app find]. destruct (same_id (eident x) i); [reflexivity|exact IH]. Qed.
Lemma sp_own : forall c inh o e old, own_of e = None -> inh = Some o -> forall inh', sp c false inh' (set_own (Some o) e) old = sp c false inh e old.
Proof. intros c inh o [s v b own i ch] old Q -> inh'. cbn [own_of] in Q. subst own. reflexivity. Qed.
Lemma sp_own_some : forall c inh inh' e old o, own_of e = Some o -> sp c false inh' e old = sp c false inh e old.
Proof. intros c inh inh' [s v b own i ch] old o Q. cbn [own_of] in Q. subst own. reflexivity. Qed.

(** Values of nodes with children are given by their identifier. *)
Lemma nonterm_val : forall s v d id, ident d = id -> id = (s, key s v) -> wfd kd d -> term (kd s) = false -> (match kd s with KCont _ => v = 0 | _ => True end) -> dval d = v.
Proof.
  intros s v [s' v' b ch] id I E W T C. subst id. unfold EditSpec.ident in E. cbn [dsch dval] in *. injection E as -> E. apply wfd_all in W. destruct W as (W & _). unfold EditSpec.key in E. destruct (kd s) eqn:K; cbn [term inst] in *; try discriminate; congruence.
Qed.
Lemma lk_wfd : forall id olds d, wf_data kd olds -> lk id olds = Some d -> wfd kd d /\ ident d = id /\ wf_data kd (dch d).
Proof.
  intros id olds d (_ & W) H. apply lk_some in H. destruct H as (H & I). rewrite Forall_forall in W. specialize (W d H). split; [exact W|]. split; [exact I|]. destruct d as [s v b ch]. apply wfd_all in W. apply W.
Qed.
Lemma base_wfd : forall id olds, wf_data kd olds -> wf_data kd (base_of (lk id olds)).
Proof. intros id olds W. destruct (lk id olds) as [d|] eqn:L; [exact (proj2 (proj2 (lk_wfd _ _ _ W L)))|apply wf_data_nil]. Qed.
Lemma value_key : forall id v, id_ok kd id -> term (kd (fst id)) = false -> value_at kd [id] v = snd id.
Proof. intros [s k] v H T. unfold value_at. cbn [last fst snd] in *. destruct (kd s); try reflexivity. discriminate. Qed.

(** ** Calls that need their parents or create them *)
Section Go.
Variables op def : eop.
Variable value : option nat.
Variable upd : path -> view -> view.
Variable okc : path -> view -> Prop.
Variable dok : path -> list dnode -> Prop.
Hypothesis Hdef : def = Merge \/ def = Non.
Variable b : bool.
Hypothesis Hop : opb op b.
Hypothesis Hb : b = true -> def = Non.
Hypothesis U_nil : forall p m, p <> [] -> m [] = None -> upd p m [] = None.
Hypothesis U_other : forall id id' r m r', id' <> id -> upd (id :: r) m (id' :: r') = m (id' :: r').
Hypothesis U_same : forall id r m r', r <> [] -> okc (id :: r) m ->
  upd (id :: r) m (id :: r') = match r' with [] => match m [id] with Some x => Some x | None => Some (value_at kd [id] 0) end | _ => upd r (fun x => m (id :: x)) r' end.
Hypothesis U_ext : forall p m m' q, q <> [] -> (forall q, q <> [] -> m q = m' q) -> upd p m q = upd p m' q.
Hypothesis ok_sub : forall id r m, r <> [] -> okc (id :: r) m -> okc r (fun x => m (id :: x)).
Hypothesis ok_ext : forall p m m', p <> [] -> (forall q, q <> [] -> m q = m' q) -> okc p m -> okc p m'.
Hypothesis ok_non : forall id r m, r <> [] -> def = Non -> okc (id :: r) m -> m [id] <> None.
Hypothesis dok_sub : forall id r olds d, r <> [] -> lk id olds = Some d -> dok (id :: r) olds -> dok r (dch d).
Hypothesis dok_nil : forall r, dok r [].
Hypothesis last_ok : forall id olds m o, path_ok kd [id] -> okc [id] m -> dok [id] olds -> wf_data kd olds -> (forall r', m (id :: r') = nview (lk id olds) r') ->
  exists x, sp Present false o (chain kd op value IDefault id []) (lk id olds) = Some x /\ forall r', nview x r' = upd [id] m (id :: r').

Lemma dok_base : forall id r olds, r <> [] -> dok (id :: r) olds -> dok r (base_of (lk id olds)).
Proof. intros id r olds N H. destruct (lk id olds) as [d|] eqn:L; [exact (dok_sub id r olds d N L H)|apply dok_nil]. Qed.
Lemma okown_one : forall r id, Forall okown [chain kd op value IDefault id r].
Proof.
  intros r id. constructor; [|constructor]. destruct r as [|id' r]; unfold okown; cbn [chain eown]; [|exact I]. generalize Hop. unfold opb. destruct b; intros [-> | ->]; split; discriminate.
Qed.

Lemma chain_go : forall r id olds m o, path_ok kd (id :: r) -> okc (id :: r) m -> dok (id :: r) olds -> wf_data kd olds -> (forall r', m (id :: r') = nview (lk id olds) r') ->
  (o = Merge \/ (o = Create /\ olds = []) \/ (o = Non /\ def = Non)) ->
  exists x, sp Present false (Some o) (chain kd op value IDefault id r) (lk id olds) = Some x /\ forall r', nview x r' = upd (id :: r) m (id :: r').
Proof.
  induction r as [|id' r IH]; intros id olds m o P Ok Dk W Q O; [apply last_ok; assumption|].
  set (n := chain kd op value IDefault id' r) in *.
  assert (Hid : id_ok kd id) by (apply (path_ok_id kd id (id' :: r)); exact P).
  assert (T : term (kd (fst id)) = false /\ path_ok kd (id' :: r)) by (destruct id; destruct P as (_ & T & P); split; assumption). destruct T as (T & P').
  assert (Wb : wf_data kd (base_of (lk id olds))) by (apply base_wfd; exact W).
  assert (Nr : id' :: r <> []) by discriminate.
  assert (Ok' : okc (id' :: r) (fun q => get q (base_of (lk id olds)))).
  { apply (ok_ext _ (fun x => m (id :: x))); [exact Nr| |apply ok_sub; assumption]. intros [|a q] Nq; [contradiction|]. rewrite Q. destruct (lk id olds); reflexivity. }
  assert (Oko : okop o) by (destruct O as [-> |[(-> & _)|(-> & _)]]; split; discriminate).
  assert (Ob : o = Merge \/ (o = Create /\ base_of (lk id olds) = []) \/ (o = Non /\ def = Non)) by (destruct O as [O|[(O & ->)|O]]; [left; exact O|right; left; split; [exact O|reflexivity]|right; right; exact O]).
  destruct (IH id' (base_of (lk id olds)) (fun q => get q (base_of (lk id olds))) o P' Ok' (dok_base _ _ _ Nr Dk) Wb (fun r' => eq_refl) Ob) as (x & Sx & Vx).
  destruct (kids_make kd Present (Some o) [] (base_of (lk id olds)) (fun e (He : In e []) => match He with end)) as (K0 & H0).
  assert (G0 : forall i, lk i K0 = lk i (base_of (lk id olds))) by (intros i; rewrite (kids_lk kd _ _ _ _ _ H0 (NoDup_nil _) (Forall_nil _) Oko); reflexivity).
  assert (Cn : eident n = id') by (apply chain_ident; exact P').
  destruct (repl1 Present Present (Some o) (Some o) [] [n] (base_of (lk id olds)) K0 id' n x H0 (NoDup_nil _) (Forall_nil _) Oko) as (K1 & H1 & L1 & L2).
  { cbn [map]. constructor; [intros []|constructor]. }
  { apply okown_one. }
  { exact Oko. }
  { unfold EditAddBase.fe. cbn [find]. rewrite Cn, same_id_refl. reflexivity. }
  { exact Sx. }
  { intros i Ni. unfold EditAddBase.fe. cbn [find]. rewrite Cn, (proj2 (same_id_neq id' i)) by congruence. reflexivity. }
  assert (Z : exists val, spk kd Present (fst id) (snd id) o (fun c' olds0 => kids c' (Some o) [n] olds0) (lk id olds) = Some (Some (D (fst id) val false K1)) /\ val = snd id).
  { destruct O as [-> |[(-> & ->)|(-> & Dn)]]; cbn [spk deletes] in *.
    - unfold spk. cbn [deletes]. exists (snd id). split; [|reflexivity]. destruct (lk id olds) as [d|]; cbn [base_of] in H1; rewrite H1; reflexivity.
    - exists (snd id). split; [|reflexivity]. unfold spk. cbn [deletes EditSpec.lk find]. cbn [EditSpec.lk find base_of] in H1. rewrite H1. reflexivity.
    - destruct (lk id olds) as [d|] eqn:L; [|exfalso; apply (ok_non id (id' :: r) m Nr Dn Ok); rewrite Q; reflexivity].
      exists (dval d). unfold spk. cbn [deletes]. cbn [base_of] in H1. rewrite H1. split; [reflexivity|]. destruct (lk_wfd _ _ _ W L) as (Wd & Id & _).
      apply (nonterm_val (fst id) (snd id) d id Id); [|exact Wd|exact T|].
      + destruct id as [s k]. unfold EditSpec.key. cbn [fst snd] in *. destruct (inst (kd s)) eqn:Is; [reflexivity|]. f_equal. exact (Hid Is).
      + destruct (kd (fst id)) eqn:Kd; try exact I. apply Hid. rewrite Kd. reflexivity. }
  destruct Z as (val & Z & Ev). exists (Some (D (fst id) val false K1)). split.
  - cbn [chain]. rewrite (sp_spk kd Present (Some o) (fst id) (snd id) false None IDefault _ o _ eq_refl (proj1 Oko)). exact Z.
  - intros r'. rewrite U_same by assumption. destruct r' as [|a r'].
    + cbn [EditAddBase.nview dval]. rewrite Q. rewrite (value_key id 0 Hid T), Ev. destruct (lk id olds) as [d|] eqn:L; cbn [EditAddBase.nview]; [|reflexivity]. f_equal. symmetry.
      destruct (lk_wfd _ _ _ W L) as (Wd & Id & _). apply (nonterm_val (fst id) (snd id) d id Id); [|exact Wd|exact T|].
      * destruct id as [s k]. unfold EditSpec.key. cbn [fst snd] in *. destruct (inst (kd s)) eqn:Is; [reflexivity|]. f_equal. exact (Hid Is).
      * destruct (kd (fst id)) eqn:Kd; try exact I. apply Hid. rewrite Kd. reflexivity.
    + change (nview (Some (D (fst id) val false K1)) (a :: r')) with (nview (lk a K1) r').
      rewrite (U_ext (id' :: r) (fun x => m (id :: x)) (fun q => get q (base_of (lk id olds)))); [|discriminate|].
      * destruct (ident_dec a id') as [-> |Na]; [rewrite L1; apply Vx|]. rewrite L2 by exact Na. rewrite G0. rewrite U_other by exact Na. reflexivity.
      * intros [|b0 q] Nq; [contradiction|]. rewrite Q. destruct (lk id olds); reflexivity.
Qed.

Lemma sup_go : forall o, okop o -> deletes o = false -> (superior def o = SYes def /\ (o = Ether \/ o = Non)) \/ (superior def o = SNo /\ (o = Merge \/ o = Create \/ (o = Non /\ def = Non))).
Proof. intros o (N1 & N2) D. destruct Hdef as [-> | ->]; destruct o; cbn in *; try congruence; auto 6; right; auto 6. Qed.

Lemma go : forall p es inh olds hr c K l es', path_ok kd p -> inv kd (delo inh) hr es -> okinh inh -> delo inh = false -> wf_data kd olds ->
  in_edit_at kd p es = false -> (b = false -> forall q, In (q, true) hr -> prefix q p = false) -> (op = Create -> np_cont (kd (fst (last p (0, 0)))) = false) ->
  kids c inh es olds = Some K ->
  (c = Present \/ (c = Missing /\ olds = [] /\ inh = Some Ether)) -> (inh = Some Create -> olds = []) -> okc p (fun q => get q K) -> dok p olds ->
  add_r kd op def value IDefault p inh es = (l, es') -> l <> LErr ->
  match l with
  | LStop => c = Present /\ exists K', kids Present inh es' olds = Some K' /\ forall q, get q K' = upd p (fun q => get q K) q
  | LGo _ => forall o, inh = Some o -> exists K', kids Present (Some def) (mark kd (hd (0, 0) p) o es') olds = Some K' /\ forall q, get q K' = upd p (fun q => get q K) q
  | LErr => True
  end.
Proof.
  assert (Od : defop def) by (destruct Hdef as [-> | ->]; [left|right; left]; reflexivity).
  assert (Bd : b = true -> def <> Merge) by (intros X; rewrite (Hb X); discriminate).
  induction p as [|id r IH]; intros es inh olds hr c K l es' P Iv Oi Di W Ne Nd Np Hk Hc Hcr Ok Dk Ha L; [destruct P|].
  assert (Hid : id_ok kd id) by (apply (path_ok_id kd id r); exact P).
  assert (Ood : okinh (Some def)) by (destruct Hdef as [-> | ->]; split; discriminate).
  destruct (inv_add kd op def value b Hop Od Bd (id :: r) es inh hr l es' P Iv Oi Ne Np (fun _ => Di) Nd Ha L) as (Iv' & Lg).
  assert (Oes : Forall okown es') by (exact (inv_ok _ _ _ _ Iv')). assert (Nes : NoDup (map eident es')) by (exact (proj1 Iv')).
  assert (Lkk := kids_lk kd _ _ _ _ _ Hk (proj1 Iv) (inv_ok _ _ _ _ Iv) Oi).
  (* from the changed node to values *)
  assert (Fin : forall K', (forall i, i <> id -> lk i K' = lk i K) -> (forall r', nview (lk id K') r' = upd (id :: r) (fun q => get q K) (id :: r')) -> forall q, get q K' = upd (id :: r) (fun q => get q K) q).
  { intros K' A B [|i r']; [rewrite U_nil by (try discriminate; reflexivity); reflexivity|]. rewrite get_cons. destruct (ident_dec i id) as [-> |Ni]; [apply B|]. rewrite (A i Ni), U_other by exact Ni. reflexivity. }
  (* siblings that are kept, in both ways *)
  assert (Sib : forall i y, i <> id -> fe i es = Some y -> (forall rr, sp c false inh y (lk i olds) = Some rr -> sp Present false inh y (lk i olds) = Some rr)).
  { intros i y Ni Fy rr R. destruct Hc as [-> |(-> & -> & _)]; [exact R|]. destruct (fe_some _ _ _ _ Fy) as (Hy & _). cbn [EditSpec.lk find] in *. destruct (sp_missing inh y rr Oi (inve_ok _ _ _ _ (inv_in _ _ _ _ _ Iv Hy)) R) as (-> & R'). exact R'. }
  assert (Mk : forall i y o rr, inh = Some o -> i <> id -> fe i es = Some y -> sp c false inh y (lk i olds) = Some rr ->
    sp Present false (Some def) (if same_id (eident y) id then y else match own_of y with Some _ => y | None => set_own (Some o) y end) (lk i olds) = Some rr).
  { intros i y o rr Io Ni Fy R. apply (Sib i y Ni Fy) in R. destruct (fe_some _ _ _ _ Fy) as (_ & Ey). rewrite (proj2 (same_id_neq (eident y) id)) by congruence. destruct (own_of y) as [oy|] eqn:Oy; [rewrite (sp_own_some Present inh (Some def) y _ oy Oy); exact R|].
    rewrite (sp_own Present inh o y _ Oy Io). exact R. }
  (* stop and go with a new node at [id] *)
  assert (Stop : forall n x, c = Present -> fe id es' = Some n -> (forall i, i <> id -> fe i es' = fe i es) -> sp Present false inh n (lk id olds) = Some x ->
    (forall r', nview x r' = upd (id :: r) (fun q => get q K) (id :: r')) -> exists K', kids Present inh es' olds = Some K' /\ forall q, get q K' = upd (id :: r) (fun q => get q K) q).
  { intros n x -> Fn Fo Sx Vx. destruct (repl1 Present Present inh inh es es' olds K id n x Hk (proj1 Iv) (inv_ok _ _ _ _ Iv) Oi Nes Oes Oi Fn Sx) as (K' & H1 & H2 & H3).
    - intros i Ni. rewrite (Fo i Ni). destruct (fe i es) as [y|] eqn:Fy; [|reflexivity]. exists y. split; [reflexivity|]. intros rr R. exact R.
    - exists K'. split; [exact H1|]. apply Fin; [exact H3|]. intros r'. rewrite H2. apply Vx. }
  assert (Go1 : forall n x o, inh = Some o -> fe id es' = Some n -> (forall i, i <> id -> fe i es' = fe i es) -> sp Present false (Some def) n (lk id olds) = Some x ->
    (forall r', nview x r' = upd (id :: r) (fun q => get q K) (id :: r')) -> (o = Ether \/ o = Non) -> exists K', kids Present (Some def) (mark kd id o es') olds = Some K' /\ forall q, get q K' = upd (id :: r) (fun q => get q K) q).
  { intros n x o Io Fn Fo Sx Vx Eo. destruct (fe_some _ _ _ _ Fn) as (_ & En).
    destruct (repl1 c Present inh (Some def) es (mark kd id o es') olds K id n x Hk (proj1 Iv) (inv_ok _ _ _ _ Iv) Oi) as (K' & H1 & H2 & H3).
    - rewrite mark_ident. exact Nes.
    - apply Forall_forall. intros z Hz. unfold mark in Hz. apply in_map_iff in Hz. destruct Hz as (y & <- & Hy). rewrite Forall_forall in Oes. specialize (Oes y Hy). destruct (at_id kd id y); [exact Oes|]. destruct (own_of y) eqn:Oy; [exact Oes|]. destruct y as [s v b0 own i ch]. unfold okown. cbn [set_own eown]. destruct Eo as [-> | ->]; split; discriminate.
    - exact Ood.
    - rewrite (fe_mark id id o es' Hid), Fn, En, same_id_refl. reflexivity.
    - exact Sx.
    - intros i Ni. rewrite (fe_mark i id o es' Hid), (Fo i Ni). destruct (fe i es) as [y|] eqn:Fy; [|reflexivity]. exists y. split; [reflexivity|]. intros rr R. exact (Mk i y o rr Io Ni Fy R).
    - exists K'. split; [exact H1|]. apply Fin; [exact H3|]. intros r'. rewrite H2. apply Vx. }
  cbn [add_r in_edit_at] in *. rewrite (fe_at kd id es Hid) in *. destruct (fe id es) as [e|] eqn:Fe.
  - (* an existing node on the path *)
    destruct r as [|id' r']; [discriminate|]. set (r := id' :: r') in *. assert (Nr : r <> []) by discriminate. destruct (fe_some _ _ _ _ Fe) as (Hin & Eid).
    assert (Ie : inve kd (delo inh) (res id hr) e) by (rewrite <- Eid; exact (inv_in _ _ _ _ _ Iv Hin)).
    assert (Oke : okown e) by (exact (inve_ok _ _ _ _ Ie)).
    assert (Pr : path_ok kd r /\ term (kd (esch e)) = false) by (rewrite (esch_id _ _ _ Eid); destruct id; destruct P as (_ & T & P); split; assumption). destruct Pr as (Pr & T).
    assert (Ve : eval e = snd id /\ (match kd (esch e) with KCont _ => eval e = 0 | _ => True end) /\ (own_of e = Some Create -> np_cont (kd (esch e)) = false)).
    { destruct e as [s v b0 own i ch]. apply inve_iff in Ie. destruct Ie as (((_ & V & _) & (_ & _ & Nc) & _) & _). cbn [esch eval own_of] in *. split; [|split; [exact V|exact Nc]]. rewrite <- Eid. unfold EditSpec.eident, EditSpec.key. cbn [esch eval snd]. destruct (kd s); cbn [inst term] in *; try reflexivity; try discriminate. exact V. }
    destruct Ve as (Ve & Vc & Vn).
    destruct (kids_each kd _ _ _ _ _ Hk e Hin) as (re & Re). rewrite Eid in Re. destruct (sp_e_none _ _ _ _ _ Re) as (o & Oe).
    assert (Oko : okop o) by (exact (okop_oper inh e o Oi Oke Oe)).
    assert (Lid : lk id K = re) by (rewrite Lkk, Fe, Re; reflexivity).
    rewrite (sp_e _ _ _ _ o Oi Oke Oe) in Re. destruct (spk_io _ _ _ _ _ _ _ Oko Re) as (val & Ke & Hke & Ere & Val & Redo). destruct (spk_ctx _ _ _ _ _ _ _ Re) as (_ & Cx).
    assert (Do : deletes o = false).
    { destruct (deletes o) eqn:D; [|reflexivity]. exfalso. destruct b eqn:Bb.
      - apply (ok_non id r _ Nr (Hb eq_refl) Ok). rewrite get_cons, Lid, Ere. unfold isn. rewrite D. reflexivity.
      - unfold oper in Oe. destruct (own_of e) as [oo|] eqn:Oo; [|rewrite Oe in Di; cbn in Di; congruence]. injection Oe as ->.
        assert (X : delo (own_of e) = true) by (rewrite Oo; exact D). apply (inve_j4 kd _ _ _ Ie) in X. apply res_in in X. specialize (Nd eq_refl _ X). cbn [prefix] in Nd. rewrite same_id_refl in Nd. discriminate. }
    assert (Wb : wf_data kd (base_of (lk id olds))) by (apply base_wfd; exact W).
    assert (Vd : forall d, lk id olds = Some d -> dval d = eval e).
    { intros d Ld. destruct (lk_wfd _ _ _ W Ld) as (Wd & Id & _). apply (nonterm_val (esch e) (eval e) d id Id); [|exact Wd|exact T|exact Vc]. symmetry. exact Eid. }
    assert (Vv : val = eval e) by (destruct Val as [-> |(d & Ld & ->)]; [reflexivity|exact (Vd d Ld)]).
    assert (Hc' : cc c o (lk id olds) = Present \/ (cc c o (lk id olds) = Missing /\ base_of (lk id olds) = [] /\ Some o = Some Ether)).
    { unfold cc. destruct (lk id olds) as [d|] eqn:Ld; [rewrite Do; left; reflexivity|]. destruct (Cx eq_refl) as (C1 & C2 & _). destruct Oko. destruct o; try contradiction; try discriminate; auto. right. split; [|split; reflexivity]. destruct Hc as [-> |(-> & _)]; reflexivity. }
    assert (Hcr' : Some o = Some Create -> base_of (lk id olds) = []).
    { intros X. injection X as ->. unfold oper in Oe. destruct (own_of e) as [oo|] eqn:Oo.
      - injection Oe as ->. destruct (lk id olds) as [d|] eqn:Ld; [|reflexivity]. exfalso. unfold spk in Re. cbn [deletes] in Re. rewrite (Vn eq_refl) in Re. assert (Df : is_default kd d = false) by (unfold is_default; destruct (lk_wfd _ _ _ W Ld) as (_ & Id & _); unfold EditSpec.ident in Id; assert (Z : dsch d = esch e) by (rewrite (esch_id _ _ _ Eid), <- Id; reflexivity); rewrite Z, T; reflexivity). rewrite Df in Re. destruct c; discriminate.
      - rewrite (Hcr Oe). reflexivity. }
    assert (Isn : isn o (lk id olds) = false -> cc c o (lk id olds) = Missing /\ base_of (lk id olds) = []).
    { intros In0. destruct Hc' as [C|(C & B & Eo)]; [|split; assumption]. exfalso. unfold isn, cc in *. rewrite Do in In0. cbn [negb andb] in In0. destruct o; try discriminate. destruct (lk id olds); [discriminate|]. destruct c; discriminate. }
    assert (Gk : forall q, q <> [] -> get (id :: q) K = get q Ke).
    { intros q Nq. rewrite get_cons, Lid, Ere. destruct (isn o (lk id olds)) eqn:In0; cbn [EditAddBase.nview dch].
      - destruct q; [contradiction|reflexivity].
      - symmetry. destruct (Isn eq_refl) as (C & B). rewrite C, B in Hke. apply (kids_missing (Some o) (ch_of e) Ke (res id hr) (dl_of (delo inh) (own_of e)) Hke); [apply inve_ch; exact Ie|exact Oko]. }
    assert (Ok' : okc r (fun q => get q Ke)).
    { apply (ok_ext r (fun x => get (id :: x) K)); [exact Nr|exact Gk|apply (ok_sub id r (fun q => get q K)); assumption]. }
    assert (Nd' : b = false -> forall q, In (q, true) (res id hr) -> prefix q r = false).
    { intros Bf q Hq. apply res_in in Hq. specialize (Nd Bf _ Hq). rewrite prefix_cons in Nd. exact Nd. }
    assert (Ic : inv kd (delo (Some o)) (res id hr) (ch_of e)) by (rewrite <- Oe, <- dl_oper; apply inve_ch; exact Ie).
    assert (Np' : op = Create -> np_cont (kd (fst (last r (0, 0)))) = false) by (exact Np).
    assert (Vw : forall K', (forall q, get q K' = upd r (fun q => get q Ke) q) -> forall r0, nview (Some (D (esch e) (eval e) false K')) r0 = upd (id :: r) (fun q => get q K) (id :: r0)).
    { intros K' G r0. rewrite U_same by assumption. destruct r0 as [|a r0].
      - cbn [EditAddBase.nview dval]. rewrite get_cons, Lid, Ere. destruct (isn o (lk id olds)); cbn [EditAddBase.nview dval]; [rewrite Vv; reflexivity|]. rewrite (value_key id 0 Hid), Ve; [reflexivity|]. rewrite <- (esch_id _ _ _ Eid). exact T.
      - cbn [EditAddBase.nview dch]. rewrite G. apply U_ext; [discriminate|]. intros q Nq. symmetry. exact (Gk q Nq). }
    assert (Fon : forall n, eident n = id -> es' = on_id kd id (fun _ => Some n) es -> fe id es' = Some n /\ forall i, i <> id -> fe i es' = fe i es).
    { intros n En ->. assert (X := fun i => fe_on_id kd id (fun _ => Some n) es e n i (proj1 Iv) Hid Fe eq_refl En). split; [rewrite X, same_id_refl; reflexivity|]. intros i Ni. rewrite X, (proj2 (same_id_neq id i)) by congruence. reflexivity. }
    rewrite Oe in Ha. destruct (add_r kd op def value IDefault r (Some o) (ch_of e)) as (l', ch') eqn:Ar.
    assert (L' : l' <> LErr) by (intros ->; injection Ha as <- _; apply L; reflexivity).
    destruct (inv_add kd op def value b Hop Od Bd r (ch_of e) (Some o) (res id hr) l' ch' Pr Ic Oko Ne Np' (fun _ => Do) Nd' Ar L') as (Ivc & Lgc).
    specialize (IH (ch_of e) (Some o) (base_of (lk id olds)) (res id hr) (cc c o (lk id olds)) Ke l' ch' Pr Ic Oko Do Wb Ne Nd' Np' Hke Hc' Hcr' Ok' (dok_base _ _ _ Nr Dk) Ar L').
    destruct l' as [|nx|]; [| |contradiction].
    + (* stopped below *)
      injection Ha as <- Ees. destruct IH as (C & K' & Hk' & G). rewrite C in *.
      assert (Cp : c = Present).
      { destruct Hc as [-> |(-> & -> & _)]; [reflexivity|]. exfalso. destruct (Cx eq_refl) as (_ & _ & X). destruct X as [X|X]; [discriminate|subst o; discriminate|congruence]. }
      split; [exact Cp|]. destruct (Fon (set_ch ch' e)) as (F1 & F2); [rewrite eident_ch; exact Eid|symmetry; exact Ees|].
      assert (In0 : isn o (lk id olds) = true) by (destruct (isn o (lk id olds)) eqn:X; [reflexivity|destruct (Isn eq_refl); discriminate]).
      apply (Stop (set_ch ch' e) (Some (D (esch e) (eval e) false K')) Cp F1 F2); [|exact (Vw K' G)].
      rewrite (sp_e Present inh (set_ch ch' e) _ o Oi); [|destruct e; exact Oke|destruct e; exact Oe].
      assert (X : esch (set_ch ch' e) = esch e /\ eval (set_ch ch' e) = eval e /\ ch_of (set_ch ch' e) = ch') by (destruct e; split; [reflexivity|split; reflexivity]). destruct X as (-> & -> & ->).
      rewrite Cp in Redo. rewrite (Redo (fun c' olds0 => kids c' (Some o) ch' olds0) K' Hk'), In0, Vv. reflexivity.
    + (* the operation changes *)
      destruct (IH o eq_refl) as (K' & Hk' & G). destruct (Lgc nx eq_refl) as (o' & X & Sy & Eo). injection X as <-.
      assert (Nw : forall inh' n, okinh inh' -> okown n -> oper inh' n = Some def -> esch n = esch e -> eval n = eval e -> ch_of n = mark kd (hd (0, 0) r) o ch' ->
        sp Present false inh' n (lk id olds) = Some (Some (D (esch e) (eval e) false K'))).
      { intros inh' n Oi' On Op' Es Ev Ec. rewrite (sp_e Present inh' n _ def Oi' On Op'), Es, Ev, Ec. unfold spk. destruct Hdef as [Dm|Dn].
        - rewrite Dm in *. cbn [deletes]. destruct (lk id olds); cbn [base_of] in Hk'; rewrite Hk'; reflexivity.
        - assert (Z : lk id olds <> None).
          { intros Z. apply (ok_non id r _ Nr Dn Ok). rewrite get_cons, Lid, Ere, Z. destruct (Cx Z) as (C1 & _ & _). destruct Eo as [-> | ->]; [reflexivity|contradiction]. }
          rewrite Dn in *. cbn [deletes]. destruct (lk id olds) as [d|] eqn:Ld; [|contradiction]. cbn [base_of] in Hk'. rewrite Hk', (Vd d eq_refl). reflexivity. }
      unfold iterate in Ha. rewrite Oe in Ha. assert (Sw : (if nx then SYes def else superior def o) = SYes def) by (destruct nx; [reflexivity|exact Sy]). rewrite Sw in Ha.
      assert (Hd : hd id r = hd (0, 0) r) by reflexivity. rewrite Hd in Ha. set (e1 := set_ch (mark kd (hd (0, 0) r) o ch') e) in *.
      assert (E1 : forall oo, esch (set_own oo e1) = esch e /\ eval (set_own oo e1) = eval e /\ ch_of (set_own oo e1) = mark kd (hd (0, 0) r) o ch' /\ eident (set_own oo e1) = id /\ own_of (set_own oo e1) = oo).
      { intros oo. rewrite <- Eid. unfold e1. destruct e. repeat (split; [reflexivity|]). reflexivity. }
      destruct (own_of e) as [oo|] eqn:Oo.
      * destruct (E1 (Some def)) as (A1 & A2 & A3 & A4 & A5). destruct (E1 None) as (B1 & B2 & B3 & B4 & B5).
        assert (Od1 : okown (set_own (Some def) e1)) by (unfold e1; destruct e; exact Ood). assert (On1 : okown (set_own None e1)) by (unfold e1; destruct e; exact I).
        assert (Ud : forall i0, oper i0 (set_own (Some def) e1) = Some def) by (intros i0; unfold oper; rewrite A5; reflexivity).
        destruct inh as [op2|].
        -- assert (Ok2 : okop op2) by exact Oi. destruct (sup_go op2 Ok2 Di) as [(S2 & E2)|(S2 & E2)]; rewrite S2 in Ha; injection Ha as <- Ees.
           ++ destruct (Fon _ B4 (eq_sym Ees)) as (F1 & F2). intros o0 X. injection X as <-.
              apply (Go1 (set_own None e1) (Some (D (esch e) (eval e) false K')) op2 eq_refl F1 F2); [|exact (Vw K' G)|exact E2].
              apply Nw; try assumption. unfold oper. rewrite B5. reflexivity.
           ++ assert (Cp : c = Present).
              { destruct Hc as [-> |(-> & -> & X)]; [reflexivity|]. exfalso. injection X as ->. destruct Hdef as [-> | ->]; discriminate. }
              split; [exact Cp|]. destruct (Fon _ A4 (eq_sym Ees)) as (F1 & F2).
              apply (Stop (set_own (Some def) e1) (Some (D (esch e) (eval e) false K')) Cp F1 F2); [|exact (Vw K' G)]. apply Nw; try assumption. apply Ud.
        -- rewrite Sy in Ha. injection Ha as <- Ees.
           assert (Cp : c = Present) by (destruct Hc as [-> |(_ & _ & X)]; [reflexivity|discriminate]). split; [exact Cp|].
           destruct (Fon _ A4 (eq_sym Ees)) as (F1 & F2). apply (Stop (set_own (Some def) e1) (Some (D (esch e) (eval e) false K')) Cp F1 F2); [|exact (Vw K' G)]. apply Nw; try assumption. apply Ud.
      * injection Ha as <- Ees. assert (E0 : e1 = set_own None e1) by (unfold e1; destruct e as [s v b0 own i ch]; cbn [own_of] in Oo; subst own; reflexivity).
        destruct (E1 None) as (B1 & B2 & B3 & B4 & B5). rewrite <- E0 in *. destruct (Fon _ B4 (eq_sym Ees)) as (F1 & F2).
        unfold oper in Oe. rewrite Oo in Oe. intros o0 X. rewrite Oe in X. injection X as <-.
        apply (Go1 e1 (Some (D (esch e) (eval e) false K')) o Oe F1 F2); [|exact (Vw K' G)|exact Eo].
        apply Nw; try assumption; [unfold e1; destruct e; exact Oke|unfold oper; rewrite B5; reflexivity].
  - (* a new node *)
    destruct inh as [o|]; [|injection Ha as <- _; contradiction].
    assert (Cn : eident (chain kd op value IDefault id r) = id) by (apply chain_ident; exact P).
    assert (Mm : forall r', get (id :: r') K = nview (lk id olds) r') by (intros r'; rewrite get_cons, Lkk, Fe; reflexivity).
    assert (Oko : okop o) by exact Oi.
    assert (Fx : forall n, eident n = id -> es' = es ++ [n] -> fe id es' = Some n /\ forall i, i <> id -> fe i es' = fe i es).
    { intros n En ->. split; [rewrite fe_app, Fe, En, same_id_refl; reflexivity|]. intros i Ni. rewrite fe_app, En, (proj2 (same_id_neq id i)) by congruence. destruct (fe i es); reflexivity. }
    destruct (sup_go o Oko Di) as [(Sy & Eo)|(Sy & Eo)]; rewrite Sy in Ha; injection Ha as <- Ees; destruct (Fx _ Cn (eq_sym Ees)) as (F1 & F2).
    + destruct (chain_go r id olds (fun q => get q K) def P Ok Dk W Mm) as (x & Sx & Vx); [destruct Hdef as [-> | ->]; [left; reflexivity|right; right; split; reflexivity]|].
      intros o0 X. injection X as <-. exact (Go1 _ x o eq_refl F1 F2 Sx Vx Eo).
    + assert (Cp : c = Present).
      { destruct Hc as [-> |(-> & -> & X)]; [reflexivity|]. exfalso. injection X as ->. destruct Hdef as [-> | ->]; discriminate. }
      split; [exact Cp|].
      destruct (chain_go r id olds (fun q => get q K) o P Ok Dk W Mm) as (x & Sx & Vx).
      { destruct Eo as [E|[E|E]]; [left; exact E| |right; right; exact E]. right. left. split; [exact E|]. apply Hcr. rewrite E. reflexivity. }
      exact (Stop _ x Cp F1 F2 Sx Vx).
Qed.
(** The whole call, for a node that is not in the edit. *)
Lemma go_top : forall nullok p es olds hr K es', path_ok kd p -> inv kd false hr es -> wf_data kd olds -> in_edit_at kd p es = false ->
  (b = false -> forall q, In (q, true) hr -> prefix q p = false) -> (op = Create -> np_cont (kd (fst (last p (0, 0)))) = false) ->
  kids Present None es olds = Some K -> okc p (fun q => get q K) -> dok p olds -> edit_add kd nullok op def value IDefault p es = AOk es' ->
  inv kd false ((p, b) :: hr) es' /\ exists K', kids Present None es' olds = Some K' /\ forall q, get q K' = upd p (fun q => get q K) q.
Proof.
  assert (Od : defop def) by (destruct Hdef as [-> | ->]; [left|right; left]; reflexivity).
  assert (Bd : b = true -> def <> Merge) by (intros X; rewrite (Hb X); discriminate).
  intros nullok p es olds hr K es' P Iv W Ne Nd Np Hk Ok Dk Ha. unfold edit_add in Ha. rewrite Ne in Ha. destruct p as [|id r]; [destruct P|].
  assert (Hid : id_ok kd id) by (apply (path_ok_id kd id r); exact P). rewrite (fe_at kd id es Hid) in Ha. destruct (fe id es) as [e|] eqn:Fe.
  - destruct (add_r kd op def value IDefault (id :: r) None es) as (l, es1) eqn:Ar. assert (L : l <> LErr) by (intros ->; discriminate).
    assert (Ees : es1 = es') by (destruct l; [injection Ha as <-; reflexivity|injection Ha as <-; reflexivity|contradiction]). subst es1.
    destruct (inv_add kd op def value b Hop Od Bd (id :: r) es None hr l es' P Iv I Ne Np (fun _ => eq_refl) Nd Ar L) as (Iv' & Lg). split; [exact Iv'|].
    assert (G := go (id :: r) es None olds hr Present K l es' P Iv I eq_refl W Ne Nd Np Hk (or_introl eq_refl) (fun X : None = Some Create => ltac:(discriminate X)) Ok Dk Ar L).
    destruct l as [|nx|]; [apply G|exfalso; destruct (Lg nx eq_refl) as (o & X & _); discriminate|contradiction].
  - injection Ha as <-. set (n := chain kd op value IDefault id r) in *. set (n' := match r with [] => n | _ => set_own (Some def) n end).
    assert (Cn : eident n = id) by (apply chain_ident; exact P).
    assert (Cn' : eident n' = id) by (unfold n'; destruct r; [exact Cn|rewrite eident_own; exact Cn]).
    assert (In0 : inve kd false [(r, b)] n) by (apply chain_inve; [exact P|exact Hop|reflexivity|exact Np]).
    assert (In' : inve kd false [(r, b)] n').
    { unfold n'. destruct r as [|id' r]; [exact In0|]. apply inve_own; [exact In0|reflexivity| | |reflexivity|]; destruct Hdef as [-> | ->]; try reflexivity; try discriminate; split; discriminate. }
    assert (Iv' : inv kd false ((id :: r, b) :: hr) (es ++ [n'])) by (apply inv_new; assumption). split; [exact Iv'|].
    assert (Lkk := kids_lk kd _ _ _ _ _ Hk (proj1 Iv) (inv_ok _ _ _ _ Iv) I).
    assert (Mm : forall r', get (id :: r') K = nview (lk id olds) r') by (intros r'; rewrite get_cons, Lkk, Fe; reflexivity).
    assert (Sx : exists x, sp Present false None n' (lk id olds) = Some x /\ forall r', nview x r' = upd (id :: r) (fun q => get q K) (id :: r')).
    { unfold n', n. destruct r as [|id' r]; [apply last_ok; assumption|].
      destruct (chain_go (id' :: r) id olds (fun q => get q K) def P Ok Dk W Mm) as (x & Sx & Vx); [destruct Hdef as [-> | ->]; [left; reflexivity|right; right; split; reflexivity]|].
      exists x. split; [|exact Vx]. rewrite (sp_own Present (Some def) def (chain kd op value IDefault id (id' :: r)) (lk id olds) eq_refl eq_refl None). exact Sx. }
    destruct Sx as (x & Sx & Vx).
    destruct (repl1 Present Present None None es (es ++ [n']) olds K id n' x Hk (proj1 Iv) (inv_ok _ _ _ _ Iv) I (proj1 Iv') (inv_ok _ _ _ _ Iv') I) as (K' & H1 & H2 & H3).
    { rewrite fe_app, Fe, Cn', same_id_refl. reflexivity. }
    { exact Sx. }
    { intros i Ni. rewrite fe_app, Cn', (proj2 (same_id_neq id i)) by congruence. destruct (fe i es) as [y|]; [|reflexivity]. exists y. split; [reflexivity|]. intros rr R. exact R. }
    exists K'. split; [exact H1|]. intros [|i r']; [rewrite U_nil by (try discriminate; reflexivity); reflexivity|]. rewrite get_cons. destruct (ident_dec i id) as [-> |Ni]; [rewrite H2; apply Vx|]. rewrite (H3 i Ni), U_other by exact Ni. reflexivity.
Qed.
End Go.
End P.
