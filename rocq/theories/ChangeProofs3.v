(** Aborting a refused change. *)
From Coq Require Import List Bool Arith NArith Lia.
From Verif Require Import Change ChangeSpec ChangeProofs ChangeProofs2.
Import ListNotations.
Local Open Scope N_scope.

Definition we (err : nat -> option (N * N)) (n : nsub) : nsub := mknsub (n_mod n) (n_mprio n) (n_cur n) (err (m_id (n_mod n))).

(** Events of an abort round for the events of a change round. *)
Definition ab_pend (cs : list call) (p : pend) : list pend :=
  if left_count cs p =? 0 then [p] else if p_cnt p - left_count cs p =? 0 then [] else [mkpend (p_mod p) (p_prio p) (p_cnt p - left_count cs p)].
Definition ab (rd : round) : list pend := flat_map (ab_pend (r_calls rd)) (r_pend rd).

Lemma ab_ok : forall rd, all_ok rd -> ab rd = r_pend rd.
Proof.
  intros [ps cs] A. unfold ab, all_ok in *. cbn [r_pend r_calls] in *. induction ps as [|p ps IH]; [reflexivity|]. cbn [flat_map]. unfold ab_pend at 1. rewrite (A p (or_introl eq_refl)). cbn. rewrite IH; [reflexivity|]. intros q Hq. apply A. right. exact Hq.
Qed.

Lemma fold_map_mprio : forall err cur ns m0,
  fold_left (fun mn n => if n_mprio n <? cur then mn else if n_mprio n <? mn then n_mprio n else mn) (map (we err) ns) m0 =
  fold_left (fun mn n => if n_mprio n <? cur then mn else if n_mprio n <? mn then n_mprio n else mn) ns m0.
Proof. intros err cur ns. induction ns as [|n ns IH]; intros m0; [reflexivity|]. cbn [map fold_left]. rewrite IH. reflexivity. Qed.

Lemma prio_loop_we : forall err fuel cur left ns, set_mod_prio_loop fuel cur left (map (we err) ns) =
  (map (we err) (fst (set_mod_prio_loop fuel cur left ns)), snd (set_mod_prio_loop fuel cur left ns)).
Proof.
  intros err. induction fuel as [|fuel IH]; intros cur left ns; [reflexivity|]. cbn [set_mod_prio_loop]. rewrite fold_map_mprio.
  remember (fold_left (fun mn n => if n_mprio n <? cur then mn else if n_mprio n <? mn then n_mprio n else mn) ns u32_max) as mn eqn:E. clear E.
  assert (F : length (filter (fun n => n_mprio n =? mn) (map (we err) ns)) = length (filter (fun n => n_mprio n =? mn) ns)).
  { clear. induction ns as [|n ns IH]; [reflexivity|]. cbn [map filter]. cbn [we n_mprio]. destruct (n_mprio n =? mn); cbn [length]; rewrite IH; reflexivity. }
  assert (M : map (fun n => if n_mprio n =? mn then set_mprio cur n else n) (map (we err) ns) = map (we err) (map (fun n => if n_mprio n =? mn then set_mprio cur n else n) ns)).
  { rewrite !map_map. apply map_ext. intros n. cbn [we n_mprio]. destruct (n_mprio n =? mn); reflexivity. }
  rewrite F, M. destruct (left - N.of_nat (length (filter (fun n => n_mprio n =? mn) ns)) =? 0); [reflexivity|]. rewrite IH. reflexivity.
Qed.

Lemma set_mod_prio_we : forall err ns, set_mod_prio (map (we err) ns) = (map (we err) (fst (set_mod_prio ns)), snd (set_mod_prio ns)).
Proof.
  intros err ns. unfold set_mod_prio. rewrite map_length. assert (M : map (fun n => set_mprio (m_prio (n_mod n)) n) (map (we err) ns) = map (we err) (map (fun n => set_mprio (m_prio (n_mod n)) n) ns)) by (rewrite !map_map; apply map_ext; reflexivity).
  rewrite M, prio_loop_we. reflexivity.
Qed.

Section P3.
Variable alive : asub -> bool.

Lemma has_same : forall subs, has_subscription alive KAbort subs = has_subscription alive KChange subs.
Proof. reflexivity. Qed.
Lemma next_same : forall a b subs, next_subscription alive KAbort a b subs = next_subscription alive KChange a b subs.
Proof. reflexivity. Qed.
Lemma evpipe_same : forall a subs, notify_evpipe alive KAbort a subs = notify_evpipe alive KChange a subs.
Proof. reflexivity. Qed.

Lemma create_we : forall err err' mods, create alive KAbort err mods = map (we err) (create alive KChange err' mods).
Proof. intros err err' mods. rewrite !create_eq, map_map. reflexivity. Qed.

Definition pk (cur : N) (n : nsub) := pick alive KChange cur n.


Lemma pick_next : forall cur n, n_err n = None ->
  match snd (fst (pk cur n)) with
  | Some p => n_mprio n = cur /\ next_subscription alive KChange (n_cur n) (n_cur n) (m_subs (n_mod n)) = (p_prio p, p_cnt p) /\ p_cnt p <> 0 /\
      notify_evpipe alive KChange (p_prio p) (m_subs (n_mod n)) = p_cnt p /\ p_mod p = n_mod n /\ fst (fst (pk cur n)) = set_cur (p_prio p) n
  | None => fst (fst (pk cur n)) = n /\ (n_mprio n <> cur \/ next_subscription alive KChange (n_cur n) (n_cur n) (m_subs (n_mod n)) = (n_cur n, 0))
  end.
Proof.
  intros cur n He. unfold pk, pick. destruct (N.eqb_spec (n_mprio n) cur) as [E|E]; cbn [negb]; [|cbn; auto]. rewrite He.
  destruct (next_spec alive KChange (n_cur n) (n_cur n) (m_subs (n_mod n))) as [(H & _)|(H1 & H2 & H3 & _)].
  - rewrite H. cbn [fst snd N.eqb]. split; [destruct n; reflexivity|auto].
  - destruct (next_subscription alive KChange (n_cur n) (n_cur n) (m_subs (n_mod n))) as (pr & c). cbn [fst snd] in *. destruct (N.eqb_spec c 0) as [Z|_]; [contradiction|]. rewrite evpipe_spec. rewrite <- H3. destruct (N.eqb_spec c 0) as [Z|_]; [contradiction|]. cbn. rewrite evpipe_spec, <- H3. auto 10.
Qed.

Lemma pick_abort_same : forall err cur n, n_err n = None ->
  (forall ep ec, err (m_id (n_mod n)) = Some (ep, ec) -> ep < n_cur n /\ forall p, snd (fst (pk cur n)) = Some p -> ep <> p_prio p) ->
  pick alive KAbort cur (we err n) = (we err (fst (fst (pk cur n))), snd (fst (pk cur n)), false).
Proof.
  intros err cur n He Hh. pose proof (pick_next cur n He) as Q. destruct (snd (fst (pk cur n))) as [p|].
  - destruct Q as (Q1 & Q2 & Q3 & Q4 & Q5 & ->). unfold pick. cbn [we n_mprio n_mod n_cur n_err]. rewrite Q1, N.eqb_refl. cbn [negb]. rewrite next_same, Q2. cbn [fst snd]. rewrite evpipe_same, Q4.
    assert (Pe : p = mkpend (n_mod n) (p_prio p) (p_cnt p)) by (rewrite <- Q5; destruct p; reflexivity).
    destruct (err (m_id (n_mod n))) as [(ep & ec)|] eqn:Er.
    + destruct (Hh ep ec eq_refl) as (_ & X). specialize (X p eq_refl). destruct (N.eqb_spec ep (p_prio p)) as [Y|_]; [contradiction|]. cbn [andb]. destruct (N.eqb_spec (p_cnt p) 0) as [Y|_]; [contradiction|]. unfold set_cur, we. cbn [n_mod n_mprio n_cur n_err]. rewrite Er, <- Pe, Q1. reflexivity.
    + destruct (N.eqb_spec (p_cnt p) 0) as [Y|_]; [contradiction|]. unfold set_cur, we. cbn [n_mod n_mprio n_cur n_err]. rewrite Er, <- Pe, Q1. reflexivity.
  - destruct Q as (-> & Q). unfold pick. cbn [we n_mprio n_mod n_cur n_err]. destruct (N.eqb_spec (n_mprio n) cur) as [E|E]; cbn [negb]; [|reflexivity]. destruct Q as [Q|Q]; [contradiction|]. rewrite next_same, Q. cbn [fst snd].
    destruct (err (m_id (n_mod n))) as [(ep & ec)|] eqn:Er.
    + destruct (Hh ep ec eq_refl) as (L & _). destruct (N.eqb_spec ep (n_cur n)) as [X|_]; [lia|]. cbn [andb N.eqb]. unfold set_cur, we. cbn [n_mod n_mprio n_cur n_err]. rewrite Er. reflexivity.
    + cbn [N.eqb]. unfold set_cur, we. cbn [n_mod n_mprio n_cur n_err]. rewrite Er. reflexivity.
Qed.

Lemma pick_abort_hit : forall err cur n p ec, n_err n = None -> snd (fst (pk cur n)) = Some p -> err (m_id (n_mod n)) = Some (p_prio p, ec) -> ec <= p_cnt p -> ec <> 0 -> p_cnt p <= u32_max ->
  pick alive KAbort cur (we err n) = (we err (fst (fst (pk cur n))), if p_cnt p - ec =? 0 then None else Some (mkpend (p_mod p) (p_prio p) (p_cnt p - ec)), true).
Proof.
  intros err cur n p ec He Hp Er L Nz Mx. pose proof (pick_next cur n He) as Q. rewrite Hp in Q. destruct Q as (Q1 & Q2 & Q3 & Q4 & Q5 & ->). unfold pick. cbn [we n_mprio n_mod n_cur n_err]. rewrite Q1, N.eqb_refl. cbn [negb]. rewrite next_same, Q2. cbn [fst snd]. rewrite evpipe_same, Q4, Er, N.eqb_refl. cbn [andb].
  destruct (N.eqb_spec (p_cnt p) 0) as [Y|_]; [contradiction|]. cbn [negb].
  assert (U : u32 (p_cnt p + 4294967296 - ec) = p_cnt p - ec). { unfold u32, u32_max in *. replace (p_cnt p + 4294967296 - ec) with ((p_cnt p - ec) + 1 * 4294967296) by lia. rewrite N.mod_add by lia. apply N.mod_small. lia. }
  rewrite U. unfold set_cur, we. cbn [n_mod n_mprio n_cur n_err]. rewrite Er, Q5, Q1. destruct (N.eqb_spec (p_cnt p) 0) as [Y|_]; [contradiction|]. destruct (p_cnt p - ec =? 0); reflexivity.
Qed.

(** A step of both loops. *)
Lemma step_same : forall err cur ns, Forall (fun n => n_err n = None) ns ->
  (forall n ep ec, In n ns -> err (m_id (n_mod n)) = Some (ep, ec) -> ep < n_cur n /\ forall p, snd (fst (pk cur n)) = Some p -> ep <> p_prio p) ->
  after alive KAbort cur (map (we err) ns) = map (we err) (after alive KChange cur ns) /\ pends_of alive KAbort cur (map (we err) ns) = pends_of alive KChange cur ns /\
  existsb (fun x => snd x) (map (pick alive KAbort cur) (map (we err) ns)) = false.
Proof.
  intros err cur ns He Hh. unfold after, pends_of. induction ns as [|n ns IH]; [auto|]. inversion He as [|? ? En Es]; subst. destruct (IH Es) as (I1 & I2 & I3); [intros x ep ec Hx; apply Hh; right; exact Hx|].
  cbn [map flat_map existsb]. rewrite (pick_abort_same err cur n En) by (intros ep ec; apply Hh; left; reflexivity). cbn [fst snd orb]. fold (pk cur n). rewrite I1, I2, I3. auto.
Qed.

Lemma step_last : forall err cur ns cs, Forall (fun n => n_err n = None) ns ->
  (forall n p, In n ns -> snd (fst (pk cur n)) = Some p -> err (m_id (n_mod n)) = if left_count cs p =? 0 then None else Some (p_prio p, left_count cs p)) ->
  (forall n ep ec, In n ns -> err (m_id (n_mod n)) = Some (ep, ec) -> ep < n_cur n) -> (forall n p, In n ns -> snd (fst (pk cur n)) = Some p -> p_cnt p <= u32_max) ->
  pends_of alive KAbort cur (map (we err) ns) = flat_map (ab_pend cs) (pends_of alive KChange cur ns) /\
  (existsb (fun x => snd x) (map (pick alive KAbort cur) (map (we err) ns)) = negb (forallb (fun p => left_count cs p =? 0) (pends_of alive KChange cur ns))).
Proof.
  intros err cur ns cs He Hh Hc Hm. unfold pends_of. induction ns as [|n ns IH]; [auto|]. inversion He as [|? ? En Es]; subst.
  destruct (IH Es) as (I1 & I2); [intros x p Hx; apply Hh; right; exact Hx|intros x ep ec Hx; apply Hc; right; exact Hx|intros x p Hx; apply Hm; right; exact Hx|].
  cbn [map flat_map existsb]. fold (pk cur n). destruct (snd (fst (pk cur n))) as [p|] eqn:Ep.
  - pose proof (Hh n p (or_introl eq_refl) Ep) as Er. cbn [app flat_map forallb]. unfold ab_pend at 1. destruct (N.eqb_spec (left_count cs p) 0) as [Z|Z].
    + rewrite (pick_abort_same err cur n En) by (rewrite Er; discriminate). cbn [fst snd orb]. rewrite Ep. cbn [app]. rewrite I1, I2. auto.
    + rewrite (pick_abort_hit err cur n p (left_count cs p) En Ep Er); [|unfold left_count; lia|exact Z|apply (Hm n p (or_introl eq_refl) Ep)]. cbn [fst snd orb andb negb]. split; [|reflexivity]. rewrite I1. destruct (p_cnt p - left_count cs p =? 0); reflexivity.
  - rewrite (pick_abort_same err cur n En). 2:{ intros ep ec E. split; [apply (Hc n ep ec (or_introl eq_refl) E)|]. intros p X. congruence. } cbn [fst snd orb]. rewrite Ep. cbn [app]. auto.
Qed.

Section Follow.
Variables envc enva : nat -> option (list call).

Definition is_nil {A} (l : list A) : bool := match l with [] => true | _ => false end.

Lemma errors_cons : forall rd rs m, rs <> [] -> errors (rd :: rs) m = errors rs m.
Proof. intros rd rs m H. unfold errors. destruct rs; [contradiction|]. reflexivity. Qed.

Lemma pends_len : forall cur ns p, Forall (fun n => n_err n = None) ns -> (forall n, In n ns -> N.of_nat (length (m_subs (n_mod n))) <= u32_max) -> forall n, In n ns -> snd (fst (pk cur n)) = Some p -> p_cnt p <= u32_max.
Proof.
  intros cur ns p He Hl n Hn Ep. rewrite Forall_forall in He. destruct (pick_spec alive KChange cur n (He n Hn)) as [(P & _)|(_ & pr & s & P & _)]; unfold pk in Ep; rewrite P in Ep; cbn in Ep; [discriminate|]. injection Ep as <-. cbn [p_cnt]. specialize (Hl n Hn). unfold cnt_at, at_prio.
  assert (Nat.le (length (filter (fun s => el alive KChange s && (a_prio s =? pr)) (m_subs (n_mod n)))) (length (m_subs (n_mod n)))); [|lia].
  clear. induction (m_subs (n_mod n)) as [|x l IH]; [cbn; lia|]. cbn [filter]. destruct (el alive KChange x && (a_prio x =? pr)); cbn [length]; lia.
Qed.

Lemma follow : forall fuel r q cur ns rs err, NoDup (map (fun n => m_id (n_mod n)) ns) -> Forall (fun n => n_err n = None) ns -> (N.to_nat cur + todos alive KChange ns < fuel)%nat ->
  (forall n, In n ns -> N.of_nat (length (m_subs (n_mod n))) <= u32_max) ->
  loop alive envc KChange fuel r cur ns = (rs, ORefused) -> (forall m, err m = errors rs m) ->
  let t := loop alive enva KAbort fuel q cur (map (we err) ns) in
  match snd t with
  | OOk => map r_pend (fst t) = filter (fun l => negb (is_nil l)) (map ab rs)
  | OFailed => exists tl, map r_pend (fst t) ++ tl = filter (fun l => negb (is_nil l)) (map ab rs)
  | _ => False
  end.
Proof.
  induction fuel as [|fuel IH]; intros r q cur ns rs err Nd He Hf Hl E Err; [lia|].
  assert (Nm : NoDup (map n_mod ns)). { rewrite <- (map_map n_mod m_id) in Nd. apply NoDup_map_inv in Nd. exact Nd. }
  destruct (loop_spec alive envc KChange (S fuel) r cur ns rs ORefused ltac:(discriminate) Nm He Hf E) as ([G1 G2 G3] & Ne & _ & l & rd & Hrs & Hok & Hno).
  assert (Uniq : forall a b, In a ns -> In b ns -> m_id (n_mod a) = m_id (n_mod b) -> a = b).
  { clear -Nd. induction ns as [|x ns IH]; intros a b Ha Hb Eq; [destruct Ha|]. cbn [map] in Nd. inversion Nd as [|? ? Nx Ns]; subst. destruct Ha as [->|Ha], Hb as [->|Hb]; auto; exfalso; apply Nx; apply in_map_iff; [exists b|exists a]; auto. }
  (* what the errors are *)
  assert (Ef : forall n ep ec, In n ns -> err (m_id (n_mod n)) = Some (ep, ec) -> exists p, In p (r_pend rd) /\ p_mod p = n_mod n /\ p_prio p = ep /\ ec = left_count (r_calls rd) p /\ ec <> 0 /\ ep < n_cur n).
  { intros n ep ec Hn X. rewrite Err in X. unfold errors in X. rewrite Hrs, last_last in X. destruct rd as [ps cs]. destruct (find (fun p => Nat.eqb (m_id (p_mod p)) (m_id (n_mod n)) && negb (left_count cs p =? 0)) ps) as [p|] eqn:Fi; [|discriminate]. injection X as <- <-. apply find_some in Fi. destruct Fi as (Fi & Fe). apply andb_true_iff in Fe. destruct Fe as (F1 & F2). apply Nat.eqb_eq in F1. apply negb_true_iff, N.eqb_neq in F2.
    assert (Hr : In (mkround ps cs) rs) by (rewrite Hrs; apply in_or_app; right; left; reflexivity). destruct (G1 _ p Hr Fi) as (n' & s & Hn' & E1 & E2 & (R1 & R2 & R3) & E3 & _). assert (n' = n) by (apply Uniq; auto; congruence). subst n'. exists p. cbn [r_pend r_calls]. repeat split; auto; lia. }
  rewrite loop_unfold in E. cbv zeta in E. rewrite (no_last alive KChange cur ns He) in E. rewrite loop_unfold. cbv zeta.
  assert (NdA : NoDup (map (fun n => m_id (n_mod n)) (after alive KChange cur ns))) by (rewrite <- (map_map n_mod m_id), after_mods, map_map; exact Nd).
  assert (HeA := after_err alive KChange cur ns He).
  assert (HlA : forall n, In n (after alive KChange cur ns) -> N.of_nat (length (m_subs (n_mod n))) <= u32_max) by (intros n' Hn'; destruct (after_in _ _ _ _ _ Hn') as (n & Hn & ->); destruct (pick_static alive KChange cur n) as (-> & _); apply Hl; exact Hn).
  destruct (pends_of alive KChange cur ns) as [|p0 ps] eqn:Pe.
  - cbv beta iota in E. destruct (N.eqb_spec cur 0) as [Z|Z]; [injection E as _ X; discriminate|].
    destruct (step_same err cur ns He) as (S1 & S2 & S3).
    { intros n ep ec Hn X. destruct (Ef n ep ec Hn X) as (p & P1 & P2 & P3 & P4 & P5 & P6). split; [exact P6|]. intros p' Hp'. exfalso. assert (Y : In p' (pends_of alive KChange cur ns)) by (apply pends_mem with (n := n); [exact Hn|exact Hp']). rewrite Pe in Y. destruct Y. }
    rewrite S1, S2, S3, Pe. cbv beta iota. destruct (N.eqb_spec cur 0) as [Z'|_]; [contradiction|]. apply (IH r q (cur - 1) (after alive KChange cur ns) rs err); auto. pose proof (todos_le alive KChange cur ns). lia.
  - cbv beta iota in E. rewrite <- Pe in E. assert (Pn : pends_of alive KChange cur ns <> []) by (rewrite Pe; discriminate). pose proof (todos_lt alive KChange cur ns He Pn) as Tl.
    destruct (envc r) as [cs|]; [|injection E as _ X; discriminate]. destruct (forallb (fun p => left_count cs p =? 0) (pends_of alive KChange cur ns)) eqn:Fa.
    + injection E as Er Eo. assert (En : rs <> []) by (rewrite <- Er; discriminate). destruct (loop alive envc KChange fuel (S r) cur (after alive KChange cur ns)) as (rs1 & o1) eqn:El. cbn [fst snd] in Er, Eo. subst o1.
      assert (Rs1 : rs1 <> []).
      { intros ->. rewrite <- Er in Hrs. destruct l as [|x l]; cbn [app] in Hrs; [injection Hrs as X|destruct l; discriminate]. apply Hno. rewrite <- X. intros p Hp. cbn [r_pend r_calls] in *. rewrite forallb_forall in Fa. apply N.eqb_eq, Fa, Hp. }
      assert (Hrd : In rd rs1). { rewrite <- Er in Hrs. destruct l as [|x l]; cbn [app] in Hrs; injection Hrs as X Y; [exfalso; apply Rs1; exact Y|]. rewrite Y. apply in_or_app. right. left. reflexivity. }
      destruct (step_same err cur ns He) as (S1 & S2 & S3).
      { intros n ep ec Hn X. destruct (Ef n ep ec Hn X) as (p & P1 & P2 & P3 & P4 & P5 & P6). split; [exact P6|]. intros p' Hp' Eq.
        assert (Y : In p' (pends_of alive KChange cur ns)) by (apply pends_mem with (n := n); [exact Hn|exact Hp']).
        destruct (G3 [] (mkround (pends_of alive KChange cur ns) cs) rs1 rd p' p (eq_sym Er) Hrd Y P1) as (_ & B). pose proof (pick_next cur n ltac:(rewrite Forall_forall in He; apply He; exact Hn)) as Q. rewrite Hp' in Q. destruct Q as (_ & _ & _ & _ & Q5 & _). specialize (B ltac:(congruence)). lia. }
      specialize (IH (S r) (S q) cur (after alive KChange cur ns) rs1 err NdA HeA ltac:(lia) HlA El). rewrite S1, S2, S3. destruct (pends_of alive KChange cur ns) as [|p1 pl] eqn:Pe3 in |- *; [contradiction|]. cbv beta iota. rewrite <- Pe3.
      destruct (enva q) as [ca|].
      * specialize (IH ltac:(intros m; rewrite Err, <- Er; apply errors_cons; exact Rs1)). cbv zeta in IH. destruct (loop alive enva KAbort fuel (S q) cur (map (we err) (after alive KChange cur ns))) as (ra & oa). cbn [fst snd] in *.
        assert (Ab : ab (mkround (pends_of alive KChange cur ns) cs) = pends_of alive KChange cur ns) by (apply ab_ok; intros p Hp; cbn [r_pend r_calls] in *; rewrite forallb_forall in Fa; apply N.eqb_eq, Fa, Hp).
        rewrite <- Er. cbn [map filter]. rewrite Ab. destruct (pends_of alive KChange cur ns) as [|p2 pl2] eqn:Pe2; [contradiction|]. cbn [is_nil negb]. destruct oa; auto.
        -- cbn [map r_pend]. rewrite IH. reflexivity.
        -- destruct IH as (tl & IH). exists tl. cbn [map r_pend app]. rewrite IH. reflexivity.
      * cbn [fst snd map r_pend]. assert (Ab : ab (mkround (pends_of alive KChange cur ns) cs) = pends_of alive KChange cur ns) by (apply ab_ok; intros p Hp; cbn [r_pend r_calls] in *; rewrite forallb_forall in Fa; apply N.eqb_eq, Fa, Hp).
        rewrite <- Er. cbn [map filter]. rewrite Ab. destruct (pends_of alive KChange cur ns) as [|p2 pl2] eqn:Pe2; [contradiction|]. cbn [is_nil negb]. eexists. reflexivity.
    + injection E as Er. assert (Erd : rd = mkround (pends_of alive KChange cur ns) cs /\ l = []) by (rewrite <- Er in Hrs; destruct l as [|x [|y l]]; cbn [app] in Hrs; injection Hrs; intros; try discriminate; auto). destruct Erd as (Erd & ->). subst rs.
      destruct (step_last err cur ns cs He) as (S1 & S2).
      * intros n p Hn Hp. rewrite Err. unfold errors. cbn [last]. assert (Y : In p (pends_of alive KChange cur ns)) by (apply pends_mem with (n := n); [exact Hn|exact Hp]).
        pose proof (pick_next cur n ltac:(rewrite Forall_forall in He; apply He; exact Hn)) as Q. rewrite Hp in Q. destruct Q as (_ & _ & _ & _ & Q5 & _).
        assert (Un : forall p', In p' (pends_of alive KChange cur ns) -> m_id (p_mod p') = m_id (n_mod n) -> p' = p).
        { intros p' Hp' Ei. destruct (pends_in _ _ _ _ _ Hp') as (n' & Hn' & Ep'). pose proof (pick_next cur n' ltac:(rewrite Forall_forall in He; apply He; exact Hn')) as Q. unfold pk in Q. rewrite Ep' in Q. destruct Q as (_ & _ & _ & _ & Q5' & _). assert (n' = n) by (apply Uniq; auto; congruence). subst n'. unfold pk in Hp. congruence. }
        destruct (find (fun p => Nat.eqb (m_id (p_mod p)) (m_id (n_mod n)) && negb (left_count cs p =? 0)) (pends_of alive KChange cur ns)) as [p'|] eqn:Fi.
        -- apply find_some in Fi. destruct Fi as (Fi & Fe). apply andb_true_iff in Fe. destruct Fe as (F1 & F2). apply Nat.eqb_eq in F1. rewrite (Un p' Fi F1) in *. apply negb_true_iff in F2. rewrite F2. reflexivity.
        -- destruct (left_count cs p =? 0) eqn:Lz; [reflexivity|]. exfalso. pose proof (find_none _ _ Fi p Y) as X. cbv beta in X. rewrite Q5, Nat.eqb_refl, Lz in X. discriminate.
      * intros n ep ec Hn X. destruct (Ef n ep ec Hn X) as (p & P1 & P2 & P3 & P4 & P5 & P6). exact P6.
      * intros n p. apply (pends_len cur ns p He Hl n).
      * rewrite Fa in S2. cbn [negb] in S2. rewrite S1, S2. change (flat_map (ab_pend cs) (pends_of alive KChange cur ns)) with (ab (mkround (pends_of alive KChange cur ns) cs)). cbn [map filter].
        destruct (ab (mkround (pends_of alive KChange cur ns) cs)) as [|p1 pl]; cbn [is_nil negb].
        -- destruct (cur =? 0); reflexivity.
        -- destruct (enva q) as [ca|]; cbn [fst snd map r_pend]; [reflexivity|exists []; reflexivity].
Qed.
End Follow.
End P3.
