(** Calls of an abort of a refused change. *)
From Coq Require Import List Bool Arith NArith Lia.
From Verif Require Import Change ChangeSpec ChangeProofs ChangeProofs2 ChangeProofs3.
Import ListNotations.
Local Open Scope N_scope.

Section P4.
Variable alive : asub -> bool.
Variable mods : list amod.
Hypothesis WF : wf_mods mods.
Variables envc enva : nat -> option (list call).

Lemma notify_follow : forall err0 rs, notify alive envc KChange err0 mods = (rs, ORefused) ->
  let t := notify alive enva KAbort (errors rs) mods in
  match snd t with
  | OOk => map r_pend (fst t) = filter (fun l => negb (is_nil l)) (map ab rs)
  | OFailed => exists tl, map r_pend (fst t) ++ tl = filter (fun l => negb (is_nil l)) (map ab rs)
  | _ => False
  end.
Proof.
  intros err0 rs E. unfold notify in *. rewrite (create_we alive (errors rs) err0). destruct (create alive KChange err0 mods) as [|n0 ns0] eqn:Es; [discriminate|]. rewrite <- Es in *. assert (Hne : create alive KChange err0 mods <> []) by (rewrite Es; discriminate).
  assert (Hmm : map (we (errors rs)) (create alive KChange err0 mods) = we (errors rs) n0 :: map (we (errors rs)) ns0) by (rewrite Es; reflexivity). rewrite Hmm. cbv beta iota. rewrite <- Hmm.
  rewrite set_mod_prio_we. cbn [fst snd].
  assert (Fl : length (flat_map (fun n => m_subs (n_mod n)) (map (we (errors rs)) (create alive KChange err0 mods))) = length (flat_map (fun n => m_subs (n_mod n)) (create alive KChange err0 mods))) by (apply total_map; rewrite map_map; apply map_ext; reflexivity).
  rewrite Fl. destruct (init_spec alive mods WF KChange err0 Hne) as (I1 & I2 & _). cbv zeta in E. unfold start in *.
  apply (follow alive envc enva _ 0%nat 0%nat _ _ rs (errors rs)); auto.
  - destruct WF as (W1 & _). assert (Em : map n_mod (fst (set_mod_prio (create alive KChange err0 mods))) = map n_mod (create alive KChange err0 mods)) by (apply set_mod_prio_spec; [exact Hne|intros n Hn; destruct (start_in alive mods WF KChange err0 n Hn) as (Hm & _); destruct WF as (_ & W); apply (W _ Hm)]).
    rewrite <- (map_map n_mod m_id), Em, create_eq, !map_map. cbn [n_mod]. clear -W1. induction mods as [|m l IH]; [constructor|]. cbn [map] in W1. inversion W1 as [|? ? Nx Ns]; subst. cbn [filter]. destruct (existsb (el alive KChange) (m_subs m)); [|apply IH; exact Ns]. cbn [map]. constructor; [|apply IH; exact Ns]. intros X. apply Nx. apply in_map_iff in X. destruct X as (y & Ey & Hy). apply filter_In in Hy. apply in_map_iff. exists y. split; [exact Ey|apply Hy].
  - apply Forall_forall. intros n Hn. destruct (I2 n Hn) as (_ & _ & _ & ->). reflexivity.
  - pose proof (todos_total alive KChange (fst (set_mod_prio (create alive KChange err0 mods)))) as X. assert (Em : map n_mod (fst (set_mod_prio (create alive KChange err0 mods))) = map n_mod (create alive KChange err0 mods)) by (apply set_mod_prio_spec; [exact Hne|intros n Hn; destruct (start_in alive mods WF KChange err0 n Hn) as (Hm & _); destruct WF as (_ & W); apply (W _ Hm)]). rewrite (total_map _ _ Em) in X. lia.
  - intros n Hn. destruct (I2 n Hn) as (_ & Hm & _). destruct WF as (_ & W). apply (W _ Hm).
Qed.

(** Rounds of an abort are those of the change, in the same order. *)
Lemma ab_in : forall rd q, In q (ab rd) -> exists p, In p (r_pend rd) /\ p_mod q = p_mod p /\ p_prio q = p_prio p /\ p_cnt q = p_cnt p - left_count (r_calls rd) p.
Proof.
  intros rd q H. unfold ab in H. apply in_flat_map in H. destruct H as (p & Hp & Hq). exists p. split; [exact Hp|]. unfold ab_pend in Hq. destruct (N.eqb_spec (left_count (r_calls rd) p) 0) as [Z|Z].
  - destruct Hq as [<-|[]]. rewrite Z. repeat split; lia.
  - destruct (p_cnt p - left_count (r_calls rd) p =? 0); [destruct Hq|destruct Hq as [<-|[]]; auto].
Qed.

Lemma filter_map_split : forall rs a x b, filter (fun l : list pend => negb (is_nil l)) (map ab rs) = a ++ x :: b ->
  exists l1 rd l2, rs = l1 ++ rd :: l2 /\ ab rd = x /\ filter (fun l => negb (is_nil l)) (map ab l2) = b.
Proof.
  induction rs as [|rd rs IH]; intros a x b E; [destruct a; discriminate|]. cbn [map filter] in E. destruct (negb (is_nil (ab rd))).
  - destruct a as [|y a]; cbn [app] in E; injection E as E1 E2; [exists [], rd, rs; auto|]. destruct (IH a x b E2) as (l1 & rd' & l2 & -> & E3 & E4). exists (rd :: l1), rd', l2. auto.
  - destruct (IH a x b E) as (l1 & rd' & l2 & -> & E3 & E4). exists (rd :: l1), rd', l2. auto.
Qed.

Lemma addr_abort : forall m s, addressed alive KChange m s -> addressed alive KAbort m s.
Proof. intros m s (A & B & C & D & [X|X]); [discriminate|]. repeat split; auto. Qed.

Section Calls.
Variables (rs ra : list round).
Hypothesis RO : rounds_ok alive mods KChange rs.
Hypothesis VC : forall rd, In rd rs -> valid_round alive KChange rd.
Hypothesis FO : map r_pend ra = filter (fun l => negb (is_nil l)) (map ab rs).
Hypothesis VA : forall rd, In rd ra -> valid_abort_round alive (calls rs) rd.

Definition abort_calls (m : amod) (s : asub) : list call := filter (fun c => Nat.eqb (c_mod c) (m_id m) && Nat.eqb (c_sub c) (a_id s)) (calls ra).

Lemma ra_split : forall a x b, ra = a ++ x :: b -> exists l1 rd l2, rs = l1 ++ rd :: l2 /\ r_pend x = ab rd /\ map r_pend b = filter (fun l => negb (is_nil l)) (map ab l2).
Proof. intros a x b E. rewrite E, map_app in FO. cbn [map] in FO. destruct (filter_map_split rs _ _ _ (eq_sym FO)) as (l1 & rd & l2 & E1 & E2 & E3). exists l1, rd, l2. auto. Qed.

Lemma ra_later : forall a x b y p1 p2, ra = a ++ x :: b -> In y b -> In p1 (r_pend x) -> In p2 (r_pend y) -> p_mod p1 = p_mod p2 -> p_prio p2 < p_prio p1.
Proof.
  intros a x b y p1 p2 E Hy H1 H2 Em. destruct (ra_split a x b E) as (l1 & rd & l2 & E1 & E2 & E3). rewrite E2 in H1. destruct (ab_in rd p1 H1) as (q1 & Q1 & M1 & P1 & _).
  assert (X : In (r_pend y) (filter (fun l => negb (is_nil l)) (map ab l2))) by (rewrite <- E3; apply in_map; exact Hy). apply filter_In in X. destruct X as (X & _). apply in_map_iff in X. destruct X as (rd2 & X & Hrd2). rewrite <- X in H2. destruct (ab_in rd2 p2 H2) as (q2 & Q2 & M2 & P2 & _).
  destruct (ro_later _ _ _ _ RO l1 rd l2 rd2 q1 q2 E1 Hrd2 Q1 Q2) as (_ & B). specialize (B ltac:(congruence)). lia.
Qed.

Lemma ra_in : forall x p, In x ra -> In p (r_pend x) -> In (p_mod p) mods.
Proof.
  intros x p Hx Hp. apply in_split in Hx. destruct Hx as (a & b & E). destruct (ra_split a x b E) as (l1 & rd & l2 & E1 & E2 & _). rewrite E2 in Hp. destruct (ab_in rd p Hp) as (q & Q & -> & _). apply (ro_from _ _ _ _ RO rd q); [rewrite E1; apply in_or_app; right; left; reflexivity|exact Q].
Qed.

Lemma ra_call : forall x c m s, In x ra -> In c (r_calls x) -> call_of mods c m s -> exists p, In p (r_pend x) /\ p_mod p = m /\ p_prio p = a_prio s /\ addressed alive KAbort m s /\ accepted (calls rs) (m_id m) (a_id s) = true.
Proof.
  intros x c m s Hx Hc (Hm & Hs & E1 & E2). destruct (VA x Hx) as (V & _). destruct (V c Hc) as (p & s' & Hp & F1 & F2 & F3 & F4 & F5). exists p. pose proof (ra_in x p Hx Hp) as Hpm. destruct WF as (W1 & W2).
  assert (p_mod p = m) by (apply (nodup_ids mods); congruence). assert (s' = s) by (destruct (W2 m Hm) as (Nd & _); apply (nodup_subs (m_subs m)); [exact Nd|subst m; apply F3|exact Hs|congruence]). subst s'. split; [exact Hp|]. split; [assumption|]. split; [congruence|]. rewrite <- H at 1. split; [exact F3|]. rewrite <- E1, <- E2. exact F5.
Qed.

Lemma one_per_round : forall x m s, In x ra -> (length (filter (fun c => Nat.eqb (c_mod c) (m_id m) && Nat.eqb (c_sub c) (a_id s)) (r_calls x)) <= 1)%nat.
Proof.
  intros x m s Hx. destruct (VA x Hx) as (_ & Nd & _). revert Nd. generalize (r_calls x) as cs. induction cs as [|c cs IH]; intros Nd; [cbn; lia|]. cbn [map] in Nd. inversion Nd as [|? ? Nx Ns]; subst. cbn [filter].
  destruct (Nat.eqb_spec (c_mod c) (m_id m)) as [E1|E1]; cbn [andb]; [|apply IH; exact Ns]. destruct (Nat.eqb_spec (c_sub c) (a_id s)) as [E2|E2]; [|apply IH; exact Ns]. cbn [length].
  destruct (filter (fun c => Nat.eqb (c_mod c) (m_id m) && Nat.eqb (c_sub c) (a_id s)) cs) as [|d t] eqn:F; [cbn; lia|]. exfalso. assert (Hd : In d (d :: t)) by (left; reflexivity). rewrite <- F in Hd. apply filter_In in Hd. destruct Hd as (Hd & Ed). apply andb_true_iff in Ed. destruct Ed as (E3 & E4). apply Nat.eqb_eq in E3, E4. apply Nx. apply in_map_iff. exists d. split; [congruence|exact Hd].
Qed.

Lemma abort_once : forall m s, In m mods -> In s (m_subs m) -> (length (abort_calls m s) <= 1)%nat.
Proof.
  intros m s Hm Hs. set (f := fun c => Nat.eqb (c_mod c) (m_id m) && Nat.eqb (c_sub c) (a_id s)). unfold abort_calls. fold f.
  assert (G : forall done l, ra = done ++ l -> (length (filter f (calls l)) <= 1)%nat); [|apply (G [] ra eq_refl)].
  intros done l. revert done. induction l as [|x l IH]; intros done E; [cbn; lia|]. unfold calls. cbn [flat_map]. fold (calls l). rewrite filter_app, app_length. assert (Hx : In x ra) by (rewrite E; apply in_or_app; right; left; reflexivity).
  pose proof (one_per_round x m s Hx) as O. fold f in O. specialize (IH (done ++ [x]) ltac:(rewrite <- app_assoc; exact E)).
  destruct (filter f (r_calls x)) as [|c1 t1] eqn:F1; [cbn; exact IH|]. destruct (filter f (calls l)) as [|c2 t2] eqn:F2; [cbn in *; lia|]. exfalso.
  assert (H1 : In c1 (filter f (r_calls x))) by (rewrite F1; left; reflexivity). assert (H2 : In c2 (filter f (calls l))) by (rewrite F2; left; reflexivity). apply filter_In in H1, H2. destruct H1 as (A1 & B1). destruct H2 as (A2 & B2). unfold f in B1, B2. apply andb_true_iff in B1, B2. destruct B1 as (B1 & C1). destruct B2 as (B2 & C2). apply Nat.eqb_eq in B1, B2, C1, C2.
  unfold calls in A2. apply in_flat_map in A2. destruct A2 as (y & Hy & A2). assert (Hy' : In y ra) by (rewrite E; apply in_or_app; right; right; exact Hy).
  destruct (ra_call x c1 m s Hx A1) as (p1 & P1 & P2 & P3 & _); [split; auto|]. destruct (ra_call y c2 m s Hy' A2) as (p2 & Q1 & Q2 & Q3 & _); [split; auto|].
  pose proof (ra_later done x l y p1 p2 E Hy P1 Q1 ltac:(congruence)). lia.
Qed.

Lemma same_round : forall rd1 rd2 p1 p2, In rd1 rs -> In rd2 rs -> In p1 (r_pend rd1) -> In p2 (r_pend rd2) -> p_mod p1 = p_mod p2 -> p_prio p1 = p_prio p2 -> rd1 = rd2.
Proof.
  intros rd1 rd2 p1 p2 H1 H2 P1 P2 Em Ep. apply in_split in H1. destruct H1 as (a & b & E). rewrite E in H2. apply in_app_or in H2. destruct H2 as [H2|[H2|H2]]; [|exact H2|].
  - apply in_split in H2. destruct H2 as (x & y & ->). destruct (ro_later _ _ _ _ RO x rd2 (y ++ rd1 :: b) rd1 p2 p1) as (_ & B); auto; [rewrite E, <- app_assoc; reflexivity|apply in_or_app; right; left; reflexivity|]. specialize (B (eq_sym Em)). lia.
  - destruct (ro_later _ _ _ _ RO a rd1 b rd2 p1 p2 E H2 P1 P2) as (_ & B). specialize (B Em). lia.
Qed.

Lemma acc_le : forall rd p, In rd rs -> In p (r_pend rd) -> N.of_nat (length (acceptors (r_calls rd) (p_mod p) (p_prio p))) <= p_cnt p.
Proof.
  intros rd p Hr Hp. destruct (ro_from _ _ _ _ RO rd p Hr Hp) as (_ & _ & ->). unfold cnt_at, at_prio, acceptors.
  pose proof (filter_le (fun s => (a_prio s =? p_prio p) && accepted (r_calls rd) (m_id (p_mod p)) (a_id s)) (fun s => el alive KChange s && (a_prio s =? p_prio p)) (m_subs (p_mod p)) (acceptors_sub alive mods WF KChange rs rd p RO Hr (VC rd Hr) Hp)). lia.
Qed.

Lemma abort_called : forall m s, In m mods -> In s (m_subs m) -> accepted (calls rs) (m_id m) (a_id s) = true -> exists c, In c (abort_calls m s).
Proof.
  intros m s Hm Hs Ac. pose proof Ac as Ac0. apply accepted_in in Ac. destruct Ac as (c & Hc & C1 & C2 & C3). unfold calls in Hc. apply in_flat_map in Hc. destruct Hc as (rd & Hr & Hc).
  destruct (call_pend alive mods WF KChange rs rd c m s RO Hr (VC rd Hr) Hc) as (p & Hp & Em & Ep & Ha); [split; auto|]. subst m.
  assert (AcR : accepted (r_calls rd) (m_id (p_mod p)) (a_id s) = true) by (apply accepted_in; exists c; auto).
  set (acc := acceptors (r_calls rd) (p_mod p) (p_prio p)). assert (Hin : In s acc) by (apply filter_In; split; [exact Hs|rewrite <- Ep, N.eqb_refl, AcR; reflexivity]).
  assert (Lp : p_cnt p - left_count (r_calls rd) p = N.of_nat (length acc)) by (unfold left_count; fold acc; pose proof (acc_le rd p Hr Hp) as L; fold acc in L; lia).
  assert (Nz : N.of_nat (length acc) <> 0) by (destruct acc; [destruct Hin|cbn; lia]).
  (* the event of the abort *)
  assert (exists q, In q (ab rd) /\ p_mod q = p_mod p /\ p_prio q = p_prio p /\ p_cnt q = N.of_nat (length acc)) as (q & Hq & Q1 & Q2 & Q3).
  { unfold ab. destruct (N.eqb_spec (left_count (r_calls rd) p) 0) as [Z|Z].
    - exists p. split; [apply in_flat_map; exists p; split; [exact Hp|unfold ab_pend; rewrite Z; left; reflexivity]|]. rewrite <- Lp, Z. repeat split; lia.
    - exists (mkpend (p_mod p) (p_prio p) (p_cnt p - left_count (r_calls rd) p)). split; [|rewrite <- Lp; auto]. apply in_flat_map. exists p. split; [exact Hp|]. unfold ab_pend. destruct (N.eqb_spec (left_count (r_calls rd) p) 0) as [Z'|_]; [contradiction|]. destruct (N.eqb_spec (p_cnt p - left_count (r_calls rd) p) 0) as [Z'|_]; [lia|left; reflexivity]. }
  assert (exists x, In x ra /\ r_pend x = ab rd) as (x & Hx & Ex).
  { assert (X : In (ab rd) (map r_pend ra)) by (rewrite FO; apply filter_In; split; [apply in_map; exact Hr|destruct (ab rd); [destruct Hq|reflexivity]]). apply in_map_iff in X. destruct X as (x & E & Hx). exists x. auto. }
  assert (Hqx : In q (r_pend x)) by (rewrite Ex; exact Hq).
  assert (Found : exists d, In d (r_calls x) /\ c_mod d = m_id (p_mod p) /\ c_sub d = a_id s).
  { destruct (VA x Hx) as (V & Nd & Wt). destruct (Wt q Hqx) as [Ct|All].
    2:{ destruct (All s) as (r & Hr'); [rewrite Q1; apply addr_abort; exact Ha|congruence|rewrite Q1; exact Ac0|]. exists (mkcall (m_id (p_mod q)) (a_id s) r). cbn [c_mod c_sub]. rewrite Q1 in *. auto. }
    rewrite Q1, Q3 in Ct. set (g := fun c0 => Nat.eqb (c_mod c0) (m_id (p_mod p))) in *.
    assert (Incl : incl (map c_sub (filter g (r_calls x))) (map a_id acc)).
    { intros i Hi. apply in_map_iff in Hi. destruct Hi as (d & <- & Hd). apply filter_In in Hd. destruct Hd as (Hd & Gd). apply Nat.eqb_eq in Gd. destruct (V d Hd) as (q' & s' & Hq' & F1 & F2 & F3 & F4 & F5).
      rewrite Ex in Hq'. destruct (ab_in rd q' Hq') as (p' & Hp' & M' & P' & _). pose proof (ra_in x q' Hx ltac:(rewrite Ex; exact Hq')) as Hm'. destruct WF as (W1 & W2).
      assert (Em' : p_mod q' = p_mod p) by (apply (nodup_ids mods); auto; congruence). rewrite Em' in *.
      assert (p' = p) by (apply (ro_same _ _ _ _ RO rd p' p Hr Hp' Hp); congruence). subst p'. rewrite F2. apply in_map. apply filter_In. split; [apply F3|]. rewrite F4, P', N.eqb_refl. cbn [andb].
      (* accepted in this very round *)
      apply accepted_in in F5. destruct F5 as (e & He & E1 & E2 & E3). unfold calls in He. apply in_flat_map in He. destruct He as (rd' & Hr' & He). destruct (call_pend alive mods (conj W1 W2) KChange rs rd' e (p_mod p) s' RO Hr' (VC rd' Hr') He) as (p2 & Hp2 & M2 & Pr2 & _); [split; [exact Hm|split; [apply F3|split; congruence]]|].
      assert (rd = rd') by (apply (same_round rd rd' p p2); auto; congruence). subst rd'. apply accepted_in. exists e. split; [exact He|]. split; [congruence|]. split; congruence. }
    assert (NdS : NoDup (map c_sub (filter g (r_calls x)))).
    { clear -Nd. induction (r_calls x) as [|d l IH]; [constructor|]. cbn [map] in Nd. inversion Nd as [|? ? Nx Ns]; subst. cbn [filter]. destruct (g d) eqn:Gd; [|apply IH; exact Ns]. cbn [map]. constructor; [|apply IH; exact Ns]. intros X. apply in_map_iff in X. destruct X as (e & Ee & He). apply filter_In in He. destruct He as (He & Ge). unfold g in Gd, Ge. apply Nat.eqb_eq in Gd, Ge. apply Nx. apply in_map_iff. exists e. split; [congruence|exact He]. }
    assert (Back : incl (map a_id acc) (map c_sub (filter g (r_calls x)))) by (apply NoDup_length_incl; [exact NdS|rewrite !map_length; lia|exact Incl]).
    specialize (Back (a_id s) (in_map a_id _ _ Hin)). apply in_map_iff in Back. destruct Back as (d & Ed & Hd). apply filter_In in Hd. destruct Hd as (Hd & Gd). apply Nat.eqb_eq in Gd. exists d. auto. }
  destruct Found as (d & Hd & D1 & D2). exists d. unfold abort_calls. apply filter_In. split; [apply in_flat_map; exists x; auto|]. rewrite D1, D2, !Nat.eqb_refl. reflexivity.
Qed.

Lemma abort_exact : forall m s, In m mods -> In s (m_subs m) -> length (abort_calls m s) = if accepted (calls rs) (m_id m) (a_id s) then 1%nat else 0%nat.
Proof.
  intros m s Hm Hs. pose proof (abort_once m s Hm Hs) as O. destruct (accepted (calls rs) (m_id m) (a_id s)) eqn:Ac.
  - destruct (abort_called m s Hm Hs Ac) as (c & Hc). destruct (abort_calls m s) as [|x [|y t]]; cbn in *; [destruct Hc|reflexivity|lia].
  - destruct (abort_calls m s) as [|c t] eqn:F; [reflexivity|]. exfalso. assert (Hc : In c (abort_calls m s)) by (rewrite F; left; reflexivity). unfold abort_calls in Hc. apply filter_In in Hc. destruct Hc as (Hc & E). apply andb_true_iff in E. destruct E as (E1 & E2). apply Nat.eqb_eq in E1, E2. unfold calls in Hc. apply in_flat_map in Hc. destruct Hc as (x & Hx & Hc). destruct (ra_call x c m s Hx Hc) as (_ & _ & _ & _ & _ & A); [split; auto|]. congruence.
Qed.
End Calls.
End P4.
