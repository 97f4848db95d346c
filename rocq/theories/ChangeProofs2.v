(** From rounds of a loop to the calls of callbacks. *)
From Coq Require Import List Bool Arith NArith Lia.
From Verif Require Import Change ChangeSpec ChangeProofs.
Import ListNotations.
Local Open Scope N_scope.

Definition base_kind (k : kind) : kind := match k with KAbort => KChange | _ => k end.

Lemma el_base : forall alive k s, el alive (base_kind k) s = el alive k s.
Proof. intros alive k s. destruct k; reflexivity. Qed.

Lemma create_eq : forall alive k err mods, create alive k err mods =
  map (fun m => mknsub m 0 (u32 (snd (has_subscription alive k (m_subs m)) + 1)) (match k with KAbort => err (m_id m) | _ => None end))
    (filter (fun m => existsb (el alive k) (m_subs m)) mods).
Proof.
  intros alive k err mods. unfold create. induction mods as [|m mods IH]; [reflexivity|]. cbn [flat_map filter]. rewrite IH. clear IH. cbv zeta.
  destruct (has_spec alive (base_kind k) (m_subs m)) as (H & _). change (match k with KAbort => KChange | _ => k end) with (base_kind k). rewrite H.
  assert (X : existsb (el alive (base_kind k)) (m_subs m) = existsb (el alive k) (m_subs m)) by (clear; induction (m_subs m) as [|s l IHl]; [reflexivity|cbn [existsb]; rewrite el_base, IHl; reflexivity]).
  rewrite X. destruct (existsb (el alive k) (m_subs m)); reflexivity.
Qed.

Lemma nodup_ids : forall mods m1 m2, NoDup (map m_id mods) -> In m1 mods -> In m2 mods -> m_id m1 = m_id m2 -> m1 = m2.
Proof.
  induction mods as [|x l IH]; intros m1 m2 Nd H1 H2 E; [destruct H1|]. cbn [map] in Nd. inversion Nd as [|? ? Nx Ns]; subst. destruct H1 as [->|H1], H2 as [->|H2]; auto.
  - exfalso. apply Nx. rewrite E. apply in_map. exact H2.
  - exfalso. apply Nx. rewrite <- E. apply in_map. exact H1.
Qed.
Lemma nodup_subs : forall subs s1 s2, NoDup (map a_id subs) -> In s1 subs -> In s2 subs -> a_id s1 = a_id s2 -> s1 = s2.
Proof.
  induction subs as [|x l IH]; intros m1 m2 Nd H1 H2 E; [destruct H1|]. cbn [map] in Nd. inversion Nd as [|? ? Nx Ns]; subst. destruct H1 as [->|H1], H2 as [->|H2]; auto.
  - exfalso. apply Nx. rewrite E. apply in_map. exact H2.
  - exfalso. apply Nx. rewrite <- E. apply in_map. exact H1.
Qed.

Section P2.
Variable alive : asub -> bool.
Variable mods : list amod.
Hypothesis WF : wf_mods mods.

Definition start (k : kind) (err : nat -> option (N * N)) : list nsub := create alive k err mods.

Lemma start_in : forall k err n, In n (start k err) -> In (n_mod n) mods /\ existsb (el alive k) (m_subs (n_mod n)) = true /\ (forall s, In s (m_subs (n_mod n)) -> el alive k s = true -> a_prio s < n_cur n) /\
  n_err n = match k with KAbort => err (m_id (n_mod n)) | _ => None end.
Proof.
  intros k err n H. unfold start in H. rewrite create_eq in H. apply in_map_iff in H. destruct H as (m & <- & Hm). apply filter_In in Hm. destruct Hm as (Hm & Ex). cbn [n_mod n_cur n_err]. split; [exact Hm|]. split; [exact Ex|]. split; [|reflexivity].
  intros s Hs Es. destruct (has_spec alive k (m_subs m)) as (_ & H2 & H3). specialize (H2 s Hs Es). destruct WF as (_ & W). destruct (W m Hm) as (_ & _ & W3 & _).
  assert (L : snd (has_subscription alive k (m_subs m)) < u32_max) by (destruct H3 as [->|(x & Hx & <-)]; [reflexivity|apply W3; exact Hx]).
  unfold u32, u32_max in *. rewrite N.mod_small by lia. lia.
Qed.

Lemma start_mem : forall k err m s, In m mods -> In s (m_subs m) -> el alive k s = true -> exists n, In n (start k err) /\ n_mod n = m.
Proof.
  intros k err m s Hm Hs Es. unfold start. rewrite create_eq. eexists. split; [apply in_map with (x := m); apply filter_In; split; [exact Hm|apply existsb_exists; exists s; auto]|reflexivity].
Qed.

Lemma start_nodup : forall k err, NoDup (map n_mod (start k err)).
Proof.
  intros k err. unfold start. rewrite create_eq, map_map. cbn [n_mod]. rewrite map_id. apply NoDup_filter. destruct WF as (Nd & _). apply NoDup_map_inv in Nd. exact Nd.
Qed.

(** The state the loop starts in. *)
Lemma init_spec : forall k err, start k err <> [] -> let p := set_mod_prio (start k err) in
  NoDup (map n_mod (fst p)) /\ (forall n, In n (fst p) -> n_mprio n <= snd p /\ In (n_mod n) mods /\ (forall s, In s (m_subs (n_mod n)) -> el alive k s = true -> a_prio s < n_cur n) /\
     n_err n = match k with KAbort => err (m_id (n_mod n)) | _ => None end) /\
  (forall m s, In m mods -> In s (m_subs m) -> el alive k s = true -> exists n, In n (fst p) /\ n_mod n = m) /\
  (forall a b, In a (fst p) -> In b (fst p) -> (n_mprio a <= n_mprio b <-> m_prio (n_mod a) <= m_prio (n_mod b))).
Proof.
  intros k err Hne p. assert (HM : forall n, In n (start k err) -> m_prio (n_mod n) <= u32_max) by (intros n Hn; destruct (start_in _ _ _ Hn) as (Hm & _); destruct WF as (_ & W); apply (W _ Hm)).
  destruct (set_mod_prio_spec (start k err) Hne HM) as (A & B & C & D & F). fold p in A, B, C, D, F.
  assert (Corr : forall n, In n (fst p) -> exists x, In x (start k err) /\ n_mod n = n_mod x /\ n_cur n = n_cur x /\ n_err n = n_err x).
  { clear -A B C. remember (fst p) as l eqn:E. clear E. revert A B C. generalize (start k err) as l2. induction l as [|a l IH]; intros l2 A B C n Hn; [destruct Hn|]. destruct l2 as [|b l2]; [discriminate|]. cbn [map] in *. injection A as A1 A2. injection B as B1 B2. injection C as C1 C2. destruct Hn as [<-|Hn]; [exists b; split; [left; reflexivity|auto]|]. destruct (IH l2 A2 B2 C2 n Hn) as (x & Hx & R). exists x. split; [right; exact Hx|exact R]. }
  split; [rewrite A; apply start_nodup|]. split; [|split; [|exact F]].
  - intros n Hn. destruct (Corr n Hn) as (x & Hx & E1 & E2 & E3). destruct (start_in _ _ _ Hx) as (S1 & S2 & S3 & S4). split; [apply D; exact Hn|]. rewrite E1, E2, E3. auto.
  - intros m s Hm Hs Es. destruct (start_mem k err m s Hm Hs Es) as (x & Hx & Ex). assert (X : In m (map n_mod (fst p))) by (rewrite A; rewrite <- Ex; apply in_map; exact Hx). apply in_map_iff in X. destruct X as (n & En & Hn). exists n. auto.
Qed.

Lemma todos_total : forall k ns, (todos alive k ns <= length (flat_map (fun n => m_subs (n_mod n)) ns))%nat.
Proof.
  intros k ns. induction ns as [|n ns IH]; [cbn; lia|]. cbn [todos fold_right flat_map]. rewrite app_length. assert (todo alive k n <= length (m_subs (n_mod n)))%nat.
  { unfold todo. clear. induction (m_subs (n_mod n)) as [|s l IH]; [cbn; lia|]. cbn [filter]. destruct (el alive k s && (a_prio s <? n_cur n)); cbn [length]; lia. }
  unfold todos in IH. lia.
Qed.
Lemma total_map : forall l1 l2, map n_mod l1 = map n_mod l2 -> length (flat_map (fun n => m_subs (n_mod n)) l1) = length (flat_map (fun n => m_subs (n_mod n)) l2).
Proof. induction l1 as [|a l1 IH]; intros [|b l2] H; try discriminate; [reflexivity|]. cbn [map flat_map] in *. injection H as H1 H2. rewrite !app_length, H1, (IH l2 H2). reflexivity. Qed.

(** What the rounds of one event look like. *)
Record rounds_ok (k : kind) (rs : list round) : Prop := {
  ro_from : forall rd p, In rd rs -> In p (r_pend rd) -> In (p_mod p) mods /\ (exists s, addressed alive k (p_mod p) s /\ a_prio s = p_prio p) /\ p_cnt p = cnt_at alive k (p_prio p) (m_subs (p_mod p));
  ro_same : forall rd p1 p2, In rd rs -> In p1 (r_pend rd) -> In p2 (r_pend rd) -> m_prio (p_mod p1) = m_prio (p_mod p2) /\ (p_mod p1 = p_mod p2 -> p1 = p2);
  ro_later : forall l1 rd1 l2 rd2 p1 p2, rs = l1 ++ rd1 :: l2 -> In rd2 l2 -> In p1 (r_pend rd1) -> In p2 (r_pend rd2) ->
     m_prio (p_mod p2) <= m_prio (p_mod p1) /\ (p_mod p1 = p_mod p2 -> p_prio p2 < p_prio p1);
  ro_some : forall rd, In rd rs -> r_pend rd <> [] }.

Definition all_written (k : kind) (rs : list round) : Prop :=
  forall m s, In m mods -> addressed alive k m s -> exists rd p, In rd rs /\ In p (r_pend rd) /\ p_mod p = m /\ p_prio p = a_prio s.

Lemma notify_spec : forall env k err rs o, k <> KAbort -> notify alive env k err mods = (rs, o) ->
  rounds_ok k rs /\
  match o with
  | OOk => all_written k rs /\ (k = KChange -> Forall all_ok rs)
  | ORefused => k = KChange /\ exists l rd, rs = l ++ [rd] /\ Forall all_ok l /\ ~ all_ok rd
  | OFailed => exists l rd, rs = l ++ [rd] /\ r_calls rd = [] /\ (k = KChange -> Forall all_ok l)
  | OFuel => False
  end.
Proof.
  intros env k err rs o Hk E. unfold notify in E. fold (start k err) in E. destruct (start k err) as [|n0 ns0] eqn:Es.
  - injection E as <- <-. split; [constructor; [intros rd p []|intros rd p1 p2 []|intros l1 rd1 l2 rd2 p1 p2 X; destruct l1; discriminate|intros rd []]|].
    split; [|intros; constructor]. intros m s Hm Ha. exfalso. assert (Hs : In s (m_subs m)) by apply Ha. destruct (start_mem k err m s Hm Hs) as (n & Hn & _); [apply (el_addressed alive k m s Hs); exact Ha|]. rewrite Es in Hn. destruct Hn.
  - rewrite <- Es in E. assert (Hne : start k err <> []) by (rewrite Es; discriminate). destruct (init_spec k err Hne) as (I1 & I2 & I3 & I4). set (p := set_mod_prio (start k err)) in *.
    assert (He : Forall (fun n => n_err n = None) (fst p)). { apply Forall_forall. intros n Hn. destruct (I2 n Hn) as (_ & _ & _ & ->). destruct k; [reflexivity|reflexivity|congruence]. }
    assert (Hf : (N.to_nat (snd p) + todos alive k (fst p) < S (N.to_nat (snd p) + length (flat_map (fun n => m_subs (n_mod n)) (start k err))))%nat).
    { pose proof (todos_total k (fst p)) as X. assert (Em : map n_mod (fst p) = map n_mod (start k err)). { apply set_mod_prio_spec; [exact Hne|]. intros n Hn. destruct (start_in _ _ _ Hn) as (Hm & _). destruct WF as (_ & W). apply (W _ Hm). } rewrite (total_map _ _ Em) in X. lia. }
    destruct (loop_spec alive env k _ 0%nat (snd p) (fst p) rs o Hk I1 He Hf E) as ([G1 G2 G3] & Ne & O).
    assert (Mp : forall p1 p2 c1 c2, from alive k (fst p) c1 p1 -> from alive k (fst p) c2 p2 -> mp_le (fst p) p2 p1 -> m_prio (p_mod p2) <= m_prio (p_mod p1)).
    { intros p1 p2 c1 c2 (n1 & _ & Hn1 & E1 & _) (n2 & _ & Hn2 & E2 & _) M. specialize (M n1 n2 Hn1 Hn2 E1 E2). rewrite <- E1, <- E2. apply (I4 n2 n1 Hn2 Hn1). exact M. }
    split.
    + constructor.
      * intros rd q Hr Hq. destruct (G1 rd q Hr Hq) as (n & s & Hn & En & Mn & (R1 & R2 & R3) & Ps & Cn). destruct (I2 n Hn) as (_ & Hm & _). split; [rewrite <- En; exact Hm|]. split; [|exact Cn]. exists s. split; [|exact Ps]. rewrite <- En. apply el_addressed; assumption.
      * intros rd p1 p2 Hr H1 H2. destruct (G2 rd p1 p2 Hr H1 H2) as (A & B). destruct (G2 rd p2 p1 Hr H2 H1) as (C & _). split; [|exact B]. pose proof (Mp _ _ _ _ (G1 rd p2 Hr H2) (G1 rd p1 Hr H1) A). pose proof (Mp _ _ _ _ (G1 rd p1 Hr H1) (G1 rd p2 Hr H2) C). lia.
      * intros l1 rd1 l2 rd2 p1 p2 El H2 Hp1 Hp2. destruct (G3 l1 rd1 l2 rd2 p1 p2 El H2 Hp1 Hp2) as (A & B). split; [|exact B]. apply (Mp p1 p2 (snd p) (snd p)); [apply (G1 rd1); [rewrite El; apply in_or_app; right; left; reflexivity|exact Hp1]|apply (G1 rd2); [rewrite El; apply in_or_app; right; right; exact H2|exact Hp2]|exact A].
      * exact Ne.
    + destruct o; try exact O. destruct O as (O1 & O2). split; [|exact O2]. intros m s Hm Ha. assert (Hs : In s (m_subs m)) by apply Ha. pose proof (proj2 (el_addressed alive k m s Hs) Ha) as El. destruct (I3 m s Hm Hs El) as (n & Hn & En). destruct (I2 n Hn) as (L & _ & C & _). subst m. destruct (O1 n s Hn L) as (rd & q & H1 & H2 & H3 & H4); [split; [exact Hs|split; [exact El|apply C; assumption]]|]. exists rd, q. auto.
Qed.

(** ** Calls *)
Lemma calls_split : forall rs l1 c1 l2 c2, calls rs = l1 ++ c1 :: l2 -> In c2 l2 ->
  (exists a rd b x y, rs = a ++ rd :: b /\ r_calls rd = x ++ c1 :: y /\ In c2 y) \/
  (exists a rd1 b rd2, rs = a ++ rd1 :: b /\ In c1 (r_calls rd1) /\ In rd2 b /\ In c2 (r_calls rd2)).
Proof.
  induction rs as [|rd rs IH]; intros l1 c1 l2 c2 E H2; [destruct l1; discriminate|]. unfold calls in E. cbn [flat_map] in E. fold (calls rs) in E.
  destruct (Nat.lt_ge_cases (length l1) (length (r_calls rd))) as [L|L].
  - assert (exists y, r_calls rd = l1 ++ c1 :: y /\ l2 = y ++ calls rs) as (y & Ey & Ez).
    { clear -E L. revert L E. generalize (r_calls rd) as cs. induction l1 as [|a l1 IH]; intros cs L E; destruct cs as [|c cs]; cbn in L; try lia; cbn [app] in E; injection E as E0 E.
      - subst c. exists cs. split; [reflexivity|symmetry; exact E].
      - subst c. destruct (IH cs ltac:(lia) E) as (y & Ey & Ez). exists y. split; [cbn; rewrite Ey; reflexivity|exact Ez]. }
    subst l2. apply in_app_or in H2. destruct H2 as [H2|H2].
    + left. exists [], rd, rs, l1, y. auto.
    + right. unfold calls in H2. apply in_flat_map in H2. destruct H2 as (rd2 & Hr & Hc). exists [], rd, rs, rd2. split; [reflexivity|]. split; [rewrite Ey; apply in_or_app; right; left; reflexivity|auto].
  - assert (exists l1', l1 = r_calls rd ++ l1' /\ calls rs = l1' ++ c1 :: l2) as (l1' & _ & Ez).
    { clear -E L. revert L E. generalize (r_calls rd) as cs. intros cs. revert l1. induction cs as [|c cs IH]; intros l1 L E; [exists l1; auto|]. destruct l1 as [|a l1]; cbn in L; [lia|]. cbn [app] in E. injection E as E0 E. subst a. destruct (IH l1 ltac:(lia) E) as (l1' & -> & Ez). exists l1'. auto. }
    destruct (IH l1' c1 l2 c2 Ez H2) as [(a & rd' & b & x & y & -> & R)|(a & rd1 & b & rd2 & -> & R)]; [left; exists (rd :: a), rd', b, x, y; auto|right; exists (rd :: a), rd1, b, rd2; auto].
Qed.

Lemma call_pend : forall k rs rd c m s, rounds_ok k rs -> In rd rs -> valid_round alive k rd -> In c (r_calls rd) -> call_of mods c m s ->
  exists p, In p (r_pend rd) /\ p_mod p = m /\ p_prio p = a_prio s /\ addressed alive k m s.
Proof.
  intros k rs rd c m s RO Hr (V & _) Hc (Hm & Hs & E1 & E2). destruct (V c Hc) as (p & s' & Hp & F1 & F2 & F3 & F4). exists p. destruct (ro_from _ _ RO rd p Hr Hp) as (Hpm & _). destruct WF as (W1 & W2).
  assert (p_mod p = m) by (apply (nodup_ids mods); congruence). assert (s' = s) by (destruct (W2 m Hm) as (Nd & _); apply (nodup_subs (m_subs m)); [exact Nd|subst m; apply F3|exact Hs|congruence]). subst s'. split; [exact Hp|]. split; [assumption|]. split; [congruence|]. rewrite <- H. exact F3.
Qed.

Lemma call_has : forall k rs rd c, rounds_ok k rs -> In rd rs -> valid_round alive k rd -> In c (r_calls rd) -> exists m s, call_of mods c m s /\ addressed alive k m s.
Proof.
  intros k rs rd c RO Hr (V & _) Hc. destruct (V c Hc) as (p & s & Hp & F1 & F2 & F3 & F4). exists (p_mod p), s. split; [|exact F3]. split; [apply (ro_from _ _ RO rd p Hr Hp)|]. split; [apply F3|auto].
Qed.

(** Order of calls. *)
Lemma order : forall k rs l1 c1 l2 c2 m1 s1 m2 s2, rounds_ok k rs -> (forall rd, In rd rs -> valid_round alive k rd) -> calls rs = l1 ++ c1 :: l2 -> In c2 l2 -> call_of mods c1 m1 s1 -> call_of mods c2 m2 s2 ->
  m_prio m2 <= m_prio m1 /\ (m1 = m2 -> a_prio s2 <= a_prio s1).
Proof.
  intros k rs l1 c1 l2 c2 m1 s1 m2 s2 RO V E H2 C1 C2. destruct (calls_split rs l1 c1 l2 c2 E H2) as [(a & rd & b & x & y & -> & Er & Hy)|(a & rd1 & b & rd2 & -> & Hc1 & Hr2 & Hc2)].
  - assert (Hr : In rd (a ++ rd :: b)) by (apply in_or_app; right; left; reflexivity).
    destruct (call_pend k _ rd c1 m1 s1 RO Hr (V rd Hr)) as (p1 & P1 & P2 & P3 & _); [rewrite Er; apply in_or_app; right; left; reflexivity|exact C1|].
    destruct (call_pend k _ rd c2 m2 s2 RO Hr (V rd Hr)) as (p2 & Q1 & Q2 & Q3 & _); [rewrite Er; apply in_or_app; right; right; exact Hy|exact C2|].
    destruct (ro_same _ _ RO rd p1 p2 Hr P1 Q1) as (A & B). rewrite P2, Q2 in *. split; [lia|]. intros Em. specialize (B Em). subst p2. lia.
  - assert (Hr1 : In rd1 (a ++ rd1 :: b)) by (apply in_or_app; right; left; reflexivity). assert (Hr2' : In rd2 (a ++ rd1 :: b)) by (apply in_or_app; right; right; exact Hr2).
    destruct (call_pend k _ rd1 c1 m1 s1 RO Hr1 (V rd1 Hr1) Hc1 C1) as (p1 & P1 & P2 & P3 & _). destruct (call_pend k _ rd2 c2 m2 s2 RO Hr2' (V rd2 Hr2') Hc2 C2) as (p2 & Q1 & Q2 & Q3 & _).
    destruct (ro_later _ _ RO a rd1 b rd2 p1 p2 eq_refl Hr2 P1 Q1) as (A & B). rewrite P2, Q2 in *. split; [exact A|]. intros Em. specialize (B Em). lia.
Qed.

(** Everybody is done with an event at most once. *)
Definition finals (k : kind) (rs : list round) (m : amod) (s : asub) : list call := filter (fun c => is_final k c && Nat.eqb (c_mod c) (m_id m) && Nat.eqb (c_sub c) (a_id s)) (calls rs).

Lemma finals_app : forall k a b m s, finals k (a ++ b) m s = finals k a m s ++ finals k b m s.
Proof. intros. unfold finals, calls. rewrite flat_map_app, filter_app. reflexivity. Qed.

Lemma finals_one : forall k rd m s, valid_round alive k rd -> (length (finals k [rd] m s) <= 1)%nat.
Proof.
  intros k rd m s (_ & Nd). unfold finals, calls. cbn [flat_map]. rewrite app_nil_r. revert Nd. generalize (r_calls rd) as cs. induction cs as [|c cs IH]; intros Nd; [cbn; lia|]. cbn [filter] in *. destruct (is_final k c); cbn [andb]; [|apply IH; exact Nd].
  cbn [map] in Nd. inversion Nd as [|? ? Nx Ns]; subst. destruct (Nat.eqb_spec (c_mod c) (m_id m)) as [E1|E1]; cbn [andb]; [|apply IH; exact Ns]. destruct (Nat.eqb_spec (c_sub c) (a_id s)) as [E2|E2]; [|apply IH; exact Ns]. cbn [length].
  assert (Z : filter (fun c => is_final k c && Nat.eqb (c_mod c) (m_id m) && Nat.eqb (c_sub c) (a_id s)) cs = []); [|rewrite Z; cbn; lia].
  destruct (filter (fun c => is_final k c && Nat.eqb (c_mod c) (m_id m) && Nat.eqb (c_sub c) (a_id s)) cs) as [|d t] eqn:F; [reflexivity|]. exfalso. assert (Hd : In d (d :: t)) by (left; reflexivity). rewrite <- F in Hd. apply filter_In in Hd. destruct Hd as (Hd & Ed). apply andb_true_iff in Ed. destruct Ed as (Ed & E4). apply andb_true_iff in Ed. destruct Ed as (E5 & E3). apply Nat.eqb_eq in E3, E4.
  apply Nx. apply in_map_iff. exists d. split; [congruence|]. apply filter_In. auto.
Qed.

Lemma finals_in : forall k rs m s c, In c (finals k rs m s) -> In m mods -> In s (m_subs m) -> In c (calls rs) /\ call_of mods c m s.
Proof.
  intros k rs m s c H Hm Hs. unfold finals in H. apply filter_In in H. destruct H as (H1 & H2). apply andb_true_iff in H2. destruct H2 as (H2 & E2). apply andb_true_iff in H2. destruct H2 as (_ & E1). apply Nat.eqb_eq in E1, E2. split; [exact H1|]. split; [exact Hm|]. split; [exact Hs|]. auto.
Qed.

Lemma at_most_once : forall k rs m s, rounds_ok k rs -> (forall rd, In rd rs -> valid_round alive k rd) -> In m mods -> In s (m_subs m) -> (length (finals k rs m s) <= 1)%nat.
Proof.
  intros k rs m s RO V Hm Hs. assert (G : forall done l, rs = done ++ l -> (length (finals k l m s) <= 1)%nat).
  2:{ apply (G [] rs eq_refl). }
  intros done l. revert done. induction l as [|rd l IH]; intros done E; [cbn; lia|]. change (rd :: l) with ([rd] ++ l). rewrite finals_app, app_length.
  assert (Hr : In rd rs) by (rewrite E; apply in_or_app; right; left; reflexivity). pose proof (finals_one k rd m s (V rd Hr)) as O. specialize (IH (done ++ [rd]) ltac:(rewrite <- app_assoc; exact E)).
  destruct (finals k [rd] m s) as [|c1 t1] eqn:F1; [cbn; exact IH|]. destruct (finals k l m s) as [|c2 t2] eqn:F2; [cbn in *; lia|]. exfalso.
  assert (H1 : In c1 (finals k [rd] m s)) by (rewrite F1; left; reflexivity). assert (H2 : In c2 (finals k l m s)) by (rewrite F2; left; reflexivity).
  destruct (finals_in _ _ _ _ _ H1 Hm Hs) as (A1 & B1). destruct (finals_in _ _ _ _ _ H2 Hm Hs) as (A2 & B2). unfold calls in A1, A2. cbn [flat_map] in A1. rewrite app_nil_r in A1. apply in_flat_map in A2. destruct A2 as (rd2 & Hr2 & Hc2).
  assert (Hr2' : In rd2 rs) by (rewrite E; apply in_or_app; right; right; exact Hr2).
  destruct (call_pend k rs rd c1 m s RO Hr (V rd Hr) A1 B1) as (p1 & P1 & P2 & P3 & _). destruct (call_pend k rs rd2 c2 m s RO Hr2' (V rd2 Hr2') Hc2 B2) as (p2 & Q1 & Q2 & Q3 & _).
  destruct (ro_later _ _ RO done rd l rd2 p1 p2 E Hr2 P1 Q1) as (_ & B). specialize (B ltac:(congruence)). lia.
Qed.

(** Counting of acceptances. *)
Lemma accepted_in : forall cs m s, accepted cs m s = true <-> exists c, In c cs /\ c_mod c = m /\ c_sub c = s /\ c_res c = ROk.
Proof.
  intros cs m s. unfold accepted. rewrite existsb_exists. split.
  - intros (c & Hc & E). apply andb_true_iff in E. destruct E as (E & E3). apply andb_true_iff in E. destruct E as (E1 & E2). apply Nat.eqb_eq in E1, E2. exists c. repeat split; auto. destruct (c_res c); [reflexivity|discriminate|discriminate].
  - intros (c & Hc & <- & <- & E). exists c. rewrite !Nat.eqb_refl, E. auto.
Qed.

Lemma filter_len_sub : forall {A} (f g : A -> bool) l, (forall x, In x l -> f x = true -> g x = true) -> (length (filter g l) <= length (filter f l))%nat -> forall x, In x l -> g x = true -> f x = true.
Proof.
  induction l as [|y l IH]; intros H L x Hx Gx; [destruct Hx|]. assert (H' : forall z, In z l -> f z = true -> g z = true) by (intros z Hz; apply H; right; exact Hz). pose proof (filter_le f g l H') as Le. cbn [filter] in L. destruct Hx as [->|Hx].
  - rewrite Gx in L. destruct (f x); [reflexivity|]. cbn in L. lia.
  - apply (IH H'); auto. destruct (f y) eqn:F; [rewrite (H y (or_introl eq_refl) F) in L; cbn in L; lia|]. destruct (g y); cbn in L; lia.
Qed.

Lemma acceptors_sub : forall k rs rd p, rounds_ok k rs -> In rd rs -> valid_round alive k rd -> In p (r_pend rd) -> forall s, In s (m_subs (p_mod p)) ->
  (a_prio s =? p_prio p) && accepted (r_calls rd) (m_id (p_mod p)) (a_id s) = true -> el alive k s && (a_prio s =? p_prio p) = true.
Proof.
  intros k rs rd p RO Hr V Hp s Hs E. apply andb_true_iff in E. destruct E as (E1 & E2). rewrite E1, andb_true_r. apply accepted_in in E2. destruct E2 as (c & Hc & C1 & C2 & _). destruct (ro_from _ _ RO rd p Hr Hp) as (Hm & _).
  destruct (call_pend k rs rd c (p_mod p) s RO Hr V Hc) as (_ & _ & _ & _ & Ha); [split; auto|]. apply (el_addressed alive k (p_mod p) s Hs). exact Ha.
Qed.

Lemma left_zero : forall k rs rd p, rounds_ok k rs -> In rd rs -> valid_round alive k rd -> In p (r_pend rd) -> left_count (r_calls rd) p = 0 ->
  forall s, addressed alive k (p_mod p) s -> a_prio s = p_prio p -> accepted (r_calls rd) (m_id (p_mod p)) (a_id s) = true.
Proof.
  intros k rs rd p RO Hr V Hp L s Ha Ep. assert (Hs : In s (m_subs (p_mod p))) by apply Ha. unfold left_count in L. destruct (ro_from _ _ RO rd p Hr Hp) as (_ & _ & Cn). rewrite Cn in L. unfold cnt_at, at_prio, acceptors in L.
  assert (X := filter_len_sub (fun s => (a_prio s =? p_prio p) && accepted (r_calls rd) (m_id (p_mod p)) (a_id s)) (fun s => el alive k s && (a_prio s =? p_prio p)) (m_subs (p_mod p)) (acceptors_sub k rs rd p RO Hr V Hp) ltac:(lia) s Hs).
  cbv beta in X. rewrite Ep, N.eqb_refl, andb_true_r in X. cbn [andb] in X. apply X. apply (el_addressed alive k (p_mod p) s Hs). exact Ha.
Qed.

Lemma left_pos : forall k rs rd p s, rounds_ok k rs -> In rd rs -> valid_round alive k rd -> In p (r_pend rd) -> addressed alive k (p_mod p) s -> a_prio s = p_prio p -> accepted (r_calls rd) (m_id (p_mod p)) (a_id s) = false ->
  left_count (r_calls rd) p <> 0.
Proof. intros k rs rd p s RO Hr V Hp Ha Ep Ac L. rewrite (left_zero k rs rd p RO Hr V Hp L s Ha Ep) in Ac. discriminate. Qed.

Lemma not_ok_ex : forall k rs rd, rounds_ok k rs -> In rd rs -> valid_round alive k rd -> ~ all_ok rd -> exists p s, In p (r_pend rd) /\ addressed alive k (p_mod p) s /\ a_prio s = p_prio p /\ accepted (r_calls rd) (m_id (p_mod p)) (a_id s) = false.
Proof.
  intros k rs rd RO Hr V N. destruct (forallb (fun p => left_count (r_calls rd) p =? 0) (r_pend rd)) eqn:F.
  - exfalso. apply N. intros p Hp. rewrite forallb_forall in F. apply N.eqb_eq, F, Hp.
  - assert (exists p, In p (r_pend rd) /\ left_count (r_calls rd) p <> 0) as (p & Hp & L).
    { clear -F. induction (r_pend rd) as [|p l IH]; [discriminate|]. cbn [forallb] in F. destruct (N.eqb_spec (left_count (r_calls rd) p) 0) as [E|E]; [destruct (IH F) as (q & Hq & Lq); exists q; split; [right; exact Hq|exact Lq]|exists p; split; [left; reflexivity|exact E]]. }
    exists p. destruct (existsb (fun s => el alive k s && (a_prio s =? p_prio p) && negb (accepted (r_calls rd) (m_id (p_mod p)) (a_id s))) (m_subs (p_mod p))) eqn:X.
    + apply existsb_exists in X. destruct X as (s & Hs & X). apply andb_true_iff in X. destruct X as (X & X3). apply andb_true_iff in X. destruct X as (X1 & X2). exists s. split; [exact Hp|]. split; [apply el_addressed; assumption|]. split; [apply N.eqb_eq; exact X2|apply negb_true_iff; exact X3].
    + exfalso. apply L. unfold left_count. destruct (ro_from _ _ RO rd p Hr Hp) as (_ & _ & ->). unfold cnt_at, at_prio, acceptors.
      pose proof (filter_le (fun s => el alive k s && (a_prio s =? p_prio p)) (fun s => (a_prio s =? p_prio p) && accepted (r_calls rd) (m_id (p_mod p)) (a_id s)) (m_subs (p_mod p))) as Le.
      assert (Hle : forall x, In x (m_subs (p_mod p)) -> el alive k x && (a_prio x =? p_prio p) = true -> (a_prio x =? p_prio p) && accepted (r_calls rd) (m_id (p_mod p)) (a_id x) = true).
      { intros x Hx Ex. destruct (accepted (r_calls rd) (m_id (p_mod p)) (a_id x)) eqn:Ac; [apply andb_true_iff in Ex; destruct Ex as (_ & ->); reflexivity|]. exfalso. apply not_true_iff_false in X. apply X. apply existsb_exists. exists x. split; [exact Hx|]. rewrite Ex, Ac. reflexivity. }
      specialize (Le Hle). lia.
Qed.

(** A call that refuses the event makes its round not ok. *)
Lemma refused_left : forall rs rd c m s, rounds_ok KChange rs -> In rd rs -> valid_round alive KChange rd -> In c (r_calls rd) -> call_of mods c m s -> c_res c = RErr -> ~ all_ok rd.
Proof.
  intros rs rd c m s RO Hr V Hc Cm Er A. destruct (call_pend KChange rs rd c m s RO Hr V Hc Cm) as (p & Hp & Em & Ep & Ha). subst m. pose proof (left_zero KChange rs rd p RO Hr V Hp (A p Hp) s Ha (eq_sym Ep)) as Ac. apply accepted_in in Ac. destruct Ac as (d & Hd & D1 & D2 & D3).
  destruct Cm as (_ & _ & C1 & C2). destruct V as (_ & Nd).
  assert (c = d). { assert (F : forall l, NoDup (map (fun c => (c_mod c, c_sub c)) l) -> In c l -> In d l -> c = d).
    { induction l as [|x l IH]; intros N Hx Hy; [destruct Hx|]. cbn [map] in N. inversion N as [|? ? Nx Ns]; subst. destruct Hx as [->|Hx], Hy as [->|Hy]; auto; exfalso; apply Nx; apply in_map_iff; [exists d; split; [congruence|exact Hy]|exists c; split; [congruence|exact Hx]]. }
    apply (F _ Nd); apply filter_In; split; auto; unfold is_final; [rewrite Er|rewrite D3]; reflexivity. }
  subst d. congruence.
Qed.
End P2.
