From Coq Require Import List Bool Arith Lia.
From Verif Require Import NtfBuf NtfBufSpec.
Import ListNotations.

(** * States *)
Definition s_holds (p : spc) : Prop := match p with SHave _ | SLeave _ _ => True | _ => False end.
Definition b_holds (p : bpc) : Prop := match p with BHave | BTaken _ _ => True | _ => False end.
Definition batch (p : bpc) : nat := match p with BTaken (_ :: _) _ | BWrite _ _ => 1 | _ => 0 end.
Definition some (l : list nat) : nat := match l with [] => 0 | _ => 1 end.
Record SInv (s : st) : Prop := mkSInv {
  v_snd : forall i, mutex s = Some (OSender i) <-> s_holds (snd_ s i);
  v_thr : mutex s = Some OThread <-> b_holds (bth s);
  v_stp : mutex s = Some OStop <-> stp s = PUnlock;
  v_last : match bth s with BTaken _ true | BWrite _ true | BEnd true => running s = false /\ buf s = [] | _ => True end;
  v_sleep : bth s = BSleep -> running s = true /\ buf s = [];
  v_ctx : ctx s = some (buf s) + batch (bth s);
  v_join : match stp s with PUnlock | PJoin | PDone => running s = false | PBad => False | _ => True end;
  v_done : stp s = PDone -> (exists ok, bth s = BEnd ok) /\ buf s = [] }.

Lemma upd_same f i p : upd f i p i = p.
Proof. unfold upd. rewrite Nat.eqb_refl. reflexivity. Qed.
Lemma upd_other f i p j : j <> i -> upd f i p j = f j.
Proof. unfold upd. intros H. apply Nat.eqb_neq in H. rewrite H. reflexivity. Qed.
Lemma holds_upd f i p j : s_holds (upd f i p j) <-> (j = i /\ s_holds p) \/ (j <> i /\ s_holds (f j)).
Proof.
  unfold upd. destruct (Nat.eqb_spec j i) as [->|H]; split; tauto.
Qed.
Lemma sinv_init : SInv init.
Proof.
  unfold init. constructor; cbn [mutex running buf ctx bth stp snd_ s_holds b_holds some batch]; try tauto;
    try (split; [discriminate|tauto]); try (intros; split; [discriminate|tauto]); try discriminate.
  all: split; discriminate.
Qed.
Lemma wake_holds b : b_holds (wake b) <-> b_holds b.
Proof. destruct b; reflexivity. Qed.
Lemma wake_batch b : batch (wake b) = batch b.
Proof. destruct b; reflexivity. Qed.
Lemma wake_sleep b : wake b <> BSleep.
Proof. destruct b; discriminate. Qed.
Lemma is_nil_true l : is_nil l = true -> l = [].
Proof. destruct l; [reflexivity|discriminate]. Qed.
Lemma some_app l n : some (l ++ [n]) = 1.
Proof. destruct l; reflexivity. Qed.
(** Updating of one sender. *)
Lemma snd_upd m m' f i p0 p : (forall j, m = Some (OSender j) <-> s_holds (f j)) -> f i = p0 ->
  (m' = m /\ (s_holds p0 <-> s_holds p)) \/ (m = None /\ m' = Some (OSender i) /\ s_holds p) \/
  (m = Some (OSender i) /\ m' = None /\ ~ s_holds p) ->
  forall j, m' = Some (OSender j) <-> s_holds (upd f i p j).
Proof.
  intros V E H j. rewrite holds_upd. pose proof (V j) as Vj. pose proof (V i) as Vi. rewrite E in Vi.
  destruct (Nat.eq_dec j i) as [->|Hji].
  - destruct H as [[-> H]|[(-> & -> & H)|(-> & -> & H)]]; [tauto|tauto|]. split; [discriminate|tauto].
  - destruct H as [[-> H]|[(-> & -> & H)|(-> & -> & H)]].
    + tauto.
    + split; [intros X; injection X as ->; congruence|]. intros [[X _]|[_ X]]; [congruence|]. apply Vj in X. discriminate.
    + split; [discriminate|]. intros [[X _]|[_ X]]; [congruence|]. apply Vj in X. injection X as ->. congruence.
Qed.
Lemma done_false (p : ppc) (b : bpc) (A B : Prop) : (p = PDone -> (exists ok, b = BEnd ok) /\ A) ->
  (forall ok, b <> BEnd ok) -> p = PDone -> B.
Proof. intros V H E. destruct (V E) as [[ok X] _]. exfalso. exact (H ok X). Qed.
Lemma sinv_step s e s' : SInv s -> step s e s' -> SInv s'.
Proof.
  intros [V1 V2 V3 V4 V5 V6 V7 V8] H.
  inversion H; subst; clear H; cbn [mutex running buf ctx late snd_ bth stp] in *.
  all: constructor; cbn [mutex running buf ctx late snd_ bth stp].
  all: try solve [exact V1|exact V2|exact V3|exact V4|exact V5|exact V6|exact V7|exact V8].
  all: try (match goal with
    | |- forall j, _ <-> s_holds (upd ?f ?i ?p j) =>
        match goal with Hi : f i = _ |- _ => apply (snd_upd _ _ f i _ p V1 Hi); cbn [s_holds]; tauto end
    | |- forall j, _ <-> s_holds _ =>
        intros j; specialize (V1 j) as V1j; split; [intros X; try discriminate X; try (apply V1j; exact X)|
          intros X; apply V1j in X; try discriminate X; try exact X]
    end).
  all: try solve [apply (done_false _ _ _ _ V8); discriminate].
  all: cbn [wake b_holds batch some s_holds] in *; rewrite ?wake_holds, ?wake_batch, ?some_app in *.
  all: try match goal with |- ?b = BSleep -> _ => intros X; try discriminate X; try (exfalso; exact (wake_sleep _ X)) end.
  all: try (match goal with Hi : ?f ?i = _ |- _ => pose proof (V1 i) as V1i; rewrite Hi in V1i; cbn [s_holds] in V1i end).
  all: try solve [intuition (auto; congruence)].
  all: try solve [destruct b; cbn [is_nil andb some app] in *; intuition (auto; congruence)].
  all: try solve [destruct bt as [ | | | |? []|? []|[]]; cbn [wake] in *; intuition (auto; congruence)].
  all: try solve [destruct l as [|? l]; [destruct last|]; cbn [is_nil andb some batch b_holds] in *; intuition (auto; congruence)].
  all: try solve [destruct last; cbn [is_nil andb some batch b_holds] in *; intuition (auto; congruence)].
  - intros ->. discriminate V7.
  - intros E. destruct (V8 E) as [[ok ->] _]. cbn [wake]. eauto.
  - destruct r; cbn [negb]; auto.
  - destruct last; cbn [batch]; lia.
  - intros _. split; [eauto|]. apply is_nil_true. assumption.
  - intros _. split; [eauto|reflexivity].
  - intros _. split; [eauto|reflexivity].
Qed.
Lemma sinv_runs tr s : runs tr s -> SInv s.
Proof. induction 1; [apply sinv_init|eapply sinv_step; eassumption]. Qed.

(** * What was seen *)
Fixpoint wr (tr : list ev) : list nat :=
  match tr with [] => [] | EWrite Buffered n :: t => n :: wr t | _ :: t => wr t end.
Fixpoint dw (tr : list ev) : list nat :=
  match tr with [] => [] | EWrite Direct n :: t => n :: dw t | _ :: t => dw t end.
Lemma wr_app a b : wr (a ++ b) = wr a ++ wr b.
Proof. induction a as [|[n|n h|[] n| |ok] a IH]; cbn [app wr]; rewrite ?IH; reflexivity. Qed.
Lemma dw_app a b : dw (a ++ b) = dw a ++ dw b.
Proof. induction a as [|[n|n h|[] n| |ok] a IH]; cbn [app dw]; rewrite ?IH; reflexivity. Qed.
Lemma wr_in n tr : In n (wr tr) <-> In (EWrite Buffered n) tr.
Proof. induction tr as [|[m|m h|[] m| |ok] a IH]; cbn [wr In]; try tauto; rewrite IH; intuition congruence. Qed.
Lemma dw_in n tr : In n (dw tr) <-> In (EWrite Direct n) tr.
Proof. induction tr as [|[m|m h|[] m| |ok] a IH]; cbn [dw In]; try tauto; rewrite IH; intuition congruence. Qed.
Definition pend (b : bpc) : list nat := match b with BTaken l _ | BWrite l _ => l | _ => [] end.
Definition carries (p : spc) (n : nat) : Prop :=
  match p with SIdle => False | SLock m | SHave m | SLeave m _ | SDirect m => m = n end.
Definition unput (p : spc) (n : nat) : Prop :=
  match p with SLock m | SHave m | SLeave m false | SDirect m => m = n | _ => False end.
Definition logged (tr : list ev) (s : st) (acc : list nat) : Prop :=
  match bth s with BEnd false => exists lost, acc = wr tr ++ lost | b => acc = wr tr ++ pend b ++ buf s end.
Definition earlier (a b : nat) (l : list nat) : Prop := exists x y z, l = x ++ a :: y ++ b :: z.
Record TInv (tr : list ev) (f : nat -> spc) (acc : list nat) : Prop := mkTInv {
  a_nodup : NoDup (acc ++ dw tr);
  a_in : forall n, In n (acc ++ dw tr) -> In (ECall n) tr;
  a_call : forall i n, carries (f i) n -> In (ECall n) tr /\ forall h, ~ In (ERet n h) tr;
  a_uniq : forall i j n, carries (f i) n -> carries (f j) n -> i = j;
  a_fresh : forall i n, unput (f i) n -> ~ In n (acc ++ dw tr);
  a_put : forall i n, f i = SLeave n true -> In n acc;
  a_ret : forall n h, In (ERet n h) tr -> In (ECall n) tr /\
    match h with Buffered => In n acc | Direct => In n (dw tr) | Refused => ~ In n (acc ++ dw tr) end;
  a_order : forall n1 n2, precedes (ERet n1 Buffered) (ECall n2) tr -> In n2 acc -> earlier n1 n2 acc }.

Lemma precedes_iff a b l : precedes a b l <-> exists u z, l = u ++ b :: z /\ In a u.
Proof.
  split.
  - intros (x & y & z & ->). exists (x ++ a :: y), z. split; [rewrite <- app_assoc; reflexivity|]. apply in_or_app. right. left. reflexivity.
  - intros (u & z & -> & H). apply in_split in H. destruct H as (x & y & ->). exists x, y, z. rewrite <- app_assoc. reflexivity.
Qed.
Lemma precedes_snoc a b tr c : precedes a b (tr ++ [c]) -> precedes a b tr \/ (b = c /\ In a tr).
Proof.
  rewrite !precedes_iff. intros (u & z & E & H). destruct z as [|z0 z _] using rev_ind.
  - apply app_inj_tail in E. destruct E as [-> ->]. right. split; [reflexivity|exact H].
  - left. exists u, z. split; [|exact H]. rewrite app_comm_cons, app_assoc in E. apply app_inj_tail in E. apply E.
Qed.
Lemma precedes_app a b e : forall tr, precedes a b (tr ++ e) -> ~ In b e -> precedes a b tr.
Proof.
  induction e as [|c e IH]; intros tr H Hb; [rewrite app_nil_r in H; exact H|].
  replace (tr ++ c :: e) with ((tr ++ [c]) ++ e) in H by (rewrite <- app_assoc; reflexivity).
  apply IH in H; [|intros X; apply Hb; right; exact X].
  apply precedes_snoc in H. destruct H as [H|[-> _]]; [exact H|]. exfalso. apply Hb. left. reflexivity.
Qed.
Lemma earlier_snoc a b l n : earlier a b l -> earlier a b (l ++ [n]).
Proof. intros (x & y & z & ->). exists x, y, (z ++ [n]). rewrite <- app_assoc. cbn [app]. rewrite <- app_assoc. reflexivity. Qed.
Lemma earlier_last a l n : In a l -> earlier a n (l ++ [n]).
Proof. intros H. apply in_split in H. destruct H as (x & y & ->). exists x, y, []. rewrite <- app_assoc. reflexivity. Qed.

(** Events which are not about sending. *)
Definition other (e : ev) : Prop := match e with EWrite Buffered _ | EStopCall | EStop _ => True | _ => False end.
Lemma other_dw e : Forall other e -> dw e = [].
Proof. induction 1 as [|[n|n h|[] n| |ok] l H _ IH]; cbn [dw other] in *; try tauto. Qed.
Lemma other_in e tr x : Forall other e -> In x (tr ++ e) -> ~ other x -> In x tr.
Proof.
  intros H Hx Ho. apply in_app_or in Hx. destruct Hx as [Hx|Hx]; [exact Hx|]. rewrite Forall_forall in H. elim Ho. apply H. exact Hx.
Qed.
Lemma tinv_other tr e f acc : TInv tr f acc -> Forall other e -> TInv (tr ++ e) f acc.
Proof.
  intros [A1 A2 A3 A4 A5 A6 A7 A8] H.
  assert (D : dw (tr ++ e) = dw tr) by (rewrite dw_app, (other_dw e H), app_nil_r; reflexivity).
  constructor; rewrite ?D.
  - exact A1.
  - intros n Hn. apply in_or_app. left. apply A2. exact Hn.
  - intros i n Hc. destruct (A3 i n Hc) as [B1 B2]. split; [apply in_or_app; left; exact B1|].
    intros h X. apply (B2 h). apply (other_in e); [exact H|exact X|]. cbn. tauto.
  - exact A4.
  - exact A5.
  - exact A6.
  - intros n h X. apply (other_in e) in X; [|exact H|cbn; tauto]. destruct (A7 n h X) as [B1 B2].
    split; [apply in_or_app; left; exact B1|exact B2].
  - intros n1 n2 X Hn. apply A8; [|exact Hn]. apply (precedes_app _ _ e); [exact X|].
    intros Y. rewrite Forall_forall in H. apply H in Y. exact Y.
Qed.
Lemma upd_case f i p j : (j = i /\ upd f i p j = p) \/ (j <> i /\ upd f i p j = f j).
Proof. destruct (Nat.eq_dec j i) as [->|H]; [left; split; [reflexivity|apply upd_same]|right; split; [exact H|apply upd_other; exact H]]. Qed.
Lemma unput_carries p n : unput p n -> carries p n.
Proof. destruct p as [| | |m []|]; cbn; tauto. Qed.
(** A new call. *)
Lemma tinv_call tr f acc i n : TInv tr f acc -> f i = SIdle -> ~ In (ECall n) tr -> TInv (tr ++ [ECall n]) (upd f i (SLock n)) acc.
Proof.
  intros [A1 A2 A3 A4 A5 A6 A7 A8] Hi Hn.
  assert (D : dw (tr ++ [ECall n]) = dw tr) by (rewrite dw_app; apply app_nil_r).
  assert (NR : forall h, ~ In (ERet n h) tr) by (intros h X; apply A7 in X; tauto).
  constructor; rewrite ?D.
  - exact A1.
  - intros m Hm. apply in_or_app. left. apply A2. exact Hm.
  - intros j m Hc. destruct (upd_case f i (SLock n) j) as [[-> E]|[Hj E]]; rewrite E in Hc.
    + cbn in Hc. subst m. split; [apply in_or_app; right; left; reflexivity|].
      intros h X. apply in_app_or in X. destruct X as [X|[X|[]]]; [exact (NR h X)|discriminate].
    + destruct (A3 j m Hc) as [B1 B2]. split; [apply in_or_app; left; exact B1|].
      intros h X. apply in_app_or in X. destruct X as [X|[X|[]]]; [exact (B2 h X)|discriminate].
  - intros j k m Hj Hk. destruct (upd_case f i (SLock n) j) as [[-> E]|[Hji E]]; rewrite E in Hj;
      destruct (upd_case f i (SLock n) k) as [[-> E2]|[Hki E2]]; rewrite E2 in Hk.
    + reflexivity.
    + cbn in Hj. subst m. exfalso. apply Hn. apply (A3 k n Hk).
    + cbn in Hk. subst m. exfalso. apply Hn. apply (A3 j n Hj).
    + apply (A4 j k m); assumption.
  - intros j m Hc. destruct (upd_case f i (SLock n) j) as [[-> E]|[Hj E]]; rewrite E in Hc.
    + cbn in Hc. subst m. intros X. apply Hn. apply A2. exact X.
    + apply (A5 j m Hc).
  - intros j m Hc. destruct (upd_case f i (SLock n) j) as [[-> E]|[Hj E]]; rewrite E in Hc; [discriminate|apply (A6 j m Hc)].
  - intros m h X. apply in_app_or in X. destruct X as [X|[X|[]]]; [|discriminate]. destruct (A7 m h X) as [B1 B2].
    split; [apply in_or_app; left; exact B1|exact B2].
  - intros n1 n2 X Hm. apply precedes_snoc in X. destruct X as [X|[X _]]; [apply A8; assumption|].
    injection X as ->. exfalso. apply Hn. apply A2. apply in_or_app. left. exact Hm.
Qed.
(** A sender goes on. *)
Lemma tinv_move tr f acc i p n : TInv tr f acc -> unput (f i) n -> unput p n -> TInv tr (upd f i p) acc.
Proof.
  intros [A1 A2 A3 A4 A5 A6 A7 A8] Hi Hp.
  assert (C : forall j m, carries (upd f i p j) m -> carries (f j) m).
  { intros j m Hc. destruct (upd_case f i p j) as [[-> E]|[Hj E]]; rewrite E in Hc; [|exact Hc].
    assert (m = n) by (destruct p as [| | |k []|]; cbn in *; try contradiction; congruence). subst m. apply unput_carries. exact Hi. }
  constructor; try assumption.
  - intros j m Hc. apply (A3 j m). apply C. exact Hc.
  - intros j k m Hj Hk. apply (A4 j k m); apply C; assumption.
  - intros j m Hc. destruct (upd_case f i p j) as [[-> E]|[Hj E]]; rewrite E in Hc.
    + assert (m = n) by (destruct p as [| | |k []|]; cbn in *; try contradiction; congruence). subst m. apply (A5 i n Hi).
    + apply (A5 j m Hc).
  - intros j m Hc. destruct (upd_case f i p j) as [[-> E]|[Hj E]]; rewrite E in Hc; [|apply (A6 j m Hc)].
    subst p. destruct Hp.
Qed.
Lemma in_mid {A} (x : A) a b n : In x ((a ++ [n]) ++ b) <-> In x (a ++ b) \/ x = n.
Proof. rewrite !in_app_iff. cbn [In]. intuition congruence. Qed.
Lemma nodup_mid {A} (a b : list A) n : NoDup (a ++ b) -> ~ In n (a ++ b) -> NoDup ((a ++ [n]) ++ b).
Proof.
  intros H Hn. rewrite <- app_assoc. cbn [app]. apply NoDup_Add with (a := n) (l := a ++ b); [apply Add_app|split; assumption].
Qed.
Lemma tinv_put tr f acc i n : TInv tr f acc -> f i = SHave n -> TInv tr (upd f i (SLeave n true)) (acc ++ [n]).
Proof.
  intros [A1 A2 A3 A4 A5 A6 A7 A8] Hi.
  assert (Hn : ~ In n (acc ++ dw tr)) by (apply (A5 i n); rewrite Hi; reflexivity).
  assert (Hc : In (ECall n) tr /\ forall h, ~ In (ERet n h) tr) by (apply (A3 i n); rewrite Hi; reflexivity).
  assert (C : forall j m, carries (upd f i (SLeave n true) j) m -> carries (f j) m).
  { intros j m Hm. destruct (upd_case f i (SLeave n true) j) as [[-> E]|[Hj E]]; rewrite E in Hm; [|exact Hm].
    cbn in Hm. subst m. rewrite Hi. reflexivity. }
  constructor.
  - apply nodup_mid; assumption.
  - intros m Hm. apply in_mid in Hm. destruct Hm as [Hm| ->]; [apply A2; exact Hm|apply Hc].
  - intros j m Hm. apply (A3 j m). apply C. exact Hm.
  - intros j k m Hj Hk. apply (A4 j k m); apply C; assumption.
  - intros j m Hm. destruct (upd_case f i (SLeave n true) j) as [[-> E]|[Hj E]]; rewrite E in Hm; [destruct Hm|].
    intros X. apply in_mid in X. destruct X as [X| ->]; [exact (A5 j m Hm X)|]. apply Hj.
    apply (A4 j i n); [apply unput_carries; exact Hm|rewrite Hi; reflexivity].
  - intros j m Hm. destruct (upd_case f i (SLeave n true) j) as [[-> E]|[Hj E]]; rewrite E in Hm.
    + injection Hm as ->. apply in_or_app. right. left. reflexivity.
    + apply in_or_app. left. apply (A6 j m Hm).
  - intros m h X. destruct (A7 m h X) as [B1 B2]. split; [exact B1|]. destruct h.
    + exact B2.
    + apply in_or_app. left. exact B2.
    + intros Y. apply in_mid in Y. destruct Y as [Y| ->]; [exact (B2 Y)|]. exact (proj2 Hc Refused X).
  - intros n1 n2 X Hm. apply in_app_or in Hm. destruct Hm as [Hm|[<-|[]]]; [apply earlier_snoc; apply A8; assumption|].
    apply earlier_last. apply precedes_iff in X. destruct X as (u & z & -> & X).
    apply (A7 n1 Buffered). apply in_or_app. left. exact X.
Qed.
(** A sender returns. *)
Lemma tinv_ret tr f acc i n h : TInv tr f acc -> carries (f i) n ->
  match h with Buffered => In n acc | Direct => False | Refused => ~ In n (acc ++ dw tr) end ->
  TInv (tr ++ [ERet n h]) (upd f i SIdle) acc.
Proof.
  intros [A1 A2 A3 A4 A5 A6 A7 A8] Hi Hh.
  assert (D : dw (tr ++ [ERet n h]) = dw tr) by (rewrite dw_app; apply app_nil_r).
  assert (C : forall j m, carries (upd f i SIdle j) m -> carries (f j) m /\ j <> i).
  { intros j m Hm. destruct (upd_case f i SIdle j) as [[-> E]|[Hj E]]; rewrite E in Hm; [destruct Hm|]. split; assumption. }
  constructor; rewrite ?D.
  - exact A1.
  - intros m Hm. apply in_or_app. left. apply A2. exact Hm.
  - intros j m Hm. apply C in Hm. destruct Hm as [Hm Hj]. destruct (A3 j m Hm) as [B1 B2].
    split; [apply in_or_app; left; exact B1|]. intros k X. apply in_app_or in X. destruct X as [X|[X|[]]]; [exact (B2 k X)|].
    injection X as -> ->. apply Hj. exact (A4 j i m Hm Hi).
  - intros j k m Hj Hk. apply C in Hj, Hk. apply (A4 j k m); [apply Hj|apply Hk].
  - intros j m Hm. destruct (upd_case f i SIdle j) as [[-> E]|[Hj E]]; rewrite E in Hm; [destruct Hm|]. apply (A5 j m Hm).
  - intros j m Hm. destruct (upd_case f i SIdle j) as [[-> E]|[Hj E]]; rewrite E in Hm; [discriminate|]. apply (A6 j m Hm).
  - intros m k X. apply in_app_or in X. destruct X as [X|[X|[]]].
    + destruct (A7 m k X) as [B1 B2]. split; [apply in_or_app; left; exact B1|exact B2].
    + injection X as -> ->. split; [apply in_or_app; left; apply (A3 i m Hi)|]. destruct k; tauto.
  - intros n1 n2 X Hm. apply precedes_app in X; [apply A8; assumption|]. intros [Y|[]]. discriminate.
Qed.
Lemma tinv_direct tr f acc i n : TInv tr f acc -> f i = SDirect n ->
  TInv (tr ++ [EWrite Direct n; ERet n Direct]) (upd f i SIdle) acc.
Proof.
  intros [A1 A2 A3 A4 A5 A6 A7 A8] Hi.
  assert (Hn : ~ In n (acc ++ dw tr)) by (apply (A5 i n); rewrite Hi; reflexivity).
  assert (Hc : In (ECall n) tr /\ forall h, ~ In (ERet n h) tr) by (apply (A3 i n); rewrite Hi; reflexivity).
  assert (D : dw (tr ++ [EWrite Direct n; ERet n Direct]) = dw tr ++ [n]) by (rewrite dw_app; reflexivity).
  assert (L : forall m, In m (acc ++ dw tr ++ [n]) <-> In m (acc ++ dw tr) \/ m = n).
  { intros m. rewrite !in_app_iff. cbn [In]. intuition congruence. }
  constructor; rewrite ?D.
  - rewrite app_assoc. apply NoDup_Add with (a := n) (l := acc ++ dw tr); [|split; assumption].
    pose proof (Add_app n (acc ++ dw tr) []) as X. rewrite app_nil_r in X. exact X.
  - intros m Hm. apply in_or_app. left. apply L in Hm. destruct Hm as [Hm| ->]; [apply A2; exact Hm|apply Hc].
  - intros j m Hm. destruct (upd_case f i SIdle j) as [[-> E]|[Hj E]]; rewrite E in Hm; [destruct Hm|].
    destruct (A3 j m Hm) as [B1 B2]. split; [apply in_or_app; left; exact B1|].
    intros h X. apply in_app_or in X. destruct X as [X|[X|[X|[]]]]; [exact (B2 h X)|discriminate|].
    injection X as E1 E2. subst h m. apply Hj. apply (A4 j i n Hm). rewrite Hi. reflexivity.
  - intros j k m Hj Hk. destruct (upd_case f i SIdle j) as [[-> E]|[Hji E]]; rewrite E in Hj; [destruct Hj|].
    destruct (upd_case f i SIdle k) as [[-> E2]|[Hki E2]]; rewrite E2 in Hk; [destruct Hk|]. apply (A4 j k m); assumption.
  - intros j m Hm. destruct (upd_case f i SIdle j) as [[-> E]|[Hj E]]; rewrite E in Hm; [destruct Hm|].
    intros X. apply L in X. destruct X as [X| ->]; [exact (A5 j m Hm X)|]. apply Hj.
    apply (A4 j i n); [apply unput_carries; exact Hm|rewrite Hi; reflexivity].
  - intros j m Hm. destruct (upd_case f i SIdle j) as [[-> E]|[Hj E]]; rewrite E in Hm; [discriminate|]. apply (A6 j m Hm).
  - intros m k X. apply in_app_or in X. destruct X as [X|[X|[X|[]]]]; [|discriminate|].
    + destruct (A7 m k X) as [B1 B2]. split; [apply in_or_app; left; exact B1|]. destruct k.
      * apply in_or_app. left. exact B2.
      * exact B2.
      * intros Y. apply L in Y. destruct Y as [Y| ->]; [exact (B2 Y)|]. exact (proj2 Hc Refused X).
    + injection X as E1 E2. subst k m. split; [apply in_or_app; left; apply Hc|]. apply in_or_app. right. left. reflexivity.
  - intros n1 n2 X Hm. apply precedes_app in X; [apply A8; assumption|]. intros [Y|[Y|[]]]; discriminate.
Qed.

(** * Runs *)
Lemma logged_same tr e s s' acc : bth s' = bth s -> buf s' = buf s -> wr e = [] -> logged tr s acc -> logged (tr ++ e) s' acc.
Proof. unfold logged. intros -> -> E. rewrite wr_app, E, app_nil_r. tauto. Qed.
Lemma logged_put tr s s' acc n : bth s' = wake (bth s) -> buf s' = buf s ++ [n] -> logged tr s acc -> logged tr s' (acc ++ [n]).
Proof.
  unfold logged. intros -> ->. destruct (bth s) as [ | | | |l last|l last|[]]; cbn [wake pend app].
  1-7: intros ->; rewrite <- ?app_assoc; reflexivity.
  intros [lost ->]. exists (lost ++ [n]). rewrite <- app_assoc. reflexivity.
Qed.
Lemma inv_runs tr s : runs tr s -> exists acc, TInv tr (snd_ s) acc /\ logged tr s acc.
Proof.
  induction 1 as [|tr s e s' H [acc [T L]] St Hf].
  { exists []. split; [|reflexivity].
    constructor; cbn; try tauto; try discriminate; try constructor. }
  pose proof (sinv_runs tr s H) as V.
  inversion St; subst; cbn [snd_] in *; rewrite ?app_nil_r.
  - (* s_call *) exists acc. split; [|revert L; apply logged_same; reflexivity].
    apply tinv_call; [exact T|assumption|]. apply Hf. left. reflexivity.
  - exists acc. split; [|revert L; apply logged_same; reflexivity].
    assert (U : unput (f i) n) by (match goal with X : f i = _ |- _ => rewrite X; reflexivity end).
    apply tinv_ret; [exact T|apply unput_carries; exact U|]. apply (a_fresh _ _ _ T i n U).
  - exists acc. split; [|exact L]. apply (tinv_move _ _ _ i _ n T); [match goal with X : f i = _ |- _ => rewrite X end|]; reflexivity.
  - exists (acc ++ [n]). split; [apply tinv_put; assumption|]. revert L. apply logged_put; reflexivity.
  - exists (acc ++ [n]). split; [apply tinv_put; assumption|]. revert L. apply logged_put; reflexivity.
  - exists acc. split; [apply (tinv_move _ _ _ i _ n T); [match goal with X : f i = _ |- _ => rewrite X end|]; reflexivity|].
    revert L. unfold logged. cbn [bth buf]. destruct bt as [ | | | |l last|l last|[]]; cbn [wake pend]; tauto.
  - exists acc. split; [|revert L; apply logged_same; reflexivity]. match goal with X : f i = _ |- _ => rename X into Hi end.
    destruct ok.
    + apply tinv_ret; [exact T|rewrite Hi; reflexivity|]. apply (a_put _ _ _ T i n Hi).
    + apply tinv_ret; [exact T|rewrite Hi; reflexivity|]. apply (a_fresh _ _ _ T i n). rewrite Hi. reflexivity.
  - exists acc. split; [|exact L]. apply (tinv_move _ _ _ i _ n T); [match goal with X : f i = _ |- _ => rewrite X end|]; reflexivity.
  - exists acc. split; [|revert L; apply logged_same; reflexivity]. apply tinv_direct; assumption.
  - exists acc. split; [|revert L; apply logged_same; reflexivity].
    assert (U : unput (f i) n) by (match goal with X : f i = _ |- _ => rewrite X; reflexivity end).
    apply tinv_ret; [exact T|apply unput_carries; exact U|]. apply (a_fresh _ _ _ T i n U).
  (* others *)
  - exists acc. split; [exact T|exact L].
  - exists acc. split; [exact T|exact L].
  - exists acc. split; [exact T|]. unfold logged in *. cbn [bth buf pend app] in *. exists b. exact L.
  - exists acc. split; [exact T|exact L].
  - exists acc. split; [exact T|exact L].
  - exists acc. split; [exact T|exact L].
  - exists acc. split; [exact T|]. unfold logged in *. cbn [bth buf pend app] in *. exists b. exact L.
  - exists acc. split; [exact T|]. unfold logged in *. cbn [bth buf pend app] in *. rewrite app_nil_r. exact L.
  - exists acc. split; [exact T|]. unfold logged in *. cbn [bth buf pend app] in *.
    destruct l as [|x l]; [destruct last|]; cbn [is_nil pend app] in *; exact L.
  - exists acc. split; [apply tinv_other; [exact T|repeat constructor]|]. unfold logged in *. cbn [bth buf pend app] in *.
    rewrite wr_app. cbn [wr]. rewrite <- app_assoc. exact L.
  - exists acc. split; [exact T|]. unfold logged in *. cbn [bth buf pend app] in *. exists (n :: l ++ b). exact L.
  - exists acc. split; [exact T|]. unfold logged in *. cbn [bth buf pend app] in *. destruct last; exact L.
  - exists acc. split; [apply tinv_other; [exact T|repeat constructor]|]. revert L; apply logged_same; reflexivity.
  - exists acc. split; [apply tinv_other; [exact T|repeat constructor]|]. revert L; apply logged_same; reflexivity.
  - exists acc. split; [exact T|]. revert L. unfold logged. cbn [bth buf]. destruct bt as [ | | | |l last|l last|[]]; cbn [wake pend]; tauto.
  - exists acc. split; [exact T|exact L].
  - exists acc. split; [apply tinv_other; [exact T|repeat constructor]|]. revert L; apply logged_same; reflexivity.
  - exists acc. split; [exact T|exact L].
  - exists acc. split; [apply tinv_other; [exact T|repeat constructor]|]. revert L; apply logged_same; reflexivity.
  - exists acc. split; [apply tinv_other; [exact T|repeat constructor]|]. unfold logged in *. cbn [bth] in *.
    rewrite wr_app, app_nil_r. exact L.
Qed.
