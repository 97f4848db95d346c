(** Proofs about notifying subscribers. *)
From Coq Require Import List Bool Arith NArith Lia.
From Verif Require Import Change ChangeSpec.
Import ListNotations.
Local Open Scope N_scope.

Section Proofs.
Variable alive : asub -> bool.

Definition el (k : kind) (s : asub) : bool := alive s && negb (a_susp s) && negb (a_filt s) && event_valid k s.
Definition at_prio (k : kind) (pr : N) (subs : list asub) : list asub := filter (fun s => el k s && (a_prio s =? pr)) subs.
Definition cnt_at (k : kind) (pr : N) (subs : list asub) : N := N.of_nat (length (at_prio k pr subs)).

Lemma el_addressed : forall k m s, In s (m_subs m) -> (el k s = true <-> addressed alive k m s).
Proof.
  intros k m s Hin. unfold el, addressed, event_valid. rewrite !andb_true_iff, !negb_true_iff. split.
  - intros (((A & B) & C) & D). repeat split; auto. destruct k; auto; right; apply negb_true_iff; exact D.
  - intros (_ & A & B & C & D). repeat split; auto. destruct k; auto; destruct D as [D|D]; try discriminate; rewrite D; reflexivity.
Qed.

Lemma cnt_app : forall k pr l1 l2, cnt_at k pr (l1 ++ l2) = cnt_at k pr l1 + cnt_at k pr l2.
Proof. intros. unfold cnt_at, at_prio. rewrite filter_app, app_length. lia. Qed.

Lemma cnt_zero : forall k pr l, (forall s, In s l -> el k s = true -> a_prio s <> pr) -> cnt_at k pr l = 0.
Proof.
  intros k pr l H. unfold cnt_at, at_prio. induction l as [|s l IH]; [reflexivity|]. cbn [filter].
  destruct (el k s && (a_prio s =? pr)) eqn:E; [|apply IH; intros x Hx; apply H; right; exact Hx].
  apply andb_true_iff in E. destruct E as (E1 & E2). apply N.eqb_eq in E2. destruct (H s (or_introl eq_refl) E1 E2).
Qed.

Lemma cnt_pos : forall k pr l s, In s l -> el k s = true -> a_prio s = pr -> cnt_at k pr l <> 0.
Proof.
  intros k pr l s Hin E P. unfold cnt_at, at_prio. assert (X : In s (filter (fun s => el k s && (a_prio s =? pr)) l)) by (apply filter_In; split; [exact Hin|rewrite E, P, N.eqb_refl; reflexivity]).
  destruct (filter (fun s => el k s && (a_prio s =? pr)) l); [destruct X|cbn [length]; lia].
Qed.

(** ** Scanning of the table *)
Definition has_inv (k : kind) (seen : list asub) (acc : bool * N) : Prop :=
  (fst acc = existsb (el k) seen) /\ (forall s, In s seen -> el k s = true -> a_prio s <= snd acc) /\ (snd acc = 0 \/ exists s, In s seen /\ a_prio s = snd acc).

Lemma has_spec : forall k subs, has_inv k subs (has_subscription alive k subs).
Proof.
  intros k subs. unfold has_subscription.
  assert (G : forall l seen acc, has_inv k seen acc -> has_inv k (seen ++ l) (fold_left (fun (acc : bool * N) s =>
    if negb (alive s) then acc else if a_susp s then acc else if a_filt s then acc
    else if event_valid k s then (true, if snd acc <? a_prio s then a_prio s else snd acc) else acc) l acc)).
  { induction l as [|s l IH]; intros seen acc H; cbn [fold_left]; [rewrite app_nil_r; exact H|].
    replace (seen ++ s :: l) with ((seen ++ [s]) ++ l) by (rewrite <- app_assoc; reflexivity). apply IH. destruct H as (H1 & H2 & H3).
    assert (Sk : el k s = false -> has_inv k (seen ++ [s]) acc).
    { intros E. split; [|split].
      - rewrite existsb_app. cbn [existsb]. rewrite E, H1, !orb_false_r. reflexivity.
      - intros x Hx Ex. apply in_app_or in Hx. destruct Hx as [Hx|[<-|[]]]; [apply H2; assumption|congruence].
      - destruct H3 as [H3|(x & Hx & Px)]; [left; exact H3|right; exists x; split; [apply in_or_app; left; exact Hx|exact Px]]. }
    destruct (alive s) eqn:A; cbn [negb]; [|apply Sk; unfold el; rewrite A; reflexivity].
    destruct (a_susp s) eqn:B; [apply Sk; unfold el; rewrite A, B; reflexivity|].
    destruct (a_filt s) eqn:C; [apply Sk; unfold el; rewrite A, B, C; reflexivity|].
    destruct (event_valid k s) eqn:D; [|apply Sk; unfold el; rewrite A, B, C, D; reflexivity].
    assert (E : el k s = true) by (unfold el; rewrite A, B, C, D; reflexivity).
    split; [|split]; cbn [fst snd].
    - rewrite existsb_app. cbn [existsb]. rewrite E, orb_true_r. reflexivity.
    - intros x Hx Ex. apply in_app_or in Hx. destruct (N.ltb_spec (snd acc) (a_prio s)); destruct Hx as [Hx|[<-|[]]]; try specialize (H2 x Hx Ex); lia.
    - right. destruct (N.ltb_spec (snd acc) (a_prio s)).
      + exists s. split; [apply in_or_app; right; left; reflexivity|reflexivity].
      + destruct H3 as [H3|(x & Hx & Px)].
        * exists s. split; [apply in_or_app; right; left; reflexivity|lia].
        * exists x. split; [apply in_or_app; left; exact Hx|exact Px]. }
  apply (G subs [] (false, 0)). split; [reflexivity|]. split; [intros s []|left; reflexivity].
Qed.

Definition next_inv (k : kind) (lst next : N) (seen : list asub) (acc : N * N) : Prop :=
  (acc = (next, 0) /\ forall s, In s seen -> el k s = true -> lst <= a_prio s) \/
  (snd acc <> 0 /\ fst acc < lst /\ snd acc = cnt_at k (fst acc) seen /\ forall s, In s seen -> el k s = true -> a_prio s < lst -> a_prio s <= fst acc).

Lemma next_spec : forall k lst next subs, next_inv k lst next subs (next_subscription alive k lst next subs).
Proof.
  intros k lst next subs. unfold next_subscription.
  assert (G : forall l seen acc, next_inv k lst next seen acc -> next_inv k lst next (seen ++ l) (fold_left (fun (acc : N * N) s =>
    if negb (alive s) then acc else if a_susp s then acc else if a_filt s then acc
    else if event_valid k s && (a_prio s <? lst) then
      if negb (snd acc =? 0) then
        if fst acc <? a_prio s then (a_prio s, 1) else if a_prio s =? fst acc then (fst acc, snd acc + 1) else acc
      else (a_prio s, 1)
    else acc) l acc)).
  { induction l as [|s l IH]; intros seen acc H; cbn [fold_left]; [rewrite app_nil_r; exact H|].
    replace (seen ++ s :: l) with ((seen ++ [s]) ++ l) by (rewrite <- app_assoc; reflexivity). apply IH.
    assert (Sk : el k s = false \/ lst <= a_prio s -> next_inv k lst next (seen ++ [s]) acc).
    { intros E. destruct H as [(-> & H)|(H1 & H2 & H3 & H4)].
      - left. split; [reflexivity|]. intros x Hx Ex. apply in_app_or in Hx. destruct Hx as [Hx|[<-|[]]]; [apply H; assumption|]. destruct E as [E|E]; [congruence|exact E].
      - right. split; [exact H1|]. split; [exact H2|]. split.
        + rewrite cnt_app, <- H3. rewrite (cnt_zero k (fst acc) [s]); [lia|]. intros x [<-|[]] Ex Px. destruct E as [E|E]; [congruence|lia].
        + intros x Hx Ex Px. apply in_app_or in Hx. destruct Hx as [Hx|[<-|[]]]; [apply H4; assumption|]. destruct E as [E|E]; [congruence|lia]. }
    destruct (alive s) eqn:A; cbn [negb]; [|apply Sk; left; unfold el; rewrite A; reflexivity].
    destruct (a_susp s) eqn:B; [apply Sk; left; unfold el; rewrite A, B; reflexivity|].
    destruct (a_filt s) eqn:C; [apply Sk; left; unfold el; rewrite A, B, C; reflexivity|].
    destruct (event_valid k s) eqn:D; cbn [andb]; [|apply Sk; left; unfold el; rewrite A, B, C, D; reflexivity].
    assert (E : el k s = true) by (unfold el; rewrite A, B, C, D; reflexivity).
    destruct (N.ltb_spec (a_prio s) lst) as [L|L]; [|apply Sk; right; exact L].
    assert (One : forall pr, cnt_at k pr [s] = if a_prio s =? pr then 1 else 0).
    { intros pr. unfold cnt_at, at_prio. cbn [filter]. rewrite E. cbn [andb]. destruct (a_prio s =? pr); reflexivity. }
    destruct H as [(-> & H)|(H1 & H2 & H3 & H4)]; cbn [fst snd].
    - cbn [N.eqb negb]. right. cbn [fst snd]. split; [lia|]. split; [exact L|]. split.
      + rewrite cnt_app, One, N.eqb_refl, (cnt_zero k (a_prio s) seen); [lia|]. intros x Hx Ex Px. specialize (H x Hx Ex). lia.
      + intros x Hx Ex Px. apply in_app_or in Hx. destruct Hx as [Hx|[<-|[]]]; [specialize (H x Hx Ex); lia|lia].
    - destruct (N.eqb_spec (snd acc) 0) as [Z|_]; [contradiction|]. cbn [negb]. right.
      destruct (N.ltb_spec (fst acc) (a_prio s)) as [L2|L2]; cbn [fst snd].
      + split; [lia|]. split; [exact L|]. split.
        * rewrite cnt_app, One, N.eqb_refl, (cnt_zero k (a_prio s) seen); [lia|]. intros x Hx Ex Px. specialize (H4 x Hx Ex). lia.
        * intros x Hx Ex Px. apply in_app_or in Hx. destruct Hx as [Hx|[<-|[]]]; [specialize (H4 x Hx Ex Px); lia|lia].
      + destruct (N.eqb_spec (a_prio s) (fst acc)) as [Q|Q]; cbn [fst snd].
        * split; [lia|]. split; [exact H2|]. split; [rewrite cnt_app, One, <- H3, (proj2 (N.eqb_eq _ _) Q); reflexivity|].
          intros x Hx Ex Px. apply in_app_or in Hx. destruct Hx as [Hx|[<-|[]]]; [apply H4; assumption|lia].
        * split; [exact H1|]. split; [exact H2|]. split; [rewrite cnt_app, One, <- H3; destruct (N.eqb_spec (a_prio s) (fst acc)); [contradiction|lia]|].
          intros x Hx Ex Px. apply in_app_or in Hx. destruct Hx as [Hx|[<-|[]]]; [apply H4; assumption|lia]. }
  apply (G subs [] (next, 0)). left. split; [reflexivity|]. intros s [].
Qed.

Lemma evpipe_spec : forall k pr subs, notify_evpipe alive k pr subs = cnt_at k pr subs.
Proof.
  intros k pr subs. unfold notify_evpipe.
  assert (G : forall l a, fold_left (fun (acc : N) s => if negb (event_valid k s) then acc else if a_susp s then acc else if a_filt s then acc
    else if (a_prio s =? pr) && alive s then acc + 1 else acc) l a = a + cnt_at k pr l).
  { induction l as [|s l IH]; intros a; cbn [fold_left]; [unfold cnt_at; cbn; lia|]. rewrite IH. change (s :: l) with ([s] ++ l). rewrite cnt_app.
    assert (One : cnt_at k pr [s] = if el k s && (a_prio s =? pr) then 1 else 0) by (unfold cnt_at, at_prio; cbn [filter]; destruct (el k s && (a_prio s =? pr)); reflexivity).
    rewrite One. unfold el. destruct (event_valid k s), (a_susp s), (a_filt s), (a_prio s =? pr), (alive s); cbn [negb andb]; lia. }
  rewrite G. lia.
Qed.

(** ** Module priorities *)
Definition undone (cur : N) (n : nsub) : Prop := cur <= n_mprio n /\ n_mprio n = m_prio (n_mod n).
Definition prio_inv (cur : N) (ns : list nsub) : Prop :=
  (forall n, In n ns -> n_mprio n < cur \/ undone cur n) /\
  (forall a b, In a ns -> In b ns -> n_mprio a < cur -> n_mprio b < cur -> (n_mprio a <= n_mprio b <-> m_prio (n_mod a) <= m_prio (n_mod b))) /\
  (forall a b, In a ns -> In b ns -> n_mprio a < cur -> undone cur b -> m_prio (n_mod a) < m_prio (n_mod b)).

Lemma min_spec : forall cur ns m0, let mn := fold_left (fun mn n => if n_mprio n <? cur then mn else if n_mprio n <? mn then n_mprio n else mn) ns m0 in
  mn <= m0 /\ (forall n, In n ns -> cur <= n_mprio n -> mn <= n_mprio n) /\ (mn = m0 \/ exists n, In n ns /\ cur <= n_mprio n /\ n_mprio n = mn).
Proof.
  intros cur ns. induction ns as [|x ns IH]; intros m0; cbn [fold_left]; [split; [lia|split; [intros n []|left; reflexivity]]|].
  destruct (N.ltb_spec (n_mprio x) cur) as [L|L].
  - specialize (IH m0). cbv zeta in IH. destruct IH as (A & B & C). split; [exact A|]. split.
    + intros n [<-|Hn] Hc; [lia|apply B; assumption].
    + destruct C as [C|(n & Hn & Hc & Hm)]; [left; exact C|right; exists n; split; [right; exact Hn|auto]].
  - destruct (N.ltb_spec (n_mprio x) m0) as [L2|L2].
    + specialize (IH (n_mprio x)). cbv zeta in IH. destruct IH as (A & B & C). split; [lia|]. split.
      * intros n [<-|Hn] Hc; [exact A|apply B; assumption].
      * right. destruct C as [C|(n & Hn & Hc & Hm)]; [exists x; split; [left; reflexivity|auto]|exists n; split; [right; exact Hn|auto]].
    + specialize (IH m0). cbv zeta in IH. destruct IH as (A & B & C). split; [exact A|]. split.
      * intros n [<-|Hn] Hc; [lia|apply B; assumption].
      * destruct C as [C|(n & Hn & Hc & Hm)]; [left; exact C|right; exists n; split; [right; exact Hn|auto]].
Qed.

Definition left_of (cur : N) (ns : list nsub) : nat := length (filter (fun n => cur <=? n_mprio n) ns).

Lemma prio_loop : forall fuel cur ns, prio_inv cur ns -> (forall n, In n ns -> m_prio (n_mod n) <= u32_max) -> (1 <= left_of cur ns)%nat -> (left_of cur ns <= fuel)%nat ->
  let r := set_mod_prio_loop fuel cur (N.of_nat (left_of cur ns)) ns in
  map n_mod (fst r) = map n_mod ns /\ map n_cur (fst r) = map n_cur ns /\ map n_err (fst r) = map n_err ns /\ 1 <= snd r /\ snd r <= cur + N.of_nat fuel /\
  (forall n, In n (fst r) -> n_mprio n < snd r) /\
  (forall a b, In a (fst r) -> In b (fst r) -> (n_mprio a <= n_mprio b <-> m_prio (n_mod a) <= m_prio (n_mod b))).
Proof.
  induction fuel as [|fuel IH]; intros cur ns (I1 & I2 & I3) HM Hl Hf; [lia|]. cbn [set_mod_prio_loop].
  pose proof (min_spec cur ns u32_max) as Hm. cbv zeta in Hm. remember (fold_left (fun mn n => if n_mprio n <? cur then mn else if n_mprio n <? mn then n_mprio n else mn) ns u32_max) as mn eqn:Emn. clear Emn. destruct Hm as (Hm1 & Hm2 & Hm3).
  assert (Ex : exists n, In n ns /\ undone cur n /\ n_mprio n = mn).
  { unfold left_of in Hl. destruct (filter (fun n => cur <=? n_mprio n) ns) as [|x t] eqn:F; [cbn in Hl; lia|]. assert (Hx : In x (x :: t)) by (left; reflexivity). rewrite <- F in Hx. apply filter_In in Hx. destruct Hx as (Hx & Cx). apply N.leb_le in Cx.
    destruct Hm3 as [Hm3|(n & Hn & Hc & Hq)].
    - exists x. destruct (I1 x Hx) as [X|X]; [lia|]. split; [exact Hx|]. split; [exact X|]. destruct X as (_ & X). pose proof (HM x Hx). specialize (Hm2 x Hx Cx). lia.
    - exists n. destruct (I1 n Hn) as [X|X]; [lia|]. auto. }
  destruct Ex as (n0 & Hn0 & U0 & E0).
  set (ns' := map (fun n => if n_mprio n =? mn then set_mprio cur n else n) ns).
  assert (Hcm : cur <= mn) by (destruct U0; lia).
  assert (Hin : forall n', In n' ns' -> exists n, In n ns /\ n_mod n' = n_mod n /\ ((n_mprio n = mn /\ n_mprio n' = cur) \/ (n_mprio n <> mn /\ n_mprio n' = n_mprio n))).
  { intros n' H. apply in_map_iff in H. destruct H as (n & <- & Hn). exists n. split; [exact Hn|]. destruct (N.eqb_spec (n_mprio n) mn); cbn; auto. }
  assert (P' : prio_inv (cur + 1) ns').
  { split; [|split].
    - intros n' H. destruct (Hin n' H) as (n & Hn & EM & [(A & B)|(A & B)]); [left; lia|]. destruct (I1 n Hn) as [X|(X1 & X2)]; [left; lia|]. right. split; [|rewrite EM, B; exact X2]. specialize (Hm2 n Hn X1). lia.
    - intros a' b' Ha Hb La Lb. destruct (Hin a' Ha) as (a & Hna & EMa & [(A & B)|(A & B)]); destruct (Hin b' Hb) as (b & Hnb & EMb & [(C & D)|(C & D)]); rewrite EMa, EMb, B, D.
      + destruct (I1 a Hna) as [X|(X1 & X2)]; [lia|]. destruct (I1 b Hnb) as [Y|(Y1 & Y2)]; [lia|]. lia.
      + destruct (I1 a Hna) as [X|(X1 & X2)]; [lia|]. destruct (I1 b Hnb) as [Y|(Y1 & Y2)]; [|specialize (Hm2 b Hnb Y1); lia]. assert (Ua : undone cur a) by (split; assumption). pose proof (I3 b a Hnb Hna Y Ua). lia.
      + destruct (I1 b Hnb) as [X|(X1 & X2)]; [lia|]. destruct (I1 a Hna) as [Y|(Y1 & Y2)]; [|specialize (Hm2 a Hna Y1); lia]. assert (Ua : undone cur b) by (split; assumption). pose proof (I3 a b Hna Hnb Y Ua). lia.
      + apply I2; auto.
        * destruct (I1 a Hna) as [Y|(Y1 & Y2)]; [exact Y|specialize (Hm2 a Hna Y1); lia].
        * destruct (I1 b Hnb) as [Y|(Y1 & Y2)]; [exact Y|specialize (Hm2 b Hnb Y1); lia].
    - intros a' b' Ha Hb La (Ub1 & Ub2). destruct (Hin a' Ha) as (a & Hna & EMa & [(A & B)|(A & B)]); destruct (Hin b' Hb) as (b & Hnb & EMb & [(C & D)|(C & D)]); rewrite EMa, EMb in *; try lia.
      + destruct (I1 a Hna) as [X|(X1 & X2)]; [lia|]. destruct (I1 b Hnb) as [Y|(Y1 & Y2)]; [lia|]. specialize (Hm2 b Hnb Y1). lia.
      + destruct (I1 a Hna) as [X|(X1 & X2)]; [|specialize (Hm2 a Hna X1); lia]. apply I3; auto. split; [lia|]. rewrite <- D. exact Ub2. }
  assert (L' : (left_of (cur + 1) ns' + length (filter (fun n => (n_mprio n =? mn)%N) ns) = left_of cur ns)%nat).
  { unfold left_of, ns'. clear -Hm2 Hcm I1. induction ns as [|x ns IH]; [reflexivity|]. cbn [map filter]. assert (IH' := IH ltac:(intros n H; apply I1; right; exact H) ltac:(intros n H; apply Hm2; right; exact H)).
    specialize (I1 x (or_introl eq_refl)). specialize (Hm2 x (or_introl eq_refl)).
    destruct (N.eqb_spec (n_mprio x) mn) as [E|E]; cbn [set_mprio n_mprio].
    - destruct (N.leb_spec (cur + 1) cur); [lia|]. destruct (N.leb_spec cur (n_mprio x)); [cbn [length]; lia|lia].
    - destruct (N.leb_spec (cur + 1) (n_mprio x)); destruct (N.leb_spec cur (n_mprio x)); cbn [length]; try lia. }
  assert (C1 : (1 <= length (filter (fun n => (n_mprio n =? mn)%N) ns))%nat).
  { assert (X : In n0 (filter (fun n => n_mprio n =? mn) ns)) by (apply filter_In; split; [exact Hn0|apply N.eqb_eq; exact E0]). destruct (filter (fun n => n_mprio n =? mn) ns); [destruct X|cbn; lia]. }
  assert (Map : map n_mod ns' = map n_mod ns /\ map n_cur ns' = map n_cur ns /\ map n_err ns' = map n_err ns).
  { unfold ns'. rewrite !map_map. repeat split; apply map_ext; intros n; destruct (n_mprio n =? mn); reflexivity. }
  replace (N.of_nat (left_of cur ns) - N.of_nat (length (filter (fun n => n_mprio n =? mn) ns))) with (N.of_nat (left_of (cur + 1) ns')) by lia.
  destruct (N.eqb_spec (N.of_nat (left_of (cur + 1) ns')) 0) as [Z|Z]; cbn [fst snd].
  - destruct Map as (M1 & M2 & M3). repeat split; auto; try lia.
    + intros n Hn. destruct P' as (P1 & _). destruct (P1 n Hn) as [X|(X & _)]; [exact X|]. exfalso. assert (In n (filter (fun n => cur + 1 <=? n_mprio n) ns')) by (apply filter_In; split; [exact Hn|apply N.leb_le; exact X]). unfold left_of in Z. destruct (filter (fun n => cur + 1 <=? n_mprio n) ns'); [contradiction|cbn in Z; lia].
    + assert (Lt : forall n, In n ns' -> n_mprio n < cur + 1). { intros n Hn. destruct P' as (P1 & _). destruct (P1 n Hn) as [X|(X & _)]; [exact X|]. exfalso. assert (In n (filter (fun n => cur + 1 <=? n_mprio n) ns')) by (apply filter_In; split; [exact Hn|apply N.leb_le; exact X]). unfold left_of in Z. destruct (filter (fun n => cur + 1 <=? n_mprio n) ns'); [contradiction|cbn in Z; lia]. }
      destruct P' as (_ & P2 & _). apply P2; auto.
    + assert (Lt : forall n, In n ns' -> n_mprio n < cur + 1). { intros n Hn. destruct P' as (P1 & _). destruct (P1 n Hn) as [X|(X & _)]; [exact X|]. exfalso. assert (In n (filter (fun n => cur + 1 <=? n_mprio n) ns')) by (apply filter_In; split; [exact Hn|apply N.leb_le; exact X]). unfold left_of in Z. destruct (filter (fun n => cur + 1 <=? n_mprio n) ns'); [contradiction|cbn in Z; lia]. }
      destruct P' as (_ & P2 & _). apply P2; auto.
  - specialize (IH (cur + 1) ns' P'). assert (HM' : forall n, In n ns' -> m_prio (n_mod n) <= u32_max) by (intros n' H; destruct (Hin n' H) as (n & Hn & -> & _); apply HM; exact Hn).
    specialize (IH HM' ltac:(lia) ltac:(lia)). cbv zeta in IH. destruct Map as (M1 & M2 & M3). destruct IH as (A & B & C & D & E & F & G). split; [congruence|]. split; [congruence|]. split; [congruence|]. split; [exact D|]. split; [lia|]. split; [exact F|exact G].
Qed.

Lemma set_mod_prio_spec : forall ns, ns <> [] -> (forall n, In n ns -> m_prio (n_mod n) <= u32_max) ->
  let r := set_mod_prio ns in
  map n_mod (fst r) = map n_mod ns /\ map n_cur (fst r) = map n_cur ns /\ map n_err (fst r) = map n_err ns /\
  (forall n, In n (fst r) -> n_mprio n <= snd r) /\
  (forall a b, In a (fst r) -> In b (fst r) -> (n_mprio a <= n_mprio b <-> m_prio (n_mod a) <= m_prio (n_mod b))).
Proof.
  intros ns Hne HM. unfold set_mod_prio. set (ns1 := map (fun n => set_mprio (m_prio (n_mod n)) n) ns).
  assert (L : left_of 0 ns1 = length ns). { unfold left_of, ns1. clear. induction ns as [|x ns IH]; [reflexivity|]. cbn [map filter]. destruct (N.leb_spec 0 (n_mprio (set_mprio (m_prio (n_mod x)) x))); [cbn [length]; f_equal; exact IH|lia]. }
  assert (P : prio_inv 0 ns1).
  { split; [|split]; try (intros; lia). intros n Hn. right. apply in_map_iff in Hn. destruct Hn as (x & <- & _). split; [lia|reflexivity]. }
  assert (HM1 : forall n, In n ns1 -> m_prio (n_mod n) <= u32_max) by (intros n Hn; apply in_map_iff in Hn; destruct Hn as (x & <- & Hx); exact (HM x Hx)).
  assert (Ln : (1 <= length ns)%nat) by (destruct ns; [congruence|cbn; lia]).
  pose proof (prio_loop (length ns) 0 ns1 P HM1) as X. rewrite L in X. specialize (X Ln (le_n _)). cbv zeta in X. destruct X as (A & B & C & D & _ & F & G). cbn [fst snd].
  assert (Mm : map n_mod ns1 = map n_mod ns /\ map n_cur ns1 = map n_cur ns /\ map n_err ns1 = map n_err ns) by (unfold ns1; rewrite !map_map; repeat split; apply map_ext; reflexivity).
  destruct Mm as (M1 & M2 & M3). split; [congruence|]. split; [congruence|]. split; [congruence|]. split; [|exact G]. intros n Hn. specialize (F n Hn). lia.
Qed.

(** ** One iteration *)
Definition rem (k : kind) (n : nsub) (s : asub) : Prop := In s (m_subs (n_mod n)) /\ el k s = true /\ a_prio s < n_cur n.

Lemma pick_spec : forall k cur n, n_err n = None ->
  pick alive k cur n = (n, None, false) /\ (n_mprio n <> cur \/ forall s, ~ rem k n s) \/
  n_mprio n = cur /\ exists pr s, pick alive k cur n = (set_cur pr n, Some (mkpend (n_mod n) pr (cnt_at k pr (m_subs (n_mod n)))), false) /\
    rem k n s /\ a_prio s = pr /\ pr < n_cur n /\ forall s', rem k n s' -> a_prio s' <= pr.
Proof.
  intros k cur n He. unfold pick. destruct (N.eqb_spec (n_mprio n) cur) as [E|E]; cbn [negb]; [|left; auto].
  pose proof (next_spec k (n_cur n) (n_cur n) (m_subs (n_mod n))) as H. destruct (next_subscription alive k (n_cur n) (n_cur n) (m_subs (n_mod n))) as (pr & c). rewrite He. cbn [fst snd]. unfold next_inv in H. cbn [fst snd] in H.
  destruct H as [(H1 & H2)|(H1 & H2 & H3 & H4)].
  - injection H1 as -> ->. left. cbn [N.eqb]. split; [|right; intros s (A & B & C); specialize (H2 s A B); lia]. destruct n; reflexivity.
  - destruct (N.eqb_spec c 0) as [Z|_]; [contradiction|]. rewrite evpipe_spec. rewrite <- H3. destruct (N.eqb_spec c 0) as [Z|_]; [contradiction|]. right. split; [exact E|]. exists pr.
    assert (Ex : exists s, rem k n s /\ a_prio s = pr).
    { unfold cnt_at in H3. destruct (at_prio k pr (m_subs (n_mod n))) as [|s t] eqn:F; [cbn in H3; lia|]. exists s. assert (Hs : In s (s :: t)) by (left; reflexivity). rewrite <- F in Hs. apply filter_In in Hs. destruct Hs as (Hs & Es). apply andb_true_iff in Es. destruct Es as (Es & Ps). apply N.eqb_eq in Ps. split; [split; [exact Hs|split; [exact Es|lia]]|exact Ps]. }
    destruct Ex as (s & Hr & Hp). exists s. split; [rewrite <- H3; destruct k; reflexivity|]. split; [exact Hr|]. split; [exact Hp|]. split; [exact H2|]. intros s' (A & B & C). apply H4; assumption.
Qed.

Lemma pick_static : forall k cur n, let n' := fst (fst (pick alive k cur n)) in n_mod n' = n_mod n /\ n_mprio n' = n_mprio n /\ n_err n' = n_err n /\ n_cur n' <= n_cur n.
Proof.
  intros k cur n. unfold pick. destruct (negb (n_mprio n =? cur)); [cbn; repeat split; lia|].
  pose proof (next_spec k (n_cur n) (n_cur n) (m_subs (n_mod n))) as H. destruct (next_subscription alive k (n_cur n) (n_cur n) (m_subs (n_mod n))) as (pr & c). cbn [fst snd]. unfold next_inv in H. cbn [fst snd] in H.
  assert (Hp : pr <= n_cur n) by (destruct H as [(H & _)|(_ & H & _)]; [injection H as -> _; lia|lia]).
  destruct (match n_err n with Some (_, ec) => _ | None => c end =? 0); [cbn; repeat split; exact Hp|]. destruct (notify_evpipe alive k pr (m_subs (n_mod n)) =? 0); cbn; repeat split; exact Hp.
Qed.

(** ** The loop *)
Definition pends_of (k : kind) (cur : N) (ns : list nsub) : list pend := flat_map (fun x => match snd (fst x) with Some p => [p] | None => [] end) (map (pick alive k cur) ns).
Definition after (k : kind) (cur : N) (ns : list nsub) : list nsub := map (fun x => fst (fst x)) (map (pick alive k cur) ns).

Lemma after_in : forall k cur ns n', In n' (after k cur ns) -> exists n, In n ns /\ n' = fst (fst (pick alive k cur n)).
Proof. intros k cur ns n' H. unfold after in H. rewrite map_map in H. apply in_map_iff in H. destruct H as (n & <- & Hn). exists n. auto. Qed.
Lemma after_mem : forall k cur ns n, In n ns -> In (fst (fst (pick alive k cur n))) (after k cur ns).
Proof. intros k cur ns n H. unfold after. rewrite map_map. apply (in_map (fun x => fst (fst (pick alive k cur x)))). exact H. Qed.
Lemma after_mods : forall k cur ns, map n_mod (after k cur ns) = map n_mod ns.
Proof. intros. unfold after. rewrite !map_map. apply map_ext. intros n. apply (pick_static k cur n). Qed.
Lemma after_err : forall k cur ns, Forall (fun n => n_err n = None) ns -> Forall (fun n => n_err n = None) (after k cur ns).
Proof. intros k cur ns H. rewrite Forall_forall in *. intros n' Hn'. destruct (after_in _ _ _ _ Hn') as (n & Hn & ->). destruct (pick_static k cur n) as (_ & _ & -> & _). apply H. exact Hn. Qed.

Lemma pends_in : forall k cur ns p, In p (pends_of k cur ns) -> exists n, In n ns /\ snd (fst (pick alive k cur n)) = Some p.
Proof.
  intros k cur ns p H. unfold pends_of in H. apply in_flat_map in H. destruct H as (x & Hx & Hp). apply in_map_iff in Hx. destruct Hx as (n & <- & Hn). exists n. split; [exact Hn|]. destruct (snd (fst (pick alive k cur n))); [destruct Hp as [->|[]]; reflexivity|destruct Hp].
Qed.
Lemma pends_mem : forall k cur ns p n, In n ns -> snd (fst (pick alive k cur n)) = Some p -> In p (pends_of k cur ns).
Proof. intros k cur ns p n Hn H. unfold pends_of. apply in_flat_map. exists (pick alive k cur n). split; [apply in_map; exact Hn|rewrite H; left; reflexivity]. Qed.

Lemma no_last : forall k cur ns, Forall (fun n => n_err n = None) ns -> existsb (fun x => snd x) (map (pick alive k cur) ns) = false.
Proof.
  intros k cur ns H. apply not_true_iff_false. intros E. apply existsb_exists in E. destruct E as (x & Hx & Ex). apply in_map_iff in Hx. destruct Hx as (n & <- & Hn). rewrite Forall_forall in H. specialize (H n Hn).
  destruct (pick_spec k cur n H) as [(P & _)|(_ & pr & s & P & _)]; rewrite P in Ex; discriminate.
Qed.

(** Number of subscriptions still to be notified. *)
Definition todo (k : kind) (n : nsub) : nat := length (filter (fun s => el k s && (a_prio s <? n_cur n)) (m_subs (n_mod n))).
Definition todos (k : kind) (ns : list nsub) : nat := fold_right (fun n a => (todo k n + a)%nat) O ns.

Lemma filter_le : forall {A} (f g : A -> bool) l, (forall x, In x l -> f x = true -> g x = true) -> (length (filter f l) <= length (filter g l))%nat.
Proof. induction l as [|x l IH]; intros H; [cbn; lia|]. cbn [filter]. assert (IH' := IH ltac:(intros y Hy; apply H; right; exact Hy)). destruct (f x) eqn:F; [rewrite (H x (or_introl eq_refl) F); cbn; lia|destruct (g x); cbn; lia]. Qed.
Lemma filter_lt : forall {A} (f g : A -> bool) l x, (forall x, In x l -> f x = true -> g x = true) -> In x l -> f x = false -> g x = true -> (length (filter f l) < length (filter g l))%nat.
Proof.
  induction l as [|y l IH]; intros x H Hin Fx Gx; [destruct Hin|]. cbn [filter]. assert (H' : forall z, In z l -> f z = true -> g z = true) by (intros z Hz; apply H; right; exact Hz). destruct Hin as [->|Hin].
  - rewrite Fx, Gx. cbn. pose proof (filter_le f g l H'). lia.
  - specialize (IH x H' Hin Fx Gx). destruct (f y) eqn:F; [rewrite (H y (or_introl eq_refl) F); cbn; lia|destruct (g y); cbn; lia].
Qed.

Lemma todo_le : forall k cur n, (todo k (fst (fst (pick alive k cur n))) <= todo k n)%nat.
Proof.
  intros k cur n. unfold todo. destruct (pick_static k cur n) as (-> & _ & _ & C). apply filter_le. intros s _ E. apply andb_true_iff in E. destruct E as (-> & E). apply N.ltb_lt in E. cbn. apply N.ltb_lt. lia.
Qed.

Lemma todos_le : forall k cur ns, (todos k (after k cur ns) <= todos k ns)%nat.
Proof. intros k cur ns. unfold after. rewrite map_map. induction ns as [|n ns IH]; [cbn; lia|]. cbn [map todos fold_right]. pose proof (todo_le k cur n). unfold todos in IH. lia. Qed.

Lemma todos_lt : forall k cur ns, Forall (fun n => n_err n = None) ns -> pends_of k cur ns <> [] -> (todos k (after k cur ns) < todos k ns)%nat.
Proof.
  intros k cur ns. induction ns as [|n ns IH]; intros He Hp; [exfalso; apply Hp; reflexivity|]. inversion He as [|? ? En Es]; subst. cbn [todos fold_right after map]. pose proof (todos_le k cur ns) as Q. unfold after, todos in Q. pose proof (todo_le k cur n) as Q2.
  destruct (pick_spec k cur n En) as [(P & _)|(_ & pr & s & P & R & Pr & Lt & _)].
  - assert (pends_of k cur ns <> []). { intros X. apply Hp. unfold pends_of in *. cbn [map flat_map]. rewrite P. cbn. exact X. } specialize (IH Es H). unfold after, todos in IH. lia.
  - assert (todo k (fst (fst (pick alive k cur n))) < todo k n)%nat; [|lia]. rewrite P. cbn [fst]. unfold todo. cbn [set_cur n_mod n_cur]. destruct R as (R1 & R2 & R3). apply filter_lt with (x := s); [|exact R1| |].
    + intros x _ E. apply andb_true_iff in E. destruct E as (-> & E). apply N.ltb_lt in E. cbn. apply N.ltb_lt. lia.
    + rewrite R2, Pr. cbn. apply N.ltb_ge. lia.
    + rewrite R2. cbn. apply N.ltb_lt. exact R3.
Qed.

(** What the rounds of a loop are. *)
Definition from (k : kind) (ns : list nsub) (cur : N) (p : pend) : Prop :=
  exists n s, In n ns /\ n_mod n = p_mod p /\ n_mprio n <= cur /\ rem k n s /\ a_prio s = p_prio p /\ p_cnt p = cnt_at k (p_prio p) (m_subs (p_mod p)).
Definition mp_le (ns : list nsub) (p2 p1 : pend) : Prop := forall n1 n2, In n1 ns -> In n2 ns -> n_mod n1 = p_mod p1 -> n_mod n2 = p_mod p2 -> n_mprio n2 <= n_mprio n1.

Record good (k : kind) (cur : N) (ns : list nsub) (rs : list round) : Prop := {
  g_from : forall rd p, In rd rs -> In p (r_pend rd) -> from k ns cur p;
  g_same : forall rd p1 p2, In rd rs -> In p1 (r_pend rd) -> In p2 (r_pend rd) -> mp_le ns p1 p2 /\ (p_mod p1 = p_mod p2 -> p1 = p2);
  g_later : forall l1 rd1 l2 rd2 p1 p2, rs = l1 ++ rd1 :: l2 -> In rd2 l2 -> In p1 (r_pend rd1) -> In p2 (r_pend rd2) ->
     mp_le ns p2 p1 /\ (p_mod p1 = p_mod p2 -> p_prio p2 < p_prio p1) }.

Definition complete (k : kind) (cur : N) (ns : list nsub) (rs : list round) : Prop :=
  forall n s, In n ns -> n_mprio n <= cur -> rem k n s -> exists rd p, In rd rs /\ In p (r_pend rd) /\ p_mod p = n_mod n /\ p_prio p = a_prio s.

Definition all_ok (rd : round) : Prop := forall p, In p (r_pend rd) -> left_count (r_calls rd) p = 0.

Lemma nodup_mod : forall (ns : list nsub) n1 n2, NoDup (map n_mod ns) -> In n1 ns -> In n2 ns -> n_mod n1 = n_mod n2 -> n1 = n2.
Proof.
  induction ns as [|x ns IH]; intros n1 n2 Nd H1 H2 E; [destruct H1|]. cbn [map] in Nd. inversion Nd as [|? ? Nx Ns]; subst. destruct H1 as [->|H1], H2 as [->|H2]; auto.
  - exfalso. apply Nx. rewrite E. apply in_map. exact H2.
  - exfalso. apply Nx. rewrite <- E. apply in_map. exact H1.
Qed.

Lemma mp_le_after : forall k cur ns p2 p1, NoDup (map n_mod ns) -> mp_le (after k cur ns) p2 p1 -> mp_le ns p2 p1.
Proof.
  intros k cur ns p2 p1 Nd H n1 n2 H1 H2 E1 E2. destruct (pick_static k cur n1) as (A1 & B1 & _). destruct (pick_static k cur n2) as (A2 & B2 & _). rewrite <- B1, <- B2. apply H; [apply after_mem; exact H1|apply after_mem; exact H2|congruence|congruence].
Qed.

Lemma from_after : forall k cur cur' ns p, cur' <= cur -> from k (after k cur ns) cur' p -> from k ns cur p.
Proof.
  intros k cur cur' ns p L (n' & s & Hn & E1 & E2 & (R1 & R2 & R3) & E3 & E4). destruct (after_in _ _ _ _ Hn) as (n & Hn0 & ->). destruct (pick_static k cur n) as (A & B & C & D). exists n, s. split; [exact Hn0|]. split; [congruence|]. split; [lia|]. split; [|split; [exact E3|exact E4]]. rewrite A in R1. split; [exact R1|]. split; [exact R2|]. lia.
Qed.

Lemma first_pend : forall k cur ns p, Forall (fun n => n_err n = None) ns -> In p (pends_of k cur ns) -> exists n s, In n ns /\ n_mod n = p_mod p /\ n_mprio n = cur /\ rem k n s /\ a_prio s = p_prio p /\
   p = mkpend (n_mod n) (p_prio p) (cnt_at k (p_prio p) (m_subs (n_mod n))) /\ n_cur (fst (fst (pick alive k cur n))) = p_prio p.
Proof.
  intros k cur ns p He Hp. destruct (pends_in _ _ _ _ Hp) as (n & Hn & Ep). rewrite Forall_forall in He. destruct (pick_spec k cur n (He n Hn)) as [(P & _)|(M & pr & s & P & R & Pr & Lt & _)]; rewrite P in Ep; cbn in Ep; [discriminate|]. injection Ep as <-. exists n, s. cbn. rewrite P. repeat split; auto; apply R.
Qed.

Section Loop.
Variable env : nat -> option (list call).

Lemma loop_unfold : forall k fuel r cur ns, loop alive env k (S fuel) r cur ns =
  (let ns' := after k cur ns in let pends := pends_of k cur ns in let last := existsb (fun x => snd x) (map (pick alive k cur) ns) in
   match pends with
   | [] => if cur =? 0 then ([], OOk) else if last then ([], OOk) else loop alive env k fuel r (cur - 1) ns'
   | _ => match env r with
          | None => ([mkround pends []], OFailed)
          | Some cs =>
              match k with
              | KChange => if forallb (fun p => left_count cs p =? 0) pends then let t := loop alive env k fuel (S r) cur ns' in (mkround pends cs :: fst t, snd t) else ([mkround pends cs], ORefused)
              | KDone => let t := loop alive env k fuel (S r) cur ns' in (mkround pends cs :: fst t, snd t)
              | KAbort => if last then ([mkround pends cs], OOk) else let t := loop alive env k fuel (S r) cur ns' in (mkround pends cs :: fst t, snd t)
              end
          end
   end).
Proof. reflexivity. Qed.

Lemma good_one : forall k cur ns cs, NoDup (map n_mod ns) -> Forall (fun n => n_err n = None) ns -> good k cur ns [mkround (pends_of k cur ns) cs].
Proof.
  intros k cur ns cs Nd He. constructor.
  - intros rd p [<-|[]] Hp. cbn [r_pend] in Hp. destruct (first_pend _ _ _ _ He Hp) as (n & s & Hn & E1 & E2 & R & Pr & Ep & _). exists n, s. split; [exact Hn|]. split; [exact E1|]. split; [lia|]. split; [exact R|]. split; [exact Pr|]. rewrite <- E1. rewrite Ep at 1. reflexivity.
  - intros rd p1 p2 [<-|[]] H1 H2. cbn [r_pend] in *. destruct (first_pend _ _ _ _ He H1) as (n1 & s1 & Hn1 & E1 & M1 & _ & _ & Ep1 & C1). destruct (first_pend _ _ _ _ He H2) as (n2 & s2 & Hn2 & E2 & M2 & _ & _ & Ep2 & C2). split.
    + intros a b Ha Hb Ea Eb. assert (a = n2) by (apply (nodup_mod ns); congruence). assert (b = n1) by (apply (nodup_mod ns); congruence). subst. lia.
    + intros E. assert (n1 = n2) by (apply (nodup_mod ns); congruence). subst n2. rewrite Ep1, Ep2. congruence.
  - intros l1 rd1 l2 rd2 p1 p2 E H2. destruct l1 as [|x l1]; cbn in E; injection E as _ E; [subst l2; destruct H2|destruct l1; discriminate].
Qed.

Lemma good_cons : forall k cur ns cs rs, NoDup (map n_mod ns) -> Forall (fun n => n_err n = None) ns -> good k cur (after k cur ns) rs -> good k cur ns (mkround (pends_of k cur ns) cs :: rs).
Proof.
  intros k cur ns cs rs Nd He [G1 G2 G3]. destruct (good_one k cur ns cs Nd He) as [O1 O2 _]. constructor.
  - intros rd p [<-|H] Hp; [apply (O1 _ p (or_introl eq_refl) Hp)|]. apply from_after with (cur' := cur); [lia|]. apply (G1 rd p H Hp).
  - intros rd p1 p2 [<-|H] H1 H2; [apply (O2 _ p1 p2 (or_introl eq_refl) H1 H2)|]. destruct (G2 rd p1 p2 H H1 H2) as (A & B). split; [apply (mp_le_after k cur); assumption|exact B].
  - intros l1 rd1 l2 rd2 p1 p2 E H2 Hp1 Hp2. destruct l1 as [|x l1]; cbn [app] in E; injection E as E0 E.
    + subst rd1 l2. cbn [r_pend] in Hp1. destruct (first_pend _ _ _ _ He Hp1) as (n1 & s1 & Hn1 & E1 & M1 & _ & _ & _ & C1). destruct (G1 rd2 p2 H2 Hp2) as (n2' & s2 & Hn2 & E2 & M2 & (R1 & R2 & R3) & P2 & _). destruct (after_in _ _ _ _ Hn2) as (n2 & Hn2' & ->). destruct (pick_static k cur n2) as (A & B & _ & D). split.
      * intros a b Ha Hb Ea Eb. assert (a = n1) by (apply (nodup_mod ns); congruence). assert (b = n2) by (apply (nodup_mod ns); congruence). subst. lia.
      * intros Em. assert (n1 = n2) by (apply (nodup_mod ns); congruence). subst n2. rewrite C1 in R3. lia.
    + destruct (G3 l1 rd1 l2 rd2 p1 p2 E H2 Hp1 Hp2) as (A & B). split; [apply (mp_le_after k cur); assumption|exact B].
Qed.

Lemma good_skip : forall k cur ns rs, NoDup (map n_mod ns) -> good k (cur - 1) (after k cur ns) rs -> good k cur ns rs.
Proof.
  intros k cur ns rs Nd [G1 G2 G3]. constructor.
  - intros rd p H Hp. apply from_after with (cur' := cur - 1); [lia|]. apply (G1 rd p H Hp).
  - intros rd p1 p2 H H1 H2. destruct (G2 rd p1 p2 H H1 H2) as (A & B). split; [apply (mp_le_after k cur); assumption|exact B].
  - intros l1 rd1 l2 rd2 p1 p2 E H2 Hp1 Hp2. destruct (G3 l1 rd1 l2 rd2 p1 p2 E H2 Hp1 Hp2) as (A & B). split; [apply (mp_le_after k cur); assumption|exact B].
Qed.

Lemma good_nil : forall k cur ns, good k cur ns [].
Proof. intros. constructor; [intros rd p []|intros rd p1 p2 []|intros l1 rd1 l2 rd2 p1 p2 E; destruct l1; discriminate]. Qed.

Lemma nothing_at : forall k cur ns n s, Forall (fun n => n_err n = None) ns -> pends_of k cur ns = [] -> In n ns -> n_mprio n = cur -> ~ rem k n s.
Proof.
  intros k cur ns n s He Hp Hn M R. rewrite Forall_forall in He. destruct (pick_spec k cur n (He n Hn)) as [(P & [X|X])|(_ & pr & s' & P & _)]; [contradiction|apply (X s R)|].
  assert (X : In (mkpend (n_mod n) pr (cnt_at k pr (m_subs (n_mod n)))) (pends_of k cur ns)) by (apply pends_mem with (n := n); [exact Hn|rewrite P; reflexivity]). rewrite Hp in X. destruct X.
Qed.

Lemma complete_skip : forall k cur ns rs, Forall (fun n => n_err n = None) ns -> pends_of k cur ns = [] -> complete k (cur - 1) (after k cur ns) rs -> complete k cur ns rs.
Proof.
  intros k cur ns rs He Hp C n s Hn M R. destruct (N.eq_dec (n_mprio n) cur) as [E|E]; [destruct (nothing_at k cur ns n s He Hp Hn E R)|].
  rewrite Forall_forall in He. destruct (pick_spec k cur n (He n Hn)) as [(P & _)|(X & _)]; [|contradiction]. pose proof (after_mem k cur ns n Hn) as Hm. rewrite P in Hm. cbn [fst] in Hm. apply (C n s Hm); [lia|exact R].
Qed.

Lemma complete_cons : forall k cur ns cs rs, Forall (fun n => n_err n = None) ns -> complete k cur (after k cur ns) rs -> complete k cur ns (mkround (pends_of k cur ns) cs :: rs).
Proof.
  intros k cur ns cs rs He C n s Hn M R. rewrite Forall_forall in He. destruct (pick_spec k cur n (He n Hn)) as [(P & _)|(X & pr & s' & P & R' & Pr & Lt & Mx)].
  - pose proof (after_mem k cur ns n Hn) as Hm. rewrite P in Hm. cbn [fst] in Hm. destruct (C n s Hm M R) as (rd & p & H1 & H2). exists rd, p. split; [right; exact H1|exact H2].
  - pose proof (after_mem k cur ns n Hn) as Hm. rewrite P in Hm. cbn [fst] in Hm. destruct (N.eq_dec (a_prio s) pr) as [E|E].
    + exists (mkround (pends_of k cur ns) cs), (mkpend (n_mod n) pr (cnt_at k pr (m_subs (n_mod n)))). split; [left; reflexivity|]. split; [apply pends_mem with (n := n); [exact Hn|rewrite P; reflexivity]|]. cbn. auto.
    + specialize (Mx s R). destruct R as (R1 & R2 & R3). destruct (C (set_cur pr n) s Hm M) as (rd & p & H1 & H2 & H3); [split; [exact R1|split; [exact R2|cbn; lia]]|]. exists rd, p. split; [right; exact H1|]. auto.
Qed.

Lemma loop_spec : forall k fuel r cur ns rs o, k <> KAbort -> NoDup (map n_mod ns) -> Forall (fun n => n_err n = None) ns -> (N.to_nat cur + todos k ns < fuel)%nat ->
  loop alive env k fuel r cur ns = (rs, o) ->
  good k cur ns rs /\ (forall rd, In rd rs -> r_pend rd <> []) /\
  match o with
  | OOk => complete k cur ns rs /\ (k = KChange -> Forall all_ok rs)
  | ORefused => k = KChange /\ exists l rd, rs = l ++ [rd] /\ Forall all_ok l /\ ~ all_ok rd
  | OFailed => exists l rd, rs = l ++ [rd] /\ r_calls rd = [] /\ (k = KChange -> Forall all_ok l)
  | OFuel => False
  end.
Proof.
  intros k. induction fuel as [|fuel IH]; intros r cur ns rs o Hk Nd He Hf E; [lia|]. rewrite loop_unfold in E. cbv zeta in E. rewrite (no_last k cur ns He) in E.
  destruct (pends_of k cur ns) as [|p0 ps] eqn:Pe.
  - destruct (N.eqb_spec cur 0) as [Z|Z].
    + injection E as <- <-. split; [apply good_nil|]. split; [intros rd []|]. split; [|constructor]. intros n s Hn M R. subst cur. destruct (nothing_at k 0 ns n s He Pe Hn ltac:(lia) R).
    + destruct (IH r (cur - 1) (after k cur ns) rs o Hk) as (G & Ne & O); [rewrite after_mods; exact Nd|apply after_err; exact He|pose proof (todos_le k cur ns); lia|exact E|].
      split; [apply good_skip; assumption|]. split; [exact Ne|]. destruct o; try exact O. destruct O as (O1 & O2). split; [apply complete_skip; assumption|exact O2].
  - cbv beta iota in E. rewrite <- Pe in E. assert (Pn : pends_of k cur ns <> []) by (rewrite Pe; discriminate). pose proof (todos_lt k cur ns He Pn) as Tl.
    destruct (env r) as [cs|].
    2:{ injection E as <- <-. split; [apply good_one; assumption|]. split; [intros rd [<-|[]]; exact Pn|]. exists [], (mkround (pends_of k cur ns) []). repeat split; intros; constructor. }
    assert (Cont : forall t, loop alive env k fuel (S r) cur (after k cur ns) = t -> (k = KChange -> all_ok (mkround (pends_of k cur ns) cs)) ->
      good k cur ns (mkround (pends_of k cur ns) cs :: fst t) /\ (forall rd, In rd (mkround (pends_of k cur ns) cs :: fst t) -> r_pend rd <> []) /\
      match snd t with
      | OOk => complete k cur ns (mkround (pends_of k cur ns) cs :: fst t) /\ (k = KChange -> Forall all_ok (mkround (pends_of k cur ns) cs :: fst t))
      | ORefused => k = KChange /\ exists l rd, mkround (pends_of k cur ns) cs :: fst t = l ++ [rd] /\ Forall all_ok l /\ ~ all_ok rd
      | OFailed => exists l rd, mkround (pends_of k cur ns) cs :: fst t = l ++ [rd] /\ r_calls rd = [] /\ (k = KChange -> Forall all_ok l)
      | OFuel => False
      end).
    { intros t Et Ok. destruct t as (rs1 & o1). cbn [fst snd]. destruct (IH (S r) cur (after k cur ns) rs1 o1 Hk) as (G & Ne & O); [rewrite after_mods; exact Nd|apply after_err; exact He|lia|exact Et|].
      split; [apply good_cons; assumption|]. split; [intros rd [<-|H]; [exact Pn|apply Ne; exact H]|]. destruct o1.
      - destruct O as (O1 & O2). split; [apply complete_cons; assumption|]. intros Kc. constructor; [apply Ok; exact Kc|apply O2; exact Kc].
      - destruct O as (Kc & l & rd & -> & A & B). split; [exact Kc|]. exists (mkround (pends_of k cur ns) cs :: l), rd. split; [reflexivity|]. split; [constructor; [apply Ok; exact Kc|exact A]|exact B].
      - destruct O as (l & rd & -> & A & B). exists (mkround (pends_of k cur ns) cs :: l), rd. split; [reflexivity|]. split; [exact A|]. intros Kc. constructor; [apply Ok; exact Kc|apply B; exact Kc].
      - exact O. }
    destruct k; [| |congruence]; cbv beta iota in E.
    + destruct (forallb (fun p => left_count cs p =? 0) (pends_of KChange cur ns)) eqn:Fa.
      * specialize (Cont _ eq_refl). injection E as <- <-. apply Cont. intros _ p Hp. cbn [r_pend r_calls] in *. rewrite forallb_forall in Fa. apply N.eqb_eq, Fa, Hp.
      * injection E as <- <-. split; [apply good_one; assumption|]. split; [intros rd [<-|[]]; exact Pn|]. split; [reflexivity|]. exists [], (mkround (pends_of KChange cur ns) cs). split; [reflexivity|]. split; [constructor|]. intros A.
        assert (X : forallb (fun p => left_count cs p =? 0) (pends_of KChange cur ns) = true) by (apply forallb_forall; intros p Hp; apply N.eqb_eq; apply (A p Hp)). congruence.
    + specialize (Cont _ eq_refl). injection E as <- <-. apply Cont. discriminate.
Qed.
End Loop.
End Proofs.
