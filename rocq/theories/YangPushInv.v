(** What holds of every history of a subscription: numbers, distances, exclusions, the timer. *)
From Coq Require Import List Bool Arith NArith Lia Sorted.
From Verif Require Import Edit EditSpec ChangeIter ChangeIterSpec YangPush YangPushSpec YangPushProofs YangPushFollow YangPushShape YangPushLoop.
Import ListNotations.

Section P.
Variable kd : nat -> kind.
Variable odd : nat -> bool.
Notation loop_step := (loop_step kd odd).
Notation on_change := (on_change kd odd).
Notation step := (step kd odd).
Notation run := (run kd odd).

Lemma ss_snoc : forall (l : list N) x, StronglySorted N.lt l -> Forall (fun y => (y < x)%N) l -> StronglySorted N.lt (l ++ [x]).
Proof.
  induction l as [|y t IH]; intros x H F; cbn [app]; [constructor; constructor|]. inversion H; subst. inversion F; subst. constructor; [apply IH; assumption|]. apply Forall_app. split; [assumption|constructor; [assumption|constructor]].
Qed.
Lemma ss_filter : forall f (l : list yedit), StronglySorted N.lt (map y_id l) -> StronglySorted N.lt (map y_id (filter f l)).
Proof.
  intros f. induction l as [|y t IH]; intros H; [exact H|]. cbn [map] in H. inversion H as [|? ? H1 H2]; subst. cbn [filter]. destruct (f y); [|apply IH; exact H1]. cbn [map]. constructor; [apply IH; exact H1|].
  apply Forall_forall. intros z Hz. apply in_map_iff in Hz. destruct Hz as (e & <- & He). apply filter_In in He. apply (proj1 (Forall_forall _ _) H2). apply in_map. apply He.
Qed.

(** ** Patches *)
Section G.
Variable G : yedit -> Prop.
Definition numbered (p : patch) (ne : N) : Prop := StronglySorted N.lt (map y_id (p_edits p)) /\ Forall (fun n => (n < ne)%N) (map y_id (p_edits p)) /\ Forall G (p_edits p).
Definition whole (p : patch) : Prop := p_edits p <> [] /\ StronglySorted N.lt (map y_id (p_edits p)) /\ Forall G (p_edits p).
Definition inv (lo : N) (bad : bool) (s : sub) : Prop :=
  (lo <= next_patch s)%N /\
  forall p, pend s = Some p -> (lo <= p_id p < next_patch s)%N /\ numbered p (next_edit s) /\ (bad = false -> p_edits p <> []).
Definition brings (ex : yop -> bool) (cs : list (op * ent * chg)) : Prop :=
  forall x id, In x cs -> ex (op_sr2yp kd (fst (fst x)) (e_node (snd (fst x)))) = false -> G (edit_of id (op_sr2yp kd (fst (fst x)) (e_node (snd (fst x)))) x).
Lemma loop_inv : forall cs lo st, inv lo (l_bad st) (l_sub st) -> brings (excl (l_sub st)) cs ->
  let r := fold_left loop_step cs st in inv lo (l_bad r) (l_sub r) /\ excl (l_sub r) = excl (l_sub st) /\ period (l_sub r) = period (l_sub st) /\ last (l_sub r) = last (l_sub st) /\ tmr (l_sub r) = tmr (l_sub st).
Proof.
  induction cs as [|[[o e] c] t IH]; intros lo st H B; [split; [exact H|do 3 (split; [reflexivity|]); reflexivity]|]. cbn [fold_left].
  assert (K : inv lo (l_bad (loop_step st (o, e, c))) (l_sub (loop_step st (o, e, c))) /\ excl (l_sub (loop_step st (o, e, c))) = excl (l_sub st) /\ period (l_sub (loop_step st (o, e, c))) = period (l_sub st) /\
              last (l_sub (loop_step st (o, e, c))) = last (l_sub st) /\ tmr (l_sub (loop_step st (o, e, c))) = tmr (l_sub st)).
  { unfold YangPush.loop_step. destruct (l_bad st) eqn:Bd; [rewrite Bd; split; [exact H|do 3 (split; [reflexivity|]); reflexivity]|].
    destruct (nested _ _ _); [rewrite Bd; split; [exact H|do 3 (split; [reflexivity|]); reflexivity]|].
    destruct (excl (l_sub st) (op_sr2yp kd o (e_node e))) eqn:Ex; [split; [exact H|do 3 (split; [reflexivity|]); reflexivity]|].
    destruct H as (H1 & H2).
    set (pn := match pend (l_sub st) with Some p => (p, next_patch (l_sub st), next_edit (l_sub st)) | None => (mkpatch (next_patch (l_sub st)) [], (next_patch (l_sub st) + 1)%N, 1%N) end).
    assert (Hp : (lo <= snd (fst pn))%N /\ (lo <= p_id (fst (fst pn)) < snd (fst pn))%N /\ numbered (fst (fst pn)) (snd pn)).
    { unfold pn. destruct (pend (l_sub st)) as [p|]; cbn [fst snd p_id].
      - destruct (H2 p eq_refl) as (A & A2 & _). split; [exact H1|]. split; [exact A|exact A2].
      - split; [lia|]. split; [lia|]. split; [constructor|]. split; constructor. }
    destruct pn as [[p np] ne]. cbn [fst snd] in Hp. destruct Hp as (P1 & P2 & N1 & N2 & N3). unfold clear_target. destruct (both_quotes _ _ _).
    - split; [|do 3 (split; [reflexivity|]); reflexivity]. cbn [l_bad l_sub]. split; [exact P1|]. cbn [set_pend pend next_patch next_edit]. intros q E. injection E as <-. split; [exact P2|]. split; [split; [exact N1|split; assumption]|discriminate].
    - split; [|do 3 (split; [reflexivity|]); reflexivity]. cbn [l_bad l_sub]. split; [exact P1|]. cbn [set_pend pend next_patch next_edit]. intros q E. injection E as <-. cbn [p_id]. split; [exact P2|]. cbn [p_edits].
      set (f := fun e0 : yedit => negb (loc_eqb (y_tgt e0) (e_loc e))).
      assert (N2' : Forall (fun n => (n < ne)%N) (map y_id (filter f (p_edits p)))).
      { apply Forall_forall. intros n Hn. apply in_map_iff in Hn. destruct Hn as (z & <- & Hz). apply filter_In in Hz. apply (proj1 (Forall_forall _ _) N2). apply in_map. apply Hz. }
      split; [|intros _ X; apply app_eq_nil in X; destruct X as (_ & X); discriminate X]. unfold numbered. cbn [p_edits]. rewrite map_app. cbn [map]. change (y_id (edit_of ne (op_sr2yp kd o (e_node e)) (o, e, c))) with ne. split; [apply ss_snoc; [apply ss_filter; exact N1|exact N2']|]. split.
      + apply Forall_app. split; [|constructor; [cbv beta; apply N.lt_add_pos_r; reflexivity|constructor]]. eapply Forall_impl; [|exact N2']. intros n Hn. cbn beta in *. lia.
      + apply Forall_app. split; [apply Forall_forall; intros z Hz; apply filter_In in Hz; apply (proj1 (Forall_forall _ _) N3); apply Hz|]. constructor; [|constructor]. apply (B (o, e, c)); [left; reflexivity|exact Ex]. }
  destruct K as (K1 & K2 & K3 & K4 & K5). destruct (IH lo (loop_step st (o, e, c)) K1) as (A & A2 & A3 & A4 & A5).
  - rewrite K2. intros x id Hx. apply B. right. exact Hx.
  - split; [exact A|]. rewrite <- K2, <- K3, <- K4, <- K5. auto.
Qed.

(** What a step sends. *)
Definition sends (lo : N) (s s' : sub) (out : list (N * patch)) : Prop :=
  (out = [] /\ inv lo false s') \/ (exists t p, out = [(t, p)] /\ (lo <= p_id p)%N /\ whole p /\ inv (p_id p + 1) false s').
Lemma send_sends : forall lo now s, inv lo false s -> sends lo s (fst (send now s)) (snd (send now s)).
Proof.
  intros lo now s (H1 & H2). unfold send. destruct (pend s) as [p|] eqn:E; cbn [fst snd].
  - right. destruct (H2 p eq_refl) as (A & (B1 & B2 & B3) & C). exists now, p. split; [reflexivity|]. split; [lia|]. split; [split; [apply C; reflexivity|split; assumption]|]. split; [cbn [next_patch]; lia|]. intros q X. discriminate X.
  - left. split; [reflexivity|]. split; [exact H1|exact H2'] || (split; [exact H1|]; intros q X; rewrite E in X; discriminate X).
Qed.
Lemma step_sends : forall lo now ev s, inv lo false s -> (match ev with EChange cs => brings (excl s) cs | _ => True end) ->
  sends lo s (fst (step now ev s)) (snd (step now ev s)) /\ excl (fst (step now ev s)) = excl s.
Proof.
  intros lo now ev s H B. destruct ev as [cs| |per]; cbn [YangPush.step].
  - destruct (loop_inv cs lo (mklst s None false) H B) as (A & A2 & A3 & A4 & A5). unfold YangPush.on_change. set (r := fold_left loop_step cs (mklst s None false)) in *. clearbody r. cbn [l_sub] in A2, A3, A4, A5.
    destruct (l_bad r) eqn:Bd.
    + cbn [fst snd]. split; [|exact A2]. left. split; [reflexivity|]. split; [apply A|]. intros p X. discriminate X.
    + destruct (pend (l_sub r)) as [p|] eqn:E; [|cbn [fst snd]; split; [left; split; [reflexivity|exact A]|exact A2]].
      assert (Sn : sends lo s (fst (send now (l_sub r))) (snd (send now (l_sub r))) /\ excl (fst (send now (l_sub r))) = excl s) by (split; [exact (send_sends lo now _ A)|rewrite (proj1 (send_excl now (l_sub r))); exact A2]).
      unfold ready. destruct (N.eqb _ 0); [exact Sn|]. destruct (tid_set _); [cbn [fst snd]; split; [left; split; [reflexivity|exact A]|exact A2]|]. destruct (N.leb _ _); [exact Sn|]. cbn [fst snd]. split; [left; split; [reflexivity|exact A]|exact A2].
  - unfold tick. destruct (tmr s) as [|t|]; try (cbn [fst snd]; split; [left; split; [reflexivity|exact H]|reflexivity]). destruct (N.leb t now); [|cbn [fst snd]; split; [left; split; [reflexivity|exact H]|reflexivity]].
    pose proof (send_sends lo now s H) as Sn. pose proof (proj1 (send_excl now s)) as Se. destruct (send now s) as [s1 out]. cbn [fst snd] in *. split; [|exact Se]. destruct Sn as [(-> & Sn)|(u & p & -> & S1 & S2 & S3)]; [left; split; [reflexivity|exact Sn]|right; exists u, p; split; [reflexivity|]; split; [exact S1|]; split; [exact S2|exact S3]].
  - unfold modify. destruct (N.eqb per (period s)); [cbn [fst snd]; split; [left; split; [reflexivity|exact H]|reflexivity]|]. destruct (N.eqb per 0); [|cbn [fst snd]; split; [left; split; [reflexivity|exact H]|reflexivity]].
    split; [exact (send_sends lo now (set_period per TNone s) H)|exact (proj1 (send_excl now (set_period per TNone s)))].
Qed.
Lemma run_sends : forall evs lo s, inv lo false s -> (forall now cs, In (now, EChange cs) evs -> brings (excl s) cs) ->
  StronglySorted N.lt (map p_id (map snd (snd (run evs s)))) /\ Forall (fun n => (lo <= n)%N) (map p_id (map snd (snd (run evs s)))) /\ Forall whole (map snd (snd (run evs s))).
Proof.
  induction evs as [|[now ev] t IH]; intros lo s H B; [cbn; split; [constructor|split; constructor]|]. rewrite run_cons. cbn [snd]. rewrite map_app.
  destruct (step_sends lo now ev s H) as (Sn & Se); [destruct ev; try exact Logic.I; apply (B now); left; reflexivity|].
  set (s1 := fst (step now ev s)) in *. assert (B' : forall n cs, In (n, EChange cs) t -> brings (excl s1) cs) by (intros n cs Hin; rewrite Se; apply (B n); right; exact Hin).
  destruct Sn as [(E & I1)|(u & p & E & P1 & P2 & I1)]; rewrite E; cbn [map app snd].
  - exact (IH lo s1 I1 B').
  - destruct (IH _ s1 I1 B') as (A1 & A2 & A3). cbn [map]. split; [|split; [|constructor; assumption]].
    + constructor; [exact A1|]. eapply Forall_impl; [|exact A2]. intros n Hn. cbn beta in *. lia.
    + constructor; [exact P1|]. eapply Forall_impl; [|exact A2]. intros n Hn. cbn beta in *. lia.
Qed.
Lemma inv_new : forall per ex, inv 1 false (new_sub per ex).
Proof. intros per ex. split; [cbn; lia|]. intros p X. discriminate X. Qed.
End G.

(** ** The timer *)
Definition timely (s : sub) : Prop := (pend s <> None -> tmr s <> TNone) /\ (forall t, tmr s = TWaits t -> t = due s (period s)) /\ (period s = 0%N -> tmr s = TNone).
Definition gap (s : sub) (t : N) : Prop := match last s with Some u => (u + period s <= t)%N | None => True end.
Lemma due_gap : forall s t, (due s (period s) <= t)%N -> gap s t.
Proof. intros s t H. unfold gap, due in *. destruct (last s); [exact H|exact Logic.I]. Qed.
Lemma loop_frame : forall cs st, let r := fold_left loop_step cs st in excl (l_sub r) = excl (l_sub st) /\ period (l_sub r) = period (l_sub st) /\ last (l_sub r) = last (l_sub st) /\ tmr (l_sub r) = tmr (l_sub st).
Proof.
  induction cs as [|[[o e] c] t IH]; intros st; [do 3 (split; [reflexivity|]); reflexivity|]. cbn [fold_left]. destruct (IH (loop_step st (o, e, c))) as (A1 & A2 & A3 & A4). cbv zeta. rewrite A1, A2, A3, A4. clear.
  unfold YangPush.loop_step. destruct (l_bad st); [auto|]. destruct (nested _ _ _); [auto|]. destruct (excl _ _); [cbn; auto|].
  destruct (pend (l_sub st)); cbn zeta; destruct (clear_target _ _ _ _); cbn; auto.
Qed.
Lemma step_timely : forall now ev s, timely s -> timely (fst (step now ev s)).
Proof.
  intros now ev s (T1 & T2 & T3). destruct ev as [cs| |per]; cbn [YangPush.step].
  - destruct (loop_frame cs (mklst s None false)) as (A1 & A2 & A3 & A4). unfold YangPush.on_change. set (r := fold_left loop_step cs (mklst s None false)) in *. clearbody r. cbn [l_sub] in *. rewrite <- A4 in T1, T2, T3. rewrite <- A2 in T2, T3.
    assert (T2' : forall t, tmr (l_sub r) = TWaits t -> t = due (l_sub r) (period (l_sub r))) by (intros t Ht; rewrite (T2 t Ht); unfold due; rewrite A3; reflexivity).
    destruct (l_bad r); [cbn [fst]; split; [intros X; exfalso; apply X; reflexivity|split; [exact T2'|exact T3]]|].
    destruct (pend (l_sub r)) as [p|] eqn:E; [|cbn [fst]; split; [intros X; exfalso; apply X; exact E|split; [exact T2'|exact T3]]].
    unfold ready. destruct (N.eqb_spec (period (l_sub r)) 0) as [Z|Z].
    + unfold send. rewrite E. cbn [fst]. pose proof (T3 Z) as T. split; [intros X; exfalso; apply X; reflexivity|]. split; [cbn [tmr]; rewrite T; discriminate|exact T3].
    + destruct (tid_set (tmr (l_sub r))) eqn:Ti; [cbn [fst]; split; [intros _ X; rewrite X in Ti; discriminate Ti|split; [exact T2'|exact T3]]|].
      assert (Tn : tmr (l_sub r) = TNone) by (destruct (tmr (l_sub r)); [reflexivity|discriminate Ti|discriminate Ti]).
      destruct (N.leb _ _); [unfold send; rewrite E|]; cbn [fst].
      * split; [intros X; exfalso; apply X; reflexivity|]. split; [cbn [tmr]; rewrite Tn; discriminate|exact T3].
      * split; [intros _; discriminate|]. split; [cbn [tmr]; intros t Ht; injection Ht as <-; reflexivity|]. cbn [period]. intros X. contradiction.
  - unfold tick. destruct (tmr s) as [|t|] eqn:Tm; try (cbn [fst]; split; [rewrite Tm|split; [rewrite Tm|rewrite Tm]]; assumption).
    destruct (N.leb t now); [|cbn [fst]; split; [rewrite Tm; exact T1|split; [rewrite Tm; exact T2|rewrite Tm; exact T3]]].
    unfold send. destruct (pend s); cbn [fst]; (split; [intros _; discriminate|split; [discriminate|cbn [period]; intros Z; specialize (T3 Z); discriminate T3]]).
  - unfold modify. destruct (N.eqb_spec per (period s)) as [|Np]; [cbn [fst]; split; [exact T1|split; assumption]|]. destruct (N.eqb_spec per 0) as [Z|Z].
    + unfold send. cbn [set_period pend]. destruct (pend s) eqn:E; cbn [fst set_period pend]; (split; [intros X; exfalso; apply X; try reflexivity; exact E|]; split; [discriminate|reflexivity]).
    + cbn [fst set_period]. split; [cbn [pend tmr]; intros X; specialize (T1 X); destruct (tmr s); [contradiction|discriminate|discriminate]|]. split; [cbn [tmr period]; intros t Ht; destruct (tmr s); try discriminate Ht; injection Ht as <-; reflexivity|]. cbn [period]. intros X. contradiction.
Qed.
Lemma new_timely : forall per ex, timely (new_sub per ex).
Proof. intros per ex. split; [intros X; exfalso; apply X; reflexivity|]. split; [discriminate|reflexivity]. Qed.
Lemma run_timely : forall evs s, timely s -> timely (fst (run evs s)).
Proof. induction evs as [|[now ev] t IH]; intros s T; [exact T|]. rewrite run_cons. cbn [fst]. apply IH. apply step_timely. exact T. Qed.

(** A step sends nothing, or one notification, at its time, not sooner than the period after the last. *)
Lemma step_gap : forall now ev s, timely s -> period s <> 0%N -> (forall per, ev <> EModify per) ->
  period (fst (step now ev s)) = period s /\
  ((snd (step now ev s) = [] /\ last (fst (step now ev s)) = last s) \/ (exists p, snd (step now ev s) = [(now, p)] /\ gap s now /\ last (fst (step now ev s)) = Some now)).
Proof.
  intros now ev s (T1 & T2 & T3) Z M. destruct ev as [cs| |per]; [| |exfalso; apply (M per); reflexivity]; cbn [YangPush.step].
  - destruct (loop_frame cs (mklst s None false)) as (A1 & A2 & A3 & A4). unfold YangPush.on_change. set (r := fold_left loop_step cs (mklst s None false)) in *. clearbody r. cbn [l_sub] in *.
    destruct (l_bad r); [cbn [fst snd]; split; [exact A2|left; split; [reflexivity|exact A3]]|]. destruct (pend (l_sub r)) as [p|] eqn:E; [|cbn [fst snd]; split; [exact A2|left; split; [reflexivity|exact A3]]].
    unfold ready. destruct (N.eqb_spec (period (l_sub r)) 0) as [Z'|_]; [rewrite A2 in Z'; contradiction|]. destruct (tid_set _); [cbn [fst snd]; split; [exact A2|left; split; [reflexivity|exact A3]]|].
    destruct (N.leb_spec (due (l_sub r) (period (l_sub r))) now) as [L|L]; [|cbn [fst snd]; split; [exact A2|left; split; [reflexivity|exact A3]]].
    unfold send. rewrite E. cbn [fst snd]. split; [exact A2|]. right. exists p. split; [reflexivity|]. split; [|reflexivity]. apply due_gap in L. unfold gap in *. rewrite A2, A3 in L. exact L.
  - unfold tick. destruct (tmr s) as [|t|] eqn:Tm; try (cbn [fst snd]; split; [reflexivity|left; split; reflexivity]). destruct (N.leb_spec t now) as [L|L]; [|cbn [fst snd]; split; [reflexivity|left; split; reflexivity]].
    unfold send. destruct (pend s) as [p|]; cbn [fst snd]; (split; [reflexivity|]); [right; exists p; split; [reflexivity|split; [|reflexivity]]; apply due_gap; rewrite <- (T2 t eq_refl); exact L|left; split; reflexivity].
Qed.

(** ** A timer that has returned *)
Lemma dead_step : forall now ev s, tmr s = TReturned -> period s <> 0%N -> ev <> EModify 0 ->
  snd (step now ev s) = [] /\ tmr (fst (step now ev s)) = TReturned /\ period (fst (step now ev s)) <> 0%N.
Proof.
  intros now ev s T Z M. destruct ev as [cs| |per]; cbn [YangPush.step].
  - destruct (loop_frame cs (mklst s None false)) as (A1 & A2 & A3 & A4). unfold YangPush.on_change. set (r := fold_left loop_step cs (mklst s None false)) in *. clearbody r. cbn [l_sub] in *. rewrite T in A4. rewrite <- A2 in Z.
    destruct (l_bad r); [cbn [fst snd]; auto|]. destruct (pend (l_sub r)); [|cbn [fst snd]; auto]. unfold ready. destruct (N.eqb_spec (period (l_sub r)) 0) as [Z'|_]; [contradiction|]. rewrite A4. cbn [tid_set fst snd]. auto.
  - unfold tick. rewrite T. cbn [fst snd]. auto.
  - unfold modify. destruct (N.eqb_spec per (period s)); [cbn [fst snd]; auto|]. destruct (N.eqb_spec per 0) as [->|Np]; [exfalso; apply M; reflexivity|]. cbn [fst snd set_period tmr period]. rewrite T. auto.
Qed.
Lemma dead_run : forall evs s, tmr s = TReturned -> period s <> 0%N -> (forall now, ~ In (now, EModify 0) evs) -> snd (run evs s) = [].
Proof.
  induction evs as [|[now ev] t IH]; intros s T Z M; [reflexivity|]. destruct (dead_step now ev s T Z) as (A & B & C); [intros ->; apply (M now); left; reflexivity|]. rewrite run_cons. cbn [snd]. rewrite A, (IH _ B C); [reflexivity|]. intros n Hn. apply (M n). right. exact Hn.
Qed.

(** ** Nodes changed once *)
Lemma once_apart : forall evs s (seen : list loc), (forall e, In e (pedits s) -> In (y_tgt e) seen) ->
  (forall now ev l, In (now, ev) evs -> In l (places ev) -> ~ In l seen) -> once evs -> apart kd odd evs s.
Proof.
  induction evs as [|[now ev] t IH]; intros s seen P Q O; [exact Logic.I|]. cbn [apart]. cbn [once] in O. destruct O as (O1 & O2). split; [intros e He X; apply (Q now ev (y_tgt e)); [left; reflexivity|exact X|apply P; exact He]|].
  apply (IH _ (seen ++ places ev)); [|intros n ev' l Hin Hl X; apply in_app_or in X; destruct X as [X|X]; [apply (Q n ev' l (or_intror Hin) Hl X)|apply (O1 l X n ev' Hin Hl)]|exact O2].
  (* what waits are changes that came *)
  assert (Gs : forall p, pend s = Some p -> Forall (fun e => In (y_tgt e) (seen ++ places ev)) (p_edits p)).
  { intros p E. apply Forall_forall. intros e He. apply in_or_app. left. apply P. unfold pedits, waits. rewrite E. cbn [flat_map]. rewrite app_nil_r. exact He. }
  assert (Keep : forall s', (pend s' = pend s \/ pend s' = None) -> forall e, In e (pedits s') -> In (y_tgt e) (seen ++ places ev)).
  { intros s' [E|E] e He; unfold pedits, waits in He; rewrite E in He; [|destruct He]. destruct (pend s) as [p|]; [|destruct He]. cbn [flat_map] in He. rewrite app_nil_r in He. exact (proj1 (Forall_forall _ _) (Gs p eq_refl) e He). }
  destruct ev as [cs| |per]; cbn [YangPush.step].
  - assert (L : forall cs' st, (forall x, In x cs' -> In x cs) -> (forall e, In e (pedits (l_sub st)) -> In (y_tgt e) (seen ++ places (EChange cs))) ->
                forall e, In e (pedits (l_sub (fold_left loop_step cs' st))) -> In (y_tgt e) (seen ++ places (EChange cs))).
    { induction cs' as [|[[o e0] c] u IHu]; intros st I0 S0; [exact S0|]. cbn [fold_left]. apply IHu; [intros x Hx; apply I0; right; exact Hx|]. unfold YangPush.loop_step. destruct (l_bad st); [exact S0|]. destruct (nested _ _ _); [exact S0|]. destruct (excl _ _); [exact S0|].
      unfold pedits, waits in S0. destruct (pend (l_sub st)) as [p|]; cbn zeta; unfold clear_target; destruct (both_quotes _ _ _); intros e He; unfold pedits, waits in He; cbn [l_sub set_pend pend flat_map p_edits] in He, S0; rewrite ?app_nil_r in He, S0.
      - apply S0. exact He.
      - apply in_app_or in He. destruct He as [He|[<-|[]]]; [apply filter_In in He; apply S0; apply He|]. apply in_or_app. right. apply (places_in (o, e0, c)). apply I0. left. reflexivity.
      - destruct He.
      - cbn [filter app] in He. destruct He as [<-|[]]. apply in_or_app. right. apply (places_in (o, e0, c)). apply I0. left. reflexivity. }
    assert (L1 : forall e, In e (pedits (l_sub (fold_left loop_step cs (mklst s None false)))) -> In (y_tgt e) (seen ++ places (EChange cs))).
    { apply L; [auto|]. cbn [l_sub]. intros e He. apply in_or_app. left. apply P. exact He. }
    unfold YangPush.on_change. set (r := fold_left loop_step cs (mklst s None false)) in *. clearbody r. destruct (l_bad r); [intros e []|]. destruct (pend (l_sub r)) eqn:E; [|exact L1].
    unfold ready. assert (Sn : forall e, In e (pedits (fst (send now (l_sub r)))) -> In (y_tgt e) (seen ++ places (EChange cs))) by (unfold send; rewrite E; intros e []).
    destruct (N.eqb _ 0); [exact Sn|]. destruct (tid_set _); [exact L1|]. destruct (N.leb _ _); [exact Sn|exact L1].
  - apply Keep. unfold tick. destruct (tmr s) as [|t0|]; try (left; reflexivity). destruct (N.leb t0 now); [|left; reflexivity]. unfold send. destruct (pend s) eqn:E; cbn [fst pend]; right; [reflexivity|exact E].
  - apply Keep. unfold modify. destruct (N.eqb _ _); [left; reflexivity|]. destruct (N.eqb per 0); [|left; reflexivity]. unfold send. cbn [set_period pend]. destruct (pend s) eqn:E; cbn [fst pend]; right; [reflexivity|exact E].
Qed.
End P.
