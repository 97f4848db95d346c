(** C60: subscribers may update changes before they are applied. *)
From Coq Require Import NArith List Bool Arith Lia Sorted.
From Verif Require Import Update UpdateSpec UpdateProofs UpdateAsk UpdateCommit.
Import ListNotations.

(** Every subscriber that is to be asked is called once, module by module and by
    decreasing priorities, and is shown the changes of the originator.  If some are not
    called, then somebody refused and the changes are refused. *)
Theorem C60_asked : forall w tab d e d1,
  table tab -> calm w tab -> sound w -> steps d e d1 -> w_valid w d1 = true ->
  exists df ms plan rest,
    exact df d d1 /\
    NoDup ms /\ (forall m, In m ms <-> exists x, In x df /\ p_mod (fst x) = m) /\
    (forall m, In m ms -> in_order tab df m (plan m)) /\
    flat_map plan ms = map who (f_calls (commit w tab d e)) ++ rest /\
    (forall c x, In c (f_calls (commit w tab d e)) -> (In x (shown c) <-> seen_by (who c) df x)) /\
    (rest <> [] -> f_verdict (commit w tab d e) = Refused /\ exists s, In s (flat_map plan ms) /\ refuses w s).
Proof.
  intros w tab d e d1 T C So St V. destruct (steps_edit_apply _ _ _ St) as (d2 & df & E & Q).
  destruct (edit_apply_steps _ _ _ _ E) as [_ X].
  exists df, (mods df), (fun m => filter (called df) (lst tab df m)).
  destruct (notify_update (w_beh w) tab df) as [k r] eqn:Nu.
  destruct (notify_calm w tab df k r T C Nu) as (Sh & rest & Pl & Y).
  assert (f_calls (commit w tab d e) = k /\ (r = URefused -> f_verdict (commit w tab d e) = Refused)) as [K Rf].
  { unfold commit. rewrite E, (So d2 d1 Q), V. cbn [negb]. destruct df as [|x df].
    - cbn in Nu. injection Nu as <- <-. split; [reflexivity|discriminate].
    - rewrite Nu. unfold publish. destruct Y as [[_ (c' & ->)]|[-> _]]; [|auto].
      split; [|discriminate].
      repeat match goal with |- f_calls (match ?z with _ => _ end) = _ => destruct z end; reflexivity. }
  rewrite K. exists rest. split; [apply exact_deq with d2; assumption|].
  split; [apply next_mods_nodup|]. split.
  { intro m. unfold mods. rewrite next_mods_in, in_map_iff. split.
    - intros [(x & Ex & I) _]. exists x. auto.
    - intros (x & I & Ex). split; [exists x; auto|intros []]. }
  split; [intros m _; apply plan_ok, table_apart; exact T|]. split; [exact Pl|]. split.
  { intros c x I. rewrite (Sh c I). apply get_diff_in. }
  intro NE. destruct Y as [[Z _]|[Z (s & I & R)]]; [contradiction|]. split; [apply Rf; exact Z|].
  exists s. rewrite Pl. auto.
Qed.

(** Nobody is called about changes that cannot be made or that are invalid. *)
Theorem C60_not_asked : forall w tab d e,
  sound w -> (forall d1, steps d e d1 -> w_valid w d1 = false) ->
  f_calls (commit w tab d e) = [] /\ f_verdict (commit w tab d e) = Refused /\ f_data (commit w tab d e) = d.
Proof.
  intros w tab d e So H. unfold commit. destruct (edit_apply e d) as [[d1 df]|] eqn:E; [|auto].
  destruct (edit_apply_steps _ _ _ _ E) as [S1 _]. rewrite (H d1 S1). auto.
Qed.

(** The changes of the originator followed by all the updates are applied, or nothing;
    the event "change" is given the exact difference. *)
Theorem C60_applied : forall w tab d e,
  table tab -> calm w tab ->
  let r := commit w tab d e in
  match f_verdict r with
  | Applied =>
      steps d (e ++ updates (f_calls r)) (f_data r) /\ w_valid w (f_data r) = true /\
      match f_diff r with
      | Some df => exact df d (f_data r) /\ df <> [] /\ w_accept w df = true
      | None => deq d (f_data r)
      end
  | Refused => f_data r = d
  | Undefined => False
  end.
Proof.
  intros w tab d e T C r. unfold r, commit. destruct (edit_apply e d) as [[d1 df]|] eqn:E; [|reflexivity].
  destruct (edit_apply_steps _ _ _ _ E) as [S1 X]. destruct (w_valid w d1) eqn:V; [|reflexivity]. cbn [negb].
  assert (forall df' d', exact df' d d' -> df' = [] -> deq d d') as Nil.
  { intros df' d' [_ Y] -> p. destruct (oeqb (d p) (d' p)) eqn:Q; [apply oeqb_eq; exact Q|]. exfalso.
    apply (Y p (d p) (d' p)). repeat split. intro K. apply oeqb_eq in K. congruence. }
  assert (forall k d' df', steps d (e ++ updates k) d' -> w_valid w d' = true -> exact df' d d' ->
    match f_verdict (publish w d d' df' k) with
    | Applied => steps d (e ++ updates (f_calls (publish w d d' df' k))) (f_data (publish w d d' df' k)) /\
        w_valid w (f_data (publish w d d' df' k)) = true /\
        match f_diff (publish w d d' df' k) with
        | Some df => exact df d (f_data (publish w d d' df' k)) /\ df <> [] /\ w_accept w df = true
        | None => deq d (f_data (publish w d d' df' k))
        end
    | Refused => f_data (publish w d d' df' k) = d
    | Undefined => False
    end) as Pub.
  { intros k d' df' A B D. unfold publish. destruct df' as [|y df'].
    - cbn. split; [exact A|]. split; [exact B|]. apply (Nil [] d' D eq_refl).
    - destruct (w_accept w (y :: df')) eqn:Ac; cbn; [|reflexivity]. split; [exact A|]. split; [exact B|]. split; [exact D|]. split; [discriminate|exact Ac]. }
  destruct df as [|x df].
  - cbn. rewrite app_nil_r. split; [exact S1|]. split; [exact V|]. apply (Nil [] d1 X eq_refl).
  - destruct (notify_update (w_beh w) tab (x :: df)) as [k r'] eqn:Nu.
    destruct (notify_calm w tab _ k r' T C Nu) as (_ & rest & _ & Y). destruct Y as [[_ (c' & E')]|[E' _]]; rewrite E'; [|reflexivity].
    destruct (updates k) as [|o us] eqn:Us.
    + cbn [add]. apply Pub; auto. rewrite Us, app_nil_r. exact S1.
    + change (add None (o :: us)) with (Some (insert_all [] (o :: us))). cbv iota.
      destruct (edit_apply (insert_all [] (o :: us)) d1) as [[d2 df2]|] eqn:E2; [|reflexivity].
      destruct (edit_apply_steps _ _ _ _ E2) as [S2 X2]. destruct (w_valid w d2) eqn:V2; [|reflexivity]. cbn [negb].
      apply Pub; auto.
      * rewrite Us. apply steps_app with d1; [exact S1|].
        destruct (steps_add (o :: us) d1 d2) as (u & Eu & I); [discriminate|]. cbn [add] in Eu. injection Eu as <-. apply I. exact S2.
      * apply exact_merge_gen with d1; assumption.
Qed.

(** If nobody refuses, the changes with the updates can be made, both are valid and the
    event "change" is accepted, they are applied. *)
Theorem C60_complete : forall w tab d e d1 d2,
  table tab -> calm w tab -> sound w -> (forall s, In s tab -> ~ refuses w s) ->
  steps d e d1 -> w_valid w d1 = true ->
  steps d (e ++ updates (f_calls (commit w tab d e))) d2 -> w_valid w d2 = true ->
  (forall df, exact df d d2 -> w_accept w df = true) ->
  f_verdict (commit w tab d e) = Applied /\ deq (f_data (commit w tab d e)) d2.
Proof.
  intros w tab d e d1 d2 T C So NR S1 V1 S2 V2 Ac.
  assert (f_verdict (commit w tab d e) = Applied) as Ap.
  { revert S2. unfold commit. destruct (steps_edit_apply _ _ _ S1) as (a & df & E & Q). rewrite E.
    destruct (edit_apply_steps _ _ _ _ E) as [Sa X]. rewrite (So a d1 Q), V1. cbn [negb].
    assert (forall k b df', exact df' d b -> deq b d2 -> f_verdict (publish w d b df' k) = Applied) as Pub.
    { intros k b df' D Eq. unfold publish. destruct df' as [|y df']; [reflexivity|].
      rewrite (Ac (y :: df')) by (apply exact_deq with b; assumption). reflexivity. }
    destruct df as [|x df]; [reflexivity|].
    destruct (notify_update (w_beh w) tab (x :: df)) as [k r'] eqn:Nu.
    destruct (notify_calm w tab _ k r' T C Nu) as (_ & rest & Pl & Y). destruct Y as [[_ (c' & E')]|[E' (s & I & R)]]; rewrite E' in *; clear E'.
    2:{ exfalso. rewrite <- Pl in I. apply in_flat_map in I. destruct I as (m & _ & I). apply filter_In in I.
        destruct I as [I _]. apply lst_in in I. apply (NR s (proj1 I) R). }
    destruct (updates k) as [|o us] eqn:Us.
    - change (add None []) with (@None (list op)). cbv iota. intro S2.
      assert (f_calls (publish w d a (x :: df) k) = k) as Fk by (unfold publish; destruct (w_accept w (x :: df)); reflexivity).
      rewrite Fk, Us, app_nil_r in S2. apply Pub; [exact X|]. apply (steps_det e d); assumption.
    - change (add None (o :: us)) with (Some (insert_all [] (o :: us))). cbv iota.
      destruct (steps_add (o :: us) a d2) as (u & Eu & I); [discriminate|]. cbn [add] in Eu. injection Eu as <-.
      assert (forall y, f_calls y = k -> steps d (e ++ updates (f_calls y)) d2 -> steps a (insert_all [] (o :: us)) d2) as G.
      { intros y Fk S2. rewrite Fk, Us in S2. apply I. destruct (steps_split _ _ _ _ S2) as (b & A & B).
        apply (steps_start _ b); [|exact B]. apply (steps_det e d); assumption. }
      destruct (edit_apply (insert_all [] (o :: us)) a) as [[b df2]|] eqn:E2.
      + destruct (edit_apply_steps _ _ _ _ E2) as [Sb X2]. intro S2.
        assert (steps a (insert_all [] (o :: us)) d2) as S3.
        { revert S2. apply G. destruct (w_valid w b); cbn [negb]; [|reflexivity].
          unfold publish. destruct (merge (x :: df) df2); [reflexivity|]. destruct (w_accept w _); reflexivity. }
        assert (deq b d2) as Qb by (apply (steps_det (insert_all [] (o :: us)) a); assumption).
        rewrite (So b d2 Qb), V2. cbn [negb]. apply Pub; [|exact Qb]. apply exact_merge_gen with a; assumption.
      + intro S2. apply G in S2; [|reflexivity]. destruct (steps_edit_apply _ _ _ S2) as (b & df2 & K & _). congruence. }
  split; [exact Ap|]. pose proof (C60_applied w tab d e T C) as H. cbv zeta in H. rewrite Ap in H.
  apply (steps_det _ d) with (1 := proj1 H). exact S2.
Qed.

Print Assumptions C60_asked.
Print Assumptions C60_not_asked.
Print Assumptions C60_applied.
Print Assumptions C60_complete.

(** ** An example: two modules, three subscribers *)

Definition pa : path := (1, 1, 1)%N.
Definition pb : path := (1, 2, 1)%N.
Definition pc : path := (2, 1, 1)%N.
Definition d0 : data := fun _ => None.
Definition sb (m i pr : N) (fo : bool) (sel : path -> bool) : sub := Sub m i i pr true false true fo false sel.
Definition hist : list tevent :=
  [TSub (sb 1 10 5 false (fun _ => true)); TSub (sb 1 11 9 false (fun _ => true));
   TSub (sb 1 12 9 false (fun _ => true)); TSub (sb 2 13 1 false (fun _ => true))].
Definition ex_beh (i : N) : behaviour :=
  if N.eqb i 10 then Beh false [AOk [(pb, KSet 7%N); (pc, KCreate 3%N)]]
  else if N.eqb i 11 then Beh false [AOk [(pb, KCreate 6%N)]] else Beh false [AOk []].
Definition ex_w : world := World ex_beh (fun _ => true) (fun _ => true).

Example C60_example :
  table (trun hist) /\ calm ex_w (trun hist) /\ sound ex_w /\
  map (fun c => s_id (who c)) (f_calls (commit ex_w (trun hist) d0 [(pa, KCreate 1%N)])) = [11; 10]%N /\
  f_diff (commit ex_w (trun hist) d0 [(pa, KCreate 1%N)]) =
    Some [(pa, (None, Some 1)); (pb, (None, Some 7)); (pc, (None, Some 3))]%N /\
  f_verdict (commit ex_w (trun hist) d0 [(pa, KCreate 1%N)]) = Applied.
Proof.
  split; [exists hist; reflexivity|]. split.
  - split; [|split; [|split]].
    + intro i. cbn. unfold ex_beh. destruct (N.eqb i 10), (N.eqb i 11); reflexivity.
    + intros i e. cbn. unfold ex_beh. destruct (N.eqb i 10), (N.eqb i 11); cbn; intuition discriminate.
    + intros s I. cbn in I. destruct I as [<-|[<-|[<-|[]]]]; cbn; lia.
    + intros s p I F. cbn in I. destruct I as [<-|[<-|[<-|[]]]]; discriminate.
  - split; [intros a b _; reflexivity|]. vm_compute. auto.
Qed.

(** ** What does not hold *)

Definition one (s : sub) : list sub := trun [TSub s].

(** F194: the variable with the edit of a subscriber is not set if the subscriber ended
    after it was selected and before the event was announced to it; it is then read. *)
Theorem C60_ended_subscriber_refuted :
  exists w tab d e, table tab /\ f_verdict (commit w tab d e) = Undefined /\
    (forall i x, ~ In (AShelve x) (b_answers (w_beh w i))).
Proof.
  exists (World (fun _ => Beh true [AOk []]) (fun _ => true) (fun _ => true)), (one (sb 1 10 5 false (fun _ => true))), d0, [(pa, KCreate 1%N)].
  split; [eexists; reflexivity|]. split; [vm_compute; reflexivity|]. intros i x. cbn. intuition discriminate.
Qed.

(** F195: a callback postponing the event "update" (SR_ERR_CALLBACK_SHELVE) makes the
    printed edit overwrite the originator and the diff, so processing the event again
    reads something else. *)
Theorem C60_shelved_refuted :
  exists w tab d e, table tab /\ (forall i, b_gone (w_beh w i) = false) /\ f_verdict (commit w tab d e) = Undefined.
Proof.
  exists (World (fun _ => Beh false [AShelve []; AOk []]) (fun _ => true) (fun _ => true)), (one (sb 1 10 5 false (fun _ => true))), d0, [(pa, KCreate 1%N)].
  split; [eexists; reflexivity|]. split; [reflexivity|]. vm_compute. reflexivity.
Qed.

(** F196: the originator checks the filter of a subscription (SR_SUBSCR_FILTER_ORIG) on
    all the changes, the subscriber on those of its module; if only another module has a
    selected change, the event is never processed and the changes are refused, although
    nobody refused them. *)
Theorem C60_orig_filter_refuted :
  exists w tab d e, table tab /\ (forall s, In s tab -> ~ refuses w s) /\
    f_verdict (commit w tab d e) = Refused /\ f_calls (commit w tab d e) = [].
Proof.
  exists (World (fun _ => Beh false [AOk []]) (fun _ => true) (fun _ => true)),
    (one (sb 1 10 5 true (fun p => N.eqb (p_mod p) 2))), d0, [(pa, KCreate 1%N); (pc, KCreate 1%N)].
  split; [eexists; reflexivity|]. split; [intros s _; cbn; auto|]. vm_compute. auto.
Qed.

(** F197: a subscriber with the highest priority (UINT32_MAX) is never asked to update
    the changes. *)
Theorem C60_max_priority_refuted :
  exists w tab d e s, table tab /\ wanted tab [(pa, (None, Some 1%N))] 1 s /\
    f_verdict (commit w tab d e) = Applied /\ f_diff (commit w tab d e) = Some [(pa, (None, Some 1%N))] /\
    f_calls (commit w tab d e) = [].
Proof.
  exists (World (fun _ => Beh false [AOk []]) (fun _ => true) (fun _ => true)),
    (one (sb 1 10 4294967295 false (fun _ => true))), d0, [(pa, KCreate 1%N)].
  eexists. split; [eexists; reflexivity|]. split; [|vm_compute; auto].
  split; [left; reflexivity|]. repeat split. exists (pa, (None, Some 1%N)). repeat split; auto. left. reflexivity.
Qed.
