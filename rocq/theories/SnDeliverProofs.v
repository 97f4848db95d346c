(** Proofs about delivery of notifications. *)
From Coq Require Import List Bool Arith Lia.
From Verif Require Import SnDeliver SnDeliverSpec.
Import ListNotations.

Fixpoint susp_at (s : bool) (h : list op) : bool := match h with [] => s | Suspend :: t => susp_at true t | Resume :: t => susp_at false t | _ :: t => susp_at s t end.
Lemma susp_app s h k : susp_at s (h ++ k) = susp_at (susp_at s h) k.
Proof. revert s. induction h as [|o h IH]; intros s; [reflexivity|]. destruct o; apply IH. Qed.
Lemma lives_app s h k : lives s (h ++ k) = lives s h ++ lives (susp_at s h) k.
Proof. revert s. induction h as [|o h IH]; intros s; [reflexivity|]. destruct o; cbn [app lives susp_at]; rewrite ?IH, ?app_assoc; reflexivity. Qed.
Lemma filter_filter_and {A} (f g : A -> bool) l : filter f (filter g l) = filter (fun x => g x && f x) l.
Proof. induction l as [|x l IH]; [reflexivity|]. cbn [filter]. destruct (g x); cbn [filter andb]; [destruct (f x); rewrite IH; reflexivity|exact IH]. Qed.
Lemma filter_one {A} (f : A -> bool) x : filter f [x] = if f x then [x] else [].
Proof. reflexivity. Qed.
Definition fresh (i : nat) (l : list nat) : list nat := if existsb (Nat.eqb i) l then [] else [i].
Lemma filter_id {A} (f : A -> bool) l : (forall x, In x l -> f x = true) -> filter f l = l.
Proof. induction l as [|x l IH]; intros H; [reflexivity|]. cbn [filter]. rewrite (H x (or_introl eq_refl)), IH; [reflexivity|]. intros y Hy. apply H. right. exact Hy. Qed.
Lemma visited_snoc h o : visited (h ++ [o]) = visited h ++ match o with Visit i _ _ => fresh i (visited h) | _ => [] end.
Proof.
  induction h as [|p h IH]; [destruct o; reflexivity|]. destruct p as [j f l| | | |]; cbn [app visited]; try exact IH.
  rewrite IH, filter_app. f_equal. destruct o as [i f' l'| | | |]; try reflexivity. unfold fresh at 2. cbn [existsb].
  destruct (Nat.eqb_spec i j) as [->|N]; cbn [orb].
  - unfold fresh. destruct (existsb (Nat.eqb j) (visited h)); cbn [filter]; [reflexivity|]. rewrite Nat.eqb_refl. reflexivity.
  - assert (E : existsb (Nat.eqb i) (filter (fun k => negb (Nat.eqb k j)) (visited h)) = existsb (Nat.eqb i) (visited h)).
    { clear IH. induction (visited h) as [|k r IHr]; [reflexivity|]. cbn [filter existsb]. destruct (Nat.eqb_spec k j) as [->|Nk]; cbn [negb existsb]; rewrite IHr; [|reflexivity].
      destruct (Nat.eqb_spec i j); [contradiction|reflexivity]. }
    rewrite E. unfold fresh. destruct (existsb (Nat.eqb i) (visited h)); cbn [filter]; [reflexivity|]. destruct (Nat.eqb_spec i j); [contradiction|reflexivity].
Qed.
Lemma existsb_eqb i l : existsb (Nat.eqb i) l = true <-> In i l.
Proof. rewrite existsb_exists. split; [intros (x & H & E); apply Nat.eqb_eq in E; subst; exact H|intros H; exists i; split; [exact H|apply Nat.eqb_refl]]. Qed.
Lemma visited_nodup h : NoDup (visited h).
Proof.
  induction h as [|o h IH]; [constructor|]. destruct o; cbn [visited]; try exact IH. constructor.
  - intros H. apply filter_In in H as (_ & H). rewrite Nat.eqb_refl in H. discriminate H.
  - apply NoDup_filter. exact IH.
Qed.
Lemma visited_lt n h : Forall (ordinary n) h -> forall i, In i (visited h) -> i < n.
Proof.
  induction 1 as [|o h Ho _ IH]; intros i Hi; [destruct Hi|]. destruct o as [j f l| | | |]; cbn [visited] in Hi; auto.
  destruct Hi as [<-|Hi]; [destruct f; [destruct Ho|exact Ho]|]. apply IH. apply filter_In in Hi. tauto.
Qed.
Lemma visited_all n h : Forall (ordinary n) h -> (forall i, i < n -> In i (visited h)) <-> length (visited h) = n.
Proof.
  intros F. pose proof (visited_lt n h F) as L. pose proof (visited_nodup h) as ND. split.
  - intros H. apply Nat.le_antisymm.
    + rewrite <- (seq_length n 0). apply NoDup_incl_length; [exact ND|]. intros i Hi. apply in_seq. pose proof (L i Hi). lia.
    + rewrite <- (seq_length n 0) at 1. apply NoDup_incl_length; [apply seq_NoDup|]. intros i Hi. apply in_seq in Hi. apply H. lia.
  - intros E i Hi. assert (Q : incl (seq 0 n) (visited h)).
    { apply NoDup_length_incl; [exact ND|rewrite seq_length; lia|]. intros j Hj. apply in_seq. pose proof (L j Hj). lia. }
    apply Q. apply in_seq. lia.
Qed.
Lemma visited_le n h : Forall (ordinary n) h -> length (visited h) <= n.
Proof. intros F. rewrite <- (seq_length n 0). apply NoDup_incl_length; [apply visited_nodup|]. intros i Hi. apply in_seq. pose proof (visited_lt n h F i Hi). lia. Qed.

(** Repeated callbacks. *)
Lemma fold_replay l : forall x, fold_left (fun a n => cb_replay n a) l x = with_out (map INtf l) x.
Proof.
  induction l as [|n l IH]; intros [t d r b s c o]; cbn [fold_left map]; [unfold with_out; cbn; rewrite app_nil_r; reflexivity|].
  rewrite IH. unfold cb_replay, with_out. cbn. rewrite <- app_assoc. reflexivity.
Qed.
Lemma fold_live l : forall x, fold_left (fun a n => cb_live n a) l x =
  if Nat.ltb (s_done x) (s_total x) then mksub (s_total x) (s_done x) (s_replayed x) (s_buf x ++ l) (s_susp x) (s_closed x) (s_out x) else with_out (map INtf l) x.
Proof.
  induction l as [|n l IH]; intros [t d r b s c o]; cbn [fold_left map s_done s_total s_replayed s_buf s_susp s_closed s_out].
  - destruct (Nat.ltb d t); unfold with_out; cbn; rewrite app_nil_r; reflexivity.
  - rewrite IH. unfold cb_live. cbn [s_done s_total s_replayed s_buf s_susp s_closed s_out]. destruct (Nat.ltb d t) eqn:E; cbn [with_out s_done s_total s_replayed s_buf s_susp s_closed s_out]; rewrite E.
    + rewrite <- app_assoc. reflexivity.
    + unfold with_out. cbn. rewrite <- app_assoc. reflexivity.
Qed.
Lemma plain_ntf l : filter plain (map INtf l) = map INtf l.
Proof. apply filter_id. intros x Hx. apply in_map_iff in Hx as (n & <- & _). reflexivity. Qed.

Section R.
Variable stored : list (list ntf).
Let n := length stored.
Record inv (h : list op) (x : sub) : Prop := mkinv {
  i_total : s_total x = n;
  i_done : s_done x = length (visited h);
  i_rep : s_replayed x = rev (visited h);
  i_susp : s_susp x = susp_at false h;
  i_open : s_closed x = false;
  i_buf : length (visited h) < n -> s_buf x = lives false h /\ received x = map INtf (replays stored h);
  i_out : length (visited h) = n -> received x = map INtf (replays stored h) ++ ICompleted :: map INtf (lives false h) }.

Lemma rep_snoc h o : replays stored (h ++ [o]) = replays stored h ++ match o with Visit i _ _ => flat_map (fun i => filter n_sel (nth i stored [])) (fresh i (visited h)) | _ => [] end.
Proof. unfold replays. rewrite visited_snoc, flat_map_app. f_equal. destruct o; reflexivity. Qed.

Lemma inv_run h : Forall (ordinary n) h -> 0 < n -> inv h (fold_left (step stored) h (new_sub true n)).
Proof.
  induction h as [|o h IH] using rev_ind; intros F P.
  - constructor; try reflexivity; cbn; [intros _; split; reflexivity|intros E; exfalso; lia].
  - apply Forall_app in F as (F & Fo). specialize (IH F P). rewrite fold_left_app. cbn [fold_left]. set (x := fold_left (step stored) h (new_sub true n)) in *. clearbody x.
    pose proof (visited_le n h F) as Le. pose proof (visited_le n (h ++ [o])) as Le'. rewrite Forall_app in Le'. specialize (Le' (conj F Fo)).
    inversion Fo as [|? ? Ho _]; subst. destruct IH as [A1 A2 A3 A4 A5 A6 A7]. destruct x as [t d r b s c out]. unfold received in *. cbn [s_total s_done s_replayed s_buf s_susp s_closed s_out] in *. subst t c.
    destruct o as [i [k|] l| | | |]; try (destruct Ho; fail).
    + pose proof (visited_snoc h (Visit i None l)) as V. cbn [ordinary] in Ho. unfold step, visit. cbn [s_closed]. unfold module_replay. cbn [s_replayed].
      assert (Ex : existsb (Nat.eqb i) r = existsb (Nat.eqb i) (visited h)).
      { subst r. apply eq_true_iff_eq. rewrite !existsb_eqb. symmetry. apply in_rev. }
      rewrite Ex. pose proof (rep_snoc h (Visit i None l)) as RS. pose proof (lives_app false h [Visit i None l]) as LS. cbn [lives] in LS. rewrite app_nil_r in LS.
      pose proof (susp_app false h [Visit i None l]) as SS. cbn [susp_at] in SS. unfold fresh in V, RS.
      destruct (existsb (Nat.eqb i) (visited h)) eqn:E.
      * cbn [flat_map] in RS. rewrite app_nil_r in V, RS. unfold module_events. cbn [s_susp]. rewrite <- A4 in LS. destruct s eqn:Es.
        -- rewrite app_nil_r in LS. constructor; cbn [s_total s_done s_replayed s_buf s_susp s_closed s_out]; unfold received; cbn [s_out]; rewrite ?V, ?RS, ?LS, ?SS; auto.
        -- rewrite fold_live. cbn [s_total s_done s_replayed s_buf s_susp s_closed s_out]. destruct (Nat.ltb_spec d n) as [Lt|Ge].
           ++ constructor; cbn [s_total s_done s_replayed s_buf s_susp s_closed s_out]; unfold received; cbn [s_out]; rewrite ?V, ?RS, ?LS, ?SS; auto; [|intros; lia].
              intros H. destruct (A6 H) as (B1 & B2). rewrite B1. auto.
           ++ unfold with_out. constructor; cbn [s_total s_done s_replayed s_buf s_susp s_closed s_out]; unfold received; cbn [s_out]; rewrite ?V, ?RS, ?LS, ?SS; auto; [intros; lia|].
              intros H. rewrite filter_app, plain_ntf, (A7 H), map_app, <- app_assoc. reflexivity.
      * cbn [flat_map] in RS. rewrite app_nil_r in RS. unfold replay_notify. cbv zeta. rewrite fold_replay. unfold with_out, cb_complete. cbn [s_total s_done s_replayed s_buf s_susp s_closed s_out].
        assert (LV : length (visited (h ++ [Visit i None l])) = length (visited h) + 1) by (rewrite V, app_length; reflexivity).
        assert (RV : rev (visited (h ++ [Visit i None l])) = i :: rev (visited h)) by (rewrite V, rev_app_distr; reflexivity).
        assert (Lt : length (visited h) < n) by lia. destruct (A6 Lt) as (B1 & B2). rewrite <- A4 in LS.
        destruct (Nat.ltb_spec (d + 1) n) as [L1|G1]; unfold mark, module_events; cbn [s_total s_done s_replayed s_buf s_susp s_closed s_out].
        -- destruct s eqn:Es.
           ++ rewrite app_nil_r in LS. constructor; cbn [s_total s_done s_replayed s_buf s_susp s_closed s_out]; unfold received; cbn [s_out]; rewrite ?LV, ?RV, ?RS, ?LS, ?SS; auto; [rewrite A3; reflexivity| |intros; lia].
              intros _. split; [exact B1|]. rewrite filter_app, plain_ntf, B2, map_app. reflexivity.
           ++ rewrite fold_live. cbn [s_total s_done s_replayed s_buf s_susp s_closed s_out]. destruct (Nat.ltb_spec (d + 1) n) as [_|?]; [|lia].
              constructor; cbn [s_total s_done s_replayed s_buf s_susp s_closed s_out]; unfold received; cbn [s_out]; rewrite ?LV, ?RV, ?RS, ?LS, ?SS; auto; [rewrite A3; reflexivity| |intros; lia].
              intros _. split; [rewrite B1; reflexivity|]. rewrite filter_app, plain_ntf, B2, map_app. reflexivity.
        -- destruct s eqn:Es.
           ++ rewrite app_nil_r in LS. constructor; cbn [s_total s_done s_replayed s_buf s_susp s_closed s_out]; unfold received; cbn [s_out]; rewrite ?LV, ?RV, ?RS, ?LS, ?SS; auto; [rewrite A3; reflexivity|intros; lia|].
              intros _. rewrite !filter_app, plain_ntf, B2, map_app. cbn [filter plain]. rewrite plain_ntf, B1. reflexivity.
           ++ rewrite fold_live. cbn [s_total s_done s_replayed s_buf s_susp s_closed s_out]. destruct (Nat.ltb_spec (d + 1) n) as [?|_]; [lia|]. unfold with_out.
              constructor; cbn [s_total s_done s_replayed s_buf s_susp s_closed s_out]; unfold received; cbn [s_out]; rewrite ?LV, ?RV, ?RS, ?LS, ?SS; auto; [rewrite A3; reflexivity|intros; lia|].
              intros _. rewrite !filter_app, !plain_ntf, B2, !map_app. cbn [filter plain]. rewrite plain_ntf, B1, <- !app_assoc. reflexivity.
    + pose proof (visited_snoc h Suspend) as V. pose proof (rep_snoc h Suspend) as RS. cbn [app] in V, RS. rewrite app_nil_r in V, RS. pose proof (lives_app false h [Suspend]) as LS. cbn [lives] in LS. rewrite app_nil_r in LS. pose proof (susp_app false h [Suspend]) as SS. cbn [susp_at] in SS.
      unfold step, suspend. cbn [s_closed s_susp orb]. destruct s; constructor; cbn [s_total s_done s_replayed s_buf s_susp s_closed s_out]; unfold received; cbn [s_out]; rewrite ?filter_app, ?V, ?RS, ?LS, ?SS; cbn [filter plain]; rewrite ?app_nil_r; auto.
    + pose proof (visited_snoc h Resume) as V. pose proof (rep_snoc h Resume) as RS. cbn [app] in V, RS. rewrite app_nil_r in V, RS. pose proof (lives_app false h [Resume]) as LS. cbn [lives] in LS. rewrite app_nil_r in LS. pose proof (susp_app false h [Resume]) as SS. cbn [susp_at] in SS.
      unfold step, resume. cbn [s_closed s_susp orb negb]. destruct s; constructor; cbn [s_total s_done s_replayed s_buf s_susp s_closed s_out]; unfold received; cbn [negb s_out s_total s_done s_replayed s_buf s_susp s_closed]; rewrite ?filter_app, ?V, ?RS, ?LS, ?SS; cbn [filter plain]; rewrite ?app_nil_r; auto.
Qed.

(** Without a replay. *)
Lemma live_run h : Forall (ordinary n) h ->
  let x := fold_left (step stored) h (new_sub false n) in
  s_total x = n /\ s_done x = n /\ (forall i, i < n -> In i (s_replayed x)) /\ s_susp x = susp_at false h /\ s_closed x = false /\ received x = map INtf (lives false h).
Proof.
  induction h as [|o h IH] using rev_ind; intros F; cbv zeta.
  - cbn. do 2 (split; [reflexivity|]). split; [intros i Hi; apply in_seq; lia|]. do 2 (split; [reflexivity|]). reflexivity.
  - apply Forall_app in F as (F & Fo). specialize (IH F). cbv zeta in IH. rewrite fold_left_app. cbn [fold_left]. set (x := fold_left (step stored) h (new_sub false n)) in *. clearbody x.
    inversion Fo as [|? ? Ho _]; subst. destruct IH as (A1 & A2 & A3 & A4 & A5 & A6). destruct x as [t d r b s c out]. unfold received in *. cbn [s_total s_done s_replayed s_buf s_susp s_closed s_out] in *. subst t c d.
    destruct o as [i [k|] l| | | |]; try (destruct Ho; fail).
    + cbn [ordinary] in Ho. unfold step, visit. cbn [s_closed]. unfold module_replay. cbn [s_replayed].
      replace (existsb (Nat.eqb i) r) with true by (symmetry; apply existsb_eqb; auto).
      pose proof (lives_app false h [Visit i None l]) as LS. cbn [lives] in LS. rewrite app_nil_r, <- A4 in LS.
      pose proof (susp_app false h [Visit i None l]) as SS. cbn [susp_at] in SS. unfold module_events. cbn [s_susp]. rewrite LS, SS. destruct s.
      * cbn [s_total s_done s_replayed s_buf s_susp s_closed s_out]. rewrite app_nil_r. auto 8.
      * rewrite fold_live. cbn [s_total s_done]. rewrite Nat.ltb_irrefl. unfold with_out. cbn [s_total s_done s_replayed s_buf s_susp s_closed s_out].
        rewrite filter_app, plain_ntf, A6, map_app. auto 8.
    + pose proof (lives_app false h [Suspend]) as LS. cbn [lives] in LS. rewrite app_nil_r in LS. pose proof (susp_app false h [Suspend]) as SS. cbn [susp_at] in SS. rewrite LS, SS.
      unfold step, suspend. cbn [s_closed s_susp orb]. destruct s; cbn [s_total s_done s_replayed s_buf s_susp s_closed s_out]; rewrite ?filter_app; cbn [filter plain]; rewrite ?app_nil_r; auto 8.
    + pose proof (lives_app false h [Resume]) as LS. cbn [lives] in LS. rewrite app_nil_r in LS. pose proof (susp_app false h [Resume]) as SS. cbn [susp_at] in SS. rewrite LS, SS.
      unfold step, resume. cbn [s_closed s_susp orb negb]. destruct s; cbn [negb s_total s_done s_replayed s_buf s_susp s_closed s_out]; rewrite ?filter_app; cbn [filter plain]; rewrite ?app_nil_r; auto 8.
Qed.
End R.
