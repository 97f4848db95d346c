(** C43: a receiver of on-change YANG push notifications can follow the data. *)
From Coq Require Import List Bool Arith NArith Lia Sorted.
From Verif Require Import Edit EditSpec EditSem EditMain EditDiff ChangeIter ChangeIterSpec YangPush YangPushSpec YangPushProofs YangPushFollow YangPushShape YangPushLoop YangPushInv.
Import ListNotations.

Section P.
Variable kd : nat -> kind.
Variable nk : nat -> nat.
Variable kv : nat -> nat -> nat -> nat.
Variable odd : nat -> bool.

(** Without dampening, whatever edits are committed to whatever data: a (tolerant) receiver that had a
    copy of the data and applies the edits of all the notifications it was sent, in order, has the data,
    every value, key and order. Missing: receivers that are not tolerant, user-ordered lists created in
    another order, values with apostrophes; refuted below. *)
Theorem C43_immediate_partial : forall ds evs ds' s, history kd nk kv ds evs ds' -> wf_data kd ds -> quiet odd evs -> (forall now per, ~ In (now, EModify per) evs) ->
  s = new_sub 0 (fun _ => false) ->
  exists c, apply_patches kd nk kv false (map snd (snd (run kd odd evs s))) (copy_of kd nk kv false ds) = Some c /\ same c (copy_of kd nk kv false ds').
Proof.
  intros ds evs ds' s H W Q M ->. destruct (nothing_waits kd odd evs (new_sub 0 (fun _ => false)) M eq_refl eq_refl) as (A & P).
  destruct (follow_gen kd nk kv odd ds evs ds' H (new_sub 0 (fun _ => false)) (copy_of kd nk kv false ds) (copy_of kd nk kv false ds) W) as (c & F1 & F2); auto; [constructor|split; reflexivity|].
  exists c. split; [|exact F2]. unfold waits in F1. rewrite P, app_nil_r in F1. exact F1.
Qed.

(** With any dampening, modified at any time: the same of all that was sent and what waits to be sent,
    if no node is changed while another change of it waits. *)
Theorem C43_dampened_partial : forall ds evs ds' per s, history kd nk kv ds evs ds' -> wf_data kd ds -> quiet odd evs ->
  s = new_sub per (fun _ => false) -> apart kd odd evs s ->
  exists c, apply_patches kd nk kv false (map snd (snd (run kd odd evs s)) ++ waits (fst (run kd odd evs s))) (copy_of kd nk kv false ds) = Some c /\ same c (copy_of kd nk kv false ds').
Proof.
  intros ds evs ds' per s H W Q -> A.
  apply (follow_gen kd nk kv odd ds evs ds' H (new_sub per (fun _ => false)) (copy_of kd nk kv false ds) (copy_of kd nk kv false ds) W); auto; [constructor|split; reflexivity].
Qed.
Corollary C43_once_partial : forall ds evs ds' per s, history kd nk kv ds evs ds' -> wf_data kd ds -> quiet odd evs ->
  s = new_sub per (fun _ => false) -> once evs ->
  exists c, apply_patches kd nk kv false (map snd (snd (run kd odd evs s)) ++ waits (fst (run kd odd evs s))) (copy_of kd nk kv false ds) = Some c /\ same c (copy_of kd nk kv false ds').
Proof.
  intros ds evs ds' per s H W Q -> O. apply (C43_dampened_partial ds evs ds' per _ H W Q eq_refl). apply (once_apart kd odd evs _ []); auto; intros e [].
Qed.

(** Edits that only append to user-ordered lists create them in order, as histories need. *)
Theorem C43_appending : forall es ds o, wf_data kd ds -> wf_edit kd es -> edit_apply kd es ds = ROk o -> o_err o = false -> Forall (appends kd) es -> Forall (inorder kd) (o_diff o).
Proof. intros es ds o W We H Er A. apply (edit_tidy0 kd es ds o W We H Er). exact A. Qed.

(** In every history, modified in any way, with any exclusions: patch identifiers grow from notification
    to notification, edit identifiers from edit to edit, no notification is empty, no edit is of an
    excluded kind and every one is of a place that has changed. *)
Theorem C43_identifiers : forall per ex evs, let out := map snd (snd (run kd odd evs (new_sub per ex))) in
  StronglySorted N.lt (map p_id out) /\
  Forall (fun p => p_edits p <> [] /\ StronglySorted N.lt (map y_id (p_edits p)) /\
                   Forall (fun e => ex (y_op e) = false /\ exists now ev, In (now, ev) evs /\ In (y_tgt e) (places ev)) (p_edits p)) out.
Proof.
  intros per ex evs. cbv zeta. destruct (run_sends kd odd (fun e => ex (y_op e) = false /\ exists now ev, In (now, ev) evs /\ In (y_tgt e) (places ev)) evs 1 (new_sub per ex)) as (A & _ & B).
  - apply inv_new.
  - intros now cs Hin x id Hx Ex. destruct x as [[o e] c]. cbn [fst snd edit_of y_op y_tgt] in *. split; [exact Ex|]. exists now, (EChange cs). split; [exact Hin|]. exact (places_in (o, e, c) cs Hx).
  - split; [exact A|exact B].
Qed.

(** Unless the subscription is modified, notifications come at least a period apart. *)
Theorem C43_spacing : forall per ex evs, per <> 0%N -> (forall now p, ~ In (now, EModify p) evs) -> spaced per None (snd (run kd odd evs (new_sub per ex))).
Proof.
  intros per ex evs Z M. assert (G : forall evs s, timely s -> period s <> 0%N -> (forall now p, ~ In (now, EModify p) evs) -> spaced (period s) (last s) (snd (run kd odd evs s))).
  { clear. induction evs as [|[now ev] t IH]; intros s T Z M; [exact Logic.I|]. rewrite run_cons. cbn [snd].
    destruct (step_gap kd odd now ev s T Z) as (Pe & C); [intros p ->; apply (M now p); left; reflexivity|]. pose proof (step_timely kd odd now ev s T) as T'.
    specialize (IH (fst (step kd odd now ev s)) T'). rewrite Pe in IH. specialize (IH Z (fun n p Hn => M n p (or_intror Hn))).
    destruct C as [(E & L)|(p & E & Gp & L)]; rewrite E; rewrite L in IH; cbn [app]; [exact IH|]. cbn [spaced]. split; [exact Gp|exact IH]. }
  exact (G evs (new_sub per ex) (new_timely per ex) Z M).
Qed.

(** Nothing waits for ever before the timer was used once: what waits is sent when the period after the
    last notification is over. Missing: the timer is used only once, refuted below. *)
Theorem C43_sent_partial : forall per ex evs now p, let s := fst (run kd odd evs (new_sub per ex)) in
  pend s = Some p -> tmr s <> TReturned -> (match last s with Some t => (t + period s <= now)%N | None => (period s <= now)%N end) -> snd (tick now s) = [(now, p)].
Proof.
  intros per ex evs now p. cbv zeta. destruct (run_timely kd odd evs _ (new_timely per ex)) as (T1 & T2 & T3). set (s := fst (run kd odd evs (new_sub per ex))) in *. clearbody s. intros E D L.
  unfold tick. destruct (tmr s) as [|t|] eqn:Tm; [exfalso; apply T1; [rewrite E; discriminate|reflexivity]| |contradiction].
  assert (Lt : (t <= now)%N) by (rewrite (T2 t eq_refl); unfold due; destruct (last s); exact L). rewrite (proj2 (N.leb_le _ _) Lt). unfold send. rewrite E. reflexivity.
Qed.

(** F107: once the timer of a dampened subscription has sent a notification, nothing is sent any more,
    whatever is committed and however long it takes, until dampening is switched off: the thread of the
    timer returns after the callback and nothing clears its id (src/utils/sn_common.c 1175-1228), so that
    srsn_yp_ntf_change_ready() takes it for planned (src/utils/sn_yang_push.c 213-216). *)
Theorem C43_silence : forall s now evs, period s <> 0%N -> snd (tick now s) <> [] -> (forall t, ~ In (t, EModify 0) evs) ->
  snd (run kd odd evs (fst (tick now s))) = [].
Proof.
  intros s now evs Z H M. unfold tick in *. destruct (tmr s) as [|t|]; try (exfalso; apply H; reflexivity). destruct (N.leb t now); [|exfalso; apply H; reflexivity].
  destruct (send_excl now s) as (_ & Pe). destruct (send now s) as [s1 out]. cbn [fst snd] in *. apply dead_run; [reflexivity|cbn [period]; rewrite Pe; exact Z|exact M].
Qed.
End P.
Print Assumptions C43_immediate_partial.
Print Assumptions C43_dampened_partial.
Print Assumptions C43_once_partial.
Print Assumptions C43_appending.
Print Assumptions C43_identifiers.
Print Assumptions C43_spacing.
Print Assumptions C43_sent_partial.
Print Assumptions C43_silence.

(** ** An example *)
Ltac no_in := match goal with |- ~ _ => idtac | |- _ -> False => idtac end; intros X; repeat (destruct X as [X|X]; [vm_compute in X; discriminate X|]); destruct X.
Ltac wf_conj := repeat (cbn; match goal with |- _ /\ _ => split | |- Forall _ _ => constructor | |- StronglySorted _ _ => constructor | |- NoDup [] => apply NoDup_nil | |- NoDup (map _ []) => apply NoDup_nil | |- NoDup _ => apply NoDup_cons | |- wf_sibs _ _ => unfold wf_sibs | |- wf_esibs _ _ => unfold wf_esibs | |- True => exact Logic.I end).
Ltac wf_ds := cbv [wf_data wf_sibs]; wf_conj; cbn; auto with arith; try discriminate; try no_in.
Ltac wf_es := cbv [wf_edit wf_esibs]; wf_conj; cbn; auto; try discriminate; try no_in;
  try (intros a b Ha Hb P Q; repeat (destruct Ha as [<-|Ha]; [try discriminate P; repeat (destruct Hb as [<-|Hb]; [try reflexivity; discriminate Q|]); destruct Hb|]); destruct Ha).
(** 0: container, 1: leaf in it, 2: user-ordered list with 1 key in it, 3: leaf in its instances. The
    value 39 has an apostrophe. *)
Definition ykd (s : nat) : kind := match s with 0 => KCont false | 2 => KList true | _ => KLeaf end.
Definition ynk (s : nat) : nat := match s with 2 => 1 | _ => 0 end.
Definition ykv (s v i : nat) : nat := v.
Definition yodd (v : nat) : bool := Nat.eqb v 39.
Definition eall (_ : yop) : bool := false.
Definition done (es : list enode) (ds : list dnode) : out := match edit_apply ykd es ds with ROk o => o | _ => mkout [] [] true false end.
Definition after (es : list enode) (ds : list dnode) : list dnode := o_g (done es ds).
Definition cev (es : list enode) (ds : list dnode) : event := EChange (tree_changes ykd (fun _ => true) (sess_diff ykd ynk ykv (o_diff (done es ds)))).
Definition cont (ch : list enode) : list enode := [E 0 0 false (Some Merge) IDefault ch].
Definition y0 : list dnode := [D 0 0 false [D 1 9 false []; D 2 5 false [D 3 1 false []]; D 2 6 false []]].
Definition e1 := cont [E 1 10 false None IDefault []; E 2 7 false (Some Create) (IAfter (Some 5)) [E 3 4 false None IDefault []]].
Definition y1 := after e1 y0.
Definition e2 := cont [E 2 6 false (Some Delete) IDefault []].
Definition y2 := after e2 y1.
Ltac inord := vm_compute; repeat match goal with
  | |- Forall _ _ => constructor
  | |- _ /\ _ => split
  | |- True => exact Logic.I
  | |- DCreate = DCreate -> _ => let t := fresh in let U := fresh in intros _ t U; destruct t as [|[|[|[|t]]]]; try discriminate U
  | |- _ = DCreate -> _ => discriminate
  | |- _ = _ => reflexivity
  end.
Ltac hist := match goal with
  | |- history _ _ _ _ [] _ => apply h_nil
  | |- history _ _ _ _ ((_, ETick) :: _) _ => apply h_tick
  | |- history _ _ _ _ ((_, cev ?es ?ds) :: _) _ => apply (h_commit _ _ _ ds es (done es ds)); [unfold es; wf_es|vm_compute; reflexivity|reflexivity|inord|]
  end.
Definition yevs : list (N * event) := [(1000, cev e1 y0); (1200, cev e2 y1); (1500, ETick)]%N.
Definition outs (per : N) (evs : list (N * event)) : list (N * patch) := snd (run ykd yodd evs (new_sub per eall)).
Lemma wf_y0 : wf_data ykd y0.
Proof. unfold y0. wf_ds. Qed.
Lemma hist_y : history ykd ynk ykv y0 yevs y2.
Proof. unfold yevs. hist. hist. hist. hist. Qed.
Example push_nonvacuous : wf_data ykd y0 /\ history ykd ynk ykv y0 yevs y2 /\ y2 = [D 0 0 false [D 1 10 false []; D 2 5 false [D 3 1 false []]; D 2 7 false [D 3 4 false []]]] /\
  quiet yodd yevs /\ once yevs /\
  outs 0 yevs = [(1000%N, mkpatch 1 [mkyed 1 YReplace ([(0, 0); (1, 0)], None) None (Some (D 1 10 false [])); mkyed 2 YInsert ([(0, 0); (2, 7)], None) (Some (WAfter ([(0, 0); (2, 7)], None) 5)) (Some (D 2 7 false [D 3 4 false []]))]);
                 (1200%N, mkpatch 2 [mkyed 1 YDelete ([(0, 0); (2, 6)], None) None None; mkyed 2 YDelete ([(0, 0); (2, 6)], Some 0) None None])] /\
  map (fun x => (fst x, p_id (snd x))) (outs 500 yevs) = [(1000, 1); (1500, 2)]%N.
Proof.
  split; [exact wf_y0|]. split; [exact hist_y|]. split; [reflexivity|]. split; [|split; [|split; vm_compute; reflexivity]].
  - intros now ev l id [E|[E|[E|[]]]] Hl Hi; injection E as <- <-; vm_compute in Hl; repeat (destruct Hl as [<-|Hl]; [vm_compute in Hi; repeat (destruct Hi as [<-|Hi]; [reflexivity|]); destruct Hi|]); destruct Hl.
  - cbn [once yevs]. split; [|split; [|split; [|exact Logic.I]]].
    + intros l Hl n ev [E|[E|[]]]; injection E as <- <-; vm_compute in Hl; intros X; vm_compute in X; repeat (destruct Hl as [<-|Hl]; [repeat (destruct X as [X|X]; [discriminate X|]); destruct X|]); destruct Hl.
    + intros l Hl n ev [E|[]]; injection E as <- <-; intros [].
    + intros l [].
Qed.

(** ** What does not hold *)
(** F107: what waits is not sent, ever: two changes within a period and then another one, after the timer. *)
Theorem C43_sent_refuted : ~ (forall kd odd per ex evs, pend (fst (run kd odd evs (new_sub per ex))) <> None -> exists evs', (forall t, ~ In (t, EModify 0) evs') /\ snd (run kd odd evs' (fst (run kd odd evs (new_sub per ex)))) <> []).
Proof.
  intros H. destruct (H ykd yodd 500%N eall (yevs ++ [(9000, cev e1 y0)]%N)) as (evs' & M & F); [vm_compute; discriminate|]. apply F. apply dead_run; [vm_compute; reflexivity|vm_compute; discriminate|exact M].
Qed.
Print Assumptions C43_sent_refuted.

(** F108: a receiver that does what RFC 8072 says cannot apply the edits when a list instance or a
    subtree is deleted: the deletion of every descendant and key follows the deletion of their parent
    (only nested creations are skipped, src/utils/sn_yang_push.c 506-512), and "delete" of a target that
    does not exist is an error (RFC 8072 section 2.5). *)
Theorem C43_nested_delete_refuted : ~ (forall kd nk kv odd ds evs ds', history kd nk kv ds evs ds' -> wf_data kd ds -> quiet odd evs -> (forall now e, In (now, e) evs -> exists cs, e = EChange cs) ->
  exists c, apply_patches kd nk kv true (map snd (snd (run kd odd evs (new_sub 0 (fun _ => false))))) (copy_of kd nk kv false ds) = Some c).
Proof.
  intros H. destruct (H ykd ynk ykv yodd y0 [(1000%N, cev e2 y0)] (after e2 y0)) as (c & F).
  - hist. hist.
  - exact wf_y0.
  - intros now ev l id [E|[]] Hl Hi; injection E as <- <-; vm_compute in Hl; repeat (destruct Hl as [<-|Hl]; [vm_compute in Hi; repeat (destruct Hi as [<-|Hi]; [reflexivity|]); destruct Hi|]); destruct Hl.
  - intros now ev [E|[]]; injection E as <- <-. eexists. reflexivity.
  - vm_compute in F. discriminate F.
Qed.
Print Assumptions C43_nested_delete_refuted.

(** F109: the "point" of insertions and moves of user-ordered list instances is printed as the path of
    the target, with its predicates, followed by the predicates of the previous instance
    (src/utils/sn_yang_push.c 381-404): it has the predicates of both and denotes nothing. A receiver that
    takes it for what it is cannot place the instance. *)
Definition e3 := cont [E 2 6 false (Some Merge) IFirst []].
Definition e4 := cont [E 2 7 false (Some Create) (IAfter (Some 5)) []].
Theorem C43_point_refuted : ~ (forall kd nk kv odd ds evs ds', history kd nk kv ds evs ds' -> wf_data kd ds -> quiet odd evs ->
  (forall now ev, In (now, ev) evs -> exists cs, ev = EChange cs /\ forall o e c, In (o, e, c) cs -> o = OCreated) ->
  exists c, apply_patches kd nk kv true (map snd (snd (run kd odd evs (new_sub 0 (fun _ => false))))) (copy_of kd nk kv false ds) = Some c).
Proof.
  intros H. destruct (H ykd ynk ykv yodd y0 [(1000%N, cev e4 y0)] (after e4 y0)) as (c & F).
  - hist. hist.
  - exact wf_y0.
  - intros now ev l id [E|[]] Hl Hi; injection E as <- <-; vm_compute in Hl; repeat (destruct Hl as [<-|Hl]; [vm_compute in Hi; repeat (destruct Hi as [<-|Hi]; [reflexivity|]); destruct Hi|]); destruct Hl.
  - intros now ev [E|[]]; injection E as <- <-. eexists. split; [reflexivity|]. intros o e c X. vm_compute in X. repeat (destruct X as [X|X]; [injection X as <- <- <-; reflexivity|]). destruct X.
  - vm_compute in F. discriminate F.
Qed.
Print Assumptions C43_point_refuted.

(** F110: instances of a user-ordered list created together with their parent, where a later one is put
    before an earlier one, are in the value of the parent in the order of the diff (src/utils/sn_yang_push.c
    419-425), not in the order they have: even a tolerant receiver has them in another order. *)
Definition e5 := [E 0 0 false (Some Create) IDefault [E 2 5 false (Some Create) IFirst []; E 2 6 false (Some Create) IFirst []]].
Theorem C43_created_order_refuted : ~ (forall kd nk kv odd es ds o now, wf_data kd ds -> wf_edit kd es -> edit_apply kd es ds = ROk o -> o_err o = false ->
  exists c, apply_patches kd nk kv false (map snd (snd (run kd odd [(now, EChange (tree_changes kd (fun _ => true) (sess_diff kd nk kv (o_diff o))))] (new_sub 0 (fun _ => false))))) (copy_of kd nk kv false ds) = Some c /\ same c (copy_of kd nk kv false (o_g o))).
Proof.
  intros H. destruct (H ykd ynk ykv yodd e5 [] (done e5 []) 1000%N) as (c & F & (_ & So)).
  - wf_ds.
  - unfold e5. wf_es.
  - vm_compute. reflexivity.
  - reflexivity.
  - vm_compute in F. injection F as <-. specialize (So [(0, 0)] 2). vm_compute in So. discriminate So.
Qed.
Print Assumptions C43_created_order_refuted.

(** F111: when a node is changed again while its change waits, the first edit of it is removed
    (srsn_yp_ntf_change_edit_clear_target(), src/utils/sn_yang_push.c 305-333) as if the second one replaced
    it: an instance created and then moved is only reported as moved, with no value, and no receiver can
    apply that. *)
Definition e6 := cont [E 2 7 false (Some Merge) IFirst []].
Definition e7 := cont [E 1 10 false None IDefault []].
Definition z1 := after e7 y0.
Definition z2 := after e4 z1.
Theorem C43_merged_refuted : ~ (forall kd nk kv odd ds evs ds' per s, history kd nk kv ds evs ds' -> wf_data kd ds -> quiet odd evs -> s = new_sub per (fun _ => false) ->
  exists c, apply_patches kd nk kv false (map snd (snd (run kd odd evs s)) ++ waits (fst (run kd odd evs s))) (copy_of kd nk kv false ds) = Some c).
Proof.
  intros H. destruct (H ykd ynk ykv yodd y0 [(1000, cev e7 y0); (1100, cev e4 z1); (1200, cev e6 z2)]%N (after e6 z2) 500%N (new_sub 500 (fun _ => false))) as (c & F); [| | |reflexivity|].
  - hist. hist. hist. hist.
  - exact wf_y0.
  - intros now ev l id [E|[E|[E|[]]]] Hl Hi; injection E as <- <-; vm_compute in Hl; repeat (destruct Hl as [<-|Hl]; [vm_compute in Hi; repeat (destruct Hi as [<-|Hi]; [reflexivity|]); destruct Hi|]); destruct Hl.
  - vm_compute in F. discriminate F.
Qed.
Print Assumptions C43_merged_refuted.

(** F112: the path of a target is put in an XPath between apostrophes (src/utils/sn_yang_push.c 313); if a
    key has an apostrophe the XPath is invalid, the callback fails and everything that was to be sent,
    changes of other nodes too, is dropped: nobody is ever told. *)
Definition e8 := cont [E 1 10 false None IDefault []; E 2 39 false (Some Create) ILast []].
Theorem C43_apostrophe_refuted : ~ (forall kd nk kv odd ds evs ds' s, history kd nk kv ds evs ds' -> wf_data kd ds -> s = new_sub 0 (fun _ => false) ->
  exists c, apply_patches kd nk kv false (map snd (snd (run kd odd evs s)) ++ waits (fst (run kd odd evs s))) (copy_of kd nk kv false ds) = Some c /\ same c (copy_of kd nk kv false ds')).
Proof.
  intros H. destruct (H ykd ynk ykv yodd y0 [(1000%N, cev e8 y0)] (after e8 y0) (new_sub 0 (fun _ => false))) as (c & F & (Sv & _)); [| |reflexivity|].
  - hist. hist.
  - exact wf_y0.
  - vm_compute in F. injection F as <-. specialize (Sv ([(0, 0); (1, 0)], None)). vm_compute in Sv. discriminate Sv.
Qed.
Print Assumptions C43_apostrophe_refuted.
