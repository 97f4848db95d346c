(** C39: iterating over the changes tells a subscriber precisely what has changed. *)
From Coq Require Import List Bool Arith Lia Sorted.
From Verif Require Import Edit EditSpec EditSem EditMain EditDiff ChangeIter ChangeIterSpec ChangeIterProofs ChangeIterPlay ChangeIterShape ChangeIterEn.
Import ListNotations.

Section P.
Variable kd : nat -> kind.
Variable nk : nat -> nat.
Variable kv : nat -> nat -> nat -> nat.

(** Whatever edit was applied to whatever data, iterating over all the changes in the callback does not
    fail, and a subscriber that plays the changes one by one, in the order they come, to their copy of
    the data before has the data after: every value, every key, every order of instances; every change
    makes sense when it comes (what is created does not exist and its parent does, what is deleted,
    modified or moved exists and has the value that is told, the instance to place after exists) and does
    something (a modification changes the value, a move the order). *)
Theorem C39_replay : forall es ds o, wf_data kd ds -> wf_edit kd es -> edit_apply kd es ds = ROk o -> o_err o = false ->
  exists cs, iterate kd (fun _ => true) (sess_diff kd nk kv (o_diff o)) = Some cs /\
    exists c, plays kd false cs (copy_of kd nk kv false ds) = Some c /\ same c (copy_of kd nk kv false (o_g o)).
Proof.
  intros es ds o W We H Er. destruct (iterate_edit kd nk kv es ds o W We H Er) as (cs & I0 & P). exists cs. split.
  - rewrite I0. f_equal. clear. induction cs as [|c t IH]; [reflexivity|]. cbn [filter]. f_equal. exact IH.
  - apply P. discriminate.
Qed.

(** The same with all the default flags if no leaf kept its value and changed only the flag; what is
    missing is refuted below. *)
Theorem C39_default_flags_partial : forall es ds o, wf_data kd ds -> wf_edit kd es -> edit_apply kd es ds = ROk o -> o_err o = false ->
  Forall (loud kd) (o_diff o) ->
  exists cs, iterate kd (fun _ => true) (sess_diff kd nk kv (o_diff o)) = Some cs /\
    exists c, plays kd true cs (copy_of kd nk kv true ds) = Some c /\ same c (copy_of kd nk kv true (o_g o)).
Proof.
  intros es ds o W We H Er L. destruct (iterate_edit kd nk kv es ds o W We H Er) as (cs & I0 & P). exists cs. split.
  - rewrite I0. f_equal. clear. induction cs as [|c t IH]; [reflexivity|]. cbn [filter]. f_equal. exact IH.
  - apply P. intros _. exact L.
Qed.

(** Whatever the XPath selects, iterating does not fail and gives exactly the changes at the selected
    places of all the changes, in the same order. *)
Theorem C39_selected : forall es ds o sel, wf_data kd ds -> wf_edit kd es -> edit_apply kd es ds = ROk o -> o_err o = false ->
  exists cs, iterate kd (fun _ => true) (sess_diff kd nk kv (o_diff o)) = Some cs /\
    iterate kd sel (sess_diff kd nk kv (o_diff o)) = Some (filter (fun c => sel (at_loc c)) cs).
Proof.
  intros es ds o sel W We H Er. destruct (iterate_edit kd nk kv es ds o W We H Er) as (cs & I0 & _). exists cs. split; [|apply I0].
  rewrite I0. f_equal. clear. induction cs as [|c t IH]; [reflexivity|]. cbn [filter]. f_equal. exact IH.
Qed.

(** When all the data become known at once (the "enabled" event), playing the changes to nothing gives
    all the data, with all the default flags; any selection works too. *)
Theorem C39_enabled : forall ds, wf_data kd ds ->
  exists cs, iterate kd (fun _ => true) (enabled_diff kd nk kv ds) = Some cs /\
    (forall sel, iterate kd sel (enabled_diff kd nk kv ds) = Some (filter (fun c => sel (at_loc c)) cs)) /\
    exists c, plays kd true cs (copy_of kd nk kv true []) = Some c /\ same c (copy_of kd nk kv true ds).
Proof.
  intros ds W. destruct (iterate_enabled kd nk kv ds W) as (cs & I0 & P). exists cs. split; [|split; [exact I0|apply P]].
  rewrite I0. f_equal. clear. induction cs as [|c t IH]; [reflexivity|]. cbn [filter]. f_equal. exact IH.
Qed.

(** Nothing is reported when nothing has changed. *)
Theorem C39_silent : forall es ds o, wf_data kd ds -> wf_edit kd es -> edit_apply kd es ds = ROk o -> o_err o = false -> o_chg o = false ->
  iterate kd (fun _ => true) (sess_diff kd nk kv (o_diff o)) = Some [].
Proof. intros es ds o W We H Er C. rewrite (proj2 (edit_diff_exact kd es ds o W We H Er) C). reflexivity. Qed.

(** In the callback no iterator uses freed memory. *)
Theorem C39_in_callback : forall dup sel t, iter_next kd true (new_iter kd dup sel t) <> UFreed.
Proof. intros dup sel t. unfold iter_next, new_iter. cbn [it_set it_tree allocated]. destruct (select sel (all_nodes kd t)); discriminate. Qed.
End P.
Print Assumptions C39_replay.
Print Assumptions C39_default_flags_partial.
Print Assumptions C39_selected.
Print Assumptions C39_enabled.
Print Assumptions C39_silent.
Print Assumptions C39_in_callback.

Ltac no_in := match goal with |- ~ _ => idtac | |- _ -> False => idtac end; intros X; repeat (destruct X as [X|X]; [vm_compute in X; discriminate X|]); destruct X.
Ltac wf_conj := repeat (cbn; match goal with |- _ /\ _ => split | |- Forall _ _ => constructor | |- StronglySorted _ _ => constructor | |- NoDup [] => apply NoDup_nil | |- NoDup (map _ []) => apply NoDup_nil | |- NoDup _ => apply NoDup_cons | |- wf_sibs _ _ => unfold wf_sibs | |- wf_esibs _ _ => unfold wf_esibs | |- True => exact Logic.I end).
Ltac wf_ds := cbv [wf_data wf_sibs]; wf_conj; cbn; auto with arith; try discriminate; try no_in.
Ltac wf_es := cbv [wf_edit wf_esibs]; wf_conj; cbn; auto; try discriminate; try no_in;
  try (intros a b Ha Hb P Q; repeat (destruct Ha as [<-|Ha]; [try discriminate P; repeat (destruct Hb as [<-|Hb]; [try reflexivity; discriminate Q|]); destruct Hb|]); destruct Ha).

(** ** An example *)
(** 0: container, 1: leaf in it, 2: user-ordered list with 2 keys in it, 3: leaf in its instances. *)
Definition ikd (s : nat) : kind := match s with 0 => KCont false | 2 => KList true | _ => KLeaf end.
Definition ink (s : nat) : nat := match s with 2 => 2 | _ => 0 end.
Definition ikv (s v i : nat) : nat := match i with 0 => v | _ => v + 100 end.
Definition ids : list dnode := [D 0 0 false [D 1 9 false []; D 2 5 false [D 3 1 false []]; D 2 6 false []; D 2 7 false [D 3 3 false []]]].
Definition ies : list enode :=
  [E 0 0 false (Some Merge) IDefault
     [E 2 7 false None (IBefore (Some 5)) [E 3 4 false None IDefault []];
      E 2 6 false (Some Delete) IDefault [];
      E 2 8 false (Some Create) (IAfter (Some 7)) [];
      E 1 10 false None IDefault []]].
Example iter_nonvacuous : wf_data ikd ids /\ wf_edit ikd ies /\
  exists o, edit_apply ikd ies ids = ROk o /\ o_err o = false /\ Forall (loud ikd) (o_diff o) /\
    iterate ikd (fun _ => true) (sess_diff ikd ink ikv (o_diff o)) = Some
      [CModified ([(0, 0); (1, 0)], None) 1 9 false 10 false;
       CMoved ([(0, 0); (2, 7)], None) 2 7 false None;
       CModified ([(0, 0); (2, 7); (3, 0)], None) 3 3 false 4 false;
       CDeleted ([(0, 0); (2, 6)], None) 2 6 false; CDeleted ([(0, 0); (2, 6)], Some 0) 2 6 false; CDeleted ([(0, 0); (2, 6)], Some 1) 2 106 false;
       CCreated ([(0, 0); (2, 8)], None) 2 8 false (Some (Some 7)); CCreated ([(0, 0); (2, 8)], Some 0) 2 8 false None; CCreated ([(0, 0); (2, 8)], Some 1) 2 108 false None].
Proof.
  split; [|split].
  - unfold ids. wf_ds.
  - unfold ies. wf_es.
  - eexists. split; [vm_compute; reflexivity|]. split; [reflexivity|]. split; [|vm_compute; reflexivity].
    cbn. repeat constructor; intros; try discriminate; reflexivity.
Qed.

(** ** What does not hold *)
(** F105: an iterator made by sr_dup_changes_iter() "can be used even outside the callback"
    (src/sysrepo.h 1468-1471), but only the diff is duplicated: the set of nodes it iterates over is of
    the diff of the session (src/sysrepo.c 6068-6075), which is freed with the session of the event.
    Every use of the iterator after the callback that would give a change reads freed memory. *)
Theorem C39_duplicated_refuted : ~ (forall kd sel t, iter_next kd false (new_iter kd true sel t) <> UFreed).
Proof.
  intros H. apply (H ikd (fun _ => true) [I 1 5 false None (Some DCreate) None None []]). vm_compute. reflexivity.
Qed.
Print Assumptions C39_duplicated_refuted.

(** F106: a leaf that has its default value and is set explicitly to the same value (or the other way
    round) has changed: the edit reports a change and callbacks are called for it. The diff has it as
    operation "none" with the previous default flag, and sr_diff_set_getnext() skips "none" nodes
    (src/edit_diff.c 3441-3449), so iterating gives no change at all and the default flag the subscriber
    knows is wrong from then on, although flags are part of the changes (prev_dflt, src/sysrepo.h 1525). *)
Theorem C39_default_flag_refuted : ~ (forall kd nk kv es ds o, wf_data kd ds -> wf_edit kd es -> edit_apply kd es ds = ROk o -> o_err o = false ->
  exists cs, iterate kd (fun _ => true) (sess_diff kd nk kv (o_diff o)) = Some cs /\
    exists c, plays kd true cs (copy_of kd nk kv true ds) = Some c /\ same c (copy_of kd nk kv true (o_g o))).
Proof.
  intros H.
  destruct (H ikd ink ikv [E 1 5 false (Some Merge) IDefault []] [D 1 5 true []] (mkout [D 1 5 false []] [F DNone 1 5 false (Some (5, true)) None None []] false true)) as (cs & I0 & c & P & (Sv & _)).
  - wf_ds.
  - wf_es.
  - vm_compute. reflexivity.
  - reflexivity.
  - vm_compute in I0. injection I0 as <-. cbn in P. injection P as <-. specialize (Sv ([(1, 0)], None)). vm_compute in Sv. discriminate.
Qed.
Print Assumptions C39_default_flag_refuted.
