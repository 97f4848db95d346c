(** C68: Editing a datastore in an editor with a lock loses no changes. *)
From Coq Require Import List Bool Arith Lia.
From Verif Require Import CfgEdit CfgEditSpec CfgEditProofs.
Import ListNotations.

(** With the lock and in any interleaving with changes of others: if it succeeds, the result is that of all the accepted changes
    of others and then, at one moment, of editing the data of that moment.  The changes accepted are all those of
    modules that are not edited. *)
Theorem C68_locked : forall busy sel w1 w2 w3 e f xo po io d,
  let r := op_edit true busy sel w1 w2 w3 e f xo po io d in r_ok r = true ->
  edited sel f (play (r_acc r) d) (r_data r) /\ r_locked r = false /\ forall w, In w (r_acc r) <-> In w (w1 ++ w2 ++ w3) /\ sel (fst w) = false.
Proof.
  intros busy sel w1 w2 w3 e f xo po io d r. subst r. unfold op_edit. destruct busy; cbn [andb]; [intros H; discriminate|].
  destruct (others (fun m => sel m) w1 d) as [d1 a1] eqn:O1. destruct xo; cbn [negb]; [|intros H; discriminate].
  destruct (others (fun m => sel m) w2 d1) as [d2 a2] eqn:O2. destruct e; [|intros H; discriminate]. destruct po; cbn [negb]; [|intros H; discriminate].
  destruct (others (fun m => sel m) w3 d2) as [d3 a3] eqn:O3. destruct io; cbn [negb r_ok r_data r_acc r_locked]; [|intros H; discriminate]. intros _.
  destruct (others_spec _ _ _ _ _ O1) as (E1 & F1 & G1). destruct (others_spec _ _ _ _ _ O2) as (E2 & F2 & G2). destruct (others_spec _ _ _ _ _ O3) as (E3 & F3 & G3).
  split; [|split; [reflexivity|intros w; rewrite !in_app_iff, G1, G2, G3; tauto]].
  assert (play (a1 ++ a2 ++ a3) d = d3) as Ep by (rewrite !play_app; congruence). rewrite Ep.
  assert (forall m, sel m = true -> nth_error d3 m = nth_error d1 m) as Same.
  { intros m S. subst d3 d2. rewrite <- play_app. apply play_sel. apply Forall_app. split; eapply Forall_impl; try eassumption; cbn; intros w K Ew; rewrite Ew in K; congruence. }
  split; [apply import_len|]. exists (export sel 0 d1). split; [rewrite export_len; subst d3 d2; now rewrite !play_len|]. split.
  - intros m v H. destruct (sel m) eqn:S.
    + rewrite (Same m S) in H. rewrite (export_nth sel d1 0 m v H). cbn [Nat.add]. now rewrite S.
    + assert (exists u, nth_error d1 m = Some u) as (u & U).
      { destruct (nth_error d1 m) as [u|] eqn:U; [eauto|]. exfalso. apply nth_error_None in U. assert (m < length d3) by (apply nth_error_Some; congruence). subst d3 d2. rewrite !play_len in *. lia. }
      rewrite (export_nth sel d1 0 m u U). cbn [Nat.add]. now rewrite S.
  - intros m v H. rewrite (import_nth sel _ d3 0 m v H). reflexivity.
Qed.

(** If it does not succeed, it changed nothing; and no lock is ever left. *)
Theorem C68_failed : forall lock busy sel w1 w2 w3 e f xo po io d,
  let r := op_edit lock busy sel w1 w2 w3 e f xo po io d in r_locked r = false /\ (r_ok r = false -> r_data r = play (r_acc r) d).
Proof.
  intros lock busy sel w1 w2 w3 e f xo po io d r. subst r. unfold op_edit. destruct (lock && busy); [split; reflexivity|].
  destruct (others (fun m => lock && sel m) w1 d) as [d1 a1] eqn:O1. destruct (others_spec _ _ _ _ _ O1) as (E1 & _). destruct xo; cbn [negb]; [|split; [reflexivity|intros _; exact E1]].
  destruct (others (fun m => lock && sel m) w2 d1) as [d2 a2] eqn:O2. destruct (others_spec _ _ _ _ _ O2) as (E2 & _).
  assert (d2 = play (a1 ++ a2) d) as E by (rewrite play_app; congruence).
  destruct e; [|split; [reflexivity|intros _; exact E]]. destruct po; cbn [negb]; [|split; [reflexivity|intros _; exact E]].
  destruct (others (fun m => lock && sel m) w3 d2) as [d3 a3] eqn:O3. destruct (others_spec _ _ _ _ _ O3) as (E3 & _).
  destruct io; cbn [negb r_locked r_ok r_data r_acc]; (split; [reflexivity|]); [discriminate|]. intros _. rewrite !play_app. congruence.
Qed.

(** Input of any size is read completely and its end is inside of the buffer. *)
Theorem C68_read : forall size input, size > 0 -> read_file size input = Some input.
Proof.
  intros size input S0. unfold read_file. destruct (read_loop_ok (S (S (length input))) size [] input) as (s & R & K); [exact S0|cbn; lia|lia|]. rewrite R. cbn [List.app] in *.
  apply Nat.ltb_lt in K. now rewrite K.
Qed.
Print Assumptions C68_locked.
Print Assumptions C68_failed.
Print Assumptions C68_read.

(** ** An example: module 1 is edited, others change all modules *)
Definition plus (l : list (option nat)) : list nat := map (fun x => match x with Some v => v + 10 | None => 0 end) l.
Example C68_nonvacuous :
  op_edit true false (Nat.eqb 1) [(0, 5); (1, 5)] [(1, 6); (2, 6)] [(0, 7); (1, 7)] (Exit 0) plus true true true [1; 2; 3] =
    mkres [7; 12; 6] [(0, 5); (2, 6); (0, 7)] true false true /\
  read_file 2 [1; 2; 3; 4] = Some [1; 2; 3; 4].
Proof. split; vm_compute; reflexivity. Qed.

(** F235: without the lock an accepted change of the edited data by another session is lost, there is no warning. *)
Theorem C68_lost_refuted : exists w f,
  let r := op_edit false false (fun _ => true) [] [w] [] (Exit 0) f true true true [1; 2] in
  r_ok r = true /\ r_acc r = [w] /\ ~ edited (fun _ => true) f (play [w] [1; 2]) (r_data r).
Proof.
  exists (0, 5), (map (fun x => match x with Some v => v | None => 0 end)). split; [reflexivity|]. split; [reflexivity|].
  intros (_ & seen & L & S & E). specialize (S 0 5 eq_refl). specialize (E 0 5 eq_refl). destruct seen as [|x t]; [discriminate L|]. cbn in S, E. injection S as ->. discriminate E.
Qed.

(** F236: the status of the editor is not checked: if it fails, or cannot be started, the file is imported all the same. *)
Theorem C68_status_refuted : exists f, r_ok (op_edit true false (fun _ => true) [] [] [] (Exit 1) f true true true [1; 2]) = true /\
  r_data (op_edit true false (fun _ => true) [] [] [] (Exit 1) f true true true [1; 2]) = [0; 0].
Proof. exists (fun _ => []). split; vm_compute; reflexivity. Qed.

(** F237: the temporary file with the exported data is never removed. *)
Theorem C68_tmp_refuted : forall lock busy sel w1 w2 w3 e f xo po io d, r_tmp (op_edit lock busy sel w1 w2 w3 e f xo po io d) = true.
Proof.
  intros. unfold op_edit. destruct (lock && busy); [reflexivity|]. destruct (others (fun m => lock && sel m) w1 d) as [d1 a1]. destruct xo; [|reflexivity]. cbn [negb].
  destruct (others (fun m => lock && sel m) w2 d1) as [d2 a2]. destruct e; [|reflexivity]. destruct po; [|reflexivity]. cbn [negb].
  destruct (others (fun m => lock && sel m) w3 d2) as [d3 a3]. destruct io; reflexivity.
Qed.
