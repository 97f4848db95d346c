(** C42: errors of callbacks reach the originator. *)
From Coq Require Import String Ascii List NArith Lia Bool.
From Verif Require Import Base BaseLemmas EvData EvDataProofs EvDataSpec EvDataProofs2 CbErr CbErrSpec CbErrProofs.
Import ListNotations.
Open Scope N_scope.

(** A callback fails the event and no earlier callback of the same subscriber structure said anything: the originator
    gets exactly what this callback said, in its order, or its return code with the text of it if it said nothing, and
    the function of the originator returns the code of the last of them. Missing: earlier callbacks that said
    something without failing (see [C42_stale_refuted]). *)
Theorem C42_reported_partial : forall fill junk ev pre c post said,
  explains ev -> Forall (fun c => passes ev c /\ say_all [] (c_ops c) []) pre -> fails c ->
  say_all [] (c_ops c) said -> Forall user_error_ok said -> N.of_nat (List.length said) < 2 ^ 32 ->
  exists rs, outcome fill junk ev (pre ++ c :: post) = Some rs /\ Forall2 same_error (reported (c_ret c) said) rs /\
    forall d, api_code rs = ue_code (last (reported (c_ret c) said) d).
Proof.
  intros fill junk ev pre c post said He Hp Hc Hs Hok Hl. destruct (quiet_all ev pre Hp) as [Hp1 Hp2].
  apply outcome_all; try assumption. eapply say_all_app; eauto.
Qed.

(** In general it gets everything said until the failure. *)
Theorem C42_all_said : forall fill junk ev pre c post said,
  explains ev -> Forall (passes ev) pre -> fails c ->
  say_all [] (flat_map c_ops pre ++ c_ops c) said -> Forall user_error_ok said -> N.of_nat (List.length said) < 2 ^ 32 ->
  exists rs, outcome fill junk ev (pre ++ c :: post) = Some rs /\ Forall2 same_error (reported (c_ret c) said) rs /\
    forall d, api_code rs = ue_code (last (reported (c_ret c) said) d).
Proof. exact outcome_all. Qed.

(** Saying something without failing is no failure. *)
Theorem C42_no_failure : forall fill junk ev cbs said, explains ev -> Forall (passes ev) cbs ->
  say_all [] (flat_map c_ops cbs) said -> fits said -> outcome fill junk ev cbs = Some [].
Proof. exact outcome_success. Qed.

(** A call returns an error exactly if it says nothing, what was said before stays. *)
Theorem C42_refused : forall fill ev os l o l' ok, explains ev -> say_all [] os l -> says l o l' ok -> fits l' ->
  exists st st', do_ops fill ev [] os = Some st /\ do_op fill ev st o = Some (st', if ok then 0 else 1) /\ (ok = false -> st' = st).
Proof.
  intros fill ev os l o l' ok He Hs Ho F. exists (map mk l), (map mk l'). split; [|split].
  - apply (do_ops_says fill ev os [] l He Hs). eapply says_fits; eauto.
  - apply do_op_says; assumption.
  - intros ->. remember false as b eqn:Eb. destruct Ho; try discriminate; reflexivity.
Qed.

(** NETCONF errors set by a callback are read by the originator as they were set. *)
Theorem C42_netconf : forall fill junk ev pre ret post args,
  explains ev -> Forall (fun c => passes ev c /\ say_all [] (c_ops c) []) pre -> fails (mkcb (map nc_op args) ret) ->
  Forall nc_arg_ok args -> args <> [] -> N.of_nat (List.length args) < 2 ^ 32 ->
  exists rs, outcome fill junk ev (pre ++ mkcb (map nc_op args) ret :: post) = Some rs /\
    Forall2 (fun a e => e_code e = 10 /\
      get_netconf e = Some (NcOk (mknc (na_type a) (na_tag a) (present (na_app a)) (present (na_path a)) (na_msg a) (na_infos a)))) args rs.
Proof.
  intros fill junk ev pre ret post args He Hp Hc Ha Hn Hl.
  destruct (C42_reported_partial fill junk ev pre (mkcb (map nc_op args) ret) post (map nc_ue args)) as (rs & E1 & E2 & _); try assumption.
  - exact (nc_say_all args [] Ha).
  - apply Forall_map. eapply Forall_impl; [|exact Ha]. apply nc_ue_ok.
  - rewrite map_length. assumption.
  - exists rs. split; [exact E1|]. destruct args as [|a0 t0]; [congruence|]. cbn [reported map] in E2. change (nc_ue a0 :: map nc_ue t0) with (map nc_ue (a0 :: t0)) in E2.
    revert E2 Ha. generalize (a0 :: t0) as as_. clear. intros as_. revert rs.
    induction as_ as [|a t IH]; intros rs E2 Ha; cbn [map] in E2; inversion E2; subst; constructor.
    + apply Forall_cons_iff in Ha. split; [|apply nc_read; tauto]. match goal with H : same_error _ _ |- _ => apply H end.
    + apply IH; [assumption|]. apply Forall_cons_iff in Ha. tauto.
Qed.

(** Errors copied into the session of a callback that has none are the errors of the source. Missing: a session that
    has some (see [C42_dup_refuted]). *)
Theorem C42_dup_partial : forall src trg src' trg', dup_error src trg = Some (src', trg') -> s_ev_err trg = [] ->
  s_ev_err trg' = s_err src /\ s_err src' = s_err src.
Proof.
  intros src trg src' trg' H Hn. unfold dup_error in H. destruct (s_err src) eqn:E.
  - apply Some_inj in H. injection H as <- <-. rewrite Hn, E. auto.
  - destruct (forallb _ _); [|discriminate]. apply Some_inj in H. injection H as <- <-. rewrite Hn. auto.
Qed.

Print Assumptions C42_reported_partial.
Print Assumptions C42_all_said.
Print Assumptions C42_no_failure.
Print Assumptions C42_refused.
Print Assumptions C42_netconf.
Print Assumptions C42_dup_partial.

(** ** What does not hold *)
Definition quiet_fail : callback := mkcb [] 12.
Definition warns : callback := mkcb [OMessage [119]] 0.

(** What a callback said although it accepted the event is reported as the reason why another one, called later by the
    same subscriber structure, failed, and replaces the code and the text of that failure. *)
Theorem C42_stale_refuted : exists fill junk ev pre c said rs,
  explains ev /\ Forall (passes ev) pre /\ fails c /\ say_all [] (c_ops c) said /\
  outcome fill junk ev (pre ++ [c]) = Some rs /\ ~ Forall2 same_error (reported (c_ret c) said) rs /\ api_code rs <> c_ret c.
Proof.
  exists 0, [], EvChange, [warns], quiet_fail, []. eexists. split; [right; left; reflexivity|]. split; [constructor; [left; reflexivity|constructor]|].
  split; [split; [discriminate|split; [discriminate|reflexivity]]|]. split; [constructor|]. split; [vm_compute; reflexivity|]. split.
  - intros H. inversion H as [|u r us rs Hs Ht]. destruct Hs as [Hs _]. cbn in Hs. discriminate Hs.
  - vm_compute. discriminate.
Qed.

(** A callback cannot explain why it refuses the data it is enabled with: setting an error is refused, the subscriber
    only learns that subscribing failed. *)
Theorem C42_enabled_refuted : forall fill fmt code msg ret, ret <> 0 ->
  do_op fill EvEnabled [] (OError fmt code msg) = Some ([], SR_INVAL) /\
  exists e, enabled fill (mkcb [OError fmt code msg] ret) = Some [e] /\ enabled fill (mkcb [] ret) = Some [e].
Proof.
  intros fill fmt code msg ret H. split; [reflexivity|]. eexists. unfold enabled. cbn [c_ops c_ret do_ops do_op settable andb obind fst].
  apply N.eqb_neq in H. rewrite H. split; reflexivity.
Qed.

(** Setting a NETCONF error then succeeds but nothing except for its message is stored, it cannot be read. *)
Theorem C42_enabled_netconf_refuted : exists a es, nc_arg_ok a /\
  do_op 0 EvEnabled [] (nc_op a) = Some (es, 0) /\
  map (fun e => get_netconf (Build_cb_err (r_code e) (or_empty (r_msg e)) (r_fmt e) (r_data e))) es = [Some NcErr].
Proof.
  exists {| na_type := bytes "application"; na_tag := bytes "in-use"; na_app := None; na_path := None; na_msg := bytes "m"; na_infos := [] |}. eexists.
  split; [|split; [vm_compute; reflexivity|vm_compute; reflexivity]].
  split; [cbn; auto 10|]. split; [cbn; auto 10|]. split; [intros H; cbn in H; destruct H as [H|H]; [discriminate|exact H]|].
  split; [discriminate|]. split; [discriminate|]. split; [constructor|reflexivity].
Qed.

(** Copying errors into a session of a callback leaves the errors it had in place and drops those of the callback
    whose session is the source instead. *)
Theorem C42_dup_refuted : exists src trg src' trg', dup_error src trg = Some (src', trg') /\
  s_err src <> [] /\ s_ev_err trg' <> s_err src /\ s_ev_err src' <> s_ev_err src.
Proof.
  exists (mksess [mkerr 5 None None None] [mkerr 6 None None None]), (mksess [] [mkerr 7 None None None]). eexists. eexists.
  split; [reflexivity|]. split; [discriminate|]. split; discriminate.
Qed.

(** An empty name of the format of error data is accepted but the originator gets neither the format nor the data. *)
Theorem C42_empty_format_refuted : exists c rs, fails c /\
  outcome 0 [] EvChange [c] = Some rs /\ (exists said, say_all [] (c_ops c) said /\ fits said /\ ~ Forall2 same_error (reported (c_ret c) said) rs).
Proof.
  exists (mkcb [OError (Some []) 10 [109]; OPush [1]] 10). eexists. split; [split; [discriminate|split; [discriminate|reflexivity]]|]. split; [vm_compute; reflexivity|].
  eexists. split; [|split].
  - econstructor; [apply S_error; discriminate|]. econstructor; [apply (S_push []); discriminate|constructor].
  - constructor; [reflexivity|constructor].
  - intros H. inversion H as [|u r us rs Hs Ht]. destruct Hs as (_ & _ & Hs & _). cbn in Hs. discriminate Hs.
Qed.

(** Reading an error that has no format as a NETCONF error is not an error but undefined. *)
Theorem C42_no_format_refuted : exists rs e, outcome 0 [] EvChange [quiet_fail] = Some rs /\ In e rs /\ get_netconf e = None.
Proof. eexists. eexists. split; [vm_compute; reflexivity|]. split; [left; reflexivity|reflexivity]. Qed.

(** Two errors, one of them a NETCONF error with information, after another callback. *)
Definition nca : nc_arg := {| na_type := bytes "protocol"; na_tag := bytes "bad-element"; na_app := Some (bytes "app"); na_path := Some []; na_msg := bytes "wrong";
  na_infos := [(bytes "bad-element", bytes "x")] |}.
Example C42_nonvacuous : exists rs,
  outcome 7 [1; 2; 3] EvRpc [mkcb [] 0; mkcb [OMessage (bytes "first"); nc_op nca] 9; mkcb [] 3] = Some rs /\
  map e_msg rs = [bytes "first"; bytes "wrong"] /\ map e_code rs = [10; 10] /\
  map get_netconf (skipn 1 rs) = [Some (NcOk (mknc (bytes "protocol") (bytes "bad-element") (Some (bytes "app")) None (bytes "wrong") [(bytes "bad-element", bytes "x")]))] /\
  nc_arg_ok nca /\ fails (mkcb [nc_op nca] 9) /\ outcome 0 [] EvChange [mkcb [] 0; quiet_fail] = Some [Build_cb_err 12 (bytes "Requested resource already locked") None None].
Proof.
  eexists. split; [vm_compute; reflexivity|]. split; [vm_compute; reflexivity|]. split; [vm_compute; reflexivity|]. split; [vm_compute; reflexivity|].
  assert (Z : forall l, existsb (N.eqb 0) l = false -> c_string l).
  { intros l H Hi. assert (existsb (N.eqb 0) l = true) by (apply existsb_exists; exists 0; split; [exact Hi|reflexivity]). congruence. }
  split; [|split; [split; [discriminate|split; [discriminate|reflexivity]]|vm_compute; reflexivity]].
  split; [cbn; auto 10|]. split; [cbn; auto 10|]. split; [apply Z; reflexivity|].
  split; [intros s H; apply Some_inj in H; subst s; apply Z; reflexivity|]. split; [intros s H; apply Some_inj in H; subst s; apply Z; reflexivity|].
  split; [|reflexivity]. constructor; [split; apply Z; reflexivity|constructor].
Qed.
