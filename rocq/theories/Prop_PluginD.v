(** C66: The plugin daemon runs plugins in the configured order and cleans up exactly those it initialized. *)
From Coq Require Import List Bool Arith Lia Permutation.
From Verif Require Import PluginD PluginDSpec PluginDProofs.
Import ListNotations.

(** Every execution: nothing is called, or all plugins are ordered as configured, initialized one after another (all, or with -f
    up to the first that fails), then exactly those initialized are published, the daemon is ready, and at the end
    exactly those initialized are cleaned up. *)
Theorem C66_trace : forall e es ok, main e = (es, ok) ->
  (es = [] /\ ok = false) \/
  exists vs qs run rest mid, n_order e = Some vs /\ found (n_files e) qs /\ Permutation (run ++ rest) (n_int e ++ qs) /\ in_order vs (run ++ rest) /\
    stops (n_fatal e) run rest /\ es = map init_of run ++ mid ++ map EClean (started (map init_of run)) /\
    (mid = [] \/ ((mid = [EPublish (map p_name (filter p_ok run))] \/ mid = [EPublish (map p_name (filter p_ok run)); EReady]) /\
                  rest = [] /\ (n_fatal e = true -> Forall (fun p => p_ok p = true) run))) /\
    (ok = true <-> In EReady mid).
Proof.
  intros e es ok H. unfold main in H. destruct (n_dir e); [|cbn [negb] in H; injection H as <- <-; auto].
  destruct (load (n_int e) (n_files e)) as [ps [|]] eqn:L; cbn [negb] in H; [|injection H as <- <-; auto].
  destruct (load_spec _ _ _ L) as (qs & -> & F). destruct (n_conn e); cbn [negb] in H; [|injection H as <- <-; auto].
  destruct (n_order e) as [vs|]; [|injection H as <- <-; auto]. right.
  destruct (inits (n_fatal e) (sort vs (n_int e ++ qs))) as [[l es0] go] eqn:I. destruct (inits_spec _ _ _ _ _ I) as (run & rest & E & -> & -> & C).
  destruct (sort_order vs (n_int e ++ qs)) as [P O]. rewrite E in P, O. rewrite cleanup_spec in H.
  assert (stops (n_fatal e) run rest) as St by (destruct C as [(_ & R & A)|(_ & B & X)]; [left|right]; auto).
  assert (forall mid, (mid = [] \/ ((mid = [EPublish (map p_name (filter p_ok run))] \/ mid = [EPublish (map p_name (filter p_ok run)); EReady]) /\
                  rest = [] /\ (n_fatal e = true -> Forall (fun p => p_ok p = true) run))) -> es = map init_of run ++ mid ++ map EClean (started (map init_of run)) -> (ok = true <-> In EReady mid) ->
    exists vs0 qs0 run0 rest0 mid0, Some vs = Some vs0 /\ found (n_files e) qs0 /\ Permutation (run0 ++ rest0) (n_int e ++ qs0) /\ in_order vs0 (run0 ++ rest0) /\
    stops (n_fatal e) run0 rest0 /\ es = map init_of run0 ++ mid0 ++ map EClean (started (map init_of run0)) /\
    (mid0 = [] \/ ((mid0 = [EPublish (map p_name (filter p_ok run0))] \/ mid0 = [EPublish (map p_name (filter p_ok run0)); EReady]) /\
                  rest0 = [] /\ (n_fatal e = true -> Forall (fun p => p_ok p = true) run0))) /\ (ok = true <-> In EReady mid0)) as K.
  { intros mid A B D. exists vs, qs, run, rest, mid. auto 10. }
  assert (es = map init_of run ++ map EClean (started (map init_of run)) -> ok = false -> exists mid : list event, mid = [] /\ es = map init_of run ++ mid ++ map EClean (started (map init_of run)) /\ (ok = true <-> In EReady mid)) as K0.
  { intros A ->. exists []. split; [reflexivity|]. split; [exact A|]. split; [discriminate|intros []]. }
  destruct go; cbn [negb] in H.
  2: { injection H as <- <-. destruct (K0 eq_refl eq_refl) as (mid & A & B & D). apply (K mid); auto. }
  destruct C as [(_ & -> & A)|(X & _)]; [|discriminate]. cbn [map] in H. rewrite app_nil_r in H.
  destruct (publish (n_gaps e) 0 0 (map (fun p => (p, p_ok p)) run)) as [ns|] eqn:Pb.
  2: { injection H as <- <-. destruct (K0 eq_refl eq_refl) as (mid & A' & B & D). apply (K mid); auto. }
  apply publish_some in Pb. rewrite filter_run in Pb. subst ns.
  destruct (n_apply e); cbn [negb] in H.
  2: { injection H as <- <-. destruct (K0 eq_refl eq_refl) as (mid & A' & B & D). apply (K mid); auto. }
  destruct (n_pid e); cbn [negb] in H; injection H as <- <-.
  - apply (K [EPublish (map p_name (filter p_ok run)); EReady]); [right; auto|reflexivity|]. split; [intros _; right; left; reflexivity|reflexivity].
  - apply (K [EPublish (map p_name (filter p_ok run))]); [right; auto|reflexivity|]. split; [discriminate|intros [X|[]]; discriminate].
Qed.

(** Whatever happens, the plugins cleaned up are those initialized, each once for each time. *)
Theorem C66_clean : forall e, flat_map (fun x => match x with EClean id => [id] | _ => [] end) (fst (main e)) = started (fst (main e)).
Proof.
  intros e. destruct (main e) as [es ok] eqn:M. cbn [fst]. apply C66_trace in M as [[-> _]|(vs & qs & run & rest & mid & _ & _ & _ & _ & _ & -> & C & _)]; [reflexivity|].
  unfold started. rewrite !flat_map_app.
  assert (forall l : list plugin, flat_map (fun x => match x with EClean id => [id] | _ => [] end) (map init_of l) = []) as -> by (induction l as [|p l IH]; [reflexivity|exact IH]).
  assert (forall l, flat_map (fun x => match x with EInit id true => [id] | _ => [] end) (map EClean l) = []) as -> by (induction l as [|p l IH]; [reflexivity|exact IH]).
  assert (forall l, flat_map (fun x => match x with EClean id => [id] | _ => [] end) (map EClean l) = l) as -> by (induction l as [|p l IH]; [reflexivity|cbn; f_equal; exact IH]).
  destruct C as [->|[[-> | ->] _]]; cbn [flat_map List.app]; now rewrite app_nil_r.
Qed.

(** If nothing fails the daemon gets ready; without -f plugins may fail if positions need not follow each other. *)
Theorem C66_ready : forall e vs qs, n_dir e = true -> found (n_files e) qs -> n_conn e = true -> n_order e = Some vs -> n_apply e = true -> n_pid e = true ->
  Forall (fun p => p_ok p = true) (n_int e ++ qs) \/ (n_fatal e = false /\ n_gaps e = true) -> snd (main e) = true /\ In EReady (fst (main e)).
Proof.
  intros e vs qs D F Cn O A Pd H. unfold main. rewrite D, (load_all _ _ F), Cn, O. cbn [negb].
  destruct (inits (n_fatal e) (sort vs (n_int e ++ qs))) as [[l es0] go] eqn:I. destruct (inits_spec _ _ _ _ _ I) as (run & rest & E & -> & -> & C).
  destruct (sort_order vs (n_int e ++ qs)) as [P _]. rewrite E in P.
  assert (go = true /\ rest = []) as [-> ->].
  { destruct C as [(-> & -> & _)|(-> & Ff & l' & p & -> & Np & _)]; [auto|]. exfalso. destruct H as [H|[H _]]; [|congruence]. rewrite Forall_forall in H.
    rewrite (H p) in Np; [discriminate|]. eapply Permutation_in; [exact P|]. apply in_or_app. left. apply in_or_app. right. left. reflexivity. }
  cbn [negb map]. rewrite !app_nil_r in *.
  assert (publish (n_gaps e) 0 0 (map (fun p => (p, p_ok p)) run) <> None) as Pb.
  { destruct H as [H|[_ H]]; [|rewrite H, publish_gaps; discriminate]. apply publish_full. apply Forall_forall. intros x Hx. apply in_map_iff in Hx as (p & <- & Hp). cbn [snd].
    rewrite Forall_forall in H. apply H. eapply Permutation_in; eauto. }
  destruct (publish (n_gaps e) 0 0 (map (fun p => (p, p_ok p)) run)); [|congruence]. rewrite A, Pd. cbn [negb fst snd]. split; [reflexivity|].
  apply in_or_app. right. right. left. reflexivity.
Qed.

(** Instances that are not daemonized and end without another starting at this moment: at most one runs with a PID file. *)
Inductive reach : world -> Prop :=
| r_new : reach (mkworld None 0 [])
| r_start : forall w id, reach w -> reach (fst (pdo (PStart id true) w))
| r_stop : forall w id, reach w -> In id (map r_id (w_run w)) -> reach (prun [PClose id; PUnlink] w).
Theorem C66_single : forall w, reach w -> length (w_run w) <= 1.
Proof.
  intros w R. assert (w_run w = [] \/ exists p, w_run w = [p] /\ r_locked p = true /\ w_file w = Some (r_inode p)) as K.
  { induction R as [|w id R IH|w id R IH I]; [left; reflexivity| |].
    - cbn [pdo]. destruct IH as [E|(p & E & Lp & Fp)]; rewrite E.
      + right. cbn [existsb fst w_run w_file List.app]. eexists. split; [reflexivity|]. split; reflexivity.
      + rewrite Fp. cbn [existsb]. rewrite Lp, Nat.eqb_refl. cbn [andb orb fst w_run w_file]. right. exists p. auto.
    - left. cbn [prun fold_left pdo fst w_run]. destruct IH as [E|(p & E & _)]; rewrite E in *; [destruct I|]. destruct I as [<-|[]]. cbn [filter]. rewrite Nat.eqb_refl. reflexivity. }
  destruct K as [-> |(p & -> & _)]; cbn; lia.
Qed.
Print Assumptions C66_trace.
Print Assumptions C66_clean.
Print Assumptions C66_ready.
Print Assumptions C66_single.

(** ** An example: internal plugins 1 and 2, the files c.so and d.e.so, configured are d.e.so, x and the first internal one *)
Definition zenv (fatal gaps : bool) := mkenv [mkplugin [1] 1 true; mkplugin [2] 2 false] true [FGood [99; dot; 115] 3 true; FGood [100; dot; 101; dot; 115] 4 true] true
  (Some [[100; dot; 101; dot; 115]; [120]; [1]]) fatal gaps true true.
Example C66_nonvacuous :
  main (zenv false true) = ([EInit 4 true; EInit 1 true; EInit 3 true; EInit 2 false; EPublish [[100; dot; 101]; [1]; [99]]; EReady; EClean 4; EClean 1; EClean 3], true) /\
  main (zenv true true) = ([EInit 4 true; EInit 1 true; EInit 3 true; EInit 2 false; EClean 4; EClean 1; EClean 3], false) /\
  found (n_files (zenv false true)) [mkplugin [99] 3 true; mkplugin [100; dot; 101] 4 true] /\
  reach (prun [PStart 1 true; PStart 2 true; PClose 1; PUnlink; PStart 3 true] (mkworld None 0 [])) /\
  w_run (prun [PStart 1 true; PStart 2 true; PClose 1; PUnlink; PStart 3 true] (mkworld None 0 [])) = [mkproc 3 1 true].
Proof.
  split; [vm_compute; reflexivity|]. split; [vm_compute; reflexivity|]. split; [|split; [|vm_compute; reflexivity]].
  - cbn [zenv n_files]. constructor; [exact (base_no_ext [99; dot; 115])|discriminate|]. constructor; [exact (base_no_ext [100; dot; 101; dot; 115])|discriminate|constructor].
  - apply (r_start (prun [PStart 1 true; PStart 2 true; PClose 1; PUnlink] (mkworld None 0 [])) 3).
    apply (r_stop (prun [PStart 1 true; PStart 2 true] (mkworld None 0 [])) 1); [|vm_compute; auto].
    apply (r_start (prun [PStart 1 true] (mkworld None 0 [])) 2). apply (r_start (mkworld None 0 []) 1). constructor.
Qed.

(** F228: a plugin that fails leaves a gap in the positions of published plugins, so if libyang creates only the
    position following the last instance, the daemon ends though -f was not used. *)
Theorem C66_gap_refuted :
  main (mkenv [mkplugin [1] 1 false; mkplugin [2] 2 true] true [] true (Some []) false false true true) = ([EInit 1 false; EInit 2 true; EClean 2], false).
Proof. vm_compute. reflexivity. Qed.

(** F229: a plugin with a dot in its name cannot be ordered by its name without the extension, what is behind the dot is taken for an
    extension. *)
Theorem C66_dot_refuted : exists b file, base file b /\ b <> [] /\
  forall q, p_name q <> b -> p_name q <> [1] -> sort [b] [q; mkplugin b 2 true] = [q; mkplugin b 2 true].
Proof.
  exists [1; dot; 2], [1; dot; 2; dot; 3]. split; [exact (base_no_ext [1; dot; 2; dot; 3])|]. split; [discriminate|]. intros q N1 N2.
  unfold sort. cbn [sort_from pass]. assert (matches q [1; dot; 2] = false) as ->; [|reflexivity].
  unfold matches. change (no_ext [1; dot; 2]) with [1]. destruct (name_eqb (p_name q) [1]) eqn:E; [|reflexivity]. apply name_eqb_eq in E. congruence.
Qed.

(** F230: a daemonized instance loses the lock of its PID file by forking, so a second one can be started with it. *)
Theorem C66_daemon_refuted : length (w_run (prun [PStart 1 false; PStart 2 false] (mkworld None 0 []))) = 2.
Proof. vm_compute. reflexivity. Qed.

(** F231: an ending instance closes its PID file and then removes it, which may be that of an instance started in
    between; then another one can be started, even without daemonizing. *)
Theorem C66_unlink_refuted : map r_id (w_run (prun [PStart 1 true; PClose 1; PStart 2 true; PUnlink; PStart 3 true] (mkworld None 0 []))) = [2; 3].
Proof. vm_compute. reflexivity. Qed.
