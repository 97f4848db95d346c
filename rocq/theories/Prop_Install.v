(** * C52: a change of the set of modules happens completely or not at all *)

From Coq Require Import List Arith Bool Lia.
Import ListNotations.
From Verif Require Import Install InstallSpec InstallProofs InstallProofs2 InstallProofs3.

Lemma installed_startable : forall deps en ms w,
  installed deps en ms w -> startable en w.
Proof.
  intros deps en ms w (L & _ & _ & _ & A & B & _) m ts I. rewrite L in I.
  apply in_map_iff in I. destruct I as (y & E & Iy). assert (y = m) by congruence. subst y.
  split; [apply B; exact Iy|]. intros d D. apply A. split; [apply in_map; exact Iy|exact D].
Qed.

Lemma same_startable : forall en w w', same_world w w' -> startable en w' -> startable en w.
Proof.
  intros en w w' (L & _ & I & Y & _) St m ts J. rewrite L in J. destruct (St m ts J) as [A B].
  rewrite Y. split; [exact A|]. intros d D. rewrite I. auto.
Qed.

(** Installing modules when at most one call fails, wherever it does: either
    the call succeeds and exactly the old and the new modules are installed,
    with the data they should have, or it returns an error and nothing has
    changed.  Missing for the full property: installations that change the
    dependencies or the data of modules installed before, more than one
    failure, and the death of the process (all refuted below). *)
Theorem C52_install_partial : forall deps en w ms new upd o checks init r x,
  installed deps en ms w -> closed deps ms -> closed deps (ms ++ new) ->
  one_failure o ->
  (forall m, In m ms -> deps (ms ++ new) m = deps ms m) ->
  (forall m d, In m (map fst ms) -> upd m d = w_dat w m d) ->
  install deps en o checks init upd ms new w = (r, x) ->
  ((x = ROk /\ installed deps en (ms ++ new) (r_w r) /\
    (forall m d, In m (map fst (ms ++ new)) -> en m d = true ->
       d = Startup \/ d = Running \/ d = Factory -> w_dat (r_w r) m d = upd m d) /\
    (forall m, w_push (r_w r) m = w_push w m)) \/
   (x = RFail /\ same_world (r_w r) w)) /\
  startable en (r_w r).
Proof.
  intros deps en w ms new upd o checks init r x I0 C0 C1 O Dd Dt H.
  pose proof (install_alive deps en w ms new upd C1 C0 Dd o checks init r x (proj1 O) H) as Al.
  destruct x; [| |congruence].
  - destruct (install_ok deps en w ms new upd I0 C1 o checks init r H) as (A & B & P).
    split; [left; split; [reflexivity|split; [exact A|split; [|exact P]]]
           |eapply installed_startable; exact A].
    intros m d Im En Id. apply B; auto. cbn. destruct Id as [->|[->| ->]]; auto.
  - assert (Sw : same_world (r_w r) w).
    { apply (install_fail deps en w ms new upd I0 C0 C1 Dd (fun m d Im _ _ => Dt m d Im)
               o checks init r O H). }
    split; [right; auto|].
    eapply same_startable; [exact Sw|]. eapply installed_startable. exact I0.
Qed.

(** Whatever an installation changes and whatever else fails: if it reports
    success, exactly the old and the new modules are installed, with the data
    they should have; and without failures it succeeds. *)
Theorem C52_install_success : forall deps en w ms new upd o checks init,
  installed deps en ms w -> closed deps (ms ++ new) ->
  (forall r, install deps en o checks init upd ms new w = (r, ROk) ->
     installed deps en (ms ++ new) (r_w r) /\
     (forall m d, In m (map fst (ms ++ new)) -> en m d = true ->
        d = Startup \/ d = Running \/ d = Factory -> w_dat (r_w r) m d = upd m d) /\
     (forall m, w_push (r_w r) m = w_push w m)) /\
  (no_failure o -> exists r, install deps en o checks init upd ms new w = (r, ROk)).
Proof.
  intros deps en w ms new upd o checks init I0 C1. split.
  - intros r H. destruct (install_ok deps en w ms new upd I0 C1 o checks init r H) as (A & B & P).
    split; [exact A|split; [|exact P]]. intros m d Im En Id. apply B; auto.
    cbn. destruct Id as [->|[->| ->]]; auto.
  - intros N. apply (install_no_failure deps en w ms new upd C1 o checks init N).
Qed.

(** Removing modules without failures leaves exactly the others, with the data
    they should have. *)
Theorem C52_remove_success : forall deps en w ms del upd o checks,
  installed deps en ms w -> NoDup (map fst ms) -> incl del ms ->
  closed deps (without del ms) -> no_failure o ->
  exists r, remove deps en o checks upd ms del w = (r, ROk) /\
    installed deps en (without del ms) (r_w r) /\
    (forall m, In m (without del ms) <-> (In m ms /\ ~ In m del)) /\
    (forall m d, In m (map fst (without del ms)) -> en m d = true ->
       d = Startup \/ d = Running \/ d = Factory -> w_dat (r_w r) m d = upd m d).
Proof.
  intros deps en w ms del upd o checks I0 N Sb C O.
  destruct (remove_ok deps en w ms del upd I0 N Sb o checks O C) as (r & E & A & B).
  exists r. split; [exact E|]. split; [exact A|]. split; [intros m; apply in_without|].
  intros m d Im En Id. apply B; auto. cbn. destruct Id as [->|[->| ->]]; auto.
Qed.

(** Whatever fails during a removal, and wherever the process dies, sysrepo
    can be started again afterwards: every module that the registry still
    lists has its YANG file and its data files. *)
Theorem C52_remove_startable : forall deps en w ms del upd o checks r x,
  installed deps en ms w -> NoDup (map fst ms) -> incl del ms ->
  closed deps (without del ms) ->
  remove deps en o checks upd ms del w = (r, x) -> startable en (r_w r).
Proof.
  intros deps en w ms del upd o checks r x I0 N Sb C H.
  exact (remove_startable deps en w ms del upd I0 N Sb o checks r x C H).
Qed.

(** A removal that fails (or dies) with the modules still in the registry has
    changed nothing but the operational data pushed for these modules.
    Missing for the full property: failures after the registry was written
    (refuted below). *)
Theorem C52_remove_partial : forall deps en w ms del upd o checks r x,
  installed deps en ms w -> NoDup (map fst ms) -> incl del ms -> del <> [] ->
  closed deps (without del ms) ->
  remove deps en o checks upd ms del w = (r, x) -> x <> ROk ->
  map fst (w_lyd (r_w r)) = map fst (w_lyd w) ->
  same_but_push del (r_w r) w.
Proof.
  intros deps en w ms del upd o checks r x I0 N Sb Nd C H Nx L.
  exact (remove_before_registry deps en w ms del upd I0 Sb o checks r x Nd C H Nx L).
Qed.

(** Updating modules without failures installs the new revisions in place of
    the old ones. *)
Theorem C52_update_success : forall deps en w ms ups upd o checks,
  installed deps en ms w -> NoDup (map fst ms) ->
  (forall m rev, In (m, rev) ups -> In m ms /\ rev <> snd m) -> NoDup (map fst ups) ->
  closed deps (map (newrev ups) ms) -> no_failure o ->
  exists r, update deps en o checks upd ms ups w = (r, ROk) /\
    installed deps en (map (newrev ups) ms) (r_w r) /\
    (forall x, In x (map (newrev ups) ms) <->
       ((In x ms /\ ~ In x (map fst ups)) \/
        exists m rev, In (m, rev) ups /\ x = (fst m, rev))) /\
    (forall m d, In m (map fst ms) -> en m d = true ->
       d = Startup \/ d = Running \/ d = Factory -> w_dat (r_w r) m d = upd m d) /\
    (forall m, w_push (r_w r) m = w_push w m).
Proof.
  intros deps en w ms ups upd o checks I0 N Ui Un C O.
  assert (Ui' : forall u, In u ups -> In (fst u) ms /\ snd u <> snd (fst u)).
  { intros [m rev] I. cbn [fst snd]. apply (Ui m rev I). }
  destruct (update_ok deps en w ms ups upd I0 N Ui' Un o checks O C) as (r & E & A & B & P).
  exists r. split; [exact E|]. split; [exact A|]. split.
  - intros x. rewrite (in_new ms ups Ui' Un x). split.
    + intros [H|H]; [auto|]. right. apply in_map_iff in H. destruct H as ([m rev] & <- & Iu).
      exists m, rev. split; [exact Iu|reflexivity].
    + intros [H|(m & rev & Iu & ->)]; [auto|]. right. apply in_map_iff.
      exists (m, rev). split; [reflexivity|exact Iu].
  - split; [|exact P]. intros m d Im En Id. apply B; auto.
    cbn. destruct Id as [->|[->| ->]]; auto.
Qed.

(** An update that fails (or dies) with the old revisions still in the
    registry has changed nothing.  Missing for the full property: failures
    after the registry was written (refuted below). *)
Theorem C52_update_partial : forall deps en w ms ups upd o checks r x,
  installed deps en ms w -> NoDup (map fst ms) ->
  (forall m rev, In (m, rev) ups -> In m ms /\ rev <> snd m) -> NoDup (map fst ups) ->
  ups <> [] -> closed deps (map (newrev ups) ms) ->
  update deps en o checks upd ms ups w = (r, x) -> x <> ROk ->
  map fst (w_lyd (r_w r)) = map fst (w_lyd w) ->
  same_world (r_w r) w.
Proof.
  intros deps en w ms ups upd o checks r x I0 N Ui Un Ne C H Nx L.
  assert (Ui' : forall u, In u ups -> In (fst u) ms /\ snd u <> snd (fst u)).
  { intros [m rev] I. cbn [fst snd]. apply (Ui m rev I). }
  exact (update_before_registry deps en w ms ups upd I0 N Ui' Un o checks r x Ne C H Nx L).
Qed.

(** ** Concrete cases *)

Definition mA : md := (1, 0).
Definition mB : md := (2, 0).
Definition en_all : nat -> ds -> bool := fun _ _ => true.

(** the data of every installed module are number 5, data were pushed for A *)
Definition world_of (deps : list md -> md -> list nat) (ms : list md) : world :=
  W (map (fun m => (m, deps ms m)) ms) (map (fun m => (m, deps ms m)) ms)
    (fun m _ => has_name m ms) (fun m => has_md m ms)
    (fun m _ => if has_name m ms then Some 5 else None)
    (fun m => (m =? 1) && has_name m ms) ms ms.

Lemma world_of_installed : forall deps ms, installed deps en_all ms (world_of deps ms).
Proof.
  intros deps ms. unfold installed, world_of, en_all.
  cbn [w_lyd w_shm w_ctx w_cid w_inst w_yang w_dat w_push].
  split; [reflexivity|]. split; [reflexivity|]. split; [reflexivity|]. split; [reflexivity|].
  split; [|split; [|split]].
  - intros m d. rewrite has_name_spec. split; [auto|]. intros [H _]. exact H.
  - intros m. apply has_md_spec.
  - intros m d. destruct (has_name m ms); congruence.
  - intros m H. apply andb_true_iff in H. apply has_name_spec. apply H.
Qed.

(** no module depends on another *)
Definition deps0 : list md -> md -> list nat := fun _ _ => [].
(** module 2 augments module 1 with a reference to its own data *)
Definition deps_aug : list md -> md -> list nat :=
  fun c m => if (fst m =? 1) && has_name 2 c then [2] else [].

Definition fail_at (n : nat) : nat -> outcome := fun k => if k =? n then Fails else Good.
Definition die_at (n : nat) : nat -> outcome := fun k => if k =? n then Dies else Good.

Lemma fail_at_one : forall n, one_failure (fail_at n).
Proof.
  intros n. unfold one_failure, fail_at. split.
  - intros i. destruct (i =? n); discriminate.
  - intros i j Hi Hj. destruct (i =? n) eqn:E1; [|discriminate Hi].
    destruct (j =? n) eqn:E2; [|discriminate Hj].
    apply Nat.eqb_eq in E1, E2. congruence.
Qed.

Lemma closed0 : forall ms, NoDup (map fst ms) -> closed deps0 ms.
Proof. intros ms N. split; [exact N|]. intros m t _ []. Qed.

Lemma nodup_AB : NoDup (map fst [mA; mB]).
Proof. repeat constructor; cbn; lia. Qed.
Lemma nodup_A : NoDup (map fst [mA]).
Proof. repeat constructor; cbn; lia. Qed.

(** the data after a change: those of module 1 stay, module 2 gets 7 *)
Definition upd_keep : nat -> ds -> option nat := fun m _ => if m =? 1 then Some 5 else Some 7.
(** module 1 gets new data as well *)
Definition upd_all : nat -> ds -> option nat := fun m _ => Some (m + 6).

(** The hypotheses of [C52_install_partial] are met, by an installation that
    succeeds and by one that fails while a YANG file is stored. *)
Example C52_install_example :
  installed deps0 en_all [mA] (world_of deps0 [mA]) /\
  closed deps0 [mA] /\ closed deps0 ([mA] ++ [mB]) /\
  one_failure (fail_at 20) /\ one_failure (fail_at 100) /\
  (forall m d, In m (map fst [mA]) -> upd_keep m d = w_dat (world_of deps0 [mA]) m d) /\
  snd (install deps0 en_all (fail_at 100) 3 false upd_keep [mA] [mB] (world_of deps0 [mA])) = ROk /\
  snd (install deps0 en_all (fail_at 20) 3 false upd_keep [mA] [mB] (world_of deps0 [mA])) = RFail.
Proof.
  split; [apply world_of_installed|]. split; [apply closed0, nodup_A|].
  split; [apply closed0, nodup_AB|]. split; [apply fail_at_one|]. split; [apply fail_at_one|].
  split; [intros m d [<-|[]]; reflexivity|]. split; vm_compute; reflexivity.
Qed.

Example C52_remove_example :
  installed deps0 en_all [mA; mB] (world_of deps0 [mA; mB]) /\ incl [mB] [mA; mB] /\
  without [mB] [mA; mB] = [mA] /\ closed deps0 (without [mB] [mA; mB]) /\
  snd (remove deps0 en_all (fail_at 100) 3 upd_keep [mA; mB] [mB] (world_of deps0 [mA; mB])) = ROk /\
  snd (remove deps0 en_all (fail_at 4) 3 upd_keep [mA; mB] [mB] (world_of deps0 [mA; mB])) = RFail /\
  snd (update deps0 en_all (fail_at 100) 3 upd_keep [mA; mB] [(mB, 1)] (world_of deps0 [mA; mB])) = ROk /\
  map (newrev [(mB, 1)]) [mA; mB] = [mA; (2, 1)].
Proof.
  split; [apply world_of_installed|]. split; [intros x [<-|[]]; right; left; reflexivity|].
  split; [reflexivity|]. split; [apply closed0; exact nodup_A|].
  split; [vm_compute; reflexivity|]. split; [vm_compute; reflexivity|].
  split; vm_compute; reflexivity.
Qed.

(** F150: installing a module is not reverted when it makes another module
    depend on it (it augments that module with a leafref or a when/must
    expression referencing its own data).  If the initial data turn out to be
    invalid, or anything else fails after the registry was written,
    [_sr_install_modules] (sysrepo.c 1555) removes the modules from the
    registry but computes the dependencies in the new context, so the old
    module still depends on the module just removed from the registry;
    [sr_lydmods_add_deps_all] does not find it, passes NULL on (lyd_mods.c
    847-855) and the process crashes in [sr_lyd_new_term] (ly_wrap.c 682).
    The registry keeps the module without its YANG file, so after the next
    restart nobody can connect. *)
Theorem C52_install_depends_refuted :
  ~ (forall deps en w ms new upd o checks init r x,
       installed deps en ms w -> closed deps ms -> closed deps (ms ++ new) ->
       one_failure o ->
       (forall m d, In m (map fst ms) -> upd m d = w_dat w m d) ->
       install deps en o checks init upd ms new w = (r, x) ->
       x = ROk \/ (x = RFail /\ same_world (r_w r) w) \/ startable en (r_w r)).
Proof.
  intros H.
  destruct (install deps_aug en_all (fail_at 1) 0 true upd_keep [mA] [mB] (world_of deps_aug [mA]))
    as [r x] eqn:E.
  assert (Ca : closed deps_aug [mA]) by (split; [exact nodup_A|intros m t [<-|[]] []]).
  assert (Cb : closed deps_aug ([mA] ++ [mB])).
  { split; [exact nodup_AB|]. intros m t [<-|[<-|[]]] I; cbn in I; [|destruct I].
    destruct I as [<-|[]]. cbn. auto. }
  pose proof (H deps_aug en_all (world_of deps_aug [mA]) [mA] [mB] upd_keep (fail_at 1) 0 true r x
    (world_of_installed _ _) Ca Cb (fail_at_one 1)
    (fun m d Im => ltac:(destruct Im as [<-|[]]; reflexivity)) E) as K.
  assert (Ex : x = RDead) by (vm_compute in E; congruence).
  assert (El : In (mB, []) (w_lyd (r_w r))).
  { replace r with (fst (r, x)) by reflexivity. rewrite <- E. vm_compute. auto. }
  assert (Ey : w_yang (r_w r) mB = false).
  { replace r with (fst (r, x)) by reflexivity. rewrite <- E. vm_compute. reflexivity. }
  destruct K as [K|[[K _]|K]]; [congruence|congruence|].
  destruct (K mB [] El) as [Y _]. congruence.
Qed.

(** F151: data of other modules are not reverted.  The data of all modules
    are adapted to the new context (new default values, removed nodes) and
    stored one module after another ([sr_lycc_store_data_if_differ]); when
    storing fails, the data of the modules stored before keep their new
    values although the installation is reverted and returns an error. *)
Theorem C52_install_data_refuted :
  ~ (forall deps en w ms new upd o checks init r,
       installed deps en ms w -> closed deps ms -> closed deps (ms ++ new) ->
       one_failure o ->
       (forall m, In m ms -> deps (ms ++ new) m = deps ms m) ->
       install deps en o checks init upd ms new w = (r, RFail) ->
       same_world (r_w r) w).
Proof.
  intros H.
  destruct (install deps0 en_all (fail_at 15) 0 true upd_all [mA] [mB] (world_of deps0 [mA]))
    as [r x] eqn:E.
  assert (Ex : x = RFail) by (vm_compute in E; congruence). subst x.
  pose proof (H deps0 en_all (world_of deps0 [mA]) [mA] [mB] upd_all (fail_at 15) 0 true r
    (world_of_installed _ _) (closed0 _ nodup_A) (closed0 _ nodup_AB) (fail_at_one 15)
    (fun m _ => eq_refl) E) as (_ & _ & _ & _ & D & _).
  specialize (D 1 Startup).
  replace r with (fst (r, RFail)) in D by reflexivity. rewrite <- E in D.
  vm_compute in D. discriminate D.
Qed.

(** F152: a process that dies while installing a module can leave sysrepo
    unusable.  The registry file lists the new modules before their YANG
    files are stored and their data files are created; if the process (or the
    system) dies in between, the next start loads the registry, does not find
    the YANG file, and every connection attempt fails. *)
Theorem C52_install_crash_refuted :
  ~ (forall deps en w ms new upd o checks init r x,
       installed deps en ms w -> closed deps ms -> closed deps (ms ++ new) ->
       install deps en o checks init upd ms new w = (r, x) ->
       startable en (r_w r)).
Proof.
  intros H.
  destruct (install deps0 en_all (die_at 1) 0 true upd_keep [mA] [mB] (world_of deps0 [mA]))
    as [r x] eqn:E.
  pose proof (H deps0 en_all (world_of deps0 [mA]) [mA] [mB] upd_keep (die_at 1) 0 true r x
    (world_of_installed _ _) (closed0 _ nodup_A) (closed0 _ nodup_AB) E) as K.
  assert (El : In (mB, []) (w_lyd (r_w r))).
  { replace r with (fst (r, x)) by reflexivity. rewrite <- E. vm_compute. auto. }
  assert (Ey : w_yang (r_w r) mB = false).
  { replace r with (fst (r, x)) by reflexivity. rewrite <- E. vm_compute. reflexivity. }
  destruct (K mB [] El) as [Y _]. congruence.
Qed.

(** F153: a failed removal is not reverted.  When a plugin fails to uninstall
    a module or to store the adapted data, [sr_remove_modules] returns the
    error, but the modules are gone from the registry file and from shared
    memory while the content id and the context of every connection still
    have them. *)
Theorem C52_remove_revert_refuted :
  ~ (forall deps en w ms del upd o checks r,
       installed deps en ms w -> NoDup (map fst ms) -> incl del ms ->
       closed deps (without del ms) -> one_failure o ->
       remove deps en o checks upd ms del w = (r, RFail) ->
       same_but_push del (r_w r) w \/ installed deps en (without del ms) (r_w r)).
Proof.
  intros H.
  destruct (remove deps0 en_all (fail_at 4) 0 upd_keep [mA; mB] [mB] (world_of deps0 [mA; mB]))
    as [r x] eqn:E.
  assert (Ex : x = RFail) by (vm_compute in E; congruence). subst x.
  assert (Sb : incl [mB] [mA; mB]) by (intros y [<-|[]]; right; left; reflexivity).
  pose proof (H deps0 en_all (world_of deps0 [mA; mB]) [mA; mB] [mB] upd_keep (fail_at 4) 0 r
    (world_of_installed _ _) nodup_AB Sb (closed0 _ nodup_A) (fail_at_one 4) E) as K.
  replace r with (fst (r, RFail)) in K by reflexivity. rewrite <- E in K.
  destruct K as [(K & _)|(_ & _ & K & _)]; vm_compute in K; discriminate K.
Qed.

(** F154: a failed removal deletes pushed operational data.  The operational
    data all sessions pushed for the modules are deleted (sysrepo.c
    1822-1827) before the data of the other modules are checked against the
    new set of modules; when this check fails, the modules stay, their
    operational data are lost. *)
Theorem C52_remove_pushed_refuted :
  ~ (forall deps en w ms del upd o checks r,
       installed deps en ms w -> NoDup (map fst ms) -> incl del ms ->
       closed deps (without del ms) -> one_failure o ->
       remove deps en o checks upd ms del w = (r, RFail) ->
       map fst (w_lyd (r_w r)) = map fst (w_lyd w) ->
       same_world (r_w r) w).
Proof.
  intros H.
  destruct (remove deps0 en_all (fail_at 1) 0 upd_keep [mA; mB] [mA] (world_of deps0 [mA; mB]))
    as [r x] eqn:E.
  assert (Ex : x = RFail) by (vm_compute in E; congruence). subst x.
  assert (Sb : incl [mA] [mA; mB]) by (intros y [<-|[]]; left; reflexivity).
  assert (Nb : NoDup (map fst [mB])) by (repeat constructor; cbn; lia).
  assert (L : map fst (w_lyd (r_w r)) = map fst (w_lyd (world_of deps0 [mA; mB]))).
  { replace r with (fst (r, RFail)) by reflexivity. rewrite <- E. vm_compute. reflexivity. }
  pose proof (H deps0 en_all (world_of deps0 [mA; mB]) [mA; mB] [mA] upd_keep (fail_at 1) 0 r
    (world_of_installed _ _) nodup_AB Sb (closed0 _ Nb) (fail_at_one 1) E L)
    as (_ & _ & _ & _ & _ & P & _).
  specialize (P 1). replace r with (fst (r, RFail)) in P by reflexivity. rewrite <- E in P.
  vm_compute in P. discriminate P.
Qed.

(** F155: a failed update can leave sysrepo unusable.  [sr_update_modules]
    writes the new revision into the registry, then removes the YANG file of
    the old revision and stores that of the new one; when storing fails (disk
    full) the error is returned and nothing is reverted: the registry names a
    revision with no YANG file, after the next restart nobody can connect. *)
Theorem C52_update_startable_refuted :
  ~ (forall deps en w ms ups upd o checks r,
       installed deps en ms w -> NoDup (map fst ms) ->
       (forall m rev, In (m, rev) ups -> In m ms /\ rev <> snd m) -> NoDup (map fst ups) ->
       closed deps (map (newrev ups) ms) -> one_failure o ->
       update deps en o checks upd ms ups w = (r, RFail) ->
       startable en (r_w r)).
Proof.
  intros H.
  destruct (update deps0 en_all (fail_at 4) 0 upd_keep [mA; mB] [(mB, 1)] (world_of deps0 [mA; mB]))
    as [r x] eqn:E.
  assert (Ex : x = RFail) by (vm_compute in E; congruence). subst x.
  assert (Ui : forall m rev, In (m, rev) [(mB, 1)] -> In m [mA; mB] /\ rev <> snd m).
  { intros m rev [I|[]]. assert (m = mB) by congruence. assert (rev = 1) by congruence. subst.
    split; [right; left; reflexivity|discriminate]. }
  assert (Un : NoDup (map fst [(mB, 1)])) by (constructor; [intros []|constructor]).
  pose proof (H deps0 en_all (world_of deps0 [mA; mB]) [mA; mB] [(mB, 1)] upd_keep (fail_at 4) 0 r
    (world_of_installed _ _) nodup_AB Ui Un (closed0 (map (newrev [(mB, 1)]) [mA; mB]) nodup_AB) (fail_at_one 4) E) as K.
  assert (El : In ((2, 1), []) (w_lyd (r_w r))).
  { replace r with (fst (r, RFail)) by reflexivity. rewrite <- E. vm_compute. auto. }
  assert (Ey : w_yang (r_w r) (2, 1) = false).
  { replace r with (fst (r, RFail)) by reflexivity. rewrite <- E. vm_compute. reflexivity. }
  destruct (K (2, 1) [] El) as [Y _]. congruence.
Qed.

Print Assumptions C52_install_partial.
Print Assumptions C52_install_success.
Print Assumptions C52_remove_success.
Print Assumptions C52_remove_startable.
Print Assumptions C52_remove_partial.
Print Assumptions C52_update_success.
Print Assumptions C52_update_partial.
Print Assumptions C52_install_depends_refuted.
Print Assumptions C52_install_data_refuted.
Print Assumptions C52_install_crash_refuted.
Print Assumptions C52_remove_revert_refuted.
Print Assumptions C52_remove_pushed_refuted.
Print Assumptions C52_update_startable_refuted.
