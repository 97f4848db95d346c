(** C62: rotating loses no notifications and moves exactly the old files. *)
From Coq Require Import String Ascii NArith ZArith List Bool Lia.
From Verif Require Import Rotate RotateSpec RotateStr RotateProofs RotateKeep.
Import ListNotations.
Local Open Scope N_scope.

(** Every notification that was ever stored can be replayed or is in the archive *)
Theorem C62_not_lost : forall D s n, reach D apart s -> In n (written s) -> served s n \/ archived s n.
Proof. intros D s n R I. apply (k_all _ _ (reach_keep D s R) n I). Qed.

(** ... without conditions on schedules if files are only moved *)
Theorem C62_not_lost_moving : forall D s n, reach D moving s -> In n (written s) -> served s n \/ archived s n.
Proof.
  intros D s n R. assert (reach D apart s /\ forall cur x, rot s <> RTar cur x) as [R' _].
  { clear n. induction R as [c H|s e s' R [IH N] T A H].
    - split; [apply reach_init; exact H|discriminate].
    - split.
      + apply (reach_step D apart s e s' IH T); [|exact H].
        destruct e; cbn [apart moving] in *; auto; try congruence; intros cur y X; exfalso; exact (N cur y X).
      + destruct (reach_base _ _ _ R) as (im & B).
        destruct e as [d|m q x|m q|m|m|c| |x ok| |]; cbn [step] in H.
        * injection H as <-. exact N.
        * destruct (wr s m); [discriminate|]. destruct (dir s x); [|discriminate]. destruct (String.eqb (nmod x) m); [|discriminate].
          injection H as <-. exact N.
        * destruct (wr s m); [discriminate|]. destruct (dir s (m, snd q, snd q)); injection H as <-; exact N.
        * destruct (wr s m) as [[x i q|i q|x q]|]; try discriminate; injection H as <-; exact N.
        * destruct (wr s m) as [[x i q|i q|x q]|]; try discriminate. destruct (snd q <=? nto x); [injection H as <-; exact N|].
          destruct (dir s x); injection H as <-; exact N.
        * injection H as <-. exact N.
        * destruct (rot s); [| |discriminate]; injection H as <-; discriminate.
        * destruct (rot s) as [|cur|] eqn:Q; try discriminate. injection H as <-. cbn [moving] in A.
          destruct (rotate_cases D im s cur x ok B Q) as [->|(i & _ & _ & ->)]; [rewrite Q; discriminate|]. rewrite A. discriminate.
        * destruct (rot s) as [| |cur x]; try discriminate. injection H as <-. discriminate.
        * injection H as <-. discriminate. }
  apply (C62_not_lost D s n R').
Qed.

(** A file is archived only if the last notification it is named after was older than
    configured *)
Theorem C62_only_old : forall D P s cur rt x l, reach D P s -> In (cur, rt, x, l) (alog s) ->
  (Z.of_N (nto x) + rt < Z.of_N cur)%Z /\ cur <= now s.
Proof. intros D P s cur rt x l R I. apply (reach_old D P s R cur rt x l I). Qed.

(** ... and so were all the notifications in it *)
Theorem C62_only_old_notifications : forall D s cur rt x l n, reach D calm s -> In (cur, rt, x, l) (alog s) -> In n l ->
  (Z.of_N (snd n) + rt < Z.of_N cur)%Z.
Proof.
  intros D s cur rt x l n R I J. destruct (reach_old D calm s R cur rt x l I) as [A _].
  pose proof (reach_calm D s R cur rt x l n I J). lia.
Qed.

Lemma rotate_one : forall D im s cur x, Base D im s -> rot s = RScan cur -> exists s', pass [x] s = Some s' /\
  rot s' = RScan cur /\ conf s' = conf s /\ (forall y, dir s' y = if due cur (nto y) (c_rt (conf s)) && neqb y x then None else dir s y) /\
  exists im', Base D im' s'.
Proof.
  intros D im s cur x B R. cbn [pass step]. rewrite R.
  assert (forall y, neqb y x = true <-> y = x) as Ne by (intro y; apply neqb_eq).
  assert (forall y, (if due cur (nto y) (c_rt (conf s)) && neqb y x then None else dir s y) =
    if due cur (nto x) (c_rt (conf s)) then dset (dir s) x None y else dir s y) as Eq.
  { intro y. destruct (neqb y x) eqn:E.
    - apply neqb_eq in E. subst y. rewrite dset_same. destruct (due cur (nto x) (c_rt (conf s))); reflexivity.
    - rewrite andb_false_r. destruct (due cur (nto x) (c_rt (conf s))); [|reflexivity]. rewrite dset_other; [reflexivity|].
      intros ->. assert (neqb x x = true) by (apply neqb_eq; reflexivity). congruence. }
  destruct (dir s x) as [i|] eqn:E.
  - assert (format_check (fname (nmod x) (nfrom x) (nto x)) = Some (nfrom x, nto x)) as F.
    { destruct (b_dir _ _ _ B x i E) as ((H1 & H2) & _ & _ & H3). pose proof (b_last _ _ _ B (nmod x)) as H4.
      assert (2 ^ 63 < two64) as T by reflexivity. apply format_ok; first [exact H3|lia]. }
    destruct (step_base D im s (ERot x true) (rotate s cur x true) B Logic.I) as (im1 & B1 & _); [cbn [step]; rewrite R; reflexivity|].
    revert B1. unfold rotate. rewrite F. destruct (due cur (nto x) (c_rt (conf s))) eqn:Du.
    + rewrite E. destruct (c_tar (conf s)); intro B1; cbn [rot].
      * cbn [step rot dir now data nino wr conf arch cnt last written alog].
        match type of B1 with Base _ _ ?z => destruct (step_base D im1 z ERemove _ B1 Logic.I eq_refl) as (im2 & B2 & _) end.
        eexists. split; [reflexivity|]. cbn [rot conf dir]. split; [reflexivity|]. split; [reflexivity|].
        split; [intro y; symmetry; apply Eq|]. exists im2. exact B2.
      * eexists. split; [reflexivity|]. cbn [rot conf dir]. split; [reflexivity|]. split; [reflexivity|].
        split; [intro y; symmetry; apply Eq|]. exists im1. exact B1.
    + intros _. rewrite R. exists s. split; [reflexivity|]. split; [exact R|]. split; [reflexivity|].
      split; [intro y; symmetry; apply Eq|]. exists im. exact B.
  - assert (rotate s cur x true = s) as ->.
    { unfold rotate. destruct (format_check _) as [[t1 t2]|]; [|reflexivity]. rewrite E. destruct (due cur t2 (c_rt (conf s))); reflexivity. }
    rewrite R. exists s. split; [reflexivity|]. split; [exact R|]. split; [reflexivity|]. split; [|exists im; exact B].
    intro y. rewrite Eq. destruct (due cur (nto x) (c_rt (conf s))); [|reflexivity].
    destruct (name_dec y x) as [->|Ex]; [rewrite dset_same; exact E|rewrite dset_other by exact Ex; reflexivity].
Qed.

(** One pass removes exactly the old files *)
Theorem C62_pass : forall D P s cur l, reach D P s -> rot s = RScan cur -> (forall x i, dir s x = Some i -> In x l) ->
  exists s', pass l s = Some s' /\
    forall x, dir s' x = if due cur (nto x) (c_rt (conf s)) then None else dir s x.
Proof.
  intros D P s cur l R Rs Al. destruct (reach_base _ _ _ R) as (im & B).
  assert (forall l im s, Base D im s -> rot s = RScan cur -> exists s', pass l s = Some s' /\
    forall x, dir s' x = if due cur (nto x) (c_rt (conf s)) && existsb (neqb x) l then None else dir s x) as G.
  { clear. induction l as [|y l IH]; intros im s B R.
    - exists s. split; [reflexivity|]. intro x. cbn [existsb]. rewrite andb_false_r. reflexivity.
    - destruct (rotate_one D im s cur y B R) as (s1 & E1 & R1 & C1 & D1 & im1 & B1).
      destruct (IH im1 s1 B1 R1) as (s2 & E2 & D2). exists s2. split.
      + cbn [pass] in E1 |- *. destruct (step s (ERot y true)) as [sa|]; [|discriminate].
        destruct (rot sa); [injection E1 as <-; exact E2|injection E1 as <-; exact E2|].
        destruct (step sa ERemove) as [sb|]; [|discriminate]. injection E1 as <-. exact E2.
      + intro x. rewrite D2, C1, D1. cbn [existsb]. destruct (due cur (nto x) (c_rt (conf s))); cbn [andb]; [|reflexivity].
        destruct (neqb x y); cbn [orb]; [destruct (existsb (neqb x) l); reflexivity|reflexivity]. }
  destruct (G l im s B Rs) as (s' & E & Dd). exists s'. split; [exact E|]. intro x. rewrite Dd.
  destruct (due cur (nto x) (c_rt (conf s))); cbn [andb]; [|reflexivity]. destruct (existsb (neqb x) l) eqn:X; [reflexivity|].
  destruct (dir s x) as [i|] eqn:Dx; [|reflexivity]. exfalso.
  assert (existsb (neqb x) l = true) as Y; [|congruence]. apply existsb_exists. exists x. split; [apply (Al x i Dx)|apply neqb_eq; reflexivity].
Qed.

(** rotated-files-count is the number of files archived *)
Theorem C62_count : forall D P s, reach D P s -> cnt s = N.of_nat (List.length (alog s)).
Proof. exact reach_cnt. Qed.

(** The times are read from names as they were written *)
Theorem C62_names : forall m a b, has_dot m = false -> a < 2 ^ 63 -> b < 2 ^ 63 -> format_check (fname m a b) = Some (a, b).
Proof. intros m a b H A B. assert (2 ^ 63 < two64) by reflexivity. apply format_ok; [exact H|lia|lia]. Qed.

(** older-than is read with its unit *)
Theorem C62_period : forall n c k, unit_secs c = Some k -> n * k < 2 ^ 63 -> period (dec n ++ String c "") = Some (Z.of_N (n * k)).
Proof. exact period_ok. Qed.

(** For examples *)
Definition timelyb (D : N) (s : state) (e : event) : bool :=
  match e with
  | EOpen m n x => (last s m <=? snd n) && (snd n <? 2 ^ 63)
  | ENew m n => (last s m <=? snd n) && (snd n <? 2 ^ 63) && negb (has_dot m) && (now s <=? snd n + D)
  | ERename m => match wr s m with Some (WRen x n) => now s <=? snd n + D | _ => true end
  | EConfig c => (Z.of_N D <=? c_rt c)%Z
  | _ => true
  end.
Definition calmb (s : state) (e : event) : bool :=
  match e with ERot x _ => match wr s (nmod x) with None => true | _ => false end | _ => true end.
Definition apartb (s : state) (e : event) : bool :=
  match e with
  | ERot x _ => negb (c_tar (conf s)) || match wr s (nmod x) with None => true | _ => false end
  | EOpen m _ _ | ENew m _ => match rot s with RTar _ x => negb (String.eqb (nmod x) m) | _ => true end
  | _ => true
  end.
Fixpoint runb (D : N) (p : state -> event -> bool) (s : state) (l : list event) : option state :=
  match l with
  | [] => Some s
  | e :: l' => if timelyb D s e && p s e then match step s e with Some s' => runb D p s' l' | None => None end else None
  end.

Lemma timelyb_ok : forall D s e, timelyb D s e = true -> timely D s e.
Proof.
  intros D s e H. destruct e; cbn [timelyb timely] in *; auto.
  - apply andb_true_iff in H. destruct H as [H1 H2]. apply N.leb_le in H1. apply N.ltb_lt in H2. lia.
  - apply andb_true_iff in H. destruct H as [H H4]. apply andb_true_iff in H. destruct H as [H H3]. apply andb_true_iff in H. destruct H as [H1 H2].
    apply N.leb_le in H1. apply N.ltb_lt in H2. apply negb_true_iff in H3. apply N.leb_le in H4. auto.
  - intros x n E. rewrite E in H. apply N.leb_le in H. exact H.
  - apply Z.leb_le. exact H.
Qed.
Lemma calmb_ok : forall s e, calmb s e = true -> calm s e.
Proof. intros s e H. destruct e; cbn [calmb calm] in *; auto. destruct (wr s (nmod x)); [discriminate|reflexivity]. Qed.
Lemma apartb_ok : forall s e, apartb s e = true -> apart s e.
Proof.
  intros s e H. destruct e; cbn [apartb apart] in *; auto.
  - intros cur y E. rewrite E in H. apply negb_true_iff, String.eqb_neq in H. exact H.
  - intros cur y E. rewrite E in H. apply negb_true_iff, String.eqb_neq in H. exact H.
  - intro C. rewrite C in H. cbn [negb orb] in H. destruct (wr s (nmod x)); [discriminate|reflexivity].
Qed.
Lemma runb_reach : forall D p (P : state -> event -> Prop), (forall s e, p s e = true -> P s e) ->
  forall l s s', reach D P s -> runb D p s l = Some s' -> reach D P s'.
Proof.
  intros D p P Hp. induction l as [|e l IH]; intros s s' R H; cbn [runb] in H; [injection H as <-; exact R|].
  destruct (timelyb D s e && p s e) eqn:E; [|discriminate]. apply andb_true_iff in E. destruct E as [E1 E2].
  destruct (step s e) as [s1|] eqn:S1; [|discriminate]. apply (IH s1 s'); [|exact H].
  apply (reach_step D P s e s1 R (timelyb_ok _ _ _ E1) (Hp _ _ E2) S1).
Qed.
Lemma runs : forall (o : option state) (P : state -> Prop), match o with Some s => P s | None => False end -> exists s, o = Some s /\ P s.
Proof. intros [s|] P H; [exists s; auto|destruct H]. Qed.

Definition m0 : string := "m".
Definition c0 (t : bool) : cfg := Cfg 10 "out/" t.

(** Two notifications are stored, compressed when they are old and a third one is stored
    in a new file *)
Example c62_example : exists s, reach 10 apart s /\ reach 10 calm s /\ written s = [(3, 40); (2, 7); (1, 5)] /\
  arch s = [(("out/"%string, true, (m0, 5, 7)), Copy [(1, 5); (2, 7)])] /\ cnt s = 1 /\ dir s (m0, 5, 7) = None /\ dir s (m0, 40, 40) = Some 1.
Proof.
  pose (l := [ETick 5; ENew m0 (1, 5); EWrite m0; ETick 2; EOpen m0 (2, 7) (m0, 5, 5); EWrite m0; ERename m0;
              EPass; ERot (m0, 5, 7) true; ETick 33; EPass; ERot (m0, 5, 7) true; ERemove; ENew m0 (3, 40); EWrite m0]).
  destruct (runs (runb 10 apartb (init (c0 true)) l)
    (fun s => runb 10 calmb (init (c0 true)) l = Some s /\ written s = [(3, 40); (2, 7); (1, 5)] /\
      arch s = [(("out/"%string, true, (m0, 5, 7)), Copy [(1, 5); (2, 7)])] /\ cnt s = 1 /\ dir s (m0, 5, 7) = None /\ dir s (m0, 40, 40) = Some 1))
    as (s & E & E' & H); [vm_compute; auto 10|].
  exists s. split; [|split; [|exact H]].
  - apply (runb_reach 10 apartb apart apartb_ok l (init (c0 true)) s); [apply reach_init; cbn; lia|exact E].
  - apply (runb_reach 10 calmb calm calmb_ok l (init (c0 true)) s); [apply reach_init; cbn; lia|exact E'].
Qed.

(** F202: a notification that is stored between compressing a file and removing it is
    lost: it is neither in the file that was compressed nor can it be replayed
    (src/executables/srpd_rotation.c 209-224 takes no lock). *)
Theorem C62_compressing_while_storing_refuted : exists s n, reach 10 any s /\ In n (written s) /\ ~ served s n /\ ~ archived s n.
Proof.
  pose (l := [ETick 5; ENew m0 (1, 5); EWrite m0; ETick 20; EPass; EOpen m0 (2, 25) (m0, 5, 5); ERot (m0, 5, 5) true; EWrite m0; ERemove; ERename m0]).
  destruct (runs (runb 10 (fun _ _ => true) (init (c0 true)) l)
    (fun s => written s = [(2, 25); (1, 5)] /\ dir s = dset (dset (fun _ => None) (m0, 5, 5) (Some 0)) (m0, 5, 5) None /\
      arch s = [(("out/"%string, true, (m0, 5, 5)), Copy [(1, 5)])])) as (s & E & H1 & H2 & H3); [vm_compute; auto|].
  exists s, (2, 25). split; [|split; [|split]].
  - apply (runb_reach 10 (fun _ _ => true) any (fun _ _ _ => Logic.I) l (init (c0 true)) s); [apply reach_init; cbn; lia|exact E].
  - rewrite H1. left. reflexivity.
  - intros (x & i & D & _). rewrite H2 in D. unfold dset in D. destruct (neqb (m0, 5, 5) x); discriminate.
  - intros (k & v & I & J). rewrite H3 in I. destruct I as [I|[]]. injection I as _ <-. destruct J as [J|[]]. discriminate.
Qed.

(** F203: a notification that is stored later than older-than after its time, in the same
    second as the first and last one of a file already archived, gets a file of the same
    name, which overwrites the file in the archive: its notifications are lost
    (srpd_rotation.c 226-241, src/plugins/ntf_json.c 468). *)
Theorem C62_late_store_refuted : exists l s n, run (init (c0 false)) l = Some s /\ In n (written s) /\ ~ served s n /\ ~ archived s n.
Proof.
  pose (l := [ETick 5; ENew m0 (1, 5); EWrite m0; ETick 20; EPass; ERot (m0, 5, 5) true; ENew m0 (2, 5); EWrite m0; EPass; ERot (m0, 5, 5) true]).
  destruct (runs (run (init (c0 false)) l)
    (fun s => written s = [(2, 5); (1, 5)] /\ dir s = dset (dset (dset (dset (fun _ => None) (m0, 5, 5) (Some 0)) (m0, 5, 5) None) (m0, 5, 5) (Some 1)) (m0, 5, 5) None /\
      arch s = [(("out/"%string, false, (m0, 5, 5)), File 1)] /\ data s 1 = [(2, 5)])) as (s & E & H1 & H2 & H3 & H4); [vm_compute; auto|].
  exists l, s, (1, 5). split; [exact E|]. split; [rewrite H1; right; left; reflexivity|]. split.
  - intros (x & i & D & _). rewrite H2 in D. unfold dset in D. destruct (neqb (m0, 5, 5) x); discriminate.
  - intros (k & v & I & J). rewrite H3 in I. destruct I as [I|[]]. injection I as _ <-. rewrite H4 in J. destruct J as [J|[]]. discriminate.
Qed.

(** F204: a notification that is being stored in an old file while the file is moved is
    archived although it is new, and can no longer be replayed; storing it reports an
    error (srpd_rotation.c 185-241, ntf_json.c 328-364). *)
Theorem C62_new_notification_archived_refuted : exists s cur rt x l n, reach 10 any s /\ In (cur, rt, x, l) (alog s) /\ In n l /\
  snd n = cur /\ ~ served s n.
Proof.
  pose (l := [ETick 5; ENew m0 (1, 5); EWrite m0; ETick 20; EPass; EOpen m0 (2, 25) (m0, 5, 5); EWrite m0; ERot (m0, 5, 5) true; ERename m0]).
  destruct (runs (runb 10 (fun _ _ => true) (init (c0 false)) l)
    (fun s => dir s = dset (dset (fun _ => None) (m0, 5, 5) (Some 0)) (m0, 5, 5) None /\
      alog s = [(25, 10%Z, (m0, 5, 5), [(1, 5); (2, 25)])])) as (s & E & H2 & H3); [vm_compute; auto|].
  exists s, 25, 10%Z, (m0, 5, 5), [(1, 5); (2, 25)], (2, 25). split; [|split; [|split; [|split]]].
  - apply (runb_reach 10 (fun _ _ => true) any (fun _ _ _ => Logic.I) l (init (c0 false)) s); [apply reach_init; cbn; lia|exact E].
  - rewrite H3. left. reflexivity.
  - right. left. reflexivity.
  - reflexivity.
  - intros (x & i & D & _). rewrite H2 in D. unfold dset in D. destruct (neqb (m0, 5, 5) x); discriminate.
Qed.

(** F205: files of modules with a dot in their name are never rotated, whatever their
    age (srpd_rotation.c 119-127 looks for the first dot). *)
Theorem C62_dotted_module_refuted : forall a b, format_check (fname "a.b" a b) = None.
Proof. intros a b. reflexivity. Qed.

(** F206: a module name that itself looks like the name of a file makes all its files
    look old (srpd_rotation.c 119-141): they are rotated at once. *)
Theorem C62_misleading_module_refuted : forall a b, format_check (fname "a.notif.1-1" a b) = Some (1, 1).
Proof. intros a b. reflexivity. Qed.

(** F207: a very long time in older-than, which its type allows, becomes negative: every
    file is rotated at once, also one with a notification stored in this second
    (srpd_rotation.c 290-322, 199-200). *)
Theorem C62_long_period_refuted : exists rt, period "99999999999999999999s" = Some rt /\ forall now, due now now rt = true.
Proof.
  exists (-1)%Z. split; [vm_compute; reflexivity|]. intro now. unfold due. apply andb_true_iff. split; [apply Z.leb_le; lia|apply Z.ltb_lt; lia].
Qed.

Print Assumptions C62_not_lost.
Print Assumptions C62_not_lost_moving.
Print Assumptions C62_only_old.
Print Assumptions C62_only_old_notifications.
Print Assumptions C62_pass.
Print Assumptions C62_count.
Print Assumptions C62_names.
Print Assumptions C62_period.
