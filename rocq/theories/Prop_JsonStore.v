(** C27: startup data survive the death of a process storing them. C37: running data after such a death. *)
From Coq Require Import Ascii String List Bool Arith NArith Lia.
From Verif Require Import JsonStore JsonSpec JsonProofs.
Import ListNotations.
Local Open Scope string_scope.
Local Open Scope list_scope.

Definition B (s : string) : bytes := list_ascii_of_string s.

Section C27.
Context {D : Type} (parse : bytes -> option D).

(** A process storing [text] dies anywhere: the data are still the old ones, except for a death when the backup is an
    incomplete copy of the old text. *)
Theorem C27_died_partial : forall s o old d text s',
  f_start s = Some old -> f_bck s = None -> parse old = Some d ->
  store Startup text o s = Died s' ->
  holds parse s' d \/ (f_start s' = Some old /\ exists k, k < length old /\ f_bck s' = Some (firstn k old)).
Proof.
  intros s o old d text s' Hs Hb Hp E. pose proof (store_spec o s old text Hb Hs) as P. rewrite E in P.
  destruct P as [P|P]; [left; exact (inv_holds parse s' old d P Hp)|right; exact P].
Qed.

(** Data stored with success are the data from then on. *)
Theorem C27_stored : forall s o old d text o' s',
  f_start s = Some old -> f_bck s = None -> parse text = Some d ->
  store Startup text o s = Fin false o' s' ->
  holds parse s' d.
Proof.
  intros s o old d text o' s' Hs Hb Hp E. pose proof (store_spec o s old text Hb Hs) as P. rewrite E in P.
  apply (inv_holds parse s' text d); [left; exact P|exact Hp].
Qed.

(** A successful load leaves no backup, so what is required above for storing is met after it. *)
Lemma retry_same n hd o s r o' s' : retry parse n Startup hd o s = Fin r o' s' -> s' = s.
Proof.
  destruct n as [|n]; [discriminate|]. cbn [retry]. unfold open_, sys.
  destruct o as [|x o]; [discriminate|]. cbn [path get].
  destruct x as [| |k], (f_start s) as [l|]; cbn [fst snd]; try (intros H; injection H as _ _ <-; reflexivity).
  destruct o as [|y o]; [discriminate|].
  destruct y as [| |j], (parse (content FStart s)); cbn; intros H; injection H as _ _ <-; reflexivity.
Qed.
Lemma retry_exists n hd o s x o' s' : retry parse n Startup hd o s = Fin (LData x) o' s' ->
  exists t, f_start s = Some t /\ parse t = Some x.
Proof.
  destruct n as [|n]; [discriminate|]. cbn [retry]. unfold open_, sys.
  destruct o as [|y o]; [discriminate|]. cbn [path get].
  destruct (f_start s) as [l|] eqn:El; destruct y as [| |k]; cbn [fst snd]; try discriminate.
  destruct o as [|z o]; [discriminate|]. rewrite (content_get FStart s l El).
  destruct z as [| |j]; destruct (parse l) as [w|] eqn:E; cbn; try discriminate.
  intros H. injection H as -> _ _. exists l. split; [reflexivity|exact E].
Qed.
Theorem C27_loaded : forall s o x o' s', looked o ->
  load parse Startup true o s = Fin (LData x) o' s' ->
  f_bck s' = None /\ exists t, f_start s' = Some t /\ parse t = Some x.
Proof.
  intros s o x o' s' Hk. unfold load. unfold bind at 1. unfold exists_ at 1, sys.
  destruct o as [|y o]; [discriminate|]. cbn [get].
  destruct (f_bck s) as [b|] eqn:Eb.
  - destruct y as [| |n]; [destruct Hk..|]. cbn [fst snd]. unfold bind.
    destruct (cp_path FStart FBck o s) as [s1|[] o1 s1] eqn:Ec; [discriminate..|].
    unfold unlink, sys. destruct o1 as [|z o1]; [discriminate|].
    destruct z as [| |m]; [discriminate..|].
    destruct (get FBck s1) as [b1|]; [|discriminate]. cbn [fst snd negb].
    intros E. pose proof (retry_same _ _ _ _ _ _ _ E) as ->. split; [reflexivity|].
    exact (retry_exists _ _ _ _ _ _ _ E).
  - replace (match y with Good _ => (false, s) | _ => (false, s) end) with (false, s) by (destruct y; reflexivity).
    cbn [fst snd]. intros E. pose proof (retry_same _ _ _ _ _ _ _ E) as ->. split; [exact Eb|].
    exact (retry_exists _ _ _ _ _ _ _ E).
Qed.

(** A change: data are loaded and, when loaded, other data are stored. *)
Inductive verdict := Done | NotLoaded | NotStored.
Definition change (text : bytes) : M verdict :=
  bind (load parse Startup true) (fun r =>
  match r with
  | LData _ => bind (store Startup text) (fun err => ret (if err then NotStored else Done))
  | _ => ret NotLoaded
  end).
(** Any number of changes, each by a process which may die or have its load fail; the process does not die with an
    incomplete backup and no storing fails. The data are always those of the last change done, the first ones being
    those of [t]. *)
Definition incomplete (s : fs) (t : bytes) : Prop := exists k, k < length t /\ f_bck s = Some (firstn k t).
Fixpoint follows (ops : list (bytes * list outcome)) (s : fs) (t : bytes) : Prop :=
  match ops with
  | [] => forall d, parse t = Some d -> holds parse s d
  | (text, o) :: rest =>
      looked o -> (exists d, parse text = Some d) ->
      match change text o s with
      | Died s' => ~ incomplete s' t -> follows rest s' t
      | Fin NotLoaded _ s' => follows rest s' t
      | Fin Done _ s' => follows rest s' text
      | Fin NotStored _ _ => True
      end
  end.
Lemma follows_inv : forall ops s t d, Inv s t -> parse t = Some d -> follows ops s t.
Proof.
  induction ops as [|[text o] ops IH]; intros s t d HI Hp; cbn [follows].
  - intros d' Hp'. exact (inv_holds parse s t d' HI Hp').
  - intros Hk (d' & Hp'). unfold change, bind.
    pose proof (load_inv parse o s t HI Hk) as L.
    pose proof (fun x => C27_loaded s o x) as Q.
    destruct (load parse Startup true o s) as [s1|r o1 s1].
    + intros _. exact (IH s1 t d L Hp).
    + destruct L as [HI1 G]. destruct r as [x| |].
      * destruct (Q x o1 s1 Hk eq_refl) as (Hb & t' & Hs & Hp1).
        assert (t' = t) as ->.
        { destruct HI1 as [[_ A]|[A _]]; congruence. }
        pose proof (store_spec o1 s1 t text Hb Hs) as P.
        destruct (store Startup text o1 s1) as [s2|[] o2 s2]; cbn.
        -- intros Hn. destruct P as [P|P]; [exact (IH s2 t d P Hp)|].
           exfalso. apply Hn. destruct P as [_ P]. exact P.
        -- exact I.
        -- apply (IH s2 text d'); [left; exact P|exact Hp'].
      * exact (IH s1 t d HI1 Hp).
      * exact (IH s1 t d HI1 Hp).
Qed.
Theorem C27_history_partial : forall ops s t d,
  f_start s = Some t -> f_bck s = None -> parse t = Some d -> follows ops s t.
Proof. intros ops s t d Hs Hb Hp. apply (follows_inv ops s t d); [left; split; assumption|exact Hp]. Qed.

(** The backup file exists before it is filled: a death between these two, and the old data, not even touched by that
    time, are overwritten by an empty file. *)
Theorem C27_died_refuted : forall s old d text,
  f_start s = Some old -> f_bck s = None -> parse [] <> Some d ->
  exists o s', store Startup text o s = Died s' /\ f_start s' = Some old /\ ~ holds parse s' d.
Proof.
  intros s old d text Hs Hb Hp. exists [Good 0; Good 0]. eexists. split.
  - unfold store, store_, bind, exists_, open_creat, sys. cbn [get]. rewrite Hs. cbn [fst snd negb]. rewrite Hb.
    cbn [fst snd negb]. reflexivity.
  - split; [exact Hs|]. apply (inv_not_holds parse _ []); [|exact Hp].
    right. cbn. split; [reflexivity|rewrite Hs; discriminate].
Qed.
(** The same when setting of permissions of the backup fails: the caller is told about an error, the empty backup is
    left there. *)
Theorem C27_backup_refuted : forall s old d text,
  f_start s = Some old -> f_bck s = None -> parse [] <> Some d ->
  exists o o' s', store Startup text o s = Fin true o' s' /\ ~ holds parse s' d.
Proof.
  intros s old d text Hs Hb Hp. exists [Good 0; Intr], []. eexists. split.
  - unfold store, store_, bind, exists_, open_creat, sys. cbn [get]. rewrite Hs. cbn [fst snd negb]. rewrite Hb.
    cbn [fst snd negb]. reflexivity.
  - apply (inv_not_holds parse _ []); [|exact Hp]. right. cbn. split; [reflexivity|rewrite Hs; discriminate].
Qed.

Definition txt_old : bytes := B "{""m:a"":1}".
Definition txt_new : bytes := B "{""m:a"":2,""m:b"":3}".
Definition txt_half : bytes := B "{""m:a"":2}".
Definition ex_fs : fs := mkFs (Some txt_old) None (Some txt_old) None.
(** Writing of the new text fails after 8 bytes: the backup is removed with the file half overwritten. *)
Definition ex_copied : list outcome := repeat (Good 20) 7.
Theorem C27_failed_refuted : forall d d', parse txt_half <> Some d -> parse txt_half <> Some d' ->
  exists o o' s', store Startup txt_new o ex_fs = Fin true o' s' /\ ~ holds parse s' d /\ ~ holds parse s' d'.
Proof.
  intros d d' H H'.
  assert (E : exists s', store Startup txt_new (ex_copied ++ [Good 0; Good 8; Fail; Good 0]) ex_fs = Fin true [] s' /\ Inv s' txt_half).
  { eexists. split; [vm_compute; reflexivity|left; vm_compute; split; reflexivity]. }
  destruct E as (s' & E & I). eexists. eexists. exists s'. split; [exact E|].
  split; apply (inv_not_holds parse s' txt_half); assumption.
Qed.
(** After a death during storing of startup data and a reboot, running data are filled from the startup file and not from
    its backup. *)
Theorem C27_boot_refuted : exists o s', store Startup txt_new o ex_fs = Died s' /\
  exists o1 o2 s2, works o1 /\ copy Running Startup o1 s' = Fin false o2 s2 /\ f_run s2 = Some txt_half.
Proof.
  exists (ex_copied ++ [Good 0; Good 8]). eexists. split; [vm_compute; reflexivity|].
  exists (repeat (Good 20) 6). eexists. eexists. split.
  { intros x Hx. apply repeat_spec in Hx. subst x. exists 19. reflexivity. }
  split; vm_compute; reflexivity.
Qed.
(** A backup left by a death outlives its module: installed again, the module gets the data of the previous
    installation, and not the ones it was installed with. *)
Theorem C27_reinstall_refuted : forall d, parse txt_old <> Some d ->
  exists o s1, store Startup txt_new o ex_fs = Died s1 /\
  exists o1 o1' s2, uninstall o1 s1 = Fin tt o1' s2 /\ f_start s2 = None /\
  exists o2 o2' s3, install (B "{}") o2 s2 = Fin false o2' s3 /\ f_start s3 = Some (B "{}") /\ ~ holds parse s3 d.
Proof.
  intros d H. exists (ex_copied ++ [Good 0; Good 8]). eexists. split; [vm_compute; reflexivity|].
  exists [Good 0], []. eexists. split; [vm_compute; reflexivity|]. split; [reflexivity|].
  exists [Good 0; Good 0; Good 0; Good 5; Good 0], []. eexists. split; [vm_compute; reflexivity|].
  split; [reflexivity|]. apply (inv_not_holds parse _ txt_old); [|exact H].
  right. split; [reflexivity|discriminate].
Qed.
(** access(2) of the backup failing counts as there being none. *)
Theorem C27_access_refuted : exists o s', store Startup txt_new o ex_fs = Died s' /\
  forall x, parse txt_half = Some x -> exists o1 o2 s2, load parse Startup true o1 s' = Fin (LData x) o2 s2.
Proof.
  exists (ex_copied ++ [Good 0; Good 8]). eexists. split; [vm_compute; reflexivity|].
  intros x H. exists [Fail; Good 0; Good 0], []. eexists. unfold load, bind, exists_, sys. cbn [get f_bck fst snd].
  cbn [length retry]. unfold open_, sys. cbn [path get f_start fst snd content].
  unfold txt_half, B in H. cbn in H. unfold content. cbn [get f_start]. rewrite H. reflexivity.
Qed.
End C27.

(** The hypotheses are met: dying when the new text has been half written, and all the way. *)
Example C27_met : exists s', store Startup txt_new (ex_copied ++ [Good 0; Good 8]) ex_fs = Died s'
  /\ f_bck s' = Some txt_old /\ f_start s' = Some txt_half /\ holds (@Some bytes) s' txt_old.
Proof.
  eexists. split; [vm_compute; reflexivity|]. split; [reflexivity|]. split; [reflexivity|].
  apply (inv_holds (@Some bytes) _ txt_old); [|reflexivity]. right. split; [reflexivity|discriminate].
Qed.
Example C27_met_stored : exists o' s', store Startup txt_new (repeat (Good 20) 12) ex_fs = Fin false o' s'
  /\ f_start s' = Some txt_new /\ f_bck s' = None.
Proof. eexists. eexists. split; [vm_compute; reflexivity|]. split; reflexivity. Qed.

Section C37.
Context {D : Type} (parse : bytes -> option D).

(** Whatever the moment of the death when storing running data, startup data are not touched and the running file has the
    beginning of the new text and the end of the old one. *)
Lemma store_run o s old text : f_run s = Some old ->
  match store Running text o s with
  | Died s' | Fin true _ s' => exists k, s' = set FRun (Some (firstn k text ++ skipn k old)) s
  | Fin false _ s' => s' = set FRun (Some text) s
  end.
Proof.
  intros Hr. assert (H0 : exists k, s = set FRun (Some (firstn k text ++ skipn k old)) s).
  { exists 0. cbn [firstn skipn app]. destruct s as [a b c d]. cbn in *. rewrite Hr. reflexivity. }
  unfold store. unfold bind at 1. unfold exists_ at 1, sys.
  destruct o as [|x o]; [exact H0|]. cbn [path get]. rewrite Hr.
  assert (SD : forall o p, match store_data FRun text false p false o s with
                | Died s' | Fin true _ s' => exists k, s' = set FRun (Some (firstn k text ++ skipn k old)) s
                | Fin false _ s' => s' = set FRun (Some text) s end).
  { clear o x. intros o p.
    assert (SD0 : forall o, match (bind (open_ FRun) (fun ok =>
               if negb ok then cleanup FRun false false true else
               bind (ret true) (fun ok => if negb ok then cleanup FRun false false true else
               bind (print_loop FRun 0 text) (fun err => if err then cleanup FRun false false true else
               bind (ftruncate FRun (length text)) (fun ok => cleanup FRun false false (negb ok)))))) o s with
                | Died s' | Fin true _ s' => exists k, s' = set FRun (Some (firstn k text ++ skipn k old)) s
                | Fin false _ s' => s' = set FRun (Some text) s end).
    { clear o. intros o. unfold bind at 1. unfold open_, sys. destruct o as [|y o]; [exact H0|].
      cbn [get]. rewrite Hr. destruct y as [| |n]; cbn [fst snd negb]; [exact H0..|].
      unfold bind, ret. cbn [negb]. pose proof (print_spec FRun text old s o Hr) as P.
      destruct (print_loop FRun 0 text o s) as [s'|[] o' s']; [exact P..|].
      subst s'. unfold ftruncate, sys.
      assert (H1 : exists k, set FRun (Some (text ++ skipn (length text) old)) s = set FRun (Some (firstn k text ++ skipn k old)) s).
      { exists (length text). rewrite firstn_all. reflexivity. }
      destruct o' as [|z o']; [exact H1|].
      destruct z as [| |m]; cbn [fst snd negb]; unfold cleanup, bind, ret; cbn [andb]; [exact H1..|].
      rewrite content_set, trunc_text, set_set. reflexivity. }
    unfold store_data. destruct p.
    - unfold bind at 1. unfold open_excl, sys. destruct o as [|y o]; [exact H0|]. cbn [get]. rewrite Hr.
      replace (match y with Good _ => (false, s) | Intr => (false, s) | Fail => (false, s) end) with (false, s)
        by (destruct y; reflexivity). cbn [fst snd]. apply SD0.
    - unfold bind at 1. apply SD0. }
  destruct x as [| |n]; cbn [fst snd].
  3: exact (SD o false).
  1,2: unfold bind at 1; unfold try_, sys; destruct o as [|y o]; [exact H0|];
    destruct y as [| |n]; cbn [fst snd negb]; [exact H0..|]; exact (SD o true).
Qed.
Theorem C37_died : forall s o old text s', f_run s = Some old ->
  store Running text o s = Died s' ->
  f_start s' = f_start s /\ f_bck s' = f_bck s /\ exists k, f_run s' = Some (firstn k text ++ skipn k old).
Proof.
  intros s o old text s' Hr E. pose proof (store_run o s old text Hr) as P. rewrite E in P. destruct P as (k & ->).
  split; [reflexivity|]. split; [reflexivity|]. exists k. reflexivity.
Qed.
Theorem C37_stored : forall s o old text o' s', f_run s = Some old ->
  store Running text o s = Fin false o' s' ->
  f_start s' = f_start s /\ f_bck s' = f_bck s /\ f_run s' = Some text.
Proof.
  intros s o old text o' s' Hr E. pose proof (store_run o s old text Hr) as P. rewrite E in P. subst s'.
  split; [reflexivity|]. split; reflexivity.
Qed.

(** Loading of running data. *)
Lemma retry_running n hd : forall o s c st, f_run s = Some c -> f_start s = Some st ->
  match retry parse n Running hd o s with
  | Died _ => True
  | Fin r _ s' => f_start s' = Some st /\
      (r = LErr \/ exists x, r = LData x /\
        ((parse c = Some x /\ f_run s' = Some c) \/ (parse st = Some x /\ f_run s' = Some st)))
  end.
Proof.
  induction n as [|n IH]; intros o s c st Hr Hs; [exact I|]. cbn [retry]. unfold open_, sys. cbn [path get].
  destruct o as [|x o]; [exact I|]. rewrite Hr.
  destruct x as [| |k]; cbn [fst snd get]; rewrite ?Hr; [split; [exact Hs|left; reflexivity]..|].
  destruct o as [|y o]; [exact I|]. rewrite (content_get FRun s c Hr).
  assert (RC : match load_recover Running o s with
               | Died _ => True
               | Fin true o s' => f_start s' = Some st /\
                   (@LErr D = LErr \/ exists x, @LErr D = LData x /\
                     ((parse c = Some x /\ f_run s' = Some c) \/ (parse st = Some x /\ f_run s' = Some st)))
               | Fin false o s' => s' = set FRun (Some st) s
               end).
  { cbn [load_recover]. pose proof (cp_path_spec FRun FStart st c s o ltac:(discriminate) Hs Hr) as C.
    destruct (cp_path FRun FStart o s) as [s'|[] o' s']; [exact I| |exact C].
    split; [|left; reflexivity]. destruct C as [->|(j & ->)]; exact Hs. }
  assert (RT : match
      match load_recover Running o s with
      | Died s => Died s
      | Fin true o s => Fin LErr o s
      | Fin false o s => retry parse n Running hd o s
      end with
      | Died _ => True
      | Fin r _ s' => f_start s' = Some st /\
          (r = LErr \/ exists x, r = LData x /\
            ((parse c = Some x /\ f_run s' = Some c) \/ (parse st = Some x /\ f_run s' = Some st)))
      end).
  { destruct (load_recover Running o s) as [s'|[] o' s']; [exact I|exact RC|].
    subst s'. specialize (IH o' (set FRun (Some st) s) st st eq_refl Hs).
    destruct (retry parse n Running hd o' (set FRun (Some st) s)) as [s'|r o'' s']; [exact I|].
    destruct IH as [A [R|(x & R & [[P1 P2]|P2])]]; (split; [exact A|]); [left; exact R|right; exists x; split; [exact R|]..].
    - right. split; [exact P1|exact P2].
    - right. exact P2. }
  destruct y as [| |j]; [exact RT..|].
  destruct (parse c) as [x|] eqn:E; [|exact RT].
  split; [exact Hs|right]. exists x. split; [reflexivity|left; split; [reflexivity|exact Hr]].
Qed.
(** Loaded are always data of a complete valid text: of the running file as it was, or of the startup file, which the
    running one then equals. *)
Theorem C37_loaded : forall s o c st r o' s', f_run s = Some c -> f_start s = Some st ->
  load parse Running true o s = Fin r o' s' ->
  f_start s' = Some st /\
  (r = LErr \/ exists x, r = LData x /\
    ((parse c = Some x /\ f_run s' = Some c) \/ (parse st = Some x /\ f_run s' = Some st))).
Proof.
  intros s o c st r o' s' Hr Hs E. unfold load in E.
  pose proof (retry_running (S (length o)) true o s c st Hr Hs) as P. rewrite E in P. exact P.
Qed.
(** With valid startup data, loading of running data always ends with data. *)
Lemma retry_run_works n hd o s c st d : f_run s = Some c -> f_start s = Some st -> parse st = Some d ->
  works o -> 2 * length st + 7 <= length o -> exists x o' s', retry parse (S (S n)) Running hd o s = Fin (LData x) o' s'.
Proof.
  intros Hr Hs Hp Hw Hl. destruct o as [|x1 [|x2 o]]; [cbn [length] in Hl; lia..|].
  destruct (Hw x1 (or_introl eq_refl)) as (n1 & ->). destruct (Hw x2 (or_intror (or_introl eq_refl))) as (n2 & ->).
  assert (Hw' : works o) by (intros z Hz; apply Hw; right; right; exact Hz). cbn [length] in Hl.
  remember (S n) as m eqn:Em. cbn [retry]. unfold open_ at 1, sys at 1. cbn [path get]. rewrite Hr. cbn [fst snd].
  rewrite (content_get FRun s c Hr). destruct (parse c) as [x|]; [eexists; eexists; eexists; reflexivity|].
  cbn [load_recover].
  destruct (cp_path_works FRun FStart st c s o ltac:(discriminate) Hs Hr Hw') as (o1 & E & L & W); [lia|].
  rewrite E. subst m. cbn [retry].
  destruct o1 as [|x3 [|x4 o1]]; [cbn [length] in L; lia..|].
  destruct (W x3 (or_introl eq_refl)) as (n3 & ->). destruct (W x4 (or_intror (or_introl eq_refl))) as (n4 & ->).
  unfold open_, sys. cbn [path get set f_run f_start f_bck f_oth fst snd]. unfold content. cbn [get f_run]. rewrite Hp.
  eexists. eexists. eexists. reflexivity.
Qed.
Theorem C37_works : forall s c st d, f_run s = Some c -> f_start s = Some st -> parse st = Some d ->
  exists n, forall o, works o -> n <= length o -> exists x o' s', load parse Running true o s = Fin (LData x) o' s'.
Proof.
  intros s c st d Hr Hs Hp. exists (2 * length st + 7). intros o Hw Ho. unfold load.
  destruct (length o) as [|n] eqn:E; [lia|].
  apply (retry_run_works n true o s c st d Hr Hs Hp Hw). lia.
Qed.
(** The limit of attempts in the model is never reached. *)
Lemma cp_loop_len to from : forall o rp wp buf s b o' s', cp_loop to from rp wp buf o s = Fin b o' s' -> length o' < length o.
Proof.
  induction o as [|x o IH]; intros rp wp buf s b o' s' E; cbn [cp_loop] in E; [discriminate|]. cbn [length].
  destruct buf as [|c buf].
  - destruct x as [| |n]; [injection E as _ <- _; lia..|].
    destruct (skipn rp (content from s)); [injection E as _ <- _; lia|]. apply IH in E. lia.
  - destruct x as [| |n]; [injection E as _ <- _; lia|apply IH in E; lia..].
Qed.
Lemma cp_path_len to from o s b o' s' : cp_path to from o s = Fin b o' s' -> length o' < length o.
Proof.
  unfold cp_path, bind, open_, open_trunc, sys. destruct o as [|x o]; [discriminate|].
  destruct x as [| |n]; [cbn; intros E; injection E as _ <- _; lia..|].
  destruct (get from s); cbn [fst snd negb]; [|intros E; injection E as _ <- _; cbn; lia].
  destruct o as [|y o]; [discriminate|].
  destruct y as [| |m]; [cbn; intros E; injection E as _ <- _; lia..|].
  destruct (get to s); cbn [fst snd negb]; [|intros E; injection E as _ <- _; cbn; lia].
  intros E. apply cp_loop_len in E. cbn [length]. lia.
Qed.
Lemma recover_len d o s b o' s' : load_recover d o s = Fin b o' s' -> length o' <= length o.
Proof.
  destruct d; cbn [load_recover].
  - intros E. injection E as _ <- _. lia.
  - intros E. apply cp_path_len in E. lia.
  - unfold bind, unlink, sys. destruct o as [|x o]; [discriminate|]. intros E. injection E as _ <- _. cbn. lia.
Qed.
Theorem C37_attempts : forall n m d hd o s, length o < n -> length o < m ->
  retry parse n d hd o s = retry parse m d hd o s.
Proof.
  induction n as [|n IH]; intros m d hd o s Hn Hm; [lia|]. destruct m as [|m]; [lia|]. cbn [retry].
  unfold open_, sys. destruct o as [|x o]; [reflexivity|]. cbn [length] in Hn, Hm.
  destruct x as [| |k]; cbn [fst snd]; [reflexivity..|].
  destruct (get (path d) s) as [c|]; cbn [fst snd]; [|reflexivity].
  destruct o as [|y o]; [reflexivity|]. cbn [length] in Hn, Hm.
  assert (R : match load_recover d o s with
      | Died s => Died s | Fin true o s => Fin LErr o s | Fin false o s => retry parse n d hd o s end =
      match load_recover d o s with
      | Died s => Died s | Fin true o s => Fin LErr o s | Fin false o s => retry parse m d hd o s end).
  { destruct (load_recover d o s) as [s'|[] o' s'] eqn:E; [reflexivity..|]. apply recover_len in E. apply IH; lia. }
  destruct y as [| |j]; [exact R..|]. destruct (parse (content (path d) s)); [reflexivity|exact R].
Qed.
Lemma cp_loop_run to from : forall o s buf wp rp, works o ->
  (exists s', cp_loop to from rp wp buf o s = Died s') \/
  exists o' s', cp_loop to from rp wp buf o s = Fin false o' s' /\ works o'.
Proof.
  induction o as [|x o IH]; intros s buf wp rp W; cbn [cp_loop]; [left; eexists; reflexivity|].
  destruct (W x (or_introl eq_refl)) as (n & ->).
  assert (W' : works o) by (intros z Hz; apply W; right; exact Hz).
  destruct buf as [|b buf].
  - destruct (skipn rp (content from s)) as [|e rest].
    + right. eexists. eexists. split; [reflexivity|exact W'].
    + apply IH. exact W'.
  - apply IH. exact W'.
Qed.
(** With both files not valid, loading of running data never ends unless a system call fails. *)
Theorem C37_ends_refuted : forall s c st o, f_run s = Some c -> f_start s = Some st ->
  parse c = None -> parse st = None -> works o -> exists s', load parse Running true o s = Died s'.
Proof.
  intros s c st o Hr Hs Hc Hp Hw. unfold load. generalize (S (length o)) as n. intros n.
  revert o s c Hr Hs Hc Hw. induction n as [|n IH]; intros o s c Hr Hs Hc Hw; [eexists; reflexivity|].
  cbn [retry]. unfold open_, sys. destruct o as [|x o]; [eexists; reflexivity|]. cbn [path get]. rewrite Hr.
  destruct (Hw x (or_introl eq_refl)) as (k & ->). cbn [fst snd].
  destruct o as [|y o]; [eexists; reflexivity|]. rewrite (content_get FRun s c Hr), Hc.
  destruct (Hw y (or_intror (or_introl eq_refl))) as (j & ->).
  assert (Hw' : works o) by (intros z Hz; apply Hw; right; right; exact Hz).
  cbn [load_recover].
  assert (C : (exists s', cp_path FRun FStart o s = Died s') \/
              exists o', cp_path FRun FStart o s = Fin false o' (set FRun (Some st) s) /\ works o').
  { clear IH. pose proof (cp_path_spec FRun FStart st c s o ltac:(discriminate) Hs Hr) as P.
    assert (Q : (exists s', cp_path FRun FStart o s = Died s') \/
              exists o' s', cp_path FRun FStart o s = Fin false o' s' /\ works o').
    { unfold cp_path, bind, open_, open_trunc, sys. destruct o as [|z1 o]; [left; eexists; reflexivity|].
      destruct (Hw' z1 (or_introl eq_refl)) as (k1 & ->). cbn [get]. rewrite Hs. cbn [fst snd negb].
      destruct o as [|z2 o]; [left; eexists; reflexivity|].
      destruct (Hw' z2 (or_intror (or_introl eq_refl))) as (k2 & ->). rewrite Hr. cbn [fst snd negb].
      assert (W : works o) by (intros z Hz; apply Hw'; right; right; exact Hz).
      apply cp_loop_run. exact W. }
    destruct Q as [Q|(o' & s' & Q & W)]; [left; exact Q|right]. rewrite Q in P. subst s'. exists o'. split; [exact Q|exact W]. }
  destruct C as [(s' & ->)|(o' & -> & W)]; [eexists; reflexivity|].
  apply (IH o' (set FRun (Some st) s) st); [reflexivity|exact Hs|exact Hp|exact W].
Qed.
End C37.

(** A half overwritten file can be the text of other data: neither the old, nor the new nor the startup ones. *)
Definition run_old : bytes := B "{""m:a"":1,""m:b"":1}".
Definition run_new : bytes := B "{""m:a"":2,""m:b"":2}".
Theorem C37_mixed_refuted : exists o s', store Running run_new o (mkFs (Some (B "{}")) None (Some run_old) None) = Died s' /\
  f_run s' = Some (B "{""m:a"":2,""m:b"":1}").
Proof. exists [Good 0; Good 0; Good 8]. eexists. split; vm_compute; reflexivity. Qed.
(** Data of other datastores which are not valid are removed, yet the load fails. *)
Theorem C37_removed_refuted : forall D (parse : bytes -> option D) c, parse c = None ->
  exists o o' s', load parse Other true o (mkFs None None None (Some c)) = Fin LErr o' s' /\ works o /\ f_oth s' = None.
Proof.
  intros D parse c H. exists (repeat (Good 1) 4), []. eexists. split.
  - cbn. unfold content. cbn. rewrite H. reflexivity.
  - split; [|reflexivity]. intros x Hx. apply repeat_spec in Hx. subst x. exists 0. reflexivity.
Qed.
(** Hypotheses are met: a process dies, the file cannot be parsed, startup data are loaded. *)
Definition closed (t : bytes) : option bytes :=
  match rev t with c :: _ => if Ascii.eqb c "}"%char then Some t else None | [] => None end.
Example C37_met : exists s', store Running (B "{""m:a"":2,""m:b"":2,") [Good 0; Good 0; Good 9]
    (mkFs (Some run_new) None (Some (B "{}")) None) = Died s' /\ f_run s' = Some (B "{""m:a"":2,") /\
  exists o' s2, load closed Running true (repeat (Good 20) 9) s' = Fin (LData run_new) o' s2.
Proof. eexists. split; [vm_compute; reflexivity|]. split; [reflexivity|]. eexists. eexists. vm_compute. reflexivity. Qed.

Print Assumptions C27_died_partial.
Print Assumptions C27_stored.
Print Assumptions C27_loaded.
Print Assumptions C27_history_partial.
Print Assumptions C27_died_refuted.
Print Assumptions C27_backup_refuted.
Print Assumptions C27_failed_refuted.
Print Assumptions C27_boot_refuted.
Print Assumptions C27_reinstall_refuted.
Print Assumptions C27_access_refuted.
Print Assumptions C37_died.
Print Assumptions C37_stored.
Print Assumptions C37_loaded.
Print Assumptions C37_works.
Print Assumptions C37_attempts.
Print Assumptions C37_ends_refuted.
Print Assumptions C37_mixed_refuted.
Print Assumptions C37_removed_refuted.
