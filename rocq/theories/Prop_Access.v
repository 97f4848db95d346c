(** C63: Users get at data of modules only with the configured permissions. *)
From Coq Require Import NArith List Bool Lia.
From Verif Require Import Access AccessSpec AccessProofs AccessMore.
Import ListNotations.
Local Open Scope N_scope.

(** Data returned are those of modules that the user may read (data of running are not cached). *)
Theorem C63_read : forall u s d q sel s' l m v, usual u s d -> (caching s = false \/ d <> Running) ->
  get u s d q sel = (s', Data l) -> In (m, v) l ->
  allowed u s m d false /\ v = contents s m d /\ In m q /\ sel m = true /\ s' = s.
Proof.
  intros u s d q sel s' l m v U Nc H I. destruct (get_filter u s d q sel) as (mods & Em & Eg). rewrite Eg in H.
  assert (use_cache s d = false) as Uc.
  { unfold use_cache. destruct Nc as [->|Nc]; [reflexivity|]. destruct (ds_eqb d Running) eqn:E; [apply ds_eqb_eq in E; contradiction|apply andb_false_r]. }
  rewrite Uc in H. destruct mods as [|x mods]; [injection H as <- <-; destruct I|].
  destruct (load_all u s d (x :: mods)) as [r|] eqn:L; [|discriminate]. injection H as <- <-.
  apply filter_In in I. destruct I as [I Se]. destruct (load_all_in u s d _ r L) as [L1 _]. destruct (L1 m v I) as [Im Ev].
  rewrite Em in Im. apply filter_In in Im. destruct Im as [Iq P]. apply (perm_allowed u s d U) in P. auto.
Qed.

(** Every module asked for that the user may read is returned, cached or not. *)
Theorem C63_read_all : forall u s d q sel s' l m, usual u s d ->
  get u s d q sel = (s', Data l) -> In m q -> sel m = true -> allowed u s m d false -> In (m, contents s m d) l.
Proof.
  intros u s d q sel s' l m U H I Se A. apply (perm_allowed u s d U) in A.
  destruct (get_filter u s d q sel) as (mods & Em & Eg). rewrite Eg in H.
  assert (In m mods) as Im by (rewrite Em; apply filter_In; auto).
  destruct mods as [|x mods]; [destruct Im|]. destruct (use_cache s d) eqn:Uc.
  - destruct (cache_all u s (x :: mods)) as [s1|] eqn:C; [|discriminate]. injection H as <- <-.
    unfold use_cache in Uc. apply andb_true_iff in Uc. destruct Uc as [_ Uc]. apply ds_eqb_eq in Uc. subst d.
    apply filter_In. split; [|exact Se]. apply lookup_in. apply (cache_keeps u (x :: mods) s s1 m C). right. exact Im.
  - destruct (load_all u s d (x :: mods)) as [r|] eqn:L; [|discriminate]. injection H as <- <-.
    apply filter_In. split; [|exact Se]. apply (load_all_in u s d _ r L). exact Im.
Qed.

Definition stored (d : ds) : Prop := d = Startup \/ d = Running \/ d = Factory.

Lemma load_works : forall u s m d, stored d -> (pl s m (real s m d) = Json -> consistent s m (real s m d) /\ allowed u s m d false) ->
  exists v, load u s m d = Some v.
Proof.
  intros u s m d Sd H. unfold load. assert (load_ds s m d = real s m d) as -> by (destruct Sd as [->|[->| ->]]; reflexivity).
  assert (open_ok u s m (real s m d) false = true) as ->; [|eexists; reflexivity].
  unfold open_ok. destruct (pl s m (real s m d)) eqn:P; [|reflexivity]. destruct (H eq_refl) as [C A]. unfold allowed in A. apply eaccess_may in A.
  assert (real s m d = Startup \/ real s m d = Running \/ real s m d = Factory) as R by (destruct Sd as [->|[->| ->]]; cbn [real]; auto; destruct (norun s m); auto).
  destruct R as [R|[R|R]]; rewrite R in *; cbn [file_of consistent] in *; [exact A| |exact A].
  destruct (s_file s m Running) as [a|] eqn:F; [|reflexivity]. rewrite (C a eq_refl). exact A.
Qed.

(** Modules that the user may not read do not prevent reading the others. *)
Theorem C63_read_works : forall u s d q sel, usual u s d -> stored d ->
  (forall m, In m q -> pl s m (real s m d) = Json -> consistent s m (real s m d)) -> snd (get u s d q sel) <> Err.
Proof.
  intros u s d q sel U Sd C. destruct (get_filter u s d q sel) as (mods & Em & Eg). rewrite Eg.
  assert (forall m, In m mods -> exists v, load u s m d = Some v) as Lo.
  { intros m I. rewrite Em in I. apply filter_In in I. destruct I as [Iq P]. apply (perm_allowed u s d U) in P.
    apply load_works; [exact Sd|]. intro J. split; [apply C; assumption|exact P]. }
  clear Em Eg. destruct mods as [|x mods]; [cbn; discriminate|]. set (l := x :: mods) in *. clearbody l.
  destruct (use_cache s d) eqn:Uc.
  - unfold use_cache in Uc. apply andb_true_iff in Uc. destruct Uc as [_ Uc]. apply ds_eqb_eq in Uc. subst d.
    assert (forall k s1, (forall m, In m k -> exists v, load u s1 m Running = Some v) -> exists s2, cache_all u s1 k = Some s2) as G.
    { induction k as [|y k IH]; intros s1 K; cbn [cache_all]; [eexists; reflexivity|].
      destruct (match lookup y (s_cache s1) with Some v => v =? s_val s1 y (eds s1 y Running) | None => false end); [apply IH; intros m I; apply K; right; exact I|].
      destruct (K y (or_introl eq_refl)) as [v ->]. apply IH. intros m I. exact (K m (or_intror I)). }
    destruct (G l s Lo) as [s2 ->]. cbn. discriminate.
  - assert (exists r, load_all u s d l = Some r) as [r ->]; [|cbn; discriminate].
    induction l as [|y l IH]; cbn [load_all]; [eexists; reflexivity|]. destruct (Lo y (or_introl eq_refl)) as [v ->].
    destruct IH as [r ->]; [intros m I; apply Lo; right; exact I|]. eexists; reflexivity.
Qed.

(** A change of a module that the user may not write is refused as a whole, nobody is
    told of it. *)
Theorem C63_refused : forall u s sid d req deps chg notify s' ok pub m, usual u s d ->
  (d <> Operational /\ chg <> [] \/ d = Operational /\ notify = true) ->
  apply u s sid d req deps chg notify = (s', ok, pub) ->
  In m (req ++ map fst chg) -> ~ allowed u s m d true -> ok = false /\ pub = false /\ untouched s s'.
Proof.
  intros u s sid d req deps chg notify s' ok pub m U V H I A. apply (apply_refused u s sid d req deps chg notify s' ok pub m U H); [|exact I|exact A].
  destruct V as [[Nd Nc]|[-> ->]]; [|reflexivity]. destruct chg; [contradiction|]. destruct d; try reflexivity. contradiction.
Qed.

(** Configuration data change only for users who may write all the modules changed. *)
Theorem C63_write : forall u s sid d req deps chg notify s' ok pub, usual u s d -> (d <> Operational \/ notify = true) ->
  apply u s sid d req deps chg notify = (s', ok, pub) -> ~ untouched s s' ->
  forall m, In m (req ++ map fst chg) -> allowed u s m d true.
Proof.
  intros u s sid d req deps chg notify s' ok pub U V H N. 
  destruct (visible d chg notify) eqn:Vi; [apply (apply_allowed u s sid d req deps chg notify s' ok pub U H Vi); right; exact N|].
  exfalso. apply N. assert (chg = []) as ->.
  { destruct d; cbn [visible] in Vi; try (destruct chg; [reflexivity|discriminate]). destruct V as [V|V]; [contradiction|congruence]. }
  rewrite apply_unfold, Vi in H. destruct (prepare u s d (req ++ deps)) as [s1|] eqn:P.
  - rewrite store_nil in H. injection H as <- _ _. apply same_untouched. apply (prepare_same u s d _ s1 P).
  - injection H as <- _ _. unfold untouched. auto.
Qed.

(** Subscribers get events only of changes by users who may make them. *)
Theorem C63_events : forall u s sid d req deps chg notify s' ok, usual u s d ->
  apply u s sid d req deps chg notify = (s', ok, true) -> forall m, In m (req ++ map fst chg) -> allowed u s m d true.
Proof.
  intros u s sid d req deps chg notify s' ok U H. apply (apply_allowed u s sid d req deps chg notify s' ok true U H); [|left; reflexivity].
  rewrite apply_unfold in H. destruct (prepare u s d (req ++ deps)); [|discriminate]. destruct (visible d chg notify); [reflexivity|].
  destruct (store_all u s0 sid d chg); discriminate.
Qed.

(** Users with the permissions are not refused, and exactly what they change is changed. *)
Theorem C63_granted : forall u s sid d req deps chg notify, usual u s d -> d = Startup \/ d = Running ->
  sgroup s = None -> NoDup (map fst chg) ->
  (forall m, In m (req ++ deps ++ map fst chg) -> consistent s m (real s m d)) ->
  (forall m, In m (req ++ deps ++ map fst chg) -> allowed u s m d false) ->
  (forall m, In m (req ++ map fst chg) -> allowed u s m d true) ->
  exists s' pub, apply u s sid d req deps chg notify = (s', true, pub) /\ s_acc s' = s_acc s /\ s_push s' = s_push s /\
    (forall m v, In (m, v) chg -> contents s' m d = v) /\
    (forall m e, ~ (In m (map fst chg) /\ e = real s m d) -> s_val s' m e = s_val s m e /\ s_file s' m e = s_file s m e).
Proof.
  intros u s sid d req deps chg notify U D G ND C R W.
  assert (forall m, In m (req ++ deps) -> exists v, load u s m d = Some v) as Lo.
  { intros m I. apply load_works; [destruct D; unfold stored; auto|]. intros _.
    assert (In m (req ++ deps ++ map fst chg)) as I' by (rewrite app_assoc; apply in_or_app; left; exact I). split; [apply C|apply R]; exact I'. }
  assert (exists s1, prepare u s d (req ++ deps) = Some s1) as [s1 P].
  { set (l := req ++ deps) in *. clearbody l. assert (prepare u s d l = if use_cache s d then cache_all u s l else match load_all u s d l with None => None | Some _ => Some s end) as -> by (destruct D as [-> | ->]; reflexivity).
    destruct (use_cache s d) eqn:Uc.
    - unfold use_cache in Uc. apply andb_true_iff in Uc. destruct Uc as [_ Uc]. apply ds_eqb_eq in Uc. subst d.
      assert (forall k s1, (forall m, In m k -> exists v, load u s1 m Running = Some v) -> exists s2, cache_all u s1 k = Some s2) as K.
      { induction k as [|y k IH]; intros s1 K; cbn [cache_all]; [eexists; reflexivity|].
        destruct (match lookup y (s_cache s1) with Some v => v =? s_val s1 y (eds s1 y Running) | None => false end); [apply IH; intros m I; apply K; right; exact I|].
        destruct (K y (or_introl eq_refl)) as [v ->]. apply IH. intros m I. exact (K m (or_intror I)). }
      apply K. exact Lo.
    - assert (exists r, load_all u s d l = Some r) as [r ->]; [|eexists; reflexivity].
      induction l as [|y l IH]; cbn [load_all]; [eexists; reflexivity|]. destruct (Lo y (or_introl eq_refl)) as [v ->].
      destruct IH as [r ->]; [intros m I; apply Lo; right; exact I|]. eexists; reflexivity. }
  apply (apply_granted u s sid d req deps chg notify s1); auto.
  - destruct D; unfold conventional; auto.
  - intros m I. apply C. apply in_or_app. right. apply in_or_app. right. exact I.
Qed.

(** Permissions set are those that are returned and used afterwards, those of other modules
    and datastores are kept. *)
Theorem C63_set : forall u s m d c s', (pl s m (real s m d) = Json -> consistent s m (real s m d)) ->
  (sgroup s = None \/ sgroup s = n_group c \/ n_group c = None) ->
  set_access u s m d c = (s', true) ->
  let a := wanted (get_access s m d) (n_owner c) (n_group c) (N.ldiff (n_perm c) (umask s)) in
  get_access s' m d = a /\ (forall u2 w, allowed u2 s' m d w <-> may u2 a w) /\
  (forall m' d', (m', real s m' d') <> (m, real s m d) -> get_access s' m' d' = get_access s m' d' /\ forall u2 w, allowed u2 s' m' d' w <-> allowed u2 s m' d' w) /\
  (pl s m (real s m d) = Json -> consistent s' m (real s m d)) /\ (forall m' d', contents s' m' d' = contents s m' d').
Proof.
  intros u s m d c s' C G H a. destruct (set_done u s m d c s' C H) as (A & Co & R & P & V & Pu & Oa & Of & Fn).
  assert (forall m' d', real s' m' d' = real s m' d') as Re by (intros; unfold real; rewrite R; reflexivity).
  assert (n_group (masked s c) = n_group c) as Gr.
  { cbn [masked n_group]. destruct (n_group c) as [g|] eqn:Ng; [|reflexivity]. destruct (sgroup s) as [h|]; [|reflexivity].
    destruct G as [G|[G|G]]; try discriminate. injection G as ->. rewrite N.eqb_refl. reflexivity. }
  rewrite Gr in A. cbn [masked n_owner n_perm] in A.
  assert (get_access s' m d = a) as Ga by (unfold get_access; change (eds s' m d) with (real s' m d); rewrite Re; exact A).
  split; [exact Ga|]. split.
  { intros u2 w. unfold allowed. change (s_acc s' m (real s' m d)) with (get_access s' m d). rewrite Ga. reflexivity. }
  split.
  { intros m' d' N. assert (s_acc s' m' (real s' m' d') = s_acc s m' (real s m' d')) as E by (rewrite Re; apply Oa; exact N).
    split; [exact E|]. intros u2 w. unfold allowed. rewrite E. reflexivity. }
  split; [exact Co|]. intros m' d'. unfold contents. destruct d'; rewrite ?Re, ?V; try reflexivity.
  specialize (Fn m' Candidate). destruct (s_file s' m' Candidate), (s_file s m' Candidate); try reflexivity; destruct Fn as [F1 F2]; [specialize (F2 eq_refl); discriminate|specialize (F1 eq_refl); discriminate].
Qed.

(** Of data in files, only root and the owner change permissions. *)
Theorem C63_set_owner : forall u s m d c s' ok, pl s m (real s m d) = Json -> consistent s m (real s m d) ->
  set_access u s m d c = (s', ok) ->
  (exists m' e, s_acc s' m' e <> s_acc s m' e \/ s_file s' m' e <> s_file s m' e) ->
  euid u = 0 \/ euid u = owner (get_access s m d).
Proof. intros u s m d c s' ok P C H X. exact (set_owner u s m d c s' ok P C H X). Qed.

(** Databases apply the rule of files for users that are not root, act with their own
    identity and do not have the group besides being the owner. *)
Theorem C63_database_rule : forall u a w, plain u a -> (db_check u a w = true <-> may u a w).
Proof. exact db_plain. Qed.

(** * A case: module 7 may be written by its group, module 8 only by its owner 1 *)
Definition a7 := Acc 1 1 432.   (* 0660 *)
Definition a8 := Acc 1 1 384.   (* 0600 *)
Definition u0 := User 0 0 0 0 [].
Definition u1 := User 1 1 1 1 [].
Definition u2 := User 2 2 2 2 [1].
Definition u3 := User 3 3 3 3 [].
Definition st (p : plugin) (stk ca : bool) (x7 x8 : acc) : state :=
  St (fun _ _ => p) (fun _ => false) stk 0 None ca (fun m _ => if m =? 7 then x7 else x8) (fun _ _ => None)
     (fun m _ => m) (fun _ _ => None) [].
Definition ex := st Json true false a7 a8.
Definition all (m : N) := true.

Lemma not_may : forall u a w, eaccess u a w = false -> ~ may u a w.
Proof. intros u a w E M. apply eaccess_may in M. congruence. Qed.
Lemma is_may : forall u a w, eaccess u a w = true -> may u a w.
Proof. intros u a w E. apply eaccess_may. exact E. Qed.

Example C63_nonvacuous :
  (forall u d, usual u ex d) /\ (forall m d, consistent ex m d) /\
  allowed u2 ex 7 Running true /\ ~ allowed u2 ex 8 Running false /\ ~ allowed u3 ex 7 Running false /\
  snd (get u2 ex Running [7; 8] all) = Data [(7, 7)] /\ snd (get u1 ex Running [7; 8] all) = Data [(7, 7); (8, 8)] /\
  snd (get u3 ex Running [7; 8] all) = Data [] /\
  (let '(s, ok, pub) := apply u2 ex 0 Running [7] [] [(7, 70)] false in ok = true /\ pub = true /\ contents s 7 Running = 70 /\ contents s 8 Running = 8) /\
  (let '(s, ok, pub) := apply u1 ex 0 Running [7; 8] [] [(7, 70); (8, 80)] false in ok = true /\ pub = true /\ contents s 7 Running = 70 /\ contents s 8 Running = 80) /\
  (let '(s, ok) := set_access u1 ex 8 Running (Ch None None 416) in ok = true /\ get_access s 8 Running = Acc 1 1 416 /\
     snd (get u2 s Running [7; 8] all) = Data [(7, 7); (8, 8)]) /\
  snd (set_access u2 ex 7 Running (Ch None None 416)) = false.
Proof.
  split; [intros u d m; left; reflexivity|]. split; [intros m []; cbn; try exact Logic.I; discriminate|].
  split; [apply is_may; reflexivity|]. split; [apply not_may; reflexivity|]. split; [apply not_may; reflexivity|].
  vm_compute. auto 20.
Qed.

(** * What does not hold *)

(** F208: operational data pushed by a session that differ in nothing from what is there (or
    are hidden by data of other sessions) are stored with no check of the permission to write,
    because the check is made only when there is a difference to notify about. *)
Theorem C63_push_refuted : exists s', apply u3 ex 5 Operational [8] [] [(8, 80)] false = (s', true, false) /\
  ~ allowed u3 ex 8 Operational true /\ s_push ex 5 8 = None /\ s_push s' 5 8 = Some 80.
Proof. eexists. split; [reflexivity|]. split; [apply not_may; reflexivity|]. split; reflexivity. Qed.

(** F209: with cached running data, modules that the user may no more read are still
    returned: all of the cache is used once any module asked for may be read. *)
Theorem C63_cache_refuted : exists s1 s2 s3,
  get u2 (st Json true true a7 a7) Running [8] all = (s1, Data [(8, 8)]) /\
  set_access u1 s1 8 Running (Ch None None 384) = (s2, true) /\
  ~ allowed u2 s2 8 Running false /\
  get u2 s2 Running [8] all = (s2, Data []) /\
  get u2 s2 Running [7; 8] all = (s3, Data [(7, 7); (8, 8)]).
Proof.
  eexists _, _, _. split; [reflexivity|]. split; [reflexivity|]. split; [apply not_may; reflexivity|]. split; reflexivity.
Qed.

(** F210: of modules in databases any user changes the owner and permissions, and so
    reads and writes everything. *)
Theorem C63_database_set_refuted : exists s', let s := st Db true false a7 a8 in
  ~ allowed u3 s 8 Running false /\ set_access u3 s 8 Running (Ch (Some 3) None 384) = (s', true) /\
  get u3 s' Running [8] all = (s', Data [(8, 8)]).
Proof. eexists. split; [apply not_may; reflexivity|]. split; reflexivity. Qed.

(** F211: databases check differently from files: an owner without the permission is granted
    it as a member of the group, root is refused, groups of the user other than the main one do
    not count, and the real user is meant instead of the effective one. *)
Theorem C63_database_check_refuted :
  (db_check u1 (Acc 1 1 32) false = true /\ ~ may u1 (Acc 1 1 32) false) /\
  (db_check u0 a8 true = false /\ may u0 a8 true) /\
  (db_check u2 a7 true = false /\ may u2 a7 true) /\
  (db_check (User 1 3 3 3 []) a8 true = true /\ ~ may (User 1 3 3 3 []) a8 true).
Proof.
  split; [split; [reflexivity|apply not_may; reflexivity]|]. split; [split; [reflexivity|apply is_may; reflexivity]|].
  split; [split; [reflexivity|apply is_may; reflexivity]|]. split; [reflexivity|apply not_may; reflexivity].
Qed.

(** F212: a file created when data are stored belongs to who stored them, not to the
    configured owner and group: the owner, who may write, fails afterwards, after subscribers were
    told of the change and with other modules stored. *)
Theorem C63_created_refuted : exists s1 s2, let s := st Json true false (Acc 1 1 436) (Acc 1 1 436) in
  apply u2 s 0 Running [8] [] [(8, 80)] false = (s1, true, true) /\
  allowed u1 s1 7 Running true /\ allowed u1 s1 8 Running true /\
  apply u1 s1 0 Running [7; 8] [] [(7, 71); (8, 81)] false = (s2, false, true) /\
  contents s2 7 Running = 71 /\ contents s2 8 Running = 80.
Proof.
  eexists _, _. split; [reflexivity|]. split; [apply is_may; reflexivity|]. split; [apply is_may; reflexivity|].
  split; [reflexivity|]. split; reflexivity.
Qed.

(** F213: discarding candidate changes (copying running to candidate) needs no permission
    to write; where the directory of files prevents it, success is returned though nothing
    is discarded. *)
Theorem C63_discard_refuted : exists s1 s2 s3, 
  apply u1 (st Json false false a7 a8) 0 Candidate [] [] [(8, 80)] false = (s1, true, true) /\ ~ allowed u3 s1 8 Candidate true /\
  contents s1 8 Candidate = 80 /\ copy u3 s1 8 Running Candidate = (s2, true) /\ contents s2 8 Candidate = 8 /\
  apply u1 ex 0 Candidate [] [] [(8, 80)] false = (s3, true, true) /\ copy u3 s3 8 Running Candidate = (s3, true) /\ contents s3 8 Candidate = 80.
Proof.
  eexists _, _, _. split; [reflexivity|]. split; [apply not_may; reflexivity|]. do 5 (split; [reflexivity|]). reflexivity.
Qed.

(** F214: copying a datastore reads the source with no check of the permission to read, so
    the user who may write and read the target gets data of a module in a database that only
    others may read. *)
Definition secret : state :=
  St (fun _ _ => Db) (fun _ => false) true 0 None false (fun _ d => if ds_eqb d Startup then a8 else Acc 3 1 384) (fun _ _ => None)
     (fun _ d => if ds_eqb d Startup then 99 else 1) (fun _ _ => None) [].
Theorem C63_copy_refuted : exists s1, ~ allowed u3 secret 8 Startup false /\ get u3 secret Startup [8] all = (secret, Data []) /\
  copy u3 secret 8 Startup Running = (s1, true) /\ get u3 s1 Running [8] all = (s1, Data [(8, 99)]).
Proof. eexists. split; [apply not_may; reflexivity|]. do 2 (split; [reflexivity|]). reflexivity. Qed.

(** F215: changing permissions that fails has changed those of the file of data already. *)
Theorem C63_set_half_refuted : exists s1 s2, apply u2 (st Json true false a7 a7) 0 Running [8] [] [(8, 80)] false = (s1, true, true) /\
  set_access u2 s1 8 Running (Ch None None 438) = (s2, false) /\ get_access s2 8 Running = a7 /\ s_file s1 8 Running = Some (Acc 2 2 432) /\
  s_file s2 8 Running = Some (Acc 2 2 438).
Proof. eexists _, _. do 4 (split; [reflexivity|]). reflexivity. Qed.

(** F216: reading candidate fails as a whole when running data of a module that is not
    changed in candidate may not be read, though all modules may be read in candidate. *)
Definition mixed : state :=
  St (fun _ _ => Json) (fun _ => false) true 0 None false (fun m d => if (m =? 8) && ds_eqb d Running then a8 else a7)
     (fun m d => if ds_eqb d Running then Some (if m =? 8 then a8 else a7) else None) (fun m _ => m) (fun _ _ => None) [].
Theorem C63_candidate_refuted : allowed u2 mixed 7 Candidate false /\ allowed u2 mixed 8 Candidate false /\
  consistent mixed 7 Running /\ consistent mixed 8 Running /\ get u2 mixed Candidate [7; 8] all = (mixed, Err).
Proof.
  split; [apply is_may; reflexivity|]. split; [apply is_may; reflexivity|].
  split; [cbn; intros a H; injection H as <-; reflexivity|]. split; [cbn; intros a H; injection H as <-; reflexivity|]. reflexivity.
Qed.

Print Assumptions C63_read.
Print Assumptions C63_read_all.
Print Assumptions C63_read_works.
Print Assumptions C63_refused.
Print Assumptions C63_write.
Print Assumptions C63_events.
Print Assumptions C63_granted.
Print Assumptions C63_set.
Print Assumptions C63_set_owner.
Print Assumptions C63_database_rule.
