(** Invariant of the cache of the running datastore. *)
From Coq Require Import List Arith NArith Bool Lia.
Import ListNotations.
From Verif Require Import RunCache RunCacheSpec.

(* -------------------------------------------------------------- small lemmas *)

Lemma upd_eq {A} (f : nat -> A) k v : upd f k v k = v.
Proof. unfold upd. rewrite Nat.eqb_refl. reflexivity. Qed.

Lemma upd_neq {A} (f : nat -> A) k v x : x <> k -> upd f k v x = f x.
Proof. intros H. unfold upd. apply Nat.eqb_neq in H. rewrite H. reflexivity. Qed.

Lemma memb_in m l : memb m l = true <-> In m l.
Proof.
  unfold memb. rewrite existsb_exists. split.
  - intros (x & Hx & E). apply Nat.eqb_eq in E. subst. exact Hx.
  - intros H. exists m. split; [exact H | apply Nat.eqb_refl].
Qed.

Lemma disjointb_spec a b : disjointb a b = true -> forall m, In m a -> ~ In m b.
Proof.
  unfold disjointb. rewrite forallb_forall. intros H m Hm Hb.
  specialize (H m Hm). apply memb_in in Hb. rewrite Hb in H. discriminate.
Qed.

Lemma subsetb_spec a b : subsetb a b = true -> incl a b.
Proof.
  unfold subsetb. rewrite forallb_forall. intros H m Hm. apply memb_in. apply H, Hm.
Qed.

Lemma find_mod_some m l j : find_mod m l = Some j -> exists i, nth_error l j = Some (m, i).
Proof.
  revert j. induction l as [|[m' i] r IH]; intros j; cbn [find_mod]; [discriminate|].
  destruct (Nat.eqb m m') eqn:E.
  - intros H. injection H as <-. apply Nat.eqb_eq in E. subst. exists i. reflexivity.
  - destruct (find_mod m r) as [k|]; cbn [option_map]; [|discriminate].
    intros H. injection H as <-. cbn [nth_error]. apply IH. reflexivity.
Qed.

Lemma find_mod_none m l : find_mod m l = None -> forall i, ~ In (m, i) l.
Proof.
  induction l as [|[m' i'] r IH]; cbn [find_mod]; intros H i [].
  - injection H0 as -> ->. rewrite Nat.eqb_refl in H. discriminate.
  - destruct (Nat.eqb m m'); [discriminate|].
    destruct (find_mod m r); [discriminate|]. exact (IH eq_refl i H0).
Qed.

Lemma in_set_entry l j id m i :
  In (m, i) (set_entry_id l j id) ->
  In (m, i) l \/ (i = id /\ exists i', nth_error l j = Some (m, i')).
Proof.
  revert j. induction l as [|[m' i'] r IH]; intros [|j]; cbn [set_entry_id nth_error In]; try tauto.
  - intros [H|H]; [|tauto]. injection H as -> ->. right. split; [reflexivity|]. exists i'. reflexivity.
  - intros [H|H]; [tauto|]. destruct (IH j H) as [H'|H']; tauto.
Qed.

(** an entry stays unless it is the one changed *)
Lemma set_entry_keeps l j id m i :
  In (m, i) l -> (forall i', nth_error l j = Some (m, i') -> id = i) ->
  In (m, i) (set_entry_id l j id).
Proof.
  revert j. induction l as [|[m' i'] r IH]; intros [|j] H K; cbn [set_entry_id In] in *; try tauto.
  - destruct H as [H|H]; [|tauto]. injection H as -> ->. left. f_equal. exact (K i eq_refl).
  - destruct H as [H|H]; [tauto|]. right. apply IH; [exact H|]. exact K.
Qed.

Lemma set_entry_new l j id m i : nth_error l j = Some (m, i) -> In (m, id) (set_entry_id l j id).
Proof.
  revert j. induction l as [|[m' i'] r IH]; intros [|j]; cbn [set_entry_id nth_error In]; try discriminate.
  - intros H. injection H as -> ->. left. reflexivity.
  - intros H. right. apply IH, H.
Qed.

Lemma nth_set_entry l j id k m i :
  nth_error l k = Some (m, i) -> exists i', nth_error (set_entry_id l j id) k = Some (m, i').
Proof.
  revert j k. induction l as [|[m' i'] r IH]; intros [|j] [|k]; cbn [set_entry_id nth_error];
    try discriminate; intros H.
  - injection H as -> ->. exists id. reflexivity.
  - exists i. exact H.
  - exists i. exact H.
  - apply IH, H.
Qed.

Lemma map_fst_set_entry l j id : map fst (set_entry_id l j id) = map fst l.
Proof.
  revert j. induction l as [|[m' i'] r IH]; intros [|j]; cbn [set_entry_id map fst]; [..|rewrite IH]; reflexivity.
Qed.

Lemma nth_app_l {A} (l r : list A) k x : nth_error l k = Some x -> nth_error (l ++ r) k = Some x.
Proof.
  intros H. rewrite nth_error_app1; [exact H|]. apply nth_error_Some. rewrite H. discriminate.
Qed.

Lemma nth_app_new {A} (l : list A) x : nth_error (l ++ [x]) (length l) = Some x.
Proof. rewrite nth_error_app2; [|lia]. rewrite Nat.sub_diag. reflexivity. Qed.

(* -------------------------------------------------------------- steps as a relation *)

Section Inv.
Variable cfg : config.
Notation conn := (conn_of cfg).

Definition rfree (s : state) (t : tid) (ms : list modid) : Prop :=
  forall t', In t' (threads cfg) -> t' <> t -> forall m, In m ms -> ~ In m (wmods (pcs s t')).
Definition wfree (s : state) (t : tid) (ms : list modid) : Prop :=
  forall t', In t' (threads cfg) -> t' <> t -> forall m, In m ms -> ~ In m (rmods (pcs s t')).
Definition crfree (s : state) (t : tid) : Prop :=
  forall t', In t' (threads cfg) -> t' <> t -> conn t' = conn t -> cwr (pcs s t') = false.
Definition cwfree (s : state) (t : tid) : Prop :=
  forall t', In t' (threads cfg) -> t' <> t -> conn t' = conn t ->
    cwr (pcs s t') = false /\ crd (pcs s t') = false.

Inductive step (t : tid) (s : state) : state -> list event -> Prop :=
| s_begin ms ws : pcs s t = Idle -> ccontent s (conn t) = content s -> rfree s t ms -> incl ws ms ->
    step t s (set_pc s t (Work ms ws)) []
| s_lock ms ws : pcs s t = Work ms ws -> caching cfg (conn t) = true -> crfree s t ->
    step t s (set_pc s t (Upd ms ws ms HRead)) []
| s_nocache ms ws : pcs s t = Work ms ws -> caching cfg (conn t) = false ->
    step t s (set_pc s t (Got ms ws)) []
| s_ready ms ws h : pcs s t = Upd ms ws [] h -> step t s (set_pc s t (Ready ms ws)) []
| s_found ms ws m todo h j : pcs s t = Upd ms ws (m :: todo) h ->
    find_mod m (cmods s (conn t)) = Some j ->
    step t s (set_pc s t (Chk ms ws m todo j h)) []
| s_missr ms ws m todo : pcs s t = Upd ms ws (m :: todo) HRead ->
    step t s (set_pc s t (AddW ms ws m todo)) []
| s_missw ms ws m todo : pcs s t = Upd ms ws (m :: todo) HWrite ->
    step t s (set_pc (add_mod s (conn t) m) t (Chk ms ws m todo (length (cmods s (conn t))) HWrite)) []
| s_add ms ws m todo : pcs s t = AddW ms ws m todo -> cwfree s t ->
    step t s (set_pc (add_mod s (conn t) m) t (Chk ms ws m todo (length (cmods s (conn t))) HWrite)) []
| s_cur ms ws m todo j h : pcs s t = Chk ms ws m todo j h ->
    (exists m', nth_error (cmods s (conn t)) j = Some (m', cur_id cfg s m)) ->
    step t s (set_pc s t (Upd ms ws todo h)) []
| s_old ms ws m todo j : pcs s t = Chk ms ws m todo j HRead ->
    step t s (set_pc s t (RelW ms ws m todo j (cur_id cfg s m))) []
| s_oldw ms ws m todo j : pcs s t = Chk ms ws m todo j HWrite ->
    step t s (set_pc (unlink s (conn t) m) t (Load ms ws m todo j (cur_id cfg s m))) []
| s_relw ms ws m todo j id : pcs s t = RelW ms ws m todo j id -> cwfree s t ->
    step t s (set_pc (unlink s (conn t) m) t (Load ms ws m todo j id)) []
| s_load ms ws m todo j id : pcs s t = Load ms ws m todo j id ->
    step t s (set_pc (set_id (insert s (conn t) m (stored s m)) (conn t) j id) t (Upd ms ws todo HWrite)) []
| s_loadfail ms ws m todo j id : pcs s t = Load ms ws m todo j id ->
    step t s (set_pc s t Idle) [ELoadFailed m]
| s_serve ms ws m : pcs s t = Ready ms ws -> In m ms ->
    step t s s [EServe t m (cdata s (conn t) m)]
| s_got ms ws : pcs s t = Ready ms ws -> step t s (set_pc s t (Got ms ws)) []
| s_upgrade ms ws : pcs s t = Got ms ws -> wfree s t ws -> step t s (set_pc s t (Sto ms ws ws)) []
| s_store ms ws m rest d v : pcs s t = Sto ms ws (m :: rest) ->
    step t s (set_pc (set_pver (set_stored s m d) m v) t (Bump ms ws m rest d)) [EStore m d]
| s_storefail ms ws m rest d : pcs s t = Sto ms ws (m :: rest) ->
    step t s (set_pc (set_stored s m d) t Idle) [EInterrupted m; EStore m d]
| s_bumpc ms ws m rest d : pcs s t = Bump ms ws m rest d -> caching cfg (conn t) = true ->
    step t s (set_pc (set_runid s m (inc32 (runid s m))) t (CacheW ms ws m rest d (inc32 (runid s m)))) []
| s_bump ms ws m rest d : pcs s t = Bump ms ws m rest d -> caching cfg (conn t) = false ->
    step t s (set_pc (set_runid s m (inc32 (runid s m))) t (Sto ms ws rest)) []
| s_cwl ms ws m rest d id : pcs s t = CacheW ms ws m rest d id -> cwfree s t ->
    step t s (set_pc s t (CacheU ms ws m rest d id)) []
| s_assert ms ws m rest d id : pcs s t = CacheU ms ws m rest d id ->
    (forall j i, find_mod m (cmods s (conn t)) = Some j ->
       nth_error (cmods s (conn t)) j = Some (m, i) -> i = id) ->
    step t s (set_pc s t Aborted) [EAssert t]
| s_cstore ms ws m rest d id j i : pcs s t = CacheU ms ws m rest d id ->
    nth_error (cmods s (conn t)) j = Some (m, i) -> i <> id ->
    step t s (set_pc (set_id (insert (unlink s (conn t) m) (conn t) m d) (conn t) j id) t (Sto ms ws rest)) []
| s_fail : is_idle (pcs s t) = false -> cwr (pcs s t) = false ->
    (forall ms ws m rest d, pcs s t <> Bump ms ws m rest d) ->
    step t s (set_pc s t Idle) []
| s_die : step t s (flush (kill cfg s (conn t)) (conn t) (content s))
    (flat_map (fun t' => interrupted (pcs s t')) (conn_threads cfg (conn t)))
| s_switch : ccontent s (conn t) <> content s ->
    (forall t', In t' (threads cfg) -> conn t' = conn t -> pcs s t' = Idle) ->
    step t s (flush s (conn t) (content s)) []
| s_context h f : (forall t', In t' (threads cfg) -> pcs s t' = Idle) ->
    step t s (flush (mkState (pcs s) f (fun _ => 0%N) (pver s) h (ccontent s) (cmods s) (cdata s)) (conn t) h)
      [EContext h f]
| s_other m d v : (norun cfg m || vcb cfg m) = true ->
    step t s (set_pver (set_stored s m d) m v) [EOther m d].

Lemma in_others t t' : In t' (others cfg t) <-> In t' (threads cfg) /\ t' <> t.
Proof.
  unfold others. rewrite filter_In, negb_true_iff, Nat.eqb_neq. tauto.
Qed.

Lemma can_rlock_spec s t ms : can_rlock cfg s t ms = true -> rfree s t ms.
Proof.
  unfold can_rlock. rewrite forallb_forall. intros H t' Ht N m Hm.
  assert (In t' (others cfg t)) as I by (apply in_others; tauto).
  exact (disjointb_spec _ _ (H t' I) m Hm).
Qed.
Lemma can_wlock_spec s t ms : can_wlock cfg s t ms = true -> wfree s t ms.
Proof.
  unfold can_wlock. rewrite forallb_forall. intros H t' Ht N m Hm.
  assert (In t' (others cfg t)) as I by (apply in_others; tauto).
  exact (disjointb_spec _ _ (H t' I) m Hm).
Qed.
Lemma can_crd_spec s t : can_crd cfg s t = true -> crfree s t.
Proof.
  unfold can_crd. rewrite forallb_forall. intros H t' Ht N E.
  assert (In t' (others cfg t)) as I by (apply in_others; tauto).
  specialize (H t' I). apply Nat.eqb_eq in E. rewrite E in H. cbn [negb orb] in H.
  apply negb_true_iff in H. exact H.
Qed.
Lemma can_cwr_spec s t : can_cwr cfg s t = true -> cwfree s t.
Proof.
  unfold can_cwr. rewrite forallb_forall. intros H t' Ht N E.
  assert (In t' (others cfg t)) as I by (apply in_others; tauto).
  specialize (H t' I). apply Nat.eqb_eq in E. rewrite E in H. cbn [negb orb] in H.
  apply negb_true_iff in H. apply orb_false_iff in H. exact H.
Qed.

Lemma is_idle_spec p : is_idle p = true -> p = Idle.
Proof. destruct p; cbn [is_idle]; congruence. Qed.

Lemma all_idle_spec s ts : all_idle s ts = true -> forall t, In t ts -> pcs s t = Idle.
Proof.
  unfold all_idle. rewrite forallb_forall. intros H t Ht. apply is_idle_spec, H, Ht.
Qed.

Lemma in_conn_threads c t : In t (conn_threads cfg c) <-> In t (threads cfg) /\ conn t = c.
Proof. unfold conn_threads. rewrite filter_In, Nat.eqb_eq. tauto. Qed.

Lemma entry_id_some l j i : entry_id l j = Some i -> exists m, nth_error l j = Some (m, i).
Proof.
  unfold entry_id. destruct (nth_error l j) as [[m x]|]; cbn [option_map snd]; [|discriminate].
  intros H. injection H as ->. exists m. reflexivity.
Qed.

Lemma exec_step t a s s' evs :
  exec cfg t a s = Some (s', evs) -> In t (threads cfg) /\ step t s s' evs.
Proof.
  unfold exec. cbv zeta.
  destruct (existsb (Nat.eqb t) (threads cfg)) eqn:ET; cbn [negb]; [|discriminate].
  intros H. split.
  { apply existsb_exists in ET. destruct ET as (x & Hx & E). apply Nat.eqb_eq in E. subst. exact Hx. }
  destruct a as [ms ws| | | | | | | | |m| | |d v|d| | | | | | |h f|m d v].
  - destruct (pcs s t) eqn:P; try discriminate.
    destruct (N.eqb (ccontent s (conn t)) (content s)) eqn:E1; [|discriminate].
    destruct (can_rlock cfg s t ms) eqn:E2; [|discriminate].
    destruct (subsetb ws ms) eqn:E3; [|discriminate]. injection H as <- <-.
    apply s_begin; [exact P | apply N.eqb_eq, E1 | apply can_rlock_spec, E2 | apply subsetb_spec, E3].
  - destruct (pcs s t) eqn:P; try discriminate.
    destruct (caching cfg (conn t)) eqn:E1; [|discriminate].
    destruct (can_crd cfg s t) eqn:E2; [|discriminate]. injection H as <- <-.
    apply s_lock; [exact P | exact E1 | apply can_crd_spec, E2].
  - destruct (pcs s t) eqn:P; try discriminate.
    destruct (caching cfg (conn t)) eqn:E1; [discriminate|]. injection H as <- <-.
    apply s_nocache; [exact P | exact E1].
  - destruct (pcs s t) eqn:P; try discriminate.
    destruct todo as [|m todo].
    + injection H as <- <-. eapply s_ready, P.
    + destruct (find_mod m (cmods s (conn t))) as [j|] eqn:F.
      * injection H as <- <-. eapply s_found; [exact P | exact F].
      * destruct h; injection H as <- <-; [apply s_missr | apply s_missw]; exact P.
  - destruct (pcs s t) eqn:P; try discriminate.
    destruct (can_cwr cfg s t) eqn:E; [|discriminate]. injection H as <- <-.
    apply s_add; [exact P | apply can_cwr_spec, E].
  - destruct (pcs s t) eqn:P; try discriminate.
    destruct (entry_id (cmods s (conn t)) j) as [i|] eqn:F; [|discriminate].
    destruct (N.eqb i (cur_id cfg s m)) eqn:E.
    + injection H as <- <-. apply N.eqb_eq in E. subst i.
      eapply s_cur; [exact P | apply entry_id_some, F].
    + destruct h; injection H as <- <-; [apply s_old | apply s_oldw]; exact P.
  - destruct (pcs s t) eqn:P; try discriminate.
    destruct (can_cwr cfg s t) eqn:E; [|discriminate]. injection H as <- <-.
    apply s_relw; [exact P | apply can_cwr_spec, E].
  - destruct (pcs s t) eqn:P; try discriminate. injection H as <- <-. apply s_load, P.
  - destruct (pcs s t) eqn:P; try discriminate. injection H as <- <-. eapply s_loadfail, P.
  - destruct (pcs s t) eqn:P; try discriminate.
    destruct (memb m ms) eqn:E; [|discriminate]. injection H as <- <-.
    eapply s_serve; [exact P | apply memb_in, E].
  - destruct (pcs s t) eqn:P; try discriminate. injection H as <- <-. apply s_got, P.
  - destruct (pcs s t) eqn:P; try discriminate.
    destruct (can_wlock cfg s t ws) eqn:E; [|discriminate]. injection H as <- <-.
    apply s_upgrade; [exact P | apply can_wlock_spec, E].
  - destruct (pcs s t) eqn:P; try discriminate.
    destruct rest as [|m rest]; [discriminate|].
    destruct (N.ltb (pver s m) v); [|discriminate].
    injection H as <- <-. apply s_store, P.
  - destruct d as [d|]; destruct (pcs s t) eqn:P; try discriminate;
      destruct rest as [|m rest]; try discriminate; injection H as <- <-.
    + eapply s_storefail, P.
    + apply s_fail; rewrite P; [reflexivity | reflexivity | discriminate].
  - destruct (pcs s t) eqn:P; try discriminate.
    destruct (caching cfg (conn t)) eqn:E; injection H as <- <-;
      [apply s_bumpc | eapply s_bump]; solve [exact P | exact E].
  - destruct (pcs s t) eqn:P; try discriminate.
    destruct (can_cwr cfg s t) eqn:E; [|discriminate]. injection H as <- <-.
    apply s_cwl; [exact P | apply can_cwr_spec, E].
  - destruct (pcs s t) eqn:P; try discriminate.
    destruct (find_mod m (cmods s (conn t))) as [j|] eqn:F.
    + destruct (find_mod_some _ _ _ F) as (i & Hi).
      unfold entry_id in H. rewrite Hi in H. cbn [option_map snd] in H.
      destruct (N.eqb i id) eqn:E; injection H as <- <-.
      * eapply s_assert; [exact P|]. intros j' i' F' Hi'. rewrite F in F'. injection F' as <-.
        rewrite Hi in Hi'. injection Hi' as <-. apply N.eqb_eq, E.
      * eapply s_cstore; [exact P | exact Hi | apply N.eqb_neq, E].
    + injection H as <- <-. eapply s_assert; [exact P|]. intros j i F'. rewrite F in F'. discriminate.
  - assert (is_idle (pcs s t) = false /\ cwr (pcs s t) = false /\
      (forall ms ws m rest d, pcs s t <> Bump ms ws m rest d) /\ (s', evs) = (set_pc s t Idle, [])) as (A & B & C & D).
    { destruct (pcs s t); try discriminate; try (destruct rest; [|discriminate]);
        injection H as <- <-; (split; [reflexivity|split; [reflexivity|split; [discriminate|reflexivity]]]). }
    injection D as -> ->. apply s_fail; assumption.
  - assert ((s', evs) = (flush (kill cfg s (conn t)) (conn t) (content s),
       flat_map (fun t' => interrupted (pcs s t')) (conn_threads cfg (conn t)))) as E.
    { destruct (pcs s t); injection H as <- <-; reflexivity. }
    injection E as -> ->. apply s_die.
  - destruct (pcs s t) eqn:P; try discriminate.
    destruct (N.eqb (ccontent s (conn t)) (content s)) eqn:E1; [discriminate|].
    destruct (all_idle s (conn_threads cfg (conn t))) eqn:E2; [|discriminate].
    injection H as <- <-. apply s_switch; [apply N.eqb_neq, E1|].
    intros t' Ht E. apply (all_idle_spec _ _ E2). apply in_conn_threads. tauto.
  - destruct (pcs s t) eqn:P; try discriminate.
    destruct (all_idle s (threads cfg)) eqn:E2; [|discriminate].
    injection H as <- <-. apply s_context. exact (all_idle_spec _ _ E2).
  - assert ((norun cfg m || vcb cfg m) = true /\ (s', evs) = (set_pver (set_stored s m d) m v, [EOther m d])) as (A & B).
    { destruct (norun cfg m || vcb cfg m); [|destruct (pcs s t); discriminate]. split; [reflexivity|].
      destruct (N.ltb (pver s m) v); destruct (pcs s t); try discriminate; injection H as <- <-; reflexivity. }
    injection B as -> ->. apply s_other, A.
Qed.

(* -------------------------------------------------------------- the invariant *)

(** Consistency of the arguments of a place *)
Definition wf (p : pc) : Prop :=
  match p with
  | Idle | Aborted => True
  | Work ms ws | Ready ms ws | Got ms ws => incl ws ms
  | Upd ms ws todo _ => incl ws ms /\ incl todo ms
  | AddW ms ws m todo | Chk ms ws m todo _ _ | RelW ms ws m todo _ _ | Load ms ws m todo _ _ =>
      incl ws ms /\ In m ms /\ incl todo ms
  | Sto ms ws rest => incl ws ms /\ incl rest ws
  | Bump ms ws m rest _ | CacheW ms ws m rest _ _ | CacheU ms ws m rest _ _ =>
      incl ws ms /\ In m ws /\ incl rest ws
  end.

(** The entry of the array a thread works with *)
Definition entry_of (p : pc) : option (modid * nat) :=
  match p with
  | Chk _ _ m _ j _ | RelW _ _ m _ j _ | Load _ _ m _ j _ => Some (m, j)
  | _ => None
  end.

(** Modules whose cached data a thread has made current *)
Definition processed (p : pc) (m : modid) : Prop :=
  match p with
  | Upd ms _ todo _ => In m ms /\ ~ In m todo
  | AddW ms _ m' todo | Chk ms _ m' todo _ _ | RelW ms _ m' todo _ _ | Load ms _ m' todo _ _ =>
      In m ms /\ m <> m' /\ ~ In m todo
  | Ready ms _ => In m ms
  | _ => False
  end.

(** Modules that must be in the cache of a connection that uses it *)
Definition needed (p : pc) : list modid :=
  match p with
  | Ready ms _ | Got ms _ | Sto ms _ _ | Bump ms _ _ _ _ | CacheW ms _ _ _ _ _ | CacheU ms _ _ _ _ _ => ms
  | _ => []
  end.

Definition bump_of (p : pc) : option modid :=
  match p with Bump _ _ m _ _ => Some m | _ => None end.
Definition load_of (p : pc) : option modid :=
  match p with Load _ _ m _ _ _ => Some m | _ => None end.
(** the id a thread is going to set in the cache for data it loads, for data it stored *)
Definition lid_of (p : pc) : option (modid * N) :=
  match p with
  | RelW _ _ m _ _ id | Load _ _ m _ _ id => Some (m, id)
  | _ => None
  end.
Definition sid_of (p : pc) : option (modid * N) :=
  match p with
  | CacheW _ _ m _ _ id | CacheU _ _ m _ _ id => Some (m, id)
  | _ => None
  end.
(** the data a thread is going to put into the cache *)
Definition sdata_of (p : pc) : option (modid * data) :=
  match p with
  | CacheW _ _ m _ d _ | CacheU _ _ m _ d _ | Bump _ _ m _ d => Some (m, d)
  | _ => None
  end.

Variable h0 : N.
Variable m0 : modid.
Hypothesis novcb : vcb cfg m0 = false.

(** What holds in any case *)
Record base (s : state) (h : list event) : Prop := mkBase {
  b_out : forall t, ~ In t (threads cfg) -> pcs s t = Idle;
  b_wf : forall t, wf (pcs s t);
  b_cont : In (content s) (contents h0 h);
  b_ccont : forall c, In (ccontent s c) (contents h0 h);
  b_busy : forall t, is_idle (pcs s t) = false -> ccontent s (conn t) = content s;
  b_w : forall t t', t <> t' -> In m0 (wmods (pcs s t)) -> ~ In m0 (rmods (pcs s t'));
  b_c : forall t t', t <> t' -> conn t' = conn t -> cwr (pcs s t) = true ->
          cwr (pcs s t') = false /\ crd (pcs s t') = false;
  b_e : forall t m j, entry_of (pcs s t) = Some (m, j) ->
          exists i, nth_error (cmods s (conn t)) j = Some (m, i);
  b_ca : forall t, sid_of (pcs s t) <> None -> caching cfg (conn t) = true;
  b_cur : stored s m0 = current m0 h
}.

(** What holds as long as ids do not wrap around and content ids are not repeated *)
Record cinv (s : state) (h : list event) : Prop := mkCinv {
  c_le : (runid s m0 <= stores m0 h)%N;
  c_lt : forall t, bump_of (pcs s t) = Some m0 -> (runid s m0 < stores m0 h)%N;
  c_ent : forall c i, ccontent s c = content s -> In (m0, i) (cmods s c) ->
            i = UMAX \/ (i <= runid s m0)%N;
  c_coh : forall c, ccontent s c = content s -> In (m0, runid s m0) (cmods s c) ->
            disturbed m0 h = false -> (forall t, bump_of (pcs s t) <> Some m0) ->
            (forall t, conn t = c -> load_of (pcs s t) <> Some m0) ->
            cdata s c m0 = stored s m0;
  c_load : forall t, load_of (pcs s t) = Some m0 -> cdata s (conn t) m0 = [];
  c_lid : forall t id, lid_of (pcs s t) = Some (m0, id) -> id = runid s m0;
  c_proc : forall t, processed (pcs s t) m0 -> In (m0, runid s m0) (cmods s (conn t));
  c_has : forall t, caching cfg (conn t) = true -> In m0 (needed (pcs s t)) ->
            In m0 (map fst (cmods s (conn t)));
  c_sid : forall t id, sid_of (pcs s t) = Some (m0, id) -> id = runid s m0 /\
            forall i, In (m0, i) (cmods s (conn t)) -> i <> id;
  c_sdata : forall t d, sdata_of (pcs s t) = Some (m0, d) -> disturbed m0 h = false -> stored s m0 = d
}.

Definition fine (h : list event) : Prop :=
  NoDup (contents h0 h) /\ (stores m0 h < UMAX)%N.

(* ---------------------------------------------- events and the functions of the specification *)

Lemma contents_app evs h :
  (forall x f, ~ In (EContext x f) evs) -> contents h0 (evs ++ h) = contents h0 h.
Proof.
  induction evs as [|e r IH]; intros H; [reflexivity|].
  assert (contents h0 (r ++ h) = contents h0 h) as E.
  { apply IH. intros x f I. apply (H x f). right. exact I. }
  destruct e; cbn [app contents]; try exact E.
  destruct (H h1 f). left. reflexivity.
Qed.

Lemma interrupted_events s l e :
  In e (flat_map (fun t' => interrupted (pcs s t')) l) -> exists m, e = EInterrupted m.
Proof.
  rewrite in_flat_map. intros (t & _ & H). destruct (pcs s t); cbn [interrupted In] in H; try contradiction.
  destruct H as [H|[]]. exists m. symmetry. exact H.
Qed.

Lemma current_int evs h : (forall e, In e evs -> exists m, e = EInterrupted m) ->
  current m0 (evs ++ h) = current m0 h /\ contents h0 (evs ++ h) = contents h0 h /\
  stores m0 (evs ++ h) = stores m0 h.
Proof.
  induction evs as [|e r IH]; intros H; [split; [|split]; reflexivity|].
  destruct (H e (or_introl eq_refl)) as (m & ->).
  cbn [app current contents stores]. apply IH. intros e I. apply H. right. exact I.
Qed.

Lemma disturbed_int evs h : (forall e, In e evs -> exists m, e = EInterrupted m) ->
  disturbed m0 (evs ++ h) = existsb (fun e => match e with EInterrupted m => Nat.eqb m m0 | _ => false end) evs
                            || disturbed m0 h.
Proof.
  induction evs as [|e r IH]; intros H; [reflexivity|].
  destruct (H e (or_introl eq_refl)) as (m & ->).
  cbn [app disturbed existsb]. rewrite IH; [apply orb_assoc|]. intros e I. apply H. right. exact I.
Qed.

(* ---------------------------------------------- preservation: base *)

Ltac sp := cbn [set_pc set_stored set_runid set_pver set_cmods set_cdata add_mod unlink insert set_id flush kill
                pcs stored runid pver content ccontent cmods cdata] in *.

(** Facts about the place of thread [t'] after thread [t] moved *)
Ltac thr t' t :=
  destruct (Nat.eq_dec t' t) as [?E|?E];
  [subst t'; repeat rewrite upd_eq in * | repeat rewrite (upd_neq _ t _ t') in * by assumption].

Lemma base_step t s s' evs h :
  In t (threads cfg) -> base s h -> step t s s' evs -> base s' (evs ++ h).
Proof.
  intros HT [Bo Bwf Bct Bcc Bb Bw Bc Be Ba Bu] St.
  assert (forall p, wf p -> In m0 (wmods p) -> In m0 (rmods p)) as WR.
  { intros p. destruct p; cbn [wf wmods rmods]; try contradiction; intros W; destruct W as (W & _); apply W. }
  constructor.
  - (* out *)
    intros t' Ht'. pose proof (Bo t' Ht') as E.
    assert (t' <> t) as N by (intros ->; contradiction).
    destruct St; sp; try exact E; try (rewrite (upd_neq _ _ _ _ N); exact E).
    destruct (Nat.eqb (conn t') (conn t)); [reflexivity | exact E].
  - (* wf *)
    intros t'. pose proof (Bwf t') as W'. pose proof (Bwf t) as W.
    destruct St; sp; try exact W';
      try (unfold upd; destruct (Nat.eqb t' t); [|exact W'];
           try match goal with H : pcs s t = _ |- _ => rewrite H in W end; cbn [wf] in *; try exact I; try tauto).
    + split; [exact W | intros x Hx; exact Hx].
    + destruct W as (W1 & W2). split; [exact W1|]. split; [apply W2; left; reflexivity|].
      intros x Hx. apply W2. right. exact Hx.
    + destruct W as (W1 & W2). split; [exact W1|]. split; [apply W2; left; reflexivity|].
      intros x Hx. apply W2. right. exact Hx.
    + destruct W as (W1 & W2). split; [exact W1|]. split; [apply W2; left; reflexivity|].
      intros x Hx. apply W2. right. exact Hx.
    + split; [exact W | intros x Hx; exact Hx].
    + destruct W as (W1 & W2). split; [exact W1|]. split; [apply W2; left; reflexivity|].
      intros x Hx. apply W2. right. exact Hx.
    + destruct (Nat.eqb (conn t') (conn t)); [exact I | exact W'].
  - (* content *)
    destruct St; sp; try exact Bct.
    + pose proof (interrupted_events s (conn_threads cfg (conn t))) as IE.
      destruct (current_int _ h IE) as (_ & E & _). rewrite E. exact Bct.
    + left. reflexivity.
  - (* connection content *)
    intros c. pose proof (Bcc c) as B.
    destruct St; sp; try exact B.
    + pose proof (interrupted_events s (conn_threads cfg (conn t))) as IE.
      destruct (current_int _ h IE) as (_ & E & _). rewrite E.
      unfold upd. destruct (Nat.eqb c (conn t)); assumption.
    + unfold upd. destruct (Nat.eqb c (conn t)); assumption.
    + unfold upd. destruct (Nat.eqb c (conn t)); [left; reflexivity | right; exact B].
  - (* busy *)
    intros t' Hb. 
    destruct St; sp; try (apply Bb; exact Hb);
      try (thr t' t; [|apply Bb; exact Hb]; first [discriminate | assumption | idtac];
           apply Bb; match goal with H : pcs s t = _ |- _ => rewrite H; reflexivity end).
    + destruct (Nat.eqb (conn t') (conn t)) eqn:E; [discriminate|].
      apply Nat.eqb_neq in E. rewrite (upd_neq _ _ _ _ E). apply Bb, Hb.
    + destruct (in_dec Nat.eq_dec t' (threads cfg)) as [I|I]; [|rewrite (Bo t' I) in Hb; discriminate].
      destruct (Nat.eq_dec (conn t') (conn t)) as [E|E].
      * rewrite (H0 t' I E) in Hb. discriminate.
      * rewrite (upd_neq _ _ _ _ E). apply Bb, Hb.
    + destruct (in_dec Nat.eq_dec t' (threads cfg)) as [I|I]; [|rewrite (Bo t' I) in Hb; discriminate].
      rewrite (H t' I) in Hb. discriminate.
  - (* modules locks *)
    intros t1 t2 N W R. pose proof (Bw t1 t2 N) as Bw12.
    assert (t1 <> t -> In m0 (wmods (pcs s t1)) -> In m0 (rmods (pcs s t)) -> False) as X1.
    { intros N1 A B. exact (Bw t1 t N1 A B). }
    assert (t2 <> t -> In m0 (wmods (pcs s t)) -> In m0 (rmods (pcs s t2)) -> False) as X2.
    { intros N1 A B. exact (Bw t t2 (fun e => N1 (eq_sym e)) A B). }
    assert (forall x, In m0 (wmods (pcs s x)) -> In x (threads cfg)) as TH1.
    { intros x A. destruct (in_dec Nat.eq_dec x (threads cfg)) as [I|I]; [exact I|].
      rewrite (Bo x I) in A. contradiction. }
    assert (forall x, In m0 (rmods (pcs s x)) -> In x (threads cfg)) as TH2.
    { intros x A. destruct (in_dec Nat.eq_dec x (threads cfg)) as [I|I]; [exact I|].
      rewrite (Bo x I) in A. contradiction. }
    destruct St; sp; try (exact (Bw12 W R));
      try (thr t1 t; [thr t2 t; [congruence|] | thr t2 t; [|exact (Bw12 W R)]];
           try (rewrite H in *); cbn [wmods rmods] in *; try contradiction;
           first [apply X1; assumption | apply X2; assumption | idtac]).
    + exact (H1 t1 (TH1 t1 W) E m0 R W).
    + exact (H0 t2 (TH2 t2 R) (fun e => N (eq_sym e)) m0 W R).
    + destruct (Nat.eqb (conn t1) (conn t)); [contradiction|].
      destruct (Nat.eqb (conn t2) (conn t)); [contradiction|]. exact (Bw12 W R).
  - (* cache lock *)
    intros t1 t2 N EC W. pose proof (Bc t1 t2 N EC) as Bc12.
    assert (forall x, cwr (pcs s x) = true -> In x (threads cfg)) as TH1.
    { intros x A. destruct (in_dec Nat.eq_dec x (threads cfg)) as [I|I]; [exact I|].
      rewrite (Bo x I) in A. discriminate. }
    assert (forall x, ~ In x (threads cfg) -> cwr (pcs s x) = false /\ crd (pcs s x) = false) as TH2.
    { intros x I. rewrite (Bo x I). split; reflexivity. }
    pose proof (Bc t t2) as Bt2. pose proof (Bc t1 t) as B1t.
    destruct St; sp; try (exact (Bc12 W));
      try (thr t1 t; [thr t2 t; [congruence|] | thr t2 t; [|exact (Bc12 W)]];
           try (rewrite H in *); cbn [cwr crd] in *; try discriminate; try (split; reflexivity);
           try (apply Bt2; solve [assumption | reflexivity]);
           try (apply B1t; solve [assumption | reflexivity]); try tauto).
    all: try (destruct h1; cbn [cwr crd] in *; try discriminate; try (split; reflexivity);
              first [apply Bt2; solve [assumption | reflexivity] | apply B1t; solve [assumption | reflexivity]]).
    all: try (destruct (in_dec Nat.eq_dec t2 (threads cfg)) as [I|I]; [|exact (TH2 t2 I)];
              first [exact (H0 t2 I (fun e => N (eq_sym e)) EC) ]).
    all: try (exfalso; pose proof (H1 t1 (TH1 t1 W) N (eq_sym EC)); congruence).
    all: try (exfalso; destruct (H0 t1 (TH1 t1 W) N (eq_sym EC)); congruence).
    + exfalso. destruct (B1t N EC W) as (B1 & B2). destruct h1; discriminate.
    + destruct (Nat.eqb (conn t1) (conn t)); [discriminate|].
      destruct (Nat.eqb (conn t2) (conn t)); [split; reflexivity|]. exact (Bc12 W).
  - (* entries *)
    intros t' m j He.
    destruct St; sp; try (exact (Be t' m j He));
      try (thr t' t; [cbn [entry_of] in He; discriminate He | exact (Be t' m j He)]).
    + thr t' t; [|exact (Be t' m j He)]. cbn [entry_of] in He. injection He as E1 E2. subst m1 j0.
      apply find_mod_some. assumption.
    + thr t' t.
      * cbn [entry_of] in He. injection He as E1 E2. subst m1. exists UMAX. rewrite <- E2. apply nth_app_new.
      * destruct (Be t' m j He) as (i & Hi). exists i. unfold upd.
        destruct (Nat.eqb (conn t') (conn t)) eqn:E1; [|exact Hi].
        apply Nat.eqb_eq in E1. rewrite E1 in Hi. apply nth_app_l, Hi.
    + thr t' t.
      * cbn [entry_of] in He. injection He as E1 E2. subst m1. exists UMAX. rewrite <- E2. apply nth_app_new.
      * destruct (Be t' m j He) as (i & Hi). exists i. unfold upd.
        destruct (Nat.eqb (conn t') (conn t)) eqn:E1; [|exact Hi].
        apply Nat.eqb_eq in E1. rewrite E1 in Hi. apply nth_app_l, Hi.
    + thr t' t; [|exact (Be t' m j He)]. cbn [entry_of] in He. apply (Be t). rewrite H. exact He.
    + thr t' t; [|exact (Be t' m j He)]. cbn [entry_of] in He. apply (Be t). rewrite H. exact He.
    + thr t' t; [|exact (Be t' m j He)]. cbn [entry_of] in He. apply (Be t). rewrite H. exact He.
    + thr t' t; [cbn [entry_of] in He; discriminate He|].
      destruct (Be t' m j He) as (i & Hi). unfold upd at 1.
      destruct (Nat.eqb (conn t') (conn t)) eqn:E1; [|exists i; exact Hi].
      apply Nat.eqb_eq in E1. rewrite E1 in Hi. apply (nth_set_entry _ _ _ _ _ _ Hi).
    + thr t' t; [cbn [entry_of] in He; discriminate He|].
      destruct (Be t' m j He) as (i0 & Hi). unfold upd at 1.
      destruct (Nat.eqb (conn t') (conn t)) eqn:E1; [|exists i0; exact Hi].
      apply Nat.eqb_eq in E1. rewrite E1 in Hi. apply (nth_set_entry _ _ _ _ _ _ Hi).
    + destruct (Nat.eqb (conn t') (conn t)) eqn:E1; [discriminate He|].
      apply Nat.eqb_neq in E1. rewrite (upd_neq _ _ _ _ E1). exact (Be t' m j He).
    + destruct (Nat.eq_dec (conn t') (conn t)) as [E1|E1].
      * destruct (in_dec Nat.eq_dec t' (threads cfg)) as [I|I]; [|rewrite (Bo t' I) in He; discriminate He].
        rewrite (H0 t' I E1) in He. discriminate He.
      * rewrite (upd_neq _ _ _ _ E1). exact (Be t' m j He).
    + destruct (in_dec Nat.eq_dec t' (threads cfg)) as [I|I]; [|rewrite (Bo t' I) in He; discriminate He].
      rewrite (H t' I) in He. discriminate He.
  - (* caching *)
    intros t' Hs. pose proof (Ba t') as A.
    destruct St; sp; try (exact (A Hs));
      try (thr t' t; [|exact (A Hs)]; try (cbn [sid_of] in Hs; congruence); try assumption;
           apply A; rewrite H; discriminate).
    destruct (Nat.eqb (conn t') (conn t)); [cbn [sid_of] in Hs; congruence | exact (A Hs)].
  - (* current *)
    destruct St; sp; cbn [app current]; try exact Bu.
    + unfold upd. rewrite Nat.eqb_sym. destruct (Nat.eqb m m0); [reflexivity | exact Bu].
    + unfold upd. rewrite Nat.eqb_sym. destruct (Nat.eqb m m0); [reflexivity | exact Bu].
    + pose proof (interrupted_events s (conn_threads cfg (conn t))) as IE.
      destruct (current_int _ h IE) as (E & _). rewrite E. exact Bu.
    + reflexivity.
    + unfold upd. rewrite Nat.eqb_sym. destruct (Nat.eqb m m0); [reflexivity | exact Bu].
Qed.

(* ---------------------------------------------- preservation: the rest *)

Lemma bump_locks p m : wf p -> bump_of p = Some m -> In m (wmods p) /\ In m (rmods p).
Proof.
  destruct p; cbn [bump_of]; try discriminate. intros (W & I & _) E. injection E as <-.
  cbn [wmods rmods]. split; [exact I | apply W, I].
Qed.
Lemma sid_locks p m id : wf p -> sid_of p = Some (m, id) -> In m (wmods p) /\ In m (rmods p).
Proof.
  destruct p; cbn [sid_of]; try discriminate; intros (W & I & _) E; injection E as <- <-;
    cbn [wmods rmods]; (split; [exact I | apply W, I]).
Qed.
Lemma sdata_locks p m d : wf p -> sdata_of p = Some (m, d) -> In m (wmods p) /\ In m (rmods p).
Proof.
  destruct p; cbn [sdata_of]; try discriminate; intros (W & I & _) E; injection E as <- <-;
    cbn [wmods rmods]; (split; [exact I | apply W, I]).
Qed.
Lemma lid_locks p m id : wf p -> lid_of p = Some (m, id) -> In m (rmods p).
Proof.
  destruct p; cbn [lid_of]; try discriminate; intros (W & I & _) E; injection E as <- <-; exact I.
Qed.
Lemma load_locks p m : wf p -> load_of p = Some m -> In m (rmods p) /\ cwr p = true.
Proof.
  destruct p; cbn [load_of]; try discriminate; intros (W & I & _) E; injection E as <-.
  split; [exact I | reflexivity].
Qed.
Lemma processed_locks p m : processed p m -> In m (rmods p).
Proof. destruct p; cbn [processed rmods]; tauto. Qed.

Lemma cur_m0 s : cur_id cfg s m0 = runid s m0.
Proof. unfold cur_id. rewrite novcb. reflexivity. Qed.

Lemma inc32_small n : (n < UMAX)%N -> inc32 n = (n + 1)%N.
Proof. unfold inc32, UMAX. intros H. apply N.mod_small. lia. Qed.

Lemma die_bump s h t t' : base s h ->
  disturbed m0 (flat_map (fun x => interrupted (pcs s x)) (conn_threads cfg (conn t)) ++ h) = false ->
  conn t' = conn t -> bump_of (pcs s t') <> Some m0.
Proof.
  intros B D E X.
  rewrite (disturbed_int _ h (interrupted_events s _)) in D. apply orb_false_iff in D. destruct D as (D & _).
  assert (In t' (threads cfg)) as I.
  { destruct (in_dec Nat.eq_dec t' (threads cfg)) as [I|I]; [exact I|].
    rewrite (b_out _ _ B t' I) in X. discriminate. }
  assert (existsb (fun e => match e with EInterrupted m => Nat.eqb m m0 | _ => false end)
    (flat_map (fun x => interrupted (pcs s x)) (conn_threads cfg (conn t))) = true) as T.
  { apply existsb_exists. exists (EInterrupted m0). split; [|apply Nat.eqb_refl].
    apply in_flat_map. exists t'. split; [apply in_conn_threads; tauto|].
    destruct (pcs s t'); cbn [bump_of] in X; try discriminate. injection X as ->. left. reflexivity. }
  congruence.
Qed.

Lemma die_disturbed s h t :
  disturbed m0 (flat_map (fun x => interrupted (pcs s x)) (conn_threads cfg (conn t)) ++ h) = false ->
  disturbed m0 h = false.
Proof.
  intros D. rewrite (disturbed_int _ h (interrupted_events s _)) in D. apply orb_false_iff in D. tauto.
Qed.

Lemma die_same s h t :
  stores m0 (flat_map (fun x => interrupted (pcs s x)) (conn_threads cfg (conn t)) ++ h) = stores m0 h.
Proof. apply current_int. apply interrupted_events. Qed.

(** the cached data and the array of a connection after a step of a thread of another one *)
Definition quiet (t : tid) (s s' : state) : Prop :=
  forall c, c <> conn t -> cmods s' c = cmods s c /\ cdata s' c = cdata s c.

Lemma step_quiet t s s' evs : step t s s' evs -> quiet t s s'.
Proof.
  intros St c N. destruct St; sp; repeat rewrite (upd_neq _ (conn t) _ c) by assumption; split; reflexivity.
Qed.

Lemma stores_mono evs h : (stores m0 h <= stores m0 (evs ++ h))%N.
Proof.
  induction evs as [|e r IH]; [apply N.le_refl|]. cbn [app]. destruct e; cbn [stores]; try exact IH.
  destruct (Nat.eqb m m0); lia.
Qed.

Lemma fresh_content s h x f : base s h -> fine ([EContext x f] ++ h) -> forall c, ccontent s c <> x.
Proof.
  intros B FN c X. destruct FN as (ND & _). cbn [app contents] in ND.
  apply NoDup_cons_iff in ND. destruct ND as (NI & _). apply NI. rewrite <- X. apply (b_ccont _ _ B).
Qed.

Section Pres.
Variables (t : tid) (s s' : state) (evs h : list event).
Hypothesis HT : In t (threads cfg).
Hypothesis B : base s h.
Hypothesis B' : base s' (evs ++ h).
Hypothesis C : cinv s h.
Hypothesis FN : fine (evs ++ h).
Hypothesis St : step t s s' evs.

Lemma small : (stores m0 h < UMAX)%N.
Proof.
  destruct FN as (_ & F). assert (stores m0 h <= stores m0 (evs ++ h))%N as L.
  { apply stores_mono. }
  lia.
Qed.

Lemma id_small : (runid s m0 < UMAX)%N.
Proof. pose proof small. pose proof (c_le _ _ C). lia. Qed.

(** while a thread has a module locked, nobody else is storing it *)
Lemma no_other t1 t2 : t1 <> t2 -> In m0 (wmods (pcs s t1)) -> In m0 (rmods (pcs s t2)) -> False.
Proof. intros N A R. exact (b_w _ _ B t1 t2 N A R). Qed.

Ltac dm m := destruct (Nat.eq_dec m m0) as [?Em|?Em];
  [subst m; repeat rewrite Nat.eqb_refl in *; repeat rewrite upd_eq in *
  | rewrite ?(proj2 (Nat.eqb_neq m m0) Em) in *;
    repeat rewrite (upd_neq _ m _ m0) in * by (intros ?X; apply Em; symmetry; assumption)].

Lemma p_le : (runid s' m0 <= stores m0 (evs ++ h))%N.
Proof.
  pose proof (c_le _ _ C) as L. pose proof (c_lt _ _ C t) as Lt. pose proof id_small as S.
  destruct St; sp; cbn [app stores]; try exact L.
  - dm m; lia.
  - dm m; lia.
  - dm m; [|exact L]. rewrite H in Lt. specialize (Lt eq_refl). rewrite inc32_small by exact S. lia.
  - dm m; [|exact L]. rewrite H in Lt. specialize (Lt eq_refl). rewrite inc32_small by exact S. lia.
  - rewrite die_same. exact L.
  - apply N.le_0_l.
Qed.

Lemma p_lt t' : bump_of (pcs s' t') = Some m0 -> (runid s' m0 < stores m0 (evs ++ h))%N.
Proof.
  pose proof (c_le _ _ C) as L. pose proof (c_lt _ _ C t') as Lt.
  pose proof (b_wf _ _ B t') as W'. pose proof (b_wf _ _ B t) as W.
  destruct St; sp; cbn [app stores]; intros X; try (exact (Lt X));
    try (thr t' t; [cbn [bump_of] in X; discriminate X | exact (Lt X)]).
  - thr t' t.
    + cbn [bump_of] in X. injection X as ->. rewrite Nat.eqb_refl. lia.
    + specialize (Lt X). dm m; lia.
  - thr t' t; [cbn [bump_of] in X; discriminate X |]. specialize (Lt X). dm m; lia.
  - thr t' t; [cbn [bump_of] in X; discriminate X |]. dm m; [|exact (Lt X)].
    exfalso. rewrite H in W. destruct W as (W1 & W2 & _). destruct (bump_locks _ _ W' X) as (_ & R).
    apply (no_other t t'); [congruence | rewrite H; exact W2 | exact R].
  - thr t' t; [cbn [bump_of] in X; discriminate X |]. dm m; [|exact (Lt X)].
    exfalso. rewrite H in W. destruct W as (W1 & W2 & _). destruct (bump_locks _ _ W' X) as (_ & R).
    apply (no_other t t'); [congruence | rewrite H; exact W2 | exact R].
  - rewrite die_same. destruct (Nat.eqb (conn t') (conn t)); [discriminate | exact (Lt X)].
  - exfalso. destruct (in_dec Nat.eq_dec t' (threads cfg)) as [I|I].
    + rewrite (H t' I) in X. discriminate.
    + rewrite (b_out _ _ B t' I) in X. discriminate.
Qed.

Lemma p_ent c i : ccontent s' c = content s' -> In (m0, i) (cmods s' c) ->
  i = UMAX \/ (i <= runid s' m0)%N.
Proof.
  pose proof (c_ent _ _ C c i) as E. pose proof id_small as S.
  pose proof (b_e _ _ B t) as BE.
  assert (forall m, In (m0, i) (upd (cmods s) (conn t) (cmods s (conn t) ++ [(m, UMAX)]) c) ->
            i = UMAX \/ In (m0, i) (cmods s c)) as AD.
  { intros m. unfold upd. destruct (Nat.eqb c (conn t)) eqn:X; [|tauto]. apply Nat.eqb_eq in X. subst c.
    rewrite in_app_iff. intros [I|[I|[]]]; [tauto|]. injection I as _ I. left. symmetry. exact I. }
  assert (forall j id, In (m0, i) (upd (cmods s) (conn t) (set_entry_id (cmods s (conn t)) j id) c) ->
            In (m0, i) (cmods s c) \/ (i = id /\ exists i', nth_error (cmods s (conn t)) j = Some (m0, i'))) as SE.
  { intros j id. unfold upd. destruct (Nat.eqb c (conn t)) eqn:X; [|tauto]. apply Nat.eqb_eq in X. subst c.
    apply in_set_entry. }
  destruct St eqn:SS; sp; intros X I; try (exact (E X I)).
  - destruct (AD _ I); [tauto|]. apply E; assumption.
  - destruct (AD _ I); [tauto|]. apply E; assumption.
  - destruct (SE _ _ I) as [J|(-> & i' & J)]; [apply E; assumption|].
    right. rewrite e in BE. destruct (BE m j eq_refl) as (i2 & K). rewrite J in K. injection K as <- _.
    rewrite (c_lid _ _ C t id); [lia|]. rewrite e. reflexivity.
  - dm m; [|exact (E X I)]. rewrite inc32_small by exact S. destruct (E X I); [tauto|]. right. lia.
  - dm m; [|exact (E X I)]. rewrite inc32_small by exact S. destruct (E X I); [tauto|]. right. lia.
  - destruct (SE _ _ I) as [J|(-> & i' & J)]; [apply E; assumption|].
    right. rewrite e0 in J. injection J as -> _.
    destruct (c_sid _ _ C t id) as (K & _); [rewrite e; reflexivity|]. lia.
  - unfold upd in *. destruct (Nat.eqb c (conn t)); [contradiction|]. exact (E X I).
  - unfold upd in *. destruct (Nat.eqb c (conn t)); [contradiction|]. exact (E X I).
  - unfold upd in *. destruct (Nat.eqb c (conn t)); [contradiction|].
    exfalso. exact (fresh_content s h h1 f B FN c X).
Qed.

Lemma p_coh c : ccontent s' c = content s' -> In (m0, runid s' m0) (cmods s' c) ->
  disturbed m0 (evs ++ h) = false -> (forall x, bump_of (pcs s' x) <> Some m0) ->
  (forall x, conn x = c -> load_of (pcs s' x) <> Some m0) ->
  cdata s' c m0 = stored s' m0.
Proof.
  pose proof (c_coh _ _ C c) as K. pose proof id_small as S. pose proof small as SM. pose proof (c_ent _ _ C c) as EN.
  pose proof (b_e _ _ B t) as BE.
  (* the threads of the old state *)
  assert (forall p, pcs s' = upd (pcs s) t p -> bump_of (pcs s t) <> Some m0 ->
            (forall x, bump_of (pcs s' x) <> Some m0) -> forall x, bump_of (pcs s x) <> Some m0) as KB.
  { intros p E N A x. specialize (A x). rewrite E in A. thr x t; assumption. }
  assert (forall p, pcs s' = upd (pcs s) t p -> load_of (pcs s t) <> Some m0 ->
            (forall x, conn x = c -> load_of (pcs s' x) <> Some m0) ->
            forall x, conn x = c -> load_of (pcs s x) <> Some m0) as KL.
  { intros p E N A x Ex. specialize (A x Ex). rewrite E in A. thr x t; assumption. }
  destruct St; sp; intros X I D A L; cbn [app disturbed] in D;
    try (apply K; try assumption;
         [eapply KB; [reflexivity | rewrite H; discriminate | exact A]
         |eapply KL; [reflexivity | rewrite H; discriminate | exact L]]).
  - (* s_missw *)
    apply K; try assumption.
    + unfold upd in I. destruct (Nat.eqb c (conn t)) eqn:E; [|exact I]. apply Nat.eqb_eq in E. subst c.
      apply in_app_iff in I. destruct I as [I|[I|[]]]; [exact I|]. injection I as _ I. lia.
    + eapply KB; [reflexivity | rewrite H; discriminate | exact A].
    + eapply KL; [reflexivity | rewrite H; discriminate | exact L].
  - (* s_add *)
    apply K; try assumption.
    + unfold upd in I. destruct (Nat.eqb c (conn t)) eqn:E; [|exact I]. apply Nat.eqb_eq in E. subst c.
      apply in_app_iff in I. destruct I as [I|[I|[]]]; [exact I|]. injection I as _ I. lia.
    + eapply KB; [reflexivity | rewrite H; discriminate | exact A].
    + eapply KL; [reflexivity | rewrite H; discriminate | exact L].
  - (* s_oldw *)
    destruct (Nat.eq_dec c (conn t)) as [E|E].
    + subst c. rewrite upd_eq. dm m.
      * exfalso. apply (L t eq_refl). rewrite upd_eq. reflexivity.
      * apply K; try assumption.
        -- eapply KB; [reflexivity | rewrite H; discriminate | exact A].
        -- eapply KL; [reflexivity | rewrite H; discriminate | exact L].
    + rewrite (upd_neq _ _ _ _ E). apply K; try assumption.
      * eapply KB; [reflexivity | rewrite H; discriminate | exact A].
      * eapply KL; [reflexivity | rewrite H; discriminate | exact L].
  - (* s_relw *)
    destruct (Nat.eq_dec c (conn t)) as [E|E].
    + subst c. rewrite upd_eq. dm m.
      * exfalso. apply (L t eq_refl). rewrite upd_eq. reflexivity.
      * apply K; try assumption.
        -- eapply KB; [reflexivity | rewrite H; discriminate | exact A].
        -- eapply KL; [reflexivity | rewrite H; discriminate | exact L].
    + rewrite (upd_neq _ _ _ _ E). apply K; try assumption.
      * eapply KB; [reflexivity | rewrite H; discriminate | exact A].
      * eapply KL; [reflexivity | rewrite H; discriminate | exact L].
  - (* s_load *)
    destruct (Nat.eq_dec c (conn t)) as [E|E].
    + subst c. repeat rewrite upd_eq in *. dm m.
      * rewrite (c_load _ _ C t); [reflexivity | rewrite H; reflexivity].
      * apply K; try assumption.
        -- destruct (in_set_entry _ _ _ _ _ I) as [J|(_ & i' & J)]; [exact J|].
           rewrite H in BE. destruct (BE m j eq_refl) as (i2 & Y). rewrite J in Y. injection Y as Y _. congruence.
        -- eapply KB; [reflexivity | rewrite H; discriminate | exact A].
        -- eapply KL; [reflexivity | rewrite H; cbn [load_of]; congruence | exact L].
    + repeat rewrite (upd_neq _ _ _ _ E) in *. apply K; try assumption.
      * eapply KB; [reflexivity | rewrite H; discriminate | exact A].
      * intros x Ex. specialize (L x Ex). thr x t; [congruence | exact L].
  - (* s_loadfail *)
    apply orb_false_iff in D. destruct D as (D1 & D). apply Nat.eqb_neq in D1.
    apply K; try assumption.
    + eapply KB; [reflexivity | rewrite H; discriminate | exact A].
    + eapply KL; [reflexivity | rewrite H; cbn [load_of]; congruence | exact L].
  - (* s_serve *) apply K; assumption.
  - (* s_store *)
    dm m.
    + exfalso. apply (A t). rewrite upd_eq. reflexivity.
    + apply K; try assumption.
      * eapply KB; [reflexivity | rewrite H; discriminate | exact A].
      * eapply KL; [reflexivity | rewrite H; discriminate | exact L].
  - (* s_storefail *)
    dm m; [discriminate|]. apply K; try assumption.
    + eapply KB; [reflexivity | rewrite H; discriminate | exact A].
    + eapply KL; [reflexivity | rewrite H; discriminate | exact L].
  - (* s_bumpc *)
    dm m.
    + exfalso. rewrite inc32_small in I by exact S. destruct (EN _ X I) as [U|U]; [|lia].
      pose proof (c_lt _ _ C t) as LT. rewrite H in LT. specialize (LT eq_refl). lia.
    + apply K; try assumption.
      * eapply KB; [reflexivity | rewrite H; cbn [bump_of]; congruence | exact A].
      * eapply KL; [reflexivity | rewrite H; discriminate | exact L].
  - (* s_bump *)
    dm m.
    + exfalso. rewrite inc32_small in I by exact S. destruct (EN _ X I) as [U|U]; [|lia].
      pose proof (c_lt _ _ C t) as LT. rewrite H in LT. specialize (LT eq_refl). lia.
    + apply K; try assumption.
      * eapply KB; [reflexivity | rewrite H; cbn [bump_of]; congruence | exact A].
      * eapply KL; [reflexivity | rewrite H; discriminate | exact L].
  - (* s_cstore *)
    destruct (Nat.eq_dec c (conn t)) as [E|E].
    + subst c. repeat rewrite upd_eq in *. dm m.
      * symmetry. apply (c_sdata _ _ C t); [rewrite H; reflexivity | exact D].
      * apply K; try assumption.
        -- destruct (in_set_entry _ _ _ _ _ I) as [J|(_ & i' & J)]; [exact J|].
           rewrite H0 in J. injection J as J _. congruence.
        -- eapply KB; [reflexivity | rewrite H; discriminate | exact A].
        -- eapply KL; [reflexivity | rewrite H; discriminate | exact L].
    + repeat rewrite (upd_neq _ _ _ _ E) in *. apply K; try assumption.
      * eapply KB; [reflexivity | rewrite H; discriminate | exact A].
      * eapply KL; [reflexivity | rewrite H; discriminate | exact L].
  - (* s_fail *)
    apply K; try assumption.
    + eapply KB; [reflexivity | | exact A]. destruct (pcs s t) eqn:P; cbn [bump_of]; try discriminate.
      exfalso. exact (H1 _ _ _ _ _ eq_refl).
    + eapply KL; [reflexivity | | exact L]. destruct (pcs s t) eqn:P; cbn [load_of cwr] in *; discriminate.
  - (* s_die *)
    destruct (Nat.eq_dec c (conn t)) as [E|E].
    + subst c. rewrite upd_eq in I. contradiction.
    + repeat rewrite (upd_neq _ _ _ _ E) in *. apply K; try assumption.
      * exact (die_disturbed _ _ _ D).
      * intros x. destruct (Nat.eq_dec (conn x) (conn t)) as [Ex|Ex].
        -- exact (die_bump s h t x B D Ex).
        -- specialize (A x). apply Nat.eqb_neq in Ex. rewrite Ex in A. exact A.
      * intros x Ex. specialize (L x Ex).
        assert (Nat.eqb (conn x) (conn t) = false) as EE by (apply Nat.eqb_neq; congruence).
        rewrite EE in L. exact L.
  - (* s_switch *)
    destruct (Nat.eq_dec c (conn t)) as [E|E].
    + subst c. rewrite upd_eq in I. contradiction.
    + repeat rewrite (upd_neq _ _ _ _ E) in *. apply K; assumption.
  - (* s_context *)
    destruct (Nat.eq_dec c (conn t)) as [E|E].
    + subst c. rewrite upd_eq in I. contradiction.
    + repeat rewrite (upd_neq _ _ _ _ E) in *. exfalso. exact (fresh_content s h h1 f B FN c X).
  - (* s_other *)
    apply orb_false_iff in D. destruct D as (D1 & D). apply Nat.eqb_neq in D1.
    rewrite (upd_neq _ m _ m0) by congruence. apply K; assumption.
Qed.

Lemma p_load t' : load_of (pcs s' t') = Some m0 -> cdata s' (conn t') m0 = [].
Proof.
  pose proof (c_load _ _ C t') as K. pose proof (b_wf _ _ B t') as W'.
  assert (t' <> t -> conn t' = conn t -> load_of (pcs s t') = Some m0 -> cwr (pcs s t) = true -> False) as EX.
  { intros N E L Wt. destruct (load_locks _ _ W' L) as (_ & Wt').
    destruct (b_c _ _ B t t') as (X & _); [congruence | exact E | exact Wt | congruence]. }
  destruct St; sp; intros L; try (exact (K L));
    try (thr t' t; [cbn [load_of] in L; discriminate L | exact (K L)]).
  - thr t' t.
    + cbn [load_of] in L. injection L as ->. rewrite upd_eq. reflexivity.
    + destruct (Nat.eq_dec (conn t') (conn t)) as [Ec|Ec].
      * exfalso. apply EX; try assumption. rewrite H. reflexivity.
      * rewrite (upd_neq _ _ _ _ Ec). exact (K L).
  - thr t' t.
    + cbn [load_of] in L. injection L as ->. rewrite upd_eq. reflexivity.
    + destruct (Nat.eq_dec (conn t') (conn t)) as [Ec|Ec].
      * exfalso. destruct (load_locks _ _ W' L) as (_ & Wt').
        destruct (in_dec Nat.eq_dec t' (threads cfg)) as [I|I].
        -- destruct (H0 t' I E Ec) as (X & _). congruence.
        -- rewrite (b_out _ _ B t' I) in L. discriminate.
      * rewrite (upd_neq _ _ _ _ Ec). exact (K L).
  - thr t' t; [cbn [load_of] in L; discriminate L|].
    destruct (Nat.eq_dec (conn t') (conn t)) as [Ec|Ec].
    + exfalso. apply EX; try assumption. rewrite H. reflexivity.
    + rewrite (upd_neq _ _ _ _ Ec). exact (K L).
  - thr t' t; [cbn [load_of] in L; discriminate L|].
    destruct (Nat.eq_dec (conn t') (conn t)) as [Ec|Ec].
    + exfalso. apply EX; try assumption. rewrite H. reflexivity.
    + repeat rewrite (upd_neq _ _ _ _ Ec). exact (K L).
  - destruct (Nat.eqb (conn t') (conn t)) eqn:Ec; [discriminate|]. apply Nat.eqb_neq in Ec.
    rewrite (upd_neq _ _ _ _ Ec). exact (K L).
  - destruct (Nat.eq_dec (conn t') (conn t)) as [Ec|Ec].
    + rewrite Ec, upd_eq. reflexivity.
    + rewrite (upd_neq _ _ _ _ Ec). exact (K L).
  - destruct (Nat.eq_dec (conn t') (conn t)) as [Ec|Ec].
    + rewrite Ec, upd_eq. reflexivity.
    + rewrite (upd_neq _ _ _ _ Ec). exact (K L).
Qed.

Lemma idle_all : (forall x, In x (threads cfg) -> pcs s x = Idle) -> forall x, pcs s x = Idle.
Proof.
  intros H x. destruct (in_dec Nat.eq_dec x (threads cfg)) as [I|I]; [exact (H x I) | exact (b_out _ _ B x I)].
Qed.

(** thread [t] is storing [m0], so nobody else has anything to do with it *)
Lemma bump_excl t' ms ws rest d : t' <> t -> pcs s t = Bump ms ws m0 rest d ->
  In m0 (rmods (pcs s t')) -> False.
Proof.
  intros N P R. pose proof (b_wf _ _ B t) as W. rewrite P in W. destruct W as (_ & W & _).
  apply (no_other t t'); [congruence | rewrite P; exact W | exact R].
Qed.

Lemma p_lid t' id : lid_of (pcs s' t') = Some (m0, id) -> id = runid s' m0.
Proof.
  pose proof (c_lid _ _ C t' id) as K. pose proof (b_wf _ _ B t') as W'.
  destruct St; sp; intros L; try (exact (K L));
    try (thr t' t; [cbn [lid_of] in L; discriminate L | exact (K L)]).
  - thr t' t; [|exact (K L)]. cbn [lid_of] in L. injection L as -> <-. apply cur_m0.
  - thr t' t; [|exact (K L)]. cbn [lid_of] in L. injection L as -> <-. apply cur_m0.
  - thr t' t; [|exact (K L)]. cbn [lid_of] in L. apply K. rewrite H. exact L.
  - thr t' t; [cbn [lid_of] in L; discriminate L|]. dm m; [|exact (K L)].
    exfalso. exact (bump_excl t' _ _ _ _ E H (lid_locks _ _ _ W' L)).
  - thr t' t; [cbn [lid_of] in L; discriminate L|]. dm m; [|exact (K L)].
    exfalso. exact (bump_excl t' _ _ _ _ E H (lid_locks _ _ _ W' L)).
  - destruct (Nat.eqb (conn t') (conn t)); [discriminate | exact (K L)].
  - rewrite (idle_all H t') in L. discriminate L.
Qed.

Lemma p_proc t' : processed (pcs s' t') m0 -> In (m0, runid s' m0) (cmods s' (conn t')).
Proof.
  pose proof (c_proc _ _ C t') as K. pose proof (b_e _ _ B t) as BE.
  assert (forall m, In (m0, runid s m0) (cmods s (conn t')) ->
    In (m0, runid s m0) (upd (cmods s) (conn t) (cmods s (conn t) ++ [(m, UMAX)]) (conn t'))) as AD.
  { intros m I. unfold upd. destruct (Nat.eqb (conn t') (conn t)) eqn:E; [|exact I].
    apply Nat.eqb_eq in E. rewrite E in I. apply in_app_iff. left. exact I. }
  assert (forall j id, In (m0, runid s m0) (cmods s (conn t')) ->
    (forall i, nth_error (cmods s (conn t)) j = Some (m0, i) -> id = runid s m0) ->
    In (m0, runid s m0) (upd (cmods s) (conn t) (set_entry_id (cmods s (conn t)) j id) (conn t'))) as SE.
  { intros j id I Q. unfold upd. destruct (Nat.eqb (conn t') (conn t)) eqn:E; [|exact I].
    apply Nat.eqb_eq in E. rewrite E in I. apply set_entry_keeps; assumption. }
  destruct St; sp; intros L; try (exact (K L));
    try (thr t' t; [cbn [processed] in L; contradiction L | exact (K L)]).
  - thr t' t; [cbn [processed] in L; destruct L; contradiction | exact (K L)].
  - thr t' t; [|exact (K L)]. apply K. rewrite H. cbn [processed]. split; [exact L | intros []].
  - thr t' t; [|exact (K L)]. apply K. rewrite H. cbn [processed In] in *. destruct L as (L1 & L2 & L3).
    split; [exact L1|]. intros [X|X]; [congruence | contradiction].
  - thr t' t; [|exact (K L)]. apply K. rewrite H. cbn [processed In] in *. destruct L as (L1 & L2 & L3).
    split; [exact L1|]. intros [X|X]; [congruence | contradiction].
  - apply AD. thr t' t; [|exact (K L)]. apply K. rewrite H. cbn [processed In] in *. destruct L as (L1 & L2 & L3).
    split; [exact L1|]. intros [X|X]; [congruence | contradiction].
  - apply AD. thr t' t; [|exact (K L)]. apply K. rewrite H. cbn [processed] in *. exact L.
  - thr t' t; [|exact (K L)]. destruct (Nat.eq_dec m0 m) as [E|E].
    + subst m. destruct H0 as (m' & N). rewrite H in BE. destruct (BE m0 j eq_refl) as (i & N').
      rewrite cur_m0 in N. rewrite N in N'. injection N' as N1 N2. subst m'. exact (nth_error_In _ _ N).
    + apply K. rewrite H. cbn [processed] in *. tauto.
  - thr t' t; [|exact (K L)]. apply K. rewrite H. exact L.
  - thr t' t; [|exact (K L)]. apply K. rewrite H. exact L.
  - thr t' t; [|exact (K L)]. apply K. rewrite H. exact L.
  - (* s_load *)
    pose proof (c_lid _ _ C t id) as LI. rewrite H in LI, BE. destruct (BE m j eq_refl) as (i & N).
    assert (forall i0, nth_error (cmods s (conn t)) j = Some (m0, i0) -> id = runid s m0) as Q.
    { intros i0 N0. rewrite N in N0. injection N0 as N0 _. subst m. apply LI. reflexivity. }
    thr t' t.
    + destruct (Nat.eq_dec m0 m) as [E|E].
      * subst m. rewrite <- (LI eq_refl). exact (set_entry_new _ _ _ _ _ N).
      * apply set_entry_keeps; [|exact Q]. apply K. rewrite H. cbn [processed] in *. tauto.
    + apply SE; [exact (K L) | exact Q].
  - (* s_bumpc *) thr t' t; [contradiction L|]. dm m; [|exact (K L)].
    exfalso. exact (bump_excl t' _ _ _ _ E H (processed_locks _ _ L)).
  - thr t' t; [contradiction L|]. dm m; [|exact (K L)].
    exfalso. exact (bump_excl t' _ _ _ _ E H (processed_locks _ _ L)).
  - (* s_cstore *) thr t' t; [contradiction L|]. apply SE; [exact (K L)|].
    intros i0 N0. rewrite H0 in N0. injection N0 as -> _.
    exfalso. pose proof (b_wf _ _ B t) as W. rewrite H in W. destruct W as (_ & W & _).
    apply (no_other t t'); [congruence | rewrite H; exact W | exact (processed_locks _ _ L)].
  - (* s_die *) destruct (Nat.eqb (conn t') (conn t)) eqn:E; [contradiction L|]. apply Nat.eqb_neq in E.
    rewrite (upd_neq _ _ _ _ E). exact (K L).
  - destruct (Nat.eq_dec (conn t') (conn t)) as [E|E].
    + destruct (in_dec Nat.eq_dec t' (threads cfg)) as [I|I].
      * rewrite (H0 t' I E) in L. contradiction L.
      * rewrite (b_out _ _ B t' I) in L. contradiction L.
    + rewrite (upd_neq _ _ _ _ E). exact (K L).
  - rewrite (idle_all H t') in L. contradiction L.
Qed.

Lemma p_has t' : caching cfg (conn t') = true -> In m0 (needed (pcs s' t')) ->
  In m0 (map fst (cmods s' (conn t'))).
Proof.
  intros CA. pose proof (c_has _ _ C t' CA) as K. pose proof (c_proc _ _ C t') as KP.
  assert (forall m, In m0 (map fst (cmods s (conn t'))) ->
    In m0 (map fst (upd (cmods s) (conn t) (cmods s (conn t) ++ [(m, UMAX)]) (conn t')))) as AD.
  { intros m I. unfold upd. destruct (Nat.eqb (conn t') (conn t)) eqn:E; [|exact I].
    apply Nat.eqb_eq in E. rewrite E in I. rewrite map_app. apply in_app_iff. left. exact I. }
  assert (forall j id, In m0 (map fst (cmods s (conn t'))) ->
    In m0 (map fst (upd (cmods s) (conn t) (set_entry_id (cmods s (conn t)) j id) (conn t')))) as SE.
  { intros j id I. unfold upd. destruct (Nat.eqb (conn t') (conn t)) eqn:E; [|exact I].
    apply Nat.eqb_eq in E. rewrite E in I. rewrite map_fst_set_entry. exact I. }
  destruct St; sp; intros L; try (exact (K L));
    try (thr t' t; [cbn [needed] in L; contradiction L | exact (K L)]);
    try (thr t' t; [|exact (K L)]; apply K; rewrite H; exact L).
  - thr t' t; [congruence | exact (K L)].
  - thr t' t; [|exact (K L)]. apply (in_map fst _ (m0, runid s m0)). apply KP. rewrite H. cbn [processed needed] in *.
    split; [exact L | intros []].
  - apply AD. thr t' t; [cbn [needed] in L; contradiction L | exact (K L)].
  - apply AD. thr t' t; [cbn [needed] in L; contradiction L | exact (K L)].
  - apply SE. thr t' t; [cbn [needed] in L; contradiction L | exact (K L)].
  - apply SE. thr t' t; [|exact (K L)]. apply K. rewrite H. exact L.
  - destruct (Nat.eqb (conn t') (conn t)) eqn:E; [contradiction L|]. apply Nat.eqb_neq in E.
    rewrite (upd_neq _ _ _ _ E). exact (K L).
  - destruct (Nat.eq_dec (conn t') (conn t)) as [E|E].
    + destruct (in_dec Nat.eq_dec t' (threads cfg)) as [I|I].
      * rewrite (H0 t' I E) in L. contradiction L.
      * rewrite (b_out _ _ B t' I) in L. contradiction L.
    + rewrite (upd_neq _ _ _ _ E). exact (K L).
  - rewrite (idle_all H t') in L. contradiction L.
Qed.

Lemma p_sid t' id : sid_of (pcs s' t') = Some (m0, id) -> id = runid s' m0 /\
  forall i, In (m0, i) (cmods s' (conn t')) -> i <> id.
Proof.
  pose proof (c_sid _ _ C t' id) as K. pose proof (b_wf _ _ B t') as W'. pose proof (b_wf _ _ B t) as W.
  pose proof id_small as S. pose proof small as SM. pose proof (b_e _ _ B t) as BE.
  assert (forall m, sid_of (pcs s t') = Some (m0, id) -> forall i,
    In (m0, i) (upd (cmods s) (conn t) (cmods s (conn t) ++ [(m, UMAX)]) (conn t')) -> i <> id) as AD.
  { intros m L i. destruct (K L) as (-> & Q). unfold upd. destruct (Nat.eqb (conn t') (conn t)) eqn:E; [|apply Q].
    apply Nat.eqb_eq in E. rewrite E in Q. rewrite in_app_iff. intros [I|[I|[]]]; [exact (Q i I)|].
    injection I as _ I. lia. }
  destruct St; sp; intros L; try (exact (K L));
    try (thr t' t; [cbn [sid_of] in L; discriminate L | exact (K L)]).
  - thr t' t; [cbn [sid_of] in L; discriminate L|]. split; [apply (K L) | exact (AD m L)].
  - thr t' t; [cbn [sid_of] in L; discriminate L|]. split; [apply (K L) | exact (AD m L)].
  - (* s_load *)
    thr t' t; [cbn [sid_of] in L; discriminate L|]. destruct (K L) as (Q1 & Q2). split; [exact Q1|].
    intros i I. unfold upd in I. destruct (Nat.eqb (conn t') (conn t)) eqn:Ec; [|exact (Q2 i I)].
    apply Nat.eqb_eq in Ec. rewrite Ec in Q2.
    destruct (in_set_entry _ _ _ _ _ I) as [J|(_ & i' & J)]; [exact (Q2 i J)|].
    exfalso. rewrite H in BE. destruct (BE m j eq_refl) as (i2 & Y). rewrite J in Y. injection Y as <- _.
    rewrite H in W. destruct W as (_ & R & _).
    apply (no_other t' t E); [apply (sid_locks _ _ _ W' L) | rewrite H; exact R].
  - (* s_bumpc *)
    thr t' t.
    + cbn [sid_of] in L. injection L as -> <-. rewrite upd_eq. split; [reflexivity|].
      rewrite inc32_small by exact S. intros i I.
      assert (ccontent s (conn t) = content s) as X by (apply (b_busy _ _ B); rewrite H; reflexivity).
      pose proof (c_lt _ _ C t) as LT. rewrite H in LT. specialize (LT eq_refl).
      destruct (c_ent _ _ C _ _ X I) as [U|U]; lia.
    + dm m; [|exact (K L)]. exfalso. refine (bump_excl t' _ _ _ _ E H _). apply (sid_locks _ _ _ W' L).
  - (* s_bump *)
    thr t' t; [cbn [sid_of] in L; discriminate L|].
    dm m; [|exact (K L)]. exfalso. refine (bump_excl t' _ _ _ _ E H _). apply (sid_locks _ _ _ W' L).
  - thr t' t; [|exact (K L)]. apply K. rewrite H. exact L.
  - (* s_cstore *)
    thr t' t; [cbn [sid_of] in L; discriminate L|]. destruct (K L) as (Q1 & Q2). split; [exact Q1|].
    intros i1 I. unfold upd in I. destruct (Nat.eqb (conn t') (conn t)) eqn:Ec; [|exact (Q2 i1 I)].
    apply Nat.eqb_eq in Ec. rewrite Ec in Q2.
    destruct (in_set_entry _ _ _ _ _ I) as [J|(_ & i' & J)]; [exact (Q2 i1 J)|].
    exfalso. rewrite H0 in J. injection J as -> _.
    rewrite H in W. destruct W as (W1 & R & _).
    apply (no_other t' t E); [apply (sid_locks _ _ _ W' L) | rewrite H; apply W1, R].
  - destruct (Nat.eqb (conn t') (conn t)) eqn:E; [discriminate L|]. apply Nat.eqb_neq in E.
    rewrite (upd_neq _ _ _ _ E). exact (K L).
  - destruct (Nat.eq_dec (conn t') (conn t)) as [E|E].
    + destruct (in_dec Nat.eq_dec t' (threads cfg)) as [I|I].
      * rewrite (H0 t' I E) in L. discriminate L.
      * rewrite (b_out _ _ B t' I) in L. discriminate L.
    + rewrite (upd_neq _ _ _ _ E). exact (K L).
  - rewrite (idle_all H t') in L. discriminate L.
Qed.

Lemma p_sdata t' d : sdata_of (pcs s' t') = Some (m0, d) -> disturbed m0 (evs ++ h) = false ->
  stored s' m0 = d.
Proof.
  pose proof (c_sdata _ _ C t' d) as K. pose proof (b_wf _ _ B t') as W'. pose proof (b_wf _ _ B t) as W.
  assert (forall ms ws rest, t' <> t -> pcs s t = Sto ms ws (m0 :: rest) ->
            sdata_of (pcs s t') = Some (m0, d) -> False) as EX.
  { intros ms ws rest N P L. rewrite P in W. destruct W as (W1 & W2).
    apply (no_other t t'); [congruence | rewrite P; apply W2; left; reflexivity | apply (sdata_locks _ _ _ W' L)]. }
  destruct St; sp; cbn [app disturbed]; intros L D; try (exact (K L D));
    try (thr t' t; [cbn [sdata_of] in L; discriminate L | exact (K L D)]);
    try (thr t' t; [|exact (K L D)]; apply K; [rewrite H; exact L | exact D]).
  - apply orb_false_iff in D. destruct D as (_ & D).
    thr t' t; [cbn [sdata_of] in L; discriminate L | exact (K L D)].
  - thr t' t.
    + cbn [sdata_of] in L. injection L as -> ->. rewrite upd_eq. reflexivity.
    + dm m; [exfalso; exact (EX _ _ _ E H L) | exact (K L D)].
  - thr t' t; [cbn [sdata_of] in L; discriminate L|]. dm m; [discriminate | exact (K L D)].
  - destruct (Nat.eqb (conn t') (conn t)) eqn:E; [discriminate L|]. exact (K L (die_disturbed _ _ _ D)).
  - rewrite (idle_all H t') in L. discriminate L.
  - apply orb_false_iff in D. destruct D as (D1 & D). apply Nat.eqb_neq in D1.
    rewrite (upd_neq _ m _ m0) by congruence. exact (K L D).
Qed.

Lemma cinv_step : cinv s' (evs ++ h).
Proof.
  constructor;
    [exact p_le | exact p_lt | exact p_ent | exact p_coh | exact p_load | exact p_lid | exact p_proc
    |exact p_has | exact p_sid | exact p_sdata].
Qed.

End Pres.

(* ---------------------------------------------- runs *)

Lemma base_start : base (start h0) [].
Proof.
  constructor; cbn [start pcs content ccontent cmods stored contents current]; try discriminate.
  - intros; reflexivity.
  - intros; exact I.
  - left. reflexivity.
  - intros. left. reflexivity.
  - intros t t' _ [].
  - intros t H. exfalso. apply H. reflexivity.
  - reflexivity.
Qed.

Lemma cinv_start : cinv (start h0) [].
Proof.
  constructor; cbn [start pcs content ccontent cmods cdata runid stored stores bump_of load_of lid_of sid_of sdata_of
    processed needed]; try discriminate; try reflexivity; try contradiction.
Qed.

Lemma fine_back evs h : fine (evs ++ h) -> fine h.
Proof.
  induction evs as [|e r IH]; [tauto|]. intros F. apply IH. clear IH. destruct F as (F1 & F2).
  destruct e; cbn [app contents stores] in F1, F2; try (split; assumption).
  - split; [exact F1|]. destruct (Nat.eqb m m0); lia.
  - apply NoDup_cons_iff in F1. split; [apply F1 | exact F2].
Qed.

Lemma run_inv acts : forall s h s' h',
  base s h -> (fine h -> cinv s h) -> run cfg acts s h = Some (s', h') ->
  base s' h' /\ (fine h' -> cinv s' h').
Proof.
  induction acts as [|[t a] r IH]; intros s h s' h' B C R; cbn [run] in R.
  - injection R as <- <-. split; assumption.
  - destruct (exec cfg t a s) as [[s1 evs]|] eqn:E; [|discriminate].
    destruct (exec_step _ _ _ _ _ E) as (HT & St).
    pose proof (base_step t s s1 evs h HT B St) as B1.
    apply (IH s1 (evs ++ h) s' h'); [exact B1 | | exact R].
    intros F. exact (cinv_step t s s1 evs h B B1 (C (fine_back _ _ F)) F St).
Qed.

(** Every event comes from a step taken in a state with the invariant. *)
Lemma run_event acts : forall s h s' h',
  base s h -> (fine h -> cinv s h) -> run cfg acts s h = Some (s', h') ->
  forall later e earlier, h' = later ++ e :: earlier -> length h <= length earlier ->
  exists t s1 s2 evs hb l1 l2,
    base s1 hb /\ (fine hb -> cinv s1 hb) /\ step t s1 s2 evs /\
    evs = l1 ++ e :: l2 /\ earlier = l2 ++ hb.
Proof.
  induction acts as [|[t a] r IH]; intros s h s' h' B C R later e earlier Eh Le; cbn [run] in R.
  - injection R as <- <-. exfalso. subst h. rewrite app_length in Le. cbn [length] in Le. lia.
  - destruct (exec cfg t a s) as [[s1 evs]|] eqn:E; [|discriminate].
    destruct (exec_step _ _ _ _ _ E) as (HT & St).
    pose proof (base_step t s s1 evs h HT B St) as B1.
    destruct (le_lt_dec (length (evs ++ h)) (length earlier)) as [Le2|Lt].
    + apply (IH s1 (evs ++ h) s' h') with (later := later); try assumption.
      intros F. exact (cinv_step t s s1 evs h B B1 (C (fine_back _ _ F)) F St).
    + assert (exists pre, h' = pre ++ evs ++ h) as (pre & Eh2).
      { clear - R. revert R. generalize (evs ++ h). revert s1. induction r as [|[t1 a1] r IH]; intros s1 hh R; cbn [run] in R.
        - injection R as _ <-. exists []. reflexivity.
        - destruct (exec cfg t1 a1 s1) as [[s2 ev2]|]; [|discriminate].
          destruct (IH _ _ R) as (pre & ->). exists (pre ++ ev2). rewrite <- app_assoc. reflexivity. }
      rewrite Eh2 in Eh.
      assert (exists l1, evs ++ h = l1 ++ e :: earlier /\ later = pre ++ l1) as (l1 & X1 & X2).
      { clear - Eh Lt. revert later Eh. induction pre as [|x pre IH]; intros later Eh; cbn [app] in Eh.
        - exists later. split; [exact Eh | reflexivity].
        - destruct later as [|y later]; cbn [app] in Eh.
          + exfalso. injection Eh as _ Eh. subst earlier. rewrite app_length in Lt. lia.
          + injection Eh as <- Eh. destruct (IH later Eh) as (l1 & A & ->). exists l1. split; [exact A | reflexivity]. }
      assert (exists l2, evs = l1 ++ e :: l2 /\ earlier = l2 ++ h) as (l2 & Y1 & Y2).
      { clear - X1 Le. revert l1 X1. induction evs as [|x evs IH]; intros l1 X1; cbn [app] in X1.
        - exfalso. subst h. rewrite app_length in Le. cbn [length] in Le. lia.
        - destruct l1 as [|y l1]; cbn [app] in X1; injection X1 as -> X1.
          + exists evs. split; [reflexivity | symmetry; exact X1].
          + destruct (IH l1 X1) as (l2 & -> & A). exists l2. split; [reflexivity | exact A]. }
      exists t, s, s1, evs, h, l1, l2. tauto.
Qed.

Theorem served acts s' h' : run cfg acts (start h0) [] = Some (s', h') ->
  forall later t d earlier, h' = later ++ EServe t m0 d :: earlier ->
  fine earlier -> disturbed m0 earlier = false -> d = current m0 earlier.
Proof.
  intros R later t d earlier Eh F D.
  destruct (run_event acts (start h0) [] s' h' base_start (fun _ => cinv_start) R later _ earlier Eh (Nat.le_0_l _))
    as (t1 & s1 & s2 & evs & hb & l1 & l2 & B & C & St & Ev & Ee).
  assert (forall ms ws, pcs s1 t1 = Ready ms ws -> In m0 ms -> evs = [EServe t1 m0 (cdata s1 (conn t1) m0)] ->
    d = current m0 earlier) as KEY.
  { intros ms ws P I E1. rewrite E1 in Ev. destruct l1 as [|x [|y l1]]; cbn [app] in Ev; try discriminate.
    injection Ev as <- <- <-. subst earlier. cbn [app] in *.
    rewrite <- (b_cur _ _ B). specialize (C F).
    pose proof (c_proc _ _ C t1) as P1. rewrite P in P1. specialize (P1 I).
    apply (c_coh _ _ C); [|exact P1 | exact D | |].
    - apply (b_busy _ _ B). rewrite P. reflexivity.
    - intros x X. destruct (Nat.eq_dec x t1) as [->|N]; [rewrite P in X; discriminate|].
      destruct (bump_locks _ _ (b_wf _ _ B x) X) as (W & _).
      apply (b_w _ _ B x t1 N W). rewrite P. exact I.
    - intros x Ex X. destruct (Nat.eq_dec x t1) as [->|N]; [rewrite P in X; discriminate|].
      destruct (load_locks _ _ (b_wf _ _ B x) X) as (_ & W).
      destruct (b_c _ _ B x t1) as (_ & Y); [exact N | symmetry; exact Ex | exact W|].
      rewrite P in Y. discriminate. }
  destruct St;
    try (destruct l1 as [|? [|? ?]]; discriminate Ev).
  - destruct l1 as [|x [|y l1]]; cbn [app] in Ev; try discriminate.
    injection Ev as E1 E2 E3. subst m. eapply KEY; [eassumption | assumption | reflexivity].
  - destruct l1 as [|x [|y [|z l1]]]; cbn [app] in Ev; try discriminate.
  - exfalso. assert (In (EServe t m0 d) (flat_map (fun t' => interrupted (pcs s1 t')) (conn_threads cfg (conn t1)))) as I.
    { rewrite Ev. apply in_app_iff. right. left. reflexivity. }
    destruct (interrupted_events _ _ _ I) as (m & X). discriminate.
Qed.

(** The asserts hold. *)
Lemma asserts_hold s h t ms ws rest d id : base s h -> cinv s h -> pcs s t = CacheU ms ws m0 rest d id ->
  exists j i, find_mod m0 (cmods s (conn t)) = Some j /\ nth_error (cmods s (conn t)) j = Some (m0, i) /\ i <> id.
Proof.
  intros B C P.
  assert (caching cfg (conn t) = true) as CA by (apply (b_ca _ _ B); rewrite P; discriminate).
  pose proof (c_has _ _ C t CA) as H. rewrite P in H.
  pose proof (b_wf _ _ B t) as W. rewrite P in W. destruct W as (W1 & W2 & _).
  specialize (H (W1 _ W2)).
  destruct (c_sid _ _ C t id) as (_ & S); [rewrite P; reflexivity|].
  destruct (find_mod m0 (cmods s (conn t))) as [j|] eqn:E.
  - destruct (find_mod_some _ _ _ E) as (i & N). exists j, i. split; [reflexivity|]. split; [exact N|].
    apply S. exact (nth_error_In _ _ N).
  - exfalso. apply in_map_iff in H. destruct H as ([m i] & X & I). cbn [fst] in X. subst m.
    exact (find_mod_none _ _ E i I).
Qed.

End Inv.

(** The step an event comes from *)
Lemma run_split cfg acts : forall s h s' h', run cfg acts s h = Some (s', h') ->
  forall e, In e h' -> In e h \/
  exists acts1 t a s1 hb s2 evs,
    run cfg acts1 s h = Some (s1, hb) /\ exec cfg t a s1 = Some (s2, evs) /\ In e evs /\
    exists pre, h' = pre ++ evs ++ hb.
Proof.
  induction acts as [|[t a] r IH]; intros s h s' h' R e I; cbn [run] in R.
  - injection R as <- <-. left. exact I.
  - destruct (exec cfg t a s) as [[s1 evs]|] eqn:E; [|discriminate].
    destruct (IH _ _ _ _ R e I) as [J|(acts1 & t1 & a1 & s2 & hb & s3 & ev2 & A & A2 & A3 & A4)].
    + apply in_app_iff in J. destruct J as [J|J]; [|left; exact J]. right.
      exists [], t, a, s, h, s1, evs. split; [reflexivity|]. split; [exact E|]. split; [exact J|].
      clear - R. revert R. generalize (evs ++ h). revert s1. induction r as [|[t1 a1] r IH]; intros s1 hh R; cbn [run] in R.
      * injection R as _ <-. exists []. reflexivity.
      * destruct (exec cfg t1 a1 s1) as [[s2 ev2]|]; [|discriminate].
        destruct (IH _ _ R) as (pre & ->). exists (pre ++ ev2). rewrite <- app_assoc. reflexivity.
    + right. exists ((t, a) :: acts1), t1, a1, s2, hb, s3, ev2. cbn [run]. rewrite E. tauto.
Qed.

Theorem no_assert cfg h0 acts s' h' :
  (forall m, vcb cfg m = false) -> run cfg acts (start h0) [] = Some (s', h') ->
  NoDup (contents h0 h') -> (forall m, (stores m h' < UMAX)%N) -> forall t, ~ In (EAssert t) h'.
Proof.
  intros V R ND SM t I.
  destruct (run_split cfg acts _ _ _ _ R _ I) as [[]|(acts1 & t1 & a1 & s1 & hb & s2 & evs & R1 & EX & J & pre & EH)].
  destruct (exec_step _ _ _ _ _ _ EX) as (HT & St). clear EX.
  assert (forall m, fine h0 m hb) as F.
  { intros m. apply (fine_back h0 m (pre ++ evs)). rewrite <- app_assoc, <- EH. split; [exact ND | apply SM]. }
  destruct St; cbn [In] in J;
    try (destruct J as [J|J]; [discriminate J|]); try contradiction;
    try (destruct J as [J|J]; [discriminate J|]); try contradiction.
  - destruct (run_inv cfg h0 m (V m) acts1 _ _ _ _ (base_start cfg h0 m) (fun _ => cinv_start cfg h0 m) R1) as (B & C).
    destruct (asserts_hold cfg h0 m _ _ _ _ _ _ _ _ B (C (F m)) H) as (j & i & A1 & A2 & A3).
    apply A3. exact (H0 j i A1 A2).
  - destruct (interrupted_events _ _ _ J) as (m & X). discriminate.
Qed.
