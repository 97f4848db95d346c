(** C28: data of a module served from the connection's cache of the running datastore are the data
    currently stored in it, whatever the interleaving of stores by any connection and reads.

    The model is RunCache.v, [current], [disturbed], [stores], [contents] and [coherent] are in
    RunCacheSpec.v.  [run cfg acts (start h0) [] = Some (s, h)]: the steps [acts], taken by any threads
    in any order, are possible and leave the history [h] of events. *)
From Coq Require Import List Arith NArith Bool Lia.
Import ListNotations.
From Verif Require Import RunCache RunCacheSpec RunCacheProofs.

(** What is served is what is stored, if until then
    - the module was stored fewer than 2^32 - 1 times,
    - no set of modules was installed twice (its content id would repeat),
    - after the module was stored for the last time nothing went wrong with it,
    - the plugin of the module does not provide its own data versions.
    Each of the conditions is needed: see the refutations below. *)
Theorem C28_served_partial : forall cfg h0 acts s h later t m d earlier,
  run cfg acts (start h0) [] = Some (s, h) ->
  h = later ++ EServe t m d :: earlier ->
  vcb cfg m = false ->
  NoDup (contents h0 earlier) ->
  (stores m earlier < 4294967295)%N ->
  disturbed m earlier = false ->
  d = current m earlier.
Proof.
  intros cfg h0 acts s h later t m d earlier R E V ND S D.
  exact (served cfg h0 m V acts s h R later t d earlier E (conj ND S) D).
Qed.
Print Assumptions C28_served_partial.

(** With nothing of that kind in the whole history, everything served is right. *)
Theorem C28_coherent_partial : forall cfg h0 acts s h,
  run cfg acts (start h0) [] = Some (s, h) ->
  (forall m, vcb cfg m = false) ->
  NoDup (contents h0 h) ->
  (forall m, (stores m h < 4294967295)%N) ->
  (forall m d, ~ In (EInterrupted m) h /\ ~ In (EOther m d) h /\ ~ In (ELoadFailed m) h) ->
  coherent h.
Proof.
  intros cfg h0 acts s h R V ND S Q later earlier t m d E.
  assert (fine h0 m earlier) as F.
  { apply (fine_back h0 m (later ++ [EServe t m d])). rewrite <- app_assoc. cbn [app]. rewrite <- E.
    split; [exact ND | apply S]. }
  apply (C28_served_partial cfg h0 acts s h later t m d earlier R E (V m)); [apply F | apply F |].
  assert (forall e, In e earlier -> In e h) as I.
  { intros e H. rewrite E. apply in_app_iff. right. right. exact H. }
  clear - I Q. induction earlier as [|e r IH]; [reflexivity|].
  assert (disturbed m r = false) as IH'. { apply IH. intros e' H. apply I. right. exact H. }
  pose proof (I e (or_introl eq_refl)) as Ie.
  destruct e as [m1 d1|m1|m1 d1|m1|x f|t1 m1 d1|t1]; cbn [disturbed]; try exact IH'.
  - destruct (Nat.eqb m1 m); [reflexivity | exact IH'].
  - exfalso. destruct (Q m1 []) as (A & _). exact (A Ie).
  - exfalso. destruct (Q m1 d1) as (_ & A & _). exact (A Ie).
  - exfalso. destruct (Q m1 []) as (_ & _ & A). exact (A Ie).
  - reflexivity.
Qed.
Print Assumptions C28_coherent_partial.

(** Under the same conditions on ids, the process is never aborted by an assert of the cache code. *)
Theorem C28_asserts_partial : forall cfg h0 acts s h t,
  run cfg acts (start h0) [] = Some (s, h) ->
  (forall m, vcb cfg m = false) ->
  NoDup (contents h0 h) ->
  (forall m, (stores m h < 4294967295)%N) ->
  ~ In (EAssert t) h.
Proof.
  intros cfg h0 acts s h t R V ND S. exact (no_assert cfg h0 acts s h V R ND S t).
Qed.
Print Assumptions C28_asserts_partial.

(* ------------------------------------------------------------------ a run *)

(** Thread 1 is alone in connection 1, threads 2 and 3 share connection 2. *)
Definition ex_conn (t : tid) : cid := match t with 1 => 1 | _ => 2 end.
Definition ex_cfg (ca1 : bool) (nr v : modid -> bool) : config :=
  mkConfig [1; 2; 3] ex_conn (fun c => if Nat.eqb c 1 then ca1 else true) nr v.
Definition no : modid -> bool := fun _ => false.

(** thread [t] stores [d] in module 0 in a connection without, with the cache *)
Definition ex_begin_store (t : tid) : list (tid * action) :=
  [(t, ABegin [0] [0]); (t, ANoCache); (t, AUpgrade)].
Definition ex_store (t : tid) (d : data) (v : N) : list (tid * action) :=
  ex_begin_store t ++ [(t, AStore d v); (t, ABump); (t, AFail)].
(** thread [t] reads module 0 that is not in the cache, is there but old, is there *)
Definition ex_read_new (t : tid) : list (tid * action) :=
  [(t, ABegin [0] []); (t, ACacheLock); (t, ANext); (t, AAdd); (t, ACheck); (t, ALoad); (t, ANext);
   (t, AServe 0); (t, AGot); (t, AFail)].
Definition ex_read_old (t : tid) : list (tid * action) :=
  [(t, ABegin [0] []); (t, ACacheLock); (t, ANext); (t, ACheck); (t, AReload); (t, ALoad); (t, ANext);
   (t, AServe 0); (t, AGot); (t, AFail)].
Definition ex_read (t : tid) : list (tid * action) :=
  [(t, ABegin [0] []); (t, ACacheLock); (t, ANext); (t, ACheck); (t, ANext);
   (t, AServe 0); (t, AGot); (t, AFail)].
(** thread [t] stores [d] with the cache up to date *)
Definition ex_cstore (t : tid) (d : data) (v : N) : list (tid * action) :=
  [(t, ABegin [0] [0]); (t, ACacheLock); (t, ANext); (t, ACheck); (t, ANext); (t, AGot); (t, AUpgrade);
   (t, AStore d v); (t, ABump); (t, ACacheWLock); (t, ACacheStore); (t, AFail)].

Definition ev_run (r : option (state * list event)) : option (list event) := option_map snd r.

(** Stores by another connection and by the reading one itself, reads after each *)
Example C28_served_nonvacuous :
  ev_run (run (ex_cfg false no no)
    (ex_store 1 [7] 1 ++ ex_read_new 2 ++ ex_read 3 ++ ex_store 1 [8] 2 ++ ex_read_old 3 ++
     ex_cstore 2 [9] 3 ++ ex_read 3) (start 5) [])
  = Some [EServe 3 0 [9]; EStore 0 [9]; EServe 3 0 [8]; EStore 0 [8]; EServe 3 0 [7]; EServe 2 0 [7]; EStore 0 [7]].
Proof. vm_compute. reflexivity. Qed.

Lemma ev_run_some r h : ev_run r = Some h -> exists s, r = Some (s, h).
Proof.
  destruct r as [[s h']|]; cbn [ev_run option_map snd]; [|discriminate]. intros E. injection E as <-.
  exists s. reflexivity.
Qed.

(** [wrong cfg earlier]: there is a run with the events [earlier] after which a thread gets
    something else than what is stored. *)
Definition wrong (cfg : config) (h0 : N) (earlier : list event) (m : modid) : Prop :=
  exists acts s t d, run cfg acts (start h0) [] = Some (s, EServe t m d :: earlier) /\
    d <> current m earlier.

Ltac by_run acts t d :=
  match goal with |- wrong ?cfg ?h0 ?e ?m =>
    let H := fresh in
    assert (ev_run (run cfg acts (start h0) []) = Some (EServe t m d :: e)) as H by (vm_compute; reflexivity);
    destruct (ev_run_some _ _ H) as (?s & ?R);
    exists acts; eexists; exists t, d; split; [exact R | vm_compute; discriminate]
  end.

(** The process that stored the module died before it changed the id of the data.  Other connections
    go on serving what they had. *)
Theorem C28_died_refuted :
  exists cfg h0 earlier m, wrong cfg h0 earlier m /\ vcb cfg m = false /\ norun cfg m = false /\
    NoDup (contents h0 earlier) /\ (stores m earlier < 4294967295)%N /\
    earlier = [EInterrupted m; EStore m [8]; EServe 2 m [7]; EStore m [7]].
Proof.
  exists (ex_cfg false no no), 5%N, [EInterrupted 0; EStore 0 [8]; EServe 2 0 [7]; EStore 0 [7]], 0.
  split; [|split; [reflexivity|split; [reflexivity|split; [|split; reflexivity]]]].
  - by_run (ex_store 1 [7] 1 ++ ex_read_new 2 ++ ex_begin_store 1 ++ [(1, AStore [8] 2%N); (1, ADie)] ++ ex_read 2)
      2 [7].
  - repeat constructor; intros [].
Qed.
Print Assumptions C28_died_refuted.

(** Storing the module failed although the data were changed, the id is not. *)
Theorem C28_failed_refuted :
  exists cfg h0 earlier m, wrong cfg h0 earlier m /\ vcb cfg m = false /\ norun cfg m = false /\
    NoDup (contents h0 earlier) /\ (stores m earlier < 4294967295)%N /\
    earlier = [EInterrupted m; EStore m [8]; EServe 2 m [7]; EStore m [7]].
Proof.
  exists (ex_cfg false no no), 5%N, [EInterrupted 0; EStore 0 [8]; EServe 2 0 [7]; EStore 0 [7]], 0.
  split; [|split; [reflexivity|split; [reflexivity|split; [|split; reflexivity]]]].
  - by_run (ex_store 1 [7] 1 ++ ex_read_new 2 ++ ex_begin_store 1 ++ [(1, AStoreFail (Some [8]))] ++ ex_read 2)
      2 [7].
  - repeat constructor; intros [].
Qed.
Print Assumptions C28_failed_refuted.

(** The running datastore of the module is disabled, its data are those of startup.  Writing startup
    does not change the id. *)
Theorem C28_startup_refuted :
  exists cfg h0 earlier m, wrong cfg h0 earlier m /\ vcb cfg m = false /\ norun cfg m = true /\
    NoDup (contents h0 earlier) /\ (stores m earlier < 4294967295)%N /\
    earlier = [EOther m [8]; EServe 2 m [7]; EStore m [7]].
Proof.
  exists (ex_cfg false (fun _ => true) no), 5%N, [EOther 0 [8]; EServe 2 0 [7]; EStore 0 [7]], 0.
  split; [|split; [reflexivity|split; [reflexivity|split; [|split; reflexivity]]]].
  - by_run (ex_store 1 [7] 1 ++ ex_read_new 2 ++ [(1, AOther 0 [8] 2%N)] ++ ex_read 2) 2 [7].
  - repeat constructor; intros [].
Qed.
Print Assumptions C28_startup_refuted.

(** Two threads of a connection add the module to its cache at the same time, and there are two entries
    of it.  The one that comes second fails to load the data, having removed those the other one loaded:
    the first entry says that they are current, and from then on nothing is served. *)
Theorem C28_twice_refuted :
  exists cfg h0 earlier m, wrong cfg h0 earlier m /\ vcb cfg m = false /\ norun cfg m = false /\
    NoDup (contents h0 earlier) /\ (stores m earlier < 4294967295)%N /\
    earlier = [ELoadFailed m; EServe 2 m [7]; EStore m [7]].
Proof.
  exists (ex_cfg false no no), 5%N, [ELoadFailed 0; EServe 2 0 [7]; EStore 0 [7]], 0.
  split; [|split; [reflexivity|split; [reflexivity|split; [|split; reflexivity]]]].
  - by_run (ex_store 1 [7] 1 ++
      [(2, ABegin [0] []); (2, ACacheLock); (3, ABegin [0] []); (3, ACacheLock); (2, ANext); (3, ANext);
       (2, AAdd); (2, ACheck); (2, ALoad); (2, ANext); (2, AServe 0); (2, AGot); (2, AFail);
       (3, AAdd); (3, ACheck); (3, ALoadFail)] ++ ex_read 2) 2 (@nil nat).
  - repeat constructor; intros [].
Qed.
Print Assumptions C28_twice_refuted.

(** A module is installed and removed again.  The content id is what it was, so a connection that did
    nothing meanwhile keeps its cache, while the ids of the data started again. *)
Theorem C28_content_refuted :
  exists cfg h0 earlier m f, wrong cfg h0 earlier m /\ vcb cfg m = false /\ norun cfg m = false /\
    disturbed m earlier = false /\ (stores m earlier < 4294967295)%N /\
    earlier = [EStore m [8]; EContext h0 f; EContext 6 f; EServe 2 m [7]; EStore m [7]] /\ f m = [7].
Proof.
  exists (ex_cfg false no no), 5%N,
    [EStore 0 [8]; EContext 5 (fun _ => [7]); EContext 6 (fun _ => [7]); EServe 2 0 [7]; EStore 0 [7]], 0, (fun _ => [7]).
  split; [|split; [reflexivity|split; [reflexivity|split; [reflexivity|split; [reflexivity|split; reflexivity]]]]].
  by_run (ex_store 1 [7] 1 ++ ex_read_new 2 ++
    [(1, AContext 6%N (fun _ => [7])); (1, AContext 5%N (fun _ => [7]))] ++ ex_store 1 [8] 2 ++ ex_read 2) 2 [7].
Qed.
Print Assumptions C28_content_refuted.

(** The plugin of the module has data versions and the version is 2^32 - 1: that is the id of an entry just
    added, and no data are served. *)
Theorem C28_version_refuted :
  exists cfg h0 earlier m, wrong cfg h0 earlier m /\ vcb cfg m = true /\ norun cfg m = false /\
    disturbed m earlier = false /\ NoDup (contents h0 earlier) /\ earlier = [EStore m [7]].
Proof.
  exists (ex_cfg false no (fun _ => true)), 5%N, [EStore 0 [7]], 0.
  split; [|split; [reflexivity|split; [reflexivity|split; [reflexivity|split; [|reflexivity]]]]].
  - by_run (ex_store 1 [7] UMAX ++
      [(2, ABegin [0] []); (2, ACacheLock); (2, ANext); (2, AAdd); (2, ACheck); (2, ANext); (2, AServe 0)])
      2 (@nil nat).
  - repeat constructor; intros [].
Qed.
Print Assumptions C28_version_refuted.

(** With data versions an assert can fail: the version of the cached data (1, after a change by others)
    is compared with the number of stores by sysrepo, which becomes 1 too. *)
Theorem C28_version_assert_refuted :
  exists cfg acts s h t, run cfg acts (start 5) [] = Some (s, h) /\ In (EAssert t) h /\
    NoDup (contents 5 h) /\ (stores 0%nat h < 4294967295)%N.
Proof.
  assert (ev_run (run (ex_cfg false no (fun _ => true))
    ([(1, AOther 0 [7] 1%N)] ++ ex_read_new 2 ++
     [(2, ABegin [0] [0]); (2, ACacheLock); (2, ANext); (2, ACheck); (2, ANext); (2, AGot); (2, AUpgrade);
      (2, AStore [8] 2%N); (2, ABump); (2, ACacheWLock); (2, ACacheStore)]) (start 5) [])
    = Some [EAssert 2; EStore 0 [8]; EServe 2 0 [7]; EOther 0 [7]]) as H by (vm_compute; reflexivity).
  destruct (ev_run_some _ _ H) as (s & R).
  do 4 eexists. exists 2. split; [exact R|]. split; [left; reflexivity|]. split; [|reflexivity].
  repeat constructor. intros [].
Qed.
Print Assumptions C28_version_assert_refuted.

(* ------------------------------------------------------------------ the bound on the number of stores *)

Definition calm (s : state) : Prop :=
  (forall t, pcs s t = Idle) /\ (forall c, ccontent s c = content s) /\ (forall c, cmods s c = []) /\
  (forall c m, cdata s c m = []).

Lemma run_app cfg a b : forall s h s1 h1,
  run cfg a s h = Some (s1, h1) -> run cfg (a ++ b) s h = run cfg b s1 h1.
Proof.
  induction a as [|[t x] r IH]; intros s h s1 h1 R; cbn [run app] in *.
  - injection R as <- <-. reflexivity.
  - destruct (exec cfg t x s) as [[s2 evs]|]; [|discriminate]. apply IH, R.
Qed.

Lemma store_once s h d : calm s -> exists s',
  run (ex_cfg false no no) (ex_store 1 d (pver s 0 + 1)) s h = Some (s', EStore 0 d :: h) /\ calm s' /\
  runid s' 0 = inc32 (runid s 0).
Proof.
  intros (C1 & C2 & C3 & C4).
  unfold ex_store, ex_begin_store. cbn [app run].
  assert (exec (ex_cfg false no no) 1 (ABegin [0] [0]) s = Some (set_pc s 1 (Work [0] [0]), [])) as E1.
  { unfold exec. cbn. rewrite (C1 1), (C2 1), N.eqb_refl. cbn. rewrite (C1 2), (C1 3). reflexivity. }
  rewrite E1. cbn [run app].
  assert (exec (ex_cfg false no no) 1 ANoCache (set_pc s 1 (Work [0] [0]))
    = Some (set_pc (set_pc s 1 (Work [0] [0])) 1 (Got [0] [0]), [])) as E2 by reflexivity.
  rewrite E2. cbn [run app].
  set (s2 := set_pc (set_pc s 1 (Work [0] [0])) 1 (Got [0] [0])).
  assert (exec (ex_cfg false no no) 1 AUpgrade s2 = Some (set_pc s2 1 (Sto [0] [0] [0]), [])) as E3.
  { unfold exec, can_wlock, s2. cbn. rewrite (C1 2), (C1 3). reflexivity. }
  rewrite E3. cbn [run app].
  set (s3 := set_pc s2 1 (Sto [0] [0] [0])).
  set (s4 := set_pc (set_pver (set_stored s3 0 d) 0 (pver s 0%nat + 1)%N) 1 (Bump [0] [0] 0 [] d)).
  assert (exec (ex_cfg false no no) 1 (AStore d (pver s 0%nat + 1)%N) s3 = Some (s4, [EStore 0 d])) as E4.
  { unfold exec. change (pcs s3 1) with (Sto [0] [0] [0]).
    cbn [existsb ex_cfg threads Nat.eqb orb negb]. change (pver s3 0) with (pver s 0).
    assert ((pver s 0%nat <? pver s 0%nat + 1)%N = true) as L by (apply N.ltb_lt; lia). rewrite L. reflexivity. }
  rewrite E4. cbn [run app].
  set (s5 := set_pc (set_runid s4 0 (inc32 (runid s4 0))) 1 (Sto [0] [0] [])).
  assert (exec (ex_cfg false no no) 1 ABump s4 = Some (s5, [])) as E5 by reflexivity.
  rewrite E5. cbn [run app].
  assert (exec (ex_cfg false no no) 1 AFail s5 = Some (set_pc s5 1 Idle, [])) as E6 by reflexivity.
  rewrite E6. eexists. split; [reflexivity|]. split; [|reflexivity].
  split; [|split; [|split]]; try assumption.
  intros t. destruct (Nat.eq_dec t 1) as [->|N]; [reflexivity|].
  unfold s5, s4, s3, s2. cbn [set_pc set_runid set_pver set_stored pcs]. repeat rewrite (upd_neq _ _ _ _ N). apply C1.
Qed.

Lemma many_stores (n : N) : exists acts s h,
  run (ex_cfg false no no) acts (start 5) [] = Some (s, h) /\ calm s /\
  runid s 0 = (n mod 4294967296)%N /\ stores 0 h = n /\ contents 5 h = [5%N] /\ disturbed 0 h = false /\
  (n <> 0%N -> current 0 h = [7]).
Proof.
  induction n as [|n IH] using N.peano_ind.
  - exists [], (start 5), []. split; [reflexivity|]. split; [|repeat (split; [reflexivity|]); congruence].
    repeat split.
  - destruct IH as (acts & s & h & R & C & I & S & CO & D & _).
    destruct (store_once s h [7] C) as (s' & R' & C' & I').
    exists (acts ++ ex_store 1 [7] (pver s 0 + 1)), s', (EStore 0 [7] :: h).
    split; [rewrite (run_app _ _ _ _ _ _ _ R); exact R'|]. split; [exact C'|].
    split; [|split; [cbn [stores Nat.eqb]; rewrite S; lia|split; [exact CO|split; [reflexivity | intros _; reflexivity]]]].
    rewrite I', I. unfold inc32. rewrite N.add_mod_idemp_l by discriminate. f_equal. lia.
Qed.

(** After exactly 2^32 - 1 stores of the module the id of its data is the one of an entry just added:
    the bound in C28_served_partial is the best possible. *)
Theorem C28_wrap_refuted :
  exists cfg h0 earlier m, wrong cfg h0 earlier m /\ vcb cfg m = false /\ norun cfg m = false /\
    disturbed m earlier = false /\ NoDup (contents h0 earlier) /\ stores m earlier = 4294967295%N.
Proof.
  destruct (many_stores 4294967295) as (acts & s & h & R & (C1 & C2 & C3 & C4) & I & S & CO & D & CU).
  exists (ex_cfg false no no), 5%N, h, 0.
  split; [|split; [reflexivity|split; [reflexivity|split; [exact D|split; [|exact S]]]]].
  2: { rewrite CO. repeat constructor. intros []. }
  set (rd := [(2, ABegin [0] []); (2, ACacheLock); (2, ANext); (2, AAdd); (2, ACheck); (2, ANext); (2, AServe 0)]).
  assert (exists s', run (ex_cfg false no no) rd s h = Some (s', EServe 2 0 [] :: h)) as (s' & R').
  { unfold rd. cbn [run app].
    assert (exec (ex_cfg false no no) 2 (ABegin [0] []) s = Some (set_pc s 2 (Work [0] []), [])) as E1.
    { unfold exec. cbn. rewrite (C1 2), (C2 2), N.eqb_refl. cbn. rewrite (C1 1), (C1 3). reflexivity. }
    rewrite E1. cbn [run app]. set (s1 := set_pc s 2 (Work [0] [])).
    assert (exec (ex_cfg false no no) 2 ACacheLock s1 = Some (set_pc s1 2 (Upd [0] [] [0] HRead), [])) as E2.
    { unfold exec, s1. cbn. rewrite (C1 3). reflexivity. }
    rewrite E2. cbn [run app]. set (s2 := set_pc s1 2 (Upd [0] [] [0] HRead)).
    assert (exec (ex_cfg false no no) 2 ANext s2 = Some (set_pc s2 2 (AddW [0] [] 0 []), [])) as E3.
    { unfold exec, s2, s1. cbn. rewrite (C3 2). reflexivity. }
    rewrite E3. cbn [run app]. set (s3 := set_pc s2 2 (AddW [0] [] 0 [])).
    set (s4 := set_pc (add_mod s3 2 0) 2 (Chk [0] [] 0 [] 0 HWrite)).
    assert (exec (ex_cfg false no no) 2 AAdd s3 = Some (s4, [])) as E4.
    { unfold exec, s4. change (pcs s3 2) with (AddW [0] [] 0 []). change (conn_of (ex_cfg false no no) 2) with 2.
      change (cmods s3 2) with (cmods s 2). rewrite (C3 2). cbn [existsb ex_cfg threads Nat.eqb orb negb length].
      assert (can_cwr (ex_cfg false no no) s3 2 = true) as L.
      { unfold can_cwr, s3, s2, s1. cbn. rewrite (C1 3). reflexivity. }
      rewrite L. reflexivity. }
    rewrite E4. cbn [run app]. set (s5 := set_pc s4 2 (Upd [0] [] [] HWrite)).
    assert (exec (ex_cfg false no no) 2 ACheck s4 = Some (s5, [])) as E5.
    { unfold exec. change (pcs s4 2) with (Chk [0] [] 0 [] 0 HWrite).
      change (conn_of (ex_cfg false no no) 2) with 2. change (cmods s4 2) with (cmods s 2 ++ [(0, UMAX)]).
      rewrite (C3 2). cbn [existsb ex_cfg threads Nat.eqb orb negb app entry_id nth_error option_map snd].
      change (cur_id (ex_cfg false no no) s4 0) with (runid s 0).
      rewrite I. reflexivity. }
    rewrite E5. cbn [run app].
    assert (exec (ex_cfg false no no) 2 ANext s5 = Some (set_pc s5 2 (Ready [0] []), [])) as E6 by reflexivity.
    rewrite E6. cbn [run app]. set (s6 := set_pc s5 2 (Ready [0] [])).
    assert (exec (ex_cfg false no no) 2 (AServe 0) s6 = Some (s6, [EServe 2 0 (cdata s 2 0)])) as E7 by reflexivity.
    rewrite E7. cbn [run app]. rewrite (C4 2 0). exists s6. reflexivity. }
  exists (acts ++ rd), s', 2, []. split.
  - rewrite (run_app _ _ _ _ _ _ _ R). exact R'.
  - rewrite CU by discriminate. discriminate.
Qed.
Print Assumptions C28_wrap_refuted.
