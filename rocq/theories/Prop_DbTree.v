(** C57: data stored in a database by the Redis and MongoDB plugins are loaded
    again as the same tree. *)
From Coq Require Import List NArith Bool Arith Lia Permutation.
From Verif Require Import DbTree DbTreeSpec DbTreeProofs DbTreeStore DbTreeLoad DbTreeFilter.
Import ListNotations.

(** After any history of changes that are valid and whose values can be quoted
    in XPath and are not too long, everything is stored and all nodes are loaded,
    each below its parent, with its value and default flag, and nothing else. *)
Theorem C57_roundtrip_partial : forall (sc : schema) (ls : list (list diffn)) (d : data),
  history sc ls [] d ->
  exists (e : db) (out : data),
    store_all ls [] = Some e /\ load_full sc e = LOk out /\ Permutation d out.
Proof.
  intros sc ls d H. destruct (history_ok sc ls [] d H dok_nil) as [E Hd].
  exists (db_of d). pose proof (history_tree sc ls [] d H (tree_nil sc)) as Ht.
  destruct (load_ok sc d (tree_closed sc d Ht Hd)) as (out & Eo & P).
  exists out. split; auto. split; auto. unfold load_full. rewrite rows_of. auto.
Qed.
Print Assumptions C57_roundtrip_partial.

(** With XPaths written as libyang writes paths, a tree is loaded that contains
    everything the XPaths ask for and no node that does not exist; with Redis if
    all XPaths are paths and there are no commas in the paths of the data. *)
Theorem C57_filter_partial : forall (bk : backend) (sc : schema) (ls : list (list diffn)) (d : data)
  (xs : list xq),
  history sc ls [] d -> xs <> [] -> Forall canonical xs ->
  (bk = Redis -> Forall (fun x => x_path x <> None) xs /\
                 (forall (a : addr) (k : kind), In (a, k) d -> ~ In cCM (path_of a))) ->
  exists (e : db) (out : data),
    store_all ls [] = Some e /\ load_xpaths bk sc xs e = LOk out /\ tree sc out /\ incl out d /\
    (forall (x : xq) (b : addr) (k : kind), In x xs -> In (b, k) d -> asked x b -> In (b, k) out).
Proof.
  intros bk sc ls d xs H Hne Hcan Hred.
  destruct (history_ok sc ls [] d H dok_nil) as [E Hd].
  pose proof (history_tree sc ls [] d H (tree_nil sc)) as Ht.
  pose proof (tree_closed sc d Ht Hd) as Hcl.
  assert (Htree : forall o, closed sc o -> tree sc o).
  { intros o (A & B & C). split; auto. intros a k Hi.
    assert (Hp : place_ok (a, k)) by (rewrite Forall_forall in B; auto).
    destruct Hp as (pa & s & Ea & Hok & Hst). cbn [fst] in Ea. subst a.
    exists pa, s. destruct (C pa s k Hi). auto. }
  exists (db_of d).
  assert (Hall : load_full sc (db_of d) = load_rows sc (map rowe d)).
  { unfold load_full. rewrite rows_of. auto. }
  assert (Hfull : exists out, load_full sc (db_of d) = LOk out /\ tree sc out /\ incl out d /\
            (forall (x : xq) (b : addr) (k : kind), In x xs -> In (b, k) d -> asked x b -> In (b, k) out)).
  { destruct (load_ok sc d Hcl) as (out & Eo & P). exists out. rewrite Hall. split; auto.
    split; [apply Htree; eapply closed_perm; eauto|]. split.
    - intros x Hx. eapply Permutation_in; [apply Permutation_sym; apply P|auto].
    - intros x b k _ Hb _. eapply Permutation_in; eauto. }
  assert (Hsome : forall (f : str -> bool),
            Forall (fun x => x_path x <> None) xs ->
            (forall a k, In (a, k) d -> (f (path_of a) = true <->
               exists x a0, In x xs /\ x_path x = Some a0 /\ matches (base x a0) (path_of a))) ->
            exists out, load_rows sc (sel_rows f (db_of d)) = LOk out /\ tree sc out /\ incl out d /\
            (forall (x : xq) (b : addr) (k : kind), In x xs -> In (b, k) d -> asked x b -> In (b, k) out)).
  { intros f Hpaths Hf. rewrite sel_map by apply Hd.
    assert (Hc2 : closed sc (filter (fun e => f (path_of (fst e))) d)).
    { apply filter_closed; auto. intros pa s k Hi Hpa Hm.
      destruct Hcl as (_ & Hp & Hc). destruct (Hc pa s k Hi) as [_ Hpar].
      pose proof (Hpar Hpa) as Hin. apply in_map_iff in Hin as ([pa' kp] & Ep & Hin).
      cbn [fst] in Ep. subst pa'. apply (Hf _ _ Hin). apply (Hf _ _ Hi) in Hm.
      destruct Hm as (x & a0 & Hx & Ex & Hm). exists x, a0. split; auto. split; auto.
      rewrite Forall_forall in Hcan.
      destruct (base_text x a0 Ex (Hcan x Hx)) as (_ & Hbok & _).
      eapply matches_parent; eauto.
      apply (place_step (pa ++ [s], k)). rewrite Forall_forall in Hp. auto. }
    destruct (load_ok sc _ Hc2) as (out & Eo & P). exists out. split; auto.
    split; [apply Htree; eapply closed_perm; eauto|]. split.
    - intros y Hy. apply (Permutation_in _ (Permutation_sym P)) in Hy.
      apply filter_In in Hy. apply Hy.
    - intros x b k Hx Hb Ha. eapply Permutation_in; [apply P|]. apply filter_In. split; auto.
      cbn [fst]. apply (Hf _ _ Hb). rewrite Forall_forall in Hpaths.
      specialize (Hpaths x Hx). unfold asked in Ha.
      destruct (x_path x) as [a0|] eqn:Ex; [|contradiction].
      exists x, a0. split; auto. split; auto. apply matches_below. unfold base.
      destruct (x_key x); auto. }
  assert (Hdec : Forall (fun x => x_path x <> None) xs \/ Exists (fun x => x_path x = None) xs).
  { clear. induction xs as [|x xs IH]; [left; constructor|].
    destruct (x_path x) eqn:Ex; [|right; left; auto].
    destruct IH as [IH|IH]; [left; constructor; auto; congruence|right; right; auto]. }
  destruct bk; cbn [load_xpaths].
  - destruct (Hred eq_refl) as [Hpaths Hcm].
    destruct (redis_items xs [] Hcan Hpaths (or_introl Hne)) as (i & l & E1 & _ & Hm).
    rewrite E1, parse_join.
    destruct (Hsome (redis_match (i :: l)) Hpaths) as (out & Ho).
    + intros a k Ha. rewrite redis_mongo by (apply (Hcm a k Ha)). unfold mongo_match.
      rewrite (Hm (path_of a)). split; [intros [A|A]; [discriminate|auto]|auto].
    + exists out. split; auto.
  - destruct Hdec as [Hpaths|Hex].
    + destruct (redis_items xs [] Hcan Hpaths (or_introl Hne)) as (i & l & _ & E1 & Hm).
      rewrite E1.
      destruct (Hsome (mongo_match (i :: l)) Hpaths) as (out & Ho).
      * intros a k Ha. unfold mongo_match.
        rewrite (Hm (path_of a)). split; [intros [A|A]; [discriminate|auto]|auto].
      * exists out. split; auto.
    + rewrite (mongo_all xs [] Hcan Hex). destruct Hfull as (out & Ho). exists out. split; auto.
Qed.
Print Assumptions C57_filter_partial.

(** ** Cases *)

Definition nm : str := [109%N].          (* module m *)
Definition nx : str := [120%N].          (* module x *)
Definition n_c : str := [99%N].
Definition n_l : str := [108%N].
Definition n_k : str := [107%N].
Definition n_v : str := [118%N].
Definition n_q : str := [113%N].

Definition stp (n : str) : step := mkStep nm n [].
Definition inst (v : str) : step := mkStep nm n_l [(n_k, v)].

(** Lists [l] have the key [k], [q] is a leaf-list. *)
Definition sch0 : schema :=
  mkSchema (fun p => if str_eqb (snd (last p ([], []))) n_l then [n_k] else [])
           (fun p => str_eqb (snd (last p ([], []))) n_q).

Definition cr (s : step) (k : kind) (cs : list diffn) : diffn := Df s k (Some OCreate) false cs.
Definition inh (s : step) (k : kind) (cs : list diffn) : diffn := Df s k None false cs.

(** F175: when the key of a list instance contains both kinds of quotes and a
    slash, the plugins count a wrong number of parents in its path; loading the
    data reads outside of the array of parents (a crash). *)
Theorem C57_quotes_refuted :
  ~ (forall (v : str) (e : db), (length v <= 100)%nat ->
       store_all [[cr (inst v) KList []]] [] = Some e ->
       load_full sch0 e = LOk [([inst v], KList)]).
Proof.
  intros H. specialize (H [cSQ; cDQ; cSL]). cbn [length] in H.
  destruct (store_all [[cr (inst [cSQ; cDQ; cSL]) KList []]] []) as [e|] eqn:E; [|vm_compute in E; discriminate].
  specialize (H e ltac:(lia) eq_refl). vm_compute in E. injection E as <-. vm_compute in H. discriminate.
Qed.

Definition leafs : list diffn := [cr (stp n_c) (KTerm n_v false) []; cr (stp n_q) (KTerm n_v false) []].

(** The schema without leaf-lists. *)
Definition sch1 : schema := mkSchema (sc_keys sch0) (fun _ => false).

Definition loads (bk : backend) (sc : schema) (ls : list (list diffn)) (xs : list xq) : lres :=
  match store_all ls [] with Some e => load_xpaths bk sc xs e | None => LErr end.

(** F176: with Redis, when data are read by several XPaths and the first is a
    path but a later one is not, only the data of the paths before it are
    loaded, not all data as intended; the result lacks what the later XPaths
    select. *)
Theorem C57_redis_later_xpath_refuted :
  ~ (forall (xs : list xq) (b : addr) (k : kind) (out : data),
       Forall canonical xs -> loads Redis sch1 [leafs] xs = LOk out ->
       In (b, k) [([stp n_c], KTerm n_v false); ([stp n_q], KTerm n_v false)] ->
       (exists x, In x xs /\ asked x b) -> In (b, k) out).
Proof.
  intros H.
  set (x1 := mkXq (path_of [stp n_c]) (Some [stp n_c]) false).
  set (x2 := mkXq [cST] None false).
  specialize (H [x1; x2] [stp n_q] (KTerm n_v false) [([stp n_c], KTerm n_v false)]).
  assert (Hin : In ([stp n_q], KTerm n_v false) [([stp n_c], KTerm n_v false)]).
  { apply H.
    - constructor; [|constructor; [exact Logic.I|constructor]].
      unfold canonical, x1. cbn [x_path x_text x_key]. split; auto. split.
      + constructor; [|constructor]. unfold step_ok, name_ok, name_byte, stp. cbn [s_mod s_name s_preds].
        repeat split; try discriminate; repeat constructor; discriminate.
      + split; discriminate.
    - vm_compute. reflexivity.
    - right. left. auto.
    - exists x2. split; [right; left; auto|exact Logic.I]. }
  destruct Hin as [E|[]]. discriminate.
Qed.

(** F177: the text of an XPath is compared with stored paths as it was written.
    XPath allows both kinds of quotes, but a list instance selected with double
    quotes is not loaded, in Redis and in MongoDB (other spellings of the same
    path, such as a repeated module name, have the same effect). *)
Theorem C57_spelling_refuted :
  ~ (forall (bk : backend) (v : str) (q : N) (out : data),
       (q = cSQ \/ q = cDQ) -> ~ In cSQ v -> ~ In cDQ v ->
       loads bk sch0 [[cr (inst v) KList []]]
         [mkXq ([cSL] ++ nm ++ [cCL] ++ n_l ++ [cLB] ++ n_k ++ [cEQ; q] ++ v ++ [q; cRB])
               (Some [inst v]) false] = LOk out ->
       In ([inst v], KList) out).
Proof.
  intros H. specialize (H Mongo n_v cDQ [] (or_intror eq_refl)).
  apply H; [| |vm_compute; reflexivity]; intros [E|[]]; discriminate.
Qed.

Example C57_spelling_redis :
  loads Redis sch0 [[cr (inst n_v) KList []]]
    [mkXq ([cSL] ++ nm ++ [cCL] ++ n_l ++ [cLB] ++ n_k ++ [cEQ; cDQ] ++ n_v ++ [cDQ; cRB])
          (Some [inst n_v]) false] = LOk [].
Proof. vm_compute. reflexivity. Qed.

(** F178: the index of Redis splits paths at commas.  A list instance with a
    comma in its key is not loaded when it is selected by its path. *)
Theorem C57_redis_comma_refuted :
  ~ (forall (v : str) (out : data), quotable v -> (length v <= 100)%nat ->
       loads Redis sch0 [[cr (inst v) KList []]]
         [mkXq (path_of [inst v]) (Some [inst v]) false] = LOk out ->
       In ([inst v], KList) out).
Proof.
  intros H. apply (H [97%N; cCM; 98%N] []).
  - intros [[E|[E|[E|[]]]] _]; discriminate.
  - cbn [length]. lia.
  - vm_compute. reflexivity.
Qed.

(** F179: replacing anydata stores only the new value, not whether it is XML or
    JSON; after a change of the format the value is loaded in the old one. *)
Theorem C57_anydata_refuted :
  ~ (forall (v0 v1 : str) (j0 j1 : bool) (e : db),
       store_all [[cr (stp n_c) (KAny v0 j0) []];
                  [Df (stp n_c) (KAny v1 j1) (Some OReplace) false []]] [] = Some e ->
       load_full sch0 e = LOk [([stp n_c], KAny v1 j1)]).
Proof.
  intros H. specialize (H n_v n_q false true).
  destruct (store_all _ _) as [e|] eqn:E in H; [|vm_compute in E; discriminate].
  specialize (H e eq_refl). vm_compute in E. injection E as <-. vm_compute in H. discriminate.
Qed.

(** F180: the neighbour of an instance of a user-ordered leaf-list is recorded
    by a predicate that always has single quotes, paths have double quotes for a
    value with a single quote; so when such an instance is deleted or moved, the
    row of its successor is not found and keeps the old neighbour. *)
Theorem C57_neighbour_refuted : ~ (forall (v : str), quotable v -> v <> [] -> prev_pred v = inst_pred v).
Proof.
  intros H. specialize (H [cSQ]).
  assert (E : prev_pred [cSQ] = inst_pred [cSQ]).
  { apply H; [|discriminate]. intros [_ [E|[]]]. discriminate. }
  vm_compute in E. discriminate.
Qed.

(** F181: list instances with a key longer than 16383 bytes cannot be stored. *)
Theorem C57_long_key_refuted : ~ (forall (v : str), quotable v -> store_all [[cr (inst v) KList []]] [] <> None).
Proof.
  intros H. apply (H (repeat 97%N (N.to_nat 16384))).
  - intros [A _]. apply repeat_spec in A. discriminate.
  - unfold store_all, store_diff, store_nodes, cr. rewrite store_node_eq. cbn [node_op create_op inst s_preds map snd].
    unfold enc_keys. cbn [enc_vals]. unfold klen. rewrite repeat_length, N2Nat.id. reflexivity.
Qed.

(** Non-vacuity: a container with two instances (keys with a slash, a space, a
    quote), a leaf in one of them, a leaf-list, a node of another module; then a
    second diff that changes a default flag, deletes and creates. *)
Definition v1 : str := [97; 47; 98; 32]%N.
Definition v2 : str := [39; 47]%N.

Definition diff1 : list diffn :=
  [cr (stp n_c) KCont
     [inh (inst v2) KList [inh (stp n_v) (KTerm n_v true) []];
      inh (inst v1) KList [inh (stp n_v) (KTerm n_k false) []];
      inh (mkStep nm n_q [([cDT], v1)]) (KTerm v1 false) [];
      inh (mkStep nx n_v []) (KAny v2 true) []]].

Definition diff2 : list diffn :=
  [Df (stp n_c) KCont (Some ONone) false
     [Df (inst v2) KList None false [Df (stp n_v) (KTerm n_v false) None true []];
      Df (inst v1) KList (Some ODelete) false [inh (stp n_v) (KTerm n_k false) []];
      Df (mkStep nx n_v []) (KAny v1 true) (Some OReplace) false []]].

Definition data2 : data :=
  [([stp n_c], KCont);
   ([stp n_c; inst v2], KList);
   ([stp n_c; inst v2; stp n_v], KTerm n_v false);
   ([stp n_c; mkStep nm n_q [([cDT], v1)]], KTerm v1 false);
   ([stp n_c; mkStep nx n_v []], KAny v1 true)].

Ltac nb := unfold name_ok, name_byte; split; [discriminate|repeat constructor; discriminate].

Ltac qb := intros [A B]; repeat (destruct A as [A|A]; [discriminate|]); repeat (destruct B as [B|B]; [discriminate|]); auto.

Lemma ok_stp : forall (n : str), name_ok n -> step_ok (stp n).
Proof. intros n H. split; [nb|]. split; auto. constructor. Qed.

Lemma ok_inst : forall (v : str), quotable v -> step_ok (inst v).
Proof. intros v H. split; [nb|]. split; [nb|]. constructor; [|constructor]. split; auto. nb. Qed.

Lemma st_inst : forall (v : str), (length v <= 100)%nat -> storable (inst v).
Proof. intros v H. split; cbn [inst s_preds length]; [lia|]. constructor; [|constructor]. cbn [snd]. lia. Qed.

Lemma st_stp : forall (n : str), storable (stp n).
Proof. intros n. split; cbn [stp s_preds length]; [lia|constructor]. Qed.

Lemma q1 : quotable v1.
Proof. qb. Qed.
Lemma q2 : quotable v2.
Proof. unfold v2. intros [_ B]. repeat (destruct B as [B|B]; [discriminate|]). auto. Qed.

Lemma ok_q : step_ok (mkStep nm n_q [([cDT], v1)]).
Proof. split; [nb|]. split; [nb|]. constructor; [|constructor]. split; [nb|apply q1]. Qed.
Lemma st_q : storable (mkStep nm n_q [([cDT], v1)]).
Proof. split; cbn [s_preds length]; [lia|]. constructor; [|constructor]. vm_compute. discriminate. Qed.
Lemma ok_x : step_ok (mkStep nx n_v []).
Proof. split; [nb|]. split; [nb|]. constructor. Qed.
Lemma st_x : storable (mkStep nx n_v []).
Proof. split; cbn [s_preds length]; [lia|constructor]. Qed.

Ltac steps := first [apply ok_stp; nb | apply ok_inst; [apply q1] | apply ok_inst; apply q1 | apply ok_inst; apply q2
                    | apply ok_q | apply ok_x].
Ltac stors := first [apply st_stp | apply st_inst; cbn; lia | apply st_q | apply st_x].

Definition data1 : data :=
  [([stp n_c], KCont);
   ([stp n_c; inst v2], KList);
   ([stp n_c; inst v2; stp n_v], KTerm n_v true);
   ([stp n_c; inst v1], KList);
   ([stp n_c; inst v1; stp n_v], KTerm n_k false);
   ([stp n_c; mkStep nm n_q [([cDT], v1)]], KTerm v1 false);
   ([stp n_c; mkStep nx n_v []], KAny v2 true)].

Ltac lst := repeat (apply Forall_cons; [steps|]); apply Forall_nil.

Lemma tree1 : tree sch0 data1.
Proof.
  split.
  - repeat constructor; cbn; intuition discriminate.
  - intros a k Hi. unfold data1 in Hi.
    repeat (destruct Hi as [Hi|Hi]; [injection Hi as <- <-|]); [..|destruct Hi].
    all: match goal with
         | |- exists pa s, ?l = _ /\ _ =>
             exists (removelast l), (last l (stp n_c)); split; [reflexivity|]; split; [lst|];
             split; [reflexivity|]; intros Hne; cbn; auto 10
         end.
Qed.

Lemma tree2 : tree sch0 data2.
Proof.
  split.
  - repeat constructor; cbn; intuition discriminate.
  - intros a k Hi. unfold data2 in Hi.
    repeat (destruct Hi as [Hi|Hi]; [injection Hi as <- <-|]); [..|destruct Hi].
    all: match goal with
         | |- exists pa s, ?l = _ /\ _ =>
             exists (removelast l), (last l (stp n_c)); split; [reflexivity|]; split; [lst|];
             split; [reflexivity|]; intros Hne; cbn; auto 10
         end.
Qed.

Ltac one := eapply chs_cons; [steps|stors|first [left; reflexivity|right; split; reflexivity]| | |].

Example C57_nonvacuous : exists (ls : list (list diffn)), history sch0 ls [] data2 /\ length ls = 2%nat.
Proof.
  exists [diff1; diff2]. split; auto.
  apply (h_cons sch0 diff1 [diff2] [] data1).
  - unfold diff1, cr, inh. one.
    + apply ch_create; reflexivity.
    + one; [apply ch_create; reflexivity| |].
      * one; [apply ch_create; reflexivity|apply chs_nil|apply chs_nil].
      * one; [apply ch_create; reflexivity| |].
        -- one; [apply ch_create; reflexivity|apply chs_nil|apply chs_nil].
        -- one; [apply ch_create; reflexivity|apply chs_nil|].
           one; [apply ch_create; reflexivity|apply chs_nil|apply chs_nil].
    + apply chs_nil.
  - apply tree1.
  - apply (h_cons sch0 diff2 [] data1 data2); [|apply tree2|apply h_nil].
    unfold diff2, inh. one.
    + apply ch_none; [reflexivity|discriminate].
    + one; [apply ch_none; [reflexivity|discriminate]| |].
      * one; [apply (ch_none_term _ _ false true); reflexivity|apply chs_nil|apply chs_nil].
      * one; [apply (ch_delete _ _ KList); reflexivity| |].
        -- one; [apply (ch_delete _ _ (KTerm n_k false)); reflexivity|apply chs_nil|apply chs_nil].
        -- one; [apply (ch_repl_any _ _ v2); reflexivity|apply chs_nil|apply chs_nil].
    + apply chs_nil.
Qed.

Example C57_loaded :
  match store_all [diff1; diff2] [] with
  | Some e => exists out, load_full sch0 e = LOk out /\ Permutation data2 out
  | None => False
  end.
Proof.
  vm_compute. eexists. split; [reflexivity|]. apply Permutation_refl || (apply NoDup_Permutation; 
    [repeat constructor; cbn; intuition discriminate|repeat constructor; cbn; intuition discriminate|
     intros x; cbn; intuition]).
Qed.
