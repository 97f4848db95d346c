(** * C31: layers of pushed operational data

    The specification is in OperPushSpec.v: sessions have an order and data, a reader gets the
    configuration with the data of all the sessions put on it by their order. *)

From Coq Require Import List NArith PeanoNat Bool Lia Sorting.Sorted.
From Verif Require Import OperPush OperPushSpec OperPushArr OperPushProofs OperPushStep.
Import ListNotations.
Open Scope N_scope.

(** Operations with their results, [None] if an assert fails or memory behind the array is used. *)
Fixpoint trace (owner : N -> N) (perm : N -> bool) (s : st) (l : list op) : option (list (op * obs) * st) :=
  match l with
  | [] => Some ([], s)
  | o :: l =>
      match step owner perm s o with
      | Res s' b => match trace owner perm s' l with Some (t, s2) => Some ((o, b) :: t, s2) | None => None end
      | _ => None
      end
  end.

(** Users keep to the rules ([proper] in OperPushStep.v) all the time. *)
Fixpoint propers (owner : N -> N) (perm : N -> bool) (s : st) (l : list op) : Prop :=
  match l with
  | [] => True
  | o :: l => proper owner perm s o /\ match step owner perm s o with Res s' _ => propers owner perm s' l | _ => True end
  end.

Lemma trace_ok owner perm l : forall a s, inv owner a s -> propers owner perm s l ->
  exists t s' a', trace owner perm s l = Some (t, s') /\ a_run owner a t a' /\ inv owner a' s' /\
    (stuck s = false -> s_stuck s = None -> (forall sid n, ~ In (OOrder sid n, Rc false) t) ->
     forall o, In (o, Rc false) t -> match o with OApply sid ok | ODiscard sid ok => perm sid && ok = false | _ => False end).
Proof.
  induction l as [|o l IH]; intros a s I P.
  - exists [], s, a. split; [reflexivity|]. split; [constructor|]. split; [exact I|]. intros _ _ _ o [].
  - cbn [propers trace] in *. destruct P as [P PS]. destruct (step_ok owner perm a s o I P) as (s1 & b & a1 & E & A & (FR & FK) & I1). rewrite E in *.
    destruct (IH a1 s1 I1 PS) as (t & s' & a' & T & R & I' & W). rewrite T. exists ((o, b) :: t), s', a'. split; [reflexivity|]. split; [econstructor; eassumption|]. split; [exact I'|].
    intros SK SN NO x X. destruct X as [X|X].
    + injection X as -> ->. specialize (FR eq_refl). destruct x; cbn in FR; try contradiction; try (destruct FR as [FR|FR]; [congruence|exact FR]).
      * apply (NO sid order). left. reflexivity.
      * congruence.
    + assert (K : s_stuck s1 = None). { destruct FK as [FK|(sid & n & -> & ->)]; [congruence|]. exfalso. apply (NO sid n). left. reflexivity. }
      apply (W ltac:(unfold stuck; rewrite K; reflexivity) K); [|exact X]. intros sid n Y. apply (NO sid n). right. exact Y.
Qed.

(** Whatever the sessions do, in any order, with processes that die between the calls or when adding the
    entry of a session: no assert fails, the array is never left and all the results are those of the
    specification, reads in particular return the configuration with the layers of all the sessions. *)
Theorem C31_layers owner perm base l : propers owner perm (init base) l ->
  exists t s a, trace owner perm (init base) l = Some (t, s) /\ a_run owner (a_init base) t a.
Proof.
  intros P. destruct (trace_ok owner perm l (a_init base) (init base) (inv_init owner base) P) as (t & s & a & T & R & _). exists t, s, a. auto.
Qed.

(** Only changes that were refused or unauthorised fail, if nobody asked for an order that is used. *)
Theorem C31_succeed owner perm base l t s : propers owner perm (init base) l -> trace owner perm (init base) l = Some (t, s) ->
  (forall sid n, ~ In (OOrder sid n, Rc false) t) ->
  forall o, In (o, Rc false) t -> exists sid ok, (o = OApply sid ok \/ o = ODiscard sid ok) /\ perm sid && ok = false.
Proof.
  intros P T NO o X. destruct (trace_ok owner perm l (a_init base) (init base) (inv_init owner base) P) as (t' & s' & a & T' & R & _ & W).
  rewrite T in T'. injection T' as <- <-. specialize (W eq_refl eq_refl NO o X). destruct o; try contradiction; eauto.
Qed.

(** ** What is read *)

Lemma ss_unique {A} (f : A -> N) l1 : forall l2, StronglySorted (fun x y => f x < f y) l1 -> StronglySorted (fun x y => f x < f y) l2 ->
  (forall x, In x l1 <-> In x l2) -> l1 = l2.
Proof.
  induction l1 as [|x l1 IH]; intros l2 S1 S2 E.
  - destruct l2 as [|y l2]; [reflexivity|]. destruct (proj2 (E y) (or_introl eq_refl)).
  - destruct l2 as [|y l2]; [destruct (proj1 (E x) (or_introl eq_refl))|]. apply StronglySorted_inv in S1, S2. destruct S1 as [S1 F1], S2 as [S2 F2].
    rewrite Forall_forall in F1, F2. assert (x = y) as ->.
    { destruct (proj1 (E x) (or_introl eq_refl)) as [X|X]; [auto|]. destruct (proj2 (E y) (or_introl eq_refl)) as [Y|Y]; [auto|]. specialize (F1 _ Y). specialize (F2 _ X). lia. }
    f_equal. apply IH; [exact S1|exact S2|]. intros z. split; intros Z.
    + destruct (proj1 (E z) (or_intror Z)) as [X|X]; [|exact X]. subst z. specialize (F1 _ Z). lia.
    + destruct (proj2 (E z) (or_intror Z)) as [X|X]; [|exact X]. subst z. specialize (F2 _ Z). lia.
Qed.

(** What is read is given by the configuration and by the sessions that have data, sessions without
    them (that discarded theirs, stopped or died) have no effect. *)
Theorem C31_others_alone a a' d d' :
  (forall sid o l, a_view a sid = Some (o, Some l) <-> a_view a' sid = Some (o, Some l)) ->
  a_base a = a_base a' -> shown a d -> shown a' d' -> forall p, get p d = get p d'.
Proof.
  intros V B (ls & S & M & G) (ls' & S' & M' & G') p. rewrite G, G', B. assert (ls = ls') as ->; [|reflexivity].
  apply (ss_unique (fun x => fst (snd x))); [exact S|exact S'|]. intros (sid & o & l). rewrite M, M'. apply V.
Qed.

(** After a session discarded its data or stopped, or its connection died, the data read are those of
    the other sessions alone. *)
Definition without (f : N -> bool) (a : abs) : abs := mkabs (fun x => if f x then None else a_view a x) (a_edit a) (a_base a).

Definition leaves (owner : N -> N) (o : op) : option (N -> bool) :=
  match o with
  | ODiscard sid _ | OStop sid _ => Some (N.eqb sid)
  | OCrash c => Some (fun x => owner x =? c)
  | OCrashFill sid _ => Some (fun x => owner x =? owner sid)
  | _ => None
  end.

Theorem C31_removed owner a o a' f d d' : a_step owner a o (Rc true) a' -> leaves owner o = Some f ->
  shown a' d -> shown (without f a) d' -> forall p, get p d = get p d'.
Proof.
  intros S L. assert (H : a_base a' = a_base (without f a) /\ forall x o l, a_view a' x = Some (o, Some l) <-> a_view (without f a) x = Some (o, Some l)).
  { inversion S; subst; try discriminate; try contradiction; cbn [leaves] in L; injection L as <-; cbn [without a_view a_base]; (split; [reflexivity|]); intros x o' l'.
    - unfold updf. rewrite (N.eqb_sym sid x). destruct (x =? sid); [split; discriminate|tauto].
    - destruct (N.eqb_spec sid x) as [<-|]; [|tauto]. match goal with H : data_of _ _ = None |- _ => unfold data_of in H; destruct (a_view a' sid) as [[? []]|]; try discriminate end; split; discriminate.
    - unfold updf. rewrite (N.eqb_sym sid x). destruct (x =? sid); tauto.
    - tauto.
    - tauto. }
  destruct H as [B V]. intros D D'. apply (C31_others_alone a' (without f a)); assumption.
Qed.

(** If only XPaths without predicates are discarded, the session with the highest order that says anything about
    a path decides, the configuration is seen where nobody does. *)
Theorem C31_highest_wins a d p : shown a d -> (forall sid o l, a_view a sid = Some (o, Some l) -> plain l) ->
  (forall sid o l r, a_view a sid = Some (o, Some l) -> says l p = Some r ->
     (forall sid' o' l', a_view a sid' = Some (o', Some l') -> o < o' -> says l' p = None) -> get p d = r) /\
  ((forall sid o l, a_view a sid = Some (o, Some l) -> says l p = None) -> get p d = get p (a_base a)).
Proof.
  intros (ls & S & M & G) PL. assert (PS : plains ls) by (intros [sid [o l]] I; apply M in I; eapply PL; exact I).
  rewrite G. change (fold_left (fun d x => lay (snd (snd x)) d) ls (a_base a)) with (lays ls (a_base a)). rewrite (lays_says ls p PS). split.
  - intros sid o l r V SY H. apply M in V. assert (X : saysl ls p = Some r); [|rewrite X; reflexivity].
    assert (H' : forall x, In x ls -> o < fst (snd x) -> says (snd (snd x)) p = None) by (intros [sid' [o' l']] I L; apply M in I; eapply H; eassumption).
    clear -V SY H' S. induction ls as [|y ls IH]; [destruct V|]. apply StronglySorted_inv in S. destruct S as [S F]. rewrite Forall_forall in F. cbn [saysl]. destruct V as [->|V].
    + cbn [fst snd] in *. assert (N : saysl ls p = None); [|rewrite N; exact SY].
      assert (Q : forall x, In x ls -> says (snd (snd x)) p = None) by (intros x X; apply H'; [right; exact X|apply F, X]). clear -Q.
      induction ls as [|z ls IH]; [reflexivity|]. cbn [saysl]. rewrite IH by (intros x X; apply Q; right; exact X). apply Q. left. reflexivity.
    + rewrite IH; [reflexivity|exact S|exact V|]. intros x X. apply H'. right. exact X.
  - intros H. assert (X : saysl ls p = None); [|rewrite X; reflexivity].
    assert (Q : forall x, In x ls -> says (snd (snd x)) p = None) by (intros [sid [o l]] I; apply M in I; eapply H; exact I). clear -Q.
    induction ls as [|z ls IH]; [reflexivity|]. cbn [saysl]. rewrite IH by (intros x X; apply Q; right; exact X). apply Q. left. reflexivity.
Qed.

Print Assumptions C31_layers.
Print Assumptions C31_succeed.
Print Assumptions C31_others_alone.
Print Assumptions C31_removed.
Print Assumptions C31_highest_wins.

(** ** A case that meets the rules *)

Definition own (x : N) : N := x.
Definition all (_ : N) : bool := true.
Definition L (p v : N) : layer := mklayer [] [(p, v)].

Definition case : list op :=
  [OOrder 2 5; OEdit 1 (PEdit EMerge (L 1 10)); OApply 1 true; OEdit 2 (PEdit EMerge (L 1 20)); OApply 2 true; ORead;
   OEdit 3 (PEdit EReplace (mklayer [(2, None)] [(3, 30)])); OApply 3 true; OOrder 3 1; ORead; OOrder 1 2; ORead; OStop 2 true; ORead; OCrash 1; ORead].


(** The rules as a program. *)
Definition usableb (owner : N -> N) (s : st) (sid : N) : bool := negb (sid =? 0) && negb (mem (owner sid) (s_dead s)) && negb (mem sid (s_gone s)).
Definition fitsb (s : st) : bool := forallb (fun e => e_order e <? two32 - 1) (s_arr s).
Definition noneb (p : pending) : bool := match p with PNone => true | _ => false end.
Definition properb (owner : N -> N) (perm : N -> bool) (s : st) (o : op) : bool :=
  match o with
  | OEdit sid _ | OCrashFill sid _ => usableb owner s sid
  | OApply sid _ => usableb owner s sid && fitsb s && (match pend_of sid s with POther => negb (has_data sid s) | _ => true end)
  | ODiscard sid _ => usableb owner s sid && fitsb s && noneb (pend_of sid s)
  | OOrder sid n => usableb owner s sid && forallb (fun e => negb (e_sid e =? sid) || (n <=? e_order e)) (s_arr s)
  | OStop sid ok => usableb owner s sid && noneb (pend_of sid s) && ok && perm sid && negb (stuck s)
  | OCrash _ | OBase _ => true
  | OCrashAdd _ _ _ => false
  | ORead => forallb (fun e => negb (mem (e_cid e) (s_dead s))) (s_arr s) ||
             forallb (fun x => forallb (fun y => match snd y with None => true | _ => false end) (l_disc (snd x))) (s_files s)
  end.
Fixpoint propersb (owner : N -> N) (perm : N -> bool) (s : st) (l : list op) : bool :=
  match l with
  | [] => true
  | o :: l => properb owner perm s o && match step owner perm s o with Res s' _ => propersb owner perm s' l | _ => true end
  end.

Lemma usableb_ok owner s sid : usableb owner s sid = true -> usable owner s sid.
Proof.
  unfold usableb, usable. rewrite !andb_true_iff, !negb_true_iff, N.eqb_neq. intros [[A B] C]. split; [exact A|]. split; apply mem_out; assumption.
Qed.
Lemma fitsb_ok s : fitsb s = true -> fits s.
Proof. unfold fitsb, fits. rewrite forallb_forall. intros H e E. apply N.ltb_lt, H, E. Qed.
Lemma noneb_ok p : noneb p = true -> p = PNone.
Proof. destruct p; [reflexivity|discriminate|discriminate]. Qed.

Lemma properb_ok owner perm s o : properb owner perm s o = true -> proper owner perm s o.
Proof.
  destruct o; cbn [properb proper]; rewrite ?andb_true_iff.
  - apply usableb_ok.
  - intros [[U F] P]. split; [apply usableb_ok, U|]. split; [apply fitsb_ok, F|]. intros E. rewrite E in P. apply negb_true_iff, P.
  - intros [[U F] P]. split; [apply usableb_ok, U|]. split; [apply fitsb_ok, F|apply noneb_ok, P].
  - intros [U F]. split; [apply usableb_ok, U|]. rewrite forallb_forall in F. intros e E S. specialize (F e E). apply N.eqb_eq in S. rewrite S in F. apply N.leb_le, F.
  - intros [[[[U P] K] PE] SK]. split; [apply usableb_ok, U|]. split; [apply noneb_ok, P|]. split; [exact K|]. split; [exact PE|apply negb_true_iff, SK].
  - intros _. exact I.
  - apply usableb_ok.
  - discriminate.
  - intros _. exact I.
  - rewrite orb_true_iff, !forallb_forall. intros [H|H]; [left|right].
    + intros e E. apply mem_out. apply negb_true_iff, H, E.
    + intros k l E x X. specialize (H _ E). rewrite forallb_forall in H. specialize (H x X). destruct (snd x); [discriminate|reflexivity].
Qed.

Lemma propersb_ok owner perm l : forall s, propersb owner perm s l = true -> propers owner perm s l.
Proof.
  induction l as [|o l IH]; intros s H; [exact I|]. cbn [propersb propers] in *. apply andb_true_iff in H. destruct H as [P H]. split; [apply properb_ok, P|].
  destruct (step owner perm s o); [apply IH, H|exact I|exact I].
Qed.

Example C31_case : propers own all (init [(1, 1); (2, 2)]) case /\
  option_map (fun x => map snd (filter (fun x => match fst x with ORead => true | _ => false end) (fst x))) (trace own all (init [(1, 1); (2, 2)]) case) =
    Some [Read [(1, 10); (2, 2)]; Read [(1, 10); (3, 30)]; Read [(1, 20); (3, 30)]; Read [(1, 10); (3, 30)]; Read [(3, 30); (1, 1)]].
Proof. split; [apply propersb_ok; vm_compute; reflexivity|vm_compute; reflexivity]. Qed.

(** ** What does not hold *)

Definition go (base : data) (l : list op) : res := run own all (init base) l.
Definition got (r : res) : option obs := match r with Res _ b => Some b | _ => None end.
Definition asserts (r : res) : bool := match r with Assert => true | _ => false end.
Definition outside (r : res) : bool := match r with Ub => true | _ => false end.
Definition push (sid : N) (l : layer) : list op := [OEdit sid (PEdit EMerge l); OApply sid true].

(** sr_set_oper_changes_order() that raises the order of a session overwrites the entry of the next
    session (src/shm_ext.c 2994-2998 moves one entry less than it should, and to a place one too high):
    the data of that session disappear although it did nothing. *)
Theorem C31_order_raised_refuted : let h := push 1 (L 1 10) ++ [OOrder 2 5] ++ push 2 (L 2 20) in
  got (go [] (h ++ [ORead])) = Some (Read [(2, 20); (1, 10)]) /\
  got (go [] (h ++ [OOrder 1 3])) = Some (Rc true) /\
  got (go [] (h ++ [OOrder 1 3; ORead])) = Some (Read [(1, 10)]).
Proof. vm_compute. auto. Qed.

(** If the session is the last one, raising its order writes behind the end of the array in the
    external SHM: two calls of sr_set_oper_changes_order() are enough. *)
Theorem C31_order_raised_last_refuted : outside (go [] [OOrder 1 5; OOrder 1 7]) = true.
Proof. vm_compute. reflexivity. Qed.

(** After the order is raised over another session, an entry is in the array twice and the next read
    of any client fails on the assert in src/modinfo.c 1310. *)
Theorem C31_order_raised_read_refuted :
  let h := [OOrder 1 1; OOrder 2 5; OOrder 3 9] ++ push 1 (L 1 10) ++ push 2 (L 2 20) ++ push 3 (L 3 30) ++ [OOrder 1 7] in
  got (go [] h) = Some (Rc true) /\ asserts (go [] (h ++ [ORead])) = true.
Proof. vm_compute. auto. Qed.

(** sr_set_oper_changes_order() with an order that is used fails and keeps EXT WRITE LOCK
    (src/shm_ext.c 2962-2964 does not unlock it): nobody can read or change anything until that process ends. *)
Theorem C31_order_used_refuted : let h := push 1 (L 1 10) ++ [OOrder 2 1] in
  got (go [] h) = Some (Rc false) /\ got (go [] (h ++ [ORead])) = Some (Rc false) /\ got (go [] (h ++ push 3 (L 1 30))) = Some (Rc false) /\
  got (go [] (h ++ [OCrash 2; ORead])) = Some (Read [(1, 10)]).
Proof. vm_compute. auto. Qed.

(** A session has the highest order that can be set: the order of the next session that pushes data
    wraps to 0 and the next read fails on an assert. *)
Theorem C31_order_wraps_refuted : let h := [OOrder 1 (two32 - 1)] ++ push 1 (L 1 10) ++ push 2 (L 2 20) in
  got (go [] h) = Some (Rc true) /\ asserts (go [] (h ++ [ORead])) = true.
Proof. vm_compute. auto. Qed.

(** A reader that finds data of a dead connection starts again with the data merged so far
    (src/modinfo.c 1292-1303), the layers below are put on twice: discarding of an XPath with a
    predicate can see the data of its own layer.  The next read returns something else. *)
Theorem C31_dead_twice_refuted :
  let h := push 1 (mklayer [(1, Some (2, 6))] [(2, 6)]) ++ push 2 (L 3 30) ++ [OCrash 2] in
  got (go [(1, 1); (2, 5)] (h ++ [ORead])) = Some (Read [(2, 6)]) /\
  got (go [(1, 1); (2, 5)] (h ++ [ORead; ORead])) = Some (Read [(2, 6); (1, 1)]).
Proof. vm_compute. auto. Qed.

(** It also lets the lock of the module go meanwhile (src/shm_mod.c 936-949): the data it returns mix
    those before and after a change of another session, they were never there together. *)
Theorem C31_dead_race_refuted :
  match go [] (push 1 (L 1 10) ++ push 2 (L 2 20) ++ [OCrash 2]) with
  | Res s _ => got (read_race own all s [OEdit 1 (PEdit EReplace (L 3 30)); OApply 1 true]) = Some (Read [(3, 30); (1, 10)])
  | _ => False
  end.
Proof. vm_compute. reflexivity. Qed.

(** sr_discard_oper_changes() of a session with changes that were not applied yet applies those instead
    of discarding the pushed data (src/sysrepo.c 4623-4683 uses the edit of the session). *)
Theorem C31_discard_applies_refuted : let h := push 1 (L 1 10) ++ [OEdit 1 (PEdit EMerge (L 2 20)); ODiscard 1 true] in
  got (go [] h) = Some (Rc true) /\ got (go [] (h ++ [ORead])) = Some (Read [(1, 10); (2, 20)]).
Proof. vm_compute. auto. Qed.

(** Stopping of a session that pushed data and has changes that were not applied fails on the assert in
    src/modinfo.c 3901. *)
Theorem C31_stop_pending_refuted : asserts (go [] (push 1 (L 1 10) ++ [OEdit 1 (PEdit EMerge (L 2 20)); OStop 1 true])) = true.
Proof. vm_compute. reflexivity. Qed.

(** Applying changes of another module, if the session has data of this one, fails on the assert in src/edit_diff.c 2423. *)
Theorem C31_other_module_refuted : asserts (go [] (push 1 (L 1 10) ++ [OEdit 1 POther; OApply 1 true])) = true.
Proof. vm_compute. reflexivity. Qed.

(** If a subscriber refuses the removal, the data of a stopped session stay (src/sysrepo.c 725-728
    ignores the result) until its connection ends. *)
Theorem C31_stop_refused_refuted : got (go [] (push 1 (L 1 10) ++ [OStop 1 false; ORead])) = Some (Read [(1, 10)]).
Proof. vm_compute. reflexivity. Qed.

(** The order of a stopped session that discarded its data before, or never had any, stays used. *)
Theorem C31_stopped_order_refuted : got (go [] [OOrder 1 5; OStop 1 true; OOrder 2 5]) = Some (Rc false).
Proof. vm_compute. reflexivity. Qed.

(** The order of a session whose process died stays used until somebody reads the data. *)
Theorem C31_dead_order_refuted : got (go [] (push 1 (L 1 10) ++ [OCrash 1; OOrder 2 1])) = Some (Rc false) /\
  got (go [] (push 1 (L 1 10) ++ [OCrash 1; ORead; OOrder 2 1])) = Some (Rc true).
Proof. vm_compute. auto. Qed.

(** A process that dies between the move of the entries and the filling of the new one
    (src/shm_ext.c 2972-2981) leaves the next entry twice: reading by others fails on an assert. *)
Theorem C31_crash_adding_refuted : let h := [OOrder 1 5] ++ push 1 (L 1 10) ++ [OCrashAdd 2 3 (mkentry 0 0 0 false)] in
  asserts (go [] (h ++ [ORead])) = true.
Proof. vm_compute. reflexivity. Qed.

(** Pushed discarding of data of the configuration is stored without the permission to write the
    module: the comparison is of pushed data only, it finds no difference and the check is skipped
    (src/sysrepo.c 4053-4057). *)
Theorem C31_discard_permission_refuted :
  got (run own (fun _ => false) (init [(1, 1)]) (push 1 (mklayer [(1, None)] []) ++ [ORead])) = Some (Read []) /\
  got (run own (fun _ => false) (init [(1, 1)]) (push 1 (L 1 2))) = Some (Rc false).
Proof. vm_compute. auto. Qed.
