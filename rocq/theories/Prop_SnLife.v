(** C49: subscriptions can be used and terminated by several threads. *)

From Coq Require Import List Arith Bool Lia Permutation.
Import ListNotations.
From Verif Require Import SnLife.

(** ** What is assumed of the threads *)

Definition fresh (t : thread) : Prop :=
  match t with User _ _ U0 | Term _ T0 | Stop _ S0 => True | _ => False end.
Definition is_stop (t : thread) : Prop := match t with Stop _ _ => True | _ => False end.
(** No subscription is used by one thread and terminated by another. *)
Definition separate (ts : list thread) : Prop :=
  forall id op u t, In (User id op u) ts -> In (Term id t) ts -> False.

Definition finished (t : thread) : Prop :=
  match t with User _ _ (UDone _) | Term _ (TDone _) | Stop _ SDone => True | _ => False end.

(** ** Lists *)

Lemma set_nth_same {A} (l : list A) : forall n a b, nth_error l n = Some b -> nth_error (set_nth n a l) n = Some a.
Proof. induction l as [|x l IH]; intros [|n] a b H; cbn [nth_error set_nth] in *; try discriminate; eauto. Qed.

Lemma set_nth_other {A} (l : list A) : forall n m a, n <> m -> nth_error (set_nth n a l) m = nth_error l m.
Proof.
  induction l as [|x l IH]; intros [|n] [|m] a H; cbn [nth_error set_nth] in *; try congruence; auto.
Qed.

Lemma set_nth_len {A} (l : list A) : forall n a, length (set_nth n a l) = length l.
Proof. induction l as [|x l IH]; intros [|n] a; cbn [set_nth length]; auto. Qed.

Lemma set_nth_mid {A} (l1 : list A) : forall x l2 a, set_nth (length l1) a (l1 ++ x :: l2) = l1 ++ a :: l2.
Proof. induction l1 as [|y l1 IH]; intros; cbn [length app set_nth]; [reflexivity|]. rewrite IH. reflexivity. Qed.

Lemma nth_set_nth {A} (l : list A) : forall n m a d, n < length l ->
  nth m (set_nth n a l) d = if Nat.eqb m n then a else nth m l d.
Proof.
  induction l as [|x l IH]; intros [|n] [|m] a d H; cbn [length set_nth nth Nat.eqb] in *; try lia; auto.
  apply IH. lia.
Qed.

Lemma index_of_spec p l :
  (index_of p l = length l /\ ~ In p (map snd l)) \/
  exists l1 x l2, l = l1 ++ x :: l2 /\ snd x = p /\ index_of p l = length l1.
Proof.
  induction l as [|[i q] l IH]; cbn [index_of length map snd].
  - left. split; [reflexivity|]. intros [].
  - destruct (Nat.eqb_spec q p) as [-> | Hne].
    + right. exists [], (i, p), l. auto.
    + destruct IH as [(E & N) | (l1 & x & l2 & -> & Hx & E)].
      * left. split; [congruence|]. intros [A | A]; auto.
      * right. exists ((i, q) :: l1), x, l2. split; [reflexivity|]. split; [exact Hx|]. cbn [length]. congruence.
Qed.

Lemma remove_sub_perm p l : In p (map snd l) ->
  exists x, snd x = p /\ Permutation l (x :: remove_sub p l).
Proof.
  intro Hin. destruct (index_of_spec p l) as [(_ & N) | (l1 & x & l2 & -> & Hx & E)]; [contradiction|].
  exists x. split; [exact Hx|]. unfold remove_sub. rewrite E. rewrite app_length. cbn [length].
  destruct (Nat.eqb_spec (length l1) (length l1 + Datatypes.S (length l2))) as [A|_]; [lia|].
  destruct (Nat.ltb_spec (length l1) (length l1 + Datatypes.S (length l2) - 1)) as [A|A].
  - destruct l2 as [|z l2'] eqn:E2; [cbn [length] in A; lia|].
    assert (Hne : l2 <> []) by (rewrite E2; discriminate). rewrite <- E2 in *. clear A.
    destruct (exists_last Hne) as (l3 & y & Hl3). rewrite Hl3.
    assert (Hlast : last (l1 ++ x :: l3 ++ [y]) (0, 0) = y).
    { replace (l1 ++ x :: l3 ++ [y]) with ((l1 ++ x :: l3) ++ [y]) by (rewrite <- app_assoc; reflexivity).
      apply last_last. }
    rewrite Hlast, set_nth_mid.
    replace (l1 ++ y :: l3 ++ [y]) with ((l1 ++ y :: l3) ++ [y]) by (rewrite <- app_assoc; reflexivity).
    rewrite removelast_last.
    etransitivity; [symmetry; apply Permutation_middle|]. apply perm_skip.
    etransitivity; [|apply Permutation_middle].
    rewrite app_assoc. etransitivity; [apply Permutation_app_comm|]. reflexivity.
  - destruct l2 as [|z l2]; [|cbn [length] in A; lia].
    rewrite removelast_last. symmetry. apply Permutation_cons_append.
Qed.

Lemma remove_sub_none p l : ~ In p (map snd l) -> remove_sub p l = l.
Proof.
  intro N. destruct (index_of_spec p l) as [(E & _) | (l1 & x & l2 & -> & Hx & E)].
  - unfold remove_sub. rewrite E, Nat.eqb_refl. reflexivity.
  - exfalso. apply N. rewrite map_app. apply in_or_app. right. left. exact Hx.
Qed.

Lemma remove_sub_in p l x : NoDup (map snd l) ->
  In x (remove_sub p l) <-> In x l /\ snd x <> p.
Proof.
  intro ND. destruct (in_dec Nat.eq_dec p (map snd l)) as [Hin | Hn].
  - destruct (remove_sub_perm p l Hin) as (y & Hy & P).
    assert (ND' : NoDup (map snd (y :: remove_sub p l))) by (eapply Permutation_NoDup; [apply Permutation_map; exact P|exact ND]).
    cbn [map] in ND'. apply NoDup_cons_iff in ND'. destruct ND' as [N1 N2].
    split.
    + intro H. split; [apply (Permutation_in _ (Permutation_sym P)); right; exact H|].
      intro A. apply N1. rewrite Hy. rewrite <- A at 1. apply in_map. exact H.
    + intros [H A]. apply (Permutation_in _ P) in H. destruct H as [<- | H]; [contradiction|exact H].
  - rewrite remove_sub_none by exact Hn. split; [|tauto]. intro H. split; [exact H|].
    intros <-. apply Hn. apply in_map. exact H.
Qed.

Lemma remove_sub_nodup {B} (f : nat * nat -> B) p l : NoDup (map f l) -> NoDup (map f (remove_sub p l)).
Proof.
  intro ND. destruct (in_dec Nat.eq_dec p (map snd l)) as [Hin | Hn].
  - destruct (remove_sub_perm p l Hin) as (y & Hy & P).
    assert (ND' : NoDup (map f (y :: remove_sub p l))) by (eapply Permutation_NoDup; [apply Permutation_map; exact P|exact ND]).
    cbn [map] in ND'. apply NoDup_cons_iff in ND'. tauto.
  - rewrite remove_sub_none by exact Hn. exact ND.
Qed.

Lemma find_sub_some id l p : find_sub id l = Some p -> In (id, p) l.
Proof.
  induction l as [|[i q] l IH]; cbn [find_sub]; [discriminate|].
  destruct (Nat.eqb_spec i id) as [-> | _]; [injection 1 as <-; left; reflexivity|]. intro H. right. auto.
Qed.

Lemma find_sub_none id l : find_sub id l = None <-> ~ In id (map fst l).
Proof.
  induction l as [|[i q] l IH]; cbn [find_sub map fst In]; [tauto|].
  destruct (Nat.eqb_spec i id) as [-> | Hne]; [split; [discriminate|tauto]|]. rewrite IH. tauto.
Qed.

Lemma pair_fst (l : list (nat * nat)) i p q : NoDup (map fst l) -> In (i, p) l -> In (i, q) l -> p = q.
Proof.
  induction l as [|[a b] l IH]; cbn [map fst]; intros ND H1 H2; [destruct H1|].
  apply NoDup_cons_iff in ND. destruct ND as [N ND]. destruct H1 as [E1 | H1], H2 as [E2 | H2].
  - congruence.
  - exfalso. apply N. assert (a = i) by congruence. subst a. apply (in_map fst) in H2. exact H2.
  - exfalso. apply N. assert (a = i) by congruence. subst a. apply (in_map fst) in H1. exact H1.
  - auto.
Qed.

Lemma pair_snd (l : list (nat * nat)) i j p : NoDup (map snd l) -> In (i, p) l -> In (j, p) l -> i = j.
Proof.
  induction l as [|[a b] l IH]; cbn [map snd]; intros ND H1 H2; [destruct H1|].
  apply NoDup_cons_iff in ND. destruct ND as [N ND]. destruct H1 as [E1 | H1], H2 as [E2 | H2].
  - congruence.
  - exfalso. apply N. assert (b = p) by congruence. subst b. apply (in_map snd) in H2. exact H2.
  - exfalso. apply N. assert (b = p) by congruence. subst b. apply (in_map snd) in H1. exact H1.
  - auto.
Qed.

(** ** The array, in any execution *)

Record ainv (c : cfg) : Prop := AInv {
  a_ids : NoDup (map fst (arr c));
  a_ptrs : NoDup (map snd (arr c));
  a_lt : forall id p, In (id, p) (arr c) -> p < length (objs c);
  a_next : forall id p, In (id, p) (arr c) -> id < next_id c }.

(** What an event does to the array, the memory size and IDs. *)
Lemma event_arr c e c' : do_event c e = Some (Ok c') ->
  (arr c' = arr c /\ length (objs c') = length (objs c) /\ next_id c' = next_id c) \/
  ((exists p, arr c' = remove_sub p (arr c)) /\ length (objs c') = length (objs c) /\ next_id c' = next_id c) \/
  (arr c' = arr c ++ [(next_id c, length (objs c))] /\ length (objs c') = Datatypes.S (length (objs c)) /\
   next_id c' = Datatypes.S (next_id c)).
Proof.
  destruct e as [i ch|]; cbn [do_event].
  - unfold step. destruct (nth_error (ths c) i) as [[id op [|p|f]|id [|p|p|p|p|rc]|p []]|]; try discriminate;
      repeat match goal with
             | |- context [match ?x with _ => _ end = Some (Ok _)] => destruct x; try discriminate
             end;
      intro H;
      match type of H with Some (Ok ?x) = _ => assert (c' = x) by congruence; subst c' end;
      unfold free_sub, with_th, with_lock, with_st, with_cancel; cbn [arr objs next_id lock ths];
      rewrite ?set_nth_len; auto; right; left; eauto.
  - unfold add. destruct (lock c); [discriminate|]. intro H.
    match type of H with Some (Ok ?x) = _ => assert (c' = x) by congruence; subst c' end.
    right. right. cbn [arr objs next_id]. rewrite app_length. cbn [length]. split; [reflexivity|]. split; [lia|reflexivity].
Qed.

Lemma event_ainv c e c' : ainv c -> do_event c e = Some (Ok c') -> ainv c'.
Proof.
  intros [A B C D] H. destruct (event_arr c e c' H) as [(E1 & E2 & E3) | [((p & E1) & E2 & E3) | (E1 & E2 & E3)]].
  - constructor; rewrite ?E1, ?E2, ?E3; assumption.
  - constructor; rewrite ?E1, ?E2, ?E3; try (apply remove_sub_nodup; assumption);
      intros id q Hq; apply remove_sub_in in Hq; try assumption; destruct Hq as [Hq _]; eauto.
  - constructor; rewrite ?E1, ?E2, ?E3.
    + rewrite map_app. cbn [map fst].
      apply (Permutation_NoDup (l := next_id c :: map fst (arr c))); [apply Permutation_cons_append|].
      constructor; [|exact A]. intro H1. apply in_map_iff in H1. destruct H1 as ([i q] & Hi & Hq).
      cbn [fst] in Hi. apply D in Hq. lia.
    + rewrite map_app. cbn [map snd].
      apply (Permutation_NoDup (l := length (objs c) :: map snd (arr c))); [apply Permutation_cons_append|].
      constructor; [|exact B]. intro H1. apply in_map_iff in H1. destruct H1 as ([i q] & Hi & Hq).
      cbn [snd] in Hi. apply C in Hq. lia.
    + intros id q Hq. apply in_app_or in Hq. destruct Hq as [Hq | [Hq | []]]; [apply C in Hq; lia|].
      injection Hq as _ <-. lia.
    + intros id q Hq. apply in_app_or in Hq. destruct Hq as [Hq | [Hq | []]]; [apply D in Hq; lia|].
      injection Hq as <- _. lia.
Qed.

Lemma run_ainv l : forall c c', ainv c -> run c l = Some (Ok c') -> ainv c'.
Proof.
  induction l as [|e l IH]; intros c c' A H; cbn [run] in H.
  - assert (c' = c) by congruence. subst c'. exact A.
  - destruct (do_event c e) as [[c1|]|] eqn:E; try discriminate.
    apply (IH c1 c'); [eapply event_ainv; eauto|exact H].
Qed.

Lemma init_ainv ts : ainv (init ts).
Proof.
  constructor; cbn [init arr map]; [apply NoDup_nil|apply NoDup_nil| |]; intros id p [].
Qed.

(** A function called with the ID of a subscription finds that subscription if it was added
    and not removed, nothing otherwise, in all executions; a step adds or
    removes at most one and has no effect on others. *)
Theorem C49_found : forall ts l c e c',
  run (init ts) l = Some (Ok c) -> do_event c e = Some (Ok c') ->
  (forall id, find_sub id (arr c) <> None <-> In id (map fst (arr c))) /\
  ((e = Add /\ forall x, In x (arr c') <-> In x (arr c) \/ x = (next_id c, length (objs c))) \/
   (e <> Add /\ exists gone, length gone <= 1 /\
      forall x, In x (arr c') <-> In x (arr c) /\ ~ In (snd x) gone)).
Proof.
  intros ts l c e c' Hr He. pose proof (run_ainv l _ _ (init_ainv ts) Hr) as A.
  split.
  - intro id. split.
    + intro H. destruct (in_dec Nat.eq_dec id (map fst (arr c))) as [|N]; [assumption|].
      apply find_sub_none in N. contradiction.
    + intros H E. apply find_sub_none in E. contradiction.
  - destruct e as [i ch|].
    + right. split; [discriminate|].
      destruct (event_arr c _ c' He) as [(E1 & _ & _) | [((p & E1) & _ & _) | (E1 & E2 & E3)]].
      * exists []. split; [auto|]. rewrite E1. intro x. cbn [In]. tauto.
      * exists [p]. split; [auto|]. rewrite E1. intro x. rewrite remove_sub_in by apply A. cbn [In]. split; [intros [H N]|intros [H N]]; split; auto.
        intros [Hp | []]. congruence.
      * exfalso. cbn [do_event] in He.
        assert (Hn : next_id c' = next_id c).
        { revert He. unfold step. clear. destruct (nth_error (ths c) i) as [[id op [|p|f]|id [|p|p|p|p|rc]|p []]|]; try discriminate;
            repeat match goal with
                   | |- context [match ?x with _ => _ end = Some (Ok _)] => destruct x; try discriminate
                   end;
            intro H; injection H as <-; reflexivity. }
        lia.
    + left. split; [reflexivity|]. cbn [do_event] in He. unfold add in He. destruct (lock c); [discriminate|].
      injection He as <-. cbn [arr]. intro x. rewrite in_app_iff. cbn [In]. intuition congruence.
Qed.
Print Assumptions C49_found.

(** Once gone, a subscription is never found again. *)
Theorem C49_gone : forall ts l c id l' c',
  run (init ts) l = Some (Ok c) -> id < next_id c -> find_sub id (arr c) = None ->
  run c l' = Some (Ok c') -> find_sub id (arr c') = None.
Proof.
  intros ts l c id l' c' Hr Hid Hf. pose proof (run_ainv l _ _ (init_ainv ts) Hr) as A. clear Hr.
  revert c A Hid Hf. induction l' as [|e l' IH]; intros c A Hid Hf H; cbn [run] in H.
  - assert (c' = c) by congruence. subst c'. exact Hf.
  - destruct (do_event c e) as [[c1|]|] eqn:E; try discriminate.
    assert (A1 : ainv c1) by (eapply event_ainv; eauto).
    apply (IH c1 A1); auto;
      destruct (event_arr c e c1 E) as [(E1 & _ & E3) | [((p & E1) & _ & E3) | (E1 & _ & E3)]];
      rewrite ?E3; try lia; apply find_sub_none; apply find_sub_none in Hf; rewrite E1; auto.
    + intro H1. apply Hf. apply in_map_iff in H1. destruct H1 as (x & Hx & Hin).
      apply remove_sub_in in Hin; [|apply A]. rewrite <- Hx. apply in_map. tauto.
    + rewrite map_app. intro H1. apply in_app_or in H1. cbn [map fst In] in H1. destruct H1 as [H1 | [H1 | []]]; [auto|lia].
Qed.
Print Assumptions C49_gone.

(** ** Safety *)

Definition holds (pc : tpc) (p : nat) : Prop :=
  pc = T1 p \/ pc = T2 p \/ pc = T3 p \/ pc = T4 p.

Record inv (c : cfg) : Prop := Inv {
  i_a : ainv c;
  i_nostop : forall t, In t (ths c) -> ~ is_stop t;
  i_sep : separate (ths c);
  i_u1 : forall id op p, In (User id op (U1 p)) (ths c) -> In (id, p) (arr c);
  i_st : forall id p, In (id, p) (arr c) ->
           st (obj c p) = Alive \/
           ((st (obj c p) = Unsub \/ st (obj c p) = Busy) /\ exists pc, In (Term id pc) (ths c));
  i_hold : forall i id pc p, nth_error (ths c) i = Some (Term id pc) -> holds pc p ->
           lock c = Some i /\ In (id, p) (arr c) /\ st (obj c p) <> Freed;
  i_busy : forall p, p < length (objs c) -> st (obj c p) = Busy ->
           exists i id, lock c = Some i /\ nth_error (ths c) i = Some (Term id (T2 p));
  i_lock : forall i, lock c = Some i ->
           exists id pc p, nth_error (ths c) i = Some (Term id pc) /\ holds pc p }.

Lemma in_set_nth {A} (l : list A) n a x : In x (set_nth n a l) -> x = a \/ In x l.
Proof.
  revert n. induction l as [|y l IH]; intros [|n]; cbn [set_nth In]; auto.
  - intros [<- | H]; auto.
  - intros [<- | H]; [auto|]. destruct (IH _ H); auto.
Qed.

(** Changing a thread to one for the same subscription. *)
Definition same (t t' : thread) : Prop :=
  match t, t' with
  | User id _ _, User id' _ _ => id = id'
  | Term id _, Term id' _ => id = id'
  | _, _ => False
  end.

Lemma set_kinds ts i t t' : nth_error ts i = Some t -> same t t' ->
  (forall id op u, In (User id op u) (set_nth i t' ts) -> exists op' u', In (User id op' u') ts) /\
  (forall id pc, In (Term id pc) (set_nth i t' ts) -> exists pc', In (Term id pc') ts) /\
  (forall id pc, In (Term id pc) ts -> exists pc', In (Term id pc') (set_nth i t' ts)) /\
  ((forall x, In x ts -> ~ is_stop x) -> forall x, In x (set_nth i t' ts) -> ~ is_stop x).
Proof.
  intros Hn Hs. pose proof (nth_error_In _ _ Hn) as Hin. repeat split.
  - intros id op u H. apply in_set_nth in H. destruct H as [<- | H]; [|eauto].
    destruct t as [id' op' u'| |]; try contradiction. cbn [same] in Hs. subst id'. eauto.
  - intros id pc H. apply in_set_nth in H. destruct H as [<- | H]; [|eauto].
    destruct t as [|id' pc'|]; try contradiction. cbn [same] in Hs. subst id'. eauto.
  - intros id pc H. apply In_nth_error in H. destruct H as (j & Hj).
    destruct (Nat.eq_dec i j) as [<- | Hne].
    + assert (t = Term id pc) by congruence. subst t. destruct t' as [|id' pc'|]; try contradiction.
      cbn [same] in Hs. subst id'. exists pc'. eapply nth_error_In, set_nth_same. eassumption.
    + exists pc. apply (nth_error_In _ j). rewrite set_nth_other by exact Hne. exact Hj.
  - intros Hx x H A. apply in_set_nth in H. destruct H as [-> | H]; [|exact (Hx x H A)].
    destruct t, t'; contradiction.
Qed.

Lemma set_sep ts i t t' : nth_error ts i = Some t -> same t t' -> separate ts -> separate (set_nth i t' ts).
Proof.
  intros Hn Hs Hsep id op u pc H1 H2. destruct (set_kinds ts i t t' Hn Hs) as (K1 & K2 & _ & _).
  destruct (K1 _ _ _ H1) as (op' & u' & H1'). destruct (K2 _ _ H2) as (pc' & H2'). eapply Hsep; eauto.
Qed.

(** The thread [i] changed, nothing else, and it holds nothing before and after. *)
Lemma inv_thread c i t t' : inv c -> nth_error (ths c) i = Some t -> same t t' ->
  (forall id pc p, t = Term id pc -> ~ holds pc p) -> (forall id pc p, t' = Term id pc -> ~ holds pc p) ->
  (forall id op p, t' = User id op (U1 p) -> In (id, p) (arr c)) ->
  inv (with_th c i t').
Proof.
  intros I Hn Hs Hh Hh' Hu. destruct I as [A N S U1' ST H B L].
  destruct (set_kinds (ths c) i t t' Hn Hs) as (K1 & K2 & K3 & K4).
  constructor; unfold with_th; cbn [arr objs lock ths next_id].
  - destruct A; constructor; cbn [arr objs next_id]; assumption.
  - auto.
  - eapply set_sep; eauto.
  - intros id op p Hp. apply in_set_nth in Hp. destruct Hp as [Hp | Hp]; [eauto|eapply U1'; eauto].
  - intros id p Hp. destruct (ST id p Hp) as [H1 | (H1 & pc & H2)]; [left; exact H1|].
    right. split; [exact H1|]. eapply K3; eauto.
  - intros j id pc p Hj Hp. destruct (Nat.eq_dec i j) as [<- | Hne].
    + rewrite (set_nth_same _ _ _ _ Hn) in Hj. injection Hj as Hj. exfalso. eapply Hh'; eauto.
    + rewrite set_nth_other in Hj by exact Hne. eapply H; eauto.
  - intros p Hl Hb. destruct (B p Hl Hb) as (j & id & Hj & Hjt). exists j, id. split; [exact Hj|].
    destruct (Nat.eq_dec i j) as [<- | Hne].
    + exfalso. apply (Hh id (T2 p) p); [congruence|]. right; left; reflexivity.
    + rewrite set_nth_other by exact Hne. exact Hjt.
  - intros j Hj. destruct (L j Hj) as (id & pc & p & Hjt & Hp). exists id, pc, p. split; [|exact Hp].
    destruct (Nat.eq_dec i j) as [<- | Hne].
    + exfalso. apply (Hh id pc p); [congruence|]. exact Hp.
    + rewrite set_nth_other by exact Hne. exact Hjt.
Qed.

(** The holder [i] of the lock works on its subscription [p]: what changes is its state,
    that of the object, and perhaps the lock is released and the object removed. *)
Lemma holder_inv c i id pc p t' lk' objs' arr' :
  inv c -> nth_error (ths c) i = Some (Term id pc) -> holds pc p ->
  length objs' = length (objs c) ->
  (forall q, q <> p -> nth q objs' (Obj Freed true) = obj c q) ->
  (* still held *)
  ((lk' = Some i /\ arr' = arr c /\ exists pc', t' = Term id pc' /\ holds pc' p /\
      (st (nth p objs' (Obj Freed true)) = Alive \/ st (nth p objs' (Obj Freed true)) = Unsub \/
       (st (nth p objs' (Obj Freed true)) = Busy /\ pc' = T2 p))) \/
  (* released *)
   (lk' = None /\ arr' = arr c /\ (exists r, t' = Term id (TDone r)) /\
      (st (nth p objs' (Obj Freed true)) = Alive \/ st (nth p objs' (Obj Freed true)) = Unsub)) \/
  (* freed *)
   (lk' = None /\ arr' = remove_sub p (arr c) /\ (exists r, t' = Term id (TDone r)) /\
      st (nth p objs' (Obj Freed true)) = Freed)) ->
  inv (Cfg arr' lk' objs' (set_nth i t' (ths c)) (next_id c)).
Proof.
  intros I Hn Hh Hlen Hq Hcase. pose proof I as [A N S U1' ST H B L].
  destruct (H _ _ _ _ Hn Hh) as (Hlk & Hin & Hnf).
  assert (Hs : same (Term id pc) t') by (destruct Hcase as [(_ & _ & pc' & -> & _) | [(_ & _ & (r & ->) & _) | (_ & _ & (r & ->) & _)]]; reflexivity).
  destruct (set_kinds (ths c) i (Term id pc) t' Hn Hs) as (K1 & K2 & K3 & K4).
  assert (Hone : forall j id' pc' q, nth_error (ths c) j = Some (Term id' pc') -> holds pc' q -> j = i)
    by (intros j id' pc' q Hj Hq'; destruct (H _ _ _ _ Hj Hq') as (E & _); congruence).
  assert (Hsub : forall x, In x arr' -> In x (arr c)).
  { destruct Hcase as [(_ & -> & _) | [(_ & -> & _) | (_ & -> & _)]]; auto.
    intros x Hx. apply remove_sub_in in Hx; [tauto|apply A]. }
  assert (Hkeep : forall x, In x (arr c) -> snd x <> p -> In x arr').
  { destruct Hcase as [(_ & -> & _) | [(_ & -> & _) | (_ & -> & _)]]; auto.
    intros x Hx Hne. apply remove_sub_in; [apply A|auto]. }
  assert (Hp : p < length (objs c)) by (apply (a_lt _ A id p Hin)).
  constructor; cbn [arr objs lock ths next_id].
  - destruct A as [A1 A2 A3 A4]. constructor; cbn [arr objs next_id]; eauto.
    + destruct Hcase as [(_ & -> & _) | [(_ & -> & _) | (_ & -> & _)]]; auto. apply remove_sub_nodup. exact A1.
    + destruct Hcase as [(_ & -> & _) | [(_ & -> & _) | (_ & -> & _)]]; auto. apply remove_sub_nodup. exact A2.
    + intros id' q Hq'. rewrite Hlen. eauto.
  - auto.
  - eapply set_sep; eauto.
  - intros id' op q Hu. apply in_set_nth in Hu. destruct Hu as [Hu | Hu].
    { destruct t'; cbn [same] in Hs; [contradiction|discriminate Hu|contradiction]. }
    pose proof (U1' _ _ _ Hu) as Hq'. apply Hkeep; [exact Hq'|]. cbn [snd]. intros ->.
    assert (id' = id) by (eapply pair_snd; [apply A|exact Hq'|exact Hin]). subst id'.
    eapply S; [exact Hu|]. eapply nth_error_In; exact Hn.
  - intros id' q Hq'. pose proof (Hsub _ Hq') as Hq''. unfold obj. cbn [objs].
    destruct (Nat.eq_dec q p) as [-> | Hne].
    + assert (id' = id) by (eapply pair_snd; [apply A|exact Hq''|exact Hin]). subst id'.
      assert (Ht : exists pc', In (Term id pc') (set_nth i t' (ths c))) by (eapply K3; eapply nth_error_In; exact Hn).
      destruct Hcase as [(_ & _ & pc' & _ & _ & Hst) | [(_ & _ & _ & Hst) | (_ & -> & _ & Hst)]].
      * destruct Hst as [-> | [-> | (-> & _)]]; [left; reflexivity|right; auto|right; auto].
      * destruct Hst as [-> | ->]; [left; reflexivity|right; auto].
      * exfalso. apply remove_sub_in in Hq'; [|apply A]. destruct Hq' as [_ Hq']. cbn [snd] in Hq'. congruence.
    + rewrite Hq by exact Hne. destruct (ST id' q Hq'') as [H1 | (H1 & pc' & H2)]; [left; exact H1|].
      right. split; [exact H1|]. eapply K3; eauto.
  - intros j id' pc' q Hj Hq'. unfold obj. cbn [objs]. destruct (Nat.eq_dec i j) as [<- | Hne].
    + rewrite (set_nth_same _ _ _ _ Hn) in Hj. injection Hj as ->.
      destruct Hcase as [(-> & -> & pc'' & E & Hh' & Hst) | [(_ & _ & (r & E) & _) | (_ & _ & (r & E) & _)]].
      * injection E as -> ->.
        assert (q = p) by (unfold holds in Hq', Hh'; intuition congruence). subst q.
        split; [reflexivity|]. split; [exact Hin|]. destruct Hst as [-> | [-> | (-> & _)]]; discriminate.
      * injection E as -> ->. unfold holds in Hq'. intuition discriminate.
      * injection E as -> ->. unfold holds in Hq'. intuition discriminate.
    + rewrite set_nth_other in Hj by exact Hne. exfalso. apply Hne. symmetry. eapply Hone; eauto.
  - intros q Hlq Hb. unfold obj in Hb. cbn [objs] in Hb. destruct (Nat.eq_dec q p) as [-> | Hne].
    + destruct Hcase as [(-> & _ & pc'' & -> & _ & Hst) | [(_ & _ & _ & Hst) | (_ & _ & _ & Hst)]].
      * destruct Hst as [E | [E | (_ & ->)]]; try congruence.
        exists i, id. split; [reflexivity|]. eapply set_nth_same; eauto.
      * destruct Hst; congruence.
      * congruence.
    + rewrite Hq in Hb by exact Hne. rewrite Hlen in Hlq. destruct (B q Hlq Hb) as (j & id' & Hj & Hjt).
      assert (j = i) by congruence. subst j.
      exfalso. apply Hne. assert (pc = T2 q) by congruence. subst pc. unfold holds in Hh. intuition congruence.
  - intros j Hj. destruct Hcase as [(-> & _ & pc'' & -> & Hh' & _) | [(-> & _) | (-> & _)]]; try discriminate.
    assert (j = i) by congruence. subst j. exists id, pc'', p. split; [|exact Hh']. eapply set_nth_same; eauto.
Qed.

Lemma obj_set c p o q : p < length (objs c) ->
  nth q (set_nth p o (objs c)) (Obj Freed true) = if Nat.eqb q p then o else obj c q.
Proof. intro H. apply nth_set_nth. exact H. Qed.

Lemma event_inv c e o : inv c -> do_event c e = Some o -> exists c', o = Ok c' /\ inv c'.
Proof.
  intros I He. pose proof I as [A N S U1' ST H B L]. destruct e as [i ch|]; cbn [do_event] in He.
  - unfold step in He. destruct (nth_error (ths c) i) as [t|] eqn:Hn; [|discriminate].
    destruct t as [id op u|id pc|p pc].
    + destruct u as [|p|f]; [| |discriminate].
      * destruct (lock c); [discriminate|].
        destruct (find_sub id (arr c)) as [p|] eqn:F; injection He as <-; eexists; (split; [reflexivity|]).
        -- apply find_sub_some in F. eapply inv_thread; eauto; try discriminate; try reflexivity.
           intros id' op' p' E. injection E as <- _ <-. exact F.
        -- eapply inv_thread; eauto; try discriminate; reflexivity.
      * assert (Hin : In (id, p) (arr c)) by (eapply U1'; eapply nth_error_In; eauto).
        destruct (ST id p Hin) as [E | (_ & pc & Hpc)].
        2:{ exfalso. eapply S; [eapply nth_error_In; exact Hn|exact Hpc]. }
        rewrite E in He. injection He as <-. eexists; split; [reflexivity|].
        eapply inv_thread; eauto; try discriminate; reflexivity.
    + destruct pc as [|p|p|p|p|r]; [| | | | |discriminate].
      * destruct (lock c) eqn:Lk; [discriminate|].
        destruct (find_sub id (arr c)) as [p|] eqn:F; injection He as <-; eexists; (split; [reflexivity|]).
        -- apply find_sub_some in F.
           destruct (set_kinds (ths c) i _ (Term id (T1 p)) Hn eq_refl) as (K1 & K2 & K3 & K4).
           constructor; unfold with_th, with_lock; cbn [arr objs lock ths next_id]; auto.
           ++ destruct A; constructor; cbn [arr objs next_id]; assumption.
           ++ eapply set_sep; eauto. reflexivity.
           ++ intros id' op q Hq. apply in_set_nth in Hq. destruct Hq as [Hq | Hq]; [discriminate|eapply U1'; eauto].
           ++ intros id' q Hq. destruct (ST id' q Hq) as [H1 | (H1 & pc & H2)]; [left; exact H1|].
              right. split; [exact H1|]. eapply K3; eauto.
           ++ intros j id' pc q Hj Hq. destruct (Nat.eq_dec i j) as [<- | Hne].
              ** rewrite (set_nth_same _ _ _ _ Hn) in Hj. injection Hj as <- <-.
                 assert (q = p) by (unfold holds in Hq; intuition congruence). subst q.
                 split; [reflexivity|]. split; [exact F|]. unfold obj. cbn [objs].
                 destruct (ST id p F) as [E | ([E | E] & _)]; unfold obj in E; rewrite E; discriminate.
              ** rewrite set_nth_other in Hj by exact Hne. destruct (H _ _ _ _ Hj Hq) as (E & _). congruence.
           ++ intros q Hl Hb. destruct (B q Hl Hb) as (j & id' & E & _). congruence.
           ++ intros j E. injection E as <-. exists id, (T1 p), p. split; [eapply set_nth_same; eauto|left; reflexivity].
        -- eapply inv_thread; eauto; try reflexivity; try discriminate.
           ++ intros id' pc q E Hq. injection E as _ <-. unfold holds in Hq. intuition discriminate.
           ++ intros id' pc q E Hq. injection E as _ <-. unfold holds in Hq. intuition discriminate.
      * assert (Hh : holds (T1 p) p) by (left; reflexivity).
        destruct (H _ _ _ _ Hn Hh) as (Lk & Hin & Hnf). pose proof (a_lt _ A _ _ Hin) as Hp.
        destruct (st (obj c p)) eqn:E; try (exfalso; apply Hnf; reflexivity).
        -- injection He as <-. eexists; split; [reflexivity|]. unfold with_th, with_st; cbn [arr objs lock ths next_id].
           rewrite Lk. eapply (holder_inv c i id (T1 p) p); eauto; [apply set_nth_len| |].
           ++ intros q Hne. rewrite obj_set by exact Hp. destruct (Nat.eqb_spec q p); [contradiction|reflexivity].
           ++ left. do 2 (split; [reflexivity|]). exists (T2 p). split; [reflexivity|]. split; [right; left; reflexivity|].
              right. right. rewrite obj_set, Nat.eqb_refl by exact Hp. auto.
        -- exfalso. destruct (B p Hp E) as (j & id' & Lj & Hj). assert (j = i) by congruence. subst j. congruence.
        -- injection He as <-. eexists; split; [reflexivity|]. unfold with_th; cbn [arr objs lock ths next_id].
           rewrite Lk. eapply (holder_inv c i id (T1 p) p); eauto.
           left. do 2 (split; [reflexivity|]). exists (T3 p). split; [reflexivity|].
           split; [right; right; left; reflexivity|]. right. left. exact E.
      * assert (Hh : holds (T2 p) p) by (right; left; reflexivity).
        destruct (H _ _ _ _ Hn Hh) as (Lk & Hin & Hnf). pose proof (a_lt _ A _ _ Hin) as Hp.
        injection He as <-. eexists; split; [reflexivity|]. unfold with_th, with_st; cbn [arr objs lock ths next_id].
        rewrite Lk. eapply (holder_inv c i id (T2 p) p); eauto; [apply set_nth_len| |].
        -- intros q Hne. rewrite obj_set by exact Hp. destruct (Nat.eqb_spec q p); [contradiction|reflexivity].
        -- left. do 2 (split; [reflexivity|]). exists (T3 p). split; [reflexivity|].
           split; [right; right; left; reflexivity|]. right. left. rewrite obj_set, Nat.eqb_refl by exact Hp. reflexivity.
      * assert (Hh : holds (T3 p) p) by (right; right; left; reflexivity).
        destruct (H _ _ _ _ Hn Hh) as (Lk & Hin & Hnf). pose proof (a_lt _ A _ _ Hin) as Hp.
        assert (E : st (obj c p) = Alive \/ st (obj c p) = Unsub).
        { destruct (st (obj c p)) eqn:E; auto; [|congruence].
          exfalso. destruct (B p Hp E) as (j & id' & Lj & Hj). assert (j = i) by congruence. subst j. congruence. }
        destruct ch; injection He as <-; (eexists; split; [reflexivity|]);
          unfold with_th, with_cancel, with_lock; cbn [arr objs lock ths next_id].
        -- rewrite Lk. eapply (holder_inv c i id (T3 p) p); eauto; [apply set_nth_len| |].
           ++ intros q Hne. rewrite obj_set by exact Hp. destruct (Nat.eqb_spec q p); [contradiction|reflexivity].
           ++ left. do 2 (split; [reflexivity|]). exists (T4 p). split; [reflexivity|].
              split; [right; right; right; reflexivity|]. rewrite obj_set, Nat.eqb_refl by exact Hp. cbn [st].
              destruct E as [-> | ->]; auto.
        -- eapply (holder_inv c i id (T3 p) p); eauto. right. left. do 2 (split; [reflexivity|]).
           split; [eauto|]. exact E.
      * assert (Hh : holds (T4 p) p) by (right; right; right; reflexivity).
        destruct (H _ _ _ _ Hn Hh) as (Lk & Hin & Hnf). pose proof (a_lt _ A _ _ Hin) as Hp.
        destruct (existsb (stop_alive p) (ths c)); [discriminate|].
        assert (He' : o = Ok (with_th (with_lock (free_sub c p) None) i (Term id (TDone (Some true))))).
        { destruct (st (obj c p)) eqn:E; congruence. }
        clear He. subst o. eexists; split; [reflexivity|].
        unfold with_th, with_lock, free_sub, with_st; cbn [arr objs lock ths next_id].
        eapply (holder_inv c i id (T4 p) p); eauto; [apply set_nth_len| |].
        -- intros q Hne. rewrite obj_set by exact Hp. destruct (Nat.eqb_spec q p); [contradiction|reflexivity].
        -- right. right. do 2 (split; [reflexivity|]). split; [eauto|]. rewrite obj_set, Nat.eqb_refl by exact Hp. reflexivity.
    + exfalso. eapply N; [eapply nth_error_In; exact Hn|exact Logic.I].
  - assert (He' := He). unfold add in He. destruct (lock c) eqn:Lk; [discriminate|]. injection He as <-.
    eexists; split; [reflexivity|].
    assert (Hobj : forall q, q < length (objs c) -> obj (Cfg (arr c ++ [(next_id c, length (objs c))]) None
              (objs c ++ [Obj Alive false]) (ths c) (Datatypes.S (next_id c))) q = obj c q).
    { intros q Hq. unfold obj. cbn [objs]. apply app_nth1. exact Hq. }
    constructor; cbn [arr objs lock ths next_id]; auto.
    + eapply (event_ainv c Add); eauto. 
    + intros id op p Hp. apply in_or_app. left. eapply U1'; eauto.
    + intros id p Hp. apply in_app_or in Hp. destruct Hp as [Hp | [Hp | []]].
      * rewrite Hobj by (apply (a_lt _ A _ _ Hp)). eauto.
      * injection Hp as _ <-. left. unfold obj. cbn [objs]. rewrite app_nth2, Nat.sub_diag by lia. reflexivity.
    + intros i id pc p Hi Hp. destruct (H _ _ _ _ Hi Hp) as (E & _). congruence.
    + intros p Hp Hb. rewrite app_length in Hp. cbn [length] in Hp.
      destruct (Nat.eq_dec p (length (objs c))) as [-> | Hne].
      * unfold obj in Hb. cbn [objs] in Hb. rewrite app_nth2, Nat.sub_diag in Hb by lia. discriminate Hb.
      * rewrite Hobj in Hb by lia. destruct (B p ltac:(lia) Hb) as (j & id & E & _). congruence.
Qed.

Lemma run_inv l : forall c o, inv c -> run c l = Some o -> exists c', o = Ok c' /\ inv c'.
Proof.
  induction l as [|e l IH]; intros c o I H; cbn [run] in H.
  - injection H as <-. eauto.
  - destruct (do_event c e) as [[c1|]|] eqn:E; try discriminate.
    + destruct (event_inv c e _ I E) as (c2 & E2 & I2). assert (c2 = c1) by congruence. subst c2. eauto.
    + destruct (event_inv c e _ I E) as (c2 & E2 & I2). discriminate.
Qed.

Lemma init_inv ts : Forall fresh ts -> (forall t, In t ts -> ~ is_stop t) -> separate ts -> inv (init ts).
Proof.
  intros Hf Hs Hsep. rewrite Forall_forall in Hf.
  constructor; cbn [init arr objs lock ths next_id]; auto; try discriminate.
  - apply init_ainv.
  - intros id op p H. destruct (Hf _ H).
  - intros id p [].
  - intros i id pc p H Hh. apply nth_error_In in H. specialize (Hf _ H). unfold holds in Hh.
    cbn [fresh] in Hf. destruct pc; try contradiction. intuition discriminate.
  - intros p H. cbn [length] in H. lia.
Qed.

(** Any number of threads using subscriptions and of threads terminating other
    ones, with subscriptions being added, in any interleaving and with any
    failures of sending: nothing freed is used and nothing freed twice.
    Missing: subscriptions with stop times, and ones used by a thread while
    another one terminates them; both are refuted below. *)
Theorem C49_safe_partial : forall ts l,
  Forall fresh ts -> (forall t, In t ts -> ~ is_stop t) -> separate ts ->
  run (init ts) l <> Some Crash.
Proof.
  intros ts l Hf Hs Hsep H. destruct (run_inv l (init ts) Crash (init_inv ts Hf Hs Hsep) H) as (c & E & _). discriminate.
Qed.
Print Assumptions C49_safe_partial.

(** And no thread waits for ever: as long as there is one that has not
    finished, some thread can go on. *)
Theorem C49_progress_partial : forall ts l c,
  Forall fresh ts -> (forall t, In t ts -> ~ is_stop t) -> separate ts ->
  run (init ts) l = Some (Ok c) -> (exists t, In t (ths c) /\ ~ finished t) ->
  exists i, step c i true <> None.
Proof.
  intros ts l c Hf Hs Hsep H (t & Ht & Hnf).
  destruct (run_inv l (init ts) _ (init_inv ts Hf Hs Hsep) H) as (c' & E & I). assert (c' = c) by congruence. subst c'.
  destruct (lock c) as [i|] eqn:Lk.
  - destruct (i_lock _ I i Lk) as (id & pc & p & Hn & Hh). exists i. unfold step. rewrite Hn.
    destruct Hh as [-> | [-> | [-> | ->]]].
    + destruct (st (obj c p)); discriminate.
    + discriminate.
    + discriminate.
    + assert (Ex : existsb (stop_alive p) (ths c) = false).
      { destruct (existsb (stop_alive p) (ths c)) eqn:Ex; [|reflexivity]. exfalso.
        apply existsb_exists in Ex. destruct Ex as (x & Hx & Hxs). apply (i_nostop _ I x Hx).
        destruct x; try discriminate. exact Logic.I. }
      rewrite Ex. destruct (st (obj c p)); discriminate.
  - apply In_nth_error in Ht. destruct Ht as (i & Hi). exists i. unfold step. rewrite Hi, Lk.
    destruct t as [id op u|id pc|p pc].
    + destruct u as [|p|f].
      * destruct (find_sub id (arr c)); discriminate.
      * destruct (st (obj c p)), op; discriminate.
      * exfalso. apply Hnf. exact Logic.I.
    + destruct pc as [|p|p|p|p|r].
      * destruct (find_sub id (arr c)); discriminate.
      * destruct (i_hold _ I i id _ p Hi (or_introl eq_refl)) as (E1 & _). congruence.
      * destruct (i_hold _ I i id _ p Hi (or_intror (or_introl eq_refl))) as (E1 & _). congruence.
      * destruct (i_hold _ I i id _ p Hi (or_intror (or_intror (or_introl eq_refl)))) as (E1 & _). congruence.
      * destruct (i_hold _ I i id _ p Hi (or_intror (or_intror (or_intror eq_refl)))) as (E1 & _). congruence.
      * exfalso. apply Hnf. exact Logic.I.
    + exfalso. eapply (i_nostop _ I); [eapply nth_error_In; exact Hi|exact Logic.I].
Qed.
Print Assumptions C49_progress_partial.

(** What is terminated is the subscription with the given ID and no other,
    only by a call that succeeds; a call fails to find its subscription only
    if there is none. *)
Theorem C49_terminated_partial : forall ts l c i ch c' t t',
  Forall fresh ts -> (forall t, In t ts -> ~ is_stop t) -> separate ts ->
  run (init ts) l = Some (Ok c) -> step c i ch = Some (Ok c') ->
  nth_error (ths c) i = Some t -> nth_error (ths c') i = Some t' ->
  match t' with
  | Term id (TDone (Some true)) => forall x, In x (arr c') <-> In x (arr c) /\ fst x <> id
  | Term id (TDone None) | User id _ (UDone false) => arr c' = arr c /\ ~ In id (map fst (arr c))
  | _ => arr c' = arr c
  end /\
  match t, t' with
  | User id _ _, User id' _ _ | Term id _, Term id' _ => id = id'
  | _, _ => False
  end.
Proof.
  intros ts l c i ch c' t t' Hf Hs Hsep H He Hn Hn'.
  destruct (run_inv l (init ts) _ (init_inv ts Hf Hs Hsep) H) as (c0 & E & I). assert (c0 = c) by congruence. subst c0.
  clear E H. pose proof I as [A N S U1' ST H B L].
  unfold step in He. rewrite Hn in He.
  destruct t as [id op u|id pc|p pc].
  - destruct u as [|p|f]; [| |discriminate].
    + destruct (lock c); [discriminate|].
      destruct (find_sub id (arr c)) as [p|] eqn:F; injection He as <-; unfold with_th in *; cbn [ths arr] in *;
        rewrite (set_nth_same _ _ _ _ Hn) in Hn'; injection Hn' as <-; (split; [|reflexivity]); auto.
      split; [reflexivity|]. apply find_sub_none. exact F.
    + assert (Hin : In (id, p) (arr c)) by (eapply U1'; eapply nth_error_In; eauto).
      destruct (ST id p Hin) as [E | (_ & pc & Hpc)].
      2:{ exfalso. eapply S; [eapply nth_error_In; exact Hn|exact Hpc]. }
      rewrite E in He. injection He as <-. unfold with_th in *; cbn [ths arr] in *;
        rewrite (set_nth_same _ _ _ _ Hn) in Hn'; injection Hn' as <-. auto.
  - destruct pc as [|p|p|p|p|r]; [| | | | |discriminate].
    + destruct (lock c); [discriminate|].
      destruct (find_sub id (arr c)) as [p|] eqn:F; injection He as <-; unfold with_th, with_lock in *; cbn [ths arr] in *;
        rewrite (set_nth_same _ _ _ _ Hn) in Hn'; injection Hn' as <-; (split; [|reflexivity]); auto.
      split; [reflexivity|]. apply find_sub_none. exact F.
    + destruct (st (obj c p)); try discriminate; injection He as <-; unfold with_th, with_st in *; cbn [ths arr] in *;
        rewrite (set_nth_same _ _ _ _ Hn) in Hn'; injection Hn' as <-; auto.
    + injection He as <-; unfold with_th, with_st in *; cbn [ths arr] in *;
        rewrite (set_nth_same _ _ _ _ Hn) in Hn'; injection Hn' as <-; auto.
    + destruct ch; injection He as <-; unfold with_th, with_cancel, with_lock in *; cbn [ths arr] in *;
        rewrite (set_nth_same _ _ _ _ Hn) in Hn'; injection Hn' as <-; auto.
    + destruct (H _ _ _ _ Hn (or_intror (or_intror (or_intror eq_refl)))) as (_ & Hin & _).
      destruct (existsb (stop_alive p) (ths c)); [discriminate|].
      assert (E : c' = with_th (with_lock (free_sub c p) None) i (Term id (TDone (Some true))))
        by (destruct (st (obj c p)); congruence).
      subst c'. clear He. unfold with_th, with_lock, free_sub, with_st in *; cbn [ths arr] in *.
      rewrite (set_nth_same _ _ _ _ Hn) in Hn'; injection Hn' as <-. split; [|reflexivity].
      intros [id' q]. rewrite remove_sub_in by apply A. cbn [fst snd]. split; intros [H1 H2]; (split; [exact H1|]); intros ->; apply H2.
      * eapply pair_fst; [apply A| |]; eassumption.
      * eapply pair_snd; [apply A| |]; eassumption.
  - exfalso. eapply N; [eapply nth_error_In; exact Hn|exact Logic.I].
Qed.
Print Assumptions C49_terminated_partial.

(** Two threads, two subscriptions. *)
Example C49_case :
  Forall fresh [User 1 Suspending U0; Term 2 T0] /\ separate [User 1 Suspending U0; Term 2 T0] /\
  match run (init [User 1 Suspending U0; Term 2 T0])
            [Add; Add; Step 1 true; Step 1 true; Step 1 true; Step 1 true; Step 1 true; Step 0 true; Step 0 true] with
  | Some (Ok c) => arr c = [(1, 0)] /\ nth_error (ths c) 1 = Some (Term 2 (TDone (Some true)))
  | _ => False
  end.
Proof.
  split; [repeat constructor|]. split.
  - intros id op u t [E | [E | []]] [E' | [E' | []]]; congruence.
  - vm_compute. split; reflexivity.
Qed.

(** F137: a function finds the subscription under the lock and uses it
    after unlocking; one terminated in the meantime was freed
    (src/utils/sn_common.c 1125-1130; srsn_modify_*(), srsn_suspend(), srsn_resume(),
    srsn_notif_sent() in src/utils/subscribed_notifications.c). *)
Theorem C49_use_after_free_refuted :
  ~ (forall ts l, Forall fresh ts -> (forall t, In t ts -> ~ is_stop t) -> run (init ts) l <> Some Crash).
Proof.
  intro H.
  apply (H [User 1 Simple U0; Term 1 T0]
           [Add; Step 0 true; Step 1 true; Step 1 true; Step 1 true; Step 1 true; Step 1 true; Step 0 true]).
  - repeat constructor.
  - intros t [<- | [<- | []]] A; exact A.
  - vm_compute. reflexivity.
Qed.
Print Assumptions C49_use_after_free_refuted.

(** F138: terminating a subscription at its stop time: srsn_terminate() waits,
    with the lock of the array, for the thread of the timer, whose callback waits
    for that lock; neither ever goes on, nor does any other call
    (src/utils/sn_common.c 873-911, 773, 1295-1301). *)
Theorem C49_deadlock_refuted :
  ~ (forall ts l c, Forall fresh ts -> separate ts ->
       run (init ts) l = Some (Ok c) -> (exists t, In t (ths c) /\ ~ finished t) ->
       exists i, step c i true <> None).
Proof.
  intro H.
  set (l := [Add; Step 1 true; Step 1 true; Step 1 true; Step 1 true; Step 0 true; Step 0 true; Step 0 true]).
  assert (Hr : exists c, run (init [Term 1 T0; Stop 0 S0]) l = Some (Ok c) /\
                         ths c = [Term 1 (T4 0); Stop 0 S4] /\ lock c = Some 0 /\ arr c = [(1, 0)])
    by (eexists; split; [vm_compute; reflexivity|repeat split]).
  destruct Hr as (c & Hr & Ht & Hl & Ha).
  destruct (H [Term 1 T0; Stop 0 S0] l c) as (i & Hi); auto.
  - repeat constructor.
  - intros id op u t [E | [E | []]]; discriminate.
  - rewrite Ht. exists (Stop 0 S4). split; [right; left; reflexivity|]. intro A; exact A.
  - apply Hi. unfold step. rewrite Ht, Hl. destruct i as [|[|i]]; cbn [nth_error]; [reflexivity|reflexivity|].
    destruct i; reflexivity.
Qed.
Print Assumptions C49_deadlock_refuted.

(** F139: the callback of the stop time unsubscribes without the lock while
    srsn_terminate() does: both read and free the same IDs
    (src/utils/sn_common.c 890, 737-748; src/utils/subscribed_notifications.c 664). *)
Theorem C49_double_free_refuted :
  ~ (forall ts l, Forall fresh ts -> separate ts -> run (init ts) l <> Some Crash).
Proof.
  intro H.
  apply (H [Term 1 T0; Stop 0 S0] [Add; Step 1 true; Step 0 true; Step 0 true; Step 1 true]).
  - repeat constructor.
  - intros id op u t [E | [E | []]]; discriminate.
  - vm_compute. reflexivity.
Qed.
Print Assumptions C49_double_free_refuted.

(** F140: if the notification of termination cannot be written (the reader closed
    the descriptor), srsn_terminate() returns an error and leaves the
    subscription, already unsubscribed, in the array: terminating it never
    succeeds, and suspending it, even by the same thread one after the other, reads an ID from NULL
    (src/utils/subscribed_notifications.c 664-671, 519). *)
Theorem C49_half_terminated_refuted :
  ~ (forall l c,
       run (init [Term 1 T0; User 1 Suspending U0]) l = Some (Ok c) ->
       nth_error (ths c) 0 = Some (Term 1 (TDone (Some false))) ->
       nth_error (ths c) 1 = Some (User 1 Suspending U0) ->
       forall l', run c l' <> Some Crash).
Proof.
  intro H. eapply (H [Add; Step 0 true; Step 0 true; Step 0 true; Step 0 false]);
    [vm_compute; reflexivity|reflexivity|reflexivity|].
  instantiate (1 := [Step 1 true; Step 1 true]). vm_compute. reflexivity.
Qed.
Print Assumptions C49_half_terminated_refuted.
