(** C36: access control in memory is that of the configuration. *)
From Coq Require Import String Ascii List Bool Arith Lia.
From Verif Require Import Nacm NacmSpec NacmPath NacmDecide NacmConf Prop_Nacm.
Import ListNotations.
Local Open Scope string_scope.
Local Open Scope list_scope.

(** ** Specification *)
(** A user-ordered list changed by one change: the instance is right after the previous one. *)
Section Spec.
Variables (A : Type) (name_of : A -> str) (new : str -> A).
Definition placed (prev : option str) (x : A) (l l' : list A) : Prop :=
  match prev with
  | None => l' = x :: l
  | Some p => exists l1 y l2, l = l1 ++ y :: l2 /\ name_of y = p /\ l' = l1 ++ y :: x :: l2
  end.
Definition changed (c : change) (l l' : list A) : Prop :=
  match c with
  | Created n prev => placed prev (new n) l l'
  | Moved n prev => exists l1 x l2, l = l1 ++ x :: l2 /\ name_of x = n /\ placed prev x (l1 ++ l2) l'
  | Deleted n => exists l1 x l2, l = l1 ++ x :: l2 /\ name_of x = n /\ l' = l1 ++ l2
  end.
Fixpoint changed_all (cs : list change) (l l' : list A) : Prop :=
  match cs with
  | [] => l' = l
  | c :: t => exists l1, changed c l l1 /\ changed_all t l1 l'
  end.
(** Names are unique before and after each change and no name is the beginning of another one. *)
Definition names_ok (l : list A) : Prop :=
  NoDup (map name_of l) /\ forall x y, In x l -> In y l -> not_begin (name_of x) (name_of y).
End Spec.

Lemma begins_iff p : forall x, begins p x = true <-> exists t, x = p ++ t.
Proof.
  induction p as [|a p IH]; intros x; cbn [begins app].
  - split; [intros _; now exists x|auto].
  - destruct x as [|b x].
    + split; [discriminate|]. intros (t & H). discriminate H.
    + rewrite andb_true_iff, Nat.eqb_eq, IH. split.
      * intros [-> (t & ->)]. now exists t.
      * intros (t & H). injection H as -> ->. split; [auto|now exists t].
Qed.

Section Proofs.
Variables (A : Type) (name_of : A -> str) (new : str -> A).
Hypothesis new_name : forall n, name_of (new n) = n.
Local Notation changed := (changed A name_of new).
Local Notation names_ok := (names_ok A name_of).

Lemma unlink_ok n l1 x l2 : name_of x = n -> (forall y, In y l1 -> name_of y <> n) ->
  unlink A name_of n (l1 ++ x :: l2) = Some (x, l1 ++ l2).
Proof.
  intros E H. induction l1 as [|y l1 IH]; cbn [app unlink].
  - rewrite E, str_eqb_refl. reflexivity.
  - rewrite str_eqb_neq by (apply H; now left). rewrite IH by (intros z Hz; apply H; now right). reflexivity.
Qed.
Lemma insert_ok p x l1 y l2 : name_of y = p -> (forall z, In z l1 -> begins p (name_of z) = false) ->
  insert_found A name_of p x (l1 ++ y :: l2) = Some (l1 ++ y :: x :: l2).
Proof.
  intros E H. induction l1 as [|z l1 IH]; cbn [app insert_found].
  - assert (B : begins p (name_of y) = true) by (apply begins_iff; exists []; now rewrite app_nil_r). now rewrite B.
  - rewrite H by now left. rewrite IH by (intros w Hw; apply H; now right). reflexivity.
Qed.
Lemma nodup_mid l1 x l2 : NoDup (map name_of (l1 ++ x :: l2)) -> forall y, In y l1 -> name_of y <> name_of x.
Proof.
  rewrite map_app. cbn [map]. intros ND y Hy E. apply NoDup_remove_2 in ND. apply ND. apply in_or_app. left.
  rewrite <- E. now apply in_map.
Qed.
Lemma names_sub l1 x l2 : names_ok (l1 ++ x :: l2) -> names_ok (l1 ++ l2).
Proof.
  intros [ND NB]. split.
  - rewrite map_app in *. cbn [map] in ND. now apply NoDup_remove_1 in ND.
  - intros a b Ha Hb. apply NB; apply in_or_app; apply in_app_or in Ha, Hb; cbn [In]; tauto.
Qed.
Lemma placed_ok prev x l l' : names_ok l -> placed A name_of prev x l l' -> insert_prev A name_of prev x l = Some l'.
Proof.
  intros [ND NB] P. destruct prev as [p|]; cbn [placed insert_prev] in *; [|now subst].
  destruct P as (l1 & y & l2 & -> & E & ->). apply insert_ok; auto.
  intros z Hz. destruct (begins p (name_of z)) eqn:B; auto. exfalso.
  apply begins_iff in B as (t & Bt). rewrite <- E in Bt.
  assert (T0 : t = []) by (apply (NB y z); [apply in_elt|apply in_or_app; now left|auto]). subst t. rewrite app_nil_r in Bt.
  now apply (nodup_mid l1 y l2 ND z Hz).
Qed.
Lemma change_ok c l l' : names_ok l -> changed c l l' -> apply_change A name_of new c l = Some l'.
Proof.
  intros N C. destruct c as [n prev|n prev|n]; cbn [Prop_NacmConf.changed apply_change] in *.
  - now apply placed_ok.
  - destruct C as (l1 & x & l2 & -> & E & P).
    rewrite (unlink_ok n l1 x l2 E) by (rewrite <- E; apply (nodup_mid l1 x l2); apply N).
    apply placed_ok; [|auto]. eapply names_sub; eauto.
  - destruct C as (l1 & x & l2 & -> & E & ->).
    rewrite (unlink_ok n l1 x l2 E) by (rewrite <- E; apply (nodup_mid l1 x l2); apply N). reflexivity.
Qed.

(** Rule lists, and rules of a rule list, are in memory as in the configuration, in the same order. *)
Theorem C36_order cs : forall l l',
  (forall cs1 cs2 l1, cs = cs1 ++ cs2 -> changed_all A name_of new cs1 l l1 -> names_ok l1) ->
  changed_all A name_of new cs l l' -> apply_changes A name_of new cs l = Some l'.
Proof.
  induction cs as [|c cs IH]; intros l l' N C; cbn [apply_changes changed_all] in *; [congruence|].
  destruct C as (l1 & C1 & C2).
  rewrite (change_ok c l l1); [|apply (N [] (c :: cs) l); reflexivity|auto].
  apply IH; auto. intros cs1 cs2 l2 -> C3. apply (N (c :: cs1) cs2 l2); [reflexivity|]. cbn [changed_all]. now exists l1.
Qed.
End Proofs.
Print Assumptions C36_order.

(** Whole names are not compared: a list after "list1" is placed after "list10". *)
Theorem C36_order_refuted : exists cs l l' l'',
  changed_all str (fun x => x) (fun x => x) cs l l' /\ NoDup l /\ apply_changes str (fun x => x) (fun x => x) cs l = Some l'' /\ l'' <> l'.
Proof.
  exists [Created (s "deny-all") (Some (s "list1"))], [s "list10"; s "list1"], [s "list10"; s "list1"; s "deny-all"], [s "list10"; s "deny-all"; s "list1"].
  split; [|split; [|split; [vm_compute; reflexivity|discriminate]]].
  - cbn [changed_all changed]. eexists. split; [|reflexivity]. cbn [placed]. exists [s "list10"], (s "list1"), []. auto.
  - constructor; [|constructor; [intros []|constructor]]. intros [H|[]]. discriminate H.
Qed.
Example C36_example_order : apply_changes str (fun x => x) (fun x => x)
  [Deleted (s "b"); Created (s "d") (Some (s "a")); Moved (s "c") None; Moved (s "a") (Some (s "d"))] [s "a"; s "b"; s "c"] =
  Some [s "c"; s "d"; s "a"].
Proof. vm_compute. reflexivity. Qed.
Example C36_example_order_spec : changed_all str (fun x => x) (fun x => x)
  [Deleted (s "b"); Created (s "d") (Some (s "a")); Moved (s "c") None; Moved (s "a") (Some (s "d"))] [s "a"; s "b"; s "c"] [s "c"; s "d"; s "a"] /\
  names_ok str (fun x => x) [s "a"; s "b"; s "c"].
Proof.
  split.
  - cbn [changed_all changed placed].
    exists [s "a"; s "c"]. split; [exists [s "a"], (s "b"), [s "c"]; auto|].
    exists [s "a"; s "d"; s "c"]. split; [exists [], (s "a"), [s "c"]; auto|].
    exists [s "c"; s "a"; s "d"]. split; [exists [s "a"; s "d"], (s "c"), []; auto|].
    eexists. split; [|reflexivity]. exists [s "c"], (s "a"), [s "d"]. split; [reflexivity|]. split; [reflexivity|].
    exists [s "c"], (s "d"), []. auto.
  - split.
    + cbn [map]. repeat (constructor; [cbn [In]; intros H; repeat destruct H as [H|H]; try discriminate H; destruct H|]). constructor.
    + cbn [In]. intros x y Hx Hy t E.
      repeat (destruct Hx as [<-|Hx]); try destruct Hx; repeat (destruct Hy as [<-|Hy]); try destruct Hy;
        (destruct t; [reflexivity|discriminate E]).
Qed.

(** ** Groups *)
(** What a user is a member of. *)
Definition member (gs : groups) (g u : str) : Prop := exists us, In (g, us) gs /\ In u us.
Definition exists_group (gs : groups) (g : str) : Prop := exists us, In (g, us) gs.
Definition groups_ok (gs : groups) : Prop := NoDup (map fst gs) /\ forall g us, In (g, us) gs -> NoDup us.

Lemma index_split {X} (f : X -> bool) l i : index_of f l = Some i -> exists l1 x l2, l = l1 ++ x :: l2 /\ length l1 = i /\ f x = true /\ forall y, In y l1 -> f y = false.
Proof.
  revert i. induction l as [|a l IH]; intros i; cbn [index_of]; [discriminate|]. destruct (f a) eqn:E.
  - intros H. injection H as <-. exists [], a, l. split; [reflexivity|]. split; [reflexivity|]. split; [auto|intros y []].
  - destruct (index_of f l) as [j|]; cbn [option_map]; [|discriminate]. intros H. injection H as <-.
    destruct (IH j eq_refl) as (l1 & x & l2 & -> & L & F & N). exists (a :: l1), x, l2.
    split; [reflexivity|]. split; [cbn [length]; now rewrite L|]. split; [auto|]. intros y [<-|Hy]; auto.
Qed.
Lemma index_none {X} (f : X -> bool) l : index_of f l = None -> forall y, In y l -> f y = false.
Proof.
  induction l as [|a l IH]; cbn [index_of]; [intros _ y []|]. destruct (f a) eqn:E; [discriminate|].
  destruct (index_of f l); [discriminate|]. intros _ y [<-|Hy]; auto.
Qed.
Lemma swap_del_perm {X} (l1 : list X) x l2 : exists l', swap_del (length l1) (l1 ++ x :: l2) = l' /\ forall y, In y l' <-> In y l1 \/ In y l2.
Proof.
  eexists. split; [reflexivity|]. intros y. unfold swap_del.
  destruct l2 as [|z l2] using rev_ind.
  - rewrite rev_app_distr. cbn [rev app]. rewrite rev_involutive. rewrite Nat.ltb_irrefl. cbn [In]. tauto.
  - clear IHl2. replace (l1 ++ x :: l2 ++ [z]) with ((l1 ++ x :: l2) ++ [z]) by (rewrite <- app_assoc; reflexivity).
    rewrite rev_app_distr. cbn [rev app]. rewrite rev_involutive.
    assert (L : Nat.ltb (length l1) (length (l1 ++ x :: l2)) = true) by (apply Nat.ltb_lt; rewrite app_length; cbn [length]; lia).
    rewrite L. rewrite firstn_app, Nat.sub_diag, firstn_all, firstn_O, app_nil_r.
    replace (S (length l1)) with (length l1 + 1) by lia. rewrite skipn_app.
    rewrite skipn_all2 by lia. replace (length l1 + 1 - length l1) with 1 by lia. cbn [app skipn].
    rewrite !in_app_iff. cbn [In]. tauto.
Qed.
Lemma swap_del_nodup {X} (l1 : list X) x l2 : NoDup (l1 ++ x :: l2) -> NoDup (swap_del (length l1) (l1 ++ x :: l2)).
Proof.
  intros ND. unfold swap_del. destruct l2 as [|z l2] using rev_ind.
  - rewrite rev_app_distr. cbn [rev app]. rewrite rev_involutive, Nat.ltb_irrefl. now apply NoDup_remove_1 in ND; rewrite app_nil_r in ND.
  - clear IHl2. replace (l1 ++ x :: l2 ++ [z]) with ((l1 ++ x :: l2) ++ [z]) in * by (rewrite <- app_assoc; reflexivity).
    rewrite rev_app_distr. cbn [rev app]. rewrite rev_involutive.
    assert (L : Nat.ltb (length l1) (length (l1 ++ x :: l2)) = true) by (apply Nat.ltb_lt; rewrite app_length; cbn [length]; lia).
    rewrite L. rewrite firstn_app, Nat.sub_diag, firstn_all, firstn_O, app_nil_r.
    replace (S (length l1)) with (length l1 + 1) by lia. rewrite skipn_app.
    rewrite skipn_all2 by lia. replace (length l1 + 1 - length l1) with 1 by lia. cbn [app skipn].
    rewrite <- app_assoc in ND. cbn [app] in ND. apply NoDup_remove_1 in ND.
    rewrite app_assoc in ND. apply NoDup_rev in ND. rewrite rev_app_distr in ND. cbn [rev app] in ND.
    pose proof (NoDup_cons_iff z (rev (l1 ++ l2))) as HN. apply HN in ND as [NI ND]. apply NoDup_rev in ND. rewrite rev_involutive in ND.
    apply (NoDup_Add (a := z) (l := l1 ++ l2)); [apply Add_app|]. split; [auto|]. intros H. apply NI. now apply in_rev in H.
Qed.
Lemma map_swap_del {X Y} (f : X -> Y) i l : map f (swap_del i l) = swap_del i (map f l).
Proof.
  unfold swap_del. rewrite <- map_rev. destruct (rev l) as [|x r]; cbn [map]; [reflexivity|].
  rewrite <- map_rev, map_length. destruct (Nat.ltb i (length (rev r))); [|reflexivity].
  now rewrite map_app, firstn_map, skipn_map.
Qed.

(** Changes which can be: of existing groups and members. *)
Definition gchange_ok (c : gchange) (gs : groups) : Prop :=
  match c with
  | GAdd g => ~ exists_group gs g
  | GDel g => exists_group gs g
  | UAdd g u => exists_group gs g /\ ~ member gs g u
  | UDel g u => exists_group gs g -> member gs g u
  end.
(** Members after a change. *)
Definition gchanged (c : gchange) (gs gs' : groups) : Prop :=
  forall g u, member gs' g u <->
    match c with
    | GAdd _ => member gs g u
    | GDel d => member gs g u /\ g <> d
    | UAdd a b => member gs g u \/ (g = a /\ u = b)
    | UDel a b => member gs g u /\ ~ (g = a /\ u = b)
    end.

Lemma fst_inj (gs : groups) g us us' : NoDup (map fst gs) -> In (g, us) gs -> In (g, us') gs -> us = us'.
Proof.
  intros ND H1 H2. apply in_split in H1 as (l1 & l2 & ->). rewrite map_app in ND. cbn [map fst] in ND.
  apply NoDup_remove_2 in ND. rewrite <- map_app in ND.
  apply in_app_or in H2 as [H2|[H2|H2]]; [|congruence|]; exfalso; apply ND; apply in_map_iff; exists (g, us'); (split; [reflexivity|apply in_or_app; auto]).
Qed.
Lemma group_is_iff g p : group_is g p = true <-> fst p = g.
Proof. apply str_eqb_eq. Qed.

Theorem C36_groups c gs : groups_ok gs -> gchange_ok c gs ->
  exists gs', apply_gchange c gs = Some gs' /\ groups_ok gs' /\ gchanged c gs gs'.
Proof.
  intros [ND NU] OK. destruct c as [g|g|g u|g u]; cbn [apply_gchange gchange_ok] in *.
  - exists (gs ++ [(g, [])]). split; [reflexivity|]. split; [split|].
    + rewrite map_app. cbn [map fst]. apply (NoDup_Add (a := g) (l := map fst gs ++ [])); [apply Add_app|].
      rewrite app_nil_r. split; [auto|]. intros H. apply in_map_iff in H as ([g' us] & <- & H). apply OK. now exists us.
    + intros g' us H. apply in_app_or in H as [H|[H|[]]]; [now apply (NU g')|]. injection H as <- <-. constructor.
    + intros g' u'. cbn. unfold member. split.
      * intros (us & H & Hu). apply in_app_or in H as [H|[H|[]]]; [now exists us|]. injection H as <- <-. destruct Hu.
      * intros (us & H & Hu). exists us. split; [apply in_or_app; now left|auto].
  - destruct (index_of (group_is g) gs) as [i|] eqn:E.
    + apply index_split in E as (l1 & [g' us] & l2 & -> & <- & F & N). apply group_is_iff in F. cbn [fst] in F. subst g'.
      destruct (swap_del_perm l1 (g, us) l2) as (l' & E & P). exists l'. rewrite E. split; [reflexivity|]. split; [split|].
      * rewrite <- E, map_swap_del, map_app. cbn [map].
        replace (length l1) with (length (map fst l1)) by apply map_length. apply swap_del_nodup.
        rewrite map_app in ND. exact ND.
      * intros g' us' H. apply (NU g'). apply P in H. apply in_or_app. cbn [In]. tauto.
      * intros g' u'. cbn. unfold member. split.
        -- intros (us' & H & Hu). apply P in H. split.
           ++ exists us'. split; [apply in_or_app; cbn [In]; tauto|auto].
           ++ intros ->. rewrite map_app in ND. cbn [map fst] in ND. apply NoDup_remove_2 in ND. apply ND. rewrite <- map_app.
              apply in_map_iff. exists (g, us'). split; [reflexivity|]. apply in_or_app. tauto.
        -- intros [(us' & H & Hu) Hg]. exists us'. split; [|auto]. apply P. apply in_app_or in H as [H|[H|H]]; auto.
           injection H as -> ->. congruence.
    + exfalso. destruct OK as (us & H). pose proof (index_none _ _ E _ H) as F. unfold group_is in F. cbn [fst] in F. rewrite str_eqb_refl in F. discriminate F.
  - destruct OK as [(us & H) NM]. destruct (index_of (group_is g) gs) as [i|] eqn:E.
    2:{ exfalso. pose proof (index_none _ _ E _ H) as F. unfold group_is in F. cbn [fst] in F. rewrite str_eqb_refl in F. discriminate F. }
    apply index_split in E as (l1 & [g' us0] & l2 & -> & <- & F & N). apply group_is_iff in F. cbn [fst] in F. subst g'.
    assert (us = us0) by (eapply fst_inj; [exact ND|exact H|apply in_elt]). subst us0.
    rewrite app_nth2, Nat.sub_diag by lia. cbn [nth snd].
    rewrite firstn_app, Nat.sub_diag, firstn_all, firstn_O, app_nil_r.
    replace (S (length l1)) with (length l1 + 1) by lia. rewrite skipn_app.
    rewrite skipn_all2 by lia. replace (length l1 + 1 - length l1) with 1 by lia. cbn [app skipn].
    eexists. split; [reflexivity|]. split; [split|].
    + rewrite map_app in *. exact ND.
    + intros g' us' H'. apply in_app_or in H' as [H'|[H'|H']].
      * apply (NU g'). apply in_or_app. now left.
      * injection H' as <- <-. apply (NoDup_Add (a := u) (l := us ++ [])); [apply Add_app|]. rewrite app_nil_r.
        split; [now apply (NU g)|]. intros Hu. apply NM. now exists us.
      * apply (NU g'). apply in_or_app. right. now right.
    + intros g' u'. cbn. unfold member. split.
      * intros (us' & H' & Hu). apply in_app_or in H' as [H'|[H'|H']].
        -- left. exists us'. split; [apply in_or_app; now left|auto].
        -- injection H' as <- <-. apply in_app_or in Hu as [Hu|[<-|[]]]; [left; exists us; split; [apply in_elt|auto]|auto].
        -- left. exists us'. split; [apply in_or_app; right; now right|auto].
      * intros [(us' & H' & Hu)|[-> ->]].
        -- apply in_app_or in H' as [H'|[H'|H']].
           ++ exists us'. split; [apply in_or_app; now left|auto].
           ++ injection H' as <- <-. exists (us ++ [u]). split; [apply in_elt|apply in_or_app; now left].
           ++ exists us'. split; [apply in_or_app; right; now right|auto].
        -- exists (us ++ [u]). split; [apply in_elt|apply in_or_app; right; now left].
  - destruct (index_of (group_is g) gs) as [i|] eqn:E.
    + apply index_split in E as (l1 & [g' us] & l2 & -> & <- & F & N). apply group_is_iff in F. cbn [fst] in F. subst g'.
      rewrite app_nth2, Nat.sub_diag by lia. cbn [nth snd].
      rewrite firstn_app, Nat.sub_diag, firstn_all, firstn_O, app_nil_r.
      replace (S (length l1)) with (length l1 + 1) by lia. rewrite skipn_app.
      rewrite skipn_all2 by lia. replace (length l1 + 1 - length l1) with 1 by lia. cbn [app skipn].
      destruct OK as (us0 & H0 & Hu0); [exists us; apply in_elt|].
      assert (us0 = us) by (eapply fst_inj; [exact ND|exact H0|apply in_elt]). subst us0.
      assert (NDu : NoDup us) by (apply (NU g); apply in_elt).
      destruct (index_of (fun x => str_eqb x u) us) as [j|] eqn:E.
      2:{ exfalso. pose proof (index_none _ _ E _ Hu0) as F. cbn beta in F. rewrite str_eqb_refl in F. discriminate F. }
      apply index_split in E as (m1 & u1 & m2 & -> & <- & F & _). apply str_eqb_eq in F. subst u1.
      destruct (swap_del_perm m1 u m2) as (l' & E & P). rewrite E.
      assert (NI : ~ In u m1 /\ ~ In u m2) by (apply NoDup_remove_2 in NDu; rewrite in_app_iff in NDu; tauto).
      eexists. split; [reflexivity|]. split; [split|].
      * rewrite map_app in *. exact ND.
      * intros g' us' H'. apply in_app_or in H' as [H'|[H'|H']].
        -- apply (NU g'). apply in_or_app. now left.
        -- injection H' as <- <-. rewrite <- E. now apply swap_del_nodup.
        -- apply (NU g'). apply in_or_app. right. now right.
      * assert (OTH : forall us', In (g, us') (l1 ++ l2) -> False).
        { intros us' H'. rewrite map_app in ND. cbn [map fst] in ND. apply NoDup_remove_2 in ND. apply ND. rewrite <- map_app.
          apply in_map_iff. exists (g, us'). auto. }
        intros g' u'. cbn. unfold member. split.
        -- intros (us' & H' & Hu). apply in_app_or in H' as [H'|[H'|H']].
           ++ split; [exists us'; split; [apply in_or_app; now left|auto]|]. intros [-> ->]. apply (OTH us'). apply in_or_app. now left.
           ++ injection H' as <- <-. apply P in Hu. split; [exists (m1 ++ u :: m2); split; [apply in_elt|apply in_or_app; cbn [In]; tauto]|].
              intros [_ ->]. tauto.
           ++ split; [exists us'; split; [apply in_or_app; right; now right|auto]|]. intros [-> ->]. apply (OTH us'). apply in_or_app. now right.
        -- intros [(us' & H' & Hu) X]. apply in_app_or in H' as [H'|[H'|H']].
           ++ exists us'. split; [apply in_or_app; now left|auto].
           ++ injection H' as <- <-. exists l'. split; [apply in_elt|]. apply P. apply in_app_or in Hu as [Hu|[Hu|Hu]]; auto. exfalso. auto.
           ++ exists us'. split; [apply in_or_app; right; now right|auto].
    + exists gs. split; [reflexivity|]. split; [split; auto|].
      intros g' u'. cbn. split; [|tauto]. intros M. split; [auto|]. intros [-> ->]. destruct M as (us & H & _).
      pose proof (index_none _ _ E _ H) as F. unfold group_is in F. cbn [fst] in F. rewrite str_eqb_refl in F. discriminate F.
Qed.
Print Assumptions C36_groups.
Example C36_example_groups :
  apply_gchanges [GAdd (s "a"); GAdd (s "b"); UAdd (s "a") (s "joe"); UAdd (s "a") (s "eve"); UDel (s "a") (s "joe"); GDel (s "b"); UDel (s "b") (s "eve")] [] =
  Some [(s "a", [s "eve"])].
Proof. vm_compute. reflexivity. Qed.

(** Groups of a rule list stay sorted. *)
Theorem C36_list_groups x l : sorted l -> NoDup l ->
  (forall i, (l <> [] -> i < length l) -> sorted (sort_add i x l) /\ forall y, In y (sort_add i x l) <-> y = x \/ In y l) /\
  (In x l -> exists l', sort_del x l = Some l' /\ sorted l' /\ forall y, In y l' <-> In y l /\ y <> x).
Proof.
  intros S ND. split.
  - intros i Hi. split; [now apply sort_add_sorted|intros y; apply sort_add_in].
  - intros Hx. unfold sort_del. destruct (index_of (fun y => str_eqb y x) l) as [i|] eqn:E.
    + apply index_split in E as (l1 & z & l2 & -> & <- & F & _). apply str_eqb_eq in F. subst z.
      rewrite firstn_app, Nat.sub_diag, firstn_all, firstn_O, app_nil_r.
      replace (Datatypes.S (length l1)) with (length l1 + 1) by lia. rewrite skipn_app.
      rewrite skipn_all2 by lia. replace (length l1 + 1 - length l1) with 1 by lia. cbn [app skipn].
      exists (l1 ++ l2). split; [reflexivity|].
      assert (NI : ~ In x (l1 ++ l2)) by now apply NoDup_remove_2 in ND.
      split.
      * clear - S. induction l1 as [|a l1 IH]; cbn [app sorted] in *; [tauto|]. destruct S as [L S]. split; [|auto].
        intros y Hy. apply L. apply in_or_app. apply in_app_or in Hy. cbn [In]. tauto.
      * intros y. rewrite !in_app_iff in *. cbn [In]. split.
        -- intros H. split; [tauto|]. intros ->. tauto.
        -- intros [H1 H2]. intuition congruence.
    + exfalso. pose proof (index_none _ _ E _ Hx) as F. cbn beta in F. rewrite str_eqb_refl in F. discriminate F.
Qed.
Print Assumptions C36_list_groups.
Example C36_example_list_groups : sort_del (s "b") (sort_add 1 (s "c") [s "a"; s "b"]) = Some [s "a"; s "c"].
Proof. vm_compute. reflexivity. Qed.

(** ** Targets *)
(** At most one of the leaves exists; the target of a rule is that of the existing one. *)
Definition leaves := leaf -> option str.
Definition leaf_eqb (a b : leaf) : bool := match a, b with LRpc, LRpc | LNotif, LNotif | LPath, LPath => true | _, _ => false end.
Definition upd (ls : leaves) (x : leaf) (v : option str) : leaves := fun y => if leaf_eqb x y then v else ls y.
Definition leaf_changed (c : lchange) (ls : leaves) : leaves := match c with LSet x v => upd ls x (Some v) | LDel x => upd ls x None end.
Definition target_is (ls : leaves) (t : ttype * option str) : Prop :=
  (forall x v, ls x = Some v -> t = (type_of x, if str_eqb v s_star then None else Some v)) /\
  ((forall x, ls x = None) -> t = (TAny, None)).

(** A leaf is deleted before another one is set. *)
Theorem C36_target cs : forall ls t, target_is ls t ->
  (forall cs1 cs2 x y, cs = cs1 ++ cs2 -> fold_left (fun l c => leaf_changed c l) cs1 ls x <> None -> fold_left (fun l c => leaf_changed c l) cs1 ls y <> None -> x = y) ->
  (forall cs1 cs2 x, cs = cs1 ++ LDel x :: cs2 -> fold_left (fun l c => leaf_changed c l) cs1 ls x <> None) ->
  target_is (fold_left (fun l c => leaf_changed c l) cs ls) (apply_leaves cs t).
Proof.
  induction cs as [|c cs IH]; intros ls t T U D; cbn [fold_left]; [exact T|].
  unfold apply_leaves. cbn [fold_left]. fold (apply_leaves cs (apply_leaf c t)). apply IH.
  - destruct c as [x v|x]; cbn [leaf_changed apply_leaf].
    + split.
      * intros y w H. assert (y = x).
        { apply (U [LSet x v] cs); [reflexivity| |]; cbn [fold_left leaf_changed]; [congruence|]. unfold upd. destruct x; discriminate. }
        subst y. unfold upd in H. destruct x; cbn [leaf_eqb] in H; injection H as <-; reflexivity.
      * intros H. specialize (H x). unfold upd in H. destruct x; discriminate H.
    + split.
      * intros y w H. exfalso. pose proof (D [] cs x eq_refl) as D0. cbn [fold_left] in D0.
        assert (y = x).
        { apply (U [] (LDel x :: cs)); [reflexivity| |exact D0]. cbn [fold_left]. unfold upd in H. destruct (leaf_eqb x y); congruence. }
        subst y. unfold upd in H. destruct x; discriminate H.
      * reflexivity.
  - intros cs1 cs2 x y -> H1 H2. apply (U (c :: cs1) cs2 x y); auto.
  - intros cs1 cs2 x -> . apply (D (c :: cs1) cs2 x). reflexivity.
Qed.
Print Assumptions C36_target.
(** If the name of an RPC is set instead of a path, and the deleted path comes after it as in the order of the
    schema, then the rule is for everything. *)
Theorem C36_target_refuted : exists cs ls t,
  target_is ls t /\ (forall x, fold_left (fun l c => leaf_changed c l) cs ls x = if leaf_eqb x LRpc then Some (s "reboot") else None) /\
  apply_leaves cs t = (TAny, None).
Proof.
  exists [LSet LRpc (s "reboot"); LDel LPath], (fun x => match x with LPath => Some (s "/m:c") | _ => None end), (TData, Some (s "/m:c")).
  split; [|split; [intros []; reflexivity|reflexivity]]. split.
  - intros [] v H; try discriminate H. injection H as <-. reflexivity.
  - intros H. specialize (H LPath). discriminate H.
Qed.
Example C36_example_target : apply_leaves [LDel LPath; LSet LRpc (s "reboot")] (TData, Some (s "/m:c")) = (TRpc, Some (s "reboot")).
Proof. reflexivity. Qed.
