(** Access control: decisions (C19), reading (C20) and changes (C21). *)
From Coq Require Import String Ascii List Bool Arith Lia.
From Verif Require Import Nacm NacmSpec NacmPath NacmDecide NacmTree.
Import ListNotations.
Local Open Scope string_scope.
Local Open Scope list_scope.

Definition s (x : string) : str := map nat_of_ascii (list_ascii_of_string x).

(** * C19 *)
(** The decision of the code about an operation on a node is the decision of RFC 8341: the first rule that
    applies of the first rule list for a group of the user, then the extensions, then the defaults. Supposing
    that groups are sorted, no name of a group is before "*", and characters and names in targets of rules are
    not any of those of the counterexamples below. *)
Theorem C19_decision enabled c user groups o n :
  good_lists c -> sorted groups -> good_node n -> good_config c n ->
  exists a, allowed_node (rep_config enabled c) user groups o (rep_node n) = Some a /\
  (is_permit a = true <-> permitted c user groups o n).
Proof. apply decide. Qed.
Print Assumptions C19_decision.

(** Groups of a user are those they are listed in and those of the system, sorted. *)
Theorem C19_groups guess user groups system : good_guess guess ->
  sorted (collect_groups guess user groups system) /\
  forall x, In x (collect_groups guess user groups system) <->
    (exists users, In (x, users) groups /\ In user users) \/ In x system.
Proof. apply collect_ok. Qed.
Print Assumptions C19_groups.

(** RPCs, actions and notifications: executed or delivered iff the operation is permitted and, if it is nested
    in data, its parent may be read. *)
Theorem C19_operation enabled c user recovery groups always op parent :
  good_lists c -> sorted groups -> good_node op -> good_config c op ->
  (forall p, parent = Some p -> good_node p /\ good_config c p) ->
  exists b, check_operation (rep_config enabled c) user recovery groups always (rep_node op) (option_map rep_node parent) = Some b /\
  (b = true <->
   enabled = false \/ user = recovery \/ always = true \/
   (permitted c user groups (match sn_type op with NNotif => ORead | _ => OExec end) op /\
    forall p, parent = Some p -> permitted c user groups ORead p)).
Proof.
  intros GL SG GN GC GP. unfold check_operation.
  replace (c_enabled (rep_config enabled c)) with enabled by reflexivity.
  destruct (negb enabled || str_eqb user recovery || always) eqn:E.
  - exists true. split; [reflexivity|]. split; [intros _|auto].
    apply orb_true_iff in E as [E|E]; [|auto]. apply orb_true_iff in E as [E|E].
    + left. now apply negb_true_iff in E.
    + right. left. now apply str_eqb_eq.
  - apply orb_false_iff in E as [E E3]. apply orb_false_iff in E as [E1 E2]. apply negb_false_iff in E1.
    assert (NE : user <> recovery) by (intros ->; rewrite str_eqb_refl in E2; discriminate E2).
    replace (n_type (rep_node op)) with (sn_type op) by reflexivity.
    destruct (decide enabled c user groups (match sn_type op with NNotif => ORead | _ => OExec end) op GL SG GN GC) as (a & -> & Ha).
    destruct (is_permit a).
    + pose proof (proj1 Ha eq_refl) as P. destruct parent as [p|]; cbn [option_map].
      * destruct (GP p eq_refl) as [G1 G2]. destruct (decide enabled c user groups ORead p GL SG G1 G2) as (b & -> & Hb).
        exists (is_permit b). split; [reflexivity|]. rewrite Hb. split.
        -- intros H. right. right. right. split; [auto|]. intros p' H'. injection H' as <-. auto.
        -- intros [H|[H|[H|[_ H]]]]; try congruence. now apply H.
      * exists true. split; [reflexivity|]. split; [|auto]. intros _. right. right. right. split; [auto|]. discriminate.
    + exists false. split; [reflexivity|]. split; [discriminate|].
      intros [H|[H|[H|[H _]]]]; try congruence. apply Ha in H. discriminate H.
Qed.
Print Assumptions C19_operation.

(** ** The case of an administrator and a guest *)
Definition all_ops : oper -> bool := fun _ => true.
Definition conf1 : sconfig := mksconfig true true true
  [mkslist [s "admin"] [mksrule None WAny all_ops false];
   mkslist [s "*"] [mksrule None (WData [mkrseg (s "m:users") []; mkrseg (s "user") [(s "name", VUser)]]) all_ops false;
                    mksrule (Some (s "m")) (WData [mkrseg (s "m:users") []]) (fun o => match o with ORead => true | _ => false end) true]].
Definition user_node (name : string) : snode :=
  mksnode NOther false (s "user") (s "m") false false [mkseg (s "m:users") []; mkseg (s "user") [(s "name", s name)]].

Ltac nb := let t := fresh in let H := fresh in intros t H; try discriminate H; injection H as H; auto.
Lemma nb_refl a : not_begin a a.
Proof. intros t H. destruct t as [|x t]; auto. apply (f_equal (@length nat)) in H. rewrite app_length in H. cbn [length] in H. lia. Qed.

Example C19_example : good_lists conf1 /\ good_config conf1 (user_node "joe") /\ good_node (user_node "joe") /\
  allowed_node (rep_config true conf1) (s "joe") [s "guests"] OUpdate (rep_node (user_node "joe")) = Some Permit /\
  allowed_node (rep_config true conf1) (s "eve") [s "guests"] ORead (rep_node (user_node "joe")) = Some Deny /\
  allowed_node (rep_config true conf1) (s "eve") [s "admin"; s "guests"] ORead (rep_node (user_node "joe")) = Some Permit.
Proof.
  split; [|split; [|split; [|split; [vm_compute; reflexivity|split; vm_compute; reflexivity]]]].
  - intros l [<-|[<-|[]]]; cbn [sl_groups]; (split; [cbn [sorted]; split; [intros y []|exact I]|intros g [<-|[]]; vm_compute; discriminate]).
  - intros l r t [<-|[<-|[]]] Hr; cbn [sl_rules In] in Hr.
    + destruct Hr as [<-|[]]. discriminate.
    + destruct Hr as [<-|[<-|[]]]; cbn [sr_what]; intros E; injection E as <-.
      * split.
        -- apply Forall_cons; [|apply Forall_cons; [|apply Forall_nil]]; (split; [apply Forall_forall; intros x Hx; vm_compute in Hx; unfold name_char; cbn; intuition (subst; discriminate)|]).
           ++ apply Forall_nil.
           ++ apply Forall_cons; [|apply Forall_nil]. split; [|exact I]. apply Forall_forall; intros x Hx; vm_compute in Hx; unfold name_char; cbn; intuition (subst; discriminate).
        -- cbn [compat sn_path user_node]. split; [apply nb_refl|]. split; [apply nb_refl|]. split; [auto|].
           split; [apply nb_refl|]. split; [apply nb_refl|]. split; [|exact I].
           intros _. right. cbn [rs_preds s_preds map fst]. split; [reflexivity|]. constructor; [intros []|constructor].
      * split.
        -- apply Forall_cons; [|apply Forall_nil]. split; [apply Forall_forall; intros x Hx; vm_compute in Hx; unfold name_char; cbn; intuition (subst; discriminate)|apply Forall_nil].
        -- cbn [compat sn_path user_node]. split; [apply nb_refl|]. split; [apply nb_refl|]. split; [auto|exact I].
  - split; [|intros _; discriminate]. cbn [sn_path user_node].
    apply Forall_cons; [|apply Forall_cons; [|apply Forall_nil]]; (split; [apply Forall_forall; intros x Hx; vm_compute in Hx; unfold name_char; cbn; intuition (subst; discriminate)|]).
    + apply Forall_nil.
    + apply Forall_cons; [|apply Forall_nil]. split; cbn [fst snd]; apply Forall_forall; intros x Hx; vm_compute in Hx; unfold name_char, val_char; cbn; intuition (subst; discriminate).
Qed.
Example C19_example_groups :
  collect_groups (fun _ n => n - 1) (s "joe") [(s "staff", [s "eve"; s "joe"]); (s "none", [s "eve"]); (s "guests", [s "joe"])] [s "wheel"; s "staff"; s "adm"] =
  [s "adm"; s "guests"; s "staff"; s "wheel"].
Proof. vm_compute. reflexivity. Qed.

(** ** Counterexamples *)
Definition one_rule (w : what) (deny : bool) : sconfig := mksconfig true true true [mkslist [s "*"] [mksrule None w all_ops deny]].
Definition top (name : string) (preds : list (str * str)) : snode := mksnode NOther true (s name) (s "m") false false [mkseg (s ("m:" ++ name)%string) preds].

(** No rule but one for another node: not permitted by the defaults. *)
Lemma one_rule_not name preds t deny user groups o :
  ~ covers user t (sn_path (top name preds)) -> ~ permitted (one_rule (WData t) deny) user groups o (top name preds).
Proof.
  intros NC [(r & (ls1 & l & ls2 & rs1 & rs2 & E1 & E2 & _ & (_ & _ & A) & _) & _)|[_ H]].
  - cbn [sc_lists one_rule] in E1. destruct ls1 as [|l0 ls1]; cbn [app] in E1.
    + injection E1 as <- <-. cbn [sl_rules] in E2. destruct rs1 as [|r0 rs1]; cbn [app] in E2.
      * injection E2 as <- <-. cbn [about sr_what] in A. now apply NC.
      * injection E2 as _ E2. destruct rs1; discriminate E2.
    + injection E1 as _ E1. destruct ls1; discriminate E1.
  - destruct o; discriminate H.
Qed.

(** A rule for the node "cont" permits access also to the node "container". *)
Theorem C19_name_refuted : exists c user groups o n a,
  allowed_node (rep_config true c) user groups o (rep_node n) = Some a /\ is_permit a = true /\ ~ permitted c user groups o n.
Proof.
  exists (one_rule (WData [mkrseg (s "m:cont") []]) false), (s "joe"), [s "guests"], OUpdate, (top "container" []).
  eexists. split; [vm_compute; reflexivity|]. split; [reflexivity|].
  apply one_rule_not. vm_compute. intros [[H _] _]. discriminate H.
Qed.
(** A value with an apostrophe in a key makes it read after the end of the path. *)
Theorem C19_quote_refuted : exists user,
  allowed_path user (s "/m:l/x") (s "/m:l[k=""it's""]/x") = MUb.
Proof. exists (s "joe"). vm_compute. reflexivity. Qed.
(** "/" and "[" in values of keys are taken for the end of a node name and a predicate. *)
Theorem C19_slash_refuted : exists user rval nval,
  allowed_path user (pr_target [mkrseg (s "m:l") [(s "k", VLit rval)]]) (pr_path [mkseg (s "m:l") [(s "k", nval)]]) = MUb.
Proof. exists (s "joe"), (s "a/b"), (s "a[b"). vm_compute. reflexivity. Qed.
(** A rule with only the second key of a list covers nothing. *)
Theorem C19_key_refuted : exists user r n, covers user r n /\ allowed_path user (pr_target r) (pr_path n) = MNo.
Proof.
  exists (s "joe"), [mkrseg (s "m:l") [(s "b", VLit (s "1"))]], [mkseg (s "m:l") [(s "a", s "0"); (s "b", s "1")]].
  split; [|vm_compute; reflexivity]. cbn [covers]. split; [|exact I]. split; [reflexivity|].
  intros k v [H|[]]. injection H as <- <-. exists (s "1"). split; [now right; left|reflexivity].
Qed.
(** A rule list for the groups "!x" and "*" does not apply to users of groups before "!x", although "*" is every
    group. *)
Theorem C19_star_refuted : exists gs us, sorted gs /\ sorted us /\ us <> [] /\ In s_star gs /\ rule_group_match gs us = false.
Proof.
  exists [s "!x"; s_star], [s "!a"].
  split; [|split; [|split; [discriminate|split; [now right; left|vm_compute; reflexivity]]]].
  - cbn [sorted]. split; [intros y [<-|[]]; vm_compute; discriminate|]. split; [intros y []|exact I].
  - cbn [sorted]. split; [intros y []|exact I].
Qed.
(** Notifications in data cannot be the target of a rule with a path, not even if the path leads to them. *)
Theorem C19_nested_refuted : exists user o nd r,
  n_type nd = NNotif /\ n_top nd = false /\ r_type r = TData /\ r_target r = Some (n_path nd) /\ r_ops r o = true /\ r_mod r = None /\
  check_rule user o nd r = VSkip.
Proof.
  exists (s "joe"), ORead, (mknode NNotif false (s "n") (s "m") false false (s "/m:c/n")),
    (mkrule None (Some (s "/m:c/n")) TData all_ops false).
  split; [reflexivity|]. split; [reflexivity|]. split; [reflexivity|]. split; [reflexivity|]. split; [reflexivity|].
  split; [reflexivity|]. vm_compute. reflexivity.
Qed.

(** * C20 *)
(** Operations a user may do on a node by the specification. *)
Definition good_nd (c : sconfig) (nd : node) : Prop := exists n, rep_node n = nd /\ good_node n /\ good_config c n.
Definition may (c : sconfig) (user : str) (groups : list str) (o : oper) (nd : node) : Prop :=
  exists n, rep_node n = nd /\ good_node n /\ good_config c n /\ permitted c user groups o n.

Section May.
Variables (c : sconfig) (user : str) (groups : list str).
Hypotheses (GL : good_lists c) (SG : sorted groups).
Let cc := rep_config true c.
Lemma allows_may o nd : good_nd c nd -> (allows cc user groups o nd <-> may c user groups o nd).
Proof.
  intros (n & <- & G1 & G2). split.
  - intros (a & H1 & H2). exists n. destruct (decide true c user groups o n GL SG G1 G2) as (b & H3 & H4).
    unfold cc in H1. rewrite H1 in H3. injection H3 as <-. split; [reflexivity|]. split; [auto|]. split; [auto|]. now apply H4.
  - intros (m & E & M1 & M2 & M3). destruct (decide true c user groups o m GL SG M1 M2) as (b & H3 & H4).
    exists b. rewrite <- E. split; [exact H3|]. now apply H4.
Qed.
Lemma allows_or o nd : good_nd c nd -> allows cc user groups o nd \/ refuses cc user groups o nd.
Proof.
  intros (n & <- & G1 & G2). destruct (decide true c user groups o n GL SG G1 G2) as (b & H3 & H4).
  destruct (is_permit b) eqn:E; [left|right]; exists b; auto.
Qed.
Lemma refuses_not o nd : good_nd c nd -> (refuses cc user groups o nd <-> ~ may c user groups o nd).
Proof.
  intros G. rewrite <- allows_may by auto. split.
  - intros (a & H1 & H2) (b & H3 & H4). congruence.
  - intros H. destruct (allows_or o nd G) as [A|A]; [tauto|auto].
Qed.

(** Data of a module: all nodes are of it, keys are without children, names and values are those of [C19_decision]. *)
Record good_data (p : str) (t : tree) : Prop := mkgd {
  gd_module : one_module t;
  gd_keys : forall q y, at_ p t q y -> t_key y = true -> t_ch y = [];
  gd_nodes : forall q y, at_ p t q y -> good_nd c (tnode q y) }.

(** Every node of returned data is a key, or may be read, or there is a node inside that may be read; the nodes
    are those of the datastore. *)
Theorem C20_returned p t b t' : good_data p t -> filter_r cc user groups p t = Some (b, Some t') ->
  forall q y, at_ p t' q y ->
    (exists y0, at_ p t q y0 /\ t_id y0 = t_id y /\ tnode q y0 = tnode q y) /\
    (t_key y = true \/ exists q' y', at_ q y q' y' /\ may c user groups ORead (tnode q' y')).
Proof.
  intros [M K N] F q y A.
  assert (OR : forall q y, at_ p t' q y -> exists y0, at_ p t q y0 /\ t_id y0 = t_id y /\ tnode q y0 = tnode q y).
  { intros. eapply (filter_from cc user groups (tsize t)); eauto. }
  assert (GN : forall q y, at_ p t' q y -> good_nd c (tnode q y)).
  { intros q1 y1 A1. destruct (OR q1 y1 A1) as (y0 & B1 & _ & B2). rewrite <- B2. now apply N. }
  split; [now apply OR|].
  destruct (allows_or ORead (tnode q y) (GN q y A)) as [W|W].
  - right. exists q, y. split; [constructor|]. apply allows_may; auto.
  - destruct (filter_safe cc user groups (tsize t) p t b t' (le_n _) M K F) as [_ S].
    destruct (S q y A W) as [H|(q' & y' & A' & W')]; [auto|]. right. exists q', y'. split; [auto|].
    apply allows_may; auto. apply GN. eapply at_trans; eauto.
Qed.
(** Every node that may be read is returned, unless an ancestor is refused by the extension default-deny-all. *)
Theorem C20_not_lost p t b o q y : good_data p t -> filter_r cc user groups p t = Some (b, o) ->
  at_ p t q y -> may c user groups ORead (tnode q y) ->
  (forall q' z, at_ p t q' z -> at_ q' z q y -> t_dall z = true -> may c user groups ORead (tnode q' z)) ->
  exists t' y', o = Some t' /\ at_ p t' q y' /\ t_id y' = t_id y /\ tnode q y' = tnode q y.
Proof.
  intros [M K N] F A W X.
  destruct (filter_complete cc user groups p t q y A b o M) as (_ & H); auto.
  - intros q' z A1 A2 D. apply allows_may; auto.
  - apply allows_may; auto.
Qed.
(** Parents of a node whose subtree is returned. *)
Fixpoint chain (ps : list (str * tree)) (p : str) (t : tree) : Prop :=
  match ps with
  | [] => p = []
  | (q, z) :: rest => p = q ++ t_piece z /\ In t (t_ch z) /\ chain rest q z
  end.
Lemma chain_at ps : forall p t q z, chain ps p t -> In (q, z) ps -> at_ q z p t.
Proof.
  induction ps as [|[q0 z0] ps IH]; intros p t q z C H; [destruct H|].
  cbn [chain] in C. destruct C as (-> & Hin & C). destruct H as [H|H].
  - injection H as <- <-. apply (at_child q0 z0 t); [auto|constructor].
  - apply (at_trans q z q0 z0); [now apply IH|]. apply (at_child q0 z0 t); [auto|constructor].
Qed.
Lemma chain_top ps : forall p t, chain ps p t -> exists r, at_ [] r p t /\ forall q z, In (q, z) ps -> at_ [] r q z.
Proof.
  induction ps as [|[q0 z0] ps IH]; intros p t C.
  - cbn [chain] in C. subst p. exists t. split; [constructor|intros q z []].
  - cbn [chain] in C. destruct C as (-> & Hin & C). destruct (IH _ _ C) as (r & A & B). exists r. split.
    + eapply at_trans; [exact A|]. apply (at_child q0 z0 t); [auto|constructor].
    + intros q z [H|H]; [injection H as <- <-; auto|auto].
Qed.
(** A subtree: returned nodes may be read or lead to those that may be, a subtree of a parent without permitted
    access is not returned. *)
Theorem C20_subtree ps p t t' : chain ps p t -> (forall r, at_ [] r p t -> good_data [] r) -> t_key t = false ->
  subtree_filter cc user groups ps p t = Some (Some t') ->
  (forall q y, at_ p t' q y -> t_key y = true \/ exists q' y', at_ q y q' y' /\ may c user groups ORead (tnode q' y')) /\
  (forall q z, In (q, z) ps -> may c user groups ORead (tnode q z) \/
     exists q' y', at_ p t' q' y' /\ may c user groups ORead (tnode q' y')).
Proof.
  intros C G Kt F. unfold subtree_filter in F.
  destruct (parents_ok cc user groups ps) as [[]|] eqn:P; try discriminate F.
  destruct (filter_r cc user groups p t) as [[b o]|] eqn:E; [|discriminate F]. injection F as ->.
  destruct (chain_top ps p t C) as (r & A & B). pose proof (G r A) as [M K N].
  assert (GD : good_data p t).
  { constructor.
    - assert (GG : forall p t q y, at_ p t q y -> one_module t -> one_module y).
      { clear. intros p t q y A. induction A as [|p t x q y Hin A IH]; intros M; auto. apply IH. now apply (one_module_child t). }
      eapply GG; eauto.
    - intros q y A'. apply (K q y). eapply at_trans; eauto.
    - intros q y A'. apply N. eapply at_trans; eauto. }
  pose proof (C20_returned p t b t' GD E) as R.
  split; [intros q y A'; now apply R|].
  intros q z Hz. destruct (allows_or ORead (tnode q z) (N _ _ (B q z Hz))) as [W|W].
  - left. apply allows_may; auto. 
  - right.
    assert (KT : t_key t' = false).
    { destruct (proj1 (R p t' (at_here _ _))) as (y0 & _ & _ & _).
      rewrite filter_unfold in E. destruct (reads cc user groups p t) as [[]|]; try discriminate E.
      - rewrite Kt in E. discriminate E.
      - destruct (fkids (filter_r cc user groups (p ++ t_piece t)) (t_ch t)) as [[[] l]|]; try discriminate E.
        + injection E as <- <-. now rewrite key_with.
        + rewrite Kt in E. discriminate E.
      - destruct (fkids (filter_r cc user groups (p ++ t_piece t)) (t_ch t)) as [[[] l]|]; try discriminate E;
          injection E as <- <-; now rewrite key_with.
      - injection E as <- <-. auto. }
    destruct (R p t' (at_here _ _)) as [_ [H|(q' & y' & A' & W')]]; [congruence|]. exists q', y'. auto.
Qed.
(** A subtree with a node that may be read is returned with it. *)
Theorem C20_subtree_not_lost ps p t r q y : chain ps p t -> (forall r, at_ [] r p t -> good_data [] r) ->
  subtree_filter cc user groups ps p t = Some r ->
  at_ p t q y -> may c user groups ORead (tnode q y) ->
  (forall q' z, at_ q' z q y -> t_dall z = true -> may c user groups ORead (tnode q' z)) ->
  exists t' y', r = Some t' /\ at_ p t' q y' /\ t_id y' = t_id y /\ tnode q y' = tnode q y.
Proof.
  intros C G F A W X. unfold subtree_filter in F.
  destruct (chain_top ps p t C) as (r0 & A0 & B). pose proof (G r0 A0) as [M K N].
  assert (GG : forall p t q y, at_ p t q y -> one_module t -> one_module y).
  { clear. intros p t q y A. induction A as [|p t x q y Hin A IH]; intros M; auto. apply IH. now apply (one_module_child t). }
  assert (PO : forall ps0, (forall q z, In (q, z) ps0 -> In (q, z) ps) -> parents_ok cc user groups ps0 <> Some false).
  { induction ps0 as [|[q1 z1] ps0 IH]; intros H; cbn [parents_ok]; [discriminate|].
    unfold reads. destruct (allowed_node cc user groups ORead (tnode q1 z1)) as [a|] eqn:E; [|discriminate].
    assert (Hin : In (q1, z1) ps) by (apply H; now left).
    assert (AT : at_ q1 z1 q y) by (eapply at_trans; [eapply chain_at; eauto|auto]).
    destruct a; try (apply IH; intros q2 z2 H2; apply H; now right).
    exfalso. assert (GD : good_nd c (tnode q y)) by (apply N; eapply at_trans; eauto).
    destruct (t_dall z1) eqn:D.
    - apply allows_may in W; [|auto]. pose proof (X q1 z1 AT D) as X1. apply allows_may in X1; [|apply N; now apply B].
      destruct X1 as (a & X1 & X2). rewrite E in X1. injection X1 as <-. discriminate X2.
    - apply (deny_below cc user groups ORead (tnode q1 z1) (tnode q y)); auto.
      + apply at_below; auto. eapply GG; [apply B; eauto|auto].
      + destruct z1. cbn [tnode n_dall n_dwrite writes andb t_dall] in *. now rewrite D.
      + now apply allows_may. }
  destruct (parents_ok cc user groups ps) as [[]|] eqn:P; [|exfalso; now apply (PO ps)|discriminate F].
  destruct (filter_r cc user groups p t) as [[b o]|] eqn:E; [|discriminate F]. injection F as <-.
  apply (C20_not_lost p t b o q y); auto.
  constructor.
  - eapply GG; eauto.
  - intros q1 y1 A'. apply (K q1 y1). eapply at_trans; eauto.
  - intros q1 y1 A'. apply N. eapply at_trans; eauto.
Qed.

(** * C21 *)
(** All changed nodes of an accepted change may be changed so, or a rule permits the operation somewhere below
    them. Supposing that children of a changed node are changed in the same way and are of the same module. *)
Theorem C21_accepted_partial recovery ts : user <> recovery ->
  (forall t, In t ts -> uniform [] None t) ->
  (forall t q o y, In t ts -> dat [] None t q (Some (Some o)) y -> good_nd c (dtnode q y)) ->
  check_diff cc user groups recovery ts = Some false ->
  forall t q o y, In t ts -> dat [] None t q (Some (Some o)) y ->
  may c user groups o (dtnode q y) \/ permits_below cc user groups o (dtnode q y).
Proof.
  intros NR U G F t q o y Ht A. unfold check_diff in F.
  replace (c_enabled cc) with true in F by reflexivity. cbn [negb orb] in F. rewrite str_eqb_neq in F by auto.
  assert (FD : diff_denied cc user groups [] None t = Some false).
  { clear U G A. induction ts as [|x ts IH]; [destruct Ht|]. cbn [diffs_denied] in F.
    destruct (diff_denied cc user groups [] None x) as [[]|] eqn:E; try discriminate F.
    destruct Ht as [<-|Ht]; auto. }
  destruct (allows_or o (dtnode q y) (G t q o y Ht A)) as [W|W].
  - left. apply allows_may; eauto.
  - right. eapply (diff_accepted cc user groups [] None t q (Some (Some o)) y); eauto.
Qed.
(** A refused change has a node which the user may not change so. *)
Theorem C21_refused recovery ts :
  (forall t q o y, In t ts -> dat [] None t q (Some (Some o)) y -> good_nd c (dtnode q y)) ->
  check_diff cc user groups recovery ts = Some true ->
  user <> recovery /\ exists t q o y, In t ts /\ dat [] None t q (Some (Some o)) y /\ ~ may c user groups o (dtnode q y).
Proof.
  intros G F. unfold check_diff in F.
  replace (c_enabled cc) with true in F by reflexivity. cbn [negb orb] in F.
  destruct (str_eqb user recovery) eqn:E; [discriminate F|]. split; [intros ->; rewrite str_eqb_refl in E; discriminate E|].
  clear E. induction ts as [|x ts IH]; cbn [diffs_denied] in F; [discriminate F|].
  destruct (diff_denied cc user groups [] None x) as [[]|] eqn:E; try discriminate F.
  - destruct (diff_refused cc user groups (dsize x) [] None x (le_n _) E) as (q & o & y & A & R).
    exists x, q, o, y. split; [now left|]. split; [auto|]. apply refuses_not; auto. eapply G; [now left|eauto].
  - destruct IH as (t & q & o & y & Ht & H); auto.
    + intros t q o y Ht. apply G. now right.
    + exists t, q, o, y. split; [now right|auto].
Qed.
End May.
Print Assumptions C20_returned.
Print Assumptions C20_not_lost.
Print Assumptions C20_subtree.
Print Assumptions C20_subtree_not_lost.
Print Assumptions C21_accepted_partial.
Print Assumptions C21_refused.

(** ** The case of users *)
Definition users_tree : tree :=
  T 0 (s "/m:users") (s "m") false false
    [T 1 (s "/user[name='joe']") (s "m") false false [T 2 (s "/name") (s "m") false true []; T 3 (s "/mail") (s "m") false false []];
     T 4 (s "/user[name='eve']") (s "m") false false [T 5 (s "/name") (s "m") false true []; T 6 (s "/mail") (s "m") false false []]].
Example C20_example : filter_r (rep_config true conf1) (s "eve") [s "guests"] [] users_tree =
  Some (true, Some (T 0 (s "/m:users") (s "m") false false
    [T 4 (s "/user[name='eve']") (s "m") false false [T 5 (s "/name") (s "m") false true []; T 6 (s "/mail") (s "m") false false []]])).
Proof. vm_compute. reflexivity. Qed.
Definition segs_of (k : nat) : list seg :=
  match k with
  | 0 => [mkseg (s "m:users") []]
  | 1 => [mkseg (s "m:users") []; mkseg (s "user") [(s "name", s "joe")]]
  | 2 => [mkseg (s "m:users") []; mkseg (s "user") [(s "name", s "joe")]; mkseg (s "name") []]
  | 3 => [mkseg (s "m:users") []; mkseg (s "user") [(s "name", s "joe")]; mkseg (s "mail") []]
  | 4 => [mkseg (s "m:users") []; mkseg (s "user") [(s "name", s "eve")]]
  | 5 => [mkseg (s "m:users") []; mkseg (s "user") [(s "name", s "eve")]; mkseg (s "name") []]
  | _ => [mkseg (s "m:users") []; mkseg (s "user") [(s "name", s "eve")]; mkseg (s "mail") []]
  end.
Lemma good_segs k : Forall good_seg (segs_of k) /\ segs_of k <> [] /\
  compat [mkrseg (s "m:users") []; mkrseg (s "user") [(s "name", VUser)]] (segs_of k) /\ compat [mkrseg (s "m:users") []] (segs_of k).
Proof.
  assert (GS : forall n, In n [s "m:users"; s "user"; s "name"; s "mail"; s "joe"; s "eve"] -> Forall name_char n /\ Forall val_char n).
  { intros n Hn. cbn [In] in Hn. repeat (destruct Hn as [<-|Hn]); [..|destruct Hn];
      (split; apply Forall_forall; intros x Hx; vm_compute in Hx; unfold name_char, val_char; cbn; intuition (subst; discriminate)). }
  assert (G0 : good_seg (mkseg (s "m:users") [])) by (split; [apply GS; cbn; auto|apply Forall_nil]).
  assert (G1 : forall v, In v [s "joe"; s "eve"] -> good_seg (mkseg (s "user") [(s "name", v)])).
  { intros v Hv. split; [apply GS; cbn; auto|]. apply Forall_cons; [|apply Forall_nil]. split; apply GS; [cbn; auto|].
    cbn [In] in *. tauto. }
  assert (G2 : forall v, In v [s "name"; s "mail"] -> good_seg (mkseg v [])).
  { intros v Hv. split; [apply GS; cbn [In] in *; tauto|apply Forall_nil]. }
  assert (ND : forall v : str, map fst [(s "name", VUser)] = map fst [(s "name", v)] /\ NoDup (map fst [(s "name", v)])).
  { intros v. split; [reflexivity|]. constructor; [intros []|constructor]. }
  assert (Q : segs_of k = [mkseg (s "m:users") []] \/ exists v l, In v [s "joe"; s "eve"] /\ (l = [] \/ exists w, In w [s "name"; s "mail"] /\ l = [mkseg w []]) /\
     segs_of k = mkseg (s "m:users") [] :: mkseg (s "user") [(s "name", v)] :: l).
  { do 6 (destruct k as [|k]; [cbn [segs_of]; auto; try (right; eexists; eexists; split; [|split; [|reflexivity]]; cbn [In]; eauto 10; fail)|]).
    right. eexists. eexists. split; [|split; [|reflexivity]]; cbn [In]; eauto 10. }
  destruct Q as [->|(v & l & Hv & Hl & ->)].
  - split; [apply Forall_cons; [auto|apply Forall_nil]|]. split; [discriminate|].
    cbn [compat rs_name s_name rs_preds s_preds]. pose proof (nb_refl (s "m:users")). split; [auto|]. split; [auto|]. split; [auto|]. auto.
  - split; [|split; [discriminate|]].
    + apply Forall_cons; [auto|]. apply Forall_cons; [now apply G1|]. destruct Hl as [->|(w & Hw & ->)]; [apply Forall_nil|].
      apply Forall_cons; [now apply G2|apply Forall_nil].
    + cbn [compat rs_name s_name rs_preds s_preds]. pose proof (nb_refl (s "m:users")). pose proof (nb_refl (s "user")).
      split; [|split; [auto|]; split; [auto|]; split; [auto|exact I]].
      split; [auto|]. split; [auto|]. split; [auto|]. split; [auto|]. split; [auto|]. split; [|destruct l; exact I]. auto.
Qed.
(** The hypotheses hold for these data. *)
Fixpoint nodes (p : str) (t : tree) : list (str * tree) :=
  match t with T _ pc _ _ _ ch => (p, t) :: flat_map (nodes (p ++ pc)) ch end.
Lemma at_nodes p t q y : at_ p t q y -> In (q, y) (nodes p t).
Proof.
  induction 1 as [p t|p t x q y Hin A IH]; destruct t as [i pc m d k ch]; cbn [nodes]; [now left|].
  right. apply in_flat_map. exists x. split; [exact Hin|exact IH].
Qed.
Definition users_check (x : str * tree) : bool :=
  match x with
  | (q, T i pc m d k ch) => str_eqb (q ++ pc) (pr_path (segs_of i)) && str_eqb m (s "m") && negb d && (negb k || match ch with [] => true | _ => false end)
  end.
Lemma at_users p q y : p = [] -> at_ p users_tree q y ->
  tnode q y = mknode NOther (match q with [] => true | _ => false end) [] (s "m") false false (pr_path (segs_of (t_id y))) /\ t_mod y = s "m" /\ (t_key y = true -> t_ch y = []).
Proof.
  intros -> A. apply at_nodes in A.
  assert (C : forallb users_check (nodes [] users_tree) = true) by (vm_compute; reflexivity).
  rewrite forallb_forall in C. specialize (C _ A). clear A.
  destruct y as [i pc m d k ch]. unfold users_check in C.
  apply andb_true_iff in C as [C C4]. apply andb_true_iff in C as [C C3]. apply andb_true_iff in C as [C1 C2].
  apply str_eqb_eq in C1, C2. apply negb_true_iff in C3. subst d m. unfold tnode. rewrite C1.
  split; [reflexivity|]. split; [reflexivity|]. cbn [t_key t_ch]. intros ->. destruct ch; [auto|discriminate C4].
Qed.
Lemma at_restart p t q y : at_ p t q y -> forall p', exists q', at_ p' t q' y.
Proof.
  intros A. induction A as [p t|p t x q y Hin A IH]; intros p'; [exists p'; constructor|].
  destruct (IH (p' ++ t_piece t)) as (q' & A'). exists q'. now apply (at_child p' t x).
Qed.
Example C20_example_good : good_data conf1 [] users_tree.
Proof.
  constructor.
  - intros p q y A. destruct (at_restart _ _ _ _ A []) as (q' & A'). now apply at_users in A' as (_ & -> & _).
  - intros q y A. now apply at_users in A.
  - intros q y A. apply at_users in A as (-> & _ & _); [|reflexivity]. destruct (good_segs (t_id y)) as (G1 & G2 & G3 & G4).
    exists (mksnode NOther (match q with [] => true | _ => false end) [] (s "m") false false (segs_of (t_id y))).
    split; [reflexivity|]. split; [split; [exact G1|intros _; exact G2]|].
    intros l r t [<-|[<-|[]]] Hr; cbn [sl_rules In] in Hr.
    + destruct Hr as [<-|[]]. discriminate.
    + assert (GS : forall n, In n [s "m:users"; s "user"; s "name"] -> Forall name_char n).
      { intros n Hn. cbn [In] in Hn. repeat (destruct Hn as [<-|Hn]); [..|destruct Hn];
        (apply Forall_forall; intros x Hx; vm_compute in Hx; unfold name_char; cbn; intuition (subst; discriminate)). }
      destruct Hr as [<-|[<-|[]]]; cbn [sr_what]; intros E; injection E as <-; (split; [|assumption]).
      * apply Forall_cons; [|apply Forall_cons; [|apply Forall_nil]]; (split; [apply GS; cbn; auto|]).
        -- apply Forall_nil.
        -- apply Forall_cons; [|apply Forall_nil]. split; [apply GS; cbn; auto|exact I].
      * apply Forall_cons; [|apply Forall_nil]. split; [apply GS; cbn; auto|apply Forall_nil].
Qed.

(** ** Counterexamples *)
(** sr_get_item() and sr_get_items() return a node that is refused, if it is not a top-level one. *)
Theorem C20_items_refuted : exists c user groups ps p t,
  chain ps p t /\ allowed_node c user groups ORead (tnode p t) = Some Deny /\
  subtree_filter c user groups ps p t = Some None /\ set_filter c user groups ps p t = Some true.
Proof.
  set (leaf := T 1 (s "/secret") (s "m") false false []).
  exists (rep_config true (one_rule (WData [mkrseg (s "m:c") []; mkrseg (s "secret") []]) true)), (s "joe"), [s "guests"],
    [([], T 0 (s "/m:c") (s "m") false false [leaf])], (s "/m:c"), leaf.
  split; [|split; [vm_compute; reflexivity|split; vm_compute; reflexivity]].
  cbn [chain t_ch t_piece In]. split; [reflexivity|]. split; [now left|reflexivity].
Qed.
(** Children of other modules: a rule for a module is not used for them if the parent is permitted. *)
Theorem C20_module_refuted : exists c user groups t t' q y,
  filter_r c user groups [] t = Some (true, Some t') /\ at_ [] t' q y /\ t_key y = false /\ t_ch y = [] /\
  allowed_node c user groups ORead (tnode q y) = Some Deny.
Proof.
  set (leaf := T 1 (s "/n:secret") (s "n") false false []).
  set (cont := T 0 (s "/m:c") (s "m") false false [leaf]).
  exists (rep_config true (mksconfig false true true [mkslist [s "*"]
     [mksrule (Some (s "n")) WAny all_ops true; mksrule None (WData [mkrseg (s "m:c") []]) all_ops false]])), (s "joe"), [s "guests"], cont, cont, (s "/m:c"), leaf.
  split; [vm_compute; reflexivity|]. split; [|split; [reflexivity|split; [reflexivity|vm_compute; reflexivity]]].
  apply (at_child [] cont leaf); [now left|constructor].
Qed.
(** A key that is refused is returned if it is asked for. *)
Theorem C20_key_refuted : exists c user groups ps p t t',
  chain ps p t /\ t_key t = true /\ subtree_filter c user groups ps p t = Some (Some t') /\
  forall q z, In (q, z) ((p, t) :: ps) -> exists a, allowed_node c user groups ORead (tnode q z) = Some a /\ is_permit a = false.
Proof.
  set (leaf := T 1 (s "/k") (s "m") false true []).
  exists (rep_config true (one_rule (WData [mkrseg (s "m:l") []; mkrseg (s "x") []]) false)), (s "joe"), [s "guests"],
    [([], T 0 (s "/m:l[k='secret']") (s "m") false false [leaf])], (s "/m:l[k='secret']"), leaf, leaf.
  split; [cbn [chain t_ch t_piece In]; split; [reflexivity|]; split; [now left|reflexivity]|].
  split; [reflexivity|]. split; [vm_compute; reflexivity|].
  intros q z [H|[H|[]]]; injection H as <- <-; eexists; (split; [vm_compute; reflexivity|reflexivity]).
Qed.

(** A change of a node refused by the defaults is accepted, since something below is permitted. *)
Theorem C21_partial_refuted : exists c user groups t,
  check_diff c user groups [] [t] = Some false /\ user <> [] /\ d_op None t = Some (Some ODelete) /\
  refuses c user groups ODelete (dtnode [] t).
Proof.
  exists (rep_config true (one_rule (WData [mkrseg (s "m:c") []; mkrseg (s "x") []]) false)), (s "joe"), [s "guests"],
    (DT (Some (Some ODelete)) (s "/m:c") (s "m") false false []).
  split; [vm_compute; reflexivity|]. split; [discriminate|]. split; [reflexivity|]. eexists. split; [vm_compute; reflexivity|reflexivity].
Qed.
(** Moving of a list entry is permitted, then anything may be deleted in it. *)
Theorem C21_move_refuted : exists c user groups t q y,
  check_diff c user groups [] [t] = Some false /\ dat [] None t q (Some (Some ODelete)) y /\
  allowed_node c user groups ODelete (dtnode q y) = Some Deny.
Proof.
  set (leaf := DT (Some (Some ODelete)) (s "/x") (s "m") false false []).
  set (entry := DT (Some (Some OUpdate)) (s "/m:l[k='1']") (s "m") false false [leaf]).
  exists (rep_config true (mksconfig false true true [mkslist [s "*"] [mksrule None (WData [mkrseg (s "m:l") []]) (fun o => match o with OUpdate => true | _ => false end) false]])),
    (s "joe"), [s "guests"], entry, (s "/m:l[k='1']"), leaf.
  split; [vm_compute; reflexivity|]. split; [|vm_compute; reflexivity].
  apply (dat_child [] None entry leaf); [now left|apply (dat_here (s "/m:l[k='1']") (Some (Some OUpdate)) leaf)].
Qed.
Example C21_example :
  check_diff (rep_config true conf1) (s "eve") [s "guests"] [] [DT (Some None) (s "/m:users") (s "m") false false
     [DT (Some (Some OCreate)) (s "/user[name='eve']") (s "m") false false [DT None (s "/name") (s "m") false false []; DT None (s "/mail") (s "m") false false []]]] = Some false /\
  check_diff (rep_config true conf1) (s "eve") [s "guests"] [] [DT (Some None) (s "/m:users") (s "m") false false
     [DT None (s "/user[name='joe']") (s "m") false false [DT None (s "/name") (s "m") false false []; DT (Some (Some OUpdate)) (s "/mail") (s "m") false false []]]] = Some true.
Proof. split; vm_compute; reflexivity. Qed.

(** The hypotheses of [C21_accepted_partial] hold for the first of these changes. *)
Fixpoint dnodes (p : str) (i : option (option oper)) (t : dtree) : list (str * option (option oper) * dtree) :=
  match t with
  | DT own pc m d w ch =>
      let o := match own with Some o => Some o | None => i end in
      (p, o, t) :: flat_map (dnodes (p ++ pc) o) ch
  end.
Lemma dat_nodes p i t q o y : dat p i t q o y -> In (q, o, y) (dnodes p i t).
Proof.
  induction 1 as [p i t|p i t x q o y Hin A IH]; destruct t as [own pc m d k ch]; cbn [dnodes]; cbv zeta; [now left|].
  right. apply in_flat_map. exists x. split; [exact Hin|exact IH].
Qed.
Definition created (o : option (option oper)) : bool := match o with Some (Some OCreate) => true | _ => false end.
Definition eve_diff : dtree :=
  DT (Some None) (s "/m:users") (s "m") false false
    [DT (Some (Some OCreate)) (s "/user[name='eve']") (s "m") false false [DT None (s "/name") (s "m") false false []; DT None (s "/mail") (s "m") false false []]].
Definition eve_check (x : str * option (option oper) * dtree) : bool :=
  match x with
  | (q, o, DT _ pc m d w ch) =>
      existsb (fun k => str_eqb (q ++ pc) (pr_path (segs_of k))) [0; 4; 5; 6] && str_eqb m (s "m") && negb d && negb w &&
      match o with
      | Some (Some _) => created o && forallb (fun z => match z with (_, o', z') => created o' && str_eqb (d_mod z') (s "m") end) (dnodes q o (DT None pc m d w ch))
      | _ => true
      end
  end.
Example C21_example_good : uniform [] None eve_diff /\
  forall q o y, dat [] None eve_diff q (Some (Some o)) y -> good_nd conf1 (dtnode q y).
Proof.
  assert (C : forallb eve_check (dnodes [] None eve_diff) = true) by (vm_compute; reflexivity).
  rewrite forallb_forall in C.
  assert (OWN : forall q o own pc m d w ch, own = None \/ own = Some (Some o) ->
     forall x, In x (dnodes q (Some (Some o)) (DT own pc m d w ch)) -> x = (q, Some (Some o), DT own pc m d w ch) \/ In x (flat_map (dnodes (q ++ pc) (Some (Some o))) ch)).
  { intros q o own pc m d w ch Ho x Hx. destruct Ho as [->| ->]; cbn [dnodes] in Hx; cbv zeta in Hx; destruct Hx as [<-|Hx]; auto. }
  split.
  - intros q o y r o' z A1 A2. apply dat_nodes in A1.
    assert (OY : exists pc m d w ch, (y = DT None pc m d w ch \/ y = DT (Some (Some o)) pc m d w ch)).
    { clear A2. assert (C2 : forallb (fun x => match x with (_, Some (Some op), DT (Some (Some op')) _ _ _ _ _) => created (Some (Some op)) && created (Some (Some op')) | (_, Some (Some _), DT (Some None) _ _ _ _ _) => false | _ => true end) (dnodes [] None eve_diff) = true) by (vm_compute; reflexivity).
      rewrite forallb_forall in C2. specialize (C2 _ A1). destruct y as [own pc m d w ch]. exists pc, m, d, w, ch.
      destruct own as [[op'|]|]; [|discriminate C2|auto]. apply andb_true_iff in C2 as [C2 C3].
      destruct o; try discriminate C2. destruct op'; try discriminate C3. auto. }
    specialize (C _ A1). destruct OY as (pc & m & d & w & ch & OY).
    apply dat_nodes in A2.
    assert (C' : forallb (fun z => match z with (_, o', z') => created o' && str_eqb (d_mod z') (s "m") end) (dnodes q (Some (Some o)) (DT None pc m d w ch)) = true /\ created (Some (Some o)) = true /\ m = s "m").
    { destruct OY as [->| ->]; unfold eve_check in C; apply andb_true_iff in C as [C C5]; apply andb_true_iff in C as [C _]; apply andb_true_iff in C as [C _]; apply andb_true_iff in C as [_ C2];
        apply str_eqb_eq in C2; apply andb_true_iff in C5 as [C5 C6]; auto. }
    destruct C' as (C1 & C2 & Cm). destruct o; try discriminate C2. rewrite forallb_forall in C1.
    assert (Q : created o' = true /\ d_mod z = s "m").
    { destruct OY as [->| ->].
      - specialize (C1 _ A2). apply andb_true_iff in C1 as [D1 D2]. apply str_eqb_eq in D2. auto.
      - apply OWN in A2 as [A2|A2]; [|auto|auto].
        + injection A2 as -> -> ->. auto.
        + assert (A3 : In (r, o', z) (dnodes q (Some (Some OCreate)) (DT None pc m d w ch))) by (cbn [dnodes]; cbv zeta; now right).
          specialize (C1 _ A3). apply andb_true_iff in C1 as [D1 D2]. apply str_eqb_eq in D2. auto. }
    destruct Q as [Q1 Q2]. split.
    + destruct o' as [[[]|]|]; try discriminate Q1. reflexivity.
    + rewrite Q2. destruct OY as [->| ->]; cbn [d_mod]; auto.
  - intros q o y A. apply dat_nodes in A. specialize (C _ A). destruct y as [own pc m d w ch]. unfold eve_check in C.
    apply andb_true_iff in C as [C _]. apply andb_true_iff in C as [C C4]. apply andb_true_iff in C as [C C3]. apply andb_true_iff in C as [C1 C2].
    apply existsb_exists in C1 as (k & _ & C1). apply str_eqb_eq in C1, C2. apply negb_true_iff in C3, C4. subst d w m.
    unfold dtnode. rewrite C1. destruct (good_segs k) as (G1 & G2 & G3 & G4).
    exists (mksnode NOther (match q with [] => true | _ => false end) [] (s "m") false false (segs_of k)).
    split; [reflexivity|]. split; [split; [exact G1|intros _; exact G2]|].
    destruct C20_example_good as [_ _ N]. destruct (N [] users_tree (at_here _ _)) as (n0 & E0 & _ & GC).
    intros l r t Hl Hr Ht. split; [now apply (GC l r t)|].
    destruct Hl as [<-|[<-|[]]]; cbn [sl_rules In] in Hr.
    + destruct Hr as [<-|[]]. discriminate Ht.
    + destruct Hr as [<-|[<-|[]]]; cbn [sr_what] in Ht; injection Ht as <-; assumption.
Qed.
