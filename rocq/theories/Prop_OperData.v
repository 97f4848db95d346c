(** C41: operational data are composed of what is there already and of what subscribers provide. *)
From Coq Require Import String Ascii List Bool Arith Lia.
From Verif Require Import OperReq OperReqSpec OperReqProofs OperData OperDataSpec OperDataProofs OperDataParts.
Import ListNotations.

(** Whatever subscriptions were made and cancelled, every node has the value that the subscriptions for it
    give it one after another, above the data there were. This needs subscriptions of which one is written as
    an extension of the other or which are about different nodes (see the refutations for others). *)
Theorem C41_layers_partial : forall l base d, table l -> Forall good_sub l -> (forall a b, In a l -> In b l -> related a b) ->
  update [] l base = ROk d -> forall p, layers (get d) l p (get base p) (get d p).
Proof.
  intros l base d T G R U p. assert (W : Forall within l) by (apply Forall_forall; intros s Hs; rewrite Forall_forall in G; exact (proj1 (G s Hs))).
  pose proof (sorted_parents l (table_sorted l T) G R) as PF. rewrite (update_ok [] l base d W PF U p). apply lays_layers.
Qed.

(** Nodes nobody subscribed for are as they were. *)
Theorem C41_untouched : forall reqs l base d, Forall within l -> update reqs l base = ROk d -> forall p, (forall s, In s l -> ~ covers s p) -> get d p = get base p.
Proof.
  intros reqs. induction l as [|s l IH]; intros base d W U p N; cbn [update] in U; [injection U as <-; reflexivity|]. destruct (update1 reqs s base) as [d1| |] eqn:E; try discriminate. inversion W as [|? ? W1 W2]; subst.
  rewrite (IH d1 d W2 U p) by (intros x Hx; apply N; right; exact Hx). rewrite (update1_ok reqs s base d1 W1 E p). apply lay_out. destruct (inside (s_steps s) p) eqn:Z; [|reflexivity]. exfalso. apply (N s (or_introl eq_refl)). apply covers_iff. exact Z.
Qed.

(** The deepest subscription for a node, unless it is merged with others, decides alone: the node is there with
    what the subscribers answered, provided that the parent is there, otherwise it is not. *)
Theorem C41_provided_partial : forall l1 s l2 base d p, table (l1 ++ s :: l2) -> Forall good_sub (l1 ++ s :: l2) -> (forall a b, In a (l1 ++ s :: l2) -> In b (l1 ++ s :: l2) -> related a b) ->
  update [] (l1 ++ s :: l2) base = ROk d -> covers s p -> s_merge s = false -> (forall x, In x l2 -> ~ covers x p) ->
  (parent_of s p = [] \/ get d (parent_of s p) <> None -> get d p = answer (s_hs s) (parent_of s p) p) /\
  (parent_of s p <> [] -> get d (parent_of s p) = None -> get d p = None).
Proof.
  intros l1 s l2 base d p T G R U C M N. pose proof (C41_layers_partial _ base d T G R U p) as L.
  assert (A : forall a cur v, layers (get d) (a ++ s :: l2) p cur v -> exists c, layer (get d) s p c v).
  { induction a as [|x a IH]; intros cur v H; cbn [app layers] in H.
    - destruct H as (y & H1 & H2). exists cur. assert (v = y); [|subst; exact H1]. clear - H2 N. revert y H2. induction l2 as [|z l2 IH]; intros y H2; cbn [layers] in H2; [exact H2|]. destruct H2 as (w & (K & _) & H2). rewrite (K (N z (or_introl eq_refl))) in H2. apply IH; [intros q Hq; apply N; right; exact Hq|exact H2].
    - destruct H as (y & _ & H). exact (IH y v H). }
  destruct (A _ _ _ L) as (c & (_ & K)). destruct (K C) as (w & E & K1 & K2). rewrite M in E. split.
  - intro X. rewrite E, <- (K1 X). destruct w; reflexivity.
  - intros X Y. rewrite E, (K2 X Y). reflexivity.
Qed.

(** No error of a subscriber is hidden: data are returned only if all the subscribers for parents that are
    there succeeded. *)
Theorem C41_no_silent_error_partial : forall l base d, table l -> Forall good_sub l -> (forall a b, In a l -> In b l -> related a b) -> update [] l base = ROk d ->
  forall s h par, In s l -> In h (s_hs s) -> active h = true -> sel_at (removelast (s_steps s)) par = true -> par = [] \/ get d par <> None -> h_call h par <> None.
Proof.
  intros l base d T G R U s h par Hs Hh A S E. assert (W : Forall within l) by (apply Forall_forall; intros x Hx; rewrite Forall_forall in G; exact (proj1 (G x Hx))).
  exact (update_all l base d W (sorted_parents l (table_sorted l T) G R) U s par h Hs Hh A S E).
Qed.

(** Reading by XPaths, whichever subscribers are asked then, gives for the nodes that are read (with their parents and
    all below) the same as reading everything. *)
Theorem C41_part_partial : forall reqs l base d dr, table l -> Forall good_sub l -> (forall a b, In a l -> In b l -> related a b) -> Forall simple_union reqs ->
  update [] l base = ROk d -> update (map union_txt reqs) l base = ROk dr ->
  forall u r p, In u reqs -> In r u -> Forall (fun s => simple_steps (s_steps s) /\ all_apart r (mkpath true (s_steps s))) l ->
  wanted r p -> Forall good_inst p -> keys_apart r p -> get dr p = get d p.
Proof.
  intros reqs l base d dr T G R F U1 U2 u r p Hu Hr S W GI K. apply (part_ok reqs u r l base d dr F Hu Hr) with (n := length p); try assumption; try reflexivity.
  - apply Forall_forall. intros s Hs. rewrite Forall_forall in G, S. split; [exact (G s Hs)|exact (S s Hs)].
  - exact (sorted_parents l (table_sorted l T) G R).
Qed.

(** ** Cases *)
Definition tx (s : string) : str := s_ s.
Definition li (k : string) : inst := mkinst (tx "m") (tx "l") [(tx "name", tx k)].
Definition lf (n : string) : inst := mkinst (tx "m") (tx n) [].
Definition fixed (par : ipath) (d : data) : handler := mkh true false (fun p => if ipath_eqb p par then Some d else Some []).
Lemma fixed_in : forall s par d, s_steps s <> [] -> Forall node_step (s_steps s) -> s_hs s = [fixed par d] -> NoDup (map fst d) -> (forall p, In p (map fst d) -> inside (s_steps s) p = true /\ parent_of s p = par) -> within s.
Proof.
  intros s par d N F E ND I. split; [exact N|]. split; [exact F|]. intros h q x Hh C. rewrite E in Hh. destruct Hh as [<-|[]]. cbn [fixed h_call] in C. destruct (ipath_eqb q par) eqn:Q.
  - injection C as <-. apply ipath_eqb_eq in Q. subst q. split; [exact ND|]. intros p Hp. destruct (I p Hp) as (A & B). split; [apply covers_iff; exact A|exact B].
  - injection C as <-. split; [constructor|intros p []].
Qed.
Ltac idt := split; [left; reflexivity|repeat constructor].
Definition nm (n : string) : step := SName None (tx n) [].
Definition top (n : string) : step := SName (Some (tx "m")) (tx n) [].
(** The list is provided, and the leaf b in its instances. *)
Definition s_list : sub := mksub [top "l"] true [fixed [] [([li "x"], tx "")]].
Definition s_leaf : sub := mksub [top "l"; nm "b"] false [fixed [li "x"] [([li "x"; lf "b"], tx "7")]].
Definition s_base : data := [([li "c"], tx ""); ([li "c"; lf "b"], tx "1")].
Definition s_res : data := [([li "c"], tx ""); ([li "x"], tx ""); ([li "x"; lf "b"], tx "7")].
Lemma good_list : good_sub s_list.
Proof.
  split.
  - apply (fixed_in s_list [] [([li "x"], tx "")]); [discriminate|repeat constructor|reflexivity|repeat constructor; intros []|]. intros p [<-|[]]. split; vm_compute; reflexivity.
  - constructor; [|constructor]. cbn [good_step top]. split; [idt|]. split; [idt|constructor].
Qed.
Lemma good_leaf : good_sub s_leaf.
Proof.
  split.
  - apply (fixed_in s_leaf [li "x"] [([li "x"; lf "b"], tx "7")]); [discriminate|repeat constructor|reflexivity|repeat constructor; intros []|]. intros p [<-|[]]. split; vm_compute; reflexivity.
  - constructor; [|constructor; [|constructor]]; cbn [good_step top nm].
    + split; [idt|]. split; [idt|constructor].
    + split; [exact Logic.I|]. split; [idt|constructor].
Qed.
Definition s_req : path := mkpath true [SName (Some (tx "m")) (tx "l") [PEq (tx "name") "'" (tx "x")]; nm "b"].

(** Subscribed in the other order than they are asked; the configured instance c loses its b, which nobody
    provides, the instance x is provided with its b; also when only that is read. *)
Example C41_nonvacuous : let l := insert s_list (insert s_leaf []) in
  table l /\ Forall good_sub l /\ (forall a b, In a l -> In b l -> related a b) /\ update [] l s_base = ROk s_res /\
  (exists dr, update (map union_txt [[s_req]]) l s_base = ROk dr /\ get dr [li "x"; lf "b"] = Some (tx "7")) /\
  reads [s_req] "/m:l[name='x']/b" /\ simple_union [s_req] /\ wanted s_req [li "x"; lf "b"] /\ Forall good_inst [li "x"; lf "b"] /\ keys_apart s_req [li "x"; lf "b"] /\
  Forall (fun s => simple_steps (s_steps s) /\ all_apart s_req (mkpath true (s_steps s))) l.
Proof.
  cbv zeta. assert (E : insert s_list (insert s_leaf []) = [s_list; s_leaf]) by (vm_compute; reflexivity).
  split; [apply T_add; apply T_add; apply T_empty|]. rewrite E. split; [constructor; [exact good_list|constructor; [exact good_leaf|constructor]]|]. split.
  { intros a b [<-|[<-|[]]] [<-|[<-|[]]]; [left; exists []; reflexivity|left; exists [nm "b"]; reflexivity|right; left; exists [nm "b"]; reflexivity|left; exists []; reflexivity]. }
  split; [vm_compute; reflexivity|]. split; [eexists; split; vm_compute; reflexivity|]. split; [reflexivity|]. split.
  { split; [discriminate|]. split; (constructor; [|constructor]); [split|split; [reflexivity|]].
    - discriminate.
    - constructor; [|constructor; [|constructor]]; cbn [good_step nm]; [split; [idt|]; split; [idt|]; constructor; [|constructor]; split; [idt|]; split; [reflexivity|]; cbn; intros [X|[]]; discriminate|split; [exact Logic.I|]; split; [idt|constructor]].
    - cbn. split; [constructor; [exact Logic.I|constructor]|]. split; [constructor|exact Logic.I]. }
  split.
  { exists any, [li "x"; lf "b"]. split; [exact (sel_at_sel (p_steps s_req) [li "x"; lf "b"] [] eq_refl)|]. left. exists []. reflexivity. }
  split.
  { constructor; [|constructor; [|constructor]]; unfold good_inst; cbn [i_mod i_name i_keys li lf map fst].
    - split; [idt|]. split; [idt|]. split; [constructor; [intros []|constructor]|]. constructor; [|constructor]. cbn [fst snd]. split; [idt|]. left. cbn. intros [X|[]]. discriminate.
    - split; [idt|]. split; [idt|]. split; constructor. }
  split.
  { intros a b [<-|[]] Hb. cbn in Hb. destruct Hb as [<-|[]]. left. reflexivity. }
  constructor; [|constructor; [|constructor]]; (split; [cbn; repeat split; constructor|]); intros a b _ Hb; destruct Hb.
Qed.

(** ** What does not hold *)
(** The data of the subscription with the most nodes in its XPath can get lost: subscriptions are ordered by the
    length of their XPaths, in which the text of predicates is counted (sr_xpath_len_no_predicates() skips only
    values and brackets), so a subscription for "/m:l[name='x']" is processed after "/m:l/b" and deletes what
    that one has provided. *)
Theorem C41_order_refuted : exists l base d s x p, table l /\ Forall good_sub l /\ update [] l base = ROk d /\ In s l /\ s_merge s = false /\ covers s p /\
  l = [s; x] /\ length (s_steps x) < length (s_steps s) /\ get d (parent_of s p) <> None /\ answer (s_hs s) (parent_of s p) p = Some (tx "7") /\ get d p = None.
Proof.
  set (x := mksub [SName (Some (tx "m")) (tx "l") [PEq (tx "name") "'" (tx "x")]] false [fixed [] [([li "x"], tx "")]]).
  assert (Gx : good_sub x).
  { split.
    - apply (fixed_in x [] [([li "x"], tx "")]); [discriminate|repeat constructor|reflexivity|repeat constructor; intros []|]. intros p [<-|[]]. split; vm_compute; reflexivity.
    - constructor; [|constructor]. cbn [good_step]. split; [idt|]. split; [idt|]. constructor; [|constructor]. split; [idt|]. split; [reflexivity|]. cbn. intros [X|[]]. discriminate. }
  exists (insert s_leaf (insert x [])), [([li "x"], tx "")], [([li "x"], tx "")], s_leaf, x, [li "x"; lf "b"].
  assert (E : insert s_leaf (insert x []) = [s_leaf; x]) by (vm_compute; reflexivity).
  split; [apply T_add; apply T_add; apply T_empty|]. rewrite E. split; [constructor; [exact good_leaf|constructor; [exact Gx|constructor]]|]. split; [vm_compute; reflexivity|]. split; [left; reflexivity|]. split; [reflexivity|].
  split; [apply covers_iff; vm_compute; reflexivity|]. split; [reflexivity|]. split; [cbn; lia|]. split; [vm_compute; discriminate|]. split; vm_compute; reflexivity.
Qed.

(** A subscription for nodes in a list can be processed before the subscription for the list when the XPath of
    the latter is not shorter because of a prefix ("/m:c/m:l" and "/m:c/l/b"); the instances it should be asked
    about do not exist yet, it is not asked at all. *)
Theorem C41_prefix_refuted : exists l base d s x p, table l /\ Forall good_sub l /\ update [] l base = ROk d /\
  l = [s; x] /\ map bare (s_steps s) = map bare [top "c"; nm "l"; nm "b"] /\ s_steps x = [top "c"; top "l"] /\ s_merge x = true /\
  covers s p /\ get d (parent_of s p) <> None /\ answer (s_hs s) (parent_of s p) p = Some (tx "7") /\ get d p = None.
Proof.
  set (x := mksub [top "c"; top "l"] true [fixed [lf "c"] [([lf "c"; li "x"], tx "")]]).
  set (s := mksub [top "c"; nm "l"; nm "b"] false [fixed [lf "c"; li "x"] [([lf "c"; li "x"; lf "b"], tx "7")]]).
  assert (Gx : good_sub x).
  { split.
    - apply (fixed_in x [lf "c"] [([lf "c"; li "x"], tx "")]); [discriminate|repeat constructor|reflexivity|repeat constructor; intros []|]. intros p [<-|[]]. split; vm_compute; reflexivity.
    - constructor; [|constructor; [|constructor]]; cbn [good_step top]; (split; [idt|]; split; [idt|constructor]). }
  assert (Gs : good_sub s).
  { split.
    - apply (fixed_in s [lf "c"; li "x"] [([lf "c"; li "x"; lf "b"], tx "7")]); [discriminate|repeat constructor|reflexivity|repeat constructor; intros []|]. intros p [<-|[]]. split; vm_compute; reflexivity.
    - constructor; [|constructor; [|constructor; [|constructor]]]; cbn [good_step top nm]; [split; [idt|]; split; [idt|constructor]|split; [exact Logic.I|]; split; [idt|constructor]|split; [exact Logic.I|]; split; [idt|constructor]]. }
  exists (insert x (insert s [])), [([lf "c"], tx "")], [([lf "c"], tx ""); ([lf "c"; li "x"], tx "")], s, x, [lf "c"; li "x"; lf "b"].
  assert (E : insert x (insert s []) = [s; x]) by (vm_compute; reflexivity).
  split; [apply T_add; apply T_add; apply T_empty|]. rewrite E. split; [constructor; [exact Gs|constructor; [exact Gx|constructor]]|]. split; [vm_compute; reflexivity|]. split; [reflexivity|]. split; [reflexivity|]. split; [reflexivity|]. split; [reflexivity|].
  split; [apply covers_iff; vm_compute; reflexivity|]. split; [vm_compute; discriminate|]. split; vm_compute; reflexivity.
Qed.

(** Data that were there are not replaced but lost when the subscriber has crashed or is suspended: they are deleted
    before the subscriptions are looked at. *)
Theorem C41_dead_refuted : exists s base d p v, good_sub s /\ (forall h, In h (s_hs s) -> active h = false) /\ table [s] /\
  get base p = Some v /\ update [] [s] base = ROk d /\ get d p = None.
Proof.
  exists (mksub [top "l"] false [mkh false false (fun _ => Some [])]), s_base, [], [li "c"], (tx "").
  split.
  { split.
    - split; [discriminate|]. split; [repeat constructor|]. intros h par d [<-|[]] C. cbn [h_call] in C. injection C as <-. split; [constructor|intros p []].
    - constructor; [|constructor]. cbn [good_step top]. split; [idt|]. split; [idt|constructor]. }
  split; [intros h [<-|[]]; reflexivity|]. split; [change (table (insert (mksub [top "l"] false [mkh false false (fun _ => Some [])]) [])); apply T_add; apply T_empty|].
  split; [vm_compute; reflexivity|]. split; vm_compute; reflexivity.
Qed.

Print Assumptions C41_layers_partial.
Print Assumptions C41_untouched.
Print Assumptions C41_provided_partial.
Print Assumptions C41_no_silent_error_partial.
Print Assumptions C41_part_partial.
Print Assumptions C41_order_refuted.
Print Assumptions C41_prefix_refuted.
Print Assumptions C41_dead_refuted.
