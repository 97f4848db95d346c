(** C50: the operational datastore has the configuration somebody is subscribed to. *)

From Coq Require Import List Arith Bool Lia Sorted Cantor.
Import ListNotations.
From Verif Require Import Enabled EnabledSpec EnabledProofs.

(** Whether the data are duplicated from the cache or moved from those
    loaded, nothing undefined happens, and a node of the running data is there
    exactly if it should. *)
Theorem C50_content : forall np key rank R subs dup, wf R -> key_leaf key R ->
  exists out, get_enabled np key rank R subs dup = Some out /\ wf out /\
    forall p, mem p out <-> mem p R /\ included np key (fun s => mem s R /\ wanted subs s) p.
Proof. intros. apply enabled_content; assumption. Qed.
Print Assumptions C50_content.

(** Subscriptions that are passive or of dead processes enable nothing. *)
Theorem C50_inactive : forall np key rank R subs dup, wf R -> key_leaf key R ->
  (forall s, In s subs -> s_passive s = true \/ s_alive s = false) ->
  exists out, get_enabled np key rank R subs dup = Some out /\
    forall p, mem p out <-> mem p R /\ Forall (fun i => np i = true) p.
Proof.
  intros np key rank R subs dup W K H. destruct (enabled_content np key rank R subs dup W K) as (out & E & _ & M).
  exists out. split; [exact E|]. intro p. rewrite M. split; intros [HR Hi]; (split; [exact HR|]).
  - apply inc_split in Hi. destruct Hi as [Hi | (s & (_ & _ & b & Hb & B1 & B2 & _) & _)]; [exact Hi|].
    destruct (H b Hb); congruence.
  - change p with ([] ++ p). apply inc_np_app; [apply inc_root|exact Hi].
Qed.
Print Assumptions C50_inactive.

(** One active subscription to the whole module enables all of it. *)
Theorem C50_whole : forall np key rank R subs dup s, wf R -> key_leaf key R ->
  In s subs -> s_xpath s = None -> s_passive s = false -> s_alive s = true ->
  exists out, get_enabled np key rank R subs dup = Some out /\ forall p, mem p out <-> mem p R.
Proof.
  intros np key rank R subs dup s W K Hs Hx Hp Ha. destruct (enabled_content np key rank R subs dup W K) as (out & E & _ & M).
  exists out. split; [exact E|]. intro p. rewrite M. split; [tauto|]. intro HR. split; [exact HR|].
  destruct p as [|i p]; [apply inc_root|]. apply (inc_below _ _ _ (i :: p)); [|apply under_refl]. split; [exact HR|].
  split; [discriminate|]. exists s. rewrite Hx. auto.
Qed.
Print Assumptions C50_whole.

(** ** The order *)

Section Order.
Variables (np key : inst -> bool) (rank : inst -> nat).
Hypothesis inj : forall i j, rank i = rank j -> i = j.
Notation merge1 := (merge1 rank). Notation merge := (merge rank). Notation ins := (ins rank).
Notation addnp := (addnp np rank). Notation chain := (chain key rank). Notation skel := (skel np).

Definition lt_t (a b : tree) : Prop := rank (ti a) < rank (ti b).
Inductive srt : forest -> Prop :=
| SRT f : StronglySorted lt_t f -> (forall i ch, In (T i ch) f -> srt ch) -> srt f.

Lemma srt_inv f : srt f -> StronglySorted lt_t f /\ forall i ch, In (T i ch) f -> srt ch.
Proof. intro S. destruct S. auto. Qed.

Lemma sorted_srt f : wf f -> sorted rank f -> srt f.
Proof.
  induction 1 as [f ND Wc IH]. intro S. inversion S as [f' Hle Hch]; subst f'. constructor; [|eauto].
  clear IH Hch Wc S. induction f as [|a f IHf]; [constructor|]. cbn [map] in ND. apply NoDup_cons_iff in ND. destruct ND as [N ND].
  constructor.
  - apply IHf; [exact ND|]. intros l x m y r E. apply (Hle (a :: l) x m y r). cbn [app]. rewrite E. reflexivity.
  - rewrite Forall_forall. intros b Hb. destruct (in_split _ _ Hb) as (m & r & E).
    assert (rank (ti a) <= rank (ti b)) by (apply (Hle [] a m b r); cbn [app]; rewrite E; reflexivity).
    unfold lt_t. destruct (Nat.eq_dec (rank (ti a)) (rank (ti b))) as [Eq | Ne]; [|lia]. exfalso. apply N. rewrite (inj _ _ Eq).
    apply in_map. exact Hb.
Qed.

Lemma ins_sorted t f : ~ In (ti t) (map ti f) -> StronglySorted lt_t f -> StronglySorted lt_t (ins t f).
Proof.
  induction f as [|x f IH]; cbn [Enabled.ins map In]; intros N S.
  - constructor; [constructor|constructor].
  - apply StronglySorted_inv in S. destruct S as [S Hx]. destruct (Nat.ltb_spec (rank (ti t)) (rank (ti x))) as [L | L].
    + constructor; [constructor; assumption|]. constructor; [exact L|]. rewrite Forall_forall in *. intros y Hy. specialize (Hx y Hy).
      unfold lt_t in *. lia.
    + constructor; [apply IH; tauto|]. rewrite Forall_forall in *. intros y Hy.
      apply (Permutation.Permutation_in _ (ins_perm rank t f)) in Hy. destruct Hy as [<- | Hy]; [|auto].
      unfold lt_t. destruct (Nat.eq_dec (rank (ti x)) (rank (ti t))) as [E | Ne]; [|lia]. exfalso. apply N. left. apply inj. exact E.
Qed.

Lemma ss_map (f g : forest) : map ti f = map ti g -> StronglySorted lt_t f -> StronglySorted lt_t g.
Proof.
  revert g. induction f as [|x f IH]; intros [|y g] E S; cbn [map] in E; try discriminate; [constructor|].
  injection E as Ex E. apply StronglySorted_inv in S. destruct S as [S Hx]. constructor; [auto|].
  rewrite Forall_forall in *. intros z Hz. unfold lt_t. rewrite <- Ex. apply (in_map ti) in Hz. rewrite <- E in Hz.
  apply in_map_iff in Hz. destruct Hz as (w & <- & Hw). exact (Hx w Hw).
Qed.

Lemma srt_sing t : srt [t] <-> srt (tch t).
Proof.
  destruct t as [i c]. cbn [tch]. split.
  - intro S. apply srt_inv in S. apply (proj2 S i). left. reflexivity.
  - intro S. constructor; [constructor; [constructor|constructor]|]. intros j d [E | []]. assert (d = c) by congruence. subst d. exact S.
Qed.

Lemma srt_nodup f : srt f -> NoDup (map ti f).
Proof.
  intro S. apply srt_inv in S. destruct S as [S _]. induction S as [|x f S IH H]; cbn [map]; constructor; [|exact IH].
  intro Hin. apply in_map_iff in Hin. destruct Hin as (y & E & Hy). rewrite Forall_forall in H. specialize (H y Hy).
  unfold lt_t in H. rewrite E in H. lia.
Qed.

Lemma merge1_srt : forall s f, srt [s] -> srt f -> srt (merge1 s f).
Proof.
  apply (tree_ind' (fun s => forall f, srt [s] -> srt f -> srt (merge1 s f))). intros i ch IH f Ss Sf.
  apply srt_sing in Ss. cbn [tch] in Ss. cbn [Enabled.merge1]. pose proof (srt_inv _ Sf) as [S1 S2]. pose proof (srt_inv _ Ss) as [_ Ss2].
  destruct (find_t i f) as [t|] eqn:F.
  - constructor; [apply (ss_map f); [symmetry; apply upd_ti|exact S1]|]. intros j c Hin. apply upd_in in Hin; [|apply srt_nodup; exact Sf].
    destruct Hin as [(_ & Hin) | (-> & c0 & Hin & ->)]; [eauto|]. pose proof (S2 _ _ Hin) as Sc.
    assert (Hs : forall x, In x ch -> srt [x]) by (intros [k d] Hx; apply srt_sing; eapply Ss2; eauto).
    clear Ss Ss2 Hin. revert c0 Sc. induction IH as [|x ch Hx _ IH']; intros c0 Sc; cbn [fold_left]; [exact Sc|].
    apply IH'; [intros y Hy; apply Hs; right; exact Hy|]. apply Hx; [apply Hs; left; reflexivity|exact Sc].
  - apply find_none in F. constructor; [apply ins_sorted; assumption|]. intros j c Hin.
    apply (Permutation.Permutation_in _ (ins_perm rank (T i ch) f)) in Hin. destruct Hin as [E | Hin]; [|eauto].
    assert (c = ch) by congruence. subst c. exact Ss.
Qed.

Lemma srt_each f t : srt f -> In t f -> srt [t].
Proof. intros S Hin. apply srt_sing. destruct t as [i c]. apply srt_inv in S. eapply (proj2 S); eauto. Qed.

Lemma merge_srt g : forall f, (forall t, In t g -> srt [t]) -> srt f -> srt (merge g f).
Proof.
  induction g as [|x g IH]; intros f Hg Sf; [exact Sf|]. unfold Enabled.merge. cbn [fold_left]. apply IH.
  - intros t Ht. apply Hg. right. exact Ht.
  - apply merge1_srt; [apply Hg; left; reflexivity|exact Sf].
Qed.

Lemma ss_filter h f : StronglySorted lt_t f -> StronglySorted lt_t (filter h f).
Proof.
  induction 1 as [|x f S IH H]; cbn [filter]; [constructor|]. destruct (h x); [|exact IH]. constructor; [exact IH|].
  rewrite Forall_forall in *. intros y Hy. apply filter_In in Hy. apply H. tauto.
Qed.

Lemma srt_filter h f : srt f -> srt (filter h f).
Proof.
  intro S. apply srt_inv in S. destruct S as [S1 S2]. constructor; [apply ss_filter; exact S1|].
  intros i c Hin. apply filter_In in Hin. eapply S2. apply Hin.
Qed.

Lemma skel_srt f : srt f -> srt (skel f).
Proof.
  induction 1 as [f S1 S2 IH]. constructor.
  - apply (ss_map (filter (fun t => np (ti t)) f)); [|apply ss_filter; exact S1]. clear. induction f as [|[i ch] f IH]; [reflexivity|].
    cbn [Enabled.skel flat_map skel_t filter ti]. destruct (np i); cbn [app map ti]; unfold Enabled.skel in IH; rewrite IH; reflexivity.
  - intros i c Hin. unfold Enabled.skel in Hin. apply in_flat_map in Hin. destruct Hin as ([j ch] & Hj & Hin). cbn [skel_t] in Hin.
    destruct (np j); [|destruct Hin]. destruct Hin as [E | []]. injection E as <- <-. eapply IH; eauto.
Qed.

Lemma addnp_srt : forall t f, srt f -> srt [t] -> srt [addnp f t].
Proof.
  apply (tree_ind' (fun t => forall f, srt f -> srt [t] -> srt [addnp f t])). intros i ch IH f Sf St. apply srt_sing in St.
  cbn [tch] in St. apply srt_sing. cbn [Enabled.addnp tch].
  assert (Sc : srt (match find_t i f with Some x => tch x | None => [] end)).
  { destruct (find_t i f) as [x|] eqn:F; [|constructor; [constructor|intros j c []]].
    apply find_some in F. destruct F as [Hin _]. apply srt_sing. exact (srt_each f x Sf Hin). }
  set (c := match find_t i f with Some x => tch x | None => [] end) in *. apply merge_srt.
  - intros t Ht. exact (srt_each _ _ (skel_srt c Sc) Ht).
  - apply srt_inv in St. destruct St as [S1 S2]. constructor.
    + apply (ss_map ch); [|exact S1]. rewrite map_map. apply map_ext. intros [j x]. reflexivity.
    + intros j d Hin. apply in_map_iff in Hin. destruct Hin as (t & E & Ht). rewrite Forall_forall in IH.
      assert (srt [addnp c t]).
      { apply IH; [exact Ht|exact Sc|]. destruct t as [k e]. apply srt_sing. eapply S2; eauto. }
      rewrite E in H. apply srt_sing in H. exact H.
Qed.

Lemma get_srt : forall s f t, srt f -> get s f = Some t -> srt [t].
Proof.
  induction s as [|i s IH]; intros f t S G; [discriminate|]. cbn [get] in G. destruct (find_t i f) as [x|] eqn:F; [|discriminate].
  apply find_some in F. destruct F as [Hin _]. pose proof (srt_each f x S Hin) as Sx. destruct s as [|j s].
  - assert (x = t) by congruence. subst x. exact Sx.
  - eapply IH; [|exact G]. apply srt_sing. exact Sx.
Qed.

Lemma chain_srt : forall s f t, srt f -> srt [t] -> srt [chain s f t].
Proof.
  induction s as [|i s IH]; intros f t S St; [exact St|]. cbn [Enabled.chain]. destruct s as [|j s]; [exact St|].
  destruct (find_t i f) as [x|] eqn:F; [|exact St]. apply find_some in F. destruct F as [Hin _].
  pose proof (srt_each f x S Hin) as Sx. apply srt_sing in Sx. apply srt_sing. cbn [tch]. apply merge1_srt; [apply IH; assumption|].
  apply srt_filter. exact Sx.
Qed.

Lemma unlink_srt : forall s f, srt f -> srt (unlink s f).
Proof.
  induction s as [|i s IH]; intros f S; [exact S|]. cbn [unlink]. destruct s as [|j s]; [apply srt_filter; exact S|].
  pose proof (srt_inv _ S) as [S1 S2]. constructor; [apply (ss_map f); [symmetry; apply upd_ti|exact S1]|].
  intros k c Hin. apply upd_in in Hin; [|apply srt_nodup; exact S]. destruct Hin as [(_ & Hin) | (-> & c0 & Hin & ->)]; [eauto|].
  apply IH. eauto.
Qed.

Lemma each_dup_srt R : forall set new out, srt R -> srt new -> each_dup np key rank R set new = Some out -> srt out.
Proof.
  induction set as [|s set IH]; intros new out SR Sn E; cbn [each_dup] in E; [congruence|].
  destruct (get s R) as [t|] eqn:G; [|discriminate]. apply (IH _ out SR) in E; [exact E|]. apply merge1_srt; [|exact Sn].
  apply addnp_srt; [exact SR|]. apply chain_srt; [exact SR|]. exact (get_srt s R t SR G).
Qed.

Lemma each_move_srt R : srt R -> forall set f moved new out, srt f -> srt new ->
  each_move np key rank R f moved set new = Some out -> srt out.
Proof.
  intro SR. induction set as [|s set IH]; intros f moved new out Sf Sn E; cbn [each_move] in E; [congruence|].
  destruct (existsb _ moved); [eapply IH; [| |exact E]; assumption|]. destruct (get s f) as [t|] eqn:G; [|discriminate].
  assert (Sn' : srt (merge1 (addnp R (chain s f t)) new)).
  { apply merge1_srt; [|exact Sn]. apply addnp_srt; [exact SR|]. apply chain_srt; [exact Sf|]. exact (get_srt s f t Sf G). }
  cbv zeta in E. destruct (key (ti t)); eapply IH; [| |exact E| | |exact E]; try assumption. apply unlink_srt. exact Sf.
Qed.

Lemma pruned_nil f : pruned [] f.
Proof. induction f; [apply pr_nil|apply pr_skip; assumption]. Qed.

Lemma srt_pruned g : srt g -> forall f, srt f -> (forall p, mem p f -> mem p g) -> pruned f g.
Proof.
  induction 1 as [g S1 S2 IH]. revert S2 IH. induction S1 as [|x g S1 IHg Hx]; intros S2 IH f Sf Sub.
  - destruct f as [|[i c] f]; [apply pr_nil|]. exfalso. destruct (Sub [i]) as (d & [] & _). exists c. split; [left; reflexivity|exact Logic.I].
  - destruct f as [|[i c] f]; [apply pruned_nil|]. pose proof (srt_inv _ Sf) as [F1 F2]. apply StronglySorted_inv in F1.
    destruct F1 as [F1 F1x]. destruct x as [j d]. destruct (inst_dec i j) as [-> | Hne].
    + assert (Hj : ~ In j (map ti g)).
      { intro Hin. apply in_map_iff in Hin. destruct Hin as (y & E & Hy). rewrite Forall_forall in Hx. specialize (Hx y Hy).
        unfold lt_t in Hx. rewrite E in Hx. cbn [ti] in Hx. lia. }
      assert (Hjf : ~ In j (map ti f)).
      { intro Hin. apply in_map_iff in Hin. destruct Hin as (y & E & Hy). rewrite Forall_forall in F1x. specialize (F1x y Hy).
        unfold lt_t in F1x. rewrite E in F1x. cbn [ti] in F1x. lia. }
      apply pr_keep.
      * apply (IH j d); [left; reflexivity|eapply F2; left; reflexivity|]. intros p Hm.
        destruct (Sub (j :: p)) as (d' & [E | Hin] & Hm').
        -- exists c. split; [left; reflexivity|exact Hm].
        -- assert (d' = d) by congruence. subst d'. exact Hm'.
        -- exfalso. apply Hj. eapply in_ti; eauto.
      * apply IHg.
        -- intros k e Hin. apply (S2 k). right. exact Hin.
        -- intros k e Hin. apply (IH k). right. exact Hin.
        -- constructor; [exact F1|]. intros k e Hin. apply (F2 k). right. exact Hin.
        -- intros [|k p] Hm; [exact Logic.I|]. destruct Hm as (e & Hin & Hm).
           destruct (Sub (k :: p)) as (d' & [E | Hin'] & Hm').
           ++ exists e. split; [right; exact Hin|exact Hm].
           ++ exfalso. apply Hjf. assert (j = k) by congruence. subst k. eapply in_ti; eauto.
           ++ exists d'. auto.
    + assert (Hi : exists e, In (T i e) g).
      { destruct (Sub [i]) as (e & [E | Hin] & _); [exists c; split; [left; reflexivity|exact Logic.I]|congruence|eauto]. }
      destruct Hi as (e & Hi).
      assert (Hlt : rank j < rank i).
      { rewrite Forall_forall in Hx. exact (Hx _ Hi). }
      apply pr_skip. apply IHg.
      * intros k e' Hin. apply (S2 k). right. exact Hin.
      * intros k e' Hin. apply (IH k). right. exact Hin.
      * exact Sf.
      * intros [|k p] Hm; [exact Logic.I|]. destruct (Sub (k :: p) Hm) as (d' & [E | Hin'] & Hm').
        -- exfalso. assert (j = k) by congruence. subst k. destruct Hm as (e' & [E' | Hin] & _).
           ++ assert (i = j) by congruence. congruence.
           ++ rewrite Forall_forall in F1x. specialize (F1x _ Hin). unfold lt_t in F1x. cbn [ti] in F1x. lia.
        -- exists d'. auto.
Qed.

Lemma enabled_srt R subs dup out : wf R -> sorted rank R -> get_enabled np key rank R subs dup = Some out -> srt out.
Proof.
  intros W S E. pose proof (sorted_srt R W S) as SR. unfold get_enabled in E. destruct R as [|t0 R0] eqn:ER.
  - injection E as <-. exact (skel_srt [] SR).
  - rewrite <- ER in *. clear ER t0 R0. destruct (existsb _ subs).
    + injection E as <-. apply merge_srt; [|apply skel_srt; exact SR]. intros t Ht. exact (srt_each R t SR Ht).
    + destruct dup.
      * eapply each_dup_srt; [exact SR| |exact E]. apply skel_srt. exact SR.
      * eapply each_move_srt; [exact SR|exact SR| |exact E]. apply skel_srt. exact SR.
Qed.

End Order.

(** Without lists ordered by the user (so that the order of siblings is given
    by what they are) the result is the running data with nodes left out, and it does not
    matter whether data were duplicated or moved. Missing: the order of
    entries ordered by the user, refuted below. *)
Theorem C50_order_partial : forall np key rank R subs dup,
  (forall i j, rank i = rank j -> i = j) -> wf R -> sorted rank R -> key_leaf key R ->
  exists out, get_enabled np key rank R subs dup = Some out /\ pruned out R.
Proof.
  intros np key rank R subs dup Hinj W S K. destruct (enabled_content np key rank R subs dup W K) as (out & E & Wo & M).
  exists out. split; [exact E|]. apply (srt_pruned rank).
  - exact (sorted_srt rank Hinj R W S).
  - exact (enabled_srt np key rank Hinj R subs dup out W S E).
  - intros p Hm. apply M in Hm. tauto.
Qed.
Print Assumptions C50_order_partial.

Lemma pruned_mem f g : pruned f g -> forall p, mem p f -> mem p g.
Proof.
  induction 1 as [|f t g H IH|i c c' f g H1 IH1 H2 IH2]; intros [|j p] Hm; try exact Logic.I.
  - exact Hm.
  - destruct (IH (j :: p) Hm) as (d & Hin & Hm'). exists d. split; [right; exact Hin|exact Hm'].
  - destruct Hm as (d & [E | Hin] & Hm).
    + injection E as <- <-. exists c'. split; [left; reflexivity|auto].
    + destruct (IH2 (j :: p)) as (d' & Hin' & Hm'); [exists d; auto|]. exists d'. split; [right; exact Hin'|exact Hm'].
Qed.

(** *** Data for the examples: container 1 (no presence) with list entries 2
    (keys 5) having a key leaf 3 and a leaf 4 *)
Definition np0 (i : inst) : bool := Nat.eqb (i_node i) 1.
Definition key0 (i : inst) : bool := Nat.eqb (i_node i) 3.
Definition entry (v : nat) : tree := T (Inst 2 v) [T (Inst 3 v) []; T (Inst 4 7) []].
Definition R0 : forest := [T (Inst 1 0) [entry 5; entry 6]].
Definition is_path (p q : path) : bool := path_eqb p q.
Definition sub0 (p : path) : sub := Sub (Some (is_path p)) false true.

(** Siblings of the list are ordered by the user. *)
Definition rank_user (i : inst) : nat := i_node i.

Example C50_case :
  get_enabled np0 key0 rank_user R0 [sub0 [Inst 1 0; Inst 2 6; Inst 4 7]; Sub None true true] false =
  Some [T (Inst 1 0) [entry 6]].
Proof. vm_compute. reflexivity. Qed.

Lemma R0_wf : wf R0.
Proof.
  assert (L : forall i, wf [T i []]).
  { intro i. constructor; [cbn [map ti]; repeat constructor; intros []|]. intros j c [E | []]. injection E as _ <-. constructor; [constructor|intros k d []]. }
  assert (E : forall v, wf [T (Inst 3 v) []; T (Inst 4 7) []]).
  { intro v. constructor.
    - cbn [map ti]. repeat constructor; [intros [X | []]; discriminate|intros []].
    - intros j c [X | [X | []]]; injection X as _ <-; (constructor; [constructor|intros k d []]). }
  constructor; [cbn [map ti]; repeat constructor; intros []|]. intros i c [X | []]. injection X as _ <-. constructor.
  - cbn [map ti entry]. repeat constructor; [intros [X | []]; discriminate|intros []].
  - intros i' c' [X | [X | []]]; injection X as _ <-; apply E.
Qed.

Lemma R0_keys : key_leaf key0 R0.
Proof.
  intros q k r Hm Hk. assert (Hin : q ++ k :: r <> [] /\ mem (q ++ k :: r) R0) by (split; [destruct q; discriminate|exact Hm]).
  assert (Hx : In (q ++ k :: r) (find_xpath (fun _ => true) R0)) by (apply find_xpath_in; tauto).
  vm_compute in Hx.
  repeat (destruct Hx as [Hx | Hx]; [
    repeat (destruct q as [|? q]; cbn [app] in Hx; [injection Hx as <- <-; try reflexivity; discriminate Hk|];
            injection Hx as _ Hx); try discriminate Hx; destruct q; discriminate Hx|]).
  destruct Hx.
Qed.

Lemma R0_sorted_gen rank : rank (Inst 2 5) <= rank (Inst 2 6) -> (forall v, v = 5 \/ v = 6 -> rank (Inst 3 v) <= rank (Inst 4 7)) -> sorted rank R0.
Proof.
  intros H1 H2.
  assert (N : sorted rank []).
  { constructor; [|intros i c []]. intros l a m b r E. destruct l; discriminate. }
  assert (P : forall a b, rank (ti a) <= rank (ti b) -> (forall i c, In (T i c) [a; b] -> sorted rank c) -> sorted rank [a; b]).
  { intros a b Hab Hc. constructor; [|exact Hc]. intros l x m y r E. destruct l as [|l0 l]; cbn [app] in E.
    - injection E as <- E. destruct m as [|m0 m]; cbn [app] in E; [injection E as <- _; exact Hab|]. injection E as _ E. destruct m; discriminate.
    - injection E as _ E. destruct l as [|l1 l]; cbn [app] in E; [injection E as _ E; destruct m; discriminate|].
      injection E as _ E. destruct l; discriminate. }
  constructor.
  - intros l a m b r E. destruct l as [|l0 l]; cbn [app] in E; injection E as _ E; [destruct m; discriminate|destruct l; discriminate].
  - intros i c [E | []]. injection E as _ <-. apply P; [exact H1|]. intros j d [E | [E | []]]; injection E as _ <-;
      (apply P; [apply H2; auto|]; intros k e [E | [E | []]]; injection E as _ <-; exact N).
Qed.

Lemma R0_sorted : sorted rank_user R0.
Proof. apply R0_sorted_gen; [|intros v _]; cbn; lia. Qed.

(** An order with no two the same. *)
Definition rank_sys (i : inst) : nat := Cantor.to_nat (i_node i, i_val i).
Lemma rank_sys_inj i j : rank_sys i = rank_sys j -> i = j.
Proof.
  unfold rank_sys. intro E. apply (f_equal Cantor.of_nat) in E. rewrite !Cantor.cancel_of_to in E.
  destruct i as [a b], j as [c d]. cbn [i_node i_val] in E. congruence.
Qed.

Example C50_hypotheses : wf R0 /\ key_leaf key0 R0 /\ sorted rank_user R0 /\ sorted rank_sys R0.
Proof.
  split; [exact R0_wf|]. split; [exact R0_keys|]. split; [exact R0_sorted|].
  apply R0_sorted_gen; [apply Nat.leb_le; vm_compute; reflexivity|].
  intros v [-> | ->]; apply Nat.leb_le; vm_compute; reflexivity.
Qed.

(** F141: with subscriptions to parts of a list ordered by the user its entries are in
    the order of subscriptions and not of the running datastore, since the nodes
    selected by one XPath are processed after those of another
    (src/common.c 4458-4475, 4553). *)
Theorem C50_order_refuted :
  ~ (forall np key rank R subs dup, wf R -> sorted rank R -> key_leaf key R ->
       exists out, get_enabled np key rank R subs dup = Some out /\ pruned out R).
Proof.
  intro H. destruct (H np0 key0 rank_user R0 [sub0 [Inst 1 0; Inst 2 6]; sub0 [Inst 1 0; Inst 2 5]] true R0_wf R0_sorted R0_keys) as (out & E & P).
  assert (Hout : out = [T (Inst 1 0) [entry 6; entry 5]]).
  { vm_compute in E. injection E as <-. reflexivity. }
  subst out. inversion P as [|f t g P1|i c c' f g P1 P2]; subst.
  - inversion P1.
  - inversion P1 as [|f t g P3|i c c' f g P3 P4]; subst.
    inversion P3 as [|f t g P5|i c c' f g P5 P6]; subst; [inversion P5|inversion P6].
Qed.
Print Assumptions C50_order_refuted.
