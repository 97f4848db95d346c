(** Proofs about selecting the enabled data. *)

From Coq Require Import List Arith Bool Lia Permutation.
Import ListNotations.
From Verif Require Import Enabled EnabledSpec.

Section TreeInd.
Variable P : tree -> Prop.
Hypothesis H : forall i ch, Forall P ch -> P (T i ch).
Fixpoint tree_ind' (t : tree) : P t :=
  match t with
  | T i ch => H i ch ((fix go l : Forall P l := match l with [] => Forall_nil _ | x :: r => Forall_cons _ (tree_ind' x) (go r) end) ch)
  end.
End TreeInd.

Lemma inst_eqb_spec a b : reflect (a = b) (inst_eqb a b).
Proof.
  unfold inst_eqb. destruct a as [n v], b as [n' v']. cbn [i_node i_val].
  destruct (Nat.eqb_spec n n'), (Nat.eqb_spec v v'); cbn [andb]; constructor; congruence.
Qed.

Lemma inst_dec (a b : inst) : {a = b} + {a <> b}.
Proof. destruct (inst_eqb_spec a b); auto. Qed.

Lemma path_eqb_spec : forall a b, reflect (a = b) (path_eqb a b).
Proof.
  induction a as [|i a IH]; intros [|j b]; cbn [path_eqb]; try (constructor; congruence).
  destruct (inst_eqb_spec i j) as [-> | N]; cbn [andb]; [|constructor; congruence].
  destruct (IH b) as [-> | N]; constructor; congruence.
Qed.

Lemma below_spec : forall s q, reflect (under s q) (below s q).
Proof.
  induction s as [|i s IH]; intros [|j q]; cbn [below].
  - constructor. exists []. reflexivity.
  - constructor. exists (j :: q). reflexivity.
  - constructor. intros [r E]. discriminate.
  - destruct (inst_eqb_spec i j) as [-> | N]; cbn [andb].
    + destruct (IH q) as [U | N]; constructor.
      * destruct U as [r ->]. exists r. reflexivity.
      * intros [r E]. apply N. exists r. cbn [app] in E. congruence.
    + constructor. intros [r E]. cbn [app] in E. congruence.
Qed.

Lemma under_refl p : under p p. Proof. exists []. rewrite app_nil_r. reflexivity. Qed.
Lemma under_trans a b c : under a b -> under b c -> under a c.
Proof. intros [r ->] [s ->]. exists (r ++ s). rewrite app_assoc. reflexivity. Qed.
Lemma under_cons i a b : under (i :: a) (i :: b) <-> under a b.
Proof. split; intros [r E]; exists r; cbn [app] in *; congruence. Qed.
Lemma under_cmp : forall a b c, under a c -> under b c -> under a b \/ under b a.
Proof.
  induction a as [|i a IH]; intros b c Ha Hb; [left; exists b; reflexivity|].
  destruct b as [|j b]; [right; exists (i :: a); reflexivity|].
  destruct Ha as [r ->]. destruct Hb as [r' E]. cbn [app] in E. injection E as <- E.
  destruct (IH b (a ++ r)) as [U | U]; [exists r; reflexivity|exists r'; exact E| |].
  - left. apply under_cons. exact U.
  - right. apply under_cons. exact U.
Qed.

(** ** Existence *)

Lemma mem_app : forall q r f, mem (q ++ r) f -> mem q f.
Proof.
  induction q as [|i q IH]; intros r f; cbn [mem app]; [trivial|].
  intros (ch & H1 & H2). exists ch. split; [exact H1|]. eapply IH; eauto.
Qed.
Lemma mem_under q p f : under q p -> mem p f -> mem q f.
Proof. intros [r ->]. apply mem_app. Qed.

Lemma mem_single i ch p : mem p [T i ch] <-> p = [] \/ exists q, p = i :: q /\ mem q ch.
Proof.
  destruct p as [|j p]; cbn [mem]; [tauto|]. split.
  - intros (c & [E | []] & Hm). right. exists p. split; [congruence|]. assert (c = ch) by congruence. subst c. exact Hm.
  - intros [E | (q & E & Hm)]; [discriminate|]. injection E as -> ->. exists ch. split; [left; reflexivity|exact Hm].
Qed.

Lemma mem_in p f : p <> [] -> mem p f <-> exists t, In t f /\ mem p [t].
Proof.
  destruct p as [|i p]; [congruence|]. intros _. cbn [mem]. split.
  - intros (ch & Hin & Hm). exists (T i ch). split; [exact Hin|]. exists ch. split; [left; reflexivity|exact Hm].
  - intros (t & Hin & ch & [E | []] & Hm). subst t. exists ch. auto.
Qed.

Lemma mem_flat {A} (h : A -> forest) p l : p <> [] -> mem p (flat_map h l) <-> exists x, In x l /\ mem p (h x).
Proof.
  intro Hp. rewrite mem_in by exact Hp. split.
  - intros (t & Hin & Hm). apply in_flat_map in Hin. destruct Hin as (x & Hx & Ht). exists x. split; [exact Hx|].
    apply mem_in; [exact Hp|]. eauto.
  - intros (x & Hx & Hm). apply mem_in in Hm; [|exact Hp]. destruct Hm as (t & Ht & Hm). exists t. split; [|exact Hm].
    apply in_flat_map. eauto.
Qed.

Lemma wf_inv f : wf f -> NoDup (map ti f) /\ forall i ch, In (T i ch) f -> wf ch.
Proof. intro W. destruct W as [f A B]. auto. Qed.

Lemma in_ti i ch f : In (T i ch) f -> In i (map ti f).
Proof. intro H. apply (in_map ti) in H. exact H. Qed.

Lemma same_tree (f : forest) i a b : NoDup (map ti f) -> In (T i a) f -> In (T i b) f -> a = b.
Proof.
  induction f as [|[j c] f IH]; cbn [map ti]; intros ND H1 H2; [destruct H1|].
  apply NoDup_cons_iff in ND. destruct ND as [N ND]. destruct H1 as [E1 | H1], H2 as [E2 | H2].
  - congruence.
  - exfalso. apply N. assert (j = i) by congruence. subst j. eapply in_ti; eauto.
  - exfalso. apply N. assert (j = i) by congruence. subst j. eapply in_ti; eauto.
  - auto.
Qed.

Lemma find_some i f t : find_t i f = Some t -> In t f /\ ti t = i.
Proof.
  induction f as [|x f IH]; cbn [find_t]; [discriminate|].
  destruct (inst_eqb_spec (ti x) i) as [E | N].
  - injection 1 as <-. split; [left; reflexivity|exact E].
  - intro H. destruct (IH H). split; [right; assumption|assumption].
Qed.

Lemma find_none i f : find_t i f = None -> ~ In i (map ti f).
Proof.
  induction f as [|x f IH]; cbn [find_t map In]; [tauto|].
  destruct (inst_eqb_spec (ti x) i) as [E | N]; [discriminate|]. intros H [E | Hin]; [auto|]. exact (IH H Hin).
Qed.

Lemma find_in i ch f : NoDup (map ti f) -> In (T i ch) f -> find_t i f = Some (T i ch).
Proof.
  intros ND Hin. destruct (find_t i f) as [[j c]|] eqn:F.
  - apply find_some in F. destruct F as [Hin' E]. cbn [ti] in E. subst j. rewrite (same_tree f i ch c ND Hin Hin'). reflexivity.
  - exfalso. apply find_none in F. apply F. eapply in_ti; eauto.
Qed.

Lemma mem_find i p f t : NoDup (map ti f) -> find_t i f = Some t -> mem (i :: p) f <-> mem p (tch t).
Proof.
  intros ND F. apply find_some in F. destruct F as [Hin E]. destruct t as [j c]. cbn [ti] in E. subst j. cbn [tch mem].
  split; [|eauto]. intros (ch & H1 & H2). rewrite (same_tree f i c ch ND Hin H1). exact H2.
Qed.

Section Data.
Variables (np key : inst -> bool) (rank : inst -> nat).
Notation merge1 := (merge1 rank). Notation merge := (merge rank). Notation ins := (ins rank).
Notation skel := (skel np). Notation addnp := (addnp np rank). Notation chain := (chain key rank).

Lemma ins_perm t f : Permutation (ins t f) (t :: f).
Proof.
  induction f as [|x f IH]; cbn [Enabled.ins]; [reflexivity|].
  destruct (Nat.ltb _ _); [reflexivity|]. etransitivity; [apply perm_skip; exact IH|]. apply perm_swap.
Qed.

Lemma upd_ti i g f : map ti (upd i g f) = map ti f.
Proof.
  induction f as [|x f IH]; cbn [upd map]; [reflexivity|].
  destruct (inst_eqb_spec (ti x) i) as [E | N]; cbn [map ti]; [congruence|]. rewrite IH. reflexivity.
Qed.

Lemma upd_in i g f j c : NoDup (map ti f) ->
  In (T j c) (upd i g f) <-> (j <> i /\ In (T j c) f) \/ (j = i /\ exists c0, In (T i c0) f /\ c = g c0).
Proof.
  induction f as [|[k c0] f IH]; cbn [upd map ti tch In]; intro ND.
  - split; [intros []|]. intros [[_ []] | (_ & c0 & [] & _)].
  - apply NoDup_cons_iff in ND. destruct ND as [N ND]. destruct (inst_eqb_spec k i) as [-> | Hne]; cbn [In].
    + split.
      * intros [E | Hin].
        -- injection E as <- <-. right. split; [reflexivity|]. eauto.
        -- left. split; [|auto]. intros ->. apply N. eapply in_ti; eauto.
      * intros [(Hj & [E | Hin]) | (-> & c1 & [E | Hin] & ->)].
        -- congruence.
        -- auto.
        -- left. assert (c0 = c1) by congruence. subst c1. reflexivity.
        -- exfalso. apply N. eapply in_ti; eauto.
    + rewrite IH by exact ND. split.
      * intros [E | [(Hj & Hin) | (-> & c1 & Hin & ->)]].
        -- injection E as <- <-. left. auto.
        -- left. auto.
        -- right. split; [reflexivity|]. eauto.
      * intros [(Hj & [E | Hin]) | (-> & c1 & [E | Hin] & ->)].
        -- auto.
        -- right. left. auto.
        -- exfalso. congruence.
        -- right. right. split; [reflexivity|]. eauto.
Qed.

Definition good_merge (s : tree) : Prop :=
  forall f, wf f -> wf [s] -> wf (merge1 s f) /\ forall p, mem p (merge1 s f) <-> mem p f \/ mem p [s].

Lemma fold_good ch : Forall good_merge ch -> forall f, wf f -> (forall t, In t ch -> wf [t]) ->
  wf (fold_left (fun acc x => merge1 x acc) ch f) /\
  forall p, mem p (fold_left (fun acc x => merge1 x acc) ch f) <-> mem p f \/ mem p ch.
Proof.
  induction 1 as [|s ch Hs Hch IH]; intros f Wf W; cbn [fold_left].
  - split; [exact Wf|]. intro p. split; [auto|]. intros [Hm | Hm]; [exact Hm|]. destruct p as [|i p]; [exact Logic.I|].
    destruct Hm as (c & [] & _).
  - destruct (Hs f Wf) as [W1 M1]; [apply W; left; reflexivity|].
    destruct (IH _ W1) as [W2 M2]; [intros t Ht; apply W; right; exact Ht|]. split; [exact W2|].
    intro p. rewrite M2, M1. destruct p as [|i p]; [cbn [mem]; tauto|].
    rewrite (mem_in (i :: p) (s :: ch)) by discriminate. rewrite (mem_in (i :: p) ch) by discriminate.
    split.
    + intros [[Hm | Hm] | (t & Ht & Hm)]; [auto|right; exists s; split; [left; reflexivity|exact Hm]|right; exists t; split; [right; exact Ht|exact Hm]].
    + intros [Hm | (t & [<- | Ht] & Hm)]; [auto|auto|right; exists t; auto].
Qed.

Lemma wf_sing i ch : wf [T i ch] <-> wf ch.
Proof.
  split.
  - intro W. apply wf_inv in W. destruct W as [_ W]. apply (W i). left. reflexivity.
  - intro W. constructor.
    + cbn [map ti]. constructor; [intros []|constructor].
    + intros j c [E | []]. assert (c = ch) by congruence. subst c. exact W.
Qed.

Lemma merge1_good : forall s, good_merge s.
Proof.
  apply tree_ind'. intros i ch IH f Wf Ws. apply wf_sing in Ws. pose proof (wf_inv _ Wf) as [ND Wc].
  cbn [Enabled.merge1]. destruct (find_t i f) as [t|] eqn:F.
  - assert (Hc : forall c, wf c -> wf (fold_left (fun acc x => merge1 x acc) ch c) /\
        forall p, mem p (fold_left (fun acc x => merge1 x acc) ch c) <-> mem p c \/ mem p ch).
    { intros c W. apply fold_good; [exact IH|exact W|]. intros [j c'] Ht. apply wf_sing.
      apply wf_inv in Ws. destruct Ws as [_ Ws]. eapply Ws; eauto. }
    split.
    + constructor; [rewrite upd_ti; exact ND|]. intros j c Hin. apply upd_in in Hin; [|exact ND].
      destruct Hin as [(_ & Hin) | (-> & c0 & Hin & ->)]; [eapply Wc; eauto|]. apply Hc. eapply Wc; eauto.
    + intros [|j p]; [cbn [mem]; tauto|]. rewrite mem_single. cbn [mem]. split.
      * intros (c & Hin & Hm). apply upd_in in Hin; [|exact ND]. destruct Hin as [(_ & Hin) | (-> & c0 & Hin & ->)]; [eauto|].
        apply Hc in Hm; [|eapply Wc; eauto]. destruct Hm as [Hm | Hm]; [eauto|]. right. right. eauto.
      * intros [(c & Hin & Hm) | [E | (q & E & Hm)]]; [|discriminate|].
        -- destruct (inst_dec j i) as [-> | Hne].
           ++ eexists. split; [apply upd_in; [exact ND|]; right; split; [reflexivity|]; eauto|].
              apply Hc; [eapply Wc; eauto|]. auto.
           ++ exists c. split; [|exact Hm]. apply upd_in; [exact ND|]. auto.
        -- injection E as -> ->. apply find_some in F. destruct F as [Hin Ei]. destruct t as [k c]. cbn [ti] in Ei. subst k.
           eexists. split; [apply upd_in; [exact ND|]; right; split; [reflexivity|]; eauto|].
           apply Hc; [eapply Wc; eauto|]. auto.
  - pose proof (ins_perm (T i ch) f) as Pm. split.
    + constructor.
      * eapply Permutation_NoDup; [apply Permutation_map, Permutation_sym; exact Pm|]. cbn [map ti]. constructor; [|exact ND].
        apply find_none. exact F.
      * intros j c Hin. apply (Permutation_in _ Pm) in Hin. destruct Hin as [E | Hin]; [|eapply Wc; eauto].
        assert (c = ch) by congruence. subst c. exact Ws.
    + intros [|j p]; [cbn [mem]; tauto|]. cbn [mem]. split.
      * intros (c & Hin & Hm). apply (Permutation_in _ Pm) in Hin. destruct Hin as [E | Hin]; [|eauto].
        right. exists c. split; [left; exact E|exact Hm].
      * intros [(c & Hin & Hm) | (c & [E | []] & Hm)]; exists c; (split; [|exact Hm]);
          apply (Permutation_in _ (Permutation_sym Pm)); [right; exact Hin|left; exact E].
Qed.

Lemma merge_good g f : wf f -> (forall t, In t g -> wf [t]) ->
  wf (merge g f) /\ forall p, mem p (merge g f) <-> mem p f \/ mem p g.
Proof. intros Wf Wg. apply fold_good; auto. rewrite Forall_forall. intros s _. apply merge1_good. Qed.

Lemma wf_each f t : wf f -> In t f -> wf [t].
Proof. intros W Hin. destruct t as [i c]. apply wf_sing. apply wf_inv in W. destruct W as [_ W]. eapply W; eauto. Qed.

(** ** Containers *)

Lemma skel_mem_t : forall t p, mem p (skel_t np t) <-> mem p [t] /\ Forall (fun i => np i = true) p.
Proof.
  apply (tree_ind' (fun t => forall p, mem p (skel_t np t) <-> mem p [t] /\ Forall (fun i => np i = true) p)).
  intros i ch IH p. cbn [skel_t]. destruct p as [|j p]; [cbn [mem]; split; auto|].
  assert (Hch : forall q, mem q (flat_map (skel_t np) ch) <-> mem q ch /\ Forall (fun i => np i = true) q).
  { intros [|k q]; [cbn [mem]; split; auto|]. rewrite mem_flat by discriminate. rewrite (mem_in (k :: q) ch) by discriminate.
    rewrite Forall_forall in IH. split.
    - intros (x & Hx & Hm). apply IH in Hm; [|exact Hx]. split; [exists x; tauto|tauto].
    - intros ((x & Hx & Hm) & Hf). exists x. split; [exact Hx|]. apply IH; auto. }
  destruct (np i) eqn:Hi.
  - rewrite !mem_single. split.
    + intros [E | (q & E & Hm)]; [discriminate|]. injection E as -> ->. apply Hch in Hm. split; [right; exists q; tauto|].
      constructor; tauto.
    + intros ([E | (q & E & Hm)] & Hf); [discriminate|]. injection E as -> ->. apply Forall_cons_iff in Hf.
      right. exists q. split; [reflexivity|]. apply Hch. tauto.
  - split.
    + intros (c & [] & _).
    + intros (Hm & Hf). apply mem_single in Hm. destruct Hm as [E | (q & E & _)]; [discriminate|]. injection E as -> ->.
      apply Forall_cons_iff in Hf. destruct Hf as [Hf _]. congruence.
Qed.

Lemma skel_mem f p : mem p (skel f) <-> mem p f /\ Forall (fun i => np i = true) p.
Proof.
  destruct p as [|i p]; [cbn [mem]; split; auto|]. unfold Enabled.skel. rewrite mem_flat by discriminate.
  rewrite (mem_in (i :: p) f) by discriminate. split.
  - intros (x & Hx & Hm). apply skel_mem_t in Hm. split; [exists x; tauto|tauto].
  - intros ((x & Hx & Hm) & Hf). exists x. split; [exact Hx|]. apply skel_mem_t. auto.
Qed.

Lemma skel_ti f : exists h, map ti (skel f) = filter h (map ti f).
Proof.
  exists np. induction f as [|[i ch] f IH]; cbn [Enabled.skel flat_map skel_t map ti filter]; [reflexivity|].
  destruct (np i); cbn [app map ti]; unfold Enabled.skel in IH; rewrite IH; reflexivity.
Qed.

Lemma skel_wf f : wf f -> wf (skel f).
Proof.
  induction 1 as [f ND Wc IH]. constructor.
  - destruct (skel_ti f) as [h ->]. apply NoDup_filter. exact ND.
  - intros i c Hin. unfold Enabled.skel in Hin. apply in_flat_map in Hin. destruct Hin as ([j ch] & Hj & Hin). cbn [skel_t] in Hin.
    destruct (np j); [|destruct Hin]. destruct Hin as [E | []]. injection E as <- <-. eapply IH; eauto.
Qed.

Definition closed_np (R f : forest) : Prop :=
  forall p i, mem p f -> np i = true -> mem (p ++ [i]) R -> mem (p ++ [i]) f.

Lemma skel_closed R : closed_np R (skel R).
Proof.
  intros p i Hm Hi HR. apply skel_mem in Hm. apply skel_mem. split; [exact HR|]. apply Forall_app. split; [tauto|]. auto.
Qed.

(** The containers added to a tree [t] of data that exist in [f]. *)
Definition addnp_ok (t : tree) : Prop := forall f, wf f -> wf [t] -> (forall p, mem p [t] -> mem p f) ->
  wf [addnp f t] /\
  (forall p, mem p [t] -> mem p [addnp f t]) /\
  (forall p i, p <> [] -> mem p [addnp f t] -> np i = true -> mem (p ++ [i]) f -> mem (p ++ [i]) [addnp f t]) /\
  (forall p, mem p [addnp f t] -> mem p f /\ (p = [] \/ exists q r, p = q ++ r /\ q <> [] /\ mem q [t] /\ Forall (fun i => np i = true) r)).

Lemma addnp_spec : forall t, addnp_ok t.
Proof.
  apply tree_ind'.
  intros i ch IH f Wf Wt Sub. apply wf_sing in Wt. cbn [Enabled.addnp].
  pose proof (wf_inv _ Wf) as [ND Wc]. pose proof (wf_inv _ Wt) as [NDt Wtc].
  assert (Hi : mem [i] f) by (apply Sub, mem_single; right; exists []; split; [reflexivity|exact Logic.I]).
  destruct Hi as (c & Hic & _). rewrite (find_in i c f ND Hic). cbn [tch].
  assert (Wcc : wf c) by (eapply Wc; eauto).
  assert (Memf : forall p, mem (i :: p) f <-> mem p c).
  { intro p. rewrite (mem_find i p f (T i c) ND (find_in i c f ND Hic)). reflexivity. }
  assert (Subc : forall p, mem p ch -> mem p c).
  { intros p Hm. apply Memf. apply Sub. apply mem_single. right. exists p. auto. }
  assert (IH' : forall t, In t ch -> wf [addnp c t] /\
     (forall p, mem p [t] -> mem p [addnp c t]) /\
     (forall p j, p <> [] -> mem p [addnp c t] -> np j = true -> mem (p ++ [j]) c -> mem (p ++ [j]) [addnp c t]) /\
     (forall p, mem p [addnp c t] -> mem p c /\ (p = [] \/ exists q r, p = q ++ r /\ q <> [] /\ mem q [t] /\ Forall (fun i => np i = true) r))).
  { intros t Ht. rewrite Forall_forall in IH. apply (IH t Ht c Wcc).
    - exact (wf_each ch t Wt Ht).
    - intros p Hm. destruct p as [|j p]; [exact Logic.I|]. apply Subc. apply mem_in; [discriminate|]. eauto. }
  assert (Wm : wf (map (addnp c) ch)).
  { constructor.
    - rewrite map_map. replace (map (fun x => ti (addnp c x)) ch) with (map ti ch); [exact NDt|].
      apply map_ext. intros [j x]. reflexivity.
    - intros j x Hin. apply in_map_iff in Hin. destruct Hin as (t & E & Ht). destruct (IH' t Ht) as (Wx & _). rewrite E in Wx.
      apply wf_sing in Wx. exact Wx. }
  destruct (merge_good (skel c) (map (addnp c) ch) Wm) as [W M].
  { intros t Ht. eapply wf_each; [apply skel_wf; exact Wcc|exact Ht]. }
  assert (Mmap : forall p, p <> [] -> mem p (map (addnp c) ch) <-> exists t, In t ch /\ mem p [addnp c t]).
  { intros p Hp. rewrite mem_in by exact Hp. split.
    - intros (x & Hx & Hm). apply in_map_iff in Hx. destruct Hx as (t & <- & Ht). eauto.
    - intros (t & Ht & Hm). exists (addnp c t). split; [apply in_map; exact Ht|exact Hm]. }
  split; [apply wf_sing; exact W|]. split; [|split].
  - intros p Hm. apply mem_single in Hm. apply mem_single. destruct Hm as [-> | (q & -> & Hm)]; [auto|]. right. exists q.
    split; [reflexivity|]. apply M. left. destruct q as [|j q]; [exact Logic.I|]. apply Mmap; [discriminate|].
    apply mem_in in Hm; [|discriminate]. destruct Hm as (t & Ht & Hm). exists t. split; [exact Ht|]. destruct (IH' t Ht) as (_ & A2 & _ & _). apply A2. exact Hm.
  - intros p j Hp Hm Hj HR. apply mem_single in Hm. destruct Hm as [-> | (q & -> & Hm)]; [congruence|].
    apply mem_single. right. exists (q ++ [j]). split; [reflexivity|]. apply M. cbn [app] in HR. apply Memf in HR.
    destruct q as [|k q].
    + right. apply skel_mem. split; [exact HR|]. cbn [app]. auto.
    + apply M in Hm. destruct Hm as [Hm | Hm].
      * left. apply Mmap in Hm; [|discriminate]. destruct Hm as (t & Ht & Hm). apply Mmap; [discriminate|]. exists t. split; [exact Ht|].
        destruct (IH' t Ht) as (_ & _ & A3 & _). apply A3; auto. discriminate.
      * right. apply (skel_closed c); auto.
  - intros p Hm. apply mem_single in Hm. destruct Hm as [-> | (q & -> & Hm)]; [split; [exact Logic.I|auto]|].
    apply M in Hm. split.
    + apply Memf. destruct q as [|k q]; [exact Logic.I|]. destruct Hm as [Hm | Hm].
      * apply Mmap in Hm; [|discriminate]. destruct Hm as (t & Ht & Hm). destruct (IH' t Ht) as (_ & _ & _ & A4). apply A4 in Hm. tauto.
      * apply skel_mem in Hm. tauto.
    + right. destruct q as [|k q].
      * exists [i], []. split; [reflexivity|]. split; [discriminate|]. split; [|constructor]. apply mem_single. right. exists []. split; [reflexivity|exact Logic.I].
      * destruct Hm as [Hm | Hm].
        -- apply Mmap in Hm; [|discriminate]. destruct Hm as (t & Ht & Hm). destruct (IH' t Ht) as (_ & _ & _ & A4). apply A4 in Hm.
           destruct Hm as (_ & [E | (q1 & r & E & Hq & Hm & Hf)]); [discriminate|].
           exists (i :: q1), r. split; [cbn [app]; congruence|]. split; [discriminate|]. split; [|exact Hf].
           apply mem_single. right. exists q1. split; [reflexivity|]. apply mem_in; [exact Hq|]. eauto.
        -- apply skel_mem in Hm. exists [i], (k :: q). split; [reflexivity|]. split; [discriminate|]. split; [|tauto].
           apply mem_single. right. exists []. split; [reflexivity|exact Logic.I].
Qed.

(** ** Parents *)

Definition key_leaf (f : forest) : Prop := forall q k r, mem (q ++ k :: r) f -> key k = true -> r = [].

Lemma key_leaf_sub f g : (forall p, mem p g -> mem p f) -> key_leaf f -> key_leaf g.
Proof. intros S K q k r Hm. apply K with (q := q). auto. Qed.

(** What belongs to the selected node [s] but for containers. *)
Definition around (s q : path) : Prop :=
  under s q \/ under q s \/ exists p k, q = p ++ [k] /\ p <> [] /\ under p s /\ key k = true.

Lemma get_mem : forall p f, wf f -> p <> [] -> mem p f -> exists t, get p f = Some t /\ wf [t] /\ exists q, p = q ++ [ti t].
Proof.
  induction p as [|i p IH]; intros f W Hp Hm; [congruence|]. cbn [get]. cbn [mem] in Hm. destruct Hm as (ch & Hin & Hm).
  pose proof (wf_inv _ W) as [ND Wc]. rewrite (find_in i ch f ND Hin). destruct p as [|j p].
  - eexists. split; [reflexivity|]. split; [apply wf_sing; eapply Wc; eauto|]. exists []. reflexivity.
  - destruct (IH ch (Wc _ _ Hin) ltac:(discriminate) Hm) as (t & Ht & Wt & q & Hq). cbn [tch]. exists t. split; [exact Ht|].
    split; [exact Wt|]. exists (i :: q). cbn [app]. congruence.
Qed.

Lemma under_nil p : under p [] <-> p = [].
Proof.
  split; [intros [r E]; symmetry in E; apply app_eq_nil in E; tauto|]. intros ->. apply under_refl.
Qed.

Lemma filter_key_mem f p : key_leaf f -> p <> [] ->
  mem p (filter (fun k => key (ti k)) f) <-> mem p f /\ exists k, p = [k] /\ key k = true.
Proof.
  intros K Hp. destruct p as [|i p]; [congruence|]. cbn [mem]. split.
  - intros (ch & Hin & Hm). apply filter_In in Hin. cbn [ti] in Hin. destruct Hin as [Hin Hk]. split; [eauto|].
    exists i. split; [|exact Hk]. f_equal. apply (K [] i p); [|exact Hk]. cbn [app mem]. eauto.
  - intros ((ch & Hin & Hm) & k & E & Hk). injection E as -> ->. exists ch. split; [|exact Hm]. apply filter_In. auto.
Qed.

Lemma wf_filter h f : wf f -> wf (filter h f).
Proof.
  intro W. apply wf_inv in W. destruct W as [ND Wc]. constructor.
  - clear Wc. induction f as [|x f IH]; cbn [filter map] in *; [constructor|]. apply NoDup_cons_iff in ND. destruct ND as [N ND].
    destruct (h x); [|auto]. cbn [map]. constructor; [|auto]. intro Hin. apply N. apply in_map_iff in Hin. destruct Hin as (y & E & Hy).
    apply filter_In in Hy. rewrite <- E. apply in_map. tauto.
  - intros i ch Hin. apply filter_In in Hin. eapply Wc. apply Hin.
Qed.

Lemma chain_spec : forall s f t, wf f -> key_leaf f -> get s f = Some t ->
  wf [chain s f t] /\ forall q, mem q [chain s f t] <-> mem q f /\ around s q.
Proof.
  induction s as [|i s IH]; intros f t W K G; [discriminate|]. cbn [get] in G. cbn [Enabled.chain].
  pose proof (wf_inv _ W) as [ND Wc]. destruct (find_t i f) as [x|] eqn:F; [|discriminate].
  pose proof (fun p => mem_find i p f x ND F) as Mf. pose proof (find_some _ _ _ F) as [Hin Hx]. destruct x as [i' ch]. cbn [ti] in Hx. subst i'.
  cbn [tch] in *. assert (Wch : wf ch) by (eapply Wc; eauto). destruct s as [|j s].
  - assert (t = T i ch) by congruence. subst t. split; [apply wf_sing; exact Wch|]. intro q. rewrite mem_single. split.
    + intros [-> | (q' & -> & Hm)].
      * split; [exact Logic.I|]. right. left. exists [i]. reflexivity.
      * split; [apply Mf; exact Hm|]. left. exists q'. reflexivity.
    + intros (Hm & A). destruct q as [|k q]; [auto|]. right. exists q.
      assert (k = i).
      { destruct A as [[r E] | [[r E] | (p & k' & E & Hp & [r Hu] & _)]].
        - cbn [app] in E. congruence.
        - cbn [app] in E. congruence.
        - destruct p as [|m p]; [congruence|]. cbn [app] in E, Hu. congruence. }
      subst k. split; [reflexivity|]. apply Mf. exact Hm.
  - assert (Kch : key_leaf ch).
    { intros q k r Hm Hk. apply (K (i :: q) k r); [|exact Hk]. cbn [app]. apply Mf. exact Hm. }
    destruct (IH ch t Wch Kch G) as [W1 M1].
    destruct (merge1_good (chain (j :: s) ch t) (filter (fun k => key (ti k)) ch) (wf_filter _ _ Wch) W1) as [W2 M2].
    split; [apply wf_sing; exact W2|]. intro q. rewrite mem_single. split.
    + intros [-> | (q' & -> & Hm)].
      * split; [exact Logic.I|]. right. left. exists (i :: j :: s). reflexivity.
      * apply M2 in Hm. destruct Hm as [Hm | Hm].
        -- destruct q' as [|k q'].
           ++ split; [apply Mf; exact Logic.I|]. right. left. exists (j :: s). reflexivity.
           ++ apply filter_key_mem in Hm; [|exact Kch|discriminate]. destruct Hm as (Hm & k' & E & Hk). injection E as -> ->.
              split; [apply Mf; exact Hm|]. right. right. exists [i], k'. split; [reflexivity|]. split; [discriminate|].
              split; [exists (j :: s); reflexivity|exact Hk].
        -- apply M1 in Hm. destruct Hm as (Hm & A). split; [apply Mf; exact Hm|].
           destruct A as [A | [A | (p & k & -> & Hp & A & Hk)]].
           ++ left. apply under_cons. exact A.
           ++ right. left. apply under_cons. exact A.
           ++ right. right. exists (i :: p), k. split; [reflexivity|]. split; [discriminate|]. split; [apply under_cons; exact A|exact Hk].
    + intros (Hm & A). destruct q as [|k q]; [auto|]. right. exists q.
      assert (k = i).
      { destruct A as [[r E] | [[r E] | (p & k' & E & Hp & [r Hu] & _)]].
        - cbn [app] in E. congruence.
        - cbn [app] in E. congruence.
        - destruct p as [|m p]; [congruence|]. cbn [app] in E, Hu. congruence. }
      subst k. split; [reflexivity|]. apply Mf in Hm. apply M2.
      destruct A as [A | [A | (p & k & E & Hp & A & Hk)]].
      * apply (proj1 (under_cons i _ _)) in A. right. apply M1. split; [exact Hm|]. left. exact A.
      * apply (proj1 (under_cons i _ _)) in A. right. apply M1. split; [exact Hm|]. right. left. exact A.
      * destruct p as [|m p]; [congruence|]. cbn [app] in E. injection E as <- ->. apply (proj1 (under_cons i _ _)) in A.
        destruct p as [|m p].
        -- left. cbn [app]. apply filter_key_mem; [exact Kch|discriminate|]. split; [exact Hm|]. exists k. auto.
        -- right. apply M1. split; [exact Hm|]. right. right. exists (m :: p), k. split; [reflexivity|]. split; [discriminate|].
           split; [exact A|exact Hk].
Qed.

Lemma unlink_spec : forall s f, wf f -> s <> [] -> wf (unlink s f) /\ forall q, mem q (unlink s f) <-> mem q f /\ ~ under s q.
Proof.
  induction s as [|i s IH]; intros f W Hs; [congruence|]. cbn [unlink]. pose proof (wf_inv _ W) as [ND Wc]. destruct s as [|j s].
  - split; [apply wf_filter; exact W|]. intros [|k q].
    + split; [|intros _; exact Logic.I]. intros _. split; [exact Logic.I|]. intro U. apply under_nil in U. discriminate.
    + cbn [mem]. split.
      * intros (ch & Hin & Hm). apply filter_In in Hin. cbn [ti] in Hin. destruct Hin as [Hin Hk]. split; [eauto|].
        intros [r E]. cbn [app] in E. injection E as -> _. destruct (inst_eqb_spec i i); [discriminate Hk|congruence].
      * intros ((ch & Hin & Hm) & N). exists ch. split; [|exact Hm]. apply filter_In. split; [exact Hin|]. cbn [ti].
        destruct (inst_eqb_spec k i) as [-> | _]; [|reflexivity]. exfalso. apply N. exists q. reflexivity.
  - split.
    + constructor; [rewrite upd_ti; exact ND|]. intros k c Hin. apply upd_in in Hin; [|exact ND].
      destruct Hin as [(_ & Hin) | (-> & c0 & Hin & ->)]; [eapply Wc; eauto|]. apply IH; [eapply Wc; eauto|discriminate].
    + intros [|k q].
      * split; [|intros _; exact Logic.I]. intros _. split; [exact Logic.I|]. intro U. apply under_nil in U. discriminate.
      * cbn [mem]. split.
        -- intros (ch & Hin & Hm). apply upd_in in Hin; [|exact ND]. destruct Hin as [(Hne & Hin) | (-> & c0 & Hin & ->)].
           ++ split; [eauto|]. intros [r E]. cbn [app] in E. congruence.
           ++ apply IH in Hm; [|eapply Wc; eauto|discriminate]. split; [exists c0; tauto|]. intro U. apply (proj1 (under_cons i _ _)) in U. tauto.
        -- intros ((ch & Hin & Hm) & N). destruct (inst_dec k i) as [-> | Hne].
           ++ eexists. split; [apply upd_in; [exact ND|]; right; split; [reflexivity|]; eauto|].
              apply IH; [eapply Wc; eauto|discriminate|]. split; [exact Hm|]. intro U. apply N. apply under_cons. exact U.
           ++ exists ch. split; [|exact Hm]. apply upd_in; [exact ND|]. auto.
Qed.

(** ** One selected node *)

Notation included := (included np key).

Lemma inc_around s q : around s q -> included (eq s) q.
Proof.
  intros [A | [A | (p & k & -> & Hp & A & Hk)]].
  - eapply inc_below; eauto.
  - eapply inc_above; eauto.
  - eapply inc_key; eauto.
Qed.

Lemma inc_np_app (sel : path -> Prop) q r : included sel q -> Forall (fun i => np i = true) r -> included sel (q ++ r).
Proof.
  intros H. revert q H. induction r as [|i r IH]; intros q H Hf; [rewrite app_nil_r; exact H|].
  apply Forall_cons_iff in Hf. destruct Hf as [Hi Hf]. replace (q ++ i :: r) with ((q ++ [i]) ++ r) by (rewrite <- app_assoc; reflexivity).
  apply IH; [apply inc_np; assumption|exact Hf].
Qed.

Lemma inc_mono (sel sel' : path -> Prop) p : (forall s, sel s -> sel' s) -> included sel p -> included sel' p.
Proof.
  intros HS H. induction H as [|s p A B|s p A B|s p k A B C D|p i H IH Hi].
  - apply inc_root.
  - eapply inc_below; eauto.
  - eapply inc_above; eauto.
  - eapply inc_key; eauto.
  - apply inc_np; assumption.
Qed.

Lemma inc_split (sel : path -> Prop) p : included sel p -> Forall (fun i => np i = true) p \/ exists s, sel s /\ included (eq s) p.
Proof.
  intro H. induction H as [|s p A B|s p A B|s p k A B C D|p i H IH Hi].
  - left. constructor.
  - right. exists s. split; [exact A|]. eapply inc_below; eauto.
  - right. exists s. split; [exact A|]. eapply inc_above; eauto.
  - right. exists s. split; [exact A|]. eapply inc_key; eauto.
  - destruct IH as [IH | (s & A & B)].
    + left. apply Forall_app. auto.
    + right. exists s. split; [exact A|]. apply inc_np; assumption.
Qed.

Lemma inc_under m s p : under m s -> included (eq s) p -> included (eq m) p.
Proof.
  intros U H. induction H as [|s' p <- B|s' p <- B|s' p k <- B C D|p i H IH Hi].
  - apply inc_root.
  - eapply inc_below; [reflexivity|]. eapply under_trans; eauto.
  - destruct (under_cmp p m s B U) as [V | V]; [eapply inc_above; eauto|eapply inc_below; eauto].
  - destruct (under_cmp p m s B U) as [V | V]; [eapply inc_key; eauto|]. eapply inc_below; [reflexivity|].
    eapply under_trans; [exact V|]. exists [k]. reflexivity.
  - apply inc_np; assumption.
Qed.

Section Run.
Variable R : forest.
Hypothesis WR : wf R.
Hypothesis KR : key_leaf R.

Lemma one_step s f t new :
  wf f -> (forall p, mem p f -> mem p R) -> get s f = Some t -> wf new ->
  closed_np R new -> (forall p, mem p new -> mem p R) ->
  let new' := merge1 (addnp R (chain s f t)) new in
  wf new' /\ closed_np R new' /\ (forall p, mem p new' -> mem p R) /\
  (forall p, mem p new -> mem p new') /\
  (forall p, mem p f -> around s p -> mem p new') /\
  (forall p, mem p new' -> mem p new \/ included (eq s) p).
Proof.
  intros Wf Sub G Wn Cn Sn new'.
  destruct (chain_spec s f t Wf (key_leaf_sub _ _ Sub KR) G) as [W1 M1].
  destruct (addnp_spec (chain s f t) R WR W1) as (W2 & A1 & A2 & A3).
  { intros p Hm. apply M1 in Hm. apply Sub. tauto. }
  destruct (merge1_good (addnp R (chain s f t)) new Wn W2) as [W3 M3]. fold new' in W3, M3.
  split; [exact W3|]. split; [|split; [|split; [|split]]].
  - intros p i Hm Hi HR. apply M3 in Hm. apply M3. destruct Hm as [Hm | Hm].
    + left. apply Cn; auto.
    + destruct p as [|j p]; [left; apply Cn; auto; exact Logic.I|]. right. apply A2; auto. discriminate.
  - intros p Hm. apply M3 in Hm. destruct Hm as [Hm | Hm]; [auto|]. apply A3 in Hm. tauto.
  - intros p Hm. apply M3. auto.
  - intros p Hm Ha. apply M3. right. apply A1. apply M1. auto.
  - intros p Hm. apply M3 in Hm. destruct Hm as [Hm | Hm]; [auto|]. right. apply A3 in Hm.
    destruct Hm as (_ & [-> | (q & r & -> & Hq & Hm & Hf)]); [apply inc_root|]. apply inc_np_app; [|exact Hf].
    apply M1 in Hm. apply inc_around. tauto.
Qed.

(** Everything that belongs to [s] is there, if this holds but for containers. *)
Lemma np_complete s new : closed_np R new -> (forall p, mem p R -> around s p -> mem p new) ->
  forall p, mem p R -> included (eq s) p -> mem p new.
Proof.
  intros Cn H p HR Hi. induction Hi as [|s' p <- B|s' p <- B|s' p k <- B C D|p i Hi IH Hn].
  - exact Logic.I.
  - apply H; [exact HR|]. left. exact B.
  - apply H; [exact HR|]. right. left. exact B.
  - apply H; [exact HR|]. right. right. eauto 8.
  - apply Cn; [|exact Hn|exact HR]. apply IH. eapply mem_app; eauto.
Qed.

Lemma dup_spec : forall set new, wf new -> closed_np R new -> (forall p, mem p new -> mem p R) ->
  (forall s, In s set -> s <> [] /\ mem s R) ->
  exists out, each_dup np key rank R set new = Some out /\ wf out /\ closed_np R out /\
    (forall p, mem p out -> mem p R) /\ (forall p, mem p new -> mem p out) /\
    (forall s p, In s set -> mem p R -> included (eq s) p -> mem p out) /\
    (forall p, mem p out -> mem p new \/ exists s, In s set /\ included (eq s) p).
Proof.
  induction set as [|s set IH]; intros new Wn Cn Sn HS; cbn [each_dup].
  - exists new. split; [reflexivity|]. do 4 (split; [auto|]). split; [intros s p []|auto].
  - destruct (HS s) as [Hs Hm]; [left; reflexivity|]. destruct (get_mem s R WR Hs Hm) as (t & G & _). rewrite G.
    destruct (one_step s R t new WR (fun p H => H) G Wn Cn Sn) as (W' & C' & S' & Gr & Ar & So).
    destruct (IH _ W' C' S') as (out & E & Wo & Co & So' & Gr' & Inc & Snd); [intros s' Hs'; apply HS; right; exact Hs'|].
    exists out. split; [exact E|]. do 3 (split; [auto|]). split; [auto|]. split.
    + intros s' p [<- | Hin] HR Hi; [|eauto]. apply (np_complete s out Co); auto.
    + intros p Hp. apply Snd in Hp. destruct Hp as [Hp | (s' & Hs' & Hi)].
      * apply So in Hp. destruct Hp as [Hp | Hp]; [auto|]. right. exists s. split; [left; reflexivity|exact Hp].
      * right. exists s'. split; [right; exact Hs'|exact Hi].
Qed.

Lemma move_spec : forall set f moved new,
  wf f -> (forall p, mem p f <-> mem p R /\ forall m, In m moved -> ~ under m p) ->
  wf new -> closed_np R new -> (forall p, mem p new -> mem p R) ->
  (forall m p, In m moved -> mem p R -> included (eq m) p -> mem p new) ->
  (forall s, In s set -> s <> [] /\ mem s R) ->
  exists out, each_move np key rank R f moved set new = Some out /\ wf out /\ closed_np R out /\
    (forall p, mem p out -> mem p R) /\ (forall p, mem p new -> mem p out) /\
    (forall s p, In s set -> mem p R -> included (eq s) p -> mem p out) /\
    (forall p, mem p out -> mem p new \/ exists s, In s set /\ included (eq s) p).
Proof.
  induction set as [|s set IH]; intros f moved new Wf Mf Wn Cn Sn Mv HS; cbn [each_move].
  - exists new. split; [reflexivity|]. do 4 (split; [auto|]). split; [intros s p []|auto].
  - destruct (HS s) as [Hs Hm]; [left; reflexivity|].
    assert (HS' : forall s, In s set -> s <> [] /\ mem s R) by (intros s' Hs'; apply HS; right; exact Hs').
    destruct (existsb (fun m => below m s) moved) eqn:Ex.
    + apply existsb_exists in Ex. destruct Ex as (m & Hmv & Hb). destruct (below_spec m s) as [U|]; [|discriminate].
      destruct (IH f moved new Wf Mf Wn Cn Sn Mv HS') as (out & E & Wo & Co & So' & Gr' & Inc & Snd).
      exists out. split; [exact E|]. do 4 (split; [auto|]). split.
      * intros s' p [<- | Hin] HR Hi; [|eauto]. apply Gr'. apply (Mv m); auto. eapply inc_under; eauto.
      * intros p Hp. apply Snd in Hp. destruct Hp as [Hp | (s' & Hs' & Hi)]; [auto|]. right. exists s'. split; [right; exact Hs'|exact Hi].
    + assert (Hnm : forall m, In m moved -> ~ under m s).
      { intros m Hin U. assert (existsb (fun m => below m s) moved = true); [|congruence]. apply existsb_exists. exists m.
        split; [exact Hin|]. destruct (below_spec m s); [reflexivity|contradiction]. }
      assert (Hsf : mem s f) by (apply Mf; auto).
      destruct (get_mem s f Wf Hs Hsf) as (t & G & _ & q0 & Hq0). rewrite G.
      assert (Sub : forall p, mem p f -> mem p R) by (intros p Hp; apply Mf in Hp; tauto).
      destruct (one_step s f t new Wf Sub G Wn Cn Sn) as (W' & C' & S' & Gr & Ar & So).
      set (new' := merge1 (addnp R (chain s f t)) new) in *. cbv zeta.
      assert (All : forall p, mem p R -> included (eq s) p -> mem p new').
      { apply np_complete; [exact C'|]. intros p HR Ha.
        assert (Dec : mem p f \/ exists m, In m moved /\ under m p).
        { destruct (existsb (fun m => below m p) moved) eqn:Ep.
          - right. apply existsb_exists in Ep. destruct Ep as (m & Hin & Hb). exists m. split; [exact Hin|].
            destruct (below_spec m p); [assumption|discriminate].
          - left. apply Mf. split; [exact HR|]. intros m Hin U. assert (existsb (fun m => below m p) moved = true); [|congruence].
            apply existsb_exists. exists m. split; [exact Hin|]. destruct (below_spec m p); [reflexivity|contradiction]. }
        destruct Dec as [Hp | (m & Hin & U)]; [auto|]. apply Gr. apply (Mv m); auto. eapply inc_below; eauto. }
      destruct (key (ti t)) eqn:Hk.
      * destruct (IH f moved new' Wf Mf W' C' S') as (out & E & Wo & Co & So' & Gr' & Inc & Snd); [|exact HS'|].
        { intros m p Hin HR Hi. apply Gr. eauto. }
        exists out. split; [exact E|]. do 3 (split; [auto|]). split; [auto|]. split.
        -- intros s' p [<- | Hin] HR Hi; [auto|eauto].
        -- intros p Hp. apply Snd in Hp. destruct Hp as [Hp | (s' & Hs' & Hi)].
           ++ apply So in Hp. destruct Hp as [Hp | Hp]; [auto|]. right. exists s. split; [left; reflexivity|exact Hp].
           ++ right. exists s'. split; [right; exact Hs'|exact Hi].
      * destruct (unlink_spec s f Wf Hs) as [Wu Mu].
        destruct (IH (unlink s f) (s :: moved) new' Wu) as (out & E & Wo & Co & So' & Gr' & Inc & Snd); auto.
        { intro p. rewrite Mu, Mf. split.
          - intros ((HR & Hn) & Hu). split; [exact HR|]. intros m [<- | Hin]; auto.
          - intros (HR & Hn). split; [split; [exact HR|]; intros m Hin; apply Hn; right; exact Hin|]. apply Hn. left. reflexivity. }
        { intros m p [<- | Hin] HR Hi; [auto|]. apply Gr. eauto. }
        exists out. split; [exact E|]. do 3 (split; [auto|]). split; [auto|]. split.
        -- intros s' p [<- | Hin] HR Hi; [auto|eauto].
        -- intros p Hp. apply Snd in Hp. destruct Hp as [Hp | (s' & Hs' & Hi)].
           ++ apply So in Hp. destruct Hp as [Hp | Hp]; [auto|]. right. exists s. split; [left; reflexivity|exact Hp].
           ++ right. exists s'. split; [right; exact Hs'|exact Hi].
Qed.

End Run.

(** ** The set of selected nodes *)

Lemma paths_mem_t : forall t p, In p (paths_t t) <-> p <> [] /\ mem p [t].
Proof.
  apply (tree_ind' (fun t => forall p, In p (paths_t t) <-> p <> [] /\ mem p [t])).
  intros i ch IH p. cbn [paths_t In]. rewrite mem_single. rewrite Forall_forall in IH. split.
  - intros [<- | Hin]; [split; [discriminate|]; right; exists []; split; [reflexivity|exact Logic.I]|].
    apply in_map_iff in Hin. destruct Hin as (q & <- & Hin). split; [discriminate|]. right. exists q. split; [reflexivity|].
    apply in_flat_map in Hin. destruct Hin as (t & Ht & Hin). apply IH in Hin; [|exact Ht]. destruct Hin as [Hq Hm].
    apply mem_in; [exact Hq|]. eauto.
  - intros (Hp & [-> | (q & -> & Hm)]); [congruence|]. destruct q as [|j q]; [auto|]. right. apply in_map.
    apply mem_in in Hm; [|discriminate]. destruct Hm as (t & Ht & Hm). apply in_flat_map. exists t. split; [exact Ht|].
    apply IH; [exact Ht|]. split; [discriminate|exact Hm].
Qed.

Lemma find_xpath_in x f p : In p (find_xpath x f) <-> p <> [] /\ mem p f /\ x p = true.
Proof.
  unfold find_xpath. rewrite filter_In, in_flat_map. split.
  - intros ((t & Ht & Hin) & Hx). apply paths_mem_t in Hin. destruct Hin as [Hp Hm]. split; [exact Hp|]. split; [|exact Hx].
    apply mem_in; [exact Hp|]. eauto.
  - intros (Hp & Hm & Hx). split; [|exact Hx]. apply mem_in in Hm; [|exact Hp]. destruct Hm as (t & Ht & Hm). exists t.
    split; [exact Ht|]. apply paths_mem_t. auto.
Qed.

Lemma set_add_in l : forall s p, In p (fold_left set_add l s) <-> In p s \/ In p l.
Proof.
  induction l as [|q l IH]; intros s p; cbn [fold_left In]; [tauto|]. rewrite IH. unfold set_add.
  destruct (existsb (path_eqb q) s) eqn:E.
  - apply existsb_exists in E. destruct E as (q' & Hin & Eq). destruct (path_eqb_spec q q') as [<- | N]; [|discriminate].
    split; [tauto|]. intros [A | [-> | A]]; auto.
  - rewrite in_app_iff. cbn [In]. tauto.
Qed.

Lemma collect_in xs f p : In p (collect xs f) <-> p <> [] /\ mem p f /\ exists x, In x xs /\ x p = true.
Proof.
  unfold collect.
  assert (G : forall xs s, In p (fold_left (fun s x => fold_left set_add (find_xpath x f) s) xs s) <->
                In p s \/ (p <> [] /\ mem p f /\ exists x, In x xs /\ x p = true)).
  { clear xs. induction xs as [|x xs IH]; intro s; cbn [fold_left].
    - split; [auto|]. intros [A | (_ & _ & x & [] & _)]. exact A.
    - rewrite IH, set_add_in, find_xpath_in. split.
      + intros [[A | (A & B & C)] | (A & B & y & Hy & C)]; [auto| |].
        * right. split; [exact A|]. split; [exact B|]. exists x. split; [left; reflexivity|exact C].
        * right. split; [exact A|]. split; [exact B|]. exists y. split; [right; exact Hy|exact C].
      + intros [A | (A & B & y & [<- | Hy] & C)]; [auto|auto|]. right. split; [exact A|]. split; [exact B|]. eauto. }
  rewrite G. cbn [In]. tauto.
Qed.

Lemma xpaths_in x subs : In x (xpaths subs) <-> exists s, In s subs /\ s_passive s = false /\ s_alive s = true /\ s_xpath s = Some x.
Proof.
  unfold xpaths. rewrite in_flat_map. split.
  - intros (s & Hs & Hx). exists s. split; [exact Hs|]. destruct (s_xpath s) as [y|]; [|destruct Hx].
    destruct (active s) eqn:Ha; [|destruct Hx]. destruct Hx as [-> | []]. unfold active in Ha.
    apply andb_true_iff in Ha. destruct Ha as [Hp Ha]. apply negb_true_iff in Hp.
    auto.
  - intros (s & Hs & Hp & Ha & Hx). exists s. split; [exact Hs|]. rewrite Hx. unfold active. rewrite Hp, Ha. left. reflexivity.
Qed.

(** ** All together *)

Theorem enabled_content R subs dup : wf R -> key_leaf R ->
  exists out, get_enabled np key rank R subs dup = Some out /\ wf out /\
    forall p, mem p out <-> mem p R /\ included (fun s => mem s R /\ wanted subs s) p.
Proof.
  intros WR KR. unfold get_enabled.
  assert (Hbase : wf (skel R) /\ closed_np R (skel R) /\ forall p, mem p (skel R) -> mem p R).
  { split; [apply skel_wf; exact WR|]. split; [apply skel_closed|]. intros p Hp. apply skel_mem in Hp. tauto. }
  destruct Hbase as (WB & CB & SB).
  destruct R as [|t0 R0] eqn:ER.
  - exists []. split; [reflexivity|]. split; [exact WR|]. intros [|i p].
    + cbn [mem]. split; [|tauto]. intros _. split; [exact Logic.I|apply inc_root].
    + cbn [mem]. split; [intros (c & [] & _)|intros ((c & [] & _) & _)].
  - rewrite <- ER in *. clear ER t0 R0.
    destruct (existsb _ subs) eqn:Ex.
    + apply existsb_exists in Ex. destruct Ex as (s & Hs & Ha). destruct (s_xpath s) eqn:Hx; [discriminate|].
      unfold active in Ha. apply andb_true_iff in Ha. destruct Ha as [Hp Hal]. apply negb_true_iff in Hp.
      destruct (merge_good R (skel R) WB) as [W M]; [intros t Ht; exact (wf_each R t WR Ht)|].
      exists (merge R (skel R)). split; [reflexivity|]. split; [exact W|]. intro p. rewrite M. split.
      * intro H. assert (HR : mem p R) by (destruct H as [H | H]; [apply SB; exact H|exact H]). split; [exact HR|].
        destruct p as [|i p]; [apply inc_root|]. apply (inc_below _ _ _ (i :: p)); [|apply under_refl]. split; [exact HR|].
        split; [discriminate|]. exists s. rewrite Hx. auto.
      * tauto.
    + assert (HS : forall s, In s (collect (xpaths subs) R) <-> mem s R /\ wanted subs s).
      { intro s. rewrite collect_in. unfold wanted. split.
        - intros (Hp & Hm & x & Hx & Hxp). split; [exact Hm|]. split; [exact Hp|]. apply xpaths_in in Hx.
          destruct Hx as (b & Hb & B1 & B2 & B3). exists b. rewrite B3. auto.
        - intros (Hm & Hp & b & Hb & B1 & B2 & B3). split; [exact Hp|]. split; [exact Hm|].
          destruct (s_xpath b) as [x|] eqn:Hx.
          + exists x. split; [|exact B3]. apply xpaths_in. exists b. auto.
          + exfalso. assert (existsb (fun s => match s_xpath s with None => active s | _ => false end) subs = true); [|congruence].
            apply existsb_exists. exists b. split; [exact Hb|]. rewrite Hx. unfold active. rewrite B1, B2. reflexivity. }
      assert (HS' : forall s, In s (collect (xpaths subs) R) -> s <> [] /\ mem s R).
      { intros s Hin. apply HS in Hin. unfold wanted in Hin. tauto. }
      assert (Fin : forall out, (forall p, mem p out -> mem p R) -> (forall p, mem p (skel R) -> mem p out) ->
        (forall s p, In s (collect (xpaths subs) R) -> mem p R -> included (eq s) p -> mem p out) ->
        (forall p, mem p out -> mem p (skel R) \/ exists s, In s (collect (xpaths subs) R) /\ included (eq s) p) ->
        forall p, mem p out <-> mem p R /\ included (fun s => mem s R /\ wanted subs s) p).
      { intros out O1 O2 O3 O4 p. split.
        - intro Hp. split; [auto|]. apply O4 in Hp. destruct Hp as [Hp | (s & Hin & Hi)].
          + apply skel_mem in Hp. change p with ([] ++ p). apply inc_np_app; [apply inc_root|tauto].
          + eapply inc_mono; [|exact Hi]. intros s' <-. apply HS. exact Hin.
        - intros (HR & Hi). apply inc_split in Hi. destruct Hi as [Hi | (s & Hsel & Hi)].
          + apply O2. apply skel_mem. auto.
          + apply (O3 s); auto. apply HS. exact Hsel. }
      destruct dup.
      * destruct (dup_spec R WR KR _ _ WB CB SB HS') as (out & E & Wo & _ & O1 & O2 & O3 & O4).
        exists out. split; [exact E|]. split; [exact Wo|]. auto.
      * destruct (move_spec R WR KR (collect (xpaths subs) R) R [] (skel R) WR) as (out & E & Wo & _ & O1 & O2 & O3 & O4); auto.
        { intro p. split; [|tauto]. intro Hp. split; [exact Hp|]. intros m []. }
        { intros m p []. }
        exists out. split; [exact E|]. split; [exact Wo|]. auto.
Qed.

End Data.
