(** Invariant of prepared edits: which calls the nodes come from. *)
From Coq Require Import List Bool Arith Lia.
From Verif Require Import Edit EditSpec EditProofs EditOps EditSem EditTotal EditAdd EditAddSpec EditAddBase.
Import ListNotations.

(** Paths of the calls below a node; whether they delete. *)
Definition hist := list (path * bool).
Fixpoint res (id : nat * nat) (hr : hist) : hist :=
  match hr with
  | [] => []
  | (id' :: r, b) :: t => if same_id id' id then (r, b) :: res id t else res id t
  | ([], _) :: t => res id t
  end.
Lemma res_in : forall id hr r b, In (r, b) (res id hr) <-> In (id :: r, b) hr.
Proof.
  intros id hr r b. induction hr as [|([|id' r'], b') t IH]; cbn [res In]; [reflexivity| |].
  - rewrite IH. split; [intros H; right; exact H|intros [H|H]; [discriminate|exact H]].
  - destruct (same_id id' id) eqn:Q.
    + apply same_id_eq in Q. subst id'. cbn [In]. rewrite IH. split; (intros [H|H]; [left; injection H as -> ->; reflexivity|right; exact H]).
    + apply same_id_neq in Q. rewrite IH. split; [intros H; right; exact H|intros [H|H]; [injection H as -> -> ->; contradiction|exact H]].
Qed.
Definition delo (o : option eop) : bool := match o with Some o => deletes o | None => false end.
Definition tgt (o : option eop) : Prop := match o with Some Merge | Some Create | Some Remove | Some Delete => True | _ => False end.

Section P.
Variable kd : nat -> kind.
Notation key := (EditSpec.key kd).
Notation ident := (EditSpec.ident kd).
Notation eident := (EditSpec.eident kd).

Definition dl_of (dl : bool) (own : option eop) : bool := match own with Some o => deletes o | None => dl end.
Fixpoint inve (dl : bool) (hr : hist) (e : enode) : Prop :=
  match e with
  | E s v b own i ch =>
      (b = false /\ match kd s with KCont _ => v = 0 | _ => True end /\ (term (kd s) = true -> ch = []) /\ i = IDefault) /\
      (match own with Some o => okop o | None => True end /\ (ch = [] -> tgt own) /\ (own = Some Create -> np_cont (kd s) = false)) /\
      ((delo own = true -> In ([], true) hr) /\ (In ([], true) hr -> dl_of dl own = true) /\ (dl = true -> own = None \/ delo own = true) /\ hr <> []) /\
      NoDup (map eident ch) /\ (forall id r b', In (id :: r, b') hr -> exists ce, In ce ch /\ eident ce = id) /\
      (fix all l := match l with [] => True | c :: t => inve (dl_of dl own) (res (eident c) hr) c /\ all t end) ch
  end.
Definition inv (dl : bool) (hr : hist) (es : list enode) : Prop :=
  NoDup (map eident es) /\ (forall id r b', In (id :: r, b') hr -> exists ce, In ce es /\ eident ce = id) /\
  Forall (fun e => inve dl (res (eident e) hr) e) es.
Definition local (dl : bool) (hr : hist) (s v : nat) (b : bool) (own : option eop) (i : ins) (ch : list enode) : Prop :=
  (b = false /\ match kd s with KCont _ => v = 0 | _ => True end /\ (term (kd s) = true -> ch = []) /\ i = IDefault) /\
  (match own with Some o => okop o | None => True end /\ (ch = [] -> tgt own) /\ (own = Some Create -> np_cont (kd s) = false)) /\
  ((delo own = true -> In ([], true) hr) /\ (In ([], true) hr -> dl_of dl own = true) /\ (dl = true -> own = None \/ delo own = true) /\ hr <> []).
Lemma inve_iff : forall dl hr s v b own i ch, inve dl hr (E s v b own i ch) <-> local dl hr s v b own i ch /\ inv (dl_of dl own) hr ch.
Proof.
  intros dl hr s v b own i ch. cbn [inve]. unfold local, inv.
  assert (A : ((fix all l := match l with [] => True | c :: t => inve (dl_of dl own) (res (eident c) hr) c /\ all t end) ch) <-> Forall (fun e => inve (dl_of dl own) (res (eident e) hr) e) ch).
  { generalize (dl_of dl own). intros x. induction ch as [|c t IH]; [split; [constructor|intros; exact I]|]. split; intros H; [constructor; [apply H|apply IH; apply H]|inversion H; subst; split; [assumption|apply IH; assumption]]. }
  tauto.
Qed.
Lemma inve_ok : forall dl hr e, inve dl hr e -> okown e.
Proof. intros dl hr [s v b own i ch] H. apply inve_iff in H. destruct H as ((_ & (H & _) & _) & _). exact H. Qed.
Lemma inv_ok : forall dl hr es, inv dl hr es -> Forall okown es.
Proof. intros dl hr es (_ & _ & H). eapply Forall_impl; [|exact H]. intros e. apply inve_ok. Qed.
Lemma inv_in : forall dl hr es e, inv dl hr es -> In e es -> inve dl (res (eident e) hr) e.
Proof. intros dl hr es e (_ & _ & H) He. rewrite Forall_forall in H. exact (H e He). Qed.

Lemma inve_wfe : forall e dl hr, inve dl hr e -> wfe kd e /\ no_anchor e.
Proof.
  apply (enode_ind2 (fun e => forall dl hr, inve dl hr e -> wfe kd e /\ no_anchor e)). intros s v b own i ch IH dl hr H. apply inve_iff in H.
  destruct H as (((B & V & T & ->) & (O & _ & _) & _) & (N & _ & F)). rewrite Forall_forall in IH, F.
  assert (Q : forall ce, In ce ch -> wfe kd ce /\ no_anchor ce) by (intros ce Hc; exact (IH ce Hc _ _ (F ce Hc))).
  assert (Pu : forall ce, In ce ch -> eown ce <> Some Purge).
  { intros ce Hc X. specialize (inve_ok _ _ _ (F ce Hc)). unfold okown. rewrite X. intros (_ & Y). apply Y. reflexivity. }
  split.
  - cbn [wfe]. split; [exact B|]. split; [exact V|]. split; [exact T|]. split; [intros ->; destruct O as (_ & O); exfalso; apply O; reflexivity|].
    split; [split; [exact N|intros x y Hx Hy X; exfalso; exact (Pu x Hx X)]|]. clear - Q. induction ch as [|c t IH]; [exact I|]. split; [apply Q; left; reflexivity|apply IH; intros x Hx; apply Q; right; exact Hx].
  - cbn [no_anchor]. split; [exact I|]. clear - Q. induction ch as [|c t IH]; [exact I|]. split; [apply Q; left; reflexivity|apply IH; intros x Hx; apply Q; right; exact Hx].
Qed.
Lemma inv_wf : forall dl hr es, inv dl hr es -> wf_edit kd es /\ Forall no_anchor es.
Proof.
  intros dl hr es (N & _ & F). rewrite Forall_forall in F. split; [split; [split; [exact N|]|]|].
  - intros x y Hx Hy X. exfalso. specialize (inve_ok _ _ _ (F x Hx)). unfold okown. rewrite X. intros (_ & Y). apply Y. reflexivity.
  - apply Forall_forall. intros e He. apply (inve_wfe e _ _ (F e He)).
  - apply Forall_forall. intros e He. apply (inve_wfe e _ _ (F e He)).
Qed.

(** ** Replacing one of the siblings *)
Lemma on_id_in : forall id f es e, NoDup (map eident es) -> id_ok kd id -> fe kd id es = Some e ->
  forall x, In x (on_id kd id f es) <-> f e = Some x \/ (In x es /\ eident x <> id).
Proof.
  intros id f es e N Hi F x. induction es as [|y t IH]; [discriminate|]. cbn [map] in N. inversion N as [|? ? Ny Nt]; subst. unfold fe in F. cbn [find] in F. cbn [on_id].
  destruct (same_id (eident y) id) eqn:Q.
  - injection F as ->. apply same_id_eq in Q. rewrite (proj2 (at_id_eq kd id e Hi) Q). destruct (f e) as [e'|] eqn:Fe; cbn [In].
    + split; [intros [<-|H]; [left; reflexivity|right; split; [right; exact H|intros X; apply Ny; rewrite Q, <- X; apply in_map; exact H]]|].
      intros [X|([<-|H] & X)]; [injection X as <-; left; reflexivity|contradiction|right; exact H].
    + split; [intros H; right; split; [right; exact H|intros X; apply Ny; rewrite Q, <- X; apply in_map; exact H]|].
      intros [X|([<-|H] & X)]; [discriminate|contradiction|exact H].
  - rewrite (at_id_other kd id y Hi) by (apply same_id_neq; exact Q). cbn [In]. rewrite (IH Nt F). apply same_id_neq in Q. split.
    + intros [<-|[H|(H1 & H2)]]; [right; split; [left; reflexivity|exact Q]|left; exact H|right; split; [right; exact H1|exact H2]].
    + intros [H|([<-|H1] & H2)]; [right; left; exact H|left; reflexivity|right; right; split; assumption].
Qed.
Lemma on_id_map : forall id f es e e', id_ok kd id -> fe kd id es = Some e -> f e = Some e' -> eident e' = id -> map eident (on_id kd id f es) = map eident es.
Proof.
  intros id f es e e' Hi F Q I. induction es as [|y t IH]; [reflexivity|]. unfold fe in F. cbn [find] in F. cbn [on_id map]. destruct (same_id (eident y) id) eqn:S.
  - injection F as ->. apply same_id_eq in S. rewrite (proj2 (at_id_eq kd id e Hi) S), Q. cbn [map]. congruence.
  - rewrite (at_id_other kd id y Hi) by (apply same_id_neq; exact S). cbn [map]. rewrite (IH F). reflexivity.
Qed.
Lemma fe_on_id : forall id f es e e' id', NoDup (map eident es) -> id_ok kd id -> fe kd id es = Some e -> f e = Some e' -> eident e' = id ->
  fe kd id' (on_id kd id f es) = if same_id id id' then Some e' else fe kd id' es.
Proof.
  intros id f es e e' id' N Hi F Q I. destruct (same_id id id') eqn:S.
  - apply same_id_eq in S. subst id'. assert (G : fe kd (eident e') (on_id kd id f es) = Some e') by (apply fe_in; [rewrite (on_id_map id f es e e'); assumption|]; apply (on_id_in id f es e N Hi F); left; exact Q). rewrite I in G. exact G.
  - apply same_id_neq in S. unfold fe in *. induction es as [|y t IH]; [discriminate|]. cbn [map] in N. inversion N; subst. cbn [find on_id] in *. destruct (same_id (eident y) (eident e')) eqn:Y.
    + injection F as ->. apply same_id_eq in Y. rewrite (proj2 (at_id_eq kd _ e Hi) Y), Q. cbn [find]. rewrite Y. rewrite (proj2 (same_id_neq (eident e') id') S). reflexivity.
    + rewrite (at_id_other kd _ y Hi) by (apply same_id_neq; exact Y). cbn [find]. destruct (same_id (eident y) id'); [reflexivity|]. apply IH; assumption.
Qed.

(** History with one more call. *)
Lemma res_cons_same : forall id r b hr, res id ((id :: r, b) :: hr) = (r, b) :: res id hr.
Proof. intros. cbn [res]. rewrite same_id_refl. reflexivity. Qed.
Lemma res_cons_other : forall id id' r b hr, id' <> id -> res id ((id' :: r, b) :: hr) = res id hr.
Proof. intros id id' r b hr N. cbn [res]. rewrite (proj2 (same_id_neq id' id) N). reflexivity. Qed.

Lemma inv_on_id : forall dl hr es id r b f e e', inv dl hr es -> id_ok kd id -> fe kd id es = Some e -> f e = Some e' -> eident e' = id ->
  inve dl ((r, b) :: res id hr) e' -> inv dl ((id :: r, b) :: hr) (on_id kd id f es).
Proof.
  intros dl hr es id r b f e e' (N & J & F) Hi Fe Q I H. split; [|split].
  - rewrite (on_id_map id f es e e'); assumption.
  - assert (Z : forall i, (exists ce, In ce es /\ eident ce = i) -> exists ce, In ce (on_id kd id f es) /\ eident ce = i).
    { intros i (ce & Hc & Ei). destruct (ident_dec i id) as [->|Ni]; [exists e'; split; [apply (on_id_in id f es e N Hi Fe); left; exact Q|exact I]|].
      exists ce. split; [apply (on_id_in id f es e N Hi Fe); right; split; [exact Hc|congruence]|exact Ei]. }
    intros i r0 b0 [X|X]; [|apply Z; exact (J i r0 b0 X)]. injection X as <- <- <-. apply Z. apply fe_some in Fe. exists e. exact Fe.
  - apply Forall_forall. intros x Hx. apply (on_id_in id f es e N Hi Fe) in Hx. destruct Hx as [Hx|(Hx & Nx)].
    + rewrite Q in Hx. injection Hx as <-. rewrite I, res_cons_same. exact H.
    + rewrite res_cons_other by congruence. rewrite Forall_forall in F. exact (F x Hx).
Qed.

(** ** New nodes *)
Definition opb (op : eop) (b : bool) : Prop := if b then op = Remove \/ op = Delete else op = Merge \/ op = Create.
Lemma path_ok_id : forall id r, path_ok kd (id :: r) -> id_ok kd id.
Proof. intros [s k] r (H & _). exact H. Qed.
Lemma eident_pair : forall s k b o i ch, (inst (kd s) = false -> k = 0) -> eident (E s k b o i ch) = (s, k).
Proof. intros s k b o i ch H. unfold EditSpec.eident, EditSpec.key. cbn [esch eval]. destruct (inst (kd s)); [reflexivity|]. rewrite H; reflexivity. Qed.
Lemma chain_ident : forall op value i r id, path_ok kd (id :: r) -> eident (chain kd op value i id r) = id.
Proof.
  intros op value i r [s k] (H & _). destruct r as [|id' r]; cbn [chain fst snd].
  - unfold new_val. destruct (kd s) eqn:K; try (apply eident_pair; rewrite K; exact H). unfold EditSpec.eident, EditSpec.key. cbn [esch eval]. rewrite K in *. cbn [inst] in *. rewrite H; reflexivity.
  - apply eident_pair. exact H.
Qed.
Lemma res_same_nil : forall id r b, res id [(id :: r, b)] = [(r, b)].
Proof. intros. cbn [res]. rewrite same_id_refl. reflexivity. Qed.
Lemma chain_inve : forall op value b r id dl, path_ok kd (id :: r) -> opb op b -> (b = false -> dl = false) ->
  (op = Create -> np_cont (kd (fst (last (id :: r) (0, 0)))) = false) -> inve dl [(r, b)] (chain kd op value IDefault id r).
Proof.
  intros op value b. induction r as [|id' r IH]; intros [s k] dl P O Dl Np.
  - cbn [chain fst snd]. apply inve_iff. destruct P as (P & _). split; [split; [|split]|].
    + split; [reflexivity|]. split; [|split; [reflexivity|reflexivity]]. unfold new_val. destruct (kd s) eqn:K; try exact I. apply P. reflexivity.
    + split; [destruct b; destruct O as [-> | ->]; split; discriminate|]. split; [intros _; destruct b; destruct O as [-> | ->]; exact I|]. intros X. injection X as ->. apply Np. reflexivity.
    + split; [|split; [|split]].
      * cbn [delo]. destruct b; [intros _; left; reflexivity|]. destruct O as [-> | ->]; discriminate.
      * intros [X|[]]. injection X as ->. cbn [dl_of]. destruct O as [-> | ->]; reflexivity.
      * intros X. right. destruct b; [destruct O as [-> | ->]; reflexivity|]. rewrite Dl in X by reflexivity. discriminate.
      * discriminate.
    + split; [constructor|]. split; [|constructor]. intros i0 r0 b0 [X|[]]. discriminate.
  - cbn [chain fst snd]. apply inve_iff. destruct P as (P & T & P'). cbn [dl_of].
    assert (Ci : eident (chain kd op value IDefault id' r) = id') by (apply chain_ident; exact P').
    assert (Ce : inve dl [(r, b)] (chain kd op value IDefault id' r)).
    { apply IH; try assumption. }
    split; [split; [|split]|].
    + split; [reflexivity|]. split; [destruct (kd s) eqn:K; try exact I; apply P; reflexivity|]. split; [intros X; rewrite T in X; discriminate|reflexivity].
    + split; [exact I|]. split; discriminate.
    + split; [discriminate|]. split; [intros [X|[]]; discriminate|]. split; [intros _; left; reflexivity|discriminate].
    + split; [cbn [map]; constructor; [intros []|constructor]|]. split.
      * intros i0 r0 b0 [X|[]]. injection X as <- <- <-. exists (chain kd op value IDefault id' r). split; [left; reflexivity|exact Ci].
      * constructor; [|constructor]. rewrite Ci, res_same_nil. exact Ce.
Qed.
Lemma inve_hist : forall e dl h1 h2, (forall x, In x h1 <-> In x h2) -> inve dl h1 e -> inve dl h2 e.
Proof.
  apply (enode_ind2 (fun e => forall dl h1 h2, (forall x, In x h1 <-> In x h2) -> inve dl h1 e -> inve dl h2 e)). intros s v b own i ch IH dl h1 h2 Q H.
  apply inve_iff in H. apply inve_iff. destruct H as ((H1 & H2 & (A & B & C & D)) & (N & J & F)). rewrite Forall_forall in IH, F. split; [split; [exact H1|split; [exact H2|]]|].
  - split; [intros X; apply Q; exact (A X)|]. split; [intros X; apply B; apply Q; exact X|]. split; [exact C|]. intros ->. destruct h1 as [|x t]; [apply D; reflexivity|]. destruct (proj1 (Q x) (or_introl eq_refl)).
  - split; [exact N|]. split; [intros i0 r b0 X; apply (J i0 r b0); apply Q; exact X|]. apply Forall_forall. intros x Hx. apply (IH x Hx _ (res (eident x) h1)); [|exact (F x Hx)].
    intros (r & b0). rewrite !res_in. apply Q.
Qed.
Lemma inv_new : forall dl hr es id r b n, inv dl hr es -> fe kd id es = None -> eident n = id -> inve dl [(r, b)] n -> inv dl ((id :: r, b) :: hr) (es ++ [n]).
Proof.
  intros dl hr es id r b n (N & J & F) Fe I H. assert (X : forall x, In x es -> eident x <> id) by (apply fe_none; exact Fe).
  split; [|split].
  - rewrite map_app. cbn [map]. rewrite I. clear - N X. induction es as [|y t IH]; cbn [map app]; [constructor; [intros []|constructor]|]. cbn [map] in N. inversion N as [|? ? Ny Nt]; subst. constructor.
    + intros Z. apply in_app_iff in Z. destruct Z as [Z|[Z|[]]]; [contradiction|]. exact (X y (or_introl eq_refl) (eq_sym Z)).
    + apply IH; [exact Nt|]. intros z Hz. apply X. right. exact Hz.
  - intros i0 r0 b0 [Z|Z]; [injection Z as <- <- <-; exists n; split; [apply in_app_iff; right; left; reflexivity|exact I]|].
    destruct (J i0 r0 b0 Z) as (ce & Hc & Ec). exists ce. split; [apply in_app_iff; left; exact Hc|exact Ec].
  - apply Forall_forall. intros x Hx. apply in_app_iff in Hx. destruct Hx as [Hx|[<-|[]]].
    + rewrite res_cons_other by (intros Z; exact (X x Hx (eq_sym Z))). rewrite Forall_forall in F. exact (F x Hx).
    + rewrite I, res_cons_same. assert (Z : res id hr = []).
      { destruct (res id hr) as [|(r0, b0) t] eqn:R; [reflexivity|]. exfalso. assert (Y : In (id :: r0, b0) hr) by (apply res_in; rewrite R; left; reflexivity). destruct (J id r0 b0 Y) as (ce & Hc & Ec). exact (X ce Hc Ec). }
      rewrite Z. exact H.
Qed.

(** Marking of siblings. *)
Lemma mark_ident : forall id o es, map eident (mark kd id o es) = map eident es.
Proof.
  intros id o es. unfold mark. rewrite map_map. apply map_ext. intros [s v b own i ch]. destruct (at_id kd id _); [reflexivity|]. destruct own; reflexivity.
Qed.
Lemma inve_own : forall dl hr o e, inve dl hr e -> own_of e = None -> okop o -> deletes o = false -> dl = false -> o <> Create -> inve dl hr (set_own (Some o) e).
Proof.
  intros dl hr o [s v b own i ch] H Q Ok D Dl Nc. cbn [own_of] in Q. subst own dl. cbn [set_own]. apply inve_iff in H. apply inve_iff. destruct H as ((H1 & (H2 & H3 & H4) & (A & B & C & Dn)) & I). cbn [dl_of] in *. rewrite D.
  split; [split; [exact H1|split]|exact I].
  - split; [exact Ok|]. split; [|intros X; injection X as ->; contradiction]. intros X. destruct (H3 X).
  - split; [cbn [delo]; rewrite D; discriminate|]. split; [intros X; discriminate (B X)|]. split; [discriminate|exact Dn].
Qed.
Lemma eident_own : forall o e, eident (set_own o e) = eident e.
Proof. intros o [s v b own i ch]. reflexivity. Qed.
Lemma eident_ch : forall ch e, eident (set_ch ch e) = eident e.
Proof. intros ch' [s v b own i ch]. reflexivity. Qed.
Lemma inv_mark : forall id o hr es, inv false hr es -> okop o -> deletes o = false -> o <> Create -> inv false hr (mark kd id o es).
Proof.
  intros id o hr es (N & J & F) Ok D Nc. rewrite Forall_forall in F.
  assert (M : forall x, In x (mark kd id o es) <-> exists y, In y es /\ x = (if at_id kd id y then y else match own_of y with Some _ => y | None => set_own (Some o) y end)).
  { intros x. unfold mark. rewrite in_map_iff. split; intros (y & A & B); exists y; split; auto. }
  split; [rewrite mark_ident; exact N|]. split.
  - intros i r b X. destruct (J i r b X) as (ce & Hc & Ec). eexists. split; [apply M; exists ce; split; [exact Hc|reflexivity]|]. destruct (at_id kd id ce); [exact Ec|]. destruct (own_of ce); [exact Ec|]. rewrite eident_own. exact Ec.
  - apply Forall_forall. intros x Hx. apply M in Hx. destruct Hx as (y & Hy & ->). destruct (at_id kd id y); [exact (F y Hy)|]. destruct (own_of y) eqn:Oy; [exact (F y Hy)|]. rewrite eident_own. apply inve_own; try assumption; [exact (F y Hy)|reflexivity].
Qed.
End P.
