(** * Proofs: the subscription structure *)

From Coq Require Import List Arith Bool Lia Permutation.
Import ListNotations.
From Verif Require Import SubStruct SubStructSpec.

(** ** Arrays *)

Lemma set_nth_split {A} (a b : list A) x y : set_nth (length a) y (a ++ x :: b) = a ++ y :: b.
Proof. induction a as [|z a IH]; cbn [length List.app set_nth]; [reflexivity | now rewrite IH]. Qed.

Lemma swap_del_perm {A} (l : list A) i x : nth_error l i = Some x -> Permutation l (x :: swap_del i l).
Proof.
  intros H. destruct (exists_last (l := l)) as (l' & z & ->); [intros ->; destruct i; discriminate|].
  unfold swap_del. rewrite app_length. cbn [length].
  replace (length l' + 1 - 1) with (length l') by lia.
  rewrite nth_error_app2 by lia. rewrite Nat.sub_diag. cbn [nth_error].
  destruct (Nat.ltb_spec i (length l')) as [L | L].
  - rewrite nth_error_app1 in H by exact L.
    apply nth_error_split in H. destruct H as (a & b & -> & <-).
    rewrite <- app_assoc. cbn [List.app]. rewrite set_nth_split.
    change (a ++ z :: b ++ [z]) with (a ++ (z :: b) ++ [z]). rewrite app_assoc, removelast_last.
    eapply Permutation_trans; [apply Permutation_sym, Permutation_middle|]. constructor.
    apply Permutation_app_head. apply Permutation_sym, Permutation_cons_append.
  - rewrite nth_error_app2 in H by exact L.
    destruct (i - length l') as [|m]; [|destruct m; discriminate]. injection H as ->.
    rewrite removelast_last. apply Permutation_sym, Permutation_cons_append.
Qed.

Lemma index_some {A} (f : A -> bool) l i : index f l = Some i ->
  exists x, nth_error l i = Some x /\ f x = true.
Proof.
  revert i. induction l as [|y l IH]; intros i H; [discriminate|]. cbn [index] in H.
  destruct (f y) eqn:F.
  - injection H as <-. now exists y.
  - destruct (index f l) as [j|]; [|discriminate]. injection H as <-. now apply IH.
Qed.

Lemma index_none {A} (f : A -> bool) l x : index f l = None -> In x l -> f x = false.
Proof.
  induction l as [|y l IH]; intros H I; [destruct I|]. cbn [index] in H.
  destruct (f y) eqn:F; [discriminate|]. destruct (index f l); [discriminate|].
  destruct I as [-> | I]; auto.
Qed.

Lemma find2_some f t i j : find2 f t = Some (i, j) -> exists u, at2 t i j = Some u /\ f u = true.
Proof.
  revert i. induction t as [|g t IH]; intros i H; [discriminate|]. cbn [find2] in H.
  destruct (index f (g_subs g)) as [j'|] eqn:X.
  - injection H as <- <-. unfold at2. cbn [nth_error]. now apply index_some.
  - destruct (find2 f t) as [[i' j']|]; [|discriminate]. injection H as <- <-.
    destruct (IH i' eq_refl) as (u & A & F). exists u. split; [exact A | exact F].
Qed.

Lemma find2_none f t g u : find2 f t = None -> In g t -> In u (g_subs g) -> f u = false.
Proof.
  induction t as [|h t IH]; intros H I J; [destruct I|]. cbn [find2] in H.
  destruct (index f (g_subs h)) as [j|] eqn:X; [discriminate|].
  destruct (find2 f t) as [[i j]|]; [discriminate|].
  destruct I as [-> | I]; [exact (index_none f _ u X J) | now apply IH].
Qed.

(** ** Tables *)

Definition ents (k : kind) (g : group) : list entry :=
  map (fun s => Entry k (g_name g) (s_id s) (s_sess s)) (g_subs g).

Lemma of_table_flat k t : of_table k t = flat_map (ents k) t.
Proof. unfold of_table. now rewrite flat_map_concat_map. Qed.

Lemma of_table_perm k t t' : Permutation t t' -> Permutation (of_table k t) (of_table k t').
Proof. intros P. rewrite !of_table_flat. now apply Permutation_flat_map. Qed.

Lemma of_table_app k a b : of_table k (a ++ b) = of_table k a ++ of_table k b.
Proof. rewrite !of_table_flat. now rewrite flat_map_app. Qed.

Lemma of_table_cons k g t : of_table k (g :: t) = ents k g ++ of_table k t.
Proof. reflexivity. Qed.

Lemma in_of_table k t e : In e (of_table k t) <->
  exists g u, In g t /\ In u (g_subs g) /\ e = Entry k (g_name g) (s_id u) (s_sess u).
Proof.
  rewrite of_table_flat, in_flat_map. split.
  - intros (g & I & J). apply in_map_iff in J. destruct J as (u & <- & J). now exists g, u.
  - intros (g & u & I & J & ->). exists g. split; [exact I|]. apply in_map_iff. now exists u.
Qed.

Lemma at2_in t i j u : at2 t i j = Some u -> exists g, In g t /\ In u (g_subs g).
Proof.
  unfold at2. destruct (nth_error t i) as [g|] eqn:N; [|discriminate]. intros H. exists g.
  split; [now apply nth_error_In in N | now apply nth_error_In in H].
Qed.

Lemma tab_add_perm k t nm s :
  Permutation (of_table k (tab_add t nm s)) (Entry k nm (s_id s) (s_sess s) :: of_table k t).
Proof.
  unfold tab_add. destruct (index (fun g => g_name g =? nm) t) as [i|] eqn:X.
  - destruct (index_some _ _ _ X) as (g & N & F). apply Nat.eqb_eq in F. rewrite N.
    apply nth_error_split in N. destruct N as (a & b & -> & <-).
    rewrite set_nth_split, !of_table_app, !of_table_cons.
    unfold ents at 1. cbn [g_name g_subs]. rewrite map_app. cbn [map]. fold (ents k g). rewrite F.
    rewrite <- app_assoc. cbn [List.app]. rewrite !(app_assoc (of_table k a)).
    apply Permutation_sym, Permutation_middle.
  - rewrite of_table_app, of_table_cons. unfold ents. cbn [map g_name g_subs].
    cbn [of_table map concat List.app]. apply Permutation_sym, Permutation_cons_append.
Qed.

Lemma tab_del_perm k t id t' : tab_del t id = Some t' ->
  exists nm x, Permutation (of_table k t) (Entry k nm id x :: of_table k t').
Proof.
  unfold tab_del. destruct (find2 (fun s => s_id s =? id) t) as [[i j]|] eqn:X; [|discriminate].
  destruct (find2_some _ _ _ _ X) as (u & A & F). apply Nat.eqb_eq in F. unfold at2 in A.
  destruct (nth_error t i) as [g|] eqn:N; [|discriminate]. intros H.
  assert (P := swap_del_perm _ _ _ A).
  assert (Pe : Permutation (ents k g) (Entry k (g_name g) id (s_sess u) :: ents k (G (g_name g) (swap_del j (g_subs g))))).
  { unfold ents. cbn [g_subs g_name]. apply (Permutation_map (fun s => Entry k (g_name g) (s_id s) (s_sess s))) in P.
    cbn [map] in P. now rewrite F in P. }
  exists (g_name g), (s_sess u). revert H Pe.
  destruct (swap_del j (g_subs g)) as [|v r] eqn:Sd; intros H Pe.
  - injection H as <-. eapply Permutation_trans; [apply of_table_perm, (swap_del_perm _ _ _ N)|].
    rewrite of_table_cons. change (Entry k (g_name g) id (s_sess u) :: of_table k (swap_del i t))
      with ([Entry k (g_name g) id (s_sess u)] ++ of_table k (swap_del i t)).
    apply Permutation_app_tail. exact Pe.
  - injection H as <-. apply nth_error_split in N. destruct N as (a & b & -> & <-).
    rewrite set_nth_split, !of_table_app, !of_table_cons.
    eapply Permutation_trans; [apply Permutation_app_head, Permutation_app_tail, Pe|].
    cbn [List.app]. apply Permutation_sym, Permutation_middle.
Qed.

Lemma tab_del_some t id i j u : at2 t i j = Some u -> s_id u = id -> exists t', tab_del t id = Some t'.
Proof.
  intros A F. unfold tab_del. destruct (find2 (fun s => s_id s =? id) t) as [[i' j']|] eqn:X.
  - destruct (find2_some _ _ _ _ X) as (v & B & _). unfold at2 in B.
    destruct (nth_error t i'); [eauto | discriminate].
  - exfalso. destruct (at2_in _ _ _ _ A) as (g & I & J).
    assert (Q := find2_none _ _ g u X I J). cbv beta in Q. rewrite F, Nat.eqb_refl in Q. discriminate.
Qed.

(** ** All tables *)

Lemma set_tab_same f k t : set_tab f k t k = t.
Proof. unfold set_tab. now destruct k. Qed.

Lemma entries_split s k : exists r, forall t e l,
  Permutation (entries s) (of_table k (tabs s k) ++ r) /\
  Permutation (entries (St (set_tab (tabs s) k t) e l)) (of_table k t ++ r).
Proof.
  unfold entries. cbn [tabs].
  destruct k; unfold set_tab; cbn [kind_eqb].
  - eexists. intros t e l. split; apply Permutation_refl.
  - exists (of_table Change (tabs s Change) ++ of_table OperPoll (tabs s OperPoll) ++
            of_table Notif (tabs s Notif) ++ of_table Rpc (tabs s Rpc)).
    intros t e l. split; rewrite !app_assoc; repeat apply Permutation_app_tail; apply Permutation_app_comm.
  - exists ((of_table Change (tabs s Change) ++ of_table OperGet (tabs s OperGet)) ++
            of_table Notif (tabs s Notif) ++ of_table Rpc (tabs s Rpc)).
    intros t e l. split; rewrite !app_assoc; do 2 apply Permutation_app_tail;
      rewrite <- app_assoc; apply Permutation_app_rot || (eapply Permutation_trans; [rewrite app_assoc; apply Permutation_app_comm|]; rewrite ?app_assoc; apply Permutation_refl).
  - exists ((of_table Change (tabs s Change) ++ of_table OperGet (tabs s OperGet) ++ of_table OperPoll (tabs s OperPoll)) ++
            of_table Rpc (tabs s Rpc)).
    intros t e l. split; rewrite !app_assoc; apply Permutation_app_tail;
      (eapply Permutation_trans; [apply Permutation_app_comm|]; rewrite ?app_assoc; apply Permutation_refl).
  - exists (of_table Change (tabs s Change) ++ of_table OperGet (tabs s OperGet) ++ of_table OperPoll (tabs s OperPoll) ++
            of_table Notif (tabs s Notif)).
    intros t e l. split; rewrite !app_assoc;
      (eapply Permutation_trans; [apply Permutation_app_comm|]; rewrite ?app_assoc; apply Permutation_refl).
Qed.

Lemma in_entries s e : In e (entries s) <-> In e (of_table (e_kind e) (tabs s (e_kind e))).
Proof.
  unfold entries. rewrite !in_app_iff. split.
  - assert (K : forall k, In e (of_table k (tabs s k)) -> In e (of_table (e_kind e) (tabs s (e_kind e)))).
    { intros k I. assert (J := I). apply in_of_table in J. destruct J as (g & u & _ & _ & ->). exact I. }
    intros [H | [H | [H | [H | H]]]]; exact (K _ H).
  - destruct (e_kind e); tauto.
Qed.

Lemma subscribe_perm s k nm id x :
  Permutation (entries (subscribe s k nm id x)) (Entry k nm id x :: entries s).
Proof.
  destruct (entries_split s k) as (r & H). unfold subscribe.
  destruct (H (tab_add (tabs s k) nm (Sub id x)) (id :: ext s) (set_link (linked s) x true)) as [P1 P2].
  eapply Permutation_trans; [exact P2|].
  eapply Permutation_trans; [apply Permutation_app_tail, tab_add_perm|]. cbn [List.app s_id s_sess].
  constructor. now apply Permutation_sym.
Qed.

(** what a checked removal does *)
Lemma checked_del_cases s k i j id : exists s', checked_del s k i j id = Some s' /\
  (s' = s \/ (linked s' = linked s /\ ext s' = ext_del (ext s) id /\
    exists nm x, Permutation (entries s) (Entry k nm id x :: entries s'))).
Proof.
  unfold checked_del. destruct (at2 (tabs s k) i j) as [u|] eqn:A; [|eauto].
  destruct (Nat.eqb_spec (s_id u) id) as [F | _]; [|eauto].
  destruct (tab_del_some _ _ _ _ _ A F) as (t & D). rewrite D.
  eexists. split; [reflexivity|]. right. cbn [linked ext]. split; [reflexivity|]. split; [reflexivity|].
  destruct (tab_del_perm k _ _ _ D) as (nm & x & P). exists nm, x.
  destruct (entries_split s k) as (r & H).
  destruct (H t (ext_del (ext s) id) (linked s)) as [P1 P2].
  eapply Permutation_trans; [exact P1|].
  eapply Permutation_trans; [apply Permutation_app_tail, P|]. cbn [List.app].
  constructor. now apply Permutation_sym.
Qed.

Lemma has_sess_iff k t x : has_sess t x = true <-> exists e, In e (of_table k t) /\ e_sess e = x.
Proof.
  unfold has_sess. rewrite existsb_exists. split.
  - intros (g & I & H). apply existsb_exists in H. destruct H as (u & J & Q). apply Nat.eqb_eq in Q.
    exists (Entry k (g_name g) (s_id u) (s_sess u)). split; [|exact Q].
    apply in_of_table. now exists g, u.
  - intros (e & I & Q). apply in_of_table in I. destruct I as (g & u & I & J & ->). cbn [e_sess] in Q.
    exists g. split; [exact I|]. apply existsb_exists. exists u. split; [exact J | now apply Nat.eqb_eq].
Qed.

Lemma count0_iff s x : session_count0 s x = true <-> forall e, In e (entries s) -> e_sess e <> x.
Proof.
  unfold session_count0. rewrite negb_true_iff, <- not_true_iff_false, !orb_true_iff.
  rewrite (has_sess_iff Change), (has_sess_iff OperGet), (has_sess_iff OperPoll), (has_sess_iff Notif),
    (has_sess_iff Rpc).
  split.
  - intros H e I Q. apply H. apply in_entries in I. destruct (e_kind e); eauto 8.
  - intros H. assert (K : forall k e, In e (of_table k (tabs s k)) -> e_sess e <> x).
    { intros k e I. apply H. apply in_entries. assert (J := I). apply in_of_table in J.
      destruct J as (g & u & _ & _ & ->). exact I. }
    intros [[[[(e & I & Q) | (e & I & Q)] | (e & I & Q)] | (e & I & Q)] | (e & I & Q)];
      exact (K _ e I Q).
Qed.

Lemma unlink_entries s x : entries (unlink_if_last s x) = entries s.
Proof. unfold unlink_if_last. now destruct (session_count0 s x). Qed.

Lemma unlink_ext s x : ext (unlink_if_last s x) = ext s.
Proof. unfold unlink_if_last. now destruct (session_count0 s x). Qed.

(** ** The invariant *)

(** kinds searched before [k] *)
Definition before (k' k : kind) : Prop :=
  match k with
  | Change => False
  | OperGet => k' = Change
  | OperPoll => k' = Change \/ k' = OperGet
  | Notif => k' = Change \/ k' = OperGet \/ k' = OperPoll
  | Rpc => k' = Change \/ k' = OperGet \/ k' = OperPoll \/ k' = Notif
  end.

Definition searched (s : st) (k : kind) (x : nat) : Prop :=
  forall e, In e (entries s) -> before (e_kind e) k -> e_sess e <> x.

Definition pc_ok (used : list nat) (s : st) (p : pc) : Prop :=
  match p with
  | Scan k x => searched s k x
  | ScanAt k _ _ id x => searched s k x /\ In id used /\
      forall e, In e (entries s) -> e_id e = id -> e_sess e = x
  | Failed => False
  | _ => True
  end.

Definition linked_ok (s : st) : Prop := forall e, In e (entries s) -> linked s (e_sess e) = true.

Definition inv (used : list nat) (y : sys) : Prop :=
  NoDup (map e_id (entries (s_st y))) /\ incl (map e_id (entries (s_st y))) used /\
  Permutation (map e_id (entries (s_st y))) (ext (s_st y)) /\ linked_ok (s_st y) /\
  (forall t, pc_ok used (s_st y) (s_pc y t)).

Definition fewer (s s' : st) : Prop := incl (entries s') (entries s).

Lemma pc_ok_fewer used s s' p : fewer s s' -> pc_ok used s p -> pc_ok used s' p.
Proof.
  intros F. destruct p; cbn [pc_ok]; auto.
  - intros H e I. apply H, F, I.
  - intros (H1 & H2 & H3). split; [intros e I; apply H1, F, I|]. split; [exact H2|].
    intros e I. apply H3, F, I.
Qed.

Lemma set_pc_same f t p : set_pc f t p t = p.
Proof. unfold set_pc. now rewrite Nat.eqb_refl. Qed.

Lemma set_pc_other f t p t' : t' <> t -> set_pc f t p t' = f t'.
Proof. intros D. unfold set_pc. apply Nat.eqb_neq in D. now rewrite D. Qed.

Lemma perm_incl {A} (e : A) l l' : Permutation l (e :: l') -> incl l' l.
Proof. intros P x I. apply (Permutation_in x (Permutation_sym P)). now right. Qed.

Lemma ext_del_perm l id r : NoDup l -> Permutation l (id :: r) -> Permutation (ext_del l id) r.
Proof.
  intros N P. unfold ext_del.
  assert (F : forall a, ~ In id a -> filter (fun z => negb (z =? id)) a = a).
  { induction a as [|z a IH]; intros H; [reflexivity|]. cbn [filter].
    destruct (Nat.eqb_spec z id) as [-> | D]; [exfalso; apply H; now left|]. cbn [negb].
    f_equal. apply IH. intros I. apply H. now right. }
  assert (I : In id l) by (apply (Permutation_in id (Permutation_sym P)); now left).
  apply in_split in I. destruct I as (a & b & ->).
  assert (Nd := NoDup_remove_2 _ _ _ N).
  rewrite filter_app. cbn [filter]. rewrite Nat.eqb_refl. cbn [negb].
  rewrite !F; [|intros I; apply Nd, in_or_app; auto|intros I; apply Nd, in_or_app; auto].
  apply (Permutation_cons_inv (a := id)).
  eapply Permutation_trans; [apply Permutation_middle | exact P].
Qed.

(** state after a removal *)
Lemma checked_del_inv used y k i j id : inv used y ->
  exists s', checked_del (s_st y) k i j id = Some s' /\ fewer (s_st y) s' /\
    NoDup (map e_id (entries s')) /\ incl (map e_id (entries s')) used /\
    Permutation (map e_id (entries s')) (ext s') /\ linked_ok s' /\ linked s' = linked (s_st y) /\
    (s' = s_st y \/ exists nm x, Permutation (entries (s_st y)) (Entry k nm id x :: entries s')).
Proof.
  intros (N & Ic & Pe & Lk & Pc).
  destruct (checked_del_cases (s_st y) k i j id) as (s' & C & [-> | (L1 & E1 & nm & x & P)]).
  - exists (s_st y). unfold fewer. auto 10 using incl_refl.
  - exists s'. assert (Fw : fewer (s_st y) s') by exact (perm_incl _ _ _ P).
    assert (Pi := Permutation_map e_id P). cbn [map e_id] in Pi.
    split; [exact C|]. split; [exact Fw|].
    split; [apply (Permutation_NoDup Pi) in N; now inversion N|].
    split; [intros z I; apply Ic; apply (Permutation_in z (Permutation_sym Pi)); now right|].
    split.
    { rewrite E1. apply Permutation_sym, ext_del_perm.
      - exact (Permutation_NoDup Pe N).
      - eapply Permutation_trans; [apply Permutation_sym, Pe | exact Pi]. }
    split; [intros e I; rewrite L1; apply Lk, Fw, I|]. split; [exact L1|]. right. now exists nm, x.
Qed.

Lemma next_searched s k x k' :
  searched s k x -> (forall e, In e (entries s) -> e_kind e = k -> e_sess e <> x) ->
  next k = Some k' -> searched s k' x.
Proof.
  intros H1 H2 Nx e I B. 
  assert (C : before (e_kind e) k \/ e_kind e = k).
  { destruct k; cbn [next] in Nx; try discriminate Nx; injection Nx as <-; cbn [before] in *; tauto. }
  destruct C as [C | C]; [now apply H1 | now apply H2].
Qed.

Lemma scan_none s k x e : find2 (fun u => s_sess u =? x) (tabs s k) = None -> In e (entries s) ->
  e_kind e = k -> e_sess e <> x.
Proof.
  intros F I K Q. apply in_entries in I. rewrite K in I. apply in_of_table in I.
  destruct I as (g & u & I & J & ->). cbn [e_sess] in Q.
  assert (Z := find2_none _ _ g u F I J). cbv beta in Z. apply Nat.eqb_neq in Z. congruence.
Qed.

Lemma scan_some s k x i j u e : at2 (tabs s k) i j = Some u -> s_sess u = x ->
  NoDup (map e_id (entries s)) -> In e (entries s) -> e_id e = s_id u -> e_sess e = x.
Proof.
  intros A Q N I Ei. destruct (at2_in _ _ _ _ A) as (g & Ig & Iu).
  set (e' := Entry k (g_name g) (s_id u) (s_sess u)).
  assert (I' : In e' (entries s)).
  { apply in_entries. cbn [e_kind]. apply in_of_table. now exists g, u. }
  assert (e = e'); [|subst e; exact Q].
  clear -N I I' Ei. assert (Ei' : e_id e = e_id e') by exact Ei. clearbody e'. clear Ei u.
  induction (entries s) as [|z l IH]; [destruct I|]. cbn [map] in N. inversion N as [|? ? N1 N2]; subst.
  destruct I as [-> | I], I' as [-> | I']; auto.
  - exfalso. apply N1. rewrite Ei'. now apply in_map.
  - exfalso. apply N1. rewrite <- Ei'. now apply in_map.
Qed.

Lemma at2_used used s k i j u : incl (map e_id (entries s)) used -> at2 (tabs s k) i j = Some u ->
  In (s_id u) used.
Proof.
  intros Ic A. destruct (at2_in _ _ _ _ A) as (g & Ig & Iu). apply Ic.
  change (s_id u) with (e_id (Entry k (g_name g) (s_id u) (s_sess u))). apply in_map, in_entries.
  cbn [e_kind]. apply in_of_table. now exists g, u.
Qed.

(** a step keeps the invariant, and removes what is meant only *)
Lemma step_inv used y t : inv used y ->
  inv used (exec y (Step t)) /\
  (entries (s_st (exec y (Step t))) = entries (s_st y) \/
   exists e, meant (s_pc y t) e /\ Permutation (entries (s_st y)) (e :: entries (s_st (exec y (Step t))))).
Proof.
  intros Iv. assert (Iv' := Iv). destruct Iv' as (N & Ic & Pe & Lk & Pc).
  cbn [exec]. cbv zeta. cbn [s_st s_pc].
  assert (Stay : forall p, pc_ok used (s_st y) p ->
    inv used (Sys (s_st y) (set_pc (s_pc y) t p))).
  { intros p Hp. split; [exact N|]. split; [exact Ic|]. split; [exact Pe|]. split; [exact Lk|].
    intros t'. cbn [s_st s_pc]. destruct (Nat.eq_dec t' t) as [-> | D].
    - now rewrite set_pc_same.
    - rewrite set_pc_other by exact D. apply Pc. }
  assert (Pt := Pc t).
  destruct (s_pc y t) as [|k i j id x|k x|k i j id x|r|] eqn:Ept; cbn [step1].
  - split; [now apply Stay | now left].
  - destruct (checked_del_inv used y k i j id Iv) as (s' & C & Fw & N' & Ic' & Pe' & Lk' & Le & Cs).
    rewrite C. cbn [fst snd]. split.
    + unfold inv. cbn [s_st s_pc]. rewrite unlink_entries, unlink_ext.
      split; [exact N'|]. split; [exact Ic'|]. split; [exact Pe'|]. split.
      * intros e I. rewrite unlink_entries in I. unfold unlink_if_last.
        destruct (session_count0 s' x) eqn:Z; [|now apply Lk'].
        cbn [linked]. unfold set_link. destruct (Nat.eqb_spec (e_sess e) x) as [Q | _]; [|now apply Lk'].
        exfalso. exact (proj1 (count0_iff s' x) Z e I Q).
      * intros t'. destruct (Nat.eq_dec t' t) as [-> | D]; [rewrite set_pc_same; exact Logic.I|].
        rewrite set_pc_other by exact D. apply (pc_ok_fewer used (s_st y)); [|apply Pc].
        unfold fewer. rewrite unlink_entries. exact Fw.
    + rewrite unlink_entries. destruct Cs as [-> | (nm & z & P)]; [now left|].
      right. exists (Entry k nm id z). split; [reflexivity | exact P].
  - destruct (find2 (fun u => s_sess u =? x) (tabs (s_st y) k)) as [[i j]|] eqn:F.
    + destruct (find2_some _ _ _ _ F) as (u & A & Q). cbv beta in Q. apply Nat.eqb_eq in Q. rewrite A.
      cbn [fst snd]. split; [|now left]. apply Stay. cbn [pc_ok].
      split; [exact Pt|]. split; [exact (at2_used used (s_st y) k i j u Ic A)|].
      intros e I Ei. exact (scan_some (s_st y) k x i j u e A Q N I Ei).
    + destruct (next k) as [k'|] eqn:Nx; cbn [fst snd].
      * split; [|now left]. apply Stay. cbn [pc_ok].
        apply (next_searched (s_st y) k x k'); [exact Pt | | exact Nx].
        intros e I K. exact (scan_none _ _ _ e F I K).
      * split; [|now left]. destruct k; try discriminate Nx.
        assert (None_x : forall e, In e (entries (s_st y)) -> e_sess e <> x).
        { intros e I. destruct (e_kind e) eqn:K.
          - apply (Pt e I). rewrite K. cbn. auto.
          - apply (Pt e I). rewrite K. cbn. auto.
          - apply (Pt e I). rewrite K. cbn. auto.
          - apply (Pt e I). rewrite K. cbn. auto.
          - exact (scan_none _ _ _ e F I K). }
        split; [exact N|]. split; [exact Ic|]. split; [exact Pe|]. split.
        { intros e I. cbn [s_st linked]. unfold set_link.
          destruct (Nat.eqb_spec (e_sess e) x) as [Q | _]; [exfalso; exact (None_x e I Q)|]. now apply Lk. }
        intros t'. cbn [s_st s_pc]. destruct (Nat.eq_dec t' t) as [-> | D]; [rewrite set_pc_same; exact Logic.I|].
        rewrite set_pc_other by exact D. exact (Pc t').
  - destruct (checked_del_inv used y k i j id Iv) as (s' & C & Fw & N' & Ic' & Pe' & Lk' & Le & Cs).
    rewrite C. cbn [fst snd]. destruct Pt as (P1 & P2 & P3). split.
    + split; [exact N'|]. split; [exact Ic'|]. split; [exact Pe'|]. split; [exact Lk'|].
      intros t'. cbn [s_st s_pc]. destruct (Nat.eq_dec t' t) as [-> | D].
      * rewrite set_pc_same. cbn [pc_ok]. intros e I. apply P1, Fw, I.
      * rewrite set_pc_other by exact D. apply (pc_ok_fewer used (s_st y)); [exact Fw | apply Pc].
    + destruct Cs as [-> | (nm & z & P)]; [now left|].
      right. exists (Entry k nm id z). split; [|exact P]. cbn [meant].
      apply P3; [|reflexivity]. apply (Permutation_in _ (Permutation_sym P)). now left.
  - split; [now apply Stay | now left].
  - destruct Pt.
Qed.

Lemma reach_inv used y : reach used y -> inv used y.
Proof.
  induction 1 as [|used y k nm id x R IH Nu En|used y t id R IH Fr|used y t x R IH Fr|used y t R IH].
  - split; [constructor|]. split; [apply incl_refl|]. split; [constructor|].
    split; [intros e []|]. intros t. exact Logic.I.
  - destruct IH as (N & Ic & Pe & Lk & Pc). cbn [exec].
    assert (P := subscribe_perm (s_st y) k nm id x).
    assert (Pi := Permutation_map e_id P). cbn [map e_id] in Pi.
    assert (In_or : forall e, In e (entries (subscribe (s_st y) k nm id x)) ->
      e = Entry k nm id x \/ In e (entries (s_st y))).
    { intros e I. apply (Permutation_in e P) in I. destruct I as [<- | I]; auto. }
    unfold inv. cbn [s_st s_pc].
    split; [apply (Permutation_NoDup (Permutation_sym Pi)); constructor; [intros I; apply Nu, Ic, I | exact N]|].
    split; [intros z I; apply (Permutation_in z Pi) in I; destruct I as [<- | I]; [now left | right; now apply Ic]|].
    split; [eapply Permutation_trans; [exact Pi|]; cbn [subscribe ext]; now constructor|].
    split.
    { intros e I. cbn [subscribe linked]. unfold set_link.
      destruct (In_or e I) as [-> | J]; cbn [e_sess]; [now rewrite Nat.eqb_refl|].
      destruct (e_sess e =? x); [reflexivity | now apply Lk]. }
    intros t. specialize (Pc t). specialize (En t). 
    destruct (s_pc y t) as [|? ? ? ? ?|k' x'|k' i' j' id' x'|?|]; cbn [pc_ok ending] in *; auto.
    + intros e I B. destruct (In_or e I) as [-> | J]; [cbn [e_sess]; congruence | now apply Pc].
    + destruct Pc as (P1 & P2 & P3). split; [|split].
      * intros e I B. destruct (In_or e I) as [-> | J]; [cbn [e_sess]; congruence | now apply P1].
      * now right.
      * intros e I Q. destruct (In_or e I) as [-> | J]; [|now apply P3].
        cbn [e_id] in Q. exfalso. apply Nu. now rewrite Q.
  - destruct IH as (N & Ic & Pe & Lk & Pc). cbn [exec]. unfold inv. cbn [s_st s_pc].
    repeat (split; [assumption|]). intros t'. destruct (Nat.eq_dec t' t) as [-> | D].
    + rewrite set_pc_same. unfold start_id. destruct (find_kind kinds (s_st y) id) as [[[k i] j]|]; [|exact Logic.I].
      destruct (at2 (tabs (s_st y) k) i j); exact Logic.I.
    + now rewrite set_pc_other.
  - destruct IH as (N & Ic & Pe & Lk & Pc). cbn [exec]. unfold inv. cbn [s_st s_pc].
    repeat (split; [assumption|]). intros t'. destruct (Nat.eq_dec t' t) as [-> | D].
    + rewrite set_pc_same. cbn [pc_ok]. intros e I [].
    + now rewrite set_pc_other.
  - now apply step_inv.
Qed.

(** ** One call *)

Lemma find_kind_some ks s id k i j : find_kind ks s id = Some (k, i, j) ->
  exists u, at2 (tabs s k) i j = Some u /\ s_id u = id.
Proof.
  induction ks as [|h ks IH]; [discriminate|]. cbn [find_kind].
  destruct (find2 (fun u => s_id u =? id) (tabs s h)) as [[i' j']|] eqn:F; [|exact IH].
  intros Q. injection Q as <- <- <-. destruct (find2_some _ _ _ _ F) as (u & A & E).
  apply Nat.eqb_eq in E. eauto.
Qed.

Lemma find_kind_none ks s id k g u : find_kind ks s id = None -> In k ks -> In g (tabs s k) ->
  In u (g_subs g) -> s_id u <> id.
Proof.
  induction ks as [|h ks IH]; intros F Ik Ig Iu; [destruct Ik|]. cbn [find_kind] in F.
  destruct (find2 (fun u => s_id u =? id) (tabs s h)) as [[i' j']|] eqn:F2; [discriminate|].
  destruct Ik as [-> | Ik]; [|now apply IH].
  assert (Q := find2_none _ _ g u F2 Ig Iu). now apply Nat.eqb_neq in Q.
Qed.

Lemma del_id_sequential y t id :
  let y1 := exec y (UnsubId t id) in let y2 := exec y1 (Step t) in
  (exists e, In e (entries (s_st y)) /\ e_id e = id) ->
  s_pc y2 t = Done Ok /\
  exists e, e_id e = id /\ Permutation (entries (s_st y)) (e :: entries (s_st y2)).
Proof.
  cbv zeta. intros (e & I & Q). cbn [exec]. cbv zeta. cbn [s_st s_pc].
  rewrite !set_pc_same. unfold start_id.
  destruct (find_kind kinds (s_st y) id) as [[[k i] j]|] eqn:F.
  - destruct (find_kind_some _ _ _ _ _ _ F) as (u & A & E). rewrite A. cbn [step1].
    unfold checked_del. rewrite A, E, Nat.eqb_refl.
    destruct (tab_del_some _ _ _ _ _ A E) as (t' & D). rewrite D. cbn [fst snd].
    split; [reflexivity|].
    destruct (checked_del_cases (s_st y) k i j id) as (s' & C & Cs).
    unfold checked_del in C. rewrite A, E, Nat.eqb_refl, D in C. injection C as <-.
    rewrite unlink_entries.
    destruct (tab_del_perm k _ _ _ D) as (nm & x & P). exists (Entry k nm id x). split; [reflexivity|].
    destruct (entries_split (s_st y) k) as (r & H).
    destruct (H t' (ext_del (ext (s_st y)) id) (linked (s_st y))) as [P1 P2].
    eapply Permutation_trans; [exact P1|].
    eapply Permutation_trans; [apply Permutation_app_tail, P|]. cbn [List.app].
    constructor. now apply Permutation_sym.
  - exfalso. apply in_entries in I. apply in_of_table in I. destruct I as (g & u & Ig & Iu & Ee).
    assert (Ik : In (e_kind e) kinds) by (unfold kinds; destruct (e_kind e); cbn; tauto).
    apply (find_kind_none _ _ _ _ g u F Ik Ig Iu). rewrite <- Q, Ee. reflexivity.
Qed.

Lemma del_id_absent y t id : ~ In id (map e_id (entries (s_st y))) ->
  s_pc (exec y (UnsubId t id)) t = Done NotFound.
Proof.
  intros Na. cbn [exec s_pc]. rewrite set_pc_same. unfold start_id.
  destruct (find_kind kinds (s_st y) id) as [[[k i] j]|] eqn:F; [|reflexivity].
  exfalso. apply Na. destruct (find_kind_some _ _ _ _ _ _ F) as (u & A & E).
  destruct (at2_in _ _ _ _ A) as (g & Ig & Iu). rewrite <- E.
  change (s_id u) with (e_id (Entry k (g_name g) (s_id u) (s_sess u))). apply in_map, in_entries.
  cbn [e_kind]. apply in_of_table. now exists g, u.
Qed.

Lemma scan_done used y t x r : inv used y -> ending (s_pc y t) x ->
  s_pc (exec y (Step t)) t = Done r ->
  r = Ok /\ linked (s_st (exec y (Step t))) x = false /\
  forall e, In e (entries (s_st (exec y (Step t)))) -> e_sess e <> x.
Proof.
  intros Iv En. destruct (step_inv used y t Iv) as [(_ & _ & _ & Lk & _) _].
  revert Lk. cbn [exec]. cbv zeta. cbn [s_st s_pc]. rewrite set_pc_same.
  destruct (s_pc y t) as [|? ? ? ? ?|k z|k i j id z|?|] eqn:Ept; cbn [ending] in En; try contradiction; subst z; cbn [step1].
  - destruct (find2 (fun u => s_sess u =? x) (tabs (s_st y) k)) as [[i j]|] eqn:F.
    + destruct (at2 (tabs (s_st y) k) i j); discriminate.
    + destruct (next k); cbn [fst snd]; [discriminate|]. intros Lk Q. injection Q as <-.
      split; [reflexivity|]. cbn [linked]. unfold set_link. rewrite Nat.eqb_refl. split; [reflexivity|].
      intros e I Q. specialize (Lk e I). cbn [linked] in Lk. unfold set_link in Lk.
      rewrite Q, Nat.eqb_refl in Lk. discriminate.
  - destruct (checked_del (s_st y) k i j id); discriminate.
Qed.

(** ** A thread that is not disturbed finishes *)

Definition rank (k : kind) : nat :=
  match k with Change => 4 | OperGet => 3 | OperPoll => 2 | Notif => 1 | Rpc => 0 end.

Lemma scan_ends t x n r y k : length (entries (s_st y)) = n -> rank k = r -> s_pc y t = Scan k x ->
  exists m, s_pc (alone t m y) t = Done Ok.
Proof.
  revert r y k. induction n as [n IHn] using lt_wf_ind. intros r.
  induction r as [r IHr] using lt_wf_ind. intros y k Ln Lr Ep.
  destruct (find2 (fun u => s_sess u =? x) (tabs (s_st y) k)) as [[i j]|] eqn:F.
  - destruct (find2_some _ _ _ _ F) as (u & A & Q).
    destruct (tab_del_some _ _ _ _ (u) A eq_refl) as (t' & D).
    set (s' := St (set_tab (tabs (s_st y)) k t') (ext_del (ext (s_st y)) (s_id u)) (linked (s_st y))).
    assert (E2 : s_st (exec (exec y (Step t)) (Step t)) = s' /\
                 s_pc (exec (exec y (Step t)) (Step t)) t = Scan k x).
    { cbn [exec]. cbv zeta. cbn [s_st s_pc]. rewrite !set_pc_same, Ep. cbn [step1].
      rewrite F, A. cbn [fst snd step1]. unfold checked_del. rewrite A, Nat.eqb_refl, D. cbn [fst snd].
      split; reflexivity. }
    destruct E2 as [E2 E3].
    assert (L' : length (entries s') < n).
    { destruct (tab_del_perm k _ _ _ D) as (nm & z & P).
      destruct (entries_split (s_st y) k) as (r' & H).
      destruct (H t' (ext_del (ext (s_st y)) (s_id u)) (linked (s_st y))) as [P1 P2].
      fold s' in P2. apply Permutation_length in P, P1, P2. cbn [length] in P.
      rewrite app_length in P1, P2. lia. }
    destruct (IHn (length (entries s')) L' (rank k) (exec (exec y (Step t)) (Step t)) k) as (m & Hm);
      [now rewrite E2 | reflexivity | exact E3 |].
    exists (S (S m)). exact Hm.
  - destruct (next k) as [k'|] eqn:Nx.
    + assert (E2 : s_st (exec y (Step t)) = s_st y /\ s_pc (exec y (Step t)) t = Scan k' x).
      { cbn [exec]. cbv zeta. cbn [s_st s_pc]. rewrite set_pc_same, Ep. cbn [step1]. rewrite F, Nx.
        split; reflexivity. }
      destruct E2 as [E2 E3].
      destruct (IHr (rank k')) with (y := exec y (Step t)) (k := k') as (m & Hm);
        [destruct k; cbn [next] in Nx; try discriminate Nx; injection Nx as <-; cbn in *; lia
        |now rewrite E2 | reflexivity | exact E3 |].
      exists (S m). exact Hm.
    + exists 1. cbn [alone exec]. cbv zeta. cbn [s_pc]. rewrite set_pc_same, Ep. cbn [step1].
      now rewrite F, Nx.
Qed.

Lemma ending_ends used y t x : inv used y -> ending (s_pc y t) x ->
  exists m, s_pc (alone t m y) t = Done Ok.
Proof.
  intros Iv En. destruct (s_pc y t) as [|? ? ? ? ?|k z|k i j id z|?|] eqn:Ep; cbn [ending] in En; try contradiction; subst z.
  - exact (scan_ends t x _ _ y k eq_refl eq_refl Ep).
  - destruct (checked_del_inv used y k i j id Iv) as (s' & C & _).
    destruct (scan_ends t x _ _ (exec y (Step t)) k eq_refl eq_refl) as (m & Hm).
    { cbn [exec]. cbv zeta. cbn [s_pc]. rewrite set_pc_same, Ep. cbn [step1]. now rewrite C. }
    exists (S m). exact Hm.
Qed.
