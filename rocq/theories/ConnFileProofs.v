(** Invariants of lock files of connections. *)
From Coq Require Import NArith List Bool Lia.
From Verif Require Import ConnFile ConnFileSpec.
Import ListNotations.
Local Open Scope N_scope.

Lemma upd_same : forall (A : Type) (f : N -> A) k v, upd f k v k = v.
Proof. intros. unfold upd. rewrite N.eqb_refl. reflexivity. Qed.

Lemma upd_other : forall (A : Type) (f : N -> A) k v x, x <> k -> upd f k v x = f x.
Proof. intros A f k v x H. unfold upd. destruct (N.eqb k x) eqn:E; [|reflexivity]. apply N.eqb_eq in E. congruence. Qed.

Definition adding (k : pc) : Prop := match k with A0 | A1 _ | A2 _ | A3 _ => True | _ => False end.

Definition nolst (l : list (N * N * N)) (c : N) : Prop := forall p i, ~ In (p, c, i) l.
Definition nomine (l : list (N * N * N)) (p c : N) : Prop := forall i, ~ In (p, c, i) l.

Definition ok (ic : N -> N) (s : state) (p c : N) (k : pc) : Prop :=
  match k with
  | A0 => ~ In c (used s) /\ c < ncid s
  | A1 i => (~ In c (used s) /\ c < ncid s) /\ fnew s c = Some i /\ lk s i = None
  | A2 i => (~ In c (used s) /\ c < ncid s) /\ fnew s c = Some i /\ lk s i = Some p
  | A3 i => (~ In c (used s) /\ c < ncid s) /\ ffin s c = Some i /\ lk s i = Some p
  | A4 => In c (used s)
  | D1 => In c (used s) /\ nolst (lst s) c
  | C0 => In c (used s)
  | C1 => In c (used s) /\ nomine (lst s) p c
  | C2 i => In c (used s) /\ nomine (lst s) p c /\ (ic i = c /\ i < nino s) /\ forall q j, In (q, c, j) (lst s) -> i = j
  | C3 i b => In c (used s) /\ nomine (lst s) p c /\ (ic i = c /\ i < nino s) /\ (b = false -> nolst (lst s) c)
  | C4 => In c (used s) /\ nolst (lst s) c
  end.

Definition holds (s : state) (p c i : N) : Prop :=
  exists t, thr s t = Some (Th p c (A2 i)) \/ thr s t = Some (Th p c (A3 i)).

Record Inv (ic : N -> N) (s : state) : Prop := MkInv {
  v_new : forall c i, fnew s c = Some i -> ic i = c /\ i < nino s;
  v_fin : forall c i, ffin s c = Some i -> ic i = c /\ i < nino s;
  v_lst : forall p c i, In (p, c, i) (lst s) -> ffin s c = Some i /\ lk s i = Some p /\ In c (used s);
  v_uniq : NoDup (map (fun x => snd (fst x)) (lst s));
  v_live : forall p c, In (p, c) (live s) -> exists i, In (p, c, i) (lst s);
  v_used : forall c, In c (used s) -> c < ncid s;
  v_lock : forall i p, lk s i = Some p -> i < nino s /\ (In (p, ic i, i) (lst s) \/ holds s p (ic i) i);
  v_tid : forall t th, thr s t = Some th -> t < ntid s;
  v_thr : forall t p c k, thr s t = Some (Th p c k) -> ok ic s p c k;
  v_add : forall t t' p p' c k k', thr s t = Some (Th p c k) -> thr s t' = Some (Th p' c k') ->
            adding k -> adding k' -> t = t';
  v_res : forall t c, In (t, c, false) (res s) -> In c (used s) /\ nolst (lst s) c
}.

Lemma has_true : forall l p c, has l p c = true -> exists i, In (p, c, i) l.
Proof.
  intros l p c H. unfold has in H. apply existsb_exists in H. destruct H as ([[q d] i] & I & E). cbn [fst snd] in E.
  apply andb_true_iff in E. destruct E as [E1 E2]. apply N.eqb_eq in E1. apply N.eqb_eq in E2. subst. exists i. exact I.
Qed.

Lemma has_false : forall l p c, has l p c = false -> nomine l p c.
Proof.
  intros l p c H i I. assert (has l p c = true) as T.
  { apply existsb_exists. exists (p, c, i). split; [exact I|]. cbn. rewrite !N.eqb_refl. reflexivity. }
  congruence.
Qed.

Lemma nodup_cid : forall (l : list (N * N * N)) p q c i j, NoDup (map (fun x => snd (fst x)) l) ->
  In (p, c, i) l -> In (q, c, j) l -> p = q /\ i = j.
Proof.
  induction l as [|[[a b] d] l IH]; intros p q c i j ND I J; [destruct I|].
  cbn [map fst snd] in ND. apply NoDup_cons_iff in ND. destruct ND as [NI ND].
  destruct I as [I|I]; destruct J as [J|J].
  - split; congruence.
  - exfalso. injection I as -> -> ->. apply NI. apply in_map_iff. exists (q, c, j). auto.
  - exfalso. injection J as -> -> ->. apply NI. apply in_map_iff. exists (p, c, i). auto.
  - apply (IH p q c i j); auto.
Qed.

Lemma holds_adding : forall ic s p c i, Inv ic s -> holds s p c i -> ~ In c (used s).
Proof. intros ic s p c i V (t & [T|T]); apply (v_thr _ _ V) in T; cbn in T; tauto. Qed.

(** Only threads that are not connecting change *)
Lemma frame : forall ic s t x n r d, Inv ic s ->
  (forall th, thr s t = Some th -> ~ adding (t_pc th)) ->
  (forall th, x = Some th -> ok ic s (t_pid th) (t_cid th) (t_pc th) /\ ~ adding (t_pc th)) ->
  t < n -> ntid s <= n ->
  (forall u c, In (u, c, false) r -> In c (used s) /\ nolst (lst s) c) ->
  Inv ic (St (fnew s) (ffin s) (lk s) (nino s) (lst s) (ncid s) (upd (thr s) t x) n (live s) (used s) r d).
Proof.
  intros ic s t x n r d V O X L1 L2 R.
  constructor; cbn [fnew ffin lk nino lst ncid thr ntid live used res].
  - apply V.
  - apply V.
  - apply V.
  - apply V.
  - apply V.
  - apply V.
  - intros i p H. destruct (v_lock _ _ V i p H) as [B [K|(u & K)]]; split; auto. right. exists u.
    cbn [thr]. assert (u <> t) as Ne by (intros ->; destruct K as [K|K]; apply O in K; apply K; exact Logic.I).
    rewrite upd_other by exact Ne. exact K.
  - intros u th H. destruct (N.eq_dec u t) as [->|E]; [exact L1|]. rewrite upd_other in H by exact E.
    apply (v_tid _ _ V) in H. lia.
  - intros u p c k H. destruct (N.eq_dec u t) as [->|E].
    + rewrite upd_same in H. apply X in H. destruct H as [H _]. destruct k; exact H.
    + rewrite upd_other in H by exact E. apply (v_thr _ _ V) in H. destruct k; exact H.
  - intros u u' p p' c k k' H H' K K'. destruct (N.eq_dec u t) as [->|E].
    + rewrite upd_same in H. apply X in H. destruct H as [_ H]. contradiction.
    + destruct (N.eq_dec u' t) as [->|E'].
      * rewrite upd_same in H'. apply X in H'. destruct H' as [_ H']. contradiction.
      * rewrite upd_other in H by exact E. rewrite upd_other in H' by exact E'.
        apply (v_add _ _ V u u' p p' c k k'); auto.
  - exact R.
Qed.

(** A file of a CID without a connection is removed *)
Lemma unlinked : forall ic s c, Inv ic s -> In c (used s) -> nolst (lst s) c ->
  Inv ic (St (fnew s) (upd (ffin s) c None) (lk s) (nino s) (lst s) (ncid s) (thr s) (ntid s) (live s) (used s) (res s) (dres s)).
Proof.
  intros ic s c V U NL. constructor; cbn [fnew ffin lk nino lst ncid thr ntid live used res]; try apply V.
  - intros d i H. destruct (N.eq_dec d c) as [->|E]; [rewrite upd_same in H; discriminate|].
    rewrite upd_other in H by exact E. apply (v_fin _ _ V). exact H.
  - intros p d i I. assert (d <> c) as E by (intros ->; exact (NL p i I)). rewrite upd_other by exact E.
    apply (v_lst _ _ V). exact I.
  - intros t p d k H. apply (v_thr _ _ V) in H. destruct k; try exact H. cbn [ok] in *.
    cbn [ffin used lk ncid]. rewrite upd_other; [exact H|]. intros ->. tauto.
Qed.

Lemma close_noop : forall ic s i p, Inv ic s -> In (ic i) (used s) -> nomine (lst s) p (ic i) -> close (lk s) i p = lk s.
Proof.
  intros ic s i p V U NM. unfold close. destruct (lk s i) as [q|] eqn:E; [|reflexivity].
  destruct (N.eqb q p) eqn:Q; [|reflexivity]. apply N.eqb_eq in Q. subst q.
  destruct (v_lock _ _ V i p E) as [_ [H|H]]; exfalso; [exact (NM i H)|]. exact (holds_adding _ _ _ _ _ V H U).
Qed.

(** The thread goes on connecting or ends *)
Lemma go_add : forall ic s t p c k x, Inv ic s -> thr s t = Some (Th p c k) -> adding k ->
  (forall th, x = Some th -> t_pid th = p /\ t_cid th = c) ->
  forall u u' q q' d m m', upd (thr s) t x u = Some (Th q d m) -> upd (thr s) t x u' = Some (Th q' d m') ->
    adding m -> adding m' -> u = u'.
Proof.
  intros ic s t p c k x V T A X u u' q q' d m m' H H' K K'.
  assert (forall v r e n, upd (thr s) t x v = Some (Th r e n) -> adding n -> exists n', thr s v = Some (Th r e n') /\ adding n') as G.
  { intros v r e n Hv Hn. destruct (N.eq_dec v t) as [->|E].
    - rewrite upd_same in Hv. apply X in Hv. cbn in Hv. destruct Hv as [-> ->]. exists k. auto.
    - rewrite upd_other in Hv by exact E. exists n. auto. }
  destruct (G _ _ _ _ H K) as (n & M1 & M2). destruct (G _ _ _ _ H' K') as (n' & M1' & M2').
  apply (v_add _ _ V u u' q q' d n n'); auto.
Qed.

Lemma go_tid : forall ic s t th x, Inv ic s -> thr s t = Some th ->
  forall u th', upd (thr s) t x u = Some th' -> u < ntid s.
Proof.
  intros ic s t th x V T u th' H. destruct (N.eq_dec u t) as [->|E]; [apply (v_tid _ _ V _ _ T)|].
  rewrite upd_other in H by exact E. apply (v_tid _ _ V _ _ H).
Qed.

Lemma th_only : forall (x : option thread) p c k, x = Some (Th p c k) -> forall th, x = Some th -> t_pid th = p /\ t_cid th = c.
Proof. intros x p c k -> th H. injection H as <-. auto. Qed.

Lemma step_A0 : forall ic s t p c, Inv ic s -> thr s t = Some (Th p c A0) -> exists ic', Inv ic' (tstep s t (Th p c A0)).
Proof.
  intros ic s t p c V T. pose proof (v_thr _ _ V _ _ _ _ T) as O. cbn [ok] in O.
  unfold tstep, goto. cbn [t_pid t_cid t_pc]. destruct (fnew s c) as [i|] eqn:F.
  - exists ic. assert (lk s i = None) as Free.
    { destruct (lk s i) as [q|] eqn:E; [|reflexivity]. exfalso.
      destruct (v_new _ _ V c i F) as [Ic _]. destruct (v_lock _ _ V i q E) as [_ [H|(u & H)]]; rewrite Ic in H.
      - apply (v_lst _ _ V) in H. tauto.
      - assert (u = t) as ->.
        { destruct H as [H|H]; apply (v_add _ _ V u t _ _ _ _ _ H T); exact Logic.I. }
        rewrite T in H. destruct H as [H|H]; discriminate. }
    constructor; cbn [fnew ffin lk nino lst ncid thr ntid live used res]; try apply V.
    + intros j q H. destruct (v_lock _ _ V j q H) as [B [K|(u & K)]]; split; auto. right. exists u. cbn [thr].
      rewrite upd_other; [exact K|]. intros ->. rewrite T in K. destruct K; discriminate.
    + apply (go_tid _ _ _ _ _ V T).
    + intros u q d k H. destruct (N.eq_dec u t) as [->|E].
      * rewrite upd_same in H. injection H as <- <- <-. cbn [ok used ncid fnew lk]. auto.
      * rewrite upd_other in H by exact E. apply (v_thr _ _ V) in H. destruct k; exact H.
    + apply (go_add _ _ _ _ _ _ _ V T Logic.I). apply (th_only _ _ _ _ eq_refl).
  - exists (upd ic (nino s) c).
    assert (forall i, i < nino s -> upd ic (nino s) c i = ic i) as Old by (intros i Hi; apply upd_other; lia).
    assert (lk s (nino s) = None) as Free.
    { destruct (lk s (nino s)) as [q|] eqn:E; [|reflexivity]. destruct (v_lock _ _ V _ _ E) as [B _]. lia. }
    constructor; cbn [fnew ffin lk nino lst ncid thr ntid live used res]; try apply V.
    + intros d j H. destruct (N.eq_dec d c) as [->|E].
      * rewrite upd_same in H. injection H as <-. rewrite upd_same. split; [reflexivity|lia].
      * rewrite upd_other in H by exact E. destruct (v_new _ _ V d j H) as [A B]. rewrite Old by exact B. split; [exact A|lia].
    + intros d j H. destruct (v_fin _ _ V d j H) as [A B]. rewrite Old by exact B. split; [exact A|lia].
    + intros j q H. destruct (v_lock _ _ V j q H) as [B K]. rewrite Old by exact B. split; [lia|].
      destruct K as [K|(u & K)]; [left; exact K|]. right. exists u. cbn [thr].
      rewrite upd_other; [exact K|]. intros ->. rewrite T in K. destruct K; discriminate.
    + apply (go_tid _ _ _ _ _ V T).
    + intros u q d k H. destruct (N.eq_dec u t) as [->|E].
      * rewrite upd_same in H. injection H as <- <- <-. cbn [ok used ncid fnew lk]. rewrite upd_same. auto.
      * rewrite upd_other in H by exact E. pose proof (v_thr _ _ V _ _ _ _ H) as Q.
        assert (adding k -> d <> c) as Dc.
        { intros Ak ->. apply E. apply (v_add _ _ V u t _ _ _ _ _ H T); [exact Ak|exact Logic.I]. }
        destruct k as [|j|j|j| | | | |j|j b|]; cbn [ok used ncid fnew lk lst ffin nino adding] in *; try exact Q.
        -- rewrite upd_other by (apply Dc; exact Logic.I). exact Q.
        -- rewrite upd_other by (apply Dc; exact Logic.I). exact Q.
        -- destruct Q as (Q1 & Q2 & (Q3 & Q5) & Q4). rewrite Old by exact Q5. repeat split; auto. lia.
        -- destruct Q as (Q1 & Q2 & (Q3 & Q5) & Q4). rewrite Old by exact Q5. repeat split; auto. lia.
    + apply (go_add _ _ _ _ _ _ _ V T Logic.I). apply (th_only _ _ _ _ eq_refl).
Qed.

Lemma ic_fin : forall ic s c i, Inv ic s -> ffin s c = Some i -> ic i = c.
Proof. intros ic s c i V H. apply (v_fin _ _ V c i H). Qed.
Lemma ic_new : forall ic s c i, Inv ic s -> fnew s c = Some i -> ic i = c.
Proof. intros ic s c i V H. apply (v_new _ _ V c i H). Qed.

Lemma step_A1 : forall ic s t p c i, Inv ic s -> thr s t = Some (Th p c (A1 i)) -> Inv ic (tstep s t (Th p c (A1 i))).
Proof.
  intros ic s t p c i V T. pose proof (v_thr _ _ V _ _ _ _ T) as O. cbn [ok] in O. destruct O as (O & F & L).
  unfold tstep, goto. cbn [t_pid t_cid t_pc]. rewrite L. pose proof (ic_new _ _ _ _ V F) as Ic.
  constructor; cbn [fnew ffin lk nino lst ncid thr ntid live used res]; try apply V.
  - intros q d j I. destruct (v_lst _ _ V q d j I) as (A & B & D). split; [exact A|]. split; [|exact D].
    rewrite upd_other; [exact B|]. intros ->. congruence.
  - intros j q H. destruct (N.eq_dec j i) as [->|E].
    + rewrite upd_same in H. injection H as <-. split; [apply (v_new _ _ V c i F)|]. right. exists t. left. cbn [thr].
      rewrite upd_same, Ic. reflexivity.
    + rewrite upd_other in H by exact E. destruct (v_lock _ _ V j q H) as [B [K|(u & K)]]; split; auto. right. exists u. cbn [thr].
      rewrite upd_other; [exact K|]. intros ->. rewrite T in K. destruct K; discriminate.
  - apply (go_tid _ _ _ _ _ V T).
  - intros u q d k H. destruct (N.eq_dec u t) as [->|E].
    + rewrite upd_same in H. injection H as <- <- <-. cbn [ok used ncid fnew lk]. rewrite upd_same. auto.
    + rewrite upd_other in H by exact E. pose proof (v_thr _ _ V _ _ _ _ H) as Q.
      assert (adding k -> d <> c) as Dc.
      { intros Ak ->. apply E. apply (v_add _ _ V u t _ _ _ _ _ H T); [exact Ak|exact Logic.I]. }
      destruct k as [|j|j|j| | | | |j|j b|]; cbn [ok used ncid fnew lk lst ffin nino adding] in *; try exact Q;
        (rewrite upd_other; [exact Q|]); destruct Q as (_ & Fj & _); intros ->; apply (Dc Logic.I).
      * rewrite <- Ic. symmetry. apply (ic_new _ _ _ _ V Fj).
      * rewrite <- Ic. symmetry. apply (ic_new _ _ _ _ V Fj).
      * rewrite <- Ic. symmetry. apply (ic_fin _ _ _ _ V Fj).
  - apply (go_add _ _ _ _ _ _ _ V T Logic.I). apply (th_only _ _ _ _ eq_refl).
Qed.

Lemma step_A2 : forall ic s t p c i, Inv ic s -> thr s t = Some (Th p c (A2 i)) -> Inv ic (tstep s t (Th p c (A2 i))).
Proof.
  intros ic s t p c i V T. pose proof (v_thr _ _ V _ _ _ _ T) as O. cbn [ok] in O. destruct O as (O & F & L).
  unfold tstep, goto. cbn [t_pid t_cid t_pc]. rewrite F. pose proof (ic_new _ _ _ _ V F) as Ic.
  constructor; cbn [fnew ffin lk nino lst ncid thr ntid live used res]; try apply V.
  - intros d j H. destruct (N.eq_dec d c) as [->|E]; [rewrite upd_same in H; discriminate|].
    rewrite upd_other in H by exact E. apply (v_new _ _ V d j H).
  - intros d j H. destruct (N.eq_dec d c) as [->|E].
    + rewrite upd_same in H. injection H as <-. apply (v_new _ _ V c i F).
    + rewrite upd_other in H by exact E. apply (v_fin _ _ V d j H).
  - intros q d j I. destruct (v_lst _ _ V q d j I) as (A & B & D). rewrite upd_other; [auto|]. intros ->. tauto.
  - intros j q H. destruct (v_lock _ _ V j q H) as [B [K|(u & K)]]; split; auto. right. exists u. cbn [thr].
    destruct (N.eq_dec u t) as [->|E].
    + rewrite T in K. destruct K as [K|K]; [|discriminate]. injection K as K1 K2 K3. subst q j.
      right. rewrite upd_same, Ic. reflexivity.
    + rewrite upd_other by exact E. exact K.
  - apply (go_tid _ _ _ _ _ V T).
  - intros u q d k H. destruct (N.eq_dec u t) as [->|E].
    + rewrite upd_same in H. injection H as <- <- <-. cbn [ok used ncid ffin lk]. rewrite upd_same. auto.
    + rewrite upd_other in H by exact E. pose proof (v_thr _ _ V _ _ _ _ H) as Q.
      assert (adding k -> d <> c) as Dc.
      { intros Ak ->. apply E. apply (v_add _ _ V u t _ _ _ _ _ H T); [exact Ak|exact Logic.I]. }
      destruct k as [|j|j|j| | | | |j|j b|]; cbn [ok used ncid fnew lk lst ffin nino adding] in *; try exact Q;
        (rewrite upd_other; [exact Q|apply (Dc Logic.I)]).
  - apply (go_add _ _ _ _ _ _ _ V T Logic.I). apply (th_only _ _ _ _ eq_refl).
Qed.

Lemma step_A3 : forall ic s t p c i, Inv ic s -> thr s t = Some (Th p c (A3 i)) -> Inv ic (tstep s t (Th p c (A3 i))).
Proof.
  intros ic s t p c i V T. pose proof (v_thr _ _ V _ _ _ _ T) as O. cbn [ok] in O. destruct O as (O & F & L).
  unfold tstep, goto. cbn [t_pid t_cid t_pc]. pose proof (ic_fin _ _ _ _ V F) as Ic.
  assert (nolst (lst s) c) as NL by (intros q j I; apply (v_lst _ _ V) in I; tauto).
  assert (forall d, In d (used s) -> d <> c) as Un by (intros d I ->; tauto).
  constructor; cbn [fnew ffin lk nino lst ncid thr ntid live used res]; try apply V.
  - intros q d j [I|I].
    + injection I as <- <- <-. cbn [In]. auto.
    + destruct (v_lst _ _ V q d j I) as (A & B & D). cbn [In]. auto.
  - cbn [map fst snd]. constructor; [|apply V]. intro I. apply in_map_iff in I. destruct I as ([[q d] j] & E & I).
    cbn [fst snd] in E. subst d. exact (NL q j I).
  - intros q d [I|I].
    + injection I as <- <-. exists i. left. reflexivity.
    + destruct (v_live _ _ V q d I) as (j & J). exists j. right. exact J.
  - intros d [<-|I]; [tauto|apply (v_used _ _ V d I)].
  - intros j q H. destruct (v_lock _ _ V j q H) as [B [K|(u & K)]]; split; auto; [left; right; exact K|].
    destruct (N.eq_dec u t) as [->|E].
    + left. left. rewrite T in K. destruct K as [K|K]; [discriminate|]. injection K as K1 K2 K3. subst. reflexivity.
    + right. exists u. cbn [thr]. rewrite upd_other by exact E. exact K.
  - apply (go_tid _ _ _ _ _ V T).
  - intros u q d k H. destruct (N.eq_dec u t) as [->|E].
    + rewrite upd_same in H. injection H as <- <- <-. cbn [ok used]. left. reflexivity.
    + rewrite upd_other in H by exact E. pose proof (v_thr _ _ V _ _ _ _ H) as Q.
      assert (adding k -> d <> c) as Dc.
      { intros Ak ->. apply E. apply (v_add _ _ V u t _ _ _ _ _ H T); [exact Ak|exact Logic.I]. }
      assert (In d (used s) -> nomine (lst s) q d -> nomine ((p, c, i) :: lst s) q d) as M1.
      { intros Ud M j [I|I]; [injection I as _ I _; apply (Un d Ud); auto|exact (M j I)]. }
      assert (In d (used s) -> nolst (lst s) d -> nolst ((p, c, i) :: lst s) d) as M2.
      { intros Ud M r j [I|I]; [injection I as _ I _; apply (Un d Ud); auto|exact (M r j I)]. }
      destruct k as [|j|j|j| | | | |j|j b|]; cbn [ok used ncid fnew lk lst ffin nino adding In] in *.
      * split; [|tauto]. intros [Z|Z]; [symmetry in Z; exact (Dc Logic.I Z)|tauto].
      * split; [|tauto]. split; [|tauto]. intros [Z|Z]; [symmetry in Z; exact (Dc Logic.I Z)|tauto].
      * split; [|tauto]. split; [|tauto]. intros [Z|Z]; [symmetry in Z; exact (Dc Logic.I Z)|tauto].
      * split; [|tauto]. split; [|tauto]. intros [Z|Z]; [symmetry in Z; exact (Dc Logic.I Z)|tauto].
      * auto.
      * destruct Q as [Q1 Q2]. auto.
      * auto.
      * destruct Q as [Q1 Q2]. auto.
      * destruct Q as (Q1 & Q2 & Q3 & Q4). split; [auto|]. split; [auto|]. split; [auto|].
        intros r j' [I|I]; [|apply (Q4 r j' I)]. injection I as _ I _. exfalso. apply (Un d Q1). auto.
      * destruct Q as (Q1 & Q2 & Q3 & Q4). split; [auto|]. split; [auto|]. split; [exact Q3|]. intro B. apply (M2 Q1 (Q4 B)).
      * destruct Q as [Q1 Q2]. auto.
  - apply (go_add _ _ _ _ _ _ _ V T Logic.I). intros th H. injection H as <-. auto.
  - intros u d I. destruct (v_res _ _ V u d I) as [A B]. split; [right; exact A|].
    intros r j [J|J]; [injection J as _ J _; apply (Un d A); auto|exact (B r j J)].
Qed.

Lemma step_thread : forall ic s t th, Inv ic s -> thr s t = Some th -> exists ic', Inv ic' (tstep s t th).
Proof.
  intros ic s t [p c k] V T. pose proof (v_thr _ _ V _ _ _ _ T) as O. pose proof (v_tid _ _ V _ _ T) as Lt.
  assert (~ adding k -> forall th, thr s t = Some th -> ~ adding (t_pc th)) as NA.
  { intros K th H. rewrite T in H. injection H as <-. exact K. }
  destruct k as [|i|i|i| | | | |i|i b|].
  - apply (step_A0 _ _ _ _ _ V T).
  - exists ic. apply (step_A1 _ _ _ _ _ _ V T).
  - exists ic. apply (step_A2 _ _ _ _ _ _ V T).
  - exists ic. apply (step_A3 _ _ _ _ _ _ V T).
  - exists ic. unfold tstep, ends. cbn [t_pid t_cid t_pc].
    apply (frame ic s); [exact V|apply NA; intros []|discriminate|exact Lt|lia|apply V].
  - exists ic. unfold tstep, ends. cbn [t_pid t_cid t_pc]. cbn [ok] in O. destruct O as [U NL].
    pose proof (unlinked ic s c V U NL) as V'.
    refine (frame ic _ t None _ _ _ V' _ _ _ _ _); cbn [thr ntid used lst];
      [apply NA; intros []|discriminate|exact Lt|lia|apply V].
  - exists ic. unfold tstep, ends, goto. cbn [t_pid t_cid t_pc]. cbn [ok] in O. destruct (has (lst s) p c) eqn:Hs.
    + apply (frame ic s); [exact V|apply NA; intros []|discriminate|exact Lt|lia|].
      intros u d [I|I]; [discriminate|apply (v_res _ _ V u d I)].
    + apply (frame ic s); [exact V|apply NA; intros []| |exact Lt|lia|apply V].
      intros th H. injection H as <-. cbn [t_pid t_cid t_pc ok adding]. split; [|tauto].
      split; [exact O|apply has_false; exact Hs].
  - exists ic. unfold tstep, ends, goto. cbn [t_pid t_cid t_pc]. cbn [ok] in O. destruct O as [U NM].
    destruct (ffin s c) as [i|] eqn:F.
    + apply (frame ic s); [exact V|apply NA; intros []| |exact Lt|lia|apply V].
      intros th H. injection H as <-. cbn [t_pid t_cid t_pc ok adding]. split; [|tauto].
      split; [exact U|]. split; [exact NM|]. split; [apply (v_fin _ _ V c i F)|].
      intros q j I. apply (v_lst _ _ V) in I. destruct I as [I _]. congruence.
    + apply (frame ic s); [exact V|apply NA; intros []|discriminate|exact Lt|lia|].
      intros u d [I|I]; [|apply (v_res _ _ V u d I)]. injection I as <- <-. split; [exact U|].
      intros q j I. apply (v_lst _ _ V) in I. destruct I as [I _]. congruence.
  - exists ic. unfold tstep, ends, goto. cbn [t_pid t_cid t_pc]. cbn [ok] in O. destruct O as (U & NM & Ic & J).
    apply (frame ic s); [exact V|apply NA; intros []| |exact Lt|lia|apply V].
    intros th H. injection H as <-. cbn [t_pid t_cid t_pc ok adding]. split; [|tauto].
    split; [exact U|]. split; [exact NM|]. split; [exact Ic|].
    intros B q j I. pose proof (J q j I) as ->. pose proof (v_lst _ _ V q c j I) as (_ & L & _). rewrite L in B.
    apply negb_false_iff, N.eqb_eq in B. subst q. exact (NM j I).
  - exists ic. unfold tstep, ends, goto. cbn [t_pid t_cid t_pc]. cbn [ok] in O. destruct O as (U & NM & (Ic & Li) & J).
    rewrite (close_noop ic s i p V) by (rewrite Ic; assumption). destruct b.
    + apply (frame ic s); [exact V|apply NA; intros []|discriminate|exact Lt|lia|].
      intros u d [I|I]; [discriminate|apply (v_res _ _ V u d I)].
    + apply (frame ic s); [exact V|apply NA; intros []| |exact Lt|lia|apply V].
      intros th H. injection H as <-. cbn [t_pid t_cid t_pc ok adding]. split; [|tauto]. auto.
  - exists ic. unfold tstep, ends. cbn [t_pid t_cid t_pc]. cbn [ok] in O. destruct O as [U NL].
    pose proof (unlinked ic s c V U NL) as V'.
    refine (frame ic _ t None _ _ _ V' _ _ _ _ _); cbn [thr ntid used lst];
      [apply NA; intros []|discriminate|exact Lt|lia|].
    intros u d [I|I]; [injection I as <- <-; auto|apply (v_res _ _ V u d I)].
Qed.

Lemma fresh_none : forall ic s th, Inv ic s -> thr s (ntid s) = Some th -> False.
Proof. intros ic s th V H. apply (v_tid _ _ V) in H. lia. Qed.

Lemma del_first_spec : forall l p c r i, del_first l p c = (r, Some i) ->
  In (p, c, i) l /\ (forall x, In x r -> In x l) /\ (forall x, In x l -> x = (p, c, i) \/ In x r) /\
  (NoDup (map (fun x => snd (fst x)) l) -> NoDup (map (fun x => snd (fst x)) r) /\ nolst r c).
Proof.
  induction l as [|[[q d] j] l IH]; intros p c r i H; cbn [del_first] in H; [discriminate|].
  destruct (N.eqb q p && N.eqb d c) eqn:E.
  - apply andb_true_iff in E. destruct E as [E1 E2]. apply N.eqb_eq in E1. apply N.eqb_eq in E2. subst q d.
    injection H as <- <-. split; [left; reflexivity|]. split; [intros x I; right; exact I|]. split.
    + intros x [<-|I]; auto.
    + cbn [map fst snd]. intro ND. apply NoDup_cons_iff in ND. destruct ND as [NI ND]. split; [exact ND|].
      intros q j' I. apply NI. apply in_map_iff. exists (q, c, j'). auto.
  - destruct (del_first l p c) as [r' o] eqn:D. injection H as <- ->. destruct (IH p c r' i D) as (A & B & C & F).
    split; [right; exact A|]. split; [intros x [<-|I]; [left; reflexivity|right; apply B; exact I]|]. split.
    + intros x [<-|I]; [right; left; reflexivity|]. destruct (C x I); [left|right; right]; assumption.
    + cbn [map fst snd]. intro ND. apply NoDup_cons_iff in ND. destruct ND as [NI ND]. destruct (F ND) as [F1 F2]. split.
      * constructor; [|exact F1]. intro I. apply NI. apply in_map_iff in I. destruct I as (x & X & I).
        apply in_map_iff. exists x. split; [exact X|apply B; exact I].
      * intros q' j' [I|I]; [|exact (F2 q' j' I)]. injection I as -> -> ->. apply NI. apply in_map_iff. exists (p, c, i). auto.
Qed.

Lemma del2_in : forall l p c q d, In (q, d) (del2 l p c) <-> In (q, d) l /\ ~ (q = p /\ d = c).
Proof.
  intros l p c q d. unfold del2. rewrite filter_In. cbn [fst snd]. rewrite negb_true_iff, andb_false_iff, !N.eqb_neq.
  split; intros [I H]; split; auto; try tauto. destruct (N.eq_dec q p); destruct (N.eq_dec d c); tauto.
Qed.

Lemma step_disconnect : forall ic s p c s', Inv ic s -> step s (EDisconnect p c) = Some s' -> Inv ic s'.
Proof.
  intros ic s p c s' V H. cbn [step] in H. destruct (has2 (live s) p c); [|discriminate].
  destruct (del_first (lst s) p c) as [r [i|]] eqn:D; [|discriminate]. injection H as <-.
  destruct (del_first_spec _ _ _ _ _ D) as (I0 & B & C & ND). destruct (ND (v_uniq _ _ V)) as [ND' NL].
  destruct (v_lst _ _ V p c i I0) as (Fi & Li & Uc). pose proof (ic_fin _ _ _ _ V Fi) as Ic.
  assert (close (lk s) i p = upd (lk s) i None) as -> by (unfold close; rewrite Li, N.eqb_refl; reflexivity).
  assert (forall q d j, In (q, d, j) r -> d <> c /\ j <> i) as Oth.
  { intros q d j I. assert (d <> c) as E by (intros ->; exact (NL q j I)). split; [exact E|]. intros ->.
    apply B in I. apply (v_lst _ _ V) in I. destruct I as [I _]. apply (ic_fin _ _ _ _ V) in I. congruence. }
  constructor; cbn [fnew ffin lk nino lst ncid thr ntid live used res]; try apply V.
  - intros q d j I. destruct (Oth q d j I) as [_ E]. rewrite upd_other by exact E. apply (v_lst _ _ V). apply B. exact I.
  - exact ND'.
  - intros q d I. apply del2_in in I. destruct I as [I Ne]. destruct (v_live _ _ V q d I) as (j & J). exists j.
    destruct (C _ J) as [K|K]; [|exact K]. injection K as -> -> ->. exfalso. apply Ne. auto.
  - intros j q H. destruct (N.eq_dec j i) as [->|E]; [rewrite upd_same in H; discriminate|].
    rewrite upd_other in H by exact E. destruct (v_lock _ _ V j q H) as [Bj [K|(u & K)]]; split; auto.
    + left. destruct (C _ K) as [K'|K']; [|exact K']. injection K' as _ _ K'. contradiction.
    + right. exists u. cbn [thr]. rewrite upd_other; [exact K|]. intros ->.
      destruct K as [K|K]; exact (fresh_none _ _ _ V K).
  - intros u th H. destruct (N.eq_dec u (ntid s)) as [->|E]; [lia|]. rewrite upd_other in H by exact E.
    apply (v_tid _ _ V) in H. lia.
  - intros u q d k H. destruct (N.eq_dec u (ntid s)) as [->|E].
    + rewrite upd_same in H. injection H as <- <- <-. cbn [ok used lst]. auto.
    + rewrite upd_other in H by exact E. pose proof (v_thr _ _ V _ _ _ _ H) as Q.
      destruct k as [|j|j|j| | | | |j|j b|]; cbn [ok used ncid fnew lk lst ffin nino] in *; try exact Q.
      * rewrite upd_other; [exact Q|]. destruct Q as (_ & _ & Q). intros ->. congruence.
      * rewrite upd_other; [exact Q|]. destruct Q as ((Q & _) & F & _). intros ->. apply (ic_new _ _ _ _ V) in F. congruence.
      * rewrite upd_other; [exact Q|]. destruct Q as ((Q & _) & F & _). intros ->. apply (ic_fin _ _ _ _ V) in F. congruence.
      * destruct Q as [Q1 Q2]. split; [exact Q1|]. intros a b I. exact (Q2 a b (B _ I)).
      * destruct Q as [Q1 Q2]. split; [exact Q1|]. intros a I. exact (Q2 a (B _ I)).
      * destruct Q as (Q1 & Q2 & Q3 & Q4). split; [exact Q1|]. split; [intros a I; exact (Q2 a (B _ I))|].
        split; [exact Q3|]. intros a b I. exact (Q4 a b (B _ I)).
      * destruct Q as (Q1 & Q2 & Q3 & Q4). split; [exact Q1|]. split; [intros a I; exact (Q2 a (B _ I))|].
        split; [exact Q3|]. intros Z a e I. exact (Q4 Z a e (B _ I)).
      * destruct Q as [Q1 Q2]. split; [exact Q1|]. intros a b I. exact (Q2 a b (B _ I)).
  - intros u u' q q' d k k' H H' K K'.
    destruct (N.eq_dec u (ntid s)) as [->|E]; [rewrite upd_same in H; injection H as <- <- <-; destruct K|].
    destruct (N.eq_dec u' (ntid s)) as [->|E']; [rewrite upd_same in H'; injection H' as <- <- <-; destruct K'|].
    rewrite upd_other in H by exact E. rewrite upd_other in H' by exact E'. apply (v_add _ _ V u u' q q' d k k'); auto.
  - intros u d I. destruct (v_res _ _ V u d I) as [A1' A2']. split; [exact A1'|]. intros a b J. exact (A2' a b (B _ J)).
Qed.

Lemma step_connect : forall ic s p, Inv ic s -> Inv ic (spawn s p (ncid s) (ncid s + 1) A0).
Proof.
  intros ic s p V. unfold spawn. constructor; cbn [fnew ffin lk nino lst ncid thr ntid live used res]; try apply V.
  - intros c I. apply (v_used _ _ V) in I. lia.
  - intros j q H. destruct (v_lock _ _ V j q H) as [Bj [K|(u & K)]]; split; auto.
    right. exists u. cbn [thr]. rewrite upd_other; [exact K|]. intros ->. destruct K as [K|K]; exact (fresh_none _ _ _ V K).
  - intros u th H. destruct (N.eq_dec u (ntid s)) as [->|E]; [lia|]. rewrite upd_other in H by exact E.
    apply (v_tid _ _ V) in H. lia.
  - intros u q d k H. destruct (N.eq_dec u (ntid s)) as [->|E].
    + rewrite upd_same in H. injection H as <- <- <-. cbn [ok used ncid]. split; [|lia]. intro I. apply (v_used _ _ V) in I. lia.
    + rewrite upd_other in H by exact E. pose proof (v_thr _ _ V _ _ _ _ H) as Q.
      destruct k as [|j|j|j| | | | |j|j b|]; cbn [ok used ncid fnew lk lst ffin nino] in *; try exact Q.
      * split; [tauto|lia].
      * split; [split; [tauto|lia]|tauto].
      * split; [split; [tauto|lia]|tauto].
      * split; [split; [tauto|lia]|tauto].
  - assert (forall u q k, thr s u = Some (Th q (ncid s) k) -> adding k -> False) as Fr.
    { intros u q k H K. apply (v_thr _ _ V) in H. destruct k; try destruct K; cbn [ok] in H; lia. }
    intros u u' q q' d k k' H H' K K'. destruct (N.eq_dec u (ntid s)) as [->|E]; destruct (N.eq_dec u' (ntid s)) as [->|E']; auto.
    + exfalso. rewrite upd_same in H. rewrite upd_other in H' by exact E'. injection H as <- <- <-. exact (Fr _ _ _ H' K').
    + exfalso. rewrite upd_same in H'. rewrite upd_other in H by exact E. injection H' as <- <- <-. exact (Fr _ _ _ H K).
    + rewrite upd_other in H by exact E. rewrite upd_other in H' by exact E'. apply (v_add _ _ V u u' q q' d k k'); auto.
Qed.

Lemma filter_map_nodup : forall (f : N * N * N -> bool) l, NoDup (map (fun x => snd (fst x)) l) -> NoDup (map (fun x => snd (fst x)) (filter f l)).
Proof.
  intros f l. induction l as [|a l IH]; intro H; cbn [filter map] in *; [constructor|].
  apply NoDup_cons_iff in H. destruct H as [NI H]. destruct (f a); [|auto]. cbn [map]. constructor; [|auto].
  intro I. apply NI. apply in_map_iff in I. destruct I as (x & X & I). apply filter_In in I. apply in_map_iff. exists x. tauto.
Qed.

Lemma step_kill : forall ic s p s', Inv ic s -> step s (EKill p) = Some s' -> Inv ic s'.
Proof.
  intros ic s p s' V H. cbn [step] in H. injection H as <-.
  set (l' := filter _ (lst s)).
  assert (forall q d j, In (q, d, j) l' <-> In (q, d, j) (lst s) /\ q <> p) as Fl.
  { intros q d j. unfold l'. rewrite filter_In. cbn [fst]. rewrite negb_true_iff, N.eqb_neq. tauto. }
  set (lk' := fun i => match lk s i with Some q => if N.eqb q p then None else Some q | None => None end).
  assert (forall i q, lk' i = Some q <-> lk s i = Some q /\ q <> p) as Fk.
  { intros i q. unfold lk'. destruct (lk s i) as [a|]; [|split; [discriminate|intros [X _]; discriminate]].
    destruct (N.eqb a p) eqn:E; [apply N.eqb_eq in E|apply N.eqb_neq in E]; split; intro X.
    - discriminate.
    - destruct X as [X Y]. injection X as ->. contradiction.
    - injection X as ->. auto.
    - destruct X as [X _]. exact X. }
  assert (forall i, lk s i = None -> lk' i = None) as Fn by (intros i X; unfold lk'; rewrite X; reflexivity).
  set (thr' := fun t => match thr s t with Some th => if N.eqb (t_pid th) p then None else Some th | None => None end).
  assert (forall t th, thr' t = Some th <-> thr s t = Some th /\ t_pid th <> p) as Ft.
  { intros t th. unfold thr'. destruct (thr s t) as [a|]; [|split; [discriminate|intros [X _]; discriminate]].
    destruct (N.eqb (t_pid a) p) eqn:E; [apply N.eqb_eq in E|apply N.eqb_neq in E]; split; intro X.
    - discriminate.
    - destruct X as [X Y]. injection X as ->. contradiction.
    - injection X as ->. auto.
    - destruct X as [X _]. exact X. }
  assert (NoDup (map (fun x => snd (fst x)) l')) as ND by (apply filter_map_nodup; apply V).
  clearbody l' lk' thr'.
  constructor; cbn [fnew ffin lk nino lst ncid thr ntid live used res]; try apply V.
  - intros q d j I. apply Fl in I. destruct I as [I Ne]. destruct (v_lst _ _ V q d j I) as (A & B & C). rewrite Fk. auto.
  - exact ND.
  - intros q d I. apply filter_In in I. cbn [fst] in I. destruct I as [I Ne]. apply negb_true_iff, N.eqb_neq in Ne.
    destruct (v_live _ _ V q d I) as (j & J). exists j. apply Fl. auto.
  - intros j q H. apply Fk in H. destruct H as [H Ne]. destruct (v_lock _ _ V j q H) as [Bj [K|(u & K)]]; split; auto.
    + left. apply Fl. auto.
    + right. exists u. cbn [thr]. rewrite !Ft. cbn [t_pid]. tauto.
  - intros u th H. apply Ft in H. apply (v_tid _ _ V u th). tauto.
  - intros u q d k H. apply Ft in H. cbn [t_pid] in H. destruct H as [H Ne]. pose proof (v_thr _ _ V _ _ _ _ H) as Q.
    assert (forall c, nolst (lst s) c -> nolst l' c) as M2 by (intros c M a b I; apply Fl in I; exact (M a b (proj1 I))).
    assert (forall a c, nomine (lst s) a c -> nomine l' a c) as M1 by (intros a c M b I; apply Fl in I; exact (M b (proj1 I))).
    destruct k as [|j|j|j| | | | |j|j b|]; cbn [ok used ncid fnew lk lst ffin nino] in *; rewrite ?Fk; try tauto.
    + destruct Q as (Q1 & Q2 & Q3). auto.
    + destruct Q as [Q1 Q2]. auto.
    + destruct Q as [Q1 Q2]. auto.
    + destruct Q as (Q1 & Q2 & Q3 & Q4). split; [auto|]. split; [auto|]. split; [auto|]. intros a c I. apply Fl in I. apply (Q4 a c). tauto.
    + destruct Q as (Q1 & Q2 & Q3 & Q4). split; [auto|]. split; [auto|]. split; [exact Q3|]. intro B. apply (M2 d (Q4 B)).
    + destruct Q as [Q1 Q2]. auto.
  - intros u u' q q' d k k' H H' K K'. apply Ft in H. apply Ft in H'. apply (v_add _ _ V u u' q q' d k k'); tauto.
  - intros u d I. destruct (v_res _ _ V u d I) as [A B]. split; [exact A|]. intros a b J. apply Fl in J. exact (B a b (proj1 J)).
Qed.

Lemma step_inv : forall ic s e s', Inv ic s -> (forall p c, e <> EList p c) -> step s e = Some s' -> exists ic', Inv ic' s'.
Proof.
  intros ic s e s' V NL H. destruct e as [p|t|p c|p c|p c|t|p|].
  - cbn [step] in H. injection H as <-. exists ic. apply step_connect. exact V.
  - cbn [step] in H. destruct (thr s t) as [th|] eqn:T; [|discriminate]. injection H as <-. apply (step_thread ic s t th V T).
  - exists ic. apply (step_disconnect ic s p c s' V H).
  - cbn [step] in H. destruct (existsb (N.eqb c) (used s)) eqn:U; [|discriminate]. injection H as <-. exists ic.
    apply existsb_exists in U. destruct U as (x & I & E). apply N.eqb_eq in E. subst x.
    unfold spawn. apply (frame ic s); [exact V| | |lia|lia|].
    + intros th X. exfalso. exact (fresh_none _ _ _ V X).
    + intros th X. injection X as <-. cbn. auto.
    + apply V.
  - exfalso. exact (NL p c eq_refl).
  - cbn [step] in H. destruct (thr s t) as [[p c k]|] eqn:T; [|discriminate]. destruct k; try discriminate. injection H as <-.
    exists ic. pose proof (v_tid _ _ V _ _ T) as Lt.
    assert (Inv ic (St (fnew s) (ffin s) (lk s) (nino s) (lst s) (ncid s) (thr s) (ntid s) (del2 (live s) p c) (used s) (res s) (dres s))) as V'.
    { destruct V. constructor; cbn [fnew ffin lk nino lst ncid thr ntid live used res] in *; auto.
      intros q d I. apply del2_in in I. apply v_live0. tauto. }
    refine (frame ic _ t None _ _ _ V' _ _ _ _ _); cbn [thr ntid used lst]; [| |exact Lt|lia|].
    + intros th X. rewrite T in X. injection X as <-. intros [].
    + discriminate.
    + apply V.
  - exists ic. apply (step_kill ic s p s' V H).
  - cbn [step] in H. injection H as <-. exists ic. constructor; cbn [fnew ffin lk nino lst ncid thr ntid live used res]; try apply V; try discriminate; try (intros; contradiction).
    constructor.
Qed.

Lemma init_inv : Inv (fun _ => 0) init.
Proof. constructor; cbn; try discriminate; try (intros; contradiction). constructor. Qed.

Lemma run_inv : forall l ic s s', Inv ic s -> no_listing l -> run s l = Some s' -> exists ic', Inv ic' s'.
Proof.
  induction l as [|e l IH]; intros ic s s' V NL H; cbn [run] in H.
  - injection H as <-. exists ic. exact V.
  - destruct (step s e) as [s1|] eqn:E; [|discriminate].
    destruct (step_inv ic s e s1 V) as (ic1 & V1); [|exact E|].
    + intros p c ->. apply (NL p c). left. reflexivity.
    + apply (IH ic1 s1 s' V1); [|exact H]. intros p c I. apply (NL p c). right. exact I.
Qed.

Lemma reach_inv : forall s, reach s -> exists ic, Inv ic s.
Proof. intros s (l & R & NL). apply (run_inv l _ _ _ init_inv NL R). Qed.

(** Without failures the lists hold only connections *)
Definition tight (s : state) : Prop := forall p c i, In (p, c, i) (lst s) -> In (p, c) (live s).

Lemma step_tight : forall ic s e s', Inv ic s -> tight s -> (forall t, e <> EFail t) -> step s e = Some s' -> tight s'.
Proof.
  intros ic s e s' V Ti NF H. destruct e as [p|t|p c|p c|p c|t|p|]; cbn [step] in H.
  - injection H as <-. exact Ti.
  - destruct (thr s t) as [[q d k]|]; [|discriminate]. injection H as <-. unfold tstep. cbn [t_pid t_cid t_pc].
    destruct k as [|i|i|i| | | | |i|i b|]; repeat match goal with |- tight (match ?x with _ => _ end) => destruct x end; try exact Ti.
    intros a x j [I|I]; cbn [live In]; [left; congruence|right; apply (Ti a x j I)].
  - destruct (has2 (live s) p c); [|discriminate]. destruct (del_first (lst s) p c) as [r [i|]] eqn:D; [|discriminate].
    injection H as <-. destruct (del_first_spec _ _ _ _ _ D) as (_ & B & _ & ND). destruct (ND (v_uniq _ _ V)) as [_ NL].
    intros a x j I. cbn [live lst] in *. apply del2_in. split; [apply (Ti a x j (B _ I))|]. intros [-> ->]. exact (NL p j I).
  - destruct (existsb (N.eqb c) (used s)); [|discriminate]. injection H as <-. exact Ti.
  - destruct (ffin s c); [|discriminate]. injection H as <-. exact Ti.
  - exfalso. exact (NF t eq_refl).
  - injection H as <-. intros a x j I. cbn [live lst] in *. apply filter_In in I. cbn [fst] in I. apply filter_In. cbn [fst].
    split; [apply (Ti a x j)|]; tauto.
  - injection H as <-. intros a x j [].
Qed.

Lemma run_tight : forall l ic s s', Inv ic s -> tight s -> no_listing l -> no_failure l -> run s l = Some s' ->
  (exists ic', Inv ic' s') /\ tight s'.
Proof.
  induction l as [|e l IH]; intros ic s s' V Ti NL NF H; cbn [run] in H.
  - injection H as <-. split; [exists ic; exact V|exact Ti].
  - destruct (step s e) as [s1|] eqn:E; [|discriminate].
    destruct (step_inv ic s e s1 V) as (ic1 & V1); [|exact E|].
    + intros p c ->. apply (NL p c). left. reflexivity.
    + apply (IH ic1 s1 s' V1); [| | |exact H].
      * apply (step_tight ic s e s1 V Ti); [|exact E]. intros t ->. apply (NF t). left. reflexivity.
      * intros p c I. apply (NL p c). right. exact I.
      * intros t I. apply (NF t). right. exact I.
Qed.

Lemma reach_tight : forall s, reach_ok s -> (exists ic, Inv ic s) /\ tight s.
Proof. intros s (l & R & NL & NF). apply (run_tight l _ init s init_inv); auto. intros p c i []. Qed.

(** After a connection is gone, checks started later do not find it alive *)
Definition later (n c : N) (s : state) : Prop :=
  n <= ntid s /\ In c (used s) /\ nolst (lst s) c /\
  (forall t p i, thr s t = Some (Th p c (C3 i true)) -> t < n) /\
  (forall t, In (t, c, true) (res s) -> t < n).

Lemma later_thr : forall n c s t x r d fn ff l i0 nc,
  later n c s -> (forall th, x = Some th -> t_cid th = c -> forall i, t_pc th <> C3 i true) ->
  (forall u, In (u, c, true) r -> u < n) ->
  later n c (St fn ff l i0 (lst s) nc (upd (thr s) t x) (ntid s) (live s) (used s) r d).
Proof.
  intros n c s t x r d fn ff l i0 nc (L1 & L2 & L3 & L4 & L5) X R. split; [exact L1|]. split; [exact L2|]. split; [exact L3|]. split; [|exact R].
  cbn [thr]. intros u p i H. destruct (N.eq_dec u t) as [->|E].
  - rewrite upd_same in H. exfalso. apply (X _ H eq_refl i). reflexivity.
  - rewrite upd_other in H by exact E. apply (L4 u p i H).
Qed.

Lemma step_later : forall ic n c s e s', Inv ic s -> later n c s -> (forall p d, e <> EList p d) -> e <> EReboot ->
  step s e = Some s' -> later n c s'.
Proof.
  intros ic n c s e s' V L NL NR H. pose proof L as (L1 & L2 & L3 & L4 & L5). destruct e as [p|t|p d|p d|p d|t|p|]; cbn [step] in H.
  - injection H as <-. unfold spawn. split; [cbn; lia|]. split; [exact L2|]. split; [exact L3|]. split; [|exact L5].
    cbn [thr]. intros u q i X. destruct (N.eq_dec u (ntid s)) as [->|E]; [rewrite upd_same in X; discriminate|].
    rewrite upd_other in X by exact E. apply (L4 u q i X).
  - destruct (thr s t) as [[q d k]|] eqn:T; [|discriminate]. injection H as <-. pose proof (v_thr _ _ V _ _ _ _ T) as O.
    unfold tstep, goto, ends. cbn [t_pid t_cid t_pc].
    destruct k as [|i|i|i| | | | |i|i b|]; cbn [ok] in O.
    + destruct (fnew s d); apply later_thr; auto; intros th X; injection X as <-; discriminate.
    + destruct (lk s i) as [a|]; [destruct (N.eqb a q)|]; apply later_thr; auto; try discriminate; intros th X; injection X as <-; discriminate.
    + destruct (fnew s d); apply later_thr; auto; try discriminate; intros th X; injection X as <-; discriminate.
    + assert (d <> c) as Ne by (intros ->; tauto). split; [exact L1|]. split; [right; exact L2|]. split.
      { intros a j [I|I]; [congruence|exact (L3 a j I)]. }
      split; [|exact L5]. cbn [thr]. intros u a j X. destruct (N.eq_dec u t) as [->|E]; [rewrite upd_same in X; discriminate|].
      rewrite upd_other in X by exact E. apply (L4 u a j X).
    + apply later_thr; auto; discriminate.
    + apply later_thr; auto; discriminate.
    + destruct (has (lst s) q d) eqn:Hs.
      * apply later_thr; auto; [discriminate|]. intros u [I|I]; [|apply L5; exact I]. injection I as <- ->.
        apply has_true in Hs. destruct Hs as (j & J). exfalso. exact (L3 q j J).
      * apply later_thr; auto. intros th X. injection X as <-. discriminate.
    + destruct (ffin s d); apply later_thr; auto; try discriminate.
      * intros th X. injection X as <-. discriminate.
      * intros u [I|I]; [discriminate|apply L5; exact I].
    + apply later_thr; auto. intros th X. injection X as <-. cbn [t_cid t_pc]. intros -> j X. injection X as -> X.
      destruct (lk s j) as [a|] eqn:E; [|discriminate]. destruct O as (_ & _ & (Ic & _) & _).
      destruct (v_lock _ _ V j a E) as [_ [K|K]]; rewrite Ic in K; [exact (L3 a j K)|].
      exact (holds_adding _ _ _ _ _ V K L2).
    + destruct b; apply later_thr; auto; try discriminate.
      * intros u [I|I]; [|apply L5; exact I]. injection I as <- ->. apply (L4 t q i T).
      * intros th X. injection X as <-. discriminate.
    + apply later_thr; auto; try discriminate. intros u [I|I]; [discriminate|apply L5; exact I].
  - destruct (has2 (live s) p d); [|discriminate]. destruct (del_first (lst s) p d) as [r [i|]] eqn:D; [|discriminate].
    injection H as <-. destruct (del_first_spec _ _ _ _ _ D) as (_ & B & _ & _).
    split; [cbn; lia|]. split; [exact L2|]. split; [intros a j I; exact (L3 a j (B _ I))|]. split; [|exact L5].
    cbn [thr]. intros u q j X. destruct (N.eq_dec u (ntid s)) as [->|E]; [rewrite upd_same in X; discriminate|].
    rewrite upd_other in X by exact E. apply (L4 u q j X).
  - destruct (existsb (N.eqb d) (used s)); [|discriminate]. injection H as <-. unfold spawn.
    split; [cbn; lia|]. split; [exact L2|]. split; [exact L3|]. split; [|exact L5].
    cbn [thr]. intros u q i X. destruct (N.eq_dec u (ntid s)) as [->|E]; [rewrite upd_same in X; discriminate|].
    rewrite upd_other in X by exact E. apply (L4 u q i X).
  - exfalso. exact (NL p d eq_refl).
  - destruct (thr s t) as [[p d k]|]; [|discriminate]. destruct k; try discriminate. injection H as <-.
    split; [exact L1|]. split; [exact L2|]. split; [exact L3|]. split; [|exact L5]. cbn [thr]. unfold ends.
    intros u q i X. destruct (N.eq_dec u t) as [->|E]; [rewrite upd_same in X; discriminate|].
    rewrite upd_other in X by exact E. apply (L4 u q i X).
  - injection H as <-. split; [exact L1|]. split; [exact L2|]. split.
    { intros a j I. cbn [lst] in I. apply filter_In in I. exact (L3 a j (proj1 I)). }
    split; [|exact L5]. cbn [thr]. intros u q i X. destruct (thr s u) as [th|] eqn:T; [|discriminate].
    destruct (N.eqb (t_pid th) p); [discriminate|]. injection X as ->. apply (L4 u q i T).
  - exfalso. exact (NR eq_refl).
Qed.

Lemma run_later : forall l ic n c s s', Inv ic s -> later n c s -> no_listing l -> no_restart l -> run s l = Some s' -> later n c s'.
Proof.
  induction l as [|e l IH]; intros ic n c s s' V L NL NR H; cbn [run] in H.
  - injection H as <-. exact L.
  - destruct (step s e) as [s1|] eqn:E; [|discriminate].
    assert (forall p d, e <> EList p d) as N1 by (intros p d ->; apply (NL p d); left; reflexivity).
    assert (e <> EReboot) as N2 by (intros ->; apply NR; left; reflexivity).
    destruct (step_inv ic s e s1 V N1 E) as (ic1 & V1).
    apply (IH ic1 n c s1 s' V1); [apply (step_later ic n c s e s1); auto| | |exact H].
    + intros p d I. apply (NL p d). right. exact I.
    + intro I. apply NR. right. exact I.
Qed.
