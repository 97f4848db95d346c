(** * Proofs: calls with the conventional datastores *)

From Coq Require Import List Arith Bool Lia.
Import ListNotations.
From Verif Require Import Candidate CandidateSpec.

(** ** Small facts *)

Lemma ds_eqb_eq a b : ds_eqb a b = true <-> a = b.
Proof. destruct a, b; cbn; split; congruence. Qed.

Lemma ds_eqb_refl a : ds_eqb a a = true.
Proof. now destruct a. Qed.

Lemma mem_in m ms : mem m ms = true <-> In m ms.
Proof.
  unfold mem. rewrite existsb_exists. split.
  - intros (z & I & E). apply Nat.eqb_eq in E. now subst.
  - intros I. exists m. split; [exact I | apply Nat.eqb_refl].
Qed.

Lemma upd_same {A} (f : nat -> A) m v : upd f m v m = v.
Proof. unfold upd. now rewrite Nat.eqb_refl. Qed.

Lemma upd_other {A} (f : nat -> A) m v m' : m' <> m -> upd f m v m' = f m'.
Proof. intros D. unfold upd. apply Nat.eqb_neq in D. now rewrite D. Qed.

Lemma set_same f t x : set_th f t x t = x.
Proof. unfold set_th. now rewrite Nat.eqb_refl. Qed.

Lemma set_other f t x t' : t' <> t -> set_th f t x t' = f t'.
Proof. intros D. unfold set_th. apply Nat.eqb_neq in D. now rewrite D. Qed.

Definition creq (r : nat -> option datum) : nat -> option ds := fun m => option_map d_req (r m).

(** ** The discipline of a call *)

(** actions after the first write *)
Definition quiet1 (a : act) : Prop :=
  match a with
  | ATear _ _ | AStore _ _ | AReset _ | AUnlock _ | AEnd => True
  | _ => False
  end.

Definition quiet (p : list act) : Prop := forall a, In a p -> quiet1 a.

(** [H]: the locks held; [C], [S]: the datastores asked for of the data loaded and
    taken; [N]: there are new data *)
Fixpoint typed (H : ds -> nat -> mode -> Prop) (C Sr : nat -> option ds) (N : nat -> Prop) (p : list act) : Prop :=
  match p with
  | [] => forall d m md, ~ H d m md
  | a :: p =>
      match a with
      | ALock d ms md => (forall m, In m ms -> (forall md', ~ H d m md') /\ C m <> Some d /\ Sr m <> Some d) /\
          typed (fun d' m' md' => (d' = d /\ In m' ms /\ md' = md) \/ H d' m' md') C Sr N p
      | AUpgrade d ms => (forall m, In m ms -> H d m Up) /\
          typed (fun d' m' md' => (d' = d /\ In m' ms /\ md' = Wr) \/ (~ (d' = d /\ In m' ms) /\ H d' m' md')) C Sr N p
      | AUnlock d => typed (fun d' m' md' => d' <> d /\ H d' m' md') C Sr N p
      | AEnd => p = []
      | ALoad d m => (exists md, H d m md) /\ typed H (fun m' => if m' =? m then Some d else C m') Sr N p
      | AEdit _ ms => (forall m, In m ms -> C m <> None) /\ (forall m, Sr m = None) /\
          typed H C Sr (fun m => In m ms \/ N m) p
      | ATake ms => (forall m, C m <> None <-> In m ms) /\
          typed H (fun _ => None) C (fun m => In m ms \/ N m) p
      | APoint => typed H C Sr N p
      | ATear d m => H d m Wr /\ quiet p /\ (exists q, p = AStore d m :: q) /\ typed H C Sr N p
      | AStore d m => H d m Wr /\ N m /\ quiet p /\ ~ In (ATear d m) p /\ ~ In (AStore d m) p /\ typed H C Sr N p
      | AReset m => H Candidate m Wr /\ quiet p /\ (forall m', ~ In (AStore Candidate m') p) /\ typed H C Sr N p
      | AOwn ms => (forall m, In m ms -> H Candidate m Wr) /\ typed H C Sr N p
      | ADisown ms => (forall m, In m ms -> H Candidate m Wr) /\ typed H C Sr N p
      | ADrop _ => typed H C Sr N p
      end
  end.

Lemma typed_ext p : forall H H' C C' Sr Sr' (N N' : nat -> Prop),
  (forall d m md, H d m md <-> H' d m md) -> (forall m, C m = C' m) -> (forall m, Sr m = Sr' m) ->
  (forall m, N m <-> N' m) -> typed H C Sr N p -> typed H' C' Sr' N' p.
Proof.
  induction p as [|a p IH]; intros H H' C C' Sr Sr' N N' EH EC ES EN T.
  - intros d m md X. apply (T d m md). now apply EH.
  - destruct a; cbn [typed] in *.
    + destruct T as [T1 T2]. split.
      * intros m I. destruct (T1 m I) as (A1 & A2 & A3). rewrite <- EC, <- ES. split; [|now split].
        intros md' X. apply (A1 md'). now apply EH.
      * refine (IH _ _ _ _ _ _ _ _ _ EC ES EN T2). intros d' m' md'. rewrite EH. tauto.
    + destruct T as [T1 T2]. split.
      * intros m I. now apply EH, T1.
      * refine (IH _ _ _ _ _ _ _ _ _ EC ES EN T2). intros d' m' md'. rewrite EH. tauto.
    + refine (IH _ _ _ _ _ _ _ _ _ EC ES EN T). intros d' m' md'. rewrite EH. tauto.
    + exact T.
    + destruct T as [(md & T1) T2]. split; [exists md; now apply EH|].
      refine (IH _ _ _ _ _ _ _ _ EH _ ES EN T2). intros m'. now rewrite EC.
    + destruct T as (T1 & T2 & T3). split; [intros m' I; rewrite <- EC; now apply T1|].
      split; [intros m'; rewrite <- ES; apply T2|].
      refine (IH _ _ _ _ _ _ _ _ EH EC ES _ T3). intros m'. rewrite EN. tauto.
    + destruct T as (T1 & T2). split; [intros m'; rewrite <- EC; apply T1|].
      refine (IH _ _ _ _ _ _ _ _ EH _ EC _ T2); [reflexivity|]. intros m'. rewrite EN. tauto.
    + exact (IH _ _ _ _ _ _ _ _ EH EC ES EN T).
    + destruct T as (T1 & T2 & T3 & T4). split; [now apply EH|]. split; [exact T2|]. split; [exact T3|].
      exact (IH _ _ _ _ _ _ _ _ EH EC ES EN T4).
    + destruct T as (T1 & T2 & T3 & T4 & T5 & T6). split; [now apply EH|]. split; [now apply EN|].
      repeat (split; [assumption|]). exact (IH _ _ _ _ _ _ _ _ EH EC ES EN T6).
    + destruct T as (T1 & T2 & T3 & T4). split; [now apply EH|].
      repeat (split; [assumption|]). exact (IH _ _ _ _ _ _ _ _ EH EC ES EN T4).
    + destruct T as (T1 & T2). split; [intros m' I; now apply EH, T1|].
      exact (IH _ _ _ _ _ _ _ _ EH EC ES EN T2).
    + destruct T as (T1 & T2). split; [intros m' I; now apply EH, T1|].
      exact (IH _ _ _ _ _ _ _ _ EH EC ES EN T2).
    + exact (IH _ _ _ _ _ _ _ _ EH EC ES EN T).
Qed.

Lemma typed_loads d ms p : forall (H : ds -> nat -> mode -> Prop) (C Sr : nat -> option ds) (N : nat -> Prop),
  (forall m, In m ms -> exists md, H d m md) ->
  typed H (fun m => if mem m ms then Some d else C m) Sr N p -> typed H C Sr N (loads d ms ++ p).
Proof.
  induction ms as [|m ms IH]; intros H C Sr N Hl T.
  - refine (typed_ext p _ _ _ _ _ _ _ _ _ _ _ _ T); try reflexivity.
  - cbn [loads map List.app]. cbn [typed]. split; [apply Hl; now left|].
    apply IH; [intros m' I; apply Hl; now right|].
    refine (typed_ext p _ _ _ _ _ _ _ _ _ _ _ _ T); try reflexivity; try tauto.
    intros m'. unfold mem. cbn [existsb].
    destruct (Nat.eqb_spec m' m) as [-> | D]; cbn [orb]; [|reflexivity].
    now destruct (existsb (Nat.eqb m) ms).
Qed.

Lemma quiet_stores d ms p : quiet p -> quiet (stores d ms ++ p).
Proof.
  intros Q a I. apply in_app_or in I. destruct I as [I | I]; [|now apply Q].
  apply in_flat_map in I. destruct I as (m & _ & [<- | [<- | []]]); exact Logic.I.
Qed.

Lemma quiet_resets ms p : quiet p -> quiet (resets ms ++ p).
Proof.
  intros Q a I. apply in_app_or in I. destruct I as [I | I]; [|now apply Q].
  apply in_map_iff in I. destruct I as (m & <- & _). exact Logic.I.
Qed.

Lemma quiet_end : quiet [AEnd].
Proof. intros a [<- | []]. exact Logic.I. Qed.

Lemma in_stores_tear d ms d' m : In (ATear d' m) (stores d ms) -> d' = d /\ In m ms.
Proof.
  intros I. apply in_flat_map in I. destruct I as (z & J & [E | [E | []]]); [|discriminate].
  injection E as -> ->. now split.
Qed.

Lemma in_stores_store d ms d' m : In (AStore d' m) (stores d ms) <-> d' = d /\ In m ms.
Proof.
  split.
  - intros I. apply in_flat_map in I. destruct I as (z & J & [E | [E | []]]); [discriminate|].
    injection E as -> ->. now split.
  - intros [-> I]. apply in_flat_map. exists m. split; [exact I|]. right. now left.
Qed.

Lemma typed_stores d ms p : forall (H : ds -> nat -> mode -> Prop) (C Sr : nat -> option ds) (N : nat -> Prop),
  NoDup ms -> (forall m, In m ms -> H d m Wr) -> (forall m, In m ms -> N m) -> quiet p ->
  (forall m, ~ In (ATear d m) p) -> (forall m, ~ In (AStore d m) p) ->
  typed H C Sr N p -> typed H C Sr N (stores d ms ++ p).
Proof.
  induction ms as [|m ms IH]; intros H C Sr N Nd Hl Hn Q Q1 Q2 T; [exact T|].
  inversion Nd as [|? ? N1 N2]; subst.
  assert (T' : typed H C Sr N (stores d ms ++ p)).
  { apply IH; auto; intros m' I; [apply Hl | apply Hn]; now right. }
  cbn [stores flat_map]. fold (stores d ms). cbn [List.app typed].
  split; [apply Hl; now left|].
  split; [intros a [<- | I]; [exact Logic.I | now apply (quiet_stores d ms p Q)]|].
  split; [now eexists|]. split; [apply Hl; now left|]. split; [apply Hn; now left|].
  split; [now apply quiet_stores|]. split; [|split; [|exact T']].
  - intros I. apply in_app_or in I. destruct I as [I | I]; [|exact (Q1 _ I)].
    apply in_stores_tear in I. now apply N1.
  - intros I. apply in_app_or in I. destruct I as [I | I]; [|exact (Q2 _ I)].
    apply in_stores_store in I. now apply N1.
Qed.

Lemma typed_resets ms p : forall (H : ds -> nat -> mode -> Prop) (C Sr : nat -> option ds) (N : nat -> Prop),
  (forall m, In m ms -> H Candidate m Wr) -> quiet p -> (forall m, ~ In (AStore Candidate m) p) ->
  typed H C Sr N p -> typed H C Sr N (resets ms ++ p).
Proof.
  induction ms as [|m ms IH]; intros H C Sr N Hl Q Q2 T; [exact T|].
  cbn [resets map List.app typed]. fold (resets ms). split; [apply Hl; now left|].
  split; [now apply quiet_resets|]. split.
  - intros m' I. apply in_app_or in I. destruct I as [I | I]; [|exact (Q2 _ I)].
    apply in_map_iff in I. destruct I as (z & E & _). discriminate.
  - apply IH; auto. intros m' I. apply Hl. now right.
Qed.

Definition none3 : ds -> nat -> mode -> Prop := fun _ _ _ => False.

Lemma mem_app_ne (m : nat) ms (d : ds) : In m ms -> (if mem m ms then Some d else None) <> None.
Proof. intros I. apply mem_in in I. rewrite I. discriminate. Qed.

Lemma mem_take m ms (d : ds) : (if mem m ms then Some d else None) <> None <-> In m ms.
Proof. rewrite <- mem_in. destruct (mem m ms); split; congruence. Qed.

Lemma program_typed c : proper c ->
  typed none3 (fun _ => None) (fun _ => None) (fun _ => False) (program c).
Proof.
  destruct c as [d ms|d ms f|ms|s d ms|ms|ms|ms|m|ms f]; intros P; cbn [program proper] in *.
  - cbn [typed]. split; [intros m I; unfold none3; repeat split; congruence|].
    apply typed_loads; [intros m I; exists Rd; now left|]. reflexivity.
  - cbn [typed]. split; [intros m I; unfold none3; repeat split; congruence|].
    apply typed_loads; [intros m I; exists Up; now left|]. cbn [typed].
    split; [intros m I; now apply mem_app_ne|]. split; [reflexivity|].
    unfold finish. cbn [List.app typed]. split; [intros m I; now left|].
    apply typed_stores; auto using quiet_end.
    + intros m [E | []]; discriminate.
    + intros m [E | []]; discriminate.
    + reflexivity.
  - cbn [typed]. split; [intros m I; unfold none3; repeat split; congruence|].
    apply typed_loads; [intros m I; exists Wr; now left|]. cbn [typed].
    split; [intros m; apply mem_take|]. unfold replace. cbn [List.app typed]. split.
    { intros m I. split; [intros md [(E & _) | []]; discriminate|]. split; [discriminate|].
      destruct (mem m ms); discriminate. }
    rewrite <- app_assoc. apply typed_loads; [intros m I; exists Up; now left|].
    unfold finish. cbn [List.app typed]. split; [intros m I; now left|].
    assert (Qr : quiet (AUnlock Running :: resets ms ++ [AEnd])).
    { intros a [<- | I]; [exact Logic.I|]. exact (quiet_resets ms _ quiet_end a I). }
    assert (Nr : forall a, In a (AUnlock Running :: resets ms ++ [AEnd]) ->
      (forall d m, a <> ATear d m) /\ (forall d m, a <> AStore d m)).
    { intros a [<- | I]; [split; discriminate|]. apply in_app_or in I. destruct I as [I | [<- | []]]; [|split; discriminate].
      apply in_map_iff in I. destruct I as (z & <- & _). split; discriminate. }
    apply typed_stores; auto.
    + intros m I. exact (proj1 (Nr _ I) Running m eq_refl).
    + intros m I. exact (proj2 (Nr _ I) Running m eq_refl).
    + cbn [typed]. apply typed_resets; [|exact quiet_end|intros m [E | []]; discriminate|reflexivity].
      intros m I. split; [discriminate|]. right. split; [intros (E & _); discriminate|].
      right. now left.
  - destruct P as (Nd & D & _). cbn [typed]. split; [intros m I; unfold none3; repeat split; congruence|].
    apply typed_loads; [intros m I; exists Rd; now left|]. cbn [typed].
    split; [intros m; apply mem_take|]. unfold replace. cbn [List.app typed]. split.
    { intros m I. split; [intros md (_ & [(E & _) | []]); now apply D|]. split; [discriminate|].
      destruct (mem m ms); [|discriminate]. intros E. injection E as E. now apply D. }
    rewrite <- app_assoc. apply typed_loads; [intros m I; exists Up; now left|].
    unfold finish. cbn [List.app typed]. split; [intros m I; now left|].
    apply typed_stores; auto using quiet_end.
    + intros m [E | []]; discriminate.
    + intros m [E | []]; discriminate.
    + reflexivity.
  - cbn [typed]. split; [intros m I; unfold none3; repeat split; congruence|].
    split; [intros m I; split; [intros md [(E & _) | []]; discriminate | split; discriminate]|].
    apply typed_resets; [|exact quiet_end|intros m [E | []]; discriminate|reflexivity].
    intros m I. right. now left.
  - cbn [typed]. split; [intros m I; unfold none3; repeat split; congruence|].
    split; [intros m I; now left | reflexivity].
  - cbn [typed]. split; [intros m I; unfold none3; repeat split; congruence|].
    split; [intros m I; now left|].
    apply typed_resets; [|exact quiet_end|intros m [E | []]; discriminate|reflexivity].
    intros m I. now left.
  - cbn [typed]. split; [intros m' I; unfold none3; repeat split; congruence|].
    split; [left; repeat split; now left|].
    split; [exact quiet_end|]. split; [intros m' [E | []]; discriminate | reflexivity].
  - destruct P.
Qed.

(** ** The invariant *)

(** the registers after the actions [pre] *)
Definition sact (r : (nat -> option ds) * (nat -> option ds)) (a : act) : (nat -> option ds) * (nat -> option ds) :=
  match a with
  | ALoad d m => (fun m' => if m' =? m then Some d else fst r m', snd r)
  | ATake _ => (fun _ => None, fst r)
  | _ => r
  end.

Definition seval (pre : list act) := fold_left sact pre (fun _ => None, fun _ => None).

(** the locks held after them *)
Definition hact (h : ds -> nat -> mode -> Prop) (a : act) : ds -> nat -> mode -> Prop :=
  match a with
  | ALock d ms md => fun d' m' md' => (d' = d /\ In m' ms /\ md' = md) \/ h d' m' md'
  | AUpgrade d ms => fun d' m' md' => (d' = d /\ In m' ms /\ md' = Wr) \/ (~ (d' = d /\ In m' ms) /\ h d' m' md')
  | AUnlock d => fun d' m' md' => d' <> d /\ h d' m' md'
  | AEnd => fun _ _ _ => False
  | _ => h
  end.

Definition heval (pre : list act) : ds -> nat -> mode -> Prop := fold_left hact pre none3.

Definition at_pos (t : nat) (l : list lock) (x : th) (pre : list act) : Prop :=
  (forall d m md, In (Lk t d m md) l <-> heval pre d m md) /\
  (forall d m, In (AStore d m) pre -> In (d, m) (t_done x)) /\
  (forall m, In (AReset m) pre -> In m (t_gone x)) /\
  (forall m, creq (t_cur x) m = fst (seval pre) m) /\
  (forall m, creq (t_src x) m = snd (seval pre) m).

Definition is_release (c : call) : Prop := match c with Release _ => True | _ => False end.

Definition pos (t : nat) (l : list lock) (x : th) : Prop := forall c, t_failed x = false -> t_call x = Some c -> ~ is_release c ->
  exists pre, program c = pre ++ t_todo x /\ at_pos t l x pre.

Record tinv (s : store) (l : list lock) (t : nat) (x : th) : Prop := {
  v_typed : typed (fun d m md => In (Lk t d m md) l) (creq (t_cur x)) (creq (t_src x))
              (fun m => t_new x m <> None) (t_todo x);
  v_cur : forall m c md, t_cur x m = Some c -> In (Lk t (d_req c) m md) l ->
            ~ In (d_req c, m) (t_dirty x) -> agrees s m c;
  v_src : forall m c md, t_src x m = Some c -> In (Lk t (d_req c) m md) l ->
            ~ In (d_req c, m) (t_dirty x) -> agrees s m c;
  v_taken : forall m c, t_src x m = Some c -> t_new x m = Some (d_val c);
  v_done : forall d m, In (d, m) (t_done x) -> d <> Candidate -> In (Lk t d m Wr) l -> content s d m = t_new x m;
  v_gone : forall m, In m (t_gone x) -> In (Lk t Candidate m Wr) l -> st_cand s m = None;
  v_nodone : forall d m, In (AStore d m) (t_todo x) -> ~ In (d, m) (t_done x);
  v_write : t_dirty x <> [] -> t_failed x = false /\ quiet (t_todo x);
  v_sub : (forall d m, In (d, m) (t_done x) -> In (d, m) (t_dirty x)) /\
          (forall m, In m (t_gone x) -> In (Candidate, m) (t_dirty x));
  v_gone2 : t_gone x <> [] -> forall m, ~ In (AStore Candidate m) (t_todo x);
  v_fail : t_failed x = true -> t_todo x = [AEnd] \/ t_todo x = [];
  v_pos : pos t l x
}.

Definition compat_ok (l : list lock) : Prop := forall e1 e2, In e1 l -> In e2 l ->
  l_ds e1 = l_ds e2 -> l_m e1 = l_m e2 -> e1 = e2 \/ (l_t e1 <> l_t e2 /\ compat (l_mode e1) (l_mode e2) = true).

Definition torn_ok (y : sys) : Prop := forall m, st_run (y_st y) m = None ->
  exists t q, t_todo (y_th y t) = AStore Running m :: q /\ In (Running, m) (t_dirty (y_th y t)).

Definition owner_ok (y : sys) : Prop := forall m o t md, st_owner (y_st y) m = Some o ->
  In (Lk t Candidate m md) (y_lk y) -> md <> Rd -> t = o.

Record inv (y : sys) : Prop := {
  i_compat : compat_ok (y_lk y);
  i_torn : torn_ok y;
  i_owner : owner_ok y;
  i_th : forall t, tinv (y_st y) (y_lk y) t (y_th y t)
}.

(** ** Locks *)

Lemma compat_wr a : compat Wr a = false.
Proof. now destruct a. Qed.

Lemma compat_wr_r a : compat a Wr = false.
Proof. now destruct a. Qed.

(** nobody else has a lock beside a writer *)
Lemma wr_alone l t t2 d m md : compat_ok l -> In (Lk t d m Wr) l -> In (Lk t2 d m md) l -> t2 = t.
Proof.
  intros Ok A B. destruct (Ok _ _ A B eq_refl eq_refl) as [E | [_ E]].
  - now injection E as <-.
  - rewrite compat_wr in E. discriminate.
Qed.

(** a thread has one mode *)
Lemma one_mode l t d m a b : compat_ok l -> In (Lk t d m a) l -> In (Lk t d m b) l -> a = b.
Proof.
  intros Ok A B. destruct (Ok _ _ A B eq_refl eq_refl) as [E | [E _]].
  - now injection E.
  - now elim E.
Qed.

Lemma in_lock t d ms md l t' d' m' md' :
  In (Lk t' d' m' md') (map (fun m => Lk t d m md) ms ++ l) <->
  (t' = t /\ d' = d /\ In m' ms /\ md' = md) \/ In (Lk t' d' m' md') l.
Proof.
  rewrite in_app_iff, in_map_iff. split.
  - intros [(z & E & I) | I]; [|now right]. injection E as <- <- <- <-. now left.
  - intros [(-> & -> & I & ->) | I]; [|now right]. left. now exists m'.
Qed.

Lemma compat_lock l t d ms md : compat_ok l -> (forall m, In m ms -> forall md', ~ In (Lk t d m md') l) ->
  forallb (can_lock l t d md) ms = true -> compat_ok (map (fun m => Lk t d m md) ms ++ l).
Proof.
  intros Ok Fr Cl e1 e2 I1 I2 Ed Em.
  assert (New : forall m e, In m ms -> In e l -> l_ds e = d -> l_m e = m ->
    l_t e <> t /\ compat (l_mode e) md = true).
  { intros m e I J E1 E2. rewrite forallb_forall in Cl. specialize (Cl m I). unfold can_lock in Cl.
    rewrite forallb_forall in Cl. specialize (Cl e J). rewrite E1, E2, ds_eqb_refl, Nat.eqb_refl in Cl.
    cbn in Cl. split; [|exact Cl]. intros E3. apply (Fr m I (l_mode e)).
    destruct e as [a b c g]. cbn in *. now subst. }
  apply in_app_or in I1. apply in_app_or in I2. rewrite in_map_iff in I1, I2.
  destruct I1 as [(m1 & <- & J1) | J1], I2 as [(m2 & <- & J2) | J2]; cbn [l_ds l_m l_t l_mode] in *.
  - subst m2. now left.
  - right. destruct (New m1 e2 J1 J2 (eq_sym Ed) (eq_sym Em)) as [A B]. split; [congruence|].
    destruct (l_mode e2), md; cbn in *; congruence.
  - right. destruct (New m2 e1 J2 J1 Ed Em) as [A B]. split; [exact A | exact B].
  - now apply Ok.
Qed.

Definition upg (t : nat) (d : ds) (ms : list nat) (e : lock) : lock :=
  if (l_t e =? t) && ds_eqb (l_ds e) d && mem (l_m e) ms then Lk t d (l_m e) Wr else e.

Lemma upg_cases t d ms e : 
  (l_t e = t /\ l_ds e = d /\ In (l_m e) ms /\ upg t d ms e = Lk t d (l_m e) Wr) \/
  (~ (l_t e = t /\ l_ds e = d /\ In (l_m e) ms) /\ upg t d ms e = e).
Proof.
  unfold upg. destruct (Nat.eqb_spec (l_t e) t) as [A | A]; cbn [andb]; [|right; split; [tauto | reflexivity]].
  destruct (ds_eqb (l_ds e) d) eqn:B; cbn [andb].
  - apply ds_eqb_eq in B. destruct (mem (l_m e) ms) eqn:M.
    + left. apply mem_in in M. auto.
    + right. split; [|reflexivity]. intros (_ & _ & I). apply mem_in in I. congruence.
  - right. split; [|reflexivity]. intros (_ & E & _). apply ds_eqb_eq in E. congruence.
Qed.

Lemma upg_key t d ms e : l_ds (upg t d ms e) = l_ds e /\ l_m (upg t d ms e) = l_m e /\ l_t (upg t d ms e) = l_t e.
Proof. destruct (upg_cases t d ms e) as [(A & B & C & ->) | [_ ->]]; cbn; auto. Qed.

Lemma compat_upg l t d ms : compat_ok l -> forallb (can_upgrade l t d) ms = true ->
  compat_ok (map (upg t d ms) l).
Proof.
  intros Ok Cu e1 e2 I1 I2 Ed Em. apply in_map_iff in I1. apply in_map_iff in I2.
  destruct I1 as (f1 & <- & J1), I2 as (f2 & <- & J2).
  destruct (upg_key t d ms f1) as (K1 & K2 & K3), (upg_key t d ms f2) as (L1 & L2 & L3).
  rewrite K1, L1 in Ed. rewrite K2, L2 in Em. rewrite K3, L3.
  assert (Alone : forall f g, In f l -> In g l -> l_ds f = l_ds g -> l_m f = l_m g ->
    l_t f = t -> l_ds f = d -> In (l_m f) ms -> f = g).
  { intros f g F G' E1 E2 A B C. rewrite forallb_forall in Cu. specialize (Cu _ C). unfold can_upgrade in Cu.
    rewrite forallb_forall in Cu. specialize (Cu g G'). rewrite <- E1, <- E2, B, ds_eqb_refl, Nat.eqb_refl in Cu.
    cbn in Cu. apply Nat.eqb_eq in Cu. destruct (Ok f g F G' E1 E2) as [E | [E _]]; [exact E|].
    exfalso. apply E. congruence. }
  destruct (upg_cases t d ms f1) as [(A & B & C & E1) | [N1 E1]].
  - left. now rewrite (Alone f1 f2 J1 J2 Ed Em A B C).
  - destruct (upg_cases t d ms f2) as [(A & B & C & E2) | [N2 E2]].
    + left. now rewrite (Alone f2 f1 J2 J1 (eq_sym Ed) (eq_sym Em) A B C).
    + rewrite E1, E2. now apply Ok.
Qed.

Lemma in_upg l t d ms t' d' m' md' : (forall m, In m ms -> In (Lk t d m Up) l) ->
  In (Lk t' d' m' md') (map (upg t d ms) l) <->
  (t' = t /\ d' = d /\ In m' ms /\ md' = Wr) \/
  (~ (t' = t /\ d' = d /\ In m' ms) /\ In (Lk t' d' m' md') l).
Proof.
  intros Hu. rewrite in_map_iff. split.
  - intros (e & E & I). destruct (upg_cases t d ms e) as [(A & B & C & Q) | [N Q]]; rewrite Q in E.
    + injection E as <- <- <- <-. left. auto.
    + subst e. right. split; [exact N | exact I].
  - intros [(-> & -> & I & ->) | [N I]].
    + exists (Lk t d m' Up). split; [|now apply Hu].
      destruct (upg_cases t d ms (Lk t d m' Up)) as [(A & B & C & Q) | [N _]]; [exact Q|].
      exfalso. apply N. auto.
    + exists (Lk t' d' m' md'). split; [|exact I].
      destruct (upg_cases t d ms (Lk t' d' m' md')) as [(A & B & C & Q) | [_ Q]]; [|exact Q].
      exfalso. apply N. auto.
Qed.

Lemma compat_filter f l : compat_ok l -> compat_ok (filter f l).
Proof. intros Ok e1 e2 I1 I2. apply filter_In in I1, I2. now apply Ok. Qed.

Lemma in_unlock t d l t' d' m' md' :
  In (Lk t' d' m' md') (filter (fun e => negb ((l_t e =? t) && ds_eqb (l_ds e) d)) l) <->
  In (Lk t' d' m' md') l /\ ~ (t' = t /\ d' = d).
Proof.
  rewrite filter_In. cbn [l_t l_ds]. destruct (Nat.eqb_spec t' t) as [-> | D]; cbn [andb].
  - destruct (ds_eqb d' d) eqn:E; cbn [negb].
    + apply ds_eqb_eq in E. split; [intros [_ Q]; discriminate | intros [_ Q]; exfalso; auto].
    + split; [|tauto]. intros [I _]. split; [exact I|]. intros [_ Q]. apply ds_eqb_eq in Q. congruence.
  - cbn. split; [|tauto]. intros [I _]. split; [exact I | tauto].
Qed.

Lemma in_end t l t' d' m' md' :
  In (Lk t' d' m' md') (filter (fun e => negb (l_t e =? t)) l) <-> In (Lk t' d' m' md') l /\ t' <> t.
Proof.
  rewrite filter_In. cbn [l_t]. destruct (Nat.eqb_spec t' t) as [-> | D]; cbn [negb]; split; try tauto.
  intros [_ Q]; discriminate.
Qed.

(** ** A step of another thread *)

Lemma load_eff s d m : st_start (fst (load s d m)) = st_start s /\ st_cand (fst (load s d m)) = st_cand s /\
  st_owner (fst (load s d m)) = st_owner s /\
  (forall m', st_run (fst (load s d m)) m' = st_run s m' \/
     (st_run s m' = None /\ st_run (fst (load s d m)) m' <> None)).
Proof.
  assert (R : st_start (fst (load_run s m)) = st_start s /\ st_cand (fst (load_run s m)) = st_cand s /\
    st_owner (fst (load_run s m)) = st_owner s /\
    (forall m', st_run (fst (load_run s m)) m' = st_run s m' \/
       (st_run s m' = None /\ st_run (fst (load_run s m)) m' <> None))).
  { unfold load_run. destruct (st_run s m) as [v|] eqn:E; cbn [fst].
    - repeat (split; [reflexivity|]). intros m'. now left.
    - cbn [st_start st_cand st_owner st_run]. repeat (split; [reflexivity|]). intros m'.
      destruct (Nat.eq_dec m' m) as [-> | D].
      + right. rewrite upd_same. split; [exact E | discriminate].
      + left. now rewrite upd_other. }
  destruct d; cbn [load]; cbv zeta; cbn [fst]; try exact R.
  - repeat (split; [reflexivity|]). intros m'. now left.
  - destruct (st_cand s m); cbn [fst]; [|exact R]. repeat (split; [reflexivity|]). intros m'. now left.
Qed.

(** [same_at d m y y']: what is stored is the same, or it was being written *)
Definition same_at (s s' : store) (d : ds) (m : nat) : Prop :=
  content s' d m = content s d m \/ (d = Running /\ st_run s m = None).

Lemma step_same y t ok d m : inv y -> (forall md, md = Wr -> ~ In (Lk t d m md) (y_lk y)) ->
  same_at (y_st y) (y_st (step y t ok)) d m.
Proof.
  intros Iv NW. assert (T := v_typed _ _ _ _ (i_th _ Iv t)). unfold step. cbv zeta.
  destruct (t_todo (y_th y t)) as [|a p]; [now left|].
  destruct a; cbn [y_st] in *.
  - destruct (ds_eqb d0 Candidate && negb (is_rd md) && owned_by_other (y_st y) t ms); [now left|].
    destruct (forallb (can_lock (y_lk y) t d0 md) ms); now left.
  - destruct (forallb (can_upgrade (y_lk y) t d0) ms); now left.
  - now left.
  - now left.
  - destruct (load_eff (y_st y) d0 m0) as (E1 & E2 & E3 & E4). unfold same_at.
    destruct d; cbn [content]; [left; now rewrite E1 | | left; now rewrite E2].
    destruct (E4 m) as [E | [E _]]; [left; exact E | right; auto].
  - now left.
  - now left.
  - destruct ok; now left.
  - cbn [typed] in T. destruct T as (T1 & _). left.
    destruct d0, d; cbn [tear content st_start st_run st_cand]; try reflexivity.
    rewrite upd_other; [reflexivity|]. intros ->. exact (NW Wr eq_refl T1).
  - cbn [typed] in T. destruct T as (T1 & _). left.
    destruct (t_new (y_th y t) m0) as [v|]; [|reflexivity].
    match goal with |- context [if ?b then _ else _] => destruct b end; [reflexivity|].
    destruct d0, d; cbn [put content st_start st_run st_cand]; try reflexivity;
      (rewrite upd_other; [reflexivity|]; intros ->; exact (NW Wr eq_refl T1)).
  - cbn [typed] in T. destruct T as (T1 & _). left.
    destruct d; cbn [reset content st_start st_run st_cand]; try reflexivity.
    rewrite upd_other; [reflexivity|]. intros ->. exact (NW Wr eq_refl T1).
  - match goal with |- context [if ?b then _ else _] => destruct b end; left; now destruct d.
  - match goal with |- context [if ?b then _ else _] => destruct b end; left; now destruct d.
  - destruct (st_owner (y_st y) m0) as [o|]; [|now left].
    destruct (o =? t); left; now destruct d.
Qed.

Lemma step_thread y t ok t2 : t2 <> t -> y_th (step y t ok) t2 = y_th y t2.
Proof.
  intros D. unfold step. cbv zeta. destruct (t_todo (y_th y t)) as [|a p]; [reflexivity|].
  destruct a; cbn [y_th]; try (now rewrite set_other).
  - destruct (ds_eqb d Candidate && negb (is_rd md) && owned_by_other (y_st y) t ms); cbn [y_th]; [now rewrite set_other|].
    destruct (forallb (can_lock (y_lk y) t d md) ms); cbn [y_th]; [now rewrite set_other | reflexivity].
  - destruct (forallb (can_upgrade (y_lk y) t d) ms); cbn [y_th]; [now rewrite set_other | reflexivity].
  - destruct ok; cbn [y_th]; now rewrite set_other.
  - match goal with |- context [if ?b then _ else _] => destruct b end; cbn [y_th]; now rewrite set_other.
  - match goal with |- context [if ?b then _ else _] => destruct b end; cbn [y_th]; now rewrite set_other.
  - destruct (st_owner (y_st y) m) as [o|]; [destruct (o =? t)|]; cbn [y_th]; now rewrite set_other.
Qed.

Lemma step_locks y t ok t2 d m md : inv y -> t2 <> t ->
  In (Lk t2 d m md) (y_lk (step y t ok)) <-> In (Lk t2 d m md) (y_lk y).
Proof.
  intros Iv D. assert (T := v_typed _ _ _ _ (i_th _ Iv t)). unfold step. cbv zeta.
  destruct (t_todo (y_th y t)) as [|a p]; [reflexivity|].
  destruct a; cbn [y_lk]; try reflexivity.
  - destruct (ds_eqb d0 Candidate && negb (is_rd md0) && owned_by_other (y_st y) t ms); cbn [y_lk]; [reflexivity|].
    destruct (forallb (can_lock (y_lk y) t d0 md0) ms); cbn [y_lk]; [|reflexivity].
    rewrite in_lock. split; [|tauto]. intros [(E & _) | I]; [now elim D | exact I].
  - destruct (forallb (can_upgrade (y_lk y) t d0) ms); cbn [y_lk]; [|reflexivity].
    cbn [typed] in T. fold (upg t d0 ms). change (fun e : lock => if (l_t e =? t) && ds_eqb (l_ds e) d0 && mem (l_m e) ms
      then Lk t d0 (l_m e) Wr else e) with (upg t d0 ms).
    rewrite in_upg by exact (proj1 T). split.
    + intros [(E & _) | [_ I]]; [now elim D | exact I].
    + intros I. right. split; [|exact I]. intros (E & _). now apply D.
  - rewrite in_unlock. split; [tauto|]. intros I. split; [exact I|]. intros (E & _). now apply D.
  - rewrite in_end. tauto.
  - destruct ok; reflexivity.
  - match goal with |- context [if ?b then _ else _] => destruct b end; reflexivity.
  - match goal with |- context [if ?b then _ else _] => destruct b end; reflexivity.
  - destruct (st_owner (y_st y) m0) as [o|]; [destruct (o =? t)|]; reflexivity.
Qed.

(** the writer of a file that is being written *)
Lemma torn_writer y m t md : inv y -> st_run (y_st y) m = None -> In (Lk t Running m md) (y_lk y) ->
  In (Running, m) (t_dirty (y_th y t)) /\ ~ In (Running, m) (t_done (y_th y t)) /\
  exists q, t_todo (y_th y t) = AStore Running m :: q.
Proof.
  intros Iv E I. destruct (i_torn _ Iv m E) as (t' & q & Q & D).
  assert (T := v_typed _ _ _ _ (i_th _ Iv t')). rewrite Q in T. cbn [typed] in T. destruct T as (T1 & _).
  assert (t = t') by (exact (wr_alone _ _ _ _ _ _ (i_compat _ Iv) T1 I)). subst t'.
  split; [exact D|]. split; [|now exists q]. apply (v_nodone _ _ _ _ (i_th _ Iv t)). rewrite Q. now left.
Qed.

Lemma agrees_same s s' m c : same_at s s' (d_req c) m -> ~ (d_req c = Running /\ st_run s m = None) ->
  agrees s m c -> agrees s' m c.
Proof.
  intros [E | E] N A; [|contradiction]. unfold agrees in *.
  destruct (d_req c); cbn [content] in *; try congruence.
  destruct (d_act c); congruence.
Qed.

Lemma step_other y t ok t2 : inv y -> t2 <> t ->
  tinv (y_st (step y t ok)) (y_lk (step y t ok)) t2 (y_th (step y t ok) t2).
Proof.
  intros Iv D. rewrite (step_thread y t ok t2 D).
  assert (Lc : forall d m md, In (Lk t2 d m md) (y_lk (step y t ok)) <-> In (Lk t2 d m md) (y_lk y))
    by (intros; now apply step_locks).
  assert (Sm : forall d m md, In (Lk t2 d m md) (y_lk y) -> same_at (y_st y) (y_st (step y t ok)) d m).
  { intros d m md I. apply step_same; [exact Iv|]. intros md' -> J.
    exact (D (wr_alone _ _ _ _ _ _ (i_compat _ Iv) J I)). }
  assert (Tw : forall m md, In (Lk t2 Running m md) (y_lk y) -> st_run (y_st y) m = None ->
    In (Running, m) (t_dirty (y_th y t2)) /\ ~ In (Running, m) (t_done (y_th y t2))).
  { intros m md I E. destruct (torn_writer y m t2 md Iv E I) as (A & B & _). now split. }
  destruct (i_th _ Iv t2) as [v1 v2 v3 v4 v5 v6 v7 v8 v9 v11 v12 v10]. constructor; auto.
  - refine (typed_ext _ _ _ _ _ _ _ _ _ _ _ _ _ v1); try reflexivity. intros d m md. symmetry. apply Lc.
  - intros m c md Q I N. apply Lc in I. apply (agrees_same (y_st y)); [exact (Sm _ _ _ I)| |exact (v2 m c md Q I N)].
    intros [E1 E2]. apply N. rewrite E1 in I |- *. exact (proj1 (Tw _ _ I E2)).
  - intros m c md Q I N. apply Lc in I. apply (agrees_same (y_st y)); [exact (Sm _ _ _ I)| |exact (v3 m c md Q I N)].
    intros [E1 E2]. apply N. rewrite E1 in I |- *. exact (proj1 (Tw _ _ I E2)).
  - intros d m Q N I. apply Lc in I. rewrite <- (v5 d m Q N I).
    destruct (Sm _ _ _ I) as [E | [E1 E2]]; [exact E|].
    exfalso. subst d. exact (proj2 (Tw _ _ I E2) Q).
  - intros m Q I. apply Lc in I. rewrite <- (v6 m Q I).
    destruct (Sm _ _ _ I) as [E | [E1 _]]; [exact E | discriminate].
  - intros c Q1 Q2 Nr. destruct (v10 c Q1 Q2 Nr) as (pre & Ep & A0 & A1). exists pre. split; [exact Ep|].
    split; [|exact A1]. intros d m md. now rewrite Lc.
Qed.

(** ** A step of the thread itself *)

Lemma step_compat y t ok : inv y -> compat_ok (y_lk (step y t ok)).
Proof.
  intros Iv. assert (T := v_typed _ _ _ _ (i_th _ Iv t)). assert (Ok := i_compat _ Iv). unfold step. cbv zeta.
  destruct (t_todo (y_th y t)) as [|a p]; [exact Ok|].
  destruct a; cbn [y_lk]; try exact Ok.
  - destruct (ds_eqb d Candidate && negb (is_rd md) && owned_by_other (y_st y) t ms); cbn [y_lk]; [exact Ok|].
    destruct (forallb (can_lock (y_lk y) t d md) ms) eqn:Cl; cbn [y_lk]; [|exact Ok].
    apply compat_lock; auto. cbn [typed] in T. intros m I. exact (proj1 (proj1 T m I)).
  - destruct (forallb (can_upgrade (y_lk y) t d) ms) eqn:Cu; cbn [y_lk]; [|exact Ok].
    exact (compat_upg _ _ _ _ Ok Cu).
  - now apply compat_filter.
  - now apply compat_filter.
  - destruct ok; exact Ok.
  - match goal with |- context [if ?b then _ else _] => destruct b end; exact Ok.
  - match goal with |- context [if ?b then _ else _] => destruct b end; exact Ok.
  - destruct (st_owner (y_st y) m) as [o|]; [destruct (o =? t)|]; exact Ok.
Qed.

Lemma step_owner y t ok : inv y -> owner_ok (step y t ok).
Proof.
  intros Iv. assert (T := v_typed _ _ _ _ (i_th _ Iv t)). assert (Ow := i_owner _ Iv). unfold step. cbv zeta.
  destruct (t_todo (y_th y t)) as [|a p]; [exact Ow|].
  destruct a; try exact Ow; unfold owner_ok; cbn [y_lk y_st].
  - destruct (ds_eqb d Candidate && negb (is_rd md) && owned_by_other (y_st y) t ms) eqn:Q; cbn [y_lk y_st]; [exact Ow|].
    destruct (forallb (can_lock (y_lk y) t d md) ms) eqn:Cl; cbn [y_lk y_st]; [|exact Ow].
    intros m o t' md' Eo I Nr. apply in_lock in I. destruct I as [(-> & <- & I & ->) | I]; [|exact (Ow _ _ _ _ Eo I Nr)].
    cbn in Q. destruct md; [now elim Nr | |]; cbn in Q; unfold owned_by_other in Q;
      (destruct (Nat.eq_dec o t) as [-> | D]; [reflexivity|]; exfalso;
       rewrite <- not_true_iff_false in Q; apply Q; apply existsb_exists; exists m; split; [exact I|];
       rewrite Eo; now apply negb_true_iff, Nat.eqb_neq).
  - destruct (forallb (can_upgrade (y_lk y) t d) ms) eqn:Cu; cbn [y_lk y_st]; [|exact Ow].
    change (fun e : lock => if (l_t e =? t) && ds_eqb (l_ds e) d && mem (l_m e) ms
      then Lk t d (l_m e) Wr else e) with (upg t d ms). cbn [typed] in T.
    intros m o t' md' Eo I Nr. apply in_upg in I; [|exact (proj1 T)].
    destruct I as [(-> & <- & I & ->) | [_ I]]; [|exact (Ow _ _ _ _ Eo I Nr)].
    apply (Ow m o t Up Eo); [now apply (proj1 T) | discriminate].
  - intros m o t' md' Eo I Nr. apply in_unlock in I. exact (Ow _ _ _ _ Eo (proj1 I) Nr).
  - intros m o t' md' Eo I Nr. apply in_end in I. exact (Ow _ _ _ _ Eo (proj1 I) Nr).
  - destruct (load_eff (y_st y) d m) as (_ & _ & E & _). now rewrite E.
  - destruct ok; exact Ow.
  - now destruct d.
  - destruct (t_new (y_th y t) m); [|exact Ow].
    match goal with |- context [if ?b then _ else _] => destruct b end; [exact Ow|]. now destruct d.
  - match goal with |- context [if ?b then _ else _] => destruct b end; [exact Ow|]. cbn [y_st y_lk set_owner st_owner].
    intros m o t' md' Eo I Nr. destruct (mem m ms) eqn:M; [|exact (Ow _ _ _ _ Eo I Nr)].
    injection Eo as <-. apply mem_in in M. cbn [typed] in T.
    exact (wr_alone _ _ _ _ _ _ (i_compat _ Iv) (proj1 T m M) I).
  - match goal with |- context [if ?b then _ else _] => destruct b end; [exact Ow|]. cbn [y_st y_lk set_owner st_owner].
    intros m o t' md' Eo I Nr. destruct (mem m ms) eqn:M; [discriminate|]. exact (Ow _ _ _ _ Eo I Nr).
  - destruct (st_owner (y_st y) m) as [o0|]; [|exact Ow]. destruct (o0 =? t); [|exact Ow].
    cbn [y_st y_lk set_owner st_owner]. intros m' o t' md' Eo I Nr.
    destruct (mem m' [m]) eqn:M; [discriminate|]. exact (Ow _ _ _ _ Eo I Nr).
Qed.

Lemma step_torn y t ok : inv y -> torn_ok (step y t ok).
Proof.
  intros Iv. assert (T := v_typed _ _ _ _ (i_th _ Iv t)). assert (To := i_torn _ Iv).
  assert (Keep : forall m, st_run (y_st y) m = None ->
    (forall q, t_todo (y_th y t) <> AStore Running m :: q) ->
    exists t' q, t_todo (y_th (step y t ok) t') = AStore Running m :: q /\
                 In (Running, m) (t_dirty (y_th (step y t ok) t'))).
  { intros m E Nt. destruct (To m E) as (t' & q & Q & D). exists t', q.
    rewrite step_thread; [now split|]. intros ->. exact (Nt q Q). }
  intros m' E. 
  assert (Alt : st_run (y_st y) m' = None \/ (exists p, t_todo (y_th y t) = ATear Running m' :: p)).
  { revert E. unfold step. cbv zeta. destruct (t_todo (y_th y t)) as [|a p]; [now left|].
    destruct a; cbn [y_st]; try now left.
    - destruct (ds_eqb d Candidate && negb (is_rd md) && owned_by_other (y_st y) t ms); [now left|].
      destruct (forallb (can_lock (y_lk y) t d md) ms); now left.
    - destruct (forallb (can_upgrade (y_lk y) t d) ms); now left.
    - destruct (load_eff (y_st y) d m) as (_ & _ & _ & R). intros E. left.
      destruct (R m') as [Q | [Q _]]; congruence.
    - destruct ok; now left.
    - destruct d; cbn [tear st_run]; try now left. intros E.
      destruct (Nat.eq_dec m' m) as [-> | Dm]; [right; now exists p | rewrite upd_other in E by exact Dm; now left].
    - destruct (t_new (y_th y t) m); [|now left].
      match goal with |- context [if ?b then _ else _] => destruct b end; [now left|].
      destruct d; cbn [put st_run]; try now left. intros E. left.
      destruct (Nat.eq_dec m' m) as [-> | Dm]; [rewrite upd_same in E; discriminate | now rewrite upd_other in E by exact Dm].
    - match goal with |- context [if ?b then _ else _] => destruct b end; now left.
    - match goal with |- context [if ?b then _ else _] => destruct b end; now left.
    - destruct (st_owner (y_st y) m) as [o|]; [destruct (o =? t)|]; now left. }
  destruct Alt as [Old | (p & P)].
  - apply Keep; [exact Old|]. intros q Q. revert E. unfold step. cbv zeta. rewrite Q. cbn [y_st].
    rewrite Q in T. cbn [typed] in T. destruct T as (_ & T2 & _).
    destruct (t_new (y_th y t) m') as [v|] eqn:Nv; [|now elim T2]. cbn [ds_eqb andb put st_run].
    rewrite upd_same. discriminate.
  - rewrite P in T. cbn [typed] in T. destruct T as (_ & _ & (q & Q) & _). exists t, q.
    unfold step. cbv zeta. rewrite P. cbn [y_th]. rewrite set_same. cbn [t_todo t_dirty].
    split; [exact Q | now left].
Qed.

(** a call that wrote nothing so far *)
Lemma tinv_nw s l t x : t_dirty x = [] -> t_done x = [] -> t_gone x = [] ->
  typed (fun d m md => In (Lk t d m md) l) (creq (t_cur x)) (creq (t_src x))
              (fun m => t_new x m <> None) (t_todo x) ->
  (forall m c md, t_cur x m = Some c -> In (Lk t (d_req c) m md) l -> agrees s m c) ->
  (forall m c md, t_src x m = Some c -> In (Lk t (d_req c) m md) l -> agrees s m c) ->
  (forall m c, t_src x m = Some c -> t_new x m = Some (d_val c)) ->
  (t_failed x = true -> t_todo x = [AEnd] \/ t_todo x = []) -> pos t l x -> tinv s l t x.
Proof.
  intros E1 E2 E3 T A B C Fl P. constructor; [exact T | | | exact C | | | | | | | exact Fl | exact P].
  - intros m c md Q I _. exact (A m c md Q I).
  - intros m c md Q I _. exact (B m c md Q I).
  - rewrite E2. intros d m [].
  - rewrite E3. intros m [].
  - rewrite E2. intros d m _ [].
  - rewrite E1. intros Q. now elim Q.
  - rewrite E2, E3. split; [intros d m [] | intros m []].
  - rewrite E3. intros Q. now elim Q.
Qed.

Lemma nw s l t x a p : tinv s l t x -> t_todo x = a :: p -> ~ quiet1 a ->
  t_dirty x = [] /\ t_done x = [] /\ t_gone x = [].
Proof.
  intros V E Nq. assert (D : t_dirty x = []).
  { destruct (t_dirty x) as [|z r] eqn:Q; [reflexivity|]. exfalso. apply Nq.
    refine (proj2 (v_write _ _ _ _ V _) a _); [rewrite Q; discriminate | rewrite E; now left]. }
  split; [exact D|]. destruct (v_sub _ _ _ _ V) as [A B]. rewrite D in A, B. split.
  - destruct (t_done x) as [|[d m] r]; [reflexivity|]. elim (A d m). now left.
  - destruct (t_gone x) as [|m r]; [reflexivity|]. elim (B m). now left.
Qed.

Lemma live s l t x a p : tinv s l t x -> t_todo x = a :: p -> a <> AEnd -> t_failed x = false.
Proof.
  intros V E N. destruct (t_failed x) eqn:F; [|reflexivity].
  destruct (v_fail _ _ _ _ V F) as [Q | Q]; rewrite E in Q; [injection Q as Q1 Q2; contradiction | discriminate].
Qed.

(** one action further *)
Lemma pos_next t l l' x x' a p : pos t l x -> t_todo x = a :: p -> t_todo x' = p -> t_call x' = t_call x ->
  t_failed x' = t_failed x ->
  (forall d m, In (d, m) (t_done x) \/ a = AStore d m -> In (d, m) (t_done x')) ->
  (forall m, In m (t_gone x) \/ a = AReset m -> In m (t_gone x')) ->
  (forall r, (forall m, creq (t_cur x) m = fst r m) -> (forall m, creq (t_src x) m = snd r m) ->
     (forall m, creq (t_cur x') m = fst (sact r a) m) /\ (forall m, creq (t_src x') m = snd (sact r a) m)) ->
  (forall h : ds -> nat -> mode -> Prop, (forall d m md, In (Lk t d m md) l <-> h d m md) ->
     forall d m md, In (Lk t d m md) l' <-> hact h a d m md) ->
  pos t l' x'.
Proof.
  intros P E E' Ec Ef Hd Hg Hr Hh c Q1 Q2 Nr. rewrite Ef in Q1. rewrite Ec in Q2.
  destruct (P c Q1 Q2 Nr) as (pre & Ep & A0 & A1 & A2 & A3 & A4).
  exists (pre ++ [a]). rewrite E' , <- app_assoc. cbn [app]. rewrite E in Ep. split; [exact Ep|].
  assert (Se : seval (pre ++ [a]) = sact (seval pre) a) by (unfold seval; now rewrite fold_left_app).
  destruct (Hr (seval pre) A3 A4) as [B1 B2]. unfold at_pos. rewrite Se.
  split; [unfold heval; rewrite fold_left_app; cbn [fold_left]; exact (Hh _ A0)|].
  repeat split; [| |exact B1|exact B2].
  - intros d m I. apply in_app_or in I. apply Hd. destruct I as [I | [I | []]]; [left; auto | right; auto].
  - intros m I. apply in_app_or in I. apply Hg. destruct I as [I | [I | []]]; [left; auto | right; auto].
Qed.

Ltac posn P E := refine (pos_next _ _ _ _ _ _ _ P E _ _ _ _ _ _ _);
  [reflexivity | reflexivity | reflexivity | intros d' m' [I' | I']; [exact I' | discriminate]
  | intros m' [I' | I']; [exact I' | discriminate] | intros r' R1 R2; cbn [sact]; auto | intros h' Hh' d' m' md'; cbn [hact]; try apply Hh'].

Lemma drop_release c m : In (ADrop m) (program c) -> is_release c.
Proof.
  intros I. destruct c; cbn in I; try exact Logic.I; exfalso; unfold replace, finish, loads, resets, stores in I;
    repeat (rewrite ?in_app_iff, ?in_map_iff, ?in_flat_map in I; cbn [In app] in I);
    repeat match goal with
    | H : _ \/ _ |- _ => destruct H
    | H : exists _, _ |- _ => destruct H
    | H : _ /\ _ |- _ => destruct H
    | H : False |- _ => destruct H
    | H : _ = ADrop _ |- _ => discriminate H
    end.
Qed.

Lemma load_agrees s d m : agrees (fst (load s d m)) m (snd (load s d m)) /\ d_req (snd (load s d m)) = d.
Proof.
  assert (R : st_run (fst (load_run s m)) m = Some (snd (load_run s m)) /\ st_cand (fst (load_run s m)) = st_cand s).
  { unfold load_run. destruct (st_run s m) eqn:E; cbn [fst snd st_run st_cand]; [auto|].
    rewrite upd_same. auto. }
  destruct R as [R1 R2]. destruct d; cbn [load]; cbv zeta; cbn [fst snd].
  - split; reflexivity.
  - split; [exact R1 | reflexivity].
  - destruct (st_cand s m) eqn:E; cbn [fst snd]; (split; [|reflexivity]); unfold agrees; cbn [d_req d_act d_val].
    + exact E.
    + rewrite R2. exact E.
Qed.

Lemma fail_own s l t x a p : tinv s l t x -> t_todo x = a :: p -> ~ quiet1 a -> tinv s l t (fail x).
Proof.
  intros V E Nq. destruct (nw _ _ _ _ _ _ V E Nq) as (D1 & D2 & D3). destruct V as [v1 v2 v3 v4 v5 v6 v7 v8 v9 v11 v12 v10].
  apply tinv_nw; cbn [fail t_dirty t_done t_gone t_cur t_src t_new t_todo]; auto.
  - cbn [typed]. reflexivity.
  - intros m c md Q I. apply (v2 m c md Q I). now rewrite D1.
  - intros m c md Q I. apply (v3 m c md Q I). now rewrite D1.
  - intros c Q. discriminate Q.
Qed.

Definition locks_of (t : nat) (l : list lock) : ds -> nat -> mode -> Prop := fun d m md => In (Lk t d m md) l.

(** an action that changes neither data nor what was read, before anything was written *)
Lemma go_own s s' l l' t x a p : tinv s l t x -> t_todo x = a :: p -> ~ quiet1 a ->
  (forall r, sact r a = r) ->
  typed (locks_of t l') (creq (t_cur x)) (creq (t_src x)) (fun m => t_new x m <> None) p ->
  (forall d m md, In (Lk t d m md) l' -> (exists md', In (Lk t d m md') l) \/ (creq (t_cur x) m <> Some d /\ creq (t_src x) m <> Some d)) ->
  (forall h : ds -> nat -> mode -> Prop, (forall d m md, In (Lk t d m md) l <-> h d m md) ->
     forall d m md, In (Lk t d m md) l' <-> hact h a d m md) ->
  (forall d m, content s' d m = content s d m) ->
  tinv s' l' t (go x p).
Proof.
  intros V E Nq Sa T Hl Hh Hc. destruct (nw _ _ _ _ _ _ V E Nq) as (D1 & D2 & D3).
  assert (Lv : t_failed x = false) by (apply (live _ _ _ _ _ _ V E); intros ->; apply Nq; exact Logic.I).
  assert (Ag : forall m c, agrees s m c -> agrees s' m c).
  { intros m c A. apply (agrees_same s s' m c); [left; apply Hc| |exact A].
    unfold agrees in A. intros [Q1 Q2]. rewrite Q1 in A. cbn in A. congruence. }
  destruct V as [v1 v2 v3 v4 v5 v6 v7 v8 v9 v11 v12 v10].
  apply tinv_nw; cbn [go t_dirty t_done t_gone t_cur t_src t_new t_todo]; auto.
  - intros m c md Q I. apply Ag. destruct (Hl _ _ _ I) as [[md' J] | [J _]].
    + apply (v2 m c md' Q J). now rewrite D1.
    + exfalso. apply J. unfold creq. now rewrite Q.
  - intros m c md Q I. apply Ag. destruct (Hl _ _ _ I) as [[md' J] | [_ J]].
    + apply (v3 m c md' Q J). now rewrite D1.
    + exfalso. apply J. unfold creq. now rewrite Q.
  - cbn [go t_failed]. congruence.
  - refine (pos_next _ _ _ _ _ _ _ v10 E _ _ _ _ _ _ _); try reflexivity; cbn [go t_done t_gone t_cur t_src].
    + intros d m [I | ->]; [exact I | elim Nq; exact Logic.I].
    + intros m [I | ->]; [exact I | elim Nq; exact Logic.I].
    + intros r R1 R2. rewrite Sa. auto.
    + exact Hh.
Qed.

Lemma quiet_tl a p : quiet (a :: p) -> quiet p.
Proof. intros Q b I. apply Q. now right. Qed.

Lemma step_own y t ok : inv y -> tinv (y_st (step y t ok)) (y_lk (step y t ok)) t (y_th (step y t ok) t).
Proof.
  intros Iv. assert (V := i_th _ Iv t). unfold step. cbv zeta.
  destruct (t_todo (y_th y t)) as [|a p] eqn:E; [exact V|].
  assert (T := v_typed _ _ _ _ V). rewrite E in T. assert (Lv := live _ _ _ _ _ _ V E).
  destruct a; cbn [typed] in T.
  - (* ALock *)
    destruct (ds_eqb d Candidate && negb (is_rd md) && owned_by_other (y_st y) t ms).
    { cbn [y_st y_lk y_th]. rewrite set_same. now apply (fail_own _ _ _ _ _ _ V E). }
    destruct (forallb (can_lock (y_lk y) t d md) ms); [|exact V].
    cbn [y_st y_lk y_th]. rewrite set_same. destruct T as [T1 T2].
    refine (go_own _ _ _ _ _ _ _ _ V E _ _ _ _ _ _); [cbn; tauto | reflexivity | | | | reflexivity].
    + refine (typed_ext _ _ _ _ _ _ _ _ _ _ _ _ _ T2); try reflexivity. intros d' m' md'. unfold locks_of.
      rewrite in_lock. tauto.
    + intros d' m' md' I. apply in_lock in I. destruct I as [(_ & -> & I & _) | I]; [right | left; now exists md'].
      exact (proj2 (T1 m' I)).
    + intros h Hh d' m' md'. cbn [hact]. rewrite in_lock, Hh. tauto.
  - (* AUpgrade *)
    destruct (forallb (can_upgrade (y_lk y) t d) ms); [|exact V].
    cbn [y_st y_lk y_th]. rewrite set_same. destruct T as [T1 T2].
    change (fun e : lock => if (l_t e =? t) && ds_eqb (l_ds e) d && mem (l_m e) ms
      then Lk t d (l_m e) Wr else e) with (upg t d ms).
    refine (go_own _ _ _ _ _ _ _ _ V E _ _ _ _ _ _); [cbn; tauto | reflexivity | | | | reflexivity].
    + refine (typed_ext _ _ _ _ _ _ _ _ _ _ _ _ _ T2); try reflexivity. intros d' m' md'. unfold locks_of.
      rewrite in_upg by exact T1. tauto.
    + intros d' m' md' I. apply in_upg in I; [|exact T1]. left.
      destruct I as [(_ & -> & I & _) | [_ I]]; [exists Up; now apply T1 | now exists md'].
    + intros h Hh d' m' md'. cbn [hact]. rewrite in_upg by exact T1. rewrite Hh. tauto.
  - (* AUnlock *)
    cbn [y_st y_lk y_th]. rewrite set_same.
    destruct V as [v1 v2 v3 v4 v5 v6 v7 v8 v9 v11 v12 v10].
    assert (Lo : forall d' m' md', In (Lk t d' m' md') (filter (fun e => negb ((l_t e =? t) && ds_eqb (l_ds e) d)) (y_lk y)) ->
      In (Lk t d' m' md') (y_lk y)) by (intros d' m' md' I; now apply in_unlock in I).
    constructor; cbn [go t_dirty t_done t_gone t_cur t_src t_new t_todo t_failed].
    + refine (typed_ext _ _ _ _ _ _ _ _ _ _ _ _ _ T); try reflexivity. intros d' m' md'.
      rewrite in_unlock. tauto.
    + intros m c md Q I. apply Lo in I. exact (v2 m c md Q I).
    + intros m c md Q I. apply Lo in I. exact (v3 m c md Q I).
    + exact v4.
    + intros d' m' Q N I. apply Lo in I. auto.
    + intros m' Q I. apply Lo in I. auto.
    + intros d' m' I. apply v7. rewrite E. now right.
    + intros Q. destruct (v8 Q) as [A B]. split; [exact A|]. rewrite E in B. exact (quiet_tl _ _ B).
    + exact v9.
    + intros Q m' I. apply (v11 Q m'). rewrite E. now right.
    + rewrite Lv by discriminate. discriminate.
    + posn v10 E. rewrite in_unlock, Hh'. tauto.
  - (* AEnd *)
    cbn [y_st y_lk y_th]. rewrite set_same. subst p.
    destruct V as [v1 v2 v3 v4 v5 v6 v7 v8 v9 v11 v12 v10].
    assert (Lo : forall d' m' md', ~ In (Lk t d' m' md') (filter (fun e => negb (l_t e =? t)) (y_lk y)))
      by (intros d' m' md' I; apply in_end in I; now apply (proj2 I)).
    constructor; cbn [go t_dirty t_done t_gone t_cur t_src t_new t_todo t_failed].
    + exact Lo.
    + intros m c md Q I. now apply Lo in I.
    + intros m c md Q I. now apply Lo in I.
    + exact v4.
    + intros d' m' Q N I. now apply Lo in I.
    + intros m' Q I. now apply Lo in I.
    + intros d' m' [].
    + intros Q. destruct (v8 Q) as [A B]. split; [exact A|]. intros b [].
    + exact v9.
    + intros Q m' [].
    + now right.
    + posn v10 E. split; [|tauto]. intros I. exact (Lo _ _ _ I).
  - (* ALoad *)
    cbn [y_st y_lk y_th]. rewrite set_same. destruct T as [(md0 & T1) T2].
    destruct (load_eff (y_st y) d m) as (L1 & L2 & L3 & L4). destruct (load_agrees (y_st y) d m) as [Ag Rq].
    destruct (nw _ _ _ _ _ _ V E) as (D1 & D2 & D3); [cbn; tauto|].
    assert (Sm : forall m' c, agrees (y_st y) m' c -> agrees (fst (load (y_st y) d m)) m' c).
    { intros m' c A. apply (agrees_same (y_st y)); [| |exact A].
      - destruct (d_req c) eqn:Rc; unfold same_at; cbn [content]; [left; now rewrite L1 | | left; now rewrite L2].
        destruct (L4 m') as [Q | [Q _]]; [now left | now right].
      - intros [Q1 Q2]. unfold agrees in A. rewrite Q1 in A. cbn in A. congruence. }
    destruct V as [v1 v2 v3 v4 v5 v6 v7 v8 v9 v11 v12 v10].
    apply tinv_nw; cbn [t_dirty t_done t_gone t_cur t_src t_new t_todo t_failed]; auto.
    + refine (typed_ext _ _ _ _ _ _ _ _ _ _ _ _ _ T2); try reflexivity. intros m'. unfold creq.
      destruct (Nat.eqb_spec m' m) as [-> | Dm]; [rewrite upd_same; cbn; now rewrite Rq | now rewrite upd_other].
    + intros m' c md Q I. destruct (Nat.eq_dec m' m) as [-> | Dm].
      * rewrite upd_same in Q. injection Q as <-. exact Ag.
      * rewrite upd_other in Q by exact Dm. apply Sm. apply (v2 m' c md Q I). now rewrite D1.
    + intros m' c md Q I. apply Sm. apply (v3 m' c md Q I). now rewrite D1.
    + rewrite Lv by discriminate. discriminate.
    + refine (pos_next _ _ _ _ _ _ _ v10 E _ _ _ _ _ _ _); try reflexivity; cbn [t_done t_gone t_cur t_src].
      * intros d' m' [I' | I']; [exact I' | discriminate].
      * intros m' [I' | I']; [exact I' | discriminate].
      * intros r R1 R2. cbn [sact fst snd]. split; [|exact R2]. intros m'. unfold creq.
        destruct (Nat.eqb_spec m' m) as [-> | Dm]; [rewrite upd_same; cbn; now rewrite Rq | rewrite upd_other by exact Dm; apply R1].
      * auto.
  - (* AEdit *)
    cbn [y_st y_lk y_th]. rewrite set_same. destruct T as (T1 & T2 & T3).
    destruct (nw _ _ _ _ _ _ V E) as (D1 & D2 & D3); [cbn; tauto|].
    destruct V as [v1 v2 v3 v4 v5 v6 v7 v8 v9 v11 v12 v10].
    apply tinv_nw; cbn [t_dirty t_done t_gone t_cur t_src t_new t_todo t_failed]; auto.
    + refine (typed_ext _ _ _ _ _ _ _ _ _ _ _ _ _ T3); try reflexivity. intros m'.
      destruct (mem m' ms) eqn:M.
      * apply mem_in in M. split; [intros _ | now left]. specialize (T1 m' M). unfold creq in T1.
        destruct (t_cur (y_th y t) m'); cbn in *; congruence.
      * split; [|now right]. intros [I | N]; [apply mem_in in I; congruence | exact N].
    + intros m' c md Q I. apply (v2 m' c md Q I). now rewrite D1.
    + intros m' c md Q I. apply (v3 m' c md Q I). now rewrite D1.
    + intros m' c Q. exfalso. specialize (T2 m'). unfold creq in T2. rewrite Q in T2. discriminate.
    + rewrite Lv by discriminate. discriminate.
    + posn v10 E.
  - (* ATake *)
    cbn [y_st y_lk y_th]. rewrite set_same. destruct T as (T1 & T2).
    destruct (nw _ _ _ _ _ _ V E) as (D1 & D2 & D3); [cbn; tauto|].
    destruct V as [v1 v2 v3 v4 v5 v6 v7 v8 v9 v11 v12 v10].
    apply tinv_nw; cbn [t_dirty t_done t_gone t_cur t_src t_new t_todo t_failed]; auto.
    + refine (typed_ext _ _ _ _ _ _ _ _ _ _ _ _ _ T2); try reflexivity. intros m'.
      destruct (mem m' ms) eqn:M.
      * apply mem_in in M. split; [intros _ | now left]. assert (Q := proj2 (T1 m') M). unfold creq in Q.
        destruct (t_cur (y_th y t) m'); cbn in *; congruence.
      * split; [|now right]. intros [I | N]; [apply mem_in in I; congruence | exact N].
    + discriminate.
    + intros m' c md Q I. apply (v2 m' c md Q I). now rewrite D1.
    + intros m' c Q. assert (M : In m' ms) by (apply T1; unfold creq; rewrite Q; discriminate).
      apply mem_in in M. now rewrite M, Q.
    + rewrite Lv by discriminate. discriminate.
    + refine (pos_next _ _ _ _ _ _ _ v10 E _ _ _ _ _ _ _); try reflexivity; cbn [t_done t_gone t_cur t_src].
      * intros d' m' [I' | I']; [exact I' | discriminate].
      * intros m' [I' | I']; [exact I' | discriminate].
      * intros r R1 R2. cbn [sact fst snd]. split; [reflexivity | exact R1].
      * auto.
  - (* APoint *)
    destruct ok; cbn [y_st y_lk y_th]; rewrite set_same.
    + refine (go_own _ _ _ _ _ _ _ _ V E _ _ _ _ _ _); [cbn; tauto | reflexivity | exact T | | auto | reflexivity].
      intros d' m' md' I. left. now exists md'.
    + apply (fail_own _ _ _ _ _ _ V E). cbn. tauto.
  - (* ATear *)
    cbn [y_st y_lk y_th]. rewrite set_same. destruct T as (T1 & T2 & (q & T3) & T4).
    destruct V as [v1 v2 v3 v4 v5 v6 v7 v8 v9 v11 v12 v10].
    assert (Sm : forall d' m', (d', m') <> (d, m) -> content (tear (y_st y) d m) d' m' = content (y_st y) d' m').
    { intros d' m' N. destruct d, d'; cbn [tear content st_start st_run st_cand]; try reflexivity.
      rewrite upd_other; [reflexivity|]. intros ->. now apply N. }
    assert (Ag : forall m' c, d_req c <> d \/ m' <> m -> agrees (y_st y) m' c -> agrees (tear (y_st y) d m) m' c).
    { intros m' c N A. apply (agrees_same (y_st y)); [left; apply Sm| |exact A].
      - intros Q. injection Q as Q1 Q2. tauto.
      - intros [Q1 Q2]. unfold agrees in A. rewrite Q1 in A. cbn in A. congruence. }
    constructor; cbn [t_dirty t_done t_gone t_cur t_src t_new t_todo t_failed].
    + exact T4.
    + intros m' c md Q I N. apply Ag.
      * destruct (Nat.eq_dec m' m) as [-> | Dm]; [left | now right]. intros <-. apply N. now left.
      * apply (v2 m' c md Q I). intros J. apply N. now right.
    + intros m' c md Q I N. apply Ag.
      * destruct (Nat.eq_dec m' m) as [-> | Dm]; [left | now right]. intros <-. apply N. now left.
      * apply (v3 m' c md Q I). intros J. apply N. now right.
    + exact v4.
    + intros d' m' Q N I. rewrite Sm; [now apply v5|]. intros X. injection X as -> ->.
      apply (v7 d m); [|exact Q]. rewrite E, T3. right. now left.
    + intros m' Q I. rewrite <- (v6 m' Q I). now destruct d.
    + intros d' m' I. apply v7. rewrite E. now right.
    + intros _. split; [apply Lv; discriminate | exact T2].
    + destruct v9 as [A B]. split; [intros d' m' I; right; now apply A | intros m' I; right; now apply B].
    + intros Q m' I. apply (v11 Q m'). rewrite E. now right.
    + rewrite Lv by discriminate. discriminate.
    + posn v10 E.
  - (* AStore *)
    cbn [y_st y_lk y_th]. rewrite set_same. destruct T as (T1 & T2 & T3 & T4 & T5 & T6).
    destruct V as [v1 v2 v3 v4 v5 v6 v7 v8 v9 v11 v12 v10].
    destruct (t_new (y_th y t) m) as [v|] eqn:Nv; [|now elim T2].
    set (s' := if ds_eqb d Candidate && match t_cur (y_th y t) m with Some c => d_val c =? v | None => false end
               then y_st y else put (y_st y) d m v).
    assert (Sm : forall d' m', (d', m') <> (d, m) -> content s' d' m' = content (y_st y) d' m').
    { intros d' m' N. unfold s'. match goal with |- context [if ?b then _ else _] => destruct b end; [reflexivity|].
      destruct d, d'; cbn [put content st_start st_run st_cand]; try reflexivity;
      (rewrite upd_other; [reflexivity|]; intros ->; now apply N). }
    assert (Ag : forall m' c, d_req c <> d \/ m' <> m -> agrees (y_st y) m' c -> agrees s' m' c).
    { intros m' c N A. apply (agrees_same (y_st y)); [left; apply Sm| |exact A].
      - intros Q. injection Q as Q1 Q2. tauto.
      - intros [Q1 Q2]. unfold agrees in A. rewrite Q1 in A. cbn in A. congruence. }
    constructor; cbn [t_dirty t_done t_gone t_cur t_src t_new t_todo t_failed].
    + exact T6.
    + intros m' c md Q I N. apply Ag.
      * destruct (Nat.eq_dec m' m) as [-> | Dm]; [left | now right]. intros <-. apply N. now left.
      * apply (v2 m' c md Q I). intros J. apply N. now right.
    + intros m' c md Q I N. apply Ag.
      * destruct (Nat.eq_dec m' m) as [-> | Dm]; [left | now right]. intros <-. apply N. now left.
      * apply (v3 m' c md Q I). intros J. apply N. now right.
    + exact v4.
    + intros d' m' Q N I. destruct Q as [Q | Q].
      * injection Q as <- <-. rewrite Nv. unfold s'. 
        destruct d; [| |now elim N]; cbn [ds_eqb andb put content st_start st_run]; now rewrite upd_same.
      * rewrite Sm; [now apply v5|]. intros X. injection X as -> ->.
        apply (v7 d m); [|exact Q]. rewrite E. now left.
    + intros m' Q I. rewrite <- (v6 m' Q I). apply (Sm Candidate m').
      intros X. injection X as <- <-. refine (v11 _ m' _); [|rewrite E; now left].
      intros Z. rewrite Z in Q. exact Q.
    + intros d' m' I. intros [Q | Q]; [injection Q as <- <-; exact (T5 I)|].
      revert Q. apply v7. rewrite E. now right.
    + intros _. split; [apply Lv; discriminate | exact T3].
    + destruct v9 as [A B]. split; [intros d' m' [Q | I]; [now left | right; now apply A] | intros m' I; right; now apply B].
    + intros Q m' I. apply (v11 Q m'). rewrite E. now right.
    + rewrite Lv by discriminate. discriminate.
    + refine (pos_next _ _ _ _ _ _ _ v10 E _ _ _ _ _ _ _); try reflexivity; cbn [t_done t_gone t_cur t_src].
      * intros d' m' [I' | I']; [now right | injection I' as <- <-; now left].
      * intros m' [I' | I']; [exact I' | discriminate].
      * intros r R1 R2. cbn [sact]. auto.
      * auto.
  - (* AReset *)
    cbn [y_st y_lk y_th]. rewrite set_same. destruct T as (T1 & T2 & T3 & T4).
    destruct V as [v1 v2 v3 v4 v5 v6 v7 v8 v9 v11 v12 v10].
    assert (Sm : forall d' m', (d', m') <> (Candidate, m) -> content (reset (y_st y) m) d' m' = content (y_st y) d' m').
    { intros d' m' N. destruct d'; cbn [reset content st_start st_run st_cand]; try reflexivity.
      rewrite upd_other; [reflexivity|]. intros ->. now apply N. }
    assert (Ag : forall m' c, d_req c <> Candidate \/ m' <> m -> agrees (y_st y) m' c -> agrees (reset (y_st y) m) m' c).
    { intros m' c N A. apply (agrees_same (y_st y)); [left; apply Sm| |exact A].
      - intros Q. injection Q as Q1 Q2. tauto.
      - intros [Q1 Q2]. unfold agrees in A. rewrite Q1 in A. cbn in A. congruence. }
    constructor; cbn [t_dirty t_done t_gone t_cur t_src t_new t_todo t_failed].
    + exact T4.
    + intros m' c md Q I N. apply Ag.
      * destruct (Nat.eq_dec m' m) as [-> | Dm]; [left | now right]. intros X. apply N. rewrite X. now left.
      * apply (v2 m' c md Q I). intros J. apply N. now right.
    + intros m' c md Q I N. apply Ag.
      * destruct (Nat.eq_dec m' m) as [-> | Dm]; [left | now right]. intros X. apply N. rewrite X. now left.
      * apply (v3 m' c md Q I). intros J. apply N. now right.
    + exact v4.
    + intros d' m' Q N I. rewrite Sm; [now apply v5|]. intros X. injection X as -> _. now apply N.
    + intros m' Q I. cbn [reset st_cand]. destruct (Nat.eq_dec m' m) as [-> | Dm]; [now rewrite upd_same|].
      rewrite upd_other by exact Dm. destruct Q as [Q | Q]; [now elim Dm | now apply v6].
    + intros d' m' I. apply v7. rewrite E. now right.
    + intros _. split; [apply Lv; discriminate | exact T2].
    + destruct v9 as [A B]. split; [intros d' m' I; right; now apply A | intros m' [<- | I]; [now left | right; now apply B]].
    + intros _ m' I. exact (T3 m' I).
    + rewrite Lv by discriminate. discriminate.
    + refine (pos_next _ _ _ _ _ _ _ v10 E _ _ _ _ _ _ _); try reflexivity; cbn [t_done t_gone t_cur t_src].
      * intros d' m' [I' | I']; [exact I' | discriminate].
      * intros m' [I' | I']; [now right | injection I' as <-; now left].
      * intros r R1 R2. cbn [sact]. auto.
      * auto.
  - (* AOwn *)
    destruct T as (T1 & T2).
    match goal with |- context [if ?b then _ else _] => destruct b end; cbn [y_st y_lk y_th]; rewrite set_same.
    + apply (fail_own _ _ _ _ _ _ V E). cbn. tauto.
    + refine (go_own _ _ _ _ _ _ _ _ V E _ _ _ _ _ _); [cbn; tauto | reflexivity | exact T2 | | auto | now destruct d].
      intros d' m' md' I. left. now exists md'.
  - (* ADisown *)
    destruct T as (T1 & T2).
    match goal with |- context [if ?b then _ else _] => destruct b end; cbn [y_st y_lk y_th]; rewrite set_same.
    + apply (fail_own _ _ _ _ _ _ V E). cbn. tauto.
    + refine (go_own _ _ _ _ _ _ _ _ V E _ _ _ _ _ _); [cbn; tauto | reflexivity | exact T2 | | auto | now destruct d].
      intros d' m' md' I. left. now exists md'.
  - (* ADrop *)
    assert (Other : tinv (y_st y) (y_lk y) t (go (y_th y t) [AEnd])).
    { destruct (nw _ _ _ _ _ _ V E) as (D1 & D2 & D3); [cbn; tauto|].
      destruct V as [v1 v2 v3 v4 v5 v6 v7 v8 v9 v11 v12 v10].
      apply tinv_nw; cbn [go t_dirty t_done t_gone t_cur t_src t_new t_todo t_failed]; auto.
      - cbn [typed]. reflexivity.
      - intros m' c md Q I. apply (v2 m' c md Q I). now rewrite D1.
      - intros m' c md Q I. apply (v3 m' c md Q I). now rewrite D1.
      - intros c Q1 Q2 Nr. exfalso. destruct (v10 c Q1 Q2 Nr) as (pre & Ep & _). apply Nr. apply (drop_release c m).
        rewrite Ep, E. apply in_or_app. right. now left. }
    destruct (st_owner (y_st y) m) as [o|]; [destruct (o =? t)|]; cbn [y_st y_lk y_th]; rewrite set_same; try exact Other.
    refine (go_own _ _ _ _ _ _ _ _ V E _ _ _ _ _ _); [cbn; tauto | reflexivity | exact T | | auto | now destruct d].
    intros d' m' md' I. left. now exists md'.
Qed.

Lemma inv_step y t ok : inv y -> inv (step y t ok).
Proof.
  intros Iv. constructor.
  - now apply step_compat.
  - now apply step_torn.
  - now apply step_owner.
  - intros t2. destruct (Nat.eq_dec t2 t) as [-> | D]; [now apply step_own | now apply step_other].
Qed.

Lemma inv_begin y t c : inv y -> t_todo (y_th y t) = [] -> proper c -> inv (begin y t c).
Proof.
  intros Iv E Pr. destruct Iv as [a b o v]. 
  assert (Nh : forall d m md, ~ In (Lk t d m md) (y_lk y)).
  { assert (T := v_typed _ _ _ _ (v t)). rewrite E in T. exact T. }
  constructor; cbn [begin y_st y_lk y_th].
  - exact a.
  - intros m Q. destruct (b m Q) as (t' & q & Q1 & Q2). exists t', q. cbn [begin y_th].
    rewrite set_other; [now split|]. intros ->. congruence.
  - exact o.
  - intros t2. destruct (Nat.eq_dec t2 t) as [-> | D]; [rewrite set_same | rewrite set_other by exact D; apply v].
    apply tinv_nw; cbn [start t_dirty t_done t_gone t_cur t_src t_new t_todo t_failed]; try reflexivity; try discriminate.
    + refine (typed_ext _ _ _ _ _ _ _ _ _ _ _ _ _ (program_typed c Pr)); try reflexivity.
      * intros d m md. unfold none3. split; [tauto | apply Nh].
      * intros m. split; [tauto | intros Q; now elim Q].
    + intros c' Q1 Q2 Nr. cbn [start t_call] in Q2. injection Q2 as <-. exists []. split; [reflexivity|].
      split; [intros d m md; split; [intros I; exact (Nh _ _ _ I) | intros []]|].
      repeat split; try (intros ? ? []); intros ? [].
Qed.

Lemma inv_init a b : inv (init a b).
Proof.
  constructor; cbn [init y_st y_lk y_th].
  - intros e1 e2 [].
  - intros m Q. discriminate.
  - intros m o t md Q. discriminate.
  - intros t. apply tinv_nw; cbn; try reflexivity; try discriminate; auto.
Qed.

Theorem inv_reach y : reach y -> inv y.
Proof.
  induction 1; [apply inv_init | now apply inv_begin | now apply inv_step].
Qed.

(** ** Positions in the programs *)

Lemma seval_cons_lock d ms md pre : seval (ALock d ms md :: pre) = seval pre.
Proof. reflexivity. Qed.

Lemma seval_loads d ms : forall r m, fst (fold_left sact (loads d ms) r) m = (if mem m ms then Some d else fst r m) /\
  snd (fold_left sact (loads d ms) r) = snd r.
Proof.
  induction ms as [|a ms IH]; intros r m; [now split|].
  cbn [loads map fold_left]. fold (loads d ms). destruct (IH (sact r (ALoad d a)) m) as [E1 E2]. rewrite E1, E2.
  split; [|reflexivity]. unfold mem. cbn [existsb sact fst]. fold (mem m ms).
  destruct (mem m ms); [now rewrite orb_true_r|]. rewrite orb_false_r. reflexivity.
Qed.

Lemma hfold_loads d ms h : fold_left hact (loads d ms) h = h.
Proof. revert h. induction ms as [|a ms IH]; intros h; [reflexivity|]. apply (IH h). Qed.

Lemma hfold_stores d ms h : fold_left hact (stores d ms) h = h.
Proof. revert h. induction ms as [|a ms IH]; intros h; [reflexivity|]. apply (IH h). Qed.

Lemma hfold_resets ms h : fold_left hact (resets ms) h = h.
Proof. revert h. induction ms as [|a ms IH]; intros h; [reflexivity|]. apply (IH h). Qed.

Lemma sfold_stores d ms r : fold_left sact (stores d ms) r = r.
Proof. revert r. induction ms as [|a ms IH]; intros r; [reflexivity|]. apply (IH r). Qed.

Lemma sfold_resets ms r : fold_left sact (resets ms) r = r.
Proof. revert r. induction ms as [|a ms IH]; intros r; [reflexivity|]. apply (IH r). Qed.

(** where a call is *)
Lemma where_at y t c pre p : inv y -> t_call (y_th y t) = Some c -> t_failed (y_th y t) = false -> ~ is_release c ->
  t_todo (y_th y t) = p -> program c = pre ++ p -> at_pos t (y_lk y) (y_th y t) pre.
Proof.
  intros Iv Ec Ef Nr Ep Q. destruct (v_pos _ _ _ _ (i_th _ Iv t) c Ef Ec Nr) as (pre' & Q' & A).
  rewrite Ep, Q in Q'. apply app_inv_tail in Q'. now subst.
Qed.

Lemma creq_some r m d : creq r m = Some d -> exists c, r m = Some c /\ d_req c = d.
Proof. unfold creq. destruct (r m) as [c|]; cbn; [|discriminate]. intros E. injection E as <-. now exists c. Qed.

(** before anything was written *)
Lemma clean y t : inv y -> forall a p, t_todo (y_th y t) = a :: p -> ~ quiet1 a -> t_dirty (y_th y t) = [].
Proof. intros Iv a p E Nq. exact (proj1 (nw _ _ _ _ _ _ (i_th _ Iv t) E Nq)). Qed.

(** ** Ghosts *)

(** the content is changed only by what the ghost [t_dirty] names *)
Lemma step_dirty y t ok d m : inv y ->
  content (y_st (step y t ok)) d m <> content (y_st y) d m ->
  In (d, m) (t_dirty (y_th (step y t ok) t)) \/ (d = Running /\ st_run (y_st y) m = None).
Proof.
  intros Iv Nc. assert (T := v_typed _ _ _ _ (i_th _ Iv t)). revert Nc. unfold step. cbv zeta.
  destruct (t_todo (y_th y t)) as [|a p]; [intros Q; now elim Q|].
  destruct a; cbn [y_st y_th]; try (intros Q; now elim Q).
  - destruct (ds_eqb d0 Candidate && negb (is_rd md) && owned_by_other (y_st y) t ms); [intros Q; now elim Q|].
    destruct (forallb (can_lock (y_lk y) t d0 md) ms); intros Q; now elim Q.
  - destruct (forallb (can_upgrade (y_lk y) t d0) ms); intros Q; now elim Q.
  - destruct (load_eff (y_st y) d0 m0) as (E1 & E2 & E3 & E4). intros Q. right.
    destruct d; cbn [content] in Q; [rewrite E1 in Q; now elim Q | | rewrite E2 in Q; now elim Q].
    destruct (E4 m) as [E | [E _]]; [now elim Q | auto].
  - destruct ok; intros Q; now elim Q.
  - rewrite set_same. cbn [t_dirty]. intros Q. left. left.
    destruct d0, d; cbn [tear content st_start st_run st_cand] in Q; try (now elim Q).
    destruct (Nat.eq_dec m m0) as [-> | Dm]; [reflexivity|]. rewrite upd_other in Q by exact Dm. now elim Q.
  - rewrite set_same. cbn [t_dirty]. destruct (t_new (y_th y t) m0); [|intros Q; now elim Q].
    match goal with |- context [if ?b then _ else _] => destruct b end; [intros Q; now elim Q|].
    intros Q. left. left.
    destruct d0, d; cbn [put content st_start st_run st_cand] in Q; try (now elim Q);
    (destruct (Nat.eq_dec m m0) as [-> | Dm]; [reflexivity|]; rewrite upd_other in Q by exact Dm; now elim Q).
  - rewrite set_same. cbn [t_dirty]. intros Q. left. left.
    destruct d; cbn [reset content st_start st_run st_cand] in Q; try (now elim Q).
    destruct (Nat.eq_dec m m0) as [-> | Dm]; [reflexivity|]. rewrite upd_other in Q by exact Dm. now elim Q.
  - match goal with |- context [if ?b then _ else _] => destruct b end; intros Q; destruct d; now elim Q.
  - match goal with |- context [if ?b then _ else _] => destruct b end; intros Q; destruct d; now elim Q.
  - destruct (st_owner (y_st y) m0) as [o|]; [destruct (o =? t)|]; intros Q; destruct d; now elim Q.
Qed.

(** ** The lock of the datastore *)

Lemma step_locked y t ok m o : inv y -> st_owner (y_st y) m = Some o -> t <> o ->
  st_owner (y_st (step y t ok)) m = Some o /\ st_cand (y_st (step y t ok)) m = st_cand (y_st y) m.
Proof.
  intros Iv Eo D. split.
  - assert (T := v_typed _ _ _ _ (i_th _ Iv t)). unfold step. cbv zeta.
    destruct (t_todo (y_th y t)) as [|a p]; [exact Eo|].
    destruct a; cbn [y_st]; try exact Eo.
    + destruct (ds_eqb d Candidate && negb (is_rd md) && owned_by_other (y_st y) t ms); [exact Eo|].
      destruct (forallb (can_lock (y_lk y) t d md) ms); exact Eo.
    + destruct (forallb (can_upgrade (y_lk y) t d) ms); exact Eo.
    + destruct (load_eff (y_st y) d m0) as (_ & _ & E3 & _). now rewrite E3.
    + destruct ok; exact Eo.
    + now destruct d.
    + destruct (t_new (y_th y t) m0); [|exact Eo].
      match goal with |- context [if ?b then _ else _] => destruct b end; [exact Eo|]. now destruct d.
    + destruct (existsb _ ms) eqn:Q; cbn [y_st]; [exact Eo|]. cbn [set_owner st_owner].
      destruct (mem m ms) eqn:M; [|exact Eo]. exfalso. rewrite <- not_true_iff_false in Q. apply Q.
      apply existsb_exists. apply mem_in in M. exists m. split; [exact M|]. now rewrite Eo.
    + destruct (existsb _ ms) eqn:Q; cbn [y_st]; [exact Eo|]. cbn [set_owner st_owner].
      destruct (mem m ms) eqn:M; [|exact Eo]. exfalso. apply mem_in in M. cbn [typed] in T.
      apply D. apply (i_owner _ Iv m o t Wr Eo); [now apply (proj1 T) | discriminate].
    + destruct (st_owner (y_st y) m0) as [o'|] eqn:Eo'; [|exact Eo]. destruct (Nat.eqb_spec o' t) as [-> | Do]; [|exact Eo].
      cbn [y_st set_owner st_owner mem existsb]. destruct (Nat.eqb_spec m m0) as [-> | Dm]; [congruence | exact Eo].
  - assert (Q : same_at (y_st y) (y_st (step y t ok)) Candidate m).
    { apply step_same; [exact Iv|]. intros md -> I. apply D. apply (i_owner _ Iv m o t Wr Eo I). discriminate. }
    destruct Q as [Q | [Q _]]; [exact Q | discriminate].
Qed.

(** ** Editing *)

Definition loader (a : act) : Prop := match a with ALoad _ _ | AEdit _ _ | ATake _ => True | _ => False end.

Lemma unique_split {A} (a : A) u v u' v' : u ++ a :: v = u' ++ a :: v' -> ~ In a u -> ~ In a v -> u = u' /\ v = v'.
Proof.
  revert u'. induction u as [|z u IH]; intros u' E Nu Nv.
  - destruct u' as [|z' u']; cbn in E; [injection E as <-; now split|].
    injection E as <- E. exfalso. apply Nv. rewrite E. apply in_or_app. right. now left.
  - destruct u' as [|z' u']; cbn in E.
    + injection E as -> E. exfalso. apply Nu. now left.
    + injection E as <- E. destruct (IH u' E) as [-> ->]; [intros I; apply Nu; now right | exact Nv | now split].
Qed.

Lemma not_loader_tail d ms a : In a (finish d ms ++ [AEnd]) -> ~ loader a.
Proof.
  unfold finish. intros I. cbn [app In] in I. destruct I as [<- | [<- | I]]; [cbn; tauto | cbn; tauto|].
  apply in_app_or in I. destruct I as [I | [<- | []]]; [|cbn; tauto].
  unfold stores in I. apply in_flat_map in I. destruct I as (m & _ & [<- | [<- | []]]); cbn; tauto.
Qed.

Lemma edit_split d ms f pre f' ms' p : program (Edit d ms f) = pre ++ AEdit f' ms' :: p ->
  f' = f /\ ms' = ms /\ (forall a, In a p -> ~ loader a).
Proof.
  intros E. assert (I : In (AEdit f' ms') (program (Edit d ms f))) by (rewrite E; apply in_or_app; right; now left).
  cbn [program] in *.
  assert (Nl : forall g hs, ~ In (AEdit g hs) (ALock d ms Up :: loads d ms)).
  { intros g hs [Q | Q]; [discriminate|]. apply in_map_iff in Q. destruct Q as (z & Q & _). discriminate. }
  assert (Nt : forall g hs, ~ In (AEdit g hs) (finish d ms ++ [AEnd])).
  { intros g hs Q. apply not_loader_tail in Q. apply Q. exact Logic.I. }
  change (In (AEdit f' ms') ((ALock d ms Up :: loads d ms) ++ AEdit f ms :: finish d ms ++ [AEnd])) in I.
  apply in_app_or in I. destruct I as [I | [I | I]]; [now apply Nl in I | | now apply Nt in I].
  injection I as <- <-. repeat split.
  change ((ALock d ms Up :: loads d ms) ++ AEdit f ms :: (finish d ms ++ [AEnd]) = pre ++ AEdit f ms :: p) in E.
  apply unique_split in E; [|apply Nl | apply Nt]. destruct E as [_ <-]. apply not_loader_tail.
Qed.

Lemma edit_no_take d ms f l : ~ In (ATake l) (program (Edit d ms f)).
Proof.
  cbn [program]. intros [Q | Q]; [discriminate|]. apply in_app_or in Q. destruct Q as [Q | [Q | Q]].
  - apply in_map_iff in Q. destruct Q as (z & Q & _). discriminate.
  - discriminate.
  - apply not_loader_tail in Q. apply Q. exact Logic.I.
Qed.

Definition edit_ok (x : th) : Prop := forall d ms f, t_call x = Some (Edit d ms f) -> t_failed x = false ->
  forall m v, t_new x m = Some v ->
  (forall a, In a (t_todo x) -> ~ loader a) /\ exists c, t_cur x m = Some c /\ v = f m (d_val c).

Lemma edit_step y t ok : inv y -> edit_ok (y_th y t) -> edit_ok (y_th (step y t ok) t).
Proof.
  intros Iv Ed. assert (P := v_pos _ _ _ _ (i_th _ Iv t)). unfold step. cbv zeta.
  destruct (t_todo (y_th y t)) as [|a p] eqn:E; [exact Ed|].
  assert (Go : edit_ok (go (y_th y t) p)).
  { intros d ms f Q1 Q2 m v Q3. destruct (Ed d ms f Q1 Q2 m v Q3) as [A B]. split; [|exact B].
    cbn [go t_todo]. intros b I. apply A. rewrite E. now right. }
  assert (Ge : forall q, (q = [] \/ q = [AEnd]) -> edit_ok (go (y_th y t) q)).
  { intros q Hq d ms f Q1 Q2 m v Q3. destruct (Ed d ms f Q1 Q2 m v Q3) as [A B]. split; [|exact B].
    cbn [go t_todo]. destruct Hq as [-> | ->]; [intros b [] | intros b [<- | []]; cbn; tauto]. }
  assert (Fl : edit_ok (fail (y_th y t))) by (intros d ms f _ Q; discriminate).
  destruct a; cbn [y_th]; try (rewrite set_same); try assumption.
  - destruct (ds_eqb d Candidate && negb (is_rd md) && owned_by_other (y_st y) t ms); cbn [y_th]; [now rewrite set_same|].
    destruct (forallb (can_lock (y_lk y) t d md) ms); cbn [y_th]; [now rewrite set_same | exact Ed].
  - destruct (forallb (can_upgrade (y_lk y) t d) ms); cbn [y_th]; [now rewrite set_same | exact Ed].
  - apply Ge. now left.
  - intros d' ms' f' Q1 Q2 m' v Q3. cbn [t_call t_failed t_new t_todo t_cur] in *.
    destruct (Ed d' ms' f' Q1 Q2 m' v Q3) as [A _]. exfalso. apply (A (ALoad d m)); [rewrite E; now left | exact Logic.I].
  - intros d' ms' f' Q1 Q2 m' v Q3. cbn [t_call t_failed t_new t_todo t_cur] in *.
    destruct (P _ Q2 Q1 (fun Z => Z)) as (pre & Ep & _). rewrite E in Ep. apply edit_split in Ep.
    destruct Ep as (-> & -> & Nl). split; [exact Nl|]. destruct (mem m' ms') eqn:M.
    + destruct (t_cur (y_th y t) m') as [c|]; [|discriminate]. injection Q3 as <-. now exists c.
    + destruct (Ed d' ms' f' Q1 Q2 m' v Q3) as [A _]. exfalso.
      apply (A (AEdit f' ms')); [rewrite E; now left | exact Logic.I].
  - intros d' ms' f' Q1 Q2 m' v Q3. cbn [t_call t_failed t_new t_todo t_cur] in *.
    destruct (P _ Q2 Q1 (fun Z => Z)) as (pre & Ep & _). exfalso. apply (edit_no_take d' ms' f' ms).
    rewrite Ep, E. apply in_or_app. right. now left.
  - destruct ok; cbn [y_th]; rewrite set_same; assumption.
  - match goal with |- context [if ?b then _ else _] => destruct b end; cbn [y_th]; rewrite set_same; assumption.
  - match goal with |- context [if ?b then _ else _] => destruct b end; cbn [y_th]; rewrite set_same; assumption.
  - destruct (st_owner (y_st y) m) as [o|]; [destruct (o =? t)|]; cbn [y_th]; rewrite set_same; auto.
Qed.

Lemma edit_reach y : reach y -> forall t, edit_ok (y_th y t).
Proof.
  induction 1 as [a b | y t c R IH Et Pr | y t ok R IH]; intros t2.
  - intros d ms f Q. discriminate.
  - cbn [begin y_th]. destruct (Nat.eq_dec t2 t) as [-> | D]; [rewrite set_same | rewrite set_other by exact D; apply IH].
    intros d ms f _ _ m v Q. discriminate.
  - destruct (Nat.eq_dec t2 t) as [-> | D]; [apply edit_step; [now apply inv_reach | apply IH]|].
    rewrite step_thread by exact D. apply IH.
Qed.

(** ** Locking *)

Definition lock_ok (y : sys) (t : nat) : Prop := forall ms, t_call (y_th y t) = Some (LockC ms) ->
  t_failed (y_th y t) = false -> t_todo (y_th y t) = [AEnd] ->
  forall m, In m ms -> st_owner (y_st y) m = Some t /\ st_cand (y_st y) m = None.

Lemma lock_step y t ok : inv y -> lock_ok (step y t ok) t.
Proof.
  intros Iv ms. assert (P := v_pos _ _ _ _ (i_th _ Iv t)).
  destruct (t_todo (y_th y t)) as [|a p] eqn:E.
  { unfold step. cbv zeta. rewrite E. intros _ _ Q. congruence. }
  assert (Lk0 : t_failed (y_th y t) = false -> t_call (y_th y t) = Some (LockC ms) -> p = [AEnd] -> a = AOwn ms).
  { intros F C Ep. destruct (P _ F C (fun Z => Z)) as (pre' & Q & _). rewrite E, Ep in Q.
    cbn [program] in Q. change ([ALock Candidate ms Wr; AOwn ms] ++ [AEnd] = pre' ++ [a] ++ [AEnd]) in Q.
    rewrite app_assoc in Q. apply app_inv_tail in Q.
    change ([ALock Candidate ms Wr] ++ [AOwn ms] = pre' ++ [a]) in Q. apply app_inj_tail in Q. now destruct Q. }
  assert (Lk1 : t_call (y_th y t) = Some (LockC ms) -> t_failed (y_th y t) = false -> ~ In (ADrop 0) (a :: p) /\ forall m, a <> ADrop m).
  { intros C F. destruct (P _ F C (fun Z => Z)) as (pre' & Q & _). rewrite E in Q. split.
    - intros I. apply (drop_release (LockC ms) 0). rewrite Q. apply in_or_app. now right.
    - intros m ->. apply (drop_release (LockC ms) m). rewrite Q. apply in_or_app. right. now left. }
  unfold step. cbv zeta. rewrite E.
  destruct a; cbn [y_th y_st]; try (rewrite set_same; cbn [go t_call t_failed t_todo]; intros C F Ep;
    specialize (Lk0 F C Ep); discriminate).
  - destruct (ds_eqb d Candidate && negb (is_rd md) && owned_by_other (y_st y) t ms0); cbn [y_th y_st];
      [rewrite set_same; intros _ Q; discriminate|].
    destruct (forallb (can_lock (y_lk y) t d md) ms0); cbn [y_th y_st]; [|intros _ _ Q; congruence].
    rewrite set_same; cbn [go t_call t_failed t_todo]; intros C F Ep. specialize (Lk0 F C Ep); discriminate.
  - destruct (forallb (can_upgrade (y_lk y) t d) ms0); cbn [y_th y_st]; [|intros _ _ Q; congruence].
    rewrite set_same; cbn [go t_call t_failed t_todo]; intros C F Ep. specialize (Lk0 F C Ep); discriminate.
  - rewrite set_same. intros _ _ Q. discriminate.
  - destruct ok; cbn [y_th y_st]; rewrite set_same; [|intros _ Q; discriminate].
    cbn [go t_call t_failed t_todo]; intros C F Ep. specialize (Lk0 F C Ep); discriminate.
  - destruct (existsb _ ms0) eqn:Q; cbn [y_th y_st]; rewrite set_same; [intros _ Z; discriminate|].
    cbn [go t_call t_failed t_todo]; intros C F Ep. specialize (Lk0 F C Ep). injection Lk0 as ->.
    intros m I. cbn [set_owner st_owner st_cand]. assert (M : mem m ms = true) by now apply mem_in. rewrite M.
    split; [reflexivity|]. destruct (st_cand (y_st y) m) as [v|] eqn:Ec; [|reflexivity].
    exfalso. rewrite <- not_true_iff_false in Q. apply Q. apply existsb_exists. exists m. split; [exact I|].
    rewrite Ec. now destruct (st_owner (y_st y) m).
  - destruct (existsb _ ms0) eqn:Q; cbn [y_th y_st]; rewrite set_same; [intros _ Z; discriminate|].
    cbn [go t_call t_failed t_todo]; intros C F Ep. specialize (Lk0 F C Ep). discriminate.
  - destruct (st_owner (y_st y) m) as [o|]; [destruct (o =? t)|]; cbn [y_th y_st]; rewrite set_same;
      cbn [go t_call t_failed t_todo]; intros C F _; exfalso; destruct (Lk1 C F) as [_ Z]; now apply (Z m).
Qed.

Lemma lock_reach y : reach y -> forall t, lock_ok y t.
Proof.
  induction 1 as [a b | y t c R IH Et Pr | y t ok R IH]; intros t2.
  - intros ms Q. discriminate.
  - unfold lock_ok. cbn [begin y_th y_st]. destruct (Nat.eq_dec t2 t) as [-> | D].
    + rewrite set_same. intros ms Q1 _ Q2. cbn [start t_call t_todo] in *. injection Q1 as ->. discriminate.
    + rewrite set_other by exact D. apply IH.
  - apply inv_reach in R. destruct (Nat.eq_dec t2 t) as [-> | D]; [now apply lock_step|].
    intros ms. rewrite step_thread by exact D. intros Q1 Q2 Q3 m I.
    destruct (IH t2 ms Q1 Q2 Q3 m I) as [A B].
    destruct (step_locked y t ok m t2 R A (fun Z => D (eq_sym Z))) as [A' B']. split; [exact A' | now rewrite B'].
Qed.

(** ** What a call may have written *)

Definition wrote (pre : list act) (d : ds) (m : nat) : Prop :=
  In (ATear d m) pre \/ In (AStore d m) pre \/ (d = Candidate /\ In (AReset m) pre).

Definition dirty_ok (x : th) : Prop := forall c pre, t_call x = Some c -> t_failed x = false -> ~ is_release c ->
  program c = pre ++ t_todo x -> forall d m, In (d, m) (t_dirty x) -> wrote pre d m.

Lemma wrote_app pre a d m : wrote pre d m -> wrote (pre ++ [a]) d m.
Proof. unfold wrote. rewrite !in_app_iff. tauto. Qed.

Lemma dirty_step y t ok : inv y -> dirty_ok (y_th y t) -> dirty_ok (y_th (step y t ok) t).
Proof.
  intros Iv Dk. assert (P := v_pos _ _ _ _ (i_th _ Iv t)).
  assert (Tt := v_typed _ _ _ _ (i_th _ Iv t)). unfold step. cbv zeta.
  destruct (t_todo (y_th y t)) as [|a p] eqn:E; [exact Dk|].
  assert (Gen : forall x', t_call x' = t_call (y_th y t) -> t_failed x' = t_failed (y_th y t) -> t_todo x' = p ->
    (forall d m, In (d, m) (t_dirty x') -> In (d, m) (t_dirty (y_th y t)) \/ wrote [a] d m) -> dirty_ok x').
  { intros x' E1 E2 E3 Hd c pre Q1 Q2 Nr Q3 d m I. rewrite E1 in Q1. rewrite E2 in Q2. rewrite E3 in Q3.
    destruct (P c Q2 Q1 Nr) as (pre0 & Q4 & _). rewrite E in Q4.
    assert (pre = pre0 ++ [a]).
    { apply (app_inv_tail p). rewrite <- Q3, Q4, <- app_assoc. reflexivity. }
    subst pre. destruct (Hd d m I) as [J | J].
    - apply wrote_app. refine (Dk c pre0 Q1 Q2 Nr _ d m J). now rewrite E.
    - unfold wrote in *. rewrite !in_app_iff. tauto. }
  assert (Go : dirty_ok (go (y_th y t) p)) by (apply Gen; auto).
  assert (Fl : dirty_ok (fail (y_th y t))) by (intros c pre _ Q; discriminate).
  destruct a; cbn [y_th]; try (rewrite set_same); try assumption.
  - destruct (ds_eqb d Candidate && negb (is_rd md) && owned_by_other (y_st y) t ms); cbn [y_th]; [now rewrite set_same|].
    destruct (forallb (can_lock (y_lk y) t d md) ms); cbn [y_th]; [now rewrite set_same | exact Dk].
  - destruct (forallb (can_upgrade (y_lk y) t d) ms); cbn [y_th]; [now rewrite set_same | exact Dk].
  - cbn [typed] in Tt. subst p. exact Go.
  - destruct ok; cbn [y_th]; rewrite set_same; assumption.
  - apply Gen; auto. cbn [t_dirty]. intros d' m' [Q | Q]; [|now left]. injection Q as <- <-. right. left. now left.
  - apply Gen; auto. cbn [t_dirty]. intros d' m' [Q | Q]; [|now left]. injection Q as <- <-. right. right. left. now left.
  - apply Gen; auto. cbn [t_dirty]. intros d' m' [Q | Q]; [|now left]. injection Q as <- <-. right. right. right.
    split; [reflexivity | now left].
  - match goal with |- context [if ?b then _ else _] => destruct b end; cbn [y_th]; rewrite set_same; assumption.
  - match goal with |- context [if ?b then _ else _] => destruct b end; cbn [y_th]; rewrite set_same; assumption.
  - assert (Nd : dirty_ok (go (y_th y t) [AEnd])).
    { intros c pre Q1 Q2 Nr _. exfalso. cbn [go t_call t_failed] in *. destruct (P c Q2 Q1 Nr) as (pre0 & Q4 & _).
      apply Nr, (drop_release c m). rewrite Q4, E. apply in_or_app. right. now left. }
    destruct (st_owner (y_st y) m) as [o|]; [destruct (o =? t)|]; cbn [y_th]; rewrite set_same; auto.
Qed.

Lemma dirty_reach y : reach y -> forall t, dirty_ok (y_th y t).
Proof.
  induction 1 as [a b | y t c R IH Et Pr | y t ok R IH]; intros t2.
  - intros c pre Q. discriminate.
  - cbn [begin y_th]. destruct (Nat.eq_dec t2 t) as [-> | D]; [rewrite set_same | rewrite set_other by exact D; apply IH].
    intros c' pre _ _ _ _ d m [].
  - destruct (Nat.eq_dec t2 t) as [-> | D]; [apply dirty_step; [now apply inv_reach | apply IH]|].
    rewrite step_thread by exact D. apply IH.
Qed.

Lemma in_loads_inv a d ms : In a (loads d ms) -> exists m, a = ALoad d m.
Proof. intros I. apply in_map_iff in I. destruct I as (m & <- & _). now exists m. Qed.

Lemma in_stores_inv a d ms : In a (stores d ms) -> exists m, a = ATear d m \/ a = AStore d m.
Proof.
  intros I. apply in_flat_map in I. destruct I as (m & _ & [<- | [<- | []]]); exists m; auto.
Qed.
