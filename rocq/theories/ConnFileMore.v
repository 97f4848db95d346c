(** Checks end with a result, connecting succeeds, files of closed connections are gone. *)
From Coq Require Import NArith List Bool Lia.
From Verif Require Import ConnFile ConnFileSpec ConnFileProofs.
Import ListNotations.
Local Open Scope N_scope.

(** Results are of threads that were started *)
Definition restid (s : state) : Prop := forall t c b, In (t, c, b) (res s) -> t < ntid s.

Lemma step_restid : forall ic s e s', Inv ic s -> restid s -> step s e = Some s' -> restid s'.
Proof.
  intros ic s e s' V R H.
  assert (forall n, ntid s <= n -> forall t c b, In (t, c, b) (res s) -> t < n) as R' by (intros n L t c b I; apply R in I; lia).
  destruct e as [p|t|p c|p c|p c|t|p|]; cbn [step] in H.
  - injection H as <-. intros t c b I. apply (R' _ (N.le_succ_diag_r _)) in I. cbn. lia.
  - destruct (thr s t) as [[q d k]|] eqn:T; [|discriminate]. injection H as <-. pose proof (v_tid _ _ V _ _ T) as Lt.
    unfold tstep. cbn [t_pid t_cid t_pc].
    destruct k as [|i|i|i| | | | |i|i b|]; repeat match goal with |- restid (match ?x with _ => _ end) => destruct x end; try exact R;
      (intros u x y [I|I]; cbn [ntid]; [injection I as <- _ _; exact Lt|apply (R u x y I)]).
  - destruct (has2 (live s) p c); [|discriminate]. destruct (del_first (lst s) p c) as [r [i|]]; [|discriminate].
    injection H as <-. intros t d b I. apply (R' _ (N.le_succ_diag_r _)) in I. cbn. lia.
  - destruct (existsb (N.eqb c) (used s)); [|discriminate]. injection H as <-. intros t d b I. apply (R' _ (N.le_succ_diag_r _)) in I. cbn. lia.
  - destruct (ffin s c); [|discriminate]. injection H as <-. intros t d b I. apply (R' _ (N.le_succ_diag_r _)) in I. cbn. lia.
  - destruct (thr s t) as [[p c k]|]; [|discriminate]. destruct k; try discriminate. injection H as <-. exact R.
  - injection H as <-. exact R.
  - injection H as <-. intros t c b [].
Qed.

(** What was disconnected has no file *)
Definition nofile (s : state) : Prop := forall p c b, In (p, c, b) (dres s) -> In c (used s) /\ nolst (lst s) c /\ ffin s c = None.

Lemma step_nofile : forall ic s e s', Inv ic s -> nofile s -> (forall p c, e <> EList p c) -> step s e = Some s' -> nofile s'.
Proof.
  intros ic s e s' V R NL H. destruct e as [p|t|p c|p c|p c|t|p|]; cbn [step] in H.
  - injection H as <-. exact R.
  - destruct (thr s t) as [[q d k]|] eqn:T; [|discriminate]. injection H as <-. pose proof (v_thr _ _ V _ _ _ _ T) as O.
    unfold tstep. cbn [t_pid t_cid t_pc].
    destruct k as [|i|i|i| | | | |i|i b|]; cbn [ok] in O.
    + destruct (fnew s d); exact R.
    + destruct (lk s i) as [a|]; [destruct (N.eqb a q)|]; exact R.
    + destruct (fnew s d); [|exact R]. intros a x b I. destruct (R a x b I) as (R1 & R2 & R3).
      split; [exact R1|]. split; [exact R2|]. cbn [ffin]. rewrite upd_other; [exact R3|]. intros ->. tauto.
    + intros a x b I. destruct (R a x b I) as (R1 & R2 & R3). split; [right; exact R1|]. split; [|exact R3].
      intros r j [J|J]; [|exact (R2 r j J)]. injection J as _ <- _. tauto.
    + exact R.
    + intros a x b [I|I].
      * injection I as <- <- _. cbn [used lst ffin]. rewrite upd_same. tauto.
      * destruct (R a x b I) as (R1 & R2 & R3). split; [exact R1|]. split; [exact R2|]. cbn [ffin].
        destruct (N.eq_dec x d) as [->|E]; [apply upd_same|]. rewrite upd_other by exact E. exact R3.
    + destruct (has (lst s) q d); exact R.
    + destruct (ffin s d); exact R.
    + exact R.
    + destruct b; exact R.
    + intros a x b I. destruct (R a x b I) as (R1 & R2 & R3). split; [exact R1|]. split; [exact R2|]. cbn [ffin].
      destruct (N.eq_dec x d) as [->|E]; [apply upd_same|]. rewrite upd_other by exact E. exact R3.
  - destruct (has2 (live s) p c); [|discriminate]. destruct (del_first (lst s) p c) as [r [i|]] eqn:D; [|discriminate].
    injection H as <-. destruct (del_first_spec _ _ _ _ _ D) as (_ & B & _ & _). intros a x b I.
    destruct (R a x b I) as (R1 & R2 & R3). split; [exact R1|]. split; [|exact R3]. intros u j J. exact (R2 u j (B _ J)).
  - destruct (existsb (N.eqb c) (used s)); [|discriminate]. injection H as <-. exact R.
  - exfalso. exact (NL p c eq_refl).
  - destruct (thr s t) as [[p c k]|]; [|discriminate]. destruct k; try discriminate. injection H as <-. exact R.
  - injection H as <-. intros a x b I. destruct (R a x b I) as (R1 & R2 & R3). split; [exact R1|]. split; [|exact R3].
    intros u j J. cbn [lst] in J. apply filter_In in J. exact (R2 u j (proj1 J)).
  - injection H as <-. intros a x b [].
Qed.

Lemma run_more : forall l ic s s', Inv ic s -> restid s -> nofile s -> no_listing l -> run s l = Some s' -> restid s' /\ nofile s'.
Proof.
  induction l as [|e l IH]; intros ic s s' V R F NL H; cbn [run] in H.
  - injection H as <-. auto.
  - destruct (step s e) as [s1|] eqn:E; [|discriminate].
    assert (forall p d, e <> EList p d) as N1 by (intros p d ->; apply (NL p d); left; reflexivity).
    destruct (step_inv ic s e s1 V N1 E) as (ic1 & V1).
    apply (IH ic1 s1 s' V1); [apply (step_restid ic s e s1); auto|apply (step_nofile ic s e s1); auto| |exact H].
    intros p d I. apply (NL p d). right. exact I.
Qed.

Lemma reach_more : forall s, reach s -> restid s /\ nofile s.
Proof.
  intros s (l & R & NL). apply (run_more l _ init s init_inv); auto.
  - intros t c b [].
  - intros p c b [].
Qed.

(** Steps a check still makes at most *)
Definition left (k : pc) : nat :=
  match k with C0 => 5 | C1 => 4 | C2 _ => 3 | C3 _ _ => 2 | C4 => 1 | _ => 0 end.

Definition is_check (k : pc) : Prop := match k with C0 | C1 | C2 _ | C3 _ _ | C4 => True | _ => False end.

Lemma res_grows : forall s e s', step s e = Some s' -> e <> EReboot -> forall x, In x (res s) -> In x (res s').
Proof.
  intros s e s' H NR x I. destruct e as [p|t|p c|p c|p c|t|p|]; cbn [step] in H.
  - injection H as <-. exact I.
  - destruct (thr s t) as [[q d k]|]; [|discriminate]. injection H as <-. unfold tstep. cbn [t_pid t_cid t_pc].
    destruct k as [|i|i|i| | | | |i|i b|];
      repeat match goal with |- In _ (res (match ?z with _ => _ end)) => destruct z end; cbn [res]; try exact I; right; exact I.
  - destruct (has2 (live s) p c); [|discriminate]. destruct (del_first (lst s) p c) as [r [i|]]; [|discriminate].
    injection H as <-. exact I.
  - destruct (existsb (N.eqb c) (used s)); [|discriminate]. injection H as <-. exact I.
  - destruct (ffin s c); [|discriminate]. injection H as <-. exact I.
  - destruct (thr s t) as [[p c k]|]; [|discriminate]. destruct k; try discriminate. injection H as <-. exact I.
  - injection H as <-. exact I.
  - exfalso. exact (NR eq_refl).
Qed.

Lemma own_step : forall s t p c k, thr s t = Some (Th p c k) -> is_check k -> exists s', step s (EStep t) = Some s' /\
  ((exists k', thr s' t = Some (Th p c k') /\ is_check k' /\ left k = S (left k')) \/
   (thr s' t = None /\ exists b, In (t, c, b) (res s'))).
Proof.
  intros s t p c k T K. cbn [step]. rewrite T. eexists. split; [reflexivity|]. unfold tstep, goto, ends. cbn [t_pid t_cid t_pc].
  destruct k as [|i|i|i| | | | |i|i b|]; try destruct K.
  - destruct (has (lst s) p c); cbn [thr res]; rewrite upd_same.
    + right. split; [reflexivity|]. exists true. left. reflexivity.
    + left. eexists. split; [reflexivity|]. split; [exact Logic.I|reflexivity].
  - destruct (ffin s c); cbn [thr res]; rewrite upd_same.
    + left. eexists. split; [reflexivity|]. split; [exact Logic.I|reflexivity].
    + right. split; [reflexivity|]. exists false. left. reflexivity.
  - cbn [thr res]. rewrite upd_same. left. eexists. split; [reflexivity|]. split; [exact Logic.I|reflexivity].
  - destruct b; cbn [thr res]; rewrite upd_same.
    + right. split; [reflexivity|]. exists true. left. reflexivity.
    + left. eexists. split; [reflexivity|]. split; [exact Logic.I|reflexivity].
  - cbn [thr res]. rewrite upd_same. right. split; [reflexivity|]. exists false. left. reflexivity.
Qed.

Lemma tstep_other : forall s u t th, u <> t -> thr (tstep s u th) t = thr s t.
Proof.
  intros s u t [q d k] E. unfold tstep, goto, ends. cbn [t_pid t_cid t_pc].
  destruct k as [|i|i|i| | | | |i|i b|];
    repeat match goal with |- context [match ?z with _ => _ end] => destruct z end; cbn [thr]; apply upd_other; auto.
Qed.

(** Others do not change the thread *)
Lemma other_step : forall s e s' t p c k, step s e = Some s' -> t < ntid s -> thr s t = Some (Th p c k) -> is_check k ->
  e <> EStep t -> e <> EKill p -> e <> EReboot -> thr s' t = Some (Th p c k) /\ t < ntid s'.
Proof.
  intros s e s' t p c k H Lt T K N1 N2 N3. assert (t <> ntid s) as Nt by lia.
  destruct e as [q|u|q d|q d|q d|u|q|]; cbn [step] in H.
  - injection H as <-. cbn. rewrite upd_other by exact Nt. split; [exact T|lia].
  - assert (u <> t) as E by (intros ->; exact (N1 eq_refl)).
    destruct (thr s u) as [th|] eqn:U; [|discriminate]. injection H as <-. rewrite tstep_other by exact E. split; [exact T|].
    unfold tstep. destruct (t_pc th); repeat match goal with |- context [match ?z with _ => _ end] => destruct z end; exact Lt.
  - destruct (has2 (live s) q d); [|discriminate]. destruct (del_first (lst s) q d) as [r [i|]]; [|discriminate].
    injection H as <-. cbn [thr ntid]. rewrite upd_other by exact Nt. split; [exact T|lia].
  - destruct (existsb (N.eqb d) (used s)); [|discriminate]. injection H as <-. cbn. rewrite upd_other by exact Nt. split; [exact T|lia].
  - destruct (ffin s d); [|discriminate]. injection H as <-. cbn. rewrite upd_other by exact Nt. split; [exact T|lia].
  - destruct (thr s u) as [[a b m]|] eqn:U; [|discriminate]. destruct m; try discriminate. injection H as <-.
    cbn [thr ntid]. unfold ends. rewrite upd_other; [split; [exact T|exact Lt]|]. intros ->. rewrite T in U. injection U as _ _ ->. destruct K.
  - injection H as <-. cbn [thr ntid]. rewrite T. cbn [t_pid]. destruct (N.eqb p q) eqn:E; [|split; [reflexivity|exact Lt]].
    apply N.eqb_eq in E. subst q. exfalso. exact (N2 eq_refl).
  - exfalso. exact (N3 eq_refl).
Qed.

Lemma run_res : forall l s s' x, run s l = Some s' -> no_restart l -> In x (res s) -> In x (res s').
Proof.
  induction l as [|e l IH]; intros s s' x H NR I; cbn [run] in H; [injection H as <-; exact I|].
  destruct (step s e) as [s1|] eqn:E; [|discriminate]. apply (IH s1 s' x H).
  - intro J. apply NR. right. exact J.
  - apply (res_grows s e s1 E); [|exact I]. intros ->. apply NR. left. reflexivity.
Qed.

Lemma check_run : forall l s s' t p c k, run s l = Some s' -> t < ntid s -> thr s t = Some (Th p c k) -> is_check k ->
  ~ In (EKill p) l -> no_restart l ->
  (exists b, In (t, c, b) (res s')) \/
  (exists k', thr s' t = Some (Th p c k') /\ is_check k' /\ (left k = steps_of t l + left k')%nat).
Proof.
  induction l as [|e l IH]; intros s s' t p c k H Lt T K NK NR; cbn [run] in H.
  - injection H as <-. right. exists k. auto.
  - destruct (step s e) as [s1|] eqn:E; [|discriminate].
    assert (no_restart l) as NR' by (intro J; apply NR; right; exact J).
    assert (~ In (EKill p) l) as NK' by (intro J; apply NK; right; exact J).
    assert (e <> EReboot) as N3 by (intros ->; apply NR; left; reflexivity).
    assert (e <> EKill p) as N2 by (intros ->; apply NK; left; reflexivity).
    assert (e = EStep t \/ e <> EStep t) as [->|Ne].
    { destruct e as [q|u|q d|q d|q d|u|q|]; try (right; discriminate). destruct (N.eq_dec u t) as [->|D]; [left; reflexivity|].
      right. intro X. injection X as X. exact (D X). }
    + destruct (own_step s t p c k T K) as (s2 & E2 & [(k' & T' & K' & L)|(_ & b & I)]); rewrite E in E2; injection E2 as <-.
      * assert (t < ntid s1) as Lt1.
        { cbn [step] in E. rewrite T in E. injection E as <-. unfold tstep. cbn [t_pid t_cid t_pc].
          destruct k; repeat match goal with |- context [match ?z with _ => _ end] => destruct z end; exact Lt. }
        destruct (IH s1 s' t p c k' H Lt1 T' K' NK' NR') as [R|(k2 & T2 & K2 & L2)]; [left; exact R|].
        right. exists k2. split; [exact T2|]. split; [exact K2|]. cbn [steps_of mine]. rewrite N.eqb_refl. lia.
      * left. exists b. apply (run_res l s1 s' _ H NR' I).
    + destruct (other_step s e s1 t p c k E Lt T K Ne N2 N3) as [T1 Lt1].
      destruct (IH s1 s' t p c k H Lt1 T1 K NK' NR') as [R|(k2 & T2 & K2 & L2)]; [left; exact R|].
      right. exists k2. split; [exact T2|]. split; [exact K2|]. rewrite L2. cbn [steps_of].
      assert (mine t e = 0%nat) as ->; [|reflexivity]. destruct e as [q|u|q d|q d|q d|u|q|]; try reflexivity. cbn [mine].
      destruct (N.eqb u t) eqn:X; [|reflexivity]. apply N.eqb_eq in X. subst u. exfalso. exact (Ne eq_refl).
Qed.
