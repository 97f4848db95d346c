(** Facts about applying of changes. *)
From Coq Require Import List Bool Arith NArith Lia.
From Verif Require Import Change ChangeSpec ChangeProofs ChangeProofs2 Prop_Change Apply ApplySpec.
Import ListNotations.

Lemma ev_in : forall k rs k' c, In (ECall k' c) (ev_calls k rs) <-> k' = k /\ In c (calls rs).
Proof.
  intros k rs k' c. unfold ev_calls. fold (calls rs). rewrite in_map_iff. split; [intros (x & E & Hx); injection E as -> ->; auto|intros (-> & H); exists c; auto].
Qed.
Lemma ev_no_store : forall k rs m, ~ In (EStore m) (ev_calls k rs).
Proof. intros k rs m H. unfold ev_calls in H. apply in_map_iff in H. destruct H as (x & E & _). discriminate. Qed.

Lemma data_store_no_call : forall l k c, ~ In (ECall k c) (fst (data_store l)).
Proof. induction l as [|(m & r) l IH]; intros k c H; [destruct H|]. destruct r; cbn in H; [destruct H as [H|H]; [discriminate|apply (IH k c H)]|destruct H|destruct H as [H|[]]; discriminate]. Qed.

Lemma data_store_ok : forall l, snd (data_store l) = false -> fst (data_store l) = map (fun x => EStore (fst x)) l /\ Forall (fun x => snd x = Stored) l.
Proof. induction l as [|(m & r) l IH]; intros H; [auto|]. destruct r; cbn in *; try discriminate. destruct (IH H) as (-> & F). auto. Qed.
Lemma data_store_all : forall l, Forall (fun x => snd x = Stored) l -> snd (data_store l) = false.
Proof. induction l as [|(m & r) l IH]; intros H; [reflexivity|]. inversion H as [|? ? H1 H2]; subst. cbn in H1. subst r. cbn. apply IH. exact H2. Qed.

(** The trace of storing: stores and then done events. *)
Lemma store_trace : forall s diff, exists st dn, fst (store s diff) = st ++ dn /\ (forall k c, ~ In (ECall k c) st) /\ (forall m, ~ In (EStore m) dn) /\ (forall k c, In (ECall k c) dn -> k = KDone) /\
  (dn <> [] -> st = map (fun x => EStore (fst x)) (s_store s)) /\
  (snd (store s diff) = false -> (diff = true \/ s_store s <> []) -> st = map (fun x => EStore (fst x)) (s_store s) /\ exists rs, dn = ev_calls KDone rs /\ notify (s_alive_d s) (s_env_d s) KDone no_err (if diff then s_mods s else []) = (rs, OOk)).
Proof.
  intros s diff. unfold store. destruct (negb diff && match s_store s with [] => true | _ => false end) eqn:N0.
  { exists [], []. repeat split; auto; try (intros k c []); try (intros m []); try (intros; contradiction). all: intros; exfalso; apply andb_true_iff in N0; destruct N0 as (N1 & N2); apply negb_true_iff in N1; destruct (s_store s); [|discriminate]; destruct H0 as [H0|H0]; [congruence|apply H0; reflexivity]. }
  destruct (s_upgrade s); cbn [negb].
  2:{ exists [], []. repeat split; auto; try (intros k c []); try (intros m []); try (intros; contradiction); intros; cbn in *; discriminate. }
  destruct (snd (data_store (s_store s))) eqn:Ds.
  { exists (fst (data_store (s_store s))), []. rewrite app_nil_r. split; [reflexivity|]. split; [intros k c; apply data_store_no_call|]. split; [intros m []|]. split; [intros k c []|]. split; [intros; contradiction|]. intros H. congruence. }
  destruct (data_store_ok _ Ds) as (Eq & _).
  destruct (s_downgrade s); cbn [negb].
  2:{ exists (fst (data_store (s_store s))), []. rewrite app_nil_r. split; [reflexivity|]. split; [intros k c; apply data_store_no_call|]. split; [intros m []|]. split; [intros k c []|]. split; [intros; contradiction|]. intros H. cbn in H. discriminate. }
  destruct (notify (s_alive_d s) (s_env_d s) KDone no_err (if diff then s_mods s else [])) as (rs & o). cbn [fst snd].
  exists (fst (data_store (s_store s))), (ev_calls KDone rs). split; [destruct o; reflexivity|]. split; [intros k c; apply data_store_no_call|]. split; [intros m; apply ev_no_store|]. split; [intros k c H; apply ev_in in H; apply H|]. split; [intros _; exact Eq|]. intros H _. split; [exact Eq|]. exists rs. split; [reflexivity|]. destruct o; [reflexivity|cbn in H; discriminate|cbn in H; discriminate|cbn in H; discriminate].
Qed.

Lemma store_change : forall s diff c, ~ In (ECall KChange c) (fst (store s diff)).
Proof. intros s diff c H. destruct (store_trace s diff) as (st & dn & Es & A & _ & B & _). rewrite Es in H. apply in_app_or in H. destruct H as [H|H]; [exact (A _ _ H)|]. specialize (B _ _ H). discriminate. Qed.

(** All ways the change events were sent. *)
Lemma diff_path : forall s, s_diff s = true -> s_diff1 s = true -> s_diff2 s = true ->
  (apply_changes s = ([], true) /\ ~ asked s) \/
  (asked s /\ exists rs o, notify (s_alive_c s) (s_env_c s) KChange no_err (s_mods s) = (rs, o) /\
    match o with
    | OOk => apply_changes s = (ev_calls KChange rs ++ fst (store s true), snd (store s true))
    | ORefused => apply_changes s = (ev_calls KChange rs ++ ev_calls KAbort (fst (notify (s_alive_a s) (s_env_a s) KAbort (errors rs) (s_mods s))), true)
    | _ => apply_changes s = (ev_calls KChange rs, true)
    end).
Proof.
  intros s D0 D1 D2. unfold apply_changes, notify_store, asked. rewrite D0, D1, D2. destruct (s_collect s); cbn [negb]; [|left; split; [reflexivity|intros (X & _); discriminate]].
  destruct (s_nacm s); cbn [negb]; [|left; destruct (s_edit s); (split; [reflexivity|]); intros (_ & _ & _ & X & _); discriminate].
  destruct (s_valid s); [|left; destruct (s_edit s); (split; [reflexivity|]); intros (_ & _ & _ & _ & X & _); discriminate|left; destruct (s_edit s); (split; [reflexivity|]); intros (_ & _ & _ & _ & X & _); discriminate].
  destruct (s_perm s); cbn [negb]; [|left; destruct (s_edit s); (split; [reflexivity|]); intros (_ & _ & _ & _ & _ & _ & X & _); discriminate].
  destruct (s_sublock s); cbn [negb]; [|left; destruct (s_edit s); (split; [reflexivity|]); intros (_ & _ & _ & _ & _ & _ & _ & X & _); discriminate].
  destruct (s_update s); [|left; destruct (s_edit s); (split; [reflexivity|]); intros (_ & _ & _ & _ & _ & _ & _ & _ & X & _); discriminate|left; destruct (s_edit s); (split; [reflexivity|]); intros (_ & _ & _ & _ & _ & _ & _ & _ & X & _); discriminate].
  destruct (s_edit s); [|left; split; [reflexivity|]; intros (_ & X & _); discriminate|left; split; [reflexivity|]; intros (_ & X & _); discriminate].
  right. split; [auto 12|]. destruct (notify (s_alive_c s) (s_env_c s) KChange no_err (s_mods s)) as (rs & o). exists rs, o. split; [reflexivity|]. cbn [fst snd]. destruct o; reflexivity.
Qed.

Section S.
Variable E : Type.
Lemma upd_same : forall (p : pending E) d l, upd E p d l d = l.
Proof. intros. unfold upd. rewrite Nat.eqb_refl. reflexivity. Qed.

Lemma srun_spec : forall (h : list (sop E)) ds, srun E h ds = pending_spec E (rev h) ds.
Proof.
  intros h. induction h as [|o h IH] using rev_ind; intros ds; [reflexivity|]. unfold srun in *. rewrite fold_left_app, rev_app_distr. cbn [fold_left rev app]. set (p := fold_left (sstep E) h (fun _ => [])) in *.
  destruct o as [d e r|d es ok|d s|d]; cbn [sstep pending_spec].
  - unfold s_add. rewrite <- IH. cbn [fst]. destruct r; unfold upd; destruct (Nat.eqb_spec ds d) as [->|]; reflexivity.
  - unfold s_batch. rewrite <- IH. destruct (Nat.eqb_spec ds d) as [->|Ne].
    + destruct (p d) eqn:Pd; [destruct ok; cbn [fst andb]; [apply upd_same|exact Pd]|exact Pd].
    + cbn [andb]. assert (X : fst (match p d with [] => if ok then (upd E p d es, false) else (p, true) | _ => (p, true) end) ds = p ds).
      { destruct (p d); [destruct ok|]; cbn [fst]; try reflexivity. unfold upd. destruct (Nat.eqb_spec ds d); [contradiction|reflexivity]. }
      rewrite X. destruct (p ds); reflexivity.
  - unfold s_apply. rewrite <- IH. destruct (p d) eqn:Pd; cbn [fst].
    + destruct (Nat.eqb_spec ds d) as [->|]; cbn [andb]; [rewrite Pd; destruct (snd (apply_changes s)); reflexivity|reflexivity].
    + destruct (snd (apply_changes s)); cbn [fst negb]; [rewrite andb_false_r; reflexivity|]. rewrite andb_true_r. unfold upd. destruct (Nat.eqb_spec ds d); reflexivity.
  - unfold s_discard, upd. rewrite <- IH. destruct (Nat.eqb_spec ds d); reflexivity.
Qed.
End S.
