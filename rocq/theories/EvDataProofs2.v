From Coq Require Import List NArith ZArith Lia Bool.
From Verif Require Import Base BaseLemmas EvData EvDataProofs EvDataSpec.
Import ListNotations.
Open Scope N_scope.

Lemma packed_size_enc : forall cs, packed_size cs = nlen (enc cs).
Proof.
  intros. rewrite nlen_enc. unfold packed_size. f_equal.
  induction cs; cbn [fold_right encs]; [reflexivity|].
  rewrite nlen_app, nlen_enc1, IHcs. unfold nlen. lia.
Qed.

Definition get_spec (cs : list (list N)) (idx : N) : ev_get_res :=
  match chunk_spec cs idx with
  | Some c => EvChunk (N.of_nat (length c)) c
  | None => EvNotFound
  end.

Lemma push_get : forall fill chunks,
  packed_size chunks < 2 ^ 32 ->
  exists blk, ev_push_all fill None chunks = Some blk /\
    forall idx, ev_data_get blk idx = Some (get_spec chunks idx).
Proof.
  intros fill chunks H. rewrite packed_size_enc in H. change (2 ^ 32) with two32 in H.
  rewrite push_all_none by assumption. eexists. split; [reflexivity|].
  intros idx. unfold get_spec, chunk_spec. destruct chunks.
  - cbn. destruct (N.to_nat idx); reflexivity.
  - rewrite <- (app_nil_r (enc (l :: chunks))). apply get_enc. assumption.
Qed.

(** The block stored for chunks, NULL being sent as empty data. *)
Lemma blk_enc : forall (cs : list (list N)),
  match (match cs with [] => None | _ => Some (enc cs) end) with
  | Some d => d | None => empty_data end = enc cs.
Proof. intros []; reflexivity. Qed.

Lemma notify_none_eq : forall shm name cs xpath data,
  notify_write_data shm name (match cs with [] => None | _ => Some (enc cs) end) xpath data =
  notify_write_data shm name (Some (enc cs)) xpath data.
Proof. intros. unfold notify_write_data. rewrite blk_enc. reflexivity. Qed.

Lemma orig_transport : forall fill shm name chunks xpath data,
  packed_size chunks < 2 ^ 32 ->
  shm_size (N.of_nat (length name) + 1) + shm_size (packed_size chunks) < 2 ^ 32 ->
  c_string name ->
  match xpath with Some x => c_string x | None => True end ->
  (xpath <> None \/ data <> []) ->
  exists blk shm' od off,
    ev_push_all fill None chunks = Some blk /\
    notify_write_data shm name blk xpath data = Some shm' /\
    session_read_orig shm' = Some (name, od, off) /\
    (forall idx, ev_data_get (Some od) idx = Some (get_spec chunks idx)) /\
    match xpath with
    | None => read_at shm' off (N.of_nat (length data)) = Some data /\
              N.of_nat (length shm') = off + N.of_nat (length data)
    | Some x =>
      strlen_at shm' off = Some (N.of_nat (length x)) /\
      read_at shm' off (N.of_nat (length x)) = Some x /\
      exists xl, strshmlen_at shm' off = Some xl /\
        read_at shm' (off + xl) (N.of_nat (length data)) = Some data /\
        N.of_nat (length shm') = off + xl + N.of_nat (length data)
    end.
Proof.
  intros fill shm name chunks xpath data H Ht Hn Hx Hne.
  rewrite packed_size_enc in *. change (2 ^ 32) with two32 in *.
  fold (nlen name) in *.
  rewrite push_all_none by assumption.
  destruct (notify_write_shape shm name chunks xpath data H Ht Hne) as (g1 & g2 & g3 & E & L1 & L2 & L3).
  eexists _, _, _, _. split; [reflexivity|]. split; [rewrite notify_none_eq; exact E|].
  split; [apply session_read_shape; assumption|].
  split.
  { intros idx. rewrite <- (app_nil_r (enc chunks)). apply get_enc. assumption. }
  fold (nlen data).
  set (pre := cstr name ++ g1 ++ enc chunks ++ g2).
  assert (Lp : shm_size (nlen name + 1) + shm_size (nlen (enc chunks)) = nlen pre).
  { unfold pre. rewrite <- L1, <- L2. rewrite !nlen_app. lia. }
  rewrite Lp.
  replace (cstr name ++ g1 ++ enc chunks ++ g2 ++
           match xpath with Some x => cstr x ++ g3 | None => [] end ++ data)
     with (pre ++ match xpath with Some x => cstr x ++ g3 | None => [] end ++ data)
     by (unfold pre; rewrite <- !app_assoc; reflexivity).
  destruct xpath as [x|].
  - fold (nlen x).
    assert (Es : strlen_at (pre ++ (cstr x ++ g3) ++ data) (nlen pre) = Some (nlen x)).
    { unfold strlen_at. rewrite nskipn_app_exact by reflexivity. rewrite <- app_assoc.
      apply strlen_cstr. assumption. }
    split; [exact Es|]. split.
    + unfold cstr. rewrite <- !app_assoc. apply read_at_mid; reflexivity.
    + exists (shm_size (nlen x + 1)). split.
      { unfold strshmlen_at. rewrite Es. reflexivity. }
      split.
      * rewrite app_assoc. rewrite <- (app_nil_r data) at 1. apply read_at_mid; [|reflexivity].
        rewrite nlen_app, L3. reflexivity.
      * change (nlen (pre ++ (cstr x ++ g3) ++ data) = nlen pre + shm_size (nlen x + 1) + nlen data).
        rewrite <- L3, !nlen_app. lia.
  - cbn [app]. split.
    + rewrite <- (app_nil_r data) at 1. apply read_at_mid; reflexivity.
    + change (nlen (pre ++ data) = nlen pre + nlen data). apply nlen_app.
Qed.

(** The error as stored in the error structure of a callback's session. *)
Definition stored_error (blk : option (list N)) (e : user_error) : cb_err :=
  {| e_code := ue_code e; e_msg := ue_msg e; e_fmt := ue_fmt e; e_data := blk |}.

(** The received error [r] says the same as the error [e] set by the callback. *)
Definition same_error (e : user_error) (r : cb_err) : Prop :=
  e_code r = ue_code e /\ e_msg r = ue_msg e /\ e_fmt r = ue_fmt e /\
  forall idx, ev_data_get (e_data r) idx = Some (get_spec (ue_chunks e) idx).

Definition set_by (fill : N) (e : user_error) (s : cb_err) : Prop :=
  exists blk, ev_push_all fill None (ue_chunks e) = Some blk /\ s = stored_error blk e.

Lemma set_by_ok : forall fill e s, user_error_ok e -> set_by fill e s -> err_ok s.
Proof.
  intros fill e s (H1 & H2 & H3 & H4) (blk & Hp & ->).
  rewrite packed_size_enc in H4. change (2 ^ 32) with two32 in *.
  rewrite push_all_none in Hp by assumption. apply Some_inj in Hp. subst blk.
  unfold err_ok, stored_error. cbn [e_code e_msg e_fmt e_data].
  repeat split; try assumption.
  - destruct (ue_fmt e); [assumption|]. rewrite H3. reflexivity.
  - destruct (ue_chunks e) eqn:E; [exact I|]. exists (l :: l0). auto.
Qed.

Lemma set_by_same : forall fill e s, user_error_ok e -> set_by fill e s -> same_error e (err_read s).
Proof.
  intros fill e s (H1 & H2 & H3 & H4) (blk & Hp & ->).
  destruct (push_get fill (ue_chunks e) H4) as (blk' & Hp' & Hg).
  rewrite Hp in Hp'. apply Some_inj in Hp'. subst blk'.
  unfold same_error, err_read, stored_error. cbn [e_code e_msg e_fmt e_data].
  repeat split; try reflexivity.
  intros idx. destruct (ue_fmt e).
  - destruct blk; [apply Hg|]. rewrite <- Hg.
    change (Some empty_data) with (Some (enc [] ++ [])).
    rewrite get_enc by reflexivity. cbn. destruct (N.to_nat idx); reflexivity.
  - rewrite H3 in *. cbn [ev_data_get]. unfold get_spec, chunk_spec.
    destruct (N.to_nat idx); reflexivity.
Qed.

Lemma error_transport : forall fill fill' es stored junk,
  Forall user_error_ok es -> N.of_nat (length es) < 2 ^ 32 ->
  Forall2 (set_by fill) es stored ->
  exists buf received,
    prepare_error fill' stored = Some buf /\
    read_error_info (buf ++ junk) = Some received /\
    Forall2 same_error es received.
Proof.
  intros fill fill' es stored junk HF HL H2.
  assert (HS : Forall err_ok stored).
  { clear HL. induction H2; constructor; inversion HF; subst.
    - eapply set_by_ok; eassumption.
    - auto. }
  assert (HLs : nlen stored < two32).
  { unfold nlen. rewrite <- (Forall2_len _ _ _ _ _ H2). assumption. }
  destruct (error_roundtrip fill' stored junk HS HLs) as (buf & Eb & Er).
  exists buf, (map err_read stored). split; [assumption|]. split; [assumption|].
  clear - HF H2. induction H2; cbn [map]; constructor; inversion HF; subst.
  - eapply set_by_same; eassumption.
  - auto.
Qed.

(** Setting the errors never fails. *)
Lemma set_by_exists : forall fill e, user_error_ok e -> exists s, set_by fill e s.
Proof.
  intros fill e (_ & _ & _ & H). destruct (push_get fill _ H) as (blk & E & _).
  exists (stored_error blk e), blk. auto.
Qed.

(** A single chunk whose size is within the uint32_t parameter of the API but whose
    packed size is not representable is written outside of the allocated block. *)
Lemma push_wrap : forall fill c, nlen c = two32 - 8 -> ev_data_push fill None c = None.
Proof.
  intros fill c H. unfold ev_data_push. rewrite H.
  change (u32 (4 + 4 + (two32 - 8))) with 0. cbn [obind N.to_nat repeat].
  reflexivity.
Qed.
