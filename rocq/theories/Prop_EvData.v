(** C24: originator data and error data reach the other side unchanged. *)
From Coq Require Import List NArith.
From Verif Require Import Base BaseLemmas EvData EvDataSpec EvDataProofs2.
Import ListNotations.
Open Scope N_scope.

(** Chunks pushed one by one are read back by index, in order, unchanged; an index past
    the last one is reported as not found; nothing outside of the block is ever touched. *)
Theorem C24_push_get_roundtrip : forall fill chunks,
  packed_size chunks < 2 ^ 32 ->
  exists blk, ev_push_all fill None chunks = Some blk /\
    forall idx, ev_data_get blk idx = Some (get_spec chunks idx).
Proof. exact push_get. Qed.
Print Assumptions C24_push_get_roundtrip.

Example C24_push_get_example :
  packed_size [[1; 2; 3]; []; [9]] < 2 ^ 32 /\
  match ev_push_all 77 None [[1; 2; 3]; []; [9]] with
  | Some blk =>
    ev_data_get blk 0 = Some (EvChunk 3 [1; 2; 3]) /\
    ev_data_get blk 1 = Some (EvChunk 0 []) /\
    ev_data_get blk 2 = Some (EvChunk 1 [9]) /\
    ev_data_get blk 3 = Some EvNotFound
  | None => False
  end.
Proof. vm_compute. repeat split. Qed.

(** Whatever the data segment held before, a listener reads the originator's name, every
    chunk of its data, the xpath and the event data exactly as they were published. *)
Theorem C24_originator_transport : forall fill shm name chunks xpath data,
  packed_size chunks < 2 ^ 32 ->
  shm_size (N.of_nat (length name) + 1) + shm_size (packed_size chunks) < 2 ^ 32 ->
  c_string name ->
  match xpath with Some x => c_string x | None => True end ->
  (xpath <> None \/ data <> []) ->
  exists blk shm' od off,
    ev_push_all fill None chunks = Some blk /\
    notify_write_data shm name blk xpath data = Some shm' /\
    session_read_orig shm' = Some (name, od, off) /\
    (forall idx, ev_data_get (Some od) idx = Some (get_spec chunks idx)) /\
    match xpath with
    | None => read_at shm' off (N.of_nat (length data)) = Some data /\
              N.of_nat (length shm') = off + N.of_nat (length data)
    | Some x =>
      strlen_at shm' off = Some (N.of_nat (length x)) /\
      read_at shm' off (N.of_nat (length x)) = Some x /\
      exists xl, strshmlen_at shm' off = Some xl /\
        read_at shm' (off + xl) (N.of_nat (length data)) = Some data /\
        N.of_nat (length shm') = off + xl + N.of_nat (length data)
    end.
Proof. exact orig_transport. Qed.
Print Assumptions C24_originator_transport.

Example C24_originator_example :
  match ev_push_all 5 None [[1; 2]; [3]] with
  | Some blk =>
    match notify_write_data [1; 1; 1] [110; 101] blk (Some [47; 109]) [7; 8; 9] with
    | Some shm' => session_read_orig shm' =
        Some ([110; 101], [2; 0; 0; 0; 2; 0; 0; 0; 1; 2; 1; 0; 0; 0; 3], 24) /\
        read_at shm' 32 3 = Some [7; 8; 9]
    | None => False
    end
  | None => False
  end.
Proof. vm_compute. repeat split. Qed.

(** Every list of errors set by a callback (code, message, format, data chunks) is received
    by the originator with the same number, order and contents of errors. *)
Theorem C24_error_transport : forall fill fill' es stored junk,
  Forall user_error_ok es -> N.of_nat (length es) < 2 ^ 32 ->
  Forall2 (set_by fill) es stored ->
  exists buf received,
    prepare_error fill' stored = Some buf /\
    read_error_info (buf ++ junk) = Some received /\
    Forall2 same_error es received.
Proof. exact error_transport. Qed.
Print Assumptions C24_error_transport.

Example C24_error_example :
  let e1 := {| ue_code := 5; ue_msg := [104; 105]; ue_fmt := Some [102]; ue_chunks := [[1; 0; 2]; []] |} in
  let e2 := {| ue_code := 13; ue_msg := []; ue_fmt := None; ue_chunks := [] |} in
  Forall user_error_ok [e1; e2] /\ (exists stored, Forall2 (set_by 3) [e1; e2] stored).
Proof.
  cbn zeta.
  assert (H : Forall user_error_ok
     [{| ue_code := 5; ue_msg := [104; 105]; ue_fmt := Some [102]; ue_chunks := [[1; 0; 2]; []] |};
      {| ue_code := 13; ue_msg := []; ue_fmt := None; ue_chunks := [] |}]).
  { repeat constructor; cbn; try congruence;
      intro K; repeat (destruct K as [K|K]; try discriminate); exact K. }
  split; [exact H|].
  inversion H as [|? ? H1 H']; subst. inversion H' as [|? ? H2 _]; subst.
  destruct (set_by_exists 3 _ H1) as [s1 S1]. destruct (set_by_exists 3 _ H2) as [s2 S2].
  exists [s1; s2]. auto.
Qed.

(** The size limit is needed: the API accepts a chunk of 2^32 - 8 bytes, but the size of the
    new block wraps around and the block is written outside of its bounds. *)
Theorem C24_push_total_refuted :
  exists c : list N, N.of_nat (length c) < 2 ^ 32 /\ forall fill, ev_data_push fill None c = None.
Proof.
  exists (repeat 0 (N.to_nat (two32 - 8))). split.
  - rewrite repeat_length, Nnat.N2Nat.id. reflexivity.
  - intros. apply push_wrap. rewrite nlen_repeat, Nnat.N2Nat.id. reflexivity.
Qed.
Print Assumptions C24_push_total_refuted.
