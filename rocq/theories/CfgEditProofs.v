(** Proofs about editing with sysrepocfg. *)
From Coq Require Import List Bool Arith Lia.
From Verif Require Import CfgEdit CfgEditSpec.
Import ListNotations.

Lemma write_len : forall d m v, length (write m v d) = length d.
Proof. induction d as [|x t IH]; intros [|m] v; cbn; auto. Qed.
Lemma write_nth : forall d m v k, k <> m -> nth_error (write m v d) k = nth_error d k.
Proof.
  induction d as [|x t IH]; intros [|m] v [|k] N; cbn; try reflexivity; try congruence. apply IH. congruence.
Qed.
Lemma play_app : forall a b d, play (a ++ b) d = play b (play a d).
Proof. induction a as [|[m v] a IH]; intros b d; cbn; auto. Qed.
Lemma play_len : forall ws d, length (play ws d) = length d.
Proof. induction ws as [|[m v] t IH]; intros d; cbn; [reflexivity|]. now rewrite IH, write_len. Qed.
Lemma others_spec : forall locked ws d d' a, others locked ws d = (d', a) -> d' = play a d /\ Forall (fun w => locked (fst w) = false) a /\
  (forall w, In w a <-> In w ws /\ locked (fst w) = false).
Proof.
  intros locked ws. induction ws as [|[m v] t IH]; intros d d' a H; cbn [others] in H.
  - injection H as <- <-. split; [reflexivity|]. split; [constructor|]. intros w. split; [intros []|intros [[] _]].
  - destruct (locked m) eqn:L.
    + destruct (IH _ _ _ H) as (E & F & G). split; [exact E|]. split; [exact F|]. intros w. rewrite G. cbn [In]. split; [tauto|]. intros [[<-|I] K]; [cbn in K; congruence|tauto].
    + destruct (others locked t (write m v d)) as [d0 a0] eqn:O. injection H as <- <-. destruct (IH _ _ _ O) as (E & F & G). split; [exact E|]. split; [now constructor|].
      intros w. cbn [In]. rewrite G. split; [intros [<-|[I K]]; auto|]. intros [[<-|I] K]; auto.
Qed.
Lemma play_sel : forall ws d m, Forall (fun w => fst w <> m) ws -> nth_error (play ws d) m = nth_error d m.
Proof.
  intros ws d m F. revert d. induction F as [|[k v] t N F IH]; intros d; cbn [play]; [reflexivity|]. rewrite IH. apply write_nth. cbn in N. congruence.
Qed.
Lemma export_len : forall sel d i, length (export sel i d) = length d.
Proof. intros sel. induction d as [|v t IH]; intros i; cbn; auto. Qed.
Lemma export_nth : forall sel d i m v, nth_error d m = Some v -> nth_error (export sel i d) m = Some (if sel (i + m) then Some v else None).
Proof.
  intros sel. induction d as [|x t IH]; intros i [|m] v H; cbn in *; try discriminate.
  - injection H as ->. now rewrite Nat.add_0_r.
  - rewrite (IH (S i) m v H). now rewrite Nat.add_succ_comm.
Qed.
Lemma import_len : forall sel new d i, length (import sel i new d) = length d.
Proof. intros sel new. induction d as [|v t IH]; intros i; cbn; auto. Qed.
Lemma import_nth : forall sel new d i m v, nth_error d m = Some v -> nth_error (import sel i new d) m = Some (if sel (i + m) then nth (i + m) new 0 else v).
Proof.
  intros sel new. induction d as [|x t IH]; intros i [|m] v H; cbn in *; try discriminate.
  - injection H as ->. now rewrite Nat.add_0_r.
  - rewrite (IH (S i) m v H). now rewrite Nat.add_succ_comm.
Qed.

Lemma read_loop_ok : forall fuel size mem input, size > 0 -> length mem <= size -> fuel > length input ->
  exists size', read_loop fuel size mem input = (mem ++ input, size') /\ length (mem ++ input) < size'.
Proof.
  induction fuel as [|n IH]; intros size mem input S0 L F; [lia|]. cbn [read_loop].
  set (sz := if Nat.eqb (length mem) size then size + size else size).
  assert (length mem < sz /\ sz > 0) as [L2 S2] by (unfold sz; destruct (Nat.eqb (length mem) size) eqn:E; [apply Nat.eqb_eq in E; lia|apply Nat.eqb_neq in E; lia]).
  destruct (Nat.eqb (length (mem ++ firstn (sz - length mem) input)) sz) eqn:E.
  - apply Nat.eqb_eq in E. rewrite app_length, firstn_length in E. destruct (IH sz (mem ++ firstn (sz - length mem) input) (skipn (sz - length mem) input)) as (s & R & K).
    + exact S2.
    + rewrite app_length, firstn_length. lia.
    + rewrite skipn_length. lia.
    + rewrite <- app_assoc, firstn_skipn in R, K. eauto.
  - apply Nat.eqb_neq in E. rewrite app_length, firstn_length in E. exists sz. rewrite (firstn_all2 input) by lia. split; [reflexivity|]. rewrite app_length. lia.
Qed.
