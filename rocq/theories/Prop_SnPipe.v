(** C46: notifications written for a receiver are read whole and in order. *)
From Coq Require Import NArith List Bool Arith Lia.
From Verif Require Import SnPipe.
Import ListNotations.

(** A timestamp has 16 bytes, a notification is not empty and its size is of 32 bits. *)
Definition proper (m : msg) : Prop := length (m_ts m) = 16 /\ m_data m <> [] /\ (N.of_nat (length (m_data m)) < 4294967296)%N.
(** Whole it fits into what is written at once. *)
Definition short (pb : nat) (m : msg) : Prop := proper m /\ 20 + length (m_data m) <= pb.
Definition sends (P : msg -> Prop) (o : op) : Prop := match o with Send _ m => P m | _ => True end.
Definition not_eof (r : result) : bool := match r with Eof => false | _ => true end.
Definition got (p : pipe) : list result := filter not_eof (p_got p).

Lemma put32_length n : length (put32 n) = 4.
Proof. reflexivity. Qed.
Lemma get_put n : (n < 4294967296)%N -> get32 (put32 n) = n.
Proof.
  intros H. unfold get32, put32. cbn [map]. rewrite !N2Nat.id.
  rewrite (N.div_mod n 256) at 5 by discriminate. replace (n / 65536)%N with (n / 256 / 256)%N by (rewrite N.div_div by discriminate; reflexivity).
  replace (n / 16777216)%N with (n / 256 / 256 / 256)%N by (rewrite !N.div_div by discriminate; reflexivity).
  assert (A : (n / 256 / 256 / 256 < 256)%N) by (rewrite !N.div_div by discriminate; apply N.div_lt_upper_bound; [discriminate|exact H]).
  rewrite (N.mod_small (n / 256 / 256 / 256)) by exact A.
  pose proof (N.div_mod (n / 256) 256 ltac:(discriminate)) as B. pose proof (N.div_mod (n / 256 / 256) 256 ltac:(discriminate)) as C. lia.
Qed.
Lemma enc_length m : proper m -> length (enc m) = 20 + length (m_data m).
Proof. intros (A & _ & _). unfold enc. rewrite !app_length, A, put32_length. lia. Qed.
Lemma firstn_exact {A} (a b : list A) n : length a = n -> firstn n (a ++ b) = a.
Proof. intros <-. rewrite firstn_app, Nat.sub_diag, firstn_all. apply app_nil_r. Qed.
Lemma skipn_exact {A} (a b : list A) n : length a = n -> skipn n (a ++ b) = b.
Proof. intros <-. rewrite skipn_app, Nat.sub_diag, skipn_all. reflexivity. Qed.

Section P.
Variables (pb cap : nat) (nonblock : bool).
(** What is in the pipe: the rest of the notification being read and whole notifications. *)
Definition rest_of (r : rstate) (c : list msg) : option (list nat) :=
  match r, c with
  | RTs, [] => Some []
  | RSize ts, [m] => if list_eq_dec Nat.eq_dec ts (m_ts m) then Some (put32 (N.of_nat (length (m_data m))) ++ m_data m) else None
  | RData ts n, [m] => if list_eq_dec Nat.eq_dec ts (m_ts m) then if Nat.eqb n (length (m_data m)) then Some (m_data m) else None else None
  | _, _ => None
  end.
Record inv (p : pipe) : Prop := mkinv {
  i_pend : p_pend p = [];
  i_proper : Forall proper (p_sent p);
  i_bytes : exists done cur q r, p_sent p = done ++ cur ++ q /\ got p = map Got done /\ rest_of (p_read p) cur = Some r /\ p_bytes p = r ++ flat_map enc q }.

Lemma inv_step p o : inv p -> sends (short pb) o -> inv (step pb cap nonblock p o).
Proof.
  intros [A B (done & cur & q & r & C1 & C2 & C3 & C4)] S0. destruct p as [by_ pend cl rd sent g]. unfold got in *. cbn [p_pend p_sent p_got p_read p_bytes p_closed] in *. subst pend by_ sent.
  destruct o as [w m|w k| |]; cbn [step sends] in *.
  - unfold send, pending. cbn [p_closed p_pend find option_map]. destruct cl; [constructor; unfold got; cbn; eauto 12|].
    destruct S0 as (Pm & Sm). rewrite (enc_length m Pm). destruct (Nat.leb_spec (20 + length (m_data m)) pb) as [_|?]; [|lia].
    destruct (Nat.leb _ cap); [|constructor; unfold got; cbn; eauto 12].
    constructor; unfold got; cbn [p_pend p_sent p_got p_read p_bytes p_closed]; [reflexivity|apply Forall_app; split; [exact B|constructor; [exact Pm|constructor]]|].
    exists done, cur, (q ++ [m]), r. split; [rewrite <- !app_assoc; reflexivity|]. split; [exact C2|]. split; [exact C3|]. rewrite flat_map_app. cbn [flat_map]. rewrite app_nil_r, app_assoc. reflexivity.
  - unfold part, pending. cbn [p_pend find option_map]. constructor; unfold got; cbn; eauto 12.
  - unfold close. cbn [p_pend]. constructor; unfold got; cbn; eauto 12.
  - unfold reading. cbn [p_read p_bytes p_closed]. destruct rd as [|ts|ts n].
    + destruct cur as [|]; [|discriminate C3]. cbn in C3. injection C3 as <-. cbn [app]. destruct q as [|m q].
      * cbn [flat_map]. destruct cl.
        -- unfold fails. constructor; unfold got; cbn [p_pend p_sent p_got p_read p_bytes p_closed]; [reflexivity|exact B|]. exists done, [], [], []. split; [reflexivity|]. split; [rewrite filter_app; cbn; rewrite app_nil_r; exact C2|]. split; reflexivity.
        -- constructor; unfold got; cbn [p_pend p_sent p_got p_read p_bytes p_closed]; [reflexivity|exact B|]. exists done, [], [], []. split; [reflexivity|]. split; [exact C2|]. split; reflexivity.
      * assert (Pm : proper m) by (apply Forall_app in B as (_ & B); inversion B; assumption).
        pose proof Pm as (Lt & _ & _). cbn [flat_map]. unfold enc at 1. rewrite <- !app_assoc. cbn [p_bytes].
        assert (L16 : Nat.ltb (length (m_ts m ++ put32 (N.of_nat (length (m_data m))) ++ m_data m ++ flat_map enc q)) 16 = false) by (apply Nat.ltb_ge; rewrite app_length, Lt; lia).
        destruct (m_ts m ++ put32 (N.of_nat (length (m_data m))) ++ m_data m ++ flat_map enc q) as [|b0 bs] eqn:E; [apply (f_equal (@length nat)) in E; rewrite app_length, Lt in E; cbn in E; lia|].
        rewrite L16, <- E. rewrite (firstn_exact _ _ 16 Lt), (skipn_exact _ _ 16 Lt).
        constructor; unfold got; cbn [p_pend p_sent p_got p_read p_bytes p_closed]; [reflexivity|exact B|]. exists done, [m], q, (put32 (N.of_nat (length (m_data m))) ++ m_data m).
        split; [reflexivity|]. split; [exact C2|]. split; [cbn [rest_of]; destruct (list_eq_dec _ _ _); [reflexivity|contradiction]|rewrite <- app_assoc; reflexivity].
    + destruct cur as [|m [|]]; try discriminate C3. cbn [rest_of] in C3. destruct (list_eq_dec _ _ _) as [->|]; [|discriminate C3]. assert (Er : r = put32 (N.of_nat (length (m_data m))) ++ m_data m) by congruence. clear C3. subst r.
      assert (Pm : proper m) by (apply Forall_app in B as (_ & B); inversion B; assumption). pose proof Pm as (Lt & Ne & Lz).
      rewrite <- !app_assoc. remember (m_data m ++ flat_map enc q) as tl eqn:Et.
      assert (P4 : exists b0 bs, put32 (N.of_nat (length (m_data m))) ++ tl = b0 :: bs) by (eexists; eexists; reflexivity). destruct P4 as (b0 & bs & E).
      assert (L4 : Nat.ltb (length (b0 :: bs)) 4 = false) by (apply Nat.ltb_ge; rewrite <- E, app_length, put32_length; lia).
      rewrite E, L4, <- E. rewrite (firstn_exact _ _ 4 (put32_length _)), (skipn_exact _ _ 4 (put32_length _)), get_put by exact Lz. rewrite Nat2N.id.
      constructor; unfold got; cbn [p_pend p_sent p_got p_read p_bytes p_closed]; [reflexivity|exact B|]. exists done, [m], q, (m_data m).
      split; [reflexivity|]. split; [exact C2|]. split; [cbn [rest_of]; destruct (list_eq_dec _ _ _); [rewrite Nat.eqb_refl; reflexivity|contradiction]|exact Et].
    + destruct cur as [|m [|]]; try discriminate C3. cbn [rest_of] in C3. destruct (list_eq_dec _ _ _) as [->|]; [|discriminate C3]. destruct (Nat.eqb_spec n (length (m_data m))) as [->|]; [|discriminate C3]. injection C3 as <-.
      assert (Pm : proper m) by (apply Forall_app in B as (_ & B); inversion B; assumption). pose proof Pm as (Lt & Ne & Lz).
      assert (P1 : exists b0 bs, m_data m ++ flat_map enc q = b0 :: bs) by (destruct (m_data m); [contradiction|eexists; eexists; reflexivity]). destruct P1 as (b0 & bs & E).
      assert (Ln : Nat.ltb (length (b0 :: bs)) (length (m_data m)) = false) by (apply Nat.ltb_ge; rewrite <- E, app_length; lia).
      rewrite E, Ln, <- E. rewrite (firstn_exact _ _ _ eq_refl), (skipn_exact _ _ _ eq_refl). unfold fails.
      constructor; unfold got; cbn [p_pend p_sent p_got p_read p_bytes p_closed]; [reflexivity|exact B|]. exists (done ++ [m]), [], q, [].
      split; [rewrite <- !app_assoc; reflexivity|]. split; [rewrite filter_app, C2, map_app; destruct m; reflexivity|]. split; reflexivity.
Qed.
Lemma inv_run h : Forall (sends (short pb)) h -> inv (run pb cap nonblock h).
Proof.
  unfold run. assert (Q : forall p, inv p -> Forall (sends (short pb)) h -> inv (fold_left (step pb cap nonblock) h p)).
  { induction h as [|o h IH]; intros p P F; [exact P|]. inversion F; subst. cbn [fold_left]. apply IH; [now apply inv_step|assumption]. }
  apply Q. constructor; [reflexivity|constructor|]. exists [], [], [], []. split; [reflexivity|]. split; [reflexivity|]. split; reflexivity.
Qed.

(** With any number of writers, whatever the order of their writing and of the reading, what is read is what was
    sent: whole, unchanged, in order and without an error. *)
Theorem C46_intact_partial h : Forall (sends (short pb)) h ->
  exists rest, map Got (p_sent (run pb cap nonblock h)) = got (run pb cap nonblock h) ++ rest.
Proof. intros F. destruct (inv_run h F) as [_ _ (done & cur & q & r & C1 & C2 & _)]. exists (map Got (cur ++ q)). rewrite C1, C2, map_app. reflexivity. Qed.
(** Nothing is left when there is nothing to be read, so at the end of file everything has been read. *)
Theorem C46_all_partial h : Forall (sends (short pb)) h -> p_bytes (run pb cap nonblock h) = [] ->
  got (run pb cap nonblock h) = map Got (p_sent (run pb cap nonblock h)).
Proof.
  intros F E. destruct (inv_run h F) as [_ B (done & cur & q & r & C1 & C2 & C3 & C4)]. rewrite E in C4. symmetry in C4. apply app_eq_nil in C4 as (-> & C4).
  assert (Q : q = []).
  { destruct q as [|m q]; [reflexivity|]. cbn [flat_map] in C4. apply app_eq_nil in C4 as (C4 & _). apply (f_equal (@length nat)) in C4.
    assert (Pm : proper m) by (rewrite C1 in B; apply Forall_app in B as (_ & B); apply Forall_app in B as (_ & B); inversion B; assumption).
    rewrite (enc_length m Pm) in C4. cbn in C4. lia. }
  assert (K : cur = []).
  { destruct cur as [|m [|]]; [reflexivity| |destruct (p_read _); discriminate C3]. exfalso.
    assert (Pm : proper m) by (rewrite C1 in B; apply Forall_app in B as (_ & B); apply Forall_app in B as (B & _); inversion B; assumption). destruct Pm as (_ & Ne & _).
    destruct (p_read _) as [|ts|ts n]; cbn [rest_of] in C3; [discriminate C3| |]; (destruct (list_eq_dec _ _ _); [|discriminate C3]).
    - injection C3 as C3. discriminate C3.
    - destruct (Nat.eqb _ _); [|discriminate C3]. injection C3 as C3. contradiction. }
  subst. rewrite C1, C2, !app_nil_r. reflexivity.
Qed.
(** As long as something was not read, three more reads give another notification. *)
Theorem C46_progress_partial h : Forall (sends (short pb)) h -> p_bytes (run pb cap nonblock h) <> [] ->
  exists k, 1 <= k <= 3 /\ length (got (run pb cap nonblock (h ++ repeat Read k))) = S (length (got (run pb cap nonblock h))).
Proof.
  intros F NE.
  assert (Step : forall h', Forall (sends (short pb)) h' -> p_bytes (run pb cap nonblock h') <> [] ->
     match p_read (run pb cap nonblock h') with
     | RTs => exists ts, p_read (run pb cap nonblock (h' ++ [Read])) = RSize ts /\ p_bytes (run pb cap nonblock (h' ++ [Read])) <> [] /\ got (run pb cap nonblock (h' ++ [Read])) = got (run pb cap nonblock h')
     | RSize _ => exists ts n, p_read (run pb cap nonblock (h' ++ [Read])) = RData ts n /\ p_bytes (run pb cap nonblock (h' ++ [Read])) <> [] /\ got (run pb cap nonblock (h' ++ [Read])) = got (run pb cap nonblock h')
     | RData _ _ => length (got (run pb cap nonblock (h' ++ [Read]))) = S (length (got (run pb cap nonblock h')))
     end).
  { clear h F NE. intros h F NE. assert (F' : Forall (sends (short pb)) (h ++ [Read])) by (apply Forall_app; split; [exact F|constructor; [exact I|constructor]]).
    pose proof (inv_run h F) as J. pose proof (inv_run (h ++ [Read]) F') as J'.
    assert (R : run pb cap nonblock (h ++ [Read]) = reading nonblock (run pb cap nonblock h)) by (unfold run; rewrite fold_left_app; reflexivity). rewrite R in *. clear R F F'.
    set (p := run pb cap nonblock h) in *. clearbody p. destruct p as [by_ pend cl rd sent g]. cbn [p_read p_bytes] in *.
    assert (Fine : forall rest r, by_ = r :: rest -> True) by auto.
    destruct J as [A B (done & cur & q & r & C1 & C2 & C3 & C4)]. destruct J' as [A' B' (done' & cur' & q' & r' & C1' & C2' & C3' & C4')].
    unfold reading in *. cbn [p_read p_bytes p_sent] in *. destruct by_ as [|b0 bs] eqn:Eb; [contradiction|]. rewrite <- Eb in *. clear Eb Fine.
    unfold got in *. destruct rd as [|ts|ts n].
    - destruct (Nat.ltb (length by_) 16) eqn:L; cbn [p_read p_bytes p_got] in *.
      + exfalso. unfold fails in C2'. cbn [p_got] in C2'. rewrite filter_app in C2'. cbn in C2'. assert (Hi : In Broken (map Got done')) by (rewrite <- C2'; apply in_app_iff; right; left; reflexivity). apply in_map_iff in Hi as (? & ? & _). discriminate.
      + eexists. split; [reflexivity|]. split; [|reflexivity]. rewrite C4'. destruct cur' as [|m [|]]; try discriminate C3'. cbn [rest_of] in C3'. destruct (list_eq_dec _ _ _); [|discriminate C3']. injection C3' as <-. discriminate.
    - destruct (Nat.ltb (length by_) 4) eqn:L; cbn [p_read p_bytes p_got] in *.
      + exfalso. unfold fails in C2'. cbn [p_got] in C2'. rewrite filter_app in C2'. cbn in C2'. assert (Hi : In Broken (map Got done')) by (rewrite <- C2'; apply in_app_iff; right; left; reflexivity). apply in_map_iff in Hi as (? & ? & _). discriminate.
      + eexists. eexists. split; [reflexivity|]. split; [|reflexivity]. rewrite C4'. destruct cur' as [|m [|]]; try discriminate C3'. cbn [rest_of] in C3'. destruct (list_eq_dec _ _ _); [|discriminate C3']. destruct (Nat.eqb _ _); [|discriminate C3']. injection C3' as <-.
        assert (Pm : proper m) by (cbn [p_sent] in B', C1'; rewrite C1' in B'; apply Forall_app in B' as (_ & B'); inversion B'; assumption). destruct Pm as (_ & Ne & _). intros K. apply app_eq_nil in K as (K & _). contradiction.
    - destruct (Nat.ltb (length by_) n) eqn:L; cbn [p_read p_bytes p_got] in *.
      + exfalso. unfold fails in C2'. cbn [p_got] in C2'. rewrite filter_app in C2'. cbn in C2'. assert (Hi : In Broken (map Got done')) by (rewrite <- C2'; apply in_app_iff; right; left; reflexivity). apply in_map_iff in Hi as (? & ? & _). discriminate.
      + unfold fails. cbn [p_got]. rewrite filter_app, app_length. cbn. lia. }
  assert (FR : forall h', Forall (sends (short pb)) h' -> Forall (sends (short pb)) (h' ++ [Read])) by (intros h' F'; apply Forall_app; split; [exact F'|constructor; [exact I|constructor]]).
  pose proof (Step h F NE) as S1. destruct (p_read (run pb cap nonblock h)).
  - destruct S1 as (ts & R1 & N1 & G1). pose proof (Step _ (FR h F) N1) as S2. rewrite R1 in S2. destruct S2 as (ts2 & n & R2 & N2 & G2).
    pose proof (Step _ (FR _ (FR h F)) N2) as S3. rewrite R2 in S3. exists 3. split; [lia|]. cbn [repeat]. rewrite <- !app_assoc in S3. cbn [app] in S3. rewrite S3. f_equal. rewrite <- G1, <- G2, <- app_assoc. reflexivity.
  - destruct S1 as (ts1 & n & R1 & N1 & G1). pose proof (Step _ (FR h F) N1) as S2. rewrite R1 in S2. exists 2. split; [lia|]. cbn [repeat]. rewrite <- app_assoc in S2. cbn [app] in S2. rewrite S2, G1. reflexivity.
  - exists 1. split; [lia|]. exact S1.
Qed.
End P.
Print Assumptions C46_intact_partial.
Print Assumptions C46_all_partial.
Print Assumptions C46_progress_partial.

(** ** A pipe of Linux *)
Definition PIPE_BUF : nat := N.to_nat 4096.
Definition CAP : nat := N.to_nat 65536.
Definition ts0 : list nat := [1; 2; 3; 4; 5; 6; 7; 8; 0; 0; 0; 0; 0; 0; 0; 0].
Definition small1 : msg := mkmsg ts0 [10; 11; 12].
Definition small2 : msg := mkmsg ts0 [20].
Definition case : list op := [Send 1 small1; Read; Send 2 small2; Read; Send 1 small2; Read; Close; Read; Read; Read; Read; Read; Read; Read].
Example C46_example : Forall (sends (short PIPE_BUF)) case /\
  p_got (run PIPE_BUF CAP true case) = [Got small1; Got small2; Got small2; Eof].
Proof.
  split; [|vm_compute; reflexivity].
  assert (S0 : forall m, In m [small1; small2] -> short PIPE_BUF m).
  { intros m Hm. assert (L : length (m_ts m) = 16 /\ m_data m <> [] /\ length (m_data m) <= 3) by (destruct Hm as [<-|[<-|[]]]; cbn; do 2 (split; [discriminate || reflexivity|]); lia).
    destruct L as (L1 & L2 & L3). split; [split; [exact L1|]; split; [exact L2|lia]|]. unfold PIPE_BUF. lia. }
  unfold case. repeat (apply Forall_cons; [first [exact I|apply S0; cbn; auto]|]). apply Forall_nil.
Qed.

(** ** Counterexamples *)
Definition long : msg := mkmsg ts0 (repeat 7 (N.to_nat 4097)).
(** F122: a notification longer than what is written at once. The reader comes when a part of it is in the pipe:
    reading fails, and the rest of it is then read as if it were the next notification. *)
Theorem C46_long_refuted : exists h, Forall (fun o => match o with Send w m => w = 1 /\ m = long | _ => True end) h /\
  p_sent (run PIPE_BUF CAP false h) = [long] /\ hd Eof (p_got (run PIPE_BUF CAP false h)) = Broken.
Proof.
  exists [Send 1 long; Part 1 21; Read; Read; Read]. split; [repeat (apply Forall_cons; [cbn; auto|]); apply Forall_nil|]. split; vm_compute; reflexivity.
Qed.
(** F123: a notification of another thread (as about suspending) gets into the middle of a long one: the receiver
    reads a notification that was never sent. *)
Theorem C46_mixed_refuted : exists h m, got (run PIPE_BUF CAP false h) = [Got m] /\
  p_sent (run PIPE_BUF CAP false h) = [long; small1] /\ m <> long /\ m <> small1.
Proof.
  exists [Send 1 long; Part 1 20; Send 2 small1; Part 1 (N.to_nat 4097); Read; Read; Read], (mkmsg ts0 (enc small1 ++ repeat 7 (N.to_nat 4074))).
  split; [vm_compute; reflexivity|]. split; [vm_compute; reflexivity|].
  split; intros E; apply (f_equal (fun m => nth 0 (m_data m) 99)) in E; vm_compute in E; discriminate E.
Qed.
