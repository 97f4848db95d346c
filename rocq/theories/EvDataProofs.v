From Coq Require Import List NArith ZArith Lia Bool.
From Verif Require Import Base BaseLemmas EvData.
Import ListNotations.
Open Scope N_scope.

(** Encoding of a list of chunks. *)
Definition enc1 (c : list N) : list N := le32 (nlen c) ++ c.
Fixpoint encs (cs : list (list N)) : list N :=
  match cs with [] => [] | c :: r => enc1 c ++ encs r end.
Definition enc (cs : list (list N)) : list N := le32 (nlen cs) ++ encs cs.

Lemma nlen_enc1 : forall c, nlen (enc1 c) = 4 + nlen c.
Proof. intros. unfold enc1. rewrite nlen_app, le32_len. reflexivity. Qed.

Lemma encs_app : forall a b, encs (a ++ b) = encs a ++ encs b.
Proof.
  induction a; intros; cbn [encs app]; [reflexivity|]. rewrite IHa, app_assoc. reflexivity.
Qed.

Lemma nlen_encs_count : forall cs, 4 * nlen cs <= nlen (encs cs).
Proof.
  induction cs; cbn [encs]. { rewrite !nlen_nil. lia. }
  rewrite nlen_cons, nlen_app, nlen_enc1. lia.
Qed.

Lemma nlen_enc : forall cs, nlen (enc cs) = 4 + nlen (encs cs).
Proof. intros. unfold enc. rewrite nlen_app, le32_len. reflexivity. Qed.

Lemma ev_skip_encs : forall cs p r off,
  off = nlen p -> nlen (encs cs) < two32 ->
  ev_skip (length cs) (p ++ encs cs ++ r) off = Some (off + nlen (encs cs)).
Proof.
  induction cs; intros p r off Ho Hs; cbn [ev_skip length].
  - cbn [encs]. rewrite nlen_nil, N.add_0_r. reflexivity.
  - cbn [encs] in *. rewrite nlen_app, nlen_enc1 in Hs.
    unfold enc1 at 1. rewrite <- !app_assoc. rewrite read32_mid by (try assumption; lia).
    cbn [obind].
    rewrite (app_assoc p).
    rewrite IHcs.
    + rewrite nlen_app, nlen_enc1. f_equal. lia.
    + rewrite nlen_app, nlen_enc1. lia.
    + lia.
Qed.

Lemma read_count : forall cs r, nlen (enc cs) < two32 -> read32 (enc cs ++ r) 0 = Some (nlen cs).
Proof.
  intros. rewrite nlen_enc in H. pose proof (nlen_encs_count cs).
  unfold enc. rewrite <- app_assoc.
  apply (read32_mid 0 []); [reflexivity|lia].
Qed.

Lemma to_nat_nlen : forall A (l : list A), N.to_nat (nlen l) = length l.
Proof. intros. unfold nlen. lia. Qed.

Lemma ev_data_size_enc : forall cs r,
  nlen (enc cs) < two32 -> ev_data_size (enc cs ++ r) = Some (nlen (enc cs)).
Proof.
  intros. unfold ev_data_size. rewrite read_count by assumption. cbn [obind].
  rewrite to_nat_nlen. pose proof H as H'. rewrite nlen_enc in H.
  unfold enc. rewrite <- app_assoc. rewrite ev_skip_encs; [|reflexivity|lia].
  cbn [obind]. rewrite nlen_app, le32_len. f_equal. apply u32_small. assumption.
Qed.

Lemma ev_data_size_enc0 : forall cs,
  nlen (enc cs) < two32 -> ev_data_size (enc cs) = Some (nlen (enc cs)).
Proof. intros. rewrite <- (ev_data_size_enc cs [] H). rewrite app_nil_r. reflexivity. Qed.

Lemma realloc_grow : forall fill b n, nlen b <= n ->
  realloc fill b n = b ++ repeat fill (N.to_nat (n - nlen b)).
Proof. intros. unfold realloc. rewrite nfirstn_all by assumption. reflexivity. Qed.

Lemma repeat_split : forall (x : N) n m, repeat x (n + m) = repeat x n ++ repeat x m.
Proof. intros. apply repeat_app. Qed.

(** Pushing onto an encoded block gives the block of the extended list. *)
Lemma push_some : forall fill cs c,
  nlen (enc (cs ++ [c])) < two32 ->
  ev_data_push fill (Some (enc cs)) c = Some (enc (cs ++ [c])).
Proof.
  intros fill cs c H. unfold ev_data_push.
  assert (Hl : nlen (enc (cs ++ [c])) = nlen (enc cs) + 4 + nlen c).
  { rewrite !nlen_enc, encs_app, nlen_app. cbn [encs]. rewrite nlen_app, nlen_enc1, nlen_nil. lia. }
  rewrite Hl in H.
  rewrite ev_data_size_enc0 by lia. cbn [obind].
  rewrite u32_small by assumption. rewrite realloc_grow by lia.
  rewrite ev_data_size_enc by lia. cbn [obind]. rewrite read_count by lia. cbn [obind].
  set (k := nlen (enc cs) + 4 + nlen c - nlen (enc cs)).
  assert (Hc : nlen cs + 1 < two32).
  { rewrite nlen_enc in H. pose proof (nlen_encs_count cs). lia. }
  rewrite u32_small by assumption.
  unfold enc at 1. rewrite <- app_assoc.
  change (le32 (nlen cs) ++ encs cs ++ repeat fill (N.to_nat k))
    with ([] ++ le32 (nlen cs) ++ (encs cs ++ repeat fill (N.to_nat k))).
  rewrite (write_at_mid 0 [] (le32 (nlen cs))) by reflexivity. cbn [obind app].
  replace (N.to_nat k) with (4 + N.to_nat (nlen c))%nat by lia.
  rewrite repeat_split. rewrite !app_assoc. rewrite <- (app_assoc _ (repeat fill 4)).
  rewrite (write_at_mid _ (le32 (nlen cs + 1) ++ encs cs) (repeat fill 4)).
  2:{ rewrite nlen_app, le32_len, nlen_enc. lia. }
  2:{ reflexivity. }
  cbn [obind]. rewrite !app_assoc.
  rewrite <- (app_nil_r (repeat fill _)).
  rewrite (write_at_mid _ ((le32 (nlen cs + 1) ++ encs cs) ++ le32 (nlen c)) (repeat fill _) c []).
  2:{ rewrite !nlen_app, !le32_len, nlen_enc. lia. }
  2:{ rewrite nlen_repeat. lia. }
  f_equal. rewrite app_nil_r. unfold enc. rewrite encs_app. cbn [encs]. unfold enc1.
  rewrite nlen_app, nlen_cons, nlen_nil, N.add_0_r, app_nil_r. rewrite <- !app_assoc. reflexivity.
Qed.

Lemma push_none : forall fill c,
  nlen (enc [c]) < two32 ->
  ev_data_push fill None c = Some (enc [c]).
Proof.
  intros fill c H.
  assert (Hl : nlen (enc [c]) = 4 + 4 + nlen c).
  { rewrite nlen_enc. cbn [encs]. rewrite nlen_app, nlen_enc1, nlen_nil. lia. }
  rewrite Hl in H.
  unfold ev_data_push. rewrite u32_small by assumption. cbn [obind].
  replace (N.to_nat (4 + 4 + nlen c)) with (4 + (4 + N.to_nat (nlen c)))%nat by lia.
  rewrite repeat_split.
  change (repeat fill 4 ++ repeat fill (4 + N.to_nat (nlen c)))
    with ([] ++ repeat fill 4 ++ repeat fill (4 + N.to_nat (nlen c))).
  rewrite (write_at_mid 0 [] (repeat fill 4)) by reflexivity. cbn [obind].
  change ([] ++ le32 0 ++ repeat fill (4 + N.to_nat (nlen c)))
    with (enc [] ++ repeat fill (4 + N.to_nat (nlen c))).
  rewrite ev_data_size_enc by reflexivity. cbn [obind].
  rewrite read_count by reflexivity. cbn [obind].
  change (enc [] ++ repeat fill (4 + N.to_nat (nlen c)))
    with ([] ++ le32 0 ++ repeat fill (4 + N.to_nat (nlen c))).
  rewrite (write_at_mid 0 [] (le32 0)) by reflexivity. cbn [obind app].
  rewrite repeat_split.
  change (u32 (nlen (@nil (list N)) + 1)) with 1.
  rewrite (write_at_mid _ (le32 1) (repeat fill 4)) by reflexivity. cbn [obind].
  rewrite app_assoc. rewrite <- (app_nil_r (repeat fill _)).
  rewrite (write_at_mid _ (le32 1 ++ le32 (nlen c)) (repeat fill _) c []).
  2:{ reflexivity. }
  2:{ rewrite nlen_repeat. lia. }
  unfold enc. cbn [encs]. unfold enc1.
  rewrite !app_nil_r, <- app_assoc. reflexivity.
Qed.

Lemma nlen_enc_mono : forall a b, nlen (enc a) <= nlen (enc (a ++ b)).
Proof. intros. rewrite !nlen_enc, encs_app, nlen_app. lia. Qed.

Lemma push_all_some : forall fill cs acc,
  nlen (enc (acc ++ cs)) < two32 ->
  ev_push_all fill (Some (enc acc)) cs = Some (Some (enc (acc ++ cs))).
Proof.
  induction cs; intros acc H; cbn [ev_push_all].
  - rewrite app_nil_r. reflexivity.
  - replace (acc ++ a :: cs) with ((acc ++ [a]) ++ cs) in * by (rewrite <- app_assoc; reflexivity).
    rewrite push_some.
    + cbn [obind]. apply IHcs. assumption.
    + pose proof (nlen_enc_mono (acc ++ [a]) cs). lia.
Qed.

Lemma push_all_none : forall fill cs,
  nlen (enc cs) < two32 ->
  ev_push_all fill None cs = Some (match cs with [] => None | _ => Some (enc cs) end).
Proof.
  intros fill [|c cs] H; cbn [ev_push_all]; [reflexivity|].
  rewrite push_none.
  - cbn [obind]. apply (push_all_some fill cs [c]). assumption.
  - pose proof (nlen_enc_mono [c] cs). cbn [app] in *. lia.
Qed.

Lemma get_enc : forall cs r idx,
  nlen (enc cs) < two32 ->
  ev_data_get (Some (enc cs ++ r)) idx =
  Some (match nth_error cs (N.to_nat idx) with
        | Some c => EvChunk (nlen c) c
        | None => EvNotFound
        end).
Proof.
  intros cs r idx H. unfold ev_data_get. rewrite read_count by assumption. cbn [obind].
  destruct (N.leb_spec (nlen cs) idx) as [Hle|Hlt].
  - assert (E : nth_error cs (N.to_nat idx) = None).
    { apply nth_error_None. unfold nlen in Hle. lia. }
    rewrite E. reflexivity.
  - destruct (nth_error cs (N.to_nat idx)) as [c|] eqn:E.
    2:{ apply nth_error_None in E. unfold nlen in Hlt. lia. }
    apply nth_error_split in E. destruct E as (l1 & l2 & -> & Hl).
    rewrite nlen_enc, encs_app, nlen_app in H. cbn [encs] in H. rewrite nlen_app, nlen_enc1 in H.
    rewrite <- Hl.
    assert (Eq : enc (l1 ++ c :: l2) ++ r =
                 le32 (nlen (l1 ++ c :: l2)) ++ encs l1 ++ (le32 (nlen c) ++ c ++ encs l2 ++ r)).
    { unfold enc. rewrite encs_app. cbn [encs]. unfold enc1. rewrite <- !app_assoc. reflexivity. }
    rewrite Eq. rewrite ev_skip_encs; [|reflexivity|lia]. cbn [obind].
    rewrite app_assoc.
    rewrite read32_mid; [|rewrite nlen_app, le32_len; lia|lia]. cbn [obind].
    rewrite app_assoc.
    rewrite read_at_mid with (m := c); [reflexivity| |reflexivity].
    rewrite !nlen_app, !le32_len. lia.
Qed.

(** *** Transport *)

Lemma shm_size_ge : forall n, n <= shm_size n.
Proof. intros. unfold shm_size. apply N.le_add_r. Qed.

Lemma shm_size_mod : forall n, shm_size n mod 8 = 0.
Proof.
  intros. unfold shm_size.
  pose proof (N.div_mod n 8 ltac:(lia)) as D. pose proof (N.mod_lt n 8 ltac:(lia)) as L.
  set (m := n mod 8) in *. set (q := n / 8) in *.
  destruct (N.eq_dec m 0) as [Z|Z].
  - rewrite Z in *. rewrite N.sub_0_r, N.mod_same by lia. rewrite D, N.add_0_r, N.add_0_r, N.mul_comm.
    apply N.mod_mul. lia.
  - rewrite (N.mod_small (8 - m)) by lia.
    replace (n + (8 - m)) with ((q + 1) * 8) by lia. apply N.mod_mul. lia.
Qed.

(** No zero byte: a C string. *)
Definition nozero (s : list N) : Prop := ~ In 0 s.

Lemma strlen_cstr : forall s r, nozero s -> strlen (cstr s ++ r) = Some (nlen s).
Proof.
  induction s; intros r H; cbn [cstr app strlen].
  - reflexivity.
  - destruct (N.eqb_spec a 0) as [E|E].
    { exfalso. apply H. left. assumption. }
    unfold cstr in IHs. rewrite IHs.
    + cbn [obind]. rewrite nlen_cons. f_equal. lia.
    + intro. apply H. right. assumption.
Qed.

Lemma nlen_cstr : forall s, nlen (cstr s) = nlen s + 1.
Proof. intros. unfold cstr. rewrite nlen_app, nlen_cons, nlen_nil. lia. Qed.

Lemma split_at : forall (b : list N) n, n <= nlen b -> exists p q, b = p ++ q /\ nlen p = n.
Proof.
  intros b n H. exists (nfirstn n b), (nskipn n b). split.
  - symmetry. apply nfirstn_nskipn.
  - rewrite nlen_nfirstn. lia.
Qed.

Lemma nlen_realloc : forall f b n, nlen (realloc f b n) = n.
Proof. intros. unfold realloc. rewrite nlen_app, nlen_nfirstn, nlen_repeat. lia. Qed.

(** Writing [m] at [nlen p] when there is room. *)
Lemma write_room : forall p q m off, off = nlen p -> nlen m <= nlen q ->
  exists q', q = (nfirstn (nlen m) q) ++ q' /\ write_at (p ++ q) off m = Some (p ++ m ++ q') /\
             nlen q' = nlen q - nlen m.
Proof.
  intros p q m off -> H. exists (nskipn (nlen m) q). split; [symmetry; apply nfirstn_nskipn|].
  split.
  - rewrite <- (nfirstn_nskipn _ (nlen m) q) at 1. apply write_at_mid; [reflexivity|].
    rewrite nlen_nfirstn. lia.
  - apply nlen_nskipn.
Qed.

(** Shape of the segment after the write: everything placed at the aligned offsets. *)
Lemma notify_write_shape : forall shm name cs xpath data,
  nlen (enc cs) < two32 -> 
  shm_size (nlen name + 1) + shm_size (nlen (enc cs)) < two32 ->
  (xpath <> None \/ data <> []) ->
  exists g1 g2 g3,
    notify_write_data shm name (Some (enc cs)) xpath data =
      Some (cstr name ++ g1 ++ enc cs ++ g2 ++
            match xpath with Some x => cstr x ++ g3 | None => [] end ++ data) /\
    nlen (cstr name ++ g1) = shm_size (nlen name + 1) /\
    nlen (enc cs ++ g2) = shm_size (nlen (enc cs)) /\
    match xpath with Some x => nlen (cstr x ++ g3) = shm_size (nlen x + 1) | None => g3 = [] end.
Proof.
  intros shm name cs xpath data Hs Ht Hne. unfold notify_write_data.
  assert (Hm : forall A (a b : A), match xpath, data with None, [] => a | _, _ => b end = b).
  { intros. destruct xpath; [reflexivity|]. destruct data; [|reflexivity]. destruct Hne; congruence. }
  rewrite Hm. clear Hm Hne. rewrite ev_data_size_enc0 by assumption. cbn [obind].
  set (E := enc cs) in *.
  set (nsz := shm_size (nlen name + 1)) in *. set (osz := shm_size (nlen E)) in *.
  rewrite u32_small by assumption.
  set (xsz := match xpath with Some x => shm_size (nlen x + 1) | None => 0 end).
  set (tot := nsz + osz + xsz + nlen data).
  remember (shm_resize shm tot) as S0 eqn:HS0.
  assert (L0 : nlen S0 = tot) by (subst S0; apply nlen_realloc). clear HS0.
  pose proof (shm_size_ge (nlen name + 1)) as G1. fold nsz in G1.
  pose proof (shm_size_ge (nlen E)) as G2. fold osz in G2.
  (* split the segment in the regions *)
  destruct (split_at S0 nsz) as (A & R1 & -> & LA). { lia. }
  rewrite nlen_app in L0.
  destruct (split_at R1 osz) as (B & R2 & -> & LB). { lia. }
  rewrite nlen_app in L0.
  destruct (split_at R2 xsz) as (C & D & -> & LC). { lia. }
  rewrite nlen_app in L0.
  destruct (split_at A (nlen name + 1)) as (A1 & A2 & -> & LA1). { lia. }
  destruct (split_at B (nlen E)) as (B1 & B2 & -> & LB1). { lia. }
  rewrite nlen_app in LA, LB.
  rewrite <- !app_assoc.
  change (A1 ++ A2 ++ B1 ++ B2 ++ C ++ D) with ([] ++ A1 ++ (A2 ++ B1 ++ B2 ++ C ++ D)).
  rewrite write_at_mid; [|reflexivity|rewrite nlen_cstr; lia]. cbn [obind app].
  replace (read_at E 0 (nlen E)) with (Some E).
  2:{ symmetry. replace E with ([] ++ E ++ []) at 1 by apply app_nil_r.
      apply read_at_mid; reflexivity. }
  cbn [obind]. rewrite app_assoc.
  rewrite write_at_mid; [|rewrite nlen_app, nlen_cstr; lia|lia]. cbn [obind].
  exists A2, B2.
  assert (LD : nlen D = nlen data) by (rewrite !nlen_app in L0; unfold tot in L0; lia).
  assert (HD : forall pre off, off = nlen pre ->
     match data with [] => Some (pre ++ D) | _ => write_at (pre ++ D) off data end = Some (pre ++ data)).
  { intros. destruct data as [|d0 data'] eqn:Ed.
    - destruct D as [|d D']; [reflexivity|]. rewrite nlen_cons, nlen_nil in LD. lia.
    - rewrite <- Ed in *. rewrite <- (app_nil_r D). rewrite write_at_mid; [|assumption|lia].
      rewrite app_nil_r. reflexivity. }
  destruct xpath as [x|]; subst xsz.
  - pose proof (shm_size_ge (nlen x + 1)) as G3.
    destruct (split_at C (nlen x + 1)) as (C1 & C2 & -> & LC1). { lia. }
    rewrite nlen_app in LC. exists C2.
    replace ((cstr name ++ A2) ++ E ++ B2 ++ (C1 ++ C2) ++ D)
       with ((cstr name ++ A2 ++ E ++ B2) ++ C1 ++ (C2 ++ D)) by (rewrite <- !app_assoc; reflexivity).
    rewrite write_at_mid; [|rewrite !nlen_app, nlen_cstr; lia|rewrite nlen_cstr; lia]. cbn [obind].
    repeat split.
    + replace ((cstr name ++ A2 ++ E ++ B2) ++ cstr x ++ C2 ++ D)
         with ((cstr name ++ A2 ++ E ++ B2 ++ cstr x ++ C2) ++ D) by (rewrite <- !app_assoc; reflexivity).
      rewrite HD; [rewrite <- !app_assoc; reflexivity|].
      rewrite !nlen_app, !nlen_cstr. lia.
    + rewrite nlen_app, nlen_cstr. lia.
    + rewrite nlen_app. lia.
    + rewrite nlen_app, nlen_cstr. lia.
  - exists []. destruct C as [|z C'].
    2:{ rewrite nlen_cons in LC. lia. }
    cbn [app obind]. repeat split.
    + replace ((cstr name ++ A2) ++ E ++ B2 ++ D)
         with ((cstr name ++ A2 ++ E ++ B2) ++ D) by (rewrite <- !app_assoc; reflexivity).
      rewrite HD; [rewrite <- !app_assoc; reflexivity|].
      rewrite !nlen_app, !nlen_cstr. lia.
    + rewrite nlen_app, nlen_cstr. lia.
    + rewrite nlen_app. lia.
Qed.

Lemma session_read_shape : forall name g1 cs g2 rest,
  nozero name -> nlen (enc cs) < two32 ->
  nlen (cstr name ++ g1) = shm_size (nlen name + 1) ->
  session_read_orig (cstr name ++ g1 ++ enc cs ++ g2 ++ rest) =
  Some (name, enc cs, shm_size (nlen name + 1) + shm_size (nlen (enc cs))).
Proof.
  intros name g1 cs g2 rest Hn Hs L. unfold session_read_orig, strlen_at.
  change (nskipn 0 (cstr name ++ g1 ++ enc cs ++ g2 ++ rest)) with (cstr name ++ g1 ++ enc cs ++ g2 ++ rest).
  rewrite strlen_cstr by assumption. cbn [obind].
  unfold cstr at 1. rewrite <- app_assoc.
  change (name ++ [0] ++ g1 ++ enc cs ++ g2 ++ rest) with ([] ++ name ++ ([0] ++ g1 ++ enc cs ++ g2 ++ rest)).
  rewrite read_at_mid by reflexivity. cbn [obind].
  rewrite app_assoc. rewrite nskipn_app_exact by (symmetry; assumption).
  rewrite ev_data_size_enc by assumption. cbn [obind].
  rewrite read_at_mid; [reflexivity|symmetry; assumption|reflexivity].
Qed.

(** *** Errors *)

Definition padn (fill : N) (n : N) : list N := repeat fill (N.to_nat (shm_size n - n)).

Lemma nlen_padded : forall fill b, nlen (padded fill b) = shm_size (nlen b).
Proof.
  intros. unfold padded. rewrite nlen_app, nlen_repeat. pose proof (shm_size_ge (nlen b)). lia.
Qed.

(** An error as a callback may set it: no zero bytes in the strings, a format that is not
    empty if set, data only with a format (asserted in sr_errinfo_add()), data built by pushes. *)
Definition err_ok (e : cb_err) : Prop :=
  e_code e < two32 /\ nozero (e_msg e) /\
  match e_fmt e with
  | None => e_data e = None
  | Some f => nozero f /\ f <> []
  end /\
  match e_data e with
  | None => True
  | Some d => exists cs, d = enc cs /\ nlen d < two32
  end.

(** What the reader gets: missing data of an error with a format become empty data. *)
Definition err_read (e : cb_err) : cb_err :=
  {| e_code := e_code e; e_msg := e_msg e; e_fmt := e_fmt e;
     e_data := match e_fmt e with
               | None => None
               | Some _ => match e_data e with Some d => Some d | None => Some empty_data end
               end |}.

Lemma empty_data_enc : empty_data = enc [].
Proof. reflexivity. Qed.

Definition e_cs_of (e : cb_err) : list N := match e_data e with Some d => d | None => empty_data end.

Lemma e_data_enc : forall e, err_ok e -> exists cs, e_cs_of e = enc cs /\ nlen (enc cs) < two32.
Proof.
  intros e (_ & _ & _ & H). unfold e_cs_of. destruct (e_data e).
  - destruct H as (cs & -> & L). exists cs. auto.
  - exists []. split; [reflexivity|]. cbn. reflexivity.
Qed.

Lemma prepare_error1_eq : forall fill e cs,
  e_cs_of e = enc cs -> nlen (enc cs) < two32 ->
  prepare_error1 fill e =
  Some (padded fill (le32 (e_code e)) ++ padded fill (cstr (e_msg e)) ++
        padded fill (cstr (match e_fmt e with Some f => f | None => [] end)) ++ padded fill (enc cs)).
Proof.
  intros fill e cs He L. unfold prepare_error1. fold (e_cs_of e). rewrite He.
  rewrite ev_data_size_enc0 by assumption. cbn [obind].
  replace (read_at (enc cs) 0 (nlen (enc cs))) with (Some (enc cs)).
  2:{ symmetry. replace (enc cs) with ([] ++ enc cs ++ []) at 1 by apply app_nil_r.
      apply read_at_mid; reflexivity. }
  reflexivity.
Qed.

Lemma read_cstr_padded : forall p fill s r off,
  off = nlen p -> nozero s ->
  strlen_at (p ++ padded fill (cstr s) ++ r) off = Some (nlen s) /\
  read_at (p ++ padded fill (cstr s) ++ r) off (nlen s) = Some s.
Proof.
  intros p fill s r off Ho Hn. split.
  - unfold strlen_at. rewrite nskipn_app_exact by assumption. unfold padded.
    rewrite <- app_assoc. apply strlen_cstr. assumption.
  - unfold padded, cstr at 1. rewrite <- !app_assoc. apply read_at_mid; [assumption|reflexivity].
Qed.

Lemma nlen_padded_cstr : forall fill s, nlen (padded fill (cstr s)) = shm_size (nlen s + 1).
Proof. intros. rewrite nlen_padded, nlen_cstr. reflexivity. Qed.

Lemma read_errors_prepared : forall fill l body p r off,
  Forall err_ok l -> prepare_errors fill l = Some body -> off = nlen p ->
  read_errors (length l) (p ++ body ++ r) off = Some (map err_read l).
Proof.
  induction l; intros body p r off HF HB Ho; cbn [prepare_errors] in HB.
  - inversion HB; subst. reflexivity.
  - inversion HF as [|? ? Ha HF']; subst.
    destruct (e_data_enc a Ha) as (cs & Ecs & Lcs).
    rewrite (prepare_error1_eq fill a cs Ecs Lcs) in HB. cbn [obind] in HB.
    destruct (prepare_errors fill l) as [b|] eqn:Eb; [|discriminate].
    cbn [obind] in HB. apply Some_inj in HB. subst body.
    cbn [read_errors length map].
    set (fmt := match e_fmt a with Some f => f | None => [] end).
    assert (Hc : e_code a < two32) by apply Ha.
    assert (Hm : nozero (e_msg a)) by apply Ha.
    assert (Hf : nozero fmt).
    { unfold fmt. destruct Ha as (_ & _ & H & _). destruct (e_fmt a); [apply H|]. intros []. }
    rewrite <- !app_assoc.
    assert (E1 : read32 (p ++ padded fill (le32 (e_code a)) ++ padded fill (cstr (e_msg a)) ++
                   padded fill (cstr fmt) ++ padded fill (enc cs) ++ b ++ r) (nlen p) = Some (e_code a)).
    { unfold padded at 1. rewrite <- app_assoc. apply read32_mid; [reflexivity|assumption]. }
    rewrite E1. cbn [obind]. clear E1.
    rewrite app_assoc.
    set (p1 := p ++ padded fill (le32 (e_code a))).
    assert (L1 : nlen p + shm_size 4 = nlen p1).
    { unfold p1. rewrite nlen_app, nlen_padded. reflexivity. }
    rewrite L1.
    destruct (read_cstr_padded p1 fill (e_msg a)
               (padded fill (cstr fmt) ++ padded fill (enc cs) ++ b ++ r) (nlen p1) eq_refl Hm) as [E1 E2].
    rewrite E1. cbn [obind]. rewrite E2. cbn [obind]. clear E1 E2.
    rewrite app_assoc.
    set (p2 := p1 ++ padded fill (cstr (e_msg a))).
    assert (L2 : nlen p1 + shm_size (nlen (e_msg a) + 1) = nlen p2).
    { unfold p2. rewrite nlen_app, nlen_padded_cstr. reflexivity. }
    rewrite L2.
    destruct (read_cstr_padded p2 fill fmt
               (padded fill (enc cs) ++ b ++ r) (nlen p2) eq_refl Hf) as [E1 E2].
    rewrite E1. cbn [obind]. rewrite E2. cbn [obind]. clear E1 E2.
    rewrite app_assoc.
    set (p3 := p2 ++ padded fill (cstr fmt)).
    assert (L3 : nlen p2 + shm_size (nlen fmt + 1) = nlen p3).
    { unfold p3. rewrite nlen_app, nlen_padded_cstr. reflexivity. }
    rewrite L3.
    rewrite nskipn_app_exact by reflexivity.
    assert (E1 : ev_data_size (padded fill (enc cs) ++ b ++ r) = Some (nlen (enc cs))).
    { unfold padded. rewrite <- app_assoc. apply ev_data_size_enc. assumption. }
    rewrite E1. cbn [obind]. clear E1.
    assert (E1 : read_at (p3 ++ padded fill (enc cs) ++ b ++ r) (nlen p3) (nlen (enc cs)) = Some (enc cs)).
    { unfold padded. rewrite <- app_assoc. apply read_at_mid; reflexivity. }
    rewrite E1. cbn [obind]. clear E1.
    rewrite app_assoc.
    rewrite (IHl b (p3 ++ padded fill (enc cs)) r).
    + cbn [obind]. f_equal. f_equal.
      unfold err_read. unfold fmt. destruct Ha as (_ & _ & Hfm & _).
      destruct (e_fmt a) as [f|] eqn:Ef.
      * destruct Hfm as [_ Hne]. destruct f; [congruence|].
        unfold e_cs_of in Ecs. destruct (e_data a); rewrite <- Ecs; reflexivity.
      * reflexivity.
    + assumption.
    + reflexivity.
    + rewrite nlen_app, nlen_padded. reflexivity.
Qed.

Lemma prepare_errors_ok : forall fill l, Forall err_ok l -> exists b, prepare_errors fill l = Some b.
Proof.
  induction l; intros HF; cbn [prepare_errors].
  - eauto.
  - inversion HF; subst. destruct (e_data_enc a H1) as (cs & E & L).
    rewrite (prepare_error1_eq fill a cs E L). cbn [obind].
    destruct IHl as [b ->]; [assumption|]. cbn [obind]. eauto.
Qed.

Lemma error_roundtrip : forall fill l junk,
  Forall err_ok l -> nlen l < two32 ->
  exists buf, prepare_error fill l = Some buf /\
              read_error_info (buf ++ junk) = Some (map err_read l).
Proof.
  intros fill l junk HF HL. unfold prepare_error.
  destruct (prepare_errors_ok fill l HF) as [b Eb]. rewrite Eb. cbn [obind].
  eexists. split; [reflexivity|].
  unfold read_error_info. rewrite <- app_assoc.
  assert (E1 : read32 (padded fill (le32 (nlen l)) ++ b ++ junk) 0 = Some (nlen l)).
  { unfold padded. rewrite <- app_assoc. apply (read32_mid 0 []); [reflexivity|assumption]. }
  rewrite E1. cbn [obind]. rewrite to_nat_nlen.
  apply (read_errors_prepared fill l b (padded fill (le32 (nlen l)))); try assumption.
  rewrite nlen_padded. reflexivity.
Qed.
