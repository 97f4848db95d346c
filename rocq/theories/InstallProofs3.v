(** * Proofs: update of modules *)

From Coq Require Import List Arith Bool Lia.
Import ListNotations.
From Verif Require Import Install InstallSpec InstallProofs InstallProofs2.

Section Upd.
Variable deps : list md -> md -> list nat.
Variable en : nat -> ds -> bool.
Variable w0 : world.
Variable ms : list md.
Variable ups : list (md * nat).
Variable upd : nat -> ds -> option nat.
Hypothesis inst0 : installed deps en ms w0.
Hypothesis nodup : NoDup (map fst ms).
Hypothesis ups_in : forall u, In u ups -> In (fst u) ms /\ snd u <> snd (fst u).
Hypothesis ups_nodup : NoDup (map fst ups).

Definition newmd (u : md * nat) : md := (fst (fst u), snd u).

Lemma newrev_name : forall m, fst (newrev ups m) = fst m.
Proof. intros m. unfold newrev. destruct (find _ ups); reflexivity. Qed.

Lemma names_new : map fst (map (newrev ups) ms) = map fst ms.
Proof. rewrite map_map. apply map_ext. intros m. apply newrev_name. Qed.

Lemma ups_inj : forall u v, In u ups -> In v ups -> fst u = fst v -> u = v.
Proof.
  clear - ups_nodup. revert ups_nodup. generalize ups as l.
  induction l as [|x l IH]; intros N u v Iu Iv E; [destruct Iu|].
  cbn [map] in N. inversion N as [|? ? N1 N2]; subst.
  destruct Iu as [-> | Iu], Iv as [-> | Iv]; auto.
  - exfalso. apply N1. rewrite E. apply in_map. exact Iv.
  - exfalso. apply N1. rewrite <- E. apply in_map. exact Iu.
Qed.

Lemma newrev_up : forall u, In u ups -> newrev ups (fst u) = newmd u.
Proof.
  intros u Iu. unfold newrev.
  destruct (find (fun v => md_eqb (fst v) (fst u)) ups) as [v|] eqn:F.
  - apply find_some in F. destruct F as [Iv E]. apply md_eqb_spec in E.
    rewrite (ups_inj v u Iv Iu E). reflexivity.
  - exfalso. pose proof (find_none _ _ F u Iu) as C. cbn beta in C.
    rewrite md_eqb_refl in C. discriminate C.
Qed.

Lemma newrev_no : forall m, ~ In m (map fst ups) -> newrev ups m = m.
Proof.
  intros m N. unfold newrev.
  destruct (find (fun v => md_eqb (fst v) m) ups) as [v|] eqn:F; [|reflexivity].
  apply find_some in F. destruct F as [Iv E]. apply md_eqb_spec in E.
  exfalso. apply N. rewrite <- E. apply in_map. exact Iv.
Qed.

Lemma in_new : forall x,
  In x (map (newrev ups) ms) <->
  (In x ms /\ ~ In x (map fst ups)) \/ In x (map newmd ups).
Proof.
  intros x. rewrite in_map_iff. split.
  - intros (m & <- & Im). destruct (in_dec md_dec m (map fst ups)) as [I|I].
    + right. apply in_map_iff in I. destruct I as (u & <- & Iu).
      rewrite newrev_up by exact Iu. apply in_map. exact Iu.
    + left. rewrite newrev_no by exact I. auto.
  - intros [[Im Nm]|I].
    + exists x. split; [apply newrev_no; exact Nm|exact Im].
    + apply in_map_iff in I. destruct I as (u & <- & Iu).
      exists (fst u). split; [apply newrev_up; exact Iu|]. apply ups_in. exact Iu.
Qed.

Lemma news_not_ms : forall x, In x (map newmd ups) -> ~ In x ms.
Proof.
  intros x I J. apply in_map_iff in I. destruct I as (u & <- & Iu).
  destruct (ups_in u Iu) as [Im Ne].
  assert (E : newmd u = fst u) by (apply (name_inj ms nodup); auto).
  apply Ne. rewrite <- E. reflexivity.
Qed.

Lemma old_not_new : forall x, In x (map fst ups) -> ~ In x (map newmd ups).
Proof.
  intros x I J. apply (news_not_ms x J). apply in_map_iff in I. destruct I as (u & <- & Iu).
  apply ups_in. exact Iu.
Qed.

Lemma in_updacts : forall a, In a (upd_acts ups) <->
  exists u, In u ups /\ (a = AUnyang (fst u) \/ a = AYang (newmd u)).
Proof.
  intros a. unfold upd_acts. rewrite in_flat_map. split.
  - intros (u & Iu & [<-|[<-|[]]]); exists u; auto.
  - intros (u & Iu & [-> | ->]); exists u; cbn; auto.
Qed.

Lemma first_checks : forall o n r' k' x,
  exec o (repeat ACheck n ++ [ACheck]) (Rn w0 [] []) 0 = (r', k', x) -> r' = Rn w0 [] [].
Proof.
  intros o n r' k' x H.
  apply (exec_inv (fun q => q = Rn w0 [] []) o (repeat ACheck n ++ [ACheck]) (Rn w0 [] []) 0 r' k' x);
    auto.
  intros a q Ia E _. apply in_app_iff in Ia. destruct Ia as [Ia|[<-|[]]]; [|exact E].
  apply repeat_spec in Ia. subst a. exact E.
Qed.

Lemma same_refl : forall w, same_world w w.
Proof. intros w. unfold same_world. auto 10. Qed.

Theorem update_before_registry : forall o checks r x,
  ups <> [] -> closed deps (map (newrev ups) ms) ->
  update deps en o checks upd ms ups w0 = (r, x) -> x <> ROk ->
  map fst (w_lyd (r_w r)) = map fst (w_lyd w0) ->
  same_world (r_w r) w0.
Proof.
  intros o checks r x Nu cl H Nx L. unfold update in H.
  destruct (exec o _ (Rn w0 [] []) 0) as [[r1 k1] x1] eqn:E1.
  pose proof (first_checks _ _ _ _ _ E1) as ->.
  destruct x1.
  2,3: assert (E : r = Rn w0 [] []) by congruence; subst; apply same_refl.
  unfold write_lyd in H. rewrite (add_deps_closed _ _ cl) in H.
  set (reg := map _ (map (newrev ups) ms)) in *.
  destruct (exec1 o (ALyd reg) (Rn w0 [] []) k1) as [[r2 k2] x2] eqn:E2.
  assert (R2 : x2 <> ROk -> r2 = Rn w0 [] []).
  { intros X. unfold exec1 in E2. cbn [skip] in E2. destruct (o k1); congruence. }
  destruct x2.
  2,3: assert (E : r2 = r) by congruence; subst; rewrite R2 by discriminate; apply same_refl.
  exfalso.
  assert (L2 : w_lyd (r_w r2) = reg).
  { apply exec1_cases in E2. destruct E2 as [[-> C] | [_ ->]]; [|reflexivity].
    destruct (C eq_refl) as [X|[X _]]; discriminate X. }
  destruct (exec o (AShm reg :: _) r2 k2) as [[r3 k3] x3] eqn:E3.
  assert (L3 : w_lyd (r_w r3) = reg).
  { rewrite <- L2. eapply exec_lyd; [|exact E3]. intros a [<-|Ia]; [exact Logic.I|].
    apply in_app_iff in Ia. destruct Ia as [Ia|Ia].
    - apply in_updacts in Ia. destruct Ia as (u & _ & [-> | ->]); exact Logic.I.
    - apply in_store in Ia. destruct Ia as (m & d & _ & _ & _ & ->). exact Logic.I. }
  assert (RR : w_lyd (r_w r) = reg).
  { destruct x3; [congruence| |]; assert (E : r3 = r) by congruence; subst; exact L3. }
  rewrite RR in L. destruct inst0 as (L0 & _). rewrite L0 in L.
  unfold reg in L. rewrite !map_map in L. cbn [fst] in L. rewrite map_id in L.
  assert (Ex : exists u, In u ups).
  { destruct ups as [|u l']; [congruence|]. exists u. left. reflexivity. }
  destruct Ex as (u & Iu).
  destruct (ups_in u Iu) as [Im Ne].
  assert (J : In (newmd u) (map (newrev ups) ms)).
  { apply in_new. right. apply in_map. exact Iu. }
  change (map (newrev ups) ms) with (map (fun m => newrev ups m) ms) in J.
  rewrite L in J. apply (news_not_ms (newmd u)); [apply in_map; exact Iu|exact J].
Qed.

Theorem update_ok : forall o checks,
  no_failure o -> closed deps (map (newrev ups) ms) ->
  exists r, update deps en o checks upd ms ups w0 = (r, ROk) /\
    installed deps en (map (newrev ups) ms) (r_w r) /\
    (forall m d, In m (map fst ms) -> en m d = true -> In d upd_ds ->
       w_dat (r_w r) m d = upd m d) /\
    (forall m, w_push (r_w r) m = w_push w0 m).
Proof.
  intros o checks NF cl. unfold update.
  assert (G : forall k, spent o k) by (intros k; apply no_failure_spent; exact NF).
  assert (NF' : forall k j : nat, k <= j -> o j <> Fails).
  { intros k j _. rewrite NF. discriminate. }
  destruct inst0 as (L0 & _ & _ & _ & A & B & C & P).
  destruct (exec_good o (repeat ACheck checks ++ [ACheck]) (Rn w0 [] []) 0 (G _))
    as (r1 & k1 & E1 & _).
  rewrite E1. pose proof (first_checks _ _ _ _ _ E1) as ->.
  unfold write_lyd. rewrite (add_deps_closed _ _ cl).
  set (ms' := map (newrev ups) ms) in *.
  set (reg := map _ ms') in *.
  destruct (exec1_good o (ALyd reg) (Rn w0 [] []) k1 (G _)) as (k2 & -> & _). cbn [skip].
  set (r1 := eff (ALyd reg) (Rn w0 [] [])).
  set (l := AShm reg :: upd_acts ups ++ store_acts en upd ms').
  destruct (exec_good o l r1 k2 (G _)) as (r3 & k3 & E3 & _).
  rewrite E3. eexists. split; [reflexivity|]. cbn [r_w].
  assert (In_l : forall a, In a l -> a = AShm reg \/
     (exists u, In u ups /\ a = AUnyang (fst u)) \/
     (exists u, In u ups /\ a = AYang (newmd u)) \/
     (exists m d, In m ms' /\ In d upd_ds /\ en (fst m) d = true /\
                  a = ADat (fst m) d (upd (fst m) d))).
  { intros a [<-|Ia]; [auto|]. apply in_app_iff in Ia. destruct Ia as [Ia|Ia].
    - apply in_updacts in Ia. destruct Ia as (u & Iu & [-> | ->]).
      + right. left. eauto.
      + right. right. left. eauto.
    - apply in_store in Ia. right. right. right. exact Ia. }
  assert (K : w_lyd (r_w r3) = reg /\
    (forall m d, w_inst (r_w r3) m d = w_inst w0 m d) /\
    (forall m, ~ In m (map fst ups) -> ~ In m (map newmd ups) -> w_yang (r_w r3) m = w_yang w0 m) /\
    (forall m, w_push (r_w r3) m = w_push w0 m) /\
    (forall m d, w_dat (r_w r3) m d <> None -> w_inst (r_w r3) m d = true)).
  { apply (exec_inv (fun q => w_lyd (r_w q) = reg /\
      (forall m d, w_inst (r_w q) m d = w_inst w0 m d) /\
      (forall m, ~ In m (map fst ups) -> ~ In m (map newmd ups) -> w_yang (r_w q) m = w_yang w0 m) /\
      (forall m, w_push (r_w q) m = w_push w0 m) /\
      (forall m d, w_dat (r_w q) m d <> None -> w_inst (r_w q) m d = true))
      o l r1 k2 r3 k3 ROk); [| |exact E3].
    - intros a q Ia (Q1 & Q2 & Q3 & Q4 & Q5) _. apply In_l in Ia.
      destruct Ia as [-> | [(u & Iu & ->) | [(u & Iu & ->) | (m & d & Im & Id & En & ->)]]];
        cbn [eff r_w set_shm set_yang set_dat w_lyd w_inst w_yang w_push w_dat].
      + auto 10.
      + repeat (split; [assumption|]). split; [|split; assumption].
        intros m N1 N2. rewrite upd_md_other; [auto|]. intros ->. apply N1. apply in_map. exact Iu.
      + repeat (split; [assumption|]). split; [|split; assumption].
        intros m N1 N2. rewrite upd_md_other; [auto|]. intros ->. apply N2. apply in_map. exact Iu.
      + repeat (split; [assumption|]).
        intros m' d' T. destruct (key_dec (m', d') (fst m, d)) as [E|E].
        * assert (m' = fst m) by congruence. assert (d' = d) by congruence. subst.
          rewrite Q2. apply A. split; [|exact En].
          rewrite <- names_new. apply in_map. exact Im.
        * rewrite upd2_other in T by exact E. auto.
    - cbn. auto. }
  destruct K as (K1 & K2 & K3 & K4 & K5).
  assert (Yo : forall u, In u ups -> w_yang (r_w r3) (fst u) = false).
  { intros u Iu.
    apply (exec_done (fun q => w_yang (r_w q) (fst u) = false) o (AUnyang (fst u)) l r1 k2 r3 k3);
      [right; apply NF'| | | | |exact E3].
    - intros q Sk. discriminate Sk.
    - intros q _. cbn [eff r_w set_yang w_yang]. apply upd_md_same.
    - intros b q Ib Q _. apply In_l in Ib.
      destruct Ib as [-> | [(v & Iv & ->) | [(v & Iv & ->) | (m & d & _ & _ & _ & ->)]]];
        try exact Q; cbn [eff r_w set_yang w_yang].
      + unfold upd_md. destruct (md_eqb (fst u) (fst v)); auto.
      + rewrite upd_md_other; [exact Q|]. intros E.
        apply (old_not_new (fst u)); [apply in_map; exact Iu|].
        rewrite E. apply in_map. exact Iv.
    - right. apply in_app_iff. left. apply in_updacts. eauto. }
  assert (Yn : forall u, In u ups -> w_yang (r_w r3) (newmd u) = true).
  { intros u Iu.
    apply (exec_done (fun q => w_yang (r_w q) (newmd u) = true) o (AYang (newmd u)) l r1 k2 r3 k3);
      [left; reflexivity| | | | |exact E3].
    - intros q Sk. discriminate Sk.
    - intros q _. cbn [eff r_w set_yang w_yang]. apply upd_md_same.
    - intros b q Ib Q _. apply In_l in Ib.
      destruct Ib as [-> | [(v & Iv & ->) | [(v & Iv & ->) | (m & d & _ & _ & _ & ->)]]];
        try exact Q; cbn [eff r_w set_yang w_yang].
      + rewrite upd_md_other; [exact Q|]. intros E.
        apply (old_not_new (newmd u)); [|apply in_map; exact Iu].
        rewrite E. apply in_map. exact Iv.
      + unfold upd_md. destruct (md_eqb (newmd u) (newmd v)); auto.
    - right. apply in_app_iff. left. apply in_updacts. eauto. }
  assert (Sh : w_shm (r_w r3) = reg).
  { apply (exec_done (fun q => w_shm (r_w q) = reg) o (AShm reg) l r1 k2 r3 k3);
      [left; reflexivity| | | | |exact E3].
    - intros q Sk. discriminate Sk.
    - intros q _. reflexivity.
    - intros b q Ib Q _. apply In_l in Ib.
      destruct Ib as [-> | [(v & Iv & ->) | [(v & Iv & ->) | (m & d & _ & _ & _ & ->)]]];
        try exact Q. reflexivity.
    - left. reflexivity. }
  split; [|split].
  - unfold installed. cbn [set_ctx w_lyd w_shm w_ctx w_cid w_inst w_yang w_dat w_push].
    split; [exact K1|]. split; [exact Sh|]. split; [reflexivity|]. split; [reflexivity|].
    split; [|split; [|split; [exact K5|]]].
    + intros m d. rewrite K2. unfold ms'. rewrite names_new. apply A.
    + intros m. unfold ms'. rewrite in_new. split.
      * intros T. destruct (in_dec md_dec m (map newmd ups)) as [I|I]; [auto|].
        destruct (in_dec md_dec m (map fst ups)) as [J|J].
        -- apply in_map_iff in J. destruct J as (u & <- & Iu). rewrite (Yo u Iu) in T. discriminate T.
        -- left. split; [|exact J]. apply B. rewrite <- K3 by assumption. exact T.
      * intros [[I J]|I].
        -- rewrite K3; [apply B; exact I|exact J|]. intros X. exact (news_not_ms m X I).
        -- apply in_map_iff in I. destruct I as (u & <- & Iu). apply Yn. exact Iu.
    + intros m T. rewrite K4 in T. unfold ms'. rewrite names_new. auto.
  - intros m d Im En Id. cbn [set_ctx w_dat]. rewrite <- names_new in Im. fold ms' in Im.
    apply in_map_iff in Im. destruct Im as (y & <- & Iy).
    apply (exec_done (fun q => w_dat (r_w q) (fst y) d = upd (fst y) d) o
             (ADat (fst y) d (upd (fst y) d)) l r1 k2 r3 k3); [left; reflexivity| | | | |exact E3].
    + intros q Sk. cbn [skip] in Sk. apply opt_eqb_spec. exact Sk.
    + intros q _. cbn [eff r_w set_dat w_dat]. apply upd2_same.
    + intros b q Ib Q _. apply In_l in Ib.
      destruct Ib as [-> | [(v & Iv & ->) | [(v & Iv & ->) | (m & d' & _ & _ & _ & ->)]]];
        try exact Q; cbn [eff r_w set_dat w_dat].
      destruct (key_dec (fst y, d) (fst m, d')) as [Eq|Eq].
      * assert (Ea : fst y = fst m) by congruence. assert (Eb : d = d') by congruence.
        rewrite Ea, Eb. apply upd2_same.
      * rewrite upd2_other by exact Eq. exact Q.
    + right. apply in_app_iff. right. apply in_store. exists y, d. auto.
  - exact K4.
Qed.

End Upd.
