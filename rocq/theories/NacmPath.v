(** Matching of paths: the characters compared by the code against structured targets and paths. *)
From Coq Require Import List Bool Arith Lia.
From Verif Require Import Nacm NacmSpec.
Import ListNotations.

Lemma str_eqb_eq a : forall b, str_eqb a b = true <-> a = b.
Proof.
  induction a as [|x a IH]; intros [|y b]; cbn [str_eqb]; split; intros H; try discriminate; auto.
  - apply andb_true_iff in H as [H1 H2]. apply Nat.eqb_eq in H1. apply IH in H2. now subst.
  - injection H as -> ->. rewrite Nat.eqb_refl. cbn [andb]. now apply IH.
Qed.
Lemma str_eqb_refl a : str_eqb a a = true.
Proof. now apply str_eqb_eq. Qed.
Lemma str_eqb_neq a b : a <> b -> str_eqb a b = false.
Proof. intros H. destruct (str_eqb a b) eqn:E; auto. now apply str_eqb_eq in E. Qed.
Definition str_dec (a b : str) : {a = b} + {a <> b}.
Proof. apply list_eq_dec. apply Nat.eq_dec. Defined.

(** ** Fuel *)
Lemma skip_pred_length n : forall q m, skip_pred q n = Some m -> length m < length n.
Proof.
  induction n as [|c n IH]; intros q m; cbn [skip_pred]; try discriminate.
  destruct q.
  - intros H. apply IH in H. cbn [length]. lia.
  - destruct (Nat.eqb c c_rbr).
    + intros H. injection H as <-. cbn [length]. lia.
    + intros H. apply IH in H. cbn [length]. lia.
Qed.
Lemma upto_quote_length n : forall v m, upto_quote n = Some (v, m) -> length m < length n.
Proof.
  induction n as [|c n IH]; intros v m; cbn [upto_quote]; try discriminate.
  destruct (Nat.eqb c c_quote).
  - intros H. injection H as <- <-. cbn [length]. lia.
  - destruct (upto_quote n) as [[a b]|]; cbn [option_map]; try discriminate.
    intros H. injection H as <- <-. cbn [fst snd length]. specialize (IH a b eq_refl). lia.
Qed.

Lemma ap_fuel f : forall g u rp np r n, length n <= f -> length n <= g -> ap f u rp np r n = ap g u rp np r n.
Proof.
  induction f as [|f IH]; intros g u rp np r n Hf Hg.
  - destruct n; cbn [length] in Hf; [|lia]. destruct r, g; reflexivity.
  - destruct r as [|rc rt]; [destruct g; reflexivity|].
    destruct n as [|nc nt]; [destruct g; reflexivity|].
    destruct g as [|g]; cbn [length] in *; [lia|]. cbn [ap].
    destruct (Nat.eqb rc nc); [apply IH; lia|].
    destruct (_ && _ && (_ && _)).
    + destruct (after_user rt); auto. destruct (upto_quote nt) as [[v m]|] eqn:E; auto.
      apply upto_quote_length in E. destruct (str_eqb u v); auto. apply IH; lia.
    + destruct (_ && _); auto. destruct (skip_pred false (nc :: nt)) as [m|] eqn:E; auto.
      apply skip_pred_length in E. cbn [length] in E. apply IH; lia.
Qed.

Definition AP (u : str) (rp np : option nat) (r n : str) : pmatch := ap (length n) u rp np r n.
Lemma allowed_AP u r n : allowed_path u r n = AP u None None r n.
Proof. apply ap_fuel; lia. Qed.
Lemma AP_nil u rp np n : AP u rp np [] n = MFull.
Proof. unfold AP. destruct n; reflexivity. Qed.
Lemma AP_end u rp np c r : AP u rp np (c :: r) [] = MPartial.
Proof. reflexivity. Qed.
Lemma AP_step u rp np rc rt nc nt :
  AP u rp np (rc :: rt) (nc :: nt) =
  if Nat.eqb rc nc then AP u (Some rc) (Some nc) rt nt
  else if Nat.eqb rc c_dollar && match rp with Some p => Nat.eqb p c_eq | None => false end &&
          (Nat.eqb nc c_quote && match np with Some p => Nat.eqb p c_eq | None => false end)
  then match after_user rt with
       | None => MNo
       | Some rt' => match upto_quote nt with
                     | None => MUb
                     | Some (v, nt') => if str_eqb u v then AP u (Some 82) (Some c_quote) rt' nt' else MNo
                     end
       end
  else if Nat.eqb rc c_slash && Nat.eqb nc c_lbr
  then match skip_pred false (nc :: nt) with
       | None => MUb
       | Some nt' => AP u rp (Some c_rbr) (rc :: rt) nt'
       end
  else MNo.
Proof.
  unfold AP at 1. cbn [ap length].
  destruct (Nat.eqb rc nc); [reflexivity|].
  destruct (_ && _ && (_ && _)).
  - destruct (after_user rt); auto. destruct (upto_quote nt) as [[v m]|] eqn:E; auto.
    apply upto_quote_length in E. destruct (str_eqb u v); auto. apply ap_fuel; lia.
  - destruct (_ && _); auto. destruct (skip_pred false (nc :: nt)) as [m|] eqn:E; auto.
    apply skip_pred_length in E. cbn [length] in E. apply ap_fuel; lia.
Qed.

(** ** Parts *)
Fixpoint lastc (p : option nat) (s : str) : option nat := match s with [] => p | c :: t => lastc (Some c) t end.
Lemma lastc_app s : forall p t, lastc p (s ++ t) = lastc (lastc p s) t.
Proof. induction s as [|c s IH]; intros p t; cbn [lastc app]; auto. Qed.
Lemma lastc_same s c : forall p q, lastc p (c :: s) = lastc q (c :: s).
Proof. reflexivity. Qed.

Lemma AP_common u s : forall rp np r n, AP u rp np (s ++ r) (s ++ n) = AP u (lastc rp s) (lastc np s) r n.
Proof.
  induction s as [|c s IH]; intros rp np r n; cbn [app lastc]; auto.
  rewrite AP_step, Nat.eqb_refl. apply IH.
Qed.

(** Two different strings which are not the beginning of one another. *)
Lemma AP_diff u (P Q : nat -> Prop) (HP : forall c, P c -> c <> c_dollar) (HPQ : forall c d, P c -> Q d -> c <> c_slash \/ d <> c_lbr) a :
  forall b rp np r n, Forall P a -> Forall Q b -> not_begin a b -> not_begin b a -> a <> b ->
  AP u rp np (a ++ r) (b ++ n) = MNo.
Proof.
  induction a as [|x a IH]; intros b rp np r n Ha Hb N1 N2 D.
  - exfalso. apply D. symmetry. now apply (N1 b).
  - destruct b as [|y b].
    + exfalso. apply D. now apply (N2 (x :: a)).
    + pose proof (Forall_inv Ha) as Px. pose proof (Forall_inv Hb) as Qy.
      apply Forall_inv_tail in Ha, Hb. cbn [app]. rewrite AP_step.
      destruct (Nat.eqb_spec x y) as [->|E].
      * apply IH; auto.
        -- intros t ->. now apply (N1 t).
        -- intros t ->. now apply (N2 t).
        -- intros ->. now apply D.
      * rewrite (proj2 (Nat.eqb_neq x c_dollar)) by auto. cbn [andb].
        destruct (HPQ x y Px Qy) as [H|H].
        -- rewrite (proj2 (Nat.eqb_neq x c_slash)) by auto. reflexivity.
        -- rewrite (proj2 (Nat.eqb_neq y c_lbr)) by auto. now rewrite andb_false_r.
Qed.

Lemma name_char_not c : name_char c -> c <> c_slash /\ c <> c_lbr /\ c <> c_rbr /\ c <> c_eq /\ c <> c_quote /\ c <> c_dollar.
Proof. unfold name_char. cbn [In]. intros H. repeat split; intros ->; apply H; auto 10. Qed.
Lemma val_char_not c : val_char c -> c <> c_lbr /\ c <> c_quote /\ c <> c_dollar.
Proof. unfold val_char. cbn [In]. intros H. repeat split; intros ->; apply H; auto 10. Qed.

Lemma AP_names u a b rp np r n :
  Forall name_char a -> Forall name_char b -> not_begin a b -> not_begin b a ->
  AP u rp np (a ++ r) (b ++ n) = if str_eqb a b then AP u (lastc rp a) (lastc np a) r n else MNo.
Proof.
  intros Ha Hb N1 N2. destruct (str_dec a b) as [<-|D].
  - rewrite str_eqb_refl. apply AP_common.
  - rewrite (str_eqb_neq a b D).
    apply (AP_diff u name_char name_char); auto.
    + intros c Hc. now apply name_char_not in Hc.
    + intros c d Hc _. left. now apply name_char_not in Hc.
Qed.

(** Values closed by apostrophes. *)
Lemma quoted_inj v : forall w s t, Forall val_char v -> Forall val_char w -> v ++ c_quote :: s = w ++ c_quote :: t -> v = w /\ s = t.
Proof.
  induction v as [|x v IH]; intros [|y w] s t Hv Hw E; cbn [app] in E.
  - injection E as E. auto.
  - injection E as E1 E2. exfalso. subst y. apply Forall_inv in Hw. apply val_char_not in Hw. tauto.
  - injection E as E1 E2. exfalso. subst x. apply Forall_inv in Hv. apply val_char_not in Hv. tauto.
  - injection E as E1 E2. subst y. apply Forall_inv_tail in Hv, Hw. destruct (IH w s t Hv Hw E2) as [-> ->]. auto.
Qed.
Lemma AP_vals u v w rp np r n :
  Forall val_char v -> Forall val_char w ->
  AP u rp np (v ++ c_quote :: r) (w ++ c_quote :: n) = if str_eqb v w then AP u (Some c_quote) (Some c_quote) r n else MNo.
Proof.
  intros Hv Hw.
  replace (v ++ c_quote :: r) with ((v ++ [c_quote]) ++ r) by (rewrite <- app_assoc; reflexivity).
  replace (w ++ c_quote :: n) with ((w ++ [c_quote]) ++ n) by (rewrite <- app_assoc; reflexivity).
  destruct (str_dec v w) as [<-|D].
  - rewrite str_eqb_refl, AP_common, !lastc_app. reflexivity.
  - rewrite (str_eqb_neq v w D).
    apply (AP_diff u (fun c => c <> c_dollar) (fun c => c <> c_lbr)); auto.
    + apply Forall_app. split; [|repeat constructor; discriminate].
      eapply Forall_impl; [|exact Hv]. cbn beta. intros c Hc. now apply val_char_not in Hc.
    + apply Forall_app. split; [|repeat constructor; discriminate].
      eapply Forall_impl; [|exact Hw]. cbn beta. intros c Hc. now apply val_char_not in Hc.
    + intros t E. rewrite <- !app_assoc in E. cbn [app] in E. symmetry in E. apply quoted_inj in E as [E1 _]; auto. congruence.
    + intros t E. rewrite <- !app_assoc in E. cbn [app] in E. symmetry in E. apply quoted_inj in E as [E1 _]; auto. congruence.
    + intros E. apply app_inj_tail in E as [E _]. auto.
Qed.

Lemma upto_quote_val w n : Forall val_char w -> upto_quote (w ++ c_quote :: n) = Some (w, n).
Proof.
  induction w as [|c w IH]; intros H; cbn [app upto_quote].
  - reflexivity.
  - pose proof (Forall_inv H) as Hc. apply val_char_not in Hc as (_ & Hq & _).
    rewrite (proj2 (Nat.eqb_neq c c_quote) Hq). rewrite IH by now apply Forall_inv_tail in H. reflexivity.
Qed.

Definition valb (u : str) (v : rval) (x : str) : bool := match v with VLit y => str_eqb y x | VUser => str_eqb u x end.
Lemma valb_ok u v x : valb u v x = true <-> val_ok u v x.
Proof. destruct v; cbn [valb val_ok]; rewrite str_eqb_eq; split; auto. Qed.
(** The value of a key. *)
Lemma AP_rvals u v w r n :
  (match v with VLit y => Forall val_char y | VUser => True end) -> Forall val_char w ->
  exists rp, AP u (Some c_eq) (Some c_eq) (pr_rval v ++ c_rbr :: r) (pr_val w ++ c_rbr :: n) =
  if valb u v w then AP u rp (Some c_quote) (c_rbr :: r) (c_rbr :: n) else MNo.
Proof.
  intros Hv Hw. destruct v as [y|]; cbn [pr_rval valb].
  - exists (Some c_quote). unfold pr_val. rewrite <- !app_assoc. cbn [app].
    rewrite AP_step, Nat.eqb_refl.
    pose proof (AP_vals u y w (Some c_quote) (Some c_quote) (c_rbr :: r) (c_rbr :: n) Hv Hw) as H. exact H.
  - exists (Some 82). unfold pr_val. rewrite <- !app_assoc. cbn [app]. rewrite AP_step. cbn [Nat.eqb c_dollar c_quote c_eq andb].
    unfold s_user. cbn [app after_user]. change (str_eqb [85; 83; 69; 82; c_rbr] (s_user ++ [c_rbr])) with true. cbn iota.
    change 39 with c_quote. rewrite upto_quote_val by auto. reflexivity.
Qed.

(** Predicates of one node. *)
Definition predsb (u : str) (rp : list (str * rval)) (np : list (str * str)) : bool :=
  forallb (fun p => valb u (fst p) (snd p)) (combine (map snd rp) (map snd np)).
Definition good_preds (l : list (str * str)) : Prop := Forall (fun p => Forall name_char (fst p) /\ Forall val_char (snd p)) l.
Definition good_rpreds (l : list (str * rval)) : Prop :=
  Forall (fun p => Forall name_char (fst p) /\ match snd p with VLit v => Forall val_char v | VUser => True end) l.
Lemma AP_preds u rs : forall ns rp np r n, good_rpreds rs -> good_preds ns -> map fst rs = map fst ns ->
  exists rp' np', AP u rp np (pr_rpreds rs ++ r) (pr_preds ns ++ n) = if predsb u rs ns then AP u rp' np' r n else MNo.
Proof.
  induction rs as [|[k v] rs IH]; intros [|[k' w] ns] rp np r n Hr Hn E; cbn [map] in E; try discriminate E.
  - exists rp, np. reflexivity.
  - cbn [fst] in E. injection E as <- E.
    pose proof (Forall_inv Hr) as [Hk Hv]. pose proof (Forall_inv Hn) as [_ Hw]. cbn [fst snd] in Hk, Hv, Hw.
    apply Forall_inv_tail in Hr, Hn.
    unfold pr_rpreds, pr_preds. cbn [flat_map fst snd]. fold (pr_rpreds rs). fold (pr_preds ns).
    rewrite <- !app_assoc. cbn [app]. rewrite AP_step, Nat.eqb_refl.
    rewrite AP_common. rewrite AP_step, Nat.eqb_refl.
    destruct (AP_rvals u v w (pr_rpreds rs ++ r) (pr_preds ns ++ n) Hv Hw) as (q & ->).
    unfold predsb. cbn [map snd combine forallb fst].
    destruct (valb u v w); cbn [andb]; [|now exists None, None].
    rewrite AP_step, Nat.eqb_refl.
    destruct (IH ns (Some c_rbr) (Some c_rbr) r n Hr Hn E) as (rp' & np' & ->). now exists rp', np'.
Qed.

(** Skipping them. *)
Lemma skip_plain s n : Forall (fun c => c <> c_rbr /\ c <> c_quote) s -> skip_pred false (s ++ n) = skip_pred false n.
Proof.
  induction s as [|c s IH]; intros H; cbn [app skip_pred]; auto.
  pose proof (Forall_inv H) as [H1 H2]. rewrite (proj2 (Nat.eqb_neq _ _) H1), (proj2 (Nat.eqb_neq _ _) H2).
  apply IH. now apply Forall_inv_tail in H.
Qed.
Lemma skip_val w n : Forall val_char w -> skip_pred true (w ++ c_quote :: n) = skip_pred false n.
Proof.
  induction w as [|c w IH]; intros H; cbn [app skip_pred].
  - now rewrite Nat.eqb_refl.
  - pose proof (Forall_inv H) as Hc. apply val_char_not in Hc as (_ & Hq & _).
    rewrite (proj2 (Nat.eqb_neq _ _) Hq). apply IH. now apply Forall_inv_tail in H.
Qed.
Lemma skip_one k w n : Forall name_char k -> Forall val_char w ->
  skip_pred false (c_lbr :: k ++ c_eq :: pr_val w ++ c_rbr :: n) = Some n.
Proof.
  intros Hk Hw. change (c_lbr :: k ++ c_eq :: pr_val w ++ c_rbr :: n) with ((c_lbr :: k) ++ c_eq :: pr_val w ++ c_rbr :: n).
  rewrite skip_plain.
  - unfold pr_val. rewrite <- !app_assoc. cbn [app skip_pred Nat.eqb c_eq c_rbr c_quote].
    change (39 :: 93 :: n) with (c_quote :: c_rbr :: n).
    rewrite skip_val by auto. cbn [skip_pred]. now rewrite Nat.eqb_refl.
  - constructor; [split; discriminate|].
    eapply Forall_impl; [|exact Hk]. cbn beta. intros c Hc. apply name_char_not in Hc. tauto.
Qed.
Lemma AP_skip u ns : forall rp np r n, good_preds ns ->
  exists np', AP u rp np (c_slash :: r) (pr_preds ns ++ n) = AP u rp np' (c_slash :: r) n.
Proof.
  induction ns as [|[k w] ns IH]; intros rp np r n H.
  - now exists np.
  - pose proof (Forall_inv H) as [Hk Hw]. cbn [fst snd] in Hk, Hw. apply Forall_inv_tail in H.
    unfold pr_preds. cbn [flat_map fst snd]. fold (pr_preds ns). rewrite <- !app_assoc. cbn [app].
    rewrite AP_step. cbn [Nat.eqb c_slash c_lbr c_dollar andb].
    change (skip_pred false (91 :: k ++ c_eq :: (pr_val w ++ c_rbr :: pr_preds ns ++ n)))
      with (skip_pred false (c_lbr :: k ++ c_eq :: pr_val w ++ c_rbr :: pr_preds ns ++ n)).
    rewrite skip_one by auto. change 47 with c_slash. apply IH; auto.
Qed.

(** ** Paths *)
Definition segb (u : str) (x : rseg) (y : seg) : bool := str_eqb (rs_name x) (s_name y) && predsb u (rs_preds x) (s_preds y).
Fixpoint pm (u : str) (r : list rseg) (n : list seg) : pmatch :=
  match r, n with
  | [], _ => MFull
  | _ :: _, [] => MPartial
  | x :: r', y :: n' => if segb u x y then pm u r' n' else MNo
  end.

Lemma AP_pm u r : forall n rp np, Forall good_rseg r -> Forall good_seg n -> compat r n ->
  AP u rp np (pr_rpath r) (pr_path n) = pm u r n.
Proof.
  induction r as [|x r IH]; intros n rp np Hr Hn Hc; [apply AP_nil|].
  destruct n as [|y n]; [reflexivity|].
  cbn [pm]. destruct Hc as (N1 & N2 & Hp & Hc).
  pose proof (Forall_inv Hr) as [Gx Px]. pose proof (Forall_inv Hn) as [Gy Py].
  apply Forall_inv_tail in Hr, Hn.
  unfold pr_rpath, pr_path. cbn [flat_map]. fold (pr_rpath r). fold (pr_path n).
  cbn [app]. rewrite AP_step, Nat.eqb_refl. rewrite <- !app_assoc.
  rewrite AP_names by auto. unfold segb.
  destruct (str_eqb (rs_name x) (s_name y)) eqn:E; cbn [andb]; [|reflexivity].
  apply str_eqb_eq in E. specialize (Hp E).
  destruct Hp as [Hp|[Hp _]].
  - rewrite Hp. cbn [pr_rpreds flat_map app]. unfold predsb. cbn [map combine forallb].
    destruct r as [|x' r]; [apply AP_nil|].
    unfold pr_rpath. cbn [flat_map app].
    destruct (AP_skip u (s_preds y) (lastc (Some c_slash) (rs_name x)) (lastc (Some c_slash) (rs_name x))
       ((rs_name x' ++ pr_rpreds (rs_preds x')) ++ flat_map (fun s => c_slash :: rs_name s ++ pr_rpreds (rs_preds s)) r)
       (pr_path n) Py) as (np' & ->).
    apply (IH n _ np' Hr Hn Hc).
  - destruct (AP_preds u (rs_preds x) (s_preds y) (lastc (Some c_slash) (rs_name x)) (lastc (Some c_slash) (rs_name x))
       (pr_rpath r) (pr_path n) Px Py Hp) as (rp' & np' & ->).
    destruct (predsb u (rs_preds x) (s_preds y)); [|reflexivity]. apply IH; auto.
Qed.

Lemma predsb_ok u rs : forall ns, map fst rs = map fst ns -> NoDup (map fst ns) ->
  (predsb u rs ns = true <-> forall k v, In (k, v) rs -> exists x, In (k, x) ns /\ val_ok u v x).
Proof.
  induction rs as [|[k v] rs IH]; intros [|[k' w] ns] E ND; cbn [map] in E; try discriminate E.
  - split; [intros _ k v []|reflexivity].
  - cbn [fst] in E. injection E as <- E. cbn [map fst] in ND.
    pose proof (NoDup_cons_iff k (map fst ns)) as HN. apply HN in ND as [NI ND].
    unfold predsb. cbn [map snd combine forallb fst]. fold (predsb u rs ns).
    rewrite andb_true_iff, valb_ok, (IH ns E ND). split.
    + intros [H1 H2] a b [Hin|Hin].
      * injection Hin as <- <-. exists w. split; [now left|auto].
      * destruct (H2 a b Hin) as (x & Hx & Hok). exists x. split; [now right|auto].
    + intros H. split.
      * destruct (H k v (or_introl eq_refl)) as (x & [Hx|Hx] & Hok).
        -- injection Hx as <-. auto.
        -- exfalso. apply NI. apply (in_map fst) in Hx. exact Hx.
      * intros a b Hin. destruct (H a b (or_intror Hin)) as (x & [Hx|Hx] & Hok).
        -- injection Hx as <- <-. exfalso. apply NI. rewrite <- E. apply (in_map fst) in Hin. exact Hin.
        -- exists x. auto.
Qed.
Lemma segb_ok u x y :
  (rs_name x = s_name y -> rs_preds x = [] \/ map fst (rs_preds x) = map fst (s_preds y) /\ NoDup (map fst (s_preds y))) ->
  (segb u x y = true <-> seg_ok u x y).
Proof.
  intros Hp. unfold segb, seg_ok. rewrite andb_true_iff, str_eqb_eq.
  split; intros [H1 H2]; split; auto; specialize (Hp H1).
  - destruct Hp as [Hp|[Hp ND]].
    + rewrite Hp. intros k v [].
    + now apply predsb_ok.
  - destruct Hp as [Hp|[Hp ND]].
    + rewrite Hp. reflexivity.
    + now apply predsb_ok.
Qed.
Lemma pm_full u r : forall n, compat r n -> (pm u r n = MFull <-> covers u r n).
Proof.
  induction r as [|x r IH]; intros [|y n] Hc; cbn [pm covers]; try tauto.
  - split; [discriminate|tauto].
  - destruct Hc as (_ & _ & Hp & Hc). pose proof (segb_ok u x y Hp) as HS. pose proof (IH n Hc) as HI.
    destruct (segb u x y).
    + tauto.
    + split; [discriminate|]. intros [H _]. apply HS in H. discriminate H.
Qed.
Lemma pm_noub u r : forall n, pm u r n <> MUb.
Proof.
  induction r as [|x r IH]; intros [|y n]; cbn [pm]; try discriminate. destruct (segb u x y); auto. discriminate.
Qed.

(** The target of a rule and the path of a node. *)
Lemma path_full u r n : Forall good_rseg r -> Forall good_seg n -> n <> [] -> compat r n ->
  (allowed_path u (pr_target r) (pr_path n) = MFull <-> covers u r n) /\ allowed_path u (pr_target r) (pr_path n) <> MUb.
Proof.
  intros Hr Hn Hne Hc. rewrite allowed_AP. destruct r as [|x r].
  - destruct n as [|y n]; [congruence|]. cbn [pr_target]. unfold pr_path. cbn [flat_map app].
    rewrite AP_step, Nat.eqb_refl, AP_nil. cbn [covers]. split; [tauto|discriminate].
  - cbn [pr_target]. rewrite AP_pm by auto. split; [now apply pm_full|apply pm_noub].
Qed.
