(** Proofs about DbTree.v: texts of paths, encoding of keys, order of rows. *)
From Coq Require Import List NArith Bool Arith Lia Permutation Sorting.Sorted.
From Verif Require Import DbTree DbTreeSpec.
Import ListNotations.

Lemma str_eqb_eq : forall (a b : str), str_eqb a b = true <-> a = b.
Proof.
  induction a as [|x a IH]; intros [|y b]; cbn [str_eqb]; split; intros H; try discriminate; auto.
  - apply andb_true_iff in H as [H1 H2]. apply N.eqb_eq in H1. apply IH in H2. congruence.
  - injection H as <- <-. rewrite N.eqb_refl. cbn [andb]. apply IH; auto.
Qed.

Lemma str_eqb_refl : forall (a : str), str_eqb a a = true.
Proof. intros a. apply str_eqb_eq; auto. Qed.

Lemma str_eqb_neq : forall (a b : str), a <> b -> str_eqb a b = false.
Proof. intros a b H. destruct (str_eqb a b) eqn:E; auto. apply str_eqb_eq in E. contradiction. Qed.

(** ** Scanning with quotes, for any separator *)

Fixpoint gtok (sep : N) (sq dq : bool) (s : str) : option (str * str) :=
  match s with
  | [] => None
  | c :: r =>
      if (c =? cSQ)%N then
        let sq' := if sq then false else if negb dq then true else sq in
        match gtok sep sq' dq r with Some (b, t) => Some (c :: b, t) | None => None end
      else if (c =? cDQ)%N then
        let dq' := if dq then false else if negb sq then true else dq in
        match gtok sep sq dq' r with Some (b, t) => Some (c :: b, t) | None => None end
      else if (c =? sep)%N && negb sq && negb dq then Some ([], r)
      else match gtok sep sq dq r with Some (b, t) => Some (c :: b, t) | None => None end
  end.

Lemma gtok_ptok : forall (s : str) (sq dq : bool), ptok sq dq s = gtok cSL sq dq s.
Proof.
  induction s as [|c s IH]; intros sq dq; cbn [ptok gtok]; auto.
  rewrite !IH. reflexivity.
Qed.

Definition pre (s : str) (o : option (str * str)) : option (str * str) :=
  match o with Some (b, t) => Some (s ++ b, t) | None => None end.

(** A text through which the scan goes without stopping and without an effect
    on the quotes. *)
Definition safe (sep : N) (s : str) : Prop :=
  forall (r : str), gtok sep false false (s ++ r) = pre s (gtok sep false false r).

Lemma pre_app : forall (s t : str) o, pre s (pre t o) = pre (s ++ t) o.
Proof. intros s t [[b u]|]; cbn [pre]; auto. rewrite app_assoc. auto. Qed.

Lemma safe_nil : forall (sep : N), safe sep [].
Proof. intros sep r. cbn [app]. destruct (gtok sep false false r) as [[b t]|]; auto. Qed.

Lemma safe_app : forall (sep : N) (s t : str), safe sep s -> safe sep t -> safe sep (s ++ t).
Proof. intros sep s t Hs Ht r. rewrite <- app_assoc, Hs, Ht, pre_app. auto. Qed.

Lemma safe_one : forall (sep c : N), c <> cSQ -> c <> cDQ -> c <> sep -> safe sep [c].
Proof.
  intros sep c H1 H2 H3 r. cbn [app gtok].
  apply N.eqb_neq in H1, H2, H3. rewrite H1, H2, H3. cbn [andb]. auto.
Qed.

Lemma safe_plain : forall (sep : N) (s : str),
  Forall (fun c => c <> cSQ /\ c <> cDQ /\ c <> sep) s -> safe sep s.
Proof.
  intros sep s H. induction H as [|c s (H1 & H2 & H3) _ IH].
  - apply safe_nil.
  - change (c :: s) with ([c] ++ s). apply safe_app; auto. apply safe_one; auto.
Qed.

Lemma in_single : forall (sep : N) (v r : str), ~ In cSQ v ->
  gtok sep true false (v ++ r) = pre v (gtok sep true false r).
Proof.
  induction v as [|c v IH]; intros r H; cbn [app].
  - destruct (gtok sep true false r) as [[b t]|]; auto.
  - cbn [gtok]. assert (Hc : c <> cSQ) by (intros ->; apply H; left; auto).
    apply N.eqb_neq in Hc. rewrite Hc.
    specialize (IH r (fun Hi => H (or_intror Hi))).
    destruct (c =? cDQ)%N; destruct (c =? sep)%N; cbn [negb andb pre app];
      rewrite IH; destruct (gtok sep true false r) as [[b t]|]; cbn [pre app]; auto.
Qed.

Lemma in_double : forall (sep : N) (v r : str), ~ In cDQ v ->
  gtok sep false true (v ++ r) = pre v (gtok sep false true r).
Proof.
  induction v as [|c v IH]; intros r H; cbn [app].
  - destruct (gtok sep false true r) as [[b t]|]; auto.
  - cbn [gtok]. assert (Hc : c <> cDQ) by (intros ->; apply H; left; auto).
    apply N.eqb_neq in Hc. rewrite Hc.
    specialize (IH r (fun Hi => H (or_intror Hi))).
    destruct (c =? cSQ)%N; destruct (c =? sep)%N; cbn [negb andb pre app];
      rewrite IH; destruct (gtok sep false true r) as [[b t]|]; cbn [pre app]; auto.
Qed.

Lemma quote_of_spec : forall (v : str), quotable v ->
  (quote_of v = cSQ /\ ~ In cSQ v) \/ (quote_of v = cDQ /\ ~ In cDQ v).
Proof.
  intros v H. unfold quote_of. destruct (existsb (N.eqb cSQ) v) eqn:E.
  - right. split; auto. intros Hd. apply H. split; auto.
    apply existsb_exists in E as (x & Hx & Ex). apply N.eqb_eq in Ex. congruence.
  - left. split; auto. intros Hi. assert (existsb (N.eqb cSQ) v = true).
    { apply existsb_exists. exists cSQ. split; auto. }
    congruence.
Qed.

Lemma quote_of_rev : forall (v : str), quote_of (rev v) = quote_of v.
Proof.
  intros v. unfold quote_of. destruct (existsb (N.eqb cSQ) v) eqn:E.
  - apply existsb_exists in E as (x & Hx & Ex).
    assert (existsb (N.eqb cSQ) (rev v) = true) as ->; auto.
    apply existsb_exists. exists x. split; auto. apply in_rev. rewrite rev_involutive. auto.
  - destruct (existsb (N.eqb cSQ) (rev v)) eqn:E2; auto.
    apply existsb_exists in E2 as (x & Hx & Ex). apply in_rev in Hx.
    assert (existsb (N.eqb cSQ) v = true) by (apply existsb_exists; eauto). congruence.
Qed.

Lemma safe_quoted : forall (sep : N) (v : str), quotable v ->
  safe sep ([quote_of v] ++ v ++ [quote_of v]).
Proof.
  intros sep v H r. destruct (quote_of_spec v H) as [[-> Hn]|[-> Hn]].
  - rewrite <- !app_assoc. cbn [app gtok]. rewrite N.eqb_refl. cbn [negb].
    rewrite in_single by auto. cbn [gtok]. rewrite N.eqb_refl.
    destruct (gtok sep false false r) as [[b t]|]; cbn [pre app]; auto.
    rewrite <- ?app_assoc. reflexivity.
  - rewrite <- !app_assoc. cbn [app gtok]. change (cDQ =? cSQ)%N with false. cbv iota.
    rewrite N.eqb_refl. cbn [negb].
    rewrite in_double by auto. cbn [gtok]. change (cDQ =? cSQ)%N with false. cbv iota.
    rewrite N.eqb_refl.
    destruct (gtok sep false false r) as [[b t]|]; cbn [pre app]; auto.
    rewrite <- ?app_assoc. reflexivity.
Qed.

Definition sep_ok (sep : N) : Prop := sep = cSL \/ sep = cSP.

Lemma safe_name : forall (sep : N) (n : str), sep_ok sep -> Forall name_byte n -> safe sep n.
Proof.
  intros sep n Hs H. apply safe_plain. eapply Forall_impl; [|apply H].
  intros c (A & B & C & D & _). repeat split; auto. destruct Hs as [-> | ->]; auto.
Qed.

Lemma Forall_rev' : forall (A : Type) (P : A -> Prop) (l : list A), Forall P l -> Forall P (rev l).
Proof. intros A P l H. apply Forall_rev. auto. Qed.

Lemma safe_punct : forall (sep c : N), sep_ok sep -> c = cLB \/ c = cEQ \/ c = cRB \/ c = cCL -> safe sep [c].
Proof.
  intros sep c [-> | ->] [-> | [-> | [-> | ->]]]; apply safe_one; discriminate.
Qed.

Lemma pred_split : forall (k v : str),
  pred_text (k, v) = [cLB] ++ k ++ [cEQ] ++ ([quote_of v] ++ v ++ [quote_of v]) ++ [cRB].
Proof. intros k v. unfold pred_text. cbn [app]. rewrite <- !app_assoc. auto. Qed.

Lemma safe_pred : forall (sep : N) (kv : str * str), sep_ok sep -> pred_ok kv -> safe sep (pred_text kv).
Proof.
  intros sep [k v] Hs [[_ Hk] Hv]. cbn [fst snd] in *. rewrite pred_split.
  apply safe_app; [apply safe_punct; auto|].
  apply safe_app; [apply safe_name; auto|].
  apply safe_app; [apply safe_punct; auto|].
  apply safe_app; [apply safe_quoted; auto|].
  apply safe_punct; auto.
Qed.

Lemma safe_pred_rev : forall (sep : N) (kv : str * str), sep_ok sep -> pred_ok kv ->
  safe sep (rev (pred_text kv)).
Proof.
  intros sep [k v] Hs [[_ Hk] Hv]. cbn [fst snd] in *. rewrite pred_split.
  rewrite !rev_app_distr. cbn [rev app]. rewrite <- !app_assoc.
  apply (safe_app sep [cRB]); [apply safe_punct; auto|].
  match goal with |- safe _ ?x =>
    replace x with (([quote_of v] ++ rev v ++ [quote_of v]) ++ [cEQ] ++ rev k ++ [cLB])
      by (rewrite <- !app_assoc; reflexivity) end.
  apply safe_app.
  { rewrite <- (quote_of_rev v). apply safe_quoted. intros [A B]. apply Hv.
    split; apply in_rev; auto. }
  apply safe_app; [apply safe_punct; auto|].
  apply safe_app; [apply safe_name; auto; apply Forall_rev'; auto|].
  apply safe_punct; auto.
Qed.

Lemma safe_preds : forall (sep : N) (l : list (str * str)), sep_ok sep -> Forall pred_ok l ->
  safe sep (concat (map pred_text l)).
Proof.
  intros sep l Hs H. induction H as [|kv l Hk _ IH]; cbn [map concat].
  - apply safe_nil.
  - apply safe_app; auto. apply safe_pred; auto.
Qed.

Lemma safe_preds_rev : forall (sep : N) (l : list (str * str)), sep_ok sep -> Forall pred_ok l ->
  safe sep (rev (concat (map pred_text l))).
Proof.
  intros sep l Hs H. induction H as [|kv l Hk _ IH]; cbn [map concat].
  - apply safe_nil.
  - rewrite rev_app_distr. apply safe_app; auto. apply safe_pred_rev; auto.
Qed.

Lemma safe_step : forall (sep : N) (pm : str) (s : step), sep_ok sep -> step_ok s ->
  safe sep (step_text pm s).
Proof.
  intros sep pm s Hs ([_ Hm] & [_ Hn] & Hp). unfold step_text.
  apply safe_app; [|apply safe_app; [apply safe_name; auto|apply safe_preds; auto]].
  destruct (str_eqb (s_mod s) pm); [apply safe_nil|].
  apply safe_app; [apply safe_name; auto|apply safe_punct; auto].
Qed.

Lemma safe_step_rev : forall (sep : N) (pm : str) (s : step), sep_ok sep -> step_ok s ->
  safe sep (rev (step_text pm s)).
Proof.
  intros sep pm s Hs ([_ Hm] & [_ Hn] & Hp). unfold step_text. rewrite !rev_app_distr.
  apply safe_app; [apply safe_app; [apply safe_preds_rev; auto|
                                    apply safe_name; auto; apply Forall_rev'; auto]|].
  destruct (str_eqb (s_mod s) pm); [apply safe_nil|].
  rewrite rev_app_distr. cbn [rev app].
  apply (safe_app sep [cCL]); [apply safe_punct; auto|].
  apply safe_name; auto. apply Forall_rev'; auto.
Qed.

Lemma step_text_ne : forall (pm : str) (s : step), step_ok s -> step_text pm s <> [].
Proof.
  intros pm s (_ & [Hn _] & _) H. unfold step_text in H.
  apply app_eq_nil in H as [_ H]. apply app_eq_nil in H as [H _]. contradiction.
Qed.

(** ** Texts of addresses with any separator *)

Fixpoint text_from (sep : N) (pm : str) (a : addr) : str :=
  match a with
  | [] => []
  | s :: a' => sep :: step_text pm s ++ text_from sep (s_mod s) a'
  end.

Lemma path_text : forall (a : addr) (pm : str), path_from pm a = text_from cSL pm a.
Proof. induction a as [|s a IH]; intros pm; cbn [path_from text_from]; auto. rewrite IH. auto. Qed.

Lemma gtok_sep : forall (sep : N) (r : str), sep_ok sep -> gtok sep false false (sep :: r) = Some ([], r).
Proof. intros sep r [-> | ->]; reflexivity. Qed.

Definition amod (pm : str) (a : addr) : str := match rev a with [] => pm | s :: _ => s_mod s end.

Lemma amod_cons : forall (a : addr) (pm : str) (s : step), amod pm (s :: a) = amod (s_mod s) a.
Proof.
  intros a pm s. unfold amod. cbn [rev]. destruct (rev a) as [|x l] eqn:E; cbn [app]; auto.
Qed.

Lemma text_app : forall (sep : N) (a b : addr) (pm : str),
  text_from sep pm (a ++ b) = text_from sep pm a ++ text_from sep (amod pm a) b.
Proof.
  induction a as [|s a IH]; intros b pm; cbn [app text_from]; auto.
  rewrite IH, amod_cons, <- app_assoc. auto.
Qed.

(** The depth of a path is the number of its steps. *)
Lemma depth_text : forall (a : addr) (pm : str) (fuel : nat), Forall step_ok a ->
  (length a < fuel)%nat -> forall (t : str), safe cSL t ->
  depth_f fuel (t ++ path_from pm a) = length a.
Proof.
  induction a as [|s a IH]; intros pm fuel Hok Hf t Ht.
  - cbn [path_from length]. destruct fuel as [|f]; auto. cbn [depth_f].
    rewrite gtok_ptok, Ht. cbn [gtok pre]. auto.
  - inversion Hok as [|? ? Hs Ha]; subst. cbn [path_from length] in *.
    destruct fuel as [|f]; [lia|]. cbn [depth_f].
    rewrite gtok_ptok, Ht, gtok_sep by (left; auto). cbn [pre].
    rewrite IH; auto; [lia|]. apply safe_step; auto. left; auto.
Qed.

Lemma text_length : forall (sep : N) (a : addr) (pm : str), (length a <= length (text_from sep pm a))%nat.
Proof.
  induction a as [|s a IH]; intros pm; cbn [text_from length]; [lia|].
  rewrite app_length. specialize (IH (s_mod s)). lia.
Qed.

Lemma node_depth_path : forall (a : addr), Forall step_ok a -> node_depth (path_of a) = length a.
Proof.
  intros a H. unfold node_depth, path_of.
  refine (depth_text a [] (S (length (path_from [] a))) H _ [] (safe_nil _)).
  rewrite path_text. pose proof (text_length cSL a []). lia.
Qed.

(** The parent path is the path of the parent. *)
Lemma parent_path_text : forall (a : addr) (s : step), step_ok s ->
  parent_path (path_of (a ++ [s])) = Some (path_of a).
Proof.
  intros a s Hs. unfold parent_path, path_of. rewrite !path_text, text_app.
  cbn [text_from]. rewrite app_nil_r.
  rewrite rev_app_distr. cbn [rev]. rewrite <- app_assoc, gtok_ptok.
  rewrite (safe_step_rev cSL (amod [] a) s (or_introl eq_refl) Hs).
  cbn [app]. rewrite gtok_sep by (left; auto). cbn [pre]. rewrite rev_involutive. auto.
Qed.

(** The modified path. *)
Lemma modif_text : forall (a : addr) (pm : str) (fuel : nat), Forall step_ok a ->
  (length a < fuel)%nat -> forall (t : str), safe cSL t ->
  modif_f fuel (t ++ path_from pm a ++ [cSP]) = t ++ text_from cSP pm a ++ [cSP].
Proof.
  induction a as [|s a IH]; intros pm fuel Hok Hf t Ht.
  - cbn [path_from text_from app]. destruct fuel as [|f]; auto. cbn [modif_f].
    rewrite gtok_ptok, Ht. cbn [gtok]. auto.
  - inversion Hok as [|? ? Hs Ha]; subst. cbn [path_from text_from length app] in *.
    destruct fuel as [|f]; [lia|]. cbn [modif_f].
    rewrite gtok_ptok, Ht, gtok_sep by (left; auto). cbn [pre]. rewrite app_nil_r.
    rewrite <- !app_assoc. rewrite IH; auto; [lia|]. apply safe_step; auto. left; auto.
Qed.

Definition mtext (a : addr) : str := text_from cSP [] a ++ [cSP].

Lemma modif_path_text : forall (a : addr), Forall step_ok a -> modif_path (path_of a) = mtext a.
Proof.
  intros a H. unfold modif_path, path_of, mtext.
  refine (modif_text a [] _ H _ [] (safe_nil _)).
  rewrite app_length, path_text. pose proof (text_length cSL a []). lia.
Qed.

(** ** The texts determine the steps *)

(** The first byte out of [stop] splits a text in one way. *)
Lemma split_unique : forall (P : N -> Prop) (a b : str) (x y : N) (r t : str),
  Forall P a -> Forall P b -> ~ P x -> ~ P y -> a ++ x :: r = b ++ y :: t ->
  a = b /\ x = y /\ r = t.
Proof.
  induction a as [|c a IH]; intros [|e b] x y r t Ha Hb Hx Hy E; cbn [app] in E.
  - injection E as <- <-. auto.
  - injection E as -> ->. inversion Hb; subst. contradiction.
  - injection E as <- <-. inversion Ha; subst. contradiction.
  - injection E as <- E. inversion Ha; inversion Hb; subst.
    destruct (IH b x y r t) as (-> & -> & ->); auto.
Qed.

Lemma pred_inj : forall (p q : str * str) (r t : str), pred_ok p -> pred_ok q ->
  pred_text p ++ r = pred_text q ++ t -> p = q /\ r = t.
Proof.
  intros [k v] [k' v'] r t [[_ Hk] Hv] [[_ Hk'] Hv'] E. cbn [fst snd] in *.
  unfold pred_text in E. cbn [app] in E. injection E as E. rewrite <- !app_assoc in E. cbn [app] in E.
  destruct (split_unique (fun c => c <> cEQ) k k' cEQ cEQ
              (quote_of v :: (v ++ [quote_of v; cRB]) ++ r)
              (quote_of v' :: (v' ++ [quote_of v'; cRB]) ++ t)) as (-> & _ & E2); auto.
  { eapply Forall_impl; [|apply Hk]. intros c Hc. apply Hc. }
  { eapply Forall_impl; [|apply Hk']. intros c Hc. apply Hc. }
  injection E2 as Eq E2. rewrite <- !app_assoc in E2. cbn [app] in E2.
  assert (Hin : forall w, quotable w -> Forall (fun c => c <> quote_of w) w).
  { intros w Hw. apply Forall_forall. intros x Hx ->.
    destruct (quote_of_spec w Hw) as [[Q A]|[Q A]]; rewrite Q in Hx; contradiction. }
  destruct (split_unique (fun c => c <> quote_of v) v v' (quote_of v) (quote_of v')
              (cRB :: r) (cRB :: t)) as (-> & _ & E3); auto.
  { rewrite Eq. auto. }
  injection E3 as ->. auto.
Qed.

(** Two lists of predicates followed by nothing or by a separator. *)
Lemma preds_inj : forall (l l' : list (str * str)) (r t : str), Forall pred_ok l -> Forall pred_ok l' ->
  (forall x, r <> cLB :: x) -> (forall x, t <> cLB :: x) ->
  concat (map pred_text l) ++ r = concat (map pred_text l') ++ t -> l = l' /\ r = t.
Proof.
  induction l as [|p l IH]; intros [|q l'] r t Hl Hl' Hr Ht E; cbn [map concat app] in E.
  - auto.
  - exfalso. destruct q as [k v]. unfold pred_text in E. cbn [app] in E. apply (Hr _ E).
  - exfalso. destruct p as [k v]. unfold pred_text in E. cbn [app] in E. symmetry in E. apply (Ht _ E).
  - inversion Hl; inversion Hl'; subst. rewrite <- !app_assoc in E.
    apply pred_inj in E as [-> E]; auto. apply IH in E as [-> ->]; auto.
Qed.

Definition tail_ok (r : str) : Prop := r = [] \/ exists c x, r = c :: x /\ (c = cSL \/ c = cSP).

Lemma tail_nlb : forall (r : str), tail_ok r -> forall x, r <> cLB :: x.
Proof. intros r [-> | (c & y & -> & [-> | ->])] x H; discriminate. Qed.

(** What follows a name. *)
Lemma preds_head : forall (l : list (str * str)) (r : str), tail_ok r ->
  concat (map pred_text l) ++ r = [] \/
  exists c x, concat (map pred_text l) ++ r = c :: x /\ (c = cLB \/ c = cSL \/ c = cSP).
Proof.
  intros [|[k v] l] r H; cbn [map concat].
  - cbn [app]. destruct H as [-> | (c & x & -> & Hc)]; auto. right. exists c, x. auto.
  - right. unfold pred_text. cbn [app]. eexists _, _. split; [reflexivity|auto].
Qed.

Lemma split_unique0 : forall (P : N -> Prop) (a b r t : str),
  Forall P a -> Forall P b ->
  (r = [] \/ exists c x, r = c :: x /\ ~ P c) -> (t = [] \/ exists c x, t = c :: x /\ ~ P c) ->
  a ++ r = b ++ t -> a = b /\ r = t.
Proof.
  induction a as [|c a IH]; intros [|e b] r t Ha Hb Hr Ht E; cbn [app] in E; auto.
  - inversion Hb; subst. destruct Hr as [|(x & y & E2 & Hn)]; [discriminate|].
    injection E2 as <- _. contradiction.
  - inversion Ha; subst. destruct Ht as [|(x & y & E2 & Hn)]; [discriminate|].
    injection E2 as <- _. contradiction.
  - injection E as <- E. inversion Ha; inversion Hb; subst.
    destruct (IH b r t) as [-> ->]; auto.
Qed.

Lemma step_inj : forall (pm : str) (s s' : step) (r t : str), step_ok s -> step_ok s' ->
  tail_ok r -> tail_ok t -> step_text pm s ++ r = step_text pm s' ++ t -> s = s' /\ r = t.
Proof.
  intros pm [m n l] [m' n' l'] r t ([Hm0 Hm] & [Hn0 Hn] & Hl) ([Hm0' Hm'] & [Hn0' Hn'] & Hl') Hr Ht E.
  unfold step_text in E. cbn [s_mod s_name s_preds] in *. rewrite <- !app_assoc in E.
  assert (Hstop : forall (x : str), (x = [] \/ exists c y, x = c :: y /\ (c = cLB \/ c = cSL \/ c = cSP)) ->
            x = [] \/ exists c y, x = c :: y /\ ~ name_byte c).
  { intros x [-> | (c & y & -> & Hc)]; auto. right. exists c, y. split; auto.
    intros (A & _ & _ & B & _ & _ & C). destruct Hc as [|[|]]; congruence. }
  assert (Hfin : n ++ concat (map pred_text l) ++ r = n' ++ concat (map pred_text l') ++ t ->
            n = n' /\ l = l' /\ r = t).
  { intros E2. destruct (split_unique0 name_byte n n' _ _ Hn Hn'
      (Hstop _ (preds_head l r Hr)) (Hstop _ (preds_head l' t Ht)) E2) as [-> E3].
    apply preds_inj in E3 as [-> ->]; auto; apply tail_nlb; auto. }
  assert (Hmix : forall (x y z : str) (l2 : list (str * str)) (r2 : str),
            Forall name_byte x -> Forall name_byte z -> tail_ok r2 ->
            z ++ concat (map pred_text l2) ++ r2 <> x ++ [cCL] ++ y).
  { intros x y z l2 r2 Hx Hz Hr2 E2. cbn [app] in E2.
    destruct (split_unique0 name_byte z x _ (cCL :: y) Hz Hx (Hstop _ (preds_head l2 r2 Hr2))) as [_ E3]; auto.
    { right. exists cCL, y. split; auto. intros (_ & _ & _ & _ & A & _). congruence. }
    destruct (preds_head l2 r2 Hr2) as [E4|(c & w & E4 & Hc)]; rewrite E4 in E3; [discriminate|].
    injection E3 as -> _. destruct Hc as [|[|]]; discriminate. }
  destruct (str_eqb m pm) eqn:Em; destruct (str_eqb m' pm) eqn:Em'; cbn [app] in E.
  - apply str_eqb_eq in Em, Em'. subst. destruct (Hfin E) as (-> & -> & ->). auto.
  - exfalso. rewrite <- app_assoc in E. apply (Hmix m' _ n l r Hm' Hn Hr E).
  - exfalso. rewrite <- app_assoc in E. symmetry in E. apply (Hmix m _ n' l' t Hm Hn' Ht E).
  - rewrite <- !app_assoc in E. cbn [app] in E.
    destruct (split_unique name_byte m m' cCL cCL
                (n ++ concat (map pred_text l) ++ r) (n' ++ concat (map pred_text l') ++ t))
      as (-> & _ & E2); auto.
    { intros (_ & _ & _ & _ & A & _). congruence. }
    { intros (_ & _ & _ & _ & A & _). congruence. }
    destruct (Hfin E2) as (-> & -> & ->). auto.
Qed.

Lemma text_tail : forall (sep : N) (a : addr) (pm : str) (v : str), sep_ok sep -> tail_ok v ->
  tail_ok (text_from sep pm a ++ v).
Proof.
  intros sep [|s a] pm v Hs Hv; cbn [text_from app]; auto.
  right. eexists _, _. split; [reflexivity|]. destruct Hs; auto.
Qed.

(** A text of [p] followed by a separator begins the text of [b] only if [p] is
    the beginning of [b]. *)
Lemma text_prefix : forall (sep : N) (p b : addr) (pm u v : str), sep_ok sep ->
  Forall step_ok p -> Forall step_ok b -> v = [] \/ v = [sep] ->
  text_from sep pm p ++ sep :: u = text_from sep pm b ++ v ->
  exists b', b = p ++ b'.
Proof.
  induction p as [|s p IH]; intros b pm u v Hs Hp Hb Hv E.
  - exists b. auto.
  - inversion Hp as [|? ? Hs1 Hp1]; subst. cbn [text_from app] in E.
    assert (Htail : forall x, tail_ok (sep :: x)).
    { intros x. right. exists sep, x. split; auto. }
    destruct b as [|s' b].
    + exfalso. cbn [text_from app] in E. destruct Hv as [-> | ->]; [discriminate|].
      injection E as E. rewrite <- app_assoc in E. apply app_eq_nil in E as [E _].
      revert E. apply step_text_ne; auto.
    + inversion Hb as [|? ? Hs2 Hb2]; subst. cbn [text_from app] in E. injection E as E.
      rewrite <- !app_assoc in E. apply step_inj in E as [<- E]; auto.
      * apply IH in E as [b' ->]; auto. exists b'. auto.
      * apply text_tail; auto.
      * apply text_tail; auto. destruct Hv as [-> | ->]; [left; auto|apply Htail].
Qed.

Lemma text_inj : forall (sep : N) (p b : addr) (pm : str), sep_ok sep ->
  Forall step_ok p -> Forall step_ok b -> text_from sep pm p = text_from sep pm b -> p = b.
Proof.
  induction p as [|s p IH]; intros [|s' b] pm Hs Hp Hb E; cbn [text_from] in E; auto; try discriminate.
  inversion Hp; inversion Hb; subst. injection E as E.
  assert (Ht : forall a m, tail_ok (text_from sep m a)).
  { intros a m. rewrite <- (app_nil_r (text_from sep m a)). apply text_tail; auto. left; auto. }
  apply step_inj in E as [<- E]; auto. f_equal. eapply IH; eauto.
Qed.

Lemma path_inj : forall (a b : addr), Forall step_ok a -> Forall step_ok b -> path_of a = path_of b -> a = b.
Proof.
  intros a b Ha Hb E. unfold path_of in E. rewrite !path_text in E.
  apply (text_inj cSL a b []); auto. left; auto.
Qed.

Lemma mtext_inj : forall (a b : addr), Forall step_ok a -> Forall step_ok b -> mtext a = mtext b -> a = b.
Proof.
  intros a b Ha Hb E. unfold mtext in E. apply app_inv_tail in E.
  apply (text_inj cSP a b []); auto. right; auto.
Qed.

Lemma mtext_prefix : forall (p b : addr) (u : str), Forall step_ok p -> Forall step_ok b ->
  mtext p ++ u = mtext b -> exists b', b = p ++ b'.
Proof.
  intros p b u Hp Hb E. unfold mtext in E. rewrite <- app_assoc in E. cbn [app] in E.
  eapply (text_prefix cSP p b [] u [cSP]); eauto. right; auto.
Qed.

Lemma mtext_app : forall (p b : addr), exists u, mtext (p ++ b) = mtext p ++ u.
Proof.
  intros p b. unfold mtext. rewrite text_app. destruct b as [|s b]; cbn [text_from].
  - exists []. rewrite !app_nil_r. auto.
  - exists ((step_text (amod [] p) s ++ text_from cSP (s_mod s) b) ++ [cSP]).
    rewrite <- !app_assoc. cbn [app]. rewrite <- ?app_assoc. reflexivity.
Qed.

(** ** The encoding of keys *)

Lemma byte_small : forall (n : N), (n < 256)%N -> byte n = n.
Proof.
  intros n H. unfold byte. change 255%N with (N.ones 8). rewrite N.land_ones.
  apply N.mod_small. exact H.
Qed.

Lemma enc_len : forall (n : N), (n <= 16383)%N ->
  N.lor (N.land (N.shiftl (sext (byte (N.shiftr n 7))) 7) 4294967295)
        (sext (byte (N.land n 127))) = n.
Proof.
  intros n H.
  assert (H1 : (N.shiftr n 7 < 128)%N).
  { rewrite N.shiftr_div_pow2. apply N.div_lt_upper_bound; [discriminate|].
    change (2 ^ 7 * 128)%N with 16384%N. lia. }
  assert (H2 : (N.land n 127 < 128)%N).
  { change 127%N with (N.ones 7). rewrite N.land_ones. apply N.mod_lt. discriminate. }
  rewrite (byte_small (N.shiftr n 7)) by lia. rewrite (byte_small (N.land n 127)) by lia.
  unfold sext. apply N.ltb_lt in H2. rewrite H2.
  pose proof H1 as H3. apply N.ltb_lt in H1. rewrite H1.
  change 4294967295%N with (N.ones 32). rewrite N.land_ones.
  rewrite N.mod_small.
  2:{ rewrite N.shiftl_mul_pow2. change (2 ^ 7)%N with 128%N. change (2 ^ 32)%N with 4294967296%N.
      revert H3. generalize (N.shiftr n 7). intros. lia. }
  change 127%N with (N.ones 7). apply N.bits_inj. intros i.
  rewrite N.lor_spec, N.land_spec. destruct (N.ltb_spec i 7) as [L|L].
  - rewrite N.shiftl_spec_low by auto. rewrite N.ones_spec_low by auto.
    cbn [orb]. apply andb_true_r.
  - rewrite N.shiftl_spec_high' by auto. rewrite N.shiftr_spec by lia.
    rewrite N.ones_spec_high by auto. rewrite andb_false_r, orb_false_r. f_equal. lia.
Qed.

Lemma dec_enc_vals : forall (vs : list str) (t : str), enc_vals vs = Some t -> dec_vals (length vs) t = Some vs.
Proof.
  induction vs as [|v vs IH]; intros t H; cbn [enc_vals] in H.
  - reflexivity.
  - destruct (16383 <? klen v)%N eqn:E; [discriminate|]. apply N.ltb_ge in E.
    destruct (enc_vals vs) as [r|] eqn:Er; [|discriminate].
    apply (f_equal (fun o => match o with Some x => x | None => t end)) in H. cbv beta iota in H.
    subst t. cbn [length dec_vals]. rewrite enc_len by auto. unfold klen. rewrite Nat2N.id.
    rewrite app_length. destruct (length v + length r <? length v)%nat eqn:L.
    { apply Nat.ltb_lt in L. lia. }
    rewrite skipn_app, skipn_all, Nat.sub_diag. cbn [skipn app].
    rewrite (IH r) by auto. rewrite firstn_app, firstn_all, Nat.sub_diag. cbn [firstn].
    rewrite app_nil_r. auto.
Qed.

Lemma dec_enc_keys : forall (vs : list str) (t : str), enc_keys vs = Some t -> dec_keys t = Some vs.
Proof.
  intros vs t H. unfold enc_keys in H. destruct (127 <? N.of_nat (length vs))%N eqn:E127; [discriminate|].
  apply N.ltb_ge in E127. rewrite byte_small in H by lia.
  destruct (enc_vals vs) as [r|] eqn:E; [|discriminate]. injection H as <-.
  unfold dec_keys. rewrite Nat2N.id. apply dec_enc_vals; auto.
Qed.
