From Coq Require Import Ascii String List Bool Arith NArith Lia.
From Verif Require Import JsonStore JsonSpec.
Import ListNotations.

(** * Files *)
Lemma set_set f a b s : set f a (set f b s) = set f a s.
Proof. destruct f; reflexivity. Qed.
Lemma get_set f a s : get f (set f a s) = a.
Proof. destruct f; reflexivity. Qed.
Lemma get_set_ne f g a s : f <> g -> get f (set g a s) = get f s.
Proof. destruct f, g; intros H; try reflexivity; congruence. Qed.
Lemma set_get f s : set f (get f s) s = s.
Proof. destruct f, s; reflexivity. Qed.
Lemma content_set f a s : content f (set f (Some a) s) = a.
Proof. unfold content. rewrite get_set. reflexivity. Qed.
Lemma content_set_ne f g a s : f <> g -> content f (set g a s) = content f s.
Proof. intros H. unfold content. rewrite get_set_ne by exact H. reflexivity. Qed.
Lemma content_get f s l : get f s = Some l -> content f s = l.
Proof. intros H. unfold content. rewrite H. reflexivity. Qed.

Lemma firstn_plus {A} (n m : nat) (l : list A) : firstn (n + m) l = firstn n l ++ firstn m (skipn n l).
Proof. revert l. induction n as [|n IH]; intros [|x l]; cbn; try reflexivity; [rewrite firstn_nil; reflexivity|].
  rewrite IH. reflexivity. Qed.
Lemma skipn_plus {A} (n m : nat) (l : list A) : skipn m (skipn n l) = skipn (n + m) l.
Proof. revert l. induction n as [|n IH]; intros [|x l]; cbn; try reflexivity; [apply skipn_nil|apply IH]. Qed.
Lemma chunk_pos : 0 < chunk.
Proof. unfold chunk. lia. Qed.

Lemma wr_end (l d : bytes) : wr (length l) d l = l ++ d.
Proof. unfold wr. rewrite firstn_all, Nat.sub_diag. cbn [repeat app]. f_equal.
  rewrite skipn_all2 by lia. apply app_nil_r. Qed.
Lemma wr_mix (k : nat) (d a l : bytes) : length a = k -> wr k d (a ++ skipn k l) = (a ++ d) ++ skipn (k + length d) l.
Proof.
  intros H. unfold wr. rewrite firstn_app, H, Nat.sub_diag. cbn [firstn]. rewrite app_nil_r.
  rewrite <- H, firstn_all. rewrite app_length.
  replace (length a - (length a + length (skipn (length a) l))) with 0 by lia. cbn [repeat app].
  rewrite <- app_assoc. f_equal. f_equal. rewrite skipn_app, skipn_all2 by lia. cbn [app].
  rewrite skipn_plus. f_equal. lia.
Qed.

(** * Copying *)
Lemma cp_loop_spec to from src s0 o : to <> from -> get from s0 = Some src -> forall rp wp,
  wp <= rp -> rp <= length src ->
  match cp_loop to from rp wp (firstn (rp - wp) (skipn wp src)) o (set to (Some (firstn wp src)) s0) with
  | Died s' | Fin true _ s' => exists k, s' = set to (Some (firstn k src)) s0
  | Fin false _ s' => s' = set to (Some src) s0
  end.
Proof.
  intros Hne Hf. induction o as [|x o IH]; intros rp wp Hw Hr; cbn [cp_loop]; [exists wp; reflexivity|].
  assert (Hc : content from (set to (Some (firstn wp src)) s0) = src).
  { apply content_get. rewrite get_set_ne by congruence. exact Hf. }
  assert (Hl : length (firstn (rp - wp) (skipn wp src)) = rp - wp).
  { rewrite firstn_length, skipn_length. lia. }
  destruct (firstn (rp - wp) (skipn wp src)) as [|b bf] eqn:Eb.
  - cbn in Hl. assert (rp = wp) by lia. subst rp.
    destruct x as [| |n]; [exists wp; reflexivity..|].
    rewrite Hc. destruct (skipn wp src) as [|c rest] eqn:Es.
    + f_equal. f_equal. apply firstn_all2.
      assert (length (skipn wp src) = 0) by (rewrite Es; reflexivity). rewrite skipn_length in H. lia.
    + rewrite <- Es. set (k := Nat.max 1 (Nat.min n chunk)).
      specialize (IH (wp + length (firstn k (skipn wp src))) wp).
      assert (Hk : firstn (wp + length (firstn k (skipn wp src)) - wp) (skipn wp src) = firstn k (skipn wp src)).
      { replace (wp + length (firstn k (skipn wp src)) - wp) with (length (firstn k (skipn wp src))) by lia.
        rewrite firstn_length. destruct (Nat.le_ge_cases k (length (skipn wp src))).
        - rewrite Nat.min_l by assumption. reflexivity.
        - rewrite Nat.min_r by assumption. rewrite firstn_all. symmetry. apply firstn_all2. assumption. }
      rewrite Hk in IH. apply IH; [lia|]. rewrite firstn_length, skipn_length. lia.
  - destruct x as [| |n]; [exists wp; reflexivity| |].
    + specialize (IH rp wp Hw Hr). rewrite Eb in IH. exact IH.
    + rewrite <- Eb in *. rewrite content_set.
      set (buf := firstn (rp - wp) (skipn wp src)) in *.
      assert (Hd : firstn (length (firstn n buf)) (skipn wp src) = firstn n buf).
      { unfold buf. rewrite firstn_firstn. rewrite firstn_length, skipn_length.
        rewrite Nat.min_l by lia. reflexivity. }
      assert (Hln : length (firstn n buf) = Nat.min n (rp - wp)) by (rewrite firstn_length; lia).
      assert (Hws : wr wp (firstn n buf) (firstn wp src) = firstn (wp + length (firstn n buf)) src).
      { rewrite firstn_plus, Hd. rewrite <- wr_end. f_equal. rewrite firstn_length. lia. }
      rewrite Hws, set_set.
      specialize (IH rp (wp + length (firstn n buf))).
      assert (Hb : firstn (rp - (wp + length (firstn n buf))) (skipn (wp + length (firstn n buf)) src) = skipn n buf).
      { unfold buf. rewrite skipn_firstn_comm. rewrite skipn_plus.
        fold buf. rewrite Hln. destruct (Nat.le_ge_cases n (rp - wp)).
        - rewrite Nat.min_l by assumption. f_equal. lia.
        - rewrite Nat.min_r by assumption. replace (rp - (wp + (rp - wp))) with 0 by lia.
          replace (rp - wp - n) with 0 by lia. reflexivity. }
      rewrite Hb in IH. apply IH; lia.
Qed.
Lemma cp_loop_works to from src s0 o : to <> from -> get from s0 = Some src -> works o -> forall rp wp,
  wp <= rp -> rp <= length src -> 2 * (length src - rp) + (rp - wp) + 1 <= length o ->
  exists o' s', cp_loop to from rp wp (firstn (rp - wp) (skipn wp src)) o (set to (Some (firstn wp src)) s0) = Fin false o' s'
    /\ length o <= length o' + (2 * (length src - rp) + (rp - wp) + 1) /\ works o'.
Proof.
  intros Hne Hf. induction o as [|x o IH]; intros Hx rp wp Hw Hr Hm; cbn [cp_loop]; [cbn [length] in Hm; lia|].
  assert (Hx' : works o) by (intros y Hy; apply Hx; right; exact Hy).
  specialize (IH Hx').
  assert (Hc : content from (set to (Some (firstn wp src)) s0) = src).
  { apply content_get. rewrite get_set_ne by congruence. exact Hf. }
  assert (Hl : length (firstn (rp - wp) (skipn wp src)) = rp - wp).
  { rewrite firstn_length, skipn_length. lia. }
  destruct (Hx x (or_introl eq_refl)) as (n & ->).
  destruct (firstn (rp - wp) (skipn wp src)) as [|b bf] eqn:Eb.
  - cbn in Hl. assert (rp = wp) by lia. subst rp. rewrite Hc.
    destruct (skipn wp src) as [|c rest] eqn:Es.
    + exists o. eexists. split; [reflexivity|]. cbn [length]. split; [lia|exact Hx'].
    + rewrite <- Es. set (k := Nat.max 1 (Nat.min (S n) chunk)).
      assert (Hpos : 0 < length (skipn wp src)) by (rewrite Es; cbn; lia).
      assert (Hlk : 0 < length (firstn k (skipn wp src)) <= length src - wp).
      { rewrite firstn_length, skipn_length in *. unfold k. lia. }
      specialize (IH (wp + length (firstn k (skipn wp src))) wp).
      assert (Hk : firstn (wp + length (firstn k (skipn wp src)) - wp) (skipn wp src) = firstn k (skipn wp src)).
      { replace (wp + length (firstn k (skipn wp src)) - wp) with (length (firstn k (skipn wp src))) by lia.
        rewrite firstn_length. destruct (Nat.le_ge_cases k (length (skipn wp src))).
        - rewrite Nat.min_l by assumption. reflexivity.
        - rewrite Nat.min_r by assumption. rewrite firstn_all. symmetry. apply firstn_all2. assumption. }
      rewrite Hk in IH. cbn [length] in Hm.
      destruct IH as (o' & s' & E & L & W); [lia..|].
      exists o', s'. split; [exact E|]. cbn [length]. split; [lia|exact W].
  - rewrite <- Eb in *. rewrite content_set.
    set (buf := firstn (rp - wp) (skipn wp src)) in *.
    assert (Hpos : 0 < length buf) by (rewrite Eb; cbn; lia).
    assert (Hd : firstn (length (firstn (S n) buf)) (skipn wp src) = firstn (S n) buf).
    { unfold buf. rewrite firstn_firstn. rewrite firstn_length, skipn_length.
      rewrite Nat.min_l by lia. reflexivity. }
    assert (Hln : length (firstn (S n) buf) = Nat.min (S n) (rp - wp)) by (rewrite firstn_length; lia).
    assert (Hws : wr wp (firstn (S n) buf) (firstn wp src) = firstn (wp + length (firstn (S n) buf)) src).
    { rewrite firstn_plus, Hd. rewrite <- wr_end. f_equal. rewrite firstn_length. lia. }
    rewrite Hws, set_set.
    specialize (IH rp (wp + length (firstn (S n) buf))).
    assert (Hb : firstn (rp - (wp + length (firstn (S n) buf))) (skipn (wp + length (firstn (S n) buf)) src) = skipn (S n) buf).
    { unfold buf. rewrite skipn_firstn_comm. rewrite skipn_plus.
      fold buf. rewrite Hln. destruct (Nat.le_ge_cases (S n) (rp - wp)).
      - rewrite Nat.min_l by assumption. f_equal. lia.
      - rewrite Nat.min_r by assumption. replace (rp - (wp + (rp - wp))) with 0 by lia.
        replace (rp - wp - S n) with 0 by lia. reflexivity. }
    rewrite Hb in IH. cbn [length] in Hm.
    destruct IH as (o' & s' & E & L & W); [lia..|].
    exists o', s'. split; [exact E|]. cbn [length]. split; [lia|exact W].
Qed.

(** Copying of a file over another existing one. *)
Lemma cp_path_spec to from src trg s o : to <> from -> get from s = Some src -> get to s = Some trg ->
  match cp_path to from o s with
  | Died s' | Fin true _ s' => s' = s \/ exists k, s' = set to (Some (firstn k src)) s
  | Fin false _ s' => s' = set to (Some src) s
  end.
Proof.
  intros Hne Hf Ht. unfold cp_path, bind, open_, open_trunc, sys.
  destruct o as [|x o]; [left; reflexivity|]. rewrite Hf.
  destruct x as [| |n]; cbn; [left; reflexivity..|].
  destruct o as [|y o]; [left; reflexivity|]. rewrite Ht.
  destruct y as [| |m]; cbn; [left; reflexivity..|].
  pose proof (cp_loop_spec to from src s o Hne Hf 0 0 (le_n _) (Nat.le_0_l _)) as H.
  cbn [Nat.sub firstn] in H.
  destruct (cp_loop to from 0 0 [] o (set to (Some []) s)) as [s'|[] o' s']; [right; exact H..|exact H].
Qed.
Lemma cp_path_works to from src trg s o : to <> from -> get from s = Some src -> get to s = Some trg -> works o ->
  2 * length src + 3 <= length o ->
  exists o', cp_path to from o s = Fin false o' (set to (Some src) s) /\ length o <= length o' + (2 * length src + 3) /\ works o'.
Proof.
  intros Hne Hf Ht Hx Hl.
  pose proof (cp_path_spec to from src trg s o Hne Hf Ht) as P.
  assert (E : exists o' s', cp_path to from o s = Fin false o' s' /\ length o <= length o' + (2 * length src + 3) /\ works o').
  { clear P. unfold cp_path, bind, open_, open_trunc, sys.
    destruct o as [|x o]; [cbn in Hl; lia|]. destruct (Hx x (or_introl eq_refl)) as (n & ->). rewrite Hf. cbn.
    destruct o as [|y o]; [cbn in Hl; lia|]. destruct (Hx y (or_intror (or_introl eq_refl))) as (m & ->). rewrite Ht. cbn.
    assert (Hx' : works o) by (intros z Hz; apply Hx; right; right; exact Hz).
    destruct (cp_loop_works to from src s o Hne Hf Hx' 0 0 (le_n _) (Nat.le_0_l _)) as (o' & s' & E & L & W).
    { cbn [length] in Hl. lia. }
    cbn [Nat.sub firstn] in E. exists o', s'. split; [exact E|]. split; [lia|exact W]. }
  destruct E as (o' & s' & E & L & W). rewrite E in P. subst s'. exists o'. split; [exact E|]. split; [exact L|exact W].
Qed.

(** * Printing *)
Lemma print_loop_spec f text l s0 o : forall k, k <= length text ->
  match print_loop f k (skipn k text) o (set f (Some (firstn k text ++ skipn k l)) s0) with
  | Died s' | Fin true _ s' => exists k', s' = set f (Some (firstn k' text ++ skipn k' l)) s0
  | Fin false _ s' => s' = set f (Some (text ++ skipn (length text) l)) s0
  end.
Proof.
  induction o as [|x o IH]; intros k Hk.
  - cbn [print_loop]. destruct (skipn k text) as [|b rest] eqn:E; [|exists k; reflexivity].
    assert (length (skipn k text) = 0) by (rewrite E; reflexivity). rewrite skipn_length in H.
    assert (k = length text) by lia. subst k. rewrite firstn_all. reflexivity.
  - cbn [print_loop]. destruct (skipn k text) as [|b rest] eqn:E.
    + assert (length (skipn k text) = 0) by (rewrite E; reflexivity). rewrite skipn_length in H.
      assert (k = length text) by lia. subst k. rewrite firstn_all. reflexivity.
    + rewrite <- E in *. destruct x as [| |n].
      * exists k. reflexivity.
      * apply IH. exact Hk.
      * rewrite content_set, set_set.
        set (d := firstn n (skipn k text)).
        assert (Hd : length d = Nat.min n (length text - k)) by (unfold d; rewrite firstn_length, skipn_length; lia).
        rewrite wr_mix by (rewrite firstn_length; lia).
        assert (Hf : firstn k text ++ d = firstn (k + length d) text).
        { rewrite firstn_plus. f_equal. unfold d at 2. rewrite firstn_length. unfold d.
          destruct (Nat.le_ge_cases n (length (skipn k text))).
          - rewrite Nat.min_l by assumption. reflexivity.
          - rewrite Nat.min_r by assumption. rewrite firstn_all. apply firstn_all2. assumption. }
        assert (Hs : skipn n (skipn k text) = skipn (k + length d) text).
        { rewrite skipn_plus. destruct (Nat.le_ge_cases n (length text - k)).
          - f_equal. lia.
          - rewrite !skipn_all2 by lia. reflexivity. }
        rewrite Hf, Hs. apply IH. lia.
Qed.
Lemma print_spec f text l s o : get f s = Some l ->
  match print_loop f 0 text o s with
  | Died s' | Fin true _ s' => exists k', s' = set f (Some (firstn k' text ++ skipn k' l)) s
  | Fin false _ s' => s' = set f (Some (text ++ skipn (length text) l)) s
  end.
Proof.
  intros H. pose proof (print_loop_spec f text l s o 0 (Nat.le_0_l _)) as P. change (skipn 0 text) with text in P.
  change (firstn 0 text ++ skipn 0 l) with l in P.
  assert (E : set f (Some l) s = s) by (rewrite <- H; apply set_get).
  unfold bytes in *. rewrite E in P. exact P.
Qed.
Lemma trunc_text (text l : bytes) : trunc (length text) (text ++ l) = text.
Proof. unfold trunc. rewrite firstn_app, Nat.sub_diag, firstn_all, app_length. cbn [firstn]. rewrite app_nil_r.
  replace (length text - (length text + length l)) with 0 by lia. apply app_nil_r. Qed.

Section Startup.
Context {D : Type} (parse : bytes -> option D).

(** * Loading *)
(** The text [t] is what will be loaded. *)
Definition Inv (s : fs) (t : bytes) : Prop :=
  (f_bck s = None /\ f_start s = Some t) \/ (f_bck s = Some t /\ f_start s <> None).

Definition gives (t : bytes) (r : @loaded D) : Prop := r = LErr \/ exists x, parse t = Some x /\ r = LData x.
Lemma retry_startup n hd o s t : f_start s = Some t -> n <> 0 ->
  match retry parse n Startup hd o s with
  | Died s' => s' = s
  | Fin r _ s' => s' = s /\ gives t r
  end.
Proof.
  intros Hs Hn. destruct n as [|n]; [congruence|]. cbn [retry]. unfold open_, sys. cbn [path get].
  destruct o as [|x o]; [reflexivity|]. rewrite Hs.
  destruct x as [| |k]; cbn [fst snd]; [split; [reflexivity|left; reflexivity]..|].
  destruct o as [|y o]; [reflexivity|]. unfold content. cbn [get]. rewrite Hs.
  destruct (parse t) as [x|] eqn:Ep; destruct y as [| |j]; cbn; (split; [reflexivity|]); try (left; reflexivity).
  right. exists x. split; [exact Ep|reflexivity].
Qed.
Lemma load_inv o s t : Inv s t -> looked o ->
  match load parse Startup true o s with
  | Died s' => Inv s' t
  | Fin r _ s' => Inv s' t /\ gives t r
  end.
Proof.
  intros HI Hlk. unfold load, bind. unfold exists_ at 1, sys.
  destruct o as [|x o]; [exact HI|].
  destruct HI as [[Hb Hs]|[Hb Hs]].
  - cbn [get]. rewrite Hb. replace (match x with Good _ => (false, s) | _ => (false, s) end) with (false, s) by (destruct x; reflexivity).
    cbn [fst snd].
    pose proof (retry_startup (S (length o)) true o s t Hs (Nat.neq_succ_0 _)) as R.
    destruct (retry parse (S (length o)) Startup true o s) as [s'|r o' s'].
    + subst s'. left. split; assumption.
    + destruct R as [-> R]. split; [left; split; assumption|exact R].
  - cbn [get]. rewrite Hb. destruct x as [| |n]; [destruct Hlk..|]. cbn [fst snd].
    destruct (f_start s) as [l|] eqn:El; [|congruence].
    pose proof (cp_path_spec FStart FBck t l s o ltac:(discriminate) Hb El) as C.
    assert (HI0 : Inv s t) by (right; split; [exact Hb|rewrite El; discriminate]).
    assert (HI1 : forall k, Inv (set FStart (Some k) s) t) by (intros k; right; cbn; split; [exact Hb|discriminate]).
    assert (HI2 : forall s', (s' = s \/ exists k, s' = set FStart (Some (firstn k t)) s) -> Inv s' t)
      by (intros s' [->|(k & ->)]; [exact HI0|apply HI1]).
    destruct (cp_path FStart FBck o s) as [s'|[] o' s']; [apply HI2; exact C| |].
    + cbn. split; [apply HI2; exact C|left; reflexivity].
    + subst s'. unfold unlink, sys. destruct o' as [|y o']; [apply HI1|].
      cbn [get set f_bck]. rewrite Hb.
      destruct y as [| |m]; cbn [fst snd negb];
        [split; [right; split; [reflexivity|discriminate]|left; reflexivity]..|].
      set (s2 := mkFs (Some t) None (f_run s) (f_oth s)).
      pose proof (retry_startup (S (length o')) true o' s2 t eq_refl (Nat.neq_succ_0 _)) as R.
      cbn [set f_start f_run f_oth]. fold s2.
      destruct (retry parse (S (length o')) Startup true o' s2) as [s'|r o'' s'].
      * subst s'. left. split; reflexivity.
      * destruct R as [-> R]. split; [left; split; reflexivity|exact R].
Qed.
Lemma retry_works n hd o s t d : f_start s = Some t -> parse t = Some d -> n <> 0 -> works o -> 2 <= length o ->
  exists o', retry parse n Startup hd o s = Fin (LData d) o' s.
Proof.
  intros Hs Hp Hn Hw Hl. destruct n as [|n]; [congruence|]. cbn [retry]. unfold open_, sys. cbn [path get].
  destruct o as [|x [|y o]]; [cbn in Hl; lia..|].
  destruct (Hw x (or_introl eq_refl)) as (k & ->). destruct (Hw y (or_intror (or_introl eq_refl))) as (j & ->).
  rewrite Hs. cbn [fst snd]. unfold content. cbn [get]. rewrite Hs, Hp. exists o. reflexivity.
Qed.
Lemma load_works o s t d : Inv s t -> parse t = Some d -> works o -> 2 * length t + 7 <= length o ->
  exists o' s', load parse Startup true o s = Fin (LData d) o' s'.
Proof.
  intros HI Hp Hw Hl. unfold load, bind. unfold exists_ at 1, sys.
  destruct o as [|x o]; [cbn in Hl; lia|].
  destruct (Hw x (or_introl eq_refl)) as (n & ->).
  assert (Hw' : works o) by (intros z Hz; apply Hw; right; exact Hz). cbn [length] in Hl.
  destruct HI as [[Hb Hs]|[Hb Hs]]; cbn [get]; rewrite Hb; cbn [fst snd].
  - destruct (retry_works (S (length o)) true o s t d Hs Hp (Nat.neq_succ_0 _) Hw') as (o' & E); [lia|].
    exists o', s. exact E.
  - destruct (f_start s) as [l|] eqn:El; [|congruence].
    destruct (cp_path_works FStart FBck t l s o ltac:(discriminate) Hb El Hw') as (o' & E & L & W); [lia|].
    rewrite E. unfold unlink, sys. destruct o' as [|y o']; [cbn in L; lia|].
    destruct (W y (or_introl eq_refl)) as (m & ->). cbn [get set f_bck f_start f_run f_oth]. rewrite Hb. cbn [fst snd negb].
    cbn [length] in L.
    edestruct (retry_works (S (length o')) true o') as (o'' & E2).
    4: { intros z Hz. apply W. right. exact Hz. }
    4: lia.
    4: { eexists. eexists. exact E2. }
    1: reflexivity.
    1: exact Hp.
    1: apply Nat.neq_succ_0.
Qed.
Lemma loads_inv s s1 t : loads parse s s1 -> Inv s t -> Inv s1 t.
Proof.
  intros H. induction H as [s|s o s1 s2 Hk E H IH|s o r o' s1 s2 Hk E H IH]; intros HI; [exact HI|apply IH..].
  - pose proof (load_inv o s t HI Hk) as L. rewrite E in L. exact L.
  - pose proof (load_inv o s t HI Hk) as L. rewrite E in L. apply L.
Qed.
Lemma inv_holds s t d : Inv s t -> parse t = Some d -> holds parse s d.
Proof.
  intros HI Hp s1 Hl. pose proof (loads_inv s s1 t Hl HI) as HI1. split.
  - intros o r o' s2 Hk E. pose proof (load_inv o s1 t HI1 Hk) as L. rewrite E in L.
    destruct L as [_ [->|(x & E1 & ->)]]; [right; reflexivity|left; congruence].
  - exists (2 * length t + 7). intros o Hw Ho. exact (load_works o s1 t d HI1 Hp Hw Ho).
Qed.
Lemma inv_not_holds s t d : Inv s t -> parse t <> Some d -> ~ holds parse s d.
Proof.
  intros HI Hp H. destruct (H s (loads_none parse s)) as [_ (n & W)].
  set (o := repeat (Good 1) n).
  assert (Ho : works o) by (intros x Hx; apply repeat_spec in Hx; subst x; exists 0; reflexivity).
  destruct (W o Ho) as (o' & s2 & E). { unfold o. rewrite repeat_length. lia. }
  assert (Hk : looked o). { unfold o. destruct n; exact I. }
  pose proof (load_inv o s t HI Hk) as L. rewrite E in L. destruct L as [_ [L|(x & E1 & L)]]; [discriminate|].
  injection L as <-. congruence.
Qed.

(** * Storing *)
(** The rest of storing once the backup [old] has been made. *)
Lemma store_data_spec o s old text : f_bck s = Some old -> f_start s = Some old ->
  match store_data FStart text false false true o s with
  | Died s' => Inv s' old
  | Fin false _ s' => f_bck s' = None /\ f_start s' = Some text
  | Fin true _ s' => f_start s' <> None
  end.
Proof.
  intros Hb Hs. unfold store_data. unfold bind at 1. cbn [ret].
  unfold bind at 1, open_, sys.
  assert (HI : forall k, Inv (set FStart (Some k) s) old) by (intros k; right; cbn; split; [exact Hb|discriminate]).
  assert (HI0 : Inv s old) by (right; split; [exact Hb|rewrite Hs; discriminate]).
  assert (CL : forall e s1 o1, f_bck s1 = Some old -> f_start s1 <> None ->
            match cleanup FStart true false e o1 s1 with
            | Died s' => Inv s' old
            | Fin false _ s' => e = false /\ s' = set FBck None s1
            | Fin true _ s' => f_start s' <> None
            end).
  { intros e s1 o1 B S. unfold cleanup, bind, unlink, sys. destruct o1 as [|z o1]; [right; split; assumption|].
    cbn [get]. rewrite B. destruct z as [| |n], e; cbn; try exact S. split; reflexivity. }
  destruct o as [|x o]; [exact HI0|]. cbn [get]. rewrite Hs.
  destruct x as [| |n]; cbn [fst snd negb].
  1,2: specialize (CL true s o Hb ltac:(rewrite Hs; discriminate));
    destruct (cleanup FStart true false true o s) as [s'|[] o' s']; [exact CL..|destruct CL; discriminate].
  cbn [andb]. unfold bind at 1, ret. cbn [negb].
  unfold bind at 1. pose proof (print_spec FStart text old s o Hs) as P.
  destruct (print_loop FStart 0 text o s) as [s'|[] o' s'].
  - destruct P as (k & ->). apply HI.
  - destruct P as (k & ->). set (s1 := set FStart (Some (firstn k text ++ skipn k old)) s).
    specialize (CL true s1 o' Hb ltac:(discriminate)).
    destruct (cleanup FStart true false true o' s1) as [s'|[] o'' s']; [exact CL..|destruct CL; discriminate].
  - subst s'. unfold bind, ftruncate, sys.
    destruct o' as [|y o']; [apply HI|].
    rewrite content_set, trunc_text, set_set.
    destruct y as [| |m]; cbn [fst snd negb].
    1,2: match goal with |- context [cleanup FStart true false true ?o1 ?s1] =>
           specialize (CL true s1 o1 Hb ltac:(discriminate));
           destruct (cleanup FStart true false true o1 s1) as [s'|[] o'' s']; [exact CL..|destruct CL; discriminate] end.
    specialize (CL false (set FStart (Some text) s) o' Hb ltac:(discriminate)).
    destruct (cleanup FStart true false false o' (set FStart (Some text) s)) as [s'|[] o'' s']; [exact CL..|].
    destruct CL as [_ ->]. split; reflexivity.
Qed.

(** The backup is being made. *)
Definition making (s : fs) (old : bytes) : Prop :=
  f_start s = Some old /\ exists k, k < length old /\ f_bck s = Some (firstn k old).
Lemma prefix_cases s old k : f_start s = Some old -> f_bck s = Some (firstn k old) -> Inv s old \/ making s old.
Proof.
  intros Hs Hb. destruct (Nat.lt_ge_cases k (length old)) as [H|H].
  - right. split; [exact Hs|]. exists k. split; assumption.
  - left. right. rewrite firstn_all2 in Hb by exact H. split; [exact Hb|rewrite Hs; discriminate].
Qed.
Lemma store_spec o s old text : f_bck s = None -> f_start s = Some old ->
  match store Startup text o s with
  | Died s' => Inv s' old \/ making s' old
  | Fin false _ s' => f_bck s' = None /\ f_start s' = Some text
  | Fin true _ s' => f_start s' <> None
  end.
Proof.
  intros Hb Hs. assert (HI : Inv s old) by (left; split; assumption).
  unfold store, store_. unfold bind at 1. unfold exists_ at 1, sys at 1.
  destruct o as [|x o]; [left; exact HI|]. cbn [get]. rewrite Hs.
  destruct x as [| |n]; cbn [fst snd negb]; [unfold ret; rewrite Hs; discriminate..|].
  unfold bind at 1. unfold open_creat, sys at 1.
  destruct o as [|y o]; [left; exact HI|]. cbn [get]. rewrite Hb. cbn [set].
  destruct y as [| |m]; cbn [fst snd negb]; [unfold ret; cbn; rewrite Hs; discriminate..|].
  set (s1 := mkFs (f_start s) (Some []) (f_run s) (f_oth s)).
  unfold bind at 1.
  pose proof (cp_path_spec FBck FStart old [] s1 o ltac:(discriminate) Hs eq_refl) as C.
  assert (HC : forall s', (s' = s1 \/ (exists k, s' = set FBck (Some (firstn k old)) s1)) ->
                f_start s' = Some old /\ exists k, f_bck s' = Some (firstn k old)).
  { intros s' [->|(k & ->)]; cbn.
    - split; [exact Hs|exists 0; reflexivity].
    - split; [exact Hs|exists k; reflexivity]. }
  destruct (cp_path FBck FStart o s1) as [s'|[] o' s'].
  - destruct (HC s' C) as [A (k & B)]. exact (prefix_cases s' old k A B).
  - destruct (HC s' C) as [A (k & B)]. unfold cleanup, bind, unlink, sys.
    destruct o' as [|z o']; [exact (prefix_cases s' old k A B)|].
    cbn [get]. rewrite B. destruct z; cbn; rewrite A; discriminate.
  - subst s'. set (s2 := set FBck (Some old) s1).
    pose proof (store_data_spec o' s2 old text eq_refl Hs) as P.
    destruct (store_data FStart text false false true o' s2) as [s'|[] o'' s']; [left|..]; exact P.
Qed.
End Startup.
