(** Proofs about composing operational data. *)
From Coq Require Import String Ascii List Bool Arith Lia.
From Verif Require Import OperReq OperReqSpec OperReqProofs OperData OperDataSpec.
Import ListNotations.

(** ** Data *)
Lemma keys_eqb_eq : forall a b, keys_eqb a b = true <-> a = b.
Proof.
  induction a as [|[k v] a IH]; intros [|[k' v'] b]; cbn [keys_eqb]; split; intro H; try discriminate; try reflexivity.
  - apply andb_prop in H. destruct H as (H & Hb). apply andb_prop in H. destruct H as (H1 & H2). apply str_eqb_eq in H1, H2. apply IH in Hb. subst. reflexivity.
  - injection H as -> -> ->. rewrite !str_eqb_refl. cbn. apply IH. reflexivity.
Qed.
Lemma inst_eqb_eq : forall a b, inst_eqb a b = true <-> a = b.
Proof.
  intros [m n k] [m' n' k']. unfold inst_eqb. cbn [i_mod i_name i_keys]. split; intro H.
  - apply andb_prop in H. destruct H as (H & H3). apply andb_prop in H. destruct H as (H1 & H2). apply str_eqb_eq in H1, H2. apply keys_eqb_eq in H3. subst. reflexivity.
  - injection H as -> -> ->. rewrite !str_eqb_refl. cbn. apply keys_eqb_eq. reflexivity.
Qed.
Lemma ipath_eqb_eq : forall a b, ipath_eqb a b = true <-> a = b.
Proof.
  induction a as [|x a IH]; intros [|y b]; cbn [ipath_eqb]; split; intro H; try discriminate; try reflexivity.
  - apply andb_prop in H. destruct H as (H1 & H2). apply inst_eqb_eq in H1. apply IH in H2. subst. reflexivity.
  - injection H as -> ->. rewrite (proj2 (inst_eqb_eq y y) eq_refl). apply IH. reflexivity.
Qed.
Lemma ipath_dec : forall a b : ipath, a = b \/ a <> b.
Proof. intros a b. destruct (ipath_eqb a b) eqn:E; [left; apply ipath_eqb_eq; exact E|right; intro H; apply ipath_eqb_eq in H; congruence]. Qed.
Lemma ipath_sdec : forall a b : ipath, {a = b} + {a <> b}.
Proof. intros a b. destruct (ipath_eqb a b) eqn:E; [left; apply ipath_eqb_eq; exact E|right; intro H; apply ipath_eqb_eq in H; congruence]. Qed.
Lemma eqb_same : forall a, ipath_eqb a a = true.
Proof. intro a. apply ipath_eqb_eq. reflexivity. Qed.
Lemma eqb_diff : forall a b, a <> b -> ipath_eqb a b = false.
Proof. intros a b N. destruct (ipath_eqb a b) eqn:E; [apply ipath_eqb_eq in E; contradiction|reflexivity]. Qed.

Lemma get_put_same : forall d p v, get (put d p v) p = Some v.
Proof.
  induction d as [|[q w] d IH]; intros p v; cbn [put get].
  - rewrite eqb_same. reflexivity.
  - destruct (ipath_eqb q p) eqn:E; cbn [get]; rewrite E; [reflexivity|apply IH].
Qed.
Lemma get_put_other : forall d p v q, p <> q -> get (put d p v) q = get d q.
Proof.
  induction d as [|[x w] d IH]; intros p v q N; cbn [put get].
  - rewrite (eqb_diff _ _ N). reflexivity.
  - destruct (ipath_eqb x p) eqn:E; cbn [get].
    + apply ipath_eqb_eq in E. subst x. rewrite (eqb_diff _ _ N). reflexivity.
    + rewrite (IH p v q N). reflexivity.
Qed.
Lemma get_in : forall d p, get d p <> None <-> In p (map fst d).
Proof.
  induction d as [|[q w] d IH]; intro p; cbn [get map fst In].
  - split; [intro H; contradiction|intros []].
  - destruct (ipath_dec q p) as [->|N].
    + rewrite eqb_same. split; [left; reflexivity|discriminate].
    + rewrite (eqb_diff _ _ N). rewrite IH. split; [right; assumption|intros [X|X]; [contradiction|exact X]].
Qed.
Lemma keys_put : forall d p v q, In q (map fst (put d p v)) -> q = p \/ In q (map fst d).
Proof.
  intros d p v q H. apply get_in in H. destruct (ipath_dec q p) as [->|N]; [left; reflexivity|]. right. rewrite get_put_other in H by congruence. apply get_in. exact H.
Qed.
Lemma nodup_put : forall d p v, NoDup (map fst d) -> NoDup (map fst (put d p v)).
Proof.
  induction d as [|[q w] d IH]; intros p v N; cbn [put map fst] in *.
  - constructor; [intros []|constructor].
  - destruct (ipath_eqb q p) eqn:E; cbn [map fst]; [exact N|]. inversion N as [|? ? N1 N2]; subst. constructor; [|apply IH; exact N2].
    intro X. apply keys_put in X. destruct X as [X|X]; [subst; rewrite eqb_same in E; discriminate|contradiction].
Qed.
Lemma merge_ok : forall src d, NoDup (map fst src) ->
  (forall p, get (merge d src) p = match get src p with Some v => Some v | None => get d p end) /\
  (NoDup (map fst d) -> NoDup (map fst (merge d src))).
Proof.
  unfold merge. induction src as [|[q w] src IH]; intros d N; cbn [fold_left map fst snd get] in *.
  - split; [reflexivity|exact (fun x => x)].
  - inversion N as [|? ? N1 N2]; subst. destruct (IH (put d q w) N2) as (G & D). split.
    + intro p. rewrite G. destruct (ipath_dec q p) as [->|X].
      * rewrite eqb_same. rewrite get_put_same. destruct (get src p) eqn:E; [|reflexivity]. exfalso. apply N1. apply get_in. congruence.
      * rewrite (eqb_diff _ _ X). rewrite (get_put_other _ _ _ _ X). reflexivity.
    + intro Nd. apply D. apply nodup_put. exact Nd.
Qed.
Lemma get_filter : forall (f : ipath -> bool) d p, get (filter (fun e => f (fst e)) d) p = if f p then get d p else None.
Proof.
  intros f. induction d as [|[q w] d IH]; intro p; cbn [filter get fst].
  - destruct (f p); reflexivity.
  - destruct (f q) eqn:E; cbn [get]; rewrite IH; destruct (ipath_dec q p) as [->|N].
    + rewrite eqb_same, E. reflexivity.
    + rewrite (eqb_diff _ _ N). reflexivity.
    + rewrite E. reflexivity.
    + rewrite (eqb_diff _ _ N). reflexivity.
Qed.
Lemma get_complement : forall d l p, get (complement d l) p = if inside l p then None else get d p.
Proof. intros d l p. unfold complement. rewrite (get_filter (fun q => negb (inside l q))). destruct (inside l p); reflexivity. Qed.

(** ** Selecting *)
Lemma sel_len : forall l p, sel_at l p = true -> length p = length l.
Proof. induction l as [|s l IH]; intros [|i p] H; cbn [sel_at] in H; try discriminate; [reflexivity|]. apply andb_prop in H. cbn. f_equal. apply IH. exact (proj2 H). Qed.
Lemma covers_iff : forall s p, covers s p <-> inside (s_steps s) p = true.
Proof.
  intros s p. unfold covers, inside. split.
  - intros (a & b & -> & H). pose proof (sel_len _ _ H) as L. rewrite <- L, firstn_app, Nat.sub_diag, firstn_all. cbn [firstn]. rewrite app_nil_r. exact H.
  - intro H. exists (firstn (length (s_steps s)) p), (skipn (length (s_steps s)) p). rewrite firstn_skipn. split; [reflexivity|exact H].
Qed.
Lemma inside_len : forall l p, inside l p = true -> length l <= length p.
Proof. intros l p H. unfold inside in H. apply sel_len in H. rewrite firstn_length in H. lia. Qed.
Lemma sel_removelast : forall l p, sel_at l p = true -> sel_at (removelast l) (removelast p) = true.
Proof.
  induction l as [|s l IH]; intros [|i p] H; cbn [sel_at] in H; try discriminate; [reflexivity|]. apply andb_prop in H. destruct H as (H1 & H2).
  destruct l as [|s' l']; destruct p as [|i' p']; try (cbn [sel_at] in H2; discriminate); [reflexivity|].
  change (removelast (s :: s' :: l')) with (s :: removelast (s' :: l')). change (removelast (i :: i' :: p')) with (i :: removelast (i' :: p')). cbn [sel_at]. rewrite H1. cbn [andb]. apply IH. exact H2.
Qed.
Lemma inside_parent : forall s p, inside (s_steps s) p = true -> s_steps s <> [] -> sel_at (removelast (s_steps s)) (parent_of s p) = true.
Proof.
  intros s p H N. pose proof (inside_len _ _ H) as L. unfold inside in H. apply sel_removelast in H. unfold parent_of. rewrite (removelast_firstn_len (firstn _ _)) in H. rewrite firstn_length in H. rewrite firstn_firstn in H.
  replace (Nat.min (Nat.pred (Nat.min (length (s_steps s)) (length p))) (length (s_steps s))) with (Nat.pred (length (s_steps s))) in H by lia. exact H.
Qed.
Lemma parent_nil : forall s p, inside (s_steps s) p = true -> s_steps s <> [] -> (parent_of s p = [] <-> exists x, s_steps s = [x]).
Proof.
  intros s p H N. pose proof (inside_len _ _ H) as L. assert (E : length (parent_of s p) = Nat.pred (length (s_steps s))) by (unfold parent_of; rewrite firstn_length; lia). split.
  - intro Z. rewrite Z in E. destruct (s_steps s) as [|x [|y t]]; [contradiction|eauto|discriminate].
  - intros (x & X). unfold parent_of. rewrite X. reflexivity.
Qed.
Lemma parent_out : forall s p, s_steps s <> [] -> inside (s_steps s) (parent_of s p) = false.
Proof.
  intros s p N. destruct (inside (s_steps s) (parent_of s p)) eqn:E; [|reflexivity]. apply inside_len in E. unfold parent_of in E. rewrite firstn_length in E. destruct (s_steps s); [contradiction|]. cbn in E. lia.
Qed.
Lemma select_in : forall d l p, In p (select d l) <-> get d p <> None /\ sel_at l p = true.
Proof. intros d l p. unfold select. rewrite filter_In. rewrite get_in. reflexivity. Qed.

(** ** Asking *)
Definition or_else (a b : option str) : option str := match a with Some v => Some v | None => b end.
Lemma ask_ok : forall s hs par acc d, within s -> (forall h, In h hs -> In h (s_hs s)) -> ask hs par acc = Some d -> NoDup (map fst acc) ->
  NoDup (map fst d) /\ (forall p, get d p = or_else (answer hs par p) (get acc p)) /\ (forall p, answer hs par p <> None -> covers s p /\ parent_of s p = par).
Proof.
  intros s hs par. induction hs as [|h hs IH]; intros acc d W I A N; cbn [ask answer] in *.
  - injection A as <-. split; [exact N|]. split; [reflexivity|]. intros p X. contradiction.
  - fold (active h) in A. assert (I' : forall x, In x hs -> In x (s_hs s)) by (intros x Hx; apply I; right; exact Hx). destruct (active h) eqn:AC.
    + destruct (h_call h par) as [dh|] eqn:C; [|discriminate]. destruct W as (W1 & W2 & W3). destruct (W3 h par dh (I h (or_introl eq_refl)) C) as (ND & IN).
      destruct (merge_ok dh acc ND) as (G & D). destruct (IH (merge acc dh) d (conj W1 (conj W2 W3)) I' A (D N)) as (R1 & R2 & R3). split; [exact R1|]. split.
      * intro p. rewrite R2, G. unfold or_else. destruct (answer hs par p); [reflexivity|]. reflexivity.
      * intros p X. specialize (R3 p). destruct (answer hs par p); [apply R3; discriminate|]. apply IN. apply get_in. exact X.
    + destruct (IH acc d W I' A N) as (R1 & R2 & R3). split; [exact R1|]. split.
      * intro p. rewrite R2. destruct (answer hs par p); reflexivity.
      * intros p X. specialize (R3 p). destruct (answer hs par p); [apply R3; discriminate|contradiction].
Qed.

(** Is the parent required? *)
Definition par_req (rs : list str) (par : ipath) : bool :=
  match par, rs with [], _ | _, [] => true | _, _ => match any_required rs (inst_txt par) with Some true => true | _ => false end end.
Lemma get_from_ok : forall s rs par d d', within s -> get_from s rs par d = ROk d' ->
  (forall p, get d' p = if par_req rs par then or_else (answer (s_hs s) par p) (get d p) else get d p) /\
  (par_req rs par = true -> forall p, answer (s_hs s) par p <> None -> covers s p /\ parent_of s p = par).
Proof.
  intros s rs par d d' W H. unfold get_from in H.
  assert (go : match ask (s_hs s) par [] with Some x => ROk (merge d x) | None => RErr end = ROk d' ->
    (forall p, get d' p = or_else (answer (s_hs s) par p) (get d p)) /\ (forall p, answer (s_hs s) par p <> None -> covers s p /\ parent_of s p = par)).
  { intro E. destruct (ask (s_hs s) par []) as [x|] eqn:A; [|discriminate]. injection E as <-. destruct (ask_ok s (s_hs s) par [] x W (fun _ h => h) A (NoDup_nil _)) as (R1 & R2 & R3).
    split; [|exact R3]. intro p. rewrite (proj1 (merge_ok x d R1)). rewrite R2. cbn [get]. unfold or_else. destruct (answer (s_hs s) par p); reflexivity. }
  destruct par as [|i par]; [destruct (go H); split; [assumption|intros _; assumption]|]. destruct rs as [|r rs]; [destruct (go H); split; [assumption|intros _; assumption]|]. cbn [par_req].
  destruct (any_required (r :: rs) (inst_txt (i :: par))) as [[|]|]; try discriminate.
  - destruct (go H); split; [assumption|intros _; assumption].
  - injection H as <-. split; [reflexivity|discriminate].
Qed.
Lemma get_all_ok : forall s rs, within s -> forall ps d d', get_all s rs ps d = ROk d' ->
  forall p, (In (parent_of s p) ps -> covers s p -> get d' p = if par_req rs (parent_of s p) then or_else (answer (s_hs s) (parent_of s p) p) (get d p) else get d p) /\
            (~ In (parent_of s p) ps \/ ~ covers s p -> get d' p = get d p).
Proof.
  intros s rs W. induction ps as [|q ps IH]; intros d d' H p; cbn [get_all] in H.
  - injection H as <-. split; [intros []|reflexivity].
  - destruct (get_from s rs q d) as [d1| |] eqn:F; try discriminate. destruct (get_from_ok s rs q d d1 W F) as (G & A). destruct (IH d1 d' H p) as (I1 & I2). split.
    + intros Hin C. destruct (ipath_dec q (parent_of s p)) as [E|N].
      * destruct (in_dec ipath_sdec (parent_of s p) ps) as [Hi|Hn].
        -- rewrite (I1 Hi C), G. subst q. destruct (par_req rs (parent_of s p)); [|reflexivity]. destruct (answer (s_hs s) (parent_of s p) p); reflexivity.
        -- rewrite (I2 (or_introl Hn)), G. subst q. reflexivity.
      * destruct Hin as [X|X]; [contradiction|]. rewrite (I1 X C), G. destruct (par_req rs q) eqn:Q; [|reflexivity]. destruct (answer (s_hs s) q p) eqn:Z; [|reflexivity].
        exfalso. apply N. symmetry. apply (A eq_refl p). congruence.
    + intro O. assert (E : get d1 p = get d p).
      { rewrite G. destruct (par_req rs q) eqn:Q; [|reflexivity]. destruct (answer (s_hs s) q p) eqn:Z; [|reflexivity]. exfalso. destruct (A eq_refl p) as (C & E); [congruence|].
        destruct O as [O|O]; [apply O; left; symmetry; exact E|contradiction]. }
      rewrite <- E. apply I2. destruct O as [O|O]; [left; intro X; apply O; right; exact X|right; exact O].
Qed.

(** ** One subscription *)
Definition req_of (reqs : list str) (s : sub) : list str := match requiring reqs (sub_txt s) with Some l => l | None => [] end.
Definition asked (reqs : list str) (s : sub) : bool := match reqs with [] => true | _ => match req_of reqs s with [] => false | _ => true end end.
Definition is_some (o : option str) : bool := match o with Some _ => true | None => false end.
Definition is_nil (p : ipath) : bool := match p with [] => true | _ => false end.
Definition lay (reqs : list str) (R : ipath -> option str) (p : ipath) (cur : option str) (s : sub) : option str :=
  if asked reqs s && inside (s_steps s) p then
    let par := parent_of s p in
    or_else (if is_nil par || (is_some (R par) && par_req (req_of reqs s) par) then answer (s_hs s) par p else None) (if s_merge s then cur else None)
  else cur.
Lemma update1_ok : forall reqs s d d', within s -> update1 reqs s d = ROk d' -> forall p, get d' p = lay reqs (get d) p (get d p) s.
Proof.
  intros reqs s d d' W H p. unfold update1 in H.
  set (d1 := if s_merge s then d else complement d (s_steps s)) in *.
  assert (D1 : forall q, get d1 q = if inside (s_steps s) q then (if s_merge s then get d q else None) else get d q).
  { intro q. unfold d1. destruct (s_merge s); [destruct (inside (s_steps s) q); reflexivity|apply get_complement]. }
  assert (NE : s_steps s <> []) by exact (proj1 W).
  assert (go : forall rs, match s_steps s with [_] => get_from s rs [] d1 | l => get_all s rs (select d1 (removelast l)) d1 end = ROk d' ->
    get d' p = if inside (s_steps s) p then or_else (if is_nil (parent_of s p) || (is_some (get d (parent_of s p)) && par_req rs (parent_of s p)) then answer (s_hs s) (parent_of s p) p else None) (if s_merge s then get d p else None) else get d p).
  { intros rs E. destruct (inside (s_steps s) p) eqn:IN.
    - pose proof (parent_nil s p IN NE) as PN. pose proof (inside_parent s p IN NE) as SP. pose proof (parent_out s p NE) as PO.
      assert (one : (exists x, s_steps s = [x]) \/ match s_steps s with [_] => get_from s rs [] d1 | l => get_all s rs (select d1 (removelast l)) d1 end = get_all s rs (select d1 (removelast (s_steps s))) d1 /\ parent_of s p <> []).
      { destruct (s_steps s) as [|x [|y t]]; [contradiction|left; exists x; reflexivity|]. right. split; [reflexivity|]. intro Z. apply PN in Z. destruct Z as (z & Z). discriminate. }
      destruct one as [(x & X)|(X & Z)].
      + rewrite X in E. destruct (get_from_ok s rs [] d1 d' W E) as (G & _). rewrite G. cbn [par_req]. rewrite (proj2 PN (ex_intro _ x X)). cbn [is_nil orb]. rewrite D1, IN. reflexivity.
      + rewrite X in E. destruct (get_all_ok s rs W _ _ _ E p) as (G1 & G2). assert (NI : is_nil (parent_of s p) = false) by (destruct (parent_of s p); [contradiction|reflexivity]). rewrite NI. cbn [orb].
        assert (GP : get d1 (parent_of s p) = get d (parent_of s p)) by (rewrite D1, PO; reflexivity).
        destruct (get d (parent_of s p)) eqn:EX; cbn [is_some andb].
        * rewrite G1; [|apply select_in; rewrite GP; split; [discriminate|exact SP]|apply covers_iff; exact IN]. rewrite D1, IN. destruct (par_req rs (parent_of s p)); reflexivity.
        * rewrite G2; [|left; intro Y; apply select_in in Y; rewrite GP in Y; destruct Y as (Y & _); contradiction]. rewrite D1, IN. reflexivity.
    - assert (NC : ~ covers s p) by (intro C; apply covers_iff in C; congruence).
      assert (one : (exists x, s_steps s = [x]) \/ match s_steps s with [_] => get_from s rs [] d1 | l => get_all s rs (select d1 (removelast l)) d1 end = get_all s rs (select d1 (removelast (s_steps s))) d1).
      { destruct (s_steps s) as [|x [|y t]]; [contradiction|left; exists x; reflexivity|right; reflexivity]. }
      destruct one as [(x & X)|X].
      + rewrite X in E. destruct (get_from_ok s rs [] d1 d' W E) as (G & A). rewrite G. cbn [par_req]. destruct (answer (s_hs s) [] p) eqn:Z; [exfalso; apply NC; apply (A eq_refl p); congruence|]. cbn [or_else]. rewrite D1, IN. reflexivity.
      + rewrite X in E. destruct (get_all_ok s rs W _ _ _ E p) as (_ & G2). rewrite (G2 (or_intror NC)). rewrite D1, IN. reflexivity. }
  unfold lay, asked, req_of. destruct reqs as [|r0 reqs0].
  - rewrite (go [] H). cbn [requiring andb]. reflexivity.
  - set (reqs := r0 :: reqs0) in *. destruct (requiring reqs (sub_txt s)) as [[|r rs]|] eqn:Q; try discriminate.
    + injection H as <-. reflexivity.
    + rewrite (go (r :: rs) H). cbn [andb]. reflexivity.
Qed.

(** ** All the subscriptions *)
Lemma lay_out : forall reqs R s p cur, inside (s_steps s) p = false -> lay reqs R p cur s = cur.
Proof. intros reqs R s p cur H. unfold lay. rewrite H, andb_false_r. reflexivity. Qed.
Lemma lays_out : forall reqs R p l cur, (forall s, In s l -> inside (s_steps s) p = false) -> fold_left (lay reqs R p) l cur = cur.
Proof.
  induction l as [|s l IH]; intros cur H; [reflexivity|]. cbn [fold_left]. rewrite lay_out by (apply H; left; reflexivity). apply IH. intros x Hx. apply H. right. exact Hx.
Qed.
Lemma update_ok : forall reqs l d d', Forall within l -> parents_first l -> update reqs l d = ROk d' ->
  forall p, get d' p = fold_left (lay reqs (get d') p) l (get d p).
Proof.
  intros reqs. induction l as [|s l IH]; intros d d' W P H p; cbn [update] in H.
  - injection H as <-. reflexivity.
  - destruct (update1 reqs s d) as [d1| |] eqn:U; try discriminate. inversion W as [|? ? Ws Wl]; subst. destruct P as (P1 & P2). cbn [fold_left]. rewrite (IH d1 d' Wl P2 H p). f_equal.
    rewrite (update1_ok reqs s d d1 Ws U p). unfold lay. destruct (asked reqs s) eqn:A; [|reflexivity]. destruct (inside (s_steps s) p) eqn:IN; [|reflexivity]. cbn [andb].
    assert (E : get d' (parent_of s p) = get d (parent_of s p)).
    { rewrite (IH d1 d' Wl P2 H). rewrite lays_out.
      - rewrite (update1_ok reqs s d d1 Ws U). apply lay_out. apply parent_out. exact (proj1 Ws).
      - intros x Hx. destruct (inside (s_steps x) (parent_of s p)) eqn:Z; [|reflexivity]. exfalso. apply (P1 x (parent_of s p) Hx); [|apply covers_iff; exact Z]. apply inside_parent; [exact IN|exact (proj1 Ws)]. }
    rewrite E. reflexivity.
Qed.
Lemma lay_layer : forall R s p cur, layer R s p cur (lay [] R p cur s).
Proof.
  intros R s p cur. split.
  - intro N. apply lay_out. destruct (inside (s_steps s) p) eqn:E; [|reflexivity]. exfalso. apply N. apply covers_iff. exact E.
  - intro C. apply covers_iff in C. unfold lay. cbn [asked]. rewrite C. cbn [andb]. eexists. split; [reflexivity|]. change (req_of [] s) with (@nil str).
    assert (Q : par_req [] (parent_of s p) = true) by (destruct (parent_of s p); reflexivity). rewrite Q, andb_true_r. split.
    + intros [E|E]; [rewrite E; reflexivity|]. destruct (R (parent_of s p)); [|contradiction]. cbn [is_some]. rewrite orb_true_r. reflexivity.
    + intros N E. rewrite E. destruct (parent_of s p); [contradiction|]. reflexivity.
Qed.
Lemma lays_layers : forall R p l cur, layers R l p cur (fold_left (lay [] R p) l cur).
Proof. intros R p. induction l as [|s l IH]; intro cur; cbn [layers fold_left]; [reflexivity|]. exists (lay [] R p cur s). split; [apply lay_layer|apply IH]. Qed.

(** ** Errors *)
Lemma ask_all : forall hs par acc d, ask hs par acc = Some d -> forall h, In h hs -> active h = true -> h_call h par <> None.
Proof.
  induction hs as [|x hs IH]; intros par acc d A h H AC; [destruct H|]. cbn [ask] in A. fold (active x) in A. destruct H as [->|H].
  - rewrite AC in A. destruct (h_call h par); [discriminate|discriminate].
  - destruct (active x); [destruct (h_call x par); [|discriminate]|]; exact (IH _ _ _ A h H AC).
Qed.
Lemma from_all : forall s par d d', get_from s [] par d = ROk d' -> forall h, In h (s_hs s) -> active h = true -> h_call h par <> None.
Proof.
  intros s par d d' H h Hh AC. unfold get_from in H. assert (E : match ask (s_hs s) par [] with Some x => ROk (merge d x) | None => RErr end = ROk d') by (destruct par; exact H).
  destruct (ask (s_hs s) par []) as [x|] eqn:A; [|discriminate]. exact (ask_all _ _ _ _ A h Hh AC).
Qed.
Lemma all_all : forall s ps d d', get_all s [] ps d = ROk d' -> forall par h, In par ps -> In h (s_hs s) -> active h = true -> h_call h par <> None.
Proof.
  intros s. induction ps as [|q ps IH]; intros d d' H par h Hp Hh AC; [destruct Hp|]. cbn [get_all] in H. destruct (get_from s [] q d) as [d1| |] eqn:F; try discriminate. destruct Hp as [->|Hp]; [exact (from_all s par d d1 F h Hh AC)|exact (IH d1 d' H par h Hp Hh AC)].
Qed.
Lemma update_all : forall l d d', Forall within l -> parents_first l -> update [] l d = ROk d' -> forall s par h, In s l -> In h (s_hs s) -> active h = true ->
  sel_at (removelast (s_steps s)) par = true -> (par = [] \/ get d' par <> None) -> h_call h par <> None.
Proof.
  induction l as [|x l IH]; intros d d' W P H s par h Hs Hh AC SE EX; [destruct Hs|]. cbn [update] in H. destruct (update1 [] x d) as [d1| |] eqn:U; try discriminate. inversion W as [|? ? Wx Wl]; subst. destruct P as (P1 & P2).
  destruct Hs as [->|Hs]; [|exact (IH d1 d' Wl P2 H s par h Hs Hh AC SE EX)].
  assert (NE : s_steps s <> []) by exact (proj1 Wx). pose proof (sel_len _ _ SE) as L. rewrite removelast_firstn_len, firstn_length in L.
  assert (OUT : inside (s_steps s) par = false).
  { destruct (inside (s_steps s) par) eqn:Z; [|reflexivity]. apply inside_len in Z. destruct (s_steps s); [contradiction|]. cbn in *. lia. }
  assert (E : get d' par = get d par).
  { rewrite (update_ok _ _ _ _ Wl P2 H). rewrite lays_out.
    - rewrite (update1_ok [] s d d1 Wx U). apply lay_out. exact OUT.
    - intros y Hy. destruct (inside (s_steps y) par) eqn:Z; [|reflexivity]. exfalso. apply (P1 y par Hy SE). apply covers_iff. exact Z. }
  rewrite E in EX. unfold update1 in U. set (dd := if s_merge s then d else complement d (s_steps s)) in *.
  assert (D1 : get dd par = get d par) by (unfold dd; destruct (s_merge s); [reflexivity|]; rewrite get_complement, OUT; reflexivity).
  destruct (s_steps s) as [|a [|b t]]; [contradiction| |].
  - cbn in L. destruct par; [|discriminate]. exact (from_all s [] dd d1 U h Hh AC).
  - apply (all_all s _ _ _ U par h); [|exact Hh|exact AC]. apply select_in. rewrite D1. split; [|exact SE]. destruct EX as [->|EX]; [cbn in L; discriminate|exact EX].
Qed.
