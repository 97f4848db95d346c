(** Proofs about DbTree.v: the rows are those of the data. *)
From Coq Require Import List NArith Bool Arith Lia Permutation.
From Verif Require Import DbTree DbTreeSpec DbTreeProofs.
Import ListNotations.

(** The row of a node. *)
Definition row_at (pa : addr) (s : step) (k : kind) : row :=
  let p := path_of (pa ++ [s]) in
  let mo := modif_path p in
  let m := mod_field (last_mod pa) (s_mod s) in
  match k with
  | KCont => mkRow (Some p) (Some (s_name s)) (Some TCont) (Some m) None None None None (Some mo)
  | KList => mkRow (Some p) (Some (s_name s)) (Some TList) (Some m) None None None
                   (enc_keys (map snd (s_preds s))) (Some mo)
  | KTerm v b => mkRow (Some p) (Some (s_name s)) (Some TTerm) (Some m) (Some b) (Some v) None None
                       (Some mo)
  | KAny v js => mkRow (Some p) (Some (s_name s)) (Some TAny) (Some m) (Some false) (Some v) (Some js)
                       None (Some mo)
  end.

Definition row_of (a : addr) (k : kind) : row :=
  match rev a with
  | [] => row0
  | s :: rp => row_at (rev rp) s k
  end.

Lemma row_of_snoc : forall (pa : addr) (s : step) (k : kind), row_of (pa ++ [s]) k = row_at pa s k.
Proof. intros pa s k. unfold row_of. rewrite rev_unit, rev_involutive. auto. Qed.

Definition entry (e : addr * kind) : str * row := (path_of (fst e), row_of (fst e) (snd e)).

Definition db_of (d : data) : db := map entry d.

(** All places are well formed, different, and lists can be encoded. *)
Definition place_ok (e : addr * kind) : Prop :=
  exists (pa : addr) (s : step), fst e = pa ++ [s] /\ Forall step_ok (pa ++ [s]) /\ storable s.

Definition dok (d : data) : Prop := NoDup (map fst d) /\ Forall place_ok d.

Lemma place_step : forall (e : addr * kind), place_ok e -> Forall step_ok (fst e).
Proof. intros e (pa & s & -> & H & _). auto. Qed.

Lemma get_in : forall (a : addr) (k : kind) (d : data), get a d = Some k -> In (a, k) d.
Proof.
  induction d as [|[b kb] d IH]; cbn [get]; intros H; [discriminate|].
  destruct (addr_eq_dec b a) as [->|]; [|right; auto]. injection H as ->. left; auto.
Qed.

Lemma get_none : forall (a : addr) (d : data), get a d = None -> ~ In a (map fst d).
Proof.
  induction d as [|[b kb] d IH]; cbn [get map fst In]; intros H; auto.
  destruct (addr_eq_dec b a) as [->|N]; [discriminate|].
  intros [E|E]; [congruence|]. apply IH; auto.
Qed.

Lemma set_absent : forall (a : addr) (k : kind) (d : data), ~ In a (map fst d) -> set a k d = d.
Proof.
  intros a k d H. unfold set. rewrite <- (map_id d) at 2. apply map_ext_in.
  intros [b kb] Hb. cbn [fst]. destruct (addr_eq_dec b a) as [->|]; auto.
  exfalso. apply H. apply in_map_iff. exists (a, kb). auto.
Qed.

Lemma set_fst : forall (a : addr) (k : kind) (d : data), map fst (set a k d) = map fst d.
Proof.
  intros a k d. unfold set. rewrite map_map. apply map_ext. intros [b kb]. cbn [fst].
  destruct (addr_eq_dec b a); auto.
Qed.

Lemma set_set : forall (a : addr) (k k' : kind) (d : data), set a k (set a k' d) = set a k d.
Proof.
  intros a k k' d. unfold set. rewrite map_map. apply map_ext. intros [b kb]. cbn [fst].
  destruct (addr_eq_dec b a) as [E|E]; cbn [fst]; destruct (addr_eq_dec b a); try contradiction; auto.
Qed.

Lemma get_set : forall (a : addr) (k k0 : kind) (d : data), get a d = Some k0 -> get a (set a k d) = Some k.
Proof.
  induction d as [|[b kb] d IH]; cbn [get set map fst]; intros H; [discriminate|].
  destruct (addr_eq_dec b a) as [E|E]; cbn [get].
  - destruct (addr_eq_dec b a); [auto|contradiction].
  - destruct (addr_eq_dec b a); [contradiction|]. apply IH. auto.
Qed.

Lemma set_same : forall (a : addr) (k : kind) (d : data), NoDup (map fst d) -> get a d = Some k -> set a k d = d.
Proof.
  intros a k d Hnd Hg. unfold set. rewrite <- (map_id d) at 2. apply map_ext_in.
  intros [b kb] Hb. cbn [fst]. destruct (addr_eq_dec b a) as [->|]; auto.
  apply get_in in Hg. f_equal.
  clear -Hnd Hb Hg. induction d as [|[c kc] d IH]; [destruct Hb|].
  cbn [map fst] in Hnd. inversion Hnd as [|? ? Hn Hd]; subst.
  destruct Hb as [E|Hb], Hg as [E2|Hg].
  - congruence.
  - injection E as -> ->. exfalso. apply Hn. apply in_map_iff. exists (a, k). auto.
  - injection E2 as -> ->. exfalso. apply Hn. apply in_map_iff. exists (a, kb). auto.
  - auto.
Qed.

Lemma place_set : forall (a : addr) (k : kind) (d : data), Forall place_ok d -> Forall place_ok (set a k d).
Proof.
  intros a k d H. unfold set. rewrite Forall_map. eapply Forall_impl; [|apply H].
  intros [b kb] (pa & s & E & F). cbn [fst] in E. cbn [fst].
  destruct (addr_eq_dec b a); exists pa, s; cbn [fst]; auto.
Qed.

Lemma dok_set : forall (a : addr) (k : kind) (d : data), dok d -> dok (set a k d).
Proof. intros a k d [H1 H2]. split; [rewrite set_fst; auto|apply place_set; auto]. Qed.

Lemma dok_del : forall (a : addr) (d : data), dok d -> dok (del a d).
Proof.
  intros a d [H1 H2]. unfold del. split.
  - induction d as [|[b kb] d IH]; cbn [filter map fst]; auto.
    cbn [map fst] in H1. inversion H1 as [|? ? Hn Hd]; subst. inversion H2; subst.
    destruct (addr_eq_dec b a); auto. cbn [map fst]. constructor; auto.
    intros Hi. apply Hn. apply in_map_iff in Hi as (x & <- & Hx). apply filter_In in Hx as [Hx _].
    apply in_map; auto.
  - apply Forall_forall. intros x Hx. apply filter_In in Hx as [Hx _].
    rewrite Forall_forall in H2. auto.
Qed.

Lemma dok_add : forall (d : data) (a : addr) (k : kind), dok d -> ~ In a (map fst d) -> place_ok (a, k) ->
  dok (d ++ [(a, k)]).
Proof.
  intros d a k [H1 H2] Ha Hp. split.
  - rewrite map_app. cbn [map fst]. apply (Permutation_NoDup (l := a :: map fst d)).
    + apply Permutation_cons_append.
    + constructor; auto.
  - apply Forall_app. split; auto.
Qed.

(** HSET of the row of a node that exists. *)
Lemma hset_set : forall (a : addr) (f : row -> row) (k0 k : kind) (d : data), dok d -> Forall step_ok a ->
  get a d = Some k0 -> f (row_of a k0) = row_of a k -> hset (path_of a) f (db_of d) = db_of (set a k d).
Proof.
  intros a f k0 k d [Hnd Hp] Ha. induction d as [|[b kb] d IH]; intros Hg Hf; [discriminate|].
  cbn [get] in Hg. cbn [map fst] in Hnd. inversion Hnd as [|? ? Hn Hd]; subst.
  inversion Hp as [|? ? Hpb Hpd]; subst.
  unfold db_of, set. cbn [map entry fst snd hset].
  destruct (addr_eq_dec b a) as [->|N].
  - injection Hg as ->. rewrite str_eqb_refl. unfold entry at 2. cbn [fst snd]. rewrite Hf.
    fold (set a k d). rewrite set_absent by auto. auto.
  - rewrite str_eqb_neq.
    + f_equal. fold (db_of d). fold (set a k d). fold (db_of (set a k d)). apply IH; auto.
    + intros E. apply N. apply path_inj; auto. apply (place_step (b, kb)); auto.
Qed.

Lemma hset_absent : forall (p : str) (f : row -> row) (d e : db), (forall w, ~ In (p, w) d) ->
  hset p f (d ++ e) = d ++ hset p f e.
Proof.
  induction d as [|[q w] d IH]; intros e H; cbn [app hset]; auto.
  rewrite str_eqb_neq.
  - rewrite IH; auto. intros w' Hw. apply (H w'). right; auto.
  - intros ->. apply (H w). left; auto.
Qed.

Lemma db_absent : forall (a : addr) (d : data), dok d -> Forall step_ok a -> get a d = None ->
  forall w, ~ In (path_of a, w) (db_of d).
Proof.
  intros a d [_ Hp] Ha Hg w Hi. unfold db_of in Hi. apply in_map_iff in Hi as ([b kb] & E & Hi).
  unfold entry in E. cbn [fst snd] in E. injection E as E _.
  apply path_inj in E; auto.
  - subst b. apply get_none in Hg. apply Hg. apply in_map_iff. exists (a, kb). auto.
  - rewrite Forall_forall in Hp. apply (place_step (b, kb)). auto.
Qed.

Lemma hdel_del : forall (a : addr) (d : data), dok d -> Forall step_ok a ->
  hdel (path_of a) (db_of d) = db_of (del a d).
Proof.
  intros a d [_ Hp] Ha. unfold hdel, del, db_of. induction Hp as [|[b kb] d Hb _ IH]; cbn [map filter]; auto.
  unfold entry at 1 2. cbn [fst]. destruct (addr_eq_dec b a) as [->|N].
  - rewrite str_eqb_refl. cbn [negb]. auto.
  - rewrite str_eqb_neq.
    + cbn [negb map]. f_equal; auto.
    + intros E. apply N. apply path_inj; auto. apply (place_step (b, kb)); auto.
Qed.

Lemma enc_storable : forall (s : step), storable s -> exists ks, enc_keys (map snd (s_preds s)) = Some ks.
Proof.
  intros s [H1 H2]. unfold enc_keys. rewrite map_length.
  destruct (127 <? N.of_nat (length (s_preds s)))%N eqn:E; [apply N.ltb_lt in E; lia|].
  assert (exists r, enc_vals (map snd (s_preds s)) = Some r) as [r ->]; [|eauto].
  clear E H1. induction H2 as [|[k v] l Hv _ [r IH]]; cbn [map snd enc_vals]; [eauto|].
  cbn [snd] in Hv. unfold klen at 1. destruct (16383 <? N.of_nat (length v))%N eqn:E.
  - apply N.ltb_lt in E. lia.
  - rewrite IH. eauto.
Qed.

(** The default flag. *)
Lemma upd_dflt_ok : forall (a : addr) (v : str) (b od : bool) (d : data), dok d -> Forall step_ok a ->
  get a d = Some (KTerm v od) -> upd_dflt (path_of a) (KTerm v b) od (db_of d) = db_of (set a (KTerm v b) d).
Proof.
  intros a v b od d Hd Ha Hg. unfold upd_dflt.
  assert (Hr : forall x, set_dflt x (row_of a (KTerm v od)) = row_of a (KTerm v x)).
  { intros x.
    assert (Hpl : place_ok (a, KTerm v od)).
    { destruct Hd as [_ Hp]. rewrite Forall_forall in Hp. apply Hp. apply get_in; auto. }
    destruct Hpl as (pa & s & E & _). cbn [fst] in E. subst a. rewrite !row_of_snoc. reflexivity. }
  destruct od, b.
  - rewrite set_same; auto. apply Hd.
  - apply (hset_set a _ (KTerm v true)); auto.
  - apply (hset_set a _ (KTerm v false)); auto.
  - rewrite set_same; auto. apply Hd.
Qed.

Lemma node_op_ok : forall (pa : addr) (s : step) (k : kind) (o : dop) (od : bool) (d d1 : data),
  dok d -> Forall step_ok (pa ++ [s]) -> storable s -> change (pa ++ [s]) k o od d d1 ->
  node_op o (last_mod pa) (path_of (pa ++ [s])) s k od (db_of d) = Some (db_of d1) /\ dok d1.
Proof.
  intros pa s k o od d d1 Hd Ha Hst Hc. remember (pa ++ [s]) as a eqn:Ea.
  assert (Hpl : forall k', place_ok (a, k')).
  { intros k'. exists pa, s. cbn [fst]. subst a. auto. }
  destruct Hc as [a k od d Hg|a k k0 od d Hg|a v v0 b od d Hg|a v v0 js od d Hg|a v b od d Hg|a k od d Hg Hne];
    cbn [node_op].
  - split.
    + assert (Hh : forall f, hset (path_of a) f (db_of d) = db_of d ++ [(path_of a, f row0)]).
      { intros f. rewrite <- (app_nil_r (db_of d)) at 1. rewrite hset_absent; [auto|].
        apply db_absent; auto. }
      assert (He : forall k', db_of (d ++ [(a, k')]) = db_of d ++ [(path_of a, row_at pa s k')]).
      { intros k'. unfold db_of. rewrite map_app. cbn [map]. unfold entry at 2. cbn [fst snd].
        rewrite Ea, row_of_snoc. auto. }
      unfold create_op. destruct k as [| |v b|v js]; rewrite He.
      * rewrite Hh. subst a. reflexivity.
      * destruct (enc_storable s Hst) as [ks Eks]. rewrite Eks, Hh.
        unfold row_at. rewrite Eks. subst a. reflexivity.
      * rewrite Hh. destruct b.
        -- rewrite hset_absent by (apply db_absent; auto). cbn [hset].
           rewrite str_eqb_refl. subst a. reflexivity.
        -- subst a. reflexivity.
      * rewrite Hh. subst a. reflexivity.
    + apply dok_add; auto. apply get_none; auto.
  - split; [rewrite hdel_del; auto|apply dok_del; auto].
  - split; [|apply dok_set; auto]. f_equal. unfold replace_op.
    rewrite (hset_set a _ (KTerm v0 od) (KTerm v od)); auto.
    + rewrite upd_dflt_ok; auto; [rewrite set_set; auto|apply dok_set; auto|].
      eapply get_set; eauto.
    + subst a. rewrite !row_of_snoc. reflexivity.
  - split; [|apply dok_set; auto]. f_equal. unfold replace_op. cbn [upd_dflt].
    apply (hset_set a _ (KAny v0 js)); auto. subst a. rewrite !row_of_snoc. reflexivity.
  - split; [|apply dok_set; auto]. f_equal. apply upd_dflt_ok; auto.
  - split; auto. f_equal. unfold upd_dflt. destruct k; auto. exfalso. eapply Hne; eauto.
Qed.

Lemma store_node_eq : forall (pa : addr) (pop op : option dop) (s : step) (k : kind) (od : bool)
  (cs : list diffn) (d : db),
  store_node pa pop (Df s k op od cs) d =
  match (match op with Some o => Some o | None => pop end) with
  | None => None
  | Some o =>
      match node_op o (last_mod pa) (path_of (pa ++ [s])) s k od d with
      | None => None
      | Some d' => store_nodes (pa ++ [s]) (Some o) cs d'
      end
  end.
Proof.
  intros pa pop op s k od cs d. cbn [store_node].
  destruct (match op with Some o => Some o | None => pop end) as [o|]; auto.
  destruct (node_op o (last_mod pa) (path_of (pa ++ [s])) s k od d) as [d'|]; auto.
  revert d'. induction cs as [|c cs IH]; intros d'; cbn [store_nodes]; auto.
  destruct (store_node (pa ++ [s]) (Some o) c d'); auto.
Qed.

Lemma store_ok : forall (pa : addr) (po : option dop) (l : list diffn) (d d1 : data),
  changes pa po l d d1 -> dok d -> Forall step_ok pa ->
  store_nodes pa po l (db_of d) = Some (db_of d1) /\ dok d1.
Proof.
  intros pa po l d d1 H. induction H as [|pa po op o s k od cs l d d1 d2 d3 Hs Hst Hop Hc _ IH1 _ IH2];
    intros Hd Hpa; cbn [store_nodes]; auto.
  rewrite store_node_eq.
  assert (Hps : Forall step_ok (pa ++ [s])) by (apply Forall_app; split; auto).
  replace (match op with Some o0 => Some o0 | None => po end) with (Some o)
    by (destruct Hop as [-> | [-> ->]]; auto).
  destruct (node_op_ok pa s k o od d d1 Hd Hps Hst Hc) as [-> Hd1].
  destruct (IH1 Hd1 Hps) as [-> Hd2].
  apply IH2; auto.
Qed.

Lemma history_ok : forall (sc : schema) (ls : list (list diffn)) (d d1 : data),
  history sc ls d d1 -> dok d -> store_all ls (db_of d) = Some (db_of d1) /\ dok d1.
Proof.
  intros sc ls d d1 H. induction H as [|l ls d d1 d2 Hc _ _ IH]; intros Hd; cbn [store_all]; auto.
  unfold store_diff. destruct (store_ok [] None l d d1 Hc Hd (Forall_nil _)) as [-> Hd1]. auto.
Qed.

Lemma history_tree : forall (sc : schema) (ls : list (list diffn)) (d d1 : data),
  history sc ls d d1 -> tree sc d -> tree sc d1.
Proof. intros sc ls d d1 H. induction H; auto. Qed.

Lemma tree_nil : forall (sc : schema), tree sc [].
Proof. intros sc. split; [constructor|]. intros a k []. Qed.

Lemma dok_nil : dok [].
Proof. split; constructor. Qed.
