(** * Pushed operational data: what readers see *)

From Coq Require Import List NArith PeanoNat Bool Lia Sorting.Sorted.
From Verif Require Import OperPush OperPushSpec OperPushArr.
Import ListNotations.
Open Scope N_scope.

(** ** Data *)

Lemma get_rmv p q d : get p (rmv q d) = if p =? q then None else get p d.
Proof.
  unfold get, rmv. induction d as [|[x v] d IH]; cbn [filter find fst snd].
  - destruct (p =? q); reflexivity.
  - destruct (N.eqb_spec x q) as [->|NE]; cbn [negb].
    + rewrite IH. destruct (N.eqb_spec p q) as [->|NP]; [reflexivity|]. assert (q =? p = false) by (apply N.eqb_neq; lia). rewrite H. reflexivity.
    + cbn [find fst]. destruct (N.eqb_spec x p) as [->|NX]; [|exact IH]. assert (p =? q = false) by (apply N.eqb_neq; exact NE). rewrite H. reflexivity.
Qed.

Lemma get_put p q v d : get p (put q v d) = if p =? q then Some v else get p d.
Proof.
  unfold put. unfold get at 1. cbn [find fst]. rewrite (N.eqb_sym q p). destruct (p =? q) eqn:E; [reflexivity|].
  fold (get p (rmv q d)). rewrite get_rmv, E. reflexivity.
Qed.

Lemma get_app p a b : get p (a ++ b) = match get p a with Some v => Some v | None => get p b end.
Proof.
  unfold get. induction a as [|x a IH]; cbn [app find]; [reflexivity|]. destruct (fst x =? p); [reflexivity|exact IH].
Qed.

Lemma get_puts p l d : get p (fold_left (fun d x => put (fst x) (snd x) d) l d) = match get p (rev l) with Some v => Some v | None => get p d end.
Proof.
  revert d. induction l as [|[q v] l IH]; intros d; cbn [fold_left rev fst snd]; [reflexivity|].
  rewrite IH, get_app, get_put. destruct (get p (rev l)); [reflexivity|].
  unfold get at 2. cbn [find fst snd]. rewrite (N.eqb_sym q p). destruct (p =? q); reflexivity.
Qed.

Lemma get_discs p l d : (forall x, In x l -> snd x = None) ->
  get p (fold_left (fun d (x : discard) => if holds (snd x) d then rmv (fst x) d else d) l d) =
  if existsb (fun x => fst x =? p) l then None else get p d.
Proof.
  revert d. induction l as [|[q c] l IH]; intros d H; cbn [fold_left existsb fst snd]; [reflexivity|].
  assert (c = None) by (apply (H (q, c)); left; reflexivity). subst c. cbn [holds]. rewrite IH by (intros x I; apply H; right; exact I).
  rewrite get_rmv, (N.eqb_sym q p). destruct (existsb (fun x => fst x =? p) l); [rewrite orb_true_r; reflexivity|]. rewrite orb_false_r. reflexivity.
Qed.

Lemma lay_says l d p : plain l -> get p (lay l d) = match says l p with Some r => r | None => get p d end.
Proof.
  intros P. unfold lay, says. rewrite get_puts. destruct (get p (rev (l_data l))); [reflexivity|]. rewrite get_discs by exact P.
  destruct (existsb (fun x => fst x =? p) (l_disc l)); reflexivity.
Qed.

Definition lays (ls : list (N * (N * layer))) (d : data) : data := fold_left (fun d x => lay (snd (snd x)) d) ls d.

(** What the highest of the layers says. *)
Fixpoint saysl (ls : list (N * (N * layer))) (p : N) : option (option N) :=
  match ls with
  | [] => None
  | x :: ls => match saysl ls p with Some r => Some r | None => says (snd (snd x)) p end
  end.

Definition plains (ls : list (N * (N * layer))) : Prop := forall x, In x ls -> plain (snd (snd x)).

Lemma lays_says ls p : plains ls -> forall d, get p (lays ls d) = match saysl ls p with Some r => r | None => get p d end.
Proof.
  intros P. induction ls as [|x ls IH]; intros d; [reflexivity|]. unfold lays. cbn [fold_left saysl]. fold (lays ls (lay (snd (snd x)) d)).
  rewrite IH by (intros y I; apply P; right; exact I). destruct (saysl ls p); [reflexivity|]. apply lay_says, P. left. reflexivity.
Qed.

Lemma lays_app a b d : lays (a ++ b) d = lays b (lays a d).
Proof. apply fold_left_app. Qed.

(** ** Files *)

Lemma key_eqb_eq a b : key_eqb a b = true <-> a = b.
Proof. destruct a, b. unfold key_eqb. cbn. rewrite andb_true_iff, !N.eqb_eq. split; [intros [-> ->]; reflexivity|intros E; injection E; auto]. Qed.

Lemma file_del_get k k' fs : file k (file_del k' fs) = if key_eqb k k' then None else file k fs.
Proof.
  unfold file, file_del. induction fs as [|[x v] fs IH]; cbn [filter find fst snd].
  - destruct (key_eqb k k'); reflexivity.
  - destruct (key_eqb x k') eqn:E1; cbn [negb find fst].
    + rewrite IH. destruct (key_eqb k k') eqn:E2; [reflexivity|]. destruct (key_eqb x k) eqn:E3; [|reflexivity].
      apply key_eqb_eq in E1, E3. subst. assert (key_eqb k k = true) by (apply key_eqb_eq; reflexivity). congruence.
    + destruct (key_eqb x k) eqn:E3; [|exact IH]. apply key_eqb_eq in E3. subst. rewrite E1. reflexivity.
Qed.

Lemma file_set_get k k' l fs : file k (file_set k' l fs) = if key_eqb k k' then l else file k fs.
Proof.
  unfold file_set. destruct l as [l|]; [|apply file_del_get]. unfold file at 1. cbn [find fst].
  destruct (key_eqb k' k) eqn:E.
  - apply key_eqb_eq in E. subst. assert (key_eqb k k = true) by (apply key_eqb_eq; reflexivity). rewrite H. reflexivity.
  - fold (file k (file_del k' fs)). rewrite file_del_get. destruct (key_eqb k k') eqn:E2; [|reflexivity].
    apply key_eqb_eq in E2. subst. assert (key_eqb k' k' = true) by (apply key_eqb_eq; reflexivity). congruence.
Qed.

Lemma file_in k l fs : file k fs = Some l -> In (k, l) fs.
Proof.
  unfold file. destruct (find _ fs) as [[x v]|] eqn:E; [|discriminate]. cbn. intros X. injection X as ->.
  apply find_some in E. destruct E as [I E]. cbn in E. apply key_eqb_eq in E. subst. exact I.
Qed.

Lemma mem_in x l : mem x l = true <-> In x l.
Proof. unfold mem. rewrite existsb_exists. split; [intros (y & I & E); apply N.eqb_eq in E; subst; exact I|intros I; exists x; split; [exact I|apply N.eqb_refl]]. Qed.
Lemma mem_out x l : mem x l = false <-> ~ In x l.
Proof. rewrite <- mem_in. destruct (mem x l); split; congruence. Qed.

(** ** Cleaning after dead connections *)

Definition alive_e (dead : list N) (e : entry) : bool := negb (mem (e_cid e) dead).

Lemma purge_list_spec l dead : forall pre fs, NoDup (sids (pre ++ l)) ->
  fst (purge_list l dead (pre ++ l) fs) = pre ++ filter (alive_e dead) l /\
  (forall k, mem (fst k) dead = false -> file k (snd (purge_list l dead (pre ++ l) fs)) = file k fs) /\
  (forall x, In x (snd (purge_list l dead (pre ++ l) fs)) -> In x fs).
Proof.
  induction l as [|e l IH]; intros pre fs ND; cbn [purge_list filter].
  - rewrite app_nil_r. cbn. auto.
  - unfold alive_e at 1. destruct (mem (e_cid e) dead) eqn:M; cbn [negb].
    + rewrite push_del_mid; [|reflexivity|].
      2:{ unfold sids in *. rewrite map_app in ND. cbn [map] in ND. apply NoDup_remove_2 in ND. rewrite in_app_iff in ND. tauto. }
      destruct (IH pre (if e_has e then file_del (e_cid e, e_sid e) fs else fs)) as (A & B & C).
      { unfold sids in *. rewrite map_app in *. cbn [map] in ND. apply NoDup_remove_1 in ND. exact ND. }
      split; [exact A|]. split.
      * intros k K. rewrite B by exact K. destruct (e_has e); [|reflexivity]. rewrite file_del_get.
        destruct (key_eqb k (e_cid e, e_sid e)) eqn:E; [|reflexivity]. apply key_eqb_eq in E. subst. cbn in K. congruence.
      * intros x I. apply C in I. destruct (e_has e); [|exact I]. apply filter_In in I. tauto.
    + replace (pre ++ e :: l) with ((pre ++ [e]) ++ l) by (rewrite <- app_assoc; reflexivity).
      destruct (IH (pre ++ [e]) fs) as (A & B & C); [rewrite <- app_assoc; exact ND|]. split; [rewrite A, <- app_assoc; reflexivity|auto].
Qed.

Lemma purge_arr s : NoDup (sids (s_arr s)) -> s_arr (purge s) = filter (alive_e (s_dead s)) (s_arr s).
Proof. intros ND. apply (purge_list_spec (s_arr s) (s_dead s) [] (s_files s) ND). Qed.
Lemma purge_file s k : NoDup (sids (s_arr s)) -> mem (fst k) (s_dead s) = false -> file k (s_files (purge s)) = file k (s_files s).
Proof. intros ND. apply (purge_list_spec (s_arr s) (s_dead s) [] (s_files s) ND). Qed.
Lemma purge_in s x : NoDup (sids (s_arr s)) -> In x (s_files (purge s)) -> In x (s_files s).
Proof. intros ND. apply (purge_list_spec (s_arr s) (s_dead s) [] (s_files s) ND). Qed.

(** ** Invariant *)

Section Sys.
Variable owner : N -> N.

Definition usable (s : st) (sid : N) : Prop := sid <> 0 /\ ~ In (owner sid) (s_dead s) /\ ~ In sid (s_gone s).

Record inv (a : abs) (s : st) : Prop := mkinv {
  i_nd : NoDup (sids (s_arr s));
  i_srt : srt (s_arr s);
  i_cid : forall e, In e (s_arr s) -> e_cid e = owner (e_sid e) /\ e_sid e <> 0;
  i_zero : forall e, In e (s_arr s) -> e_order e = 0 -> In (e_cid e) (s_dead s);
  i_file : forall e, In e (s_arr s) -> e_has e = true -> exists l, file (e_cid e, e_sid e) (s_files s) = Some l;
  i_gone : forall e, In e (s_arr s) -> In (e_sid e) (s_gone s) -> e_has e = false;
  i_flag : forall e, In e (s_arr s) -> e_has e = true -> In (e_sid e) (s_flag s);
  i_view : forall sid, usable s sid -> a_view a sid =
    match entry_of sid (s_arr s) with
    | Some e => Some (e_order e, if e_has e then file (owner sid, sid) (s_files s) else None)
    | None => None end;
  i_off : forall sid, ~ usable s sid -> a_view a sid = None;
  i_edit : forall sid, usable s sid -> a_edit a sid = pend_of sid s;
  i_base : a_base a = s_base s
}.

Lemma usable_dec s sid : usable s sid \/ ~ usable s sid.
Proof.
  unfold usable. destruct (N.eq_dec sid 0) as [->|Z]; [right; tauto|].
  destruct (in_dec N.eq_dec (owner sid) (s_dead s)); [right; tauto|]. destruct (in_dec N.eq_dec sid (s_gone s)); [right; tauto|]. left. auto.
Qed.

Lemma inv_data a s sid : inv a s -> usable s sid -> data_of a sid = current owner sid s.
Proof. intros I U. unfold data_of, current. rewrite (i_view _ _ I sid U). destruct (entry_of sid (s_arr s)); reflexivity. Qed.

Lemma has_data_entry a s sid : inv a s -> usable s sid ->
  has_data sid s = match entry_of sid (s_arr s) with Some e => e_has e | None => false end.
Proof.
  intros I U. unfold has_data. destruct (entry_of sid (s_arr s)) as [e|] eqn:E.
  - apply entry_of_some in E. destruct E as [IE ES]. destruct (e_has e) eqn:H.
    + apply existsb_exists. exists e. split; [exact IE|]. rewrite ES, N.eqb_refl, H. reflexivity.
    + apply not_true_is_false. intros X. apply existsb_exists in X. destruct X as (x & IX & X). apply andb_true_iff in X. destruct X as [X1 X2]. apply N.eqb_eq in X1.
      assert (entry_of sid (s_arr s) = Some e) by (apply entry_of_in; [apply (i_nd _ _ I)|exact IE|exact ES]).
      assert (entry_of sid (s_arr s) = Some x) by (apply entry_of_in; [apply (i_nd _ _ I)|exact IX|exact X1]). congruence.
  - apply not_true_is_false. intros X. apply existsb_exists in X. destruct X as (x & IX & X). apply andb_true_iff in X. destruct X as [X1 X2]. apply N.eqb_eq in X1.
    apply entry_of_none in E. apply E. rewrite <- X1. apply in_map, IX.
Qed.

Lemma has_current a s sid : inv a s -> usable s sid -> has_data sid s = match current owner sid s with Some _ => true | None => false end.
Proof.
  intros I U. rewrite (has_data_entry a s sid I U). unfold current. destruct (entry_of sid (s_arr s)) as [e|] eqn:E; [|reflexivity].
  destruct (e_has e) eqn:H; [|reflexivity]. apply entry_of_some in E. destruct E as [IE ES].
  destruct (i_file _ _ I e IE H) as (l & L). destruct (i_cid _ _ I e IE) as [C _]. rewrite C, ES in L. rewrite L. reflexivity.
Qed.

Lemma filter_sub_srt (f : entry -> bool) arr : srt arr -> srt (filter f arr).
Proof.
  induction arr as [|e arr IH]; intros S; [exact S|].
  assert (S0 : srt arr) by (unfold srt in *; rewrite ords_cons in S; destruct (e_order e =? 0); [exact S|apply StronglySorted_inv in S; tauto]).
  cbn [filter]. destruct (f e); [|apply IH, S0]. unfold srt in *. rewrite ords_cons in *. destruct (e_order e =? 0); [apply IH, S0|].
  apply StronglySorted_inv in S. destruct S as [_ F]. constructor; [apply IH, S0|]. rewrite Forall_forall in *. intros o I. apply F.
  apply in_ords in I. destruct I as (Z & x & I & E). apply in_ords. split; [exact Z|]. exists x. apply filter_In in I. tauto.
Qed.

Lemma filter_sub_nd (f : entry -> bool) arr : NoDup (sids arr) -> NoDup (sids (filter f arr)).
Proof.
  induction arr as [|e arr IH]; intros ND; [constructor|]. inversion ND; subst. cbn [filter]. destruct (f e); [|apply IH; assumption].
  cbn [sids map]. constructor; [|apply IH; assumption]. intros X. apply H1. unfold sids in X. apply in_map_iff in X. destruct X as (x & E & I). apply filter_In in I.
  rewrite <- E. apply in_map. tauto.
Qed.

Lemma inv_purge a s : inv a s -> inv a (purge s) /\ (forall e, In e (s_arr (purge s)) -> ~ In (e_cid e) (s_dead s)).
Proof.
  intros I. pose proof (i_nd _ _ I) as ND. pose proof (purge_arr s ND) as PA.
  assert (PI : forall e, In e (s_arr (purge s)) <-> In e (s_arr s) /\ mem (e_cid e) (s_dead s) = false).
  { intros e. rewrite PA, filter_In. unfold alive_e. rewrite negb_true_iff. tauto. }
  split; [|intros e E; apply PI in E; apply mem_out; tauto].
  constructor; try (rewrite PA; first [apply filter_sub_nd; exact ND|apply filter_sub_srt, (i_srt _ _ I)]).
  - intros e E. apply PI in E. apply (i_cid _ _ I). tauto.
  - intros e E. apply PI in E. apply (i_zero _ _ I). tauto.
  - intros e E H. apply PI in E. destruct E as [E M]. rewrite purge_file by (auto). apply (i_file _ _ I); assumption.
  - intros e E. apply PI in E. apply (i_gone _ _ I). tauto.
  - intros e E. apply PI in E. apply (i_flag _ _ I). tauto.
  - intros sid U. change (usable s sid) in U. rewrite (i_view _ _ I sid U).
    destruct (entry_of sid (s_arr s)) as [e|] eqn:E.
    + apply entry_of_some in E. destruct E as [IE ES]. assert (M : mem (e_cid e) (s_dead s) = false).
      { apply mem_out. destruct (i_cid _ _ I e IE) as [-> _]. rewrite ES. apply U. }
      rewrite (entry_of_in sid (s_arr (purge s)) e); [|rewrite PA; apply filter_sub_nd; exact ND|apply PI; auto|exact ES].
      rewrite purge_file; [reflexivity|exact ND|]. cbn. apply mem_out. apply U.
    + apply entry_of_none in E. assert (E2 : entry_of sid (s_arr (purge s)) = None).
      { apply entry_of_none. intros X. apply E. unfold sids in *. apply in_map_iff in X. destruct X as (x & XE & XI). apply PI in XI. rewrite <- XE. apply in_map. tauto. }
      rewrite E2. reflexivity.
  - intros sid U. apply (i_off _ _ I). exact U.
  - intros sid U. apply (i_edit _ _ I). exact U.
  - apply (i_base _ _ I).
Qed.

(** ** Scanning of the array *)

Lemma scan_no_assert fs dead sid new arr : forall prev d, srt arr -> (forall e, In e arr -> e_order e = 0 -> In (e_cid e) dead) ->
  match prev with Some o => forall o', In o' (ords arr) -> o < o' | None => True end ->
  scan fs dead sid new prev arr d <> SAssert.
Proof.
  induction arr as [|e arr IH]; intros prev d S Z P; cbn [scan]; [discriminate|].
  destruct (mem (e_cid e) dead) eqn:M; [discriminate|].
  assert (NZ : e_order e <> 0) by (intros X; apply mem_out in M; apply M; apply Z; [left; reflexivity|exact X]).
  assert (Y : e_order e =? 0 = false) by (apply N.eqb_neq; exact NZ).
  unfold srt in S. rewrite ords_cons, Y in S. apply StronglySorted_inv in S. destruct S as [S F]. rewrite Forall_forall in F.
  assert (NXT : forall d, scan fs dead sid new (Some (e_order e)) arr d <> SAssert).
  { intros d0. apply IH; [exact S|intros x I; apply Z; right; exact I|exact F]. }
  destruct (e_has e); cbn [negb]; [|apply NXT].
  destruct prev as [o|].
  - assert (e_order e <=? o = false). { apply N.leb_gt. apply P. rewrite ords_cons, Y. left. reflexivity. }
    rewrite H. destruct (e_sid e =? sid); [discriminate|apply NXT].
  - destruct (e_sid e =? sid); [discriminate|apply NXT].
Qed.

Lemma scan_no_dead fs dead sid new arr : forall prev d, (forall e, In e arr -> ~ In (e_cid e) dead) -> forall d', scan fs dead sid new prev arr d <> SDead d'.
Proof.
  induction arr as [|e arr IH]; intros prev d N d'; cbn [scan]; [discriminate|].
  assert (M : mem (e_cid e) dead = false) by (apply mem_out, N; left; reflexivity). rewrite M.
  assert (N' : forall e, In e arr -> ~ In (e_cid e) dead) by (intros x I; apply N; right; exact I).
  destruct (e_has e); cbn [negb]; [|apply IH, N'].
  destruct (match prev with Some o => e_order e <=? o | None => false end); [discriminate|]. destruct (e_sid e =? sid); [discriminate|apply IH, N'].
Qed.

Lemma scan_done fs dead sid new arr : forall prev d d' hit, scan fs dead sid new prev arr d = SDone d' hit ->
  if hit then exists l1 e l2, arr = l1 ++ e :: l2 /\ e_sid e = sid /\ e_has e = true /\ forall x, In x l1 -> ~ In (e_cid x) dead
  else (forall x, In x arr -> ~ In (e_cid x) dead).
Proof.
  induction arr as [|e arr IH]; intros prev d d' hit; cbn [scan].
  - intros X. injection X as _ <-. intros x [].
  - destruct (mem (e_cid e) dead) eqn:M; [discriminate|]. apply mem_out in M.
    assert (NXT : forall d0, scan fs dead sid new (Some (e_order e)) arr d0 = SDone d' hit ->
      if hit then exists l1 x l2, e :: arr = l1 ++ x :: l2 /\ e_sid x = sid /\ e_has x = true /\ forall y, In y l1 -> ~ In (e_cid y) dead
      else forall x, In x (e :: arr) -> ~ In (e_cid x) dead).
    { intros d0 X. apply IH in X. destruct hit.
      - destruct X as (l1 & x & l2 & E & A & B & C). exists (e :: l1), x, l2. rewrite E. split; [reflexivity|]. split; [exact A|]. split; [exact B|].
        intros y [<-|Y]; [exact M|apply C, Y].
      - intros x [<-|X1]; [exact M|apply X, X1]. }
    destruct (e_has e) eqn:H; cbn [negb]; [|apply NXT].
    destruct (match prev with Some o => e_order e <=? o | None => false end); [discriminate|].
    destruct (e_sid e =? sid) eqn:E; [|apply NXT]. intros X. injection X as _ <-. apply N.eqb_eq in E.
    exists [], e, arr. split; [reflexivity|]. split; [exact E|]. split; [exact H|]. intros x [].
Qed.

(** [load] works and finds out about dead connections before the entry of the session. *)
Lemma load_ok a s sid new d : inv a s -> exists s' d', load s sid new d = Some (s', d') /\ inv a s' /\
  s_dead s' = s_dead s /\ s_gone s' = s_gone s /\ s_flag s' = s_flag s /\ s_pend s' = s_pend s /\ s_base s' = s_base s /\ s_stuck s' = s_stuck s /\
  (s' = s \/ s' = purge s) /\
  ((exists l1 e l2, s_arr s' = l1 ++ e :: l2 /\ e_sid e = sid /\ e_has e = true /\ forall x, In x l1 -> ~ In (e_cid x) (s_dead s')) \/
   (forall x, In x (s_arr s') -> ~ In (e_cid x) (s_dead s'))).
Proof.
  intros I. unfold load. unfold scan_st at 1. destruct (scan (s_files s) (s_dead s) sid new None (s_arr s) d) as [d1|d1 hit|] eqn:E.
  - destruct (inv_purge a s I) as [IP NP]. unfold scan_st.
    destruct (scan (s_files (purge s)) (s_dead (purge s)) sid new None (s_arr (purge s)) d1) as [d2|d2 hit|] eqn:E2.
    + exfalso. exact (scan_no_dead _ _ _ _ _ _ _ NP _ E2).
    + eexists. eexists. split; [reflexivity|]. split; [exact IP|]. do 6 (split; [reflexivity|]). split; [right; reflexivity|].
      apply scan_done in E2. destruct hit; [left; exact E2|right; exact E2].
    + exfalso. revert E2. apply scan_no_assert; [apply (i_srt _ _ IP)|apply (i_zero _ _ IP)|exact Logic.I].
  - eexists. eexists. split; [reflexivity|]. split; [exact I|]. do 6 (split; [reflexivity|]). split; [left; reflexivity|].
    apply scan_done in E. destruct hit; [left; exact E|right; exact E].
  - exfalso. revert E. apply scan_no_assert; [apply (i_srt _ _ I)|apply (i_zero _ _ I)|exact Logic.I].
Qed.

(** ** Reading *)

Definition lyrs (fs : list ((N * N) * layer)) (arr : list entry) : list (N * (N * layer)) :=
  flat_map (fun e => if e_has e then match file (e_cid e, e_sid e) fs with Some l => [(e_sid e, (e_order e, l))] | None => [] end else []) arr.

Lemma scan_read fs dead arr : (forall e, In e arr -> e_sid e <> 0) -> forall prev d,
  match scan fs dead 0 None prev arr d with
  | SDone d' hit => d' = lays (lyrs fs arr) d /\ forall e, In e arr -> ~ In (e_cid e) dead
  | SDead d' => exists l1 e l2, arr = l1 ++ e :: l2 /\ d' = lays (lyrs fs l1) d /\ (forall e, In e l1 -> ~ In (e_cid e) dead) /\ In (e_cid e) dead
  | SAssert => True
  end.
Proof.
  induction arr as [|e arr IH]; intros N prev d; cbn [scan].
  - split; [reflexivity|]. intros e [].
  - assert (N' : forall e, In e arr -> e_sid e <> 0) by (intros x I; apply N; right; exact I).
    destruct (mem (e_cid e) dead) eqn:M.
    { apply mem_in in M. exists [], e, arr. split; [reflexivity|]. split; [reflexivity|]. split; [intros x []|exact M]. }
    apply mem_out in M.
    assert (NXT : forall d0, d0 = lays (lyrs fs [e]) d -> match scan fs dead 0 None (Some (e_order e)) arr d0 with
      | SDone d' hit => d' = lays (lyrs fs (e :: arr)) d /\ forall x, In x (e :: arr) -> ~ In (e_cid x) dead
      | SDead d' => exists l1 x l2, e :: arr = l1 ++ x :: l2 /\ d' = lays (lyrs fs l1) d /\ (forall e, In e l1 -> ~ In (e_cid e) dead) /\ In (e_cid x) dead
      | SAssert => True end).
    { intros d0 E. specialize (IH N' (Some (e_order e)) d0). destruct (scan fs dead 0 None (Some (e_order e)) arr d0); [| |exact Logic.I].
      - destruct IH as (l1 & x & l2 & A & B & C & D). exists (e :: l1), x, l2. split; [rewrite A; reflexivity|]. split; [|split; [|exact D]].
        + rewrite B, E. change (e :: l1) with ([e] ++ l1). unfold lyrs at 3. rewrite flat_map_app. fold (lyrs fs [e]). fold (lyrs fs l1). rewrite lays_app. reflexivity.
        + intros y [<-|Y]; [exact M|apply C, Y].
      - destruct IH as [A B]. split.
        + rewrite A, E. change (e :: arr) with ([e] ++ arr). unfold lyrs at 3. rewrite flat_map_app. fold (lyrs fs [e]). fold (lyrs fs arr). rewrite lays_app. reflexivity.
        + intros x [<-|X]; [exact M|apply B, X]. }
    assert (NS : e_sid e =? 0 = false) by (apply N.eqb_neq, N; left; reflexivity).
    destruct (e_has e) eqn:H; cbn [negb].
    + destruct (match prev with Some o => e_order e <=? o | None => false end); [exact Logic.I|]. rewrite NS. apply NXT.
      unfold lyrs. cbn [flat_map]. rewrite H, app_nil_r. destruct (file (e_cid e, e_sid e) fs); reflexivity.
    + apply NXT. unfold lyrs. cbn [flat_map]. rewrite H. reflexivity.
Qed.

Lemma in_lyrs fs arr x : In x (lyrs fs arr) <-> exists e l, In e arr /\ e_has e = true /\ file (e_cid e, e_sid e) fs = Some l /\ x = (e_sid e, (e_order e, l)).
Proof.
  unfold lyrs. rewrite in_flat_map. split.
  - intros (e & I & X). destruct (e_has e) eqn:H; [|destruct X]. destruct (file (e_cid e, e_sid e) fs) as [l|] eqn:F; [|destruct X].
    destruct X as [<-|[]]. exists e, l. auto.
  - intros (e & l & I & H & F & ->). exists e. split; [exact I|]. rewrite H, F. left. reflexivity.
Qed.

Lemma lyrs_sorted fs arr : srt arr -> (forall e, In e arr -> e_order e <> 0) -> StronglySorted (fun x y : N * (N * layer) => fst (snd x) < fst (snd y)) (lyrs fs arr).
Proof.
  induction arr as [|e arr IH]; intros S Z; [constructor|]. assert (Y : e_order e =? 0 = false) by (apply N.eqb_neq, Z; left; reflexivity).
  unfold srt in S. rewrite ords_cons, Y in S. apply StronglySorted_inv in S. destruct S as [S F].
  assert (IH' := IH S (fun x I => Z x (or_intror I))). unfold lyrs. cbn [flat_map]. fold (lyrs fs arr).
  destruct (e_has e); [|exact IH']. destruct (file (e_cid e, e_sid e) fs) as [l|]; [|exact IH']. cbn [app]. constructor; [exact IH'|].
  rewrite Forall_forall in *. intros x I. apply in_lyrs in I. destruct I as (y & l' & I & H & _ & ->). cbn. apply F. apply in_ords. split; [apply Z; right; exact I|eauto].
Qed.

Lemma inv_shown a s d : inv a s -> (forall e, In e (s_arr s) -> ~ In (e_cid e) (s_dead s)) ->
  (forall p, get p d = get p (lays (lyrs (s_files s) (s_arr s)) (s_base s))) -> shown a d.
Proof.
  intros I ND G. exists (lyrs (s_files s) (s_arr s)).
  split; [apply lyrs_sorted; [apply (i_srt _ _ I)|intros e E X; apply (ND e E), (i_zero _ _ I); assumption]|].
  split; [|rewrite (i_base _ _ I); exact G].
  intros sid o l. rewrite in_lyrs. split.
  - intros (e & l' & E & H & F & X). injection X as -> -> ->. destruct (i_cid _ _ I e E) as [C Z].
    assert (U : usable s (e_sid e)).
    { split; [exact Z|]. split; [rewrite <- C; apply ND, E|]. intros G2. rewrite (i_gone _ _ I e E G2) in H. discriminate. }
    rewrite (i_view _ _ I _ U), (entry_of_in _ _ e (i_nd _ _ I) E eq_refl), H, <- C, F. reflexivity.
  - intros V. destruct (usable_dec s sid) as [U|U]; [|rewrite (i_off _ _ I _ U) in V; discriminate].
    rewrite (i_view _ _ I _ U) in V. destruct (entry_of sid (s_arr s)) as [e|] eqn:E; [|discriminate]. injection V as <- V.
    apply entry_of_some in E. destruct E as [E <-]. destruct (e_has e) eqn:H; [|discriminate]. exists e, l. destruct (i_cid _ _ I e E) as [C _]. rewrite C. auto.
Qed.

(** Either there is nobody dead in the array or the discarded XPaths have no predicates. *)
Definition read_safe (s : st) : Prop :=
  (forall e, In e (s_arr s) -> ~ In (e_cid e) (s_dead s)) \/ (forall k l, In (k, l) (s_files s) -> plain l).

Lemma load_read a s : inv a s -> read_safe s -> exists s' d, load s 0 None (s_base s) = Some (s', d) /\ inv a s' /\ shown a d /\ s_stuck s' = s_stuck s.
Proof.
  intros I RS. assert (NZ : forall e, In e (s_arr s) -> e_sid e <> 0) by (intros e E; apply (i_cid _ _ I e E)).
  unfold load. unfold scan_st at 1. pose proof (scan_read (s_files s) (s_dead s) (s_arr s) NZ None (s_base s)) as SR.
  destruct (scan (s_files s) (s_dead s) 0 None None (s_arr s) (s_base s)) as [d1|d1 hit|] eqn:E.
  - destruct SR as (l1 & e & l2 & EA & D1 & N1 & DE). destruct RS as [RS|RS]; [exfalso; apply (RS e); [rewrite EA; apply in_or_app; right; left; reflexivity|exact DE]|].
    destruct (inv_purge a s I) as [IP NP]. assert (NZP : forall e, In e (s_arr (purge s)) -> e_sid e <> 0) by (intros x X; apply (i_cid _ _ IP x X)).
    unfold scan_st. pose proof (scan_read (s_files (purge s)) (s_dead (purge s)) (s_arr (purge s)) NZP None d1) as SR2.
    destruct (scan (s_files (purge s)) (s_dead (purge s)) 0 None None (s_arr (purge s)) d1) as [d2|d2 hit|] eqn:E2.
    + exfalso. exact (scan_no_dead _ _ _ _ _ _ _ NP _ E2).
    + exists (purge s), d2. split; [reflexivity|]. split; [exact IP|]. split; [|reflexivity]. destruct SR2 as [-> _]. apply (inv_shown a (purge s)); [exact IP|exact NP|].
      pose proof (i_nd _ _ I) as ND. assert (PA := purge_arr s ND). rewrite EA in PA. rewrite filter_app in PA.
      assert (F1 : filter (alive_e (s_dead s)) l1 = l1).
      { clear -N1. induction l1 as [|x l1 IH]; [reflexivity|]. cbn [filter]. unfold alive_e at 1. assert (mem (e_cid x) (s_dead s) = false) by (apply mem_out, N1; left; reflexivity). rewrite H. cbn [negb].
        f_equal. apply IH. intros y Y. apply N1. right. exact Y. }
      rewrite F1 in PA.
      assert (L1 : lyrs (s_files (purge s)) l1 = lyrs (s_files s) l1).
      { clear -N1 ND. induction l1 as [|x l1 IH]; [reflexivity|]. unfold lyrs. cbn [flat_map]. fold (lyrs (s_files (purge s)) l1). fold (lyrs (s_files s) l1). rewrite IH by (intros y Y; apply N1; right; exact Y).
        rewrite purge_file; [reflexivity|exact ND|]. cbn. apply mem_out, N1. left. reflexivity. }
      rewrite PA. unfold lyrs. rewrite flat_map_app. fold (lyrs (s_files (purge s)) l1). fold (lyrs (s_files (purge s)) (filter (alive_e (s_dead s)) (e :: l2))).
      set (r := lyrs (s_files (purge s)) (filter (alive_e (s_dead s)) (e :: l2))). rewrite D1, L1. intros p.
      assert (PL : plains (lyrs (s_files s) l1 ++ r)).
      { intros x X. apply in_app_or in X. destruct X as [X|X]; apply in_lyrs in X; destruct X as (y & l & _ & _ & F & ->); cbn; apply file_in in F; [eapply RS; exact F|].
        apply purge_in in F; [eapply RS; exact F|exact ND]. }
      change (s_base (purge s)) with (s_base s). rewrite !(lays_says _ p PL).
      destruct (saysl (lyrs (s_files s) l1 ++ r) p) eqn:SY; [reflexivity|].
      assert (SY1 : saysl (lyrs (s_files s) l1) p = None).
      { clear -SY. revert SY. generalize (lyrs (s_files s) l1) as k. induction k as [|x k IH]; intros SY; [reflexivity|]. cbn [saysl app] in *.
        destruct (saysl (k ++ r) p) eqn:Y; [discriminate|]. rewrite IH by reflexivity. exact SY. }
      rewrite lays_says, SY1; [reflexivity|]. intros x X. apply PL. apply in_or_app. left. exact X.
    + exfalso. revert E2. apply scan_no_assert; [apply (i_srt _ _ IP)|apply (i_zero _ _ IP)|exact Logic.I].
  - exists s, d1. split; [reflexivity|]. split; [exact I|]. split; [|reflexivity]. destruct SR as [-> ND]. apply (inv_shown a s); [exact I|exact ND|reflexivity].
  - exfalso. revert E. apply scan_no_assert; [apply (i_srt _ _ I)|apply (i_zero _ _ I)|exact Logic.I].
Qed.

End Sys.
