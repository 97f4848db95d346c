(** Proofs about applying changes with updates. *)
From Coq Require Import NArith List Bool Arith Lia Sorted.
From Verif Require Import Update UpdateSpec UpdateProofs UpdateAsk.
Import ListNotations.

Definition add (u : option (list op)) (l : list op) : option (list op) :=
  match l with
  | [] => u
  | _ => Some (insert_all (match u with Some x => x | None => [] end) l)
  end.

Lemma collect_add : forall u e, fst (collect u e) = add u e.
Proof. intros u [|o e]; reflexivity. Qed.

Lemma add_add : forall u a b, add (add u a) b = add u (a ++ b).
Proof.
  intros u a b. destruct a as [|x a]; [reflexivity|]. destruct b as [|y b].
  - rewrite app_nil_r. reflexivity.
  - unfold add at 1 2. change (add u ((x :: a) ++ y :: b))
      with (Some (insert_all match u with Some z => z | None => [] end ((x :: a) ++ y :: b))).
    rewrite insert_all_app. reflexivity.
Qed.

Definition called (df : diff) (s : sub) : bool := filter_valid s (get_diff s (s_mod s) df).

Lemma calm_called : forall w tab df s m, calm w tab -> In s tab -> usable s m df = true -> s_forig s = true -> called df s = true.
Proof.
  intros w tab df s m (_ & _ & _ & C) I U F. apply usable_props in U. destruct U as (_ & _ & _ & V & _).
  specialize (V F). unfold called, get_diff. destruct (s_all s) eqn:A; [exact V|].
  unfold filter_valid in *. apply existsb_exists in V. destruct V as (x & Ix & Sx).
  apply existsb_exists. exists x. split; [|exact Sx]. apply filter_In. split; [exact Ix|].
  apply N.eqb_eq. apply C; auto.
Qed.

Lemma calm_list : forall w tab df, calm w tab -> forall l u c k r,
  (forall s, In s l -> In s tab /\ usable s (s_mod s) df = true) ->
  ask_list (w_beh w) l df u c = (k, r) ->
  (forall x, In x k -> shown x = get_diff (who x) (s_mod (who x)) df) /\
  exists rest, filter (called df) l = map who k ++ rest /\
    ((rest = [] /\ (exists c', r = UOk (add u (updates k)) c')) \/
     (r = URefused /\ exists s, In s (filter (called df) l) /\ refuses w s)).
Proof.
  intros w tab df C. induction l as [|s l IH]; intros u c k r T H; cbn [ask_list filter] in *.
  - injection H as <- <-. split; [intros x []|]. exists []. split; [reflexivity|]. left. split; [reflexivity|]. exists c. reflexivity.
  - destruct (T s (or_introl eq_refl)) as [Is Us].
    assert (forall x, In x l -> In x tab /\ usable x (s_mod x) df = true) as T' by (intros x I; apply T; right; exact I).
    pose proof (proj1 C (s_id s)) as G. rewrite G in H.
    unfold process in H. fold (called df s) in H. destruct (called df s) eqn:V.
    + pose proof (proj1 (proj2 C) (s_id s)) as NS.
      destruct (b_answers (w_beh w (s_id s))) as [|a ans] eqn:B; cbn [listen negb] in H.
      * injection H as <- <-. split; [intros x []|]. exists (s :: filter (called df) l). split; [reflexivity|].
        right. split; [reflexivity|]. exists s. split; [left; reflexivity|]. unfold refuses. rewrite B. exact Logic.I.
      * destruct a as [e| |e].
        -- pose proof (collect_add u e) as A. destruct (collect u e) as [u' c']. cbn [fst] in A. subst u'.
           destruct (ask_list (w_beh w) l df (add u e) c') as [k' r'] eqn:R.
           injection H as <- <-. destruct (IH _ _ _ _ T' R) as (X & rest & E & Y). split.
           ++ intros x I. destruct I as [<-|I]; [reflexivity|apply X; exact I].
           ++ exists rest. split; [cbn; rewrite E; reflexivity|]. destruct Y as [[Z (c2 & ->)]|[-> (t & It & Rt)]].
              ** left. split; [exact Z|]. exists c2. rewrite add_add. reflexivity.
              ** right. split; [reflexivity|]. exists t. split; [right; exact It|exact Rt].
        -- injection H as <- <-. split; [intros x [<-|[]]; reflexivity|]. exists (filter (called df) l). split; [reflexivity|].
           right. split; [reflexivity|]. exists s. split; [left; reflexivity|]. unfold refuses. rewrite B. exact Logic.I.
        -- exfalso. apply (NS e). left. reflexivity.
    + destruct (s_forig s) eqn:F; [rewrite (calm_called w tab df s (s_mod s) C Is Us F) in V; discriminate|].
      cbn [collect] in H. destruct (ask_list (w_beh w) l df u CNull) as [k' r'] eqn:R.
      injection H as <- <-. cbn [app]. apply (IH _ _ _ _ T' R).
Qed.

Lemma sorted_filter : forall (f : sub -> bool) l, StronglySorted gt_prio l -> StronglySorted gt_prio (filter f l).
Proof.
  intros f l H. induction H as [|a l H IH F]; cbn [filter]; [constructor|].
  destruct (f a); [|exact IH]. constructor; [exact IH|]. rewrite Forall_forall in *.
  intros x I. apply filter_In in I. apply F. apply I.
Qed.

Lemma get_diff_in : forall s df x, In x (get_diff s (s_mod s) df) <-> seen_by s df x.
Proof.
  intros s df x. unfold get_diff, seen_by. destruct (s_all s).
  - split; [intro I; split; [exact I|discriminate]|tauto].
  - rewrite filter_In, N.eqb_eq. split; [tauto|]. intros [I H]. auto.
Qed.

Lemma called_spec : forall df s, called df s = true <-> exists x, seen_by s df x /\ s_sel s (fst x) = true.
Proof.
  intros df s. unfold called, filter_valid. rewrite existsb_exists. split; intros (x & I & H); exists x; split; auto; apply get_diff_in; exact I.
Qed.

Lemma plan_ok : forall tab df m, ForallOrdPairs apart tab -> in_order tab df m (filter (called df) (lst tab df m)).
Proof.
  intros tab df m H. split; [apply sorted_filter, lst_sorted; exact H|].
  intro s. rewrite filter_In, lst_in, called_spec, usable_props. unfold wanted. split; [tauto|].
  intros (I & M & U & A & Su & X). repeat split; auto.
  intro F. unfold filter_valid. apply existsb_exists. destruct X as (x & [Ix _] & Sx). exists x. auto.
Qed.

Lemma filter_flat_map : forall (f : sub -> bool) (g : N -> list sub) ms,
  filter f (flat_map g ms) = flat_map (fun m => filter f (g m)) ms.
Proof.
  intros f g ms. induction ms as [|m ms IH]; cbn [flat_map]; [reflexivity|]. rewrite filter_app, IH. reflexivity.
Qed.

Definition mods (df : diff) : list N := next_mods [] (map (fun x : path * (option N * option N) => p_mod (fst x)) df).

Lemma notify_calm : forall w tab df k r, table tab -> calm w tab -> notify_update (w_beh w) tab df = (k, r) ->
  (forall x, In x k -> shown x = get_diff (who x) (s_mod (who x)) df) /\
  exists rest, flat_map (fun m => filter (called df) (lst tab df m)) (mods df) = map who k ++ rest /\
    ((rest = [] /\ (exists c', r = UOk (add None (updates k)) c')) \/
     (r = URefused /\ exists s, In s (map who k ++ rest) /\ refuses w s)).
Proof.
  intros w tab df k r T C H. apply table_apart in T. unfold notify_update in H. fold (mods df) in H.
  rewrite ask_mods_list in H; [|exact T|apply C].
  destruct (calm_list w tab df C _ _ _ _ _ (fun s I => match proj1 (in_flat_map _ _ _) I with ex_intro _ m (conj _ J) =>
     let K := proj1 (lst_in tab df m s) J in
     conj (proj1 K) (eq_ind_r (fun z => usable s z df = true) (proj2 K) (proj1 (proj1 (usable_props s m df) (proj2 K)))) end) H)
    as (X & rest & E & Y).
  rewrite filter_flat_map in E. split; [exact X|]. exists rest. split; [exact E|].
  destruct Y as [Y|[Y (s & I & R)]]; [left; exact Y|]. right. split; [exact Y|]. exists s.
  split; [|exact R]. rewrite <- E, <- filter_flat_map. exact I.
Qed.

Lemma steps_add : forall l d d', l <> [] -> 
  (exists u, add None l = Some u /\ (steps d u d' <-> steps d l d')).
Proof.
  intros l d d' H. destruct l as [|o l]; [contradiction|]. cbn [add].
  exists (insert_all [] (o :: l)). split; [reflexivity|].
  destruct (insert_all_only (o :: l) [] (SSorted_nil _)) as [_ E].
  split; apply steps_only; intro p; rewrite E; reflexivity.
Qed.
