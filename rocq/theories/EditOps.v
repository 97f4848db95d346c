(** What the operation of one edit node does with the siblings of its schema node. *)
From Coq Require Import List Bool Arith Lia Sorted Permutation.
From Verif Require Import Edit EditSpec EditProofs.
Import ListNotations.

Section P.
Variable kd : nat -> kind.
Notation it := (is_it kd).
Notation key := (EditSpec.key kd).

(** The value of the node the edit asks for. *)
Definition same_val (s v : nat) (d : dnode) : Prop := dval d = v.

Inductive act (s v : nat) (i : ins) (orph fr fd : bool) (g : list dnode) : eop -> option dnode -> st -> Prop :=
| a_missing : forall op, op = Ether \/ op = Remove -> act s v i orph fr fd g op None (mkst g None None fr fd false false false)
| a_keep : forall op d, op <> Delete -> op <> Remove -> op <> Purge ->
    (op = Create -> np_cont (kd s) = true) ->
    (op = Merge \/ op = Replace -> dval d = v) ->
    act s v i orph fr fd g op (Some d)
      (mkst g (Some d) (if term (kd s) then None else Some (F DNone s (dval d) (ddflt d) None None None []))
            (match op with Replace => true | _ => fr end) fd false false false)
| a_new : forall op, op = Merge \/ op = Create \/ op = Replace -> userord (kd s) = false -> orph = false ->
    act s v i orph fr fd g op None
      (mkst (g ++ [D s v false []]) (Some (D s v false [])) (Some (F DCreate s v false None None None [])) fr fd false true false)
| a_insert : forall op g1, op = Merge \/ op = Create \/ op = Replace -> userord (kd s) = true -> orph = false ->
    edit_insert i (D s v false []) g = Some g1 ->
    act s v i orph fr fd g op None
      (mkst g1 (Some (D s v false [])) (Some (F DCreate s v false None (prev_of (it s v) None g1) None [])) fr fd false true false)
| a_move : forall op d g1, op = Merge \/ op = Replace -> userord (kd s) = true -> orph = false -> dval d = v ->
    edit_insert i d (remove_first (it s v) g) = Some g1 ->
    act s v i orph fr fd g op (Some d)
      (mkst g1 (Some d) (Some (F DReplace s v (ddflt d) None (prev_of (it s v) None g1) (prev_of (it s v) None g) [])) 
            (match op with Replace => true | _ => fr end) fd false true false)
| a_set : forall op d, op = Merge \/ op = Replace \/ (op = Create /\ ddflt d = true) -> kd s = KLeaf -> dval d <> v ->
    act s v i orph fr fd g op (Some d)
      (mkst (update_first (it s v) (fun x => D (dsch x) v false (dch x)) g) (Some (D (dsch d) v false (dch d)))
            (Some (F DReplace s v false (Some (dval d, ddflt d)) None None [])) true fd false true false)
| a_dflt : forall op d, op = Merge \/ op = Create -> kd s = KLeaf -> dval d = v -> ddflt d = true ->
    act s v i orph fr fd g op (Some d)
      (mkst (update_first (it s v) (fun x => D (dsch x) v false (dch x)) g) (Some (D (dsch d) v false (dch d)))
            (Some (F DNone s v false (Some (v, true)) None None [])) fr fd false true false)
| a_del : forall op d, op = Remove \/ (op = Delete /\ (term (kd s) && ddflt d) = false) ->
    act s v i orph fr fd g op (Some d)
      (mkst g (Some d) (Some (F DDelete s (dval d) (ddflt d) None None (if userord (kd s) then prev_of (it s v) None g else None) [])) fr true false true true).

(** Without default leaf-list instances the default flag does not matter for finding. *)
Lemma edit_find_wf : forall s v g, wfg kd s g -> edit_find kd s v false g = find (it s v) g.
Proof.
  intros s v g (A & _ & W). unfold edit_find. destruct (find (it s v) g) as [d|] eqn:Fd; [|reflexivity]. apply find_some in Fd. destruct Fd as (Hd & _).
  pose proof (proj1 (Forall_forall _ _) A d Hd) as Sd. pose proof (proj1 (Forall_forall _ _) W d Hd) as Wd. cbn beta in Sd. destruct d as [s' v' b ch]. cbn [dsch] in Sd. subst s'. cbn [wfd] in Wd. destruct Wd as (_ & Wb & _). cbn [ddflt].
  destruct b; [rewrite (Wb eq_refl); reflexivity|rewrite andb_false_r; reflexivity].
Qed.

Lemma find_inst : forall s v g d, inst (kd s) = true -> find (it s v) g = Some d -> dval d = v.
Proof. intros s v g d I H. apply find_some in H. destruct H as (_ & H). unfold is_it in H. rewrite I in H. apply Nat.eqb_eq. exact H. Qed.

Lemma inst_userord : forall s, userord (kd s) = true -> inst (kd s) = true.
Proof. intros s. destruct (kd s); cbn; congruence. Qed.

Ltac mv op := lazymatch goal with
  | K : kd ?s = ?c ?uo, Q : _ = Some false, Fd : find _ ?g = Some ?d, H : _ = ROk _ |- act ?s ?v ?i ?orph ?fr ?fd ?g _ _ _ =>
      destruct uo; [|discriminate Q];
      assert (U : userord (kd s) = true) by (rewrite K; reflexivity);
      pose proof (find_inst s v g d (inst_userord s U) Fd) as Vd;
      cbn [op_loop step_op userord] in H; unfold apply_move, set_r in H; cbn [st_m st_g st_r st_d st_err st_chg st_del] in H;
      destruct (edit_insert i d (remove_first (is_it kd s v) g)) as [g1|] eqn:I; [|discriminate H]; injection H as <-; rewrite Vd;
      apply (a_move s v i orph fr fd g op d g1); auto
  end.

(** All the ways an operation ends without an error. *)
Lemma op_act : forall s v i orph fr fd ep veq g op x,
  wfg kd s g -> (match kd s with KCont _ => v = 0 | _ => True end) -> op <> Purge ->
  (orph = true -> g = []) ->
  val_equal kd fr i ep s v (find (it s v) g) g = Some veq ->
  op_loop kd s v false i orph veq 5 (OOp op) (mkst g (find (it s v) g) None fr fd false false false) = ROk x -> st_err x = false ->
  act s v i orph fr fd g op (find (it s v) g) x.
Proof.
  intros s v i orph fr fd ep veq g op x W V NP O Q H Er.
  destruct (find (it s v) g) as [d|] eqn:Fd.
  - (* there *)
    assert (Wd : wfd kd d /\ dsch d = s) by (apply find_some in Fd; destruct Fd as (Hd & _); destruct W as (A & _ & W'); split; [apply (proj1 (Forall_forall _ _) W'); exact Hd|apply (proj1 (Forall_forall _ _) A); exact Hd]).
    assert (Or : orph = false) by (destruct orph; [rewrite (O eq_refl) in Fd; discriminate|reflexivity]). subst orph.
    destruct Wd as (Wd & Sd).
    assert (Hc : match kd s with KCont _ => dval d = 0 | _ => True end) by (destruct d as [s' v' b ch]; cbn in Sd; subst s'; cbn [wfd] in Wd; apply (proj1 Wd)).
    assert (Hb : ddflt d = true -> kd s = KLeaf) by (destruct d as [s' v' b ch]; cbn in Sd; subst s'; cbn [wfd] in Wd; apply (proj1 (proj2 Wd))).
    clear Wd. unfold val_equal in Q.
    destruct op; try congruence; cbn [op_loop step_op apply_ether apply_none apply_merge apply_replace apply_create apply_delete apply_remove st_m st_g st_r st_d st_err st_chg st_del set_r set_err] in H.
    + (* ether *) destruct (kd s) eqn:K; injection H as <-; eapply eq_rect; try (apply a_keep; try congruence; try (intros [X|X]; congruence)); rewrite ?K; reflexivity.
    + destruct (kd s) eqn:K; injection H as <-; eapply eq_rect; try (apply a_keep; try congruence; try (intros [X|X]; congruence)); rewrite ?K; reflexivity.
    + (* merge *)
      destruct veq; cbn [negb] in H.
      * assert (Vd : dval d = v).
        { destruct (kd s) eqn:K; [congruence| |apply (find_inst s _ g); [rewrite K; reflexivity|exact Fd]|apply (find_inst s _ g); [rewrite K; reflexivity|exact Fd]]. injection Q as Q. apply Nat.eqb_eq. exact Q. }
        destruct (term (kd s)) eqn:T; cbn [andb] in H.
        -- destruct (ddflt d) eqn:B; cbn [negb Bool.eqb] in H.
           ++ cbn [op_loop step_op apply_dflt st_m] in H. rewrite T, B in H. cbn [negb orb Bool.eqb] in H. unfold upd_match, set_val in H. cbn in H. injection H as <-. rewrite Vd. apply a_dflt; auto.
           ++ cbn [op_loop step_op apply_none st_m] in H. destruct (kd s) eqn:K; try discriminate T; injection H as <-; eapply eq_rect; try (apply a_keep; try congruence); rewrite ?K; reflexivity.
        -- cbn [op_loop step_op apply_none st_m] in H. destruct (kd s) eqn:K; try discriminate T; injection H as <-; eapply eq_rect; try (apply a_keep; try congruence); rewrite ?K; reflexivity.
      * destruct (kd s) eqn:K; [discriminate| | |].
        -- cbn [op_loop step_op apply_replace st_m] in H. rewrite K in H. unfold upd_match, set_val, set_r in H. cbn in H. injection H as <-. apply a_set; auto. intros X. injection Q as Q. apply Nat.eqb_neq in Q. congruence.
        -- mv Merge.
        -- mv Merge.
    + (* replace *)
      destruct veq.
      * assert (Vd : dval d = v).
        { destruct (kd s) eqn:K; [congruence| |apply (find_inst s _ g); [rewrite K; reflexivity|exact Fd]|apply (find_inst s _ g); [rewrite K; reflexivity|exact Fd]]. injection Q as Q. apply Nat.eqb_eq. exact Q. }
        cbn [op_loop step_op apply_none st_m set_r] in H. destruct (kd s) eqn:K; injection H as <-; eapply eq_rect; try (apply a_keep; try congruence); rewrite ?K; reflexivity.
      * destruct (kd s) eqn:K; [discriminate| | |].
        -- unfold upd_match, set_val, set_r in H. cbn in H. injection H as <-. apply a_set; auto. intros X. injection Q as Q. apply Nat.eqb_neq in Q. congruence.
        -- mv Replace.
        -- mv Replace.
    + (* create *)
      destruct (kd s) eqn:K; cbn [np_cont andb] in H.
      * destruct np.
        -- cbn [op_loop step_op apply_none st_m] in H. rewrite K in H. injection H as <-. pose proof (a_keep s v i false fr fd g Create d) as A. rewrite K in A. apply A; try congruence; try reflexivity.
        -- injection H as <-. discriminate.
      * destruct (ddflt d) eqn:B.
        -- destruct veq.
           ++ injection Q as Q. apply Nat.eqb_eq in Q. cbn [op_loop step_op apply_dflt st_m] in H. rewrite K, B in H. cbn [negb orb Bool.eqb term] in H. unfold upd_match, set_val in H. cbn in H. injection H as <-. rewrite Q. apply a_dflt; auto.
           ++ cbn [op_loop step_op apply_replace st_m] in H. rewrite K in H. unfold upd_match, set_val, set_r in H. cbn in H. injection H as <-. apply (a_set s v i false fr fd g Create d); auto. intros X; injection Q as Q; apply Nat.eqb_neq in Q; congruence.
        -- injection H as <-. discriminate.
      * injection H as <-. discriminate.
      * injection H as <-. discriminate.
    + (* delete *)
      destruct (term (kd s) && ddflt d) eqn:T; [injection H as <-; discriminate|]. cbn [op_loop step_op apply_remove st_m] in H. injection H as <-. apply a_del. right. split; [reflexivity|exact T].
    + injection H as <-. apply a_del. left. reflexivity.
  - (* not there *)
    destruct op; try congruence; cbn [op_loop step_op apply_ether apply_none apply_merge apply_replace apply_create apply_delete apply_remove st_m st_g st_r st_d st_err st_chg st_del set_r set_err] in H.
    + injection H as <-. apply a_missing. left. reflexivity.
    + discriminate.
    + destruct (userord (kd s)) eqn:U.
      * cbn [op_loop step_op] in H. unfold apply_move in H. cbn [st_m st_g st_r st_d st_err st_chg st_del] in H. destruct orph; [discriminate|]. destruct (edit_insert i (D s v false []) g) as [g1|] eqn:I; [|discriminate]. injection H as <-. cbn [dval ddflt]. apply a_insert; auto.
      * destruct orph; [discriminate|]. injection H as <-. apply a_new; auto.
    + destruct (userord (kd s)) eqn:U.
      * cbn [op_loop step_op] in H. unfold apply_move in H. cbn [st_m st_g st_r st_d st_err st_chg st_del] in H. destruct orph; [discriminate|]. destruct (edit_insert i (D s v false []) g) as [g1|] eqn:I; [|discriminate]. injection H as <-. cbn [dval ddflt]. apply a_insert; auto.
      * destruct orph; [discriminate|]. injection H as <-. apply a_new; auto.
    + destruct (userord (kd s)) eqn:U.
      * cbn [op_loop step_op] in H. unfold apply_move in H. cbn [st_m st_g st_r st_d st_err st_chg st_del] in H. destruct orph; [discriminate|]. destruct (edit_insert i (D s v false []) g) as [g1|] eqn:I; [|discriminate]. injection H as <-. cbn [dval ddflt]. apply a_insert; auto.
      * destruct orph; [discriminate|]. injection H as <-. apply a_new; auto.
    + injection H as <-. discriminate.
    + injection H as <-. apply a_missing. right. reflexivity.
Qed.
End P.
