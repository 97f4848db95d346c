(** No assert fails when applying an edit. *)
From Coq Require Import List Bool Arith.
From Verif Require Import Edit EditSpec EditProofs EditOps EditSem.
Import ListNotations.

Section P.
Variable kd : nat -> kind.

Lemma loop_safe : forall s v i orph fr i' ep m g veq, val_equal kd fr i' ep s v m g = Some veq -> forall n o x, st_m x = m ->
  (o = ODflt -> exists d, m = Some d /\ term (kd s) = true /\ ddflt d = true) -> op_loop kd s v false i orph veq n o x <> RAssert.
Proof.
  intros s v i orph fr i' ep m g veq Q. induction n as [|n IH]; intros o x M Hd; [discriminate|].
  assert (IH' : forall o', (o' = ODflt -> exists d, m = Some d /\ term (kd s) = true /\ ddflt d = true) -> op_loop kd s v false i orph veq n o' x <> RAssert) by (intros o' Ho; apply IH; assumption).
  cbn [op_loop]. destruct o as [op| | |]; cbn [step_op].
  - destruct op; cbn [apply_ether apply_remove apply_none apply_merge apply_replace apply_create apply_delete].
    + unfold apply_ether. rewrite M. destruct m; [apply IH'; discriminate|discriminate].
    + unfold apply_remove. rewrite M. destruct m; discriminate.
    + unfold apply_none. rewrite M. destruct m; discriminate.
    + unfold apply_merge. rewrite M. destruct m as [d|]; [|apply IH'; discriminate]. destruct (negb veq) eqn:V.
      * unfold val_equal in Q. destruct (kd s) as [np| |uo|uo] eqn:K; [discriminate|apply IH'; discriminate| |]; (destruct uo; cbn [userord] in *; [apply IH'; discriminate|]); injection Q as <-; discriminate.
      * destruct (term (kd s) && negb (Bool.eqb (ddflt d) false)) eqn:T; [|apply IH'; discriminate]. apply IH'. intros _. apply andb_true_iff in T. destruct T as (T1 & T2). exists d. destruct (ddflt d); [auto|discriminate].
    + unfold apply_replace. rewrite M. destruct m as [d|]; [|apply IH'; discriminate]. destruct veq; [apply IH; [exact M|discriminate]|]. destruct (kd s); try discriminate; (apply IH; [exact M|discriminate]).
    + unfold apply_create. rewrite M. destruct m as [d|].
      * destruct (np_cont (kd s)); [apply IH'; discriminate|]. destruct (kd s) eqn:K; cbn [andb]; try discriminate. destruct (ddflt d) eqn:B; [|discriminate]. destruct veq; [|apply IH'; discriminate]. apply IH'. intros _. exists d. auto.
      * destruct (userord (kd s)); [apply IH'; discriminate|]. destruct orph; discriminate.
    + unfold apply_delete. rewrite M. destruct m as [d|]; [|discriminate]. destruct (term (kd s) && ddflt d); [discriminate|apply IH'; discriminate].
    + unfold apply_remove. rewrite M. destruct m; discriminate.
  - unfold apply_move. destruct orph; [discriminate|]. destruct (edit_insert _ _ _); discriminate.
  - unfold apply_dflt. destruct (Hd eq_refl) as (d & Z & T & B). rewrite M, Z, T, B. discriminate.
  - discriminate.
Qed.

Definition safe (e : enode) : Prop := wfe kd e -> forall fr fd orph pop ep g, apply_e kd fr fd orph pop ep e g <> RAssert.
Lemma fold_safe : forall f es, Forall (fun e => forall ep g, f ep e g <> RAssert) es -> forall seen ds, fold_edits f seen es ds <> RAssert.
Proof.
  intros f es H. induction H as [|c t Hc Ht IH]; intros seen ds; cbn [fold_edits]; [discriminate|].
  specialize (Hc (last_einst (esch c) seen) (grp (esch c) ds)). destruct (f _ c _) as [o| |]; [|discriminate|congruence].
  specialize (IH (seen ++ [c]) (put (esch c) (o_g o) ds)). destruct (fold_edits f (seen ++ [c]) t _); [discriminate|discriminate|congruence].
Qed.
Lemma all_safe : forall e, safe e.
Proof.
  apply enode_ind2. intros s v b own i ch HP We fr fd orph pop ep g. apply wfe_all in We. destruct We as (-> & _ & _ & _ & (_ & Wc)).
  assert (Hk : forall fr' fd' o' op seen ds, fold_edits (fun ep' c g' => apply_e kd fr' fd' o' (Some op) ep' c g') seen ch ds <> RAssert).
  { intros. apply fold_safe. apply Forall_forall. intros e He. intros. apply (proj1 (Forall_forall _ _) HP e He). exact (proj1 (Forall_forall _ _) Wc e He). }
  cbn [apply_e]. destruct (match own with Some o => Some o | None => pop end) as [op|]; [|discriminate]. destruct (bad_ins kd s i); [discriminate|]. destruct (fd && bad_nested op); [discriminate|].
  assert (Z : forall n x m veq, val_equal kd fr i ep s v m g = Some veq -> st_m x = m -> op_loop kd s v false i orph veq n (OOp op) x <> RAssert) by (intros n x m veq Q M; apply (loop_safe s v i orph fr i ep m g veq Q); [exact M|discriminate]).
  assert (W : forall m, match val_equal kd fr i ep s v m g with
                | None => RHard
                | Some veq =>
                    match op_loop kd s v false i orph veq 5 (OOp op) (mkst g m None fr fd false false false) with
                    | ROk x =>
                        match (let base := match st_m x with Some d => dch d | None => [] end in
                               let p := if st_r x || st_d x then drop kd ch [] base else (base, []) in
                               match fold_edits (fun ep' c g' => apply_e kd (st_r x) (st_d x) (negb (issome (st_m x))) (Some op) ep' c g') [] ch (fst p) with
                               | ROk o => ROk (o_g o, match st_dn x with Some f => finish kd f (snd p ++ o_diff o) | None => [] end, o_err o, o_chg o || negb (isnil (snd p)))
                               | RHard => RHard
                               | RAssert => RAssert
                               end) with
                        | ROk (ch', df, err, chg) =>
                            ROk (mkout (if st_del x then remove_first (is_it kd s v) (st_g x)
                                        else match st_m x with
                                             | Some _ => update_first (is_it kd s v) (fun d => D (dsch d) (dval d) (ddflt d) ch') (st_g x)
                                             | None => st_g x
                                             end) df (st_err x || err) (st_chg x || chg))
                        | RHard => RHard
                        | RAssert => RAssert
                        end
                    | RHard => RHard
                    | RAssert => RAssert
                    end
                end <> RAssert).
  { intros m. destruct (val_equal kd fr i ep s v m g) as [veq|] eqn:Q; [|discriminate]. specialize (Z 5 (mkst g m None fr fd false false false) m veq Q eq_refl).
    destruct (op_loop kd s v false i orph veq 5 (OOp op) (mkst g m None fr fd false false false)) as [y| |]; [|discriminate|congruence]. cbv zeta.
    match goal with |- context [fold_edits ?f ?a ?c ?d] => specialize (Hk (st_r y) (st_d y) (negb (issome (st_m y))) op a d); destruct (fold_edits f a c d) end; [discriminate|discriminate|congruence]. }
  destruct op; try exact (W _).
  match goal with |- context [fold_edits ?f ?a ?c ?d] => specialize (Hk fr (fd || negb (isnil (if inst (kd s) then g else firstn 1 g))) (negb (@issome dnode None)) Purge a d); destruct (fold_edits f a c d) end; [discriminate|discriminate|congruence].
Qed.
Theorem edit_safe : forall es ds, wf_edit kd es -> edit_apply kd es ds <> RAssert.
Proof. intros es ds (_ & We). unfold edit_apply. apply fold_safe. apply Forall_forall. intros e He ep g. apply all_safe. exact (proj1 (Forall_forall _ _) We e He). Qed.
End P.
