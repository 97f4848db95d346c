(** A call that must be refused is refused: setting strictly what exists, without the parents that must exist
    and deleting strictly what does not exist. *)
From Coq Require Import List Bool Arith.
From Verif Require Import Edit EditSpec EditProofs EditOps EditSem EditMain EditTotal EditSafe EditAdd EditAddSpec EditAddBase EditAddInv EditAddPres EditAddSem.
Import ListNotations.

Section A.
Variable kd : nat -> kind.
Variable nullok : nat -> bool.
Notation get := (get kd).
Notation lk := (lk kd).

Definition refuse (op : eop) (o : eop) (p : path) (olds : list dnode) : Prop :=
  (op = Create /\ get p olds <> None /\ default_at kd p olds = false /\ np_cont (kd (fst (last p (0, 0)))) = false) \/
  (op = Delete /\ get p olds = None) \/
  (o = Non /\ exists q, q <> [] /\ parent_of q p = true /\ get q olds = None).

Definition under (old : option dnode) : list dnode := match old with Some d => dch d | None => [] end.
Lemma lk_under : forall id old, match old with Some d => lk id (dch d) | None => None end = lk id (under old).
Proof. intros id [d|]; reflexivity. Qed.
Lemma get_under : forall id a r olds, get (id :: a :: r) olds = get (a :: r) (under (lk id olds)).
Proof. intros. cbn [EditSpec.get]. destruct (lk id olds) as [d|]; reflexivity. Qed.
Lemma def_under : forall id a r olds, default_at kd (id :: a :: r) olds = default_at kd (a :: r) (under (lk id olds)).
Proof. intros. cbn [default_at]. destruct (lk id olds) as [d|]; reflexivity. Qed.
Lemma missing_under : forall id a r olds, lk id olds <> None -> (exists q, q <> [] /\ parent_of q (id :: a :: r) = true /\ get q olds = None) ->
  exists q, q <> [] /\ parent_of q (a :: r) = true /\ get q (under (lk id olds)) = None.
Proof.
  intros id a r olds N ([|b q] & Q & Pq & G); [contradiction|]. unfold parent_of in Pq. apply andb_prop in Pq as [P1 P2]. cbn [prefix] in P1, P2.
  apply andb_prop in P1 as [P0 P1]. apply (proj1 (same_id_eq _ _)) in P0. subst b. rewrite same_id_refl in P2. cbn [andb] in P2.
  destruct q as [|c q]. { cbn [EditSpec.get] in G. destruct (lk id olds); [discriminate|contradiction]. }
  exists (c :: q). split; [discriminate|]. split; [unfold parent_of; rewrite P1; exact P2|]. rewrite <- get_under. exact G.
Qed.

Lemma conf : forall op value r id o olds, path_ok kd (id :: r) -> o <> Purge -> refuse op o (id :: r) olds ->
  conflict kd (Some o) (chain kd op value IDefault id r) (lk id olds).
Proof.
  induction r as [|a r IH]; intros id o olds P No R.
  - cbn [chain]. destruct R as [(-> & G & Df & Np)|[(-> & G)|(-> & q & Nq & Pq & _)]].
    + cbn [EditSpec.get] in G. cbn [default_at] in Df. destruct (lk id olds) as [d|]; [|contradiction]. apply cf_create; [reflexivity|exact Np|exact Df].
    + cbn [EditSpec.get] in G. destruct (lk id olds); [discriminate|]. apply cf_delete; [reflexivity|discriminate].
    + exfalso. destruct q as [|b [|c q]]; [contradiction| |]; unfold parent_of in Pq; cbn [prefix] in Pq; apply andb_prop in Pq as [P1 P2].
      * apply andb_prop in P1 as [P1 _]. apply (proj1 (same_id_eq _ _)) in P1. subst b. rewrite same_id_refl in P2. discriminate.
      * rewrite andb_false_r in P1. discriminate.
  - assert (P' : path_ok kd (a :: r)) by (destruct id; exact (proj2 (proj2 P))).
    assert (Step : refuse op o (a :: r) (under (lk id olds)) -> conflict kd (Some o) (chain kd op value IDefault id (a :: r)) (lk id olds)).
    { intros R'. cbn [chain]. apply cf_child with (o := o) (ce := chain kd op value IDefault a r); [reflexivity|exact No|left; reflexivity|].
      rewrite (chain_ident kd op value IDefault r a P'), lk_under. apply IH; assumption. }
    destruct R as [(-> & G & Df & Np)|[(-> & G)|(-> & M)]].
    + apply Step. left. rewrite get_under in G. rewrite def_under in Df. cbn [last] in Np. repeat (split; [assumption||reflexivity|]). exact Np.
    + apply Step. right. left. rewrite get_under in G. split; [reflexivity|exact G].
    + destruct (lk id olds) as [d|] eqn:Ld; [|apply cf_none; reflexivity]. apply Step. right. right. split; [reflexivity|].
      replace (Some d) with (lk id olds). apply missing_under; [rewrite Ld; discriminate|exact M].
Qed.

Lemma alone : forall p op value def b ds es, wf_data kd ds -> path_ok kd p -> opb op b -> defop def -> (op = Create -> np_cont (kd (fst (last p (0, 0)))) = false) ->
  edit_add kd nullok op def value IDefault p [] = AOk es -> refuse op def p ds ->
  match edit_apply kd es ds with ROk o => o_err o = true | RHard => True | RAssert => False end.
Proof.
  intros p op value def b ds es W P Ob Od Npc H R. unfold edit_add in H. destruct p as [|id r]; [destruct P|]. cbn [in_edit_at find] in H. injection H as <-. cbn [app].
  set (n := chain kd op value IDefault id r) in *. set (n' := match r with [] => n | _ => set_own (Some def) n end).
  assert (In0 : inve kd false [(r, b)] n) by (apply chain_inve; [exact P|exact Ob|reflexivity|exact Npc]).
  assert (In' : inve kd false [(r, b)] n').
  { unfold n'. destruct r as [|id' r]; [exact In0|]. destruct Od as [->|[->| ->]]; (apply inve_own; [exact In0|reflexivity|split; discriminate|reflexivity|reflexivity|discriminate]). }
  assert (Cn : eident kd n' = id) by (unfold n'; destruct r; [|rewrite eident_own]; apply chain_ident; exact P).
  assert (Iv : inv kd false [(id :: r, b)] ([] ++ [n'])).
  { apply inv_new; try assumption; try reflexivity. split; [constructor|split; [intros ? ? ? []|constructor]]. }
  assert (We : wf_edit kd [n']) by exact (proj1 (inv_wf kd _ _ _ Iv)).
  assert (C : conflict kd None n' (lk (eident kd n') ds)).
  { rewrite Cn. assert (Np : def <> Purge) by (destruct Od as [->|[->| ->]]; discriminate). pose proof (conf op value r id def ds P Np R) as C. fold n in C.
    clear Cn We Iv In' In0. unfold n'. clear n'. destruct r as [|id' r].
    - unfold n in *. cbn [chain] in *. inversion C; subst; cbn [eown] in *; try discriminate; [apply cf_create|apply cf_delete|apply cf_none|eapply cf_child]; eassumption.
    - unfold n in *. cbn [chain set_own] in *. inversion C; subst; cbn [eown] in *; [apply cf_create|apply cf_delete|apply cf_none|eapply cf_child]; cbn [eown esch ech] in *; try eassumption. }
  change (match r with [] => n | _ :: _ => set_own (Some def) n end) with n'.
  destruct (edit_apply kd [n'] ds) as [o| |] eqn:H; [exact (conflict_fails kd [n'] ds n' o W We (or_introl eq_refl) C H)|exact I|exact (edit_safe kd [n'] ds We H)].
Qed.
End A.
