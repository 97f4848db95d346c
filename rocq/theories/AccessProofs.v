(** Proofs for C63. *)
From Coq Require Import NArith List Bool Lia.
From Verif Require Import Access AccessSpec.
Import ListNotations.
Local Open Scope N_scope.

Lemma ds_eqb_eq : forall a b, ds_eqb a b = true <-> a = b.
Proof. intros [] []; cbn; split; congruence. Qed.

Lemma bit_set : forall p k b, b = 2 ^ k -> (N.testbit p k = true <-> is_set p b).
Proof.
  intros p k b ->. unfold is_set. split; intro H.
  - apply N.bits_inj. intro n. rewrite N.land_spec, N.pow2_bits_eqb. destruct (N.eqb_spec k n) as [->|]; [rewrite H; reflexivity|apply andb_false_r].
  - assert (N.testbit (N.land p (2 ^ k)) k = true) as T by (rewrite H; apply N.pow2_bits_true).
    rewrite N.land_spec in T. apply andb_true_iff in T. tauto.
Qed.
Lemma usr_set : forall a w, usr_bit a w = true <-> is_set (perm a) (if w then 128 else 256).
Proof. intros a [|]; apply bit_set; reflexivity. Qed.
Lemma grp_set : forall a w, grp_bit a w = true <-> is_set (perm a) (if w then 16 else 32).
Proof. intros a [|]; apply bit_set; reflexivity. Qed.
Lemma oth_set : forall a w, oth_bit a w = true <-> is_set (perm a) (if w then 2 else 4).
Proof. intros a [|]; apply bit_set; reflexivity. Qed.

Lemma mem_in : forall x l, mem x l = true <-> In x l.
Proof.
  intros x l. unfold mem. rewrite existsb_exists. split; [intros (y & I & E); apply N.eqb_eq in E; subst; exact I|].
  intro I. exists x. split; [exact I|apply N.eqb_refl].
Qed.
Lemma member_ok : forall u g, (egid u =? g) || mem g (sup u) = true <-> member u g.
Proof.
  intros u g. unfold member. rewrite orb_true_iff, mem_in, N.eqb_eq. split; intros [H|H]; auto.
Qed.

Lemma may_inv : forall u a w, may u a w -> euid u = 0 \/
  (euid u = owner a /\ is_set (perm a) (if w then 128 else 256)) \/
  (euid u <> owner a /\ member u (group a) /\ is_set (perm a) (if w then 16 else 32)) \/
  (euid u <> owner a /\ ~ member u (group a) /\ is_set (perm a) (if w then 2 else 4)).
Proof. intros u a w H. destruct H; auto 10. Qed.

Lemma eaccess_may : forall u a w, eaccess u a w = true <-> may u a w.
Proof.
  intros u a w. unfold eaccess. destruct (N.eqb_spec (euid u) 0) as [R|R].
  { split; [intros _; apply may_root; exact R|reflexivity]. }
  destruct (N.eqb_spec (euid u) (owner a)) as [O1|O1].
  { rewrite usr_set. split; [apply may_owner; exact O1|]. intro H. apply may_inv in H.
    destruct H as [H|[[_ H]|[[H _]|[H _]]]]; [contradiction|exact H|contradiction|contradiction]. }
  destruct ((egid u =? group a) || mem (group a) (sup u)) eqn:G.
  { apply member_ok in G. rewrite grp_set. split; [apply may_grp; assumption|]. intro H. apply may_inv in H.
    destruct H as [H|[[H _]|[(_ & _ & H)|(_ & H & _)]]]; [contradiction|contradiction|exact H|contradiction]. }
  assert (~ member u (group a)) as G' by (intro X; apply member_ok in X; congruence).
  rewrite oth_set. split; [apply may_other; assumption|]. intro H. apply may_inv in H.
  destruct H as [H|[[H _]|[(_ & H & _)|(_ & _ & H)]]]; [contradiction|contradiction|contradiction|exact H].
Qed.

Lemma db_plain : forall u a w, plain u a -> (db_check u a w = true <-> may u a w).
Proof.
  intros u a w (P1 & P2 & P3 & P4 & P5). rewrite <- eaccess_may. unfold db_check, eaccess.
  destruct (N.eqb_spec (euid u) 0) as [|_]; [contradiction|].
  rewrite (N.eqb_sym (owner a)), (N.eqb_sym (group a)), P1, P2.
  destruct (N.eqb_spec (euid u) (owner a)) as [O1|O1]; destruct (N.eqb_spec (egid u) (group a)) as [G1|G1]; cbn [andb orb negb].
  - exfalso. auto.
  - rewrite !orb_false_r. tauto.
  - rewrite !orb_false_r. tauto.
  - assert (mem (group a) (sup u) = false) as ->; [|tauto].
    destruct (mem (group a) (sup u)) eqn:M; [|reflexivity]. apply mem_in in M. apply P3 in M. congruence.
Qed.

Lemma perm_allowed : forall u s d, usual u s d -> forall m w, perm_check u s m d w = true <-> allowed u s m d w.
Proof.
  intros u s d U m w. unfold perm_check, allowed. change (eds s m d) with (real s m d).
  specialize (U m). destruct (pl s m (real s m d)); [apply eaccess_may|]. destruct U as [U|U]; [discriminate|]. apply db_plain. exact U.
Qed.

(** * The loop *)

Definition keep (ok : N -> bool) (x : N * bool) : bool := negb (snd x && negb (ok (fst x))).

Lemma loop_gen : forall ok fuel a b, (length b <= fuel)%nat -> perm_loop ok fuel (length a) (a ++ b) = a ++ filter (keep ok) b.
Proof.
  induction fuel as [|f IH]; intros a b L.
  - destruct b; [reflexivity|cbn in L; lia].
  - cbn [perm_loop]. destruct b as [|[m r] b].
    + rewrite app_nil_r. assert (nth_error a (length a) = None) as -> by (apply nth_error_None; lia). rewrite app_nil_r. reflexivity.
    + rewrite nth_error_app2 by lia. rewrite PeanoNat.Nat.sub_diag. cbn [nth_error filter]. unfold keep at 1. cbn [fst snd].
      assert (length b <= f)%nat as L' by (cbn [length] in L; lia).
      destruct (r && negb (ok m)); cbn [negb].
      * replace (firstn (length a) (a ++ (m, r) :: b) ++ skipn (S (length a)) (a ++ (m, r) :: b)) with (a ++ b); [apply IH; exact L'|].
        rewrite firstn_app, PeanoNat.Nat.sub_diag, firstn_all, firstn_O, app_nil_r. f_equal.
        change ((m, r) :: b) with ([(m, r)] ++ b). rewrite app_assoc.
        replace (S (length a)) with (length (a ++ [(m, r)])) by (rewrite app_length; cbn; lia).
        rewrite skipn_app, skipn_all, PeanoNat.Nat.sub_diag. reflexivity.
      * replace (S (length a)) with (length (a ++ [(m, r)])) by (rewrite app_length; cbn; lia).
        change ((m, r) :: b) with ([(m, r)] ++ b). rewrite app_assoc, IH by exact L'. rewrite <- app_assoc. reflexivity.
Qed.

Lemma loop_map : forall ok q, perm_loop ok (length q) 0 (map (fun m => (m, true)) q) = map (fun m => (m, true)) (filter ok q).
Proof.
  intros ok q. etransitivity; [apply (loop_gen ok (length q) [] (map (fun m => (m, true)) q)); rewrite map_length; lia|]. cbn [app].
  induction q as [|m q IH]; [reflexivity|]. cbn [map filter]. unfold keep at 1. cbn [fst snd andb]. rewrite negb_involutive.
  destruct (ok m); cbn [map]; rewrite IH; reflexivity.
Qed.

Lemma strict_map : forall ok l, perm_strict ok (map (fun m => (m, true)) l) = true <-> forall m, In m l -> ok m = true.
Proof.
  intros ok l. induction l as [|x l IH]; cbn [map perm_strict andb]; [split; [intros _ m []|reflexivity]|].
  destruct (ok x) eqn:E; cbn [negb].
  - rewrite IH. split; [intros H m [<-|I]; auto|intros H m I; apply H; right; exact I].
  - split; [discriminate|]. intro H. rewrite (H x (or_introl eq_refl)) in E. discriminate.
Qed.

Lemma map_fst_true : forall l : list N, map fst (map (fun m => (m, true)) l) = l.
Proof. intro l. rewrite map_map. cbn [fst]. apply map_id. Qed.

(** * Reading *)

Lemma contents_load : forall u s m d v, load u s m d = Some v -> v = contents s m d.
Proof.
  intros u s m d v H. unfold load in H. destruct (open_ok u s m (load_ds s m d) false); [|discriminate]. injection H as <-.
  destruct d; cbn [load_ds contents]; try reflexivity. unfold modified. destruct (s_file s m Candidate); reflexivity.
Qed.

Lemma load_all_in : forall u s d l r, load_all u s d l = Some r ->
  (forall m v, In (m, v) r -> In m l /\ v = contents s m d) /\ (forall m, In m l -> In (m, contents s m d) r).
Proof.
  intros u s d l. induction l as [|x l IH]; intros r H; cbn [load_all] in H; [injection H as <-; split; intros; destruct H|].
  destruct (load u s x d) as [v|] eqn:L; [|discriminate]. apply contents_load in L. subst v.
  destruct (load_all u s d l) as [r'|]; [|discriminate]. injection H as <-. destruct (IH r' eq_refl) as [I1 I2]. split.
  - intros m v [E|I]; [injection E as <- <-; split; [left; reflexivity|reflexivity]|]. destruct (I1 m v I) as [A B]. split; [right; exact A|exact B].
  - intros m [<-|I]; [left; reflexivity|right; apply I2; exact I].
Qed.

Definition same_but_cache (s s' : state) : Prop :=
  pl s' = pl s /\ norun s' = norun s /\ sticky s' = sticky s /\ umask s' = umask s /\ sgroup s' = sgroup s /\ caching s' = caching s /\
  s_acc s' = s_acc s /\ s_file s' = s_file s /\ s_val s' = s_val s /\ s_push s' = s_push s.

Lemma cache_same : forall u l s s', cache_all u s l = Some s' -> same_but_cache s s'.
Proof.
  intros u l. induction l as [|m l IH]; intros s s' H; cbn [cache_all] in H; [injection H as <-; unfold same_but_cache; auto 12|].
  destruct (match lookup m (s_cache s) with Some v => v =? s_val s m (eds s m Running) | None => false end); [apply IH; exact H|].
  destruct (load u s m Running) as [v|]; [|discriminate]. apply IH in H. unfold same_but_cache in *. exact H.
Qed.

Lemma lookup_in : forall m c v, lookup m c = Some v -> In (m, v) c.
Proof.
  intros m c v. induction c as [|[x w] c IH]; cbn [lookup]; [discriminate|]. destruct (N.eqb_spec m x) as [->|].
  - intro H. injection H as ->. left. reflexivity.
  - intro H. right. apply IH. exact H.
Qed.
Lemma lookup_filter : forall m x c, m <> x -> lookup m (filter (fun e : N * N => negb (fst e =? x)) c) = lookup m c.
Proof.
  intros m x c N. induction c as [|[y w] c IH]; [reflexivity|]. cbn [filter lookup fst]. destruct (N.eqb_spec y x) as [->|]; cbn [negb lookup].
  - destruct (N.eqb_spec m x); [contradiction|exact IH].
  - destruct (m =? y); [reflexivity|exact IH].
Qed.
Lemma lookup_set : forall m x v c, lookup m (cache_set c x v) = if m =? x then Some v else lookup m c.
Proof. intros m x v c. unfold cache_set. cbn [lookup]. destruct (N.eqb_spec m x); [reflexivity|apply lookup_filter; assumption]. Qed.

Lemma cache_keeps : forall u l s s' m, cache_all u s l = Some s' ->
  (lookup m (s_cache s) = Some (contents s m Running) \/ In m l) -> lookup m (s_cache s') = Some (contents s m Running).
Proof.
  intros u l. induction l as [|x l IH]; intros s s' m H I; cbn [cache_all] in H; [injection H as <-; destruct I as [I|[]]; exact I|].
  destruct (match lookup x (s_cache s) with Some v => v =? s_val s x (eds s x Running) | None => false end) eqn:Cu.
  - apply (IH s s' m H). destruct I as [I|[<-|I]]; [left; exact I| |right; exact I]. left.
    destruct (lookup x (s_cache s)) as [v|]; [|discriminate]. apply N.eqb_eq in Cu. subst v. reflexivity.
  - destruct (load u s x Running) as [v|] eqn:L; [|discriminate]. apply contents_load in L. subst v.
    apply (IH _ s' m H). cbn [set_cache s_cache]. rewrite lookup_set. destruct (N.eqb_spec m x) as [->|Nx]; [left; reflexivity|].
    destruct I as [I|[<-|I]]; [left; exact I|contradiction|right; exact I].
Qed.

Lemma get_filter : forall u s d q sel, exists mods, mods = filter (fun m => perm_check u s m d false) q /\
  get u s d q sel =
  match mods with
  | [] => (s, Data [])
  | _ => if use_cache s d then
           match cache_all u s mods with
           | None => (s, Err)
           | Some s' => (s', Data (filter (fun e => sel (fst e)) (s_cache s')))
           end
         else match load_all u s d mods with None => (s, Err) | Some l => (s, Data (filter (fun e => sel (fst e)) l)) end
  end.
Proof.
  intros u s d q sel. eexists. split; [reflexivity|]. unfold get. rewrite loop_map.
  set (l := filter (fun m => perm_check u s m d false) q). destruct l as [|x l]; [reflexivity|].
  cbn [map]. change (fst (x, true)) with x. rewrite map_fst_true. reflexivity.
Qed.

(** * Storing *)

Lemma store_op : forall u s sid m v s', store u s sid m Operational v = Some s' ->
  s' = set_push s (fun a b => if (a =? sid) && (b =? m) then Some v else s_push s a b).
Proof. intros u s sid m v s' H. cbn in H. injection H as <-. reflexivity. Qed.

Lemma upd2_same : forall A (f : N -> ds -> A) m d v, upd2 f m d v m d = v.
Proof. intros A f m d v. unfold upd2. rewrite N.eqb_refl. destruct d; reflexivity. Qed.
Lemma upd2_other : forall A (f : N -> ds -> A) m d v m' d', (m', d') <> (m, d) -> upd2 f m d v m' d' = f m' d'.
Proof.
  intros A f m d v m' d' N. unfold upd2. destruct (N.eqb_spec m m') as [->|]; [|reflexivity]. destruct (ds_eqb d d') eqn:E; [|reflexivity].
  apply ds_eqb_eq in E. subst. contradiction.
Qed.

(** The effects of storing a module *)
Lemma store_effect : forall u s sid m d v s', d <> Operational -> store u s sid m d v = Some s' ->
  s_val s' = upd2 (s_val s) m (real s m d) v /\ s_acc s' = s_acc s /\ pl s' = pl s /\ norun s' = norun s /\ sgroup s' = sgroup s /\
  s_push s' = s_push s /\ (forall m' d', (m', d') <> (m, real s m d) -> s_file s' m' d' = s_file s m' d') /\
  (d = Candidate -> s_file s' m Candidate <> None).
Proof.
  intros u s sid m d v s' Nd H. unfold store in H. change (eds s m d) with (real s m d) in H.
  assert (forall st, (if use_cache s d then set_cache st (cache_set (s_cache st) m v) else st) =
    set_cache st (if use_cache s d then cache_set (s_cache st) m v else s_cache st)) as Ec.
  { intro st. destruct (use_cache s d); destruct st; reflexivity. }
  rewrite Ec in H.
  assert (match pl s m (real s m d) with
    | Json => match file_of s m (real s m d) with
        | Some a => if eaccess u a true then Some (set_cache (set_val s (upd2 (s_val s) m (real s m d) v)) (if use_cache s d then cache_set (s_cache (set_val s (upd2 (s_val s) m (real s m d) v))) m v else s_cache (set_val s (upd2 (s_val s) m (real s m d) v)))) else None
        | None => if Access.may_group u (match sgroup s with Some g => g | None => egid u end)
                  then Some (set_file (set_cache (set_val s (upd2 (s_val s) m (real s m d) v)) (if use_cache s d then cache_set (s_cache (set_val s (upd2 (s_val s) m (real s m d) v))) m v else s_cache (set_val s (upd2 (s_val s) m (real s m d) v)))) (upd2 (s_file s) m (real s m d) (Some (Acc (euid u) (match sgroup s with Some g => g | None => egid u end) (N.ldiff (perm (s_acc s m (real s m d))) (umask s))))))
                  else None
        end
    | Db => Some (set_file (set_cache (set_val s (upd2 (s_val s) m (real s m d) v)) (if use_cache s d then cache_set (s_cache (set_val s (upd2 (s_val s) m (real s m d) v))) m v else s_cache (set_val s (upd2 (s_val s) m (real s m d) v)))) (upd2 (s_file s) m (real s m d) (Some (s_acc s m (real s m d)))))
    end = Some s') as H'.
  { destruct d; try (exact H). contradiction. }
  clear H Ec. destruct (pl s m (real s m d)).
  - destruct (file_of s m (real s m d)) as [a|] eqn:F.
    + destruct (eaccess u a true); [|discriminate]. injection H' as <-. cbn. do 6 (split; [reflexivity|]). split; [reflexivity|].
      intros ->. cbn in F. congruence.
    + destruct (Access.may_group u _); [|discriminate]. injection H' as <-. cbn. do 6 (split; [reflexivity|]). split; [intros; apply upd2_other; assumption|].
      intros ->. cbn [real]. rewrite upd2_same. discriminate.
  - injection H' as <-. cbn. do 6 (split; [reflexivity|]). split; [intros; apply upd2_other; assumption|].
    intros ->. cbn [real]. rewrite upd2_same. discriminate.
Qed.
