(** Proofs about calling RPCs: the invariant. *)
From Coq Require Import List Bool Arith NArith Lia.
From Verif Require Import Rpc RpcSpec.
Import ListNotations.
Local Open Scope N_scope.

Lemma ev_eqb_eq : forall a b, ev_eqb a b = true <-> a = b.
Proof. intros [] []; cbn; split; congruence. Qed.
Lemma ev_eqb_neq : forall a b, ev_eqb a b = false <-> a <> b.
Proof. intros [] []; cbn; split; congruence. Qed.
Lemma info_eqb_eq : forall a b, info_eqb a b = true <-> a = b.
Proof.
  intros [e r p] [e' r' p']. unfold info_eqb. cbn. rewrite !andb_true_iff, ev_eqb_eq, Nat.eqb_eq, N.eqb_eq. split; [intros ((-> & ->) & ->); reflexivity|].
  intros E. injection E as -> -> ->. auto.
Qed.
Lemma info_eqb_neq : forall a b, info_eqb a b = false <-> a <> b.
Proof. intros a b. rewrite <- info_eqb_eq. destruct (info_eqb a b); split; congruence. Qed.
Lemma info_eta : forall f, mkinfo (f_ev f) (f_rid f) (f_prio f) = f.
Proof. intros []. reflexivity. Qed.
Lemma upd_eq : forall A (f : nat -> A) k v, upd f k v k = v.
Proof. intros. unfold upd. rewrite Nat.eqb_refl. reflexivity. Qed.
Lemma upd_neq : forall A (f : nat -> A) k v j, j <> k -> upd f k v j = f j.
Proof. intros A f k v j H. unfold upd. apply Nat.eqb_neq in H. rewrite H. reflexivity. Qed.
Lemma nth_set_or : forall o c l c0 o', nth_error l o = Some c0 -> nth_error (set_or o c l) o' = if Nat.eqb o' o then Some c else nth_error l o'.
Proof.
  intros o c l. revert o. unfold set_or. induction l as [|x l IH]; intros o c0 o' H; [destruct o; discriminate|]. destruct o; cbn in *.
  - destruct o'; reflexivity.
  - destruct o'; [reflexivity|]. cbn. apply (IH o c0). exact H.
Qed.

Section Proofs.
Variable cfg : config.
Hypothesis WF : wf cfg.
Notation n := (nsubs cfg).
Notation prio := (prio_of cfg).
Notation proc := (proc_of cfg).

Lemma prio_inj : forall k k', (k < n)%nat -> (k' < n)%nat -> prio k = prio k' -> k = k'.
Proof.
  intros k k' H H' E. destruct WF as (N0 & _). unfold prio_of, nsubs in *. rewrite (NoDup_nth (map d_prio (subs cfg)) 0) in N0.
  apply N0; rewrite ?map_length; auto. change 0 with (d_prio (mkdef O 0)). rewrite !map_nth. exact E.
Qed.
Lemma prio_max : forall k, (k < n)%nat -> prio k < 4294967295.
Proof. intros k H. destruct WF as (_ & M). apply M. apply nth_In. exact H. Qed.

Definition avail (st : state) (inp k : nat) : Prop := (k < n)%nat /\ alive cfg st k = true /\ y_esusp (st_dyn st k) = false /\ filt cfg inp k = true.

Lemma fold_next : forall st inp last nx l, NoDup l -> (forall k, In k l -> (k < n)%nat) ->
  let r := fold_left (fun (acc : N * N) k =>
    if negb (alive cfg st k) then acc
    else if y_esusp (st_dyn st k) then acc
    else if filt cfg inp k && (prio k <? last) then
      if negb (snd acc =? 0) then
        if fst acc <? prio k then (prio k, 1)
        else if prio k =? fst acc then (fst acc, snd acc + 1)
        else acc
      else (prio k, 1)
    else acc) l (nx, 0) in
  (snd r = 0 /\ forall k, In k l -> avail st inp k -> last <= prio k) \/
  (snd r = 1 /\ exists k, In k l /\ avail st inp k /\ prio k = fst r /\ prio k < last /\ forall k', In k' l -> avail st inp k' -> prio k' < last -> prio k' <= prio k).
Proof.
  intros st inp last nx l. induction l as [|x l IH] using rev_ind; intros ND HL; [left; cbn; split; [reflexivity|tauto]|].
  assert (ND0 : NoDup l /\ ~ In x l) by (apply NoDup_remove in ND; rewrite app_nil_r in ND; exact ND).
  destruct ND0 as (ND0 & Nx). assert (Lx : (x < n)%nat) by (apply HL, in_or_app; right; left; reflexivity).
  assert (HL' : forall k, In k l -> (k < n)%nat) by (intros k Hk; apply HL, in_or_app; auto). specialize (IH ND0 HL').
  cbv zeta. rewrite fold_left_app. cbn [fold_left]. cbv zeta in IH. match type of IH with context [fst ?a] => set (acc := a) in * end. fold acc.
  assert (S0 : forall (b : bool), (avail st inp x -> prio x < last -> False) ->
    (snd acc = 0 /\ (forall k, In k (l ++ [x]) -> avail st inp k -> last <= prio k)) \/
    (snd acc = 1 /\ exists k, In k (l ++ [x]) /\ avail st inp k /\ prio k = fst acc /\ prio k < last /\ forall k', In k' (l ++ [x]) -> avail st inp k' -> prio k' < last -> prio k' <= prio k)).
  { intros _ H. destruct IH as [(E & A)|(E & k & A & B & C & D & F)].
    - left. split; [exact E|]. intros k Hk V. apply in_app_or in Hk. destruct Hk as [Hk|[<-|[]]]; [auto|]. destruct (N.lt_ge_cases (prio x) last); [exfalso; auto|assumption].
    - right. split; [exact E|]. exists k. split; [apply in_or_app; auto|]. split; [exact B|]. split; [exact C|]. split; [exact D|].
      intros k' Hk V L. apply in_app_or in Hk. destruct Hk as [Hk|[<-|[]]]; [auto|]. exfalso; auto. }
  destruct (alive cfg st x) eqn:Al; cbn [negb]; [|apply (S0 true); intros (_ & Y & _); congruence].
  destruct (y_esusp (st_dyn st x)) eqn:Su; [apply (S0 true); intros (_ & _ & Y & _); congruence|].
  destruct (filt cfg inp x) eqn:Fi; cbn [andb]; [|apply (S0 true); intros (_ & _ & _ & Y); congruence].
  destruct (prio x <? last) eqn:La; [|apply (S0 true); intros _ Y; apply N.ltb_ge in La; lia]. apply N.ltb_lt in La.
  assert (Ax : avail st inp x) by (repeat split; auto).
  assert (New : (forall k', In k' l -> avail st inp k' -> prio k' < last -> prio k' <= prio x) ->
    (snd (prio x, 1) = 0 /\ (forall k, In k (l ++ [x]) -> avail st inp k -> last <= prio k)) \/
    (snd (prio x, 1) = 1 /\ exists k, In k (l ++ [x]) /\ avail st inp k /\ prio k = fst (prio x, 1) /\ prio k < last /\ forall k', In k' (l ++ [x]) -> avail st inp k' -> prio k' < last -> prio k' <= prio k)).
  { intros H. right. split; [reflexivity|]. exists x. split; [apply in_or_app; right; left; reflexivity|]. split; [exact Ax|]. split; [reflexivity|]. split; [exact La|].
    intros k' Hk V L. apply in_app_or in Hk. destruct Hk as [Hk|[<-|[]]]; [auto|lia]. }
  destruct IH as [(E & A)|(E & k & A & B & C & D & F)].
  - rewrite E. cbn [N.eqb negb]. apply New. intros k' Hk V L. specialize (A k' Hk V). lia.
  - rewrite E. cbn [N.eqb negb Pos.eqb]. destruct (fst acc <? prio x) eqn:G.
    + apply N.ltb_lt in G. apply New. intros k' Hk V L. specialize (F k' Hk V L). lia.
    + apply N.ltb_ge in G. destruct (prio x =? fst acc) eqn:Q.
      * exfalso. apply N.eqb_eq in Q. rewrite <- C in Q. apply Nx. rewrite (prio_inj x k Lx (HL' k A) Q). exact A.
      * right. split; [exact E|]. exists k. split; [apply in_or_app; auto|]. split; [exact B|]. split; [exact C|]. split; [exact D|].
        intros k' Hk V L. apply in_app_or in Hk. destruct Hk as [Hk|[<-|[]]]; [auto|lia].
Qed.

Lemma next_spec : forall st inp last nx, let r := next_subscription cfg st inp last nx in
  (snd r = 0 /\ forall k, avail st inp k -> last <= prio k) \/
  (snd r = 1 /\ exists k, avail st inp k /\ prio k = fst r /\ prio k < last /\ forall k', avail st inp k' -> prio k' < last -> prio k' <= prio k).
Proof.
  intros st inp last nx. cbv zeta. unfold next_subscription.
  destruct (fold_next st inp last nx (seq 0 n) (seq_NoDup _ _)) as [(E & A)|(E & k & A & B & C & D & F)].
  - intros k Hk. apply in_seq in Hk. lia.
  - left. split; [exact E|]. intros k V. apply A; [|exact V]. destruct V as (V & _). apply in_seq. lia.
  - right. split; [exact E|]. exists k. split; [exact B|]. split; [exact C|]. split; [exact D|]. intros k' V L. apply F; auto. destruct V as (V & _). apply in_seq. lia.
Qed.

Lemma fold_has : forall st inp l acc,
  let r := fold_left (fun (acc : bool * N) k =>
    if negb (alive cfg st k) then acc
    else if y_esusp (st_dyn st k) then acc
    else if filt cfg inp k then (true, if snd acc <? prio k then prio k else snd acc)
    else acc) l acc in
  snd acc <= snd r /\ (forall k, In k l -> (k < n)%nat -> avail st inp k -> fst r = true /\ prio k <= snd r) /\ (snd r = snd acc \/ exists k, In k l /\ prio k = snd r) /\
  (fst acc = true -> fst r = true).
Proof.
  intros st inp l. induction l as [|x l IH]; intros acc; cbv zeta; cbn [fold_left].
  - split; [lia|]. split; [intros k []|]. auto.
  - cbv zeta in IH. match goal with |- context [fold_left _ l ?a] => set (acc' := a); destruct (IH acc') as (A & B & C & D) end. fold acc' in A, B, C, D |- *.
    match type of A with _ <= snd ?r => set (res := r) in * end.
    assert (X : snd acc <= snd acc' /\ (snd acc' = snd acc \/ prio x = snd acc') /\ (avail st inp x -> fst acc' = true /\ prio x <= snd acc') /\ (fst acc = true -> fst acc' = true)).
    { unfold acc', avail. destruct (alive cfg st x); cbn [negb]; [|repeat split; auto; try lia; intros (_ & Y & _); discriminate].
      destruct (y_esusp (st_dyn st x)); [repeat split; auto; try lia; destruct H as (_ & _ & Y & _); discriminate|].
      destruct (filt cfg inp x); [|repeat split; auto; try lia; destruct H as (_ & _ & _ & Y); discriminate].
      cbn [fst snd]. destruct (snd acc <? prio x) eqn:Q; [apply N.ltb_lt in Q|apply N.ltb_ge in Q]; repeat split; auto; lia. }
    destruct X as (X1 & X2 & X3 & X4). split; [lia|]. split; [|split; [|auto]].
    + intros k [<-|Hk] Lk V; [|apply (B k Hk Lk V)]. destruct (X3 V) as (Y1 & Y2). split; [auto|lia].
    + destruct C as [C|(k & Ck & C)]; [|right; exists k; split; [right; exact Ck|exact C]]. destruct X2 as [X2|X2]; [left; congruence|].
      right. exists x. split; [left; reflexivity|congruence].
Qed.
Lemma has_spec : forall st inp, let r := has_subscription cfg st inp in
  (forall k, avail st inp k -> fst r = true /\ prio k <= snd r) /\ snd r < 4294967295.
Proof.
  intros st inp. cbv zeta. unfold has_subscription. destruct (fold_has st inp (seq 0 n) (false, 0)) as (_ & B & C & _). cbv zeta in *. split.
  - intros k V. apply B; [|apply V|exact V]. destruct V as (V & _). apply in_seq. lia.
  - destruct C as [->|(k & Hk & <-)]; [cbn; lia|]. apply prio_max. apply in_seq in Hk. lia.
Qed.

(** ** The invariant: events, listeners and calls *)
Definition newest (log : list obs) (rid k : nat) (r : result) (out : nat) : Prop := exists l, rpc_calls rid log = (k, r, out) :: l.
Definition pc_inf (c : pc) : option info :=
  match c with Call _ _ f _ | Called _ _ _ _ f _ | Fin _ _ _ _ _ f => Some f | _ => None end.
Definition rse (e : ev) : Prop := e = EvRpc \/ e = EvSuccess \/ e = EvError.

Definition pcb (log : list obs) (p k : nat) (inf : info) (inp : nat) : Prop :=
  (k < n)%nat /\ proc k = p /\ prio k = f_prio inf /\ is_listen (f_ev inf) = true /\ In (OPub inf inp) log /\ filt cfg inp k = true /\
  (forall inf' inp', In (OPub inf' inp') log -> f_ev inf' = EvRpc -> f_ev inf = EvRpc -> f_rid inf' = f_rid inf -> f_prio inf <= f_prio inf') /\
  (f_ev inf = EvAbort -> accepted log k (f_rid inf)).
Definition pc_ok (h : shm) (log : list obs) (p : nat) (c : pc) : Prop :=
  match c with
  | Call k v inf inp => v = 0 /\ pcb log p k inf inp
  | Called k v r out inf inp => v = 0 /\ pcb log p k inf inp /\ In (OCall k (f_ev inf) (f_rid inf) r out) log /\
      (inf = h_inf h -> f_ev inf = EvRpc -> newest log (f_rid inf) k r out)
  | Fin k v r err out inf => exists k' inp, pcb log p k' inf inp /\ In (OCall k' (f_ev inf) (f_rid inf) r out) log /\
      (inf = h_inf h -> f_ev inf = EvRpc -> newest log (f_rid inf) k' r out) /\
      (if err then v = 0 /\ f_ev inf = EvRpc /\ r = RErr /\ k = k' else v = 1 /\ (f_ev inf = EvRpc -> r = ROk) /\ k = last_sub cfg p)
  | _ => True
  end.

Record invA (st : state) : Prop := {
  s_rid : forall inf inp, In (OPub inf inp) (st_log st) -> (f_rid inf <= f_rid (h_inf (st_shm st)))%nat;
  s_in : forall inf inp, In (OPub inf inp) (st_log st) -> f_rid inf = f_rid (h_inf (st_shm st)) -> inp = h_in (st_shm st);
  s_noab : rse (f_ev (h_inf (st_shm st))) -> forall inf inp, In (OPub inf inp) (st_log st) -> f_ev inf = EvAbort -> f_rid inf <> f_rid (h_inf (st_shm st));
  s_low : rse (f_ev (h_inf (st_shm st))) -> forall inf inp, In (OPub inf inp) (st_log st) -> f_ev inf = EvRpc -> f_rid inf = f_rid (h_inf (st_shm st)) -> f_prio (h_inf (st_shm st)) <= f_prio inf;
  s_lowab : f_ev (h_inf (st_shm st)) = EvAbort \/ f_ev (h_inf (st_shm st)) = EvFinished -> forall inf inp, In (OPub inf inp) (st_log st) -> f_ev inf = EvAbort -> f_rid inf = f_rid (h_inf (st_shm st)) -> f_prio (h_inf (st_shm st)) <= f_prio inf;
  s_cur : is_listen (f_ev (h_inf (st_shm st))) = true -> In (OPub (h_inf (st_shm st)) (h_in (st_shm st))) (st_log st);
  s_cnt : f_ev (h_inf (st_shm st)) = EvRpc \/ f_ev (h_inf (st_shm st)) = EvAbort \/ f_ev (h_inf (st_shm st)) = EvError -> h_cnt (st_shm st) = 1;
  s_noself : f_ev (h_inf (st_shm st)) = EvRpc \/ f_ev (h_inf (st_shm st)) = EvSuccess -> forall k, ~ In (OSelf k (f_rid (h_inf (st_shm st)))) (st_log st);
  p_ok : forall p, pc_ok (st_shm st) (st_log st) p (st_pcs st p);
  p_stale : forall p inf, pc_inf (st_pcs st p) = Some inf -> f_ev inf = EvRpc -> f_rid inf = f_rid (h_inf (st_shm st)) ->
    f_ev (h_inf (st_shm st)) <> EvSuccess /\ (f_ev (h_inf (st_shm st)) = EvRpc -> inf = h_inf (st_shm st));
  c_call : forall k e rid r out, In (OCall k e rid r out) (st_log st) -> (k < n)%nat /\ exists inp, In (OPub (mkinfo e rid (prio k)) inp) (st_log st) /\ filt cfg inp k = true;
  c_self : forall k rid, In (OSelf k rid) (st_log st) -> exists inf inp, In (OPub inf inp) (st_log st) /\ f_rid inf = rid;
  c_succ : f_ev (h_inf (st_shm st)) = EvSuccess -> exists k, (k < n)%nat /\ prio k = f_prio (h_inf (st_shm st)) /\ newest (st_log st) (f_rid (h_inf (st_shm st))) k ROk (h_out (st_shm st));
  c_fin : f_ev (h_inf (st_shm st)) = EvFinished -> exists k r out, (k < n)%nat /\ prio k = f_prio (h_inf (st_shm st)) /\ In (OCall k EvAbort (f_rid (h_inf (st_shm st))) r out) (st_log st);
  c_dyn : forall k, y_ev (st_dyn st k) = EvRpc -> accepted (st_log st) k (y_rid (st_dyn st k));
  c_order : forall l1 l2 k k' rid r r' out out', st_log st = l1 ++ OCall k EvRpc rid r out :: l2 -> In (OCall k' EvRpc rid r' out') l2 -> prio k <= prio k';
  c_abort : forall l1 l2 k rid r out, st_log st = l1 ++ OCall k EvAbort rid r out :: l2 -> accepted l2 k rid
}.

(** Log entries [invA] does not speak about. *)
Definition neutral (x : obs) : Prop := match x with OPub _ _ | OCall _ _ _ _ _ | OSelf _ _ => False | _ => True end.

Lemma in_neutral : forall l log x, Forall neutral l -> ~ neutral x -> In x (l ++ log) -> In x log.
Proof. intros l log x F H I. apply in_app_or in I. destruct I as [I|I]; [|exact I]. exfalso. apply H. rewrite Forall_forall in F. auto. Qed.
Lemma calls_neutral : forall rid l log, Forall neutral l -> rpc_calls rid (l ++ log) = rpc_calls rid log.
Proof. intros rid l log F. induction F as [|x l Hx F IH]; [reflexivity|]. cbn. destruct x; try exact IH. destruct Hx. Qed.
Lemma split_neutral : forall l log l1 x l2, Forall neutral l -> ~ neutral x -> l ++ log = l1 ++ x :: l2 -> exists l1', log = l1' ++ x :: l2.
Proof.
  intros l log l1 x l2 F. revert l1. induction F as [|y l Hy F IH]; intros l1 H E; [exists l1; exact E|].
  destruct l1 as [|z l1]; cbn in E; injection E as E1 E2; [subst y; contradiction|]. apply (IH l1 H E2).
Qed.
Lemma accepted_app : forall l log k rid, accepted log k rid -> accepted (l ++ log) k rid.
Proof. intros l log k rid (out & H). exists out. apply in_or_app. auto. Qed.
Lemma pcb_neutral : forall l log p k inf inp, Forall neutral l -> pcb log p k inf inp -> pcb (l ++ log) p k inf inp.
Proof.
  intros l log p k inf inp F (A & B & C & D & E & G & H & I). repeat (split; [solve [auto using in_or_app]|]). split.
  - intros inf' inp' Hi. apply in_neutral in Hi; auto. eauto.
  - intros X. apply accepted_app. auto.
Qed.

(** The event record changes to [h'] and the log by neutral entries. *)
Lemma A_shm : forall st h' l ors, invA st -> Forall neutral l ->
  f_rid (h_inf h') = f_rid (h_inf (st_shm st)) -> h_in h' = h_in (st_shm st) ->
  (h' = st_shm st \/ (is_listen (f_ev (h_inf h')) = false /\ f_ev (h_inf h') <> EvSuccess /\ f_ev (h_inf h') <> EvFinished /\
     f_prio (h_inf h') = f_prio (h_inf (st_shm st)) /\
     (f_ev (h_inf h') = EvError -> rse (f_ev (h_inf (st_shm st))) /\ h_cnt h' = 1))) ->
  invA (mkst h' ors (st_pcs st) (st_dyn st) (l ++ st_log st)).
Proof.
  intros st h' l ors I F R N0 C. assert (IN : forall x, ~ neutral x -> In x (l ++ st_log st) -> In x (st_log st)) by (intros; eapply in_neutral; eauto).
  assert (LI : forall x, In x (st_log st) -> In x (l ++ st_log st)) by (intros; apply in_or_app; auto).
  assert (RSE : rse (f_ev (h_inf h')) -> rse (f_ev (h_inf (st_shm st))) /\ f_prio (h_inf h') = f_prio (h_inf (st_shm st))).
  { intros X. destruct C as [->|(C1 & C2 & C3 & C4 & C5)]; [auto|]. split; [|exact C4]. destruct X as [X|[X|X]]; [rewrite X in C1; discriminate|contradiction|apply C5; exact X]. }
  constructor; cbn [st_shm st_log st_pcs st_dyn]; rewrite ?R, ?N0.
  - intros inf inp Hi. apply (s_rid st I inf inp). apply IN; auto.
  - intros inf inp Hi. apply (s_in st I inf inp). apply IN; auto.
  - intros X inf inp Hi. apply (s_noab st I (proj1 (RSE X)) inf inp). apply IN; auto.
  - intros X inf inp Hi. rewrite (proj2 (RSE X)). apply (s_low st I (proj1 (RSE X)) inf inp). apply IN; auto.
  - intros X inf inp Hi. destruct C as [->|(C1 & C2 & C3 & C4 & C5)]; [apply (s_lowab st I X inf inp); apply IN; auto|].
    exfalso. destruct X as [X|X]; [rewrite X in C1; discriminate|contradiction].
  - intros X. destruct C as [->|(C1 & _)]; [apply LI, (s_cur st I X)|congruence].
  - intros X. destruct C as [->|(C1 & C2 & C3 & C4 & C5)]; [apply (s_cnt st I X)|]. destruct X as [X|[X|X]]; [rewrite X in C1; discriminate..|]. apply C5. exact X.
  - intros X k Hi. destruct C as [->|(C1 & C2 & _)]; [apply (s_noself st I X k); apply IN; auto|]. destruct X as [X|X]; [rewrite X in C1; discriminate|contradiction].
  - intros p. pose proof (p_ok st I p) as H. destruct (st_pcs st p) as [|k v inf inp|k v r out inf inp|k v r err out inf|]; cbn [pc_ok] in *; auto.
    + destruct H as (-> & H). split; [reflexivity|]. apply pcb_neutral; assumption.
    + destruct H as (-> & H & H1 & H2). split; [reflexivity|]. split; [apply pcb_neutral; assumption|]. split; [apply LI; exact H1|].
      intros X Y. unfold newest. rewrite calls_neutral by exact F. apply H2; [|exact Y]. destruct C as [->|(C1 & _)]; [exact X|]. rewrite X in Y. rewrite Y in C1. discriminate.
    + destruct H as (k' & inp & H & H1 & H2 & H3). exists k', inp. split; [apply pcb_neutral; assumption|]. split; [apply LI; exact H1|]. split; [|exact H3].
      intros X Y. unfold newest. rewrite calls_neutral by exact F. apply H2; [|exact Y]. destruct C as [->|(C1 & _)]; [exact X|]. rewrite X in Y. rewrite Y in C1. discriminate.
  - intros p inf H1 H2 H3. destruct C as [->|(C1 & C2 & _)]; [apply (p_stale st I p inf H1 H2 H3)|]. split; [exact C2|]. intros X. rewrite X in C1. discriminate.
  - intros k e rid r out Hi. apply IN in Hi; auto. destruct (c_call st I k e rid r out Hi) as (A & inp & B & D). split; [exact A|]. exists inp. auto.
  - intros k rid Hi. apply IN in Hi; auto. destruct (c_self st I k rid Hi) as (inf & inp & B & D). eauto.
  - intros X. destruct C as [->|(C1 & C2 & _)]; [|contradiction]. destruct (c_succ st I X) as (k & A & B & D). exists k. split; [exact A|]. split; [exact B|].
    unfold newest. rewrite calls_neutral by exact F. exact D.
  - intros X. destruct C as [->|(C1 & C2 & C3 & _)]; [|contradiction]. destruct (c_fin st I X) as (k & r & out & A & B & D). exists k, r, out. auto.
  - intros k X. apply accepted_app. apply (c_dyn st I k X).
  - intros l1 l2 k k' rid r r' out out' E Hi. destruct (split_neutral l (st_log st) l1 (OCall k EvRpc rid r out) l2 F (fun x => x) E) as (l1' & E'). apply (c_order st I l1' l2 k k' rid r r' out out' E' Hi).
  - intros l1 l2 k rid r out E. destruct (split_neutral l (st_log st) l1 (OCall k EvAbort rid r out) l2 F (fun x => x) E) as (l1' & E'). apply (c_abort st I l1' l2 k rid r out E').
Qed.

(** Events that may be written, given the current one. *)
Definition may_pub (h : shm) (inf : info) (inp : nat) : Prop :=
  (f_ev inf = EvRpc /\ (f_rid (h_inf h) < f_rid inf)%nat) \/
  (f_ev inf = EvRpc /\ f_rid inf = f_rid (h_inf h) /\ f_ev (h_inf h) = EvSuccess /\ f_prio inf < f_prio (h_inf h) /\ inp = h_in h) \/
  (f_ev inf = EvAbort /\ f_rid inf = f_rid (h_inf h) /\ inp = h_in h /\
   (f_ev (h_inf h) = EvError \/ ((f_ev (h_inf h) = EvAbort \/ f_ev (h_inf h) = EvFinished) /\ f_prio inf < f_prio (h_inf h)))).

Lemma pub_inf : forall st p inf, invA st -> pc_inf (st_pcs st p) = Some inf -> exists inp, In (OPub inf inp) (st_log st) /\ is_listen (f_ev inf) = true.
Proof.
  intros st p inf I H. pose proof (p_ok st I p) as K. destruct (st_pcs st p) as [|k v i inp|k v r out i inp|k v r err out i|]; try discriminate; cbn in H; injection H as ->; cbn in K.
  - destruct K as (_ & _ & _ & _ & A & B & _). eauto.
  - destruct K as (_ & (_ & _ & _ & A & B & _) & _). eauto.
  - destruct K as (k' & inp & (_ & _ & _ & A & B & _) & _). eauto.
Qed.

Lemma A_pub : forall st inf inp ors h', invA st -> may_pub (st_shm st) inf inp -> h_inf h' = inf -> h_in h' = inp -> h_cnt h' = 1 ->
  invA (mkst h' ors (st_pcs st) (st_dyn st) (OPub inf inp :: st_log st)).
Proof.
  intros st inf inp ors h' I M Hi Hn Hc.
  assert (FR : forall i ip, In (OPub i ip) (st_log st) -> (f_rid i <= f_rid inf)%nat).
  { intros i ip H. pose proof (s_rid st I i ip H). destruct M as [(_ & M)|[(_ & M & _)|(_ & M & _)]]; lia. }
  assert (LIS : is_listen (f_ev inf) = true) by (destruct M as [(M & _)|[(M & _)|(M & _)]]; rewrite M; reflexivity).
  assert (ST : forall p i, pc_inf (st_pcs st p) = Some i -> f_ev i = EvRpc -> f_ev inf = EvRpc -> f_rid i <> f_rid inf).
  { intros p i H E1 E2 X. destruct (pub_inf st p i I H) as (ip & P & _). pose proof (s_rid st I i ip P). destruct M as [(_ & M)|[(_ & M & S0 & _)|(M & _)]]; [lia| |congruence].
    destruct (p_stale st I p i H E1 ltac:(congruence)) as (Y & _). contradiction. }
  assert (PB : forall p k i ip, pc_inf (st_pcs st p) = Some i -> pcb (st_log st) p k i ip -> pcb (OPub inf inp :: st_log st) p k i ip).
  { intros p k i ip H (A & B & C & D & E & G & K & L). repeat (split; [solve [auto using in_cons]|]). split.
    - intros inf' inp' [X|X] E1 E2 E3; [|apply (K inf' inp'); auto]. injection X as <- <-. exfalso. apply (ST p i H E2 E1). congruence.
    - intros X. destruct (L X) as (out & Y). exists out. right. exact Y. }
  constructor; cbn [st_shm st_log st_pcs st_dyn]; rewrite ?Hi, ?Hn, ?Hc.
  - intros i ip [X|X]; [injection X as <- <-; lia|eauto].
  - intros i ip [X|X] E; [injection X as <- <-; reflexivity|]. destruct M as [(_ & M)|[(_ & M & _ & _ & M1)|(_ & M & M1 & _)]].
    + pose proof (s_rid st I i ip X). lia.
    + subst inp. apply (s_in st I i ip X). congruence.
    + subst inp. apply (s_in st I i ip X). congruence.
  - intros R i ip [X|X] E; [injection X as <- <-; rewrite E in R; destruct R as [R|[R|R]]; discriminate|]. destruct M as [(_ & M)|[(_ & M & M1 & _)|(M & _)]].
    + pose proof (s_rid st I i ip X). lia.
    + rewrite M. apply (s_noab st I (or_intror (or_introl M1)) i ip X E).
    + rewrite M in R. destruct R as [R|[R|R]]; discriminate.
  - intros R i ip [X|X] E1 E2; [injection X as <- <-; lia|]. destruct M as [(_ & M)|[(_ & M & M1 & M2 & _)|(M & _)]].
    + pose proof (s_rid st I i ip X). lia.
    + rewrite M in E2. pose proof (s_low st I (or_intror (or_introl M1)) i ip X E1 E2). lia.
    + rewrite M in R. destruct R as [R|[R|R]]; discriminate.
  - intros R i ip [X|X] E1 E2; [injection X as <- <-; lia|]. destruct M as [(M & _)|[(M & _)|(_ & M & _ & [M1|(M1 & M2)])]].
    + rewrite M in R. destruct R; discriminate.
    + rewrite M in R. destruct R; discriminate.
    + exfalso. apply (s_noab st I (or_intror (or_intror M1)) i ip X E1). congruence.
    + pose proof (s_lowab st I M1 i ip X E1 ltac:(congruence)). lia.
  - intros _. left. reflexivity.
  - auto.
  - intros R k [X|X]; [discriminate|]. destruct M as [(_ & M)|[(_ & M & M1 & _)|(M & _)]].
    + destruct (c_self st I k _ X) as (i & ip & Y & Z). pose proof (s_rid st I i ip Y). lia.
    + rewrite M in X. apply (s_noself st I (or_intror M1) k X).
    + rewrite M in R. destruct R; discriminate.
  - intros p. pose proof (p_ok st I p) as H. pose proof (PB p) as PBp. pose proof (ST p) as STp. pose proof (pub_inf st p) as PIp.
    destruct (st_pcs st p) as [|k v i ip|k v r out i ip|k v r err out i|]; cbn [pc_ok pc_inf] in *; auto.
    + destruct H as (-> & H). split; [reflexivity|]. apply PBp; auto.
    + destruct H as (-> & H & H1 & H2). split; [reflexivity|]. split; [apply PBp; auto|]. split; [right; exact H1|].
      intros X Y. exfalso. rewrite Hi in X. subst i. apply (STp inf eq_refl Y Y). reflexivity.
    + destruct H as (k' & ip & H & H1 & H2 & H3). exists k', ip. split; [apply PBp; auto|]. split; [right; exact H1|]. split; [|exact H3].
      intros X Y. exfalso. rewrite Hi in X. subst i. apply (STp inf eq_refl Y Y). reflexivity.
  - intros p i H E1 E2. split; [intros X; rewrite X in LIS; discriminate|]. intros X. exfalso. apply (ST p i H E1 X E2).
  - intros k e rid r out [X|X]; [discriminate|]. destruct (c_call st I k e rid r out X) as (A & ip & B & C). split; [exact A|]. exists ip. split; [right; exact B|exact C].
  - intros k rid [X|X]; [discriminate|]. destruct (c_self st I k rid X) as (i & ip & B & C). exists i, ip. split; [right; exact B|exact C].
  - intros X. rewrite X in LIS. discriminate.
  - intros X. rewrite X in LIS. discriminate.
  - intros k X. destruct (c_dyn st I k X) as (out & Y). exists out. right. exact Y.
  - intros l1 l2 k k' rid r r' out out' E Hx. destruct l1 as [|z l1]; injection E as E1 E2; [discriminate|]. apply (c_order st I l1 l2 k k' rid r r' out out' E2 Hx).
  - intros l1 l2 k rid r out E. destruct l1 as [|z l1]; injection E as E1 E2; [discriminate|]. apply (c_abort st I l1 l2 k rid r out E2).
Qed.

(** A listener moves from [pc] to [c] without calling a callback, the event stays. *)
Lemma A_pc : forall st p c l d, invA st -> (forall k, d k = st_dyn st k \/ (y_ev (d k) = EvRpc -> accepted (st_log st) k (y_rid (d k)))) ->
  (pc_inf c = None \/ pc_inf c = pc_inf (st_pcs st p) \/ pc_inf c = Some (h_inf (st_shm st))) ->
  pc_ok (st_shm st) (st_log st) p c ->
  (l = [] \/ exists k inf, l = [OSelf k (f_rid inf)] /\ pc_inf (st_pcs st p) = Some inf /\ inf <> h_inf (st_shm st)) ->
  invA (mkst (st_shm st) (st_ors st) (upd (st_pcs st) p c) d (l ++ st_log st)).
Proof.
  intros st p c l d I D P OK L.
  assert (IN : forall x, (forall k r, x <> OSelf k r) -> In x (l ++ st_log st) -> In x (st_log st)).
  { intros x N0 H. apply in_app_or in H. destruct H as [H|H]; [|exact H]. destruct L as [->|(k & inf & -> & _)]; [destruct H|]. destruct H as [H|[]]. exfalso. apply (N0 k (f_rid inf)). auto. }
  assert (LI : forall x, In x (st_log st) -> In x (l ++ st_log st)) by (intros; apply in_or_app; auto).
  assert (CL : forall rid, rpc_calls rid (l ++ st_log st) = rpc_calls rid (st_log st)) by (intros rid; destruct L as [->|(k & inf & -> & _)]; reflexivity).
  assert (PB : forall p' k i ip, pcb (st_log st) p' k i ip -> pcb (l ++ st_log st) p' k i ip).
  { intros p' k i ip (A & B & C & E & F & G & K & M). repeat (split; [solve [auto]|]). split; [|intros X; apply accepted_app; auto].
    intros inf' inp' X. apply K with (inp' := inp'). apply IN; [congruence|exact X]. }
  assert (OKs : forall p' c', pc_ok (st_shm st) (st_log st) p' c' -> pc_ok (st_shm st) (l ++ st_log st) p' c').
  { intros p' c' H. destruct c' as [|k v i ip|k v r out i ip|k v r err out i|]; cbn [pc_ok] in *; auto; unfold newest; rewrite ?CL.
    - destruct H as (-> & H). auto.
    - destruct H as (-> & H & H1 & H2). auto.
    - destruct H as (k' & ip & H & H1 & H2 & H3). exists k', ip. auto. }
  assert (SP : forall l1 x l2, (forall k r, x <> OSelf k r) -> l ++ st_log st = l1 ++ x :: l2 -> exists l1', st_log st = l1' ++ x :: l2).
  { intros l1 x l2 N0 E. destruct L as [->|(k & inf & -> & _)]; [eauto|]. destruct l1 as [|z l1]; injection E as E1 E2; [exfalso; apply (N0 k (f_rid inf)); auto|eauto]. }
  constructor; cbn [st_shm st_log st_pcs st_dyn].
  - intros inf inp H. apply (s_rid st I inf inp). apply IN; [congruence|exact H].
  - intros inf inp H. apply (s_in st I inf inp). apply IN; [congruence|exact H].
  - intros X inf inp H. apply (s_noab st I X inf inp). apply IN; [congruence|exact H].
  - intros X inf inp H. apply (s_low st I X inf inp). apply IN; [congruence|exact H].
  - intros X inf inp H. apply (s_lowab st I X inf inp). apply IN; [congruence|exact H].
  - intros X. apply LI, (s_cur st I X).
  - apply (s_cnt st I).
  - intros X k H. apply in_app_or in H. destruct H as [H|H]; [|apply (s_noself st I X k H)]. destruct L as [->|(k0 & inf & -> & Q & Ne)]; [destruct H|]. destruct H as [H|[]]. injection H as -> H.
    destruct (pub_inf st p inf I Q) as (ip & B & C). assert (RS : rse (f_ev (h_inf (st_shm st)))) by (unfold rse; tauto).
    destruct (f_ev inf) eqn:Ev; try discriminate.
    + destruct (p_stale st I p inf Q Ev H) as (Y1 & Y2). destruct X as [X|X]; [apply Ne, Y2, X|contradiction].
    + apply (s_noab st I RS inf ip B Ev H).
  - intros p'. destruct (Nat.eq_dec p' p) as [->|Ne]; [rewrite upd_eq; auto|]. rewrite upd_neq by exact Ne. apply OKs, (p_ok st I).
  - intros p' inf H. destruct (Nat.eq_dec p' p) as [->|Ne].
    + rewrite upd_eq in H. destruct P as [P|[P|P]]; [congruence|rewrite P in H; apply (p_stale st I p inf H)|]. rewrite P in H. injection H as <-. intros E1 E2. split; [congruence|auto].
    + rewrite upd_neq in H by exact Ne. apply (p_stale st I p' inf H).
  - intros k e rid r out H. apply IN in H; [|congruence]. destruct (c_call st I k e rid r out H) as (A & inp & B & C). split; [exact A|]. exists inp. auto.
  - intros k rid H. apply in_app_or in H. destruct H as [H|H]; [|destruct (c_self st I k rid H) as (i & ip & B & C); eauto].
    destruct L as [->|(k0 & inf & -> & Q & Ne)]; [destruct H|]. destruct H as [H|[]]. injection H as -> <-. destruct (pub_inf st p inf I Q) as (ip & B & C). exists inf, ip. auto.
  - intros X. destruct (c_succ st I X) as (k & A & B & C). exists k. unfold newest. rewrite CL. auto.
  - intros X. destruct (c_fin st I X) as (k & r & out & A & B & C). exists k, r, out. auto.
  - intros k X. apply accepted_app. destruct (D k) as [E|E]; [|apply E, X]. rewrite E in *. apply (c_dyn st I k X).
  - intros l1 l2 k k' rid r r' out out' E Hx. destruct (SP l1 (OCall k EvRpc rid r out) l2 ltac:(intros; discriminate) E) as (l1' & E'). apply (c_order st I l1' l2 k k' rid r r' out out' E' Hx).
  - intros l1 l2 k rid r out E. destruct (SP l1 (OCall k EvAbort rid r out) l2 ltac:(intros; discriminate) E) as (l1' & E'). apply (c_abort st I l1' l2 k rid r out E').
Qed.

Lemma in_call : forall x y (log : list obs), In x (y :: log) -> x <> y -> In x log.
Proof. intros x y log [H|H] Ne; [congruence|exact H]. Qed.

Lemma same_proc : forall log p p' k k' inf ip ip', pcb log p k inf ip -> pcb log p' k' inf ip' -> p' = p /\ k' = k.
Proof.
  intros log p p' k k' inf ip ip' (A & B & C & _) (A' & B' & C' & _). assert (k' = k) by (apply prio_inj; congruence). subst. auto.
Qed.
Lemma pc_pcb : forall st p inf, invA st -> pc_inf (st_pcs st p) = Some inf -> exists k ip, pcb (st_log st) p k inf ip.
Proof.
  intros st p inf I H. pose proof (p_ok st I p) as K. destruct (st_pcs st p) as [|k v i inp|k v r out i inp|k v r err out i|]; try discriminate; cbn in H; injection H as ->; cbn in K.
  - destruct K as (_ & K). eauto.
  - destruct K as (_ & K & _). eauto.
  - destruct K as (k' & inp & K & _). eauto.
Qed.

(** A callback is called. *)
Lemma A_call : forall st p k v inf inp r out, invA st -> st_pcs st p = Call k v inf inp ->
  invA (mkst (st_shm st) (st_ors st) (upd (st_pcs st) p (Called k v r out inf inp)) (st_dyn st) (OCall k (f_ev inf) (f_rid inf) r out :: st_log st)).
Proof.
  intros st p k v inf inp r out I E. pose proof (p_ok st I p) as K. rewrite E in K. destruct K as (-> & K).
  assert (PI : pc_inf (st_pcs st p) = Some inf) by (rewrite E; reflexivity).
  assert (PB : forall p' k' i ip, pcb (st_log st) p' k' i ip -> pcb (OCall k (f_ev inf) (f_rid inf) r out :: st_log st) p' k' i ip).
  { intros p' k' i ip (A & B & C & D & F & G & M & L). repeat (split; [solve [auto using in_cons]|]). split; [|intros X; destruct (L X) as (o & Y); exists o; right; exact Y].
    intros inf' inp' X. apply M with (inp' := inp'). apply in_call in X; [exact X|discriminate]. }
  assert (NEW : forall rid k' r' out', newest (st_log st) rid k' r' out' -> (f_ev inf = EvRpc -> f_rid inf <> rid) -> newest (OCall k (f_ev inf) (f_rid inf) r out :: st_log st) rid k' r' out').
  { intros rid k' r' out' (l & H) Ne. exists l. cbn. destruct (f_ev inf) eqn:Ev; try exact H. destruct (Nat.eqb (f_rid inf) rid) eqn:Q; [|exact H]. apply Nat.eqb_eq in Q. exfalso. exact (Ne eq_refl Q). }
  assert (OTH : forall p' i, p' <> p -> pc_inf (st_pcs st p') = Some i -> i = h_inf (st_shm st) -> f_ev i = EvRpc -> f_ev inf = EvRpc -> f_rid inf <> f_rid i).
  { intros p' i Ne H E1 E2 E3 X. subst i. destruct (p_stale st I p inf PI E3 X) as (_ & Y). specialize (Y E2). subst inf. destruct (pc_pcb st p' _ I H) as (k' & ip' & Z).
    destruct (same_proc _ _ _ _ _ _ _ _ K Z). contradiction. }
  destruct K as (K1 & K2 & K3 & K4 & K5 & K6 & K7 & K8).
  constructor; cbn [st_shm st_log st_pcs st_dyn].
  - intros i ip H. apply in_call in H; [|discriminate]. apply (s_rid st I i ip H).
  - intros i ip H. apply in_call in H; [|discriminate]. apply (s_in st I i ip H).
  - intros X i ip H. apply in_call in H; [|discriminate]. apply (s_noab st I X i ip H).
  - intros X i ip H. apply in_call in H; [|discriminate]. apply (s_low st I X i ip H).
  - intros X i ip H. apply in_call in H; [|discriminate]. apply (s_lowab st I X i ip H).
  - intros X. right. apply (s_cur st I X).
  - apply (s_cnt st I).
  - intros X k0 H. apply in_call in H; [|discriminate]. apply (s_noself st I X k0 H).
  - intros p'. destruct (Nat.eq_dec p' p) as [->|Ne].
    + rewrite upd_eq. cbn [pc_ok]. split; [reflexivity|]. split; [apply PB; repeat (split; [solve [auto]|]); auto|]. split; [left; reflexivity|].
      intros _ X. eexists. cbn. rewrite X, Nat.eqb_refl. reflexivity.
    + rewrite upd_neq by exact Ne. pose proof (p_ok st I p') as H. pose proof (OTH p') as OTp. destruct (st_pcs st p') as [|k0 v0 i ip|k0 v0 r0 out0 i ip|k0 v0 r0 err out0 i|]; cbn [pc_ok pc_inf] in *; auto.
      * destruct H as (-> & H). auto.
      * destruct H as (-> & H & H1 & H2). split; [reflexivity|]. split; [auto|]. split; [right; exact H1|]. intros X Y. apply NEW; [auto|]. apply OTp; auto.
      * destruct H as (k' & ip & H & H1 & H2 & H3). exists k', ip. split; [auto|]. split; [right; exact H1|]. split; [|exact H3]. intros X Y. apply NEW; [auto|]. apply OTp; auto.
  - intros p' i H. destruct (Nat.eq_dec p' p) as [->|Ne]; [rewrite upd_eq in H; cbn in H; injection H as <-; apply (p_stale st I p inf PI)|].
    rewrite upd_neq in H by exact Ne. apply (p_stale st I p' i H).
  - intros k0 e rid r0 out0 [H|H].
    + injection H as -> <- <- -> ->. split; [exact K1|]. exists inp. rewrite K3, info_eta. split; [right; exact K5|exact K6].
    + destruct (c_call st I k0 e rid r0 out0 H) as (A & ip & B & C). split; [exact A|]. exists ip. split; [right; exact B|exact C].
  - intros k0 rid H. apply in_call in H; [|discriminate]. destruct (c_self st I k0 rid H) as (i & ip & B & C). exists i, ip. split; [right; exact B|exact C].
  - intros X. destruct (c_succ st I X) as (k0 & A & B & C). exists k0. split; [exact A|]. split; [exact B|]. apply NEW; [exact C|]. intros Y Z. destruct (p_stale st I p inf PI Y Z). contradiction.
  - intros X. destruct (c_fin st I X) as (k0 & r0 & out0 & A & B & C). exists k0, r0, out0. split; [exact A|]. split; [exact B|]. right. exact C.
  - intros k0 X. destruct (c_dyn st I k0 X) as (out0 & Y). exists out0. right. exact Y.
  - intros l1 l2 k0 k' rid r0 r' out0 out' Eq Hx. destruct l1 as [|z l1]; injection Eq as E1 E2.
    + subst. destruct (c_call st I k' _ _ _ _ Hx) as (_ & ip & B & _). rewrite K3. apply (K7 _ _ B); auto.
    + apply (c_order st I l1 l2 k0 k' rid r0 r' out0 out' E2 Hx).
  - intros l1 l2 k0 rid r0 out0 Eq. destruct l1 as [|z l1]; injection Eq as E1 E2; [|apply (c_abort st I l1 l2 k0 rid r0 out0 E2)].
    subst. auto.
Qed.

(** A listener reports what it did. *)
Lemma A_write : forall st p k v r err out inf, invA st -> st_pcs st p = Fin k v r err out inf -> inf = h_inf (st_shm st) ->
  invA (mkst (listen_write_event (st_shm st) v err out) (st_ors st) (upd (st_pcs st) p Idle) (st_dyn st) (st_log st)).
Proof.
  intros st p k v r err out inf I E Q. pose proof (p_ok st I p) as K. rewrite E in K. destruct K as (k' & inp & K & K1 & K2 & K3).
  pose proof K as (B1 & B2 & B3 & B4 & B5 & B6 & B7 & B8). subst inf.
  assert (C1 : h_cnt (st_shm st) = 1) by (apply (s_cnt st I); destruct (f_ev (h_inf (st_shm st))); try discriminate; auto).
  assert (EV : h_inf (listen_write_event (st_shm st) v err out) = mkinfo (match f_ev (h_inf (st_shm st)) with EvRpc => if err then EvError else EvSuccess | _ => EvFinished end)
      (f_rid (h_inf (st_shm st))) (f_prio (h_inf (st_shm st))) /\ (err = true -> f_ev (h_inf (st_shm st)) = EvRpc /\ h_cnt (listen_write_event (st_shm st) v err out) = 1)).
  { unfold listen_write_event. cbn [h_inf h_cnt]. rewrite C1. destruct err.
    - destruct K3 as (-> & X & _). rewrite X. rewrite orb_true_r. split; [reflexivity|]. intros _. split; [reflexivity|reflexivity].
    - destruct K3 as (-> & _). rewrite N.eqb_refl. cbn [orb]. destruct (f_ev (h_inf (st_shm st))); try discriminate; (split; [reflexivity|discriminate]). }
  destruct EV as (EV & EC). assert (HI : h_in (listen_write_event (st_shm st) v err out) = h_in (st_shm st)) by reflexivity.
  assert (HO : h_out (listen_write_event (st_shm st) v err out) = out) by reflexivity.
  set (h' := listen_write_event (st_shm st) v err out) in *. clearbody h'.
  assert (RSE : rse (f_ev (h_inf h')) -> rse (f_ev (h_inf (st_shm st)))).
  { rewrite EV. cbn. intros [X|[X|X]]; destruct (f_ev (h_inf (st_shm st))); destruct err; try discriminate; left; reflexivity. }
  assert (NL : is_listen (f_ev (h_inf h')) = false) by (rewrite EV; cbn; destruct (f_ev (h_inf (st_shm st))); destruct err; reflexivity).
  constructor; cbn [st_shm st_log st_pcs st_dyn]; rewrite ?HI, ?HO.
  - rewrite EV. cbn [f_rid]. apply (s_rid st I).
  - rewrite EV. cbn [f_rid]. apply (s_in st I).
  - intros X. rewrite EV. cbn [f_rid]. apply (s_noab st I (RSE X)).
  - intros X. rewrite EV. cbn [f_rid f_prio]. apply (s_low st I (RSE X)).
  - intros X. rewrite EV. cbn [f_rid f_prio]. apply (s_lowab st I). left. rewrite EV in X. cbn in X. destruct (f_ev (h_inf (st_shm st))); try discriminate; auto. destruct err; destruct X; discriminate.
  - intros X. congruence.
  - intros X. rewrite EV in X. cbn in X. destruct err; [apply EC; reflexivity|]. destruct (f_ev (h_inf (st_shm st))); destruct X as [X|[X|X]]; discriminate.
  - intros X. rewrite EV. cbn [f_rid]. apply (s_noself st I). left. rewrite EV in X. cbn in X. destruct (f_ev (h_inf (st_shm st))); try reflexivity; destruct X; discriminate.
  - intros p'. destruct (Nat.eq_dec p' p) as [->|Ne]; [rewrite upd_eq; exact Logic.I|]. rewrite upd_neq by exact Ne.
    pose proof (p_ok st I p') as H. destruct (st_pcs st p') as [|k0 v0 i ip|k0 v0 r0 out0 i ip|k0 v0 r0 err0 out0 i|]; cbn [pc_ok] in *; auto.
    + destruct H as (-> & H & H1 & H2). repeat (split; [solve [auto]|]). intros X Y. exfalso. rewrite X in Y. rewrite Y in NL. discriminate.
    + destruct H as (k1 & ip & H & H1 & H2 & H3). exists k1, ip. repeat (split; [solve [auto]|]). split; [|exact H3]. intros X Y. exfalso. rewrite X in Y. rewrite Y in NL. discriminate.
  - intros p' i H E1 E2. destruct (Nat.eq_dec p' p) as [->|Ne]; [rewrite upd_eq in H; discriminate|]. rewrite upd_neq in H by exact Ne.
    rewrite EV in *. cbn [f_rid f_ev] in *. destruct (p_stale st I p' i H E1 E2) as (Y1 & Y2).
    destruct (f_ev (h_inf (st_shm st))) eqn:Ev; try discriminate; [|split; intros X; discriminate].
    destruct err; [split; [discriminate|intros X; discriminate]|]. exfalso. specialize (Y2 eq_refl). subst i. destruct (pc_pcb st p' _ I H) as (k0 & ip & Z). destruct (same_proc _ _ _ _ _ _ _ _ K Z). contradiction.
  - apply (c_call st I).
  - apply (c_self st I).
  - intros X. rewrite EV in *. cbn [f_ev f_prio f_rid] in *. destruct (f_ev (h_inf (st_shm st))) eqn:Ev; try discriminate. destruct err; [discriminate|]. destruct K3 as (_ & K3 & _). rewrite (K3 eq_refl) in *.
    exists k'. split; [exact B1|]. split; [exact B3|]. apply K2; reflexivity.
  - intros X. rewrite EV in *. cbn [f_ev f_prio f_rid] in *. destruct (f_ev (h_inf (st_shm st))) eqn:Ev; try discriminate; [destruct err; discriminate|]. exists k', r, out. auto.
  - apply (c_dyn st I).
  - apply (c_order st I).
  - apply (c_abort st I).
Qed.
End Proofs.
