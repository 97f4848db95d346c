(** C09, C30: the tables of subscriptions, src/shm_ext.c 511-1725. *)
From Coq Require Import List NArith Lia Bool.
From Verif Require Import Base EvData ExtShm ExtShmSpec SubTab SubTabSpec SubSys SubSysSpec SubSysProofs Prop_ExtShm.
Import ListNotations.
Open Scope N_scope.

(** * C09: the tables behave as lists *)

(** After any history of operations on any number of tables of any kinds, reading all the tables
    back from the shared memory gives exactly the lists on which the same operations were done. *)
Theorem C09_tables_are_lists : forall ks h, possible (sys_init ks) (map c_empty ks) h ->
  exists s, srun (sys_init ks) h = Some s /\ read_all s = Some (fold_left lstep h (map c_empty ks)).
Proof. exact tables_are_lists. Qed.
Print Assumptions C09_tables_are_lists.

(** Whatever is done to one table, all the other tables read the same. *)
Theorem C09_other_tables_unchanged : forall ks h i o s s' cs cs',
  possible (sys_init ks) (map c_empty ks) (h ++ [On i o]) ->
  srun (sys_init ks) h = Some s -> sstep s (On i o) = Some s' ->
  read_all s = Some cs -> read_all s' = Some cs' ->
  forall j, j <> i -> nth_error cs' j = nth_error cs j.
Proof. exact other_tables. Qed.
Print Assumptions C09_other_tables_unchanged.

(** Adding a subscription adds exactly it to the end. *)
Theorem C09_add_exact : forall ks h i x ws s s' cs cs' k l,
  possible (sys_init ks) (map c_empty ks) (h ++ [On i (TAdd x ws)]) ->
  srun (sys_init ks) h = Some s -> sstep s (On i (TAdd x ws)) = Some s' ->
  read_all s = Some cs -> read_all s' = Some cs' -> nth_error cs i = Some (Flat k l) ->
  nth_error cs' i = Some (Flat k (l ++ [(x, ws)])).
Proof. exact add_exact. Qed.
Print Assumptions C09_add_exact.

(** Removing a subscription removes exactly it. *)
Theorem C09_del_exact : forall ks h i id s s' cs cs' k l,
  possible (sys_init ks) (map c_empty ks) (h ++ [On i (TDel id)]) ->
  srun (sys_init ks) h = Some s -> sstep s (On i (TDel id)) = Some s' ->
  read_all s = Some cs -> read_all s' = Some cs' -> nth_error cs i = Some (Flat k l) ->
  NoDup (map (s_id k) l) ->
  nth_error cs' i = Some (Flat k (filter (fun x => negb (s_id k x =? id)) l)).
Proof. exact del_exact. Qed.
Print Assumptions C09_del_exact.

(** Adding an operational get subscription: refused if the xpath is there and merging was not
    asked for, otherwise exactly it is added (its priority depends on the others of the xpath). *)
Theorem C09_oper_add_exact : forall ks h i path ty opts ws s s' cs cs' l,
  possible (sys_init ks) (map c_empty ks) (h ++ [On i (TOAdd path ty opts ws)]) ->
  srun (sys_init ks) h = Some s -> sstep s (On i (TOAdd path ty opts ws)) = Some s' ->
  read_all s = Some cs -> read_all s' = Some cs' -> nth_error cs i = Some (Nest l) ->
  exists l', nth_error cs' i = Some (Nest l') /\
    ((exists e, In e l /\ e_path e = path) /\ N.land opts SR_SUBSCR_OPER_MERGE = 0 /\ l' = l \/
     (~ (exists e, In e l /\ e_path e = path) \/ N.land opts SR_SUBSCR_OPER_MERGE <> 0) /\
     exists p l1 l2, oflat l = l1 ++ l2 /\ oflat l' = l1 ++ (path, ws p) :: l2).
Proof. exact oper_add_exact. Qed.
Print Assumptions C09_oper_add_exact.

(** Removing one removes exactly it. *)
Theorem C09_oper_del_exact : forall ks h i id s s' cs cs' l,
  possible (sys_init ks) (map c_empty ks) (h ++ [On i (TODel id)]) ->
  srun (sys_init ks) h = Some s -> sstep s (On i (TODel id)) = Some s' ->
  read_all s = Some cs -> read_all s' = Some cs' -> nth_error cs i = Some (Nest l) ->
  NoDup (map (fun x => word (snd x) kid_id) (oflat l)) ->
  exists l', nth_error cs' i = Some (Nest l') /\
    oflat l' = filter (fun x => negb (word (snd x) kid_id =? id)) (oflat l).
Proof. exact oper_del_exact. Qed.
Print Assumptions C09_oper_del_exact.

(** The xpaths of operational get subscriptions are always different, and parents come before
    their descendants (shorter xpaths first). *)
Theorem C09_oper_sorted : forall ks h s cs l,
  possible (sys_init ks) (map c_empty ks) h -> srun (sys_init ks) h = Some s -> read_all s = Some cs ->
  In (Nest l) cs -> osorted l.
Proof. exact oper_sorted. Qed.
Print Assumptions C09_oper_sorted.

(** * C30: removal of dead subscriptions *)

(** Precisely the subscriptions of connections which are not alive are removed (RPC subscriptions
    with connection 0, the internal ones, are never dead). *)
Theorem C30_dead_exact : forall ks h i alive s s' cs cs' k l,
  possible (sys_init ks) (map c_empty ks) (h ++ [On i (TDead alive)]) ->
  srun (sys_init ks) h = Some s -> sstep s (On i (TDead alive)) = Some s' ->
  read_all s = Some cs -> read_all s' = Some cs' -> nth_error cs i = Some (Flat k l) ->
  nth_error cs' i =
  Some (Flat k (filter (fun x => alive (s_cid k x) || match k with KRpc => s_cid k x =? 0 | _ => false end) l)).
Proof. exact dead_exact. Qed.
Print Assumptions C30_dead_exact.

Theorem C30_oper_dead_exact : forall ks h i alive s s' cs cs' l,
  possible (sys_init ks) (map c_empty ks) (h ++ [On i (TODead alive)]) ->
  srun (sys_init ks) h = Some s -> sstep s (On i (TODead alive)) = Some s' ->
  read_all s = Some cs -> read_all s' = Some cs' -> nth_error cs i = Some (Nest l) ->
  exists l', nth_error cs' i = Some (Nest l') /\
    oflat l' = filter (fun x => alive (word (snd x) kid_cid)) (oflat l).
Proof. exact oper_dead_exact. Qed.
Print Assumptions C30_oper_dead_exact.

(** Unsubscribing removes precisely one subscription; all other tables stay whatever is done to one. *)
Theorem C30_unsubscribe_exact : forall ks h i id s s' cs cs' k l,
  possible (sys_init ks) (map c_empty ks) (h ++ [On i (TDel id)]) ->
  srun (sys_init ks) h = Some s -> sstep s (On i (TDel id)) = Some s' ->
  read_all s = Some cs -> read_all s' = Some cs' -> nth_error cs i = Some (Flat k l) -> NoDup (map (s_id k) l) ->
  nth_error cs' i = Some (Flat k (filter (fun x => negb (s_id k x =? id)) l)) /\
  forall j, j <> i -> nth_error cs' j = nth_error cs j.
Proof.
  intros ks h i id s s' cs cs' k l P E Es R R' Hi Nd. split; [exact (del_exact ks h i id s s' cs cs' k l P E Es R R' Hi Nd)|].
  intros j Nj. destruct (last_step ks h i (TDel id) s s' cs cs' P E Es R R') as (_ & -> & _). apply lstep_other. congruence.
Qed.
Print Assumptions C30_unsubscribe_exact.
Theorem C30_dead_other_tables : forall ks h i o s s' cs cs',
  possible (sys_init ks) (map c_empty ks) (h ++ [On i o]) -> srun (sys_init ks) h = Some s -> sstep s (On i o) = Some s' ->
  read_all s = Some cs -> read_all s' = Some cs' -> forall j, j <> i -> nth_error cs' j = nth_error cs j.
Proof. intros ks h i o s s' cs cs' P E Es R R' j Nj. destruct (last_step ks h i o s s' cs cs' P E Es R R') as (_ & -> & _). apply lstep_other. congruence. Qed.
Print Assumptions C30_dead_other_tables.

(** The history of Prop_ExtShm.v: a moved array, merged operational get subscriptions, a refused
    one and the removal of the dead ones. *)
Definition ex_h3 : list sop :=
  ex_h ++ [ On 0 (TAdd None (chg 7 7)); On 1 (TOAdd [47; 97] 1 0 (get 8 9)); On 1 (TOAdd [47; 97] 1 32 (get 8 9)); On 0 (TDead (fun c => c =? 9)) ].
Example C09_nonvacuous :
  possible (sys_init ex_ks) (map c_empty ex_ks) (ex_h3 ++ [On 1 (TODead (fun c => c =? 9))]) /\
  match srun (sys_init ex_ks) ex_h3 with
  | Some s =>
    read_all s = Some
      [ Flat KChange [(Some [47; 97; 98; 99; 100; 101; 102; 103; 104; 105], [0; 0; 1; 5; 0; 0; 9; 0])];
        Nest [([47; 97], 1, [[0; 4; 5; 1; 0; 0; 7; 0]; [0; 8; 5; 2; 0; 0; 9; 0]]);
              ([47; 97; 47; 98], 1, [[0; 5; 5; 2; 0; 0; 7; 0]])];
        Flat KNotif [(Some [47], [6; 5; 0; 0; 7; 0])] ] /\
    match sstep s (On 1 (TODead (fun c => c =? 9))) with
    | Some s' => match read_all s' with
                 | Some cs => nth_error cs 1 = Some (Nest [([47; 97], 1, [[0; 8; 5; 2; 0; 0; 9; 0]])])
                 | None => False
                 end
    | None => False
    end
  | None => False
  end.
Proof. split; [unfold ex_h3, ex_h, ex_ks; cbn [app]; possible_tac|]. vm_compute. repeat split. Qed.

(** * What does not hold *)

(** Changing the xpath of a change subscription from none to none: sr_shmrealloc() is called with
    both sizes 0 and its assertion of the new offset (src/common.c 1824-1914) fails; this is why
    [top_ok] excludes it. *)
Example C09_modify_none_refuted :
  exists h, possible (sys_init [Some KChange]) [Flat KChange []] h /\
            srun (sys_init [Some KChange]) (h ++ [On 0 (TMod 1 None)]) = None.
Proof. exists [On 0 (TAdd None (chg 1 9))]. split; [possible_tac|]. vm_compute. reflexivity. Qed.

(** sr_shmext_oper_get_sub_add() interrupted by a crash after the new entry was filled but before
    its first subscription was allocated, src/shm_ext.c 887-911: the entry stays without
    subscriptions and every later call loops forever at it (src/shm_ext.c 856-859). *)
Definition oper_add_crash (m : mem) (t : tbl) (path : str) (ty : N) : option (mem * tbl) :=
  do p <- opos_loop (N.to_nat (t_cnt t)) m t path 0;
  do r <- shmrealloc_add m (t_off t) (t_cnt t) osz (Some (fst p)) (strshmlen path);
  let '(m, off, cnt, a, ao) := r in
  do m <- wr m ao (path ++ [0]);
  do m <- wr64 m a ao;
  do m <- wr32 m (a + 8) ty;
  do m <- wr64 m (a + 16) 0;
  do m <- wr32 m (a + 24) 0;
  Some (m, mktbl off cnt).
Theorem C09_oper_add_after_crash_refuted : forall path ty opts ws,
  match oper_add_crash ext_open (mktbl 0 0) [47; 97] 1 with
  | Some (m, t) => oper_add m t path ty opts ws = None
  | None => False
  end.
Proof.
  intros path ty opts ws. destruct (oper_add_crash ext_open (mktbl 0 0) [47; 97] 1) as [[m t]|] eqn:E; [|vm_compute in E; discriminate].
  assert (Q : okids m t 0 = Some (mktbl 0 0) /\ t_cnt t = 1).
  { assert (G : match oper_add_crash ext_open (mktbl 0 0) [47; 97] 1 with Some (m, t) => okids m t 0 = Some (mktbl 0 0) /\ t_cnt t = 1 | None => False end) by (vm_compute; repeat split).
    rewrite E in G. exact G. }
  destruct Q as (Q1 & Q2). unfold oper_add. rewrite Q2. change (N.to_nat 1) with 1%nat. cbn [opos_loop]. rewrite Q1. reflexivity.
Qed.
Print Assumptions C09_oper_add_after_crash_refuted.
