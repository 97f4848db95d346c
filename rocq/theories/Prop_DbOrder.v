(** * Property C54: lists ordered by the user keep their order in databases *)

From Coq Require Import List Arith Bool NArith ZArith Lia Permutation.
Import ListNotations.
From Verif Require Import DbOrder DbOrderSpec DbOrderProofs.

(** For all histories of changes of lists ordered by the user that make sense
    (nothing is created twice, predecessors exist) the data loaded later have the
    order the user asked for, whatever order the database returns the instances
    in: [data] is any result of sorting them, [t] any order of the nodes in the
    tree before.  Missing for the whole property: lists of the same parent with
    equal names in different modules, values with an apostrophe in leaf-lists,
    2^21 or more changes of a database, and processes that die in the middle of a
    change (refuted below). *)
Theorem C54_order_partial pl mp nm ds (s : lists) :
  (forall x, mp x = x) ->
  (forall i j : nat, nm i = nm j :> nat -> i = j) ->
  diffs_mean ds (fun _ => []) s ->
  (N.of_nat (length (concat ds)) < 2097152)%N ->
  exists d, stores mp nm pl empty_db ds = Some d /\
    forall i,
      (exists data, Permutation data (l_els (d i)) /\ ordered data) /\
      forall data t, Permutation data (l_els (d i)) -> ordered data ->
        Permutation t (map e_key data) -> order_list data t = s i.
Proof.
  intros Hm Hn Dm Len.
  assert (Gp : gap = 1024%N) by reflexivity.
  destruct (stores_inv mp nm pl Hm Hn ds (fun _ => []) s Dm empty_db 0%N) as (d & St & Iv).
  - intros j. apply inv_empty.
  - unfold count, two64. change (2 ^ 64)%N with 18446744073709551616%N. lia.
  - exists d. split; [exact St|].
    assert (Bs : (0 + gap * N.of_nat (count ds) < 2147483648)%N) by (unfold count; lia).
    intros i. split.
    + exact (inv_ordered _ _ _ (Iv i) Bs).
    + intros data t P O Pt. exact (inv_read _ _ _ data t (Iv i) Bs P O Pt).
Qed.
Print Assumptions C54_order_partial.

(** Deleting a node with children from a Mongo database deletes exactly the node
    and what is below it, if there is no node beside it whose name starts with
    its name.  Missing: such names (refuted below) and predicates with a slash. *)
Theorem C54_subtree_partial p docs q :
  p <> [] -> Forall (fun s => ~ In slash s) p ->
  Forall (Forall (fun s => ~ In slash s)) docs ->
  (forall r, In r docs -> ~ longer_name p r) ->
  (In q (delete_many p docs) <-> In q docs /\ ~ below p q).
Proof.
  intros Ne Fp Fd Nl. unfold delete_many. rewrite filter_In, negb_true_iff, <- not_true_iff_false.
  split; intros [I H]; (split; [exact I|]); intros B; apply H.
  - now apply starts_below.
  - rewrite Forall_forall in Fd.
    destruct (starts_path p q Fp (Fd q I) Ne B) as (p0 & s & t & r & E1 & E2).
    destruct t as [|c t].
    + rewrite app_nil_r in E2. exists r. now rewrite E1, E2, <- app_assoc.
    + exfalso. apply (Nl q I). exists p0, s, (c :: t), r. split; [exact E1|]. now split.
Qed.
Print Assumptions C54_subtree_partial.

(** Non-vacuity: inserting, moving and deleting in two lists, with numbers
    between which there is no place left in the first. *)
Definition ex_halves : list (list (nat * op)) :=
  map (fun k => [(0, Create k (Some 1))]) (seq 3 12).

Definition ex_diffs : list (list (nat * op)) :=
  [[(0, Create 1 None); (0, Create 2 (Some 1)); (1, Create 7 None); (1, Create 8 None)]] ++
  ex_halves ++ [[(0, Move 2 (Some 3) None); (0, Delete 1 (Some 2)); (1, Move 7 (Some 8) None)]].

Ltac one H l := apply (H _ _ l [8; 7]);
  [eexists; split; [reflexivity|]; split; [reflexivity|]; cbn; lia | reflexivity |].

Example C54_nonvacuous :
  forall pl, exists d s,
    (N.of_nat (length (concat ex_diffs)) < 2097152)%N /\
    stores (fun x => x) (fun i => i) pl empty_db ex_diffs = Some d /\
    map e_key (l_els (d 0)) <> s 0 /\
    s 0 = [2; 14; 13; 12; 11; 10; 9; 8; 7; 6; 5; 4; 3] /\ s 1 = [7; 8] /\
    diffs_mean ex_diffs (fun _ => []) s.
Proof.
  intros pl. eexists. exists (fun j => match j with
    | 0 => [2; 14; 13; 12; 11; 10; 9; 8; 7; 6; 5; 4; 3] | 1 => [7; 8] | _ => [] end).
  split; [vm_compute; reflexivity|].
  split; [destruct pl; vm_compute; reflexivity|].
  split; [destruct pl; vm_compute; discriminate|]. split; [reflexivity|]. split; [reflexivity|].
  unfold ex_diffs, ex_halves. cbn [seq map List.app].
  assert (St : forall l0 l1 l0' l1' ds s', 
    (exists k, l0 = 1 :: k /\ l0' = 1 :: hd 0 (tl l0') :: k /\ ~ In (hd 0 (tl l0')) l0) -> l1 = l1' ->
    diffs_mean ds (fun j => match j with 0 => l0' | 1 => l1' | _ => [] end) s' ->
    diffs_mean ([(0, Create (hd 0 (tl l0')) (Some 1))] :: ds)
      (fun j => match j with 0 => l0 | 1 => l1 | _ => [] end) s').
  { intros l0 l1 l0' l1' ds s' (k & E1 & E2 & Nn) <- H.
    apply ds_cons with (s1 := fun j => match j with 0 => l0' | 1 => l1 | _ => [] end); [|exact H].
    apply dm_cons with (s1 := fun j => match j with 0 => l0' | 1 => l1 | _ => [] end).
    - cbn [means after]. split; [exact Nn|]. exists [], k. now split.
    - intros [|j] Nj; [congruence | reflexivity].
    - now constructor. }
  apply ds_cons with (s1 := fun j => match j with 0 => [1; 2] | 1 => [8; 7] | _ => [] end).
  { apply dm_cons with (s1 := fun j => match j with 0 => [1] | _ => [] end).
    - cbn. auto.
    - intros [|j] Nj; [congruence | reflexivity].
    - apply dm_cons with (s1 := fun j => match j with 0 => [1; 2] | _ => [] end).
      + cbn [means after]. split; [cbn; intros [Q | []]; discriminate|]. now exists [], [].
      + intros [|j] Nj; [congruence | reflexivity].
      + apply dm_cons with (s1 := fun j => match j with 0 => [1; 2] | 1 => [7] | _ => [] end).
        * cbn. auto.
        * intros [|[|j]] Nj; [reflexivity | congruence | reflexivity].
        * apply dm_cons with (s1 := fun j => match j with 0 => [1; 2] | 1 => [8; 7] | _ => [] end).
          { cbn [means after]. split; [cbn; intros [Q | []]; discriminate | reflexivity]. }
          { intros [|[|j]] Nj; [reflexivity | congruence | reflexivity]. }
          { now constructor. } }
  one St [1; 3; 2]. one St [1; 4; 3; 2]. one St [1; 5; 4; 3; 2]. one St [1; 6; 5; 4; 3; 2]. one St [1; 7; 6; 5; 4; 3; 2].
  one St [1; 8; 7; 6; 5; 4; 3; 2]. one St [1; 9; 8; 7; 6; 5; 4; 3; 2]. one St [1; 10; 9; 8; 7; 6; 5; 4; 3; 2].
  one St [1; 11; 10; 9; 8; 7; 6; 5; 4; 3; 2]. one St [1; 12; 11; 10; 9; 8; 7; 6; 5; 4; 3; 2].
  one St [1; 13; 12; 11; 10; 9; 8; 7; 6; 5; 4; 3; 2]. one St [1; 14; 13; 12; 11; 10; 9; 8; 7; 6; 5; 4; 3; 2].
  eapply ds_cons; [|constructor; reflexivity].
  apply dm_cons with (s1 := fun j => match j with 0 => [2; 1; 14; 13; 12; 11; 10; 9; 8; 7; 6; 5; 4; 3] | 1 => [8; 7] | _ => [] end).
  - cbn [means]. exists [1; 14; 13; 12; 11; 10; 9; 8; 7; 6; 5; 4; 3]. split; [|reflexivity].
    cbn [taken]. now exists [1; 14; 13; 12; 11; 10; 9; 8; 7; 6; 5; 4], [].
  - intros [|j] Nj; [congruence | reflexivity].
  - apply dm_cons with (s1 := fun j => match j with 0 => [2; 14; 13; 12; 11; 10; 9; 8; 7; 6; 5; 4; 3] | 1 => [8; 7] | _ => [] end).
    + cbn [means taken]. now exists [], [14; 13; 12; 11; 10; 9; 8; 7; 6; 5; 4; 3].
    + intros [|j] Nj; [congruence | reflexivity].
    + eapply dm_cons; [| |constructor; intros j; reflexivity].
      * exists [8]. split; [now exists [], [] | reflexivity].
      * intros [|[|j]] Nj; [reflexivity | congruence | reflexivity].
Qed.

Lemma nat_of_N_exists m : exists n, N.of_nat n = m.
Proof. exists (N.to_nat m). apply N2Nat.id. Qed.

(** F162: the comparison of the numbers of two instances subtracts them as
    [int64_t] and returns the difference as [int].  The numbers grow by 1024 with
    each instance added at the end and never become smaller, so after 2^21
    additions (with deletions in between the list may have one instance all the
    time) the difference of two instances is 2^31 + 1024 and its sign is wrong:
    the two instances are read in the reversed order by all readers. *)
Theorem C54_growth_refuted pl : exists ds s d,
  diffs_mean ds (fun _ => []) s /\ stores (fun x => x) (fun i => i) pl empty_db ds = Some d /\
  s 0 = [1; 2] /\
  forall data t, Permutation data (l_els (d 0)) -> ordered data ->
    Permutation t (map e_key data) -> order_list data t = [2; 1].
Proof.
  destruct (nat_of_N_exists 2097152) as (n & En).
  set (last := [[(0, Create 2 (Some 1))]]).
  set (d1 := put empty_db 0 (L [E 1 gap None] (Some gap))).
  assert (Gp : gap = 1024%N) by reflexivity.
  destruct (churn_stores pl (fun i => i) n d1 gap last) as (d2 & S2 & D2).
  { unfold d1. apply put_same. }
  { rewrite Gp. lia. }
  { rewrite En. vm_compute. reflexivity. }
  rewrite En in D2.
  destruct (churn_step pl (fun i => i) d2 (gap + gap * 2097152)%N D2) as (d3 & S3 & D3).
  { rewrite Gp. lia. }
  { vm_compute. reflexivity. }
  exists ([(0, Create 1 None)] :: churn n last), (fun j => if j =? 0 then [1; 2] else []), d3.
  split; [|split; [|split; [reflexivity|]]].
  - apply ds_cons with (s1 := fun j => if j =? 0 then [1] else []).
    + apply dm_cons with (s1 := fun j => if j =? 0 then [1] else []).
      * cbn. auto.
      * intros [|j] Nj; [congruence | reflexivity].
      * now constructor.
    + apply churn_means; [reflexivity|]. intros s1 E1 O1. unfold last.
      apply ds_cons with (s1 := fun j => if j =? 0 then [1; 2] else []).
      2:{ now constructor. }
      apply dm_cons with (s1 := fun j => if j =? 0 then [1; 2] else []).
      * rewrite E1. cbn [means after Nat.eqb]. split; [cbn; intros [Q | []]; discriminate|]. now exists [], [].
      * intros j Nj. rewrite (O1 j Nj). apply Nat.eqb_neq in Nj. now rewrite Nj.
      * now constructor.
  - assert (S1 : stores (fun x => x) (fun i => i) pl empty_db ([(0, Create 1 None)] :: churn n last) =
                 stores (fun x => x) (fun i => i) pl d1 (churn n last)) by (now destruct pl).
    rewrite S1, S2. unfold last. rewrite S3. reflexivity.
  - intros data t P O Pt. rewrite D3 in P. cbn [l_els] in P.
    set (e2 := E 2 (gap + gap * 2097152 + gap) (Some 1)) in *. set (e1 := E 1 gap None) in *.
    assert (Bad : ~ (comp e1 e2 <= 0)%Z) by (vm_compute; intros Q; now apply Q).
    apply Permutation_sym in P.
    assert (Len := Permutation_length P).
    destruct data as [|x [|y [|z r]]]; try discriminate Len.
    apply Permutation_length_2_inv in P. destruct P as [Q | Q]; injection Q as -> ->.
    + destruct O as [O _]. contradiction.
    + cbn [map] in Pt. assert (Pt' := Permutation_sym Pt).
      apply Permutation_length_2_inv in Pt'. destruct Pt' as [-> | ->]; reflexivity.
Qed.
Print Assumptions C54_growth_refuted.

(** a database, read in the order of the numbers *)
Definition may_read (u : ulist) (l : list key) : Prop :=
  exists data t, Permutation data (l_els u) /\ ordered data /\ Permutation t (map e_key data) /\
    order_list data t = l.

Ltac diff f := apply ds_cons with (s1 := f);
  [apply dm_cons with (s1 := f); [| |now constructor] |].
Ltac rest_same := let j := fresh in let N := fresh in
  intros [|[|j]] N; try congruence; reflexivity.

(** F163: the predicate of a predecessor in a leaf-list is made of the value in
    the metadata by putting it between apostrophes, whatever is in it, whereas
    the instances are stored with the predicates of [lyd_path()], which uses
    quotation marks if the value has an apostrophe (here the value 1, the
    predicate made of it is 101).  So the predecessor is not found: the Redis
    plugin crashes (NULL in [strtoull]) and the Mongo plugin takes the number 0
    for it and may put the new instance in front of the predecessor. *)
Theorem C54_apostrophe_refuted :
  let mp := fun x => if x =? 1 then 101 else x in
  let ds := [[(0, Create 1 None)]; [(0, Create 2 (Some 1))]; [(0, Create 3 (Some 1))]] in
  diffs_mean ds (fun _ => []) (fun j => match j with 0 => [1; 3; 2] | _ => [] end) /\
  stores mp (fun i => i) Redis empty_db ds = None /\
  exists d, stores mp (fun i => i) Mongo empty_db ds = Some d /\ may_read (d 0) [3; 1; 2].
Proof.
  cbv zeta. split; [|split; [reflexivity|]].
  - diff (fun j : nat => match j with 0 => [1] | _ => [] end); [cbn; auto | rest_same |].
    diff (fun j : nat => match j with 0 => [1; 2] | _ => [] end).
    + cbn [means after]. split; [cbn; lia|]. now exists [], [].
    + rest_same.
    + diff (fun j : nat => match j with 0 => [1; 3; 2] | _ => [] end); [| rest_same | now constructor].
      cbn [means after]. split; [cbn; lia|]. now exists [], [2].
  - eexists. split; [reflexivity|].
    exists [E 3 1024 (Some 101); E 1 1024 None; E 2 2048 (Some 3)], [3; 1; 2].
    split; [|split; [vm_compute; repeat split; discriminate | split; [apply Permutation_refl | reflexivity]]].
    eapply Permutation_trans; [apply Permutation_cons_append|]. apply Permutation_refl.
Qed.
Print Assumptions C54_apostrophe_refuted.

(** F164: the maximum number is kept in a variable while the siblings of the
    diff have the same name.  Two lists with the same name of different modules
    (one of them augments the parent) are two lists, but share the variable if
    they are next to each other: an instance added at the end of the second list
    gets a number based on the maximum of the first one, and may be read before
    the instance it was put behind. *)
Theorem C54_equal_names_refuted pl :
  let ds := [[(0, Create 1 None)];
             [(1, Create 1 None); (1, Create 2 (Some 1)); (1, Create 3 (Some 2))];
             [(0, Create 2 (Some 1)); (1, Create 4 (Some 3))]] in
  diffs_mean ds (fun _ => []) (fun j => match j with 0 => [1; 2] | 1 => [1; 2; 3; 4] | _ => [] end) /\
  exists d, stores (fun x => x) (fun _ => 0) pl empty_db ds = Some d /\ may_read (d 1) [1; 2; 4; 3].
Proof.
  cbv zeta. split.
  - diff (fun j : nat => match j with 0 => [1] | _ => [] end); [cbn; auto | rest_same |].
    apply ds_cons with (s1 := fun j => match j with 0 => [1] | 1 => [1; 2; 3] | _ => [] end).
    + apply dm_cons with (s1 := fun j => match j with 0 => [1] | 1 => [1] | _ => [] end); [cbn; auto | rest_same |].
      apply dm_cons with (s1 := fun j => match j with 0 => [1] | 1 => [1; 2] | _ => [] end); [| rest_same |].
      { cbn [means after]. split; [cbn; lia|]. now exists [], []. }
      apply dm_cons with (s1 := fun j => match j with 0 => [1] | 1 => [1; 2; 3] | _ => [] end);
        [| rest_same | now constructor].
      cbn [means after]. split; [cbn; lia|]. now exists [1], [].
    + eapply ds_cons; [|constructor; intros j; reflexivity].
      apply dm_cons with (s1 := fun j => match j with 0 => [1; 2] | 1 => [1; 2; 3] | _ => [] end); [| rest_same |].
      { cbn [means after]. split; [cbn; lia|]. now exists [], []. }
      eapply dm_cons; [| |constructor; intros j; reflexivity]; [| rest_same].
      cbn [means after]. split; [cbn; lia|]. now exists [1; 2], [].
  - eexists. split; [destruct pl; reflexivity|].
    exists [E 1 1024 None; E 2 2048 (Some 1); E 4 3072 (Some 3); E 3 3072 (Some 2)], [1; 2; 3; 4].
    split; [|split; [vm_compute; repeat split; discriminate | split; [|reflexivity]]].
    + destruct pl; vm_compute; do 2 constructor; apply perm_swap.
    + cbn [map e_key]. do 2 constructor. apply perm_swap.
Qed.
Print Assumptions C54_equal_names_refuted.

(** F165: an instance is moved by deleting and creating it, and inserted by
    changing the predecessor of the next one first, with separate commands of
    the database.  A process that dies in between leaves a database without the
    instance, or one in which no instance has the predecessor any more, so that
    an instance inserted later at the same place goes to the end of the list. *)
Theorem C54_death_refuted pl :
  exists u, apply (fun x => x) pl (L [] None) 0 (Create 1 None) = Some (u, 0%N) /\
  exists u2 m, apply (fun x => x) pl u 0 (Create 2 (Some 1)) = Some (u2, m) /\
  (* dies in moving 2 to the front *)
  map e_key (l_els (delete pl u2 2 (Some 1))) = [1] /\
  (* dies in inserting 3 behind 1; then 4 is inserted behind 1 *)
  exists u3 o m3, create_prep pl (set_maxord pl u2 m) 0 3 (Some 1) = Some (u3, o, m3) /\
  exists u4 m4, create pl u3 0 4 (Some 1) = Some (u4, m4) /\ may_read u4 [1; 2; 4].
Proof.
  eexists. split; [destruct pl; reflexivity|].
  eexists. eexists. split; [destruct pl; reflexivity|].
  split; [destruct pl; reflexivity|].
  eexists. eexists. eexists. split; [destruct pl; reflexivity|].
  eexists. eexists. split; [destruct pl; reflexivity|].
  exists [E 1 1024 None; E 2 2048 (Some 3); E 4 3072 (Some 1)], [1; 2; 4].
  split; [destruct pl; vm_compute; apply Permutation_refl|].
  split; [vm_compute; repeat split; discriminate | split; [apply Permutation_refl | reflexivity]].
Qed.
Print Assumptions C54_death_refuted.

(** F166: the Mongo plugin deletes a node with children by deleting all
    documents whose path starts with the path of the node.  That is also the
    case for a sibling with a longer name: deleting the container /m:a deletes
    /m:ab and everything in it. *)
Theorem C54_longer_name_refuted :
  let ma := [109; 58; 97] in let mab := [109; 58; 97; 98] in let mx := [109; 58; 120] in
  ~ below [ma] [mab; mx] /\ In [mab; mx] [[ma]; [ma; mx]; [mab]; [mab; mx]] /\
  delete_many [ma] [[ma]; [ma; mx]; [mab]; [mab; mx]] = [].
Proof.
  cbv zeta. split; [|split; [cbn; auto | reflexivity]].
  intros (r & Q). discriminate Q.
Qed.
Print Assumptions C54_longer_name_refuted.
