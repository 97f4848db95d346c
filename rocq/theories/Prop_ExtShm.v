(** C07, C08: the memory of subscriptions (ext SHM) and its allocator, src/common.c 1443-1963. *)
From Coq Require Import List NArith Lia Bool.
From Verif Require Import Base EvData ExtShm ExtShmSpec ExtShmAlloc ExtShmRealloc SubTab SubTabSpec SubSys SubSysSpec SubSysProofs.
Import ListNotations.
Open Scope N_scope.

(** * C07: no corruption *)

(** Any history of subscribing, unsubscribing, changing and removing dead subscriptions, on any
    number of tables: no access outside of the segment, no failed assertion and no endless loop
    happens, the blocks found by following the offsets of all the tables do not share a byte with
    each other, the free holes or the header. *)
Theorem C07_no_shared_byte : forall ks h, possible (sys_init ks) (map c_empty ks) h ->
  exists s hs bs, srun (sys_init ks) h = Some s /\
    holes (s_mem s) hs /\ mapo (tab_blocks (s_mem s)) (s_tabs s) = Some bs /\
    forall b, (cov b [(0, 8)%N] + cov b hs + cov b (concat bs) <= 1)%nat.
Proof. exact no_shared_byte. Qed.
Print Assumptions C07_no_shared_byte.

(** One allocation of any number of items of any size with a dynamic attribute of any size: every
    byte of the other live blocks and of the items is kept. *)
Theorem C07_add_keeps_bytes : forall m hs live aoff count isz idx dyn,
  let i := match idx with Some i => i | None => count end in
  let cur := shm_size (count * isz) in
  let new := shm_size ((count + 1) * isz) in
  well m hs (blk aoff cur ++ live) -> (aoff = 0 <-> count = 0) -> isz <> 0 -> i <= count ->
  msize m + new + shm_size dyn < 2147483648 ->
  exists m' hs' no ao, shmrealloc_add m aoff count isz idx dyn = Some (m', no, count + 1, no + i * isz, ao) /\
    well m' hs' ((no, new) :: blk ao (shm_size dyn) ++ live) /\ msize m' <= msize m + new + shm_size dyn /\
    (dyn <> 0 -> ao <> 0) /\ (dyn = 0 -> ao = 0) /\
    (forall b, (1 <= cov b live)%nat -> mb m' b = mb m b) /\
    (forall j, j < i * isz -> mb m' (no + j) = mb m (aoff + j)) /\
    (forall j, i * isz <= j -> j < count * isz -> mb m' (no + isz + j) = mb m (aoff + j)).
Proof. exact shmrealloc_add_spec. Qed.
Print Assumptions C07_add_keeps_bytes.

(** Enlarging or shrinking of an attribute: every byte of the other live blocks is kept (its own
    bytes are written again by the caller). *)
Theorem C07_realloc_keeps_bytes : forall m hs live aoff cs ns,
  let cur := shm_size cs in
  let new := shm_size ns in
  well m hs (blk aoff cur ++ live) -> (aoff = 0 <-> cs = 0) -> (cs <> 0 \/ ns <> 0) ->
  msize m + new < 2147483648 ->
  exists m' hs' no, shmrealloc m aoff cs ns = Some (m', no) /\
    well m' hs' (blk no new ++ live) /\ msize m' <= msize m + new /\ no <> 0 /\
    (forall b, (1 <= cov b live)%nat -> mb m' b = mb m b).
Proof. exact shmrealloc_spec. Qed.
Print Assumptions C07_realloc_keeps_bytes.

(** Removal of an item with its attribute. *)
Theorem C07_del_keeps_bytes : forall m hs live aoff count isz idx dsz doff,
  let cur := shm_size (count * isz) in
  let new := shm_size ((count - 1) * isz) in
  well m hs ((aoff, cur) :: blk doff dsz ++ live) -> count <> 0 -> isz <> 0 -> idx < count ->
  dsz mod 8 = 0 -> (dsz = 0 <-> doff = 0) ->
  exists m' hs', shmrealloc_del m aoff count isz idx dsz doff = Some (m', if count =? 1 then 0 else aoff, count - 1) /\
    well m' hs' (blk aoff new ++ live) /\ msize m' = msize m /\
    (forall b, (1 <= cov b live)%nat -> mb m' b = mb m b) /\
    (forall j, j < idx * isz -> j < (count - 1) * isz -> mb m' (aoff + j) = mb m (aoff + j)) /\
    (forall j, idx * isz <= j -> j < (count - 1) * isz -> mb m' (aoff + j) = mb m (aoff + isz + j)).
Proof. exact shmrealloc_del_spec. Qed.
Print Assumptions C07_del_keeps_bytes.

(** * C08: no leak *)

(** After any history every byte of the segment belongs to the header, to a recorded hole or to a
    block of a table. *)
Theorem C08_every_byte_accounted : forall ks h, possible (sys_init ks) (map c_empty ks) h ->
  exists s hs bs, srun (sys_init ks) h = Some s /\
    holes (s_mem s) hs /\ mapo (tab_blocks (s_mem s)) (s_tabs s) = Some bs /\
    forall b, b < msize (s_mem s) -> (1 <= cov b ((0, 8)%N :: hs ++ concat bs))%nat.
Proof. exact every_byte. Qed.
Print Assumptions C08_every_byte_accounted.

(** The size of the segment is exactly the header, the holes and what the subscriptions need. *)
Theorem C08_size_exact : forall ks h, possible (sys_init ks) (map c_empty ks) h ->
  exists s hs, srun (sys_init ks) h = Some s /\ holes (s_mem s) hs /\
    msize (s_mem s) = 8 + sum (map snd hs) + sum (map c_bytes (fold_left lstep h (map c_empty ks))).
Proof. exact size_exact. Qed.
Print Assumptions C08_size_exact.

(** After everything was removed, the rest of the segment is one hole (or empty), and giving the
    lock back truncates it to the initial size. *)
Theorem C08_all_removed : forall ks h, possible (sys_init ks) (map c_empty ks) h ->
  fold_left lstep h (map c_empty ks) = map c_empty ks ->
  exists s m', srun (sys_init ks) h = Some s /\
    (msize (s_mem s) = 8 /\ holes (s_mem s) [] \/ holes (s_mem s) [(8, msize (s_mem s) - 8)]) /\
    remap_unlock (s_mem s) = Some m' /\ msize m' = msize ext_open.
Proof. exact all_removed. Qed.
Print Assumptions C08_all_removed.

(** Holes are reused: the segment grows for a new block only if every hole is too small. *)
Theorem C08_holes_reused : forall E m hs live size,
  wellE E m hs live -> size mod 8 = 0 -> size <> 0 -> E + size < 2147483648 ->
  exists h m' hs' o E', hole_find m 0 size = Some h /\ place m h size E = Some (m', o, E') /\
    msize m' = msize m /\ wellE E' m' hs' ((o, size) :: live) /\ E <= E' /\ E' <= E + size /\
    (forall b, (1 <= cov b live)%nat -> mb m' b = mb m b) /\
    (E' <> E -> forall h s, In (h, s) hs -> s < size).
Proof. exact place_spec. Qed.
Print Assumptions C08_holes_reused.

(** A history with holes in the middle, an enlarged xpath and a nested table. *)
Definition ex_ks : list tkind := [Some KChange; None; Some KNotif].
Definition chg id cid : words := [0; 0; id; 5; 0; 0; cid; 0].
Definition get id cid (p : N) : words := [0; id; 5; p; 0; 0; cid; 0].
Definition ex_h : list sop :=
  [ On 0 (TAdd (Some [47; 97]) (chg 1 9)); On 1 (TOAdd [47; 97; 47; 98] 1 32 (get 2 9)); On 0 (TAdd None (chg 3 7));
    On 1 (TOAdd [47; 97] 1 0 (get 4 7)); On 1 (TOAdd [47; 97; 47; 98] 1 32 (get 5 7)); On 2 (TAdd (Some [47]) [6; 5; 0; 0; 7; 0]);
    On 0 (TMod 1 (Some [47; 97; 98; 99; 100; 101; 102; 103; 104; 105])); On 0 (TDel 3); On 1 (TODel 2); Unlock ].
Ltac all_tac := unfold chg, get; repeat (apply Forall_cons; [first [assumption|reflexivity|split; reflexivity]|]); apply Forall_nil.
Ltac top_ok_tac :=
  cbn [top_ok]; first
  [ exact I | all_tac
  | split; [cbn [fst]; first [exact I|all_tac]|split; [reflexivity|all_tac]]
  | split; [all_tac|split; [reflexivity|intros p Hp; split; [reflexivity|all_tac]]] ].
Ltac possible_tac :=
  repeat (apply possible_step; [first [exact I | eexists; split; [reflexivity|split; [top_ok_tac|vm_compute; reflexivity]]]|]); exact I.
Fixpoint hlist (n : nat) (m : mem) (o : N) : list block :=
  match n with
  | O => []
  | S n' => if o =? 0 then [] else
            match rd32 m o, rd32 m (o + 4) with Some s, Some n => (o, s) :: hlist n' m n | _, _ => [] end
  end.
Definition free_list (m : mem) : list block := match rd32 m 0 with Some o => hlist 10 m o | None => [] end.
Example C07_nonvacuous :
  possible (sys_init ex_ks) (map c_empty ex_ks) ex_h /\
  match srun (sys_init ex_ks) ex_h with
  | Some s => msize (s_mem s) = 304 /\ free_list (s_mem s) = [(48, 8); (120, 8); (168, 40)] /\
              mapo (tab_blocks (s_mem s)) (s_tabs s) =
              Some [ [(128, 40); (104, 16)]; [(208, 64); (8, 8); (16, 32); (88, 8); (272, 32)]; [(56, 32); (96, 8)] ]
  | None => False
  end.
Proof. split; [unfold ex_h, ex_ks; possible_tac|]. vm_compute. repeat split. Qed.

Definition ex_h2 : list sop :=
  ex_h ++ [ On 1 (TODead (fun c => c =? 9)); On 0 (TDel 1); On 2 (TDead (fun c => c =? 9)) ].
Example C08_nonvacuous :
  possible (sys_init ex_ks) (map c_empty ex_ks) ex_h2 /\
  fold_left lstep ex_h2 (map c_empty ex_ks) = map c_empty ex_ks /\
  match srun (sys_init ex_ks) ex_h2, srun (sys_init ex_ks) (ex_h2 ++ [On 0 (TAdd (Some [47]) (chg 8 9))]), srun (sys_init ex_ks) (ex_h2 ++ [Unlock]) with
  | Some s, Some s2, Some s3 =>
    msize (s_mem s) = 304 /\ free_list (s_mem s) = [(8, 296)] /\
    msize (s_mem s2) = 304 /\ free_list (s_mem s2) = [(56, 248)] /\
    msize (s_mem s3) = 8
  | _, _, _ => False
  end.
Proof. split; [unfold ex_h2, ex_h, ex_ks; cbn [app]; possible_tac|]. vm_compute. repeat split. Qed.
