(** Subscription tables in the ext SHM: src/shm_ext.c 511-1725 on top of the allocator of ExtShm.v.

    A table is the offset and the number of its items, both in the mod SHM.  Its items are arrays
    of structures in the ext SHM, layouts src/shm_types.h 207-287 on a 64-bit platform (off_t,
    ATOMIC_T and the padding after it have 8 bytes).  After the xpath offset of 8 bytes an item
    is treated as an array of 32-bit words; padding is a word like the others.
    Creating and removing of the subscription SHM files, event pipe files, logging and the locks
    around the operations are not modelled here.  [None] is an access outside of the segment, a
    failed assert() or an infinite loop. *)
From Coq Require Import List NArith ZArith Bool.
From Verif Require Import Base EvData ExtShm.
Import ListNotations.
Open Scope N_scope.

Record tbl := mktbl { t_off : N; t_cnt : N }.

Notation str := (list N).
Notation words := (list N).

(** off_t in the memory. *)
Definition rd64 (m : mem) (o : N) : option N :=
  do lo <- rd32 m o; do hi <- rd32 m (o + 4); Some (lo + two32 * hi).
Definition wr64 (m : mem) (o v : N) : option mem := wr m o (le32 v ++ le32 (v / two32)).

(** A string in the memory: strlen() and its use as [const char *]. *)
Fixpoint str_loop (fuel : nat) (m : mem) (o : N) : option str :=
  match fuel with
  | O => None
  | S f => if msize m <=? o then None
           else if mb m o =? 0 then Some []
           else do r <- str_loop f m (o + 1); Some (mb m o :: r)
  end.
Definition mstr (m : mem) (o : N) : option str := str_loop (N.to_nat (msize m)) m o.

(** sr_strshmlen(), src/common.c 1651-1656. *)
Definition strshmlen (s : str) : N := shm_size (nlen s + 1).

(** Kinds of tables with plain items and the indices of the words of an item.
    sr_mod_change_sub_t and sr_mod_rpc_sub_t: priority, opts, sub_id, evpipe_num, suspended (2), cid, pad;
    sr_mod_notif_sub_t: sub_id, evpipe_num, suspended (2), cid, pad;
    sr_mod_oper_poll_sub_t: opts, sub_id, evpipe_num, pad, suspended (2), cid, pad. *)
Inductive kind := KChange | KNotif | KPoll | KRpc.
Definition k_words (k : kind) : N := match k with KNotif => 6 | _ => 8 end.
Definition k_id (k : kind) : N := match k with KChange | KRpc => 2 | KNotif => 0 | KPoll => 1 end.
Definition k_cid (k : kind) : N := match k with KNotif => 4 | _ => 6 end.
Definition isz (k : kind) : N := 8 + 4 * k_words k.
Definition SR_SUBSCR_UPDATE : N := 16.
Definition SR_SUBSCR_OPER_MERGE : N := 32.
Definition SR_SUBSCR_OPER_POLL_DIFF : N := 128.

Definition word (ws : words) (i : N) : N := nth (N.to_nat i) ws 0.

(** The fields of an item with index [i]. *)
Definition item (k : kind) (t : tbl) (i : N) : N := t_off t + i * isz k.
Definition field (m : mem) (k : kind) (t : tbl) (i w : N) : option N := rd32 m (item k t i + 8 + 4 * w).

(** The first item with a field of the given value, e.g. src/shm_ext.c 694-704. *)
Fixpoint find_loop (n : nat) (m : mem) (k : kind) (t : tbl) (w v i : N) : option (option N) :=
  match n with
  | O => Some None
  | S n' => do x <- field m k t i w;
            if x =? v then Some (Some i) else find_loop n' m k t w v (i + 1)
  end.
Definition sub_find (m : mem) (k : kind) (t : tbl) (id : N) : option (option N) :=
  find_loop (N.to_nat (t_cnt t)) m k t (k_id k) id 0.

(** Filling of the new item, e.g. src/shm_ext.c 579-591. *)
Definition fill_item (m : mem) (a ao : N) (xpath : option str) (ws : words) : option mem :=
  do m <- match xpath with
          | Some s => do m <- wr m ao (s ++ [0]); wr64 m a ao
          | None => wr64 m a 0
          end;
  wr m (a + 8) (flat_map le32 ws).

(** The allocation and filling in sr_shmext_change_sub_add(), src/shm_ext.c 572-591,
    sr_shmext_notif_sub_add() 1313-1332, sr_shmext_oper_poll_sub_add() 1150-1167,
    sr_shmext_rpc_sub_add() 1557-1573. *)
Definition sub_add (m : mem) (k : kind) (t : tbl) (xpath : option str) (ws : words) : option (mem * tbl) :=
  do r <- shmrealloc_add m (t_off t) (t_cnt t) (isz k) None (match xpath with Some s => strshmlen s | None => 0 end);
  let '(m, off, cnt, a, ao) := r in
  do m <- fill_item m a ao xpath ws;
  Some (m, mktbl off cnt).

(** sr_shmext_change_sub_free(), src/shm_ext.c 683-712; the same for the other kinds (which have
    always an xpath): sr_shmext_oper_poll_sub_free() 1183-1203, sr_shmext_notif_sub_free(),
    sr_shmext_rpc_sub_free() 1618-1642. *)
Definition sub_free (m : mem) (k : kind) (t : tbl) (i : N) : option (mem * tbl) :=
  do xo <- rd64 m (item k t i);
  do dsz <- (if xo =? 0 then Some 0 else do s <- mstr m xo; Some (strshmlen s));
  do r <- shmrealloc_del m (t_off t) (t_cnt t) (isz k) i dsz xo;
  let '(m, off, cnt) := r in Some (m, mktbl off cnt).

(** sr_shmext_change_sub_del(), src/shm_ext.c 714-757; the same for the other kinds. *)
Definition sub_del (m : mem) (k : kind) (t : tbl) (id : N) : option (mem * tbl) :=
  do f <- sub_find m k t id;
  match f with None => Some (m, t) | Some i => sub_free m k t i end.

(** sr_shmext_change_sub_modify(), src/shm_ext.c 615-681 ([shm_sub] as if it were updated after a
    remap, see the finding about line 657).  An unknown ID is an internal error, nothing changes. *)
Definition sub_modify (m : mem) (k : kind) (t : tbl) (id : N) (xpath : option str) : option mem :=
  do f <- sub_find m k t id;
  match f with
  | None => Some m
  | Some i =>
    let a := item k t i in
    do xo <- rd64 m a;
    do cur <- (if xo =? 0 then Some 0 else do s <- mstr m xo; Some (nlen s + 1));
    let new := match xpath with Some s => nlen s + 1 | None => 0 end in
    do r <- shmrealloc m xo cur new;
    let '(m, no) := r in
    do m <- wr64 m a no;
    match xpath with
    | Some s => wr m no (s ++ [0])
    | None => wr64 m a 0
    end
  end.

(** sr_shmext_change_sub_remove_dead(), src/shm_ext.c 511-535; the same for the other kinds; for
    RPCs, src/shm_ext.c 1473-1508, subscriptions with CID 0 are skipped. *)
Fixpoint dead_loop (n : nat) (m : mem) (k : kind) (t : tbl) (alive : N -> bool) (i : N) : option (mem * tbl) :=
  match n with
  | O => Some (m, t)
  | S n' =>
    do c <- field m k t i (k_cid k);
    if alive c || (match k with KRpc => c =? 0 | _ => false end)
    then dead_loop n' m k t alive (i + 1)
    else do r <- sub_free m k t i; let '(m, t) := r in dead_loop n' m k t alive i
  end.
Definition remove_dead (m : mem) (k : kind) (t : tbl) (alive : N -> bool) : option (mem * tbl) :=
  dead_loop (N.to_nat (t_cnt t)) m k t alive 0.

(** * Operational get subscriptions: sr_mod_oper_get_sub_t (xpath, sub_type, xpath_subs at 16,
    xpath_sub_count at 24) with arrays of sr_mod_oper_get_xpath_sub_t (words opts, sub_id,
    evpipe_num, priority, suspended (2), cid, pad). *)
Definition osz : N := 32.
Definition kidsz : N := 32.
Definition kid_id : N := 1.
Definition kid_prio : N := 3.
Definition kid_cid : N := 6.

Definition oitem (t : tbl) (i : N) : N := t_off t + i * osz.
Definition okids (m : mem) (t : tbl) (i : N) : option tbl :=
  do o <- rd64 m (oitem t i + 16); do c <- rd32 m (oitem t i + 24); Some (mktbl o c).
Definition kid_field (m : mem) (kt : tbl) (j w : N) : option N := rd32 m (t_off kt + j * kidsz + 4 * w).

(** sr_xpath_len_no_predicates(), src/common.c 4716-4753; a failed assert() on a quote outside of
    predicates is not distinguished. *)
Fixpoint plen_loop (s : str) (len : N) (pred : Z) (quoted : N) : N :=
  match s with
  | [] => if negb (quoted =? 0) || negb (pred =? 0)%Z then 0 else len
  | c :: r =>
    if negb (quoted =? 0) then plen_loop r len pred (if c =? quoted then 0 else quoted)
    else if c =? 91 then plen_loop r len (pred + 1) 0
    else if c =? 93 then plen_loop r len (pred - 1) 0
    else if (c =? 39) || (c =? 34) then plen_loop r len pred c
    else plen_loop r (len + 1) pred 0
  end.
Definition plen (s : str) : N := plen_loop s 0 0 0.

Definition str_eqb (a b : str) : bool := if list_eq_dec N.eq_dec a b then true else false.

(** The search for the position in sr_shmext_oper_get_sub_add(), src/shm_ext.c 849-885: the index
    and whether the same xpath was found there.  An item without subscriptions makes the loop
    infinite (the [continue] without an increment). *)
Fixpoint opos_loop (n : nat) (m : mem) (t : tbl) (path : str) (i : N) : option (N * bool) :=
  match n with
  | O => Some (i, false)
  | S n' =>
    do kt <- okids m t i;
    if t_cnt kt =? 0 then None else
    do xo <- rd64 m (oitem t i);
    do x <- mstr m xo;
    if plen path <? plen x then Some (i, false)
    else if (plen x =? plen path) && str_eqb x path then Some (i, true)
    else opos_loop n' m t path (i + 1)
  end.

(** sr_shmext_oper_get_sub_add() after removing dead subscriptions, src/shm_ext.c 847-932: the
    priority is written into the new words.  The last result is whether it was refused. *)
Definition oper_add (m : mem) (t : tbl) (path : str) (ty : N) (opts : N) (ws : N -> words) : option (mem * tbl * bool) :=
  do p <- opos_loop (N.to_nat (t_cnt t)) m t path 0;
  let '(i, found) := p in
  if found && (N.land opts SR_SUBSCR_OPER_MERGE =? 0) then Some (m, t, true)
  else
    do r <- (if found then
               do kt <- okids m t i;
               do pr <- kid_field m kt (t_cnt kt - 1) kid_prio;
               Some (m, t, u32 (pr + 1))
             else
               do r <- shmrealloc_add m (t_off t) (t_cnt t) osz (Some i) (strshmlen path);
               let '(m, off, cnt, a, ao) := r in
               do m <- wr m ao (path ++ [0]);
               do m <- wr64 m a ao;
               do m <- wr32 m (a + 8) ty;
               do m <- wr64 m (a + 16) 0;
               do m <- wr32 m (a + 24) 0;
               Some (m, mktbl off cnt, 1));
    let '(m, t, prio) := r in
    do kt <- okids m t i;
    do r <- shmrealloc_add m (t_off kt) (t_cnt kt) kidsz None 0;
    let '(m, koff, kcnt, ka, _) := r in
    do m <- wr64 m (oitem t i + 16) koff;
    do m <- wr32 m (oitem t i + 24) kcnt;
    do m <- wr m ka (flat_map le32 (ws prio));
    Some (m, t, false).

(** sr_shmext_oper_get_sub_free(), src/shm_ext.c 942-994. *)
Definition oper_free (m : mem) (t : tbl) (i j : N) : option (mem * tbl) :=
  do kt <- okids m t i;
  do r <- shmrealloc_del m (t_off kt) (t_cnt kt) kidsz j 0 0;
  let '(m, koff, kcnt) := r in
  do m <- wr64 m (oitem t i + 16) koff;
  do m <- wr32 m (oitem t i + 24) kcnt;
  if kcnt =? 0 then
    do xo <- rd64 m (oitem t i);
    do s <- mstr m xo;
    do r <- shmrealloc_del m (t_off t) (t_cnt t) osz i (strshmlen s) xo;
    let '(m, off, cnt) := r in Some (m, mktbl off cnt)
  else Some (m, t).

(** sr_shmext_oper_get_sub_del(), src/shm_ext.c 996-1040. *)
Fixpoint kid_find (n : nat) (m : mem) (kt : tbl) (id j : N) : option (option N) :=
  match n with
  | O => Some None
  | S n' => do x <- kid_field m kt j kid_id; if x =? id then Some (Some j) else kid_find n' m kt id (j + 1)
  end.
Fixpoint ofind_loop (n : nat) (m : mem) (t : tbl) (id i : N) : option (option (N * N)) :=
  match n with
  | O => Some None
  | S n' =>
    do kt <- okids m t i;
    do f <- kid_find (N.to_nat (t_cnt kt)) m kt id 0;
    match f with Some j => Some (Some (i, j)) | None => ofind_loop n' m t id (i + 1) end
  end.
Definition oper_del (m : mem) (t : tbl) (id : N) : option (mem * tbl) :=
  do f <- ofind_loop (N.to_nat (t_cnt t)) m t id 0;
  match f with None => Some (m, t) | Some (i, j) => oper_free m t i j end.

(** sr_shmext_oper_get_sub_remove_dead(), src/shm_ext.c 799-824.  [a] is the pointer [shm_sub]: it
    is read again even after the item was freed.  The calls are assumed to succeed. *)
Fixpoint odead_in (fuel : nat) (m : mem) (t : tbl) (a : N) (alive : N -> bool) (i j : N) : option (mem * tbl) :=
  match fuel with
  | O => None
  | S f =>
    do o <- rd64 m (a + 16);
    do c <- rd32 m (a + 24);
    if j <? c then
      do cid <- kid_field m (mktbl o c) j kid_cid;
      if alive cid then odead_in f m t a alive i (j + 1)
      else do r <- oper_free m t i j; odead_in f (fst r) (snd r) a alive i j
    else Some (m, t)
  end.
Fixpoint odead_out (n fuel : nat) (m : mem) (t : tbl) (alive : N -> bool) (i : N) : option (mem * tbl) :=
  match n with
  | O => None
  | S n' =>
    if i <? t_cnt t then do r <- odead_in fuel m t (oitem t i) alive i 0; odead_out n' fuel (fst r) (snd r) alive (i + 1)
    else Some (m, t)
  end.
Definition oper_remove_dead (fuel : nat) (m : mem) (t : tbl) (alive : N -> bool) : option (mem * tbl) :=
  odead_out fuel fuel m t alive 0.
