(** The allocator of the shared subscription memory (ext SHM): src/common.c 1498-1620,
    1658-1963 and the truncation in sr_shmext_conn_remap_unlock(), src/shm_ext.c 122-164.

    The mapped segment is its size and its bytes; a pointer into it is its offset (so the
    adjustment of pointers after a remap, src/common.c 1754-1768, is the identity).
    [None] is an access outside of the segment or a failed assert().  Failures of ftruncate()
    and mmap() are not modelled. *)
From Coq Require Import List NArith ZArith Bool.
From Verif Require Import Base EvData Time.
Import ListNotations.
Open Scope N_scope.

Record mem := mkmem { msize : N; mb : N -> N }.

(** Reading and writing of uint32_t. *)
Definition rd32 (m : mem) (o : N) : option N :=
  if o + 4 <=? msize m
  then Some (mb m o + 256 * mb m (o + 1) + 65536 * mb m (o + 2) + 16777216 * mb m (o + 3))
  else None.

(** memcpy() of given bytes into the segment. *)
Definition wr (m : mem) (o : N) (bs : list N) : option mem :=
  if o + nlen bs <=? msize m
  then Some (mkmem (msize m)
         (fun b => if (o <=? b) && (b <? o + nlen bs) then nth (N.to_nat (b - o)) bs 0 else mb m b))
  else None.
Definition wr32 (m : mem) (o v : N) : option mem := wr m o (le32 v).

(** memmove() inside of the segment (memcpy() of disjoint blocks). *)
Definition move (m : mem) (dst src n : N) : option mem :=
  if (dst + n <=? msize m) && (src + n <=? msize m)
  then Some (mkmem (msize m) (fun b => if (dst <=? b) && (b <? dst + n) then mb m (src + (b - dst)) else mb m b))
  else None.

(** sr_shm_remap() to a new size, src/common.c 1443-1481: ftruncate() gives zero bytes. *)
Definition resize (m : mem) (n : N) : mem :=
  mkmem n (fun b => if b <? N.min n (msize m) then mb m b else 0).

(** Conversion uint32_t to int. *)
Definition as_int (n : N) : Z := to_int (Z.of_N n).

(** sr_ext_hole_next(), src/common.c 1498-1511; the NULL pointer is 0. *)
Definition hole_next (m : mem) (last : N) : option N :=
  if last =? 0 then rd32 m 0 else rd32 m (last + 4).

(** A bound of the number of holes of 8 bytes and more after the header (proved enough). *)
Definition hole_fuel (m : mem) : nat := S (N.to_nat (msize m / 8)).

(** sr_ext_hole_find(), src/common.c 1513-1534. *)
Fixpoint hole_find_loop (fuel : nat) (m : mem) (off min_size hole : N) : option N :=
  match fuel with
  | O => None
  | S f =>
    if hole =? 0 then Some 0
    else
      do size <- rd32 m hole;
      do next <- hole_next m hole;
      if negb (off =? 0) then
        if (Z.of_N hole =? as_int off)%Z && (min_size <=? size) then Some hole
        else if (Z.of_N hole >? as_int off)%Z then Some 0
        else hole_find_loop f m off min_size next
      else if min_size <=? size then Some hole
      else hole_find_loop f m off min_size next
  end.
Definition hole_find (m : mem) (off min_size : N) : option N :=
  do first <- hole_next m 0; hole_find_loop (hole_fuel m) m off min_size first.

(** sr_ext_hole_del(), src/common.c 1536-1558: the loop returns [prev]. *)
Fixpoint hole_del_loop (fuel : nat) (m : mem) (hole prev h : N) : option N :=
  match fuel with
  | O => None
  | S f =>
    if h =? 0 then None (* assert(h) *)
    else if h =? hole then Some prev
    else do next <- hole_next m h; hole_del_loop f m hole h next
  end.
Definition hole_del (m : mem) (hole : N) : option mem :=
  do first <- hole_next m 0;
  do prev <- hole_del_loop (hole_fuel m) m hole 0 first;
  do n <- rd32 m (hole + 4);
  if negb (prev =? 0) then wr32 m (prev + 4) n else wr32 m 0 n.

(** sr_ext_hole_add(), src/common.c 1560-1618: the loop returns [prev] and [next]. *)
Fixpoint hole_add_loop (fuel : nat) (m : mem) (off prev h : N) : option (N * N) :=
  match fuel with
  | O => None
  | S f =>
    if h =? 0 then Some (prev, 0)
    else if (Z.of_N h >? as_int off)%Z then Some (prev, h)
    else do next <- hole_next m h; hole_add_loop f m off h next
  end.

Definition hole_add (m : mem) (off size : N) : option mem :=
  if size =? 0 then Some m
  else
    do first <- hole_next m 0;
    do pn <- hole_add_loop (hole_fuel m) m off 0 first;
    let prev := fst pn in
    let next := snd pn in
    do con_prev <- (if prev =? 0 then Some false else do s <- rd32 m prev; Some (prev + s =? off));
    let con_next := negb (next =? 0) && (as_int (u32 (off + size)) =? Z.of_N next)%Z in
    if con_prev && con_next then
      do ps <- rd32 m prev;
      do ns <- rd32 m next;
      do m <- wr32 m prev (u32 (ps + u32 (size + ns)));
      do nn <- rd32 m (next + 4);
      wr32 m (prev + 4) nn
    else if con_prev then
      do ps <- rd32 m prev;
      wr32 m prev (u32 (ps + size))
    else if con_next then
      do m <- (if negb (prev =? 0) then wr32 m (prev + 4) off else wr32 m 0 off);
      do ns <- rd32 m next;
      do m <- wr32 m off (u32 (size + ns));
      do nn <- rd32 m (next + 4);
      wr32 m (off + 4) nn
    else
      do m <- (if negb (prev =? 0) then wr32 m (prev + 4) off else wr32 m 0 off);
      do m <- wr32 m off size;
      if negb (next =? 0) then wr32 m (off + 4) next else wr32 m (off + 4) 0.

(** sr_shmrealloc_use_hole(), src/common.c 1658-1679. *)
Definition use_hole (m : mem) (hole used_size : N) : option mem :=
  do s <- rd32 m hole;
  let new_hole_size := u32 (s + two32 - u32 used_size) in
  do m <- hole_del m hole;
  if negb (new_hole_size =? 0) then hole_add m (u32 (hole + used_size)) new_hole_size else Some m.

(** Where a block is put: into the hole, or to the end if there is no hole ([0]). *)
Definition place (m : mem) (hole size new_ext_size : N) : option (mem * N * N) :=
  if negb (hole =? 0) then do m <- use_hole m hole size; Some (m, hole, new_ext_size)
  else Some (m, new_ext_size, new_ext_size + size).

(** sr_shmrealloc_add(), src/common.c 1681-1822: [add_idx = None] is -1.  Returns the memory, the
    new array offset and count, the offset of the new item and of the attribute. *)
Definition shmrealloc_add (m : mem) (array_off count item_size : N) (add_idx : option N) (dyn_attr_size : N)
    : option (mem * N * N * N * N) :=
  if negb (Bool.eqb (array_off =? 0) (count =? 0)) then None else
  let add_idx := match add_idx with Some i => i | None => count end in
  if count <? add_idx then None else
  let dyn_attr_size := shm_size dyn_attr_size in
  let new_ext_size := msize m in
  let new_array_size := shm_size (u32 (count + 1) * item_size) in
  let diff := new_array_size - shm_size (count * item_size) in
  (* holes for the array: where it will be, whether it is not moved *)
  do con <- (if negb (diff =? 0) && negb (array_off =? 0) then hole_find m (u32 (array_off + diff)) (u32 diff)
             else Some 0);
  do p <- (if diff =? 0 then Some (m, array_off, new_ext_size)
           else if negb (con =? 0) then do m <- use_hole m con diff; Some (m, array_off, new_ext_size)
           else do h <- hole_find m 0 (u32 new_array_size); place m h new_array_size new_ext_size);
  let '(m, new_array_off, new_ext_size) := p in
  (* a hole for the attribute *)
  do p <- (if dyn_attr_size =? 0 then Some (m, 0, new_ext_size)
           else do h <- hole_find m 0 (u32 dyn_attr_size); place m h dyn_attr_size new_ext_size);
  let '(m, attr_off, new_ext_size) := p in
  let m := if msize m <? new_ext_size then resize m new_ext_size else m in
  if new_array_off =? 0 then None else
  if negb (dyn_attr_size =? 0) && (attr_off =? 0) then None else
  let moved := negb (diff =? 0) && (con =? 0) in
  do m <- (if moved && negb (add_idx =? 0) then move m new_array_off array_off (add_idx * item_size) else Some m);
  do m <- (if add_idx <? count
           then move m (new_array_off + (add_idx + 1) * item_size) (array_off + add_idx * item_size)
                     ((count - add_idx) * item_size)
           else Some m);
  do m <- (if moved && negb (array_off =? 0) then hole_add m (u32 array_off) (u32 (shm_size (count * item_size)))
           else Some m);
  Some (m, new_array_off, u32 (count + 1), new_array_off + add_idx * item_size, attr_off).

(** sr_shmrealloc(), src/common.c 1824-1914: the memory and the new offset. *)
Definition shmrealloc (m : mem) (attr_off cur_size new_size : N) : option (mem * N) :=
  if negb (attr_off =? 0) && (cur_size =? 0) then None else
  let cur_size := shm_size cur_size in
  let new_size := shm_size new_size in
  let new_ext_size := msize m in
  do con <- (if (cur_size <? new_size) && negb (cur_size =? 0)
             then hole_find m (u32 (attr_off + cur_size)) (u32 (new_size - cur_size)) else Some 0);
  do p <- (if cur_size <? new_size then
             if negb (con =? 0) then do m <- use_hole m con (new_size - cur_size); Some (m, attr_off, new_ext_size)
             else do h <- hole_find m 0 (u32 new_size); place m h new_size new_ext_size
           else do m <- (if new_size <? cur_size
                         then hole_add m (u32 (attr_off + new_size)) (u32 (cur_size - new_size)) else Some m);
                Some (m, attr_off, new_ext_size));
  let '(m, new_attr_off, new_ext_size) := p in
  let m := if msize m <? new_ext_size then resize m new_ext_size else m in
  if new_attr_off =? 0 then None else
  do m <- (if (cur_size <? new_size) && (con =? 0) then
             do m <- move m new_attr_off attr_off cur_size;
             hole_add m (u32 attr_off) (u32 cur_size)
           else Some m);
  Some (m, new_attr_off).

(** sr_shmrealloc_del(), src/common.c 1916-1963: the memory, the new array offset and count. *)
Definition shmrealloc_del (m : mem) (array_off count item_size del_idx dyn_attr_size dyn_attr_off : N)
    : option (mem * N * N) :=
  if negb (Bool.eqb (dyn_attr_size =? 0) (dyn_attr_off =? 0)) then None else
  if negb (dyn_attr_size =? shm_size dyn_attr_size) then None else
  if count =? 0 then None else
  let rest := shm_size ((count - 1) * item_size) in
  let diff := shm_size (count * item_size) - rest in
  let hole_off0 := u32 (array_off + rest) in
  let count := count - 1 in
  do m <- (if count =? 0 then Some m
           else if del_idx <? count
           then move m (array_off + del_idx * item_size) (array_off + (del_idx + 1) * item_size)
                     ((count - del_idx) * item_size)
           else Some m);
  let new_off := if count =? 0 then 0 else array_off in
  do m <- (if negb (diff =? 0) then hole_add m hole_off0 (u32 diff) else Some m);
  do m <- (if negb (dyn_attr_size =? 0) then hole_add m (u32 dyn_attr_off) (u32 dyn_attr_size) else Some m);
  Some (m, new_off, count).

(** The search for the last hole in sr_shmext_conn_remap_unlock(), src/shm_ext.c 132-134. *)
Fixpoint last_hole (fuel : nat) (m : mem) (last : N) : option N :=
  match fuel with
  | O => None
  | S f => do iter <- hole_next m last; if iter =? 0 then Some last else last_hole f m iter
  end.

(** sr_shmext_conn_remap_unlock() after a write access, src/shm_ext.c 130-152. *)
Definition remap_unlock (m : mem) : option mem :=
  do last <- last_hole (hole_fuel m) m 0;
  if last =? 0 then Some m
  else
    do size <- rd32 m last;
    if u32 (u32 last + size) =? msize m
    then do m' <- hole_del m last; Some (resize m' (msize m - size))
    else Some m.

(** sr_shmext_open() with [zero], src/shm_ext.c 166-196. *)
Definition ext_open : mem := mkmem 8 (fun _ => 0).
