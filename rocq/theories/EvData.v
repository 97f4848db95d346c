(** Originator and error data: src/common.c 1967-2060 and their transport through the
    subscription data segment.

    A malloc'ed block is the list of its bytes.  Every function returns [None] when the C
    code would access memory outside of the block (undefined behaviour). *)
From Coq Require Import List NArith Bool.
From Verif Require Import Base.
Import ListNotations.
Open Scope N_scope.

(** Loop of sr_ev_data_size(), src/common.c 1977-1981: [off] is [ptr - data]. *)
Fixpoint ev_skip (n : nat) (data : list N) (off : N) : option N :=
  match n with
  | O => Some off
  | S n' => do size <- read32 data off; ev_skip n' data (off + 4 + size)
  end.

(** sr_ev_data_size(), src/common.c 1966-1984: the result is converted to uint32_t. *)
Definition ev_data_size (data : list N) : option N :=
  do count <- read32 data 0;
  do off <- ev_skip (N.to_nat count) data 4;
  Some (u32 off).

(** sr_ev_data_push(), src/common.c 1986-2023.  [None] as the block is a NULL pointer.
    [fill] is the unspecified contents of freshly allocated bytes.  [size] is the length
    of [chunk] given by the caller (uint32_t).  Allocation failure is not modelled. *)
Definition ev_data_push (fill : N) (ev : option (list N)) (chunk : list N) : option (list N) :=
  let size := nlen chunk in
  do new_size <- match ev with
                 | Some b => do s <- ev_data_size b; Some (u32 (s + 4 + size))
                 | None => Some (u32 (4 + 4 + size))
                 end;
  do mem <- match ev with
            | Some b => Some (realloc fill b new_size)
            | None => write_at (repeat fill (N.to_nat new_size)) 0 (le32 0)
            end;
  do ptr <- ev_data_size mem;
  do count <- read32 mem 0;
  do mem <- write_at mem 0 (le32 (u32 (count + 1)));
  do mem <- write_at mem ptr (le32 size);
  write_at mem (ptr + 4) chunk.

(** Result of sr_ev_data_get(): SR_ERR_NOT_FOUND or the size and bytes of the chunk. *)
Inductive ev_get_res := EvNotFound | EvChunk (size : N) (data : list N).

(** sr_ev_data_get(), src/common.c 2025-2058.  The returned pointer is modelled by the
    [size] bytes it points to. *)
Definition ev_data_get (ev : option (list N)) (idx : N) : option ev_get_res :=
  match ev with
  | None => Some EvNotFound
  | Some b =>
    do count <- read32 b 0;
    if count <=? idx then Some EvNotFound
    else
      do off <- ev_skip (N.to_nat idx) b 4;
      do size <- read32 b off;
      do data <- read_at b (off + 4) size;
      Some (EvChunk size data)
  end.

(** sr_session_push_orig_data() repeated, src/sysrepo.c 879-889. *)
Fixpoint ev_push_all (fill : N) (ev : option (list N)) (chunks : list (list N)) : option (option (list N)) :=
  match chunks with
  | [] => Some ev
  | c :: r => do b <- ev_data_push fill ev c; ev_push_all fill (Some b) r
  end.

(** SR_SHM_SIZE(), src/common.h 55, with SR_SHM_MEM_ALIGN = 8 (src/config.h). *)
Definition shm_size (n : N) : N := n + (8 - n mod 8) mod 8.

(** A C string of non-zero bytes as stored: the bytes and the terminator. *)
Definition cstr (s : list N) : list N := s ++ [0].

(** strlen() at an offset of a block; [None] if there is no terminator in it. *)
Fixpoint strlen (b : list N) : option N :=
  match b with
  | [] => None
  | c :: r => if c =? 0 then Some 0 else do n <- strlen r; Some (n + 1)
  end.
Definition strlen_at (b : list N) (off : N) : option N := strlen (nskipn off b).

(** sr_strshmlen(), src/common.c 1651-1656. *)
Definition strshmlen_at (b : list N) (off : N) : option N :=
  do n <- strlen_at b off; Some (shm_size (n + 1)).

(** The size the originator computes and the writes of sr_shmsub_notify_write_event(),
    src/shm_sub.c 796-858, for the part holding the originator name, its data, an optional
    xpath and the event data.  [shm] is the data segment before the call; it is
    resized like by ftruncate() (sr_shm_remap, src/common.c 1444-1490: new bytes are zero).
    The event fields of the control segment are modelled elsewhere. *)
Definition empty_data : list N := [0; 0; 0; 0].

Definition shm_resize (shm : list N) (n : N) : list N := realloc 0 shm n.

Definition notify_write_data (shm : list N) (orig_name : list N) (orig_data : option (list N))
    (xpath : option (list N)) (data : list N) : option (list N) :=
  let od := match orig_data with Some d => d | None => empty_data end in
  match xpath, data with
  | None, [] => Some shm
  | _, _ =>
    do osz <- ev_data_size od;
    let nsz := shm_size (nlen orig_name + 1) in
    let xsz := match xpath with Some x => shm_size (nlen x + 1) | None => 0 end in
    let shm := shm_resize shm (u32 (nsz + shm_size osz) + xsz + nlen data) in
    do shm <- write_at shm 0 (cstr orig_name);
    do odb <- read_at od 0 osz;
    do shm <- write_at shm nsz odb;
    let p := nsz + shm_size osz in
    do shm <- match xpath with Some x => write_at shm p (cstr x) | None => Some shm end;
    match data with [] => Some shm | _ => write_at shm (p + xsz) data end
  end.

(** sr_session_set_orig() and the reading part of _sr_session_start(),
    src/sysrepo.c 532-557, 589-596: originator name, its data block and the offset of
    what follows. *)
Definition session_read_orig (shm : list N) : option (list N * list N * N) :=
  do nl <- strlen_at shm 0;
  do name <- read_at shm 0 nl;
  let nsz := shm_size (nl + 1) in
  do osz <- ev_data_size (nskipn nsz shm);
  do od <- read_at shm nsz osz;
  Some (name, od, nsz + shm_size osz).

(** One error of a callback: code, message, data format and data block, as stored in
    sr_error_info_err_t. *)
Record cb_err := { e_code : N; e_msg : list N; e_fmt : option (list N); e_data : option (list N) }.

(** Padding of a stored item up to the aligned size; the padding bytes are unspecified
    (realloc) and given by [fill]. *)
Definition padded (fill : N) (b : list N) : list N :=
  b ++ repeat fill (N.to_nat (shm_size (nlen b) - nlen b)).

(** The serialisation of one error in sr_shmsub_prepare_error(), src/shm_sub.c 3279-3328. *)
Definition prepare_error1 (fill : N) (e : cb_err) : option (list N) :=
  let fmt := match e_fmt e with Some f => f | None => [] end in
  let d := match e_data e with Some d => d | None => empty_data end in
  do sz <- ev_data_size d;
  do db <- read_at d 0 sz;
  Some (padded fill (le32 (e_code e)) ++ padded fill (cstr (e_msg e)) ++ padded fill (cstr fmt) ++ padded fill db).

Fixpoint prepare_errors (fill : N) (l : list cb_err) : option (list N) :=
  match l with
  | [] => Some []
  | e :: r => do a <- prepare_error1 fill e; do b <- prepare_errors fill r; Some (a ++ b)
  end.

(** sr_shmsub_prepare_error(), src/shm_sub.c 3253-3335 (the case without any error stored
    by the callback, where one is generated, is the singleton list). *)
Definition prepare_error (fill : N) (l : list cb_err) : option (list N) :=
  do body <- prepare_errors fill l;
  Some (padded fill (le32 (nlen l)) ++ body).

(** Reading of the errors in _sr_shmsub_notify_wait_wr(), src/shm_sub.c 575-610:
    [off] is [ptr - addr]. *)
Fixpoint read_errors (n : nat) (shm : list N) (off : N) : option (list cb_err) :=
  match n with
  | O => Some []
  | S n' =>
    do code <- read32 shm off;
    let off := off + shm_size 4 in
    do ml <- strlen_at shm off;
    do msg <- read_at shm off ml;
    let off := off + shm_size (ml + 1) in
    do fl <- strlen_at shm off;
    do fmt <- read_at shm off fl;
    let off := off + shm_size (fl + 1) in
    do sz <- ev_data_size (nskipn off shm);
    do d <- read_at shm off sz;
    let off := off + shm_size sz in
    let e := match fmt with
             | [] => {| e_code := code; e_msg := msg; e_fmt := None; e_data := None |}
             | _ => {| e_code := code; e_msg := msg; e_fmt := Some fmt; e_data := Some d |}
             end in
    do r <- read_errors n' shm off; Some (e :: r)
  end.

Definition read_error_info (shm : list N) : option (list cb_err) :=
  do count <- read32 shm 0;
  read_errors (N.to_nat count) shm (shm_size 4).
