(** Notifications stored for replay, src/plugins/ntf_json.c, src/plugins/common_json.c and src/replay.c.

    A directory is the list of files of one module in the order readdir(3) gives them, which can be any. Failures of
    system calls other than writev(2) are left out, so are owners and permissions. Notifications are their JSON texts:
    printing and parsing is not modelled. Times are not negative. *)
From Coq Require Import List Bool NArith.
From Verif Require Import Base.
Import ListNotations.
Local Open Scope N_scope.

(** struct timespec; srpjson_time_cmp, src/plugins/common_json.c 578-596: less than. *)
Record ts := mkTs { sec : N; nsec : N }.
Definition ts_lt (a b : ts) : bool := (sec a <? sec b) || ((sec a =? sec b) && (nsec a <? nsec b)).

Record ntf := mkNtf { n_ts : ts; n_json : list N }.

(** A file <module>.notif.<from>-<to>, srpjson_get_notif_path, common_json.c 730-747. *)
Record nfile := mkF { nf_from : N; nf_to : N; nf_data : list N }.
Definition named (a b : N) (f : nfile) : bool := (nf_from f =? a) && (nf_to f =? b).

(** A uint64_t. *)
Definition le64 (n : N) : list N := le32 (n mod two32) ++ le32 (n / two32).
Definition de64 (l : list N) : N := de32 (nfirstn 4 l) + two32 * de32 (nskipn 4 l).

(** srpjson_writev, common_json.c 40-77. Outcomes of writev(2): written bytes, interrupted, failed; the process dies
    if there is none left. [WBad]: the failed assertion on line 67, or an access out of the array without assertions. *)
Inductive wout := Wrote (n : N) | WIntr | WFail.
Inductive wres := WOk | WErr | WBad | WDied.
(** Lines 58-63. *)
Fixpoint skip_written (written : N) (iov : list (list N)) : N * list (list N) :=
  match iov with
  | [] => (written, [])
  | v :: t =>
      let w := u64 (written + two64 - nlen v) in
      match t with
      | [] => (w, [])
      | v2 :: _ => if nlen v2 <=? w then skip_written w t else (w, t)
      end
  end.
(** The bytes appended are the second part of the result. *)
Fixpoint writev (o : list wout) (iov : list (list N)) : wres * list N :=
  match o with
  | [] => (WDied, [])
  | WFail :: _ => (WErr, [])
  | x :: o' =>
      let n := match x with Wrote n => N.min n (nlen (concat iov)) | _ => 0 end in
      let d := nfirstn n (concat iov) in
      match skip_written n iov with
      | (w, []) => if w =? 0 then (WOk, d) else (WBad, d)
      | (w, v :: t) =>
          let r := if w =? 0 then writev o' (v :: t) else writev o' (nskipn w v :: t) in
          (fst r, d ++ snd r)
      end
  end.

(** srpntf_writev_notif, src/plugins/ntf_json.c 49-78. *)
Definition iov (n : ntf) : list (list N) := [le64 (sec (n_ts n)) ++ le64 (nsec (n_ts n)); le32 (nlen (n_json n)); n_json n].

(** srpntf_find_file, ntf_json.c 219-316: the names, 0 for none. *)
Definition find_step (from to : N) (acc : N * N) (f : nfile) : N * N :=
  let '(ff, ft) := acc in
  let ts1 := nf_from f in
  let ts2 := nf_to f in
  if ts2 <? ts1 then acc
  else if negb (from =? 0) && negb (to =? 0) then
    if (ts1 <? from) || (ts2 <? to) || ((from =? ts1) && (to =? ts2)) then acc
    else if (negb (ff =? 0) && (ff <=? ts1)) && (negb (ft =? 0) && (ft <=? ts2)) then acc
    else (ts1, ts2)
  else if negb (from =? 0) then
    if ts2 <? from then acc
    else if (negb (ff =? 0) && (ff <=? ts1)) && (negb (ft =? 0) && (ft <=? ts2)) then acc
    else (ts1, ts2)
  else
    if (negb (ff =? 0) && (ts1 <=? ff)) && (negb (ft =? 0) && (ts2 <=? ft)) then acc
    else (ts1, ts2).
Definition find_file (from to : N) (d : list nfile) : N * N := fold_left (find_step from to) d (0, 0).

(** srpntf_open_file, ntf_json.c 176-206, of an existing file. *)
Definition open_file (a b : N) (d : list nfile) : option nfile := find (named a b) d.
Definition append (a b : N) (x : list N) (d : list nfile) : list nfile :=
  map (fun f => if named a b f then mkF (nf_from f) (nf_to f) (nf_data f ++ x) else f) d.
(** srpntf_rename_file, ntf_json.c 328-364; rename(2) replaces a file of the new name. *)
Definition rename (a b b' : N) (d : list nfile) : list nfile :=
  if b' <=? b then d
  else map (fun f => if named a b f then mkF a b' (nf_data f) else f) (filter (fun f => negb (named a b' f)) d).

(** srpntf_json_store, ntf_json.c 401-481; SRPJSON_NOTIF_FILE_MAX_SIZE is 1024, common_json.h 39. *)
Inductive stored := SOk (d : list nfile) | SErr (d : list nfile) | SBad | SDied (d : list nfile).
Definition max_size : N := 1024 * 1024.
Definition store (o : list wout) (n : ntf) (d : list nfile) : stored :=
  let s := sec (n_ts n) in
  let create :=
    match open_file s s d with
    | Some _ => SErr d (* EEXIST *)
    | None =>
        match writev o (iov n) with
        | (WOk, x) => SOk (d ++ [mkF s s x])
        | (WErr, x) => SErr (d ++ [mkF s s x])
        | (WDied, x) => SDied (d ++ [mkF s s x])
        | (WBad, _) => SBad
        end
    end in
  let '(ff, ft) := find_file 0 0 d in
  if negb (ff =? 0) && negb (ft =? 0) then
    match open_file ff ft d with
    | None => SErr d
    | Some f =>
        if nlen (nf_data f) + 16 + 4 + nlen (n_json n) <=? max_size then
          match writev o (iov n) with
          | (WOk, x) => SOk (rename ff ft s (append ff ft x d))
          | (WErr, x) => SErr (append ff ft x d)
          | (WDied, x) => SDied (append ff ft x d)
          | (WBad, _) => SBad
          end
        else create
    end
  else create.

(** srpntf_read_ts, ntf_json.c 87-93, with srpjson_read, common_json.c 80-104: at the end of the file the rest is zero. *)
Definition read_ts (b : list N) : ts * list N :=
  let x := nfirstn 16 b ++ repeat 0 (N.to_nat (16 - nlen b)) in
  (mkTs (de64 (nfirstn 8 x)) (de64 (nskipn 8 x)), nskipn 16 b).
(** srpntf_read_notif, lines 103-137, and srpntf_skip_notif, lines 145-162. [None]: not read bytes of the length or
    the text are used. *)
Definition read_notif (b : list N) : option (list N * list N) :=
  if nlen b <? 4 then None
  else
    let len := de32 (nfirstn 4 b) in
    let r := nskipn 4 b in
    if nlen r <? len then None else Some (nfirstn len r, nskipn len r).
Definition skip_notif (b : list N) : option (list N) :=
  if nlen b <? 4 then None else Some (nskipn (de32 (nfirstn 4 b)) (nskipn 4 b)).

(** struct srpntf_rn_state, ntf_json.c 483-487, with what remains to be read of the opened file. *)
Record rn := mkRn { r_from : N; r_to : N; r_data : list N }.
Inductive next := NNotif (n : ntf) (st : rn) | NEnd | NErr | NBad | NHang.

(** srpntf_json_replay_next, ntf_json.c 489-588. Lines 527-544. *)
Fixpoint skip_loop (fuel : nat) (start : ts) (b : list N) : option (ts * list N) :=
  match fuel with
  | O => None
  | S fuel' =>
      let '(t, b) := read_ts b in
      if (sec t =? 0) || negb (ts_lt t start) then Some (t, b)
      else match skip_notif b with None => None | Some b => skip_loop fuel' start b end
  end.
(** Lines 546-565: a result, or the next file. *)
Definition after_ts (stop : ts) (from to : N) (t : ts) (b : list N) : option next :=
  if negb (sec t =? 0) && ts_lt t stop then
    Some (match read_notif b with Some (j, b) => NNotif (mkNtf t j) (mkRn from to b) | None => NBad end)
  else if negb (ts_lt t stop) then Some NEnd
  else None.
(** The main loop with files, from the label next_file. *)
Fixpoint files (fuel : nat) (d : list nfile) (start stop : ts) (from to : N) : next :=
  match fuel with
  | O => NHang
  | S fuel' =>
      let '(from, to) := find_file from to d in
      if negb (from =? 0) && negb (to =? 0) && (from <=? sec stop) then
        match open_file from to d with
        | None => NErr
        | Some f =>
            match skip_loop (S (length (nf_data f))) start (nf_data f) with
            | None => NBad
            | Some (t, b) =>
                match after_ts stop from to t b with
                | Some r => r
                | None => files fuel' d start stop from to
                end
            end
        end
      else NEnd
  end.
Definition replay_next (d : list nfile) (start stop : ts) (st : option rn) : next :=
  match st with
  | None => files (S (length d)) d start stop (sec start) 0
  | Some st =>
      let '(t, b) := read_ts (r_data st) in
      match after_ts stop (r_from st) (r_to st) t b with
      | Some r => r
      | None => files (S (length d)) d start stop (r_from st) (r_to st)
      end
  end.

(** sr_replay_notify, src/replay.c 298-386: calls of callbacks, [sel] is the XPath filter. Callbacks and creating of the
    session do not fail. The stop time, lines 313-318. *)
Inductive call := Replayed (n : ntf) | Complete (t : ts).
Definition stop_ts (stop since : ts) : ts :=
  if negb ((sec stop =? 0) && (nsec stop =? 0)) && negb (ts_lt since stop) then stop else since.
Inductive replays (dir : list nfile) (sel : ntf -> bool) (start stop : ts) : option rn -> list call -> Prop :=
| replays_end st : replay_next dir start stop st = NEnd -> replays dir sel start stop st [Complete stop]
| replays_next st n st' l : replay_next dir start stop st = NNotif n st' ->
    replays dir sel start stop (Some st') l ->
    replays dir sel start stop st (if sel n then Replayed n :: l else l).
