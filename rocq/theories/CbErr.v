(** Errors of callbacks: setting them, src/sysrepo.c 925-1030 and src/utils/error_format.c 39-155, which of them
    are reported when a callback of an event fails, src/shm_sub.c 3484-3580, 3253-3335, 4480-4560, what the originator
    of the event gets, src/shm_sub.c 575-610, src/sysrepo.c 4438-4450, src/log.c 83-104, and reading NETCONF errors,
    src/utils/error_format.c 315-415.

    Strings are lists of bytes without the terminator. The blocks of error data and their transport are those of
    EvData.v. Allocation failures are not modelled. [None]: undefined behaviour. *)
From Coq Require Import List NArith Bool String Ascii.
From Verif Require Import Base EvData.
Import ListNotations.
Open Scope N_scope.

Definition bytes (s : string) : list N := map N_of_ascii (list_ascii_of_string s).
Fixpoint beq (a b : list N) : bool :=
  match a, b with [], [] => true | x :: a', y :: b' => (x =? y) && beq a' b' | _, _ => false end.

(** sr_error_t, src/sysrepo_types.h 40-58, and the texts in src/log.c 41-58. *)
Definition SR_INVAL : N := 1.
Definition SR_OPFAILED : N := 10.
Definition SR_SHELVE : N := 15.
Definition errlist : list string :=
  ["Operation succeeded"; "Invalid argument"; "libyang error"; "System function call failed"; "Out of memory"; "Item not found";
   "Item already exists"; "Internal error"; "Operation not supported"; "Validation failed"; "Operation failed"; "Operation not authorized";
   "Requested resource already locked"; "Timeout expired"; "User callback failed"; "User callback shelved"]%string.
(** sr_strerror(), src/log.c 394-402. *)
Definition strerror (code : N) : list N := bytes (nth (N.to_nat (N.min code 16)) errlist "Unknown error"%string).

(** Events of sessions of callbacks; [EvNo]: not a session of a callback. *)
Inductive event := EvNo | EvUpdate | EvChange | EvDone | EvAbort | EvEnabled | EvRpc | EvOper | EvNotif.
Definition settable (e : event) : bool := match e with EvUpdate | EvChange | EvOper | EvRpc => true | _ => false end.
Definition is_ev (e : event) : bool := match e with EvNo => false | _ => true end.

(** sr_error_info_err_t. A list of them stands for sr_error_info_t, the empty one for NULL. *)
Record err := mkerr { r_code : N; r_msg : option (list N); r_fmt : option (list N); r_data : option (list N) }.

(** Calls of a callback. *)
Inductive op :=
| OError (fmt : option (list N)) (code : N) (msg : list N)
| OMessage (msg : list N)
| OFormat (fmt : option (list N))
| OPush (d : list N)
| ONetconf (ty tag : list N) (app path : option (list N)) (msg : list N) (infos : list (list N * list N)).

(** The last error. *)
Fixpoint upd_last (l : list err) (f : err -> option err) : option (list err) :=
  match l with
  | [] => Some []
  | [e] => do x <- f e; Some [x]
  | e :: t => do x <- upd_last t f; Some (e :: x)
  end.
Definition last_fmt (l : list err) : bool := match List.rev l with e :: _ => match r_fmt e with Some _ => true | None => false end | [] => false end.
Definition nil_b {A} (l : list A) : bool := match l with [] => true | _ => false end.

(** sr_session_push_error_data(), src/sysrepo.c 1009-1021: errors and the return code. *)
Definition push (fill : N) (ev : event) (l : list err) (d : list N) : option (list err * N) :=
  if settable ev && last_fmt l && negb (nil_b d)
  then do x <- upd_last l (fun e => do b <- ev_data_push fill (r_data e) d; Some (mkerr (r_code e) (r_msg e) (r_fmt e) (Some b))); Some (x, 0)
  else Some (l, SR_INVAL).
Fixpoint pushes (fill : N) (ev : event) (l : list err) (ds : list (list N)) : option (list err) :=
  match ds with [] => Some l | d :: t => do x <- push fill ev l d; pushes fill ev (fst x) t end.

(** The accepted types and tags, src/utils/error_format.c 50-70. *)
Definition types : list string := ["transport"; "rpc"; "protocol"; "application"]%string.
Definition tags : list string :=
  ["in-use"; "invalid-value"; "too-big"; "missing-attribute"; "bad-attribute"; "unknown-attribute"; "missing-element"; "bad-element"; "unknown-element"; "unknown-namespace";
   "access-denied"; "lock-denied"; "resource-denied"; "rollback-failed"; "data-exists"; "data-missing"; "operation-not-supported"; "operation-failed"; "malformed-message"]%string.
Definition one_of (l : list string) (x : list N) : bool := existsb (fun s => beq (bytes s) x) l.
Definition netconf : list N := bytes "NETCONF".
Definition or_empty (s : option (list N)) : list N := match s with Some x => x | None => [] end.
(** sr_session_set_netconf_error2(), src/utils/error_format.c 39-155; results of pushing are ignored. *)
Definition set_netconf (fill : N) (ev : event) (l : list err) (ty tag : list N) (app path : option (list N)) (msg : list N) (infos : list (list N * list N)) : option (list err * N) :=
  if is_ev ev && one_of types ty && one_of tags tag then
    do x <- pushes fill ev (l ++ [mkerr SR_OPFAILED (Some msg) (Some netconf) None])
      ([cstr ty; cstr tag; cstr (or_empty app); cstr (or_empty path); le32 (nlen infos)] ++ flat_map (fun i => [cstr (fst i); cstr (snd i)]) infos);
    Some (x, 0)
  else Some (l, SR_INVAL).

(** sr_session_set_error(), _set_error_message(), _set_error_format(), src/sysrepo.c 953-1007. *)
Definition do_op (fill : N) (ev : event) (l : list err) (o : op) : option (list err * N) :=
  match o with
  | OError fmt code msg => if settable ev && negb (code =? 0) then Some (l ++ [mkerr code (Some msg) fmt None], 0) else Some (l, SR_INVAL)
  | OMessage msg => if settable ev then Some (l ++ [mkerr SR_OPFAILED (Some msg) None None], 0) else Some (l, SR_INVAL)
  | OFormat fmt =>
      if settable ev && negb (nil_b l) then do x <- upd_last l (fun e => Some (mkerr (r_code e) (r_msg e) fmt (r_data e))); Some (x, 0)
      else Some (l, SR_INVAL)
  | OPush d => push fill ev l d
  | ONetconf ty tag app path msg infos => set_netconf fill ev l ty tag app path msg infos
  end.
Fixpoint do_ops (fill : N) (ev : event) (l : list err) (os : list op) : option (list err) :=
  match os with [] => Some l | o :: t => do x <- do_op fill ev l o; do_ops fill ev (fst x) t end.

(** A callback: its calls and its return code. *)
Record callback := mkcb { c_ops : list op; c_ret : N }.
(** The callbacks of one listener for one event, src/shm_sub.c 3490-3545 (change) and 4494-4545 (RPC): all
    with the same session; the first failure ends it. A shelved one is skipped (change) or ends it (RPC).
    The result: the errors of the session and the code of the failure, 0 for none. *)
Fixpoint listen (fill : N) (ev : event) (l : list err) (cbs : list callback) : option (list err * N) :=
  match cbs with
  | [] => Some (l, 0)
  | c :: t =>
      do l' <- do_ops fill ev l (c_ops c);
      if c_ret c =? 0 then listen fill ev l' t
      else if c_ret c =? SR_SHELVE then match ev with EvRpc => Some (l', 0) | _ => listen fill ev l' t end
      else Some (l', c_ret c)
  end.

(** sr_shmsub_prepare_error(), src/shm_sub.c 3253-3335: what is written to the shared memory. *)
Definition to_write (l : list err) (code : N) : list cb_err :=
  map (fun e => Build_cb_err (r_code e) (match r_msg e with Some m => m | None => strerror code end) (r_fmt e) (r_data e))
    (match l with [] => [mkerr code None None None] | _ => l end).
(** The event as the originator sees it: [Some []] for a success, otherwise the errors. [junk]: the rest of the
    shared memory. *)
Definition outcome (fill : N) (junk : list N) (ev : event) (cbs : list callback) : option (list cb_err) :=
  do x <- listen fill ev [] cbs;
  if snd x =? 0 then Some []
  else do b <- prepare_error fill (to_write (fst x) (snd x)); read_error_info (b ++ junk).
(** The code returned by the function that caused the event, sr_api_ret(), src/log.c 83-104. *)
Definition api_code (l : list cb_err) : N := match List.rev l with [] => 0 | e :: _ => e_code e end.

(** *** The enabled event, src/sysrepo.c 5704-5726: called directly *)
(** The errors the subscriber gets; the name of the module in the text is left out. *)
Definition enabled (fill : N) (c : callback) : option (list err) :=
  do l <- do_ops fill EvEnabled [] (c_ops c);
  Some (if c_ret c =? 0 then [] else l ++ [mkerr 14 (Some (bytes "Subscribing to changes failed.")) None None]).

(** *** sr_session_dup_error(), src/sysrepo.c 925-951 *)
(** Errors of the last function of a session and of its callback. *)
Record sess := mksess { s_err : list err; s_ev_err : list err }.
(** Source and target (different sessions) afterwards; [None]: the assertion of sr_errinfo_add(), src/log.c 157. *)
Definition dup_error (src trg : sess) : option (sess * sess) :=
  match s_err src with
  | [] => Some (src, mksess [] (s_ev_err trg))
  | _ =>
      if forallb (fun e => match r_data e, r_fmt e with Some _, None => false | _, _ => true end) (s_err src)
      then Some (mksess (s_err src) [], mksess [] (s_ev_err trg ++ s_err src)) else None
  end.

(** ** Reading a NETCONF error, sr_err_get_netconf_error(), src/utils/error_format.c 315-415 *)
Record nc := mknc { n_type : list N; n_tag : list N; n_app : option (list N); n_path : option (list N); n_msg : list N; n_infos : list (list N * list N) }.
Inductive ncres := NcErr | NcOk (x : nc).
(** A chunk as a string; one not ended by a zero would be read outside. *)
Definition chunk_str (d : list N) : option (list N) := do n <- strlen d; read_at d 0 n.
Definition nonempty (s : list N) : option (list N) := match s with [] => None | _ => Some s end.
(** [None] in the inner option: a missing chunk. *)
Definition get_str (e : cb_err) (idx : N) : option (option (list N)) :=
  do r <- ev_data_get (e_data e) idx;
  match r with EvNotFound => Some None | EvChunk _ d => do s <- chunk_str d; Some (Some s) end.
Fixpoint get_infos (e : cb_err) (n : nat) (idx : N) : option (option (list (list N * list N))) :=
  match n with
  | O => Some (Some [])
  | S n' =>
      do a <- get_str e idx; do b <- get_str e (idx + 1);
      match a, b with
      | Some x, Some y => do r <- get_infos e n' (idx + 2); match r with Some l => Some (Some ((x, y) :: l)) | None => Some None end
      | _, _ => Some None
      end
  end.
Definition get_netconf (e : cb_err) : option ncres :=
  match e_fmt e with
  | None => None (* strcmp() of NULL *)
  | Some f =>
      if beq f netconf then
        do ty <- get_str e 0; do tag <- get_str e 1; do app <- get_str e 2; do path <- get_str e 3;
        match ty, tag, app, path with
        | Some ty, Some tag, Some app, Some path =>
            do c <- ev_data_get (e_data e) 4;
            match c with
            | EvNotFound => Some NcErr
            | EvChunk _ d =>
                do n <- read32 d 0;
                do is <- get_infos e (N.to_nat n) 5;
                match is with Some l => Some (NcOk (mknc ty tag (nonempty app) (nonempty path) (e_msg e) l)) | None => Some NcErr end
            end
        | _, _, _, _ => Some NcErr
        end
      else Some NcErr
  end.
