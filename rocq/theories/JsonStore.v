(** Files with datastore data of one module: storing, loading and recovery, src/plugins/ds_json.c and
    src/plugins/common_json.c.

    Every system call takes one outcome from a list, the process dies when the list is empty: a death is possible
    before the first, between any two and after the last system call. Accesses of one process at a time (the module
    data lock). Only the contents of files are modelled, not owners and permissions; what write(2) has returned
    survives the death of the process (it is not a power failure). close(2), memory allocation and generating of
    paths do not fail. *)
From Coq Require Import Ascii String List Bool Arith NArith.
Import ListNotations.

Definition bytes := list ascii.

(** Outcome of a system call: it fails; it fails in a way the comment of the call describes (a signal in case
    of reading and writing); it succeeds, with the number of bytes read or written. *)
Inductive outcome := Fail | Intr | Good (n : nat).

(** srpjson_get_path, src/plugins/common_json.c 619-658: one file for each datastore of the module; [FBck] is the
    startup one with SRPJSON_FILE_BACKUP_SUFFIX. [FOth] stands for any one of the other datastores. *)
Inductive file := FStart | FBck | FRun | FOth.
Record fs := mkFs { f_start : option bytes; f_bck : option bytes; f_run : option bytes; f_oth : option bytes }.
Definition get (f : file) (s : fs) : option bytes :=
  match f with FStart => f_start s | FBck => f_bck s | FRun => f_run s | FOth => f_oth s end.
Definition set (f : file) (c : option bytes) (s : fs) : fs :=
  match f with
  | FStart => mkFs c (f_bck s) (f_run s) (f_oth s)
  | FBck => mkFs (f_start s) c (f_run s) (f_oth s)
  | FRun => mkFs (f_start s) (f_bck s) c (f_oth s)
  | FOth => mkFs (f_start s) (f_bck s) (f_run s) c
  end.

Inductive run (A : Type) := Died (s : fs) | Fin (a : A) (o : list outcome) (s : fs).
Arguments Died {A}. Arguments Fin {A}.
Definition M (A : Type) := list outcome -> fs -> run A.
Definition ret {A} (a : A) : M A := fun o s => Fin a o s.
Definition bind {A B} (m : M A) (k : A -> M B) : M B :=
  fun o s => match m o s with Died s' => Died s' | Fin a o' s' => k a o' s' end.
Notation "x <- m ; k" := (bind m (fun x => k)) (at level 60, m at level 59, right associativity).
Definition sys {A} (call : outcome -> fs -> A * fs) : M A :=
  fun o s => match o with
             | [] => Died s
             | x :: o' => Fin (fst (call x s)) o' (snd (call x s))
             end.

(** write(2) of [d] at [pos] into a file with [l]; ftruncate(2) to [n]. *)
Definition wr (pos : nat) (d l : bytes) : bytes :=
  firstn pos l ++ repeat zero (pos - length l) ++ d ++ skipn (pos + length d) l.
Definition trunc (n : nat) (l : bytes) : bytes := firstn n l ++ repeat zero (n - length l).
Definition content (f : file) (s : fs) : bytes := match get f s with Some l => l | None => [] end.

(** stat(2), access(2) with F_OK, unlink(2); true is success. srpjson_file_exists, common_json.c 106-124, returns 0
    on all errors. *)
Definition exists_ (f : file) : M bool :=
  sys (fun x s => match x, get f s with Good _, Some _ => (true, s) | _, _ => (false, s) end).
Definition unlink (f : file) : M bool :=
  sys (fun x s => match x, get f s with Good _, Some _ => (true, set f None s) | _, _ => (false, s) end).
(** Calls without any effect on contents. *)
Definition try_ : M bool := sys (fun x s => (match x with Good _ => true | _ => false end, s)).
(** srpjson_open, common_json.c 171-231, without O_CREAT. *)
Definition open_ (f : file) : M bool :=
  sys (fun x s => match x, get f s with Good _, Some _ => (true, s) | _, _ => (false, s) end).
(** With O_TRUNC. *)
Definition open_trunc (f : file) : M bool :=
  sys (fun x s => match x, get f s with Good _, Some _ => (true, set f (Some []) s) | _, _ => (false, s) end).
(** With O_CREAT; [Intr]: setting of permissions or group of the created file fails, lines 196-228. *)
Definition open_creat (f : file) : M bool :=
  sys (fun x s => let s' := match get f s with Some _ => s | None => set f (Some []) s end in
                  match x with Good _ => (true, s') | Intr => (false, s') | Fail => (false, s) end).
(** With O_CREAT and O_EXCL. *)
Definition open_excl (f : file) : M bool :=
  sys (fun x s => match x, get f s with
                  | Good _, None => (true, set f (Some []) s)
                  | Intr, None => (false, set f (Some []) s)
                  | _, _ => (false, s)
                  end).

(** srpjson_cp_path, common_json.c 457-505: the loops. [rp] and [wp] are the positions in the files and [buf] the
    bytes not written yet. Reading fails also when interrupted. The result is whether there was an error. *)
Definition chunk : nat := N.to_nat 4096.
Fixpoint cp_loop (to from : file) (rp wp : nat) (buf : bytes) (o : list outcome) (s : fs) : run bool :=
  match o with
  | [] => Died s
  | x :: o' =>
      match buf with
      | [] =>
          match x with
          | Good n =>
              let rest := skipn rp (content from s) in
              match rest with
              | [] => Fin false o' s
              | _ =>
                  let k := Nat.max 1 (Nat.min n chunk) in
                  cp_loop to from (rp + length (firstn k rest)) wp (firstn k rest) o' s
              end
          | _ => Fin true o' s
          end
      | _ =>
          match x with
          | Good n =>
              let d := firstn n buf in
              cp_loop to from rp (wp + length d) (skipn n buf) o' (set to (Some (wr wp d (content to s))) s)
          | Intr => cp_loop to from rp wp buf o' s
          | Fail => Fin true o' s
          end
      end
  end.
Definition cp_path (to from : file) : M bool :=
  ok <- open_ from ;
  if negb ok then ret true else
  ok <- open_trunc to ;
  if negb ok then ret true else
  cp_loop to from 0 0 [].

(** lyd_print_all into the file: the text [rest] is written from the position [pos] by any number of writes of any
    sizes, any of them can fail (libyang is not a part of this repository). *)
Fixpoint print_loop (f : file) (pos : nat) (rest : bytes) (o : list outcome) (s : fs) : run bool :=
  match rest with
  | [] => Fin false o s
  | _ =>
      match o with
      | [] => Died s
      | x :: o' =>
          match x with
          | Good n =>
              let d := firstn n rest in
              print_loop f (pos + length d) (skipn n rest) o' (set f (Some (wr pos d (content f s))) s)
          | Intr => print_loop f pos rest o' s
          | Fail => Fin true o' s
          end
      end
  end.
Definition ftruncate (f : file) (n : nat) : M bool :=
  sys (fun x s => match x with Good _ => (true, set f (Some (trunc n (content f s))) s) | _ => (false, s) end).

(** srpds_json_store_, src/plugins/ds_json.c 49-158. [perm] and [owner]: given; [text]: printed data.
    cleanup, lines 142-157. *)
Definition cleanup (f : file) (backup creat err : bool) : M bool :=
  err <- (if backup then ok <- unlink FBck ; ret (err || negb ok) else ret err) ;
  if err && creat then _ <- unlink f ; ret err else ret err.
(** Lines 97-140. *)
Definition store_data (f : file) (text : bytes) (owner perm backup : bool) : M bool :=
  creat <- (if perm then open_excl f else ret false) ;
  ok <- (if creat then ret true else open_ f) ;
  if negb ok then cleanup f backup creat true else
  ok <- (if creat && owner then try_ else ret true) ; (* srpjson_chmodown *)
  if negb ok then cleanup f backup creat true else
  err <- print_loop f 0 text ;
  if err then cleanup f backup creat true else
  ok <- ftruncate f (length text) ;
  cleanup f backup creat (negb ok).
(** Lines 60-95. *)
Definition store_ (f : file) (text : bytes) (owner perm make_backup : bool) : M bool :=
  if make_backup then
    ok <- exists_ f ;
    if negb ok then ret true else
    ok <- open_creat FBck ;
    if negb ok then ret true else
    err <- cp_path FBck f ;
    if err then cleanup f true false true else
    store_data f text owner perm true
  else store_data f text owner perm false.

(** Datastores: [Other] candidate, factory-default or operational data of one session. *)
Inductive ds := Startup | Running | Other.
Definition path (d : ds) : file := match d with Startup => FStart | Running => FRun | Other => FOth end.

(** srpds_json_store, ds_json.c 350-404 (not removing of operational data, lines 394-396). For [Other] the case of
    candidate and operational data. The result: whether there was an error. *)
Definition store (d : ds) (text : bytes) : M bool :=
  match d with
  | Startup => store_ FStart text false false true
  | _ =>
      ex <- exists_ (path d) ;
      if ex then store_ (path d) text false false false
      else
        ok <- try_ ; (* srpds_json_access_get *)
        if negb ok then ret true else store_ (path d) text false true false
  end.

(** srpds_json_install_persistent, ds_json.c 171-195, of startup data; srpds_json_uninstall, lines 248-282. *)
Definition install (text : bytes) : M bool :=
  ex <- exists_ FStart ;
  if ex then ret true else store_ FStart text true true false.
Definition uninstall : M unit := _ <- unlink FStart ; ret tt.

(** srpds_json_copy, ds_json.c 573-636, into an existing file, as used at the first connection after a reboot by
    sr_shmmod_copy_mod, src/shm_mod.c 1694-1705 and 1804-1808. *)
Definition copy (trg src : ds) : M bool := cp_path (path trg) (path src).

Section Load.
Context {D : Type}.
(** lyd_parse_data_fd: [None] for a text which is not valid data of the module. *)
Variable parse : bytes -> option D.

Inductive loaded := LData (d : D) | LNone | LErr.

(** srpds_json_load_recover, ds_json.c 415-460: error, recovered or not. *)
Definition load_recover (d : ds) : M bool :=
  match d with
  | Startup => ret true
  | Running => cp_path FRun FStart
  | Other => ok <- unlink FOth ; ret (negb ok)
  end.
(** srpds_json_load, ds_json.c 508-571, from the label retry; a file which cannot be read is not valid. [n] is a limit
    of attempts never reached, each takes an outcome. *)
Fixpoint retry (n : nat) (d : ds) (has_data : bool) (o : list outcome) (s : fs) : run loaded :=
  match n with
  | 0 => Died s
  | S n' =>
      match open_ (path d) o s with
      | Died s => Died s
      | Fin false o s =>
          match d, get (path d) s with
          | Running, None => Fin (if has_data then LErr else LNone) o s
          | _, _ => Fin LErr o s
          end
      | Fin true o s =>
          match o with
          | [] => Died s
          | x :: o =>
              match x, parse (content (path d) s) with
              | Good _, Some y => Fin (LData y) o s
              | _, _ =>
                  match load_recover d o s with
                  | Died s => Died s
                  | Fin true o s => Fin LErr o s
                  | Fin false o s => retry n' d has_data o s
                  end
              end
          end
      end
  end.
(** srpds_json_load, lines 462-507. *)
Definition load (d : ds) (has_data : bool) : M loaded :=
  let rest : M loaded := fun o s => retry (S (length o)) d has_data o s in
  match d with
  | Startup =>
      ex <- exists_ FBck ;
      if ex then
        err <- cp_path FStart FBck ;
        if err then ret LErr else
        ok <- unlink FBck ;
        if negb ok then ret LErr else rest
      else rest
  | _ => rest
  end.
End Load.
Arguments LData {D}. Arguments LNone {D}. Arguments LErr {D}.
