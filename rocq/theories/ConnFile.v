(** Which connections are alive: lock files of connections.

    Modelled: src/shm_main.c 178-278 (sr_shmmain_conn_check()), 286-344
    (sr_shmmain_conn_new_lockfile()), 346-396 (sr_shmmain_conn_list_add()), 398-450
    (sr_shmmain_conn_list_del()); src/sysrepo.c 240-246, 326-332 (sr_connect()) and 392
    (sr_disconnect()); src/common.c 5434-5540 (sr_conn_info(), one file it finds).

    Every step of a thread is one system call or one critical section of the mutex of
    the process' list; threads of any number of processes are interleaved, processes are
    killed and the machine restarts at any point.  POSIX record locks: a lock belongs to
    a process and a file, asking never reports a lock of the same process, and closing
    any descriptor of the file releases the lock of the process.

    Simplified: memory, permissions and other errors of the system do not fail, fewer
    than 2^32 connections are made between restarts, CIDs and descriptors are numbers
    without a bound.  The lock for creating connections (only one is made at a time) is
    left out, which allows more schedules. *)
From Coq Require Import NArith List Bool.
Import ListNotations.
Local Open Scope N_scope.

Inductive pc :=
| A0                       (* open conn_<cid>.lock.new, shm_main.c 298 *)
| A1 (i : N)               (* F_SETLK, 319 *)
| A2 (i : N)               (* rename, 328 *)
| A3 (i : N)               (* into the list of the process, 369-374 *)
| A4                       (* the rest of sr_connect() *)
| D1                       (* unlink, 443 *)
| C0                       (* the list of the process, 190-216 *)
| C1                       (* open conn_<cid>.lock, 222 *)
| C2 (i : N)               (* F_GETLK, 242 *)
| C3 (i : N) (b : bool)    (* close, 246 *)
| C4.                      (* unlink, 259 *)

Record thread := Th { t_pid : N; t_cid : N; t_pc : pc }.

Record state := St {
  fnew : N -> option N;          (* conn_<cid>.lock.new: the file *)
  ffin : N -> option N;          (* conn_<cid>.lock: the file *)
  lk : N -> option N;            (* the process that locked a file *)
  nino : N;                      (* the next file *)
  lst : list (N * N * N);        (* lists of processes: process, CID, file *)
  ncid : N;                      (* new_sr_cid in the main SHM *)
  thr : N -> option thread;
  ntid : N;
  (* not in the program, for stating properties: *)
  live : list (N * N);           (* connections: from being added until disconnecting *)
  used : list N;                 (* CIDs of connections since the last restart *)
  res : list (N * N * bool);     (* results of checks: thread, CID, alive *)
  dres : list (N * N * bool)     (* results of disconnecting: process, CID, no error *)
}.

Definition upd {A : Type} (f : N -> A) (k : N) (v : A) : N -> A := fun x => if N.eqb k x then v else f x.

Definition init : state :=
  St (fun _ => None) (fun _ => None) (fun _ => None) 0 [] 1 (fun _ => None) 0 [] [] [] [].

Inductive event :=
| EConnect (p : N)
| EStep (t : N)
| EDisconnect (p c : N)
| ECheck (p c : N)
| EList (p c : N)
| EFail (t : N)
| EKill (p : N)
| EReboot.

Definition goto (s : state) (t : N) (th : thread) (c : pc) : N -> option thread :=
  upd (thr s) t (Some (Th (t_pid th) (t_cid th) c)).
Definition ends (s : state) (t : N) : N -> option thread := upd (thr s) t None.

(** close() of a file by a process *)
Definition close (l : N -> option N) (i p : N) : N -> option N :=
  match l i with Some q => if N.eqb q p then upd l i None else l | None => l end.

Definition has (l : list (N * N * N)) (p c : N) : bool :=
  existsb (fun x => N.eqb (fst (fst x)) p && N.eqb (snd (fst x)) c) l.

Definition has2 (l : list (N * N)) (p c : N) : bool :=
  existsb (fun x => N.eqb (fst x) p && N.eqb (snd x) c) l.

Definition del2 (l : list (N * N)) (p c : N) : list (N * N) :=
  filter (fun x => negb (N.eqb (fst x) p && N.eqb (snd x) c)) l.

(** The first one is removed, shm_main.c 409-431 *)
Fixpoint del_first (l : list (N * N * N)) (p c : N) : list (N * N * N) * option N :=
  match l with
  | [] => ([], None)
  | (q, d, i) :: l' => if N.eqb q p && N.eqb d c then (l', Some i)
                       else let (r, o) := del_first l' p c in ((q, d, i) :: r, o)
  end.

(** One step of a thread *)
Definition tstep (s : state) (t : N) (th : thread) : state :=
  let p := t_pid th in
  let c := t_cid th in
  match t_pc th with
  | A0 => match fnew s c with
          | Some i => St (fnew s) (ffin s) (lk s) (nino s) (lst s) (ncid s) (goto s t th (A1 i)) (ntid s) (live s) (used s) (res s) (dres s)
          | None => St (upd (fnew s) c (Some (nino s))) (ffin s) (lk s) (nino s + 1) (lst s) (ncid s) (goto s t th (A1 (nino s))) (ntid s) (live s) (used s) (res s) (dres s)
          end
  | A1 i => match lk s i with
            | Some q => if N.eqb q p
                        then St (fnew s) (ffin s) (lk s) (nino s) (lst s) (ncid s) (goto s t th (A2 i)) (ntid s) (live s) (used s) (res s) (dres s)
                        else St (fnew s) (ffin s) (lk s) (nino s) (lst s) (ncid s) (ends s t) (ntid s) (live s) (used s) (res s) (dres s)
            | None => St (fnew s) (ffin s) (upd (lk s) i (Some p)) (nino s) (lst s) (ncid s) (goto s t th (A2 i)) (ntid s) (live s) (used s) (res s) (dres s)
            end
  | A2 i => match fnew s c with
            | Some j => St (upd (fnew s) c None) (upd (ffin s) c (Some j)) (lk s) (nino s) (lst s) (ncid s) (goto s t th (A3 i)) (ntid s) (live s) (used s) (res s) (dres s)
            | None => St (fnew s) (ffin s) (close (lk s) i p) (nino s) (lst s) (ncid s) (ends s t) (ntid s) (live s) (used s) (res s) (dres s)
            end
  | A3 i => St (fnew s) (ffin s) (lk s) (nino s) ((p, c, i) :: lst s) (ncid s) (goto s t th A4) (ntid s) ((p, c) :: live s) (c :: used s) (res s) (dres s)
  | A4 => St (fnew s) (ffin s) (lk s) (nino s) (lst s) (ncid s) (ends s t) (ntid s) (live s) (used s) (res s) (dres s)
  | D1 => St (fnew s) (upd (ffin s) c None) (lk s) (nino s) (lst s) (ncid s) (ends s t) (ntid s) (live s) (used s) (res s)
            ((p, c, match ffin s c with Some _ => true | None => false end) :: dres s)
  | C0 => if has (lst s) p c
          then St (fnew s) (ffin s) (lk s) (nino s) (lst s) (ncid s) (ends s t) (ntid s) (live s) (used s) ((t, c, true) :: res s) (dres s)
          else St (fnew s) (ffin s) (lk s) (nino s) (lst s) (ncid s) (goto s t th C1) (ntid s) (live s) (used s) (res s) (dres s)
  | C1 => match ffin s c with
          | None => St (fnew s) (ffin s) (lk s) (nino s) (lst s) (ncid s) (ends s t) (ntid s) (live s) (used s) ((t, c, false) :: res s) (dres s)
          | Some i => St (fnew s) (ffin s) (lk s) (nino s) (lst s) (ncid s) (goto s t th (C2 i)) (ntid s) (live s) (used s) (res s) (dres s)
          end
  | C2 i => St (fnew s) (ffin s) (lk s) (nino s) (lst s) (ncid s)
              (goto s t th (C3 i (match lk s i with Some q => negb (N.eqb q p) | None => false end)))
              (ntid s) (live s) (used s) (res s) (dres s)
  | C3 i true => St (fnew s) (ffin s) (close (lk s) i p) (nino s) (lst s) (ncid s) (ends s t) (ntid s) (live s) (used s) ((t, c, true) :: res s) (dres s)
  | C3 i false => St (fnew s) (ffin s) (close (lk s) i p) (nino s) (lst s) (ncid s) (goto s t th C4) (ntid s) (live s) (used s) (res s) (dres s)
  | C4 => St (fnew s) (upd (ffin s) c None) (lk s) (nino s) (lst s) (ncid s) (ends s t) (ntid s) (live s) (used s) ((t, c, false) :: res s) (dres s)
  end.

Definition spawn (s : state) (p c n : N) (k : pc) : state :=
  St (fnew s) (ffin s) (lk s) (nino s) (lst s) n (upd (thr s) (ntid s) (Some (Th p c k))) (ntid s + 1) (live s) (used s) (res s) (dres s).

(** [ECheck]: the CID was read in the SHM, so it is of a connection that was added;
    [EList]: the CID is from the name of a file.  [EFail]: sr_connect() fails after the
    connection was added and does not remove it. *)
Definition step (s : state) (e : event) : option state :=
  match e with
  | EConnect p => Some (spawn s p (ncid s) (ncid s + 1) A0)
  | EStep t => match thr s t with Some th => Some (tstep s t th) | None => None end
  | EDisconnect p c =>
      if has2 (live s) p c then
        match del_first (lst s) p c with
        | (l, Some i) =>
            Some (St (fnew s) (ffin s) (close (lk s) i p) (nino s) l (ncid s)
                    (upd (thr s) (ntid s) (Some (Th p c D1))) (ntid s + 1) (del2 (live s) p c) (used s) (res s) (dres s))
        | (_, None) => None
        end
      else None
  | ECheck p c => if existsb (N.eqb c) (used s) then Some (spawn s p c (ncid s) C0) else None
  | EList p c => match ffin s c with Some _ => Some (spawn s p c (ncid s) C0) | None => None end
  | EFail t => match thr s t with
               | Some (Th p c A4) => Some (St (fnew s) (ffin s) (lk s) (nino s) (lst s) (ncid s) (ends s t) (ntid s) (del2 (live s) p c) (used s) (res s) (dres s))
               | _ => None
               end
  | EKill p => Some (St (fnew s) (ffin s) (fun i => match lk s i with Some q => if N.eqb q p then None else Some q | None => None end)
                       (nino s) (filter (fun x => negb (N.eqb (fst (fst x)) p)) (lst s)) (ncid s)
                       (fun t => match thr s t with Some th => if N.eqb (t_pid th) p then None else Some th | None => None end)
                       (ntid s) (filter (fun x => negb (N.eqb (fst x) p)) (live s)) (used s) (res s) (dres s))
  | EReboot => Some (St (fnew s) (ffin s) (fun _ => None) (nino s) [] 1 (fun _ => None) (ntid s) [] [] [] [])
  end.

Fixpoint run (s : state) (l : list event) : option state :=
  match l with
  | [] => Some s
  | e :: l' => match step s e with Some s' => run s' l' | None => None end
  end.
