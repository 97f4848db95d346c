(** Rotation of stored notifications by sysrepo-plugind.

    Modelled: src/executables/srpd_rotation.c 94-150 (srpd_format_check()), 152-258
    (srpd_rotation_loop()), 288-330 (srpd_rotation_change_cb(), older-than), 115
    (rotated-files-count); src/plugins/ntf_json.c 328-364 (srpntf_rename_file()), 401-490
    (srpntf_json_store()); src/plugins/common_json.c 731-747 (srpjson_get_notif_path()).

    The thread that rotates and stores of notifications (one of a module at a time, they
    hold its replay lock, src/replay.c) make one system call at a time.  tar is one step
    that copies the file.  Simplified: a store appends to any file of its module or
    creates a new one (which file is the latest and its size limit are in NtfJson.v);
    times are not negative; files with other names in the directory and the archive being
    the same directory are left out. *)
From Coq Require Import String Ascii NArith ZArith List Bool Decimal DecimalString.
Import ListNotations.
Local Open Scope N_scope.

(** * Names of files *)

(** PRId64 of a number *)
Definition dec (n : N) : string := NilEmpty.string_of_uint (N.to_uint n).

(** srpjson_get_notif_path(), common_json.c 737, without the directory *)
Definition fname (m : string) (a b : N) : string := (m ++ ".notif." ++ dec a ++ "-" ++ dec b)%string.

(** strchr(): the rest after the first [c] *)
Fixpoint after (c : ascii) (s : string) : option string :=
  match s with
  | EmptyString => None
  | String x s' => if Ascii.eqb x c then Some s' else after c s'
  end.

Definition digit (c : ascii) : option N :=
  let n := N_of_ascii c in if (48 <=? n) && (n <=? 57) then Some (n - 48) else None.

Definition space (c : ascii) : bool := let n := N_of_ascii c in (n =? 32) || ((9 <=? n) && (n <=? 13)).

Fixpoint digits (v : N) (s : string) : N * string :=
  match s with
  | EmptyString => (v, EmptyString)
  | String c s' => match digit c with Some d => digits (v * 10 + d) s' | None => (v, s) end
  end.

Definition two64 : N := 2 ^ 64.

(** strtoul(s, &end, 10): [None] if there are no digits (end = s) *)
Definition number (neg : bool) (s : string) : option (N * string) :=
  match s with
  | String c _ =>
      match digit c with
      | Some _ => let (v, r) := digits 0 s in
                  Some (if two64 <=? v then two64 - 1 else if neg && negb (v =? 0) then two64 - v else v, r)
      | None => None
      end
  | EmptyString => None
  end.
Fixpoint strtoul (s : string) : option (N * string) :=
  match s with
  | EmptyString => None
  | String c s' =>
      if space c then strtoul s'
      else if Ascii.eqb c "-" then number true s'
      else if Ascii.eqb c "+" then number false s'
      else number false s
  end.

(** srpd_format_check(), 107-150 *)
Definition format_check (name : string) : option (N * N) :=
  match after "." name with
  | None => None
  | Some x =>
      if String.eqb (substring 0 6 x) "notif." then
        match after "." x with
        | None => None
        | Some y =>
            match strtoul y with
            | None => None
            | Some (t1, _) =>
                match after "-" y with
                | None => None
                | Some z => match strtoul z with None => None | Some (t2, _) => Some (t1, t2) end
                end
            end
        end
      else None
  end.

(** * The configured time *)

(** time_t is signed: a product that does not fit is undefined, [None] *)
Definition mul (a : option Z) (k : Z) : option Z :=
  match a with
  | None => None
  | Some x => let y := (x * k)%Z in
              if ((- 2 ^ 63 <=? y) && (y <? 2 ^ 63))%Z then Some y else None
  end.
Definition time_t (n : N) : Z := if n <? 2 ^ 63 then Z.of_N n else (Z.of_N n - 2 ^ 64)%Z.

(** Changing older-than, 290-322 *)
Definition period (s : string) : option Z :=
  let (v, u) := match strtoul s with Some (n, r) => (Some (time_t n), r) | None => (Some 0%Z, s) end in
  let c := match u with String c _ => c | EmptyString => Ascii.zero end in
  let v := if Ascii.eqb c "Y" then mul v 365 else if Ascii.eqb c "M" then mul v 30
           else if Ascii.eqb c "W" then mul v 7 else v in
  if Ascii.eqb c "s" then v
  else if Ascii.eqb c "m" then mul v 60
  else if Ascii.eqb c "h" then mul (mul v 60) 60
  else mul (mul (mul v 24) 60) 60.

(** 199-200 *)
Definition due (cur t2 : N) (rt : Z) : bool :=
  ((rt <=? Z.of_N cur) && (Z.of_N t2 <? Z.of_N cur - rt))%Z.

(** * Files *)

Definition name : Type := string * N * N.
Definition nmod (x : name) : string := fst (fst x).
Definition nfrom (x : name) : N := snd (fst x).
Definition nto (x : name) : N := snd x.
Definition neqb (x y : name) : bool := String.eqb (nmod x) (nmod y) && (nfrom x =? nfrom y) && (nto x =? nto y).

(** A notification: which one and its time *)
Definition ntf : Type := N * N.

Inductive writer :=
| WFd (x : name) (i : N) (n : ntf)      (* the file is open, ntf_json.c 434-452 *)
| WNew (i : N) (n : ntf)                (* a new file is open, 468-477 *)
| WRen (x : name) (n : ntf).            (* written, to be renamed, 455 *)

Inductive rotator :=
| RIdle
| RScan (cur : N)                       (* reading the directory, 172-190 *)
| RTar (cur : N) (x : name).            (* compressed, to be removed, 216-224 *)

Definition key : Type := string * bool * name.  (* output-dir, .tar.gz, name *)
Definition keqb (a b : key) : bool :=
  String.eqb (fst (fst a)) (fst (fst b)) && Bool.eqb (snd (fst a)) (snd (fst b)) && neqb (snd a) (snd b).
Inductive content := File (i : N) | Copy (l : list ntf).

Record cfg := Cfg { c_rt : Z; c_dir : string; c_tar : bool }.

Record state := St {
  now : N;
  dir : name -> option N;               (* the directory of notifications *)
  data : N -> list ntf;                 (* contents of files *)
  nino : N;
  wr : string -> option writer;         (* the store of a module in progress *)
  rot : rotator;
  conf : cfg;
  arch : list (key * content);          (* the archive *)
  cnt : N;                              (* rotated-files-count *)
  (* not in the program, for stating properties: *)
  last : string -> N;                   (* time of the last stored notification *)
  written : list ntf;                   (* all notifications ever written *)
  alog : list (N * Z * name * list ntf) (* archived: time, older-than, name, contents *)
}.

Definition dset (f : name -> option N) (x : name) (v : option N) : name -> option N := fun y => if neqb x y then v else f y.
Definition sset {A : Type} (f : string -> A) (x : string) (v : A) : string -> A := fun y => if String.eqb x y then v else f y.
Definition iset (f : N -> list ntf) (x : N) (v : list ntf) : N -> list ntf := fun y => if x =? y then v else f y.

Definition put (a : list (key * content)) (k : key) (v : content) : list (key * content) :=
  (k, v) :: filter (fun e => negb (keqb (fst e) k)) a.

Inductive event :=
| ETick (d : N)
| EOpen (m : string) (n : ntf) (x : name)   (* store: open an existing file *)
| ENew (m : string) (n : ntf)               (* store: create a file *)
| EWrite (m : string)
| ERename (m : string)
| EConfig (c : cfg)
| EPass                                     (* the loop starts reading the directory *)
| ERot (x : name) (ok : bool)               (* the next name; ok: tar or rename succeed *)
| ERemove
| EStop.                                    (* the thread ends or its process is killed *)

(** One name read from the directory, 185-248 *)
Definition rotate (s : state) (cur : N) (x : name) (ok : bool) : state :=
  match format_check (fname (nmod x) (nfrom x) (nto x)) with
  | None => s
  | Some (_, t2) =>
      if due cur t2 (c_rt (conf s)) then
        match dir s x with
        | Some i =>
            if ok then
              let k := (c_dir (conf s), c_tar (conf s), x) in
              let lg := (cur, c_rt (conf s), x, data s i) :: alog s in
              if c_tar (conf s)
              then St (now s) (dir s) (data s) (nino s) (wr s) (RTar cur x) (conf s) (put (arch s) k (Copy (data s i)))
                     (cnt s + 1) (last s) (written s) lg
              else St (now s) (dset (dir s) x None) (data s) (nino s) (wr s) (RScan cur) (conf s) (put (arch s) k (File i))
                     (cnt s + 1) (last s) (written s) lg
            else s
        | None => s
        end
      else s
  end.

Definition step (s : state) (e : event) : option state :=
  match e with
  | ETick d => Some (St (now s + d) (dir s) (data s) (nino s) (wr s) (rot s) (conf s) (arch s) (cnt s) (last s) (written s) (alog s))
  | EOpen m n x =>
      match wr s m, dir s x with
      | None, Some i =>
          if String.eqb (nmod x) m
          then Some (St (now s) (dir s) (data s) (nino s) (sset (wr s) m (Some (WFd x i n))) (rot s) (conf s) (arch s) (cnt s)
                       (sset (last s) m (snd n)) (written s) (alog s))
          else None
      | _, _ => None
      end
  | ENew m n =>
      match wr s m with
      | None =>
          match dir s (m, snd n, snd n) with
          | Some _ => Some s     (* O_EXCL: an error *)
          | None =>
              Some (St (now s) (dset (dir s) (m, snd n, snd n) (Some (nino s))) (iset (data s) (nino s) []) (nino s + 1)
                      (sset (wr s) m (Some (WNew (nino s) n))) (rot s) (conf s) (arch s) (cnt s)
                      (sset (last s) m (snd n)) (written s) (alog s))
          end
      | Some _ => None
      end
  | EWrite m =>
      match wr s m with
      | Some (WFd x i n) =>
          Some (St (now s) (dir s) (iset (data s) i (data s i ++ [n])) (nino s) (sset (wr s) m (Some (WRen x n))) (rot s) (conf s)
                  (arch s) (cnt s) (last s) (n :: written s) (alog s))
      | Some (WNew i n) =>
          Some (St (now s) (dir s) (iset (data s) i (data s i ++ [n])) (nino s) (sset (wr s) m None) (rot s) (conf s)
                  (arch s) (cnt s) (last s) (n :: written s) (alog s))
      | _ => None
      end
  | ERename m =>
      match wr s m with
      | Some (WRen x n) =>
          let w := sset (wr s) m None in
          if snd n <=? nto x
          then Some (St (now s) (dir s) (data s) (nino s) w (rot s) (conf s) (arch s) (cnt s) (last s) (written s) (alog s))
          else
            match dir s x with
            | Some i => Some (St (now s) (dset (dset (dir s) x None) (nmod x, nfrom x, snd n) (Some i)) (data s) (nino s) w
                                (rot s) (conf s) (arch s) (cnt s) (last s) (written s) (alog s))
            | None => Some (St (now s) (dir s) (data s) (nino s) w (rot s) (conf s) (arch s) (cnt s) (last s) (written s) (alog s))
            end
      | _ => None
      end
  | EConfig c => Some (St (now s) (dir s) (data s) (nino s) (wr s) (rot s) c (arch s) (cnt s) (last s) (written s) (alog s))
  | EPass =>
      match rot s with
      | RTar _ _ => None
      | _ => Some (St (now s) (dir s) (data s) (nino s) (wr s) (RScan (now s)) (conf s) (arch s) (cnt s) (last s) (written s) (alog s))
      end
  | ERot x ok => match rot s with RScan cur => Some (rotate s cur x ok) | _ => None end
  | ERemove =>
      match rot s with
      | RTar cur x => Some (St (now s) (dset (dir s) x None) (data s) (nino s) (wr s) (RScan cur) (conf s) (arch s) (cnt s)
                              (last s) (written s) (alog s))
      | _ => None
      end
  | EStop => Some (St (now s) (dir s) (data s) (nino s) (wr s) RIdle (conf s) (arch s) (cnt s) (last s) (written s) (alog s))
  end.

Fixpoint run (s : state) (l : list event) : option state :=
  match l with
  | [] => Some s
  | e :: l' => match step s e with Some s' => run s' l' | None => None end
  end.

Definition init (c : cfg) : state :=
  St 0 (fun _ => None) (fun _ => []) 0 (fun _ => None) RIdle c [] 0 (fun _ => 0) [] [].
