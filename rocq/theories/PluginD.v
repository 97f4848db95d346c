(** The plugin daemon: src/executables/sysrepo-plugind.c 261-383 (load_plugins()), 385-419
    (publish_loaded_plugins()), 421-443 (open_pidfile()), 467-651 (main()); src/executables/srpd_common.c 69-76
    (srpd_path_len_no_ext()), 133-190 (srpd_sort_plugins()).

    Left out: the command line, memory, what plugins do, and the second signal, which ends the
    process at once. *)
From Coq Require Import List Bool Arith.
Import ListNotations.

Definition name := list nat.
Definition dot := 46.
Fixpoint name_eqb (a b : name) : bool :=
  match a, b with [], [] => true | x :: a, y :: b => Nat.eqb x y && name_eqb a b | _, _ => false end.

(** strrchr(): what is before the last dot *)
Fixpoint cut (s : name) : option name :=
  match s with
  | [] => None
  | c :: t => match cut t with
              | Some b => Some (c :: b)
              | None => if Nat.eqb c dot then Some [] else None
              end
  end.
(** srpd_path_len_no_ext(), srpd_common.c 69-76 *)
Definition no_ext (s : name) : name := match cut s with Some b => b | None => s end.

(** A loaded plugin: its name, a number to tell it from others, whether its init callback succeeds *)
Record plugin := mkplugin { p_name : name; p_id : nat; p_ok : bool }.

(** srpd_plugin_names_cmp(), srpd_common.c 147-161 *)
Definition matches (p : plugin) (v : name) : bool := name_eqb (p_name p) (no_ext v).

(** The inner loop of srpd_sort_plugins(), srpd_common.c 177-183: the array is what is before ordered_part, what
    is between it and j, and the rest; srpd_swap() exchanges the first of the second part with the one at j *)
Fixpoint pass (v : name) (front mid rest : list plugin) : list plugin * list plugin :=
  match rest with
  | [] => (front, mid)
  | x :: t => if matches x v then pass v (front ++ [x]) (match mid with [] => [] | y :: m => m ++ [y] end) t
              else pass v front (mid ++ [x]) t
  end.
Fixpoint sort_from (vs : list name) (front rest : list plugin) : list plugin :=
  match vs with
  | [] => front ++ rest
  | v :: t => let (f, r) := pass v front [] rest in sort_from t f r
  end.
Definition sort (vs : list name) (ps : list plugin) : list plugin := sort_from vs [] ps.

(** load_plugins(), sysrepo-plugind.c 304-379: a file that is not a plugin is an error, as is a name that is
    only an extension *)
Inductive file := FBad | FGood (n : name) (id : nat) (ok : bool).
Fixpoint load (ps : list plugin) (fs : list file) : list plugin * bool :=
  match fs with
  | [] => (ps, true)
  | FBad :: _ => (ps, false)
  | FGood n id ok :: t => match no_ext n with
                          | [] => (ps, false)
                          | b => load (ps ++ [mkplugin b id ok]) t
                          end
  end.

Inductive event := EInit (id : nat) (ok : bool) | EPublish (ns : list name) | EReady | EClean (id : nat).

(** The init callbacks, sysrepo-plugind.c 584-598: the plugins with the flag initialized, calls, whether to go on *)
Fixpoint inits (fatal : bool) (ps : list plugin) : list (plugin * bool) * list event * bool :=
  match ps with
  | [] => ([], [], true)
  | p :: t =>
      if negb (p_ok p) && fatal then ((p, false) :: map (fun q => (q, false)) t, [EInit (p_id p) false], false)
      else let '(l, es, go) := inits fatal t in ((p, p_ok p) :: l, EInit (p_id p) (p_ok p) :: es, go)
  end.

(** publish_loaded_plugins(), 385-419: a leaf-list without configuration is set by position [i + 1].  Whether a position
    after the one following the last can be created is up to libyang ([gaps]). *)
Fixpoint publish (gaps : bool) (i cnt : nat) (l : list (plugin * bool)) : option (list name) :=
  match l with
  | [] => Some []
  | (p, b) :: t =>
      if b then if gaps || Nat.eqb i cnt then option_map (cons (p_name p)) (publish gaps (S i) (S cnt) t) else None
      else publish gaps (S i) cnt t
  end.

(** The label cleanup, 630-642 *)
Definition cleanup (l : list (plugin * bool)) : list event := flat_map (fun x : plugin * bool => if snd x then [EClean (p_id (fst x))] else []) l.

(** What the daemon meets: internal plugins, whether the directory can be read, its files, whether connecting
    works, the configured order unless it cannot be read, the option -f, applying of state data, writing of the PID file *)
Record env := mkenv { n_int : list plugin; n_dir : bool; n_files : list file; n_conn : bool; n_order : option (list name);
  n_fatal : bool; n_gaps : bool; n_apply : bool; n_pid : bool }.

(** main(), 556-651; a terminating signal comes sooner or later *)
Definition main (e : env) : list event * bool :=
  let (ps, ok) := if n_dir e then load (n_int e) (n_files e) else (n_int e, false) in
  if negb ok then ([], false)
  else if negb (n_conn e) then ([], false)
  else match n_order e with
       | None => ([], false)
       | Some vs =>
           let '(l, es, go) := inits (n_fatal e) (sort vs ps) in
           if negb go then (es ++ cleanup l, false)
           else match publish (n_gaps e) 0 0 l with
                | None => (es ++ cleanup l, false)
                | Some ns =>
                    if negb (n_apply e) then (es ++ cleanup l, false)
                    else if negb (n_pid e) then (es ++ [EPublish ns] ++ cleanup l, false)
                    else (es ++ [EPublish ns; EReady] ++ cleanup l, true)
                end
       end.

(** *** The PID file *)
(** Files are told by inode numbers; a lock of lockf() is of a process and an inode, is not inherited by a
    forked child and is lost when the process closes the file. *)
Record proc := mkproc { r_id : nat; r_inode : nat; r_locked : bool }.
Record world := mkworld { w_file : option nat; w_next : nat; w_run : list proc }.
Inductive pstep := PStart (id : nat) (debug : bool) | PClose (id : nat) | PUnlink.

(** open_pidfile(), 421-443, and daemon_init(), 209-258, which forks unless debugging; the end of main(), 644-647:
    close() and then unlink().  Simplification: opening and locking are one step. *)
Definition pdo (s : pstep) (w : world) : world * bool :=
  match s with
  | PStart id debug =>
      let i := match w_file w with Some i => i | None => w_next w end in
      let n := match w_file w with Some _ => w_next w | None => S (w_next w) end in
      if existsb (fun p => r_locked p && Nat.eqb (r_inode p) i) (w_run w) then (mkworld (Some i) n (w_run w), false)
      else (mkworld (Some i) n (w_run w ++ [mkproc id i debug]), true)
  | PClose id => (mkworld (w_file w) (w_next w) (filter (fun p => negb (Nat.eqb (r_id p) id)) (w_run w)), true)
  | PUnlink => (mkworld None (w_next w) (w_run w), true)
  end.
Definition prun (l : list pstep) (w : world) : world := fold_left (fun w s => fst (pdo s w)) l w.
