(** Collecting of the modules whose data are needed for validating changes (struct sr_mod_info_s). *)
From Coq Require Import List Bool Arith.
Import ListNotations.

(** struct sr_mod_info_mod_s, src/modinfo.h 33-70: the module, the flags MOD_INFO_NEW, REQ, DEP,
    INV_DEP, CHANGED and DATA, the XPaths selecting its data (none: all the data).  [d_all] and
    [d_paths] are what was loaded.  XPaths are only compared, numbers stand for them. *)
Record dmod := mkdm { d_id : nat; d_new : bool; d_req : bool; d_dep : bool; d_inv : bool; d_chg : bool; d_data : bool;
                      d_xp : list nat; d_all : bool; d_paths : list nat }.

Inductive mtype := TReq | TDep | TInv.
Definition has_type (t : mtype) (m : dmod) : bool := match t with TReq => d_req m | TDep => d_dep m | TInv => d_inv m end.
Definition set_type (t : mtype) (m : dmod) : dmod :=
  mkdm (d_id m) (d_new m) (match t with TReq => true | _ => d_req m end) (match t with TDep => true | _ => d_dep m end)
       (match t with TInv => true | _ => d_inv m end) (d_chg m) (d_data m) (d_xp m) (d_all m) (d_paths m).
Definition set_new (b : bool) (m : dmod) : dmod :=
  mkdm (d_id m) b (d_req m) (d_dep m) (d_inv m) (d_chg m) (d_data m) (d_xp m) (d_all m) (d_paths m).
Definition set_xp (x : list nat) (m : dmod) : dmod :=
  mkdm (d_id m) (d_new m) (d_req m) (d_dep m) (d_inv m) (d_chg m) (d_data m) x (d_all m) (d_paths m).
Definition set_chg (b : bool) (m : dmod) : dmod :=
  mkdm (d_id m) (d_new m) (d_req m) (d_dep m) (d_inv m) b (d_data m) (d_xp m) (d_all m) (d_paths m).
Definition fresh (i : nat) : dmod := mkdm i false false false false false false [] false [].

(** sr_modinfo_add(), src/modinfo.c 50-112 (with the duplicate check).  For one module that is there: *)
Definition add_to (xp : option nat) (m : dmod) : dmod :=
  if d_req m && match d_xp m with [] => true | _ => false end then m
  else
    let m := if negb (d_req m) then set_new true m else m in
    match xp with
    | None => m
    | Some x => if existsb (Nat.eqb x) (d_xp m) then m else set_xp (d_xp m ++ [x]) m
    end.
Fixpoint mi_add (i : nat) (xp : option nat) (mi : list dmod) : list dmod :=
  match mi with
  | [] => [set_xp (match xp with Some x => [x] | None => [] end) (set_new true (fresh i))]
  | m :: r => if Nat.eqb (d_id m) i then add_to xp m :: r else m :: mi_add i xp r
  end.

(** sr_modinfo_mod_new(), src/modinfo.c 2791-2879. *)
Fixpoint mod_new (i : nat) (t : mtype) (mi : list dmod) : list dmod :=
  match mi with
  | [] => [set_type t (fresh i)]
  | m :: r => if Nat.eqb (d_id m) i then set_new false (set_type t m) :: r else m :: mod_new i t r
  end.

(** sr_modinfo_mod_inv_deps(), src/modinfo.c 2888-2911. *)
Definition mod_inv_deps (inv : nat -> list nat) (i : nat) (mi : list dmod) : list dmod :=
  fold_left (fun mi x => mod_new x TInv mi) (inv i) mi.

(** Loading of the data of one module, in sr_modinfo_data_load(), src/modinfo.c 3007-3022: skipped
    if all the data are there. *)
Definition load1 (m : dmod) : dmod :=
  if d_data m then m
  else match d_xp m with
       | [] => mkdm (d_id m) (d_new m) (d_req m) (d_dep m) (d_inv m) (d_chg m) true (d_xp m) true (d_paths m)
       | _ => mkdm (d_id m) (d_new m) (d_req m) (d_dep m) (d_inv m) (d_chg m) false (d_xp m) (d_all m) (d_xp m)
       end.

(** sr_modinfo_consolidate(), src/modinfo.c 3033-3118 (sorting, permissions and locking are left
    out: they do not matter here).  The modules appended by the loop over inverse dependencies do
    not have the type the loop looks for, so it is a loop over the modules before it. *)
Definition consolidate (inv : nat -> list nat) (t : mtype) (with_inv : bool) (mi : list dmod) : list dmod :=
  if negb (existsb d_new mi) then mi
  else
    let mi := map (fun m => if d_new m then set_new false (set_type t m) else m) mi in
    let mi := if with_inv then fold_left (fun acc i => mod_inv_deps inv i acc) (map d_id (filter (has_type t) mi)) mi else mi in
    map load1 mi.

(** sr_modinfo_collect_deps(), src/modinfo.c 375-397, with sr_shmmod_collect_deps(), src/shm_mod.c
    1253-1296.  [deps]: target modules and paths of all leafref, instance-identifier (of the present
    data or default) and XPath (when, must) dependencies of a module.  New modules appended in the
    loop have none of the flags looked for. *)
Definition collect_deps (deps : nat -> list (nat * nat)) (mi : list dmod) : list dmod :=
  fold_left (fun acc i => fold_left (fun acc d => mi_add (fst d) (Some (snd d)) acc) (deps i) acc)
            (map d_id (filter (fun m => (d_req m && d_chg m) || d_inv m) mi)) mi.

(** The whole collecting in an apply of changes: modules of the edit (sr_modinfo_collect_edit(),
    src/modinfo.c 149-215), src/sysrepo.c 4262-4290, then applying of the edit marks some of them as
    changed, then 4025-4030. *)
Definition collect (inv : nat -> list nat) (deps : nat -> list (nat * nat)) (req : list nat) (chg : nat -> bool) : list dmod :=
  let mi := fold_left (fun acc i => mi_add i None acc) req [] in
  let mi := consolidate inv TReq true mi in
  let mi := map (fun m => set_chg (chg (d_id m)) m) mi in
  let mi := collect_deps deps mi in
  consolidate inv TDep false mi.

(** What sr_modinfo_validate() validates, src/sysrepo.c 4034: MOD_INFO_CHANGED or MOD_INFO_INV_DEP. *)
Definition validated (m : dmod) : bool := d_chg m || d_inv m.
