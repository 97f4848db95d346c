(** Specification of access control decisions: RFC 8341, section 3.4.4, steps 4 to 12, on structured
    targets of rules. *)
From Coq Require Import List Bool Arith.
From Verif Require Import Nacm.
Import ListNotations.

(** A node is found on its way from the root: names (with the module prefix) and keys of list instances. *)
Record seg := mkseg { s_name : str; s_preds : list (str * str) }.
(** A rule may limit some of the keys, to a value or to the name of the user. *)
Inductive rval := VLit (v : str) | VUser.
Record rseg := mkrseg { rs_name : str; rs_preds : list (str * rval) }.

(** The target of a rule covers a node if it leads to the node or to its ancestor. *)
Definition val_ok (user : str) (v : rval) (x : str) : Prop := match v with VLit y => x = y | VUser => x = user end.
Definition seg_ok (user : str) (r : rseg) (n : seg) : Prop :=
  rs_name r = s_name n /\ forall k v, In (k, v) (rs_preds r) -> exists x, In (k, x) (s_preds n) /\ val_ok user v x.
Fixpoint covers (user : str) (r : list rseg) (n : list seg) : Prop :=
  match r, n with
  | [], _ => True
  | x :: r', y :: n' => seg_ok user x y /\ covers user r' n'
  | _ :: _, [] => False
  end.

(** What a rule is about. *)
Inductive what := WAny | WRpc (name : option str) | WNotif (name : option str) | WData (target : list rseg).
Record srule := mksrule { sr_mod : option str; sr_what : what; sr_ops : oper -> bool; sr_deny : bool }.
Record slist := mkslist { sl_groups : list str; sl_rules : list srule }.
Record sconfig := mksconfig { sc_read_deny : bool; sc_write_deny : bool; sc_exec_deny : bool; sc_lists : list slist }.
(** What is accessed. *)
Record snode := mksnode { sn_type : ntype; sn_top : bool; sn_name : str; sn_mod : str; sn_dall : bool; sn_dwrite : bool; sn_path : list seg }.

Definition is_opt (o : option str) (s : str) : Prop := match o with Some t => t = s | None => True end.
Definition about (user : str) (w : what) (n : snode) : Prop :=
  match w with
  | WAny => True
  | WRpc name => sn_type n = NRpc /\ is_opt name (sn_name n)
  | WNotif name => sn_type n = NNotif /\ sn_top n = true /\ is_opt name (sn_name n)
  | WData target => sn_type n = NOther /\ covers user target (sn_path n)
  end.
Definition rule_applies (user : str) (o : oper) (n : snode) (r : srule) : Prop :=
  sr_ops r o = true /\ is_opt (sr_mod r) (sn_mod n) /\ about user (sr_what r) n.
(** "*" is every group; a user without groups is not subject to any rule list. *)
Definition list_applies (groups : list str) (l : slist) : Prop :=
  groups <> [] /\ exists g, In g (sl_groups l) /\ (g = s_star \/ In g groups).

(** [r] is the first rule that applies of the rules of [ls], rules of rule lists that do not apply left out. *)
Definition first_rule (user : str) (groups : list str) (o : oper) (n : snode) (ls : list slist) (r : srule) : Prop :=
  exists ls1 l ls2 rs1 rs2,
    ls = ls1 ++ l :: ls2 /\ sl_rules l = rs1 ++ r :: rs2 /\ list_applies groups l /\ rule_applies user o n r /\
    (forall x, In x rs1 -> ~ rule_applies user o n x) /\
    (forall k x, In k ls1 -> list_applies groups k -> In x (sl_rules k) -> ~ rule_applies user o n x).
Definition default_deny (c : sconfig) (o : oper) (n : snode) : bool :=
  match o with
  | ORead => sn_dall n || sc_read_deny c
  | OExec => sn_dall n || sc_exec_deny c
  | OCreate | OUpdate | ODelete => sn_dall n || sn_dwrite n || sc_write_deny c
  end.
(** The decision. *)
Definition permitted (c : sconfig) (user : str) (groups : list str) (o : oper) (n : snode) : Prop :=
  (exists r, first_rule user groups o n (sc_lists c) r /\ sr_deny r = false) \/
  ((forall r, ~ first_rule user groups o n (sc_lists c) r) /\ default_deny c o n = false).

(** ** Representation *)
(** Paths as printed by lyd_path(); targets of rules as instance-identifiers in the canonical form. *)
Definition pr_val (v : str) : str := [c_quote] ++ v ++ [c_quote].
Definition pr_rval (v : rval) : str := match v with VLit x => pr_val x | VUser => c_dollar :: s_user end.
Definition pr_preds (l : list (str * str)) : str := flat_map (fun p => [c_lbr] ++ fst p ++ [c_eq] ++ pr_val (snd p) ++ [c_rbr]) l.
Definition pr_rpreds (l : list (str * rval)) : str := flat_map (fun p => [c_lbr] ++ fst p ++ [c_eq] ++ pr_rval (snd p) ++ [c_rbr]) l.
Definition pr_path (l : list seg) : str := flat_map (fun s => c_slash :: s_name s ++ pr_preds (s_preds s)) l.
Definition pr_rpath (l : list rseg) : str := flat_map (fun s => c_slash :: rs_name s ++ pr_rpreds (rs_preds s)) l.
(** The target "/" is everything. *)
Definition pr_target (l : list rseg) : str := match l with [] => [c_slash] | _ => pr_rpath l end.

Definition rep_rule (r : srule) : rule :=
  mkrule (sr_mod r) (match sr_what r with WAny => None | WRpc n => n | WNotif n => n | WData t => Some (pr_target t) end)
    (match sr_what r with WAny => TAny | WRpc _ => TRpc | WNotif _ => TNotif | WData _ => TData end) (sr_ops r) (sr_deny r).
Definition rep_list (l : slist) : rlist := mkrlist (sl_groups l) (map rep_rule (sl_rules l)).
Definition rep_config (enabled : bool) (c : sconfig) : config :=
  mkconfig enabled (sc_read_deny c) (sc_write_deny c) (sc_exec_deny c) (map rep_list (sc_lists c)).
Definition rep_node (n : snode) : node :=
  mknode (sn_type n) (sn_top n) (sn_name n) (sn_mod n) (sn_dall n) (sn_dwrite n) (pr_path (sn_path n)).

(** Characters of names and of values. *)
Definition name_char (c : nat) : Prop := ~ In c [c_slash; c_lbr; c_rbr; c_eq; c_quote; c_dollar].
Definition val_char (c : nat) : Prop := ~ In c [c_lbr; c_quote; c_dollar].
Definition good_seg (s : seg) : Prop :=
  Forall name_char (s_name s) /\ Forall (fun p => Forall name_char (fst p) /\ Forall val_char (snd p)) (s_preds s).
Definition good_rseg (s : rseg) : Prop :=
  Forall name_char (rs_name s) /\
  Forall (fun p => Forall name_char (fst p) /\ match snd p with VLit v => Forall val_char v | VUser => True end) (rs_preds s).
(** A name is not the beginning of another one at the same place, rules have all the keys or none. *)
Definition not_begin (a b : str) : Prop := forall t, b = a ++ t -> t = [].
Fixpoint compat (r : list rseg) (n : list seg) : Prop :=
  match r, n with
  | x :: r', y :: n' =>
      not_begin (rs_name x) (s_name y) /\ not_begin (s_name y) (rs_name x) /\
      (rs_name x = s_name y -> rs_preds x = [] \/ map fst (rs_preds x) = map fst (s_preds y) /\ NoDup (map fst (s_preds y))) /\
      compat r' n'
  | _, _ => True
  end.
Definition good_config (c : sconfig) (n : snode) : Prop :=
  forall l r t, In l (sc_lists c) -> In r (sl_rules l) -> sr_what r = WData t -> Forall good_rseg t /\ compat t (sn_path n).
(** Sorted by strcmp(), "*" being the first. *)
Fixpoint sorted (l : list str) : Prop :=
  match l with
  | [] => True
  | x :: t => (forall y, In y t -> scmp x y <> Gt) /\ sorted t
  end.
Definition star_first (l : list str) : Prop := forall g, In g l -> scmp s_star g <> Gt.
