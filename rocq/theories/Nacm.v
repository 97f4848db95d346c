(** NACM decisions and filtering, src/utils/nacm.c.

    Strings are lists of character codes. lyd_path() of a node is that of its parent followed by its own
    piece. Node types other than RPC and notification (action, data) are not distinguished. *)
From Coq Require Import List Bool Arith.
Import ListNotations.

Definition str := list nat.
Definition c_slash := 47.
Definition c_lbr := 91.
Definition c_rbr := 93.
Definition c_eq := 61.
Definition c_quote := 39.
Definition c_dollar := 36.
Definition s_star : str := [42].
(** "USER" *)
Definition s_user : str := [85; 83; 69; 82].

Fixpoint str_eqb (a b : str) : bool :=
  match a, b with
  | [], [] => true
  | x :: s, y :: t => Nat.eqb x y && str_eqb s t
  | _, _ => false
  end.
(** strcmp() *)
Fixpoint scmp (a b : str) : comparison :=
  match a, b with
  | [], [] => Eq
  | [], _ => Lt
  | _, [] => Gt
  | x :: s, y :: t => match Nat.compare x y with Eq => scmp s t | c => c end
  end.

(** ** sr_nacm_allowed_path(), src/utils/nacm.c 1355-1415 *)
(** [MUb]: reading outside of the string. *)
Inductive pmatch := MNo | MFull | MPartial | MUb.

(** Skipping a predicate, 1386-1396; [q]: between apostrophes. *)
Fixpoint skip_pred (q : bool) (n : str) : option str :=
  match n with
  | [] => None
  | c :: t =>
      if q then skip_pred (negb (Nat.eqb c c_quote)) t
      else if Nat.eqb c c_rbr then Some t
      else skip_pred (Nat.eqb c c_quote) t
  end.
(** strchr() of the apostrophe: before and after it. *)
Fixpoint upto_quote (n : str) : option (str * str) :=
  match n with
  | [] => None
  | c :: t => if Nat.eqb c c_quote then Some ([], t) else option_map (fun p => (c :: fst p, snd p)) (upto_quote t)
  end.
(** strncmp(rule_ptr, "USER]", 5), then the rule from "]". *)
Definition after_user (r : str) : option str :=
  match r with
  | u :: s :: e :: r' :: b :: t => if str_eqb [u; s; e; r'; b] (s_user ++ [c_rbr]) then Some (b :: t) else None
  | _ => None
  end.

(** [rp], [np]: the previous characters. Every step takes a character of the path. *)
Fixpoint ap (fuel : nat) (user : str) (rp np : option nat) (r n : str) : pmatch :=
  match r, n with
  | [], _ => MFull
  | _ :: _, [] => MPartial
  | rc :: rt, nc :: nt =>
      match fuel with
      | O => MUb
      | S f =>
          if Nat.eqb rc nc then ap f user (Some rc) (Some nc) rt nt
          else if Nat.eqb rc c_dollar && match rp with Some p => Nat.eqb p c_eq | None => false end &&
                  (Nat.eqb nc c_quote && match np with Some p => Nat.eqb p c_eq | None => false end)
          then match after_user rt with
               | None => MNo
               | Some rt' =>
                   match upto_quote nt with
                   | None => MUb
                   | Some (v, nt') => if str_eqb user v then ap f user (Some 82) (Some c_quote) rt' nt' else MNo
                   end
               end
          else if Nat.eqb rc c_slash && Nat.eqb nc c_lbr
          then match skip_pred false n with
               | None => MUb
               | Some nt' => ap f user rp (Some c_rbr) r nt'
               end
          else MNo
      end
  end.
(** The first character of a target is never "$", there is no character before it. *)
Definition allowed_path (user rule node : str) : pmatch := ap (S (length node)) user None None rule node.

(** ** sr_nacm_rule_group_match(), src/utils/nacm.c 1426-1451 *)
Fixpoint group_match (fuel : nat) (gs us : list str) : bool :=
  match gs, us with
  | g :: gt, u :: ut =>
      match fuel with
      | O => false
      | S f =>
          if str_eqb g s_star then true
          else match scmp g u with
               | Gt => group_match f gs ut
               | Lt => group_match f gt us
               | Eq => true
               end
      end
  | _, _ => false
  end.
Definition rule_group_match (gs us : list str) : bool := group_match (length gs + length us) gs us.

(** ** Configuration, src/utils/nacm.h 45-111 *)
Inductive ttype := TRpc | TNotif | TData | TAny.
Inductive oper := OCreate | ORead | OUpdate | ODelete | OExec.
Record rule := mkrule { r_mod : option str; r_target : option str; r_type : ttype; r_ops : oper -> bool; r_deny : bool }.
Record rlist := mkrlist { l_groups : list str; l_rules : list rule }.
Record config := mkconfig { c_enabled : bool; c_read_deny : bool; c_write_deny : bool; c_exec_deny : bool; c_lists : list rlist }.

(** What is used of a node: type of the schema node, whether it has a schema parent, its name and module,
    default-deny-all and default-deny-write extensions and its data path. *)
Inductive ntype := NRpc | NNotif | NOther.
Record node := mknode { n_type : ntype; n_top : bool; n_name : str; n_mod : str; n_dall : bool; n_dwrite : bool; n_path : str }.

Inductive access := Deny | PDeny | PPermit | Permit.
(** SR_NACM_ACCESS_IS_NODE_PERMIT, src/utils/nacm.h 131. *)
Definition is_permit (a : access) : bool := match a with PPermit | Permit => true | _ => false end.

(** One rule, src/utils/nacm.c 1543-1598. *)
Inductive verdict := VSkip | VPartial | VMatch | VUb.
Definition opt_eq (o : option str) (s : str) : bool := match o with Some t => str_eqb t s | None => true end.
Definition check_rule (user : str) (o : oper) (nd : node) (r : rule) : verdict :=
  let modules := if opt_eq (r_mod r) (n_mod nd) then VMatch else VSkip in
  let paths := match r_target r with
               | None => modules
               | Some t => match allowed_path user t (n_path nd) with
                           | MNo => VSkip
                           | MPartial => VPartial
                           | MFull => modules
                           | MUb => VUb
                           end
               end in
  if negb (r_ops r o) then VSkip
  else match r_type r with
       | TRpc => match n_type nd with NRpc => if opt_eq (r_target r) (n_name nd) then modules else VSkip | _ => VSkip end
       | TNotif => match n_type nd with NNotif => if n_top nd && opt_eq (r_target r) (n_name nd) then modules else VSkip | _ => VSkip end
       | TData => match n_type nd with NOther => paths | _ => VSkip end
       | TAny => paths
       end.

(** The loops over rules, 1534-1607: the matching rule with partial matches seen until then (permit, deny);
    [None] is undefined behaviour. *)
Fixpoint loop_rules (user : str) (o : oper) (nd : node) (rs : list rule) (pp pd : bool) : option (option rule * bool * bool) :=
  match rs with
  | [] => Some (None, pp, pd)
  | r :: t =>
      match check_rule user o nd r with
      | VSkip => loop_rules user o nd t pp pd
      | VPartial => loop_rules user o nd t (pp || negb (r_deny r)) (pd || r_deny r)
      | VMatch => Some (Some r, pp, pd)
      | VUb => None
      end
  end.
Definition user_rules (c : config) (groups : list str) : list rule :=
  match groups with
  | [] => []
  | _ => flat_map (fun l => if rule_group_match (l_groups l) groups then l_rules l else []) (c_lists c)
  end.

(** Steps 10 to 12, 1611-1664. *)
Definition writes (o : oper) : bool := match o with OCreate | OUpdate | ODelete => true | _ => false end.
Definition defaults (c : config) (o : oper) (nd : node) : access :=
  if n_dall nd || (writes o && n_dwrite nd) then Deny
  else if (match o with ORead => c_read_deny c | OExec => c_exec_deny c | _ => c_write_deny c end) then Deny else PPermit.

(** sr_nacm_allowed_node(), src/utils/nacm.c 1489-1675. *)
Definition allowed_node (c : config) (user : str) (groups : list str) (o : oper) (nd : node) : option access :=
  match loop_rules user o nd (user_rules c groups) false false with
  | None => None
  | Some (r, pp, pd) =>
      let a := match r with Some r => if r_deny r then Deny else Permit | None => defaults c o nd end in
      Some (match a with
            | Deny => if pp then PDeny else Deny
            | Permit => if pd then PPermit else Permit
            | _ => a
            end)
  end.

(** ** Groups of a user *)
(** sr_nacm_strarr_sort_add(), src/utils/nacm.c 478-524, after the check of duplicates; [i] is the starting
    index, a guess by the first letter (any index will do). *)
Fixpoint back (l : list str) (x : str) (i : nat) : nat :=
  match i with
  | O => O
  | S j => match scmp (nth j l []) x with Gt => back l x j | _ => i end
  end.
Fixpoint forth (l : list str) (x : str) (i fuel : nat) : nat :=
  match fuel with
  | O => i
  | S f => if Nat.ltb i (length l) then match scmp (nth i l []) x with Lt => forth l x (S i) f | _ => i end else i
  end.
Definition sort_add (i : nat) (x : str) (l : list str) : list str :=
  let k := match l with
           | [] => i
           | _ => match scmp (nth i l []) x with
                  | Gt => back l x i
                  | Lt => forth l x i (length l)
                  | Eq => i
                  end
           end in
  firstn k l ++ x :: skipn k l.
(** sr_nacm_collect_groups(), src/utils/nacm.c 1255-1341: groups with users, system groups of the user; the
    binary search of duplicates is that the group is there; [g] is the guess. *)
Definition collect_groups (g : str -> nat -> nat) (user : str) (groups : list (str * list str)) (system : list str) : list str :=
  let add x l := sort_add (g x (length l)) x l in
  let own := fold_left (fun l p => fold_left (fun l u => if str_eqb u user then add (fst p) l else l) (snd p) l) groups [] in
  fold_left (fun l x => if existsb (str_eqb x) l then l else add x l) system own.

(** ** Reading *)
(** Data nodes: identification, own piece of the path, module, default-deny-all, whether it is a list key
    and children. *)
Inductive tree := T (id : nat) (piece : str) (modname : str) (dall key : bool) (ch : list tree).
Definition t_id (t : tree) : nat := match t with T i _ _ _ _ _ => i end.
Definition t_piece (t : tree) : str := match t with T _ p _ _ _ _ => p end.
Definition t_mod (t : tree) : str := match t with T _ _ m _ _ _ => m end.
Definition t_key (t : tree) : bool := match t with T _ _ _ _ k _ => k end.
Definition t_ch (t : tree) : list tree := match t with T _ _ _ _ _ ch => ch end.
(** [p] is the path of the parent. *)
Definition tnode (p : str) (t : tree) : node :=
  match t with T _ piece m dall _ _ => mknode NOther (match p with [] => true | _ => false end) [] m dall false (p ++ piece) end.

Section Read.
Variables (c : config) (user : str) (groups : list str).
Definition reads (p : str) (t : tree) : option access := allowed_node c user groups ORead (tnode p t).

(** sr_nacm_check_data_read_filter_r(), src/utils/nacm.c 1807-1862, with freeing of the denied nodes: whether
    the access is permit and what is left of the subtree; undefined behaviour is [None]. A denied key is
    not freed. *)
Fixpoint filter_r (p : str) (t : tree) {struct t} : option (bool * option tree) :=
  match t with
  | T id piece m dall key ch =>
      let fix kids (l : list tree) : option (bool * list tree) :=
        match l with
        | [] => Some (false, [])
        | x :: rest =>
            match filter_r (p ++ piece) x, kids rest with
            | Some (a, o), Some (b, l') => Some (a || b, match o with Some x' => x' :: l' | None => l' end)
            | _, _ => None
            end
        end in
      let denied := (false, if key then Some t else None) in
      match reads p t with
      | None => None
      | Some Deny => Some denied
      | Some Permit => Some (true, Some t)
      | Some PPermit => match kids ch with Some (_, l) => Some (true, Some (T id piece m dall key l)) | None => None end
      | Some PDeny =>
          match kids ch with
          | Some (true, l) => Some (true, Some (T id piece m dall key l))
          | Some (false, l) => Some (false, if key then Some (T id piece m dall key l) else None)
          | None => None
          end
      end
  end.

(** sr_nacm_check_data_read_filter_select_r(), src/utils/nacm.c 1877-1923, and
    sr_nacm_get_subtree_read_filter(), 2027-2080: [ps] are the parents, the nearest one first, with paths of
    their parents. [Some None]: all of it is denied. *)
Fixpoint parents_ok (ps : list (str * tree)) : option bool :=
  match ps with
  | [] => Some true
  | (p, t) :: rest => match reads p t with None => None | Some Deny => Some false | Some _ => parents_ok rest end
  end.
Definition subtree_filter (ps : list (str * tree)) (p : str) (t : tree) : option (option tree) :=
  match parents_ok ps with
  | None => None
  | Some false => Some None
  | Some true => match filter_r p t with None => None | Some (_, o) => Some o end
  end.
(** sr_nacm_get_node_set_read_filter(), src/utils/nacm.c 1971-2025, one node of the set: whether it is kept.
    It is compared with denied nodes, but if it has parents and is denied then the top-level parent is the
    denied node. *)
Definition set_filter (ps : list (str * tree)) (p : str) (t : tree) : option bool :=
  match subtree_filter ps p t with
  | None => None
  | Some (Some _) => Some true
  | Some None => Some (match ps with [] => false | _ => true end)
  end.
End Read.

(** ** Writing *)
(** Diff nodes: own operation, "none" is [Some None]; extensions default-deny-all and default-deny-write. *)
Inductive dtree := DT (own : option (option oper)) (piece modname : str) (dall dwrite : bool) (ch : list dtree).
Definition dtnode (p : str) (t : dtree) : node :=
  match t with DT _ piece m dall dwrite _ => mknode NOther (match p with [] => true | _ => false end) [] m dall dwrite (p ++ piece) end.

Section Write.
Variables (c : config) (user : str) (groups : list str).
(** sr_nacm_check_diff_r(), src/utils/nacm.c 2092-2174: whether the diff node is denied; [None]: undefined
    behaviour (also a missing operation). *)
Fixpoint diff_denied (p : str) (inh : option (option oper)) (t : dtree) {struct t} : option bool :=
  match t with
  | DT own piece m dall dwrite ch =>
      match (match own with Some o => Some o | None => inh end) with
      | None => None
      | Some op =>
          let fix kids (l : list dtree) : option bool :=
            match l with
            | [] => Some false
            | x :: rest =>
                match diff_denied (p ++ piece) (Some op) x with
                | None => None
                | Some true => Some true
                | Some false => kids rest
                end
            end in
          match op with
          | None => kids ch
          | Some o =>
              match allowed_node c user groups o (dtnode p t) with
              | None => None
              | Some Permit => Some false
              | Some Deny => Some true
              | Some _ => kids ch
              end
          end
      end
  end.
(** sr_nacm_check_diff(), src/utils/nacm.c 2176-2212, with sr_nacm_allowed_tree(), 1209-1244; [recovery] is
    the recovery user. *)
Fixpoint diffs_denied (ts : list dtree) : option bool :=
  match ts with
  | [] => Some false
  | t :: rest => match diff_denied [] None t with None => None | Some true => Some true | Some false => diffs_denied rest end
  end.
Definition check_diff (recovery : str) (ts : list dtree) : option bool :=
  if negb (c_enabled c) || str_eqb user recovery then Some false else diffs_denied ts.
End Write.

(** ** Operations *)
(** sr_nacm_check_operation(), src/utils/nacm.c 1677-1794, after finding the operation node: [always] are the
    exceptions of sr_nacm_allowed_tree(), 1224-1241; the RPC, action or notification and its data parent, if
    any. *)
Definition check_operation (c : config) (user recovery : str) (groups : list str) (always : bool) (op : node) (parent : option node) : option bool :=
  if negb (c_enabled c) || str_eqb user recovery || always then Some true
  else match allowed_node c user groups (match n_type op with NNotif => ORead | _ => OExec end) op with
       | None => None
       | Some a =>
           if is_permit a
           then match parent with
                | None => Some true
                | Some pn => match allowed_node c user groups ORead pn with None => None | Some b => Some (is_permit b) end
                end
           else Some false
       end.
