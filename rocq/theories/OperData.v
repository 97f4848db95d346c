(** Composing operational data of a module from what is there already and from what subscribers provide:
    sr_module_oper_data_update(), src/modinfo.c 1443-1620, sr_xpath_oper_data_get(), src/modinfo.c 1085-1155,
    sr_shmsub_oper_get_notify(), src/shm_sub.c 2184-2345, sr_lyd_xpath_complement(), src/common.c 4571-4615,
    and the order of the subscriptions, sr_shmext_oper_get_sub_add(), src/shm_ext.c 829-870.

    Data are nodes given by the path of their instances with a value. XPaths of subscriptions are kept
    parsed for what libyang does with them (selecting nodes) and as text for what sysrepo does with them
    (whether they are required, their order). The parent XPath is the one without the last node
    (sr_xpath_trim_last_node(), see C40_parent_partial). Not modelled: data cached by periodic polling, metadata
    (origins), implicit containers, the choice of subscriptions by options SR_OPER_NO_CONFIG and SR_OPER_NO_STATE.
    What a callback returns are the nodes it added, without the parents it was given. *)
From Coq Require Import String Ascii List Bool Arith.
From Verif Require Import OperReq OperReqSpec.
Import ListNotations.

(** ** Data *)
Record inst := mkinst { i_mod : str; i_name : str; i_keys : list (str * str) }.
Definition ipath := list inst.
Fixpoint keys_eqb (a b : list (str * str)) : bool :=
  match a, b with
  | [], [] => true
  | (k, v) :: a', (k', v') :: b' => str_eqb k k' && str_eqb v v' && keys_eqb a' b'
  | _, _ => false
  end.
Definition inst_eqb (a b : inst) : bool := str_eqb (i_mod a) (i_mod b) && str_eqb (i_name a) (i_name b) && keys_eqb (i_keys a) (i_keys b).
Fixpoint ipath_eqb (a b : ipath) : bool :=
  match a, b with [], [] => true | x :: a', y :: b' => inst_eqb x y && ipath_eqb a' b' | _, _ => false end.
Definition data := list (ipath * str).
Fixpoint get (d : data) (p : ipath) : option str :=
  match d with [] => None | (q, v) :: t => if ipath_eqb q p then Some v else get t p end.
Fixpoint put (d : data) (p : ipath) (v : str) : data :=
  match d with [] => [(p, v)] | (q, w) :: t => if ipath_eqb q p then (q, v) :: t else (q, w) :: put t p v end.
(** lyd_merge(). *)
Definition merge (d src : data) : data := fold_left (fun d e => put d (fst e) (snd e)) src d.

(** *** Selecting nodes, lyd_find_xpath() *)
Definition key (i : inst) (n : str) : option str := match find (fun e => str_eqb (fst e) n) (i_keys i) with Some (_, v) => Some v | None => None end.
Fixpoint pmatch (i : inst) (p : pred) : bool :=
  match p with
  | PEq n _ v => match key i n with Some w => str_eqb w v | None => false end
  | POr a b => pmatch i a || pmatch i b
  end.
Definition mmatch (m : option str) (i : inst) : bool := match m with Some m => str_eqb (i_mod i) m | None => true end.
Definition smatch (s : step) (i : inst) : bool :=
  match s with
  | SName m n ps => mmatch m i && str_eqb (i_name i) n && forallb (pmatch i) ps
  | SAny m ps => mmatch m i && forallb (pmatch i) ps
  | _ => false
  end.
Fixpoint sel_at (l : list step) (p : ipath) : bool :=
  match l, p with [], [] => true | s :: l', i :: p' => smatch s i && sel_at l' p' | _, _ => false end.
Definition select (d : data) (l : list step) : list ipath := filter (sel_at l) (map fst d).
(** sr_lyd_xpath_complement(), src/common.c 4571-4615: all the selected subtrees are removed. *)
Definition inside (l : list step) (p : ipath) : bool := sel_at l (firstn (length l) p).
Definition complement (d : data) (l : list step) : data := filter (fun e => negb (inside l (fst e))) d.

(** ** Subscriptions *)
(** A subscriber: connection alive, suspended, what its callback returns for a parent (empty for top-level
    data); [None]: an error. *)
Record handler := mkh { h_alive : bool; h_susp : bool; h_call : ipath -> option data }.
(** All the subscriptions for an XPath; [s_merge]: SR_SUBSCR_OPER_MERGE of the first. *)
Record sub := mksub { s_steps : list step; s_merge : bool; s_hs : list handler }.
Definition sub_txt (s : sub) : str := path_txt (mkpath true (s_steps s)).

(** *** The order, sr_xpath_len_no_predicates(), src/common.c 4716-4753; the assert on quotes outside of
    predicates is not distinguished *)
Fixpoint plen (s : str) (len : nat) (depth : nat) (quoted : option ascii) : nat :=
  match s with
  | [] => match quoted with Some _ => 0 | None => match depth with 0 => len | _ => 0 end end
  | c :: r =>
      match quoted with
      | Some q => plen r len depth (if ch c q then None else Some q)
      | None =>
          if ch c "[" then plen r len (S depth) None
          else if ch c "]" then plen r len (Nat.pred depth) None
          else if is_quote c then plen r len depth (Some c)
          else plen r (S len) depth None
      end
  end.
Definition plen_txt (s : str) : nat := plen s 0 0 None.
(** sr_shmext_oper_get_sub_add(), src/shm_ext.c 847-885, of an XPath that is not there yet. *)
Fixpoint insert (s : sub) (l : list sub) : list sub :=
  match l with
  | [] => [s]
  | x :: t => if Nat.ltb (plen_txt (sub_txt s)) (plen_txt (sub_txt x)) then s :: l else x :: insert s t
  end.

(** ** Reading *)
(** [RErr]: a callback failed; [RUndef]: undefined behaviour. *)
Inductive res := ROk (d : data) | RErr | RUndef.

(** sr_shmsub_oper_get_notify(), src/shm_sub.c 2184-2345: all the live subscribers that are not suspended are
    asked, their data merged; an error of any is an error of the whole. *)
Fixpoint ask (hs : list handler) (parent : ipath) (acc : data) : option data :=
  match hs with
  | [] => Some acc
  | h :: t =>
      if h_alive h && negb (h_susp h)
      then match h_call h parent with Some d => ask t parent (merge acc d) | None => None end
      else ask t parent acc
  end.

(** The path of an instance, lyd_path(LYD_PATH_STD): a module name for top-level nodes and when it changes. *)
Definition key_pred (k : str * str) : pred := PEq (fst k) (if existsb (ch "'") (snd k) then """"%char else "'"%char) (snd k).
Fixpoint inst_steps (parent : option str) (p : ipath) : list step :=
  match p with
  | [] => []
  | i :: r =>
      SName (match parent with Some m => if str_eqb m (i_mod i) then None else Some (i_mod i) | None => Some (i_mod i) end) (i_name i) (map key_pred (i_keys i))
      :: inst_steps (Some (i_mod i)) r
  end.
Definition inst_txt (p : ipath) : str := steps_txt (inst_steps None p).

(** The XPaths among [reqs] for which [x] is required, src/modinfo.c 1490-1502; [None]: undefined. *)
Fixpoint requiring (reqs : list str) (x : str) : option (list str) :=
  match reqs with
  | [] => Some []
  | r :: t =>
      match required (Some r) x, requiring t x with
      | Some b, Some l => Some (if b then r :: l else l)
      | _, _ => None
      end
  end.

(** Is [x] required for any of [rs]? src/modinfo.c 1109-1125; the first one ends the search. *)
Fixpoint any_required (rs : list str) (x : str) : option bool :=
  match rs with
  | [] => Some false
  | r :: t => match required (Some r) x with Some false => any_required t x | b => b end
  end.

(** sr_xpath_oper_data_get(), src/modinfo.c 1085-1155, and the merge of its result. *)
Definition get_from (s : sub) (rs : list str) (parent : ipath) (d : data) : res :=
  let go := match ask (s_hs s) parent [] with Some x => ROk (merge d x) | None => RErr end in
  match parent, rs with
  | [], _ | _, [] => go
  | _, _ =>
      match any_required rs (inst_txt parent) with
      | None => RUndef
      | Some false => ROk d
      | Some true => go
      end
  end.
Fixpoint get_all (s : sub) (rs : list str) (parents : list ipath) (d : data) : res :=
  match parents with
  | [] => ROk d
  | p :: t => match get_from s rs p d with ROk d' => get_all s rs t d' | r => r end
  end.

(** One iteration of sr_module_oper_data_update(), src/modinfo.c 1479-1600. *)
Definition update1 (reqs : list str) (s : sub) (d : data) : res :=
  let go rs :=
    let d1 := if s_merge s then d else complement d (s_steps s) in
    match s_steps s with
    | [_] => get_from s rs [] d1
    | l => get_all s rs (select d1 (removelast l)) d1
    end in
  match reqs with
  | [] => go []
  | _ => match requiring reqs (sub_txt s) with None => RUndef | Some [] => ROk d | Some rs => go rs end
  end.
Fixpoint update (reqs : list str) (subs : list sub) (d : data) : res :=
  match subs with
  | [] => ROk d
  | s :: t => match update1 reqs s d with ROk d' => update reqs t d' | r => r end
  end.
