(** Access control of on-change YANG push, src/utils/nacm.c 2214-2292 and its use in
    src/utils/sn_yang_push.c 349-440 and 486-504. Decisions are those of Nacm.v. *)
From Coq Require Import List Bool Arith.
From Verif Require Import Nacm.
Import ListNotations.

(** sr_nacm_check_yp_change_target(), src/utils/nacm.c 2228-2254: whether the target is denied; undefined
    behaviour is [None]. *)
Definition target_denied (c : config) (user : str) (groups : list str) (nd : node) : option bool :=
  match allowed_node c user groups ORead nd with None => None | Some a => Some (negb (is_permit a)) end.

(** What is left of the value: a tree, or a tree that was freed. *)
Inductive vres := VVal (t : tree) | VFreed | VUndef.
(** Children of the value, src/utils/nacm.c 2270-2279, each with sr_nacm_check_data_read_filter(),
    1936-1969, after its parent was found not to be denied: a child that is denied as a whole is replaced in the
    set of denied nodes by its top-level parent (1916-1919), which is the value itself. *)
Fixpoint value_kids (c : config) (user : str) (groups : list str) (p : str) (l : list tree) : option (bool * list tree) :=
  match l with
  | [] => Some (false, [])
  | x :: rest =>
      match filter_r c user groups p x, value_kids c user groups p rest with
      | Some (_, o), Some (f, l') => Some (match o with None => true | Some _ => f end, match o with Some x' => x' :: l' | None => l' end)
      | _, _ => None
      end
  end.
(** sr_nacm_check_yp_change_value(), src/utils/nacm.c 2256-2283. The tree is a duplicate without its parents
    (src/utils/sn_yang_push.c 420): its path is its own name with the module, [top], whatever its place. *)
Definition yp_value (c : config) (user recovery : str) (groups : list str) (top : str) (t : tree) : vres :=
  match t with
  | T id piece m dall key ch =>
      match ch with
      | [] => VVal t
      | _ =>
          if negb (c_enabled c) || str_eqb user recovery then VVal t
          else match reads c user groups [] (T id top m dall key ch) with
               | None => VUndef
               | Some Deny => VFreed
               | Some _ =>
                   match value_kids c user groups top ch with
                   | None => VUndef
                   | Some (true, _) => VFreed
                   | Some (false, l) => VVal (T id piece m dall key l)
                   end
               end
      end
  end.

(** What the user is told of a change of a node; [NFreed]: freed memory is printed
    (src/utils/sn_yang_push.c 429). *)
Inductive told := NNothing | NTarget | NValue (t : tree) | NFreed | NUndef.
(** One change: the path of the parent, the node with its subtree, its path without parents, whether its value
    is sent (not for deletions and moves). *)
Record ychange := mkyc { yc_parent : str; yc_node : tree; yc_top : str; yc_value : bool }.
(** The check of the target in srsn_yp_on_change_cb(), 498-504, and of the value in
    srsn_yp_ntf_change_edit_append(), 418-427; without a user nothing is checked. *)
Definition notify (c : config) (user : option str) (recovery : str) (groups : list str) (x : ychange) : told :=
  match user with
  | None => if yc_value x then NValue (yc_node x) else NTarget
  | Some u =>
      match target_denied c u groups (tnode (yc_parent x) (yc_node x)) with
      | None => NUndef
      | Some true => NNothing
      | Some false =>
          if yc_value x
          then match yp_value c u recovery groups (yc_top x) (yc_node x) with VVal t => NValue t | VFreed => NFreed | VUndef => NUndef end
          else NTarget
      end
  end.
