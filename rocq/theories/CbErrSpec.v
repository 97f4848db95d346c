(** What a callback says about its failure. *)
From Coq Require Import List NArith Bool String.
From Verif Require Import Base EvData EvDataSpec CbErr.
Import ListNotations.
Open Scope N_scope.

(** Types and tags of errors, RFC 6241, Section 4.3 and Appendix A (without the obsolete partial-operation). *)
Definition rfc_type (t : list N) : Prop := In t (map bytes ["transport"; "rpc"; "protocol"; "application"]%string).
Definition rfc_tag (t : list N) : Prop :=
  In t (map bytes ["in-use"; "invalid-value"; "too-big"; "missing-attribute"; "bad-attribute"; "unknown-attribute"; "missing-element"; "bad-element";
    "unknown-element"; "unknown-namespace"; "access-denied"; "lock-denied"; "resource-denied"; "rollback-failed"; "data-exists"; "data-missing";
    "operation-not-supported"; "operation-failed"; "malformed-message"]%string).

Definition add_chunk (e : user_error) (d : list N) : user_error := Build_user_error (ue_code e) (ue_msg e) (ue_fmt e) (ue_chunks e ++ [d]).
Definition set_fmt (e : user_error) (f : option (list N)) : user_error := Build_user_error (ue_code e) (ue_msg e) f (ue_chunks e).
(** Chunks of a NETCONF error: four strings, the number of pairs and the pairs. *)
Definition nc_chunks (ty tag : list N) (app path : option (list N)) (infos : list (list N * list N)) : list (list N) :=
  let str s := s ++ [0] in let opt o := match o with Some x => x | None => [] end in
  [str ty; str tag; str (opt app); str (opt path); le32 (N.of_nat (List.length infos))] ++ flat_map (fun i => [str (fst i); str (snd i)]) infos.
(** [says l o l' ok]: after [l] was said, the call [o] makes it [l']; [ok] unless it is refused. *)
Inductive says : list user_error -> op -> list user_error -> bool -> Prop :=
| S_error : forall l fmt code msg, code <> 0 -> says l (OError fmt code msg) (l ++ [Build_user_error code msg fmt []]) true
| S_no_code : forall l fmt msg, says l (OError fmt 0 msg) l false
| S_message : forall l msg, says l (OMessage msg) (l ++ [Build_user_error 10 msg None []]) true
| S_format : forall l e f, says (l ++ [e]) (OFormat f) (l ++ [set_fmt e f]) true
| S_no_format : forall f, says [] (OFormat f) [] false
| S_push : forall l e d, d <> [] -> ue_fmt e <> None -> says (l ++ [e]) (OPush d) (l ++ [add_chunk e d]) true
| S_no_push : forall l d, d = [] \/ l = [] \/ (exists l' e, l = l' ++ [e] /\ ue_fmt e = None) -> says l (OPush d) l false
| S_netconf : forall l ty tag app path msg infos, rfc_type ty -> rfc_tag tag ->
    says l (ONetconf ty tag app path msg infos) (l ++ [Build_user_error 10 msg (Some (bytes "NETCONF")) (nc_chunks ty tag app path infos)]) true
| S_no_netconf : forall l ty tag app path msg infos, ~ rfc_type ty \/ ~ rfc_tag tag -> says l (ONetconf ty tag app path msg infos) l false.
Inductive say_all : list user_error -> list op -> list user_error -> Prop :=
| SA_nil : forall l, say_all l [] l
| SA_cons : forall l o l' ok os l'', says l o l' ok -> say_all l' os l'' -> say_all l (o :: os) l''.

(** Texts of the error codes. *)
Definition text (code : N) : list N :=
  bytes (match code with
  | 0 => "Operation succeeded" | 1 => "Invalid argument" | 2 => "libyang error" | 3 => "System function call failed" | 4 => "Out of memory"
  | 5 => "Item not found" | 6 => "Item already exists" | 7 => "Internal error" | 8 => "Operation not supported" | 9 => "Validation failed"
  | 10 => "Operation failed" | 11 => "Operation not authorized" | 12 => "Requested resource already locked" | 13 => "Timeout expired"
  | 14 => "User callback failed" | 15 => "User callback shelved" | _ => "Unknown error"
  end%string).
(** The packed data of every error can be represented. *)
Definition fits (l : list user_error) : Prop := Forall (fun e => packed_size (ue_chunks e) < 2 ^ 32) l.
(** The errors of a failed callback: what it said, or its return code with the text of it. *)
Definition reported (code : N) (said : list user_error) : list user_error :=
  match said with [] => [Build_user_error code (text code) None []] | _ => said end.
(** Callbacks refuse changes, RPCs and requests for data, and may explain it. *)
Definition explains (e : event) : Prop := e = EvUpdate \/ e = EvChange \/ e = EvRpc \/ e = EvOper.
(** A callback that does not fail the event: success, or postponed (an RPC is then not answered at all). *)
Definition passes (e : event) (c : callback) : Prop := c_ret c = 0 \/ (c_ret c = 15 /\ e <> EvRpc).
Definition fails (c : callback) : Prop := c_ret c <> 0 /\ c_ret c <> 15 /\ c_ret c < 2 ^ 32.

(** A NETCONF error as set by a callback; an empty application tag or path is none at all. *)
Record nc_arg := { na_type : list N; na_tag : list N; na_app : option (list N); na_path : option (list N); na_msg : list N; na_infos : list (list N * list N) }.
Definition nc_op (a : nc_arg) : op := ONetconf (na_type a) (na_tag a) (na_app a) (na_path a) (na_msg a) (na_infos a).
Definition present (o : option (list N)) : option (list N) := match o with Some [] => None | _ => o end.
Definition nc_arg_ok (a : nc_arg) : Prop :=
  rfc_type (na_type a) /\ rfc_tag (na_tag a) /\ c_string (na_msg a) /\
  (forall s, na_app a = Some s -> c_string s) /\ (forall s, na_path a = Some s -> c_string s) /\
  Forall (fun i => c_string (fst i) /\ c_string (snd i)) (na_infos a) /\
  packed_size (nc_chunks (na_type a) (na_tag a) (na_app a) (na_path a) (na_infos a)) < 2 ^ 32.
