(** C51: what is expected of values, in terms of leaves and their types only. *)

From Coq Require Import List ZArith.
Import ListNotations.
From Verif Require Import Values.
Open Scope Z_scope.

(** A leaf of the type can have the value. *)
Definition member (t : ltype) (v : lval) : Prop := exists s, store t s = Some v.

(** Types as compiled by libyang: decimals have 1 to 18 fraction digits,
    integers at most 64 bits, a canonical text is its own canonical form, the type of the target of
    a leafref is no leafref. *)
Inductive wft : ltype -> Prop :=
| wf_int : forall sg b, 1 <= b <= 64 -> wft (LInt sg b)
| wf_dec : forall fd, (1 <= fd <= 18)%nat -> wft (LDec fd)
| wf_bool : wft LBool
| wf_empty : wft LEmpty
| wf_text : forall k f, (forall s c, f s = Some c -> f c = Some c) -> wft (LText k f)
| wf_union : forall ms, Forall wft ms -> wft (LUnion ms)
| wf_ref : forall t, wft t -> (forall t', t <> LRef t') -> wft (LRef t).

Definition no_union (t : ltype) : Prop := match t with LUnion _ | LRef (LUnion _) => False | _ => True end.

(** Numbers a double is precise enough for. *)
Definition narrow (v : lval) : Prop :=
  match v with VDec _ n | VUnion (VDec _ n) => Z.abs n < 2 ^ 52 | _ => True end.

(** [n / 10 ^ fd] is at least as near to [m * 2 ^ e] as every other number with
    [fd] fraction digits: both are multiplied by [10 ^ fd * 2 ^ max 0 (- e)]. *)
Definition nearest (m e : Z) (fd : nat) (n : Z) : Prop :=
  let q := 10 ^ Z.of_nat fd in let u := 2 ^ Z.max 0 (- e) in
  forall n', Z.abs (n * u - m * 2 ^ Z.max 0 e * q) <= Z.abs (n' * u - m * 2 ^ Z.max 0 e * q).

(** The data belong to the type. *)
Definition wfv (v : sval) : Prop :=
  match v_ty v, v_dat v with
  | SText _, DStr _ | SBool, DBool _ | SInt _ _, DNum _ => True
  | SDec, DDbl d => d <> DNan
  | SAnyxml, (DStr _ | DZero) | SAnydata, (DStr _ | DZero) => True
  | (SUnknown | SList | SContainer | SPresence | SEmpty | SNotif), DZero => True
  | _, _ => False
  end.

(** Doubles with the same value. *)
Definition same_dbl (a b : dbl) : Prop :=
  match a, b with
  | DFin m e, DFin m' e' => m * 2 ^ (e - Z.min e e') = m' * 2 ^ (e' - Z.min e e')
  | DInf x, DInf y => x = y
  | _, _ => False
  end.

(** The same value in all respects. *)
Definition same (a b : sval) : Prop :=
  v_xpath a = v_xpath b /\ v_ty a = v_ty b /\ v_dflt a = v_dflt b /\ v_orig a = v_orig b /\
  match v_dat a, v_dat b with
  | DDbl x, DDbl y => same_dbl x y
  | x, y => x = y
  end.
