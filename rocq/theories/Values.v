(** C51: values of the API ([sr_val_t]).

    Reading a leaf into a value (sr_get_item(), sr_get_items(), arguments of
    callbacks), writing a value into a leaf (sr_set_item(), sr_rpc_send(),
    sr_notif_send(), outputs of RPC callbacks), copying, comparing and changing
    values.

    Modelled: src/common.c 3950-4076 (sr_val_ly2sr for leaves), 4131-4208
    (sr_val_sr2ly_str), src/utils/values.c 66-92, 163-181, 232-248, 283-385,
    391-448, 686-786 (copying, comparing, printing).

    Texts are lists of character codes. Simplified: nodes that are not leaves
    have no data and anydata is a text; memory never runs out. *)

From Coq Require Import List ZArith Bool.
Import ListNotations.
Open Scope Z_scope.

Definition text := list Z.

(** ** Numbers as texts *)

(** [w] last decimal digits of a number that is not negative. *)
Fixpoint padw (w : nat) (n : Z) : text :=
  match w with
  | O => []
  | S w' => padw w' (n / 10) ++ [48 + n mod 10]
  end.

(** Number of decimal digits, at least one. *)
Fixpoint nd (fuel : nat) (n : Z) : nat :=
  match fuel with
  | O => 1
  | S f => if n <? 10 then 1 else S (nd f (n / 10))
  end.

Definition ndig (n : Z) : nat := nd (Z.to_nat (Z.log2 n)) n.

(** printf("%" PRIu64). *)
Definition show_u (n : Z) : text := padw (ndig n) n.

Definition minus : Z := 45.
Definition dot : Z := 46.

(** printf("%" PRId64). *)
Definition show_i (n : Z) : text := if n <? 0 then minus :: show_u (- n) else show_u n.

(** Digits of a number with [fd] of them after the decimal point. *)
Definition show_dec (neg : bool) (fd : nat) (a : Z) : text :=
  (if neg then [minus] else []) ++ show_u (a / 10 ^ Z.of_nat fd) ++ [dot] ++ padw fd a.

(** ** Numbers in binary floating point

    [DFin m e] is [m * 2 ^ e]. *)
Inductive dbl := DFin (m e : Z) | DInf (neg : bool) | DNan.

(** Rounding the fraction [p / q] to an integer, to an even one if two are equally near (IEEE 754). *)
Definition rne (p q : Z) : Z :=
  let f := p / q in let r := p mod q in
  if 2 * r <? q then f else if q <? 2 * r then f + 1 else if Z.even f then f else f + 1.

(** Exponent such that a mantissa of [a / q] has 53 bits. *)
Definition dexp (a q : Z) : Z :=
  let e := Z.log2 a - Z.log2 q - 53 in
  if (if 0 <=? e then 2 ^ 53 * 2 ^ e * q <=? a else 2 ^ 53 * q <=? a * 2 ^ (- e)) then e + 1 else e.

(** strtod() of a text that denotes [n / 10 ^ fd]: the nearest double. The
    exponent does not reach its limits for 64-bit [n] and [fd] up to 18. *)
Definition strtod (n : Z) (fd : nat) : dbl :=
  let a := Z.abs n in let q := 10 ^ Z.of_nat fd in
  if n =? 0 then DFin 0 0
  else let e := dexp a q in
       DFin (Z.sgn n * (if 0 <=? e then rne a (q * 2 ^ e) else rne (a * 2 ^ (- e)) q)) e.

(** [|m| * 2 ^ e * 10 ^ fd] rounded to an integer. *)
Definition scaled (m e : Z) (fd : nat) : Z :=
  let q := 10 ^ Z.of_nat fd in
  if 0 <=? e then Z.abs m * 2 ^ e * q else rne (Z.abs m * q) (2 ^ (- e)).

(** sprintf("%.*f", fd, d). *)
Definition fmt_f (fd : nat) (d : dbl) : text :=
  match d with
  | DFin m e => show_dec (m <? 0) fd (scaled m e fd)
  | DInf neg => (if neg then [minus] else []) ++ [105; 110; 102]
  | DNan => [110; 97; 110]
  end.

(** ** Leaves (libyang) *)

(** Types whose values are texts for sysrepo. *)
Inductive kind := KBinary | KBits | KEnum | KIdent | KInst | KString.

(** Types of leaves. A text type is given by the function that accepts a text
    and returns its canonical form; [LRef] is a leafref with the type of its target. *)
Inductive ltype :=
| LInt (signed : bool) (bits : Z)
| LDec (fd : nat)
| LBool
| LEmpty
| LText (k : kind) (accept : text -> option text)
| LUnion (members : list ltype)
| LRef (t : ltype).

(** Values of leaves; that of a union has the one of the member that accepted it. *)
Inductive lval :=
| VInt (signed : bool) (bits : Z) (n : Z)
| VDec (fd : nat) (n : Z)   (* n / 10 ^ fd *)
| VBool (b : bool)
| VEmpty
| VText (k : kind) (s : text)
| VUnion (v : lval).

Definition in_range (signed : bool) (bits n : Z) : bool :=
  if signed then (- 2 ^ (bits - 1) <=? n) && (n <? 2 ^ (bits - 1)) else (0 <=? n) && (n <? 2 ^ bits).

Definition is_digit (c : Z) : bool := (48 <=? c) && (c <=? 57).

(** Number of a text of digits, at least one. *)
Definition digits (s : text) : option Z :=
  if (match s with [] => false | _ => true end) && forallb is_digit s
  then Some (fold_left (fun a c => 10 * a + (c - 48)) s 0) else None.

Definition signed_of (f : text -> option Z) (s : text) : option Z :=
  match s with
  | c :: r => if c =? minus then option_map Z.opp (f r) else f s
  | [] => f s
  end.

Definition parse_int : text -> option Z := signed_of digits.

(** Text up to a character and after it. *)
Fixpoint cut (c : Z) (s : text) : text * option text :=
  match s with
  | [] => ([], None)
  | x :: r => if x =? c then ([], Some r) else let (a, b) := cut c r in (x :: a, b)
  end.

Definition parse_dec (fd : nat) : text -> option Z :=
  signed_of (fun s =>
    match cut dot s with
    | (a, None) => option_map (fun i => i * 10 ^ Z.of_nat fd) (digits a)
    | (a, Some b) =>
      if Nat.leb (length b) fd
      then match digits a, digits b with
           | Some i, Some f => Some (i * 10 ^ Z.of_nat fd + f * 10 ^ Z.of_nat (fd - length b))
           | _, _ => None
           end
      else None
    end).

Definition t_true : text := [116; 114; 117; 101].
Definition t_false : text := [102; 97; 108; 115; 101].

Definition text_eqb (a b : text) : bool := if list_eq_dec Z.eq_dec a b then true else false.

(** Value a leaf gets from a text (lyd_new_path(); NULL is the empty text). *)
Fixpoint store (t : ltype) (s : text) : option lval :=
  match t with
  | LInt sg b => match parse_int s with Some n => if in_range sg b n then Some (VInt sg b n) else None | None => None end
  | LDec fd => match parse_dec fd s with Some n => if in_range true 64 n then Some (VDec fd n) else None | None => None end
  | LBool => if text_eqb s t_true then Some (VBool true) else if text_eqb s t_false then Some (VBool false) else None
  | LEmpty => if text_eqb s [] then Some VEmpty else None
  | LText k f => option_map (VText k) (f s)
  | LUnion ms => option_map VUnion
      (fold_right (fun m rest => match store m s with Some v => Some v | None => rest end) None ms)
  | LRef t => store t s
  end.

(** ** Values of sysrepo *)

Inductive sty :=
| SUnknown | SList | SContainer | SPresence | SEmpty | SNotif
| SText (k : kind) | SBool | SDec | SInt (signed : bool) (bits : Z) | SAnyxml | SAnydata.

(** The union sr_data_t; [DZero] is all zeroes, a pointer NULL. *)
Inductive sdata := DZero | DStr (s : text) | DBool (b : bool) | DNum (n : Z) | DDbl (d : dbl).

(** src/sysrepo_types.h sr_val_t. *)
Record sval := mkval { v_xpath : option text; v_ty : sty; v_dat : sdata; v_dflt : bool; v_orig : option text }.

(** src/common.c 3968-4044: type and data of a leaf. *)
Fixpoint ly2sr (v : lval) : sty * sdata :=
  match v with
  | VText k s => (SText k, DStr s)
  | VBool b => (SBool, DBool b)
  | VDec fd n => (SDec, DDbl (strtod n fd))
  | VEmpty => (SEmpty, DZero)
  | VInt sg b n => (SInt sg b, DNum n)
  | VUnion v => ly2sr v
  end.

(** Result of building a text. *)
Inductive res := RText (s : text) | RNull | ROverflow | RUndef.

(** sprintf() into a buffer of 22 bytes (src/sysrepo.c 3428, 6597, 7246, src/shm_sub.c 4189). *)
Definition buf_size : nat := 22.
Definition to_buf (s : text) : res := if Nat.leb (S (length s)) buf_size then RText s else ROverflow.

(** src/common.c 4158-4177: fraction digits of the type of a leaf. *)
Definition resolve (t : ltype) : ltype := match t with LRef t' => t' | _ => t end.

Fixpoint first_dec (ms : list ltype) : option nat :=
  match ms with
  | [] => None
  | LDec fd :: _ => Some fd
  | _ :: r => first_dec r
  end.

Inductive fdres := FDigits (n : nat) | FNone | FOther.

Definition fdigits (t : ltype) : fdres :=
  match resolve t with
  | LUnion ms => match first_dec ms with Some n => FDigits n | None => FNone end
  | LDec n => FDigits n
  | _ => FOther
  end.

(** src/common.c 4131-4208, [t] is the type of the leaf at the path. [FOther]
    is a decimal value for a leaf of another type: its type is read as if it
    were a decimal, the outcome is not predictable. *)
Definition sr2str (t : ltype) (ty : sty) (d : sdata) : res :=
  match ty, d with
  | SText _, DStr s | SAnyxml, DStr s | SAnydata, DStr s => RText s
  | SText _, _ | SAnyxml, _ | SAnydata, _ => RNull
  | SBool, DBool b => RText (if b then t_true else t_false)
  | SDec, DDbl x =>
    match fdigits t with FDigits fd => to_buf (fmt_f fd x) | FNone => RNull | FOther => RUndef end
  | SInt _ _, DNum n => to_buf (show_i n)
  | _, _ => RNull
  end.

(** Value a leaf gets from a value: sr_set_item() and the others. *)
Inductive wres := WStored (v : lval) | WRefused | WOverflow | WUndef.

Definition write (t : ltype) (ty : sty) (d : sdata) : wres :=
  match sr2str t ty d with
  | ROverflow => WOverflow
  | RUndef => WUndef
  | RNull => match store t [] with Some v => WStored v | None => WRefused end
  | RText s => match store t s with Some v => WStored v | None => WRefused end
  end.

(** ** Changing and copying values *)

Inductive vres := VOk (v : sval) | VInval | VCrash.

(** strcpy() into a buffer of [cap] bytes. *)
Definition strcpy (cap : nat) (s : text) : option sdata := if Nat.leb (S (length s)) cap then Some (DStr s) else None.

(** src/utils/values.c 163-181: overwriting or replacing a string; [DZero] is NULL. *)
Definition edit_string (old : sdata) (new : option text) : option sdata :=
  match new with
  | None => None
  | Some s =>
    match old with
    | DZero => Some (DStr s)
    | DStr o => if Nat.leb (length s) (length o) then strcpy (S (length o)) s else Some (DStr s)
    | _ => None   (* a number is used as a pointer *)
    end
  end.

(** src/utils/values.c 66-92. *)
Definition is_str_type (t : sty) : bool := match t with SText _ => true | _ => false end.

(** src/utils/values.c 232-248 sr_val_set_str_data. *)
Definition set_str_data (v : sval) (t : sty) (s : option text) : vres :=
  if is_str_type t then
    match edit_string (v_dat v) s with
    | Some d => VOk (mkval (v_xpath v) t d (v_dflt v) (v_orig v))
    | None => VCrash
    end
  else VInval.

Definition str_of (d : sdata) : option text := match d with DStr s => Some s | _ => None end.

(** src/utils/values.c 283-329 sr_dup_val_data. *)
Definition dup_data (dest src : sval) : vres :=
  let dest := mkval (v_xpath dest) (v_ty dest) (v_dat dest) (v_dflt src) (v_orig dest) in
  match v_ty src with
  | SText k => set_str_data dest (SText k) (str_of (v_dat src))
  | SBool | SDec | SInt _ _ => VOk (mkval (v_xpath dest) (v_ty src) (v_dat src) (v_dflt dest) (v_orig dest))
  | _ => VOk (mkval (v_xpath dest) (v_ty src) (v_dat dest) (v_dflt dest) (v_orig dest))
  end.

(** src/utils/values.c 91-112 sr_new_val. *)
Definition new_val (xpath : option text) : sval := mkval xpath SUnknown DZero false None.

(** src/utils/values.c 331-353 sr_dup_val. *)
Definition dup_val (v : sval) : vres := dup_data (new_val (v_xpath v)) v.

(** src/utils/values.c 391-403 sr_cmp_str. *)
Definition cmp_str (a b : option text) : bool :=
  match a, b with
  | Some x, Some y => text_eqb x y
  | None, None => true
  | _, _ => false
  end.

(** Comparing doubles that are normalised the same way; NaN differs from all. *)
Definition dbl_eqb (a b : dbl) : bool :=
  match a, b with
  | DFin m e, DFin m' e' =>
    if e <=? e' then m =? m' * 2 ^ (e' - e) else m * 2 ^ (e - e') =? m'
  | DInf x, DInf y => Bool.eqb x y
  | _, _ => false
  end.

Definition kind_eqb (a b : kind) : bool :=
  match a, b with
  | KBinary, KBinary | KBits, KBits | KEnum, KEnum | KIdent, KIdent | KInst, KInst | KString, KString => true
  | _, _ => false
  end.

Definition sty_eqb (a b : sty) : bool :=
  match a, b with
  | SUnknown, SUnknown | SList, SList | SContainer, SContainer | SPresence, SPresence | SEmpty, SEmpty
  | SNotif, SNotif | SBool, SBool | SDec, SDec | SAnyxml, SAnyxml | SAnydata, SAnydata => true
  | SText k, SText k' => kind_eqb k k'
  | SInt s b, SInt s' b' => Bool.eqb s s' && (b =? b')
  | _, _ => false
  end.

(** src/utils/values.c 405-466 sr_equal_val. *)
Definition equal_val (a b : sval) : bool :=
  if negb (sty_eqb (v_ty a) (v_ty b)) || negb (cmp_str (v_orig a) (v_orig b))
     || negb (cmp_str (v_xpath a) (v_xpath b)) || negb (Bool.eqb (v_dflt a) (v_dflt b)) then false
  else match v_ty a with
       | SText _ | SAnyxml | SAnydata => cmp_str (str_of (v_dat a)) (str_of (v_dat b))
       | SBool => match v_dat a, v_dat b with DBool x, DBool y => Bool.eqb x y | _, _ => false end
       | SDec => match v_dat a, v_dat b with DDbl x, DDbl y => dbl_eqb x y | _, _ => false end
       | SInt _ _ => match v_dat a, v_dat b with DNum x, DNum y => x =? y | _, _ => false end
       | _ => true
       end.
