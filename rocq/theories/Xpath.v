(** Helpers working on paths in place, src/utils/xpath.c.

    The memory of the string, its terminating zero included, is a list of characters and pointers to it are
    indices; [Bad] is an access out of the memory. [Hang] is a loop not finished in the number of steps given.
    Checks of NULL arguments are left out. All calls are for one string, [fresh] is a call with the string given
    and not fresh with NULL, so state->begining is always 0. *)
From Coq Require Import List Bool Arith.
Import ListNotations.

Definition str := list nat.
Definition c_slash := 47. Definition c_colon := 58. Definition c_lbr := 91. Definition c_rbr := 93. Definition c_eq := 61.
Definition c_apos := 39. Definition c_quot := 34.
Definition quote (c : nat) : bool := Nat.eqb c c_apos || Nat.eqb c c_quot.

(** sr_xpath_ctx_t, src/utils/xpath.h 45-50, with the memory. *)
Record ctx := mk { buf : str; cur : option nat; rp : nat; rc : nat }.
Inductive res := Ret (p : option nat) (st : ctx) | Bad | Hang.

Definition at_ (b : str) (i : nat) : nat := nth i b 0.
Fixpoint upd (i : nat) (c : nat) (b : str) : str :=
  match b, i with
  | [], _ => []
  | _ :: t, 0 => c :: t
  | x :: t, S i' => x :: upd i' c t
  end.
(** Loops over characters: the number of those passed; [None]: the memory has been left. *)
Fixpoint scan (stop : nat -> bool) (l : str) : option nat :=
  match l with
  | [] => None
  | c :: t => if Nat.eqb c 0 || stop c then Some 0 else option_map S (scan stop t)
  end.
(** The same with quotes, src/utils/xpath.c 50-58 and 127-135. *)
Fixpoint scanq (q : option nat) (stop : nat -> bool) (l : str) : option nat :=
  match l with
  | [] => None
  | c :: t =>
      if Nat.eqb c 0 || (match q with None => stop c | Some _ => false end) then Some 0
      else option_map S (scanq (match q with
                                | Some x => if Nat.eqb c x then None else q
                                | None => if quote c then Some c else None
                                end) stop t)
  end.

(** sr_xpath_recover(), src/utils/xpath.c 585-593. *)
Definition recover (st : ctx) : ctx := mk (upd (rp st) (rc st) (buf st)) (cur st) (rp st) (rc st).
(** Beginning of all functions, src/utils/xpath.c 36-43. *)
Definition enter (fresh : bool) (st : ctx) : ctx :=
  if fresh then mk (buf st) None 0 (at_ (buf st) 0) else recover st.
Definition start (st : ctx) : nat := if quote (rc st) then S (rp st) else rp st.

(** sr_get_next_node_internal(), src/utils/xpath.c 45-87. *)
Definition node_body (skip : bool) (st : ctx) : res :=
  match scanq None (Nat.eqb c_slash) (skipn (start st) (buf st)) with
  | None => Bad
  | Some k =>
      let i := start st + k in
      if Nat.eqb (at_ (buf st) i) 0 then Ret None st
      else match scan (fun c => Nat.eqb c c_slash || Nat.eqb c c_colon || Nat.eqb c c_lbr) (skipn (S i) (buf st)) with
           | None => Bad
           | Some k2 =>
               let j := S i + k2 in
               if Nat.eqb (at_ (buf st) j) c_colon then
                 let b := if skip then S j else j in
                 match scan (fun c => Nat.eqb c c_slash || Nat.eqb c c_lbr) (skipn b (buf st)) with
                 | None => Bad
                 | Some k3 =>
                     let node := if skip then S j else S i in
                     Ret (Some node) (mk (upd (b + k3) 0 (buf st)) (Some node) (b + k3) (at_ (buf st) (b + k3)))
                 end
               else Ret (Some (S i)) (mk (upd j 0 (buf st)) (Some (S i)) j (at_ (buf st) j))
           end
  end.
(** sr_xpath_next_key_name(), src/utils/xpath.c 122-155. *)
Definition key_body (st : ctx) : res :=
  match scanq None (fun c => Nat.eqb c c_lbr || Nat.eqb c c_slash) (skipn (start st) (buf st)) with
  | None => Bad
  | Some k =>
      let i := start st + k in
      if Nat.eqb (at_ (buf st) i) 0 || Nat.eqb (at_ (buf st) i) c_slash then Ret None st
      else match scan (Nat.eqb c_eq) (skipn (S i) (buf st)) with
           | None => Bad
           | Some k2 =>
               let j := S i + k2 in
               if Nat.eqb (at_ (buf st) j) c_eq then Ret (Some (S i)) (mk (upd j 0 (buf st)) (cur st) j (at_ (buf st) j))
               else Ret (Some (S i)) st
           end
  end.
(** sr_xpath_next_key_value(), src/utils/xpath.c 175-203. The memory of the quote is not changed by the loop. *)
Definition val_body (st : ctx) : res :=
  match scan (fun c => quote c || Nat.eqb c c_slash) (skipn (start st) (buf st)) with
  | None => Bad
  | Some k =>
      let i := start st + k in
      if Nat.eqb (at_ (buf st) i) 0 || Nat.eqb (at_ (buf st) i) c_slash then Ret None st
      else match scan (Nat.eqb (at_ (buf st) i)) (skipn (S i) (buf st)) with
           | None => Bad
           | Some k2 =>
               let j := S i + k2 in
               if Nat.eqb (at_ (buf st) j) (at_ (buf st) i) then Ret (Some (S i)) (mk (upd j 0 (buf st)) (cur st) j (at_ (buf st) j))
               else Ret (Some (S i)) st
           end
  end.
Definition next_node (fresh : bool) (st : ctx) : res := node_body true (enter fresh st).
Definition next_node_ns (fresh : bool) (st : ctx) : res := node_body false (enter fresh st).
Definition next_key (fresh : bool) (st : ctx) : res := key_body (enter fresh st).
Definition next_val (fresh : bool) (st : ctx) : res := val_body (enter fresh st).

(** The string at a pointer. *)
Fixpoint zstr (l : str) : str := match l with [] => [] | c :: t => if Nat.eqb c 0 then [] else c :: zstr t end.
Definition cstr (b : str) (i : nat) : str := zstr (skipn i b).
Fixpoint str_eqb (a b : str) : bool :=
  match a, b with [], [] => true | x :: a', y :: b' => Nat.eqb x y && str_eqb a' b' | _, _ => false end.

(** Loops over nodes and keys. *)
Fixpoint find (f : nat) (next : bool -> ctx -> res) (name : str) (st : ctx) : res :=
  match f with
  | 0 => Hang
  | S f' =>
      match next false st with
      | Ret (Some p) st' => if str_eqb name (cstr (buf st') p) then Ret (Some p) st' else find f' next name st'
      | r => r
      end
  end.
Fixpoint find_idx (next : bool -> ctx -> res) (idx : nat) (st : ctx) : res :=
  match next false st with
  | Ret (Some p) st' => match idx with 0 => Ret (Some p) st' | S i' => find_idx next i' st' end
  | r => r
  end.
(** Restoring after a failed search. *)
Definition restore (old : ctx) (st : ctx) : ctx := mk (buf st) (cur st) (rp old) (rc old).
Definition from_start (st : ctx) : ctx := mk (buf st) None 0 (at_ (buf st) 0).
Definition or_restore (old : ctx) (r : res) : res := match r with Ret None st => Ret None (restore old st) | _ => r end.
(** sr_xpath_node(), src/utils/xpath.c 205-245. *)
Definition node (f : nat) (fresh : bool) (name : str) (st : ctx) : res :=
  let old := enter fresh st in or_restore old (find f next_node name (from_start old)).
(** sr_xpath_node_idx(), src/utils/xpath.c 285-321. *)
Definition node_idx (fresh : bool) (idx : nat) (st : ctx) : res :=
  let old := enter fresh st in or_restore old (find_idx next_node idx (from_start old)).
(** sr_xpath_node_rel(), src/utils/xpath.c 247-283: the current node is returned. *)
Definition node_rel (f : nat) (fresh : bool) (name : str) (st : ctx) : res :=
  let old := enter fresh st in
  match find f next_node name old with
  | Ret _ st' => match cur st' with None => Ret None (restore old st') | Some p => Ret (Some p) st' end
  | r => r
  end.
(** sr_xpath_node_idx_rel(), src/utils/xpath.c 323-354. *)
Definition node_idx_rel (fresh : bool) (idx : nat) (st : ctx) : res :=
  let old := enter fresh st in or_restore old (find_idx next_node idx old).
(** Getting to the first node and to its beginning, src/utils/xpath.c 377-386 and 425-434. *)
Definition to_current (st : ctx) (k : ctx -> res) : res :=
  let go := fun s => match cur s with Some p => k (mk (buf s) (Some p) p (at_ (buf s) p)) | None => Bad end in
  match cur st with
  | Some _ => go st
  | None =>
      match next_node false st with
      | Ret (Some _) st' => go (recover st')
      | Ret None st' => Ret None (recover st')
      | r => r
      end
  end.
(** sr_xpath_node_key_value(), src/utils/xpath.c 356-401. *)
Definition node_key_value (f : nat) (fresh : bool) (key : str) (st : ctx) : res :=
  let old := enter fresh st in
  to_current old (fun s =>
    match find f next_key key s with
    | Ret (Some _) st' => next_val false st'
    | r => or_restore old r
    end).
(** sr_xpath_node_key_value_idx(), src/utils/xpath.c 403-445. *)
Definition node_key_value_idx (fresh : bool) (idx : nat) (st : ctx) : res :=
  let old := enter fresh st in
  to_current old (fun s =>
    match find_idx next_key idx s with
    | Ret (Some _) st' => next_val false st'
    | r => or_restore old r
    end).
(** sr_xpath_key_value(), src/utils/xpath.c 447-483. *)
Definition key_value (f : nat) (fresh : bool) (name key : str) (st : ctx) : res :=
  let old := enter fresh st in
  match node f false name old with
  | Ret (Some _) st' => or_restore old (node_key_value f false key st')
  | r => r
  end.
(** sr_xpath_key_value_idx(), src/utils/xpath.c 485-520. *)
Definition key_value_idx (fresh : bool) (nidx kidx : nat) (st : ctx) : res :=
  let old := enter fresh st in
  match node_idx false nidx old with
  | Ret (Some _) st' => or_restore old (node_key_value_idx false kidx st')
  | r => r
  end.
(** sr_xpath_last_node(), src/utils/xpath.c 522-543. *)
Fixpoint last_loop (f : nat) (st : ctx) : res :=
  match f with
  | 0 => Hang
  | S f' => match next_node false st with Ret (Some _) st' => last_loop f' st' | Ret None st' => Ret (cur st') st' | r => r end
  end.
Definition last_node (f : nat) (fresh : bool) (st : ctx) : res := last_loop f (enter fresh st).

(** sr_xpath_node_name(), src/utils/xpath.c 545-569: backwards from [i]; [None]: before the memory. *)
Fixpoint back (b : str) (q : option nat) (i : nat) : nat :=
  match i with
  | 0 => 0
  | S i' =>
      let c := at_ b i in
      match q with
      | None => if Nat.eqb c c_slash then i else back b (if quote c then Some c else None) i'
      | Some x => back b (if Nat.eqb c x then None else q) i'
      end
  end.
Definition node_name (b : str) : option (option nat) :=
  match length (zstr b) with
  | 0 => None
  | S n => match back b None n with 0 => Some None | i => Some (Some (S i)) end
  end.
