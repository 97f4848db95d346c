(** Editing a datastore in a text editor with sysrepocfg: src/executables/sysrepocfg.c 157-186 (step_edit_input()), 188-226
    (step_read_file()), 322-348 (op_import()), 351-404 (op_export()), 406-485 (op_edit() with an editor).

    The data are one value for each module (its number is the position, 0 is no data); printing and
    parsing keep them.  Exporting and replacing of data succeed or fail as a whole (C15, C34, C59). *)
From Coq Require Import List Bool Arith.
Import ListNotations.

Definition data := list nat.
Fixpoint write (m v : nat) (d : data) : data :=
  match d, m with [], _ => [] | _ :: t, 0 => v :: t | x :: t, S n => x :: write n v t end.

(** Changes by other sessions between the steps: those of locked modules are refused (C05). *)
Fixpoint others (locked : nat -> bool) (ws : list (nat * nat)) (d : data) : data * list (nat * nat) :=
  match ws with
  | [] => (d, [])
  | (m, v) :: t => if locked m then others locked t d
                   else let (d', a) := others locked t (write m v d) in (d', (m, v) :: a)
  end.

(** op_export(): the data of one module or of all *)
Fixpoint export (sel : nat -> bool) (i : nat) (d : data) : list (option nat) :=
  match d with [] => [] | v :: t => (if sel i then Some v else None) :: export sel (S i) t end.
(** op_import(): sr_replace_config() of one module or of all; what is not in the file is removed *)
Fixpoint import (sel : nat -> bool) (i : nat) (new : list nat) (d : data) : data :=
  match d with [] => [] | v :: t => (if sel i then nth i new 0 else v) :: import sel (S i) new t end.

(** How the editor ends: with a status, or by a signal; a failed exec is the status 1 *)
Inductive ends := Exit (status : nat) | Signal.

(** What is there afterwards: data, accepted changes of the others, success, whether modules are still locked by the program,
    whether the temporary file is there *)
Record result := mkres { r_data : data; r_acc : list (nat * nat); r_ok : bool; r_locked : bool; r_tmp : bool }.

(** op_edit(), 448-485.  [busy]: another session has a lock.  [f] is what the user makes of the file. *)
Definition op_edit (lock busy : bool) (sel : nat -> bool) (w1 w2 w3 : list (nat * nat)) (e : ends) (f : list (option nat) -> list nat)
    (export_ok parse_ok import_ok : bool) (d : data) : result :=
  if lock && busy then mkres d [] false false true
  else
    let locked := fun m => lock && sel m in
    let (d1, a1) := others locked w1 d in
    if negb export_ok then mkres d1 a1 false false true
    else
      let file := export sel 0 d1 in
      let (d2, a2) := others locked w2 d1 in
      match e with
      | Signal => mkres d2 (a1 ++ a2) false false true
      | Exit _ =>
          if negb parse_ok then mkres d2 (a1 ++ a2) false false true
          else
            let (d3, a3) := others locked w3 d2 in
            if negb import_ok then mkres d3 (a1 ++ a2 ++ a3) false false true
            else mkres (import sel 0 (f file) d3) (a1 ++ a2 ++ a3) true false true
      end.

(** step_read_file(), 188-226: the buffer has [size] bytes (512 at first) and is doubled when it is full; [None] is writing
    behind its end *)
Fixpoint read_loop (fuel size : nat) (mem input : list nat) : list nat * nat :=
  match fuel with
  | 0 => (mem, size)
  | S n =>
      let size := if Nat.eqb (length mem) size then size + size else size in
      let k := size - length mem in
      let mem := mem ++ firstn k input in
      if Nat.eqb (length mem) size then read_loop n size mem (skipn k input) else (mem, size)
  end.
Definition read_file (size : nat) (input : list nat) : option (list nat) :=
  let (mem, size) := read_loop (S (S (length input))) size [] input in
  if Nat.ltb (length mem) size then Some mem else None.
