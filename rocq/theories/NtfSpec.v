(** What replay is to give: the log of stored notifications, independently of files. *)
From Coq Require Import List Bool NArith Permutation.
From Verif Require Import Base NtfJson.
Import ListNotations.
Local Open Scope N_scope.

(** Order of times. *)
Definition before (a b : ts) : Prop := sec a < sec b \/ (sec a = sec b /\ nsec a < nsec b).
Definition within (start stop : ts) (n : ntf) : Prop := ~ before (n_ts n) start /\ before (n_ts n) stop.

(** Notifications times and texts fitting their types; 0 seconds are not used. *)
Definition valid (n : ntf) : Prop :=
  0 < sec (n_ts n) /\ sec (n_ts n) < two64 /\ nsec (n_ts n) < two64 /\ nlen (n_json n) < two32.

(** [sub P l l']: [l'] are the members of [l] with [P], in the same order. *)
Inductive sub {A} (P : A -> Prop) : list A -> list A -> Prop :=
| sub_nil : sub P [] []
| sub_in x l l' : P x -> sub P l l' -> sub P (x :: l) (x :: l')
| sub_out x l l' : ~ P x -> sub P l l' -> sub P (x :: l) l'.

(** Histories of storing with any order of files in the directory every time: the directory and the log. A failed storing
    which changes nothing (there is a file of the same name) is possible, there are no other failures. Times do not
    decrease. *)
Inductive history : list nfile -> list ntf -> Prop :=
| h_empty : history [] []
| h_order d d' log : history d log -> Permutation d d' -> history d' log
| h_store d log n o d' : history d log -> valid n -> (forall m, In m log -> ~ before (n_ts n) (n_ts m)) ->
    store o n d = SOk d' -> history d' (log ++ [n])
| h_full d log n o : history d log -> store o n d = SErr d -> history d log.

(** Bytes a notification takes: its time, the length of its text and the text. *)
Definition space (l : list ntf) : N := fold_right (fun n a => 20 + nlen (n_json n) + a) 0 l.
(** Of the requested interval: from the start, before the stop time if there is one, and before the subscription. *)
Definition requested (start stop since : ts) (n : ntf) : Prop :=
  ~ before (n_ts n) start /\ before (n_ts n) since /\ (stop = mkTs 0 0 \/ before (n_ts n) stop).
