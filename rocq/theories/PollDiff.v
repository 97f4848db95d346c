(** The internal plugin of the plugin daemon that polls operational data: src/executables/srpd_oper_poll_diff.c.

    An instance of the configured list poll-diff-subscription is its keys (module name and path) and the
    interval.  Left out: memory and messages. *)
From Coq Require Import List Bool Arith.
Import ListNotations.

Definition key := (nat * nat)%type.
Definition key_eqb (a b : key) : bool := Nat.eqb (fst a) (fst b) && Nat.eqb (snd a) (snd b).

(** The array data->subs: keys, and the interval subscribed with *)
Definition subs := list (key * nat).

(** srpd_opd_add(), 64-106: subscribing may fail, the subscription is then not counted *)
Definition add (fails : key -> bool) (k : key) (v : nat) (l : subs) : option subs :=
  if fails k then None else Some (l ++ [(k, v)]).

(** srpd_opd_del(), 115-153, for one subscription: the last one fills the place; [None] is the failed assert of line 138 *)
Fixpoint del (k : key) (l : subs) : option subs :=
  match l with
  | [] => None
  | x :: t => if key_eqb (fst x) k then Some (match t with [] => [] | _ => last t x :: removelast t end)
              else option_map (cons x) (del k t)
  end.

(** Changes as they are iterated over: a created, a deleted list instance, a modified interval (with the old one); changes of
    other nodes are ignored, 170-215 *)
Inductive change := Created (k : key) (v : nat) | Deleted (k : key) (v : nat) | Modified (k : key) (o n : nat).

(** srpd_oper_poll_diff_change_cb(), 158-224, for events other than done *)
Inductive res := ROk (l : subs) | RErr (l : subs) | RAssert.
Fixpoint process (fails : key -> bool) (cs : list change) (l : subs) : res :=
  match cs with
  | [] => ROk l
  | Created k v :: t => match add fails k v l with Some l' => process fails t l' | None => RErr l end
  | Deleted k _ :: t => match del k l with Some l' => process fails t l' | None => RAssert end
  | Modified k _ n :: t =>
      match del k l with
      | None => RAssert
      | Some l' => match add fails k n l' with Some l'' => process fails t l'' | None => RErr l' end
      end
  end.

(** The diff of the event abort is the reversed one (shm_sub.c 2038) *)
Definition reverse (c : change) : change :=
  match c with Created k v => Deleted k v | Deleted k v => Created k v | Modified k o n => Modified k n o end.

(** The daemon, the plugin not running, or crashed *)
Inductive state := Running (l : subs) | Off (l : subs) | Crashed.
Inductive event :=
| Init (cs : list change) (fails : key -> bool)
| Change (cs : list change) (fails : key -> bool) (refused : bool) (fails2 : key -> bool)
| Cleanup.

(** Init: the event enabled with all that is configured, 226-262; on an error the data are freed.  A change: the event change,
    then done or, if another subscriber refuses it, abort; a callback that failed itself gets no abort (shm_sub.c 3160, 3534-3541).  Cleanup: 264-273.
    The result is whether the configuration is changed. *)
Definition step (e : event) (s : state) : state * bool :=
  match e, s with
  | Init cs fails, Off l =>
      match process fails cs [] with
      | ROk l' => (Running (l ++ l'), true)
      | RErr l' => (Off (l ++ l'), false)
      | RAssert => (Crashed, false)
      end
  | Change cs fails refused fails2, Running l =>
      match process fails cs l with
      | RAssert => (Crashed, false)
      | RErr l' => (Running l', false)
      | ROk l' =>
          if refused then
            match process fails2 (map reverse cs) l' with
            | RAssert => (Crashed, false)
            | ROk l'' | RErr l'' => (Running l'', false)
            end
          else (Running l', true)
      end
  | Cleanup, Running _ => (Off [], true)
  | _, _ => (s, false)
  end.
