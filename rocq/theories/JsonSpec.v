(** What is relied on: data of a module in the startup datastore, independently of files used. *)
From Coq Require Import List Bool Arith.
From Verif Require Import JsonStore.
Import ListNotations.

(** System calls of a process living long enough and with nothing failing. *)
Definition works (o : list outcome) : Prop := forall x, In x o -> exists n, x = Good (S n).

Section Spec.
Context {D : Type} (parse : bytes -> option D).

(** Loads of the startup data, any of which can fail or the process can die during it; only that there is a backup
    is learned correctly (the first call). *)
Definition looked (o : list outcome) : Prop := match o with Fail :: _ | Intr :: _ => False | _ => True end.
Inductive loads : fs -> fs -> Prop :=
| loads_none s : loads s s
| loads_died s o s1 s2 : looked o -> load parse Startup true o s = Died s1 -> loads s1 s2 -> loads s s2
| loads_fin s o r o' s1 s2 : looked o -> load parse Startup true o s = Fin r o' s1 -> loads s1 s2 -> loads s s2.

(** The data are [d]: whatever loads happen, one which succeeds gives [d], and one of a process with nothing
    failing and living long enough does succeed. *)
Definition holds (s : fs) (d : D) : Prop :=
  (forall s1, loads s s1 ->
     (forall o r o' s2, looked o -> load parse Startup true o s1 = Fin r o' s2 -> r = LData d \/ r = LErr) /\
     (exists n, forall o, works o -> n <= length o -> exists o' s2, load parse Startup true o s1 = Fin (LData d) o' s2)).
End Spec.
