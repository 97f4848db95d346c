(** * What users of pushed operational data rely on

    Every session has at most one order and at most one set of pushed data.  Somebody who reads the
    operational datastore gets the configuration with the data of the sessions put on it, from the
    lowest order to the highest one. *)

From Coq Require Import List NArith Bool Sorting.Sorted.
From Verif Require Import OperPush.
Import ListNotations.
Open Scope N_scope.

Definition updf {A} (f : N -> A) (k : N) (v : A) : N -> A := fun x => if x =? k then v else f x.

Record abs := mkabs {
  a_view : N -> option (N * option layer);   (* order and pushed data of a session *)
  a_edit : N -> pending;                     (* changes prepared and not applied yet *)
  a_base : data
}.

Definition data_of (a : abs) (sid : N) : option layer := match a_view a sid with Some (_, l) => l | None => None end.

(** What data a reader gets. *)
Definition shown (a : abs) (d : data) : Prop :=
  exists ls : list (N * (N * layer)),
    StronglySorted (fun x y => fst (snd x) < fst (snd y)) ls /\
    (forall sid o l, In (sid, (o, l)) ls <-> a_view a sid = Some (o, Some l)) /\
    forall p, get p d = get p (fold_left (fun d x => lay (snd (snd x)) d) ls (a_base a)).

(** Replacing and merging of pushed data. *)
Definition merged (old : option layer) (l r : layer) : Prop :=
  match old with
  | None => r = l
  | Some o =>
      (forall x, In x (l_disc r) <-> In x (l_disc o) \/ In x (l_disc l)) /\
      (forall p, get p (l_data r) = match get p (rev (l_data l)) with Some v => Some v | None => get p (l_data o) end)
  end.
Definition pushed (e : eop) (old : option layer) (l r : layer) : Prop :=
  match e with EReplace => r = l | EMerge => merged old l r end.

(** The order of a session that pushes data: the one it has, or one after all the others. *)
Definition order_for (a : abs) (sid o : N) : Prop :=
  match a_view a sid with
  | Some (o', _) => o = o'
  | None => 0 < o /\ forall sid' o' l, a_view a sid' = Some (o', l) -> o' < o
  end.

Section Sys.
Variable owner : N -> N.

Inductive a_step (a : abs) : op -> obs -> abs -> Prop :=
| A_edit sid p : a_step a (OEdit sid p) (Rc true) (mkabs (a_view a) (updf (a_edit a) sid p) (a_base a))
| A_push sid ok e l o r : a_edit a sid = PEdit e l -> order_for a sid o -> pushed e (data_of a sid) l r ->
    a_step a (OApply sid ok) (Rc true) (mkabs (updf (a_view a) sid (Some (o, Some r))) (updf (a_edit a) sid PNone) (a_base a))
| A_nothing sid ok : (forall e l, a_edit a sid <> PEdit e l) ->
    a_step a (OApply sid ok) (Rc true) (mkabs (a_view a) (updf (a_edit a) sid PNone) (a_base a))
| A_discard sid ok o l : a_view a sid = Some (o, l) ->
    a_step a (ODiscard sid ok) (Rc true) (mkabs (updf (a_view a) sid (Some (o, None))) (a_edit a) (a_base a))
| A_discard_nothing sid ok : data_of a sid = None -> a_step a (ODiscard sid ok) (Rc true) a
| A_order sid n : n <> 0 -> (forall sid' l, sid' <> sid -> a_view a sid' <> Some (n, l)) ->
    a_step a (OOrder sid n) (Rc true) (mkabs (updf (a_view a) sid (Some (n, data_of a sid))) (a_edit a) (a_base a))
| A_failed o : match o with OApply _ _ | ODiscard _ _ | OOrder _ _ | ORead => True | _ => False end ->
    a_step a o (Rc false) a
| A_stop sid ok : a_step a (OStop sid ok) (Rc true)
    (mkabs (updf (a_view a) sid None) (updf (a_edit a) sid PNone) (a_base a))
| A_crash c : a_step a (OCrash c) (Rc true) (mkabs (fun x => if owner x =? c then None else a_view a x) (a_edit a) (a_base a))
| A_crash_in sid n : a_step a (OCrashFill sid n) (Rc true)
    (mkabs (fun x => if owner x =? owner sid then None else a_view a x) (a_edit a) (a_base a))
| A_base d : a_step a (OBase d) (Rc true) (mkabs (a_view a) (a_edit a) d)
| A_read d : shown a d -> a_step a ORead (Read d) a.

Inductive a_run : abs -> list (op * obs) -> abs -> Prop :=
| AR_nil a : a_run a [] a
| AR_step a o b a1 l a2 : a_step a o b a1 -> a_run a1 l a2 -> a_run a ((o, b) :: l) a2.

End Sys.

Definition a_init (base : data) : abs := mkabs (fun _ => None) (fun _ => PNone) base.

(** A layer whose discarded XPaths have no predicates. *)
Definition plain (l : layer) : Prop := forall x, In x (l_disc l) -> snd x = None.

(** What the highest layers that say anything about a path say: [None] nothing, [Some None] it is
    discarded, [Some (Some v)] its value. *)
Definition says (l : layer) (p : N) : option (option N) :=
  match get p (rev (l_data l)) with
  | Some v => Some (Some v)
  | None => if existsb (fun x => fst x =? p) (l_disc l) then Some None else None
  end.
