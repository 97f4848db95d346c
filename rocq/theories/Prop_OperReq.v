(** C40: reading some operational data asks every subscriber that provides some of them. *)
From Coq Require Import String Ascii List Bool Arith Lia.
From Verif Require Import OperReq OperReqSpec OperReqProofs.
Import ListNotations.

(** Whenever some data can be selected both by a part of what is read and by a part of what a subscriber
    provides, the subscriber is asked. Partial: for unions of simple XPaths, and if the names in predicates
    of the two parts are told apart, see the refutations. *)
Theorem C40_asked_partial : forall req sub r s, simple_union req -> simple_union sub -> In r req -> In s sub ->
  overlap r s -> all_apart r s -> required (Some (union_txt req)) (union_txt sub) = Some true.
Proof.
  intros req sub r s Fr Fs Hr Hs OV AP. destruct (required_spec req sub Fr Fs) as (ru & su & Pr & Ps & _ & E). apply E.
  destruct (proj2 (forall2_in _ _ _ Pr) r Hr) as (rl & Hrl & P1). destruct (proj2 (forall2_in _ _ _ Ps) s Hs) as (sl & Hsl & P2). exists rl, sl. split; [exact Hrl|]. split; [exact Hsl|].
  destruct Fr as (_ & Gr & Sr), Fs as (_ & Gs & Ss). rewrite Forall_forall in Gr, Sr, Gs, Ss. exact (parsed_yes r s rl sl (Gr _ Hr) (Gs _ Hs) (Sr _ Hr) (Ss _ Hs) P1 P2 AP OV).
Qed.

(** Reading everything asks everybody. *)
Theorem C40_all : forall sub, required None sub = Some true.
Proof. reflexivity. Qed.

(** The decision never reads outside of the XPaths. *)
Theorem C40_defined_partial : forall req sub, simple_union req -> simple_union sub -> exists b, required (Some (union_txt req)) (union_txt sub) = Some b.
Proof.
  intros req sub Fr Fs. destruct (required_spec req sub Fr Fs) as (ru & su & _ & _ & D & _). destruct (required _ _) as [b|]; [eauto|contradiction].
Qed.

(** Without predicates exactly the subscribers that provide some of the data are asked. *)
Theorem C40_only_needed : forall req sub, simple_union req -> simple_union sub -> Forall plain req -> Forall plain sub ->
  (overlaps req sub -> required (Some (union_txt req)) (union_txt sub) = Some true) /\
  (~ overlaps req sub -> required (Some (union_txt req)) (union_txt sub) = Some false).
Proof.
  intros req sub Fr Fs Lr Ls. destruct (required_spec req sub Fr Fs) as (ru & su & Pr & Ps & D & E). destruct Fr as (_ & Gr & Sr), Fs as (_ & Gs & Ss). rewrite Forall_forall in *. split.
  - intros (r & s & Hr & Hs & OV). apply E. destruct (proj2 (forall2_in _ _ _ Pr) r Hr) as (rl & Hrl & P1). destruct (proj2 (forall2_in _ _ _ Ps) s Hs) as (sl & Hsl & P2). exists rl, sl. split; [exact Hrl|]. split; [exact Hsl|].
    rewrite (parsed_plain r s rl sl (Gr _ Hr) (Gs _ Hs) (Sr _ Hr) (Ss _ Hs) (Lr _ Hr) (Ls _ Hs) P1 P2). f_equal. apply (meets_overlap r s); auto. 
  - intros NO. destruct (required _ _) as [[|]|]; [|reflexivity|contradiction]. exfalso. apply NO. destruct (proj1 E eq_refl) as (rl & sl & Hrl & Hsl & Eq).
    destruct (proj1 (forall2_in _ _ _ Pr) rl Hrl) as (r & Hr & P1). destruct (proj1 (forall2_in _ _ _ Ps) sl Hsl) as (s & Hs & P2). exists r, s. split; [exact Hr|]. split; [exact Hs|].
    rewrite (parsed_plain r s rl sl (Gr _ Hr) (Gs _ Hs) (Sr _ Hr) (Ss _ Hs) (Lr _ Hr) (Ls _ Hs) P1 P2) in Eq. injection Eq as Eq. apply (meets_overlap r s); auto.
Qed.

(** A subscriber for instances with another value of a leaf is not asked. *)
Theorem C40_other_instances : forall r s a x a' b y b' n q v q' v', simple_union [r] -> simple_union [s] ->
  p_steps r = a ++ x :: a' -> p_steps s = b ++ y :: b' -> map bare (a ++ [x]) = map bare (b ++ [y]) ->
  In (PEq n q v) (step_preds x) -> In (PEq n q' v') (step_preds y) -> v <> v' ->
  required (Some (union_txt [r])) (union_txt [s]) = Some false.
Proof.
  intros r s a x a' b y b' n q v q' v' Fr Fs Er Es Eb Hx Hy Nv. destruct (required_spec [r] [s] Fr Fs) as (ru & su & Pr & Ps & D & E). destruct Fr as (_ & Gr & Sr), Fs as (_ & Gs & Ss). rewrite Forall_forall in *.
  destruct (required _ _) as [[|]|]; [|reflexivity|contradiction]. exfalso. destruct (proj1 E eq_refl) as (rl & sl & Hrl & Hsl & Eq).
  destruct (proj1 (forall2_in _ _ _ Pr) rl Hrl) as (r' & [<-|[]] & P1). destruct (proj1 (forall2_in _ _ _ Ps) sl Hsl) as (s' & [<-|[]] & P2).
  rewrite (parsed_clash r s rl sl a x a' b y b' n q v q' v' (Gr _ (or_introl eq_refl)) (Gs _ (or_introl eq_refl)) (Sr _ (or_introl eq_refl)) (Ss _ (or_introl eq_refl)) P1 P2 Er Es Eb Hx Hy Nv) in Eq. discriminate.
Qed.

(** The parent of the data a subscriber provides: the data without the last node. *)
Theorem C40_parent_partial : forall l s, Forall good_step (l ++ [s]) -> Forall node_step (l ++ [s]) -> Forall (fun p => ~ In "["%char (pred_txt p)) (step_preds s) ->
  trim_last (path_txt (mkpath true (l ++ [s]))) = match l with [] => TNone | _ => TParent (path_txt (mkpath true l)) end.
Proof. exact trim_ok. Qed.

(** ** Concrete cases *)
Definition nd (m : string) (n : string) : step := SName (if String.eqb m "" then None else Some (s_ m)) (s_ n) [].
Definition ndp (m : string) (n : string) (ps : list (string * string)) : step := SName (if String.eqb m "" then None else Some (s_ m)) (s_ n) (map (fun p => PEq (s_ (fst p)) "'" (s_ (snd p))) ps).
Definition pa (l : list step) : path := mkpath true l.
Definition el (m n : string) (v : list (string * string)) : elem :=
  mkelem (s_ m) (s_ n) (fun k => match find (fun p => str_eqb (s_ (fst p)) k) v with Some p => Some (s_ (snd p)) | None => None end).
Definition bident (n : str) : bool := match n with c :: _ => is_alpha c || ch c "_" | [] => false end && forallb is_id n.
Lemma bident_ok : forall n, bident n = true -> ident n.
Proof.
  intros n H. unfold bident in H. apply andb_true_iff in H. destruct H as (H1 & H2). split.
  - destruct n as [|c t]; [discriminate|]. apply orb_true_iff in H1. destruct H1 as [H1|H1]; [left; exact H1|right; apply ch_eq; exact H1].
  - apply Forall_forall. apply forallb_forall. exact H2.
Qed.
Ltac good1 := first [ exact Logic.I | reflexivity | discriminate | apply bident_ok; vm_compute; reflexivity | (let Q := fresh in intros Q; vm_compute in Q; repeat (destruct Q as [Q|Q]; [discriminate Q|]); exact Q) ].
Ltac good := repeat first [ good1 | constructor | split ].
(** Nobody limits what can exist. *)
Definition any (_ : list elem) : Prop := True.
Ltac selecting := repeat first [ exact Logic.I | reflexivity | match goal with |- Forall _ _ => constructor end | match goal with |- _ /\ _ => split end ].

Definition x_req : list path := [pa [nd "m" "a"; ndp "" "item" [("name", "one"); ("kind", "up")]%string; nd "" "state"]; pa [nd "n" "b"; SDesc]].
Definition x_sub : path := pa [nd "m" "a"; ndp "m" "item" [("kind", "up")]%string].
Example C40_reads : reads x_req "/m:a/item[name='one'][kind='up']/state | /n:b//." /\ reads [x_sub] "/m:a/m:item[kind='up']".
Proof. split; vm_compute; reflexivity. Qed.
Example C40_asked_ex : required (Some (union_txt x_req)) (union_txt [x_sub]) = Some true /\ required (Some (union_txt x_req)) (s_ "/n:b/c/d") = Some true /\
  required (Some (union_txt x_req)) (s_ "/m:a/item[kind='down']") = Some false /\ required (Some (union_txt x_req)) (s_ "/n:c") = Some false.
Proof. vm_compute. auto. Qed.
Example C40_asked_hyps : simple_union x_req /\ simple_union [x_sub] /\ overlap (hd x_sub x_req) x_sub /\ all_apart (hd x_sub x_req) x_sub.
Proof.
  split; [unfold simple_union; good|]. split; [unfold simple_union; good|]. split.
  - exists any, [el "m" "a" []; el "m" "item" [("name", "one"); ("kind", "up")]%string; el "m" "state" []], [el "m" "a" []; el "m" "item" [("name", "one"); ("kind", "up")]%string].
    split; [|split; [|right; eexists; reflexivity]].
    + unfold selects. cbn [hd x_req pa p_steps sel nd ndp String.eqb Ascii.eqb Bool.eqb]. exists (el "m" "a" []). selecting. exists (el "m" "item" [("name", "one"); ("kind", "up")]%string). selecting. exists (el "m" "state" []). selecting.
    + unfold selects. cbn [x_sub pa p_steps sel nd ndp]. exists (el "m" "a" []). selecting. exists (el "m" "item" [("name", "one"); ("kind", "up")]%string). selecting.
  - intros a b Ha Hb. cbn in Ha, Hb. destruct Hb as [<-|[]]. destruct Ha as [<-|[<-|[]]]; [right|left; reflexivity]. split; [reflexivity|]. split; [reflexivity|discriminate].
Qed.
Example C40_other_instances_ex : required (Some (s_ "/m:a/l[k='1'][name='x']/b")) (s_ "/m:a/l[name='y']") = Some false /\
  simple_union [pa [nd "m" "a"; ndp "" "l" [("k", "1"); ("name", "x")]%string; nd "" "b"]] /\ reads [pa [nd "m" "a"; ndp "" "l" [("k", "1"); ("name", "x")]%string; nd "" "b"]] "/m:a/l[k='1'][name='x']/b".
Proof. split; [vm_compute; reflexivity|]. split; [unfold simple_union; good|vm_compute; reflexivity]. Qed.
Definition y_req : list path := [pa [nd "m" "a"; nd "" "b"]; pa [SAny (Some (s_ "n")) []; nd "" "c"]].
Example C40_only_needed_ex : simple_union y_req /\ Forall plain y_req /\ simple_union [pa [nd "n" "x"]] /\ Forall plain [pa [nd "n" "x"]] /\ overlaps y_req [pa [nd "n" "x"]] /\ ~ overlaps y_req [pa [nd "m" "a"; nd "" "c"]] /\
  required (Some (s_ "/m:a/b | /n:*/c")) (s_ "/n:x") = Some true /\ required (Some (s_ "/m:a/b | /n:*/c")) (s_ "/m:a/c") = Some false.
Proof.
  split; [unfold simple_union; good|]. split; [unfold plain; good|]. split; [unfold simple_union; good|]. split; [unfold plain; good|]. split.
  - exists (pa [SAny (Some (s_ "n")) []; nd "" "c"]), (pa [nd "n" "x"]). split; [right; left; reflexivity|]. split; [left; reflexivity|]. exists any, [el "n" "x" []; el "n" "c" []], [el "n" "x" []]. split; [|split; [|right; eexists; reflexivity]].
    + unfold selects. cbn [pa p_steps sel]. exists (el "n" "x" []). selecting. exists (el "n" "c" []). selecting.
    + unfold selects. cbn [pa p_steps sel]. exists (el "n" "x" []). selecting.
  - split; [|split; vm_compute; reflexivity]. intros H.
    assert (E : required (Some (union_txt y_req)) (union_txt [pa [nd "m" "a"; nd "" "c"]]) = Some true) by (apply C40_only_needed; [unfold simple_union; good|unfold simple_union; good|unfold plain; good|unfold plain; good|exact H]). vm_compute in E. discriminate.
Qed.
Example C40_parent_ex : trim_last (s_ "/m:a/l[k='x/]y']") = TParent (s_ "/m:a") /\ trim_last (s_ "/m:a[k='1']/m:b") = TParent (s_ "/m:a[k='1']") /\ trim_last (s_ "/m:a") = TNone.
Proof. vm_compute. auto. Qed.

(** ** Needed but not asked *)

(** A filter on a leaf that another subscriber provides: only the subscribers of the selected nodes are
    asked, nobody asks the one whose data decide what is selected, so nothing is. sr_xpath_oper_data_required(),
    src/modinfo.c 1035-1038: atoms of predicates do not count unless they match as data to be read. *)
Theorem C40_filter_refuted : exists r s, simple_union [r] /\ simple_union [s] /\ reads [r] "/m:a/l[s='up']/n" /\ reads [s] "/m:a/l/s" /\
  needs [r] [s] /\ required (Some (union_txt [r])) (union_txt [s]) = Some false.
Proof.
  exists (pa [nd "m" "a"; ndp "" "l" [("s", "up")]%string; nd "" "n"]), (pa [nd "m" "a"; nd "" "l"; nd "" "s"]). split; [unfold simple_union; good|]. split; [unfold simple_union; good|]. split; [vm_compute; reflexivity|]. split; [vm_compute; reflexivity|]. split; [|vm_compute; reflexivity].
  right. exists (pa [nd "m" "a"; ndp "" "l" [("s", "up")]%string; nd "" "n"]), [nd "m" "a"; nd "" "l"; nd "" "s"]. split; [left; reflexivity|]. split; [vm_compute; left; reflexivity|].
  eexists. eexists. split; [left; reflexivity|]. split; [left; reflexivity|]. exists any, [el "m" "a" []; el "m" "l" []; el "m" "s" []], [el "m" "a" []; el "m" "l" []; el "m" "s" []]. split; [|split; [|left; exists []; reflexivity]]; unfold selects; cbn [pa p_steps sel]; exists (el "m" "a" []); selecting; exists (el "m" "l" []); selecting; exists (el "m" "s" []); selecting.
Qed.

(** Alternatives: of "[k='1' or k='2']" every part must agree with the predicate of the subscriber, so the
    one that provides the second is not asked. sr_xpath_oper_data_required(), src/modinfo.c 1042-1046. *)
Theorem C40_or_refuted : exists r s, good_path r /\ simple_union [s] /\ reads [r] "/m:l[k='1' or k='2']" /\ reads [s] "/m:l[k='2']" /\
  overlap r s /\ required (Some (union_txt [r])) (union_txt [s]) = Some false.
Proof.
  exists (pa [SName (Some (s_ "m")) (s_ "l") [POr (PEq (s_ "k") "'" (s_ "1")) (PEq (s_ "k") "'" (s_ "2"))]]), (pa [ndp "m" "l" [("k", "2")]%string]). split; [good|]. split; [unfold simple_union; good|]. split; [vm_compute; reflexivity|]. split; [vm_compute; reflexivity|]. split; [|vm_compute; reflexivity].
  exists any, [el "m" "l" [("k", "2")]%string], [el "m" "l" [("k", "2")]%string]. split; [|split; [|left; exists []; reflexivity]]; unfold selects; cbn [pa p_steps sel]; exists (el "m" "l" [("k", "2")]%string); selecting; right; reflexivity.
Qed.

(** Predicates on different leaves whose names differ only in the first character (or that have a single
    one) are taken for predicates on the same leaf, so differing values exclude each other: the first
    character of the name is skipped, sr_xpath_oper_data_text_atom_pred_match(), src/modinfo.c 887-888. *)
Theorem C40_names_refuted : exists r s, simple_union [r] /\ simple_union [s] /\ reads [r] "/m:p[x='1']" /\ reads [s] "/m:p[y='2']" /\
  overlap r s /\ required (Some (union_txt [r])) (union_txt [s]) = Some false.
Proof.
  exists (pa [ndp "m" "p" [("x", "1")]%string]), (pa [ndp "m" "p" [("y", "2")]%string]). split; [unfold simple_union; good|]. split; [unfold simple_union; good|]. split; [vm_compute; reflexivity|]. split; [vm_compute; reflexivity|]. split; [|vm_compute; reflexivity].
  exists any, [el "m" "p" [("x", "1"); ("y", "2")]%string], [el "m" "p" [("x", "1"); ("y", "2")]%string]. split; [|split; [|left; exists []; reflexivity]]; unfold selects; cbn [pa p_steps sel]; exists (el "m" "p" [("x", "1"); ("y", "2")]%string); selecting.
Qed.

(** A relative XPath, evaluated at the root, asks nobody: it is joined with "/" and its atom starts with two
    slashes. sr_xpath_get_text_atoms(), src/common.c 5213. *)
Theorem C40_relative_refuted : exists r s, good_path r /\ simple_union [s] /\ reads [r] "m:a/b" /\ reads [s] "/m:a/b" /\
  overlap r s /\ required (Some (union_txt [r])) (union_txt [s]) = Some false.
Proof.
  exists (mkpath false [nd "m" "a"; nd "" "b"]), (pa [nd "m" "a"; nd "" "b"]). split; [good|]. split; [unfold simple_union; good|]. split; [vm_compute; reflexivity|]. split; [vm_compute; reflexivity|]. split; [|vm_compute; reflexivity].
  exists any, [el "m" "a" []; el "m" "b" []], [el "m" "a" []; el "m" "b" []]. split; [|split; [|left; exists []; reflexivity]]; unfold selects; cbn [pa p_steps sel]; exists (el "m" "a" []); selecting; exists (el "m" "b" []); selecting.
Qed.

(** "." and ".." are compared as if they were names: data selected through them are of nobody.
    sr_xpath_oper_data_text_atoms_required(), src/modinfo.c 963-966. *)
Theorem C40_dots_refuted : exists r1 r2 s, good_path r1 /\ good_path r2 /\ simple_union [s] /\ reads [r1] "/m:a/./b" /\ reads [r2] "/m:a/c/../b" /\ reads [s] "/m:a/b" /\
  overlap r1 s /\ overlap r2 s /\ required (Some (union_txt [r1])) (union_txt [s]) = Some false /\ required (Some (union_txt [r2])) (union_txt [s]) = Some false.
Proof.
  exists (pa [nd "m" "a"; SSelf; nd "" "b"]), (pa [nd "m" "a"; nd "" "c"; SUp; nd "" "b"]), (pa [nd "m" "a"; nd "" "b"]). split; [good|]. split; [good|]. split; [unfold simple_union; good|]. split; [vm_compute; reflexivity|]. split; [vm_compute; reflexivity|]. split; [vm_compute; reflexivity|].
  split; [|split; [|split; vm_compute; reflexivity]]; exists any, [el "m" "a" []; el "m" "b" []], [el "m" "a" []; el "m" "b" []]; (split; [|split; [|left; exists []; reflexivity]]); unfold selects; cbn [pa p_steps sel]; exists (el "m" "a" []); selecting.
  - exists (el "m" "b" []); selecting.
  - exists (el "m" "b" []); selecting.
  - exists (el "m" "c" []); selecting; [discriminate|]. exists (el "m" "b" []); selecting.
  - exists (el "m" "b" []); selecting.
Qed.

(** Descendants in the middle of an XPath: what follows "//." must be directly below. *)
Theorem C40_descendants_refuted : exists r s, good_path r /\ simple_union [s] /\ reads [r] "//./b" /\ reads [s] "/m:a/c/b" /\
  overlap r s /\ required (Some (union_txt [r])) (union_txt [s]) = Some false.
Proof.
  exists (pa [SDesc; nd "" "b"]), (pa [nd "m" "a"; nd "" "c"; nd "" "b"]). split; [good|]. split; [unfold simple_union; good|]. split; [vm_compute; reflexivity|]. split; [vm_compute; reflexivity|]. split; [|vm_compute; reflexivity].
  exists any, [el "m" "a" []; el "m" "c" []; el "m" "b" []], [el "m" "a" []; el "m" "c" []; el "m" "b" []]. split; [|split; [|left; exists []; reflexivity]]; unfold selects; cbn [pa p_steps sel].
  - exists [el "m" "a" []; el "m" "c" []]. selecting. exists (el "m" "b" []). selecting.
  - exists (el "m" "a" []); selecting; exists (el "m" "c" []); selecting; exists (el "m" "b" []); selecting.
Qed.

(** A later part of a union that is not understood is forgotten, only the parts before it decide; alone it
    would ask everybody. sr_xpath_get_text_atoms(), src/common.c 5215-5222. *)
Theorem C40_union_refuted : exists s, simple_union [s] /\ reads [s] "/m:c/b" /\
  required (Some (s_ "//b")) (union_txt [s]) = Some true /\ required (Some (s_ "/m:a | //b")) (union_txt [s]) = Some false.
Proof. exists (pa [nd "m" "c"; nd "" "b"]). split; [unfold simple_union; good|]. split; [vm_compute; reflexivity|]. split; vm_compute; reflexivity. Qed.

(** The parent of data given with a literal that has "/" before "[" is cut inside of the literal. sr_xpath_trim_last_node(),
    src/common.c 4664-4672. *)
Theorem C40_parent_refuted : exists l s, Forall good_step (l ++ [s]) /\ Forall node_step (l ++ [s]) /\ reads [pa (l ++ [s])] "/m:a/l[k='x/[y']" /\
  trim_last (path_txt (pa (l ++ [s]))) = TParent (s_ "/m:a/l[k='x").
Proof. exists [nd "m" "a"], (ndp "" "l" [("k", "x/[y")]%string). split; [good|]. split; [good|]. split; vm_compute; reflexivity. Qed.

Print Assumptions C40_asked_partial.
Print Assumptions C40_all.
Print Assumptions C40_defined_partial.
Print Assumptions C40_only_needed.
Print Assumptions C40_other_instances.
Print Assumptions C40_parent_partial.
