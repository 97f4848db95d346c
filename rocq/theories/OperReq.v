(** Which subscribers are asked for operational data when some data are read by an XPath, and the parent of
    the data they provide: sr_xpath_oper_data_required(), src/modinfo.c 867-1065, on the text atoms of
    XPaths, sr_xpath_get_text_atoms(), src/common.c 4946-5247, and sr_xpath_trim_last_node(),
    src/common.c 4650-4688.

    Strings are lists of characters, a pointer into a string is what remains of it. Reading after the end
    of a string and failed asserts are a result of their own ([PUndef], [None]). *)
From Coq Require Import String Ascii List Bool Arith.
Import ListNotations.

Definition str := list ascii.
Definition s_ (s : string) : str := list_ascii_of_string s.
Definition ch (c d : ascii) : bool := Ascii.eqb c d.
Fixpoint str_eqb (a b : str) : bool :=
  match a, b with [], [] => true | c :: a', d :: b' => ch c d && str_eqb a' b' | _, _ => false end.
Definition range (lo hi : nat) (c : ascii) : bool := Nat.leb lo (nat_of_ascii c) && Nat.leb (nat_of_ascii c) hi.
Definition is_alpha (c : ascii) : bool := range 65 90 c || range 97 122 c.
Definition is_digit (c : ascii) : bool := range 48 57 c.
Definition is_space (c : ascii) : bool := ch c " " || range 9 13 c.
(** SR_IS_YANG_ID_CHAR, src/common.c 64. *)
Definition is_id (c : ascii) : bool := is_alpha c || is_digit c || ch c "_" || ch c "-" || ch c ".".
Definition is_quote (c : ascii) : bool := ch c "'" || ch c """".
Fixpoint span (p : ascii -> bool) (s : str) : str * str :=
  match s with c :: t => if p c then let '(a, b) := span p t in (c :: a, b) else ([], s) | [] => ([], []) end.
Definition skip_ws (s : str) : str := snd (span is_space s).
Definition hd_is (c : ascii) (s : str) : bool := match s with d :: _ => ch d c | [] => false end.
Fixpoint prefix (p s : str) : bool := match p, s with [], _ => true | c :: p', d :: s' => ch c d && prefix p' s' | _, [] => false end.

(** *** sr_xpath_next_identifier(), src/common.c 4763-4782: the identifier and the rest *)
Definition next_identifier (s : str) : str * str :=
  if prefix (s_ "..") s || prefix (s_ "/.") s then (firstn 2 s, skipn 2 s)
  else match s with
       | c :: t =>
           if ch c "*" || ch c "." then ([c], t)
           else if negb (is_alpha c) && negb (ch c "_") then ([], s)
           else let '(a, b) := span is_id t in (c :: a, b)
       | [] => ([], [])
       end.

(** *** sr_xpath_next_qname(), src/common.c 4784-4826: module (may be empty), name and the rest *)
Definition next_qname (s : str) : str * bool * str * str :=
  let '(i, r) := next_identifier s in
  match r with
  | c :: t => if ch c ":" then let '(n, r') := next_identifier t in (i, true, n, r') else ([], false, i, r)
  | [] => ([], false, i, r)
  end.

(** *** sr_xpath_text_atom_add(), src/common.c 4946-4973 *)
Record atom := mkatom { a_txt : str; a_sel : bool }.
Definition add (t : str) (sel : bool) (l : list atom) : list atom :=
  if existsb (fun a => str_eqb (a_txt a) t) l then l else l ++ [mkatom t sel].

(** *** sr_xpath_text_atoms_expr(), src/common.c 4978-5194 *)
(** 4978: the operators in the order they are tried. *)
Definition ops : list str := map s_ ["or "%string; "and "%string; "="%string; "!="%string; "<"%string; ">"%string; "<="%string; ">="%string; "+"%string; "-"%string; "*"%string; "div "%string; "mod "%string; "|"%string].
Definition find_op (s : str) : option str := find (fun o => prefix o s) ops.
(** [end_chars]: none, "]", ",)" *)
Inductive ends := ENone | EBr | EPar.
Definition ends_at (e : ends) (s : str) : bool :=
  match e, s with EBr, c :: _ => ch c "]" | EPar, c :: _ => ch c "," || ch c ")" | _, _ => false end.
Definition no_ends (e : ends) : bool := match e with ENone => true | _ => false end.
(** The atoms and what follows; [PFail]: unknown construct; [PFuel]: the model ran out of steps. *)
Inductive pr := PR (l : list atom) (next : str) | PFail (l : list atom) | PUndef | PFuel.

(** The literal from its quote on: with the quotes, and the rest. *)
Definition literal (s : str) : option (str * str) :=
  match s with
  | q :: t => match span (fun c => negb (ch c q)) t with (v, _ :: r) => Some (q :: v ++ [q], r) | (_, []) => None end
  | [] => None
  end.
Definition at_quote (s : str) : bool := match s with c :: _ => is_quote c | [] => false end.
Definition at_digit (s : str) : bool := match s with c :: _ => is_digit c | [] => false end.

(** [expr]: the function, 4996-5194; if nothing was parsed, what follows is the whole expression (5192).
    [seg]: from the label parse_name on (5043), [cur]: cur_atom, [last]: last_is_node.
    [args]: the loop over arguments of a function, 5071-5082, after "(" or ",".
    [preds]: the loop over predicates, 5086-5096, after "[".
    [fin]: the end of the expression or an operator, 5109-5188. *)
Definition is_nil {A} (l : list A) : bool := match l with [] => true | _ => false end.
Fixpoint expr (f : nat) (x prev : str) (e : ends) (l : list atom) {struct f} : pr :=
  match f with
  | 0 => PFuel
  | S f' =>
      let next := skip_ws x in
      if ends_at e next then PR l next (* 5012-5015 *)
      else if at_quote next then match literal next with Some (_, r) => PR l r | None => PUndef end (* 5016-5021 *)
      else if at_digit next then PR l (snd (span is_digit next)) (* 5022-5028 *)
      else
        let '(cur, next1) := match next with c :: t => if ch c "/" then ([], t) else (prev, next) | [] => (prev, next) end in (* 5029-5041 *)
        match seg f' next1 cur prev e l false with
        | PFail l' => PR l' x
        | r => r
        end
  end
with seg (f : nat) (next cur prev : str) (e : ends) (l : list atom) (last : bool) {struct f} : pr :=
  match f with
  | 0 => PFuel
  | S f' =>
      let '(m, hasm, n, next2) := next_qname next in
      if Nat.eqb (length next2) (length next) then PFail l (* 5048-5051 *)
      else
        let node := negb (hd_is "(" next2) in
        let cur' := if node then cur ++ s_ "/" ++ m ++ (if hasm then s_ ":" else []) ++ n else cur in (* 5055-5065 *)
        let last' := node || last in
        match next2 with
        | c :: t =>
            if ch c "/" then seg f' t cur' prev e l last' (* 5067-5070 *)
            else if ch c "(" then
              match args f' t cur' l with PR l' n' => fin f' n' cur' prev e l' false false | r => r end
            else if ch c "[" then
              match preds f' t cur' l with
              | PR l' n' =>
                  if hd_is "/" n' then seg f' (tl n') cur' prev e l' last' (* 5098-5102 *)
                  else fin f' n' cur' prev e l' false (Nat.ltb (length l) (length l')) (* 5104-5109 *)
              | r => r
              end
            else fin f' next2 cur' prev e l last' false
        | [] => fin f' next2 cur' prev e l last' false
        end
  end
with args (f : nat) (s cur : str) (l : list atom) {struct f} : pr :=
  match f with
  | 0 => PFuel
  | S f' =>
      match expr f' s cur EPar l with
      | PR l' n =>
          (* strchr() finds also the terminating zero, 5077 *)
          if Nat.eqb (length n) (length s) && negb (ends_at EPar n || is_nil n) then PFail l'
          else match n with
               | c :: t => if ch c "," then args f' t cur l' else PR l' t
               | [] => PUndef
               end
      | r => r
      end
  end
with preds (f : nat) (s cur : str) (l : list atom) {struct f} : pr :=
  match f with
  | 0 => PFuel
  | S f' =>
      match expr f' s cur EBr l with
      | PR l' n =>
          if Nat.eqb (length n) (length s) && negb (hd_is "]" n) then PFail l'
          else match n with
               | _ :: t => if hd_is "[" t then preds f' (tl t) cur l' else PR l' t
               | [] => PUndef
               end
      | r => r
      end
  end
with fin (f : nat) (s cur prev : str) (e : ends) (l : list atom) (last stored : bool) {struct f} : pr :=
  match f with
  | 0 => PFuel
  | S f' =>
      let next := skip_ws s in
      let new := negb stored && Nat.ltb (length prev) (length cur) in
      if (no_ends e && is_nil next) || ends_at e next
      then PR (if new then add cur (no_ends e) l else l) next (* 5116-5123 *)
      else
        match find_op next with
        | None => PFail l
        | Some o =>
            let next2 := skipn (length o) next in
            let r :=
              if last && match e with EBr => true | _ => false end && str_eqb o (s_ "=")
              then (* 5134-5163 *)
                let n3 := skip_ws next2 in
                if at_quote n3
                then match literal n3 with
                     | None => None
                     | Some (v, r) =>
                         if Nat.ltb (length prev) (length cur)
                         then let r1 := skip_ws r in
                              Some (add (prev ++ s_ "[" ++ skipn (S (length prev)) cur ++ s_ "=" ++ v ++ s_ "]") false l,
                                    match find_op r1 with Some o' => skipn (length o') r1 | None => r1 end)
                         else None
                     end
                else Some (l, n3)
              else Some (if new then add cur false l else l, next2) (* 5164-5169 *)
            in
            match r with
            | None => PUndef
            | Some (l', n) =>
                if no_ends e && hd_is "|" next then PR l' next (* 5171-5175 *)
                else expr f' n prev e l'
            end
        end
  end.

(** *** sr_xpath_get_text_atoms(), src/common.c 5196-5247: the atoms of every part of the union; [GNull]:
    unknown, no atoms. An unknown part ends it, the parts before it are kept (5215-5222). *)
Inductive ga := GNull | GAtoms (u : list (list atom)) | GUndef | GFuel.
Fixpoint unions (f : nat) (x : str) (u : list (list atom)) : ga :=
  match f with
  | 0 => GFuel
  | S f' =>
      match expr (8 * S (length x)) x (s_ "/") ENone [] with
      | PR l n =>
          if Nat.eqb (length n) (length x) then match u with [] => GNull | _ => GAtoms u end
          else if hd_is "|" n then unions f' (tl n) (u ++ [l])
          else GAtoms (u ++ [l])
      | PFail _ => GUndef
      | PUndef => GUndef
      | PFuel => GFuel
      end
  end.
Definition text_atoms (x : str) : ga := unions (S (length x)) x [].

(** *** sr_xpath_oper_data_text_atom_pred_match(), src/modinfo.c 876-918; the strings follow "[" *)
Inductive pm := PDiff | PSame | PClash | PEnd.
Definition differ (m1 m2 : str) : bool := negb (is_nil m1) && negb (is_nil m2) && negb (str_eqb m1 m2).
Fixpoint pred_match (f : nat) (r s : str) : pm :=
  match f with
  | 0 => PEnd
  | S f' =>
      match r, s with
      | _ :: r0, _ :: s0 => (* the first character is skipped, 887-888 *)
          let '(m1, _, n1, r1) := next_qname r0 in
          let '(m2, _, n2, s1) := next_qname s0 in
          if differ m1 m2 then PDiff
          else if negb (str_eqb n1 n2) then PDiff
          else if hd_is "=" r1 || hd_is "=" s1 then
            if hd_is "=" r1 && hd_is "=" s1
            then match literal (tl r1), literal (tl s1) with
                 | Some (v1, _), Some (v2, _) => if str_eqb (removelast (tl v1)) (removelast (tl v2)) then PSame else PClash
                 | _, _ => PEnd
                 end
            else PDiff
          else pred_match f' r1 s1
      | _, _ => PEnd
      end
  end.

(** *** sr_xpath_oper_data_text_atoms_required(), src/modinfo.c 931-985; [None]: read after the end *)
Definition wild (n : str) : bool := str_eqb n (s_ "*") || str_eqb n (s_ "/.").
Inductive ar := ANo | AYes | AClash.
Fixpoint atoms_req (f : nat) (r s : str) : option ar :=
  match f with
  | 0 => None
  | S f' =>
      match r, s with
      | _ :: r0, _ :: s0 =>
          let '(m1, _, n1, r1) := next_qname r0 in
          let '(m2, _, n2, s1) := next_qname s0 in
          if differ m1 m2 then Some ANo
          else if negb (wild n1) && negb (wild n2) && negb (str_eqb n1 n2) then Some ANo
          else if hd_is "[" r1 && hd_is "[" s1 then
            match pred_match (length r1) (tl r1) (tl s1) with PClash => Some AClash | PEnd => None | _ => Some AYes end
          else if hd_is "[" r1 || hd_is "[" s1 then Some AYes
          else if is_nil r1 || is_nil s1 then Some AYes
          else atoms_req f' r1 s1
      | _, _ => None
      end
  end.

(** *** sr_xpath_oper_data_required(), src/modinfo.c 998-1065 *)
(** All the pairs of atoms in order (1031-1055): [Some (stop, required)]. *)
Fixpoint sub_loop (ra : atom) (sl : list atom) (req : bool) : option (bool * bool) :=
  match sl with
  | [] => Some (false, req)
  | sa :: t =>
      match atoms_req (S (length (a_txt ra))) (a_txt ra) (a_txt sa) with
      | None => None
      | Some ANo => if a_sel ra && a_sel sa then Some (true, false) else sub_loop ra t req
      | Some AYes => sub_loop ra t true
      | Some AClash => Some (true, false)
      end
  end.
Fixpoint req_loop (rl sl : list atom) (req : bool) : option bool :=
  match rl with
  | [] => Some req
  | ra :: t =>
      match sub_loop ra sl req with
      | None => None
      | Some (true, q) => Some q
      | Some (false, q) => req_loop t sl q
      end
  end.
Fixpoint sub_unions (rl : list atom) (su : list (list atom)) : option bool :=
  match su with
  | [] => Some false
  | sl :: t => match req_loop rl sl false with Some false => sub_unions rl t | r => r end
  end.
Fixpoint req_unions (ru su : list (list atom)) : option bool :=
  match ru with
  | [] => Some false
  | rl :: t => match sub_unions rl su with Some false => req_unions t su | r => r end
  end.
(** Is the subscriber for [sub] asked when [req] is read? [None]: undefined. *)
Definition required (req : option str) (sub : str) : option bool :=
  match req with
  | None => Some true
  | Some r =>
      match text_atoms r with
      | GNull => Some true
      | GAtoms ru =>
          match text_atoms sub with
          | GNull => Some true
          | GAtoms su => req_unions ru su
          | _ => None
          end
      | _ => None
      end
  end.

(** *** sr_xpath_trim_last_node(), src/common.c 4650-4688: the parent, nothing for a top-level node; from
    the end. [Undef]: read before the start. *)
Inductive tres := TNone | TParent (s : str) | TUndef.
Fixpoint trim (rev : str) (skip : bool) : tres :=
  match rev with
  | [] => TUndef
  | c :: t =>
      if negb skip && ch c "/" then
        match t with
        | [] => TNone
        | d :: t' => TParent (List.rev (if ch d "/" then t' else t))
        end
      else if skip && ch c "[" then trim t false
      else trim t (skip || ch c "]")
  end.
Definition trim_last (x : str) : tres := trim (List.rev x) false.

