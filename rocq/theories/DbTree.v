(** Data trees in a database: what the Redis and MongoDB plugins store for a
    module and how they build the tree again.

    Modelled code (files in /repo):
    - src/plugins/common_db.c 36-153 (encoding of list keys), 155-243 (tokens of
      paths), 395-420 (escaping), 523-575 (adding a loaded node);
    - src/plugins/ds_redis.c 1238-1825 (storing a diff), 2649-2750 (XPath
      filter), 3001-3240 (loading);
    - src/plugins/ds_mongo.c 404-497 (XPath filter).

    Text is a list of bytes.  Not modelled: user-ordered lists (their place is
    the subject of the property about user-ordered lists; their rows have the same paths), default flags of
    containers, flags of [when], memory exhaustion, errors of the database.
    MongoDB groups the commands of a diff by their kind; here they are applied in
    the order of the diff. *)
From Coq Require Import List NArith Bool Arith.
Import ListNotations.
Local Open Scope N_scope.

Definition str := list N.

Definition cSP : N := 32.  (* space *)
Definition cDQ : N := 34.  (* double quote *)
Definition cSQ : N := 39.  (* single quote *)
Definition cST : N := 42.  (* star *)
Definition cCM : N := 44.  (* comma *)
Definition cDT : N := 46.  (* dot *)
Definition cSL : N := 47.  (* slash *)
Definition cCL : N := 58.  (* colon *)
Definition cEQ : N := 61.  (* equals sign *)
Definition cLB : N := 91.  (* opening bracket *)
Definition cBS : N := 92.  (* backslash *)
Definition cRB : N := 93.  (* closing bracket *)
Definition cBR : N := 124.  (* bar *)

Fixpoint str_eqb (a b : str) : bool :=
  match a, b with
  | [], [] => true
  | x :: a', y :: b' => (x =? y) && str_eqb a' b'
  | _, _ => false
  end.

(** ** Nodes and their paths *)

(** One step of a path: module, name, keys of a list instance (or a dot with
    the value of a leaf-list instance). *)
Record step := mkStep { s_mod : str; s_name : str; s_preds : list (str * str) }.

Definition addr := list step.

(** What a node holds besides its place (struct lyd_node of libyang). *)
Inductive kind :=
| KCont
| KList
| KTerm (v : str) (dflt : bool)
| KAny (v : str) (json : bool).

(** lyd_path (libyang): the quote of a predicate is the single one unless the
    value contains it. *)
Definition quote_of (v : str) : N := if existsb (N.eqb cSQ) v then cDQ else cSQ.

Definition pred_text (kv : str * str) : str :=
  let (k, v) := kv in
  cLB :: k ++ [cEQ; quote_of v] ++ v ++ [quote_of v; cRB].

(** lyd_path (libyang): the module is written when it differs from the one of
    the parent. *)
Definition step_text (pm : str) (s : step) : str :=
  (if str_eqb (s_mod s) pm then [] else s_mod s ++ [cCL])
  ++ s_name s ++ concat (map pred_text (s_preds s)).

Fixpoint path_from (pm : str) (a : addr) : str :=
  match a with
  | [] => []
  | s :: a' => cSL :: step_text pm s ++ path_from (s_mod s) a'
  end.

(** lyd_path(node, LYD_PATH_STD). *)
Definition path_of (a : addr) : str := path_from [] a.

(** ** Tokens of paths *)

(** srpds_path_token (common_db.c 155-198) with direction 1: text before and
    after the first '/' outside of quotes; with direction -1 it is the same
    scan of the reversed text. *)
Fixpoint ptok (sq dq : bool) (s : str) : option (str * str) :=
  match s with
  | [] => None
  | c :: r =>
      if c =? cSQ then
        let sq' := if sq then false else if negb dq then true else sq in
        match ptok sq' dq r with Some (b, t) => Some (c :: b, t) | None => None end
      else if c =? cDQ then
        let dq' := if dq then false else if negb sq then true else dq in
        match ptok sq dq' r with Some (b, t) => Some (c :: b, t) | None => None end
      else if (c =? cSL) && negb sq && negb dq then Some ([], r)
      else match ptok sq dq r with Some (b, t) => Some (c :: b, t) | None => None end
  end.

(** srpds_get_node_depth (common_db.c 200-213): the number of tokens. [fuel] is
    the length of the text, every token makes it shorter. *)
Fixpoint depth_f (fuel : nat) (s : str) : nat :=
  match fuel with
  | O => O
  | S f => match ptok false false s with
           | None => O
           | Some (_, r) => S (depth_f f r)
           end
  end.

Definition node_depth (s : str) : nat := depth_f (S (length s)) s.

(** srpds_get_parent_path (common_db.c 215-221): the text up to the last '/'
    outside of quotes.  [None]: the scan leaves the text at its beginning. *)
Definition parent_path (s : str) : option str :=
  match ptok false false (rev s) with
  | Some (_, r) => Some (rev r)
  | None => None
  end.

(** srpds_get_modif_path (common_db.c 223-243). *)
Fixpoint modif_f (fuel : nat) (s : str) : str :=
  match fuel with
  | O => s
  | S f => match ptok false false s with
           | None => s
           | Some (b, r) => b ++ cSP :: modif_f f r
           end
  end.

Definition modif_path (s : str) : str :=
  let s' := s ++ [cSP] in modif_f (S (length s')) s'.

(** ** Keys of lists *)

Definition klen (v : str) : N := N.of_nat (length v).

(** The cast to char, and from (signed) char to uint32_t. *)
Definition byte (n : N) : N := N.land n 255.
Definition sext (c : N) : N := if c <? 128 then c else 4294967296 - 256 + c.

(** srpds_concat_key_values (common_db.c 36-116): the number of keys in a byte
    (at most UINT8_MAX >> 1), then for each key the length in two times 7 bits
    (at most UINT16_MAX >> 2) and the value.  [None]: error. *)
Fixpoint enc_vals (vs : list str) : option str :=
  match vs with
  | [] => Some []
  | v :: vs' =>
      if 16383 <? klen v then None
      else match enc_vals vs' with
           | None => None
           | Some r => Some (byte (N.shiftr (klen v) 7) :: byte (N.land (klen v) 127) :: v ++ r)
           end
  end.

Definition enc_keys (vs : list str) : option str :=
  if 127 <? N.of_nat (length vs) then None
  else match enc_vals vs with
       | None => None
       | Some r => Some (byte (N.of_nat (length vs)) :: r)
       end.

(** srpds_parse_keys (common_db.c 119-152), SRPDS_DB_LIST_KEY_GET_LEN
    (common_db.h 32).  [None]: reads behind the stored text. *)
Fixpoint dec_vals (n : nat) (s : str) : option (list str) :=
  match n with
  | O => Some []
  | S n' =>
      match s with
      | h :: l :: r =>
          let len := N.to_nat (N.lor (N.land (N.shiftl (sext h) 7) 4294967295) (sext l)) in
          if (length r <? len)%nat then None
          else match dec_vals n' (skipn len r) with
               | None => None
               | Some vs => Some (firstn len r :: vs)
               end
      | _ => None
      end
  end.

Definition dec_keys (s : str) : option (list str) :=
  match s with
  | [] => None
  | n :: r => dec_vals (N.to_nat n) r
  end.

(** ** Rows *)

(** enum srpds_db_ly_types (common_db.h), without the user-ordered ones. *)
Inductive rtype := TCont | TList | TTerm | TAny.

(** The fields of a hash in Redis (a document in MongoDB). *)
Record row := mkRow {
  w_path : option str; w_name : option str; w_type : option rtype; w_mod : option str;
  w_dflt : option bool; w_value : option str; w_json : option bool; w_keys : option str;
  w_modif : option str }.

Definition row0 : row := mkRow None None None None None None None None None.

(** The database: key ("%s:data:%s" with the path) and fields. *)
Definition db := list (str * row).

(** HSET: sets the given fields, makes the hash if there is none. *)
Fixpoint hset (p : str) (f : row -> row) (d : db) : db :=
  match d with
  | [] => [(p, f row0)]
  | (q, w) :: d' => if str_eqb q p then (q, f w) :: d' else (q, w) :: hset p f d'
  end.

(** DEL. *)
Definition hdel (p : str) (d : db) : db := filter (fun e => negb (str_eqb (fst e) p)) d.

Definition set_dflt (b : bool) (w : row) : row :=
  mkRow (w_path w) (w_name w) (w_type w) (w_mod w) (Some b) (w_value w) (w_json w) (w_keys w)
        (w_modif w).

Definition set_value (v : str) (w : row) : row :=
  mkRow (w_path w) (w_name w) (w_type w) (w_mod w) (w_dflt w) (Some v) (w_json w) (w_keys w)
        (w_modif w).

(** The fields set by srpds_create_op (ds_redis.c 1417-1580). *)
Definition set_cont (p n m mo : str) (w : row) : row :=
  mkRow (Some p) (Some n) (Some TCont) (Some m) (w_dflt w) (w_value w) (w_json w) (w_keys w)
        (Some mo).

Definition set_list (p n m mo ks : str) (w : row) : row :=
  mkRow (Some p) (Some n) (Some TList) (Some m) (w_dflt w) (w_value w) (w_json w) (Some ks)
        (Some mo).

Definition set_term (p n m mo v : str) (w : row) : row :=
  mkRow (Some p) (Some n) (Some TTerm) (Some m) (Some false) (Some v) (w_json w) (w_keys w)
        (Some mo).

Definition set_any (p n m mo v : str) (js : bool) (w : row) : row :=
  mkRow (Some p) (Some n) (Some TAny) (Some m) (Some false) (Some v) (Some js) (w_keys w)
        (Some mo).

(** ** Storing a diff *)

Inductive dop := ONone | OCreate | ODelete | OReplace.

(** A node of a diff: its step, new content, operation ([None]: the one of the
    parent), the metadata yang:orig-default, children (without keys). *)
Inductive diffn := Df (s : step) (k : kind) (op : option dop) (odflt : bool) (cs : list diffn).

Definition is_dflt (k : kind) : bool := match k with KTerm _ b => b | _ => false end.

(** module_name in srpds_store_diff_recursively (ds_redis.c 1753-1758). *)
Definition mod_field (pm : option str) (m : str) : str :=
  match pm with
  | Some p => if str_eqb m p then [] else m
  | None => m
  end.

(** srpds_create_op and srpds_create_op_default_flag (ds_redis.c 1292-1590). *)
Definition create_op (pm : option str) (p : str) (s : step) (k : kind) (d : db) : option db :=
  let mo := modif_path p in
  let m := mod_field pm (s_mod s) in
  match k with
  | KCont => Some (hset p (set_cont p (s_name s) m mo) d)
  | KList =>
      match enc_keys (map snd (s_preds s)) with
      | None => None
      | Some ks => Some (hset p (set_list p (s_name s) m mo ks) d)
      end
  | KTerm v df =>
      let d' := hset p (set_term p (s_name s) m mo v) d in
      Some (if df then hset p (set_dflt true) d' else d')
  | KAny v js => Some (hset p (set_any p (s_name s) m mo v js) d)
  end.

(** srpds_update_default_flag (ds_redis.c 1274-1290), for terminal nodes only
    (1331-1334, 1359-1364). *)
Definition upd_dflt (p : str) (k : kind) (od : bool) (d : db) : db :=
  match k with
  | KTerm _ df =>
      if od then (if df then d else hset p (set_dflt false) d)
      else (if df then hset p (set_dflt true) d else d)
  | _ => d
  end.

(** srpds_replace_op (ds_redis.c 1680-1700). *)
Definition replace_op (p : str) (k : kind) (od : bool) (d : db) : db :=
  let v := match k with KTerm v _ => v | KAny v _ => v | _ => [] end in
  upd_dflt p k od (hset p (set_value v) d).

Definition node_op (op : dop) (pm : option str) (p : str) (s : step) (k : kind) (od : bool) (d : db)
  : option db :=
  match op with
  | ONone => Some (upd_dflt p k od d)
  | OCreate => create_op pm p s k d
  | ODelete => Some (hdel p d)
  | OReplace => Some (replace_op p k od d)
  end.

Definition last_mod (a : addr) : option str :=
  match rev a with [] => None | s :: _ => Some (s_mod s) end.

(** srpds_store_diff_recursively (ds_redis.c 1711-1825), one node with its
    subtree.  [None]: error. *)
Fixpoint store_node (pa : addr) (pop : option dop) (n : diffn) (d : db) : option db :=
  match n with
  | Df s k op od cs =>
      let this := match op with Some o => Some o | None => pop end in
      match this with
      | None => None
      | Some o =>
          let a := pa ++ [s] in
          match node_op o (last_mod pa) (path_of a) s k od d with
          | None => None
          | Some d' =>
              (fix go (l : list diffn) (e : db) : option db :=
                 match l with
                 | [] => Some e
                 | c :: l' => match store_node a this c e with
                              | None => None
                              | Some e' => go l' e'
                              end
                 end) cs d'
          end
      end
  end.

Fixpoint store_nodes (pa : addr) (pop : option dop) (l : list diffn) (d : db) : option db :=
  match l with
  | [] => Some d
  | n :: l' => match store_node pa pop n d with
               | None => None
               | Some d' => store_nodes pa pop l' d'
               end
  end.

(** Storing a diff of a module, and a history of such calls. *)
Definition store_diff (l : list diffn) (d : db) : option db := store_nodes [] None l d.

Fixpoint store_all (ls : list (list diffn)) (d : db) : option db :=
  match ls with
  | [] => Some d
  | l :: ls' => match store_diff l d with None => None | Some d' => store_all ls' d' end
  end.

(** ** Loading *)

(** The schema: names of the keys of a list and which terminal nodes are
    leaf-lists, by the modules and names of the steps. *)
Record schema := mkSchema {
  sc_keys : list (str * str) -> list str;
  sc_leaflist : list (str * str) -> bool }.

Definition spath (a : addr) : list (str * str) := map (fun s => (s_mod s, s_name s)) a.

(** Order of the rows: SORTBY path_modif ASC (ds_redis.c 3080-3084), sort
    path_modif (ds_mongo.c 790), bytewise. *)
Fixpoint str_leb (a b : str) : bool :=
  match a, b with
  | [], _ => true
  | _ :: _, [] => false
  | x :: a', y :: b' => if x <? y then true else if x =? y then str_leb a' b' else false
  end.

Definition key_of (w : row) : str := match w_modif w with Some m => m | None => [] end.

Fixpoint ins_row (w : row) (l : list row) : list row :=
  match l with
  | [] => [w]
  | x :: l' => if str_leb (key_of w) (key_of x) then w :: l else x :: ins_row w l'
  end.

Fixpoint sort_rows (l : list row) : list row :=
  match l with [] => [] | w :: l' => ins_row w (sort_rows l') end.

(** A loaded node: the node created and its place below its parent pointer. *)
Definition lnode := (addr * kind)%type.

Inductive lres :=
| LOk (out : list lnode)
| LErr
| LUB.   (* a read or write outside of an array or behind a text *)

Fixpoint set_nth (i : nat) (x : addr) (l : list addr) : list addr :=
  match l, i with
  | [], _ => []
  | _ :: l', O => x :: l'
  | y :: l', S i' => y :: set_nth i' x l'
  end.

(** Creating the node (common_db.c 541-572): lyd_new_inner, lyd_new_list3,
    lyd_new_term or lyd_new_any below [pa] in the module [m]. *)
Definition make_node (sc : schema) (pa : addr) (m : str) (w : row) : option (option lnode) :=
  match w_name w, w_type w with
  | Some n, Some t =>
      let sp := spath pa ++ [(m, n)] in
      match t with
      | TCont => Some (Some (pa ++ [mkStep m n []], KCont))
      | TList =>
          match w_keys w with
          | None => Some None
          | Some ks =>
              match dec_keys ks with
              | None => None
              | Some vs => Some (Some (pa ++ [mkStep m n (combine (sc_keys sc sp) vs)], KList))
              end
          end
      | TTerm =>
          match w_value w, w_dflt w with
          | Some v, Some df =>
              Some (Some (pa ++ [mkStep m n (if sc_leaflist sc sp then [([cDT], v)] else [])],
                          KTerm v df))
          | _, _ => Some None
          end
      | TAny =>
          match w_value w, w_json w with
          | Some v, Some js => Some (Some (pa ++ [mkStep m n []], KAny v js))
          | _, _ => Some None
          end
      end
  | _, _ => Some None
  end.

(** srpds_add_conv_mod_data (common_db.c 523-597) for the rows in their order;
    [pn] is the array parent_nodes, its length is pnodes_size. *)
Fixpoint add_rows (sc : schema) (ws : list row) (pn : list addr) (out : list lnode) : lres :=
  match ws with
  | [] => LOk out
  | w :: ws' =>
      match w_path w, w_mod w with
      | Some p, Some mf =>
          match node_depth p with
          | O => LUB
          | S idx =>
              match (match idx with O => Some [] | S i => nth_error pn i end) with
              | None => LUB
              | Some pa =>
                  (* module NULL: the one of the parent *)
                  match (if str_eqb mf [] then last_mod pa else Some mf) with
                  | None => LErr
                  | Some m =>
                      match make_node sc pa m w with
                      | None => LUB
                      | Some None => LErr
                      | Some (Some nd) =>
                          let pn1 := if (length pn <=? idx)%nat then pn ++ [[]] else pn in
                          if (idx <? length pn1)%nat
                          then add_rows sc ws' (set_nth idx (fst nd) pn1) (out ++ [nd])
                          else LUB
                      end
                  end
              end
          end
      | _, _ => LErr
      end
  end.

(** srpds_load_conv without a filter. *)
Definition load_rows (sc : schema) (ws : list row) : lres := add_rows sc (sort_rows ws) [] [].

Definition load_full (sc : schema) (d : db) : lres := load_rows sc (map snd d).

(** ** XPath filters *)

(** An XPath given to the plugin: its text, the node it names if libyang takes
    it for a path (lyd_find_path returns LY_ENOTFOUND), whether that node is a
    key of a list. *)
Record xq := mkXq { x_text : str; x_path : option addr; x_key : bool }.

Inductive item := IPref (p : str) | IExact (p : str).

(** srpds_escape_string (common_db.c 395-420). *)
Definition is_punct (c : N) : bool :=
  ((32 <=? c) && (c <=? 47)) || ((58 <=? c) && (c <=? 64)) || ((91 <=? c) && (c <=? 96))
  || ((123 <=? c) && (c <=? 126)).

Fixpoint escape (s : str) : str :=
  match s with
  | [] => []
  | c :: r => if is_punct c then cBS :: c :: escape r else c :: escape r
  end.

(** The parent paths of a path, nearest first ("add all parent paths also").
    [None]: the scan leaves the text. *)
Fixpoint parents_f (fuel : nat) (p : str) : option (list str) :=
  match fuel with
  | O => None
  | S f =>
      match p with
      | [] => Some []
      | _ => match parent_path p with
             | None => None
             | Some q => match parents_f f q with None => None | Some l => Some (p :: l) end
             end
      end
  end.

(** One XPath: the path to match with everything below it and its parents
    (ds_redis.c 2679-2733; ds_mongo.c 437-489). *)
Definition xq_base (x : xq) : option str :=
  let t := match x_text x with
           | c :: _ => if c =? cSL then x_text x else cSL :: x_text x
           | [] => [cSL]
           end in
  if x_key x then parent_path t else Some t.

Definition xq_items (x : xq) : option (list item) :=
  match xq_base x with
  | None => None
  | Some b =>
      match parent_path b with
      | None => None
      | Some q =>
          match parents_f (S (length q)) q with
          | None => None
          | Some ps => Some (IPref b :: map IExact ps)
          end
      end
  end.

(** Text of a filter of Redis: "%s*" and "%s" joined by " | ". *)
Definition item_text (i : item) : str :=
  match i with
  | IPref p => escape p ++ [cST]
  | IExact p => escape p
  end.

Fixpoint join_items (l : list item) : str :=
  match l with
  | [] => []
  | [i] => item_text i
  | i :: l' => item_text i ++ [cSP; cBR; cSP] ++ join_items l'
  end.

Inductive fres :=
| FAll                    (* all data are loaded *)
| FSome (l : list item)   (* only matching rows *)
| FUB.

(** srpds_process_load_paths (ds_redis.c 2649-2750).  [acc] is the filter made
    by the XPaths before; when an XPath is no path the function ends with the
    filter it has, and a missing filter means all data. *)
Fixpoint redis_filter (xs : list xq) (acc : list item) : fres :=
  match xs with
  | [] => match acc with [] => FAll | _ => FSome acc end
  | x :: xs' =>
      match x_path x with
      | None => match acc with [] => FAll | _ => FSome acc end
      | Some _ => match xq_items x with
                  | None => FUB
                  | Some l => redis_filter xs' (acc ++ l)
                  end
      end
  end.

(** srpds_process_load_paths (ds_mongo.c 404-497): the filter is used only if
    all XPaths were processed (is_valid). *)
Fixpoint mongo_filter (xs : list xq) (acc : list item) : fres :=
  match xs with
  | [] => match acc with [] => FAll | _ => FSome acc end
  | x :: xs' =>
      match x_path x with
      | None => FAll
      | Some _ => match xq_items x with
                  | None => FUB
                  | Some l => mongo_filter xs' (acc ++ l)
                  end
      end
  end.

(** The query of RediSearch for a TAG field, "@path:{...}": alternatives
    separated by '|', spaces between tokens ignored, a trailing '*' asks for a
    prefix, a backslash takes the next byte literally. *)
Definition mk_item (cur : str) (star : bool) : item := if star then IPref cur else IExact cur.

Fixpoint parse_filter (cur : str) (star : bool) (esc : bool) (s : str) : list item :=
  match s with
  | [] => [mk_item cur star]
  | c :: r =>
      if esc then parse_filter (cur ++ [c]) star false r
      else if c =? cBS then parse_filter cur star true r
      else if c =? cBR then mk_item cur star :: parse_filter [] false false r
      else if c =? cSP then parse_filter cur star false r
      else if c =? cST then parse_filter cur true false r
      else parse_filter (cur ++ [c]) star false r
  end.

Fixpoint str_prefix (p s : str) : bool :=
  match p, s with
  | [], _ => true
  | x :: p', y :: s' => (x =? y) && str_prefix p' s'
  | _, [] => false
  end.

Definition item_match (t : str) (i : item) : bool :=
  match i with
  | IPref p => str_prefix p t
  | IExact p => str_eqb p t
  end.

(** The index of Redis (ds_redis.c 2441-2454): a TAG field without SEPARATOR
    has one tag for each part between commas. *)
Fixpoint tags (cur : str) (s : str) : list str :=
  match s with
  | [] => [cur]
  | c :: r => if c =? cCM then cur :: tags [] r else tags (cur ++ [c]) r
  end.

Definition redis_match (l : list item) (p : str) : bool :=
  existsb (fun t => existsb (item_match t) l) (tags [] p).

(** MongoDB: the regular expression "^path" (every punctuation escaped) or the
    path itself. *)
Definition mongo_match (l : list item) (p : str) : bool := existsb (item_match p) l.

Inductive backend := Redis | Mongo.

Definition sel_rows (f : str -> bool) (d : db) : list row :=
  map snd (filter (fun e => f (match w_path (snd e) with Some p => p | None => [] end)) d).

(** srpds_load with XPaths (ds_redis.c 3892-3905; ds_mongo.c 3415-3432). *)
Definition load_xpaths (bk : backend) (sc : schema) (xs : list xq) (d : db) : lres :=
  match bk with
  | Redis =>
      match redis_filter xs [] with
      | FUB => LUB
      | FAll => load_full sc d
      | FSome l => load_rows sc (sel_rows (redis_match (parse_filter [] false false (join_items l))) d)
      end
  | Mongo =>
      match mongo_filter xs [] with
      | FUB => LUB
      | FAll => load_full sc d
      | FSome l => load_rows sc (sel_rows (mongo_match l) d)
      end
  end.

(** The predicate of the previous instance of a user-ordered leaf-list
    (srpds_get_values, common_db.c 762-766). *)
Definition prev_pred (v : str) : str :=
  match v with
  | [] => []
  | _ => [cLB; cDT; cEQ; cSQ] ++ v ++ [cSQ; cRB]
  end.

(** The predicate of an instance as cut from its path (srpds_get_predicate,
    common_db.c 272-300). *)
Definition inst_pred (v : str) : str := pred_text ([cDT], v).
