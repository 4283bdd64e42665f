(** Model of the tree serializer: src/itertree/itree_serializer/itree_json_serialize.py
    ([convert_single_itree_to_json_obj2] 257-264, [dumps] 266-311, [create_itree_from_raw]
    347-401, [loads] 420-454) and of the generators behind it (itree_private.py:502-513,
    762-777, 779-874).

    The text is a list of tokens (brackets, commas, JSON documents, the header); the text of
    one document and white space are left to the JSON library.  SHA-256 is an arbitrary
    function of the text.  gzip and files: FileModel.v.  A link is
    represented by its source number.  No proofs in this file. *)
From Verif Require Import Base Heap Deep JsonModel.
Import ListNotations.
Local Open Scope Z_scope.
Local Open Scope list_scope.

(** * Writing *)

(** What the dump generators deliver: an item of the tree, or a new placeholder item
    ([itree_class(item._tag, k, flags=placeholder_flag)], itree_private.py:773). *)
Inductive ditem := DItem (x : loc) | DPlace (t : pyval) (k : Z).
Definition d_tag (h : heap) (d : ditem) : pyval := match d with DItem x => ntag (hnode h x) | DPlace t _ => t end.

(** position in the family = number of earlier siblings with that tag ([tag_dict]; all tags of the
    children are keys of the families, so the look up does not fail) *)
Definition count_tag (t : pyval) (l : list pyval) : Z := Z.of_nat (length (filter (pyval_eqb t) l)).

(** [_iter_locals_add_placeholders] (itree_private.py:762-777); the refreshed family index cache
    is not written here *)
Fixpoint locals_from (h : heap) (seen : list pyval) (add : bool) (l : list loc) : list ditem :=
  match l with
  | [] => []
  | x :: r =>
      let t := ntag (hnode h x) in
      if is_linked h x && add then DPlace t (count_tag t seen) :: locals_from h (t :: seen) false r
      else DItem x :: locals_from h (t :: seen) true r
  end.
Definition locals_add_placeholders (h : heap) (x : loc) : list ditem := locals_from h [] false (nitems (hnode h x)).

(** the iterator pushed for the children of an item (808-811, 856-859) *)
Definition d_kids (h : heap) (x : loc) : list ditem :=
  if is_link_root h x then locals_add_placeholders h x else map DItem (nitems (hnode h x)).
Definition keep (f : option (ditem -> bool)) (l : list ditem) : list ditem :=
  match f with None => l | Some g => filter g l end.

(** [_iter_deep_locals_add_placeholders] (828-874) and its filtered variant (779-826): a stack of
    iterators; [DEnd] is the tuple [(None,)] that marks the end of a level.  A state: stack,
    depth, per level the tags already delivered (tag_index_dict). *)
Inductive dent := DIt (l : list ditem) | DEnd.
Definition dump_state := (list dent * Z * list (list pyval))%type.
Definition step_dump (h : heap) (f : option (ditem -> bool)) (st : dump_state) : next dump_state (Z * Z * ditem) :=
  match st with
  | ([], _, _) => Done
  | (DIt [] :: r, d, seen) => Go [] (r, d, seen)
  | (DEnd :: r, d, seen) => Go [] (r, d - 1, tl seen)
  | (DIt (i :: l) :: r, d, s :: seen) =>
      let t := d_tag h i in
      let out := (d, count_tag t s, i) in
      match i with
      | DItem x => if nonnil (nitems (hnode h x))
                   then Go [out] (DIt (keep f (d_kids h x)) :: DEnd :: DIt l :: r, d + 1, [] :: (t :: s) :: seen)
                   else Go [out] (DIt l :: r, d, (t :: s) :: seen)
      | DPlace _ _ => Go [out] (DIt l :: r, d, (t :: s) :: seen)
      end
  | (DIt (_ :: _) :: _, _, []) => Fail IndexError
  end.
Definition deep_locals (h : heap) (f : option (ditem -> bool)) (n : nat) (x : loc) : option (list (Z * Z * ditem) * option exn) :=
  run_gen (step_dump h f) n
    (if nonnil (nitems (hnode h x)) then [DIt (keep f (map DItem (nitems (hnode h x))))] else [], 1, [[]]).

(** [iTLink(file_path, target_path)] through [convert_to_json_item] (179-182) *)
Definition link_json (s : nat) : json := JList [JInt (Z.of_nat s); IT_TYPE; JStr "iTLink"].

(** [_get_args_skip_subtree] (itree_private.py:502-513): tag, value and, when there is a link or
    there are flags, None (no subtree), the link, the flags.  A link root without a link
    object: AttributeError. *)
Record rowargs := RA { ra_tag : pyval; ra_val : pyval; ra_link : option nat; ra_flags : Z }.
Definition args_skip_subtree (h : heap) (d : ditem) : res rowargs :=
  match d with
  | DPlace t k => Ok (RA t (PInt k) None PLACEHOLDER)
  | DItem x =>
      let n := hnode h x in
      if is_link_root h x then
        match nlink n with None => Err AttributeError | Some k => Ok (RA (ntag n) (nval n) (Some (lk_src k)) (nflags n)) end
      else Ok (RA (ntag n) (nval n) None (nflags n))
  end.
(** 257-261: depth, family index, converted arguments *)
Definition row := list json.
Definition args_json (a : rowargs) : res (list json) :=
  rbind (to_json (ra_tag a)) (fun t => rbind (to_json (ra_val a)) (fun v =>
    let nothing := JList [JNull; ALL_TYPE] in
    let fl := JList [JInt (ra_flags a); ALL_TYPE] in
    match ra_link a with
    | Some s => Ok ([t; v; nothing; link_json s] ++ if ra_flags a =? 0 then [] else [fl])
    | None => Ok ([t; v] ++ if ra_flags a =? 0 then [] else [nothing; nothing; fl])
    end)).
Definition row_json (h : heap) (o : Z * Z * ditem) : res row :=
  let '(d, k, i) := o in
  rbind (args_skip_subtree h i) (fun a => rbind (args_json a) (fun l => Ok (JInt d :: JInt k :: l))).

(** ** The text *)
(** header (295-303): the version without its last part, the hash *)
Record header := HD { hd_major : string; hd_hash : option nat }.
Inductive tok := TOpen | TClose | TComma | TDoc (r : row) | THead (hd : header).
Fixpoint join_docs (l : list row) : list tok :=
  match l with [] => [] | [r] => [TDoc r] | r :: l => TDoc r :: TComma :: join_docs l end.

Section Hash.
  Variable sha : list tok -> nat.

  (** [dumps] (266-311); None: not enough fuel *)
  Definition dumps (h : heap) (n : nat) (f : option (ditem -> bool)) (add_header calc_hash : bool) (x : loc)
      : option (res (list tok)) :=
    match deep_locals h f n x with
    | None => None
    | Some (l, e) =>
        Some (rbind (map_res (row_json h) l) (fun rows =>
              match e with
              | Some e => Err e
              | None =>
                rbind (row_json h (0, 0, DItem x)) (fun r0 =>
                let text := [TOpen; TDoc r0; TComma] ++ join_docs rows ++ [TClose] in
                Ok (if add_header
                    then [TOpen; THead (HD "2.0" (if calc_hash then Some (sha text) else None)); TComma] ++ text ++ [TClose]
                    else text))
              end))
    end.

  (** * Reading *)

  (** [JSON.loads]: a list of documents; JSONDecodeError is a ValueError *)
  Fixpoint parse_docs (l : list tok) : res (list row * list tok) :=
    match l with
    | TDoc r :: TClose :: rest => Ok ([r], rest)
    | TDoc r :: TComma :: rest => rbind (parse_docs rest) (fun p => Ok (r :: fst p, snd p))
    | _ => Err ValueError
    end.
  Definition parse_list (l : list tok) : res (list row * list tok) :=
    match l with
    | TOpen :: TClose :: rest => Ok ([], rest)
    | TOpen :: rest => parse_docs rest
    | _ => Err ValueError
    end.

  (** ** [create_itree_from_raw] (347-401) *)
  Inductive entry := ERaw (r : row) | EDone (x : loc).
  (** a level: newest entry first (the code appends at the end) *)
  Notation level := (list entry) (only parsing).

  (** positional arguments of [itree_class]: the converted row without depth and family index *)
  Definition conv_link (j : json) : res (option nat) :=
    match j with
    | JList [JInt s; JInt 6%Z; JStr _] => Ok (Some (Z.to_nat s))
    | _ => rbind (from_json j) (fun v => match v with PNone => Ok None | _ => Err Unsupported end)
    end.
  Definition conv_flags (j : json) : res Z :=
    rbind (from_json j) (fun v => match v with PInt z => Ok z | _ => Err Unsupported end).
  Definition row_args (r : row) : res rowargs :=
    match r with
    | _ :: _ :: t :: v :: rest =>
        rbind (from_json t) (fun t => rbind (from_json v) (fun v =>
          match rest with
          | [] => Ok (RA t v None 0)
          | [_; k] => rbind (conv_link k) (fun k => Ok (RA t v k 0))
          | [_; k; f] => rbind (conv_link k) (fun k => rbind (conv_flags f) (fun f => Ok (RA t v k f)))
          | _ => Err Unsupported
          end))
    | _ => Err IndexError
    end.
  (** the constructor call 368-375 / 390-397 with the children [cs]; a link with the flag LOAD_LINKS
      would be loaded by the constructor (itree_main.py:310-311): not modelled *)
  Definition make (r : row) (cs : list loc) : M loc :=
    a <- lift (row_args r) ;;
    (if (match ra_link a with Some _ => true | None => false end) && has (ra_flags a) LOAD_LINKS then throw Unsupported else ret tt) ;;;
    new_tree (ra_tag a) (ra_val a) (map EItem cs) (ra_link a) (ra_flags a).
  (** elements of the subtree generator (371-374); simplification: the leaf items are created
      before the parent, not while the parent consumes the generator *)
  Definition build (e : entry) : M loc := match e with ERaw r => make r [] | EDone x => ret x end.

  (** state: levels with the innermost first; the variable [it] *)
  Definition lstate := (list level * option loc)%type.
  Definition close (st : lstate) : M lstate :=
    match fst st with
    | top :: (ERaw r :: es) :: rest =>
        cs <- mapM build (rev top) ;;
        x <- make r cs ;;
        ret ((EDone x :: es) :: rest, Some x)
    | _ :: (EDone _ :: _) :: _ => throw SyntaxError
    | _ => throw IndexError
    end.
  Fixpoint close_n (n : nat) (st : lstate) : M lstate :=
    match n with O => ret st | S n => st' <- close st ;; close_n n st' end.

  Definition add_row (r : row) (st : lstate) : lstate :=
    match fst st with top :: rest => ((ERaw r :: top) :: rest, snd st) | [] => ([[ERaw r]], snd st) end.
  Definition step_row (st : lstate) (r : row) : M lstate :=
    match r with
    | JInt depth :: _ =>
        let s := Z.of_nat (length (fst st)) - 1 in
        if depth =? s then ret (add_row r st)
        else if depth =? s + 1 then ret ([ERaw r] :: fst st, snd st)
        else if depth <? s then
          st' <- close_n (Z.to_nat (s - depth)) st ;; ret (add_row r st')
        else throw SyntaxError
    | [] => throw IndexError
    | _ => throw Unsupported
    end.
  Fixpoint rows_loop (l : list row) (st : lstate) : M lstate :=
    match l with
    | [] => ret st
    | r :: l => st' <- step_row st r ;; rows_loop l st'
    end.
  Definition create_from_raw (l : list row) : M loc :=
    st <- rows_loop l ([[]], None) ;;
    st' <- close_n (length (fst st) - 1) st ;;
    match snd st' with Some x => ret x | None => throw UnboundLocalError end.

  (** [loads] (420-454).  [load_links] on a tree without link roots does nothing
      (itree_main.py:3364-3369); otherwise not modelled.  A wrong version is a SyntaxError,
      a wrong hash a PermissionError; the hashed text is what follows the header up to the last
      bracket. *)
  Definition has_link_root (h : heap) (x : loc) : option bool :=
    option_map (fun l => existsb (is_link_root h) (x :: l)) (deep_list (S (hnext h)) h x).
  Definition finish (load_links : bool) (x : loc) : M loc :=
    if load_links then
      h <- gets (fun h => h) ;;
      match has_link_root h x with
      | None => throw Diverges
      | Some true => throw Unsupported
      | Some false => ret x
      end
    else ret x.
  Definition loads (text : list tok) (check_hash load_links : bool) : M loc :=
    match text with
    | TOpen :: THead hd :: TComma :: body =>
        p <- lift (parse_list body) ;;
        match p with
        | (rows, [TClose]) =>
            if negb (String.eqb (hd_major hd) "2.0") then throw SyntaxError
            else if check_hash && (match hd_hash hd with Some k => negb (Nat.eqb (sha (removelast body)) k) | None => false end)
            then throw PermissionError
            else x <- create_from_raw rows ;; finish load_links x
        | _ => throw ValueError
        end
    | _ =>
        p <- lift (parse_list text) ;;
        match p with
        | (rows, []) => x <- create_from_raw rows ;; finish load_links x
        | _ => throw ValueError
        end
    end.
End Hash.
