(** Model of src/itertree/itree_serializer/itree_json_converter.py (lines 84-191), which reads files
    written by version 1.1.1.

    Configuration: stdlib json, no numpy.  [raw] is what JSON.loads delivers (the names of a dictionary
    are distinct).  Trees inside values or tags, numpy arrays and subtree members that are no trees are
    not modelled (Unsupported). *)
From Coq Require Import Ascii.
From Verif Require Import Base Heap JsonModel MathStr.
Import ListNotations.
Local Open Scope Z_scope.
Local Open Scope string_scope.
Local Open Scope list_scope.

Inductive raw := WNull | WBool (b : bool) | WInt (z : Z) | WFloat (tok : Z) | WStr (s : string) | WList (l : list raw) | WDict (d : list (string * raw)).
(** [raw_o.get(key)]; None and JSON null are the same here *)
Fixpoint wget (d : list (string * raw)) (k : string) : option raw :=
  match d with
  | [] => None
  | (k', v) :: r => if String.eqb k' k then match v with WNull => None | _ => Some v end else wget r k
  end.
(** a raw object as Python object (191) *)
Fixpoint raw_val (r : raw) : pyval :=
  match r with
  | WNull => PNone | WBool b => PBool b | WInt z => PInt z | WFloat t => PFloat t | WStr s => PStr s
  | WList l => PList (map raw_val l)
  | WDict d => PDict ((fix go (d : list (string * raw)) := match d with [] => [] | (k, v) :: r => (PStr k, raw_val v) :: go r end) d)
  end.

(** the created trees: tag, value, flags, link (file path, target path), children *)
Inductive otree := OT (tag val : pyval) (flags : Z) (link : option (pyval * pyval)) (kids : list otree).
Fixpoint add_flags (fl : Z) (t : otree) : otree :=
  match t with OT tg v f lk ks => OT tg v (Z.lor f fl) lk (map (add_flags fl) ks) end.
(** iTree(tag, value, subtree, link, flags): the constructor (itree_main.py:110-311, [new_tree] in
    Heap), here for a subtree of new trees; READ_ONLY_TREE is handed to all items below *)
Definition mk_tree (tg v : pyval) (ks : list otree) (lk : option (pyval * pyval)) (fl : Z) : res otree :=
  if hashable tg then
    let deep := Z.land fl DEEP_FLAG_MASK in
    Ok (OT tg v (Z.lor fl (match lk with Some _ => LINK_ROOT | None => 0 end)) lk (if (deep =? 0)%Z then ks else map (add_flags deep) ks))
  else Err TypeError.

Inductive obj := OVal (v : pyval) | OTree (t : otree).
Definition o_val (o : obj) : res pyval := match o with OVal v => Ok v | OTree _ => Err Unsupported end.
Definition o_tree (o : obj) : res otree := match o with OTree t => Ok t | OVal _ => Err Unsupported end.

(** 152: [{decode(key): decode(v) for key, v in raw_o}] runs over the names: each one is taken apart
    into two characters *)
Fixpoint names_dict (d : list (string * raw)) : res (list (pyval * pyval)) :=
  match d with
  | [] => Ok []
  | (String a (String b EmptyString), _) :: r => rbind (names_dict r) (fun l => Ok ((PStr (String a EmptyString), PStr (String b EmptyString)) :: l))
  | _ => Err ValueError
  end.
Definition is_item (ty : string) : bool := existsb (String.eqb ty) ["iT"; "iTRO"; "iTl"; "iTPH"; "iTI"].
Definition starts_iter (ty : string) : option string :=
  if prefixb (lit "ITER:") (lit ty) then Some (unlit (skipn 5 (lit ty))) else None.

(** look a name up and go on with what is found *)
Section Lookup.
  Context {A : Type} (k : string) (missing : A) (f : raw -> A).
  Fixpoint find_with (d : list (string * raw)) : A :=
    match d with [] => missing | (k', v) :: r => if String.eqb k' k then f v else find_with r end.
End Lookup.
(** [(decode(i[0]), decode(i[1])) for i in ...] *)
Section Pairs.
  Context (dec : raw -> res obj).
  Fixpoint dec_pairs (l : list raw) : res (list (pyval * pyval)) :=
    match l with
    | [] => Ok []
    | WList (a :: b :: _) :: l' =>
        rbind (dec a) (fun x => rbind (o_val x) (fun x => rbind (dec b) (fun y => rbind (o_val y) (fun y =>
          rbind (dec_pairs l') (fun ys => Ok ((x, y) :: ys))))))
    | _ :: _ => Err Unsupported
    end.
End Pairs.

(** create_itree_from_raw (146-191).  [decode(raw_o.get(k))] gives None for a missing name (154, 160-162);
    iterating over a missing list raises TypeError (167, 172, 175, 183); [raw_o[k]] raises KeyError
    (179, 181). *)
Fixpoint decode (r : raw) : res obj :=
  match r with
  | WDict d =>
      let at_key (k : string) : res obj := find_with k (Ok (OVal PNone)) (fun v => decode v) d in
      let list_at (k : string) : res (list obj) :=
        find_with k (Err TypeError)
          (fun v => match v with WList l => map_res decode l | WNull | WBool _ | WInt _ | WFloat _ => Err TypeError | _ => Err Unsupported end) d in
      let pairs_at (k : string) : res (list (pyval * pyval)) :=
        find_with k (Err KeyError)
          (fun v => match v with WList l => dec_pairs decode l | WNull | WBool _ | WInt _ | WFloat _ => Err TypeError | _ => Err Unsupported end) d in
      (* link[0], decode(link[1]) (168) *)
      let link_at : res (option (pyval * pyval)) :=
        find_with "LK" (Ok None)
          (fun v => match v with
                    | WNull => Ok None
                    | WList (a :: b :: _) => rbind (decode b) (fun x => rbind (o_val x) (fun x => Ok (Some (raw_val a, x))))
                    | WList _ => Err IndexError
                    | WDict _ | WStr _ => Err Unsupported
                    | _ => Err TypeError
                    end) d in
      match wget d "TP" with
      | None => rbind (names_dict d) (fun l => rbind (mk_dict [] l) (fun m => Ok (OVal (PDict m))))
      | Some (WStr ty) =>
          if is_item ty then
            rbind (at_key "TG") (fun tg => rbind (o_val tg) (fun tg =>
              if String.eqb ty "iTPH" then rbind (mk_tree tg PNoValue [] None PLACEHOLDER) (fun t => Ok (OTree t))
              else if String.eqb ty "iTI" then Ok (OVal (PTuple [tg; match wget d "IDX" with Some i => raw_val i | None => PNone end]))
              else
                rbind (at_key "DT") (fun data => rbind (o_val data) (fun data =>
                rbind (list_at "iT") (fun ks => rbind (map_res o_tree ks) (fun ks =>
                rbind link_at (fun lk =>
                rbind (match lk with
                       | Some l => mk_tree tg data ks (Some l) 0
                       | None => if String.eqb ty "iT" then mk_tree tg data ks None 0
                                 else mk_tree tg data ks None (Z.lor READ_ONLY_TREE READ_ONLY_VALUE)
                       end) (fun t => Ok (OTree t)))))))))
          else if String.eqb ty "OD" then rbind (pairs_at "DC") (fun l => rbind (mk_dict [] l) (fun m => Ok (OVal (PODict m))))
          else if String.eqb ty "D" || String.eqb ty "d" || String.eqb ty "DR" then rbind (pairs_at "DC") (fun l => rbind (mk_dict [] l) (fun m => Ok (OVal (PDict m))))
          else match starts_iter ty with
               | Some name => rbind (list_at "DC") (fun l => rbind (map_res o_val l) (fun l => rbind (mk_iter name l) (fun v => Ok (OVal v))))
               | None => if String.eqb ty "npa" then Err Unsupported else Ok (OVal (raw_val r))
               end
      | Some (WList _) | Some (WDict _) => Err TypeError
      | Some _ => Err AttributeError
      end
  | _ => Ok (OVal (raw_val r))
  end.

(** ** convert (108-144) *)
Definition MARK : text := lit "}***DT***".
(** str.split(sep): the number of rounds is bounded by the length *)
Fixpoint split_fuel (fuel : nat) (sep : text) (cur s : text) : list text :=
  match fuel with
  | O => [rev cur ++ s]
  | S f =>
      if prefixb sep s then rev cur :: split_fuel f sep [] (skipn (length sep) s)
      else match s with [] => [rev cur] | c :: r => split_fuel f sep (c :: cur) r end
  end.
Definition split (sep s : text) : list text := split_fuel (S (length s)) sep [] s.

Section File.
  (** gzip.decompress; None: OSError, the file is not packed *)
  Variable gunzip : text -> option text.
  (** JSON.loads of the header with its VERSION and HASH, JSON.loads of the data, SHA-1 *)
  Variable header : text -> res (string * option string).
  Variable json : text -> res raw.
  Variable sha : text -> string.
  Definition convert (check_hash : bool) (file : text) : res obj :=
    let src := match gunzip file with Some s => s | None => file end in
    match split MARK src with
    | [h; data] =>
        rbind (header (h ++ lit "}")) (fun '(version, hash) =>
          if negb (String.eqb version "1.1.1") then Err PermissionError
          else if (check_hash && match hash with Some x => negb (String.eqb (sha data) x) | None => false end)%bool then Err PermissionError
          else rbind (json data) decode)
    | _ => Err ValueError
    end.
End File.
