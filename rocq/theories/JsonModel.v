(** Model of the value codec of src/itertree/itree_serializer/itree_json_serialize.py:98-246
    ([convert_to_json_item], [convert_from_json_obj] and the two tables).

    [json] is what the JSON library stores: Python tuples become lists, dictionaries are
    not used inside values.  The library itself (text of a JSON value and parsing it
    back) is outside the repository: it is taken to return the stored value.
    Configuration: stdlib json (no orjson), no numpy.  User objects ([PObj]) are plain
    objects the JSON library rejects (TypeError); objects with [get_init_args] other than
    links are not modelled. *)
From Verif Require Import Base Heap.
Local Open Scope Z_scope.
Import ListNotations.
Local Open Scope string_scope.

Inductive json :=
| JNull | JBool (b : bool) | JInt (z : Z) | JFloat (tok : Z) | JStr (s : string) | JList (l : list json).

(** 100-113: type numbers and constants *)
Definition ALL_TYPE := JInt 0.
Definition BYTE_TYPE := JInt 1.
Definition DICT_TYPE := JInt 3.
Definition ITER_TYPE := JInt 4.
Definition IT_TYPE := JInt 6.
Definition IT_CONST_TYPE := JInt 8.

Definition rbind {A B} (r : res A) (k : A -> res B) : res B := match r with Ok a => k a | Err e => Err e end.
Section MapRes.
  Context {A B : Type} (f : A -> res B).
  Fixpoint map_res (l : list A) : res (list B) :=
    match l with
    | [] => Ok []
    | x :: r => rbind (f x) (fun y => rbind (map_res r) (fun ys => Ok (y :: ys)))
    end.
End MapRes.

Definition byte_ints (s : string) : list json := map (fun c => JInt (Z.of_N (Ascii.N_of_ascii c))) (list_ascii_of_string s).

(** [convert_to_json_item] (173-194) with CONVERT_MAP (125-149) and TRANSLATE_OBJ2KEY (115-118) *)
Fixpoint to_json (v : pyval) : res json :=
  let iter (l : list pyval) (name : string) := rbind (map_res to_json l) (fun js => Ok (JList [JList js; ITER_TYPE; JStr name])) in
  let dict (l : list (pyval * pyval)) (name : string) :=
    rbind ((fix go (l : list (pyval * pyval)) : res (list json) :=
              match l with
              | [] => Ok []
              | (k, x) :: r => rbind (to_json k) (fun jk => rbind (to_json x) (fun jx => rbind (go r) (fun js => Ok (JList [jk; jx] :: js))))
              end) l) (fun js => Ok (JList [JList js; DICT_TYPE; JStr name])) in
  match v with
  | PInt z => Ok (JList [JInt z; ALL_TYPE])
  | PFloat t => Ok (JList [JFloat t; ALL_TYPE])
  | PStr s => Ok (JList [JStr s; ALL_TYPE])
  | PNone => Ok (JList [JNull; ALL_TYPE])
  | PBool b => Ok (JList [JBool b; ALL_TYPE])
  | PNoValue => Ok (JList [JInt 0; IT_CONST_TYPE])
  | PNoTag => Ok (JList [JInt 1; IT_CONST_TYPE])
  | PAny => Ok (JList [JInt 2; IT_CONST_TYPE])
  | PNoKey => Ok (JList [JInt 3; IT_CONST_TYPE])
  | PBytes s => Ok (JList [JList (byte_ints s); BYTE_TYPE])
  | PTuple l => iter l "tuple"
  | PList l => iter l "list"
  | PDeque l => iter l "deque"
  | PSet l => iter l "set"
  | PDict l => dict l "dict"
  | PODict l => dict l "OrderedDict"
  | PObj _ => Err TypeError
  end.

(** A stored JSON value as Python object ([o[0]] of ALL_TYPE, or an object that is no tagged list). *)
Fixpoint raw (j : json) : pyval :=
  match j with
  | JNull => PNone | JBool b => PBool b | JInt z => PInt z | JFloat t => PFloat t | JStr s => PStr s
  | JList l => PList (map raw l)
  end.

(** Python's [dict(pairs)] / [set(items)] *)
Fixpoint put (d : list (pyval * pyval)) (k v : pyval) : list (pyval * pyval) :=
  match d with
  | [] => [(k, v)]
  | (k', v') :: r => if pyval_eqb k' k then (k', v) :: r else (k', v') :: put r k v
  end.
Fixpoint mk_dict (d : list (pyval * pyval)) (l : list (pyval * pyval)) : res (list (pyval * pyval)) :=
  match l with
  | [] => Ok d
  | (k, v) :: r => if hashable k then mk_dict (put d k v) r else Err TypeError
  end.
Fixpoint mk_set (s : list pyval) (l : list pyval) : res (list pyval) :=
  match l with
  | [] => Ok s
  | x :: r => if hashable x then mk_set (if existsb (pyval_eqb x) s then s else (s ++ [x])%list) r else Err TypeError
  end.

(** [b''.join([i.to_bytes(1,'little') for i in o[0]])]: OverflowError outside 0..255 *)
Fixpoint mk_bytes (l : list json) : res string :=
  match l with
  | [] => Ok ""
  | JInt z :: r => if ((0 <=? z) && (z <? 256))%Z
                   then rbind (mk_bytes r) (fun s => Ok (String (Ascii.ascii_of_N (Z.to_N z)) s)) else Err OverflowError
  | _ => Err AttributeError
  end.

Definition mk_iter (name : string) (l : list pyval) : res pyval :=
  if String.eqb name "tuple" then Ok (PTuple l)
  else if String.eqb name "list" then Ok (PList l)
  else if String.eqb name "deque" then Ok (PDeque l)
  else if String.eqb name "set" then rbind (mk_set [] l) (fun l => Ok (PSet l))
  else Err Unsupported.
Definition mk_map (name : string) (l : list (pyval * pyval)) : res pyval :=
  if String.eqb name "dict" then rbind (mk_dict [] l) (fun d => Ok (PDict d))
  else if String.eqb name "OrderedDict" then rbind (mk_dict [] l) (fun d => Ok (PODict d))
  else Err Unsupported.

(** [convert_from_json_obj] (234-246) with CONVERT_FROM_JSON_MAP (151-160); a value without a
    second element is returned as it is.  Types other than those [to_json] produces are not modelled. *)
Fixpoint from_json (j : json) : res pyval :=
  match j with
  | JList (a :: t :: r) =>
      match t, a with
      | JInt 0%Z, _ => Ok (raw a)
      | JInt 1%Z, JList l => rbind (mk_bytes l) (fun s => Ok (PBytes s))
      | JInt 3%Z, JList l =>
          match r with
          | JStr name :: _ =>
              rbind ((fix go (l : list json) : res (list (pyval * pyval)) :=
                        match l with
                        | [] => Ok []
                        | JList [k; x] :: r => rbind (from_json k) (fun pk => rbind (from_json x) (fun px => rbind (go r) (fun ps => Ok ((pk, px) :: ps))))
                        | _ :: _ => Err ValueError
                        end) l) (mk_map name)
          | _ => Err IndexError
          end
      | JInt 4%Z, JList l =>
          match r with
          | JStr name :: _ => rbind (map_res from_json l) (mk_iter name)
          | _ => Err IndexError
          end
      | JInt 8%Z, JInt k => match k with 0%Z => Ok PNoValue | 1%Z => Ok PNoTag | 2%Z => Ok PAny | 3%Z => Ok PNoKey | _ => Err KeyError end
      | _, _ => Err Unsupported
      end
  | JStr s => match s with String _ (String _ _) => Err KeyError | _ => Ok (PStr s) end
  | _ => Ok (raw j)
  end.
