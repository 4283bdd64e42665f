(** Model of the filter classes: src/itertree/itree_filters.py:76-674.

    Every class becomes one function of its constructor arguments, the [invert] argument
    and the item; [invert] is handled in each one as its [__call__] does.  An item is what
    the filters read of it: flags, tag, value.  Configuration: numpy absent (the branch
    at 204-212 is not modelled).  [fnmatch.fnmatch] is an arbitrary function on strings;
    the object given to the "_in" filters is an arbitrary membership function that may
    raise.  Simplification: user objects ([PObj]) are all instances of one class that
    offers neither iteration, [values], [keys] nor indexing. *)
From Verif Require Import Base Heap.
Open Scope Z_scope.
Import ListNotations.

Record fitem := FI { fi_flags : Z; fi_tag : pyval; fi_value : pyval }.

(** [type(a) == type(b)]: the marker classes are instances of [type] (Python builtin). *)
Definition same_type (a b : pyval) : bool :=
  match a, b with
  | (PNoTag | PNoValue | PNoKey | PAny), (PNoTag | PNoValue | PNoKey | PAny) => true
  | PNone, PNone | PBool _, PBool _ | PInt _, PInt _ | PFloat _, PFloat _ | PStr _, PStr _ | PBytes _, PBytes _
  | PTuple _, PTuple _ | PList _, PList _ | PDeque _, PDeque _ | PSet _, PSet _ | PDict _, PDict _
  | PODict _, PODict _ | PObj _, PObj _ => true
  | _, _ => false
  end.

(** [isinstance(v, Number)]. *)
Definition is_number (v : pyval) : bool :=
  match v with PBool _ | PInt _ | PFloat _ => true | _ => false end.

(** [v.values()] / [v.keys()]: AttributeError for values that are no dictionaries. *)
Definition values_of (v : pyval) : res (list pyval) :=
  match v with PDict l | PODict l => Ok (map snd l) | _ => Err AttributeError end.
Definition keys_of (v : pyval) : res (list pyval) :=
  match v with PDict l | PODict l => Ok (map fst l) | _ => Err AttributeError end.

Definition chars (s : string) : list pyval := map (fun c => PStr (String c EmptyString)) (list_ascii_of_string s).
Definition byte (c : Ascii.ascii) : Z := Z.of_N (Ascii.N_of_ascii c).
Definition bytes (s : string) : list pyval := map (fun c => PInt (byte c)) (list_ascii_of_string s).

(** What [for x in v] and [list(v)] deliver. *)
Definition iter_of (v : pyval) : res (list pyval) :=
  match v with
  | PList l | PTuple l | PDeque l | PSet l => Ok l
  | PDict l | PODict l => Ok (map fst l)
  | PStr s => Ok (chars s)
  | PBytes s => Ok (bytes s)
  | _ => Err TypeError
  end.

(** [k in v]. *)
Definition contains_op (k v : pyval) : res bool :=
  match v with
  | PList l | PTuple l | PDeque l => Ok (existsb (pyval_eqb k) l)
  | PSet l => if hashable k then Ok (existsb (pyval_eqb k) l) else Err TypeError
  | PDict l | PODict l => if hashable k then Ok (existsb (pyval_eqb k) (map fst l)) else Err TypeError
  | PStr s => match k with PStr p => Ok (match String.index 0 p s with Some _ => true | None => false end) | _ => Err TypeError end
  | PBytes s =>
      match k with
      | PBytes p => Ok (match String.index 0 p s with Some _ => true | None => false end)
      | PInt z => if (0 <=? z) && (z <? 256) then Ok (existsb (pyval_eqb k) (bytes s)) else Err ValueError
      | PBool b => Ok (existsb (pyval_eqb (PInt (Z.b2z b))) (bytes s))
      | _ => Err TypeError
      end
  | _ => Err TypeError
  end.

(** [hasattr(v, 'index')] and [v[idx]]. *)
Definition has_index (v : pyval) : bool :=
  match v with PList _ | PTuple _ | PDeque _ | PStr _ | PBytes _ => true | _ => false end.
Definition seq_of (v : pyval) : list pyval :=
  match v with PList l | PTuple l | PDeque l => l | PStr s => chars s | PBytes s => bytes s | _ => [] end.
Definition list_at (l : list pyval) (z : Z) : res pyval :=
  let i := if z <? 0 then z + Z.of_nat (length l) else z in
  if i <? 0 then Err IndexError
  else match nth_error l (Z.to_nat i) with Some x => Ok x | None => Err IndexError end.
Definition index_op (v idx : pyval) : res pyval :=
  match idx with
  | PInt z => list_at (seq_of v) z
  | PBool b => list_at (seq_of v) (Z.b2z b)
  | _ => Err TypeError
  end.

(** Truth value of an object; [fz] tells which float is 0.0. *)
Definition truthy (fz : Z -> bool) (v : pyval) : bool :=
  match v with
  | PNone => false
  | PBool b => b
  | PInt z => negb (z =? 0)
  | PFloat t => negb (fz t)
  | PStr s | PBytes s => match s with EmptyString => false | _ => true end
  | PTuple l | PList l | PDeque l | PSet l => match l with [] => false | _ => true end
  | PDict l | PODict l => match l with [] => false | _ => true end
  | _ => true
  end.

(** [for x in l: if f(x): return ...]: stops at the first hit, an exception of [f] leaves the loop. *)
Fixpoint any_of (f : pyval -> res bool) (l : list pyval) : res bool :=
  match l with
  | [] => Ok false
  | x :: r => match f x with Ok true => Ok true | Ok false => any_of f r | Err e => Err e end
  end.

Definition try_list (r : res (list pyval)) (k : list pyval -> res bool) : res bool :=
  match r with Ok l => k l | Err e => Err e end.

(** [with contextlib.suppress(...): if/for ...: return not self._invert] followed by
    [return self._invert]; [sup] is the set of suppressed exceptions. *)
Definition guarded (sup : exn -> bool) (invert : bool) (r : res bool) : res bool :=
  match r with
  | Ok true => Ok (negb invert)
  | Ok false => Ok invert
  | Err e => if sup e then Ok invert else Err e
  end.
Definition sup_all (e : exn) : bool := true.
Definition sup_none (e : exn) : bool := false.
Definition sup_attr (e : exn) : bool := match e with AttributeError => true | _ => false end.
Definition sup_type_attr (e : exn) : bool := match e with AttributeError | TypeError => true | _ => false end.

Section Filters.
(** [fnmatch.fnmatch(name, pattern)] on str and on bytes; the truth test of floats. *)
Variable fn : string -> string -> bool.
Variable fz : Z -> bool.

(** [fnmatch.fnmatch] raises TypeError for anything that is no str/bytes pair (os.path.normcase). *)
Definition fnmatch (v pat : pyval) : res bool :=
  match v, pat with
  | PStr s, PStr p | PBytes s, PBytes p => Ok (fn s p)
  | _, _ => Err TypeError
  end.
(** [type(v) == type(pattern) and fnmatch.fnmatch(v, pattern)]. *)
Definition typed_match (pat v : pyval) : res bool :=
  if same_type v pat then fnmatch v pat else Ok false.
(** [isinstance(v, Number) and v in interval]. *)
Definition num_in (ival : pyval -> res bool) (v : pyval) : res bool :=
  if is_number v then ival v else Ok false.

(** itree_filters.py:76-101 *)
Definition has_item_flags (mask : Z) (invert : bool) (it : fitem) : res bool :=
  Ok (if invert then negb (negb (Z.land (fi_flags it) mask =? 0)) else negb (Z.land (fi_flags it) mask =? 0)).

(** itree_filters.py:104-135 *)
Definition is_item_tag (t : pyval) (invert : bool) (it : fitem) : res bool :=
  Ok (if invert then negb (pyval_eqb (fi_tag it) t) else pyval_eqb (fi_tag it) t).

(** itree_filters.py:138-170 *)
Definition has_item_tag_fnmatch (pat : pyval) (invert : bool) (it : fitem) : res bool :=
  match typed_match pat (fi_tag it) with
  | Ok r => Ok (if invert then negb r else r)
  | Err e => Err e
  end.

(** itree_filters.py:173-213 (without numpy) *)
Definition has_item_value (t : pyval) (invert : bool) (it : fitem) : res bool :=
  Ok (if invert then negb (pyval_eqb (fi_value it) t) else pyval_eqb (fi_value it) t).

(** itree_filters.py:216-249 *)
Definition has_item_value_dict_value (t : pyval) (invert : bool) (it : fitem) : res bool :=
  guarded sup_all invert (try_list (values_of (fi_value it)) (fun l => Ok (existsb (pyval_eqb t) l))).

(** itree_filters.py:252-285 *)
Definition has_item_value_list_value (t : pyval) (invert : bool) (it : fitem) : res bool :=
  guarded sup_all invert (try_list (iter_of (fi_value it)) (fun l => Ok (existsb (pyval_eqb t) l))).

(** itree_filters.py:288-322 *)
Definition has_item_value_fnmatch (pat : pyval) (invert : bool) (it : fitem) : res bool :=
  guarded sup_none invert (typed_match pat (fi_value it)).

(** itree_filters.py:326-365 *)
Definition has_item_value_dict_value_fnmatch (pat : pyval) (invert : bool) (it : fitem) : res bool :=
  guarded sup_attr invert (try_list (values_of (fi_value it)) (any_of (typed_match pat))).

(** itree_filters.py:368-407 *)
Definition has_item_value_list_item_fnmatch (pat : pyval) (invert : bool) (it : fitem) : res bool :=
  guarded sup_attr invert (try_list (iter_of (fi_value it)) (any_of (typed_match pat))).

(** itree_filters.py:410-442 *)
Definition is_item_value_in (ival : pyval -> res bool) (invert : bool) (it : fitem) : res bool :=
  guarded sup_none invert (num_in ival (fi_value it)).

(** itree_filters.py:445-479 *)
Definition has_item_value_dict_value_in (ival : pyval -> res bool) (invert : bool) (it : fitem) : res bool :=
  guarded sup_attr invert (try_list (values_of (fi_value it)) (any_of (num_in ival))).

(** itree_filters.py:482-518 *)
Definition has_item_value_list_item_in (ival : pyval -> res bool) (invert : bool) (it : fitem) : res bool :=
  guarded sup_type_attr invert (try_list (iter_of (fi_value it)) (any_of (num_in ival))).

(** itree_filters.py:521-554: both branches return inside the [with] block. *)
Definition has_item_value_dict_key (k : pyval) (invert : bool) (it : fitem) : res bool :=
  match contains_op k (fi_value it) with
  | Ok b => Ok (if invert then negb b else b)
  | Err _ => Ok invert
  end.

(** itree_filters.py:557-591 *)
Definition has_item_value_list_idx (idx : pyval) (invert : bool) (it : fitem) : res bool :=
  guarded sup_all invert
    (if has_index (fi_value it)
     then match index_op (fi_value it) idx with Ok x => Ok (truthy fz x) | Err e => Err e end
     else Ok false).

(** itree_filters.py:594-635 *)
Definition has_item_value_dict_key_fnmatch (pat : pyval) (invert : bool) (it : fitem) : res bool :=
  guarded sup_attr invert (try_list (keys_of (fi_value it)) (any_of (typed_match pat))).

(** itree_filters.py:638-674 *)
Definition has_item_value_dict_key_in (ival : pyval -> res bool) (invert : bool) (it : fitem) : res bool :=
  guarded sup_all invert (try_list (keys_of (fi_value it)) (any_of (num_in ival))).

(** The constructors with their arguments, and the decision of the filter object. *)
Inductive filter :=
| FFlags (mask : Z) | FTag (t : pyval) | FTagMatch (p : pyval) | FValue (t : pyval)
| FDictValue (t : pyval) | FListValue (t : pyval) | FValueMatch (p : pyval) | FDictValueMatch (p : pyval)
| FListItemMatch (p : pyval) | FValueIn (i : pyval -> res bool) | FDictValueIn (i : pyval -> res bool)
| FListItemIn (i : pyval -> res bool) | FDictKey (k : pyval) | FListIdx (i : pyval) | FDictKeyMatch (p : pyval)
| FDictKeyIn (i : pyval -> res bool).

Definition call (f : filter) (invert : bool) (it : fitem) : res bool :=
  match f with
  | FFlags m => has_item_flags m invert it
  | FTag t => is_item_tag t invert it
  | FTagMatch p => has_item_tag_fnmatch p invert it
  | FValue t => has_item_value t invert it
  | FDictValue t => has_item_value_dict_value t invert it
  | FListValue t => has_item_value_list_value t invert it
  | FValueMatch p => has_item_value_fnmatch p invert it
  | FDictValueMatch p => has_item_value_dict_value_fnmatch p invert it
  | FListItemMatch p => has_item_value_list_item_fnmatch p invert it
  | FValueIn i => is_item_value_in i invert it
  | FDictValueIn i => has_item_value_dict_value_in i invert it
  | FListItemIn i => has_item_value_list_item_in i invert it
  | FDictKey k => has_item_value_dict_key k invert it
  | FListIdx i => has_item_value_list_idx i invert it
  | FDictKeyMatch p => has_item_value_dict_key_fnmatch p invert it
  | FDictKeyIn i => has_item_value_dict_key_in i invert it
  end.

(** itree_filters.py:63-71, [iter_items_over_filter_method]: stops with the exception of a filter. *)
Fixpoint iter_items_over_filter_method (f : fitem -> res bool) (l : list fitem) : list (res bool) :=
  match l with
  | [] => []
  | x :: r => match f x with Ok b => Ok b :: iter_items_over_filter_method f r | Err e => [Err e] end
  end.
End Filters.
