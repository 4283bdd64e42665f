(** iTData, continued (src/itertree/itree_data.py 1105-1139, 1297-1338, 1370-1474) and
    iTDataReadOnly (1476-1510).  Keys are strings or NoKey as in DataModel.v. *)
From Verif Require Import Base MathSet DataModel.
Import ListNotations.
Local Open Scope string_scope.
Local Open Scope list_scope.

(** dict(seq): what a sequence element offers as key and value.  Keys that are neither str nor
    NoKey are not modelled; a list is not hashable. *)
Definition pair_of (v : dval) : res (dkey * entry) :=
  let mk (k x : dval) := match k with DStr s => Ok (KStr s, EPlain x) | DNoValue => Err Unsupported | DSeq _ => Err TypeError | _ => Err Unsupported end in
  match v with
  | DStr (String a (String b "")) => Ok (KStr (String a ""), EPlain (DStr (String b "")))
  | DStr _ => Err ValueError
  | DSeq [k; x] => mk k x
  | DSeq _ => Err ValueError
  | _ => Err TypeError
  end.
Fixpoint dict_of (l : list dval) (d : data) : res data :=
  match l with
  | [] => Ok d
  | v :: l => match pair_of v with
              | Ok (k, e) => dict_of l (raw_set d k e)
              | Err Unsupported => match dict_of l d with Ok _ => Err Unsupported | Err e => Err e end     (* a later element may still raise *)
              | Err e => Err e
              end
  end.
(** the elements of a str are str objects of length one *)
Definition dict_seq (seq : dval) : res data :=
  match seq with
  | DSeq l => dict_of l []
  | DStr "" => Ok []
  | DStr _ => Err ValueError
  | _ => Err TypeError
  end.
(** iTData(seq, **kwargs) (1115-1139) for a value that is no dict: without kwargs every error of
    dict(seq) is caught, with kwargs only TypeError *)
Definition put_all (d kw : data) : data := fold_left (fun d ke => raw_set d (fst ke) (snd ke)) kw d.
Definition data_init (seq : dval) (kw : data) : res data :=
  match dict_seq seq, kw with
  | Ok d, _ => Ok (put_all d kw)
  | Err Unsupported, _ => Err Unsupported
  | Err _, [] => Ok [(KNo, EPlain seq)]
  | Err TypeError, _ => Ok (put_all [(KNo, EPlain seq)] kw)
  | Err e, _ => Err e
  end.

(** clear(values_only) (1305-1310): dict.clear, then the emptied models are put back *)
Definition data_clear (d : data) (values_only : bool) : data :=
  if values_only then flat_map (fun ke => match snd ke with EModel val _ => [(fst ke, EModel val DNoValue)] | EPlain _ => [] end) d else [].
(** pop(key, default) (1312-1338) *)
Definition data_pop_default (d : data) (k : dkey) (default : entry) : data * res entry :=
  match raw_get d k with None => (d, Ok default) | Some e => (raw_del d k, Ok e) end.
(** dict.setdefault and dict.popitem are inherited *)
Definition data_setdefault (d : data) (k : dkey) (default : entry) : data * res entry :=
  match raw_get d k with Some e => (d, Ok e) | None => (d ++ [(k, default)], Ok default) end.
Definition data_popitem (d : data) : data * res (dkey * entry) :=
  match rev d with [] => (d, Err KeyError) | ke :: r => (rev r, Ok ke) end.
(** model_values, model_items (1403-1427) *)
Definition entry_val (e : entry) : dval := match e with EPlain v => v | EModel _ st => st end.
Definition data_model_items (d : data) : list (dkey * dval) := map (fun ke => (fst ke, entry_val (snd ke))) d.
Definition data_model_values (d : data) : list dval := map (fun ke => entry_val (snd ke)) d.
(** is_empty, is_no_key_only, is_key_empty (1429-1461); a model equals NoValue when its value
    does (973-976) *)
Definition data_is_empty (d : data) : bool := match d with [] => true | _ => false end.
Definition data_is_no_key_only (d : data) : bool := match d with [(KNo, _)] => true | _ => false end.
Definition data_is_key_empty (d : data) (k : dkey) : bool :=
  match raw_get d k with None => true | Some e => match entry_val e with DNoValue => true | _ => false end end.
(** __copy__ (1221-1222): a new dict with the same entries (models are shared); __deepcopy__
    (1224-1225) has no return statement *)
Definition data_copy (d : data) : res data := Ok d.
Definition data_deepcopy (d : data) : option data := None.

(** iTDataReadOnly (1476-1510): the methods that are overridden, and the inherited ones *)
Inductive ro_op := RSet (k : dkey) (e : entry) | RDel (k : dkey) | RPop (k : dkey) | RUpdate (l : list (dkey * dval)) | RClear (values_only : bool)
  | RDeleteItem (k : dkey) | ROr (d : data) | RSetDefault (k : dkey) (e : entry) | RPopItem.
Definition ro_run (o : ro_op) (d : data) : data * res unit :=
  match o with
  | RSet _ _ | RDel _ | RPop _ | RUpdate _ | RClear _ | RDeleteItem _ => (d, Err PermissionError)
  | ROr _ => (d, Err AttributeError)                              (* 1370-1384 *)
  | RSetDefault k e => let '(d', r) := data_setdefault d k e in (d', match r with Ok _ => Ok tt | Err x => Err x end)
  | RPopItem => let '(d', r) := data_popitem d in (d', match r with Ok _ => Ok tt | Err x => Err x end)
  end.
