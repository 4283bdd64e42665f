(** Value models (src/itertree/itree_data.py 155-630), the integer models (656-760), the older
    iTDataModel (916-1085) and the iTData dictionary (1105-1420). *)
From Coq Require Import Ascii NArith.
From Verif Require Import Base MathSet MathSpec.
Local Open Scope Z_scope.

(** the Python objects a value model sees: NoValue, numbers, strings, iterables (lists, tuples,
    sets, ...), other objects (no length, not iterable, told apart by a number) *)
Inductive dval := DNoValue | DNum (n : num) | DStr (s : string) | DSeq (l : list dval) | DObj (n : nat).

(** entries of the shape parameter: Any, INF, a number *)
Inductive dim := DimAny | DimInf | Dim (n : Z).
(** what distinguishes the models: check_and_cast_single_item (an arbitrary function that may
    raise), the parameter contains (an arbitrary membership test that may raise), the shape
    (None: Any) *)
Record vmodel := VM { vm_cast : dval -> res dval; vm_contains : option (dval -> res bool); vm_shape : option (list dim) }.

(** one item: cast, then the contains test (_recursive_check 263-291, __contains__ 386-397) *)
Definition leaf (m : vmodel) (v : dval) : res dval :=
  rbind (vm_cast m v) (fun w =>
    match vm_contains m with
    | None => Ok w
    | Some c => rbind (c w) (fun b => if b : bool then Ok w else Err ValueError)
    end).
(** _recursive_check(..., True) (254-291) *)
Fixpoint rec_check (m : vmodel) (v : dval) {struct v} : res dval :=
  match v with
  | DSeq l => rbind ((fix go (l : list dval) : res (list dval) :=
                        match l with
                        | [] => Ok []
                        | x :: r => rbind (rec_check m x) (fun y => rbind (go r) (fun r => Ok (y :: r)))
                        end) l) (fun l => Ok (DSeq l))
  | _ => leaf m v
  end.
(** _check_shape (293-326) *)
Definition dim_ok (t : dim) (v : Z) : bool := match t with DimAny | DimInf => true | Dim n => v <=? n end.
Definition is_any (t : dim) : bool := match t with DimAny => true | _ => false end.
Definition last_any (ts : list dim) : bool := match rev ts with t :: _ => is_any t | [] => false end.
Fixpoint check_shape (all ts : list dim) (vs : list Z) : bool :=
  match vs with
  | [] => match ts with [] => true | t :: _ => is_any t end
  | v :: vs => match ts with
               | [] => last_any all
               | t :: ts => dim_ok t v && check_shape all ts vs
               end
  end.
(** the update of sub_shape by one more shape (353-360) *)
Fixpoint merge_shape (s t : list Z) : list Z :=
  match s, t with
  | [], t => t
  | s, [] => s
  | a :: s, b :: t => (if a <? b then b else a) :: merge_shape s t
  end.
(** zip_longest( *rows, fillvalue=0): the shapes of the items column by column (348-360); the
    filled-in 0 has the shape () *)
Definition columns (rows : list (list (list Z))) : list (list (list Z)) :=
  map (fun k => map (fun r => nth k r []) rows) (seq 0 (fold_right Nat.max 0%nat (map (@length _) rows))).
(** _get_max_shape (328-368); characters of a string have the shape () *)
Fixpoint max_shape (v : dval) : list Z :=
  match v with
  | DStr s => if (length (list_ascii_of_string s) <=? 1)%nat then [] else [Z.of_nat (length (list_ascii_of_string s))]
  | DSeq [] => []
  | DSeq l =>
      let rows := map (fun r => match r with
                                | DSeq l' => map max_shape l'
                                | DStr s => map (fun _ => []) (list_ascii_of_string s)
                                | _ => []
                                end) l in
      let cols := columns rows in
      let sub := fold_left merge_shape (concat cols) [] in
      match sub, cols with
      | _ :: _, _ => Z.of_nat (length l) :: Z.of_nat (length cols) :: sub
      | [], _ :: _ => [Z.of_nat (length l); Z.of_nat (length cols)]
      | [], [] => [Z.of_nat (length l)]
      end
  | _ => []
  end.
(** __contains__(value, True) for a value other than NoValue (384-402) *)
Definition accept (m : vmodel) (v : dval) : res dval :=
  rbind (rec_check m v) (fun w =>
    match vm_shape m with
    | None => Ok w
    | Some ts => if check_shape ts ts (max_shape w) then Ok w else Err ValueError
    end).

(** the object: stored value and _last_exception *)
Record vstate := VS { vs_value : dval; vs_exc : option exn }.
(** __init__ (164-231): a rejected value reads the not yet existing _value (408) *)
Definition vm_init (m : vmodel) (v : dval) : res vstate :=
  match v with
  | DNoValue => Ok (VS DNoValue None)
  | _ => match accept m v with Ok w => Ok (VS w None) | Err _ => Err AttributeError end
  end.
(** set (412-424), with __contains__ (370-410): NoValue leaves _last_exception as it is *)
Definition vm_set (m : vmodel) (st : vstate) (v : dval) : vstate * res dval :=
  match v with
  | DNoValue => match vs_exc st with
                | Some e => (st, Err e)
                | None => (VS DNoValue None, Ok (vs_value st))
                end
  | _ => match accept m v with
         | Ok w => (VS w None, Ok (vs_value st))
         | Err e => (VS (vs_value st) (Some e), Err e)
         end
  end.
(** value in model (370-410) *)
Definition vm_in (m : vmodel) (st : vstate) (v : dval) : vstate * bool :=
  match v with
  | DNoValue => (st, true)
  | _ => match accept m v with
         | Ok _ => (VS (vs_value st) None, true)
         | Err e => (VS (vs_value st) (Some e), false)
         end
  end.
(** clear (497-501) *)
Definition vm_clear (st : vstate) : vstate := VS DNoValue (vs_exc st).

(** ** the concrete models *)
(** iTIntModel (656-664), iTInt8Model, iTUInt8Model, ... (667-753): only int and str objects;
    int(str) is an arbitrary function here *)
Definition int_cast (parse : string -> option Z) (v : dval) : res dval :=
  match v with
  | DNum (NI z) => Ok (DNum (NI z))
  | DStr s => match parse s with Some z => Ok (DNum (NI z)) | None => Err ValueError end
  | _ => Err ValueError
  end.
Fixpoint tval_of (v : dval) : tval :=
  match v with
  | DNum n => TNum n
  | DStr s => TStr s
  | DSeq l => TSeq (map tval_of l)
  | _ => TStr EmptyString      (* not produced by the casts below *)
  end.
Definition in_mset (s : mset) (v : dval) : res bool := contains s (tval_of v) None.
(** the class attribute interval: mSetInterval(lo, hi) *)
Definition int_interval (lo hi : Z) : mset := MInt (mk (Some (NI lo, false)) (Some (NI hi, false)) false false).
(** the parameter contains of the constructor (673-678): [if contains:] calls len() of a set
    object, which raises (see mset_len); filters are functions here and always true *)
Inductive carg := CANone | CASet (s : mset) | CAFilter (f : dval -> bool).
Definition intn_model (parse : string -> option Z) (lo hi : Z) (c : carg) (shape : option (list dim)) : res vmodel :=
  match c with
  | CANone => Ok (VM (int_cast parse) (Some (in_mset (int_interval lo hi))) shape)
  | CASet s => match mset_len s with Ok _ => Err Unsupported | Err e => Err e end
  | CAFilter f => (* mSetCombine(f, interval, is_union=False): value in f, then the interval; never raises on numbers *)
      Ok (VM (int_cast parse) (Some (fun v => if f v then in_mset (int_interval lo hi) v else Ok false)) shape)
  end.
(** the intervals of the eight classes (671-753) *)
Inductive intn := Int8 | UInt8 | Int16 | UInt16 | Int32 | UInt32 | Int64 | UInt64.
Definition intn_range (k : intn) : Z * Z :=
  match k with
  | Int8 => (-128, 127) | UInt8 => (0, 255)
  | Int16 => (-32768, 32767) | UInt16 => (0, 65535)
  | Int32 => (-2147483648, 2147483647) | UInt32 => (0, 2 ^ 32 - 1)
  | Int64 => (-9223372036854775808, 9223372036854775807) | UInt64 => (0, 18446744073709551615)
  end.
(** iTASCIIStrModel (827-837), iTStrModel (764-769): str(...) of an object is an arbitrary
    function; ord(c) < 128 *)
Definition str_cast (str : dval -> string) (v : dval) : res dval := Ok (DStr (str v)).
Definition ascii_cast (str : dval -> string) (v : dval) : res dval :=
  if forallb (fun c => N.ltb (N_of_ascii c) 128) (list_ascii_of_string (str v)) then Ok (DStr (str v)) else Err ValueError.

(** ** iTDataModel (916-1085): one stored value, an arbitrary validator *)
Definition dm_init (validator : dval -> res dval) (v : dval) : res dval :=
  match v with DNoValue => Ok DNoValue | _ => validator v end.
(** set (1000-1013) *)
Definition dm_set (validator : dval -> res dval) (st v : dval) : dval * res dval :=
  match v with
  | DNoValue => (DNoValue, Ok st)
  | _ => match validator v with Ok w => (w, Ok st) | Err e => (st, Err e) end
  end.
(** check (1017-1029) *)
Definition dm_check (validator : dval -> res dval) (st v : dval) : dval * bool :=
  match validator v with Ok w => (w, true) | Err _ => (st, false) end.
(** clear (1031-1039) *)
Definition dm_clear (st : dval) : dval * dval := (DNoValue, st).

(** ** iTData (1105-1360): a dict whose values are plain objects or iTDataModel objects *)
Inductive entry := EPlain (v : dval) | EModel (validator : dval -> res dval) (stored : dval).
(** keys: strings; NoKey is the key of the value without a key *)
Inductive dkey := KNo | KStr (s : string).
Definition dkey_eqb (a b : dkey) : bool := match a, b with KNo, KNo => true | KStr s, KStr t => String.eqb s t | _, _ => false end.
Definition data := list (dkey * entry).
Fixpoint raw_get (d : data) (k : dkey) : option entry := match d with [] => None | (k', e) :: d => if dkey_eqb k' k then Some e else raw_get d k end.
Fixpoint raw_set (d : data) (k : dkey) (e : entry) : data :=
  match d with [] => [(k, e)] | (k', e') :: d => if dkey_eqb k' k then (k', e) :: d else (k', e') :: raw_set d k e end.
Fixpoint raw_del (d : data) (k : dkey) : data :=
  match d with [] => [] | (k', e') :: d => if dkey_eqb k' k then d else (k', e') :: raw_del d k end.
Definition is_novalue (v : entry) : bool := match v with EPlain DNoValue => true | _ => false end.
(** d[k] = v (1141-1175).  The models' set() has no parameter _it_data_model_identifier, so the
    call at 1169 always raises TypeError (KeyError, AttributeError for plain values) and the
    except branch runs. *)
Definition data_setitem (d : data) (k : dkey) (v : entry) : data :=
  match k with
  | KNo => if is_novalue v then match raw_get d KNo with Some _ => raw_del d KNo | None => d end else raw_set d k v
  | _ => raw_set d k v
  end.
(** d[k] (1177-1196) *)
Definition data_getitem (d : data) (k : dkey) : res dval :=
  match raw_get d k with
  | None => Err KeyError
  | Some (EPlain v) => Ok v
  | Some (EModel _ st) => Ok st
  end.
(** del d[k] (1198-1219): likewise clear(_it_data_model_identifier=0) always raises *)
Definition data_delitem (d : data) (k : dkey) : res data :=
  match raw_get d k with None => Err KeyError | Some _ => Ok (raw_del d k) end.
(** d.get(k, default) (1340-1359) *)
Definition data_get (d : data) (k : dkey) (default : dval) : dval := match data_getitem d k with Ok v => v | Err _ => default end.
(** d.pop(k) (1312-1338), without default: dict.pop of the entry itself *)
Definition data_pop (d : data) (k : dkey) : res (data * entry) :=
  match raw_get d k with None => Err KeyError | Some e => Ok (raw_del d k, e) end.
(** d.update(E) (1242-1295) for a dict of values: all are validated first (1282-1292), then
    written; [m and model.set(v) or dict.__setitem__] (1294) replaces the model when set()
    returns something false, i.e. when the model held 0, '' or an empty list *)
Definition falsy (v : dval) : bool :=
  match v with
  | DNoValue => false       (* a class object *)
  | DNum n => num_eq n (NI 0)
  | DStr s => String.eqb s EmptyString
  | DSeq l => match l with [] => true | _ => false end
  | DObj _ => false
  end.
Definition update_one (d : data) (k : dkey) (v : dval) : data :=
  match raw_get d k with
  | Some (EModel val st) =>
      match v with
      | DNoValue => if falsy st then raw_set d k (EPlain v) else raw_set d k (EModel val DNoValue)
      | _ => match val v with
             | Ok w => if falsy st then raw_set d k (EPlain v) else raw_set d k (EModel val w)
             | Err _ => d
             end
      end
  | _ => raw_set d k (EPlain v)
  end.
Definition update_ok (d : data) (kv : dkey * dval) : res unit :=
  match raw_get d (fst kv) with
  | Some (EModel val _) => match val (snd kv) with Ok _ => Ok tt | Err e => Err e end
  | _ => Ok tt
  end.
Fixpoint update_check (d : data) (l : list (dkey * dval)) : res unit :=
  match l with [] => Ok tt | kv :: l => rbind (update_ok d kv) (fun _ => update_check d l) end.
Definition data_update (d : data) (l : list (dkey * dval)) : data * res unit :=
  match update_check d l with
  | Err e => (d, Err e)
  | Ok _ => (fold_left (fun d kv => update_one d (fst kv) (snd kv)) l d, Ok tt)
  end.
