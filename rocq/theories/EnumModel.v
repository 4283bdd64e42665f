(** iTEnumerateModel (src/itertree/itree_data.py 867-887) and the printed form of the value
    models (590-628). *)
From Coq Require Import Ascii.
From Verif Require Import Base MathSet DataModel.
Import ListNotations.
Local Open Scope string_scope.
Local Open Scope list_scope.

(** == of hashable objects: 1 == 1.0; NoValue is a class.  Iterables stand for lists here, which
    are not hashable (a tuple as a name is not modelled); NaN is different from itself. *)
Definition key_eq (a b : dval) : bool :=
  match a, b with
  | DNoValue, DNoValue => true
  | DNum m, DNum n => num_eq m n
  | DStr s, DStr t => String.eqb s t
  | DObj m, DObj n => Nat.eqb m n
  | _, _ => false
  end.
Definition pydict := list (dval * dval).
Fixpoint dget (d : pydict) (k : dval) : option dval :=
  match d with [] => None | (k', v) :: d => if key_eq k' k then Some v else dget d k end.
Fixpoint dset (d : pydict) (k v : dval) : pydict :=
  match d with [] => [(k, v)] | (k', v') :: d => if key_eq k' k then (k', v) :: d else (k', v') :: dset d k v end.
(** the dictionary passed by the caller is changed in place (870-871); the default value {} of
    the parameter is one object for all calls *)
Definition enum_add (d : pydict) : pydict := match dget d DNoValue with None => d ++ [(DNoValue, DNoValue)] | Some _ => d end.
(** {v: k for k, v in enumerate_dict.items()} (872) *)
Fixpoint enum_names (l : pydict) (cd : pydict) : res pydict :=
  match l with
  | [] => Ok cd
  | (k, DSeq _) :: _ => Err TypeError
  | (k, v) :: l => enum_names l (dset cd v k)
  end.
(** k != int(k) (874); int(str) is an arbitrary function *)
Definition enum_key (parse : string -> option Z) (k : dval) : res bool :=
  match k with
  | DNoValue => Ok true
  | DNum n => integral n
  | DStr s => match parse s with Some _ => Ok false | None => Err ValueError end
  | _ => Err TypeError
  end.
(** the loop over the keys (873-876) *)
Fixpoint enum_keys (parse : string -> option Z) (ks : list dval) (cd : pydict) : res pydict :=
  match ks with
  | [] => Ok cd
  | k :: ks => rbind (enum_key parse k) (fun b => if b : bool then enum_keys parse ks (dset cd k k) else Err TypeError)
  end.
(** check_and_cast_single_item (880-887) *)
Definition enum_cast (cd : pydict) (v : dval) : res dval :=
  match v with
  | DNoValue => Ok DNoValue
  | DSeq _ => Err TypeError
  | _ => match dget cd v with Some k => Ok k | None => Err ValueError end
  end.
Definition enum_model (cd : pydict) : vmodel := VM (enum_cast cd) None None.
(** __init__ (869-878): the dictionary afterwards; the model and its state *)
Definition enum_init (parse : string -> option Z) (d : pydict) (v : dval) : pydict * res (vmodel * vstate) :=
  let d := enum_add d in
  (d, rbind (enum_names d []) (fun cd => rbind (enum_keys parse (map fst d) cd) (fun cd =>
      rbind (vm_init (enum_model cd) v) (fun st => Ok (enum_model cd, st))))).

(** ** str(model) *)
(** out[:-2] *)
Fixpoint drop_last2 (s : string) : string :=
  match s with
  | String a r => match r with String _ (String _ _) => String a (drop_last2 r) | _ => EmptyString end
  | EmptyString => EmptyString
  end.
(** __create_item_str (590-617); the formatter (a callable or a format string) is an arbitrary
    function that may raise; a result that is no str counts as TypeError *)
Fixpoint item_str (fmt : dval -> res string) (v : dval) : res string :=
  match v with
  | DSeq l =>
      rbind ((fix go (l : list dval) : res string :=
                match l with
                | [] => Ok ""%string
                | x :: r => rbind (item_str fmt x) (fun s => rbind (go r) (fun t => Ok ((s ++ ", ") ++ t)%string))
                end) l)
        (fun s => Ok (drop_last2 ("[" ++ s) ++ "]")%string)
  | _ => fmt v
  end.
(** __str__ (619-628) *)
Definition vm_str (fmt : dval -> res string) (st : vstate) : res string :=
  match vs_value st with DNoValue => Ok "NoValue"%string | v => item_str fmt v end.
(** the formatter of the enumeration model (878): the get method of the caller's dictionary, as
    it is at the time of the call *)
Definition enum_fmt (d : pydict) (v : dval) : res string := match dget d v with Some (DStr s) => Ok s | _ => Err TypeError end.
Definition enum_str (d : pydict) (st : vstate) : res string := vm_str (enum_fmt d) st.
