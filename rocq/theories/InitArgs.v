(** Value models as objects: constructor arguments, get_init_args, == (src/itertree/itree_data.py
    164-236, 454-502, 522-547), the integer models (667-699), the pattern models (771-823) and the
    enumeration model (867-878). *)
From Verif Require Import Base MathSet DataModel.
Import ListNotations.
Local Open Scope string_scope.
Local Open Scope list_scope.

(** The five attributes.  contains and formatter objects are told apart by numbers; [None]: no
    contains, the default formatter str; shape [None]: Any. *)
Record vobj := VO { vo_val : dval; vo_desc : option string; vo_shape : option (list dim); vo_cont : option nat; vo_fmt : option nat }.
(** positional arguments *)
Inductive marg := AVal (v : dval) | ADesc (d : option string) | AShape (s : option (list dim)) | ACont (c : option nat) | AFmt (f : option nat)
  | APat (p : option string).

(** value in the constructor: [cast] is check_and_cast_single_item of the class, [test] says what
    the contains objects contain *)
Definition model_of (cast : dval -> res dval) (test : nat -> dval -> res bool) (shape : option (list dim)) (c : option nat) : vmodel :=
  VM cast (option_map test c) shape.
(** __init__ (209-231): an empty description counts as None *)
Definition mk_obj cast test (v : dval) (d : option string) sh c f : res vobj :=
  rbind (vm_init (model_of cast test sh c) v) (fun st =>
    Ok (VO (vs_value st) (match d with Some "" => None | _ => d end) sh c f)).
(** class( *args): missing arguments have their default *)
Definition obj_init cast test (args : list marg) : res vobj :=
  match args with
  | [] => mk_obj cast test DNoValue None None None None
  | [AVal v] => mk_obj cast test v None None None None
  | [AVal v; ADesc d] => mk_obj cast test v d None None None
  | [AVal v; ADesc d; AShape sh] => mk_obj cast test v d sh None None
  | [AVal v; ADesc d; AShape sh; ACont c] => mk_obj cast test v d sh c None
  | [AVal v; ADesc d; AShape sh; ACont c; AFmt f] => mk_obj cast test v d sh c f
  | _ => Err TypeError
  end.
(** get_init_args (522-547) *)
Definition init_args (full clear : bool) (o : vobj) : list marg :=
  let v := if clear then DNoValue else vo_val o in
  if full || match vo_fmt o with Some _ => true | None => false end then [AVal v; ADesc (vo_desc o); AShape (vo_shape o); ACont (vo_cont o); AFmt (vo_fmt o)]
  else match vo_cont o, vo_shape o, vo_desc o with
       | Some c, _, _ => [AVal v; ADesc (vo_desc o); AShape (vo_shape o); ACont (Some c)]
       | None, Some sh, _ => [AVal v; ADesc (vo_desc o); AShape (Some sh)]
       | None, None, Some (String a s) => [AVal v; ADesc (vo_desc o)]
       | None, None, _ => [AVal v]
       end.
(** the calls that change the object: set (412-424), clear (497-501), set_description (454-463),
    set_formatter (474-487; None becomes the text "None", which is format object 0 here).  The
    stored exception is not a constructor argument and left out: set(NoValue) empties. *)
Inductive mop := MSet (v : dval) | MClear | MDesc (s : string) | MFmt (f : option nat).
Definition obj_step cast test (o : vobj) (p : mop) : vobj :=
  match p with
  | MSet DNoValue | MClear => VO DNoValue (vo_desc o) (vo_shape o) (vo_cont o) (vo_fmt o)
  | MSet v => match accept (model_of cast test (vo_shape o) (vo_cont o)) v with
              | Ok w => VO w (vo_desc o) (vo_shape o) (vo_cont o) (vo_fmt o)
              | Err _ => o
              end
  | MDesc s => VO (vo_val o) (Some s) (vo_shape o) (vo_cont o) (vo_fmt o)
  | MFmt f => VO (vo_val o) (vo_desc o) (vo_shape o) (vo_cont o) (match f with None => Some 0%nat | _ => f end)
  end.
Definition obj_run cast test o ops : vobj := fold_left (obj_step cast test) ops o.
(** == of two models of one class (233-236): equal argument tuples *)
Definition obj_eq (a b : vobj) : Prop := init_args false false a = init_args false false b.

(** iTInt8Model, ... (673-699): contains object 0 is the interval of the class.  [if contains:]
    asks a set object for its length, which raises TypeError (MathSet.mset_len); so a contains
    argument other than None is refused (other containers are not modelled). *)
Definition intn_init cast test (args : list marg) : res vobj :=
  let go v d sh c f := match c with None => mk_obj cast test v d sh (Some 0%nat) f | Some _ => Err TypeError end in
  match args with
  | [] => go DNoValue None None None None
  | [AVal v] => go v None None None None
  | [AVal v; ADesc d] => go v d None None None
  | [AVal v; ADesc d; AShape sh] => go v d sh None None
  | [AVal v; ADesc d; AShape sh; ACont c] => go v d sh c None
  | [AVal v; ADesc d; AShape sh; ACont c; AFmt f] => go v d sh c f
  | _ => Err TypeError
  end.
Definition intn_args (full clear : bool) (o : vobj) : list marg :=
  let v := if clear then DNoValue else vo_val o in
  if full || match vo_fmt o with Some _ => true | None => false end then init_args full clear o
  else match vo_cont o, vo_shape o, vo_desc o with
       | Some (S c), _, _ => [AVal v; ADesc (vo_desc o); AShape (vo_shape o); ACont (Some (S c))]
       | _, Some sh, _ => [AVal v; ADesc (vo_desc o); AShape (Some sh)]
       | _, None, Some (String a s) => [AVal v; ADesc (vo_desc o)]
       | _, None, _ => [AVal v]
       end.

(** iTStrFnPatternModel, iTStrRegexPatternModel (771-823).  The names iTFilter and
    iTFilterIntersection (778, 780, 805, 807) exist nowhere in the package. *)
Definition pat_init cast test (args : list marg) : res vobj :=
  let go v d sh c (p : option string) f := match p with None => mk_obj cast test v d sh c f | Some _ => Err NameError end in
  match args with
  | [AVal v; ADesc d; AShape sh; ACont c; APat p] => go v d sh c p None
  | [AVal v; ADesc d; AShape sh; ACont c; APat p; AFmt f] => go v d sh c p f
  | [_; _; _; _; _] => Err TypeError
  | _ => obj_init cast test args
  end.
(** get_init_args of an object without pattern (788-796) *)
Definition pat_args (full clear : bool) (o : vobj) : list marg :=
  if full || match vo_fmt o with Some _ => true | None => false end
  then [AVal (if clear then DNoValue else vo_val o); ADesc (vo_desc o); AShape (vo_shape o); ACont (vo_cont o); APat None; AFmt (vo_fmt o)]
  else init_args full clear o.
(** the enumeration model has two parameters (869) and a formatter of its own (878), get_init_args
    is inherited; [n]: the number of positional arguments *)
Definition enum_args (o : vobj) : list marg := init_args false false o.
Definition enum_arity (n : nat) : res unit := if Nat.leb n 2 then Ok tt else Err TypeError.
