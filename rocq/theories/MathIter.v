(** iter_in() and filter() of the sets, and the argument pair (value, vars_dict)
    (src/itertree/itree_mathsets.py:1358-1409, 1468-1494, 1676-1705, 1754-1778, 2007-2054,
    2108-2129).  No proofs in this file. *)
From Verif Require Import Base MathSet.
Import ListNotations.
Local Open Scope list_scope.

(** a dictionary of variables (or None), and what is looked up in it *)
Definition vars := option (list (string * num)).
Fixpoint assoc (l : list (string * num)) (s : string) : option num :=
  match l with [] => None | (k, n) :: r => if String.eqb k s then Some n else assoc r s end.
Definition as_dict (d : vars) : vdict := option_map assoc d.
(** [not vars_dict] *)
Definition falsy (d : vars) : bool := match d with None | Some [] => true | _ => false end.
(** an argument: a value, or the tuple (value, dictionary) *)
Inductive arg := AVal (v : tval) | APair (v : tval) (w : list (string * num)).
(** a pair that is not taken apart is a sequence of the value and the (iterable) dictionary *)
Definition arg_val (a : arg) : tval :=
  match a with AVal v => v | APair v w => TSeq [v; TSeq (map (fun p => TStr (fst p)) w)] end.

(** mSetInterval.__contains__(value, vars_dict, _limits) (1358-1409) *)
Definition iv_in (i : interval) (a : arg) (d : vars) (lims : option (sval * sval)) : res bool :=
  let '(v, d) := match a with
                 | APair v w => if falsy d then (v, Some w) else (arg_val a, d)
                 | AVal v => (v, d)
                 end in
  iv_test i (match lims with Some l => l | None => limits (as_dict d) i end) v.
(** mSetRoster.__contains__(value, vars_dict, _replacement_vars) (1676-1705) *)
Definition ro_in (r : roster) (a : arg) (d : vars) (repl : list sval) : bool :=
  let '(v, d) := match a with
                 | APair v w => if falsy d then (v, Some w) else (arg_val a, d)
                 | AVal v => (v, d)
                 end in
  ro_test r (match repl with [] => ro_repl r (as_dict d) | _ => repl end) v.
(** [a in s], s.__contains__(a, d) for the three kinds; mSetCombine (2022-2054) takes every
    pair apart *)
Definition arg_in (s : mset) (a : arg) (d : vars) : res bool :=
  match s with
  | MInt i => iv_in i a d None
  | MRos r => Ok (ro_in r a d [])
  | MComb _ _ _ => match a with AVal v => contains s v (as_dict d) | APair v w => contains s v (as_dict (Some w)) end
  end.

(** what a generator delivers before it ends or raises *)
Record gen A := Gen { delivered : list A; raised : option exn }.
Arguments Gen {A}. Arguments delivered {A}. Arguments raised {A}.
Fixpoint yield_all {A} (f : A -> res bool) (l : list A) : gen bool :=
  match l with
  | [] => Gen [] None
  | a :: r => match f a with
              | Ok b => let g := yield_all f r in Gen (b :: delivered g) (raised g)
              | Err e => Gen [] (Some e)
              end
  end.
Fixpoint yield_if {A} (f : A -> res bool) (l : list A) : gen A :=
  match l with
  | [] => Gen [] None
  | a :: r => match f a with
              | Ok b => let g := yield_if f r in Gen (if b : bool then a :: delivered g else delivered g) (raised g)
              | Err e => Gen [] (Some e)
              end
  end.
(** a list comprehension delivers nothing when it raises *)
Definition strict {A} (g : gen A) : gen A := match raised g with Some e => Gen [] (Some e) | None => g end.

(** iter_in (1468-1479, 1754-1768, 2108-2117) *)
Definition iter_in (s : mset) (l : list arg) (d : vars) : gen bool :=
  match s with
  | MInt i => let lims := limits (as_dict d) i in yield_all (fun a => iv_in i a None (Some lims)) l
  | MRos r => let repl := ro_repl r (as_dict d) in yield_all (fun a => Ok (ro_in r a None repl)) l
  | MComb _ _ _ => strict (yield_all (fun a => arg_in s a d) l)
  end.
(** filter (1481-1494, 1770-1778, 2119-2129) *)
Definition set_filter (s : mset) (l : list arg) (d : vars) : gen arg :=
  match s with
  | MInt i => let lims := limits (as_dict d) i in yield_if (fun a => iv_in i a None (Some lims)) l
  | MRos r => let repl := ro_repl r (as_dict d) in yield_if (fun a => Ok (ro_in r a None repl)) l
  | MComb _ _ _ => strict (yield_if (fun a => arg_in s a d) l)
  end.
