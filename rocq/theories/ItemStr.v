(** str() of a single item of mathematical sets and what eval() makes of it
    (src/itertree/itree_mathsets.py: mSetItem.__str__ 384-401, math_repr 258-278, get_init_args 241-256).

    The text is a list of Python tokens as in SetRepr.v; a number with its sign and the blanks in
    front of it is one token.  No proofs in this file. *)
From Coq Require Import QArith Ascii.
From Verif Require Import Base MathSet MathStr SetRepr.
Import ListNotations.
Local Open Scope string_scope.
Local Open Scope list_scope.

(** the token that a printed number makes (392-394).  Without format a number is printed by str(),
    which Python reads as the number again; hex(), oct() and bin() write a literal of the same
    integer; a formatted number is what its digits say (read by [parse_item], whose number
    literals without and with exponent are also Python's).  inf, -inf and nan are names (in -inf
    the minus is applied after the name is looked up). *)
Definition str_val (fstr : Q -> text) (i : pitem) : res stok :=
  match pi_val i, pi_fmt i with
  | VVar s, _ => Ok (KStr s)
  | VNum PInf, (FStr | FFix _ _ | FExp _ _) | VNum NInf, (FStr | FFix _ _ | FExp _ _) => Ok (TName "inf")
  | VNum NaN, (FStr | FFix _ _ | FExp _ _) => Ok (TName "nan")
  | VNum n, FStr => Ok (KNum n)
  | VNum (NI z), (FHex | FOct | FBin) => Ok (KNum (NI z))
  | VNum _, (FHex | FOct | FBin) => Err TypeError
  | VNum _, _ => rbind (item_repr fstr i) (fun t => rbind (parse_item t false) (fun j =>
                   match pi_val j with VNum m => Ok (KNum m) | _ => Err Unsupported end))
  end.
(** mSetItem.__str__ *)
Definition item_str (fstr : Q -> text) (i : pitem) : res (list stok) :=
  rbind (str_val fstr i) (fun v => Ok ([TName "mSetItem"; TOpen] ++ sep_toks (map (fun t => [t]) (v :: item_args i)) ++ [TClose])).
