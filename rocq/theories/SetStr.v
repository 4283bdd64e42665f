(** str() of mathematical sets and what eval() makes of it (src/itertree/itree_mathsets.py:
    mSetInterval 1432-1439, mSetRoster 1724-1731, mSetCombine 2073-2081).

    Texts as in MathStr.v.  Intervals in builder notation are not modelled (CBld).
    No proofs in this file. *)
From Coq Require Import QArith Ascii.
From Verif Require Import Base MathSet MathStr MathBuild RosterStr CombStr SetRepr.
Import ListNotations.
Local Open Scope list_scope.

(** repr() of a str of plain characters: single quotes; texts with a quote, a backslash or a
    character outside 32..126 are not modelled *)
Definition dquote : ascii := ascii_of_nat 34.
Definition simple_char (c : ascii) : bool :=
  (32 <=? nat_of_ascii c)%nat && (nat_of_ascii c <=? 126)%nat && negb (Ascii.eqb c "'") && negb (Ascii.eqb c dquote) && negb (Ascii.eqb c "\").
Definition py_repr (t : text) : res text := if forallb simple_char t then Ok (lit "'" ++ t ++ lit "'") else Err Unsupported.

Section Text.
Variable fstr : Q -> text.      (* str of a float *)
(** math_repr of the three classes: 1500-1543, 1792-1812, 2083-2106 *)
Fixpoint math_text (s : cset) : res text :=
  match s with
  | CInt p => interval_repr fstr p
  | CBld _ => Err Unsupported
  | CRos r => roster_repr fstr (pr_items r) (pr_compl r)
  | CCmb l u c => rbind (map_all math_text l) (fun ts => Ok (comb_text u c ts))
  end.
Definition set_str (s : cset) : res text :=
  rbind (math_text s) (fun t =>
  match s with
  | CRos _ => Ok (lit "mSetRoster(" ++ t ++ lit ")")
  | CCmb _ _ _ => Ok (lit "mSetCombine(" ++ [dquote] ++ t ++ [dquote] ++ lit ")")
  | _ => rbind (py_repr t) (fun q => Ok (lit "mSetInterval(" ++ q ++ lit ")"))
  end).
End Text.

(** eval of a text name(argument): the argument is a string literal without backslashes, or a set
    display; everything else counts as a syntax error.  A set display makes the constructors
    raise TypeError (176-179; if it is evaluated at all: a name in it may be undefined). *)
Fixpoint before_paren (s : text) : option (text * text) :=
  match s with
  | [] => None
  | c :: r => if Ascii.eqb c "(" then Some ([], r) else match before_paren r with Some (a, b) => Some (c :: a, b) | None => None end
  end.
Inductive parg := PStr (s : text) | PDisplay.
Definition parse_arg (s : text) : option parg :=
  match s with
  | q :: r =>
      match unsnoc r with
      | Some (body, z) =>
          if (Ascii.eqb q "'" || Ascii.eqb q dquote) && Ascii.eqb z q then
            if forallb (fun c => negb (Ascii.eqb c q) && negb (Ascii.eqb c "\")) body then Some (PStr body) else None
          else if Ascii.eqb q "{" && Ascii.eqb z "}" then Some PDisplay else None
      | None => None
      end
  | [] => None
  end.
(** [fuel]: the recursion limit *)
Definition str_eval (fuel : nat) (s : text) : res cset :=
  match before_paren s with
  | None => Err SyntaxError
  | Some (f, r) =>
      match unsnoc r with
      | Some (a, z) =>
          if negb (Ascii.eqb z ")") then Err SyntaxError
          else match parse_arg a with
               | None => Err SyntaxError
               | Some PDisplay => Err TypeError
               | Some (PStr t) =>
                   if text_eqb f (lit "mSetInterval") then match interval_str t with Ok p => Ok (CInt p) | Err e => Err e end
                   else if text_eqb f (lit "mSetRoster") then match roster_str t with Ok r => Ok (CRos r) | Err e => Err e end
                   else if text_eqb f (lit "mSetCombine") then comb_str fuel t
                   else Err NameError
               end
      | None => Err SyntaxError
      end
  end.
