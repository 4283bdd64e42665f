(** What a builder definition string says, independent of the parser: one or two statements
    about the variable, written down as text, and the numbers that satisfy them. *)
From Coq Require Import QArith Ascii.
From Verif Require Import Base MathSet MathSpec MathStr MathStrFacts MathBuild.
Local Open Scope Z_scope.

Inductive rel := RLe | RLt | RGe | RGt.
Definition rel_text (r : rel) : text := match r with RLe => lit "<=" | RLt => lit "<" | RGe => lit ">=" | RGt => lit ">" end.
Definition cmp (r : rel) (a b : num) : Prop := match r with RLe => nle a b | RLt => nlt a b | RGe => nle b a | RGt => nlt b a end.
Definition non_strict (r : rel) : bool := match r with RLe | RGe => true | _ => false end.
(** a number as it stands in the text *)
Record literal := L { l_text : text; l_num : num }.
Definition good (l : literal) : Prop := forallb okc (l_text l) = true /\ exists f, parse_item (l_text l) false = Ok (PI (VNum (l_num l)) false f).
(** a r x,  x r b,  a r x r' b *)
Inductive sentence := SLeft (a : literal) (r : rel) | SRight (r : rel) (b : literal) | SBoth (a : literal) (r r' : rel) (b : literal).
Definition s_text (x : ascii) (s : sentence) : text :=
  match s with
  | SLeft a r => l_text a ++ rel_text r ++ [x]
  | SRight r b => x :: rel_text r ++ l_text b
  | SBoth a r r' b => l_text a ++ rel_text r ++ x :: rel_text r' ++ l_text b
  end.
Definition holds (s : sentence) (v : num) : Prop :=
  match s with
  | SLeft a r => cmp r (l_num a) v
  | SRight r b => cmp r v (l_num b)
  | SBoth a r r' b => cmp r (l_num a) v /\ cmp r' v (l_num b)
  end.
Definition s_good (s : sentence) : Prop := match s with SLeft a _ => good a | SRight _ b => good b | SBoth a _ _ b => good a /\ good b end.
Definition s_non_strict (s : sentence) : bool :=
  match s with SLeft _ r => non_strict r | SRight r _ => non_strict r | SBoth _ r r' _ => non_strict r && non_strict r' end.
(** how often the text limits the variable from below *)
Definition up_left (r : rel) : bool := match r with RLe | RLt => true | _ => false end.
Definition n_lower (s : sentence) : nat :=
  match s with
  | SLeft _ r => Nat.b2n (up_left r)
  | SRight r _ => Nat.b2n (negb (up_left r))
  | SBoth _ r r' _ => Nat.b2n (up_left r) + Nat.b2n (negb (up_left r'))
  end.
(** the sentence with its limits included *)
Definition weak_rel (r : rel) : rel := match r with RLt => RLe | RGt => RGe | _ => r end.
Definition weak (s : sentence) : sentence :=
  match s with SLeft a r => SLeft a (weak_rel r) | SRight r b => SRight (weak_rel r) b | SBoth a r r' b => SBoth a (weak_rel r) (weak_rel r') b end.

(** equality signs, negated or not *)
Inductive eqop := QEq | QEqEq | QNe | QNeEq.
Definition eq_text (o : eqop) : text := match o with QEq => lit "=" | QEqEq => lit "==" | QNe => lit "!=" | QNeEq => lit "!==" end.
Definition eq_neg (o : eqop) : bool := match o with QNe | QNeEq => true | _ => false end.

(** {x|body}, complement before or behind *)
Definition b_text (compl : bool) (x : ascii) (body : text) (quote : bool) : text :=
  (if compl then lit "!" else []) ++ "{"%char :: x :: "|"%char :: body ++ "}"%char :: quote_text quote.
Definition flip (c : bool) (P : Prop) : Prop := if c then ~ P else P.
(** the text denotes the numbers with [P] *)
Definition denotes (s : text) (P : num -> Prop) (ints : bool) : Prop :=
  exists i, builder_str s = Ok i /\ forall v d, (ints = true -> finite v) -> exists r, b_contains i v d = Ok r /\ (r = true <-> P v).

(** numerical domains of the documentation: name, integers only, lower and upper limit *)
Definition domains : list (string * bool * (num * bool) * (num * bool)) :=
  let ninf := (NInf, false) in let inf := (PInf, false) in let zero := (NI 0, false) in let open0 := (NI 0, true) in let one := (NI 1, false) in
  [("N", true, zero, inf); ("N+", true, one, inf); ("N0", true, zero, inf); ("N0+", true, zero, inf);
   ("Z", true, ninf, inf); ("int", true, ninf, inf); ("integer", true, ninf, inf); ("Integer", true, ninf, inf);
   ("Z+", true, open0, inf); ("Z0+", true, zero, inf); ("Z-", true, ninf, open0); ("Z0-", true, ninf, zero);
   ("Q", false, ninf, inf); ("R", false, ninf, inf); ("float", false, ninf, inf); ("Float", false, ninf, inf);
   ("double", false, ninf, inf); ("Double", false, ninf, inf);
   ("Q+", false, open0, inf); ("Q0+", false, zero, inf); ("Q-", false, ninf, open0); ("Q0-", false, ninf, zero);
   ("R+", false, open0, inf); ("R0+", false, zero, inf); ("R-", false, ninf, open0); ("R0-", false, ninf, zero);
   ("bool", true, zero, one); ("Boolean", true, zero, one)]%string.
Definition in_domain (ints : bool) (lo hi : num * bool) (v : num) : Prop := above lo v /\ under hi v /\ (ints = true -> is_integer v).
