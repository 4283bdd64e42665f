(** Definition strings of mathematical sets (src/itertree/itree_mathsets.py): mSetItem from a
    str (102-181), its printed form (258-278), mSetInterval in bracket notation (713-809,
    965-997) and its printed form (1510-1543).

    A str is a list of 8-bit characters.  A float is the exact rational number of its literal:
    rounding to 53 bits, overflow to inf and the sign of -0.0 are not modelled.  The shortest
    decimal that Python prints for a float ([str(float)]) is a parameter [fstr].  Explicit
    formatters given by the user are not modelled, only those that the parser picks. *)
From Coq Require Import QArith Ascii.
From Verif Require Import Base MathSet.
Local Open Scope Z_scope.

Notation text := (list ascii).
Definition lit (s : string) : text := list_ascii_of_string s.
Definition unlit (t : text) : string := string_of_list_ascii t.
Definition text_eqb (a b : text) : bool := if list_eq_dec ascii_dec a b then true else false.

(** ** characters *)
Definition code (c : ascii) : Z := Z.of_nat (nat_of_ascii c).
Definition within (lo hi : ascii) (c : ascii) : bool := (code lo <=? code c) && (code c <=? code hi).
Definition is_digit : ascii -> bool := within "0" "9".
Definition is_lower : ascii -> bool := within "a" "z".
Definition is_upper : ascii -> bool := within "A" "Z".
Definition is_alpha (c : ascii) : bool := is_lower c || is_upper c.
(** _VAR_START_CHARACTERS, _VAR_CHARACTERS, _NUMBER_START_CHARACTERS (50-52) *)
Definition var_start : ascii -> bool := is_alpha.
Definition var_char (c : ascii) : bool := is_alpha c || is_digit c || Ascii.eqb c "_".
Definition num_start (c : ascii) : bool := is_digit c || Ascii.eqb c "-" || Ascii.eqb c "+" || Ascii.eqb c "i".
Definition newline : ascii := ascii_of_nat 10.
(** str.isspace for 8-bit ASCII: what int() and float() strip *)
Definition is_ws (c : ascii) : bool := Ascii.eqb c " " || within (ascii_of_nat 9) (ascii_of_nat 13) c || within (ascii_of_nat 28) (ascii_of_nat 31) c.

(** str.strip with a set of characters *)
Fixpoint lstrip (p : ascii -> bool) (s : text) : text :=
  match s with c :: r => if p c then lstrip p r else s | [] => [] end.
Definition strip (p : ascii -> bool) (s : text) : text := rev (lstrip p (rev (lstrip p s))).
Definition is_sp (c : ascii) : bool := Ascii.eqb c " ".
(** str.replace(' ', '') *)
Definition no_sp (s : text) : text := filter (fun c => negb (is_sp c)) s.
(** str.find of one character *)
Fixpoint find_char (c : ascii) (s : text) : option nat :=
  match s with
  | [] => None
  | d :: r => if Ascii.eqb d c then Some 0%nat else option_map S (find_char c r)
  end.
(** s in t *)
Fixpoint prefixb (s t : text) : bool :=
  match s, t with
  | [], _ => true
  | c :: s, d :: t => Ascii.eqb c d && prefixb s t
  | _, _ => false
  end.
Fixpoint infixb (s t : text) : bool := prefixb s t || match t with [] => false | _ :: t => infixb s t end.

(** ** numbers as text *)
Definition digit_val (c : ascii) : option Z :=
  if is_digit c then Some (code c - 48)
  else if is_lower c then Some (code c - 87)
  else if is_upper c then Some (code c - 55)
  else None.
(** digits of a base, single underscores between them; [after]: the last character was a digit *)
Fixpoint digs (b : Z) (acc : Z) (after : bool) (s : text) : option Z :=
  match s with
  | [] => if after then Some acc else None
  | c :: r =>
      if Ascii.eqb c "_" then if after then digs b acc false r else None
      else match digit_val c with
           | Some d => if d <? b then digs b (acc * b + d) true r else None
           | None => None
           end
  end.
Definition sign_of (s : text) : bool * text :=
  match s with
  | c :: r => if Ascii.eqb c "-" then (true, r) else if Ascii.eqb c "+" then (false, r) else (false, s)
  | [] => (false, s)
  end.
Definition zneg (neg : bool) (z : Z) : Z := if neg then - z else z.
Definition to_lower (c : ascii) : ascii := if is_upper c then ascii_of_nat (Z.to_nat (code c + 32)) else c.
(** int(s, base): white space around, a sign, the prefix of the base and an underscore after it *)
Definition py_int (b : Z) (s : text) : option Z :=
  let '(neg, s) := sign_of (strip is_ws s) in
  let s := match s with
           | z :: x :: r =>
               if Ascii.eqb z "0" && ((Ascii.eqb (to_lower x) "x" && (b =? 16)) || (Ascii.eqb (to_lower x) "o" && (b =? 8)) || (Ascii.eqb (to_lower x) "b" && (b =? 2)))
               then match r with u :: r' => if Ascii.eqb u "_" then r' else r | [] => r end
               else s
           | _ => s
           end in
  option_map (zneg neg) (digs b 0 false s).
(** m * 10^k *)
Definition dec_q (m k : Z) : Q := if 0 <=? k then inject_Z (m * 10 ^ k) else m # Z.to_pos (10 ^ (- k)).
Definition is_e (c : ascii) : bool := Ascii.eqb c "e" || Ascii.eqb c "E".
Fixpoint cut (p : ascii -> bool) (s : text) : text * option text :=
  match s with
  | [] => ([], None)
  | c :: r => if p c then ([], Some r) else let '(a, b) := cut p r in (c :: a, b)
  end.
(** possibly empty digit part: value and number of digits *)
Definition dig_part (s : text) : option (Z * Z) :=
  match s with
  | [] => Some (0, 0)
  | _ => option_map (fun z => (z, Z.of_nat (length (filter is_digit s)))) (digs 10 0 false s)
  end.
(** float(s) of a text that contains a "." (so neither inf nor nan) *)
Definition py_float (s : text) : option Q :=
  let '(neg, s) := sign_of (strip is_ws s) in
  let '(mant, ex) := cut is_e s in
  let '(ip, fp) := cut (fun c => Ascii.eqb c ".") mant in
  match fp with
  | None => None
  | Some fp =>
      match dig_part ip, dig_part fp, (match ex with None => Some 0 | Some e => let '(eneg, e) := sign_of e in option_map (zneg eneg) (digs 10 0 false e) end) with
      | Some (i, ni), Some (f, nf), Some e => if ni + nf =? 0 then None else Some (dec_q (zneg neg (i * 10 ^ nf + f)) (e - nf))
      | _, _, _ => None
      end
  end.

(** digits of a natural number in a base, lower case *)
Definition dig_char (d : Z) : ascii := ascii_of_nat (Z.to_nat (if d <? 10 then d + 48 else d + 87)).
Fixpoint show_fuel (fuel : nat) (b n : Z) (acc : text) : text :=
  match fuel with
  | O => acc
  | S f => let acc := dig_char (n mod b) :: acc in if n / b =? 0 then acc else show_fuel f b (n / b) acc
  end.
Definition show_nat (b n : Z) : text := show_fuel (S (Z.to_nat (Z.log2 n))) b n [].
(** str(int) (prefix empty), hex(int), oct(int), bin(int) *)
Definition show_int (b : Z) (prefix : text) (z : Z) : text := (if z <? 0 then lit "-" else []) ++ prefix ++ show_nat b (Z.abs z).

(** round half to even of n / d *)
Definition round_he (n d : Z) : Z :=
  let q := n / d in let r := n mod d in
  if 2 * r <? d then q else if d <? 2 * r then q + 1 else if Z.even q then q else q + 1.
Definition zeros (k : nat) : text := repeat "0"%char k.
Definition lpad (c : ascii) (w : nat) (s : text) : text := repeat c (w - length s) ++ s.
Definition q_neg (q : Q) : bool := Qnum q <? 0.
(** '{:w.nf}'.format *)
Definition fix_text (w n : nat) (q : Q) : text :=
  let m := round_he (Z.abs (Qnum q) * 10 ^ Z.of_nat n) (Zpos (Qden q)) in
  let p := 10 ^ Z.of_nat n in
  lpad " " w ((if q_neg q then lit "-" else []) ++ show_nat 10 (m / p) ++
              match n with O => [] | S _ => lit "." ++ lpad "0" n (show_nat 10 (m mod p)) end).
(** '{:w.ne}'.format: one digit before the point, at least two digits in the exponent *)
Definition ndig (z : Z) : Z := Z.of_nat (length (show_nat 10 z)).
(** n / d in units of 10^k, rounded *)
Definition scaled (n d k : Z) : Z := if 0 <=? k then round_he n (d * 10 ^ k) else round_he (n * 10 ^ (- k)) d.
Definition exp_text (w n : nat) (q : Q) : text :=
  let a := Z.abs (Qnum q) in let d := Zpos (Qden q) in let k := Z.of_nat n in
  let '(m, e) := if a =? 0 then (0, 0)
                 else let e0 := ndig a - ndig d in
                      let e := if (if 0 <=? e0 then d * 10 ^ e0 <=? a else d <=? a * 10 ^ (- e0)) then e0 else e0 - 1 in
                      let m := scaled a d (e - k) in
                      if m =? 10 ^ (k + 1) then (10 ^ k, e + 1) else (m, e) in
  let body := match lpad "0" (S n) (show_nat 10 m) with c :: r => c :: match n with O => [] | S _ => lit "." ++ r end | [] => [] end in
  lpad " " w ((if q_neg q then lit "-" else []) ++ body ++ lit "e" ++ (if e <? 0 then lit "-" else lit "+") ++ lpad "0" 2 (show_nat 10 (Z.abs e))).

(** ** mSetItem *)
(** the formatters the parser picks (145-165) *)
Inductive fmt := FStr | FHex | FOct | FBin | FFix (w n : nat) | FExp (w n : nat).
Record pitem := PI { pi_val : sval; pi_open : bool; pi_fmt : fmt }.
Definition pi_si (i : pitem) : sitem := SI (pi_val i) (pi_open i).
Definition num_neg (n : num) : num :=
  match n with NI z => NI (- z) | NF q => NF (- q)%Q | PInf => NInf | NInf => PInf | NaN => NaN end.

(** formatter of a float literal with its "." at position i (156-165) *)
Definition float_fmt (i : nat) (v : text) : fmt :=
  let i2 := match find_char "e" v with Some j => Some j | None => find_char "E" v end in
  match i2 with
  | Some j => FExp i (j - i - 1)
  | None => FFix i (length v - i - 1)
  end.
(** the unsigned number (136-169): None for the TypeError of line 168 *)
Definition parse_num (v : text) : option (num * fmt) :=
  match find_char "." v with
  | None =>
      match v with
      | [] => None
      | c :: r =>
          if Ascii.eqb c "0" then
            match r with
            | [] => None                     (* value[1] of "0": IndexError, caught *)
            | x :: _ =>
                if Ascii.eqb (to_lower x) "x" then option_map (fun z => (NI z, FHex)) (py_int 16 v)
                else if Ascii.eqb (to_lower x) "o" then option_map (fun z => (NI z, FOct)) (py_int 8 v)
                else if Ascii.eqb (to_lower x) "b" then option_map (fun z => (NI z, FBin)) (py_int 2 v)
                else option_map (fun z => (NI z, FStr)) (py_int 10 v)
            end
          else option_map (fun z => (NI z, FStr)) (py_int 10 v)
      end
  | Some i => option_map (fun q => (NF q, float_fmt i v)) (py_float v)
  end.
(** mSetItem.__init__ with a str and the default formatter (115-181) *)
Definition parse_item (s : text) (complement : bool) : res pitem :=
  let v := strip is_sp s in
  match v with
  | [] => Err IndexError
  | c :: r =>
      if var_start c && negb (text_eqb v (lit "inf")) then
        if forallb var_char v then Ok (PI (VVar (unlit v)) complement FStr) else Err TypeError
      else if num_start c then
        let '(neg, v) := if Ascii.eqb c "-" then (true, strip is_sp r) else if Ascii.eqb c "+" then (false, strip is_sp r) else (false, v) in
        if text_eqb v (lit "inf") then Ok (PI (VNum (if neg : bool then NInf else PInf)) complement FStr)
        else match parse_num v with
             | Some (n, f) => Ok (PI (VNum (if neg : bool then num_neg n else n)) complement f)
             | None => Err TypeError
             end
      else Err TypeError
  end.
(** mSetItem of a number (174-181) *)
Definition num_item (n : num) (complement : bool) : pitem := PI (VNum n) complement FStr.

(** mSetItem.math_repr (258-278) *)
Definition item_repr (fstr : Q -> text) (i : pitem) : res text :=
  match pi_val i with
  | VVar s => Ok (lit s)
  | VNum n =>
      match pi_fmt i, n with
      | FStr, NI z => Ok (show_int 10 [] z)
      | FHex, NI z => Ok (show_int 16 (lit "0x") z)
      | FOct, NI z => Ok (show_int 8 (lit "0o") z)
      | FBin, NI z => Ok (show_int 2 (lit "0b") z)
      | FStr, NF q => Ok (fstr q)
      | FHex, _ | FOct, _ | FBin, _ => Err TypeError
      | FFix w n, NI z => Ok (fix_text w n (inject_Z z))
      | FFix w n, NF q => Ok (fix_text w n q)
      | FExp w n, NI z => Ok (exp_text w n (inject_Z z))
      | FExp w n, NF q => Ok (exp_text w n q)
      | FStr, PInf => Ok (lit "inf")
      | FStr, NInf => Ok (lit "-inf")
      | FStr, NaN => Ok (lit "nan")
      | FFix w _, PInf | FExp w _, PInf => Ok (lpad " " w (lit "inf"))
      | FFix w _, NInf | FExp w _, NInf => Ok (lpad " " w (lit "-inf"))
      | FFix w _, NaN | FExp w _, NaN => Ok (lpad " " w (lit "nan"))
      end
  end.

(** ** mSetInterval, bracket notation *)
(** the interval object with its bounds as printed *)
Record pinterval := PIV { pv_lo : pitem; pv_hi : pitem; pv_int : bool; pv_compl : bool }.
(** mSetInterval.__init__ (777-809) from two items: the bounds are put in order *)
Definition mk_piv (lo hi : pitem) (int_only complement : bool) : pinterval :=
  let '(lo, hi) := match pi_val lo, pi_val hi with
                   | VNum a, VNum b => if num_lt b a then (hi, lo) else (lo, hi)
                   | _, _ => (lo, hi)
                   end in
  PIV lo hi int_only complement.
(** the set object of MathSet.v: membership, cardinality, ... *)
Definition piv_set (p : pinterval) : interval := mk_interval (Some (pi_si (pv_lo p))) (Some (pi_si (pv_hi p))) (pv_int p) (pv_compl p).

(** [(.+)+k] of a regular expression: the longest non-empty run without newline such that [k]
    matches behind it.  (The nested + does not matter: every text that several rounds of .+
    reach is reached by one round, which is tried first.) *)
Fixpoint longest {A} (k : text -> option A) (s : text) : option (text * A) :=
  match s with
  | [] => None
  | c :: r =>
      if Ascii.eqb c newline then None
      else match longest k r with
           | Some (p, a) => Some (c :: p, a)
           | None => match k r with Some a => Some ([c], a) | None => None end
           end
  end.
(** (\)\'|\]\'|\)|\]): open bound?, a quote behind it?, the rest *)
Definition close_re (s : text) : option (bool * bool * text) :=
  match s with
  | c :: r =>
      if Ascii.eqb c ")" || Ascii.eqb c "]" then
        match r with
        | q :: r' => if Ascii.eqb q "'" then Some (Ascii.eqb c ")", true, r') else Some (Ascii.eqb c ")", false, r)
        | [] => Some (Ascii.eqb c ")", false, [])
        end
      else None
  | [] => None
  end.
(** (,|\.\.): ".."?, the rest *)
Definition sep_re (s : text) : option (bool * text) :=
  match s with
  | c :: r =>
      if Ascii.eqb c "," then Some (false, r)
      else if Ascii.eqb c "." then match r with d :: r' => if Ascii.eqb d "." then Some (true, r') else None | [] => None end
      else None
  | [] => None
  end.
(** _REGEX_MATH_REP (630) on a text that begins with "(" or "[": lower, "..", upper, open, quote, rest *)
Definition math_re (s : text) : option (text * (bool * (text * (bool * bool * text)))) :=
  longest (fun r => match sep_re r with
                    | Some (b, r') => option_map (fun u => (b, u)) (longest close_re r')
                    | None => None
                    end) s.
(** spaces in a variable name (981-983, 988-990) *)
Definition var_spaces (i : pitem) (name definition : text) : bool := is_var (pi_val i) && negb (infixb name definition).
(** _parse_math_definition_str (965-997) *)
Definition parse_math (definition : text) (pre : bool) : res (pitem * pitem * bool * bool) :=
  match no_sp definition with
  | [] => Err TypeError
  | c :: s =>
      match (if Ascii.eqb c "(" || Ascii.eqb c "[" then math_re s else None) with
      | None => Err TypeError
      | Some (l, (dots, (u, (uopen, quote, rest)))) =>
          match rest with
          | _ :: _ => Err TypeError
          | [] =>
              match parse_item l (Ascii.eqb c "("), parse_item u uopen with
              | Ok lo, Ok hi => if var_spaces lo l definition || var_spaces hi u definition then Err TypeError
                                else Ok (lo, hi, dots, xorb pre quote)
              | _, _ => Err TypeError
              end
          end
      end
  end.
(** mSetInterval(str) for bracket notation and plain bounds (713-809): leading "!", then "[..]",
    "(..)", or a single lower bound.  None: the text is a builder definition (MathBuild.v). *)
Definition split_bang (s : text) : res (bool * text) :=
  match strip is_sp s with
  | [] => Err IndexError
  | c :: r => if Ascii.eqb c "!" then Ok (true, strip is_sp r) else Ok (false, c :: r)
  end.
Definition interval_str (s : text) : res pinterval :=
  match split_bang s with
  | Err e => Err e
  | Ok (pre, d) =>
      match d with
      | [] => Err IndexError
      | c :: _ =>
          if Ascii.eqb c "[" || Ascii.eqb c "(" then
            match parse_math d pre with
            | Ok (lo, hi, n, c) => Ok (mk_piv lo hi n c)
            | Err e => Err e
            end
          else if Ascii.eqb c "{" then Err Unsupported
          else match parse_item s false with
               | Ok lo => Ok (mk_piv lo (num_item PInf false) false false)
               | Err e => if existsb (fun c => Ascii.eqb c "x" || Ascii.eqb c "n") d then Err Unsupported else Err e
               end
      end
  end.

(** mSetInterval.math_repr (1510-1543) *)
Definition interval_repr (fstr : Q -> text) (p : pinterval) : res text :=
  match item_repr fstr (pv_lo p), item_repr fstr (pv_hi p) with
  | Ok l, Ok u =>
      Ok ((if pv_compl p then lit "!" else []) ++ (if pi_open (pv_lo p) then lit "(" else lit "[") ++ l ++
          (if pv_int p then lit ".." else lit ",") ++ u ++ (if pi_open (pv_hi p) then lit ")" else lit "]"))
  | Err e, _ => Err e
  | _, Err e => Err e
  end.
