(** Builder definition strings of mSetInterval, "{x|1<x<=5}" (src/itertree/itree_mathsets.py
    638-650, 999-1356, and the constructor 713-809 for them). *)
From Coq Require Import QArith Ascii.
From Verif Require Import Base MathSet MathStr.
Local Open Scope Z_scope.

(** ** _REGEX_BUILDER (638-650) *)
(** [a-zA-Z\d\.\_\+\-] *)
Definition vchar (c : ascii) : bool := is_alpha c || is_digit c || Ascii.eqb c "." || Ascii.eqb c "_" || Ascii.eqb c "+" || Ascii.eqb c "-".
Inductive rop := OLe | OLt | OGe | OGt | OEq | ONe | OIn.
(** \<\=|\>\=|\<|\> *)
Definition take_rel (s : text) : option (rop * text) :=
  match s with
  | c :: r =>
      let eq := match r with d :: r' => if Ascii.eqb d "=" then Some r' else None | [] => None end in
      if Ascii.eqb c "<" then Some (match eq with Some r' => (OLe, r') | None => (OLt, r) end)
      else if Ascii.eqb c ">" then Some (match eq with Some r' => (OGe, r') | None => (OGt, r) end)
      else None
  | [] => None
  end.
Definition skip_eq (s : text) : text := match s with d :: r => if Ascii.eqb d "=" then r else s | [] => [] end.
(** \!\=\=|\!\=|\=\=|\=|\<\=|\<|\>\=|\> *)
Definition take_op (s : text) : option (rop * text) :=
  match take_rel s with
  | Some r => Some r
  | None =>
      match s with
      | c :: r =>
          if Ascii.eqb c "=" then Some (OEq, skip_eq r)
          else if Ascii.eqb c "!" then match r with d :: r' => if Ascii.eqb d "=" then Some (ONe, skip_eq r') else None | [] => None end
          else None
      | [] => None
      end
  end.
(** ... |E|e *)
Definition take_op_e (s : text) : option (rop * text) :=
  match take_op s with
  | Some r => Some r
  | None => match s with c :: r => if is_e c then Some (OIn, r) else None | [] => None end
  end.
Fixpoint span (p : ascii -> bool) (s : text) : text * text :=
  match s with c :: r => if p c then let '(a, b) := span p r in (c :: a, b) else ([], s) | [] => ([], []) end.
(** one statement, with the variable x: left text, operator, operator, right text.  The
    alternatives exclude each other up to their order: the left text is the longest run of
    value characters, because no operator begins with one; the second alternative needs an
    empty left text. *)
Record bstmt := ST { st_lv : text; st_lo : option rop; st_uo : option rop; st_uv : text }.
Definition stmt (x : ascii) (t : text) : option bstmt :=
  let '(lv, rest) := span vchar t in
  let alt1 := match take_rel rest with
              | Some (o1, y :: r) =>
                  if Ascii.eqb y x then match take_rel r with Some (o2, uv) => if forallb vchar uv then Some (ST lv (Some o1) (Some o2) uv) else None | None => None end
                  else None
              | _ => None
              end in
  let alt3 := match take_op rest with Some (o, [y]) => if Ascii.eqb y x then Some (ST lv (Some o) None []) else None | _ => None end in
  let alt2 := match t with
              | y :: r => if Ascii.eqb y x then match take_op_e r with Some (o, uv) => if forallb vchar uv then Some (ST [] None (Some o) uv) else None | None => None end else None
              | [] => None
              end in
  match alt1 with Some s => Some s | None => match alt3 with Some s => Some s | None => alt2 end end.
Definition is_c (d c : ascii) : bool := Ascii.eqb c d.
(** the whole expression: optional first statement with its ",", second statement, quote *)
Definition builder_re (s : text) : option (option bstmt * bstmt * bool) :=
  match s with
  | b :: x :: v :: r =>
      if Ascii.eqb b "{" && is_alpha x && Ascii.eqb v "|" then
        let last (t : text) : option (bstmt * bool) :=
          match cut (is_c "}") t with
          | (t2, Some after) =>
              match stmt x t2, after with
              | Some s2, [] => Some (s2, false)
              | Some s2, [q] => if Ascii.eqb q "'" then Some (s2, true) else None
              | _, _ => None
              end
          | _ => None
          end in
        match cut (is_c ",") r with
        | (t1, Some r2) =>
            match stmt x t1, last r2 with
            | Some s1, Some (s2, q) => Some (Some s1, s2, q)
            | _, _ => None
            end
        | (_, None) => match last r with Some (s2, q) => Some (None, s2, q) | None => None end
        end
      else None
  | _ => None
  end.

(** ** numerical domains: _get_set_data (999-1054) *)
(** str.replace *)
Fixpoint replace_fuel (fuel : nat) (a b s : text) : text :=
  match fuel with
  | O => s
  | S f => match s with
           | [] => []
           | c :: r => if prefixb a s then b ++ replace_fuel f a b (skipn (length a) s) else c :: replace_fuel f a b r
           end
  end.
Definition replace (a b : string) (s : text) : text := replace_fuel (S (length s)) (lit a) (lit b) s.
(** a limit: a number or the tuple (number, True) *)
Inductive limit := LNum (n : num) | LOpen (n : num) | LItem (i : pitem).
Definition norm_set (s : text) : text :=
  replace "double" "R" (replace "Double" "R" (replace "float" "R" (replace "Float" "R" (replace "int" "Z" (replace "integer" "Z" (replace "Integer" "Z" s)))))).
Definition get_set_data (s : text) : res (bool * limit * limit) :=
  let s := norm_set s in
  let inf := LNum PInf in let ninf := LNum NInf in let zero := LNum (NI 0) in
  if existsb (fun d => text_eqb s (lit d)) ["bool"; "boolean"; "Boolean"; "N01"; "N10"]%string then Ok (true, zero, LNum (NI 1))
  else match s with
       | [] => Err TypeError
       | c :: r =>
           if Ascii.eqb c "N" then
             match r with
             | [] => Ok (true, zero, inf)
             | [d] => if Ascii.eqb d "+" then Ok (true, LNum (NI 1), inf) else if Ascii.eqb d "0" then Ok (true, zero, inf) else Err TypeError
             | [d; e] => if (Ascii.eqb d "+" && Ascii.eqb e "0") || (Ascii.eqb d "0" && Ascii.eqb e "+") then Ok (true, zero, inf) else Err TypeError
             | _ => Err TypeError
             end
           else
             let isint := Ascii.eqb c "Z" in
             match r with
             | [] => Ok (isint, ninf, inf)
             | [d] => if Ascii.eqb d "+" then Ok (isint, LOpen (NI 0), inf) else if Ascii.eqb d "0" then Ok (isint, ninf, inf)
                      else if Ascii.eqb d "-" then Ok (isint, ninf, LOpen (NI 0)) else Err TypeError
             | [d; e] => if (Ascii.eqb d "+" && Ascii.eqb e "0") || (Ascii.eqb d "0" && Ascii.eqb e "+") then Ok (isint, zero, inf)
                         else if (Ascii.eqb d "-" && Ascii.eqb e "0") || (Ascii.eqb d "0" && Ascii.eqb e "-") then Ok (isint, ninf, zero)
                         else Err TypeError
             | _ => Err TypeError
             end
       end.

(** ** limits *)
(** mSetItem(mSetItem) keeps the inner item as its value, itself closed (65-181: neither str
    nor refused by float()): [BW] *)
Inductive bval := BV (v : sval) | BW (i : sitem).
Record bitem := BI { bi_val : bval; bi_open : bool }.
Definition wrap (i : pitem) : bitem := BI (BW (pi_si i)) false.
Definition direct (i : pitem) : bitem := BI (BV (pi_val i)) (pi_open i).
(** the number that comparisons use; None: variable, the comparison gives None *)
Definition bnum (b : bval) : option num :=
  match b with BV (VNum n) => Some n | BW i => match si_val i with VNum n => Some n | VVar _ => None end | BV (VVar _) => None end.
Definition b_isvar (b : bitem) : bool := match bi_val b with BV (VVar _) => true | _ => false end.
(** _replace_lower_limit (1056-1085), always called with an mSetItem; mSetItem has no
    attribute has_vars (1068) *)
Definition repl_lower (old : option bitem) (new : pitem) (is_equal : bool) : res bitem :=
  match old with
  | None => Ok (wrap new)
  | Some _ => if is_equal then Err TypeError else Err AttributeError
  end.
(** old > n, old >= n *)
Definition b_gt (old : bitem) (n : num) : bool := match bnum (bi_val old) with Some a => num_lt n a | None => false end.
Definition b_ge (old : bitem) (n : num) : bool := match bnum (bi_val old) with Some a => num_le n a | None => false end.
(** _replace_upper_limit (1087-1119) *)
Definition repl_upper (old : option bitem) (new : limit) (is_equal : bool) : res bitem :=
  match old with
  | None => match new with
            | LNum n => Ok (BI (BV (VNum n)) false)
            | LOpen n => Ok (BI (BV (VNum n)) true)
            | LItem i => Ok (wrap i)
            end
  | Some b =>
      if is_equal then Err TypeError
      else if b_isvar b then Err TypeError
      else match new with
           | LOpen n => if b_gt b n then Err TypeError else Ok b       (* mSetItem(tuple): float() refuses *)
           | LNum n => if b_ge b n then Ok (BI (BV (VNum n)) false) else Ok b
           | LItem i =>
               match pi_val i with
               | VVar _ => Err TypeError
               | VNum n => if (if pi_open i then b_gt b n else b_ge b n) then Ok (wrap i) else Ok b
               end
           end
  end.

(** ** _parse_builder_definition_str (1196-1356) *)
(** the local variables lower, upper, is_int, is_equal, pre_complement *)
Record bstate := BS { b_lo : option bitem; b_hi : option bitem; b_int : bool; b_eq : bool; b_pre : bool }.
Definition set_lo (s : bstate) (r : res bitem) : res bstate := match r with Ok i => Ok (BS (Some i) (b_hi s) (b_int s) (b_eq s) (b_pre s)) | Err e => Err e end.
Definition set_hi (s : bstate) (r : res bitem) : res bstate := match r with Ok i => Ok (BS (b_lo s) (Some i) (b_int s) (b_eq s) (b_pre s)) | Err e => Err e end.
(** a lower or upper limit from the text v *)
Definition limit_lo (s : bstate) (v : text) (open : bool) : res bstate := rbind (parse_item v open) (fun i => set_lo s (repl_lower (b_lo s) i (b_eq s))).
Definition limit_hi (s : bstate) (v : text) (open : bool) : res bstate := rbind (parse_item v open) (fun i => set_hi s (repl_upper (b_hi s) (LItem i) (b_eq s))).
(** element of a domain (1261-1279, 1346-1350); [eq]: the flag handed over *)
Definition limit_in (s : bstate) (v : text) (eq : bool) : res bstate :=
  rbind (get_set_data v) (fun '(isint, l, u) =>
    rbind (repl_upper (b_lo s) l eq) (fun lo => rbind (repl_upper (b_hi s) u eq) (fun hi =>
      Ok (BS (Some lo) (Some hi) isint (b_eq s) (b_pre s))))).
(** equal / not equal in the last statement (1308-1320, 1333-1345) *)
Definition limit_eq (s : bstate) (v : text) (negate : bool) : res bstate :=
  match b_lo s, b_hi s with
  | None, None => rbind (parse_item v false) (fun i => Ok (BS (Some (direct i)) (Some (direct i)) (b_int s) true (xorb negate (b_pre s))))
  | _, _ => Err TypeError
  end.
Definition is_eq_op (o : option rop) : bool := match o with Some OEq | Some ONe => true | _ => false end.
(** first statement (1202-1282) *)
Definition eval1 (s1 s2 : bstmt) (s : bstate) : res bstate :=
  rbind (match st_lo s1 with
         | None => Ok s
         | Some OGe => limit_hi s (st_lv s1) false
         | Some OGt => limit_hi s (st_lv s1) true
         | Some OLe => limit_lo s (st_lv s1) false
         | Some OLt => limit_lo s (st_lv s1) true
         | Some _ => Err TypeError
         end) (fun s =>
  match st_uo s1 with
  | None => Ok s
  | Some OGe => limit_lo s (st_uv s1) false
  | Some OGt => limit_lo s (st_uv s1) true
  | Some OLe => limit_hi s (st_uv s1) false
  | Some OLt => limit_hi s (st_uv s1) true
  | Some OIn => if is_eq_op (st_lo s2) || is_eq_op (st_uo s2) then Err TypeError else limit_in s (st_uv s1) false
  | Some _ => Err TypeError
  end).
(** last statement (1290-1352) *)
Definition eval2 (s2 : bstmt) (s : bstate) : res bstate :=
  rbind (match st_lo s2 with
         | None => Ok s
         | Some OGe => limit_hi s (st_lv s2) false
         | Some OGt => limit_hi s (st_lv s2) true
         | Some OLe => limit_lo s (st_lv s2) false
         | Some OLt => limit_lo s (st_lv s2) true
         | Some OEq => limit_eq s (st_lv s2) false
         | Some ONe => limit_eq s (st_lv s2) true
         | Some OIn => Err TypeError
         end) (fun s =>
  match st_uo s2 with
  | None => Ok s
  | Some OGe => limit_lo s (st_uv s2) false
  | Some OGt => limit_lo s (st_uv s2) true
  | Some OLe => limit_hi s (st_uv s2) false
  | Some OLt => limit_hi s (st_uv s2) true
  | Some OEq => limit_eq s (st_uv s2) false
  | Some ONe => limit_eq s (st_uv s2) true
  | Some OIn => limit_in s (st_uv s2) (b_eq s)
  end).
Definition empty_t (t : text) : bool := match t with [] => true | _ => false end.
Definition parse_builder (definition : text) (pre : bool) : res (bstate * bool) :=
  match builder_re (no_sp definition) with
  | None => Err TypeError
  | Some (s1, s2, quote) =>
      let s0 := BS None None false false pre in
      rbind (match s1 with
             | Some s1 => if empty_t (st_lv s1) && empty_t (st_uv s1) then Ok s0 else eval1 s1 s2 s0
             | None => Ok s0
             end) (fun s => rbind (eval2 s2 s) (fun s => Ok (s, xorb (b_pre s) quote)))
  end.

(** ** the interval object *)
Record binterval := BIV { bv_lo : bitem; bv_hi : bitem; bv_lstrict : bool; bv_ustrict : bool; bv_int : bool; bv_compl : bool }.
(** upper.value == lower.value: an inner item compares with its own __eq__ (333-348) *)
Definition bval_eq (a b : bval) : bool :=
  match a, b with
  | BV x, BV y => val_eq x y
  | BW i, BW j => sitem_eq i j
  | BW i, BV y => xorb (si_open i) (val_eq (si_val i) y)
  | BV x, BW j => xorb (si_open j) (val_eq (si_val j) x)
  end.
(** mSetInterval.__init__ (777-809) *)
Definition mk_biv (lower upper : option bitem) (int_only complement : bool) : binterval :=
  let lo := match lower with Some i => i | None => BI (BV (VNum NInf)) false end in
  let hi := match upper with Some i => i | None => BI (BV (VNum PInf)) false end in
  let '(lo, hi) := match bnum (bi_val lo), bnum (bi_val hi) with
                   | Some a, Some b => if num_lt b a then (hi, lo) else (lo, hi)
                   | _, _ => (lo, hi)
                   end in
  if bval_eq (bi_val hi) (bi_val lo) && (negb (bi_open lo) || negb (bi_open hi)) then BIV lo hi false false int_only complement
  else BIV lo hi (bi_open lo) (bi_open hi) int_only complement.
(** the limits in a comparison: variables of the set are replaced (947-963), those hidden in an
    inner item are not *)
Definition bsubst (d : vdict) (b : bval) : bval := match b with BV v => BV (subst_val d v) | BW _ => b end.
(** comparison with an inner item: mSetItem.__le__ ... give None for a variable *)
Definition bcmp_lo (strict : bool) (b : bval) (v : num) : res bool :=
  match b with BV s => cmp_lo strict s v | BW i => match si_val i with VNum a => Ok (op_le strict a v) | VVar _ => Ok false end end.
Definition bcmp_hi (strict : bool) (b : bval) (v : num) : res bool :=
  match b with BV s => cmp_hi strict s v | BW i => match si_val i with VNum a => Ok (op_le strict v a) | VVar _ => Ok false end end.
(** mSetInterval.__contains__ (1358-1409) for a number *)
Definition b_contains (i : binterval) (v : num) (d : vdict) : res bool :=
  rbind (if bv_int i then integral v else Ok true) (fun isint =>
    rbind (if isint : bool then
             rbind (bcmp_lo (bv_lstrict i) (bsubst d (bi_val (bv_lo i))) v) (fun b => if b : bool then bcmp_hi (bv_ustrict i) (bsubst d (bi_val (bv_hi i))) v else Ok false)
           else Ok false)
      (fun r => Ok (xorb (bv_compl i) r))).
(** mSetInterval(str) (713-757): builder notation, and the short forms "x<5" and "n<5" *)
Definition builder_of (d : text) (pre : bool) : res binterval :=
  rbind (parse_builder d pre) (fun '(s, c) => Ok (mk_biv (b_lo s) (b_hi s) (b_int s) c)).
Definition to_type_error {A} (r : res A) : res A := match r with Ok a => Ok a | Err _ => Err TypeError end.
Definition builder_str (s : text) : res binterval :=
  match split_bang s with
  | Err e => Err e
  | Ok (pre, d) =>
      match d with
      | [] => Err IndexError
      | c :: _ =>
          if Ascii.eqb c "[" || Ascii.eqb c "(" then Err Unsupported     (* bracket notation: interval_str *)
          else if Ascii.eqb c "{" then builder_of d pre
          else match parse_item s false with
               | Ok _ => Err Unsupported                                 (* a single bound: interval_str *)
               | Err e =>
                   if existsb (is_c "x") d then to_type_error (builder_of (lit "{x|" ++ d ++ lit "}") pre)
                   else if existsb (is_c "n") d then to_type_error (builder_of (lit "{n|neZ," ++ d ++ lit "}") pre)
                   else Err e
               end
      end
  end.
