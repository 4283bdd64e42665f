(** Mathematical sets (src/itertree/itree_mathsets.py): mSetItem, mSetInterval, mSetRoster,
    mSetCombine.  Here sets are built from bound objects; definition strings
    ("[1,3)", "{x|x<3}") and the formatters of the printed form are in MathStr and MathBuild. *)
From Coq Require Import QArith.
From Verif Require Import Base.
Local Open Scope Z_scope.

(** Python numbers: int, float (as the rational it stands for), inf, -inf, nan.  Comparison in
    Python is exact also between int and float. *)
Inductive num := NI (z : Z) | NF (q : Q) | PInf | NInf | NaN.
Definition nq (n : num) : Q := match n with NI z => inject_Z z | NF q => q | _ => 0%Q end.
(** a <= b *)
Definition num_le (a b : num) : bool :=
  match a, b with
  | NaN, _ | _, NaN => false
  | NInf, _ | _, PInf => true
  | PInf, _ | _, NInf => false
  | _, _ => Qle_bool (nq a) (nq b)
  end.
(** a < b, a == b *)
Definition num_lt (a b : num) : bool := num_le a b && negb (num_le b a).
Definition num_eq (a b : num) : bool := num_le a b && num_le b a.

(** mSetItem (80-181): a number or a variable name, and the open/closed flag *)
Inductive sval := VNum (n : num) | VVar (s : string).
Record sitem := SI { si_val : sval; si_open : bool }.
Definition is_var (v : sval) : bool := match v with VVar _ => true | _ => false end.
Definition val_eq (a b : sval) : bool :=
  match a, b with VNum m, VNum n => num_eq m n | VVar s, VVar t => String.eqb s t | _, _ => false end.
(** mSetItem.__eq__ (333-348) *)
Definition sitem_eq (a b : sitem) : bool :=
  if xorb (si_open a) (si_open b) then negb (val_eq (si_val a) (si_val b)) else val_eq (si_val a) (si_val b).

(** mSetInterval; [iv_lstrict]: the lower operator is [lt] instead of [le], likewise [gt]/[ge] *)
Record interval := IV { iv_lo : sitem; iv_hi : sitem; iv_lstrict : bool; iv_ustrict : bool; iv_int : bool; iv_compl : bool }.
(** mSetInterval.__init__ (777-809); None stands for a missing bound *)
Definition mk_interval (lower upper : option sitem) (int_only complement : bool) : interval :=
  let lo := match lower with Some i => i | None => SI (VNum NInf) false end in
  let hi := match upper with Some i => i | None => SI (VNum PInf) false end in
  let '(lo, hi) := match si_val lo, si_val hi with
                   | VNum a, VNum b => if num_lt b a then (hi, lo) else (lo, hi)
                   | _, _ => (lo, hi)
                   end in
  let ls := si_open lo in
  let us := si_open hi in
  if val_eq (si_val hi) (si_val lo) && (negb ls || negb us) then IV lo hi false false int_only complement
  else IV lo hi ls us int_only complement.
Definition iv_vars (i : interval) : bool := is_var (si_val (iv_lo i)) || is_var (si_val (iv_hi i)).

(** values that are tested: numbers, strings, iterables.  The pair (value, vars_dict)
    (1372, 1691, 2023) is not modelled, the dictionary is given as the second argument. *)
Inductive tval := TNum (n : num) | TStr (s : string) | TSeq (l : list tval).
Definition vdict := option (string -> option num).

(** _get_lower_upper (947-963) *)
Definition subst_val (d : vdict) (v : sval) : sval :=
  match v, d with
  | VVar s, Some f => match f s with Some n => VNum n | None => v end
  | _, _ => v
  end.
Definition limits (d : vdict) (i : interval) : sval * sval := (subst_val d (si_val (iv_lo i)), subst_val d (si_val (iv_hi i))).

(** comparison operators; a variable name against a number raises TypeError *)
Definition op_le (strict : bool) (a b : num) : bool := if strict then num_lt a b else num_le a b.
Definition cmp_lo (strict : bool) (lo : sval) (v : num) : res bool :=
  match lo with VNum a => Ok (op_le strict a v) | VVar _ => Err TypeError end.
Definition cmp_hi (strict : bool) (hi : sval) (v : num) : res bool :=
  match hi with VNum b => Ok (op_le strict v b) | VVar _ => Err TypeError end.
(** int(value) == value (1388) *)
Definition integral (n : num) : res bool :=
  match n with
  | NI _ => Ok true
  | NF q => Ok (Z.eqb (Z.modulo (Qnum q) (Zpos (Qden q))) 0)
  | PInf | NInf => Err OverflowError
  | NaN => Err ValueError
  end.
Definition rbind {A B} (r : res A) (k : A -> res B) : res B := match r with Ok a => k a | Err e => Err e end.
(** all(... for v in value): stops at the first False, errors propagate *)
Fixpoint res_all {A} (f : A -> res bool) (l : list A) : res bool :=
  match l with
  | [] => Ok true
  | v :: r => rbind (f v) (fun b => if b then res_all f r else Ok false)
  end.
(** the comparison of __contains__ (1386-1409) for one number *)
Definition iv_num (i : interval) (lims : sval * sval) (v : num) : res bool :=
  rbind (if iv_int i then integral v else Ok true) (fun isint =>
    rbind (if isint : bool then
             rbind (cmp_lo (iv_lstrict i) (fst lims) v) (fun b => if b : bool then cmp_hi (iv_ustrict i) (snd lims) v else Ok false)
           else Ok false)
      (fun r => Ok (xorb (iv_compl i) r))).
(** mSetInterval.__contains__ (1358-1409) *)
Fixpoint iv_test (i : interval) (lims : sval * sval) (v : tval) {struct v} : res bool :=
  match v with
  | TStr _ => Ok (iv_compl i)
  | TNum n => iv_num i lims n
  | TSeq l => (fix all (l : list tval) : res bool :=
                 match l with
                 | [] => Ok true
                 | v :: r => rbind (iv_test i lims v) (fun b => if b : bool then all r else Ok false)
                 end) l
  end.
Definition iv_contains (i : interval) (v : tval) (d : vdict) : res bool := iv_test i (limits d i) v.

(** mSetRoster.__init__ (1548-1618) from mSetItem objects: open items are dropped, equal
    ones kept once *)
Record roster := RO { ro_items : list sval; ro_compl : bool }.
Definition has_val (l : list sval) (v : sval) : bool := existsb (fun w => val_eq w v) l.
Definition add_val (l : list sval) (v : sval) : list sval := if has_val l v then l else l ++ [v].
Definition mk_roster (items : list sitem) (complement : bool) : roster :=
  RO (fold_left add_val (map si_val (filter (fun i => negb (si_open i)) items)) []) complement.
(** the variables replaced by their values (1693-1697) *)
Definition ro_repl (r : roster) (d : vdict) : list sval :=
  match d with
  | None => []
  | Some f => flat_map (fun v => match v with VVar s => match f s with Some n => [VNum n] | None => [] end | _ => [] end) (ro_items r)
  end.
(** mSetRoster.__contains__ (1676-1705) *)
Fixpoint ro_test (r : roster) (repl : list sval) (v : tval) {struct v} : bool :=
  match v with
  | TNum n => xorb (ro_compl r) (has_val (ro_items r) (VNum n) || has_val repl (VNum n))
  | TStr s => xorb (ro_compl r) (has_val (ro_items r) (VVar s) || has_val repl (VVar s))
  | TSeq l => (fix all (l : list tval) : bool := match l with [] => true | v :: l => ro_test r repl v && all l end) l
  end.
Definition ro_contains (r : roster) (v : tval) (d : vdict) : bool := ro_test r (ro_repl r d) v.

(** mSetCombine; members that are no mSet objects are not modelled *)
Inductive mset := MInt (i : interval) | MRos (r : roster) | MComb (l : list mset) (is_union complement : bool).
(** mSetCombine.__contains__ (2007-2054) *)
Fixpoint contains (s : mset) (v : tval) (d : vdict) {struct s} : res bool :=
  match s with
  | MInt i => iv_contains i v d
  | MRos r => Ok (ro_contains r v d)
  | MComb l u c =>
      if u then
        (fix go (l : list mset) (e : option exn) : res bool :=
           match l with
           | [] => match e with Some x => Err x | None => Ok c end
           | i :: r => match contains i v d with
                       | Ok true => Ok (negb c)
                       | Ok false => go r e
                       | Err x => go r (Some x)
                       end
           end) l None
      else
        (fix go (l : list mset) (e : option exn) : res bool :=
           match l with
           | [] => match e with Some x => Err x | None => Ok (negb c) end
           | i :: r => match contains i v d with
                       | Ok false => Ok c
                       | Ok true => go r e
                       | Err x => go r (Some x)
                       end
           end) l None
  end.
(** constructor (1826-1857) with set objects: at least one *)
Definition mk_comb (l : list mset) (is_union complement : bool) : res mset :=
  match l with [] => Err TypeError | _ => Ok (MComb l is_union complement) end.
(** __add__, __sub__ of all sets (439-445) *)
Definition mset_add (a b : mset) : res mset := mk_comb [a; b] true false.
Definition mset_sub (a b : mset) : res mset := mk_comb [a; b] false false.
(** switch_complement (467-475) *)
Definition switch (s : mset) : mset :=
  match s with
  | MInt (IV lo hi a b n c) => MInt (IV lo hi a b n (negb c))
  | MRos (RO l c) => MRos (RO l (negb c))
  | MComb l u c => MComb l u (negb c)
  end.

(** ** cardinality and iteration *)
Definition num_plus (n : num) (k : Z) : num :=
  match n with NI z => NI (z + k) | NF q => NF (q + inject_Z k)%Q | _ => n end.
Definition num_sub (a b : num) : num :=
  match a, b with
  | NaN, _ | _, NaN => NaN
  | PInf, PInf | NInf, NInf => NaN
  | PInf, _ | _, NInf => PInf
  | NInf, _ | _, PInf => NInf
  | NI x, NI y => NI (x - y)
  | _, _ => NF (nq a - nq b)%Q
  end.
Definition num_of (v : sval) : num := match v with VNum n => n | VVar _ => NaN end.
(** first and last number of an integer interval (882-889, 1449-1456) *)
Definition iv_first (i : interval) : num := let n := num_of (si_val (iv_lo i)) in if si_open (iv_lo i) then num_plus n 1 else n.
Definition iv_last (i : interval) : num := let n := num_of (si_val (iv_hi i)) in if si_open (iv_hi i) then num_plus n (-1) else n.
(** _cardinality_without_complement (868-903) *)
Definition iv_card0 (i : interval) : num :=
  if negb (iv_vars i) && iv_int i then
    let diff := num_plus (num_sub (iv_last i) (iv_first i)) 1 in
    if num_lt diff (NI 0) then NI 0
    else if num_eq diff (NI 0) && negb (si_open (iv_hi i) && si_open (iv_lo i)) then NI 1
    else diff
  else if val_eq (si_val (iv_hi i)) (si_val (iv_lo i)) then
    if si_open (iv_lo i) && si_open (iv_hi i) then NI 0 else NI 1
  else PInf.
(** cardinality (905-921) *)
Definition iv_card (i : interval) : num :=
  let c := iv_card0 i in
  if iv_compl i then
    if num_eq c PInf && val_eq (si_val (iv_lo i)) (VNum NInf) && val_eq (si_val (iv_hi i)) (VNum PInf) then NI 0 else PInf
  else c.
Definition iv_empty (i : interval) : bool := negb (iv_compl i) && num_eq (iv_card0 i) (NI 0).
(** __len__ (429-437) calls the property's value: TypeError for every set *)
Definition mset_len (s : mset) : res num := Err TypeError.
(** __iter__ (1446-1466); range() needs ints *)
Definition iv_iter (i : interval) : res (list num) :=
  if negb (iv_compl i) && iv_int i && negb (iv_vars i) && negb (val_eq (si_val (iv_hi i)) (VNum PInf)) && negb (val_eq (si_val (iv_lo i)) (VNum NInf)) then
    let a := iv_first i in
    let b := iv_last i in
    if num_lt b a then Ok []
    else if num_eq a b then Ok [a]
    else match a, b with
         | NI x, NI y => Ok (map (fun k => NI (x + Z.of_nat k)) (seq 0 (Z.to_nat (y + 1 - x))))
         | _, _ => Err TypeError
         end
  else Ok [].
(** mSetRoster.cardinality (1634-1646) *)
Definition ro_card (r : roster) : num := if ro_compl r then PInf else NI (Z.of_nat (length (ro_items r))).
(** mSetCombine.cardinality (1945-1980): the complement is ignored *)
Definition num_add (a b : num) : num :=
  match a, b with
  | NaN, _ | _, NaN => NaN
  | PInf, NInf | NInf, PInf => NaN
  | PInf, _ | _, PInf => PInf
  | NInf, _ | _, NInf => NInf
  | NI x, NI y => NI (x + y)
  | _, _ => NF (nq a + nq b)%Q
  end.
Fixpoint card (s : mset) : num :=
  match s with
  | MInt i => iv_card i
  | MRos r => ro_card r
  | MComb l u _ => if u then fold_left (fun c i => num_add c (card i)) l (NI 0)
                   else fold_left (fun c i => if num_lt (card i) c then card i else c) l PInf
  end.

(** ** equality *)
(** mSetInterval.__eq__ (1441-1444) compares get_init_args() (1496-1508) *)
Definition iv_args (full : bool) (i : interval) : sitem * sitem * option bool * option bool :=
  if full || iv_compl i then (iv_lo i, iv_hi i, Some (iv_int i), Some true)
  else if iv_int i then (iv_lo i, iv_hi i, Some true, None)
  else (iv_lo i, iv_hi i, None, None).
Definition optb_eq (a b : option bool) : bool := match a, b with Some x, Some y => Bool.eqb x y | None, None => true | _, _ => false end.
Definition iv_eq (i j : interval) : bool :=
  let '(l1, u1, n1, c1) := iv_args false i in
  let '(l2, u2, n2, c2) := iv_args false j in
  sitem_eq l1 l2 && sitem_eq u1 u2 && optb_eq n1 n2 && optb_eq c1 c2.
(** mSetRoster.__eq__ (1736-1752); against other kinds of sets always False *)
Definition ro_eq (r t : roster) : bool :=
  Nat.eqb (length (ro_items r)) (length (ro_items t)) && forallb (has_val (ro_items t)) (ro_items r) && Bool.eqb (ro_compl r) (ro_compl t).
(** mSetCombine.__eq__ (1859-1872): zip stops at the shorter list *)
Fixpoint mset_eq (s t : mset) {struct s} : bool :=
  match s, t with
  | MInt i, MInt j => iv_eq i j
  | MRos a, MRos b => ro_eq a b
  | MComb l u c, MComb m u' c' =>
      (fix zip (l m : list mset) : bool :=
         match l, m with
         | a :: l, b :: m => mset_eq a b && zip l m
         | _, _ => true
         end) l m && Bool.eqb c c' && Bool.eqb u u'
  | _, _ => false
  end.

(** ** get_init_args and re-construction *)
Definition iv_rebuild (full : bool) (i : interval) : interval :=
  let '(l, u, n, c) := iv_args full i in
  mk_interval (Some l) (Some u) (match n with Some b => b | None => false end) (match c with Some b => b | None => false end).
(** mSetRoster.get_init_args (1780-1790): the items, then the complement flag *)
Inductive rarg := RItem (i : sitem) | RFlag (b : bool).
Definition ro_args (full : bool) (r : roster) : list rarg :=
  let items := map (fun v => RItem (SI v false)) (ro_items r) in
  if full || ro_compl r then items ++ [RFlag (ro_compl r)] else items.
(** mSetRoster( *args) with mSetItem objects and flags (1561-1618): the trailing flag is taken
    away (1563-1566), the other arguments are items; a flag elsewhere becomes the number 0 or 1
    (mSetItem(True)), and one left at the end of several arguments raises, since there [item] is
    an mSetItem (1606-1607) *)
Definition rarg_item (a : rarg) : sitem := match a with RItem i => i | RFlag b => SI (VNum (NI (if b then 1 else 0))) false end.
Definition mk_roster_args (args : list rarg) : res roster :=
  let '(args, c) := match rev args with RFlag b :: r => (rev r, b) | _ => (args, false) end in
  match rev args with
  | RFlag _ :: _ :: _ => Err TypeError
  | _ => Ok (mk_roster (map rarg_item args) c)
  end.
Definition ro_rebuild (full : bool) (r : roster) : res roster := mk_roster_args (ro_args full r).

(** mSetCombine.get_init_args (2131-2146); a single member is followed by None *)
Inductive carg := CSet (s : mset) | CNone | CFlag (b : bool).
Definition comb_args (full : bool) (l : list mset) (u c : bool) : list carg :=
  let items := match l with [s] => [CSet s; CNone] | _ => map CSet l end in
  if c || full then items ++ [CFlag u; CFlag c]
  else if negb u then items ++ [CFlag u]
  else items.
(** mSetCombine( *args) (1826-1857): up to two trailing flags; what remains are the members *)
Definition mk_comb_args (args : list carg) : res (list carg * bool * bool) :=
  let '(args, u) := match rev args with CFlag b :: r => (rev r, b) | _ => (args, true) end in
  let '(args, u, c) := match rev args with CFlag b :: r => (rev r, b, u) | _ => (args, u, false) end in
  match args with [] => Err TypeError | _ => Ok (args, u, c) end.
(** __contains__ (2007-2054) when members may be None (or a flag): [value in None] raises
    TypeError outside of the try block *)
Fixpoint comb_in (l : list carg) (u c : bool) (e : option exn) (v : tval) (d : vdict) : res bool :=
  match l with
  | [] => match e with Some x => Err x | None => Ok (if u then c else negb c) end
  | CSet s :: r => match contains s v d with
                   | Ok b => if Bool.eqb b u then Ok (if u then negb c else c) else comb_in r u c e v d
                   | Err x => comb_in r u c (Some x) v d
                   end
  | _ :: _ => Err TypeError
  end.
Definition comb_rebuild_contains (full : bool) (l : list mset) (u c : bool) (v : tval) (d : vdict) : res bool :=
  match mk_comb_args (comb_args full l u c) with
  | Ok (l, u, c) => comb_in l u c None v d
  | Err x => Err x
  end.
