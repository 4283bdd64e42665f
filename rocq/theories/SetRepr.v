(** repr() of mathematical sets and what eval() makes of it (src/itertree/itree_mathsets.py:
    mSetItem 363-382, mSetInterval 1411-1430, mSetRoster 1707-1722, mSetCombine 2056-2071).

    The text is a list of Python tokens; numbers (with their sign), strings and format strings are
    one token each, white space is not modelled.  Intervals in builder notation are not modelled
    (CBld).  No proofs in this file. *)
From Coq Require Import QArith Ascii.
From Verif Require Import Base MathSet MathStr MathBuild RosterStr CombStr.
Import ListNotations.
Local Open Scope Z_scope.
Local Open Scope string_scope.
Local Open Scope list_scope.

Inductive stok :=
| TName (s : string) | TOpen | TClose | TComma
| KNum (n : num)       (* literal of a finite number *)
| KStr (s : string) | TFmt (f : fmt) (* string literal; a format string *)
| TBool (b : bool) | TNone
| TJunk.               (* "<built-in function hex>" *)

Fixpoint sep_toks (l : list (list stok)) : list stok := match l with [] => [] | [a] => a | a :: r => a ++ TComma :: sep_toks r end.
(** a formatter: str is left out by get_init_args, hex, oct and bin are functions *)
Definition fmt_tok (f : fmt) : stok := match f with FStr => TName "str" | FHex | FOct | FBin => TJunk | _ => TFmt f end.
(** the value (370-375) *)
Definition val_tok (v : sval) : stok :=
  match v with
  | VVar s => KStr s
  | VNum PInf => KStr "inf"
  | VNum NInf => KStr "-inf"
  | VNum NaN => TName "nan"
  | VNum n => KNum n
  end.
(** mSetItem.__repr__ with get_init_args (241-256) *)
Definition item_args (i : pitem) : list stok :=
  match pi_fmt i with
  | FStr => if pi_open i then [TBool true] else []
  | f => [TBool (pi_open i); fmt_tok f]
  end.
Definition item_toks (i : pitem) : list stok :=
  [TName "mSetItem"; TOpen] ++ sep_toks (map (fun t => [t]) (val_tok (pi_val i) :: item_args i)) ++ [TClose].
(** mSetInterval.__repr__ *)
Definition piv_toks (p : pinterval) : list stok :=
  [TName "mSetInterval"; TOpen] ++ item_toks (pv_lo p) ++ [TComma] ++ item_toks (pv_hi p)
  ++ (if pv_compl p then (if pv_int p then [TComma; TBool true] else [TComma; TBool false]) ++ [TComma; TBool true; TClose]
      else if pv_int p then [TComma; TBool true; TClose] else [TClose]).
(** mSetRoster.__repr__: the printed Python set without its braces *)
Definition ros_toks (r : proster) : list stok :=
  [TName "mSetRoster"; TOpen] ++ sep_toks (map item_toks (pr_items r)) ++ (if pr_compl r then [TComma; TBool true; TClose] else [TClose]).
(** mSetCombine.__repr__ with get_init_args (2131-2146) *)
Definition comb_flags (u c : bool) : list (list stok) := if c then [[TBool u]; [TBool c]] else if u then [] else [[TBool u]].
Fixpoint set_toks (s : cset) : list stok :=
  match s with
  | CInt p => piv_toks p
  | CBld _ => [TJunk]
  | CRos r => ros_toks r
  | CCmb l u c =>
      [TName "mSetCombine"; TOpen]
      ++ sep_toks ((match l with [a] => [set_toks a; [TNone]] | _ => map set_toks l end) ++ comb_flags u c) ++ [TClose]
  end.

(** ** eval *)
Inductive sx := XNum (n : num) | XStr (s : string) | XFmt (f : fmt) | XBool (b : bool) | XNone | XName (s : string) | XCall (f : string) (args : list sx).
Fixpoint p_expr (n : nat) (l : list stok) : option (sx * list stok) :=
  match n with
  | O => None
  | S n =>
    match l with
    | KNum a :: r => Some (XNum a, r)
    | KStr s :: r => Some (XStr s, r)
    | TFmt f :: r => Some (XFmt f, r)
    | TBool b :: r => Some (XBool b, r)
    | TNone :: r => Some (XNone, r)
    | TName f :: TOpen :: r => match p_args n r with Some (es, r') => Some (XCall f es, r') | None => None end
    | TName s :: r => Some (XName s, r)
    | _ => None
    end
  end
with p_args (n : nat) (l : list stok) : option (list sx * list stok) :=      (* up to ")" *)
  match n with
  | O => None
  | S n =>
    match l with
    | TClose :: r => Some ([], r)
    | _ => match p_expr n l with
           | Some (e, TComma :: r) => match p_args n r with Some (es, r') => Some (e :: es, r') | None => None end
           | Some (e, TClose :: r) => Some ([e], r)
           | _ => None
           end
    end
  end.

Section MapAll.
  Context {A B : Type} (f : A -> res B).
  Fixpoint map_all (l : list A) : res (list B) :=
    match l with [] => Ok [] | x :: r => rbind (f x) (fun y => rbind (map_all r) (fun ys => Ok (y :: ys))) end.
End MapAll.
Inductive sv := SNum (n : num) | SStr (s : string) | SFmt (f : fmt) | SBool (b : bool) | SNone | SItem (i : pitem) | SSet (s : cset).
(** float(z) overflows (177) *)
Definition too_big (n : num) : bool := match n with NI z => (2 ^ 1024 - 2 ^ 970 <=? Z.abs z)%Z | _ => false end.
(** mSetItem(value, complement, formatter) (102-181): a formatter of the text replaces the given one
    for hex, oct, bin, and the default one for floats *)
Definition mk_item (v : sv) (c : bool) (f : fmt) : res pitem :=
  match v with
  | SNum n => if too_big n then Err OverflowError else Ok (PI (VNum n) c f)
  | SStr s => match parse_item (lit s) c with
              | Ok p => Ok (PI (pi_val p) (pi_open p)
                              (match pi_fmt p with FStr => f | FFix _ _ | FExp _ _ => match f with FStr => pi_fmt p | _ => f end | g => g end))
              | Err e => Err e
              end
  | _ => Err Unsupported
  end.
Definition item_call (args : list sv) : res pitem :=
  match args with
  | [v] => mk_item v false FStr
  | [v; SBool c] => mk_item v c FStr
  | [v; SBool c; SFmt f] => mk_item v c f
  | _ => Err Unsupported
  end.
(** mSetInterval(lower, upper, int_only, complement) (674-809) with two items *)
Definition interval_call (args : list sv) : res cset :=
  match args with
  | [SItem lo; SItem hi] => Ok (CInt (mk_piv lo hi false false))
  | [SItem lo; SItem hi; SBool n] => Ok (CInt (mk_piv lo hi n false))
  | [SItem lo; SItem hi; SBool n; SBool c] => Ok (CInt (mk_piv lo hi n c))
  | _ => Err Unsupported
  end.
(** a trailing flag *)
Definition unflag (args : list sv) : list sv * option bool :=
  match rev args with SBool b :: r => (rev r, Some b) | _ => (args, None) end.
Definition as_item (v : sv) : res pitem := match v with SItem i => Ok i | _ => Err Unsupported end.
Definition as_set (v : sv) : res cset := match v with SSet s => Ok s | SNone => Err TypeError | _ => Err Unsupported end.
(** mSetRoster( *definition) (1548-1618) with items and a trailing flag; open items are dropped *)
Definition mk_pr (items : list pitem) (c : bool) : proster := PR (item_set (filter (fun i => negb (pi_open i)) items)) c.
Definition roster_call (args : list sv) : res cset :=
  let '(args, c) := unflag args in
  rbind (map_all as_item args) (fun items => Ok (CRos (mk_pr items (match c with Some b => b | None => false end)))).
(** mSetCombine( *definition) (1826-1857) with sets and up to two trailing flags.  A member None makes a
    set whose membership tests raise TypeError (C53_single_refuted); here the call fails. *)
Definition comb_call (args : list sv) : res cset :=
  let '(args, a) := unflag args in
  let u := match a with Some b => b | None => true end in
  match args with
  | [] => Err TypeError
  | _ =>
      let '(args, b) := unflag args in
      let '(u, c) := match b with Some b => (b, u) | None => (u, false) end in
      match args with
      | [] => Err TypeError
      | _ => rbind (map_all as_set args) (fun l => Ok (CCmb l u c))
      end
  end.
Definition call (f : string) (args : list sv) : res sv :=
  if String.eqb f "mSetItem" then rbind (item_call args) (fun i => Ok (SItem i))
  else if String.eqb f "mSetInterval" then rbind (interval_call args) (fun s => Ok (SSet s))
  else if String.eqb f "mSetRoster" then rbind (roster_call args) (fun s => Ok (SSet s))
  else if String.eqb f "mSetCombine" then rbind (comb_call args) (fun s => Ok (SSet s))
  else Err Unsupported.
Fixpoint run (e : sx) : res sv :=
  match e with
  | XNum n => Ok (SNum n) | XStr s => Ok (SStr s) | XFmt f => Ok (SFmt f) | XBool b => Ok (SBool b) | XNone => Ok SNone
  | XName _ => Err NameError
  | XCall f args => rbind (map_all run args) (call f)
  end.
(** eval(text) *)
Definition eval (l : list stok) : res sv :=
  match p_expr (2 * length l + 2) l with
  | Some (e, []) => run e
  | _ => Err SyntaxError
  end.
