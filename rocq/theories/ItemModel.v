(** mSetItem as a value of its own: comparison, equality, hash, float
    (src/itertree/itree_mathsets.py 280-370, 403-406). *)
From Coq Require Import QArith.
From Verif Require Import Base MathSet.
Local Open Scope Z_scope.

(** what an item is compared with: another item or a plain number or name *)
Inductive operand := OItem (i : sitem) | OVal (v : sval).
Definition op_val (o : operand) : sval := match o with OItem i => si_val i | OVal v => v end.
(** __lt__, __le__, __gt__, __ge__ (280-331): None when a variable is involved; a number
    against a plain str raises TypeError *)
Definition item_cmp (f : num -> num -> bool) (a : sitem) (b : operand) : res (option bool) :=
  match si_val a, b with
  | VVar _, _ => Ok None
  | VNum _, OItem (SI (VVar _) _) => Ok None
  | VNum x, OItem (SI (VNum y) _) => Ok (Some (f x y))
  | VNum x, OVal (VNum y) => Ok (Some (f x y))
  | VNum _, OVal (VVar _) => Err TypeError
  end.
Definition item_lt := item_cmp num_lt.
Definition item_le := item_cmp num_le.
Definition item_gt := item_cmp (fun x y => num_lt y x).
Definition item_ge := item_cmp (fun x y => num_le y x).
(** __eq__ (333-348) *)
Definition item_eq (a : sitem) (b : operand) : bool :=
  match b with
  | OItem b => sitem_eq a b
  | OVal v => if si_open a then negb (val_eq (si_val a) v) else val_eq (si_val a) v
  end.
(** __hash__ (403-406); [h], [h2]: Python's hash of a value and of the tuple (value, True) *)
Definition item_hash (h h2 : sval -> Z) (a : sitem) : Z := if si_open a then h2 (si_val a) else h (si_val a).
(** __float__ (350-361) of a finite number, inf or nan: the number itself *)
Definition item_float (a : sitem) : num := match si_val a with VVar _ => NaN | VNum n => n end.
