(** is_empty_set and is_empty_set_complement (src/itertree/itree_mathsets.py 924-945, 1649-1671,
    1983-2005). *)
From Verif Require Import Base MathSet.
Local Open Scope Z_scope.

(** is_empty_set: mSetInterval (924-932), mSetRoster (1649-1657), mSetCombine (1983-1991) *)
Definition mset_empty (s : mset) : bool :=
  match s with
  | MInt i => iv_empty i
  | MRos r => num_eq (ro_card r) (NI 0)          (* not bool(cardinality) *)
  | MComb _ _ _ => num_eq (card s) (NI 0)        (* cardinality ignores the complement *)
  end.
(** is_empty_set_complement: mSetInterval (935-945), mSetRoster (1660-1671), mSetCombine (1994-2005) *)
Definition mset_empty_compl (s : mset) : bool :=
  match s with
  | MInt i => iv_compl i && num_eq (iv_card0 i) (NI 0)
  | MRos r => ro_compl r && Nat.eqb (length (ro_items r)) 0
  | MComb _ _ c => c && num_eq (card s) (NI 0)
  end.
