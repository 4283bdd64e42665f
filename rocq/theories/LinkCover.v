(** [iTree.is_link_cover] (src/itertree/itree_main.py:3168-3176): the item has a link object whose
    [_link_item] is an item.  Items have the slot [_link] only when they are link roots or were made
    local.  No proofs in this file. *)
From Verif Require Import Base Heap.
Definition is_link_cover (h : heap) (x : loc) : bool :=
  match nlink (hnode h x) with
  | None => false
  | Some k => match lk_cover k with Some _ => true | None => false end
  end.
