(** Sums and products of trees (src/itertree/itree_main.py).
    Simplification: [copy.copy] of a tag or value is the value itself.  No proofs in this file. *)
From Verif Require Import Base Heap.
Local Open Scope Z_scope.

(** __add__ (2267-2282) with an iTree as argument; anything else raises TypeError.  Simplification:
    the generators copy the children one by one while the constructor consumes them; here all
    copies are made first (copying reads the two trees only). *)
Definition add_trees (a b : loc) : M loc :=
  h <- gets (fun h => h) ;;
  if is_link_root h a then throw TypeError
  else
    cs <- mapM copy_item (nitems (hnode h a) ++ nitems (hnode h b)) ;;
    new_tree (ntag (hnode h a)) (nval (hnode h a)) (map EItem cs) None (nflags (hnode h a)).

(** __mul__ with an iTree (2203-2207, 2210): [itertools.product] first stores all copies of both
    sides, then delivers the same objects several times. *)
Definition mul_trees (a b : loc) : M loc :=
  h <- gets (fun h => h) ;;
  if is_link_root h a then throw TypeError
  else
    xs <- mapM copy_item (nitems (hnode h a)) ;;
    ys <- mapM copy_item (nitems (hnode h b)) ;;
    new_tree (ntag (hnode h a)) (nval (hnode h a))
             (map EItem (flat_map (fun x => flat_map (fun y => [x; y]) ys) xs)) None (nflags (hnode h a)).

(** __mul__ with an integer (2208-2210): [repeat(self.copy(), n)], nothing for n <= 0 *)
Definition mul_int (a : loc) (n : Z) : M loc :=
  h <- gets (fun h => h) ;;
  c <- copy_item a ;;
  new_tree (ntag (hnode h a)) (nval (hnode h a)) (repeat (EItem c) (Z.to_nat n)) None (nflags (hnode h a)).

(** __rmul__ with an integer (2216-2218) *)
Definition rmul_int (a : loc) (n : Z) : M loc :=
  c <- copy_item a ;;
  new_tree PNoTag PNoValue (repeat (EItem c) (Z.to_nat n)) None 0.

(** ** __sub__ (2220-2265) *)
(** str.replace(old, ''): every occurrence from left to right is left out *)
Fixpoint str_without (old s : string) (skip : nat) : string :=
  match s with
  | EmptyString => EmptyString
  | String c r =>
    match skip with
    | S k => str_without old r k
    | O => match old with
           | EmptyString => s
           | String _ o => if prefix old s then str_without old r (String.length o) else String c (str_without old r O)
           end
    end
  end.
(** 2229-2254: equal parts become NoTag/NoValue; else [v - w] when Python computes it
    (parameter [minus], None = it raises), else str/bytes replace, else unchanged *)
Definition part_minus (minus : pyval -> pyval -> option pyval) (gone v w : pyval) : pyval :=
  if pyval_eqb v w then gone
  else match minus v w with
       | Some u => u
       | None => match v, w with
                 | PStr s, PStr o => PStr (str_without o s 0)
                 | PBytes s, PBytes o => PBytes (str_without o s 0)
                 | _, _ => v
                 end
       end.
(** item.tag_idx as key: the pair, or the bare number the slow path delivers *)
Definition key_of (k : tagidx) : pyval :=
  match k with TIPair t i => PTuple [t; PInt i] | TIBare i => PInt i | TINone => PNone end.
(** loop 2257-2262; [sub x i] is [x - i] *)
Fixpoint sub_loop (sub : loc -> loc -> M loc) (new : loc) (l : list loc) (dels : list Z) : M (list Z) :=
  match l with
  | [] => ret dels
  | item :: r =>
    k <- get_tag_idx item ;;
    let key := TgVal (key_of k) in
    h <- gets (fun h => h) ;;
    match getitem h new key with
    | Ok (GItem x) =>
      if item_eqb h x item then
        i <- idx_or_type_error x ;;
        sub_loop sub new r (dels ++ [i])
      else
        y <- sub x item ;;
        setitem new key (IItem y) ;;;
        sub_loop sub new r dels
    | Ok (GList _) => throw TypeError                 (* list - iTree *)
    | Err e => throw e
    end
  end.
(** [fuel] bounds the depth of the recursion (at most the depth of [b]) *)
Fixpoint sub_trees (minus : pyval -> pyval -> option pyval) (fuel : nat) (a b : loc) : M loc :=
  match fuel with
  | O => throw Diverges
  | S f =>
    new <- copy_item a ;;
    h <- gets (fun h => h) ;;
    upd new (set_tag (part_minus minus PNoTag (ntag (hnode h a)) (ntag (hnode h b)))) ;;;
    upd new (set_val (part_minus minus PNoValue (nval (hnode h a)) (nval (hnode h b)))) ;;;
    h1 <- gets (fun h => h) ;;
    dels <- sub_loop (sub_trees minus f) new (nitems (hnode h1 b)) [] ;;
    mapM_ (fun i => del_int new i ;;; ret tt) (rev dels) ;;;
    ret new
  end.
