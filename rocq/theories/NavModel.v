(** Further readers and comparisons of an iTree (src/itertree/itree_main.py).
    [root], [level], [is_root]/[parent], [max_depth] are in Heap.v and Deep.v.
    No proofs in this file. *)
From Verif Require Import Base Heap GetModel.
Local Open Scope Z_scope.

(** ancestors (326-342): the parents collected upwards, then reversed; None = cyclic.  The loop
    test [p != None] calls [__ne__], and [__eq__] with None answers False (the AttributeError
    on [None._tag] is caught, 2446/2471), so it holds for every item. *)
Fixpoint collect_up (fuel : nat) (h : heap) (p : option loc) : option (list loc) :=
  match p with
  | None => Some []
  | Some y => match fuel with
              | O => None
              | S f => option_map (cons y) (collect_up f h (parent h y))
              end
  end.
Definition ancestors (fuel : nat) (h : heap) (x : loc) : option (list loc) :=
  option_map (@rev loc) (collect_up fuel h (parent h x)).
(** is_root (344-355) *)
Definition is_root (h : heap) (x : loc) : bool :=
  match nprt (hnode h x) with None => true | Some _ => false end.

(** tag_number (754-763) *)
Definition tag_number (h : heap) (p : loc) : res nat :=
  match nitems (hnode h p) with
  | [] => Ok 0%nat
  | _ => match nfams (hnode h p) with Some d => Ok (length d) | None => Err AttributeError end
  end.

(** filtered_len (2354-2367) *)
Definition filtered_len (h : heap) (p : loc) (f : node -> bool) : nat :=
  length (filter (fun x => f (hnode h x)) (nitems (hnode h p))).

(** count (2572-2582): [sum(item == i for i in self)] *)
Definition count (h : heap) (p x : loc) : nat :=
  list_sum (map (fun c => if item_eqb h x c then 1%nat else 0%nat) (nitems (hnode h p))).

(** __lt__, __le__, __gt__, __ge__ (2482-2512) *)
Definition ilen (h : heap) (x : loc) : nat := length (nitems (hnode h x)).
Definition item_lt (h : heap) (x y : loc) : bool := (ilen h x <? ilen h y)%nat.
Definition item_le (h : heap) (x y : loc) : bool := (ilen h x <=? ilen h y)%nat.
Definition item_gt (h : heap) (x y : loc) : bool := (ilen h y <? ilen h x)%nat.
Definition item_ge (h : heap) (x y : loc) : bool := (ilen h y <=? ilen h x)%nat.

(** [next(dropwhile(lambda i: not stop(i), iterator))]: the first element satisfying [stop] and
    the iterator behind it; None = StopIteration *)
Fixpoint drop_to (stop : loc -> bool) (l : list loc) : option (loc * list loc) :=
  match l with
  | [] => None
  | x :: r => if stop x then Some (x, r) else drop_to stop r
  end.

(** [start]/[stop] argument of index: not given, an item, or anything else, which is resolved
    with [self.get.single] (2610-2611, 2619-2620); a list as result of get.single is an object
    that is identical to no child *)
Inductive iref := RItem (x : loc) | RTarget (t : target).
Definition resolve (h : heap) (p : loc) (r : iref) : res (option loc) :=
  match r with
  | RItem x => Ok (Some x)
  | RTarget t => match get_single h p t [] with
                 | Ok (GItem x) => Ok (Some x)
                 | Ok (GList _) => Ok None
                 | Err e => Err e
                 end
  end.
Definition is_loc (o : option loc) (y : loc) : bool :=
  match o with Some x => Nat.eqb y x | None => false end.

(** the search behind the start (2618-2633) *)
Definition index_tail (p x : loc) (stop : option iref) (it : list loc) : M (option Z) :=
  h <- gets (fun h => h) ;;
  match stop with
  | Some r =>
    s <- lift (resolve h p r) ;;
    match drop_to (fun i => is_loc s i || item_eqb h i x) it with
    | None => throw IndexError
    | Some (y, _) => if is_loc s y then throw IndexError else get_idx y
    end
  | None =>
    match drop_to (fun i => item_eqb h i x) it with
    | None => throw IndexError
    | Some (y, _) => get_idx y
    end
  end.
(** index(item, start, stop) (2584-2633); an empty tree falls through and returns None *)
Definition index (p x : loc) (start stop : option iref) : M (option Z) :=
  h <- gets (fun h => h) ;;
  match nitems (hnode h p) with
  | [] => ret None
  | l =>
    match start with
    | None => index_tail p x stop l
    | Some r =>
      s <- lift (resolve h p r) ;;
      match drop_to (is_loc s) l with
      | None => throw IndexError
      | Some (y, rest) => if item_eqb h y x then get_idx y else index_tail p x stop rest
      end
    end
  end.

(** equal(other, check_coupled, check_flags) (2514-2570) *)
Definition check_flg (on : bool) (h : heap) (a b : loc) : bool :=
  negb on || (nflags (hnode h a) =? nflags (hnode h b)).
Definition check_cpl (on : bool) (h : heap) (a b : loc) : bool :=
  negb on ||
  match ncoupled (hnode h a), ncoupled (hnode h b) with
  | Some c, Some d => Nat.eqb c d
  | None, None => true
  | _, _ => false
  end.
Fixpoint zip_equal (cc cf : bool) (h : heap) (l m : list loc) : bool :=
  match l, m with
  | x :: l', y :: m' => check_flg cf h x y && check_cpl cc h x y && pair_eqb h x y && zip_equal cc cf h l' m'
  | _, _ => true
  end.
Definition equal (h : heap) (cc cf : bool) (x y : loc) : bool :=
  if Nat.eqb x y then true
  else if negb (check_flg cf h x y && check_cpl cc h x y) then false
  else if negb (pyval_eqb (ntag (hnode h x)) (ntag (hnode h y))) then false
  else if negb (Nat.eqb (length (nitems (hnode h x))) (length (nitems (hnode h y)))) then false
  else if negb (pyval_eqb (nval (hnode h x)) (nval (hnode h y))) then false
  else match deep_list (S (hnext h)) h x, deep_list (S (hnext h)) h y with
       | Some l, Some m => zip_equal cc cf h l m
       | _, _ => false
       end.

(** link_root (3198-3214) *)
Fixpoint link_root (fuel : nat) (h : heap) (x : loc) : option (option loc) :=
  match fuel with
  | O => None
  | S f =>
    if is_linked h x then
      match nprt (hnode h x) with
      | Some pl => if is_linked h (pl_par pl) then link_root f h (pl_par pl) else Some (Some x)
      | None => Some (Some x)
      end
    else Some None
  end.
