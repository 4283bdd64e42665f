(** The in-depth operations of [iTree.deep] besides its iterators
    (src/itertree/itree_indepth.py:84-557).  No proofs in this file.

    Simplifications: a filter is a fixed function of the item (in the flag methods it must not
    look at the flag that is being changed, since the items are filtered one by one while the
    flags change); Python's recursion limit is not modelled (the recursive methods have fuel,
    [Diverges] when it is too small). *)
From Verif Require Import Base Heap JsonModel GetModel NavModel Deep.
Local Open Scope Z_scope.

(** [list(self)] / [list(self.iter(f))] of a deep object (559-577, 580-651); the machines get
    fuel for a tree of all existing items *)
Definition finished (r : option (list loc * option exn)) : res (list loc) :=
  match r with
  | Some (l, None) => Ok l
  | Some (_, Some e) => Err e
  | None => Err Diverges
  end.
Definition deep_all (h : heap) (x : loc) : res (list loc) :=
  finished (deep_iter0 (fun y => nitems (hnode h y)) (3 * hnext h) x).
Definition deep_filtered (h : heap) (f : loc -> bool) (x : loc) : res (list loc) :=
  finished (deep_iter (fun y => nitems (hnode h y)) (Some f) DOWN (3 * hnext h) x).

(** __len__ (229-238) *)
Definition deep_len (h : heap) (x : loc) : res nat := rbind (deep_all h x) (fun l => Ok (length l)).
(** __lt__, __le__, __gt__, __ge__ (240-294) of two deep objects *)
Definition deep_compare (op : nat -> nat -> bool) (h : heap) (x y : loc) : res bool :=
  rbind (deep_len h x) (fun a => rbind (deep_len h y) (fun b => Ok (op a b))).
Definition deep_lt := deep_compare Nat.ltb.
Definition deep_le := deep_compare Nat.leb.
Definition deep_gt := deep_compare (fun a b => Nat.ltb b a).
Definition deep_ge := deep_compare (fun a b => Nat.leb b a).
(** count (296-308): [sum(item == i for i in self)] *)
Definition deep_count (h : heap) (x item : loc) : res nat :=
  rbind (deep_all h x) (fun l => Ok (list_sum (map (fun i => if item_eqb h item i then 1%nat else 0%nat) l))).
(** filtered_len (310-336), with a filter *)
Definition deep_filtered_len (h : heap) (x : loc) (f : loc -> bool) (hierarchical : bool) : res nat :=
  if hierarchical then rbind (deep_filtered h f x) (fun l => Ok (length l))
  else rbind (deep_all h x) (fun l => Ok (length (filter f l))).
(** __contains__ (338-359) with an iTree; anything else answers False *)
Definition deep_contains (h : heap) (x item : loc) : res bool :=
  rbind (deep_all h x) (fun l => Ok (match drop_to (fun i => item_eqb h i item) l with Some _ => true | None => false end)).
(** is_tag_in (361-372) *)
Definition deep_is_tag_in (h : heap) (x : loc) (t : pyval) : res bool :=
  rbind (deep_all h x) (fun l => Ok (existsb (fun i => is_tag_in h i t) l)).
(** is_in (374-396); [p and parent or None]: a parent without children counts as no parent *)
Definition up_step (h : heap) (x : loc) : option loc :=
  match nprt (hnode h x) with
  | Some pl => match nitems (hnode h (pl_par pl)) with [] => None | _ => Some (pl_par pl) end
  | None => None
  end.
Fixpoint up_search (fuel : nat) (h : heap) (x : loc) (p : option loc) : res bool :=
  match p with
  | None => Ok false
  | Some q => match fuel with
              | O => Err Diverges
              | S f => if Nat.eqb q x then Ok true else up_search f h x (up_step h q)
              end
  end.
Definition deep_is_in (h : heap) (x item : loc) : res bool := up_search (S (hnext h)) h x (up_step h item).

(** [start]/[stop] of index: an item, or a path resolved with [get.single( *path )] (438-439, 447-448) *)
Inductive dref := DRItem (x : loc) | DRPath (tg : target) (path : list target).
Definition dresolve (h : heap) (p : loc) (r : dref) : res (option loc) :=
  match r with
  | DRItem x => Ok (Some x)
  | DRPath tg path => match get_single h p tg path with
                      | Ok (GItem x) => Ok (Some x)
                      | Ok (GList _) => Ok None
                      | Err e => Err e
                      end
  end.
(** the search of index (434-459): the item found among [l] *)
Definition deep_search_tail (h : heap) (p item : loc) (stop : option dref) (l : list loc) : res loc :=
  match stop with
  | Some r =>
    rbind (dresolve h p r) (fun s =>
      match drop_to (fun i => is_loc s i || item_eqb h i item) l with
      | None => Err IndexError
      | Some (y, _) => if is_loc s y then Err IndexError else Ok y
      end)
  | None =>
    match drop_to (fun i => item_eqb h i item) l with
    | None => Err IndexError
    | Some (y, _) => Ok y
    end
  end.
Definition deep_search (h : heap) (p item : loc) (start stop : option dref) (l : list loc) : res loc :=
  match start with
  | None => deep_search_tail h p item stop l
  | Some r =>
    rbind (dresolve h p r) (fun s =>
      match drop_to (is_loc s) l with
      | None => Err IndexError
      | Some (y, rest) => if item_eqb h y item then Ok y else deep_search_tail h p item stop rest
      end)
  end.
(** index (398-459); an empty tree falls through and returns None.  Simplification: the search
    reads the state before [idx_path] refreshed the position caches, which it does not use. *)
Definition deep_index (p item : loc) (start stop : option dref) : M (option (list Z)) :=
  h <- gets (fun h => h) ;;
  match nitems (hnode h p) with
  | [] => ret None
  | _ =>
    pre <- idx_path (S (hnext h)) p ;;
    l <- lift (deep_all h p) ;;
    y <- lift (deep_search h p item start stop l) ;;
    q <- idx_path (S (hnext h)) y ;;
    ret (Some (skipn (length pre) q))
  end.

(** reverse (461-483) *)
Fixpoint deep_reverse (fuel : nat) (p : loc) : M unit :=
  match fuel with
  | O => throw Diverges
  | S f =>
    go <- check_order p ;;
    if go : bool then
      h <- gets (fun h => h) ;;
      match nitems (hnode h p) with
      | [] => ret tt
      | _ =>
        upd p (set_items (rev (nitems (hnode h p)))) ;;;
        match nfams (hnode h p) with
        | None => throw AttributeError
        | Some d =>
          upd p (fun n => set_fams (Some (map (fun kv => (fst kv, rev (snd kv))) d)) (nbound n) n) ;;;
          h1 <- gets (fun h => h) ;;
          mapM_ (deep_reverse f) (nitems (hnode h1 p))
        end
      end
    else ret tt
  end.

(** sort (485-520) *)
Fixpoint deep_sort (fuel : nat) (p : loc) (key : option (node -> Z)) (rv : bool) : M unit :=
  match fuel with
  | O => throw Diverges
  | S f =>
    go <- check_order p ;;
    if go : bool then
      sort p key rv ;;;
      h <- gets (fun h => h) ;;
      mapM_ (fun i => deep_sort f i key rv) (nitems (hnode h p))
    else ret tt
  end.

(** remove( *target_path ) (522-557) with at least one target *)
Definition deep_remove (p : loc) (tg : target) (path : list target) : M gres :=
  h <- gets (fun h => h) ;;
  r <- lift (get h p tg path) ;;
  match r with
  | GItem x =>
    match nprt (hnode h x) with
    | None => throw AttributeError
    | Some pl => i <- idx_or_type_error x ;; delitem (pl_par pl) (TgVal (PInt i))
    end
  | GList l =>
    mapM_ (fun x => h1 <- gets (fun h => h) ;;
                    match nprt (hnode h1 x) with
                    | None => throw AttributeError
                    | Some pl => remove (pl_par pl) x ;;; ret tt
                    end) l ;;;
    ret (GList l)
  end.

(** set_value_read_only (185-227), unset_value_read_only (139-183), unset_tree_read_only (84-137):
    the same body around [_set_flags]/[_unset_flags] *)
Definition deep_flags (change : loc -> M unit) (x : loc) (f : option (loc -> bool)) (hierarchical : bool) : M unit :=
  h <- gets (fun h => h) ;;
  if match nprt (hnode h x) with Some pl => has (nflags (hnode h (pl_par pl))) READ_ONLY_TREE | None => false end
  then throw PermissionError
  else
    match f with
    | Some f =>
      (if f x then change x else ret tt) ;;;
      l <- lift (if hierarchical then deep_filtered h f x else rbind (deep_all h x) (fun l => Ok (filter f l))) ;;
      mapM_ change l
    | None =>
      change x ;;;
      l <- lift (deep_all h x) ;;
      mapM_ change l
    end.
Definition deep_set_value_read_only (x : loc) f hierarchical : M unit :=
  deep_flags (fun y => set_flags y READ_ONLY_VALUE false) x f hierarchical.
Definition deep_unset_value_read_only (x : loc) f hierarchical : M unit :=
  deep_flags (fun y => unset_flags y READ_ONLY_VALUE) x f hierarchical.
Definition deep_unset_tree_read_only (x : loc) f hierarchical : M unit :=
  deep_flags (fun y => unset_flags y READ_ONLY_TREE) x f hierarchical.
