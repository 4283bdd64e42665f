(** The accessor object [itree.get] (src/itertree/itree_getitem.py:43-1007).

    The bound methods [get.getitem_by_idx] and [get._getitem_fam] are always rebound
    together with those of the item (itree_main.py:296, 1213, 1217, itree_private.py:276,
    362, 368), so [fam_of] and [nitems] of the item serve for both.
    Simplifications: filters are pure and total, except the marker classes NoTag, NoValue,
    NoKey, Any, which are callable and raise TypeError when called with an item; slices have
    step 1.  No proofs in this file. *)
From Verif Require Import Base Heap.
Local Open Scope Z_scope.

(** Result [(single, r)] of [_get_child_ren]: one item, a list, a list marked as single
    (103 with a slice), a lazy filter object (181), a lazy filter object whose iteration
    raises TypeError (181 with a marker class). *)
Inductive cres := COne (x : loc) | CMany (l : list loc) | COneList (l : list loc)
                | CFilt (l : list loc) | CFiltErr.

Definition marker (v : pyval) : bool :=
  match v with PNoTag | PNoValue | PNoKey | PAny => true | _ => false end.

(** [return False, itree._getitem_fam(target)] inside [try/except: raise e] (109-127) *)
Definition ch_fallback (h : heap) (p : loc) (t : pyval) (e : exn) : res cres :=
  match fam_of h p t with Ok (Some f) => Ok (CMany f) | _ => Err e end.

(** tuple branch (96-127) *)
Definition ch_tuple (h : heap) (p : loc) (l : list pyval) : res cres :=
  match l with
  | [t; i] =>
    match fam_of h p t with
    | Ok (Some f) =>
      match as_index i with
      | Some z => match list_at f z with
                  | Some x => Ok (COne x)
                  | None => ch_fallback h p (PTuple l) IndexError
                  end
      | None =>
        match (match i with PList js | PTuple js | PDeque js | PSet js => pick_all f js
                          | _ => None end) with
        | Some xs => Ok (CMany xs)
        | None => ch_fallback h p (PTuple l) ValueError
        end
      end
    | Ok None => ch_fallback h p (PTuple l) KeyError
    | Err TypeError => ch_fallback h p (PTuple l) ValueError
    | Err _ => ch_fallback h p (PTuple l) KeyError
    end
  | _ => ch_fallback h p (PTuple l) ValueError
  end.

(** set branch (153-160) *)
Fixpoint ch_set (h : heap) (p : loc) (l : list pyval) (acc : list loc) : res cres :=
  match l with
  | [] => match acc with [] => Err KeyError | _ => Ok (CMany acc) end
  | t :: r => match families_of h p t with
              | Ok (Some f) => ch_set h p r (acc ++ f)
              | Ok None => Err KeyError
              | Err e => Err e
              end
  end.
(** list branch (161-172): every element is resolved with [itree[sub_target]] *)
Fixpoint ch_list (h : heap) (p : loc) (l : list pyval) (acc : list loc) : res cres :=
  match l with
  | [] => match acc with [] => Err KeyError | _ => Ok (CMany acc) end
  | t :: r => match getitem h p (TgVal t) with
              | Ok (GItem x) => ch_list h p r (acc ++ [x])
              | Ok (GList xs) => ch_list h p r (acc ++ xs)
              | Err e => Err e
              end
  end.

(** [_get_child_ren(itree, target)] (51-194) *)
Definition get_child_ren (h : heap) (p : loc) (tg : target) : res cres :=
  match nitems (hnode h p) with
  | [] => Err KeyError
  | _ :: _ =>
    match tg with
    | TgVal (PTuple l) => ch_tuple h p l
    | TgVal (PInt z) => match list_at (nitems (hnode h p)) z with
                        | Some x => Ok (COne x)
                        | None => ch_fallback h p (PInt z) IndexError
                        end
    | TgVal (PSet l) => ch_set h p l []
    | TgVal (PList l) => ch_list h p l []
    | TgVal v => if marker v then Ok CFiltErr      (* 175-181 *)
                 else match fam_of h p v with      (* 191-193 *)
                      | Ok (Some f) => Ok (CMany f)
                      | Ok None => Err KeyError
                      | Err e => Err e
                      end
    | TgSlice a b => Ok (CMany (py_slice a b (nitems (hnode h p))))
    | TgTagAll t =>
      match fam_of h p t with
      | Ok (Some f) => Ok (CMany f)
      | Err TypeError => Err ValueError
      | _ => Err KeyError
      end
    | TgTagSlice t a b =>
      match fam_of h p t with
      | Ok (Some f) => Ok (COneList (py_slice a b f))
      | Err TypeError => Err ValueError
      | _ => Err KeyError
      end
    | TgTagIdx t i =>
      match fam_of h p t with
      | Ok (Some f) => match list_at f i with Some x => Ok (COne x) | None => Err IndexError end
      | Ok None => Err KeyError
      | Err e => Err e
      end
    | TgEllipsis => Ok (CMany (nitems (hnode h p)))
    | TgFilter f => Ok (CFilt (filter (fun x => f (hnode h x)) (nitems (hnode h p))))
    end
  end.

(** [_get_child_ren] applied to a Python list of items instead of an item: what 304-307 do
    after a (tag, slice) target.  A list has no [_getitem_fam] etc.: AttributeError, which the
    tuple branch turns into KeyError or ValueError.  A list target indexes the Python list: not
    covered. *)
Definition list_child_ren (h : heap) (l : list loc) (tg : target) : res cres :=
  match l with
  | [] => Err KeyError
  | _ :: _ =>
    match tg with
    | TgVal (PTuple [_; _]) => Err KeyError
    | TgVal (PTuple _) => Err ValueError
    | TgVal (PSet []) => Err KeyError
    | TgVal (PList _) => Err Unsupported
    | TgVal v => if marker v then Ok CFiltErr else Err AttributeError
    | TgSlice _ _ | TgTagIdx _ _ | TgEllipsis => Err AttributeError
    | TgTagAll _ | TgTagSlice _ _ _ => Err KeyError
    | TgFilter f => Ok (CFilt (filter (fun x => f (hnode h x)) l))
    end
  end.

(** [result.append(r) if is_single else result.extend(r)] under [try/except: pass] (312-316) *)
Definition ch_elems (r : res cres) : list loc :=
  match r with
  | Ok (COne x) => [x]
  | Ok (CMany l) | Ok (CFilt l) => l
  | Ok (COneList l) => []   (* see [spoiled]: the list object itself is appended *)
  | Ok CFiltErr | Err _ => []
  end.
(** 314 with a (tag, slice) target appends a list object to the result: the elements of the
    result are then no items any more.  Not covered further. *)
Definition spoiled (r : res cres) : bool := match r with Ok (COneList _) => true | _ => false end.

(** the loop over the target path (302-317) *)
Fixpoint get_path (h : heap) (c : cres) (path : list target) : res cres :=
  match path with
  | [] => Ok c
  | t :: r =>
    match c with
    | COne x => match get_child_ren h x t with Ok c' => get_path h c' r | Err e => Err e end
    | COneList l => match list_child_ren h l t with Ok c' => get_path h c' r | Err e => Err e end
    | CFiltErr => Err TypeError
    | CMany l | CFilt l =>
      if existsb (fun x => spoiled (get_child_ren h x t)) l then Err Unsupported
      else get_path h (CMany (flat_map (fun x => ch_elems (get_child_ren h x t)) l)) r
    end
  end.

(** [get(target, *target_path)] without default (295-328) *)
Definition get (h : heap) (p : loc) (tg : target) (path : list target) : res gres :=
  match get_child_ren h p tg with
  | Err e => Err e
  | Ok c =>
    match path with
    | [] => match c with           (* 326-328 *)
            | COne x => Ok (GItem x)
            | CMany l | COneList l | CFilt l => Ok (GList l)
            | CFiltErr => Err TypeError
            end
    | _ :: _ =>
      match get_path h c path with (* 318-323 *)
      | Err e => Err e
      | Ok (COne x) => Ok (GItem x)
      | Ok (CMany []) | Ok (COneList []) => Err KeyError
      | Ok (CMany l) | Ok (COneList l) | Ok (CFilt l) => Ok (GList l)
      | Ok CFiltErr => Err TypeError
      end
    end
  end.

(** [get.single(target, *target_path)] (388-432); [GList] can only come from 425-426 *)
Definition only_one (l : list loc) : res gres :=
  match l with [x] => Ok (GItem x) | _ => Err ValueError end.
Definition get_single (h : heap) (p : loc) (tg : target) (path : list target) : res gres :=
  match get_child_ren h p tg with
  | Err e => Err e
  | Ok c =>
    match path with
    | [] => match c with
            | COne x => Ok (GItem x)
            | COneList l => Ok (GList l)
            | CMany l | CFilt l => only_one l
            | CFiltErr => Err TypeError
            end
    | _ :: _ =>
      match get_path h c path with
      | Err e => Err e
      | Ok (COne x) => Ok (GItem x)
      | Ok (CMany []) | Ok (COneList []) => Err KeyError
      | Ok (CMany l) | Ok (COneList l) | Ok (CFilt l) => only_one l
      | Ok CFiltErr => Err TypeError
      end
    end
  end.

(** [get.iter] (497-533): the items delivered.  527/530 return a one element list.  A filter
    object of a marker class raises when the caller iterates. *)
Definition get_iter (h : heap) (p : loc) (tg : target) (path : list target) : res (list loc) :=
  match get_child_ren h p tg with
  | Err e => Err e
  | Ok c =>
    match path with
    | [] => match c with
            | COne x => Ok [x]
            | COneList l => Err Unsupported          (* [[...]]: a list holding a list *)
            | CMany l | CFilt l => Ok l
            | CFiltErr => Err TypeError
            end
    | _ :: _ =>
      match get_path h c path with
      | Err e => Err e
      | Ok (COne x) => Ok [x]
      | Ok (CMany []) | Ok (COneList []) => Err KeyError
      | Ok (CMany l) | Ok (COneList l) | Ok (CFilt l) => Ok l
      | Ok CFiltErr => Err TypeError
      end
    end
  end.

(** [except (ValueError, KeyError, IndexError, AttributeError)] with [default] (329-332, 433-436) *)
Definition lookup_error (e : exn) : bool :=
  match e with ValueError | KeyError | IndexError | AttributeError => true | _ => false end.
Definition with_default {A} (d : A) (r : res A) : res A :=
  match r with Err e => if lookup_error e then Ok d else Err e | Ok a => Ok a end.
(** [except Exception] with [default] in the by_... functions *)
Definition with_default_all {A} (d : A) (r : res A) : res A :=
  match r with Err _ => Ok d | Ok a => Ok a end.

(** [get.by_idx_slice(s, *path)] (609-623) *)
Fixpoint idx_slice_path (h : heap) (r : list loc) (path : list (option Z * option Z)) : res (list loc) :=
  match path with
  | [] => Ok r
  | (a, b) :: p =>
    match flat_map (fun x => py_slice a b (nitems (hnode h x))) r with
    | [] => Err IndexError
    | r2 => idx_slice_path h r2 p
    end
  end.
Definition by_idx_slice (h : heap) (x : loc) (s : option Z * option Z)
    (path : list (option Z * option Z)) : res (list loc) :=
  let r := py_slice (fst s) (snd s) (nitems (hnode h x)) in
  match path with
  | [] => match r with [] => Err IndexError | _ => Ok r end
  | _ => idx_slice_path h r path
  end.

(** [get.by_idx_list] (650-677); None is [...].  667 skips indices at or above the number of
    children, negative ones below -len raise. *)
Fixpoint pick_idx (l : list loc) (is_ : list Z) : res (list loc) :=
  match is_ with
  | [] => Ok []
  | i :: r => match list_at l i with
              | None => Err IndexError
              | Some x => match pick_idx l r with Ok xs => Ok (x :: xs) | Err e => Err e end
              end
  end.
Fixpoint idx_list_level (h : heap) (r : list loc) (il : list Z) : res (list loc) :=
  match r with
  | [] => Ok []
  | x :: r' =>
    let l := nitems (hnode h x) in
    match pick_idx l (filter (fun i => i <? Z.of_nat (length l)) il) with
    | Err e => Err e
    | Ok xs => match idx_list_level h r' il with Ok ys => Ok (xs ++ ys) | Err e => Err e end
    end
  end.
Fixpoint idx_list_path (h : heap) (r : list loc) (path : list (option (list Z))) : res (list loc) :=
  match path with
  | [] => Ok r
  | o :: p =>
    match (match o with
           | None => Ok (flat_map (fun x => nitems (hnode h x)) r)
           | Some il => idx_list_level h r il
           end) with
    | Err e => Err e
    | Ok [] => Err KeyError
    | Ok r2 => idx_list_path h r2 p
    end
  end.
Definition by_idx_list (h : heap) (x : loc) (o : option (list Z)) (path : list (option (list Z)))
    : res (list loc) :=
  match nitems (hnode h x) with
  | [] => Err IndexError
  | l => match (match o with None => Ok l | Some il => pick_idx l il end) with
         | Err e => Err e
         | Ok r => idx_list_path h r path
         end
  end.

(** [_getitem_fam(tag)] on the item of the accessor: KeyError when the tag is unknown *)
Definition own_fam_of (h : heap) (p : loc) (t : pyval) : res (list loc) :=
  match fam_of h p t with Ok (Some f) => Ok f | Ok None => Err KeyError | Err e => Err e end.

(** [get.by_tag(tag, *path)] (849-868).  iTree has no method [_contains_fam]: the first item
    looked at raises AttributeError, which is turned into KeyError; with no item at all the
    error message itself raises TypeError (858: list + tuple). *)
Definition by_tag (h : heap) (p : loc) (t : pyval) (path : list pyval) : res (list loc) :=
  match own_fam_of h p t with
  | Err AttributeError => Err KeyError
  | Err e => Err e
  | Ok f => match path, f with
            | [], _ => Ok f
            | _, [] => Err TypeError
            | _, _ => Err KeyError
            end
  end.

(** [iter(tags)] (903-906): a value that is not iterable stands for itself *)
Fixpoint chars (s : string) : list pyval :=
  match s with EmptyString => [] | String c r => PStr (String c EmptyString) :: chars r end.
Fixpoint bytes (s : string) : list pyval :=
  match s with EmptyString => [] | String c r => PInt (Z.of_N (Ascii.N_of_ascii c)) :: bytes r end.
Definition iter_tags (v : pyval) : list pyval :=
  match v with
  | PStr s => chars s
  | PBytes s => bytes s
  | PTuple l | PList l | PDeque l | PSet l => l
  | PDict d | PODict d => map fst d
  | _ => [v]
  end.
Fixpoint all_fams (h : heap) (p : loc) (ts : list pyval) : res (list loc) :=
  match ts with
  | [] => Ok []
  | t :: r => match own_fam_of h p t with
              | Err e => Err e
              | Ok f => match all_fams h p r with Ok l => Ok (f ++ l) | Err e => Err e end
              end
  end.
(** [get.by_tags(tags, *path)] (900-929); the path part fails like in [by_tag] *)
Definition by_tags (h : heap) (p : loc) (tags : pyval) (path : list pyval) : res (list loc) :=
  match nitems (hnode h p) with
  | [] => Err KeyError
  | _ => match all_fams h p (iter_tags tags) with
         | Err e => Err e
         | Ok r => match path with
                   | [] => Ok r
                   | _ => match r, flat_map iter_tags path with
                          | [], _ | _, [] => Err KeyError
                          | _, _ => Err AttributeError
                          end
                   end
         end
  end.

(** [get.by_tag_idx_slice] (748-769) and [get.by_tag_idx_list] (797-822); the path part fails
    with AttributeError as soon as an item is looked at.  None is [...]. *)
Definition by_tag_idx_slice (h : heap) (p : loc) (t : pyval) (a b : option Z)
    (path : list (pyval * Z)) : res (list loc) :=
  match own_fam_of h p t with
  | Err e => Err e
  | Ok f => match py_slice a b f, path with
            | [], _ => Err KeyError
            | r, [] => Ok r
            | _, _ => Err AttributeError
            end
  end.
Definition by_tag_idx_list (h : heap) (p : loc) (t : pyval) (o : option (list Z))
    (path : list (pyval * option Z)) : res (list loc) :=
  match own_fam_of h p t with
  | Err e => Err e
  | Ok f => match (match o with None => Ok f | Some il => pick_idx f il end), path with
            | Err e, _ => Err e
            | Ok r, [] => Ok r
            | Ok [], _ => Err KeyError
            | Ok _, _ => Err AttributeError
            end
  end.

(** [get.by_level_filter(f, *fs)] (958-975).  [r] is a filter object: the first filter of the
    path consumes it, later filters of the path see nothing and [r2] keeps the items of the
    second level. *)
Definition by_level_filter (h : heap) (p : loc) (f : node -> bool) (fs : list (node -> bool))
    : res (list loc) :=
  match nitems (hnode h p) with
  | [] => Err KeyError
  | l =>
    let r := filter (fun x => f (hnode h x)) l in
    match fs with
    | [] => Ok r
    | g :: _ =>
      match flat_map (fun x => filter (fun y => g (hnode h y)) (nitems (hnode h x))) r with
      | [] => Err KeyError
      | r2 => Ok r2
      end
    end
  end.

(** [get.same_index_children(idx, incl_self)] (980-1007); fuel bounds the [while] loop *)
Fixpoint same_index (fuel : nat) (h : heap) (x : loc) (i : Z) : option (list loc) :=
  match fuel with
  | O => None
  | S n => match nitems (hnode h x) with
           | [] => Some []
           | l => match list_at l i with
                  | None => Some []
                  | Some y => option_map (cons y) (same_index n h y i)
                  end
           end
  end.
Definition same_index_children (fuel : nat) (h : heap) (x : loc) (i : Z) (incl : bool)
    : option (list loc) :=
  option_map (fun l => if incl then x :: l else l) (same_index fuel h x i).
