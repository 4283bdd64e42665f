(** Heap model of iTree objects (src/itertree/itree_main.py, itree_private.py).

    Configuration: no blist, no numpy (itree_helpers.py:50-69), so [itree_list] is [list]
    and every [fm_idx == BLIST_SWITCH] branch is dead (BLIST_SWITCH = -1).
    No proofs in this file. *)
From Verif Require Import Base.
Local Open Scope Z_scope.

(** * Objects *)

Notation loc := nat (only parsing).   (* object identity *)

(** [_itree_prt_idx]: None, or the list [parent, abs_idx_cache, fam_idx_cache]
    (itree_main.py:281, 1200).  [pl_tuple] is true for the tuple written by
    itree_main.py:1597, which later cache updates cannot modify. *)
Record plink := PL { pl_par : loc; pl_abs : Z; pl_fam : Z; pl_tuple : bool }.

(** [_families]: insertion ordered dict tag -> list of items (itree_main.py:1216). *)
Definition fdict := list (pyval * list loc).

(** The dict behind the bound methods [_get_fam], [_getitem_fam], [_setitem_fam]
    (itree_main.py:1217-1218): not yet bound, the same object as [_families], or an
    older dict (clear() replaces only [_families], itree_main.py:1974). *)
Inductive binding := Unbound | Current | Stale (d : fdict).

(** iTLink (itree_helpers.py:116-141); [lk_src] stands for (file_path, target_path),
    [lk_loaded] for [_loaded is not None], [lk_tags] for [_tags], [lk_cover] for
    [_link_item]. *)
Record linkrec := LK { lk_src : nat; lk_loaded : bool; lk_tags : list pyval;
                       lk_cover : option loc }.

(** The slots of an iTree instance (itree_main.py:74-87).  [__len__], [__iter__],
    [getitem_by_idx] are always bound to the list in [_items] (itree_main.py:296-297,
    1211-1214), so they need no own field. *)
Record node := ND {
  ntag : pyval; nval : pyval; nflags : Z;
  nprt : option plink; nitems : list loc;
  nfams : option fdict; nbound : binding;
  nlink : option linkrec; ncoupled : option nat }.

Record heap := HP { hnext : nat; hnode : loc -> node }.

(** A constructed item without subtree (itree_main.py:262-297). *)
Definition fresh_node (t v : pyval) (fl : Z) (lk : option linkrec) : node :=
  ND t v fl None [] None Unbound lk None.

Definition empty_heap : heap := HP 0 (fun _ => fresh_node PNoTag PNoValue 0 None).

Definition set_prt (o : option plink) (n : node) : node :=
  ND (ntag n) (nval n) (nflags n) o (nitems n) (nfams n) (nbound n) (nlink n) (ncoupled n).
Definition set_items (l : list loc) (n : node) : node :=
  ND (ntag n) (nval n) (nflags n) (nprt n) l (nfams n) (nbound n) (nlink n) (ncoupled n).
Definition set_fams (o : option fdict) (b : binding) (n : node) : node :=
  ND (ntag n) (nval n) (nflags n) (nprt n) (nitems n) o b (nlink n) (ncoupled n).
Definition set_tag (t : pyval) (n : node) : node :=
  ND t (nval n) (nflags n) (nprt n) (nitems n) (nfams n) (nbound n) (nlink n) (ncoupled n).
Definition set_val (v : pyval) (n : node) : node :=
  ND (ntag n) v (nflags n) (nprt n) (nitems n) (nfams n) (nbound n) (nlink n) (ncoupled n).
Definition set_flg (f : Z) (n : node) : node :=
  ND (ntag n) (nval n) f (nprt n) (nitems n) (nfams n) (nbound n) (nlink n) (ncoupled n).
Definition set_link (k : option linkrec) (n : node) : node :=
  ND (ntag n) (nval n) (nflags n) (nprt n) (nitems n) (nfams n) (nbound n) k (ncoupled n).
Definition set_coupled (c : option nat) (n : node) : node :=
  ND (ntag n) (nval n) (nflags n) (nprt n) (nitems n) (nfams n) (nbound n) (nlink n) c.

Definition hmod (h : heap) (x : loc) (f : node -> node) : heap :=
  HP (hnext h) (fun y => if Nat.eqb y x then f (hnode h y) else hnode h y).

Definition halloc (h : heap) (n : node) : heap * loc :=
  (HP (S (hnext h)) (fun y => if Nat.eqb y (hnext h) then n else hnode h y), hnext h).

(** * Flags (itree_helpers.py:271-288, itree_main.py:94-105) *)
Definition READ_ONLY_TREE := 1.
Definition READ_ONLY_VALUE := 2.
Definition LOAD_LINKS := 4.
Definition LINKED := 8.
Definition PLACEHOLDER := 16.
Definition LINK_ROOT := 32.
Definition FLAG_MASK := 63.
Definition IS_TREE_PROTECTED :=
  Z.lor (Z.lor (Z.lor READ_ONLY_TREE PLACEHOLDER) LINKED) LINK_ROOT.
Definition IS_VALUE_PROTECTED := Z.lor (Z.lor READ_ONLY_VALUE PLACEHOLDER) LINKED.
Definition DEEP_FLAG_MASK := Z.lor LOAD_LINKS READ_ONLY_TREE.

(** Python truth value of [flags & mask]. *)
Definition has (fl mask : Z) : bool := negb (Z.land fl mask =? 0).

Definition is_link_root (h : heap) (x : loc) : bool := has (nflags (hnode h x)) LINK_ROOT.
  (* itree_main.py:3216-3225 *)
Definition is_linked (h : heap) (x : loc) : bool := has (nflags (hnode h x)) LINKED.
  (* itree_main.py:3178-3187 *)
Definition is_placeholder (h : heap) (x : loc) : bool := has (nflags (hnode h x)) PLACEHOLDER.
  (* itree_main.py:3153-3165 *)
Definition tree_protected (h : heap) (x : loc) : bool :=
  has (nflags (hnode h x)) IS_TREE_PROTECTED.

(** * dict operations *)
Fixpoint dget (d : fdict) (t : pyval) : option (list loc) :=
  match d with
  | [] => None
  | (k, v) :: r => if pyval_eqb k t then Some v else dget r t
  end.
Fixpoint dset (d : fdict) (t : pyval) (v : list loc) : fdict :=
  match d with
  | [] => [(t, v)]
  | (k, w) :: r => if pyval_eqb k t then (k, v) :: r else (k, w) :: dset r t v
  end.
Fixpoint ddel (d : fdict) (t : pyval) : fdict :=
  match d with
  | [] => []
  | (k, w) :: r => if pyval_eqb k t then r else (k, w) :: ddel r t
  end.

(** * The exception/heap monad *)
Definition M (A : Type) := heap -> heap * res A.
Definition ret {A} (a : A) : M A := fun h => (h, Ok a).
Definition throw {A} (e : exn) : M A := fun h => (h, Err e).
Definition bind {A B} (m : M A) (k : A -> M B) : M B :=
  fun h => match m h with
           | (h', Ok a) => k a h'
           | (h', Err e) => (h', Err e)
           end.
Definition gets {A} (f : heap -> A) : M A := fun h => (h, Ok (f h)).
Definition upd (x : loc) (f : node -> node) : M unit := fun h => (hmod h x f, Ok tt).
Definition lift {A} (r : res A) : M A := fun h => (h, r).
Notation "x <- m ;; k" := (bind m (fun x => k)) (at level 61, m at next level, right associativity).
Notation "m ;;; k" := (bind m (fun _ => k)) (at level 61, right associativity).

(** Reading / writing a family through the bound methods
    ([_get_fam], [_getitem_fam], [_setitem_fam]). *)
Definition get_fam (p : loc) (t : pyval) : M (option (list loc)) := fun h =>
  match nbound (hnode h p) with
  | Unbound => (h, Err AttributeError)
  | Current => (h, match nfams (hnode h p) with
                   | Some d => Ok (dget d t)
                   | None => Err AttributeError
                   end)
  | Stale d => (h, Ok (dget d t))
  end.
Definition getitem_fam (p : loc) (t : pyval) : M (list loc) :=
  o <- get_fam p t ;; match o with Some f => ret f | None => throw KeyError end.
(** [_setitem_fam(tag, l)], also used for the in-place updates of a family list object
    (family.append / insert / remove / __delitem__ / __setitem__). *)
Definition put_fam (p : loc) (t : pyval) (l : list loc) : M unit := fun h =>
  match nbound (hnode h p) with
  | Unbound => (h, Err AttributeError)
  | Current => match nfams (hnode h p) with
               | Some d => (hmod h p (set_fams (Some (dset d t l)) Current), Ok tt)
               | None => (h, Err AttributeError)
               end
  | Stale d => (hmod h p (set_fams (nfams (hnode h p)) (Stale (dset d t l))), Ok tt)
  end.
(** [self._families.__delitem__(tag)] (itree_main.py:1717, 1891). *)
Definition del_fam (p : loc) (t : pyval) : M unit := fun h =>
  match nfams (hnode h p) with
  | None => (h, Err AttributeError)
  | Some d => match dget d t with
              | None => (h, Err KeyError)
              | Some _ => (hmod h p (set_fams (Some (ddel d t)) (nbound (hnode h p))), Ok tt)
              end
  end.

(** * Position caches *)

(** which slot of [_itree_prt_idx] *)
Inductive slot := SAbs | SFam.
Definition with_cache (s : slot) (i : Z) (pl : plink) : plink :=
  match s with
  | SAbs => PL (pl_par pl) i (pl_fam pl) (pl_tuple pl)
  | SFam => PL (pl_par pl) (pl_abs pl) i (pl_tuple pl)
  end.
(** [item._itree_prt_idx.__setitem__(k, i)]; error [e] if it is None or a tuple
    (AttributeError through the method call, TypeError through subscript assignment). *)
Definition set_cache (e : exn) (s : slot) (y : loc) (i : Z) : M unit := fun h =>
  match nprt (hnode h y) with
  | None => (h, Err e)
  | Some pl => if pl_tuple pl then (h, Err e)
               else (hmod h y (set_prt (Some (with_cache s i pl))), Ok tt)
  end.

(** [c < size and l[c] is x] with Python index rules. *)
Definition fast_hit (l : list loc) (c : Z) (x : loc) : res bool :=
  if c <? Z.of_nat (length l) then
    match py_idx (length l) c with
    | Some k => Ok (match nth_error l k with Some y => Nat.eqb y x | None => false end)
    | None => Err IndexError
    end
  else Ok false.

(** [for i in range(start, limit): if l[i] is self] (itree_main.py:421-424, 497-500). *)
Definition window (l : list loc) (x : loc) (start limit : Z) : option nat :=
  find (fun i => match nth_error l i with Some y => Nat.eqb y x | None => false end)
       (seq (Z.to_nat start) (Z.to_nat (limit - start))).

(** Full scan: visits the items of [l], writing the cache [s] of each with i, i+d, ...
    until x is met (itree_main.py:427-433, 436-441, 505-511, 514-519). *)
Fixpoint scan (s : slot) (l : list loc) (i d : Z) (x : loc) : M Z :=
  match l with
  | [] => throw IndexError
  | y :: r => set_cache AttributeError s y i ;;;
              if Nat.eqb y x then ret i else scan s r (i + d) d x
  end.

Inductive found := Fast (i : Z) | Win (i : Z) | Slow (i : Z).
Definition found_pos (f : found) : Z := match f with Fast i | Win i | Slow i => i end.

(** Common body of [idx] and [tag_idx]. *)
Definition locate (s : slot) (l : list loc) (c : Z) (x : loc) : M found :=
  b <- lift (fast_hit l c x) ;;
  if b : bool then ret (Fast c)
  else
    let size := Z.of_nat (length l) in
    match window l x (Z.max 0 (c - 20)) (Z.min size (c + 20 + 1)) with
    | Some i => set_cache TypeError s x (Z.of_nat i) ;;; ret (Win (Z.of_nat i))
    | None =>
      if 2 * c <? size
      then i <- scan s l 0 1 x ;; ret (Slow i)
      else i <- scan s (rev l) (size - 1) (-1) x ;; ret (Slow i)
    end.

(** [iTree.idx] (itree_main.py:392-441); None for a root item. *)
Definition get_idx (x : loc) : M (option Z) := fun h =>
  match nprt (hnode h x) with
  | None => (h, Ok None)
  | Some pl =>
    (f <- locate SAbs (nitems (hnode h (pl_par pl))) (pl_abs pl) x ;;
     ret (Some (found_pos f))) h
  end.

(** Result of [iTree.tag_idx]: None for a root, the pair, or - on the slow path,
    itree_main.py:509 and 518 - only the bare number. *)
Inductive tagidx := TINone | TIPair (t : pyval) (i : Z) | TIBare (i : Z).

(** [iTree.tag_idx] (itree_main.py:469-519). *)
Definition get_tag_idx (x : loc) : M tagidx := fun h =>
  match nprt (hnode h x) with
  | None => (h, Ok TINone)
  | Some pl =>
    (let t := ntag (hnode h x) in
     fam <- getitem_fam (pl_par pl) t ;;
     f <- locate SFam fam (pl_fam pl) x ;;
     ret (match f with
          | Fast i | Win i => TIPair t i
          | Slow i => TIBare i
          end)) h
  end.

(** * Deep traversal on the heap (pre-order), used by flags, equality and copy.
    [fuel] bounds the depth; None = deeper than fuel (a cyclic structure when
    fuel >= hnext: the loops of the code do not end then). *)
Fixpoint opt_concat {A} (l : list (option (list A))) : option (list A) :=
  match l with
  | [] => Some []
  | None :: _ => None
  | Some a :: r => match opt_concat r with Some b => Some (a ++ b) | None => None end
  end.
Fixpoint deep_list (fuel : nat) (h : heap) (x : loc) : option (list loc) :=
  match fuel with
  | O => None
  | S f => opt_concat (map (fun c => option_map (cons c) (deep_list f h c)) (nitems (hnode h x)))
  end.

(** ** Equality (itree_main.py:2431-2472) *)

(** [get_init_args(None, False)] (itree_main.py:3016-3054): tag, value, link, flags;
    None = AttributeError (LINK_ROOT flag without a link object). *)
Definition init_args (h : heap) (x : loc) : option (pyval * pyval * option nat * Z) :=
  let n := hnode h x in
  if is_link_root h x then
    match nlink n with
    | None => None
    | Some k => Some (ntag n, nval n, Some (lk_src k), nflags n)
    end
  else Some (ntag n, nval n, None, nflags n).

(** loop body 2451-2469: equal argument lists, else equal values *)
Definition pair_eqb (h : heap) (a b : loc) : bool :=
  match init_args h a, init_args h b with
  | Some (t1, v1, k1, f1), Some (t2, v2, k2, f2) =>
      (pyval_eqb t1 t2 && pyval_eqb v1 v2 && (f1 =? f2) &&
       match k1, k2 with Some a, Some b => Nat.eqb a b | None, None => true | _, _ => false end)
      || pyval_eqb v1 v2
  | _, _ => false
  end.
Fixpoint zip_all (h : heap) (l m : list loc) : bool :=
  match l, m with
  | x :: l', y :: m' => pair_eqb h x y && zip_all h l' m'
  | _, _ => true
  end.
(** [x == y].  Simplification: on a cyclic structure (where the code would not return
    if both sides are infinite) the model answers false. *)
Definition item_eqb (h : heap) (x y : loc) : bool :=
  if Nat.eqb x y then true
  else if negb (pyval_eqb (ntag (hnode h x)) (ntag (hnode h y))) then false
  else if negb (Nat.eqb (length (nitems (hnode h x))) (length (nitems (hnode h y)))) then false
  else if negb (pyval_eqb (nval (hnode h x)) (nval (hnode h y))) then false
  else match deep_list (S (hnext h)) h x, deep_list (S (hnext h)) h y with
       | Some l, Some m => zip_all h l m
       | _, _ => false
       end.

(** * Attaching items *)

(** [_append_item] (itree_private.py:323-370), identical to the tail of append
    (itree_main.py:1193-1220). *)
Definition append_core (p x : loc) : M unit :=
  h <- gets (fun h => h) ;;
  let items := nitems (hnode h p) in
  let t := ntag (hnode h x) in
  match items with
  | _ :: _ =>
    upd p (set_items (items ++ [x])) ;;;
    fam <- get_fam p t ;;
    match fam with
    | None => put_fam p t [x] ;;;
              upd x (set_prt (Some (PL p (Z.of_nat (length items)) 0 false)))
    | Some f => put_fam p t (f ++ [x]) ;;;
                upd x (set_prt (Some (PL p (Z.of_nat (length items)) (Z.of_nat (length f)) false)))
    end
  | [] =>
    upd p (set_items [x]) ;;;
    upd p (set_fams (Some [(t, [x])]) Current) ;;;
    upd x (set_prt (Some (PL p 0 0 false)))
  end.

(** [_append_item_left] (itree_private.py:372-400). *)
Definition append_left_core (p x : loc) : M unit :=
  h <- gets (fun h => h) ;;
  let t := ntag (hnode h x) in
  upd p (set_items (x :: nitems (hnode h p))) ;;;
  fam <- get_fam p t ;;
  match fam with
  | None => put_fam p t [x]
  | Some f => put_fam p t (x :: f)
  end ;;;
  upd x (set_prt (Some (PL p 0 0 false))).

(** argument of append & co: an iTree object or any other Python value *)
Inductive iarg := IItem (x : loc) | IVal (v : pyval).

(** [self.__class__(value=item)] *)
Definition new_item (t v : pyval) (fl : Z) (lk : option linkrec) : M loc := fun h =>
  let (h', x) := halloc h (fresh_node t v fl lk) in (h', Ok x).

(** "Given item has already a parent" / wrap a plain value
    (itree_main.py:1183-1190, 1282-1287, 1342-1347). *)
Definition free_item (a : iarg) : M loc :=
  match a with
  | IItem x => h <- gets (fun h => h) ;;
               match nprt (hnode h x) with
               | Some _ => throw RecursionError
               | None => ret x
               end
  | IVal v => new_item PNoTag v 0 None
  end.

Definition LINK_MASK := Z.lor (Z.lor LINKED LINK_ROOT) PLACEHOLDER.

Definition tag_in (t : pyval) (l : list pyval) : bool := existsb (pyval_eqb t) l.

(** protection check of append (itree_main.py:1176-1182) *)
Definition check_append (p : loc) (a : iarg) : M unit :=
  h <- gets (fun h => h) ;;
  if tree_protected h p then
    if is_link_root h p then
      match a with
      | IItem x => if has (nflags (hnode h x)) LINK_MASK then throw TypeError else ret tt
      | IVal _ => ret tt
      end
    else throw PermissionError
  else ret tt.

(** protection check of appendleft / insert / __setitem__
    (itree_main.py:1269-1281, 1329-1341, 1536-1548); a link root without link object
    raises AttributeError at [self._link]. *)
Definition check_insert (p : loc) (a : iarg) : M unit :=
  h <- gets (fun h => h) ;;
  if tree_protected h p then
    if is_link_root h p then
      match a with
      | IItem x =>
        if has (nflags (hnode h x)) LINK_MASK then throw TypeError
        else match nlink (hnode h p) with
             | None => throw AttributeError
             | Some k => if lk_loaded k && tag_in (ntag (hnode h x)) (lk_tags k)
                         then throw PermissionError else ret tt
             end
      | IVal _ =>
        match nlink (hnode h p) with
        | None => throw AttributeError
        | Some k => if lk_loaded k && tag_in PNoTag (lk_tags k)
                    then throw PermissionError else ret tt
        end
      end
    else throw PermissionError
  else ret tt.

(** [iTree.append] (itree_main.py:1147-1220). *)
Definition append (p : loc) (a : iarg) : M loc :=
  check_append p a ;;;
  x <- free_item a ;;
  append_core p x ;;;
  ret x.

(** [iTree.appendleft] (itree_main.py:1244-1291). *)
Definition appendleft (p : loc) (a : iarg) : M loc :=
  check_insert p a ;;;
  x <- free_item a ;;
  h <- gets (fun h => h) ;;
  match nitems (hnode h p) with
  | _ :: _ => append_left_core p x
  | [] => append_core p x
  end ;;;
  ret x.

(** Python's round(s / 2): halves go to the even neighbour. *)
Definition round_half (s : nat) : nat :=
  let k := Nat.div2 s in
  if Nat.even s then k else if Nat.even k then k else S k.

(** [_get_family_insertion_idx] (itree_private.py:429-450).  The recursion runs on
    slices of the family; [fuel] is the length (each slice is shorter). *)
Fixpoint fam_ins_idx (fuel : nat) (fam : list loc) (i : Z) (last : nat) : M nat :=
  match fuel with
  | O => throw Diverges
  | S f =>
    if Nat.eqb (length fam) 1 then
      match fam with
      | y :: _ =>
        o <- get_idx y ;;
        match o with
        | None => throw TypeError
        | Some j => ret (if j <? i then S last else last)
        end
      | [] => throw IndexError
      end
    else
      let m := round_half (length fam) in
      match nth_error fam m with
      | None => throw IndexError
      | Some y =>
        o <- get_idx y ;;
        match o with
        | None => throw TypeError
        | Some j => if j <? i then fam_ins_idx f (skipn m fam) i (last + m)
                    else fam_ins_idx f (firstn m fam) i last
        end
      end
  end.
Definition family_insertion_idx (fam : list loc) (i : Z) : M nat :=
  fam_ins_idx (S (length fam)) fam i 0.

(** * Subscript access *)

Fixpoint hashable (v : pyval) : bool :=
  match v with
  | PList _ | PDeque _ | PSet _ | PDict _ | PODict _ => false
  | PTuple l => forallb hashable l
  | _ => true
  end.

(** Subscript targets.  [TgVal] is any Python value (int, str, tuple, list, set, ...). *)
Inductive target :=
| TgVal (v : pyval)
| TgSlice (a b : option Z)                 (* step 1 *)
| TgTagAll (t : pyval)                     (* (tag, ...) *)
| TgTagSlice (t : pyval) (a b : option Z)  (* (tag, slice) *)
| TgTagIdx (t : pyval) (i : Z)             (* TagIdx namedtuple *)
| TgEllipsis
| TgFilter (f : node -> bool).             (* callable *)

Inductive gres := GItem (x : loc) | GList (l : list loc).

(** slice bounds with Python clamping (step 1) *)
Definition slice_bound (n : nat) (d : nat) (o : option Z) : nat :=
  match o with None => d | Some i => py_insert_pos n i end.
Definition py_slice {A} (a b : option Z) (l : list A) : list A :=
  let n := length l in
  let i := slice_bound n 0%nat a in
  let j := slice_bound n n b in
  firstn (j - i) (skipn i l).
Definition py_slice_del {A} (a b : option Z) (l : list A) : list A :=
  let n := length l in
  let i := slice_bound n 0%nat a in
  let j := slice_bound n n b in
  firstn i l ++ skipn (Nat.max i j) l.

(** [_getitem_fam(t)] / [_get_fam(t)] with any Python value: unhashable keys raise
    TypeError. *)
Definition fam_of (h : heap) (p : loc) (t : pyval) : res (option (list loc)) :=
  match nbound (hnode h p) with
  | Unbound => Err AttributeError
  | Current => match nfams (hnode h p) with
               | Some d => if hashable t then Ok (dget d t) else Err TypeError
               | None => Err AttributeError
               end
  | Stale d => if hashable t then Ok (dget d t) else Err TypeError
  end.
(** the dict in [self._families] *)
Definition families_of (h : heap) (p : loc) (t : pyval) : res (option (list loc)) :=
  match nfams (hnode h p) with
  | Some d => if hashable t then Ok (dget d t) else Err TypeError
  | None => Err AttributeError
  end.

Definition as_index (v : pyval) : option Z :=
  match v with PInt z => Some z | PBool b => Some (if b then 1 else 0) | _ => None end.
Definition list_at (l : list loc) (i : Z) : option loc :=
  match py_idx (length l) i with Some k => nth_error l k | None => None end.

(** [list(self._getitem_fam(target))] in the fallback branches, else exception [e] *)
Definition fallback (h : heap) (p : loc) (t : pyval) (e : exn) : res gres :=
  match fam_of h p t with Ok (Some f) => Ok (GList f) | _ => Err e end.

(** elements of an index collection used as family index *)
Fixpoint pick_all (f : list loc) (l : list pyval) : option (list loc) :=
  match l with
  | [] => Some []
  | v :: r => match as_index v with
              | None => None
              | Some i => match list_at f i, pick_all f r with
                          | Some x, Some y => Some (x :: y)
                          | _, _ => None
                          end
              end
  end.

(** tuple branch of [__getitem__] (itree_main.py:2089-2120) *)
Definition getitem_tuple (h : heap) (p : loc) (l : list pyval) : res gres :=
  let whole := PTuple l in
  match l with
  | [t; i] =>
    match fam_of h p t with
    | Ok (Some f) =>
      match as_index i with
      | Some z => match list_at f z with
                  | Some x => Ok (GItem x)
                  | None => fallback h p whole IndexError
                  end
      | None => (* TypeError: list indices must be integers *)
        match (match i with PList is | PTuple is | PDeque is | PSet is => pick_all f is
                          | _ => None end) with
        | Some xs => Ok (GList xs)
        | None => fallback h p whole ValueError
        end
      end
    | Ok None => fallback h p whole KeyError
    | Err TypeError => fallback h p whole ValueError
    | Err _ => fallback h p whole KeyError
    end
  | _ => fallback h p whole ValueError
  end.

(** [iTree.__getitem__] (itree_main.py:2046-2177) for plain Python values. *)
Fixpoint getitem_val (h : heap) (p : loc) (v : pyval) {struct v} : res gres :=
  match nitems (hnode h p) with
  | [] => Err KeyError
  | _ :: _ =>
    match v with
    | PTuple l => getitem_tuple h p l
    | PInt z => match list_at (nitems (hnode h p)) z with
                | Some x => Ok (GItem x)
                | None => fallback h p v IndexError
                end
    | PSet l =>
      (fix go (l : list pyval) (acc : list loc) : res gres :=
         match l with
         | [] => match acc with [] => Err KeyError | _ => Ok (GList acc) end
         | t :: r => match families_of h p t with
                     | Ok (Some f) => go r (acc ++ f)
                     | Ok None => Err KeyError
                     | Err e => Err e
                     end
         end) l []
    | PList l =>
      (fix go (l : list pyval) (acc : list loc) : res gres :=
         match l with
         | [] => match acc with [] => Err KeyError | _ => Ok (GList acc) end
         | t :: r => match getitem_val h p t with
                     | Ok (GItem x) => go r (acc ++ [x])
                     | Ok (GList xs) => go r (acc ++ xs)
                     | Err e => Err e
                     end
         end) l []
    | _ => match fam_of h p v with
           | Ok (Some f) => Ok (GList f)
           | Ok None => Err KeyError
           | Err e => Err e
           end
    end
  end.

Definition getitem (h : heap) (p : loc) (tg : target) : res gres :=
  match nitems (hnode h p) with
  | [] => Err KeyError
  | _ :: _ =>
    match tg with
    | TgVal v => getitem_val h p v
    | TgSlice a b => Ok (GList (py_slice a b (nitems (hnode h p))))
    | TgTagAll t =>
      match fam_of h p t with
      | Ok (Some f) => Ok (GList f)
      | Err TypeError => Err ValueError
      | _ => Err KeyError
      end
    | TgTagSlice t a b =>
      match fam_of h p t with
      | Ok (Some f) => Ok (GList (py_slice a b f))
      | Err TypeError => Err ValueError
      | _ => Err KeyError
      end
    | TgTagIdx t i =>
      match fam_of h p t with
      | Ok (Some f) => match list_at f i with Some x => Ok (GItem x) | None => Err IndexError end
      | Ok None => Err KeyError
      | Err e => Err e
      end
    | TgEllipsis => Ok (GList (nitems (hnode h p)))
    | TgFilter f => Ok (GList (filter (fun x => f (hnode h x)) (nitems (hnode h p))))
    end
  end.

(** * insert (itree_main.py:1293-1381) *)
(** target of insert: None, an iTree object, or a subscript target *)
Inductive instarget := InsNone | InsItem (x : loc) | InsAt (tg : target).

(** resolution of the absolute position (1354-1361) *)
Definition insert_pos (p : loc) (size : Z) (it : instarget) : M Z :=
  match it with
  | InsNone => throw TypeError
  | InsAt (TgVal (PInt z)) => ret (if z <? 0 then size + z else z)
  | InsItem x =>
    (* [target._itree_prt_idx is not self] compares a list (or None) with self: always true *)
    throw ValueError
  | InsAt tg =>
    h <- gets (fun h => h) ;;
    match getitem h p tg with
    | Err e => throw e
    | Ok (GItem x) => o <- get_idx x ;; match o with Some i => ret i | None => throw TypeError end
    | Ok (GList _) => throw AttributeError
    end
  end.

Definition insert_core (p x : loc) (abs : Z) : M unit :=
  if abs =? 0 then append_left_core p x
  else
    h <- gets (fun h => h) ;;
    upd p (set_items (py_insert abs x (nitems (hnode h p)))) ;;;
    let t := ntag (hnode h x) in
    fam <- get_fam p t ;;
    match fam with
    | None => put_fam p t [x] ;;; upd x (set_prt (Some (PL p abs 0 false)))
    | Some f =>
      k <- family_insertion_idx f abs ;;
      put_fam p t (insert_at k x f) ;;;
      upd x (set_prt (Some (PL p abs (Z.of_nat k) false)))
    end.

Definition insert (p : loc) (it : instarget) (a : iarg) : M loc :=
  match it with
  | InsNone => append p a
  | _ =>
    check_insert p a ;;;
    x <- free_item a ;;
    h <- gets (fun h => h) ;;
    match nitems (hnode h p) with
    | _ :: _ =>
      abs <- insert_pos p (Z.of_nat (length (nitems (hnode h p)))) it ;;
      insert_core p x abs ;;;
      ret x
    | [] => append_core p x ;;; ret x
    end
  end.

(** * Copy (itree_private.py:555-591 with _get_copy_args 452-500).
    The explicit iterator stack of [_iter_copy] is modelled (and proved equal to the
    recursion used here) in the tree layer; here the recursion is written directly:
    create the new item, attach it to its new parent, then fill it.
    [fuel] bounds the depth.  Values are immutable in the model, so copy.copy and
    copy.deepcopy of a value are the value itself.  Simplification: a link root with
    LOAD_LINKS would reload its link when re-constructed; this is not modelled. *)
Definition copy_args (n : node) : pyval * pyval * Z * option linkrec :=
  (ntag n, nval n,
   (if has (nflags n) LINK_ROOT
    then Z.lor (Z.land (nflags n) FLAG_MASK) LINK_ROOT else Z.land (nflags n) FLAG_MASK),
   (if has (nflags n) LINK_ROOT
    then option_map (fun k => LK (lk_src k) false [] None) (nlink n) else None)).
Definition copy_node (x : loc) : M loc :=
  h <- gets (fun h => h) ;;
  let '(t, v, fl, lk) := copy_args (hnode h x) in
  if has (nflags (hnode h x)) LINK_ROOT && match nlink (hnode h x) with None => true | _ => false end
  then throw AttributeError
  else new_item t v fl lk.

Fixpoint mapM_ {A} (f : A -> M unit) (l : list A) : M unit :=
  match l with
  | [] => ret tt
  | x :: r => f x ;;; mapM_ f r
  end.
Fixpoint mapM {A B} (f : A -> M B) (l : list A) : M (list B) :=
  match l with
  | [] => ret []
  | x :: r => y <- f x ;; ys <- mapM f r ;; ret (y :: ys)
  end.

Fixpoint copy_children (fuel : nat) (src dst : loc) : M unit :=
  match fuel with
  | O => throw Diverges
  | S f =>
    h <- gets (fun h => h) ;;
    mapM_ (fun c => c' <- copy_node c ;; append_core dst c' ;;; copy_children f c c')
          (nitems (hnode h src))
  end.
Definition copy_item (x : loc) : M loc :=
  h <- gets (fun h => h) ;;
  x' <- copy_node x ;;
  copy_children (S (hnext h)) x x' ;;;
  ret x'.

(** [iTree.root] (itree_main.py:357-371), following parents; None = cyclic. *)
Fixpoint root_of (fuel : nat) (h : heap) (x : loc) : option loc :=
  match fuel with
  | O => None
  | S f => match nprt (hnode h x) with
           | None => Some x
           | Some pl => root_of f h (pl_par pl)
           end
  end.

(** * extend (itree_private.py:223-321, itree_main.py:1385-1425) *)
(** element of the iterable: an iTree, a list [tag, value] (constructor arguments), or
    any other value *)
Inductive earg := EItem (x : loc) | EArgs (t v : pyval) | EVal (v : pyval).

Definition ext_item (e : earg) : M loc :=
  match e with
  | EItem x => h <- gets (fun h => h) ;;
               match nprt (hnode h x) with
               | Some _ => copy_item x
               | None => ret x
               end
  | EArgs t v => if hashable t then new_item t v 0 None else throw TypeError
  | EVal v => new_item PNoTag v 0 None
  end.

(** one round of the loop 302-321 (or 281-300 when flags are inherited) followed by the
    append done by the consumer [self._items.extend(...)] *)
Definition ext_step (p : loc) (e : earg) : M unit :=
  x <- ext_item e ;;
  h <- gets (fun h => h) ;;
  let t := ntag (hnode h x) in
  let i := Z.of_nat (length (nitems (hnode h p))) in
  fam <- get_fam p t ;;
  match fam with
  | None => put_fam p t [x] ;;; upd x (set_prt (Some (PL p i 0 false)))
  | Some f => put_fam p t (f ++ [x]) ;;;
              upd x (set_prt (Some (PL p i (Z.of_nat (length f)) false)))
  end ;;;
  h' <- gets (fun h => h) ;;
  upd p (set_items (nitems (hnode h' p) ++ [x])).

(** [_iter_extend] driven by list.extend; an empty target gets a new families dict and
    re-bound methods (270-278). *)
Definition iter_extend (p : loc) (es : list earg) : M unit :=
  h <- gets (fun h => h) ;;
  (match nitems (hnode h p) with
   | [] => upd p (set_fams (Some []) Current)
   | _ => ret tt
   end) ;;;
  mapM_ (ext_step p) es.

(** link-root check of extend (1409-1424); the non-link-root protected case raises *)
Definition check_extend (p : loc) (es : list earg) : M unit :=
  h <- gets (fun h => h) ;;
  if tree_protected h p then
    if is_link_root h p then
      match nlink (hnode h p) with
      | None => throw AttributeError
      | Some k =>
        if lk_loaded k && existsb (fun e => match e with
                                            | EItem x => has (nflags (hnode h x)) LINK_MASK
                                            | _ => false end) es
        then throw PermissionError else ret tt
      end
    else throw PermissionError
  else ret tt.

Definition extend (p : loc) (es : list earg) : M unit :=
  check_extend p es ;;; iter_extend p es.

(** extend(iTree): an iTree of the same root is copied first (264-266), then its
    children are iterated (all of them have a parent and are copied). *)
Definition extend_tree (p q : loc) : M unit :=
  check_extend p [] ;;;
  h <- gets (fun h => h) ;;
  match root_of (S (hnext h)) h p, root_of (S (hnext h)) h q with
  | Some r, Some r' =>
    q' <- (if Nat.eqb r r' then copy_item q else ret q) ;;
    h' <- gets (fun h => h) ;;
    iter_extend p (map EItem (nitems (hnode h' q')))
  | _, _ => throw Diverges
  end.

(** [iTree.extendleft] (itree_main.py:1427-1484). *)
Definition check_extendleft (p : loc) (es : list earg) : M unit :=
  h <- gets (fun h => h) ;;
  if tree_protected h p then
    if is_link_root h p then
      match nlink (hnode h p) with
      | None => throw AttributeError
      | Some k =>
        if lk_loaded k && existsb (fun e => match e with
                     | EItem x => has (nflags (hnode h x)) LINK_MASK
                                  || tag_in (ntag (hnode h x)) (lk_tags k)
                     | _ => tag_in PNoTag (lk_tags k) end) es
        then throw PermissionError else ret tt
      end
    else throw PermissionError
  else ret tt.

Definition clear_items (p : loc) : M unit :=
  (* [self._families = {}] leaves the bound methods on the old dict; [_items.clear()] *)
  upd p (fun n => set_items [] (set_fams (Some [])
            (match nbound n with
             | Current => match nfams n with Some d => Stale d | None => Unbound end
             | b => b end) n)).

Definition extendleft (p : loc) (es : list earg) : M unit :=
  check_extendleft p es ;;;
  h <- gets (fun h => h) ;;
  let old := nitems (hnode h p) in
  mapM_ (fun i => upd i (set_prt None)) old ;;;
  clear_items p ;;;
  iter_extend p (es ++ map EItem old).

(** * Deletion (itree_main.py:1831-1936) *)

(** [list.index(x, start)]: identity or equality *)
Fixpoint index_from (eq : loc -> bool) (l : list loc) (i start : nat) : option nat :=
  match l with
  | [] => None
  | y :: r => if Nat.leb start i && eq y then Some i else index_from eq r (S i) start
  end.
(** the loop 1882-1888 (one round per family member) *)
Fixpoint fam_search (rounds : nat) (eq : loc -> bool) (fam : list loc) (x : loc) (start : nat)
  : res nat :=
  match rounds with
  | O => Err UnboundLocalError
  | S k => match index_from eq fam 0%nat start with
           | None => Err ValueError
           | Some i => match nth_error fam i with
                       | Some y => if Nat.eqb y x then Ok i
                                   else fam_search k eq fam x (S i)
                       | None => Err IndexError
                       end
           end
  end.

(** is_link_loaded (itree_main.py:3189-3196), only needed for link roots *)
Definition root_loaded (h : heap) (p : loc) : bool :=
  is_link_root h p &&
  match nlink (hnode h p) with Some k => lk_loaded k | None => false end.

(** protection check of __delitem__ (1852-1856) *)
Definition check_del (p : loc) : M bool :=
  h <- gets (fun h => h) ;;
  if tree_protected h p then
    if negb (is_link_root h p) then throw PermissionError
    else ret (root_loaded h p)
  else ret false.

(** removing a found item from its family (1865-1893) *)
Definition unfamily (p x : loc) : M unit :=
  h <- gets (fun h => h) ;;
  let t := ntag (hnode h x) in
  fam <- getitem_fam p t ;;
  if negb (Nat.eqb (length fam) 1) then
    match nprt (hnode h x) with
    | None => throw TypeError
    | Some pl =>
      b <- lift (fast_hit fam (pl_fam pl) x) ;;
      if b : bool then
        match py_idx (length fam) (pl_fam pl) with
        | Some k => put_fam p t (remove_at k fam)
        | None => throw IndexError
        end
      else
        k <- lift (fam_search (length fam) (item_eqb h x) fam x 0%nat) ;;
        put_fam p t (remove_at k fam)
    end
  else del_fam p t.

Definition del_int (p : loc) (i : Z) : M loc :=
  lr <- check_del p ;;
  h <- gets (fun h => h) ;;
  match nitems (hnode h p) with
  | [] => throw KeyError
  | _ :: _ =>
    match py_idx (length (nitems (hnode h p))) i with
    | None => throw IndexError
    | Some k =>
      match nth_error (nitems (hnode h p)) k with
      | None => throw IndexError
      | Some x =>
        if lr && has (nflags (hnode h x)) (Z.lor LINKED PLACEHOLDER) then throw PermissionError
        else
          upd p (set_items (remove_at k (nitems (hnode h p)))) ;;;
          match match nlink (hnode h x) with Some lk => lk_cover lk | None => None end with
          | Some y =>  (* a local item covering a linked one: the linked item comes back *)
            ti <- get_tag_idx x ;;
            match ti with
            | TIPair _ f =>
              h1 <- gets (fun h => h) ;;
              upd p (set_items (py_insert i y (nitems (hnode h1 p)))) ;;;
              fam <- getitem_fam p (ntag (hnode h x)) ;;
              match py_idx (length fam) f with
              | Some k' => put_fam p (ntag (hnode h x)) (replace_at k' y fam)
              | None => throw IndexError
              end ;;;
              upd y (set_prt (Some (PL p i f false))) ;;;
              upd x (set_prt None) ;;;
              ret x
            | _ => throw TypeError
            end
          | None =>
            unfamily p x ;;;
            upd x (set_prt None) ;;;
            ret x
          end
      end
    end
  end.

(** slice deletion (1894-1929): the [return] sits inside the loop, so only the first
    removed item is processed; the enclosing zip over range(start, stop) needs integer
    bounds.  Falls through to KeyError (1936) when the loop body never runs. *)
Definition del_slice (p : loc) (a b : option Z) : M gres :=
  lr <- check_del p ;;
  h <- gets (fun h => h) ;;
  match nitems (hnode h p) with
  | [] => throw KeyError
  | _ :: _ =>
    let dels := py_slice a b (nitems (hnode h p)) in
    if lr && existsb (fun x => has (nflags (hnode h x)) (Z.lor LINKED PLACEHOLDER)) dels
    then throw PermissionError
    else
      upd p (set_items (py_slice_del a b (nitems (hnode h p)))) ;;;
      match a, b with
      | Some i, Some j =>
        match dels with
        | x :: _ =>
          if i <? j then
            let t := ntag (hnode h x) in
            fam <- getitem_fam p t ;;
            (if negb (Nat.eqb (length fam) 1) then
               match nprt (hnode h x) with
               | None => throw TypeError
               | Some pl =>
                 bb <- lift (fast_hit fam (pl_fam pl) x) ;;
                 if bb : bool then
                   match py_idx (length fam) (pl_fam pl) with
                   | Some k => put_fam p t (remove_at k fam)
                   | None => throw IndexError
                   end
                 else
                   k <- lift (fam_search (length fam) (item_eqb h x) fam x 0%nat) ;;
                   put_fam p t (remove_at k fam)
               end
             else ret tt) ;;;
            upd x (set_prt None) ;;;
            ret (GList dels)
          else throw KeyError
        | [] => throw KeyError
        end
      | _, _ => throw TypeError
      end
  end.

Definition idx_or_type_error (x : loc) : M Z :=
  o <- get_idx x ;; match o with Some i => ret i | None => throw TypeError end.

(** [iTree.__delitem__] / [pop] (1831-1936, 1978-1998) *)
Definition delitem (p : loc) (tg : target) : M gres :=
  match tg with
  | TgVal (PInt i) => x <- del_int p i ;; ret (GItem x)
  | TgSlice a b => del_slice p a b
  | _ =>
    check_del p ;;;
    h <- gets (fun h => h) ;;
    match nitems (hnode h p) with
    | [] => throw KeyError
    | _ :: _ =>
      match getitem h p tg with
      | Err e => throw e
      | Ok (GItem x) => i <- idx_or_type_error x ;; y <- del_int p i ;; ret (GItem y)
      | Ok (GList l) =>
        ys <- mapM (fun x => i <- idx_or_type_error x ;; del_int p i) l ;; ret (GList ys)
      end
    end
  end.

(** [iTree.remove] of a single item (2000-2019) *)
Definition remove (p x : loc) : M loc :=
  h <- gets (fun h => h) ;;
  match nprt (hnode h x) with
  | Some pl => if Nat.eqb (pl_par pl) p
               then i <- idx_or_type_error x ;; del_int p i
               else throw ValueError
  | None => throw ValueError
  end.

(** * __setitem__ (itree_main.py:1488-1632), for a single new value.
    Assigning a list/tuple of items (1556-1559) is not modelled. *)
Definition setitem (p : loc) (tg : target) (a : iarg) : M loc :=
  check_insert p a ;;;
  h <- gets (fun h => h) ;;
  match getitem h p tg with
  | Err e => throw e
  | Ok old =>
    if match old, a with GItem o, IItem x => Nat.eqb o x | _, _ => false end
    then match a with IItem x => ret x | IVal _ => throw Unsupported end
    else
      x <- (match a with
            | IItem x =>
              match nprt (hnode h x) with
              | None => ret x
              | Some pl => if item_eqb h (pl_par pl) p then copy_item x
                           else throw RecursionError
              end
            | IVal (PTuple _) | IVal (PList _) => throw Unsupported
            | IVal v => new_item PNoTag v 0 None
            end) ;;
      h1 <- gets (fun h => h) ;;
      let t := ntag (hnode h1 x) in
      match tg with
      | TgEllipsis =>
        fo <- lift (families_of h1 p t) ;;
        match fo with
        | Some _ => delitem p (TgVal t) ;;; append p (IItem x)
        | None => append p (IItem x)
        end
      | _ =>
        if match tg with TgVal v => pyval_eqb v t | _ => false end then
          fam <- get_fam p t ;;
          match fam with
          | None => append p (IItem x)
          | Some f =>
            if existsb (fun i => match nlink (hnode h1 i) with
                                 | Some k => match lk_cover k with Some _ => true | None => false end
                                 | None => false end) f
            then throw AttributeError
            else
              match f with
              | [] => throw IndexError
              | f0 :: fr =>
                oi <- idx_or_type_error f0 ;;
                mapM_ (fun i => j <- idx_or_type_error i ;;
                                h2 <- gets (fun h => h) ;;
                                match py_idx (length (nitems (hnode h2 p))) j with
                                | Some k => upd p (set_items (remove_at k (nitems (hnode h2 p))))
                                | None => throw IndexError
                                end) (rev fr) ;;;
                h3 <- gets (fun h => h) ;;
                match py_idx (length (nitems (hnode h3 p))) oi with
                | None => throw IndexError
                | Some k =>
                  upd p (set_items (replace_at k x (nitems (hnode h3 p)))) ;;;
                  (match nfams (hnode h3 p) with
                   | Some d => upd p (fun n => set_fams (Some (dset d t [x])) (nbound n) n)
                   | None => throw AttributeError
                   end) ;;;
                  upd x (set_prt (Some (PL p oi 0 true))) ;;;
                  ret x
                end
              end
          end
        else
          match old with
          | GList _ => throw LookupError
          | GItem o =>
            i <- idx_or_type_error o ;;
            ti <- get_tag_idx o ;;
            match ti with
            | TIPair ot of_ =>
              upd o (set_prt None) ;;;
              h2 <- gets (fun h => h) ;;
              match py_idx (length (nitems (hnode h2 p))) i with
              | None => throw IndexError
              | Some k =>
                upd p (set_items (replace_at k x (nitems (hnode h2 p)))) ;;;
                fi <- (if pyval_eqb t ot then
                         f <- getitem_fam p t ;;
                         match py_idx (length f) of_ with
                         | Some k' => put_fam p t (replace_at k' x f) ;;; ret of_
                         | None => throw IndexError
                         end
                       else
                         f <- getitem_fam p ot ;;
                         match py_idx (length f) of_ with
                         | None => throw IndexError
                         | Some k' =>
                           put_fam p ot (remove_at k' f) ;;;
                           g <- get_fam p t ;;
                           match g with
                           | None => put_fam p t [x] ;;; ret 0
                           | Some g =>
                             fun hh =>
                               match family_insertion_idx g i hh with
                               | (hh1, Ok n) => (put_fam p t (insert_at n x g) ;;;
                                                 ret (Z.of_nat n)) hh1
                               | (hh1, Err IndexError) | (hh1, Err KeyError) =>
                                   (put_fam p t [x] ;;; ret 0) hh1
                               | (hh1, Err e) => (hh1, Err e)
                               end
                           end
                         end) ;;
                upd x (set_prt (Some (PL p i fi false))) ;;;
                ret x
              end
            | _ => throw TypeError
            end
          end
      end
  end.

(** * move (itree_main.py:1634-1677) *)
Definition check_move (p x : loc) : M unit :=
  h <- gets (fun h => h) ;;
  if tree_protected h p then
    if is_link_root h p then
      match nlink (hnode h p) with
      | None => throw AttributeError
      | Some k => if lk_loaded k && tag_in (ntag (hnode h x)) (lk_tags k)
                  then throw PermissionError else ret tt
      end
    else throw PermissionError
  else ret tt.

Definition move (x : loc) (tg : option target) : M loc :=
  h <- gets (fun h => h) ;;
  match nprt (hnode h x) with
  | None => throw LookupError
  | Some pl =>
    let p := pl_par pl in
    check_move p x ;;;
    match tg with
    | None =>
      i <- idx_or_type_error x ;;
      y <- del_int p i ;;
      append p (IItem y)
    | Some tg =>
      ti <- (match tg with
             | TgVal (PInt z) => ret z
             | _ => h1 <- gets (fun h => h) ;;
                    match getitem h1 p tg with
                    | Err e => throw e
                    | Ok (GItem y) => idx_or_type_error y
                    | Ok (GList _) => throw LookupError
                    end
             end) ;;
      si <- idx_or_type_error x ;;
      y <- del_int p si ;;
      insert p (InsAt (TgVal (PInt ti))) (IItem y)
    end
  end.

(** * rename (itree_main.py:1679-1731) *)
Definition check_rename (p x : loc) (t : pyval) : M unit :=
  h <- gets (fun h => h) ;;
  if tree_protected h p then
    if is_link_root h p then
      match nlink (hnode h p) with
      | None => throw AttributeError
      | Some k =>
        if lk_loaded k then
          if tag_in t (lk_tags k) then throw PermissionError
          else if has (nflags (hnode h x)) (Z.lor LINKED PLACEHOLDER) then throw PermissionError
          else ret tt
        else ret tt
      end
    else throw PermissionError
  else ret tt.

(** [family.remove(self)]: the first identical or equal member *)
Definition list_remove_eq (eq : loc -> bool) (l : list loc) : option (list loc) :=
  match index_from eq l 0%nat 0%nat with
  | Some i => Some (remove_at i l)
  | None => None
  end.

(** reading / writing a family through [_families] itself (1712-1730) *)
Definition dict_get (p : loc) (t : pyval) : M (option (list loc)) := fun h =>
  match nfams (hnode h p) with
  | None => (h, Err AttributeError)
  | Some d => (h, Ok (dget d t))
  end.
Definition dict_put (p : loc) (t : pyval) (l : list loc) : M unit := fun h =>
  match nfams (hnode h p) with
  | None => (h, Err AttributeError)
  | Some d => (hmod h p (set_fams (Some (dset d t l)) (nbound (hnode h p))), Ok tt)
  end.

(** Result: None for a root item (1711), the item otherwise. *)
Definition rename (x : loc) (t : pyval) : M (option loc) :=
  h <- gets (fun h => h) ;;
  match nprt (hnode h x) with
  | None => upd x (set_tag t) ;;; ret None
  | Some pl =>
    let p := pl_par pl in
    check_rename p x t ;;;
    let t0 := ntag (hnode h x) in
    fo <- dict_get p t0 ;;
    match fo with
    | None => throw KeyError
    | Some f =>
      (if Nat.eqb (length f) 1 then del_fam p t0
       else match list_remove_eq (fun y => item_eqb h x y) f with
            | Some f' => dict_put p t0 f'
            | None => throw ValueError
            end) ;;;
      upd x (set_tag t) ;;;
      (* [new_tag in families] raises for an unhashable tag, after the removal above *)
      go <- (if hashable t then dict_get p t else throw TypeError) ;;
      match go with
      | Some g =>
        i <- idx_or_type_error x ;;
        k <- family_insertion_idx g i ;;
        dict_put p t (insert_at k x g) ;;;
        set_cache TypeError SFam x (Z.of_nat k)
      | None =>
        dict_put p t [x] ;;;
        set_cache TypeError SFam x 0
      end ;;;
      ret (Some x)
    end
  end.

(** * reverse, rotate, sort, clear *)

(** [reverse], [rotate], [sort] (1733-1828): a protected item raises, except a link root
    that is not loaded, for which nothing at all happens. *)
Definition check_order (p : loc) : M bool :=
  h <- gets (fun h => h) ;;
  if tree_protected h p then
    if is_link_root h p then
      match nlink (hnode h p) with
      | None => throw AttributeError
      | Some k => if lk_loaded k then throw PermissionError else ret false
      end
    else throw PermissionError
  else ret true.

Definition reverse (p : loc) : M unit :=
  go <- check_order p ;;
  if go : bool then
    h <- gets (fun h => h) ;;
    upd p (set_items (rev (nitems (hnode h p)))) ;;;
    match nfams (hnode h p) with
    | None => throw AttributeError
    | Some d => upd p (fun n => set_fams (Some (map (fun kv => (fst kv, rev (snd kv))) d))
                                         (nbound n) n)
    end
  else ret tt.

(** [[self.pop(i) for _ in range(n)]] *)
Fixpoint pop_n (n : nat) (p : loc) (i : Z) : M (list loc) :=
  match n with
  | O => ret []
  | S k => x <- del_int p i ;; r <- pop_n k p i ;; ret (x :: r)
  end.

Definition rotate (p : loc) (n : Z) : M unit :=
  go <- check_order p ;;
  if go : bool then
    if 0 <? n then
      l <- pop_n (Z.to_nat n) p (-1) ;; extendleft p (map EItem (rev l))
    else if n <? 0 then
      l <- pop_n (Z.to_nat (- n)) p 0 ;; extend p (map EItem l)
    else ret tt
  else ret tt.

(** stable insertion sort = specification of list.sort with an integer key *)
Fixpoint ins_sorted (key : loc -> Z) (x : loc) (l : list loc) : list loc :=
  match l with
  | [] => [x]
  | y :: r => if key x <=? key y then x :: l else y :: ins_sorted key x r
  end.
Fixpoint sort_list (key : loc -> Z) (l : list loc) : list loc :=
  match l with
  | [] => []
  | x :: r => ins_sorted key x (sort_list key r)
  end.
(** [key] is the user's key function (integers), or None: comparison by [__lt__], i.e. by
    the number of children (2482-2488).  reverse=True keeps stability: negated key. *)
Definition sort_key (h : heap) (key : option (node -> Z)) (rv : bool) (x : loc) : Z :=
  let k := match key with
           | Some f => f (hnode h x)
           | None => Z.of_nat (length (nitems (hnode h x)))
           end in
  if rv then - k else k.

Definition sort (p : loc) (key : option (node -> Z)) (rv : bool) : M unit :=
  go <- check_order p ;;
  if go : bool then
    h <- gets (fun h => h) ;;
    let l := sort_list (sort_key h key rv) (nitems (hnode h p)) in
    clear_items p ;;;
    extend p (map EItem l)
  else ret tt.

(** [_unset_flags] (itree_private.py:194-200): [s & (~s & flags)]. *)
Definition unset_flags_val (s fl : Z) : Z := Z.land s (Z.land (Z.lnot s) fl).
Definition unset_flags (x : loc) (fl : Z) : M unit :=
  h <- gets (fun h => h) ;;
  if has (nflags (hnode h x)) LINKED then throw PermissionError
  else upd x (fun n => set_flg (unset_flags_val (nflags n) fl) n).

(** [iTree.clear] (1938-1976), local_only=False. *)
Definition clear (p : loc) (keep_value : bool) : M unit :=
  h <- gets (fun h => h) ;;
  if tree_protected h p && negb (is_link_root h p) then throw PermissionError
  else
    (if is_link_root h p then
       (* [self._link._loaded = False] : is_loaded tests [is not None], so it stays loaded *)
       match nlink (hnode h p) with
       | None => throw AttributeError
       | Some k => upd p (set_link (Some (LK (lk_src k) true (lk_tags k) (lk_cover k))))
       end
     else ret tt) ;;;
    unset_flags p LOAD_LINKS ;;;
    clear_items p ;;;
    if keep_value then ret tt else upd p (set_val PNoValue).

(** * Flags and values *)

(** [_set_flags] (itree_private.py:138-149) *)
Definition set_flags (x : loc) (fl : Z) (init : bool) : M unit :=
  h <- gets (fun h => h) ;;
  if negb init && has (nflags (hnode h x)) LINKED then throw PermissionError
  else upd x (fun n => set_flg (Z.lor (nflags n) fl) n).

Definition set_flags_list (fl : Z) (init : bool) (l : list loc) : M unit :=
  mapM_ (fun x => set_flags x fl init) l.

(** [set_tree_read_only] (itree_main.py:843-859) *)
Definition set_tree_read_only (x : loc) : M unit :=
  h <- gets (fun h => h) ;;
  if has (nflags (hnode h x)) LINKED then throw PermissionError
  else match deep_list (S (hnext h)) h x with
       | None => throw Diverges
       | Some l => set_flags_list READ_ONLY_TREE false (x :: l)
       end.

(** [unset_tree_read_only] (861-873) *)
Definition unset_tree_read_only (x : loc) : M unit :=
  h <- gets (fun h => h) ;;
  if match nprt (hnode h x) with
     | Some pl => has (nflags (hnode h (pl_par pl))) READ_ONLY_TREE
     | None => false end
  then throw PermissionError
  else unset_flags x READ_ONLY_TREE.

(** [set_value_read_only] / [unset_value_read_only] (889-906) *)
Definition set_value_read_only (x : loc) : M unit := set_flags x READ_ONLY_VALUE false.
Definition unset_value_read_only (x : loc) : M unit :=
  h <- gets (fun h => h) ;;
  if has (nflags (hnode h x)) LINKED then throw PermissionError
  else unset_flags x READ_ONLY_VALUE.

(** [set_value] (921-954) for values that are no value models; returns the old value. *)
Definition set_value (x : loc) (v : pyval) : M pyval :=
  h <- gets (fun h => h) ;;
  if has (nflags (hnode h x)) IS_VALUE_PROTECTED then throw PermissionError
  else upd x (set_val v) ;;; ret (nval (hnode h x)).

(** [del_value] (1070-1083) *)
Definition del_value (x : loc) : M pyval :=
  h <- gets (fun h => h) ;;
  if has (nflags (hnode h x)) READ_ONLY_VALUE then throw PermissionError
  else upd x (set_val PNoValue) ;;; ret (nval (hnode h x)).

(** ** values that are containers *)
(** association lists in insertion order (Python dict / OrderedDict) *)
Fixpoint vget (d : list (pyval * pyval)) (k : pyval) : option pyval :=
  match d with
  | [] => None
  | (k', v) :: r => if pyval_eqb k' k then Some v else vget r k
  end.
Fixpoint vset (d : list (pyval * pyval)) (k v : pyval) : list (pyval * pyval) :=
  match d with
  | [] => [(k, v)]
  | (k', w) :: r => if pyval_eqb k' k then (k', v) :: r else (k', w) :: vset r k v
  end.
Definition vdel (d : list (pyval * pyval)) (k : pyval) : list (pyval * pyval) :=
  filter (fun kv => negb (pyval_eqb (fst kv) k)) d.
(** INF (itree_helpers.py) as a key: the float infinity; here the opaque object 0. *)
Definition INF_KEY := PObj 0.
(** [value[key] = v] as done by set_key_value (itree_main.py:1000-1017): the new container
    and the returned old entry.  Values are plain (no value models); a container is part of
    one item only (sharing of one container object by several items is not modelled). *)
Definition seq_set (l : list pyval) (k v : pyval) : res (list pyval * pyval) :=
  match k with
  | PInt i => match py_idx (length l) i with
              | Some n => Ok (replace_at n v l, nth n l PNone)
              | None => Err IndexError
              end
  | _ => if pyval_eqb k INF_KEY then Ok (l ++ [v], PNoValue) else Err TypeError
  end.
(** readable by index but not assignable: the assignment raises TypeError *)
Definition imm_set (n : nat) (k : pyval) : res (pyval * pyval) :=
  match k with
  | PInt i => match py_idx n i with Some _ => Err TypeError | None => Err IndexError end
  | _ => if pyval_eqb k INF_KEY then Err AttributeError else Err TypeError
  end.
Definition key_set (c k v : pyval) : res (pyval * pyval) :=
  match c with
  | PDict d => if hashable k then Ok (PDict (vset d k v), match vget d k with Some o => o | None => PNoValue end)
               else Err TypeError
  | PODict d => if hashable k then Ok (PODict (vset d k v), match vget d k with Some o => o | None => PNoValue end)
                else Err TypeError
  | PList l => match seq_set l k v with Ok (l', o) => Ok (PList l', o) | Err e => Err e end
  | PDeque l => match seq_set l k v with Ok (l', o) => Ok (PDeque l', o) | Err e => Err e end
  | PStr s | PBytes s => imm_set (String.length s) k
  | PTuple l => imm_set (length l) k
  | _ => if pyval_eqb k INF_KEY then Err AttributeError else Err TypeError
  end.
(** [set_key_value] (itree_main.py:956-1020) *)
Definition set_key_value (x : loc) (k v : pyval) : M pyval :=
  h <- gets (fun h => h) ;;
  if has (nflags (hnode h x)) IS_VALUE_PROTECTED then throw PermissionError
  else match key_set (nval (hnode h x)) k v with
       | Err e => throw e
       | Ok (c, o) => upd x (set_val c) ;;; ret o
       end.
(** [value.pop(key)] (1109) *)
Definition key_pop (c k : pyval) : res (pyval * pyval) :=
  match c with
  | PDict d => match vget d k with Some o => Ok (PDict (vdel d k), o) | None => if hashable k then Err KeyError else Err TypeError end
  | PODict d => match vget d k with Some o => Ok (PODict (vdel d k), o) | None => if hashable k then Err KeyError else Err TypeError end
  | PList l => match k with
               | PInt i => match py_idx (length l) i with
                           | Some n => Ok (PList (remove_at n l), nth n l PNone)
                           | None => Err IndexError
                           end
               | _ => Err TypeError
               end
  | PDeque _ | PSet _ => Err TypeError
  | _ => Err AttributeError
  end.
(** [del_key_value] (1085-1109): only READ_ONLY_VALUE is checked *)
Definition del_key_value (x : loc) (k : pyval) : M pyval :=
  h <- gets (fun h => h) ;;
  if has (nflags (hnode h x)) READ_ONLY_VALUE then throw PermissionError
  else match key_pop (nval (hnode h x)) k with
       | Err e => throw e
       | Ok (c, o) => upd x (set_val c) ;;; ret o
       end.
(** [get_value] / [get_key_value] (1022-1068) for plain values *)
Definition get_value (h : heap) (x : loc) : pyval := nval (hnode h x).
Definition get_key_value (h : heap) (x : loc) (k : pyval) : res pyval :=
  match nval (hnode h x) with
  | PDict d | PODict d => match vget d k with Some o => Ok o | None => if hashable k then Err KeyError else Err TypeError end
  | PList l | PDeque l | PTuple l =>
      match k with
      | PInt i => match py_idx (length l) i with Some n => Ok (nth n l PNone) | None => Err IndexError end
      | _ => Err TypeError
      end
  | PStr _ | PBytes _ => Err Unsupported
  | _ => Err TypeError
  end.

Definition set_coupled_object (x : loc) (c : nat) : M unit := upd x (set_coupled (Some c)).
  (* itree_main.py:1127-1141 *)

(** * Constructor (itree_main.py:110-311); [subtree] as list, [link] as source number.
    With flags the children inherit LOAD_LINKS / READ_ONLY_TREE on all levels
    (279-300).  Loading of links is not modelled here. *)
Definition ext_step_flags (p : loc) (fl : Z) (e : earg) : M unit :=
  ext_step p e ;;;
  if fl =? 0 then ret tt
  else
    h <- gets (fun h => h) ;;
    match last (map Some (nitems (hnode h p))) None with
    | None => ret tt
    | Some x => match deep_list (S (hnext h)) h x with
                | None => throw Diverges
                | Some l => set_flags_list fl true (x :: l)
                end
    end.
Definition new_tree (t v : pyval) (subtree : list earg) (link : option nat) (fl : Z) : M loc :=
  if negb (hashable t) then throw TypeError
  else
    x <- new_item t v (Z.land fl FLAG_MASK) None ;;
    (match subtree with
     | [] => ret tt
     | _ => upd x (set_fams (Some []) Current) ;;;
            mapM_ (ext_step_flags x (Z.land (Z.land fl FLAG_MASK) DEEP_FLAG_MASK)) subtree
     end) ;;;
    (match link with
     | None => ret tt
     | Some s => upd x (fun n => set_link (Some (LK s false [] None))
                                          (set_flg (Z.lor (nflags n) LINK_ROOT) n))
     end) ;;;
    ret x.

(** * Readers *)

(** parent (324), is_root (355) *)
Definition parent (h : heap) (x : loc) : option loc := option_map pl_par (nprt (hnode h x)).

(** level (621-638): number of parents; None = cyclic *)
Fixpoint level_of (fuel : nat) (h : heap) (x : loc) : option nat :=
  match fuel with
  | O => None
  | S f => match nprt (hnode h x) with
           | None => Some 0%nat
           | Some pl => option_map S (level_of f h (pl_par pl))
           end
  end.

(** idx_path (443-467) *)
Fixpoint idx_path (fuel : nat) (x : loc) : M (list Z) :=
  match fuel with
  | O => throw Diverges
  | S f => h <- gets (fun h => h) ;;
           match nprt (hnode h x) with
           | None => ret []
           | Some pl => i <- idx_or_type_error x ;;
                        r <- idx_path f (pl_par pl) ;;
                        ret (r ++ [i])
           end
  end.
(** tag_idx_path (521-547) *)
Fixpoint tag_idx_path (fuel : nat) (x : loc) : M (list tagidx) :=
  match fuel with
  | O => throw Diverges
  | S f => h <- gets (fun h => h) ;;
           match nprt (hnode h x) with
           | None => ret []
           | Some pl => i <- get_tag_idx x ;;
                        r <- tag_idx_path f (pl_par pl) ;;
                        ret (r ++ [i])
           end
  end.

(** pre_item (574-587), post_item (589-604), siblings (606-619) *)
Definition pre_item (x : loc) : M (option loc) :=
  h <- gets (fun h => h) ;;
  match nprt (hnode h x) with
  | None => ret None
  | Some pl => i <- idx_or_type_error x ;;
               if i - 1 <? 0 then ret None
               else match list_at (nitems (hnode h (pl_par pl))) (i - 1) with
                    | Some y => ret (Some y)
                    | None => throw IndexError
                    end
  end.
Definition post_item (x : loc) : M (option loc) :=
  h <- gets (fun h => h) ;;
  match nprt (hnode h x) with
  | None => ret None
  | Some pl => i <- idx_or_type_error x ;;
               let l := nitems (hnode h (pl_par pl)) in
               if i + 1 <? Z.of_nat (length l)
               then match list_at l (i + 1) with Some y => ret (Some y) | None => throw IndexError end
               else ret None
  end.
Definition siblings (h : heap) (x : loc) : list loc :=
  match nprt (hnode h x) with
  | None => []
  | Some pl => filter (fun y => negb (Nat.eqb y x)) (nitems (hnode h (pl_par pl)))
  end.

(** force_cache_update (549-572) with the default arguments *)
Definition enum_cache (s : slot) (l : list loc) : M unit :=
  mapM_ (fun iy => set_cache AttributeError s (snd iy) (Z.of_nat (fst iy)))
        (combine (seq 0 (length l)) l).
Definition force_cache_update (x : loc) : M unit :=
  h <- gets (fun h => h) ;;
  match nprt (hnode h x) with
  | None => ret tt
  | Some pl =>
    enum_cache SAbs (nitems (hnode h (pl_par pl))) ;;;
    match nfams (hnode h (pl_par pl)) with
    | None => throw AttributeError
    | Some d => mapM_ (fun kv => enum_cache SFam (snd kv)) d
    end
  end.

(** keys() (2657-2687) without filter: counters per tag, also refreshing the cache *)
Fixpoint dget_cnt (d : list (pyval * Z)) (t : pyval) : option Z :=
  match d with
  | [] => None
  | (k, v) :: r => if pyval_eqb k t then Some v else dget_cnt r t
  end.
Fixpoint dset_cnt (d : list (pyval * Z)) (t : pyval) (v : Z) : list (pyval * Z) :=
  match d with
  | [] => [(t, v)]
  | (k, w) :: r => if pyval_eqb k t then (k, v) :: r else (k, w) :: dset_cnt r t v
  end.
Fixpoint keys_loop (cnt : list (pyval * Z)) (l : list loc) : M (list (pyval * Z * loc)) :=
  match l with
  | [] => ret []
  | x :: r =>
    h <- gets (fun h => h) ;;
    let t := ntag (hnode h x) in
    match dget_cnt cnt t with
    | None => throw KeyError
    | Some c => set_cache TypeError SFam x (c + 1) ;;;
                ks <- keys_loop (dset_cnt cnt t (c + 1)) r ;;
                ret ((t, c + 1, x) :: ks)
    end
  end.
(** items() (2709-2758); keys() is its first component *)
Definition items_view (p : loc) : M (list (pyval * Z * loc)) :=
  h <- gets (fun h => h) ;;
  match nfams (hnode h p) with
  | None => throw AttributeError
  | Some d => keys_loop (map (fun kv => (fst kv, -1)) d) (nitems (hnode h p))
  end.
Definition keys_view (p : loc) : M (list (pyval * Z)) :=
  l <- items_view p ;; ret (map fst l).

(** heads of the families ordered by idx (2820, 2852) *)
Definition fam_heads (order_last : bool) (d : fdict) : res (list loc) :=
  fold_right (fun kv r =>
     match r with
     | Err e => Err e
     | Ok l => match (if order_last then last (map Some (snd kv)) None
                      else hd_error (snd kv)) with
               | Some x => Ok (x :: l)
               | None => Err IndexError
               end
     end) (Ok []) d.
Definition sorted_heads (p : loc) (order_last : bool) : M (list loc) :=
  h <- gets (fun h => h) ;;
  match nfams (hnode h p) with
  | None => throw AttributeError
  | Some d =>
    hs <- lift (fam_heads order_last d) ;;
    ks <- mapM idx_or_type_error hs ;;
    let key := fun x => match find (fun kx => Nat.eqb (snd kx) x) (combine ks hs) with
                        | Some (k, _) => k | None => 0 end in
    ret (sort_list key hs)
  end.
(** tags() (2824-2853) *)
Definition tags_view (p : loc) (order_last : bool) : M (list pyval) :=
  h <- gets (fun h => h) ;;
  match nitems (hnode h p) with
  | [] => ret []
  | [x] => ret [ntag (hnode h x)]
  | l => match nfams (hnode h p) with
         | None => throw AttributeError
         | Some d =>
           if Nat.eqb (length d) (length l) then ret (map (fun x => ntag (hnode h x)) l)
           else hs <- sorted_heads p order_last ;; ret (map (fun x => ntag (hnode h x)) hs)
         end
  end.
(** iter_families() (2760-2799) without filter *)
Definition families_view (p : loc) (order_last : bool) : M (list (pyval * list loc)) :=
  h <- gets (fun h => h) ;;
  match nitems (hnode h p) with
  | [] => ret []
  | _ => hs <- sorted_heads p order_last ;;
         mapM (fun x => f <- getitem_fam p (ntag (hnode h x)) ;; ret (ntag (hnode h x), f)) hs
  end.

(** is_tag_in (2403-2412) *)
Definition is_tag_in (h : heap) (p : loc) (t : pyval) : bool :=
  match nitems (hnode h p) with
  | [] => false
  | _ => match nfams (hnode h p) with
         | Some d => match dget d t with Some _ => true | None => false end
         | None => false
         end
  end.
(** is_in (2414-2429) *)
Definition is_in (h : heap) (p x : loc) : bool :=
  match nprt (hnode h x) with Some pl => Nat.eqb (pl_par pl) p | None => false end.

(** __contains__ (2370-2401): a non-item result is passed to next(), which raises
    TypeError for a list; the exception is suppressed and the answer is False. *)
Definition contains_item (h : heap) (p x : loc) : bool :=
  existsb (fun c => item_eqb h c x) (nitems (hnode h p)).
Definition contains_target (h : heap) (p : loc) (tg : target) : bool :=
  match getitem h p tg with
  | Ok (GItem _) => true
  | Ok (GList _) => false
  | Err _ => false
  end.

(** get.by_idx(idx, *idx_path) (src/itertree/itree_getitem.py:541-577) and
    get.by_tag_idx(tag_idx, *tag_idx_path) (679-721).  The public functions need at least
    one path element; the empty path here is the item itself. *)
Fixpoint by_idx (h : heap) (x : loc) (path : list Z) : res loc :=
  match path with
  | [] => Ok x
  | i :: r => match list_at (nitems (hnode h x)) i with
              | Some y => by_idx h y r
              | None => Err IndexError
              end
  end.
(** [AttributeError] (no family dict on the way: a leaf) is turned into KeyError
    (itree_getitem.py:715-719). *)
Fixpoint by_tag_idx (h : heap) (x : loc) (path : list (pyval * Z)) : res loc :=
  match path with
  | [] => Ok x
  | (t, i) :: r =>
    match fam_of h x t with
    | Ok (Some f) => match list_at f i with
                     | Some y => by_tag_idx h y r
                     | None => Err IndexError
                     end
    | Ok None => Err KeyError
    | Err AttributeError => Err KeyError
    | Err e => Err e
    end
  end.
