(** In-depth iterators (src/itertree/itree_indepth.py, itree_indepth_helpers/*.py).

    The generators of the code are explicit stack machines; they are modelled as step
    functions over the same stacks.  [run n s] performs at most n steps; [None] means that
    n was too small.  A generator may raise after having yielded items, so a finished run is
    the list of yielded values plus the exception, if any.

    Not modelled: changing the tree while a generator is suspended. *)
From Verif Require Import Base Heap.

Section Machine.
  Context {St O : Type}.
  Inductive next := Done | Fail (e : exn) | Go (o : list O) (s : St).
  Variable step : St -> next.
  Fixpoint run_gen (n : nat) (s : St) : option (list O * option exn) :=
    match n with
    | 0 => None
    | S n => match step s with
             | Done => Some ([], None)
             | Fail e => Some ([], Some e)
             | Go o s' => option_map (fun r => (o ++ fst r, snd r)) (run_gen n s')
             end
    end.
End Machine.
Arguments next : clear implicits.

(** ITER options (itree_helpers.py:396-407) *)
Definition DOWN := 1%Z.
Definition UP := 2%Z.
Definition REVERSE := 4%Z.
Definition SELF := 8%Z.
Definition FILTER_ANY := 16%Z.
Definition MULTIPLE := 32%Z.

Definition ord {B} (rv : bool) (l : list B) : list B := if rv then rev l else l.
Definition ok (f : option (loc -> bool)) (x : loc) : bool := match f with None => true | Some g => g x end.
Definition nonnil {B} (l : list B) : bool := match l with [] => false | _ => true end.

Section Iter.
  (** the items as the generators see them: [ch x] = iteration over x, [tg x] = x.tag.
      [bool(x)] is "has children". *)
  Context (ch : loc -> list loc) (tg : loc -> pyval).

  (** ** plain items *)
  (** the children handed to the stack: iter / reversed / filtered *)
  Definition sub (rv : bool) (f : option (loc -> bool)) (x : loc) : list loc := filter (ok f) (ord rv (ch x)).

  (** [_iter_normal] (itree_indepth_iter.py:32-69), [_iter_reverse] (190-226),
      [deep.__iter__] (itree_indepth.py:559-577): the loop *)
  Definition step_down rv f (st : list (list loc)) : next (list (list loc)) loc :=
    match st with
    | [] => Done
    | [] :: r => Go [] r
    | (x :: l) :: r => Go [x] (if nonnil (ch x) then sub rv f x :: l :: r else l :: r)
    end.
  (** [_iter_up] (342-386), [_iter_up_reverse] (530-574): the loop; the tuple (None, item)
      is the entry [EMk item] *)
  Inductive ent := EIt (l : list loc) | EMk (x : loc).
  Definition step_up rv f (st : list ent) : next (list ent) loc :=
    match st with
    | [] => Done
    | EIt [] :: r => Go [] r
    | EMk x :: r => Go [x] r
    | EIt (x :: l) :: r =>
        if nonnil (ch x) then Go [] (EIt (sub rv f x) :: EMk x :: EIt l :: r)
        else Go [x] (EIt l :: r)
    end.

  (** what a generator does around its loop.  [first] tells where SELF is placed:
      only [_iter_normal*] put it in front. *)
  Definition with_self {O} (f : option (loc -> bool)) (slf first : bool) (self : O) (x : loc)
      (body : option (list O * option exn)) : option (list O * option exn) :=
    if slf then
      if ok f x then
        option_map (fun r => if first then (self :: fst r, snd r)
                             else match snd r with None => (fst r ++ [self], None) | Some e => r end) body
      else Some ([], None)
    else body.
  Definition iter_down (rv : bool) f (slf : bool) (n : nat) (x : loc) :=
    with_self f slf (negb rv) x x (run_gen (step_down rv f) n (if nonnil (ch x) then [sub rv f x] else [])).
  Definition iter_up (rv : bool) f (slf : bool) (n : nat) (x : loc) :=
    with_self f slf false x x (run_gen (step_up rv f) n (if nonnil (ch x) then [EIt (sub rv f x)] else [])).

  (** ** items with idx_path; the loops also refresh the position cache *)
  Inductive ev (P : Type) := Yield (p : P) (x : loc) | CacheAbs (x : loc) (i : Z) | CacheFam (x : loc) (i : Z).
  Arguments Yield {P}. Arguments CacheAbs {P}. Arguments CacheFam {P}.
  Definition move_idx (rv : bool) (i : Z) : Z := (if rv then i - 1 else i + 1)%Z.
  Definition start_idx (rv : bool) (x : loc) : Z := if rv then Z.of_nat (length (ch x)) else (-1)%Z.

  (** The idx_path and the tag_idx_path variants of the loops differ only in the counter of
      a level; the loop is written once over an abstract counter:
      [start x] the counter for the children of x, [nxt d c] the number of the next child c
      and the new counter (None: KeyError), [key c j] the path element, [k0] the path
      element before the first child, [cev] which cache slot is refreshed. *)
  Section Num.
    Context {D K : Type} (start : loc -> D) (k0 : loc -> K) (nxt : D -> loc -> option (Z * D))
            (key : loc -> Z -> K) (cev : loc -> Z -> ev (list K)).
    (** counters and path elements with the innermost level first *)
    Definition levels_st := (list D * list K)%type.
    (** [_iter_normal_idxpath] (72-119), [_iter_reverse_idxpath] (229-275),
        [_iter_normal_tagidxpath] (122-187), [_iter_reverse_tagidxpath] (279-337) *)
    Definition step_down_num rv f (pre : list K) (st : list (list loc) * levels_st) : next (list (list loc) * levels_st) (ev (list K)) :=
      match st with
      | ([], _) => Done
      | ([] :: r, (ds, ks)) => Go [] (r, (tl ds, tl ks))
      | ((x :: l) :: r, (d :: ds, ks)) =>
          match nxt d x with
          | None => Fail KeyError
          | Some (j, d') =>
            let ks' := key x j :: tl ks in
            Go (cev x j :: if ok f x then [Yield (pre ++ rev ks') x] else [])
               (if ok f x && nonnil (ch x) then (ord rv (ch x) :: l :: r, (start x :: d' :: ds, k0 x :: ks'))
                else (l :: r, (d' :: ds, ks')))
          end
      | _ => Fail IndexError
      end.
    Definition run_down_num rv f pre n (x : loc) :=
      run_gen (step_down_num rv f pre) n (if nonnil (ch x) then ([ord rv (ch x)], ([start x], [k0 x])) else ([], ([], []))).
    (** [_iter_up_idxpath] (389-448), [_iter_up_reverse_idxpath] (578-637),
        [_iter_up_tagidxpath] (451-527), [_iter_up_reverse_tagidxpath] (640-718); [recheck]:
        the filter is asked again when an item is closed (415, 604, 672; not in 480-484) *)
    Definition step_up_num rv f (recheck : bool) (pre : list K) (st : list ent * levels_st) : next (list ent * levels_st) (ev (list K)) :=
      match st with
      | ([], _) => Done
      | (EIt [] :: r, dk) => Go [] (r, dk)
      | (EMk x :: r, (ds, ks)) =>
          Go (if ok f x || negb recheck then [Yield (pre ++ rev (tl ks)) x] else []) (r, (tl ds, tl ks))
      | (EIt (x :: l) :: r, (d :: ds, ks)) =>
          match nxt d x with
          | None => Fail KeyError
          | Some (j, d') =>
            let ks' := key x j :: tl ks in
            if nonnil (ch x) && ok f x
            then Go [cev x j] (EIt (ord rv (ch x)) :: EMk x :: EIt l :: r, (start x :: d' :: ds, k0 x :: ks'))
            else Go (cev x j :: if ok f x then [Yield (pre ++ rev ks') x] else []) (EIt l :: r, (d' :: ds, ks'))
          end
      | _ => Fail IndexError
      end.
    Definition run_up_num rv f recheck pre n (x : loc) :=
      run_gen (step_up_num rv f recheck pre) n (if nonnil (ch x) then ([EIt (ord rv (ch x))], ([start x], [k0 x])) else ([], ([], []))).
  End Num.

  (** idx_path: the counter is [indexes[-1]] itself *)
  Definition nxt_idx (rv : bool) (i : Z) (x : loc) : option (Z * Z) := Some (move_idx rv i, move_idx rv i).
  Definition iter_down_idx rv f slf (pre : list Z) (n : nat) (x : loc) :=
    with_self f slf (negb rv) (Yield pre x) x
      (run_down_num (start_idx rv) (start_idx rv) (nxt_idx rv) (fun _ j => j) CacheAbs rv f pre n x).
  Definition iter_up_idx rv f slf (pre : list Z) (n : nat) (x : loc) :=
    with_self f slf false (Yield pre x) x
      (run_up_num (start_idx rv) (start_idx rv) (nxt_idx rv) (fun _ j => j) CacheAbs rv f true pre n x).

  (** ** items with tag_idx_path *)
  (** the counters of one level: [dict.fromkeys(families.keys(), -1)] or
      [{key: len(families[key])}]; the families are those of the children *)
  Definition count_tag (t : pyval) (l : list loc) : nat := length (filter (fun y => pyval_eqb (tg y) t) l).
  Definition start_cnt (rv : bool) (x : loc) : list (pyval * Z) :=
    map (fun t => (t, if rv then Z.of_nat (count_tag t (ch x)) else (-1)%Z)) (nodup pyval_eq_dec (map tg (ch x))).
  Definition nxt_tag (rv : bool) (d : list (pyval * Z)) (x : loc) : option (Z * list (pyval * Z)) :=
    match dget_cnt d (tg x) with
    | None => None
    | Some c => Some (move_idx rv c, dset_cnt d (tg x) (move_idx rv c))
    end.
  (** the None put on [tag_idxs] when a level is opened; it is always overwritten before it is read *)
  Definition TI_NONE : pyval * Z := (PNone, (-1)%Z).
  Definition tpath := list (pyval * Z).
  (** The forward variant with a filter and SELF yields the calling item again at the end
      (159-163). *)
  Definition again {O} (f : option (loc -> bool)) (slf rv : bool) (self : O) (x : loc) (body : option (list O * option exn)) :=
    match f with
    | Some g => if slf && negb rv && g x
                then option_map (fun r => match snd r with None => (fst r ++ [self], None) | Some e => r end) body
                else body
    | None => body
    end.
  Definition iter_down_tag rv f slf (pre : tpath) (n : nat) (x : loc) :=
    with_self f slf (negb rv) (Yield pre x) x
      (again f slf rv (Yield pre x) x
        (run_down_num (start_cnt rv) (fun _ => TI_NONE) (nxt_tag rv) (fun c j => (tg c, j)) CacheFam rv f pre n x)).
  Definition iter_up_tag rv f slf (pre : tpath) (n : nat) (x : loc) :=
    with_self f slf false (Yield pre x) x
      (run_up_num (start_cnt rv) (fun _ => TI_NONE) (nxt_tag rv) (fun c j => (tg c, j)) CacheFam rv f rv pre n x).

  (** ** the public methods *)
  (** options of the methods: [options == 0] is turned into UP (itree_indepth.py:623-624);
      the validity test always passes because it tests a constant (633) *)
  Definition fix_opt (o : Z) : Z := if (o =? 0)%Z then UP else o.
  (** [deep.__iter__] (559-577) *)
  Definition deep_iter0 (n : nat) (x : loc) := iter_down false None false n x.
  (** the dispatch tables _ITER_HELPERS etc. (63-82) *)
  Definition by_opt {B} (o : Z) (dn : bool -> B) (up : bool -> B) : B := if has o UP then up (has o REVERSE) else dn (has o REVERSE).
  (** [deep.iter] (580-641) *)
  Definition deep_iter (f : option (loc -> bool)) (opt : Z) (n : nat) (x : loc) :=
    let o := fix_opt opt in
    let go f := by_opt o (fun rv => iter_down rv f (has o SELF) n x) (fun rv => iter_up rv f (has o SELF) n x) in
    if has o FILTER_ANY then option_map (fun r => (filter (ok f) (fst r), snd r)) (go None) else go f.
  (** the yielded pairs among the events *)
  Definition ev_ok {P} (f : option (loc -> bool)) (e : ev P) : bool := match e with Yield _ x => ok f x | _ => true end.
  (** [deep.idx_paths] (916-976); [pre] is the idx_path of the calling item *)
  Definition deep_idx_paths (f : option (loc -> bool)) (opt : Z) (pre : list Z) (n : nat) (x : loc) :=
    let o := fix_opt opt in
    let go f := by_opt o (fun rv => iter_down_idx rv f (has o SELF) pre n x) (fun rv => iter_up_idx rv f (has o SELF) pre n x) in
    if has o FILTER_ANY then option_map (fun r => (filter (ev_ok f) (fst r), snd r)) (go None) else go f.
  (** [deep.tag_idx_paths] (980-1045) *)
  Definition deep_tag_idx_paths (f : option (loc -> bool)) (opt : Z) (pre : tpath) (n : nat) (x : loc) :=
    let o := fix_opt opt in
    let go f := by_opt o (fun rv => iter_down_tag rv f (has o SELF) pre n x) (fun rv => iter_up_tag rv f (has o SELF) pre n x) in
    if has o FILTER_ANY then option_map (fun r => (filter (ev_ok f) (fst r), snd r)) (go None) else go f.
End Iter.
Arguments Yield {P}. Arguments CacheAbs {P}. Arguments CacheFam {P}.
Definition yields {P} (l : list (ev P)) : list (P * loc) :=
  flat_map (fun e => match e with Yield p x => [(p, x)] | _ => [] end) l.
