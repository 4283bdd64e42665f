(** Model of linking: [_convert_to_linked_item] (src/itertree/itree_private.py:633-673),
    [_convert_to_local_item] (717-760), [_iter_locals_add_placeholders] (762-777),
    [iTree.load_links] (src/itertree/itree_main.py:3227-3369) and [iTree.make_local] (3371-3393).

    Simplifications: links into files are not modelled.  What [get_target_tree]
    (itree_helpers.py:158-179) finds for a link root is an arbitrary function of the state.
    Whether a loaded link has to be loaded again (the comparison of keys, itree_main.py:3262-3276)
    is an arbitrary function, too; delete_invalid_items=False.  load_links on an item that is no
    link root (3364-3369) is not modelled, likewise children with the flag PLACEHOLDER and a
    value that is no integer, and link roots with the flag LOAD_LINKS that are re-constructed (the constructor loads the link): the
    model raises [Unsupported].  A coupled object counts as true.  The number 0 stands for the
    source of a link that only has a link_item.  No proofs in this file. *)
From Verif Require Import Base Heap Deep SerModel.
Import ListNotations.
Local Open Scope Z_scope.
Local Open Scope list_scope.

(** * Converting *)

(** [new._flags = new._flags | linked_flag] *)
Definition add_flag (m : Z) (y : loc) : M unit := upd y (fun n => set_flg (Z.lor (nflags n) m) n).
(** [itree_class( *get_copy_args(item))] with [_get_args_skip_subtree] (502-513) *)
Definition copy_args_node (y : loc) : M loc :=
  h <- gets (fun h => h) ;;
  if is_link_root h y && has (nflags (hnode h y)) LOAD_LINKS then throw Unsupported else copy_node y.

(** the loop 657-672 = 744-759: a stack of iterators, [CNone] is the tuple [(None,)]; [items] with
    the last one first.  At the end of a level only the iterator is removed, not the item. *)
Inductive cent := CIt (l : list loc) | CNone.
Fixpoint conv_loop (n : nat) (stack : list cent) (items : list loc) : M unit :=
  match n with
  | O => throw Diverges
  | S n =>
      match stack with
      | [] => ret tt
      | CIt [] :: r => conv_loop n r items
      | CNone :: r => conv_loop n r items
      | CIt (i :: l) :: r =>
          match items with
          | [] => throw IndexError
          | top :: _ =>
              kids <- gets (fun h => nitems (hnode h i)) ;;
              new <- copy_args_node i ;;
              append_core top new ;;;
              add_flag LINKED new ;;;
              if nonnil kids then conv_loop n (CIt kids :: CNone :: CIt l :: r) (new :: items)
              else conv_loop n (CIt l :: r) items
          end
      end
  end.
Definition conv_fuel (h : heap) : nat := (3 * hnext h + 3)%nat.
(** 633-673; copy.copy of the value is the value itself *)
Definition to_linked (x : loc) : M loc :=
  h <- gets (fun h => h) ;;
  let n := hnode h x in
  if is_linked h x then ret x
  else
    new <- new_item (ntag n) (nval n) (Z.land (Z.lor (nflags n) LINKED) FLAG_MASK) None ;;
    (if nonnil (nitems n) then conv_loop (conv_fuel h) [CIt (nitems n)] [new] else ret tt) ;;;
    ret new.
(** [iTLink(link_item=x)] *)
Definition cover_link (x : loc) : linkrec := LK 0 false [] (Some x).
(** 717-760 *)
Definition to_local (x : loc) (copy_subtree : bool) : M loc :=
  h <- gets (fun h => h) ;;
  let n := hnode h x in
  if negb (is_linked h x) then ret x
  else
    new <- new_item (ntag n) (nval n) (Z.land (Z.land (nflags n) (Z.lnot LINKED)) FLAG_MASK) None ;;
    upd new (set_link (Some (cover_link x))) ;;;
    (if nonnil (nitems n) && copy_subtree then conv_loop (conv_fuel h) [CIt (nitems n)] [new] else ret tt) ;;;
    ret new.

(** * make_local (itree_main.py:3371-3393) *)
Definition make_local (x : loc) (copy_subtree : bool) : M loc :=
  h <- gets (fun h => h) ;;
  match nprt (hnode h x) with
  | None => throw SyntaxError
  | Some pl =>
      if negb (is_linked h x) then throw SyntaxError
      else
        let p := pl_par pl in
        if negb (is_link_root h p) then throw SyntaxError
        else
          y <- to_local x copy_subtree ;;
          oi <- get_idx x ;;
          ti <- get_tag_idx x ;;
          match oi, ti with
          | Some i, TIPair t f =>
              items <- gets (fun h => nitems (hnode h p)) ;;
              match py_idx (length items) i with
              | None => throw IndexError
              | Some k =>
                  upd p (set_items (replace_at k y items)) ;;;
                  fam <- getitem_fam p t ;;
                  match py_idx (length fam) f with
                  | None => throw IndexError
                  | Some k' =>
                      put_fam p t (replace_at k' y fam) ;;;
                      upd y (set_prt (Some (PL p i f false))) ;;;
                      ret y
                  end
              end
          | _, _ => throw TypeError
          end
  end.

(** * load_links *)
(** keys of children: (tag, family index) *)
Notation key := (pyval * Z)%type (only parsing).
Definition key_eqb (a b : pyval * Z) : bool := pyval_eqb (fst a) (fst b) && (snd a =? snd b).
Definition key_val (k : pyval * Z) : pyval := PTuple [fst k; PInt (snd k)].
(** values of the dictionary local_items: an item of the tree or a placeholder *)
Inductive lent := LOld (y : loc) | LPlace.
Fixpoint lset (l : list ((pyval * Z) * lent)) (k : pyval * Z) (e : lent) : list ((pyval * Z) * lent) :=
  match l with
  | [] => [(k, e)]
  | (k', e') :: r => if key_eqb k' k then (k', e) :: r else (k', e') :: lset r k e
  end.
Fixpoint lget (l : list ((pyval * Z) * lent)) (k : pyval * Z) : option lent :=
  match l with [] => None | (k', e) :: r => if key_eqb k' k then Some e else lget r k end.
Fixpoint ldel (l : list ((pyval * Z) * lent)) (k : pyval * Z) : list ((pyval * Z) * lent) :=
  match l with [] => [] | (k', e) :: r => if key_eqb k' k then r else (k', e) :: ldel r k end.

(** 3292-3297 over [_iter_locals_add_placeholders] (itree_private.py:762-777).  A placeholder is
    entered with (tag, k), an item with its tag_idx, a child that is a placeholder itself (read
    from a file) with its tag and value; it is never put back (3331-3339, 3357).  A placeholder whose
    value is no integer is not modelled. *)
Fixpoint local_items (l : list loc) (seen : list pyval) (add : bool) (acc : list ((pyval * Z) * lent)) : M (list ((pyval * Z) * lent)) :=
  match l with
  | [] => ret acc
  | y :: r =>
      h <- gets (fun h => h) ;;
      let t := ntag (hnode h y) in
      let k := count_tag t seen in
      set_cache TypeError SFam y k ;;;
      if is_linked h y && add then local_items r (t :: seen) false (lset acc (t, k) LPlace)
      else if has (nflags (hnode h y)) PLACEHOLDER then
        match nval (hnode h y) with
        | PInt z => local_items r (t :: seen) true (lset acc (t, z) LPlace)
        | _ => throw Unsupported
        end
      else
        ti <- get_tag_idx y ;;
        match ti with
        | TIPair t' k' => local_items r (t :: seen) true (lset acc (t', k') (LOld y))
        | _ => throw Unsupported
        end
  end.
(** 3298-3299 *)
Fixpoint old_coupled (l : list loc) : M (list ((pyval * Z) * nat)) :=
  match l with
  | [] => ret []
  | y :: r =>
      h <- gets (fun h => h) ;;
      match is_linked h y, ncoupled (hnode h y) with
      | true, Some c =>
          ti <- get_tag_idx y ;;
          match ti with
          | TIPair t k => rest <- old_coupled r ;; ret (((t, k), c) :: rest)
          | _ => throw Unsupported
          end
      | _, _ => old_coupled r
      end
  end.

(** 3328-3343: what is appended when the key is among the local items *)
Fixpoint collect (in_target : pyval * Z -> bool) (k : pyval * Z) (new : loc) (acc : list ((pyval * Z) * loc)) (l : list ((pyval * Z) * lent)) : list ((pyval * Z) * loc) :=
  match l with
  | [] => acc
  | (k', e) :: r =>
      if key_eqb k' k then acc ++ [(k', match e with LPlace => new | LOld y => y end)]
      else if in_target k' then collect in_target k new [] r
      else match e with
           | LPlace => collect in_target k new acc r
           | LOld y => collect in_target k new (acc ++ [(k', y)]) r
           end
  end.
Definition find_coupled (l : list ((pyval * Z) * nat)) (k : pyval * Z) : option nat :=
  option_map snd (find (fun p => key_eqb (fst p) k) l).

Section Load.
  (** get_target_tree; the decision to load a loaded link again *)
  Variable target_of : heap -> loc -> res loc.
  Variable changed : heap -> loc -> bool.
  Variable force : bool.

  (** one target item: 3308-3353; [conv] delivers the new item *)
  Definition load_step (conv : loc -> M loc) (x t : loc) (coupled : list ((pyval * Z) * nat))
      (st : list ((pyval * Z) * lent) * list pyval) (item : loc) : M (list ((pyval * Z) * lent) * list pyval) :=
    let '(locals, tags) := st in
    new <- conv item ;;
    ti <- get_tag_idx item ;;
    match ti with
    | TIPair tg f =>
        let k := (tg, f) in
        (match find_coupled coupled k with Some c => set_coupled_object new c | None => ret tt end) ;;;
        h <- gets (fun h => h) ;;
        match lget locals k with
        | Some e =>
            let l := collect (fun k' => contains_target h t (TgVal (key_val k'))) k new [] locals in
            (match e with LOld y => upd y (set_link (Some (cover_link new))) | LPlace => ret tt end) ;;;
            mapM_ (fun p => append_core x (snd p)) l ;;;
            ret (fold_left (fun L p => ldel L (fst p)) l locals, tg :: tags)
        | None => append_core x new ;;; ret (locals, tg :: tags)
        end
    | _ => throw TypeError
    end.
  Fixpoint load_items (conv : loc -> M loc) (x t : loc) (coupled : list ((pyval * Z) * nat))
      (l : list loc) (st : list ((pyval * Z) * lent) * list pyval) : M (list ((pyval * Z) * lent) * list pyval) :=
    match l with
    | [] => ret st
    | item :: r => st' <- load_step conv x t coupled st item ;; load_items conv x t coupled r st'
    end.
  (** 3310-3316 *)
  Definition circular {A} (m : M A) : M A := fun h =>
    match m h with
    | (h', Err (TypeError | RecursionError)) => (h', Err RecursionError)
    | r => r
    end.
  (** [n] = 201 - _depth *)
  Fixpoint load_links (n : nat) (x : loc) : M bool :=
    match n with
    | O => throw RecursionError
    | S n =>
        h <- gets (fun h => h) ;;
        if negb (is_link_root h x) then throw Unsupported
        else match nlink (hnode h x) with
             | None => ret false
             | Some lk =>
                 if force || negb (lk_loaded lk) || changed h x then
                   t <- lift (target_of h x) ;;
                   locals <- local_items (nitems (hnode h x)) [] false [] ;;
                   coupled <- old_coupled (nitems (hnode h x)) ;;
                   clear_items x ;;;
                   ts <- gets (fun h => nitems (hnode h t)) ;;
                   st <- load_items (fun item =>
                           lr <- gets (fun h => is_link_root h item) ;;
                           if lr : bool then
                             new <- circular (load_links n item ;;; copy_item item) ;;
                             add_flag LINKED new ;;; ret new
                           else to_linked item) x t coupled ts (locals, []) ;;
                   mapM_ (fun p => match snd p with LOld y => append_core x y | LPlace => ret tt end) (fst st) ;;;
                   upd x (fun n => set_link (option_map (fun lk => LK (lk_src lk) true (snd st) (lk_cover lk)) (nlink n)) n) ;;;
                   ret true
                 else ret false
             end
    end.
End Load.
