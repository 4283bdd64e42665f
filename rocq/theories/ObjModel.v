(** Value objects and the three kinds of copies of a tree.

    In the heap layer values are immutable data.  Here values are references to Python objects
    with identity, so that sharing between a tree and its copy can be stated.

    Modelled: iTree.copy / __copy__ (src/itertree/itree_main.py 2284-2300, 2314-2324),
    copy_keep_value (2302-2312), deepcopy / __deepcopy__ (2326-2348), _get_copy_args,
    _get_args_skip_subtree, _get_deepcopy_args, _iter_copy (src/itertree/itree_private.py
    453-500, 503-513, 516-537, 556-591), iTData.__hash__ / __deepcopy__
    (src/itertree/itree_data.py 1224, 1235, 1506) and, as trusted description of Python's copy
    module, copy.copy and copy.deepcopy.
    Simplifications: a tree is a finite ordered tree of (tag, value object, flags); link roots
    are left out; dict keys are immutable; the iterator stack of _iter_copy is written as the
    recursion it performs (C38 is about the stack). *)
From Verif Require Import Base.

Definition ref := nat.
(** what an object is, as far as copying and hashing are concerned *)
Inductive kind :=
  | KAtom    (* number, str, None, NoValue ...: immutable, hashable *)
  | KTuple   (* immutable; its __hash__ is callable whatever is inside *)
  | KList    (* list: mutable, __hash__ is None *)
  | KDict    (* dict: mutable, __hash__ is None; payload = keys *)
  | KModel   (* iTValueModel: mutable; defines __eq__ only, so __hash__ is None (itree_data.py 233) *)
  | KData    (* iTData: mutable dict that defines __hash__ (itree_data.py 1235) *)
  | KUser.   (* object of a user class: mutable, hashed by identity *)
Record obj := Obj { okind : kind; opay : pyval; omem : list ref }.
Record store := Store { onext : nat; oget : ref -> obj }.
Definition oset (s : store) (r : ref) (o : obj) : store :=
  Store (onext s) (fun q => if Nat.eqb q r then o else oget s q).
Definition alloc (s : store) (o : obj) : store * ref :=
  (Store (S (onext s)) (fun q => if Nat.eqb q (onext s) then o else oget s q), onext s).

(** callable(value.__hash__) (itree_private.py 466, 483, 494, 499) *)
Definition hash_callable (k : kind) : bool :=
  match k with KList | KDict | KModel => false | _ => true end.
Definition is_mutable (k : kind) : bool :=
  match k with KAtom | KTuple => false | _ => true end.

(** copy.copy: immutable objects themselves, otherwise a new object with the same members *)
Definition py_copy (s : store) (r : ref) : store * ref :=
  if is_mutable (okind (oget s r)) then alloc s (oget s r) else (s, r).

(** copy.deepcopy with its memo; [fuel] bounds the recursion depth *)
Definition memo := list (ref * ref).
Fixpoint mlook (r : ref) (m : memo) : option ref :=
  match m with
  | [] => None
  | (a, b) :: m' => if Nat.eqb r a then Some b else mlook r m'
  end.
Fixpoint deep_list (dp : ref -> store -> memo -> store * memo * res ref) (l : list ref) (s : store) (m : memo)
  : store * memo * res (list ref) :=
  match l with
  | [] => (s, m, Ok [])
  | x :: l' =>
    match dp x s m with
    | (s1, m1, Ok y) =>
      match deep_list dp l' s1 m1 with
      | (s2, m2, Ok ys) => (s2, m2, Ok (y :: ys))
      | (s2, m2, Err e) => (s2, m2, Err e)
      end
    | (s1, m1, Err e) => (s1, m1, Err e)
    end
  end.
Fixpoint deep (fuel : nat) (r : ref) (s : store) (m : memo) : store * memo * res ref :=
  match fuel with
  | O => (s, m, Err Diverges)
  | S f =>
    match mlook r m with
    | Some r' => (s, m, Ok r')
    | None =>
      let o := oget s r in
      match okind o with
      | KAtom => (s, m, Ok r)
      | KTuple =>
        match deep_list (deep f) (omem o) s m with
        | (s1, m1, Err e) => (s1, m1, Err e)
        | (s1, m1, Ok ys) =>
          match mlook r m1 with                       (* memoized meanwhile *)
          | Some r' => (s1, m1, Ok r')
          | None => if list_eq_dec Nat.eq_dec ys (omem o) then (s1, m1, Ok r)
                    else let (s2, r') := alloc s1 (Obj KTuple (opay o) ys) in (s2, (r, r') :: m1, Ok r')
          end
        end
      | KData => (s, m, Err TypeError)                (* __deepcopy__(self) called with the memo *)
      | k =>                                          (* new object first, then its members *)
        let (s1, r') := alloc s (Obj k (opay o) []) in
        match deep_list (deep f) (omem o) s1 ((r, r') :: m) with
        | (s2, m2, Err e) => (s2, m2, Err e)
        | (s2, m2, Ok ys) => (oset s2 r' (Obj k (opay o) ys), m2, Ok r')
        end
      end
    end
  end.
Definition py_deepcopy (fuel : nat) (s : store) (r : ref) : store * res ref :=
  let '(s', _, a) := deep fuel r s [] in (s', a).

(** the tree *)
Inductive vtree := VT (tag : pyval) (value : ref) (flags : Z) (kids : list vtree).
Definition vt_val (t : vtree) : ref := match t with VT _ v _ _ => v end.

(** what the three get_copy_args functions do with the value *)
Definition arg_keep (s : store) (v : ref) : store * res ref := (s, Ok v).               (* 503-513 *)
Definition arg_copy (s : store) (v : ref) : store * res ref :=                           (* 453-500 *)
  if hash_callable (okind (oget s v)) then (s, Ok v)
  else let (s', v') := py_copy s v in (s', Ok v').
Definition arg_deep (fuel : nat) (s : store) (v : ref) : store * res ref := py_deepcopy fuel s v. (* 516-537 *)

(** _iter_copy (itree_private.py 556-591): the new item first, then its children in order *)
Fixpoint vcopy (f : store -> ref -> store * res ref) (s : store) (t : vtree) : store * res vtree :=
  match t with
  | VT tg v fl ks =>
    match f s v with
    | (s1, Err e) => (s1, Err e)
    | (s1, Ok v') =>
      match (fix go (l : list vtree) (s : store) : store * res (list vtree) :=
         match l with
         | [] => (s, Ok [])
         | k :: l' =>
           match vcopy f s k with
           | (s2, Err e) => (s2, Err e)
           | (s2, Ok k') =>
             match go l' s2 with
             | (s3, Err e) => (s3, Err e)
             | (s3, Ok ks') => (s3, Ok (k' :: ks'))
             end
           end
         end) ks s1 with
      | (s2, Err e) => (s2, Err e)
      | (s2, Ok ks') => (s2, Ok (VT tg v' fl ks'))
      end
    end
  end.
(** copy_keep_value(), copy(), deepcopy() *)
Definition copy_keep_value := vcopy arg_keep.
Definition tree_copy := vcopy arg_copy.
Definition tree_deepcopy (fuel : nat) := vcopy (arg_deep fuel).
