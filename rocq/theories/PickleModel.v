(** Pickling (src/itertree/itree_main.py: [__reduce__] 3013-3014, [get_init_args] 3016-3054) and
    hashing ([__hash__] 2635-2647).

    Simplifications: the pickled text of a tree is the tree of the reduced arguments; pickle
    gives tags and values back as they were; a link is represented by its source number; a link
    root with the flag LOAD_LINKS would load its link when it is rebuilt: Unsupported.
    No proofs in this file. *)
From Verif Require Import Base Heap Tree JsonModel SerModel.
Import ListNotations.
Local Open Scope Z_scope.

(** [get_init_args] (3016-3054): tag, value, link, flags ([rowargs]) and the subtree: for a link
    root the local items and placeholders.  The placeholders are new items: tag, position, flag
    PLACEHOLDER, no subtree. *)
Definition init_args (h : heap) (f : option (ditem -> bool)) (d : ditem) : res (rowargs * list ditem) :=
  rbind (args_skip_subtree h d) (fun a =>
    Ok (a, match d with DItem x => keep f (d_kids h x) | DPlace _ _ => [] end)).

(** pickle.dumps: [__reduce__] of the item, then of every item in its arguments; None: not enough fuel *)
Fixpoint all_some {A} (l : list (option (res A))) : option (res (list A)) :=
  match l with
  | [] => Some (Ok [])
  | None :: _ => None
  | Some (Err e) :: _ => Some (Err e)
  | Some (Ok a) :: r => match all_some r with
                        | None => None
                        | Some (Err e) => Some (Err e)
                        | Some (Ok b) => Some (Ok (a :: b))
                        end
  end.
Fixpoint pickle_dumps (n : nat) (h : heap) (d : ditem) : option (res (tree rowargs)) :=
  match n with
  | O => None
  | S n =>
      match init_args h None d with
      | Err e => Some (Err e)
      | Ok (a, ds) => match all_some (map (pickle_dumps n h) ds) with
                      | None => None
                      | Some (Err e) => Some (Err e)
                      | Some (Ok As) => Some (Ok (Node a As))
                      end
      end
  end.

(** pickle.loads: the arguments are rebuilt before the constructor of the item is called *)
Fixpoint pickle_loads (A : tree rowargs) : M loc :=
  match A with
  | Node a As =>
      xs <- (fix go l := match l with [] => ret [] | c :: r => x <- pickle_loads c ;; xs <- go r ;; ret (x :: xs) end) As ;;
      match ra_link a with
      | Some _ => if has (ra_flags a) LOAD_LINKS then throw Unsupported
                  else new_tree (ra_tag a) (ra_val a) (map EItem xs) (ra_link a) (ra_flags a)
      | None => new_tree (ra_tag a) (ra_val a) (map EItem xs) None (ra_flags a)
      end
  end.

(** ** Hash *)
Section Hash.
  (** Python's hash of a tuple of hashes, of a tag; of a value (None: TypeError) or of its pickle *)
  Variable h_tuple : list Z -> Z.
  Variable h_tag : pyval -> Z.
  Variable h_val : pyval -> option Z.
  Variable h_pickle : pyval -> Z.

  (** [__hash__] (2643-2647); None: not enough fuel *)
  Fixpoint item_hash (n : nat) (h : heap) (x : loc) : option Z :=
    match n with
    | O => None
    | S n =>
        match (fix go l := match l with
                           | [] => Some []
                           | c :: r => match item_hash n h c, go r with Some a, Some b => Some (a :: b) | _, _ => None end
                           end) (nitems (hnode h x)) with
        | None => None
        | Some l =>
            let v := match h_val (nval (hnode h x)) with Some z => z | None => h_pickle (nval (hnode h x)) end in
            Some (h_tuple [h_tuple l; h_tag (ntag (hnode h x)); v])
        end
    end.
End Hash.
