(** load_links on an item that is no link root (src/itertree/itree_main.py 3364-3369). *)
From Verif Require Import Base Heap LinkModel SerModel.
Import ListNotations.
Local Open Scope list_scope.

Section Walk.
  Variable target_of : heap -> loc -> res loc.
  Variable changed : heap -> loc -> bool.
  Variable force : bool.
  (** [for i in filter(..., self.deep): i.load_links(...)] with the generator of
      itree_indepth_iter.py 60-69: an item is handed out, loaded if it is a link root, then its
      children - as they are after loading - are visited.  [i] is the position of the list
      iterator over the (live) list of children of [x]; [n]: load_links calls that may still be
      nested (200 - _depth); the result tells whether one of the calls returned True. *)
  Fixpoint walk (n fuel : nat) (x : loc) (i : nat) : M bool :=
    match fuel with
    | O => throw Diverges
    | S fuel =>
        h <- gets (fun h => h) ;;
        match nth_error (nitems (hnode h x)) i with
        | None => ret false
        | Some y =>
            b <- (if is_link_root h y then load_links target_of changed force n y else ret false) ;;
            b1 <- walk n fuel y 0 ;;
            b2 <- walk n fuel x (S i) ;;
            ret (b || b1 || b2)
        end
    end.
  (** load_links (3249-3369) on any item; [fuel] bounds the walk *)
  Definition load_tree (n fuel : nat) (x : loc) : M bool :=
    match n with
    | O => throw RecursionError
    | S n =>
        h <- gets (fun h => h) ;;
        if is_link_root h x then load_links target_of changed force (S n) x else walk n fuel x 0
    end.
End Walk.
