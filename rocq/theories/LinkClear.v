(** clear(local_only=True) (src/itertree/itree_main.py 1957-1976). *)
From Verif Require Import Base Heap HeapSpec ListLemmas HeapInv SerModel LinkModel.
Import ListNotations.
Local Open Scope list_scope.

(** 1962-1965 over the generator [_iter_locals_add_placeholders] (itree_private.py:762-777), which runs
    over the live list of children while they are deleted.  [i]: position of the list iterator; [seen]:
    tags of the items handed out before ([tag_dict]); [add]: add_placeholder.  A created placeholder is
    skipped (1963) and dropped.  Each round advances the iterator: the number of children plus one
    rounds are enough (no round adds children). *)
Fixpoint clear_loop (fuel : nat) (p : loc) (i : nat) (seen : list pyval) (add : bool) : M unit :=
  match fuel with
  | O => throw Diverges
  | S fuel =>
      h <- gets (fun h => h) ;;
      match nth_error (nitems (hnode h p)) i with
      | None => ret tt
      | Some y =>
          let t := ntag (hnode h y) in
          set_cache TypeError SFam y (count_tag t seen) ;;;
          if is_linked h y && add then clear_loop fuel p (S i) (t :: seen) false
          else
            (if is_placeholder h y then ret tt else k <- idx_or_type_error y ;; del_int p k ;;; ret tt) ;;;
            clear_loop fuel p (S i) (t :: seen) true
      end
  end.
(** clear(local_only=True, keep_value=...) on a link root (1957-1965, 1975-1976); on other items
    local_only has no effect ([clear], Heap) *)
Definition clear_local (p : loc) (keep_value : bool) : M unit :=
  h <- gets (fun h => h) ;;
  if is_link_root h p then
    clear_loop (S (length (nitems (hnode h p)))) p 0 [] false ;;;
    if keep_value then ret tt else upd p (set_val PNoValue)
  else clear p keep_value.
