(** Model of the dot renderer: src/itertree/itree_serializer/itree_render_dot.py:49-126.

    The text is a list of statements: the declaration of the node "item<number>" with its label
    and colour, and the edge "item<p> -- item<c>".  Not modelled: the fixed first and last line,
    the characters of a label (repr of tag, key, value and link; escaped braces).
    No proofs in this file. *)
From Verif Require Import Base Heap.
Import ListNotations.
Local Open Scope list_scope.

(** first part of the label: the key, or the tag of an item without key *)
Inductive dot_tag := DKey (t : pyval) (i : Z) | DTag (t : pyval).
Inductive colour := Grey | LightBlue | FlowerBlue | Default.
Record dot_label := DL { dl_tag : dot_tag; dl_val : option pyval; dl_link : option nat }.
Inductive stmt := SNode (number : nat) (l : dot_label) (c : colour) | SEdge (parent child : nat) (dotted : bool).

(** 79-90: [if tag_idx:] is false for None and for the number 0; a number is not subscriptable *)
Definition dot_tag_of (t : pyval) (k : tagidx) : res dot_tag :=
  match k with
  | TIPair s i => Ok (DKey s i)
  | TINone => Ok (DTag t)
  | TIBare i => if Z.eqb i 0 then Ok (DTag t) else Err TypeError
  end.
(** 101-106; is_value_read_only (itree_main.py:876-887) *)
Definition colour_of (h : heap) (x : loc) : colour :=
  if is_linked h x then Grey
  else if has (nflags (hnode h x)) (Z.lor READ_ONLY_VALUE LINKED) then LightBlue
  else if is_link_root h x then FlowerBlue
  else Default.
(** [_build_item] (77-108).  95: [repr] is called with two arguments.  98: a link root without
    link object has no attribute _link. *)
Definition build_item (x : loc) (number : nat) : M stmt :=
  k <- get_tag_idx x ;;
  h <- gets (fun h => h) ;;
  match dot_tag_of (ntag (hnode h x)) k with
  | Err e => throw e
  | Ok t =>
    let v := nval (hnode h x) in
    if negb (pyval_eqb v PNoValue) then
      if is_link_root h x then throw TypeError
      else ret (SNode number (DL t (Some v) None) (colour_of h x))
    else if is_link_root h x then
      match nlink (hnode h x) with
      | None => throw AttributeError
      | Some lk => ret (SNode number (DL t None (Some (lk_src lk))) (colour_of h x))
      end
    else ret (SNode number (DL t None None) (colour_of h x))
  end.
(** [render_children] (110-126): the loop over the (filtered) children; [number] is the number
    given last.  Result: number given last and the statements. *)
Fixpoint dot_loop (rec : loc -> nat -> nat -> M (nat * list stmt)) (parent : nat) (l : list loc) (number : nat) : M (nat * list stmt) :=
  match l with
  | [] => ret (number, [])
  | item :: r =>
    let number := S number in
    s <- build_item item number ;;
    h <- gets (fun h => h) ;;
    let e := SEdge parent number (is_linked h item) in
    sub <- (match nitems (hnode h item) with [] => ret (number, []) | _ => rec item number number end) ;;
    rest <- dot_loop rec parent r (fst sub) ;;
    ret (fst rest, s :: e :: snd sub ++ snd rest)
  end.
Fixpoint dot_children (n : nat) (f : option (loc -> bool)) (x : loc) (parent number : nat) : M (nat * list stmt) :=
  match n with
  | O => throw Diverges
  | S n =>
    h <- gets (fun h => h) ;;
    dot_loop (dot_children n f) parent (match f with Some p => filter p (nitems (hnode h x)) | None => nitems (hnode h x) end) number
  end.
(** [renders] (54-75) *)
Definition dot_renders (n : nat) (f : option (loc -> bool)) (x : loc) : M (list stmt) :=
  s <- build_item x 0 ;;
  r <- dot_children n f x 0 0 ;;
  ret (s :: snd r).
