(** Model of the renderer: src/itertree/itree_serializer/itree_renderer.py:49-160.

    [repr], [bin] and the text of the link ("link=iTLink(...)", absent when neither path
    is given) are arbitrary functions.  The class name is "iTree" (no subclasses).  The
    recursion is bounded by fuel; Python's recursion limit is not modelled. *)
From Verif Require Import Base Heap Deep.
Open Scope list_scope.
Open Scope string_scope.

Definition nl : string := String (Ascii.ascii_of_nat 10) EmptyString.

Fixpoint concat_str (l : list string) : string :=
  match l with [] => "" | s :: r => s ++ concat_str r end.

(** ['.  ' * level] *)
Fixpoint dots (level : nat) : string := match level with 0 => "" | S k => ".  " ++ dots k end.

Section Render.
Variable repr : pyval -> string.
Variable bin : Z -> string.
Variable dec : nat -> string.
Variable link_text : nat -> option string.
Variable h : heap.

(** [if out[-1] == s: out = out[:-1]] *)
Definition drop_last (s : string) (out : list string) : list string :=
  if String.eqb (last out "") s then removelast out else out.

(** itree_renderer.py:76-107, [_build_item_str] *)
Definition build_item_str (x : loc) (enum_cnt : option nat) : string :=
  let nd := hnode h x in
  let out := ["iTree("] in
  let out := if pyval_eqb (ntag nd) PNoTag then out else (out ++ [repr (ntag nd); ", "])%list in
  let out := if pyval_eqb (nval nd) PNoValue then out else (out ++ ["value="; repr (nval nd); ", "])%list in
  let out := match nlink nd with
             | Some lk => match link_text (lk_src lk) with Some s => (out ++ [s; ", "])%list | None => out end
             | None => out
             end in
  let loaded := match nlink nd with Some lk => lk_loaded lk | None => false end in
  let out := if negb (nflags nd =? 0)%Z || loaded then
               let flags := Z.land (nflags nd) (Z.lnot LINKED) in
               let flags := if negb (flags =? 0)%Z then nflags nd else flags in
               let flags := if loaded && is_link_root h x then Z.lor flags LOAD_LINKS else flags in
               if negb (flags =? 0)%Z then (out ++ [String.append "flags=" (bin flags)])%list else out
             else out in
  let out := drop_last ", " out in
  let out := drop_last "," out in
  let out := (out ++ [String.append ")" nl])%list in
  let out := match enum_cnt with Some c => (String.append (dec c) ". " :: out)%list | None => out end in
  concat_str out.

(** The loop of itree_renderer.py:134-145 / 148-159 over the remaining children; [cnt] is
    the local variable of the enumeration (None: not bound, 147-155). *)
Definition heading (x : loc) : string := if is_linked h x then ">>" else "> ".
Fixpoint render_items (rec : loc -> option (res string)) (enumerate : bool) (level : nat) (cnt : option nat)
    (l : list loc) : option (res string) :=
  match l with
  | [] => Some (Ok "")
  | y :: r =>
      let out := " " ++ dots level ++ heading y in
      match (if enumerate then
               match cnt with
               | None => Err UnboundLocalError
               | Some c => Ok (out ++ build_item_str y (Some c), Some (S c))
               end
             else Ok (out ++ build_item_str y None, cnt)) with
      | Err e => Some (Err e)
      | Ok (line, cnt) =>
          match rec y with
          | None => None
          | Some (Err e) => Some (Err e)
          | Some (Ok sub) =>
              match render_items rec enumerate level cnt r with
              | Some (Ok rest) => Some (Ok (line ++ sub ++ rest))
              | o => o
              end
          end
      end
  end.

(** itree_renderer.py:109-160, [_render_main] *)
Fixpoint render_main (n : nat) (f : option (loc -> bool)) (enumerate : bool) (level : nat) (x : loc) : option (res string) :=
  match n with
  | 0 => None
  | S n =>
      let first := if Nat.eqb level 0
                   then if ok f x then build_item_str x (if enumerate then Some 0 else None) else ""
                   else "" in
      match render_items (render_main n f enumerate (S level)) enumerate level
              (match f with Some _ => Some 0 | None => None end) (filter (ok f) (nitems (hnode h x))) with
      | Some (Ok s) => Some (Ok (first ++ s))
      | o => o
      end
  end.

(** itree_renderer.py:59-74, [renders] *)
Definition renders (n : nat) (f : option (loc -> bool)) (enumerate : bool) (x : loc) : option (res string) :=
  render_main n f enumerate 0 x.
End Render.
