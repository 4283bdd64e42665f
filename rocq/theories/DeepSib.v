(** siblings / levels / max_depth / iter_family_items. *)
From Verif Require Import Base Heap HeapSpec Deep.

Definition mem (x : loc) (l : list loc) : bool := existsb (Nat.eqb x) l.
(** x[k] for a negative k = -(S j), when the list is long enough *)
Definition from_end {A} (j : nat) (l : list A) : option A := nth_error (rev l) j.

Section Sib.
  (** [ch x]: iteration over x; [up x]: x.ancestors + [x] (itree_main.py:327-342), root first *)
  Context (ch : loc -> list loc) (up : loc -> list loc).

  (** the loop of [_siblings_plus] (itree_indepth_siblings.py:36-58) and
      [_siblings_plus_reverse] (78-100); len(iterators) is the length of the stack *)
  Definition step_sib (rv slf : bool) (level : nat) (x : loc) (st : list (list loc)) : next (list (list loc)) loc :=
    match st with
    | [] => Done
    | [] :: r => Go [] r
    | (y :: l) :: r =>
        if Nat.eqb (length st) level then Go (if slf || negb (Nat.eqb y x) then [y] else []) (l :: r)
        else Go [] (if nonnil (ch y) then ord rv (ch y) :: l :: r else l :: r)
    end.
  Definition siblings_plus (rv slf : bool) (level : nat) (n : nat) (x : loc) : option (list loc * option exn) :=
    if Nat.eqb level 0 then Some (if slf then [x] else [], None)
    else run_gen (step_sib rv slf level x) n [ord rv (ch x)].

  (** [_siblings_minus] (102-148), [_siblings_minus_multi] (150-192), [_siblings_minus_reverse]
      (194-239), [_siblings_minus_multi_reverse] (241-282); level = -(S j).
      The test l >= self_level (135 ...) always holds and is left out. *)
  Definition leaf (y : loc) : bool := negb (nonnil (ch y)).
  Fixpoint minus_loop (multi slf : bool) (j : nat) (x : loc) (seen : list loc) (l : list loc) : list loc :=
    match l with
    | [] => []
    | y :: r =>
        match from_end j (up y) with
        | None => minus_loop multi slf j x seen r
        | Some z => if (multi || negb (mem z seen)) && (slf || negb (Nat.eqb z x))
                    then z :: minus_loop multi slf j x (z :: seen) r
                    else minus_loop multi slf j x seen r
        end
    end.
  Definition siblings_minus (rv multi slf : bool) (j : nat) (n : nat) (x : loc) : option (list loc * option exn) :=
    match (if rv then iter_down ch true None false n x else deep_iter0 ch n x) with
    | Some (l, None) =>
        let leaves := filter leaf l in
        Some (if Nat.eqb j 0 then filter (fun y => slf || negb (Nat.eqb y x)) leaves
              else minus_loop multi slf j x [] leaves, None)
    | r => r
    end.
  (** [deep.siblings] (itree_indepth.py:643-685) *)
  Definition siblings_opts : Z := Z.lor REVERSE (Z.lor SELF MULTIPLE).
  Definition bad_opts (opt ok : Z) : bool := negb (Z.eqb (Z.land opt (Z.lnot ok)) 0).
  Definition siblings (level opt : Z) (n : nat) (x : loc) : option (list loc * option exn) :=
    if bad_opts opt siblings_opts then Some ([], Some AttributeError)
    else if (level <? 0)%Z
    then siblings_minus (has opt REVERSE) (has opt MULTIPLE) (has opt SELF) (Z.to_nat (- level - 1)) n x
    else siblings_plus (has opt REVERSE) (has opt SELF) (Z.to_nat level) n x.

  (** ** levels (itree_indepth.py:687-913) *)
  (** one pass of [for item in siblings] for step > 0 (751-760, 769-779, 789-798, 808-818);
      returns the yielded items and the two sets *)
  Definition may_yield (slf multi : bool) (x y : loc) (yielded : list loc) : bool :=
    if multi then slf || negb (Nat.eqb y x) else negb (mem y yielded).
  Fixpoint pass_fwd (slf multi modulo : bool) (x : loc) (stop yielded l : list loc) : list loc * list loc * list loc :=
    match l with
    | [] => ([], stop, yielded)
    | y :: r =>
        let hit := mem y stop in
        let stop1 := if hit then ch y ++ stop else stop in
        let out := negb hit && modulo && may_yield slf multi x y yielded in
        let stop2 := if leaf y then y :: stop1 else stop1 in
        let '(o, s, d) := pass_fwd slf multi modulo x stop2 (if out then y :: yielded else yielded) r in
        ((if out then [y] else []) ++ o, s, d)
    end.
  (** one pass for step <= 0 (831-838, 847-858, 870-877, 887-898); the last component tells
      that the calling item was met (only the variants without MULTIPLE stop then) *)
  Fixpoint pass_bwd (slf multi modulo : bool) (x : loc) (stop yielded l : list loc) : list loc * list loc * list loc * bool :=
    match l with
    | [] => ([], stop, yielded, false)
    | y :: r =>
        let hit := mem y stop in
        let stop1 := if hit then ch y ++ stop else stop in
        let out := negb hit && modulo && may_yield slf multi x y yielded in
        let yl := if out then y :: yielded else yielded in
        if negb multi && Nat.eqb y x then ((if out then [y] else []), stop1, yl, true)
        else let '(o, s, d, b) := pass_bwd slf multi modulo x stop1 yl r in
             ((if out then [y] else []) ++ o, s, d, b)
    end.
  Definition divides (step k : Z) : bool := Z.eqb (k mod step) 0.
  Definition andthen (o : list loc) (r : option (list loc * option exn)) : option (list loc * option exn) :=
    option_map (fun p => (o ++ fst p, snd p)) r.
  (** the while loops; [m] bounds the number of rounds, [n] the fuel of siblings().
      [frozen]: in the variant step > 0, MULTIPLE, not SELF the lines that advance the level
      are outside the loop (799-801): cnt keeps its value and the generator is exhausted. *)
  Fixpoint loop_fwd (opt start step : Z) (n : nat) (x : loc) (m : nat) (cnt : Z) (frozen : bool)
      (stop yielded : list loc) : option (list loc * option exn) :=
    match m with
    | 0 => None
    | S m =>
        match (if frozen then Some ([], None) else siblings cnt opt n x) with
        | Some (l, None) =>
            let '(o, s, d) := pass_fwd (has opt SELF) (has opt MULTIPLE) (divides step (cnt - start)) x stop yielded l in
            if (cnt =? start)%Z || nonnil l
            then andthen o (if has opt MULTIPLE && negb (has opt SELF) then loop_fwd opt start step n x m cnt true s d
                            else loop_fwd opt start step n x m (cnt + 1) false s d)
            else Some (o, None)
        | r => r
        end
    end.
  Fixpoint loop_bwd (opt start step : Z) (n : nat) (x : loc) (m : nat) (cnt : Z)
      (stop yielded : list loc) : option (list loc * option exn) :=
    match m with
    | 0 => None
    | S m =>
        match siblings cnt opt n x with
        | Some (l, None) =>
            let '(o, s, d, met) := pass_bwd (has opt SELF) (has opt MULTIPLE)
                                     ((cnt =? start)%Z || divides step (cnt - start)) x stop yielded l in
            if (step =? 0)%Z then Some (o, Some ZeroDivisionError)
            else if ((cnt =? start)%Z || nonnil l) && negb met
            then andthen o (loop_bwd opt start step n x m (cnt - 1) s d)
            else Some (o, None)
        | r => r
        end
    end.
  (** slices: start None means 0, step None means 1; slice(None) yields nothing (727-728) *)
  Definition levels_slice (start stop step : option Z) (opt : Z) (n m : nat) (x : loc) : option (list loc * option exn) :=
    match start, stop, step with
    | None, None, None => Some ([], None)
    | _, _, _ =>
      let start := match start with Some s => s | None => 0%Z end in
      let step := match step with Some s => s | None => 1%Z end in
      match (match stop with None => Some ([], None) | Some e => siblings e opt n x end) with
      | Some (stops, None) =>
          let yielded := if has opt SELF || has opt MULTIPLE then [] else [x] in
          if (0 <? step)%Z then loop_fwd opt start step n x m start false stops yielded
          else loop_bwd opt start step n x m start stops yielded
      | Some (_, e) => Some ([], e)
      | None => None
      end
    end.
  (** [_levels_via_siblings_iterable] (itree_indepth_levels.py:58-102) *)
  Definition seq_gen (a b : option (list loc * option exn)) : option (list loc * option exn) :=
    match a with Some (o, None) => andthen o b | r => r end.
  Definition flush (start : option Z) (last opt : Z) (n m : nat) (x : loc) : option (list loc * option exn) :=
    match start with
    | None => Some ([], None)
    | Some s => if (s =? last)%Z then siblings last opt n x
                else levels_slice (Some s) (Some last) (Some (if (s <? last)%Z then 1 else -1)%Z) 0 n m x
    end.
  Fixpoint levels_list (opt : Z) (n m : nat) (x : loc) (last : Z) (start : option Z) (ls : list Z) : option (list loc * option exn) :=
    match ls with
    | [] => flush start last opt n m x
    | k :: r =>
        if (last + 1 =? k)%Z then levels_list opt n m x k (match start with None => Some k | s => s end) r
        else seq_gen (flush start last opt n m x)
               (seq_gen (siblings k opt n x) (levels_list opt n m x last None r))
    end.
  (** a generator that drops what was yielded before (909-913) *)
  Fixpoint once (seen l : list loc) : list loc :=
    match l with [] => [] | y :: r => if mem y seen then once seen r else y :: once (y :: seen) r end.
  Definition levels_iter (ls : list Z) (opt : Z) (n m : nat) (x : loc) : option (list loc * option exn) :=
    let r := levels_list opt n m x (-1) None ls in
    if has opt MULTIPLE then r else option_map (fun p => (once [] (fst p), snd p)) r.

  (** [max_depth] (itree_main.py:641-666) *)
  Fixpoint depth_loop (n : nat) (items : list loc) (d : Z) : option Z :=
    match n with
    | 0 => None
    | S n => match items with [] => Some (d - 1)%Z | _ => depth_loop n (flat_map ch items) (d + 1)%Z end
    end.
  Definition max_depth (n : nat) (x : loc) : option Z := if nonnil (ch x) then depth_loop n [x] 0 else Some 0%Z.
End Sib.

(** ancestors + [item] (itree_main.py:327-342) *)
Fixpoint anc_path (fuel : nat) (h : heap) (x : loc) : list loc :=
  match fuel with
  | 0 => [x]
  | S f => match parent_of h x with None => [x] | Some p => anc_path f h p ++ [x] end
  end.

(** ** deep.iter_family_items (itree_indepth.py:1047-1095) *)
Section Fam.
  Context (ch : loc -> list loc) (tg : loc -> pyval).
  (** item.tags() of a non-empty item, first occurrence order: order_last is ignored *)
  Fixpoint tags_from (seen : list pyval) (l : list loc) : list pyval :=
    match l with
    | [] => []
    | y :: r => if existsb (pyval_eqb (tg y)) seen then tags_from seen r else tg y :: tags_from (tg y :: seen) r
    end.
  Definition tags_of (x : loc) : list pyval := tags_from [] (ch x).
  Definition by_tag (x : loc) (t : pyval) : list loc := filter (fun y => pyval_eqb (tg y) t) (ch x).
  (** entries of [iterators]: a tag iterator, or the tuple (None,) *)
  Inductive fent := FTags (l : list pyval) | FNone.
  (** the family loop (1084-1091): items up to and including the first one with children *)
  Fixpoint fam_pass (l : list loc) : list loc * option loc :=
    match l with
    | [] => ([], None)
    | y :: r => if nonnil (ch y) then ([y], Some y) else let '(o, z) := fam_pass r in (y :: o, z)
    end.
  (** one step = one tag of the innermost iterator.  When the (None,) tuple is met, it is
      removed together with the item, the for loop ends, and its else branch removes one
      more iterator (1095). *)
  Definition step_fam (st : list fent * list loc) : next (list fent * list loc) loc :=
    match st with
    | ([], _) => Done
    | (FTags [] :: r, items) => Go [] (r, items)
    | (FNone :: r, items) => match r with [] => Fail IndexError | _ :: r => Go [] (r, tl items) end
    | (FTags (t :: ts) :: r, p :: items) =>
        match t with
        | PNone => Fail Unsupported   (* a tag None is taken for the marker; not modelled further *)
        | _ => let '(o, z) := fam_pass (by_tag p t) in
               Go o (match z with None => (FTags ts :: r, p :: items)
                     | Some y => (FTags (tags_of y) :: FNone :: FTags ts :: r, y :: p :: items) end)
        end
    | _ => Fail IndexError
    end.
  Definition iter_family_items (n : nat) (x : loc) : option (list loc * option exn) :=
    run_gen step_fam n (if nonnil (ch x) then ([FTags (tags_of x)], [x]) else ([], [])).
End Fam.
