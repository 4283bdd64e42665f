(** str(tree) (src/itertree/itree_main.py:2906-2957).

    Tokens, white space, literals and the configuration as in [ReprModel].
    No proofs in this file. *)
From Coq Require Import String.
From Verif Require Import Base Heap Tree JsonModel SerModel PickleModel ReprModel.
Import ListNotations.
Local Open Scope string_scope.
Local Open Scope list_scope.

(** __str__ (2906-2957); [limit] is sys.getrecursionlimit(); the level condition 2923 reads
    [level > limit / 5].  None: not enough fuel.  2927-2931: the last ',' is replaced by ']'. *)
Fixpoint str_toks (n : nat) (limit : nat) (h : heap) (x : loc) : option (list tok) :=
  match n with
  | O => None
  | S n =>
    let nd := hnode h x in
    let out := [[KName "iTree"; KOp "("]] in
    let out := if pyval_eqb (ntag nd) PNoTag then out else out ++ [[KLit (ntag nd)]; comma] in
    let out := if pyval_eqb (nval nd) PNoValue then out else out ++ [[KName "value"; KOp "="]; [KLit (nval nd)]; comma] in
    match (match nitems nd with
           | [] => Some out
           | c0 :: _ =>
             match level_of (S (hnext h)) h x with
             | None => None
             | Some k =>
               if Nat.ltb limit (5 * k) then Some (out ++ [[KName "subtree"; KOp "="; KOp "["; KOp "..."; KOp "]"]; comma])
               else
                 let out := out ++ [[KName "subtree"; KOp "="; KOp "["]] in
                 if Nat.leb (length (nitems nd)) 2
                 then match opt_all (map (str_toks n limit h) (nitems nd)) with
                      | None => None
                      | Some l => Some (removelast (out ++ flat_map (fun t => [t; comma]) l) ++ [[KOp "]"]; comma])
                      end
                 else match str_toks n limit h c0, str_toks n limit h (last (nitems nd) c0) with
                      | Some a, Some b => Some (out ++ [a; [KOp ","; KOp "..."; KOp ","]; b; [KOp "]"]; comma])
                      | _, _ => None
                      end
             end
           end) with
    | None => None
    | Some out =>
      match (match nlink nd with
             | None => Some (out, false)
             | Some lk =>
               match lk_cover lk with
               | Some i => match repr_toks n limit h i with
                           | None => None
                           | Some l => Some (out ++ [[KName "link"; KOp "="; KName "iTLink"; KOp "("; KName "link_item"; KOp "="] ++ l ++ [KOp ")"]; comma], lk_loaded lk)
                           end
               | None => Some (out ++ [[KName "link"; KOp "="; KName "iTLink"; KOp "("; KSrc (lk_src lk); KOp ")"]; comma], lk_loaded lk)
               end
             end) with
      | None => None
      | Some (out, loaded) =>
        let out := if (negb (nflags nd =? 0)%Z || loaded)%bool then
                     out ++ [[KName "flags"; KOp "="; KLit (PInt (if loaded then Z.lor (nflags nd) LOAD_LINKS else nflags nd))]]
                   else out in
        Some (concat (drop_comma (drop_comma out) ++ [[KOp ")"]]))
      end
    end
  end.
