(** repr(tree) (src/itertree/itree_main.py:2857-2904) and what eval() makes of it.

    The text is a list of Python tokens; tags and values are single literal tokens: that
    eval(repr(v)) is v for them is part of the model (the docstring excludes other objects).
    The two paths in "iTLink(file,target)" are one token, the number of the link source.
    White space is not modelled.  Configuration without blist (2879-2881 not taken).
    No proofs in this file. *)
From Coq Require Import String.
From Verif Require Import Base Heap Tree JsonModel SerModel PickleModel.
Import ListNotations.
Local Open Scope string_scope.
Local Open Scope list_scope.

Inductive tok :=
| KName (s : string)     (* identifier *)
| KOp (s : string)       (* punctuation *)
| KLit (v : pyval)       (* literal *)
| KSrc (n : nat).        (* the two paths of a link *)
Definition comma : list tok := [KOp ","].

(** 2899-2902: a trailing ', ' is left out *)
Definition drop_comma (out : list (list tok)) : list (list tok) :=
  match last out [] with [KOp ","] => removelast out | _ => out end.
(** list.__repr__ *)
Fixpoint join (sep : list tok) (l : list (list tok)) : list tok :=
  match l with [] => [] | [a] => a | a :: r => a ++ sep ++ join sep r end.
Fixpoint opt_all {A} (l : list (option A)) : option (list A) :=
  match l with
  | [] => Some []
  | a :: r => match a, opt_all r with Some x, Some y => Some (x :: y) | _, _ => None end
  end.

(** __repr__ (2857-2904); [limit] is sys.getrecursionlimit(); the level condition 2875 reads
    [level > limit / 5].  None: not enough fuel.  2877-2884: only this branch appends ', '. *)
Fixpoint repr_toks (n : nat) (limit : nat) (h : heap) (x : loc) : option (list tok) :=
  match n with
  | O => None
  | S n =>
    let nd := hnode h x in
    let out := [[KName "iTree"; KOp "("]] in
    let out := if pyval_eqb (ntag nd) PNoTag then out else out ++ [[KLit (ntag nd)]; comma] in
    let out := if pyval_eqb (nval nd) PNoValue then out else out ++ [[KName "value"; KOp "="]; [KLit (nval nd)]; comma] in
    match (match nitems nd with
           | [] => Some out
           | _ =>
             match level_of (S (hnext h)) h x with
             | None => None
             | Some k =>
               if Nat.ltb limit (5 * k) then Some (out ++ [[KName "subtree"; KOp "="; KOp "["; KOp "..."; KOp "]"]])
               else match opt_all (map (repr_toks n limit h) (nitems nd)) with
                    | None => None
                    | Some l => Some (out ++ [[KName "subtree"; KOp "="]; KOp "[" :: join comma l ++ [KOp "]"]; comma])
                    end
             end
           end) with
    | None => None
    | Some out =>
      match (match nlink nd with
             | None => Some (out, false)
             | Some lk =>
               match lk_cover lk with
               | Some i => match repr_toks n limit h i with
                           | None => None
                           | Some l => Some (out ++ [[KName "link"; KOp "="; KName "iTLink"; KOp "("; KName "link_item"; KOp "="] ++ l ++ [KOp ")"]; comma], lk_loaded lk)
                           end
               | None => Some (out ++ [[KName "link"; KOp "="; KName "iTLink"; KOp "("; KSrc (lk_src lk); KOp ")"]; comma], lk_loaded lk)
               end
             end) with
      | None => None
      | Some (out, loaded) =>
        let out := if (negb (nflags nd =? 0)%Z || loaded)%bool then
                     out ++ [[KName "flags"; KOp "="; KLit (PInt (if loaded then Z.lor (nflags nd) LOAD_LINKS else nflags nd))]]
                   else out in
        Some (concat (drop_comma out ++ [[KOp ")"]]))
      end
    end
  end.

(** * Python's reading of such a text *)
(** literals, lists, calls with positional and keyword arguments *)
Inductive ex := XVal (v : pyval) | XSrc (n : nat) | XDots | XList (l : list ex) | XCall (f : string) (args : list (option string * ex)).

Fixpoint p_expr (n : nat) (l : list tok) : option (ex * list tok) :=
  match n with
  | O => None
  | S n =>
    match l with
    | KLit v :: r => Some (XVal v, r)
    | KSrc s :: r => Some (XSrc s, r)
    | KOp o :: r =>
      if String.eqb o "..." then Some (XDots, r)
      else if String.eqb o "[" then match p_list n r with Some (es, r') => Some (XList es, r') | None => None end
      else None
    | KName f :: KOp o :: r =>
      if String.eqb o "(" then match p_args n r with Some (es, r') => Some (XCall f es, r') | None => None end
      else None
    | _ => None
    end
  end
with p_list (n : nat) (l : list tok) : option (list ex * list tok) :=      (* up to "]" *)
  match n with
  | O => None
  | S n =>
    match l with
    | KOp "]" :: r => Some ([], r)
    | _ => match p_expr n l with
           | Some (e, KOp "," :: r) => match p_list n r with Some (es, r') => Some (e :: es, r') | None => None end
           | Some (e, KOp "]" :: r) => Some ([e], r)
           | _ => None
           end
    end
  end
with p_args (n : nat) (l : list tok) : option (list (option string * ex) * list tok) :=      (* up to ")" *)
  match n with
  | O => None
  | S n =>
    match l with
    | KOp ")" :: r => Some ([], r)
    | _ =>
      let '(k, l) := match l with KName s :: KOp "=" :: r => (Some s, r) | _ => (None, l) end in
      match p_expr n l with
      | Some (e, KOp "," :: r) => match p_args n r with Some (es, r') => Some ((k, e) :: es, r') | None => None end
      | Some (e, KOp ")" :: r) => Some ([(k, e)], r)
      | _ => None
      end
    end
  end.
Definition parse (l : list tok) : option ex :=
  match p_expr (2 * length l + 2) l with Some (e, []) => Some e | _ => None end.

(** parameter binding: positional arguments first, then keywords; each parameter at most once *)
Fixpoint bind_params {A} (ps : list string) (args : list (option string * A)) : option (list (string * A)) :=
  match args with
  | [] => Some []
  | (None, a) :: r => match ps with p :: ps' => option_map (cons (p, a)) (bind_params ps' r) | [] => None end
  | (Some k, a) :: r =>
      if existsb (String.eqb k) ps
      then if existsb (fun q => match fst q with None => true | Some _ => false end) r then None
           else option_map (cons (k, a)) (bind_params (filter (fun p => negb (String.eqb p k)) ps) r)
      else None
  end.
Fixpoint lookup {A} (k : string) (l : list (string * A)) : option A :=
  match l with [] => None | (q, a) :: r => if String.eqb q k then Some a else lookup k r end.

(** values; [VTree A]: the calls of the constructor in the order Python makes them (inner ones
    first, left to right): [pickle_loads] *)
Inductive pv := VVal (v : pyval) | VSrc (n : nat) | VLink (n : nat) | VList (l : list pv) | VTree (A : tree rowargs).
Definition as_tree (v : pv) : option (tree rowargs) := match v with VTree A => Some A | _ => None end.
Definition apply_fn (f : string) (args : list (option string * pv)) : option pv :=
  if String.eqb f "iTLink" then match args with [(None, VSrc n)] => Some (VLink n) | _ => None end
  else if String.eqb f "iTree" then
    (* __init__ (110-116): tag=NoTag, value=NoValue, subtree=None, link=None, flags=0 *)
    match bind_params ["tag"; "value"; "subtree"; "link"; "flags"] args with
    | None => None
    | Some l =>
      match match lookup "tag" l with None => Some PNoTag | Some (VVal v) => Some v | _ => None end,
            match lookup "value" l with None => Some PNoValue | Some (VVal v) => Some v | _ => None end,
            match lookup "subtree" l with None => Some [] | Some (VList l) => opt_all (map as_tree l) | _ => None end,
            match lookup "link" l with None => Some None | Some (VLink n) => Some (Some n) | _ => None end,
            match lookup "flags" l with None => Some 0%Z | Some (VVal (PInt z)) => Some z | _ => None end with
      | Some t, Some v, Some s, Some k, Some z => Some (VTree (Node (RA t v k z) s))
      | _, _, _, _, _ => None
      end
    end
  else None.
Fixpoint ev (e : ex) : option pv :=
  match e with
  | XVal v => Some (VVal v)
  | XSrc n => Some (VSrc n)
  | XDots => None
  | XList l => match (fix go l := match l with
                                  | [] => Some []
                                  | a :: r => match ev a, go r with Some x, Some y => Some (x :: y) | _, _ => None end
                                  end) l with Some vs => Some (VList vs) | None => None end
  | XCall f args => match (fix go l := match l with
                                       | [] => Some []
                                       | (k, a) :: r => match ev a, go r with Some x, Some y => Some ((k, x) :: y) | _, _ => None end
                                       end) args with Some vs => apply_fn f vs | None => None end
  end.
(** eval(text); a text that reads but is no sequence of such constructor calls: TypeError *)
Definition py_eval (l : list tok) : M loc :=
  match parse l with
  | None => throw SyntaxError
  | Some e => match ev e with Some (VTree A) => pickle_loads A | _ => throw TypeError end
  end.
