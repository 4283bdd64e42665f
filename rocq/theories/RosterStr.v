(** Roster definition strings, "{1,2,a}": mSetRoster.__init__ with one str (1548-1618),
    _math_def_parser (1620-1632) and math_repr (1792-1812). *)
From Coq Require Import QArith Ascii.
From Verif Require Import Base MathSet MathStr.
Local Open Scope Z_scope.

(** the roster object with its items as printed; only closed items are kept (1612) *)
Record proster := PR { pr_items : list pitem; pr_compl : bool }.
(** the set object of MathSet.v *)
Definition pr_set (p : proster) : roster := mk_roster (map pi_si (pr_items p)) (pr_compl p).
(** a Python set of items: an item equal to one that is there is dropped *)
Definition add_item (l : list pitem) (i : pitem) : list pitem := if existsb (fun j => val_eq (pi_val j) (pi_val i)) l then l else l ++ [i].
Definition item_set (l : list pitem) : list pitem := fold_left add_item l [].
(** str.split of one character *)
Fixpoint split_at (c : ascii) (s : text) : list text :=
  match s with
  | [] => [[]]
  | d :: r => if Ascii.eqb d c then [] :: split_at c r
              else match split_at c r with t :: l => (d :: t) :: l | [] => [[d]] end
  end.
Fixpoint parse_items (l : list text) : res (list pitem) :=
  match l with
  | [] => Ok []
  | t :: r => match parse_item t false with
              | Err e => Err e
              | Ok i => match parse_items r with Ok k => Ok (i :: k) | Err e => Err e end
              end
  end.
Definition nonempty (t : text) : bool := match t with [] => false | _ => true end.
(** _math_def_parser; def_str[0] and def_str[-1] raise IndexError on the empty text *)
Definition roster_parse (s : text) : res (list pitem * bool) :=
  match no_sp s with
  | [] => Err IndexError
  | c :: r =>
      let '(c1, d) := if Ascii.eqb c "!" then (true, r) else (false, c :: r) in
      match rev d with
      | [] => Err IndexError
      | q :: m =>
          let '(c2, d) := if Ascii.eqb q "'" then (negb c1, rev m) else (c1, d) in
          match d, rev d with
          | a :: d', z :: _ =>
              if negb (Ascii.eqb a "{") && negb (Ascii.eqb z "}") then Err TypeError      (* "and": both missing *)
              else match parse_items (filter nonempty (split_at "," (removelast d'))) with
                   | Ok l => Ok (item_set l, c2)
                   | Err e => Err e
                   end
          | _, _ => Err IndexError
          end
      end
  end.
(** mSetRoster(str): when the parser refuses, the text is one item *)
Definition roster_str (s : text) : res proster :=
  match roster_parse s with
  | Ok (l, c) => Ok (PR l c)
  | Err _ => match parse_item s false with Ok i => Ok (PR [i] false) | Err e => Err e end
  end.
(** math_repr: the order in which Python delivers the set is not determined; the caller of
    this definition hands over any order *)
Fixpoint join_items (fstr : Q -> text) (l : list pitem) : res text :=
  match l with
  | [] => Ok []
  | i :: r => match item_repr fstr i, r with
              | Ok t, [] => Ok t
              | Ok t, _ => match join_items fstr r with Ok u => Ok (t ++ lit "," ++ u) | Err e => Err e end
              | Err e, _ => Err e
              end
  end.
Definition roster_repr (fstr : Q -> text) (items : list pitem) (complement : bool) : res text :=
  match join_items fstr items with
  | Ok t => Ok ((if complement then lit "!" else []) ++ lit "{" ++ t ++ lit "}")
  | Err e => Err e
  end.
