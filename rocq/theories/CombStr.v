(** Definition strings of combined sets, "[1,2] u {5,7}" (src/itertree/itree_mathsets.py):
    mSetCombine.__init__ with one str (1826-1857), _parse_math_repr (1874-1931), math_repr
    (2083-2106), __contains__ (2007-2054) for the members such texts give.
    Texts as in MathStr.v.  No proofs in this file. *)
From Coq Require Import QArith Ascii.
From Verif Require Import Base MathSet MathStr MathBuild RosterStr.
Import ListNotations.
Local Open Scope list_scope.
Local Open Scope char_scope.

(** the member objects: intervals from bracket notation or a single bound, intervals from
    builder notation, rosters, combinations *)
Inductive cset := CInt (p : pinterval) | CBld (b : binterval) | CRos (r : proster) | CCmb (l : list cset) (is_union complement : bool).

(** str.split(' c '): every occurrence from left to right; [skip]: characters of the separator
    that are still to be passed over *)
Fixpoint split_sep (c : ascii) (skip : nat) (s : text) : list text :=
  match s with
  | [] => [[]]
  | d :: r =>
    match skip with
    | S k => split_sep c k r
    | O => if prefixb [" "; c; " "] s then [] :: split_sep c 2 r
           else match split_sep c 0 r with t :: l => (d :: t) :: l | [] => [[d]] end
    end
  end.
(** mSetInterval(str) (713-809) in all notations *)
Definition interval_def (s : text) : res cset :=
  match interval_str s with
  | Ok p => Ok (CInt p)
  | Err Unsupported => match builder_str s with Ok b => Ok (CBld b) | Err e => Err e end
  | Err e => Err e
  end.
(** 1903-1909, 1914-1920, 1923-1929: interval, else roster, else combination; other exceptions than
    TypeError pass *)
Definition sub_def (comb : text -> res cset) (s : text) : res cset :=
  match interval_def s with
  | Ok m => Ok m
  | Err TypeError => match roster_str s with
                     | Ok r => Ok (CRos r)
                     | Err TypeError => comb s
                     | Err e => Err e
                     end
  | Err e => Err e
  end.
Fixpoint map_res {A B} (f : A -> res B) (l : list A) : res (list B) :=
  match l with
  | [] => Ok []
  | a :: r => match f a with Err e => Err e | Ok b => match map_res f r with Ok k => Ok (b :: k) | Err e => Err e end end
  end.
(** 1895-1931 *)
Definition comb_split (comb : text -> res cset) (d : text) (complement : bool) : res (list cset * bool * bool) :=
  let tmp := split_sep "u" 0 d in
  let tmp2 := split_sep "n" 0 d in
  let parts (l : list text) (u : bool) := match map_res (sub_def comb) l with Ok k => Ok (k, u, complement) | Err e => Err e end in
  match tmp, tmp2 with
  | _ :: _ :: _, _ :: _ :: _ => Err TypeError
  | _ :: _ :: _, _ => parts tmp true
  | _, _ :: _ :: _ => parts tmp2 false
  | _, _ => parts [d] true
  end.
(** the last character, and the text without it *)
Definition unsnoc (s : text) : option (text * ascii) := match rev s with [] => None | c :: r => Some (rev r, c) end.
(** _parse_math_repr (1874-1931); [fuel] is the recursion limit.  1889-1894: the parentheses
    are put back, around the stripped text, after every exception. *)
Fixpoint comb_parse (fuel : nat) (s : text) (complement : bool) : res (list cset * bool * bool) :=
  match fuel with
  | O => Err RecursionError
  | S fuel =>
    let comb s := match comb_parse fuel s false with Ok (l, u, c) => Ok (CCmb l u c) | Err e => Err e end in
    match strip is_sp s with
    | [] => Err IndexError
    | c :: r =>
      let '(complement, d) := if Ascii.eqb c "!" then (negb complement, strip is_sp r) else (complement, c :: r) in
      match unsnoc d with
      | None => Err IndexError
      | Some (m, q) =>
        let '(complement, d) := if Ascii.eqb q "'" then (negb complement, strip is_sp m) else (complement, d) in
        match d, unsnoc d with
        | a :: r, Some (_, z) =>
          if Ascii.eqb a "(" && Ascii.eqb z ")" then
            let inner := strip is_sp (removelast r) in
            match comb_parse fuel inner complement with
            | Ok x => Ok x
            | Err _ => comb_split comb ("(" :: inner ++ [")"]) complement
            end
          else comb_split comb d complement
        | _, _ => Err IndexError
        end
      end
    end
  end.
(** mSetCombine(str) *)
Definition comb_str (fuel : nat) (s : text) : res cset :=
  match comb_parse fuel s false with Ok (l, u, c) => Ok (CCmb l u c) | Err e => Err e end.

(** math_repr (2083-2106) from the texts of the members *)
Definition sep_of (u : bool) : text := [" "; if u then "u" else "n"; " "].
Fixpoint join_sep (sep : text) (l : list text) : text :=
  match l with [] => [] | [t] => t | t :: r => t ++ sep ++ join_sep sep r end.
Definition comb_text (u c : bool) (ts : list text) : text :=
  (if c then lit "!(" else []) ++ join_sep (sep_of u) ts ++ (if c then lit ")" else []).

(** __contains__ (2022-2054) of one number, given the answers of the members in order *)
Fixpoint comb_answer (u c : bool) (e : option exn) (l : list (res bool)) : res bool :=
  match l with
  | [] => match e with Some x => Err x | None => Ok (if u then c else negb c) end
  | Ok b :: r => if Bool.eqb b u then Ok (if u then negb c else c) else comb_answer u c e r
  | Err x :: r => comb_answer u c (Some x) r
  end.
Fixpoint c_contains (s : cset) (v : num) (d : vdict) : res bool :=
  match s with
  | CInt p => iv_contains (piv_set p) (TNum v) d
  | CBld b => b_contains b v d
  | CRos r => Ok (ro_contains (pr_set r) (TNum v) d)
  | CCmb l u c => comb_answer u c None (map (fun m => c_contains m v d) l)
  end.
