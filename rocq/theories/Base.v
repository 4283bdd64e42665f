(** Common definitions: Python values, exceptions, list helpers.

    Models the Python runtime objects itertree works on; nothing here is specific to
    one function of /repo. *)
From Coq Require Export String Bool Arith ZArith Lia List.
Export ListNotations.
Open Scope list_scope.

(** Python exceptions used by itertree, as values.  [Diverges] marks a loop of the code
    that never ends (used only where the model can detect it); [Unsupported] marks an
    input class the model does not cover (never silently treated as success). *)
Inductive exn :=
| PermissionError | RecursionError | TypeError | ValueError | KeyError | IndexError
| AttributeError | LookupError | SyntaxError | UnboundLocalError | StopIteration
| ZeroDivisionError | OverflowError | NameError | Diverges | Unsupported.

(** Result of an operation that may raise. *)
Inductive res (A : Type) := Ok (a : A) | Err (e : exn).
Arguments Ok {A} a.
Arguments Err {A} e.

Definition is_ok {A} (r : res A) : bool := match r with Ok _ => true | Err _ => false end.

(** Python values as far as itertree inspects them.  [PNoTag], [PNoValue], [PNoKey],
    [PAny] are the marker classes of itree_helpers.py:294-338.  Floats are opaque tokens
    (only equality is used).  [PObj n] is an object of a user class, identified by n.
    Simplification: Python's cross-type equality (1 == True == 1.0) is not modelled,
    equality of values is structural. *)
Inductive pyval :=
| PNoTag | PNoValue | PNoKey | PAny | PNone
| PBool (b : bool)
| PInt (z : Z)
| PFloat (tok : Z)
| PStr (s : string)
| PBytes (s : string)
| PTuple (l : list pyval)
| PList (l : list pyval)
| PDeque (l : list pyval)
| PSet (l : list pyval)
| PDict (l : list (pyval * pyval))
| PODict (l : list (pyval * pyval))
| PObj (n : nat).

(** Induction principle with hypotheses for the nested lists. *)
Section PyvalInd.
  Variable P : pyval -> Prop.
  Hypothesis HNoTag : P PNoTag.
  Hypothesis HNoValue : P PNoValue.
  Hypothesis HNoKey : P PNoKey.
  Hypothesis HAny : P PAny.
  Hypothesis HNone : P PNone.
  Hypothesis HBool : forall b, P (PBool b).
  Hypothesis HInt : forall z, P (PInt z).
  Hypothesis HFloat : forall z, P (PFloat z).
  Hypothesis HStr : forall s, P (PStr s).
  Hypothesis HBytes : forall s, P (PBytes s).
  Hypothesis HTuple : forall l, Forall P l -> P (PTuple l).
  Hypothesis HList : forall l, Forall P l -> P (PList l).
  Hypothesis HDeque : forall l, Forall P l -> P (PDeque l).
  Hypothesis HSet : forall l, Forall P l -> P (PSet l).
  Hypothesis HDict : forall l, Forall (fun kv => P (fst kv) /\ P (snd kv)) l -> P (PDict l).
  Hypothesis HODict : forall l, Forall (fun kv => P (fst kv) /\ P (snd kv)) l -> P (PODict l).
  Hypothesis HObj : forall n, P (PObj n).

  Fixpoint pyval_ind' (v : pyval) : P v :=
    let fix go (l : list pyval) : Forall P l :=
      match l with
      | [] => Forall_nil P
      | x :: r => Forall_cons x (pyval_ind' x) (go r)
      end in
    let fix go2 (l : list (pyval * pyval)) : Forall (fun kv => P (fst kv) /\ P (snd kv)) l :=
      match l with
      | [] => Forall_nil _
      | kv :: r => Forall_cons kv (conj (pyval_ind' (fst kv)) (pyval_ind' (snd kv))) (go2 r)
      end in
    match v with
    | PNoTag => HNoTag | PNoValue => HNoValue | PNoKey => HNoKey | PAny => HAny
    | PNone => HNone
    | PBool b => HBool b
    | PInt z => HInt z
    | PFloat z => HFloat z
    | PStr s => HStr s
    | PBytes s => HBytes s
    | PTuple l => HTuple l (go l)
    | PList l => HList l (go l)
    | PDeque l => HDeque l (go l)
    | PSet l => HSet l (go l)
    | PDict l => HDict l (go2 l)
    | PODict l => HODict l (go2 l)
    | PObj n => HObj n
    end.
End PyvalInd.

Section ListEqb.
  Context {A : Type} (f : A -> A -> bool).
  Fixpoint list_eqb (l m : list A) {struct l} : bool :=
    match l, m with
    | [], [] => true
    | x :: l', y :: m' => f x y && list_eqb l' m'
    | _, _ => false
    end.
End ListEqb.
Section DictEqb.
  Context {A : Type} (f : A -> A -> bool).
  Fixpoint dict_eqb (l m : list (A * A)) {struct l} : bool :=
    match l, m with
    | [], [] => true
    | (k, v) :: l', (k', v') :: m' => f k k' && f v v' && dict_eqb l' m'
    | _, _ => false
    end.
End DictEqb.

Fixpoint pyval_eqb (a b : pyval) {struct a} : bool :=
  match a, b with
  | PNoTag, PNoTag | PNoValue, PNoValue | PNoKey, PNoKey | PAny, PAny | PNone, PNone => true
  | PBool x, PBool y => Bool.eqb x y
  | PInt x, PInt y => Z.eqb x y
  | PFloat x, PFloat y => Z.eqb x y
  | PStr x, PStr y => String.eqb x y
  | PBytes x, PBytes y => String.eqb x y
  | PTuple l, PTuple m => list_eqb pyval_eqb l m
  | PList l, PList m => list_eqb pyval_eqb l m
  | PDeque l, PDeque m => list_eqb pyval_eqb l m
  | PSet l, PSet m => list_eqb pyval_eqb l m
  | PDict l, PDict m => dict_eqb pyval_eqb l m
  | PODict l, PODict m => dict_eqb pyval_eqb l m
  | PObj n, PObj m => Nat.eqb n m
  | _, _ => false
  end.

Lemma list_eqb_Forall {A} (f : A -> A -> bool) l :
  Forall (fun a => forall b, f a b = true <-> a = b) l ->
  forall m, list_eqb f l m = true <-> l = m.
Proof.
  intros Hl; induction Hl as [|x xs Hx Hxs IHl]; intros [|y ys]; cbn [list_eqb];
    split; intro HH; try discriminate; try reflexivity.
  - apply andb_true_iff in HH. destruct HH as [E1 E2].
    apply Hx in E1. apply IHl in E2. congruence.
  - injection HH as -> ->. apply andb_true_iff. split; [apply Hx|apply IHl]; reflexivity.
Qed.

Lemma dict_eqb_Forall {A} (f : A -> A -> bool) l :
  Forall (fun kv => (forall b, f (fst kv) b = true <-> fst kv = b) /\
                    (forall b, f (snd kv) b = true <-> snd kv = b)) l ->
  forall m, dict_eqb f l m = true <-> l = m.
Proof.
  intros Hl; induction Hl as [|[k v] xs [Hk Hv] Hxs IHl]; intros [|[k' v'] ys]; cbn [dict_eqb];
    split; intro HH; try discriminate; try reflexivity.
  - apply andb_true_iff in HH. destruct HH as [E1 E2].
    apply andb_true_iff in E1. destruct E1 as [E0 E1].
    apply Hk in E0. apply Hv in E1. apply IHl in E2. cbn in *. congruence.
  - injection HH as -> -> ->. cbn in *. rewrite !andb_true_iff.
    repeat split; [apply Hk|apply Hv|apply IHl]; reflexivity.
Qed.

Lemma pyval_eqb_true a : forall b, pyval_eqb a b = true <-> a = b.
Proof.
  induction a as [| | | | |x|x|x|x|x|l IH|l IH|l IH|l IH|l IH|l IH|n] using pyval_ind';
    intros b; destruct b; cbn [pyval_eqb];
    try (split; [discriminate|intro HH; discriminate HH]);
    try (split; reflexivity);
    rewrite ?Bool.eqb_true_iff, ?Z.eqb_eq, ?String.eqb_eq, ?Nat.eqb_eq;
    try (split; congruence);
    first [rewrite (list_eqb_Forall _ _ IH) | rewrite (dict_eqb_Forall _ _ IH)];
    split; congruence.
Qed.

Lemma pyval_eqb_spec : forall a b, reflect (a = b) (pyval_eqb a b).
Proof. intros a b. apply iff_reflect. symmetry. apply pyval_eqb_true. Qed.

Lemma pyval_eqb_eq a b : pyval_eqb a b = true <-> a = b.
Proof. destruct (pyval_eqb_spec a b); split; congruence. Qed.
Lemma pyval_eqb_neq a b : pyval_eqb a b = false <-> a <> b.
Proof. destruct (pyval_eqb_spec a b); split; congruence. Qed.
Lemma pyval_eqb_refl a : pyval_eqb a a = true.
Proof. apply pyval_eqb_eq; reflexivity. Qed.
Lemma pyval_eqb_sym a b : pyval_eqb a b = pyval_eqb b a.
Proof. destruct (pyval_eqb_spec a b), (pyval_eqb_spec b a); congruence. Qed.

Definition pyval_eq_dec (a b : pyval) : {a = b} + {a <> b}.
Proof.
  destruct (Bool.bool_dec (pyval_eqb a b) true) as [E|E]; [left|right].
  - apply pyval_eqb_eq, E.
  - intros H. apply E, pyval_eqb_eq, H.
Defined.

(** Python index resolution for a sequence of length [n]: [l[i]] uses position
    [py_idx n i]; [None] stands for IndexError. *)
Definition py_idx (n : nat) (i : Z) : option nat :=
  if (0 <=? i)%Z && (i <? Z.of_nat n)%Z then Some (Z.to_nat i)
  else if (i <? 0)%Z && (- Z.of_nat n <=? i)%Z then Some (Z.to_nat (Z.of_nat n + i))
  else None.

(** Position used by list.insert(i, x) for a list of length [n] (clamped). *)
Definition py_insert_pos (n : nat) (i : Z) : nat :=
  let j := if (i <? 0)%Z then Z.max 0 (Z.of_nat n + i) else i in
  Z.to_nat (Z.min j (Z.of_nat n)).

(** list.insert at a natural position, list.__delitem__, list.__setitem__. *)
Definition insert_at {A} (n : nat) (x : A) (l : list A) : list A :=
  firstn n l ++ x :: skipn n l.
Definition remove_at {A} (n : nat) (l : list A) : list A :=
  firstn n l ++ skipn (S n) l.
Definition replace_at {A} (n : nat) (x : A) (l : list A) : list A :=
  firstn n l ++ x :: skipn (S n) l.

Definition py_insert {A} (i : Z) (x : A) (l : list A) : list A :=
  insert_at (py_insert_pos (length l) i) x l.

(** First position of a natural number in a list. *)
Fixpoint pos_of (x : nat) (l : list nat) : option nat :=
  match l with
  | [] => None
  | y :: r => if Nat.eqb y x then Some 0 else option_map S (pos_of x r)
  end.
