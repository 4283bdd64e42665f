(** Specification vocabulary for the heap layer.

    An abstract state gives, for every item, its tag, value, flags, parent and ordered
    list of children.  Nothing here mentions families, caches or dictionaries: those are
    implementation, and the theorems say that the implementation behaves as if they did
    not exist. *)
From Verif Require Import Base Heap.

(** What an API user can observe of one item. *)
Record anode := AN {
  a_tag : pyval; a_val : pyval; a_flags : Z;
  a_parent : option loc; a_children : list loc;
  a_link : option linkrec; a_coupled : option nat }.

Definition astate := loc -> anode.

(** item.tag, item.value, item.flags, item.parent, list(item), link, coupled_object *)
Definition view (h : heap) : astate := fun x =>
  let n := hnode h x in
  AN (ntag n) (nval n) (nflags n) (option_map pl_par (nprt n)) (nitems n) (nlink n) (ncoupled n).

Definition children (h : heap) (p : loc) : list loc := a_children (view h p).
Definition tag_of (h : heap) (x : loc) : pyval := a_tag (view h x).
Definition parent_of (h : heap) (x : loc) : option loc := a_parent (view h x).

(** The children of p carrying tag t, in child order. *)
Definition with_tag (s : astate) (p : loc) (t : pyval) : list loc :=
  filter (fun x => pyval_eqb (a_tag (s x)) t) (a_children (s p)).

(** Field updates of an observed item. *)
Definition a_set_children (l : list loc) (a : anode) : anode :=
  AN (a_tag a) (a_val a) (a_flags a) (a_parent a) l (a_link a) (a_coupled a).
Definition a_set_parent (o : option loc) (a : anode) : anode :=
  AN (a_tag a) (a_val a) (a_flags a) o (a_children a) (a_link a) (a_coupled a).
Definition a_set_tag (t : pyval) (a : anode) : anode :=
  AN t (a_val a) (a_flags a) (a_parent a) (a_children a) (a_link a) (a_coupled a).
Definition a_set_val (v : pyval) (a : anode) : anode :=
  AN (a_tag a) v (a_flags a) (a_parent a) (a_children a) (a_link a) (a_coupled a).
Definition a_set_flags (f : Z) (a : anode) : anode :=
  AN (a_tag a) (a_val a) f (a_parent a) (a_children a) (a_link a) (a_coupled a).

(** Two abstract states agree everywhere. *)
Definition same (s s' : astate) : Prop := forall y, s y = s' y.

(** [x] becomes the child number [k] of [p]; nothing else changes. *)
Definition attach (s : astate) (p x : loc) (k : nat) : astate := fun y =>
  if Nat.eqb y p then a_set_children (insert_at k x (a_children (s p))) (s p)
  else if Nat.eqb y x then a_set_parent (Some p) (s x)
  else s y.

(** the child number [k] of [p], which is [x], is taken out; nothing else changes. *)
Definition detach (s : astate) (p x : loc) (k : nat) : astate := fun y =>
  if Nat.eqb y p then a_set_children (remove_at k (a_children (s p))) (s p)
  else if Nat.eqb y x then a_set_parent None (s x)
  else s y.

(** the children of [p] become the list [l]; nothing else changes. *)
Definition reorder (s : astate) (p : loc) (l : list loc) : astate := fun y =>
  if Nat.eqb y p then a_set_children l (s p) else s y.

(** a is y itself or an ancestor of y *)
Inductive Anc (s : astate) (a : loc) : loc -> Prop :=
| Anc_refl : Anc s a a
| Anc_step y q : a_parent (s y) = Some q -> Anc s a q -> Anc s a y.

(** following the parents from x ends at a root *)
Inductive Rooted (s : astate) : loc -> Prop :=
| Rooted_root x : a_parent (s x) = None -> Rooted s x
| Rooted_step x q : a_parent (s x) = Some q -> Rooted s q -> Rooted s x.

(** Well-formed forest: every child knows its parent, no child occurs twice (hence, with
    the first clause, an item is child of at most one parent), objects outside the
    allocated range are unused, no cycle. *)
Record Forest (n : nat) (s : astate) : Prop := {
  fo_child : forall p c, In c (a_children (s p)) -> a_parent (s c) = Some p;
  fo_nodup : forall p, NoDup (a_children (s p));
  fo_alloc : forall x, n <= x -> a_children (s x) = [] /\ a_parent (s x) = None;
  fo_par : forall x p, a_parent (s x) = Some p -> p < n;
  fo_root : forall x, Rooted s x }.

(** Every item that names a parent is among that parent's children. *)
Definition NoOrphan (s : astate) : Prop :=
  forall x p, a_parent (s x) = Some p -> In x (a_children (s p)).
