(** What the in-depth iterators should deliver, on finite trees. *)
From Verif Require Import Base Heap Tree.

(** children in the opposite order on every level *)
Fixpoint mirror {A} (T : tree A) : tree A := match T with Node a cs => Node a (rev (map mirror cs)) end.
(** keep a child (and what is below it) only if it passes f *)
Fixpoint prune {A} (f : A -> bool) (T : tree A) : tree A :=
  match T with Node a cs => Node a (filter (fun c => f (root c)) (map (prune f) cs)) end.
(** post-order: the subtrees in order, then the item *)
Fixpoint postorder {A} (T : tree A) : list A := match T with Node a cs => flat_map postorder cs ++ [a] end.
Definition post_below {A} (T : tree A) : list A := flat_map postorder (kids T).

Section Mapi.
  Context {A B : Type} (f : nat -> A -> B).
  Fixpoint mapi_from (i : nat) (l : list A) : list B := match l with [] => [] | a :: r => f i a :: mapi_from (S i) r end.
  Definition mapi (l : list A) : list B := mapi_from 0 l.
End Mapi.
(** pair each item with its path: the i-th child of a node with children ls gets the
    path of the node extended by [el ls i] *)
Fixpoint path_tree {A K} (el : list A -> nat -> K) (p : list K) (T : tree A) : tree (list K * A) :=
  match T with Node a cs => Node (p, a) (mapi (fun i c => path_tree el (p ++ [el (map root cs) i]) c) cs) end.
(** index paths: positions *)
Definition idx_el {A} (ls : list A) (i : nat) : Z := Z.of_nat i.
(** (tag, number of earlier siblings with the same tag) *)
Definition tag_num {A} (tg : A -> pyval) (ls : list A) (i : nat) : Z :=
  match nth_error ls i with
  | Some x => Z.of_nat (length (filter (fun y => pyval_eqb (tg y) (tg x)) (firstn i ls)))
  | None => 0%Z
  end.
Definition tag_el {A} (tg : A -> pyval) (ls : list A) (i : nat) : pyval * Z :=
  match nth_error ls i with Some x => (tg x, tag_num tg ls i) | None => (PNone, 0%Z) end.

(** the shape in which an iterator with REVERSE (rv) and hierarchical filter f sees the tree *)
Definition shape {A} (rv : bool) (f : A -> bool) (T : tree A) : tree A := if rv then mirror (prune f T) else prune f T.

Lemma root_mirror {A} (T : tree A) : root (mirror T) = root T. Proof. destruct T. reflexivity. Qed.
Lemma root_prune {A} f (T : tree A) : root (prune f T) = root T. Proof. destruct T. reflexivity. Qed.
Lemma root_shape {A} rv f (T : tree A) : root (shape rv f T) = root T.
Proof. destruct rv; cbn; rewrite ?root_mirror; apply root_prune. Qed.
Lemma filter_map_comm {A B} (g : A -> B) (p : B -> bool) l : filter p (map g l) = map g (filter (fun a => p (g a)) l).
Proof. induction l as [|a l IH]; cbn; [reflexivity|]. destruct (p (g a)); cbn; rewrite IH; reflexivity. Qed.
Lemma filter_rev {A} (p : A -> bool) l : filter p (rev l) = rev (filter p l).
Proof. induction l as [|a l IH]; cbn; [reflexivity|]. rewrite filter_app, IH. cbn. destruct (p a); cbn; [reflexivity|apply app_nil_r]. Qed.
Lemma prune_eq {A} (f : A -> bool) a cs : prune f (Node a cs) = Node a (map (prune f) (filter (fun c => f (root c)) cs)).
Proof. cbn. f_equal. rewrite filter_map_comm. f_equal. apply filter_ext. intros c. rewrite root_prune. reflexivity. Qed.
Lemma shape_eq {A} rv (f : A -> bool) a cs :
  shape rv f (Node a cs) = Node a (map (shape rv f) (filter (fun c => f (root c)) (if rv then rev cs else cs))).
Proof.
  unfold shape. rewrite prune_eq. destruct rv; [|reflexivity]. cbn [mirror]. f_equal. rewrite map_map, <- map_rev, filter_rev. reflexivity.
Qed.
Lemma prune_true {A} (T : tree A) : prune (fun _ => true) T = T.
Proof.
  induction T as [a cs IH] using tree_ind'. rewrite prune_eq. f_equal.
  replace (filter (fun _ => true) cs) with cs by (clear; induction cs; cbn; congruence).
  induction IH as [|c cs Hc _ IHcs]; cbn; [reflexivity|]. f_equal; assumption.
Qed.
Lemma mapi_from_length {A B} (f : nat -> A -> B) l : forall i, length (mapi_from f i l) = length l.
Proof. induction l; intros; cbn; auto. Qed.
Lemma mapi_from_ext {A B} (f g : nat -> A -> B) l : forall i, (forall j a, nth_error l j = Some a -> f (i + j) a = g (i + j) a) -> mapi_from f i l = mapi_from g i l.
Proof.
  induction l as [|a l IH]; intros i H; cbn; [reflexivity|]. f_equal; [specialize (H 0 a eq_refl); rewrite Nat.add_0_r in H; exact H|].
  apply IH. intros j b Hj. specialize (H (S j) b Hj). rewrite Nat.add_succ_r in H. exact H.
Qed.
Lemma mapi_combine {A B} (f : nat -> A -> B) l : forall i, mapi_from f i l = map (fun ia => f (fst ia) (snd ia)) (combine (seq i (length l)) l).
Proof. induction l as [|a l IH]; intros i; cbn; [reflexivity|]. f_equal. apply IH. Qed.
Lemma root_path_tree {A K} (el : list A -> nat -> K) p T : root (path_tree el p T) = (p, root T). Proof. destruct T. reflexivity. Qed.
(** the items k levels below the root, in order *)
Fixpoint at_depth {A} (k : nat) (T : tree A) : list A :=
  match k with 0 => [root T] | S k => flat_map (at_depth k) (kids T) end.
