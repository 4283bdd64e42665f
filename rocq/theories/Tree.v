(** Finite ordered trees: the mathematical object behind a (sub)tree of items. *)
From Verif Require Import Base.

Inductive tree (A : Type) := Node (a : A) (cs : list (tree A)).
Arguments Node {A} a cs.

Definition root {A} (T : tree A) : A := match T with Node a _ => a end.
Definition kids {A} (T : tree A) : list (tree A) := match T with Node _ cs => cs end.

Section Ind.
  Context {A : Type} (P : tree A -> Prop).
  Hypothesis H : forall a cs, Forall P cs -> P (Node a cs).
  Fixpoint tree_ind' (T : tree A) : P T :=
    match T with
    | Node a cs => H a cs ((fix go (l : list (tree A)) : Forall P l :=
                              match l with
                              | [] => Forall_nil P
                              | c :: r => Forall_cons c (tree_ind' c) (go r)
                              end) cs)
    end.
End Ind.

(** pre-order: the item, then its subtrees in order *)
Fixpoint flatten {A} (T : tree A) : list A :=
  match T with Node a cs => a :: flat_map flatten cs end.
(** all descendants in pre-order, without the item itself *)
Definition below_tree {A} (T : tree A) : list A := flat_map flatten (kids T).

Fixpoint tmap {A B} (f : A -> B) (T : tree A) : tree B :=
  match T with Node a cs => Node (f a) (map (tmap f) cs) end.

(** number of levels below the item *)
Fixpoint height {A} (T : tree A) : nat :=
  match T with Node _ cs => list_max (map (fun c => S (height c)) cs) end.
Fixpoint size {A} (T : tree A) : nat :=
  match T with Node _ cs => S (list_sum (map size cs)) end.

Lemma flatten_tmap {A B} (f : A -> B) T : flatten (tmap f T) = map f (flatten T).
Proof.
  induction T as [a cs IH] using tree_ind'. cbn. f_equal.
  induction IH as [|c cs Hc _ IHcs]; cbn; [reflexivity|]. rewrite map_app, Hc, IHcs. reflexivity.
Qed.
Lemma root_tmap {A B} (f : A -> B) T : root (tmap f T) = f (root T).
Proof. destruct T. reflexivity. Qed.
Lemma tmap_tmap {A B C} (f : A -> B) (g : B -> C) T : tmap g (tmap f T) = tmap (fun a => g (f a)) T.
Proof.
  induction T as [a cs IH] using tree_ind'. cbn. f_equal. rewrite map_map.
  induction IH as [|c cs Hc _ IHcs]; cbn; [reflexivity|]. f_equal; assumption.
Qed.
Lemma tmap_ext {A B} (f g : A -> B) T : (forall a, In a (flatten T) -> f a = g a) -> tmap f T = tmap g T.
Proof.
  induction T as [a cs IH] using tree_ind'. cbn. intros H. f_equal; [apply H; left; reflexivity|].
  assert (H' : forall b, In b (flat_map flatten cs) -> f b = g b) by (intros b Hb; apply H; right; exact Hb).
  clear H. induction IH as [|c cs Hc _ IHcs]; cbn; [reflexivity|]. f_equal.
  - apply Hc. intros b Hb. apply H'. cbn. apply in_or_app. auto.
  - apply IHcs. intros b Hb. apply H'. cbn. apply in_or_app. auto.
Qed.
Lemma tmap_id {A} (T : tree A) : tmap (fun a => a) T = T.
Proof.
  induction T as [a cs IH] using tree_ind'. cbn. f_equal.
  induction IH as [|c cs Hc _ IHcs]; cbn; [reflexivity|]. f_equal; assumption.
Qed.
Lemma flatten_length {A} (T : tree A) : length (flatten T) = size T.
Proof.
  induction T as [a cs IH] using tree_ind'. cbn. f_equal.
  induction IH as [|c cs Hc _ IHcs]; cbn; [reflexivity|]. rewrite app_length, Hc, IHcs. reflexivity.
Qed.
Lemma height_tmap {A B} (f : A -> B) T : height (tmap f T) = height T.
Proof.
  induction T as [a cs IH] using tree_ind'. cbn. f_equal.
  induction IH as [|c cs Hc _ IHcs]; cbn; [reflexivity|]. f_equal; [|assumption]. congruence.
Qed.
Lemma size_tmap {A B} (f : A -> B) T : size (tmap f T) = size T.
Proof. rewrite <- !flatten_length, flatten_tmap, map_length. reflexivity. Qed.
Lemma height_kid {A} (a : A) cs c : In c cs -> height c < height (Node a cs).
Proof.
  intros H. cbn [height]. assert (S (height c) <= list_max (map (fun c => S (height c)) cs)); [|lia].
  pose proof (proj1 (list_max_le (map (fun c => S (height c)) cs) _) (le_n _)) as F.
  rewrite Forall_forall in F. apply F. apply in_map_iff. eauto.
Qed.
Lemma in_flatten_root {A} (T : tree A) : In (root T) (flatten T).
Proof. destruct T. left. reflexivity. Qed.

Lemma NoDup_app {A} (l m : list A) : NoDup l -> NoDup m -> (forall x, In x l -> In x m -> False) ->
  NoDup (l ++ m).
Proof.
  intros Hl Hm H. induction Hl as [|x l Hx Hl IH]; cbn; [assumption|]. constructor.
  - intros Hin. apply in_app_or in Hin as [|Hin]; [auto|]. apply (H x); [left; reflexivity|assumption].
  - apply IH. intros y Hy1 Hy2. apply (H y); [right; assumption|assumption].
Qed.
Lemma NoDup_app_inv {A} (l m : list A) : NoDup (l ++ m) ->
  NoDup l /\ NoDup m /\ (forall x, In x l -> In x m -> False).
Proof.
  induction l as [|x l IH]; cbn; intros H.
  - repeat split; [constructor|assumption|intros x []].
  - inversion H as [|? ? Hx Hl]; subst. destruct (IH Hl) as (A1 & A2 & A3). repeat split; auto.
    + constructor; [|assumption]. intros Hin. apply Hx. apply in_or_app. auto.
    + intros y [->|Hy] Hm; [apply Hx; apply in_or_app; auto|eauto].
Qed.
