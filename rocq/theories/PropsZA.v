(** C87: trees are independent of each other. *)
From Verif Require Import Base Heap HeapSpec ListLemmas ForestLemmas HeapInv HeapMut History Runs HeapLocal.

(** * Specification *)
(** two items belong to the same tree: they have a common ancestor (or are the same) *)
Definition same_tree (s : astate) (x y : loc) : Prop := exists r, Anc s r x /\ Anc s r y.
(** the items of the trees of [X], and everything created after [h] *)
Definition Ours (h : heap) (X : list loc) (y : loc) : Prop :=
  hnext h <= y \/ exists x, In x X /\ same_tree (view h) x y.
(** the call is made on items of R ([writes]: the object whose modifying method is called);
    the items handed over ([given]) are of R too, or sit in some tree as children *)
Definition calls_on (R : loc -> Prop) (h : heap) (o : op) : Prop :=
  (forall x, In x (writes o) -> R x) /\
  (forall x, In x (given o) -> R x \/ exists q, parent_of h x = Some q).
(** any number of calls on items of R, returning or raising *)
Inductive Work (R : loc -> Prop) (h0 : heap) : heap -> Prop :=
| Work_start : Work R h0 h0
| Work_step h o : Work R h0 h -> calls_on R h o -> Work R h0 (after o h).
(** what can be seen of an item: tag, value, flags, parent, children, link, coupled object,
    and the answer of every look-up by tag *)
Definition same_item (h h' : heap) (y : loc) : Prop :=
  view h' y = view h y /\ forall t, fam_of h' y t = fam_of h y t.

(** * Roots *)
Lemma rooted_root s x : Rooted s x -> exists r, a_parent (s r) = None /\ Anc s r x.
Proof.
  induction 1 as [x E|x q E _ (r & Er & A)]; [exists x; split; [exact E|apply Anc_refl]|].
  exists r. split; [exact Er|]. apply Anc_step with q; assumption.
Qed.
Lemma root_unique s x : forall r r', a_parent (s r) = None -> a_parent (s r') = None ->
  Anc s r x -> Anc s r' x -> r = r'.
Proof.
  intros r r' E E' A. revert E'. induction A as [|y q Ey A IH]; intros E' A'.
  - symmetry. apply (Anc_root_eq s r' r E A').
  - destruct A' as [|y' q' Ey' A']; [congruence|]. apply IH; [exact E'|]. congruence.
Qed.
Lemma same_tree_dec n s x y : Forest n s -> same_tree s x y \/ ~ same_tree s x y.
Proof.
  intros F. destruct (rooted_root s x (fo_root _ _ F x)) as (rx & Ex & Ax).
  destruct (rooted_root s y (fo_root _ _ F y)) as (ry & Ey & Ay).
  destruct (Nat.eq_dec rx ry) as [E|E]; [left; exists rx; subst; auto|].
  right. intros (r & Arx & Ary). apply E.
  destruct (rooted_root s r (fo_root _ _ F r)) as (q & Eq & Aq).
  transitivity q.
  - apply (root_unique s x); auto. eapply Anc_trans; eauto.
  - apply (root_unique s y); auto. eapply Anc_trans; eauto.
Qed.
Lemma Ours_dec h X : Forest (hnext h) (view h) -> forall y, Ours h X y \/ ~ Ours h X y.
Proof.
  intros F y. destruct (Nat.le_gt_cases (hnext h) y) as [L|L]; [left; left; exact L|].
  induction X as [|x X IH].
  - right. intros [H|(x & [] & _)]. lia.
  - destruct (same_tree_dec _ _ x y F) as [S|N].
    + left. right. exists x. split; [left; reflexivity|exact S].
    + destruct IH as [[H|(z & Hz & S)]|IH]; [lia| |].
      * left. right. exists z. split; [right; exact Hz|exact S].
      * right. intros [H|(z & [<-|Hz] & S)]; [lia|contradiction|]. apply IH. right. exists z. auto.
Qed.
Lemma Ours_closed h X : WF h -> closed (Ours h X) h.
Proof.
  intros W. pose proof (wf_forest _ W) as F.
  assert (Al : forall y, hnext h <= y -> nitems (hnode h y) = [] /\ nprt (hnode h y) = None).
  { intros y Hy. destruct (fo_alloc _ _ F y Hy) as [A B]. cbn in A, B. split; [exact A|].
    destruct (nprt (hnode h y)); [discriminate|reflexivity]. }
  apply WF_closed; [exact W|intros y H; left; exact H| |].
  - intros y c Hy Hc. destruct Hy as [Hy|(x & Hx & r & A & B)].
    + destruct (Al y Hy) as [E _]. rewrite E in Hc. destruct Hc.
    + right. exists x. split; [exact Hx|]. exists r. split; [exact A|].
      apply Anc_step with y; [apply (fo_child _ _ F); exact Hc|exact B].
  - intros y pl Hy E. assert (Ep : a_parent (view h y) = Some (pl_par pl)) by (cbn; rewrite E; reflexivity).
    destruct Hy as [Hy|(x & Hx & r & A & B)].
    + destruct (Al y Hy) as [_ E']. congruence.
    + right. exists x. split; [exact Hx|]. destruct B as [|y' q Eq B].
      * exists (pl_par pl). split; [|apply Anc_refl].
        eapply Anc_trans; [|exact A]. apply Anc_step with (pl_par pl); [exact Ep|apply Anc_refl].
      * exists r. split; [exact A|]. congruence.
Qed.

(** * One step, many steps *)
Lemma strip_same h h' y : strip (hnode h' y) = strip (hnode h y) -> same_item h h' y.
Proof.
  intros E.
  assert (E1 : ntag (hnode h' y) = ntag (hnode h y)) by exact (f_equal ntag E).
  assert (E2 : nval (hnode h' y) = nval (hnode h y)) by exact (f_equal nval E).
  assert (E3 : nflags (hnode h' y) = nflags (hnode h y)) by exact (f_equal nflags E).
  assert (E4 : nitems (hnode h' y) = nitems (hnode h y)) by exact (f_equal nitems E).
  assert (E5 : nfams (hnode h' y) = nfams (hnode h y)) by exact (f_equal nfams E).
  assert (E6 : nbound (hnode h' y) = nbound (hnode h y)) by exact (f_equal nbound E).
  assert (E7 : nlink (hnode h' y) = nlink (hnode h y)) by exact (f_equal nlink E).
  assert (E8 : ncoupled (hnode h' y) = ncoupled (hnode h y)) by exact (f_equal ncoupled E).
  assert (E9 : option_map pl_par (nprt (hnode h' y)) = option_map pl_par (nprt (hnode h y))).
  { pose proof (f_equal nprt E) as P. cbn in P.
    destruct (nprt (hnode h' y)), (nprt (hnode h y)); cbn in *; congruence. }
  split.
  - unfold view. rewrite E1, E2, E3, E4, E7, E8, E9. reflexivity.
  - intros t. unfold fam_of. rewrite E5, E6. reflexivity.
Qed.
Lemma work_runs R h0 h : Work R h0 h -> RunsOn R h0 h.
Proof.
  induction 1 as [|h o _ IH [W G]]; [apply RunsOn_start|]. apply RunsOn_step; [exact IH|exact W|].
  intros x Hx. destruct (G x Hx) as [|(q & E)]; [left; assumption|right].
  cbn in E. destruct (nprt (hnode h x)); [discriminate|discriminate E].
Qed.
Lemma work_local R (R_dec : forall x, R x \/ ~ R x) h0 h : WF h0 -> closed R h0 -> Work R h0 h ->
  hnext h0 <= hnext h /\ closed R h /\ forall y, ~ R y -> strip (hnode h y) = strip (hnode h0 y).
Proof. intros W C Wk. apply (runs_local R R_dec h0 h W C (work_runs R h0 h Wk)). Qed.

(** ** C87 *)
(** any history of calls, whatever they are and whether they return or raise, on the trees
    of X and on items created meanwhile leaves the items of all other trees as they were *)
Theorem C87_history : forall h0 X h y, Reach h0 -> Work (Ours h0 X) h0 h ->
  y < hnext h0 -> (forall x, In x X -> ~ same_tree (view h0) x y) -> same_item h0 h y.
Proof.
  intros h0 X h y R Wk Ly Hy. pose proof (reach_WF h0 R) as W.
  assert (N : ~ Ours h0 X y).
  { intros [H|(x & Hx & S)]; [lia|apply (Hy x Hx S)]. }
  destruct (work_local _ (Ours_dec h0 X (wf_forest _ W)) h0 h W (Ours_closed h0 X W) Wk) as (_ & _ & F1).
  apply strip_same, F1, N.
Qed.
(** one call *)
Theorem C87_call : forall h o y, Reach h -> y < hnext h ->
  (forall x, In x (writes o) -> ~ same_tree (view h) x y) ->
  (forall x, In x (given o) -> parent_of h x = None -> ~ same_tree (view h) x y) ->
  same_item h (after o h) y.
Proof.
  intros h o y R Ly Hw Hg.
  set (X := writes o ++ filter (fun x => match parent_of h x with None => true | Some _ => false end) (given o)).
  assert (Me : forall x, In x X -> Ours h X x).
  { intros x Hx. right. exists x. split; [exact Hx|]. exists x. split; apply Anc_refl. }
  apply (C87_history h X); [exact R| |exact Ly|].
  - apply Work_step; [apply Work_start|]. split.
    + intros x Hx. apply Me, in_app_iff. left. exact Hx.
    + intros x Hx. destruct (parent_of h x) as [q|] eqn:E; [right; exists q; reflexivity|].
      left. apply Me, in_app_iff. right. apply filter_In. rewrite E. auto.
  - intros x Hx. apply in_app_iff in Hx as [Hx|Hx]; [apply (Hw x Hx)|].
    apply filter_In in Hx as [Hx E]. apply (Hg x Hx). destruct (parent_of h x); [discriminate|reflexivity].
Qed.
(** trees stay separate: an item of another tree is never attached, and never becomes a
    parent of one of ours *)
Theorem C87_separate : forall h0 X h y, Reach h0 -> Work (Ours h0 X) h0 h -> Ours h0 X y ->
  (forall q, parent_of h y = Some q -> Ours h0 X q) /\ (forall c, In c (children h y) -> Ours h0 X c).
Proof.
  intros h0 X h y R Wk Hy. pose proof (reach_WF h0 R) as W.
  destruct (work_local _ (Ours_dec h0 X (wf_forest _ W)) h0 h W (Ours_closed h0 X W) Wk) as (_ & C1 & _).
  destruct (proj2 C1 y Hy) as [A B _ _ _]. split; [|exact A].
  intros q E. unfold parent_of in E. cbn in E. destruct (nprt (hnode h y)) as [pl|] eqn:P; [|discriminate].
  injection E as <-. apply (B pl eq_refl).
Qed.

(** *** after copy() the two trees do not influence each other *)
Lemma fresh_closed h x : WF h -> closed (fun y => hnext h <= y) (fst (copy_item x h)) /\
  forall y, y < hnext h -> strip (hnode (fst (copy_item x h)) y) = strip (hnode h y).
Proof.
  intros W. set (R := fun y => hnext h <= y).
  assert (D : forall y, R y \/ ~ R y) by (intros y; unfold R; lia).
  assert (C : closed R h).
  { pose proof (wf_forest _ W) as F.
    apply WF_closed; [exact W|auto| |]; intros y z Hy; destruct (fo_alloc _ _ F y Hy) as [A B]; cbn in A, B.
    - rewrite A. intros [].
    - intros E. rewrite E in B. discriminate. }
  destruct (runs_local R D h (after (OCopy x) h) W C) as (_ & C' & F).
  { apply RunsOn_step; [apply RunsOn_start|intros ? []|intros ? []]. }
  unfold after in C', F. cbn [run] in C', F. rewrite void_fst in C', F.
  split; [exact C'|]. intros y Hy. apply F. unfold R. lia.
Qed.
Theorem C87_copy : forall h x h' r, Reach h -> x < hnext h -> copy_item x h = (h', Ok r) ->
  (* any work on the copy leaves everything that existed before as it was *)
  (forall h'' y, Work (fun z => hnext h <= z) h' h'' -> y < hnext h -> same_item h h'' y) /\
  (* any work on the original (and its whole tree) leaves the copy as it was *)
  (forall h'' y, Work (Ours h' [x]) h' h'' -> hnext h <= y < hnext h' -> same_item h' h'' y).
Proof.
  intros h x h' r R Lx E. pose proof (reach_WF h R) as W.
  assert (E' : h' = fst (copy_item x h)) by (rewrite E; reflexivity).
  destruct (fresh_closed h x W) as [C F]. rewrite <- E' in C, F.
  assert (R' : Reach h').
  { rewrite E'. rewrite <- (void_fst (copy_item x) h). apply (Reach_step h (OCopy x) R). exact Lx. }
  pose proof (reach_WF h' R') as W'. split.
  - intros h'' y Wk Ly.
    destruct (work_local (fun z => hnext h <= z) ltac:(intros; cbn; lia) h' h'' W' C Wk) as (_ & _ & F2).
    apply strip_same. rewrite (F2 y) by lia. apply F. exact Ly.
  - intros h'' y Wk Ly. apply (C87_history h' [x] h'' y R' Wk); [lia|].
    intros z [<-|[]] (q & A & B).
    assert (Hq : hnext h <= q).
    { clear - B C Ly. destruct Ly as [Ly _]. induction B as [|y p Ep B IH]; [exact Ly|]. apply IH.
      cbn in Ep. destruct (nprt (hnode h' y)) as [pl|] eqn:P; [|discriminate]. injection Ep as <-.
      apply (ncl_prt _ _ (proj2 C y Ly) pl P). }
    assert (Hq' : q < hnext h).
    { clear - A F W Lx. induction A as [|y p Ep A IH]; [exact Lx|]. apply IH.
      destruct (strip_same h h' y (F y Lx)) as [V _]. rewrite V in Ep.
      apply (fo_par _ _ (wf_forest _ W) y p Ep). }
    lia.
Qed.

(** *** case: the tree of 0 (items 0-5) is changed in many ways, with a raising call at the
    end; 6 is another tree, whose children are copied and which is copied itself *)
Definition c87_ops : list op :=
  [ORename 1 (PStr "z"); OSetItem 0 (TgVal (PStr "b")) (IItem 5); ODelete 0 (TgSlice (Some 2) (Some 3))%Z; ODelete 0 (TgVal (PStr "a")); OExtendTree 0 6; OAppend 3 (IVal (PInt 9));
   OExtend 0 [EVal (PInt 7); EArgs (PStr "n") PNone]; OReverse 0; OCopy 6; OSetValue 0 (PInt 1);
   OSetTreeReadOnly 0; OAppend 0 (IVal (PInt 8))].
Definition ex3_heap : heap := runs [ONew (PStr "s") PNone [] None 0; OAppend 6 (IItem 7)] ex_heap.
Fixpoint calls_b (Rb : loc -> bool) (ops : list op) (h : heap) : bool :=
  match ops with
  | [] => true
  | o :: r => forallb Rb (writes o) &&
              forallb (fun x => Rb x || match parent_of h x with Some _ => true | None => false end) (given o) &&
              calls_b Rb r (after o h)
  end.
Lemma work_ops (R : loc -> Prop) Rb h0 : (forall x, Rb x = true -> R x) -> forall ops h, Work R h0 h ->
  calls_b Rb ops h = true -> Work R h0 (runs ops h).
Proof.
  intros HR. induction ops as [|o ops IH]; intros h W C; [exact W|]. cbn [calls_b] in C.
  apply andb_true_iff in C as [C C3]. apply andb_true_iff in C as [C1 C2].
  cbn [runs]. apply IH; auto. apply Work_step; [exact W|]. split.
  - intros x Hx. apply HR. rewrite forallb_forall in C1. apply C1, Hx.
  - intros x Hx. rewrite forallb_forall in C2. specialize (C2 x Hx). apply orb_true_iff in C2 as [C2|C2]; [left; apply HR, C2|right].
    destruct (parent_of h x) as [q|]; [exists q; reflexivity|discriminate].
Qed.
Lemma ex3_reach : Reach ex3_heap.
Proof. apply reach_runs; [apply ex_reach|vm_compute; reflexivity]. Qed.
Lemma ex3_next : hnext ex3_heap = 8. Proof. vm_compute. reflexivity. Qed.
Lemma ex3_par : map (parent_of ex3_heap) [0; 1; 2; 3; 4; 5; 6; 7] =
  [None; Some 0; Some 0; Some 0; Some 0; Some 3; None; Some 6].
Proof. vm_compute. reflexivity. Qed.
Section EX3.
Variable s : astate.
Hypothesis P : forall k, k < 8 -> nth_error [None; Some 0; Some 0; Some 0; Some 0; Some 3; None; Some 6] k = Some (a_parent (s k)).
Lemma two_parent k o : k < 8 -> nth_error [None; Some 0; Some 0; Some 0; Some 0; Some 3; None; Some 6] k = Some o -> a_parent (s k) = o.
Proof. intros L E. rewrite (P k L) in E. injection E as ->. reflexivity. Qed.
Lemma two_same : forall y, y <= 5 -> same_tree s 0 y.
Proof.
  intros y Hy. exists 0. split; [apply Anc_refl|].
  assert (K1 : forall y, 1 <= y <= 4 -> Anc s 0 y).
  { intros z Hz. apply Anc_step with 0; [|apply Anc_refl]. apply two_parent; [lia|].
    do 5 (destruct z as [|z]; [lia || reflexivity|]). lia. }
  destruct (Nat.eq_dec y 0) as [->|]; [apply Anc_refl|]. destruct (Nat.eq_dec y 5) as [->|]; [|apply K1; lia].
  apply Anc_step with 3; [apply two_parent; [lia|reflexivity]|apply K1; lia].
Qed.
Lemma two_other : forall y, 6 <= y <= 7 -> ~ same_tree s 0 y.
Proof.
  intros y Hy (r & A & B). apply Anc_root_eq in A; [|apply two_parent; [lia|reflexivity]]. subst r.
  assert (E6 : a_parent (s 6) = None) by (apply two_parent; [lia|reflexivity]).
  assert (E7 : a_parent (s 7) = Some 6) by (apply two_parent; [lia|reflexivity]).
  destruct (Nat.eq_dec y 6) as [->|]; [pose proof (Anc_root_eq _ _ _ E6 B) as B0; discriminate B0|].
  assert (y = 7) by lia. subst y. inversion B as [|y' q Eq B']; subst. rewrite E7 in Eq. injection Eq as <-.
  pose proof (Anc_root_eq _ _ _ E6 B') as B0. discriminate B0.
Qed.
End EX3.
Lemma ex3_P : forall k, k < 8 -> nth_error [None; Some 0; Some 0; Some 0; Some 0; Some 3; None; Some 6] k = Some (a_parent (view ex3_heap k)).
Proof.
  intros k L. rewrite <- ex3_par. rewrite nth_error_map.
  rewrite (nth_error_nth' [0; 1; 2; 3; 4; 5; 6; 7] 0 L). change [0; 1; 2; 3; 4; 5; 6; 7] with (seq 0 8).
  rewrite seq_nth by exact L. reflexivity.
Qed.
Definition ex3_parent := two_parent (view ex3_heap) ex3_P.
Definition ex3_same := two_same (view ex3_heap) ex3_P.
Definition ex3_other := two_other (view ex3_heap) ex3_P.
Lemma c87_work : Work (Ours ex3_heap [0]) ex3_heap (runs c87_ops ex3_heap).
Proof.
  apply (work_ops _ (fun x => (x <=? 5) || (8 <=? x))).
  - intros x Hx. apply orb_true_iff in Hx as [Hx|Hx]; apply Nat.leb_le in Hx.
    + right. exists 0. split; [left; reflexivity|apply ex3_same, Hx].
    + left. rewrite ex3_next. exact Hx.
  - apply Work_start.
  - vm_compute. reflexivity.
Qed.
Lemma c87_seen : children ex3_heap 0 = [1; 2; 3; 4] /\ children (runs c87_ops ex3_heap) 0 = [11; 10; 8; 4; 2; 1] /\
  parent_of (runs c87_ops ex3_heap) 3 = None /\ children (runs c87_ops ex3_heap) 3 = [5; 9] /\
  snd (run (OAppend 0 (IVal (PInt 8))) (runs c87_ops ex3_heap)) = Err PermissionError.
Proof. vm_compute. auto. Qed.
Example C87_case : Reach ex3_heap /\ Work (Ours ex3_heap [0]) ex3_heap (runs c87_ops ex3_heap) /\
  (forall y, 6 <= y <= 7 -> y < hnext ex3_heap /\ forall x, In x [0] -> ~ same_tree (view ex3_heap) x y) /\
  children ex3_heap 0 = [1; 2; 3; 4] /\ children (runs c87_ops ex3_heap) 0 = [11; 10; 8; 4; 2; 1] /\
  parent_of (runs c87_ops ex3_heap) 3 = None /\ children (runs c87_ops ex3_heap) 3 = [5; 9].
Proof.
  destruct c87_seen as (A & B & C & D & _).
  split; [exact ex3_reach|]. split; [exact c87_work|]. split; [|auto].
  intros y Hy. split; [rewrite ex3_next; lia|]. intros x [<-|[]]. apply ex3_other, Hy.
Qed.
(** *** handing over a free item of another tree does change that tree *)
Theorem C87_given_counts : exists h y, Reach h /\ y < hnext h /\ parent_of h y = None /\
  ~ same_tree (view h) 0 y /\ parent_of (after (OAppend 0 (IItem y)) h) y = Some 0.
Proof.
  exists ex3_heap, 6. split; [exact ex3_reach|]. split; [rewrite ex3_next; lia|].
  split; [apply ex3_parent; [lia|reflexivity]|]. split; [apply ex3_other; lia|].
  vm_compute. reflexivity.
Qed.
