(** Lemmas on abstract forests (specification level). *)
From Verif Require Import Base Heap HeapSpec ListLemmas.

Section F.
  Variable n : nat.
  Implicit Types (s : astate) (p x y c : loc).

  Lemma attach_parent s p x k y : x <> p ->
    a_parent (attach s p x k y) = if Nat.eqb y x then Some p else a_parent (s y).
  Proof.
    intros Hne. unfold attach. destruct (Nat.eqb_spec y p) as [->|]; cbn.
    - destruct (Nat.eqb_spec p x); [congruence|reflexivity].
    - destruct (Nat.eqb_spec y x) as [->|]; reflexivity.
  Qed.
  Lemma attach_children s p x k y :
    a_children (attach s p x k y) =
    if Nat.eqb y p then insert_at k x (a_children (s p)) else a_children (s y).
  Proof.
    unfold attach. destruct (Nat.eqb_spec y p) as [->|]; cbn; [reflexivity|].
    destruct (Nat.eqb_spec y x) as [->|]; reflexivity.
  Qed.
  Lemma detach_parent s p x k y : x <> p ->
    a_parent (detach s p x k y) = if Nat.eqb y x then None else a_parent (s y).
  Proof.
    intros Hne. unfold detach. destruct (Nat.eqb_spec y p) as [->|]; cbn.
    - destruct (Nat.eqb_spec p x); [congruence|reflexivity].
    - destruct (Nat.eqb_spec y x) as [->|]; reflexivity.
  Qed.
  Lemma detach_children s p x k y :
    a_children (detach s p x k y) =
    if Nat.eqb y p then remove_at k (a_children (s p)) else a_children (s y).
  Proof.
    unfold detach. destruct (Nat.eqb_spec y p) as [->|]; cbn; [reflexivity|].
    destruct (Nat.eqb_spec y x) as [->|]; reflexivity.
  Qed.
  Lemma reorder_parent s p l y : a_parent (reorder s p l y) = a_parent (s y).
  Proof. unfold reorder. destruct (Nat.eqb_spec y p) as [->|]; reflexivity. Qed.
  Lemma reorder_children s p l y :
    a_children (reorder s p l y) = if Nat.eqb y p then l else a_children (s y).
  Proof. unfold reorder. destruct (Nat.eqb_spec y p) as [->|]; reflexivity. Qed.

  Lemma Rooted_ext s s' : (forall y, a_parent (s y) = a_parent (s' y)) ->
    forall x, Rooted s x -> Rooted s' x.
  Proof.
    intros H x Hx. induction Hx as [x E|x q E _ IH].
    - apply Rooted_root. congruence.
    - apply Rooted_step with q; congruence.
  Qed.
  Lemma Anc_ext s s' : (forall y, a_parent (s y) = a_parent (s' y)) ->
    forall a x, Anc s a x -> Anc s' a x.
  Proof.
    intros H a x Hx. induction Hx as [|y q E _ IH]; [apply Anc_refl|].
    apply Anc_step with q; congruence.
  Qed.
  Lemma Anc_trans s a b c : Anc s a b -> Anc s b c -> Anc s a c.
  Proof.
    intros Hab Hbc. induction Hbc as [|y q E _ IH]; [assumption|]. eapply Anc_step; eauto.
  Qed.
  Lemma Anc_root_eq s a x : a_parent (s x) = None -> Anc s a x -> a = x.
  Proof. intros E H. destruct H; [reflexivity|congruence]. Qed.

  Lemma Rooted_not_Anc s s' x p :
    (forall y, a_parent (s' y) = if Nat.eqb y x then Some p else a_parent (s y)) ->
    forall y, Rooted s y -> ~ Anc s x y -> Rooted s' y.
  Proof.
    intros Hs y Hy. induction Hy as [y E|y q E _ IH]; intros Hn.
    - apply Rooted_root. rewrite Hs. destruct (Nat.eqb_spec y x) as [->|]; [|assumption].
      exfalso. apply Hn, Anc_refl.
    - apply Rooted_step with q.
      + rewrite Hs. destruct (Nat.eqb_spec y x) as [->|]; [|assumption].
        exfalso. apply Hn, Anc_refl.
      + apply IH. intro H. apply Hn. eapply Anc_step; eauto.
  Qed.
  Lemma Rooted_attach s s' x p :
    (forall y, a_parent (s' y) = if Nat.eqb y x then Some p else a_parent (s y)) ->
    (forall y, Rooted s y) -> ~ Anc s x p -> forall y, Rooted s' y.
  Proof.
    intros Hs Hr Hn y. assert (Hp : Rooted s' p) by (eapply Rooted_not_Anc; eauto).
    induction (Hr y) as [y E|y q E _ IH].
    - destruct (Nat.eqb_spec y x) as [->|Hne].
      + apply Rooted_step with p; [|assumption]. rewrite Hs, Nat.eqb_refl. reflexivity.
      + apply Rooted_root. rewrite Hs. destruct (Nat.eqb_spec y x); congruence.
    - destruct (Nat.eqb_spec y x) as [->|Hne].
      + apply Rooted_step with p; [|assumption]. rewrite Hs, Nat.eqb_refl. reflexivity.
      + apply Rooted_step with q; [|assumption]. rewrite Hs. destruct (Nat.eqb_spec y x); congruence.
  Qed.
  Lemma Rooted_drop s s' (D : loc -> bool) :
    (forall y, a_parent (s' y) = if D y then None else a_parent (s y)) ->
    forall y, Rooted s y -> Rooted s' y.
  Proof.
    intros Hs y Hy. induction Hy as [y E|y q E _ IH].
    - apply Rooted_root. rewrite Hs. destruct (D y); congruence.
    - destruct (D y) eqn:ED.
      + apply Rooted_root. rewrite Hs, ED. reflexivity.
      + apply Rooted_step with q; [|assumption]. rewrite Hs, ED. assumption.
  Qed.

  Lemma not_self_parent s x : Rooted s x -> a_parent (s x) <> Some x.
  Proof. intros H. induction H; congruence. Qed.

  Lemma Forest_ext s s' :
    (forall y, a_parent (s y) = a_parent (s' y) /\ a_children (s y) = a_children (s' y)) ->
    Forest n s -> Forest n s'.
  Proof.
    intros H [Hc Hd Ha Hp Hr]. split.
    - intros p c Hin. rewrite <- (proj2 (H p)) in Hin. rewrite <- (proj1 (H c)). auto.
    - intros p. rewrite <- (proj2 (H p)). auto.
    - intros x Hx. rewrite <- (proj1 (H x)), <- (proj2 (H x)). auto.
    - intros x p Hx. rewrite <- (proj1 (H x)) in Hx. eauto.
    - intros x. eapply Rooted_ext; [|apply Hr]. intros y; apply H.
  Qed.

  Lemma Forest_child_lt s p c : Forest n s -> In c (a_children (s p)) -> p < n /\ c < n.
  Proof.
    intros F H. split.
    - eapply fo_par; [eassumption|]. eapply fo_child; eauto.
    - destruct (Nat.lt_ge_cases c n) as [|Hge]; [assumption|].
      destruct (fo_alloc _ _ F c Hge) as [_ E].
      rewrite (fo_child _ _ F p c H) in E. discriminate.
  Qed.
  Lemma Forest_child_ne s p c : Forest n s -> In c (a_children (s p)) -> c <> p.
  Proof.
    intros F H ->. eapply not_self_parent; [apply (fo_root _ _ F)|]. eapply fo_child; eauto.
  Qed.

  Lemma attach_Forest s p x k : Forest n s -> a_parent (s x) = None -> x < n -> p < n ->
    ~ Anc s x p -> Forest n (attach s p x k).
  Proof.
    intros F Ex Hx Hp Hn.
    assert (Hne : x <> p) by (intros ->; apply Hn, Anc_refl).
    destruct F as [Hc Hd Ha Hpa Hr]. split.
    - intros q c. rewrite attach_children, attach_parent by assumption.
      destruct (Nat.eqb_spec q p) as [->|].
      + rewrite In_insert_at. intros [->|Hin]; [rewrite Nat.eqb_refl; reflexivity|].
        destruct (Nat.eqb_spec c x) as [->|]; [reflexivity|auto].
      + intros Hin. destruct (Nat.eqb_spec c x) as [->|]; [|auto].
        apply Hc in Hin. congruence.
    - intros q. rewrite attach_children. destruct (Nat.eqb_spec q p) as [->|]; [|auto].
      apply NoDup_insert_at; [auto|]. intros Hin. apply Hc in Hin. congruence.
    - intros y Hy. rewrite attach_children, attach_parent by assumption.
      destruct (Nat.eqb_spec y p) as [->|]; [lia|].
      destruct (Nat.eqb_spec y x) as [->|]; [lia|]. auto.
    - intros y q. rewrite attach_parent by assumption.
      destruct (Nat.eqb_spec y x) as [->|]; [congruence|eauto].
    - eapply Rooted_attach; eauto. intros y. apply attach_parent; assumption.
  Qed.

  Lemma detach_Forest s p x k : Forest n s -> nth_error (a_children (s p)) k = Some x ->
    Forest n (detach s p x k).
  Proof.
    intros F Hk.
    assert (Hin : In x (a_children (s p))) by (eapply nth_error_In; eauto).
    assert (Hne : x <> p) by (eapply Forest_child_ne; eauto).
    pose proof (Forest_child_lt _ _ _ F Hin) as [Hpn Hxn].
    destruct F as [Hc Hd Ha Hpa Hr].
    destruct (nth_error_split _ _ Hk) as (l1 & l2 & El & Elen).
    assert (Erm : remove_at k (a_children (s p)) = l1 ++ l2)
      by (rewrite El, <- Elen; apply remove_at_split).
    pose proof (Hd p) as Hdp. rewrite El in Hdp. apply NoDup_remove in Hdp as [Hdp Hnin].
    assert (Hall : forall c, In c (l1 ++ l2) -> In c (a_children (s p))).
    { intros c. rewrite El, !in_app_iff. cbn. tauto. }
    split.
    - intros q c. rewrite detach_children, detach_parent by assumption.
      destruct (Nat.eqb_spec q p) as [->|Hqp].
      + rewrite Erm. intros Hc'. destruct (Nat.eqb_spec c x) as [->|]; [tauto|]. auto.
      + intros Hc'. destruct (Nat.eqb_spec c x) as [->|]; [|auto].
        apply Hc in Hc'. apply Hc in Hin. congruence.
    - intros q. rewrite detach_children. destruct (Nat.eqb_spec q p) as [->|]; [|auto].
      rewrite Erm. assumption.
    - intros y Hy. rewrite detach_children, detach_parent by assumption.
      destruct (Nat.eqb_spec y p) as [->|]; [lia|].
      destruct (Nat.eqb_spec y x) as [->|]; [lia|]. auto.
    - intros y q. rewrite detach_parent by assumption.
      destruct (Nat.eqb_spec y x) as [->|]; [discriminate|eauto].
    - intros y. eapply Rooted_drop with (D := fun y => Nat.eqb y x); [|apply Hr].
      intros z. apply detach_parent; assumption.
  Qed.

  Lemma reorder_Forest s p l : Forest n s -> NoDup l -> incl l (a_children (s p)) -> p < n ->
    Forest n (reorder s p l).
  Proof.
    intros [Hc Hd Ha Hpa Hr] Hl Hi Hp. split.
    - intros q c. rewrite reorder_children, reorder_parent.
      destruct (Nat.eqb_spec q p) as [->|]; auto.
    - intros q. rewrite reorder_children. destruct (Nat.eqb q p); auto.
    - intros y Hy. rewrite reorder_children, reorder_parent.
      destruct (Nat.eqb_spec y p) as [->|]; [lia|auto].
    - intros y q. rewrite reorder_parent. eauto.
    - intros y. eapply Rooted_ext; [|apply Hr]. intros z. symmetry. apply reorder_parent.
  Qed.

  Lemma attach_NoOrphan s p x k : Forest n s -> NoOrphan s -> a_parent (s x) = None -> x <> p ->
    NoOrphan (attach s p x k).
  Proof.
    intros F HN Ex Hne y q. rewrite attach_parent, attach_children by assumption.
    destruct (Nat.eqb_spec y x) as [->|].
    - intros [= <-]. rewrite Nat.eqb_refl. apply In_insert_at. auto.
    - intros H. apply HN in H. destruct (Nat.eqb_spec q p) as [->|]; [|assumption].
      apply In_insert_at. auto.
  Qed.
  Lemma detach_NoOrphan s p x k : Forest n s -> NoOrphan s ->
    nth_error (a_children (s p)) k = Some x -> NoOrphan (detach s p x k).
  Proof.
    intros F HN Hk.
    assert (Hin : In x (a_children (s p))) by (eapply nth_error_In; eauto).
    assert (Hne : x <> p) by (eapply Forest_child_ne; eauto).
    destruct (nth_error_split _ _ Hk) as (l1 & l2 & El & Elen).
    intros y q. rewrite detach_parent, detach_children by assumption.
    destruct (Nat.eqb_spec y x) as [->|Hyx]; [discriminate|].
    intros H. apply HN in H. destruct (Nat.eqb_spec q p) as [->|]; [|assumption].
    rewrite El, <- Elen, remove_at_split. rewrite El in H. rewrite in_app_iff in *. cbn in H.
    intuition congruence.
  Qed.
End F.

Lemma Forest_mono n m s : n <= m -> Forest n s -> Forest m s.
Proof.
  intros H [Hc Hd Ha Hp Hr]. split; auto.
  - intros x Hx. apply Ha. lia.
  - intros x p Hx. specialize (Hp x p Hx). lia.
Qed.
