(** Lemmas on lists and Python index arithmetic (no model content). *)
From Verif Require Import Base.

Section L.
  Context {A : Type}.
  Implicit Types (l : list A) (x y : A).

  Lemma insert_at_length n x l : length (insert_at n x l) = S (length l).
  Proof.
    unfold insert_at. rewrite app_length. cbn [length].
    rewrite firstn_length, skipn_length. lia.
  Qed.
  Lemma insert_at_split l1 l2 x : insert_at (length l1) x (l1 ++ l2) = l1 ++ x :: l2.
  Proof.
    unfold insert_at. rewrite firstn_app, skipn_app, firstn_all, skipn_all, Nat.sub_diag.
    cbn [firstn skipn]. rewrite app_nil_r. reflexivity.
  Qed.
  Lemma insert_at_0 x l : insert_at 0 x l = x :: l.
  Proof. reflexivity. Qed.
  Lemma insert_at_end n x l : length l <= n -> insert_at n x l = l ++ [x].
  Proof.
    intros H. unfold insert_at. rewrite firstn_all2, skipn_all2 by lia. reflexivity.
  Qed.
  Lemma remove_at_split l1 l2 x : remove_at (length l1) (l1 ++ x :: l2) = l1 ++ l2.
  Proof.
    unfold remove_at. rewrite firstn_app, firstn_all, Nat.sub_diag.
    cbn [firstn]. rewrite app_nil_r.
    change (x :: l2) with ([x] ++ l2). rewrite app_assoc.
    replace (S (length l1)) with (length (l1 ++ [x])) by (rewrite app_length; cbn; lia).
    rewrite skipn_app, skipn_all, Nat.sub_diag. reflexivity.
  Qed.
  Lemma replace_at_split l1 l2 x y : replace_at (length l1) y (l1 ++ x :: l2) = l1 ++ y :: l2.
  Proof.
    unfold replace_at. rewrite firstn_app, firstn_all, Nat.sub_diag.
    cbn [firstn]. rewrite app_nil_r.
    change (x :: l2) with ([x] ++ l2). rewrite app_assoc.
    replace (S (length l1)) with (length (l1 ++ [x])) by (rewrite app_length; cbn; lia).
    rewrite skipn_app, skipn_all, Nat.sub_diag. reflexivity.
  Qed.
  Lemma nth_error_split' l n x : nth_error l n = Some x ->
    exists l1 l2, l = l1 ++ x :: l2 /\ length l1 = n.
  Proof. apply nth_error_split. Qed.
  Lemma nth_error_mid l1 l2 x : nth_error (l1 ++ x :: l2) (length l1) = Some x.
  Proof. rewrite nth_error_app2, Nat.sub_diag by lia. reflexivity. Qed.
  Lemma nth_error_insert n x l : n <= length l -> nth_error (insert_at n x l) n = Some x.
  Proof.
    intros H. unfold insert_at.
    rewrite nth_error_app2 by (rewrite firstn_length; lia).
    rewrite firstn_length, Nat.min_l, Nat.sub_diag by lia. reflexivity.
  Qed.
  Lemma remove_insert n x l : n <= length l -> remove_at n (insert_at n x l) = l.
  Proof.
    intros H. rewrite <- (firstn_skipn n l) at 2. unfold insert_at.
    replace n with (length (firstn n l)) at 1 by (rewrite firstn_length; lia).
    apply remove_at_split.
  Qed.
  Lemma In_insert_at n x y l : In y (insert_at n x l) <-> y = x \/ In y l.
  Proof.
    unfold insert_at. rewrite <- (firstn_skipn n l) at 3. rewrite !in_app_iff. cbn.
    firstorder congruence.
  Qed.
  Lemma NoDup_insert_at n x l : NoDup l -> ~ In x l -> NoDup (insert_at n x l).
  Proof.
    intros H1 H2. unfold insert_at. rewrite <- (firstn_skipn n l) in H1, H2.
    apply NoDup_Add with (a := x) (l := firstn n l ++ skipn n l).
    - apply Add_app.
    - split; assumption.
  Qed.
  Lemma NoDup_remove_at l1 l2 x : NoDup (l1 ++ x :: l2) -> NoDup (l1 ++ l2) /\ ~ In x (l1 ++ l2).
  Proof. apply NoDup_remove. Qed.
  Lemma filter_insert_at (f : A -> bool) n x l :
    filter f (insert_at n x l) =
    if f x then insert_at (length (filter f (firstn n l))) x (filter f l) else filter f l.
  Proof.
    assert (E : filter f l = filter f (firstn n l) ++ filter f (skipn n l))
      by (rewrite <- filter_app, firstn_skipn; reflexivity).
    unfold insert_at at 1. rewrite filter_app. cbn [filter]. rewrite E.
    destruct (f x); [|reflexivity]. rewrite insert_at_split. reflexivity.
  Qed.
  Lemma NoDup_nth_error_inj l i j x : NoDup l ->
    nth_error l i = Some x -> nth_error l j = Some x -> i = j.
  Proof.
    intros H Hi Hj. rewrite NoDup_nth_error in H. apply H.
    - apply nth_error_Some. congruence.
    - congruence.
  Qed.
  Lemma NoDup_filter (f : A -> bool) l : NoDup l -> NoDup (filter f l).
  Proof.
    induction 1 as [|a l Hn Hd IH]; cbn; [constructor|].
    destruct (f a); [constructor|]; auto. rewrite filter_In. tauto.
  Qed.
  Lemma filter_rev (f : A -> bool) l : filter f (rev l) = rev (filter f l).
  Proof.
    induction l as [|a l IH]; cbn; [reflexivity|].
    rewrite filter_app, IH. cbn. destruct (f a); cbn; [reflexivity|apply app_nil_r].
  Qed.
  Lemma filter_nil_iff (f : A -> bool) l : filter f l = [] <-> (forall x, In x l -> f x = false).
  Proof.
    induction l as [|a l IH]; cbn; [firstorder|].
    destruct (f a) eqn:E; split; intro H.
    - discriminate.
    - specialize (H a (or_introl eq_refl)). congruence.
    - intros x [->|Hx]; [assumption|]. apply IH; assumption.
    - apply IH. intros x Hx. apply H. right. assumption.
  Qed.
  Lemma nth_error_lt l i x : nth_error l i = Some x -> i < length l.
  Proof. intro H. apply nth_error_Some. congruence. Qed.
End L.

(** * py_idx *)
Lemma py_idx_nonneg n i : (0 <= i)%Z -> (i < Z.of_nat n)%Z -> py_idx n i = Some (Z.to_nat i).
Proof.
  intros H1 H2. unfold py_idx.
  destruct (Z.leb_spec 0 i), (Z.ltb_spec i (Z.of_nat n)); cbn; try lia. reflexivity.
Qed.
Lemma py_idx_of_nat n i : i < n -> py_idx n (Z.of_nat i) = Some i.
Proof. intros H. rewrite py_idx_nonneg by lia. f_equal. lia. Qed.
Lemma py_idx_neg n i : (i < 0)%Z -> (- Z.of_nat n <= i)%Z ->
  py_idx n i = Some (Z.to_nat (Z.of_nat n + i)).
Proof.
  intros H1 H2. unfold py_idx.
  destruct (Z.leb_spec 0 i); cbn [andb]; try lia.
  destruct (Z.ltb_spec i 0), (Z.leb_spec (- Z.of_nat n) i); cbn; try lia. reflexivity.
Qed.
Lemma py_idx_None n i : py_idx n i = None <-> (i < - Z.of_nat n \/ Z.of_nat n <= i)%Z.
Proof.
  unfold py_idx.
  destruct (Z.leb_spec 0 i), (Z.ltb_spec i (Z.of_nat n)); cbn [andb];
  destruct (Z.ltb_spec i 0), (Z.leb_spec (- Z.of_nat n) i); cbn; split; intro; try discriminate; try lia;
  reflexivity.
Qed.
Lemma py_idx_lt n i k : py_idx n i = Some k -> k < n.
Proof.
  unfold py_idx.
  destruct (Z.leb_spec 0 i), (Z.ltb_spec i (Z.of_nat n)); cbn [andb];
  destruct (Z.ltb_spec i 0), (Z.leb_spec (- Z.of_nat n) i); cbn; intros [= <-]; lia.
Qed.
Lemma py_insert_pos_le n i : py_insert_pos n i <= n.
Proof. unfold py_insert_pos. destruct (Z.ltb_spec i 0); lia. Qed.

(** * pos_of *)
Lemma pos_of_In x l : In x l -> exists k, pos_of x l = Some k.
Proof.
  induction l as [|y l IH]; cbn; [intros []|].
  intros [->|H]; [rewrite Nat.eqb_refl; eauto|].
  destruct (Nat.eqb y x); [eauto|]. destruct (IH H) as [k ->]. cbn. eauto.
Qed.
Lemma pos_of_nth x l k : pos_of x l = Some k -> nth_error l k = Some x.
Proof.
  revert k; induction l as [|y l IH]; cbn; [discriminate|]. intros k.
  destruct (Nat.eqb_spec y x) as [->|].
  - intros [= <-]. reflexivity.
  - destruct (pos_of x l) as [j|]; cbn; [|discriminate]. intros [= <-]. cbn. apply IH; reflexivity.
Qed.
Lemma pos_of_NoDup x l k : NoDup l -> nth_error l k = Some x -> pos_of x l = Some k.
Proof.
  intros Hd Hk. destruct (pos_of_In x l) as [j Hj]; [eapply nth_error_In; eassumption|].
  rewrite Hj. f_equal. eapply NoDup_nth_error_inj; eauto using pos_of_nth.
Qed.
