(** What the set objects are supposed to mean, independent of the code: order of extended
    numbers, intervals, integers; and general facts on the order used by the proofs. *)
From Coq Require Import QArith Lqa.
From Verif Require Import Base MathSet.
Local Open Scope Z_scope.

(** order of the extended rationals; nan is comparable to nothing *)
Definition nle (a b : num) : Prop :=
  match a, b with
  | NaN, _ => False
  | _, NaN => False
  | NInf, _ => True
  | _, PInf => True
  | PInf, _ => False
  | _, NInf => False
  | _, _ => (nq a <= nq b)%Q
  end.
Definition nlt (a b : num) : Prop := nle a b /\ ~ nle b a.
(** equal as numbers (1 and 1.0 are) *)
Definition neq (a b : num) : Prop := nle a b /\ nle b a.
Definition finite (n : num) : Prop := match n with NI _ | NF _ => True | _ => False end.
Definition is_integer (n : num) : Prop := exists z, neq n (NI z).

(** a bound: a number and whether it is excluded *)
Definition above (b : num * bool) (v : num) : Prop := if snd b then nlt (fst b) v else nle (fst b) v.
Definition under (b : num * bool) (v : num) : Prop := if snd b then nlt v (fst b) else nle v (fst b).
(** v lies between the two bounds, whichever of them is the lower one *)
Definition between (a b : num * bool) (v : num) : Prop :=
  (nle (fst a) (fst b) /\ above a v /\ under b v) \/ (nle (fst b) (fst a) /\ above b v /\ under a v).
(** the members of the interval *)
Definition in_interval (a b : num * bool) (int_only complement : bool) (v : num) : Prop :=
  let inside := between a b v /\ (int_only = true -> is_integer v) in
  if complement then ~ inside else inside.
(** a missing bound is infinite *)
Definition lower_of (o : option (num * bool)) : num * bool := match o with Some b => b | None => (NInf, false) end.
Definition upper_of (o : option (num * bool)) : num * bool := match o with Some b => b | None => (PInf, false) end.
(** one point, one end open, one closed: neither reading is consistent *)
Definition half_open_point (a b : num * bool) : Prop := neq (fst a) (fst b) /\ snd a <> snd b.

(** the constructor's argument *)
Definition bnd (b : num * bool) : sitem := SI (VNum (fst b)) (snd b).
Definition mk (a b : option (num * bool)) (int_only complement : bool) : interval :=
  mk_interval (option_map bnd a) (option_map bnd b) int_only complement.

(** ** order facts *)
Lemma num_le_iff a b : num_le a b = true <-> nle a b.
Proof.
  destruct a, b; cbn; try (rewrite Qle_bool_iff); split; intro; auto; try discriminate; try contradiction.
Qed.
Lemma num_lt_iff a b : num_lt a b = true <-> nlt a b.
Proof.
  unfold num_lt, nlt. rewrite Bool.andb_true_iff, Bool.negb_true_iff, num_le_iff.
  split; intros [H K]; (split; [auto|]).
  - intro Y. apply num_le_iff in Y. congruence.
  - destruct (num_le b a) eqn:E; auto. apply num_le_iff in E. contradiction.
Qed.
Lemma num_eq_iff a b : num_eq a b = true <-> neq a b.
Proof. unfold num_eq, neq. rewrite Bool.andb_true_iff, !num_le_iff. reflexivity. Qed.
Lemma nle_dec a b : {nle a b} + {~ nle a b}.
Proof. destruct (num_le a b) eqn:E; [left|right]; rewrite <- num_le_iff; congruence. Qed.
Lemma nle_trans a b c : nle a b -> nle b c -> nle a c.
Proof. destruct a, b, c; cbn; auto; try contradiction; intros; eapply Qle_trans; eauto. Qed.
Lemma nle_total a b : a <> NaN -> b <> NaN -> nle a b \/ nle b a.
Proof.
  destruct a, b; cbn; auto; try congruence; intros _ _.
  all: match goal with |- (?x <= ?y)%Q \/ _ => destruct (Qlt_le_dec y x); [right; apply Qlt_le_weak|left]; auto end.
Qed.
Lemma nle_refl a : a <> NaN -> nle a a.
Proof. destruct a; cbn; try congruence; intros; auto; apply Qle_refl. Qed.
Lemma nle_nn a b : nle a b -> a <> NaN /\ b <> NaN.
Proof. destruct a, b; cbn; intro; try contradiction; split; discriminate. Qed.
Lemma neq_sym a b : neq a b -> neq b a.
Proof. intros [X Y]. split; auto. Qed.
Lemma neq_trans a b c : neq a b -> neq b c -> neq a c.
Proof. intros [X Y] [Z W]. split; eapply nle_trans; eauto. Qed.
Lemma neq_le_l a b c : neq a b -> (nle a c <-> nle b c).
Proof. intros [X Y]. split; intro; eapply nle_trans; eauto. Qed.
Lemma neq_le_r a b c : neq a b -> (nle c a <-> nle c b).
Proof. intros [X Y]. split; intro; eapply nle_trans; eauto. Qed.
Lemma nle_NI x y : nle (NI x) (NI y) <-> x <= y.
Proof. cbn. rewrite <- Zle_Qle. reflexivity. Qed.
Lemma neq_NI x y : neq (NI x) (NI y) <-> x = y.
Proof. unfold neq. rewrite !nle_NI. lia. Qed.
Lemma num_eq_refl a : a <> NaN -> num_eq a a = true.
Proof. intro. apply num_eq_iff. split; apply nle_refl; auto. Qed.

Lemma integral_iff n : finite n -> exists b, integral n = Ok b /\ (b = true <-> is_integer n).
Proof.
  destruct n as [z|q| | |]; cbn; try contradiction; intros _.
  - exists true. split; auto. split; auto. intros _. exists z. apply neq_NI. auto.
  - eexists. split; [reflexivity|]. rewrite Z.eqb_eq. split.
    + intro E. exists (Qnum q / Zpos (Qden q))%Z.
      assert (X : (q == inject_Z (Qnum q / Zpos (Qden q)))%Q).
      { unfold Qeq, inject_Z. cbn. rewrite Z.mul_1_r. rewrite Z.mul_comm. apply Z_div_exact_full_2; auto. lia. }
      split; cbn; rewrite <- X; apply Qle_refl.
    + intros [z [A B]]. cbn in A, B. unfold Qle in A, B. cbn in A, B.
      assert (Qnum q = z * Zpos (Qden q)) as -> by lia. apply Z.mod_mul. lia.
Qed.
