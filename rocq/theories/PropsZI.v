(** C96: the emptiness tests of sets.  Order and finiteness of numbers: MathSpec.v. *)
From Coq Require Import QArith Lqa.
From Verif Require Import Base MathSet MathSpec MathFacts MathCard MathComb MathEmpty PropsH.
Local Open Scope Z_scope.

(** * C96 *)
Definition member (s : mset) (d : vdict) (v : num) : Prop := contains s (TNum v) d = Ok true.
Definition no_member (s : mset) (d : vdict) : Prop := forall v, finite v -> ~ member s d v.
Definition all_member (s : mset) (d : vdict) : Prop := forall v, finite v -> member s d v.

(** intervals of real numbers (no variables, not a point at infinity), intervals of integers with
    integer bounds, rosters of finite numbers *)
Definition real_bounds (a b : num * bool) : Prop := fst a <> NaN /\ fst b <> NaN /\ (neq (fst a) (fst b) -> finite (fst a)).
Inductive plain : mset -> Prop :=
| plain_real a b c : real_bounds (lower_of a) (upper_of b) -> plain (MInt (mk a b false c))
| plain_int x ox y oy c : plain (MInt (mk (Some (NI x, ox)) (Some (NI y, oy)) true c))
| plain_ros items c : (forall i, In i items -> exists n, si_val i = VNum n /\ finite n) -> plain (MRos (mk_roster items c)).

Lemma finite_next v : finite v -> exists w, finite w /\ nlt v w.
Proof.
  destruct v as [z|q| | |]; cbn; try contradiction; intros _.
  - exists (NI (z + 1)). split; [exact I|]. split; [apply nle_NI; lia|rewrite nle_NI; lia].
  - exists (NF (q + 1)%Q). split; [exact I|]. split; cbn; lra.
Qed.
Lemma finite_prev v : finite v -> exists w, finite w /\ nlt w v.
Proof.
  destruct v as [z|q| | |]; cbn; try contradiction; intros _.
  - exists (NI (z - 1)). split; [exact I|]. split; [apply nle_NI; lia|rewrite nle_NI; lia].
  - exists (NF (q - 1)%Q). split; [exact I|]. split; cbn; lra.
Qed.
Lemma finite_below v : finite v -> nlt v PInf /\ nlt NInf v.
Proof. destruct v; cbn; try contradiction; intros _; repeat split; auto. Qed.
Lemma finite_between x y : nlt x y -> exists v, finite v /\ nlt x v /\ nlt v y.
Proof.
  intros [A B].
  assert (X : finite x \/ x = NInf) by (destruct x, y; cbn in *; auto; contradiction || (exfalso; apply B; exact I)).
  assert (Y : finite y \/ y = PInf) by (destruct x, y; cbn in *; auto; contradiction || (exfalso; apply B; exact I)).
  destruct X as [X| ->], Y as [Y| ->].
  - exists (NF ((nq x + nq y) / 2)%Q). split; [exact I|].
    assert (P : (nq x < nq y)%Q) by (apply Qnot_le_lt; destruct x, y; cbn in *; auto; contradiction).
    assert (L : (nq x < (nq x + nq y) / 2)%Q) by (apply Qlt_shift_div_l; [reflexivity|lra]).
    assert (R : ((nq x + nq y) / 2 < nq y)%Q) by (apply Qlt_shift_div_r; [reflexivity|lra]).
    destruct x, y; try contradiction; unfold nlt; cbn [nle nq] in *; repeat split; lra.
  - destruct (finite_next x X) as (w & F & L). exists w. split; auto. split; auto. apply (finite_below w F).
  - destruct (finite_prev y Y) as (w & F & L). exists w. split; auto. split; auto. apply (finite_below w F).
  - exists (NI 0). split; [exact I|]. destruct (finite_below (NI 0) I). auto.
Qed.
Lemma finite_nn v : finite v -> v <> NaN.
Proof. destruct v; cbn; try contradiction; discriminate. Qed.
Lemma fin_cases n : n <> NaN -> finite n \/ n = PInf \/ n = NInf.
Proof. destruct n; cbn; auto; congruence. Qed.
Lemma nlt_irrefl_eq x y v : neq x y -> nlt x v -> nlt v y -> False.
Proof. intros [A B] [C D] [E F]. apply D. eapply nle_trans; eauto. Qed.

(** the cardinality of the sets above is exact as far as emptiness is concerned *)
Definition exact0 (s : mset) (d : vdict) : Prop := cardish (card s) /\ (card s = NI 0 <-> no_member s d).

Lemma real_exact a b c d : real_bounds (lower_of a) (upper_of b) -> exact0 (MInt (mk a b false c)) d.
Proof.
  intros (NA & NB & FP). set (A := lower_of a) in *. set (B := upper_of b) in *.
  destruct (mk_shape a b false c) as (x & y & O & M). fold A B in O.
  assert (NX : fst x <> NaN /\ fst y <> NaN) by (destruct O as [(-> & -> & _)|(-> & -> & _)]; auto).
  assert (LE : nle (fst x) (fst y)) by (apply num_lt_false; try tauto; eapply ordered_le; eauto).
  assert (FX : neq (fst x) (fst y) -> finite (fst x) /\ finite (fst y)).
  { intro E. assert (F : finite (fst x) -> finite (fst y)) by (destruct E as [E1 E2]; destruct (fst x), (fst y); cbn in *; tauto).
    assert (G : finite (fst y) -> finite (fst x)) by (destruct E as [E1 E2]; destruct (fst x), (fst y); cbn in *; tauto).
    destruct O as [(-> & -> & _)|(-> & -> & _)]; [|apply neq_sym in E]; specialize (FP E); tauto. }
  (* membership of finite numbers *)
  assert (MEM : forall v, finite v -> (member (MInt (mk a b false c)) d v <->
            (let inside := if num_eq (fst x) (fst y) && xorb (snd x) (snd y) then neq v (fst x) else raw_in (fst x) (fst y) (snd x) (snd y) v in if c then ~ inside else inside))).
  { intros v V. unfold member. cbn [contains].
    destruct (num_eq (fst x) (fst y) && xorb (snd x) (snd y)) eqn:H; cbv zeta.
    - apply andb_true_iff in H. destruct H as [H1 H2]. apply num_eq_iff in H1.
      assert (HP : half_open_point x y) by (split; auto; destruct (snd x), (snd y); cbn in H2; discriminate).
      assert (HQ : half_open_point A B) by (apply (hop_ordered x y); auto).
      destruct (half_open_contains a b false c v d HQ) as (r & R1 & R2); [discriminate|]. fold A in R2. cbv zeta in R2. rewrite R1.
      assert (EA : neq (fst A) (fst x)).
      { destruct O as [(-> & -> & _)|(-> & -> & _)]; [split; apply nle_refl; auto|apply neq_sym; exact H1]. }
      assert (X : (neq v (fst A) /\ (false = true -> is_integer v)) <-> neq v (fst x)).
      { split; [intros [K _]; eapply neq_trans; eauto|intro K; split; [eapply neq_trans; eauto; apply neq_sym; auto|discriminate]]. }
      split; [intro K; injection K as ->; destruct c; tauto|intro K; f_equal; apply R2; destruct c; tauto].
    - assert (NH : ~ half_open_point x y).
      { intros [H1 H2]. apply num_eq_iff in H1. rewrite H1 in H. cbn in H. destruct (snd x), (snd y); try discriminate H; apply H2; reflexivity. }
      assert (NQ : ~ half_open_point A B) by (intro K; apply NH; apply (hop_ordered x y A B); auto).
      destruct (membership a b false c v d NQ) as (r & R1 & R2); [discriminate|]. fold A B in R2. rewrite R1. unfold in_interval in R2. cbv zeta in R2.
      pose proof (between_ordered x y A B v O) as BO. pose proof (between_raw x y v (ordered_le _ _ _ _ O) NH) as BR.
      assert (X : (between A B v /\ (false = true -> is_integer v)) <-> raw_in (fst x) (fst y) (snd x) (snd y) v).
      { rewrite BO, BR. split; [tauto|intro K; split; [auto|discriminate]]. }
      split; [intro K; injection K as ->; destruct c; tauto|intro K; f_equal; apply R2; destruct c; tauto]. }
  assert (C0 : iv_card0 (mk a b false c) = if num_eq (fst y) (fst x) then (if snd x && snd y then NI 0 else NI 1) else PInf).
  { rewrite M. destruct x as [nx ox], y as [ny oy]. unfold bnd. cbn [fst snd]. destruct (num_eq ny nx && (negb ox || negb oy));
      unfold iv_card0; cbn [iv_int iv_vars iv_lo iv_hi si_val si_open is_var orb negb andb val_eq]; reflexivity. }
  assert (CC : card (MInt (mk a b false c)) =
     if c then (if num_eq (iv_card0 (mk a b false c)) PInf && num_eq (fst x) NInf && num_eq (fst y) PInf then NI 0 else PInf) else iv_card0 (mk a b false c)).
  { cbn [card]. unfold iv_card. destruct (mk_int a b false c) as [_ ->]. destruct c; [|reflexivity].
    rewrite M. destruct x as [nx ox], y as [ny oy]. unfold bnd. cbn [fst snd]. destruct (num_eq ny nx && (negb ox || negb oy)); reflexivity. }
  split.
  - rewrite CC, C0. unfold cardish. destruct c; [match goal with |- context [if ?b then NI 0 else PInf] => destruct b end; [right; exists 0; split; [lia|auto]|left; auto]|].
    destruct (num_eq (fst y) (fst x)); [right|left; auto]. destruct (snd x && snd y); eexists; (split; [|reflexivity]); lia.
  - rewrite CC, C0. destruct (num_eq (fst y) (fst x)) eqn:E.
    + apply num_eq_iff, neq_sym in E. destruct (FX E) as [F1 F2].
      assert (E' : num_eq (fst x) (fst y) = true) by (apply num_eq_iff; auto).
      destruct c.
      * (* complement of a point or of nothing *)
        replace (num_eq (if snd x && snd y then NI 0 else NI 1) PInf) with false by (destruct (snd x && snd y); reflexivity). cbn [andb].
        split; [discriminate|]. intro K. exfalso. destruct (finite_next _ F2) as (w & W & L). apply (K w W). apply (MEM w W). cbv zeta.
        rewrite E'. destruct (xorb (snd x) (snd y)); cbn [andb].
        -- intros [P Q]. destruct L as [L1 L2]. apply L2. eapply nle_trans; [apply P|]. apply E.
        -- intros [P Q]. destruct L as [L1 L2]. apply L2. destruct (snd y); [apply Q|exact Q].
      * destruct (snd x && snd y) eqn:S.
        -- split; [intros _|reflexivity]. intros v V K. apply (MEM v V) in K. cbv zeta in K.
           apply andb_true_iff in S. destruct S as [S1 S2]. rewrite S1, S2 in K. rewrite E' in K. cbn [xorb andb] in K.
           destruct K as [K1 K2]. exact (nlt_irrefl_eq _ _ _ E K1 K2).
        -- split; [discriminate|]. intro K. exfalso. apply (K _ F1). apply (MEM _ F1). cbv zeta. rewrite E'.
           destruct (snd x) eqn:S1, (snd y) eqn:S2; try discriminate S; cbn [xorb andb]; try (split; apply nle_refl; apply finite_nn; auto).
           split; [apply nle_refl; apply finite_nn; auto|apply E].
    + assert (LT : nlt (fst x) (fst y)).
      { split; auto. intro K. assert (Q : neq (fst y) (fst x)) by (split; auto). apply num_eq_iff in Q. congruence. }
      assert (E' : num_eq (fst x) (fst y) = false).
      { destruct (num_eq (fst x) (fst y)) eqn:Q; auto. apply num_eq_iff in Q. destruct LT as [_ LT]. exfalso. apply LT. apply Q. }
      destruct c.
      * cbn [num_eq num_le andb]. destruct (num_eq (fst x) NInf) eqn:X1, (num_eq (fst y) PInf) eqn:X2; cbn [andb];
          try (split; [discriminate|]; intro K; exfalso).
        -- split; [intros _|reflexivity]. intros v V K. apply (MEM v V) in K. cbv zeta in K. rewrite E' in K. cbn [andb] in K. apply K.
           apply num_eq_iff in X1, X2. destruct (finite_below v V) as [P1 P2].
           assert (Q1 : nlt (fst x) v).
           { destruct P2 as [P2 P3]. split; [eapply nle_trans; [apply X1|exact P2]|]. intro R. apply P3. eapply nle_trans; [exact R|apply X1]. }
           assert (Q2 : nlt v (fst y)).
           { destruct P1 as [P1 P3]. split; [eapply nle_trans; [exact P1|apply X2]|]. intro R. apply P3. eapply nle_trans; [apply X2|exact R]. }
           split; [destruct (snd x); [exact Q1|apply Q1]|destruct (snd y); [exact Q2|apply Q2]].
        -- (* upper limit finite *)
           assert (F2 : finite (fst y)).
           { apply num_eq_iff in X1. destruct LT as [L1 L2]. destruct (fin_cases _ (proj2 NX)) as [Q|[Q|Q]]; auto; exfalso; rewrite Q in *; [discriminate X2|].
             apply L2. apply X1. }
           destruct (finite_next _ F2) as (w & W & L). apply (K w W). apply (MEM w W). cbv zeta. rewrite E'. cbn [andb].
           intros [_ Q]. destruct L as [_ L]. apply L. destruct (snd y); [apply Q|exact Q].
        -- assert (F1 : finite (fst x)).
           { destruct LT as [L1 L2]. destruct (fin_cases _ (proj1 NX)) as [Q|[Q|Q]]; auto; exfalso; rewrite Q in *; [|discriminate X1].
             apply num_eq_iff in X2. apply L2. apply X2. }
           destruct (finite_prev _ F1) as (w & W & L). apply (K w W). apply (MEM w W). cbv zeta. rewrite E'. cbn [andb].
           intros [Q _]. destruct L as [_ L]. apply L. destruct (snd x); [apply Q|exact Q].
        -- assert (F1 : finite (fst x)).
           { destruct LT as [L1 L2]. destruct (fin_cases _ (proj1 NX)) as [Q|[Q|Q]]; auto; exfalso; rewrite Q in *; [|discriminate X1].
             apply L2. destruct (fst y); cbn in *; auto. }
           destruct (finite_prev _ F1) as (w & W & L). apply (K w W). apply (MEM w W). cbv zeta. rewrite E'. cbn [andb].
           intros [Q _]. destruct L as [_ L]. apply L. destruct (snd x); [apply Q|exact Q].
      * split; [discriminate|]. intro K. exfalso. destruct (finite_between _ _ LT) as (w & W & L1 & L2). apply (K w W). apply (MEM w W).
        cbv zeta. rewrite E'. cbn [andb]. split; [destruct (snd x); [exact L1|apply L1]|destruct (snd y); [exact L2|apply L2]].
Qed.
Lemma int_exact x ox y oy c d : exact0 (MInt (mk (Some (NI x, ox)) (Some (NI y, oy)) true c)) d.
Proof.
  split; [apply leaf_card_int|]. destruct c.
  - destruct (C51_complement_partial x ox y oy d) as [C H]. cbn [card]. rewrite C. split; [discriminate|]. intro K. exfalso.
    destruct (H 1%nat) as ([|z [|]] & _ & L & Z); try discriminate. apply (K (NI z) I). apply Z. left. reflexivity.
  - destruct (C51_members_partial x ox y oy d) as (l & _ & M & C & _). cbn [card]. rewrite C. split.
    + intros E v V K. apply (M v V) in K. destruct K as (z & Z & _). destruct l; [destruct Z|injection E as E; cbn in E; lia].
    + intro K. destruct l as [|z l]; [reflexivity|]. exfalso. apply (K (NI z) I). apply (M (NI z) I). exists z.
      split; [left; reflexivity|apply neq_NI; reflexivity].
Qed.
Lemma max_above l : (forall n, In n l -> finite n) -> exists w, finite w /\ forall n, In n l -> nlt n w.
Proof.
  induction l as [|n l IH]; intro F; [exists (NI 0); split; [exact I|intros n []]|].
  destruct IH as (w & W & L); [intros; apply F; right; auto|]. assert (N : finite n) by (apply F; left; auto).
  destruct (nle_total n w) as [K|K]; try (apply finite_nn; auto).
  - destruct (finite_next w W) as (u & U & [L1 L2]). exists u. split; auto. intros m [<-|M].
    + split; [eapply nle_trans; eauto|]. intro R. apply L2. eapply nle_trans; eauto.
    + destruct (L m M) as [M1 M2]. split; [eapply nle_trans; eauto|]. intro R. apply L2. eapply nle_trans; eauto.
  - destruct (finite_next n N) as (u & U & [L1 L2]). exists u. split; auto. intros m [<-|M]; [split; auto|].
    destruct (L m M) as [M1 M2]. split; [eapply nle_trans; [exact M1|]; eapply nle_trans; eauto|]. intro R. apply L2.
    eapply nle_trans; [exact R|]. eapply nle_trans; eauto.
Qed.
Lemma add_val_in l v w : In w (add_val l v) -> In w l \/ w = v.
Proof. unfold add_val. destruct (has_val l v); auto. intro H. apply in_app_or in H. destruct H as [H|[H|[]]]; auto. Qed.
Lemma fold_add_in vs : forall l w, In w (fold_left add_val vs l) -> In w l \/ In w vs.
Proof.
  induction vs as [|v vs IH]; intros l w; cbn; auto. intro H. apply IH in H. destruct H as [H|H]; auto.
  apply add_val_in in H. destruct H; auto.
Qed.
Lemma roster_vals items c : (forall i, In i items -> exists n, si_val i = VNum n /\ finite n) ->
  exists ns, ro_items (mk_roster items c) = map VNum ns /\ forall n, In n ns -> finite n.
Proof.
  intro F. assert (G : forall v, In v (ro_items (mk_roster items c)) -> exists n, v = VNum n /\ finite n).
  { intros v V. cbn in V. apply fold_add_in in V. destruct V as [[]|V]. apply in_map_iff in V. destruct V as (i & <- & V).
    apply filter_In in V. apply F. apply V. }
  revert G. generalize (ro_items (mk_roster items c)). intro l. induction l as [|v l IH]; intro G; [exists []; split; [auto|intros n []]|].
  destruct IH as (ns & -> & N); [intros; apply G; right; auto|]. destruct (G v (or_introl eq_refl)) as (n & -> & Fn). exists (n :: ns).
  split; auto. intros m [<-|M]; auto.
Qed.
Lemma ros_member items c d v : (forall i, In i items -> exists n, si_val i = VNum n /\ finite n) ->
  forall ns, ro_items (mk_roster items c) = map VNum ns ->
  contains (MRos (mk_roster items c)) (TNum v) d = Ok (xorb c (existsb (fun n => num_eq n v) ns)).
Proof.
  intros F ns E. cbn [contains]. f_equal. unfold ro_contains. cbn [ro_test]. rewrite E.
  assert (R : ro_repl (mk_roster items c) d = []).
  { unfold ro_repl. destruct d; auto. rewrite E. clear. induction ns; cbn; auto. }
  rewrite R. cbn [ro_compl mk_roster]. f_equal. unfold has_val. rewrite orb_false_r. clear. induction ns as [|n ns IH]; cbn; auto. now rewrite IH.
Qed.
Lemma ros_exact items c d : (forall i, In i items -> exists n, si_val i = VNum n /\ finite n) -> exact0 (MRos (mk_roster items c)) d.
Proof.
  intro F. destruct (roster_vals items c F) as (ns & E & N). pose proof (fun v => ros_member items c d v F ns E) as M.
  assert (C : card (MRos (mk_roster items c)) = if c then PInf else NI (Z.of_nat (length ns))).
  { cbn [card]. unfold ro_card. rewrite E, map_length. reflexivity. }
  split.
  - rewrite C. unfold cardish. destruct c; [auto|]. right. eexists. split; [|reflexivity]. lia.
  - rewrite C. unfold no_member, member. destruct c.
    + split; [discriminate|]. intro K. exfalso. destruct (max_above ns N) as (w & W & L). apply (K w W). rewrite M. f_equal. cbn.
      replace (existsb (fun n => num_eq n w) ns) with false; auto. symmetry.
      destruct (existsb (fun n => num_eq n w) ns) eqn:X; auto. apply existsb_exists in X. destruct X as (n & I1 & X). apply num_eq_iff in X.
      destruct (L n I1) as [_ L2]. exfalso. apply L2. apply X.
    + split.
      * intros Z v V K. rewrite M in K. destruct ns; [discriminate K|]. injection Z as Z. cbn in Z. lia.
      * intro K. destruct ns as [|n ns]; [reflexivity|]. exfalso. apply (K n (N n (or_introl eq_refl))). rewrite M. cbn.
        rewrite num_eq_refl; [reflexivity|]. apply finite_nn. apply N. left. reflexivity.
Qed.
Lemma plain_exact s d : plain s -> exact0 s d.
Proof. intros [a b c H|x ox y oy c|items c H]; [now apply real_exact|apply int_exact|now apply ros_exact]. Qed.

(** one interval or roster that is no complement: is_empty_set says whether there is a member *)
Definition is_compl (s : mset) : bool := match s with MInt i => iv_compl i | MRos r => ro_compl r | MComb _ _ c => c end.
Lemma plain_empty s : plain s -> is_compl s = false -> mset_empty s = num_eq (card s) (NI 0).
Proof.
  intros [a b c H|x ox y oy c|items c H]; cbn [is_compl mset_empty card]; auto; unfold iv_empty, iv_card; intros ->; reflexivity.
Qed.
Lemma cardish0 k : cardish k -> (num_eq k (NI 0) = true <-> k = NI 0).
Proof.
  intros [->|(n & _ & ->)]; [split; discriminate|]. rewrite num_eq_NI, Z.eqb_eq. split; congruence.
Qed.
Theorem C96_single_partial : forall s d, plain s -> is_compl s = false -> (mset_empty s = true <-> no_member s d).
Proof.
  intros s d P C. rewrite (plain_empty s P C). destruct (plain_exact s d P) as [A B]. rewrite (cardish0 _ A). exact B.
Qed.
Lemma iv_ok a b n c d v : finite v -> exists r, iv_contains (mk a b n c) (TNum v) d = Ok r.
Proof.
  intro V. destruct (num_eq (fst (lower_of a)) (fst (upper_of b)) && xorb (snd (lower_of a)) (snd (upper_of b))) eqn:H.
  - apply andb_true_iff in H. destruct H as [H1 H2]. apply num_eq_iff in H1.
    assert (HP : half_open_point (lower_of a) (upper_of b)) by (split; auto; intro Q; rewrite Q, xorb_nilpotent in H2; discriminate).
    destruct (half_open_contains a b n c v d HP) as (r & R & _); eauto.
  - assert (HP : ~ half_open_point (lower_of a) (upper_of b)).
    { intros [H1 H2]. apply num_eq_iff in H1. rewrite H1 in H. cbn in H. apply H2. now apply xorb_eq. }
    destruct (membership a b n c v d HP) as (r & R & _); eauto.
Qed.
(** ... and of a complement, is_empty_set_complement says whether everything is a member *)
Lemma plain_switch s : plain s -> is_compl s = true -> exists t, plain t /\ is_compl t = false /\ switch t = s /\ mset_empty_compl s = mset_empty t.
Proof.
  intros [a b c H|x ox y oy c|items c H]; cbn [is_compl].
  - destruct (mk_int a b false c) as [_ ->]. intros ->. exists (MInt (mk a b false false)).
    split; [now constructor|]. split; [cbn; apply (mk_int a b false false)|].
    pose proof (mk_interval_compl (option_map bnd a) (option_map bnd b) false false) as K. cbn zeta in K. cbn [negb] in K. unfold mk in *.
    destruct (mk_interval (option_map bnd a) (option_map bnd b) false false) as [l1 u1 s1 t1 n1 c1] eqn:E1. cbn [switch iv_lo iv_hi iv_lstrict iv_ustrict iv_int iv_compl] in *.
    assert (C1 : c1 = false) by (pose proof (proj2 (mk_int a b false false)) as Q; unfold mk in Q; rewrite E1 in Q; exact Q). subst c1.
    rewrite <- K. split; reflexivity.
  - destruct (mk_int (Some (NI x, ox)) (Some (NI y, oy)) true c) as [_ ->]. intros ->. exists (MInt (mk (Some (NI x, ox)) (Some (NI y, oy)) true false)).
    split; [now constructor|]. split; [cbn; apply (mk_int (Some (NI x, ox)) (Some (NI y, oy)) true false)|].
    pose proof (mk_interval_compl (option_map bnd (Some (NI x, ox))) (option_map bnd (Some (NI y, oy))) true false) as K. cbn zeta in K. cbn [negb] in K.
    unfold mk in *. destruct (mk_interval _ _ true false) as [l1 u1 s1 t1 n1 c1] eqn:E1. cbn [switch iv_lo iv_hi iv_lstrict iv_ustrict iv_int iv_compl] in *.
    assert (C1 : c1 = false) by (pose proof (proj2 (mk_int (Some (NI x, ox)) (Some (NI y, oy)) true false)) as Q; unfold mk in Q; rewrite E1 in Q; exact Q). subst c1.
    rewrite <- K. split; reflexivity.
  - cbn. intros ->. exists (MRos (mk_roster items false)). split; [now constructor|]. split; [reflexivity|]. split; [reflexivity|].
    cbn [mset_empty mset_empty_compl]. unfold ro_card. cbn [mk_roster ro_compl ro_items andb]. rewrite num_eq_NI.
    destruct (length _); reflexivity.
Qed.
Theorem C96_single_complement : forall s d, plain s -> is_compl s = true ->
  (mset_empty_compl s = true <-> all_member s d) /\ mset_empty s = false.
Proof.
  intros s d P C. split.
  - destruct (plain_switch s P C) as (t & PT & CT & SW & E). rewrite E, (C96_single_partial t d PT CT). subst s.
    unfold no_member, all_member, member. split; intros H v V.
    + rewrite switch_contains by discriminate. specialize (H v V).
      destruct (contains t (TNum v) d) as [[|]|e] eqn:X; [destruct H; auto|reflexivity|].
      exfalso. clear - PT X V. destruct PT as [a b c H|x ox y oy c|items c H]; cbn [contains] in X.
      * destruct (iv_ok a b false c d v V) as [r R]. rewrite R in X. discriminate.
      * destruct (iv_ok (Some (NI x, ox)) (Some (NI y, oy)) true c d v V) as [r R]. rewrite R in X. discriminate.
      * discriminate.
    + specialize (H v V). rewrite switch_contains in H by discriminate. intro K. rewrite K in H. discriminate.
  - destruct P as [a b c H|x ox y oy c|items c H]; cbn [is_compl mset_empty] in *; unfold iv_empty, ro_card; rewrite ?C; reflexivity.
Qed.

(** a set without complement is never reported as an empty complement *)
Theorem C96_not_complement : forall s, is_compl s = false -> mset_empty_compl s = false.
Proof. intros [i|r|l u c]; cbn [is_compl mset_empty_compl]; intros ->; reflexivity. Qed.

(** ** combinations *)
(** nested unions of such sets: exact *)
Inductive unions : mset -> Prop :=
| un_plain s : plain s -> unions s
| un_comb l : (forall x, In x l -> unions x) -> unions (MComb l true false).
(** unions and intersections, nested at will *)
Inductive combos : mset -> Prop :=
| co_plain s : plain s -> combos s
| co_comb l u : (forall x, In x l -> combos x) -> combos (MComb l u false).
Lemma add_zero a b : cardish a -> cardish b -> (num_add a b = NI 0 <-> a = NI 0 /\ b = NI 0).
Proof.
  intros [->|(m & M & ->)] [->|(n & N & ->)]; cbn; split; try discriminate; try (intros [? ?]; discriminate).
  - intro E. injection E as E. split; f_equal; lia.
  - intros [A B]. injection A as ->. injection B as ->. reflexivity.
Qed.
Lemma fold_add_zero l : forall a, cardish a -> (forall x, In x l -> cardish (card x)) ->
  (fold_left (fun c i => num_add c (card i)) l a = NI 0 <-> a = NI 0 /\ forall x, In x l -> card x = NI 0).
Proof.
  induction l as [|x l IH]; intros a A H; cbn.
  - split; [intro E; split; [auto|intros x []]|tauto].
  - rewrite IH; [|apply num_add_ish; auto; apply H; left; auto|intros; apply H; right; auto].
    rewrite add_zero; auto; [|apply H; left; auto]. split.
    + intros [[E1 E2] E3]. split; auto. intros y [<-|Y]; auto.
    + intros [E1 E2]. split; [split; [auto|apply E2; left; auto]|intros; apply E2; right; auto].
Qed.
Lemma unions_exact s d : unions s -> exact0 s d.
Proof.
  induction 1 as [s P|l H IH]; [apply plain_exact; auto|]. split.
  - cbn [card]. apply fold_add_ish; [right; exists 0; split; [lia|reflexivity]|]. intros x X. apply (IH x X).
  - cbn [card]. rewrite fold_add_zero; [|right; exists 0; split; [lia|reflexivity]|intros x X; apply (IH x X)]. split.
    + intros [_ E] v V K. destruct (union_true _ _ _ K) as (x & X & KX). apply (proj1 (proj2 (IH x X)) (E x X) v V KX).
    + intro K. split; auto. intros x X. apply (IH x X). intros v V KX. apply (K v V). unfold member.
      now apply (proj1 (C50_raising_members l false (TNum v) d x X)).
Qed.
Theorem C96_union_partial : forall l d, (forall x, In x l -> unions x) -> (mset_empty (MComb l true false) = true <-> no_member (MComb l true false) d).
Proof.
  intros l d H. destruct (unions_exact (MComb l true false) d (un_comb l H)) as [A B]. cbn [mset_empty]. rewrite (cardish0 _ A). exact B.
Qed.
Lemma combos_sound s d : combos s -> cardish (card s) /\ (card s = NI 0 -> no_member s d).
Proof.
  induction 1 as [s P|l u H IH]; [destruct (plain_exact s d P) as [A B]; split; [auto|apply B]|].
  assert (IH1 : forall x, In x l -> cardish (card x)) by (intros x X; apply (IH x X)).
  destruct u; cbn [card].
  - split; [apply fold_add_ish; auto; right; exists 0; split; [lia|reflexivity]|].
    intros E v V K. apply fold_add_zero in E; auto; [|right; exists 0; split; [lia|reflexivity]]. destruct E as [_ E].
    destruct (union_true _ _ _ K) as (x & X & KX). apply (proj2 (IH x X) (E x X) v V KX).
  - destruct (fold_min_ish l PInf (or_introl eq_refl) IH1) as [A B]. split; [exact A|]. intros E v V K.
    destruct B as [B|(x & X & B)]; [rewrite B in E; discriminate|].
    apply (proj2 (IH x X) (eq_trans (eq_sym B) E) v V). apply (inter_true _ _ _ K x X).
Qed.
(** is_empty_set of a combination that is no complement is never wrong when it says True *)
Theorem C96_combination_partial : forall s d, combos s -> is_compl s = false -> mset_empty s = true -> no_member s d.
Proof.
  intros s d C N E. destruct (combos_sound s d C) as [A B]. destruct C as [s P|l u H].
  - apply (C96_single_partial s d P N). exact E.
  - apply B. apply (cardish0 _ A). exact E.
Qed.
(** is_empty_set_complement of the complement of a union: everything is a member *)
Theorem C96_combination_complement_partial : forall l u d, (forall x, In x l -> combos x) ->
  (forall x v, In x l -> finite v -> exists b, contains x (TNum v) d = Ok b) ->
  mset_empty_compl (MComb l u true) = true -> all_member (MComb l u true) d.
Proof.
  intros l u d H T E v V. unfold member.
  assert (N : no_member (MComb l u false) d).
  { destruct (combos_sound (MComb l u false) d (co_comb l u H)) as [A B]. apply B. apply (cardish0 _ A). exact E. }
  pose proof (switch_contains (MComb l u false) (TNum v) d) as S. cbn [switch negb] in S. rewrite S by discriminate.
  specialize (N v V). unfold member in N.
  destruct u.
  - destruct (comb_union l false (TNum v) d) as (b & B & _); [intros x X; apply T; auto|]. rewrite B in *. destruct b; [congruence|reflexivity].
  - destruct (comb_inter l false (TNum v) d) as (b & B & _); [intros x X; apply T; auto|]. rewrite B in *. destruct b; [congruence|reflexivity].
Qed.

(** ** where the claim fails *)
(** an intersection of disjoint sets has no member and is not called empty *)
Definition r12 (z : Z) : mset := MRos (mk_roster [SI (VNum (NI z)) false] false).
Theorem C96_intersection_refuted : mset_empty (MComb [r12 1; r12 2] false false) = false /\ no_member (MComb [r12 1; r12 2] false false) None.
Proof.
  split; [reflexivity|]. intros v V K. pose proof (inter_true _ _ _ K (r12 1) (or_introl eq_refl)) as A.
  pose proof (inter_true _ _ _ K (r12 2) (or_intror (or_introl eq_refl))) as B.
  assert (X : forall z, contains (r12 z) (TNum v) None = Ok true -> num_eq (NI z) v = true).
  { intros z E. unfold r12 in E. cbn -[num_eq] in E. destruct (num_eq (NI z) v); [reflexivity|discriminate E]. }
  apply X in A, B. apply num_eq_iff in A, B. apply neq_sym in A. pose proof (neq_trans _ _ _ B A) as Q. apply neq_NI in Q. discriminate.
Qed.
(** the complement of an empty combination has every number as a member and is called empty *)
Theorem C96_complement_refuted : let s := MComb [MRos (mk_roster [] false)] true true in
  mset_empty s = true /\ all_member s None.
Proof. split; [reflexivity|]. intros v V. reflexivity. Qed.
(** the complement of all numbers has no member and is not called empty *)
Theorem C96_all_refuted : let s := MInt (mk None None false true) in mset_empty s = false /\ no_member s None.
Proof.
  split; [reflexivity|]. intros v V K. destruct v; try contradiction; discriminate K.
Qed.
(** integers between floats: 1.2..1.8 has no member and is not called empty, the open interval
    from 1.5 to 2.5 has the member 2 and is called empty *)
Theorem C96_float_bounds_refuted :
  (let s := MInt (mk (Some (NF (12 # 10), false)) (Some (NF (18 # 10), false)) true false) in mset_empty s = false /\ no_member s None) /\
  (let s := MInt (mk (Some (NF (15 # 10), true)) (Some (NF (25 # 10), true)) true false) in mset_empty s = true /\ member s None (NI 2)).
Proof.
  split; [split; [reflexivity|]|split; reflexivity].
  intros v V K. unfold member in K. cbn [contains] in K.
  assert (H : ~ half_open_point (NF (12 # 10), false) (NF (18 # 10), false)) by (intros [_ Q]; apply Q; reflexivity).
  destruct (membership (Some (NF (12 # 10), false)) (Some (NF (18 # 10), false)) true false v None H (fun _ => V)) as (r & R & M).
  rewrite R in K. injection K as ->. destruct (proj1 M eq_refl) as [[(_ & A & B)|(A & _ & _)] Z].
  - destruct (Z eq_refl) as (z & Z1 & Z2). change (nle (NF (12 # 10)) v) in A. change (nle v (NF (18 # 10))) in B.
    pose proof (nle_trans _ _ _ A Z1) as P. pose proof (nle_trans _ _ _ Z2 B) as Q. cbn in P, Q. unfold Qle in P, Q. cbn in P, Q. lia.
  - cbn in A. unfold Qle in A. cbn in A. lia.
Qed.
(** ((1..3) u {7}), (4,4), !{} *)
Example C96_case : unions (MComb [MInt (mk (Some (NI 1, false)) (Some (NI 3, false)) true false); r12 7] true false) /\
  plain (MInt (mk (Some (NI 4, true)) (Some (NF (4 # 1), true)) false false)) /\
  mset_empty (MInt (mk (Some (NI 4, true)) (Some (NF (4 # 1), true)) false false)) = true /\
  plain (MRos (mk_roster [] true)) /\ mset_empty_compl (MRos (mk_roster [] true)) = true.
Proof.
  split; [|split; [|split; [reflexivity|split; [|reflexivity]]]].
  - apply un_comb. intros x [<-|[<-|[]]]; apply un_plain; constructor. intros i [<-|[]]. exists (NI 7). split; [reflexivity|exact I].
  - constructor. split; [discriminate|]. split; [discriminate|]. intros _. exact I.
  - constructor. intros i [].
Qed.
