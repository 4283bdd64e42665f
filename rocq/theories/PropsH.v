(** C49 - C53, C57: mathematical sets.  The specification (order of extended numbers, between,
    in_interval, ...) is in MathSpec.v. *)
From Coq Require Import QArith Sorted.
From Coq Require Qround.
From Verif Require Import Base MathSet MathSpec MathFacts MathCard MathComb.
Local Open Scope Z_scope.

(** * C49 *)
(** full claim: no hypothesis on the bounds and on the value; see the refuted ones *)
Theorem C49_membership_partial : forall lower upper int_only complement v d,
  ~ half_open_point (lower_of lower) (upper_of upper) ->
  (int_only = true -> finite v) ->
  exists r, iv_contains (mk lower upper int_only complement) (TNum v) d = Ok r /\
            (r = true <-> in_interval (lower_of lower) (upper_of upper) int_only complement v).
Proof. exact membership. Qed.
(** the excluded one-point interval with one open end consists of this point *)
Theorem C49_point_partial : forall lower upper int_only complement v d,
  half_open_point (lower_of lower) (upper_of upper) -> (int_only = true -> finite v) ->
  exists r, iv_contains (mk lower upper int_only complement) (TNum v) d = Ok r /\
    (r = true <-> (let inside := neq v (fst (lower_of lower)) /\ (int_only = true -> is_integer v) in
                   if complement then ~ inside else inside)).
Proof. exact half_open_contains. Qed.
(** the order of the bounds is irrelevant, for every tested value (also iterables) *)
Theorem C49_order : forall a b int_only complement v d,
  iv_contains (mk (Some a) (Some b) int_only complement) v d = iv_contains (mk (Some b) (Some a) int_only complement) v d.
Proof. exact mk_swap_all. Qed.
(** complement=True negates, for numbers and strings, with every bound (also variables) *)
Theorem C49_complement_partial : forall lower upper int_only v d, (forall l, v <> TSeq l) ->
  iv_contains (mk_interval lower upper int_only true) v d =
  match iv_contains (mk_interval lower upper int_only false) v d with Ok b => Ok (negb b) | Err e => Err e end.
Proof.
  intros lo hi n v d H. pose proof (switch_contains (MInt (mk_interval lo hi n false)) v d H) as E. cbn [contains] in E. rewrite <- E.
  pose proof (mk_interval_compl lo hi n false) as K. cbn zeta in K. cbn [negb] in K. cbn [switch].
  rewrite <- K. destruct (mk_interval lo hi n false). reflexivity.
Qed.
(** an iterable is inside iff all its elements are (unless one test raises first) *)
Theorem C49_iterable : forall i l d, iv_contains i (TSeq l) d = Ok true <-> forall v, In v l -> iv_contains i v d = Ok true.
Proof.
  intros i l d. unfold iv_contains. rewrite iv_test_seq. induction l as [|x l IH]; cbn [res_all].
  - split; [intros _ v []|auto].
  - split.
    + destruct (iv_test i (limits d i) x) as [[|]|] eqn:E; cbn [rbind]; try discriminate. intros K v [<-|V]; auto. apply IH; auto.
    + intro K. rewrite (K x) by (left; auto). cbn [rbind]. apply IH. intros v V. apply K. right. auto.
Qed.
(** variables as bounds: membership with their values, if these are given in ascending order *)
Theorem C49_variables_partial : forall lo hi int_only complement f l u v,
  is_var (si_val lo) || is_var (si_val hi) = true ->
  resolve f (si_val lo) = Some l -> resolve f (si_val hi) = Some u -> nle l u ->
  ~ half_open_point (l, si_open lo) (u, si_open hi) -> (int_only = true -> finite v) ->
  exists r, iv_contains (mk_interval (Some lo) (Some hi) int_only complement) (TNum v) (Some f) = Ok r /\
            (r = true <-> in_interval (l, si_open lo) (u, si_open hi) int_only complement v).
Proof. exact vars_contains. Qed.
(** [3,3) contains 3, although nothing is >= 3 and < 3 *)
Theorem C49_half_open_refuted :
  iv_contains (mk (Some (NI 3, false)) (Some (NI 3, true)) false false) (TNum (NI 3)) None = Ok true /\
  ~ in_interval (NI 3, false) (NI 3, true) false false (NI 3).
Proof. split; [vm_compute; reflexivity|]. intros [[(_ & _ & [_ K])|(_ & [_ K] & _)] _]; apply K; apply nle_NI; lia. Qed.
(** inf in an integer interval raises instead of giving False *)
Theorem C49_inf_refuted : iv_contains (mk (Some (NI 1, false)) None true false) (TNum PInf) None = Err OverflowError /\
  ~ in_interval (NI 1, false) (PInf, false) true false PInf.
Proof. split; [vm_compute; reflexivity|]. intros [_ K]. destruct (K eq_refl) as [z [A _]]. exact A. Qed.
(** variable bounds are not put in order: x..y with x = 5, y = 1 does not contain 3 *)
Theorem C49_variables_refuted :
  let f := fun s => if String.eqb s "x" then Some (NI 5) else if String.eqb s "y" then Some (NI 1) else None in
  iv_contains (mk_interval (Some (SI (VVar "x") false)) (Some (SI (VVar "y") false)) false false) (TNum (NI 3)) (Some f) = Ok false /\
  in_interval (NI 5, false) (NI 1, false) false false (NI 3).
Proof.
  intro f. split; [vm_compute; reflexivity|]. split; [|discriminate]. right. unfold above, under. cbn [fst snd]. rewrite !nle_NI. lia.
Qed.
(** the list [2,9] is neither in 1..3 nor in its complement *)
Theorem C49_complement_refuted :
  iv_contains (mk (Some (NI 1, false)) (Some (NI 3, false)) false false) (TSeq [TNum (NI 2); TNum (NI 9)]) None = Ok false /\
  iv_contains (mk (Some (NI 1, false)) (Some (NI 3, false)) false true) (TSeq [TNum (NI 2); TNum (NI 9)]) None = Ok false.
Proof. split; vm_compute; reflexivity. Qed.
(** cases: bounds given in reverse, 2.5 between 1 and 3 but no integer, 5 in the complement *)
Example C49_case : let i := mk (Some (NI 3, false)) (Some (NI 1, true)) true false in
  ~ half_open_point (NI 3, false) (NI 1, true) /\
  iv_contains i (TNum (NI 3)) None = Ok true /\ iv_contains i (TNum (NI 1)) None = Ok false /\ iv_contains i (TNum (NF (5 # 2))) None = Ok false /\
  iv_contains (mk (Some (NI 3, false)) (Some (NI 1, true)) false false) (TNum (NF (5 # 2))) None = Ok true /\
  iv_contains (mk (Some (NI 3, false)) (Some (NI 1, true)) false true) (TNum (NI 5)) None = Ok true.
Proof. split; [intros [[A _] _]; change (nle (NI 3) (NI 1)) in A; rewrite nle_NI in A; lia|]. vm_compute. auto. Qed.
Example C49_variables_case : let f := fun s => if String.eqb s "x" then Some (NI 5) else None in
  resolve f (VVar "x") = Some (NI 5) /\
  iv_contains (mk_interval (Some (SI (VNum (NI 1)) false)) (Some (SI (VVar "x") true)) false false) (TNum (NI 4)) (Some f) = Ok true /\
  iv_contains (mk_interval (Some (SI (VNum (NI 1)) false)) (Some (SI (VVar "x") true)) false false) (TNum (NI 5)) (Some f) = Ok false.
Proof. vm_compute. auto. Qed.

(** * C50 *)
(** set combinations, at least one member (mk_comb); none of the members raises on v *)
Definition combined (l : list mset) (is_union : bool) (v : tval) (d : vdict) : Prop :=
  if is_union then exists s, In s l /\ contains s v d = Ok true else forall s, In s l -> contains s v d = Ok true.
Theorem C50_combine : forall l is_union complement s v d, mk_comb l is_union complement = Ok s ->
  (forall m, In m l -> exists b, contains m v d = Ok b) ->
  exists b, contains s v d = Ok b /\ (b = true <-> if complement then ~ combined l is_union v d else combined l is_union v d).
Proof.
  intros l u c s v d M H. unfold mk_comb in M. destruct l as [|m l]; [discriminate|]. injection M as <-.
  destruct u; [apply comb_union|apply comb_inter]; auto.
Qed.
(** a + b: the union, a - b: the intersection *)
Theorem C50_operators : forall a b v d x y, contains a v d = Ok x -> contains b v d = Ok y ->
  (exists s, mset_add a b = Ok s /\ contains s v d = Ok (x || y)) /\
  (exists s, mset_sub a b = Ok s /\ contains s v d = Ok (x && y)).
Proof. intros a b v d x y X Y. split; eexists; (split; [reflexivity|]); cbn; rewrite X, Y; destruct x, y; reflexivity. Qed.
(** switch_complement() negates, for scalars *)
Theorem C50_complement : forall s v d, (forall l, v <> TSeq l) ->
  contains (switch s) v d = match contains s v d with Ok b => Ok (negb b) | Err e => Err e end.
Proof. exact switch_contains. Qed.
(** a member that raises does not matter when another one decides, wherever it stands *)
Theorem C50_raising_members : forall l complement v d s, In s l ->
  (contains s v d = Ok true -> contains (MComb l true complement) v d = Ok (negb complement)) /\
  (contains s v d = Ok false -> contains (MComb l false complement) v d = Ok complement).
Proof. intros l c v d s I. split; intro E; [eapply comb_union_true|eapply comb_inter_false]; eauto. Qed.
(** and when the union raises, the error is the one of a member *)
Theorem C50_errors : forall l complement v d e, contains (MComb l true complement) v d = Err e ->
  exists s, In s l /\ contains s v d = Err e.
Proof. exact comb_union_err. Qed.
(** ((1..3) u {7}) n !{2}, 2 is out, 7 is in *)
Definition ex_comb : mset :=
  MComb [MComb [MInt (mk (Some (NI 1, false)) (Some (NI 3, false)) false false); MRos (mk_roster [SI (VNum (NI 7)) false] false)] true false;
         MRos (mk_roster [SI (VNum (NI 2)) false] true)] false false.
Example C50_case : contains ex_comb (TNum (NI 7)) None = Ok true /\ contains ex_comb (TNum (NI 2)) None = Ok false /\
  contains ex_comb (TNum (NI 3)) None = Ok true /\ contains ex_comb (TNum (NI 9)) None = Ok false /\
  contains (switch ex_comb) (TNum (NI 9)) None = Ok true.
Proof. vm_compute. auto 10. Qed.

(** * C51 *)
(** integer interval with integer bounds: the members are the sorted list [l], iterated in
    this order, and their number is the cardinality.  The bounds are in any order.  The
    hypothesis for the iteration excludes [3,3) and (3,3]. *)
Theorem C51_members_partial : forall x ox y oy d, let i := mk (Some (NI x, ox)) (Some (NI y, oy)) true false in
  exists l : list Z, StronglySorted Z.lt l /\
    (forall v, finite v -> (iv_contains i (TNum v) d = Ok true <-> exists z, In z l /\ neq v (NI z))) /\
    iv_card i = NI (Z.of_nat (length l)) /\
    (~ (x = y /\ ox <> oy) -> iv_iter i = Ok (map NI l)).
Proof. intros x ox y oy d. exact (mint_exact x ox y oy d). Qed.
(** infinite cardinality means infinitely many integers *)
Theorem C51_infinite_partial : forall x ox o o' d,
  (let i := mk (Some (NInf, o)) (Some (NI x, ox)) true false in
   iv_card i = PInf /\ infinitely_many (fun z => iv_contains i (TNum (NI z)) d = Ok true)) /\
  (let i := mk (Some (NI x, ox)) (Some (PInf, o)) true false in
   iv_card i = PInf /\ infinitely_many (fun z => iv_contains i (TNum (NI z)) d = Ok true)) /\
  (let i := mk (Some (NInf, o)) (Some (PInf, o')) true false in
   iv_card i = PInf /\ infinitely_many (fun z => iv_contains i (TNum (NI z)) d = Ok true)).
Proof. intros. split; [|split]; [apply unbounded_below|apply unbounded_above|apply unbounded_both]. Qed.
Theorem C51_complement_partial : forall x ox y oy d, let i := mk (Some (NI x, ox)) (Some (NI y, oy)) true true in
  iv_card i = PInf /\ infinitely_many (fun z => iv_contains i (TNum (NI z)) d = Ok true).
Proof. intros x ox y oy d. exact (compl_infinite x ox y oy d). Qed.
(** whatever is iterated is a member: also for complements (which iterate nothing) and for
    intervals that are not restricted to integers *)
Theorem C51_iter_sound_partial : forall x ox y oy int_only complement d l,
  iv_iter (mk (Some (NI x, ox)) (Some (NI y, oy)) int_only complement) = Ok l ->
  forall v, In v l -> iv_contains (mk (Some (NI x, ox)) (Some (NI y, oy)) int_only complement) (TNum v) d = Ok true.
Proof.
  intros x ox y oy n c d l E v V.
  assert (A : iv_compl (mk (Some (NI x, ox)) (Some (NI y, oy)) n c) = c /\ iv_int (mk (Some (NI x, ox)) (Some (NI y, oy)) n c) = n).
  { unfold mk, mk_interval. destruct (mk_interval_compl None None n c). repeat match goal with |- context [match ?b with _ => _ end] => destruct b end; auto. }
  destruct A as [A1 A2]. destruct c; [unfold iv_iter in E; rewrite A1 in E; injection E as <-; destruct V|].
  destruct n; [|unfold iv_iter in E; rewrite A1, A2 in E; injection E as <-; destruct V].
  destruct (mint_exact x ox y oy d) as (l0 & _ & M & _ & I). unfold mint in *.
  destruct (Z.eq_dec x y) as [->|N]; [destruct (Bool.bool_dec ox oy) as [->|O]|].
  - rewrite I in E by (intros [_ K]; apply K; reflexivity). injection E as <-. apply in_map_iff in V as (z & <- & Z). apply M; [exact Logic.I|]. exists z. split; [exact Z|apply neq_NI; reflexivity].
  - destruct (mint_shape y ox y oy false (Z.le_refl y)) as (ls & us & S). unfold mint in S. rewrite S in E. unfold iv_iter, iv_vars, iv_first, iv_last in E.
    cbn [iv_lo iv_hi si_val is_var orb negb iv_int andb iv_compl num_of si_open val_eq] in E. change (num_eq (NI y) PInf) with false in E. change (num_eq (NI y) NInf) with false in E. cbn [negb andb] in E.
    destruct ox, oy; try (exfalso; apply O; reflexivity); cbn [num_plus] in E; rewrite num_lt_NI in E.
    + replace (y <? y + 1) with true in E by (symmetry; apply Z.ltb_lt; lia). injection E as <-. destruct V.
    + replace (y + -1 <? y) with true in E by (symmetry; apply Z.ltb_lt; lia). injection E as <-. destruct V.
  - rewrite I in E by (intros [K _]; exact (N K)). injection E as <-. apply in_map_iff in V as (z & <- & Z). apply M; [exact Logic.I|]. exists z. split; [exact Z|apply neq_NI; reflexivity].
Qed.
(** is_empty_set: True iff there is no member *)
Theorem C51_empty_partial : forall x ox y oy complement d, let i := mk (Some (NI x, ox)) (Some (NI y, oy)) true complement in
  iv_empty i = true <-> forall v, finite v -> iv_contains i (TNum v) d <> Ok true.
Proof.
  intros x ox y oy c d i. destruct c.
  - destruct (compl_infinite x ox y oy d) as (_ & H). destruct (H 1%nat) as ([|z [|]] & _ & L & Z); try discriminate. unfold mint in Z. fold i in Z.
    assert (A : iv_compl i = true) by (unfold i, mk, mk_interval; repeat match goal with |- context [match ?b with _ => _ end] => destruct b end; auto).
    unfold iv_empty. rewrite A. split; [discriminate|]. intros K. exfalso. apply (K (NI z) Logic.I). apply Z. left. reflexivity.
  - destruct (mint_exact x ox y oy d) as (l & _ & M & C & _). unfold mint in *. fold i in M, C.
    assert (A : iv_compl i = false) by (unfold i, mk, mk_interval; repeat match goal with |- context [match ?b with _ => _ end] => destruct b end; auto).
    assert (C0 : iv_card0 i = iv_card i) by (unfold iv_card; rewrite A; reflexivity).
    unfold iv_empty. rewrite A, C0, C, num_eq_NI. cbn [negb andb]. rewrite Z.eqb_eq. split.
    + intros Z v F K. apply (M v F) in K as (z & K & _). destruct l; [destruct K|cbn in Z; lia].
    + intros K. destruct l as [|z l]; [reflexivity|]. exfalso. apply (K (NI z) Logic.I). apply M; [exact Logic.I|]. exists z. split; [left; reflexivity|apply neq_NI; reflexivity].
Qed.
(** [3,3) has the member 3 and cardinality 1, but iterates nothing *)
Theorem C51_iter_refuted : let i := mk (Some (NI 3, false)) (Some (NI 3, true)) true false in
  iv_contains i (TNum (NI 3)) None = Ok true /\ iv_card i = NI 1 /\ iv_iter i = Ok [].
Proof. vm_compute. auto. Qed.
(** with float bounds the cardinality is wrong (1.5..3.5 has the members 2 and 3 only) and the
    iteration raises *)
Theorem C51_float_refuted : let i := mk (Some (NF (3 # 2), false)) (Some (NF (7 # 2), false)) true false in
  (forall z, iv_contains i (TNum (NI z)) None = Ok true <-> z = 2 \/ z = 3) /\
  num_eq (iv_card i) (NI 3) = true /\ iv_iter i = Err TypeError.
Proof.
  split; [|vm_compute; auto]. intro z.
  assert (H : ~ half_open_point (NF (3 # 2), false) (NF (7 # 2), false)) by (intros [_ K]; apply K; reflexivity).
  destruct (membership (Some (NF (3 # 2), false)) (Some (NF (7 # 2), false)) true false (NI z) None H (fun _ => I)) as (r & E & M).
  rewrite E. split.
  - intro K. injection K as ->. destruct (proj1 M eq_refl) as [[(_ & A & B)|(A & _ & _)] _].
    + cbn in A, B. unfold Qle in A, B. cbn in A, B. lia.
    + exfalso. cbn in A. unfold Qle in A. cbn in A. lia.
  - intro K. f_equal. apply M. split; [|intros _; apply is_integer_NI]. left. cbn. unfold Qle. cbn. lia.
Qed.
(** the complement of the whole integer line has cardinality 0, but contains 0.5 *)
Theorem C51_complement_refuted : let i := mk None None true true in
  iv_card i = NI 0 /\ iv_contains i (TNum (NF (1 # 2))) None = Ok true.
Proof. vm_compute. auto. Qed.
(** combinations: the cardinality is an upper bound of the number of members, for unions and
    intersections of integer intervals and rosters (and complements of those), nested at will *)
Theorem C51_combination_bound_partial : forall s d n l, count_set s -> card s = NI n -> members s d l -> Z.of_nat (length l) <= n.
Proof. intros s d n l C. apply count_bound. exact C. Qed.
(** and for a union of sets without common members it is the number of members *)
Theorem C51_disjoint_union_partial : forall d ss ls, ForallOrdPairs (apart d) ss ->
  Forall2 (fun s l => all_members s d l /\ card s = NI (Z.of_nat (length l))) ss ls ->
  all_members (MComb ss true false) d (concat ls) /\ card (MComb ss true false) = NI (Z.of_nat (length (concat ls))).
Proof. intros d ss ls. apply disjoint_union. Qed.
(** with common members it is too large: 1..3 u 2..4 has the members 1, 2, 3, 4 *)
Theorem C51_overlap_refuted : let s := MComb [MInt (mk (Some (NI 1, false)) (Some (NI 3, false)) true false); MInt (mk (Some (NI 2, false)) (Some (NI 4, false)) true false)] true false in
  count_set s /\ card s = NI 6 /\ forall l, members s None l -> (length l <= 4)%nat.
Proof.
  intro s. split; [|split; [vm_compute; reflexivity|]].
  - constructor. intros x [<-|[<-|[]]]; constructor.
  - intros l [D M]. change 4%nat with (length [1; 2; 3; 4]). apply (pigeon (fun v z => neq v (NI z)) neq); auto.
    + intros a a' b H1 H2. eapply neq_trans; [exact H1|]. apply neq_sym. exact H2.
    + intros v V. destruct (M v V) as [F I]. apply union_true in I as (x & [<-|[<-|[]]] & I); cbn [contains] in I.
      * destruct (mint_exact 1 false 3 false None) as (l0 & S & E & _ & IT). unfold mint in *.
        apply E in I; auto. destruct I as (z & Z & N). specialize (IT ltac:(lia)). vm_compute in IT. injection IT as IT.
        destruct l0 as [|a [|b [|c [|]]]]; try discriminate. injection IT as <- <- <-. exists z. split; auto. cbn in *. tauto.
      * destruct (mint_exact 2 false 4 false None) as (l0 & S & E & _ & IT). unfold mint in *.
        apply E in I; auto. destruct I as (z & Z & N). specialize (IT ltac:(lia)). vm_compute in IT. injection IT as IT.
        destruct l0 as [|a [|b [|c [|]]]]; try discriminate. injection IT as <- <- <-. exists z. split; auto. cbn in *. tauto.
Qed.
(** the complement of a combination has the cardinality of the combination: {1} u {2} complemented *)
Theorem C51_combination_complement_refuted : let a := MRos (mk_roster [SI (VNum (NI 1)) false] false) in let b := MRos (mk_roster [SI (VNum (NI 2)) false] false) in
  card (MComb [a; b] true true) = NI 2 /\
  forall z, 2 < z -> contains (MComb [a; b] true true) (TNum (NI z)) None = Ok true.
Proof.
  intros a b. split; [reflexivity|]. intros z Z. assert (X : forall k, k < z -> num_eq (NI k) (NI z) = false) by (intros k K; rewrite num_eq_NI; apply Z.eqb_neq; lia).
  cbn [contains a b]. unfold ro_contains. cbn -[num_eq]. rewrite !X by lia. reflexivity.
Qed.
(** len() raises for every set *)
Theorem C51_len_refuted : forall s, mset_len s = Err TypeError.
Proof. reflexivity. Qed.
Example C51_case : iv_iter (mk (Some (NI 5, true)) (Some (NI 2, false)) true false) = Ok [NI 2; NI 3; NI 4].
Proof. vm_compute. reflexivity. Qed.

(** * C52 *)
(** equal sets have the same members; same_form: their bounds agree in being open, and
    combinations have equally many members *)
Theorem C52_equal_partial : forall s t, built s -> built t -> mset_eq s t = true -> same_form s t ->
  forall v d, contains s v d = contains t v d.
Proof. exact mset_eq_sound. Qed.
(** for rosters without any restriction *)
Theorem C52_rosters : forall items c items' c', ro_eq (mk_roster items c) (mk_roster items' c') = true ->
  forall v d, ro_contains (mk_roster items c) v d = ro_contains (mk_roster items' c') v d.
Proof.
  intros items c items' c' E v d. destruct (ro_eq_vals _ _ _ _ _ _ eq_refl eq_refl E) as [C H]. apply ro_contains_ext; auto.
Qed.
(** mSetInterval(1,3) == mSetInterval((2,True),3): 1 is in the first one only *)
Theorem C52_open_refuted : let i := mk (Some (NI 1, false)) (Some (NI 3, false)) false false in
  let j := mk (Some (NI 2, true)) (Some (NI 3, false)) false false in
  mset_eq (MInt i) (MInt j) = true /\ contains (MInt i) (TNum (NI 1)) None = Ok true /\ contains (MInt j) (TNum (NI 1)) None = Ok false.
Proof. vm_compute. auto. Qed.
(** combinations are compared up to the shorter one *)
Theorem C52_length_refuted : let a := MRos (mk_roster [SI (VNum (NI 1)) false] false) in let b := MRos (mk_roster [SI (VNum (NI 2)) false] false) in
  mset_eq (MComb [a] true false) (MComb [a; b] true false) = true /\
  contains (MComb [a] true false) (TNum (NI 2)) None = Ok false /\ contains (MComb [a; b] true false) (TNum (NI 2)) None = Ok true.
Proof. vm_compute. auto. Qed.
Lemma ex_comb_built : built ex_comb.
Proof.
  apply (built_comb [MComb [MInt (mk (Some (NI 1, false)) (Some (NI 3, false)) false false); MRos (mk_roster [SI (VNum (NI 7)) false] false)] true false;
         MRos (mk_roster [SI (VNum (NI 2)) false] true)] false false); auto.
  intros x [<-|[<-|[]]]; [|apply built_ros].
  apply (built_comb [MInt (mk (Some (NI 1, false)) (Some (NI 3, false)) false false); MRos (mk_roster [SI (VNum (NI 7)) false] false)] true false); auto.
  intros x [<-|[<-|[]]]; [apply built_int|apply built_ros].
Qed.
(** bounds in reverse, 3.0 for 3 *)
Example C52_case : let t := MComb [MComb [MInt (mk (Some (NF 3, false)) (Some (NI 1, false)) false false); MRos (mk_roster [SI (VNum (NF 7)) false; SI (VNum (NI 7)) false] false)] true false;
         MRos (mk_roster [SI (VNum (NI 2)) false] true)] false false in
  mset_eq ex_comb t = true /\ same_form ex_comb t.
Proof. vm_compute. auto 10. Qed.

(** * C53 *)
Theorem C53_interval : forall lower upper int_only complement,
  let i := mk_interval lower upper int_only complement in iv_rebuild false i = i.
Proof. intros. apply iv_rebuild_same. Qed.
Theorem C53_roster : forall full items complement,
  let r := mk_roster items complement in ro_rebuild full r = Ok r.
Proof. intros. apply ro_rebuild_same. Qed.
Theorem C53_combine_partial : forall full l is_union complement v d, (2 <= length l)%nat ->
  comb_rebuild_contains full l is_union complement v d = contains (MComb l is_union complement) v d.
Proof. exact comb_rebuild_same. Qed.
(** get_init_args(full=True) of a plain interval rebuilds its complement *)
Theorem C53_full_refuted : let i := mk (Some (NI 1, false)) (Some (NI 3, false)) false false in
  iv_contains i (TNum (NI 2)) None = Ok true /\ iv_contains (iv_rebuild true i) (TNum (NI 2)) None = Ok false.
Proof. vm_compute. auto. Qed.
(** a combination of one set is rebuilt with the additional member None, which raises *)
Theorem C53_single_refuted : let a := MRos (mk_roster [SI (VNum (NI 1)) false] false) in
  contains (MComb [a] true false) (TNum (NI 2)) None = Ok false /\
  comb_rebuild_contains false [a] true false (TNum (NI 2)) None = Err TypeError.
Proof. vm_compute. auto. Qed.
Example C53_case : mk_comb_args (comb_args false [MRos (RO [] false); ex_comb] false true) = Ok ([CSet (MRos (RO [] false)); CSet ex_comb], false, true).
Proof. reflexivity. Qed.

(** * C57 *)
(** a number is in mSetRoster(items) iff it equals the value of a closed item, or the value of
    a variable that is a closed item *)
Definition in_roster (items : list sitem) (f : string -> option num) (v : num) : Prop :=
  exists i, In i items /\ si_open i = false /\
    ((exists n, si_val i = VNum n /\ neq n v) \/ (exists s n, si_val i = VVar s /\ f s = Some n /\ neq n v)).
Theorem C57_roster : forall items complement v d,
  ro_contains (mk_roster items complement) (TNum v) d = true <->
  (let inside := in_roster items (match d with Some f => f | None => fun _ => None end) v in if complement then ~ inside else inside).
Proof.
  intros items c v d.
  assert (X : has_val (ro_items (mk_roster items c)) (VNum v) || has_val (ro_repl (mk_roster items c) d) (VNum v) = true <->
              in_roster items (match d with Some f => f | None => fun _ => None end) v).
  { rewrite Bool.orb_true_iff, mk_roster_vals, ro_repl_vals. unfold in_roster. split.
    - intros [(i & A & B & E)|(f & s & n & -> & A & B & E)].
      + exists i. split; auto. split; auto. left. destruct (si_val i) as [n|]; [|discriminate]. exists n. split; auto. apply num_eq_iff. auto.
      + apply mk_roster_vals in A as (i & I & O & V). exists i. split; auto. split; auto. right.
        destruct (si_val i) as [m|t]; [discriminate|]. cbn in V. apply String.eqb_eq in V. subst. exists s, n. split; auto. split; auto. apply num_eq_iff. auto.
    - intros (i & A & B & [(n & E & N)|(s & n & E & F & N)]).
      + left. exists i. split; auto. split; auto. rewrite E. cbn. apply num_eq_iff. auto.
      + right. destruct d as [f|]; [|discriminate]. exists f, s, n. split; auto. split; [|split; auto; cbn; apply num_eq_iff; auto].
        apply mk_roster_vals. exists i. split; auto. split; auto. rewrite E. cbn. apply String.eqb_refl. }
  unfold ro_contains. cbn [ro_test]. change (ro_compl (mk_roster items c)) with c.
  destruct (has_val _ _ || has_val _ _); destruct c; cbn; intuition discriminate.
Qed.
Example C57_case : let f := fun s => if String.eqb s "x" then Some (NI 5) else None in
  let r := mk_roster [SI (VNum (NI 1)) false; SI (VVar "x") false; SI (VNum (NI 9)) true] false in
  ro_contains r (TNum (NI 5)) (Some f) = true /\ ro_contains r (TNum (NF 1)) (Some f) = true /\ ro_contains r (TNum (NI 9)) (Some f) = false.
Proof. vm_compute. auto. Qed.
(** a string is in mSetRoster(items) iff it is the name of a variable that is a closed item *)
Theorem C57_names : forall items complement s d,
  ro_contains (mk_roster items complement) (TStr s) d = true <->
  (let inside := exists i, In i items /\ si_open i = false /\ si_val i = VVar s in if complement then ~ inside else inside).
Proof.
  intros items c s d.
  assert (X : has_val (ro_items (mk_roster items c)) (VVar s) || has_val (ro_repl (mk_roster items c) d) (VVar s) = true <->
              exists i, In i items /\ si_open i = false /\ si_val i = VVar s).
  { rewrite Bool.orb_true_iff, mk_roster_vals, ro_repl_vals. split.
    - intros [(i & A & B & E)|(f & u & n & _ & _ & _ & E)]; [|discriminate]. exists i. split; auto. split; auto. destruct (si_val i) as [n|u]; [discriminate|]. cbn in E. apply String.eqb_eq in E. congruence.
    - intros (i & A & B & E). left. exists i. split; auto. split; auto. rewrite E. cbn. apply String.eqb_refl. }
  unfold ro_contains. cbn [ro_test]. change (ro_compl (mk_roster items c)) with c.
  destruct (has_val _ _ || has_val _ _); destruct c; cbn; intuition discriminate.
Qed.
(** an iterable is inside iff all its elements are *)
Theorem C57_iterable : forall r l d, ro_contains r (TSeq l) d = true <-> forall v, In v l -> ro_contains r v d = true.
Proof. intros r l d. unfold ro_contains. rewrite ro_test_seq. apply forallb_forall. Qed.
(** the cardinality is the number of different values of the closed items (a NaN is no value equal
    to itself, it counts each time) *)
Theorem C57_cardinality : forall items, exists l,
  ro_card (mk_roster items false) = NI (Z.of_nat (length l)) /\
  (forall w, In w l -> exists i, In i items /\ si_open i = false /\ si_val i = w) /\
  (forall i, In i items -> si_open i = false -> si_val i <> VNum NaN -> exists w, In w l /\ val_eq w (si_val i) = true) /\
  (forall i j, (i < j < length l)%nat -> val_eq (nth i l (VNum NaN)) (nth j l (VNum NaN)) = false).
Proof.
  intro items. exists (ro_items (mk_roster items false)). split; [reflexivity|]. split; [|split].
  - cbn [mk_roster ro_items]. assert (G : forall vs acc w, In w (fold_left add_val vs acc) -> In w acc \/ In w vs).
    { induction vs as [|v vs IH]; intros acc w H; [left; exact H|]. cbn [fold_left] in H. apply IH in H as [H|H]; [|right; right; exact H].
      unfold add_val in H. destruct (has_val acc v); [left; exact H|]. apply in_app_iff in H as [H|[<-|[]]]; [left; exact H|right; left; reflexivity]. }
    intros w H. apply G in H as [[]|H]. apply in_map_iff in H as (i & <- & H). apply filter_In in H as [A B]. exists i. destruct (si_open i); auto; discriminate.
  - intros i I O N. assert (E : val_eq (si_val i) (si_val i) = true).
    { destruct (si_val i) as [n|s]; cbn; [|apply String.eqb_refl]. apply num_eq_iff. destruct n; try (exfalso; apply N; reflexivity); cbn; unfold neq; cbn; auto; split; apply Qle_refl || auto. }
    assert (H : has_val (ro_items (mk_roster items false)) (si_val i) = true) by (apply mk_roster_vals; eauto).
    apply has_val_iff in H as (w & W). exists w. auto.
  - apply nth_ndup. apply add_vals_ndup. constructor.
Qed.
(** the complement of a roster has infinitely many members *)
Theorem C57_complement_cardinality : forall items d, ro_card (mk_roster items true) = PInf /\
  infinitely_many (fun z => ro_contains (mk_roster items true) (TNum (NI z)) d = true).
Proof.
  intros items d. split; [reflexivity|].
  set (f := match d with Some f => f | None => fun _ => None end).
  set (vals := flat_map (fun i => match si_val i with VNum n => [n] | VVar s => match f s with Some n => [n] | None => [] end end) items).
  assert (B : exists b, forall n z, In n vals -> neq n (NI z) -> z < b).
  { induction vals as [|n vals (b & IH)]; [exists 0; intros n z []|].
    assert (Bn : exists c, forall z, neq n (NI z) -> z < c).
    { destruct n as [x|q| | |]; try (exists 0; intros z [Z1 Z2]; cbn in Z1, Z2; contradiction).
      - exists (x + 1). intros z Z. apply neq_NI in Z. lia.
      - exists (Qround.Qceiling q + 1). intros z [Z1 Z2]. cbn in Z1, Z2. assert (Q : (q == inject_Z z)%Q) by (apply Qle_antisym; assumption).
        rewrite (Qround.Qceiling_comp _ _ Q), Qround.Qceiling_Z. lia. }
    destruct Bn as (c & Bn). exists (Z.max b c). intros m z [<-|H] E; [apply Bn in E; lia|apply (IH m z H) in E; lia]. }
  destruct B as (b & B). apply (inf_up _ b). intros z Hz. apply C57_roster. cbn. fold f. intros (i & I & _ & [(n & E & N)|(s & n & E & F & N)]).
  - assert (z < b) by (apply (B n z); [apply in_flat_map; exists i; split; [exact I|rewrite E; left; reflexivity]|exact N]). lia.
  - assert (z < b) by (apply (B n z); [apply in_flat_map; exists i; split; [exact I|rewrite E, F; left; reflexivity]|exact N]). lia.
Qed.

(** the hypotheses of the C51 union theorems: {1, 2} u 5..6 has 4 members *)
Example C51_union_case : let a := MRos (mk_roster [SI (VNum (NI 1)) false; SI (VNum (NI 2)) false] false) in
  let b := MInt (mk (Some (NI 5, false)) (Some (NI 6, false)) true false) in
  count_set (MComb [a; b] true false) /\ card (MComb [a; b] true false) = NI 4 /\ apart None a b /\
  all_members a None [NI 1; NI 2] /\ all_members b None [NI 5; NI 6].
Proof.
  intros a b.
  assert (IA : forall v, contains a (TNum v) None = Ok true -> neq (NI 1) v \/ neq (NI 2) v).
  { intros v H. cbn [a contains] in H. injection H as H. apply C57_roster in H as (i & [<-|[<-|[]]] & _ & [(n & E & N)|(s & n & E & _)]); try discriminate; injection E as <-; auto. }
  assert (IB : forall v, contains b (TNum v) None = Ok true -> neq (NI 5) v \/ neq (NI 6) v).
  { intros v H. cbn [b contains] in H. 
    assert (F : finite v) by (destruct v; try exact I; vm_compute in H; discriminate).
    destruct (mint_exact 5 false 6 false None) as (l0 & S & E & _ & IT). unfold mint in *.
    apply E in H; auto. destruct H as (z & Z & N). specialize (IT ltac:(lia)). vm_compute in IT. injection IT as IT.
    destruct l0 as [|x [|y [|]]]; try discriminate. injection IT as <- <-. apply neq_sym in N. destruct Z as [<-|[<-|[]]]; auto. }
  assert (N12 : forall x y, x <> y -> ~ neq (NI x) (NI y)) by (intros x y H K; apply neq_NI in K; auto).
  split; [constructor; intros x [<-|[<-|[]]]; constructor|]. split; [vm_compute; reflexivity|]. split; [|split].
  - intros v w V W N. apply IA in V. apply IB in W.
    destruct V as [V|V], W as [W|W]; (eapply N12; [|eapply neq_trans; [exact V|eapply neq_trans; [exact N|apply neq_sym; exact W]]]; lia).
  - split; [split|].
    + repeat constructor; apply N12; lia.
    + intros v [<-|[<-|[]]]; split; try exact I; vm_compute; reflexivity.
    + intros v _ V. apply IA in V as [V|V]; eexists; (split; [|exact V]); [left|right; left]; reflexivity.
  - split; [split|].
    + repeat constructor; apply N12; lia.
    + intros v [<-|[<-|[]]]; split; try exact I; vm_compute; reflexivity.
    + intros v _ V. apply IB in V as [V|V]; eexists; (split; [|exact V]); [left|right; left]; reflexivity.
Qed.

Print Assumptions C51_combination_bound_partial.
Print Assumptions C51_disjoint_union_partial.
Print Assumptions C49_membership_partial.
Print Assumptions C49_point_partial.
Print Assumptions C49_order.
Print Assumptions C49_complement_partial.
Print Assumptions C49_iterable.
Print Assumptions C49_variables_partial.
Print Assumptions C50_combine.
Print Assumptions C50_operators.
Print Assumptions C50_complement.
Print Assumptions C50_raising_members.
Print Assumptions C50_errors.
Print Assumptions C51_members_partial.
Print Assumptions C51_infinite_partial.
Print Assumptions C51_complement_partial.
Print Assumptions C51_float_refuted.
Print Assumptions C52_equal_partial.
Print Assumptions C52_rosters.
Print Assumptions C53_interval.
Print Assumptions C53_roster.
Print Assumptions C53_combine_partial.
Print Assumptions C57_roster.
Print Assumptions C57_cardinality.
Print Assumptions C51_iter_sound_partial.
Print Assumptions C51_empty_partial.
Print Assumptions C57_names.
Print Assumptions C57_complement_cardinality.
