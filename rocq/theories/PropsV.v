(** C78: definition strings of intervals in bracket notation, and their printed form. *)
From Coq Require Import QArith Qabs Ascii.
From Verif Require Import Base MathSet MathSpec MathFacts MathStr MathStrFacts LitFacts.
Local Open Scope Z_scope.

(** * C78 *)
(** a definition string: optional !, bracket, lower bound, separator, upper bound, bracket,
    optional ', spaces anywhere; the members are the numbers between the bounds *)
Theorem C78_notation_partial : forall s compl oa a dots b ob quote x fx y fy v d,
  no_sp s = bracket compl oa a dots b ob quote -> clean a -> clean b ->
  parse_item a oa = Ok (PI (VNum x) oa fx) -> parse_item b ob = Ok (PI (VNum y) ob fy) ->
  ~ half_open_point (x, oa) (y, ob) -> (dots = true -> finite v) ->
  exists p r, interval_str s = Ok p /\
    iv_contains (piv_set p) (TNum v) d = Ok r /\
    (r = true <-> in_interval (x, oa) (y, ob) dots (xorb compl quote) v).
Proof.
  intros s compl oa a dots b ob quote x fx y fy v d NS A B PA PB HO FV.
  rewrite (spaced_ok s compl oa a dots b ob quote _ _ NS A B PA PB eq_refl eq_refl).
  destruct (piv_order (PI (VNum x) oa fx) (PI (VNum y) ob fy) dots (xorb compl quote)) as (i & j & E & [[-> ->]|[-> ->]] & _).
  - rewrite E. destruct (membership (Some (x, oa)) (Some (y, ob)) dots (xorb compl quote) v d HO FV) as (r & M & R). eexists _, r. split; [reflexivity|]. split; auto.
  - rewrite E. assert (HO' : ~ half_open_point (y, ob) (x, oa)) by (intros [K1 K2]; apply HO; split; [apply neq_sym; exact K1|intro; apply K2; auto]).
    destruct (membership (Some (y, ob)) (Some (x, oa)) dots (xorb compl quote) v d HO' FV) as (r & M & R). eexists _, r. split; [reflexivity|]. split; [exact M|].
    rewrite in_interval_swap. exact R.
Qed.
(** a number in decimal, hexadecimal, octal or binary notation, with a point, with an exponent,
    with a sign: an item with this very number ([numeral] is the specification) *)
Theorem C78_numerals : forall t x, numeral t x -> exists y f, neq y x /\ forall o, parse_item t o = Ok (PI (VNum y) o f).
Proof. intros t x H. apply numeral_reads in H. tauto. Qed.
(** so an interval of two numerals has the members it should have *)
Theorem C78_numeral_bounds_partial : forall s compl oa a dots b ob quote x y v d,
  no_sp s = bracket compl oa a dots b ob quote -> numeral a x -> numeral b y ->
  ~ half_open_point (x, oa) (y, ob) -> (dots = true -> finite v) ->
  exists p r, interval_str s = Ok p /\ iv_contains (piv_set p) (TNum v) d = Ok r /\
    (r = true <-> in_interval (x, oa) (y, ob) dots (xorb compl quote) v).
Proof.
  intros s compl oa a dots b ob quote x y v d NS A B HO FV. destruct (numeral_reads a x A) as (CA & x' & fx & EX & PX). destruct (numeral_reads b y B) as (CB & y' & fy & EY & PY).
  destruct (C78_notation_partial s compl oa a dots b ob quote x' fx y' fy v d NS CA CB (PX oa) (PY ob)) as (p & r & P & M & R); auto.
  { intros [K1 K2]. apply HO. split; [|exact K2]. cbn [fst] in *. apply (neq_trans x x'); [apply neq_sym; auto|]. apply (neq_trans x' y'); auto. }
  exists p, r. split; auto. split; auto. rewrite R. apply in_interval_neq; auto.
Qed.
(** a float bound in fixed point notation is printed as the nearest number with as many digits
    behind the point, ties to even *)
Theorem C78_printed_fixed : forall fstr q o w n, (0 < n)%nat -> exists t r f,
  item_repr fstr (PI (VNum (NF q)) o (FFix w n)) = Ok t /\ parse_item t o = Ok (PI (VNum (NF r)) o f) /\ nearest (10 ^ (- Z.of_nat n))%Q r q.
Proof. intros fstr q o w n N. destruct (fix_reads w n q o N) as (r & f & P & R). exists (fix_text w n q), r, f. auto. Qed.
(** in exponent notation: as many digits behind the leading one *)
Theorem C78_printed_exponent : forall fstr q o w n, (0 < n)%nat -> exists t r f,
  item_repr fstr (PI (VNum (NF q)) o (FExp w n)) = Ok t /\ parse_item t o = Ok (PI (VNum (NF r)) o f) /\ ((q == 0)%Q -> (r == 0)%Q) /\
  forall e, (10 ^ e <= Qabs q)%Q -> (Qabs q < 10 ^ (e + 1))%Q -> nearest (10 ^ (e - Z.of_nat n))%Q r q.
Proof. intros fstr q o w n N. destruct (exp_reads w n q o N) as (r & f & P & Z & R). exists (exp_text w n q), r, f. auto. Qed.
(** printing and reading one bound *)
Theorem C78_item_partial : forall fstr i, printable fstr i ->
  exists t j, item_repr fstr i = Ok t /\ parse_item t (pi_open i) = Ok j /\ same_item j i.
Proof.
  intros fstr i P. destruct (item_back fstr i P) as (k & t & E & C & j & J & S). exists (repeat " "%char k ++ t), j.
  rewrite parse_item_pad by apply (cl_ok _ C). auto.
Qed.
(** printing and reading an interval: equal, with the same members *)
Definition same_set (p q : pinterval) : Prop :=
  iv_eq (piv_set p) (piv_set q) = true /\ forall v d, iv_contains (piv_set p) v d = iv_contains (piv_set q) v d.
Theorem C78_round_trip_partial : forall fstr lo hi int_only complement, printable fstr lo -> printable fstr hi ->
  exists t p, interval_repr fstr (mk_piv lo hi int_only complement) = Ok t /\ interval_str t = Ok p /\
              same_set p (mk_piv lo hi int_only complement).
Proof.
  intros fstr lo hi n c PL PH. destruct (piv_order lo hi n c) as (a & b & E & O & L). rewrite E.
  assert (PA : printable fstr a) by (destruct O as [[-> _]|[-> _]]; auto). assert (PB : printable fstr b) by (destruct O as [[_ ->]|[_ ->]]; auto).
  destruct (item_back fstr a PA) as (ka & ta & Ea & Ca & a' & Ja & Sa). destruct (item_back fstr b PB) as (kb & tb & Eb & Cb & b' & Jb & Sb).
  unfold interval_repr. cbn [pv_lo pv_hi pv_int pv_compl]. rewrite Ea, Eb. eexists. exists (mk_piv a' b' n (xorb c false)).
  split; [reflexivity|]. split.
  - pose proof (bracket_ok c (pi_open a) ka ta n kb tb (pi_open b) false a' b' Ca Cb Ja Jb) as X. unfold bracket in X. cbn [quote_text] in X. rewrite app_nil_r in X. exact X.
  - rewrite xorb_false_r. assert (SS : same_iv (piv_set (mk_piv a' b' n c)) (piv_set (PIV a b n c))).
    { destruct (piv_order a' b' n c) as (a2 & b2 & E2 & O2 & L2).
      assert (X : mk_piv a' b' n c = PIV a' b' n c).
      { destruct Sa as [Sa _], Sb as [Sb _]. unfold mk_piv. destruct (pi_val a') as [x|] eqn:XA, (pi_val b') as [y|] eqn:XB; auto.
        destruct (pi_val a) as [x0|] eqn:YA; [|contradiction]. destruct (pi_val b) as [y0|] eqn:YB; [|contradiction].
        rewrite (num_lt_neq y y0 x x0) by auto. rewrite (L x0 y0 eq_refl eq_refl). auto. }
      rewrite X. unfold piv_set. cbn [pv_lo pv_hi pv_int pv_compl]. apply mk_interval_same; auto. }
    split; [apply iv_eq_same; auto|]. intros v d. apply iv_contains_same. auto.
Qed.
(** every definition string that is accepted: the printed form is accepted again and gives an
    equal interval; excluded are exponents, and a zero that is printed as "0" ([tame]) *)
Theorem C78_strings_partial : forall fstr s p, interval_str s = Ok p -> tame (pv_lo p) -> tame (pv_hi p) ->
  exists t q, interval_repr fstr p = Ok t /\ interval_str t = Ok q /\ same_set q p.
Proof.
  intros fstr s p H TL TH. assert (X : exists lo hi n c, p = mk_piv lo hi n c /\ (tame lo -> printable fstr lo) /\ (tame hi -> printable fstr hi)).
  { unfold interval_str in H. destruct (split_bang s) as [[pre d]|]; [|discriminate]. destruct d as [|c d]; [discriminate|].
    destruct (Ascii.eqb c "[" || Ascii.eqb c "(").
    - unfold parse_math in H. destruct (no_sp (c :: d)) as [|c' s']; [discriminate|].
      destruct (if Ascii.eqb c' "(" || Ascii.eqb c' "[" then math_re s' else None) as [[l [dots [u [[uo q] rest]]]]|]; [|discriminate].
      destruct rest; [|discriminate]. destruct (parse_item l (Ascii.eqb c' "(")) as [lo|] eqn:A; [|discriminate].
      destruct (parse_item u uo) as [hi|] eqn:B; [|discriminate]. destruct (var_spaces lo l (c :: d) || var_spaces hi u (c :: d)); [discriminate|].
      injection H as <-. exists lo, hi, dots, (xorb pre q). split; auto. split; eapply parse_printable; eauto.
    - destruct (Ascii.eqb c "{"); [discriminate|]. destruct (parse_item s false) as [lo|] eqn:A.
      + injection H as <-. exists lo, (num_item PInf false), false, false. split; auto. split; [eapply parse_printable; eauto|intros _; constructor].
      + destruct (existsb _ (c :: d)); discriminate. }
  destruct X as (lo & hi & n & c & -> & PL & PH). destruct (piv_order lo hi n c) as (a & b & E & O & _). rewrite E in TL, TH. cbn in TL, TH.
  apply C78_round_trip_partial; [apply PL|apply PH]; destruct O as [[-> ->]|[-> ->]]; auto.
Qed.
(** a bound 0 is printed as "0", which is no accepted number *)
Theorem C78_zero_refuted : forall fstr,
  interval_repr fstr (mk_piv (num_item (NI 0) false) (num_item (NI 5) true) false false) = Ok (lit "[0,5)") /\
  interval_str (lit "[0,5)") = Err TypeError /\ parse_item (lit "0") false = Err TypeError.
Proof. intro. vm_compute. auto. Qed.
(** exponent notation loses digits: 12.5e3 is printed as 1.2e+04 *)
Theorem C78_exponent_refuted : forall fstr, exists p q,
  interval_str (lit "[12.5e3,13000.0]") = Ok p /\ interval_repr fstr p = Ok (lit "[1.2e+04,13000.0]") /\
  interval_str (lit "[1.2e+04,13000.0]") = Ok q /\
  iv_contains (piv_set p) (TNum (NI 12200)) None = Ok false /\ iv_contains (piv_set q) (TNum (NI 12200)) None = Ok true.
Proof. intro. eexists _, _. split; [vm_compute; reflexivity|]. split; [vm_compute; reflexivity|]. split; [vm_compute; reflexivity|]. split; vm_compute; reflexivity. Qed.
(** nan is printed as a variable of this name *)
Theorem C78_nan_refuted : forall fstr, item_repr fstr (num_item NaN false) = Ok (lit "nan") /\
  parse_item (lit "nan") false = Ok (PI (VVar "nan") false FStr).
Proof. intro. vm_compute. auto. Qed.
(** a float that Python prints without a point is not read back either *)
Theorem C78_float_refuted : forall fstr, fstr (10 ^ 16)%Q = lit "1e+16" ->
  item_repr fstr (num_item (NF (10 ^ 16)%Q) false) = Ok (lit "1e+16") /\ parse_item (lit "1e+16") false = Err TypeError.
Proof. intros fstr E. split; [cbn [item_repr num_item pi_val pi_fmt]; rewrite E; reflexivity|vm_compute; reflexivity]. Qed.
(** cases: hexadecimal, decimals, variable, complement twice, white space, bounds in reverse *)
Example C78_case : exists p, interval_str (lit " ![ 00.50 .. 0x1F )' ") = Ok p /\ tame (pv_lo p) /\ tame (pv_hi p) /\
  interval_repr (fun _ => []) p = Ok (lit "[0.50..0x1f)") /\ pv_compl p = false /\ pv_int p = true /\ pi_open (pv_hi p) = true.
Proof.
  eexists. split; [vm_compute; reflexivity|]. cbn [pv_lo pv_hi pv_compl pv_int pi_open tame pi_fmt pi_val]. repeat split; vm_compute; reflexivity.
Qed.
Example C78_case_variable : exists p, interval_str (lit "(-1.25,max_1]") = Ok p /\ tame (pv_lo p) /\ tame (pv_hi p) /\
  interval_repr (fun _ => []) p = Ok (lit "(-1.25,max_1]") /\ iv_contains (piv_set p) (TNum (NI 3)) (Some (fun _ => Some (NI 3))) = Ok true.
Proof. eexists. split; [vm_compute; reflexivity|]. cbn [pv_lo pv_hi tame pi_fmt pi_val]. repeat split; vm_compute; reflexivity. Qed.
Example C78_case_notation : clean (lit "12") /\ parse_item (lit "12") true = Ok (PI (VNum (NI 12)) true FStr) /\
  parse_item (lit "-0b11") false = Ok (PI (VNum (NI (-3))) false FBin) /\
  no_sp (lit " ! (1 2 ,-0b11] ") = bracket true true (lit "12") false (lit "-0b11") false false.
Proof. split; [constructor; try discriminate; try reflexivity; intros c r X; injection X as <- _; reflexivity|]. vm_compute. auto. Qed.
Example C78_case_numeral : numeral (lit "-01.50E-2") (NF (inject_Z (-150) * 10 ^ (-2 - 2))) /\ numeral (lit "+0x1F") (NI 31) /\
  parse_item (lit "-01.50E-2") false = Ok (PI (VNum (NF (-150 # 10000))) false (FExp 2 2)) /\
  exp_text 2 2 (-150 # 10000) = lit "-1.50e-02" /\ nearest (10 ^ (-2 - 2))%Q (-150 # 10000) (-150 # 10000).
Proof.
  split; [|split; [|split; [vm_compute; reflexivity|split; [vm_compute; reflexivity|]]]].
  - refine (n_float SMinus [0; 1] (lit "01") [5; 0] (lit "50") (lit "E-2") (-2) _ _ _ _); [repeat constructor; lia|repeat constructor; lia|discriminate|].
    refine (some_exp "E" SMinus [2] (lit "2") _ _ _); [auto|discriminate|repeat constructor; lia].
  - refine (n_int SPlus (lit "0x") 16 [1; 15] (lit "1F") bp_hex _ _ _); [|discriminate|discriminate].
    constructor; [split; [lia|left; reflexivity]|]. constructor; [split; [lia|right; reflexivity]|constructor].
  - exists (-150). split; [vm_compute; reflexivity|]. split; [vm_compute; discriminate|reflexivity].
Qed.
