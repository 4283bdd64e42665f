(** C79: builder definition strings, "{x|1<=x<=5}", denote the numbers that satisfy their statements. *)
From Coq Require Import QArith Ascii.
From Verif Require Import Base MathSet MathSpec MathFacts MathStr MathStrFacts MathBuild LitFacts BuildSpec BuildFacts.
Local Open Scope Z_scope.

(** * C79 *)
Lemma weak_same s v : s_non_strict s = true -> (holds (weak s) v <-> holds s v).
Proof.
  destruct s as [a r|r b|a r r' b]; cbn; [destruct r|destruct r|destruct r, r']; cbn; try discriminate; reflexivity.
Qed.
Lemma denotes_ext s (P Q : num -> Prop) n : (forall v, P v <-> Q v) -> denotes s P n -> denotes s Q n.
Proof. intros E (i & I & M). exists i. split; auto. intros v d F. destruct (M v d F) as (r & R & W). exists r. split; auto. rewrite W. apply E. Qed.
Lemma flip_iff c P Q : (P <-> Q) -> (flip c P <-> flip c Q).
Proof. destruct c; cbn; tauto. Qed.
(** one statement with <= and >=, spaces anywhere *)
Theorem C79_one_partial : forall s x st compl quote,
  no_sp s = b_text compl x (s_text x st) quote -> is_alpha x = true -> s_good st ->
  s_non_strict st = true -> (n_lower st <= 1)%nat -> (exists v, holds st v) ->
  denotes s (fun v => flip (xorb compl quote) (holds st v)) false.
Proof.
  intros s x st compl q H X G N L (v0 & V). eapply denotes_ext; [|eapply one_denotes; eauto].
  - intro v. cbn beta. apply flip_iff, weak_same. auto.
  - exists v0. apply weak_same; auto.
Qed.
(** two statements *)
Theorem C79_two_partial : forall s x st1 st2 compl quote,
  no_sp s = b_text compl x (s_text x st1 ++ lit "," ++ s_text x st2) quote -> is_alpha x = true -> s_good st1 -> s_good st2 ->
  s_non_strict st1 = true -> s_non_strict st2 = true -> (n_lower st1 + n_lower st2 <= 1)%nat -> (exists v, holds st1 v /\ holds st2 v) ->
  denotes s (fun v => flip (xorb compl quote) (holds st1 v /\ holds st2 v)) false.
Proof.
  intros s x st1 st2 compl q H X G1 G2 N1 N2 L (v0 & V1 & V2). eapply denotes_ext; [|eapply (two_denotes s x st1 st2); eauto].
  - intro v. cbn beta. apply flip_iff. rewrite !weak_same by auto. tauto.
  - exists v0. rewrite !weak_same; auto.
Qed.
(** exact effect of < and >: as <= and >= *)
Theorem C79_strict_is_closed : forall s x st1 st2 compl quote,
  no_sp s = b_text compl x (s_text x st1 ++ lit "," ++ s_text x st2) quote -> is_alpha x = true -> s_good st1 -> s_good st2 ->
  (n_lower st1 + n_lower st2 <= 1)%nat -> (exists v, holds (weak st1) v /\ holds (weak st2) v) ->
  denotes s (fun v => flip (xorb compl quote) (holds (weak st1) v /\ holds (weak st2) v)) false.
Proof. intros s x st1 st2 compl q H X G1 G2 L V. apply (two_denotes s x st1 st2 compl q); auto. Qed.
Theorem C79_strict_is_closed_one : forall s x st compl quote,
  no_sp s = b_text compl x (s_text x st) quote -> is_alpha x = true -> s_good st -> (n_lower st <= 1)%nat -> (exists v, holds (weak st) v) ->
  denotes s (fun v => flip (xorb compl quote) (holds (weak st) v)) false.
Proof. exact one_denotes. Qed.
(** every number in the notation of C78 may stand in a statement, with this very number *)
Theorem C79_numerals : forall t x, numeral t x -> exists y, neq y x /\ good (L t y).
Proof. intros t x H. destruct (numeral_reads t x H) as (C & y & f & E & P). exists y. split; auto. split; [apply (cl_ok _ C)|]. exists f. apply P. Qed.
(** x = a, a == x, x != a, ... *)
Theorem C79_equal_partial : forall s x left a o compl quote,
  no_sp s = b_text compl x (if left : bool then l_text a ++ eq_text o ++ [x] else x :: eq_text o ++ l_text a) quote -> is_alpha x = true -> good a ->
  denotes s (fun v => flip (xorb (xorb compl quote) (eq_neg o)) (neq v (l_num a))) false.
Proof. exact equal_denotes. Qed.
(** x e D *)
Theorem C79_domain_partial : forall s x big D ints lo hi compl quote,
  no_sp s = b_text compl x (x :: (if big : bool then "E"%char else "e"%char) :: lit D) quote -> is_alpha x = true -> In (D, ints, lo, hi) domains ->
  denotes s (fun v => flip (xorb compl quote) (in_domain ints lo hi v)) ints.
Proof. exact domain_denotes. Qed.
(** x e D, x <= b in either order *)
Theorem C79_domain_upper_partial : forall s x big D ints lo hi compl quote b st (first : bool),
  no_sp s = b_text compl x (if first then (x :: (if big : bool then "E"%char else "e"%char) :: lit D) ++ lit "," ++ s_text x st
                            else s_text x st ++ lit "," ++ x :: (if big then "E"%char else "e"%char) :: lit D) quote ->
  is_alpha x = true -> In (D, ints, lo, hi) domains -> good b -> st = SRight RLe b \/ st = SLeft b RGe ->
  nlt (l_num b) (fst hi) -> (exists v, in_domain ints lo hi v /\ nle v (l_num b)) ->
  denotes s (fun v => flip (xorb compl quote) (in_domain ints lo hi v /\ nle v (l_num b))) ints.
Proof. intros s x big D ints lo hi compl q b st first. apply domain_upper_denotes. Qed.
(** the short forms with the fixed variable x, and n for integers, mean the same as the long ones *)
Definition has_sign_char (t : text) : bool := existsb (fun c => Ascii.eqb c "<" || Ascii.eqb c ">" || Ascii.eqb c "=") t.
Definition starts_ok (t : text) : Prop := exists c r, t = c :: r /\ vchar c = true.
Theorem C79_short_partial : forall s compl body P n,
  no_sp s = (if compl : bool then lit "!" else []) ++ body -> has_sign_char body = true -> starts_ok body -> In "x"%char body ->
  denotes (b_text compl "x" body false) P n -> denotes s P n.
Proof.
  intros s compl body P n H B ST X (i & I & M). exists i. split; auto. eapply short_x; eauto. apply existsb_exists. exists "x"%char. auto.
Qed.
Theorem C79_short_integers_partial : forall s compl body P n,
  no_sp s = (if compl : bool then lit "!" else []) ++ body -> has_sign_char body = true -> starts_ok body -> In "n"%char body -> ~ In "x"%char body ->
  denotes (b_text compl "n" (lit "neZ," ++ body) false) P n -> denotes s P n.
Proof.
  intros s compl body P n H B ST N X (i & I & M). exists i. split; auto. eapply short_n; eauto.
  - destruct (existsb (is_c "x") body) eqn:E; auto. exfalso. apply X. apply existsb_exists in E as (c & C & E). apply Ascii.eqb_eq in E. subst. auto.
  - apply existsb_exists. exists "n"%char. auto.
Qed.

(** ** where it fails *)
Definition member (s : string) (v : num) : res bool := rbind (builder_str (lit s)) (fun i => b_contains i v None).
(** 1 is a member of {x|x>1}; of the documented {n| n e N , n<256 } 256 is one *)
Theorem C79_strict_refuted : member "{x|x>1}" (NI 1) = Ok true /\ member "{x|1<x<5}" (NI 5) = Ok true /\ member "{n| n e N , n<256 }" (NI 256) = Ok true.
Proof. vm_compute. auto. Qed.
(** statements that nothing satisfies denote the numbers between the limits *)
Theorem C79_empty_refuted : member "{x|5<=x<=1}" (NI 3) = Ok true /\ member "{n|n e N, n<=-5}" (NI (-3)) = Ok true.
Proof. vm_compute. auto. Qed.
(** documented {z| -128<=z<128, z e Z}: the lower limit is lost *)
Theorem C79_lower_lost_refuted : member "{z|  -128<=z<128, z e Z }" (NI (-1000)) = Ok true.
Proof. vm_compute. auto. Qed.
(** documented {x| x e Z, x> 10} and {x| x>10 , x>256 }: AttributeError *)
Theorem C79_second_lower_refuted : member "{x| x e Z, x> 10}" (NI 20) = Err AttributeError /\ member "{x| x>10 , x>256 }" (NI 300) = Err AttributeError.
Proof. vm_compute. auto. Qed.
(** documented {x| x=0} and {x|x>=0}: the number 0 is refused *)
Theorem C79_zero_refuted : member "{x| x=0}" (NI 0) = Err TypeError /\ member "{x|x>=0}" (NI 1) = Err TypeError.
Proof. vm_compute. auto. Qed.
(** a limit next to an open one of the domain *)
Theorem C79_domain_limit_refuted : member "{x|x e Z-, x<=00}" (NI 0) = Ok true /\ member "{x|x<=5, x e Z-}" (NI (-1)) = Err TypeError /\ member "{x|x e Z+, x<5}" (NI 0) = Ok true.
Proof. vm_compute. auto. Qed.
(** variables are accepted but never replaced *)
Theorem C79_variable_refuted : exists i, builder_str (lit "{x|x<=max}") = Ok i /\ b_contains i (NI 1) (Some (fun _ => Some (NI 5))) = Ok false.
Proof. eexists. split; [vm_compute; reflexivity|vm_compute; reflexivity]. Qed.
(** n<=0x1F contains an x *)
Theorem C79_short_refuted : member "n<=0x1F" (NI 3) = Err TypeError /\ member "{n|n e Z, n<=0x1F}" (NI 3) = Ok true.
Proof. vm_compute. auto. Qed.

(** cases *)
Lemma lit5 : good (L (lit "5.50") (NF (550 # 100))).
Proof. split; [reflexivity|]. eexists. vm_compute. reflexivity. Qed.
Lemma lit_m3 : good (L (lit "-0x3") (NI (-3))).
Proof. split; [reflexivity|]. eexists. vm_compute. reflexivity. Qed.
Example C79_case_one : denotes (lit " ! { y | -0x3 <= y <= 5.50 } ") (fun v => ~ (nle (NI (-3)) v /\ nle v (NF (550 # 100)))) false.
Proof.
  apply (C79_one_partial _ "y" (SBoth (L (lit "-0x3") (NI (-3))) RLe RLe (L (lit "5.50") (NF (550 # 100)))) true false); try reflexivity.
  - split; [apply lit_m3|apply lit5].
  - exists (NI 1). split; apply num_le_iff; reflexivity.
Qed.
Example C79_case_two : denotes (lit "{x|x>=-0x3, 5.50>=x}'") (fun v => ~ (nle (NI (-3)) v /\ nle v (NF (550 # 100)))) false.
Proof.
  apply (C79_two_partial _ "x" (SRight RGe (L (lit "-0x3") (NI (-3)))) (SLeft (L (lit "5.50") (NF (550 # 100))) RGe) false true); try reflexivity.
  - apply lit_m3.
  - apply lit5.
  - exists (NI 1). split; apply num_le_iff; reflexivity.
Qed.
Example C79_case_domain : denotes (lit "{n| n e N+ , n<=5.50}") (fun v => in_domain true (NI 1, false) (PInf, false) v /\ nle v (NF (550 # 100))) true.
Proof.
  apply (C79_domain_upper_partial _ "n" false "N+" true (NI 1, false) (PInf, false) false false (L (lit "5.50") (NF (550 # 100))) (SRight RLe (L (lit "5.50") (NF (550 # 100)))) true); auto.
  - vm_compute. auto.
  - apply lit5.
  - apply num_lt_iff. reflexivity.
  - exists (NI 2). split; [split; [apply num_le_iff; reflexivity|split; [apply num_le_iff; reflexivity|intros _; exists 2; apply neq_NI; auto]]|apply num_le_iff; reflexivity].
Qed.
Example C79_case_short : denotes (lit "n <= 5.50") (fun v => in_domain true (NInf, false) (PInf, false) v /\ nle v (NF (550 # 100))) true.
Proof.
  apply (C79_short_integers_partial _ false (lit "n<=5.50")); try reflexivity.
  - exists "n"%char, (lit "<=5.50"). split; reflexivity.
  - cbn. auto.
  - cbn. intros H. repeat (destruct H as [H|H]; [discriminate|]). exact H.
  - apply (C79_domain_upper_partial _ "n" false "Z" true (NInf, false) (PInf, false) false false (L (lit "5.50") (NF (550 # 100))) (SRight RLe (L (lit "5.50") (NF (550 # 100)))) true); auto.
    + vm_compute. tauto.
    + apply lit5.
    + apply num_lt_iff. reflexivity.
    + exists (NI 2). split; [split; [apply num_le_iff; reflexivity|split; [apply num_le_iff; reflexivity|intros _; exists 2; apply neq_NI; auto]]|apply num_le_iff; reflexivity].
Qed.
