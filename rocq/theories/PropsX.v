(** C80: roster definition strings and their printed form; C81: comparison of items. *)
From Coq Require Import QArith Ascii Permutation.
From Verif Require Import Base MathSet MathSpec MathFacts MathCard MathComb MathStr MathStrFacts LitFacts MathBuild BuildFacts RosterStr ItemModel PropsH.
Local Open Scope Z_scope.

(** ** specification *)
Fixpoint join (l : list text) : text := match l with [] => [] | [t] => t | t :: r => t ++ lit "," ++ join r end.
Definition r_text (compl : bool) (body : text) (quote : bool) : text := (if compl then lit "!" else []) ++ "{"%char :: body ++ "}"%char :: quote_text quote.
(** v is the value of an item, or of a variable that is an item *)
Definition listed (items : list pitem) (f : string -> option num) (v : num) : Prop :=
  exists i, In i items /\ ((exists n, pi_val i = VNum n /\ neq n v) \/ (exists s n, pi_val i = VVar s /\ f s = Some n /\ neq n v)).
(** no two items with the same value *)
Definition distinct (l : list pitem) : Prop := ForallOrdPairs (fun i j => val_eq (pi_val i) (pi_val j) = false) l.

(** ** facts *)
Lemma split_nocomma t : forallb (fun c => negb (is_c "," c)) t = true -> split_at "," t = [t].
Proof.
  induction t as [|c t IH]; auto. cbn [forallb]. intro H. apply andb_prop in H as [A B]. unfold is_c in A. apply Bool.negb_true_iff in A. cbn [split_at]. rewrite A, (IH B). auto.
Qed.
Lemma split_app t r : forallb (fun c => negb (is_c "," c)) t = true -> split_at "," (t ++ ","%char :: r) = t :: split_at "," r.
Proof.
  induction t as [|c t IH]; intro H; cbn [app split_at]; [rewrite Ascii.eqb_refl; auto|].
  cbn [forallb] in H. apply andb_prop in H as [A B]. unfold is_c in A. apply Bool.negb_true_iff in A. rewrite A, (IH B). auto.
Qed.
Lemma split_join ts : Forall (fun t => forallb (fun c => negb (is_c "," c)) t = true /\ t <> []) ts -> filter nonempty (split_at "," (join ts)) = ts.
Proof.
  assert (NE : forall t : text, t <> [] -> nonempty t = true) by (intros []; [congruence|auto]).
  induction 1 as [|t ts [A B] F IH]; [reflexivity|]. destruct ts as [|t' ts].
  - cbn [join]. rewrite split_nocomma by auto. cbn [filter]. rewrite NE; auto.
  - cbn [join] in *. change (lit "," ++ ?x) with (","%char :: x). rewrite split_app by auto. cbn [filter]. rewrite NE by auto. rewrite IH. auto.
Qed.
Lemma parse_items_ok ts items : Forall2 (fun t i => parse_item t false = Ok i) ts items -> parse_items ts = Ok items.
Proof. induction 1 as [|t i ts items P F IH]; auto. cbn [parse_items]. rewrite P, IH. auto. Qed.
Lemma roster_body s compl body q : no_sp s = r_text compl body q ->
  roster_parse s = match parse_items (filter nonempty (split_at "," body)) with Ok l => Ok (item_set l, xorb compl q) | Err e => Err e end.
Proof.
  intro H. unfold roster_parse. rewrite H. unfold r_text.
  assert (X : match (if compl then lit "!" else []) ++ "{"%char :: body ++ "}"%char :: quote_text q with
    | [] => Err IndexError
    | c :: r => let '(c1, d) := if Ascii.eqb c "!" then (true, r) else (false, c :: r) in
      match rev d with [] => Err IndexError | q :: m => let '(c2, d) := if Ascii.eqb q "'" then (negb c1, rev m) else (c1, d) in
        match d, rev d with a :: d', z :: _ => if negb (Ascii.eqb a "{") && negb (Ascii.eqb z "}") then Err TypeError
              else match parse_items (filter nonempty (split_at "," (removelast d'))) with Ok l => Ok (item_set l, c2) | Err e => Err e end
          | _, _ => Err IndexError end end end =
    let d := "{"%char :: body ++ "}"%char :: quote_text q in
      match rev d with [] => Err IndexError | q :: m => let '(c2, d) := if Ascii.eqb q "'" then (negb compl, rev m) else (compl, d) in
        match d, rev d with a :: d', z :: _ => if negb (Ascii.eqb a "{") && negb (Ascii.eqb z "}") then Err TypeError
              else match parse_items (filter nonempty (split_at "," (removelast d'))) with Ok l => Ok (item_set l, c2) | Err e => Err e end
          | _, _ => Err IndexError end end).
  { destruct compl; reflexivity. }
  rewrite X. clear X. cbn zeta. change ("{"%char :: body ++ "}"%char :: quote_text q) with (("{"%char :: body) ++ "}"%char :: quote_text q).
  assert (R : forall b : text, removelast (b ++ ["}"%char]) = b) by (intro b; rewrite removelast_app by discriminate; cbn; apply app_nil_r).
  assert (LR : rev (body ++ ["}"%char]) ++ ["{"%char] = "}"%char :: rev body ++ ["{"%char]) by (rewrite rev_app_distr; reflexivity).
  remember ("{"%char :: body) as b eqn:EB. destruct q; cbn [quote_text].
  - change ("}"%char :: lit "'") with (["}"%char] ++ ["'"%char]). rewrite app_assoc, rev_app_distr. cbn [rev app]. cbn [Ascii.eqb Bool.eqb].
    rewrite rev_involutive. subst b. cbn [app]. rewrite LR. cbn [Ascii.eqb Bool.eqb negb andb]. rewrite R. destruct compl; reflexivity.
  - rewrite rev_app_distr. cbn [rev app Ascii.eqb Bool.eqb]. subst b. cbn [app]. rewrite LR. cbn [Ascii.eqb Bool.eqb negb andb]. rewrite R. destruct compl; reflexivity.
Qed.
Lemma okc_nocomma t : forallb okc t = true -> forallb (fun c => negb (is_c "," c)) t = true.
Proof. apply forallb_imp. intros c H. unfold is_c. rewrite (cls_neq okc "," c); auto. Qed.
Definition reads_item (t : text) (i : pitem) : Prop := forallb okc t = true /\ parse_item t false = Ok i.
Lemma reads_ne t i : reads_item t i -> t <> [].
Proof. intros [_ P] E. subst t. discriminate. Qed.
Lemma roster_reads s compl ts items q : no_sp s = r_text compl (join ts) q -> Forall2 reads_item ts items ->
  roster_str s = Ok (PR (item_set items) (xorb compl q)).
Proof.
  intros H F. unfold roster_str. rewrite (roster_body _ _ _ _ H), split_join.
  - rewrite (parse_items_ok ts items); auto. clear H. induction F as [|t i ts items [A B] F IH]; constructor; auto.
  - clear H. induction F as [|t i ts items R F IH]; constructor; auto. split; [apply okc_nocomma, R|eapply reads_ne; eauto].
Qed.
(** sets of items *)
Lemma val_eq_trans a b c : val_eq a b = true -> val_eq b c = true -> val_eq a c = true.
Proof.
  destruct a, b, c; cbn; try discriminate; intros H K.
  - apply num_eq_iff in H, K. apply num_eq_iff. eapply neq_trans; eauto.
  - apply String.eqb_eq in H, K. subst. apply String.eqb_refl.
Qed.
Lemma val_eq_sym a b : val_eq a b = val_eq b a.
Proof. destruct a, b; cbn; auto; [unfold num_eq; apply andb_comm|apply String.eqb_sym]. Qed.
Definition hasp (l : list pitem) (v : sval) : bool := existsb (fun i => val_eq (pi_val i) v) l.
Lemma item_set_has l v : hasp (item_set l) v = hasp l v.
Proof.
  assert (G : forall l acc, hasp (fold_left add_item l acc) v = hasp acc v || hasp l v).
  { clear l. induction l as [|i l IH]; intro acc; cbn [fold_left]; [unfold hasp at 3; cbn; rewrite orb_false_r; auto|].
    rewrite IH. unfold add_item. destruct (existsb (fun j => val_eq (pi_val j) (pi_val i)) acc) eqn:E.
    - unfold hasp. cbn [existsb]. destruct (val_eq (pi_val i) v) eqn:V; auto. apply existsb_exists in E as (j & J & W).
      assert (existsb (fun i => val_eq (pi_val i) v) acc = true) as ->; auto. apply existsb_exists. exists j. split; auto. eapply val_eq_trans; eauto.
    - unfold hasp. rewrite existsb_app. cbn [existsb]. rewrite orb_false_r, orb_assoc. auto. }
  unfold item_set. rewrite G. auto.
Qed.
Lemma item_set_sub l : incl (item_set l) l.
Proof.
  assert (G : forall l acc, incl (fold_left add_item l acc) (acc ++ l)).
  { clear l. induction l as [|i l IH]; intro acc; cbn [fold_left]; [rewrite app_nil_r; apply incl_refl|].
    intros x X. apply IH in X. unfold add_item in X. destruct (existsb _ acc); apply in_app_or in X; apply in_or_app; destruct X as [X|X]; auto; [right; right; auto|apply in_app_or in X as [X|[X|[]]]; [auto|right; left; auto]|right; right; auto]. }
  apply (G l []).
Qed.
Lemma fop_app {A} (R : A -> A -> Prop) l m : ForallOrdPairs R l -> ForallOrdPairs R m -> (forall x y, In x l -> In y m -> R x y) -> ForallOrdPairs R (l ++ m).
Proof.
  induction 1 as [|a l F H IH]; cbn; auto. intros M X. constructor.
  - apply Forall_app. split; auto. apply Forall_forall. intros y Y. apply X; cbn; auto.
  - apply IH; [exact M|]. intros x y A1 B. apply X; cbn; auto.
Qed.
Lemma item_set_distinct l : distinct (item_set l).
Proof.
  assert (G : forall l acc, distinct acc -> distinct (fold_left add_item l acc)).
  { clear l. induction l as [|i l IH]; intros acc D; cbn [fold_left]; auto. apply IH. unfold add_item. destruct (existsb (fun j => val_eq (pi_val j) (pi_val i)) acc) eqn:E; auto.
    apply fop_app; [exact D|repeat constructor|]. intros x y X [<-|[]]. destruct (val_eq (pi_val x) (pi_val i)) eqn:V; auto. exfalso.
    assert (existsb (fun j => val_eq (pi_val j) (pi_val i)) acc = true) by (apply existsb_exists; eauto). congruence. }
  apply G. constructor.
Qed.
Lemma distinct_id_gen l acc : distinct (acc ++ l) -> fold_left add_item l acc = acc ++ l.
Proof.
  revert acc. induction l as [|i l IH]; intros acc D; cbn [fold_left]; [rewrite app_nil_r; auto|].
  assert (add_item acc i = acc ++ [i]) as ->.
  { unfold add_item. destruct (existsb (fun j => val_eq (pi_val j) (pi_val i)) acc) eqn:E; auto. exfalso. apply existsb_exists in E as (j & J & V).
    apply in_split in J as (a & b & ->). rewrite <- app_assoc in D. cbn in D. clear - D V. induction a as [|x a IH]; cbn in D; inversion D; subst; auto.
    rewrite Forall_forall in H1. rewrite H1 in V; [discriminate|]. apply in_or_app. right. left. auto. }
  rewrite IH; rewrite <- app_assoc; auto.
Qed.
Lemma distinct_id l : distinct l -> item_set l = l.
Proof. intro D. apply (distinct_id_gen l [] D). Qed.
Lemma distinct_perm l m : Permutation l m -> distinct l -> distinct m.
Proof.
  induction 1 as [|x l m P IH|x y l|l m k P IH P' IH']; auto; intro D.
  - inversion D as [|? ? F G]; subst. constructor; [|apply IH; auto]. rewrite Forall_forall in *. intros z Z. apply F. eapply Permutation_in; [apply Permutation_sym; eauto|auto].
  - inversion D as [|? ? F G]; subst. inversion G as [|? ? F' G']; subst. inversion F as [|? ? A B]; subst. repeat constructor; auto. rewrite val_eq_sym. auto.
Qed.
Lemma mk_roster_distinct l c : distinct l -> Forall (fun i => pi_open i = false) l -> mk_roster (map pi_si l) c = RO (map pi_val l) c.
Proof.
  intros D O. unfold mk_roster. f_equal. assert (E : filter (fun i => negb (si_open i)) (map pi_si l) = map pi_si l).
  { clear D. induction O as [|i l H O IH]; auto. cbn. rewrite H. cbn. rewrite IH. auto. }
  rewrite E, map_map. change (map (fun x => si_val (pi_si x)) l) with (map pi_val l). clear E O.
  assert (G : forall l acc, distinct (acc ++ l) -> fold_left add_val (map pi_val l) (map pi_val acc) = map pi_val (acc ++ l)).
  { clear l D. induction l as [|i l IH]; intros acc D; cbn [map fold_left]; [rewrite app_nil_r; auto|].
    assert (X : add_val (map pi_val acc) (pi_val i) = map pi_val (acc ++ [i])).
    { unfold add_val. rewrite map_app. destruct (has_val (map pi_val acc) (pi_val i)) eqn:E; auto. exfalso. apply existsb_exists in E as (w & W & V).
      apply in_map_iff in W as (j & <- & J). apply in_split in J as (a & b & ->). rewrite <- app_assoc in D. cbn in D. clear - D V. induction a as [|x a IH]; cbn in D; inversion D; subst; auto.
      rewrite Forall_forall in H1. rewrite H1 in V; [discriminate|]. apply in_or_app. right. left. auto. }
    rewrite X, IH; rewrite <- app_assoc; auto. }
  apply (G l [] D).
Qed.
Lemma same_distinct l m : Forall2 (fun j i => same_val (pi_val j) (pi_val i)) l m -> distinct m -> distinct l.
Proof.
  induction 1 as [|j i l m S F IH]; intro D; [constructor|]. inversion D as [|? ? A B]; subst. constructor; [|apply IH; auto].
  clear - S F A. induction F as [|j' i' l m S' F IH]; constructor; inversion A; subst; auto. rewrite (val_eq_same _ _ _ _ S S'). auto.
Qed.

(** * C80 *)
(** {t1,...,tn}, complement before or behind, spaces anywhere: the members are the numbers listed *)
Theorem C80_notation_partial : forall s compl ts items quote,
  no_sp s = r_text compl (join ts) quote -> Forall2 reads_item ts items ->
  exists p, roster_str s = Ok p /\ forall v d,
    (ro_contains (pr_set p) (TNum v) d = true <->
     let inside := listed items (match d with Some f => f | None => fun _ => None end) v in if xorb compl quote then ~ inside else inside).
Proof.
  intros s compl ts items q H F. eexists. split; [eapply roster_reads; eauto|]. intros v d. unfold pr_set. cbn [pr_items pr_compl]. rewrite C57_roster. cbn zeta.
  assert (O : Forall (fun i => pi_open i = false) items).
  { clear H. induction F as [|t i ts items [_ P] F IH]; constructor; auto. clear - P. unfold parse_item in P. destruct (strip is_sp t) as [|c r]; [discriminate|].
    repeat match type of P with context [if ?b then _ else _] => destruct b end; try discriminate; try (injection P as <-; reflexivity);
    match type of P with match parse_num ?v with _ => _ end = _ => destruct (parse_num v) as [[n f]|] end; try discriminate; injection P as <-; reflexivity. }
  assert (X : in_roster (map pi_si (item_set items)) (match d with Some f => f | None => fun _ => None end) v <-> listed items (match d with Some f => f | None => fun _ => None end) v).
  { set (f := match d with Some f => f | None => fun _ => None end). split.
    - intros (i & I & _ & C). apply in_map_iff in I as (j & <- & J). exists j. split; [apply item_set_sub; auto|exact C].
    - intros (j & J & C).
      assert (V : hasp (item_set items) (pi_val j) = true \/ pi_val j = VNum NaN).
      { destruct (pi_val j) as [n|z] eqn:PV; [|left].
        - destruct n; auto; left; rewrite item_set_has; apply existsb_exists; exists j; (split; auto); rewrite PV; unfold val_eq; apply num_eq_refl; discriminate.
        - rewrite item_set_has. apply existsb_exists. exists j. split; auto. rewrite PV. cbn. apply String.eqb_refl. }
      destruct V as [V|V]; [|destruct C as [(n & E & N)|(z & n & E & _)]; rewrite V in E; [injection E as <-; destruct N as [N _]; destruct v; contradiction|discriminate]].
      apply existsb_exists in V as (k & K & E). exists (pi_si k). split; [apply in_map; auto|]. split.
      + cbn. rewrite Forall_forall in O. apply O. apply item_set_sub. auto.
      + cbn [pi_si si_val]. destruct C as [(n & W & N)|(z & n & W & N)]; rewrite W in E; destruct (pi_val k) as [m|z']; try discriminate; cbn in E.
        * left. exists m. split; auto. apply num_eq_iff in E. eapply neq_trans; eauto.
        * right. apply String.eqb_eq in E. subst z'. exists z, n. auto. }
  destruct (xorb compl q); tauto.
Qed.
(** every number in the notation of C78 is read as this very number *)
Theorem C80_numerals : forall t x, numeral t x -> exists y f, neq y x /\ reads_item t (PI (VNum y) false f).
Proof. intros t x H. destruct (numeral_reads t x H) as (C & y & f & E & P). exists y, f. split; auto. split; [apply (cl_ok _ C)|apply P]. Qed.
(** printing (the items in any order) and reading again *)
Theorem C80_round_trip_partial : forall fstr items complement order,
  distinct items -> Forall (fun i => pi_open i = false) items -> Forall (printable fstr) items -> Permutation items order ->
  exists t q, roster_repr fstr order complement = Ok t /\ roster_str t = Ok q /\
    ro_eq (pr_set q) (pr_set (PR items complement)) = true /\
    forall v d, ro_contains (pr_set q) v d = ro_contains (pr_set (PR items complement)) v d.
Proof.
  intros fstr items c l D O P PM.
  assert (PL : Forall (printable fstr) l) by (rewrite Forall_forall in *; intros x X; apply P; eapply Permutation_in; [apply Permutation_sym; eauto|auto]).
  assert (OL : Forall (fun i => pi_open i = false) l) by (rewrite Forall_forall in *; intros x X; apply O; eapply Permutation_in; [apply Permutation_sym; eauto|auto]).
  assert (X : exists u ts js, join_items fstr l = Ok u /\ no_sp u = join ts /\ Forall2 reads_item ts js /\ Forall2 (fun j i => same_item j i) js l).
  { clear D O P PM. induction l as [|i l IH]; [exists [], [], []; repeat split; constructor|].
    inversion PL as [|? ? P1 P2]; subst. inversion OL as [|? ? O1 O2]; subst. destruct (IH P2 O2) as (u & ts & js & E & N & F & S).
    destruct (item_back fstr i P1) as (k & t & Et & Ct & j & Jt & St). rewrite O1 in Jt.
    assert (NT : no_sp (repeat " "%char k ++ t) = t) by (apply no_sp_pad, okc_nosp, (cl_ok _ Ct)).
    destruct l as [|i2 l].
    - cbn [join_items]. rewrite Et. exists (repeat " "%char k ++ t), [t], [j]. split; [reflexivity|]. split; [exact NT|]. split; (constructor; [|constructor]); [split; [apply (cl_ok _ Ct)|exact Jt]|exact St].
    - cbn [join_items] in *. rewrite Et. destruct ts as [|t2 ts]; [inversion F; subst; inversion S|]. rewrite E.
      exists ((repeat " "%char k ++ t) ++ lit "," ++ u), (t :: t2 :: ts), (j :: js). split; auto. split.
      + rewrite no_sp_app, NT, no_sp_app, N. reflexivity.
      + split; constructor; auto. split; [apply (cl_ok _ Ct)|auto]. }
  destruct X as (u & ts & js & E & N & F & S). unfold roster_repr. rewrite E.
  assert (OJ : Forall (fun i => pi_open i = false) js).
  { clear - S OL. induction S as [|j i js l [_ Sj] S IH]; constructor; inversion OL; subst; auto. congruence. }
  assert (DJ : distinct js).
  { apply (same_distinct js l); [|eapply distinct_perm; eauto]. clear - S. induction S as [|j i js l [Sj _] S IH]; constructor; auto. }
  eexists _, (PR (item_set js) (xorb c false)). split; [reflexivity|]. split.
  - eapply roster_reads; [|exact F]. unfold r_text. rewrite !no_sp_app, N. cbn [quote_text]. destruct c; reflexivity.
  - unfold pr_set. cbn [pr_items pr_compl]. rewrite xorb_false_r, (distinct_id js DJ), (mk_roster_distinct js c DJ OJ), (mk_roster_distinct items c D O).
    assert (V : forall v, has_val (map pi_val js) v = has_val (map pi_val items) v).
    { intro v. assert (A : has_val (map pi_val l) v = has_val (map pi_val items) v).
      { unfold has_val. apply Bool.eq_iff_eq_true. rewrite !existsb_exists. split; intros (w & W & Z); exists w; (split; auto); apply in_map_iff in W as (i & <- & I); apply in_map;
          (eapply Permutation_in; [|eauto]; auto). apply Permutation_sym; auto. }
      rewrite <- A. clear A. unfold has_val. clear - S. induction S as [|j i js l [Sj _] S IH]; auto. cbn [map existsb]. rewrite IH. f_equal.
      destruct v as [n|z], (pi_val j) as [a|a], (pi_val i) as [b|b]; cbn in Sj |- *; try contradiction; auto; [|subst; auto].
      unfold num_eq. assert (NN : n = NaN \/ n <> NaN) by (destruct n; auto; right; discriminate). destruct NN as [-> |NN]; [destruct a, b; reflexivity|].
      rewrite (num_le_neq a b n n Sj (neq_refl n NN)), (num_le_neq n n a b (neq_refl n NN) Sj). reflexivity. }
    split.
    + unfold ro_eq. cbn [ro_items ro_compl]. rewrite Bool.eqb_reflx, andb_true_r. apply andb_true_intro. split.
      * rewrite !map_length. apply Nat.eqb_eq. rewrite (Permutation_length PM). clear - S. induction S; cbn; auto.
      * apply forallb_forall. intros w W. rewrite <- V. unfold has_val. apply existsb_exists. exists w. split; auto.
        apply in_map_iff in W as (j & <- & J). clear - S J. induction S as [|j' i js l [Sj _] S IH]; [destruct J|]. destruct J as [J|J]; auto. subst j'.
        destruct (pi_val j) as [a|a], (pi_val i) as [b|b]; try contradiction; cbn; [|apply String.eqb_refl].
        apply num_eq_refl. destruct Sj as [Sj _]. apply nle_nn in Sj. tauto.
    + intros v d. apply ro_contains_ext; auto.
Qed.
(** every accepted text, excluded are exponents and a zero printed as "0" *)
Theorem C80_strings_partial : forall fstr s p order, roster_str s = Ok p -> Forall tame (pr_items p) -> Permutation (pr_items p) order ->
  exists t q, roster_repr fstr order (pr_compl p) = Ok t /\ roster_str t = Ok q /\ ro_eq (pr_set q) (pr_set p) = true /\
    forall v d, ro_contains (pr_set q) v d = ro_contains (pr_set p) v d.
Proof.
  intros fstr s p l H T PM.
  assert (X : distinct (pr_items p) /\ forall i, In i (pr_items p) -> exists t, parse_item t false = Ok i).
  { unfold roster_str in H. destruct (roster_parse s) as [[is c]|] eqn:R.
    - injection H as <-. cbn [pr_items]. unfold roster_parse in R. destruct (no_sp s) as [|a r]; [discriminate|].
      destruct (if Ascii.eqb a "!" then (true, r) else (false, a :: r)) as [c1 d]. destruct (rev d) as [|q m]; [discriminate|].
      destruct (if Ascii.eqb q "'" then (negb c1, rev m) else (c1, d)) as [c2 d2]. destruct d2 as [|a2 d2]; [discriminate|]. destruct (rev (a2 :: d2)) as [|z zs]; [discriminate|].
      destruct (negb (Ascii.eqb a2 "{") && negb (Ascii.eqb z "}")); [discriminate|].
      destruct (parse_items (filter nonempty (split_at "," (removelast d2)))) as [is0|] eqn:E; [|discriminate]. injection R as <- _.
      split; [apply item_set_distinct|]. intros i I. apply item_set_sub in I. clear T PM. revert is0 E I. generalize (filter nonempty (split_at "," (removelast d2))). clear.
      induction l as [|t l IH]; intros is0 E I; cbn [parse_items] in E; [injection E as <-; destruct I|].
      destruct (parse_item t false) as [j|] eqn:P; [|discriminate]. destruct (parse_items l) as [k|] eqn:Q; [|discriminate]. injection E as <-. destruct I as [<-|I]; eauto.
    - destruct (parse_item s false) as [i|] eqn:P; [|discriminate]. injection H as <-. cbn [pr_items]. split; [repeat constructor|]. intros j [<-|[]]. eauto. }
  destruct X as [D R]. destruct p as [is c]. cbn [pr_items pr_compl] in *. apply C80_round_trip_partial; auto.
  - apply Forall_forall. intros i I. destruct (R i I) as [t P]. clear - P. unfold parse_item in P. destruct (strip is_sp t) as [|c r]; [discriminate|].
    repeat match type of P with context [if ?b then _ else _] => destruct b end; try discriminate; try (injection P as <-; reflexivity);
    match type of P with match parse_num ?v with _ => _ end = _ => destruct (parse_num v) as [[n f]|] end; try discriminate; injection P as <-; reflexivity.
  - apply Forall_forall. intros i I. destruct (R i I) as [t P]. eapply parse_printable; eauto. rewrite Forall_forall in T. auto.
Qed.
(** a text without braces is one item: mSetRoster("5") is {5} *)
Theorem C80_single : forall s i v d, (forall c, In c s -> c <> "{"%char /\ c <> "}"%char) -> parse_item s false = Ok i ->
  exists p, roster_str s = Ok p /\
    (ro_contains (pr_set p) (TNum v) d = true <-> listed [i] (match d with Some f => f | None => fun _ => None end) v).
Proof.
  intros s i v d NB P.
  assert (E : exists e, roster_parse s = Err e).
  { assert (B : forall c, In c (no_sp s) -> c <> "{"%char /\ c <> "}"%char) by (intros c I; apply NB; apply filter_In in I; tauto).
    unfold roster_parse. destruct (no_sp s) as [|a r]; [eauto|].
    assert (B1 : forall c1 d1, (if Ascii.eqb a "!" then (true, r) else (false, a :: r)) = (c1, d1) -> forall c, In c d1 -> c <> "{"%char /\ c <> "}"%char).
    { intros c1 d1 E. destruct (Ascii.eqb a "!"); injection E as <- <-; intros c I; apply B; cbn; auto. }
    destruct (if Ascii.eqb a "!" then (true, r) else (false, a :: r)) as [c1 d1]. specialize (B1 c1 d1 eq_refl).
    destruct (rev d1) as [|q m] eqn:R; [eauto|].
    assert (B2 : forall c2 d2, (if Ascii.eqb q "'" then (negb c1, rev m) else (c1, d1)) = (c2, d2) -> forall c, In c d2 -> c <> "{"%char /\ c <> "}"%char).
    { intros c2 d2 E. destruct (Ascii.eqb q "'"); injection E as <- <-; intros c I; apply B1; auto. apply in_rev. rewrite R. right. apply in_rev. exact I. }
    destruct (if Ascii.eqb q "'" then (negb c1, rev m) else (c1, d1)) as [c2 d2]. specialize (B2 c2 d2 eq_refl).
    destruct d2 as [|a2 d2]; [eauto|]. destruct (rev (a2 :: d2)) as [|z zs] eqn:R2; [eauto|].
    assert (Za : a2 <> "{"%char) by (apply B2; left; auto). assert (Zz : z <> "}"%char) by (apply B2; apply in_rev; rewrite R2; left; auto).
    apply Ascii.eqb_neq in Za, Zz. rewrite Za, Zz. cbn [negb andb]. eauto. }
  destruct E as [e E]. exists (PR [i] false). split; [unfold roster_str; rewrite E, P; reflexivity|].
  unfold pr_set. cbn [pr_items pr_compl]. rewrite C57_roster. cbn zeta.
  assert (O : pi_open i = false).
  { clear - P. unfold parse_item in P. destruct (strip is_sp s) as [|c r]; [discriminate|].
    repeat match type of P with context [if ?b then _ else _] => destruct b end; try discriminate; try (injection P as <-; reflexivity);
    match type of P with match parse_num ?v with _ => _ end = _ => destruct (parse_num v) as [[n f]|] end; try discriminate; injection P as <-; reflexivity. }
  split.
  - intros (j & [<-|[]] & _ & C). exists i. split; [left; auto|exact C].
  - intros (j & [<-|[]] & C). exists (pi_si i). split; [left; auto|]. split; [exact O|exact C].
Qed.
(** the item 0 is printed as "0", which is refused *)
Theorem C80_zero_refuted : forall fstr, roster_repr fstr [num_item (NI 0) false; num_item (NI 1) false] false = Ok (lit "{0,1}") /\ roster_str (lit "{0,1}") = Err TypeError.
Proof. intro. vm_compute. auto. Qed.
(** a missing bracket: the last or first character of the text disappears *)
Theorem C80_malformed_refuted :
  roster_str (lit "{1,2") = Ok (PR [num_item (NI 1) false] false) /\ roster_str (lit "15}") = Ok (PR [num_item (NI 5) false] false) /\
  roster_str (lit "{1,25") = Ok (PR [num_item (NI 1) false; num_item (NI 2) false] false).
Proof. vm_compute. auto. Qed.
(** cases *)
Example C80_case : exists p, roster_str (lit " ! { 1 , 0x1F, 1.0, a_1 } ' ") = Ok p /\ Forall tame (pr_items p) /\ length (pr_items p) = 3%nat /\
  roster_repr (fun _ => []) (rev (pr_items p)) (pr_compl p) = Ok (lit "{a_1,0x1f,1}") /\ ro_contains (pr_set p) (TNum (NI 31)) None = true /\
  ro_contains (pr_set p) (TNum (NI 9)) (Some (fun _ => Some (NI 9))) = true.
Proof.
  eexists. split; [vm_compute; reflexivity|]. cbn [pr_items pr_compl]. repeat split; try (vm_compute; reflexivity).
  repeat constructor; cbn; try exact Logic.I. intros [A _]. apply num_le_iff in A. discriminate.
Qed.
Example C80_case_notation : no_sp (lit "{ 1, b}'") = r_text false (join [lit "1"; lit "b"]) true /\
  Forall2 reads_item [lit "1"; lit "b"] [PI (VNum (NI 1)) false FStr; PI (VVar "b") false FStr].
Proof. split; [reflexivity|]. repeat constructor. Qed.

(** * C81 *)
Definition is_num (o : operand) (n : num) : Prop := op_val o = VNum n.
(** items without variables compare like their numbers, whatever the open/closed flag; with a
    variable the result is None *)
Theorem C81_order : forall a b x y, si_val a = VNum x -> is_num b y ->
  item_lt a b = Ok (Some (num_lt x y)) /\ item_le a b = Ok (Some (num_le x y)) /\ item_gt a b = Ok (Some (num_lt y x)) /\ item_ge a b = Ok (Some (num_le y x)) /\
  (num_lt x y = true <-> nlt x y) /\ (num_le x y = true <-> nle x y).
Proof.
  intros a b x y A B. unfold item_lt, item_le, item_gt, item_ge, item_cmp. rewrite A. unfold is_num in B.
  repeat split; try apply num_lt_iff; try apply num_le_iff; auto; try (intro H; apply num_lt_iff in H; exact H); destruct b as [[[]]|[]]; cbn in B; congruence.
Qed.
Theorem C81_order_variable : forall a i, is_var (si_val a) = true \/ is_var (si_val i) = true ->
  item_lt a (OItem i) = Ok None /\ item_le a (OItem i) = Ok None /\ item_gt a (OItem i) = Ok None /\ item_ge a (OItem i) = Ok None.
Proof. intros [[x|s] o] [[y|t] p]; cbn; intros [H|H]; try discriminate; auto. Qed.
(** items of the same kind (both closed or both open): == is an equivalence and agrees with the hash *)
Theorem C81_equality_partial : forall o, let R := fun a b : sval => sitem_eq (SI a o) (SI b o) = true in
  (forall a, a <> VNum NaN -> R a a) /\ (forall a b, R a b -> R b a) /\ (forall a b c, R a b -> R b c -> R a c) /\
  (forall a b, R a b <-> match a, b with VNum x, VNum y => neq x y | VVar s, VVar t => s = t | _, _ => False end) /\
  (forall h h2 a b, (forall v w, val_eq v w = true -> h v = h w /\ h2 v = h2 w) -> R a b -> item_hash h h2 (SI a o) = item_hash h h2 (SI b o)).
Proof.
  intros o R. assert (E : forall a b, R a b <-> val_eq a b = true) by (intros a b; unfold R, sitem_eq; cbn [si_open si_val]; rewrite xorb_nilpotent; reflexivity).
  repeat split.
  - intros a N. apply E. destruct a as [n|s]; cbn; [apply num_eq_refl; congruence|apply String.eqb_refl].
  - intros a b H. apply E. rewrite val_eq_sym. apply E. auto.
  - intros a b c H K. apply E. eapply val_eq_trans; apply E; eauto.
  - intro H. apply E in H. destruct a, b; cbn in H; try discriminate; [apply num_eq_iff; auto|apply String.eqb_eq; auto].
  - intro H. apply E. destruct a, b; cbn; try contradiction; [apply num_eq_iff; auto|subst; apply String.eqb_refl].
  - intros h h2 a b HH H. apply E in H. destruct (HH _ _ H) as [H1 H2]. unfold item_hash. cbn. destruct o; auto.
Qed.
(** a closed item equals a plain number exactly when the numbers are equal, and has its hash *)
Theorem C81_plain_partial : forall n m h h2, (item_eq (SI (VNum n) false) (OVal (VNum m)) = true <-> neq n m) /\ item_hash h h2 (SI (VNum n) false) = h (VNum n).
Proof. intros. cbn. split; auto. apply num_eq_iff. Qed.
(** a closed and an open item are "equal" when their numbers differ: not transitive, and equal
    items have different hashes whatever the hash function (unless it confuses 1 and (2, True)) *)
Theorem C81_mixed_refuted : forall h h2, let a := SI (VNum (NI 1)) false in let b := SI (VNum (NI 2)) true in let c := SI (VNum (NI 3)) false in
  sitem_eq a b = true /\ sitem_eq b c = true /\ sitem_eq a c = false /\ sitem_eq a (SI (VNum (NI 1)) true) = false /\
  item_eq b (OVal (VNum (NI 1))) = true /\ (h (VNum (NI 1)) <> h2 (VNum (NI 2)) -> item_hash h h2 a <> item_hash h h2 b).
Proof. intros. cbn. repeat split; auto. Qed.
(** float(item) orders like the item; the float of a variable is not even equal to itself *)
Theorem C81_float : forall a b, (item_lt a (OItem b) = Ok (Some true) <-> nlt (item_float a) (item_float b)) /\
  (is_var (si_val a) = true -> forall n, ~ nle (item_float a) n /\ ~ nle n (item_float a)).
Proof.
  intros [[x|s] o] [[y|t] p]; cbn; split.
  - split; [intros E; apply num_lt_iff; congruence|]. intros H. apply num_lt_iff in H. rewrite H. reflexivity.
  - discriminate.
  - split; [discriminate|]. intros [H _]. destruct x; destruct H.
  - discriminate.
  - split; [discriminate|]. intros [H _]. destruct H.
  - intros _ n. split; [intros []|destruct n; intros []].
  - split; [discriminate|]. intros [H _]. destruct H.
  - intros _ n. split; [intros []|destruct n; intros []].
Qed.
Example C81_case : item_lt (SI (VNum (NF (1 # 2))) true) (OItem (SI (VNum (NI 1)) false)) = Ok (Some true) /\
  sitem_eq (SI (VNum (NF (2 # 2))) true) (SI (VNum (NI 1)) true) = true.
Proof. vm_compute. auto. Qed.
Print Assumptions C80_single.
