(** Proofs about the set objects *)
From Coq Require Import QArith.
From Verif Require Import Base MathSet MathSpec.
Local Open Scope Z_scope.

Lemma rbind_ok {A B} (r : res A) a (k : A -> res B) : r = Ok a -> rbind r k = k a.
Proof. intros ->. reflexivity. Qed.

(** ** intervals *)
Lemma op_le_iff strict a b : op_le strict a b = true <-> (if strict then nlt a b else nle a b).
Proof. destruct strict; cbn; [apply num_lt_iff|apply num_le_iff]. Qed.

(** membership of one number in an interval with known bounds *)
Definition raw_in (l u : num) (ls us : bool) (v : num) : Prop :=
  (if ls then nlt l v else nle l v) /\ (if us then nlt v u else nle v u).

Lemma iv_num_spec i l u v : (iv_int i = true -> finite v) ->
  exists b, iv_num i (VNum l, VNum u) v = Ok b /\
    (b = true <-> (let inside := raw_in l u (iv_lstrict i) (iv_ustrict i) v /\ (iv_int i = true -> is_integer v) in
                   if iv_compl i then ~ inside else inside)).
Proof.
  intro F. unfold iv_num, raw_in.
  assert (I : exists bi, (if iv_int i then integral v else Ok true) = Ok bi /\ (bi = true <-> (iv_int i = true -> is_integer v))).
  { destruct (iv_int i).
    - destruct (integral_iff v (F eq_refl)) as (b & E & H). exists b. split; auto. rewrite H. tauto.
    - exists true. split; auto. split; auto. discriminate. }
  destruct I as (bi & E & H). rewrite (rbind_ok _ _ _ E). cbn [fst snd cmp_lo cmp_hi rbind].
  pose proof (op_le_iff (iv_lstrict i) l v) as HL. pose proof (op_le_iff (iv_ustrict i) v u) as HU.
  assert (X : forall c b P, (b = true <-> P) -> exists r, Ok (xorb c b) = Ok r /\ (r = true <-> if c then ~ P else P)).
  { intros c b P W. eexists. split; [reflexivity|]. destruct c, b; cbn; intuition discriminate. }
  destruct bi.
  - cbn [rbind]. destruct (op_le (iv_lstrict i) l v); cbn [rbind].
    + apply X. rewrite HU. cbn zeta. tauto.
    + apply X. split; [discriminate|]. intros [[Q _] _]. apply HL in Q. discriminate.
  - cbn [rbind]. apply X. split; [discriminate|]. intros [_ Q]. apply H in Q. discriminate.
Qed.

Lemma num_lt_false a b : num_lt b a = false -> a <> NaN -> b <> NaN -> nle a b.
Proof.
  intros E A B. destruct (nle_dec a b); auto. exfalso.
  assert (nlt b a). { split; auto. destruct (nle_total a b A B); tauto. }
  apply num_lt_iff in H. congruence.
Qed.

(** the interval object built from two numbers *)
Definition ordered (x y a b : num * bool) : Prop :=
  (x = a /\ y = b /\ num_lt (fst b) (fst a) = false) \/ (x = b /\ y = a /\ nlt (fst b) (fst a)).
Lemma mk_shape a b n c : exists x y, ordered x y (lower_of a) (upper_of b) /\
  mk a b n c = if num_eq (fst y) (fst x) && (negb (snd x) || negb (snd y)) then IV (bnd x) (bnd y) false false n c
               else IV (bnd x) (bnd y) (snd x) (snd y) n c.
Proof.
  unfold mk, mk_interval.
  assert (EA : match option_map bnd a with Some i => i | None => SI (VNum NInf) false end = bnd (lower_of a)) by (destruct a; reflexivity).
  assert (EB : match option_map bnd b with Some i => i | None => SI (VNum PInf) false end = bnd (upper_of b)) by (destruct b; reflexivity).
  rewrite EA, EB. clear EA EB. generalize (lower_of a) (upper_of b). clear a b. intros a b.
  cbn [bnd si_val]. destruct (num_lt (fst b) (fst a)) eqn:E.
  - exists b, a. split. { right. apply num_lt_iff in E. auto. } reflexivity.
  - exists a, b. split. { left. auto. } reflexivity.
Qed.

Lemma between_ordered x y a b v : ordered x y a b ->
  (between a b v <-> between x y v).
Proof. intros [(-> & -> & _)|(-> & -> & _)]; [reflexivity|]. unfold between. tauto. Qed.
Lemma hop_ordered x y a b : ordered x y a b -> (half_open_point a b <-> half_open_point x y).
Proof.
  intros [(-> & -> & _)|(-> & -> & _)]; [reflexivity|]. unfold half_open_point, neq.
  split; intros [K L]; (split; [tauto|congruence]).
Qed.
Lemma ordered_le x y a b : ordered x y a b -> num_lt (fst y) (fst x) = false.
Proof.
  intros [(-> & -> & E)|(-> & -> & E)]; auto.
  destruct (num_lt (fst a) (fst b)) eqn:Y; auto. apply num_lt_iff in Y. destruct Y, E. tauto.
Qed.

(** between two ordered bounds *)
Lemma between_raw x y v : num_lt (fst y) (fst x) = false -> ~ half_open_point x y ->
  (between x y v <-> raw_in (fst x) (fst y) (snd x) (snd y) v).
Proof.
  intros L H. unfold between, raw_in, above, under. split.
  - intros [(A & B & C)|(A & B & C)]; auto.
    (* then the bounds are equal *)
    destruct (nle_nn _ _ A) as [N1 N2].
    assert (E : neq (fst x) (fst y)). { split; auto. apply num_lt_false; auto. }
    assert (S : snd x = snd y). { destruct (Bool.bool_dec (snd x) (snd y)); auto. exfalso. apply H. split; auto. }
    rewrite <- S in *. unfold nlt in *. destruct (snd x).
    + rewrite (neq_le_l _ _ v E), (neq_le_r _ _ v E) in *. tauto.
    + rewrite (neq_le_l _ _ v E), (neq_le_r _ _ v E) in *. tauto.
  - intros [A B]. left. split; [|auto].
    assert (nle (fst x) v) by (destruct (snd x); [apply A|auto]).
    assert (nle v (fst y)) by (destruct (snd y); [apply B|auto]).
    eapply nle_trans; eauto.
Qed.

Theorem membership a b n c v d : ~ half_open_point (lower_of a) (upper_of b) -> (n = true -> finite v) ->
  exists r, iv_contains (mk a b n c) (TNum v) d = Ok r /\
            (r = true <-> in_interval (lower_of a) (upper_of b) n c v).
Proof.
  intros H F. destruct (mk_shape a b n c) as (x & y & O & E). rewrite E.
  pose proof (ordered_le _ _ _ _ O) as L. pose proof (proj1 (not_iff_compat (hop_ordered _ _ _ _ O)) H) as H'.
  unfold in_interval. 
  assert (X : forall ls us, (forall v, raw_in (fst x) (fst y) ls us v <-> raw_in (fst x) (fst y) (snd x) (snd y) v) ->
    exists r, iv_contains (IV (bnd x) (bnd y) ls us n c) (TNum v) d = Ok r /\
      (r = true <-> (let inside := between (lower_of a) (upper_of b) v /\ (n = true -> is_integer v) in if c then ~ inside else inside))).
  { intros ls us W. unfold iv_contains, limits. cbn [iv_lo iv_hi bnd si_val subst_val iv_test].
    destruct (iv_num_spec (IV (bnd x) (bnd y) ls us n c) (fst x) (fst y) v F) as (r & E1 & E2).
    exists r. split; [exact E1|]. rewrite E2. cbn [iv_lstrict iv_ustrict iv_int iv_compl].
    pose proof (between_ordered _ _ _ _ v O) as B1. pose proof (between_raw _ _ v L H') as B2. specialize (W v).
    destruct c; cbn zeta; tauto. }
  destruct (num_eq (fst y) (fst x) && (negb (snd x) || negb (snd y))) eqn:G; apply X; [|reflexivity].
  apply andb_true_iff in G as [G1 G2]. apply num_eq_iff, neq_sym in G1.
  assert (S : snd x = snd y). { destruct (Bool.bool_dec (snd x) (snd y)); auto. exfalso. apply H'. split; auto. }
  rewrite <- S in *. destruct (snd x); [discriminate|]. reflexivity.
Qed.

(** the one-point interval with one open end holds the point *)
Lemma half_open_contains a b n c v d : half_open_point (lower_of a) (upper_of b) -> (n = true -> finite v) ->
  exists r, iv_contains (mk a b n c) (TNum v) d = Ok r /\
    (r = true <-> (let inside := neq v (fst (lower_of a)) /\ (n = true -> is_integer v) in if c then ~ inside else inside)).
Proof.
  intros H F. destruct (mk_shape a b n c) as (x & y & O & E). rewrite E.
  pose proof (proj1 (hop_ordered _ _ _ _ O) H) as [EQ SN].
  assert (G : num_eq (fst y) (fst x) && (negb (snd x) || negb (snd y)) = true).
  { apply andb_true_iff. split; [apply num_eq_iff, neq_sym; auto|]. destruct (snd x), (snd y); auto; congruence. }
  rewrite G. unfold iv_contains, limits. cbn [iv_lo iv_hi bnd si_val subst_val iv_test].
  destruct (iv_num_spec (IV (bnd x) (bnd y) false false n c) (fst x) (fst y) v F) as (r & E1 & E2).
  exists r. split; [exact E1|]. rewrite E2. cbn [iv_lstrict iv_ustrict iv_int iv_compl raw_in].
  assert (Z : neq v (fst (lower_of a)) <-> (nle (fst x) v /\ nle v (fst y))).
  { assert (K : neq (fst (lower_of a)) (fst x)).
    { destruct O as [(-> & -> & _)|(-> & -> & _)]; [|apply neq_sym; auto].
      destruct EQ as [P Q]. destruct (nle_nn _ _ P). split; apply nle_refl; auto. }
    unfold neq at 1. rewrite (neq_le_r _ _ v K), (neq_le_l _ _ v K), (neq_le_r _ _ v EQ). tauto. }
  unfold raw_in. destruct c; cbn zeta; tauto.
Qed.

Lemma in_interval_swap a b n c v : in_interval a b n c v <-> in_interval b a n c v.
Proof. unfold in_interval, between. destruct c; tauto. Qed.

(** order of the bounds; also inf for int_only raises in both *)
Lemma mk_swap a b n c v d : 
  iv_contains (mk (Some a) (Some b) n c) (TNum v) d = iv_contains (mk (Some b) (Some a) n c) (TNum v) d.
Proof.
  assert (F : (n = true -> finite v) \/ (n = true /\ (v = PInf \/ v = NInf \/ v = NaN))).
  { destruct n; [|left; discriminate]. destruct v; cbn; auto. all: right; auto. }
  destruct F as [F|[-> F]].
  - destruct (num_eq (fst a) (fst b) && xorb (snd a) (snd b)) eqn:G.
    + apply andb_true_iff in G as [G1 G2]. apply num_eq_iff in G1.
      assert (S : snd a <> snd b) by (destruct (snd a), (snd b); discriminate).
      destruct (half_open_contains (Some a) (Some b) n c v d) as (r & E1 & E2); auto. { split; auto. }
      destruct (half_open_contains (Some b) (Some a) n c v d) as (r' & E3 & E4); auto. { split; [apply neq_sym; auto|cbn; congruence]. }
      rewrite E1, E3. f_equal. cbn [lower_of upper_of] in *.
      assert (neq v (fst a) <-> neq v (fst b)).
      { unfold neq. rewrite (neq_le_r _ _ v G1), (neq_le_l _ _ v G1). reflexivity. }
      assert (r = true <-> r' = true) by (rewrite E2, E4; destruct c; cbn zeta; tauto).
      destruct r, r'; intuition congruence.
    + assert (N : ~ half_open_point a b).
      { intros [P Q]. apply num_eq_iff in P. rewrite P in G. destruct (snd a), (snd b); try discriminate; congruence. }
      destruct (membership (Some a) (Some b) n c v d) as (r & E1 & E2); auto.
      destruct (membership (Some b) (Some a) n c v d) as (r' & E3 & E4); auto.
      { intros [P Q]. apply N. split; [apply neq_sym; auto|cbn in *; congruence]. }
      rewrite E1, E3. f_equal. cbn [lower_of upper_of] in *. rewrite in_interval_swap, <- E2 in E4.
      destruct r, r'; intuition congruence.
  - destruct (mk_shape (Some a) (Some b) true c) as (x & y & _ & E). destruct (mk_shape (Some b) (Some a) true c) as (x' & y' & _ & E').
    rewrite E, E'. unfold iv_contains.
    destruct (num_eq (fst y) (fst x) && _), (num_eq (fst y') (fst x') && _); cbn; destruct F as [-> | [-> | ->]]; reflexivity.
Qed.

(** ** all tested values *)
Fixpoint tval_ind' (P : tval -> Prop) (HN : forall n, P (TNum n)) (HS : forall s, P (TStr s))
  (HL : forall l, (forall v, In v l -> P v) -> P (TSeq l)) (v : tval) {struct v} : P v :=
  match v with
  | TNum n => HN n
  | TStr s => HS s
  | TSeq l => HL l ((fix go (l : list tval) : forall v, In v l -> P v :=
                       match l with
                       | [] => fun v H => match H with end
                       | x :: r => fun v H => match H with or_introl E => eq_ind x P (tval_ind' P HN HS HL x) v E | or_intror H => go r v H end
                       end) l)
  end.

Lemma iv_test_seq i lims l : iv_test i lims (TSeq l) = res_all (iv_test i lims) l.
Proof. cbn. induction l; cbn; auto. destruct (iv_test i lims a) as [[|]|]; cbn; auto. Qed.
Lemma res_all_ext {A} (f g : A -> res bool) l : (forall x, In x l -> f x = g x) -> res_all f l = res_all g l.
Proof.
  induction l; cbn; auto. intro H. rewrite (H a) by auto. destruct (g a) as [[|]|]; cbn; auto.
Qed.
Lemma iv_test_ext i j li lj : (forall n, iv_num i li n = iv_num j lj n) -> iv_compl i = iv_compl j ->
  forall v, iv_test i li v = iv_test j lj v.
Proof.
  intros H C. induction v using tval_ind'; cbn [iv_test]; auto. { rewrite C. auto. }
  change (iv_test i li (TSeq l) = iv_test j lj (TSeq l)). rewrite !iv_test_seq. apply res_all_ext. auto.
Qed.
Lemma mk_int a b n c : iv_int (mk a b n c) = n /\ iv_compl (mk a b n c) = c.
Proof. destruct (mk_shape a b n c) as (x & y & _ & ->). destruct (_ && _); auto. Qed.
Lemma mk_swap_all a b n c v d : iv_contains (mk (Some a) (Some b) n c) v d = iv_contains (mk (Some b) (Some a) n c) v d.
Proof.
  unfold iv_contains. apply iv_test_ext.
  - intro m. apply (mk_swap a b n c m d).
  - destruct (mk_int (Some a) (Some b) n c) as [_ ->], (mk_int (Some b) (Some a) n c) as [_ ->]. auto.
Qed.

(** bounds with variables *)
Definition resolve (f : string -> option num) (v : sval) : option num := match v with VNum n => Some n | VVar s => f s end.
Lemma resolve_subst f v n : resolve f v = Some n -> subst_val (Some f) v = VNum n.
Proof. destruct v; cbn; intro H. { congruence. } rewrite H. auto. Qed.
Lemma vars_contains lo hi n c f l u v : is_var (si_val lo) || is_var (si_val hi) = true ->
  resolve f (si_val lo) = Some l -> resolve f (si_val hi) = Some u ->
  nle l u -> ~ half_open_point (l, si_open lo) (u, si_open hi) -> (n = true -> finite v) ->
  exists r, iv_contains (mk_interval (Some lo) (Some hi) n c) (TNum v) (Some f) = Ok r /\
            (r = true <-> in_interval (l, si_open lo) (u, si_open hi) n c v).
Proof.
  intros V RL RU LE H F.
  assert (E : exists ls us, mk_interval (Some lo) (Some hi) n c = IV lo hi ls us n c /\
     ((ls = si_open lo /\ us = si_open hi) \/ (ls = false /\ us = false /\ val_eq (si_val hi) (si_val lo) = true /\ (si_open lo = false \/ si_open hi = false)))).
  { unfold mk_interval.
    assert (E : match si_val lo, si_val hi with VNum a, VNum b => if num_lt b a then (hi, lo) else (lo, hi) | _, _ => (lo, hi) end = (lo, hi)).
    { destruct (si_val lo), (si_val hi); auto. discriminate. }
    rewrite E. destruct (val_eq (si_val hi) (si_val lo)); cbn [andb].
    - destruct (si_open lo), (si_open hi); cbn; do 2 eexists; (split; [reflexivity|]); auto 10.
    - do 2 eexists. split; [reflexivity|]. auto. }
  destruct E as (ls & us & -> & S).
  assert (S' : ls = si_open lo /\ us = si_open hi).
  { destruct S as [S|(-> & -> & EQ & O)]; auto.
    assert (neq l u).
    { split; auto. destruct (si_val lo), (si_val hi); cbn in *; try discriminate.
      apply String.eqb_eq in EQ. subst. rewrite RL in RU. injection RU as ->. apply nle_nn in LE. apply nle_refl. tauto. }
    destruct (si_open lo) eqn:X, (si_open hi) eqn:Y; auto; try (destruct O; discriminate); exfalso; apply H; split; auto; discriminate. }
  destruct S' as [-> ->].
  unfold iv_contains, limits. cbn [iv_lo iv_hi iv_test]. rewrite (resolve_subst _ _ _ RL), (resolve_subst _ _ _ RU).
  destruct (iv_num_spec (IV lo hi (si_open lo) (si_open hi) n c) l u v F) as (r & E1 & E2).
  exists r. split; [exact E1|]. rewrite E2. cbn [iv_lstrict iv_ustrict iv_int iv_compl]. unfold in_interval.
  assert (L : num_lt (fst (u, si_open hi)) (fst (l, si_open lo)) = false).
  { cbn. destruct (num_lt u l) eqn:Y; auto. apply num_lt_iff in Y. destruct Y. contradiction. }
  pose proof (between_raw _ _ v L H) as B. cbn [fst snd] in B. destruct c; cbn zeta; tauto.
Qed.

(** ** combinations *)
Lemma comb_union l c v d : (forall s, In s l -> exists b, contains s v d = Ok b) ->
  exists b, contains (MComb l true c) v d = Ok b /\
    (b = true <-> (let P := exists s, In s l /\ contains s v d = Ok true in if c then ~ P else P)).
Proof.
  intro H. cbn [contains]. cbn zeta.
  match goal with |- exists b, ?g l None = _ /\ _ => set (go := g) end.
  assert (X : forall l, (forall s, In s l -> exists b, contains s v d = Ok b) ->
     (go l None = Ok (negb c) /\ exists s, In s l /\ contains s v d = Ok true) \/
     (go l None = Ok c /\ ~ exists s, In s l /\ contains s v d = Ok true)).
  { clear. induction l as [|s l IH]; intro H; cbn.
    - right. split; auto. intros (s & [] & _).
    - destruct (H s) as [b E]; [left; auto|]. rewrite E. destruct b.
      + left. split; auto. exists s. auto.
      + destruct IH as [[A (x & B & C)]|[A B]]. { intros; apply H; right; auto. }
        * left. split; auto. exists x. auto.
        * right. split; auto. intros (x & [<-|K] & L); [congruence|]. apply B. exists x. auto. }
  destruct (X l H) as [[-> P]|[-> P]]; eexists; (split; [reflexivity|]); destruct c; cbn; intuition discriminate.
Qed.
Lemma comb_inter l c v d : (forall s, In s l -> exists b, contains s v d = Ok b) ->
  exists b, contains (MComb l false c) v d = Ok b /\
    (b = true <-> (let P := forall s, In s l -> contains s v d = Ok true in if c then ~ P else P)).
Proof.
  intro H. cbn [contains]. cbn zeta.
  match goal with |- exists b, ?g l None = _ /\ _ => set (go := g) end.
  assert (X : forall l, (forall s, In s l -> exists b, contains s v d = Ok b) ->
     (go l None = Ok (negb c) /\ forall s, In s l -> contains s v d = Ok true) \/
     (go l None = Ok c /\ ~ forall s, In s l -> contains s v d = Ok true)).
  { clear. induction l as [|s l IH]; intro H; cbn.
    - left. split; auto. intros s [].
    - destruct (H s) as [b E]; [left; auto|]. rewrite E. destruct b.
      + destruct IH as [[A B]|[A B]]. { intros; apply H; right; auto. }
        * left. split; auto. intros x [<-|K]; auto.
        * right. split; auto.
      + right. split; auto. intro K. rewrite K in E by auto. discriminate. }
  destruct (X l H) as [[-> P]|[-> P]]; eexists; (split; [reflexivity|]); destruct c; cbn; intuition discriminate.
Qed.
(** a raising member does not hide a decisive one, whatever the order *)
Lemma comb_union_true l c v d s : In s l -> contains s v d = Ok true -> contains (MComb l true c) v d = Ok (negb c).
Proof.
  cbn [contains].
  match goal with |- _ -> _ -> ?g l None = _ => set (go := g) end.
  enough (forall e, In s l -> contains s v d = Ok true -> go l e = Ok (negb c)) by auto.
  induction l as [|x l IH]; intros e []; cbn; intros.
  - subst. rewrite H0. auto.
  - destruct (contains x v d) as [[|]|]; auto.
Qed.
Lemma comb_inter_false l c v d s : In s l -> contains s v d = Ok false -> contains (MComb l false c) v d = Ok c.
Proof.
  cbn [contains].
  match goal with |- _ -> _ -> ?g l None = _ => set (go := g) end.
  enough (forall e, In s l -> contains s v d = Ok false -> go l e = Ok c) by auto.
  induction l as [|x l IH]; intros e []; cbn; intros.
  - subst. rewrite H0. auto.
  - destruct (contains x v d) as [[|]|]; auto.
Qed.
Lemma comb_union_err l c v d e : contains (MComb l true c) v d = Err e ->
  exists s, In s l /\ contains s v d = Err e.
Proof.
  cbn [contains].
  match goal with |- ?g l None = _ -> _ => set (go := g) end.
  enough (forall o, go l o = Err e -> o = Some e \/ exists s, In s l /\ contains s v d = Err e).
  { intro H0. destruct (H None H0); auto. discriminate. }
  induction l as [|x l IH]; intros o; cbn.
  - destruct o; intro H; try discriminate. injection H as ->. auto.
  - destruct (contains x v d) as [[|]|y] eqn:E; intro H; try discriminate.
    + destruct (IH _ H) as [K|(s & K & L)]; auto. right. exists s. auto.
    + destruct (IH _ H) as [K|(s & K & L)]; auto. { injection K as ->. right. exists x. auto. } right. exists s. auto.
Qed.
Lemma switch_contains s v d : (forall l, v <> TSeq l) -> contains (switch s) v d = match contains s v d with Ok b => Ok (negb b) | Err e => Err e end.
Proof.
  intro NS. destruct s as [i|r|l u c].
  - destruct i as [lo hi ls us n c]. cbn. unfold iv_contains, limits. cbn [iv_lo iv_hi]. destruct v; cbn; [|auto|exfalso; eapply NS; reflexivity].
    unfold iv_num. cbn [iv_int iv_lstrict iv_ustrict iv_compl]. generalize (subst_val d (si_val lo)) (subst_val d (si_val hi)). intros x y. clear.
    destruct (if n then integral n0 else Ok true) as [[|]|]; cbn; auto.
    + destruct (cmp_lo ls x n0) as [[|]|]; cbn; auto.
      * destruct (cmp_hi us y n0); cbn; rewrite ?Bool.negb_xorb_l; auto.
      * rewrite ?Bool.negb_xorb_l; auto.
    + rewrite ?Bool.negb_xorb_l; auto.
  - destruct r as [l c]. cbn. unfold ro_contains, ro_repl. cbn [ro_items]. destruct v; cbn; [| |exfalso; eapply NS; reflexivity]; rewrite ?Bool.negb_xorb_l; auto.
  - cbn [switch contains]. destruct u.
    + match goal with |- ?g l None = match ?k l None with _ => _ end => set (go := g); set (go' := k) end.
      generalize (@None exn). induction l as [|s l IH]; intro e; cbn. { destruct e; auto. }
      destruct (contains s v d) as [[|]|]; auto.
    + match goal with |- ?g l None = match ?k l None with _ => _ end => set (go := g); set (go' := k) end.
      generalize (@None exn). induction l as [|s l IH]; intro e; cbn. { destruct e; auto. }
      destruct (contains s v d) as [[|]|]; auto.
Qed.
