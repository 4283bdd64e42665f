(** Cardinality of combinations: counting the members of unions and intersections. *)
From Coq Require Import Sorted.
From Verif Require Import Base MathSet MathSpec MathFacts MathCard.
Local Open Scope Z_scope.

(** ** specification *)
(** pairwise different numbers *)
Definition distinct (l : list num) : Prop := ForallOrdPairs (fun a b => ~ neq a b) l.
(** [l] lists numbers that are inside *)
Definition members (s : mset) (d : vdict) (l : list num) : Prop :=
  distinct l /\ forall v, In v l -> finite v /\ contains s (TNum v) d = Ok true.
(** [l] lists all numbers that are inside, each one once *)
Definition all_members (s : mset) (d : vdict) (l : list num) : Prop :=
  members s d l /\ forall v, finite v -> contains s (TNum v) d = Ok true -> exists w, In w l /\ neq w v.
(** the sets: integer intervals with integer bounds, rosters, their complements, and unions and
    intersections of these *)
Inductive count_set : mset -> Prop :=
| count_int x ox y oy c : count_set (MInt (mk (Some (NI x, ox)) (Some (NI y, oy)) true c))
| count_ros items c : count_set (MRos (mk_roster items c))
| count_comb l u : (forall x, In x l -> count_set x) -> count_set (MComb l u false).

(** ** counting *)
Lemma pigeon {A B} (R : A -> B -> Prop) (E : A -> A -> Prop) (RE : forall a a' b, R a b -> R a' b -> E a a') :
  forall (l : list A) (m : list B), ForallOrdPairs (fun a b => ~ E a b) l -> (forall a, In a l -> exists b, In b m /\ R a b) ->
  (length l <= length m)%nat.
Proof.
  induction l as [|a l IH]; intros m D H; [cbn; lia|]. inversion D; subst.
  destruct (H a) as (b & B1 & B2); [left; auto|]. apply in_split in B1 as (m1 & m2 & ->).
  specialize (IH (m1 ++ m2)). rewrite !app_length in *. cbn [length].
  enough (length l <= length m1 + length m2)%nat by lia. apply IH; auto.
  intros x X. destruct (H x) as (y & Y1 & Y2); [right; auto|]. exists y. split; auto.
  rewrite in_app_iff in *. destruct Y1 as [Y1|[<-|Y1]]; auto. exfalso. rewrite Forall_forall in H2. apply (H2 x X). eapply RE; eauto.
Qed.
Lemma distinct_filter f l : distinct l -> distinct (filter f l).
Proof.
  induction 1 as [|a l F D IH]; cbn; [constructor|]. destruct (f a); auto. constructor; auto.
  rewrite Forall_forall in *. intros x X. apply filter_In in X as [X _]. auto.
Qed.
Lemma inter_true l v d : contains (MComb l false false) v d = Ok true -> forall x, In x l -> contains x v d = Ok true.
Proof.
  cbn [contains].
  match goal with |- ?g l None = _ -> _ => set (go := g) end.
  enough (H : forall e, go l e = Ok true -> e = None /\ forall x, In x l -> contains x v d = Ok true) by (intro K; apply (H None K)).
  induction l as [|y l IH]; intros e; cbn.
  - destruct e; [discriminate|]. intros _. split; auto. intros x [].
  - destruct (contains y v d) as [[|]|z] eqn:E; intro H; try discriminate.
    + apply IH in H as [-> H]. split; auto. intros x [<-|X]; auto.
    + apply IH in H as [K _]. discriminate.
Qed.
Lemma union_true l v d : contains (MComb l true false) v d = Ok true -> exists x, In x l /\ contains x v d = Ok true.
Proof.
  cbn [contains].
  match goal with |- ?g l None = _ -> _ => set (go := g) end.
  enough (H : forall e, go l e = Ok true -> exists x, In x l /\ contains x v d = Ok true) by (apply H).
  induction l as [|y l IH]; intros e; cbn.
  - destruct e; discriminate.
  - destruct (contains y v d) as [[|]|z] eqn:E; intro H; eauto; apply IH in H as (x & X & Y); eauto.
Qed.
Definition isin (d : vdict) (s : mset) (v : num) : bool := match contains s (TNum v) d with Ok true => true | _ => false end.
Lemma isin_iff d s v : isin d s v = true <-> contains s (TNum v) d = Ok true.
Proof. unfold isin. destruct (contains s (TNum v) d) as [[|]|]; split; congruence. Qed.

(** ** the leaves *)
Lemma int_bound x ox y oy c d n l : card (MInt (mk (Some (NI x, ox)) (Some (NI y, oy)) true c)) = NI n ->
  members (MInt (mk (Some (NI x, ox)) (Some (NI y, oy)) true c)) d l -> Z.of_nat (length l) <= n.
Proof.
  intros C [D M]. cbn [card] in C. destruct c. { pose proof (proj1 (compl_infinite x ox y oy d)) as X. unfold mint in X. rewrite X in C. discriminate. }
  destruct (mint_exact x ox y oy d) as (l0 & _ & E & K & _). unfold mint in *. rewrite K in C. injection C as <-.
  enough (length l <= length l0)%nat by lia.
  apply (pigeon (fun v z => neq v (NI z)) neq); auto.
  - intros a a' b H1 H2. eapply neq_trans; [exact H1|]. apply neq_sym. exact H2.
  - intros v V. destruct (M v V) as [F I]. cbn [contains] in I. apply E in I; auto.
Qed.
Definition item_is (d : vdict) (v : num) (w : sval) : Prop :=
  match w with VNum n => neq n v | VVar s => exists f n, d = Some f /\ f s = Some n /\ neq n v end.
Lemma ros_bound items c d n l : card (MRos (mk_roster items c)) = NI n -> members (MRos (mk_roster items c)) d l -> Z.of_nat (length l) <= n.
Proof.
  intros C [D M]. cbn [card] in C. destruct c. { discriminate. } unfold ro_card in C. cbn [mk_roster ro_compl] in C. injection C as <-.
  enough (length l <= length (ro_items (mk_roster items false)))%nat by (cbn [mk_roster ro_items] in *; lia).
  apply (pigeon (item_is d) neq); auto.
  - intros a a' [m|s]; cbn.
    + intros H1 H2. eapply neq_trans; [apply neq_sym; exact H1|exact H2].
    + intros (f & m & E & F & H1) (f' & m' & E' & F' & H2). assert (f = f') by congruence. subst f'. assert (m = m') by congruence. subst m'.
      eapply neq_trans; [apply neq_sym; exact H1|exact H2].
  - intros v V. destruct (M v V) as [F I]. cbn [contains] in I. injection I as I. unfold ro_contains in I. cbn [ro_test] in I.
    change (ro_compl (mk_roster items false)) with false in I.
    destruct (has_val _ _ || has_val _ _) eqn:H in I; [|discriminate]. apply Bool.orb_true_iff in H as [H|H].
    + apply has_val_iff in H as (w & W & E). exists w. split; auto. destruct w; [|discriminate]. cbn in *. apply num_eq_iff. auto.
    + apply ro_repl_vals in H as (f & s & m & -> & A & B & E). apply has_val_iff in A as (w & W & E'). destruct w as [|t]; [discriminate|].
      cbn in E'. apply String.eqb_eq in E'. subst t. exists (VVar s). split; auto. exists f, m. split; auto. split; auto. cbn in E. apply num_eq_iff. auto.
Qed.
Lemma leaf_card_int x ox y oy c : let k := card (MInt (mk (Some (NI x, ox)) (Some (NI y, oy)) true c)) in k = PInf \/ exists n, 0 <= n /\ k = NI n.
Proof.
  cbn [card]. destruct c. { left. apply (proj1 (compl_infinite x ox y oy None)). }
  destruct (mint_exact x ox y oy None) as (l0 & _ & _ & K & _). unfold mint in *. right. exists (Z.of_nat (length l0)). split; [lia|exact K].
Qed.
(** ** unions and intersections *)
Definition cardish (k : num) : Prop := k = PInf \/ exists n, 0 <= n /\ k = NI n.
Lemma num_add_ish a b : cardish a -> cardish b -> cardish (num_add a b).
Proof. intros [->|(n & N & ->)] [->|(m & M & ->)]; cbn; [left|left|left|right]; auto. exists (n + m). split; [lia|auto]. Qed.
Lemma fold_add_ish l : forall a, cardish a -> (forall x, In x l -> cardish (card x)) -> cardish (fold_left (fun c i => num_add c (card i)) l a).
Proof. induction l as [|x l IH]; intros a A H; cbn; auto. apply IH; [|intros; apply H; right; auto]. apply num_add_ish; auto. apply H. left. auto. Qed.
Lemma fold_min_ish l : forall a, cardish a -> (forall x, In x l -> cardish (card x)) ->
  let r := fold_left (fun c i => if num_lt (card i) c then card i else c) l a in
  cardish r /\ (r = a \/ exists x, In x l /\ r = card x).
Proof.
  induction l as [|x l IH]; intros a A H; cbn; auto.
  destruct (IH (if num_lt (card x) a then card x else a)) as [B C].
  { destruct (num_lt _ _); auto. apply H. left. auto. } { intros; apply H; right; auto. }
  split; auto. destruct C as [C|(y & Y & C)]; [|right; exists y; split; [right; auto|auto]].
  rewrite C. destruct (num_lt (card x) a); auto. right. exists x. split; [left; auto|auto].
Qed.
Lemma count_ish s : count_set s -> cardish (card s).
Proof.
  induction 1 as [x ox y oy c|items c|l u H IH].
  - apply leaf_card_int.
  - cbn [card]. unfold ro_card. destruct (ro_compl _); [left; auto|right; eexists; split; [|reflexivity]; lia].
  - cbn [card]. destruct u.
    + apply fold_add_ish; auto. right. exists 0. split; [lia|auto].
    + apply fold_min_ish; auto. left. auto.
Qed.
Lemma filter_le {A} (f : A -> bool) l : (length (filter f l) <= length l)%nat.
Proof. induction l as [|a l IH]; cbn; [lia|]. destruct (f a); cbn; lia. Qed.
Lemma filter_split {A} (f : A -> bool) l : (length l = length (filter f l) + length (filter (fun x => negb (f x)) l))%nat.
Proof. induction l as [|a l IH]; cbn; [lia|]. destruct (f a); cbn; lia. Qed.
Lemma count_bound s : count_set s -> forall d n l, card s = NI n -> members s d l -> Z.of_nat (length l) <= n.
Proof.
  induction 1 as [x ox y oy c|items c|ss u H IH]; intros d n l C M.
  - eapply int_bound; eauto.
  - eapply ros_bound; eauto.
  - cbn [card] in C. destruct M as [D M]. destruct u.
    + assert (G : forall a l, 0 <= a -> fold_left (fun c i => num_add c (card i)) ss (NI a) = NI n -> distinct l ->
         (forall v, In v l -> finite v /\ exists x, In x ss /\ contains x (TNum v) d = Ok true) -> a + Z.of_nat (length l) <= n).
      { clear C D M l. induction ss as [|s ss IHs]; intros a l A C D M.
        - cbn in C. injection C as <-. destruct l as [|v l]; [cbn; lia|]. destruct (M v) as (_ & x & [] & _). left. auto.
        - cbn [fold_left] in C. assert (S : cardish (card s)) by (apply count_ish, H; left; auto). destruct S as [S|(m & Mm & S)].
          + rewrite S in C. cbn [num_add] in C. exfalso. clear - C. revert C. generalize (@nil num). intros _.
            assert (P : forall ss, fold_left (fun c i => num_add c (card i)) ss PInf <> NI n).
            { intro q. enough (forall k, (k = PInf \/ k = NaN) -> fold_left (fun c i => num_add c (card i)) q k <> NI n) by auto.
              induction q as [|y q IHq]; intros k K; cbn; [destruct K; subst; discriminate|]. apply IHq. destruct K as [-> | ->], (card y); cbn; auto. }
            apply P.
          + rewrite S in C. cbn [num_add] in C.
            rewrite (filter_split (isin d s) l).
            assert (L1 : Z.of_nat (length (filter (isin d s) l)) <= m).
            { apply (IH s (or_introl eq_refl) d m _ S). split; [apply distinct_filter; auto|].
              intros v V. apply filter_In in V as [V W]. split; [apply M; auto|apply isin_iff; auto]. }
            specialize (IHs (fun x X => H x (or_intror X)) (fun x X => IH x (or_intror X)) (a + m) (filter (fun v => negb (isin d s v)) l)).
            rewrite Nat2Z.inj_add. enough (a + m + Z.of_nat (length (filter (fun v => negb (isin d s v)) l)) <= n) by lia.
            apply IHs; auto; [lia|apply distinct_filter; auto|].
            intros v V. apply filter_In in V as [V W]. destruct (M v V) as (F & x & [<-|X] & Y).
            * apply isin_iff in Y. rewrite Y in W. discriminate.
            * split; auto. exists x. auto. }
      specialize (G 0 l (Z.le_refl 0) C D). apply G. intros v V. destruct (M v V) as [F I]. split; auto. apply union_true. exact I.
    + destruct (fold_min_ish ss PInf (or_introl eq_refl) (fun x X => count_ish x (H x X))) as [_ [K|(x & X & K)]].
      { cbn zeta in K. rewrite K in C. discriminate. }
      cbn zeta in K. rewrite K in C. apply (IH x X d n l C). split; auto. intros v V. destruct (M v V) as [F I]. split; auto.
      eapply inter_true; eauto.
Qed.
(** ** a union of disjoint sets *)
Lemma distinct_app l m : distinct l -> distinct m -> (forall a b, In a l -> In b m -> ~ neq a b) -> distinct (l ++ m).
Proof.
  induction 1 as [|a l F D IH]; intros M H; cbn; auto. constructor; [|apply IH; auto; intros; apply H; auto; right; auto].
  rewrite Forall_forall in *. intros x X. apply in_app_iff in X as [X|X]; auto. apply H; auto. left. auto.
Qed.
Definition apart (d : vdict) (s t : mset) : Prop :=
  forall v w, contains s (TNum v) d = Ok true -> contains t (TNum w) d = Ok true -> ~ neq v w.
Lemma disjoint_union d : forall ss ls, ForallOrdPairs (apart d) ss ->
  Forall2 (fun s l => all_members s d l /\ card s = NI (Z.of_nat (length l))) ss ls ->
  all_members (MComb ss true false) d (concat ls) /\ card (MComb ss true false) = NI (Z.of_nat (length (concat ls))).
Proof.
  intros ss ls D F. split.
  - split; [split|].
    + revert ls F. induction D as [|s ss A D IH]; intros ls F; inversion F as [|? l ? ls' [[[M1 M2] M3] M4] F']; subst; cbn; [constructor|].
      apply distinct_app; auto. intros a b X Y. apply in_concat in Y as (m & Y & Z).
      assert (G : exists t, In t ss /\ contains t (TNum b) d = Ok true).
      { clear - F' Y Z. revert Y. induction F' as [|t q ss ls [[[K1 K2] K3] K4] F IH]; [intros []|]. intros [->|Y].
        - exists t. split; [left; auto|apply K2; auto].
        - destruct (IH Y) as (u & U & V). exists u. split; [right; auto|auto]. }
      destruct G as (t & T1 & T2). rewrite Forall_forall in A. apply (A t T1); [apply M2; auto|exact T2].
    + intros v V. apply in_concat in V as (m & Y & Z). clear D. induction F as [|t q ss ls [[[K1 K2] K3] K4] F IH]; [destruct Y|].
      destruct Y as [->|Y].
      * split; [apply K2; auto|]. apply (comb_union_true _ false _ _ t); [left; auto|apply K2; auto].
      * destruct (IH Y) as [P Q]. split; auto. apply union_true in Q as (x & X & W). apply (comb_union_true _ false _ _ x); [right; auto|exact W].
    + intros v Fi V. apply union_true in V as (x & X & W). clear D. induction F as [|t q ss ls [[[K1 K2] K3] K4] F IH]; [destruct X|].
      cbn [concat]. destruct X as [->|X].
      * destruct (K3 v Fi W) as (w & A & B). exists w. split; auto. apply in_app_iff. auto.
      * destruct (IH X) as (w & A & B). exists w. split; auto. apply in_app_iff. auto.
  - cbn [card]. clear D.
    enough (G : forall a, fold_left (fun c i => num_add c (card i)) ss (NI a) = NI (a + Z.of_nat (length (concat ls)))) by (rewrite G; auto).
    induction F as [|t q ss ls [_ K4] F IH]; intro a; cbn [fold_left concat length]; [f_equal; lia|].
    rewrite K4. cbn [num_add]. rewrite IH, app_length. f_equal. lia.
Qed.
