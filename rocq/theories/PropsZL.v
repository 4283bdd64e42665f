(** C99: loading all links of a tree. *)
From Verif Require Import Base Heap HeapSpec ListLemmas ForestLemmas HeapInv HeapAttach HeapOps HeapOps2 HeapOps3 HeapOrd HeapHash Tree HeapTree HeapCopy History Runs HeapRead HeapFlags PropsA PropsC PropsF
  Deep DeepSpec DeepProofs PropsG LinkModel LinkFacts LinkFacts2 LinkMerge LinkLoad LinkRun LinkAll LinkWF LinkSpec LinkDel PropsN LinkTree.
Import ListNotations.
Open Scope string_scope.
Open Scope list_scope.

(** ** Specification *)
(** One call of load_links on a link root: the item, the heap before and after, the result. *)
Record step := Step { s_root : loc; s_before : heap; s_after : heap; s_loaded : bool }.
(** The calls of load_links on the link roots, one after the other.  When its turn comes, a link root
    is in the situation of C46 ([load_case], PropsN) with a target without link roots, or its link is
    loaded and has not changed, and force is not given: nothing to do. *)
Section Calls.
  Variables (target_of : heap -> loc -> res loc) (changed : heap -> loc -> bool) (force : bool) (n : nat).
  Inductive Calls : heap -> list step -> heap -> Prop :=
  | Calls_done h : Calls h [] h
  | Calls_load h r t g l h' : load_case target_of changed force h r t -> (forall y, Below h t y -> flag h y 5 = false) ->
      load_links target_of changed force (S n) r h = (g, Ok true) -> Calls g l h' -> Calls h (Step r h g true :: l) h'
  | Calls_skip h r k l h' : flag h r 5 = true -> force = false -> a_link (view h r) = Some k -> lk_loaded k = true -> changed h r = false ->
      Calls h l h' -> Calls h (Step r h h false :: l) h'.
End Calls.
(** the link roots below the root of T, in document order *)
Definition link_roots (h : heap) (T : tree loc) : list loc := filter (fun y => flag h y 5) (below_tree T).

(** ** Proofs *)
Lemma root_flag h y : is_link_root h y = flag h y 5.
Proof. unfold is_link_root, flag. rewrite (has_bit _ 5) by lia. reflexivity. Qed.
Lemma tree_closed h C : ltree (view h) C -> forall q z, In q (flatten C) -> In z (children h q) -> In z (flatten C).
Proof.
  induction C as [a cs IH] using tree_ind'. intros L q z Hq Hz. apply ltree_iff in L as (E & L). rewrite Forall_forall in IH, L. destruct Hq as [<-|Hq].
  - right. change (a_children (view h a)) with (children h a) in E. rewrite <- E in Hz. apply in_map_iff in Hz as (c & <- & Hc). apply in_flat_map. exists c. split; [exact Hc|apply in_flatten_root].
  - apply in_flat_map in Hq as (c & Hc & Hq). right. apply in_flat_map. exists c. split; [exact Hc|]. eapply IH; eauto.
Qed.
Lemma forest_closed h cs : Forall (ltree (view h)) cs -> forall q z, In q (flat_map flatten cs) -> In z (children h q) -> In z (flat_map flatten cs).
Proof.
  intros L q z Hq Hz. apply in_flat_map in Hq as (c & Hc & Hq). apply in_flat_map. exists c. split; [exact Hc|]. rewrite Forall_forall in L. eapply tree_closed; eauto.
Qed.
Lemma below_same h g cs : Forall (ltree (view h)) cs -> (forall y, In y (flat_map flatten cs) -> view g y = view h y) ->
  forall r z, In r (flat_map flatten cs) -> Below g r z -> Below h r z /\ In z (flat_map flatten cs).
Proof.
  intros L E r z Hr B. induction B as [y Hy|q y B (IH & Hq) Hy].
  - unfold children in Hy. rewrite (E r Hr) in Hy. split; [apply below_child; exact Hy|eapply forest_closed; eauto].
  - unfold children in Hy. rewrite (E q Hq) in Hy. split; [eapply below_step; eauto|eapply forest_closed; eauto].
Qed.
Lemma ltrees_same h g cs : Forall (ltree (view h)) cs -> (forall y, In y (flat_map flatten cs) -> view g y = view h y) -> Forall (ltree (view g)) cs.
Proof.
  intros L E. rewrite Forall_forall in *. intros c Hc. eapply ltree_frame; [|apply L, Hc]. intros y Hy. rewrite E; [reflexivity|]. apply in_flat_map. eauto.
Qed.
Lemma forest_unique s : forall l m, Forall (ltree s) l -> Forall (ltree s) m -> map root l = map root m -> l = m.
Proof.
  induction l as [|a l IH]; intros [|b m] L M E; try discriminate; [reflexivity|]. injection E as E1 E2. inversion L; inversion M; subst. f_equal; [eapply ltree_unique; eauto|apply IH; auto].
Qed.
Lemma forest_split h x pre cs : LWF h -> x < hnext h -> children h x = map root (pre ++ cs) -> Forall (ltree (view h)) cs -> NoDup (x :: flat_map flatten cs).
Proof.
  intros W Hx E L. destruct (ltree_exists _ _ _ (lw_forest _ W) Hx) as (T & HT & Er & _). pose proof (ltree_NoDup _ _ _ (lw_forest _ W) HT) as ND.
  destruct T as [x0 ks]. cbn [root] in Er. subst x0. apply ltree_iff in HT as (E1 & F1). change (a_children (view h x)) with (children h x) in E1. rewrite E in E1.
  assert (Q : skipn (length pre) ks = cs).
  { apply (forest_unique (view h)); [rewrite Forall_forall in *; intros c Hc; apply F1; rewrite <- (firstn_skipn (length pre) ks); apply in_or_app; right; exact Hc|exact L|].
    rewrite <- skipn_map, E1, map_app, skipn_app, map_length, Nat.sub_diag, skipn_all2 by (rewrite map_length; lia). reflexivity. }
  cbn [flatten] in ND. rewrite <- (firstn_skipn (length pre) ks), Q, flat_map_app in ND. inversion ND as [|a l N1 N2]; subst. constructor.
  - intros H. apply N1. apply in_or_app. right. exact H.
  - apply NoDup_app_inv in N2. apply N2.
Qed.

(** one load *)
Lemma pre_flags (h h' : heap) F Ts : map (tmap (label (view h'))) Ts = conv_spec h F -> (forall z, In z (flat_map flatten F) -> flag h z 5 = false) ->
  forall y, In y (flat_map flatten Ts) -> flag h' y 5 = false.
Proof.
  intros E HF y Hy. apply (f_equal (flat_map flatten)) in E. unfold conv_spec in E.
  change (fun p : loc * bool => (lk_label (label (view h) (fst p)), snd p)) with (fun p : loc * bool => ((fun z => lk_label (label (view h) z)) (fst p), snd p)) in E.
  rewrite cat_map, !flat_map_tmap, cat_flatten, pre_fst in E.
  apply (in_map (label (view h'))) in Hy. rewrite E in Hy. apply in_map_iff in Hy as (z & Ez & Hz). specialize (HF z Hz).
  unfold flag in *. change (a_flags (view h' y)) with (x_flags (label (view h') y)). rewrite <- Ez. cbn [lk_label x_flags cp_label label].
  rewrite (has_bit _ 5) by lia. change (x_flags (label (view h) z)) with (a_flags (view h z)). rewrite HF, Z.lor_spec, Z.land_spec, HF. reflexivity.
Qed.
Lemma copy_flags h h' C co C' : copy_of h h' C co C' -> (forall z, In z (flatten C) -> flag h z 5 = false) -> forall y, In y (flatten C') -> flag h' y 5 = false.
Proof.
  intros (D & _ & _ & E) HF y Hy. destruct C as [c cs], C' as [c' cs']. cbn [root kids] in *. destruct Hy as [<-|Hy].
  - specialize (HF c (or_introl eq_refl)). unfold flag in *. change (a_flags (view h' c')) with (nflags (hnode h' c')). change (a_flags (view h c)) with (nflags (hnode h c)) in HF.
    assert (E1 : nflags (hnode h' c') = Z.land (Z.lor (nflags (hnode h c)) LINKED) FLAG_MASK) by exact (f_equal (fun d => snd (fst (fst d))) D).
    rewrite E1, Z.land_spec, Z.lor_spec, HF. reflexivity.
  - eapply pre_flags; [exact E| |exact Hy]. intros z Hz. apply HF. right. exact Hz.
Qed.
Lemma load_fresh_flags h x t Cs lk h' Rs : load_result h x t Cs lk h' Rs -> (forall z, In z (flat_map flatten Cs) -> flag h z 5 = false) ->
  forall y, hnext h <= y < hnext h' -> flag h' y 5 = false.
Proof.
  intros (W' & _ & Hn & T1 & _ & _ & _ & _ & _ & S1 & S2 & _ & FD & _ & _ & _ & RR & _ & FR) HF y Hy.
  assert (In y (flat_map flatten Rs)) as H by (apply RR; lia). apply in_flat_map in H as (C' & HC' & H).
  assert (Q : exists C co, In C Cs /\ copy_of h h' C co C').
  { clear - FD HC'. cbv zeta in FD. revert FD. generalize (keys_from (tags h) [] (map root Cs)). intros ks FD.
    destruct (Forall2_in_r _ _ _ FD C' HC') as ([k C] & I & (A & _)). exists C. eexists. split; [apply in_combine_r in I; exact I|exact A]. }
  destruct Q as (C & co & I & Q). eapply copy_flags; [exact Q| |exact H]. intros z Hz. apply HF. apply in_flat_map. eauto.
Qed.

Section Proofs.
  Variables (target_of : heap -> loc -> res loc) (changed : heap -> loc -> bool) (force : bool) (n : nat).
  Notation Calls := (Calls target_of changed force n).
  Notation walk := (walk target_of changed force (S n)).

  Lemma load_facts h r t g : LReach h -> load_case target_of changed force h r t -> (forall y, Below h t y -> flag h y 5 = false) ->
    load_links target_of changed force (S n) r h = (g, Ok true) -> (forall y, Below h r y -> flag h y 5 = false) ->
    LReach g /\ hnext h <= hnext g /\ (forall y, y < hnext h -> y <> r -> ~ In y (children h r) -> view g y = view h y) /\
    (forall y, Below g r y -> (hnext h <= y < hnext g \/ Below h r y) /\ flag g y 5 = false) /\ flag g r 5 = true.
  Proof.
    intros LR LC HT E HN. destruct (lreach_ok h LR) as (W & HH).
    assert (LR' : LReach g) by (replace g with (fst (load_links target_of changed force (S n) r h)) by (rewrite E; reflexivity); eapply LReach_load; eassumption).
    destruct (C46_merge_partial target_of changed force n h r t LR LC) as (g0 & cp & rp & E0 & _ & CP & RP & _ & CH & _ & _ & _ & _ & OL & FR & _ & FL & PR).
    rewrite E in E0. injection E0 as <-.
    destruct (load_ready _ _ _ _ _ _ W HH LC) as (Cs & lk & R & TA). destruct (load_LWF target_of changed force n h r t Cs lk R) as (g1 & Rs & E1 & LQ).
    rewrite E in E1. injection E1 as <-.
    assert (Fr : forall y, hnext h <= y < hnext g -> flag g y 5 = false).
    { eapply load_fresh_flags; [exact LQ|]. intros z Hz. apply HT. destruct TA as (Er & TA). rewrite <- Er. apply (Below_tree h _ TA). exact Hz. }
    destruct LQ as (W' & HO & Hn & _). destruct (lreach_ok g LR') as (Wg & _).
    split; [exact LR'|]. split; [exact Hn|]. split; [exact FR|].
    assert (Rlt : r < hnext h) by apply LC. 
    assert (Ch : forall y, In y (children h r) -> y < hnext h) by (intros y Hy; apply (LWF_child_lt h r y W Hy)).
    assert (NB : ~ Below h r r).
    { intros B. destruct (ltree_exists _ _ _ (lw_forest _ W) Rlt) as (T & HTT & Er & _). pose proof (ltree_NoDup _ _ _ (lw_forest _ W) HTT) as ND. destruct T as [a ks]. cbn in Er. subst a.
      apply (Below_tree h _ HTT) in B. inversion ND; subst. contradiction. }
    assert (BL : forall y, Below h r y -> y < hnext h).
    { intros y B. destruct (ltree_exists _ _ _ (lw_forest _ W) Rlt) as (T & HTT & Er & _). eapply (ltree_lt _ _ _ (lw_forest _ W) HTT); [rewrite Er; exact Rlt|]. subst r. apply (Below_tree h _ HTT) in B.
      destruct T; right; exact B. }
    split.
    - intros y B.
      assert (Q : hnext h <= y < hnext g \/ Below h r y).
      { induction B as [y Hy|q y B IH Hy].
        - apply CH in Hy. destruct Hy as [Hy|Hy]; [right; apply below_child; eapply staying_in; exact Hy|].
          apply in_map_iff in Hy as (c & <- & Hc). destruct (RP c Hc) as [(y & Hy & _ & -> & _)|(_ & ->)]; [right; apply below_child; eapply staying_in; exact Hy|left; apply (CP c Hc)].
        - assert (Yl : y < hnext g) by apply (LWF_child_lt g q y Wg Hy). pose proof (fo_child _ _ (lw_forest _ Wg) q y Hy) as Py. change (parent_of g y = Some q) in Py.
          destruct (Nat.lt_ge_cases y (hnext h)) as [Y|Y]; [right|left; lia].
          destruct (Nat.eq_dec y r) as [->|Yr].
          + exfalso. rewrite PR in Py. destruct IH as [IH|IH].
            * pose proof (fo_par _ _ (lw_forest _ W) r q Py). lia.
            * apply NB. eapply below_step; [exact IH|]. pose proof (FR q (BL q IH)) as K. 
              destruct (Nat.eq_dec q r) as [->|Qr]; [exfalso; apply NB; exact IH|]. destruct (in_dec Nat.eq_dec q (children h r)) as [I|I].
              -- destruct (OL q I) as (_ & _ & C1 & _). rewrite <- C1. exact Hy.
              -- unfold children in *. rewrite (K Qr I) in Hy. exact Hy.
          + destruct IH as [IH|IH].
            * exfalso. destruct (in_dec Nat.eq_dec y (children h r)) as [I|I].
              -- destruct (OL y I) as (_ & _ & _ & _ & P1 & _). rewrite P1 in Py. injection Py as <-. lia.
              -- unfold parent_of in Py. rewrite (FR y Y Yr I) in Py. pose proof (fo_par _ _ (lw_forest _ W) y q Py). lia.
            * eapply below_step; [exact IH|]. destruct (Nat.eq_dec q r) as [->|Qr]; [exfalso; apply NB; exact IH|]. destruct (in_dec Nat.eq_dec q (children h r)) as [I|I].
              -- destruct (OL q I) as (_ & _ & C1 & _). rewrite <- C1. exact Hy.
              -- unfold children in *. rewrite (FR q (BL q IH) Qr I) in Hy. exact Hy. }
      split; [exact Q|]. destruct Q as [Q|Q]; [apply Fr; exact Q|]. specialize (HN y Q). assert (y <> r) by (intros ->; contradiction).
      unfold flag in *. destruct (in_dec Nat.eq_dec y (children h r)) as [I|I]; [destruct (OL y I) as (_ & F1 & _); rewrite F1; exact HN|rewrite FR; auto].
    - unfold flag. rewrite FL. apply LC.
  Qed.

  (** without link roots nothing happens *)
  Lemma walk_plain h : forall m cs x pre, sizes cs <= m -> children h x = map root (pre ++ cs) -> Forall (ltree (view h)) cs ->
    (forall y, In y (flat_map flatten cs) -> flag h y 5 = false) -> exists N, forall fuel, N <= fuel -> walk fuel x (length pre) h = (h, Ok false).
  Proof.
    induction m as [|m IH]; intros [|C cs] x pre Hm E L F.
    1, 3: (exists 1; intros [|fuel] Hf; [lia|]; cbn [LinkTree.walk]; unfold bind, gets; change (nitems (hnode h x)) with (children h x); rewrite E, app_nil_r;
      rewrite (proj2 (nth_error_None (map root pre) (length pre))) by (rewrite map_length; lia); reflexivity).
    - exfalso. rewrite sizes_cons in Hm. destruct C. rewrite size_node in Hm. lia.
    - destruct C as [y ks]. inversion L as [|a b L1 L2]; subst. pose proof L1 as L1'. apply ltree_iff in L1' as (Ek & Lk). change (a_children (view h y)) with (children h y) in Ek.
      rewrite sizes_cons, size_node in Hm.
      destruct (IH ks y []) as (N1 & H1).
      { lia. }
      { cbn [app]. symmetry. exact Ek. } { exact Lk. } { intros z Hz. apply F. cbn [flat_map flatten]. right. apply in_or_app. left. exact Hz. }
      destruct (IH cs x (pre ++ [Node y ks])) as (N2 & H2).
      { lia. }
      { rewrite <- app_assoc. exact E. } { exact L2. } { intros z Hz. apply F. cbn [flat_map]. apply in_or_app. right. exact Hz. }
      exists (S (N1 + N2)). intros [|fuel] Hf; [lia|]. cbn [LinkTree.walk]. unfold bind at 1. unfold gets. change (nitems (hnode h x)) with (children h x). rewrite E, map_app, nth_error_app2, map_length, Nat.sub_diag by (rewrite map_length; lia). cbn [map nth_error].
      rewrite root_flag. cbn [root]. rewrite (F y) by (left; reflexivity). unfold bind, ret. rewrite H1 by lia.
      rewrite app_length in H2. cbn [length] in H2. replace (length pre + 1) with (S (length pre)) in H2 by lia. rewrite H2 by lia. reflexivity.
  Qed.

  Lemma Calls_app : forall l1 l2 h h', Calls h (l1 ++ l2) h' -> exists g, Calls h l1 g /\ Calls g l2 h'.
  Proof.
    induction l1 as [|s l1 IH]; intros l2 h h' H; [exists h; split; [constructor|exact H]|]. cbn [app] in H. inversion H; subst.
    - destruct (IH _ _ _ H7) as (g0 & A & B). exists g0. split; [eapply Calls_load; eauto|exact B].
    - destruct (IH _ _ _ H9) as (g0 & A & B). exists g0. split; [eapply Calls_skip; eauto|exact B].
  Qed.
  Lemma Calls_inv h r hb g b l h' : Calls h (Step r hb g b :: l) h' -> Calls g l h' /\
    ((b = true /\ exists t, load_case target_of changed force h r t /\ (forall y, Below h t y -> flag h y 5 = false) /\ load_links target_of changed force (S n) r h = (g, Ok true)) \/
     (b = false /\ g = h /\ force = false /\ exists k, a_link (view h r) = Some k /\ lk_loaded k = true /\ changed h r = false)).
  Proof.
    intros H. inversion H; subst.
    - split; [assumption|]. left. split; [reflexivity|]. exists t. auto.
    - split; [assumption|]. right. split; [reflexivity|]. split; [reflexivity|]. split; [reflexivity|]. exists k. auto.
  Qed.
  Definition touched (h : heap) (cs : list (tree loc)) (y : loc) : Prop := exists r, In r (flat_map flatten cs) /\ flag h r 5 = true /\ (y = r \/ In y (children h r)).
  Lemma walk_ok : forall m cs x pre h steps h', sizes cs <= m -> LReach h -> x < hnext h -> children h x = map root (pre ++ cs) -> Forall (ltree (view h)) cs ->
    map s_root steps = filter (fun y => flag h y 5) (flat_map flatten cs) ->
    (forall r y, In r (flat_map flatten cs) -> flag h r 5 = true -> Below h r y -> flag h y 5 = false) -> Calls h steps h' ->
    LReach h' /\ hnext h <= hnext h' /\ (forall y, y < hnext h -> ~ touched h cs y -> view h' y = view h y) /\
    (forall s z, In s steps -> z = s_root s \/ Below (s_after s) (s_root s) z -> view h' z = view (s_after s) z /\ z < hnext h' /\ (hnext h <= z \/ In z (flat_map flatten cs))) /\
    exists N, forall fuel, N <= fuel -> walk fuel x (length pre) h = (h', Ok (existsb s_loaded steps)).
  Proof.
    induction m as [|m IH]; intros [|C cs] x pre h steps h' Hm LR Hx E L ER NN HC.
    1, 3: (destruct steps; [|discriminate]; inversion HC; subst; split; [exact LR|]; split; [lia|]; split; [reflexivity|]; split; [intros s z []|];
      destruct (walk_plain h' 0 [] x pre ltac:(cbn; lia) E L) as (N & HN); [intros y []|]; exists N; intros f Hf; rewrite HN by exact Hf; reflexivity).
    - exfalso. rewrite sizes_cons in Hm. destruct C. rewrite size_node in Hm. lia.
    - destruct (lreach_ok h LR) as (W & _). pose proof (forest_split h x pre (C :: cs) W Hx E L) as ND. destruct C as [y ks].
      inversion L as [|a b L1 L2]; subst. pose proof L1 as L1'. apply ltree_iff in L1' as (Ek & Lk). change (a_children (view h y)) with (children h y) in Ek.
      rewrite sizes_cons, size_node in Hm.
      assert (Yc : In y (children h x)) by (rewrite E, map_app; apply in_or_app; right; left; reflexivity).
      destruct (LWF_child_lt h x y W Yc) as (_ & Yl).
      cbn [flat_map] in ND, ER, NN. rewrite filter_app in ER. inversion ND as [|a0 b0 N1 N2]; subst. change (NoDup (flatten (Node y ks) ++ flat_map flatten cs)) in N2. change (~ In x (flatten (Node y ks) ++ flat_map flatten cs)) in N1. apply NoDup_app_inv in N2 as (N2 & N3 & N4).
      assert (Lcs : forall z, In z (flat_map flatten cs) -> z < hnext h).
      { intros z Hz. apply in_flat_map in Hz as (c & Hc & Hz). rewrite Forall_forall in L2. eapply (ltree_lt _ _ _ (lw_forest _ W) (L2 c Hc)); [|exact Hz].
        assert (In (root c) (children h x)) as I by (rewrite E, map_app; apply in_or_app; right; right; apply in_map; exact Hc). apply (LWF_child_lt h x _ W I). }
      (* the rest, once the first subtree is done *)
      assert (Rest : forall g st2, LReach g -> hnext h <= hnext g -> (forall z, z < hnext h -> ~ In z (flatten (Node y ks)) -> view g z = view h z) ->
        map s_root st2 = filter (fun z => flag h z 5) (flat_map flatten cs) -> Calls g st2 h' ->
        LReach h' /\ hnext g <= hnext h' /\ (forall z, z < hnext g -> ~ touched h cs z -> view h' z = view g z) /\
        (forall s z, In s st2 -> z = s_root s \/ Below (s_after s) (s_root s) z -> view h' z = view (s_after s) z /\ z < hnext h' /\ (hnext g <= z \/ In z (flat_map flatten cs))) /\
        exists N, forall fuel, N <= fuel -> walk fuel x (S (length pre)) g = (h', Ok (existsb s_loaded st2))).
      { intros g st2 LG Hg FG E2 C2.
        assert (FX : view g x = view h x) by (apply FG; [exact Hx|intros I; apply N1; apply in_or_app; left; exact I]).
        assert (FC : forall z, In z (flat_map flatten cs) -> view g z = view h z) by (intros z Hz; apply FG; [apply Lcs, Hz|intros I; eapply N4; eauto]).
        destruct (IH cs x (pre ++ [Node y ks]) g st2 h') as (A1 & A2 & A3 & A4 & N & A5); try assumption.
        - lia.
        - lia.
        - unfold children in *. rewrite FX, <- app_assoc. exact E.
        - eapply ltrees_same; eauto.
        - rewrite E2. apply filter_ext_in. intros z Hz. unfold flag. rewrite (FC z Hz). reflexivity.
        - intros r z Hr Fr Bz. unfold flag in Fr. rewrite (FC r Hr) in Fr. destruct (below_same h g cs L2 FC r z Hr Bz) as (B1 & B2). unfold flag. rewrite (FC z B2). apply (NN r z); [apply in_or_app; right; exact Hr|exact Fr|exact B1].
        - split; [exact A1|]. split; [exact A2|]. split.
          + intros z Hz T. apply A3; [exact Hz|]. intros (r & Hr & Fr & Q). apply T. exists r. unfold flag, children in *. rewrite (FC r Hr) in Fr, Q. auto.
          + split; [exact A4|]. exists N. intros f Hf. specialize (A5 f Hf). rewrite app_length, Nat.add_comm in A5. exact A5. }
      assert (Wx : forall f, walk (S f) x (length pre) h = (b <- (if is_link_root h y then load_links target_of changed force (S n) y else ret false) ;; b1 <- walk f y 0 ;; b2 <- walk f x (S (length pre)) ;; ret (b || b1 || b2)) h).
      { intros f. cbn [LinkTree.walk]. unfold bind at 1. unfold gets. change (nitems (hnode h x)) with (children h x). rewrite E, map_app, nth_error_app2, map_length, Nat.sub_diag by (rewrite map_length; lia). reflexivity. }
      rewrite root_flag in Wx. cbn [flatten filter] in ER. destruct (flag h y 5) eqn:Fy.
      + (* a link root *)
        assert (Nk : filter (fun z => flag h z 5) (flat_map flatten ks) = []).
        { assert (K : forall z, In z (flat_map flatten ks) -> flag h z 5 = false).
          { intros z Hz. apply (NN y z); [left; reflexivity|exact Fy|]. apply (Below_tree h _ L1). exact Hz. }
          clear - K. induction (flat_map flatten ks) as [|z l IHl]; [reflexivity|]. cbn [filter]. rewrite (K z (or_introl eq_refl)). apply IHl. intros w Hw. apply K. right. exact Hw. }
        rewrite Nk in ER. cbn [app] in ER. destruct steps as [|s st2]; [discriminate|]. cbn [map] in ER. injection ER as Es ER.
        assert (One : LReach (s_after s) /\ hnext h <= hnext (s_after s) /\ (forall z, z < hnext h -> z <> y -> ~ In z (children h y) -> view (s_after s) z = view h z) /\
          (forall z, Below (s_after s) y z -> (hnext h <= z < hnext (s_after s) \/ Below h y z) /\ flag (s_after s) z 5 = false) /\ Calls (s_after s) st2 h' /\
          load_links target_of changed force (S n) y h = (s_after s, Ok (s_loaded s))).
        { assert (NNy : forall z, Below h y z -> flag h z 5 = false) by (intros z; apply (NN y z); [left; reflexivity|exact Fy]).
          destruct s as [r0 hb g lo]. cbn [s_root s_after s_loaded] in *. subst r0. apply Calls_inv in HC as (HC & [(-> & t & Q1 & Q2 & Q3)|(-> & -> & Q0 & k & Q1 & Q2 & Q3)]).
          - destruct (load_facts h y t g LR Q1 Q2 Q3 NNy) as (A1 & A2 & A3 & A4 & A5). split; [exact A1|]. split; [exact A2|]. split; [exact A3|]. split; [exact A4|]. split; assumption.
          - split; [exact LR|]. split; [lia|]. split; [reflexivity|]. split; [intros z Bz; split; [right; exact Bz|apply NNy, Bz]|]. split; [assumption|].
            cbn [load_links]. unfold bind at 1. unfold gets. rewrite root_flag, Fy. cbn [negb]. change (nlink (hnode h y)) with (a_link (view h y)). rewrite Q1, Q2, Q3, Q0. reflexivity. }
        destruct One as (O1 & O2 & O3 & O4 & O5 & O6). destruct s as [r0 g0 g lo]. cbn [s_root s_after s_loaded] in *. subst r0.
        assert (Fra : forall z, z < hnext h -> ~ In z (flatten (Node y ks)) -> view g z = view h z).
        { intros z Hz I. apply O3; [exact Hz|intros ->; apply I; left; reflexivity|]. intros K. apply I. eapply (tree_closed h _ L1 y); [left; reflexivity|exact K]. }
        destruct (Rest g st2 O1 O2 Fra ER O5) as (R1 & R2 & R3 & R4 & N2' & R5).
        assert (Py : exists N, forall fuel, N <= fuel -> walk fuel y 0 g = (g, Ok false)).
        { destruct (lreach_ok g O1) as (Wg & _). assert (Yg : y < hnext g) by lia. destruct (ltree_exists _ _ _ (lw_forest _ Wg) Yg) as ([y0 qs] & HT & Er & _). cbn in Er. subst y0.
          pose proof HT as HT'. apply ltree_iff in HT' as (Eq & Lq). destruct (walk_plain g (sizes qs) qs y []) as (N & HN); [lia|symmetry; exact Eq|exact Lq| |exists N; exact HN].
          intros z Hz. apply O4. apply (Below_tree g _ HT). exact Hz. }
        destruct Py as (N1' & Py).
        split; [exact R1|]. split; [lia|]. split; [|split].
        * intros z Hz T. rewrite R3; [|lia|].
          -- apply O3; [exact Hz|intros ->; apply T; exists y; cbn [flat_map flatten]; split; [left; reflexivity|auto]|]. intros K. apply T. exists y. split; [left; reflexivity|auto].
          -- intros (r & Hr & Q). apply T. exists r. split; [cbn [flat_map]; apply in_or_app; right; exact Hr|exact Q].
        * intros s z [<-|Hs] Q.
          -- cbn [s_root s_after] in *.
             assert (Z : (hnext h <= z \/ In z (flatten (Node y ks))) /\ z < hnext g).
             { destruct Q as [->|Q]; [split; [right; left; reflexivity|lia]|]. destruct (O4 z Q) as ([Z|Z] & _); [split; [left; lia|lia]|].
               apply (Below_tree h _ L1) in Z. assert (I : In z (flatten (Node y ks))) by (right; exact Z). split; [right; exact I|]. pose proof (ltree_lt _ _ _ (lw_forest _ W) L1 Yl z I). lia. }
             destruct Z as (Z & Zg). split; [|split; [lia|destruct Z as [Z|Z]; [left; exact Z|right; cbn [flat_map]; apply in_or_app; left; exact Z]]].
             apply R3; [exact Zg|]. intros (r & Hr & Fr & T). assert (I : In z (flat_map flatten cs)) by (destruct T as [->|T]; [exact Hr|eapply (forest_closed h cs L2); eauto]).
             destruct Z as [Z|Z]; [pose proof (Lcs z I); lia|eapply N4; eauto].
          -- destruct (R4 s z Hs Q) as (A & B & D). split; [exact A|]. split; [exact B|]. destruct D as [D|D]; [left; lia|right; cbn [flat_map]; apply in_or_app; right; exact D].
        * exists (S (N1' + N2')). intros [|f] Hf; [lia|]. rewrite Wx. unfold bind. rewrite O6, Py, R5 by lia. cbn [existsb s_loaded]. unfold ret. rewrite orb_false_r. reflexivity.
      + (* an ordinary item *)
        apply map_eq_app in ER as (st1 & st2 & -> & E1 & E2). apply Calls_app in HC as (g & C1 & C2).
        destruct (IH ks y [] h st1 g) as (A1 & A2 & A3 & A4 & N1' & A5); try assumption.
        { lia. } { symmetry. exact Ek. } { intros r z Hr. apply (NN r z). right. apply in_or_app. left. exact Hr. }
        assert (Fra : forall z, z < hnext h -> ~ In z (flatten (Node y ks)) -> view g z = view h z).
        { intros z Hz I. apply A3; [exact Hz|]. intros (r & Hr & Fr & T). apply I. right. destruct T as [->|T]; [exact Hr|eapply (forest_closed h ks Lk); eauto]. }
        destruct (Rest g st2 A1 A2 Fra E2 C2) as (R1 & R2 & R3 & R4 & N2' & R5).
        split; [exact R1|]. split; [lia|]. split; [|split].
        * intros z Hz T. rewrite R3; [|lia|].
          -- apply A3; [exact Hz|]. intros (r & Hr & Q). apply T. exists r. split; [cbn [flat_map flatten]; right; apply in_or_app; left; exact Hr|exact Q].
          -- intros (r & Hr & Q). apply T. exists r. split; [cbn [flat_map]; apply in_or_app; right; exact Hr|exact Q].
        * intros s z Hs Q. apply in_app_or in Hs as [Hs|Hs].
          -- destruct (A4 s z Hs Q) as (B1 & B2 & B3).
             assert (Z : hnext h <= z \/ In z (flatten (Node y ks))) by (destruct B3 as [B3|B3]; [left; exact B3|right; right; exact B3]).
             split; [|split; [lia|destruct Z as [Z|Z]; [left; exact Z|right; cbn [flat_map]; apply in_or_app; left; exact Z]]].
             rewrite <- B1. apply R3; [exact B2|]. intros (r & Hr & Fr & T). assert (I : In z (flat_map flatten cs)) by (destruct T as [->|T]; [exact Hr|eapply (forest_closed h cs L2); eauto]).
             destruct Z as [Z|Z]; [pose proof (Lcs z I); lia|eapply N4; eauto].
          -- destruct (R4 s z Hs Q) as (A & B & D). split; [exact A|]. split; [exact B|]. destruct D as [D|D]; [left; lia|right; cbn [flat_map]; apply in_or_app; right; exact D].
        * exists (S (N1' + N2')). intros [|f] Hf; [lia|]. rewrite Wx. unfold bind, ret. cbn [length] in A5. rewrite A5, R5 by lia. rewrite existsb_app. reflexivity.
  Qed.
End Proofs.

(** ** The calls go through if the targets are apart from the link roots *)
Section Static.
  Variables (to : loc -> loc) (ch : loc -> bool) (force : bool) (n : nat).
  Let tgt : heap -> loc -> res loc := fun _ y => Ok (to y).
  Let chg : heap -> loc -> bool := fun _ y => ch y.
  Definition whole (h : heap) (a y : loc) : Prop := y = a \/ Below h a y.
  Lemma whole_same h g a : (forall y, whole h a y -> view g y = view h y) -> forall y, whole g a y <-> whole h a y.
  Proof.
    intros E y. split; intros [->|B]; try (left; reflexivity); right.
    - assert (Below h a y) as K; [|exact K]. induction B as [y Hy|q y B IH Hy]; unfold children in Hy.
      + rewrite E in Hy by (left; reflexivity). apply below_child. exact Hy.
      + rewrite E in Hy by (right; exact IH). eapply below_step; [exact IH|exact Hy].
    - induction B as [y Hy|q y B IH Hy]; unfold children in Hy.
      + rewrite <- E in Hy by (left; reflexivity). apply below_child. exact Hy.
      + rewrite <- (E q) in Hy by (right; exact B). eapply below_step; [exact IH|exact Hy].
  Qed.
  Lemma below_same1 h g a : (forall y, whole h a y -> view g y = view h y) -> forall y, Below g a y <-> Below h a y.
  Proof.
    intros E y. split; intros B.
    - induction B as [y Hy|q y B IH Hy]; unfold children in Hy.
      + rewrite E in Hy by (left; reflexivity). apply below_child. exact Hy.
      + rewrite E in Hy by (right; exact IH). eapply below_step; [exact IH|exact Hy].
    - induction B as [y Hy|q y B IH Hy]; unfold children in Hy.
      + rewrite <- E in Hy by (left; reflexivity). apply below_child. exact Hy.
      + rewrite <- (E q) in Hy by (right; exact B). eapply below_step; [exact IH|exact Hy].
  Qed.
  Lemma whole_lt h a y : LWF h -> a < hnext h -> whole h a y -> y < hnext h.
  Proof. intros W Ha [->|B]; [exact Ha|]. inversion B as [z K|q z _ K]; subst; [exact (proj2 (LWF_child_lt h a y W K))|exact (proj2 (LWF_child_lt h q y W K))]. Qed.
  Lemma apart h r a y : LWF h -> a <> r -> ~ In a (children h r) -> ~ Below h a r -> whole h a y -> y <> r /\ ~ In y (children h r).
  Proof.
    intros W A1 A2 A3 [->|B]; [auto|]. split; [intros ->; auto|]. intros I. pose proof (fo_child _ _ (lw_forest _ W) r y I) as P.
    inversion B as [z Hz|q z Bq Hz]; subst; pose proof (fo_child _ _ (lw_forest _ W) _ y Hz) as P'; rewrite P in P'; injection P' as <-; auto.
  Qed.
  Lemma fam_index_same h g p y : view g p = view h p -> (forall c, In c (children h p) -> view g c = view h c) -> tag_of g y = tag_of h y -> fam_index g p y = fam_index h p y.
  Proof.
    intros E C T. unfold fam_index. rewrite T. f_equal. unfold with_tag. rewrite E. apply filter_ext_in. intros c Hc. rewrite (C c Hc). reflexivity.
  Qed.
  (** what is asked of a link root *)
  Definition good_root (h : heap) (rs : list loc) (r : loc) : Prop :=
    load_case tgt chg force h r (to r) /\ (forall y, Below h r y -> flag h y 5 = false) /\ (forall y, whole h (to r) y -> flag h y 5 = false) /\ (forall r', In r' rs -> ~ Below h r' (to r)).

  Lemma static_step h rs r : LReach h -> ~ In r rs -> (forall r', In r' (r :: rs) -> good_root h (r :: rs) r') ->
    exists g, load_links tgt chg force (S n) r h = (g, Ok true) /\ LReach g /\
      (forall r', In r' rs -> good_root g rs r' /\ forall y, whole h r' y \/ whole h (to r') y -> view g y = view h y).
  Proof.
    intros LR Hr G. destruct (lreach_ok h LR) as (W & HH). destruct (G r (or_introl eq_refl)) as (LC & Gn & Gt & Gb).
    destruct (load_ready _ _ _ _ _ _ W HH LC) as (Cs & lk & R & TA). destruct (load_near tgt chg force n h r (to r) Cs lk R) as (g & E & NA & NP).
    destruct (load_facts tgt chg force n h r (to r) g LR LC (fun y B => Gt y (or_intror B)) E Gn) as (LG & Hn & FR & _ & _).
    destruct (lreach_ok g LG) as (Wg & _). exists g. split; [exact E|]. split; [exact LG|]. intros r' Hr'. destruct (G r' (or_intror Hr')) as (LC' & Gn' & Gt' & Gb').
    assert (Fr5 : flag h r 5 = true) by apply LC. assert (Fr5' : flag h r' 5 = true) by apply LC'.
    assert (Nrr : r' <> r) by (intros ->; contradiction).
    assert (Vr : forall y, whole h r' y -> view g y = view h y).
    { intros y Hy. destruct (apart h r r' y W Nrr) as (Y1 & Y2); [intros I; pose proof (Gn r' (below_child h r r' I)); congruence|intros B; pose proof (Gn' r B); congruence|exact Hy|].
      apply FR; [eapply whole_lt; [exact W|apply LC'|exact Hy]|exact Y1|exact Y2]. }
    assert (Tr : to r' <> r) by (intros Q; pose proof (Gt' r (or_introl (eq_sym Q))); congruence).
    assert (Ap : forall y, whole h (to r') y -> y <> r /\ ~ In y (children h r)).
    { intros y Hy. eapply apart; [exact W|exact Tr| | |exact Hy]; [intros I; apply (Gb' r (or_introl eq_refl)); apply below_child; exact I|].
      intros B. pose proof (Gt' r (or_intror B)). congruence. }
    assert (Vt : forall y, whole h (to r') y -> view g y = view h y).
    { intros y Hy. destruct (Ap y Hy) as (Y1 & Y2). apply FR; [eapply whole_lt; [exact W|exact (lc_t _ _ _ _ _ _ LC')|exact Hy]|exact Y1|exact Y2]. }
    split; [|intros y [Hy|Hy]; auto].
    pose proof (below_same1 h g r' Vr) as Br. pose proof (below_same1 h g (to r') Vt) as Bt.
    assert (V0 : view g r' = view h r') by (apply Vr; left; reflexivity). assert (T0 : view g (to r') = view h (to r')) by (apply Vt; left; reflexivity).
    assert (Cr : children g r' = children h r') by (unfold children; rewrite V0; reflexivity). assert (Ct : children g (to r') = children h (to r')) by (unfold children; rewrite T0; reflexivity).
    assert (Vk : forall c, In c (children h r') -> view g c = view h c) by (intros c Hc; apply Vr; right; apply below_child; exact Hc).
    assert (Vc : forall c, In c (children h (to r')) -> view g c = view h c) by (intros c Hc; apply Vt; right; apply below_child; exact Hc).
    split; [|split; [|split]].
    - destruct LC' as [L1 L2 L3 L4 L5 L6 L7 L8 L9]. constructor.
      + lia.
      + unfold flag. rewrite V0. exact L2.
      + rewrite V0. exact L3.
      + rewrite Cr. intros y Hy. unfold flag. rewrite (Vk y Hy). intros F. rewrite (L4 y Hy F). do 2 f_equal. symmetry. apply fam_index_same; [exact V0|exact Vk|unfold tag_of; rewrite (Vk y Hy); reflexivity].
      + reflexivity.
      + lia.
      + split; [apply L7|]. intros B. apply Bt in B. apply L7. exact B.
      + rewrite Ct. intros c Hc. destruct (L8 c Hc) as (K1 & K2 & K3). unfold flag. rewrite (Vc c Hc). split; [exact K1|]. split; [exact K2|].
        destruct (in_split _ _ Hc) as (l1 & l2 & El). pose proof (known_near h (to r') l1 c l2 W El K3) as Nh.
        assert (Ng : near g c (length (byt (tags g) (ntag (hnode g c)) l1))).
        { assert (Tg : forall z, In z (children h (to r')) -> ntag (hnode g z) = ntag (hnode h z)) by (intros z Hz; exact (f_equal a_tag (Vc z Hz))).
          assert (Eb : byt (tags g) (ntag (hnode g c)) l1 = byt (tags h) (ntag (hnode h c)) l1).
          { rewrite (Tg c Hc). apply filter_ext_in. intros z Hz. rewrite Tg by (rewrite El; apply in_or_app; left; exact Hz). reflexivity. }
          rewrite Eb. destruct (in_dec Nat.eq_dec c (map root Cs)) as [I|I].
          - assert (Et : to r = to r').
            { pose proof (fo_child _ _ (lw_forest _ W) (to r') c Hc) as P1. assert (I2 : In c (children h (to r))) by (destruct TA as (_ & TA); apply ltree_iff in TA as (TA & _); unfold children; rewrite <- TA; exact I).
              pose proof (fo_child _ _ (lw_forest _ W) (to r) c I2) as P2. rewrite P1 in P2. injection P2 as P2. auto. }
            assert (Ecs : map root Cs = l1 ++ c :: l2) by (destruct TA as (_ & TA); apply ltree_iff in TA as (TA & _); rewrite TA, Et; exact El).
            pose proof (NA l1 c l2 Ecs) as Q. cbn [app] in Q. rewrite Eb in Q. exact Q.
          - intros pl Hp. apply Nh. destruct (Ap c (or_intror (below_child h (to r') c Hc))) as (Y1 & Y2). rewrite NP in Hp; [exact Hp| |exact Y1|exact Y2|exact I].
            apply (LWF_child_lt h (to r') c W Hc). }
        pose proof (LWF_kids_of g (to r') Wg) as KO. change (nitems (hnode g (to r'))) with (children g (to r')) in KO. rewrite Ct, El in KO.
        destruct (tag_idx_at g (to r') l1 c l2 KO Ng) as (g2 & Eg & _). exists (ntag (hnode g c)). eexists. rewrite Eg. reflexivity.
      + rewrite Ct. intros c y Hc By. assert (By' : Below h (to r') y).
        { assert (Wc : forall z, whole h c z -> view g z = view h z) by (intros z [->|Bz]; [auto|]; apply Vt; right; clear -Hc Bz; induction Bz; [eapply below_step; [apply below_child; exact Hc|assumption]|eapply below_step; eauto]).
          apply (below_same1 h g c Wc) in By. clear -Hc By. induction By; [eapply below_step; [apply below_child; exact Hc|assumption]|eapply below_step; eauto]. }
        assert (Byc : Below h c y).
        { assert (Wc : forall z, whole h c z -> view g z = view h z) by (intros z [->|Bz]; [auto|]; apply Vt; right; clear -Hc Bz; induction Bz; [eapply below_step; [apply below_child; exact Hc|assumption]|eapply below_step; eauto]).
          apply (below_same1 h g c Wc) in By. exact By. }
        pose proof (L9 c y Hc Byc) as K. unfold copyable, flag in *. rewrite (Vt y (or_intror By')). exact K.
    - intros y B. apply Br in B. unfold flag. rewrite (Vr y (or_intror B)). apply Gn'. exact B.
    - intros y Hy. apply (whole_same h g (to r') Vt) in Hy. unfold flag. rewrite (Vt y Hy). apply Gt'. exact Hy.
    - intros r2 Hr2 B. apply (Gb' r2 (or_intror Hr2)).
      destruct (G r2 (or_intror Hr2)) as (LC2 & Gn2 & _ & _). assert (flag h r2 5 = true) by apply LC2.
      assert (V2 : forall y, whole h r2 y -> view g y = view h y).
      { intros y Hy. destruct (apart h r r2 y W) as (Y1 & Y2); [intros ->; contradiction|intros I; pose proof (Gn r2 (below_child h r r2 I)); congruence|intros B2; pose proof (Gn2 r B2); congruence|exact Hy|].
        apply FR; [eapply whole_lt; [exact W|apply LC2|exact Hy]|exact Y1|exact Y2]. }
      apply (below_same1 h g r2 V2). exact B.
  Qed.

  Lemma static_calls : forall rs h, LReach h -> NoDup rs -> (forall r, In r rs -> good_root h rs r) ->
    exists steps h', Calls tgt chg force n h steps h' /\ map s_root steps = rs /\
      (forall s, In s steps -> s_loaded s = true /\ LReach (s_before s) /\ load_case tgt chg force (s_before s) (s_root s) (to (s_root s)) /\
         load_links tgt chg force (S n) (s_root s) (s_before s) = (s_after s, Ok true) /\
         forall y, whole h (s_root s) y \/ whole h (to (s_root s)) y -> view (s_before s) y = view h y).
  Proof.
    induction rs as [|r rs IH]; intros h LR ND G; [exists [], h; split; [constructor|]; split; [reflexivity|intros s []]|].
    inversion ND as [|a b N1 N2]; subst. destruct (static_step h rs r LR N1 G) as (g & E & LG & Gg).
    destruct (IH g LG N2 (fun r' Hr' => proj1 (Gg r' Hr'))) as (st & h' & C & M & S). destruct (G r (or_introl eq_refl)) as (LC & _ & Gt & _).
    exists (Step r h g true :: st), h'. split; [eapply Calls_load; [exact LC|intros y B; apply Gt; right; exact B|exact E|exact C]|]. split; [cbn [map s_root]; rewrite M; reflexivity|].
    intros s [<-|Hs]; [cbn; split; [reflexivity|]; split; [exact LR|]; split; [exact LC|]; split; [exact E|reflexivity]|].
    destruct (S s Hs) as (A1 & A2 & A3 & A4 & A5). split; [exact A1|]. split; [exact A2|]. split; [exact A3|]. split; [exact A4|].
    assert (I : In (s_root s) rs) by (rewrite <- M; apply in_map; exact Hs). destruct (Gg _ I) as (_ & V). intros y Hy. rewrite A5; [apply V; exact Hy|].
    destruct Hy as [Hy|Hy]; [left|right]; (eapply whole_same; [|exact Hy]); intros z Hz; apply V; auto.
  Qed.
End Static.

(** * C99: loading all links of a tree *)
(** load_links on an item that is no link root: the link roots below are loaded one after the other in
    document order, and nothing else happens; the result tells whether one of them was loaded.  What a
    call has loaded is not touched by the later ones.  [fuel] only bounds the traversal; n + 2 is the
    number of nested calls allowed (201 in the code). *)
Theorem C99_calls_partial : forall target_of changed force n h x T steps h',
  LReach h -> x < hnext h -> tree_at h x T -> flag h x 5 = false ->
  (forall r y, In r (link_roots h T) -> Below h r y -> flag h y 5 = false) ->
  Calls target_of changed force n h steps h' -> map s_root steps = link_roots h T ->
  LReach h' /\ (exists N, forall fuel, N <= fuel -> load_tree target_of changed force (S (S n)) fuel x h = (h', Ok (existsb s_loaded steps))) /\
  (forall y, y < hnext h -> ~ In y (link_roots h T) -> (forall r, In r (link_roots h T) -> ~ In y (children h r)) -> view h' y = view h y) /\
  (forall s y, In s steps -> y = s_root s \/ Below (s_after s) (s_root s) y -> view h' y = view (s_after s) y).
Proof.
  intros to ch f n h x T steps h' LR Hx (Er & TA) Fx NN HC ER. destruct T as [x0 cs]. cbn [root] in Er. subst x0. pose proof TA as TA'. apply ltree_iff in TA' as (Ek & Lk).
  unfold link_roots, below_tree in *. cbn [kids] in *.
  destruct (walk_ok to ch f n (sizes cs) cs x [] h steps h') as (A1 & A2 & A3 & A4 & N & A5); try assumption.
  - lia.
  - symmetry. exact Ek.
  - intros r y Hr Fr. apply NN. apply filter_In. auto.
  - split; [exact A1|]. split; [|split].
    + exists N. intros fuel Hf. unfold load_tree, bind, gets. rewrite root_flag, Fx. apply A5. exact Hf.
    + intros y Hy R1 R2. apply A3; [exact Hy|]. intros (r & Hr & Fr & Q). assert (I : In r (filter (fun y => flag h y 5) (flat_map flatten cs))) by (apply filter_In; auto).
      destruct Q as [->|Q]; [apply R1; exact I|apply (R2 r I Q)].
    + intros s y Hs Q. apply (A4 s y Hs Q).
Qed.

(** With targets that contain no link roots and are not inside link roots of the tree, all links are
    loaded: each link root as C46 describes it for a single call (from [g] to [g'], where [g] does not
    differ from the original state in the items that matter for it). *)
Theorem C99_all_partial : forall (target : loc -> loc) (changed : loc -> bool) force n h x T,
  let target_of := fun (_ : heap) y => Ok (target y) in let chg := fun (_ : heap) y => changed y in
  LReach h -> x < hnext h -> tree_at h x T -> flag h x 5 = false ->
  (forall r, In r (link_roots h T) ->
     load_case target_of chg force h r (target r) /\
     (forall y, Below h r y -> flag h y 5 = false) /\ (forall y, y = target r \/ Below h (target r) y -> flag h y 5 = false) /\
     (forall r', In r' (link_roots h T) -> ~ Below h r' (target r))) ->
  exists h', LReach h' /\
    (exists N, forall fuel, N <= fuel -> load_tree target_of chg force (S (S n)) fuel x h = (h', Ok (match link_roots h T with [] => false | _ => true end))) /\
    (forall r, In r (link_roots h T) -> exists g g', LReach g /\ load_case target_of chg force g r (target r) /\ load_links target_of chg force (S n) r g = (g', Ok true) /\
       (forall y, y = r \/ Below h r y \/ y = target r \/ Below h (target r) y -> view g y = view h y) /\
       (forall y, y = r \/ Below g' r y -> view h' y = view g' y)) /\
    (forall y, y < hnext h -> ~ In y (link_roots h T) -> (forall r, In r (link_roots h T) -> ~ In y (children h r)) -> view h' y = view h y).
Proof.
  intros to ch f n h x T tgt chg LR Hx TA Fx G. destruct (lreach_ok h LR) as (W & _).
  assert (ND : NoDup (link_roots h T)).
  { apply NoDup_filter. destruct TA as (Er & TA). pose proof (ltree_NoDup _ _ _ (lw_forest _ W) TA) as ND. destruct T. cbn [flatten] in ND. inversion ND; assumption. }
  destruct (static_calls to ch f n (link_roots h T) h LR ND) as (st & h' & C & M & S).
  { intros r Hr. destruct (G r Hr) as (A & B & D & E). split; [exact A|]. split; [exact B|]. split; [exact D|exact E]. }
  destruct (C99_calls_partial tgt chg f n h x T st h' LR Hx TA Fx (fun r y Hr => proj1 (proj2 (G r Hr)) y) C M) as (A1 & (N & A2) & A3 & A4).
  exists h'. split; [exact A1|]. split; [|split; [|exact A3]].
  - exists N. intros fuel Hf. rewrite (A2 fuel Hf). do 2 f_equal. rewrite <- M. destruct st as [|s st]; [reflexivity|]. cbn [existsb map]. rewrite (proj1 (S s (or_introl eq_refl))). reflexivity.
  - intros r Hr. rewrite <- M in Hr. apply in_map_iff in Hr as (s & <- & Hs). destruct (S s Hs) as (_ & B1 & B2 & B3 & B4). exists (s_before s), (s_after s).
    split; [exact B1|]. split; [exact B2|]. split; [exact B3|]. split; [|intros y Q; apply (A4 s y Hs Q)].
    intros y Q. apply B4. unfold whole. tauto.
Qed.
(** Link roots without children get the children of their targets. *)
Theorem C99_first_partial : forall (target : loc -> loc) (changed : loc -> bool) force n h x T,
  let target_of := fun (_ : heap) y => Ok (target y) in let chg := fun (_ : heap) y => changed y in
  LReach h -> x < hnext h -> tree_at h x T -> flag h x 5 = false ->
  (forall r, In r (link_roots h T) -> children h r = [] /\
     load_case target_of chg force h r (target r) /\ (forall y, y = target r \/ Below h (target r) y -> flag h y 5 = false)) ->
  exists h' N, LReach h' /\ (forall fuel, N <= fuel -> load_tree target_of chg force (S (S n)) fuel x h = (h', Ok (match link_roots h T with [] => false | _ => true end))) /\
    (forall r, In r (link_roots h T) -> map (tag_value h') (children h' r) = map (tag_value h) (children h (target r)) /\
       (forall y, In y (children h' r) -> flag h' y 3 = true) /\ exists lk, a_link (view h' r) = Some lk /\ lk_loaded lk = true) /\
    (forall y, y < hnext h -> ~ In y (link_roots h T) -> view h' y = view h y).
Proof.
  intros to ch f n h x T tgt chg LR Hx TA Fx G.
  assert (NB : forall r y, In r (link_roots h T) -> ~ Below h r y).
  { intros r y Hr B. destruct (G r Hr) as (E & _). induction B as [y K|q y B IH K]; [rewrite E in K; destruct K|exact IH]. }
  destruct (C99_all_partial to ch f n h x T LR Hx TA Fx) as (h' & A1 & (N & A2) & A3 & A4).
  { intros r Hr. destruct (G r Hr) as (_ & B1 & B2). split; [exact B1|]. split; [intros y B; destruct (NB r y Hr B)|]. split; [exact B2|]. intros r' Hr' B. apply (NB r' _ Hr' B). }
  exists h', N. split; [exact A1|]. split; [exact A2|]. split.
  - intros r Hr. destruct (A3 r Hr) as (g & g' & L1 & L2 & L3 & V1 & V2). destruct (G r Hr) as (E & LC & _).
    assert (Eg : children g r = []) by (unfold children; rewrite V1 by auto; exact E).
    destruct (C44_copy_partial tgt chg f n g r (to r) L1 L2 Eg) as (g0 & T0 & T' & E0 & L0 & TT & TT' & M1 & _ & _ & M2 & _ & _ & _ & _ & M3).
    assert (Q : (g', Ok true) = (g0, Ok true)) by exact (eq_trans (eq_sym L3) E0). injection Q as <-.
    assert (Vr : view h' r = view g' r) by (apply V2; auto). assert (Vc : forall c, In c (children g' r) -> view h' c = view g' c) by (intros c Hc; apply V2; right; apply below_child; exact Hc).
    assert (Cr : children h' r = children g' r) by (unfold children; rewrite Vr; reflexivity).
    split; [|split].
    + rewrite Cr. transitivity (map (tag_value g') (children g' r)); [apply map_ext_in; intros c Hc; unfold tag_value, tag_of; rewrite (Vc c Hc); reflexivity|]. rewrite M1.
      assert (Ct : children g (to r) = children h (to r)) by (unfold children; rewrite V1 by auto; reflexivity). rewrite Ct.
      apply map_ext_in. intros c Hc. unfold tag_value, tag_of. rewrite V1; [reflexivity|]. right. right. right. apply below_child. exact Hc.
    + rewrite Cr. intros y Hy. destruct (M2 y) as (K1 & K2).
      { destruct TT' as (Er & TT'). rewrite <- Er in Hy. apply (Below_tree g' _ TT'). apply below_child. exact Hy. }
      unfold flag; rewrite (Vc y Hy); exact K2.
    + rewrite Vr. exact M3.
  - intros y Hy R1. apply A4; [exact Hy|exact R1|]. intros r Hr. destruct (G r Hr) as (-> & _). intros [].
Qed.

(** *** cases *)
(** "t" (0) with "a", "b"; "u" (3) with "c"; "top" (8) with the link root 5 and "mid" (7), which has the link root 6 *)
Definition lt_ops : list op :=
  [ ONew (PStr "t") PNoValue [EArgs (PStr "a") (PInt 1); EArgs (PStr "b") (PInt 2)] None 0; ONew (PStr "u") PNoValue [EArgs (PStr "c") (PInt 3)] None 0;
    ONew (PStr "link1") (PInt 5) [] (Some 1) 0; ONew (PStr "link2") (PInt 6) [] (Some 2) 0; ONew (PStr "mid") PNoValue [] None 0; OAppend 7 (IItem 6);
    ONew (PStr "top") PNoValue [] None 0; OAppend 8 (IItem 5); OAppend 8 (IItem 7) ].
Definition lt_heap : heap := runs lt_ops empty_heap.
Definition lt_tree : tree loc := Node 8 [Node 5 []; Node 7 [Node 6 []]].
Definition lt_target (r : loc) : loc := if Nat.eqb r 5 then 0 else 3.
Lemma lt_reach : LReach lt_heap. Proof. apply Reach_LReach, reach_runs; [constructor|vm_compute; reflexivity]. Qed.
Lemma load_case_any tgt ch f h x t : load_case (fun _ _ => Ok t) ch f h x t -> tgt h x = Ok t -> load_case tgt ch f h x t.
Proof. intros [] E. constructor; assumption. Qed.
Definition tvs (h : heap) (x : loc) : list (pyval * pyval) := map (tag_value h) (children h x).
Example C99_case : LReach lt_heap /\ tree_at lt_heap 8 lt_tree /\ flag lt_heap 8 5 = false /\ link_roots lt_heap lt_tree = [5; 6] /\
  (forall r, In r [5; 6] -> children lt_heap r = [] /\ load_case (fun _ y => Ok (lt_target y)) never false lt_heap r (lt_target r) /\
     (forall y, y = lt_target r \/ Below lt_heap (lt_target r) y -> flag lt_heap y 5 = false)) /\
  let r := load_tree (fun _ y => Ok (lt_target y)) never false 201 100 8 lt_heap in snd r = Ok true /\
  tvs (fst r) 5 = [(PStr "a", PInt 1); (PStr "b", PInt 2)] /\ tvs (fst r) 6 = [(PStr "c", PInt 3)].
Proof.
  split; [exact lt_reach|]. split; [split; [reflexivity|vm_compute; auto 20]|]. split; [vm_compute; reflexivity|]. split; [vm_compute; reflexivity|].
  assert (T0 : tree_at lt_heap 0 (Node 0 [Node 1 []; Node 2 []])) by (split; [reflexivity|vm_compute; auto 20]).
  assert (T3 : tree_at lt_heap 3 (Node 3 [Node 4 []])) by (split; [reflexivity|vm_compute; auto 20]).
  split.
  - intros r [<-|[<-|[]]].
    + split; [vm_compute; reflexivity|]. split; [apply load_case_any; [apply (load_b_ok never false lt_heap 5 _ T0); vm_compute; reflexivity|reflexivity]|].
      intros y Q. assert (Hy : In y [0; 1; 2]) by (destruct Q as [->|Q]; [left; reflexivity|right; apply (Below_tree lt_heap _ (proj2 T0)) in Q; exact Q]). destruct Hy as [<-|[<-|[<-|[]]]]; vm_compute; reflexivity.
    + split; [vm_compute; reflexivity|]. split; [apply load_case_any; [apply (load_b_ok never false lt_heap 6 _ T3); vm_compute; reflexivity|reflexivity]|].
      intros y Q. assert (Hy : In y [3; 4]) by (destruct Q as [->|Q]; [left; reflexivity|right; apply (Below_tree lt_heap _ (proj2 T3)) in Q; exact Q]). destruct Hy as [<-|[<-|[]]]; vm_compute; reflexivity.
  - cbv zeta. split; [vm_compute; reflexivity|]. split; vm_compute; reflexivity.
Qed.

(** *** limits *)
(** If the target of one link root is missing, the call fails with the links before it loaded. *)
Theorem C99_half_refuted : exists h x T, LReach h /\ tree_at h x T /\ link_roots h T = [5; 6] /\
  let target_of := fun (_ : heap) y => if Nat.eqb y 5 then Ok 0 else Err SyntaxError in
  let r := load_tree target_of never false 201 100 x h in
  snd r = Err SyntaxError /\ children h 5 = [] /\ tvs (fst r) 5 = tvs h 0 /\ children h 0 <> [].
Proof.
  exists lt_heap, 8, lt_tree. split; [exact lt_reach|]. split; [split; [reflexivity|vm_compute; auto 20]|]. split; [vm_compute; reflexivity|]. cbv zeta.
  split; [vm_compute; reflexivity|]. split; [vm_compute; reflexivity|]. split; [vm_compute; reflexivity|]. vm_compute. discriminate.
Qed.
(** A target that contains a link root is changed: its link is loaded, too. *)
Definition ln_heap : heap := runs
  [ ONew (PStr "u") PNoValue [EArgs (PStr "c") (PInt 3)] None 0; ONew (PStr "inner") (PInt 2) [] (Some 2) 0; ONew (PStr "t") PNoValue [] None 0; OAppend 3 (IItem 2);
    ONew (PStr "link") (PInt 4) [] (Some 1) 0; ONew (PStr "top") PNoValue [] None 0; OAppend 5 (IItem 4) ] empty_heap.
Theorem C99_target_links_refuted : exists h x T t c, LReach h /\ tree_at h x T /\ link_roots h T = [4] /\ In c (children h t) /\ ~ Below h x c /\ children h c = [] /\
  let target_of := fun (_ : heap) y => Ok (if Nat.eqb y 4 then t else 0) in
  let r := load_tree target_of never false 201 100 x h in snd r = Ok true /\ tvs (fst r) c = [(PStr "c", PInt 3)].
Proof.
  exists ln_heap, 5, (Node 5 [Node 4 []]), 3, 2. split; [apply Reach_LReach, reach_runs; [constructor|vm_compute; reflexivity]|].
  assert (TA : tree_at ln_heap 5 (Node 5 [Node 4 []])) by (split; [reflexivity|vm_compute; auto 20]).
  split; [exact TA|]. split; [vm_compute; reflexivity|]. split; [vm_compute; auto|].
  split; [intros B; apply (Below_tree ln_heap _ (proj2 TA)) in B; destruct B as [B|[]]; discriminate B|].
  split; [vm_compute; reflexivity|]. cbv zeta. split; vm_compute; reflexivity.
Qed.

Print Assumptions C99_calls_partial.
Print Assumptions C99_all_partial.
Print Assumptions C99_first_partial.
Print Assumptions C99_half_refuted.
Print Assumptions C99_target_links_refuted.
