(** copy() on the heap: a fresh isomorphic tree, everything else untouched. *)
From Verif Require Import Base Heap HeapSpec ListLemmas ForestLemmas HeapInv HeapAttach
  HeapOps HeapOps2 HeapOps3 HeapHoare Tree HeapTree.

(** what a copy is compared on *)
Record xlabel := XL { x_tag : pyval; x_val : pyval; x_flags : Z; x_src : option nat }.
Definition label (s : astate) (x : loc) : xlabel :=
  XL (a_tag (s x)) (a_val (s x)) (a_flags (s x)) (option_map lk_src (a_link (s x))).
(** flags are masked to the six defined bits; a link is kept on link roots only *)
Definition cp_label (l : xlabel) : xlabel :=
  XL (x_tag l) (x_val l)
     (if has (x_flags l) LINK_ROOT then Z.lor (Z.land (x_flags l) FLAG_MASK) LINK_ROOT
      else Z.land (x_flags l) FLAG_MASK)
     (if has (x_flags l) LINK_ROOT then x_src l else None).
(** a link root has a link object *)
Definition link_good (l : xlabel) : bool :=
  negb (has (x_flags l) LINK_ROOT) || match x_src l with Some _ => true | None => false end.

Lemma fresh_not_anc n s x y : Forest n s -> n <= x -> y <> x -> ~ Anc s x y.
Proof.
  intros F Hx Hy HA. induction HA as [|y q Hq HA IH]; [congruence|].
  destruct (Nat.eq_dec q x) as [->|Hne]; [|auto]. pose proof (fo_par _ _ F _ _ Hq). lia.
Qed.

Lemma Anc_same s s' a x : same s s' -> Anc s a x -> Anc s' a x.
Proof. intros E. apply Anc_ext. intros y. rewrite (E y). reflexivity. Qed.

(** attaching a just allocated item *)
Lemma append_fresh h p t v fl lk : WF h -> p < hnext h -> (forall k, lk = Some k -> lk_cover k = None) ->
  let h1 := fst (halloc h (fresh_node t v fl lk)) in
  exists h', append_core p (hnext h) h1 = (h', Ok tt) /\ WF h' /\ hnext h' = S (hnext h) /\
    (forall y, y <> p -> y <> hnext h -> view h' y = view h y) /\
    (forall y, y <> p -> y <> hnext h -> nbound (hnode h' y) = nbound (hnode h y)) /\
    view h' p = a_set_children (a_children (view h p) ++ [hnext h]) (view h p) /\
    view h' (hnext h) = AN t v fl (Some p) [] lk None.
Proof.
  intros W Hp Hlk h1. pose proof (halloc_WF h t v fl lk W Hlk) as W1. fold h1 in W1.
  assert (Hn1 : hnode h1 (hnext h) = fresh_node t v fl lk) by (cbn; rewrite Nat.eqb_refl; reflexivity).
  assert (Ho1 : forall y, y <> hnext h -> hnode h1 y = hnode h y).
  { intros y Hy. cbn. destruct (Nat.eqb_spec y (hnext h)); congruence. }
  assert (A : attachable h1 p (hnext h)).
  { split; [rewrite Hn1; reflexivity|]. split; [cbn; lia|]. split; [cbn; lia|].
    assert (E : forall y, a_parent (view h y) = a_parent (view h1 y)).
    { intros y. unfold view. destruct (Nat.eq_dec y (hnext h)) as [->|Hy]; [|rewrite (Ho1 y Hy); reflexivity].
      rewrite Hn1. cbn. apply (fo_alloc _ _ (wf_forest _ W) (hnext h) (le_n _)). }
    intros HA. apply (Anc_ext _ (view h)) in HA; [|intros; symmetry; apply E].
    eapply fresh_not_anc; [apply (wf_forest _ W)|apply le_n| |exact HA]. lia. }
  destruct (append_core_ok h1 W1 p (hnext h) A) as (h' & E & Q).
  exists h'. split; [exact E|].
  pose proof (mk_attach_WF h1 p (hnext h) (length (nitems (hnode h1 p))) W1 A) as W2.
  split; [eapply ceq_WF; eauto|]. split; [rewrite (ceq_next _ _ Q); reflexivity|].
  assert (V : forall y, view h' y = attach (view h1) p (hnext h) (length (nitems (hnode h1 p))) y).
  { intros y. rewrite (ceq_view _ _ Q). apply mk_attach_view. lia. }
  assert (Ep : view h1 p = view h p) by (unfold view; rewrite Ho1 by lia; reflexivity).
  repeat split.
  - intros y H1 H2. rewrite V. unfold attach.
    destruct (Nat.eqb_spec y p); [congruence|]. destruct (Nat.eqb_spec y (hnext h)); [congruence|].
    unfold view. rewrite Ho1 by assumption. reflexivity.
  - intros y H1 H2. rewrite (ceq_bound _ _ Q). unfold mk_attach. rewrite !hmod_other by assumption.
    rewrite Ho1 by assumption. reflexivity.
  - rewrite V. unfold attach. rewrite Nat.eqb_refl, Ep. f_equal.
    rewrite insert_at_end; [reflexivity|]. rewrite Ho1 by lia. apply le_n.
  - rewrite V. unfold attach. destruct (Nat.eqb_spec (hnext h) p); [lia|]. rewrite Nat.eqb_refl.
    unfold view. rewrite Hn1. reflexivity.
Qed.

Lemma a_set_children_twice l m a : a_set_children l (a_set_children m a) = a_set_children l a.
Proof. reflexivity. Qed.
Lemma a_set_children_id a : a_set_children (a_children a) a = a.
Proof. destruct a. reflexivity. Qed.

Section Copy.
  Context (h0 : heap) (W0 : WF h0).
  Let N := hnext h0.

  Definition CInv (h : heap) : Prop :=
    WF h /\ N <= hnext h /\
    forall y, y < N -> view h y = view h0 y /\ nbound (hnode h y) = nbound (hnode h0 y).

  (** outcome of copying the subtrees ks below dst *)
  Definition copied (h : heap) (dst : loc) (ks : list (tree loc)) (h' : heap) (r : res unit) : Prop :=
    CInv h' /\ hnext h <= hnext h' /\
    (forall y, y < hnext h -> y <> dst -> view h' y = view h y) /\
    match r with
    | Ok _ => exists cs',
        view h' dst = a_set_children (a_children (view h dst) ++ map root cs') (view h dst) /\
        Forall (ltree (view h')) cs' /\
        map (tmap (label (view h'))) cs' = map (tmap (fun y => cp_label (label (view h0) y))) ks /\
        (forall y, In y (flat_map flatten cs') -> hnext h <= y < hnext h') /\
        forallb (fun y => link_good (label (view h0) y)) (flat_map flatten ks) = true
    | Err e => (exists l, view h' dst = a_set_children l (view h dst)) /\
        e = AttributeError /\
        forallb (fun y => link_good (label (view h0) y)) (flat_map flatten ks) = false
    end.

  Lemma copy_node_case h x : x < N -> CInv h ->
    (link_good (label (view h0) x) = true /\
     exists lk, (forall k, lk = Some k -> lk_cover k = None) /\
       let l := cp_label (label (view h0) x) in
       option_map lk_src lk = x_src l /\
       copy_node x h = (fst (halloc h (fresh_node (x_tag l) (x_val l) (x_flags l) lk)), Ok (hnext h)))
    \/ (link_good (label (view h0) x) = false /\ copy_node x h = (h, Err AttributeError)).
  Proof.
    intros Hx (W & Hn & Hv). unfold copy_node. rewrite bind_gets.
    pose proof (proj1 (Hv x Hx)) as E.
    assert (Et : ntag (hnode h x) = a_tag (view h0 x)) by (rewrite <- E; reflexivity).
    assert (Ev : nval (hnode h x) = a_val (view h0 x)) by (rewrite <- E; reflexivity).
    assert (Ef : nflags (hnode h x) = a_flags (view h0 x)) by (rewrite <- E; reflexivity).
    assert (El : nlink (hnode h x) = a_link (view h0 x)) by (rewrite <- E; reflexivity).
    unfold copy_args, link_good, cp_label, label. cbn [x_flags x_src x_tag x_val].
    rewrite Et, Ev, Ef, El.
    destruct (has (a_flags (view h0 x)) LINK_ROOT) eqn:Er; cbn [negb orb andb].
    - destruct (a_link (view h0 x)) as [k|]; cbn [option_map].
      + left. split; [reflexivity|]. exists (Some (LK (lk_src k) false [] None)).
        split; [intros k' [= <-]; reflexivity|]. split; reflexivity.
      + right. split; reflexivity.
    - left. split; [reflexivity|]. exists None. split; [discriminate|]. split; reflexivity.
  Qed.

  Lemma copy_loop fuel :
    (forall T, height T < fuel -> ltree (view h0) T -> root T < N ->
       forall h dst, CInv h -> N <= dst < hnext h -> a_children (view h dst) = [] ->
       exists h' r, copy_children fuel (root T) dst h = (h', r) /\ copied h dst (kids T) h' r) ->
    forall ks, Forall (fun T => height T < fuel /\ ltree (view h0) T /\ root T < N) ks ->
    forall h dst, CInv h -> N <= dst < hnext h ->
    exists h' r,
      mapM_ (fun c => c' <- copy_node c ;; append_core dst c' ;;; copy_children fuel c c')
            (map root ks) h = (h', r) /\ copied h dst ks h' r.
  Proof.
    intros Hrec. induction ks as [|T ks IH]; intros Hks h dst Hinv Hdst.
    - exists h, (Ok tt). split; [reflexivity|]. split; [assumption|]. split; [lia|]. split; [auto|].
      exists []. cbn [map flat_map]. rewrite app_nil_r, a_set_children_id. repeat split; auto; try destruct H.
    - inversion Hks as [|? ? (HT1 & HT2 & HT3) Hks']; subst. cbn [map mapM_].
      destruct (copy_node_case h (root T) HT3 Hinv) as [(Hg & lk & Hlk & Hsrc & Ec)|(Hg & Ec)].
      + rewrite !bind_assoc, (bind_ok _ _ _ _ _ Ec).
        set (lb := cp_label (label (view h0) (root T))) in *.
        destruct Hinv as (W & Hn & Hv).
        destruct (append_fresh h dst (x_tag lb) (x_val lb) (x_flags lb) lk W) as
          (h1 & E1 & W1 & Hn1 & Vo1 & Vb1 & Vd1 & Vn1); [lia|assumption|].
        rewrite bind_assoc, (bind_ok _ _ _ _ _ E1).
        assert (Inv1 : CInv h1).
        { split; [assumption|]. split; [lia|]. intros y Hy. rewrite Vo1, Vb1 by lia. auto. }
        destruct (Hrec T HT1 HT2 HT3 h1 (hnext h) Inv1) as (h2 & r2 & E2 & (Inv2 & Hn2 & Vo2 & R2));
          [lia|rewrite Vn1; reflexivity|].
        destruct r2 as [[]|e].
        * rewrite (bind_ok _ _ _ _ _ E2).
          destruct R2 as (cs1 & Vd2 & Lt2 & Lab2 & Rng2 & Good2).
          destruct (IH Hks' h2 dst Inv2) as (h3 & r3 & E3 & (Inv3 & Hn3 & Vo3 & R3)); [lia|].
          exists h3, r3. split; [exact E3|]. split; [assumption|]. split; [lia|]. split.
          { intros y Hy Hyd. rewrite Vo3 by lia. rewrite Vo2 by lia. apply Vo1; lia. }
          assert (Vd2' : view h2 dst = view h1 dst) by (apply Vo2; lia).
          destruct r3 as [[]|e].
          -- destruct R3 as (cs2 & Vd3 & Lt3 & Lab3 & Rng3 & Good3).
             set (T1 := Node (hnext h) cs1).
             assert (Fr : forall y, In y (flatten T1) -> view h3 y = view h2 y).
             { intros y [<-|Hy]; [apply Vo3; lia|]. pose proof (Rng2 y Hy). apply Vo3; lia. }
             exists (T1 :: cs2). cbn [map root flat_map]. split; [|split; [|split; [|split]]].
             ++ rewrite Vd3, Vd2', Vd1. cbn [a_children]. rewrite a_set_children_twice.
                f_equal. cbn [a_children a_set_children]. rewrite <- app_assoc. reflexivity.
             ++ constructor; [|assumption]. apply (ltree_frame (view h2)).
                { intros y Hy. rewrite (Fr y Hy). reflexivity. }
                apply ltree_iff. split; [|assumption]. rewrite Vd2, Vn1. reflexivity.
             ++ f_equal; [|exact Lab3].
                rewrite (tmap_ext (label (view h3)) (label (view h2)))
                  by (intros y Hy; unfold label; rewrite (Fr y Hy); reflexivity).
                destruct T as [x ks']. cbn [tmap root kids] in *. unfold T1. cbn [tmap].
                f_equal; [|exact Lab2].
                unfold label at 1. rewrite Vd2, Vn1. cbn. subst lb. unfold cp_label, label in *. cbn in *.
                rewrite Hsrc. reflexivity.
             ++ intros y Hy. apply in_app_or in Hy as [[<-|Hy]|Hy].
                ** lia.
                ** pose proof (Rng2 y Hy). lia.
                ** pose proof (Rng3 y Hy). lia.
             ++ rewrite forallb_app. destruct T as [x ks']. cbn [flatten forallb root kids] in *.
                rewrite Hg, Good2, Good3. reflexivity.
          -- destruct R3 as ((l & Vd3) & -> & Bad3). split; [|split; [reflexivity|]].
             ++ exists l. rewrite Vd3, Vd2', Vd1, a_set_children_twice. reflexivity.
             ++ cbn [flat_map]. rewrite forallb_app, Bad3. apply andb_false_r.
        * rewrite (bind_err _ _ _ _ _ E2). exists h2, (Err e). split; [reflexivity|].
          split; [assumption|]. split; [lia|]. split; [intros y Hy Hyd; rewrite Vo2 by lia; apply Vo1; lia|].
          destruct R2 as ((l & Vd2) & -> & Bad2). split; [|split; [reflexivity|]].
          -- rewrite (Vo2 dst) by lia. eauto.
          -- cbn [flat_map]. rewrite forallb_app. destruct T as [x ks']. cbn [flatten forallb kids] in *.
             rewrite Bad2, andb_false_r. reflexivity.
      + rewrite !bind_assoc, (bind_err _ _ _ _ _ Ec). exists h, (Err AttributeError). split; [reflexivity|].
        split; [assumption|]. split; [lia|]. split; [auto|]. split; [|split; [reflexivity|]].
        * exists (a_children (view h dst)). symmetry. apply a_set_children_id.
        * cbn [flat_map]. rewrite forallb_app. destruct T as [x ks']. cbn [flatten forallb root] in *.
          rewrite Hg. reflexivity.
  Qed.

  Lemma copy_children_ok : forall fuel T, height T < fuel -> ltree (view h0) T -> root T < N ->
    forall h dst, CInv h -> N <= dst < hnext h -> a_children (view h dst) = [] ->
    exists h' r, copy_children fuel (root T) dst h = (h', r) /\ copied h dst (kids T) h' r.
  Proof.
    induction fuel as [|f IH]; intros T Hh HT Hr h dst Hinv Hdst Hc; [lia|].
    destruct T as [x ks]. cbn [root kids] in *. rewrite ltree_iff in HT. destruct HT as [H1 H2].
    cbn [copy_children]. rewrite bind_gets.
    assert (Ei : nitems (hnode h x) = map root ks).
    { change (nitems (hnode h x)) with (a_children (view h x)).
      rewrite (proj1 (proj2 (proj2 Hinv) x Hr)). symmetry. assumption. }
    rewrite Ei. apply copy_loop; auto.
    rewrite Forall_forall in *. intros T HT. split; [pose proof (height_kid x ks T HT); lia|].
    split; [auto|]. eapply Forest_child_lt; [apply (wf_forest _ W0)|]. rewrite <- H1.
    apply in_map. assumption.
  Qed.

  (** copy() as a whole *)
  Lemma copy_item_ok T : ltree (view h0) T -> root T < N ->
    exists h' r, copy_item (root T) h0 = (h', r) /\ WF h' /\ N <= hnext h' /\
      (forall y, y < N -> view h' y = view h0 y /\ nbound (hnode h' y) = nbound (hnode h0 y)) /\
      match r with
      | Ok x' => exists T', ltree (view h') T' /\ root T' = x' /\
          tmap (label (view h')) T' = tmap (fun y => cp_label (label (view h0) y)) T /\
          (forall y, In y (flatten T') -> N <= y < hnext h') /\
          parent_of h' x' = None /\
          forallb (fun y => link_good (label (view h0) y)) (flatten T) = true
      | Err e => e = AttributeError /\
          forallb (fun y => link_good (label (view h0) y)) (flatten T) = false
      end.
  Proof.
    intros HT Hr. unfold copy_item. rewrite bind_gets.
    assert (Inv0 : CInv h0) by (split; [assumption|]; split; [lia|auto]).
    destruct (copy_node_case h0 (root T) Hr Inv0) as [(Hg & lk & Hlk & Hsrc & Ec)|(Hg & Ec)].
    - rewrite (bind_ok _ _ _ _ _ Ec). set (lb := cp_label (label (view h0) (root T))) in *.
      set (h1 := fst (halloc h0 (fresh_node (x_tag lb) (x_val lb) (x_flags lb) lk))).
      pose proof (halloc_WF h0 (x_tag lb) (x_val lb) (x_flags lb) lk W0 Hlk) as W1. fold h1 in W1.
      assert (Ho1 : forall y, y <> N -> view h1 y = view h0 y).
      { intros y Hy. unfold view. cbn. fold N. destruct (Nat.eqb_spec y N); [congruence|reflexivity]. }
      assert (Hn1 : view h1 N = AN (x_tag lb) (x_val lb) (x_flags lb) None [] lk None).
      { unfold view. cbn. fold N. rewrite Nat.eqb_refl. reflexivity. }
      destruct (ltree_exists _ _ _ (wf_forest _ W0) Hr) as (T2 & HT2 & Er2 & Hh).
      assert (T2 = T) as -> by (eapply ltree_unique; eauto).
      destruct (copy_children_ok (S N) T) with (h := h1) (dst := N)
        as (h2 & r2 & E2 & (Inv2 & Hn2 & Vo2 & R2)); try assumption.
      + lia.
      + split; [assumption|]. split; [cbn; lia|]. intros y Hy. split; [apply Ho1; lia|].
        cbn. fold N. destruct (Nat.eqb_spec y N); [lia|reflexivity].
      + cbn. lia.
      + rewrite Hn1. reflexivity.
      + fold N. destruct r2 as [[]|e].
        * rewrite (bind_ok _ _ _ _ _ E2). destruct R2 as (cs & Vd & Lt & Lab & Rng & Good).
          exists h2, (Ok N). split; [reflexivity|]. destruct Inv2 as (W2 & Hle & Hv2).
          split; [assumption|]. split; [assumption|]. split; [assumption|].
          exists (Node N cs). split; [|split; [reflexivity|split; [|split; [|split]]]].
          -- apply ltree_iff. split; [|assumption]. rewrite Vd, Hn1. reflexivity.
          -- destruct T as [x ks]. cbn [tmap root kids] in *. f_equal; [|exact Lab].
             unfold label at 1. rewrite Vd, Hn1. cbn. subst lb. unfold cp_label, label in *. cbn in *.
             rewrite Hsrc. reflexivity.
          -- intros y [<-|Hy]; [cbn in Hn2; lia|]. pose proof (Rng y Hy) as Hyr. cbn in Hyr. lia.
          -- unfold parent_of. rewrite Vd, Hn1. reflexivity.
          -- destruct T as [x ks]. cbn [flatten forallb root kids] in *. rewrite Hg, Good. reflexivity.
        * rewrite (bind_err _ _ _ _ _ E2). destruct R2 as (_ & -> & Bad).
          exists h2, (Err AttributeError). split; [reflexivity|]. destruct Inv2 as (W2 & Hle & Hv2).
          split; [assumption|]. split; [assumption|]. split; [assumption|]. split; [reflexivity|].
          destruct T as [x ks]. cbn [flatten forallb kids] in *. rewrite Bad. apply andb_false_r.
    - rewrite (bind_err _ _ _ _ _ Ec). exists h0, (Err AttributeError). split; [reflexivity|].
      split; [assumption|]. split; [lia|]. split; [auto|]. split; [reflexivity|].
      destruct T as [x ks]. cbn [flatten forallb root] in *. rewrite Hg. reflexivity.
  Qed.
End Copy.
