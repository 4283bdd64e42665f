(** a - b: lemmas. *)
From Coq Require Import List Sorted.
From Verif Require Import Base Heap HeapSpec ListLemmas ForestLemmas HeapInv HeapAttach HeapOps HeapOps2 HeapOps3 HeapHist Tree HeapTree HeapCopy HeapLink HeapHash HeapMut HeapRead HeapExt HeapExt2 HeapOrd HeapOrd2 History Runs LinkFacts LinkFacts2 LinkLoad LinkSpec HeapLocal ArithModel.
Import ListNotations.
Local Open Scope list_scope.
Local Open Scope nat_scope.

(** * Only new items are written *)
Section LOCAL.
Variable R : loc -> Prop.
Variable R_dec : forall x, R x \/ ~ R x.
Variable h0 : heap.
Variable R_fresh : forall y, hnext h0 <= y -> R y.
Lemma sub_loop_lop (N : loc -> Prop) sub new : R new -> (forall x i, lop R h0 N R (sub x i)) ->
  forall l dels, lop R h0 N any (sub_loop sub new l dels).
Proof.
  intros Rn Hs. induction l as [|item l IH]; intros dels; cbn [sub_loop]; [apply lop_ret; exact Logic.I|].
  apply lop_bind with any; [apply get_tag_idx_lop|]. intros k _. apply lop_getsb. intros h I.
  destruct (getitem h new (TgVal (key_of k))) as [[x|]|] eqn:G; try apply lop_throw.
  destruct (item_eqb h x item).
  - apply lop_bind with any; [apply idx_lop|]. intros i _. apply IH.
  - apply lop_bind with R; [apply Hs|]. intros y Ry. apply lop_bind with R; [apply setitem_lop; auto; left; exact Ry|]. intros _ _. apply IH.
Qed.
Lemma sub_trees_lop (N : loc -> Prop) minus : forall f a b, lop R h0 N R (sub_trees minus f a b).
Proof.
  induction f as [|f IH]; intros a b; cbn [sub_trees]; [apply lop_throw|].
  apply lop_bind with R; [apply copy_item_lop; auto|]. intros new Rn. apply lop_getsb. intros h I.
  apply lop_bind with any; [apply lop_upd; [exact Rn| |exact Logic.I]; apply upk_use; intros n; apply upk_tag, upk_id|]. intros _ _.
  apply lop_bind with any; [apply lop_upd; [exact Rn| |exact Logic.I]; apply upk_use; intros n; apply upk_val, upk_id|]. intros _ _.
  apply lop_getsb. intros h1 I1. apply lop_bind with any; [apply sub_loop_lop; auto|]. intros dels _.
  apply lop_bind with any.
  - apply mapM__lop. intros i _. apply lop_bind with R; [apply del_int_lop; auto|]. intros _ _. apply lop_ret. exact Logic.I.
  - intros _ _. apply lop_ret. exact Rn.
Qed.
End LOCAL.
Lemma fresh_linv h : WF h -> linv (fun y => hnext h <= y) h none h.
Proof.
  intros W. pose proof (wf_forest _ W) as F. destruct (WF_closed (fun y => hnext h <= y) h W) as [A B]; auto.
  - intros y c Hy. destruct (fo_alloc _ _ F y Hy) as [E _]. cbn in E. rewrite E. intros [].
  - intros y pl Hy E. destruct (fo_alloc _ _ F y Hy) as [_ E']. cbn in E'. rewrite E in E'. discriminate.
  - split; auto. intros y [].
Qed.
Lemma sub_frame h minus f a b : WF h ->
  hnext h <= hnext (fst (sub_trees minus f a b h)) /\ forall y, y < hnext h -> strip (hnode (fst (sub_trees minus f a b h)) y) = strip (hnode h y).
Proof.
  intros W. destruct (sub_trees_lop (fun y => hnext h <= y) ltac:(intros; cbn; lia) h ltac:(auto) none minus f a b h (fresh_linv h W)) as [[L F _ _] _].
  split; [exact L|]. intros y Hy. apply F. lia.
Qed.

(** * == depends on tags, values and shape only *)
Definition tv (h : heap) (y : loc) : pyval * pyval := (ntag (hnode h y), nval (hnode h y)).
Fixpoint zipv (l m : list (pyval * pyval)) : bool :=
  match l, m with a :: l', b :: m' => pyval_eqb (snd a) (snd b) && zipv l' m' | _, _ => true end.
Definition teqb (T U : tree (pyval * pyval)) : bool :=
  pyval_eqb (fst (Tree.root T)) (fst (Tree.root U)) && Nat.eqb (length (kids T)) (length (kids U)) && zipv (flatten T) (flatten U).
Lemma zipv_refl l : zipv l l = true.
Proof. induction l as [|a l IH]; [reflexivity|]. cbn. rewrite pyval_eqb_refl. exact IH. Qed.
Lemma pair_sane h a b : links_sane h -> pair_eqb h a b = pyval_eqb (nval (hnode h a)) (nval (hnode h b)).
Proof.
  intros L. unfold pair_eqb.
  assert (Q : forall z, exists t k f, init_args h z = Some (t, nval (hnode h z), k, f)).
  { intros z. unfold init_args. destruct (is_link_root h z) eqn:E; [|eauto]. specialize (L z E). destruct (nlink (hnode h z)); [eauto|congruence]. }
  destruct (Q a) as (t1 & k1 & f1 & ->), (Q b) as (t2 & k2 & f2 & ->).
  destruct (pyval_eqb (nval (hnode h a)) (nval (hnode h b))); [apply orb_true_r|]. rewrite orb_false_r, andb_false_r. reflexivity.
Qed.
Lemma zip_tv h l : links_sane h -> forall m, zip_all h l m = zipv (map (tv h) l) (map (tv h) m).
Proof. intros L. induction l as [|x l IH]; intros [|y m]; try reflexivity. cbn. rewrite (pair_sane h x y L), IH. reflexivity. Qed.
Lemma kids_tmap {A B} (f : A -> B) T : kids (tmap f T) = map (tmap f) (kids T).
Proof. destruct T. reflexivity. Qed.
Lemma item_eqb_tree h T U : WF h -> links_sane h -> ltree (view h) T -> ltree (view h) U -> root T < hnext h -> root U < hnext h ->
  item_eqb h (root T) (root U) = teqb (tmap (tv h) T) (tmap (tv h) U).
Proof.
  intros W L HT HU Hx Hy. unfold item_eqb, teqb. rewrite !root_tmap, !kids_tmap, !map_length, !flatten_tmap. unfold tv at 1 2. cbn [fst].
  assert (KT : forall V, ltree (view h) V -> length (nitems (hnode h (root V))) = length (kids V)).
  { intros [x cs] H. apply ltree_iff in H as [H _]. cbn [root kids]. change (nitems (hnode h x)) with (a_children (view h x)). rewrite <- H, map_length. reflexivity. }
  rewrite (KT T HT), (KT U HU).
  destruct (Nat.eqb_spec (root T) (root U)) as [E|NE].
  - assert (T = U) by (eapply ltree_unique; eauto). subst U. rewrite pyval_eqb_refl, Nat.eqb_refl, zipv_refl. reflexivity.
  - destruct (pyval_eqb (ntag (hnode h (root T))) (ntag (hnode h (root U)))); [cbn [negb andb]|reflexivity].
    destruct (length (kids T) =? length (kids U)); [cbn [negb andb]|reflexivity].
    destruct (deep_list_total h (root T) (wf_forest _ W) Hx) as (T0 & HT0 & ET0 & D1). assert (T0 = T) by (eapply ltree_unique; eauto). subst T0.
    destruct (deep_list_total h (root U) (wf_forest _ W) Hy) as (U0 & HU0 & EU0 & D2). assert (U0 = U) by (eapply ltree_unique; eauto). subst U0.
    rewrite D1, D2, (zip_tv h _ L). destruct T as [x cs], U as [y ds]. unfold below_tree. cbn [kids flatten map zipv root].
    unfold tv at 3 4. cbn [snd]. destruct (pyval_eqb (nval (hnode h x)) (nval (hnode h y))); reflexivity.
Qed.

(** * new[item.tag_idx] *)
Lemma getitem_pair h p k x : WF h -> hashable (ntag (hnode h x)) = true -> nth_error (nitems (hnode h p)) k = Some x ->
  getitem h p (TgVal (PTuple [ntag (hnode h x); PInt (Z.of_nat (length (byt (tags h) (ntag (hnode h x)) (firstn k (nitems (hnode h p))))))])) = Ok (GItem x).
Proof.
  intros W Hh Hk. assert (Hne : nitems (hnode h p) <> []) by (intros E; rewrite E in Hk; destruct k; discriminate).
  unfold getitem, getitem_val. destruct (nitems (hnode h p)) as [|c0 r0] eqn:El; [congruence|]. rewrite <- El in *. clear c0 r0 El.
  unfold getitem_tuple. rewrite (fam_of_ok h p (ntag (hnode h x)) W Hh Hne).
  pose proof (byt_nth (tags h) k x (nitems (hnode h p)) Hk) as B.
  change (with_tag (view h) p (ntag (hnode h x))) with (byt (tags h) (ntag (hnode h x)) (nitems (hnode h p))).
  change (tags h x) with (ntag (hnode h x)) in B.
  destruct (byt (tags h) (ntag (hnode h x)) (nitems (hnode h p))) as [|f0 fr] eqn:Ef; [destruct (length _); discriminate|].
  cbn [nonempty as_index]. rewrite list_at_nth, B. reflexivity.
Qed.

(** * Deleting from the end *)
Fixpoint without_from {A} (n : nat) (ks : list nat) (l : list A) : list A :=
  match l with
  | [] => []
  | x :: r => if existsb (Nat.eqb n) ks then without_from (S n) ks r else x :: without_from (S n) ks r
  end.
Lemma without_none {A} (l : list A) : forall n ks, (forall j, In j ks -> j < n) -> without_from n ks l = l.
Proof.
  induction l as [|x l IH]; intros n ks H; [reflexivity|]. cbn.
  destruct (existsb (Nat.eqb n) ks) eqn:E; [apply existsb_exists in E as (j & J & E); apply Nat.eqb_eq in E; specialize (H j J); lia|].
  f_equal. apply IH. intros j J. specialize (H j J). lia.
Qed.
Lemma without_last {A} (l : list A) : forall n ks k, (forall j, In j ks -> j < n + k) -> k < length l ->
  without_from n (ks ++ [n + k]) l = without_from n ks (remove_at k l).
Proof.
  induction l as [|x l IH]; intros n ks k H L; [cbn in L; lia|]. cbn [without_from]. rewrite existsb_app. cbn [existsb]. rewrite orb_false_r.
  destruct k as [|k].
  - rewrite Nat.add_0_r, Nat.eqb_refl, orb_true_r. change (remove_at 0 (x :: l)) with l.
    rewrite Nat.add_0_r in H. rewrite (without_none l n ks H). apply without_none. intros j J. apply in_app_iff in J as [J|[<-|[]]]; [specialize (H j J)|]; lia.
  - assert (n =? n + S k = false) as -> by (apply Nat.eqb_neq; lia). rewrite orb_false_r.
    change (remove_at (S k) (x :: l)) with (x :: remove_at k l). cbn [without_from].
    replace (n + S k) with (S n + k) by lia. rewrite IH; [reflexivity| |cbn in L; lia]. intros j J. specialize (H j J). lia.
Qed.
Lemma remove_at_len {A} (l : list A) : forall k, k < length l -> length (remove_at k l) = length l - 1.
Proof.
  intros k L. unfold remove_at. rewrite app_length, firstn_length, skipn_length. lia.
Qed.
Lemma sorted_app_lt ks k : StronglySorted lt (ks ++ [k]) -> StronglySorted lt ks /\ forall j, In j ks -> j < k.
Proof.
  induction ks as [|a ks IH]; intros H; [split; [constructor|intros ? []]|]. cbn in H. apply StronglySorted_inv in H as [H1 H2].
  destruct (IH H1) as [A B]. rewrite Forall_app in H2. destruct H2 as [H2 H3]. split; [constructor; auto|].
  intros j [<-|J]; [inversion H3; auto|apply B; exact J].
Qed.
Lemma del_loop_ok p : forall ks h, WF h -> tree_protected h p = false -> StronglySorted lt ks -> (forall j, In j ks -> j < length (nitems (hnode h p))) ->
  exists h', mapM_ (fun i => del_int p i ;;; ret tt) (rev (map Z.of_nat ks)) h = (h', Ok tt) /\ WF h' /\ hnext h' = hnext h /\
    view h' p = a_set_children (without_from 0 ks (nitems (hnode h p))) (view h p) /\
    forall y, y <> p -> a_children (view h' y) = a_children (view h y) /\ a_tag (view h' y) = a_tag (view h y) /\ a_val (view h' y) = a_val (view h y) /\
       a_flags (view h' y) = a_flags (view h y) /\ a_link (view h' y) = a_link (view h y).
Proof.
  induction ks as [|k ks IH] using rev_ind; intros h W P S L.
  - exists h. split; [reflexivity|]. split; [exact W|]. split; [reflexivity|]. split; [|auto 10].
    rewrite without_none by (intros ? []). reflexivity.
  - apply sorted_app_lt in S as [S B]. rewrite map_app, rev_app_distr. cbn [map rev app mapM_].
    assert (Lk : k < length (nitems (hnode h p))) by (apply L, in_app_iff; right; left; reflexivity).
    destruct (nth_error (nitems (hnode h p)) k) as [x|] eqn:Ex; [|apply nth_error_None in Ex; lia].
    destruct (pop_one h p (Z.of_nat k) k x W P (py_idx_of_nat _ _ Lk) Ex) as (h1 & E1 & W1 & N1 & V1).
    assert (Hne : x <> p) by exact (WF_child_ne _ _ _ _ W Ex).
    assert (Vp : view h1 p = a_set_children (remove_at k (nitems (hnode h p))) (view h p)) by (rewrite V1; unfold detach; rewrite Nat.eqb_refl; reflexivity).
    assert (Ci : nitems (hnode h1 p) = remove_at k (nitems (hnode h p))) by exact (f_equal a_children Vp).
    destruct (IH h1 W1) as (h' & E' & W' & N' & V' & O').
    + unfold tree_protected. change (nflags (hnode h1 p)) with (a_flags (view h1 p)). rewrite Vp. exact P.
    + exact S.
    + intros j J. rewrite Ci, remove_at_len by exact Lk. specialize (B j J). lia.
    + exists h'. split; [rewrite (bind_ok _ _ _ _ _ (bind_ok _ _ _ _ _ E1)); exact E'|]. split; [exact W'|]. split; [congruence|]. split.
      * rewrite V', Ci, Vp. pose proof (without_last (nitems (hnode h p)) 0 ks k) as WL. cbn [Nat.add] in WL. rewrite WL; [reflexivity|exact B|exact Lk].
      * intros y Hy. destruct (O' y Hy) as (A1 & A2 & A3 & A4 & A5). rewrite A1, A2, A3, A4, A5, V1. unfold detach.
        assert (Nat.eqb y p = false) as -> by (apply Nat.eqb_neq; exact Hy). destruct (Nat.eqb_spec y x) as [Ey|_]; [subst y|]; auto 10.
Qed.

(** * The loop, when every item finds its equal *)
Lemma ceq_sane h h' : ceq h h' -> links_sane h -> links_sane h'.
Proof. intros Q L y. unfold lnode. rewrite (ceq_flags _ _ Q), (ceq_link _ _ Q). apply L. Qed.
Lemma item_eqb_ceq h h' x y : ceq h h' -> WF h -> links_sane h -> x < hnext h -> y < hnext h -> item_eqb h' x y = item_eqb h x y.
Proof.
  intros Q W L Hx Hy. pose proof (ceq_WF _ _ Q W) as W'. pose proof (ceq_sane _ _ Q L) as L'.
  destruct (ltree_exists _ _ _ (wf_forest _ W) Hx) as (T & HT & <- & _). destruct (ltree_exists _ _ _ (wf_forest _ W) Hy) as (U & HU & <- & _).
  assert (S : same (view h) (view h')) by (intros z; symmetry; apply (ceq_view _ _ Q)).
  rewrite (item_eqb_tree h T U W L HT HU Hx Hy).
  assert (Hx' : root T < hnext h') by (rewrite (ceq_next _ _ Q); exact Hx). assert (Hy' : root U < hnext h') by (rewrite (ceq_next _ _ Q); exact Hy).
  rewrite (item_eqb_tree h' T U W' L' (ltree_same _ _ T S HT) (ltree_same _ _ U S HU) Hx' Hy').
  assert (E : forall V, tmap (tv h') V = tmap (tv h) V) by (intros V; apply tmap_ext; intros z _; unfold tv; rewrite (ceq_tag _ _ Q), (ceq_val _ _ Q); reflexivity).
  rewrite !E. reflexivity.
Qed.
Lemma ceq_byt h h' t l : ceq h h' -> byt (tags h') t l = byt (tags h) t l.
Proof. intros Q. apply filter_ext. intros z. rewrite (ceq_tag _ _ Q). reflexivity. Qed.
Lemma writes_near l f h h' y n : HeapInv.writes SAbs l f h h' -> near h y n -> near h' y n.
Proof.
  intros Wr N pl E. destruct (Wr y) as [K|(j & pl0 & _ & E0 & K)]; [rewrite K in E; apply N; exact E|].
  rewrite K in E. cbn in E. injection E as <-. cbn. apply N. exact E0.
Qed.
Section LOOP.
Variables (h2 : heap) (new b : loc) (sub : loc -> loc -> M loc).
Hypothesis W2 : WF h2.
Hypothesis L2 : links_sane h2.
Definition near_all (g : heap) : Prop :=
  forall l1 y l2, nitems (hnode h2 b) = l1 ++ y :: l2 -> near g y (length (byt (tags h2) (ntag (hnode h2 y)) l1)).
(** child number k of [new] is the partner of [i], which comes after [pre] in b *)
Definition partner (k : nat) (pre : list loc) (i : loc) : Prop :=
  exists x, nth_error (nitems (hnode h2 new)) k = Some x /\ ntag (hnode h2 x) = ntag (hnode h2 i) /\ hashable (ntag (hnode h2 x)) = true /\
    length (byt (tags h2) (ntag (hnode h2 x)) (firstn k (nitems (hnode h2 new)))) = length (byt (tags h2) (ntag (hnode h2 x)) pre) /\
    item_eqb h2 x i = true.
Inductive partners : list loc -> list nat -> list loc -> Prop :=
| partners_nil pre : partners pre [] []
| partners_cons pre k ks i l : partner k pre i -> partners (pre ++ [i]) ks l -> partners pre (k :: ks) (i :: l).
Lemma loop_ok : forall l pre ks dels g, ceq h2 g -> near_all g -> nitems (hnode h2 b) = pre ++ l -> partners pre ks l ->
  exists g', sub_loop sub new l dels g = (g', Ok (dels ++ map Z.of_nat ks)) /\ ceq h2 g'.
Proof.
  induction l as [|i l IH]; intros pre ks dels g Q NA El Pa; inversion Pa as [|pre' k ks' i' l' (x & Hk & Ht & Hh & Hn & He) Pa']; subst.
  - exists g. cbn. rewrite app_nil_r. auto.
  - cbn [sub_loop]. pose proof (ceq_WF _ _ Q W2) as Wg.
    assert (Ib : In i (nitems (hnode h2 b))) by (rewrite El; apply in_elt).
    assert (KG : kids_of g b (pre ++ i :: l)).
    { split; [rewrite <- El, <- (ceq_items _ _ Q); apply LWF_own, WF_LWF; exact Wg|]. split; [rewrite <- El; apply (WF_nodup h2 b W2)|].
      split; [apply (wf_caches _ Wg)|]. intros y Hy. rewrite <- El in Hy. unfold parent_of. rewrite (ceq_view _ _ Q). apply (fo_child _ _ (wf_forest _ W2)). exact Hy. }
    destruct (tag_idx_at g b pre i l KG) as (g1 & E1 & C1).
    { rewrite (ceq_tag _ _ Q), (ceq_byt _ _ _ _ Q). apply (NA pre i l El). }
    rewrite (bind_ok _ _ _ _ _ E1). cbn zeta. rewrite bind_gets.
    assert (Q01 : ceq g g1) by (eapply cached_ceq; [exact C1|eapply cached_caches; exact C1]).
    pose proof (ceq_trans _ _ _ Q Q01) as Q1. pose proof (ceq_WF _ _ Q1 W2) as Wg1.
    assert (Ek : nth_error (nitems (hnode g1 new)) k = Some x) by (rewrite (ceq_items _ _ Q1); exact Hk).
    pose proof (getitem_pair g1 new k x Wg1) as G. rewrite (ceq_tag _ _ Q1), (ceq_items _ _ Q1), (ceq_byt _ _ _ _ Q1), Hn in G.
    cbn [key_of]. rewrite (ceq_tag _ _ Q), (ceq_byt _ _ _ _ Q), <- Ht, (G Hh Hk).
    assert (Hx : x < hnext h2) by (eapply WF_child_lt; [exact W2|exact Hk]).
    assert (Hi : i < hnext h2) by (destruct (In_nth_error _ _ Ib) as [m Hm]; eapply WF_child_lt; [exact W2|exact Hm]).
    rewrite (item_eqb_ceq h2 g1 x i Q1 W2 L2 Hx Hi), He.
    destruct (idx_or_type_error_ok g1 new x k Wg1 Ek) as (g2 & E2 & Q12 & Wr). rewrite (bind_ok _ _ _ _ _ E2).
    pose proof (ceq_trans _ _ _ Q1 Q12) as Q2.
    destruct (IH (pre ++ [i]) ks' (dels ++ [Z.of_nat k]) g2 Q2) as (g' & E' & Q').
    + intros l1 y l2 Ey. eapply writes_near; [exact Wr|]. eapply cached_near; [exact C1| |exact (NA l1 y l2 Ey)].
      intros ->. rewrite (ceq_tag _ _ Q), (ceq_byt _ _ _ _ Q). assert (pre = l1) as ->; [|reflexivity].
      rewrite El in Ey. pose proof (WF_nodup h2 b W2) as ND. rewrite El in ND. clear - Ey ND.
      revert l1 Ey ND. induction pre as [|a pre IH]; intros [|c l1] E ND; cbn in E, ND.
      * reflexivity.
      * injection E as E1 E2. subst c. exfalso. apply NoDup_cons_iff in ND as [A _]. apply A. rewrite E2. apply in_elt.
      * injection E as E1 E2. subst a. exfalso. apply NoDup_cons_iff in ND as [A _]. apply A. apply in_elt.
      * injection E as E1 E2. subst c. f_equal. apply IH; [exact E2|]. inversion ND; assumption.
    + rewrite <- app_assoc. exact El.
    + exact Pa'.
    + exists g'. split; [|exact Q']. rewrite E'. rewrite <- app_assoc. reflexivity.
Qed.
End LOOP.
