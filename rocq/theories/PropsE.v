(** C23 - C29: keys, tags, paths, subscript targets, neighbours, membership. *)
From Coq Require Import Sorting.Permutation Sorting.Sorted.
From Verif Require Import Base Heap HeapSpec ListLemmas ForestLemmas HeapInv HeapAttach HeapOps HeapOps2 HeapOps3
  HeapHoare Tree HeapTree HeapCopy HeapMut HeapExt HeapExt2 HeapOrd HeapOrd2 HeapRen HeapMove HeapSet HeapSet2 HeapHist
  HeapHash History HeapRead HeapRead2 Runs HeapDel HeapLink HeapLinkH PropsA PropsB PropsC PropsD.

(** ** specification: the children of p with tag t, in child order *)
Definition family (h : heap) (p : loc) (t : pyval) : list loc := filter (fun y => pyval_eqb (tag_of h y) t) (children h p).
Lemma family_with_tag h p t : family h p t = with_tag (view h) p t. Proof. reflexivity. Qed.

(** * C23 *)
(** items(): one (tag, n, child) per child in order; n counts the earlier children of the
    same tag; keys are distinct; t[(tag, n)] and t[TagIdx(tag, n)] are that child. *)
Theorem C23_items_partial : forall h p, Reach h -> children h p <> [] ->
  exists h' ks, items_view p h = (h', Ok ks) /\ keys_view p h = (h', Ok (map fst ks)) /\ same (view h') (view h) /\
    map snd ks = children h p /\ NoDup (map fst ks) /\
    (forall l1 x l2, children h p = l1 ++ x :: l2 ->
       nth_error ks (length l1) = Some (tag_of h x, Z.of_nat (length (filter (fun y => pyval_eqb (tag_of h y) (tag_of h x)) l1)), x)) /\
    (forall t n x, In (t, n, x) ks -> getitem h p (TgTagIdx t n) = Ok (GItem x) /\ getitem h p (TgVal (PTuple [t; PInt n])) = Ok (GItem x)).
Proof.
  intros h p R Hne. pose proof (reach_WF h R) as W. pose proof (reach_hash h R) as HH.
  destruct (items_view_ok h p W Hne) as (h' & E & Q).
  set (ks := map (fun x => (tag_of h x, Z.of_nat (fam_index h p x), x)) (children h p)) in *.
  assert (Key : forall t n x, In (t, n, x) ks -> In x (children h p) /\ t = tag_of h x /\ n = Z.of_nat (fam_index h p x)).
  { intros t n x H. apply in_map_iff in H as (y & Hy & Hin). injection Hy as <- <- <-. auto. }
  assert (GK : forall t n x, In (t, n, x) ks -> getitem h p (TgTagIdx t n) = Ok (GItem x)).
  { intros t n x H. destruct (Key t n x H) as (Hin & -> & ->). apply getitem_key; assumption. }
  exists h', ks. split; [exact E|]. split; [unfold keys_view; rewrite (bind_ok _ _ _ _ _ E); reflexivity|]. split; [apply ceq_same; exact Q|].
  split; [unfold ks; rewrite map_map; cbn; apply map_id|]. split; [|split].
  - unfold ks. rewrite map_map. cbn. apply NoDup_map_in; [apply (WF_nodup h p W)|]. intros x y Hx Hy Exy. pose proof (f_equal fst Exy) as E1. pose proof (f_equal snd Exy) as E2. change (tag_of h x = tag_of h y) in E1. change (Z.of_nat (fam_index h p x) = Z.of_nat (fam_index h p y)) in E2. apply Nat2Z.inj in E2.
    pose proof (fam_index_nth h p x Hx) as K1. pose proof (fam_index_nth h p y Hy) as K2. rewrite E1, E2 in K1. congruence.
  - intros l1 x l2 El. unfold ks. rewrite nth_error_map, El, nth_error_app2, Nat.sub_diag by lia. cbn. repeat f_equal.
    unfold fam_index. rewrite <- family_with_tag. unfold family. pose proof (WF_nodup h p W) as ND. change (nitems (hnode h p)) with (children h p) in ND.
    rewrite El in *. apply (number_prefix (tag_of h) (l1 ++ x :: l2) x l1 l2 eq_refl ND).
  - intros t n x H. split; [apply GK; assumption|]. destruct (Key t n x H) as (Hin & -> & ->). pose proof (GK _ _ _ H) as G.
    unfold getitem in *. destruct (nitems (hnode h p)) as [|c0 r0] eqn:Ec; [exact G|]. cbn [getitem_val]. rewrite Ec. cbn [getitem_tuple as_index].
    destruct (fam_of h p (tag_of h x)) as [[f|]|]; try discriminate. destruct (list_at f (Z.of_nat (fam_index h p x))); [exact G|discriminate].
Qed.
Example C23_case : Reach ex_heap /\ children ex_heap 0 <> [] /\
  snd (items_view 0 ex_heap) = Ok [(PStr "a", 0, 1%nat); (PStr "b", 0, 2%nat); (PStr "a", 1, 3%nat); (PStr "c", 0, 4%nat)]%Z.
Proof. split; [exact ex_reach|]. split; [vm_compute; discriminate|vm_compute; reflexivity]. Qed.
(** keys() / items() on an item that never had children *)
Theorem C23_items_refuted : children ex_heap 6 = [] /\ snd (keys_view 6 ex_heap) = Err AttributeError.
Proof. vm_compute. auto. Qed.

(** * C24 *)
(** x is the first (with order_last: the last) child of its tag *)
Definition leads (order_last : bool) (h : heap) (p x : loc) : Prop :=
  exists l1 l2, children h p = l1 ++ x :: l2 /\
    forall y, In y (if order_last then l2 else l1) -> tag_of h y <> tag_of h x.
Lemma filter_nil {A} (f : A -> bool) l : (forall y, In y l -> f y = false) <-> filter f l = [].
Proof.
  induction l as [|a l IH]; cbn; [tauto|]. split.
  - intros H. rewrite (H a (or_introl eq_refl)). apply IH. intros; apply H; auto.
  - destruct (f a) eqn:E; [discriminate|]. intros H y [<-|Hy]; [exact E|]. apply IH; assumption.
Qed.
Lemma last_app_some {A} (l m : list A) x : last (map Some (l ++ x :: m)) None = match m with [] => Some x | _ => last (map Some m) None end.
Proof.
  rewrite map_app. cbn [map]. induction l as [|a l IH]; cbn [map app].
  - destruct m; reflexivity.
  - destruct (map Some l ++ Some x :: map Some m) eqn:E; [destruct l; discriminate|]. rewrite <- E in IH. rewrite <- IH, E. reflexivity.
Qed.
Lemma leads_head o h p x : Reach h -> In x (children h p) -> (leads o h p x <-> is_head o h p x = true).
Proof.
  intros R Hin. pose proof (WF_nodup h p (reach_WF h R)) as ND. change (nitems (hnode h p)) with (children h p) in ND.
  unfold is_head. rewrite <- family_with_tag. unfold family.
  apply in_split in Hin as (l1 & l2 & E).
  assert (Split : forall m1 m2, children h p = m1 ++ x :: m2 -> m1 = l1 /\ m2 = l2).
  { clear - E ND. rewrite E in ND |- *. clear E. revert ND. induction l1 as [|a l1 IH]; intros ND m1 m2 Em; destruct m1 as [|b m1]; cbn in *.
    - injection Em as ->. auto.
    - injection Em as <- ->. exfalso. inversion ND as [|? ? N _]. apply N. apply in_or_app. right; left; reflexivity.
    - injection Em as -> <-. exfalso. inversion ND as [|? ? N _]. apply N. apply in_or_app. right; left; reflexivity.
    - injection Em as <- Em. inversion ND; subst. destruct (IH ltac:(assumption) m1 m2 Em) as [-> ->]. auto. }
  rewrite E, filter_app. cbn [filter]. assert (Ex : pyval_eqb (tag_of h x) (tag_of h x) = true) by (apply pyval_eqb_eq; reflexivity). rewrite Ex.
  assert (NT : forall l, (forall y, In y l -> tag_of h y <> tag_of h x) <-> filter (fun y => pyval_eqb (tag_of h y) (tag_of h x)) l = []).
  { intros l. rewrite <- filter_nil. split; intros H y Hy.
    - destruct (pyval_eqb (tag_of h y) (tag_of h x)) eqn:Ey; [|reflexivity]. apply pyval_eqb_eq in Ey. exfalso. exact (H y Hy Ey).
    - intros Ey. specialize (H y Hy). rewrite Ey, Ex in H. discriminate. }
  split.
  - intros (m1 & m2 & Em & Hm). destruct (Split m1 m2 Em) as [-> ->]. unfold family_head. destruct o.
    + apply NT in Hm. rewrite Hm, last_app_some. apply Nat.eqb_refl.
    + apply NT in Hm. rewrite Hm. cbn. apply Nat.eqb_refl.
  - intros H. exists l1, l2. split; [exact E|]. apply NT. unfold family_head in H. destruct o.
    + rewrite last_app_some in H. destruct (filter _ l2) as [|z f2] eqn:E2; [reflexivity|]. exfalso.
      destruct (last (map Some (z :: f2)) None) as [w|] eqn:El; [|discriminate]. apply Nat.eqb_eq in H. subst w. apply last_some_in in El. rewrite <- E2 in El.
      apply filter_In in El as [El _]. rewrite E in ND. apply NoDup_app_inv in ND as (_ & ND & _). inversion ND; contradiction.
    + destruct (filter _ l1) as [|z f1] eqn:E1; [reflexivity|]. exfalso. cbn in H. apply Nat.eqb_eq in H. subst z.
      assert (K : In x l1) by (assert (K : In x (x :: f1)) by (left; reflexivity); rewrite <- E1 in K; apply filter_In in K; apply K).
      rewrite E in ND. apply NoDup_app_inv in ND as (_ & _ & ND). apply (ND x K). left; reflexivity.
Qed.
(** tags() / iter_families(): each present tag once, in the order of the leading children
    (first, or last occurrence), with exactly the children of that tag. *)
Theorem C24_tags : forall h p o, Reach h ->
  exists h1 h2 ls, tags_view p o h = (h1, Ok (map (tag_of h) ls)) /\
    families_view p o h = (h2, Ok (map (fun x => (tag_of h x, family h p (tag_of h x))) ls)) /\
    same (view h1) (view h) /\ same (view h2) (view h) /\
    (* ls: the leading children, in child order *)
    (exists sel, ls = filter sel (children h p)) /\
    (forall x, In x ls <-> In x (children h p) /\ leads o h p x) /\
    NoDup (map (tag_of h) ls) /\
    (forall t, In t (map (tag_of h) ls) <-> exists x, In x (children h p) /\ tag_of h x = t).
Proof.
  intros h p o R. pose proof (reach_WF h R) as W. destruct (tags_view_ok o h p W) as (h1 & E1 & Q1). destruct (families_view_ok o h p W) as (h2 & E2 & Q2).
  exists h1, h2, (heads o h p). split; [exact E1|]. split; [exact E2|]. split; [apply ceq_same; exact Q1|]. split; [apply ceq_same; exact Q2|].
  split; [exists (is_head o h p); reflexivity|]. split.
  - intros x. unfold heads. rewrite filter_In. split; intros [A B]; split; auto; eapply leads_head; eauto.
  - split; [apply heads_tags_NoDup; assumption|]. intros t. split.
    + intros H. apply in_map_iff in H as (x & Hx & Hin). exists x. split; [|assumption]. apply filter_In in Hin. apply Hin.
    + intros (x & Hin & Hx). subst t. apply heads_tags_all. assumption.
Qed.
Example C24_case : Reach ex_heap /\ snd (tags_view 0 false ex_heap) = Ok [PStr "a"; PStr "b"; PStr "c"] /\
  snd (tags_view 0 true ex_heap) = Ok [PStr "b"; PStr "a"; PStr "c"] /\
  snd (families_view 0 true ex_heap) = Ok [(PStr "b", [2]); (PStr "a", [1; 3]); (PStr "c", [4])].
Proof. split; [exact ex_reach|]. vm_compute. auto. Qed.

(** * C25 *)
Theorem C25_idx_path_partial : forall h x, Reach1 h -> x < hnext h ->
  exists r path h', root_of (S (hnext h)) h x = Some r /\ parent_of h r = None /\
    idx_path (S (hnext h)) x h = (h', Ok path) /\ same (view h') (view h) /\
    level_of (S (hnext h)) h x = Some (length path) /\
    by_idx h r path = Ok x.
Proof.
  intros h x R Hx. pose proof (reach1_WFN h R) as W. destruct (Rooted_Lev _ _ (fo_root _ _ (wf_forest _ (proj1 W)) x)) as [k Hk].
  pose proof (Lev_bound _ _ _ _ (wf_forest _ (proj1 W)) Hk Hx) as Hb.
  destruct (idx_path_ok h W x k Hk (S (hnext h)) h ltac:(lia) (ceq_refl h)) as (r & path & g & Er & Ep & Q & El & Eb).
  destruct (root_of_some h x (proj1 W) Hx) as (r' & Er' & _ & Pr). assert (r' = r) by congruence. subst r'.
  exists r, path, g. split; [exact Er|]. split; [exact Pr|]. split; [exact Ep|]. split; [apply ceq_same; exact Q|]. split; [|exact Eb].
  rewrite El. apply (Lev_level h x k Hk). lia.
Qed.
Example C25_case : Reach1 ex_heap /\ 5 < hnext ex_heap /\ snd (idx_path 8 5 ex_heap) = Ok [2; 0]%Z /\ by_idx ex_heap 0 [2; 0]%Z = Ok 5.
Proof. split; [exact ex_reach1|]. split; [vm_compute; lia|]. vm_compute. auto. Qed.
(** a child dropped by clear() still has a parent but no position *)
Theorem C25_idx_path_refuted : let h := runs (ex_ops ++ [OClear 0 false]) empty_heap in
  Reach h /\ 5 < hnext h /\ snd (idx_path 8 5 h) = Err IndexError.
Proof. cbv zeta. split; [apply reach_runs; [constructor|vm_compute; reflexivity]|]. split; [vm_compute; lia|]. vm_compute. reflexivity. Qed.

(** * C26 *)
(** the positions remembered inside the families are off by at most 20 for x and all its ancestors *)
Definition families_near (h : heap) (x : loc) : Prop :=
  forall y pl, Anc (view h) y x -> nprt (hnode h y) = Some pl -> (Z.abs (pl_fam pl - Z.of_nat (fam_index h (pl_par pl) y)) <= 20)%Z.
Definition plain_path (l : list tagidx) (path : list (pyval * Z)) : Prop := l = map (fun ti => TIPair (fst ti) (snd ti)) path.
Lemma pairs_plain l : forall path, pairs_of l = Some path -> plain_path l path.
Proof.
  unfold plain_path. induction l as [|a l IH]; intros path H; cbn in H; [injection H as <-; reflexivity|].
  destruct a as [|t i|]; try discriminate. destruct (pairs_of l) as [r|]; [|discriminate]. injection H as <-. cbn. f_equal. apply IH. reflexivity.
Qed.
Theorem C26_tag_idx_path_partial : forall h x, Reach1 h -> x < hnext h -> families_near h x ->
  exists r l path h', root_of (S (hnext h)) h x = Some r /\
    tag_idx_path (S (hnext h)) x h = (h', Ok l) /\ plain_path l path /\ same (view h') (view h) /\
    by_tag_idx h r path = Ok x.
Proof.
  intros h x R Hx Hn. pose proof (reach1_WFN h R) as W. destruct (Rooted_Lev _ _ (fo_root _ _ (wf_forest _ (proj1 W)) x)) as [k Hk].
  pose proof (Lev_bound _ _ _ _ (wf_forest _ (proj1 W)) Hk Hx) as Hb.
  destruct (tag_idx_path_ok h W (reach_hash h (Reach1_Reach h R)) x k Hk (S (hnext h)) h ltac:(lia) (ceq_refl h)) as (r & l & g & Er & Ep & Q & El & Eb & Ee).
  destruct (pairs_of l) as [path|] eqn:Epl.
  - exists r, l, path, g. split; [exact Er|]. split; [exact Ep|]. split; [apply pairs_plain; exact Epl|]. split; [apply ceq_same; exact Q|]. apply Eb. reflexivity.
  - exfalso. apply Ee; [|reflexivity]. intros y HA pl Hpl. apply (Hn y pl HA Hpl).
Qed.
(** whatever the remembered positions are: if the path is well formed, it leads to the item *)
Theorem C26_tag_idx_path_sound_partial : forall h x h' l path, Reach1 h -> x < hnext h ->
  tag_idx_path (S (hnext h)) x h = (h', Ok l) -> plain_path l path ->
  exists r, root_of (S (hnext h)) h x = Some r /\ by_tag_idx h r path = Ok x.
Proof.
  intros h x h' l path R Hx E HP. pose proof (reach1_WFN h R) as W. destruct (Rooted_Lev _ _ (fo_root _ _ (wf_forest _ (proj1 W)) x)) as [k Hk].
  pose proof (Lev_bound _ _ _ _ (wf_forest _ (proj1 W)) Hk Hx) as Hb.
  destruct (tag_idx_path_ok h W (reach_hash h (Reach1_Reach h R)) x k Hk (S (hnext h)) h ltac:(lia) (ceq_refl h)) as (r & l' & g & Er & Ep & Q & El & Eb & Ee).
  rewrite E in Ep. injection Ep as <- <-. exists r. split; [exact Er|]. apply Eb. unfold plain_path in HP. subst l. clear.
  induction path as [|[t i] path IH]; [reflexivity|]. cbn in *. rewrite IH. reflexivity.
Qed.
Example C26_case : Reach1 ex_heap /\ 5 < hnext ex_heap /\ snd (tag_idx_path 8 5 ex_heap) = Ok [TIPair (PStr "a") 1; TIPair (PStr "x") 0]%Z /\
  by_tag_idx ex_heap 0 [(PStr "a", 1%Z); (PStr "x", 0%Z)] = Ok 5 /\ families_near ex_heap 5.
Proof.
  split; [exact ex_reach1|]. split; [vm_compute; lia|]. split; [vm_compute; reflexivity|]. split; [vm_compute; reflexivity|].
  intros y pl HA. inversion HA as [|y1 q1 H1 HA1]; subst; [intros E; vm_compute in E; injection E as <-; vm_compute; discriminate|].
  vm_compute in H1. injection H1 as <-. inversion HA1 as [|y2 q2 H2 HA2]; subst; [intros E; vm_compute in E; injection E as <-; vm_compute; discriminate|].
  vm_compute in H2. injection H2 as <-. inversion HA2 as [|y3 q3 H3 HA3]; subst; [intros E; vm_compute in E; discriminate|].
  vm_compute in H3. discriminate.
Qed.
(** after many removals the path of the last item contains a bare number instead of (tag, number) *)
Theorem C26_tag_idx_path_refuted : let h := runs far_ops empty_heap in
  Reach1 h /\ snd (tag_idx_path (S (hnext h)) 60 h) = Ok [TIBare 29%Z].
Proof. cbv zeta. split; [apply reach1_runs; [constructor|vm_compute; reflexivity|reflexivity]|]. vm_compute. reflexivity. Qed.

(** * C27 *)
Lemma firstn_In {A} n (l : list A) x : In x (firstn n l) -> In x l.
Proof. intros H. rewrite <- (firstn_skipn n l). apply in_or_app. auto. Qed.
Lemma skipn_In {A} n (l : list A) x : In x (skipn n l) -> In x l.
Proof. intros H. rewrite <- (firstn_skipn n l). apply in_or_app. auto. Qed.
Definition plain_tag (v : pyval) : bool :=
  match v with PStr _ | PBytes _ | PFloat _ | PNone | PNoTag | PNoValue | PNoKey | PAny | PBool _ | PObj _ => true | _ => false end.
Theorem C27_targets : forall h p, Reach h -> children h p <> [] ->
  (* int: absolute index first ... *)
  (forall z k, py_idx (length (children h p)) z = Some k ->
     exists x, nth_error (children h p) k = Some x /\ getitem h p (TgVal (PInt z)) = Ok (GItem x)) /\
  (* ... only out of range a tag *)
  (forall z, py_idx (length (children h p)) z = None ->
     getitem h p (TgVal (PInt z)) = match family h p (PInt z) with [] => Err IndexError | f => Ok (GList f) end) /\
  (* pair: (tag, index) first, only otherwise a tuple tag *)
  (forall t z, hashable t = true -> getitem h p (TgVal (PTuple [t; PInt z])) =
     match py_idx (length (family h p t)) z with
     | Some k => match nth_error (family h p t) k with Some x => Ok (GItem x) | None => Err IndexError end
     | None => match family h p (PTuple [t; PInt z]) with
               | [] => Err (match family h p t with [] => KeyError | _ => IndexError end)
               | f => Ok (GList f) end
     end) /\
  (* other plain values: a tag *)
  (forall v, plain_tag v = true -> getitem h p (TgVal v) = match family h p v with [] => Err KeyError | f => Ok (GList f) end).
Proof.
  intros h p R Hne. pose proof (reach_WF h R) as W.
  assert (Fb : forall t e, hashable t = true -> fallback h p t e = match family h p t with [] => Err e | f => Ok (GList f) end).
  { intros t e Ht. unfold fallback. rewrite fam_of_ok by assumption. rewrite <- family_with_tag. destruct (family h p t); reflexivity. }
  destruct (nitems (hnode h p)) as [|c0 r0] eqn:Ec; [exfalso; apply Hne; exact Ec|].
  assert (Eg : forall v, getitem h p (TgVal v) = getitem_val h p v) by (intros v; unfold getitem; rewrite Ec; reflexivity).
  assert (El : children h p = c0 :: r0) by exact Ec.
  split; [|split; [|split]].
  - intros z k Hk. assert (K : k < length (children h p)) by (eapply py_idx_lt; exact Hk).
    destruct (nth_error (children h p) k) as [x|] eqn:Ex; [|apply nth_error_None in Ex; lia]. exists x. split; [reflexivity|].
    rewrite Eg. cbn [getitem_val]. rewrite Ec. unfold list_at. rewrite <- El, Hk, Ex. reflexivity.
  - intros z Hz. rewrite Eg. cbn [getitem_val]. rewrite Ec. unfold list_at. rewrite <- El, Hz. apply Fb. reflexivity.
  - intros t z Ht. rewrite Eg. cbn [getitem_val]. rewrite Ec. cbn [getitem_tuple as_index]. rewrite fam_of_ok by assumption. rewrite <- family_with_tag.
    assert (Hw : hashable (PTuple [t; PInt z]) = true) by (cbn; rewrite Ht; reflexivity).
    destruct (family h p t) as [|y f] eqn:Ef.
    + cbn [nonempty]. rewrite (Fb _ _ Hw). destruct (py_idx (length (@nil nat)) z) as [k|] eqn:Ek; [apply py_idx_lt in Ek; cbn in Ek; lia|reflexivity].
    + cbn [nonempty]. unfold list_at. destruct (py_idx (length (y :: f)) z) as [k|] eqn:Ek; [|apply (Fb _ _ Hw)].
      pose proof (py_idx_lt _ _ _ Ek) as K. destruct (nth_error (y :: f) k) as [x|] eqn:Ex; [reflexivity|apply nth_error_None in Ex; lia].
  - intros v Hv. rewrite Eg. assert (Hh : hashable v = true) by (destruct v; try discriminate; reflexivity).
    assert (Ev : getitem_val h p v = match fam_of h p v with Ok (Some f) => Ok (GList f) | Ok None => Err KeyError | Err e => Err e end).
    { destruct v; try discriminate; cbn [getitem_val]; rewrite Ec; reflexivity. }
    rewrite Ev, fam_of_ok by assumption. rewrite <- family_with_tag. destruct (family h p v); reflexivity.
Qed.
(** no target resolves on an item without children *)
Theorem C27_empty : forall h p tg, children h p = [] -> getitem h p tg = Err KeyError.
Proof. intros h p tg E. unfold getitem. change (nitems (hnode h p)) with (children h p). rewrite E. reflexivity. Qed.
(** reading by a target never returns an item that is not a child *)
Theorem C27_only_children : forall h p tg, Reach h ->
  match getitem h p tg with
  | Ok (GItem x) => In x (children h p)
  | Ok (GList l) => forall x, In x l -> In x (children h p)
  | Err _ => True
  end.
Proof.
  intros h p tg R. pose proof (reach_WF h R) as W. unfold getitem. destruct (nitems (hnode h p)) as [|c0 r0] eqn:Ec; [exact I|].
  assert (El : children h p = c0 :: r0) by exact Ec. assert (Hne : children h p <> []) by congruence.
  assert (Ff : forall t o, fam_of h p t = Ok (Some o) -> forall x, In x o -> In x (children h p)).
  { intros t o E x Hx. destruct (hashable t) eqn:Ht.
    - rewrite fam_of_ok in E by assumption. injection E as E. unfold nonempty in E. destruct (with_tag (view h) p t) eqn:Ew; [discriminate|].
      injection E as <-. rewrite <- Ew in Hx. apply with_tag_In in Hx. apply Hx.
    - unfold fam_of in E. rewrite Ht in E. destruct (nbound (hnode h p)); [discriminate|destruct (nfams (hnode h p)); discriminate|discriminate]. }
  assert (Fg : forall t o, families_of h p t = Ok (Some o) -> forall x, In x o -> In x (children h p)).
  { intros t o E x Hx. destruct (hashable t) eqn:Ht.
    - rewrite families_of_ok in E by assumption. injection E as E. unfold nonempty in E. destruct (with_tag (view h) p t) eqn:Ew; [discriminate|].
      injection E as <-. rewrite <- Ew in Hx. apply with_tag_In in Hx. apply Hx.
    - unfold families_of in E. rewrite Ht in E. destruct (nfams (hnode h p)); discriminate. }
  assert (La : forall l z x, list_at l z = Some x -> In x l).
  { intros l z x H. unfold list_at in H. destruct (py_idx (length l) z); [|discriminate]. eapply nth_error_In; eauto. }
  assert (Fb : forall t e, match fallback h p t e with Ok (GItem x) => In x (children h p) | Ok (GList l) => forall x, In x l -> In x (children h p) | Err _ => True end).
  { intros t e. unfold fallback. destruct (fam_of h p t) as [[f|]|] eqn:E; try exact I. apply (Ff t f E). }
  assert (Pa : forall f l r, pick_all f l = Some r -> forall x, In x r -> In x f).
  { intros f. induction l as [|v l IH]; cbn; intros r H x Hx; [injection H as <-; destruct Hx|].
    destruct (as_index v) as [z|]; [|discriminate]. destruct (list_at f z) as [y|] eqn:Ey; [|discriminate]. destruct (pick_all f l) as [r0'|]; [|discriminate].
    injection H as <-. destruct Hx as [<-|Hx]; [eapply La; eauto|eapply IH; eauto]. }
  destruct tg as [v|a b|t|t a b|t i| |f].
  - revert v. fix IHv 1. intros v.
    destruct v as [| | | | |b|z|tok|s|s|l|l|l|l|l|l|n]; cbn [getitem_val]; rewrite Ec;
      try (match goal with |- context [fam_of h p ?t] => destruct (fam_of h p t) as [[f|]|] eqn:E; try exact I; apply (Ff t f E) end).
    + destruct (list_at (c0 :: r0) z) as [x|] eqn:E; [rewrite El; eapply La; eauto|apply Fb].
    + unfold getitem_tuple. destruct l as [|t [|i [|? ?]]]; try apply Fb.
      destruct (fam_of h p t) as [[f|]|e] eqn:E; [|apply Fb|destruct e; apply Fb].
      destruct (as_index i) as [z|].
      * destruct (list_at f z) as [x|] eqn:Ez; [apply (Ff t f E); eapply La; eauto|apply Fb].
      * match goal with |- context [match ?o with Some _ => _ | None => fallback _ _ _ _ end] => destruct o as [r|] eqn:Er; [|apply Fb] end.
        intros x Hx. apply (Ff t f E). destruct i; try discriminate; eapply Pa; eauto.
    + (* list of targets *)
      assert (G : forall acc, (forall x, In x acc -> In x (children h p)) ->
        match (fix go (l : list pyval) (acc : list loc) : res gres :=
         match l with
         | [] => match acc with [] => Err KeyError | _ => Ok (GList acc) end
         | t :: r => match getitem_val h p t with
                     | Ok (GItem x) => go r (acc ++ [x])
                     | Ok (GList xs) => go r (acc ++ xs)
                     | Err e => Err e
                     end
         end) l acc with Ok (GItem x) => In x (children h p) | Ok (GList l) => forall x, In x l -> In x (children h p) | Err _ => True end).
      { induction l as [|t l IHl]; intros acc Ha; [destruct acc; [exact I|exact Ha]|].
        specialize (IHv t). destruct (getitem_val h p t) as [[x|xs]|e]; [| |exact I]; apply IHl; intros y Hy; apply in_app_or in Hy as [Hy|Hy]; auto.
        destruct Hy as [<-|[]]. exact IHv. }
      apply (G []). intros x [].
    + assert (G : forall acc, (forall x, In x acc -> In x (children h p)) ->
        match (fix go (l : list pyval) (acc : list loc) : res gres :=
         match l with
         | [] => match acc with [] => Err KeyError | _ => Ok (GList acc) end
         | t :: r => match families_of h p t with
                     | Ok (Some f) => go r (acc ++ f)
                     | Ok None => Err KeyError
                     | Err e => Err e
                     end
         end) l acc with Ok (GItem x) => In x (children h p) | Ok (GList l) => forall x, In x l -> In x (children h p) | Err _ => True end).
      { induction l as [|t l IHl]; intros acc Ha; [destruct acc; [exact I|exact Ha]|].
        destruct (families_of h p t) as [[f|]|e] eqn:E; [|exact I|exact I]. apply IHl. intros y Hy. apply in_app_or in Hy as [Hy|Hy]; auto. eapply Fg; eauto. }
      apply (G []). intros x [].
  - intros x Hx. unfold py_slice in Hx. rewrite El. apply firstn_In in Hx. eapply skipn_In; eauto.
  - destruct (fam_of h p t) as [[f|]|e] eqn:E; [apply (Ff t f E)|exact I|destruct e; exact I].
  - destruct (fam_of h p t) as [[f|]|e] eqn:E; [|exact I|destruct e; exact I]. intros x Hx. unfold py_slice in Hx. apply firstn_In in Hx. apply skipn_In in Hx. apply (Ff t f E x Hx).
  - destruct (fam_of h p t) as [[f|]|e] eqn:E; [|exact I|exact I]. destruct (list_at f i) as [x|] eqn:Ei; [|exact I]. apply (Ff t f E). eapply La; eauto.
  - intros x Hx. rewrite El. exact Hx.
  - intros x Hx. rewrite El. apply filter_In in Hx. apply Hx.
Qed.
Example C27_case : Reach ex_heap /\ children ex_heap 0 <> [] /\
  getitem ex_heap 0 (TgVal (PInt (-1))) = Ok (GItem 4) /\ getitem ex_heap 0 (TgVal (PTuple [PStr "a"; PInt 1])) = Ok (GItem 3) /\
  getitem ex_heap 0 (TgVal (PStr "a")) = Ok (GList [1; 3]) /\ getitem ex_heap 0 (TgVal (PInt 9)) = Err IndexError.
Proof. split; [exact ex_reach|]. split; [vm_compute; discriminate|]. vm_compute. auto 10. Qed.
(** an int tag that is also a valid index is not reachable as int target *)
Definition int_tag_ops : list op := [ONew (PStr "r") PNoValue [EArgs (PInt 1) (PInt 10); EArgs (PStr "b") (PInt 20); EArgs (PInt 7) (PInt 30)] None 0].
Example C27_int_tag_case : let h := runs int_tag_ops empty_heap in
  Reach h /\ getitem h 0 (TgVal (PInt 1)) = Ok (GItem 2) /\ getitem h 0 (TgVal (PInt 7)) = Ok (GList [3]).
Proof. cbv zeta. split; [apply reach_runs; [constructor|vm_compute; reflexivity]|]. vm_compute. auto. Qed.

(** * C28 *)
Theorem C28_neighbours : forall h p l1 x l2, Reach h -> children h p = l1 ++ x :: l2 ->
  (exists h1, pre_item x h = (h1, Ok (last (map Some l1) None)) /\ same (view h1) (view h)) /\
  (exists h2, post_item x h = (h2, Ok (hd_error l2)) /\ same (view h2) (view h)) /\
  siblings h x = l1 ++ l2.
Proof.
  intros h p l1 x l2 R E. pose proof (reach_WF h R) as W.
  assert (Hk : nth_error (children h p) (length l1) = Some x) by (rewrite E, nth_error_app2, Nat.sub_diag by lia; reflexivity).
  split; [|split].
  - destruct (pre_item_ok h p _ x W Hk) as (h1 & E1 & Q). exists h1. split; [|apply ceq_same; exact Q]. rewrite E1. f_equal. f_equal.
    destruct l1 as [|a l1] using rev_ind; [reflexivity|]. rewrite app_length. cbn [length]. rewrite Nat.add_1_r.
    rewrite last_app_some. rewrite E, <- app_assoc. cbn [app]. rewrite nth_error_app2, Nat.sub_diag by lia. reflexivity.
  - destruct (post_item_ok h p _ x W Hk) as (h1 & E1 & Q). exists h1. split; [|apply ceq_same; exact Q]. rewrite E1. f_equal. f_equal.
    rewrite E, nth_error_app2 by lia. replace (S (length l1) - length l1) with 1 by lia. destruct l2; reflexivity.
  - rewrite (siblings_ok h p _ x W Hk). unfold remove_at. rewrite E, firstn_app, firstn_all, Nat.sub_diag, skipn_app.
    rewrite (skipn_all2 (n := S (length l1))) by lia. replace (S (length l1) - length l1) with 1 by lia. cbn. rewrite app_nil_r. reflexivity.
Qed.
Theorem C28_neighbours_root : forall h x, parent_of h x = None ->
  pre_item x h = (h, Ok None) /\ post_item x h = (h, Ok None) /\ siblings h x = [].
Proof. intros h x H. destruct (root_neighbours h x H) as (A & B & C & _). auto. Qed.
Example C28_case : Reach ex_heap /\ children ex_heap 0 = [1] ++ 2 :: [3; 4] /\
  snd (pre_item 2 ex_heap) = Ok (Some 1) /\ snd (post_item 2 ex_heap) = Ok (Some 3) /\ snd (pre_item 1 ex_heap) = Ok None /\ siblings ex_heap 2 = [1; 3; 4].
Proof. split; [exact ex_reach|]. vm_compute. auto 10. Qed.

(** * C29 *)
(** a target that names one child is reported as present *)
Theorem C29_contains_single_partial : forall h p tg x, getitem h p tg = Ok (GItem x) -> contains_target h p tg = true.
Proof. intros h p tg x E. unfold contains_target. rewrite E. reflexivity. Qed.
(** a target that resolves to nothing is reported as absent *)
Theorem C29_contains_missing_partial : forall h p tg e, getitem h p tg = Err e -> contains_target h p tg = false.
Proof. intros h p tg e E. unfold contains_target. rewrite E. reflexivity. Qed.
(** every child is reported as present; is_in answers by identity of the parent *)
Theorem C29_contains_child_partial : forall h p x, Reach h -> In x (children h p) -> contains_item h p x = true /\ is_in h p x = true.
Proof.
  intros h p x R Hin. split.
  - unfold contains_item. apply existsb_exists. exists x. split; [exact Hin|]. unfold item_eqb. rewrite Nat.eqb_refl. reflexivity.
  - destruct (child_attached h p x (reach_WF h R) Hin) as [_ Hp]. unfold is_in. unfold parent_of, view in Hp. cbn in Hp.
    destruct (nprt (hnode h x)) as [pl|]; [|discriminate]. injection Hp as ->. apply Nat.eqb_refl.
Qed.
Theorem C29_is_in_partial : forall h p x, Reach1 h -> (is_in h p x = true <-> In x (children h p)).
Proof.
  intros h p x R. destruct (reach1_WFN h R) as [W NO]. split; [|intros; apply C29_contains_child_partial; [apply Reach1_Reach; exact R|assumption]].
  unfold is_in. intros H. apply NO. destruct (nprt (hnode h x)) as [pl|] eqn:E; [|discriminate]. apply Nat.eqb_eq in H. subst p.
  unfold view. cbn. rewrite E. reflexivity.
Qed.
Example C29_case : Reach1 ex_heap /\ In 3 (children ex_heap 0) /\ contains_item ex_heap 0 3 = true /\
  contains_target ex_heap 0 (TgVal (PInt 2)) = true /\ contains_target ex_heap 0 (TgVal (PInt 4)) = false.
Proof. split; [exact ex_reach1|]. vm_compute. auto 10. Qed.
(** [tag in tree] is False although t[tag] resolves *)
Theorem C29_contains_tag_refuted : getitem ex_heap 0 (TgVal (PStr "a")) = Ok (GList [1; 3]) /\ contains_target ex_heap 0 (TgVal (PStr "a")) = false.
Proof. vm_compute. auto. Qed.
Theorem C29_contains_list_refuted : forall h p tg l, getitem h p tg = Ok (GList l) -> contains_target h p tg = false.
Proof. intros h p tg l E. unfold contains_target. rewrite E. reflexivity. Qed.

Print Assumptions C23_items_partial.
Print Assumptions C23_items_refuted.
Print Assumptions C24_tags.
Print Assumptions C25_idx_path_partial.
Print Assumptions C25_idx_path_refuted.
Print Assumptions C26_tag_idx_path_partial.
Print Assumptions C26_tag_idx_path_sound_partial.
Print Assumptions C26_tag_idx_path_refuted.
Print Assumptions C27_targets.
Print Assumptions C27_empty.
Print Assumptions C27_only_children.
Print Assumptions C28_neighbours.
Print Assumptions C28_neighbours_root.
Print Assumptions C29_contains_single_partial.
Print Assumptions C29_contains_missing_partial.
Print Assumptions C29_contains_child_partial.
Print Assumptions C29_is_in_partial.
Print Assumptions C29_contains_tag_refuted.
Print Assumptions C29_contains_list_refuted.
