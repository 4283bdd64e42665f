(** C19 - C22: sort, clear, extend / constructor, extendleft. *)
From Coq Require Import Sorting.Permutation Sorting.Sorted.
From Verif Require Import Base Heap HeapSpec ListLemmas ForestLemmas HeapInv HeapAttach HeapOps HeapOps2 HeapOps3
  HeapHoare Tree HeapTree HeapCopy HeapMut HeapExt HeapExt2 HeapOrd HeapOrd2 HeapRen HeapMove HeapSet HeapSet2 HeapHist
  HeapHash History HeapRead HeapRead2 Runs HeapDel HeapLink HeapLinkH PropsA PropsB PropsC.

(** * C19 *)
(** the value sort() compares: the key function's result, or (no key) the number of children *)
Definition compared (h : heap) (key : option (node -> Z)) (x : loc) : Z :=
  match key with Some f => f (hnode h x) | None => Z.of_nat (length (children h x)) end.
Definition in_order (h : heap) (key : option (node -> Z)) (rv : bool) (x y : loc) : Prop :=
  if rv then (compared h key y <= compared h key x)%Z else (compared h key x <= compared h key y)%Z.
(** the children after sort() are fresh copies [cs] of [ys], where ys is the stable sorted
    permutation of the old children; nothing else changes *)
Theorem C19_sort_partial : forall h p key rv, ReachL h -> p < hnext h -> tree_protected h p = false ->
  exists h' ys cs, sort p key rv h = (h', Ok tt) /\
    Permutation (children h p) ys /\
    StronglySorted (in_order h key rv) ys /\
    (forall c, filter (fun y => (compared h key y =? c)%Z) ys = filter (fun y => (compared h key y =? c)%Z) (children h p)) /\
    view h' p = a_set_children cs (view h p) /\
    Forall2 (copy_of (view h) (view h') (hnext h) (hnext h')) ys cs /\
    (forall y, y < hnext h -> y <> p -> view h' y = view h y) /\ families_agree h'.
Proof.
  intros h p key rv RL Hp Hpr. pose proof (ReachL_Reach h RL) as R. pose proof (reach_WF h R) as W.
  pose proof (sort_total h p key rv W (reachL_links h RL) Hp Hpr) as T.
  destruct (sort_ok h p key rv W Hp (check_order_unprot p h Hpr)) as (h' & r & E & W' & K). rewrite E in T. cbn in T. subst r.
  destruct K as (cs & V & F & O). exists h', (sort_list (sort_key h key rv) (children h p)), cs. split; [exact E|].
  split; [apply sort_list_perm|]. split.
  { eapply sorted_impl; [|apply sort_list_sorted]. intros a b _ _ Hab. unfold kle, sort_key, in_order, compared, children in *. cbn in *.
    destruct rv; [lia|exact Hab]. }
  split.
  { intros c. assert (Q : forall l, filter (fun y => (compared h key y =? c)%Z) l = filter (fun y => (sort_key h key rv y =? (if rv then - c else c))%Z) l).
    { intros l. apply filter_ext. intros y. unfold sort_key, compared, children. cbn. destruct rv; [|reflexivity].
      destruct (Z.eqb_spec (match key with Some f => f (hnode h y) | None => Z.of_nat (length (nitems (hnode h y))) end) c);
      destruct (Z.eqb_spec (- match key with Some f => f (hnode h y) | None => Z.of_nat (length (nitems (hnode h y))) end) (- c)); try reflexivity; lia. }
    rewrite !Q. apply sort_list_stable. }
  split; [exact V|]. split; [exact F|]. split; [exact O|]. apply reach_agree.
  apply (reach_after h (OSort p key rv) h' (Ok tt)); assumption.
Qed.
Example C19_case : ReachL ex_heap /\ 0 < hnext ex_heap /\ tree_protected ex_heap 0 = false /\
  map (fun x => nval (hnode (fst (sort 0 (Some (fun n => match nval n with PInt z => - z | _ => 0 end)%Z) false ex_heap)) x))
      (children (fst (sort 0 (Some (fun n => match nval n with PInt z => - z | _ => 0 end)%Z) false ex_heap)) 0)
  = [PInt 4; PInt 3; PInt 2; PInt 1].
Proof. split; [exact ex_reachL|]. split; [vm_compute; lia|]. vm_compute. auto 12. Qed.
(** the children are replaced: the old objects are no longer children, yet still name the parent *)
Theorem C19_sort_identity_refuted : let h' := fst (sort 0 None false ex_heap) in
  children ex_heap 0 = [1; 2; 3; 4] /\ (forall x, In x [1; 2; 3; 4] -> ~ In x (children h' 0)) /\
  parent_of h' 1 = Some 0.
Proof.
  cbv zeta. split; [vm_compute; reflexivity|]. split; [|vm_compute; reflexivity].
  intros x Hx K. vm_compute in K. cbn in Hx. decompose [or] Hx; subst; decompose [or] K; try discriminate; contradiction.
Qed.
(** a child flagged LINK_ROOT without a link: sort raises and the children are gone *)
Definition bad_link_ops : list op :=
  [ONew (PStr "r") PNoValue [] None 0; ONew (PStr "a") PNoValue [] None LINK_ROOT; OAppend 0 (IItem 1)].
Theorem C19_sort_loss_refuted : let h := runs bad_link_ops empty_heap in let r := sort 0 None false h in
  Reach h /\ children h 0 = [1] /\ snd r = Err AttributeError /\ children (fst r) 0 = [].
Proof. cbv zeta. split; [apply reach_runs; [constructor|vm_compute; reflexivity]|]. vm_compute. auto 12. Qed.

(** * C20 *)
Lemma clear_total h p kv : tree_protected h p = false -> snd (clear p kv h) = Ok tt.
Proof.
  intros Hpr. assert (E1 : has (nflags (hnode h p)) LINKED = false /\ is_link_root h p = false).
  { unfold tree_protected, is_link_root, has in *. apply negb_false_iff, Z.eqb_eq in Hpr.
    assert (K : forall m, Z.land IS_TREE_PROTECTED m = m -> Z.land (nflags (hnode h p)) m = 0%Z).
    { intros m Hm. rewrite <- Hm, Z.land_assoc, Hpr. apply Z.land_0_l. }
    rewrite !K by reflexivity. auto. }
  destruct E1 as [E1 E2]. unfold clear. rewrite bind_gets, Hpr, E2. cbn [andb]. rewrite bind_ret. unfold unset_flags at 1, bind at 1.
  rewrite bind_gets, E1. cbn. destruct kv; reflexivity.
Qed.
Theorem C20_clear_partial : forall h p kv, Reach h -> p < hnext h -> tree_protected h p = false ->
  exists h', clear p kv h = (h', Ok tt) /\ children h' p = [] /\
    (forall tg, getitem h' p tg = Err KeyError) /\
    tag_of h' p = tag_of h p /\ parent_of h' p = parent_of h p /\
    a_val (view h' p) = (if kv then a_val (view h p) else PNoValue) /\
    a_coupled (view h' p) = a_coupled (view h p) /\
    (forall y, y <> p -> view h' y = view h y).
Proof.
  intros h p kv R Hp Hpr. pose proof (clear_total h p kv Hpr) as T. destruct (clear p kv h) as [h' r] eqn:E. cbn in T. subst r.
  destruct (clear_ok h p kv h' Hp E) as (A & _ & B & C & D & F & G). exists h'. split; [reflexivity|]. split; [exact A|].
  split; [|auto]. intros tg. unfold getitem. change (nitems (hnode h' p)) with (children h' p). rewrite A. reflexivity.
Qed.
Example C20_case : Reach ex_heap /\ 0 < hnext ex_heap /\ tree_protected ex_heap 0 = false /\ children ex_heap 0 = [1; 2; 3; 4].
Proof. split; [exact ex_reach|]. split; [vm_compute; lia|]. vm_compute. auto 12. Qed.
(** the removed children still name the old parent and cannot be re-used *)
Theorem C20_clear_children_refuted : let h' := fst (clear 0 false ex_heap) in
  children h' 0 = [] /\ parent_of h' 1 = Some 0 /\ snd (append 6 (IItem 1) h') = Err RecursionError.
Proof. vm_compute. auto 12. Qed.
(** clear() also drops the protection of the value, and the protected value *)
Definition rov_ops : list op := ex_ops ++ [OSetValue 0 (PInt 42); OSetValueReadOnly 0].
Theorem C20_clear_flags_refuted : let h := runs rov_ops empty_heap in let h' := fst (clear 0 false h) in
  a_flags (view h 0) = READ_ONLY_VALUE /\ snd (set_value 0 (PInt 1) h) = Err PermissionError /\
  a_flags (view h' 0) = 0%Z /\ a_val (view h' 0) = PNoValue.
Proof. vm_compute. auto 12. Qed.

(** * C21 *)
(** extend: the elements [es] become, in order, the children [cs] behind the old ones
    (spec [extended] / [elem] / [copy_of] in HeapExt.v: a parentless item itself, a copy of an
    item that has a parent, a new item for plain arguments); nothing else changes. *)
Theorem C21_extend_partial : forall h p es, ReachL h -> p < hnext h -> tree_protected h p = false ->
  Forall (earg_far h p) es -> NoDup (eitems es) -> Forall earg_tag_ok es ->
  exists h' cs, extend p es h = (h', Ok tt) /\ extended (view h) (view h') (hnext h) (hnext h') p es cs /\ families_agree h'.
Proof.
  intros h p es RL Hp Hpr HF HN HT. pose proof (ReachL_Reach h RL) as R. pose proof (reach_WF h R) as W.
  assert (HK : Forall (earg_ok h p) es) by (eapply Forall_impl; [|exact HF]; intros e; apply far_ok).
  pose proof (iter_extend_total h p es W (reachL_links h RL) Hp HK HT) as T.
  destruct (iter_extend_ok h p es W Hp HF HN) as (h' & r & E & W' & _ & K). rewrite E in T. cbn in T. subst r. destruct K as (cs & X).
  assert (EE : extend p es h = (h', Ok tt)) by (unfold extend; rewrite (bind_ok _ _ _ _ _ (check_extend_unprot p es h Hpr)); exact E).
  exists h', cs. split; [exact EE|]. split; [exact X|]. apply reach_agree. apply (reach_after h (OExtend p es) h' (Ok tt)); [assumption|split; assumption|exact EE].
Qed.
Lemma elem_base_lt s s1 s' n n1 n' e c : n <= n1 -> (forall y, y < n -> s1 y = s y) ->
  (forall x, e = EItem x -> x < n) ->
  (forall T, ltree s T -> root T < n -> forall y, In y (flatten T) -> y < n) ->
  (forall x, x < n -> exists T, ltree s T /\ root T = x) ->
  elem s1 s' n1 n' e c -> elem s s' n n' e c.
Proof.
  intros Hn F Hx Hlt Hex. destruct e as [x|t v|v]; cbn [elem].
  - specialize (Hx x eq_refl). rewrite (F x Hx). intros [H|[H (T & T' & HT & Er & HT' & Ec & Lab & Rng)]]; [left; exact H|right].
    split; [exact H|]. destruct (Hex x Hx) as (U & HU & Eu).
    assert (U1 : ltree s1 U).
    { eapply ltree_frame; [|exact HU]. intros y Hy. rewrite F; [reflexivity|]. eapply Hlt; eauto. congruence. }
    assert (T = U) by (eapply ltree_unique; [exact HT|exact U1|congruence]). subst U.
    exists T, T'. split; [exact HU|]. split; [exact Er|]. split; [exact HT'|]. split; [exact Ec|]. split.
    + rewrite Lab. apply tmap_ext. intros y Hy. unfold label. rewrite F; [reflexivity|]. eapply Hlt; eauto. congruence.
    + intros y Hy. specialize (Rng y Hy). lia.
  - intros (A & B & C). split; [lia|auto].
  - intros (A & B & C). split; [lia|auto].
Qed.
(** iTree(tag, value, subtree=es) without inherited flags: a new parentless item whose children are the elements *)
Theorem C21_constructor_partial : forall h t v es fl, ReachL h -> hashable t = true ->
  Forall (fun e => match e with EItem x => x < hnext h | _ => True end) es -> NoDup (eitems es) -> Forall earg_tag_ok es ->
  has fl LINK_ROOT = false -> Z.land (Z.land fl FLAG_MASK) DEEP_FLAG_MASK = 0%Z ->
  exists h' cs, new_tree t v es None fl h = (h', Ok (hnext h)) /\
    view h' (hnext h) = AN t v (Z.land fl FLAG_MASK) None cs None None /\
    Forall2 (elem (view h) (view h') (hnext h) (hnext h')) es cs /\
    (forall y, y < hnext h -> view h' y = if existsb (Nat.eqb y) (filter (is_free (view h)) (eitems es))
                                          then a_set_parent (Some (hnext h)) (view h y) else view h y).
Proof.
  intros h t v es fl RL Ht Hes HN HT Hfl Hd. pose proof (ReachL_Reach h RL) as R. pose proof (reach_WF h R) as W.
  set (h1 := fst (halloc h (fresh_node t v (Z.land fl FLAG_MASK) None))).
  assert (E1 : new_item t v (Z.land fl FLAG_MASK) None h = (h1, Ok (hnext h))) by reflexivity.
  assert (W1 : WF h1) by (apply halloc_WF; [assumption|discriminate]).
  assert (L1 : links_sane h1).
  { assert (K : lsp (new_item t v (Z.land fl FLAG_MASK) None)) by (apply lsp_new_item; rewrite has_land by reflexivity; congruence).
    apply (K h (reachL_links h RL)). }
  assert (N1 : hnext h1 = S (hnext h)) by reflexivity.
  assert (V1 : forall y, y < hnext h -> view h1 y = view h y).
  { intros y Hy. unfold h1. rewrite new_item_view. destruct (Nat.eqb_spec y (hnext h)); [lia|reflexivity]. }
  assert (Vn : view h1 (hnext h) = AN t v (Z.land fl FLAG_MASK) None [] None None).
  { unfold h1. rewrite new_item_view, Nat.eqb_refl. reflexivity. }
  assert (HF : Forall (earg_far h1 (hnext h)) es).
  { eapply Forall_impl; [|exact Hes]. intros [x| |]; cbn; auto. intros Hx. split; [lia|]. intros K.
    assert (Q : a_parent (view h1 (hnext h)) = None) by (rewrite Vn; reflexivity). pose proof (Anc_root_eq _ _ _ Q K). lia. }
  assert (HK : Forall (earg_ok h1 (hnext h)) es) by (eapply Forall_impl; [|exact HF]; intros e; apply far_ok).
  pose proof (iter_extend_total h1 (hnext h) es W1 L1 ltac:(lia) HK HT) as T.
  destruct (iter_extend_ok h1 (hnext h) es W1 ltac:(lia) HF HN) as (h' & r & E & W' & Nx & K). rewrite E in T. cbn in T. subst r. destruct K as (cs & X1 & X2 & X3).
  assert (Efree : filter (is_free (view h1)) (eitems es) = filter (is_free (view h)) (eitems es)).
  { apply filter_ext_in. intros x Hx. unfold is_free. rewrite V1; [reflexivity|].
    unfold eitems in Hx. apply in_flat_map in Hx as (e & He & Hx). rewrite Forall_forall in Hes. specialize (Hes e He).
    destruct e; cbn in Hx; try tauto. destruct Hx as [<-|[]]. exact Hes. }
  assert (Fin : forall h2, (forall y, view h2 y = view h' y) -> hnext h2 = hnext h' ->
     view h2 (hnext h) = AN t v (Z.land fl FLAG_MASK) None cs None None /\
     Forall2 (elem (view h) (view h2) (hnext h) (hnext h2)) es cs /\
     (forall y, y < hnext h -> view h2 y = if existsb (Nat.eqb y) (filter (is_free (view h)) (eitems es))
                                          then a_set_parent (Some (hnext h)) (view h y) else view h y)).
  { intros h2 Hv Hn2. split; [|split].
    - rewrite Hv, X1, Vn. reflexivity.
    - eapply Forall2_impl_in; [|exact X2]. intros e c He Hel. rewrite Hn2.
      assert (Hel2 : elem (view h1) (view h2) (hnext h1) (hnext h') e c).
      { eapply (elem_mono _ (view h')); [exact Nx|apply le_n|intros y _; unfold label; rewrite Hv; auto|exact Hel]. }
      eapply (elem_base_lt (view h) (view h1)); [| | | | |exact Hel2].
      + lia.
      + exact V1.
      + intros x ->. rewrite Forall_forall in Hes. apply (Hes _ He).
      + intros T HT0 Hr. apply (ltree_lt (hnext h) (view h) T (wf_forest _ W) HT0 Hr).
      + intros x Hx. destruct (ltree_exists (hnext h) (view h) x (wf_forest _ W) Hx) as (T & A & B & _). eauto.
    - intros y Hy. rewrite Hv, X3 by lia. rewrite Efree, V1 by assumption. reflexivity. }
  unfold new_tree. rewrite Ht. cbn [negb]. rewrite (bind_ok _ _ _ _ _ E1). rewrite Hd. destruct es as [|e es].
  - exists h1, cs. rewrite bind_ret, bind_ret. split; [reflexivity|]. inversion X2; subst.
    split; [exact Vn|]. split; [constructor|]. intros y Hy. cbn. apply V1. assumption.
  - assert (Em : mapM_ (ext_step_flags (hnext h) 0) (e :: es) = mapM_ (ext_step_flags (hnext h) 0) (e :: es)) by reflexivity.
    assert (Loop : forall l g, mapM_ (ext_step_flags (hnext h) 0) l g = mapM_ (ext_step (hnext h)) l g).
    { induction l as [|a l IH]; intros g; [reflexivity|]. cbn [mapM_].
      unfold ext_step_flags at 1. destruct (ext_step (hnext h) a g) as [g' [[]|er]] eqn:Eg.
      - rewrite (bind_ok _ _ _ _ _ Eg). unfold bind at 1. rewrite (bind_ok _ _ _ _ _ Eg). cbn. apply IH.
      - rewrite (bind_err _ _ _ _ _ Eg). unfold bind at 1. rewrite (bind_err _ _ _ _ _ Eg). reflexivity. }
    unfold iter_extend in E. rewrite bind_gets in E.
    assert (Ei : nitems (hnode h1 (hnext h)) = []) by (cbn; rewrite Nat.eqb_refl; reflexivity). rewrite Ei in E.
    rewrite bind_upd in E. exists h', cs. split.
    + unfold bind at 1. rewrite bind_upd, Loop, E. reflexivity.
    + apply Fin; reflexivity.
Qed.
Example C21_case : ReachL ex_heap /\ 0 < hnext ex_heap /\ tree_protected ex_heap 0 = false /\
  Forall (earg_far ex_heap 0) [EItem 6; EItem 5; EArgs (PStr "z") (PInt 9); EVal (PInt 8)] /\
  NoDup (eitems [EItem 6; EItem 5; EArgs (PStr "z") (PInt 9); EVal (PInt 8)]) /\
  Forall earg_tag_ok [EItem 6; EItem 5; EArgs (PStr "z") (PInt 9); EVal (PInt 8)] /\
  parent_of ex_heap 6 = None /\ parent_of ex_heap 5 = Some 3 /\
  map (fun x => nval (hnode (fst (extend 0 [EItem 6; EItem 5; EArgs (PStr "z") (PInt 9); EVal (PInt 8)] ex_heap)) x))
    (children (fst (extend 0 [EItem 6; EItem 5; EArgs (PStr "z") (PInt 9); EVal (PInt 8)] ex_heap)) 0)
  = [PInt 1; PInt 2; PInt 3; PInt 4; nval (hnode ex_heap 6); nval (hnode ex_heap 5); PInt 9; PInt 8].
Proof.
  split; [exact ex_reachL|]. split; [vm_compute; lia|]. split; [vm_compute; reflexivity|]. split.
  { repeat apply Forall_cons; try exact I; try apply Forall_nil; (split; [vm_compute; lia|apply (anc_b_false _ _ 20); vm_compute; reflexivity]). }
  split; [vm_compute; repeat constructor; cbn; intros H; decompose [or] H; try discriminate; contradiction|].
  split; [repeat constructor|]. vm_compute. auto 12.
Qed.

Lemma copy_of_children s s' n n' x c : copy_of s s' n n' x c ->
  Forall2 (copy_of s s' n n') (a_children (s x)) (a_children (s' c)).
Proof.
  intros (T & T' & HT & Er & HT' & Ec & Lab & Rng). destruct T as [x0 ks], T' as [c0 ks']. cbn in Er, Ec. subst x0 c0.
  apply ltree_iff in HT as [E1 F1]. apply ltree_iff in HT' as [E2 F2]. rewrite <- E1, <- E2. apply (f_equal kids) in Lab. cbn [kids tmap] in Lab.
  assert (Rng' : forall y, In y (flat_map flatten ks') -> n <= y < n') by (intros y Hy; apply Rng; cbn; auto). clear - F1 F2 Lab Rng'.
  revert ks' F2 Lab Rng'. induction ks as [|k ks IH]; intros [|k' ks'] F2 Lab Rng'; try discriminate; [constructor|].
  cbn [map] in Lab. injection Lab as L1 L2. inversion F1; subst. inversion F2; subst. cbn. constructor.
  - exists k, k'. split; [assumption|]. split; [reflexivity|]. split; [assumption|]. split; [reflexivity|]. split; [assumption|].
    intros y Hy. apply Rng'. cbn. apply in_or_app; auto.
  - apply IH; try assumption. intros y Hy. apply Rng'. cbn. apply in_or_app; auto.
Qed.
(** a copy of a copy is a copy *)
Lemma copy_of_trans s s1 s2 n n1 n2 x y z : n <= n1 -> copy_of s s1 n n1 x y -> copy_of s1 s2 n1 n2 y z -> copy_of s s2 n n2 x z.
Proof.
  intros Hn (T & T1 & HT & Er & HT1 & Ey & Lab & Rng) (U & T2 & HU & Eu & HT2 & Ez & Lab2 & Rng2).
  assert (U = T1) by (eapply ltree_unique; [exact HU|exact HT1|congruence]). subst U.
  exists T, T2. split; [exact HT|]. split; [exact Er|]. split; [exact HT2|]. split; [exact Ez|]. split.
  - rewrite Lab2. rewrite <- (tmap_tmap (label s1) cp_label), Lab, tmap_tmap. apply tmap_ext. intros a _. apply cp_label_idem.
  - intros a Ha. specialize (Rng2 a Ha). lia.
Qed.
(** extend(tree): copies of the children of q, in order, behind the children of p; q and
    everything else stays as it is — also when q is p itself or belongs to the same tree. *)
Theorem C21_extend_tree_partial : forall h p q, ReachL h -> p < hnext h -> q < hnext h -> tree_protected h p = false ->
  exists h' cs, extend_tree p q h = (h', Ok tt) /\
    view h' p = a_set_children (children h p ++ cs) (view h p) /\
    Forall2 (copy_of (view h) (view h') (hnext h) (hnext h')) (children h q) cs /\
    (forall y, y < hnext h -> y <> p -> view h' y = view h y) /\ families_agree h'.
Proof.
  intros h p q RL Hp Hq Hpr. pose proof (ReachL_Reach h RL) as R. pose proof (reach_WF h R) as W. pose proof (reachL_links h RL) as L.
  assert (Main : exists h' cs, extend_tree p q h = (h', Ok tt) /\
    view h' p = a_set_children (children h p ++ cs) (view h p) /\
    Forall2 (copy_of (view h) (view h') (hnext h) (hnext h')) (children h q) cs /\
    (forall y, y < hnext h -> y <> p -> view h' y = view h y)).
  2:{ destruct Main as (h' & cs & E & A & B & C). exists h', cs. split; [exact E|]. split; [exact A|]. split; [exact B|]. split; [exact C|].
      apply reach_agree. apply (reach_after h (OExtendTree p q) h' (Ok tt)); [assumption|split; assumption|exact E]. }
  (* the loop: all elements have a parent *)
  assert (Loop : forall h1 q1, WF h1 -> links_sane h1 -> p < hnext h1 -> Forall (earg_far h1 p) (map EItem (children h1 q1)) ->
     exists h' cs, iter_extend p (map EItem (children h1 q1)) h1 = (h', Ok tt) /\ hnext h1 <= hnext h' /\
       view h' p = a_set_children (children h1 p ++ cs) (view h1 p) /\
       Forall2 (copy_of (view h1) (view h') (hnext h1) (hnext h')) (children h1 q1) cs /\
       (forall y, y < hnext h1 -> y <> p -> view h' y = view h1 y)).
  { intros h1 q1 W1 L1 Hp1 HF.
    pose proof (iter_extend_total h1 p _ W1 L1 Hp1 (children_earg_ok h1 p q1 W1)
       ltac:(apply Forall_forall; intros e He; apply in_map_iff in He as (x & <- & _); exact I)) as T.
    destruct (iter_extend_ok h1 p _ W1 Hp1 HF) as (h' & r & E & W' & Hn & K).
    { rewrite eitems_map. apply (fo_nodup _ _ (wf_forest _ W1)). }
    change (nitems (hnode h1 q1)) with (children h1 q1) in T. rewrite E in T. cbn in T. subst r. destruct K as (cs & X1 & X2 & X3).
    exists h', cs. split; [exact E|]. split; [exact Hn|]. split; [exact X1|]. split.
    - assert (G : forall l, (forall x, In x l -> In x (children h1 q1)) -> forall cs, Forall2 (elem (view h1) (view h') (hnext h1) (hnext h')) (map EItem l) cs ->
         Forall2 (copy_of (view h1) (view h') (hnext h1) (hnext h')) l cs).
      { induction l as [|x l IH]; intros Hl cs0 F; inversion F as [|? c ? cs' F1 F2]; subst; [constructor|]. constructor.
        - destruct F1 as [[N _]|[_ F1]]; [|exact F1]. destruct (child_attached h1 q1 x W1 (Hl x (or_introl eq_refl))) as [_ Q].
          unfold parent_of in Q. congruence.
        - apply IH; [|assumption]. intros y Hy. apply Hl. right; assumption. }
      apply (G (children h1 q1) (fun x Hx => Hx) cs X2).
    - intros y Hy Hyp. rewrite (X3 y Hy Hyp), eitems_map.
      assert (Z : filter (is_free (view h1)) (children h1 q1) = []).
      { assert (G : forall l, (forall x, In x l -> In x (children h1 q1)) -> filter (is_free (view h1)) l = []).
        { induction l as [|x l IH]; intros Hl; [reflexivity|]. cbn [filter]. destruct (child_attached h1 q1 x W1 (Hl x (or_introl eq_refl))) as [_ Q].
          unfold is_free. unfold parent_of in Q. rewrite Q. apply IH. intros z Hz. apply Hl. right; assumption. }
        apply G. auto. }
      rewrite Z. reflexivity. }
  unfold extend_tree. rewrite (bind_ok _ _ _ _ _ (check_extend_unprot p [] h Hpr)), bind_gets.
  destruct (root_of_some h p W Hp) as (r & Er & Ar & Pr). destruct (root_of_some h q W Hq) as (r' & Er' & Ar' & Pr').
  rewrite Er, Er'. destruct (Nat.eqb_spec r r') as [->|Hne].
  - destruct (ltree_exists _ _ _ (wf_forest _ W) Hq) as (T & HT & Et & _). subst q.
    destruct (copy_item_ok h W T HT Hq) as (h1 & rr & Ec & W1 & Hn & Fr & RR).
    destruct (copy_item_total h (root T) W L Hq) as (h1' & q' & Ec'). rewrite Ec in Ec'. injection Ec' as <- ->.
    rewrite (bind_ok _ _ _ _ _ Ec), bind_gets. destruct RR as (T' & HT' & Er1 & Lab & Rng & Par & _).
    assert (Cp : copy_of (view h) (view h1) (hnext h) (hnext h1) (root T) q') by (exists T, T'; auto 10).
    pose proof (copy_of_children _ _ _ _ _ _ Cp) as CC.
    assert (Hnew : forall x, In x (children h1 q') -> hnext h <= x < hnext h1).
    { intros x Hx. apply Rng. destruct T' as [q0 ks]. cbn in Er1. subst q0. apply ltree_iff in HT' as [E1 _].
      change (a_children (view h1 q')) with (children h1 q') in E1. rewrite <- E1 in Hx. apply in_map_iff in Hx as (k & <- & Hk). cbn. right. apply in_flat_map. exists k.
      split; [assumption|apply in_flatten_root]. }
    destruct (Loop h1 q') as (h' & cs & E & Hn' & A & B & C).
    + exact W1. + pose proof (lsp_copy_item (root T) h L) as K. rewrite Ec in K. exact K. + lia.
    + apply Forall_forall. intros e He. apply in_map_iff in He as (x & <- & Hx). specialize (Hnew x Hx). split; [lia|]. intros HA.
      apply (Anc_frame (view h)) in HA.
      * revert HA. eapply fresh_not_anc; [apply (wf_forest _ W)| |]; lia.
      * intros y Hy. destruct (Fr y) as [-> _]; [|reflexivity].
        destruct (Nat.lt_ge_cases y (hnext h)); [assumption|]. exfalso.
        revert Hy. eapply fresh_not_anc; [apply (wf_forest _ W)|assumption|]. lia.
    + exists h', cs. split; [exact E|]. split.
      * rewrite A. destruct (Fr p Hp) as [V _]. assert (Vc : children h1 p = children h p) by exact (f_equal a_children V). rewrite Vc, V. reflexivity.
      * split.
        -- clear - CC B Hn. change (a_children (view h (root T))) with (children h (root T)) in CC. change (a_children (view h1 q')) with (children h1 q') in CC.
           revert cs B. induction CC as [|x y lx ly Hxy CC IH]; intros cs B; inversion B; subst; constructor; [|auto]. eapply copy_of_trans; eauto.
        -- intros y Hy Hyp. rewrite (C y ltac:(lia) Hyp). apply (Fr y Hy).
  - rewrite bind_ret, bind_gets. destruct (Loop h q) as (h' & cs & E & _ & A & B & C); [assumption..| |exists h', cs; auto].
    apply Forall_forall. intros e He. apply in_map_iff in He as (x & <- & Hx). destruct (child_attached h q x W Hx) as [H1 H2]. split; [exact H1|].
    intros HA. apply Hne.
    assert (U : forall a x r, parent_of h r = None -> Anc (view h) r x -> Anc (view h) a x -> Anc (view h) r a).
    { intros a x0 r0 Hr0 HA0. induction HA0 as [|y z Hz HA0 IH]; intros Ha.
      - inversion Ha; subst; [constructor|]. unfold parent_of in Hr0. congruence.
      - inversion Ha as [|y' z' Hz' Ha']; subst; [econstructor; eauto|]. apply IH. congruence. }
    assert (K1 : Anc (view h) r x) by (eapply U; eassumption).
    assert (K2 : Anc (view h) r' x) by (econstructor; [exact H2|exact Ar']).
    pose proof (U r x r' Pr' K2 K1) as K3. inversion K3; subst; [reflexivity|]. unfold parent_of in Pr. congruence.
Qed.
Example C21_tree_case : ReachL ex_heap /\ 0 < hnext ex_heap /\ tree_protected ex_heap 0 = false /\
  map (fun x => nval (hnode (fst (extend_tree 0 0 ex_heap)) x)) (children (fst (extend_tree 0 0 ex_heap)) 0)
  = [PInt 1; PInt 2; PInt 3; PInt 4; PInt 1; PInt 2; PInt 3; PInt 4].
Proof. split; [exact ex_reachL|]. split; [vm_compute; lia|]. vm_compute. auto 12. Qed.
(** an item that is above p, handed to extend: the tree becomes cyclic (guard [earg_far] is needed) *)
Theorem C21_cycle_refuted : let h' := fst (extend 0 [EItem 0] ex_heap) in
  snd (extend 0 [EItem 0] ex_heap) = Ok tt /\ In 0 (children h' 0) /\ parent_of h' 0 = Some 0.
Proof. vm_compute. auto 12. Qed.
(** an element with an unhashable tag stops extend in the middle: the earlier elements stay *)
Theorem C21_half_refuted : let r := extend 0 [EVal (PInt 8); EArgs (PList [PInt 1]) (PInt 9)] ex_heap in
  snd r = Err TypeError /\ length (children (fst r) 0) = 5.
Proof. vm_compute. auto 12. Qed.

(** * C22 *)
Lemma check_extendleft_unprot p es h : tree_protected h p = false -> check_extendleft p es h = (h, Ok tt).
Proof. intros H. unfold check_extendleft. rewrite bind_gets, H. reflexivity. Qed.
Theorem C22_extendleft_partial : forall h p es, ReachL h -> p < hnext h -> tree_protected h p = false ->
  Forall (earg_far h p) es -> NoDup (eitems es ++ children h p) -> Forall earg_tag_ok es ->
  exists h' cs, extendleft p es h = (h', Ok tt) /\ prepended (view h) (view h') (hnext h) (hnext h') p es cs /\ families_agree h'.
Proof.
  intros h p es RL Hp Hpr HF HN HT. pose proof (ReachL_Reach h RL) as R. pose proof (reach_WF h R) as W.
  assert (HC : outcome (check_extendleft p es) h = Ok tt) by (unfold outcome; rewrite check_extendleft_unprot by assumption; reflexivity).
  pose proof (extendleft_total h p es W (reachL_links h RL) Hp HC HF HT) as T.
  destruct (extendleft_ok h p es W Hp HC HF HN) as (h' & r & E & W' & K). rewrite E in T. cbn in T. subst r. destruct K as (cs & X).
  exists h', cs. split; [exact E|]. split; [exact X|]. apply reach_agree. apply (reach_after h (OExtendLeft p es) h' (Ok tt)); [assumption|split; assumption|exact E].
Qed.
Example C22_case : ReachL ex_heap /\ 0 < hnext ex_heap /\ tree_protected ex_heap 0 = false /\
  Forall (earg_far ex_heap 0) [EItem 6; EItem 5; EVal (PInt 8)] /\ NoDup (eitems [EItem 6; EItem 5; EVal (PInt 8)] ++ children ex_heap 0) /\
  Forall earg_tag_ok [EItem 6; EItem 5; EVal (PInt 8)] /\
  map (fun x => nval (hnode (fst (extendleft 0 [EItem 6; EItem 5; EVal (PInt 8)] ex_heap)) x))
    (children (fst (extendleft 0 [EItem 6; EItem 5; EVal (PInt 8)] ex_heap)) 0)
  = [nval (hnode ex_heap 6); nval (hnode ex_heap 5); PInt 8; PInt 1; PInt 2; PInt 3; PInt 4].
Proof.
  split; [exact ex_reachL|]. split; [vm_compute; lia|]. split; [vm_compute; reflexivity|]. split.
  { repeat apply Forall_cons; try exact I; try apply Forall_nil; (split; [vm_compute; lia|apply (anc_b_false _ _ 20); vm_compute; reflexivity]). }
  split; [vm_compute; repeat constructor; cbn; intros H; decompose [or] H; try discriminate; contradiction|].
  split; [repeat constructor|]. vm_compute. auto 12.
Qed.
(** an element that fails: the old children are gone *)
Theorem C22_extendleft_loss_refuted : let r := extendleft 0 [EArgs (PList [PInt 1]) (PInt 9)] ex_heap in
  children ex_heap 0 = [1; 2; 3; 4] /\ snd r = Err TypeError /\ children (fst r) 0 = [].
Proof. vm_compute. auto 12. Qed.

(** * C02 *)
(** calls on one item p, and what the same call does on a Python list / deque *)
Inductive lcall :=
| LAppend (x : loc) | LAppendLeft (x : loc) | LInsert (i : Z) (x : loc) | LExtend (xs : list loc) | LExtendLeft (xs : list loc)
| LPop (i : Z) | LRemove (x : loc) | LReverse | LRotate (n : Z) | LMoveLast (x : loc) | LMove (x : loc) (j : nat) | LClear (keep_value : bool).
Definition to_op (p : loc) (c : lcall) : op :=
  match c with
  | LAppend x => OAppend p (IItem x)
  | LAppendLeft x => OAppendLeft p (IItem x)
  | LInsert i x => OInsert p (InsAt (TgVal (PInt i))) (IItem x)
  | LExtend xs => OExtend p (map EItem xs)
  | LExtendLeft xs => OExtendLeft p (map EItem xs)
  | LPop i => ODelete p (TgVal (PInt i))
  | LRemove x => ORemove p x
  | LReverse => OReverse p
  | LRotate n => ORotate p n
  | LMoveLast x => OMove x None
  | LMove x j => OMove x (Some (TgVal (PInt (Z.of_nat j))))
  | LClear b => OClear p b
  end.
Definition without (x : loc) (l : list loc) : list loc := filter (fun y => negb (Nat.eqb y x)) l.
Definition on_list (c : lcall) (l : list loc) : list loc :=
  match c with
  | LAppend x => l ++ [x]
  | LAppendLeft x => x :: l
  | LInsert i x => py_insert i x l
  | LExtend xs => l ++ xs
  | LExtendLeft xs => xs ++ l
  | LPop i => match py_idx (length l) i with Some k => firstn k l ++ skipn (S k) l | None => l end
  | LRemove x => without x l
  | LReverse => rev l
  | LRotate n => if (0 <=? n)%Z then skipn (length l - Z.to_nat n) l ++ firstn (length l - Z.to_nat n) l
                 else skipn (Z.to_nat (- n)) l ++ firstn (Z.to_nat (- n)) l
  | LMoveLast x => without x l ++ [x]
  | LMove x j => firstn j (without x l) ++ x :: skipn j (without x l)
  | LClear _ => []
  end.
(** a parentless existing item that is not p or above p *)
Definition may_attach (h : heap) (p x : loc) : Prop := x < hnext h /\ parent_of h x = None /\ ~ Anc (view h) x p.
Definition fits (h : heap) (p : loc) (c : lcall) : Prop :=
  match c with
  | LAppend x | LAppendLeft x => may_attach h p x
  | LInsert i x => may_attach h p x /\ (children h p = [] \/ - Z.of_nat (length (children h p)) <= i)%Z /\
      ((forall y, In y (children h p) -> tag_of h y <> tag_of h x) \/ remembers_within h p 19)
  | LExtend xs | LExtendLeft xs => Forall (may_attach h p) xs /\ NoDup xs
  | LPop i => py_idx (length (children h p)) i <> None
  | LRemove x | LMoveLast x => In x (children h p)
  | LReverse => children h p <> []
  | LRotate n => (Z.abs n <= Z.of_nat (length (children h p)))%Z
  | LMove x j => In x (children h p) /\
      ((forall y, In y (children h p) -> tag_of h y = tag_of h x -> y = x) \/ remembers_within h p 18)
  | LClear _ => True
  end.
Lemma attach_other s p x k q : q <> p -> a_children (attach s p x k q) = a_children (s q).
Proof. intros H. unfold attach. destruct (Nat.eqb_spec q p); [congruence|]. destruct (Nat.eqb_spec q x) as [->|]; reflexivity. Qed.
Lemma detach_other s p x k q : q <> p -> a_children (detach s p x k q) = a_children (s q).
Proof. intros H. unfold detach. destruct (Nat.eqb_spec q p); [congruence|]. destruct (Nat.eqb_spec q x) as [->|]; reflexivity. Qed.
Lemma reorder_other s p l q : q <> p -> a_children (reorder s p l q) = a_children (s q).
Proof. intros H. unfold reorder. destruct (Nat.eqb_spec q p); [congruence|reflexivity]. Qed.
Lemma elem_free_all h p s' n' xs cs : Forall (may_attach h p) xs ->
  Forall2 (elem (view h) s' (hnext h) n') (map EItem xs) cs -> cs = xs.
Proof.
  revert cs. induction xs as [|x xs IH]; intros cs HF H; inversion H as [|? c ? cs' H1 H2]; subst; [reflexivity|].
  inversion HF as [|? ? (_ & Hpar & _) HF']; subst. f_equal; [|auto]. destruct H1 as [[_ E]|[N _]]; [exact E|]. unfold parent_of in Hpar. congruence.
Qed.
Lemma may_far h p xs : Forall (may_attach h p) xs -> Forall (earg_far h p) (map EItem xs).
Proof. intros H. apply Forall_forall. intros e He. apply in_map_iff in He as (x & <- & Hx). rewrite Forall_forall in H. destruct (H x Hx) as (A & _ & B). split; assumption. Qed.
Lemma may_tag xs : Forall earg_tag_ok (map EItem xs).
Proof. apply Forall_forall. intros e He. apply in_map_iff in He as (x & <- & _). exact I. Qed.

Theorem C02_children_list_partial : forall h p c, ReachL h -> p < hnext h -> tree_protected h p = false -> fits h p c ->
  exists h', run (to_op p c) h = (h', Ok tt) /\ children h' p = on_list c (children h p) /\
    (forall q, q < hnext h -> q <> p -> children h' q = children h q).
Proof.
  intros h p c RL Hp Hpr HF. pose proof (ReachL_Reach h RL) as R. pose proof (reach_WF h R) as W.
  assert (Hself : forall x, In x (children h p) -> x <> p) by (intros x Hx ->; apply (child_not_anc h p p W Hx); constructor).
  destruct c as [x|x|i x|xs|xs|i|x| |n|x|x j|kv]; cbn [fits to_op run on_list] in *.
  - destruct HF as (Hx & Hpar & HA). destruct (append_ok h p (IItem x) W (arg_ok_free h p x Hp Hx HA) Hpar) as (h' & E & _ & V).
    { unfold outcome. rewrite check_append_unprot by assumption. reflexivity. }
    cbn [arg_loc arg_state] in *. exists h'. split; [apply (void_run _ _ _ _ E)|]. split.
    + unfold children at 1. rewrite V, attach_children. apply insert_at_end.
    + intros q _ Hq. unfold children at 1. rewrite V. apply attach_other; assumption.
  - destruct HF as (Hx & Hpar & HA). destruct (appendleft_ok h p (IItem x) W (arg_ok_free h p x Hp Hx HA) Hpar) as (h' & E & _ & V).
    { unfold outcome. rewrite check_insert_unprot by assumption. reflexivity. }
    cbn [arg_loc arg_state] in *. exists h'. split; [apply (void_run _ _ _ _ E)|]. split.
    + unfold children at 1. rewrite V, attach_children. reflexivity.
    + intros q _ Hq. unfold children at 1. rewrite V. apply attach_other; assumption.
  - destruct HF as ((Hx & Hpar & HA) & Hi & Hd). destruct (C09_insert_partial h p x i R Hp Hx Hpr Hpar HA Hi Hd) as (h' & E & C & _ & V & _).
    exists h'. split; [apply (void_run _ _ _ _ E)|]. split; [exact C|]. intros q _ Hq. unfold children at 1. rewrite V. apply attach_other; assumption.
  - destruct HF as [HF HN]. destruct (C21_extend_partial h p (map EItem xs) RL Hp Hpr (may_far h p xs HF)) as (h' & cs & E & (X1 & X2 & X3) & _);
      [rewrite eitems_map; exact HN|apply may_tag|]. apply (elem_free_all h p) in X2; [|exact HF]. subst cs.
    exists h'. split; [exact E|]. split; [unfold children; rewrite X1; reflexivity|]. intros q Hq Hqp. unfold children. rewrite (X3 q Hq Hqp).
    destruct (existsb _ _); reflexivity.
  - destruct HF as [HF HN]. destruct (C22_extendleft_partial h p (map EItem xs) RL Hp Hpr (may_far h p xs HF)) as (h' & cs & E & (X1 & X2 & X3) & _);
      [rewrite eitems_map|apply may_tag|].
    { apply NoDup_app; [exact HN|apply (fo_nodup _ _ (wf_forest _ W))|]. intros x Hx Hc. rewrite Forall_forall in HF. destruct (HF x Hx) as (_ & K & _).
      destruct (child_attached h p x W Hc) as [_ K2]. congruence. }
    apply (elem_free_all h p) in X2; [|exact HF]. subst cs.
    exists h'. split; [exact E|]. split; [unfold children; rewrite X1; reflexivity|]. intros q Hq Hqp. unfold children. rewrite (X3 q Hq Hqp).
    destruct (existsb _ _); reflexivity.
  - pose proof (C12_delete_index h p i R Hpr) as K. destruct (py_idx (length (children h p)) i) as [k|]; [|congruence].
    destruct K as (x & h' & Hk & E & V & _). exists h'. split; [apply (void_run _ _ _ _ E)|].
    assert (Hx : x <> p) by (apply Hself; eapply nth_error_In; eauto). split.
    + unfold children at 1. rewrite V. unfold detach. rewrite Nat.eqb_refl. reflexivity.
    + intros q _ Hq. unfold children at 1. rewrite V. apply detach_other; assumption.
  - destruct (C12_remove h p x R Hpr HF) as (h' & E & V & C & _). exists h'. split; [apply (void_run _ _ _ _ E)|]. split; [exact C|].
    intros q _ Hq. unfold children at 1. rewrite V. apply detach_other; assumption.
  - destruct (C17_reverse_partial h p R Hpr HF) as (h' & E & V & _). exists h'. split; [exact E|]. split.
    + unfold children at 1. rewrite V. apply reorder_children.
    + intros q _ Hq. unfold children at 1. rewrite V. apply reorder_other; assumption.
  - destruct (Z.leb_spec 0 n) as [Hn|Hn].
    + destruct (C18_rotate_partial h p (Z.to_nat n) R Hp Hpr) as [(h' & E & _ & _ & V) _]; [lia|]. rewrite Z2Nat.id in E by lia.
      exists h'. split; [exact E|].
      specialize (V (firstn (length (children h p) - Z.to_nat n) (children h p)) (skipn (length (children h p) - Z.to_nat n) (children h p))).
      rewrite firstn_skipn, skipn_length in V. specialize (V eq_refl ltac:(lia)). split.
      * unfold children at 1. rewrite (V p Hp). apply reorder_children.
      * intros q Hq Hqp. unfold children at 1. rewrite (V q Hq). apply reorder_other; assumption.
    + destruct (C18_rotate_partial h p (Z.to_nat (- n)) R Hp Hpr) as [_ (h' & E & _ & _ & V)]; [lia|]. rewrite Z2Nat.id, Z.opp_involutive in E by lia.
      exists h'. split; [exact E|].
      specialize (V (firstn (Z.to_nat (- n)) (children h p)) (skipn (Z.to_nat (- n)) (children h p))).
      rewrite firstn_skipn, firstn_length_le in V by lia. specialize (V eq_refl eq_refl). split.
      * unfold children at 1. rewrite (V p Hp). apply reorder_children.
      * intros q Hq Hqp. unfold children at 1. rewrite (V q Hq). apply reorder_other; assumption.
  - pose proof HF as Hin. apply In_nth_error in HF as [k Hk]. destruct (C15_move_last h p x k R Hk Hpr) as (h' & E & V & _).
    exists h'. split; [apply (void_run _ _ _ _ E)|]. split.
    + unfold children at 1. rewrite V, reorder_children. f_equal. apply remove_at_filter; [apply (WF_nodup h p W)|exact Hk].
    + intros q _ Hq. unfold children at 1. rewrite V. apply reorder_other; assumption.
  - destruct HF as [Hin Hd]. apply In_nth_error in Hin as [k Hk]. destruct (C15_move_index_partial h p x k j R Hk Hpr Hd) as (h' & E & V & _).
    exists h'. split; [apply (void_run _ _ _ _ E)|].
    assert (Ew : remove_at k (children h p) = without x (children h p)) by (apply remove_at_filter; [apply (WF_nodup h p W)|exact Hk]).
    assert (Lw : length (without x (children h p)) = length (children h p) - 1) by (rewrite <- Ew; eapply remove_at_length; exact Hk). split.
    + unfold children at 1. rewrite V, reorder_children, Ew. unfold insert_at. destruct (Nat.le_ge_cases j (length (children h p) - 1)).
      * rewrite Nat.min_l by lia. reflexivity.
      * rewrite Nat.min_r by lia. rewrite (firstn_all2 (n := j)), (skipn_all2 (n := j)) by lia. rewrite <- Lw, firstn_all, skipn_all. reflexivity.
    + intros q _ Hq. unfold children at 1. rewrite V. apply reorder_other; assumption.
  - destruct (C20_clear_partial h p kv R Hp Hpr) as (h' & E & C & _ & _ & _ & _ & _ & V). exists h'. split; [exact E|]. split; [exact C|].
    intros q _ Hq. unfold children. rewrite (V q Hq). reflexivity.
Qed.
Example C02_case : ReachL ex_heap /\ 0 < hnext ex_heap /\ tree_protected ex_heap 0 = false /\
  fits ex_heap 0 (LInsert (-2) 6) /\ fits ex_heap 0 (LRotate 3) /\ fits ex_heap 0 (LPop (-4)) /\ fits ex_heap 0 (LMove 4 1) /\
  on_list (LInsert (-2) 6) [1; 2; 3; 4] = [1; 2; 6; 3; 4] /\ on_list (LRotate 3) [1; 2; 3; 4] = [2; 3; 4; 1] /\
  on_list (LMove 4 1) [1; 2; 3; 4] = [1; 4; 2; 3].
Proof.
  split; [exact ex_reachL|]. split; [vm_compute; lia|]. split; [vm_compute; reflexivity|]. split.
  { split; [split; [vm_compute; lia|split; [vm_compute; reflexivity|apply (anc_b_false _ _ 20); vm_compute; reflexivity]]|].
    split; [right; vm_compute; discriminate|]. left. intros y Hy. vm_compute in Hy. decompose [or] Hy; subst; try contradiction; vm_compute; discriminate. }
  split; [vm_compute; discriminate|]. split; [vm_compute; discriminate|]. split; [|vm_compute; auto].
  split; [vm_compute; auto 10|]. left. intros y Hy. vm_compute in Hy. decompose [or] Hy; subst; try contradiction; vm_compute; congruence.
Qed.
(** where the code leaves the list behaviour: see also C09, C15, C17, C18 refuted theorems *)
Theorem C02_refuted : on_list (LRotate 5) [1; 2; 3; 4] <> [] /\ children ex_heap 0 = [1; 2; 3; 4] /\
  children (fst (run (to_op 0 (LRotate 5)) ex_heap)) 0 = [].
Proof. vm_compute. split; [discriminate|auto]. Qed.

(** ** whole histories of such calls on one item *)
Fixpoint fits_all (h : heap) (p : loc) (cs : list lcall) : Prop :=
  match cs with
  | [] => True
  | c :: r => p < hnext h /\ tree_protected h p = false /\ fits h p c /\ fits_all (after (to_op p c) h) p r
  end.
Lemma fits_allowed h p c : Reach h -> p < hnext h -> fits h p c -> allowed h (to_op p c).
Proof.
  intros R Hp HF. pose proof (reach_WF h R) as W. destruct c as [x|x|i x|xs|xs|i|x| |n|x|x j|kv]; cbn [fits to_op allowed] in *; try exact I; try exact Hp.
  - destruct HF as (Hx & Hpar & HA). apply arg_ok_free; assumption.
  - destruct HF as (Hx & Hpar & HA). apply arg_ok_free; assumption.
  - destruct HF as ((Hx & Hpar & HA) & Hz & Hd). split; [apply arg_ok_free; assumption|]. split; [exact Hz|]. destruct Hd as [Hd|Hd]; [left|right; exact Hd].
    destruct (with_tag (view h) p (ntag (hnode h x))) as [|y l] eqn:E; [reflexivity|]. exfalso.
    assert (K : In y (with_tag (view h) p (ntag (hnode h x)))) by (rewrite E; left; reflexivity).
    apply with_tag_In in K as [K1 K2]. apply (Hd y K1). exact K2.
  - split; [exact Hp|]. eapply Forall_impl; [|apply (may_far h p xs); apply HF]. intros e. apply far_ok.
  - split; [exact Hp|]. apply (may_far h p xs). apply HF.
  - intros q Hq. destruct (child_attached h p x W HF) as [_ K]. assert (q = p) by congruence. subst q. split; [exact HF|]. split; exact I.
  - destruct HF as [HF Hd]. intros q Hq. destruct (child_attached h p x W HF) as [_ K]. assert (q = p) by congruence. subst q. split; [exact HF|].
    split; [right; lia|]. destruct Hd as [Hd|Hd]; [left|right; exact Hd].
    unfold with_tag. change (a_children (view h p)) with (children h p).
    assert (G : forall l, NoDup l -> (forall z, In z l -> In z (children h p)) ->
        filter (fun z => pyval_eqb (a_tag (view h z)) (tag_of h x)) l = if existsb (Nat.eqb x) l then [x] else []).
    { induction l as [|z l IH]; intros ND Hl; [reflexivity|]. inversion ND; subst. cbn [filter existsb].
      rewrite IH; [|assumption|intros; apply Hl; right; assumption].
      destruct (pyval_eqb (a_tag (view h z)) (tag_of h x)) eqn:Ez.
      - apply pyval_eqb_eq in Ez. assert (z = x) by (apply Hd; [apply Hl; left; reflexivity|exact Ez]). subst z. rewrite Nat.eqb_refl. cbn [orb].
        destruct (existsb (Nat.eqb x) l) eqn:Ex; [|reflexivity]. exfalso. apply existsb_exists in Ex as (w & Hw & Ew). apply Nat.eqb_eq in Ew. subst w. contradiction.
      - destruct (Nat.eqb_spec x z) as [->|]; [|reflexivity]. exfalso. assert (pyval_eqb (a_tag (view h z)) (tag_of h z) = true) by (apply pyval_eqb_eq; reflexivity). congruence. }
    rewrite G; [|apply (WF_nodup h p W)|auto]. destruct (existsb (Nat.eqb x) (children h p)) eqn:Ex; [reflexivity|]. exfalso.
    assert (existsb (Nat.eqb x) (children h p) = true) by (apply existsb_exists; exists x; split; [exact HF|apply Nat.eqb_refl]). congruence.
Qed.
Lemma to_op_flags p c : flags_ok (to_op p c) = true. Proof. destruct c; reflexivity. Qed.
(** any sequence of such calls on p acts on the children of p like the list calls in sequence *)
Theorem C02_history_partial : forall cs h p, ReachL h -> fits_all h p cs ->
  let h' := runs (map (to_op p) cs) h in
  ReachL h' /\ children h' p = fold_left (fun l c => on_list c l) cs (children h p).
Proof.
  induction cs as [|c cs IH]; intros h p RL HF; [split; [exact RL|reflexivity]|].
  destruct HF as (Hp & Hpr & HF & HR). cbn [map runs fold_left].
  assert (RL1 : ReachL (after (to_op p c) h)).
  { apply ReachL_step; [exact RL|apply fits_allowed; [apply ReachL_Reach; exact RL|exact Hp|exact HF]|apply to_op_flags]. }
  destruct (IH _ p RL1 HR) as [A B]. split; [exact A|]. rewrite B. f_equal.
  destruct (C02_children_list_partial h p c RL Hp Hpr HF) as (h' & E & C & _). unfold after. rewrite E. exact C.
Qed.
Example C02_history_case : let cs := [LAppend 6; LReverse; LRotate 2; LPop 0; LClear true] in
  children (runs (map (to_op 0) cs) ex_heap) 0 = [] /\
  children (runs (map (to_op 0) [LAppend 6; LReverse; LRotate 2; LPop 0]) ex_heap) 0 = [1; 6; 4; 3] /\
  fold_left (fun l c => on_list c l) [LAppend 6; LReverse; LRotate 2; LPop 0] (children ex_heap 0) = [1; 6; 4; 3] /\
  fits_all ex_heap 0 [LAppend 6; LReverse; LRotate 2; LPop 0].
Proof.
  cbv zeta. split; [vm_compute; reflexivity|]. split; [vm_compute; reflexivity|]. split; [vm_compute; reflexivity|].
  cbn [fits_all fits]. split; [vm_compute; lia|]. split; [vm_compute; reflexivity|].
  split; [split; [vm_compute; lia|split; [vm_compute; reflexivity|apply (anc_b_false _ _ 20); vm_compute; reflexivity]]|].
  split; [vm_compute; lia|]. split; [vm_compute; reflexivity|]. split; [vm_compute; discriminate|].
  split; [vm_compute; lia|]. split; [vm_compute; reflexivity|]. split; [vm_compute; discriminate|].
  split; [vm_compute; lia|]. split; [vm_compute; reflexivity|]. split; [vm_compute; discriminate|exact I].
Qed.
Print Assumptions C19_sort_partial.
Print Assumptions C19_sort_identity_refuted.
Print Assumptions C19_sort_loss_refuted.
Print Assumptions C20_clear_partial.
Print Assumptions C20_clear_children_refuted.
Print Assumptions C20_clear_flags_refuted.
Print Assumptions C21_extend_partial.
Print Assumptions C21_constructor_partial.
Print Assumptions C21_extend_tree_partial.
Print Assumptions C21_cycle_refuted.
Print Assumptions C21_half_refuted.
Print Assumptions C22_extendleft_partial.
Print Assumptions C22_extendleft_loss_refuted.
Print Assumptions C02_children_list_partial.
Print Assumptions C02_refuted.
Print Assumptions C02_history_partial.
