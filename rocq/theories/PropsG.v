(** C30 - C37: in-depth iteration. *)
From Coq Require Import Sorting.Permutation.
From Verif Require Import Base Heap HeapSpec ListLemmas ForestLemmas HeapInv HeapAttach HeapOps HeapOps2 HeapOps3
  HeapHoare Tree HeapTree HeapCopy HeapMut HeapExt HeapExt2 HeapOrd HeapOrd2 HeapRen HeapMove HeapSet HeapSet2 HeapHist
  HeapHash History HeapRead HeapRead2 Runs HeapDel HeapLink HeapLinkH HeapFlags PropsA PropsB PropsC PropsD PropsE PropsF
  Deep DeepSpec DeepProofs DeepPaths DeepInst DeepSib DeepSibProofs DeepLevels DeepMinus DeepFacts.

(** A larger tree for the examples:
      0 "r" -> 1 "a", 2 "b";  1 -> 3 "c", 4 "d";  2 -> 5 "e";  3 -> 6 "f";  6 -> 7 "g" *)
Definition ex2_ops : list op :=
  [ ONew (PStr "r") PNoValue [EArgs (PStr "a") (PInt 1); EArgs (PStr "b") (PInt 2)] None 0;
    ONew (PStr "c") (PInt 3) [] None 0; ONew (PStr "d") (PInt 4) [] None 0; ONew (PStr "e") (PInt 5) [] None 0;
    ONew (PStr "f") (PInt 6) [] None 0; ONew (PStr "g") (PInt 7) [] None 0;
    OAppend 1 (IItem 3); OAppend 1 (IItem 4); OAppend 2 (IItem 5); OAppend 3 (IItem 6); OAppend 6 (IItem 7) ].
Definition ex2 : heap := runs ex2_ops empty_heap.
Lemma ex2_reach1 : Reach1 ex2. Proof. apply reach1_runs; [constructor|vm_compute; reflexivity|reflexivity]. Qed.
Lemma ex2_reach : Reach ex2. Proof. apply reach_runs; [constructor|vm_compute; reflexivity]. Qed.
Definition ex2_tree : tree loc := Node 0 [Node 1 [Node 3 [Node 6 [Node 7 []]]; Node 4 []]; Node 2 [Node 5 []]].
Lemma ex2_tree_at : tree_at ex2 0 ex2_tree. Proof. vm_compute. auto 20. Qed.

(** y is a (possibly indirect) child of x *)
Inductive Below (h : heap) (x : loc) : loc -> Prop :=
| below_child y : In y (children h x) -> Below h x y
| below_step q y : Below h x q -> In y (children h q) -> Below h x y.
Lemma tree_ND h x T : Reach h -> tree_at h x T -> NoDup (flatten T).
Proof. intros R [E L]. eapply ltree_NoDup; [exact (wf_forest _ (reach_WF h R))|exact L]. Qed.
Lemma tree_unf h x T : tree_at h x T -> unf (children h) T. Proof. intros [_ L]. apply unf_ltree. exact L. Qed.
Lemma Below_tree h T : ltree (view h) T -> forall y, In y (below_tree T) <-> Below h (root T) y.
Proof.
  intros L y. split.
  - revert y. induction T as [a cs IH] using tree_ind'. intros y Hy. apply ltree_iff in L as [E L]. rewrite Forall_forall in IH, L.
    unfold below_tree in Hy. cbn [kids] in Hy. apply in_flat_map in Hy as (c & Hc & Hy).
    assert (Hcx : In (root c) (children h a)) by (change (In (root c) (a_children (view h a))); rewrite <- E; apply in_map; exact Hc).
    rewrite flatten_cons in Hy. destruct Hy as [<-|Hy]; [apply below_child; exact Hcx|].
    specialize (IH c Hc (L c Hc) y Hy). clear - IH Hcx. induction IH as [y Hy|q y _ IHq Hy]; [eapply below_step; [apply below_child; exact Hcx|exact Hy]|eapply below_step; eauto].
  - assert (Cl : forall T, ltree (view h) T -> forall q z, In q (flatten T) -> In z (children h q) -> In z (below_tree T)).
    { clear. intros T. induction T as [a cs IH] using tree_ind'. intros L q z Hq Hz. apply ltree_iff in L as [E L]. rewrite Forall_forall in IH, L. unfold below_tree. cbn [kids].
      destruct Hq as [<-|Hq].
      - change (In z (a_children (view h a))) in Hz. rewrite <- E in Hz. apply in_map_iff in Hz as (c & <- & Hc). apply in_flat_map. exists c. split; [exact Hc|apply in_flatten_root].
      - apply in_flat_map in Hq as (c & Hc & Hq). apply in_flat_map. exists c. split; [exact Hc|]. rewrite flatten_cons. right. eapply IH; eauto. }
    induction 1 as [y Hy|q y _ IHq Hy]; [eapply Cl; [exact L|apply in_flatten_root|exact Hy]|]. eapply Cl; [exact L| |exact Hy]. rewrite flatten_cons. right. exact IHq.
Qed.

(** * C30 *)
(** every item has its (unique, finite) tree; for it, list(t.deep) and list(t.deep.iter()) are
    the pre-order listing, each descendant exactly once *)
Theorem C30_deep_iter : forall h x, Reach h -> x < hnext h -> exists T, tree_at h x T /\
  forall n, 3 * size T <= n ->
    deep_iter0 (children h) n x = Some (below_tree T, None) /\
    deep_iter (children h) None DOWN n x = Some (below_tree T, None) /\
    NoDup (below_tree T) /\ (forall y, In y (below_tree T) <-> Below h x y).
Proof.
  intros h x R Hx. destruct (ltree_exists _ _ x (wf_forest _ (reach_WF h R)) Hx) as (T & L & E & _). exists T. split; [split; assumption|]. intros n Hn. subst x.
  assert (TA : tree_at h (root T) T) by (split; [reflexivity|exact L]). pose proof (tree_unf _ _ _ TA) as U. pose proof (tree_ND _ _ _ R TA) as ND.
  assert (E0 : iter_down (children h) false None false n (root T) = Some (below_tree T, None)).
  { rewrite (iter_down_ok _ T U n Hn), ok_none, shape_all. reflexivity. }
  split; [exact E0|]. split; [exact E0|]. split; [|apply Below_tree; exact L].
  rewrite flatten_cons in ND. inversion ND; assumption.
Qed.
(** in this listing every item comes after its parent (or directly below the start), and after
    everything that hangs below its earlier siblings *)
Theorem C30_parents_first : forall h x T y p, Reach h -> tree_at h x T -> In y (below_tree T) -> parent_of h y = Some p ->
  p = x \/ exists l1 l2 l3, below_tree T = l1 ++ p :: l2 ++ y :: l3.
Proof.
  intros h x T y p R [E L] Hy Hp. subst x. pose proof (wf_forest _ (reach_WF h R)) as FF.
  assert (G : forall T, ltree (view h) T -> In y (below_tree T) -> exists l1 l2 l3, flatten T = l1 ++ p :: l2 ++ y :: l3).
  { clear T L Hy. intros T. induction T as [a cs IH] using tree_ind'. intros L Hy. apply ltree_iff in L as [E L]. rewrite Forall_forall in IH, L.
    unfold below_tree in Hy. cbn [kids] in Hy. apply in_flat_map in Hy as (c & Hc & Hy).
    apply in_split in Hc as (c1 & c2 & Ec). assert (Hc : In c cs) by (rewrite Ec; apply in_or_app; right; left; reflexivity).
    rewrite flatten_cons in Hy. destruct Hy as [<-|Hy].
    - assert (Pc : parent_of h (root c) = Some a) by (apply (fo_child _ _ FF); rewrite <- E; apply in_map; exact Hc).
      assert (p = a) by congruence. subst p. exists [], (flat_map flatten c1), (below_tree c ++ flat_map flatten c2).
      cbn [flatten app]. f_equal. rewrite Ec, flat_map_app. cbn. rewrite (flatten_cons c). rewrite <- ?app_assoc. reflexivity.
    - destruct (IH c Hc (L c Hc) Hy) as (l1 & l2 & l3 & El). exists (a :: flat_map flatten c1 ++ l1), l2, (l3 ++ flat_map flatten c2).
      cbn [flatten app]. f_equal. rewrite Ec, flat_map_app. cbn. rewrite El. rewrite <- !app_assoc. cbn. rewrite <- !app_assoc. reflexivity. }
  destruct (G T L Hy) as (l1 & l2 & l3 & El). rewrite flatten_cons in El. destruct l1 as [|z l1]; cbn in El; injection El as Ea Eb; [left; congruence|].
  right. exists l1, l2, l3. exact Eb.
Qed.
Example C30_case : Reach ex2 /\ 0 < hnext ex2 /\ deep_iter0 (children ex2) 30 0 = Some ([1; 3; 6; 7; 4; 2; 5], None).
Proof. split; [exact ex2_reach|]. split; [vm_compute; lia|]. vm_compute. reflexivity. Qed.

(** * C31 *)
(** the order for each combination of UP / REVERSE / SELF (other bits are ignored when there is no filter) *)
Theorem C31_orders_partial : forall h x T n opt, Reach h -> tree_at h x T -> 3 * size T <= n -> opt <> 0%Z ->
  let rv := has opt REVERSE in
  deep_iter (children h) None opt n x =
  Some (match has opt UP, has opt SELF with
        | false, false => below_tree (turned rv T)
        | false, true => if rv then below_tree (turned rv T) ++ [x] else x :: below_tree T
        | true, false => post_below (turned rv T)
        | true, true => post_below (turned rv T) ++ [x]
        end, None).
Proof.
  intros h x T n opt R TA Hn Ho rv. destruct TA as [E L]. subst x. assert (U : unf (children h) T) by (apply unf_ltree; exact L).
  unfold deep_iter, fix_opt. destruct (Z.eqb_spec opt 0) as [|_]; [contradiction|]. cbv zeta. unfold by_opt. fold rv.
  assert (FT : forall l : list loc, filter (ok None) l = l) by (intros l; apply filter_all; reflexivity).
  assert (G : (if has opt UP then iter_up (children h) rv None (has opt SELF) n (root T) else iter_down (children h) rv None (has opt SELF) n (root T)) =
    Some (match has opt UP, has opt SELF with
        | false, false => below_tree (turned rv T)
        | false, true => if rv then below_tree (turned rv T) ++ [root T] else root T :: below_tree T
        | true, false => post_below (turned rv T)
        | true, true => post_below (turned rv T) ++ [root T]
        end, None)).
  { rewrite (iter_up_ok _ T U n Hn), (iter_down_ok _ T U n Hn), ok_none, shape_all. cbn [negb andb]. rewrite andb_false_r. unfold around.
    destruct (has opt UP), (has opt SELF); try reflexivity. destruct rv; reflexivity. }
  destruct (has opt FILTER_ANY); rewrite G; [|reflexivity]. cbn [option_map fst snd]. rewrite FT. reflexivity.
Qed.
(** each order lists exactly the descendants, each once *)
Theorem C31_exactly_once : forall h x T rv, Reach h -> tree_at h x T ->
  Permutation (below_tree (turned rv T)) (below_tree T) /\ Permutation (post_below (turned rv T)) (below_tree T) /\ NoDup (x :: below_tree T).
Proof.
  intros h x T rv R TA. split; [apply below_turned_perm|]. split; [etransitivity; [apply post_below_perm|apply below_turned_perm]|].
  pose proof (tree_ND _ _ _ R TA) as ND. rewrite flatten_cons in ND. destruct TA as [<- _]. exact ND.
Qed.
Example C31_case : Reach ex2 /\ tree_at ex2 0 ex2_tree /\ 3 * size ex2_tree <= 30 /\
  deep_iter (children ex2) None (Z.lor UP SELF) 30 0 = Some ([7; 6; 3; 4; 1; 5; 2; 0], None) /\
  deep_iter (children ex2) None REVERSE 30 0 = Some ([2; 5; 1; 4; 3; 6; 7], None).
Proof. split; [exact ex2_reach|]. split; [exact ex2_tree_at|]. split; [vm_compute; lia|]. vm_compute. auto. Qed.
(** downward with REVERSE and SELF the calling item comes last, after its descendants *)
Theorem C31_self_first_refuted : Reach ex2 /\ deep_iter (children ex2) None (Z.lor REVERSE SELF) 30 0 = Some ([2; 5; 1; 4; 3; 6; 7; 0], None).
Proof. split; [exact ex2_reach|]. vm_compute. reflexivity. Qed.
(** options=0 (neither UP nor DOWN) iterates upward although top-down is the documented default *)
Theorem C31_default_refuted : Reach ex2 /\ deep_iter (children ex2) None 0 30 0 = Some ([7; 6; 3; 4; 1; 5; 2], None) /\
  deep_iter (children ex2) None DOWN 30 0 = Some ([1; 3; 6; 7; 4; 2; 5], None).
Proof. split; [exact ex2_reach|]. vm_compute. auto. Qed.

(** * C32 *)
Lemma iter_filter_in n s f rv T z : Forest n s -> ltree s T -> NoDup (flatten T) ->
  In z (below_tree (prune f (turned rv T))) <-> In z (below_tree T) /\ forall y, Anc s y z -> In y (below_tree T) -> f y = true.
Proof.
  intros F L ND. rewrite <- (below_prune_in n s f T F L ND z). rewrite <- shape_turned. unfold shape. destruct rv; [|reflexivity].
  split; intros H; (eapply Permutation_in; [|exact H]); [|symmetry]; apply (below_turned_perm true).
Qed.
(** hierarchical: exactly those items of the unfiltered iteration that pass together with all
    their ancestors in it, in the same order *)
Theorem C32_filter : forall h x T n opt f, Reach h -> tree_at h x T -> 3 * size T <= n ->
  exists l0 l, deep_iter (children h) None opt n x = Some (l0, None) /\ deep_iter (children h) (Some f) opt n x = Some (l, None) /\
    (has opt FILTER_ANY = true -> l = filter f l0) /\
    (has opt FILTER_ANY = false -> Subseq l l0 /\
       forall y, In y l <-> In y l0 /\ forall z, Anc (view h) z y -> In z l0 -> f z = true).
Proof.
  intros h x T n opt f R TA Hn. pose proof (tree_ND _ _ _ R TA) as ND. destruct TA as [E L]. subst x. assert (U : unf (children h) T) by (apply unf_ltree; exact L).
  pose proof (wf_forest _ (reach_WF h R)) as FF.
  unfold deep_iter. set (o := fix_opt opt).
  assert (HF : has o FILTER_ANY = has opt FILTER_ANY).
  { unfold o, fix_opt. destruct (Z.eqb_spec opt 0) as [->|]; reflexivity. }
  cbv zeta. unfold by_opt. set (rv := has o REVERSE). set (slf := has o SELF).
  assert (Gd : forall g, iter_down (children h) rv g slf n (root T) = Some (if slf && negb (ok g (root T)) then [] else around slf (negb rv) (root T) (below_tree (prune (ok g) (turned rv T))), None)).
  { intros g. rewrite (iter_down_ok _ T U n Hn), shape_turned. reflexivity. }
  assert (Gu : forall g, iter_up (children h) rv g slf n (root T) = Some (if slf && negb (ok g (root T)) then [] else around slf false (root T) (post_below (prune (ok g) (turned rv T))), None)).
  { intros g. rewrite (iter_up_ok _ T U n Hn), shape_turned. reflexivity. }
  set (body := fun g => if has o UP then post_below (prune (ok g) (turned rv T)) else below_tree (prune (ok g) (turned rv T))).
  set (front := if has o UP then false else negb rv).
  assert (G : forall g, (if has o UP then iter_up (children h) rv g slf n (root T) else iter_down (children h) rv g slf n (root T)) =
     Some (if slf && negb (ok g (root T)) then [] else around slf front (root T) (body g), None)).
  { intros g. rewrite Gd, Gu. unfold body, front. destruct (has o UP); reflexivity. }
  rewrite !G. rewrite HF. cbn [option_map fst snd ok negb andb]. rewrite andb_false_r.
  assert (FT : forall l : list loc, filter (ok None) l = l) by (intros l; apply filter_all; reflexivity).
  set (l0 := around slf front (root T) (body None)).
  assert (Ein : forall z, In z l0 <-> (slf = true /\ z = root T) \/ In z (below_tree T)).
  { intros z. assert (Eb : In z (body None) <-> In z (below_tree T)).
    { unfold body. rewrite ok_none, prune_true. destruct (has o UP).
      - split; intros H; (eapply Permutation_in; [|exact H]); [|symmetry]; (etransitivity; [apply post_below_perm|apply below_turned_perm]).
      - split; intros H; (eapply Permutation_in; [|exact H]); [|symmetry]; apply below_turned_perm. }
    unfold l0, around. destruct slf; [|rewrite Eb; intuition discriminate]. destruct front; [cbn|rewrite in_app_iff; cbn]; rewrite Eb; intuition. }
  exists l0. destruct (has opt FILTER_ANY) eqn:FA.
  - eexists. rewrite FT. split; [reflexivity|]. split; [reflexivity|]. split; [reflexivity|discriminate].
  - eexists. split; [reflexivity|]. split; [reflexivity|]. split; [discriminate|]. intros _.
    assert (Nr : ~ In (root T) (below_tree T)) by (rewrite flatten_cons in ND; inversion ND; assumption).
    assert (AncT : forall y, In y (below_tree T) -> Anc (view h) (root T) y) by (intros y Hy; eapply ltree_anc; [exact FF|exact L|rewrite flatten_cons; right; exact Hy]).
    destruct slf eqn:Es; cbn [andb].
    + destruct (f (root T)) eqn:Fr; cbn [negb].
      * split.
        -- unfold l0, around. assert (Sb : Subseq (body (Some f)) (body None)) by (unfold body; rewrite ok_none, prune_true; destruct (has o UP); [apply post_below_prune_sub|apply below_prune_sub]).
           destruct front; [constructor; exact Sb|apply Subseq_app; [exact Sb|apply Subseq_refl]].
        -- intros y. assert (Ey : In y (around true front (root T) (body (Some f))) <-> y = root T \/ In y (body (Some f))) by (unfold around; destruct front; [cbn|rewrite in_app_iff; cbn]; intuition).
           rewrite Ey, Ein. assert (Eb : In y (body (Some f)) <-> In y (below_tree T) /\ forall z, Anc (view h) z y -> In z (below_tree T) -> f z = true).
           { unfold body. rewrite <- (iter_filter_in _ _ f rv T y FF L ND). destruct (has o UP); [|reflexivity]. split; intros H; (eapply Permutation_in; [|exact H]); [|symmetry]; apply post_below_perm. }
           rewrite Eb. split.
           ++ intros [->|[A B]].
              ** split; [left; auto|]. intros z HA Hz. apply Ein in Hz as [[_ ->]|Hz]; [exact Fr|]. exfalso.
                 pose proof (Anc_antisym _ _ _ _ FF HA (AncT z Hz)). subst z. contradiction.
              ** split; [right; exact A|]. intros z HA Hz. apply Ein in Hz as [[_ ->]|Hz]; [exact Fr|auto].
           ++ intros [[[_ ->]|A] B]; [left; reflexivity|]. right. split; [exact A|]. intros z HA Hz. apply B; [exact HA|]. apply Ein. right; exact Hz.
      * split; [apply Subseq_nil|]. intros y. split; [intros []|]. intros [Hy Hf]. exfalso. apply Ein in Hy as [[_ ->]|Hy].
        -- rewrite (Hf (root T)) in Fr; [discriminate|apply Anc_refl|apply Ein; left; auto].
        -- rewrite (Hf (root T)) in Fr; [discriminate|apply AncT; exact Hy|apply Ein; left; auto].
    + unfold around. split.
      * unfold l0, around. unfold body. rewrite ok_none, prune_true. destruct (has o UP); [apply post_below_prune_sub|apply below_prune_sub].
      * intros y. assert (Eb : In y (body (Some f)) <-> In y (below_tree T) /\ forall z, Anc (view h) z y -> In z (below_tree T) -> f z = true).
        { unfold body. rewrite <- (iter_filter_in _ _ f rv T y FF L ND). destruct (has o UP); [|reflexivity]. split; intros H; (eapply Permutation_in; [|exact H]); [|symmetry]; apply post_below_perm. }
        rewrite Eb, Ein. split.
        -- intros [A B]. split; [right; exact A|]. intros z HA Hz. apply Ein in Hz as [[? _]|Hz]; [discriminate|auto].
        -- intros [[[? _]|A] B]; [discriminate|]. split; [exact A|]. intros z HA Hz. apply B; [exact HA|apply Ein; right; exact Hz].
Qed.
Definition even_odd (y : loc) : bool := negb (Nat.eqb y 3).
Example C32_case : Reach ex2 /\ tree_at ex2 0 ex2_tree /\ 3 * size ex2_tree <= 30 /\
  deep_iter (children ex2) (Some even_odd) DOWN 30 0 = Some ([1; 4; 2; 5], None) /\
  deep_iter (children ex2) (Some even_odd) (Z.lor DOWN FILTER_ANY) 30 0 = Some ([1; 6; 7; 4; 2; 5], None).
Proof. split; [exact ex2_reach|]. split; [exact ex2_tree_at|]. split; [vm_compute; lia|]. vm_compute. auto. Qed.

(** * C33 *)
Lemma yields_filter {P} f (evs : list (ev P)) : yields (filter (ev_ok f) evs) = filter (fun py => ok f (snd py)) (yields evs).
Proof.
  induction evs as [|e evs IH]; [reflexivity|]. cbn [filter]. destruct e as [p y|y i|y i]; cbn [ev_ok].
  - change (Yield p y :: evs) with ([Yield p y] ++ evs). rewrite yields_app. cbn [yields flat_map app filter snd]. destruct (ok f y); [|exact IH].
    change (Yield p y :: filter (ev_ok f) evs) with ([Yield p y] ++ filter (ev_ok f) evs). rewrite yields_app. cbn. f_equal. exact IH.
  - exact IH.
  - exact IH.
Qed.
Lemma caches_filter {P} ch tg f (evs : list (ev P)) : caches_right ch tg evs -> caches_right ch tg (filter (ev_ok f) evs).
Proof. intros [A B]. split; intros y i H; apply filter_In in H as [H _]; eauto. Qed.
Lemma map_snd_filter {P} f (l : list (P * loc)) : map snd (filter (fun py => ok f (snd py)) l) = filter (ok f) (map snd l).
Proof. rewrite filter_map_comm. reflexivity. Qed.
Lemma Follow_fun {K} ch (el : list loc -> nat -> K) : (forall x i j, i < length (ch x) -> j < length (ch x) -> el (ch x) i = el (ch x) j -> i = j) ->
  forall x p y, Follow ch el x p y -> forall z, Follow ch el x p z -> z = y.
Proof.
  intros Inj x p y F. induction F as [x|x i c k p y Hi Hk _ IH]; intros z Fz; inversion Fz as [|x' j c' k' p' y' Hj Hk' Fz']; subst; [reflexivity|].
  assert (i = j) by (apply (Inj x); [eapply nth_error_lt; exact Hi|eapply nth_error_lt; exact Hj|congruence]). subst j. assert (c' = c) by congruence. subst c'. apply IH. exact Fz'.
Qed.
  Lemma idx_inj h a i j : i < length (children h a) -> j < length (children h a) -> idx_el (children h a) i = idx_el (children h a) j -> i = j.
  Proof. unfold idx_el. lia. Qed.
  Lemma tag_inj h (R : Reach h) a i j : i < length (children h a) -> j < length (children h a) ->
    tag_el (tag_of h) (children h a) i = tag_el (tag_of h) (children h a) j -> i = j.
  Proof.
    intros Hi Hj E. destruct (nth_error (children h a) i) as [c|] eqn:Ei; [|apply nth_error_None in Ei; lia]. destruct (nth_error (children h a) j) as [d|] eqn:Ej; [|apply nth_error_None in Ej; lia].
    pose proof (reach_WF h R) as W. unfold tag_el in E. rewrite Ei, Ej in E. pose proof (f_equal fst E) as E1. pose proof (f_equal snd E) as E2. cbn [fst snd] in E1, E2. clear E.
    rewrite (tag_num_fam h a i c W Ei), (tag_num_fam h a j d W Ej) in E2. apply Nat2Z.inj in E2.
    pose proof (fam_index_nth h a c (nth_error_In _ _ Ei)) as K1. pose proof (fam_index_nth h a d (nth_error_In _ _ Ej)) as K2. rewrite E1, E2 in K1. assert (c = d) by congruence. subst d.
    eapply (proj1 (NoDup_nth_error (children h a)) (WF_nodup h a W)); [exact Hi|congruence].
  Qed.
Section Paths.
  Context (h : heap) (T : tree loc) (n : nat) (R : Reach h) (L : ltree (view h) T) (Hn : 3 * size T <= n).
  Notation x := (root T).
  (** what all path iterators share: [l] pairs of path and item, generated from the path tree *)
  Lemma pairs_ok {K} (el : list loc -> nat -> K) pre (l : list (list K * loc)) items :
    (forall a i j, i < length (children h a) -> j < length (children h a) -> el (children h a) i = el (children h a) j -> i = j) ->
    (forall p y, In (p, y) l -> In (p, y) (flatten (path_tree el pre T))) -> map snd l = items -> NoDup items ->
    (forall p y, In (p, y) l -> exists rel, p = pre ++ rel /\ Follow (children h) el x rel y) /\ NoDup (map fst l).
  Proof.
    intros Inj H E N. assert (U : unf (children h) T) by (apply unf_ltree; exact L).
    assert (A : forall p y, In (p, y) l -> exists rel, p = pre ++ rel /\ Follow (children h) el x rel y) by (intros p y Hp; apply (path_tree_follow _ el T U pre p y), H, Hp).
    split; [exact A|]. clear H. subst items. induction l as [|[p y] l IH]; cbn in *; [constructor|]. inversion N as [|? ? N1 N2]; subst. constructor; [|apply IH; auto].
    intros Hp. apply in_map_iff in Hp as ([p' y'] & Ep & Hp). cbn in Ep. subst p'. destruct (A p y (or_introl eq_refl)) as (r1 & E1 & F1). destruct (A p y' (or_intror Hp)) as (r2 & E2 & F2).
    assert (r1 = r2) by (apply (app_inv_head pre); congruence). subst r2. apply N1. rewrite <- (Follow_fun _ _ Inj _ _ _ F1 _ F2). apply (in_map snd l (p, y')). exact Hp.
  Qed.
  Lemma items_nodup f opt : exists l, deep_iter (children h) f opt n x = Some (l, None) /\ NoDup l.
  Proof.
    assert (TA : tree_at h x T) by (split; [reflexivity|exact L]).
    pose proof (tree_ND _ _ _ R TA) as ND. assert (N0 : forall o l0, o <> 0%Z -> deep_iter (children h) None o n x = Some (l0, None) -> NoDup l0).
    { intros o l0 Ho E. rewrite (C31_orders_partial h x T n o R TA Hn Ho) in E. injection E as <-.
      destruct (C31_exactly_once h x T (has o REVERSE) R TA) as (P1 & P2 & N). inversion N as [|? ? N1 N2]; subst.
      assert (B1 : NoDup (below_tree (turned (has o REVERSE) T))) by (eapply Permutation_NoDup; [symmetry; exact P1|exact N2]).
      assert (B2 : NoDup (post_below (turned (has o REVERSE) T))) by (eapply Permutation_NoDup; [symmetry; exact P2|exact N2]).
      destruct (has o UP), (has o SELF); auto.
      - eapply Permutation_NoDup; [apply Permutation_cons_append|]. constructor; [|exact B2]. intros H. apply N1. eapply Permutation_in; [exact P2|exact H].
      - destruct (has o REVERSE); [|exact N]. eapply Permutation_NoDup; [apply Permutation_cons_append|]. constructor; [|exact B1]. intros H. apply N1. eapply Permutation_in; [exact P1|exact H]. }
    assert (N : forall l0, deep_iter (children h) None opt n x = Some (l0, None) -> NoDup l0).
    { intros l0 E. apply (N0 (fix_opt opt)); [unfold fix_opt; destruct (Z.eqb_spec opt 0); [discriminate|assumption]|]. rewrite <- E. unfold deep_iter. replace (fix_opt (fix_opt opt)) with (fix_opt opt); [reflexivity|].
      unfold fix_opt. destruct (Z.eqb_spec opt 0) as [|Q]; [reflexivity|]. destruct (Z.eqb_spec opt 0); [contradiction|reflexivity]. }
    destruct f as [g|].
    - destruct (C32_filter h x T n opt g R TA Hn) as (l0 & l & E0 & E & A & B). exists l. split; [exact E|]. destruct (has opt FILTER_ANY).
      + rewrite (A eq_refl). apply NoDup_filter. apply N; exact E0.
      + eapply Subseq_NoDup; [apply (B eq_refl)|]. apply N; exact E0.
    - destruct (C32_filter h x T n opt (fun _ => true) R TA Hn) as (l0 & _ & E0 & _). exists l0. split; [exact E0|apply N; exact E0].
  Qed.
End Paths.
Lemma around_map {A B} (g : A -> B) slf front a l : map g (around slf front a l) = around slf front (g a) (map g l).
Proof. unfold around. destruct slf; [|reflexivity]. destruct front; [reflexivity|]. rewrite map_app. reflexivity. Qed.
Lemma around_in {A} slf front (a b : A) l : In b (around slf front a l) -> b = a \/ In b l.
Proof. unfold around. destruct slf; [|auto]. destruct front; [cbn; intuition|rewrite in_app_iff; cbn; intuition]. Qed.
Lemma idx_core : forall h x T n f opt pre, Reach h -> tree_at h x T -> 3 * size T <= n ->
  exists evs l, deep_idx_paths (children h) f opt pre n x = Some (evs, None) /\
    deep_iter (children h) f opt n x = Some (l, None) /\ map snd (yields evs) = l /\
    (forall p y, In (p, y) (yields evs) -> In y (flatten T) /\ exists rel, p = pre ++ rel /\ Follow (children h) idx_el x rel y) /\
    NoDup (map fst (yields evs)) /\ caches_right (children h) (tag_of h) evs.
Proof.
  intros h x T n f opt pre R [E L] Hn. subst x. assert (U : unf (children h) T) by (apply unf_ltree; exact L).
  destruct (items_nodup h T n R L Hn f opt) as (l & El & Nl). pose proof El as El0.
  assert (G : exists evs, deep_idx_paths (children h) f opt pre n (root T) = Some (evs, None) /\ caches_right (children h) (tag_of h) evs /\
     map snd (yields evs) = l /\ (forall p y, In (p, y) (yields evs) -> In (p, y) (flatten (path_tree idx_el pre T)))).
  { unfold deep_iter in El. unfold deep_idx_paths. set (o := fix_opt opt) in *. cbv zeta in *. unfold by_opt in *. set (rv := has o REVERSE) in *. set (slf := has o SELF) in *.
    assert (Gg : forall g, exists evs, (if has o UP then iter_up_idx (children h) rv g slf pre n (root T) else iter_down_idx (children h) rv g slf pre n (root T)) = Some (evs, None) /\
        caches_right (children h) (tag_of h) evs /\
        (if has o UP then iter_up (children h) rv g slf n (root T) else iter_down (children h) rv g slf n (root T)) = Some (map snd (yields evs), None) /\
        (forall p y, In (p, y) (yields evs) -> In (p, y) (flatten (path_tree idx_el pre T)))).
    { intros g. destruct (has o UP).
      - destruct (iter_up_idx_ok (children h) (tag_of h) T U n Hn rv g slf pre) as (evs & E1 & C & Y). exists evs. split; [exact E1|]. split; [exact C|]. rewrite (iter_up_ok _ T U n Hn), Y.
        destruct (slf && negb (ok g (root T))); [split; [reflexivity|intros p y []]|]. split; [rewrite around_map, path_items_up; reflexivity|].
        intros p y Hp. apply around_in in Hp as [[= -> ->]|Hp]; [rewrite flatten_cons, root_path_tree; left; reflexivity|]. eapply path_up_in; exact Hp.
      - destruct (iter_down_idx_ok (children h) (tag_of h) T U n Hn rv g slf pre) as (evs & E1 & C & Y). exists evs. split; [exact E1|]. split; [exact C|]. rewrite (iter_down_ok _ T U n Hn), Y.
        destruct (slf && negb (ok g (root T))); [split; [reflexivity|intros p y []]|]. split; [rewrite around_map, path_items_down; reflexivity|].
        intros p y Hp. apply around_in in Hp as [[= -> ->]|Hp]; [rewrite flatten_cons, root_path_tree; left; reflexivity|]. eapply path_down_in; exact Hp. }
    destruct (has o FILTER_ANY).
    - destruct (Gg None) as (evs & E1 & C & E2 & F). rewrite E1. rewrite E2 in El. cbn in El. injection El as <-. exists (filter (ev_ok f) evs). split; [reflexivity|].
      split; [apply caches_filter; exact C|]. rewrite yields_filter. split; [apply map_snd_filter|]. intros p y Hp. apply filter_In in Hp as [Hp _]. auto.
    - destruct (Gg f) as (evs & E1 & C & E2 & F). rewrite E1. rewrite E2 in El. injection El as <-. exists evs. auto. }
  destruct G as (evs & E1 & C & E2 & F). exists evs, l. split; [exact E1|]. split; [exact El0|]. split; [exact E2|].
  destruct (pairs_ok h T L idx_el pre (yields evs) l (idx_inj h) F E2 Nl) as [A B]. split; [|split; [exact B|exact C]].
  intros p y Hp. split; [|apply A; exact Hp]. apply F in Hp. apply (in_map snd) in Hp. rewrite <- flatten_tmap, tmap_snd_path in Hp. exact Hp.
Qed.
(** idx_paths(): for every filter and option, the items of iter() in the same order, each with
    a path: the prefix (the calling item's own path) followed by the child positions leading
    from the calling item to it; no path twice; the remembered positions that are written on
    the way are right *)
Theorem C33_idx_paths : forall h x T n f opt pre, Reach h -> tree_at h x T -> 3 * size T <= n ->
  exists evs l, deep_idx_paths (children h) f opt pre n x = Some (evs, None) /\
    deep_iter (children h) f opt n x = Some (l, None) /\ map snd (yields evs) = l /\
    (forall p y, In (p, y) (yields evs) -> exists rel, p = pre ++ rel /\ by_idx h x rel = Ok y) /\
    NoDup (map fst (yields evs)) /\ caches_right (children h) (tag_of h) evs.
Proof.
  intros h x T n f opt pre R TA Hn. destruct (idx_core h x T n f opt pre R TA Hn) as (evs & l & E1 & E2 & E3 & F & N & C).
  exists evs, l. do 3 (split; [assumption|]). split; [|auto]. intros p y Hp. destruct (F p y Hp) as (_ & rel & E & Fo). exists rel. split; [exact E|]. apply Follow_idx. exact Fo.
Qed.
(** ... and with the calling item's idx_path as prefix these are the idx_paths of the items *)
Theorem C33_idx_paths_absolute : forall h x T n f opt pre evs p y, Reach1 h -> x < hnext h -> tree_at h x T -> 3 * size T <= n ->
  snd (idx_path (S (hnext h)) x h) = Ok pre -> deep_idx_paths (children h) f opt pre n x = Some (evs, None) -> In (p, y) (yields evs) ->
  snd (idx_path (S (hnext h)) y h) = Ok p.
Proof.
  intros h x T n f opt pre evs p y R Hx TA Hn Hpre E Hp. pose proof (Reach1_Reach h R) as R0.
  destruct (idx_core h x T n f opt pre R0 TA Hn) as (evs' & l & E' & _ & _ & F & _). rewrite E in E'. injection E' as <-.
  destruct (F p y Hp) as (Hy & rel & -> & Fo). pose proof (wf_forest _ (reach_WF h R0)) as FF.
  assert (Hy2 : y < hnext h) by (destruct TA as [Ex L]; subst x; eapply ltree_lt; [exact FF|exact L|exact Hx|exact Hy]).
  destruct (idx_path_follow h x rel y (reach1_WFN h R) Hy2 Hx Fo) as (pre' & E1 & E2). rewrite Hpre in E1. injection E1 as <-. exact E2.
Qed.
(** tag_idx_paths(): the same with (tag, number) pairs.  Partial: the forward iterator that has
    both a hiding filter and SELF yields the calling item twice (refuted below). *)
Definition tag_once (f : option (loc -> bool)) (opt : Z) : Prop :=
  f = None \/ has opt SELF = false \/ has opt REVERSE = true \/ has opt UP = true \/ has opt FILTER_ANY = true.
Theorem C33_tag_idx_paths_partial : forall h x T n f opt pre, Reach h -> tree_at h x T -> 3 * size T <= n -> tag_once f opt ->
  exists evs l, deep_tag_idx_paths (children h) (tag_of h) f opt pre n x = Some (evs, None) /\
    deep_iter (children h) f opt n x = Some (l, None) /\ map snd (yields evs) = l /\
    (forall p y, In (p, y) (yields evs) -> exists rel, p = pre ++ rel /\ by_tag_idx h x rel = Ok y) /\
    NoDup (map fst (yields evs)) /\ caches_right (children h) (tag_of h) evs.
Proof.
  intros h x T n f opt pre R [E L] Hn Once. subst x. assert (U : unf (children h) T) by (apply unf_ltree; exact L).
  destruct (items_nodup h T n R L Hn f opt) as (l & El & Nl). pose proof El as El0.
  assert (G : exists evs, deep_tag_idx_paths (children h) (tag_of h) f opt pre n (root T) = Some (evs, None) /\ caches_right (children h) (tag_of h) evs /\
     map snd (yields evs) = l /\ (forall p y, In (p, y) (yields evs) -> In (p, y) (flatten (path_tree (tag_el (tag_of h)) pre T)))).
  { unfold deep_iter in El. unfold deep_tag_idx_paths. set (o := fix_opt opt) in *. cbv zeta in *. unfold by_opt in *.
    assert (Once' : f = None \/ has o SELF = false \/ has o REVERSE = true \/ has o UP = true \/ has o FILTER_ANY = true).
    { unfold tag_once in Once. unfold o, fix_opt. destruct (Z.eqb_spec opt 0) as [->|_]; [|exact Once]. do 3 right. left. reflexivity. }
    clear Once. set (rv := has o REVERSE) in *. set (slf := has o SELF) in *.
    assert (Gg : forall g, g = None \/ slf = false \/ rv = true \/ has o UP = true ->
      exists evs, (if has o UP then iter_up_tag (children h) (tag_of h) rv g slf pre n (root T) else iter_down_tag (children h) (tag_of h) rv g slf pre n (root T)) = Some (evs, None) /\
        caches_right (children h) (tag_of h) evs /\
        (if has o UP then iter_up (children h) rv g slf n (root T) else iter_down (children h) rv g slf n (root T)) = Some (map snd (yields evs), None) /\
        (forall p y, In (p, y) (yields evs) -> In (p, y) (flatten (path_tree (tag_el (tag_of h)) pre T)))).
    { intros g Hg. destruct (has o UP).
      - destruct (iter_up_tag_ok (children h) (tag_of h) T U n Hn rv g slf pre) as (evs & E1 & C & Y). exists evs. split; [exact E1|]. split; [exact C|]. rewrite (iter_up_ok _ T U n Hn), Y.
        destruct (slf && negb (ok g (root T))); [split; [reflexivity|intros p y []]|]. split; [rewrite around_map, <- (path_items_up (tag_el (tag_of h)) pre); reflexivity|].
        intros p y Hp. apply around_in in Hp as [[= -> ->]|Hp]; [rewrite flatten_cons, root_path_tree; left; reflexivity|]. eapply path_up_in; exact Hp.
      - destruct (iter_down_tag_ok (children h) (tag_of h) T U n Hn rv g slf pre) as (evs & E1 & C & Y). exists evs. split; [exact E1|]. split; [exact C|]. rewrite (iter_down_ok _ T U n Hn), Y.
        assert (Tw : twice T g slf rv = false).
        { unfold twice. destruct g as [g|]; [|reflexivity]. destruct Hg as [Hg|[Hg|[Hg|Hg]]]; try discriminate; rewrite Hg; [reflexivity|]. destruct slf; reflexivity. }
        rewrite Tw, app_nil_r.
        destruct (slf && negb (ok g (root T))); [split; [reflexivity|intros p y []]|]. split; [rewrite around_map, <- (path_items_down (tag_el (tag_of h)) pre); reflexivity|].
        intros p y Hp. apply around_in in Hp as [[= -> ->]|Hp]; [rewrite flatten_cons, root_path_tree; left; reflexivity|]. eapply path_down_in; exact Hp. }
    destruct (has o FILTER_ANY).
    - destruct (Gg None) as (evs & E1 & C & E2 & F); [auto|]. rewrite E1. rewrite E2 in El. cbn in El. injection El as <-. exists (filter (ev_ok f) evs). split; [reflexivity|].
      split; [apply caches_filter; exact C|]. rewrite yields_filter. split; [apply map_snd_filter|]. intros p y Hp. apply filter_In in Hp as [Hp _]. auto.
    - destruct (Gg f) as (evs & E1 & C & E2 & F); [intuition discriminate|]. rewrite E1. rewrite E2 in El. injection El as <-. exists evs. auto. }
  destruct G as (evs & E1 & C & E2 & F). exists evs, l. split; [exact E1|]. split; [exact El0|]. split; [exact E2|].
  destruct (pairs_ok h T L (tag_el (tag_of h)) pre (yields evs) l (tag_inj h R) F E2 Nl) as [A B]. split; [|split; [exact B|exact C]].
  intros p y Hp. destruct (A p y Hp) as (rel & -> & Fo). exists rel. split; [reflexivity|]. apply Follow_tag; [apply reach_WF; exact R|apply reach_hash; exact R|exact Fo].
Qed.
(** the paths on the example tree, and the iterator that yields the calling item twice *)
Example C33_case_idx : option_map (fun r => yields (fst r)) (deep_idx_paths (children ex2) None DOWN [9%Z] 30 1) =
  Some [([9;0]%Z, 3); ([9;0;0]%Z, 6); ([9;0;0;0]%Z, 7); ([9;1]%Z, 4)].
Proof. vm_compute. reflexivity. Qed.
Definition keep_all : option (loc -> bool) := Some (fun _ => true).
Example C33_case_tag : option_map (fun r => map snd (yields (fst r))) (deep_tag_idx_paths (children ex2) (tag_of ex2) keep_all (Z.lor DOWN REVERSE) [] 30 0) =
  Some [2; 5; 1; 4; 3; 6; 7] /\ tag_once keep_all (Z.lor DOWN REVERSE).
Proof. split; [vm_compute; reflexivity|right; left; reflexivity]. Qed.
Theorem C33_tag_self_refuted : exists h x T n f opt evs, Reach h /\ tree_at h x T /\ 3 * size T <= n /\
  deep_tag_idx_paths (children h) (tag_of h) f opt [] n x = Some (evs, None) /\ map snd (yields evs) = [0; 1; 3; 6; 7; 4; 2; 5; 0].
Proof.
  exists ex2, 0, ex2_tree, 30, keep_all, (Z.lor DOWN SELF). destruct (deep_tag_idx_paths (children ex2) (tag_of ex2) keep_all (Z.lor DOWN SELF) [] 30 0) as [[evs [e|]]|] eqn:E;
    [exfalso; vm_compute in E; discriminate| |exfalso; vm_compute in E; discriminate].
  exists evs. split; [exact ex2_reach|]. split; [exact ex2_tree_at|]. split; [vm_compute; lia|]. split; [reflexivity|]. vm_compute in E. injection E as <-. reflexivity.
Qed.

(** * C34 *)
(** y is k steps below x *)
Fixpoint At (h : heap) (x : loc) (k : nat) (y : loc) : Prop :=
  match k with 0 => y = x | S k => exists p, At h x k p /\ In y (children h p) end.
Lemma At_head h x k : forall y, At h x (S k) y <-> exists c, In c (children h x) /\ At h c k y.
Proof.
  induction k as [|k IH]; intros y.
  - cbn. split; [intros (p & -> & H); eauto|intros (c & H & ->); eauto].
  - split.
    + intros (p & Hp & Hy). apply IH in Hp as (c & Hc & Hp). exists c. split; [exact Hc|]. exists p. auto.
    + intros (c & Hc & p & Hp & Hy). exists p. split; [|exact Hy]. apply IH. eauto.
Qed.
Lemma At_tree h T : ltree (view h) T -> forall k y, In y (at_depth k T) <-> At h (root T) k y.
Proof.
  induction T as [a cs IH] using tree_ind'. intros L k y. apply ltree_iff in L as [E L]. rewrite Forall_forall in IH, L. destruct k as [|k]; [cbn; intuition|].
  rewrite At_head. cbn [at_depth kids root]. rewrite in_flat_map. change (children h a) with (a_children (view h a)). rewrite <- E. split.
  - intros (c & Hc & Hy). exists (root c). split; [apply in_map; exact Hc|]. apply (IH c Hc (L c Hc)). exact Hy.
  - intros (r & Hr & Hy). apply in_map_iff in Hr as (c & <- & Hc). exists c. split; [exact Hc|]. apply (IH c Hc (L c Hc)). exact Hy.
Qed.
Lemma at_depth_Subseq {A} k : forall T : tree A, Subseq (at_depth k T) (flatten T).
Proof.
  induction k as [|k IH]; intros T; rewrite flatten_cons; cbn [at_depth]; [apply sub_take, Subseq_nil|]. apply sub_skip. unfold below_tree.
  induction (kids T) as [|c cs IHcs]; cbn; [constructor|]. apply Subseq_app; auto.
Qed.
Lemma at_depth_Subseq_below {A} k (T : tree A) : Subseq (at_depth (S k) T) (below_tree T).
Proof. cbn. unfold below_tree. induction (kids T) as [|c cs IHcs]; cbn; [constructor|]. apply Subseq_app; [apply at_depth_Subseq|exact IHcs]. Qed.
(** the order of the listing: that of deep.iter with the same REVERSE option *)
Definition order_of (opt : Z) : Z := if has opt REVERSE then REVERSE else DOWN.
Lemma order_items h x T n opt : Reach h -> tree_at h x T -> 3 * size T <= n ->
  deep_iter (children h) None (order_of opt) n x = Some (below_tree (turned (has opt REVERSE) T), None).
Proof.
  intros R TA Hn. rewrite (C31_orders_partial h x T n (order_of opt) R TA Hn) by (unfold order_of; destruct (has opt REVERSE); discriminate).
  unfold order_of. destruct (has opt REVERSE); reflexivity.
Qed.
(** the ancestors of an item as the code computes them *)
Definition up_of (h : heap) : loc -> list loc := anc_path (hnext h) h.
(** siblings(k), k > 0: exactly the items k steps below, each once, in iteration order;
    siblings(0): the item itself if SELF is given *)
Theorem C34_level : forall h x T n opt k, Reach h -> tree_at h x T -> 3 * size T <= n -> bad_opts opt siblings_opts = false ->
  exists l all, siblings (children h) (up_of h) (Z.of_nat k) opt n x = Some (l, None) /\
    deep_iter (children h) None (order_of opt) n x = Some (all, None) /\
    NoDup l /\ (forall y, In y l <-> At h x k y /\ (k = 0 -> has opt SELF = true)) /\ (0 < k -> Subseq l all).
Proof.
  intros h x T n opt k R TA Hn Ho. pose proof (tree_ND _ _ _ R TA) as ND. pose proof (tree_unf _ _ _ TA) as U. rewrite (order_items h x T n opt R TA Hn).
  destruct TA as [E L]. subst x. do 2 eexists. split; [apply siblings_nonneg; [exact U|exact ND|lia|exact Ho]|]. split; [reflexivity|]. set (rv := has opt REVERSE).
  destruct k as [|k].
  - unfold level_items. destruct (has opt SELF); cbn.
    + split; [constructor; [intros []|constructor]|]. split; [|lia]. intros y. intuition.
    + split; [constructor|]. split; [|lia]. intros y. intuition discriminate.
  - unfold level_items. split; [|split].
    + apply at_depth_NoDup. eapply Permutation_NoDup; [symmetry; apply flatten_turned_perm|exact ND].
    + intros y. rewrite at_depth_turned, (At_tree h T L). intuition discriminate.
    + intros _. apply at_depth_Subseq_below.
Qed.
(** siblings(-1): exactly the leaves, in iteration order *)
Theorem C34_leaves : forall h x T n opt, Reach h -> tree_at h x T -> 3 * size T <= n -> bad_opts opt siblings_opts = false ->
  exists all, deep_iter (children h) None (order_of opt) n x = Some (all, None) /\
    siblings (children h) (up_of h) (-1) opt n x = Some (filter (fun y => match children h y with [] => true | _ => false end) all, None).
Proof.
  intros h x T n opt R TA Hn Ho. pose proof (tree_ND _ _ _ R TA) as ND. pose proof (tree_unf _ _ _ TA) as U. rewrite (order_items h x T n opt R TA Hn).
  eexists. split; [reflexivity|]. destruct TA as [E L]. subst x. change (-1)%Z with (- Z.of_nat 1)%Z. rewrite (siblings_neg (children h) (up_of h) 0 opt n T U ND Hn Ho). cbn [Nat.eqb].
  unfold leaves_below. do 2 f_equal. apply filter_ext. intros y. destruct (children h y); reflexivity.
Qed.
(** siblings(-(j+1)) for j > 0: the items that lie j steps above a leaf below the calling item *)
Definition LeafBelow (h : heap) (x y : loc) : Prop := Below h x y /\ children h y = [].
Lemma leaves_below_in h T rv y : ltree (view h) T -> In y (leaves_below (children h) rv T) <-> LeafBelow h (root T) y.
Proof.
  intros L. unfold leaves_below, LeafBelow. rewrite filter_In, <- (Below_tree h T L).
  assert (P : In y (below_tree (turned rv T)) <-> In y (below_tree T)).
  { pose proof (flatten_turned_perm rv T) as P. rewrite !flatten_cons, root_turned in P. apply Permutation_cons_inv in P. split; apply Permutation_in; [exact P|symmetry; exact P]. }
  rewrite P. destruct (children h y); cbn; intuition discriminate.
Qed.
Lemma Below_lt h x y : Reach h -> x < hnext h -> Below h x y -> y < hnext h.
Proof.
  intros R Hx. pose proof (wf_forest _ (reach_WF h R)) as FF. induction 1 as [y Hy|q y _ IH Hy]; eapply Forest_child_lt; eauto.
Qed.
Lemma up_above h x y j : Reach h -> x < hnext h -> Below h x y -> from_end j (up_of h y) = above h j y.
Proof.
  intros R Hx B. pose proof (wf_forest _ (reach_WF h R)) as FF. destruct (Rooted_Lev _ _ (fo_root _ _ FF y)) as [k Ly].
  pose proof (Lev_bound _ _ _ _ FF Ly (Below_lt h x y R Hx B)). unfold up_of. apply (anc_path_above h y k Ly). lia.
Qed.
Theorem C34_negative : forall h x T n opt j, Reach h -> x < hnext h -> tree_at h x T -> 3 * size T <= n -> bad_opts opt siblings_opts = false ->
  has opt MULTIPLE = false -> 0 < j ->
  exists l, siblings (children h) (up_of h) (- Z.of_nat (S j)) opt n x = Some (l, None) /\ NoDup l /\
    forall z, In z l <-> (z = x -> has opt SELF = true) /\ exists y, LeafBelow h x y /\ above h j y = Some z.
Proof.
  intros h x T n opt j R Hx TA Hn Ho Hm Hj. pose proof (tree_ND _ _ _ R TA) as ND. pose proof (tree_unf _ _ _ TA) as U. destruct TA as [E L]. subst x.
  eexists. split; [rewrite (siblings_neg (children h) (up_of h) j opt n T U ND Hn Ho); reflexivity|]. destruct (Nat.eqb_spec j 0) as [|_]; [lia|]. rewrite Hm.
  destruct (minus_once (up_of h) (has opt SELF) j (root T) (leaves_below (children h) (has opt REVERSE) T) []) as [N I]. split; [exact N|].
  intros z. rewrite I. split.
  - intros (_ & Hk & y & Hy & Ea). split; [intros ->; rewrite Nat.eqb_refl, orb_false_r in Hk; exact Hk|]. apply (leaves_below_in h T _ y L) in Hy. exists y. split; [exact Hy|]. rewrite <- (up_above h (root T) y j R Hx (proj1 Hy)). exact Ea.
  - intros (Hk & y & Hy & Ea). split; [intros []|]. split.
    + destruct (Nat.eqb_spec z (root T)) as [->|_]; [rewrite (Hk eq_refl); reflexivity|apply orb_true_r].
    + exists y. split; [apply (leaves_below_in h T _ y L); exact Hy|]. rewrite (up_above h (root T) y j R Hx (proj1 Hy)). exact Ea.
Qed.
(** with MULTIPLE one item per leaf, in leaf order *)
Theorem C34_multiple : forall h x T n opt j, Reach h -> x < hnext h -> tree_at h x T -> 3 * size T <= n -> bad_opts opt siblings_opts = false ->
  has opt MULTIPLE = true -> 0 < j ->
  exists leaves, siblings (children h) (up_of h) (-1) opt n x = Some (leaves, None) /\
    siblings (children h) (up_of h) (- Z.of_nat (S j)) opt n x =
    Some (filter (fun z => has opt SELF || negb (Nat.eqb z x)) (flat_map (fun y => match above h j y with Some z => [z] | None => [] end) leaves), None).
Proof.
  intros h x T n opt j R Hx TA Hn Ho Hm Hj. pose proof (tree_ND _ _ _ R TA) as ND. pose proof (tree_unf _ _ _ TA) as U. destruct TA as [E L]. subst x.
  eexists. split; [change (-1)%Z with (- Z.of_nat 1)%Z; rewrite (siblings_neg (children h) (up_of h) 0 opt n T U ND Hn Ho); reflexivity|].
  rewrite (siblings_neg (children h) (up_of h) j opt n T U ND Hn Ho). destruct (Nat.eqb_spec j 0) as [|_]; [lia|]. cbn [Nat.eqb]. rewrite Hm, minus_multi. do 3 f_equal.
  apply flat_map_ext_in. intros y Hy. rewrite (up_above h (root T) y j R Hx); [reflexivity|]. apply (leaves_below_in h T _ y L) in Hy. apply Hy.
Qed.
Example C34_case : siblings (children ex2) (up_of ex2) 2 0 30 0 = Some ([3; 4; 5], None) /\ siblings (children ex2) (up_of ex2) 2 REVERSE 30 0 = Some ([5; 4; 3], None) /\
  siblings (children ex2) (up_of ex2) (-1) 0 30 0 = Some ([7; 4; 5], None) /\ siblings (children ex2) (up_of ex2) (-2) 0 30 0 = Some ([6; 1; 2], None).
Proof. vm_compute. auto. Qed.
(** the documentation restricts siblings to the items below the calling item; a negative level
    deeper than the tree leaves it: siblings(-4) of the item 3 yields 1, its parent *)
Theorem C34_inside_refuted : exists h x T n j l, Reach1 h /\ tree_at h x T /\ 3 * size T <= n /\
  siblings (children h) (up_of h) (- Z.of_nat (S j)) 0 n x = Some (l, None) /\ exists y, In y l /\ ~ Below h x y /\ parent_of h x = Some y.
Proof.
  exists ex2, 3, (Node 3 [Node 6 [Node 7 []]]), 30, 3, [1]. split; [exact ex2_reach1|]. split; [vm_compute; auto 20|]. split; [vm_compute; lia|]. split; [vm_compute; reflexivity|].
  exists 1. split; [left; reflexivity|]. split; [|vm_compute; reflexivity]. intros B.
  assert (L : ltree (view ex2) (Node 3 [Node 6 [Node 7 []]])) by (vm_compute; auto 20). apply (Below_tree ex2 _ L) in B. vm_compute in B. intuition discriminate.
Qed.

(** * C35 *)
(** max_depth is the greatest k such that some item lies k steps below *)
Theorem C35_max_depth : forall h x T n, Reach h -> tree_at h x T -> S (S (height T)) <= n ->
  exists d, max_depth (children h) n x = Some (Z.of_nat d) /\ (exists y, At h x d y) /\ (forall k y, At h x k y -> k <= d).
Proof.
  intros h x T n R TA Hn. pose proof (tree_unf _ _ _ TA) as U. destruct TA as [E L]. subst x. exists (height T). split; [apply max_depth_ok; [exact U|lia]|]. split.
  - destruct (at_depth (height T) T) as [|y l] eqn:E; [exfalso; eapply at_depth_nonempty; [|exact E]; lia|]. exists y. apply (At_tree h T L). rewrite E. left; reflexivity.
  - intros k y H. apply (At_tree h T L) in H. destruct (Nat.le_gt_cases k (height T)) as [|G]; [assumption|]. rewrite (at_depth_empty k T G) in H. destruct H.
Qed.
(** the bound on [n] is met by the number of items: the loop always ends *)
Theorem C35_max_depth_ends : forall h x T, Reach h -> tree_at h x T -> exists d, max_depth (children h) (S (size T)) x = Some d.
Proof.
  intros h x T R TA. destruct (C35_max_depth h x T (S (size T)) R TA) as (d & E & _); [|eauto].
  assert (H : height T < size T); [|lia]. clear. induction T as [a cs IH] using tree_ind'. cbn [height size].
  enough (list_max (map (fun c => S (height c)) cs) <= list_sum (map size cs)) by lia. induction IH as [|c cs Hc _ IHcs]; [reflexivity|]. cbn [map].
  change (list_sum (size c :: map size cs)) with (size c + list_sum (map size cs)). change (list_max (S (height c) :: map (fun c => S (height c)) cs)) with (Nat.max (S (height c)) (list_max (map (fun c => S (height c)) cs))). lia.
Qed.
Example C35_case : max_depth (children ex2) 20 0 = Some 4%Z /\ max_depth (children ex2) 20 2 = Some 1%Z /\ max_depth (children ex2) 20 7 = Some 0%Z.
Proof. vm_compute. auto. Qed.

(** * C36 *)
(** levels(slice(start, stop, step)) with 0 <= start, 0 < step and stop None or >= start: the
    concatenation of siblings(k) for k = start, start + step, ... below stop (up to the height).
    Partial: negative starts and steps, a stop below the start, and MULTIPLE without SELF
    do not do this (refuted below). *)
Theorem C36_levels_partial : forall h x T n m opt (start : nat) (stop : option nat) (step : Z) (lv : nat -> list loc),
  Reach h -> tree_at h x T -> 3 * size T <= n -> height T + 3 <= m -> bad_opts opt siblings_opts = false ->
  (has opt MULTIPLE = true -> has opt SELF = true) -> (0 < step)%Z ->
  (forall e, stop = Some e -> start <= e /\ (e = 0 -> has opt SELF = true)) ->
  (forall k, siblings (children h) (up_of h) (Z.of_nat k) opt n x = Some (lv k, None)) ->
  levels_slice (children h) (up_of h) (Some (Z.of_nat start)) (option_map Z.of_nat stop) (Some step) opt n m x =
  Some (flat_map (fun k => if ((Z.of_nat k - Z.of_nat start) mod step =? 0)%Z && match stop with None => true | Some e => k <? e end then lv k else [])
                 (seq start (S (height T) - start)), None).
Proof.
  intros h x T n m opt start stop step lv R TA Hn Hm Ho Hms Hst Hse Hlv. pose proof (tree_ND _ _ _ R TA) as ND. pose proof (tree_unf _ _ _ TA) as U. destruct TA as [E L]. subst x.
  rewrite (levels_slice_ok (children h) (up_of h) opt n m T start stop step (Some (Z.of_nat start)) (option_map Z.of_nat stop) U ND ltac:(lia) Hm Ho Hms Hst (or_introl eq_refl) eq_refl Hse).
  do 2 f_equal. apply flat_map_ext_in. intros k _. specialize (Hlv k). rewrite (siblings_nonneg (children h) (up_of h) k opt n T U ND ltac:(lia) Ho) in Hlv. injection Hlv as Hlv. rewrite Hlv. reflexivity.
Qed.
(** levels([k1, k2, ...]) without the level 0: the concatenation of siblings(ki) *)
Theorem C36_levels_list_partial : forall h x n m opt ls (lv : Z -> list loc), has opt MULTIPLE = true ->
  (forall k, In k ls -> k <> 0%Z /\ siblings (children h) (up_of h) k opt n x = Some (lv k, None)) ->
  levels_iter (children h) (up_of h) ls opt n m x = Some (flat_map lv ls, None).
Proof. intros h x n m opt ls lv Hm H. unfold levels_iter. rewrite Hm. apply levels_list_ok. exact H. Qed.
(** ... and without MULTIPLE every item of these levels once *)
Theorem C36_levels_once_partial : forall h x n m opt ls (lv : Z -> list loc), has opt MULTIPLE = false ->
  (forall k, In k ls -> k <> 0%Z /\ siblings (children h) (up_of h) k opt n x = Some (lv k, None)) ->
  exists l, levels_iter (children h) (up_of h) ls opt n m x = Some (l, None) /\ NoDup l /\ (forall y, In y l <-> exists k, In k ls /\ In y (lv k)) /\
    (NoDup (flat_map lv ls) -> l = flat_map lv ls).
Proof.
  intros h x n m opt ls lv Hm H. unfold levels_iter. rewrite Hm, (levels_list_ok _ _ _ _ _ _ lv ls H). cbn [option_map fst snd]. eexists. split; [reflexivity|].
  destruct (once_spec (flat_map lv ls) []) as (A & B & C). split; [exact A|]. split; [|intros N; apply C; [exact N|intros z _ []]].
  intros y. rewrite B, in_flat_map. intuition.
Qed.
Example C36_case : levels_slice (children ex2) (up_of ex2) (Some 1%Z) (Some 4%Z) (Some 2%Z) 0 30 10 0 = Some ([1; 2; 6], None) /\
  levels_slice (children ex2) (up_of ex2) (Some 0%Z) None (Some 1%Z) SELF 30 10 0 = Some ([0; 1; 2; 3; 4; 5; 6; 7], None) /\
  levels_iter (children ex2) (up_of ex2) [2; 1; -1]%Z 0 30 10 0 = Some ([3; 4; 5; 1; 2; 7], None).
Proof. vm_compute. auto. Qed.
(** MULTIPLE without SELF never ends: whatever bounds are given, the loop needs more *)
Theorem C36_multiple_refuted : forall h x T opt start step, Reach h -> tree_at h x T -> bad_opts opt siblings_opts = false ->
  has opt MULTIPLE = true -> has opt SELF = false -> (0 < step)%Z ->
  forall n m, 3 * size T <= n -> levels_slice (children h) (up_of h) (Some (Z.of_nat start)) None (Some step) opt n m x = None.
Proof.
  intros h x T opt start step R TA Ho Hm Hs Hst n m Hn. destruct (C34_level h x T n opt start R TA Hn Ho) as (l & all & E & _). eapply levels_never_ends; eauto.
Qed.
(** the slices that do not give the requested levels (the example tree has the levels
    [0] [1;2] [3;4;5] [6] [7]) *)
Theorem C36_slices_refuted :
  let lv a b c := levels_slice (children ex2) (up_of ex2) a b c 0 30 10 0 in
  lv (Some 2%Z) (Some 1%Z) (Some 1%Z) = Some ([3; 4; 5; 6; 7], None) /\      (* an empty range *)
  lv (Some 0%Z) (Some 0%Z) (Some 1%Z) = Some ([1; 2; 3; 4; 5; 6; 7], None) /\ (* an empty range *)
  lv None None None = Some ([], None) /\                                (* slice(None): everything *)
  lv (Some 3%Z) (Some 2%Z) (Some (-1)%Z) = Some ([6; 1; 2], None) /\          (* level 3 only *)
  lv (Some 6%Z) (Some 0%Z) (Some (-1)%Z) = Some ([], None) /\                 (* levels 4 3 2 1 *)
  levels_iter (children ex2) (up_of ex2) [0; 1]%Z 0 30 10 0 = Some ([], None). (* level 1 *)
Proof.
  cbv zeta. do 5 (split; [vm_compute; reflexivity|]). vm_compute. reflexivity.
Qed.

(** * C37 *)
(** iter_family_items() of an item whose children are leaves (and not tagged None): every
    child once, grouped by family in the order of the first members.
    Partial: deeper trees lose items (refuted below). *)
Theorem C37_families_partial : forall h x n, Reach h -> (forall y, In y (children h x) -> children h y = []) ->
  ~ In PNone (map (tag_of h) (children h x)) -> length (children h x) + 2 <= n ->
  exists l ts, iter_family_items (children h) (tag_of h) n x = Some (l, None) /\ Permutation l (children h x) /\ NoDup l /\
    NoDup ts /\ l = flat_map (fun t => filter (fun y => pyval_eqb (tag_of h y) t) (children h x)) ts.
Proof.
  intros h x n R Hl Ht Hn. pose proof (WF_nodup h x (reach_WF h R)) as ND. change (nitems (hnode h x)) with (children h x) in ND.
  assert (Hin : forall t, In t (tags_of (children h) (tag_of h) x) <-> In t (map (tag_of h) (children h x))).
  { intros t; unfold tags_of; rewrite (tags_from_in (children h)).
 split; [intros [_ H0]; exact H0|intros H0; split; [intros []|exact H0]]. }
  assert (Hlen : length (tags_of (children h) (tag_of h) x) <= length (children h x)).
  { rewrite <- (map_length (tag_of h)). apply NoDup_incl_length; [apply (tags_from_nodup (children h))|]. intros t Hx. apply Hin. exact Hx. }
  exists (grouped (children h) (tag_of h) x), (tags_of (children h) (tag_of h) x).
  split; [apply fam_flat; [exact Hl|rewrite Hin; exact Ht|lia]|]. pose proof (grouped_perm (children h) (tag_of h) x ND) as P.
  split; [exact P|]. split; [eapply Permutation_NoDup; [symmetry; exact P|exact ND]|]. split; [apply (tags_from_nodup (children h))|reflexivity].
Qed.
Definition ex3_ops : list op := [ ONew (PStr "r") PNoValue [EArgs (PStr "a") (PInt 1); EArgs (PStr "b") (PInt 2); EArgs (PStr "a") (PInt 3)] None 0 ].
Definition ex3 : heap := runs ex3_ops empty_heap.
Example C37_case : Reach ex3 /\ children ex3 0 = [1; 2; 3] /\ iter_family_items (children ex3) (tag_of ex3) 10 0 = Some ([1; 3; 2], None).
Proof. split; [apply reach_runs; [constructor|vm_compute; reflexivity]|]. split; vm_compute; reflexivity. Qed.
Theorem C37_refuted : exists h x l y, Reach1 h /\ iter_family_items (children h) (tag_of h) 100 x = Some (l, None) /\ Below h x y /\ ~ In y l.
Proof.
  exists ex2, 0, [1; 3; 6; 7], 2. split; [exact ex2_reach1|]. split; [vm_compute; reflexivity|].
  split; [|vm_compute; intuition discriminate]. apply below_child. vm_compute. auto.
Qed.

Print Assumptions C30_deep_iter.
Print Assumptions C30_parents_first.
Print Assumptions C31_orders_partial.
Print Assumptions C31_exactly_once.
Print Assumptions C31_self_first_refuted.
Print Assumptions C31_default_refuted.
Print Assumptions C32_filter.
Print Assumptions C33_idx_paths.
Print Assumptions C33_idx_paths_absolute.
Print Assumptions C33_tag_idx_paths_partial.
Print Assumptions C33_tag_self_refuted.
Print Assumptions C34_level.
Print Assumptions C34_leaves.
Print Assumptions C34_negative.
Print Assumptions C34_multiple.
Print Assumptions C34_inside_refuted.
Print Assumptions C35_max_depth.
Print Assumptions C35_max_depth_ends.
Print Assumptions C36_levels_partial.
Print Assumptions C36_levels_list_partial.
Print Assumptions C36_levels_once_partial.
Print Assumptions C36_multiple_refuted.
Print Assumptions C36_slices_refuted.
Print Assumptions C37_families_partial.
Print Assumptions C37_refuted.
