(** C72, C73: sizes and searches over all levels (iTree.deep). *)
From Verif Require Import Base Heap HeapSpec ListLemmas ForestLemmas HeapInv HeapAttach HeapOps HeapOps2 HeapOps3
  HeapHoare Tree HeapTree HeapCopy HeapMut HeapExt HeapExt2 HeapOrd HeapOrd2 HeapHist
  HeapHash History HeapRead HeapRead2 Runs PropsA PropsB PropsC PropsF PropsG
  JsonModel GetModel NavModel PropsP Deep DeepSpec DeepProofs DeepInst DeepFacts DeepOps.
Import ListNotations.
Local Open Scope list_scope.

(** * C72 *)
Lemma size_flatten {A} (T : tree A) : size T = length (flatten T).
Proof.
  induction T as [a cs IH] using tree_ind'. cbn [flatten size]. cbn [length]. f_equal. rewrite flat_map_concat_map.
  induction cs as [|c cs IHc]; [reflexivity|]. inversion IH as [|? ? E1 E2]; subst. cbn [map concat]. rewrite app_length, <- E1, <- (IHc E2). reflexivity.
Qed.
Lemma tree_size_le h x T : Reach h -> x < hnext h -> tree_at h x T -> size T <= hnext h.
Proof.
  intros R Hx TA. pose proof (tree_ND _ _ _ R TA) as ND. destruct TA as [E L]. subst x. rewrite size_flatten.
  rewrite <- (seq_length (hnext h) 0). apply NoDup_incl_length; [exact ND|]. intros y Hy. apply in_seq.
  assert (y < hnext h) by (eapply ltree_lt; [apply (wf_forest _ (reach_WF h R))|exact L|exact Hx|exact Hy]). lia.
Qed.
Lemma deep_all_ok h x T : Reach h -> x < hnext h -> tree_at h x T -> deep_all h x = Ok (below_tree T).
Proof.
  intros R Hx TA. destruct (C30_deep_iter h x R Hx) as (T0 & TA0 & K).
  assert (T0 = T) by (destruct TA, TA0; eapply ltree_unique; eauto; congruence). subst T0.
  pose proof (tree_size_le h x T R Hx TA). unfold deep_all. change (fun y => nitems (hnode h y)) with (children h).
  rewrite (proj1 (K (3 * hnext h) ltac:(lia))). reflexivity.
Qed.
Lemma deep_filtered_ok h x T f : Reach h -> x < hnext h -> tree_at h x T ->
  exists l, deep_filtered h f x = Ok l /\ NoDup l /\ Subseq l (below_tree T) /\
    (forall y, In y l <-> Below h x y /\ forall z, Anc (view h) z y -> Below h x z -> f z = true).
Proof.
  intros R Hx TA. pose proof (tree_size_le h x T R Hx TA) as Sz. destruct (C32_filter h x T (3 * hnext h) DOWN f R TA ltac:(lia)) as (l0 & l & E0 & E1 & _ & K).
  destruct (K eq_refl) as [Sb K']. destruct (C30_deep_iter h x R Hx) as (T0 & TA0 & K0).
  assert (T0 = T) by (destruct TA, TA0; eapply ltree_unique; eauto; congruence). subst T0.
  destruct (K0 (3 * hnext h) ltac:(lia)) as (_ & E2 & ND & B). rewrite E0 in E2. injection E2 as ->.
  exists l. split; [unfold deep_filtered; change (fun y => nitems (hnode h y)) with (children h); rewrite E1; reflexivity|].
  split; [eapply Subseq_NoDup; eauto|]. split; [exact Sb|]. intros y. rewrite K', B. split; intros [A Q]; (split; [exact A|]); intros z Hz Hb; apply Q; try assumption; apply B; assumption.
Qed.
(** [l] lists the items below x, each once *)
Definition lists_below (h : heap) (x : loc) (l : list loc) : Prop := NoDup l /\ forall y, In y l <-> Below h x y.
Lemma deep_all_lists h x : Reach h -> x < hnext h -> exists l, deep_all h x = Ok l /\ lists_below h x l.
Proof.
  intros R Hx. destruct (ltree_exists _ _ x (wf_forest _ (reach_WF h R)) Hx) as (T & L & E & _). assert (TA : tree_at h x T) by (split; assumption).
  exists (below_tree T). split; [apply deep_all_ok; assumption|]. split.
  - pose proof (tree_ND _ _ _ R TA) as ND. rewrite flatten_cons in ND. inversion ND; assumption.
  - intros y. subst x. apply Below_tree. exact L.
Qed.

(** len(t.deep) is the number of items below t; the order comparisons compare these numbers *)
Theorem C72_len : forall h x, Reach h -> x < hnext h ->
  exists l, lists_below h x l /\ deep_len h x = Ok (length l).
Proof.
  intros h x R Hx. destruct (deep_all_lists h x R Hx) as (l & E & B). exists l. split; [exact B|]. unfold deep_len. rewrite E. reflexivity.
Qed.
Theorem C72_compare : forall h x y, Reach h -> x < hnext h -> y < hnext h ->
  exists a b, deep_len h x = Ok a /\ deep_len h y = Ok b /\
    deep_lt h x y = Ok (a <? b) /\ deep_le h x y = Ok (a <=? b) /\
    deep_gt h x y = Ok (b <? a) /\ deep_ge h x y = Ok (b <=? a).
Proof.
  intros h x y R Hx Hy. destruct (C72_len h x R Hx) as (l & _ & E1). destruct (C72_len h y R Hy) as (m & _ & E2).
  exists (length l), (length m). unfold deep_lt, deep_le, deep_gt, deep_ge, deep_compare. rewrite E1, E2. cbn [rbind]. auto 8.
Qed.
(** filtered_len: hierarchical counting stops below a rejected item *)
Theorem C72_filtered_len : forall h x f, Reach h -> x < hnext h ->
  (exists l, NoDup l /\ (forall y, In y l <-> Below h x y /\ f y = true) /\ deep_filtered_len h x f false = Ok (length l)) /\
  (exists l, NoDup l /\ (forall y, In y l <-> Below h x y /\ forall z, Anc (view h) z y -> Below h x z -> f z = true) /\
     deep_filtered_len h x f true = Ok (length l)).
Proof.
  intros h x f R Hx. split.
  - destruct (deep_all_lists h x R Hx) as (l & E & ND & B). exists (filter f l). split; [apply NoDup_filter; exact ND|].
    split; [intros y; rewrite filter_In, B; reflexivity|]. unfold deep_filtered_len. rewrite E. reflexivity.
  - destruct (ltree_exists _ _ x (wf_forest _ (reach_WF h R)) Hx) as (T & L & E & _). assert (TA : tree_at h x T) by (split; assumption).
    destruct (deep_filtered_ok h x T f R Hx TA) as (l & E1 & ND & _ & B). exists l. split; [exact ND|]. split; [exact B|].
    unfold deep_filtered_len. rewrite E1. reflexivity.
Qed.
Lemma sum_filter (f : loc -> bool) l : list_sum (map (fun i => if f i then 1 else 0) l) = length (filter f l).
Proof.
  induction l as [|a l IH]; [reflexivity|]. cbn [map filter].
  change (list_sum ((if f a then 1 else 0) :: map (fun i => if f i then 1 else 0) l)) with ((if f a then 1 else 0) + list_sum (map (fun i => if f i then 1 else 0) l)).
  rewrite IH. destruct (f a); reflexivity.
Qed.
Lemma drop_to_some f (l : list loc) : (match drop_to f l with Some _ => true | None => false end) = existsb f l.
Proof. induction l as [|a l IH]; [reflexivity|]. cbn. destruct (f a); [reflexivity|exact IH]. Qed.
(** count and [x in t.deep] go by ==, over all levels *)
Theorem C72_count : forall h x item, Reach h -> x < hnext h ->
  exists l, NoDup l /\ (forall y, In y l <-> Below h x y /\ item_eqb h y item = true) /\
    deep_count h x item = Ok (length l) /\
    deep_contains h x item = Ok (0 <? length l).
Proof.
  intros h x item R Hx. destruct (deep_all_lists h x R Hx) as (l & E & ND & B). exists (filter (fun y => item_eqb h y item) l).
  split; [apply NoDup_filter; exact ND|]. split; [intros y; rewrite filter_In, B; reflexivity|].
  unfold deep_count, deep_contains. rewrite E. cbn [rbind]. split.
  - f_equal. rewrite <- sum_filter. f_equal. apply map_ext. intros y. rewrite C39_eq_sym. reflexivity.
  - f_equal. rewrite drop_to_some. clear. induction l as [|a l IH]; [reflexivity|]. cbn. destruct (item_eqb h a item); [reflexivity|exact IH].
Qed.
(** is_in: the very object, over all levels, for histories that do not leave stale parents *)
Lemma parent_view h y : a_parent (view h y) = option_map pl_par (nprt (hnode h y)).
Proof. reflexivity. Qed.
Lemma up_step_parent h y q : up_step h y = Some q -> a_parent (view h y) = Some q.
Proof.
  unfold up_step. rewrite parent_view. destruct (nprt (hnode h y)) as [pl|]; [|discriminate]. cbn. destruct (nitems (hnode h (pl_par pl))); [discriminate|auto].
Qed.
Lemma up_step_child h y q : a_parent (view h y) = Some q -> children h q <> [] -> up_step h y = Some q.
Proof.
  unfold up_step. rewrite parent_view. destruct (nprt (hnode h y)) as [pl|]; cbn; intros H N; [|discriminate]. injection H as ->.
  unfold children, view in N. cbn in N. destruct (nitems (hnode h q)); [congruence|reflexivity].
Qed.
Lemma up_search_sound h x : forall k y, Lev (view h) y k -> forall fuel, k < fuel ->
  exists b, up_search fuel h x (Some y) = Ok b /\ (b = true -> Anc (view h) x y).
Proof.
  induction 1 as [y P|y q k P L IH]; intros fuel Hf; destruct fuel as [|fuel]; try lia; cbn [up_search]; destruct (Nat.eqb_spec y x) as [->|N].
  1,3: exists true; split; [reflexivity|constructor].
  - destruct (up_step h y) as [q|] eqn:U; [apply up_step_parent in U; congruence|]. exists false. split; [destruct fuel; reflexivity|discriminate].
  - destruct (up_step h y) as [q'|] eqn:U.
    + pose proof (up_step_parent _ _ _ U) as P'. assert (q' = q) by congruence. subst q'. destruct (IH fuel ltac:(lia)) as (b & E & K). exists b. split; [exact E|].
      intros Hb. econstructor; [exact P|auto].
    + exists false. split; [destruct fuel; reflexivity|discriminate].
Qed.
Lemma up_search_complete h x : WF h -> forall k y, Lev (view h) y k -> forall fuel, k < fuel -> y = x \/ Below h x y -> up_search fuel h x (Some y) = Ok true.
Proof.
  intros W. pose proof (wf_forest _ W) as F. induction 1 as [y P|y q k P L IH]; intros fuel Hf B; destruct fuel as [|fuel]; try lia; cbn [up_search]; destruct (Nat.eqb_spec y x) as [->|N]; try reflexivity;
    (destruct B as [->|B]; [congruence|]).
  - exfalso. inversion B as [z Hz|z w Bz Hz]; subst; apply (fo_child _ _ F) in Hz; congruence.
  - assert (K : In y (children h q) /\ (q = x \/ Below h x q)).
    { inversion B as [z Hz|z w Bz Hz]; subst; pose proof (fo_child _ _ F _ _ Hz) as P'; rewrite P in P'; injection P' as ->; auto. }
    destruct K as [Hc K]. rewrite (up_step_child h y q P); [apply IH; [lia|exact K]|]. intros E. rewrite E in Hc. destruct Hc.
Qed.
Lemma Anc_Below h x y : NoOrphan (view h) -> Anc (view h) x y -> y = x \/ Below h x y.
Proof.
  intros NO A. induction A as [|y q P A IH]; [left; reflexivity|]. right. pose proof (NO _ _ P) as Hc. destruct IH as [->|B]; [apply below_child; exact Hc|].
  eapply below_step; [exact B|exact Hc].
Qed.
Lemma is_in_gen h x y : Reach h -> y < hnext h -> exists b, deep_is_in h x y = Ok b /\ (Below h x y -> b = true) /\
  (b = true -> exists q, a_parent (view h y) = Some q /\ Anc (view h) x q).
Proof.
  intros R Hy. pose proof (reach_WF h R) as W. pose proof (wf_forest _ W) as F. destruct (Rooted_Lev _ _ (fo_root _ _ F y)) as (k & L).
  pose proof (Lev_bound _ _ _ _ F L Hy) as Hk. unfold deep_is_in. destruct (up_step h y) as [q|] eqn:U.
  - pose proof (up_step_parent _ _ _ U) as P. inversion L as [? P0|? q' k' P' L']; subst; [congruence|]. assert (q' = q) by congruence. subst q'.
    destruct (up_search_sound h x k' q L' (S (hnext h)) ltac:(lia)) as (b & E & K). exists b. split; [exact E|]. split.
    + intros B. assert (K' : q = x \/ Below h x q).
      { inversion B as [z Hz|z w Bz Hz]; subst; pose proof (fo_child _ _ F _ _ Hz) as P2; rewrite P in P2; injection P2 as ->; auto. }
      rewrite (up_search_complete h x W k' q L' (S (hnext h)) ltac:(lia) K') in E. congruence.
    + intros Hb. exists q. auto.
  - exists false. split; [reflexivity|]. split; [|discriminate]. intros B. exfalso. inversion B as [z Hz|z w Bz Hz]; subst; pose proof (fo_child _ _ F _ _ Hz) as P;
      (rewrite (up_step_child _ _ _ P) in U; [discriminate|]); intros E; unfold children in *; rewrite E in Hz; destruct Hz.
Qed.
Theorem C72_is_in_partial : forall h x y, y < hnext h ->
  (Reach h -> Below h x y -> deep_is_in h x y = Ok true) /\
  (Reach1 h -> (deep_is_in h x y = Ok true <-> Below h x y) /\ (deep_is_in h x y = Ok false <-> ~ Below h x y)).
Proof.
  intros h x y Hy. split.
  - intros R B. destruct (is_in_gen h x y R Hy) as (b & E & K & _). rewrite E, (K B). reflexivity.
  - intros R1. pose proof (Reach1_Reach h R1) as R. destruct (is_in_gen h x y R Hy) as (b & E & K & K').
    assert (Q : b = true -> Below h x y).
    { intros Hb. destruct (K' Hb) as (q & P & A). destruct (reach1_WFN h R1) as [_ NO]. pose proof (NO _ _ P) as Hc.
      destruct (Anc_Below h x q NO A) as [->|B]; [apply below_child; exact Hc|eapply below_step; eauto]. }
    rewrite E. split; (split; [intros H; injection H as ->|intros H]).
    + apply Q. reflexivity.
    + rewrite (K H). reflexivity.
    + intros B. specialize (K B). discriminate.
    + destruct b; [exfalso; apply H, Q; reflexivity|reflexivity].
Qed.
(** a removed item whose old parent got new children is still reported *)
Definition stale_ops : list op :=
  [ONew (PStr "r") PNoValue [EArgs (PStr "a") (PInt 1)] None 0; OClear 0 false; ONew (PStr "b") PNoValue [] None 0; OAppend 0 (IItem 2)].
Theorem C72_is_in_refuted : let h := runs stale_ops empty_heap in
  Reach h /\ deep_is_in h 0 1 = Ok true /\ deep_all h 0 = Ok [2] /\ ~ Below h 0 1.
Proof.
  cbv zeta. assert (R : Reach (runs stale_ops empty_heap)) by (apply reach_runs; [constructor|vm_compute; reflexivity]). split; [exact R|].
  assert (E : deep_all (runs stale_ops empty_heap) 0 = Ok [2]) by (vm_compute; reflexivity). split; [vm_compute; reflexivity|]. split; [exact E|].
  intros B. destruct (deep_all_lists _ 0 R ltac:(vm_compute; lia)) as (l & El & _ & K). rewrite E in El. injection El as <-. apply K in B. destruct B as [B|[]]. discriminate B.
Qed.
(** is_tag_in only looks below the first level *)
Theorem C72_is_tag_in_partial : forall h x t, Reach h -> x < hnext h ->
  exists b, deep_is_tag_in h x t = Ok b /\
    (b = true <-> exists q y, Below h x q /\ In y (children h q) /\ tag_of h y = t) /\
    (b = true -> exists y, Below h x y /\ tag_of h y = t).
Proof.
  intros h x t R Hx. destruct (deep_all_lists h x R Hx) as (l & E & ND & B). exists (existsb (fun i => is_tag_in h i t) l).
  split; [unfold deep_is_tag_in; rewrite E; reflexivity|].
  assert (K : existsb (fun i => is_tag_in h i t) l = true <-> exists q y, Below h x q /\ In y (children h q) /\ tag_of h y = t).
  { rewrite existsb_exists. split.
    - intros (q & Hq & Hi). apply (is_tag_in_ok h q t (reach_WF h R)) in Hi as (y & Hy & Ey). exists q, y. split; [apply B; exact Hq|auto].
    - intros (q & y & Hq & Hy & Ey). exists q. split; [apply B; exact Hq|]. apply (is_tag_in_ok h q t (reach_WF h R)). exists y. auto. }
  split; [exact K|]. intros Hb. apply K in Hb as (q & y & Hq & Hy & Ey). exists y. split; [|exact Ey]. eapply below_step; eauto.
Qed.
Theorem C72_is_tag_in_refuted : Reach ex2 /\ In 1 (children ex2 0) /\ tag_of ex2 1 = PStr "a" /\ deep_is_tag_in ex2 0 (PStr "a") = Ok false.
Proof. split; [exact ex2_reach|]. vm_compute. auto. Qed.
Example C72_case : Reach1 ex2 /\ 0 < hnext ex2 /\ deep_len ex2 0 = Ok 7 /\ deep_lt ex2 1 0 = Ok true /\ deep_is_in ex2 1 7 = Ok true /\ deep_is_in ex2 2 7 = Ok false /\
  deep_filtered_len ex2 0 even_odd true = Ok 4 /\ deep_filtered_len ex2 0 even_odd false = Ok 6 /\ deep_count ex2 0 7 = Ok 1 /\ deep_contains ex2 2 7 = Ok false /\
  deep_is_tag_in ex2 0 (PStr "g") = Ok true.
Proof. split; [exact ex2_reach1|]. split; [vm_compute; lia|]. vm_compute. auto 12. Qed.

(** * C73 *)
(** [l] is the pre-order listing of the items below; positions in it *)
Definition from_pos (l : list loc) (start : option loc) (lo : nat) : Prop :=
  match start with None => lo = 0 | Some s => nth_error l lo = Some s end.
Definition to_pos (l : list loc) (stop : option loc) (hi : nat) : Prop :=
  match stop with None => hi = length l | Some s => nth_error l hi = Some s \/ (~ In s l /\ hi = length l) end.
Definition first_hit (h : heap) (l : list loc) (x : loc) (lo hi k : nat) : Prop :=
  lo <= k < hi /\ (exists y, nth_error l k = Some y /\ item_eqb h y x = true) /\
  forall j z, lo <= j < k -> nth_error l j = Some z -> item_eqb h z x = false.
Definition no_hit (h : heap) (l : list loc) (x : loc) (lo hi : nat) : Prop :=
  forall j z, lo <= j < hi -> nth_error l j = Some z -> item_eqb h z x = false.

Lemma search_tail_ok h p x l stop hi lo : NoDup l -> to_pos l stop hi -> lo <= hi ->
  (forall k, first_hit h l x lo hi k -> exists y, nth_error l k = Some y /\ deep_search_tail h p x (option_map DRItem stop) (skipn lo l) = Ok y) /\
  (no_hit h l x lo hi -> deep_search_tail h p x (option_map DRItem stop) (skipn lo l) = Err IndexError).
Proof.
  intros ND S L.
  assert (HiL : hi <= length l).
  { destruct stop as [s|]; cbn [to_pos] in S; [|lia]. destruct S as [S|[_ S]]; [|lia]. assert (nth_error l hi <> None) by congruence. apply nth_error_Some in H. lia. }
  assert (Hstop : forall s y j, stop = Some s -> nth_error l j = Some y -> j < hi -> Nat.eqb y s = false).
  { intros s y j -> Hy Hj. cbn [to_pos] in S. apply Nat.eqb_neq. intros ->. destruct S as [S|[S _]].
    - rewrite NoDup_nth_error in ND. assert (j = hi); [|lia]. apply ND; [apply nth_error_Some|]; congruence.
    - apply S. eapply nth_error_In; eauto. }
  unfold deep_search_tail. destruct stop as [s|]; cbn [option_map].
  - cbn [dresolve rbind]. set (f := fun i => is_loc (Some s) i || item_eqb h i x).
    destruct (drop_to_skip f l (length l) lo ltac:(lia) ltac:(lia)) as [(k & y & Hk & Hy & Fy & Hm & D)|[Hm D]].
    + rewrite D. unfold f in Fy. destruct (Nat.lt_ge_cases k hi) as [Hk'|Hk'].
      * pose proof (Hstop s y k eq_refl Hy Hk') as E. cbn [is_loc] in *. rewrite E in *. cbn [orb] in Fy. split.
        -- intros k0 (Hk0 & (y0 & Hy0 & E0) & M0). assert (k0 = k); [|subst k0; exists y; auto].
           destruct (Nat.lt_trichotomy k k0) as [H|[H|H]]; [|congruence|].
           ++ rewrite (M0 k y ltac:(lia) Hy) in Fy. discriminate.
           ++ specialize (Hm k0 y0 ltac:(lia) Hy0). unfold f in Hm. rewrite E0, orb_true_r in Hm. discriminate.
        -- intros N. rewrite (N k y ltac:(lia) Hy) in Fy. discriminate.
      * split.
        -- intros k0 (Hk0 & (y0 & Hy0 & E0) & M0). specialize (Hm k0 y0 ltac:(lia) Hy0). unfold f in Hm. rewrite E0, orb_true_r in Hm. discriminate.
        -- intros N. destruct S as [S|[_ S]]; [|lia]. assert (k = hi).
           { destruct (Nat.eq_dec k hi); [assumption|]. specialize (Hm hi s ltac:(lia) S). unfold f in Hm. cbn [is_loc] in Hm. rewrite Nat.eqb_refl in Hm. discriminate. }
           subst k. assert (y = s) by congruence. subst y. cbn [is_loc]. rewrite Nat.eqb_refl. reflexivity.
    + rewrite D. split; [|reflexivity]. intros k0 (Hk0 & (y0 & Hy0 & E0) & M0). specialize (Hm k0 y0 ltac:(lia) Hy0). unfold f in Hm. rewrite E0, orb_true_r in Hm. discriminate.
  - cbn [to_pos] in S. subst hi. set (f := fun i => item_eqb h i x).
    destruct (drop_to_skip f l (length l) lo ltac:(lia) ltac:(lia)) as [(k & y & Hk & Hy & Fy & Hm & D)|[Hm D]].
    + rewrite D. unfold f in Fy. split.
      * intros k0 (Hk0 & (y0 & Hy0 & E0) & M0). assert (k0 = k); [|subst k0; exists y; auto].
        destruct (Nat.lt_trichotomy k k0) as [H|[H|H]]; [|congruence|].
        -- rewrite (M0 k y ltac:(lia) Hy) in Fy. discriminate.
        -- specialize (Hm k0 y0 ltac:(lia) Hy0). unfold f in Hm. congruence.
      * intros N. rewrite (N k y ltac:(lia) Hy) in Fy. discriminate.
    + rewrite D. split; [|reflexivity]. intros k0 (Hk0 & (y0 & Hy0 & E0) & M0). specialize (Hm k0 y0 ltac:(lia) Hy0). unfold f in Hm. congruence.
Qed.
Lemma search_ok h p x l start stop lo hi : NoDup l -> from_pos l start lo -> to_pos l stop hi -> lo < hi ->
  (forall k, first_hit h l x lo hi k -> exists y, nth_error l k = Some y /\ deep_search h p x (option_map DRItem start) (option_map DRItem stop) l = Ok y) /\
  (no_hit h l x lo hi -> deep_search h p x (option_map DRItem start) (option_map DRItem stop) l = Err IndexError).
Proof.
  intros ND S1 S2 L. unfold deep_search. destruct start as [s|]; cbn [option_map].
  - cbn [from_pos] in S1. cbn [dresolve rbind].
    destruct (drop_to_skip (is_loc (Some s)) l (length l) 0 ltac:(lia) ltac:(lia)) as [(k & y & Hk & Hy & Fy & Hm & D)|[Hm D]].
    2:{ specialize (Hm lo s ltac:(lia) S1). cbn in Hm. rewrite Nat.eqb_refl in Hm. discriminate. }
    cbn [skipn] in D. rewrite D. cbn in Fy. apply Nat.eqb_eq in Fy. subst y.
    assert (k = lo) by (rewrite NoDup_nth_error in ND; apply ND; [apply nth_error_Some|]; congruence). subst k.
    destruct (item_eqb h s x) eqn:Es.
    + split.
      * intros k (Hk1 & (y & Hy1 & Ey) & M). assert (k = lo); [|subst k; exists s; auto].
        destruct (Nat.eq_dec k lo); [assumption|]. rewrite (M lo s ltac:(lia) S1) in Es. discriminate.
      * intros N. rewrite (N lo s ltac:(lia) S1) in Es. discriminate.
    + destruct (search_tail_ok h p x l stop hi (S lo) ND S2 ltac:(lia)) as [T1 T2]. split.
      * intros k (Hk1 & (y & Hy1 & Ey) & M). apply T1. split.
        -- destruct (Nat.eq_dec k lo); [|lia]. subst k. congruence.
        -- split; [exists y; auto|]. intros j z Hj. apply M. lia.
      * intros N. apply T2. intros j z Hj. apply N. lia.
  - cbn [from_pos] in S1. subst lo. exact (search_tail_ok h p x l stop hi 0 ND S2 ltac:(lia)).
Qed.
Lemma follow_below h T y : ltree (view h) T -> In y (flatten T) -> exists rel, Follow (children h) idx_el (root T) rel y.
Proof.
  intros L Hy. assert (K : exists q, In (q, y) (flatten (path_tree idx_el [] T))).
  { rewrite <- (tmap_snd_path idx_el T []), flatten_tmap in Hy. apply in_map_iff in Hy as ([q z] & E & Hq). cbn in E. subst z. exists q. exact Hq. }
  destruct K as [q Hq]. destruct (path_tree_follow (children h) idx_el T (proj2 (unf_ltree h T) L) [] q y Hq) as (rel & _ & Fo). exists rel. exact Fo.
Qed.
(** deep.index(x, start, stop): the index path (relative to the tree) of the first item from start
    (included) up to stop (excluded), in pre-order, that equals x; IndexError when there is none *)
Theorem C73_index_partial : forall h p x T start stop lo hi, Reach1 h -> p < hnext h -> tree_at h p T -> children h p <> [] ->
  from_pos (below_tree T) start lo -> to_pos (below_tree T) stop hi -> lo < hi ->
  (forall k, first_hit h (below_tree T) x lo hi k -> exists h' path y,
     deep_index p x (option_map DRItem start) (option_map DRItem stop) h = (h', Ok (Some path)) /\
     nth_error (below_tree T) k = Some y /\ by_idx h p path = Ok y /\ same (view h') (view h)) /\
  (no_hit h (below_tree T) x lo hi -> exists h',
     deep_index p x (option_map DRItem start) (option_map DRItem stop) h = (h', Err IndexError) /\ same (view h') (view h)).
Proof.
  intros h p x T start stop lo hi R1 Hp TA NE S1 S2 L. pose proof (Reach1_Reach h R1) as R. pose proof (reach1_WFN h R1) as WN. pose proof (reach_WF h R) as W.
  assert (ND : NoDup (below_tree T)) by (pose proof (tree_ND _ _ _ R TA) as ND; rewrite flatten_cons in ND; inversion ND; assumption).
  destruct (search_ok h p x (below_tree T) start stop lo hi ND S1 S2 L) as [K1 K2].
  pose proof (wf_forest _ W) as F. destruct (Rooted_Lev _ _ (fo_root _ _ F p)) as (kp & Lp). pose proof (Lev_bound _ _ _ _ F Lp Hp) as Hkp.
  destruct (idx_path_pure h WN p kp Lp (S (hnext h)) h ltac:(lia) (ceq_refl h)) as (g & Eg & Cg).
  assert (E0 : forall r, deep_search h p x (option_map DRItem start) (option_map DRItem stop) (below_tree T) = r ->
     deep_index p x (option_map DRItem start) (option_map DRItem stop) h =
     (y <- lift r ;; q <- idx_path (S (hnext h)) y ;; ret (Some (skipn (length (pos_path kp h p)) q))) g).
  { intros r Er. unfold deep_index. rewrite bind_gets. unfold children, view in NE. cbn in NE. destruct (nitems (hnode h p)) as [|c0 r0]; [congruence|].
    rewrite (bind_ok _ _ _ _ _ Eg), (deep_all_ok h p T R Hp TA), bind_lift, Er. reflexivity. }
  split.
  - intros k Hk. destruct (K1 k Hk) as (y & Hy & Es). rewrite (E0 _ Es), bind_lift. destruct TA as [Er HL].
    assert (Hin : In y (flatten T)) by (rewrite flatten_cons; right; eapply nth_error_In; eauto).
    destruct (follow_below h T y HL Hin) as (rel & Fo). rewrite Er in Fo.
    destruct (pos_path_follow h p rel y W Fo kp Lp) as (ky & Ly & Ep).
    assert (Hyn : y < hnext h) by (subst p; eapply ltree_lt; eauto). pose proof (Lev_bound _ _ _ _ F Ly Hyn) as Hky.
    destruct (idx_path_pure h WN y ky Ly (S (hnext h)) g ltac:(lia) Cg) as (g' & Eg' & Cg'). rewrite (bind_ok _ _ _ _ _ Eg'), Ep.
    exists g', rel, y. split; [unfold ret; do 3 f_equal; rewrite skipn_app, Nat.sub_diag, skipn_all2 by lia; reflexivity|].
    split; [exact Hy|]. split; [apply Follow_idx; exact Fo|apply ceq_same; exact Cg'].
  - intros N. specialize (K2 N). rewrite (E0 _ K2). exists g. split; [reflexivity|apply ceq_same; exact Cg].
Qed.
(** start/stop given as a path that addresses one item mean that item *)
Theorem C73_index_paths : forall h p x tg path s start stop, get_single h p tg path = Ok (GItem s) ->
  deep_index p x (Some (DRPath tg path)) stop h = deep_index p x (Some (DRItem s)) stop h /\
  deep_index p x start (Some (DRPath tg path)) h = deep_index p x start (Some (DRItem s)) h.
Proof.
  intros h p x tg path s start stop E.
  assert (T : forall l, deep_search_tail h p x (Some (DRPath tg path)) l = deep_search_tail h p x (Some (DRItem s)) l).
  { intros l. unfold deep_search_tail. cbn [dresolve]. rewrite E. reflexivity. }
  assert (A : forall l, deep_search h p x (Some (DRPath tg path)) stop l = deep_search h p x (Some (DRItem s)) stop l).
  { intros l. unfold deep_search. cbn [dresolve]. rewrite E. reflexivity. }
  assert (B : forall l, deep_search h p x start (Some (DRPath tg path)) l = deep_search h p x start (Some (DRItem s)) l).
  { intros l. unfold deep_search. destruct start as [r|]; [|apply T]. destruct (dresolve h p r) as [o|e]; [|reflexivity]. cbn [rbind].
    destruct (drop_to (is_loc o) l) as [[y rest]|]; [|reflexivity]. rewrite T. reflexivity. }
  unfold deep_index. rewrite !bind_gets. destruct (nitems (hnode h p)) as [|c0 r0]; [split; reflexivity|].
  destruct (idx_path (S (hnext h)) p h) as [g [pre|e]] eqn:Eg; [rewrite !(bind_ok _ _ _ _ _ Eg)|rewrite !(bind_err _ _ _ _ _ Eg); split; reflexivity].
  destruct (deep_all h p) as [l|e]; [rewrite !bind_lift, A, B; split; reflexivity|split; reflexivity].
Qed.
(** a start that is not below the tree: IndexError *)
Theorem C73_index_start_missing : forall h p x s stop T, Reach1 h -> p < hnext h -> tree_at h p T -> children h p <> [] -> ~ In s (below_tree T) ->
  exists h', deep_index p x (Some (DRItem s)) stop h = (h', Err IndexError) /\ same (view h') (view h).
Proof.
  intros h p x s stop T R1 Hp TA NE NI. pose proof (Reach1_Reach h R1) as R. pose proof (reach1_WFN h R1) as WN. pose proof (reach_WF h R) as W.
  pose proof (wf_forest _ W) as F. destruct (Rooted_Lev _ _ (fo_root _ _ F p)) as (kp & Lp). pose proof (Lev_bound _ _ _ _ F Lp Hp) as Hkp.
  destruct (idx_path_pure h WN p kp Lp (S (hnext h)) h ltac:(lia) (ceq_refl h)) as (g & Eg & Cg).
  assert (D : drop_to (is_loc (Some s)) (below_tree T) = None).
  { induction (below_tree T) as [|c l IH]; [reflexivity|]. cbn. destruct (Nat.eqb_spec c s) as [->|]; [exfalso; apply NI; left; reflexivity|]. apply IH. intros H. apply NI. right. exact H. }
  exists g. split; [|apply ceq_same; exact Cg]. unfold deep_index. rewrite bind_gets. unfold children, view in NE. cbn in NE. destruct (nitems (hnode h p)) as [|c0 r0]; [congruence|].
  rewrite (bind_ok _ _ _ _ _ Eg), (deep_all_ok h p T R Hp TA), bind_lift. unfold deep_search. cbn [dresolve rbind]. rewrite D. reflexivity.
Qed.
Theorem C73_index_empty_refuted : Reach1 ex2 /\ children ex2 7 = [] /\ snd (deep_index 7 0 None None ex2) = Ok None.
Proof. split; [exact ex2_reach1|]. vm_compute. auto. Qed.
(** a stop before the start is ignored *)
Theorem C73_index_stop_refuted : Reach1 ex2 /\ snd (deep_index 0 5 (Some (DRItem 4)) (Some (DRItem 3)) ex2) = Ok (Some [1; 0]%Z) /\
  below_tree ex2_tree = [1; 3; 6; 7; 4; 2; 5].
Proof. split; [exact ex2_reach1|]. vm_compute. auto. Qed.
Lemma C73_case1 : snd (deep_index 1 7 None None ex2) = Ok (Some [0; 0; 0]%Z) /\
  snd (deep_index 0 7 (Some (DRItem 3)) (Some (DRPath (TgVal (PInt 1)) [])) ex2) = Ok (Some [0; 0; 0; 0]%Z) /\
  snd (deep_index 0 7 (Some (DRItem 4)) None ex2) = Err IndexError /\ get_single ex2 0 (TgVal (PInt 1)) [] = Ok (GItem 2).
Proof. vm_compute. auto. Qed.
Example C73_case : Reach1 ex2 /\ tree_at ex2 0 ex2_tree /\ children ex2 0 <> [] /\ from_pos (below_tree ex2_tree) (Some 3) 1 /\
  to_pos (below_tree ex2_tree) (Some 2) 5 /\ first_hit ex2 (below_tree ex2_tree) 7 1 5 3.
Proof.
  split; [exact ex2_reach1|]. split; [exact ex2_tree_at|]. split; [vm_compute; discriminate|]. split; [reflexivity|]. split; [left; reflexivity|].
  split; [lia|]. split; [exists 7; vm_compute; auto|]. intros j z Hj Hz. destruct j as [|[|[|j]]]; try lia; cbn in Hz; injection Hz as <-; vm_compute; reflexivity.
Qed.
