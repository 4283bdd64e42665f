(** C90: the dot graph of a tree. *)
From Verif Require Import Base Heap HeapSpec ListLemmas ForestLemmas HeapInv HeapAttach HeapOps HeapOps2 HeapOps3 HeapHoare Tree HeapTree HeapRead HeapOrd HeapHist HeapFlags History Runs
  HeapLink LinkFacts LinkFacts2 LinkLoad LinkSpec DeepSpec PropsA PropsF PropsN SubFacts DotModel.
Import ListNotations.
Local Open Scope list_scope.

(** * Specification *)
Definition nodes_of (l : list stmt) : list (nat * dot_label * colour) := flat_map (fun s => match s with SNode n d c => [(n, d, c)] | SEdge _ _ _ => [] end) l.
Definition edges_of (l : list stmt) : list (nat * nat * bool) := flat_map (fun s => match s with SEdge p c b => [(p, c, b)] | SNode _ _ _ => [] end) l.
(** the item's line: its key, or its tag when it has no parent; value and link if it has them *)
Definition key_label (h : heap) (y : loc) : dot_tag :=
  match parent_of h y with Some p => DKey (tag_of h y) (Z.of_nat (fam_index h p y)) | None => DTag (tag_of h y) end.
Definition label_spec (h : heap) (y : loc) : dot_label :=
  DL (key_label h y) (if pyval_eqb (a_val (view h y)) PNoValue then None else Some (a_val (view h y)))
     (if flag h y 5 then option_map lk_src (a_link (view h y)) else None).
Definition colour_spec (h : heap) (y : loc) : colour :=
  if flag h y 3 then Grey else if flag h y 1 then LightBlue else if flag h y 5 then FlowerBlue else Default.
(** items that can be shown: in the tree of the parent (clear() leaves stale parents), key known (C05), a link
    root has its link and no value *)
Definition showable (h : heap) (y : loc) : Prop :=
  (forall p, parent_of h y = Some p -> In y (children h p) /\ has_tag_idx h y) /\ (flag h y 5 = true -> a_link (view h y) <> None /\ a_val (view h y) = PNoValue).
Definition accept (f : option (loc -> bool)) (y : loc) : bool := match f with Some p => p y | None => true end.

(** * Facts *)
(** only family indexes were refreshed, and they are still good *)
Definition warm (h g : heap) : Prop := ceq h g /\
  forall p l1 y l2, nitems (hnode h p) = l1 ++ y :: l2 -> has_tag_idx h y -> near g y (length (byt (fun z => ntag (hnode h z)) (ntag (hnode h y)) l1)).
Lemma warm_refl h : WF h -> warm h h.
Proof. intros W. split; [apply ceq_refl|]. intros p l1 y l2 E K. apply (known_near h p l1 y l2 (WF_LWF h W) E K). Qed.
Lemma split_unique {A} (x : A) : forall l1 l2 m1 m2, l1 ++ x :: l2 = m1 ++ x :: m2 -> NoDup (l1 ++ x :: l2) -> l1 = m1.
Proof.
  induction l1 as [|a l1 IH]; intros l2 [|c m1] m2 E ND; cbn in E, ND.
  - reflexivity.
  - injection E as E1 E2. subst c. exfalso. apply NoDup_cons_iff in ND as [A0 _]. apply A0. rewrite E2. apply in_elt.
  - injection E as E1 E2. subst a. exfalso. apply NoDup_cons_iff in ND as [A0 _]. apply A0. apply in_elt.
  - injection E as E1 E2. subst c. f_equal. eapply IH; [exact E2|]. inversion ND; assumption.
Qed.
Lemma warm_tag_idx h g p y : WF h -> warm h g -> In y (children h p) -> has_tag_idx h y ->
  exists g', get_tag_idx y g = (g', Ok (TIPair (tag_of h y) (Z.of_nat (fam_index h p y)))) /\ warm h g'.
Proof.
  intros W [Q NA] I K. unfold children in I. change (a_children (view h p)) with (nitems (hnode h p)) in I.
  destruct (in_split y _ I) as (l1 & l2 & El). pose proof (ceq_WF _ _ Q W) as Wg.
  assert (KG : kids_of g p (l1 ++ y :: l2)).
  { split; [rewrite <- El, <- (ceq_items _ _ Q); apply LWF_own, WF_LWF; exact Wg|]. split; [rewrite <- El; apply (WF_nodup h p W)|].
    split; [apply (wf_caches _ Wg)|]. intros z Hz. rewrite <- El in Hz. unfold parent_of. rewrite (ceq_view _ _ Q). apply (fo_child _ _ (wf_forest _ W)). exact Hz. }
  destruct (tag_idx_at g p l1 y l2 KG) as (g1 & E1 & C1).
  { rewrite (ceq_tag _ _ Q), (ceq_byt _ _ _ _ Q). apply (NA p l1 y l2 El K). }
  exists g1. split.
  - rewrite E1, (ceq_tag _ _ Q), (ceq_byt _ _ _ _ Q). unfold fam_index.
    change (with_tag (view h) p (tag_of h y)) with (byt (fun z => ntag (hnode h z)) (ntag (hnode h y)) (nitems (hnode h p))).
    rewrite (number_prefix (fun z => ntag (hnode h z)) (nitems (hnode h p)) y l1 l2 El (WF_nodup h p W)). reflexivity.
  - split; [eapply ceq_trans; [exact Q|]; eapply cached_ceq; [exact C1|eapply cached_caches; exact C1]|].
    intros q m1 z m2 Ez Kz. eapply cached_near; [exact C1| |exact (NA q m1 z m2 Ez Kz)]. intros ->.
    rewrite (ceq_tag _ _ Q), (ceq_byt _ _ _ _ Q). assert (q = p) as ->.
    { pose proof (fo_child _ _ (wf_forest _ W) p y I) as P1. assert (I2 : In y (nitems (hnode h q))) by (rewrite Ez; apply in_elt).
      pose proof (fo_child _ _ (wf_forest _ W) q y I2) as P2. congruence. }
    assert (l1 = m1) as ->; [|reflexivity]. rewrite El in Ez. eapply split_unique; [exact Ez|]. rewrite <- El. apply (WF_nodup h p W).
Qed.
Lemma warm_view h g y : warm h g -> view g y = view h y. Proof. intros [Q _]. apply (ceq_view _ _ Q). Qed.
Lemma build_ok h g y n : WF h -> warm h g -> showable h y ->
  exists g', build_item y n g = (g', Ok (SNode n (label_spec h y) (colour_spec h y))) /\ warm h g'.
Proof.
  intros W Wm [SK SL]. unfold build_item.
  assert (TK : exists g' k, get_tag_idx y g = (g', Ok k) /\ warm h g' /\ dot_tag_of (tag_of h y) k = Ok (key_label h y)).
  { destruct (parent_of h y) as [p|] eqn:EP.
    - destruct (SK p eq_refl) as [I HK].
      destruct (warm_tag_idx h g p y W Wm I HK) as (g' & E & Wm'). exists g', (TIPair (tag_of h y) (Z.of_nat (fam_index h p y))).
      split; [exact E|]. split; [exact Wm'|]. unfold key_label. rewrite EP. reflexivity.
    - exists g, TINone. split; [|split; [exact Wm|unfold key_label; rewrite EP; reflexivity]]. unfold get_tag_idx.
      pose proof (warm_view h g y Wm) as V. pose proof (f_equal a_parent V) as VP. unfold parent_of in EP. rewrite EP in VP. cbn in VP. destruct (nprt (hnode g y)); [discriminate|reflexivity]. }
  destruct TK as (g' & k & E & Wm' & EK). exists g'. split; [|exact Wm']. rewrite (bind_ok _ _ _ _ _ E), bind_gets.
  pose proof (warm_view h g' y Wm') as V.
  assert (V1 : ntag (hnode g' y) = tag_of h y) by exact (f_equal a_tag V). assert (V2 : nval (hnode g' y) = a_val (view h y)) by exact (f_equal a_val V).
  assert (V3 : nflags (hnode g' y) = a_flags (view h y)) by exact (f_equal a_flags V). assert (V4 : nlink (hnode g' y) = a_link (view h y)) by exact (f_equal a_link V).
  rewrite V1, EK, V2, V4. cbn zeta.
  assert (LR : is_link_root g' y = flag h y 5) by (unfold is_link_root; rewrite V3; apply (has_bit _ 5); lia).
  assert (CO : colour_of g' y = colour_spec h y).
  { unfold colour_of, colour_spec. rewrite LR. unfold is_linked. rewrite has_lor_mask, V3. assert (has (a_flags (view h y)) LINKED = flag h y 3) as -> by (apply (has_bit _ 3); lia). assert (has (a_flags (view h y)) READ_ONLY_VALUE = flag h y 1) as -> by (apply (has_bit _ 1); lia). destruct (flag h y 3); [reflexivity|]. rewrite orb_false_r. reflexivity. }
  rewrite LR, CO. unfold label_spec. destruct (flag h y 5) eqn:F5.
  - destruct (SL eq_refl) as [NL ->]. destruct (pyval_eqb_spec PNoValue PNoValue); [|congruence]. cbn [negb]. destruct (a_link (view h y)); [reflexivity|congruence].
  - destruct (pyval_eqb (a_val (view h y)) PNoValue); reflexivity.
Qed.

(** the statements below item number [pn], numbers from [n+1] on *)
Fixpoint draw (h : heap) (pn : nat) (T : tree loc) (n : nat) {struct T} : list stmt :=
  match T with Node y cs =>
    SNode (S n) (label_spec h y) (colour_spec h y) :: SEdge pn (S n) (flag h y 3) ::
    (fix go l m := match l with [] => [] | c :: r => draw h (S n) c m ++ go r (m + length (flatten c)) end) cs (S n)
  end.
Fixpoint draws (h : heap) (pn : nat) (l : list (tree loc)) (m : nat) : list stmt :=
  match l with [] => [] | c :: r => draw h pn c m ++ draws h pn r (m + length (flatten c)) end.
Lemma draw_eq h pn y cs n : draw h pn (Node y cs) n = SNode (S n) (label_spec h y) (colour_spec h y) :: SEdge pn (S n) (flag h y 3) :: draws h (S n) cs (S n).
Proof.
  cbn [draw]. do 2 f_equal. generalize (S n) at 2 4. induction cs as [|c cs IH]; intros m; [reflexivity|]. cbn [draws]. rewrite IH. reflexivity.
Qed.
Definition kids_shown (f : option (loc -> bool)) (l : list loc) : list loc := match f with Some p => filter p l | None => l end.
Lemma shown_filter f l : kids_shown f l = filter (accept f) l.
Proof. destruct f; [reflexivity|]. cbn. induction l as [|a l IH]; [reflexivity|]. cbn. rewrite <- IH. reflexivity. Qed.
Lemma flen cs m : m + fold_right (fun c k => length (flatten c) + k) 0 cs = m + length (flat_map (@flatten loc) cs).
Proof. f_equal. induction cs as [|c cs IH]; [reflexivity|]. cbn. rewrite app_length, IH. reflexivity. Qed.
Lemma loop_draw h rec : WF h -> forall cs pn n g,
  Forall (fun C => forall g m, warm h g -> exists g', (match nitems (hnode h (root C)) with [] => ret (m, []) | _ => rec (root C) m m end) g = (g', Ok (m + length (flat_map (@flatten loc) (kids C)), draws h m (kids C) m)) /\ warm h g') cs ->
  (forall C, In C cs -> showable h (root C)) -> warm h g ->
  exists g', dot_loop rec pn (map root cs) n g = (g', Ok (n + length (flat_map (@flatten loc) cs), draws h pn cs n)) /\ warm h g'.
Proof.
  intros W. induction cs as [|C cs IH]; intros pn n g F SH Wm; [exists g; cbn; rewrite Nat.add_0_r; auto|].
  inversion F as [|? ? FC F']; subst. cbn [map dot_loop].
  destruct (build_ok h g (root C) (S n) W Wm (SH C (or_introl eq_refl))) as (g1 & E1 & Wm1). rewrite (bind_ok _ _ _ _ _ E1), bind_gets.
  assert (EI : nitems (hnode g1 (root C)) = nitems (hnode h (root C))) by exact (f_equal a_children (warm_view h g1 (root C) Wm1)). rewrite EI. cbn zeta.
  destruct (FC g1 (S n) Wm1) as (g2 & E2 & Wm2). rewrite (bind_ok _ _ _ _ _ E2). cbn [fst snd].
  destruct (IH pn (S n + length (flat_map (@flatten loc) (kids C))) g2 F') as (g3 & E3 & Wm3); [intros; apply SH; right; assumption|exact Wm2|].
  rewrite (bind_ok _ _ _ _ _ E3). cbn [fst snd ret]. exists g3. split; [|exact Wm3].
  assert (LL : is_linked g1 (root C) = flag h (root C) 3).
  { unfold is_linked. assert (V3 : nflags (hnode g1 (root C)) = a_flags (view h (root C))) by exact (f_equal a_flags (warm_view h g1 _ Wm1)). rewrite V3. apply (has_bit _ 3). lia. }
  rewrite LL. destruct C as [y ds]. cbn [root kids] in *. cbn [draws]. rewrite draw_eq. cbn [app flat_map flatten length]. rewrite app_length. cbn [length].
  replace (S n + length (flat_map (@flatten loc) ds)) with (n + S (length (flat_map (@flatten loc) ds))) by lia.
  replace (n + S (length (flat_map (@flatten loc) ds)) + length (flat_map (@flatten loc) cs)) with (n + S (length (flat_map (@flatten loc) ds) + length (flat_map (@flatten loc) cs))) by lia. reflexivity.
Qed.
Lemma children_draw h f T : WF h -> ltree (view h) T -> (forall y, In y (flat_map (@flatten loc) (kids (prune (accept f) T))) -> showable h y) -> forall k, height T < k -> forall pn n g, warm h g ->
  exists g', dot_children k f (root T) pn n g = (g', Ok (n + length (flat_map (@flatten loc) (kids (prune (accept f) T))), draws h pn (kids (prune (accept f) T)) n)) /\ warm h g'.
Proof.
  intros W. induction T as [x cs IH] using tree_ind'. intros HT SH k Hk pn n g Wm. destruct k as [|k]; [lia|]. cbn [dot_children root]. rewrite bind_gets.
  assert (EI : nitems (hnode g x) = nitems (hnode h x)) by exact (f_equal a_children (warm_view h g x Wm)). rewrite EI. fold (kids_shown f (nitems (hnode h x))). rewrite shown_filter.
  pose proof HT as HT0. apply ltree_iff in HT as [E FT]. rewrite prune_eq in *. cbn [kids] in *.
  assert (ER : filter (accept f) (nitems (hnode h x)) = map root (map (prune (accept f)) (filter (fun c => accept f (root c)) cs))).
  { change (nitems (hnode h x)) with (a_children (view h x)). rewrite <- E, map_map. rewrite (map_ext (fun c => root (prune (accept f) c)) root) by (intros c; apply root_prune). rewrite filter_map_comm. reflexivity. }
  rewrite ER. apply loop_draw; [exact W| | |exact Wm].
  - rewrite Forall_map, Forall_forall. intros C HC g1 m Wm1. apply filter_In in HC as [HC AC]. rewrite root_prune.
    rewrite Forall_forall in IH, FT.
    assert (SC : forall y, In y (flat_map (@flatten loc) (kids (prune (accept f) C))) -> showable h y).
    { intros y Hy. apply SH. apply in_flat_map. exists (prune (accept f) C). split; [apply in_map; apply filter_In; auto|]. destruct (prune (accept f) C). right. exact Hy. }
    pose proof (height_kid x cs C HC) as HH.
    destruct (nitems (hnode h (root C))) as [|c0 l0] eqn:EN.
    + exists g1. split; [|exact Wm1]. destruct C as [y ds]. cbn [root] in EN. pose proof (FT (Node y ds) HC) as HC'. apply ltree_iff in HC' as [Ey _]. change (nitems (hnode h y)) with (a_children (view h y)) in EN. rewrite EN in Ey. destruct ds; [|discriminate]. cbn. rewrite Nat.add_0_r. reflexivity.
    + apply (IH C HC (FT C HC) SC k); [lia|exact Wm1].
  - intros C HC. apply SH. apply in_flat_map. exists C. split; [exact HC|]. destruct C; left; reflexivity.
Qed.

(** ** what the drawing contains *)
Lemma nodes_app l m : nodes_of (l ++ m) = nodes_of l ++ nodes_of m. Proof. apply flat_map_app. Qed.
Lemma edges_app l m : edges_of (l ++ m) = edges_of l ++ edges_of m. Proof. apply flat_map_app. Qed.
Definition node_line (h : heap) (p : nat * loc) : nat * dot_label * colour := (fst p, label_spec h (snd p), colour_spec h (snd p)).
Lemma combine_app' {A B} (l1 l2 : list A) (m1 m2 : list B) : length l1 = length m1 -> combine (l1 ++ l2) (m1 ++ m2) = combine l1 m1 ++ combine l2 m2.
Proof. revert m1. induction l1 as [|a l1 IH]; intros [|b m1] E; try discriminate; [reflexivity|]. cbn. rewrite IH by (injection E as E; exact E). reflexivity. Qed.
Lemma draw_nodes h T : forall pn n, nodes_of (draw h pn T n) = map (node_line h) (combine (seq (S n) (length (flatten T))) (flatten T)).
Proof.
  induction T as [y cs IH] using tree_ind'. intros pn n. rewrite draw_eq. change (nodes_of (SNode (S n) (label_spec h y) (colour_spec h y) :: SEdge pn (S n) (flag h y 3) :: draws h (S n) cs (S n))) with ((S n, label_spec h y, colour_spec h y) :: nodes_of (draws h (S n) cs (S n))).
  cbn [flatten length seq combine map]. f_equal. generalize (S n) at 1. generalize (S n). clear n.
  induction IH as [|c cs Hc F IHF]; intros n q; [reflexivity|]. cbn [draws flat_map]. rewrite nodes_app, Hc, IHF, app_length, seq_app, combine_app', map_app by (rewrite seq_length; reflexivity). reflexivity.
Qed.
(** an edge joins an item with its parent *)
Definition edge_ok (h : heap) (L : list loc) (e : nat * nat * bool) : Prop :=
  exists q y, nth_error L (fst (fst e)) = Some q /\ nth_error L (snd (fst e)) = Some y /\ parent_of h y = Some q /\ snd e = flag h y 3.
Inductive below_parent (h : heap) : tree loc -> Prop :=
  bp x cs : Forall (fun c => parent_of h (root c) = Some x /\ below_parent h c) cs -> below_parent h (Node x cs).
Lemma prune_below h f T : WF h -> ltree (view h) T -> below_parent h (prune f T).
Proof.
  intros W. induction T as [x cs IH] using tree_ind'. intros HT. rewrite prune_eq. apply ltree_iff in HT as [E F]. constructor. rewrite Forall_map. rewrite Forall_forall in IH. apply Forall_forall. intros c Hc. apply filter_In in Hc as [Hc _].
  rewrite Forall_forall in F. rewrite root_prune. split; [|apply IH; auto]. apply (fo_child _ _ (wf_forest _ W) x). rewrite <- E. apply in_map. exact Hc.
Qed.
Lemma nth_mid {A} (l : list A) x r n : length l = n -> nth_error (l ++ x :: r) n = Some x.
Proof. intros <-. rewrite nth_error_app2, Nat.sub_diag by lia. reflexivity. Qed.
Lemma draws_edges h L cs : Forall (fun T => forall pre post pn n q, L = pre ++ flatten T ++ post -> length pre = S n -> nth_error L pn = Some q -> parent_of h (root T) = Some q -> below_parent h T ->
    Forall (edge_ok h L) (edges_of (draw h pn T n))) cs ->
  forall pre post pn n q, L = pre ++ flat_map (@flatten loc) cs ++ post -> length pre = S n -> nth_error L pn = Some q ->
  Forall (fun c => parent_of h (root c) = Some q /\ below_parent h c) cs -> Forall (edge_ok h L) (edges_of (draws h pn cs n)).
Proof.
  induction 1 as [|c cs Hc F IH]; intros pre post pn n q EL Hn Hq B; [constructor|]. inversion B as [|? ? [B1 B2] B3]; subst cs0 || idtac. cbn [draws]. rewrite edges_app, Forall_app. cbn [flat_map] in EL. rewrite <- app_assoc in EL. split.
  - eapply Hc; eauto.
  - eapply (IH (pre ++ flatten c)); [rewrite <- app_assoc; exact EL|rewrite app_length; lia|exact Hq|assumption].
Qed.
Lemma draw_edges h L T : forall pre post pn n q, L = pre ++ flatten T ++ post -> length pre = S n -> nth_error L pn = Some q -> parent_of h (root T) = Some q -> below_parent h T ->
    Forall (edge_ok h L) (edges_of (draw h pn T n)).
Proof.
  induction T as [y cs IH] using tree_ind'. intros pre post pn n q EL Hn Hq Hp B. rewrite draw_eq.
  change (edges_of (SNode (S n) (label_spec h y) (colour_spec h y) :: SEdge pn (S n) (flag h y 3) :: draws h (S n) cs (S n))) with ((pn, S n, flag h y 3) :: edges_of (draws h (S n) cs (S n))).
  assert (HY : nth_error L (S n) = Some y) by (rewrite EL; apply nth_mid; exact Hn).
  constructor; [exists q, y; auto|]. inversion B as [? ? BB]; subst x cs0 || idtac.
  eapply (draws_edges h L cs IH (pre ++ [y]) post (S n) (S n) y); [rewrite <- app_assoc; exact EL|rewrite app_length; cbn; lia|exact HY|assumption].
Qed.
Lemma draw_targets h T : forall pn n, map (fun e => snd (fst e)) (edges_of (draw h pn T n)) = seq (S n) (length (flatten T)).
Proof.
  induction T as [y cs IH] using tree_ind'. intros pn n. rewrite draw_eq.
  change (edges_of (SNode (S n) (label_spec h y) (colour_spec h y) :: SEdge pn (S n) (flag h y 3) :: draws h (S n) cs (S n))) with ((pn, S n, flag h y 3) :: edges_of (draws h (S n) cs (S n))).
  cbn [flatten length seq map fst snd]. f_equal. generalize (S n) at 1. generalize (S n). clear n.
  induction IH as [|c cs Hc F IHF]; intros n q; [reflexivity|]. cbn [draws flat_map]. rewrite edges_app, map_app, Hc, IHF, app_length, seq_app. reflexivity.
Qed.
Lemma draws_targets h cs : forall pn n, map (fun e => snd (fst e)) (edges_of (draws h pn cs n)) = seq (S n) (length (flat_map (@flatten loc) cs)).
Proof. induction cs as [|c cs IH]; intros pn n; [reflexivity|]. cbn [draws flat_map]. rewrite edges_app, map_app, draw_targets, IH, app_length, seq_app. reflexivity. Qed.
Lemma draws_nodes h cs : forall pn n, nodes_of (draws h pn cs n) = map (node_line h) (combine (seq (S n) (length (flat_map (@flatten loc) cs))) (flat_map (@flatten loc) cs)).
Proof. induction cs as [|c cs IH]; intros pn n; [reflexivity|]. cbn [draws flat_map]. rewrite nodes_app, draw_nodes, IH, app_length, seq_app, combine_app', map_app by (rewrite seq_length; reflexivity). reflexivity. Qed.

(** ** C90 *)
(** the graph of x, with the filter applied to the items below x (a rejected item hides everything below it):
    node number i declares the i-th item in pre-order, every node but the first has exactly one edge, from the
    node of its parent; items are not changed *)
Theorem C90_dot_partial : forall h x T f, Reach h -> tree_at h x T ->
  let L := flatten (prune (accept f) T) in (forall y, In y L -> showable h y) ->
  exists text, (forall n, height T < n -> exists h', dot_renders n f x h = (h', Ok text) /\ forall y, view h' y = view h y) /\
    nodes_of text = map (fun p => (fst p, label_spec h (snd p), colour_spec h (snd p))) (combine (seq 0 (length L)) L) /\
    map (fun e => snd (fst e)) (edges_of text) = seq 1 (length L - 1) /\
    Forall (edge_ok h L) (edges_of text).
Proof.
  intros h x T f R [Er HT] L SH. pose proof (reach_WF h R) as W. destruct T as [x' cs]. cbn [root] in Er. subst x'.
  set (P := prune (accept f) (Node x cs)) in *. assert (EP : P = Node x (kids P)) by (unfold P; rewrite prune_eq; reflexivity).
  assert (EL : L = x :: flat_map (@flatten loc) (kids P)) by (unfold L; rewrite EP; reflexivity).
  exists (SNode 0 (label_spec h x) (colour_spec h x) :: draws h 0 (kids P) 0). split; [|split; [|split]].
  - intros n Hn. unfold dot_renders. destruct (build_ok h h x 0 W (warm_refl h W) (SH x ltac:(rewrite EL; left; reflexivity))) as (g1 & E1 & Wm1). rewrite (bind_ok _ _ _ _ _ E1).
    destruct (children_draw h f (Node x cs) W HT) with (k := n) (pn := 0) (n := 0) (g := g1) as (g2 & E2 & Wm2); [intros y Hy; apply SH; rewrite EL; right; exact Hy|exact Hn|exact Wm1|].
    cbn [root] in E2. rewrite (bind_ok _ _ _ _ _ E2). exists g2. split; [reflexivity|]. intros y. apply warm_view. exact Wm2.
  - rewrite EL. cbn [length seq combine map fst snd]. exact (f_equal (cons (0, label_spec h x, colour_spec h x)) (draws_nodes h (kids P) 0 0)).
  - rewrite EL. cbn [length]. rewrite Nat.sub_0_r || rewrite Nat.sub_succ, Nat.sub_0_r. rewrite <- (draws_targets h (kids P) 0 0). reflexivity.
  - change (edges_of (SNode 0 (label_spec h x) (colour_spec h x) :: draws h 0 (kids P) 0)) with (edges_of (draws h 0 (kids P) 0)).
    pose proof (prune_below h (accept f) (Node x cs) W HT) as B. fold P in B. rewrite EP in B. inversion B as [? ? BB]; subst.
    eapply (draws_edges h L (kids P)) with (pre := [x]) (post := []) (q := x); [|rewrite app_nil_r; exact EL|reflexivity|rewrite EL; reflexivity|exact BB].
    rewrite Forall_forall. intros C _ pre post pn n q. apply draw_edges.
Qed.

(** * Concrete cases *)
Definition showable_b (h : heap) (y : loc) : bool :=
  match parent_of h y with Some p => existsb (Nat.eqb y) (children h p) && known_b h y | None => true end &&
  (negb (flag h y 5) || match a_link (view h y) with Some _ => pyval_eqb (a_val (view h y)) PNoValue | None => false end).
Lemma showable_b_ok h l : forallb (showable_b h) l = true -> forall y, In y l -> showable h y.
Proof.
  intros H y Hy. rewrite forallb_forall in H. specialize (H y Hy). unfold showable_b in H. apply andb_prop in H as [A B]. split.
  - intros p E. rewrite E in A. apply andb_prop in A as [A1 A2]. apply existsb_exists in A1 as (z & Hz & Ez). apply Nat.eqb_eq in Ez. subst z. split; [exact Hz|apply known_b_ok; exact A2].
  - intros E. rewrite E in B. cbn [negb orb] in B. destruct (a_link (view h y)); [|discriminate]. split; [discriminate|]. destruct (pyval_eqb_spec (a_val (view h y)) PNoValue); [assumption|discriminate].
Qed.
Definition dt_ops : list op := ex_ops ++ [OSetValueReadOnly 1; ONew (PStr "l") PNoValue [EArgs (PStr "k") (PInt 3)] (Some 3) 0; OAppend 0 (IItem 7)].
Definition dt_heap : heap := runs dt_ops empty_heap.
Definition dt_tree : tree loc := Node 0 [Node 1 []; Node 2 []; Node 3 [Node 5 []]; Node 4 []; Node 7 [Node 8 []]].
Definition dt_filter : option (loc -> bool) := Some (fun y => negb (Nat.eqb y 3)).
Theorem C90_case : Reach dt_heap /\ tree_at dt_heap 0 dt_tree /\ (forall y, In y (flatten (prune (accept dt_filter) dt_tree)) -> showable dt_heap y) /\
  flatten (prune (accept dt_filter) dt_tree) = [0; 1; 2; 4; 7; 8] /\
  (forall text, snd (dot_renders 5 dt_filter 0 dt_heap) = Ok text ->
     map (fun e => (fst (fst e), snd (fst e))) (edges_of text) = [(0, 1); (0, 2); (0, 3); (0, 4); (4, 5)] /\
     map (fun n => dl_tag (snd (fst n))) (nodes_of text) = [DTag (PStr "root"); DKey (PStr "a") 0; DKey (PStr "b") 0; DKey (PStr "c") 0; DKey (PStr "l") 0; DKey (PStr "k") 0]).
Proof.
  split; [apply reach_runs; [constructor|vm_compute; reflexivity]|]. split; [split; [reflexivity|vm_compute; auto 20]|]. split; [apply showable_b_ok; vm_compute; reflexivity|]. split; [reflexivity|].
  intros text E.
  assert (K : match snd (dot_renders 5 dt_filter 0 dt_heap) with Ok t => map (fun e => (fst (fst e), snd (fst e))) (edges_of t) = [(0, 1); (0, 2); (0, 3); (0, 4); (4, 5)] /\
     map (fun n => dl_tag (snd (fst n))) (nodes_of t) = [DTag (PStr "root"); DKey (PStr "a") 0; DKey (PStr "b") 0; DKey (PStr "c") 0; DKey (PStr "l") 0; DKey (PStr "k") 0] | Err _ => False end) by (vm_compute; auto).
  rewrite E in K. exact K.
Qed.
(** a link root with a value cannot be rendered *)
Definition lv_ops : list op := [ONew (PStr "l") (PInt 5) [] (Some 3) 0].
Theorem C90_link_value_refuted : Reach (runs lv_ops empty_heap) /\ flag (runs lv_ops empty_heap) 0 5 = true /\ a_link (view (runs lv_ops empty_heap) 0) <> None /\
  snd (dot_renders 5 None 0 (runs lv_ops empty_heap)) = Err TypeError.
Proof. split; [apply reach_runs; [constructor|vm_compute; reflexivity]|]. split; [vm_compute; reflexivity|]. split; [vm_compute; discriminate|vm_compute; reflexivity]. Qed.
(** an item whose cached family index is more than 20 off cannot be rendered (tag_idx is a bare number) *)
Theorem C90_key_refuted : Reach (runs far_ops empty_heap) /\ In 60 (children (runs far_ops empty_heap) 0) /\ snd (dot_renders 5 None 60 (runs far_ops empty_heap)) = Err TypeError.
Proof. split; [apply reach_runs; [constructor|vm_compute; reflexivity]|]. split; [vm_compute; do 29 right; left; reflexivity|vm_compute; reflexivity]. Qed.
(** an item taken out with clear() is still shown with its old key (the parent is stale, C20) *)
Definition sp_ops : list op := [ONew (PStr "r") PNoValue [EArgs (PStr "a") (PInt 1)] None 0; OClear 0 false].
Theorem C90_cleared_refuted : Reach (runs sp_ops empty_heap) /\ children (runs sp_ops empty_heap) 0 = [] /\ snd (dot_renders 5 None 1 (runs sp_ops empty_heap)) = Ok [SNode 0 (DL (DKey (PStr "a") 0) (Some (PInt 1)) None) Default].
Proof. split; [apply reach_runs; [constructor|vm_compute; reflexivity]|]. split; vm_compute; reflexivity. Qed.
