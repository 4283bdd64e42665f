(** C88: the difference a - b of two trees. *)
From Coq Require Import List Sorted.
From Verif Require Import Base Heap HeapSpec ListLemmas ForestLemmas HeapInv HeapAttach HeapOps HeapOps2 HeapOps3 Tree HeapTree HeapCopy HeapLink HeapHash HeapMut
  HeapRead HeapExt HeapExt2 HeapSet2 HeapFlags HeapOrd HeapHist History Runs HeapLinkH LinkFacts LinkFacts2 LinkLoad LinkSpec HeapLocal ArithModel SubFacts PropsA PropsB PropsF PropsG PropsM PropsQ PropsN PropsZA.
Import ListNotations.
Local Open Scope string_scope.
Local Open Scope list_scope.

(** * Specification *)
(** child number [k] of [a] has the same key (tag and position among the children with this
    tag) as the child [i] of [b], and is equal to it *)
Definition equal_at (h : heap) (a b : loc) (k : nat) (i : loc) : Prop :=
  exists c, nth_error (children h a) k = Some c /\ tag_of h c = tag_of h i /\ fam_index h a c = fam_index h b i /\ item_eqb h c i = true.
(** [l] without the elements at the positions [ks] *)
Definition without {A} (ks : list nat) (l : list A) : list A :=
  map snd (filter (fun p => negb (existsb (Nat.eqb (fst p)) ks)) (combine (seq 0 (length l)) l)).

Lemma without_ok {A} ks (l : list A) : without ks l = without_from 0 ks l.
Proof.
  unfold without. generalize 0. induction l as [|x l IH]; intros n; [reflexivity|]. cbn [length seq combine filter fst without_from].
  destruct (existsb (Nat.eqb n) ks); cbn [negb map snd]; rewrite IH; reflexivity.
Qed.
Lemma byt_len (f g : loc -> pyval) t : forall l m, map f l = map g m -> length (byt f t l) = length (byt g t m).
Proof.
  induction l as [|x l IH]; intros [|y m] E; try discriminate; [reflexivity|]. cbn in E. injection E as E1 E2.
  rewrite !byt_cons, E1. destruct (pyval_eqb (g y) t); cbn; rewrite (IH m E2); reflexivity.
Qed.

(** ** C88 *)
(** whatever happens, returning or raising: no item that existed before is changed *)
Theorem C88_operands : forall minus f h a b y, Reach h -> y < hnext h -> same_item h (fst (sub_trees minus f a b h)) y.
Proof. intros minus f h a b y R Hy. apply strip_same. apply (sub_frame h minus f a b (reach_WF h R)). exact Hy. Qed.

Section RELABEL.
Variables (h : heap) (r : loc) (t v : pyval).
Let h2 := hmod (hmod h r (set_tag t)) r (set_val v).
Lemma rl_node y : y <> r -> hnode h2 y = hnode h y.
Proof. intros H. unfold h2. rewrite !hmod_other by exact H. reflexivity. Qed.
Lemma rl_r : hnode h2 r = set_val v (set_tag t (hnode h r)).
Proof. unfold h2. rewrite !hmod_same. reflexivity. Qed.
Lemma rl_items y : nitems (hnode h2 y) = nitems (hnode h y).
Proof. destruct (Nat.eq_dec y r) as [->|N]; [rewrite rl_r|rewrite rl_node by exact N]; reflexivity. Qed.
Lemma rl_prt y : nprt (hnode h2 y) = nprt (hnode h y).
Proof. destruct (Nat.eq_dec y r) as [->|N]; [rewrite rl_r|rewrite rl_node by exact N]; reflexivity. Qed.
Lemma rl_flags y : nflags (hnode h2 y) = nflags (hnode h y).
Proof. destruct (Nat.eq_dec y r) as [->|N]; [rewrite rl_r|rewrite rl_node by exact N]; reflexivity. Qed.
Lemma rl_link y : nlink (hnode h2 y) = nlink (hnode h y).
Proof. destruct (Nat.eq_dec y r) as [->|N]; [rewrite rl_r|rewrite rl_node by exact N]; reflexivity. Qed.
Lemma rl_WF : WF h -> nprt (hnode h r) = None -> WF h2.
Proof.
  intros W Pr.
  assert (NC : forall p, ~ In r (nitems (hnode h p))).
  { intros p Hp. pose proof (fo_child _ _ (wf_forest _ W) p r Hp) as E. cbn in E. rewrite Pr in E. discriminate. }
  split.
  - change (hnext h2) with (hnext h). eapply Forest_ext; [|apply (wf_forest _ W)]. intros y.
    change (a_children (view h2 y)) with (nitems (hnode h2 y)). change (a_parent (view h2 y)) with (option_map pl_par (nprt (hnode h2 y))). rewrite rl_items, rl_prt. auto.
  - intros y pl E. rewrite rl_prt in E. apply (wf_caches _ W y pl E).
  - intros p. pose proof (wf_fams _ W p) as G. unfold node_fam_ok in *. rewrite rl_items.
    assert (EB : nbound (hnode h2 p) = nbound (hnode h p) /\ nfams (hnode h2 p) = nfams (hnode h p)) by (destruct (Nat.eq_dec p r) as [->|N]; [rewrite rl_r|rewrite rl_node by exact N]; auto).
    cbn zeta in *. destruct EB as [-> ->]. destruct (nbound (hnode h p)); [exact G| |exact G].
    destruct G as (d & D & F1 & F2). exists d. split; [exact D|]. split; [exact F1|]. intros u. rewrite F2. f_equal.
    apply filter_ext_in. intros y Hy. rewrite rl_node; [reflexivity|]. intros ->. apply (NC p Hy).
  - intros x k E. rewrite rl_link in E. apply (wf_cover _ W x k E).
Qed.
Lemma rl_sane : links_sane h -> links_sane h2.
Proof. intros L y. unfold lnode. rewrite rl_flags, rl_link. apply L. Qed.
End RELABEL.

Lemma nth_map {A B} (f : A -> B) l k y : nth_error (map f l) k = Some y -> exists x, nth_error l k = Some x /\ f x = y.
Proof. rewrite nth_error_map. destruct (nth_error l k) as [x|]; cbn; [|discriminate]. intros E. injection E as <-. eauto. Qed.
Lemma part_root {A B} (f : A -> B) (T : tree A) (l : B) (ls : list (tree B)) : tmap f T = Node l ls -> f (root T) = l /\ map (tmap f) (kids T) = ls.
Proof. destruct T as [x cs]. cbn. intros E. injection E as <- <-. auto. Qed.
Lemma Forall2_without {A B} (P : A -> B -> Prop) ks : forall l m n, Forall2 P l m -> Forall2 P (without_from n ks l) (without_from n ks m).
Proof.
  induction l as [|x l IH]; intros m n F; inversion F; subst; [constructor|]. cbn. destruct (existsb (Nat.eqb n) ks); [auto|constructor; auto].
Qed.
(** every child of [b] has its equal in [a] at the same key, in ascending positions [ks]: the
    result is a copy of [a] without these children *)
Theorem C88_difference_partial : forall minus f h a b ks, ReachL h -> a < hnext h -> b < hnext h -> tree_protected h a = false ->
  (forall i, In i (children h b) -> has_tag_idx h i) -> StronglySorted lt ks -> Forall2 (equal_at h a b) ks (children h b) ->
  exists h' r, sub_trees minus (S f) a b h = (h', Ok r) /\ hnext h <= r /\ parent_of h' r = None /\
    content h' r = (part_minus minus PNoTag (tag_of h a) (tag_of h b), part_minus minus PNoValue (a_val (view h a)) (a_val (view h b)), a_flags (view h a)) /\
    Forall2 (clone_of h h' 0) (without ks (children h a)) (children h' r) /\
    (forall y, y < hnext h -> same_item h h' y).
Proof.
  intros minus f h a b ks RL Ha Hb Pr Hi So Eq. pose proof (ReachL_Reach h RL) as R. pose proof (reach_WF h R) as W. pose proof (reachL_links h RL) as L.
  assert (FR := fun y Hy => C88_operands minus (S f) h a b y R Hy).
  destruct (ltree_exists _ _ _ (wf_forest _ W) Ha) as (T & HT & Er & _).
  destruct (copy_item_ok h W T HT ltac:(rewrite Er; exact Ha)) as (h1 & r0 & E1 & W1 & N1 & Fr1 & K). rewrite Er in E1.
  destruct (copy_item_total h a W L Ha) as (h1' & r & E2). rewrite E1 in E2. injection E2 as <- ->.
  destruct K as (T' & HT' & Er' & Lab & Rng & Par & _).
  assert (L1 : links_sane h1) by (pose proof (lsp_copy_item a h L) as K; rewrite E1 in K; exact K).
  assert (Old : forall y, y < hnext h -> hnode h1 y = hnode h y) by (intros y Hy; pose proof (copy_item_above a h y Hy) as K; rewrite E1 in K; exact K).
  set (t := part_minus minus PNoTag (ntag (hnode h1 a)) (ntag (hnode h1 b))). set (v := part_minus minus PNoValue (nval (hnode h1 a)) (nval (hnode h1 b))).
  set (h2 := hmod (hmod h1 r (set_tag t)) r (set_val v)).
  assert (Pr1 : nprt (hnode h1 r) = None) by (unfold parent_of in Par; cbn in Par; destruct (nprt (hnode h1 r)); [discriminate|reflexivity]).
  pose proof (rl_WF h1 r t v W1 Pr1) as W2. fold h2 in W2. pose proof (rl_sane h1 r t v L1) as L2. fold h2 in L2.
  assert (Rr : hnext h <= r < hnext h1) by (apply Rng; rewrite <- Er'; destruct T'; left; reflexivity).
  assert (Old2 : forall y, y < hnext h -> hnode h2 y = hnode h y) by (intros y Hy; unfold h2; rewrite (rl_node h1 r t v) by lia; apply Old; exact Hy).
  destruct T as [a' cs]. cbn [root] in Er. subst a'. destruct T' as [r' cs']. cbn [root] in Er'. subst r'.
  pose proof HT as HT0. apply ltree_iff in HT as [Ca Fa]. pose proof HT' as HT0'. apply ltree_iff in HT' as [Cr Fr].
  pose proof (f_equal Tree.root Lab) as Lr. pose proof (f_equal kids Lab) as Lk. cbn [tmap Tree.root kids] in Lr, Lk.
  assert (Ir : nitems (hnode h2 r) = map root cs') by (unfold h2; rewrite (rl_items h1 r t v); symmetry; exact Cr).
  assert (ND : NoDup (flatten (Node r cs'))) by (eapply ltree_NoDup; [apply (wf_forest _ W1)|exact HT0']).
  assert (Rn : forall C', In C' cs' -> forall y, In y (flatten C') -> y <> r).
  { intros C' HC y Hy ->. cbn [flatten] in ND. apply NoDup_cons_iff in ND as [A _]. apply A. apply in_flat_map. eauto. }
  assert (Ib : nitems (hnode h2 b) = children h b) by (rewrite Old2 by exact Hb; reflexivity).
  assert (Blt : forall i, In i (children h b) -> i < hnext h) by (intros i I; eapply child_lt; eauto).
  (* corresponding children *)
  assert (CK : forall k C, nth_error cs k = Some C -> exists C', nth_error cs' k = Some C' /\ tmap (label (view h1)) C' = tmap (fun y => cp_label (label (view h) y)) C).
  { intros k C E. assert (nth_error (map (tmap (label (view h1))) cs') k = Some (tmap (fun y => cp_label (label (view h) y)) C)) as X by (rewrite Lk, nth_error_map, E; reflexivity).
    apply nth_map in X. exact X. }
  assert (TVk : forall C C', In C' cs' -> tmap (label (view h1)) C' = tmap (fun y => cp_label (label (view h) y)) C -> tmap (tv h2) C' = tmap (tv h) C).
  { intros C C' HC E. transitivity (tmap (fun l => (x_tag l, x_val l)) (tmap (label (view h1)) C')).
    - rewrite tmap_tmap. apply tmap_ext. intros y Hy. unfold tv, h2. rewrite (rl_node h1 r t v) by (eapply Rn; eauto). reflexivity.
    - rewrite E, tmap_tmap. reflexivity. }
  assert (Tags : map (fun y => ntag (hnode h2 y)) (map root cs') = map (fun y => ntag (hnode h y)) (map root cs)).
  { rewrite !map_map. transitivity (map (fun l : tree xlabel => x_tag (root l)) (map (tmap (label (view h1))) cs')).
    - rewrite map_map. apply map_ext_in. intros C' HC. rewrite root_tmap. unfold h2. rewrite (rl_node h1 r t v) by (eapply Rn; [exact HC|apply in_flatten_root]). reflexivity.
    - rewrite Lk, map_map. apply map_ext. intros C. rewrite root_tmap. reflexivity. }
  (* partners *)
  assert (PA : forall pre l ks', children h b = pre ++ l -> Forall2 (equal_at h a b) ks' l -> partners h2 r pre ks' l).
  { intros pre l ks'. revert pre. revert ks'. induction l as [|i l IHl]; intros ks' pre Ep F; inversion F as [|k i' ks0 l' (c & Hc & Ht & Hf & He) F']; subst; [constructor|].
    constructor; [|apply IHl; [rewrite <- app_assoc; exact Ep|exact F']].
    assert (II : In i (children h b)) by (rewrite Ep; apply in_elt). pose proof (Blt i II) as Li.
    assert (Hc' : nth_error (map root cs) k = Some c) by (rewrite Ca; exact Hc). apply nth_map in Hc' as (C & HC & EC).
    destruct (CK k C HC) as (C' & HC' & EL). exists (root C').
    pose proof (nth_error_In _ _ HC) as InC. pose proof (nth_error_In _ _ HC') as InC'.
    pose proof (TVk C C' InC' EL) as TVC.
    assert (E3 : tv h2 (root C') = tv h c) by (rewrite <- EC, <- (root_tmap (tv h2) C'), <- (root_tmap (tv h) C); exact (f_equal Tree.root TVC)).
    assert (Et : ntag (hnode h2 (root C')) = ntag (hnode h c)) by exact (f_equal fst E3).
    assert (Hh : hashable (ntag (hnode h c)) = true) by (apply tag_hashable; exact RL).
    assert (Clt : c < hnext h) by (eapply (child_lt h a); [exact RL|eapply nth_error_In; exact Hc]).
    split; [rewrite Ir, nth_error_map, HC'; reflexivity|]. split; [rewrite Et, (Old2 i Li); exact Ht|]. split; [rewrite Et; exact Hh|]. split.
    - rewrite Et. rewrite Ir. rewrite (byt_len _ (fun y => ntag (hnode h y)) (ntag (hnode h c)) (firstn k (map root cs')) (firstn k (map root cs))) by (rewrite <- !firstn_map, Tags; reflexivity).
      rewrite (byt_len _ (fun y => ntag (hnode h y)) (ntag (hnode h c)) pre pre).
      2:{ apply map_ext_in. intros y Hy. rewrite Old2; [reflexivity|]. apply Blt. rewrite Ep. apply in_app_iff. auto. }
      transitivity (fam_index h a c); [rewrite Ca, (fam_index_pos h a c k W Hc); reflexivity|]. rewrite Hf. unfold fam_index.
      change (with_tag (view h) b (tag_of h i)) with (byt (fun y => ntag (hnode h y)) (ntag (hnode h i)) (children h b)).
      replace (ntag (hnode h c)) with (ntag (hnode h i)) by (symmetry; exact Ht).
      apply (number_prefix (fun y => ntag (hnode h y)) (children h b) i pre l Ep). apply (WF_nodup h b W).
    - destruct (ltree_exists _ _ _ (wf_forest _ W) Li) as (U & HU & EU & _).
      rewrite Forall_forall in Fa, Fr.
      assert (HU2 : ltree (view h2) U).
      { eapply ltree_frame; [|exact HU]. intros y Hy. change (a_children (view h2 y)) with (nitems (hnode h2 y)). rewrite Old2; [reflexivity|].
        eapply ltree_lt; [apply (wf_forest _ W)|exact HU|rewrite EU; exact Li|exact Hy]. }
      assert (HC2 : ltree (view h2) C').
      { eapply ltree_frame; [|apply Fr; exact InC']. intros y Hy. change (a_children (view h2 y)) with (nitems (hnode h2 y)). unfold h2. rewrite (rl_items h1 r t v). reflexivity. }
      assert (N2 : hnext h2 = hnext h1) by reflexivity.
      assert (LC : root C' < hnext h2) by (rewrite N2; apply Rng; right; apply in_flat_map; exists C'; split; [exact InC'|apply in_flatten_root]).
      rewrite <- EU. rewrite (item_eqb_tree h2 C' U W2 L2 HC2 HU2 LC) by (rewrite EU, N2; lia).
      rewrite TVC. rewrite (tmap_ext (tv h2) (tv h) U).
      2:{ intros y Hy. unfold tv. rewrite Old2; [reflexivity|]. eapply ltree_lt; [apply (wf_forest _ W)|exact HU|rewrite EU; exact Li|exact Hy]. }
      rewrite <- (item_eqb_tree h C U W L (Fa C InC) HU) by (rewrite ?EC, ?EU; assumption). rewrite EC, EU. exact He. }
  destruct (loop_ok h2 r b (sub_trees minus f) W2 L2 (children h b) [] ks [] h2 (ceq_refl h2)) as (g & Eg & Qg).
  { intros l1 y l2 E. rewrite Ib in E. assert (Iy : In y (children h b)) by (rewrite E; apply in_elt).
    pose proof (known_near h b l1 y l2 (WF_LWF h W) E (Hi y Iy)) as NR.
    intros pl Epl. rewrite (Old2 y (Blt y Iy)) in *. rewrite (byt_len _ (fun z => ntag (hnode h z)) (ntag (hnode h y)) l1 l1).
    - apply (NR pl Epl).
    - apply map_ext_in. intros z Hz. rewrite Old2; [reflexivity|]. apply Blt. rewrite E. apply in_app_iff. auto. }
  { exact Ib. }
  { apply (PA [] (children h b) ks eq_refl Eq). }
  pose proof (ceq_WF _ _ Qg W2) as Wg.
  assert (Fl : nflags (hnode h2 r) = a_flags (view h a)).
  { unfold h2. rewrite (rl_flags h1 r t v). transitivity (x_flags (label (view h1) r)); [reflexivity|]. rewrite Lr. cbn.
    pose proof (reach_flags h R a) as M. unfold fnode, in_mask in M. rewrite M. destruct (has (nflags (hnode h a)) LINK_ROOT) eqn:EL; [rewrite lor_has by assumption|]; reflexivity. }
  destruct (del_loop_ok r ks g Wg) as (h' & E' & W' & N' & V' & O').
  { unfold tree_protected. rewrite (ceq_flags _ _ Qg), Fl. exact Pr. }
  { exact So. }
  { intros j J. rewrite (ceq_items _ _ Qg), Ir, map_length. assert (length cs' = length cs) as -> by (pose proof (f_equal (@length _) Lk) as X; rewrite !map_length in X; exact X).
    assert (exists i, equal_at h a b j i) as (i & c & Hc & _).
    { clear - Eq J. induction Eq as [|k i ks l P F IH]; [destruct J|]. destruct J as [<-|J]; eauto. }
    rewrite <- (map_length root cs), Ca. apply nth_error_Some. unfold children in Hc. rewrite Hc. discriminate. }
  assert (Run : sub_trees minus (S f) a b h = (h', Ok r)).
  { cbn [sub_trees]. rewrite (bind_ok _ _ _ _ _ E1), bind_gets, !bind_upd, bind_gets. fold t v h2. rewrite Ib.
    cbn [app] in Eg. rewrite (bind_ok _ _ _ _ _ Eg), (bind_ok _ _ _ _ _ E'). reflexivity. }
  rewrite Run in FR. cbn [fst] in FR.
  exists h', r. split; [exact Run|]. split; [lia|].
  assert (Vr : view h' r = a_set_children (without_from 0 ks (map root cs')) (view h2 r)) by (rewrite V', (ceq_items _ _ Qg), Ir, (ceq_view _ _ Qg); reflexivity).
  split; [unfold parent_of; rewrite Vr; change (option_map pl_par (nprt (hnode h2 r)) = None); unfold h2; rewrite (rl_prt h1 r t v), Pr1; reflexivity|].
  split.
  { unfold content, tag_of. rewrite Vr. cbn [a_tag a_val a_flags a_set_children].
    change (a_flags (view h2 r)) with (nflags (hnode h2 r)). rewrite Fl.
    change (a_tag (view h2 r)) with (ntag (hnode h2 r)). change (a_val (view h2 r)) with (nval (hnode h2 r)). unfold h2. rewrite (rl_r h1 r t v).
    unfold t, v. cbn [ntag nval set_val set_tag]. rewrite (Old a Ha), (Old b Hb). reflexivity. }
  split; [|exact FR].
  assert (children h' r = without_from 0 ks (map root cs')) as -> by exact (f_equal a_children Vr).
  rewrite without_ok. apply Forall2_without. change (children h a) with (a_children (view h a)). rewrite <- Ca.
  assert (G : forall ds ds', (forall C', In C' ds' -> In C' cs') -> Forall (ltree (view h)) ds -> map (tmap (label (view h1))) ds' = map (tmap (fun y => cp_label (label (view h) y))) ds ->
    Forall2 (clone_of h h' 0) (map root ds) (map root ds')).
  { induction ds as [|C ds IHd]; intros [|C' ds'] Sub FA E; try discriminate; [constructor|]. pose proof (f_equal (fun l => hd (tmap (label (view h1)) C') l) E) as EC. pose proof (f_equal (@tl _) E) as Ed. cbn [map hd tl] in EC, Ed.
    inversion FA as [|? ? FC FD]; subst. cbn [map]. constructor; [|apply IHd; auto; intros; apply Sub; right; assumption].
    assert (InC' : In C' cs') by (apply Sub; left; reflexivity).
    assert (Vn : forall y, In y (flatten C') -> a_children (view h' y) = a_children (view h1 y) /\ label (view h') y = label (view h1) y /\ a_link (view h' y) = a_link (view h1 y)).
    { intros y Hy. pose proof (Rn C' InC' y Hy) as Ny. destruct (O' y Ny) as (A1 & A2 & A3 & A4 & A5).
      assert (Vg : view g y = view h1 y) by (rewrite (ceq_view _ _ Qg); unfold view, h2; rewrite (rl_node h1 r t v) by exact Ny; reflexivity).
      rewrite Vg in *. unfold label. rewrite A1, A2, A3, A4, A5. auto. }
    exists C, C'. split; [split; [reflexivity|exact FC]|]. split; [split; [reflexivity|]|].
    { eapply ltree_frame; [|rewrite Forall_forall in Fr; apply Fr; exact InC']. intros y Hy. symmetry. apply (Vn y Hy). }
    assert (EL : tmap (label (view h')) C' = tmap (fun y => cp_label (label (view h) y)) C).
    { rewrite <- EC. apply tmap_ext. intros y Hy. apply (Vn y Hy). }
    split; [|split].
    - change (content h') with (fun y => (fun l => (x_tag l, x_val l, x_flags l)) (label (view h') y)). rewrite <- (tmap_tmap (label (view h')) (fun l => (x_tag l, x_val l, x_flags l))), EL, tmap_tmap.
      apply tmap_ext. intros y _. unfold cp_label, label, tag_of. cbn. rewrite Z.lor_0_r.
      pose proof (reach_flags h R y) as M. unfold fnode, in_mask in M. rewrite M. destruct (has (nflags (hnode h y)) LINK_ROOT) eqn:EH; [rewrite lor_has by assumption|]; reflexivity.
    - change (fun y => option_map lk_src (a_link (view h' y))) with (fun y => x_src (label (view h') y)). rewrite <- (tmap_tmap (label (view h')) x_src), EL, tmap_tmap.
      apply tmap_ext. intros y _. unfold cp_label. cbn [x_src x_flags label]. unfold flag. change LINK_ROOT with (2^5)%Z. rewrite has_bit by lia. reflexivity.
    - intros y Hy. apply Rng. right. apply in_flat_map. eauto. }
  apply G; auto.
Qed.

(** tag and value of the difference: equal parts vanish, else Python's difference if there is one; else a text loses
    every occurrence of the other text; else the part is unchanged *)
Inductive Removed (o : string) : string -> string -> Prop :=
| Rm_none s : (forall p q, s <> p ++ o ++ q)%string -> Removed o s s
| Rm_first s p q r : s = (p ++ o ++ q)%string -> (forall p' q', s = (p' ++ o ++ q')%string -> String.length p <= String.length p') ->
    Removed o q r -> Removed o s (p ++ r).
Lemma prefix_iff o : forall s, prefix o s = true <-> exists q, s = (o ++ q)%string.
Proof.
  induction o as [|c o IH]; intros s; [destruct s; cbn; split; eauto|]. destruct s as [|d s]; cbn; [split; [discriminate|intros (q & E); discriminate]|].
  destruct (Ascii.ascii_dec c d) as [->|N]; [rewrite IH; split; intros (q & E); exists q; [rewrite E; reflexivity|injection E as ->; reflexivity]|].
  split; [discriminate|]. intros (q & E). injection E as E _. congruence.
Qed.
Lemma skip_app o p q : str_without o (p ++ q) (String.length p) = str_without o q 0.
Proof. induction p as [|c p IH]; [reflexivity|]. cbn. exact IH. Qed.
Lemma append_length (p q : string) : String.length (p ++ q) = String.length p + String.length q.
Proof. induction p as [|c p IH]; [reflexivity|]. cbn. rewrite IH. reflexivity. Qed.
Lemma str_removed o : o <> ""%string -> forall n s, String.length s <= n -> Removed o s (str_without o s 0).
Proof.
  intros No. induction n as [|n IH]; intros s Hn.
  - destruct s; [|cbn in Hn; lia]. cbn. constructor. intros p q E. destruct p; [destruct o; [congruence|discriminate]|discriminate].
  - destruct s as [|c s]; [apply IH; cbn; lia|]. destruct o as [|d o']; [congruence|]. set (o := String d o') in *.
    assert (EQ : str_without o (String c s) 0 = if prefix o (String c s) then str_without o s (String.length o') else String c (str_without o s 0)) by reflexivity.
    rewrite EQ. destruct (prefix o (String c s)) eqn:P.
    + apply prefix_iff in P as (q & E). change "" with EmptyString. unfold o in E. cbn in E. injection E as <- ->. rewrite skip_app.
      change (str_without o q 0) with ("" ++ str_without o q 0)%string. apply Rm_first with (q := q); [reflexivity|intros; cbn; lia|]. apply IH.
      cbn in Hn. rewrite append_length in Hn. lia.
    + assert (NP : forall q, String c s <> (o ++ q)%string) by (intros q E; assert (prefix o (String c s) = true) by (apply prefix_iff; eauto); congruence).
      assert (Hs : String.length s <= n) by (cbn in Hn; lia). pose proof (IH s Hs) as K.
      remember (str_without o s 0) as r eqn:Er. clear Er IH EQ P. revert NP. destruct K as [s No'|s p q r E Mi K]; intros NP.
      * constructor. intros p q E. destruct p as [|e p]; [apply (NP q E)|]. cbn in E. injection E as _ E. apply (No' p q E).
      * change (String c (p ++ r)) with (String c p ++ r)%string. apply Rm_first with (q := q); [cbn; rewrite E; reflexivity| |exact K].
        intros p' q' E'. destruct p' as [|e p']; [destruct (NP q' E')|]. cbn in E'. injection E' as _ E'. cbn. specialize (Mi p' q' E'). lia.
Qed.
Theorem C88_parts : forall (minus : pyval -> pyval -> option pyval) gone v w,
  (v = w -> part_minus minus gone v w = gone) /\
  (v <> w -> forall u, minus v w = Some u -> part_minus minus gone v w = u) /\
  (v <> w -> minus v w = None ->
     (forall s o, v = PStr s -> w = PStr o -> exists r, part_minus minus gone v w = PStr r /\ (o = ""%string -> r = s) /\ (o <> ""%string -> Removed o s r)) /\
     (forall s o, v = PBytes s -> w = PBytes o -> exists r, part_minus minus gone v w = PBytes r /\ (o = ""%string -> r = s) /\ (o <> ""%string -> Removed o s r)) /\
     ((forall s o, v = PStr s -> w = PStr o -> False) -> (forall s o, v = PBytes s -> w = PBytes o -> False) -> part_minus minus gone v w = v)).
Proof.
  intros minus gone v w. unfold part_minus. destruct (pyval_eqb_spec v w) as [E|N]; (split; [intros ?; try reflexivity; congruence|]; split; [intros X u Eu; try congruence; rewrite Eu; reflexivity|]).
  - congruence.
  - intros _ Mi. rewrite Mi. split; [|split].
    + intros s o -> ->. eexists. split; [reflexivity|]. split; [intros ->; destruct s; reflexivity|]. intros No. apply (str_removed o No (String.length s)). lia.
    + intros s o -> ->. eexists. split; [reflexivity|]. split; [intros ->; destruct s; reflexivity|]. intros No. apply (str_removed o No (String.length s)). lia.
    + intros A B. destruct v; try reflexivity; destruct w; try reflexivity; exfalso; eauto.
Qed.

Lemma seq_sorted n : forall m, StronglySorted lt (seq m n).
Proof.
  induction n as [|n IH]; intros m; [constructor|]. cbn. constructor; [apply IH|]. rewrite Forall_forall. intros x Hx. apply in_seq in Hx. lia.
Qed.
Lemma without_all {A} (l : list A) : forall n ks, (forall j, n <= j < n + length l -> In j ks) -> without_from n ks l = [].
Proof.
  induction l as [|x l IH]; intros n ks H; [reflexivity|]. cbn [without_from]. assert (existsb (Nat.eqb n) ks = true) as ->.
  { apply existsb_exists. exists n. split; [apply H; cbn; lia|apply Nat.eqb_refl]. }
  apply IH. intros j J. apply H. cbn. lia.
Qed.
(** a - a has no children, tag or value *)
Theorem C88_self : forall minus f h a, ReachL h -> a < hnext h -> tree_protected h a = false -> (forall i, In i (children h a) -> has_tag_idx h i) ->
  exists h' r, sub_trees minus (S f) a a h = (h', Ok r) /\ hnext h <= r /\ parent_of h' r = None /\
    content h' r = (PNoTag, PNoValue, a_flags (view h a)) /\ children h' r = [].
Proof.
  intros minus f h a RL Ha Pr Hi. pose proof (ReachL_Reach h RL) as R. pose proof (reach_WF h R) as W. pose proof (reachL_links h RL) as L.
  destruct (C88_difference_partial minus f h a a (seq 0 (length (children h a))) RL Ha Ha Pr Hi (seq_sorted _ 0)) as (h' & r & E & Q1 & Q2 & Q3 & Q4 & _).
  - assert (X : forall l pre, children h a = pre ++ l -> Forall2 (equal_at h a a) (seq (length pre) (length l)) l).
    { induction l as [|i l IH]; intros pre Ep; [constructor|]. cbn [length seq]. constructor.
      - exists i. assert (Hn : nth_error (children h a) (length pre) = Some i) by (rewrite Ep, nth_error_app2, Nat.sub_diag by lia; reflexivity).
        split; [exact Hn|]. split; [reflexivity|]. split; [reflexivity|].
        assert (Li : i < hnext h) by (eapply child_lt; [exact RL|eapply nth_error_In; exact Hn]).
        destruct (ltree_exists _ _ _ (wf_forest _ W) Li) as (U & HU & EU & _). rewrite <- EU.
        rewrite (item_eqb_tree h U U W L HU HU) by (rewrite EU; exact Li). unfold teqb. rewrite zipv_refl, Nat.eqb_refl.
        destruct (pyval_eqb_spec (fst (Tree.root (tmap (tv h) U))) (fst (Tree.root (tmap (tv h) U)))); [reflexivity|congruence].
      - replace (S (length pre)) with (length (pre ++ [i])) by (rewrite app_length; cbn; lia). apply IH. rewrite <- app_assoc. exact Ep. }
    apply (X (children h a) [] eq_refl).
  - exists h', r. split; [exact E|]. split; [exact Q1|]. split; [exact Q2|]. split.
    + rewrite Q3. unfold part_minus. destruct (pyval_eqb_spec (tag_of h a) (tag_of h a)); [|congruence]. destruct (pyval_eqb_spec (a_val (view h a)) (a_val (view h a))); [reflexivity|congruence].
    + rewrite without_ok, without_all in Q4 by (intros j J; apply in_seq; lia). inversion Q4. reflexivity.
Qed.

(** * Concrete cases *)
(** integers subtract, everything else raises *)
Definition py_minus (v w : pyval) : option pyval := match v, w with PInt a, PInt b => Some (PInt (a - b)) | _, _ => None end.
(** 0 = r[x1 y2 x3 z4], 5 = s[x1 z4] 8 = [y2 x1], 11 = [q], 13 = [x9], 15 = a protected tree, 17 = [x9 x9] *)
Definition su_ops : list op :=
  [ ONew (PStr "r.s") (PInt 10) [EArgs (PStr "x") (PInt 1); EArgs (PStr "y") (PInt 2); EArgs (PStr "x") (PInt 3); EArgs (PStr "z") (PInt 4)] None 0;
    ONew (PStr "s") (PInt 3) [EArgs (PStr "x") (PInt 1); EArgs (PStr "z") (PInt 4)] None 0;
    ONew (PStr "s") (PInt 3) [EArgs (PStr "y") (PInt 2); EArgs (PStr "x") (PInt 1)] None 0;
    ONew (PStr "s") (PInt 3) [EArgs (PStr "q") (PInt 1)] None 0;
    ONew (PStr "s") (PInt 3) [EArgs (PStr "x") (PInt 9)] None 0;
    ONew (PStr "p") (PInt 10) [EArgs (PStr "x") (PInt 1)] None 0; OSetTreeReadOnly 15;
    ONew (PStr "s") (PInt 3) [EArgs (PStr "x") (PInt 9); EArgs (PStr "x") (PInt 9)] None 0 ].
Definition su_heap : heap := runs su_ops empty_heap.
Lemma su_reach : ReachL su_heap.
Proof. apply reachL_runs; [constructor|vm_compute; reflexivity|reflexivity]. Qed.
Definition kid_values (h : heap) (r : loc) : list (pyval * pyval) := map (fun c => (tag_of h c, a_val (view h c))) (children h r).
Lemma su_equal k i c : nth_error (children su_heap 0) k = Some c -> tag_of su_heap c = tag_of su_heap i -> fam_index su_heap 0 c = fam_index su_heap 5 i -> item_eqb su_heap c i = true -> equal_at su_heap 0 5 k i.
Proof. intros. exists c. auto. Qed.
Theorem C88_case : ReachL su_heap /\ tree_protected su_heap 0 = false /\ (forall i, In i (children su_heap 5) -> has_tag_idx su_heap i) /\
  StronglySorted lt [0; 3] /\ Forall2 (equal_at su_heap 0 5) [0; 3] (children su_heap 5) /\
  (exists r, snd (sub_trees py_minus 3 0 5 su_heap) = Ok r /\ kid_values (fst (sub_trees py_minus 3 0 5 su_heap)) r = [(PStr "y", PInt 2); (PStr "x", PInt 3)] /\
     content (fst (sub_trees py_minus 3 0 5 su_heap)) r = (PStr "r.", PInt 7, 0%Z)).
Proof.
  split; [exact su_reach|]. split; [vm_compute; reflexivity|]. split.
  { intros i I. assert (E : children su_heap 5 = [6; 7]) by (vm_compute; reflexivity). rewrite E in I. apply known_b_ok.
    destruct I as [<-|[<-|[]]]; vm_compute; reflexivity. }
  split; [repeat constructor|]. split.
  { assert (E : children su_heap 5 = [6; 7]) by (vm_compute; reflexivity). rewrite E. constructor; [|constructor; [|constructor]];
    [apply (su_equal _ _ 1)|apply (su_equal _ _ 4)]; vm_compute; reflexivity. }
  exists 20. split; [vm_compute; reflexivity|]. split; vm_compute; reflexivity.
Qed.
(** equal children in another order: wrong ones are deleted *)
Theorem C88_order_refuted : ReachL su_heap /\ kid_values su_heap 0 = [(PStr "x", PInt 1); (PStr "y", PInt 2); (PStr "x", PInt 3); (PStr "z", PInt 4)] /\
  kid_values su_heap 8 = [(PStr "y", PInt 2); (PStr "x", PInt 1)] /\
  exists r, snd (sub_trees py_minus 3 0 8 su_heap) = Ok r /\ kid_values (fst (sub_trees py_minus 3 0 8 su_heap)) r = [(PStr "y", PInt 2); (PStr "z", PInt 4)].
Proof.
  split; [exact su_reach|]. split; [vm_compute; reflexivity|]. split; [vm_compute; reflexivity|]. exists 20. split; vm_compute; reflexivity.
Qed.
(** a child of b that a does not have: KeyError *)
Theorem C88_missing_refuted : ReachL su_heap /\ tree_protected su_heap 0 = false /\ kid_values su_heap 11 = [(PStr "q", PInt 1)] /\ snd (sub_trees py_minus 3 0 11 su_heap) = Err KeyError.
Proof. split; [exact su_reach|]. split; [vm_compute; reflexivity|]. split; vm_compute; reflexivity. Qed.
(** a child with another value: it stays, with the difference of the values, but it loses its tag *)
Theorem C88_changed_refuted : ReachL su_heap /\ kid_values su_heap 13 = [(PStr "x", PInt 9)] /\ 
  exists r, snd (sub_trees py_minus 3 0 13 su_heap) = Ok r /\ kid_values (fst (sub_trees py_minus 3 0 13 su_heap)) r = [(PNoTag, PInt (-8)); (PStr "y", PInt 2); (PStr "x", PInt 3); (PStr "z", PInt 4)].
Proof. split; [exact su_reach|]. split; [vm_compute; reflexivity|]. exists 20. split; vm_compute; reflexivity. Qed.
(** a protected a: the copy is protected too, nothing can be deleted *)
Theorem C88_protected_refuted : ReachL su_heap /\ tree_protected su_heap 15 = true /\ snd (sub_trees py_minus 3 15 15 su_heap) = Err PermissionError.
Proof. split; [exact su_reach|]. split; vm_compute; reflexivity. Qed.
(** two changed children with one tag: the first one loses the tag, the second one is not found any more *)
Theorem C88_changed_twice_refuted : ReachL su_heap /\ kid_values su_heap 17 = [(PStr "x", PInt 9); (PStr "x", PInt 9)] /\ snd (sub_trees py_minus 3 0 17 su_heap) = Err IndexError.
Proof. split; [exact su_reach|]. split; vm_compute; reflexivity. Qed.
