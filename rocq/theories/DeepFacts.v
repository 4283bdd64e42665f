(** Tree and path facts used to state the properties of the in-depth iterators. *)
From Coq Require Import Sorting.Permutation.
From Verif Require Import Base Heap HeapSpec ListLemmas ForestLemmas HeapInv HeapAttach HeapOps HeapOps2 HeapOps3 HeapHoare Tree HeapTree HeapCopy HeapMut HeapExt2 HeapOrd2 HeapHash HeapRead HeapRead2 Deep DeepSpec DeepProofs DeepPaths DeepInst DeepSib DeepSibProofs DeepLevels DeepMinus.

(** l is obtained from m by leaving elements out *)
Inductive Subseq {A} : list A -> list A -> Prop :=
| sub_nil : Subseq [] []
| sub_take a l m : Subseq l m -> Subseq (a :: l) (a :: m)
| sub_skip a l m : Subseq l m -> Subseq l (a :: m).
Lemma Subseq_refl {A} (l : list A) : Subseq l l. Proof. induction l; constructor; assumption. Qed.
Lemma Subseq_nil {A} (l : list A) : Subseq [] l. Proof. induction l; constructor; assumption. Qed.
Lemma Subseq_app {A} (a b c d : list A) : Subseq a b -> Subseq c d -> Subseq (a ++ c) (b ++ d).
Proof. induction 1; cbn; intros; [assumption|constructor; auto|constructor; auto]. Qed.
Lemma Subseq_in {A} (l m : list A) y : Subseq l m -> In y l -> In y m.
Proof. induction 1; cbn; [auto| |]; intuition. Qed.
Lemma Subseq_filter {A} (p : A -> bool) l : Subseq (filter p l) l.
Proof. induction l as [|a l IH]; cbn; [constructor|]. destruct (p a); constructor; exact IH. Qed.
Lemma Subseq_NoDup {A} (l m : list A) : Subseq l m -> NoDup m -> NoDup l.
Proof. induction 1; intros N; [constructor| |]; inversion N; subst; auto. constructor; auto. intros H'. eapply Subseq_in in H'; eauto. Qed.

Lemma flatten_prune_sub {A} f (T : tree A) : Subseq (flatten (prune f T)) (flatten T).
Proof.
  induction T as [a cs IH] using tree_ind'. rewrite prune_eq. cbn. constructor. rewrite flat_map_map, flat_map_filter.
  induction IH as [|c cs Hc _ IHcs]; cbn; [constructor|]. apply Subseq_app; [|exact IHcs]. destruct (f (root c)); [exact Hc|apply Subseq_nil].
Qed.
Lemma postorder_prune_sub {A} f (T : tree A) : Subseq (postorder (prune f T)) (postorder T).
Proof.
  induction T as [a cs IH] using tree_ind'. rewrite prune_eq. cbn. apply Subseq_app; [|apply Subseq_refl]. rewrite flat_map_map, flat_map_filter.
  induction IH as [|c cs Hc _ IHcs]; cbn; [constructor|]. apply Subseq_app; [|exact IHcs]. destruct (f (root c)); [exact Hc|apply Subseq_nil].
Qed.
Lemma below_prune_sub {A} f (T : tree A) : Subseq (below_tree (prune f T)) (below_tree T).
Proof. pose proof (flatten_prune_sub f T) as H. destruct T as [a cs]. rewrite prune_eq in *. unfold below_tree. cbn [kids flatten] in *.
  rewrite flat_map_map, flat_map_filter in *. clear H. induction cs as [|c cs IH]; cbn; [constructor|]. apply Subseq_app; [|exact IH]. destruct (f (root c)); [apply flatten_prune_sub|apply Subseq_nil].
Qed.
Lemma post_below_prune_sub {A} f (T : tree A) : Subseq (post_below (prune f T)) (post_below T).
Proof. destruct T as [a cs]. rewrite prune_eq. unfold post_below. cbn [kids].
  rewrite flat_map_map, flat_map_filter. induction cs as [|c cs IH]; cbn; [constructor|]. apply Subseq_app; [|exact IH]. destruct (f (root c)); [apply postorder_prune_sub|apply Subseq_nil].
Qed.
Lemma mirror_prune {A} f (T : tree A) : mirror (prune f T) = prune f (mirror T).
Proof.
  induction T as [a cs IH] using tree_ind'. rewrite prune_eq. cbn [mirror]. rewrite prune_eq. f_equal. rewrite map_map.
  rewrite filter_rev, map_rev, filter_map_comm, map_map. f_equal. rewrite Forall_forall in IH.
  rewrite (filter_ext (fun a => f (root (mirror a))) (fun c => f (root c))) by (intros c; rewrite root_mirror; reflexivity).
  apply map_ext_in. intros c Hc. apply filter_In in Hc as [Hc _]. apply IH. exact Hc.
Qed.
Lemma shape_turned {A} rv f (T : tree A) : shape rv f T = prune f (turned rv T).
Proof. destruct rv; cbn; [apply mirror_prune|reflexivity]. Qed.
Lemma post_below_perm {A} (T : tree A) : Permutation (post_below T) (below_tree T).
Proof. unfold post_below, below_tree. apply Permutation_flat_map_pw. intros c _. apply postorder_perm. Qed.
Lemma below_turned_perm {A} rv (T : tree A) : Permutation (below_tree (turned rv T)) (below_tree T).
Proof.
  pose proof (flatten_turned_perm rv T) as H. pose proof (root_turned rv T) as R. destruct (turned rv T) as [b ds], T as [a cs]. cbn in R. subst b. cbn in H. unfold below_tree. cbn [kids].
  eapply Permutation_cons_inv; exact H.
Qed.
Lemma flatten_cons {A} (T : tree A) : flatten T = root T :: below_tree T. Proof. destruct T; reflexivity. Qed.
Lemma postorder_snoc {A} (T : tree A) : postorder T = post_below T ++ [root T]. Proof. destruct T; reflexivity. Qed.

(** ** hierarchical filtering *)
Lemma Anc_trans s a b c : Anc s a b -> Anc s b c -> Anc s a c.
Proof. intros H. induction 1 as [|y q Hp _ IH]; [exact H|]. eapply Anc_step; eauto. Qed.
Lemma Anc_Lev s a x : Anc s a x -> forall k, Lev s x k -> exists j, Lev s a j /\ j <= k /\ (j = k -> a = x).
Proof.
  induction 1 as [|y q Hp _ IH]; intros k L; [exists k; auto|]. inversion L as [? E|? q' k' E L']; subst; [congruence|].
  assert (q' = q) by congruence. subst q'. destruct (IH k' L') as (j & A & B & C). exists j. split; [exact A|]. split; [lia|]. lia.
Qed.
Lemma Anc_antisym n s a b : Forest n s -> Anc s a b -> Anc s b a -> a = b.
Proof.
  intros F H1 H2. destruct (Rooted_Lev s b (fo_root _ _ F b)) as [k Lb]. destruct (Anc_Lev _ _ _ H1 _ Lb) as (j & La & Lj & E1).
  destruct (Anc_Lev _ _ _ H2 _ La) as (i & Lb' & Li & _). pose proof (Lev_fun _ _ _ Lb _ Lb'). apply E1. lia.
Qed.
Lemma anc_in_tree n s T : Forest n s -> ltree s T -> forall y z, In y (flatten T) -> Anc s z y -> In z (flatten T) \/ Anc s z (root T).
Proof.
  intros F. induction T as [a cs IH] using tree_ind'. intros L y z Hy HA. apply ltree_iff in L as [E L]. rewrite Forall_forall in IH, L.
  destruct Hy as [<-|Hy]; [right; exact HA|]. apply in_flat_map in Hy as (c & Hc & Hy). destruct (IH c Hc (L c Hc) y z Hy HA) as [H|H].
  - left. right. apply in_flat_map. eauto.
  - assert (Ep : a_parent (s (root c)) = Some a) by (apply (fo_child _ _ F); rewrite <- E; apply in_map; exact Hc).
    inversion H as [|y' q Hp HA']; subst; [left; right; apply in_flat_map; exists c; split; [exact Hc|apply in_flatten_root]|]. right. cbn [root]. assert (q = a) by congruence. subst q. exact HA'.
Qed.
Lemma below_prune_in n s f T : Forest n s -> ltree s T -> NoDup (flatten T) -> forall y,
  In y (below_tree (prune f T)) <-> In y (below_tree T) /\ forall z, Anc s z y -> In z (below_tree T) -> f z = true.
Proof.
  intros F. induction T as [a cs IH] using tree_ind'. intros L ND y. pose proof L as L0. apply ltree_iff in L as [E L]. rewrite Forall_forall in IH, L.
  rewrite prune_eq. unfold below_tree. cbn [kids]. rewrite flat_map_map. rewrite !in_flat_map. cbn in ND. inversion ND as [|? ? N1 N2]; subst.
  assert (NDc : forall c, In c cs -> NoDup (flatten c)).
  { intros c Hc. clear - N2 Hc. apply in_split in Hc as (l1 & l2 & ->). rewrite flat_map_app in N2. cbn in N2. apply NoDup_app_inv in N2 as (_ & N2 & _). apply NoDup_app_inv in N2 as (N2 & _ & _). exact N2. }
  assert (Up : forall c z y, In c cs -> In y (flatten c) -> Anc s z y -> In z (flat_map flatten cs) -> z = root c \/ In z (below_tree c)).
  { intros c z y' Hc Hy' HA Hz. destruct (anc_in_tree n s c F (L c Hc) y' z Hy' HA) as [H|H]; [rewrite flatten_cons in H; destruct H; auto|].
    assert (Ep : a_parent (s (root c)) = Some a) by (apply (fo_child _ _ F); rewrite <- E; apply in_map; exact Hc).
    inversion H as [|y1 q Hp HA']; subst; [auto|]. exfalso. assert (q = a) by congruence. subst q.
    assert (Ha : Anc s a z) by (apply (ltree_anc n s (Node a cs) F L0); right; exact Hz).
    pose proof (Anc_antisym n s _ _ F Ha HA'). subst z. contradiction. }
  split.
  - intros (c & Hc & Hy). apply filter_In in Hc as [Hc Fc]. rewrite flatten_cons in Hy.
    assert (Hyc : In y (flatten c) /\ forall z, Anc s z y -> In z (below_tree c) -> f z = true).
    { destruct Hy as [Hy|Hy].
      - rewrite root_prune in Hy. subst y. split; [apply in_flatten_root|]. intros z HA Hz. exfalso.
        assert (Hr : Anc s (root c) z) by (apply (ltree_anc n s c F (L c Hc)); rewrite flatten_cons; right; exact Hz).
        pose proof (Anc_antisym n s _ _ F HA Hr). subst z. specialize (NDc c Hc). rewrite flatten_cons in NDc. inversion NDc; contradiction.
      - apply (IH c Hc (L c Hc) (NDc c Hc)) in Hy as [H1 H2]. split; [rewrite flatten_cons; right; exact H1|exact H2]. }
    destruct Hyc as [Hy1 Hy2]. split; [exists c; auto|]. intros z HA Hz. destruct (Up c z y Hc Hy1 HA Hz) as [->|H]; [exact Fc|apply Hy2; assumption].
  - intros [(c & Hc & Hy) Hf].
    assert (Fc : f (root c) = true).
    { apply Hf; [apply (ltree_anc n s c F (L c Hc)); exact Hy|]. apply in_flat_map. exists c. split; [exact Hc|apply in_flatten_root]. }
    exists c. split; [apply filter_In; auto|]. rewrite flatten_cons, root_prune. rewrite flatten_cons in Hy. destruct Hy as [->|Hy]; [left; reflexivity|]. right.
    apply (IH c Hc (L c Hc) (NDc c Hc)). split; [exact Hy|]. intros z HA Hz. apply Hf; [exact HA|]. apply in_flat_map. exists c. split; [exact Hc|]. rewrite flatten_cons. right; exact Hz.
Qed.

(** ** paths *)
Lemma tmap_snd_path {A K} (el : list A -> nat -> K) T : forall p, tmap snd (path_tree el p T) = T.
Proof.
  induction T as [a cs IH] using tree_ind'. intros p. cbn. f_equal. unfold mapi. generalize 0. generalize (map root cs) as rs. intros rs.
  induction IH as [|c cs Hc _ IHcs]; intros i; cbn; [reflexivity|]. rewrite Hc, IHcs. reflexivity.
Qed.
Lemma tmap_prune {A B} (g : A -> B) f (T : tree A) : tmap g (prune (fun a => f (g a)) T) = prune f (tmap g T).
Proof.
  induction T as [a cs IH] using tree_ind'. rewrite prune_eq. cbn [tmap]. rewrite prune_eq. f_equal. rewrite filter_map_comm, !map_map.
  rewrite (filter_ext (fun a => f (root (tmap g a))) (fun c => f (g (root c)))) by (intros c; rewrite root_tmap; reflexivity).
  rewrite Forall_forall in IH. apply map_ext_in. intros c Hc. apply filter_In in Hc as [Hc _]. apply IH. exact Hc.
Qed.
Lemma tmap_mirror {A B} (g : A -> B) (T : tree A) : tmap g (mirror T) = mirror (tmap g T).
Proof.
  induction T as [a cs IH] using tree_ind'. cbn. f_equal. rewrite map_rev, !map_map. f_equal. rewrite Forall_forall in IH. apply map_ext_in. exact IH.
Qed.
Lemma tmap_shape {A B} (g : A -> B) rv f (T : tree A) : tmap g (shape rv (fun a => f (g a)) T) = shape rv f (tmap g T).
Proof. destruct rv; cbn; [rewrite tmap_mirror|]; rewrite tmap_prune; reflexivity. Qed.
Lemma postorder_tmap {A B} (g : A -> B) T : postorder (tmap g T) = map g (postorder T).
Proof.
  induction T as [a cs IH] using tree_ind'. cbn. rewrite map_app. f_equal. rewrite flat_map_map. rewrite Forall_forall in IH.
  induction cs as [|c cs IHcs]; cbn; [reflexivity|]. rewrite map_app, (IH c (or_introl eq_refl)), IHcs; [reflexivity|]. intros; apply IH; right; assumption.
Qed.
Lemma below_tmap {A B} (g : A -> B) T : below_tree (tmap g T) = map g (below_tree T).
Proof. pose proof (flatten_tmap g T) as H. rewrite !flatten_cons in H. injection H. auto. Qed.
Lemma post_below_tmap {A B} (g : A -> B) T : post_below (tmap g T) = map g (post_below T).
Proof. pose proof (postorder_tmap g T) as H. rewrite !postorder_snoc, map_app in H. apply app_inj_tail in H. apply H. Qed.
Lemma path_items_down {K} (el : list loc -> nat -> K) pre rv f T :
  map snd (below_tree (shape rv (fun px => ok f (snd px)) (path_tree el pre T))) = below_tree (shape rv (ok f) T).
Proof. rewrite <- below_tmap, (tmap_shape snd rv (ok f)), tmap_snd_path. reflexivity. Qed.
Lemma path_items_up {K} (el : list loc -> nat -> K) pre rv f T :
  map snd (post_below (shape rv (fun px => ok f (snd px)) (path_tree el pre T))) = post_below (shape rv (ok f) T).
Proof. rewrite <- post_below_tmap, (tmap_shape snd rv (ok f)), tmap_snd_path. reflexivity. Qed.
Lemma in_mapi_from {A B} (f : nat -> A -> B) l : forall i b, In b (mapi_from f i l) -> exists j a, nth_error l j = Some a /\ b = f (i + j) a.
Proof.
  induction l as [|a l IH]; intros i b; cbn; [intros []|]. intros [<-|H].
  - exists 0, a. rewrite Nat.add_0_r. auto.
  - destruct (IH (S i) b H) as (j & c & E & ->). exists (S j), c. rewrite Nat.add_succ_r. auto.
Qed.
(** every pair of the path tree: the path leads from the start to the item, one child number at a time *)
Inductive Follow {K} (ch : loc -> list loc) (el : list loc -> nat -> K) : loc -> list K -> loc -> Prop :=
| fol_nil x : Follow ch el x [] x
| fol_cons x i c k p y : nth_error (ch x) i = Some c -> el (ch x) i = k -> Follow ch el c p y -> Follow ch el x (k :: p) y.
Lemma path_tree_follow {K} ch (el : list loc -> nat -> K) T : unf ch T -> forall pre p y, In (p, y) (flatten (path_tree el pre T)) ->
  exists rel, p = pre ++ rel /\ Follow ch el (root T) rel y.
Proof.
  induction T as [a cs IH] using tree_ind'. intros U pre p y H. apply unf_iff in U as [E U]. rewrite Forall_forall in IH, U. cbn in H. destruct H as [[= <- <-]|H].
  - exists []. rewrite app_nil_r. split; [reflexivity|constructor].
  - apply in_flat_map in H as (c' & Hc & H). unfold mapi in Hc. apply in_mapi_from in Hc as (j & c & Ej & ->). cbn [Nat.add] in H.
    assert (Hc : In c cs) by (eapply nth_error_In; exact Ej). destruct (IH c Hc (U c Hc) _ _ _ H) as (rel & -> & Fo).
    exists (el (map root cs) j :: rel). split; [rewrite <- app_assoc; reflexivity|]. cbn [root]. econstructor; [|rewrite <- E; reflexivity|exact Fo]. rewrite <- E, nth_error_map, Ej. reflexivity.
Qed.
Lemma shape_sub {A} rv f (T : tree A) y : In y (flatten (shape rv f T)) -> In y (flatten T).
Proof. rewrite shape_turned. intros H. eapply Subseq_in in H; [|apply flatten_prune_sub]. eapply Permutation_in; [apply flatten_turned_perm|exact H]. Qed.
Lemma path_down_in {K} (el : list loc -> nat -> K) pre rv f T p y :
  In (p, y) (below_tree (shape rv f (path_tree el pre T))) -> In (p, y) (flatten (path_tree el pre T)).
Proof. intros H. eapply shape_sub. rewrite flatten_cons. right. exact H. Qed.
Lemma path_up_in {K} (el : list loc -> nat -> K) pre rv f T p y :
  In (p, y) (post_below (shape rv f (path_tree el pre T))) -> In (p, y) (flatten (path_tree el pre T)).
Proof. intros H. eapply path_down_in. eapply Permutation_in; [apply post_below_perm|exact H]. Qed.

(** ** the paths of a tree of items in a heap *)
Lemma Follow_idx h x p y : Follow (children h) idx_el x p y -> by_idx h x p = Ok y.
Proof.
  induction 1 as [x|x i c k p y Hi Hk _ IH]; [reflexivity|]. cbn. subst k. unfold idx_el. rewrite list_at_nth.
  change (nitems (hnode h x)) with (children h x). rewrite Hi. exact IH.
Qed.
Lemma tag_num_fam h x i c : WF h -> nth_error (children h x) i = Some c -> tag_num (tag_of h) (children h x) i = Z.of_nat (fam_index h x c).
Proof.
  intros W Hi. unfold tag_num. rewrite Hi. f_equal. symmetry. pose proof (WF_nodup h x W) as ND. change (nitems (hnode h x)) with (children h x) in ND.
  destruct (nth_error_split _ _ Hi) as (l1 & l2 & E & El).
  assert (Ef : firstn i (children h x) = l1) by (rewrite E, <- El, firstn_app, Nat.sub_diag, firstn_all; cbn; apply app_nil_r). rewrite Ef.
  apply (number_prefix (tag_of h) (children h x) c l1 l2 E ND).
Qed.
Lemma Follow_tag h x p y : WF h -> hash_ok h -> Follow (children h) (tag_el (tag_of h)) x p y -> by_tag_idx h x p = Ok y.
Proof.
  intros W HH. induction 1 as [x|x i c k p y Hi Hk _ IH]; [reflexivity|]. subst k. unfold tag_el. rewrite Hi. cbn [by_tag_idx].
  rewrite (tag_num_fam h x i c W Hi). pose proof (nth_error_In _ _ Hi) as Hin.
  assert (Hne : children h x <> []) by (intros Ec; rewrite Ec in Hin; destruct Hin). rewrite (fam_of_ok h x (tag_of h c) W (HH c) Hne).
  pose proof (fam_index_nth h x c Hin) as Hf. destruct (with_tag (view h) x (tag_of h c)) eqn:Ew; [destruct (fam_index h x c); discriminate|]. cbn [nonempty].
  rewrite list_at_nth, Hf. exact IH.
Qed.

(** ** item.idx_path is the path from the root *)
Fixpoint pos_path (k : nat) (h : heap) (x : loc) : list Z :=
  match k with
  | 0 => []
  | S k => match parent_of h x with None => [] | Some p => pos_path k h p ++ [Z.of_nat (posn (children h p) x)] end
  end.
Lemma idx_path_pure h : WFN h -> forall x k, Lev (view h) x k -> forall fuel g, k < fuel -> ceq h g ->
  exists g', idx_path fuel x g = (g', Ok (pos_path k h x)) /\ ceq h g'.
Proof.
  intros [W NO]. induction 1 as [x Hp|x q k Hp HL IH]; intros [|f] g Hf Q; try lia.
  - cbn [idx_path]. rewrite bind_gets. assert (Eg : nprt (hnode g x) = None) by (apply prt_none; rewrite (ceq_parent_of _ _ _ Q); exact Hp). rewrite Eg.
    exists g. split; [reflexivity|exact Q].
  - assert (Eg : exists pl, nprt (hnode g x) = Some pl /\ pl_par pl = q).
    { assert (Hpg : parent_of g x = Some q) by (rewrite (ceq_parent_of _ _ _ Q); exact Hp).
      cbn in Hpg. destruct (nprt (hnode g x)); [|discriminate]. injection Hpg as <-. eauto. }
    destruct Eg as (plg & Eg & Eplg). cbn [idx_path]. rewrite bind_gets, Eg, Eplg.
    pose proof (NO x q Hp) as Hin. pose proof (posn_in _ _ Hin) as Hk. assert (Wg : WF g) by (eapply ceq_WF; eauto).
    destruct (idx_or_type_error_ok g q x (posn (a_children (view h q)) x) Wg) as (g1 & E1 & Q1 & _).
    { rewrite (ceq_items _ _ Q). exact Hk. }
    rewrite (bind_ok _ _ _ _ _ E1). destruct (IH f g1) as (g2 & E2 & Q2); [lia|eapply ceq_trans; eauto|].
    rewrite (bind_ok _ _ _ _ _ E2). exists g2. split; [|exact Q2]. cbn [pos_path]. unfold parent_of. rewrite Hp. reflexivity.
Qed.
Lemma pos_path_follow h x rel y : WF h -> Follow (children h) idx_el x rel y -> forall k, Lev (view h) x k ->
  exists k', Lev (view h) y k' /\ pos_path k' h y = pos_path k h x ++ rel.
Proof.
  intros W. induction 1 as [x|x i c e p y Hi He _ IH]; intros k L; [exists k; rewrite app_nil_r; auto|].
  pose proof (nth_error_In _ _ Hi) as Hin. assert (Hp : parent_of h c = Some x) by (apply (fo_child _ _ (wf_forest _ W)); exact Hin).
  destruct (IH (S k)) as (k' & L' & E); [eapply LevS; [exact Hp|exact L]|]. exists k'. split; [exact L'|]. rewrite E. cbn [pos_path]. rewrite Hp, <- app_assoc. cbn [app].
  subst e. unfold idx_el. repeat f_equal. pose proof (WF_nodup h x W) as ND. apply posn_nth; assumption.
Qed.
Lemma idx_path_follow h x rel y : WFN h -> y < hnext h -> x < hnext h -> Follow (children h) idx_el x rel y ->
  exists pre, snd (idx_path (S (hnext h)) x h) = Ok pre /\ snd (idx_path (S (hnext h)) y h) = Ok (pre ++ rel).
Proof.
  intros W Hy Hx Fo. pose proof (wf_forest _ (proj1 W)) as FF. destruct (Rooted_Lev _ _ (fo_root _ _ FF x)) as [k Lx].
  destruct (pos_path_follow h x rel y (proj1 W) Fo k Lx) as (k' & Ly & E).
  pose proof (Lev_bound _ _ _ _ FF Lx Hx). pose proof (Lev_bound _ _ _ _ FF Ly Hy).
  destruct (idx_path_pure h W x k Lx (S (hnext h)) h ltac:(lia) (ceq_refl h)) as (g1 & E1 & _).
  destruct (idx_path_pure h W y k' Ly (S (hnext h)) h ltac:(lia) (ceq_refl h)) as (g2 & E2 & _).
  exists (pos_path k h x). rewrite E1, E2. cbn. rewrite E. auto.
Qed.
