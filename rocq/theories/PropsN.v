(** C44 - C46: links between trees. *)
From Verif Require Import Base Heap HeapSpec ListLemmas ForestLemmas HeapInv HeapAttach HeapOps HeapOps2 HeapOps3 Tree HeapTree HeapCopy Deep SerModel
  HeapHash History HeapRead HeapRead2 HeapHist HeapDel Runs HeapFlags PropsA PropsC PropsF PropsG PropsM LinkModel LinkFacts LinkFacts2 LinkMerge LinkLoad LinkRun LinkAll LinkWF LinkSpec LinkDel.
Import ListNotations.
Open Scope string_scope.
Open Scope list_scope.

(** ** Specification *)
(** Bits of item.flags: 2 LOAD_LINKS, 3 LINKED, 4 PLACEHOLDER, 5 LINK_ROOT ([flag], PropsF).
    [Below h x y]: y is a child, grandchild, ... of x (PropsG). [tree_at h x T]: T is the tree of
    items hanging at x (PropsF). *)
(** the key of a child: tag and position among the children of the same tag *)
Definition key (h : heap) (p y : loc) : pyval * nat := (tag_of h y, fam_index h p y).
(** tag and value *)
Definition tag_value (h : heap) (y : loc) : pyval * pyval := (tag_of h y, a_val (view h y)).
(** item.tag_idx delivers a pair (C05 shows that it sometimes delivers a bare number) *)
Definition has_tag_idx (h : heap) (y : loc) : Prop := exists t i, snd (get_tag_idx y h) = Ok (TIPair t i).
(** a link root in the copied part has its link and is not to be loaded by the constructor *)
Definition copyable (h : heap) (y : loc) : Prop := flag h y 5 = true -> a_link (view h y) <> None /\ flag h y 2 = false.

(** x.load_links() finds the target t and has to load *)
Record load_case (target_of : heap -> loc -> res loc) (changed : heap -> loc -> bool) (force : bool) (h : heap) (x t : loc) : Prop := {
  lc_x : x < hnext h;
  lc_root : flag h x 5 = true;
  lc_link : exists lk, a_link (view h x) = Some lk /\ (force = true \/ lk_loaded lk = false \/ changed h x = true);
  lc_place : forall y, In y (children h x) -> flag h y 4 = true -> a_val (view h y) = PInt (Z.of_nat (fam_index h x y));
  lc_target : target_of h x = Ok t;
  lc_t : t < hnext h;
  lc_out : x <> t /\ ~ Below h t x;
  lc_kids : forall c, In c (children h t) -> flag h c 3 = false /\ flag h c 5 = false /\ has_tag_idx h c;
  lc_below : forall c y, In c (children h t) -> Below h c y -> copyable h y }.
(** x.make_local() on a linked child x of the link root p *)
Record local_case (h : heap) (p x : loc) : Prop := {
  mc_child : In x (children h p);
  mc_linked : flag h x 3 = true;
  mc_root : flag h p 5 = true;
  mc_idx : has_tag_idx h x;
  mc_below : forall y, Below h x y -> copyable h y }.
(** del p[k] where the k-th child x is a local item that covers the linked item y *)
Record restore_case (h : heap) (p : loc) (k : nat) (x y : loc) : Prop := {
  rc_child : nth_error (children h p) k = Some x;
  rc_cover : exists lk, a_link (view h x) = Some lk /\ lk_cover lk = Some y;
  rc_root : flag h p 5 = true;
  rc_local : flag h x 3 = false /\ flag h x 4 = false;
  rc_idx : has_tag_idx h x }.

(** Histories: the calls of [History.op], load_links, make_local and the deletion of covering
    items. While an item covers a linked item (after make_local or a merge) only link calls are
    included. *)
Definition uncovered (h : heap) : Prop := forall x k, x < hnext h -> a_link (view h x) = Some k -> lk_cover k = None.
Inductive LReach : heap -> Prop :=
| LReach_start : LReach empty_heap
| LReach_op h o : LReach h -> uncovered h -> allowed h o -> LReach (after o h)
| LReach_load h target_of changed force n x t : LReach h -> load_case target_of changed force h x t ->
    LReach (fst (load_links target_of changed force (S n) x h))
| LReach_local h p x b : LReach h -> local_case h p x -> LReach (fst (make_local x b h))
| LReach_restore h p k x y : LReach h -> restore_case h p k x y -> LReach (fst (del_int p (Z.of_nat k) h)).

(** in the subtree of c only the last child of an item has children itself *)
Definition nested_last (h : heap) (c : loc) : Prop :=
  forall y l1 z l2, y = c \/ Below h c y -> children h y = l1 ++ z :: l2 -> l2 <> [] -> children h z = [].

(** ** Proofs *)
Lemma nested_last_iff h C : ltree (view h) C -> (last_only (kids C) <-> nested_last h (root C)).
Proof.
  induction C as [c cs IH] using tree_ind'. intros HT. pose proof (proj1 (ltree_iff _ _ _) HT) as (Ek & HK). rewrite Forall_forall in IH, HK. cbn [kids root] in *.
  assert (Sub : forall y, y = c \/ Below h c y <-> y = c \/ exists D, In D cs /\ (y = root D \/ Below h (root D) y)).
  { intros y. rewrite <- (Below_tree h (Node c cs) HT y). cbn [below_tree]. split.
    - intros [->|H]; [auto|]. apply in_flat_map in H as (D & HD & H). right. exists D. split; [exact HD|]. destruct D as [d ds]. destruct H as [<-|H]; [auto|]. right. apply (Below_tree h _ (HK _ HD)). exact H.
    - intros [->|(D & HD & H)]; [auto|]. right. apply in_flat_map. exists D. split; [exact HD|]. destruct H as [->|H]; [destruct D; left; reflexivity|].
      apply (Below_tree h _ (HK _ HD)) in H. destruct D; right; exact H. }
  rewrite last_only_iff. split.
  - intros (P & Q) y l1 z l2 Hy E N. apply Sub in Hy as [->|(D & HD & Hy)].
    + change (children h c) with (a_children (view h c)) in E. rewrite <- Ek in E. apply map_eq_app in E as (F1 & F2 & E & E1 & E2). destruct F2 as [|D F2]; [discriminate|]. injection E2 as E2 E3.
      assert (HD : In D cs) by (rewrite E; apply in_elt). pose proof (P F1 D F2 E ltac:(intros ->; subst l2; apply N; reflexivity)) as K. destruct D as [d ds]. cbn in K, E2. subst ds d.
      apply HK in HD. apply ltree_iff in HD as (HD & _). symmetry. exact HD.
    + apply (proj1 (IH D HD (HK D HD)) (Q D HD) y l1 z l2 Hy E N).
  - intros H. split.
    + intros F1 D F2 E N. assert (HD : In D cs) by (rewrite E; apply in_elt). destruct D as [d ds]. cbn.
      assert (K : children h d = []). { apply (H c (map root F1) d (map root F2)); [auto|unfold children; rewrite <- Ek, E, map_app; reflexivity|]. destruct F2; [congruence|discriminate]. }
      apply HK in HD. apply ltree_iff in HD as (HD & _). unfold children in K. rewrite K in HD. destruct ds; [reflexivity|discriminate].
    + intros D HD. apply (IH D HD (HK D HD)). intros y l1 z l2 Hy. apply H. apply Sub. right. exists D. auto.
Qed.
Lemma copyable_good h y : copyable h y -> conv_good (label (view h) y) = true.
Proof.
  intros H. unfold conv_good, link_good, label. cbn. change (a_flags (view h y)) with (nflags (hnode h y)).
  rewrite (has_flag h y LINK_ROOT 5), (has_flag h y LOAD_LINKS 2) by (try lia; reflexivity).
  unfold copyable in H. destruct (flag h y 5); [|reflexivity]. destruct (H eq_refl) as (H1 & ->). cbn in H1. destruct (nlink (hnode h y)); [reflexivity|congruence].
Qed.
Lemma load_ready target_of changed force h x t : LWF h -> hash_ok h -> load_case target_of changed force h x t ->
  exists Cs lk, LoadReady target_of changed force h x t Cs lk /\ tree_at h t (Node t Cs).
Proof.
  intros W HH [Lx Rt (lk & Lk & Ld) Pl Tg Lt (O1 & O2) Kd Bl]. destruct (ltree_exists _ _ _ (lw_forest _ W) Lt) as (T & HT & Er & _). destruct T as [t' Cs]. cbn in Er. subst t'.
  pose proof (proj1 (ltree_iff _ _ _) HT) as (Ek & HK). rewrite Forall_forall in HK.
  assert (Kid : forall C, In C Cs -> In (root C) (children h t)) by (intros C HC; unfold children; rewrite <- Ek; apply in_map; exact HC).
  exists Cs, lk. split; [|split; [reflexivity|exact HT]]. constructor; try assumption.
  - rewrite link_root_flag. exact Rt.
  - destruct Ld as [-> | [-> | ->] ]; rewrite ?orb_true_r; reflexivity.
  - intros l1 y l2 E Hf. rewrite (has_flag h y PLACEHOLDER 4) in Hf by (try lia; reflexivity). cbn [app]. change (nval (hnode h y)) with (a_val (view h y)).
    rewrite Pl; [|unfold children; change (a_children (view h x)) with (nitems (hnode h x)); rewrite E; apply in_elt|exact Hf]. do 2 f_equal. unfold fam_index.
    change (with_tag (view h) x (tag_of h y)) with (byt (tags h) (ntag (hnode h y)) (nitems (hnode h x))). rewrite E.
    apply posn_mid. rewrite <- E. apply (fo_nodup _ _ (lw_forest _ W) x).
  - intros [K|K]; [auto|]. apply O2. apply (Below_tree h (Node t Cs) HT). exact K.
  - intros l1 y l2 E. cbn [app]. apply (known_near h t l1 y l2 W); [unfold children in Kid; change (nitems (hnode h t)) with (a_children (view h t)); rewrite <- Ek; exact E|].
    apply Kd. unfold children. rewrite <- Ek, E. apply in_elt.
  - intros C HC. rewrite linked_flag, link_root_flag. destruct (Kd _ (Kid C HC)) as (A & B & _). auto.
  - intros C HC. apply HH.
  - intros C y HC Hy. apply copyable_good. apply (Bl (root C)); [apply Kid; exact HC|]. apply (Below_tree h C (HK C HC)). exact Hy.
Qed.
Lemma local_ready h p x : LWF h -> local_case h p x -> exists l1 l2 T, LocalReady h p l1 x l2 T.
Proof.
  intros W [Hc Hl Hr Hi Hb]. destruct (in_split _ _ Hc) as (l1 & l2 & E). destruct (LWF_child_lt h p x W Hc) as (_ & Hx).
  destruct (ltree_exists _ _ _ (lw_forest _ W) Hx) as (T & HT & Er & _). exists l1, l2, T. constructor; try assumption.
  - rewrite linked_flag. exact Hl.
  - rewrite link_root_flag. exact Hr.
  - exact (known_near h p l1 x l2 W E Hi).
  - intros y Hy. apply copyable_good, Hb. rewrite <- Er. apply (Below_tree h T HT). exact Hy.
Qed.
Lemma copied_tags h h' C co C' : copy_of h h' C co C' -> forall y, In y (flatten C') -> exists z, ntag (hnode h' y) = ntag (hnode h z).
Proof.
  intros H y Hy. destruct (copy_facts _ _ _ _ _ H) as (_ & _ & E & _). apply (in_map (tv h')) in Hy. rewrite E in Hy. apply in_map_iff in Hy as (z & Ez & _). exists z.
  apply (f_equal fst) in Ez. cbn in Ez. symmetry. exact Ez.
Qed.
Lemma built_tags h h' p F Ts : Forall (built h' p) Ts -> map (tmap (label (view h'))) Ts = conv_spec h F -> forall y, In y (flat_map flatten Ts) -> exists z, ntag (hnode h' y) = ntag (hnode h z).
Proof.
  intros _ E y Hy. apply copied_pre in E. apply (in_map (tv h')) in Hy. rewrite E in Hy. apply in_map_iff in Hy as (z & Ez & _). exists z. apply (f_equal fst) in Ez. cbn in Ez. symmetry. exact Ez.
Qed.
Lemma load_hash h x t Cs lk h' Rs : hash_ok h -> load_result h x t Cs lk h' Rs -> hash_ok h'.
Proof.
  intros HH (W' & _ & Hn & T1 & _ & _ & _ & _ & _ & S1 & S2 & _ & FD & _ & _ & _ & RR & _ & FR).
  intros y. destruct (Nat.lt_ge_cases y (hnext h')) as [Z|Z].
  - destruct (Nat.lt_ge_cases y (hnext h)) as [Y|Y].
    + destruct (Nat.eq_dec y x) as [->|Yx]; [rewrite T1; apply HH|]. destruct (in_dec Nat.eq_dec y (nitems (hnode h x))) as [K|K].
      * pose proof (S2 y K) as Q. apply strip_fields in Q as (_ & _ & _ & Q). cbn in Q. rewrite Q. apply HH.
      * pose proof (S1 y Y Yx K) as Q. apply strip_fields in Q as (_ & _ & _ & Q). rewrite Q. apply HH.
    + assert (In y (flat_map flatten Rs)) as Hy by (apply RR; lia). apply in_flat_map in Hy as (C' & HC' & Hy).
      assert (Q : exists C co, copy_of h h' C co C').
      { clear - FD HC'. cbv zeta in FD. revert FD. generalize (combine (keys_from (tags h) [] (map root Cs)) Cs). intros l FD. induction FD as [|p D l l' H FD IH]; [destruct HC'|].
        destruct HC' as [->|HC']; [|apply IH; exact HC']. destruct H as (A & _). eauto. }
      destruct Q as (C & co & Q). destruct (copied_tags _ _ _ _ _ Q y Hy) as (z & ->). apply HH.
  - rewrite FR by exact Z. apply HH.
Qed.
Lemma local_hash h p l1 x l2 T b : LocalReady h p l1 x l2 T -> hash_ok h -> hash_ok (fst (make_local x b h)).
Proof.
  intros [W El NL LR HN HT Er HG] HH. destruct (make_local_ok h p l1 x l2 T b W El NL LR HN HT Er HG) as (h' & Ts & E & X1 & O1 & V1 & S1 & F1 & D1 & P1 & PN & DN & ON & BN & LN & RN & NN & CN & CV).
  rewrite E. cbn [fst]. apply (hash_new h); [exact HH| | |].
  - intros y Y. destruct (Nat.eq_dec y p) as [->|Yp]; [injection D1; auto|]. pose proof (S1 y Y Yp) as Q. apply strip_fields in Q. apply Q.
  - exact F1.
  - intros y Hy. destruct (Nat.eq_dec y (hnext h)) as [->|Yn]; [exists x; injection DN; auto|]. eapply built_tags; [exact BN|exact LN|]. apply CV. lia.
Qed.
Definition fresh_bare (h : heap) : Prop := forall y k, hnext h <= y -> nlink (hnode h y) = Some k -> lk_cover k = None.
Lemma uncovered_WF h : LWF h -> fresh_bare h -> uncovered h -> WF h.
Proof. intros [A B C] J U. constructor; try assumption. intros y k E. destruct (Nat.lt_ge_cases y (hnext h)) as [Y|Y]; [exact (U y k Y E)|exact (J y k Y E)]. Qed.
(** one deletion *)
Lemma restore_ready h p k x y : LWF h -> covers_ok h -> restore_case h p k x y ->
  exists l1 l2 h' d, children h p = l1 ++ x :: l2 /\ length l1 = k /\ covers h x y /\ y <> p /\ y <> x /\
    del_int p (Z.of_nat k) h = (h', Ok x) /\ hnext h' = hnext h /\ own h' p (l1 ++ y :: l2) /\
    hnode h' p = set_fams (Some d) Current (set_items (l1 ++ y :: l2) (hnode h p)) /\
    hnode h' y = set_prt (Some (PL p (Z.of_nat (length l1)) (Z.of_nat (length (byt (tags h) (ntag (hnode h x)) l1))) false)) (hnode h y) /\
    hnode h' x = set_prt None (hnode h x) /\ (forall z, z <> p -> z <> x -> z <> y -> hnode h' z = hnode h z).
Proof.
  intros W C [Hk Hc Hr (Hl1 & Hl2) Hi]. destruct (nth_error_split _ _ Hk) as (l1 & l2 & El & Len). assert (Hin : In x (nitems (hnode h p))) by (change (In x (children h p)); rewrite El; apply in_elt).
  assert (Cv : covers h x y) by exact Hc. destruct (cv_ne h p x y W C Hin Cv) as (N1 & N2). destruct (cv_one h C p x y (Live_child _ _ _ Hin) Cv) as (_ & _ & Ty & _).
  destruct (del_cover_ok h p l1 x l2 y W El Cv N1 N2 Ty (known_near h p l1 x l2 W El Hi)) as (h' & d & E & R).
  { intros _. split; [rewrite link_root_flag; exact Hr|]. intros _. rewrite has_lor_mask, (has_flag h x PLACEHOLDER 4) by (try lia; reflexivity).
    change (has (nflags (hnode h x)) LINKED) with (is_linked h x). rewrite linked_flag, Hl1, Hl2. reflexivity. }
  exists l1, l2, h', d. rewrite Len in E. auto 20.
Qed.
Lemma lreach_inv h : LReach h -> LWF h /\ hash_ok h /\ fresh_bare h /\ covers_ok h.
Proof.
  induction 1 as [|h o _ (W & HH & J & _) U A|h to ch f n x t _ (W & HH & J & C) L|h p x b _ (W & HH & J & C) L|h p k x y _ (W & HH & J & C) L].
  - assert (W : LWF empty_heap) by (apply WF_LWF, empty_WF). split; [exact W|]. split; [apply reach_hash; constructor|]. split; [intros y k _ E; discriminate|]. apply no_covers_ok; [|exact W]. intros x y _ (k & E & _). discriminate.
  - assert (W' : WF (after o h)) by (apply after_WF; [apply uncovered_WF; assumption|exact A]).
    split; [apply WF_LWF; exact W'|]. split; [apply after_hash; assumption|]. split; [intros y k _; apply (wf_cover _ W')|].
    apply no_covers_ok; [|apply WF_LWF; exact W']. intros x y _ (k & E & K). rewrite (wf_cover _ W' x k E) in K. discriminate.
  - destruct (load_ready _ _ _ _ _ _ W HH L) as (Cs & lk & R & _). destruct (load_LWF to ch f n h x t Cs lk R) as (h' & Rs & E & LR). rewrite E. cbn [fst].
    split; [apply LR|]. split; [eapply load_hash; eassumption|]. split; [|exact (load_covers h x t Cs lk h' Rs W C (lr_x _ _ _ _ _ _ _ _ R) (lr_link _ _ _ _ _ _ _ _ R) LR)].
    destruct LR as (_ & _ & Hn & _ & _ & _ & _ & _ & _ & _ & _ & _ & _ & _ & _ & _ & _ & _ & FR).
    intros y k Y. rewrite FR by exact Y. apply J. lia.
  - destruct (local_ready _ _ _ W L) as (l1 & l2 & T & R). pose proof (local_hash _ _ _ _ _ _ b R HH) as H1.
    destruct R as [_ El NL LR HN HT Er HG]. destruct (make_local_ok h p l1 x l2 T b W El NL LR HN HT Er HG) as (h' & Ts & E & Hn & _ & _ & _ & FR & _). rewrite E in *. cbn [fst] in *.
    split; [apply (make_local_LWF h p l1 x l2 T b h' (hnext h)); assumption|]. split; [exact H1|]. split; [intros y k Y; rewrite FR by exact Y; apply J; lia|].
    apply (make_local_covers h p l1 x l2 T b h' (hnext h)); assumption.
  - destruct (restore_ready h p k x y W C L) as (l1 & l2 & h' & d & El & _ & Cv & N1 & N2 & E & Hn & Ow & Np & Ny & Nx & No). rewrite E. cbn [fst].
    pose proof (rs_data h h' p x y l1 l2 _ d Np Ny Nx No) as DD.
    split; [eapply (rs_LWF h h' p x y l1 l2); try eassumption; cbn; auto with zarith; lia|].
    split; [intros z; rewrite (rs_tag h h' p x y l1 l2 _ d Np Ny Nx No z); apply HH|].
    split; [intros z k0 Z; rewrite (rs_link h h' p x y l1 l2 _ d Np Ny Nx No z); rewrite Hn in Z; apply J; exact Z|].
    eapply (rs_covers_ok h h' p x y l1 l2); try eassumption; cbn; auto with zarith; lia.
Qed.
Lemma lreach_ok h : LReach h -> LWF h /\ hash_ok h.
Proof. intros R. destruct (lreach_inv h R) as (A & B & _). auto. Qed.
Lemma lreach_covers h : LReach h -> covers_ok h.
Proof. intros R. apply (lreach_inv h R). Qed.
Lemma Reach_LReach h : Reach h -> LReach h.
Proof.
  induction 1 as [|h o R IH A]; [constructor|]. apply LReach_op; [exact IH| |exact A]. intros x k _ E. apply (wf_cover _ (reach_WF h R) x k E).
Qed.
Lemma copies_pre h h' cl L ksCs Rs x : Forall2 (item_done h x h' cl L) ksCs Rs -> map (tv h') (flat_map flatten Rs) = map (tv h) (flat_map flatten (map snd ksCs)).
Proof.
  induction 1 as [|p C' l l' H _ IH]; [reflexivity|]. cbn [flat_map map]. rewrite !map_app, IH. f_equal. apply (copy_facts _ _ _ _ _ (proj1 H)).
Qed.
Lemma Forall2_in_r {A B} (R : A -> B -> Prop) l m : Forall2 R l m -> forall b, In b m -> exists a, In a l /\ R a b.
Proof. induction 1 as [|a b l m H _ IH]; [intros ? []|]. intros c [<-|Hc]; [exists a; cbn; auto|]. destruct (IH c Hc) as (a' & Ha & Hr). exists a'. cbn. auto. Qed.
Lemma Forall2_in_l {A B} (R : A -> B -> Prop) l m : Forall2 R l m -> forall a, In a l -> exists b, In b m /\ R a b.
Proof. induction 1 as [|a b l m H _ IH]; [intros ? []|]. intros c [<-|Hc]; [exists b; cbn; auto|]. destruct (IH c Hc) as (b' & Hb & Hr). exists b'. cbn. auto. Qed.
Lemma Forall2_len {A B} (R : A -> B -> Prop) l m : Forall2 R l m -> length l = length m.
Proof. induction 1; cbn; congruence. Qed.
Lemma combine_snd {A B} (l : list A) : forall m : list B, length l = length m -> map snd (combine l m) = m.
Proof. induction l as [|a l IH]; intros [|b m] E; try discriminate; [reflexivity|]. cbn in *. f_equal. apply IH. lia. Qed.
Lemma merge_new it : forall ts, merge it [] ts = map snd ts.
Proof. induction ts as [|[k y] ts IH]; [reflexivity|]. cbn [merge step_items step_left lget map snd app]. f_equal. exact IH. Qed.

(** * C44 *)
(** A link root without children: below it appears, level by level of the first generation, a
    copy of the target's children. *)
Theorem C44_copy_partial : forall target_of changed force n h x t, LReach h -> load_case target_of changed force h x t -> children h x = [] ->
  exists h' T T', load_links target_of changed force (S n) x h = (h', Ok true) /\ LReach h' /\
    tree_at h t T /\ tree_at h' x T' /\
    (* the same children, and in preorder the same items *)
    map (tag_value h') (children h' x) = map (tag_value h) (children h t) /\
    map (tag_value h') (below_tree T') = map (tag_value h) (below_tree T) /\
    (* the same shape exactly if nested items are last *)
    (map (tmap (tag_value h')) (kids T') = map (tmap (tag_value h)) (kids T) <-> forall c, In c (children h t) -> nested_last h c) /\
    (* the copies are new items and linked *)
    (forall y, In y (below_tree T') -> hnext h <= y < hnext h' /\ flag h' y 3 = true) /\
    (* nothing else changes *)
    (forall y, y < hnext h -> y <> x -> view h' y = view h y) /\
    tag_value h' x = tag_value h x /\ a_flags (view h' x) = a_flags (view h x) /\ parent_of h' x = parent_of h x /\
    (exists lk, a_link (view h' x) = Some lk /\ lk_loaded lk = true).
Proof.
  intros to ch f n h x t LR L Hx. destruct (lreach_ok h LR) as (W & HH). destruct (load_ready _ _ _ _ _ _ W HH L) as (Cs & lk & R & TA). pose proof L as L0.
  destruct (load_LWF to ch f n h x t Cs lk R) as (h' & Rs & E & LQ). pose proof (lr_tree _ _ _ _ _ _ _ _ R) as HT. pose proof (proj1 (ltree_iff _ _ _) HT) as (Ek & HK). rewrite Forall_forall in HK.
  exists h', (Node t Cs), (Node x Rs). split; [exact E|]. split; [replace h' with (fst (load_links to ch f (S n) x h)) by (rewrite E; reflexivity); eapply LReach_load; eassumption|].
  split; [exact TA|]. destruct LQ as (W' & HO & Hn & T1 & T2 & T3 & T4 & T5 & T6 & S1 & S2 & S3 & FD & M1 & M2 & M3 & RR & NR & FR).
  cbv zeta in *. change (nitems (hnode h x)) with (children h x) in *. rewrite Hx in *. cbn [locals coupled_from] in *.
  pose proof (keys_from_length (tags h) (map root Cs) []) as Lk. rewrite map_length in Lk. pose proof (Forall2_len _ _ _ FD) as Ln. rewrite combine_length, Lk, Nat.min_id in Ln.
  rewrite merge_new, combine_snd in HO by (rewrite Lk, map_length; exact Ln).
  assert (Cp : forall C', In C' Rs -> exists C co, In C Cs /\ copy_of h h' C co C').
  { intros C' HC'. destruct (Forall2_in_r _ _ _ FD C' HC') as (p & Hp & H & _). exists (snd p), (find_coupled [] (fst p)). split; [|exact H].
    apply (in_map snd) in Hp. rewrite combine_snd in Hp by exact Lk. exact Hp. }
  assert (TX : ltree (view h') (Node x Rs)).
  { apply ltree_iff. split; [symmetry; exact HO|]. apply Forall_forall. intros C' HC'. destruct (Cp C' HC') as (C & co & _ & H). apply (copy_facts _ _ _ _ _ H). }
  split; [split; [reflexivity|exact TX]|].
  pose proof (copies_pre _ _ _ _ _ _ _ FD) as CPre. rewrite combine_snd in CPre by exact Lk.
  assert (Fst : forall (l : list ((pyval * Z) * tree loc)), Forall2 (item_done h x h' [] []) l Rs -> map (tv h') (map root Rs) = map (tv h) (map root (map snd l))).
  { intros l HL. clear - HL. induction HL as [|p C' l l' H _ IH]; [reflexivity|]. cbn [map]. rewrite IH. f_equal. apply (copy_facts _ _ _ _ _ (proj1 H)). }
  split. { change (children h' x) with (nitems (hnode h' x)). rewrite HO. unfold children. rewrite <- Ek. specialize (Fst _ FD). rewrite combine_snd in Fst by exact Lk. exact Fst. }
  split; [exact CPre|]. split.
  { cbn [kids]. assert (Sh : forall (l : list ((pyval * Z) * tree loc)) Rs0, Forall2 (item_done h x h' [] []) l Rs0 -> map (tmap (tv h')) Rs0 = map (tmap (tv h)) (map snd l) <-> forall C, In C (map snd l) -> last_only (kids C)).
    { clear. intros l Rs0 HL. induction HL as [|p C' l l' H _ IH]; [split; [intros _ C []|reflexivity]|]. cbn [map]. destruct (copy_facts _ _ _ _ _ (proj1 H)) as (_ & _ & _ & Q & _). split.
      - intros K. injection K as K1 K2. intros C [<-|HC]; [apply Q; exact K1|apply IH; assumption].
      - intros K. f_equal; [apply Q, K; left; reflexivity|apply IH; intros C HC; apply K; right; exact HC]. }
    specialize (Sh _ _ FD). rewrite combine_snd in Sh by exact Lk. change (tag_value h') with (tv h'). change (tag_value h) with (tv h). rewrite Sh. split.
    - intros K c Hc. unfold children in Hc. rewrite <- Ek in Hc. apply in_map_iff in Hc as (C & <- & HC). apply nested_last_iff; [apply HK; exact HC|apply K; exact HC].
    - intros K C HC. apply nested_last_iff with (h := h); [apply HK; exact HC|]. apply K. unfold children. rewrite <- Ek. apply in_map. exact HC. }
  split.
  { cbn [below_tree]. intros y Hy. split; [apply RR; exact Hy|]. rewrite <- linked_flag. apply in_flat_map in Hy as (C' & HC' & Hy). destruct (Cp C' HC') as (C & co & _ & H). apply (copy_facts _ _ _ _ _ H). exact Hy. }
  split. { intros y Y1 Y2. specialize (S1 y Y1 Y2 ltac:(intros [])). apply strip_nview in S1. exact S1. }
  split; [unfold tag_value, tag_of; cbn; rewrite T1, T2; reflexivity|]. split; [exact T3|]. split; [unfold parent_of; cbn; rewrite T5; reflexivity|]. cbn. rewrite T6. eexists. split; [reflexivity|]. reflexivity.
Qed.
(** checking the hypotheses on concrete states *)
Definition known_b (h : heap) (y : loc) : bool := match snd (get_tag_idx y h) with Ok (TIPair _ _) => true | _ => false end.
Lemma known_b_ok h y : known_b h y = true -> has_tag_idx h y.
Proof. unfold known_b, has_tag_idx. destruct (snd (get_tag_idx y h)) as [[| |]|]; try discriminate. eauto. Qed.
Definition load_b (f : bool) (h : heap) (x : loc) (T : tree loc) : bool :=
  Nat.ltb x (hnext h) && flag h x 5 && match a_link (view h x) with Some lk => f || negb (lk_loaded lk) | None => false end &&
  forallb (fun y => negb (flag h y 4) || pyval_eqb (a_val (view h y)) (PInt (Z.of_nat (fam_index h x y)))) (children h x) && Nat.ltb (root T) (hnext h) && negb (existsb (Nat.eqb x) (flatten T)) &&
  forallb (fun c => negb (flag h c 3) && known_b h c) (children h (root T)) && forallb (fun y => negb (flag h y 5)) (below_tree T).
Lemma load_b_ok ch f h x T : tree_at h (root T) T -> load_b f h x T = true -> load_case (fun _ _ => Ok (root T)) ch f h x (root T).
Proof.
  intros (_ & HT) H. unfold load_b in H. repeat (apply andb_true_iff in H as [H ?]). rewrite forallb_forall in *.
  match goal with K : forall x0, In x0 (below_tree T) -> _ |- _ => rename K into HB end.
  match goal with K : forall x0, In x0 (children h (root T)) -> _ |- _ => rename K into HC end.
  assert (HX : ~ In x (flatten T)). { intros K. match goal with N : negb _ = true |- _ => apply negb_true_iff in N; rewrite <- not_true_iff_false in N; apply N end. apply existsb_exists. exists x. split; [exact K|apply Nat.eqb_refl]. }
  assert (Sub : forall c y, In c (children h (root T)) -> Below h c y -> Below h (root T) y). { intros c y Hc. induction 1 as [y Hy|q y _ IH Hy]; [eapply below_step; [apply below_child; exact Hc|exact Hy]|eapply below_step; [exact IH|exact Hy]]. }
  constructor; auto.
  - apply Nat.ltb_lt. assumption.
  - destruct (a_link (view h x)) as [lk|]; [|discriminate]. exists lk. split; [reflexivity|]. destruct f; [auto|]. destruct (lk_loaded lk); [discriminate|auto].
  - match goal with K : forall x0, In x0 (children h x) -> _ |- _ => rename K into HP end. intros y Hy Hf. specialize (HP y Hy). rewrite Hf in HP. apply pyval_eqb_eq. exact HP.
  - apply Nat.ltb_lt. assumption.
  - split; [intros ->; apply HX; destruct T; left; reflexivity|]. intros K. apply HX. apply (Below_tree h T HT) in K. destruct T; right; exact K.
  - intros c Hc. pose proof (HC c Hc) as K. apply andb_true_iff in K as (K1 & K2). split; [apply negb_true_iff; exact K1|]. split; [|apply known_b_ok; exact K2].
    apply negb_true_iff, HB. apply (Below_tree h T HT). apply below_child. exact Hc.
  - intros c y Hc Hy K. assert (K' : negb (flag h y 5) = true) by (apply HB, (Below_tree h T HT); eapply Sub; eassumption). rewrite K in K'. discriminate.
Qed.
Definition local_b (h : heap) (p x : loc) (T : tree loc) : bool :=
  existsb (Nat.eqb x) (children h p) && flag h x 3 && flag h p 5 && known_b h x && Nat.eqb (root T) x && forallb (fun y => negb (flag h y 5)) (below_tree T).
Lemma local_b_ok h p x T : tree_at h x T -> local_b h p x T = true -> local_case h p x.
Proof.
  intros (Er & HT) H. unfold local_b in H. repeat (apply andb_true_iff in H as [H ?]). rewrite forallb_forall in *. apply existsb_exists in H as (z & Hz & Ez). apply Nat.eqb_eq in Ez. subst z.
  constructor; auto.
  - apply known_b_ok. assumption.
  - intros y Hy K. rewrite <- Er in Hy. apply (Below_tree h T HT) in Hy. match goal with N : forall y, In y (below_tree T) -> _ |- _ => apply N in Hy end. rewrite K in Hy. discriminate.
Qed.

(** 0 "root" with 1 "a", 2 "b", 3 "a" (with 5 "y"; below it 4 "x"); link root 6 *)
Definition lk_ops : list op :=
  [ ONew (PStr "root") PNoValue [EArgs (PStr "a") (PInt 1); EArgs (PStr "b") (PInt 2); EArgs (PStr "a") (PInt 3)] None 0;
    ONew (PStr "x") (PInt 4) [] None 0; ONew (PStr "y") (PInt 5) [] None 0; OAppend 5 (IItem 4); OAppend 3 (IItem 5);
    ONew (PStr "link") (PInt 6) [] (Some 1) 0 ].
Definition lk_heap : heap := runs lk_ops empty_heap.
Definition lk_tree : tree loc := Node 0 [Node 1 []; Node 2 []; Node 3 [Node 5 [Node 4 []]]].
Definition lk_to (t : loc) : heap -> loc -> res loc := fun _ _ => Ok t.
Definition never : heap -> loc -> bool := fun _ _ => false.
Lemma lk_reach : LReach lk_heap. Proof. apply Reach_LReach, reach_runs; [constructor|vm_compute; reflexivity]. Qed.
Example C44_case : LReach lk_heap /\ load_case (lk_to 0) never false lk_heap 6 0 /\ children lk_heap 6 = [] /\
  (forall c, In c (children lk_heap 0) -> nested_last lk_heap c) /\
  let h' := fst (load_links (lk_to 0) never false 201 6 lk_heap) in tree_at h' 6 (Node 6 [Node 7 []; Node 8 []; Node 9 [Node 10 [Node 11 []]]]).
Proof.
  split; [exact lk_reach|]. assert (TA : tree_at lk_heap 0 lk_tree) by (split; [reflexivity|vm_compute; auto 20]).
  split; [apply (load_b_ok never false lk_heap 6 lk_tree TA); vm_compute; reflexivity|]. split; [vm_compute; reflexivity|].
  split; [|split; [reflexivity|vm_compute; auto 20]]. intros c Hc. destruct TA as (_ & HT). pose proof (proj1 (ltree_iff _ _ _) HT) as (_ & HK). rewrite Forall_forall in HK.
  assert (Hc' : In c [1; 2; 3]) by (vm_compute in Hc; exact Hc). destruct Hc' as [<-|[<-|[<-|[]]]];
    [apply (proj1 (nested_last_iff _ _ (HK (Node 1 []) ltac:(cbn; auto))))|apply (proj1 (nested_last_iff _ _ (HK (Node 2 []) ltac:(cbn; auto))))|apply (proj1 (nested_last_iff _ _ (HK (Node 3 [Node 5 [Node 4 []]]) ltac:(cbn; auto))))]; cbn [kids]; repeat constructor.
Qed.
(** a nested item with a following sibling: the sibling is copied below it *)
Definition lk2_ops : list op :=
  [ ONew (PStr "root") PNoValue [EArgs (PStr "a") (PInt 1)] None 0; ONew (PStr "b") (PInt 2) [EArgs (PStr "x") (PInt 3)] None 0;
    OAppend 1 (IItem 2); OAppend 1 (IVal (PInt 4)); ONew (PStr "link") (PInt 6) [] (Some 1) 0 ].
Definition lk2_heap : heap := runs lk2_ops empty_heap.
Theorem C44_shape_refuted : exists h x t T T', LReach h /\ load_case (lk_to t) never false h x t /\ children h x = [] /\ tree_at h t T /\
  tree_at (fst (load_links (lk_to t) never false 201 x h)) x T' /\
  kids T = [Node 1 [Node 2 [Node 3 []]; Node 4 []]] /\ kids T' = [Node 6 [Node 7 [Node 8 []; Node 9 []]]].
Proof.
  exists lk2_heap, 5, 0, (Node 0 [Node 1 [Node 2 [Node 3 []]; Node 4 []]]), (Node 5 [Node 6 [Node 7 [Node 8 []; Node 9 []]]]).
  split; [apply Reach_LReach, reach_runs; [constructor|vm_compute; reflexivity]|].
  assert (TA : tree_at lk2_heap 0 (Node 0 [Node 1 [Node 2 [Node 3 []]; Node 4 []]])) by (split; [reflexivity|vm_compute; auto 20]).
  split; [apply (load_b_ok never false lk2_heap 5 _ TA); vm_compute; reflexivity|]. split; [vm_compute; reflexivity|]. split; [exact TA|].
  split; [split; [reflexivity|vm_compute; auto 20]|]. split; reflexivity.
Qed.
Definition uncovered_b (h : heap) : bool :=
  forallb (fun y => match a_link (view h y) with Some k => match lk_cover k with None => true | Some _ => false end | None => true end) (seq 0 (hnext h)).
Lemma uncovered_b_ok h : uncovered_b h = true -> uncovered h.
Proof.
  unfold uncovered_b. rewrite forallb_forall. intros H x k Hx E. specialize (H x ltac:(apply in_seq; lia)). rewrite E in H. destruct (lk_cover k); [discriminate|reflexivity].
Qed.
(** linking to a link root that is loaded: its linked children are not copied, they become children of both *)
Theorem C44_linked_target_refuted : exists h x t y, LReach h /\ flag h x 5 = true /\ children h x = [] /\ x <> t /\ ~ Below h t x /\ flag h y 3 = true /\ In y (children h t) /\
  let r := load_links (lk_to t) never false 201 x h in snd r = Ok true /\ In y (children (fst r) t) /\ In y (children (fst r) x) /\ parent_of (fst r) y = Some x.
Proof.
  pose (h1 := fst (load_links (lk_to 0) never false 201 6 lk_heap)).
  assert (R1 : LReach h1). { apply LReach_load with (t := 0); [exact lk_reach|]. exact (proj1 (proj2 C44_case)). }
  pose (h2 := after (ONew (PStr "second") (PInt 7) [] (Some 2) 0) h1).
  assert (R2 : LReach h2) by (apply LReach_op; [exact R1|apply uncovered_b_ok; vm_compute; reflexivity|constructor]).
  assert (TA : ltree (view h2) (Node 6 [Node 7 []; Node 8 []; Node 9 [Node 10 [Node 11 []]]])) by (vm_compute; auto 20).
  exists h2, 12, 6, 7. split; [exact R2|]. split; [vm_compute; reflexivity|]. split; [vm_compute; reflexivity|]. split; [discriminate|].
  split. { intros K. apply (Below_tree h2 _ TA) in K. cbn in K. intuition discriminate. }
  split; [vm_compute; reflexivity|]. split; [vm_compute; auto|]. vm_compute. auto 10.
Qed.

(** * C45 *)
Theorem C45_make_local_partial : forall h p x copy_subtree, LReach h -> local_case h p x ->
  exists h' new l1 l2 T T', make_local x copy_subtree h = (h', Ok new) /\ LReach h' /\
    (* the same position, also in the family *)
    children h p = l1 ++ x :: l2 /\ children h' p = l1 ++ new :: l2 /\ parent_of h' new = Some p /\ key h' p new = key h p x /\
    (* the same tag and value, not linked *)
    tag_value h' new = tag_value h x /\ flag h' new 3 = false /\
    (* in preorder the same items below, all new; the same shape exactly if nested items are last *)
    tree_at h x T /\ tree_at h' new T' /\ hnext h <= new < hnext h' /\ (forall y, In y (below_tree T') -> hnext h <= y < hnext h') /\
    (copy_subtree = false -> children h' new = []) /\
    (copy_subtree = true -> map (tag_value h') (below_tree T') = map (tag_value h) (below_tree T) /\ (tmap (tag_value h') T' = tmap (tag_value h) T <-> nested_last h x)) /\
    (* the other items are unchanged, also the linked item itself *)
    (forall y, y < hnext h -> y <> p -> view h' y = view h y) /\ view h' p = a_set_children (l1 ++ new :: l2) (view h p) /\
    option_map lk_cover (a_link (view h' new)) = Some (Some x).
Proof.
  intros h p x b LR L. destruct (lreach_ok h LR) as (W & _). destruct (local_ready _ _ _ W L) as (l1 & l2 & T & R). pose proof R as [_ El NL Lp HN HT Er HG].
  destruct (make_local_ok h p l1 x l2 T b W El NL Lp HN HT Er HG) as (h' & Ts & E & X1 & O1 & V1 & S1 & F1 & D1 & P1 & PN & DN & ON & BN & LN & RN & NN & CN & CV).
  assert (LR' : LReach h') by (replace h' with (fst (make_local x b h)) by (rewrite E; reflexivity); eapply LReach_local; eassumption).
  pose proof (proj1 (lreach_ok h' LR')) as W'.
  exists h', (hnext h), l1, l2, T, (Node (hnext h) Ts). split; [exact E|]. split; [exact LR'|]. split; [exact El|].
  assert (Ch' : children h' p = l1 ++ hnext h :: l2) by (unfold children; rewrite V1; reflexivity). split; [exact Ch'|].
  split; [unfold parent_of; cbn; rewrite PN; reflexivity|].
  assert (Tg : tag_of h' (hnext h) = tag_of h x) by (unfold tag_of; cbn; injection DN; auto).
  assert (Vl : a_val (view h' (hnext h)) = a_val (view h x)) by (cbn; injection DN; auto).
  assert (ND : NoDup (l1 ++ x :: l2)). { rewrite <- El. apply (fo_nodup _ _ (lw_forest _ W) p). }
  assert (ND' : NoDup (l1 ++ hnext h :: l2)). { rewrite <- Ch'. apply (fo_nodup _ _ (lw_forest _ W') p). }
  assert (Sm : forall y, In y l1 -> tag_of h' y = tag_of h y).
  { intros y Hy. assert (K : In y (nitems (hnode h p))) by (rewrite El; apply in_app_iff; auto). assert (y <> p) by (intros ->; apply (not_self_parent _ _ (fo_root _ _ (lw_forest _ W) p)); apply (fo_child _ _ (lw_forest _ W)); exact K).
    pose proof (S1 y (proj2 (LWF_child_lt h p y W K)) H) as Q. apply strip_fields in Q. apply Q. }
  split.
  { unfold key. rewrite Tg. f_equal. unfold fam_index. rewrite Tg. change (with_tag (view h') p (tag_of h x)) with (byt (tag_of h') (tag_of h x) (children h' p)).
    change (with_tag (view h) p (tag_of h x)) with (byt (tag_of h) (tag_of h x) (children h p)). rewrite Ch'. change (children h p) with (nitems (hnode h p)). rewrite El.
    rewrite (posn_mid (tag_of h) l1 x l2 ND). rewrite <- Tg at 1. rewrite (posn_mid (tag_of h') l1 (hnext h) l2 ND'). f_equal. rewrite Tg. apply filter_ext_in. intros y Hy. rewrite Sm by exact Hy. reflexivity. }
  split; [unfold tag_value; rewrite Tg, Vl; reflexivity|].
  split. { rewrite <- linked_flag. unfold is_linked. injection DN as _ _ -> _ _. apply unlinked_mask. }
  split; [split; [exact Er|exact HT]|].
  split. { split; [reflexivity|]. apply ltree_iff. split; [symmetry; apply ON|]. eapply Forall_impl; [|exact BN]. intros U HU. eapply built_ltree. exact HU. }
  split; [lia|]. split; [cbn [below_tree]; intros y Hy; specialize (RN y Hy); lia|].
  split. { intros ->. destruct Ts; [destruct ON as (ON & _); exact ON|discriminate]. }
  split.
  { intros ->. destruct T as [x' cs]. cbn in Er. subst x'. cbn [kids below_tree] in *. split; [apply copied_pre; exact LN|]. cbn [tmap]. rewrite <- (nested_last_iff h (Node x cs) HT). cbn [kids].
    change (tag_value h') with (tv h'). change (tag_value h) with (tv h). rewrite (copied_tv _ _ _ _ LN). assert (Et : tv h' (hnext h) = tv h x) by (unfold tv; rewrite Vl; f_equal; exact Tg). rewrite Et. split.
    - intros Q. injection Q as Q. rewrite <- (last_tmap (tv h)), <- Q. apply last_tmap, cat_last.
    - intros Q. rewrite last_cat by exact Q. reflexivity. }
  split. { intros y Y1 Y2. specialize (S1 y Y1 Y2). apply strip_nview in S1. exact S1. }
  split; [exact V1|]. cbn. injection DN as _ _ _ -> _. reflexivity.
Qed.
(** the linked item 9 "a" of the loaded link root 6 *)
Definition lk1_heap : heap := fst (load_links (lk_to 0) never false 201 6 lk_heap).
Lemma lk1_reach : LReach lk1_heap. Proof. apply LReach_load with (t := 0); [exact lk_reach|]. exact (proj1 (proj2 C44_case)). Qed.
Example C45_case : LReach lk1_heap /\ local_case lk1_heap 6 9 /\ nested_last lk1_heap 9 /\
  let r := make_local 9 true lk1_heap in snd r = Ok 12 /\ children (fst r) 6 = [7; 8; 12] /\ tree_at (fst r) 12 (Node 12 [Node 13 [Node 14 []]]) /\ key (fst r) 6 12 = (PStr "a", 1).
Proof.
  split; [exact lk1_reach|]. assert (TA : tree_at lk1_heap 9 (Node 9 [Node 10 [Node 11 []]])) by (split; [reflexivity|vm_compute; auto 20]).
  split; [apply (local_b_ok _ _ _ _ TA); vm_compute; reflexivity|].
  split; [apply (proj1 (nested_last_iff _ _ (proj2 TA))); repeat constructor|]. split; [vm_compute; reflexivity|]. split; [vm_compute; reflexivity|]. split; [split; [reflexivity|vm_compute; auto 20]|vm_compute; reflexivity].
Qed.
(** the copied items below the new local item are marked as linked, and the replaced item still names its parent *)
Theorem C45_nested_linked_refuted : exists h p x y, LReach h /\ local_case h p x /\
  let r := make_local x true h in exists new, snd r = Ok new /\ Below (fst r) new y /\ flag (fst r) y 3 = true /\ flag (fst r) new 3 = false /\
  parent_of (fst r) x = Some p /\ ~ In x (children (fst r) p).
Proof.
  exists lk1_heap, 6, 9, 13. split; [exact lk1_reach|]. split; [exact (proj1 (proj2 C45_case))|]. cbv zeta. exists 12. split; [vm_compute; reflexivity|].
  split; [apply below_child; vm_compute; auto|]. split; [vm_compute; reflexivity|]. split; [vm_compute; reflexivity|]. split; [vm_compute; reflexivity|]. vm_compute. intuition discriminate.
Qed.
(** below the linked item "a": "b" (with "x") and "c"; in the local copy "c" is below "b" *)
Definition lk3_ops : list op :=
  [ ONew (PStr "b") (PInt 2) [EArgs (PStr "x") (PInt 3)] None 0; ONew (PStr "a") (PInt 1) [EItem 0; EArgs (PStr "c") (PInt 4)] None 8;
    ONew (PStr "link") PNoValue [EItem 2] (Some 1) 0 ].
Definition lk3_heap : heap := runs lk3_ops empty_heap.
Theorem C45_shape_refuted : exists h p x new T T', LReach h /\ local_case h p x /\ snd (make_local x true h) = Ok new /\
  tree_at h x T /\ tree_at (fst (make_local x true h)) new T' /\ T = Node 2 [Node 0 [Node 1 []]; Node 3 []] /\ T' = Node 5 [Node 6 [Node 7 []; Node 8 []]].
Proof.
  exists lk3_heap, 4, 2, 5, (Node 2 [Node 0 [Node 1 []]; Node 3 []]), (Node 5 [Node 6 [Node 7 []; Node 8 []]]).
  split; [apply Reach_LReach, reach_runs; [constructor|vm_compute; reflexivity]|].
  assert (TA : tree_at lk3_heap 2 (Node 2 [Node 0 [Node 1 []]; Node 3 []])) by (split; [reflexivity|vm_compute; auto 20]).
  split; [apply (local_b_ok _ _ _ _ TA); vm_compute; reflexivity|]. split; [vm_compute; reflexivity|]. split; [exact TA|]. split; [split; [reflexivity|vm_compute; auto 20]|]. split; reflexivity.
Qed.

(** * C46 *)
(** The children that stay: a linked child directly behind a child that was not dropped as such is
    dropped, placeholders are dropped. *)
Fixpoint staying (linked place : loc -> bool) (drop : bool) (l : list loc) : list loc :=
  match l with
  | [] => []
  | y :: r => if linked y && drop then staying linked place false r else if place y then staying linked place true r else y :: staying linked place true r
  end.
Definition stay (h : heap) (x : loc) : list loc := staying (fun y => flag h y 3) (fun y => flag h y 4) false (children h x).
(** every linked child directly follows a local one *)
Definition linked_follow (h : heap) (x : loc) : Prop :=
  forall l1 y l2, children h x = l1 ++ y :: l2 -> flag h y 3 = true -> exists l0 z, l1 = l0 ++ [z] /\ flag h z 3 = false.
Lemma staying_in lk pl l : forall d y, In y (staying lk pl d l) -> In y l.
Proof. induction l as [|a r IH]; intros d y; [auto|]. cbn. destruct (lk a && d); [intros H; right; eapply IH; exact H|destruct (pl a); [intros H; right; eapply IH; exact H|intros [<-|H]; [auto|right; eapply IH; exact H]]]. Qed.
Lemma staying_real lk pl l : forall d y, In y (staying lk pl d l) -> pl y = false.
Proof. induction l as [|a r IH]; intros d y; [intros []|]. cbn. destruct (lk a && d); [apply IH|]. destruct (pl a) eqn:E; [apply IH|]. intros [<-|H]; [exact E|eapply IH; exact H]. Qed.
Lemma staying_local lk pl l : forall d y, In y l -> lk y = false -> pl y = false -> In y (staying lk pl d l).
Proof.
  induction l as [|a r IH]; intros d y; [auto|]. cbn. intros [->|H] E E'; [rewrite E, E'; left; reflexivity|]. destruct (lk a && d); [apply IH; assumption|]. destruct (pl a); [apply IH; assumption|right; apply IH; assumption].
Qed.
Lemma staying_follow lk pl l : forall pre d, (d = true <-> exists l0 z, pre = l0 ++ [z] /\ lk z = false) ->
  (forall l1 y l2, l = l1 ++ y :: l2 -> lk y = true -> exists l0 z, pre ++ l1 = l0 ++ [z] /\ lk z = false) -> forall y, In y (staying lk pl d l) -> lk y = false.
Proof.
  induction l as [|a r IH]; intros pre d Hd H y; [intros []|]. cbn [staying]. destruct (lk a) eqn:Ea; cbn [andb].
  - destruct (H [] a r eq_refl Ea) as (l0 & z & E & Ez). rewrite app_nil_r in E. rewrite (proj2 Hd) by eauto.
    apply (IH (pre ++ [a])); [|intros l1 y0 l2 E0 Ey; rewrite <- app_assoc; apply (H (a :: l1) y0 l2); [rewrite E0; reflexivity|exact Ey]].
    split; [discriminate|]. intros (l3 & z' & E' & Ez'). apply app_inj_tail in E' as (_ & <-). congruence.
  - assert (Go : In y (staying lk pl true r) \/ y = a -> lk y = false). 2:{ destruct (pl a); [auto|]. intros [<-|Hy]; auto. }
    intros [Hy| ->]; [|exact Ea]. apply (IH (pre ++ [a]) true); [|intros l1 y0 l2 E0 Ey; rewrite <- app_assoc; apply (H (a :: l1) y0 l2); [rewrite E0; reflexivity|exact Ey]|exact Hy].
    split; [eauto|reflexivity].
Qed.
Definition zkey (tg : loc -> pyval) (l : list loc) (y : loc) : pyval * Z := (tg y, Z.of_nat (posn (byt tg (tg y) l) y)).
Lemma kept_staying h l : forall add pre, NoDup (pre ++ l) -> kept_of (locals h add pre l) = map (fun y => (zkey (tags h) (pre ++ l) y, y)) (staying (is_linked h) (fun y => has (nflags (hnode h y)) PLACEHOLDER) add l).
Proof.
  induction l as [|y r IH]; intros add pre ND; [reflexivity|]. cbn [locals staying].
  assert (E : (ntag (hnode h y), Z.of_nat (length (byt (tags h) (ntag (hnode h y)) pre))) = zkey (tags h) (pre ++ y :: r) y) by (unfold zkey; rewrite (posn_mid (tags h) pre y r ND); reflexivity).
  assert (IH' : forall b, kept_of (locals h b (pre ++ [y]) r) = map (fun y0 => (zkey (tags h) (pre ++ y :: r) y0, y0)) (staying (is_linked h) (fun y => has (nflags (hnode h y)) PLACEHOLDER) b r)).
  { intros b. rewrite IH by (rewrite <- app_assoc; exact ND). rewrite <- app_assoc. reflexivity. }
  destruct (is_linked h y && add); [|destruct (has _ _)]; unfold kept_of; cbn [flat_map snd fst]; fold (kept_of (locals h false (pre ++ [y]) r)); fold (kept_of (locals h true (pre ++ [y]) r)); rewrite IH'; [reflexivity|reflexivity|]. cbn [app map]. rewrite E. reflexivity.
Qed.
Lemma coupled_zkey h l : forall pre, NoDup (pre ++ l) -> coupled_from h pre l =
  flat_map (fun y => match is_linked h y, ncoupled (hnode h y) with true, Some c => [(zkey (tags h) (pre ++ l) y, c)] | _, _ => [] end) l.
Proof.
  induction l as [|y r IH]; intros pre ND; [reflexivity|]. cbn [coupled_from flat_map].
  assert (E : (ntag (hnode h y), Z.of_nat (length (byt (tags h) (ntag (hnode h y)) pre))) = zkey (tags h) (pre ++ y :: r) y) by (unfold zkey; rewrite (posn_mid (tags h) pre y r ND); reflexivity).
  rewrite E, IH by (rewrite <- app_assoc; exact ND). rewrite <- app_assoc. cbn [app]. destruct (is_linked h y), (ncoupled (hnode h y)); reflexivity.
Qed.
Lemma zkey_key h p y q z : zkey (tags h) (children h p) y = zkey (tags h) (children h q) z <-> key h p y = key h q z.
Proof.
  assert (E : forall r w, zkey (tags h) (children h r) w = (fst (key h r w), Z.of_nat (snd (key h r w)))) by (intros; reflexivity). rewrite !E.
  destruct (key h p y) as [a b], (key h q z) as [c d]. cbn [fst snd]. split; intros K; injection K as K1 K2; [|congruence]. apply Nat2Z.inj in K2. congruence.
Qed.
Lemma combine_posn {B} (f : loc -> B) l : forall r, NoDup l -> length l = length r -> combine (map f l) r = map (fun c => (f c, nth (posn l c) r 0)) l.
Proof.
  induction l as [|a l IH]; intros [|b r] ND E; try discriminate; [reflexivity|]. cbn [map combine]. f_equal; [rewrite (posn_nth (a :: l) 0 a ND eq_refl); reflexivity|].
  inversion ND as [|? ? N1 N2]; subst. rewrite IH by (try exact N2; cbn in E; lia). apply map_ext_in. intros c Hc. destruct (In_nth_error _ _ Hc) as (k & Hk).
  rewrite (posn_nth (a :: l) (S k) c ND Hk), (posn_nth l k c N2 Hk). reflexivity.
Qed.
Lemma Forall2_nth {A B} (R : A -> B -> Prop) l m : Forall2 R l m -> forall i a, nth_error l i = Some a -> exists b, nth_error m i = Some b /\ R a b.
Proof. induction 1 as [|a b l m H _ IH]; intros [|i] c E; try discriminate; [injection E as <-; exists b; auto|]. apply IH. exact E. Qed.
Lemma staying_ext lk lk' pl pl' l : (forall y, lk y = lk' y) -> (forall y, pl y = pl' y) -> forall d, staying lk pl d l = staying lk' pl' d l.
Proof. intros E E'. induction l as [|y r IH]; intros d; [reflexivity|]. cbn. rewrite E, E', !IH. reflexivity. Qed.
Lemma find_coupled_spec h l k : NoDup (map (zkey (tags h) l) l) ->
  let cl := flat_map (fun y => match is_linked h y, ncoupled (hnode h y) with true, Some c => [(zkey (tags h) l y, c)] | _, _ => [] end) l in
  (forall z, In z l -> is_linked h z = true -> zkey (tags h) l z = k -> find_coupled cl k = ncoupled (hnode h z)) /\
  ((forall z, In z l -> is_linked h z = true -> zkey (tags h) l z <> k) -> find_coupled cl k = None).
Proof.
  cbv zeta. generalize (zkey (tags h) l) as f. intros f. induction l as [|y r IH]; intros ND; [split; [intros z []|reflexivity]|].
  cbn [map] in ND. inversion ND as [|? ? N1 N2]; subst. destruct (IH N2) as (I1 & I2). clear IH. unfold find_coupled in *. cbn [flat_map].
  split.
  - intros z [->|Hz] Hl E.
    + rewrite Hl. destruct (ncoupled (hnode h z)) as [c|] eqn:Ec; [cbn [app find fst]; rewrite E, key_eqb_refl; reflexivity|]. cbn [app]. apply I2. intros w Hw _ K. apply N1. rewrite E, <- K. apply in_map. exact Hw.
    + rewrite <- (I1 z Hz Hl E). destruct (is_linked h y), (ncoupled (hnode h y)); cbn [app]; try reflexivity. cbn [find fst]. destruct (key_eqb (f y) k) eqn:K; [|reflexivity].
      apply key_eqb_eq in K. exfalso. apply N1. rewrite K, <- E. apply in_map. exact Hz.
  - intros H. rewrite <- I2 at 1 by (intros z Hz; apply H; right; exact Hz). destruct (is_linked h y) eqn:El, (ncoupled (hnode h y)); cbn [app]; try reflexivity. cbn [find fst].
    destruct (key_eqb (f y) k) eqn:K; [|reflexivity]. apply key_eqb_eq in K. exfalso. apply (H y); [left; reflexivity|exact El|exact K].
Qed.
Lemma zkey_NoDup tg l : NoDup l -> NoDup (map (zkey tg l) l).
Proof. intros ND. pose proof (keys_map tg l [] ND) as E. cbn [app] in E. change (map (zkey tg l) l) with (map (fun y => (tg y, Z.of_nat (posn (byt tg (tg y) l) y))) l). rewrite <- E. apply keys_from_NoDup. Qed.

Theorem C46_merge_partial : forall target_of changed force n h x t, LReach h -> load_case target_of changed force h x t ->
  exists h' (copy rep : loc -> loc), load_links target_of changed force (S n) x h = (h', Ok true) /\ LReach h' /\
    (* each child of the target is copied: a new linked item; it takes over the coupled object of the linked child with its key *)
    (forall c, In c (children h t) -> hnext h <= copy c < hnext h' /\ tag_value h' (copy c) = tag_value h c /\ flag h' (copy c) 3 = true /\
       (forall z, In z (children h x) -> flag h z 3 = true -> key h x z = key h t c -> a_coupled (view h' (copy c)) = a_coupled (view h z)) /\
       ((forall z, In z (children h x) -> flag h z 3 = true -> key h x z <> key h t c) -> a_coupled (view h' (copy c)) = None)) /\
    (* it is represented by the staying child with its key, which covers the copy, or by the copy *)
    (forall c, In c (children h t) ->
       (exists y, In y (stay h x) /\ key h x y = key h t c /\ rep c = y /\ parent_of h' (copy c) = None /\ exists lk, a_link (view h' y) = Some lk /\ lk_cover lk = Some (copy c)) \/
       ((forall y, In y (stay h x) -> key h x y <> key h t c) /\ rep c = copy c)) /\
    (* the children are the staying ones and the representatives, nothing twice; the representatives are in the order of the target *)
    NoDup (children h' x) /\
    (forall y, In y (children h' x) <-> In y (stay h x) \/ In y (map rep (children h t))) /\
    filter (fun y => existsb (Nat.eqb y) (map rep (children h t))) (children h' x) = map rep (children h t) /\
    (* all local children stay, no placeholder does *)
    (forall y, In y (children h x) -> flag h y 3 = false -> flag h y 4 = false -> In y (stay h x) /\ In y (children h' x)) /\
    (forall y, In y (children h x) -> flag h y 4 = true -> ~ In y (children h' x)) /\
    (* no linked child stays if every one directly follows a local child *)
    (linked_follow h x -> forall y, In y (children h' x) -> flag h' y 3 = true -> exists c, In c (children h t) /\ y = copy c /\ rep c = copy c) /\
    (* the old children keep everything but their link; a link only changes to cover a copy *)
    (forall y, In y (children h x) -> tag_value h' y = tag_value h y /\ a_flags (view h' y) = a_flags (view h y) /\ children h' y = children h y /\
       a_coupled (view h' y) = a_coupled (view h y) /\ parent_of h' y = Some x /\
       ((forall c, In c (children h t) -> rep c <> y) -> a_link (view h' y) = a_link (view h y))) /\
    (* nothing else changes *)
    (forall y, y < hnext h -> y <> x -> ~ In y (children h x) -> view h' y = view h y) /\
    tag_value h' x = tag_value h x /\ a_flags (view h' x) = a_flags (view h x) /\ parent_of h' x = parent_of h x.
Proof.
  intros to ch f n h x t LR L. destruct (lreach_ok h LR) as (W & HH). destruct (load_ready _ _ _ _ _ _ W HH L) as (Cs & lk & R & TA).
  destruct (load_LWF to ch f n h x t Cs lk R) as (h' & Rs & E & LQ). pose proof (lr_tree _ _ _ _ _ _ _ _ R) as HT. pose proof (proj1 (ltree_iff _ _ _) HT) as (Ek & _).
  change (map root Cs = children h t) in Ek.
  assert (LR' : LReach h') by (replace h' with (fst (load_links to ch f (S n) x h)) by (rewrite E; reflexivity); eapply LReach_load; eassumption).
  destruct LQ as (W' & HO & Hn & T1 & T2 & T3 & T4 & T5 & T6 & S1 & S2 & S3 & FD & M1 & M2 & M3 & RR & NR & FR). cbv zeta in *.
  change (nitems (hnode h x)) with (children h x) in *. rewrite Ek in *.
  pose proof (fo_nodup _ _ (lw_forest _ W) x) as NDx. change (a_children (view h x)) with (children h x) in NDx.
  pose proof (fo_nodup _ _ (lw_forest _ W) t) as NDt. change (a_children (view h t)) with (children h t) in NDt.
  pose proof (keys_map (tags h) (children h t) [] NDt) as KM. cbn [app] in KM. change (keys_from (tags h) [] (children h t) = map (zkey (tags h) (children h t)) (children h t)) in KM.
  pose proof (kept_staying h (children h x) false [] NDx) as KS. cbn [app] in KS.
  assert (KT : staying (is_linked h) (fun y => has (nflags (hnode h y)) PLACEHOLDER) false (children h x) = stay h x) by (apply staying_ext; intros y; [apply linked_flag|apply (has_flag h y PLACEHOLDER 4); lia || reflexivity]).
  pose proof (locals_keys h (children h x) false []) as LK. pose proof (keys_from_NoDup (tags h) (children h x) []) as NK. rewrite <- LK in NK.
  pose proof (coupled_zkey h (children h x) [] NDx) as CZ. cbn [app] in CZ.
  set (LL := locals h false [] (children h x)) in *. set (ks := keys_from (tags h) [] (children h t)) in *. set (cl := coupled_from h [] (children h x)) in *.
  rewrite KT in KS.
  assert (Len : length Cs = length (children h t)) by (rewrite <- Ek, map_length; reflexivity).
  assert (Lks : length ks = length Cs) by (unfold ks; rewrite keys_from_length; lia).
  pose proof (Forall2_len _ _ _ FD) as Ln. rewrite combine_length, Lks, Nat.min_id in Ln.
  set (copy := fun c => nth (posn (children h t) c) (map root Rs) 0).
  set (rp := fun c => match lget LL (zkey (tags h) (children h t) c) with Some (LOld y) => y | _ => copy c end).
  assert (RP : map (LinkMerge.rep LL) (combine ks (map root Rs)) = map rp (children h t)).
  { rewrite KM, combine_posn, map_map by (try exact NDt; rewrite map_length; lia). apply map_ext. intros c. reflexivity. }
  rewrite RP in *.
  assert (Old : forall c y, lget LL (zkey (tags h) (children h t) c) = Some (LOld y) <-> In y (stay h x) /\ key h x y = key h t c).
  { intros c y. rewrite (lget_in LL _ _ NK), <- kept_in, KS, in_map_iff. split.
    - intros (z & Ez & Hz). injection Ez as E1 E2 ->. split; [exact Hz|]. apply zkey_key. unfold zkey. congruence.
    - intros (Hy & K). exists y. split; [|exact Hy]. f_equal. apply zkey_key. exact K. }
  assert (At : forall c, In c (children h t) -> exists C C', root C = c /\ In C' Rs /\ copy c = root C' /\ item_done h x h' cl LL (zkey (tags h) (children h t) c, C) C').
  { intros c Hc. destruct (In_nth_error _ _ Hc) as (i & Hi). assert (Hi' := Hi). rewrite <- Ek in Hi'. rewrite nth_error_map in Hi'. destruct (nth_error Cs i) as [C|] eqn:EC; [|discriminate]. injection Hi' as Hr.
    assert (Hk : nth_error (combine ks Cs) i = Some (zkey (tags h) (children h t) c, C)).
    { clear - EC KM Hi. rewrite KM. assert (Hk : nth_error (map (zkey (tags h) (children h t)) (children h t)) i = Some (zkey (tags h) (children h t) c)) by (rewrite nth_error_map, Hi; reflexivity).
      revert Hk EC. generalize (map (zkey (tags h) (children h t)) (children h t)). intros l. generalize Cs as m. revert i Hi. clear. intros i _. revert i. induction l as [|a l IH]; intros [|i] [|b m] H1 H2; try discriminate; [cbn in *; congruence|]. cbn. apply IH; assumption. }
    destruct (Forall2_nth _ _ _ FD i _ Hk) as (C' & HC' & H). exists C, C'. split; [exact Hr|]. split; [eapply nth_error_In; exact HC'|]. split; [|exact H].
    unfold copy. rewrite (posn_nth _ _ _ NDt Hi). apply nth_error_nth. rewrite nth_error_map, HC'. reflexivity. }
  assert (Fc : forall c, In c (children h t) -> hnext h <= copy c < hnext h').
  { intros c Hc. destruct (At c Hc) as (C & C' & Hr & HC' & Ec & _). apply RR. apply in_flat_map. exists C'. split; [exact HC'|]. rewrite Ec. destruct C'; left; reflexivity. }
  assert (Mem : forall y, In y (children h' x) <-> In y (stay h x) \/ In y (map rp (children h t))).
  { intros y. change (children h' x) with (nitems (hnode h' x)). rewrite HO, M2, KS, map_map. cbn [snd]. rewrite map_id. tauto. }
  assert (Fl : forall y, In y (children h x) -> tag_value h' y = tag_value h y /\ a_flags (view h' y) = a_flags (view h y) /\ children h' y = children h y /\
       a_coupled (view h' y) = a_coupled (view h y) /\ parent_of h' y = Some x).
  { intros y Hy. pose proof (S2 y Hy) as Q. apply strip_nview in Q. unfold nview in Q. cbn in Q. injection Q as Q1 Q2 Q3 Q4 Q5 Q6.
    split; [unfold tag_value, tag_of; cbn; congruence|]. split; [exact Q3|]. split; [exact Q5|]. split; [exact Q6|].
    unfold parent_of. cbn. rewrite Q4. apply (fo_child _ _ (lw_forest _ W)). exact Hy. }
  assert (Lt : forall y, In y (children h x) -> y < hnext h) by (intros y Hy; apply (LWF_child_lt h x y W Hy)).
  assert (St : forall y, In y (stay h x) -> In y (children h x)) by (intros y; apply staying_in).
  exists h', copy, rp. split; [exact E|]. split; [exact LR'|].
  split.
  { intros c Hc. split; [apply Fc; exact Hc|]. destruct (At c Hc) as (C & C' & Hr & HC' & Ec & H & _). cbn [fst snd] in H. destruct (copy_facts _ _ _ _ _ H) as (_ & A & _ & _ & B & D). rewrite Hr in A.
    split; [rewrite Ec; exact A|]. split; [rewrite <- linked_flag, Ec; apply B; destruct C'; left; reflexivity|].
    rewrite Ec. change (a_coupled (view h' (root C'))) with (ncoupled (hnode h' (root C'))). rewrite D, CZ.
    destruct (find_coupled_spec h (children h x) (zkey (tags h) (children h t) c) (zkey_NoDup _ _ NDx)) as (F1 & F2). split.
    - intros z Hz Hl Kz. apply F1; [exact Hz|rewrite linked_flag; exact Hl|]. apply zkey_key. exact Kz.
    - intros Hz. apply F2. intros z Hz' Hl Kz. apply (Hz z Hz'); [rewrite <- linked_flag; exact Hl|]. apply zkey_key. exact Kz. }
  split.
  { intros c Hc. destruct (At c Hc) as (C & C' & Hr & HC' & Ec & _ & Hp & Hlk). cbn [fst] in Hp, Hlk. unfold rp.
    destruct (lget LL (zkey (tags h) (children h t) c)) as [[y|]|] eqn:EL.
    - left. exists y. apply Old in EL as K. destruct K as (K1 & K2). split; [exact K1|]. split; [exact K2|]. split; [reflexivity|]. split; [rewrite Ec; exact Hp|].
      exists (cover_link (root C')). split; [exact (Hlk y eq_refl)|]. rewrite Ec. reflexivity.
    - right. split; [|reflexivity]. intros y Hy K. assert (Q : lget LL (zkey (tags h) (children h t) c) = Some (LOld y)) by (apply Old; auto). congruence.
    - right. split; [|reflexivity]. intros y Hy K. assert (Q : lget LL (zkey (tags h) (children h t) c) = Some (LOld y)) by (apply Old; auto). congruence. }
  split; [change (children h' x) with (nitems (hnode h' x)); rewrite HO; exact M1|]. split; [exact Mem|].
  split; [change (children h' x) with (nitems (hnode h' x)); rewrite HO; exact M3|].
  assert (Lo : forall y, In y (children h x) -> flag h y 3 = false -> flag h y 4 = false -> In y (stay h x)) by (intros y Hy Hf Hg; apply staying_local; assumption).
  split; [intros y Hy Hf Hg; split; [apply Lo; assumption|apply Mem; left; apply Lo; assumption]|].
  assert (NP : forall y, In y (stay h x) -> flag h y 4 = false) by (intros y Hy; apply (staying_real _ _ _ _ _ Hy)).
  split.
  { intros y Hy Hf K. apply Mem in K as [K|K]; [rewrite (NP y K) in Hf; discriminate|]. apply in_map_iff in K as (c & Ec & Hc). unfold rp in Ec.
    pose proof (Lt y Hy) as Ly. pose proof (Fc c Hc) as Lc.
    destruct (lget LL (zkey (tags h) (children h t) c)) as [[z|]|] eqn:EL; [|subst y; lia|subst y; lia]. apply Old in EL as (EL & _). subst z. rewrite (NP y EL) in Hf. discriminate. }
  split.
  { intros LF y Hy Hf.
    assert (NS : ~ In y (stay h x)).
    { intros K. assert (Q : flag h y 3 = false). { apply (staying_follow (fun y => flag h y 3) (fun y => flag h y 4) (children h x) [] false) with (y := y); [split; [discriminate|intros (l0 & z & Q & _); destruct l0; discriminate]|exact LF|exact K]. }
      destruct (Fl y (St y K)) as (_ & Q' & _). unfold flag in Hf, Q. rewrite Q' in Hf. congruence. }
    apply Mem in Hy as [Hy|Hy]; [contradiction|]. apply in_map_iff in Hy as (c & Ec & Hc). exists c. split; [exact Hc|]. unfold rp in *.
    destruct (lget LL (zkey (tags h) (children h t) c)) as [[z|]|] eqn:EL; [|split; [congruence|reflexivity]|split; [congruence|reflexivity]].
    exfalso. apply NS. apply Old in EL. rewrite <- Ec. apply EL. }
  split.
  { intros y Hy. destruct (Fl y Hy) as (A & B & C & D & F). repeat (split; [assumption|]). intros K. apply (S3 y Hy). intros k Hk EL. rewrite KM in Hk. apply in_map_iff in Hk as (c & <- & Hc).
    apply (K c Hc). unfold rp. rewrite EL. reflexivity. }
  split. { intros y Y1 Y2 Y3. specialize (S1 y Y1 Y2 Y3). apply strip_nview in S1. exact S1. }
  split; [unfold tag_value, tag_of; cbn; rewrite T1, T2; reflexivity|]. split; [exact T3|]. unfold parent_of. cbn. rewrite T5. reflexivity.
Qed.
(** link root 5: local "b", linked "a" (coupled object 77), local "z"; target 0 with "a", "b", "a" *)
Definition lk4_ops : list op :=
  [ ONew (PStr "root") PNoValue [EArgs (PStr "a") (PInt 1); EArgs (PStr "b") (PInt 2); EArgs (PStr "a") (PInt 3)] None 0;
    ONew (PStr "a") (PInt 10) [] None 8; OCouple 4 77;
    ONew (PStr "link") PNoValue [EArgs (PStr "b") (PInt 20); EItem 4; EArgs (PStr "z") (PInt 30)] (Some 1) 0 ].
Definition lk4_heap : heap := runs lk4_ops empty_heap.
Example C46_case : LReach lk4_heap /\ load_case (lk_to 0) never false lk4_heap 5 0 /\ children lk4_heap 5 = [6; 4; 7] /\ linked_follow lk4_heap 5 /\ stay lk4_heap 5 = [6; 7] /\
  let h' := fst (load_links (lk_to 0) never false 201 5 lk4_heap) in children h' 5 = [8; 6; 10; 7] /\ map (tag_value h') (children h' 5) =
    [(PStr "a", PInt 1); (PStr "b", PInt 20); (PStr "a", PInt 3); (PStr "z", PInt 30)] /\ a_coupled (view h' 8) = Some 77.
Proof.
  split; [apply Reach_LReach, reach_runs; [constructor|vm_compute; reflexivity]|]. assert (TA : tree_at lk4_heap 0 (Node 0 [Node 1 []; Node 2 []; Node 3 []])) by (split; [reflexivity|vm_compute; auto 20]).
  split; [apply (load_b_ok never false lk4_heap 5 _ TA); vm_compute; reflexivity|]. assert (Ch : children lk4_heap 5 = [6; 4; 7]) by (vm_compute; reflexivity). split; [exact Ch|].
  split; [|split; [vm_compute; reflexivity|]; cbv zeta; split; [vm_compute; reflexivity|]; split; vm_compute; reflexivity].
  intros l1 y l2 El Hf. rewrite Ch in El. destruct l1 as [|a [|b [|c [|d l1]]]]; cbn in El; try discriminate El; injection El as; subst.
  - vm_compute in Hf. discriminate Hf.
  - exists [], 6. split; [reflexivity|vm_compute; reflexivity].
  - vm_compute in Hf. discriminate Hf.
Qed.
(** Reloading after the target has changed: the first linked child stays as it was, with the old value. *)
Theorem C46_stale_refuted : exists h x t c y, LReach h /\ load_case (lk_to t) never true h x t /\ In y (children h x) /\ flag h y 3 = true /\ In c (children h t) /\ key h x y = key h t c /\
  let r := load_links (lk_to t) never true 201 x h in snd r = Ok true /\ In y (children (fst r) x) /\ tag_value (fst r) y <> tag_value (fst r) c /\
  (forall z, In z (children (fst r) x) -> tag_value (fst r) z <> tag_value (fst r) c).
Proof.
  pose (h := after (OSetValue 1 (PInt 100)) lk1_heap).
  assert (R : LReach h) by (apply LReach_op; [exact lk1_reach|apply uncovered_b_ok; vm_compute; reflexivity|exact I]).
  assert (TA : tree_at h 0 lk_tree) by (split; [reflexivity|vm_compute; auto 20]).
  exists h, 6, 0, 1, 7. split; [exact R|]. split; [apply (load_b_ok never true h 6 lk_tree TA); vm_compute; reflexivity|].
  split; [vm_compute; auto|]. split; [vm_compute; reflexivity|]. split; [vm_compute; auto|]. split; [vm_compute; reflexivity|]. cbv zeta.
  split; [vm_compute; reflexivity|]. split; [vm_compute; auto|]. split; [vm_compute; discriminate|].
  intros z Hz. assert (Hz' : In z [7; 13; 9]) by (revert Hz; vm_compute; tauto).
  destruct Hz' as [<-|[<-|[<-|[]]]]; vm_compute; discriminate.
Qed.

(** * C62 *)
Lemma fam_index_mid h p l1 x l2 : children h p = l1 ++ x :: l2 -> NoDup (l1 ++ x :: l2) -> fam_index h p x = length (byt (tag_of h) (tag_of h x) l1).
Proof.
  intros E ND. unfold fam_index. change (with_tag (view h) p (tag_of h x)) with (byt (tag_of h) (tag_of h x) (children h p)). rewrite E. apply (posn_mid (tag_of h) l1 x l2 ND).
Qed.
(** Deleting a local item that covers a linked item: the linked item takes its place, with all its
    data and children. *)
Theorem C62_restore_partial : forall h p k x y, LReach h -> restore_case h p k x y ->
  exists h' l1 l2, del_int p (Z.of_nat k) h = (h', Ok x) /\ LReach h' /\
    (* the linked item was in no tree *)
    (forall q, ~ In y (children h q)) /\
    (* the same position, also in the family *)
    children h p = l1 ++ x :: l2 /\ length l1 = k /\ children h' p = l1 ++ y :: l2 /\
    parent_of h' y = Some p /\ key h' p y = key h p x /\
    (* its subtree is as it was; the deleted item is free and keeps its own subtree *)
    view h' y = a_set_parent (Some p) (view h y) /\ view h' x = a_set_parent None (view h x) /\
    (* nothing else changes *)
    view h' p = a_set_children (l1 ++ y :: l2) (view h p) /\ (forall z, z <> p -> z <> x -> z <> y -> view h' z = view h z).
Proof.
  intros h p k x y R RC. pose proof (lreach_covers h R) as C. destruct (lreach_ok h R) as (W & _).
  destruct (restore_ready h p k x y W C RC) as (l1 & l2 & h' & d & El & Len & Cv & N1 & N2 & E & Hn & Ow & Np & Ny & Nx & No).
  assert (R' : LReach h') by (replace h' with (fst (del_int p (Z.of_nat k) h)) by (rewrite E; reflexivity); eapply LReach_restore; eassumption).
  pose proof (proj1 (lreach_ok h' R')) as W'.
  assert (Hin : In x (nitems (hnode h p))) by (change (In x (children h p)); rewrite El; apply in_elt). destruct (cv_one h C p x y (Live_child _ _ _ Hin) Cv) as (_ & Nc & Ty & _).
  assert (Ch' : children h' p = l1 ++ y :: l2) by (unfold children, view; rewrite Np; reflexivity).
  exists h', l1, l2. split; [exact E|]. split; [exact R'|]. split; [exact Nc|]. split; [exact El|]. split; [exact Len|]. split; [exact Ch'|].
  split; [unfold parent_of, view; rewrite Ny; reflexivity|].
  split.
  { assert (Tg : forall z, tag_of h' z = tag_of h z) by (intros z; exact (rs_tag h h' p x y l1 l2 _ d Np Ny Nx No z)).
    unfold key. rewrite Tg. f_equal; [exact Ty|].
    pose proof (fo_nodup _ _ (lw_forest _ W) p) as ND. change (a_children (view h p)) with (children h p) in ND. rewrite El in ND.
    pose proof (fo_nodup _ _ (lw_forest _ W') p) as ND'. change (a_children (view h' p)) with (children h' p) in ND'. rewrite Ch' in ND'.
    rewrite (fam_index_mid h p l1 x l2 El ND), (fam_index_mid h' p l1 y l2 Ch' ND'), Tg. change (tag_of h y) with (ntag (hnode h y)). rewrite Ty. f_equal. apply filter_ext. intros z. rewrite Tg. reflexivity. }
  split; [unfold view; rewrite Ny; reflexivity|]. split; [unfold view; rewrite Nx; reflexivity|]. split; [unfold view; rewrite Np; reflexivity|].
  intros z Z1 Z2 Z3. unfold view. rewrite No by assumption. reflexivity.
Qed.
(** make_local and deleting the local item again: everything is as before *)
Lemma set_children_same a : a_set_children (a_children a) a = a. Proof. destruct a; reflexivity. Qed.
Lemma set_parent_same o a : a_parent a = o -> a_set_parent o a = a. Proof. intros <-. destruct a; reflexivity. Qed.
Lemma placeholder_mask fl : has fl PLACEHOLDER = false -> has (Z.land (Z.land fl (Z.lnot LINKED)) FLAG_MASK) PLACEHOLDER = false.
Proof.
  unfold has. rewrite !negb_false_iff, !Z.eqb_eq. intros E. rewrite <- Z.land_assoc. change (Z.land FLAG_MASK PLACEHOLDER) with PLACEHOLDER.
  rewrite <- Z.land_assoc. change (Z.land (Z.lnot LINKED) PLACEHOLDER) with PLACEHOLDER. exact E.
Qed.
Theorem C62_undo_local_partial : forall h p x copy_subtree, LReach h -> local_case h p x -> flag h x 4 = false ->
  exists h1 h2 new k, make_local x copy_subtree h = (h1, Ok new) /\ nth_error (children h1 p) k = Some new /\
    del_int p (Z.of_nat k) h1 = (h2, Ok new) /\ LReach h2 /\ (forall z, z < hnext h -> view h2 z = view h z).
Proof.
  intros h p x b R L Pl. destruct (lreach_ok h R) as (W & _). destruct (local_ready _ _ _ W L) as (l1 & l2 & T & RR). destruct RR as [_ El NL LR HN HT Er HG].
  destruct (make_local_ok h p l1 x l2 T b W El NL LR HN HT Er HG) as (h1 & Ts & E & X1 & O1 & V1 & S1 & F1 & D1 & P1 & PN & DN & _).
  assert (R1 : LReach h1) by (replace h1 with (fst (make_local x b h)) by (rewrite E; reflexivity); eapply LReach_local; eassumption).
  pose proof (proj1 (lreach_ok h1 R1)) as W1. set (new := hnext h) in *.
  assert (Ch1 : children h1 p = l1 ++ new :: l2) by (unfold children; rewrite V1; reflexivity).
  assert (Nth : nth_error (children h1 p) (length l1) = Some new) by (rewrite Ch1, nth_error_app2, Nat.sub_diag by apply le_n; reflexivity).
  pose proof (mc_child _ _ _ L) as Hin. destruct (LWF_child_lt h p x W Hin) as (Lp & Lx).
  assert (Tn : ntag (hnode h1 new) = ntag (hnode h x)) by (exact (f_equal (fun d => fst (fst (fst (fst d)))) DN)).
  assert (Tl : forall z, In z l1 -> ntag (hnode h1 z) = ntag (hnode h z)).
  { intros z Hz. assert (K : In z (nitems (hnode h p))) by (rewrite El; apply in_app_iff; auto).
    assert (z <> p) by (intros ->; apply (not_self_parent _ _ (fo_root _ _ (lw_forest _ W) p)); apply (fo_child _ _ (lw_forest _ W)); exact K).
    pose proof (S1 z (proj2 (LWF_child_lt h p z W K)) H) as Q. apply strip_fields in Q. apply Q. }
  assert (RC : restore_case h1 p (length l1) new x).
  { constructor; [exact Nth| | | |].
    - exists (cover_link x). split; [exact (f_equal (fun d => snd (fst d)) DN)|reflexivity].
    - rewrite <- link_root_flag in *. unfold is_link_root in *. rewrite (f_equal (fun d => snd (fst (fst d))) D1 : nflags (hnode h1 p) = nflags (hnode h p)). exact LR.
    - pose proof (f_equal (fun d => snd (fst (fst d))) DN : nflags (hnode h1 new) = _) as Fl. split.
      + rewrite <- linked_flag. unfold is_linked. rewrite Fl. apply unlinked_mask.
      + rewrite <- (has_flag h1 new PLACEHOLDER 4) by (try lia; reflexivity). rewrite Fl. apply placeholder_mask. rewrite (has_flag h x PLACEHOLDER 4) by (try lia; reflexivity). exact Pl.
    - pose proof (fo_nodup _ _ (lw_forest _ W1) p) as ND. change (a_children (view h1 p)) with (children h1 p) in ND. rewrite Ch1 in ND.
      destruct (tag_idx_node h1 p new (l1 ++ new :: l2) (length l1) O1 ND) as (h2 & E2 & _).
      + rewrite <- Ch1. exact Nth.
      + apply (fo_child _ _ (lw_forest _ W1)). change (In new (children h1 p)). rewrite Ch1. apply in_elt.
      + intros pl Hpl. rewrite PN in Hpl. injection Hpl as <-. cbn. split; [lia|reflexivity].
      + rewrite firstn_app, firstn_all, Nat.sub_diag, app_nil_r, Tn. intros pl Hpl. rewrite PN in Hpl. injection Hpl as <-. cbn [pl_fam].
        replace (byt (tags h1) (ntag (hnode h x)) l1) with (byt (tags h) (ntag (hnode h x)) l1) by (apply filter_ext_in; intros z Hz; rewrite Tl by exact Hz; reflexivity). lia.
      + eexists _, _. rewrite E2. reflexivity. }
  destruct (C62_restore_partial h1 p (length l1) new x R1 RC) as (h2 & m1 & m2 & E2 & R2 & _ & Ec & Len & Ec2 & Py & _ & Vy & Vx & Vp & Vo).
  rewrite Ch1 in Ec. apply app_inj_len in Ec as (<- & Ec); [|symmetry; exact Len]. injection Ec as <-.
  exists h1, h2, new, (length l1). split; [exact E|]. split; [exact Nth|]. split; [exact E2|]. split; [exact R2|].
  intros z Hz. destruct (Nat.eq_dec z p) as [->|Zp].
  - rewrite Vp, V1. transitivity (a_set_children (l1 ++ x :: l2) (view h p)); [reflexivity|]. rewrite <- El. apply set_children_same.
  - destruct (Nat.eq_dec z x) as [->|Zx].
    + rewrite Vy. pose proof (S1 x Lx Zp) as Q. apply strip_nview in Q. change (view h1 x = view h x) in Q. rewrite Q. apply set_parent_same. apply (fo_child _ _ (lw_forest _ W)). exact Hin.
    + rewrite Vo by (unfold new in *; lia). pose proof (S1 z Hz Zp) as Q. apply strip_nview in Q. exact Q.
Qed.
(** the linked item 9 of the link root 6 made local (12) *)
Definition lkl_heap : heap := fst (make_local 9 true lk1_heap).
Lemma lkl_reach : LReach lkl_heap. Proof. eapply LReach_local; [exact lk1_reach|]. exact (proj1 (proj2 C45_case)). Qed.
Example C62_case : LReach lkl_heap /\ restore_case lkl_heap 6 2 12 9 /\ children lkl_heap 6 = [7; 8; 12] /\
  children (fst (del_int 6 2%Z lkl_heap)) 6 = [7; 8; 9] /\ local_case lk1_heap 6 9 /\ flag lk1_heap 9 4 = false.
Proof.
  split; [exact lkl_reach|]. split.
  { constructor; [vm_compute; reflexivity| |vm_compute; reflexivity|split; vm_compute; reflexivity|apply known_b_ok; vm_compute; reflexivity].
    exists (cover_link 9). split; vm_compute; reflexivity. }
  split; [vm_compute; reflexivity|]. split; [vm_compute; reflexivity|]. split; [exact (proj1 (proj2 C45_case))|vm_compute; reflexivity].
Qed.
(** del p[-1]: the linked item comes back one place too early *)
Theorem C62_negative_refuted : exists h p x y l, LReach h /\ restore_case h p (length l) x y /\ children h p = l ++ [x] /\
  snd (del_int p (-1)%Z h) = Ok x /\ children (fst (del_int p (-1)%Z h)) p <> l ++ [y].
Proof.
  exists lkl_heap, 6, 12, 9, [7; 8]. split; [exact lkl_reach|]. split; [exact (proj1 (proj2 C62_case))|]. split; [vm_compute; reflexivity|]. split; [vm_compute; reflexivity|]. vm_compute. discriminate.
Qed.
(** the deleted item still covers the linked one: added and deleted again, the linked item is in the list twice *)
Theorem C62_twice_refuted : exists h p k x y, LReach h /\ restore_case h p k x y /\
  let h1 := fst (del_int p (Z.of_nat k) h) in let r2 := append p (IItem x) h1 in
  let n := length (children h1 p) in let r3 := del_int p (Z.of_nat n) (fst r2) in
  snd r2 = Ok x /\ children (fst r2) p = children h1 p ++ [x] /\ snd r3 = Ok x /\ children (fst r3) p = children h1 p ++ [y] /\ ~ NoDup (children (fst r3) p).
Proof.
  exists lkl_heap, 6, 2, 12, 9. split; [exact lkl_reach|]. split; [exact (proj1 (proj2 C62_case))|]. cbv zeta.
  split; [vm_compute; reflexivity|]. split; [vm_compute; reflexivity|]. split; [vm_compute; reflexivity|]. split; [vm_compute; reflexivity|].
  assert (E : children (fst (del_int 6 (Z.of_nat (length (children (fst (del_int 6 (Z.of_nat 2) lkl_heap)) 6))) (fst (append 6 (IItem 12) (fst (del_int 6 (Z.of_nat 2) lkl_heap)))))) 6 = [7; 8; 9; 9]) by (vm_compute; reflexivity).
  rewrite E. intros ND. inversion ND as [|? ? _ N1]; subst. inversion N1 as [|? ? _ N2]; subst. inversion N2 as [|? ? N3 _]; subst. apply N3. left. reflexivity.
Qed.
(** a placeholder made local cannot be deleted again *)
Definition lkp_heap : heap := runs [ ONew (PStr "root") PNoValue [] None 0; ONew (PStr "a") (PInt 1) [] None 16; OAppend 0 (IItem 1); ONew (PStr "link") (PInt 6) [] (Some 1) 0 ] empty_heap.
Theorem C62_placeholder_refuted : exists h p x new, LReach h /\ local_case h p x /\ snd (make_local x true h) = Ok new /\
  children (fst (make_local x true h)) p = [new] /\ snd (del_int p 0%Z (fst (make_local x true h))) = Err PermissionError.
Proof.
  assert (R : LReach lkp_heap) by (apply Reach_LReach, reach_runs; [constructor|vm_compute; reflexivity]).
  assert (TA : tree_at lkp_heap 0 (Node 0 [Node 1 []])) by (split; [reflexivity|vm_compute; auto 20]).
  exists (fst (load_links (lk_to 0) never false 201 2 lkp_heap)), 2, 3, 4.
  split; [eapply LReach_load; [exact R|]; apply (load_b_ok never false lkp_heap 2 _ TA); vm_compute; reflexivity|].
  assert (TB : tree_at (fst (load_links (lk_to 0) never false 201 2 lkp_heap)) 3 (Node 3 [])) by (split; [reflexivity|vm_compute; auto 20]).
  split; [apply (local_b_ok _ _ _ _ TB); vm_compute; reflexivity|]. split; [vm_compute; reflexivity|]. split; vm_compute; reflexivity.
Qed.

(** * The structure of the trees along histories with links *)
Definition uncover (h : heap) : heap := {| hnode := fun y => set_link None (hnode h y); hnext := hnext h |}.
Lemma uncover_WF h : LWF h -> WF (uncover h).
Proof.
  intros [F C A]. constructor.
  - destruct F as [F1 F2 F3 F4 F5]. constructor; [exact F1|exact F2|exact F3|exact F4|]. intros y. induction (F5 y) as [y E|y q E _ IH]; [apply Rooted_root; exact E|eapply Rooted_step; [exact E|exact IH]].
  - exact C.
  - exact A.
  - intros y k E. discriminate.
Qed.
(** the family index agrees with the children *)
Theorem C01_link_histories_partial : forall h, LReach h -> families_agree h.
Proof.
  intros h R q t Ht. pose proof (uncover_WF h (proj1 (lreach_ok h R))) as W.
  change (getitem (uncover h) q (TgTagAll t) = match with_tag (view (uncover h)) q t with [] => Err KeyError | a :: l => Ok (GList (a :: l)) end).
  unfold getitem. destruct (nitems (hnode (uncover h) q)) eqn:E.
  - unfold with_tag, view. cbn. cbn in E. rewrite E. reflexivity.
  - rewrite fam_of_ok; [|assumption|assumption|unfold children; cbn; cbn in E; congruence]. destruct (with_tag (view (uncover h)) q t); reflexivity.
Qed.
(** every child knows its parent and has one place *)
Theorem C03_link_histories_partial : forall h, LReach h ->
  (forall p x, In x (children h p) -> parent_of h x = Some p) /\
  (forall p, NoDup (children h p)) /\ (forall p q x, In x (children h p) -> In x (children h q) -> p = q).
Proof.
  intros h R. pose proof (lw_forest _ (proj1 (lreach_ok h R))) as F. split; [apply (fo_child _ _ F)|]. split; [apply (fo_nodup _ _ F)|].
  intros p q x Hp Hq. apply (fo_child _ _ F) in Hp, Hq. congruence.
Qed.
(** no cycles *)
Theorem C06_link_histories_partial : forall h x, LReach h -> Rooted (view h) x /\ ~ Below h x x.
Proof.
  intros h x R. pose proof (lw_forest _ (proj1 (lreach_ok h R))) as F. split; [apply (fo_root _ _ F)|]. intros B.
  destruct (Nat.lt_ge_cases x (hnext h)) as [Hx|Hx].
  - destruct (ltree_exists _ _ _ F Hx) as (T & HT & Er & _). rewrite <- Er in B at 1. apply (Below_tree h T HT) in B. pose proof (ltree_NoDup _ _ _ F HT) as ND.
    destruct T as [y cs]. cbn in Er, B, ND. subst y. inversion ND; contradiction.
  - assert (G : forall z, Below h x z -> False). { intros z. induction 1 as [z Hz|q z _ IH _]; [|exact IH]. unfold children in Hz. rewrite (proj1 (fo_alloc _ _ F x Hx)) in Hz. exact Hz. }
    exact (G x B).
Qed.
(** item.idx is the position *)
Theorem C04_link_histories : forall h p k x, LReach h -> nth_error (children h p) k = Some x ->
  exists h', get_idx x h = (h', Ok (Some (Z.of_nat k))) /\ same (view h') (view h).
Proof.
  intros h p k x R Hk. pose proof (proj1 (lreach_ok h R)) as W. pose proof (fo_nodup _ _ (lw_forest _ W) p) as ND.
  destruct (get_idx_gen h p x k) as (h2 & E2 & Q2 & _); [exact Hk|exact ND| |exact (lw_caches _ W)| |].
  - apply (fo_child _ _ (lw_forest _ W)). eapply nth_error_In. exact Hk.
  - left. intros y Hy. destruct (LWF_child_prt h p y W Hy) as (ply & -> & _). discriminate.
  - exists h2. split; [exact E2|apply ceq_same; exact Q2].
Qed.
Example C01_link_case : LReach lk1_heap /\ children lk1_heap 6 = [7; 8; 9] /\ getitem lk1_heap 6 (TgTagAll (PStr "a")) = Ok (GList [7; 9]) /\ snd (get_idx 9 lk1_heap) = Ok (Some 2%Z).
Proof. split; [exact lk1_reach|]. vm_compute. auto. Qed.

Print Assumptions C44_copy_partial.
Print Assumptions C45_make_local_partial.
Print Assumptions C46_merge_partial.
Print Assumptions C62_restore_partial.
Print Assumptions C62_undo_local_partial.
Print Assumptions C01_link_histories_partial.
