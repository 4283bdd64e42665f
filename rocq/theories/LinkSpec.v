(** Consequences of LinkWF in terms of tags, values and flags; histories with links. *)
From Coq Require Import List.
From Verif Require Import Base Heap HeapSpec ListLemmas ForestLemmas HeapInv HeapAttach HeapOps HeapOps2 HeapOps3 Tree HeapTree HeapCopy Deep SerModel HeapHash History LinkModel LinkFacts LinkFacts2 LinkMerge LinkLoad LinkRun LinkAll LinkWF.
Import ListNotations.
Local Open Scope list_scope.

(** tag and value of an item *)
Definition tv (h : heap) (y : loc) : pyval * pyval := (a_tag (view h y), a_val (view h y)).
Definition xtv (l : xlabel) : pyval * pyval := (x_tag l, x_val l).

Lemma app_inj_len {A} (a b c d : list A) : a ++ b = c ++ d -> length a = length c -> a = c /\ b = d.
Proof.
  revert c. induction a as [|x a IH]; intros [|y c] E L; try discriminate; [auto|]. cbn in *. injection E as -> E. destruct (IH c E ltac:(lia)) as (-> & ->). auto.
Qed.
Lemma cat_flatten {A} (l : list (A * bool)) : flat_map flatten (cat l) = map fst l.
Proof.
  induction l as [|[a [|]] r IH]; [reflexivity| |].
  - cbn [cat flat_map flatten map fst]. rewrite app_nil_r, IH. reflexivity.
  - cbn [cat flat_map flatten map fst app]. rewrite IH. reflexivity.
Qed.
Lemma flat_map_tmap {A B} (f : A -> B) F : flat_map flatten (map (tmap f) F) = map f (flat_map flatten F).
Proof. induction F as [|T F IH]; [reflexivity|]. cbn [map flat_map]. rewrite map_app, flatten_tmap, IH. reflexivity. Qed.
Lemma tmap_tmap {A B C} (f : A -> B) (g : B -> C) T : tmap g (tmap f T) = tmap (fun a => g (f a)) T.
Proof. induction T as [a cs IH] using tree_ind'. cbn [tmap]. f_equal. rewrite map_map. apply map_ext_in. intros c Hc. rewrite Forall_forall in IH. apply IH. exact Hc. Qed.

(** tags and values of the copied items *)
Lemma conv_tv h F : map (tmap xtv) (conv_spec h F) = map (tmap (tv h)) (cat (pre F)).
Proof.
  unfold conv_spec. rewrite <- (cat_map xtv), map_map. cbn [fst snd]. rewrite <- (cat_map (tv h)). f_equal.
Qed.
Lemma copied_tv h h' F Ts : map (tmap (label (view h'))) Ts = conv_spec h F -> map (tmap (tv h')) Ts = map (tmap (tv h)) (cat (pre F)).
Proof.
  intros E. rewrite <- conv_tv, <- E, map_map. apply map_ext. intros T. rewrite tmap_tmap. reflexivity.
Qed.
Lemma copied_pre h h' F Ts : map (tmap (label (view h'))) Ts = conv_spec h F -> map (tv h') (flat_map flatten Ts) = map (tv h) (flat_map flatten F).
Proof.
  intros E. apply copied_tv in E. apply (f_equal (flat_map flatten)) in E. rewrite !flat_map_tmap, cat_flatten in E. rewrite E, pre_fst. reflexivity.
Qed.
Lemma last_tmap {A B} (f : A -> B) F : last_only (map (tmap f) F) <-> last_only F.
Proof.
  rewrite <- !cat_exact, pre_map, cat_map. split; [|intros ->; reflexivity]. intros E.
  assert (S : forall (G H : list (tree A)), map (tmap f) G = map (tmap f) H -> flat_map flatten G = flat_map flatten H -> G = H).
  { clear. assert (Q : forall T U : tree A, tmap f T = tmap f U -> flatten T = flatten U -> T = U).
    { induction T as [a cs IH] using tree_ind'. intros [b ds] E F. cbn in E, F. injection E as _ E. injection F as <- F. f_equal.
      revert ds E F. induction IH as [|c cs Hc _ IHl]; intros [|d ds] E F; try discriminate; [reflexivity|]. cbn in E. injection E as E1 E2. cbn in F.
      assert (Len : length (flatten c) = length (flatten d)) by (rewrite <- (map_length f (flatten c)), <- (map_length f (flatten d)), <- !flatten_tmap, E1; reflexivity).
      apply app_inj_len in F as (F1 & F2); [|exact Len]. f_equal; [apply Hc; assumption|apply IHl; assumption]. }
    induction G as [|T G IH]; intros [|U H] E F; try discriminate; [reflexivity|]. cbn in E. injection E as E1 E2. cbn in F.
    assert (Len : length (flatten T) = length (flatten U)) by (rewrite <- (map_length f (flatten T)), <- (map_length f (flatten U)), <- !flatten_tmap, E1; reflexivity).
    apply app_inj_len in F as (F1 & F2); [|exact Len]. f_equal; [apply Q; assumption|apply IH; assumption]. }
  apply S; [exact E|]. rewrite cat_flatten, pre_fst. reflexivity.
Qed.

Lemma copied_linked h h' F Ts : map (tmap (label (view h'))) Ts = conv_spec h F -> forall y, In y (flat_map flatten Ts) -> is_linked h' y = true.
Proof.
  intros E y Hy. apply (f_equal (flat_map flatten)) in E. rewrite flat_map_tmap in E. unfold conv_spec in E. rewrite cat_flatten, map_map in E. cbn [fst] in E.
  apply (in_map (label (view h'))) in Hy. rewrite E in Hy. apply in_map_iff in Hy as (p & Q & _). apply (f_equal x_flags) in Q. cbn [x_flags lk_label label] in Q.
  change (a_flags (view h' y)) with (nflags (hnode h' y)) in Q. unfold is_linked. rewrite <- Q. unfold has, LINKED. apply negb_true_iff, Z.eqb_neq. intros K.
  apply (f_equal (fun z => Z.testbit z 3)) in K. rewrite Z.land_spec, Z.lor_spec, Z.bits_0 in K. change (Z.testbit 8 3) with true in K. rewrite orb_true_r in K. discriminate.
Qed.
Lemma linked_mask fl : has (Z.land (Z.lor fl LINKED) FLAG_MASK) LINKED = true.
Proof.
  unfold has, LINKED, FLAG_MASK. apply negb_true_iff, Z.eqb_neq. intros K. apply (f_equal (fun z => Z.testbit z 3)) in K.
  rewrite !Z.land_spec, Z.lor_spec, Z.bits_0 in K. change (Z.testbit 8 3) with true in K. change (Z.testbit 63 3) with true in K. rewrite orb_true_r in K. discriminate.
Qed.
Lemma unlinked_mask fl : has (Z.land (Z.land fl (Z.lnot LINKED)) FLAG_MASK) LINKED = false.
Proof.
  unfold has, LINKED, FLAG_MASK. apply negb_false_iff, Z.eqb_eq. apply Z.bits_inj'. intros i Hi. rewrite !Z.land_spec, Z.lnot_spec, Z.bits_0 by exact Hi.
  change 8%Z with (2 ^ 3)%Z. rewrite Z.pow2_bits_eqb by lia. destruct (Z.eqb_spec 3 i) as [<-|]; cbn [negb andb]; rewrite ?andb_false_r; reflexivity.
Qed.

(** one copied target item *)
Lemma copy_facts h h' C co C' : copy_of h h' C co C' ->
  ltree (view h') C' /\ tv h' (root C') = tv h (root C) /\
  map (tv h') (flatten C') = map (tv h) (flatten C) /\ (tmap (tv h') C' = tmap (tv h) C <-> last_only (kids C)) /\
  (forall y, In y (flatten C') -> is_linked h' y = true) /\ ncoupled (hnode h' (root C')) = co.
Proof.
  intros (D & O & B & L). destruct C as [c cs], C' as [c' cs']. cbn [root kids] in *.
  assert (Ec : tv h' c' = tv h c) by (unfold tv; cbn; injection D; congruence).
  split; [apply ltree_iff; split; [symmetry; apply O|rewrite Forall_forall in *; intros U HU; eapply built_ltree; apply B; exact HU]|].
  split; [exact Ec|]. split; [cbn [flatten map]; rewrite Ec, (copied_pre _ _ _ _ L); reflexivity|].
  split.
  - cbn [tmap]. rewrite (copied_tv _ _ _ _ L), Ec. split.
    + intros [= Q]. rewrite <- (last_tmap (tv h)), <- Q. apply last_tmap, cat_last.
    + intros Q. rewrite last_cat by exact Q. reflexivity.
  - split; [|injection D; auto]. cbn [flatten]. intros y [<-|Hy]; [|eapply copied_linked; eassumption]. unfold is_linked. injection D as _ _ -> _ _. apply linked_mask.
Qed.

(** * make_local *)
Record LocalReady (h : heap) (p : loc) (l1 : list loc) (x : loc) (l2 : list loc) (T : tree loc) : Prop := {
  ml_wf : LWF h;
  ml_pos : nitems (hnode h p) = l1 ++ x :: l2;
  ml_linked : is_linked h x = true;
  ml_root : is_link_root h p = true;
  ml_near : near h x (length (byt (tags h) (ntag (hnode h x)) l1));
  ml_tree : ltree (view h) T;
  ml_treeroot : root T = x;
  ml_below : forall y, In y (below_tree T) -> conv_good (label (view h) y) = true }.

(** tags of new items are tags of old ones *)
Lemma hash_new h h' : hash_ok h -> (forall y, y < hnext h -> ntag (hnode h' y) = ntag (hnode h y)) -> (forall y, hnext h' <= y -> hnode h' y = hnode h y) ->
  (forall y, hnext h <= y < hnext h' -> exists z, ntag (hnode h' y) = ntag (hnode h z)) -> hash_ok h'.
Proof.
  intros H A B C y. destruct (Nat.lt_ge_cases y (hnext h)) as [Y|Y]; [rewrite A by exact Y; apply H|].
  destruct (Nat.lt_ge_cases y (hnext h')) as [Z|Z]; [destruct (C y ltac:(lia)) as (z & ->); apply H|rewrite B by exact Z; apply H].
Qed.

(** item.tag_idx delivers a pair *)
Definition tag_idx_known (h : heap) (y : loc) : Prop := exists t i, snd (get_tag_idx y h) = Ok (TIPair t i).
Lemma known_near h p l1 y l2 : LWF h -> nitems (hnode h p) = l1 ++ y :: l2 -> tag_idx_known h y -> near h y (length (byt (tags h) (ntag (hnode h y)) l1)).
Proof.
  intros W El (t & i & E) pl Epl. pose proof (LWF_own h p W) as O. rewrite El in O.
  assert (Hin : In y (nitems (hnode h p))) by (rewrite El; apply in_elt). destruct (LWF_child_prt h p y W Hin) as (pl' & E' & Epp). rewrite Epl in E'. injection E' as <-.
  destruct (lw_caches _ W y pl Epl) as (A1 & A2 & A3). pose proof (fo_nodup _ _ (lw_forest _ W) p) as ND. cbn in ND. rewrite El in ND.
  destruct O as (Ei & [(K & _)|(B & d & D & F)]); [destruct l1; discriminate|].
  unfold get_tag_idx in E. rewrite Epl, Epp in E. set (s := ntag (hnode h y)) in *.
  unfold getitem_fam in E. rewrite bind_assoc, (bind_ok _ _ _ _ _ (get_fam_cur h p s d B D)), (fam_ok_get _ _ _ s F) in E.
  change (fun y0 : loc => ntag (hnode h y0)) with (tags h) in E. set (fam := byt (tags h) s (l1 ++ y :: l2)) in *.
  set (n := length (byt (tags h) s l1)) in *.
  assert (Hn : nth_error fam n = Some y).
  { pose proof (byt_nth (tags h) (length l1) y (l1 ++ y :: l2)) as Q. rewrite nth_error_app2, Nat.sub_diag, firstn_app, Nat.sub_diag, firstn_all, app_nil_r in Q by apply le_n. apply Q. reflexivity. }
  assert (NF : NoDup fam) by (apply NoDup_filter; exact ND).
  assert (Hne : fam <> []) by (intros E0; rewrite E0 in Hn; destruct n; discriminate).
  rewrite (nonempty_ne _ Hne), bind_ret in E. unfold locate in E. rewrite fast_hit_nonneg in E by assumption. rewrite bind_assoc, bind_lift in E.
  destruct (match nth_error fam (Z.to_nat (pl_fam pl)) with Some z => Nat.eqb z y | None => false end) eqn:Eb.
  - destruct (nth_error fam (Z.to_nat (pl_fam pl))) as [z|] eqn:Ey; [|discriminate]. apply Nat.eqb_eq in Eb as ->. pose proof (NoDup_nth_error_inj _ _ _ _ NF Hn Ey). lia.
  - destruct (window fam y _ _) as [j|] eqn:Ew.
    + pose proof (window_some _ _ _ _ _ Ew) as Hj. assert (j = n) as -> by (eapply NoDup_nth_error_inj; eauto).
      unfold window in Ew. apply find_some in Ew as (Ew & _). apply in_seq in Ew. lia.
    + exfalso. destruct (2 * pl_fam pl <? Z.of_nat (length fam))%Z; rewrite bind_assoc in E; unfold bind at 1 in E; destruct (scan _ _ _ _ _ _) as [g [a|e]]; discriminate.
Qed.

(** keys of children *)
Lemma posn_mid tg l1 y l2 : NoDup (l1 ++ y :: l2) -> posn (byt tg (tg y) (l1 ++ y :: l2)) y = length (byt tg (tg y) l1).
Proof.
  intros ND. apply posn_nth; [apply NoDup_filter; exact ND|].
  pose proof (byt_nth tg (length l1) y (l1 ++ y :: l2)) as Q. rewrite nth_error_app2, Nat.sub_diag, firstn_app, Nat.sub_diag, firstn_all, app_nil_r in Q by apply le_n. apply Q. reflexivity.
Qed.
Lemma keys_map tg l : forall pre, NoDup (pre ++ l) -> keys_from tg pre l = map (fun y => (tg y, Z.of_nat (posn (byt tg (tg y) (pre ++ l)) y))) l.
Proof.
  induction l as [|y r IH]; intros pre ND; [reflexivity|]. cbn [keys_from map]. rewrite posn_mid by exact ND. f_equal.
  rewrite IH by (rewrite <- app_assoc; exact ND). rewrite <- app_assoc. reflexivity.
Qed.

(** "only the last child of an item has children" at every level *)
Lemma last_only_iff {A} (F : list (tree A)) : last_only F <-> (forall l1 T l2, F = l1 ++ T :: l2 -> l2 <> [] -> kids T = []) /\ (forall T, In T F -> last_only (kids T)).
Proof.
  split.
  - induction 1 as [|a cs H IH|a F H [IH1 IH2]].
    + split; [intros [|? ?]; discriminate|intros T []].
    + split; [|intros T [<-|[]]; exact H]. intros [|b l1] T l2 E N; [injection E as <- <-; congruence|destruct l1; discriminate].
    + split; [|intros T [<-|HT]; [constructor|apply IH2; exact HT]]. intros [|b l1] T l2 E N; injection E as E1 E2; [subst; reflexivity|]. apply (IH1 l1 T l2 E2 N).
  - induction F as [|[a cs] F IH]; intros (P & Q); [constructor|]. destruct F as [|T F].
    + apply lo_last. apply (Q (Node a cs)). left. reflexivity.
    + pose proof (P [] (Node a cs) (T :: F) eq_refl ltac:(discriminate)) as E. cbn in E. subst cs. apply lo_leaf. apply IH. split; [|intros U HU; apply Q; right; exact HU].
      intros l1 U l2 E N. apply (P (Node a [] :: l1) U l2); [rewrite E; reflexivity|exact N].
Qed.
