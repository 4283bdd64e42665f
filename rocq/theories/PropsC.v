(** C14 - C18: replacing, moving, renaming, reversing and rotating children. *)
From Coq Require Import Sorting.Permutation Sorting.Sorted.
From Verif Require Import Base Heap HeapSpec ListLemmas ForestLemmas HeapInv HeapAttach HeapOps HeapOps2 HeapOps3
  HeapHoare Tree HeapTree HeapCopy HeapMut HeapExt HeapExt2 HeapOrd HeapOrd2 HeapRen HeapMove HeapSet HeapSet2 HeapHist
  HeapHash History HeapRead HeapRead2 Runs HeapDel HeapLink HeapLinkH PropsA PropsB.

(** family queries of any item answer from the child list (the form used below) *)
Definition families_agree (h : heap) : Prop := forall q t, hashable t = true ->
  getitem h q (TgTagAll t) =
    match filter (fun y => pyval_eqb (tag_of h y) t) (children h q) with [] => Err KeyError | fam => Ok (GList fam) end.
Lemma reach_agree h : Reach h -> families_agree h.
Proof. intros R q t Ht. apply (C01_family_index_partial h q t R Ht). Qed.

(** * C14 *)
Lemma setitem_free h p tg x o : getitem h p tg = Ok (GItem o) -> tg <> TgEllipsis -> tg <> TgVal (tag_of h x) ->
  tree_protected h p = false -> parent_of h x = None -> x <> o -> setitem p tg (IItem x) h = set_core p x o h.
Proof.
  intros Eg G1 G2 Hpr Hpar Hxo. unfold setitem. rewrite (bind_ok _ _ _ _ _ (check_insert_unprot p _ h Hpr)), bind_gets, Eg.
  destruct (Nat.eqb_spec o x) as [->|_]; [congruence|]. apply prt_none in Hpar. rewrite Hpar.
  rewrite (bind_ok (ret x) _ h h x eq_refl), bind_gets. cbv zeta. change (ntag (hnode h x)) with (tag_of h x).
  destruct tg as [v|sa sb|t|t sa sb|t i| |f]; try congruence; cbv iota.
  1: destruct (pyval_eqb v (tag_of h x)) eqn:Ev; [apply pyval_eqb_eq in Ev; congruence|].
  all: unfold set_core; rewrite bind_gets; reflexivity.
Qed.

(** the child o remembers its position in its family with an error of at most m *)
Definition family_remembers (h : heap) (p o : loc) (m : Z) : Prop :=
  forall pl n, nprt (hnode h o) = Some pl ->
    nth_error (filter (fun y => pyval_eqb (tag_of h y) (tag_of h o)) (children h p)) n = Some o ->
    (Z.abs (pl_fam pl - Z.of_nat n) <= m)%Z.

Lemma fam_pos_nth h p o k : WF h -> nth_error (children h p) k = Some o ->
  nth_error (filter (fun y => pyval_eqb (tag_of h y) (tag_of h o)) (children h p)) (fam_pos h p o k) = Some o.
Proof.
  intros W Hk. rewrite <- (fam_index_pos h p o k W Hk). apply fam_index_nth. eapply nth_error_In; eauto.
Qed.

Theorem C14_setitem_partial : forall h p tg x o k, Reach h ->
  p < hnext h -> x < hnext h -> tree_protected h p = false -> parent_of h x = None -> ~ Anc (view h) x p ->
  (* the target names one child: the child number k *)
  getitem h p tg = Ok (GItem o) -> nth_error (children h p) k = Some o ->
  tg <> TgEllipsis -> tg <> TgVal (tag_of h x) ->
  (tag_of h x = tag_of h o \/
   (* another child has the tag of the old one, and the family of the new tag is new or positions are fresh *)
   ((exists y, y <> o /\ In y (children h p) /\ tag_of h y = tag_of h o) /\
    ((forall y, In y (children h p) -> tag_of h y <> tag_of h x) \/ remembers_within h p 20))) ->
  family_remembers h p o 20 ->
  exists h', setitem p tg (IItem x) h = (h', Ok x) /\
    children h' p = replace_at k x (children h p) /\ parent_of h' x = Some p /\ parent_of h' o = None /\
    (forall y, y <> p -> y <> x -> y <> o -> view h' y = view h y) /\
    (forall y, tag_of h' y = tag_of h y) /\ families_agree h'.
Proof.
  intros h p tg x o k R Hp Hx Hpr Hpar HA Eg Hk G1 G2 Hd Hf. pose proof (reach_WF h R) as W.
  assert (Ho : In o (children h p)) by (eapply nth_error_In; eauto).
  destruct (child_attached h p o W Ho) as [Hon Hop].
  assert (Hxo : x <> o) by congruence.
  assert (At : attachable h p x) by (split; [apply prt_none; assumption|]; auto).
  assert (Gd : set_guard h p o (tag_of h x)).
  { destruct Hd as [Hd|[(y & Hy1 & Hy2 & Hy3) Hd]]; [left; assumption|right]. split.
    - intros E. assert (K : In y (with_tag (view h) p (tag_of h o))) by (apply with_tag_In; auto).
      rewrite E in K. destruct K as [K|[]]. congruence.
    - destruct Hd as [Hd|Hd]; [left|right; exact Hd].
      destruct (with_tag (view h) p (tag_of h x)) as [|z l] eqn:E; [reflexivity|]. exfalso.
      assert (K : In z (with_tag (view h) p (tag_of h x))) by (rewrite E; left; reflexivity).
      apply with_tag_In in K as [K1 K2]. apply (Hd z K1). exact K2. }
  rewrite (setitem_free h p tg x o Eg G1 G2 Hpr Hpar Hxo).
  destruct (set_core_ok h p x o k W Hk At Hxo Gd) as (h' & r & E & K). destruct r as [c|e].
  2:{ exfalso. destruct K as (_ & _ & pl & Epl & Hfar). specialize (Hf pl (fam_pos h p o k) Epl (fam_pos_nth h p o k W Hk)). lia. }
  destruct K as (-> & W' & _ & S & _). exists h'. split; [exact E|].
  assert (Hxp : x <> p) by (intros ->; apply HA; constructor).
  assert (Hop' : o <> p) by (intros ->; apply (child_not_anc h p p W Ho); constructor).
  assert (R' : Reach h').
  { eapply (reach_after h (OSetItem p tg (IItem x))); [assumption| |].
    - split; [apply arg_ok_free; assumption|]. split; [assumption|]. split; [assumption|]. intros o' Eo _.
      rewrite Eg in Eo. injection Eo as <-. exact Gd.
    - cbn [run]. eapply void_run. rewrite (setitem_free h p tg x o Eg G1 G2 Hpr Hpar Hxo). exact E. }
  split; [unfold children; rewrite S; unfold replaced; rewrite Nat.eqb_refl; reflexivity|].
  split; [unfold parent_of; rewrite S; unfold replaced; destruct (Nat.eqb_spec x p); [congruence|]; rewrite Nat.eqb_refl; reflexivity|].
  split.
  { unfold parent_of; rewrite S; unfold replaced; destruct (Nat.eqb_spec o p); [congruence|].
    destruct (Nat.eqb_spec o x); [congruence|]. rewrite Nat.eqb_refl; reflexivity. }
  split.
  { intros y H1 H2 H3. rewrite S. unfold replaced. destruct (Nat.eqb_spec y p); [congruence|].
    destruct (Nat.eqb_spec y x); [congruence|]. destruct (Nat.eqb_spec y o); [congruence|]. reflexivity. }
  split; [|apply reach_agree; assumption].
  intros y. unfold tag_of. rewrite S. unfold replaced. destruct (Nat.eqb_spec y p) as [->|]; [reflexivity|].
  destruct (Nat.eqb_spec y x) as [->|]; [reflexivity|]. destruct (Nat.eqb_spec y o) as [->|]; reflexivity.
Qed.
Lemma ex_not_anc6 : ~ Anc (view ex_heap) 6 0.
Proof. apply (anc_b_false ex_heap 6 8). vm_compute. reflexivity. Qed.
Example C14_case : Reach ex_heap /\ 6 < hnext ex_heap /\ tree_protected ex_heap 0 = false /\ parent_of ex_heap 6 = None /\
  ~ Anc (view ex_heap) 6 0 /\ getitem ex_heap 0 (TgVal (PInt (-2))) = Ok (GItem 3) /\ nth_error (children ex_heap 0) 2 = Some 3 /\
  (exists y, y <> 3 /\ In y (children ex_heap 0) /\ tag_of ex_heap y = tag_of ex_heap 3) /\
  (forall y, In y (children ex_heap 0) -> tag_of ex_heap y <> tag_of ex_heap 6) /\
  children (fst (setitem 0 (TgVal (PInt (-2))) (IItem 6) ex_heap)) 0 = [1; 2; 6; 4].
Proof.
  split; [exact ex_reach|]. split; [vm_compute; lia|]. do 2 (split; [vm_compute; reflexivity|]). split; [exact ex_not_anc6|].
  do 2 (split; [vm_compute; reflexivity|]). split; [exists 1; vm_compute; split; [discriminate|auto]|]. split; [|vm_compute; reflexivity].
  intros y Hy. vm_compute in Hy. repeat (destruct Hy as [<-|Hy]; [vm_compute; discriminate|]). destruct Hy.
Qed.
(** replacing the only "b" by another tag leaves an empty family "b" behind *)
Theorem C14_setitem_refuted : let r := setitem 0 (TgVal (PInt 1)) (IItem 6) ex_heap in
  snd r = Ok 6 /\ children (fst r) 0 = [1; 6; 3; 4] /\ getitem (fst r) 0 (TgTagAll (PStr "b")) = Ok (GList []).
Proof. vm_compute. auto. Qed.
(** replacing a whole family: the replaced items keep their parent *)
Theorem C14_setitem_family_refuted :
  let h := after (ONew (PStr "a") (PInt 9) [] None 0) ex_heap in
  let r := setitem 0 (TgVal (PStr "a")) (IItem 7) h in
  snd r = Ok 7 /\ children (fst r) 0 = [7; 2; 4] /\ parent_of (fst r) 1 = Some 0 /\ parent_of (fst r) 3 = Some 0.
Proof. vm_compute. auto. Qed.
(** 50 children of one family, the first 30 popped: t[25] = x raises TypeError *)
Definition far_set_ops : list op :=
  ONew (PStr "r") PNoValue [] None 0 :: repeat (OAppend 0 (IVal (PInt 7))) 60 ++ repeat (ODelete 0 (TgVal (PInt 0))) 30
  ++ [ONew PNoTag (PInt 8) [] None 0].
Theorem C14_setitem_far_refuted : let h := runs far_set_ops empty_heap in
  Reach h /\ length (children h 0) = 30 /\ snd (setitem 0 (TgVal (PInt 25)) (IItem 61) h) = Err TypeError.
Proof. cbv zeta. split; [apply reach_runs; [constructor|vm_compute; reflexivity]|]. vm_compute. auto. Qed.

(** * C15 *)
Lemma remove_at_length {A} k (l : list A) x : nth_error l k = Some x -> length (remove_at k l) = length l - 1.
Proof.
  intros H. unfold remove_at. rewrite app_length, firstn_length, skipn_length.
  assert (k < length l) by (apply nth_error_Some; congruence). lia.
Qed.
Lemma move_child h p x k tg : Reach h -> nth_error (children h p) k = Some x -> tree_protected h p = false -> mv_ok h p x tg ->
  forall z, move_idx h p tg = Some z ->
  exists h', move x tg h = (h', Ok x) /\ same (view h') (reorder (view h) p (py_insert z x (remove_at k (children h p)))) /\ families_agree h'.
Proof.
  intros R Hk Hpr G z Ez. pose proof (reach_WF h R) as W. pose proof (move_ok h p x k tg W Hk Hpr G) as K. rewrite Ez in K.
  destruct K as (h' & E & W' & S). exists h'. split; [exact E|]. split; [exact S|]. apply reach_agree.
  eapply (reach_after h (OMove x tg)); [assumption| |cbn [run]; eapply void_run; exact E].
  intros q Hq. assert (Hin : In x (children h p)) by (eapply nth_error_In; eauto).
  destruct (child_attached h p x W Hin) as [_ E2]. assert (q = p) by congruence. subst q. split; assumption.
Qed.
(** x.move(): x becomes the last child, always *)
Theorem C15_move_last : forall h p x k, Reach h -> nth_error (children h p) k = Some x -> tree_protected h p = false ->
  exists h', move x None h = (h', Ok x) /\
    same (view h') (reorder (view h) p (remove_at k (children h p) ++ [x])) /\ families_agree h'.
Proof.
  intros h p x k R Hk Hpr. destruct (move_child h p x k None R Hk Hpr (conj I I) _ eq_refl) as (h' & E & S & F).
  exists h'. split; [exact E|]. split; [|exact F]. eapply same_trans; [exact S|]. unfold py_insert, py_insert_pos.
  pose proof (remove_at_length k (children h p) x Hk) as L.
  destruct (Z.ltb_spec (Z.of_nat (length (children h p))) 0); [lia|].
  rewrite Z2Nat.inj_min, !Nat2Z.id, L by lia. rewrite Nat.min_r by lia. rewrite <- L, insert_at_end. apply same_refl.
Qed.
(** x.move(j) with 0 <= j: x is re-inserted into the list of the other children at min(j, len-1) *)
Theorem C15_move_index_partial : forall h p x k j, Reach h -> nth_error (children h p) k = Some x -> tree_protected h p = false ->
  ((forall y, In y (children h p) -> tag_of h y = tag_of h x -> y = x) \/ remembers_within h p 18) ->
  exists h', move x (Some (TgVal (PInt (Z.of_nat j)))) h = (h', Ok x) /\
    same (view h') (reorder (view h) p (insert_at (Nat.min j (length (children h p) - 1)) x (remove_at k (children h p)))) /\
    families_agree h'.
Proof.
  intros h p x k j R Hk Hpr Hd. pose proof (reach_WF h R) as W.
  assert (G : mv_ok h p x (Some (TgVal (PInt (Z.of_nat j))))).
  { split; [right; lia|]. destruct Hd as [Hd|Hd]; [left|right; exact Hd].
    assert (Hin : In x (children h p)) by (eapply nth_error_In; eauto).
    assert (K : forall y, In y (with_tag (view h) p (tag_of h x)) -> y = x).
    { intros y Hy. apply with_tag_In in Hy as [H1 H2]. auto. }
    assert (K2 : In x (with_tag (view h) p (tag_of h x))) by (apply with_tag_In; auto).
    pose proof (with_tag_NoDup h p (tag_of h x) W) as N. destruct (with_tag (view h) p (tag_of h x)) as [|a [|b l]].
    - destruct K2.
    - f_equal. apply K. left; reflexivity.
    - exfalso. inversion N as [|? ? N1 _]. apply N1. left. rewrite (K a), (K b); [reflexivity|right; left; reflexivity|left; reflexivity]. }
  destruct (move_child h p x k _ R Hk Hpr G _ eq_refl) as (h' & E & S & F).
  exists h'. split; [exact E|]. split; [|exact F]. eapply same_trans; [exact S|]. unfold py_insert, py_insert_pos.
  pose proof (remove_at_length k (children h p) x Hk) as L.
  destruct (Z.ltb_spec (Z.of_nat j) 0); [lia|].
  rewrite Z2Nat.inj_min, !Nat2Z.id, L by lia. apply same_refl.
Qed.
(** hence, moving towards the front: x stands directly in front of the child that had index j,
    the others keep their order *)
Theorem C15_move_before_partial : forall h p x l1 y l2 l3, Reach h -> children h p = l1 ++ y :: l2 ++ x :: l3 -> tree_protected h p = false ->
  ((forall z, In z (children h p) -> tag_of h z = tag_of h x -> z = x) \/ remembers_within h p 18) ->
  exists h', move x (Some (TgVal (PInt (Z.of_nat (length l1))))) h = (h', Ok x) /\
    children h' p = l1 ++ x :: y :: l2 ++ l3.
Proof.
  intros h p x l1 y l2 l3 R E Hpr Hd.
  assert (E' : children h p = (l1 ++ y :: l2) ++ x :: l3) by (rewrite E, <- app_assoc; reflexivity).
  assert (Hk : nth_error (children h p) (length (l1 ++ y :: l2)) = Some x).
  { rewrite E'. rewrite nth_error_app2, Nat.sub_diag by lia. reflexivity. }
  destruct (C15_move_index_partial h p x _ (length l1) R Hk Hpr Hd) as (h' & M & SS & _). exists h'. split; [exact M|].
  unfold children at 1. rewrite SS. unfold reorder. rewrite Nat.eqb_refl. cbn [a_set_children a_children].
  replace (remove_at (length (l1 ++ y :: l2)) (children h p)) with (l1 ++ y :: l2 ++ l3).
  2:{ rewrite E'. unfold remove_at. rewrite firstn_app, Nat.sub_diag, firstn_all. cbn [firstn]. rewrite app_nil_r.
      rewrite skipn_app, skipn_all2 by lia. replace (S (length (l1 ++ y :: l2)) - length (l1 ++ y :: l2)) with 1 by lia. cbn [app skipn].
      rewrite <- app_assoc. reflexivity. }
  rewrite Nat.min_l.
  2:{ rewrite E, app_length. cbn. rewrite app_length. cbn. lia. }
  unfold insert_at. rewrite firstn_app, Nat.sub_diag, firstn_all. cbn [firstn]. rewrite app_nil_r, skipn_app, skipn_all, Nat.sub_diag. reflexivity.
Qed.
(** move(key): the same with the position of the child the key names *)
Theorem C15_move_key_partial : forall h p x k tg y j, Reach h -> nth_error (children h p) k = Some x -> tree_protected h p = false ->
  (forall z, tg <> TgVal (PInt z)) -> getitem h p tg = Ok (GItem y) -> nth_error (children h p) j = Some y ->
  ((forall z, In z (children h p) -> tag_of h z = tag_of h x -> z = x) \/ remembers_within h p 18) ->
  exists h' h'', move x (Some tg) h = (h', Ok x) /\ move x (Some (TgVal (PInt (Z.of_nat j)))) h = (h'', Ok x) /\
    same (view h') (view h'').
Proof.
  intros h p x k tg y j R Hk Hpr Ht Eg Hj Hd. pose proof (reach_WF h R) as W.
  destruct (C15_move_index_partial h p x k j R Hk Hpr Hd) as (h'' & M & S & _).
  assert (G : mv_ok h p x (Some tg)).
  { split; [destruct tg as [[]| | | | | |]; try exact I; exfalso; eapply Ht; reflexivity|]. destruct Hd as [Hd|Hd]; [left|right; exact Hd].
    assert (Hin : In x (children h p)) by (eapply nth_error_In; eauto).
    assert (K : forall y, In y (with_tag (view h) p (tag_of h x)) -> y = x).
    { intros y0 Hy. apply with_tag_In in Hy as [H1 H2]. auto. }
    assert (K2 : In x (with_tag (view h) p (tag_of h x))) by (apply with_tag_In; auto).
    pose proof (with_tag_NoDup h p (tag_of h x) W) as N. destruct (with_tag (view h) p (tag_of h x)) as [|a [|b l]].
    - destruct K2.
    - f_equal. apply K. left; reflexivity.
    - exfalso. inversion N as [|? ? N1 _]. apply N1. left. rewrite (K a), (K b); [reflexivity|right; left; reflexivity|left; reflexivity]. }
  assert (Ei : move_idx h p (Some tg) = Some (Z.of_nat j)).
  { assert (Ep : pos_of y (children h p) = Some j) by (apply pos_of_NoDup; [apply (WF_nodup h p W)|assumption]).
    unfold move_idx. rewrite Eg, Ep. destruct tg as [[]| | | | | |]; try reflexivity. exfalso; eapply Ht; reflexivity. }
  destruct (move_child h p x k _ R Hk Hpr G _ Ei) as (h' & E & S' & _). exists h', h''. split; [exact E|]. split; [exact M|].
  eapply same_trans; [exact S'|]. eapply same_trans; [|apply same_sym; exact S]. unfold py_insert, py_insert_pos.
  pose proof (remove_at_length k (children h p) x Hk) as L.
  destruct (Z.ltb_spec (Z.of_nat j) 0); [lia|].
  rewrite Z2Nat.inj_min, !Nat2Z.id, L by lia. apply same_refl.
Qed.
Example C15_case : Reach ex_heap /\ children ex_heap 0 = [1] ++ 2 :: [3] ++ 4 :: [] /\ tree_protected ex_heap 0 = false /\
  (forall z, In z (children ex_heap 0) -> tag_of ex_heap z = tag_of ex_heap 4 -> z = 4) /\
  children (fst (move 4 (Some (TgVal (PInt 1))) ex_heap)) 0 = [1; 4; 2; 3].
Proof.
  split; [exact ex_reach|]. do 2 (split; [vm_compute; reflexivity|]). split; [|vm_compute; reflexivity].
  intros z Hz. vm_compute in Hz. repeat (destruct Hz as [<-|Hz]; [vm_compute; intros; first [reflexivity|discriminate]|]). destruct Hz.
Qed.
(** moving towards the end: move(2) puts x after, not in front of, the child that had index 2 *)
Theorem C15_move_refuted : children ex_heap 0 = [1; 2; 3; 4] /\
  children (fst (move 1 (Some (TgVal (PInt 2))) ex_heap)) 0 = [2; 3; 1; 4].
Proof. vm_compute. auto. Qed.
(** with stale positions the move fails after the item was taken out: x is lost from the tree *)
Definition move_far_ops : list op :=
  ONew (PStr "r") PNoValue [] None 0 :: repeat (OAppend 0 (IVal (PInt 7))) 100 ++ repeat (ODelete 0 (TgVal (PInt 0))) 50.
Theorem C15_move_far_refuted : let h := runs move_far_ops empty_heap in
  let r := move 100 (Some (TgVal (PInt 1))) h in
  Reach h /\ nth_error (children h 0) 49 = Some 100 /\ snd r = Err AttributeError /\ parent_of (fst r) 100 = None.
Proof. cbv zeta. split; [apply reach_runs; [constructor|vm_compute; reflexivity]|]. vm_compute. auto. Qed.

(** * C16 *)
(** no earlier sibling of the same tag compares equal to x *)
Definition no_earlier_twin (h : heap) (p x : loc) : Prop :=
  forall l1 l2 y, filter (fun z => pyval_eqb (tag_of h z) (tag_of h x)) (children h p) = l1 ++ x :: l2 ->
    In y l1 -> item_eqb h x y = false.
Theorem C16_rename_partial : forall h p x t, Reach h -> In x (children h p) -> tree_protected h p = false ->
  hashable t = true -> no_earlier_twin h p x ->
  exists h', rename x t h = (h', Ok (Some x)) /\
    tag_of h' x = t /\ children h' p = children h p /\
    same (view h') (retag (view h) x t) /\ families_agree h'.
Proof.
  intros h p x t R Hin Hpr Ht Hf. pose proof (reach_WF h R) as W. apply In_nth_error in Hin as [k Hk].
  assert (Hx : x <> p) by (intros ->; apply (child_not_anc h p p W); [eapply nth_error_In; eauto|constructor]).
  destruct (rename_ok h p x k t W Ht Hk Hf) as (h' & E & Q).
  { unfold outcome, check_rename. rewrite bind_gets, Hpr. reflexivity. }
  assert (S : same (view h') (retag (view h) x t)) by (eapply same_trans; [apply ceq_same; exact Q|apply mk_rename_view; assumption]).
  exists h'. split; [exact E|].
  split; [unfold tag_of; rewrite S; unfold retag; rewrite Nat.eqb_refl; reflexivity|].
  split; [unfold children; rewrite S; unfold retag; destruct (Nat.eqb_spec p x); [congruence|reflexivity]|].
  split; [exact S|]. apply reach_agree. eapply (reach_after h (ORename x t)); [assumption| |cbn [run]; eapply void_run; exact E].
  split; [assumption|]. intros q Hq. destruct (child_attached h p x W) as [_ E2]; [eapply nth_error_In; eauto|].
  assert (q = p) by congruence. subst q. split; [eapply nth_error_In; eauto|exact Hf].
Qed.
(** a parentless item only gets the new tag *)
Theorem C16_rename_root : forall h x t, parent_of h x = None ->
  exists h', rename x t h = (h', Ok None) /\ same (view h') (retag (view h) x t).
Proof.
  intros h x t Hp. exists (hmod h x (set_tag t)). split; [apply rename_root; assumption|]. intros y. unfold retag, view. cbn.
  destruct (Nat.eqb_spec y x) as [->|]; reflexivity.
Qed.
Example C16_case : Reach ex_heap /\ In 2 (children ex_heap 0) /\ tree_protected ex_heap 0 = false /\ no_earlier_twin ex_heap 0 2 /\
  getitem (fst (rename 2 (PStr "a") ex_heap)) 0 (TgTagAll (PStr "a")) = Ok (GList [1; 2; 3]).
Proof.
  split; [exact ex_reach|]. split; [vm_compute; auto|]. split; [vm_compute; reflexivity|]. split; [|vm_compute; reflexivity].
  intros l1 l2 y E Hy. vm_compute in E. destruct l1 as [|a [|b l1]]; [destruct Hy|discriminate E|discriminate E].
Qed.
(** two equal twins "t": renaming the second one takes the first out of the family; t["t"] then shows the
    renamed one and misses the other *)
Theorem C16_rename_refuted : let h := runs twin_ops empty_heap in
  let h' := fst (rename 3 (PStr "new") h) in
  Reach h /\ children h' 0 = children h 0 /\ map (tag_of h') (children h' 0) <> [] /\
  exists l, getitem h' 0 (TgTagAll (tag_of h 3)) = Ok (GList l) /\ In 3 l.
Proof.
  cbv zeta. split; [apply reach_runs; [constructor|vm_compute; reflexivity]|]. split; [vm_compute; reflexivity|].
  split; [vm_compute; discriminate|]. eexists. split; [vm_compute; reflexivity|]. vm_compute. auto.
Qed.
(** an unhashable tag: TypeError, but the item has lost its family and carries the unusable tag *)
Theorem C16_rename_unhashable_refuted : let r := rename 2 (PList []) ex_heap in
  snd r = Err TypeError /\ tag_of (fst r) 2 = PList [] /\ getitem (fst r) 0 (TgTagAll (PStr "b")) = Err KeyError /\
  children (fst r) 0 = [1; 2; 3; 4].
Proof. vm_compute. auto. Qed.

(** * C17 *)
Lemma rev_filter {A} (f : A -> bool) l : filter f (rev l) = rev (filter f l).
Proof.
  induction l as [|a l IH]; [reflexivity|]. cbn. rewrite filter_app, IH. cbn. destruct (f a); cbn; [reflexivity|apply app_nil_r].
Qed.
Lemma check_order_unprot p h : tree_protected h p = false -> outcome (check_order p) h = Ok true.
Proof. intros H. unfold outcome, check_order. rewrite bind_gets, H. reflexivity. Qed.
Lemma reorder_children s p l : a_children (reorder s p l p) = l.
Proof. unfold reorder. rewrite Nat.eqb_refl. reflexivity. Qed.
Theorem C17_reverse_partial : forall h p, Reach h -> tree_protected h p = false -> children h p <> [] ->
  exists h', reverse p h = (h', Ok tt) /\ same (view h') (reorder (view h) p (rev (children h p))) /\
    (forall t, filter (fun y => pyval_eqb (tag_of h' y) t) (children h' p) =
               rev (filter (fun y => pyval_eqb (tag_of h y) t) (children h p))) /\ families_agree h'.
Proof.
  intros h p R Hpr Hne. pose proof (reach_WF h R) as W. destruct (reverse_case h p W) as (h' & r & E & W' & _ & K).
  destruct r as [[]|e].
  2:{ exfalso. destruct K as [_ [K|(_ & K & _)]]; [|congruence]. rewrite check_order_unprot in K by assumption. discriminate. }
  destruct K as [[K _]|S]; [rewrite check_order_unprot in K by assumption; discriminate|].
  exists h'. split; [exact E|]. split; [exact S|]. split.
  - intros t. unfold children at 1. rewrite S, reorder_children, <- rev_filter. apply filter_ext. intros y. unfold tag_of. rewrite S.
    unfold reorder. destruct (Nat.eqb_spec y p) as [->|]; reflexivity.
  - apply reach_agree. apply (reach_after h (OReverse p) h' (Ok tt)); [assumption|exact I|exact E].
Qed.
Theorem C17_reverse_twice_partial : forall h p, Reach h -> tree_protected h p = false -> children h p <> [] ->
  exists h1 h2, reverse p h = (h1, Ok tt) /\ reverse p h1 = (h2, Ok tt) /\ same (view h2) (view h).
Proof.
  intros h p R Hpr Hne. destruct (C17_reverse_partial h p R Hpr Hne) as (h1 & E1 & S1 & _).
  assert (R1 : Reach h1) by (apply (reach_after h (OReverse p) h1 (Ok tt)); [assumption|exact I|exact E1]).
  assert (C1 : children h1 p = rev (children h p)) by (unfold children; rewrite S1; apply reorder_children).
  destruct (C17_reverse_partial h1 p R1) as (h2 & E2 & S2 & _).
  - rewrite (prot_view h); [assumption|]. rewrite S1. unfold reorder. rewrite Nat.eqb_refl. reflexivity.
  - rewrite C1. intros K. apply Hne. rewrite <- (rev_involutive (children h p)), K. reflexivity.
  - exists h1, h2. split; [exact E1|]. split; [exact E2|]. intros y. rewrite S2. unfold reorder. rewrite C1, rev_involutive.
    destruct (Nat.eqb_spec y p) as [->|].
    + rewrite S1. unfold reorder. rewrite Nat.eqb_refl. cbn. reflexivity.
    + rewrite S1. unfold reorder. destruct (Nat.eqb_spec y p); [congruence|reflexivity].
Qed.
Example C17_case : Reach ex_heap /\ tree_protected ex_heap 0 = false /\ children ex_heap 0 <> [] /\
  children (fst (reverse 0 ex_heap)) 0 = [4; 3; 2; 1] /\
  getitem (fst (reverse 0 ex_heap)) 0 (TgTagAll (PStr "a")) = Ok (GList [3; 1]).
Proof. split; [exact ex_reach|]. split; [vm_compute; reflexivity|]. split; [vm_compute; discriminate|]. vm_compute. auto. Qed.
(** an item that never had children *)
Theorem C17_reverse_refuted : children ex_heap 6 = [] /\ snd (reverse 6 ex_heap) = Err AttributeError.
Proof. vm_compute. auto. Qed.
(** a link root whose link is not loaded: local children are silently not reversed *)
Definition linkroot_ops : list op :=
  [ONew (PStr "l") PNoValue [EArgs (PStr "a") (PInt 1); EArgs (PStr "b") (PInt 2)] (Some 0%nat) 0].
Theorem C17_reverse_link_refuted : let h := runs linkroot_ops empty_heap in
  Reach h /\ snd (reverse 0 h) = Ok tt /\ children h 0 = [1; 2] /\ children (fst (reverse 0 h)) 0 = [1; 2].
Proof. cbv zeta. split; [apply reach_runs; [constructor|vm_compute; reflexivity]|]. vm_compute. auto. Qed.

(** * C18 *)
Theorem C18_rotate_partial : forall h p n, Reach h -> p < hnext h -> tree_protected h p = false ->
  n <= length (children h p) ->
  (* rotate(n): the last n come first *)
  (exists h', rotate p (Z.of_nat n) h = (h', Ok tt) /\ hnext h <= hnext h' /\ families_agree h' /\
     forall l1 l2, children h p = l1 ++ l2 -> length l2 = n ->
       forall y, y < hnext h -> view h' y = reorder (view h) p (l2 ++ l1) y) /\
  (* rotate(-n): the first n go to the end *)
  (exists h', rotate p (- Z.of_nat n) h = (h', Ok tt) /\ hnext h <= hnext h' /\ families_agree h' /\
     forall l1 l2, children h p = l1 ++ l2 -> length l1 = n ->
       forall y, y < hnext h -> view h' y = reorder (view h) p (l2 ++ l1) y).
Proof.
  intros h p n R Hp Hpr Hn. pose proof (reach_WF h R) as W. split.
  - destruct (rotate_ok h p (Z.of_nat n) W Hp (check_order_unprot p h Hpr)) as (h' & E & W' & Nx & V); [lia|].
    exists h'. split; [exact E|]. split; [exact Nx|]. split; [apply reach_agree; apply (reach_after h (ORotate p (Z.of_nat n)) h' (Ok tt)); assumption|].
    intros l1 l2 E2 L2 y Hy. rewrite (V y Hy). unfold rotated. destruct (Z.leb_spec 0 (Z.of_nat n)); [|lia].
    rewrite Nat2Z.id. replace (length (children h p) - n) with (length l1) by (rewrite E2, app_length; lia).
    rewrite E2, skipn_app, skipn_all, Nat.sub_diag, firstn_app, firstn_all, Nat.sub_diag. cbn [skipn firstn app]. rewrite app_nil_r. reflexivity.
  - destruct (rotate_ok h p (- Z.of_nat n) W Hp (check_order_unprot p h Hpr)) as (h' & E & W' & Nx & V); [lia|].
    exists h'. split; [exact E|]. split; [exact Nx|]. split; [apply reach_agree; apply (reach_after h (ORotate p (- Z.of_nat n)) h' (Ok tt)); assumption|].
    intros l1 l2 E2 L2 y Hy. rewrite (V y Hy). unfold rotated. destruct (Z.leb_spec 0 (- Z.of_nat n)).
    + assert (n = 0) by lia. assert (l1 = []) by (destruct l1; [reflexivity|cbn in *; lia]). subst l1. cbn [app] in E2. subst l2.
      replace n with 0 by lia.
      replace (length (children h p) - Z.to_nat (- Z.of_nat 0)) with (length (children h p)) by (cbn; lia).
      rewrite skipn_all, firstn_all, app_nil_r. reflexivity.
    + rewrite Z.opp_involutive, Nat2Z.id, <- L2, E2, skipn_app, skipn_all, Nat.sub_diag, firstn_app, firstn_all, Nat.sub_diag.
      cbn [skipn firstn app]. rewrite app_nil_r. reflexivity.
Qed.
(** rotate(-n) undoes rotate(n) *)
Theorem C18_rotate_undo_partial : forall h p n, Reach h -> p < hnext h -> tree_protected h p = false ->
  n <= length (children h p) ->
  exists h1 h2, rotate p (Z.of_nat n) h = (h1, Ok tt) /\ rotate p (- Z.of_nat n) h1 = (h2, Ok tt) /\
    forall y, y < hnext h -> view h2 y = view h y.
Proof.
  intros h p n R Hp Hpr Hn. destruct (C18_rotate_partial h p n R Hp Hpr Hn) as [(h1 & E1 & Nx & _ & V1) _].
  set (l1 := firstn (length (children h p) - n) (children h p)). set (l2 := skipn (length (children h p) - n) (children h p)).
  assert (E : children h p = l1 ++ l2) by (symmetry; apply firstn_skipn).
  assert (L2 : length l2 = n) by (unfold l2; rewrite skipn_length; lia).
  specialize (V1 l1 l2 E L2). assert (C1 : children h1 p = l2 ++ l1) by (unfold children; rewrite (V1 p Hp); apply reorder_children).
  assert (R1 : Reach h1) by (apply (reach_after h (ORotate p (Z.of_nat n)) h1 (Ok tt)); assumption).
  assert (Hp1 : p < hnext h1) by lia.
  destruct (C18_rotate_partial h1 p n R1 Hp1) as [_ (h2 & E2 & _ & _ & V2)].
  - rewrite (prot_view h); [assumption|]. rewrite (V1 p Hp). unfold reorder. rewrite Nat.eqb_refl. reflexivity.
  - rewrite C1, app_length. lia.
  - exists h1, h2. split; [exact E1|]. split; [exact E2|]. intros y Hy.
    rewrite (V2 l2 l1 C1 L2 y) by lia. unfold reorder. rewrite <- E. destruct (Nat.eqb_spec y p) as [->|].
    + rewrite (V1 p Hp). unfold reorder. rewrite Nat.eqb_refl. cbn. reflexivity.
    + rewrite (V1 y Hy). unfold reorder. destruct (Nat.eqb_spec y p); [congruence|reflexivity].
Qed.
Example C18_case : Reach ex_heap /\ 0 < hnext ex_heap /\ tree_protected ex_heap 0 = false /\ 3 <= length (children ex_heap 0) /\
  children (fst (rotate 0 3 ex_heap)) 0 = [2; 3; 4; 1].
Proof. split; [exact ex_reach|]. split; [vm_compute; lia|]. split; [vm_compute; reflexivity|]. split; [vm_compute; lia|]. vm_compute. reflexivity. Qed.
(** rotating by more than the number of children loses all of them *)
Theorem C18_rotate_refuted : let r := rotate 0 5 ex_heap in
  length (children ex_heap 0) = 4 /\ snd r = Err KeyError /\ children (fst r) 0 = [] /\ parent_of (fst r) 1 = None.
Proof. vm_compute. auto. Qed.
Print Assumptions C14_setitem_partial.
Print Assumptions C14_setitem_refuted.
Print Assumptions C14_setitem_family_refuted.
Print Assumptions C14_setitem_far_refuted.
Print Assumptions C15_move_last.
Print Assumptions C15_move_index_partial.
Print Assumptions C15_move_before_partial.
Print Assumptions C15_move_key_partial.
Print Assumptions C15_move_refuted.
Print Assumptions C15_move_far_refuted.
Print Assumptions C16_rename_partial.
Print Assumptions C16_rename_root.
Print Assumptions C16_rename_refuted.
Print Assumptions C16_rename_unhashable_refuted.
Print Assumptions C17_reverse_partial.
Print Assumptions C17_reverse_twice_partial.
Print Assumptions C17_reverse_refuted.
Print Assumptions C17_reverse_link_refuted.
Print Assumptions C18_rotate_partial.
Print Assumptions C18_rotate_undo_partial.
Print Assumptions C18_rotate_refuted.
