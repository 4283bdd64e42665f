(** C02, C09 - C16: attaching, deleting, replacing, moving and renaming children. *)
From Coq Require Import Sorting.Permutation.
From Verif Require Import Base Heap HeapSpec ListLemmas ForestLemmas HeapInv HeapAttach HeapOps HeapOps2 HeapOps3
  HeapHoare Tree HeapTree HeapCopy HeapMut HeapExt HeapExt2 HeapOrd HeapOrd2 HeapRen HeapMove HeapSet HeapSet2 HeapHist
  HeapHash History HeapRead HeapRead2 Runs HeapDel PropsA.

(** ** helpers of the proofs *)
Lemma arg_ok_free h p x : p < hnext h -> x < hnext h -> ~ Anc (view h) x p -> arg_ok h p (IItem x).
Proof. intros. split; [assumption|]. split; auto. Qed.
Lemma attach_children s p x k : a_children (attach s p x k p) = insert_at k x (a_children (s p)).
Proof. unfold attach. rewrite Nat.eqb_refl. reflexivity. Qed.
Lemma attach_parent s p x k : x <> p -> a_parent (attach s p x k x) = Some p.
Proof. intros H. unfold attach. destruct (Nat.eqb_spec x p); [congruence|]. rewrite Nat.eqb_refl. reflexivity. Qed.
Lemma insert_at_end {A} (x : A) l : insert_at (length l) x l = l ++ [x].
Proof. unfold insert_at. rewrite firstn_all, skipn_all. reflexivity. Qed.

(** * C09 *)
(** every child of p remembers its position with an error of at most m *)
Definition remembers_within (h : heap) (p : loc) (m : Z) : Prop :=
  forall k y pl, nth_error (children h p) k = Some y -> nprt (hnode h y) = Some pl ->
    (Z.abs (pl_abs pl - Z.of_nat k) <= m)%Z.

Theorem C09_insert_partial : forall h p x z, Reach h ->
  p < hnext h -> x < hnext h -> tree_protected h p = false ->
  parent_of h x = None -> ~ Anc (view h) x p ->
  (children h p = [] \/ - Z.of_nat (length (children h p)) <= z)%Z ->
  ((forall y, In y (children h p) -> tag_of h y <> tag_of h x) \/ remembers_within h p 19) ->
  exists h', insert p (InsAt (TgVal (PInt z))) (IItem x) h = (h', Ok x) /\
    children h' p = py_insert z x (children h p) /\
    parent_of h' x = Some p /\
    same (view h') (attach (view h) p x (py_insert_pos (length (children h p)) z)) /\
    (forall t, hashable t = true -> getitem h' p (TgTagAll t) =
       match filter (fun y => pyval_eqb (tag_of h' y) t) (children h' p) with [] => Err KeyError | fam => Ok (GList fam) end).
Proof.
  intros h p x z R Hp Hx Hprot Hpar HA Hz Hd. pose proof (reach_WF h R) as W.
  assert (A1 : arg_ok h p (IItem x)) by (apply arg_ok_free; assumption).
  assert (A2 : ins_ok h p (InsAt (TgVal (PInt z))) (IItem x)).
  { split; [exact Hz|]. destruct Hd as [Hd|Hd]; [left|right; exact Hd].
    destruct (with_tag (view h) p (ntag (hnode h x))) as [|y l] eqn:E; [reflexivity|]. exfalso.
    assert (K : In y (with_tag (view h) p (ntag (hnode h x)))) by (rewrite E; left; reflexivity).
    apply with_tag_In in K as [K1 K2]. apply (Hd y K1). exact K2. }
  destruct (insert_ok h p (InsAt (TgVal (PInt z))) (IItem x) W A1 Hpar A2) as [H _].
  { unfold outcome. rewrite check_insert_unprot by assumption. reflexivity. }
  assert (Hfi : fst (free_item (IItem x) h) = h).
  { destruct (free_item_ok h p (IItem x) W A1 Hpar) as (h1 & E & _). clear E h1. unfold free_item. rewrite bind_gets.
    cbn in Hpar. destruct (nprt (hnode h x)); [discriminate|]. reflexivity. }
  destruct (H (py_insert_pos (length (children h p)) z)) as (h' & E & W' & S).
  { rewrite Hfi. reflexivity. }
  cbn [arg_state arg_loc] in *. exists h'. split; [exact E|].
  assert (Hxp : x <> p) by (intros ->; apply HA; constructor).
  assert (R' : Reach h').
  { replace h' with (after (OInsert p (InsAt (TgVal (PInt z))) (IItem x)) h).
    - apply Reach_step; [assumption|]. split; assumption.
    - unfold after. cbn [run]. rewrite void_fst, E. reflexivity. }
  split; [unfold children; rewrite S; apply attach_children|].
  split; [unfold parent_of; rewrite S; apply attach_parent; assumption|]. split; [assumption|].
  intros t Ht. apply (C01_family_index_partial h' p t R' Ht).
Qed.
(** after item.force_cache_update() on any child, every integer target >= -len works *)
Theorem C09_insert_refreshed : forall h p c x z, Reach h -> In c (children h p) ->
  p < hnext h -> x < hnext h -> tree_protected h p = false ->
  parent_of h x = None -> ~ Anc (view h) x p -> (- Z.of_nat (length (children h p)) <= z)%Z ->
  exists h1 h', force_cache_update c h = (h1, Ok tt) /\ same (view h1) (view h) /\
    insert p (InsAt (TgVal (PInt z))) (IItem x) h1 = (h', Ok x) /\
    children h' p = py_insert z x (children h p).
Proof.
  intros h p c x z R Hc Hp Hx Hprot Hpar HA Hz.
  destruct (force_cache_ok h p c (reach_WF h R) Hc) as (h1 & E1 & Q & X & _).
  assert (R1 : Reach h1).
  { replace h1 with (after (OForceCache c) h); [apply Reach_step; [assumption|exact I]|].
    unfold after. cbn [run]. rewrite E1. reflexivity. }
  pose proof (ceq_same _ _ Q) as S.
  destruct (C09_insert_partial h1 p x z R1) as (h' & E & K & _).
  - rewrite (ceq_next _ _ Q). assumption.
  - rewrite (ceq_next _ _ Q). assumption.
  - unfold tree_protected in *. rewrite (ceq_flags _ _ Q). assumption.
  - rewrite (ceq_parent_of _ _ _ Q). assumption.
  - intros K. apply HA. eapply Anc_same; [exact S|exact K].
  - right. rewrite (ceq_children _ _ _ Q). assumption.
  - right. intros k y pl Hk Hpl. rewrite (X k y pl Hk Hpl). rewrite Z.sub_diag. cbn. lia.
  - exists h1, h'. repeat split; try assumption. rewrite K, (ceq_children _ _ _ Q). reflexivity.
Qed.
Example C09_case : Reach ex_heap /\ 6 < hnext ex_heap /\ tree_protected ex_heap 0 = false /\ parent_of ex_heap 6 = None /\
  ~ Anc (view ex_heap) 6 0 /\ (forall y, In y (children ex_heap 0) -> tag_of ex_heap y <> tag_of ex_heap 6) /\
  children (fst (insert 0 (InsAt (TgVal (PInt (-1)))) (IItem 6) ex_heap)) 0 = [1; 2; 3; 6; 4].
Proof.
  split; [exact ex_reach|]. split; [vm_compute; lia|]. do 2 (split; [vm_compute; reflexivity|]). split.
  { apply (anc_b_false ex_heap 6 8). vm_compute. reflexivity. }
  split; [|vm_compute; reflexivity]. intros y Hy. vm_compute in Hy.
  repeat (destruct Hy as [<-|Hy]; [vm_compute; discriminate|]). destruct Hy.
Qed.
(** a target below -len does not clamp to the front, and the remembered position is negative *)
Theorem C09_insert_refuted : let h' := fst (insert 0 (InsAt (TgVal (PInt (-5)))) (IItem 6) ex_heap) in
  py_insert (-5) 6 (children ex_heap 0) = [6; 1; 2; 3; 4] /\ children h' 0 = [1; 2; 3; 6; 4].
Proof. vm_compute. auto. Qed.
Theorem C09_insert_refuted_idx : let h' := fst (insert 0 (InsAt (TgVal (PInt (-10)))) (IItem 6) ex_heap) in
  In 6 (children h' 0) /\ snd (get_idx 6 h') = Err IndexError.
Proof. vm_compute. auto. Qed.
(** 100 children, the first 50 popped: insert(1, x) fails and leaves x half inserted *)
Definition drift_ops : list op :=
  ONew (PStr "r") PNoValue [] None 0 :: repeat (OAppend 0 (IVal (PInt 7))) 100 ++ repeat (ODelete 0 (TgVal (PInt 0))) 50
  ++ [ONew PNoTag (PInt 8) [] None 0].
Theorem C09_insert_drift_refuted : let h := runs drift_ops empty_heap in
  let r := insert 0 (InsAt (TgVal (PInt 1))) (IItem 101) h in
  Reach h /\ snd r = Err AttributeError /\ nth_error (children (fst r) 0) 1 = Some 101 /\ parent_of (fst r) 101 = None.
Proof. cbv zeta. split; [apply reach_runs; [constructor|vm_compute; reflexivity]|]. vm_compute. auto. Qed.

(** * C10 *)
(** the search returns the number of family members that stand before position i *)
Theorem C10_family_position : forall h p t i, Reach h -> (0 <= i)%Z ->
  with_tag (view h) p t <> [] ->
  exists h', family_insertion_idx (with_tag (view h) p t) i h =
    (h', Ok (length (filter (fun y => pyval_eqb (tag_of h y) t) (firstn (Z.to_nat i) (children h p))))) /\
    same (view h') (view h).
Proof.
  intros h p t i R Hi Hne. pose proof (reach_WF h R) as W. unfold family_insertion_idx.
  assert (Hb : below (posn (children h p)) i (with_tag (view h) p t) =
               filter (fun y => pyval_eqb (tag_of h y) t) (firstn (Z.to_nat i) (children h p))).
  { rewrite <- (Z2Nat.id i Hi) at 1. apply below_prefix. apply (WF_nodup h p W). }
  destruct (fam_ins_idx_ok (fun g => ceq h g) (posn (children h p)) i (S (length (with_tag (view h) p t))) (with_tag (view h) p t) 0 h)
    as (h' & E & Q & _).
  - intros g Qg y Hy. apply with_tag_In in Hy as [Hy _]. pose proof (posn_in _ _ Hy) as Hk.
    destruct (get_idx_ok g p y (posn (children h p) y)) as (g' & E & Q & _).
    + eapply ceq_WF; eauto.
    + rewrite (ceq_items _ _ Qg). exact Hk.
    + exists g'. split; [exact E|]. split; [assumption|]. eapply ceq_trans; eauto.
  - apply sorted_filter. apply sorted_posn. apply (WF_nodup h p W).
  - assumption.
  - lia.
  - apply ceq_refl.
  - exists h'. rewrite Hb in E. split; [|apply ceq_same; assumption]. exact E.
Qed.
(** non-vacuous, and the place found when inserting at 2 into "a","b","a","c" *)
Example C10_case : Reach ex_heap /\ with_tag (view ex_heap) 0 (PStr "a") = [1; 3] /\
  snd (family_insertion_idx [1; 3] 2 ex_heap) = Ok 1.
Proof. split; [exact ex_reach|]. vm_compute. auto. Qed.
(** a family of 7 with other items in between, every position *)
Definition fam7_ops : list op :=
  [ONew (PStr "r") PNoValue (map (fun i => EArgs (if Nat.even i then PStr "e" else PStr "o") (PInt (Z.of_nat i))) (seq 0 14)) None 0].
Example C10_case7 : Reach (runs fam7_ops empty_heap) /\
  map (fun i => snd (family_insertion_idx (with_tag (view (runs fam7_ops empty_heap)) 0 (PStr "e")) (Z.of_nat i) (runs fam7_ops empty_heap)))
      (seq 0 15) = map (fun n => Ok n) [0; 1; 1; 2; 2; 3; 3; 4; 4; 5; 5; 6; 6; 7; 7].
Proof. split; [apply reach_runs; [constructor|vm_compute; reflexivity]|]. vm_compute. reflexivity. Qed.

(** * C11 *)
Lemma remove_insert_at {A} k (x : A) l : k <= length l -> remove_at k (insert_at k x l) = l.
Proof.
  intros H. unfold remove_at, insert_at. rewrite firstn_app, firstn_firstn, Nat.min_id, firstn_length, Nat.min_l by assumption.
  rewrite Nat.sub_diag, firstn_O, app_nil_r. rewrite skipn_app, firstn_length, Nat.min_l by assumption.
  rewrite skipn_all2 by (rewrite firstn_length; lia). replace (S k - k) with 1 by lia. cbn. apply firstn_skipn.
Qed.
Lemma nth_insert_at {A} k (x : A) l : k <= length l -> nth_error (insert_at k x l) k = Some x.
Proof.
  intros H. unfold insert_at. rewrite nth_error_app2 by (rewrite firstn_length; lia).
  rewrite firstn_length, Nat.min_l, Nat.sub_diag by assumption. reflexivity.
Qed.
Lemma detach_attach s p x k : x <> p -> a_parent (s x) = None -> k <= length (a_children (s p)) ->
  same (detach (attach s p x k) p x k) s.
Proof.
  intros Hx Hp Hk y. unfold detach, attach. rewrite Nat.eqb_refl.
  destruct (Nat.eqb_spec y p) as [->|Hy].
  - cbn. rewrite remove_insert_at by assumption. destruct (s p); reflexivity.
  - destruct (Nat.eqb_spec y x) as [->|]; [|reflexivity]. destruct (Nat.eqb_spec x p); [congruence|]. rewrite Nat.eqb_refl.
    destruct (s x); cbn in *. subst. reflexivity.
Qed.
Lemma same_answers h h2 : Reach h -> Reach h2 -> same (view h2) (view h) ->
  forall q t, hashable t = true -> getitem h2 q (TgTagAll t) = getitem h q (TgTagAll t).
Proof.
  intros R R2 S q t Ht. rewrite (proj1 (C01_family_index_partial h q t R Ht)), (proj1 (C01_family_index_partial h2 q t R2 Ht)).
  assert (E : filter (fun x => pyval_eqb (tag_of h2 x) t) (children h2 q) = filter (fun x => pyval_eqb (tag_of h x) t) (children h q)).
  { unfold children, tag_of. rewrite S. apply filter_ext. intros a. rewrite S. reflexivity. }
  rewrite E. reflexivity.
Qed.
Lemma reach_after h o h' r : Reach h -> allowed h o -> run o h = (h', r) -> Reach h'.
Proof. intros R A E. replace h' with (after o h); [apply Reach_step; assumption|]. unfold after. rewrite E. reflexivity. Qed.
Lemma void_run {A} (m : M A) h h' a : m h = (h', Ok a) -> void m h = (h', Ok tt).
Proof. intros E. unfold void. rewrite (bind_ok _ _ _ _ _ E). reflexivity. Qed.

(** pop() after append(x), pop(0) after appendleft(x): x is returned, every item is as
    before, and every family query answers as before *)
Theorem C11_pop_append : forall h p x, Reach h ->
  p < hnext h -> x < hnext h -> tree_protected h p = false -> parent_of h x = None -> ~ Anc (view h) x p ->
  exists h1 h2, append p (IItem x) h = (h1, Ok x) /\ delitem p (TgVal (PInt (-1))) h1 = (h2, Ok (GItem x)) /\
    same (view h2) (view h) /\ (forall q t, hashable t = true -> getitem h2 q (TgTagAll t) = getitem h q (TgTagAll t)).
Proof.
  intros h p x R Hp Hx Hprot Hpar HA. pose proof (reach_WF h R) as W.
  assert (A1 : arg_ok h p (IItem x)) by (apply arg_ok_free; assumption).
  destruct (append_ok h p (IItem x) W A1 Hpar) as (h1 & E1 & W1 & S1).
  { unfold outcome. rewrite check_append_unprot by assumption. reflexivity. }
  cbn [arg_loc arg_state] in *. assert (Hxp : x <> p) by (intros ->; apply HA; constructor).
  assert (C1 : children h1 p = insert_at (length (children h p)) x (children h p)) by (unfold children; rewrite S1; apply attach_children).
  assert (N1 : nth_error (children h1 p) (length (children h p)) = Some x) by (rewrite C1; apply nth_insert_at; lia).
  destruct (pop_one h1 p (-1) (length (children h p)) x W1) as (h2 & E2 & W2 & _ & S2).
  - rewrite <- Hprot. apply prot_view. rewrite S1. unfold attach. rewrite Nat.eqb_refl. reflexivity.
  - rewrite C1, insert_at_end, app_length. idtac.
    change (length [x]) with 1. rewrite py_idx_neg by lia. f_equal. lia.
  - assumption.
  - exists h1, h2. split; [exact E1|].
    assert (E2' : delitem p (TgVal (PInt (-1))) h1 = (h2, Ok (GItem x))) by (cbn [delitem]; rewrite (bind_ok _ _ _ _ _ E2); reflexivity).
    assert (S : same (view h2) (view h)).
    { eapply same_trans; [exact S2|]. eapply same_trans; [|apply (detach_attach (view h) p x (length (children h p)))]; try assumption.
      - intros y. unfold detach. rewrite !S1. reflexivity.
      - unfold children. lia. }
    split; [exact E2'|]. split; [assumption|]. apply same_answers; try assumption.
    eapply (reach_after h1 (ODelete p (TgVal (PInt (-1))))).
    + eapply (reach_after h (OAppend p (IItem x))); [assumption|exact A1|cbn [run]; apply (void_run _ _ _ _ E1)].
    + exact I.
    + cbn [run]. apply (void_run _ _ _ _ E2').
Qed.
Theorem C11_pop_appendleft : forall h p x, Reach h ->
  p < hnext h -> x < hnext h -> tree_protected h p = false -> parent_of h x = None -> ~ Anc (view h) x p ->
  exists h1 h2, appendleft p (IItem x) h = (h1, Ok x) /\ delitem p (TgVal (PInt 0)) h1 = (h2, Ok (GItem x)) /\
    same (view h2) (view h) /\ (forall q t, hashable t = true -> getitem h2 q (TgTagAll t) = getitem h q (TgTagAll t)).
Proof.
  intros h p x R Hp Hx Hprot Hpar HA. pose proof (reach_WF h R) as W.
  assert (A1 : arg_ok h p (IItem x)) by (apply arg_ok_free; assumption).
  destruct (appendleft_ok h p (IItem x) W A1 Hpar) as (h1 & E1 & W1 & S1).
  { unfold outcome. rewrite check_insert_unprot by assumption. reflexivity. }
  cbn [arg_loc arg_state] in *. assert (Hxp : x <> p) by (intros ->; apply HA; constructor).
  assert (C1 : children h1 p = insert_at 0 x (children h p)) by (unfold children; rewrite S1; apply attach_children).
  assert (N1 : nth_error (children h1 p) 0 = Some x) by (rewrite C1; reflexivity).
  destruct (pop_one h1 p 0 0 x W1) as (h2 & E2 & W2 & _ & S2).
  - rewrite <- Hprot. apply prot_view. rewrite S1. unfold attach. rewrite Nat.eqb_refl. reflexivity.
  - apply (py_idx_of_nat _ 0). rewrite C1. apply Nat.lt_0_succ.
  - assumption.
  - exists h1, h2. split; [exact E1|].
    assert (E2' : delitem p (TgVal (PInt 0)) h1 = (h2, Ok (GItem x))) by (cbn [delitem]; rewrite (bind_ok _ _ _ _ _ E2); reflexivity).
    assert (S : same (view h2) (view h)).
    { eapply same_trans; [exact S2|]. eapply same_trans; [|apply (detach_attach (view h) p x 0)]; try assumption; [|lia].
      intros y. unfold detach. rewrite !S1. reflexivity. }
    split; [exact E2'|]. split; [assumption|]. apply same_answers; try assumption.
    eapply (reach_after h1 (ODelete p (TgVal (PInt 0)))).
    + eapply (reach_after h (OAppendLeft p (IItem x))); [assumption|exact A1|cbn [run]; apply (void_run _ _ _ _ E1)].
    + exact I.
    + cbn [run]. apply (void_run _ _ _ _ E2').
Qed.
Example C11_case : Reach ex_heap /\ 6 < hnext ex_heap /\ tree_protected ex_heap 0 = false /\ parent_of ex_heap 6 = None /\
  ~ Anc (view ex_heap) 6 0 /\ children (fst (append 0 (IItem 6) ex_heap)) 0 = [1; 2; 3; 4; 6].
Proof.
  split; [exact ex_reach|]. split; [vm_compute; lia|]. do 2 (split; [vm_compute; reflexivity|]). split; [|vm_compute; reflexivity].
  apply (anc_b_false ex_heap 6 8). vm_compute. reflexivity.
Qed.

(** * C12 *)
(** del t[i] / t.pop(i) for every integer i: exactly the child at Python's position i is
    detached, or IndexError / KeyError and no change *)
Theorem C12_delete_index : forall h p i, Reach h -> tree_protected h p = false ->
  match py_idx (length (children h p)) i with
  | Some k => exists x h', nth_error (children h p) k = Some x /\ delitem p (TgVal (PInt i)) h = (h', Ok (GItem x)) /\
      same (view h') (detach (view h) p x k) /\
      (forall t, hashable t = true -> getitem h' p (TgTagAll t) =
         match filter (fun y => pyval_eqb (tag_of h y) t) (remove_at k (children h p)) with [] => Err KeyError | f => Ok (GList f) end)
  | None => delitem p (TgVal (PInt i)) h = (h, Err (match children h p with [] => KeyError | _ => IndexError end))
  end.
Proof.
  intros h p i R Hprot. pose proof (reach_WF h R) as W. destruct (py_idx (length (children h p)) i) as [k|] eqn:Ek.
  - pose proof (py_idx_lt _ _ _ Ek) as Hlt. destruct (nth_error (children h p) k) as [x|] eqn:Ex; [|apply nth_error_None in Ex; lia].
    destruct (pop_one h p i k x W Hprot Ek Ex) as (h' & E & W' & _ & S). exists x, h'. split; [reflexivity|].
    assert (E' : delitem p (TgVal (PInt i)) h = (h', Ok (GItem x))) by (cbn [delitem]; rewrite (bind_ok _ _ _ _ _ E); reflexivity).
    split; [assumption|]. split; [assumption|]. intros t Ht.
    assert (R' : Reach h') by (eapply (reach_after h (ODelete p (TgVal (PInt i)))); [assumption|exact I|cbn [run]; apply (void_run _ _ _ _ E')]).
    rewrite (proj1 (C01_family_index_partial h' p t R' Ht)).
    assert (Hxp : x <> p) by (intros ->; apply (child_not_anc h p p W); [eapply nth_error_In; eauto|constructor]).
    assert (C' : children h' p = remove_at k (children h p)) by (unfold children; rewrite S; unfold detach; rewrite Nat.eqb_refl; reflexivity).
    rewrite C'. assert (F : filter (fun y => pyval_eqb (tag_of h' y) t) (remove_at k (children h p)) = filter (fun y => pyval_eqb (tag_of h y) t) (remove_at k (children h p))).
    { apply filter_ext. intros y. unfold tag_of. rewrite S. unfold detach. destruct (Nat.eqb_spec y p) as [->|]; [reflexivity|].
      destruct (Nat.eqb_spec y x) as [->|]; reflexivity. }
    rewrite F. reflexivity.
  - cbn [delitem]. apply bind_err. apply del_int_err. rewrite del_unprot by assumption. unfold children in *. cbn in *.
    destruct (nitems (hnode h p)); [reflexivity|]. rewrite Ek. reflexivity.
Qed.
(** del t[(tag, n)], del t[(tag,)], t.remove(x) *)
Theorem C12_delete_key : forall h p t n, Reach h -> hashable t = true -> tree_protected h p = false ->
  match nth_error (filter (fun y => pyval_eqb (tag_of h y) t) (children h p)) n with
  | Some x => exists h', delitem p (TgTagIdx t (Z.of_nat n)) h = (h', Ok (GItem x)) /\
                same (view h') (detach (view h) p x (posn (children h p) x))
  | None => exists e, delitem p (TgTagIdx t (Z.of_nat n)) h = (h, Err e)
  end.
Proof.
  intros h p t n R Ht Hprot. pose proof (reach_WF h R) as W.
  destruct (nth_error (filter (fun y => pyval_eqb (tag_of h y) t) (children h p)) n) as [x|] eqn:Ex.
  - destruct (delitem_key_ok h p t n x W Ht Hprot Ex) as (h' & E & _ & S). eauto.
  - unfold delitem. assert (CD : check_del p h = (h, Ok false)) by (unfold check_del; rewrite bind_gets, Hprot; reflexivity).
    rewrite (bind_ok _ _ _ _ _ CD), bind_gets. destruct (nitems (hnode h p)) eqn:Ei; [eexists; reflexivity|].
    assert (Hc : children h p <> []) by (unfold children; cbn; congruence).
    rewrite (getitem_tag_idx h p t n W Ht Hc).
    change (filter (fun y => pyval_eqb (tag_of h y) t) (children h p)) with (with_tag (view h) p t) in Ex.
    destruct (with_tag (view h) p t); [|rewrite Ex]; eexists; reflexivity.
Qed.
Theorem C12_delete_family : forall h p t, Reach h -> hashable t = true -> tree_protected h p = false ->
  (exists x, In x (children h p) /\ tag_of h x = t) ->
  exists h', delitem p (TgTagAll t) h = (h', Ok (GList (filter (fun y => pyval_eqb (tag_of h y) t) (children h p)))) /\
    children h' p = filter (fun y => negb (pyval_eqb (tag_of h y) t)) (children h p) /\
    (forall x, In x (children h p) -> tag_of h x = t -> view h' x = a_set_parent None (view h x)) /\
    (forall y, y <> p -> ~ (In y (children h p) /\ tag_of h y = t) -> view h' y = view h y).
Proof.
  intros h p t R Ht Hprot (x0 & Hx0 & Ht0). pose proof (reach_WF h R) as W.
  destruct (delitem_tag_ok h p t W Ht Hprot) as (h' & E & _ & S).
  { intros E. assert (K : In x0 (with_tag (view h) p t)) by (apply with_tag_In; auto). rewrite E in K. destruct K. }
  exists h'. split; [exact E|]. split; [unfold children; rewrite S; unfold freed; rewrite Nat.eqb_refl; reflexivity|]. split.
  - intros x Hx Htx. rewrite S. unfold freed. destruct (Nat.eqb_spec x p) as [->|].
    + exfalso. apply (child_not_anc h p p W Hx). constructor.
    + replace (memb x (with_tag (view h) p t)) with true; [reflexivity|]. symmetry. apply memb_In, with_tag_In. auto.
  - intros y Hy Hn. rewrite S. unfold freed. destruct (Nat.eqb_spec y p); [congruence|].
    replace (memb y (with_tag (view h) p t)) with false; [reflexivity|]. symmetry. apply memb_false. rewrite with_tag_In. assumption.
Qed.
Theorem C12_remove : forall h p x, Reach h -> tree_protected h p = false -> In x (children h p) ->
  exists h', remove p x h = (h', Ok x) /\ same (view h') (detach (view h) p x (posn (children h p) x)) /\
    children h' p = filter (fun y => negb (Nat.eqb y x)) (children h p) /\ parent_of h' x = None.
Proof.
  intros h p x R Hprot Hin. pose proof (reach_WF h R) as W. destruct (remove_ok h p x W Hprot Hin) as (h' & E & _ & S).
  exists h'. split; [assumption|]. split; [assumption|].
  assert (Hxp : x <> p) by (intros ->; apply (child_not_anc h p p W Hin); constructor).
  split.
  - unfold children. rewrite S. unfold detach. rewrite Nat.eqb_refl. cbn [a_children a_set_children].
    apply remove_at_filter; [apply (WF_nodup h p W)|apply posn_in; exact Hin].
  - unfold parent_of. rewrite S. unfold detach. destruct (Nat.eqb_spec x p); [congruence|]. rewrite Nat.eqb_refl. reflexivity.
Qed.
(** equal twins: 1 and 2 have the same tag and value; deleting the second detaches the second *)
Definition twin_ops : list op :=
  [ONew (PStr "r") PNoValue [EArgs (PStr "a") (PInt 1); EArgs (PStr "a") (PInt 1); EArgs (PStr "a") (PInt 1)] None 0].
Example C12_case : Reach (runs twin_ops empty_heap) /\ tree_protected (runs twin_ops empty_heap) 0 = false /\
  item_eqb (runs twin_ops empty_heap) 1 2 = true /\
  snd (remove 0 2 (runs twin_ops empty_heap)) = Ok 2 /\ children (fst (remove 0 2 (runs twin_ops empty_heap))) 0 = [1; 3].
Proof. split; [apply reach_runs; [constructor|vm_compute; reflexivity]|]. vm_compute. auto. Qed.

(** * C13 *)
(** the child list is the one Python's slice deletion gives; nobody else's children change *)
Theorem C13_slice_children_partial : forall h p a b, tree_protected h p = false -> children h p <> [] ->
  children (fst (delitem p (TgSlice a b) h)) p = py_slice_del a b (children h p) /\
  forall q, q <> p -> children (fst (delitem p (TgSlice a b) h)) q = children h q.
Proof. intros h p a b. apply del_slice_items. Qed.
(** a slice of one child that has a sibling of the same tag is deleted consistently *)
Theorem C13_slice_one_partial : forall h p i x y, Reach h -> tree_protected h p = false ->
  nth_error (children h p) i = Some x -> In y (children h p) -> y <> x -> tag_of h y = tag_of h x ->
  exists h', delitem p (TgSlice (Some (Z.of_nat i)) (Some (Z.of_nat (S i)))) h = (h', Ok (GList [x])) /\
    same (view h') (detach (view h) p x i) /\
    (forall t, hashable t = true -> getitem h' p (TgTagAll t) =
       match filter (fun z => pyval_eqb (tag_of h' z) t) (children h' p) with [] => Err KeyError | f => Ok (GList f) end).
Proof.
  intros h p i x y R Hprot Hk Hy Hne Ht. pose proof (reach_WF h R) as W.
  destruct (del_slice_one h p i x W Hprot Hk) as (h' & E & W' & S).
  { intros E. assert (K : In y [x]) by (rewrite <- E; apply with_tag_In; auto). destruct K as [K|[]]. congruence. }
  exists h'. split; [exact E|]. split; [exact S|]. intros t Hh.
  unfold getitem. destruct (nitems (hnode h' p)) eqn:Ei.
  - unfold children. cbn. rewrite Ei. reflexivity.
  - rewrite fam_of_ok; [|assumption|assumption|unfold children; cbn; congruence].
    change (filter (fun z => pyval_eqb (tag_of h' z) t) (children h' p)) with (with_tag (view h') p t).
    destruct (with_tag (view h') p t); reflexivity.
Qed.
Example C13_case : Reach ex_heap /\ tree_protected ex_heap 0 = false /\ nth_error (children ex_heap 0) 2 = Some 3 /\
  In 1 (children ex_heap 0) /\ tag_of ex_heap 1 = tag_of ex_heap 3 /\
  children (fst (delitem 0 (TgSlice (Some 2%Z) (Some 3%Z)) ex_heap)) 0 = [1; 2; 4].
Proof. split; [exact ex_reach|]. vm_compute. auto 8. Qed.
(** del t[0:3] leaves the second and third removed item attached and in their families;
    del t[3:4] leaves the family of a removed only member; del t[:2] raises after deleting *)
Theorem C13_slice_refuted :
  (let r := delitem 0 (TgSlice (Some 0%Z) (Some 3%Z)) ex_heap in
     children (fst r) 0 = [4] /\ parent_of (fst r) 2 = Some 0 /\ getitem (fst r) 0 (TgTagAll (PStr "b")) = Ok (GList [2])) /\
  (let r := delitem 0 (TgSlice (Some 3%Z) (Some 4%Z)) ex_heap in
     children (fst r) 0 = [1; 2; 3] /\ getitem (fst r) 0 (TgTagAll (PStr "c")) = Ok (GList [4])) /\
  (let r := delitem 0 (TgSlice None (Some 2%Z)) ex_heap in
     snd r = Err TypeError /\ children (fst r) 0 = [3; 4] /\ parent_of (fst r) 1 = Some 0).
Proof. vm_compute. auto 12. Qed.

Print Assumptions C09_insert_partial.
Print Assumptions C09_insert_refreshed.
Print Assumptions C10_family_position.
Print Assumptions C11_pop_append.
Print Assumptions C11_pop_appendleft.
Print Assumptions C12_delete_index.
Print Assumptions C12_delete_key.
Print Assumptions C12_delete_family.
Print Assumptions C12_remove.
Print Assumptions C13_slice_children_partial.
