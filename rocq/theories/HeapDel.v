(** Deleting several children: del t[tag], and what slice deletion does to the list. *)
From Verif Require Import Base Heap HeapSpec ListLemmas ForestLemmas HeapInv HeapAttach HeapOps HeapOps2 HeapOps3
  HeapHoare Tree HeapTree HeapCopy HeapMut HeapExt HeapExt2 HeapOrd HeapOrd2 HeapRen HeapMove HeapHash HeapRead HeapRead2.

Definition without (l cs : list loc) : list loc := filter (fun y => negb (memb y l)) cs.

Lemma without_nil cs : without [] cs = cs.
Proof. apply forallb_filter_id. apply forallb_forall. reflexivity. Qed.
Lemma remove_at_filter (l : list loc) : forall k x, NoDup l -> nth_error l k = Some x -> remove_at k l = filter (fun y => negb (Nat.eqb y x)) l.
Proof.
  intros k x Hd Hk. pose proof (filter_remove_at k x l (fun _ => true) Hd Hk) as H.
  rewrite forallb_filter_id in H by (apply forallb_forall; reflexivity). exact H.
Qed.
Lemma without_cons x l cs k : NoDup cs -> nth_error cs k = Some x -> without l (remove_at k cs) = without (x :: l) cs.
Proof.
  intros Hd Hk. unfold without. replace (remove_at k cs) with (filter (fun y => negb (Nat.eqb y x)) cs) by (symmetry; apply remove_at_filter; assumption). clear.
  induction cs as [|c cs IH]; [reflexivity|]. cbn [filter memb]. destruct (Nat.eqb_spec c x) as [->|H]; cbn.
  - exact IH.
  - destruct (memb c l); cbn; [exact IH|]. rewrite IH. reflexivity.
Qed.
Lemma del_list_ok p : forall l h, WF h -> tree_protected h p = false -> NoDup l -> incl l (children h p) ->
  exists h', mapM (fun x => i <- idx_or_type_error x ;; del_int p i) l h = (h', Ok l) /\ WF h' /\ hnext h' = hnext h /\
    same (view h') (freed (view h) p l (without l (children h p))).
Proof.
  induction l as [|x l IH]; intros h W Hp Hd Hi.
  - exists h. split; [reflexivity|]. split; [assumption|]. split; [reflexivity|]. intros y. unfold freed. cbn [memb].
    destruct (Nat.eqb_spec y p) as [->|]; [|reflexivity]. rewrite without_nil. symmetry. apply a_set_children_id.
  - cbn [mapM]. inversion Hd as [|? ? Hx Hd']; subst.
    assert (Hin : In x (children h p)) by (apply Hi; left; reflexivity).
    set (k := posn (children h p) x). pose proof (posn_in _ _ Hin : nth_error (children h p) k = Some x) as Hk.
    destruct (idx_or_type_error_ok h p x k W Hk) as (h1 & E1 & Q1 & _).
    assert (W1 : WF h1) by (eapply ceq_WF; eauto).
    assert (Hk1 : nth_error (children h1 p) k = Some x) by (rewrite (ceq_children _ _ _ Q1); exact Hk).
    destruct (pop_one h1 p (Z.of_nat k) k x W1) as (h2 & E2 & W2 & Hn2 & S2).
    + unfold tree_protected in *. rewrite (ceq_flags _ _ Q1). assumption.
    + apply py_idx_of_nat. eapply nth_error_lt; eauto.
    + assumption.
    + assert (S2' : same (view h2) (detach (view h) p x k)).
      { eapply same_trans; [exact S2|]. intros y. unfold detach. rewrite !(ceq_view _ _ Q1). reflexivity. }
      assert (Hxp : x <> p). { intros ->. eapply (child_not_anc h p p W Hin). constructor. }
      assert (Hc2 : children h2 p = remove_at k (children h p)).
      { unfold children. rewrite S2'. unfold detach. rewrite Nat.eqb_refl. reflexivity. }
      destruct (IH h2) as (h3 & E3 & W3 & Hn3 & S3).
      * assumption.
      * unfold tree_protected in *. change (nflags (hnode h2 p)) with (a_flags (view h2 p)). rewrite S2'. rewrite detach_flags. exact Hp.
      * assumption.
      * intros y Hy. rewrite Hc2. replace (remove_at k (children h p)) with (filter (fun y => negb (Nat.eqb y x)) (children h p)) by (symmetry; apply remove_at_filter; [apply (WF_nodup h p W)|exact Hk]). apply filter_In. split.
        -- apply Hi. right. assumption.
        -- apply negb_true_iff, Nat.eqb_neq. intros ->. contradiction.
      * assert (E12 : (i <- idx_or_type_error x ;; del_int p i) h = (h2, Ok x)) by (rewrite (bind_ok _ _ _ _ _ E1); exact E2).
        rewrite (bind_ok _ _ _ _ _ E12), (bind_ok _ _ _ _ _ E3). exists h3. split; [reflexivity|]. split; [assumption|].
        split; [rewrite Hn3, Hn2; apply (ceq_next _ _ Q1)|].
        intros y. rewrite S3. unfold freed. rewrite Hc2.
        replace (without l (remove_at k (children h p))) with (without (x :: l) (children h p)) by (symmetry; apply without_cons; [apply (WF_nodup h p W)|exact Hk]). rewrite !S2'. unfold detach. rewrite Nat.eqb_refl.
        cbn [memb]. destruct (Nat.eqb_spec y p) as [->|Hyp]; [apply a_set_children_twice|].
        destruct (Nat.eqb_spec y x) as [->|Hyx]; cbn.
        -- destruct (memb x l); reflexivity.
        -- reflexivity.
Qed.
(** del t[tag] / pop(tag): all children of that tag *)
Lemma delitem_tag_ok h p t : WF h -> hashable t = true -> tree_protected h p = false ->
  with_tag (view h) p t <> [] ->
  exists h', delitem p (TgTagAll t) h = (h', Ok (GList (with_tag (view h) p t))) /\ WF h' /\
    same (view h') (freed (view h) p (with_tag (view h) p t)
                          (filter (fun y => negb (pyval_eqb (tag_of h y) t)) (children h p))).
Proof.
  intros W Ht Hp Hne. unfold delitem.
  assert (CD : check_del p h = (h, Ok false)) by (unfold check_del; rewrite bind_gets, Hp; reflexivity).
  rewrite (bind_ok _ _ _ _ _ CD), bind_gets.
  destruct (nitems (hnode h p)) eqn:Ei.
  { exfalso. apply Hne. unfold with_tag, view. cbn. rewrite Ei. reflexivity. }
  assert (Hc : children h p <> []) by (unfold children; cbn; congruence).
  unfold getitem. rewrite Ei, (fam_of_ok h p t W Ht Hc).
  rewrite (nonempty_ne _ Hne).
  destruct (del_list_ok p (with_tag (view h) p t) h W Hp (with_tag_NoDup h p t W) (with_tag_incl _ _ _)) as (h' & E & W' & _ & S).
  rewrite (bind_ok _ _ _ _ _ E). exists h'. split; [reflexivity|]. split; [assumption|].
  eapply same_trans; [exact S|]. intros y. unfold freed.
  destruct (Nat.eqb y p) eqn:Ey; [|reflexivity]. f_equal. unfold without. apply filter_ext_in. intros z Hz. f_equal.
  destruct (memb z (with_tag (view h) p t)) eqn:Em.
  - apply memb_In, with_tag_In in Em as [_ Em]. subst t. symmetry. apply pyval_eqb_refl.
  - symmetry. apply pyval_eqb_neq. intros E'. apply memb_false in Em. apply Em. apply with_tag_In. auto.
Qed.
(** del t[(tag, n)] *)
Lemma delitem_key_ok h p t n x : WF h -> hashable t = true -> tree_protected h p = false ->
  nth_error (with_tag (view h) p t) n = Some x ->
  exists h', delitem p (TgTagIdx t (Z.of_nat n)) h = (h', Ok (GItem x)) /\ WF h' /\
    same (view h') (detach (view h) p x (posn (children h p) x)).
Proof.
  intros W Ht Hp Hx. unfold delitem.
  assert (CD : check_del p h = (h, Ok false)) by (unfold check_del; rewrite bind_gets, Hp; reflexivity).
  rewrite (bind_ok _ _ _ _ _ CD), bind_gets.
  assert (Hin : In x (children h p)) by (apply nth_error_In in Hx; apply with_tag_In in Hx; apply Hx).
  destruct (nitems (hnode h p)) eqn:Ei; [exfalso; unfold children in Hin; cbn in Hin; rewrite Ei in Hin; destruct Hin|].
  assert (Hc : children h p <> []) by (unfold children; cbn; congruence).
  rewrite (getitem_tag_idx h p t n W Ht Hc).
  destruct (with_tag (view h) p t) eqn:Ew; [destruct n; discriminate|]. rewrite Hx.
  pose proof (posn_in _ _ Hin) as Hk. set (k := posn (children h p) x) in *.
  destruct (idx_or_type_error_ok h p x k W Hk) as (h1 & E1 & Q1 & _).
  assert (W1 : WF h1) by (eapply ceq_WF; eauto).
  assert (Hk1 : nth_error (children h1 p) k = Some x) by (rewrite (ceq_children _ _ _ Q1); exact Hk).
  destruct (pop_one h1 p (Z.of_nat k) k x W1) as (h2 & E2 & W2 & Hn2 & S2).
  - unfold tree_protected in *. rewrite (ceq_flags _ _ Q1). assumption.
  - apply py_idx_of_nat. eapply nth_error_lt; eauto.
  - assumption.
  - rewrite (bind_ok _ _ _ _ _ E1), (bind_ok _ _ _ _ _ E2). exists h2. split; [reflexivity|]. split; [assumption|].
    eapply same_trans; [exact S2|]. intros y. unfold detach. rewrite !(ceq_view _ _ Q1). reflexivity.
Qed.
Lemma remove_ok h p x : WF h -> tree_protected h p = false -> In x (children h p) ->
  exists h', remove p x h = (h', Ok x) /\ WF h' /\ same (view h') (detach (view h) p x (posn (children h p) x)).
Proof.
  intros W Hp Hin. unfold remove. rewrite bind_gets.
  destruct (WF_child_prt h p x W Hin) as (pl & Epl & Epar). rewrite Epl, Epar, Nat.eqb_refl.
  pose proof (posn_in _ _ Hin) as Hk. set (k := posn (children h p) x) in *.
  destruct (idx_or_type_error_ok h p x k W Hk) as (h1 & E1 & Q1 & _).
  assert (W1 : WF h1) by (eapply ceq_WF; eauto).
  assert (Hk1 : nth_error (children h1 p) k = Some x) by (rewrite (ceq_children _ _ _ Q1); exact Hk).
  destruct (pop_one h1 p (Z.of_nat k) k x W1) as (h2 & E2 & W2 & Hn2 & S2).
  - unfold tree_protected in *. rewrite (ceq_flags _ _ Q1). assumption.
  - apply py_idx_of_nat. eapply nth_error_lt; eauto.
  - assumption.
  - rewrite (bind_ok _ _ _ _ _ E1). exists h2. split; [exact E2|]. split; [assumption|].
    eapply same_trans; [exact S2|]. intros y. unfold detach. rewrite !(ceq_view _ _ Q1). reflexivity.
Qed.
(** slice deletion always leaves the child list Python's [del l[a:b]] would leave, once the
    protection check has passed *)
Lemma hmod_items_keep h q f y : (forall n, nitems (f n) = nitems n) -> nitems (hnode (hmod h q f) y) = nitems (hnode h y).
Proof. intros H. cbn. destruct (Nat.eqb y q); auto. Qed.
Lemma del_slice_items h p a b : tree_protected h p = false -> children h p <> [] ->
  children (fst (del_slice p a b h)) p = py_slice_del a b (children h p) /\
  forall q, q <> p -> children (fst (del_slice p a b h)) q = children h q.
Proof.
  intros Hp Hne. unfold del_slice.
  assert (CD : check_del p h = (h, Ok false)) by (unfold check_del; rewrite bind_gets, Hp; reflexivity).
  rewrite (bind_ok _ _ _ _ _ CD), bind_gets.
  assert (Hn : forall X (u v : X), match nitems (hnode h p) with [] => u | _ :: _ => v end = v).
  { intros. unfold children in Hne. cbn in Hne. destruct (nitems (hnode h p)); [congruence|reflexivity]. }
  rewrite Hn. cbv zeta. cbn [andb]. rewrite bind_upd. set (h1 := hmod h p _).
  assert (K1 : children h1 p = py_slice_del a b (children h p)).
  { unfold children, h1. cbn. rewrite Nat.eqb_refl. reflexivity. }
  assert (K2 : forall q, q <> p -> children h1 q = children h q).
  { intros q Hq. unfold children, h1. cbn. destruct (Nat.eqb_spec q p); [congruence|reflexivity]. }
  assert (G : forall (m : M gres), (forall g q, nitems (hnode (fst (m g)) q) = nitems (hnode g q)) ->
     children (fst (m h1)) p = py_slice_del a b (children h p) /\ forall q, q <> p -> children (fst (m h1)) q = children h q).
  { intros m Hm. split; [|intros q Hq]; (etransitivity; [apply Hm|]); [exact K1|exact (K2 q Hq)]. }
  apply G. clear G K1 K2 h1 Hn CD. intros g q.
  destruct a as [i|]; [|reflexivity]. destruct b as [j|]; [|reflexivity].
  destruct (py_slice _ _ _) as [|x r]; [reflexivity|]. destruct (i <? j)%Z; [|reflexivity].
  assert (Kb : forall (A B : Type) (m : M A) (k : A -> M B), (forall g q, nitems (hnode (fst (m g)) q) = nitems (hnode g q)) ->
      (forall a g q, nitems (hnode (fst (k a g)) q) = nitems (hnode g q)) ->
      forall g q, nitems (hnode (fst (bind m k g)) q) = nitems (hnode g q)).
  { intros A B m k H1 H2 g0 q0. unfold bind. specialize (H1 g0 q0). destruct (m g0) as [g1 [v|e]]; cbn in *; [|assumption].
    rewrite H2. assumption. }
  assert (Kgf : forall p t g q, nitems (hnode (fst (getitem_fam p t g)) q) = nitems (hnode g q)).
  { intros p0 t0. unfold getitem_fam. apply Kb.
    - intros g0 q0. unfold get_fam. destruct (nbound (hnode g0 p0)); reflexivity.
    - intros [?|] ? ?; reflexivity. }
  assert (Kpf : forall p t l g q, nitems (hnode (fst (put_fam p t l g)) q) = nitems (hnode g q)).
  { intros p0 t0 l0 g0 q0. unfold put_fam. destruct (nbound (hnode g0 p0)); [reflexivity| |].
    - destruct (nfams (hnode g0 p0)); [|reflexivity]. apply hmod_items_keep. reflexivity.
    - apply hmod_items_keep. reflexivity. }
  apply Kb; [apply Kgf|]. intros fam. apply Kb.
  - destruct (negb (Nat.eqb (length fam) 1)); [|reflexivity].
    destruct (nprt (hnode h x)) as [pl|]; [|reflexivity]. apply Kb; [reflexivity|]. intros bb.
    destruct bb.
    + destruct (py_idx (length fam) (pl_fam pl)); [apply Kpf|reflexivity].
    + apply Kb; [reflexivity|]. intros k. apply Kpf.
  - intros _. apply Kb; [|reflexivity]. intros g0 q0. apply hmod_items_keep. reflexivity.
Qed.
(** a one-element slice whose item has a sibling of the same tag is consistent *)
Lemma del_slice_one h p i x : WF h -> tree_protected h p = false -> nth_error (children h p) i = Some x ->
  with_tag (view h) p (tag_of h x) <> [x] ->
  exists h', del_slice p (Some (Z.of_nat i)) (Some (Z.of_nat (S i))) h = (h', Ok (GList [x])) /\ WF h' /\
    same (view h') (detach (view h) p x i).
Proof.
  intros W Hp Hk Hfam. pose proof (nth_error_lt _ _ _ Hk) as Hlt.
  assert (Hne : nitems (hnode h p) <> []) by (intros E; unfold children in Hk; cbn in Hk; rewrite E in Hk; destruct i; discriminate).
  unfold del_slice.
  assert (CD : check_del p h = (h, Ok false)) by (unfold check_del; rewrite bind_gets, Hp; reflexivity).
  rewrite (bind_ok _ _ _ _ _ CD), bind_gets.
  assert (Hn : forall X (u v : X), match nitems (hnode h p) with [] => u | _ :: _ => v end = v).
  { intros. destruct (nitems (hnode h p)); [congruence|reflexivity]. }
  rewrite Hn. cbv zeta. cbn [andb]. clear Hn.
  change (nitems (hnode h p)) with (children h p) in *.
  assert (B1 : slice_bound (length (children h p)) 0 (Some (Z.of_nat i)) = i).
  { cbn [slice_bound]. unfold py_insert_pos. destruct (Z.ltb_spec (Z.of_nat i) 0); [lia|]. rewrite Z.min_l by lia. apply Nat2Z.id. }
  assert (B2 : slice_bound (length (children h p)) (length (children h p)) (Some (Z.of_nat (S i))) = S i).
  { cbn [slice_bound]. unfold py_insert_pos. destruct (Z.ltb_spec (Z.of_nat (S i)) 0); [lia|]. rewrite Z.min_l by lia. apply Nat2Z.id. }
  assert (Es : py_slice (Some (Z.of_nat i)) (Some (Z.of_nat (S i))) (children h p) = [x]).
  { unfold py_slice. rewrite B1, B2. replace (S i - i) with 1 by lia.
    destruct (nth_error_split' _ _ _ Hk) as (l1 & l2 & -> & <-). rewrite skipn_app, skipn_all, Nat.sub_diag. reflexivity. }
  assert (Ed : py_slice_del (Some (Z.of_nat i)) (Some (Z.of_nat (S i))) (children h p) = remove_at i (children h p)).
  { unfold py_slice_del. rewrite B1, B2. rewrite Nat.max_r by lia. reflexivity. }
  rewrite Es, Ed, bind_upd. destruct (Z.ltb_spec (Z.of_nat i) (Z.of_nat (S i))) as [_|]; [|lia].
  assert (Hin : In x (children h p)) by (eapply nth_error_In; eauto).
  destruct (unfamily_ok h p x i W Hk) as (h' & E & Q).
  set (h1 := hmod h p (set_items (remove_at i (children h p)))) in *.
  change (hmod h p (set_items (remove_at i (nitems (hnode h p))))) with h1 in E.
  assert (Hxp : x <> p) by (intros ->; eapply (child_not_anc h p p W Hin); constructor).
  assert (Hx1 : hnode h1 x = hnode h x) by (unfold h1; apply hmod_other; assumption).
  exists h'. split; [|split].
  - unfold unfamily in E. rewrite bind_assoc, bind_gets in E. rewrite Hx1 in E.
    destruct (getitem_fam p (ntag (hnode h x)) h1) as [g r] eqn:Eg.
    destruct r as [fam|e]; [|rewrite bind_assoc, (bind_err _ _ _ _ _ Eg) in E; discriminate].
    rewrite bind_assoc, (bind_ok _ _ _ _ _ Eg) in E. rewrite (bind_ok _ _ _ _ _ Eg).
    assert (Ef : fam = with_tag (view h) p (tag_of h x)).
    { destruct (WF_fam h p (tag_of h x) W Hne) as (d & Ed' & Eb & Hok & _).
      unfold getitem_fam in Eg. unfold bind, get_fam in Eg. unfold h1 in Eg. rewrite hmod_same in Eg. cbn [nbound nfams set_items] in Eg.
      rewrite Eb, Ed' in Eg. rewrite (fam_ok_get _ _ _ _ Hok) in Eg.
      destruct (nonempty _) as [f|] eqn:En in Eg; [|discriminate]. injection Eg as _ <-. apply nonempty_Some in En as [<- _]. reflexivity. }
    destruct (Nat.eqb_spec (length fam) 1) as [El|El].
    { exfalso. apply Hfam. rewrite <- Ef. destruct fam as [|y [|? ?]]; try discriminate.
      assert (K : In x [y]) by (rewrite Ef; apply with_tag_In; auto). destruct K as [->|[]]. reflexivity. }
    cbn [negb] in E |- *. destruct (nprt (hnode h x)) as [pl|]; [|discriminate].
    match type of E with bind ?m ?k g = _ => destruct (m g) as [g1 [u|e]] eqn:Em; [|rewrite (bind_err _ _ _ _ _ Em) in E; discriminate] end.
    rewrite (bind_ok _ _ _ _ _ Em) in E.
    assert (Em' : (bb <- lift (fast_hit fam (pl_fam pl) x);;
      (if bb
       then match py_idx (length fam) (pl_fam pl) with
            | Some k => put_fam p (ntag (hnode h x)) (remove_at k fam)
            | None => throw IndexError
            end
       else k <- lift (fam_search (length fam) (item_eqb h x) fam x 0);; put_fam p (ntag (hnode h x)) (remove_at k fam))) g = (g1, Ok u)).
    { rewrite <- Em. rewrite !bind_lift. destruct (fast_hit fam (pl_fam pl) x) as [[|]|]; try reflexivity.
      rewrite !bind_lift.
      assert (Efs : fam_search (length fam) (item_eqb h x) fam x 0 = fam_search (length fam) (item_eqb h1 x) fam x 0).
      { pose proof (fam_index_nth h p x Hin) as Hj. rewrite <- Ef in Hj.
        rewrite !(fam_search_ok _ fam x (fam_index h p x)); try reflexivity; try apply item_eqb_refl; try assumption; try lia.
        - rewrite Ef. apply with_tag_NoDup. assumption.
        - apply nth_error_lt in Hj. lia.
        - rewrite Ef. apply with_tag_NoDup. assumption.
        - apply nth_error_lt in Hj. lia. }
      rewrite Efs. reflexivity. }
    rewrite (bind_ok _ _ _ _ _ Em'). change ((hmod g1 x (set_prt None), Ok x) = (h', Ok x)) in E. change ((hmod g1 x (set_prt None), Ok (GList [x])) = (h', Ok (GList [x]))). congruence.
  - eapply ceq_WF; [exact Q|]. apply mk_detach_WF; assumption.
  - intros y. rewrite (ceq_view _ _ Q). apply mk_detach_view. assumption.
Qed.
