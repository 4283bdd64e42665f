(** Paths, neighbours, membership and the refresh of the position caches. *)
From Coq Require Import Sorting.Sorted Sorting.Permutation.
From Verif Require Import Base Heap HeapSpec ListLemmas ForestLemmas HeapInv HeapAttach HeapOps HeapOps2 HeapOps3 HeapHoare Tree HeapTree HeapCopy HeapMut HeapExt2 HeapOrd2 HeapHash HeapRead.

Lemma ceq_same h h' : ceq h h' -> same (view h') (view h).
Proof. intros Q y. apply (ceq_view _ _ Q). Qed.
Lemma ceq_children h h' p : ceq h h' -> children h' p = children h p.
Proof. intros Q. unfold children. rewrite (ceq_view _ _ Q). reflexivity. Qed.
Lemma ceq_tag_of h h' p : ceq h h' -> tag_of h' p = tag_of h p.
Proof. intros Q. unfold tag_of. rewrite (ceq_view _ _ Q). reflexivity. Qed.
Lemma ceq_parent_of h h' p : ceq h h' -> parent_of h' p = parent_of h p.
Proof. intros Q. unfold parent_of. rewrite (ceq_view _ _ Q). reflexivity. Qed.
Lemma ceq_with_tag h h' p t : ceq h h' -> with_tag (view h') p t = with_tag (view h) p t.
Proof.
  intros Q. unfold with_tag. rewrite (ceq_view _ _ Q). apply filter_ext. intros y. rewrite (ceq_view _ _ Q). reflexivity.
Qed.
Lemma ceq_fam_index h h' p x : ceq h h' -> fam_index h' p x = fam_index h p x.
Proof. intros Q. unfold fam_index. rewrite (ceq_tag_of _ _ _ Q), (ceq_with_tag _ _ _ _ Q). reflexivity. Qed.
Lemma same_refl s : same s s. Proof. intros y. reflexivity. Qed.
Lemma same_sym s s' : same s s' -> same s' s. Proof. intros H y. symmetry. apply H. Qed.
Lemma same_trans s1 s2 s3 : same s1 s2 -> same s2 s3 -> same s1 s3.
Proof. intros H1 H2 y. rewrite H1. apply H2. Qed.
Lemma Lev_same s s' x k : same s s' -> Lev s x k -> Lev s' x k.
Proof. intros S H. induction H; [apply Lev0|eapply LevS]; rewrite <- ?S; eauto. Qed.
Lemma by_idx_app h l1 : forall x y l2, by_idx h x l1 = Ok y -> by_idx h x (l1 ++ l2) = by_idx h y l2.
Proof.
  induction l1 as [|i l1 IH]; intros x y l2; cbn.
  - intros [= ->]. reflexivity.
  - destruct (list_at (nitems (hnode h x)) i); [|discriminate]. apply IH.
Qed.
Lemma by_tag_idx_app h l1 : forall x y l2, by_tag_idx h x l1 = Ok y -> by_tag_idx h x (l1 ++ l2) = by_tag_idx h y l2.
Proof.
  induction l1 as [|[t i] l1 IH]; intros x y l2; cbn.
  - intros [= ->]. reflexivity.
  - destruct (fam_of h x t) as [[f|]|e]; [|discriminate|destruct e; discriminate].
    destruct (list_at f i); [|discriminate]. apply IH.
Qed.

(** ** idx_path *)
Lemma idx_path_ok h : WFN h -> forall x k, Lev (view h) x k -> forall fuel g, k < fuel -> ceq h g ->
  exists r path g', root_of fuel h x = Some r /\ idx_path fuel x g = (g', Ok path) /\ ceq h g' /\
    length path = k /\ by_idx h r path = Ok x.
Proof.
  intros [W NO]. induction 1 as [x Hp|x q k Hp HL IH]; intros [|f] g Hf Q; try lia.
  - assert (E : nprt (hnode h x) = None) by (apply prt_none; exact Hp).
    cbn [root_of idx_path]. rewrite E. rewrite bind_gets.
    assert (Eg : nprt (hnode g x) = None) by (apply prt_none; rewrite (ceq_parent_of _ _ _ Q); exact Hp). rewrite Eg.
    exists x, [], g. split; [reflexivity|]. split; [reflexivity|]. split; [exact Q|]. split; reflexivity.
  - assert (E : exists pl, nprt (hnode h x) = Some pl /\ pl_par pl = q).
    { cbn in Hp. destruct (nprt (hnode h x)); [|discriminate]. injection Hp as <-. eauto. }
    destruct E as (pl & E & Epl).
    assert (Eg : exists pl, nprt (hnode g x) = Some pl /\ pl_par pl = q).
    { assert (Hpg : parent_of g x = Some q) by (rewrite (ceq_parent_of _ _ _ Q); exact Hp).
      cbn in Hpg. destruct (nprt (hnode g x)); [|discriminate]. injection Hpg as <-. eauto. }
    destruct Eg as (plg & Eg & Eplg).
    cbn [root_of idx_path]. rewrite E, bind_gets, Eg, Epl, Eplg.
    pose proof (NO x q Hp) as Hin. pose proof (posn_in _ _ Hin) as Hk.
    assert (Wg : WF g) by (eapply ceq_WF; eauto).
    destruct (idx_or_type_error_ok g q x (posn (a_children (view h q)) x) Wg) as (g1 & E1 & Q1 & _).
    { rewrite (ceq_items _ _ Q). exact Hk. }
    rewrite (bind_ok _ _ _ _ _ E1).
    destruct (IH f g1) as (r & path & g2 & Er & Ep & Q2 & Hl & Hb); [lia|eapply ceq_trans; eauto|].
    rewrite (bind_ok _ _ _ _ _ Ep). exists r, (path ++ [Z.of_nat (posn (a_children (view h q)) x)]), g2.
    split; [assumption|]. split; [reflexivity|]. split; [assumption|]. split; [rewrite app_length; cbn; lia|].
    rewrite (by_idx_app _ _ _ _ _ Hb). cbn [by_idx]. rewrite list_at_nth.
    change (nitems (hnode h q)) with (a_children (view h q)). rewrite Hk. reflexivity.
Qed.

(** ** tag_idx_path *)
Lemma get_tag_idx_full h p x k pl : WF h -> nth_error (nitems (hnode h p)) k = Some x ->
  nprt (hnode h x) = Some pl ->
  exists h', ceq h h' /\ writes SFam (with_tag (view h) p (tag_of h x)) Z.of_nat h h' /\
    get_tag_idx x h = (h', Ok (if (20 <? Z.abs (pl_fam pl - Z.of_nat (fam_pos h p x k)))%Z
                               then TIBare (Z.of_nat (fam_pos h p x k))
                               else TIPair (ntag (hnode h x)) (Z.of_nat (fam_pos h p x k)))).
Proof.
  intros W Hk Hp. unfold get_tag_idx. rewrite Hp.
  assert (Hin : In x (nitems (hnode h p))) by (eapply nth_error_In; eauto).
  destruct (WF_child_prt h p x W Hin) as (pl' & E' & Epp). rewrite Hp in E'. injection E' as <-.
  rewrite Epp. change (tag_of h x) with (ntag (hnode h x)). set (t := ntag (hnode h x)).
  destruct (WF_fam h p t W) as (d & Ed & Eb & Hok & Eg); [intros E0; rewrite E0 in Hin; exact Hin|].
  pose proof (fam_pos_nth h p x k Hk) as Hn. fold t in Hn.
  set (fam := with_tag (view h) p t) in *.
  assert (Hne : fam <> []) by (intros E0; rewrite E0 in Hn; destruct (fam_pos h p x k); discriminate).
  unfold getitem_fam. rewrite bind_assoc, (bind_ok _ _ _ _ _ Eg), (nonempty_ne _ Hne), bind_ret.
  destruct (wf_caches _ W _ _ Hp) as (C1 & C2 & C3).
  destruct (locate_ok SFam fam (pl_fam pl) x h (fam_pos h p x k) Hn) as (f & h' & E & Ef & Q & Hs & Hw).
  - apply NoDup_filter. apply (WF_nodup h p W).
  - assumption.
  - apply (wf_caches _ W).
  - congruence.
  - left. intros y Hy. apply filter_In in Hy as [Hy _].
    destruct (WF_child_prt h p y W Hy) as (ply & -> & _). discriminate.
  - exists h'. split; [assumption|]. split; [assumption|]. rewrite (bind_ok _ _ _ _ _ E). unfold ret. do 2 f_equal.
    destruct (Z.ltb_spec 20 (Z.abs (pl_fam pl - Z.of_nat (fam_pos h p x k)))) as [Hl|Hl].
    + apply Hs in Hl. destruct f; try discriminate. cbn in Ef. rewrite Ef. reflexivity.
    + destruct f; cbn in Ef; rewrite Ef; try reflexivity.
      exfalso. assert (is_slow (Slow i) = true) by reflexivity. apply Hs in H. lia.
Qed.

(** the family position remembered by y is within the search window of the code *)
Definition fam_near (h : heap) (y : loc) : Prop :=
  forall pl, nprt (hnode h y) = Some pl ->
    (Z.abs (pl_fam pl - Z.of_nat (fam_index h (pl_par pl) y)) <= 20)%Z.
Lemma fam_near_writes h h' p t y : WF h -> ceq h h' -> writes SFam (with_tag (view h) p t) Z.of_nat h h' ->
  fam_near h y -> fam_near h' y.
Proof.
  intros W Q Hw Hn pl Hp. destruct (Hw y) as [E|(j & pl0 & Hj & Hp0 & E)].
  - rewrite E in Hp. rewrite (ceq_fam_index _ _ _ _ Q). apply Hn. assumption.
  - rewrite E in Hp. cbn in Hp. injection Hp as <-. cbn [pl_fam pl_par].
    assert (Hy : In y (with_tag (view h) p t)) by (eapply nth_error_In; eauto).
    apply with_tag_In in Hy as [Hy Ht]. destruct (WF_child_prt h p y W Hy) as (pl1 & Hp1 & Hpar).
    rewrite Hp0 in Hp1. injection Hp1 as <-. rewrite Hpar, (ceq_fam_index _ _ _ _ Q).
    unfold fam_index. rewrite Ht. rewrite (posn_nth _ j y); [lia|apply with_tag_NoDup; assumption|assumption].
Qed.

(** only pairs (tag, number) *)
Fixpoint pairs_of (l : list tagidx) : option (list (pyval * Z)) :=
  match l with
  | [] => Some []
  | TIPair t i :: r => option_map (cons (t, i)) (pairs_of r)
  | _ => None
  end.
Lemma pairs_of_app l t i : pairs_of (l ++ [TIPair t i]) = option_map (fun r => r ++ [(t, i)]) (pairs_of l).
Proof.
  induction l as [|a l IH]; cbn; [reflexivity|]. destruct a; auto. rewrite IH. destruct (pairs_of l); reflexivity.
Qed.
Lemma pairs_of_app_bare l i : pairs_of (l ++ [TIBare i]) = None.
Proof. induction l as [|a l IH]; cbn; [reflexivity|]. destruct a; auto. rewrite IH. reflexivity. Qed.

Lemma tag_idx_path_ok h : WFN h -> hash_ok h -> forall x k, Lev (view h) x k -> forall fuel g, k < fuel -> ceq h g ->
  exists r l g', root_of fuel h x = Some r /\ tag_idx_path fuel x g = (g', Ok l) /\ ceq h g' /\ length l = k /\
    (forall path, pairs_of l = Some path -> by_tag_idx h r path = Ok x) /\
    ((forall y, Anc (view h) y x -> fam_near g y) -> pairs_of l <> None).
Proof.
  intros [W NO] Hh. induction 1 as [x Hp|x q k Hp HL IH]; intros [|f] g Hf Q; try lia.
  - assert (E : nprt (hnode h x) = None) by (apply prt_none; exact Hp).
    cbn [root_of tag_idx_path]. rewrite E. rewrite bind_gets.
    assert (Eg : nprt (hnode g x) = None) by (apply prt_none; rewrite (ceq_parent_of _ _ _ Q); exact Hp). rewrite Eg.
    exists x, [], g. split; [reflexivity|]. split; [reflexivity|]. split; [exact Q|]. split; [reflexivity|]. split.
    + intros path [= <-]. reflexivity.
    + discriminate.
  - assert (E : exists pl, nprt (hnode h x) = Some pl /\ pl_par pl = q).
    { cbn in Hp. destruct (nprt (hnode h x)); [|discriminate]. injection Hp as <-. eauto. }
    destruct E as (pl & E & Epl).
    assert (Eg : exists pl, nprt (hnode g x) = Some pl /\ pl_par pl = q).
    { assert (Hpg : parent_of g x = Some q) by (rewrite (ceq_parent_of _ _ _ Q); exact Hp).
      cbn in Hpg. destruct (nprt (hnode g x)); [|discriminate]. injection Hpg as <-. eauto. }
    destruct Eg as (plg & Eg & Eplg).
    cbn [root_of tag_idx_path]. rewrite E, bind_gets, Eg, Epl, Eplg.
    pose proof (NO x q Hp) as Hin. pose proof (posn_in _ _ Hin) as Hk.
    assert (Wg : WF g) by (eapply ceq_WF; eauto).
    assert (Hkg : nth_error (nitems (hnode g q)) (posn (a_children (view h q)) x) = Some x).
    { rewrite (ceq_items _ _ Q). exact Hk. }
    destruct (get_tag_idx_full g q x _ plg Wg Hkg Eg) as (g1 & Q1 & Hw & E1).
    rewrite (bind_ok _ _ _ _ _ E1).
    assert (Q01 : ceq h g1) by (eapply ceq_trans; eauto).
    destruct (IH f g1) as (r & l & g2 & Er & Ep & Q2 & Hl & Hb & Hn); [lia|assumption|].
    rewrite (bind_ok _ _ _ _ _ Ep). clear E1.
    assert (Efp : fam_pos g q x (posn (a_children (view h q)) x) = fam_index h q x).
    { rewrite <- (fam_index_pos g q x _ Wg Hkg). apply ceq_fam_index. assumption. }
    rewrite Efp. eexists r, _, g2.
    split; [assumption|]. split; [reflexivity|]. split; [assumption|]. split; [rewrite app_length; cbn; lia|]. split.
    + intros path. destruct (Z.ltb_spec 20 (Z.abs (pl_fam plg - Z.of_nat (fam_index h q x)))) as [Hd|Hd].
      * rewrite pairs_of_app_bare. discriminate.
      * rewrite pairs_of_app. destruct (pairs_of l) as [path'|]; [|discriminate]. cbn. intros [= <-].
        rewrite (by_tag_idx_app _ _ _ _ _ (Hb _ eq_refl)). cbn [by_tag_idx].
        rewrite (ceq_tag _ _ Q). change (ntag (hnode h x)) with (tag_of h x).
        assert (Hne : children h q <> []) by (intros E0; change (a_children (view h q)) with (children h q) in Hin; rewrite E0 in Hin; destruct Hin).
        rewrite (fam_of_ok h q (tag_of h x) W (Hh x) Hne).
        pose proof (fam_index_nth h q x Hin) as Hfi.
        destruct (with_tag (view h) q (tag_of h x)) eqn:Ew; [destruct (fam_index h q x); discriminate|]. cbn [nonempty].
        rewrite list_at_nth, Hfi. reflexivity.
    + intros Hall. assert (Hx : fam_near g x) by (apply Hall; apply Anc_refl).
      specialize (Hx plg Eg). rewrite Eplg in Hx. rewrite (ceq_fam_index _ _ _ _ Q) in Hx.
      destruct (Z.ltb_spec 20 (Z.abs (pl_fam plg - Z.of_nat (fam_index h q x)))) as [Hd|Hd]; [lia|].
      rewrite pairs_of_app. destruct (pairs_of l) eqn:El; [discriminate|]. exfalso. apply Hn; [|reflexivity].
      intros y Hy. eapply fam_near_writes; [exact Wg|exact Q1|exact Hw|]. apply Hall. eapply Anc_step; eauto.
Qed.

(** ** neighbours *)
Lemma pre_item_ok h p k x : WF h -> nth_error (children h p) k = Some x ->
  exists h', pre_item x h = (h', Ok (match k with O => None | S j => nth_error (children h p) j end)) /\ ceq h h'.
Proof.
  intros W Hk. unfold pre_item. rewrite bind_gets.
  assert (Hin : In x (children h p)) by (eapply nth_error_In; eauto).
  destruct (WF_child_prt h p x W Hin) as (pl & Ep & Epar). rewrite Ep, Epar.
  destruct (idx_or_type_error_ok h p x k W Hk) as (h1 & E1 & Q1 & _). rewrite (bind_ok _ _ _ _ _ E1).
  exists h1. split; [|assumption]. destruct k as [|j].
  - reflexivity.
  - replace (Z.of_nat (S j) - 1)%Z with (Z.of_nat j) by lia.
    destruct (Z.ltb_spec (Z.of_nat j) 0) as [|]; [lia|]. rewrite list_at_nth.
    change (nitems (hnode h p)) with (children h p).
    destruct (nth_error (children h p) j) eqn:E; [reflexivity|].
    apply nth_error_None in E. assert (S j < length (children h p)) by (apply nth_error_Some; congruence). lia.
Qed.
Lemma post_item_ok h p k x : WF h -> nth_error (children h p) k = Some x ->
  exists h', post_item x h = (h', Ok (nth_error (children h p) (S k))) /\ ceq h h'.
Proof.
  intros W Hk. unfold post_item. rewrite bind_gets.
  assert (Hin : In x (children h p)) by (eapply nth_error_In; eauto).
  destruct (WF_child_prt h p x W Hin) as (pl & Ep & Epar). rewrite Ep, Epar.
  destruct (idx_or_type_error_ok h p x k W Hk) as (h1 & E1 & Q1 & _). rewrite (bind_ok _ _ _ _ _ E1).
  exists h1. split; [|assumption]. cbv zeta. change (nitems (hnode h p)) with (children h p).
  replace (Z.of_nat k + 1)%Z with (Z.of_nat (S k)) by lia. rewrite list_at_nth.
  destruct (Z.ltb_spec (Z.of_nat (S k)) (Z.of_nat (length (children h p)))) as [H|H].
  - destruct (nth_error (children h p) (S k)) eqn:E; [reflexivity|]. apply nth_error_None in E. lia.
  - destruct (nth_error (children h p) (S k)) eqn:E; [|reflexivity].
    assert (S k < length (children h p)) by (apply nth_error_Some; congruence). lia.
Qed.
Lemma root_neighbours h x : parent_of h x = None ->
  pre_item x h = (h, Ok None) /\ post_item x h = (h, Ok None) /\ siblings h x = [] /\ get_idx x h = (h, Ok None).
Proof.
  intros H. apply prt_none in H. unfold pre_item, post_item, siblings, get_idx. rewrite !bind_gets, H. auto.
Qed.
Lemma siblings_ok h p k x : WF h -> nth_error (children h p) k = Some x -> siblings h x = remove_at k (children h p).
Proof.
  intros W Hk. unfold siblings. assert (Hin : In x (children h p)) by (eapply nth_error_In; eauto).
  destruct (WF_child_prt h p x W Hin) as (pl & Ep & Epar). rewrite Ep, Epar.
  change (nitems (hnode h p)) with (children h p). pose proof (WF_nodup h p W) as Hd.
  change (nitems (hnode h p)) with (children h p) in Hd. clear Hin.
  revert k Hk Hd. generalize (children h p). clear.
  induction l as [|a l IH]; intros k Hk Hd; [destruct k; discriminate|]. inversion Hd as [|? ? H1 H2]; subst.
  destruct k as [|k].
  - injection Hk as ->. cbn. rewrite Nat.eqb_refl. cbn. unfold remove_at. cbn.
    clear - H1. induction l as [|b l IH]; [reflexivity|]. cbn. destruct (Nat.eqb_spec b x) as [->|]; [destruct H1; left; reflexivity|].
    cbn. f_equal. apply IH. intros K. apply H1. right. assumption.
  - cbn in Hk. cbn [filter]. destruct (Nat.eqb_spec a x) as [->|Hne]; [exfalso; apply H1; eapply nth_error_In; eauto|].
    cbn [negb]. unfold remove_at in *. cbn. f_equal. apply IH; assumption.
Qed.

(** ** refreshing the caches *)
Definition exact_abs (h : heap) (p : loc) : Prop :=
  forall k y pl, nth_error (children h p) k = Some y -> nprt (hnode h y) = Some pl -> pl_abs pl = Z.of_nat k.
Definition exact_fam (h : heap) (p : loc) : Prop :=
  forall y pl, In y (children h p) -> nprt (hnode h y) = Some pl -> pl_fam pl = Z.of_nat (fam_index h p y).

Lemma enum_cache_gen s l : forall i h, (forall y, In y l -> exists pl, nprt (hnode h y) = Some pl) -> caches_ok h -> NoDup l ->
  exists h', mapM_ (fun iy => set_cache AttributeError s (snd iy) (Z.of_nat (fst iy))) (combine (seq i (length l)) l) h = (h', Ok tt) /\
    ceq h h' /\ (forall y, ~ In y l -> hnode h' y = hnode h y) /\
    (forall j y pl, nth_error l j = Some y -> nprt (hnode h y) = Some pl ->
       hnode h' y = set_prt (Some (with_cache s (Z.of_nat (i + j)) pl)) (hnode h y)).
Proof.
  induction l as [|x l IH]; intros i h Hp Hc Hd.
  - exists h. split; [reflexivity|]. split; [apply ceq_refl|]. split; [reflexivity|]. intros [|j]; discriminate.
  - cbn [length seq combine mapM_]. destruct (Hp x (or_introl eq_refl)) as (pl & Epl).
    destruct (Hc x pl Epl) as (_ & _ & Et). cbn [fst snd]. inversion Hd as [|? ? Hx Hd']; subst.
    assert (E1 : set_cache AttributeError s x (Z.of_nat i) h = (hmod h x (set_prt (Some (with_cache s (Z.of_nat i) pl))), Ok tt)).
    { unfold set_cache. rewrite Epl, Et. reflexivity. }
    destruct (set_cache_ok AttributeError s x (Z.of_nat i) h pl Epl Et (Nat2Z.is_nonneg i)) as (h1' & E1' & Q1).
    rewrite E1 in E1'. injection E1' as E1'. 
    rewrite (bind_ok _ _ _ _ _ E1). set (h1 := hmod h x (set_prt (Some (with_cache s (Z.of_nat i) pl)))) in *.
    rewrite <- E1' in Q1. clear E1'.
    assert (Ho : forall y, y <> x -> hnode h1 y = hnode h y) by (intros y Hy; apply hmod_other; assumption).
    destruct (IH (S i) h1) as (h2 & E2 & Q2 & Hout & Hin).
    + intros y Hy. rewrite Ho by (intros ->; contradiction). apply Hp. right. assumption.
    + apply Q1. assumption.
    + assumption.
    + exists h2. split; [exact E2|]. split; [eapply ceq_trans; eauto|]. split.
      * intros y Hy. rewrite Hout by (intros K; apply Hy; right; assumption). apply Ho. intros ->. apply Hy. left. reflexivity.
      * intros [|j] y pl' Hj Hpl'.
        -- injection Hj as <-. rewrite Hout by assumption. unfold h1. rewrite hmod_same. rewrite Epl in Hpl'. injection Hpl' as <-.
           rewrite Nat.add_0_r. reflexivity.
        -- cbn in Hj. assert (y <> x) by (intros ->; apply Hx; eapply nth_error_In; eauto).
           rewrite (Hin j y pl' Hj); [|rewrite Ho by assumption; assumption]. rewrite Ho by assumption.
           replace (S i + j) with (i + S j) by lia. reflexivity.
Qed.
Lemma enum_cache_ok s l h : (forall y, In y l -> exists pl, nprt (hnode h y) = Some pl) -> caches_ok h -> NoDup l ->
  exists h', enum_cache s l h = (h', Ok tt) /\ ceq h h' /\ (forall y, ~ In y l -> hnode h' y = hnode h y) /\
    (forall j y pl, nth_error l j = Some y -> nprt (hnode h y) = Some pl ->
       hnode h' y = set_prt (Some (with_cache s (Z.of_nat j) pl)) (hnode h y)).
Proof. intros A B C. destruct (enum_cache_gen s l 0 h A B C) as (h' & H). exists h'. exact H. Qed.

Lemma enum_fams_ok : forall d h, (forall y, In y (concat (map snd d)) -> exists pl, nprt (hnode h y) = Some pl) ->
  caches_ok h -> NoDup (concat (map snd d)) ->
  exists h', mapM_ (fun kv => enum_cache SFam (snd kv)) d h = (h', Ok tt) /\ ceq h h' /\
    (forall y, ~ In y (concat (map snd d)) -> hnode h' y = hnode h y) /\
    (forall (t : pyval) f j y pl, In (t, f) d -> nth_error f j = Some y -> nprt (hnode h y) = Some pl ->
       hnode h' y = set_prt (Some (with_cache SFam (Z.of_nat j) pl)) (hnode h y)).
Proof.
  induction d as [|[t f] d IH]; intros h Hp Hc Hd.
  - exists h. split; [reflexivity|]. split; [apply ceq_refl|]. split; [reflexivity|]. intros ? ? ? ? ? [].
  - cbn [map concat snd mapM_] in *. destruct (NoDup_app_inv _ _ Hd) as (Hd1 & Hd2 & Hdj).
    assert (Hdis : forall y, In y f -> ~ In y (concat (map snd d))) by (intros y H1 H2; eapply Hdj; eauto).
    destruct (enum_cache_ok SFam f h) as (h1 & E1 & Q1 & O1 & I1); [intros; apply Hp, in_or_app; auto|assumption|assumption|].
    rewrite (bind_ok _ _ _ _ _ E1).
    assert (Ho : forall y, In y (concat (map snd d)) -> hnode h1 y = hnode h y) by (intros y Hy; apply O1; intros K; eapply Hdis; eauto).
    destruct (IH h1) as (h2 & E2 & Q2 & O2 & I2).
    + intros y Hy. rewrite Ho by assumption. apply Hp, in_or_app. auto.
    + apply Q1. assumption.
    + assumption.
    + exists h2. split; [exact E2|]. split; [eapply ceq_trans; eauto|]. split.
      * intros y Hy. rewrite O2 by (intros K; apply Hy, in_or_app; auto). apply O1. intros K. apply Hy, in_or_app. auto.
      * intros t' f' j y pl [Heq|Hin] Hj Hpl.
        -- injection Heq as <- <-. rewrite O2; [|apply Hdis; eapply nth_error_In; eauto]. apply (I1 j y pl Hj Hpl).
        -- assert (Hy : In y (concat (map snd d))).
           { apply in_concat. exists f'. split; [apply in_map_iff; exists (t', f'); auto|eapply nth_error_In; eauto]. }
           rewrite <- (Ho y Hy) in Hpl. rewrite (I2 t' f' j y pl Hin Hj Hpl). rewrite (Ho y Hy). reflexivity.
Qed.
Lemma fam_dict_parts h p d : WF h -> nfams (hnode h p) = Some d ->
  fam_ok (fun x => ntag (hnode h x)) d (nitems (hnode h p)) ->
  (forall t f, In (t, f) d -> f = with_tag (view h) p t) /\
  NoDup (concat (map snd d)) /\ (forall y, In y (concat (map snd d)) <-> In y (children h p)) /\
  (forall y, In y (children h p) -> In (tag_of h y, with_tag (view h) p (tag_of h y)) d).
Proof.
  intros W Ed [Hnd Hok].
  assert (Hfam : forall t f, In (t, f) d -> f = with_tag (view h) p t).
  { intros t f Hin. pose proof (in_dget d t f Hnd Hin) as Hg. rewrite Hok in Hg. apply nonempty_Some in Hg as [<- _]. reflexivity. }
  assert (Hin : forall y, In y (children h p) -> In (tag_of h y, with_tag (view h) p (tag_of h y)) d).
  { intros y Hy. apply dget_in. rewrite Hok. apply nonempty_ne.
    assert (K : In y (with_tag (view h) p (tag_of h y))) by (apply with_tag_In; auto). intros E. unfold with_tag, view in K. cbn in K. cbn in E. rewrite E in K. destruct K. }
  split; [assumption|]. split; [|split; [|assumption]].
  - clear Hok Ed Hin. induction d as [|[t f] d IH]; [constructor|]. cbn [map concat snd].
    inversion Hnd as [|? ? Hn1 Hn2]; subst. apply NoDup_app.
    + rewrite (Hfam t f (or_introl eq_refl)). apply with_tag_NoDup. assumption.
    + apply IH; [assumption|]. intros; apply Hfam; right; assumption.
    + intros y Hy Hy2. apply in_concat in Hy2 as (f' & Hf' & Hy2). apply in_map_iff in Hf' as ([t' f2] & E & Hf'). cbn in E. subst f2.
      rewrite (Hfam t f (or_introl eq_refl)) in Hy. rewrite (Hfam t' f' (or_intror Hf')) in Hy2.
      apply with_tag_In in Hy as [_ Hy]. apply with_tag_In in Hy2 as [_ Hy2]. apply Hn1. cbn. rewrite <- Hy, Hy2.
      change t' with (fst (t', f')). apply in_map. assumption.
  - intros y. split.
    + intros Hy. apply in_concat in Hy as (f' & Hf' & Hy). apply in_map_iff in Hf' as ([t' f2] & E & Hf'). cbn in E. subst f2.
      rewrite (Hfam _ _ Hf') in Hy. apply with_tag_In in Hy. apply Hy.
    + intros Hy. apply in_concat. exists (with_tag (view h) p (tag_of h y)). split; [|apply with_tag_In; auto].
      apply in_map_iff. exists (tag_of h y, with_tag (view h) p (tag_of h y)). split; [reflexivity|]. apply Hin. assumption.
Qed.

(** After force_cache_update every child of the same parent remembers its exact position. *)
Lemma force_cache_ok h p x : WF h -> In x (children h p) ->
  exists h', force_cache_update x h = (h', Ok tt) /\ ceq h h' /\ exact_abs h' p /\ exact_fam h' p.
Proof.
  intros W Hx. unfold force_cache_update. rewrite bind_gets.
  destruct (WF_child_prt h p x W Hx) as (pl & Ep & Epar). rewrite Ep, Epar.
  assert (Hne : nitems (hnode h p) <> []) by (intros E; change (nitems (hnode h p)) with (children h p) in E; rewrite E in Hx; destruct Hx).
  destruct (WF_fam h p PNoTag W Hne) as (d & Ed & _ & Hok & _). rewrite Ed.
  destruct (fam_dict_parts h p d W Ed Hok) as (Hfam & Hnd & Hall & Hin).
  assert (Hpl : forall y, In y (children h p) -> exists pl, nprt (hnode h y) = Some pl).
  { intros y Hy. destruct (WF_child_prt h p y W Hy) as (pl' & E & _). eauto. }
  destruct (enum_cache_ok SAbs (nitems (hnode h p)) h) as (h1 & E1 & Q1 & O1 & I1);
    [exact Hpl|apply (wf_caches _ W)|apply (WF_nodup h p W)|].
  rewrite (bind_ok _ _ _ _ _ E1).
  destruct (enum_fams_ok d h1) as (h2 & E2 & Q2 & O2 & I2).
  - intros y Hy. apply Hall in Hy. destruct (Hpl y Hy) as (ply & Ey). apply In_nth_error in Hy as [j Hj].
    rewrite (I1 j y ply Hj Ey). cbn. eauto.
  - apply Q1. apply (wf_caches _ W).
  - assumption.
  - exists h2. split; [exact E2|]. assert (Q : ceq h h2) by (eapply ceq_trans; eauto). split; [assumption|].
    assert (Hnode : forall j y ply, nth_error (children h p) j = Some y -> nprt (hnode h y) = Some ply ->
       nprt (hnode h2 y) = Some (with_cache SFam (Z.of_nat (fam_index h p y)) (with_cache SAbs (Z.of_nat j) ply))).
    { intros j y ply Hj Hy. pose proof (I1 j y ply Hj Hy) as H1.
      assert (Hyin : In y (children h p)) by (eapply nth_error_In; eauto).
      pose proof (Hin y Hyin) as Hd. pose proof (fam_index_nth h p y Hyin) as Hf.
      assert (Hp1 : nprt (hnode h1 y) = Some (with_cache SAbs (Z.of_nat j) ply)) by (rewrite H1; reflexivity).
      rewrite (I2 _ _ _ _ _ Hd Hf Hp1). reflexivity. }
    split.
    + intros j y ply Hj Hy. rewrite (ceq_children _ _ _ Q) in Hj.
      destruct (Hpl y (nth_error_In _ _ Hj)) as (pl0 & Ey). rewrite (Hnode j y pl0 Hj Ey) in Hy. injection Hy as <-. reflexivity.
    + intros y ply Hy Hp. rewrite (ceq_children _ _ _ Q) in Hy. destruct (Hpl y Hy) as (pl0 & Ey).
      apply In_nth_error in Hy as [j Hj]. rewrite (Hnode j y pl0 Hj Ey) in Hp. injection Hp as <-. cbn.
      rewrite (ceq_fam_index _ _ _ _ Q). reflexivity.
Qed.
