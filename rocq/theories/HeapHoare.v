(** Operations that touch position caches only, and preservation of the invariant for
    every outcome (success or exception). *)
From Verif Require Import Base Heap HeapSpec ListLemmas ForestLemmas HeapInv HeapAttach HeapOps HeapOps2 HeapOps3.

(** * Cache-only computations *)
Definition conly {A} (m : M A) : Prop := forall h, caches_ok h -> ceq h (fst (m h)).

Lemma conly_pure {A} (m : M A) : (forall h, fst (m h) = h) -> conly m.
Proof. intros H h _. rewrite H. apply ceq_refl. Qed.
Lemma conly_ret {A} (a : A) : conly (ret a). Proof. apply conly_pure. reflexivity. Qed.
Lemma conly_throw {A} e : conly (@throw A e). Proof. apply conly_pure. reflexivity. Qed.
Lemma conly_gets {A} (f : heap -> A) : conly (gets f). Proof. apply conly_pure. reflexivity. Qed.
Lemma conly_lift {A} (r : res A) : conly (lift r). Proof. apply conly_pure. reflexivity. Qed.
Lemma conly_bind {A B} (m : M A) (k : A -> M B) :
  conly m -> (forall a, conly (k a)) -> conly (bind m k).
Proof.
  intros Hm Hk h C. unfold bind. specialize (Hm h C). destruct (m h) as [h1 [a|e]]; cbn in *.
  - eapply ceq_trans; [exact Hm|]. apply Hk. apply Hm. assumption.
  - assumption.
Qed.
(** a bind whose continuation may use the heap just read *)
Lemma conly_gets_bind {A B} (f : heap -> A) (k : A -> M B) :
  (forall h, caches_ok h -> ceq h (fst (k (f h) h))) -> conly (bind (gets f) k).
Proof. intros H h C. apply H. assumption. Qed.

Lemma conly_set_cache e s y i : (0 <= i)%Z -> conly (set_cache e s y i).
Proof.
  intros Hi h C. unfold set_cache. destruct (nprt (hnode h y)) as [pl|] eqn:Ep; [|apply ceq_refl].
  destruct (pl_tuple pl) eqn:Et; [apply ceq_refl|].
  destruct (set_cache_ok e s y i h pl Ep Et Hi) as (h' & E & Q).
  unfold set_cache in E. rewrite Ep, Et in E. cbn. injection E as <-. assumption.
Qed.
Lemma conly_scan s x l : forall i d,
  (forall j, j < length l -> (0 <= i + Z.of_nat j * d)%Z) -> conly (scan s l i d x).
Proof.
  induction l as [|y l IH]; intros i d H; cbn [scan]; [apply conly_throw|].
  apply conly_bind.
  - apply conly_set_cache. specialize (H 0). cbn in H. lia.
  - intros _. destruct (Nat.eqb y x); [apply conly_ret|]. apply IH.
    intros j Hj. specialize (H (S j)). cbn [length] in H. lia.
Qed.
Lemma conly_locate s l c x : (0 <= c)%Z -> conly (locate s l c x).
Proof.
  intros Hc. unfold locate. apply conly_bind; [apply conly_lift|]. intros b.
  destruct b; [apply conly_ret|].
  destruct (window _ _ _ _) as [i|].
  - apply conly_bind; [apply conly_set_cache; lia|]. intros _. apply conly_ret.
  - destruct (2 * c <? _)%Z; (apply conly_bind; [apply conly_scan|intros; apply conly_ret]);
      intros j Hj; rewrite ?rev_length in Hj; lia.
Qed.
Lemma conly_get_idx x : conly (get_idx x).
Proof.
  intros h C. unfold get_idx. destruct (nprt (hnode h x)) as [pl|] eqn:Ep; [|apply ceq_refl].
  apply (conly_bind (locate _ _ _ _)); [|intros; apply conly_ret|assumption].
  apply conly_locate. apply (C _ _ Ep).
Qed.
Lemma conly_get_fam p t : conly (get_fam p t).
Proof.
  apply conly_pure. intros h. unfold get_fam. destruct (nbound (hnode h p)); [reflexivity| |reflexivity].
  destruct (nfams (hnode h p)); reflexivity.
Qed.
Lemma conly_getitem_fam p t : conly (getitem_fam p t).
Proof.
  apply conly_bind; [apply conly_get_fam|]. intros [f|]; [apply conly_ret|apply conly_throw].
Qed.
Lemma conly_get_tag_idx x : conly (get_tag_idx x).
Proof.
  intros h C. unfold get_tag_idx. destruct (nprt (hnode h x)) as [pl|] eqn:Ep; [|apply ceq_refl].
  apply (conly_bind (getitem_fam _ _)); [apply conly_getitem_fam| |assumption].
  intros fam. apply conly_bind; [|intros; apply conly_ret].
  apply conly_locate. apply (C _ _ Ep).
Qed.
Lemma conly_idx x : conly (idx_or_type_error x).
Proof.
  apply conly_bind; [apply conly_get_idx|]. intros [i|]; [apply conly_ret|apply conly_throw].
Qed.
Lemma conly_mapM_ {A} (f : A -> M unit) l : (forall a, In a l -> conly (f a)) -> conly (mapM_ f l).
Proof.
  induction l as [|a l IH]; intros H; cbn; [apply conly_ret|].
  apply conly_bind; [apply H; left; reflexivity|]. intros _. apply IH. intros b Hb. apply H. right. assumption.
Qed.
Lemma conly_mapM {A B} (f : A -> M B) l : (forall a, In a l -> conly (f a)) -> conly (mapM f l).
Proof.
  induction l as [|a l IH]; intros H; cbn; [apply conly_ret|].
  apply conly_bind; [apply H; left; reflexivity|]. intros b.
  apply conly_bind; [apply IH; intros c Hc; apply H; right; assumption|]. intros; apply conly_ret.
Qed.
Lemma conly_enum s l : conly (enum_cache s l).
Proof.
  apply conly_mapM_. intros [i y] _. apply conly_set_cache. cbn. lia.
Qed.
Lemma conly_force x : conly (force_cache_update x).
Proof.
  apply conly_gets_bind. intros h C. destruct (nprt (hnode h x)) as [pl|]; [|apply ceq_refl].
  apply (conly_bind (enum_cache _ _)); [apply conly_enum| |assumption]. intros _.
  destruct (nfams _); [|apply conly_throw]. apply conly_mapM_. intros; apply conly_enum.
Qed.

Lemma dget_dset_cnt cnt t v u : dget_cnt (dset_cnt cnt t v) u =
  if pyval_eqb t u then Some v else dget_cnt cnt u.
Proof.
  induction cnt as [|[k w] d IH]; cbn; [reflexivity|].
  destruct (pyval_eqb k t) eqn:E; cbn.
  - apply pyval_eqb_eq in E as ->. destruct (pyval_eqb t u); reflexivity.
  - rewrite IH. destruct (pyval_eqb k u) eqn:E2; [|reflexivity].
    apply pyval_eqb_eq in E2 as ->. rewrite pyval_eqb_sym, E. reflexivity.
Qed.
Lemma conly_keys_loop l : forall cnt, (forall t c, dget_cnt cnt t = Some c -> (-1 <= c)%Z) ->
  conly (keys_loop cnt l).
Proof.
  induction l as [|x l IH]; intros cnt H; cbn [keys_loop]; [apply conly_ret|].
  apply conly_gets_bind. intros h C.
  destruct (dget_cnt cnt (ntag (hnode h x))) as [c|] eqn:E; [|apply ceq_refl].
  apply (conly_bind (set_cache TypeError SFam x (c + 1))); [| |assumption].
  - apply conly_set_cache. specialize (H _ _ E). lia.
  - intros _. apply conly_bind; [|intros; apply conly_ret]. apply IH.
    intros t c'. rewrite dget_dset_cnt. destruct (pyval_eqb _ t).
    + intros [= <-]. specialize (H _ _ E). lia.
    + apply H.
Qed.
Lemma conly_items_view p : conly (items_view p).
Proof.
  apply conly_gets_bind. intros h C. destruct (nfams (hnode h p)) as [d|]; [|apply ceq_refl].
  apply conly_keys_loop; [|assumption]. intros t c. clear C. induction d as [|[k w] d IH]; cbn; [discriminate|].
  destruct (pyval_eqb k t); [intros [= <-]; lia|assumption].
Qed.
Lemma conly_keys_view p : conly (keys_view p).
Proof. apply conly_bind; [apply conly_items_view|]. intros; apply conly_ret. Qed.
Lemma conly_sorted_heads p o : conly (sorted_heads p o).
Proof.
  apply conly_gets_bind. intros h C. destruct (nfams (hnode h p)) as [d|]; [|apply ceq_refl].
  revert h C. apply (conly_bind (lift _)); [apply conly_lift|]. intros hs.
  apply conly_bind; [apply conly_mapM; intros; apply conly_idx|]. intros; apply conly_ret.
Qed.
Lemma conly_tags_view p o : conly (tags_view p o).
Proof.
  apply conly_gets_bind. intros h C. destruct (nitems (hnode h p)) as [|a [|b r]]; try apply ceq_refl.
  destruct (nfams (hnode h p)) as [d|]; [|apply ceq_refl].
  cbv beta iota zeta. match goal with |- context[Nat.eqb ?a ?b] => destruct (Nat.eqb a b) end; [apply ceq_refl|].
  apply (conly_bind (sorted_heads p o)); [apply conly_sorted_heads|intros; apply conly_ret|assumption].
Qed.
Lemma conly_families_view p o : conly (families_view p o).
Proof.
  apply conly_gets_bind. intros h C. destruct (nitems (hnode h p)); [apply ceq_refl|].
  apply (conly_bind (sorted_heads p o)); [apply conly_sorted_heads| |assumption].
  intros hs. apply conly_mapM. intros x _. apply conly_bind; [apply conly_getitem_fam|].
  intros; apply conly_ret.
Qed.
Lemma conly_idx_path fuel : forall x, conly (idx_path fuel x).
Proof.
  induction fuel as [|f IH]; intros x; cbn [idx_path]; [apply conly_throw|].
  apply conly_gets_bind. intros h C. destruct (nprt (hnode h x)) as [pl|]; [|apply ceq_refl].
  apply (conly_bind (idx_or_type_error x)); [apply conly_idx| |assumption]. intros i.
  apply conly_bind; [apply IH|]. intros; apply conly_ret.
Qed.
Lemma conly_tag_idx_path fuel : forall x, conly (tag_idx_path fuel x).
Proof.
  induction fuel as [|f IH]; intros x; cbn [tag_idx_path]; [apply conly_throw|].
  apply conly_gets_bind. intros h C. destruct (nprt (hnode h x)) as [pl|]; [|apply ceq_refl].
  apply (conly_bind (get_tag_idx x)); [apply conly_get_tag_idx| |assumption]. intros i.
  apply conly_bind; [apply IH|]. intros; apply conly_ret.
Qed.
Lemma conly_pre x : conly (pre_item x).
Proof.
  apply conly_gets_bind. intros h C. destruct (nprt (hnode h x)) as [pl|]; [|apply ceq_refl].
  apply (conly_bind (idx_or_type_error x)); [apply conly_idx| |assumption]. intros i.
  destruct (i - 1 <? 0)%Z; [apply conly_ret|]. destruct (list_at _ _); [apply conly_ret|apply conly_throw].
Qed.
Lemma conly_post x : conly (post_item x).
Proof.
  apply conly_gets_bind. intros h C. destruct (nprt (hnode h x)) as [pl|]; [|apply ceq_refl].
  apply (conly_bind (idx_or_type_error x)); [apply conly_idx| |assumption]. intros i. cbv zeta.
  destruct (i + 1 <? _)%Z; [|apply conly_ret]. destruct (list_at _ _); [apply conly_ret|apply conly_throw].
Qed.

(** * Invariant preservation, all outcomes *)
Definition WFp {A} (m : M A) : Prop := forall h, WF h -> WF (fst (m h)).
Lemma conly_WFp {A} (m : M A) : conly m -> WFp m.
Proof. intros H h W. eapply ceq_WF; [apply H, (wf_caches _ W)|assumption]. Qed.
Lemma WFp_bind {A B} (m : M A) (k : A -> M B) : WFp m -> (forall a, WFp (k a)) -> WFp (bind m k).
Proof.
  intros Hm Hk h W. unfold bind. specialize (Hm h W). destruct (m h) as [h1 [a|e]]; cbn in *; [|assumption].
  apply Hk. assumption.
Qed.
Lemma WFp_gets_bind {A B} (f : heap -> A) (k : A -> M B) :
  (forall h, WF h -> WF (fst (k (f h) h))) -> WFp (bind (gets f) k).
Proof. intros H h W. apply H. assumption. Qed.
Lemma WFp_ret {A} (a : A) : WFp (ret a). Proof. intros h W. exact W. Qed.
Lemma WFp_throw {A} e : WFp (@throw A e). Proof. intros h W. exact W. Qed.
Lemma WFp_mapM_ {A} (f : A -> M unit) l : (forall a, In a l -> WFp (f a)) -> WFp (mapM_ f l).
Proof.
  induction l as [|a l IH]; intros H; cbn; [apply WFp_ret|].
  apply WFp_bind; [apply H; left; reflexivity|]. intros _. apply IH. intros b Hb. apply H. right. assumption.
Qed.
Lemma WFp_mapM {A B} (f : A -> M B) l : (forall a, In a l -> WFp (f a)) -> WFp (mapM f l).
Proof.
  induction l as [|a l IH]; intros H; cbn; [apply WFp_ret|].
  apply WFp_bind; [apply H; left; reflexivity|]. intros b.
  apply WFp_bind; [apply IH; intros c Hc; apply H; right; assumption|]. intros; apply WFp_ret.
Qed.

(** updates of value, flags, coupled object, link record keep the invariant *)
Definition benign (f : node -> node) : Prop := forall n,
  ntag (f n) = ntag n /\ nprt (f n) = nprt n /\ nitems (f n) = nitems n /\
  nfams (f n) = nfams n /\ nbound (f n) = nbound n /\
  (forall k, nlink (f n) = Some k -> lk_cover k = None \/ nlink n = Some k \/
     exists k0, nlink n = Some k0 /\ lk_cover k0 = lk_cover k).
Lemma WFp_upd_benign x f : benign f -> WFp (upd x f).
Proof.
  intros B h W. cbn. set (h' := hmod h x f).
  assert (E : forall y, ntag (hnode h' y) = ntag (hnode h y) /\ nprt (hnode h' y) = nprt (hnode h y) /\
     nitems (hnode h' y) = nitems (hnode h y) /\ nfams (hnode h' y) = nfams (hnode h y) /\
     nbound (hnode h' y) = nbound (hnode h y)).
  { intros y. subst h'. destruct (Nat.eq_dec y x) as [->|Hy]; hnodes; [|auto 6].
    destruct (B (hnode h x)) as (H1 & H2 & H3 & H4 & H5 & _). auto. }
  split.
  - eapply Forest_ext; [|apply (wf_forest _ W)]. intros y.
    destruct (E y) as (_ & E2 & E3 & _). unfold view. cbn [a_parent a_children]. rewrite E2, E3. auto.
  - intros y pl. destruct (E y) as (_ & -> & _). apply (wf_caches _ W).
  - intros q. pose proof (wf_fams _ W q) as G. unfold node_fam_ok in *.
    destruct (E q) as (_ & _ & -> & -> & ->). destruct (nbound (hnode h q)); auto.
    destruct G as (d & Ed & Hd). exists d. split; [assumption|].
    eapply fam_ok_ext; [|exact Hd]. intros y _. destruct (E y) as (-> & _). reflexivity.
  - intros y k. subst h'. destruct (Nat.eq_dec y x) as [->|Hy]; hnodes; [|apply (wf_cover _ W)].
    intros Ek. destruct (B (hnode h x)) as (_ & _ & _ & _ & _ & Hl).
    destruct (Hl k Ek) as [|[H|(k0 & H0 & H1)]]; [assumption|eapply (wf_cover _ W); eauto|].
    rewrite <- H1. eapply (wf_cover _ W); eauto.
Qed.
Lemma benign_val v : benign (set_val v). Proof. intros n. cbn. auto 10. Qed.
Lemma benign_flg (g : node -> Z) : benign (fun n => set_flg (g n) n). Proof. intros n. cbn. auto 10. Qed.
Lemma benign_coupled c : benign (set_coupled c). Proof. intros n. cbn. auto 10. Qed.

(** allocation *)
Lemma halloc_WF h t v fl lk : WF h -> (forall k, lk = Some k -> lk_cover k = None) ->
  WF (fst (halloc h (fresh_node t v fl lk))).
Proof.
  intros W Hlk. cbn [halloc fst].
  set (h' := HP _ _).
  assert (Hn : hnode h' (hnext h) = fresh_node t v fl lk) by (cbn; rewrite Nat.eqb_refl; reflexivity).
  assert (Ho : forall y, y <> hnext h -> hnode h' y = hnode h y).
  { intros y Hy. cbn. destruct (Nat.eqb_spec y (hnext h)); congruence. }
  pose proof (wf_forest _ W) as F.
  destruct (fo_alloc _ _ F (hnext h) (le_n _)) as [Fc Fp]. cbn in Fc, Fp.
  assert (Hpc : forall y, a_parent (view h y) = a_parent (view h' y) /\
                          a_children (view h y) = a_children (view h' y)).
  { intros y. unfold view. destruct (Nat.eq_dec y (hnext h)) as [->|Hy].
    - rewrite Hn. cbn. auto.
    - rewrite (Ho y Hy). auto. }
  split.
  - apply (Forest_mono (hnext h)); [cbn; lia|]. eapply Forest_ext; [exact Hpc|exact F].
  - intros y pl. destruct (Nat.eq_dec y (hnext h)) as [->|Hy]; [rewrite Hn; discriminate|].
    rewrite (Ho y Hy). apply (wf_caches _ W).
  - intros q. unfold node_fam_ok. destruct (Nat.eq_dec q (hnext h)) as [->|Hq]; [rewrite Hn; cbn; auto|].
    rewrite (Ho q Hq). pose proof (wf_fams _ W q) as G. unfold node_fam_ok in G.
    destruct (nbound (hnode h q)); auto. destruct G as (d & Ed & Hd). exists d. split; [assumption|].
    eapply fam_ok_ext; [|exact Hd]. intros y Hy.
    assert (y < hnext h).
    { eapply Forest_child_lt; [exact F|]. exact Hy. }
    rewrite Ho; [reflexivity|lia].
  - intros y k. destruct (Nat.eq_dec y (hnext h)) as [->|Hy]; [rewrite Hn; cbn; auto|].
    rewrite (Ho y Hy). apply (wf_cover _ W).
Qed.
Lemma halloc_node h n y : hnode (fst (halloc h n)) y = if Nat.eqb y (hnext h) then n else hnode h y.
Proof. reflexivity. Qed.
Lemma WFp_new_item t v fl lk : (forall k, lk = Some k -> lk_cover k = None) -> WFp (new_item t v fl lk).
Proof. intros H h W. apply (halloc_WF h t v fl lk W H). Qed.

(** deletion *)
Lemma WFp_del_int p i : WFp (del_int p i).
Proof.
  intros h W. destruct (del_exn h p i) as [e|] eqn:Ee.
  - rewrite (del_int_err h p i e Ee). assumption.
  - pose proof Ee as Ee'. unfold del_exn in Ee'.
    destruct (tree_protected h p && negb (is_link_root h p)); [discriminate|].
    destruct (nitems (hnode h p)) as [|a l] eqn:Ei; [discriminate|]. rewrite <- Ei in Ee'.
    destruct (py_idx (length (nitems (hnode h p))) i) as [k|] eqn:Ek; [|discriminate].
    destruct (nth_error (nitems (hnode h p)) k) as [x|] eqn:Ex; [|discriminate].
    destruct (del_int_ok h p i k x W Ee Ek Ex) as (h' & -> & Q). cbn.
    eapply ceq_WF; [exact Q|]. apply mk_detach_WF; assumption.
Qed.
Lemma WFp_check_del p : WFp (check_del p).
Proof.
  apply conly_WFp, conly_pure. intros h. unfold check_del. rewrite bind_gets.
  destruct (tree_protected h p); [|reflexivity]. destruct (is_link_root h p); reflexivity.
Qed.
Definition not_slice (tg : target) : Prop := match tg with TgSlice _ _ => False | _ => True end.
Lemma WFp_delitem p tg : not_slice tg -> WFp (delitem p tg).
Proof.
  intros Hs. unfold delitem.
  set (gen := bind (check_del p) _).
  assert (Hgen : WFp gen).
  { apply WFp_bind; [apply WFp_check_del|]. intros b. apply WFp_gets_bind. intros h W.
    destruct (nitems (hnode h p)); [exact W|]. destruct (getitem h p tg) as [[x|xs]|e]; [| |exact W].
    - revert h W. apply WFp_bind; [apply conly_WFp, conly_idx|]. intros i.
      apply WFp_bind; [apply WFp_del_int|]. intros; apply WFp_ret.
    - revert h W. apply WFp_bind; [|intros; apply WFp_ret]. apply WFp_mapM. intros x _.
      apply WFp_bind; [apply conly_WFp, conly_idx|]. intros i. apply WFp_del_int. }
  destruct tg as [v| | | | | |]; try exact Hgen; [|destruct Hs].
  destruct v; try exact Hgen. apply WFp_bind; [apply WFp_del_int|]. intros; apply WFp_ret.
Qed.
Lemma WFp_remove p x : WFp (remove p x).
Proof.
  apply WFp_gets_bind. intros h W. destruct (nprt (hnode h x)) as [pl|]; [|exact W].
  destruct (Nat.eqb _ _); [|exact W]. revert h W.
  apply WFp_bind; [apply conly_WFp, conly_idx|]. intros i. apply WFp_del_int.
Qed.
Lemma WFp_pop_n n p i : WFp (pop_n n p i).
Proof.
  induction n as [|n IH]; cbn; [apply WFp_ret|].
  apply WFp_bind; [apply WFp_del_int|]. intros x. apply WFp_bind; [apply IH|]. intros; apply WFp_ret.
Qed.
