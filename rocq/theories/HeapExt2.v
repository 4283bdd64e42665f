(** extend, extend(iTree), extendleft on whole heaps; no orphans. *)
From Verif Require Import Base Heap HeapSpec ListLemmas ForestLemmas HeapInv HeapAttach
  HeapOps HeapOps2 HeapOps3 HeapHoare Tree HeapTree HeapCopy HeapMut HeapExt.

(** * NoOrphan *)
Lemma NoOrphan_same s s' : same s s' -> NoOrphan s -> NoOrphan s'.
Proof. intros H N x p. rewrite <- !H. apply N. Qed.
Lemma NoOrphan_new h t v fl lk : NoOrphan (view h) -> Forest (hnext h) (view h) ->
  NoOrphan (view (fst (halloc h (fresh_node t v fl lk)))).
Proof.
  intros N F. eapply NoOrphan_same; [apply same_sym; apply new_item_view|].
  intros x p. destruct (Nat.eqb_spec x (hnext h)) as [->|]; [discriminate|].
  intros H. pose proof (fo_par _ _ F _ _ H). destruct (Nat.eqb_spec p (hnext h)); [lia|]. apply N. assumption.
Qed.
Definition WFN (h : heap) : Prop := WF h /\ NoOrphan (view h).
Definition WFNp {A} (m : M A) : Prop := forall h, WFN h -> WFN (fst (m h)).

Lemma ceq_WFN h h' : ceq h h' -> WFN h -> WFN h'.
Proof.
  intros Q [W N]. split; [eapply ceq_WF; eauto|]. eapply NoOrphan_same; [|exact N].
  apply same_sym, ceq_view_same. assumption.
Qed.
Lemma conly_WFNp {A} (m : M A) : conly m -> WFNp m.
Proof. intros H h W. eapply ceq_WFN; [|exact W]. apply H. apply (wf_caches _ (proj1 W)). Qed.
Lemma WFNp_bind {A B} (m : M A) (k : A -> M B) : WFNp m -> (forall a, WFNp (k a)) -> WFNp (bind m k).
Proof. intros H1 H2 h W. specialize (H1 h W). unfold bind. destruct (m h) as [h1 [a|e]]; [apply H2|]; assumption. Qed.
Lemma WFNp_ret {A} (a : A) : WFNp (ret a). Proof. intros h W. exact W. Qed.
Lemma WFNp_throw {A} e : WFNp (@throw A e). Proof. intros h W. exact W. Qed.
Lemma WFNp_mapM {A B} (f : A -> M B) l : (forall a, In a l -> WFNp (f a)) -> WFNp (mapM f l).
Proof.
  induction l as [|x l IH]; intros H; [apply WFNp_ret|]. cbn. apply WFNp_bind; [apply H; left; reflexivity|].
  intros a. apply WFNp_bind; [apply IH; intros b Hb; apply H; right; assumption|]. intros b. apply WFNp_ret.
Qed.

Lemma mk_attach_WFN h p x k : WFN h -> attachable h p x -> WFN (mk_attach h p x k).
Proof.
  intros [W N] A. split; [apply mk_attach_WF; assumption|].
  eapply NoOrphan_same; [apply same_sym; apply mk_attach_view; eapply attachable_ne; eauto|].
  eapply attach_NoOrphan; [apply (wf_forest _ W)|assumption|apply prt_none; apply A|eapply attachable_ne; eauto].
Qed.
Lemma mk_detach_WFN h p x k : WFN h -> nth_error (nitems (hnode h p)) k = Some x -> WFN (mk_detach h p x k).
Proof.
  intros [W N] A. split; [apply mk_detach_WF; assumption|].
  eapply NoOrphan_same; [apply same_sym; apply mk_detach_view; eapply WF_child_ne; eauto|].
  eapply detach_NoOrphan; [apply (wf_forest _ W)|assumption|assumption].
Qed.
Lemma append_fresh_WFN h p t v fl lk : WFN h -> p < hnext h -> (forall k, lk = Some k -> lk_cover k = None) ->
  exists h', append_core p (hnext h) (fst (halloc h (fresh_node t v fl lk))) = (h', Ok tt) /\ WFN h' /\
    hnext h' = S (hnext h).
Proof.
  intros [W N] Hp Hlk. set (h1 := fst (halloc h (fresh_node t v fl lk))).
  assert (W1 : WF h1) by (apply halloc_WF; assumption).
  assert (N1 : NoOrphan (view h1)) by (apply NoOrphan_new; [assumption|apply (wf_forest _ W)]).
  assert (A : attachable h1 p (hnext h)).
  { split; [cbn; rewrite Nat.eqb_refl; reflexivity|]. split; [cbn; lia|]. split; [cbn; lia|].
      intros HA. apply (Anc_ext _ (view h)) in HA.
      + eapply fresh_not_anc; [apply (wf_forest _ W)|apply le_n| |exact HA]. lia.
      + intros y. unfold h1. rewrite (new_item_view h t v fl lk y).
        destruct (Nat.eqb_spec y (hnext h)) as [->|]; [|reflexivity]. cbn.
        symmetry. apply (fo_alloc _ _ (wf_forest _ W) (hnext h) (le_n _)). }
  destruct (append_core_ok h1 W1 p _ A) as (h' & E & Q). exists h'. split; [exact E|].
  split; [eapply ceq_WFN; [exact Q|apply mk_attach_WFN; [split|]; assumption]|].
  rewrite (ceq_next _ _ Q). reflexivity.
Qed.

Lemma copy_node_WFN x h : WFN h -> match copy_node x h with
  | (h', Ok c) => exists t v fl lk, h' = fst (halloc h (fresh_node t v fl lk)) /\ c = hnext h /\
                     (forall k, lk = Some k -> lk_cover k = None)
  | (h', Err _) => h' = h end.
Proof.
  intros [W N]. unfold copy_node. rewrite bind_gets. unfold copy_args. cbv beta iota zeta.
  destruct (has (nflags (hnode h x)) LINK_ROOT && _); [reflexivity|].
  unfold new_item. cbv beta iota zeta delta [halloc]. do 4 eexists. split; [reflexivity|]. split; [reflexivity|].
  destruct (has (nflags (hnode h x)) LINK_ROOT); [|discriminate].
  destruct (nlink (hnode h x)); [|discriminate]. intros k [= <-]. reflexivity.
Qed.
Lemma copy_children_WFN fuel : forall src dst h, WFN h -> dst < hnext h ->
  WFN (fst (copy_children fuel src dst h)) /\ hnext h <= hnext (fst (copy_children fuel src dst h)).
Proof.
  induction fuel as [|f IH]; intros src dst h W Hd; [split; [exact W|apply le_n]|].
  cbn [copy_children]. rewrite bind_gets. generalize (nitems (hnode h src)) as l. intros l.
  revert h W Hd. induction l as [|c l IHl]; intros h W Hd; [split; [exact W|apply le_n]|]. cbn [mapM_].
  pose proof (copy_node_WFN c h W) as Hc. destruct (copy_node c h) as [h1 [c'|e]] eqn:Ec.
  - destruct Hc as (t & v & fl & lk & -> & -> & Hlk).
    destruct (append_fresh_WFN h dst t v fl lk W Hd Hlk) as (h2 & E2 & W2 & N2).
    destruct (IH c (hnext h) h2 W2 ltac:(lia)) as [W3 N3].
    destruct (copy_children f c (hnext h) h2) as [h3 [[]|e]] eqn:E3; cbn [fst] in W3, N3.
    + erewrite bind_ok.
      2:{ rewrite (bind_ok _ _ _ _ _ Ec), (bind_ok _ _ _ _ _ E2). exact E3. }
      destruct (IHl h3 W3 ltac:(lia)) as [W4 N4]. split; [assumption|]. lia.
    + erewrite bind_err.
      2:{ rewrite (bind_ok _ _ _ _ _ Ec), (bind_ok _ _ _ _ _ E2). exact E3. }
      cbn. split; [assumption|lia].
  - subst h1. erewrite bind_err; [|apply (bind_err _ _ _ _ _ Ec)]. split; [exact W|apply le_n].
Qed.
Lemma copy_item_WFN x : WFNp (copy_item x).
Proof.
  intros h W. unfold copy_item. rewrite bind_gets.
  pose proof (copy_node_WFN x h W) as Hc. destruct (copy_node x h) as [h1 [c'|e]] eqn:Ec.
  - rewrite (bind_ok _ _ _ _ _ Ec). destruct Hc as (t & v & fl & lk & -> & -> & Hlk).
    set (h1 := fst (halloc h (fresh_node t v fl lk))).
    assert (W1 : WFN h1) by (split; [apply halloc_WF; [apply W|assumption]|apply NoOrphan_new; [apply W|apply (wf_forest _ (proj1 W))]]).
    destruct (copy_children_WFN (S (hnext h)) x (hnext h) h1 W1 ltac:(cbn; lia)) as [W2 _].
    unfold bind. destruct (copy_children (S (hnext h)) x (hnext h) h1) as [h2 [[]|e]]; exact W2.
  - subst h1. rewrite (bind_err _ _ _ _ _ Ec). exact W.
Qed.

Lemma ext_item_WFN e : WFNp (ext_item e).
Proof.
  intros h W. destruct e as [x|t v|v]; cbn [ext_item].
  - rewrite bind_gets. destruct (nprt (hnode h x)); [apply copy_item_WFN; assumption|exact W].
  - destruct (hashable t); [|exact W]. split; [apply halloc_WF; [apply W|discriminate]|apply NoOrphan_new; [apply W|apply (wf_forest _ (proj1 W))]].
  - split; [apply halloc_WF; [apply W|discriminate]|apply NoOrphan_new; [apply W|apply (wf_forest _ (proj1 W))]].
Qed.
Lemma ext_step_WFN h p e : WFN h -> p < hnext h -> nbound (hnode h p) = Current -> earg_ok h p e ->
  WFN (fst (ext_step p e h)).
Proof.
  intros W Hp Hb He. destruct (ext_item_case h p e (proj1 W) Hp He) as (h1 & r & E & W1 & Hn & Fr & R).
  pose proof (ext_item_WFN e h W) as WN1. rewrite E in WN1. cbn [fst] in WN1.
  unfold ext_step. destruct r as [c|er]; [|rewrite (bind_err _ _ _ _ _ E); exact WN1].
  rewrite (bind_ok _ _ _ _ _ E), bind_gets. destruct R as (A & El & Hc).
  destruct (ext_attach_ok h1 W1 p c A) as (h2 & E2 & Q2); [destruct (Fr p Hp) as [_ ->]; assumption|].
  cbv zeta in E2. cbv zeta. rewrite E2. eapply ceq_WFN; [exact Q2|]. apply mk_attach_WFN; assumption.
Qed.

(** guard of the remaining elements after one round *)
Lemma earg_ok_step h p e h' : WF h -> p < hnext h -> nbound (hnode h p) = Current -> earg_ok h p e ->
  ext_step p e h = (h', Ok tt) -> hnext h <= hnext h' /\ nbound (hnode h' p) = Current /\
  (forall e', earg_ok h p e' -> earg_ok h' p e').
Proof.
  intros W Hp Hb He E. destruct (ext_step_case h p e W Hp Hb He) as (h'' & r & E' & W' & Hn & Hb' & R).
  rewrite E in E'. injection E' as <- <-. split; [assumption|]. split; [assumption|].
  destruct R as (c & _ & Hcp & _ & Vp & _ & Fr & _ & HA).
  intros [x|t v|v]; cbn [earg_ok]; auto. intros [Hx H]. split; [lia|]. intros Hpar HAx.
  apply HA in HAx. revert HAx. apply H. destruct (Nat.eq_dec x p) as [->|Hxp].
  - unfold parent_of in *. rewrite Vp in Hpar. exact Hpar.
  - unfold parent_of in *. rewrite Fr in Hpar by assumption.
    destruct (Nat.eqb_spec x c) as [->|]; [discriminate|assumption].
Qed.
Lemma ext_loop_WFN p es : forall h, WFN h -> p < hnext h -> nbound (hnode h p) = Current ->
  Forall (earg_ok h p) es -> WFN (fst (mapM_ (ext_step p) es h)).
Proof.
  induction es as [|e es IH]; intros h W Hp Hb HF; [exact W|]. inversion HF as [|? ? He HF']; subst.
  pose proof (ext_step_WFN h p e W Hp Hb He) as W1. cbn [mapM_].
  destruct (ext_step p e h) as [h' [[]|er]] eqn:E; cbn [fst] in W1; [|rewrite (bind_err _ _ _ _ _ E); exact W1].
  rewrite (bind_ok _ _ _ _ _ E). destruct (earg_ok_step h p e h' (proj1 W) Hp Hb He E) as (H1 & H2 & H3).
  apply IH; [assumption|lia|assumption|]. eapply Forall_impl; [|exact HF']. exact H3.
Qed.

(** * extend *)
Lemma same_view_fams h p d b : same (view (hmod h p (set_fams d b))) (view h).
Proof. intros y. unfold view. cbn. destruct (Nat.eqb y p); reflexivity. Qed.
Lemma set_fams_WF h p : WF h -> nitems (hnode h p) = [] -> WF (hmod h p (set_fams (Some []) Current)).
Proof.
  intros W Hi. split.
  - eapply Forest_ext; [|apply (wf_forest _ W)]. intros y. rewrite (same_view_fams h p (Some []) Current y). auto.
  - intros x pl. cbn. destruct (Nat.eqb x p); apply (wf_caches _ W).
  - intros q. unfold node_fam_ok. cbn.
    assert (T : forall y, ntag ((if Nat.eqb y p then set_fams (Some []) Current (hnode h y) else hnode h y)) = ntag (hnode h y))
      by (intros y; destruct (Nat.eqb y p); reflexivity).
    destruct (Nat.eqb_spec q p) as [->|].
    + cbn. exists []. split; [reflexivity|]. rewrite Hi. split; [constructor|reflexivity].
    + pose proof (wf_fams _ W q) as Hq. unfold node_fam_ok in Hq. destruct (nbound (hnode h q)); auto.
      destruct Hq as (d & Ed & Hd). exists d. split; [assumption|]. eapply fam_ok_ext; [|exact Hd]. intros y _. symmetry. apply T.
  - intros x k. cbn. destruct (Nat.eqb x p); apply (wf_cover _ W).
Qed.
Lemma check_extend_pure p es h : fst (check_extend p es h) = h.
Proof.
  unfold check_extend. rewrite bind_gets. destruct (tree_protected h p); [|reflexivity].
  destruct (is_link_root h p); [|reflexivity]. destruct (nlink (hnode h p)) as [k|]; [|reflexivity].
  destruct (lk_loaded k && _); reflexivity.
Qed.

(** the heap in which the loop of iter_extend starts *)
Definition ext_start (h : heap) (p : loc) : heap :=
  match nitems (hnode h p) with [] => hmod h p (set_fams (Some []) Current) | _ => h end.
Lemma iter_extend_start p es h : iter_extend p es h = mapM_ (ext_step p) es (ext_start h p).
Proof.
  unfold iter_extend, ext_start. rewrite bind_gets. destruct (nitems (hnode h p)); [|rewrite bind_ret; reflexivity].
  rewrite bind_upd. reflexivity.
Qed.
Lemma ext_start_ok h p : WF h -> WF (ext_start h p) /\ nbound (hnode (ext_start h p) p) = Current /\
  hnext (ext_start h p) = hnext h /\ same (view (ext_start h p)) (view h) /\
  (forall y, y <> p -> hnode (ext_start h p) y = hnode h y).
Proof.
  intros W. unfold ext_start. destruct (nitems (hnode h p)) as [|i0 ir] eqn:Ei.
  - split; [apply set_fams_WF; assumption|]. split; [rewrite hmod_same; reflexivity|]. split; [reflexivity|].
    split; [apply same_view_fams|]. intros y Hy. apply hmod_other. assumption.
  - destruct (WF_fam h p PNone W ltac:(congruence)) as (d & _ & Eb & _). split; [assumption|]. split; [assumption|].
    split; [reflexivity|]. split; [apply same_refl|reflexivity].
Qed.
Lemma earg_ok_same h h1 p e : hnext h1 = hnext h -> same (view h1) (view h) -> earg_ok h p e -> earg_ok h1 p e.
Proof.
  intros Hn V. destruct e as [x|t v|v]; cbn [earg_ok]; auto. intros [Hx H]. split; [lia|].
  unfold parent_of. rewrite V. intros Hp HA. apply (H Hp). eapply Anc_same; eauto.
Qed.
Lemma earg_far_same h h1 p e : hnext h1 = hnext h -> same (view h1) (view h) -> earg_far h p e -> earg_far h1 p e.
Proof.
  intros Hn V. destruct e as [x|t v|v]; cbn [earg_far]; auto. intros [Hx H]. split; [lia|].
  intros HA. apply H. eapply Anc_same; eauto.
Qed.
Lemma ltree_same s s' T : same s s' -> ltree s T -> ltree s' T.
Proof. intros V. apply ltree_frame. intros y _. rewrite V. reflexivity. Qed.
Lemma label_same s s' y : same s s' -> label s y = label s' y.
Proof. intros V. unfold label. rewrite V. reflexivity. Qed.
Lemma elem_same s1 s s' n n' e c : same s1 s -> elem s1 s' n n' e c -> elem s s' n n' e c.
Proof.
  intros V. destruct e as [x|t v|v]; cbn; auto. rewrite V. intros [A|[A (T & T' & HT & Er & HT' & Ec & Lab & Rng)]]; [left; auto|right].
  split; [assumption|]. exists T, T'. split; [eapply ltree_same; eauto|]. split; [assumption|]. split; [assumption|].
  split; [assumption|]. split; [|assumption]. rewrite Lab. apply tmap_ext. intros y _. f_equal. apply label_same. assumption.
Qed.
Lemma extended_same s1 s s' n n' p es cs : same s1 s -> extended s1 s' n n' p es cs -> extended s s' n n' p es cs.
Proof.
  intros V (X1 & X2 & X3). split; [rewrite <- V; exact X1|]. split.
  - eapply Forall2_impl_in; [|exact X2]. intros a b _. apply elem_same. assumption.
  - intros y Hy Hyp. rewrite X3 by assumption. rewrite V.
    replace (filter (is_free s1) (eitems es)) with (filter (is_free s) (eitems es)); [reflexivity|].
    apply filter_ext. intros z. unfold is_free. rewrite V. reflexivity.
Qed.

Lemma iter_extend_WF h p es : WF h -> p < hnext h -> Forall (earg_ok h p) es -> WF (fst (iter_extend p es h)).
Proof.
  intros W Hp HF. rewrite iter_extend_start. destruct (ext_start_ok h p W) as (W1 & B1 & N1 & V1 & _).
  apply ext_loop_WF; [assumption|lia|assumption|]. eapply Forall_impl; [|exact HF]. intros e. apply earg_ok_same; assumption.
Qed.
Lemma iter_extend_WFN h p es : WFN h -> p < hnext h -> Forall (earg_ok h p) es -> WFN (fst (iter_extend p es h)).
Proof.
  intros [W N] Hp HF. rewrite iter_extend_start. destruct (ext_start_ok h p W) as (W1 & B1 & N1 & V1 & _).
  apply ext_loop_WFN; [split; [assumption|]|lia|assumption|].
  - eapply NoOrphan_same; [apply same_sym; exact V1|exact N].
  - eapply Forall_impl; [|exact HF]. intros e. apply earg_ok_same; assumption.
Qed.
Lemma iter_extend_ok h p es : WF h -> p < hnext h -> Forall (earg_far h p) es -> NoDup (eitems es) ->
  exists h' r, iter_extend p es h = (h', r) /\ WF h' /\ hnext h <= hnext h' /\
    match r with
    | Ok _ => exists cs, extended (view h) (view h') (hnext h) (hnext h') p es cs
    | Err _ => exists es1 es2 cs, es = es1 ++ es2 /\ extended (view h) (view h') (hnext h) (hnext h') p es1 cs
    end.
Proof.
  intros W Hp HF Hnd. rewrite iter_extend_start. destruct (ext_start_ok h p W) as (W1 & B1 & N1 & V1 & _).
  destruct (ext_loop p es (ext_start h p) W1 ltac:(lia) B1) as (h' & r & E & W' & Hn & _ & _ & R); [|assumption|].
  { eapply Forall_impl; [|exact HF]. intros e. apply earg_far_same; assumption. }
  rewrite N1 in *. exists h', r. split; [exact E|]. split; [assumption|]. split; [assumption|].
  destruct r as [[]|er].
  - destruct R as (cs & X). exists cs. eapply extended_same; eauto.
  - destruct R as (es1 & es2 & cs & Ees & X). exists es1, es2, cs. split; [assumption|]. eapply extended_same; eauto.
Qed.

Lemma extend_WF h p es : WF h -> p < hnext h -> Forall (earg_ok h p) es -> WF (fst (extend p es h)).
Proof.
  intros W Hp HF. unfold extend. destruct (outcome (check_extend p es) h) as [[]|e] eqn:E.
  - rewrite (bind_ok _ _ _ _ _ (pure_ok _ _ _ (check_extend_pure p es h) E)). apply iter_extend_WF; assumption.
  - rewrite (bind_pure_err _ _ _ _ (check_extend_pure p es h) E). exact W.
Qed.
Lemma extend_WFN h p es : WFN h -> p < hnext h -> Forall (earg_ok h p) es -> WFN (fst (extend p es h)).
Proof.
  intros W Hp HF. unfold extend. destruct (outcome (check_extend p es) h) as [[]|e] eqn:E.
  - rewrite (bind_ok _ _ _ _ _ (pure_ok _ _ _ (check_extend_pure p es h) E)). apply iter_extend_WFN; assumption.
  - rewrite (bind_pure_err _ _ _ _ (check_extend_pure p es h) E). exact W.
Qed.

(** * extend(iTree) *)
Lemma has_land fl m k : Z.land m k = k -> has (Z.land fl m) k = has fl k.
Proof. intros H. unfold has. rewrite <- Z.land_assoc, H. reflexivity. Qed.
Lemma cp_label_idem l : cp_label (cp_label l) = cp_label l.
Proof.
  unfold cp_label. cbn. destruct (has (x_flags l) LINK_ROOT) eqn:E.
  - assert (H : has (Z.lor (Z.land (x_flags l) FLAG_MASK) LINK_ROOT) LINK_ROOT = true).
    { unfold has. rewrite Z.land_lor_distr_l. rewrite Z.land_diag. apply negb_true_iff. apply Z.eqb_neq.
      intros F. apply Z.lor_eq_0_iff in F. destruct F as [_ F]. discriminate F. }
    rewrite H. f_equal. rewrite Z.land_lor_distr_l, <- Z.land_assoc, Z.land_diag.
    change (Z.land LINK_ROOT FLAG_MASK) with LINK_ROOT. rewrite <- Z.lor_assoc, Z.lor_diag. reflexivity.
  - rewrite has_land by reflexivity. rewrite E. f_equal. rewrite <- Z.land_assoc, Z.land_diag. reflexivity.
Qed.
