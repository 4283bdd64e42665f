(** Invariant preservation for the remaining operations, and histories. *)
From Verif Require Import Base Heap HeapSpec ListLemmas ForestLemmas HeapInv HeapAttach HeapOps HeapOps2 HeapOps3 HeapHoare Tree HeapTree HeapCopy HeapMut HeapExt HeapExt2 HeapOrd HeapOrd2 HeapRen HeapMove HeapSet HeapSet2.

Lemma attach_arg_NO h p a k : WFN h -> arg_ok h p a -> arg_free h a ->
  NoOrphan (attach (arg_state (view h) (hnext h) a) p (arg_loc (hnext h) a) k).
Proof.
  intros [W N] Ha Hf. destruct (free_item_ok h p a W Ha Hf) as (h1 & E1 & W1 & A1 & V1 & _ & _).
  assert (N1 : NoOrphan (view h1)).
  { destruct a as [x|v].
    - eapply NoOrphan_same; [apply same_sym; exact V1|exact N].
    - eapply NoOrphan_same; [|apply (NoOrphan_new h PNoTag v 0 None N (wf_forest _ W))].
      eapply same_trans; [apply new_item_view|]. apply same_sym. exact V1. }
  eapply NoOrphan_same; [apply attach_same; exact V1|].
  eapply attach_NoOrphan; [apply (wf_forest _ W1)|exact N1| |eapply attachable_ne; eauto].
  apply prt_none. apply A1.
Qed.

Lemma append_WFN h p a : WFN h -> arg_ok h p a -> WFN (fst (append p a h)).
Proof.
  intros WN Ha. pose proof WN as [W N]. split; [apply append_WF; assumption|].
  destruct (arg_free_dec h a) as [Hf|Hf].
  - destruct (outcome (check_append p a) h) as [[]|e] eqn:E.
    + destruct (append_ok h p a W Ha Hf E) as (h' & -> & _ & V). cbn.
      eapply NoOrphan_same; [apply same_sym; exact V|]. apply attach_arg_NO; assumption.
    + destruct (append_err h p a) as [e' ->]; [left; eauto|exact N].
  - destruct (append_err h p a) as [e' ->]; [right; assumption|exact N].
Qed.
Lemma appendleft_WFN h p a : WFN h -> arg_ok h p a -> WFN (fst (appendleft p a h)).
Proof.
  intros WN Ha. pose proof WN as [W N]. split; [apply appendleft_WF; assumption|].
  destruct (arg_free_dec h a) as [Hf|Hf].
  - destruct (outcome (check_insert p a) h) as [[]|e] eqn:E.
    + destruct (appendleft_ok h p a W Ha Hf E) as (h' & -> & _ & V). cbn.
      eapply NoOrphan_same; [apply same_sym; exact V|]. apply attach_arg_NO; assumption.
    + destruct (appendleft_err h p a) as [e' ->]; [left; eauto|exact N].
  - destruct (appendleft_err h p a) as [e' ->]; [right; assumption|exact N].
Qed.
Lemma arg_state_NO h a : WFN h -> NoOrphan (arg_state (view h) (hnext h) a).
Proof.
  intros [W N]. destruct a as [x|v]; [exact N|].
  eapply NoOrphan_same; [apply new_item_view|]. apply (NoOrphan_new h PNoTag v 0 None N (wf_forest _ W)).
Qed.
Lemma insert_WFN h p it a : WFN h -> arg_ok h p a -> ins_ok h p it a -> WFN (fst (insert p it a h)).
Proof.
  intros WN Ha Hi. pose proof WN as [W N]. split; [apply insert_WF; assumption|].
  destruct (arg_free_dec h a) as [Hf|Hf].
  - destruct (outcome (match it with InsNone => check_append p a | _ => check_insert p a end) h) as [[]|e] eqn:E.
    + destruct (insert_ok h p it a W Ha Hf Hi E) as [H1 H2].
      destruct (ins_place (fst (free_item a h)) p it) as [k|].
      * destruct (H1 k eq_refl) as (h' & -> & W' & V). cbn.
        eapply NoOrphan_same; [apply same_sym; exact V|]. apply attach_arg_NO; assumption.
      * destruct (H2 eq_refl) as (h' & e & -> & W' & V). cbn.
        eapply NoOrphan_same; [apply same_sym; exact V|]. apply arg_state_NO; assumption.
    + unfold insert. destruct it.
      * destruct (append_err h p a) as [e' ->]; [left; eauto|exact N].
      * rewrite (bind_pure_err _ _ _ _ (check_insert_pure p a h) E). exact N.
      * rewrite (bind_pure_err _ _ _ _ (check_insert_pure p a h) E). exact N.
  - unfold insert. destruct it.
    + destruct (append_err h p a) as [e' ->]; [right; assumption|exact N].
    + destruct (outcome (check_insert p a) h) as [[]|e] eqn:E.
      * rewrite (bind_ok _ _ _ _ _ (pure_ok _ _ _ (check_insert_pure p a h) E)).
        rewrite (bind_err _ _ _ _ _ (free_item_err h a Hf)). exact N.
      * rewrite (bind_pure_err _ _ _ _ (check_insert_pure p a h) E). exact N.
    + destruct (outcome (check_insert p a) h) as [[]|e] eqn:E.
      * rewrite (bind_ok _ _ _ _ _ (pure_ok _ _ _ (check_insert_pure p a h) E)).
        rewrite (bind_err _ _ _ _ _ (free_item_err h a Hf)). exact N.
      * rewrite (bind_pure_err _ _ _ _ (check_insert_pure p a h) E). exact N.
Qed.

Lemma NoOrphan_ext s s' :
  (forall y, a_parent (s y) = a_parent (s' y) /\ a_children (s y) = a_children (s' y)) ->
  NoOrphan s -> NoOrphan s'.
Proof.
  intros H N x p Hp. destruct (H x) as [E _]. destruct (H p) as [_ E']. rewrite <- E'. apply N. congruence.
Qed.

Lemma rename_WFN h x t : WFN h -> hashable t = true -> ren_ok h x -> WFN (fst (rename x t h)).
Proof.
  intros [W N] Hash R. split; [apply rename_WF; assumption|].
  assert (Nr : NoOrphan (retag (view h) x t)).
  { eapply NoOrphan_ext; [|exact N]. intros y. unfold retag. destruct (Nat.eqb_spec y x) as [->|]; auto. }
  destruct (parent_of h x) as [p|] eqn:Ep.
  - destruct (R p Ep) as [Hin Hfe]. apply In_nth_error in Hin as [k Hk].
    destruct (outcome (check_rename p x t) h) as [[]|e] eqn:E.
    + destruct (rename_ok h p x k t W Hash Hk Hfe E) as (h' & -> & Q). cbn.
      pose proof (WF_child_ne h p x k W Hk).
      eapply NoOrphan_same; [|exact Nr]. apply same_sym.
      eapply same_trans; [apply ceq_view_same; exact Q|]. apply mk_rename_view. assumption.
    + rewrite (rename_err h p x t e Ep E). exact N.
  - rewrite (rename_root h x t Ep). cbn. eapply NoOrphan_ext; [|exact N]. intros y.
    cbn. unfold view. destruct (Nat.eqb_spec y x) as [->|]; cbn; auto.
Qed.

(** move in general, also below link roots *)
Lemma del_int_out h p i : WF h -> forall h' x, del_int p i h = (h', Ok x) ->
  exists k, py_idx (length (children h p)) i = Some k /\ nth_error (children h p) k = Some x /\
    ceq (mk_detach h p x k) h'.
Proof.
  intros W h' x E. destruct (del_exn h p i) as [e|] eqn:Ee.
  - rewrite (del_int_err h p i e Ee) in E. discriminate.
  - pose proof Ee as Ee'. unfold del_exn in Ee'.
    destruct (tree_protected h p && negb (is_link_root h p)); [discriminate|].
    destruct (nitems (hnode h p)) as [|a l] eqn:Ei; [discriminate|]. rewrite <- Ei in Ee'.
    destruct (py_idx (length (nitems (hnode h p))) i) as [k|] eqn:Ek; [|discriminate].
    destruct (nth_error (nitems (hnode h p)) k) as [y|] eqn:Ex; [|discriminate].
    destruct (del_int_ok h p i k y W Ee Ek Ex) as (h2 & E2 & Q). rewrite E2 in E. injection E as <- <-.
    exists k. auto.
Qed.
Definition mv_guard (h : heap) (x : loc) (tg : option target) : Prop :=
  forall p, parent_of h x = Some p -> In x (children h p) /\ mv_ok h p x tg.

Lemma del_state h g p x k : WF h -> nth_error (nitems (hnode h p)) k = Some x -> ceq (mk_detach h p x k) g ->
  WF g /\ same (view g) (detach (view h) p x k) /\ hnext g = hnext h /\
  arg_ok g p (IItem x) /\ arg_free g (IItem x) /\ (NoOrphan (view h) -> WFN g) /\
  nitems (hnode g p) = remove_at k (nitems (hnode h p)) /\
  (with_tag (view h) p (tag_of h x) = [x] -> with_tag (view g) p (ntag (hnode g x)) = []).
Proof.
  intros W Hk Q. pose proof (WF_child_ne _ _ _ _ W Hk) as Hne.
  assert (V : same (view g) (detach (view h) p x k)).
  { eapply same_trans; [apply ceq_view_same; exact Q|]. apply mk_detach_view; assumption. }
  assert (Nx : hnext g = hnext h) by (rewrite (ceq_next _ _ Q); reflexivity).
  destruct (detached_arg h g p x k W Hk V Nx) as [A1 A2].
  assert (Wg : WF g) by (eapply ceq_WF; [exact Q|]; apply mk_detach_WF; assumption).
  assert (Ei : nitems (hnode g p) = remove_at k (nitems (hnode h p))).
  { change (a_children (view g p) = remove_at k (nitems (hnode h p))). rewrite (V p), detach_children, Nat.eqb_refl. reflexivity. }
  split; [assumption|]. split; [assumption|]. split; [assumption|]. split; [assumption|]. split; [assumption|].
  split; [|split; [assumption|]].
  - intros N. eapply ceq_WFN; [exact Q|]. apply mk_detach_WFN; [split; assumption|assumption].
  - intros Hd. assert (T1 : ntag (hnode g x) = tag_of h x).
    { change (a_tag (view g x) = a_tag (view h x)). rewrite (V x). unfold detach.
      destruct (Nat.eqb_spec x p); [congruence|]. rewrite Nat.eqb_refl. reflexivity. }
    rewrite T1. unfold with_tag. change (a_children (view g p)) with (nitems (hnode g p)). rewrite Ei.
    rewrite (filter_remove_at k x) by (apply (WF_nodup h p W) || assumption). apply filter_nil_iff. intros y Hy.
    destruct (Nat.eqb_spec y x) as [->|Hyx]; [apply andb_false_r|]. rewrite andb_true_r.
    assert (Ty : a_tag (view g y) = a_tag (view h y)).
    { rewrite (V y). unfold detach. destruct (Nat.eqb_spec y p) as [->|]; [reflexivity|]. destruct (Nat.eqb_spec y x) as [->|]; reflexivity. }
    rewrite Ty. destruct (pyval_eqb (a_tag (view h y)) (tag_of h x)) eqn:Et; [|reflexivity]. exfalso.
    assert (K : In y (with_tag (view h) p (tag_of h x))) by (apply filter_In; split; assumption).
    rewrite Hd in K. destruct K as [K|[]]. congruence.
Qed.

Lemma move_inv h x tg : WF h -> mv_guard h x tg ->
  WF (fst (move x tg h)) /\ (NoOrphan (view h) -> NoOrphan (view (fst (move x tg h)))).
Proof.
  intros W G. unfold move. rewrite bind_gets. destruct (nprt (hnode h x)) as [pl|] eqn:Epl; [|split; auto].
  set (p := pl_par pl). cbv zeta.
  assert (Ep : parent_of h x = Some p) by (unfold parent_of; cbn; rewrite Epl; reflexivity).
  destruct (G p Ep) as [Hin [G1 G2]]. apply In_nth_error in Hin as [k Hk].
  change (children h p) with (nitems (hnode h p)) in Hk.
  destruct (outcome (check_move p x) h) as [[]|e] eqn:Ec;
    [rewrite (bind_ok _ _ _ _ _ (pure_ok _ _ _ (check_move_pure p x h) Ec))
    |rewrite (bind_pure_err _ _ _ _ (check_move_pure p x h) Ec); split; auto].
  assert (Del : forall g (K : loc -> M loc), ceq h g ->
     (forall g1 g2, WF g1 -> ceq h g1 -> del_int p (Z.of_nat k) g1 = (g2, Ok x) -> ceq (mk_detach g1 p x k) g2 ->
        (forall m, drift_ok g (nitems (hnode h p)) m -> (0 <= m)%Z -> drift_ok g2 (remove_at k (nitems (hnode h p))) (m + 1)) ->
        WF (fst (K x g2)) /\ (NoOrphan (view h) -> NoOrphan (view (fst (K x g2))))) ->
     WF (fst ((i <- idx_or_type_error x ;; y <- del_int p i ;; K y) g)) /\
     (NoOrphan (view h) -> NoOrphan (view (fst ((i <- idx_or_type_error x ;; y <- del_int p i ;; K y) g))))).
  { intros g K Qg HK. pose proof (ceq_WF _ _ Qg W) as Wg.
    assert (Hkg : nth_error (nitems (hnode g p)) k = Some x) by (rewrite (ceq_items _ _ Qg); assumption).
    destruct (idx_or_type_error_ok g p x k Wg Hkg) as (g1 & E1 & Q1 & Wr).
    pose proof (ceq_trans _ _ _ Qg Q1) as Qg1. pose proof (ceq_WF _ _ Qg1 W) as Wg1.
    rewrite (bind_ok _ _ _ _ _ E1). unfold bind. destruct (del_int p (Z.of_nat k) g1) as [g2 [y|e]] eqn:Ed.
    - destruct (del_int_out g1 p _ Wg1 _ _ Ed) as (k' & Ek' & Hk' & Q2).
      assert (Hlt : k < length (children g1 p)).
      { unfold children. cbn. rewrite (ceq_items _ _ Qg1). eapply nth_error_lt; eauto. }
      rewrite (py_idx_of_nat _ _ Hlt) in Ek'. injection Ek' as <-.
      change (children g1 p) with (nitems (hnode g1 p)) in Hk'. rewrite (ceq_items _ _ Qg1) in Hk'.
      assert (y = x) by congruence. subst y.
      apply (HK g1 g2 Wg1 Qg1 Ed Q2). intros m D Hm. rewrite <- (ceq_items _ _ Qg1 p).
      eapply del_drift; [exact Wg1| |exact Ed|].
      + rewrite (ceq_items _ _ Qg1). assumption.
      + rewrite (ceq_items _ _ Qg1). rewrite (ceq_items _ _ Qg) in Wr.
        eapply writes_drift; [apply (WF_nodup h p W)|assumption|exact Wr|exact D].
    - assert (Eg : g2 = g1).
      { destruct (del_exn g1 p (Z.of_nat k)) as [e'|] eqn:Ee.
        - rewrite (del_int_err g1 p _ e' Ee) in Ed. congruence.
        - exfalso. destruct (del_int_ok g1 p (Z.of_nat k) k x Wg1 Ee) as (h2 & E2 & _).
          + apply py_idx_of_nat. rewrite (ceq_items _ _ Qg1). eapply nth_error_lt; eauto.
          + rewrite (ceq_items _ _ Qg1). assumption.
          + congruence. }
      subst g2. cbn. split; [assumption|]. intros N. eapply NoOrphan_same; [|exact N].
      apply same_sym. apply ceq_view_same. assumption. }
  assert (Ch : forall g1, ceq h g1 -> (NoOrphan (view h) -> NoOrphan (view g1)) /\
     (with_tag (view h) p (tag_of h x) = [x] -> with_tag (view g1) p (tag_of g1 x) = [x])).
  { intros g1 Q. split.
    - intros N. eapply NoOrphan_same; [|exact N]. apply same_sym, ceq_view_same; assumption.
    - intros H. rewrite <- H. unfold with_tag, tag_of. rewrite !(ceq_view _ _ Q).
      apply filter_ext. intros y. rewrite (ceq_view _ _ Q). reflexivity. }
  assert (Hlen : S (length (remove_at k (nitems (hnode h p)))) = length (nitems (hnode h p))).
  { pose proof (nth_error_split' _ _ _ Hk) as (l1 & l2 & El & Ek). rewrite El, <- Ek, remove_at_split, !app_length. cbn. lia. }
  assert (Ins : forall g z, ceq h g -> (drift_ok h (nitems (hnode h p)) 18 -> drift_ok g (nitems (hnode h p)) 18) ->
     (length (children h p) = 1 \/ (- Z.of_nat (length (children h p) - 1) <= z)%Z) ->
     (with_tag (view h) p (tag_of h x) = [x] \/ drift_ok h (nitems (hnode h p)) 18) ->
     let h' := fst ((si <- idx_or_type_error x ;; y <- del_int p si ;; insert p (InsAt (TgVal (PInt z))) (IItem y)) g) in
     WF h' /\ (NoOrphan (view h) -> NoOrphan (view h'))).
  { intros g z Qg Dg Hz Hd. cbv zeta. apply (Del g (fun y => insert p (InsAt (TgVal (PInt z))) (IItem y)) Qg).
    intros g1 g2 W1 Q1 _ Q2 D2.
    assert (Hk1 : nth_error (nitems (hnode g1 p)) k = Some x) by (rewrite (ceq_items _ _ Q1); assumption).
    destruct (del_state g1 g2 p x k W1 Hk1 Q2) as (W2 & V2 & N2 & A1 & A2 & NO2 & It2 & Wt2).
    destruct (Ch g1 Q1) as [Ch1 Ch2]. rewrite (ceq_items _ _ Q1) in It2.
    assert (IO : ins_ok g2 p (InsAt (TgVal (PInt z))) (IItem x)).
    { split.
      - rewrite It2. change (children h p) with (nitems (hnode h p)) in Hz.
        destruct Hz as [Hz|Hz]; [left; destruct (remove_at k (nitems (hnode h p))); [reflexivity|cbn in Hlen; lia]|right; lia].
      - destruct Hd as [Hd|Hd]; [left; apply Wt2, Ch2, Hd|right].
        rewrite It2. replace 19%Z with (18 + 1)%Z by reflexivity. apply D2; [auto|lia]. }
    split; [apply insert_WF; assumption|]. intros N. apply insert_WFN; auto. }
  destruct tg as [tg|].
  - assert (Gen2 : let h' := fst ((ti <- (h1 <- gets (fun h => h) ;;
                    match getitem h1 p tg with
                    | Err e => throw e
                    | Ok (GItem y) => idx_or_type_error y
                    | Ok (GList _) => throw LookupError
                    end) ;; si <- idx_or_type_error x ;; y <- del_int p si ;; insert p (InsAt (TgVal (PInt ti))) (IItem y)) h) in
       WF h' /\ (NoOrphan (view h) -> NoOrphan (view h'))).
    { cbv zeta. rewrite bind_assoc, bind_gets. destruct (getitem h p tg) as [[y|l]|e] eqn:Eg; [|split; auto|split; auto].
      pose proof (getitem_incl h p tg (GItem y) W Eg y (or_introl eq_refl)) as Hy.
      apply In_nth_error in Hy as [j Ej].
      destruct (idx_or_type_error_ok h p y j W Ej) as (g & E1 & Q1 & Wr).
      rewrite (bind_ok _ _ _ _ _ E1). apply Ins; [assumption| |right; lia|assumption].
      intros D. eapply writes_drift; [apply (WF_nodup h p W)|lia|exact Wr|exact D]. }
    destruct tg as [v|a b|t|t a b|t i| |f]; try exact Gen2. destruct v; try exact Gen2.
    rewrite bind_ret. apply Ins; [apply ceq_refl|auto|exact G1|exact G2].
  - apply (Del h (fun y => append p (IItem y)) (ceq_refl h)). intros g1 g2 W1 Q1 _ Q2 _.
    assert (Hk1 : nth_error (nitems (hnode g1 p)) k = Some x) by (rewrite (ceq_items _ _ Q1); assumption).
    destruct (del_state g1 g2 p x k W1 Hk1 Q2) as (W2 & V2 & N2 & A1 & A2 & NO2 & It2 & Wt2).
    destruct (Ch g1 Q1) as [Ch1 Ch2].
    split; [apply append_WF; assumption|]. intros N. apply append_WFN; auto.
Qed.
Lemma move_WF h x tg : WF h -> mv_guard h x tg -> WF (fst (move x tg h)).
Proof. intros W G. apply (move_inv h x tg W G). Qed.
Lemma move_WFN h x tg : WFN h -> mv_guard h x tg -> WFN (fst (move x tg h)).
Proof. intros [W N] G. destruct (move_inv h x tg W G) as [A B]. split; auto. Qed.

(** ** flags, values, coupled object *)
Lemma upd_benign_keep x f h : benign f ->
  hnext (fst (upd x f h)) = hnext h /\
  (forall y, a_parent (view (fst (upd x f h)) y) = a_parent (view h y)) /\
  (forall y, a_children (view (fst (upd x f h)) y) = a_children (view h y)) /\
  (forall y, nbound (hnode (fst (upd x f h)) y) = nbound (hnode h y)).
Proof.
  intros B. destruct (B (hnode h x)) as (_ & Bp & Bi & _ & Bb & _). cbn. split; [reflexivity|].
  unfold view. cbn. repeat split; intros y; destruct (Nat.eqb_spec y x) as [->|]; cbn; congruence.
Qed.
Lemma WFNp_upd_benign x f : benign f -> WFNp (upd x f).
Proof.
  intros B h [W N]. split; [apply WFp_upd_benign; assumption|].
  destruct (upd_benign_keep x f h B) as (_ & Hp & Hc & _).
  eapply NoOrphan_ext; [|exact N]. intros y. rewrite Hp, Hc. auto.
Qed.
Lemma WFp_set_flags x fl i : WFp (set_flags x fl i).
Proof.
  apply WFp_gets_bind. intros h W. destruct (negb i && _); [exact W|].
  apply (WFp_upd_benign x _ (benign_flg _)). assumption.
Qed.
Lemma WFNp_set_flags x fl i : WFNp (set_flags x fl i).
Proof.
  apply WFNp_gets_bind. intros h W. destruct (negb i && _); [exact W|].
  apply (WFNp_upd_benign x _ (benign_flg _)). assumption.
Qed.
Lemma WFNp_mapM_ {A} (f : A -> M unit) l : (forall a, In a l -> WFNp (f a)) -> WFNp (mapM_ f l).
Proof.
  induction l as [|a l IH]; intros H; cbn; [apply WFNp_ret|].
  apply WFNp_bind; [apply H; left; reflexivity|]. intros _. apply IH. intros b Hb. apply H. right. assumption.
Qed.
Lemma WFp_set_flags_list fl i l : WFp (set_flags_list fl i l).
Proof. apply WFp_mapM_. intros; apply WFp_set_flags. Qed.
Lemma WFNp_set_flags_list fl i l : WFNp (set_flags_list fl i l).
Proof. apply WFNp_mapM_. intros; apply WFNp_set_flags. Qed.
Lemma WFp_set_tree_read_only x : WFp (set_tree_read_only x).
Proof.
  apply WFp_gets_bind. intros h W. destruct (has _ _); [exact W|]. destruct (deep_list _ _ _); [|exact W].
  apply WFp_set_flags_list. assumption.
Qed.
Lemma WFNp_set_tree_read_only x : WFNp (set_tree_read_only x).
Proof.
  apply WFNp_gets_bind. intros h W. destruct (has _ _); [exact W|]. destruct (deep_list _ _ _); [|exact W].
  apply WFNp_set_flags_list. assumption.
Qed.
Lemma WFNp_unset_flags x fl : WFNp (unset_flags x fl).
Proof.
  apply WFNp_gets_bind. intros h W. destruct (has _ _); [exact W|].
  apply (WFNp_upd_benign x _ (benign_flg _)). assumption.
Qed.
Lemma WFp_unset_tree_read_only x : WFp (unset_tree_read_only x).
Proof. apply WFp_gets_bind. intros h W. match goal with |- context [if ?b then _ else _] => destruct b end; [exact W|]. apply WFp_unset_flags. assumption. Qed.
Lemma WFNp_unset_tree_read_only x : WFNp (unset_tree_read_only x).
Proof. apply WFNp_gets_bind. intros h W. match goal with |- context [if ?b then _ else _] => destruct b end; [exact W|]. apply WFNp_unset_flags. assumption. Qed.
Lemma WFp_unset_value_read_only x : WFp (unset_value_read_only x).
Proof. apply WFp_gets_bind. intros h W. destruct (has _ _); [exact W|]. apply WFp_unset_flags. assumption. Qed.
Lemma WFNp_unset_value_read_only x : WFNp (unset_value_read_only x).
Proof. apply WFNp_gets_bind. intros h W. destruct (has _ _); [exact W|]. apply WFNp_unset_flags. assumption. Qed.
Lemma WFp_set_value x v : WFp (set_value x v).
Proof. apply WFp_gets_bind. intros h W. destruct (has _ _); [exact W|]. apply (WFp_upd_benign x _ (benign_val v)). assumption. Qed.
Lemma WFNp_set_value x v : WFNp (set_value x v).
Proof. apply WFNp_gets_bind. intros h W. destruct (has _ _); [exact W|]. apply (WFNp_upd_benign x _ (benign_val v)). assumption. Qed.
Lemma WFp_del_value x : WFp (del_value x).
Proof. apply WFp_gets_bind. intros h W. destruct (has _ _); [exact W|]. apply (WFp_upd_benign x _ (benign_val PNoValue)). assumption. Qed.
Lemma WFNp_del_value x : WFNp (del_value x).
Proof. apply WFNp_gets_bind. intros h W. destruct (has _ _); [exact W|]. apply (WFNp_upd_benign x _ (benign_val PNoValue)). assumption. Qed.

Lemma WFp_set_key_value x k v : WFp (set_key_value x k v).
Proof. apply WFp_gets_bind. intros h W. destruct (has _ _); [exact W|]. destruct (key_set _ _ _) as [[c o]|]; [|exact W]. apply (WFp_upd_benign x _ (benign_val c)). assumption. Qed.
Lemma WFNp_set_key_value x k v : WFNp (set_key_value x k v).
Proof. apply WFNp_gets_bind. intros h W. destruct (has _ _); [exact W|]. destruct (key_set _ _ _) as [[c o]|]; [|exact W]. apply (WFNp_upd_benign x _ (benign_val c)). assumption. Qed.
Lemma WFp_del_key_value x k : WFp (del_key_value x k).
Proof. apply WFp_gets_bind. intros h W. destruct (has _ _); [exact W|]. destruct (key_pop _ _) as [[c o]|]; [|exact W]. apply (WFp_upd_benign x _ (benign_val c)). assumption. Qed.
Lemma WFNp_del_key_value x k : WFNp (del_key_value x k).
Proof. apply WFNp_gets_bind. intros h W. destruct (has _ _); [exact W|]. destruct (key_pop _ _) as [[c o]|]; [|exact W]. apply (WFNp_upd_benign x _ (benign_val c)). assumption. Qed.

(** ** constructor *)
Definition ext_inv (p : loc) (es : list earg) (h : heap) : Prop :=
  p < hnext h /\ nbound (hnode h p) = Current /\ Forall (earg_ok h p) es.
Lemma set_flags_keep x fl i h : 
  hnext (fst (set_flags x fl i h)) = hnext h /\
  (forall y, a_parent (view (fst (set_flags x fl i h)) y) = a_parent (view h y)) /\
  (forall y, a_children (view (fst (set_flags x fl i h)) y) = a_children (view h y)) /\
  (forall y, nbound (hnode (fst (set_flags x fl i h)) y) = nbound (hnode h y)).
Proof.
  unfold set_flags. rewrite bind_gets. destruct (negb i && _); [cbn; auto|].
  apply (upd_benign_keep x _ h (benign_flg _)).
Qed.
Lemma set_flags_list_keep fl i l : forall h,
  hnext (fst (set_flags_list fl i l h)) = hnext h /\
  (forall y, a_parent (view (fst (set_flags_list fl i l h)) y) = a_parent (view h y)) /\
  (forall y, a_children (view (fst (set_flags_list fl i l h)) y) = a_children (view h y)) /\
  (forall y, nbound (hnode (fst (set_flags_list fl i l h)) y) = nbound (hnode h y)).
Proof.
  induction l as [|x l IH]; intros h; [cbn; auto|].
  unfold set_flags_list. cbn [mapM_]. unfold bind. pose proof (set_flags_keep x fl i h) as K.
  destruct (set_flags x fl i h) as [h1 [u|e]]; cbn [fst] in *; [|exact K].
  destruct (IH h1) as (A & B & C & D). destruct K as (A' & B' & C' & D').
  unfold set_flags_list in *. repeat split; intros; congruence.
Qed.
Lemma earg_ok_keep h h' p e : hnext h' = hnext h -> (forall y, a_parent (view h' y) = a_parent (view h y)) ->
  earg_ok h p e -> earg_ok h' p e.
Proof.
  intros Hn Hp. destruct e as [x| |]; unfold earg_ok; auto. unfold parent_of. intros [Hx Ha]. split; [lia|]. rewrite Hp.
  intros Hf K. apply (Ha Hf). eapply Anc_ext; [|exact K]. intros y. apply Hp.
Qed.
Lemma ext_step_flags_inv h p fl e es : WF h -> p < hnext h -> nbound (hnode h p) = Current ->
  earg_ok h p e -> Forall (earg_ok h p) es ->
  WF (fst (ext_step_flags p fl e h)) /\ (NoOrphan (view h) -> NoOrphan (view (fst (ext_step_flags p fl e h)))) /\
  (forall u, snd (ext_step_flags p fl e h) = Ok u ->
     p < hnext (fst (ext_step_flags p fl e h)) /\ nbound (hnode (fst (ext_step_flags p fl e h)) p) = Current /\
     Forall (earg_ok (fst (ext_step_flags p fl e h)) p) es).
Proof.
  intros W Hp Hb He Hes. unfold ext_step_flags.
  destruct (ext_step_case h p e W Hp Hb He) as (h1 & r & E1 & W1 & Hn1 & Hb1 & R1).
  assert (NO1 : NoOrphan (view h) -> NoOrphan (view h1)).
  { intros N. pose proof (ext_step_WFN h p e (conj W N) Hp Hb He) as [_ K]. rewrite E1 in K. exact K. }
  destruct r as [u|e1]; [rewrite !(bind_ok _ _ _ _ _ E1)|rewrite !(bind_err _ _ _ _ _ E1)].
  2:{ cbn. split; [assumption|]. split; [assumption|]. discriminate. }
  destruct u. destruct (earg_ok_step h p e h1 W Hp Hb He E1) as (_ & _ & Hmono).
  assert (Hes1 : Forall (earg_ok h1 p) es) by (eapply Forall_impl; [|exact Hes]; intros; apply Hmono; assumption).
  assert (Base : WF h1 /\ (NoOrphan (view h) -> NoOrphan (view h1)) /\
     (forall u : unit, Ok tt = Ok u -> p < hnext h1 /\ nbound (hnode h1 p) = Current /\ Forall (earg_ok h1 p) es)).
  { split; [assumption|]. split; [assumption|]. intros _ _. split; [lia|]. split; assumption. }
  destruct (fl =? 0)%Z; [cbn; exact Base|].
  rewrite !bind_gets. destruct (last _ None) as [x|]; [|cbn; exact Base].
  destruct (deep_list (S (hnext h1)) h1 x) as [l|].
  2:{ cbn. split; [assumption|]. split; [assumption|]. discriminate. }
  destruct (set_flags_list_keep fl true (x :: l) h1) as (K1 & K2 & K3 & K4).
  split; [apply WFp_set_flags_list; assumption|]. split.
  - intros N. eapply NoOrphan_ext; [|exact (NO1 N)]. intros y. rewrite K2, K3. auto.
  - intros _ _. rewrite K1, K4. split; [lia|]. split; [assumption|]. eapply Forall_impl; [|exact Hes1].
    intros a Ha. eapply earg_ok_keep; eauto.
Qed.
Lemma ext_flags_loop p fl es : forall h, WF h -> p < hnext h -> nbound (hnode h p) = Current -> Forall (earg_ok h p) es ->
  WF (fst (mapM_ (ext_step_flags p fl) es h)) /\
  (NoOrphan (view h) -> NoOrphan (view (fst (mapM_ (ext_step_flags p fl) es h)))).
Proof.
  induction es as [|e es IH]; intros h W Hp Hb Hes; [cbn; auto|]. inversion Hes as [|? ? He Hes']; subst.
  destruct (ext_step_flags_inv h p fl e es W Hp Hb He Hes') as (W1 & N1 & R1).
  cbn [mapM_]. unfold bind. destruct (ext_step_flags p fl e h) as [h1 [u|e1]]; cbn [fst snd] in *; [|auto].
  destruct (R1 u eq_refl) as (Hp1 & Hb1 & Hes1). destruct (IH h1 W1 Hp1 Hb1 Hes1) as [A B]. auto.
Qed.
Definition new_ok (h : heap) (es : list earg) : Prop :=
  Forall (fun e => match e with EItem x => x < hnext h | _ => True end) es.
Lemma benign_root s : benign (fun n => set_link (Some (LK s false [] None)) (set_flg (Z.lor (nflags n) LINK_ROOT) n)).
Proof. intros n. cbn. repeat split; auto. intros k [= <-]. auto. Qed.
Lemma new_tree_inv h t v es lk fl : WF h -> new_ok h es ->
  WF (fst (new_tree t v es lk fl h)) /\ (NoOrphan (view h) -> NoOrphan (view (fst (new_tree t v es lk fl h)))).
Proof.
  intros W Hes. unfold new_tree. destruct (negb (hashable t)); [cbn; auto|].
  set (h1 := fst (halloc h (fresh_node t v (Z.land fl FLAG_MASK) None))).
  assert (E1 : new_item t v (Z.land fl FLAG_MASK) None h = (h1, Ok (hnext h))) by reflexivity.
  rewrite (bind_ok _ _ _ _ _ E1).
  assert (W1 : WF h1) by (apply halloc_WF; [assumption|discriminate]).
  assert (N1 : NoOrphan (view h) -> NoOrphan (view h1)) by (intros N; apply NoOrphan_new; [assumption|apply (wf_forest _ W)]).
  set (body := match es with [] => ret tt | _ => _ end).
  assert (Hb : WF (fst (body h1)) /\ (NoOrphan (view h) -> NoOrphan (view (fst (body h1))))).
  { subst body. destruct es as [|e es]; [cbn; auto|]. rewrite bind_upd.
    set (h2 := hmod h1 (hnext h) (set_fams (Some []) Current)).
    assert (Ei : nitems (hnode h1 (hnext h)) = []) by (cbn; rewrite Nat.eqb_refl; reflexivity).
    assert (W2 : WF h2) by (apply set_fams_WF; assumption).
    assert (V2 : same (view h2) (view h1)) by apply same_view_fams.
    destruct (ext_flags_loop (hnext h) (Z.land (Z.land fl FLAG_MASK) DEEP_FLAG_MASK) (e :: es) h2 W2) as [A B].
    - cbn. lia.
    - unfold h2. rewrite hmod_same. reflexivity.
    - eapply Forall_impl; [|exact Hes]. intros [x| |]; cbn; auto. intros Hx. split; [lia|]. intros _ K.
      apply (Anc_same _ _ _ _ V2) in K. apply Anc_root_eq in K; [lia|].
      unfold h1. rewrite (new_item_view h t v (Z.land fl FLAG_MASK) None (hnext h)), Nat.eqb_refl. reflexivity.
    - split; [exact A|]. intros N. apply B. eapply NoOrphan_same; [apply same_sym; exact V2|auto]. }
  destruct (body h1) as [h2 [u|e]] eqn:E2; cbn [fst] in Hb;
    [rewrite !(bind_ok _ _ _ _ _ E2)|rewrite !(bind_err _ _ _ _ _ E2); exact Hb].
  destruct Hb as [W2 N2]. destruct lk as [s|]; [rewrite !bind_upd|cbn; auto].
  pose proof (WFp_upd_benign (hnext h) _ (benign_root s) h2 W2) as W3.
  destruct (upd_benign_keep (hnext h) _ h2 (benign_root s)) as (_ & Kp & Kc & _).
  cbn [upd] in *. cbn [ret fst snd] in *. split; [exact W3|]. intros N. eapply NoOrphan_ext; [|exact (N2 N)].
  intros y. split; [symmetry; apply Kp|symmetry; apply Kc].
Qed.
