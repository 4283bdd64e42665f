(** extend(iTree), extendleft, reverse, rotate, sort, clear. *)
From Coq Require Import Permutation Sorted.
From Verif Require Import Base Heap HeapSpec ListLemmas ForestLemmas HeapInv HeapAttach
  HeapOps HeapOps2 HeapOps3 HeapHoare Tree HeapTree HeapCopy HeapMut HeapExt HeapExt2.

(** * extend(iTree) *)
Lemma root_of_some h x : WF h -> x < hnext h ->
  exists r, root_of (S (hnext h)) h x = Some r /\ Anc (view h) r x /\ parent_of h r = None.
Proof.
  intros W Hx. destruct (Rooted_Lev _ _ (fo_root _ _ (wf_forest _ W) x)) as [k Hk].
  eapply Lev_root; [exact Hk|]. pose proof (Lev_bound _ _ _ _ (wf_forest _ W) Hk Hx). lia.
Qed.
Lemma child_attached h q x : WF h -> In x (children h q) -> x < hnext h /\ parent_of h x = Some q.
Proof.
  intros W Hx. split; [eapply Forest_child_lt; [apply (wf_forest _ W)|exact Hx]|].
  apply (fo_child _ _ (wf_forest _ W) q x Hx).
Qed.
Lemma children_earg_ok h p q : WF h -> Forall (earg_ok h p) (map EItem (nitems (hnode h q))).
Proof.
  intros W. apply Forall_forall. intros e He. apply in_map_iff in He as (x & <- & Hx).
  destruct (child_attached h q x W Hx) as [H1 H2]. split; [assumption|]. congruence.
Qed.
Lemma extend_tree_inv h p q (P : heap -> Prop) : WF h -> p < hnext h -> q < hnext h ->
  P h ->
  (forall h1 q', hnext h <= hnext h1 -> WF h1 -> (q' < hnext h1) ->
     ((h1 = h /\ q' = q /\ (forall a, Anc (view h) a p -> Anc (view h) a q -> False)) \/ copy_item q h = (h1, Ok q')) ->
     P (fst (iter_extend p (map EItem (nitems (hnode h1 q'))) h1))) ->
  (forall h1 e, copy_item q h = (h1, Err e) -> P h1) ->
  P (fst (extend_tree p q h)).
Proof.
  intros W Hp Hq P0 H1 H2. unfold extend_tree. destruct (outcome (check_extend p []) h) as [[]|e] eqn:E.
  2:{ rewrite (bind_pure_err _ _ _ _ (check_extend_pure p [] h) E). exact P0. }
  rewrite (bind_ok _ _ _ _ _ (pure_ok _ _ _ (check_extend_pure p [] h) E)), bind_gets.
  destruct (root_of_some h p W Hp) as (r & Er & Ar & Pr). destruct (root_of_some h q W Hq) as (r' & Er' & Ar' & Pr').
  rewrite Er, Er'. destruct (Nat.eqb_spec r r') as [->|Hne].
  - destruct (ltree_exists _ _ _ (wf_forest _ W) Hq) as (T & HT & Et & _). subst q.
    destruct (copy_item_ok h W T HT Hq) as (h1 & rr & Ec & W1 & Hn & Fr & R). destruct rr as [q'|e].
    + rewrite (bind_ok _ _ _ _ _ Ec), bind_gets. destruct R as (T' & HT' & Er1 & Lab & Rng & _).
      apply H1; [assumption|assumption| |right; exact Ec]. apply Rng. rewrite <- Er1. apply in_flatten_root.
    + rewrite (bind_err _ _ _ _ _ Ec). cbn. eapply H2; eauto.
  - rewrite bind_ret, bind_gets. apply H1; [lia|assumption|assumption|]. left. split; [reflexivity|]. split; [reflexivity|].
    intros a H3 H4. apply Hne.
    assert (U : forall x r, parent_of h r = None -> Anc (view h) r x -> Anc (view h) a x -> Anc (view h) r a).
    { intros x r0 Hr0 HA. induction HA as [|y z Hz HA IH]; intros Ha.
      - inversion Ha; subst; [constructor|]. unfold parent_of in Hr0. congruence.
      - inversion Ha as [|y' z' Hz' Ha']; subst; [econstructor; eauto|]. apply IH. congruence. }
    pose proof (U p r Pr Ar H3) as K1. pose proof (U q r' Pr' Ar' H4) as K2.
    clear - K1 K2 Pr Pr'. induction K1 as [|y z Hz HA IH]; [inversion K2; subst; [reflexivity|]; unfold parent_of in Pr; congruence|].
    inversion K2 as [|y' z' Hz' Ha']; subst; [unfold parent_of in Pr'; congruence|]. apply IH. congruence.
Qed.
Lemma extend_tree_WF h p q : WF h -> p < hnext h -> q < hnext h -> WF (fst (extend_tree p q h)).
Proof.
  intros W Hp Hq. apply (extend_tree_inv h p q WF W Hp Hq W).
  - intros h1 q' Hn W1 Hq' _. apply iter_extend_WF; [assumption|lia|apply children_earg_ok; assumption].
  - intros h1 e Ec. destruct (ltree_exists _ _ _ (wf_forest _ W) Hq) as (T & HT & Et & _). subst q.
    destruct (copy_item_ok h W T HT Hq) as (h2 & rr & Ec2 & W1 & _). congruence.
Qed.
Lemma extend_tree_WFN h p q : WFN h -> p < hnext h -> q < hnext h -> WFN (fst (extend_tree p q h)).
Proof.
  intros W Hp Hq. apply (extend_tree_inv h p q WFN (proj1 W) Hp Hq W).
  - intros h1 q' Hn W1 Hq' Hc. apply iter_extend_WFN; [|lia|apply children_earg_ok; assumption].
    destruct Hc as [(-> & _)|Hc]; [assumption|]. pose proof (copy_item_WFN q h W) as K. rewrite Hc in K. exact K.
  - intros h1 e Ec. pose proof (copy_item_WFN q h W) as K. rewrite Ec in K. exact K.
Qed.

(** * taking all children off: extendleft's first phase *)
Fixpoint memb (y : nat) (l : list nat) : bool :=
  match l with [] => false | z :: r => Nat.eqb y z || memb y r end.
Lemma memb_In y l : memb y l = true <-> In y l.
Proof.
  induction l as [|z l IH]; cbn; [split; [discriminate|intros []]|].
  rewrite orb_true_iff, Nat.eqb_eq, IH. intuition.
Qed.
Lemma memb_existsb y l : existsb (Nat.eqb y) l = memb y l.
Proof. induction l; cbn; congruence. Qed.

(** the items l lose their parent, the children of p become the list [rest] *)
Definition freed (s : astate) (p : loc) (l rest : list loc) : astate := fun y =>
  if Nat.eqb y p then a_set_children rest (s p)
  else if memb y l then a_set_parent None (s y) else s y.

Definition hdrop (h : heap) (l : list loc) : heap :=
  HP (hnext h) (fun y => if memb y l then set_prt None (hnode h y) else hnode h y).
Definition hclear (h : heap) (p : loc) : heap := fst (clear_items p h).

Lemma drop_loop l : forall h, exists h', mapM_ (fun i => upd i (set_prt None)) l h = (h', Ok tt) /\ heq h' (hdrop h l).
Proof.
  induction l as [|x l IH]; intros h.
  - exists h. split; [reflexivity|]. split; reflexivity.
  - cbn [mapM_]. rewrite bind_upd. destruct (IH (hmod h x (set_prt None))) as (h' & E & [Hn Hh]).
    exists h'. split; [exact E|]. split; [exact Hn|]. intros y. rewrite Hh. cbn.
    destruct (Nat.eqb_spec y x) as [->|]; cbn; destruct (memb _ l); reflexivity.
Qed.
Lemma hclear_node h p y : hnode (hclear h p) y = if Nat.eqb y p then
   set_items [] (set_fams (Some []) (match nbound (hnode h p) with
             | Current => match nfams (hnode h p) with Some d => Stale d | None => Unbound end
             | b => b end) (hnode h p)) else hnode h y.
Proof. unfold hclear, clear_items. cbn. destruct (Nat.eqb_spec y p) as [->|]; reflexivity. Qed.
Lemma hclear_view h p : same (view (hclear h p)) (reorder (view h) p []).
Proof. intros y. unfold view, reorder. rewrite hclear_node. destruct (Nat.eqb_spec y p) as [->|]; reflexivity. Qed.
Lemma hclear_WF h p : WF h -> p < hnext h -> WF (hclear h p).
Proof.
  intros W Hp. split.
  - eapply (Forest_ext _ (reorder (view h) p [])).
    + intros y. rewrite (hclear_view h p y). auto.
    + apply reorder_Forest; [apply (wf_forest _ W)|constructor|intros y []|assumption].
  - intros x pl. rewrite hclear_node. destruct (Nat.eqb_spec x p) as [->|]; apply (wf_caches _ W).
  - intros q. unfold node_fam_ok. rewrite hclear_node. pose proof (wf_fams _ W q) as Hq. unfold node_fam_ok in Hq.
    destruct (Nat.eqb_spec q p) as [->|].
    + cbn. destruct (nbound (hnode h p)); cbn; [split; auto| |split; reflexivity]. destruct Hq as (d & -> & _). cbn. split; reflexivity.
    + destruct (nbound (hnode h q)); auto. destruct Hq as (d & Ed & Hd). exists d. split; [assumption|].
      eapply fam_ok_ext; [|exact Hd]. intros y _. rewrite hclear_node. destruct (Nat.eqb_spec y p) as [->|]; reflexivity.
  - intros x k. rewrite hclear_node. destruct (Nat.eqb_spec x p) as [->|]; apply (wf_cover _ W).
Qed.
Lemma hdrop_WF h l : WF h -> (forall y q, In y l -> ~ In y (nitems (hnode h q))) -> WF (hdrop h l).
Proof.
  intros W Hl.
  assert (Hch : forall y, a_children (view (hdrop h l) y) = a_children (view h y)) by (intros y; cbn; destruct (memb y l); reflexivity).
  assert (Hpar : forall y, a_parent (view (hdrop h l) y) = if memb y l then None else a_parent (view h y))
    by (intros y; cbn; destruct (memb y l); reflexivity).
  assert (Htag : forall y, ntag (hnode (hdrop h l) y) = ntag (hnode h y)) by (intros y; cbn; destruct (memb y l); reflexivity).
  pose proof (wf_forest _ W) as F. split.
  - split.
    + intros p c. rewrite Hch, Hpar. intros Hc. destruct (memb c l) eqn:E; [|apply (fo_child _ _ F); assumption].
      apply memb_In in E. exfalso. exact (Hl c p E Hc).
    + intros p. rewrite Hch. apply (fo_nodup _ _ F).
    + intros x Hx. rewrite Hch, Hpar. destruct (fo_alloc _ _ F x Hx) as [-> ->]. split; [reflexivity|]. destruct (memb x l); reflexivity.
    + intros x p. rewrite Hpar. destruct (memb x l); [discriminate|apply (fo_par _ _ F)].
    + intros x. eapply Rooted_drop; [exact Hpar|apply (fo_root _ _ F)].
  - intros x pl. cbn. destruct (memb x l); [discriminate|apply (wf_caches _ W)].
  - intros q. pose proof (wf_fams _ W q) as Hq. unfold node_fam_ok in *.
    assert (E1 : nbound (hnode (hdrop h l) q) = nbound (hnode h q)) by (cbn; destruct (memb q l); reflexivity).
    assert (E2 : nfams (hnode (hdrop h l) q) = nfams (hnode h q)) by (cbn; destruct (memb q l); reflexivity).
    assert (E3 : nitems (hnode (hdrop h l) q) = nitems (hnode h q)) by (cbn; destruct (memb q l); reflexivity).
    rewrite E1, E2, E3. destruct (nbound (hnode h q)); auto. destruct Hq as (d & Ed & Hd). exists d. split; [assumption|].
    eapply fam_ok_ext; [|exact Hd]. intros y _. symmetry. apply Htag.
  - intros x k. cbn. destruct (memb x l); apply (wf_cover _ W).
Qed.

(** the heap after [for item in self: item.parent = None; clear] *)
Definition hfree (h : heap) (p : loc) : heap := hdrop (hclear h p) (nitems (hnode h p)).
Lemma hfree_view h p : WF h -> same (view (hfree h p)) (freed (view h) p (nitems (hnode h p)) []).
Proof.
  intros W y. unfold hfree, freed. destruct (Nat.eqb_spec y p) as [->|Hy].
  - assert (Hm : memb p (nitems (hnode h p)) = false).
    { destruct (memb p _) eqn:E; [|reflexivity]. apply memb_In in E. exfalso. eapply Forest_child_ne; [apply (wf_forest _ W)|exact E|reflexivity]. }
    unfold view. cbn [hdrop hnode]. rewrite Hm, hclear_node, Nat.eqb_refl. reflexivity.
  - unfold view. cbn [hdrop hnode]. rewrite hclear_node. destruct (Nat.eqb_spec y p); [congruence|].
    destruct (memb y _); reflexivity.
Qed.
Lemma hfree_WF h p : WF h -> p < hnext h -> WF (hfree h p).
Proof.
  intros W Hp. apply hdrop_WF; [apply hclear_WF; assumption|]. intros y q Hy. rewrite hclear_node.
  destruct (Nat.eqb_spec q p) as [->|Hq]; [intros []|]. intros Hy2.
  pose proof (fo_child _ _ (wf_forest _ W) p y Hy). pose proof (fo_child _ _ (wf_forest _ W) q y Hy2). congruence.
Qed.
Lemma hfree_NoOrphan h p : WF h -> NoOrphan (view h) -> NoOrphan (view (hfree h p)).
Proof.
  intros W N. eapply NoOrphan_same; [apply same_sym; apply hfree_view; assumption|].
  intros x q. unfold freed. destruct (Nat.eqb_spec x p) as [->|Hx].
  - cbn. intros H. pose proof (N p q H) as Hin. destruct (Nat.eqb_spec q p) as [->|].
    + exfalso. eapply Forest_child_ne; [apply (wf_forest _ W)|exact Hin|reflexivity].
    + destruct (memb q _); exact Hin.
  - destruct (memb x (nitems (hnode h p))) eqn:E; [discriminate|]. intros H. pose proof (N x q H) as Hin.
    destruct (Nat.eqb_spec q p) as [->|].
    + apply memb_In in Hin. cbn in Hin. congruence.
    + destruct (memb q _); exact Hin.
Qed.
Lemma free_clear h p : WF h -> exists h1, (mapM_ (fun i => upd i (set_prt None)) (nitems (hnode h p)) ;;; clear_items p) h = (h1, Ok tt) /\
  heq (hfree h p) h1.
Proof.
  intros W. destruct (drop_loop (nitems (hnode h p)) h) as (h1 & E & [Hn Hh]). rewrite (bind_ok _ _ _ _ _ E).
  exists (hclear h1 p). split; [reflexivity|].
  assert (Hm : memb p (nitems (hnode h p)) = false).
  { destruct (memb p _) eqn:Em; [|reflexivity]. apply memb_In in Em. exfalso. eapply Forest_child_ne; [apply (wf_forest _ W)|exact Em|reflexivity]. }
  split.
  - cbn. rewrite Hn. reflexivity.
  - intros y. rewrite hclear_node. rewrite !Hh. unfold hfree. cbn [hdrop hnode]. rewrite hclear_node.
    destruct (Nat.eqb_spec y p) as [->|]; [rewrite Hm; reflexivity|]. reflexivity.
Qed.
Lemma heq_WF h h' : heq h h' -> WF h -> WF h'.
Proof. intros Q. apply ceq_WF. apply heq_ceq. assumption. Qed.

Lemma check_extendleft_pure p es h : fst (check_extendleft p es h) = h.
Proof.
  unfold check_extendleft. rewrite bind_gets. destruct (tree_protected h p); [|reflexivity].
  destruct (is_link_root h p); [|reflexivity]. destruct (nlink (hnode h p)) as [k|]; [|reflexivity].
  destruct (lk_loaded k && _); reflexivity.
Qed.

(** guard: no element is above p (p itself included) *)
Lemma freed_anc s p l rest a : ~ (exists y, In y l /\ Anc s y p) -> Anc (freed s p l rest) a p -> Anc s a p.
Proof.
  intros Hl. apply Anc_frame. intros y Hy. unfold freed.
  destruct (Nat.eqb_spec y p) as [->|]; [reflexivity|]. destruct (memb y l) eqn:E; [|reflexivity].
  apply memb_In in E. elim Hl. eauto.
Qed.
Lemma child_not_anc h p y : WF h -> In y (children h p) -> ~ Anc (view h) y p.
Proof.
  intros W Hy HA. pose proof (fo_child _ _ (wf_forest _ W) p y Hy) as Hp.
  (* p would be its own proper ancestor *)
  assert (HL : forall z k, Lev (view h) z k -> forall a, Anc (view h) a z -> exists j, Lev (view h) a j /\ j <= k).
  { intros z k HL. induction HL as [z Hz|z q k Hz HL IH]; intros a Ha.
    - rewrite (Anc_root_eq _ _ _ Hz Ha). exists 0. split; [constructor; assumption|lia].
    - inversion Ha as [|z' q' Hz' Ha']; subst; [exists (S k); split; [econstructor; eauto|lia]|].
      destruct (IH a) as (j & Hj & Hle); [congruence|]. exists j. split; [assumption|lia]. }
  destruct (Rooted_Lev _ _ (fo_root _ _ (wf_forest _ W) p)) as [k Hk].
  destruct (HL p k Hk y HA) as (j & Hj & Hle).
  pose proof (LevS _ _ _ _ Hp Hk) as Hy2. pose proof (Lev_fun _ _ _ Hj _ Hy2). lia.
Qed.

Lemma extendleft_start h p es : WF h -> outcome (check_extendleft p es) h = Ok tt ->
  exists h1, heq (hfree h p) h1 /\
   extendleft p es h = iter_extend p (es ++ map EItem (nitems (hnode h p))) h1.
Proof.
  intros W E. unfold extendleft. rewrite (bind_ok _ _ _ _ _ (pure_ok _ _ _ (check_extendleft_pure p es h) E)), bind_gets.
  cbv zeta. destruct (free_clear h p W) as (h1 & E1 & Q). exists h1. split; [assumption|].
  rewrite <- bind_assoc. rewrite (bind_ok _ _ _ _ _ E1). reflexivity.
Qed.
Lemma heq_view h h' : heq h h' -> same (view h') (view h).
Proof. intros [_ H] y. unfold view. rewrite H. reflexivity. Qed.

Lemma extendleft_pre h p es h1 : WF h -> p < hnext h -> Forall (earg_far h p) es -> heq (hfree h p) h1 ->
  Forall (earg_far h1 p) (es ++ map EItem (nitems (hnode h p))).
Proof.
  intros W Hp HF Q.
  assert (HA : forall a, Anc (view h1) a p -> Anc (view h) a p).
  { intros a Ha. apply (Anc_same _ _ _ _ (heq_view _ _ Q)) in Ha. apply (Anc_same _ _ _ _ (hfree_view h p W)) in Ha.
    eapply freed_anc; [|exact Ha]. intros (y & Hy & Hy2). revert Hy2. apply child_not_anc; assumption. }
  assert (Hn : hnext h1 = hnext h) by (rewrite <- (proj1 Q); reflexivity).
  apply Forall_app. split.
  - eapply Forall_impl; [|exact HF]. intros [x|t v|v]; cbn; auto. intros [H1 H2]. split; [lia|]. intros K. apply H2, HA, K.
  - apply Forall_forall. intros e He. apply in_map_iff in He as (x & <- & Hx). destruct (child_attached h p x W Hx) as [H1 _].
    split; [lia|]. intros K. apply HA in K. revert K. apply child_not_anc; assumption.
Qed.
Lemma far_ok h p e : earg_far h p e -> earg_ok h p e.
Proof. destruct e; cbn; auto. intros [H1 H2]. auto. Qed.
Lemma extendleft_WF h p es : WF h -> p < hnext h -> Forall (earg_far h p) es -> WF (fst (extendleft p es h)).
Proof.
  intros W Hp HF. destruct (outcome (check_extendleft p es) h) as [[]|e] eqn:E.
  - destruct (extendleft_start h p es W E) as (h1 & Q & ->). apply iter_extend_WF.
    + eapply heq_WF; [exact Q|apply hfree_WF; assumption].
    + rewrite <- (proj1 Q). exact Hp.
    + eapply Forall_impl; [apply far_ok|]. eapply extendleft_pre; eauto.
  - unfold extendleft. rewrite (bind_pure_err _ _ _ _ (check_extendleft_pure p es h) E). exact W.
Qed.
Lemma extendleft_WFN h p es : WFN h -> p < hnext h -> Forall (earg_far h p) es -> WFN (fst (extendleft p es h)).
Proof.
  intros [W N] Hp HF. destruct (outcome (check_extendleft p es) h) as [[]|e] eqn:E.
  - destruct (extendleft_start h p es W E) as (h1 & Q & ->). apply iter_extend_WFN.
    + eapply ceq_WFN; [apply heq_ceq; exact Q|]. split; [apply hfree_WF; assumption|apply hfree_NoOrphan; assumption].
    + rewrite <- (proj1 Q). exact Hp.
    + eapply Forall_impl; [apply far_ok|]. eapply extendleft_pre; eauto.
  - unfold extendleft. rewrite (bind_pure_err _ _ _ _ (check_extendleft_pure p es h) E). split; assumption.
Qed.

(** functional: the elements go to the front, the old children stay behind them *)
Definition prepended (s s' : astate) (n n' : nat) (p : loc) (es : list earg) (cs : list loc) : Prop :=
  s' p = a_set_children (cs ++ a_children (s p)) (s p) /\
  Forall2 (elem s s' n n') es cs /\
  (forall y, y < n -> y <> p ->
     s' y = if existsb (Nat.eqb y) (filter (is_free s) (eitems es)) then a_set_parent (Some p) (s y) else s y).

Lemma forallb_filter_id {A} (f : A -> bool) l : forallb f l = true -> filter f l = l.
Proof.
  induction l as [|x l IH]; cbn; [reflexivity|]. intros H. apply andb_true_iff in H as [-> H]. f_equal. auto.
Qed.
Lemma a_set_parent_back o u a : a_parent a = o -> a_set_parent o (a_set_parent u a) = a.
Proof. destruct a; cbn. intros ->. reflexivity. Qed.
Lemma a_set_parent_same o a : a_parent a = o -> a_set_parent o a = a.
Proof. destruct a; cbn. intros ->. reflexivity. Qed.
Lemma eitems_app es fs : eitems (es ++ fs) = eitems es ++ eitems fs.
Proof. apply flat_map_app. Qed.
Lemma eitems_map l : eitems (map EItem l) = l.
Proof. induction l; cbn; [reflexivity|f_equal; assumption]. Qed.

Lemma extendleft_ok h p es : WF h -> p < hnext h -> outcome (check_extendleft p es) h = Ok tt ->
  Forall (earg_far h p) es -> NoDup (eitems es ++ children h p) ->
  exists h' r, extendleft p es h = (h', r) /\ WF h' /\
    match r with
    | Ok _ => exists cs, prepended (view h) (view h') (hnext h) (hnext h') p es cs
    | Err _ => True
    end.
Proof.
  intros W Hp E HF Hnd. destruct (extendleft_start h p es W E) as (h1 & Q & ->).
  pose proof (extendleft_pre h p es h1 W Hp HF Q) as HF1. set (old := nitems (hnode h p)) in *.
  assert (W1 : WF h1) by (eapply heq_WF; [exact Q|apply hfree_WF; assumption]).
  assert (Hn1 : hnext h1 = hnext h) by (rewrite <- (proj1 Q); reflexivity).
  assert (V1 : same (view h1) (freed (view h) p old [])) by (eapply same_trans; [apply heq_view; exact Q|apply hfree_view; assumption]).
  destruct (iter_extend_ok h1 p (es ++ map EItem old) W1) as (h' & r & E2 & W' & Hn' & R); [lia|assumption| |].
  { rewrite eitems_app, eitems_map. exact Hnd. }
  exists h', r. split; [exact E2|]. split; [assumption|]. destruct r as [[]|er]; [|exact I].
  destruct R as (cs & X1 & X2 & X3).
  apply NoDup_app_inv in Hnd as (_ & Ndo & Hdis).
  assert (Hold : forall y, In y old -> y <> p /\ y < hnext h /\ a_parent (view h y) = Some p).
  { intros y Hy. split; [eapply Forest_child_ne; [apply (wf_forest _ W)|exact Hy]|].
    destruct (child_attached h p y W Hy). auto. }
  apply Forall2_app_inv_l in X2 as (cs1 & cs2 & F1 & F2 & ->).
  assert (Ecs2 : cs2 = old).
  { clear - F2 V1 Hold.
    assert (G : forall l cs2, incl l old -> Forall2 (elem (view h1) (view h') (hnext h1) (hnext h')) (map EItem l) cs2 -> cs2 = l).
    { induction l as [|x l IH]; intros cs Hi F; inversion F as [|? c ? cs' Hc Hr]; subst; [reflexivity|].
      f_equal; [|apply IH; [intros z Hz; apply Hi; right; assumption|assumption]].
      cbn in Hc. destruct Hc as [[_ ->]|[Hc _]]; [reflexivity|]. exfalso. apply Hc.
      change (a_parent (view h1 x) = None).
      rewrite (V1 x). unfold freed. assert (Hx : In x old) by (apply Hi; left; reflexivity).
      destruct (Nat.eqb_spec x p) as [->|]; [apply Hold in Hx; destruct Hx; congruence|].
      apply memb_In in Hx. rewrite Hx. reflexivity. }
    apply G; [apply incl_refl|assumption]. }
  subst cs2. exists cs1. split; [|split].
  - rewrite X1, (V1 p). unfold freed. rewrite Nat.eqb_refl. cbn. reflexivity.
  - rewrite Hn1 in F1. revert F1. apply Forall2_impl_in. intros e c He. destruct e as [x|t v|v]; cbn [elem]; auto.
    rewrite Forall_forall in HF. pose proof (HF _ He) as [Hx Hxa].
    assert (Hxo : ~ In x old).
    { intros Ho. eapply (Hdis x); [|exact Ho]. unfold eitems. apply in_flat_map. eexists; split; [exact He|left; reflexivity]. }
    assert (Hxp : x <> p) by (intros ->; apply Hxa; constructor).
    assert (Ev : view h1 x = view h x).
    { rewrite (V1 x). unfold freed. destruct (Nat.eqb_spec x p); [congruence|].
      destruct (memb x old) eqn:Em; [apply memb_In in Em; contradiction|reflexivity]. }
    rewrite Ev. intros [A|[A (T & T' & HT & Er & HT' & Ec & Lab & Rng)]]; [left; exact A|right]. split; [exact A|].
    destruct (ltree_exists _ _ _ (wf_forest _ W) Hx) as (T0 & HT0 & Er0 & _).
    assert (Hnp : ~ In p (flatten T0)).
    { intros K. apply Hxa. rewrite <- Er0. eapply ltree_anc; [apply (wf_forest _ W)|exact HT0|exact K]. }
    assert (HT1 : ltree (view h1) T0).
    { eapply ltree_frame; [|exact HT0]. intros y Hy. rewrite (V1 y). unfold freed.
      destruct (Nat.eqb_spec y p) as [->|]; [contradiction|]. destruct (memb y old); reflexivity. }
    assert (T = T0) as -> by (eapply ltree_unique; eauto; congruence).
    exists T0, T'. split; [assumption|]. split; [assumption|]. split; [assumption|]. split; [assumption|].
    split; [|assumption]. rewrite Lab. apply tmap_ext. intros y Hy. unfold label. rewrite (V1 y). unfold freed.
    destruct (Nat.eqb_spec y p) as [->|]; [contradiction|]. destruct (memb y old); reflexivity.
  - intros y Hy Hyp. rewrite X3 by (assumption || lia). rewrite !memb_existsb. rewrite eitems_app, eitems_map, filter_app.
    assert (Hm : memb y (filter (is_free (view h1)) (eitems es) ++ filter (is_free (view h1)) old) =
                 memb y (filter (is_free (view h)) (eitems es)) || memb y old).
    { assert (Ef : filter (is_free (view h1)) old = old).
      { apply forallb_filter_id. apply forallb_forall. intros z Hz. unfold is_free. rewrite (V1 z). unfold freed.
        destruct (Hold z Hz) as (Hz1 & _). destruct (Nat.eqb_spec z p); [congruence|]. apply memb_In in Hz. rewrite Hz. reflexivity. }
      assert (Ee : filter (is_free (view h1)) (eitems es) = filter (is_free (view h)) (eitems es)).
      { apply filter_ext_in. intros z Hz. unfold is_free. rewrite (V1 z). unfold freed.
        destruct (memb z old) eqn:Em; [apply memb_In in Em; elim (Hdis z Hz Em)|].
        destruct (Nat.eqb_spec z p) as [->|]; reflexivity. }
      rewrite Ef, Ee. clear. induction (filter (is_free (view h)) (eitems es)) as [|z l IH]; cbn; [reflexivity|].
      rewrite IH. apply orb_assoc. }
    rewrite Hm, (V1 y). unfold freed. destruct (Nat.eqb_spec y p); [congruence|].
    destruct (memb y old) eqn:Em.
    + rewrite orb_true_r. apply memb_In in Em. destruct (Hold y Em) as (_ & _ & Hpar).
      etransitivity; [apply a_set_parent_back; exact Hpar|].
      destruct (memb y (filter (is_free (view h)) (eitems es))); [symmetry; apply a_set_parent_same; exact Hpar|reflexivity].
    + rewrite orb_false_r. reflexivity.
Qed.
