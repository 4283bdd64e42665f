(** Every item flagged as link root has its link object; then copying, extending and
    sorting cannot fail half-way. *)
From Coq Require Import Sorting.Permutation.
From Verif Require Import Base Heap HeapSpec ListLemmas ForestLemmas HeapInv HeapAttach HeapOps HeapOps2 HeapOps3
  HeapHoare Tree HeapTree HeapCopy HeapMut HeapExt HeapExt2 HeapOrd HeapOrd2.

Definition lnode (n : node) : Prop := has (nflags n) LINK_ROOT = true -> nlink n <> None.
Definition links_sane (h : heap) : Prop := forall x, lnode (hnode h x).
Definition lsp {A} (m : M A) : Prop := forall h, links_sane h -> links_sane (fst (m h)).

Lemma lsp_bind {A B} (m : M A) (k : A -> M B) : lsp m -> (forall a, lsp (k a)) -> lsp (bind m k).
Proof.
  intros Hm Hk h H. unfold bind. specialize (Hm h H). destruct (m h) as [h' [a|e]]; cbn in *; [apply Hk|]; assumption.
Qed.
Lemma lsp_pure {A} (m : M A) : (forall h, fst (m h) = h) -> lsp m.
Proof. intros E h H. rewrite E. assumption. Qed.
Lemma lsp_ret {A} (a : A) : lsp (ret a). Proof. intros h H. exact H. Qed.
Lemma lsp_throw {A} e : lsp (@throw A e). Proof. intros h H. exact H. Qed.
Lemma lsp_gets {A} (f : heap -> A) : lsp (gets f). Proof. intros h H. exact H. Qed.
Lemma ls_hmod h x f : (forall n, lnode n -> lnode (f n)) -> links_sane h -> links_sane (hmod h x f).
Proof. intros Hf H y. cbn. destruct (Nat.eqb y x); [apply Hf|]; apply H. Qed.
Lemma lsp_upd x f : (forall n, lnode n -> lnode (f n)) -> lsp (upd x f).
Proof. intros Hf h H. apply ls_hmod; assumption. Qed.
Lemma lsp_mapM_ {A} (f : A -> M unit) l : (forall a, lsp (f a)) -> lsp (mapM_ f l).
Proof. intros H. induction l; cbn; [apply lsp_ret|]. apply lsp_bind; auto. Qed.
Lemma lsp_get_fam p t : lsp (get_fam p t).
Proof. apply lsp_pure. intros h. unfold get_fam. destruct (nbound _); auto. Qed.
Lemma lsp_put_fam p t l : lsp (put_fam p t l).
Proof.
  intros h H. unfold put_fam. destruct (nbound _); [exact H| |].
  - destruct (nfams _); [|exact H]. apply ls_hmod; auto.
  - apply ls_hmod; auto.
Qed.
Lemma lsp_new_item t v fl lk : (has fl LINK_ROOT = true -> lk <> None) -> lsp (new_item t v fl lk).
Proof. intros Ht h H y. cbn. destruct (Nat.eqb _ _); [exact Ht|apply H]. Qed.
Lemma lsp_copy_node x : lsp (copy_node x).
Proof.
  intros h H. unfold copy_node. rewrite bind_gets. cbn.
  destruct (has (nflags (hnode h x)) LINK_ROOT) eqn:E; cbn [andb].
  - specialize (H x E) as Hx. destruct (nlink (hnode h x)) as [k|] eqn:Ek; [|exact H].
    apply lsp_new_item; [|exact H]. cbn. congruence.
  - apply lsp_new_item; [|exact H]. intros K. exfalso.
    assert (E2 : has (Z.land (nflags (hnode h x)) FLAG_MASK) LINK_ROOT = has (nflags (hnode h x)) LINK_ROOT) by (apply has_land; reflexivity).
    congruence.
Qed.
Ltac ls := repeat first
  [ assumption
  | match goal with |- lsp (bind _ _) => apply lsp_bind; [|intro] end
  | apply lsp_ret | apply lsp_throw | apply lsp_gets
  | apply lsp_get_fam | apply lsp_put_fam | apply lsp_copy_node
  | apply lsp_new_item; (let H := fresh in intros H; discriminate H)
  | apply lsp_upd; intros; assumption
  | apply lsp_mapM_; intro
  | progress cbv zeta
  | match goal with |- lsp (match ?x with _ => _ end) => destruct x end ].
Lemma lsp_append_core p x : lsp (append_core p x). Proof. unfold append_core. ls. Qed.
Lemma lsp_copy_children fuel : forall s d, lsp (copy_children fuel s d).
Proof. induction fuel; intros; cbn [copy_children]; ls; [apply lsp_append_core|apply IHfuel]. Qed.
Lemma lsp_copy_item x : lsp (copy_item x). Proof. unfold copy_item. ls. apply lsp_copy_children. Qed.
Lemma lsp_ext_item e : lsp (ext_item e).
Proof. unfold ext_item. ls. apply lsp_copy_item. Qed.
Lemma lsp_ext_step p e : lsp (ext_step p e). Proof. unfold ext_step. ls. apply lsp_ext_item. Qed.

Lemma ls_good h x : links_sane h -> link_good (label (view h) x) = true.
Proof.
  intros H. unfold link_good, label. cbn. destruct (has (nflags (hnode h x)) LINK_ROOT) eqn:E; [|reflexivity].
  specialize (H x E). destruct (nlink (hnode h x)); [reflexivity|congruence].
Qed.
Lemma copy_item_total h x : WF h -> links_sane h -> x < hnext h -> exists h' c, copy_item x h = (h', Ok c).
Proof.
  intros W L Hx. destruct (ltree_exists (hnext h) (view h) x (wf_forest _ W) Hx) as (T & HT & HR & _). subst x.
  destruct (copy_item_ok h W T HT Hx) as (h' & [c|e] & E & _ & _ & _ & K); [eauto|]. exfalso. destruct K as [_ K].
  assert (forallb (fun y => link_good (label (view h) y)) (flatten T) = true)
    by (apply forallb_forall; intros; apply ls_good; assumption). congruence.
Qed.

(** the tag arguments of an iterable are usable as tags *)
Definition earg_tag_ok (e : earg) : Prop := match e with EArgs t _ => hashable t = true | _ => True end.
Lemma ext_item_total h p e : WF h -> links_sane h -> p < hnext h -> earg_ok h p e -> earg_tag_ok e ->
  exists h' c, ext_item e h = (h', Ok c).
Proof.
  intros W L Hp He Ht. destruct e as [x|t v|v]; cbn [ext_item earg_ok earg_tag_ok] in *.
  - rewrite bind_gets. destruct (nprt (hnode h x)); [apply copy_item_total; tauto|]. eexists _, _. reflexivity.
  - rewrite Ht. eexists _, _. reflexivity.
  - eexists _, _. reflexivity.
Qed.
Lemma ext_step_total h p e : WF h -> links_sane h -> p < hnext h -> nbound (hnode h p) = Current -> earg_ok h p e ->
  earg_tag_ok e -> snd (ext_step p e h) = Ok tt.
Proof.
  intros W L Hp Hb He Ht. destruct (ext_item_total h p e W L Hp He Ht) as (h0 & c0 & E0).
  destruct (ext_item_case h p e W Hp He) as (h1 & r & E & W1 & Hn & Fr & R). rewrite E in E0. injection E0 as <- ->.
  unfold ext_step. rewrite (bind_ok _ _ _ _ _ E), bind_gets. destruct R as (A & El & Hc).
  destruct (ext_attach_ok h1 W1 p c0 A) as (h2 & E2 & Q2); [destruct (Fr p Hp) as [_ ->]; assumption|].
  cbv zeta in E2. cbv zeta. rewrite E2. reflexivity.
Qed.
Lemma ext_loop_total p es : forall h, WF h -> links_sane h -> p < hnext h -> nbound (hnode h p) = Current ->
  Forall (earg_ok h p) es -> Forall earg_tag_ok es -> snd (mapM_ (ext_step p) es h) = Ok tt.
Proof.
  induction es as [|e es IH]; intros h W L Hp Hb HF HT; [reflexivity|]. inversion_clear HF as [|? ? He HF']. inversion_clear HT as [|? ? Ht HT'].
  pose proof (ext_step_total h p e W L Hp Hb He Ht) as T. pose proof (lsp_ext_step p e h L) as L'.
  destruct (ext_step_case h p e W Hp Hb He) as (h' & r & E & W' & Hn & Hb' & _). cbn [mapM_].
  rewrite E in T, L'. cbn in T, L'. subst r. rewrite (bind_ok _ _ _ _ _ E).
  destruct (earg_ok_step h p e h' W Hp Hb He E) as (_ & _ & K).
  apply IH; auto. lia. eapply Forall_impl; [|exact HF']. exact K.
Qed.
Lemma ls_same h h' : (forall y, nflags (hnode h' y) = nflags (hnode h y) /\ nlink (hnode h' y) = nlink (hnode h y)) ->
  links_sane h -> links_sane h'.
Proof. intros E H x. unfold lnode. destruct (E x) as [-> ->]. apply H. Qed.
Lemma ls_same_view h h' : same (view h') (view h) -> links_sane h -> links_sane h'.
Proof.
  intros S. apply ls_same. intros y. specialize (S y). split.
  - exact (f_equal a_flags S). - exact (f_equal a_link S).
Qed.
Lemma iter_extend_total h p es : WF h -> links_sane h -> p < hnext h -> Forall (earg_ok h p) es -> Forall earg_tag_ok es ->
  snd (iter_extend p es h) = Ok tt.
Proof.
  intros W L Hp HF HT. rewrite iter_extend_start. destruct (ext_start_ok h p W) as (W' & B & N & S & _).
  apply ext_loop_total; auto.
  - eapply ls_same_view; eauto.
  - rewrite N. assumption.
  - eapply Forall_impl; [|exact HF]. intros e. apply earg_ok_same; assumption.
Qed.
Lemma freed_fl s p l rest y : a_flags (freed s p l rest y) = a_flags (s y) /\ a_link (freed s p l rest y) = a_link (s y).
Proof. unfold freed. destruct (Nat.eqb_spec y p) as [->|]; [split; reflexivity|]. destruct (memb y l); split; reflexivity. Qed.
Lemma ls_freed h h' p l rest : same (view h') (freed (view h) p l rest) -> links_sane h -> links_sane h'.
Proof.
  intros S. apply ls_same. intros y. specialize (S y). destruct (freed_fl (view h) p l rest y) as [E1 E2].
  rewrite <- S in E1, E2. split; [exact E1|exact E2].
Qed.
Lemma extendleft_total h p es : WF h -> links_sane h -> p < hnext h -> outcome (check_extendleft p es) h = Ok tt ->
  Forall (earg_far h p) es -> Forall earg_tag_ok es -> snd (extendleft p es h) = Ok tt.
Proof.
  intros W L Hp HC HF HT. destruct (extendleft_start h p es W HC) as (h1 & Q & ->).
  assert (W1 : WF h1) by (eapply heq_WF; [exact Q|apply hfree_WF; assumption]).
  apply iter_extend_total; [assumption| | | |].
  - eapply ls_freed; [|exact L]. eapply same_trans; [apply heq_view; exact Q|]. apply hfree_view. assumption.
  - destruct Q as [Q _]. rewrite <- Q. exact Hp.
  - eapply Forall_impl; [|apply (extendleft_pre h p es h1 W Hp HF Q)]. intros e. apply far_ok.
  - apply Forall_app. split; [assumption|]. apply Forall_forall. intros e He. apply in_map_iff in He as (x & <- & _). exact I.
Qed.

Lemma clear_items_ls p : lsp (clear_items p).
Proof. apply lsp_upd. intros; assumption. Qed.
Lemma sort_total h p key rv : WF h -> links_sane h -> p < hnext h -> tree_protected h p = false ->
  snd (sort p key rv h) = Ok tt.
Proof.
  intros W L Hp Hpr. unfold sort, check_order, bind at 1. rewrite bind_gets, Hpr. cbn [ret].
  rewrite bind_gets. cbv zeta. rewrite (bind_ok (clear_items p) _ h (hclear h p) tt eq_refl). unfold extend.
  assert (Hpr1 : tree_protected (hclear h p) p = false).
  { rewrite (prot_view h); [assumption|]. rewrite (hclear_view h p p). unfold reorder. rewrite Nat.eqb_refl. reflexivity. }
  rewrite (bind_ok _ _ _ _ _ (check_extend_unprot p _ _ Hpr1)).
  apply iter_extend_total; [apply hclear_WF; assumption|apply clear_items_ls; assumption|assumption| |].
  - apply Forall_forall. intros e He. apply in_map_iff in He as (x & <- & Hx). apply (Permutation_in _ (Permutation_sym (sort_list_perm _ _))) in Hx.
    destruct (child_attached h p x W Hx) as [H1 H2]. split; [exact H1|]. unfold parent_of. rewrite (hclear_view h p x), reorder_parent.
    unfold parent_of in H2. rewrite H2. discriminate.
  - apply Forall_forall. intros e He. apply in_map_iff in He as (x & <- & _). exact I.
Qed.
