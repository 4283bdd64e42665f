(** [links_sane] holds along every history whose constructor calls do not pass the
    LINK_ROOT flag by hand. *)
From Verif Require Import Base Heap HeapSpec HeapInv HeapExt2 HeapLink History Runs.

Lemma lsp_lift {A} (r : res A) : lsp (lift r). Proof. intros h H. exact H. Qed.
Lemma lsp_mapM {A B} (f : A -> M B) l : (forall a, lsp (f a)) -> lsp (mapM f l).
Proof.
  intros H. induction l; cbn; [apply lsp_ret|]. apply lsp_bind; auto. intros b. apply lsp_bind; auto.
  intros; apply lsp_ret.
Qed.
Lemma lsp_del_fam p t : lsp (del_fam p t).
Proof.
  intros h H. unfold del_fam. destruct (nfams _); [|exact H]. destruct (dget _ _); [|exact H]. apply ls_hmod; auto.
Qed.
Lemma lsp_dict_get p t : lsp (dict_get p t).
Proof. apply lsp_pure. intros h. unfold dict_get. destruct (nfams _); auto. Qed.
Lemma lsp_dict_put p t l : lsp (dict_put p t l).
Proof. intros h H. unfold dict_put. destruct (nfams _); [|exact H]. apply ls_hmod; auto. Qed.
Lemma lsp_set_cache e s y i : lsp (set_cache e s y i).
Proof.
  intros h H. unfold set_cache. destruct (nprt _); [|exact H]. destruct (pl_tuple _); [exact H|]. apply ls_hmod; auto.
Qed.
Lemma lsp_scan s x l : forall i d, lsp (scan s l i d x).
Proof.
  induction l; intros i d; cbn; [apply lsp_throw|]. apply lsp_bind; [apply lsp_set_cache|].
  intros _. destruct (Nat.eqb _ _); [apply lsp_ret|apply IHl].
Qed.
Ltac hp := repeat first
  [ assumption
  | match goal with |- lsp (bind _ _) => apply lsp_bind; [|intro] end
  | apply lsp_ret | apply lsp_throw | apply lsp_gets | apply lsp_lift
  | apply lsp_get_fam | apply lsp_put_fam | apply lsp_del_fam | apply lsp_dict_get | apply lsp_dict_put
  | apply lsp_set_cache | apply lsp_scan | apply lsp_copy_node
  | apply lsp_new_item; (let H := fresh in intros H; discriminate H)
  | apply lsp_upd; intros; assumption
  | apply lsp_upd; (let H := fresh in intros ? ? ? H; discriminate H)
  | apply lsp_mapM_; intro | apply lsp_mapM; intro
  | progress cbv zeta
  | match goal with |- lsp (match ?x with _ => _ end) => destruct x end
  | match goal with |- lsp (let '(_, _) := ?x in _) => destruct x end ].

Lemma lsp_locate s l c x : lsp (locate s l c x). Proof. unfold locate. hp. Qed.
Lemma lsp_get_idx x : lsp (get_idx x).
Proof.
  intros h H. unfold get_idx. destruct (nprt _) as [pl|]; [|exact H]. revert h H.
  intros h. generalize (locate SAbs (nitems (hnode h (pl_par pl))) (pl_abs pl) x), (lsp_locate SAbs (nitems (hnode h (pl_par pl))) (pl_abs pl) x).
  intros m Hm H. revert h H. change (lsp (f <- m ;; ret (Some (found_pos f)))). hp.
Qed.
Lemma lsp_getitem_fam p t : lsp (getitem_fam p t). Proof. unfold getitem_fam. hp. Qed.
Lemma lsp_get_tag_idx x : lsp (get_tag_idx x).
Proof.
  intros h H. unfold get_tag_idx. destruct (nprt _) as [pl|]; [|exact H].
  generalize (ntag (hnode h x)). intros t. revert h H.
  change (lsp (fam <- getitem_fam (pl_par pl) t ;; f <- locate SFam fam (pl_fam pl) x ;;
     ret (match f with Fast i | Win i => TIPair t i | Slow i => TIBare i end))).
  apply lsp_bind; [apply lsp_getitem_fam|]. intros f. apply lsp_bind; [apply lsp_locate|]. intros; apply lsp_ret.
Qed.
Ltac hp2 := repeat first [ progress hp | apply lsp_get_idx | apply lsp_get_tag_idx | apply lsp_getitem_fam | apply lsp_locate ].
Lemma lsp_idx x : lsp (idx_or_type_error x). Proof. unfold idx_or_type_error. hp2. Qed.
Lemma lsp_fam_ins fuel : forall fam i last, lsp (fam_ins_idx fuel fam i last).
Proof. induction fuel; intros; cbn; hp2; apply IHfuel. Qed.
Lemma lsp_family_ins fam i : lsp (family_insertion_idx fam i). Proof. apply lsp_fam_ins. Qed.
Lemma lsp_append_left_core p x : lsp (append_left_core p x). Proof. unfold append_left_core. hp2. Qed.
Lemma lsp_free_item a : lsp (free_item a). Proof. unfold free_item. hp2. Qed.
Lemma lsp_check_append p a : lsp (check_append p a). Proof. unfold check_append. hp2. Qed.
Lemma lsp_check_insert p a : lsp (check_insert p a). Proof. unfold check_insert. hp2. Qed.
Ltac hp3 := repeat first [ progress hp2 | apply lsp_idx | apply lsp_family_ins | apply lsp_append_core
   | apply lsp_append_left_core | apply lsp_free_item | apply lsp_check_append | apply lsp_check_insert ].
Lemma lsp_append p a : lsp (append p a). Proof. unfold append. hp3. Qed.
Lemma lsp_appendleft p a : lsp (appendleft p a). Proof. unfold appendleft. hp3. Qed.
Lemma lsp_insert_pos p s it : lsp (insert_pos p s it). Proof. unfold insert_pos. hp3. Qed.
Lemma lsp_insert_core p x a : lsp (insert_core p x a). Proof. unfold insert_core. hp3. Qed.
Lemma lsp_insert p it a : lsp (insert p it a).
Proof. unfold insert. destruct it; [apply lsp_append| |]; hp3; first [apply lsp_insert_pos|apply lsp_insert_core]. Qed.
Lemma lsp_iter_extend p es : lsp (iter_extend p es). Proof. unfold iter_extend. hp3; apply lsp_ext_step. Qed.
Lemma lsp_check_extend p es : lsp (check_extend p es). Proof. unfold check_extend. hp3. Qed.
Lemma lsp_check_extendleft p es : lsp (check_extendleft p es). Proof. unfold check_extendleft. hp3. Qed.
Lemma lsp_extend p es : lsp (extend p es).
Proof. unfold extend. apply lsp_bind; [apply lsp_check_extend|]. intros; apply lsp_iter_extend. Qed.
Lemma lsp_extend_tree p q : lsp (extend_tree p q).
Proof. unfold extend_tree. apply lsp_bind; [apply lsp_check_extend|]. intros. hp3; first [apply lsp_copy_item|apply lsp_iter_extend]. Qed.
Lemma lsp_clear_items p : lsp (clear_items p). Proof. apply lsp_upd. intros; cbn; assumption. Qed.
Lemma lsp_extendleft p es : lsp (extendleft p es).
Proof. unfold extendleft. apply lsp_bind; [apply lsp_check_extendleft|]. intros. hp3; first [apply lsp_clear_items|apply lsp_iter_extend]. Qed.
Lemma lsp_check_del p : lsp (check_del p). Proof. unfold check_del. hp3. Qed.
Lemma lsp_unfamily p x : lsp (unfamily p x). Proof. unfold unfamily. hp3. Qed.
Lemma lsp_del_int p i : lsp (del_int p i).
Proof. unfold del_int. apply lsp_bind; [apply lsp_check_del|]. intros. hp3; apply lsp_unfamily. Qed.
Lemma lsp_del_slice p a b : lsp (del_slice p a b).
Proof. unfold del_slice. apply lsp_bind; [apply lsp_check_del|]. intros. hp3. Qed.
Lemma lsp_delitem p tg : lsp (delitem p tg).
Proof. unfold delitem. hp3; first [apply lsp_del_int|apply lsp_del_slice|apply lsp_check_del]. Qed.
Lemma lsp_remove p x : lsp (remove p x). Proof. unfold remove. hp3. apply lsp_del_int. Qed.
Lemma lsp_catch (A : Type) (m : M A) (k1 : A -> M Z) (k2 : M Z) : lsp m -> (forall a, lsp (k1 a)) -> lsp k2 ->
  lsp (fun hh => match m hh with
     | (hh1, Ok n) => k1 n hh1
     | (hh1, Err IndexError) | (hh1, Err KeyError) => k2 hh1
     | (hh1, Err e) => (hh1, Err e) end).
Proof.
  intros Hm H1 H2 h H. specialize (Hm h H). destruct (m h) as [h1 [a|e]]; cbn in *; [apply H1; assumption|].
  destruct e; try assumption; apply H2; assumption.
Qed.
Lemma lsp_setitem p tg a : lsp (setitem p tg a).
Proof.
  unfold setitem. hp3; first [apply lsp_copy_item|apply lsp_delitem|apply lsp_append|idtac].
  all: try (apply lsp_catch; [apply lsp_family_ins|intros n9|];
    refine (lsp_bind (put_fam _ _ _) (fun _ => ret _) _ _); intros; hp3).
Qed.
Lemma lsp_check_move p x : lsp (check_move p x). Proof. unfold check_move. hp3. Qed.
Lemma lsp_move x tg : lsp (move x tg).
Proof. unfold move. hp3; first [apply lsp_check_move|apply lsp_del_int|apply lsp_append|apply lsp_insert]. Qed.
Lemma lsp_check_rename p x t : lsp (check_rename p x t). Proof. unfold check_rename. hp3. Qed.
Lemma lsp_rename x t : hashable t = true -> lsp (rename x t).
Proof. intros Ht. unfold rename. rewrite Ht. hp3; first [apply lsp_check_rename|idtac]. Qed.
Lemma lsp_check_order p : lsp (check_order p). Proof. unfold check_order. hp3. Qed.
Lemma lsp_reverse p : lsp (reverse p).
Proof. unfold reverse. apply lsp_bind; [apply lsp_check_order|]. intros. hp3. Qed.
Lemma lsp_pop_n n p i : lsp (pop_n n p i).
Proof. induction n; cbn [pop_n]; hp3. apply lsp_del_int. Qed.
Lemma lsp_rotate p n : lsp (rotate p n).
Proof. unfold rotate. apply lsp_bind; [apply lsp_check_order|]. intros. hp3; first [apply lsp_pop_n|apply lsp_extendleft|apply lsp_extend]. Qed.
Lemma lsp_sort p k r : lsp (sort p k r).
Proof. unfold sort. apply lsp_bind; [apply lsp_check_order|]. intros. hp3; first [apply lsp_clear_items|apply lsp_extend]. Qed.
Lemma unset_flags_zero s f : unset_flags_val s f = 0%Z.
Proof. unfold unset_flags_val. rewrite Z.land_assoc, Z.land_lnot_diag. apply Z.land_0_l. Qed.
Lemma lsp_unset_flags x f : lsp (unset_flags x f).
Proof. unfold unset_flags. hp3. apply lsp_upd. intros n0 _ H. exfalso. cbn in H. rewrite unset_flags_zero in H. discriminate. Qed.
Lemma has_lor a b m : has (Z.lor a b) m = has a m || has b m.
Proof.
  unfold has. rewrite Z.land_lor_distr_l. destruct (Z.eqb_spec (Z.land a m) 0) as [Ea|Ea].
  - rewrite Ea, Z.lor_0_l. reflexivity.
  - cbn. destruct (Z.eqb_spec (Z.lor (Z.land a m) (Z.land b m)) 0) as [E|E]; [|reflexivity]. apply Z.lor_eq_0_iff in E. tauto.
Qed.
Lemma lsp_clear p kv : lsp (clear p kv).
Proof. unfold clear. hp3; try first [apply lsp_unset_flags|apply clear_items_ls]. Qed.
Lemma lsp_set_flags x f i : has f LINK_ROOT = false -> lsp (set_flags x f i).
Proof. intros Hf. unfold set_flags. hp3. apply lsp_upd. intros n0 Hn H. apply Hn. cbn in H. rewrite has_lor, Hf, orb_false_r in H. exact H. Qed.
Lemma lsp_set_flags_list f i l : has f LINK_ROOT = false -> lsp (set_flags_list f i l). Proof. intros Hf. apply lsp_mapM_. intros; apply lsp_set_flags. assumption. Qed.
Lemma lsp_set_tree_ro x : lsp (set_tree_read_only x). Proof. unfold set_tree_read_only. hp3. apply lsp_set_flags. reflexivity. Qed.
Lemma lsp_unset_tree_ro x : lsp (unset_tree_read_only x). Proof. unfold unset_tree_read_only. hp3. all: apply lsp_unset_flags. Qed.
Lemma lsp_unset_value_ro x : lsp (unset_value_read_only x). Proof. unfold unset_value_read_only. hp3. apply lsp_unset_flags. Qed.
Lemma lsp_set_value x v : lsp (set_value x v). Proof. unfold set_value. hp3. Qed.
Lemma lsp_del_value x : lsp (del_value x). Proof. unfold del_value. hp3. Qed.
Lemma lsp_set_key_value x k v : lsp (set_key_value x k v). Proof. unfold set_key_value. hp3. Qed.
Lemma lsp_del_key_value x k : lsp (del_key_value x k). Proof. unfold del_key_value. hp3. Qed.
Lemma lsp_ext_step_flags p f e : has f LINK_ROOT = false -> lsp (ext_step_flags p f e).
Proof. intros Hf. unfold ext_step_flags. apply lsp_bind; [apply lsp_ext_step|]. intros. hp3. all: apply lsp_set_flags; assumption. Qed.
Lemma has_deep f : has (Z.land (Z.land f FLAG_MASK) DEEP_FLAG_MASK) LINK_ROOT = false.
Proof. unfold has. rewrite <- Z.land_assoc. replace (Z.land DEEP_FLAG_MASK LINK_ROOT) with 0%Z by reflexivity. rewrite Z.land_0_r. reflexivity. Qed.
Lemma lsp_new_tree t v es lk f : has f LINK_ROOT = false -> lsp (new_tree t v es lk f).
Proof. intros Hf. unfold new_tree. destruct (hashable t) eqn:E; cbn [negb]; [|apply lsp_throw]. hp3. all: try (apply lsp_ext_step_flags; apply has_deep).
  apply lsp_new_item. rewrite has_land by reflexivity. congruence. Qed.
Lemma lsp_force x : lsp (force_cache_update x). Proof. unfold force_cache_update, enum_cache. hp3. Qed.
Lemma lsp_keys_loop l : forall cnt, lsp (keys_loop cnt l). Proof. induction l; intros; cbn; hp3. apply IHl. Qed.
Lemma lsp_items_view p : lsp (items_view p). Proof. unfold items_view. hp3. apply lsp_keys_loop. Qed.
Lemma lsp_sorted_heads p o : lsp (sorted_heads p o). Proof. unfold sorted_heads. hp3. Qed.
Lemma lsp_tags_view p o : lsp (tags_view p o). Proof. unfold tags_view. hp3. all: apply lsp_sorted_heads. Qed.
Lemma lsp_families_view p o : lsp (families_view p o). Proof. unfold families_view. hp3. all: apply lsp_sorted_heads. Qed.
Lemma lsp_idx_path f : forall x, lsp (idx_path f x). Proof. induction f; intros; cbn [idx_path tag_idx_path]; hp3. apply IHf. Qed.
Lemma lsp_tag_idx_path f : forall x, lsp (tag_idx_path f x). Proof. induction f; intros; cbn [idx_path tag_idx_path]; hp3. apply IHf. Qed.
Lemma lsp_pre x : lsp (pre_item x). Proof. unfold pre_item. hp3. Qed.
Lemma lsp_post x : lsp (post_item x). Proof. unfold post_item. hp3. Qed.

Definition flags_ok (o : op) : bool := match o with ONew _ _ _ _ fl => negb (has fl LINK_ROOT) | _ => true end.
Lemma after_links h o : flags_ok o = true -> (forall x t, o = ORename x t -> hashable t = true) -> links_sane h -> links_sane (after o h).
Proof.
  intros A HR W. destruct o; cbn [flags_ok] in A; unfold after; cbn [run]; rewrite ?void_fst.
  - apply lsp_new_tree; [apply negb_true_iff|]; assumption.
  - apply lsp_append; assumption.
  - apply lsp_appendleft; assumption.
  - apply lsp_insert; assumption.
  - apply lsp_extend; assumption.
  - apply lsp_extend_tree; assumption.
  - apply lsp_extendleft; assumption.
  - apply lsp_delitem; assumption.
  - apply lsp_remove; assumption.
  - apply lsp_setitem; assumption.
  - apply lsp_move; assumption.
  - apply lsp_rename; [eapply HR; reflexivity|assumption].
  - apply lsp_reverse; assumption.
  - apply lsp_rotate; assumption.
  - apply lsp_sort; assumption.
  - apply lsp_clear; assumption.
  - apply lsp_copy_item; assumption.
  - apply lsp_set_tree_ro; assumption.
  - apply lsp_unset_tree_ro; assumption.
  - apply lsp_set_flags; [reflexivity|assumption].
  - apply lsp_unset_value_ro; assumption.
  - apply lsp_set_value; assumption.
  - apply lsp_del_value; assumption.
  - apply lsp_set_key_value; assumption.
  - apply lsp_del_key_value; assumption.
  - apply (lsp_upd x (set_coupled (Some c))); auto.
  - apply lsp_get_idx; assumption.
  - apply lsp_get_tag_idx; assumption.
  - apply lsp_idx_path; assumption.
  - apply lsp_tag_idx_path; assumption.
  - apply lsp_pre; assumption.
  - apply lsp_post; assumption.
  - unfold keys_view. apply lsp_bind; [apply lsp_items_view|intros; apply lsp_ret|assumption].
  - apply lsp_tags_view; assumption.
  - apply lsp_families_view; assumption.
  - apply lsp_force; assumption.
Qed.
(** reachable without passing LINK_ROOT by hand *)
Inductive ReachL : heap -> Prop :=
| ReachL_start : ReachL empty_heap
| ReachL_step h o : ReachL h -> allowed h o -> flags_ok o = true -> ReachL (after o h).
Lemma ReachL_Reach h : ReachL h -> Reach h.
Proof. induction 1; [constructor|apply Reach_step; assumption]. Qed.
Lemma reachL_links h : ReachL h -> links_sane h.
Proof.
  induction 1 as [|h o R IH A F]; [intros x H; discriminate|]. apply after_links; [assumption| |assumption].
  intros x t ->. apply A.
Qed.
Lemma reachL_runs ops : forall h, ReachL h -> allowed_all ops h = true -> forallb flags_ok ops = true -> ReachL (runs ops h).
Proof.
  induction ops as [|o r IH]; intros h H A K; [assumption|]. cbn in A. apply andb_true_iff in A as [A1 A2].
  cbn in K. apply andb_true_iff in K as [K1 K2].
  cbn [runs]. apply IH; [|assumption|assumption]. apply ReachL_step; [assumption|apply allowed_b_ok; assumption|assumption].
Qed.
Lemma ex_reachL : ReachL ex_heap.
Proof. apply reachL_runs; [constructor|vm_compute; reflexivity|reflexivity]. Qed.
