(** Along every history every item's flags stay inside FLAG_MASK (the bits itertree defines). *)
From Coq Require Import Sorting.Permutation.
From Verif Require Import Base Heap HeapSpec ListLemmas ForestLemmas HeapInv HeapAttach HeapOps HeapOps2 HeapOps3
  HeapHoare Tree HeapTree HeapCopy HeapMut HeapExt HeapExt2 HeapOrd HeapOrd2 HeapLink HeapLinkH History Runs.

Definition in_mask (fl : Z) : Prop := Z.land fl FLAG_MASK = fl.
Definition fnode (n : node) : Prop := in_mask (nflags n).
Definition flags_masked (h : heap) : Prop := forall x, fnode (hnode h x).
Lemma in_mask_land a : in_mask (Z.land a FLAG_MASK). Proof. unfold in_mask. rewrite <- Z.land_assoc, Z.land_diag. reflexivity. Qed.
Lemma in_mask_lor a b : in_mask a -> in_mask b -> in_mask (Z.lor a b).
Proof. unfold in_mask. intros A B. rewrite Z.land_lor_distr_l, A, B. reflexivity. Qed.
Definition fsp {A} (m : M A) : Prop := forall h, flags_masked h -> flags_masked (fst (m h)).

Lemma fsp_bind {A B} (m : M A) (k : A -> M B) : fsp m -> (forall a, fsp (k a)) -> fsp (bind m k).
Proof.
  intros Hm Hk h H. unfold bind. specialize (Hm h H). destruct (m h) as [h' [a|e]]; cbn in *; [apply Hk|]; assumption.
Qed.
Lemma fsp_pure {A} (m : M A) : (forall h, fst (m h) = h) -> fsp m.
Proof. intros E h H. rewrite E. assumption. Qed.
Lemma fsp_ret {A} (a : A) : fsp (ret a). Proof. intros h H. exact H. Qed.
Lemma fsp_throw {A} e : fsp (@throw A e). Proof. intros h H. exact H. Qed.
Lemma fsp_gets {A} (f : heap -> A) : fsp (gets f). Proof. intros h H. exact H. Qed.
Lemma ls_hmod h x f : (forall n, fnode n -> fnode (f n)) -> flags_masked h -> flags_masked (hmod h x f).
Proof. intros Hf H y. cbn. destruct (Nat.eqb y x); [apply Hf|]; apply H. Qed.
Lemma fsp_upd x f : (forall n, fnode n -> fnode (f n)) -> fsp (upd x f).
Proof. intros Hf h H. apply ls_hmod; assumption. Qed.
Lemma fsp_mapM_ {A} (f : A -> M unit) l : (forall a, fsp (f a)) -> fsp (mapM_ f l).
Proof. intros H. induction l; cbn; [apply fsp_ret|]. apply fsp_bind; auto. Qed.
Lemma fsp_get_fam p t : fsp (get_fam p t).
Proof. apply fsp_pure. intros h. unfold get_fam. destruct (nbound _); auto. Qed.
Lemma fsp_put_fam p t l : fsp (put_fam p t l).
Proof.
  intros h H. unfold put_fam. destruct (nbound _); [exact H| |].
  - destruct (nfams _); [|exact H]. apply ls_hmod; auto.
  - apply ls_hmod; auto.
Qed.
Lemma fsp_new_item t v fl lk : in_mask fl -> fsp (new_item t v fl lk).
Proof. intros Ht h H y. cbn. destruct (Nat.eqb _ _); [exact Ht|apply H]. Qed.
Lemma fsp_copy_node x : fsp (copy_node x).
Proof.
  intros h H. unfold copy_node. rewrite bind_gets. cbn.
  match goal with |- context [if ?b then throw _ else _] => destruct b end; [exact H|].
  apply fsp_new_item; [|exact H]. destruct (has _ _); [apply in_mask_lor; [|reflexivity]|]; apply in_mask_land.
Qed.
Ltac ls := repeat first
  [ assumption
  | match goal with |- fsp (bind _ _) => apply fsp_bind; [|intro] end
  | apply fsp_ret | apply fsp_throw | apply fsp_gets
  | apply fsp_get_fam | apply fsp_put_fam | apply fsp_copy_node
  | apply fsp_new_item; reflexivity
  | apply fsp_upd; intros; assumption
  | apply fsp_mapM_; intro
  | progress cbv zeta
  | match goal with |- fsp (match ?x with _ => _ end) => destruct x end ].
Lemma fsp_append_core p x : fsp (append_core p x). Proof. unfold append_core. ls. Qed.
Lemma fsp_copy_children fuel : forall s d, fsp (copy_children fuel s d).
Proof. induction fuel; intros; cbn [copy_children]; ls; [apply fsp_append_core|apply IHfuel]. Qed.
Lemma fsp_copy_item x : fsp (copy_item x). Proof. unfold copy_item. ls. apply fsp_copy_children. Qed.
Lemma fsp_ext_item e : fsp (ext_item e).
Proof. unfold ext_item. ls. apply fsp_copy_item. Qed.
Lemma fsp_ext_step p e : fsp (ext_step p e). Proof. unfold ext_step. ls. apply fsp_ext_item. Qed.

Lemma fsp_lift {A} (r : res A) : fsp (lift r). Proof. intros h H. exact H. Qed.
Lemma fsp_mapM {A B} (f : A -> M B) l : (forall a, fsp (f a)) -> fsp (mapM f l).
Proof.
  intros H. induction l; cbn; [apply fsp_ret|]. apply fsp_bind; auto. intros b. apply fsp_bind; auto.
  intros; apply fsp_ret.
Qed.
Lemma fsp_del_fam p t : fsp (del_fam p t).
Proof.
  intros h H. unfold del_fam. destruct (nfams _); [|exact H]. destruct (dget _ _); [|exact H]. apply ls_hmod; auto.
Qed.
Lemma fsp_dict_get p t : fsp (dict_get p t).
Proof. apply fsp_pure. intros h. unfold dict_get. destruct (nfams _); auto. Qed.
Lemma fsp_dict_put p t l : fsp (dict_put p t l).
Proof. intros h H. unfold dict_put. destruct (nfams _); [|exact H]. apply ls_hmod; auto. Qed.
Lemma fsp_set_cache e s y i : fsp (set_cache e s y i).
Proof.
  intros h H. unfold set_cache. destruct (nprt _); [|exact H]. destruct (pl_tuple _); [exact H|]. apply ls_hmod; auto.
Qed.
Lemma fsp_scan s x l : forall i d, fsp (scan s l i d x).
Proof.
  induction l; intros i d; cbn; [apply fsp_throw|]. apply fsp_bind; [apply fsp_set_cache|].
  intros _. destruct (Nat.eqb _ _); [apply fsp_ret|apply IHl].
Qed.
Ltac hp := repeat first
  [ assumption
  | match goal with |- fsp (bind _ _) => apply fsp_bind; [|intro] end
  | apply fsp_ret | apply fsp_throw | apply fsp_gets | apply fsp_lift
  | apply fsp_get_fam | apply fsp_put_fam | apply fsp_del_fam | apply fsp_dict_get | apply fsp_dict_put
  | apply fsp_set_cache | apply fsp_scan | apply fsp_copy_node
  | apply fsp_new_item; reflexivity
  | apply fsp_upd; intros; assumption
  | apply fsp_upd; (let H := fresh in intros ? ? ? H; discriminate H)
  | apply fsp_mapM_; intro | apply fsp_mapM; intro
  | progress cbv zeta
  | match goal with |- fsp (match ?x with _ => _ end) => destruct x end
  | match goal with |- fsp (let '(_, _) := ?x in _) => destruct x end ].

Lemma fsp_locate s l c x : fsp (locate s l c x). Proof. unfold locate. hp. Qed.
Lemma fsp_get_idx x : fsp (get_idx x).
Proof.
  intros h H. unfold get_idx. destruct (nprt _) as [pl|]; [|exact H]. revert h H.
  intros h. generalize (locate SAbs (nitems (hnode h (pl_par pl))) (pl_abs pl) x), (fsp_locate SAbs (nitems (hnode h (pl_par pl))) (pl_abs pl) x).
  intros m Hm H. revert h H. change (fsp (f <- m ;; ret (Some (found_pos f)))). hp.
Qed.
Lemma fsp_getitem_fam p t : fsp (getitem_fam p t). Proof. unfold getitem_fam. hp. Qed.
Lemma fsp_get_tag_idx x : fsp (get_tag_idx x).
Proof.
  intros h H. unfold get_tag_idx. destruct (nprt _) as [pl|]; [|exact H].
  generalize (ntag (hnode h x)). intros t. revert h H.
  change (fsp (fam <- getitem_fam (pl_par pl) t ;; f <- locate SFam fam (pl_fam pl) x ;;
     ret (match f with Fast i | Win i => TIPair t i | Slow i => TIBare i end))).
  apply fsp_bind; [apply fsp_getitem_fam|]. intros f. apply fsp_bind; [apply fsp_locate|]. intros; apply fsp_ret.
Qed.
Ltac hp2 := repeat first [ progress hp | apply fsp_get_idx | apply fsp_get_tag_idx | apply fsp_getitem_fam | apply fsp_locate ].
Lemma fsp_idx x : fsp (idx_or_type_error x). Proof. unfold idx_or_type_error. hp2. Qed.
Lemma fsp_fam_ins fuel : forall fam i last, fsp (fam_ins_idx fuel fam i last).
Proof. induction fuel; intros; cbn; hp2; apply IHfuel. Qed.
Lemma fsp_family_ins fam i : fsp (family_insertion_idx fam i). Proof. apply fsp_fam_ins. Qed.
Lemma fsp_append_left_core p x : fsp (append_left_core p x). Proof. unfold append_left_core. hp2. Qed.
Lemma fsp_free_item a : fsp (free_item a). Proof. unfold free_item. hp2. Qed.
Lemma fsp_check_append p a : fsp (check_append p a). Proof. unfold check_append. hp2. Qed.
Lemma fsp_check_insert p a : fsp (check_insert p a). Proof. unfold check_insert. hp2. Qed.
Ltac hp3 := repeat first [ progress hp2 | apply fsp_idx | apply fsp_family_ins | apply fsp_append_core
   | apply fsp_append_left_core | apply fsp_free_item | apply fsp_check_append | apply fsp_check_insert ].
Lemma fsp_append p a : fsp (append p a). Proof. unfold append. hp3. Qed.
Lemma fsp_appendleft p a : fsp (appendleft p a). Proof. unfold appendleft. hp3. Qed.
Lemma fsp_insert_pos p s it : fsp (insert_pos p s it). Proof. unfold insert_pos. hp3. Qed.
Lemma fsp_insert_core p x a : fsp (insert_core p x a). Proof. unfold insert_core. hp3. Qed.
Lemma fsp_insert p it a : fsp (insert p it a).
Proof. unfold insert. destruct it; [apply fsp_append| |]; hp3; first [apply fsp_insert_pos|apply fsp_insert_core]. Qed.
Lemma fsp_iter_extend p es : fsp (iter_extend p es). Proof. unfold iter_extend. hp3; apply fsp_ext_step. Qed.
Lemma fsp_check_extend p es : fsp (check_extend p es). Proof. unfold check_extend. hp3. Qed.
Lemma fsp_check_extendleft p es : fsp (check_extendleft p es). Proof. unfold check_extendleft. hp3. Qed.
Lemma fsp_extend p es : fsp (extend p es).
Proof. unfold extend. apply fsp_bind; [apply fsp_check_extend|]. intros; apply fsp_iter_extend. Qed.
Lemma fsp_extend_tree p q : fsp (extend_tree p q).
Proof. unfold extend_tree. apply fsp_bind; [apply fsp_check_extend|]. intros. hp3; first [apply fsp_copy_item|apply fsp_iter_extend]. Qed.
Lemma fsp_clear_items p : fsp (clear_items p). Proof. apply fsp_upd. intros; cbn; assumption. Qed.
Lemma fsp_extendleft p es : fsp (extendleft p es).
Proof. unfold extendleft. apply fsp_bind; [apply fsp_check_extendleft|]. intros. hp3; first [apply fsp_clear_items|apply fsp_iter_extend]. Qed.
Lemma fsp_check_del p : fsp (check_del p). Proof. unfold check_del. hp3. Qed.
Lemma fsp_unfamily p x : fsp (unfamily p x). Proof. unfold unfamily. hp3. Qed.
Lemma fsp_del_int p i : fsp (del_int p i).
Proof. unfold del_int. apply fsp_bind; [apply fsp_check_del|]. intros. hp3; apply fsp_unfamily. Qed.
Lemma fsp_del_slice p a b : fsp (del_slice p a b).
Proof. unfold del_slice. apply fsp_bind; [apply fsp_check_del|]. intros. hp3. Qed.
Lemma fsp_delitem p tg : fsp (delitem p tg).
Proof. unfold delitem. hp3; first [apply fsp_del_int|apply fsp_del_slice|apply fsp_check_del]. Qed.
Lemma fsp_remove p x : fsp (remove p x). Proof. unfold remove. hp3. apply fsp_del_int. Qed.
Lemma fsp_catch (A : Type) (m : M A) (k1 : A -> M Z) (k2 : M Z) : fsp m -> (forall a, fsp (k1 a)) -> fsp k2 ->
  fsp (fun hh => match m hh with
     | (hh1, Ok n) => k1 n hh1
     | (hh1, Err IndexError) | (hh1, Err KeyError) => k2 hh1
     | (hh1, Err e) => (hh1, Err e) end).
Proof.
  intros Hm H1 H2 h H. specialize (Hm h H). destruct (m h) as [h1 [a|e]]; cbn in *; [apply H1; assumption|].
  destruct e; try assumption; apply H2; assumption.
Qed.
Lemma fsp_setitem p tg a : fsp (setitem p tg a).
Proof.
  unfold setitem. hp3; first [apply fsp_copy_item|apply fsp_delitem|apply fsp_append|idtac].
  all: try (apply fsp_catch; [apply fsp_family_ins|intros n9|];
    refine (fsp_bind (put_fam _ _ _) (fun _ => ret _) _ _); intros; hp3).
Qed.
Lemma fsp_check_move p x : fsp (check_move p x). Proof. unfold check_move. hp3. Qed.
Lemma fsp_move x tg : fsp (move x tg).
Proof. unfold move. hp3; first [apply fsp_check_move|apply fsp_del_int|apply fsp_append|apply fsp_insert]. Qed.
Lemma fsp_check_rename p x t : fsp (check_rename p x t). Proof. unfold check_rename. hp3. Qed.
Lemma fsp_rename x t : hashable t = true -> fsp (rename x t).
Proof. intros Ht. unfold rename. rewrite Ht. hp3; first [apply fsp_check_rename|idtac]. Qed.
Lemma fsp_check_order p : fsp (check_order p). Proof. unfold check_order. hp3. Qed.
Lemma fsp_reverse p : fsp (reverse p).
Proof. unfold reverse. apply fsp_bind; [apply fsp_check_order|]. intros. hp3. Qed.
Lemma fsp_pop_n n p i : fsp (pop_n n p i).
Proof. induction n; cbn [pop_n]; hp3. apply fsp_del_int. Qed.
Lemma fsp_rotate p n : fsp (rotate p n).
Proof. unfold rotate. apply fsp_bind; [apply fsp_check_order|]. intros. hp3; first [apply fsp_pop_n|apply fsp_extendleft|apply fsp_extend]. Qed.
Lemma fsp_sort p k r : fsp (sort p k r).
Proof. unfold sort. apply fsp_bind; [apply fsp_check_order|]. intros. hp3; first [apply fsp_clear_items|apply fsp_extend]. Qed.
Lemma fsp_unset_flags x f : fsp (unset_flags x f).
Proof. unfold unset_flags. hp3. apply fsp_upd. intros n0 _. unfold fnode. cbn. rewrite unset_flags_zero. reflexivity. Qed.
Lemma fsp_clear p kv : fsp (clear p kv).
Proof. unfold clear. hp3; try first [apply fsp_unset_flags|apply fsp_clear_items]. Qed.
Lemma fsp_set_flags x f i : in_mask f -> fsp (set_flags x f i).
Proof. intros Hf. unfold set_flags. hp3. apply fsp_upd. intros n0 Hn. apply in_mask_lor; assumption. Qed.
Lemma fsp_set_flags_list f i l : in_mask f -> fsp (set_flags_list f i l). Proof. intros Hf. apply fsp_mapM_. intros; apply fsp_set_flags. assumption. Qed.
Lemma fsp_set_tree_ro x : fsp (set_tree_read_only x). Proof. unfold set_tree_read_only. hp3. apply fsp_set_flags. reflexivity. Qed.
Lemma fsp_unset_tree_ro x : fsp (unset_tree_read_only x). Proof. unfold unset_tree_read_only. hp3. all: apply fsp_unset_flags. Qed.
Lemma fsp_unset_value_ro x : fsp (unset_value_read_only x). Proof. unfold unset_value_read_only. hp3. apply fsp_unset_flags. Qed.
Lemma fsp_set_value x v : fsp (set_value x v). Proof. unfold set_value. hp3. Qed.
Lemma fsp_del_value x : fsp (del_value x). Proof. unfold del_value. hp3. Qed.
Lemma fsp_set_key_value x k v : fsp (set_key_value x k v). Proof. unfold set_key_value. hp3. Qed.
Lemma fsp_del_key_value x k : fsp (del_key_value x k). Proof. unfold del_key_value. hp3. Qed.
Lemma fsp_ext_step_flags p f e : in_mask f -> fsp (ext_step_flags p f e).
Proof. intros Hf. unfold ext_step_flags. apply fsp_bind; [apply fsp_ext_step|]. intros. hp3. all: apply fsp_set_flags; assumption. Qed.
Lemma fsp_new_tree t v es lk f : fsp (new_tree t v es lk f).
Proof. unfold new_tree. destruct (hashable t) eqn:E; cbn [negb]; [|apply fsp_throw]. hp3.
  all: first [apply fsp_ext_step_flags; unfold in_mask; rewrite <- !Z.land_assoc; reflexivity
    |apply fsp_new_item; apply in_mask_land
    |apply fsp_upd; intros n0 Hn; apply in_mask_lor; [exact Hn|reflexivity]]. Qed.
Lemma fsp_force x : fsp (force_cache_update x). Proof. unfold force_cache_update, enum_cache. hp3. Qed.
Lemma fsp_keys_loop l : forall cnt, fsp (keys_loop cnt l). Proof. induction l; intros; cbn; hp3. apply IHl. Qed.
Lemma fsp_items_view p : fsp (items_view p). Proof. unfold items_view. hp3. apply fsp_keys_loop. Qed.
Lemma fsp_sorted_heads p o : fsp (sorted_heads p o). Proof. unfold sorted_heads. hp3. Qed.
Lemma fsp_tags_view p o : fsp (tags_view p o). Proof. unfold tags_view. hp3. all: apply fsp_sorted_heads. Qed.
Lemma fsp_families_view p o : fsp (families_view p o). Proof. unfold families_view. hp3. all: apply fsp_sorted_heads. Qed.
Lemma fsp_idx_path f : forall x, fsp (idx_path f x). Proof. induction f; intros; cbn [idx_path tag_idx_path]; hp3. apply IHf. Qed.
Lemma fsp_tag_idx_path f : forall x, fsp (tag_idx_path f x). Proof. induction f; intros; cbn [idx_path tag_idx_path]; hp3. apply IHf. Qed.
Lemma fsp_pre x : fsp (pre_item x). Proof. unfold pre_item. hp3. Qed.
Lemma fsp_post x : fsp (post_item x). Proof. unfold post_item. hp3. Qed.

Lemma after_flags h o : (forall x t, o = ORename x t -> hashable t = true) -> flags_masked h -> flags_masked (after o h).
Proof.
  intros HR W. destruct o; unfold after; cbn [run]; rewrite ?void_fst.
  - apply fsp_new_tree; assumption.
  - apply fsp_append; assumption.
  - apply fsp_appendleft; assumption.
  - apply fsp_insert; assumption.
  - apply fsp_extend; assumption.
  - apply fsp_extend_tree; assumption.
  - apply fsp_extendleft; assumption.
  - apply fsp_delitem; assumption.
  - apply fsp_remove; assumption.
  - apply fsp_setitem; assumption.
  - apply fsp_move; assumption.
  - apply fsp_rename; [eapply HR; reflexivity|assumption].
  - apply fsp_reverse; assumption.
  - apply fsp_rotate; assumption.
  - apply fsp_sort; assumption.
  - apply fsp_clear; assumption.
  - apply fsp_copy_item; assumption.
  - apply fsp_set_tree_ro; assumption.
  - apply fsp_unset_tree_ro; assumption.
  - apply fsp_set_flags; [reflexivity|assumption].
  - apply fsp_unset_value_ro; assumption.
  - apply fsp_set_value; assumption.
  - apply fsp_del_value; assumption.
  - apply fsp_set_key_value; assumption.
  - apply fsp_del_key_value; assumption.
  - apply (fsp_upd x (set_coupled (Some c))); auto.
  - apply fsp_get_idx; assumption.
  - apply fsp_get_tag_idx; assumption.
  - apply fsp_idx_path; assumption.
  - apply fsp_tag_idx_path; assumption.
  - apply fsp_pre; assumption.
  - apply fsp_post; assumption.
  - unfold keys_view. apply fsp_bind; [apply fsp_items_view|intros; apply fsp_ret|assumption].
  - apply fsp_tags_view; assumption.
  - apply fsp_families_view; assumption.
  - apply fsp_force; assumption.
Qed.
Theorem reach_flags h : Reach h -> flags_masked h.
Proof.
  induction 1 as [|h o R IH A]; [intros x; reflexivity|]. apply after_flags; [|assumption]. intros x t ->. apply A.
Qed.
