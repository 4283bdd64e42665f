(** Tags stay hashable: every item always carries a tag usable as a dictionary key. *)
From Verif Require Import Base Heap HeapSpec HeapInv.

Definition hash_ok (h : heap) : Prop := forall x, hashable (ntag (hnode h x)) = true.
Definition hashp {A} (m : M A) : Prop := forall h, hash_ok h -> hash_ok (fst (m h)).

Lemma hashp_bind {A B} (m : M A) (k : A -> M B) : hashp m -> (forall a, hashp (k a)) -> hashp (bind m k).
Proof.
  intros Hm Hk h H. unfold bind. specialize (Hm h H). destruct (m h) as [h' [a|e]]; cbn in *; [apply Hk|]; assumption.
Qed.
Lemma hashp_pure {A} (m : M A) : (forall h, fst (m h) = h) -> hashp m.
Proof. intros E h H. rewrite E. assumption. Qed.
Lemma hashp_ret {A} (a : A) : hashp (ret a). Proof. intros h H. exact H. Qed.
Lemma hashp_throw {A} e : hashp (@throw A e). Proof. intros h H. exact H. Qed.
Lemma hashp_gets {A} (f : heap -> A) : hashp (gets f). Proof. intros h H. exact H. Qed.
Lemma hashp_lift {A} (r : res A) : hashp (lift r). Proof. intros h H. exact H. Qed.
Lemma hash_hmod h x f : (forall n, hashable (ntag n) = true -> hashable (ntag (f n)) = true) -> hash_ok h -> hash_ok (hmod h x f).
Proof. intros Hf H y. cbn. destruct (Nat.eqb y x); auto. Qed.
Lemma hashp_upd x f : (forall n, hashable (ntag n) = true -> hashable (ntag (f n)) = true) -> hashp (upd x f).
Proof. intros Hf h H. apply hash_hmod; assumption. Qed.
Lemma hashp_mapM_ {A} (f : A -> M unit) l : (forall a, hashp (f a)) -> hashp (mapM_ f l).
Proof. intros H. induction l; cbn; [apply hashp_ret|]. apply hashp_bind; auto. Qed.
Lemma hashp_mapM {A B} (f : A -> M B) l : (forall a, hashp (f a)) -> hashp (mapM f l).
Proof.
  intros H. induction l; cbn; [apply hashp_ret|]. apply hashp_bind; auto. intros b. apply hashp_bind; auto.
  intros; apply hashp_ret.
Qed.
Lemma hashp_get_fam p t : hashp (get_fam p t).
Proof. apply hashp_pure. intros h. unfold get_fam. destruct (nbound _); auto. Qed.
Lemma hashp_put_fam p t l : hashp (put_fam p t l).
Proof.
  intros h H. unfold put_fam. destruct (nbound _); [exact H| |].
  - destruct (nfams _); [|exact H]. apply hash_hmod; auto.
  - apply hash_hmod; auto.
Qed.
Lemma hashp_del_fam p t : hashp (del_fam p t).
Proof.
  intros h H. unfold del_fam. destruct (nfams _); [|exact H]. destruct (dget _ _); [|exact H]. apply hash_hmod; auto.
Qed.
Lemma hashp_dict_get p t : hashp (dict_get p t).
Proof. apply hashp_pure. intros h. unfold dict_get. destruct (nfams _); auto. Qed.
Lemma hashp_dict_put p t l : hashp (dict_put p t l).
Proof. intros h H. unfold dict_put. destruct (nfams _); [|exact H]. apply hash_hmod; auto. Qed.
Lemma hashp_set_cache e s y i : hashp (set_cache e s y i).
Proof.
  intros h H. unfold set_cache. destruct (nprt _); [|exact H]. destruct (pl_tuple _); [exact H|]. apply hash_hmod; auto.
Qed.
Lemma hashp_scan s x l : forall i d, hashp (scan s l i d x).
Proof.
  induction l; intros i d; cbn; [apply hashp_throw|]. apply hashp_bind; [apply hashp_set_cache|].
  intros _. destruct (Nat.eqb _ _); [apply hashp_ret|apply IHl].
Qed.
Lemma hashp_new_item t v fl lk : hashable t = true -> hashp (new_item t v fl lk).
Proof. intros Ht h H y. cbn. destruct (Nat.eqb _ _); [exact Ht|apply H]. Qed.
Lemma hashp_copy_node x : hashp (copy_node x).
Proof.
  intros h H. unfold copy_node. rewrite bind_gets. cbn. match goal with |- context [if ?b then _ else _] => destruct b end; [exact H|].
  apply (hashp_new_item (ntag (hnode h x)) _ _ _ (H x) h H).
Qed.

Ltac hp := repeat first
  [ assumption
  | match goal with |- hashp (bind _ _) => apply hashp_bind; [|intro] end
  | apply hashp_ret | apply hashp_throw | apply hashp_gets | apply hashp_lift
  | apply hashp_get_fam | apply hashp_put_fam | apply hashp_del_fam | apply hashp_dict_get | apply hashp_dict_put
  | apply hashp_set_cache | apply hashp_scan | apply hashp_copy_node
  | apply hashp_new_item; (reflexivity || assumption)
  | apply hashp_upd; intros; cbn; assumption
  | apply hashp_mapM_; intro | apply hashp_mapM; intro
  | progress cbv zeta
  | match goal with |- hashp (match ?x with _ => _ end) => destruct x end
  | match goal with |- hashp (let '(_, _) := ?x in _) => destruct x end ].

Lemma hashp_locate s l c x : hashp (locate s l c x). Proof. unfold locate. hp. Qed.
Lemma hashp_get_idx x : hashp (get_idx x).
Proof.
  intros h H. unfold get_idx. destruct (nprt _) as [pl|]; [|exact H]. revert h H.
  intros h. generalize (locate SAbs (nitems (hnode h (pl_par pl))) (pl_abs pl) x), (hashp_locate SAbs (nitems (hnode h (pl_par pl))) (pl_abs pl) x).
  intros m Hm H. revert h H. change (hashp (f <- m ;; ret (Some (found_pos f)))). hp.
Qed.
Lemma hashp_getitem_fam p t : hashp (getitem_fam p t). Proof. unfold getitem_fam. hp. Qed.
Lemma hashp_get_tag_idx x : hashp (get_tag_idx x).
Proof.
  intros h H. unfold get_tag_idx. destruct (nprt _) as [pl|]; [|exact H].
  generalize (ntag (hnode h x)). intros t. revert h H.
  change (hashp (fam <- getitem_fam (pl_par pl) t ;; f <- locate SFam fam (pl_fam pl) x ;;
     ret (match f with Fast i | Win i => TIPair t i | Slow i => TIBare i end))).
  apply hashp_bind; [apply hashp_getitem_fam|]. intros f. apply hashp_bind; [apply hashp_locate|]. intros; apply hashp_ret.
Qed.
Ltac hp2 := repeat first [ progress hp | apply hashp_get_idx | apply hashp_get_tag_idx | apply hashp_getitem_fam | apply hashp_locate ].
Lemma hashp_idx x : hashp (idx_or_type_error x). Proof. unfold idx_or_type_error. hp2. Qed.
Lemma hashp_fam_ins fuel : forall fam i last, hashp (fam_ins_idx fuel fam i last).
Proof. induction fuel; intros; cbn; hp2; apply IHfuel. Qed.
Lemma hashp_family_ins fam i : hashp (family_insertion_idx fam i). Proof. apply hashp_fam_ins. Qed.
Lemma hashp_append_core p x : hashp (append_core p x). Proof. unfold append_core. hp2. Qed.
Lemma hashp_append_left_core p x : hashp (append_left_core p x). Proof. unfold append_left_core. hp2. Qed.
Lemma hashp_free_item a : hashp (free_item a). Proof. unfold free_item. hp2. Qed.
Lemma hashp_check_append p a : hashp (check_append p a). Proof. unfold check_append. hp2. Qed.
Lemma hashp_check_insert p a : hashp (check_insert p a). Proof. unfold check_insert. hp2. Qed.
Ltac hp3 := repeat first [ progress hp2 | apply hashp_idx | apply hashp_family_ins | apply hashp_append_core
   | apply hashp_append_left_core | apply hashp_free_item | apply hashp_check_append | apply hashp_check_insert ].
Lemma hashp_append p a : hashp (append p a). Proof. unfold append. hp3. Qed.
Lemma hashp_appendleft p a : hashp (appendleft p a). Proof. unfold appendleft. hp3. Qed.
Lemma hashp_insert_pos p s it : hashp (insert_pos p s it). Proof. unfold insert_pos. hp3. Qed.
Lemma hashp_insert_core p x a : hashp (insert_core p x a). Proof. unfold insert_core. hp3. Qed.
Lemma hashp_insert p it a : hashp (insert p it a).
Proof. unfold insert. destruct it; [apply hashp_append| |]; hp3; first [apply hashp_insert_pos|apply hashp_insert_core]. Qed.
Lemma hashp_copy_children fuel : forall s d, hashp (copy_children fuel s d).
Proof. induction fuel; intros; cbn [copy_children]; hp3. apply IHfuel. Qed.
Lemma hashp_copy_item x : hashp (copy_item x). Proof. unfold copy_item. hp3. apply hashp_copy_children. Qed.
Lemma hashp_ext_item e : hashp (ext_item e).
Proof. destruct e as [x|t v|v]; unfold ext_item; [hp3; apply hashp_copy_item|destruct (hashable t) eqn:E; hp3|hp3]. Qed.
Lemma hashp_ext_step p e : hashp (ext_step p e). Proof. unfold ext_step. hp3; apply hashp_ext_item. Qed.
Lemma hashp_iter_extend p es : hashp (iter_extend p es). Proof. unfold iter_extend. hp3; apply hashp_ext_step. Qed.
Lemma hashp_check_extend p es : hashp (check_extend p es). Proof. unfold check_extend. hp3. Qed.
Lemma hashp_check_extendleft p es : hashp (check_extendleft p es). Proof. unfold check_extendleft. hp3. Qed.
Lemma hashp_extend p es : hashp (extend p es).
Proof. unfold extend. apply hashp_bind; [apply hashp_check_extend|]. intros; apply hashp_iter_extend. Qed.
Lemma hashp_extend_tree p q : hashp (extend_tree p q).
Proof. unfold extend_tree. apply hashp_bind; [apply hashp_check_extend|]. intros. hp3; first [apply hashp_copy_item|apply hashp_iter_extend]. Qed.
Lemma hashp_clear_items p : hashp (clear_items p). Proof. apply hashp_upd. intros; cbn; assumption. Qed.
Lemma hashp_extendleft p es : hashp (extendleft p es).
Proof. unfold extendleft. apply hashp_bind; [apply hashp_check_extendleft|]. intros. hp3; first [apply hashp_clear_items|apply hashp_iter_extend]. Qed.
Lemma hashp_check_del p : hashp (check_del p). Proof. unfold check_del. hp3. Qed.
Lemma hashp_unfamily p x : hashp (unfamily p x). Proof. unfold unfamily. hp3. Qed.
Lemma hashp_del_int p i : hashp (del_int p i).
Proof. unfold del_int. apply hashp_bind; [apply hashp_check_del|]. intros. hp3; apply hashp_unfamily. Qed.
Lemma hashp_del_slice p a b : hashp (del_slice p a b).
Proof. unfold del_slice. apply hashp_bind; [apply hashp_check_del|]. intros. hp3. Qed.
Lemma hashp_delitem p tg : hashp (delitem p tg).
Proof. unfold delitem. hp3; first [apply hashp_del_int|apply hashp_del_slice|apply hashp_check_del]. Qed.
Lemma hashp_remove p x : hashp (remove p x). Proof. unfold remove. hp3. apply hashp_del_int. Qed.
Lemma hashp_catch (A : Type) (m : M A) (k1 : A -> M Z) (k2 : M Z) : hashp m -> (forall a, hashp (k1 a)) -> hashp k2 ->
  hashp (fun hh => match m hh with
     | (hh1, Ok n) => k1 n hh1
     | (hh1, Err IndexError) | (hh1, Err KeyError) => k2 hh1
     | (hh1, Err e) => (hh1, Err e) end).
Proof.
  intros Hm H1 H2 h H. specialize (Hm h H). destruct (m h) as [h1 [a|e]]; cbn in *; [apply H1; assumption|].
  destruct e; try assumption; apply H2; assumption.
Qed.
Lemma hashp_setitem p tg a : hashp (setitem p tg a).
Proof.
  unfold setitem. hp3; first [apply hashp_copy_item|apply hashp_delitem|apply hashp_append|idtac].
  all: try (apply hashp_catch; [apply hashp_family_ins|intros n9|];
    refine (hashp_bind (put_fam _ _ _) (fun _ => ret _) _ _); intros; hp3).
Qed.
Lemma hashp_check_move p x : hashp (check_move p x). Proof. unfold check_move. hp3. Qed.
Lemma hashp_move x tg : hashp (move x tg).
Proof. unfold move. hp3; first [apply hashp_check_move|apply hashp_del_int|apply hashp_append|apply hashp_insert]. Qed.
Lemma hashp_check_rename p x t : hashp (check_rename p x t). Proof. unfold check_rename. hp3. Qed.
Lemma hashp_rename x t : hashable t = true -> hashp (rename x t).
Proof. intros Ht. unfold rename. rewrite Ht. hp3; first [apply hashp_check_rename|idtac]. Qed.
Lemma hashp_check_order p : hashp (check_order p). Proof. unfold check_order. hp3. Qed.
Lemma hashp_reverse p : hashp (reverse p).
Proof. unfold reverse. apply hashp_bind; [apply hashp_check_order|]. intros. hp3. Qed.
Lemma hashp_pop_n n p i : hashp (pop_n n p i).
Proof. induction n; cbn [pop_n]; hp3. apply hashp_del_int. Qed.
Lemma hashp_rotate p n : hashp (rotate p n).
Proof. unfold rotate. apply hashp_bind; [apply hashp_check_order|]. intros. hp3; first [apply hashp_pop_n|apply hashp_extendleft|apply hashp_extend]. Qed.
Lemma hashp_sort p k r : hashp (sort p k r).
Proof. unfold sort. apply hashp_bind; [apply hashp_check_order|]. intros. hp3; first [apply hashp_clear_items|apply hashp_extend]. Qed.
Lemma hashp_unset_flags x f : hashp (unset_flags x f). Proof. unfold unset_flags. hp3. Qed.
Lemma hashp_clear p kv : hashp (clear p kv).
Proof. unfold clear. hp3; first [apply hashp_unset_flags|apply hashp_clear_items]. Qed.
Lemma hashp_set_flags x f i : hashp (set_flags x f i). Proof. unfold set_flags. hp3. Qed.
Lemma hashp_set_flags_list f i l : hashp (set_flags_list f i l). Proof. apply hashp_mapM_. intros; apply hashp_set_flags. Qed.
Lemma hashp_set_tree_ro x : hashp (set_tree_read_only x). Proof. unfold set_tree_read_only. hp3. apply hashp_set_flags. Qed.
Lemma hashp_unset_tree_ro x : hashp (unset_tree_read_only x). Proof. unfold unset_tree_read_only. hp3. all: apply hashp_unset_flags. Qed.
Lemma hashp_unset_value_ro x : hashp (unset_value_read_only x). Proof. unfold unset_value_read_only. hp3. apply hashp_unset_flags. Qed.
Lemma hashp_set_value x v : hashp (set_value x v). Proof. unfold set_value. hp3. Qed.
Lemma hashp_del_value x : hashp (del_value x). Proof. unfold del_value. hp3. Qed.
Lemma hashp_set_key_value x k v : hashp (set_key_value x k v). Proof. unfold set_key_value. hp3. Qed.
Lemma hashp_del_key_value x k : hashp (del_key_value x k). Proof. unfold del_key_value. hp3. Qed.
Lemma hashp_ext_step_flags p f e : hashp (ext_step_flags p f e).
Proof. unfold ext_step_flags. apply hashp_bind; [apply hashp_ext_step|]. intros. hp3. all: apply hashp_set_flags. Qed.
Lemma hashp_new_tree t v es lk f : hashp (new_tree t v es lk f).
Proof. unfold new_tree. destruct (hashable t) eqn:E; cbn [negb]; [|apply hashp_throw]. hp3. all: apply hashp_ext_step_flags. Qed.
Lemma hashp_force x : hashp (force_cache_update x). Proof. unfold force_cache_update, enum_cache. hp3. Qed.
Lemma hashp_keys_loop l : forall cnt, hashp (keys_loop cnt l). Proof. induction l; intros; cbn; hp3. apply IHl. Qed.
Lemma hashp_items_view p : hashp (items_view p). Proof. unfold items_view. hp3. apply hashp_keys_loop. Qed.
Lemma hashp_sorted_heads p o : hashp (sorted_heads p o). Proof. unfold sorted_heads. hp3. Qed.
Lemma hashp_tags_view p o : hashp (tags_view p o). Proof. unfold tags_view. hp3. all: apply hashp_sorted_heads. Qed.
Lemma hashp_families_view p o : hashp (families_view p o). Proof. unfold families_view. hp3. all: apply hashp_sorted_heads. Qed.
Lemma hashp_idx_path f : forall x, hashp (idx_path f x). Proof. induction f; intros; cbn [idx_path tag_idx_path]; hp3. apply IHf. Qed.
Lemma hashp_tag_idx_path f : forall x, hashp (tag_idx_path f x). Proof. induction f; intros; cbn [idx_path tag_idx_path]; hp3. apply IHf. Qed.
Lemma hashp_pre x : hashp (pre_item x). Proof. unfold pre_item. hp3. Qed.
Lemma hashp_post x : hashp (post_item x). Proof. unfold post_item. hp3. Qed.
