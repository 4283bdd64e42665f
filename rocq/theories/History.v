(** Histories: every finite sequence of API calls on any number of items. *)
From Verif Require Import Base Heap HeapSpec ListLemmas ForestLemmas HeapInv HeapAttach HeapOps HeapOps2 HeapOps3 HeapHoare Tree HeapTree HeapCopy HeapMut HeapExt HeapExt2 HeapOrd HeapOrd2 HeapRen HeapMove HeapSet HeapSet2 HeapHist HeapHash.

(** One API call (item numbers are object identities). *)
Inductive op :=
| ONew (t v : pyval) (subtree : list earg) (link : option nat) (fl : Z)
| OAppend (p : loc) (a : iarg)
| OAppendLeft (p : loc) (a : iarg)
| OInsert (p : loc) (it : instarget) (a : iarg)
| OExtend (p : loc) (es : list earg)
| OExtendTree (p q : loc)
| OExtendLeft (p : loc) (es : list earg)
| ODelete (p : loc) (tg : target)             (* del p[tg], p.pop(tg) *)
| ORemove (p x : loc)
| OSetItem (p : loc) (tg : target) (a : iarg)
| OMove (x : loc) (tg : option target)
| ORename (x : loc) (t : pyval)
| OReverse (p : loc)
| ORotate (p : loc) (n : Z)
| OSort (p : loc) (key : option (node -> Z)) (rv : bool)
| OClear (p : loc) (keep_value : bool)
| OCopy (x : loc)
| OSetTreeReadOnly (x : loc) | OUnsetTreeReadOnly (x : loc)
| OSetValueReadOnly (x : loc) | OUnsetValueReadOnly (x : loc)
| OSetValue (x : loc) (v : pyval) | ODelValue (x : loc)
| OSetKeyValue (x : loc) (k v : pyval) | ODelKeyValue (x : loc) (k : pyval) | OCouple (x : loc) (c : nat)
(* reading calls; they may refresh position caches *)
| OIdx (x : loc) | OTagIdx (x : loc) | OIdxPath (x : loc) | OTagIdxPath (x : loc)
| OPre (x : loc) | OPost (x : loc) | OKeys (p : loc) | OTags (p : loc) (order_last : bool)
| OFamilies (p : loc) (order_last : bool) | OForceCache (x : loc).

Definition void {A} (m : M A) : M unit := m ;;; ret tt.

Definition run (o : op) : M unit :=
  match o with
  | ONew t v es lk fl => void (new_tree t v es lk fl)
  | OAppend p a => void (append p a)
  | OAppendLeft p a => void (appendleft p a)
  | OInsert p it a => void (insert p it a)
  | OExtend p es => extend p es
  | OExtendTree p q => extend_tree p q
  | OExtendLeft p es => extendleft p es
  | ODelete p tg => void (delitem p tg)
  | ORemove p x => void (remove p x)
  | OSetItem p tg a => void (setitem p tg a)
  | OMove x tg => void (move x tg)
  | ORename x t => void (rename x t)
  | OReverse p => reverse p
  | ORotate p n => rotate p n
  | OSort p key rv => sort p key rv
  | OClear p kv => clear p kv
  | OCopy x => void (copy_item x)
  | OSetTreeReadOnly x => set_tree_read_only x
  | OUnsetTreeReadOnly x => unset_tree_read_only x
  | OSetValueReadOnly x => set_value_read_only x
  | OUnsetValueReadOnly x => unset_value_read_only x
  | OSetValue x v => void (set_value x v)
  | ODelValue x => void (del_value x)
  | OSetKeyValue x k v => void (set_key_value x k v)
  | ODelKeyValue x k => void (del_key_value x k)
  | OCouple x c => set_coupled_object x c
  | OIdx x => void (get_idx x)
  | OTagIdx x => void (get_tag_idx x)
  | OIdxPath x => fun h => void (idx_path (S (hnext h)) x) h
  | OTagIdxPath x => fun h => void (tag_idx_path (S (hnext h)) x) h
  | OPre x => void (pre_item x)
  | OPost x => void (post_item x)
  | OKeys p => void (keys_view p)
  | OTags p b => void (tags_view p b)
  | OFamilies p b => void (families_view p b)
  | OForceCache x => force_cache_update x
  end.

(** The state after the call, whether it returned or raised. *)
Definition after (o : op) (h : heap) : heap := fst (run o h).

(** The calls the theorems speak about: arguments are existing items, a free item is not
    attached below itself, and the inputs on which the code itself is known to break its
    data structure are excluded (each of them is shown to break it in the Props files):
    slices in del, insert far to the left of -len, insert / move / item assignment into an
    existing family while the cached positions are further off than the search window,
    item assignment of a whole family or emptying a family, rename with an equal twin
    earlier in the family, unhashable new tags. *)
Definition allowed (h : heap) (o : op) : Prop :=
  match o with
  | ONew _ _ es _ _ => new_ok h es
  | OAppend p a | OAppendLeft p a => arg_ok h p a
  | OInsert p it a => arg_ok h p a /\ ins_ok h p it a
  | OExtend p es => p < hnext h /\ Forall (earg_ok h p) es
  | OExtendTree p q => p < hnext h /\ q < hnext h
  | OExtendLeft p es => p < hnext h /\ Forall (earg_far h p) es
  | ODelete p tg => not_slice tg
  | OSetItem p tg a => arg_ok h p a /\ seti_ok h p tg a
  | OMove x tg => mv_guard h x tg
  | ORename x t => hashable t = true /\ ren_ok h x
  | ORotate p _ | OSort p _ _ | OClear p _ => p < hnext h
  | OCopy x => x < hnext h
  | _ => True
  end.

(** Reachable states: start from nothing, perform allowed calls. *)
Inductive Reach : heap -> Prop :=
| Reach_start : Reach empty_heap
| Reach_step h o : Reach h -> allowed h o -> Reach (after o h).

(** the calls that leave dropped children pointing to their old parent are left out *)
Definition no_orphaning (o : op) : Prop :=
  match o with OSort _ _ _ | OClear _ _ => False | _ => True end.
Inductive Reach1 : heap -> Prop :=
| Reach1_start : Reach1 empty_heap
| Reach1_step h o : Reach1 h -> allowed h o -> no_orphaning o -> Reach1 (after o h).

Lemma Reach1_Reach h : Reach1 h -> Reach h.
Proof. induction 1; [constructor|]. apply Reach_step; assumption. Qed.

Lemma void_fst {A} (m : M A) h : fst (void m h) = fst (m h).
Proof. unfold void, bind. destruct (m h) as [h' [a|e]]; reflexivity. Qed.

Lemma empty_WF : WF empty_heap.
Proof.
  split.
  - split; cbn; intros; try contradiction; try constructor; auto; discriminate.
  - intros x pl E. discriminate.
  - intros p. cbn. auto.
  - intros x k E. discriminate.
Qed.
Lemma empty_NoOrphan : NoOrphan (view empty_heap).
Proof. intros x p E. discriminate. Qed.
Lemma empty_hash : hash_ok empty_heap. Proof. intros x. reflexivity. Qed.

Lemma after_WF h o : WF h -> allowed h o -> WF (after o h).
Proof.
  intros W A. destruct o; cbn [allowed] in A; unfold after; cbn [run]; rewrite ?void_fst.
  - apply (new_tree_inv h t v subtree link fl W A).
  - apply append_WF; assumption.
  - apply appendleft_WF; assumption.
  - apply insert_WF; tauto.
  - apply extend_WF; tauto.
  - apply extend_tree_WF; tauto.
  - apply extendleft_WF; tauto.
  - apply WFp_delitem; assumption.
  - apply WFp_remove; assumption.
  - apply setitem_WF; tauto.
  - apply move_WF; assumption.
  - apply rename_WF; tauto.
  - destruct (reverse_case h p W) as (h' & r & -> & W' & _). exact W'.
  - apply rotate_WF; assumption.
  - apply sort_WF; assumption.
  - apply clear_WF; assumption.
  - destruct (ltree_exists (hnext h) (view h) x (wf_forest _ W) A) as (T & HT & HR & _). subst x.
    destruct (copy_item_ok h W T HT A) as (h' & r & -> & W' & _). exact W'.
  - apply WFp_set_tree_read_only; assumption.
  - apply WFp_unset_tree_read_only; assumption.
  - apply WFp_set_flags; assumption.
  - apply WFp_unset_value_read_only; assumption.
  - apply WFp_set_value; assumption.
  - apply WFp_del_value; assumption.
  - apply WFp_set_key_value; assumption.
  - apply WFp_del_key_value; assumption.
  - apply (WFp_upd_benign x _ (benign_coupled (Some c))); assumption.
  - apply (conly_WFp _ (conly_get_idx x)); assumption.
  - apply (conly_WFp _ (conly_get_tag_idx x)); assumption.
  - apply (conly_WFp _ (conly_idx_path _ x)); assumption.
  - apply (conly_WFp _ (conly_tag_idx_path _ x)); assumption.
  - apply (conly_WFp _ (conly_pre x)); assumption.
  - apply (conly_WFp _ (conly_post x)); assumption.
  - apply (conly_WFp _ (conly_keys_view p)); assumption.
  - apply (conly_WFp _ (conly_tags_view p _)); assumption.
  - apply (conly_WFp _ (conly_families_view p _)); assumption.
  - apply (conly_WFp _ (conly_force x)); assumption.
Qed.
Lemma after_WFN h o : WFN h -> allowed h o -> no_orphaning o -> WFN (after o h).
Proof.
  intros W A O. destruct o; cbn [allowed] in A; cbn [no_orphaning] in O; unfold after; cbn [run]; rewrite ?void_fst.
  - destruct W as [W N]. destruct (new_tree_inv h t v subtree link fl W A). split; auto.
  - apply append_WFN; assumption.
  - apply appendleft_WFN; assumption.
  - apply insert_WFN; tauto.
  - apply extend_WFN; tauto.
  - apply extend_tree_WFN; tauto.
  - apply extendleft_WFN; tauto.
  - apply WFNp_delitem; assumption.
  - apply WFNp_remove; assumption.
  - apply setitem_WFN; tauto.
  - apply move_WFN; assumption.
  - apply rename_WFN; tauto.
  - apply reverse_WFN; assumption.
  - apply rotate_WFN; assumption.
  - destruct O.
  - destruct O.
  - apply copy_item_WFN; assumption.
  - apply WFNp_set_tree_read_only; assumption.
  - apply WFNp_unset_tree_read_only; assumption.
  - apply WFNp_set_flags; assumption.
  - apply WFNp_unset_value_read_only; assumption.
  - apply WFNp_set_value; assumption.
  - apply WFNp_del_value; assumption.
  - apply WFNp_set_key_value; assumption.
  - apply WFNp_del_key_value; assumption.
  - apply (WFNp_upd_benign x _ (benign_coupled (Some c))); assumption.
  - apply (conly_WFNp _ (conly_get_idx x)); assumption.
  - apply (conly_WFNp _ (conly_get_tag_idx x)); assumption.
  - apply (conly_WFNp _ (conly_idx_path _ x)); assumption.
  - apply (conly_WFNp _ (conly_tag_idx_path _ x)); assumption.
  - apply (conly_WFNp _ (conly_pre x)); assumption.
  - apply (conly_WFNp _ (conly_post x)); assumption.
  - apply (conly_WFNp _ (conly_keys_view p)); assumption.
  - apply (conly_WFNp _ (conly_tags_view p _)); assumption.
  - apply (conly_WFNp _ (conly_families_view p _)); assumption.
  - apply (conly_WFNp _ (conly_force x)); assumption.
Qed.
Lemma after_hash h o : hash_ok h -> allowed h o -> hash_ok (after o h).
Proof.
  intros W A. destruct o; cbn [allowed] in A; unfold after; cbn [run]; rewrite ?void_fst.
  - apply hashp_new_tree; assumption.
  - apply hashp_append; assumption.
  - apply hashp_appendleft; assumption.
  - apply hashp_insert; assumption.
  - apply hashp_extend; assumption.
  - apply hashp_extend_tree; assumption.
  - apply hashp_extendleft; assumption.
  - apply hashp_delitem; assumption.
  - apply hashp_remove; assumption.
  - apply hashp_setitem; assumption.
  - apply hashp_move; assumption.
  - apply hashp_rename; tauto.
  - apply hashp_reverse; assumption.
  - apply hashp_rotate; assumption.
  - apply hashp_sort; assumption.
  - apply hashp_clear; assumption.
  - apply hashp_copy_item; assumption.
  - apply hashp_set_tree_ro; assumption.
  - apply hashp_unset_tree_ro; assumption.
  - apply hashp_set_flags; assumption.
  - apply hashp_unset_value_ro; assumption.
  - apply hashp_set_value; assumption.
  - apply hashp_del_value; assumption.
  - apply hashp_set_key_value; assumption.
  - apply hashp_del_key_value; assumption.
  - apply (hashp_upd x (set_coupled (Some c))); auto.
  - apply hashp_get_idx; assumption.
  - apply hashp_get_tag_idx; assumption.
  - apply hashp_idx_path; assumption.
  - apply hashp_tag_idx_path; assumption.
  - apply hashp_pre; assumption.
  - apply hashp_post; assumption.
  - unfold keys_view. apply hashp_bind; [apply hashp_items_view|intros; apply hashp_ret|assumption].
  - apply hashp_tags_view; assumption.
  - apply hashp_families_view; assumption.
  - apply hashp_force; assumption.
Qed.

Theorem reach_WF h : Reach h -> WF h.
Proof. induction 1; [apply empty_WF|apply after_WF; assumption]. Qed.
Theorem reach_hash h : Reach h -> hash_ok h.
Proof. induction 1; [apply empty_hash|apply after_hash; assumption]. Qed.
Theorem reach1_WFN h : Reach1 h -> WFN h.
Proof. induction 1; [split; [apply empty_WF|apply empty_NoOrphan]|apply after_WFN; assumption]. Qed.
