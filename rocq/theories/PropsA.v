(** C01 - C08: the structural invariants of every reachable state.

    [Reach h]: h is the state after any finite sequence of constructor calls and of the
    34 operations of [History.op], each satisfying its guard [allowed] (History.v).  The
    guards exclude exactly the calls for which the [_refuted] theorems here and in the
    following files show that the code leaves the structure inconsistent. *)
From Coq Require Import Sorting.Permutation.
From Verif Require Import Base Heap HeapSpec ListLemmas ForestLemmas HeapInv HeapAttach HeapOps HeapOps2 HeapOps3
  HeapHoare Tree HeapTree HeapCopy HeapMut HeapExt HeapExt2 HeapOrd HeapOrd2 HeapRen HeapMove HeapSet HeapSet2 HeapHist
  HeapHash History HeapRead HeapRead2 Runs.

(** * C01 *)
(** item[(tag, ...)] and is_tag_in and tags() see exactly the children with that tag *)
Theorem C01_family_index_partial : forall h p t, Reach h -> hashable t = true ->
  getitem h p (TgTagAll t) =
    (match filter (fun x => pyval_eqb (tag_of h x) t) (children h p) with
     | [] => Err KeyError
     | fam => Ok (GList fam)
     end) /\
  (is_tag_in h p t = true <-> exists x, In x (children h p) /\ tag_of h x = t) /\
  (forall order_last, exists h' tags, tags_view p order_last h = (h', Ok tags) /\ same (view h') (view h) /\
      (In t tags <-> exists x, In x (children h p) /\ tag_of h x = t)).
Proof.
  intros h p t R Ht. pose proof (reach_WF h R) as W. split; [|split; [apply is_tag_in_ok; assumption|]].
  - change (filter (fun x => pyval_eqb (tag_of h x) t) (children h p)) with (with_tag (view h) p t).
    unfold getitem. destruct (nitems (hnode h p)) eqn:E.
    + unfold with_tag, view. cbn. rewrite E. reflexivity.
    + rewrite fam_of_ok; [|assumption|assumption|unfold children; cbn; congruence].
      destruct (with_tag (view h) p t); reflexivity.
  - intros o. destruct (tags_view_ok o h p W) as (h' & E & Q). exists h', (map (tag_of h) (heads o h p)).
    split; [exact E|]. split; [apply ceq_same; assumption|]. split.
    + intros H. apply in_map_iff in H as (x & Hx & Hin). exists x. split; [|assumption]. apply filter_In in Hin. apply Hin.
    + intros (x & Hin & Hx). subst t. apply heads_tags_all. assumption.
Qed.
(** plain hashable targets other than ints and tuples address the family as well *)
Theorem C01_str_target_partial : forall h p s, Reach h ->
  getitem h p (TgVal (PStr s)) =
    (match filter (fun x => pyval_eqb (tag_of h x) (PStr s)) (children h p) with
     | [] => Err KeyError
     | fam => Ok (GList fam)
     end).
Proof.
  intros h p s R. pose proof (reach_WF h R) as W.
  change (filter (fun x => pyval_eqb (tag_of h x) (PStr s)) (children h p)) with (with_tag (view h) p (PStr s)).
  unfold getitem. destruct (nitems (hnode h p)) eqn:E.
  - unfold with_tag, view. cbn. rewrite E. reflexivity.
  - unfold getitem_val. rewrite E. rewrite fam_of_ok; [|assumption|reflexivity|unfold children; cbn; congruence].
    destruct (with_tag (view h) p (PStr s)); reflexivity.
Qed.
Example C01_case : Reach ex_heap /\ hashable (PStr "a") = true /\
  getitem ex_heap 0 (TgTagAll (PStr "a")) = Ok (GList [1; 3]) /\ children ex_heap 0 = [1; 2; 3; 4].
Proof. split; [exact ex_reach|]. vm_compute. auto. Qed.
(** del t[0:3]: only the first removed item leaves its family (itree_main.py:1894-1929) *)
Theorem C01_family_index_refuted : exists ops, let h := runs ops empty_heap in
  is_tag_in h 0 (PStr "b") = true /\ children h 0 = [4] /\ tag_of h 4 = PStr "c".
Proof. exists (ex_ops ++ [ODelete 0 (TgSlice (Some 0%Z) (Some 3%Z))]). vm_compute. auto. Qed.

(** * C03 *)
Theorem C03_parent_iff_child_partial : forall h, Reach1 h ->
  (forall p x, parent_of h x = Some p <-> In x (children h p)) /\
  (forall p, NoDup (children h p)) /\
  (forall p q x, In x (children h p) -> In x (children h q) -> p = q).
Proof.
  intros h R. destruct (reach1_WFN h R) as [W NO]. pose proof (wf_forest _ W) as F. repeat split.
  - apply NO.
  - apply (fo_child _ _ F).
  - intros p. apply (fo_nodup _ _ F).
  - intros p q x Hp Hq. apply (fo_child _ _ F) in Hp, Hq. congruence.
Qed.
(** with sort() and clear() in the history every child still knows its parent *)
Theorem C03_child_parent_partial : forall h, Reach h ->
  (forall p x, In x (children h p) -> parent_of h x = Some p) /\
  (forall p, NoDup (children h p)) /\
  (forall p q x, In x (children h p) -> In x (children h q) -> p = q).
Proof.
  intros h R. pose proof (wf_forest _ (reach_WF h R)) as F. repeat split.
  - apply (fo_child _ _ F).
  - intros p. apply (fo_nodup _ _ F).
  - intros p q x Hp Hq. apply (fo_child _ _ F) in Hp, Hq. congruence.
Qed.
(** a popped item has no parent, is nobody's child, and can be attached again anywhere it is not an ancestor of *)
Theorem C03_removed_reusable : forall h p i h' x, Reach h -> del_int p i h = (h', Ok x) ->
  parent_of h' x = None /\ (forall q, ~ In x (children h' q)) /\
  (forall q, q < hnext h' -> tree_protected h' q = false -> ~ Anc (view h') x q ->
     exists h'', append q (IItem x) h' = (h'', Ok x) /\ children h'' q = children h' q ++ [x] /\ parent_of h'' x = Some q).
Proof.
  intros h p i h' x R E. pose proof (reach_WF h R) as W. destruct (del_int_out h p i W h' x E) as (k & Hk & Hx & Q).
  destruct (del_state h h' p x k W Hx Q) as (W' & S & Hn & Hok & Hfree & _).
  assert (Hp : parent_of h' x = None) by exact Hfree.
  split; [assumption|]. split.
  { intros q Hin. apply (fo_child _ _ (wf_forest _ W')) in Hin. unfold parent_of in Hp. congruence. }
  intros q Hq Hprot HA. destruct (append_ok h' q (IItem x) W') as (h'' & E'' & W'' & S'').
  - split; [assumption|]. split; [apply Hok|]. intros _. assumption.
  - exact Hp.
  - unfold outcome. rewrite check_append_unprot by assumption. reflexivity.
  - exists h''. split; [exact E''|]. cbn [arg_loc arg_state] in S''.
    assert (x <> q) by (intros ->; apply HA; constructor).
    unfold children, parent_of. rewrite !S''. unfold attach. rewrite Nat.eqb_refl.
    destruct (Nat.eqb_spec x q); [congruence|]. rewrite Nat.eqb_refl. cbn. split; [|reflexivity].
    unfold insert_at, children. rewrite firstn_all, skipn_all. reflexivity.
Qed.
Example C03_case : Reach1 ex_heap /\ snd (del_int 0 1 ex_heap) = Ok 2 /\ children (fst (del_int 0 1 ex_heap)) 0 = [1; 3; 4].
Proof. split; [exact ex_reach1|]. vm_compute. auto. Qed.
(** sort() replaces the children by copies; the old ones still name the parent *)
Theorem C03_parent_iff_child_refuted : exists ops, let h := runs ops empty_heap in
  parent_of h 1 = Some 0 /\ ~ In 1 (children h 0) /\ length (children h 0) = 4.
Proof.
  exists (ex_ops ++ [OSort 0 None false]). vm_compute. repeat split; try reflexivity.
  intros H. repeat (destruct H as [H|H]; [discriminate|]). destruct H.
Qed.

(** * C04 *)
(** h' is h with other (non-negative) numbers in the position caches *)
Definition recached (h h' : heap) : Prop :=
  hnext h' = hnext h /\
  (forall y, set_prt None (hnode h' y) = set_prt None (hnode h y) /\
     match nprt (hnode h y), nprt (hnode h' y) with
     | None, None => True
     | Some a, Some b => pl_par b = pl_par a /\ pl_tuple b = pl_tuple a /\ (0 <= pl_abs b)%Z /\ (0 <= pl_fam b)%Z
     | _, _ => False
     end).
Lemma recached_ceq h h' : recached h h' -> ceq h h'.
Proof.
  intros [H1 H2]. split; [congruence|]. split.
  - intros y. destruct (H2 y) as [E P]. unfold strip.
    destruct (hnode h y) as [a b c d e f g i j], (hnode h' y) as [a' b' c' d' e' f' g' i' j']. cbn in E, P |- *.
    injection E as <- <- <- <- <- <- <- <-. cbn in P.
    destruct d as [[? ? ? ?]|], d' as [[? ? ? ?]|]; cbn in *; try contradiction; try reflexivity.
    destruct P as (-> & -> & _). reflexivity.
  - intros C y pl Hp. destruct (H2 y) as [E P]. rewrite Hp in P.
    destruct (nprt (hnode h y)) as [pl0|] eqn:Ey; [|contradiction]. destruct P as (P1 & P2 & P3 & P4).
    destruct (C y pl0 Ey) as (_ & _ & C3). rewrite P2. auto.
Qed.
(** idx is the position among the parent's children, whatever the caches contain *)
Theorem C04_idx : forall h p k x, Reach h -> nth_error (children h p) k = Some x ->
  forall hc, recached h hc ->
  exists h', get_idx x hc = (h', Ok (Some (Z.of_nat k))) /\ same (view h') (view h).
Proof.
  intros h p k x R Hk hc Hc. apply recached_ceq in Hc.
  assert (W : WF hc) by (eapply ceq_WF; [exact Hc|apply reach_WF; assumption]).
  destruct (get_idx_ok hc p x k W) as (h' & E & Q & _); [rewrite (ceq_items _ _ Hc); exact Hk|].
  exists h'. split; [assumption|]. eapply same_trans; apply ceq_same; eassumption.
Qed.
(** the same without any assumption on families, other parents or the history: only the
    children of p are pairwise distinct and name p as parent *)
Theorem C04_idx_local : forall h p k x,
  NoDup (children h p) -> (forall y, In y (children h p) -> parent_of h y = Some p) ->
  (forall y pl, nprt (hnode h y) = Some pl -> (0 <= pl_abs pl)%Z /\ (0 <= pl_fam pl)%Z /\ pl_tuple pl = false) ->
  nth_error (children h p) k = Some x ->
  exists h', get_idx x h = (h', Ok (Some (Z.of_nat k))) /\ same (view h') (view h).
Proof.
  intros h p k x Hd Hp Hc Hk.
  destruct (get_idx_gen h p x k Hk Hd) as (h' & E & Q & _).
  - apply Hp. eapply nth_error_In; eauto.
  - exact Hc.
  - left. intros y Hy. specialize (Hp y Hy). cbn in Hp. intros E. rewrite E in Hp. discriminate.
  - exists h'. split; [assumption|]. apply ceq_same. assumption.
Qed.
Theorem C04_idx_root : forall h x, parent_of h x = None -> get_idx x h = (h, Ok None).
Proof. intros h x H. apply root_neighbours. assumption. Qed.
(** 30 children, every cache wrong by more than the search window *)
Definition far_ops : list op :=
  ONew (PStr "r") PNoValue [] None 0 :: repeat (OAppend 0 (IVal (PInt 7))) 60 ++ repeat (ODelete 0 (TgVal (PInt 0))) 30.
Example C04_case : Reach (runs far_ops empty_heap) /\ nth_error (children (runs far_ops empty_heap) 0) 29 = Some 60 /\
  option_map pl_abs (nprt (hnode (runs far_ops empty_heap) 60)) = Some 59%Z /\ 
  snd (get_idx 60 (runs far_ops empty_heap)) = Ok (Some 29%Z).
Proof. split; [apply reach_runs; [constructor|vm_compute; reflexivity]|]. vm_compute. auto. Qed.

(** * C05 *)
(** tag_idx gives the right number, and gives it as the pair (tag, number) when the
    remembered number is off by at most 20 *)
Theorem C05_tag_idx_partial : forall h p x, Reach h -> In x (children h p) ->
  forall hc, recached h hc ->
  exists h' n r, get_tag_idx x hc = (h', Ok r) /\ same (view h') (view h) /\
    nth_error (filter (fun y => pyval_eqb (tag_of h y) (tag_of h x)) (children h p)) n = Some x /\
    (r = TIPair (tag_of h x) (Z.of_nat n) \/ r = TIBare (Z.of_nat n)) /\
    (r = TIPair (tag_of h x) (Z.of_nat n) <->
       forall pl, nprt (hnode hc x) = Some pl -> (Z.abs (pl_fam pl - Z.of_nat n) <= 20)%Z).
Proof.
  intros h p x R Hx hc Hc. apply recached_ceq in Hc.
  assert (W : WF h) by (apply reach_WF; assumption). assert (Wc : WF hc) by (eapply ceq_WF; eauto).
  pose proof (posn_in _ _ Hx) as Hk.
  assert (Hkc : nth_error (nitems (hnode hc p)) (posn (children h p) x) = Some x) by (rewrite (ceq_items _ _ Hc); exact Hk).
  destruct (WF_child_prt hc p x Wc (nth_error_In _ _ Hkc)) as (pl & Epl & _).
  destruct (get_tag_idx_full hc p x _ pl Wc Hkc Epl) as (h' & Q & _ & E).
  rewrite <- (fam_index_pos hc p x _ Wc Hkc), (ceq_fam_index _ _ _ _ Hc), (ceq_tag _ _ Hc) in E.
  exists h', (fam_index h p x). eexists. split; [exact E|]. split; [eapply same_trans; apply ceq_same; eassumption|].
  split; [apply (fam_index_nth h p x Hx)|]. change (ntag (hnode h x)) with (tag_of h x).
  destruct (Z.ltb_spec 20 (Z.abs (pl_fam pl - Z.of_nat (fam_index h p x)))) as [H|H].
  - split; [auto|]. split; [discriminate|]. intros K. specialize (K pl Epl). lia.
  - split; [auto|]. split; [|reflexivity]. intros _ pl' E'. rewrite Epl in E'. injection E' as <-. assumption.
Qed.
Example C05_case : Reach ex_heap /\ In 3 (children ex_heap 0) /\ snd (get_tag_idx 3 ex_heap) = Ok (TIPair (PStr "a") 1).
Proof. split; [exact ex_reach|]. vm_compute. auto. Qed.
(** the slow path returns the bare number (itree_main.py:509, 518) *)
Theorem C05_tag_idx_refuted : exists h p x, Reach h /\ In x (children h p) /\
  snd (get_tag_idx x h) = Ok (TIBare 29).
Proof.
  exists (runs far_ops empty_heap), 0, 60. split; [apply reach_runs; [constructor|vm_compute; reflexivity]|].
  split; [|vm_compute; reflexivity]. vm_compute. do 29 right. left. reflexivity.
Qed.

(** * C06 *)
(** No item is its own proper ancestor, following parents ends at a root, and level, root
    and the deep iteration terminate. *)
Theorem C06_acyclic_partial : forall h x, Reach h -> x < hnext h ->
  (forall q, parent_of h x = Some q -> ~ Anc (view h) x q) /\
  (exists r, root_of (S (hnext h)) h x = Some r /\ parent_of h r = None /\ Anc (view h) r x) /\
  (exists n, level_of (S (hnext h)) h x = Some n) /\
  (exists l, deep_list (S (hnext h)) h x = Some l /\ NoDup l /\ ~ In x l).
Proof.
  intros h x R Hx. pose proof (reach_WF h R) as W. pose proof (wf_forest _ W) as F. repeat split.
  - intros q Hq HA. destruct (Rooted_Lev _ _ (fo_root _ _ F x)) as [k Hk].
    assert (G : forall y j, Lev (view h) y j -> Anc (view h) x y -> exists i, i <= j /\ Lev (view h) x i).
    { intros y j HL. induction HL as [y Hy|y z j Hy HL IH]; intros HA'.
      - inversion HA'; subst; [|congruence]. exists 0. split; [lia|]. constructor. assumption.
      - inversion HA' as [|? z' Hz HA2]; subst.
        + exists (S j). split; [lia|]. econstructor; eauto.
        + rewrite Hy in Hz. injection Hz as <-. destruct (IH HA2) as (i & Hi & HLi). exists i. split; [lia|assumption]. }
    inversion Hk as [? H0|? q' k' H1 H2]; subst; unfold parent_of in Hq; rewrite Hq in *; [discriminate|]. injection H1 as <-.
    destruct (G q k' H2 HA) as (i & Hi & HLi). pose proof (Lev_fun _ _ _ Hk _ HLi). lia.
  - destruct (root_of_some h x W Hx) as (r & A & B & C). eauto.
  - destruct (Rooted_Lev _ _ (fo_root _ _ F x)) as [k Hk]. exists k. apply (Lev_level h x k Hk).
    pose proof (Lev_bound _ _ _ _ F Hk Hx). lia.
  - destruct (deep_list_total h x F Hx) as (T & HT & Er & E). exists (below_tree T). split; [assumption|].
    pose proof (ltree_NoDup _ _ T F HT) as Hd. destruct T as [a cs]. cbn in Er. subst a. cbn in Hd. inversion Hd; subst. auto.
Qed.
Example C06_case : Reach ex_heap /\ 5 < hnext ex_heap /\ level_of 8 ex_heap 5 = Some 2 /\ root_of 8 ex_heap 5 = Some 0.
Proof. split; [exact ex_reach|]. vm_compute. repeat split; auto. Qed.
(** root.append(root) is accepted *)
Theorem C06_acyclic_refuted : exists ops, let h := runs ops empty_heap in parent_of h 0 = Some 0 /\ children h 0 = [0].
Proof. exists [ONew (PStr "r") PNoValue [] None 0; OAppend 0 (IItem 0)]. vm_compute. auto. Qed.

(** * C07 *)
Theorem C07_attach_attached : forall h p x q, parent_of h x = Some q ->
  tree_protected h p = false ->
  append p (IItem x) h = (h, Err RecursionError) /\
  appendleft p (IItem x) h = (h, Err RecursionError) /\
  (forall it, insert p it (IItem x) h = (h, Err RecursionError)).
Proof.
  intros h p x q Hp Hprot.
  assert (Hf : free_item (IItem x) h = (h, Err RecursionError)).
  { apply free_item_err. unfold arg_free. congruence. }
  assert (E1 : append p (IItem x) h = (h, Err RecursionError)).
  { unfold append. rewrite (bind_ok _ _ _ _ _ (check_append_unprot p (IItem x) h Hprot)). apply bind_err. assumption. }
  assert (E2 : forall (k : loc -> M loc), (check_insert p (IItem x) ;;; (y <- free_item (IItem x) ;; k y)) h = (h, Err RecursionError)).
  { intros k. rewrite (bind_ok _ _ _ _ _ (check_insert_unprot p (IItem x) h Hprot)). apply bind_err. assumption. }
  split; [assumption|]. split; [apply E2|]. intros [| |tg]; [assumption|apply E2|apply E2].
Qed.
(** for a protected target the call raises as well and changes nothing *)
Theorem C07_attach_attached_protected : forall h p x q it, parent_of h x = Some q ->
  (exists e, append p (IItem x) h = (h, Err e)) /\
  (exists e, appendleft p (IItem x) h = (h, Err e)) /\
  (exists e, insert p it (IItem x) h = (h, Err e)).
Proof.
  intros h p x q it Hp.
  assert (Hf : ~ arg_free h (IItem x)) by (unfold arg_free; congruence).
  assert (E1 : exists e, append p (IItem x) h = (h, Err e)) by (apply append_err; auto).
  assert (E2 : forall (k : loc -> M loc), exists e, (check_insert p (IItem x) ;;; (y <- free_item (IItem x) ;; k y)) h = (h, Err e)).
  { intros k. destruct (check_insert p (IItem x) h) as [h1 r] eqn:E. pose proof (check_insert_pure p (IItem x) h) as P. rewrite E in P. cbn in P. subst h1.
    destruct r as [[]|e]; [|exists e; apply bind_err; assumption]. exists RecursionError.
    rewrite (bind_ok _ _ _ _ _ E). apply bind_err. apply free_item_err. assumption. }
  split; [assumption|]. split; [apply E2|]. destruct it; [assumption|apply E2|apply E2].
Qed.
Example C07_case : parent_of ex_heap 5 = Some 3 /\ tree_protected ex_heap 0 = false /\
  snd (append 0 (IItem 5) ex_heap) = Err RecursionError.
Proof. vm_compute. auto. Qed.

(** * C08 *)
(** the calls that would change the children of p or the tag/position of a child of p *)
Definition restructures (h : heap) (p : loc) (o : op) : Prop :=
  match o with
  | OAppend q _ | OAppendLeft q _ | OInsert q _ _ | OExtend q _ | OExtendTree q _ | OExtendLeft q _
  | ODelete q _ | OSetItem q _ _ | OReverse q | ORotate q _ | OSort q _ _ | OClear q _ => q = p
  | OMove x _ | ORename x _ => parent_of h x = Some p
  | _ => False
  end.
(** in every state, reachable or not: PermissionError and not even a cache has changed *)
Theorem C08_read_only_tree : forall h p o,
  tree_protected h p = true -> is_link_root h p = false -> restructures h p o ->
  run o h = (h, Err PermissionError).
Proof.
  intros h p o Hp Hl Ho.
  assert (CA : forall a, check_append p a h = (h, Err PermissionError)).
  { intros a. unfold check_append. rewrite bind_gets, Hp, Hl. reflexivity. }
  assert (CI : forall a, check_insert p a h = (h, Err PermissionError)).
  { intros a. unfold check_insert. rewrite bind_gets, Hp, Hl. reflexivity. }
  assert (CE : forall es, check_extend p es h = (h, Err PermissionError)).
  { intros a. unfold check_extend. rewrite bind_gets, Hp, Hl. reflexivity. }
  assert (CL : forall es, check_extendleft p es h = (h, Err PermissionError)).
  { intros a. unfold check_extendleft. rewrite bind_gets, Hp, Hl. reflexivity. }
  assert (CD : check_del p h = (h, Err PermissionError)).
  { unfold check_del. rewrite bind_gets, Hp, Hl. reflexivity. }
  assert (CO : check_order p h = (h, Err PermissionError)).
  { unfold check_order. rewrite bind_gets, Hp, Hl. reflexivity. }
  assert (V : forall A (m : M A), m h = (h, Err PermissionError) -> void m h = (h, Err PermissionError)).
  { intros A m E. unfold void. apply bind_err. assumption. }
  destruct o; cbn [restructures] in Ho; try contradiction; cbn [run]; try subst p0.
  - apply V. apply bind_err. apply CA.
  - apply V. apply bind_err. apply CI.
  - apply V. destruct it; apply bind_err; [apply CA|apply CI|apply CI].
  - apply bind_err. apply CE.
  - apply bind_err. apply CE.
  - apply bind_err. apply CL.
  - apply V. assert (D : forall i, del_int p i h = (h, Err PermissionError)) by (intros i; apply bind_err; apply CD).
    destruct tg as [v| | | | | |]; try (apply bind_err; exact CD).
    destruct v; try (apply bind_err; exact CD). apply bind_err. apply D.
  - apply V. apply bind_err. apply CI.
  - apply V. unfold move. rewrite bind_gets. cbn in Ho. destruct (nprt (hnode h x)) as [pl|]; [|discriminate]. injection Ho as Ho. rewrite Ho.
    apply bind_err. unfold check_move. rewrite bind_gets, Hp, Hl. reflexivity.
  - apply V. unfold rename. rewrite bind_gets. cbn in Ho. destruct (nprt (hnode h x)) as [pl|]; [|discriminate]. injection Ho as Ho. rewrite Ho.
    apply bind_err. unfold check_rename. rewrite bind_gets, Hp, Hl. reflexivity.
  - apply bind_err. apply CO.
  - apply bind_err. apply CO.
  - apply bind_err. apply CO.
  - unfold clear. rewrite bind_gets, Hp, Hl. reflexivity.
Qed.
(** remove(x) looks up x.idx first, which may refresh a cache; nothing else changes *)
Theorem C08_read_only_remove : forall h p x, Reach h ->
  tree_protected h p = true -> is_link_root h p = false -> In x (children h p) ->
  exists h', remove p x h = (h', Err PermissionError) /\ same (view h') (view h).
Proof.
  intros h p x R Hp Hl Hin. pose proof (reach_WF h R) as W. unfold remove.
  pose proof (posn_in _ _ Hin) as Hk. destruct (WF_child_prt h p x W Hin) as (pl & Epl & Epar).
  destruct (idx_or_type_error_ok h p x _ W Hk) as (h1 & E1 & Q1 & _).
  assert (D : del_int p (Z.of_nat (posn (children h p) x)) h1 = (h1, Err PermissionError)).
  { apply bind_err. unfold check_del. rewrite bind_gets. unfold tree_protected, is_link_root in *.
    rewrite (ceq_flags _ _ Q1), Hp, Hl. reflexivity. }
  exists h1. split; [|apply ceq_same; assumption].
  rewrite bind_gets, Epl, Epar, Nat.eqb_refl. rewrite (bind_ok _ _ _ _ _ E1). exact D.
Qed.
(** the protected states are those of an item with READ_ONLY_TREE, LINKED or PLACEHOLDER set *)
Theorem C08_protected_states : forall h p, is_link_root h p = false ->
  (tree_protected h p = true <->
   has (nflags (hnode h p)) READ_ONLY_TREE = true \/ is_linked h p = true \/ is_placeholder h p = true).
Proof.
  intros h p Hl. unfold tree_protected, is_link_root, is_linked, is_placeholder, has in *.
  set (f := nflags (hnode h p)) in *. unfold IS_TREE_PROTECTED.
  apply negb_false_iff, Z.eqb_eq in Hl. rewrite !Z.land_lor_distr_r, Hl, Z.lor_0_r.
  rewrite !negb_true_iff, !Z.eqb_neq, !Z.lor_eq_0_iff.
  destruct (Z.eq_dec (Z.land f READ_ONLY_TREE) 0), (Z.eq_dec (Z.land f LINKED) 0), (Z.eq_dec (Z.land f PLACEHOLDER) 0); intuition congruence.
Qed.
Definition ro_ops : list op := ex_ops ++ [OSetTreeReadOnly 0].
Example C08_case : Reach (runs ro_ops empty_heap) /\ tree_protected (runs ro_ops empty_heap) 0 = true /\
  is_link_root (runs ro_ops empty_heap) 0 = false /\ tree_protected (runs ro_ops empty_heap) 3 = true /\
  snd (run (OAppend 3 (IVal (PInt 1))) (runs ro_ops empty_heap)) = Err PermissionError.
Proof. split; [apply reach_runs; [constructor|vm_compute; reflexivity]|]. vm_compute. auto. Qed.

Print Assumptions C01_family_index_partial.
Print Assumptions C03_parent_iff_child_partial.
Print Assumptions C04_idx.
Print Assumptions C05_tag_idx_partial.
Print Assumptions C06_acyclic_partial.
Print Assumptions C07_attach_attached.
Print Assumptions C08_read_only_tree.
