(** append, appendleft, insert: refinement of the list operations and the invariant for
    every outcome. *)
From Verif Require Import Base Heap HeapSpec ListLemmas ForestLemmas HeapInv HeapAttach
  HeapOps HeapOps2 HeapOps3 HeapHoare Tree HeapTree HeapCopy.

(** * results of subscription are children *)
Lemma list_at_In l i x : list_at l i = Some x -> In x l.
Proof.
  unfold list_at. destruct (py_idx (length l) i); [|discriminate]. apply nth_error_In.
Qed.
Lemma fam_of_In h p t f : WF h -> nitems (hnode h p) <> [] -> fam_of h p t = Ok (Some f) ->
  f = with_tag (view h) p t.
Proof.
  intros W Hne. destruct (WF_fam h p t W Hne) as (d & Ed & Eb & Hok & _).
  unfold fam_of. rewrite Eb, Ed. destruct (hashable t); [|discriminate].
  rewrite (fam_ok_get _ _ _ _ Hok). intros [= E]. apply nonempty_Some in E as [E _]. symmetry. exact E.
Qed.
Lemma families_of_In h p t f : WF h -> nitems (hnode h p) <> [] -> families_of h p t = Ok (Some f) ->
  f = with_tag (view h) p t.
Proof.
  intros W Hne. destruct (WF_fam h p t W Hne) as (d & Ed & Eb & Hok & _).
  unfold families_of. rewrite Ed. destruct (hashable t); [|discriminate].
  rewrite (fam_ok_get _ _ _ _ Hok). intros [= E]. apply nonempty_Some in E as [E _]. symmetry. exact E.
Qed.
Lemma with_tag_incl s p t : incl (with_tag s p t) (a_children (s p)).
Proof. intros x Hx. apply filter_In in Hx. apply Hx. Qed.
Lemma py_slice_incl {A} a b (l : list A) : incl (py_slice a b l) l.
Proof.
  intros x Hx. unfold py_slice in Hx. 
  assert (G : forall n (m : list A), In x (firstn n m) -> In x m)
    by (intros n m H; rewrite <- (firstn_skipn n m); apply in_or_app; auto).
  apply G in Hx. rewrite <- (firstn_skipn (slice_bound (length l) 0 a) l). apply in_or_app. auto.
Qed.
Lemma pick_all_incl f l r : pick_all f l = Some r -> incl r f.
Proof.
  revert r; induction l as [|v l IH]; cbn; intros r; [intros [= <-] x []|].
  destruct (as_index v) as [i|]; [|discriminate]. destruct (list_at f i) as [x|] eqn:E; [|discriminate].
  destruct (pick_all f l) as [r'|]; [|discriminate]. intros [= <-] y [<-|Hy].
  - eapply list_at_In; eauto.
  - eapply IH; eauto.
Qed.

Definition gres_items (g : gres) : list loc := match g with GItem x => [x] | GList l => l end.

Section Get.
  Context (h : heap) (W : WF h) (p : loc) (Hne : nitems (hnode h p) <> []).
  Lemma fallback_incl t e g : fallback h p t e = Ok g -> incl (gres_items g) (nitems (hnode h p)).
  Proof.
    unfold fallback. destruct (fam_of h p t) as [[f|]|] eqn:E; try discriminate.
    intros [= <-]. cbn. rewrite (fam_of_In _ _ _ _ W Hne E). apply (with_tag_incl (view h)).
  Qed.
  Lemma incl1 x : In x (nitems (hnode h p)) -> incl [x] (nitems (hnode h p)).
  Proof. intros H y [<-|[]]. assumption. Qed.
  Lemma getitem_tuple_incl l g : getitem_tuple h p l = Ok g -> incl (gres_items g) (nitems (hnode h p)).
  Proof.
    unfold getitem_tuple. destruct l as [|t [|i [|]]]; try apply fallback_incl.
    destruct (fam_of h p t) as [[f|]|e] eqn:E.
    - pose proof (fam_of_In _ _ _ _ W Hne E) as Ef.
      assert (Hf : incl f (nitems (hnode h p))) by (rewrite Ef; apply (with_tag_incl (view h))).
      destruct (as_index i) as [z|].
      + destruct (list_at f z) as [x|] eqn:El; [|apply fallback_incl].
        intros [= <-]. apply incl1. apply Hf. eapply list_at_In; eauto.
      + set (o := match i with PList is | PTuple is | PDeque is | PSet is => pick_all f is
                          | _ => None end).
        destruct o as [xs|] eqn:Eo; [|apply fallback_incl].
        intros [= <-]. cbn. intros y Hy. apply Hf.
        subst o. destruct i; try discriminate; eapply pick_all_incl; eauto.
    - apply fallback_incl.
    - destruct e; apply fallback_incl.
  Qed.
  Lemma getitem_val_incl v : forall g, getitem_val h p v = Ok g -> incl (gres_items g) (nitems (hnode h p)).
  Proof.
    assert (Hfam : forall t g, match fam_of h p t with Ok (Some f) => Ok (GList f)
                    | Ok None => Err KeyError | Err e => Err e end = Ok g -> incl (gres_items g) (nitems (hnode h p))).
    { intros t g. destruct (fam_of h p t) as [[f|]|] eqn:E; try discriminate. intros [= <-]. cbn.
      rewrite (fam_of_In _ _ _ _ W Hne E). apply (with_tag_incl (view h)). }
    induction v using pyval_ind'; intros g; cbn [getitem_val];
      (destruct (nitems (hnode h p)) as [|i0 ir] eqn:Ei; [congruence|]); rewrite <- Ei in *;
      try apply Hfam.
    - destruct (list_at (nitems (hnode h p)) _) as [x|] eqn:El; [|apply fallback_incl].
      intros [= <-]. apply incl1. eapply list_at_In; eauto.
    - apply getitem_tuple_incl.
    - (* list *)
      rename H into IH. clear Hfam.
      assert (G : forall l acc g, Forall (fun v => forall g, getitem_val h p v = Ok g -> incl (gres_items g) (nitems (hnode h p))) l ->
          incl acc (nitems (hnode h p)) ->
          (fix go (l : list pyval) (acc : list loc) : res gres :=
             match l with
             | [] => match acc with [] => Err KeyError | _ => Ok (GList acc) end
             | t :: r => match getitem_val h p t with
                     | Ok (GItem x) => go r (acc ++ [x])
                     | Ok (GList xs) => go r (acc ++ xs)
                     | Err e => Err e
                     end
             end) l acc = Ok g -> incl (gres_items g) (nitems (hnode h p))).
      { clear IH. intros l0. induction l0 as [|t r IHr]; intros acc g0 HF Hacc.
        - destruct acc; [discriminate|]. intros [= <-]. exact Hacc.
        - inversion HF; subst. destruct (getitem_val h p t) as [[x|xs]|e] eqn:Et; [| |discriminate].
          + apply IHr; [assumption|]. apply incl_app; [assumption|]. apply (H1 _ eq_refl).
          + apply IHr; [assumption|]. apply incl_app; [assumption|]. apply (H1 _ eq_refl). }
      apply G; [exact IH|intros y []].
    - (* set *)
      clear Hfam.
      assert (G : forall l acc g, incl acc (nitems (hnode h p)) ->
          (fix go (l : list pyval) (acc : list loc) : res gres :=
             match l with
             | [] => match acc with [] => Err KeyError | _ => Ok (GList acc) end
             | t :: r => match families_of h p t with
                     | Ok (Some f) => go r (acc ++ f)
                     | Ok None => Err KeyError
                     | Err e => Err e
                     end
             end) l acc = Ok g -> incl (gres_items g) (nitems (hnode h p))).
      { clear H. intros l'. induction l' as [|t r IHr]; intros acc g' Hacc.
        - destruct acc; [discriminate|]. intros [= <-]. exact Hacc.
        - destruct (families_of h p t) as [[f|]|e] eqn:Et; try discriminate.
          apply IHr. apply incl_app; [assumption|].
          rewrite (families_of_In _ _ _ _ W Hne Et). apply (with_tag_incl (view h)). }
      apply G. intros y [].
  Qed.
End Get.

Lemma getitem_incl h p tg g : WF h -> getitem h p tg = Ok g -> incl (gres_items g) (nitems (hnode h p)).
Proof.
  intros W. unfold getitem. destruct (nitems (hnode h p)) as [|i0 ir] eqn:Ei; [discriminate|].
  assert (Hne : nitems (hnode h p) <> []) by congruence. rewrite <- Ei.
  destruct tg as [v|a b|t|t a b|t i| |f].
  - apply getitem_val_incl; assumption.
  - intros [= <-]. cbn. apply py_slice_incl.
  - destruct (fam_of h p t) as [[f|]|[]] eqn:E; try discriminate. intros [= <-]. cbn.
    rewrite (fam_of_In _ _ _ _ W Hne E). apply (with_tag_incl (view h)).
  - destruct (fam_of h p t) as [[f|]|[]] eqn:E; try discriminate. intros [= <-]. cbn.
    rewrite (fam_of_In _ _ _ _ W Hne E). intros x Hx. apply py_slice_incl in Hx.
    revert x Hx. apply (with_tag_incl (view h)).
  - destruct (fam_of h p t) as [[f|]|] eqn:E; try discriminate.
    destruct (list_at f i) as [x|] eqn:El; [|discriminate]. intros [= <-].
    intros y [<-|[]]. apply list_at_In in El. rewrite (fam_of_In _ _ _ _ W Hne E) in El.
    revert El. apply (with_tag_incl (view h)).
  - intros [= <-]. cbn. apply incl_refl.
  - intros [= <-]. cbn. intros x Hx. apply filter_In in Hx. apply Hx.
Qed.

(** * wrapping a value into a new item *)
(** state with one more, unattached item *)
Definition new_node (s : astate) (n : loc) (t v : pyval) (fl : Z) : astate := fun y =>
  if Nat.eqb y n then AN t v fl None [] None None else s y.
(** the state before attaching, and the item that gets attached *)
Definition arg_state (s : astate) (n : nat) (a : iarg) : astate :=
  match a with IItem _ => s | IVal v => new_node s n PNoTag v 0 end.
Definition arg_loc (n : nat) (a : iarg) : loc := match a with IItem x => x | IVal _ => n end.

(** an item may be attached below p without creating a cycle: it is not p and not above p *)
Definition arg_ok (h : heap) (p : loc) (a : iarg) : Prop :=
  p < hnext h /\
  match a with
  | IItem x => x < hnext h /\ (parent_of h x = None -> ~ Anc (view h) x p)
  | IVal _ => True
  end.
Definition arg_free (h : heap) (a : iarg) : Prop :=
  match a with IItem x => parent_of h x = None | IVal _ => True end.

Lemma prt_none h x : parent_of h x = None <-> nprt (hnode h x) = None.
Proof. unfold parent_of. cbn. destruct (nprt (hnode h x)); cbn; split; congruence. Qed.

Lemma new_item_view h t v fl lk : same (view (fst (halloc h (fresh_node t v fl lk))))
  (fun y => if Nat.eqb y (hnext h) then AN t v fl None [] lk None else view h y).
Proof. intros y. unfold view. cbn. destruct (Nat.eqb y (hnext h)); reflexivity. Qed.

Lemma free_item_ok h p a : WF h -> arg_ok h p a -> arg_free h a ->
  exists h1, free_item a h = (h1, Ok (arg_loc (hnext h) a)) /\ WF h1 /\
    attachable h1 p (arg_loc (hnext h) a) /\
    same (view h1) (arg_state (view h) (hnext h) a) /\
    (forall y, y < hnext h -> hnode h1 y = hnode h y) /\
    hnext h1 = match a with IItem _ => hnext h | IVal _ => S (hnext h) end.
Proof.
  intros W [Hp Ha] Hf. destruct a as [x|v]; cbn [arg_loc arg_state].
  - exists h. cbn in Hf. apply prt_none in Hf as Hf'. unfold free_item. rewrite bind_gets, Hf'.
    destruct Ha as [Hx Ha]. split; [reflexivity|]. split; [assumption|]. split; [|split; [intros y; reflexivity|split; reflexivity]].
    split; [assumption|]. split; [assumption|]. split; [assumption|]. apply Ha. assumption.
  - exists (fst (halloc h (fresh_node PNoTag v 0 None))).
    assert (W1 : WF (fst (halloc h (fresh_node PNoTag v 0 None)))) by (apply halloc_WF; [assumption|discriminate]).
    split; [reflexivity|]. split; [assumption|].
    split; [|split; [apply new_item_view|split; [|reflexivity]]].
    + split; [cbn; rewrite Nat.eqb_refl; reflexivity|]. split; [cbn; lia|]. split; [cbn; lia|].
      intros HA. apply (Anc_ext _ (view h)) in HA.
      * eapply fresh_not_anc; [apply (wf_forest _ W)|apply le_n| |exact HA]. lia.
      * intros y. rewrite (new_item_view h PNoTag v 0 None y).
        destruct (Nat.eqb_spec y (hnext h)) as [->|]; [|reflexivity]. cbn.
        symmetry. apply (fo_alloc _ _ (wf_forest _ W) (hnext h) (le_n _)).
    + intros y Hy. cbn. destruct (Nat.eqb_spec y (hnext h)); [lia|reflexivity].
Qed.

(** the state after a failed operation equals the state before *)
Lemma free_item_err h a : ~ arg_free h a -> free_item a h = (h, Err RecursionError).
Proof.
  destruct a as [x|v]; cbn [arg_free]; [|intros H; elim H; exact I]. intros H. unfold free_item. rewrite bind_gets.
  rewrite prt_none in H. destruct (nprt (hnode h x)); [reflexivity|congruence].
Qed.
Lemma arg_free_dec h a : {arg_free h a} + {~ arg_free h a}.
Proof. destruct a as [x|v]; cbn; [|left; exact I]. destruct (option_map _ _); [right|left]; congruence. Qed.

(** protection checks do not touch the heap *)
Definition outcome {A} (m : M A) (h : heap) : res A := snd (m h).
Lemma check_append_pure p a h : fst (check_append p a h) = h.
Proof.
  unfold check_append. rewrite bind_gets. destruct (tree_protected h p); [|reflexivity].
  destruct (is_link_root h p); [|reflexivity]. destruct a as [x|]; [|reflexivity].
  destruct (has (nflags (hnode h x)) LINK_MASK); reflexivity.
Qed.
Lemma check_insert_pure p a h : fst (check_insert p a h) = h.
Proof.
  unfold check_insert. rewrite bind_gets. destruct (tree_protected h p); [|reflexivity].
  destruct (is_link_root h p); [|reflexivity]. destruct a as [x|].
  - destruct (has (nflags (hnode h x)) LINK_MASK); [reflexivity|].
    destruct (nlink (hnode h p)) as [k|]; [|reflexivity]. destruct (lk_loaded k && _); reflexivity.
  - destruct (nlink (hnode h p)) as [k|]; [|reflexivity]. destruct (lk_loaded k && _); reflexivity.
Qed.
Lemma pure_ok {A} (m : M A) h a : fst (m h) = h -> outcome m h = Ok a -> m h = (h, Ok a).
Proof. unfold outcome. destruct (m h). cbn. congruence. Qed.
Lemma pure_err {A} (m : M A) h e : fst (m h) = h -> outcome m h = Err e -> m h = (h, Err e).
Proof. unfold outcome. destruct (m h). cbn. congruence. Qed.
Lemma bind_pure_err {A B} (m : M A) (k : A -> M B) h e :
  fst (m h) = h -> outcome m h = Err e -> bind m k h = (h, Err e).
Proof. intros H1 H2. rewrite (bind_err _ _ _ _ _ (pure_err m h e H1 H2)). reflexivity. Qed.

(** * append *)
Lemma append_ok h p a : WF h -> arg_ok h p a -> arg_free h a -> outcome (check_append p a) h = Ok tt ->
  exists h', append p a h = (h', Ok (arg_loc (hnext h) a)) /\ WF h' /\
    same (view h') (attach (arg_state (view h) (hnext h) a) p (arg_loc (hnext h) a)
                           (length (children h p))).
Proof.
  intros W Ha Hf Hc. unfold append.
  rewrite (bind_ok _ _ _ _ _ (pure_ok _ _ _ (check_append_pure p a h) Hc)).
  destruct (free_item_ok h p a W Ha Hf) as (h1 & E1 & W1 & A1 & V1 & Hs1 & _).
  rewrite (bind_ok _ _ _ _ _ E1).
  destruct (append_core_ok h1 W1 p _ A1) as (h2 & E2 & Q2).
  rewrite (bind_ok _ _ _ _ _ E2). exists h2. split; [reflexivity|]. split.
  - eapply ceq_WF; [exact Q2|]. apply mk_attach_WF; assumption.
  - eapply same_trans; [apply ceq_view_same; exact Q2|].
    eapply same_trans; [apply mk_attach_view; eapply attachable_ne; eauto|].
    replace (children h p) with (nitems (hnode h1 p)).
    + apply attach_same. assumption.
    + rewrite Hs1; [reflexivity|]. apply Ha.
Qed.
Lemma append_err h p a : (exists e, outcome (check_append p a) h = Err e) \/ ~ arg_free h a ->
  exists e, append p a h = (h, Err e).
Proof.
  intros H. unfold append. destruct (outcome (check_append p a) h) as [[]|e] eqn:E.
  - destruct H as [[e H]|H]; [discriminate|].
    rewrite (bind_ok _ _ _ _ _ (pure_ok _ _ _ (check_append_pure p a h) E)).
    rewrite (bind_err _ _ _ _ _ (free_item_err h a H)). eauto.
  - rewrite (bind_pure_err _ _ _ _ (check_append_pure p a h) E). eauto.
Qed.
Lemma append_WF h p a : WF h -> arg_ok h p a -> WF (fst (append p a h)).
Proof.
  intros W Ha. destruct (arg_free_dec h a) as [Hf|Hf].
  - destruct (outcome (check_append p a) h) as [[]|e] eqn:E.
    + destruct (append_ok h p a W Ha Hf E) as (h' & -> & W' & _). exact W'.
    + destruct (append_err h p a) as [e' ->]; [left; eauto|exact W].
  - destruct (append_err h p a) as [e' ->]; [right; assumption|exact W].
Qed.

(** * appendleft *)
Lemma appendleft_ok h p a : WF h -> arg_ok h p a -> arg_free h a -> outcome (check_insert p a) h = Ok tt ->
  exists h', appendleft p a h = (h', Ok (arg_loc (hnext h) a)) /\ WF h' /\
    same (view h') (attach (arg_state (view h) (hnext h) a) p (arg_loc (hnext h) a) 0).
Proof.
  intros W Ha Hf Hc. unfold appendleft.
  rewrite (bind_ok _ _ _ _ _ (pure_ok _ _ _ (check_insert_pure p a h) Hc)).
  destruct (free_item_ok h p a W Ha Hf) as (h1 & E1 & W1 & A1 & V1 & Hs1 & _).
  rewrite (bind_ok _ _ _ _ _ E1), bind_gets.
  assert (E2 : exists h2, (match nitems (hnode h1 p) with
                | _ :: _ => append_left_core p (arg_loc (hnext h) a)
                | [] => append_core p (arg_loc (hnext h) a) end) h1 = (h2, Ok tt) /\
              ceq (mk_attach h1 p (arg_loc (hnext h) a) 0) h2).
  { destruct (nitems (hnode h1 p)) as [|i0 ir] eqn:Ei.
    - destruct (append_core_ok h1 W1 p _ A1) as (h2 & E2 & Q2). rewrite Ei in Q2. exists h2. auto.
    - apply append_left_core_ok; auto. congruence. }
  destruct E2 as (h2 & E2 & Q2). rewrite (bind_ok _ _ _ _ _ E2).
  exists h2. split; [reflexivity|]. split.
  - eapply ceq_WF; [exact Q2|]. apply mk_attach_WF; assumption.
  - eapply same_trans; [apply ceq_view_same; exact Q2|].
    eapply same_trans; [apply mk_attach_view; eapply attachable_ne; eauto|]. apply attach_same. assumption.
Qed.
Lemma appendleft_err h p a : (exists e, outcome (check_insert p a) h = Err e) \/ ~ arg_free h a ->
  exists e, appendleft p a h = (h, Err e).
Proof.
  intros H. unfold appendleft. destruct (outcome (check_insert p a) h) as [[]|e] eqn:E.
  - destruct H as [[e H]|H]; [discriminate|].
    rewrite (bind_ok _ _ _ _ _ (pure_ok _ _ _ (check_insert_pure p a h) E)).
    rewrite (bind_err _ _ _ _ _ (free_item_err h a H)). eauto.
  - rewrite (bind_pure_err _ _ _ _ (check_insert_pure p a h) E). eauto.
Qed.
Lemma appendleft_WF h p a : WF h -> arg_ok h p a -> WF (fst (appendleft p a h)).
Proof.
  intros W Ha. destruct (arg_free_dec h a) as [Hf|Hf].
  - destruct (outcome (check_insert p a) h) as [[]|e] eqn:E.
    + destruct (appendleft_ok h p a W Ha Hf E) as (h' & -> & W' & _). exact W'.
    + destruct (appendleft_err h p a) as [e' ->]; [left; eauto|exact W].
  - destruct (appendleft_err h p a) as [e' ->]; [right; assumption|exact W].
Qed.

(** * insert *)
(** The guard of insert: negative integers not below -len; and, if the family of the new
    item already has members (binary search needed), cached positions within 19 of the
    true ones. *)
Definition ins_ok (h : heap) (p : loc) (it : instarget) (a : iarg) : Prop :=
  (match it with
   | InsAt (TgVal (PInt z)) => nitems (hnode h p) = [] \/ (- Z.of_nat (length (nitems (hnode h p))) <= z)%Z
   | _ => True
   end) /\
  (with_tag (view h) p (match a with IItem x => ntag (hnode h x) | IVal _ => PNoTag end) = [] \/
   drift_ok h (nitems (hnode h p)) 19).

(** position named by the target *)
Lemma insert_pos_case h p it : WF h -> nitems (hnode h p) <> [] ->
  match it with InsAt (TgVal (PInt z)) => (- Z.of_nat (length (nitems (hnode h p))) <= z)%Z | _ => True end ->
  exists h' r, insert_pos p (Z.of_nat (length (nitems (hnode h p)))) it h = (h', r) /\ ceq h h' /\
    (drift_ok h (nitems (hnode h p)) 19 -> drift_ok h' (nitems (hnode h p)) 19) /\
    match r with
    | Ok abs => (0 <= abs)%Z /\
        match it with
        | InsAt (TgVal (PInt z)) => abs = if (z <? 0)%Z then (Z.of_nat (length (nitems (hnode h p))) + z)%Z else z
        | InsAt tg => exists y k, getitem h p tg = Ok (GItem y) /\
                        nth_error (nitems (hnode h p)) k = Some y /\ abs = Z.of_nat k
        | _ => False
        end
    | Err _ => match it with InsAt (TgVal (PInt z)) => False | _ => True end
    end.
Proof.
  intros W Hne Hz.
  assert (Gen : forall tg, exists h' r,
     (h0 <- gets (fun h => h) ;;
      match getitem h0 p tg with
      | Err e => throw e
      | Ok (GItem x) => o <- get_idx x ;; match o with Some i => ret i | None => throw TypeError end
      | Ok (GList _) => throw AttributeError
      end) h = (h', r) /\ ceq h h' /\
      (drift_ok h (nitems (hnode h p)) 19 -> drift_ok h' (nitems (hnode h p)) 19) /\
      match r with
      | Ok abs => (0 <= abs)%Z /\ exists y k, getitem h p tg = Ok (GItem y) /\
                        nth_error (nitems (hnode h p)) k = Some y /\ abs = Z.of_nat k
      | Err _ => True end).
  { intros tg. rewrite bind_gets. destruct (getitem h p tg) as [[y|l]|e] eqn:Eg.
    - pose proof (getitem_incl h p tg _ W Eg y (or_introl eq_refl)) as Hin.
      apply In_nth_error in Hin as [k Hk].
      destruct (get_idx_ok h p y k W Hk) as (h' & E & Q & Wr).
      exists h', (Ok (Z.of_nat k)). rewrite (bind_ok _ _ _ _ _ E). split; [reflexivity|].
      split; [assumption|]. split.
      + intros D. eapply writes_drift; eauto; [apply WF_nodup; assumption|lia].
      + split; [lia|]. exists y, k. auto.
    - exists h, (Err AttributeError). split; [reflexivity|]. split; [apply ceq_refl|]. split; auto.
    - exists h, (Err e). split; [reflexivity|]. split; [apply ceq_refl|]. split; auto. }
  destruct it as [|x|tg].
  - exists h, (Err TypeError). split; [reflexivity|]. split; [apply ceq_refl|]. split; auto.
  - exists h, (Err ValueError). split; [reflexivity|]. split; [apply ceq_refl|]. split; auto.
  - destruct tg as [v| | | | | |]; try (apply Gen).
    destruct v as [ | | | | | |z| | | | | | | | | |]; try (apply Gen).
    exists h. eexists. split; [reflexivity|]. split; [apply ceq_refl|]. split; [auto|]. split; [|reflexivity].
    destruct (Z.ltb_spec z 0); lia.
Qed.

Lemma ceq_drift_sym h h1 l m : (forall y, In y l -> hnode h1 y = hnode h y) -> drift_ok h l m -> drift_ok h1 l m.
Proof.
  intros E D k y pl Hk Hp. rewrite E in Hp by (eapply nth_error_In; eauto). eapply D; eauto.
Qed.

Lemma attachable_ceq h h' p x : ceq h h' -> attachable h p x -> attachable h' p x.
Proof.
  intros Q (A1 & A2 & A3 & A4). split; [|split; [|split]].
  - pose proof (ceq_par _ _ Q x) as E. rewrite A1 in E. destruct (nprt (hnode h' x)); [discriminate|reflexivity].
  - rewrite (ceq_next _ _ Q). assumption.
  - rewrite (ceq_next _ _ Q). assumption.
  - intros HA. apply A4. eapply Anc_same; [|exact HA]. apply ceq_view_same. assumption.
Qed.
Lemma mk_attach_view_ceq h h' p x k : ceq h h' -> x <> p ->
  same (view (mk_attach h' p x k)) (attach (view h) p x k).
Proof.
  intros Q Hne. eapply same_trans; [apply mk_attach_view; assumption|].
  apply attach_same. apply ceq_view_same. assumption.
Qed.

(** where the new item goes: [Some k] = before the child now at k *)
Definition ins_place (h : heap) (p : loc) (it : instarget) : option nat :=
  match it with
  | InsNone => Some (length (children h p))
  | InsItem _ => match children h p with [] => Some 0 | _ => None end
  | InsAt (TgVal (PInt z)) => Some (py_insert_pos (length (children h p)) z)
  | InsAt tg => match children h p with
                | [] => Some 0
                | _ => match getitem h p tg with
                       | Ok (GItem y) => pos_of y (children h p)
                       | _ => None
                       end
                end
  end.

Lemma insert_ok h p it a : WF h -> arg_ok h p a -> arg_free h a -> ins_ok h p it a ->
  outcome (match it with InsNone => check_append p a | _ => check_insert p a end) h = Ok tt ->
  (forall k, ins_place (fst (free_item a h)) p it = Some k ->
   exists h', insert p it a h = (h', Ok (arg_loc (hnext h) a)) /\ WF h' /\
    same (view h') (attach (arg_state (view h) (hnext h) a) p (arg_loc (hnext h) a) k)) /\
  (ins_place (fst (free_item a h)) p it = None -> exists h' e, insert p it a h = (h', Err e) /\ WF h' /\
     same (view h') (arg_state (view h) (hnext h) a)).
Proof.
  intros W Ha Hf [Hz Hd] Hc.
  destruct (free_item_ok h p a W Ha Hf) as (h1 & E1 & W1 & A1 & V1 & Hs1 & Hn1).
  assert (Hp : p < hnext h) by apply Ha.
  assert (Eit : nitems (hnode h1 p) = nitems (hnode h p)) by (rewrite Hs1 by assumption; reflexivity).
  rewrite E1. cbn [fst].
  assert (Ech : children h1 p = children h p) by exact Eit.
  destruct it as [|xx|tg].
  - split; [|discriminate]. intros k [= <-]. rewrite Ech. apply append_ok; assumption.
  - (* InsItem *)
    unfold insert. rewrite (bind_ok _ _ _ _ _ (pure_ok _ _ _ (check_insert_pure p a h) Hc)).
    rewrite (bind_ok _ _ _ _ _ E1), bind_gets. unfold ins_place.
    change (children h1 p) with (nitems (hnode h1 p)).
    destruct (nitems (hnode h1 p)) as [|i0 ir] eqn:Ei.
    + split; [|discriminate]. intros k [= <-].
      destruct (append_core_ok h1 W1 p _ A1) as (h2 & E2 & Q2). rewrite Ei in Q2. cbn in Q2.
      rewrite (bind_ok _ _ _ _ _ E2). exists h2. split; [reflexivity|]. split.
      * eapply ceq_WF; [exact Q2|]. apply mk_attach_WF; assumption.
      * eapply same_trans; [apply ceq_view_same; exact Q2|].
        eapply same_trans; [apply mk_attach_view; eapply attachable_ne; eauto|]. apply attach_same. assumption.
    + split; [discriminate|]. intros _. exists h1, ValueError. split; [reflexivity|]. split; assumption.
  - cbn beta iota in Hc. unfold insert.
    rewrite (bind_ok _ _ _ _ _ (pure_ok _ _ _ (check_insert_pure p a h) Hc)).
    rewrite (bind_ok _ _ _ _ _ E1), bind_gets.
    destruct (nitems (hnode h1 p)) as [|i0 ir] eqn:Ei.
    + assert (Epl : ins_place h1 p (InsAt tg) = Some 0).
      { unfold ins_place. change (children h1 p) with (nitems (hnode h1 p)). rewrite Ei.
        destruct tg as [v| | | | | |]; try reflexivity. destruct v; try reflexivity.
        unfold py_insert_pos. destruct (Z.ltb_spec z 0); cbn; f_equal; lia. }
      rewrite Epl. split; [|discriminate]. intros k [= <-].
      destruct (append_core_ok h1 W1 p _ A1) as (h2 & E2 & Q2). rewrite Ei in Q2. cbn in Q2.
      rewrite (bind_ok _ _ _ _ _ E2). exists h2. split; [reflexivity|]. split.
      * eapply ceq_WF; [exact Q2|]. apply mk_attach_WF; assumption.
      * eapply same_trans; [apply ceq_view_same; exact Q2|].
        eapply same_trans; [apply mk_attach_view; eapply attachable_ne; eauto|]. apply attach_same. assumption.
    + rewrite <- Ei. rewrite <- Ei in Eit.
      assert (Hne1 : nitems (hnode h1 p) <> []) by congruence.
      assert (Hlt : forall y, In y (nitems (hnode h p)) -> y < hnext h).
      { intros y Hy. eapply Forest_child_lt; [apply (wf_forest _ W)|]. exact Hy. }
      destruct (insert_pos_case h1 p (InsAt tg) W1 Hne1) as (h2 & r & E2 & Q2 & D2 & R2).
      { destruct tg as [v| | | | | |]; auto. destruct v; auto. rewrite Eit. destruct Hz as [Hz|Hz]; [|assumption].
        congruence. }
      assert (A2 : attachable h2 p (arg_loc (hnext h) a)) by (eapply attachable_ceq; eauto).
      assert (W2 : WF h2) by (eapply ceq_WF; eauto).
      assert (Eit2 : nitems (hnode h2 p) = nitems (hnode h1 p)) by (apply (ceq_items _ _ Q2)).
      set (x := arg_loc (hnext h) a) in *.
      assert (Core : forall abs, r = Ok abs -> (0 <= abs)%Z ->
         exists h3, (abs <- insert_pos p (Z.of_nat (length (nitems (hnode h1 p)))) (InsAt tg) ;;
                      insert_core p x abs ;;; ret x) h1 = (h3, Ok x) /\ WF h3 /\
           same (view h3) (attach (arg_state (view h) (hnext h) a) p x
                             (Nat.min (Z.to_nat abs) (length (nitems (hnode h1 p)))))).
      { intros abs -> Habs. rewrite (bind_ok _ _ _ _ _ E2).
        destruct (insert_core_ok h2 W2 p x A2 abs) as (h3 & E3 & Q3).
        - congruence.
        - assumption.
        - intros Hfam _. rewrite Eit2. apply D2. eapply ceq_drift_sym; [|destruct Hd as [Hd|Hd]; [|rewrite Eit; exact Hd]].
          + intros y Hy. apply Hs1. apply Hlt. rewrite <- Eit. assumption.
          + exfalso. apply Hfam. rewrite <- Hd. unfold byt, with_tag. rewrite Eit2, Eit.
            cbn [view a_children a_tag]. apply filter_ext_in. intros y Hy. f_equal.
            * rewrite (ceq_tag _ _ Q2), Hs1 by auto. reflexivity.
            * rewrite (ceq_tag _ _ Q2). subst x. destruct a as [xa|va]; cbn [arg_loc].
              -- rewrite Hs1; [reflexivity|]. apply Ha.
              -- pose proof (V1 (hnext h)) as Vn. cbn [arg_state] in Vn. unfold new_node in Vn.
                 rewrite Nat.eqb_refl in Vn. apply (f_equal a_tag) in Vn. exact Vn.
        - rewrite (bind_ok _ _ _ _ _ E3). exists h3. split; [reflexivity|]. split.
          + eapply ceq_WF; [exact Q3|]. apply mk_attach_WF; assumption.
          + eapply same_trans; [apply ceq_view_same; exact Q3|].
            eapply same_trans; [apply (mk_attach_view_ceq h1 h2 p x _ Q2); eapply attachable_ne; eauto|].
            rewrite Eit2. apply attach_same. assumption. }
      assert (Nd : NoDup (nitems (hnode h1 p))) by (apply WF_nodup; assumption).
      assert (Gen : (match tg with TgVal (PInt _) => False | _ => True end) ->
         (forall k, ins_place h1 p (InsAt tg) = Some k ->
   exists h', (abs <- insert_pos p (Z.of_nat (length (nitems (hnode h1 p)))) (InsAt tg) ;;
      insert_core p x abs ;;; ret x) h1 = (h', Ok x) /\ WF h' /\
    same (view h') (attach (arg_state (view h) (hnext h) a) p x k)) /\
  (ins_place h1 p (InsAt tg) = None -> exists h' e, (abs <- insert_pos p (Z.of_nat (length (nitems (hnode h1 p)))) (InsAt tg) ;;
      insert_core p x abs ;;; ret x) h1 = (h', Err e) /\ WF h' /\
     same (view h') (arg_state (view h) (hnext h) a))).
      { intros Htg.
        assert (Epl : ins_place h1 p (InsAt tg) = match getitem h1 p tg with
                       | Ok (GItem y) => pos_of y (children h1 p) | _ => None end).
        { unfold ins_place. change (children h1 p) with (nitems (hnode h1 p)). rewrite Ei.
          destruct tg as [v| | | | | |]; try reflexivity. destruct v; try reflexivity. destruct Htg. }
        rewrite Epl. destruct r as [abs|e].
        - destruct R2 as [Habs R2].
          assert (R2' : exists y k, getitem h1 p tg = Ok (GItem y) /\
                        nth_error (nitems (hnode h1 p)) k = Some y /\ abs = Z.of_nat k).
          { destruct tg as [v| | | | | |]; try exact R2. destruct v; try exact R2. destruct Htg. }
          destruct R2' as (y & k & Eg & Hk & ->). rewrite Eg.
          change (children h1 p) with (nitems (hnode h1 p)).
          rewrite (pos_of_NoDup _ _ _ Nd Hk). split; [|discriminate]. intros k' [= <-].
          destruct (Core _ eq_refl Habs) as (h3 & E3 & W3 & V3). exists h3. split; [exact E3|].
          split; [assumption|]. pose proof (nth_error_lt _ _ _ Hk).
          replace (Nat.min (Z.to_nat (Z.of_nat k)) (length (nitems (hnode h1 p)))) with k in V3 by lia. assumption.
        - assert (Hno : match getitem h1 p tg with Ok (GItem _) => False | _ => True end).
          { destruct (getitem h1 p tg) as [[y|]|] eqn:Eg; auto.
            pose proof (getitem_incl h1 p tg _ W1 Eg y (or_introl eq_refl)) as Hin.
            apply In_nth_error in Hin as [k Hk]. destruct (get_idx_ok h1 p y k W1 Hk) as (h' & E' & _).
            assert (insert_pos p (Z.of_nat (length (nitems (hnode h1 p)))) (InsAt tg) h1 = (h', Ok (Z.of_nat k))).
            { transitivity ((o <- get_idx y ;; match o with Some i => ret i | None => throw TypeError end) h1).
              - destruct tg as [v| | | | | |]; try (cbn [insert_pos]; rewrite bind_gets, Eg; reflexivity).
                destruct v; try (cbn [insert_pos]; rewrite bind_gets, Eg; reflexivity). destruct Htg.
              - rewrite (bind_ok _ _ _ _ _ E'). reflexivity. }
            congruence. }
          destruct (getitem h1 p tg) as [[y|l]|e'] eqn:Eg; [destruct Hno| |]; (split; [discriminate|]; intros _;
            exists h2, e; rewrite (bind_err _ _ _ _ _ E2); split; [reflexivity|]; split; [assumption|];
            eapply same_trans; [apply ceq_view_same; exact Q2|exact V1]). }
      destruct tg as [v| | | | | |]; try (exact (Gen I)).
      destruct v as [ | | | | | |z| | | | | | | | | |]; try (exact (Gen I)).
      destruct r as [abs|e]; [|destruct R2]. destruct R2 as [Habs Eabs].
      split; [|discriminate]. intros k [= <-].
      destruct (Core abs eq_refl Habs) as (h3 & E3 & W3 & V3). exists h3. split; [exact E3|].
      split; [assumption|]. change (children h1 p) with (nitems (hnode h1 p)).
      replace (py_insert_pos (length (nitems (hnode h1 p))) z)
        with (Nat.min (Z.to_nat abs) (length (nitems (hnode h1 p)))); [assumption|].
      rewrite Eabs. unfold py_insert_pos. destruct (Z.ltb_spec z 0); lia.
Qed.

Lemma WF_arg_state h a : WF h -> WF (fst (free_item a h)).
Proof.
  intros W. destruct a as [x|v].
  - unfold free_item. rewrite bind_gets. destruct (nprt (hnode h x)); exact W.
  - apply (WFp_new_item PNoTag v 0 None); [discriminate|assumption].
Qed.

Lemma insert_WF h p it a : WF h -> arg_ok h p a -> ins_ok h p it a -> WF (fst (insert p it a h)).
Proof.
  intros W Ha Hi. destruct (arg_free_dec h a) as [Hf|Hf].
  - destruct (outcome (match it with InsNone => check_append p a | _ => check_insert p a end) h) as [[]|e] eqn:E.
    + destruct (insert_ok h p it a W Ha Hf Hi E) as [H1 H2].
      destruct (ins_place (fst (free_item a h)) p it) as [k|].
      * destruct (H1 k eq_refl) as (h' & -> & W' & _). exact W'.
      * destruct (H2 eq_refl) as (h' & e & -> & W' & _). exact W'.
    + unfold insert. destruct it.
      * destruct (append_err h p a) as [e' ->]; [left; eauto|exact W].
      * rewrite (bind_pure_err _ _ _ _ (check_insert_pure p a h) E). exact W.
      * rewrite (bind_pure_err _ _ _ _ (check_insert_pure p a h) E). exact W.
  - unfold insert. destruct it.
    + destruct (append_err h p a) as [e' ->]; [right; assumption|exact W].
    + destruct (outcome (check_insert p a) h) as [[]|e] eqn:E.
      * rewrite (bind_ok _ _ _ _ _ (pure_ok _ _ _ (check_insert_pure p a h) E)).
        rewrite (bind_err _ _ _ _ _ (free_item_err h a Hf)). exact W.
      * rewrite (bind_pure_err _ _ _ _ (check_insert_pure p a h) E). exact W.
    + destruct (outcome (check_insert p a) h) as [[]|e] eqn:E.
      * rewrite (bind_ok _ _ _ _ _ (pure_ok _ _ _ (check_insert_pure p a h) E)).
        rewrite (bind_err _ _ _ _ _ (free_item_err h a Hf)). exact W.
      * rewrite (bind_pure_err _ _ _ _ (check_insert_pure p a h) E). exact W.
Qed.
