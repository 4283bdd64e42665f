(** What the reading calls return in a well-formed state. *)
From Coq Require Import Sorting.Sorted Sorting.Permutation.
From Verif Require Import Base Heap HeapSpec ListLemmas ForestLemmas HeapInv HeapAttach HeapOps HeapOps2 HeapOps3 HeapHoare Tree HeapTree HeapMut HeapExt2 HeapOrd2 HeapHash.

(** ** one family *)
Lemma fam_of_ok h p t : WF h -> hashable t = true -> children h p <> [] ->
  fam_of h p t = Ok (nonempty (with_tag (view h) p t)).
Proof.
  intros W Ht Hne. destruct (WF_fam h p t W Hne) as (d & Ed & Eb & Hok & _).
  unfold fam_of. rewrite Eb, Ed, Ht. f_equal. apply fam_ok_get. assumption.
Qed.
Lemma families_of_ok h p t : WF h -> hashable t = true -> children h p <> [] ->
  families_of h p t = Ok (nonempty (with_tag (view h) p t)).
Proof.
  intros W Ht Hne. destruct (WF_fam h p t W Hne) as (d & Ed & Eb & Hok & _).
  unfold families_of. rewrite Ed, Ht. f_equal. apply fam_ok_get. assumption.
Qed.
Lemma is_tag_in_ok h p t : WF h -> (is_tag_in h p t = true <-> exists x, In x (children h p) /\ tag_of h x = t).
Proof.
  intros W. unfold is_tag_in. change (children h p) with (nitems (hnode h p)).
  destruct (nitems (hnode h p)) as [|a l] eqn:Ei; [split; [discriminate|intros (x & [] & _)]|]. rewrite <- Ei.
  destruct (WF_fam h p t W) as (d & Ed & Eb & Hok & _); [congruence|]. rewrite Ed, (fam_ok_get _ _ _ t Hok).
  destruct (byt _ t (nitems (hnode h p))) as [|y f] eqn:Ef; cbn [nonempty].
  - split; [discriminate|]. intros (x & Hx & Ht). exfalso.
    assert (K : In x (byt (fun x => ntag (hnode h x)) t (nitems (hnode h p)))).
    { apply filter_In. split; [assumption|]. apply pyval_eqb_eq. exact Ht. }
    rewrite Ef in K. destruct K.
  - split; [|reflexivity]. intros _. assert (K : In y (byt (fun x => ntag (hnode h x)) t (nitems (hnode h p)))) by (rewrite Ef; left; reflexivity).
    apply filter_In in K as [K1 K2]. exists y. split; [assumption|]. apply pyval_eqb_eq. exact K2.
Qed.
Lemma with_tag_In h p t x : In x (with_tag (view h) p t) <-> In x (children h p) /\ tag_of h x = t.
Proof. unfold with_tag. rewrite filter_In, pyval_eqb_eq. reflexivity. Qed.
Lemma with_tag_NoDup h p t : WF h -> NoDup (with_tag (view h) p t).
Proof. intros W. apply NoDup_filter. apply (WF_nodup h p W). Qed.

(** position inside the family *)
Definition fam_index (h : heap) (p x : loc) : nat := posn (with_tag (view h) p (tag_of h x)) x.
Lemma fam_index_pos h p x k : WF h -> nth_error (children h p) k = Some x -> fam_index h p x = fam_pos h p x k.
Proof.
  intros W Hk. apply posn_nth; [apply with_tag_NoDup; assumption|]. apply (fam_pos_nth h p x k Hk).
Qed.

(** ** keys() / items() *)
Lemma number_prefix tg l x : forall before r, l = before ++ x :: r -> NoDup l ->
  posn (byt tg (tg x) l) x = length (byt tg (tg x) before).
Proof.
  intros before r -> Hd. apply posn_nth; [apply NoDup_filter; assumption|].
  rewrite byt_app, byt_cons, pyval_eqb_refl, nth_error_app2 by lia. rewrite Nat.sub_diag. reflexivity.
Qed.
Lemma keys_loop_ok h p : WF h -> forall l before cnt g,
  children h p = before ++ l -> ceq h g ->
  (forall x, In x l -> dget_cnt cnt (tag_of h x) = Some (Z.of_nat (length (byt (tag_of h) (tag_of h x) before)) - 1)%Z) ->
  exists g', keys_loop cnt l g = (g', Ok (map (fun x => (tag_of h x, Z.of_nat (fam_index h p x), x)) l)) /\ ceq h g'.
Proof.
  intros W. pose proof (WF_nodup h p W) as Hd.
  induction l as [|x l IH]; intros before cnt g El Qg Hc; [exists g; split; [reflexivity|assumption]|].
  cbn [keys_loop map]. rewrite bind_gets. cbv zeta. rewrite (ceq_tag _ _ Qg). change (ntag (hnode h x)) with (tag_of h x).
  rewrite (Hc x (or_introl eq_refl)).
  assert (Hx : In x (nitems (hnode h p))).
  { change (nitems (hnode h p)) with (children h p). rewrite El. apply in_or_app. right. left. reflexivity. }
  destruct (WF_child_prt h p x W Hx) as (pl & Epl & _).
  pose proof (ceq_prt _ _ Qg x) as P. rewrite Epl in P. destruct (nprt (hnode g x)) as [pl'|] eqn:Epl'; [|discriminate].
  assert (Cg : caches_ok g) by (apply Qg; apply (wf_caches _ W)).
  assert (Et : pl_tuple pl' = false) by apply (Cg _ _ Epl').
  replace (Z.of_nat (length (byt (tag_of h) (tag_of h x) before)) - 1 + 1)%Z
    with (Z.of_nat (length (byt (tag_of h) (tag_of h x) before))) by lia.
  destruct (set_cache_ok TypeError SFam x _ g pl' Epl' Et (Nat2Z.is_nonneg (length (byt (tag_of h) (tag_of h x) before)))) as (g1 & E1 & Q1).
  rewrite (bind_ok _ _ _ _ _ E1).
  destruct (IH (before ++ [x]) (dset_cnt cnt (tag_of h x) (Z.of_nat (length (byt (tag_of h) (tag_of h x) before)))) g1) as (g2 & E2 & Q2).
  - rewrite <- app_assoc. assumption.
  - eapply ceq_trans; eauto.
  - intros y Hy. rewrite dget_dset_cnt, byt_app, byt_cons. cbn [byt filter].
    destruct (pyval_eqb_spec (tag_of h x) (tag_of h y)) as [E|E].
    + rewrite <- E. rewrite app_length. cbn. f_equal. lia.
    + rewrite app_nil_r. apply Hc. right. assumption.
  - rewrite (bind_ok _ _ _ _ _ E2). exists g2. split; [|assumption]. unfold ret. repeat f_equal.
    unfold fam_index. change (with_tag (view h) p (tag_of h x)) with (byt (tag_of h) (tag_of h x) (children h p)).
    rewrite (number_prefix (tag_of h) (children h p) x before l El Hd). reflexivity.
Qed.
Lemma items_view_ok h p : WF h -> children h p <> [] ->
  exists h', items_view p h = (h', Ok (map (fun x => (tag_of h x, Z.of_nat (fam_index h p x), x)) (children h p))) /\ ceq h h'.
Proof.
  intros W Hne. destruct (WF_fam h p PNoTag W Hne) as (d & Ed & Eb & Hok & _).
  unfold items_view. rewrite bind_gets, Ed.
  apply (keys_loop_ok h p W (children h p) []); [reflexivity|apply ceq_refl|].
  intros x Hx. cbn. destruct Hok as [Hnd Hok].
  assert (Hget : forall d', dget d' (tag_of h x) <> None -> dget_cnt (map (fun kv => (fst kv, (-1)%Z)) d') (tag_of h x) = Some (-1)%Z).
  { clear. induction d' as [|[k v] r IH]; cbn [dget dget_cnt map fst]; [congruence|]. destruct (pyval_eqb k (tag_of h x)); auto. }
  apply Hget. rewrite Hok. change (filter _ (nitems (hnode h p))) with (with_tag (view h) p (tag_of h x)).
  assert (K : In x (with_tag (view h) p (tag_of h x))) by (apply with_tag_In; auto).
  destruct (with_tag (view h) p (tag_of h x)); [destruct K|discriminate].
Qed.
Lemma list_at_nth l k : list_at l (Z.of_nat k) = nth_error l k.
Proof.
  unfold list_at. destruct (Nat.ltb_spec k (length l)) as [H|H].
  - rewrite py_idx_of_nat by assumption. reflexivity.
  - assert (E : py_idx (length l) (Z.of_nat k) = None) by (apply py_idx_None; lia). rewrite E. symmetry. apply nth_error_None. assumption.
Qed.
(** t[(tag, n)] as TagIdx is the n-th child of that tag *)
Lemma getitem_tag_idx h p t n : WF h -> hashable t = true -> children h p <> [] ->
  getitem h p (TgTagIdx t (Z.of_nat n)) =
    match with_tag (view h) p t with
    | [] => Err KeyError
    | f => match nth_error f n with Some x => Ok (GItem x) | None => Err IndexError end
    end.
Proof.
  intros W Ht Hne. unfold getitem. change (nitems (hnode h p)) with (children h p).
  destruct (children h p) eqn:Ec; [congruence|]. rewrite fam_of_ok by (assumption || congruence).
  destruct (with_tag (view h) p t) as [|y f]; cbn [nonempty]; [reflexivity|]. rewrite list_at_nth. reflexivity.
Qed.
Lemma fam_index_nth h p x : In x (children h p) -> nth_error (with_tag (view h) p (tag_of h x)) (fam_index h p x) = Some x.
Proof. intros H. apply posn_in. apply with_tag_In. auto. Qed.
Lemma getitem_key h p x : WF h -> hash_ok h -> In x (children h p) ->
  getitem h p (TgTagIdx (tag_of h x) (Z.of_nat (fam_index h p x))) = Ok (GItem x).
Proof.
  intros W Hh Hx. rewrite getitem_tag_idx; [|assumption|apply Hh|intros E; rewrite E in Hx; destruct Hx].
  pose proof (fam_index_nth h p x Hx) as K.
  destruct (with_tag (view h) p (tag_of h x)); [destruct (fam_index h p x); discriminate|]. rewrite K. reflexivity.
Qed.

(** ** tags(), iter_families() *)
Lemma sorted_unique (key : loc -> Z) : forall l1 l2,
  StronglySorted (fun a b => (key a <= key b)%Z) l1 -> StronglySorted (fun a b => (key a <= key b)%Z) l2 ->
  Permutation l1 l2 -> (forall a b, In a l1 -> In b l1 -> key a = key b -> a = b) -> l1 = l2.
Proof.
  induction l1 as [|a l1 IH]; intros l2 S1 S2 P Inj.
  - apply Permutation_nil in P. congruence.
  - destruct l2 as [|b l2]; [apply Permutation_sym, Permutation_nil in P; discriminate|].
    inversion S1 as [|? ? S1' F1]; subst. inversion S2 as [|? ? S2' F2]; subst.
    rewrite Forall_forall in F1, F2.
    assert (E : a = b).
    { assert (Hb : In b (a :: l1)) by (eapply Permutation_in; [apply Permutation_sym; exact P|left; reflexivity]).
      assert (Ha : In a (b :: l2)) by (eapply Permutation_in; [exact P|left; reflexivity]).
      destruct Hb as [|Hb]; [assumption|]. destruct Ha as [|Ha]; [congruence|].
      apply Inj; [left; reflexivity|right; assumption|]. specialize (F1 b Hb). specialize (F2 a Ha). lia. }
    subst b. f_equal. apply IH; auto.
    + eapply Permutation_cons_inv. exact P.
    + intros x y Hx Hy. apply Inj; right; assumption.
Qed.

(** the child of each tag that represents its family: the first, or with order_last the
    last child carrying the tag *)
Definition family_head (order_last : bool) (f : list loc) : option loc :=
  if order_last then last (map Some f) None else hd_error f.
Definition is_head (order_last : bool) (h : heap) (p x : loc) : bool :=
  match family_head order_last (with_tag (view h) p (tag_of h x)) with
  | Some y => Nat.eqb y x | None => false end.
Definition heads (order_last : bool) (h : heap) (p : loc) : list loc :=
  filter (is_head order_last h p) (children h p).

Lemma last_some_in {A} (l : list A) : forall y, last (map Some l) None = Some y -> In y l.
Proof.
  induction l as [|a l IH]; intros y; [discriminate|]. destruct l as [|b l]; [cbn; intros [= ->]; auto|].
  change (last (map Some (a :: b :: l)) None) with (last (map Some (b :: l)) None). intros H. right. apply IH. assumption.
Qed.
Lemma last_some_ne {A} (l : list A) : l <> [] -> last (map Some l) None <> None.
Proof.
  induction l as [|a l IH]; intros H; [congruence|]. destruct l as [|b l]; [discriminate|].
  change (last (map Some (a :: b :: l)) None) with (last (map Some (b :: l)) None). apply IH. discriminate.
Qed.
Lemma head_in o f y : family_head o f = Some y -> In y f.
Proof. unfold family_head. destruct o; [apply last_some_in|]. destruct f; [discriminate|]. intros [= ->]. left. reflexivity. Qed.
Lemma head_some o f : f <> [] -> exists y, family_head o f = Some y.
Proof.
  intros H. unfold family_head. destruct o.
  - pose proof (last_some_ne f H). destruct (last (map Some f) None); [eauto|congruence].
  - destruct f; [congruence|]. cbn. eauto.
Qed.
Lemma fam_heads_ok o d : (forall t f, In (t, f) d -> f <> []) ->
  exists hs, fam_heads o d = Ok hs /\ Forall2 (fun kv x => family_head o (snd kv) = Some x) d hs.
Proof.
  induction d as [|[t f] d IH]; intros H; [exists []; split; [reflexivity|constructor]|].
  destruct IH as (hs & E & F); [intros; eapply H; right; eauto|].
  destruct (head_some o f (H t f (or_introl eq_refl))) as [y Hy].
  exists (y :: hs). split; [|constructor; assumption]. unfold fam_heads in *. cbn [fold_right]. rewrite E.
  unfold family_head in Hy. cbn [snd]. rewrite Hy. reflexivity.
Qed.
Lemma mapM_idx_ok h p : WF h -> forall hs g, (forall x, In x hs -> In x (children h p)) -> ceq h g ->
  exists g', mapM idx_or_type_error hs g = (g', Ok (map (fun x => Z.of_nat (posn (children h p) x)) hs)) /\ ceq h g'.
Proof.
  intros W. induction hs as [|x hs IH]; intros g Hin Qg; [exists g; split; [reflexivity|assumption]|].
  cbn [mapM map]. pose proof (posn_in _ _ (Hin x (or_introl eq_refl))) as Hk.
  destruct (idx_or_type_error_ok g p x (posn (children h p) x)) as (g1 & E1 & Q1 & _).
  - eapply ceq_WF; eauto.
  - rewrite (ceq_items _ _ Qg). exact Hk.
  - rewrite (bind_ok _ _ _ _ _ E1). destruct (IH g1) as (g2 & E2 & Q2).
    + intros y Hy. apply Hin. right. assumption.
    + eapply ceq_trans; eauto.
    + rewrite (bind_ok _ _ _ _ _ E2). exists g2. split; [reflexivity|assumption].
Qed.
Lemma find_key (l : list loc) : forall hs x, In x hs ->
  match find (fun kx => Nat.eqb (snd kx) x) (combine (map (fun x => Z.of_nat (posn l x)) hs) hs) with
  | Some (k, _) => k | None => 0%Z end = Z.of_nat (posn l x).
Proof.
  induction hs as [|y hs IH]; intros x Hx; [destruct Hx|]. cbn [map combine find snd].
  destruct (Nat.eqb_spec y x) as [->|Hne]; [reflexivity|]. apply IH. destruct Hx; [congruence|assumption].
Qed.
Lemma NoDup_of_map {A B} (f : A -> B) l : NoDup (map f l) -> NoDup l.
Proof.
  induction l as [|a l IH]; cbn; intros H; [constructor|]. inversion H as [|? ? H1 H2]; subst. constructor; [|auto].
  intros K. apply H1. apply in_map. assumption.
Qed.
Lemma heads_perm o h p d hs : WF h -> nfams (hnode h p) = Some d -> 
  fam_ok (fun x => ntag (hnode h x)) d (nitems (hnode h p)) ->
  Forall2 (fun kv x => family_head o (snd kv) = Some x) d hs -> Permutation hs (heads o h p).
Proof.
  intros W Ed [Hnd Hok] F.
  assert (Hfam : forall t f, In (t, f) d -> f = with_tag (view h) p t).
  { intros t f Hin. pose proof (in_dget d t f Hnd Hin) as Hg. rewrite Hok in Hg. apply nonempty_Some in Hg as [<- _]. reflexivity. }
  assert (Htags : map (tag_of h) hs = map fst d).
  { clear Hnd Hok Ed. induction F as [|[t f] x d hs Hx F IH]; [reflexivity|]. cbn. f_equal.
    - apply head_in in Hx. cbn in Hx. rewrite (Hfam t f (or_introl eq_refl)) in Hx. apply with_tag_In in Hx. apply Hx.
    - apply IH. intros; apply Hfam; right; assumption. }
  apply NoDup_Permutation.
  - apply (NoDup_of_map (tag_of h)). rewrite Htags. assumption.
  - apply NoDup_filter. apply (WF_nodup h p W).
  - intros x. unfold heads. rewrite filter_In. unfold is_head. split.
    + intros Hx. assert (K : exists t f, In (t, f) d /\ family_head o f = Some x).
      { clear - F Hx. induction F as [|[t f] y d hs Hy F IH]; [destruct Hx|]. destruct Hx as [->|Hx].
        - exists t, f. split; [left; reflexivity|assumption].
        - destruct (IH Hx) as (t' & f' & ? & ?). exists t', f'. split; [right; assumption|assumption]. }
      destruct K as (t & f & Hin & Hy). pose proof (Hfam t f Hin) as ->. pose proof (head_in _ _ _ Hy) as Hi.
      apply with_tag_In in Hi as [Hc Ht]. subst t. split; [assumption|]. rewrite Hy. apply Nat.eqb_refl.
    + intros [Hc Hh]. assert (Hne : with_tag (view h) p (tag_of h x) <> []).
      { assert (In x (with_tag (view h) p (tag_of h x))) by (apply with_tag_In; auto). intros E. rewrite E in H. destruct H. }
      assert (Hd : In (tag_of h x, with_tag (view h) p (tag_of h x)) d).
      { apply dget_in. rewrite Hok. apply nonempty_ne. exact Hne. }
      destruct (family_head o (with_tag (view h) p (tag_of h x))) as [y|] eqn:Ey; [|discriminate].
      apply Nat.eqb_eq in Hh. subst y.
      clear - F Hd Ey. induction F as [|[t f] y d hs Hy F IH]; [destruct Hd|]. destruct Hd as [Hd|Hd].
      * injection Hd as -> ->. cbn [snd] in Hy. left. congruence.
      * right. apply IH. assumption.
Qed.
Lemma sorted_impl {A} (R S : A -> A -> Prop) l : (forall a b, In a l -> In b l -> R a b -> S a b) ->
  StronglySorted R l -> StronglySorted S l.
Proof.
  induction l as [|a l IH]; intros H HS; [constructor|]. inversion HS as [|? ? H1 H2]; subst. constructor.
  - apply IH; [|assumption]. intros x y Hx Hy. apply H; right; assumption.
  - rewrite Forall_forall in *. intros y Hy. apply H; [left; reflexivity|right; assumption|auto].
Qed.
Lemma sorted_heads_ok o h p : WF h -> children h p <> [] ->
  exists h', sorted_heads p o h = (h', Ok (heads o h p)) /\ ceq h h'.
Proof.
  intros W Hne. destruct (WF_fam h p PNoTag W Hne) as (d & Ed & Eb & Hok & _).
  unfold sorted_heads. rewrite bind_gets, Ed.
  destruct (fam_heads_ok o d) as (hs & Eh & F).
  { intros t f Hin E. subst f. pose proof (in_dget d t [] (proj1 Hok) Hin) as Hg. rewrite (proj2 Hok) in Hg.
    apply nonempty_Some in Hg as [_ Hg]. congruence. }
  rewrite bind_lift, Eh. pose proof (heads_perm o h p d hs W Ed Hok F) as P.
  assert (Hin : forall x, In x hs -> In x (children h p)).
  { intros x Hx. apply (Permutation_in _ P) in Hx. apply filter_In in Hx. apply Hx. }
  destruct (mapM_idx_ok h p W hs h Hin (ceq_refl h)) as (h1 & E1 & Q1).
  rewrite (bind_ok _ _ _ _ _ E1). exists h1. split; [|assumption]. cbv zeta. unfold ret. f_equal. f_equal.
  match goal with |- sort_list ?k _ = _ => set (key := k) end.
  assert (Hkey : forall x, In x hs -> key x = Z.of_nat (posn (children h p) x)) by (intros x Hx; apply find_key; assumption).
  pose proof (sort_list_perm key hs) as PS. pose proof (sort_list_sorted key hs) as SS.
  apply (sorted_unique (fun x => Z.of_nat (posn (children h p) x))).
  - eapply sorted_impl; [|exact SS]. intros a b Ha Hb. unfold kle.
    rewrite (Hkey a), (Hkey b); [auto| |]; eapply Permutation_in; [apply Permutation_sym; exact PS|assumption|apply Permutation_sym; exact PS|assumption].
  - unfold heads. eapply sorted_impl; [|apply sorted_filter; apply sorted_posn; apply (WF_nodup h p W)].
    intros a b _ _ Hab. cbv beta in *. apply Nat2Z.inj_le. apply Nat.lt_le_incl. exact Hab.
  - etransitivity; [apply Permutation_sym; exact PS|exact P].
  - intros a b Ha Hb E. assert (Ha' : In a hs) by (eapply Permutation_in; [apply Permutation_sym; exact PS|assumption]).
    assert (Hb' : In b hs) by (eapply Permutation_in; [apply Permutation_sym; exact PS|assumption]).
    apply Nat2Z.inj in E. pose proof (posn_in _ _ (Hin a Ha')) as Ka. pose proof (posn_in _ _ (Hin b Hb')) as Kb. rewrite E in Ka. congruence.
Qed.
Lemma heads_length_all o h p d : WF h -> nfams (hnode h p) = Some d ->
  fam_ok (fun x => ntag (hnode h x)) d (nitems (hnode h p)) -> length d = length (children h p) -> heads o h p = children h p.
Proof.
  intros W Ed Hok Hl.
  destruct (fam_heads_ok o d) as (hs & Eh & F).
  { intros t f Hin E. subst f. pose proof (in_dget d t [] (proj1 Hok) Hin) as Hg. rewrite (proj2 Hok) in Hg.
    apply nonempty_Some in Hg as [_ Hg]. congruence. }
  pose proof (heads_perm o h p d hs W Ed Hok F) as P. apply Permutation_length in P.
  assert (Hlh : length d = length hs) by (clear - F; induction F; cbn; congruence).
  unfold heads in *.
  assert (G : forall (f : loc -> bool) l, length (filter f l) <= length l /\ (length (filter f l) = length l -> filter f l = l)).
  { intros f l. induction l as [|a l [I1 I2]]; [auto|]. cbn. destruct (f a); cbn; split; try lia.
    - intros E. f_equal. apply I2. lia. }
  apply G. lia.
Qed.
Lemma tags_view_ok o h p : WF h ->
  exists h', tags_view p o h = (h', Ok (map (tag_of h) (heads o h p))) /\ ceq h h'.
Proof.
  intros W. unfold tags_view. rewrite bind_gets. destruct (nitems (hnode h p)) as [|a l] eqn:Ei.
  - exists h. split; [|apply ceq_refl]. unfold heads, children. cbn. rewrite Ei. reflexivity.
  - assert (Hne : children h p <> []) by (unfold children; cbn; congruence).
    destruct (WF_fam h p PNoTag W Hne) as (d & Ed & Eb & Hok & _). rewrite Ed.
    assert (Sing : l = [] -> heads o h p = [a]).
    { intros ->. unfold heads, children. cbn. rewrite Ei. cbn.
      assert (K : is_head o h p a = true).
      { unfold is_head, with_tag, children. cbn. rewrite Ei. cbn. rewrite pyval_eqb_refl. destruct o; cbn; apply Nat.eqb_refl. }
      rewrite K. reflexivity. }
    destruct l as [|b l].
    + rewrite (Sing eq_refl). exists h. split; [reflexivity|apply ceq_refl].
    + rewrite <- Ei. destruct (Nat.eqb_spec (length d) (length (nitems (hnode h p)))) as [E|E].
      * rewrite (heads_length_all o h p d W Ed Hok E). exists h. split; [reflexivity|apply ceq_refl].
      * destruct (sorted_heads_ok o h p W Hne) as (h1 & E1 & Q1). rewrite (bind_ok _ _ _ _ _ E1). exists h1. split; [reflexivity|assumption].
Qed.
Lemma families_view_ok o h p : WF h ->
  exists h', families_view p o h = (h', Ok (map (fun x => (tag_of h x, with_tag (view h) p (tag_of h x))) (heads o h p))) /\ ceq h h'.
Proof.
  intros W. unfold families_view. rewrite bind_gets. destruct (nitems (hnode h p)) as [|a l] eqn:Ei.
  - exists h. split; [|apply ceq_refl]. unfold heads, children. cbn. rewrite Ei. reflexivity.
  - assert (Hne : children h p <> []) by (unfold children; cbn; congruence).
    destruct (sorted_heads_ok o h p W Hne) as (h1 & E1 & Q1). rewrite (bind_ok _ _ _ _ _ E1). exists h1. split; [|assumption].
    assert (Hh : forall x, In x (heads o h p) -> In x (children h p)) by (intros x Hx; apply filter_In in Hx; apply Hx).
    revert Hh. generalize (heads o h p). induction l0 as [|x r IH]; intros Hh; [reflexivity|]. cbn [mapM map].
    assert (W1 : WF h1) by (eapply ceq_WF; eauto).
    assert (Hne1 : nitems (hnode h1 p) <> []) by (rewrite (ceq_items _ _ Q1); congruence).
    destruct (WF_fam h1 p (ntag (hnode h x)) W1 Hne1) as (d & _ & _ & _ & Eg).
    assert (Ex : In x (with_tag (view h1) p (ntag (hnode h x)))).
    { apply with_tag_In. unfold children, tag_of. rewrite !(ceq_view _ _ Q1). split; [apply Hh; left; reflexivity|reflexivity]. }
    assert (Ew : with_tag (view h1) p (ntag (hnode h x)) = with_tag (view h) p (tag_of h x)).
    { unfold with_tag. rewrite (ceq_view _ _ Q1). apply filter_ext. intros y. rewrite (ceq_view _ _ Q1). reflexivity. }
    rewrite nonempty_ne in Eg by (intros E; rewrite E in Ex; destruct Ex).
    assert (Eg' : (f <- getitem_fam p (ntag (hnode h x)) ;; ret (ntag (hnode h x), f)) h1 = (h1, Ok (tag_of h x, with_tag (view h) p (tag_of h x)))).
    { unfold getitem_fam. rewrite bind_assoc, (bind_ok _ _ _ _ _ Eg). rewrite Ew. reflexivity. }
    rewrite (bind_ok _ _ _ _ _ Eg'). rewrite (bind_ok _ _ _ _ _ (IH (fun y Hy => Hh y (or_intror Hy)))). reflexivity.
Qed.
(** tags() lists every present tag exactly once *)
Lemma NoDup_map_in {A B} (f : A -> B) l : NoDup l -> (forall x y, In x l -> In y l -> f x = f y -> x = y) -> NoDup (map f l).
Proof.
  induction l as [|a l IH]; intros Hd Hi; [constructor|]. inversion Hd; subst. cbn. constructor.
  - intros K. apply in_map_iff in K as (b & E & Hb). assert (b = a) by (apply Hi; [right; assumption|left; reflexivity|assumption]). congruence.
  - apply IH; [assumption|]. intros x y Hx Hy. apply Hi; right; assumption.
Qed.
Lemma heads_tags_NoDup o h p : WF h -> NoDup (map (tag_of h) (heads o h p)).
Proof.
  intros W. apply NoDup_map_in; [apply NoDup_filter, (WF_nodup h p W)|].
  intros x y Hx Hy E. apply filter_In in Hx as [_ Hx]. apply filter_In in Hy as [_ Hy]. unfold is_head in *. rewrite E in Hx.
  destruct (family_head o (with_tag (view h) p (tag_of h y))); [|discriminate]. apply Nat.eqb_eq in Hx, Hy. congruence.
Qed.
Lemma heads_tags_all o h p x : In x (children h p) -> In (tag_of h x) (map (tag_of h) (heads o h p)).
Proof.
  intros Hx. assert (Hf : In x (with_tag (view h) p (tag_of h x))) by (apply with_tag_In; auto).
  destruct (head_some o (with_tag (view h) p (tag_of h x))) as [y Hy]; [intros E; rewrite E in Hf; destruct Hf|].
  pose proof (head_in _ _ _ Hy) as Hi. apply with_tag_In in Hi as [Hc Ht]. rewrite <- Ht. apply in_map. apply filter_In. split; [assumption|].
  unfold is_head. rewrite Ht, Hy. apply Nat.eqb_refl.
Qed.
