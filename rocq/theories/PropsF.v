(** C38 - C43: copies, equality, flags, protected values (on the heap of items). *)
From Coq Require Import Sorting.Permutation.
From Verif Require Import Base Heap HeapSpec ListLemmas ForestLemmas HeapInv HeapAttach HeapOps HeapOps2 HeapOps3
  HeapHoare Tree HeapTree HeapCopy HeapMut HeapExt HeapExt2 HeapOrd HeapOrd2 HeapRen HeapMove HeapSet HeapSet2 HeapHist
  HeapHash History HeapRead HeapRead2 Runs HeapDel HeapLink HeapLinkH HeapFlags PropsA PropsB PropsC PropsD PropsE.

(** * C38 *)
(** what a user sees of one item: tag, value, flags *)
Definition content (h : heap) (x : loc) : pyval * pyval * Z := (tag_of h x, a_val (view h x), a_flags (view h x)).
(** the tree of items hanging below x *)
Definition tree_at (h : heap) (x : loc) (T : tree loc) : Prop := root T = x /\ ltree (view h) T.
Lemma tree_at_spec h x cs : tree_at h x (Node x cs) <-> map root cs = children h x /\ Forall (fun c => tree_at h (root c) c) cs.
Proof.
  unfold tree_at. rewrite ltree_iff. cbn. split.
  - intros [_ [A B]]. split; [exact A|]. eapply Forall_impl; [|exact B]. auto.
  - intros [A B]. split; [reflexivity|]. split; [exact A|]. eapply Forall_impl; [|exact B]. intros c [_ H]. exact H.
Qed.
Lemma lor_has f : has f LINK_ROOT = true -> Z.lor f LINK_ROOT = f.
Proof.
  unfold has, LINK_ROOT. intros H. apply Z.bits_inj'. intros n Hn. rewrite Z.lor_spec. change 32%Z with (2 ^ 5)%Z in *. rewrite Z.pow2_bits_eqb by lia.
  destruct (Z.eqb_spec 5 n) as [<-|]; [|apply orb_false_r]. rewrite orb_true_r. apply negb_true_iff, Z.eqb_neq in H.
  destruct (Z.testbit f 5) eqn:E; [reflexivity|]. exfalso. apply H. apply Z.bits_inj'. intros m Hm. rewrite Z.land_spec, Z.pow2_bits_eqb, Z.bits_0 by lia.
  destruct (Z.eqb_spec 5 m) as [<-|]; [rewrite E; reflexivity|apply andb_false_r].
Qed.
Theorem C38_copy_partial : forall h x, ReachL h -> x < hnext h ->
  exists h' c T T', copy_item x h = (h', Ok c) /\
    tree_at h x T /\ tree_at h' c T' /\
    (* same shape, order, tags, values and flags *)
    tmap (content h') T' = tmap (content h) T /\
    (* link roots keep their link source *)
    tmap (fun y => option_map lk_src (a_link (view h' y))) T' =
      tmap (fun y => if has (a_flags (view h y)) LINK_ROOT then option_map lk_src (a_link (view h y)) else None) T /\
    (* nothing is shared, the original is unchanged *)
    (forall y, In y (flatten T') -> hnext h <= y < hnext h') /\ parent_of h' c = None /\
    (forall y, y < hnext h -> view h' y = view h y) /\ families_agree h'.
Proof.
  intros h x RL Hx. pose proof (ReachL_Reach h RL) as R. pose proof (reach_WF h R) as W.
  destruct (ltree_exists _ _ _ (wf_forest _ W) Hx) as (T & HT & Er & _). subst x.
  destruct (copy_item_ok h W T HT Hx) as (h' & r & E & W' & Hn & Fr & K).
  destruct (copy_item_total h (root T) W (reachL_links h RL) Hx) as (h1 & c & E2). rewrite E in E2. injection E2 as <- ->.
  destruct K as (T' & HT' & Ec & Lab & Rng & Par & _). exists h', c, T, T'. split; [exact E|].
  split; [split; auto|]. split; [split; auto|].
  assert (G : forall {B} (f : xlabel -> B), tmap (fun y => f (label (view h') y)) T' = tmap (fun y => f (cp_label (label (view h) y))) T).
  { intros B f. rewrite <- (tmap_tmap (label (view h')) f), Lab, tmap_tmap. reflexivity. }
  split.
  - change (content h') with (fun y => (fun l => (x_tag l, x_val l, x_flags l)) (label (view h') y)). rewrite G. apply tmap_ext. intros y _. unfold content, cp_label, label, tag_of. cbn.
    pose proof (reach_flags h R y) as M. unfold fnode, in_mask in M. rewrite M. destruct (has (nflags (hnode h y)) LINK_ROOT) eqn:EL; [rewrite lor_has by assumption|]; reflexivity.
  - split; [|split; [exact Rng|split; [exact Par|split; [intros y Hy; apply (Fr y Hy)|]]]].
    + change (fun y => option_map lk_src (a_link (view h' y))) with (fun y => x_src (label (view h') y)). rewrite G. reflexivity.
    + apply reach_agree. apply (reach_after h (OCopy (root T)) h' (Ok tt)); [assumption|exact Hx|apply (void_run _ _ _ _ E)].
Qed.
Example C38_case : ReachL ex_heap /\ 0 < hnext ex_heap /\ snd (copy_item 0 ex_heap) = Ok 7 /\
  map (fun c => content (fst (copy_item 0 ex_heap)) c) (children (fst (copy_item 0 ex_heap)) 7) = map (content ex_heap) (children ex_heap 0) /\
  children (fst (copy_item 0 ex_heap)) 7 = [8; 9; 10; 12].
Proof. split; [exact ex_reachL|]. split; [vm_compute; lia|]. vm_compute. auto. Qed.
(** LINK_ROOT passed as flag without a link: copy raises *)
Theorem C38_copy_refuted : let h := runs bad_link_ops empty_heap in Reach h /\ snd (copy_item 0 h) = Err AttributeError.
Proof. cbv zeta. split; [apply reach_runs; [constructor|vm_compute; reflexivity]|]. vm_compute. reflexivity. Qed.

(** * C39 *)
Theorem C39_eq_refl : forall h x, item_eqb h x x = true.
Proof. intros h x. unfold item_eqb. rewrite Nat.eqb_refl. reflexivity. Qed.
Lemma pair_eqb_sym h a b : pair_eqb h a b = pair_eqb h b a.
Proof.
  unfold pair_eqb. destruct (init_args h a) as [[[[t1 v1] k1] f1]|], (init_args h b) as [[[[t2 v2] k2] f2]|]; try reflexivity.
  rewrite (pyval_eqb_sym t1 t2), (pyval_eqb_sym v1 v2), (Z.eqb_sym f1 f2). destruct k1, k2; try reflexivity. rewrite (Nat.eqb_sym n n0). reflexivity.
Qed.
Lemma zip_all_sym h : forall l m, zip_all h l m = zip_all h m l.
Proof. induction l as [|a l IH]; intros [|b m]; cbn; try reflexivity. rewrite pair_eqb_sym, IH. reflexivity. Qed.
Theorem C39_eq_sym : forall h x y, item_eqb h x y = item_eqb h y x.
Proof.
  intros h x y. unfold item_eqb. rewrite (Nat.eqb_sym x y), (pyval_eqb_sym (ntag (hnode h x))), (Nat.eqb_sym (length (nitems (hnode h x)))), (pyval_eqb_sym (nval (hnode h x))).
  destruct (deep_list (S (hnext h)) h x), (deep_list (S (hnext h)) h y); try reflexivity. rewrite zip_all_sym. reflexivity.
Qed.
(** items whose trees carry the same tags and values compare equal *)
Lemma eq_same_content h x y T U : WF h -> links_sane h -> x < hnext h -> y < hnext h ->
  tree_at h x T -> tree_at h y U -> tmap (fun z => (tag_of h z, a_val (view h z))) T = tmap (fun z => (tag_of h z, a_val (view h z))) U ->
  item_eqb h x y = true.
Proof.
  intros W L Hx Hy [ET HT] [EU HU] E. unfold item_eqb. destruct (Nat.eqb x y); [reflexivity|].
  assert (Er : (tag_of h x, a_val (view h x)) = (tag_of h y, a_val (view h y))).
  { pose proof (f_equal root E) as K. rewrite !root_tmap, ET, EU in K. exact K. }
  pose proof (f_equal fst Er) as Et. pose proof (f_equal snd Er) as Ev. cbn in Et, Ev. rewrite Et, Ev, !(proj2 (pyval_eqb_eq _ _)) by reflexivity. cbn [negb].
  assert (Ek : length (kids T) = length (kids U)).
  { pose proof (f_equal (fun t => length (kids t)) E) as K. destruct T, U. cbn in *. rewrite !map_length in K. exact K. }
  assert (HcT : nitems (hnode h x) = map root (kids T)) by (destruct T as [z cs]; cbn in ET; subst z; apply ltree_iff in HT as [A _]; symmetry; exact A).
  assert (HcU : nitems (hnode h y) = map root (kids U)) by (destruct U as [z cs]; cbn in EU; subst z; apply ltree_iff in HU as [A _]; symmetry; exact A).
  rewrite HcT, HcU, !map_length, Ek, Nat.eqb_refl. cbn [negb].
  destruct (deep_list_total h x (wf_forest _ W) Hx) as (T0 & HT0 & ET0 & D1). assert (T0 = T) by (eapply ltree_unique; eauto; congruence). subst T0.
  destruct (deep_list_total h y (wf_forest _ W) Hy) as (U0 & HU0 & EU0 & D2). assert (U0 = U) by (eapply ltree_unique; eauto; congruence). subst U0.
  rewrite D1, D2. clear D1 D2.
  assert (Eb : map (fun z => (tag_of h z, a_val (view h z))) (below_tree T) = map (fun z => (tag_of h z, a_val (view h z))) (below_tree U)).
  { destruct T as [z cs], U as [w ds]. unfold below_tree. cbn [kids]. pose proof (f_equal flatten E) as K. rewrite !flatten_tmap in K. cbn in K. injection K. auto. }
  revert Eb. generalize (below_tree T) (below_tree U). clear - L. induction l as [|a l IH]; intros [|b m] Eb; try discriminate; [reflexivity|].
  cbn [map] in Eb. pose proof (f_equal (fun l => hd_error l) Eb) as E1. pose proof (f_equal (fun l => tl l) Eb) as E2. cbn [hd_error tl] in E1, E2.
  cbn [zip_all]. rewrite (IH m E2), andb_true_r. injection E1 as _ Ev. unfold pair_eqb.
  assert (Q : forall z, exists t k f, init_args h z = Some (t, nval (hnode h z), k, f)).
  { intros z. unfold init_args, is_link_root. destruct (has (nflags (hnode h z)) LINK_ROOT) eqn:Ez; [|eauto]. specialize (L z Ez).
    destruct (nlink (hnode h z)); [eauto|congruence]. }
  destruct (Q a) as (t1 & k1 & f1 & ->). destruct (Q b) as (t2 & k2 & f2 & ->). rewrite Ev, (proj2 (pyval_eqb_eq (nval (hnode h b)) _)) by reflexivity. apply orb_true_r.
Qed.
Theorem C39_copy_equal : forall h x, ReachL h -> x < hnext h ->
  exists h' c, copy_item x h = (h', Ok c) /\ item_eqb h' c x = true /\ item_eqb h' x c = true.
Proof.
  intros h x RL Hx. destruct (C38_copy_partial h x RL Hx) as (h' & c & T & T' & E & [ET HT] & HT' & Con & _ & Rng & _ & Fr & _).
  assert (RL' : ReachL h').
  { replace h' with (after (OCopy x) h); [apply ReachL_step; [exact RL|exact Hx|reflexivity]|]. unfold after. cbn [run]. rewrite void_fst, E. reflexivity. }
  pose proof (reach_WF h (ReachL_Reach h RL)) as W. pose proof (reach_WF h' (ReachL_Reach h' RL')) as W'.
  assert (Hlt : forall y, In y (flatten T) -> y < hnext h) by (apply (ltree_lt _ _ T (wf_forest _ W) HT); congruence).
  assert (HcT : c < hnext h') by (destruct HT' as [<- _]; apply Rng, in_flatten_root).
  assert (Hxl : x < hnext h') by (destruct HT' as [Ec _]; pose proof (Rng (root T') (in_flatten_root T')); lia).
  assert (K : item_eqb h' c x = true).
  { apply (eq_same_content h' c x T' T W' (reachL_links h' RL') HcT Hxl HT').
    - split; [exact ET|]. eapply ltree_frame; [|exact HT]. intros y Hy. rewrite (Fr y (Hlt y Hy)). reflexivity.
    - transitivity (tmap (fun y => fst (content h' y)) T'); [reflexivity|]. rewrite <- (tmap_tmap (content h') fst), Con, tmap_tmap. apply tmap_ext.
      intros y Hy. unfold content, tag_of. cbn [fst]. rewrite (Fr y (Hlt y Hy)). reflexivity. }
  exists h', c. split; [exact E|]. split; [exact K|]. rewrite C39_eq_sym. exact K.
Qed.
Example C39_case : ReachL ex_heap /\ 0 < hnext ex_heap /\ item_eqb (fst (copy_item 0 ex_heap)) 7 0 = true /\ item_eqb ex_heap 1 3 = false.
Proof. split; [exact ex_reachL|]. split; [vm_compute; lia|]. vm_compute. auto. Qed.

(** * C40 *)
(** what == does guarantee: tag and value of the two items, the number of children, and the
    values of all descendants compared one by one in pre-order (as far as both reach) *)
Theorem C40_eq_sound_partial : forall h x y, Reach h -> x < hnext h -> y < hnext h -> item_eqb h x y = true ->
  tag_of h x = tag_of h y /\ a_val (view h x) = a_val (view h y) /\ length (children h x) = length (children h y) /\
  forall T U i a b, tree_at h x T -> tree_at h y U ->
    nth_error (flatten T) i = Some a -> nth_error (flatten U) i = Some b -> a_val (view h a) = a_val (view h b).
Proof.
  intros h x y R Hx Hy E. pose proof (reach_WF h R) as W. unfold item_eqb in E. destruct (Nat.eqb_spec x y) as [<-|Hne].
  { split; [reflexivity|]. split; [reflexivity|]. split; [reflexivity|]. intros T U i a b [E1 HT] [E2 HU] Ha Hb.
    assert (T = U) by (eapply ltree_unique; eauto; congruence). congruence. }
  destruct (pyval_eqb (ntag (hnode h x)) (ntag (hnode h y))) eqn:Et; [|discriminate]. apply pyval_eqb_eq in Et. cbn [negb] in E.
  destruct (Nat.eqb_spec (length (nitems (hnode h x))) (length (nitems (hnode h y)))) as [El|]; [|discriminate]. cbn [negb] in E.
  destruct (pyval_eqb (nval (hnode h x)) (nval (hnode h y))) eqn:Ev; [|discriminate]. apply pyval_eqb_eq in Ev. cbn [negb] in E.
  split; [exact Et|]. split; [exact Ev|]. split; [exact El|]. intros T U i a b [E1 HT] [E2 HU] Ha Hb.
  destruct (deep_list_total h x (wf_forest _ W) Hx) as (T0 & HT0 & ET0 & D1). assert (T0 = T) by (eapply ltree_unique; eauto; congruence). subst T0.
  destruct (deep_list_total h y (wf_forest _ W) Hy) as (U0 & HU0 & EU0 & D2). assert (U0 = U) by (eapply ltree_unique; eauto; congruence). subst U0.
  rewrite D1, D2 in E. destruct T as [x0 ks], U as [y0 us]. cbn in E1, E2. subst x0 y0. unfold below_tree in E. cbn [kids] in E. cbn [flatten] in Ha, Hb.
  destruct i as [|i]; [cbn in Ha, Hb; injection Ha as <-; injection Hb as <-; exact Ev|]. cbn in Ha, Hb. clear - E Ha Hb.
  revert i Ha Hb. revert E. generalize (flat_map flatten ks) (flat_map flatten us). induction l as [|p l IH]; intros [|q m] E i Ha Hb; try (destruct i; discriminate).
  cbn in E. apply andb_true_iff in E as [E1 E2]. destruct i as [|i]; [|eapply IH; eauto]. cbn in Ha, Hb. injection Ha as <-. injection Hb as <-.
  unfold pair_eqb in E1. assert (Q : forall z r, init_args h z = Some r -> snd (fst (fst r)) = nval (hnode h z)).
  { intros z r. unfold init_args. destruct (is_link_root h z); [destruct (nlink (hnode h z)); [|discriminate]|]; intros K; injection K as <-; reflexivity. }
  destruct (init_args h p) as [[[[t1 v1] k1] f1]|] eqn:A1; [|discriminate]. destruct (init_args h q) as [[[[t2 v2] k2] f2]|] eqn:A2; [|discriminate].
  apply Q in A1. apply Q in A2. cbn in A1, A2. subst v1 v2. apply orb_true_iff in E1 as [E1|E1]; [|apply pyval_eqb_eq in E1; exact E1].
  apply andb_true_iff in E1 as [E1 _]. apply andb_true_iff in E1 as [E1 _]. apply andb_true_iff in E1 as [_ E1]. apply pyval_eqb_eq in E1. exact E1.
Qed.
Example C40_case : let h := fst (copy_item 0 ex_heap) in item_eqb h 7 0 = true /\ tag_of h 7 = tag_of h 0.
Proof. vm_compute. auto. Qed.
(** equal although the tags of the children differ *)
Definition eq_ops : list op :=
  [ONew (PStr "r") PNoValue [EArgs (PStr "a") (PInt 1)] None 0;      (* 0: r[a=1] *)
   ONew (PStr "r") PNoValue [EArgs (PStr "b") (PInt 1)] None 0;      (* 2: r[b=1] *)
   OAppend 1 (IVal (PInt 5));                                        (* 4 below 1: r[a=1[5]] *)
   ONew (PStr "r") PNoValue [EArgs (PStr "a") (PInt 1)] None 0;      (* 5: r[a=1] *)
   OAppend 6 (IVal (PInt 9))].                                       (* 7 below 6: r[a=1[9]] *)
Theorem C40_eq_tags_refuted : let h := runs eq_ops empty_heap in
  Reach h /\ item_eqb h 0 2 = true /\ map (tag_of h) (children h 0) = [PStr "a"] /\ map (tag_of h) (children h 2) = [PStr "b"].
Proof. cbv zeta. split; [apply reach_runs; [constructor|vm_compute; reflexivity]|]. vm_compute. auto. Qed.
(** equal although one side has more levels; and == is not transitive *)
Theorem C40_eq_trans_refuted : let h := runs eq_ops empty_heap in
  Reach h /\ item_eqb h 0 2 = true /\ item_eqb h 2 5 = true /\ item_eqb h 0 5 = false /\
  length (children h 1) = 1 /\ length (children h 3) = 0.
Proof. cbv zeta. split; [apply reach_runs; [constructor|vm_compute; reflexivity]|]. vm_compute. auto 10. Qed.


(** * C41 *)
(** bit i of the flags of item y *)
Definition flag (h : heap) (y : loc) (i : Z) : bool := Z.testbit (a_flags (view h y)) i.
(** the flags as bit numbers: 0 READ_ONLY_TREE, 1 READ_ONLY_VALUE, 2 LOAD_LINKS, 3 LINKED, 4 PLACEHOLDER, 5 LINK_ROOT *)
Lemma has_bit f i : (0 <= i)%Z -> has f (2 ^ i) = Z.testbit f i.
Proof.
  intros Hi. unfold has. destruct (Z.testbit f i) eqn:E.
  - apply negb_true_iff, Z.eqb_neq. intros K. apply (f_equal (fun z => Z.testbit z i)) in K. rewrite Z.land_spec, E, Z.pow2_bits_true, Z.bits_0 in K by lia. discriminate.
  - apply negb_false_iff, Z.eqb_eq. apply Z.bits_inj'. intros m Hm. rewrite Z.land_spec, Z.pow2_bits_eqb, Z.bits_0 by lia.
    destruct (Z.eqb_spec i m) as [<-|]; [rewrite E; reflexivity|apply andb_false_r].
Qed.
Lemma has_linked h y : has (nflags (hnode h y)) LINKED = flag h y 3. Proof. apply (has_bit _ 3). lia. Qed.
Lemma has_rot h y : has (nflags (hnode h y)) READ_ONLY_TREE = flag h y 0. Proof. apply (has_bit _ 0). lia. Qed.
Lemma has_rov h y : has (nflags (hnode h y)) READ_ONLY_VALUE = flag h y 1. Proof. apply (has_bit _ 1). lia. Qed.
(** everything of an item but its flags *)
Definition a_set_flags (fl : Z) (a : anode) : anode := AN (a_tag a) (a_val a) fl (a_parent a) (a_children a) (a_link a) (a_coupled a).
Lemma view_set_flg h x g y : view (hmod h x (fun n => set_flg (g n) n)) y = if Nat.eqb y x then a_set_flags (g (hnode h y)) (view h y) else view h y.
Proof. unfold view. cbn. destruct (Nat.eqb y x); reflexivity. Qed.
Lemma lor_pow_bit a i n : (0 <= i)%Z -> (0 <= n)%Z -> Z.testbit (Z.lor a (2 ^ i)) n = if (n =? i)%Z then true else Z.testbit a n.
Proof. intros Hi Hn. rewrite Z.lor_spec, Z.pow2_bits_eqb, Z.eqb_sym by lia. destruct (Z.eqb_spec n i); [apply orb_true_r|apply orb_false_r]. Qed.

Theorem C41_set_value_read_only : forall h x h' r, set_value_read_only x h = (h', r) ->
  if flag h x 3 then r = Err PermissionError /\ h' = h
  else r = Ok tt /\ (forall i, (0 <= i)%Z -> flag h' x i = if (i =? 1)%Z then true else flag h x i) /\
       (forall y, y <> x -> view h' y = view h y) /\ a_set_flags 0 (view h' x) = a_set_flags 0 (view h x) /\ hnext h' = hnext h.
Proof.
  intros h x h' r E. unfold set_value_read_only, set_flags in E. rewrite bind_gets in E. cbn [negb andb] in E. rewrite has_linked in E.
  destruct (flag h x 3); [injection E as <- <-; auto|]. unfold upd in E. injection E as <- <-. split; [reflexivity|].
  assert (V := view_set_flg h x (fun n => Z.lor (nflags n) READ_ONLY_VALUE)). split; [|split; [|split; [|reflexivity]]].
  - intros i Hi. unfold flag. rewrite V, Nat.eqb_refl. apply (lor_pow_bit _ 1 i); lia.
  - intros y Hy. rewrite V. apply Nat.eqb_neq in Hy. rewrite Hy. reflexivity.
  - rewrite V, Nat.eqb_refl. reflexivity.
Qed.
Lemma set_flags_list_ok fl : forall l h, (forall y, In y l -> flag h y 3 = false) -> Z.testbit fl 3 = false ->
  exists h', set_flags_list fl false l h = (h', Ok tt) /\ hnext h' = hnext h /\
    forall y, view h' y = if existsb (Nat.eqb y) l then a_set_flags (Z.lor (a_flags (view h y)) fl) (view h y) else view h y.
Proof.
  intros l. induction l as [|x l IH]; intros h Hl Hf; [exists h; cbn; auto|]. unfold set_flags_list. cbn [mapM_]. unfold set_flags at 1.
  unfold bind at 1. rewrite bind_gets. cbn [negb andb]. rewrite has_linked, (Hl x) by (left; reflexivity). unfold upd. set (h1 := hmod _ _ _).
  assert (V : forall y, view h1 y = if Nat.eqb y x then a_set_flags (Z.lor (a_flags (view h y)) fl) (view h y) else view h y) by (intros y; apply (view_set_flg h x (fun n => Z.lor (nflags n) fl))).
  destruct (IH h1) as (h' & E & N & V').
  - intros y Hy. unfold flag. rewrite V. destruct (Nat.eqb y x); [cbn [a_set_flags a_flags]; rewrite Z.lor_spec, Hf, orb_false_r|]; apply (Hl y); right; assumption.
  - assumption.
  - exists h'. split; [exact E|]. split; [exact N|]. intros y. rewrite V', V. cbn [existsb]. destruct (Nat.eqb y x), (existsb (Nat.eqb y) l); cbn; try reflexivity.
    unfold a_set_flags. cbn. f_equal. rewrite <- Z.lor_assoc, Z.lor_diag. reflexivity.
Qed.
Lemma set_tree_ro_ok h x T : WF h -> x < hnext h -> tree_at h x T -> (forall y, In y (flatten T) -> flag h y 3 = false) ->
  exists h', set_tree_read_only x h = (h', Ok tt) /\ hnext h' = hnext h /\
    forall y, view h' y = if existsb (Nat.eqb y) (flatten T) then a_set_flags (Z.lor (a_flags (view h y)) READ_ONLY_TREE) (view h y) else view h y.
Proof.
  intros W Hx [ET HT] HL. destruct (deep_list_total h x (wf_forest _ W) Hx) as (T0 & HT0 & ET0 & D). assert (T0 = T) by (eapply ltree_unique; eauto; congruence). subst T0.
  unfold set_tree_read_only. rewrite bind_gets, has_linked, D. rewrite (HL x) by (rewrite <- ET; apply in_flatten_root).
  assert (F : x :: below_tree T = flatten T) by (destruct T as [z cs]; cbn in ET; subst z; reflexivity).
  rewrite F. apply (set_flags_list_ok READ_ONLY_TREE (flatten T) h HL). reflexivity.
Qed.
Theorem C41_set_tree_read_only_partial : forall h x T, Reach h -> x < hnext h -> tree_at h x T ->
  (forall y, In y (flatten T) -> flag h y 3 = false) ->
  exists h', set_tree_read_only x h = (h', Ok tt) /\
    (forall y i, (0 <= i)%Z -> flag h' y i = if existsb (Nat.eqb y) (flatten T) && (i =? 0)%Z then true else flag h y i) /\
    (forall y, a_set_flags 0 (view h' y) = a_set_flags 0 (view h y)) /\ hnext h' = hnext h.
Proof.
  intros h x T R Hx HT HL. destruct (set_tree_ro_ok h x T (reach_WF h R) Hx HT HL) as (h' & E & N & V). exists h'. split; [exact E|].
  split; [|split; [|exact N]].
  - intros y i Hi. unfold flag. rewrite V. destruct (existsb _ _); [|reflexivity]. cbn [andb a_set_flags a_flags]. apply (lor_pow_bit _ 0 i); lia.
  - intros y. rewrite V. destruct (existsb _ _); reflexivity.
Qed.
(** constructor flags are masked to the six defined bits, at the construction and ever after *)
Theorem C41_flags_defined : forall h y i, Reach h -> (6 <= i)%Z -> flag h y i = false.
Proof.
  intros h y i R Hi. pose proof (reach_flags h R y) as M. unfold fnode, in_mask in M. unfold flag. change (a_flags (view h y)) with (nflags (hnode h y)).
  rewrite <- M, Z.land_spec. replace FLAG_MASK with (Z.ones 6) by reflexivity. rewrite Z.ones_spec_high by lia. apply andb_false_r.
Qed.
Theorem C41_constructor_flags : forall h t v fl, hashable t = true ->
  exists h' x, new_tree t v [] None fl h = (h', Ok x) /\ forall i, (0 <= i < 6)%Z -> flag h' x i = Z.testbit fl i.
Proof.
  intros h t v fl Ht. unfold new_tree. rewrite Ht. cbn [negb]. eexists. exists (hnext h). split; [reflexivity|]. intros i Hi. unfold flag, view. cbn [hnode halloc fst]. rewrite Nat.eqb_refl. cbn [fresh_node nflags a_flags].
  rewrite Z.land_spec. replace FLAG_MASK with (Z.ones 6) by reflexivity. rewrite Z.ones_spec_low by lia. apply andb_true_r.
Qed.
(** unset_*: the flag is gone afterwards, no other item is touched ... *)
Theorem C41_unset_partial : forall h x h' r,
  (unset_tree_read_only x h = (h', r) -> r = Ok tt -> flag h' x 0 = false /\ forall y, y <> x -> view h' y = view h y) /\
  (unset_value_read_only x h = (h', r) -> r = Ok tt -> flag h' x 1 = false /\ forall y, y <> x -> view h' y = view h y) /\
  (unset_tree_read_only x h = (h', r) -> r <> Ok tt -> r = Err PermissionError /\ h' = h) /\
  (unset_value_read_only x h = (h', r) -> r <> Ok tt -> r = Err PermissionError /\ h' = h).
Proof.
  intros h x h' r.
  assert (K : forall fl, unset_flags x fl h = (h', r) ->
     (r = Ok tt -> (forall i, flag h' x i = false) /\ forall y, y <> x -> view h' y = view h y) /\ (r <> Ok tt -> r = Err PermissionError /\ h' = h)).
  { intros fl. unfold unset_flags. rewrite bind_gets. destruct (has _ _); intros [= <- <-]; [split; [discriminate|auto]|]. split; [|congruence]. intros _.
    assert (V := view_set_flg h x (fun n => unset_flags_val (nflags n) fl)). split.
    - intros i. unfold flag. rewrite V, Nat.eqb_refl. cbn. rewrite unset_flags_zero. apply Z.bits_0.
    - intros y Hy. rewrite V. apply Nat.eqb_neq in Hy. rewrite Hy. reflexivity. }
  assert (A : unset_tree_read_only x h = (h', r) -> unset_flags x READ_ONLY_TREE h = (h', r) \/ (r = Err PermissionError /\ h' = h)).
  { unfold unset_tree_read_only. rewrite bind_gets. match goal with |- context [if ?b then _ else _] => destruct b end; [intros [= <- <-]; auto|auto]. }
  assert (B : unset_value_read_only x h = (h', r) -> unset_flags x READ_ONLY_VALUE h = (h', r) \/ (r = Err PermissionError /\ h' = h)).
  { unfold unset_value_read_only. rewrite bind_gets. match goal with |- context [if ?b then _ else _] => destruct b end; [intros [= <- <-]; auto|auto]. }
  split; [|split; [|split]]; intros E N.
  - destruct (A E) as [E'|[-> _]]; [|discriminate]. destruct (proj1 (K _ E') N) as [F G]. auto.
  - destruct (B E) as [E'|[-> _]]; [|discriminate]. destruct (proj1 (K _ E') N) as [F G]. auto.
  - destruct (A E) as [E'|H]; [|exact H]. apply (K _ E'); assumption.
  - destruct (B E) as [E'|H]; [|exact H]. apply (K _ E'); assumption.
Qed.
Example C41_case : ReachL ex_heap /\ 0 < hnext ex_heap /\ snd (set_tree_read_only 0 ex_heap) = Ok tt /\ flag (fst (set_tree_read_only 0 ex_heap)) 5 0 = true /\
  snd (unset_tree_read_only 0 (fst (set_tree_read_only 0 ex_heap))) = Ok tt /\ snd (set_value_read_only 3 ex_heap) = Ok tt.
Proof. split; [exact ex_reachL|]. split; [vm_compute; lia|]. vm_compute. auto. Qed.
(** ... but unset_value_read_only also removes the tree protection *)
Theorem C41_unset_refuted : let h := runs [ONew (PStr "r") PNoValue [] None 0; OSetTreeReadOnly 0; OSetValueReadOnly 0] empty_heap in
  Reach h /\ flag h 0 0 = true /\ snd (unset_value_read_only 0 h) = Ok tt /\ flag (fst (unset_value_read_only 0 h)) 0 0 = false.
Proof. cbv zeta. split; [apply reach_runs; [constructor|vm_compute; reflexivity]|]. vm_compute. auto. Qed.

(** * C42 *)
Theorem C42_tree_read_only_partial : forall h x T, Reach h -> x < hnext h -> tree_at h x T ->
  (forall y, In y (flatten T) -> flag h y 3 = false) ->
  exists h', set_tree_read_only x h = (h', Ok tt) /\ tree_at h' x T /\ forall y, In y (flatten T) -> flag h' y 0 = true.
Proof.
  intros h x T R Hx [ET HT] HL. destruct (set_tree_ro_ok h x T (reach_WF h R) Hx (conj ET HT) HL) as (h' & E & N & V). exists h'. split; [exact E|].
  split.
  - split; [exact ET|]. eapply ltree_frame; [|exact HT]. intros y _. rewrite V. destruct (existsb _ _); reflexivity.
  - intros y Hy. unfold flag. rewrite V. assert (K : existsb (Nat.eqb y) (flatten T) = true) by (apply existsb_exists; exists y; split; [assumption|apply Nat.eqb_refl]).
    rewrite K. apply (lor_pow_bit _ 0 0); lia.
Qed.
Lemma lor_testbit_mono a b i : Z.testbit a i = true -> Z.testbit (Z.lor a b) i = true.
Proof. intros H. rewrite Z.lor_spec, H. reflexivity. Qed.
Lemma set_flags_list_init fl : forall l h, exists h', set_flags_list fl true l h = (h', Ok tt) /\ hnext h' = hnext h /\
    forall y, view h' y = if existsb (Nat.eqb y) l then a_set_flags (Z.lor (a_flags (view h y)) fl) (view h y) else view h y.
Proof.
  intros l. induction l as [|x l IH]; intros h; [exists h; cbn; auto|]. unfold set_flags_list. cbn [mapM_]. unfold set_flags at 1.
  unfold bind at 1. rewrite bind_gets. cbn [negb andb]. unfold upd. set (h1 := hmod _ _ _).
  assert (V : forall y, view h1 y = if Nat.eqb y x then a_set_flags (Z.lor (a_flags (view h y)) fl) (view h y) else view h y) by (intros y; apply (view_set_flg h x (fun n => Z.lor (nflags n) fl))).
  destruct (IH h1) as (h' & E & N & V'). exists h'. split; [exact E|]. split; [exact N|].
  intros y. rewrite V', V. cbn [existsb]. destruct (Nat.eqb y x), (existsb (Nat.eqb y) l); cbn; try reflexivity.
  unfold a_set_flags. cbn. f_equal. rewrite <- Z.lor_assoc, Z.lor_diag. reflexivity.
Qed.
Definition below_ro (h : heap) (p : loc) : Prop := forall c T y, In c (children h p) -> tree_at h c T -> In y (flatten T) -> flag h y 0 = true.
Lemma ext_step_flags_ro h p fl e h' : WF h -> p < hnext h -> nbound (hnode h p) = Current -> earg_ok h p e -> Z.testbit fl 0 = true ->
  below_ro h p -> ext_step_flags p fl e h = (h', Ok tt) ->
  below_ro h' p /\ (flag h p 0 = true -> flag h' p 0 = true) /\ hnext h <= hnext h'.
Proof.
  intros W Hp Hb He Hf HR E. unfold ext_step_flags in E. destruct (ext_step_case h p e W Hp Hb He) as (h1 & r & E1 & W1 & Hn1 & Hb1 & R1).
  destruct r as [u|e1]; [rewrite (bind_ok _ _ _ _ _ E1) in E|rewrite (bind_err _ _ _ _ _ E1) in E; discriminate].
  destruct R1 as (c & _ & Hcp & Hc & Vp & Pc & Fr & _).
  destruct (Z.eqb_spec fl 0) as [->|_]; [rewrite Z.bits_0 in Hf; discriminate|]. rewrite bind_gets in E.
  assert (Ch : children h1 p = children h p ++ [c]) by (unfold children; rewrite Vp; reflexivity).
  change (nitems (hnode h1 p)) with (children h1 p) in E. rewrite Ch, map_app in E. cbn [map] in E. rewrite last_last in E.
  destruct (deep_list_total h1 c (wf_forest _ W1) Hc) as (Tc & HTc & ETc & D). rewrite D in E.
  assert (F : c :: below_tree Tc = flatten Tc) by (destruct Tc as [z cs]; cbn in ETc; subst z; reflexivity). rewrite F in E.
  destruct (set_flags_list_init fl (flatten Tc) h1) as (h2 & E2 & N2 & V2). rewrite E2 in E. injection E as <-.
  assert (Kids : forall y, a_children (view h2 y) = a_children (view h1 y)) by (intros y; rewrite V2; destruct (existsb _ _); reflexivity).
  split; [|split; [|lia]].
  2:{ intros Fp. unfold flag. rewrite V2. destruct (existsb _ _); [cbn [a_set_flags a_flags]; apply lor_testbit_mono|]; rewrite Vp; exact Fp. }
  intros d T y Hd [ET HT] Hy. assert (HT1 : ltree (view h1) T) by (eapply ltree_frame; [|exact HT]; intros; apply Kids).
  unfold children in Hd. rewrite Kids in Hd. fold (children h1 p) in Hd. rewrite Ch in Hd. unfold flag. rewrite V2.
  destruct (existsb (Nat.eqb y) (flatten Tc)) eqn:EX; [cbn [a_set_flags a_flags]; rewrite Z.lor_spec, Hf; apply orb_true_r|].
  apply in_app_iff in Hd as [Hd|[->|[]]].
  - assert (HTp : ~ In p (flatten T)).
    { intros Hz. destruct (ltree_exists _ _ p (wf_forest _ W1) ltac:(lia)) as (Tp & HTp & ETp & _).
      pose proof (ltree_NoDup _ _ Tp (wf_forest _ W1) HTp) as ND. destruct Tp as [z cs]. cbn in ETp. subst z. apply ltree_iff in HTp as [Hk Hall].
      fold (children h1 p) in Hk. rewrite Ch in Hk. assert (Hd' : In d (map root cs)) by (rewrite Hk; apply in_or_app; auto).
      apply in_map_iff in Hd' as (Td & ETd & Hin). rewrite Forall_forall in Hall. assert (Td = T) by (eapply ltree_unique; eauto; congruence). subst Td.
      cbn in ND. inversion ND as [|? ? Hni _]. apply Hni. apply in_flat_map. exists T. auto. }
    assert (Hd1 : d < hnext h) by (apply (Forest_child_lt _ _ p d (wf_forest _ W) Hd)).
    assert (HT0 : exists T0, ltree (view h) T0 /\ root T0 = d) by (destruct (ltree_exists _ _ d (wf_forest _ W) Hd1) as (T0 & A & B & _); eauto).
    destruct HT0 as (T0 & HT0 & ET0).
    assert (Hp0 : ~ In p (flatten T0)).
    { intros Hz. destruct (ltree_exists _ _ p (wf_forest _ W) ltac:(lia)) as (Tp & HTp0 & ETp & _).
      pose proof (ltree_NoDup _ _ Tp (wf_forest _ W) HTp0) as ND. destruct Tp as [z cs]. cbn in ETp. subst z. apply ltree_iff in HTp0 as [Hk Hall].
      fold (children h p) in Hk. assert (Hd' : In d (map root cs)) by (rewrite Hk; assumption).
      apply in_map_iff in Hd' as (Td & ETd & Hin). rewrite Forall_forall in Hall. assert (Td = T0) by (eapply ltree_unique; eauto; congruence). subst Td.
      cbn in ND. inversion ND as [|? ? Hni _]. apply Hni. apply in_flat_map. exists T0. auto. }
    assert (Q : forall z, In z (flatten T0) -> a_children (view h1 z) = a_children (view h z) /\ a_flags (view h1 z) = a_flags (view h z)).
    { intros z Hz. assert (z < hnext h) by (eapply ltree_lt; [apply (wf_forest _ W)|exact HT0|congruence|exact Hz]).
      rewrite (Fr z) by congruence. destruct (Nat.eqb z c); auto. }
    assert (T0 = T). { eapply ltree_unique; [|exact HT1|congruence]. eapply ltree_frame; [|exact HT0]. intros z Hz. symmetry. apply Q. assumption. }
    subst T0. rewrite (proj2 (Q y Hy)). apply (HR d T y Hd (conj ET HT0) Hy).
  - assert (T = Tc) by (eapply ltree_unique; eauto; congruence). subst T.
    assert (K : existsb (Nat.eqb y) (flatten Tc) = true) by (apply existsb_exists; exists y; split; [assumption|apply Nat.eqb_refl]). congruence.
Qed.
Lemma ext_flags_loop_ro p fl es : Z.testbit fl 0 = true -> forall h h', WF h -> p < hnext h -> nbound (hnode h p) = Current -> Forall (earg_ok h p) es -> below_ro h p ->
  mapM_ (ext_step_flags p fl) es h = (h', Ok tt) -> below_ro h' p /\ (flag h p 0 = true -> flag h' p 0 = true) /\ hnext h <= hnext h'.
Proof.
  intros Hf. induction es as [|e es IH]; intros h h' W Hp Hb Hes HR E; [cbn in E; injection E as <-; auto|].
  inversion Hes as [|? ? He Hes']; subst. destruct (ext_step_flags_inv h p fl e es W Hp Hb He Hes') as (W1 & _ & R1).
  cbn [mapM_] in E. destruct (ext_step_flags p fl e h) as [h1 [u|e1]] eqn:E1; [rewrite (bind_ok _ _ _ _ _ E1) in E|rewrite (bind_err _ _ _ _ _ E1) in E; discriminate].
  destruct u. cbn [fst snd] in *. destruct (R1 tt eq_refl) as (Hp1 & Hb1 & Hes1). destruct (ext_step_flags_ro h p fl e h1 W Hp Hb He Hf HR E1) as (A1 & A2 & A3).
  destruct (IH h1 h' W1 Hp1 Hb1 Hes1 A1 E) as (B1 & B2 & B3). split; [assumption|]. split; [auto|lia].
Qed.
(** everything below an item constructed with READ_ONLY_TREE is read-only, on all levels *)
Theorem C42_constructor : forall h t v es lk fl h' x, Reach h ->
  Forall (fun e => match e with EItem y => y < hnext h | _ => True end) es ->
  Z.testbit fl 0 = true -> new_tree t v es lk fl h = (h', Ok x) ->
  exists T, tree_at h' x T /\ forall y, In y (flatten T) -> flag h' y 0 = true.
Proof.
  intros h t v es lk fl h' x R Hes Hf E. pose proof (reach_WF h R) as W.
  pose proof (proj1 (new_tree_inv h t v es lk fl W Hes)) as W'. rewrite E in W'. cbn [fst] in W'.
  unfold new_tree in E. destruct (hashable t); [|discriminate]. cbn [negb] in E.
  set (h1 := fst (halloc h (fresh_node t v (Z.land fl FLAG_MASK) None))) in *.
  assert (E1 : new_item t v (Z.land fl FLAG_MASK) None h = (h1, Ok (hnext h))) by reflexivity. rewrite (bind_ok _ _ _ _ _ E1) in E.
  assert (W1 : WF h1) by (apply halloc_WF; [assumption|discriminate]).
  assert (Fx : flag h1 (hnext h) 0 = true).
  { unfold flag, h1. rewrite new_item_view, Nat.eqb_refl. cbn [a_flags]. rewrite Z.land_spec, Hf. reflexivity. }
  set (body := match es with [] => ret tt | _ => _ end) in *.
  assert (Hb : forall h2, body h1 = (h2, Ok tt) -> below_ro h2 (hnext h) /\ flag h2 (hnext h) 0 = true /\ WF h2 /\ hnext h < hnext h2).
  { intros h2. subst body. destruct es as [|e es].
    - intros [= <-]. split; [|split; [exact Fx|split; [exact W1|cbn; lia]]]. intros c T y Hc. unfold children, h1 in Hc. rewrite new_item_view, Nat.eqb_refl in Hc. destruct Hc.
    - rewrite bind_upd. set (h0 := hmod h1 (hnext h) (set_fams (Some []) Current)). intros E2.
      assert (Ei : nitems (hnode h1 (hnext h)) = []) by (cbn; rewrite Nat.eqb_refl; reflexivity).
      assert (W0 : WF h0) by (apply set_fams_WF; assumption).
      assert (V0 : same (view h0) (view h1)) by apply same_view_fams.
      assert (HK : Forall (earg_ok h0 (hnext h)) (e :: es)).
      { eapply Forall_impl; [|exact Hes]. intros [z| |]; cbn; auto. intros Hz. split; [lia|]. intros _ K.
        apply (Anc_same _ _ _ _ V0) in K. apply Anc_root_eq in K; [lia|].
        unfold h1. rewrite (new_item_view h t v (Z.land fl FLAG_MASK) None (hnext h)), Nat.eqb_refl. reflexivity. }
      assert (B0 : nbound (hnode h0 (hnext h)) = Current) by (unfold h0; rewrite hmod_same; reflexivity).
      assert (L0 : hnext h < hnext h0) by (cbn; lia).
      assert (R0 : below_ro h0 (hnext h)) by (intros c T y Hc; unfold children in Hc; rewrite V0 in Hc; change (a_children (view h1 (hnext h))) with (nitems (hnode h1 (hnext h))) in Hc; rewrite Ei in Hc; destruct Hc).
      set (F := Z.land (Z.land fl FLAG_MASK) DEEP_FLAG_MASK) in *.
      assert (HF : Z.testbit F 0 = true) by (unfold F; rewrite !Z.land_spec, Hf; reflexivity).
      assert (Fx0 : flag h0 (hnext h) 0 = true) by (unfold flag; rewrite V0; exact Fx).
      destruct (ext_flags_loop_ro (hnext h) F (e :: es) HF h0 h2 W0 L0 B0 HK R0 E2) as (A1 & A2 & A3).
      destruct (ext_flags_loop (hnext h) F (e :: es) h0 W0 L0 B0 HK) as [W2 _]. rewrite E2 in W2. cbn [fst] in W2.
      split; [exact A1|]. split; [auto|]. split; [exact W2|lia]. }
  destruct (body h1) as [h2 [u|e]] eqn:E2; [rewrite (bind_ok _ _ _ _ _ E2) in E|rewrite (bind_err _ _ _ _ _ E2) in E; discriminate]. destruct u.
  destruct (Hb h2 eq_refl) as (B1 & B2 & W2 & Lx). clear Hb.
  assert (K : x = hnext h /\ hnext h' = hnext h2 /\ forall y, a_children (view h' y) = a_children (view h2 y) /\ (flag h2 y 0 = true -> flag h' y 0 = true)).
  { destruct lk as [s|]; [rewrite bind_upd in E|]; cbn in E; injection E as <- <-; [|auto]. split; [reflexivity|]. split; [reflexivity|]. intros y.
    unfold view, flag, view. cbn [hnode hmod]. destruct (Nat.eqb y (hnext h)); [|auto]. cbn [set_link set_flg nitems nflags a_children a_flags]. split; [reflexivity|]. apply lor_testbit_mono. }
  destruct K as (-> & Hn & K).
  destruct (ltree_exists _ _ (hnext h) (wf_forest _ W2) Lx) as (T & HT & ET & _). exists T. split.
  - split; [exact ET|]. eapply ltree_frame; [|exact HT]. intros y _. symmetry. apply K.
  - intros y Hy. apply K. destruct T as [z cs]. cbn in ET. subst z. cbn in Hy. destruct Hy as [<-|Hy]; [exact B2|].
    apply ltree_iff in HT as [Hk Hall]. apply in_flat_map in Hy as (U & HU & Hy). rewrite Forall_forall in Hall. apply (B1 (root U) U y); [|split; auto|exact Hy].
    unfold children. rewrite <- Hk. apply in_map. assumption.
Qed.
Example C42_case : let o := ONew (PStr "r") PNoValue [EItem 0; EArgs (PStr "z") PNone] None 1 in
  allowed ex_heap o /\ Z.testbit 1 0 = true /\ snd (run o ex_heap) = Ok tt /\ flag (after o ex_heap) 5 0 = true /\ parent_of (after o ex_heap) 0 = Some 7.
Proof. cbv zeta. split; [cbn [allowed]; unfold new_ok; apply Forall_cons; [vm_compute; lia|]; apply Forall_cons; [exact I|apply Forall_nil]|]. split; [reflexivity|]. vm_compute. auto. Qed.
(** a linked item further down: the call raises after having changed the items before it *)
Theorem C42_half_refuted : let h := runs [ONew (PStr "r") PNoValue [EArgs (PStr "a") PNone] None 0; ONew (PStr "l") PNoValue [] None 8; OAppend 0 (IItem 2)] empty_heap in
  Reach h /\ snd (set_tree_read_only 0 h) = Err PermissionError /\
  flag h 0 0 = false /\ flag (fst (set_tree_read_only 0 h)) 0 0 = true /\ flag (fst (set_tree_read_only 0 h)) 1 0 = true /\ flag (fst (set_tree_read_only 0 h)) 2 0 = false.
Proof. cbv zeta. split; [apply reach_runs; [constructor|vm_compute; reflexivity]|]. vm_compute. auto 10. Qed.

(** * C43 *)
(** protected: READ_ONLY_VALUE, LINKED or PLACEHOLDER *)
Definition value_protected (h : heap) (x : loc) : Prop := flag h x 1 = true \/ flag h x 3 = true \/ flag h x 4 = true.
Lemma has_lor_mask f a b : has f (Z.lor a b) = has f a || has f b.
Proof.
  unfold has. rewrite Z.land_lor_distr_r, <- negb_andb. f_equal. destruct (Z.eqb_spec (Z.lor (Z.land f a) (Z.land f b)) 0) as [E|N].
  - apply Z.lor_eq_0_iff in E as [-> ->]. reflexivity.
  - symmetry. apply andb_false_iff. destruct (Z.eqb_spec (Z.land f a) 0) as [E1|]; [|auto]. destruct (Z.eqb_spec (Z.land f b) 0) as [E2|]; [|auto].
    rewrite E1, E2 in N. exfalso. apply N. reflexivity.
Qed.
Lemma protected_has h x : has (nflags (hnode h x)) IS_VALUE_PROTECTED = true <-> value_protected h x.
Proof.
  unfold IS_VALUE_PROTECTED, value_protected. rewrite !has_lor_mask, has_rov, has_linked. assert (P : has (nflags (hnode h x)) PLACEHOLDER = flag h x 4) by (apply (has_bit _ 4); lia).
  rewrite P, !orb_true_iff. tauto.
Qed.
Theorem C43_set_value : forall h x v h' r, set_value x v h = (h', r) ->
  (value_protected h x -> r = Err PermissionError /\ h' = h) /\
  (~ value_protected h x -> r = Ok (a_val (view h x)) /\ view h' x = a_set_val v (view h x) /\ forall y, y <> x -> view h' y = view h y).
Proof.
  intros h x v h' r. unfold set_value. rewrite bind_gets. rewrite <- protected_has. destruct (has _ _).
  - intros [= <- <-]. split; [auto|]. intros K. destruct K. reflexivity.
  - intros E. split; [discriminate|]. intros _. rewrite bind_upd in E. cbn in E. injection E as <- <-. split; [reflexivity|].
    unfold view. cbn [hnode hmod]. rewrite Nat.eqb_refl. split; [reflexivity|]. intros y Hy. apply Nat.eqb_neq in Hy. rewrite Hy. reflexivity.
Qed.
Theorem C43_set_key_value : forall h x k v h' r, set_key_value x k v h = (h', r) -> value_protected h x -> r = Err PermissionError /\ h' = h.
Proof. intros h x k v h' r. unfold set_key_value. rewrite bind_gets. rewrite <- protected_has. intros E K. rewrite K in E. injection E as <- <-. auto. Qed.
Theorem C43_del_value_partial : forall h x h' r, flag h x 1 = true ->
  (del_value x h = (h', r) -> r = Err PermissionError /\ h' = h) /\ (forall k, del_key_value x k h = (h', r) -> r = Err PermissionError /\ h' = h).
Proof.
  intros h x h' r F. unfold del_value, del_key_value. split; [|intros k]; rewrite bind_gets, has_rov, F; intros [= <- <-]; auto.
Qed.
(** set_key_value then get_key_value, for dict values *)
Lemma vget_vset d k v : vget (vset d k v) k = Some v.
Proof. induction d as [|[k' w] d IH]; cbn; [rewrite pyval_eqb_refl; reflexivity|]. destruct (pyval_eqb k' k) eqn:E; cbn; rewrite E; [reflexivity|exact IH]. Qed.
Lemma vget_vset_other d k v k' : k' <> k -> vget (vset d k v) k' = vget d k'.
Proof.
  intros Hn. induction d as [|[j w] d IH]; cbn.
  - destruct (pyval_eqb_spec k k'); [congruence|reflexivity].
  - destruct (pyval_eqb_spec j k) as [->|]; cbn; [|destruct (pyval_eqb j k'); [reflexivity|exact IH]].
    destruct (pyval_eqb_spec k k'); [congruence|reflexivity].
Qed.
Theorem C43_set_then_get : forall h x d k v h' r, a_val (view h x) = PDict d -> ~ value_protected h x -> hashable k = true ->
  set_key_value x k v h = (h', r) ->
  is_ok r = true /\ get_key_value h' x k = Ok v /\ (forall k', k' <> k -> get_key_value h' x k' = get_key_value h x k') /\
  (forall y, y <> x -> view h' y = view h y).
Proof.
  intros h x d k v h' r Ev Np Hk. rewrite <- protected_has in Np. unfold set_key_value. rewrite bind_gets. destruct (has _ _); [congruence|].
  change (nval (hnode h x)) with (a_val (view h x)). rewrite Ev. cbn [key_set]. rewrite Hk, bind_upd. cbn [ret]. intros [= <- <-].
  unfold get_key_value, view. cbn [hnode hmod is_ok]. rewrite Nat.eqb_refl. cbn [set_val nval]. rewrite vget_vset. split; [reflexivity|]. split; [reflexivity|]. split.
  - intros k' Hn. change (nval (hnode h x)) with (a_val (view h x)). rewrite Ev, vget_vset_other by assumption. reflexivity.
  - intros y Hy. apply Nat.eqb_neq in Hy. rewrite Hy. reflexivity.
Qed.
Example C43_case : let h := runs [ONew (PStr "r") (PInt 7) [] None 0; OSetValueReadOnly 0; ONew (PStr "l") (PInt 7) [] None 8; ONew (PStr "d") (PDict [(PStr "k", PInt 1)]) [] None 0] empty_heap in
  Reach h /\ value_protected h 0 /\ value_protected h 1 /\ ~ value_protected h 2 /\ snd (set_value 0 PNone h) = Err PermissionError /\
  snd (set_key_value 2 (PStr "k") (PInt 5) h) = Ok (PInt 1).
Proof. cbv zeta. split; [apply reach_runs; [constructor|vm_compute; reflexivity]|]. unfold value_protected. split; [left; vm_compute; reflexivity|]. split; [right; left; vm_compute; reflexivity|].
  split; [vm_compute; intros [K|[K|K]]; discriminate|]. vm_compute. auto. Qed.
(** del_value and del_key_value work on linked items *)
Theorem C43_del_refuted : let h := runs [ONew (PStr "l") (PInt 7) [] None 8; ONew (PStr "l") (PDict [(PStr "k", PInt 1)]) [] None 16] empty_heap in
  Reach h /\ value_protected h 0 /\ value_protected h 1 /\ snd (del_value 0 h) = Ok (PInt 7) /\ a_val (view (fst (del_value 0 h)) 0) = PNoValue /\
  snd (del_key_value 1 (PStr "k") h) = Ok (PInt 1).
Proof. cbv zeta. split; [apply reach_runs; [constructor|vm_compute; reflexivity]|]. unfold value_protected. split; [right; left; vm_compute; reflexivity|]. split; [right; right; vm_compute; reflexivity|].
  vm_compute. auto. Qed.

Print Assumptions C38_copy_partial.
Print Assumptions C38_copy_refuted.
Print Assumptions C39_eq_refl.
Print Assumptions C39_eq_sym.
Print Assumptions C39_copy_equal.
Print Assumptions C40_eq_sound_partial.
Print Assumptions C40_eq_tags_refuted.
Print Assumptions C40_eq_trans_refuted.
Print Assumptions C41_set_value_read_only.
Print Assumptions C41_set_tree_read_only_partial.
Print Assumptions C41_flags_defined.
Print Assumptions C41_constructor_flags.
Print Assumptions C41_unset_partial.
Print Assumptions C41_unset_refuted.
Print Assumptions C42_tree_read_only_partial.
Print Assumptions C42_constructor.
Print Assumptions C42_half_refuted.
Print Assumptions C43_set_value.
Print Assumptions C43_set_key_value.
Print Assumptions C43_del_value_partial.
Print Assumptions C43_set_then_get.
Print Assumptions C43_del_refuted.
