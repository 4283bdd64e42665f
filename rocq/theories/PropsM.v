(** C48, C61: serialising trees. *)
From Verif Require Import Base Heap HeapSpec ListLemmas ForestLemmas HeapInv HeapHoare HeapOrd Tree HeapTree HeapCopy History Runs HeapFlags PropsA PropsF
  Deep DeepSpec DeepProofs JsonModel JsonFacts SerModel SerNew SerLoad SerBuild SerDump.
Import ListNotations.
Open Scope string_scope.
Open Scope list_scope.

(** ** Specification *)
(** What is to be kept of an item: tag, value, flags, and the source of the link of a link root. *)
Definition stored (h : heap) (y : loc) : xlabel :=
  XL (a_tag (view h y)) (a_val (view h y)) (a_flags (view h y))
     (if flag h y 5 then option_map lk_src (a_link (view h y)) else None).
(** Items that can be written: supported tag and value (C47); a link root has its link and not the
    flag LOAD_LINKS (the constructor would load the link, which is not modelled). *)
Definition storable (h : heap) (y : loc) : Prop :=
  serialisable (a_tag (view h y)) /\ serialisable (a_val (view h y)) /\
  (flag h y 5 = true -> a_link (view h y) <> None /\ flag h y 2 = false).
(** filter_method: None, or a decision for every item *)
Definition shown (f : option (ditem -> bool)) (y : loc) : bool := match f with None => true | Some g => g (DItem y) end.
(** READ_ONLY_TREE / LOAD_LINKS of an item are also set in the items directly below it *)
Definition flags_passed_on (h : heap) (T : tree loc) : Prop :=
  forall y z i, In y (flatten T) -> In z (children h y) -> In z (flatten T) -> i = 0%Z \/ i = 2%Z -> flag h y i = true -> flag h z i = true.

Lemma flag_land h y i : flag h y i = negb (Z.land (a_flags (view h y)) (2 ^ i) =? 0)%Z \/ (i < 0)%Z.
Proof.
  destruct (Z.ltb_spec i 0) as [|Hi]; [right; assumption|left]. unfold flag.
  destruct (Z.testbit (a_flags (view h y)) i) eqn:E.
  - symmetry. apply negb_true_iff, Z.eqb_neq. intros K.
    assert (Q : Z.testbit (Z.land (a_flags (view h y)) (2 ^ i)) i = false) by (rewrite K; apply Z.bits_0).
    rewrite Z.land_spec, E, Z.pow2_bits_true in Q by assumption. discriminate.
  - symmetry. apply negb_false_iff, Z.eqb_eq. apply Z.bits_inj'. intros j Hj. rewrite Z.land_spec, Z.bits_0, Z.pow2_bits_eqb by assumption.
    destruct (Z.eqb_spec i j) as [->|]; [rewrite E; reflexivity|apply andb_false_r].
Qed.
Lemma has_flag h y m i : (0 <= i)%Z -> m = (2 ^ i)%Z -> has (nflags (hnode h y)) m = flag h y i.
Proof. intros Hi ->. unfold has. destruct (flag_land h y i) as [->|]; [reflexivity|lia]. Qed.
Lemma link_root_flag h y : is_link_root h y = flag h y 5. Proof. apply has_flag; [lia|reflexivity]. Qed.
Lemma linked_flag h y : is_linked h y = flag h y 3. Proof. apply has_flag; [lia|reflexivity]. Qed.

(** *** without linked items the placeholder generator delivers the children *)
Lemma locals_plain h : forall l seen add, (forall y, In y l -> is_linked h y = false) -> locals_from h seen add l = map DItem l.
Proof.
  induction l as [|x l IH]; intros seen add H; [reflexivity|]. cbn [locals_from map]. rewrite (H x (or_introl eq_refl)). cbn [andb]. f_equal. apply IH. intros y Hy. apply H. right. exact Hy.
Qed.
Lemma kids_plain h x : (forall y, In y (children h x) -> is_linked h y = false) -> d_kids h x = map DItem (nitems (hnode h x)).
Proof. intros H. unfold d_kids, locals_add_placeholders. destruct (is_link_root h x); [apply locals_plain; exact H|reflexivity]. Qed.

Lemma keep_map f l : keep f (map DItem l) = map DItem (filter (shown f) l).
Proof.
  destruct f as [g|]; cbn [keep].
  - induction l as [|x l IH]; [reflexivity|]. cbn. destruct (g (DItem x)); cbn; rewrite IH; reflexivity.
  - f_equal. induction l as [|x l IH]; [reflexivity|]. cbn. rewrite <- IH. reflexivity.
Qed.
Lemma roots_pruned f cs : map root (map (tmap DItem) (map (prune (shown f)) (filter (fun c => shown f (root c)) cs))) = map DItem (filter (shown f) (map root cs)).
Proof.
  rewrite !map_map. rewrite (map_ext _ (fun c => DItem (root c))).
  2:{ intros c. rewrite root_tmap, root_prune. reflexivity. }
  rewrite <- (map_map root DItem). f_equal. induction cs as [|c cs IH]; [reflexivity|]. cbn. destruct (shown f (root c)); cbn; rewrite IH; reflexivity.
Qed.
Lemma plain_dtree h f T : ltree (view h) T -> (forall y, In y (flatten T) -> flag h y 3 = false) -> dtree h f (tmap DItem (prune (shown f) T)).
Proof.
  induction T as [x cs IH] using tree_ind'. intros HT HL. apply ltree_iff in HT as [E F]. rewrite prune_eq. cbn [tmap]. constructor.
  - rewrite roots_pruned, kids_plain, keep_map.
    + f_equal. f_equal. exact E.
    + intros y Hy. rewrite linked_flag. apply HL. right. unfold children in Hy. rewrite <- E in Hy. apply in_map_iff in Hy as (c & <- & Hc).
      apply in_flat_map. exists c. split; [exact Hc|]. destruct c; left; reflexivity.
  - rewrite Forall_forall in *. intros D HD. apply in_map_iff in HD as (c' & <- & HD). apply in_map_iff in HD as (c & <- & Hc). apply filter_In in Hc as [Hc _].
    apply (IH c Hc (F c Hc)). intros y Hy. apply HL. right. apply in_flat_map. eauto.
Qed.

(** *** rows of storable items *)
Definition args_of (h : heap) (y : loc) : rowargs :=
  RA (a_tag (view h y)) (a_val (view h y)) (if flag h y 5 then option_map lk_src (a_link (view h y)) else None) (a_flags (view h y)).
Lemma storable_writes h y : Reach h -> storable h y -> writable h (DItem y) (args_of h y) /\ arg_good (args_of h y).
Proof.
  intros R (St & Sv & Hl). split; [split; [|split; assumption]|].
  - unfold args_skip_subtree. rewrite link_root_flag. unfold args_of. destruct (flag h y 5) eqn:E; [|reflexivity].
    destruct (Hl eq_refl) as [N _]. change (a_link (view h y)) with (nlink (hnode h y)) in *. destruct (nlink (hnode h y)); [reflexivity|congruence].
  - split; [apply (reach_hash h R y)|]. cbn [args_of ra_link ra_flags]. destruct (flag h y 5) eqn:E; [|congruence]. intros _.
    change (has (nflags (hnode h y)) LOAD_LINKS = false). rewrite (has_flag h y LOAD_LINKS 2) by (lia || reflexivity). apply Hl. reflexivity.
Qed.
Lemma args_stored' h y : Reach h -> (flag h y 5 = true -> a_link (view h y) <> None /\ flag h y 2 = false) -> args_label (args_of h y) = stored h y.
Proof.
  intros R Hl. unfold args_label, args_of, stored. cbn [ra_tag ra_val ra_flags ra_link]. f_equal.
  assert (M : Z.land (a_flags (view h y)) FLAG_MASK = a_flags (view h y)) by apply (reach_flags h R y).
  unfold new_flags. destruct (flag h y 5) eqn:E; [|exact M]. destruct (Hl eq_refl) as [N _].
  destruct (a_link (view h y)); [|congruence]. cbn [option_map]. rewrite M. apply Z.bits_inj'. intros j Hj. rewrite Z.lor_spec.
  change LINK_ROOT with (2 ^ 5)%Z. rewrite Z.pow2_bits_eqb by lia. destruct (Z.eqb_spec 5 j) as [<-|]; [|apply orb_false_r]. unfold flag in E. rewrite E. reflexivity.
Qed.
Lemma args_stored h y : Reach h -> storable h y -> args_label (args_of h y) = stored h y.
Proof. intros R (_ & _ & Hl). apply args_stored'; assumption. Qed.
Lemma storable_tree h T : Reach h -> (forall y, In y (flatten T) -> storable h y) -> writes h (tmap DItem T) (tmap (args_of h) T).
Proof.
  intros R. induction T as [x cs IH] using tree_ind'. intros H. cbn [tmap].
  destruct (storable_writes h x R (H x (or_introl eq_refl))) as [A B]. constructor; [exact A|exact B|].
  assert (H' : forall y, In y (flat_map flatten cs) -> storable h y) by (intros y Hy; apply H; right; exact Hy). clear H.
  induction IH as [|c cs Hc _ IHc]; [constructor|]. cbn [map]. constructor; [apply Hc; intros y Hy; apply H'; cbn; apply in_or_app; auto|].
  apply IHc. intros y Hy. apply H'. cbn. apply in_or_app; auto.
Qed.

(** *** the read tree has no link roots if the written one had none *)
Lemma inherit_flags L : forall F l, Z.testbit F 5 = false -> (forall l', In l' (flatten L) -> Z.testbit (x_flags l') 5 = false) ->
  In l (flatten (inherit F L)) -> Z.testbit (x_flags l) 5 = false.
Proof.
  induction L as [a cs IH] using tree_ind'. intros F l HF HL. cbn [inherit flatten]. intros [<-|Hl].
  - cbn [or_flags x_flags]. rewrite Z.lor_spec, HF, orb_false_r. apply HL. left. reflexivity.
  - rewrite flat_map_map in Hl. apply in_flat_map in Hl as (c & Hc & Hl). rewrite Forall_forall in IH. eapply (IH c Hc); [| |exact Hl].
    + rewrite Z.lor_spec, HF, Z.land_spec. cbn. apply andb_false_r.
    + intros l' Hl'. apply HL. right. apply in_flat_map. eauto.
Qed.
Lemma finish_ok ll h x T : Reach h -> x < hnext h -> tree_at h x T -> (ll = true -> forall y, In y (flatten T) -> flag h y 5 = false) -> finish ll x h = (h, Ok x).
Proof.
  intros R Hx [Er HT] H. unfold finish. destruct ll; [|reflexivity]. rewrite bind_gets. unfold has_link_root.
  destruct (deep_list_total h x (wf_forest _ (reach_WF h R)) Hx) as (T' & HT' & ET' & D). rewrite D. cbn [option_map].
  assert (T' = T) by (eapply ltree_unique; eauto; congruence). subst T'.
  assert (E : existsb (is_link_root h) (x :: below_tree T) = false).
  { destruct (existsb _ _) eqn:E; [|reflexivity]. apply existsb_exists in E as (y & Hy & E). rewrite link_root_flag in E. rewrite H in E; [discriminate|reflexivity|].
    destruct T as [z cs]. cbn in Er. subst z. exact Hy. }
  rewrite E. reflexivity.
Qed.

(** ** C48 *)
(** loads(dumps(t)) - with or without header and hash, with or without filter - is a new tree
    with the shape, order, tags, values, links and flags of t; each item additionally gets the
    flags READ_ONLY_TREE / LOAD_LINKS of the items above it ([inherit]); t and all other
    items are unchanged.  Excluded: trees consisting of one item, linked items. *)
Theorem C48_round_trip_partial : forall sha h x T f hdr hash chk ll, Reach h -> x < hnext h -> tree_at h x T ->
  (forall y, In y (flatten T) -> flag h y 3 = false) ->
  kids (prune (shown f) T) <> [] ->
  (forall y, In y (flatten (prune (shown f) T)) -> storable h y /\ (ll = true -> flag h y 5 = false)) ->
  exists text, (forall n, 3 * size T + 3 <= n -> dumps sha h n f hdr hash x = Some (Ok text)) /\
  exists h' y T', loads sha text chk ll h = (h', Ok y) /\ Reach h' /\ hnext h <= y < hnext h' /\ parent_of h' y = None /\ tree_at h' y T' /\
    tmap (label (view h')) T' = inherit 0 (tmap (stored h) (prune (shown f) T)) /\
    (forall z, z < hnext h -> view h' z = view h z).
Proof.
  intros sha h x T f hdr hash chk ll R Hx [Er HT] HL HK HS. set (K := prune (shown f) T) in *.
  assert (ErK : root K = x) by (unfold K; rewrite root_prune; exact Er).
  pose proof (plain_dtree h f T HT HL) as HD. fold K in HD.
  pose proof (storable_tree h K R (fun y Hy => proj1 (HS y Hy))) as HW.
  destruct K as [x0 ks] eqn:EK. cbn in ErK. subst x0. cbn [tmap] in HD, HW. inversion HW as [? a ? As Wa Ga HF Ei Ea]; subst. clear HW.
  inversion HD as [x1 ? Ec Fc Ex|]; subst.
  assert (Ek : map root (map (tmap DItem) ks) = keep f (map DItem (nitems (hnode h (root T))))).
  { rewrite keep_map. destruct T as [z cs]. cbn [root] in *. unfold K in EK. rewrite prune_eq in EK. injection EK as <-. rewrite roots_pruned.
    apply ltree_iff in HT as [E1 _]. rewrite E1. reflexivity. }
  set (A := tmap (args_of h) (Node (root T) ks)).
  assert (Sz : 3 * sizes (map (tmap DItem) ks) + 2 < 3 * size T + 3).
  { assert (Q : size K <= size T). { unfold K. clear. induction T as [z cs IH] using tree_ind'. rewrite prune_eq, !size_node. apply le_n_S.
      induction IH as [|c cs Hc _ IHc]; [apply le_n|]. cbn [filter]. destruct (shown f (root c)); cbn [map]; rewrite ?sizes_cons; lia. }
    rewrite EK, size_node in Q. assert (E2 : sizes (map (tmap DItem) ks) = sizes ks). { unfold sizes. rewrite map_map. f_equal. apply map_ext. intros c. apply size_tmap. }
    rewrite E2. lia. }
  assert (Dump : exists R0, (forall n, 3 * size T + 3 <= n -> dumps sha h n f hdr hash (root T) = Some (Ok (wrap sha hdr hash (text_of (root R0) (flat_map flatten (kids R0)))))) /\
      at_depth 0 R0 /\ rows_good R0 A).
  { destruct (dumps_ok sha h f hdr hash (root T) (map (tmap DItem) ks) (map (tmap (args_of h)) ks) (args_of h (root T)) (3 * size T + 3) Ek Fc Sz) as (R0 & E0 & D0 & G0).
    - exact Wa.
    - exact Ga.
    - exact HF.
    - exists R0. split; [|split; [exact D0|exact G0]]. intros n Hn.
      destruct (dumps_ok sha h f hdr hash (root T) (map (tmap DItem) ks) (map (tmap (args_of h)) ks) (args_of h (root T)) n Ek Fc ltac:(lia) Wa Ga HF) as (R1 & E1 & _).
      rewrite <- E0. unfold dumps in *. rewrite (deep_locals_ok h f (root T) _ n Ek Fc ltac:(lia)). rewrite (deep_locals_ok h f (root T) _ (3 * size T + 3) Ek Fc ltac:(lia)). reflexivity. }
  destruct Dump as (R0 & ED & D0 & G0). exists (wrap sha hdr hash (text_of (root R0) (flat_map flatten (kids R0)))). split; [exact ED|].
  assert (NK : kids R0 <> []).
  { cbn [kids] in HK. unfold A in G0. destruct ks as [|k0 ks]; [congruence|]. cbn [tmap map] in G0. inversion G0 as [? cs0 ? As0 _ F0]; subst.
    cbn [kids]. match goal with H : Forall2 rows_good cs0 _ |- _ => inversion H; discriminate end. }
  assert (NR : flat_map flatten (kids R0) <> []). { destruct (kids R0) as [|[r1 k1] l1]; [congruence|]. cbn. discriminate. }
  rewrite (loads_text sha (root R0) (flat_map flatten (kids R0)) hdr hash chk ll h NR).
  replace (root R0 :: flat_map flatten (kids R0)) with (flatten R0) by (destruct R0; reflexivity).
  destruct (create_built R0 A h D0 G0 NK R) as (h' & y & E' & R' & [N' V'] & (T' & HT' & Er' & L' & Rng & P')). 
  assert (Ly : hnext h <= y < hnext h') by (apply Rng; rewrite <- Er'; destruct T'; left; reflexivity).
  assert (LL : tmap (label (view h')) T' = inherit 0 (tmap (stored h) (Node (root T) ks))).
  { rewrite L'. f_equal. unfold A. rewrite tmap_tmap. apply tmap_ext. intros z Hz. apply args_stored; [exact R|]. apply HS. exact Hz. }
  exists h', y, T'. rewrite (bind_ok _ _ _ _ _ E'). split; [|split; [exact R'|split; [exact Ly|split; [exact P'|split; [split; [exact Er'|exact HT']|split; [exact LL|exact V']]]]]].
  apply (finish_ok ll h' y T' R'); [lia|split; assumption|]. intros Hll z Hz. unfold flag.
  change (Z.testbit (x_flags (label (view h') z)) 5 = false).
  eapply (inherit_flags (tmap (stored h) (Node (root T) ks)) 0); [reflexivity| |].
  - intros l' Hl'. rewrite flatten_tmap in Hl'. apply in_map_iff in Hl' as (w & <- & Hw). cbn [stored x_flags]. apply (proj2 (HS w Hw) Hll).
  - rewrite <- LL, flatten_tmap. apply in_map. exact Hz.
Qed.

Lemma inherit_exact h f T : forall F, ltree (view h) T -> flags_passed_on h T -> Z.lor (a_flags (view h (root T))) F = a_flags (view h (root T)) ->
  Z.land F DEEP_FLAG_MASK = F -> inherit F (tmap (stored h) (prune f T)) = tmap (stored h) (prune f T).
Proof.
  induction T as [y cs IH] using tree_ind'. intros F HT HP EF DF. apply ltree_iff in HT as [Ec FT]. rewrite prune_eq. cbn [tmap inherit root] in *. f_equal.
  - unfold or_flags, stored. cbn [x_tag x_val x_flags x_src]. rewrite EF. reflexivity.
  - rewrite !map_map. apply map_ext_in. intros c Hc. apply filter_In in Hc as [Hc _]. rewrite Forall_forall in *.
    assert (Sub : forall z, In z (flatten c) -> In z (flatten (Node y cs))) by (intros z Hz; cbn; right; apply in_flat_map; eauto).
    assert (Rc : In (root c) (flatten c)) by (destruct c; left; reflexivity).
    apply (IH c Hc).
    + exact (FT c Hc).
    + intros u v i Hu Hv Hv'. apply (HP u v i (Sub u Hu) Hv (Sub v Hv')).
    + cbn [stored x_flags]. apply Z.bits_inj'. intros j Hj. rewrite !Z.lor_spec, Z.land_spec.
      assert (Q : forall G, Z.lor (a_flags (view h y)) G = a_flags (view h y) -> Z.testbit G j = true -> Z.testbit (a_flags (view h y)) j = true).
      { intros G E1 E2. rewrite <- E1, Z.lor_spec, E2. apply orb_true_r. }
      assert (DM : Z.testbit DEEP_FLAG_MASK j = true -> j = 0%Z \/ j = 2%Z).
      { change DEEP_FLAG_MASK with (Z.lor (2 ^ 2) (2 ^ 0)). rewrite Z.lor_spec, !Z.pow2_bits_eqb by lia. destruct (Z.eqb_spec 2 j), (Z.eqb_spec 0 j); cbn; intros; try discriminate; lia. }
      assert (Kid : In (root c) (children h y)) by (unfold children; rewrite <- Ec; apply in_map; exact Hc).
      assert (Down : Z.testbit (a_flags (view h y)) j = true -> Z.testbit DEEP_FLAG_MASK j = true -> Z.testbit (a_flags (view h (root c))) j = true).
      { intros B1 B2. exact (HP y (root c) j (or_introl eq_refl) Kid (Sub _ Rc) (DM B2) B1). }
      destruct (Z.testbit (a_flags (view h (root c))) j) eqn:Ez; [reflexivity|]. cbn [orb].
      destruct (Z.testbit F j) eqn:EFj.
      * exfalso. assert (Z.testbit DEEP_FLAG_MASK j = true). { pose proof EFj as E9. rewrite <- DF, Z.land_spec in E9. apply andb_prop in E9. apply E9. }
        discriminate (Down (Q F EF EFj) ltac:(assumption)).
      * cbn [orb]. destruct (Z.testbit (a_flags (view h y)) j) eqn:Ey, (Z.testbit DEEP_FLAG_MASK j) eqn:Ed; try reflexivity.
        discriminate (Down eq_refl eq_refl).
    + rewrite Z.land_lor_distr_l, DF, <- Z.land_assoc. reflexivity.
Qed.

Lemma stored_label h h' T T' : tmap (label (view h')) T' = tmap (stored h) T -> tmap (stored h') T' = tmap (stored h) T.
Proof.
  intros L. assert (E2 : tmap (stored h') T' = tmap (label (view h')) T'); [|rewrite E2; exact L].
  apply tmap_ext. intros z Hz. unfold stored, label. f_equal. destruct (flag h' z 5) eqn:E5; [reflexivity|].
  assert (In (label (view h') z) (flatten (tmap (stored h) T))) as Hi by (rewrite <- L, flatten_tmap; apply in_map; exact Hz).
  rewrite flatten_tmap in Hi. apply in_map_iff in Hi as (w & Ew & Hw).
  assert (E6 : flag h' z 5 = flag h w 5). { unfold flag. change (Z.testbit (x_flags (label (view h') z)) 5 = Z.testbit (x_flags (stored h w)) 5). rewrite Ew. reflexivity. }
  change (None = x_src (label (view h') z)). rewrite <- Ew. unfold stored. cbn [x_src]. rewrite <- E6, E5. reflexivity.
Qed.

(** When READ_ONLY_TREE / LOAD_LINKS are already passed on to the items below, nothing changes. *)
Theorem C48_exact_partial : forall sha h x T f hdr hash chk ll, Reach h -> x < hnext h -> tree_at h x T ->
  (forall y, In y (flatten T) -> flag h y 3 = false) -> flags_passed_on h T ->
  kids (prune (shown f) T) <> [] ->
  (forall y, In y (flatten (prune (shown f) T)) -> storable h y /\ (ll = true -> flag h y 5 = false)) ->
  exists text, (forall n, 3 * size T + 3 <= n -> dumps sha h n f hdr hash x = Some (Ok text)) /\
  exists h' y T', loads sha text chk ll h = (h', Ok y) /\ Reach h' /\ hnext h <= y < hnext h' /\ parent_of h' y = None /\ tree_at h' y T' /\
    tmap (stored h') T' = tmap (stored h) (prune (shown f) T) /\
    (forall z, z < hnext h -> view h' z = view h z).
Proof.
  intros sha h x T f hdr hash chk ll R Hx HT HL HP HK HS. destruct (C48_round_trip_partial sha h x T f hdr hash chk ll R Hx HT HL HK HS) as (text & ED & h' & y & T' & EL & R' & B & P & HT' & L & V).
  exists text. split; [exact ED|]. exists h', y, T'. repeat (split; [assumption|]). split; [|exact V].
  destruct HT as [Er HT]. rewrite (inherit_exact h (shown f) T 0 HT HP) in L; [|apply Z.lor_0_r|reflexivity]. apply stored_label. exact L.
Qed.

(** *** cases and limits *)
Definition ser_ops : list op :=
  ex_ops ++ [OSetValueReadOnly 1; ONew (PStr "l") (PTuple [PInt 1; PStr "z"]) [] (Some 3) 0; OAppend 0 (IItem 7)].
Definition ser_heap : heap := runs ser_ops empty_heap.
Lemma ser_reach : Reach ser_heap. Proof. apply reach_runs; [constructor|vm_compute; reflexivity]. Qed.
Definition ser_tree : tree loc := Node 0 [Node 1 []; Node 2 []; Node 3 [Node 5 []]; Node 4 []; Node 7 []].
Definition not2 (d : ditem) : bool := match d with DItem 2 => false | _ => true end.
Lemma ser_plain : forall y, In y (flatten ser_tree) -> flag ser_heap y 3 = false /\ flag ser_heap y 0 = false /\ flag ser_heap y 2 = false.
Proof.
  assert (B : forallb (fun y => negb (flag ser_heap y 3) && negb (flag ser_heap y 0) && negb (flag ser_heap y 2)) (flatten ser_tree) = true) by (vm_compute; reflexivity).
  intros y Hy. rewrite forallb_forall in B. specialize (B y Hy). apply andb_true_iff in B as [B B2]. apply andb_true_iff in B as [B B0].
  apply negb_true_iff in B, B0, B2. auto.
Qed.
Ltac ser := first [apply ser_int | apply ser_str | apply ser_tuple; repeat (apply Forall_cons; [ser|]); apply Forall_nil | apply ser_const; cbn; tauto].
Lemma ser_storable : forall y, In y (flatten ser_tree) -> storable ser_heap y.
Proof.
  assert (B : forallb (fun y => match a_link (view ser_heap y) with None => negb (flag ser_heap y 5) | Some _ => true end) (flatten ser_tree) = true) by (vm_compute; reflexivity).
  assert (S : Forall (fun v => serialisable v) (map (fun y => a_val (view ser_heap y)) (flatten ser_tree)) /\ Forall (fun v => serialisable v) (map (fun y => a_tag (view ser_heap y)) (flatten ser_tree))).
  { split; vm_compute; repeat (apply Forall_cons; [ser|]); apply Forall_nil. }
  intros y Hy. destruct S as [S1 S2]. rewrite Forall_forall in S1, S2. split; [apply S2; exact (in_map (fun y => a_tag (view ser_heap y)) _ _ Hy)|]. split; [apply S1; exact (in_map (fun y => a_val (view ser_heap y)) _ _ Hy)|].
  intros E. rewrite forallb_forall in B. specialize (B y Hy). rewrite E in B. split; [destruct (a_link (view ser_heap y)); [discriminate|discriminate B]|]. apply (ser_plain y Hy).
Qed.
Example C48_case : Reach ser_heap /\ 0 < hnext ser_heap /\ tree_at ser_heap 0 ser_tree /\ (forall y, In y (flatten ser_tree) -> flag ser_heap y 3 = false) /\
  flags_passed_on ser_heap ser_tree /\ kids (prune (shown (Some not2)) ser_tree) = [Node 1 []; Node 3 [Node 5 []]; Node 4 []; Node 7 []] /\
  (forall y, In y (flatten (prune (shown (Some not2)) ser_tree)) -> storable ser_heap y) /\ flag ser_heap 7 5 = true /\ flag ser_heap 1 1 = true.
Proof.
  split; [exact ser_reach|]. split; [vm_compute; lia|]. split; [vm_compute; auto 20|].
  split; [intros y Hy; apply (ser_plain y Hy)|].
  split. { intros y z i Hy _ _ Hi Hf. destruct (ser_plain y Hy) as (_ & A & B). destruct Hi as [-> | ->]; congruence. }
  split; [vm_compute; reflexivity|].
  split; [|split; vm_compute; reflexivity].
  intros y Hy. apply ser_storable. assert (Sub : incl (flatten (prune (shown (Some not2)) ser_tree)) (flatten ser_tree)) by (unfold incl; vm_compute; intuition). exact (Sub y Hy).
Qed.

(** A tree of one item is written, but the text cannot be read. *)
Theorem C48_leaf_refuted : forall sha h x hdr hash chk ll, Reach h -> x < hnext h -> children h x = [] -> storable h x ->
  exists text, (forall n, 1 <= n -> dumps sha h n None hdr hash x = Some (Ok text)) /\ loads sha text chk ll h = (h, Err ValueError).
Proof.
  intros sha h x hdr hash chk ll R Hx Hc HS. destruct (storable_writes h x R HS) as [Wa Ga].
  destruct (args_codec (args_of h x) (JInt 0) (JInt 0) (proj1 (proj2 Wa)) (proj2 (proj2 Wa))) as (l & El & _).
  exists (wrap sha hdr hash (text_of (JInt 0 :: JInt 0 :: l) [])). split.
  - intros n Hn. unfold dumps, deep_locals. change (nitems (hnode h x) = []) in Hc. rewrite Hc. cbn [nonnil]. destruct n as [|n]; [lia|]. cbn [run_gen step_dump map_res rbind row_json].
    rewrite (proj1 Wa). cbn [rbind]. rewrite El. cbn [rbind]. destruct hdr; reflexivity.
  - destruct hdr; reflexivity.
Qed.

(** LOAD_LINKS of the root reaches a child that did not have it. *)
Definition flag_ops : list op := [ONew (PStr "root") PNoValue [] None 4; ONew (PStr "a") (PInt 1) [] None 0; OAppend 0 (IItem 1)].
Definition flag_heap : heap := runs flag_ops empty_heap.
Definition flag_text : list tok := match dumps (fun _ => 0) flag_heap 100 None true true 0 with Some (Ok t) => t | _ => [] end.
Definition flag_heap' : heap := fst (loads (fun _ => 0) flag_text true false flag_heap).
Theorem C48_flags_refuted : exists h x text h' y T T', Reach h /\ tree_at h x T /\
  dumps (fun _ => 0) h 100 None true true x = Some (Ok text) /\ loads (fun _ => 0) text true false h = (h', Ok y) /\ tree_at h' y T' /\
  tmap (fun z => (a_tag (view h z), a_flags (view h z))) T = Node (PStr "root", 4%Z) [Node (PStr "a", 0%Z) []] /\
  tmap (fun z => (a_tag (view h' z), a_flags (view h' z))) T' = Node (PStr "root", 4%Z) [Node (PStr "a", 4%Z) []].
Proof.
  exists flag_heap, 0, flag_text, flag_heap', 3, (Node 0 [Node 1 []]), (Node 3 [Node 2 []]).
  split; [apply reach_runs; [constructor|vm_compute; reflexivity]|].
  split; [vm_compute; auto 20|]. split; [vm_compute; reflexivity|].
  split. { unfold flag_heap'. assert (E : snd (loads (fun _ => 0) flag_text true false flag_heap) = Ok 3) by (vm_compute; reflexivity). rewrite (surjective_pairing (loads _ _ _ _ _)), E. reflexivity. }
  split; [vm_compute; auto 20|]. split; vm_compute; reflexivity.
Qed.

(** ** C61 *)
(** dumps(add_header, calc_hash): the header carries the hash of the data part, and the data part is
    the text without header. *)
Theorem C61_header : forall sha h n f hash x,
  dumps sha h n f true hash x = option_map (fun r => rbind r (fun body =>
     Ok ([TOpen; THead (HD "2.0" (if hash then Some (sha body) else None)); TComma] ++ body ++ [TClose]))) (dumps sha h n f false hash x).
Proof.
  intros. unfold dumps. destruct (deep_locals h f n x) as [[l e]|]; [|reflexivity]. cbn [option_map]. f_equal.
  destruct (map_res (row_json h) l) as [rows|]; [|reflexivity]. cbn [rbind]. destruct e; [reflexivity|]. destruct (row_json h (0%Z, 0%Z, DItem x)); reflexivity.
Qed.
(** loads with check_hash: a data part whose hash differs from the one in the header is never
    accepted and no item is created; likewise another version. *)
Theorem C61_changed_data_rejected : forall sha h body ver k ll, sha body <> k ->
  exists e, loads sha ([TOpen; THead (HD ver (Some k)); TComma] ++ body ++ [TClose]) true ll h = (h, Err e).
Proof.
  intros sha h body ver k ll N. cbn [app loads hd_major hd_hash]. unfold lift. unfold bind at 1.
  destruct (parse_list (body ++ [TClose])) as [[rows rest]|e]; [|exists e; reflexivity].
  destruct rest as [|[| | | |] [|]]; try (eexists; reflexivity).
  destruct (negb (ver =? "2.0")); [eexists; reflexivity|]. rewrite removelast_last. apply Nat.eqb_neq in N. rewrite N. eexists. reflexivity.
Qed.
Theorem C61_other_version_rejected : forall sha h body ver k chk ll, ver <> "2.0" ->
  exists e, loads sha ([TOpen; THead (HD ver k); TComma] ++ body ++ [TClose]) chk ll h = (h, Err e).
Proof.
  intros sha h body ver k chk ll N. cbn [app loads hd_major hd_hash]. unfold lift. unfold bind at 1.
  destruct (parse_list (body ++ [TClose])) as [[rows rest]|e]; [|exists e; reflexivity].
  destruct rest as [|[| | | |] [|]]; try (eexists; reflexivity).
  apply String.eqb_neq in N. rewrite N. eexists. reflexivity.
Qed.
(** A written text is accepted unchanged; with any other data part of another hash it is rejected
    without effect. *)
Theorem C61_dump_protected : forall sha h n f x text, dumps sha h n f true true x = Some (Ok text) ->
  exists body, dumps sha h n f false true x = Some (Ok body) /\ text = [TOpen; THead (HD "2.0" (Some (sha body))); TComma] ++ body ++ [TClose] /\
  forall h' body' ll, sha body' <> sha body ->
    exists e, loads sha ([TOpen; THead (HD "2.0" (Some (sha body))); TComma] ++ body' ++ [TClose]) true ll h' = (h', Err e).
Proof.
  intros sha h n f x text E. rewrite C61_header in E. destruct (dumps sha h n f false true x) as [[body|e]|]; try discriminate. cbn [option_map rbind] in E.
  injection E as <-. exists body. split; [reflexivity|]. split; [reflexivity|]. intros h' body' ll N. apply C61_changed_data_rejected. exact N.
Qed.
(** check_hash=False: the hash is ignored. *)
Theorem C61_unchecked : forall sha h body k1 k2 ll,
  loads sha ([TOpen; THead (HD "2.0" k1); TComma] ++ body ++ [TClose]) false ll h = loads sha ([TOpen; THead (HD "2.0" k2); TComma] ++ body ++ [TClose]) false ll h.
Proof. reflexivity. Qed.
Example C61_case : exists text, dumps (@length tok) ser_heap 100 None true true 0 = Some (Ok text) /\
  snd (loads (@length tok) text true true ser_heap) = Err Unsupported /\ snd (loads (@length tok) text true false ser_heap) = Ok 14.
Proof.
  destruct (dumps (@length tok) ser_heap 100 None true true 0) as [[t|e]|] eqn:E; [|exfalso; revert E; vm_compute; discriminate..].
  exists t. split; [reflexivity|]. vm_compute in E. injection E as <-. split; vm_compute; reflexivity.
Qed.
