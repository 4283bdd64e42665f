(** C70, C71: pickling and hashing. *)
From Verif Require Import Base Heap HeapSpec ListLemmas ForestLemmas HeapInv HeapHoare HeapOrd Tree HeapTree HeapCopy HeapHist HeapHash History Runs HeapFlags HeapLink HeapLinkH PropsA PropsF
  Deep DeepSpec JsonModel SerModel SerNew SerLoad SerBuild PropsM PickleModel.
Import ListNotations.
Open Scope string_scope.
Open Scope list_scope.

(** * C70: pickling *)
(** a link root has its link and not the flag LOAD_LINKS (rebuilding would load the link: not modelled) *)
Definition picklable (h : heap) (y : loc) : Prop := flag h y 5 = true -> a_link (view h y) <> None /\ flag h y 2 = false.

Lemma all_some_ok {A B} (f : B -> option (res A)) g (l : list B) : (forall b, In b l -> f b = Some (Ok (g b))) -> all_some (map f l) = Some (Ok (map g l)).
Proof.
  induction l as [|b l IH]; intros H; [reflexivity|]. cbn. rewrite (H b (or_introl eq_refl)), IH; [reflexivity|]. intros c Hc. apply H. right. exact Hc.
Qed.
Lemma args_plain h y : picklable h y -> args_skip_subtree h (DItem y) = Ok (args_of h y).
Proof.
  intros P. unfold args_skip_subtree. rewrite link_root_flag. unfold args_of. destruct (flag h y 5) eqn:E; [|reflexivity].
  destruct (P E) as [N _]. change (a_link (view h y)) with (nlink (hnode h y)) in *. destruct (nlink (hnode h y)); [reflexivity|congruence].
Qed.
Lemma dumps_plain h T : ltree (view h) T -> (forall y, In y (flatten T) -> flag h y 3 = false /\ picklable h y) ->
  forall n, height T < n -> pickle_dumps n h (DItem (root T)) = Some (Ok (tmap (args_of h) T)).
Proof.
  induction T as [x cs IH] using tree_ind'. intros HT HP n Hn. apply ltree_iff in HT as [E F]. destruct n as [|n]; [lia|]. cbn [pickle_dumps root].
  unfold init_args. rewrite args_plain by (apply HP; left; reflexivity). cbn [rbind keep].
  assert (K : d_kids h x = map (fun c => DItem (root c)) cs).
  { rewrite kids_plain; [change (nitems (hnode h x)) with (a_children (view h x)); rewrite <- E, map_map; reflexivity|].
    intros y Hy. rewrite linked_flag. apply HP. right. unfold children in Hy. rewrite <- E in Hy. apply in_map_iff in Hy as (c & <- & Hc). apply in_flat_map. exists c. split; [exact Hc|]. destruct c; left; reflexivity. }
  rewrite K. rewrite map_map. rewrite (all_some_ok (fun c => pickle_dumps n h (DItem (root c))) (tmap (args_of h))); [reflexivity|].
  intros c Hc. rewrite Forall_forall in IH, F. apply (IH c Hc (F c Hc)).
  - intros y Hy. apply HP. right. apply in_flat_map. eauto.
  - pose proof (height_kid x cs c Hc). lia.
Qed.
Lemma loads_node a As h : pickle_loads (Node a As) h =
  (xs <- mapM pickle_loads As ;;
   match ra_link a with
   | Some _ => if has (ra_flags a) LOAD_LINKS then throw Unsupported else new_tree (ra_tag a) (ra_val a) (map EItem xs) (ra_link a) (ra_flags a)
   | None => new_tree (ra_tag a) (ra_val a) (map EItem xs) None (ra_flags a)
   end) h.
Proof.
  cbn [pickle_loads]. set (go := fix go l := match l with [] => _ | c :: r => _ end).
  assert (E : forall l g, go l g = mapM pickle_loads l g).
  { induction l as [|c l IHl]; intros g; [reflexivity|]. cbn [mapM]. change (go (c :: l) g) with ((x <- pickle_loads c ;; xs <- go l ;; ret (x :: xs)) g).
    apply bind_ext. intros x g1 _. unfold bind. rewrite IHl. reflexivity. }
  unfold bind. rewrite E. reflexivity.
Qed.
Inductive all_good : tree rowargs -> Prop := ag a As : arg_good a -> Forall all_good As -> all_good (Node a As).
Lemma loads_ok A : all_good A -> forall h, Reach h -> exists h' x, pickle_loads A h = (h', Ok x) /\ Reach h' /\ grows h h' /\ built h h' A x.
Proof.
  induction A as [a As IH] using tree_ind'. intros HG h R. inversion HG as [? ? G F]; subst. rewrite loads_node.
  assert (L : forall h0, Reach h0 -> exists h1 xs, mapM pickle_loads As h0 = (h1, Ok xs) /\ Reach h1 /\ grows h0 h1 /\ Forall2 (built h0 h1) As xs /\ NoDup xs /\ forall x, In x xs -> hnext h0 <= x < hnext h1).
  { clear h R HG G. induction As as [|A As IHA]; intros h0 R0.
    - exists h0, []. split; [reflexivity|]. split; [exact R0|]. split; [apply grows_refl|]. split; [constructor|]. split; [constructor|]. intros x [].
    - inversion IH as [|? ? I1 I2]; inversion F as [|? ? F1 F2]; subst. destruct (I1 F1 h0 R0) as (h1 & x & E1 & R1 & G1 & B1).
      destruct (IHA I2 F2 h1 R1) as (h2 & xs & E2 & R2 & G2 & B2 & N2 & X2). exists h2, (x :: xs). cbn [mapM]. rewrite (bind_ok _ _ _ _ _ E1), (bind_ok _ _ _ _ _ E2).
      split; [reflexivity|]. split; [exact R2|]. split; [eapply grows_trans; eassumption|]. pose proof (built_lt _ _ _ _ B1) as L1. destruct G1 as [G1 G1'], G2 as [G2 G2']. split; [|split].
      + constructor; [eapply built_grows; [split; eassumption|exact B1]|]. clear - B2 G1. induction B2; constructor; [eapply built_base; eassumption|assumption].
      + constructor; [|exact N2]. intros K. apply X2 in K. lia.
      + intros y [<-|Hy]; [lia|]. apply X2 in Hy. lia. }
  destruct (L h R) as (h1 & xs & E1 & R1 & [G1 G1'] & B1 & N1 & X1). rewrite (bind_ok _ _ _ _ _ E1).
  destruct (new_node h h1 a As xs R1 (proj1 G) G1 B1 N1) as (h2 & E2 & R2 & G2 & V2 & B2).
  exists h2, (hnext h1). split; [|split; [exact R2|split; [|exact B2]]].
  - destruct (ra_link a) as [s|] eqn:EL; [|exact E2]. rewrite (proj2 G) by congruence. exact E2.
  - split; [lia|]. intros y Hy. rewrite V2, G1' by exact Hy. reflexivity.
Qed.

(** pickle.loads(pickle.dumps(t)), in any process state g: a new tree with the shape, order, tags, values, links
    and flags of t; items additionally get the flags READ_ONLY_TREE / LOAD_LINKS of the items above them
    ([inherit]).  No other item changes.  Excluded: linked items. *)
Theorem C70_pickle_partial : forall h x T, Reach h -> tree_at h x T ->
  (forall y, In y (flatten T) -> flag h y 3 = false /\ picklable h y) ->
  exists A, (forall n, height T < n -> pickle_dumps n h (DItem x) = Some (Ok A)) /\
  forall g, Reach g -> exists g' y T', pickle_loads A g = (g', Ok y) /\ Reach g' /\ hnext g <= y < hnext g' /\ parent_of g' y = None /\ tree_at g' y T' /\
    tmap (label (view g')) T' = inherit 0 (tmap (stored h) T) /\ (forall z, In z (flatten T') -> hnext g <= z) /\
    (forall z, z < hnext g -> view g' z = view g z).
Proof.
  intros h x T R [Er HT] HP. exists (tmap (args_of h) T). split; [intros n Hn; rewrite <- Er; apply dumps_plain; assumption|]. intros g Rg.
  assert (AG : all_good (tmap (args_of h) T)).
  { clear Er HT. induction T as [z cs IH] using tree_ind'. cbn [tmap]. constructor.
    - split; [apply (reach_hash h R z)|]. cbn [args_of ra_link ra_flags]. destruct (flag h z 5) eqn:E; [|congruence]. intros _.
      change (has (nflags (hnode h z)) LOAD_LINKS = false). rewrite (has_flag h z LOAD_LINKS 2) by (lia || reflexivity). apply (proj2 (HP z (or_introl eq_refl))). exact E.
    - rewrite Forall_map. rewrite Forall_forall in *. intros c Hc. apply (IH c Hc). intros y Hy. apply HP. right. apply in_flat_map. eauto. }
  destruct (loads_ok _ AG g Rg) as (g' & y & E & R' & [N V] & B). pose proof (built_lt _ _ _ _ B) as By. destruct B as (T' & HT' & ET' & L & Rng & P).
  exists g', y, T'. split; [exact E|]. split; [exact R'|]. split; [exact By|]. split; [exact P|]. split; [split; assumption|]. split; [|split; [intros z Hz; apply Rng; exact Hz|exact V]].
  rewrite L. f_equal. rewrite tmap_tmap. apply tmap_ext. intros z Hz. apply args_stored'; [exact R|]. apply (proj2 (HP z Hz)).
Qed.
Theorem C70_exact_partial : forall h x T, Reach h -> tree_at h x T ->
  (forall y, In y (flatten T) -> flag h y 3 = false /\ picklable h y) -> flags_passed_on h T ->
  exists A, (forall n, height T < n -> pickle_dumps n h (DItem x) = Some (Ok A)) /\
  forall g, Reach g -> exists g' y T', pickle_loads A g = (g', Ok y) /\ parent_of g' y = None /\ tree_at g' y T' /\
    tmap (stored g') T' = tmap (stored h) T /\ (forall z, In z (flatten T') -> hnext g <= z) /\
    (forall z, z < hnext g -> view g' z = view g z).
Proof.
  intros h x T R HT HP HF. destruct (C70_pickle_partial h x T R HT HP) as (A & D & H). exists A. split; [exact D|]. intros g Rg.
  destruct (H g Rg) as (g' & y & T' & E & _ & _ & P & HT' & L & N & V). exists g', y, T'. split; [exact E|]. split; [exact P|]. split; [exact HT'|]. split; [|split; assumption].
  apply stored_label. rewrite L. destruct HT as [Er HT]. pose proof (inherit_exact h (fun _ => true) T 0 HT HF) as Q. rewrite prune_true in Q. apply Q; [apply Z.lor_0_r|reflexivity].
Qed.
(** a tree of more than one level with a link root, a read-only value and a leaf; read in an empty process *)
Definition pk_ops : list op := ex_ops ++ [OSetValueReadOnly 1; ONew (PStr "l") (PTuple [PInt 1; PStr "z"]) [EArgs (PStr "k") (PInt 3)] (Some 3) 0; OAppend 0 (IItem 7)].
Definition pk_heap : heap := runs pk_ops empty_heap.
Definition pk_tree : tree loc := Node 0 [Node 1 []; Node 2 []; Node 3 [Node 5 []]; Node 4 []; Node 7 [Node 8 []]].
Definition pk_text : tree rowargs := match pickle_dumps 100 pk_heap (DItem 0) with Some (Ok A) => A | _ => Node (RA PNone PNone None 0) [] end.
Lemma pk_check : forallb (fun y => negb (flag pk_heap y 3) && negb (flag pk_heap y 2) && negb (flag pk_heap y 0) && (negb (flag pk_heap y 5) || match a_link (view pk_heap y) with None => false | Some _ => true end)) (flatten pk_tree) = true.
Proof. vm_compute. reflexivity. Qed.
Lemma check_facts h T : forallb (fun y => negb (flag h y 3) && negb (flag h y 2) && negb (flag h y 0) && (negb (flag h y 5) || match a_link (view h y) with None => false | Some _ => true end)) (flatten T) = true ->
  forall y, In y (flatten T) -> flag h y 3 = false /\ flag h y 2 = false /\ flag h y 0 = false /\ (flag h y 5 = true -> a_link (view h y) <> None).
Proof.
  intros Ck. rewrite forallb_forall in Ck. intros y Hy. specialize (Ck y Hy). apply andb_prop in Ck as [Ck C4]. apply andb_prop in Ck as [Ck C3]. apply andb_prop in Ck as [C1 C2].
  apply negb_true_iff in C1, C2, C3. repeat (split; [assumption|]). intros E. rewrite E in C4. cbn [negb orb] in C4. destruct (a_link (view h y)); [intros K; discriminate K|discriminate C4].
Qed.
Lemma passed_none h T : (forall y, In y (flatten T) -> flag h y 2 = false /\ flag h y 0 = false) -> flags_passed_on h T.
Proof. intros H y z i Hy _ _ [-> | ->] E; destruct (H y Hy); congruence. Qed.
Lemma pk_loads : pickle_loads pk_text empty_heap = (fst (pickle_loads pk_text empty_heap), Ok 7).
Proof. assert (E : snd (pickle_loads pk_text empty_heap) = Ok 7) by (vm_compute; reflexivity). rewrite <- E. apply surjective_pairing. Qed.
Lemma pk_tree_ok : tree_at pk_heap 0 pk_tree.
Proof. split; [reflexivity|]. vm_compute. auto 20. Qed.
Theorem C70_case : Reach pk_heap /\ tree_at pk_heap 0 pk_tree /\ (forall y, In y (flatten pk_tree) -> flag pk_heap y 3 = false /\ picklable pk_heap y) /\
  flags_passed_on pk_heap pk_tree /\ flag pk_heap 7 5 = true /\ flag pk_heap 1 1 = true /\
  exists g y, pickle_loads pk_text empty_heap = (g, Ok y) /\ length (children g y) = 5 /\
    map (fun z => (tag_of g z, a_val (view g z), a_flags (view g z))) (children g y) = map (fun z => (tag_of pk_heap z, a_val (view pk_heap z), a_flags (view pk_heap z))) (children pk_heap 0).
Proof.
  split; [apply reach_runs; [constructor|vm_compute; reflexivity]|]. split; [exact pk_tree_ok|]. split.
  { intros y Hy. destruct (check_facts _ _ pk_check y Hy) as (A & B & _ & D). split; [exact A|]. intros E. split; [apply D; exact E|exact B]. }
  split. { apply passed_none. intros y Hy. destruct (check_facts _ _ pk_check y Hy) as (_ & B & C & _). auto. }
  split; [vm_compute; reflexivity|]. split; [vm_compute; reflexivity|].
  exists (fst (pickle_loads pk_text empty_heap)), 7. split; [exact pk_loads|]. split; vm_compute; reflexivity.
Qed.
(** the flags spread to the items below: the unpickled tree has other flags than the pickled one *)
Theorem C70_flags_refuted : exists h x A g y c d, Reach h /\ pickle_dumps 100 h (DItem x) = Some (Ok A) /\ pickle_loads A h = (g, Ok y) /\
  children h x = [c] /\ children g y = [d] /\ flag h c 2 = false /\ flag g d 2 = true.
Proof.
  exists flag_heap, 0. exists (match pickle_dumps 100 flag_heap (DItem 0) with Some (Ok A) => A | _ => Node (RA PNone PNone None 0) [] end).
  set (A := match pickle_dumps 100 flag_heap (DItem 0) with Some (Ok A) => A | _ => _ end).
  exists (fst (pickle_loads A flag_heap)), 3, 1, 2.
  split; [apply reach_runs; [constructor|vm_compute; reflexivity]|]. split; [vm_compute; reflexivity|]. split.
  { assert (E : snd (pickle_loads A flag_heap) = Ok 3) by (vm_compute; reflexivity). rewrite <- E. apply surjective_pairing. }
  split; [vm_compute; reflexivity|]. split; [vm_compute; reflexivity|]. split; vm_compute; reflexivity.
Qed.

(** * C71: hash *)
(** what an item is for hash(): tag and value *)
Definition facts (h : heap) (y : loc) : pyval * pyval := (tag_of h y, a_val (view h y)).

Section Hash.
  Variables (h_tuple : list Z -> Z) (h_tag : pyval -> Z) (h_val : pyval -> option Z) (h_pickle : pyval -> Z).
  Notation hash := (item_hash h_tuple h_tag h_val h_pickle).
  Definition val_hash (v : pyval) : Z := match h_val v with Some z => z | None => h_pickle v end.
  Fixpoint tree_hash (T : tree (pyval * pyval)) : Z :=
    match T with Node (t, v) cs => h_tuple [h_tuple (map tree_hash cs); h_tag t; val_hash v] end.
  Lemma hash_tree h T : ltree (view h) T -> forall n, height T < n -> hash n h (root T) = Some (tree_hash (tmap (facts h) T)).
  Proof.
    induction T as [x cs IH] using tree_ind'. intros HT n Hn. apply ltree_iff in HT as [E F]. destruct n as [|n]; [lia|]. cbn [item_hash root tmap tree_hash].
    change (nitems (hnode h x)) with (a_children (view h x)). rewrite <- E.
    set (go := fix go l := match l with [] => Some [] | c :: r => _ end).
    assert (G : go (map root cs) = Some (map tree_hash (map (tmap (facts h)) cs))).
    { assert (Hc : Forall (fun c => hash n h (root c) = Some (tree_hash (tmap (facts h) c))) cs).
      { rewrite Forall_forall in *. intros c Hc. apply (IH c Hc (F c Hc)). pose proof (height_kid x cs c Hc). lia. }
      clear - Hc. induction Hc as [|c cs H1 _ IH]; [reflexivity|]. cbn [map]. change (go (root c :: map root cs)) with (match hash n h (root c), go (map root cs) with Some a, Some b => Some (a :: b) | _, _ => None end).
      rewrite H1, IH. reflexivity. }
    rewrite G. reflexivity.
  Qed.

  (** trees with the same shape, tags and values have the same hash - in any state, wherever they are attached *)
  Theorem C71_same_hash : forall h g x y T U, tree_at h x T -> tree_at g y U -> tmap (facts h) T = tmap (facts g) U ->
    exists z, forall n, height T < n -> hash n h x = Some z /\ hash n g y = Some z.
  Proof.
    intros h g x y T U [<- HT] [<- HU] E. exists (tree_hash (tmap (facts h) T)). intros n Hn. split; [apply hash_tree; assumption|].
    rewrite E. apply hash_tree; [exact HU|].
    assert (Ht : forall {A B} (f : A -> B) V, height (tmap f V) = height V).
    { intros A B f V. induction V as [a cs IH] using tree_ind'. cbn [tmap height]. rewrite map_map. f_equal. apply map_ext_in. intros c Hc. rewrite Forall_forall in IH. rewrite (IH c Hc). reflexivity. }
    rewrite <- (Ht _ _ (facts g) U), <- E, Ht. exact Hn.
  Qed.
  (** the hash of a copy is the hash of the original *)
  Theorem C71_copy_hash : forall h x, ReachL h -> x < hnext h ->
    exists h' c z N, copy_item x h = (h', Ok c) /\ forall n, N < n -> hash n h x = Some z /\ hash n h' c = Some z /\ hash n h' x = Some z.
  Proof.
    intros h x R Hx. destruct (C38_copy_partial h x R Hx) as (h' & c & T & T' & E & HT & HT' & L & _ & _ & _ & V & _).
    destruct (C71_same_hash h h' x c T T' HT HT') as (z & Hz).
    { assert (Q : forall k W, tmap (facts k) W = tmap (fun q : pyval * pyval * Z => fst q) (tmap (content k) W)) by (intros k W; rewrite tmap_tmap; reflexivity).
      rewrite !Q, L. reflexivity. }
    assert (HX : tree_at h' x T).
    { destruct HT as [Er HT]. split; [exact Er|]. eapply ltree_frame; [|exact HT]. intros y Hy. rewrite V; [reflexivity|].
      rewrite <- Er in Hx. apply (ltree_lt _ _ T (wf_forest _ (reach_WF h (ReachL_Reach h R))) HT Hx y Hy). }
    destruct (C71_same_hash h h' x x T T HT HX) as (z' & Hz').
    { apply tmap_ext. intros y Hy. unfold facts, tag_of. rewrite V; [reflexivity|].
      destruct HT as [Er HT]. rewrite <- Er in Hx. apply (ltree_lt _ _ T (wf_forest _ (reach_WF h (ReachL_Reach h R))) HT Hx y Hy). }
    exists h', c, z, (height T). split; [exact E|]. intros n Hn. destruct (Hz n Hn) as [A B]. destruct (Hz' n Hn) as [C D]. split; [exact A|]. split; [exact B|]. congruence.
  Qed.
  (** unpickled trees have the hash of the pickled ones *)
  Theorem C71_pickle_hash : forall h x T, Reach h -> tree_at h x T -> (forall y, In y (flatten T) -> flag h y 3 = false /\ picklable h y) ->
    exists A z, (forall n, height T < n -> pickle_dumps n h (DItem x) = Some (Ok A) /\ hash n h x = Some z) /\
    forall g, Reach g -> exists g' y, pickle_loads A g = (g', Ok y) /\ forall n, height T < n -> hash n g' y = Some z.
  Proof.
    intros h x T R HT HP. destruct (C70_pickle_partial h x T R HT HP) as (A & D & H). exists A, (tree_hash (tmap (facts h) T)).
    split; [intros n Hn; split; [apply D; exact Hn|destruct HT as [<- HT]; apply hash_tree; assumption]|]. intros g Rg.
    destruct (H g Rg) as (g' & y & T' & E & _ & _ & _ & HT' & L & _). exists g', y. split; [exact E|].
    assert (Q : tmap (facts h) T = tmap (facts g') T').
    { change (facts g') with (fun z => (fun l => (x_tag l, x_val l)) (label (view g') z)). rewrite <- (tmap_tmap (label (view g')) (fun l => (x_tag l, x_val l))), L.
      assert (I : forall V F, tmap (fun l => (x_tag l, x_val l)) (inherit F V) = tmap (fun l => (x_tag l, x_val l)) V).
      { induction V as [l cs IH] using tree_ind'. intros F. cbn [inherit tmap]. f_equal. rewrite map_map. apply map_ext_in. intros c Hc. rewrite Forall_forall in IH. apply (IH c Hc). }
      rewrite I, tmap_tmap. reflexivity. }
    destruct (C71_same_hash h g' x y T T' HT HT' Q) as (z & Hz). intros n Hn. destruct (Hz n Hn) as [A1 A2]. rewrite A2, <- A1. destruct HT as [<- HT]. apply hash_tree; assumption.
  Qed.
  (** as far as the hashes of tuples and of the tags and values in the trees distinguish, the hash distinguishes trees *)
  Theorem C71_hash_distinguishes : forall h g x y T U n z, (forall k l, h_tuple k = h_tuple l -> k = l) ->
    (forall u w, In u (flatten T) -> In w (flatten U) -> h_tag (tag_of h u) = h_tag (tag_of g w) -> tag_of h u = tag_of g w) ->
    (forall u w, In u (flatten T) -> In w (flatten U) -> val_hash (a_val (view h u)) = val_hash (a_val (view g w)) -> a_val (view h u) = a_val (view g w)) ->
    tree_at h x T -> tree_at g y U -> height T < n -> height U < n -> hash n h x = Some z -> hash n g y = Some z ->
    tmap (facts h) T = tmap (facts g) U.
  Proof.
    intros h g x y T U n z IT IG IV [<- HT] [<- HU] NT NU A B. rewrite (hash_tree h T HT n NT) in A. rewrite (hash_tree g U HU n NU) in B.
    assert (E : tree_hash (tmap (facts h) T) = tree_hash (tmap (facts g) U)) by congruence. clear - IT IG IV E. revert U IG IV E.
    induction T as [a cs IH] using tree_ind'. intros [b ds] IG IV E. cbn [tmap tree_hash] in *. unfold facts in E at 1. unfold facts in E at 2. apply IT in E. injection E as E1 E2 E3.
    apply IG in E2; [|left; reflexivity|left; reflexivity]. apply IV in E3; [|left; reflexivity|left; reflexivity]. f_equal; [unfold facts; congruence|].
    apply IT in E1. assert (IG' : forall u w, In u (flat_map flatten cs) -> In w (flat_map flatten ds) -> h_tag (tag_of h u) = h_tag (tag_of g w) -> tag_of h u = tag_of g w) by (intros u w Hu Hw; apply IG; right; assumption).
    assert (IV' : forall u w, In u (flat_map flatten cs) -> In w (flat_map flatten ds) -> val_hash (a_val (view h u)) = val_hash (a_val (view g w)) -> a_val (view h u) = a_val (view g w)) by (intros u w Hu Hw; apply IV; right; assumption).
    clear E2 E3 IG IV. revert ds E1 IG' IV'. induction IH as [|c cs Hc _ IHc]; intros [|d ds] E1 IG IV; try discriminate; [reflexivity|]. cbn [map flat_map] in *. injection E1 as E1 E2. f_equal.
    - apply Hc; [| |exact E1]; intros u w Hu Hw; [apply IG|apply IV]; apply in_or_app; auto.
    - apply IHc; [exact E2| |]; intros u w Hu Hw; [apply IG|apply IV]; apply in_or_app; auto.
  Qed.
  (** equal trees have the same hash if shape and nested tags agree, too ... *)
  Theorem C71_equal_hash_partial : forall h x y T U, Reach h -> x < hnext h -> y < hnext h -> tree_at h x T -> tree_at h y U ->
    item_eqb h x y = true -> tmap (tag_of h) T = tmap (tag_of h) U ->
    exists z, forall n, height T < n -> hash n h x = Some z /\ hash n h y = Some z.
  Proof.
    intros h x y T U R Hx Hy HT HU E Et. apply (C71_same_hash h h x y T U HT HU).
    destruct (C40_eq_sound_partial h x y R Hx Hy E) as (_ & _ & _ & V). specialize (V T U).
    assert (V' : forall i a b, nth_error (flatten T) i = Some a -> nth_error (flatten U) i = Some b -> a_val (view h a) = a_val (view h b)) by (intros i a b; apply V; assumption).
    clear - Et V'. unfold facts. revert U Et V'. induction T as [a cs IH] using tree_ind'. intros [b ds] Et V. cbn [tmap] in *. injection Et as E1 E2.
    f_equal; [f_equal; [exact E1|exact (V 0 a b eq_refl eq_refl)]|].
    assert (V2 : forall i a b, nth_error (flat_map flatten cs) i = Some a -> nth_error (flat_map flatten ds) i = Some b -> a_val (view h a) = a_val (view h b)) by (intros i; apply (V (S i))).
    clear V E1. revert ds E2 V2. induction IH as [|c cs Hc _ IHc]; intros [|d ds] E2 V2; try discriminate; [reflexivity|]. cbn [map] in *. injection E2 as E3 E4.
    assert (Len : length (flatten c) = length (flatten d)). { apply (f_equal (fun V => length (flatten V))) in E3. rewrite !flatten_tmap, !map_length in E3. exact E3. }
    cbn [flat_map] in V2. f_equal.
    - apply Hc; [exact E3|]. intros i u v Hu Hv. apply (V2 i); rewrite nth_error_app1; try assumption; apply nth_error_Some; congruence.
    - apply IHc; [exact E4|]. intros i u v Hu Hv. apply (V2 (length (flatten c) + i)); [|rewrite Len]; (rewrite nth_error_app2 by lia); rewrite Nat.add_comm, Nat.add_sub; assumption.
  Qed.
End Hash.
(** ... but not in general, although Python requires it: two equal items with different hash *)
Definition toy_tuple (l : list Z) : Z := fold_left (fun a z => 3 * a + z)%Z l 7%Z.
Definition toy_tag (t : pyval) : Z := match t with PStr s => Z.of_nat (String.length s) + (if String.eqb s "a" then 5 else 0) | _ => 0 end.
Theorem C71_equal_hash_refuted : let h := runs eq_ops empty_heap in Reach h /\ item_eqb h 0 2 = true /\
  exists a b, item_hash toy_tuple toy_tag (fun _ => Some 1%Z) (fun _ => 1%Z) 100 h 0 = Some a /\ item_hash toy_tuple toy_tag (fun _ => Some 1%Z) (fun _ => 1%Z) 100 h 2 = Some b /\ a <> b.
Proof.
  intros h. split; [apply reach_runs; [constructor|vm_compute; reflexivity]|]. split; [vm_compute; reflexivity|].
  assert (E : (match item_hash toy_tuple toy_tag (fun _ => Some 1%Z) (fun _ => 1%Z) 100 h 0, item_hash toy_tuple toy_tag (fun _ => Some 1%Z) (fun _ => 1%Z) 100 h 2 with Some a, Some b => negb (a =? b)%Z | _, _ => false end) = true) by (vm_compute; reflexivity).
  revert E. generalize (item_hash toy_tuple toy_tag (fun _ => Some 1%Z) (fun _ => 1%Z) 100 h 0) (item_hash toy_tuple toy_tag (fun _ => Some 1%Z) (fun _ => 1%Z) 100 h 2).
  clear. intros [a|] [b|] E; try discriminate E. exists a, b. split; [reflexivity|]. split; [reflexivity|]. apply Z.eqb_neq, negb_true_iff. exact E.
Qed.
(** a tuple hash without collisions *)
Definition enc_z (z : Z) : Z := (if z <? 0 then - 2 * z - 1 else 2 * z)%Z.
Fixpoint enc (l : list Z) : Z := match l with [] => 0%Z | z :: r => (2 ^ enc_z z * (2 * enc r + 1))%Z end.
Lemma enc_z_inj a b : enc_z a = enc_z b -> a = b.
Proof. unfold enc_z. destruct (Z.ltb_spec a 0), (Z.ltb_spec b 0); lia. Qed.
Lemma enc_z_pos a : (0 <= enc_z a)%Z.
Proof. unfold enc_z. destruct (Z.ltb_spec a 0); lia. Qed.
Lemma enc_pos l : (0 <= enc l)%Z.
Proof. induction l as [|z r IH]; cbn [enc]; [lia|]. pose proof (Z.pow_nonneg 2 (enc_z z) ltac:(lia)). nia. Qed.
Lemma odd_part i j a b : (0 <= i -> 0 <= j -> 2 ^ i * (2 * a + 1) = 2 ^ j * (2 * b + 1) -> i = j /\ a = b)%Z.
Proof.
  intros Hi Hj E. assert (W : forall i j a b, (0 <= i -> i < j -> 2 ^ i * (2 * a + 1) = 2 ^ j * (2 * b + 1) -> False)%Z).
  { clear. intros i j a b Hi L E. replace j with (i + (1 + (j - i - 1)))%Z in E by lia. rewrite Z.pow_add_r, Z.pow_add_r in E by lia. pose proof (Z.pow_pos_nonneg 2 i ltac:(lia) Hi). change (2 ^ 1)%Z with 2%Z in E.
    rewrite <- Z.mul_assoc in E. apply Z.mul_reg_l in E; [|lia]. assert (K : Z.odd (2 * a + 1) = Z.odd (2 * (2 ^ (j - i - 1) * (2 * b + 1)))) by (rewrite E; f_equal; lia).
    rewrite Z.odd_add, !Z.odd_mul in K. cbn in K. discriminate. }
  destruct (Z.lt_trichotomy i j) as [L|[->|L]]; [exfalso; eapply (W i j); eauto| |exfalso; eapply (W j i); eauto].
  split; [reflexivity|]. pose proof (Z.pow_pos_nonneg 2 j ltac:(lia) Hj). apply Z.mul_reg_l in E; lia.
Qed.
Lemma enc_inj : forall k l, enc k = enc l -> k = l.
Proof.
  induction k as [|a k IH]; intros [|b l] E; cbn [enc] in E; [reflexivity| | |].
  - pose proof (Z.pow_pos_nonneg 2 (enc_z b) ltac:(lia) (enc_z_pos b)). pose proof (enc_pos l). nia.
  - pose proof (Z.pow_pos_nonneg 2 (enc_z a) ltac:(lia) (enc_z_pos a)). pose proof (enc_pos k). nia.
  - apply odd_part in E as [E1 E2]; [|apply enc_z_pos|apply enc_z_pos]. apply enc_z_inj in E1. apply IH in E2. congruence.
Qed.
Theorem C71_case : let h := runs eq_ops empty_heap in Reach h /\ tree_at h 0 (Node 0 [Node 1 [Node 4 []]]) /\
  item_hash toy_tuple toy_tag (fun _ => None) (fun _ => 2%Z) 3 h 0 <> None /\
  (forall k l, enc k = enc l -> k = l) /\ toy_tag (PStr "a") <> toy_tag (PStr "b") /\ toy_tag (PStr "a") <> toy_tag (PStr "r") /\ tag_of h 1 = PStr "a" /\ tag_of h 3 = PStr "b" /\ tag_of h 0 = PStr "r".
Proof.
  intros h. split; [apply reach_runs; [constructor|vm_compute; reflexivity]|]. split; [split; [reflexivity|vm_compute; auto 10]|]. split; [vm_compute; discriminate|].
  split; [exact enc_inj|]. split; [discriminate|]. split; [discriminate|]. vm_compute. auto.
Qed.
