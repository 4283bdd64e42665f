(** C98: saving trees with loaded links. *)
From Verif Require Import Base Heap HeapSpec ListLemmas ForestLemmas HeapInv HeapAttach HeapOps HeapOps2 HeapOps3 HeapOrd HeapHash Tree HeapTree HeapCopy History Runs HeapRead HeapFlags PropsA PropsC PropsF
  Deep DeepSpec DeepProofs PropsG JsonModel JsonFacts SerModel SerNew SerLoad SerBuild SerDump PropsM LinkModel LinkFacts LinkFacts2 LinkMerge LinkLoad LinkRun LinkAll LinkWF LinkSpec LinkDel PropsN.
Import ListNotations.
Open Scope string_scope.
Open Scope list_scope.

(** ** Specification *)
(** Bits of item.flags: 3 LINKED, 4 PLACEHOLDER, 5 LINK_ROOT ([flag], PropsF).
    [storable h y] (PropsM): tag and value of y are of supported types (C47), and a link root has
    its link and not LOAD_LINKS. [inherit 0]: READ_ONLY_TREE / LOAD_LINKS of an item are passed on
    to the items below (C48). *)
(** which children of a link root are written as placeholders: the linked ones that are not the first
    child and not directly behind a placeholder *)
Fixpoint replaced (linked : nat -> bool) (i : nat) : bool :=
  match i with O => false | S j => linked (S j) && negb (replaced linked j) end.
(** tag, value, the six flags, source of the link *)
Definition kept (h : heap) (y : loc) : xlabel :=
  XL (a_tag (view h y)) (a_val (view h y)) (Z.land (a_flags (view h y)) 63)
     (if flag h y 5 then option_map lk_src (a_link (view h y)) else None).
(** a placeholder: the tag, and as value the position in the family *)
Definition placeholder (t : pyval) (k : nat) : xlabel := XL t (PInt (Z.of_nat k)) 16 None.
(** L is what is written for the tree T; top: T is the whole written tree *)
Inductive Saved (h : heap) : bool -> tree loc -> tree xlabel -> Prop :=
| Saved_item top x cs Ls : length Ls = length cs ->
    (forall i c L, nth_error cs i = Some c -> nth_error Ls i = Some L ->
       let place := negb top && flag h x 5 && replaced (fun j => match nth_error (children h x) j with Some y => flag h y 3 | None => false end) i in
       (place = true -> L = Node (placeholder (tag_of h (root c)) (fam_index h x (root c))) []) /\
       (place = false -> Saved h false c L)) ->
    Saved h top (Node x cs) (Node (kept h x) Ls).

(** ** Proofs *)
Fixpoint rep_from (add : bool) (linked : nat -> bool) (i : nat) : bool :=
  match i with O => linked O && add | S j => linked (S j) && negb (rep_from add linked j) end.
Lemma rep_from_S lk : forall i add, rep_from add lk (S i) = rep_from (negb (lk O && add)) (fun j => lk (S j)) i.
Proof. induction i as [|i IH]; intros add; [reflexivity|]. cbn [rep_from] in *. rewrite IH. reflexivity. Qed.
Lemma rep_from_0 lk i : rep_from false lk i = replaced lk i.
Proof. induction i as [|i IH]; cbn; [apply andb_false_r|rewrite IH; reflexivity]. Qed.
Lemma rep_from_ext a lk lk' : (forall j, lk j = lk' j) -> forall i, rep_from a lk i = rep_from a lk' i.
Proof. intros E. induction i as [|i IH]; cbn; rewrite E; [|rewrite IH]; reflexivity. Qed.

Lemma locals_nth h : forall l seen add, length (locals_from h seen add l) = length l /\
  forall i x, nth_error l i = Some x ->
    nth_error (locals_from h seen add l) i = Some (
      if rep_from add (fun j => match nth_error l j with Some y => is_linked h y | None => false end) i
      then DPlace (ntag (hnode h x)) (count_tag (ntag (hnode h x)) (map (fun y => ntag (hnode h y)) (rev (firstn i l)) ++ seen)) else DItem x).
Proof.
  induction l as [|y l IH]; intros seen add; [split; [reflexivity|intros [|i] x; discriminate]|].
  cbn [locals_from]. set (t := ntag (hnode h y)). set (b := is_linked h y && add).
  assert (E : (if b then DPlace t (count_tag t seen) :: locals_from h (t :: seen) false l else DItem y :: locals_from h (t :: seen) true l)
              = (if b then DPlace t (count_tag t seen) else DItem y) :: locals_from h (t :: seen) (negb b) l) by (destruct b; reflexivity).
  rewrite E. destruct (IH (t :: seen) (negb b)) as [HL HN]. split; [cbn; rewrite HL; reflexivity|].
  intros [|i] x Hx.
  - injection Hx as ->. cbn [nth_error rep_from firstn rev map app]. reflexivity.
  - cbn [nth_error] in Hx. cbn [nth_error]. rewrite (HN i x Hx). rewrite rep_from_S. cbn [nth_error]. fold b.
    cbn [firstn rev]. rewrite map_app, <- app_assoc. cbn [map app]. reflexivity.
Qed.

Lemma collect h (Q : nat -> tree loc -> tree xlabel -> Prop) : forall cs ds, length ds = length cs ->
  (forall i c d, nth_error cs i = Some c -> nth_error ds i = Some d ->
     exists D A, root D = d /\ dtree h None D /\ writes h D A /\ size D <= size c /\ Q i c (tmap args_label A)) ->
  exists Ds As, map root Ds = ds /\ Forall (dtree h None) Ds /\ Forall2 (writes h) Ds As /\ sizes Ds <= sizes cs /\ length As = length cs /\
    forall i c L, nth_error cs i = Some c -> nth_error (map (tmap args_label) As) i = Some L -> Q i c L.
Proof.
  intros cs. revert Q. induction cs as [|c cs IH]; intros Q ds HL H.
  - destruct ds; [|discriminate]. exists [], []. repeat split; auto. intros [|i] c L; discriminate.
  - destruct ds as [|d ds]; [discriminate|]. injection HL as HL.
    destruct (H 0 c d eq_refl eq_refl) as (D & A & E1 & E2 & E3 & E4 & E5).
    destruct (IH (fun i => Q (S i)) ds HL) as (Ds & As & F1 & F2 & F3 & F4 & F5 & F6).
    { intros i c' d' Hc Hd. exact (H (S i) c' d' Hc Hd). }
    exists (D :: Ds), (A :: As). split; [cbn; rewrite E1, F1; reflexivity|]. split; [constructor; assumption|]. split; [constructor; assumption|].
    split; [rewrite !sizes_cons; lia|]. split; [cbn; rewrite F5; reflexivity|].
    intros [|i] c' L Hc Hl; cbn in Hc, Hl; [injection Hc as <-; injection Hl as <-; exact E5|exact (F6 i c' L Hc Hl)].
Qed.

Lemma args_kept h y : (flag h y 5 = true -> a_link (view h y) <> None) -> args_label (args_of h y) = kept h y.
Proof.
  intros Hl. unfold args_label, args_of, kept. cbn [ra_tag ra_val ra_flags ra_link]. f_equal. unfold new_flags.
  destruct (flag h y 5) eqn:E; [|reflexivity]. destruct (a_link (view h y)); [|destruct (Hl eq_refl); reflexivity]. cbn [option_map].
  apply Z.bits_inj'. intros j Hj. rewrite Z.lor_spec. change LINK_ROOT with (2 ^ 5)%Z. rewrite Z.pow2_bits_eqb by lia.
  destruct (Z.eqb_spec 5 j) as [<-|]; [|apply orb_false_r]. rewrite orb_true_r, Z.land_spec. unfold flag in E. rewrite E. reflexivity.
Qed.
Lemma storable_args h y : hash_ok h -> storable h y -> writable h (DItem y) (args_of h y) /\ arg_good (args_of h y).
Proof.
  intros R (St & Sv & Hl). split; [split; [|split; assumption]|].
  - unfold args_skip_subtree. rewrite link_root_flag. unfold args_of. destruct (flag h y 5) eqn:E; [|reflexivity].
    destruct (Hl eq_refl) as [N _]. change (a_link (view h y)) with (nlink (hnode h y)) in *. destruct (nlink (hnode h y)); [reflexivity|congruence].
  - split; [apply (R y)|]. cbn [args_of ra_link ra_flags]. destruct (flag h y 5) eqn:E; [|congruence]. intros _.
    change (has (nflags (hnode h y)) LOAD_LINKS = false). rewrite (has_flag h y LOAD_LINKS 2) by (lia || reflexivity). apply Hl. reflexivity.
Qed.
Lemma count_fam h p x k : LWF h -> nth_error (children h p) k = Some x ->
  count_tag (ntag (hnode h x)) (map (fun y => ntag (hnode h y)) (rev (firstn k (children h p))) ++ []) = Z.of_nat (fam_index h p x).
Proof.
  intros W Hk. pose proof (fam_index_pos (uncover h) p x k (uncover_WF h W) Hk) as E.
  change (fam_index h p x = fam_pos h p x k) in E. rewrite E. unfold count_tag, fam_pos, byt. f_equal. rewrite app_nil_r.
  change (children h p) with (nitems (hnode h p)). generalize (firstn k (nitems (hnode h p))). intros l. set (t := ntag (hnode h x)).
  induction l as [|y l IH]; [reflexivity|]. cbn [rev filter]. rewrite map_app, filter_app, app_length, IH. cbn [map filter].
  destruct (pyval_eqb t (ntag (hnode h y))) eqn:E1.
  - apply pyval_eqb_eq in E1. rewrite E1. rewrite pyval_eqb_refl. cbn. lia.
  - assert (E2 : pyval_eqb (ntag (hnode h y)) t = false). { destruct (pyval_eqb (ntag (hnode h y)) t) eqn:E2; [|reflexivity]. apply pyval_eqb_eq in E2. rewrite E2, pyval_eqb_refl in E1. discriminate. }
    rewrite ?E2. cbn. lia.
Qed.
Lemma tag_hashable_ser h y : storable h y -> serialisable (ntag (hnode h y)). Proof. intros (H & _). exact H. Qed.

Lemma save_tree h : LWF h -> hash_ok h -> forall T, ltree (view h) T -> (forall y, In y (flatten T) -> storable h y) ->
  exists D A, root D = DItem (root T) /\ dtree h None D /\ writes h D A /\ size D <= size T /\ Saved h false T (tmap args_label A).
Proof.
  intros W HH. induction T as [x cs IH] using tree_ind'. intros HT HS. apply ltree_iff in HT as [Ec FT]. rewrite Forall_forall in IH, FT.
  set (lk := fun j => match nth_error (children h x) j with Some y => flag h y 3 | None => false end).
  assert (Len : length (d_kids h x) = length cs).
  { unfold d_kids, locals_add_placeholders. change (map root cs = nitems (hnode h x)) in Ec. rewrite <- Ec.
    destruct (is_link_root h x); [rewrite (proj1 (locals_nth h _ _ _))|]; rewrite ?map_length; reflexivity. }
  destruct (collect h (fun i c L => let place := negb false && flag h x 5 && replaced lk i in
       (place = true -> L = Node (placeholder (tag_of h (root c)) (fam_index h x (root c))) []) /\ (place = false -> Saved h false c L)) cs (d_kids h x) Len)
    as (Ds & As & F1 & F2 & F3 & F4 & F5 & F6).
  { intros i c d Hc Hd. cbv zeta. cbn [negb andb].
    assert (Hin : In c cs) by (eapply nth_error_In; exact Hc).
    assert (Hk : nth_error (nitems (hnode h x)) i = Some (root c)). { change (map root cs = nitems (hnode h x)) in Ec. rewrite <- Ec. apply map_nth_error. exact Hc. }
    assert (Sub : forall z, In z (flatten c) -> storable h z) by (intros z Hz; apply HS; right; apply in_flat_map; eauto).
    assert (Sr : storable h (root c)) by (apply Sub; destruct c; left; reflexivity).
    destruct (flag h x 5 && replaced lk i) eqn:Ep.
    - apply andb_true_iff in Ep as [E5 Ep]. unfold d_kids, locals_add_placeholders in Hd. rewrite link_root_flag, E5 in Hd.
      rewrite (proj2 (locals_nth h _ _ _) i _ Hk) in Hd. rewrite (rep_from_ext _ _ lk), rep_from_0, Ep in Hd.
      2:{ intros j. unfold lk. change (children h x) with (nitems (hnode h x)). destruct (nth_error (nitems (hnode h x)) j); [apply linked_flag|reflexivity]. }
      change (nitems (hnode h x)) with (children h x) in Hd, Hk. rewrite (count_fam h x (root c) i W Hk) in Hd. injection Hd as <-.
      exists (Node (DPlace (ntag (hnode h (root c))) (Z.of_nat (fam_index h x (root c)))) []), (Node (RA (ntag (hnode h (root c))) (PInt (Z.of_nat (fam_index h x (root c)))) None PLACEHOLDER) []).
      split; [reflexivity|]. split; [constructor|]. split.
      { constructor; [split; [reflexivity|split; [apply tag_hashable_ser; exact Sr|apply ser_int]]|split; [apply HH|cbn; congruence]|constructor]. }
      split; [destruct c; cbn; lia|]. split; [intros _; reflexivity|discriminate].
    - destruct (IH c Hin (FT c Hin) Sub) as (D & A & G1 & G2 & G3 & G4 & G5). exists D, A.
      split; [|split; [exact G2|split; [exact G3|split; [exact G4|split; [discriminate|intros _; exact G5]]]]].
      rewrite G1. unfold d_kids, locals_add_placeholders in Hd. rewrite link_root_flag in Hd. destruct (flag h x 5).
      + cbn [andb] in Ep. rewrite (proj2 (locals_nth h _ _ _) i _ Hk) in Hd. rewrite (rep_from_ext _ _ lk), rep_from_0, Ep in Hd.
        2:{ intros j. unfold lk. change (children h x) with (nitems (hnode h x)). destruct (nth_error (nitems (hnode h x)) j); [apply linked_flag|reflexivity]. }
        congruence.
      + rewrite (map_nth_error DItem _ _ Hk) in Hd. congruence. }
  assert (Sx : storable h x) by (apply HS; left; reflexivity).
  destruct (storable_args h x HH Sx) as [Wa Ga].
  exists (Node (DItem x) Ds), (Node (args_of h x) As). split; [reflexivity|]. split; [constructor; [exact F1|exact F2]|]. split; [constructor; assumption|].
  split; [rewrite !size_node; lia|]. cbn [tmap]. rewrite (args_kept h x) by (intros E; apply (proj2 (proj2 Sx) E)).
  constructor; [rewrite map_length; exact F5|]. exact F6.
Qed.

(** ** C98 *)
(** t.dumps() / dump with loaded links, read with loads(load_links=False) in any process: every
    item is written with its contents, except that below the written item the children of a link root
    are written as placeholders where [replaced] says so. *)
Theorem C98_saved_partial : forall sha h x T hdr hash chk, LReach h -> tree_at h x T -> kids T <> [] ->
  (forall y, In y (flatten T) -> storable h y) ->
  exists text L, Saved h true T L /\ (forall n, 3 * size T + 3 <= n -> dumps sha h n None hdr hash x = Some (Ok text)) /\
  forall h0, Reach h0 -> exists h' y T', loads sha text chk false h0 = (h', Ok y) /\ Reach h' /\ parent_of h' y = None /\
    tree_at h' y T' /\ (forall z, In z (flatten T') -> hnext h0 <= z < hnext h') /\ tmap (label (view h')) T' = inherit 0 L /\ (forall z, z < hnext h0 -> view h' z = view h0 z).
Proof.
  intros sha h x T hdr hash chk LR [Er HT] HK HS. destruct (lreach_ok h LR) as (W & HH). destruct T as [x0 cs]. cbn in Er, HK. subst x0.
  pose proof (proj1 (ltree_iff _ _ _) HT) as [Ec FT]. rewrite Forall_forall in FT.
  destruct (collect h (fun i c L => let place := negb true && flag h x 5 && replaced (fun j => match nth_error (children h x) j with Some y => flag h y 3 | None => false end) i in
       (place = true -> L = Node (placeholder (tag_of h (root c)) (fam_index h x (root c))) []) /\ (place = false -> Saved h false c L)) cs (map DItem (map root cs)))
    as (Ds & As & F1 & F2 & F3 & F4 & F5 & F6).
  { rewrite !map_length. reflexivity. }
  { intros i c d Hc Hd. cbv zeta. cbn [negb andb]. assert (Hin : In c cs) by (eapply nth_error_In; exact Hc).
    destruct (save_tree h W HH c (FT c Hin)) as (D & A & G1 & G2 & G3 & G4 & G5); [intros z Hz; apply HS; right; apply in_flat_map; eauto|].
    exists D, A. rewrite map_map, (map_nth_error _ _ _ Hc) in Hd. injection Hd as <-. repeat (split; [assumption|]). split; [discriminate|intros _; exact G5]. }
  change (map root cs = nitems (hnode h x)) in Ec.
  assert (Sx : storable h x) by (apply HS; left; reflexivity). destruct (storable_args h x HH Sx) as [Wa Ga].
  rewrite Ec in F1. change (map root Ds = keep None (map DItem (nitems (hnode h x)))) in F1.
  destruct (dumps_ok sha h None hdr hash x Ds As (args_of h x) (3 * size (Node x cs) + 3) F1 F2 ltac:(rewrite size_node; lia) Wa Ga F3) as (R0 & E0 & D0 & G0).
  exists (wrap sha hdr hash (text_of (root R0) (flat_map flatten (kids R0)))), (tmap args_label (Node (args_of h x) As)).
  split. { cbn [tmap]. rewrite (args_kept h x) by (intros E; apply (proj2 (proj2 Sx) E)). constructor; [rewrite map_length; exact F5|exact F6]. }
  split.
  { intros n Hn. rewrite <- E0. unfold dumps. rewrite (deep_locals_ok h None x _ n F1 F2) by (rewrite size_node in Hn; lia).
    rewrite (deep_locals_ok h None x _ (3 * size (Node x cs) + 3) F1 F2) by (rewrite size_node; lia). reflexivity. }
  intros h0 R.
  assert (NK : kids R0 <> []).
  { inversion G0 as [r0 cs0 ? As0 _ _ FG]; subst. cbn [kids]. intros ->. inversion FG; subst. destruct cs; [congruence|discriminate]. }
  assert (NR : flat_map flatten (kids R0) <> []). { destruct (kids R0) as [|[r1 k1] l1]; [congruence|]. cbn. discriminate. }
  rewrite (loads_text sha (root R0) (flat_map flatten (kids R0)) hdr hash chk false h0 NR).
  replace (root R0 :: flat_map flatten (kids R0)) with (flatten R0) by (destruct R0; reflexivity).
  destruct (create_built R0 _ h0 D0 G0 NK R) as (h' & y & E' & R' & [N' V'] & (T' & HT' & Er' & L' & Rng & P')).
  exists h', y, T'. rewrite (bind_ok _ _ _ _ _ E'). split; [reflexivity|]. split; [exact R'|]. split; [exact P'|].
  split; [split; assumption|]. split; [exact Rng|]. split; [exact L'|exact V'].
Qed.

(** Local children are written with their contents; a placeholder is never the first child, and no
    two neighbours are placeholders. *)
Theorem C98_local_children_kept : forall linked i, linked i = false -> replaced linked i = false.
Proof. intros lk [|i] H; cbn [replaced]; [reflexivity|]. rewrite H. reflexivity. Qed.
Theorem C98_no_two_neighbours : forall linked i, replaced linked 0 = false /\ (replaced linked i = true -> replaced linked (S i) = false).
Proof. intros lk i. split; [reflexivity|]. intros H. cbn [replaced]. rewrite H. apply andb_false_r. Qed.
(** If the first child is local and no two neighbours are linked, exactly the linked children are
    written as placeholders, the others with their contents. *)
Theorem C98_separated : forall linked, linked 0 = false -> (forall j, linked j = true -> linked (S j) = false) -> forall i, replaced linked i = linked i.
Proof.
  intros lk H0 HS. induction i as [|i IH]; [symmetry; exact H0|]. cbn [replaced]. rewrite IH. destruct (lk i) eqn:E; [rewrite (HS i E)|]; [reflexivity|apply andb_true_r].
Qed.
(** If all children are linked (a link root just loaded), every second one is written with its
    contents. *)
Theorem C98_all_linked : forall linked, (forall j, linked j = true) -> forall i, replaced linked i = Nat.odd i.
Proof. intros lk H. induction i as [|i IH]; [reflexivity|]. cbn [replaced]. rewrite H, IH, Nat.odd_succ, <- Nat.negb_odd. reflexivity. Qed.

(** *** cases and limits *)
(** "top" with the loaded link root of [lk1_heap] *)
Definition sv_heap : heap := after (OAppend 12 (IItem 6)) (after (ONew (PStr "top") PNoValue [] None 0) lk1_heap).
Lemma sv_reach : LReach sv_heap.
Proof.
  assert (U : uncovered lk1_heap) by (apply uncovered_b_ok; vm_compute; reflexivity).
  assert (R1 : LReach (after (ONew (PStr "top") PNoValue [] None 0) lk1_heap)) by (apply LReach_op; [exact lk1_reach|exact U|constructor]).
  unfold sv_heap. apply LReach_op; [exact R1|apply uncovered_b_ok; vm_compute; reflexivity|]. apply allowed_b_ok. vm_compute. reflexivity.
Qed.
Definition sv_tree : tree loc := Node 12 [Node 6 [Node 7 []; Node 8 []; Node 9 [Node 10 [Node 11 []]]]].
Definition sv_text : list tok := match dumps (fun _ => 0) sv_heap 100 None true true 12 with Some (Ok t) => t | _ => [] end.
Definition tvf (h : heap) (y : loc) : pyval * pyval * Z := (a_tag (view h y), a_val (view h y), a_flags (view h y)).
Lemma storable_b_ok h l : forallb (fun y => match a_tag (view h y), a_val (view h y) with PStr _, (PInt _ | PNoValue) => negb (flag h y 5) || (match a_link (view h y) with Some _ => true | None => false end && negb (flag h y 2)) | _, _ => false end) l = true ->
  forall y, In y l -> storable h y.
Proof.
  intros H y Hy. rewrite forallb_forall in H. specialize (H y Hy). unfold storable.
  destruct (a_tag (view h y)); try discriminate. assert (St : serialisable (PStr s)) by constructor.
  destruct (a_val (view h y)); try discriminate; (split; [exact St|]); (split; [first [apply ser_int | apply ser_const; cbn; auto]|]);
    intros E; rewrite E in H; cbn [negb orb] in H; apply andb_true_iff in H as [H1 H2]; split; try (apply negb_true_iff; exact H2); intros N; rewrite N in H1; discriminate.
Qed.

(** ** Saving, reading and loading the links again *)
(** the subtree at a path of positions *)
Fixpoint at_path {A} (ps : list nat) (T : tree A) : option (tree A) :=
  match ps with [] => Some T | i :: r => match nth_error (kids T) i with Some c => at_path r c | None => None end end.
Lemma at_tmap {A B} (f : A -> B) ps : forall T, at_path ps (tmap f T) = option_map (tmap f) (at_path ps T).
Proof.
  induction ps as [|i ps IH]; intros T; [reflexivity|]. destruct T as [a cs]. cbn [at_path tmap kids]. rewrite nth_error_map. destruct (nth_error cs i); [apply IH|reflexivity].
Qed.
Definition deep_only (F : Z) : Prop := forall i, i <> 0%Z -> i <> 2%Z -> Z.testbit F i = false.
Lemma deep_mask z : deep_only (Z.land z DEEP_FLAG_MASK).
Proof.
  intros i H0 H2. rewrite Z.land_spec. destruct (Z.ltb_spec i 0) as [N|N]; [rewrite (Z.testbit_neg_r DEEP_FLAG_MASK) by exact N; apply andb_false_r|].
  change DEEP_FLAG_MASK with (Z.lor (2 ^ 2) (2 ^ 0)). rewrite Z.lor_spec, !Z.pow2_bits_eqb by lia. destruct (Z.eqb_spec 2 i), (Z.eqb_spec 0 i); try lia.
Qed.
Lemma deep_lor F G : deep_only F -> deep_only G -> deep_only (Z.lor F G).
Proof. intros HF HG i H0 H2. rewrite Z.lor_spec, HF, HG by assumption. reflexivity. Qed.
Lemma at_inherit ps : forall F L LS, deep_only F -> at_path ps L = Some LS -> exists F', deep_only F' /\ at_path ps (inherit F L) = Some (inherit F' LS).
Proof.
  induction ps as [|i ps IH]; intros F L LS HF E; [injection E as ->; exists F; auto|]. destruct L as [l cs]. cbn [at_path inherit kids] in *. rewrite nth_error_map.
  destruct (nth_error cs i) as [c|] eqn:Ec; [|discriminate]. cbn [option_map]. apply IH; [|exact E]. apply deep_lor; [exact HF|apply deep_mask].
Qed.
Lemma at_saved h ps : forall b T L S, Saved h b T L -> (b = true -> ps <> []) -> (forall qs q, In q (flatten T) -> qs <> [] -> (exists rs, ps = qs ++ rs) -> option_map root (at_path qs T) = Some q -> flag h q 3 = false) ->
  ltree (view h) T -> at_path ps T = Some S -> exists LS, at_path ps L = Some LS /\ Saved h false S LS.
Proof.
  induction ps as [|i ps IH]; intros b T L S HS Hb HU HT E.
  - injection E as <-. destruct b; [destruct (Hb eq_refl); reflexivity|]. exists L. auto.
  - inversion HS as [top x cs Ls Len HK E1 E2 E3]; subst. cbn [at_path kids] in *. apply ltree_iff in HT as [Ek FT].
    destruct (nth_error cs i) as [c|] eqn:Ec; [|discriminate].
    destruct (nth_error Ls i) as [M|] eqn:EM. 2:{ apply nth_error_None in EM. assert (nth_error cs i <> None) by congruence. apply nth_error_Some in H. lia. }
    destruct (HK i c M Ec EM) as [_ HN].
    assert (U : flag h (root c) 3 = false).
    { apply (HU [i]); [right; apply in_flat_map; exists c; split; [eapply nth_error_In; exact Ec|destruct c; left; reflexivity]|discriminate|exists ps; reflexivity|]. cbn. rewrite Ec. reflexivity. }
    assert (Hk : nth_error (children h x) i = Some (root c)) by (unfold children; rewrite <- Ek; apply map_nth_error; exact Ec).
    assert (P : replaced (fun j => match nth_error (children h x) j with Some y => flag h y 3 | None => false end) i = false) by (apply C98_local_children_kept; rewrite Hk; exact U).
    rewrite P, andb_false_r in HN. specialize (HN eq_refl).
    rewrite Forall_forall in FT. apply (IH false c M S HN); [discriminate| |apply FT; eapply nth_error_In; exact Ec|exact E].
    intros qs q Hq Nq (rs & Er) Eq. apply (HU (i :: qs)); [right; apply in_flat_map; exists c; split; [eapply nth_error_In; exact Ec|exact Hq]|discriminate|exists rs; rewrite Er; reflexivity|].
    cbn [at_path kids]. rewrite Ec. exact Eq.
Qed.

Lemma byt_len_tags (t : pyval) (f g : loc -> pyval) : forall l m : list loc, map f l = map g m -> length (byt f t l) = length (byt g t m).
Proof.
  induction l as [|a l IH]; intros [|b m] E; try discriminate; [reflexivity|]. cbn in E. injection E as E1 E2. rewrite !byt_cons, E1.
  destruct (pyval_eqb (g b) t); cbn [length]; rewrite (IH m E2); reflexivity.
Qed.
Lemma fam_same h h' p p' k y y' : LWF h -> LWF h' -> nth_error (children h p) k = Some y -> nth_error (children h' p') k = Some y' ->
  map (tag_of h) (children h p) = map (tag_of h') (children h' p') -> fam_index h p y = fam_index h' p' y'.
Proof.
  intros W W' Hk Hk' E. pose proof (fam_index_pos (uncover h) p y k (uncover_WF h W) Hk) as E1. change (fam_index h p y = fam_pos h p y k) in E1.
  pose proof (fam_index_pos (uncover h') p' y' k (uncover_WF h' W') Hk') as E2. change (fam_index h' p' y' = fam_pos h' p' y' k) in E2. rewrite E1, E2. unfold fam_pos.
  assert (Et : ntag (hnode h y) = ntag (hnode h' y')).
  { pose proof (map_nth_error (tag_of h) _ _ Hk) as A. rewrite E, (map_nth_error (tag_of h') _ _ Hk') in A. injection A as A. symmetry. exact A. }
  rewrite Et. apply byt_len_tags. change (nitems (hnode h p)) with (children h p). change (nitems (hnode h' p')) with (children h' p').
  rewrite <- !firstn_map. f_equal. exact E.
Qed.
Lemma nth_ext_opt {A} : forall l m : list A, (forall k, nth_error l k = nth_error m k) -> l = m.
Proof.
  induction l as [|a l IH]; intros [|b m] H; [reflexivity|discriminate (H 0)|discriminate (H 0)|]. pose proof (H 0) as H0. injection H0 as ->. f_equal. apply IH. intros k. exact (H (S k)).
Qed.
(** what is read for a link root and its children *)
Definition read_as (h h' : heap) (p p' : loc) : Prop :=
  tag_value h' p' = tag_value h p /\ flag h' p' 5 = true /\ a_link (view h' p') <> None /\
  length (children h' p') = length (children h p) /\
  forall k y y', nth_error (children h p) k = Some y -> nth_error (children h' p') k = Some y' ->
    tag_of h' y' = tag_of h y /\ fam_index h' p' y' = fam_index h p y /\ flag h' y' 3 = false /\
    if flag h y 3 then flag h' y' 4 = true /\ a_val (view h' y') = PInt (Z.of_nat (fam_index h p y))
    else flag h' y' 4 = flag h y 4 /\ a_val (view h' y') = a_val (view h y).
Lemma flag_or h y F g i : a_flags (view h y) = Z.lor g F -> deep_only F -> i <> 0%Z -> i <> 2%Z -> flag h y i = Z.testbit g i.
Proof. intros E HF H0 H2. unfold flag. rewrite E, Z.lor_spec, HF, orb_false_r by assumption. reflexivity. Qed.
Lemma kept_flag h y i : (0 <= i < 6)%Z -> Z.testbit (Z.land (a_flags (view h y)) 63) i = flag h y i.
Proof. intros H. rewrite Z.land_spec. change 63%Z with (Z.ones 6). rewrite Z.ones_spec_low, andb_true_r by lia. reflexivity. Qed.
Lemma read_root h h' p ds LS p' ds' F : LWF h -> LWF h' -> flag h p 5 = true -> a_link (view h p) <> None -> ltree (view h) (Node p ds) -> ltree (view h') (Node p' ds') ->
  Saved h false (Node p ds) LS -> tmap (label (view h')) (Node p' ds') = inherit F LS -> deep_only F ->
  linked_follow h p -> read_as h h' p p'.
Proof.
  intros W W' H5 HL HT HT' HS EL HF LF. inversion HS as [top x cs Ls Len HK E1 E2 E3]; subst. clear HS.
  apply ltree_iff in HT as [Ek FT]. apply ltree_iff in HT' as [Ek' FT'].
  cbn [tmap inherit] in EL. injection EL as ET EV EF ES EC. 
  change (a_tag (view h' p') = a_tag (view h p)) in ET. change (a_val (view h' p') = a_val (view h p)) in EV. change (a_flags (view h' p') = Z.lor (Z.land (a_flags (view h p)) 63) F) in EF.
  change (option_map lk_src (a_link (view h' p')) = if flag h p 5 then option_map lk_src (a_link (view h p)) else None) in ES. rewrite H5 in ES.
  change (map (tmap (label (view h'))) ds' = map (inherit (Z.lor F (Z.land (Z.land (a_flags (view h p)) 63) DEEP_FLAG_MASK))) Ls) in EC.
  change (map root ds = children h p) in Ek. change (map root ds' = children h' p') in Ek'.
  assert (Len' : length ds' = length ds). { apply (f_equal (@length _)) in EC. rewrite !map_length in EC. congruence. }
  set (lk := fun j => match nth_error (children h p) j with Some y => flag h y 3 | None => false end) in *.
  assert (RP : forall j, replaced lk j = lk j).
  { apply C98_separated.
    - unfold lk. destruct (nth_error (children h p) 0) as [y|] eqn:Ey; [|reflexivity]. destruct (flag h y 3) eqn:Ef; [|reflexivity].
      destruct (children h p) as [|z l] eqn:Ech; [discriminate|]. injection Ey as ->. destruct (LF [] y l Ech Ef) as (l0 & z0 & K & _). destruct l0; discriminate.
    - intros j Hj. unfold lk in *. destruct (nth_error (children h p) (S j)) as [y|] eqn:Ey; [|reflexivity]. destruct (flag h y 3) eqn:Ef; [|reflexivity].
      apply nth_error_split in Ey as (l1 & l2 & Ech & Ln). destruct (LF l1 y l2 Ech Ef) as (l0 & z0 & K & Ez).
      rewrite Ech, K, <- app_assoc in Hj. assert (L0 : length l0 = j) by (rewrite K, app_length in Ln; cbn in Ln; lia). rewrite nth_error_app2, L0, Nat.sub_diag in Hj by lia. cbn [app nth_error] in Hj. congruence. }
  assert (F' : deep_only (Z.lor F (Z.land (Z.land (a_flags (view h p)) 63) DEEP_FLAG_MASK))) by (apply deep_lor; [exact HF|apply deep_mask]).
  set (G := Z.lor F _) in *.
  assert (Kid : forall k c c' M, nth_error ds k = Some c -> nth_error ds' k = Some c' -> nth_error Ls k = Some M ->
    label (view h') (root c') = or_flags G (root M) /\
    (flag h (root c) 3 = true -> root M = placeholder (tag_of h (root c)) (fam_index h p (root c))) /\ (flag h (root c) 3 = false -> root M = kept h (root c))).
  { intros k c c' M Hc Hc' HM. pose proof (map_nth_error (tmap (label (view h'))) _ _ Hc') as A. rewrite EC, (map_nth_error _ _ _ HM) in A. injection A as A.
    split; [|destruct (HK k c M Hc HM) as [HP HN]].
    - pose proof (f_equal root A) as A'. rewrite root_tmap in A'. destruct M as [m ms]. cbn [inherit root] in A' |- *. congruence.
    - fold lk in HP, HN. rewrite RP, H5 in HP, HN. cbn [negb andb] in HP, HN.
      assert (El : lk k = flag h (root c) 3) by (unfold lk; rewrite <- Ek, (map_nth_error root _ _ Hc); reflexivity). rewrite El in HP, HN.
      split; [intros E; rewrite (HP E); reflexivity|intros E]. specialize (HN E). inversion HN; subst. reflexivity. }
  assert (Cor : forall k y y', nth_error (children h p) k = Some y -> nth_error (children h' p') k = Some y' ->
     exists c c' M, nth_error ds k = Some c /\ nth_error ds' k = Some c' /\ nth_error Ls k = Some M /\ root c = y /\ root c' = y').
  { intros k y y' Hy Hy'. rewrite <- Ek, nth_error_map in Hy. rewrite <- Ek', nth_error_map in Hy'. destruct (nth_error ds k) as [c|] eqn:Ec; [|discriminate]. destruct (nth_error ds' k) as [c'|] eqn:Ec'; [|discriminate].
    injection Hy as Hy. injection Hy' as Hy'. destruct (nth_error Ls k) as [M|] eqn:EM; [exists c, c', M; auto|].
    apply nth_error_None in EM. assert (N : nth_error ds k <> None) by congruence. apply nth_error_Some in N. lia. }
  assert (Tags : map (tag_of h') (children h' p') = map (tag_of h) (children h p)).
  { apply nth_ext_opt. intros k. rewrite !nth_error_map.
    destruct (nth_error (children h p) k) as [y|] eqn:Hy, (nth_error (children h' p') k) as [y'|] eqn:Hy'; cbn [option_map]; [|exfalso|exfalso|reflexivity].
    - f_equal. destruct (Cor k y y' Hy Hy') as (c & c' & M & Hc & Hc' & HM & <- & <-). destruct (Kid k c c' M Hc Hc' HM) as (A & B & C). apply (f_equal x_tag) in A. cbn [or_flags x_tag label] in A.
      unfold tag_of. rewrite A. destruct (flag h (root c) 3); [rewrite (B eq_refl)|rewrite (C eq_refl)]; reflexivity.
    - apply nth_error_None in Hy'. assert (N : nth_error (children h p) k <> None) by congruence. apply nth_error_Some in N. rewrite <- Ek in N. rewrite <- Ek' in Hy'. rewrite map_length in *. lia.
    - apply nth_error_None in Hy. assert (N : nth_error (children h' p') k <> None) by congruence. apply nth_error_Some in N. rewrite <- Ek in Hy. rewrite <- Ek' in N. rewrite map_length in *. lia. }
  split; [unfold tag_value, tag_of; rewrite ET, EV; reflexivity|].
  split; [rewrite (flag_or _ _ _ _ 5 EF HF) by lia; rewrite kept_flag by lia; exact H5|].
  split; [intros N; rewrite N in ES; destruct (a_link (view h p)); [discriminate|congruence]|].
  split; [rewrite <- Ek, <- Ek', !map_length; exact Len'|].
  intros k y y' Hy Hy'. pose proof (fam_same h' h p' p k y' y W' W Hy' Hy Tags) as EFm.
  destruct (Cor k y y' Hy Hy') as (c & c' & M & Hc & Hc' & HM & <- & <-). destruct (Kid k c c' M Hc Hc' HM) as (A & B & C).
  pose proof (f_equal x_tag A) as At. pose proof (f_equal x_val A) as Av. pose proof (f_equal x_flags A) as Af. cbn [or_flags x_tag x_val x_flags label] in At, Av, Af.
  destruct (flag h (root c) 3) eqn:E3.
  - rewrite (B eq_refl) in *. cbn [placeholder x_tag x_val x_flags] in *. split; [exact At|]. split; [exact EFm|].
    split; [rewrite (flag_or _ _ _ _ 3 Af F') by lia; reflexivity|]. split; [rewrite (flag_or _ _ _ _ 4 Af F') by lia; reflexivity|exact Av].
  - rewrite (C eq_refl) in *. cbn [kept x_tag x_val x_flags] in *. split; [exact At|]. split; [exact EFm|].
    split; [rewrite (flag_or _ _ _ _ 3 Af F') by lia; rewrite kept_flag by lia; exact E3|]. split; [rewrite (flag_or _ _ _ _ 4 Af F') by lia; apply kept_flag; lia|exact Av].
Qed.

Lemma at_in {A} ps : forall (T S : tree A), at_path ps T = Some S -> In (root S) (flatten T).
Proof.
  induction ps as [|i ps IH]; intros T S E; [injection E as ->; destruct S; left; reflexivity|]. destruct T as [a cs]. cbn [at_path kids] in E.
  destruct (nth_error cs i) as [c|] eqn:Ec; [|discriminate]. right. apply in_flat_map. exists c. split; [eapply nth_error_In; exact Ec|apply IH; exact E].
Qed.
Lemma at_ltree s ps : forall T S, ltree s T -> at_path ps T = Some S -> ltree s S.
Proof.
  induction ps as [|i ps IH]; intros T S HT E; [injection E as ->; exact HT|]. destruct T as [a cs]. cbn [at_path kids] in E. apply ltree_iff in HT as [_ FT]. rewrite Forall_forall in FT.
  destruct (nth_error cs i) as [c|] eqn:Ec; [|discriminate]. apply (IH c); [apply FT; eapply nth_error_In; exact Ec|exact E].
Qed.
Lemma below_old h0 h' : Reach h0 -> (forall z, z < hnext h0 -> view h' z = view h0 z) -> forall t z, t < hnext h0 -> Below h' t z -> z < hnext h0.
Proof.
  intros R V t z Ht. pose proof (proj1 (lreach_ok h0 (Reach_LReach h0 R))) as W. induction 1 as [z Hz|q z _ IH Hz].
  - unfold children in Hz. rewrite V in Hz by exact Ht. apply (LWF_child_lt h0 t z W Hz).
  - unfold children in Hz. rewrite V in Hz by exact IH. apply (LWF_child_lt h0 q z W Hz).
Qed.

(** A link root p in the written tree whose linked children each directly follow a local child: after
    reading and load_links(force=True), its local children are those written, and its linked
    children are copies of the children of the target as it is now; nothing linked comes from the text
    and no placeholder is left. *)
Theorem C98_reload_partial : forall sha h x T ps p hdr hash chk, LReach h -> tree_at h x T ->
  (forall y, In y (flatten T) -> storable h y) ->
  ps <> [] -> option_map root (at_path ps T) = Some p ->
  (forall qs rs q, ps = qs ++ rs -> qs <> [] -> option_map root (at_path qs T) = Some q -> flag h q 3 = false) ->
  flag h p 5 = true -> linked_follow h p -> (forall y, In y (children h p) -> flag h y 4 = false) ->
  exists text, (forall n, 3 * size T + 3 <= n -> dumps sha h n None hdr hash x = Some (Ok text)) /\
  forall h0, Reach h0 -> exists h' y T' p', loads sha text chk false h0 = (h', Ok y) /\ Reach h' /\ tree_at h' y T' /\ option_map root (at_path ps T') = Some p' /\
    tag_value h' p' = tag_value h p /\
  forall target_of changed n t, target_of h' p' = Ok t -> t < hnext h0 ->
    (forall c, In c (children h' t) -> flag h' c 3 = false /\ flag h' c 5 = false /\ has_tag_idx h' c) -> (forall c z, In c (children h' t) -> Below h' c z -> copyable h' z) ->
  exists h'', load_links target_of changed true (S n) p' h' = (h'', Ok true) /\ LReach h'' /\
    (forall y, In y (children h p) -> flag h y 3 = false -> exists z, In z (children h'' p') /\ flag h'' z 3 = false /\ tag_value h'' z = tag_value h y) /\
    (forall z, In z (children h'' p') -> flag h'' z 3 = false -> flag h'' z 4 = false /\ exists y, In y (children h p) /\ flag h y 3 = false /\ tag_value h'' z = tag_value h y) /\
    (forall z, In z (children h'' p') -> flag h'' z 3 = true -> exists c, In c (children h' t) /\ tag_value h'' z = tag_value h' c /\
       forall y, In y (children h p) -> flag h y 3 = false -> key h p y <> key h' t c) /\
    (forall c, In c (children h' t) -> (exists y, In y (children h p) /\ flag h y 3 = false /\ key h p y = key h' t c) \/
       (exists z, In z (children h'' p') /\ flag h'' z 3 = true /\ tag_value h'' z = tag_value h' c)).
Proof.
  intros sha h x T ps p hdr hash chk LR HT HS Nps Ep HU H5 LF H4. destruct (lreach_ok h LR) as (W & _).
  destruct (at_path ps T) as [S|] eqn:EP; [|discriminate]. cbn in Ep. injection Ep as Ep.
  assert (HK : kids T <> []). { destruct ps as [|i ps]; [congruence|]. cbn in EP. intros K. rewrite K in EP. destruct i; discriminate. }
  destruct (C98_saved_partial sha h x T hdr hash chk LR HT HK HS) as (text & L & SV & ED & RD). exists text. split; [exact ED|]. intros h0 R0.
  destruct (RD h0 R0) as (h' & y & T' & E & R' & P' & TA' & Rng & EL & V). destruct HT as [Er HT]. destruct TA' as [Er' HT'].
  destruct (at_saved h ps true T L S SV (fun _ => Nps)) as (LS & ELS & SVS).
  { intros qs q _ Nq (rs & Eq) Eqq. apply (HU qs rs q Eq Nq Eqq). }
  { exact HT. } { exact EP. }
  destruct (at_inherit ps 0 L LS) as (F & HF & EI); [intros i _ _; apply Z.bits_0|exact ELS|]. rewrite <- EL, at_tmap in EI.
  destruct (at_path ps T') as [S'|] eqn:EP'; [|discriminate]. cbn [option_map] in EI. injection EI as EI.
  pose proof (proj1 (lreach_ok h' (Reach_LReach h' R'))) as W'.
  assert (Lk : a_link (view h p) <> None). { apply (HS p); [rewrite <- Ep; eapply at_in; exact EP|exact H5]. }
  destruct S as [s ds]. cbn in Ep. subst s. destruct S' as [p' ds'].
  destruct (read_root h h' p ds LS p' ds' F W W' H5 Lk (at_ltree _ _ _ _ HT EP) (at_ltree _ _ _ _ HT' EP') SVS EI HF LF) as (TVp & H5' & Lk' & Len & KR).
  exists h', y, T', p'. split; [exact E|]. split; [exact R'|]. split; [split; assumption|]. split; [rewrite EP'; reflexivity|]. split; [exact TVp|].
  intros to ch n t Etg Lt Kd Cp.
  assert (Lp' : hnext h0 <= p' < hnext h') by (apply Rng; apply (at_in _ _ _ EP')).
  assert (Cor : forall k, (exists u, nth_error (children h p) k = Some u) <-> exists u, nth_error (children h' p') k = Some u).
  { intros k. split; intros (u & Hu); (assert (N : k < length (children h p)) by first [apply nth_error_Some; congruence | rewrite <- Len; apply nth_error_Some; congruence]).
    - destruct (nth_error (children h' p') k) eqn:Q; [eauto|]. apply nth_error_None in Q. lia.
    - destruct (nth_error (children h p) k) eqn:Q; [eauto|]. apply nth_error_None in Q. lia. }
  assert (LC : load_case to ch true h' p' t).
  { constructor; auto; try lia.
    - destruct (a_link (view h' p')) as [lk|]; [|congruence]. exists lk. auto.
    - intros z Hz Hf. apply In_nth_error in Hz as (k & Hk). destruct (proj2 (Cor k) (ex_intro _ z Hk)) as (u & Hu). destruct (KR k u z Hu Hk) as (_ & K2 & _ & K4).
      destruct (flag h u 3); [rewrite K2; apply K4|]. destruct K4 as [K4 _]. rewrite Hf in K4. rewrite (H4 u) in K4 by (eapply nth_error_In; exact Hu). discriminate.
    - split; [lia|]. intros B. apply (below_old h0 h' R0 V t p' Lt) in B. lia. }
  destruct (C46_merge_partial to ch true n h' p' t (Reach_LReach h' R') LC) as (h'' & copy & rep & EM & LR2 & M1 & M2 & M3 & M4 & M5 & M6 & M7 & M8 & M9 & _).
  assert (NL : forall z, In z (children h' p') -> flag h' z 3 = false).
  { intros z Hz. apply In_nth_error in Hz as (k & Hk). destruct (proj2 (Cor k) (ex_intro _ z Hk)) as (u & Hu). apply (KR k u z Hu Hk). }
  assert (ST : forall z, In z (stay h' p') <-> In z (children h' p') /\ flag h' z 4 = false).
  { intros z. unfold stay. split; [intros H; split; [eapply staying_in; exact H|apply (staying_real _ _ _ _ _ H)]|]. intros [H1 H2]. apply staying_local; auto. }
  assert (FlE : forall z i, In z (children h' p') -> flag h'' z i = flag h' z i) by (intros z i Hz; destruct (M9 z Hz) as (_ & Q & _); unfold flag; rewrite Q; reflexivity).
  assert (Loc : forall z, In z (stay h' p') -> exists k u, nth_error (children h p) k = Some u /\ nth_error (children h' p') k = Some z /\ flag h u 3 = false /\ tag_value h'' z = tag_value h u /\ key h' p' z = key h p u).
  { intros z Hz. apply ST in Hz as [Hz Hf]. destruct (In_nth_error _ _ Hz) as (k & Hk). destruct (proj2 (Cor k) (ex_intro _ z Hk)) as (u & Hu). exists k, u. split; [exact Hu|]. split; [exact Hk|].
    destruct (KR k u z Hu Hk) as (K1 & K2 & _ & K4). destruct (flag h u 3) eqn:E3; [destruct K4; congruence|]. split; [reflexivity|].
    split; [rewrite (proj1 (M9 z Hz)); unfold tag_value; rewrite K1; f_equal; apply K4|]. unfold key. rewrite K1, K2. reflexivity. }
  assert (Loc' : forall u, In u (children h p) -> flag h u 3 = false -> exists z, In z (stay h' p') /\ tag_value h'' z = tag_value h u /\ key h' p' z = key h p u).
  { intros u Hu E3. destruct (In_nth_error _ _ Hu) as (k & Hk). destruct (proj1 (Cor k) (ex_intro _ u Hk)) as (z & Hz). destruct (KR k u z Hk Hz) as (K1 & K2 & _ & K4). rewrite E3 in K4. destruct K4 as [K4 K5].
    assert (Hz' : In z (children h' p')) by (eapply nth_error_In; exact Hz).
    exists z. split; [apply ST; split; [exact Hz'|]; rewrite K4; apply H4; exact Hu|]. split; [rewrite (proj1 (M9 z Hz')); unfold tag_value; rewrite K1, K5; reflexivity|]. unfold key. rewrite K1, K2. reflexivity. }
  exists h''. split; [exact EM|]. split; [exact LR2|]. split; [|split; [|split]].
  - intros u Hu E3. destruct (Loc' u Hu E3) as (z & Hz & TV & _). exists z. split; [apply M4; left; exact Hz|]. apply ST in Hz as [Hz _]. split; [rewrite FlE by exact Hz; apply NL; exact Hz|exact TV].
  - intros z Hz E3. assert (Hs : In z (stay h' p')).
    { apply M4 in Hz as [Hz|Hz]; [exact Hz|]. apply in_map_iff in Hz as (c & <- & Hc). destruct (M2 c Hc) as [(w & Hw & _ & -> & _)|(_ & Q)]; [exact Hw|]. rewrite Q in E3. destruct (M1 c Hc) as (_ & _ & Q3 & _). congruence. }
    split; [apply ST in Hs as [Hs Hf]; rewrite FlE by exact Hs; exact Hf|]. destruct (Loc z Hs) as (k & u & Hu & _ & E3' & TV & _). exists u. split; [eapply nth_error_In; exact Hu|]. auto.
  - intros z Hz E3. apply M4 in Hz as [Hz|Hz]; [apply ST in Hz as [Hz _]; rewrite FlE, (NL z Hz) in E3 by exact Hz; discriminate|]. apply in_map_iff in Hz as (c & Ec & Hc). exists c. split; [exact Hc|].
    destruct (M2 c Hc) as [(w & Hw & _ & Q & _)|(Q1 & Q)].
    + rewrite <- Ec, Q in E3. apply ST in Hw as [Hw _]. rewrite FlE, (NL w Hw) in E3 by exact Hw. discriminate.
    + rewrite <- Ec, Q. split; [apply (M1 c Hc)|]. intros u Hu Eu K. destruct (Loc' u Hu Eu) as (w & Hw & _ & Kw). apply (Q1 w Hw). congruence.
  - intros c Hc. destruct (M2 c Hc) as [(w & Hw & Kw & _)|(Q1 & Q)].
    + left. destruct (Loc w Hw) as (k & u & Hu & _ & Eu & _ & Ku). exists u. split; [eapply nth_error_In; exact Hu|]. split; [exact Eu|congruence].
    + right. exists (rep c). rewrite Q. destruct (M1 c Hc) as (_ & Q2 & Q3 & _). split; [apply M4; right; rewrite <- Q; apply in_map; exact Hc|]. auto.
Qed.

(** *** cases *)
Example C98_saved_case : LReach sv_heap /\ tree_at sv_heap 12 sv_tree /\ kids sv_tree <> [] /\ (forall y, In y (flatten sv_tree) -> storable sv_heap y) /\
  flag sv_heap 6 5 = true /\ forallb (fun y => flag sv_heap y 3) (children sv_heap 6) = true.
Proof.
  split; [exact sv_reach|]. split; [split; [reflexivity|vm_compute; auto 20]|]. split; [discriminate|].
  split; [apply storable_b_ok; vm_compute; reflexivity|]. split; vm_compute; reflexivity.
Qed.
(** "top" with the link root of [lk4_heap]: local "b", linked "a", local "z" *)
Definition rl_heap : heap := runs (lk4_ops ++ [ONew (PStr "top") PNoValue [] None 0; OAppend 8 (IItem 5)]) empty_heap.
Lemma rl_reach : Reach rl_heap. Proof. apply reach_runs; [constructor|vm_compute; reflexivity]. Qed.
Definition rl_tree : tree loc := Node 8 [Node 5 [Node 6 []; Node 4 []; Node 7 []]].
Definition rl_text : list tok := match dumps (fun _ => 0) rl_heap 100 None true true 8 with Some (Ok t) => t | _ => [] end.
Definition rl_read : heap := fst (loads (fun _ => 0) rl_text true false rl_heap).
Lemma follow_b h p : (forall k y, nth_error (children h p) k = Some y -> flag h y 3 = true -> exists j z, k = S j /\ nth_error (children h p) j = Some z /\ flag h z 3 = false) -> linked_follow h p.
Proof.
  intros H l1 y l2 E Hf. assert (Hk : nth_error (children h p) (length l1) = Some y) by (rewrite E, nth_error_app2, Nat.sub_diag by apply le_n; reflexivity).
  destruct (H _ _ Hk Hf) as (j & z & Ej & Hj & Ez). destruct l1 as [|a l1 _] using rev_ind; [discriminate|]. rewrite app_length in Ej. cbn in Ej. assert (j = length l1) by lia. subst j.
  rewrite E, <- app_assoc, nth_error_app2, Nat.sub_diag in Hj by apply le_n. injection Hj as ->. eauto.
Qed.
Example C98_reload_case : LReach rl_heap /\ tree_at rl_heap 8 rl_tree /\ (forall y, In y (flatten rl_tree) -> storable rl_heap y) /\
  option_map root (at_path [0] rl_tree) = Some 5 /\ flag rl_heap 5 3 = false /\ flag rl_heap 5 5 = true /\ linked_follow rl_heap 5 /\ (forall y, In y (children rl_heap 5) -> flag rl_heap y 4 = false) /\
  snd (loads (fun _ => 0) rl_text true false rl_heap) = Ok 13 /\ children rl_read 13 = [12] /\
  map (tvf rl_read) (children rl_read 12) = [(PStr "b", PInt 20, 0%Z); (PStr "a", PInt 0, 16%Z); (PStr "z", PInt 30, 0%Z)] /\
  let r := load_links (lk_to 0) never true 201 12 rl_read in snd r = Ok true /\
  map (tvf (fst r)) (children (fst r) 12) = [(PStr "a", PInt 1, 8%Z); (PStr "b", PInt 20, 0%Z); (PStr "a", PInt 3, 8%Z); (PStr "z", PInt 30, 0%Z)].
Proof.
  split; [apply Reach_LReach; exact rl_reach|]. split; [split; [reflexivity|vm_compute; auto 20]|]. split; [apply storable_b_ok; vm_compute; reflexivity|].
  split; [reflexivity|]. split; [vm_compute; reflexivity|]. split; [vm_compute; reflexivity|].
  assert (Ch : children rl_heap 5 = [6; 4; 7]) by (vm_compute; reflexivity).
  split. { apply follow_b. rewrite Ch. intros [|[|[|k]]] y Hy Hf; cbn in Hy; try (injection Hy as <-).
    - vm_compute in Hf. discriminate Hf.
    - exists 0, 6. split; [reflexivity|]. split; [reflexivity|vm_compute; reflexivity].
    - vm_compute in Hf. discriminate Hf.
    - clear Hf. exfalso. destruct k; discriminate Hy. }
  split. { rewrite Ch. intros y [<-|[<-|[<-|[]]]]; vm_compute; reflexivity. }
  cbv zeta. split; [vm_compute; reflexivity|]. split; [vm_compute; reflexivity|]. split; [vm_compute; reflexivity|]. split; vm_compute; reflexivity.
Qed.

(** *** limits *)
Lemma run_pair {A B} (m : A * B) r : snd m = r -> m = (fst m, r). Proof. intros <-. destruct m; reflexivity. Qed.
(** The first linked child of a link root that has just been loaded is written with its contents ... *)
Theorem C98_contents_refuted : exists h x p y, LReach h /\ In p (children h x) /\ flag h p 5 = true /\ In y (children h p) /\ flag h y 3 = true /\
  exists text h' x' p' y', dumps (fun _ => 0) h 100 None true true x = Some (Ok text) /\ loads (fun _ => 0) text true false empty_heap = (h', Ok x') /\
    In p' (children h' x') /\ In y' (children h' p') /\ flag h' y' 3 = true /\ tag_value h' y' = tag_value h y.
Proof.
  exists sv_heap, 12, 6, 7. split; [exact sv_reach|]. split; [vm_compute; auto|]. split; [vm_compute; reflexivity|]. split; [vm_compute; auto|]. split; [vm_compute; reflexivity|].
  exists sv_text, (fst (loads (fun _ => 0) sv_text true false empty_heap)), 6, 5, 3. split; [vm_compute; reflexivity|].
  split; [apply run_pair; vm_compute; reflexivity|].
  split; [vm_compute; auto|]. split; [vm_compute; auto|]. split; vm_compute; reflexivity.
Qed.
(** ... and this old copy stays when the links are loaded after reading, although the target has
    changed in between: no child of the link root has the value of the target. *)
Definition st_heap : heap := after (OSetValue 1 (PInt 100)) sv_heap.
Definition st_read : heap := fst (loads (fun _ => 0) sv_text true false st_heap).
Theorem C98_stale_refuted : exists h g text x' p' t c, LReach h /\ LReach g /\ flag h 6 5 = true /\
  dumps (fun _ => 0) h 100 None true true 12 = Some (Ok text) /\ snd (loads (fun _ => 0) text true false g) = Ok x' /\
  let h' := fst (loads (fun _ => 0) text true false g) in children h' x' = [p'] /\ children h' t = [c; 2; 3] /\
  let r := load_links (lk_to t) never true 201 p' h' in snd r = Ok true /\
    (forall z, In z (children (fst r) p') -> tag_value (fst r) z <> tag_value (fst r) c) /\
    exists z, In z (children (fst r) p') /\ flag (fst r) z 3 = true /\ tag_value (fst r) z = (PStr "a", PInt 1) /\ tag_value (fst r) c = (PStr "a", PInt 100).
Proof.
  exists sv_heap, st_heap, sv_text, 19, 18, 0, 1. split; [exact sv_reach|].
  split; [apply LReach_op; [exact sv_reach|apply uncovered_b_ok; vm_compute; reflexivity|exact I]|]. split; [vm_compute; reflexivity|]. split; [vm_compute; reflexivity|]. split; [vm_compute; reflexivity|].
  cbv zeta. split; [vm_compute; reflexivity|]. split; [vm_compute; reflexivity|]. split; [vm_compute; reflexivity|]. split.
  - intros z Hz. assert (Hz' : In z [16; 21; 22]) by (revert Hz; vm_compute; tauto). destruct Hz' as [<-|[<-|[<-|[]]]]; vm_compute; discriminate.
  - exists 16. split; [vm_compute; auto|]. split; [vm_compute; reflexivity|]. split; vm_compute; reflexivity.
Qed.
(** Writing the link root itself: its linked children are written with their contents. *)
Theorem C98_link_root_itself_refuted : exists h x y text h' x' y', LReach h /\ flag h x 5 = true /\ linked_follow h x /\ In y (children h x) /\ flag h y 3 = true /\
  dumps (fun _ => 0) h 100 None true true x = Some (Ok text) /\ loads (fun _ => 0) text true false empty_heap = (h', Ok x') /\
  In y' (children h' x') /\ flag h' y' 3 = true /\ flag h' y' 4 = false /\ tag_value h' y' = tag_value h y.
Proof.
  pose (text := match dumps (fun _ => 0) rl_heap 100 None true true 5 with Some (Ok t) => t | _ => [] end).
  exists rl_heap, 5, 4, text, (fst (loads (fun _ => 0) text true false empty_heap)), 3, 1.
  split; [apply Reach_LReach; exact rl_reach|]. split; [vm_compute; reflexivity|]. split; [apply C98_reload_case|]. split; [vm_compute; auto|]. split; [vm_compute; reflexivity|]. split; [vm_compute; reflexivity|].
  split; [apply run_pair; vm_compute; reflexivity|].
  split; [vm_compute; auto|]. split; [vm_compute; reflexivity|]. split; vm_compute; reflexivity.
Qed.

Print Assumptions C98_saved_partial.
Print Assumptions C98_reload_partial.
Print Assumptions C98_contents_refuted.
Print Assumptions C98_stale_refuted.
Print Assumptions C98_link_root_itself_refuted.
