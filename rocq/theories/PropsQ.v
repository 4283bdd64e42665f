(** C69: sums and products of trees. *)
From Verif Require Import Base Heap HeapSpec ListLemmas ForestLemmas HeapInv HeapAttach HeapOps HeapOps2 HeapOps3 HeapHoare Tree HeapTree HeapCopy HeapMut
  HeapExt HeapExt2 HeapOrd HeapHist HeapHash HeapFlags History HeapRead Runs HeapLink HeapLinkH PropsA PropsB PropsC PropsF PropsG SerModel SerNew PropsM ArithModel ArithFacts.
Import ListNotations.
Open Scope string_scope.
Open Scope list_scope.

(** * Specification *)
(** [c] is the root of a new tree (in [h']) that looks like the tree of [x] (in [h]): same shape, order, tags,
    values and link sources; the flags are those of the original plus [d] *)
Definition clone_of (h h' : heap) (d : Z) (x c : loc) : Prop :=
  exists T T', tree_at h x T /\ tree_at h' c T' /\
    tmap (content h') T' = tmap (fun y => (tag_of h y, a_val (view h y), Z.lor (a_flags (view h y)) d)) T /\
    tmap (fun y => option_map lk_src (a_link (view h' y))) T' =
      tmap (fun y => if flag h y 5 then option_map lk_src (a_link (view h y)) else None) T /\
    (forall y, In y (flatten T') -> hnext h <= y).
(** the flags an item passes on to the items below it when it is constructed *)
Definition passed_on (fl : Z) : Z := Z.land fl (Z.lor READ_ONLY_TREE LOAD_LINKS).

(** * Proofs *)
Lemma copies_reach : forall xs h h' cs, ReachL h -> (forall x, In x xs -> x < hnext h) -> mapM copy_item xs h = (h', Ok cs) -> ReachL h'.
Proof.
  induction xs as [|x xs IH]; intros h h' cs R Hx E; cbn [mapM] in E; [injection E as <- <-; exact R|].
  destruct (copy_item x h) as [h1 [c|e]] eqn:E1; [rewrite (bind_ok _ _ _ _ _ E1) in E|rewrite (bind_err _ _ _ _ _ E1) in E; discriminate].
  destruct (mapM copy_item xs h1) as [h2 [ds|e]] eqn:E2; [rewrite (bind_ok _ _ _ _ _ E2) in E|rewrite (bind_err _ _ _ _ _ E2) in E; discriminate].
  injection E as <- <-.
  assert (R1 : ReachL h1).
  { replace h1 with (after (OCopy x) h); [apply ReachL_step; [exact R|apply Hx; left; reflexivity|reflexivity]|]. unfold after. cbn [run]. rewrite (void_run _ _ _ _ E1). reflexivity. }
  apply (IH h1 h2 ds R1); [|exact E2]. intros y Hy. pose proof (Hx y (or_intror Hy)) as Hy'.
  destruct (copies_ok [x] h (reach_WF h (ReachL_Reach h R)) (reachL_links h R)) as (h1' & cs' & E' & _ & _ & N & _); [intros z [<-|[]]; apply Hx; left; reflexivity|].
  cbn [mapM] in E'. rewrite (bind_ok _ _ _ _ _ E1) in E'. cbn in E'. injection E' as <- _. lia.
Qed.
Lemma mapM_app {A B} (f : A -> M B) l m h h' cs : mapM f (l ++ m) h = (h', Ok cs) ->
  exists h1 xs ys, mapM f l h = (h1, Ok xs) /\ mapM f m h1 = (h', Ok ys) /\ cs = xs ++ ys.
Proof.
  revert h cs. induction l as [|a l IH]; intros h cs E; cbn [app mapM] in *.
  - exists h, [], cs. auto.
  - destruct (f a h) as [h1 [b|e]] eqn:E1; [rewrite (bind_ok _ _ _ _ _ E1) in E|rewrite (bind_err _ _ _ _ _ E1) in E; discriminate].
    destruct (mapM f (l ++ m) h1) as [h2 [ds|e]] eqn:E2; [rewrite (bind_ok _ _ _ _ _ E2) in E|rewrite (bind_err _ _ _ _ _ E2) in E; discriminate].
    injection E as <- <-. destruct (IH h1 ds E2) as (h3 & xs & ys & A1 & A2 & ->). exists h3, (b :: xs), ys. rewrite (bind_ok _ _ _ _ _ E1), (bind_ok _ _ _ _ _ A1). auto.
Qed.

(** the new tree built from copies [es] of the items [zs] *)
Lemma built h h1 zs es t v fl : ReachL h -> ReachL h1 -> hnext h <= hnext h1 -> (forall y, y < hnext h -> view h1 y = view h y) ->
  Forall2 (copy_of (view h) (view h1) (hnext h) (hnext h1)) zs es -> hashable t = true -> has fl LINK_ROOT = false -> Z.land fl FLAG_MASK = fl ->
  exists h' r, new_tree t v (map EItem es) None fl h1 = (h', Ok r) /\ hnext h <= r /\ parent_of h' r = None /\
    content h' r = (t, v, fl) /\ a_link (view h' r) = None /\ Forall2 (clone_of h h' (passed_on fl)) zs (children h' r) /\
    (forall y, y < hnext h -> view h' y = view h y) /\ ReachL h'.
Proof.
  intros R R1 N Fr CO Ht Hfl Hm.
  pose (Src := fun T => ltree (view h1) T /\ exists Tx, ltree (view h) Tx /\
          tmap (label (view h1)) T = tmap (fun y => cp_label (label (view h) y)) Tx /\ forall y, In y (flatten T) -> hnext h <= y < hnext h1).
  assert (Sel : exists Ts, es = map root Ts /\ Forall Src Ts /\ Forall2 (fun z T => exists Tx, ltree (view h) Tx /\ root Tx = z /\ tmap (label (view h1)) T = tmap (fun y => cp_label (label (view h) y)) Tx) zs Ts).
  { induction CO as [|z e zs es (Tx & T & A & B & C & D & L & Rg) CO (Ts & E1 & E2 & E3)]; [exists []; repeat split; constructor|].
    exists (T :: Ts). split; [cbn; congruence|]. split; constructor; try assumption; [split; [exact C|]; exists Tx; auto|exists Tx; auto]. }
  destruct Sel as (Ts & -> & HS & HZ).
  destruct (new_tree_dup h1 t v fl Src Ts (hnext h) (reach_WF h1 (ReachL_Reach h1 R1)) (reachL_links h1 R1) Ht Hfl N) as (h' & cs & E & N' & Vr & Md & F0); [|exact HS|].
  { intros T (A & Tx & B & C & D). split; [exact A|]. split; [apply (D (root T)), in_flatten_root|]. intros y Hy. split; [apply D; exact Hy|].
    revert y Hy. apply (tmap_pointwise (fun y => cp_label (label (view h1) y)) (label (view h1))). rewrite <- (tmap_tmap (label (view h1)) cp_label), C, tmap_tmap. apply tmap_ext. intros y _. apply cp_label_idem. }
  rewrite map_map. exists h', (hnext h1). split; [exact E|]. split; [exact N|]. split; [unfold parent_of; rewrite Vr; reflexivity|].
  split; [unfold content, tag_of; rewrite Vr; cbn; rewrite Hm; reflexivity|]. split; [rewrite Vr; reflexivity|]. split; [|split].
  - unfold children. rewrite Vr. cbn [a_children]. clear E Vr. revert cs Md. induction HZ as [|z T zs Ts (Tx & A & B & C) HZ IH]; intros cs Md; inversion Md as [|? c ? cs' M1 M2]; subst; constructor.
    + destruct M1 as (Tc & HTc & ETc & Lc & Rc). assert (EQ : tmap (label (view h')) Tc = tmap (fun y => addf (deep_flags fl) (cp_label (label (view h) y))) Tx).
      { rewrite Lc, <- (tmap_tmap (label (view h1)) (addf (deep_flags fl))), C, tmap_tmap. reflexivity. }
      assert (G : forall {B} (f : xlabel -> B), tmap (fun y => f (label (view h') y)) Tc = tmap (fun y => f (addf (deep_flags fl) (cp_label (label (view h) y)))) Tx).
      { intros B0 f. rewrite <- (tmap_tmap (label (view h')) f), EQ, tmap_tmap. reflexivity. }
      exists Tx, Tc. split; [split; [reflexivity|exact A]|]. split; [split; auto|]. split; [|split].
      * change (content h') with (fun y => (fun l => (x_tag l, x_val l, x_flags l)) (label (view h') y)). rewrite G. apply tmap_ext. intros y _. unfold cp_label, addf, label, tag_of. cbn.
        pose proof (reach_flags h (ReachL_Reach h R) y) as M. unfold fnode, in_mask in M. rewrite M. unfold deep_flags. rewrite Hm.
        destruct (has (nflags (hnode h y)) LINK_ROOT) eqn:EL; [rewrite lor_has by assumption|]; reflexivity.
      * change (fun y => option_map lk_src (a_link (view h' y))) with (fun y => x_src (label (view h') y)). rewrite G. apply tmap_ext. intros y _. unfold cp_label, addf, label. cbn.
        change (has (nflags (hnode h y)) LINK_ROOT) with (is_link_root h y). assert (Q : is_link_root h y = flag h y 5) by (apply has_flag; [lia|reflexivity]). rewrite Q. reflexivity.
      * intros y Hy. apply Rc. exact Hy.
    + inversion HS; subst. inversion CO; subst. apply IH; assumption.
  - intros y Hy. rewrite F0 by exact Hy. apply Fr. exact Hy.
  - replace h' with (after (ONew t v (map EItem (map root Ts)) None fl) h1).
    + apply ReachL_step; [exact R1| |cbn; rewrite Hfl; reflexivity]. cbn. unfold new_ok. rewrite map_map, Forall_map. eapply Forall_impl; [|exact HS].
      intros T (_ & Tx & _ & _ & D). apply (D (root T)), in_flatten_root.
    + unfold after. cbn [run]. rewrite map_map, (void_run _ _ _ _ E). reflexivity.
Qed.
Lemma Forall2_length {A B} (P : A -> B -> Prop) l m : Forall2 P l m -> length l = length m.
Proof. induction 1; cbn; congruence. Qed.
Lemma tag_hashable h x : ReachL h -> hashable (ntag (hnode h x)) = true.
Proof. intros R. apply (reach_hash h (ReachL_Reach h R)). Qed.
Lemma not_link_root h a : flag h a 5 = false -> is_link_root h a = false.
Proof. intros F. unfold is_link_root. rewrite (has_flag h a LINK_ROOT 5) by (try lia; reflexivity). exact F. Qed.
Lemma child_lt h p x : ReachL h -> In x (children h p) -> x < hnext h.
Proof. intros R Hx. apply (Forest_child_lt _ _ p x (wf_forest _ (reach_WF h (ReachL_Reach h R))) Hx). Qed.

(** a + b: a new tree with tag, value and flags of a; its children are copies of those of a followed by copies
    of those of b; nothing else changes *)
Theorem C69_add : forall h a b, ReachL h -> a < hnext h -> b < hnext h -> flag h a 5 = false ->
  exists h' r, add_trees a b h = (h', Ok r) /\ hnext h <= r /\ parent_of h' r = None /\ content h' r = content h a /\
    Forall2 (clone_of h h' (passed_on (a_flags (view h a)))) (children h a ++ children h b) (children h' r) /\
    (forall y, y < hnext h -> view h' y = view h y) /\ ReachL h'.
Proof.
  intros h a b R Ha Hb F. pose proof (not_link_root h a F) as NL.
  assert (Hx : forall x, In x (children h a ++ children h b) -> x < hnext h) by (intros x Hin; apply in_app_iff in Hin as [Hin|Hin]; eapply child_lt; eauto).
  destruct (copies_ok (children h a ++ children h b) h (reach_WF h (ReachL_Reach h R)) (reachL_links h R) Hx) as (h1 & cs & E & _ & _ & N & CO & _ & Fr).
  pose proof (copies_reach _ _ _ _ R Hx E) as R1.
  destruct (built h h1 _ cs (ntag (hnode h a)) (nval (hnode h a)) (nflags (hnode h a)) R R1 N Fr CO (tag_hashable h a R) NL) as (h' & r & E2 & Q1 & Q2 & Q3 & _ & Q4 & Q5 & Q6).
  { apply (reach_flags h (ReachL_Reach h R) a). }
  exists h', r. split; [|auto 10]. unfold add_trees. rewrite bind_gets, NL.
  change (nitems (hnode h a) ++ nitems (hnode h b)) with (children h a ++ children h b). rewrite (bind_ok _ _ _ _ _ E). exact E2.
Qed.
(** a * b: the cartesian product of the children *)
Theorem C69_product : forall h a b, ReachL h -> a < hnext h -> b < hnext h -> flag h a 5 = false ->
  exists h' r, mul_trees a b h = (h', Ok r) /\ hnext h <= r /\ parent_of h' r = None /\ content h' r = content h a /\
    Forall2 (clone_of h h' (passed_on (a_flags (view h a)))) (flat_map (fun x => flat_map (fun y => [x; y]) (children h b)) (children h a)) (children h' r) /\
    length (children h' r) = 2 * length (children h a) * length (children h b) /\
    (forall y, y < hnext h -> view h' y = view h y) /\ ReachL h'.
Proof.
  intros h a b R Ha Hb F. pose proof (not_link_root h a F) as NL.
  assert (Hx : forall x, In x (children h a ++ children h b) -> x < hnext h) by (intros x Hin; apply in_app_iff in Hin as [Hin|Hin]; eapply child_lt; eauto).
  destruct (copies_ok (children h a ++ children h b) h (reach_WF h (ReachL_Reach h R)) (reachL_links h R) Hx) as (h1 & cs & E & _ & _ & N & CO & _ & Fr).
  pose proof (copies_reach _ _ _ _ R Hx E) as R1. destruct (mapM_app _ _ _ _ _ _ E) as (hx & xs & ys & Ex & Ey & ->).
  apply Forall2_app_inv_l in CO as (xs' & ys' & CX & CY & Eq).
  assert (Lx : length xs' = length xs).
  { assert (K : forall l g g' ds, mapM copy_item l g = (g', Ok ds) -> length l = length ds).
    { induction l as [|x l IHl]; intros g g' ds Q; cbn [mapM] in Q; [injection Q as _ <-; reflexivity|].
      destruct (copy_item x g) as [g1 [c|e]] eqn:E1; [rewrite (bind_ok _ _ _ _ _ E1) in Q|rewrite (bind_err _ _ _ _ _ E1) in Q; discriminate].
      destruct (mapM copy_item l g1) as [g2 [ds'|e]] eqn:E2; [rewrite (bind_ok _ _ _ _ _ E2) in Q|rewrite (bind_err _ _ _ _ _ E2) in Q; discriminate].
      injection Q as <- <-. cbn. f_equal. eapply IHl; exact E2. }
    rewrite <- (K _ _ _ _ Ex). symmetry. apply (Forall2_length _ _ _ CX). }
  assert (Eqs : xs = xs' /\ ys = ys').
  { revert Eq Lx. clear. revert xs'. induction xs as [|x xs IH]; intros [|x' xs'] Eq Lx; try discriminate; [auto|]. cbn in Eq. injection Eq as -> Eq. destruct (IH xs' Eq ltac:(cbn in Lx; lia)) as [-> ->]. auto. }
  destruct Eqs as [<- <-].
  assert (CO2 : Forall2 (copy_of (view h) (view h1) (hnext h) (hnext h1)) (flat_map (fun x => flat_map (fun y => [x; y]) (children h b)) (children h a)) (flat_map (fun x => flat_map (fun y => [x; y]) ys) xs)).
  { clear - CX CY. induction CX as [|x c l cs Hc CX IH]; [constructor|]. cbn [flat_map]. apply Forall2_app; [|exact IH]. clear - Hc CY. induction CY as [|y d m ds Hd CY IH]; [constructor|]. cbn. constructor; [exact Hc|]. constructor; [exact Hd|exact IH]. }
  destruct (built h h1 _ _ (ntag (hnode h a)) (nval (hnode h a)) (nflags (hnode h a)) R R1 N Fr CO2 (tag_hashable h a R) NL) as (h' & r & E2 & Q1 & Q2 & Q3 & _ & Q4 & Q5 & Q6).
  { apply (reach_flags h (ReachL_Reach h R) a). }
  exists h', r. split; [|split; [exact Q1|split; [exact Q2|split; [exact Q3|split; [exact Q4|split; [|auto]]]]]].
  - unfold mul_trees. rewrite bind_gets, NL. change (nitems (hnode h a)) with (children h a). change (nitems (hnode h b)) with (children h b).
    rewrite (bind_ok _ _ _ _ _ Ex), (bind_ok _ _ _ _ _ Ey). exact E2.
  - rewrite <- (Forall2_length _ _ _ Q4). generalize (children h b) (children h a). intros m l. induction l as [|x l IH]; [reflexivity|]. cbn [flat_map]. rewrite app_length, IH.
    assert (K : length (flat_map (fun y => [x; y]) m) = 2 * length m) by (clear; induction m as [|y m IHm]; [reflexivity|]; cbn in *; lia). rewrite K. cbn [length]. nia.
Qed.
Lemma map_repeat {A B} (f : A -> B) a n : map f (repeat a n) = repeat (f a) n.
Proof. induction n; cbn; congruence. Qed.
Lemma Forall2_repeat {A B} (P : A -> B -> Prop) a b n : P a b -> Forall2 P (repeat a n) (repeat b n).
Proof. intros H. induction n; constructor; auto. Qed.
(** a * n: a new tree with tag, value and flags of a; its children are n copies of a; n * a: the same without tag and value *)
Theorem C69_times : forall h a n, ReachL h -> a < hnext h -> flag h a 5 = false ->
  exists h' r, mul_int a n h = (h', Ok r) /\ hnext h <= r /\ parent_of h' r = None /\ content h' r = content h a /\
    Forall2 (clone_of h h' (passed_on (a_flags (view h a)))) (repeat a (Z.to_nat n)) (children h' r) /\
    (forall y, y < hnext h -> view h' y = view h y) /\ ReachL h'.
Proof.
  intros h a n R Ha F. pose proof (not_link_root h a F) as NL. assert (Hx : forall x, In x [a] -> x < hnext h) by (intros x [<-|[]]; exact Ha).
  destruct (copies_ok [a] h (reach_WF h (ReachL_Reach h R)) (reachL_links h R) Hx) as (h1 & cs & E & _ & _ & N & CO & _ & Fr).
  pose proof (copies_reach _ _ _ _ R Hx E) as R1. inversion CO as [|? c ? ? Hc CO']; subst. inversion CO'; subst.
  assert (Ec : copy_item a h = (h1, Ok c)).
  { cbn [mapM] in E. destruct (copy_item a h) as [g [c0|e]] eqn:E1; [rewrite (bind_ok _ _ _ _ _ E1) in E|rewrite (bind_err _ _ _ _ _ E1) in E; discriminate]. cbn in E. injection E as -> ->. reflexivity. }
  destruct (built h h1 _ _ (ntag (hnode h a)) (nval (hnode h a)) (nflags (hnode h a)) R R1 N Fr (Forall2_repeat _ a c (Z.to_nat n) Hc) (tag_hashable h a R) NL) as (h' & r & E2 & Q1 & Q2 & Q3 & _ & Q4 & Q5 & Q6).
  { apply (reach_flags h (ReachL_Reach h R) a). }
  exists h', r. split; [|auto 10]. unfold mul_int. rewrite bind_gets, (bind_ok _ _ _ _ _ Ec). rewrite map_repeat in E2. exact E2.
Qed.
Theorem C69_rtimes : forall h a n, ReachL h -> a < hnext h ->
  exists h' r, rmul_int a n h = (h', Ok r) /\ hnext h <= r /\ parent_of h' r = None /\ content h' r = (PNoTag, PNoValue, 0%Z) /\
    Forall2 (clone_of h h' 0) (repeat a (Z.to_nat n)) (children h' r) /\
    (forall y, y < hnext h -> view h' y = view h y) /\ ReachL h'.
Proof.
  intros h a n R Ha. assert (Hx : forall x, In x [a] -> x < hnext h) by (intros x [<-|[]]; exact Ha).
  destruct (copies_ok [a] h (reach_WF h (ReachL_Reach h R)) (reachL_links h R) Hx) as (h1 & cs & E & _ & _ & N & CO & _ & Fr).
  pose proof (copies_reach _ _ _ _ R Hx E) as R1. inversion CO as [|? c ? ? Hc CO']; subst. inversion CO'; subst.
  assert (Ec : copy_item a h = (h1, Ok c)).
  { cbn [mapM] in E. destruct (copy_item a h) as [g [c0|e]] eqn:E1; [rewrite (bind_ok _ _ _ _ _ E1) in E|rewrite (bind_err _ _ _ _ _ E1) in E; discriminate]. cbn in E. injection E as -> ->. reflexivity. }
  destruct (built h h1 _ _ PNoTag PNoValue 0%Z R R1 N Fr (Forall2_repeat _ a c (Z.to_nat n) Hc) eq_refl eq_refl eq_refl) as (h' & r & E2 & Q1 & Q2 & Q3 & _ & Q4 & Q5 & Q6).
  exists h', r. split; [|auto 10]. unfold rmul_int. rewrite (bind_ok _ _ _ _ _ Ec). rewrite map_repeat in E2. exact E2.
Qed.
(** sums and products of link roots are rejected without effect *)
Theorem C69_link_root_rejected : forall h a b, flag h a 5 = true -> add_trees a b h = (h, Err TypeError) /\ mul_trees a b h = (h, Err TypeError).
Proof.
  intros h a b F. assert (L : is_link_root h a = true) by (unfold is_link_root; rewrite (has_flag h a LINK_ROOT 5) by (try lia; reflexivity); exact F).
  unfold add_trees, mul_trees. rewrite !bind_gets, L. auto.
Qed.

(** * Concrete cases *)
(** a read-only value, a link root, four children *)
Definition ar_ops : list op := ex_ops ++ [OSetValueReadOnly 1; ONew (PStr "l") (PInt 5) [] (Some 3) 0; OAppend 1 (IItem 7); OSetTreeReadOnly 0].
Definition ar_heap : heap := runs ar_ops empty_heap.
Lemma ar_reach : ReachL ar_heap.
Proof. apply reachL_runs; [constructor|vm_compute; reflexivity|reflexivity]. Qed.
Theorem C69_case : ReachL ar_heap /\ 0 < hnext ar_heap /\ 1 < hnext ar_heap /\ flag ar_heap 0 5 = false /\ flag ar_heap 1 5 = false /\
  length (children ar_heap 0) = 4 /\ length (children ar_heap 1) = 1 /\ passed_on (a_flags (view ar_heap 0)) = READ_ONLY_TREE /\
  (exists r, snd (add_trees 0 1 ar_heap) = Ok r /\ length (children (fst (add_trees 0 1 ar_heap)) r) = 5) /\
  (exists r, snd (mul_trees 0 1 ar_heap) = Ok r /\ length (children (fst (mul_trees 0 1 ar_heap)) r) = 8) /\
  (exists r, snd (mul_int 0 3 ar_heap) = Ok r /\ length (children (fst (mul_int 0 3 ar_heap)) r) = 3).
Proof.
  split; [exact ar_reach|]. split; [vm_compute; lia|]. split; [vm_compute; lia|]. split; [vm_compute; reflexivity|]. split; [vm_compute; reflexivity|].
  split; [vm_compute; reflexivity|]. split; [vm_compute; reflexivity|]. split; [vm_compute; reflexivity|].
  split; [exists 15; split; vm_compute; reflexivity|]. split; [exists 15; split; vm_compute; reflexivity|exists 15; split; vm_compute; reflexivity].
Qed.
(** the guard of [C69_times] is needed: multiplying a link root by a number gives an item that claims to be a
    link root but has no link; copying it raises an internal error *)
Theorem C69_times_link_root_refuted : ReachL ar_heap /\ flag ar_heap 7 5 = true /\
  exists h' r, mul_int 7 2 ar_heap = (h', Ok r) /\ flag h' r 5 = true /\ a_link (view h' r) = None /\ snd (copy_item r h') = Err AttributeError.
Proof.
  split; [exact ar_reach|]. split; [vm_compute; reflexivity|].
  exists (fst (mul_int 7 2 ar_heap)), 9. split; [|vm_compute; auto].
  assert (E : snd (mul_int 7 2 ar_heap) = Ok 9) by (vm_compute; reflexivity). rewrite <- E. apply surjective_pairing.
Qed.
