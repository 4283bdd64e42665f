(** C74 - C77: in-depth changes (iTree.deep). *)
From Coq Require Import Sorting.Permutation Sorting.Sorted.
From Verif Require Import Base Heap HeapSpec ListLemmas ForestLemmas HeapInv HeapAttach HeapOps HeapOps2 HeapOps3
  HeapHoare Tree HeapTree HeapCopy HeapMut HeapExt HeapExt2 HeapOrd HeapOrd2 HeapRen HeapMove HeapSet HeapSet2 HeapHist
  HeapHash History HeapRead HeapRead2 Runs HeapDel HeapLink HeapLinkH HeapFlags PropsA PropsB PropsC PropsD PropsF PropsG
  JsonModel GetModel NavModel PropsO PropsP Deep DeepSpec DeepProofs DeepInst DeepFacts DeepOps PropsS.
Import ListNotations.
Local Open Scope list_scope.

(** * C74 *)
Lemma deep_reverse_step f p h : tree_protected h p = false -> children h p <> [] ->
  deep_reverse (S f) p h = bind (reverse p) (fun _ => h1 <- gets (fun h => h) ;; mapM_ (deep_reverse f) (nitems (hnode h1 p))) h.
Proof.
  intros Hp NE. assert (C : check_order p h = (h, Ok true)) by (unfold check_order; rewrite bind_gets, Hp; reflexivity).
  cbn [deep_reverse]. unfold reverse. rewrite bind_assoc, !(bind_ok _ _ _ _ _ C). cbv iota. rewrite bind_assoc, !bind_gets.
  unfold children, view in NE. cbn in NE. destruct (nitems (hnode h p)) as [|c0 r0]; [congruence|].
  rewrite bind_assoc, !bind_upd. destruct (nfams (hnode h p)); reflexivity.
Qed.
Lemma mem_in y l : existsb (Nat.eqb y) l = true <-> In y l.
Proof. rewrite existsb_exists. split; [intros (z & Hz & E); apply Nat.eqb_eq in E; subst z; exact Hz|intros H; exists y; split; [exact H|apply Nat.eqb_refl]]. Qed.
Lemma mem_not y l : existsb (Nat.eqb y) l = false <-> ~ In y l.
Proof. rewrite <- mem_in. destruct (existsb (Nat.eqb y) l); split; congruence. Qed.
(** the children of the items [ys] are in the opposite order, nothing else is changed *)
Definition reversed_at (h h' : heap) (ys : list loc) : Prop :=
  forall y, view h' y = if existsb (Nat.eqb y) ys then a_set_children (rev (children h y)) (view h y) else view h y.
Lemma reversed_frame h h' ys T : reversed_at h h' ys -> (forall y, In y (flatten T) -> ~ In y ys) -> ltree (view h) T -> ltree (view h') T.
Proof.
  intros V D. apply ltree_frame. intros y Hy. rewrite V. apply D in Hy. apply mem_not in Hy. rewrite Hy. reflexivity.
Qed.
Lemma reversed_flags h h' ys y : reversed_at h h' ys -> a_flags (view h' y) = a_flags (view h y).
Proof. intros V. rewrite V. destruct (existsb _ _); reflexivity. Qed.
Lemma reversed_prot h h' ys y : reversed_at h h' ys -> tree_protected h' y = tree_protected h y.
Proof. intros V. apply prot_view. eapply reversed_flags; eauto. Qed.

Lemma flat_nodup_app {A} (T : tree A) l : NoDup (flat_map flatten (T :: l)) ->
  NoDup (flatten T) /\ NoDup (flat_map flatten l) /\ forall y, In y (flatten T) -> ~ In y (flat_map flatten l).
Proof. cbn [flat_map]. intros H. apply NoDup_app_inv in H as (A1 & B & C). auto. Qed.

Definition rev_spec (T : tree loc) : Prop := forall h f, Reach h -> ltree (view h) T -> NoDup (flatten T) ->
  (forall y, In y (flatten T) -> tree_protected h y = false) -> size T <= f ->
  exists h', deep_reverse f (root T) h = (h', Ok tt) /\ Reach h' /\ hnext h' = hnext h /\ reversed_at h h' (flatten T).
Lemma rev_list f : forall ds, Forall rev_spec ds -> forall h, Reach h -> Forall (ltree (view h)) ds -> NoDup (flat_map flatten ds) ->
  (forall y, In y (flat_map flatten ds) -> tree_protected h y = false) -> (forall d, In d ds -> size d <= f) ->
  exists h', mapM_ (deep_reverse f) (map root ds) h = (h', Ok tt) /\ Reach h' /\ hnext h' = hnext h /\ reversed_at h h' (flat_map flatten ds).
Proof.
  intros ds HS. induction HS as [|d ds Hd HS IH]; intros h R L ND P Sz.
  - exists h. split; [reflexivity|]. split; [exact R|]. split; [reflexivity|]. intros y. reflexivity.
  - inversion L as [|? ? L1 L2]; subst. destruct (flat_nodup_app d ds ND) as (ND1 & ND2 & Dj).
    destruct (Hd h f R L1 ND1) as (h1 & E1 & R1 & N1 & V1).
    { intros y Hy. apply P. cbn [flat_map]. apply in_or_app. auto. }
    { apply Sz. left. reflexivity. }
    destruct (IH h1 R1) as (h2 & E2 & R2 & N2 & V2).
    { rewrite Forall_forall in L2 |- *. intros e He. eapply reversed_frame; [exact V1| |apply L2; exact He].
      intros y Hy K. apply (Dj y K). apply in_flat_map. exists e. auto. }
    { exact ND2. }
    { intros y Hy. rewrite (reversed_prot _ _ _ _ V1). apply P. cbn [flat_map]. apply in_or_app. auto. }
    { intros e He. apply Sz. right. exact He. }
    exists h2. split; [cbn [map mapM_]; rewrite (bind_ok _ _ _ _ _ E1); exact E2|]. split; [exact R2|]. split; [congruence|].
    intros y. rewrite V2. cbn [flat_map]. rewrite existsb_app. destruct (existsb (Nat.eqb y) (flat_map flatten ds)) eqn:M2.
    + assert (M1 : existsb (Nat.eqb y) (flatten d) = false).
      { apply mem_not. intros K. apply (Dj y K). apply mem_in. exact M2. }
      rewrite M1. cbn [orb]. unfold children. rewrite (V1 y), M1. reflexivity.
    + rewrite orb_false_r. apply V1.
Qed.
Lemma rev_tree T : rev_spec T.
Proof.
  induction T as [a cs IH] using tree_ind'. intros h f R L ND P Sz. cbn [root]. destruct f as [|f]; [cbn in Sz; lia|].
  apply ltree_iff in L as [Ek L]. change (a_children (view h a)) with (children h a) in Ek.
  assert (Hp : tree_protected h a = false) by (apply P; left; reflexivity).
  destruct cs as [|c0 cs0].
  - cbn [map] in Ek. exists h. assert (C : check_order a h = (h, Ok true)) by (unfold check_order; rewrite bind_gets, Hp; reflexivity).
    split; [cbn [deep_reverse]; rewrite (bind_ok _ _ _ _ _ C); cbv iota; rewrite bind_gets; unfold children, view in Ek; cbn in Ek; rewrite <- Ek; reflexivity|].
    split; [exact R|]. split; [reflexivity|]. intros y. cbn [flatten flat_map existsb]. rewrite orb_false_r. destruct (Nat.eqb_spec y a) as [->|]; [|reflexivity].
    rewrite <- Ek. unfold children in Ek. destruct (view h a). cbn in *. subst. reflexivity.
  - set (cs := c0 :: cs0) in *. assert (NE : children h a <> []) by (rewrite <- Ek; discriminate).
    destruct (C17_reverse_partial h a R Hp NE) as (h1 & E1 & S1 & _).
    assert (R1 : Reach h1) by (apply (reach_after h (OReverse a) h1 (Ok tt)); [assumption|exact I|exact E1]).
    assert (N1 : hnext h1 = hnext h).
    { pose proof E1 as E1'. unfold reverse in E1'. assert (C : check_order a h = (h, Ok true)) by (unfold check_order; rewrite bind_gets, Hp; reflexivity).
      rewrite (bind_ok _ _ _ _ _ C) in E1'. cbv iota in E1'. rewrite bind_gets, bind_upd in E1'. destruct (nfams (hnode h a)); [|discriminate]. injection E1' as <-. reflexivity. }
    change (NoDup (a :: flat_map flatten cs)) in ND. apply NoDup_cons_iff in ND as [Na NDc].
    assert (C1 : children h1 a = map root (rev cs)) by (unfold children; rewrite S1, reorder_children, <- Ek, <- map_rev; reflexivity).
    assert (V1 : forall y, y <> a -> view h1 y = view h y) by (intros y Hy; rewrite S1; unfold reorder; apply Nat.eqb_neq in Hy; rewrite Hy; reflexivity).
    assert (Va : view h1 a = a_set_children (rev (children h a)) (view h a)) by (rewrite S1; unfold reorder; rewrite Nat.eqb_refl; reflexivity).
    assert (Pm : Permutation (flat_map flatten (rev cs)) (flat_map flatten cs)) by (apply Permutation_flat_map, Permutation_sym, Permutation_rev).
    destruct (rev_list f (rev cs)) with (h := h1) as (h2 & E2 & R2 & N2 & V2).
    + apply Forall_rev. exact IH.
    + exact R1.
    + apply Forall_rev. rewrite Forall_forall in L |- *. intros c Hc. eapply ltree_frame; [|apply L; exact Hc]. intros y Hy. rewrite V1; [reflexivity|].
      intros ->. apply Na. apply in_flat_map. exists c. auto.
    + eapply Permutation_NoDup; [apply Permutation_sym; exact Pm|exact NDc].
    + intros y Hy. assert (Hy' : In y (flat_map flatten cs)) by (eapply Permutation_in; eauto). rewrite (prot_view h).
      * apply P. right. exact Hy'.
      * rewrite V1; [reflexivity|]. intros ->. apply Na. exact Hy'.
    + intros d Hd. apply in_rev in Hd. cbn [size] in Sz. assert (size d <= list_sum (map size cs)); [|lia].
      clear -Hd. induction cs as [|c l IH]; [destruct Hd|]. change (size d <= size c + list_sum (map size l)). destruct Hd as [->|Hd]; [lia|]. specialize (IH Hd). lia.
    + exists h2. split; [rewrite (deep_reverse_step f a h Hp NE), (bind_ok _ _ _ _ _ E1), bind_gets; unfold children, view in C1; cbn in C1; rewrite C1; exact E2|].
      split; [exact R2|]. split; [congruence|]. intros y. rewrite V2. cbn [flatten existsb].
      assert (M : existsb (Nat.eqb y) (flat_map flatten (rev cs)) = existsb (Nat.eqb y) (flat_map flatten cs)).
      { apply eq_true_iff_eq. rewrite !mem_in. split; apply Permutation_in; [exact Pm|apply Permutation_sym; exact Pm]. }
      rewrite M. destruct (Nat.eqb_spec y a) as [->|N].
      * cbn [orb]. apply mem_not in Na. rewrite Na. exact Va.
      * cbn [orb]. unfold children. rewrite (V1 y N). reflexivity.
Qed.
Lemma mirror_ltree h h' T : reversed_at h h' (flatten T) -> ltree (view h) T -> ltree (view h') (mirror T).
Proof.
  assert (G : forall U, (forall y, In y (flatten U) -> children h' y = rev (children h y)) -> ltree (view h) U -> ltree (view h') (mirror U)).
  { intros U. induction U as [a cs IH] using tree_ind'. intros K L. cbn [mirror]. apply ltree_iff in L as [Ek L]. apply ltree_iff. split.
    - change (a_children (view h' a)) with (children h' a). rewrite (K a) by (left; reflexivity). change (children h a) with (a_children (view h a)). rewrite <- Ek.
      rewrite map_rev, map_map. f_equal. apply map_ext. intros [b ds]. reflexivity.
    - apply Forall_rev. apply Forall_forall. intros c' Hc'. apply in_map_iff in Hc' as (c & <- & Hc). rewrite Forall_forall in IH, L. apply IH; [exact Hc| |apply L; exact Hc].
      intros y Hy. apply K. right. apply in_flat_map. exists c. auto. }
  intros V L. apply G; [|exact L]. intros y Hy. unfold children. rewrite V. apply mem_in in Hy. rewrite Hy. reflexivity.
Qed.
(** deep.reverse(): the tree below becomes its mirror image; only the order of the children of
    items inside changes.  Partial: no item inside may be protected *)
Theorem C74_reverse_partial : forall h p T fuel, Reach h -> tree_at h p T -> size T <= fuel ->
  (forall y, In y (flatten T) -> tree_protected h y = false) ->
  exists h', deep_reverse fuel p h = (h', Ok tt) /\ Reach h' /\ tree_at h' p (mirror T) /\ reversed_at h h' (flatten T).
Proof.
  intros h p T fuel R TA Sz P. pose proof (tree_ND _ _ _ R TA) as ND. destruct TA as [E L]. subst p.
  destruct (rev_tree T h fuel R L ND P Sz) as (h' & E1 & R1 & _ & V). exists h'. split; [exact E1|]. split; [exact R1|]. split; [|exact V].
  split; [destruct T; reflexivity|eapply mirror_ltree; eauto].
Qed.
Lemma mirror_flatten {A} (T : tree A) : Permutation (flatten (mirror T)) (flatten T).
Proof.
  induction T as [a cs IH] using tree_ind'. cbn [mirror flatten]. constructor.
  eapply perm_trans; [apply Permutation_flat_map, Permutation_sym, Permutation_rev|].
  induction cs as [|c cs IHc]; [constructor|]. inversion IH as [|? ? H1 H2]; subst. cbn. apply Permutation_app; [exact H1|apply IHc; exact H2].
Qed.
(** twice is the identity *)
Theorem C74_reverse_twice_partial : forall h p T fuel, Reach h -> tree_at h p T -> size T <= fuel ->
  (forall y, In y (flatten T) -> tree_protected h y = false) ->
  exists h1 h2, deep_reverse fuel p h = (h1, Ok tt) /\ deep_reverse fuel p h1 = (h2, Ok tt) /\ same (view h2) (view h).
Proof.
  intros h p T fuel R TA Sz P. destruct (C74_reverse_partial h p T fuel R TA Sz P) as (h1 & E1 & R1 & TA1 & V1).
  assert (Pm := mirror_flatten T).
  destruct (C74_reverse_partial h1 p (mirror T) fuel R1 TA1) as (h2 & E2 & _ & _ & V2).
  - rewrite <- flatten_length, (Permutation_length Pm), flatten_length. exact Sz.
  - intros y Hy. rewrite (reversed_prot _ _ _ _ V1). apply P. eapply Permutation_in; eauto.
  - exists h1, h2. split; [exact E1|]. split; [exact E2|]. intros y. rewrite V2.
    assert (M : existsb (Nat.eqb y) (flatten (mirror T)) = existsb (Nat.eqb y) (flatten T)).
    { apply eq_true_iff_eq. rewrite !mem_in. split; apply Permutation_in; [exact Pm|apply Permutation_sym; exact Pm]. }
    rewrite M. unfold children. rewrite !(V1 y). destruct (existsb (Nat.eqb y) (flatten T)); [|reflexivity]. cbn [a_children a_set_children].
    unfold children. rewrite rev_involutive. destruct (view h y). reflexivity.
Qed.
(** a protected item refuses without effect ... *)
Theorem C74_reverse_protected : forall h p fuel, tree_protected h p = true -> is_link_root h p = false ->
  deep_reverse (S fuel) p h = (h, Err PermissionError).
Proof. intros h p fuel H L. cbn [deep_reverse]. unfold check_order, bind, gets. rewrite H, L. reflexivity. Qed.
(** ... but a protected item further down stops the operation half way *)
Definition half_ops : list op :=
  [ONew (PStr "r") PNoValue [EArgs (PStr "a") (PInt 1); EArgs (PStr "b") (PInt 2)] None 0; OSetTreeReadOnly 1].
Theorem C74_reverse_refuted : let h := runs half_ops empty_heap in
  Reach h /\ children h 0 = [1; 2] /\ tree_protected h 0 = false /\ snd (deep_reverse 9 0 h) = Err PermissionError /\ children (fst (deep_reverse 9 0 h)) 0 = [2; 1].
Proof. cbv zeta. split; [apply reach_runs; [constructor|vm_compute; reflexivity]|]. vm_compute. auto. Qed.
Lemma C74_case1 : size ex2_tree <= 9 /\ forallb (fun y => negb (tree_protected ex2 y)) (flatten ex2_tree) = true /\
  snd (deep_reverse 9 0 ex2) = Ok tt /\ deep_all (fst (deep_reverse 9 0 ex2)) 0 = Ok [2; 5; 1; 4; 3; 6; 7].
Proof. split; [vm_compute; lia|]. vm_compute. auto. Qed.
Example C74_case : Reach ex2 /\ tree_at ex2 0 ex2_tree /\ size ex2_tree <= 9 /\ (forall y, In y (flatten ex2_tree) -> tree_protected ex2 y = false) /\
  deep_all (fst (deep_reverse 9 0 ex2)) 0 = Ok [2; 5; 1; 4; 3; 6; 7].
Proof.
  destruct C74_case1 as (A & B & _ & C). split; [exact ex2_reach|]. split; [exact ex2_tree_at|]. split; [exact A|]. split; [|exact C].
  intros y Hy. rewrite forallb_forall in B. specialize (B y Hy). apply negb_true_iff in B. exact B.
Qed.

(** * C75 *)
Notation info := (pyval * pyval * Z)%type.
(** the sort key: a function of tag, value, flags and number of children, or (no key) the number
    of children *)
Definition key_fun : Type := pyval -> pyval -> Z -> nat -> Z.
Definition node_key (k : option key_fun) : option (node -> Z) :=
  option_map (fun (g : key_fun) n => g (ntag n) (nval n) (nflags n) (length (nitems n))) k.
Definition skey (k : option key_fun) (T : tree info) : Z :=
  match T with
  | Node c ts => match k with
                 | Some g => g (fst (fst c)) (snd (fst c)) (snd c) (length ts)
                 | None => Z.of_nat (length ts)
                 end
  end.
Definition sle (k : option key_fun) (rv : bool) (a b : tree info) : Prop :=
  if rv then (skey k b <= skey k a)%Z else (skey k a <= skey k b)%Z.
(** on every level the children are the old ones in sorted order, equal keys in the old order *)
Inductive deep_sorted (k : option key_fun) (rv : bool) : tree info -> tree info -> Prop :=
| ds_node c ts us vs : Permutation ts us -> StronglySorted (sle k rv) us ->
    (forall z, filter (fun t => (skey k t =? z)%Z) us = filter (fun t => (skey k t =? z)%Z) ts) ->
    Forall2 (deep_sorted k rv) us vs -> deep_sorted k rv (Node c ts) (Node c vs).

Lemma skey_compared k h t : ltree (view h) t -> skey k (tmap (content h) t) = compared h (node_key k) (root t).
Proof.
  destruct t as [a cs]. intros L. apply ltree_iff in L as [E _]. cbn [tmap skey root]. unfold compared, node_key. change (a_children (view h a)) with (children h a) in E.
  assert (N : length (map (tmap (content h)) cs) = length (children h a)) by (rewrite <- E, !map_length; reflexivity). rewrite N.
  destruct k as [g|]; reflexivity.
Qed.
Lemma same_roots h l1 : Forall (ltree (view h)) l1 -> forall l2, Forall (ltree (view h)) l2 -> map root l1 = map root l2 -> l1 = l2.
Proof.
  induction 1 as [|a l1 La _ IH]; intros [|b l2] H E; try discriminate; [reflexivity|]. inversion H; subst. cbn in E. injection E as E1 E2. f_equal; [eapply ltree_unique; eauto|auto].
Qed.
Lemma filter_map {A B} (f : A -> B) (P : B -> bool) l : filter P (map f l) = map f (filter (fun a => P (f a)) l).
Proof. induction l as [|a l IH]; [reflexivity|]. cbn. rewrite IH. destruct (P (f a)); reflexivity. Qed.
Lemma Forall_filter {A} (Q : A -> Prop) P (l : list A) : Forall Q l -> Forall Q (filter P l).
Proof. rewrite !Forall_forall. intros H a Ha. apply filter_In in Ha as [Ha _]. auto. Qed.
Lemma sorted_map {A B} (R : A -> A -> Prop) (Q : B -> B -> Prop) (f : A -> B) l : (forall a b, In a l -> In b l -> R a b -> Q (f a) (f b)) ->
  StronglySorted R l -> StronglySorted Q (map f l).
Proof.
  intros H S. induction S as [|a l S IH F]; [constructor|]. cbn. constructor; [apply IH; intros; apply H; auto; right; assumption|].
  rewrite Forall_forall in F |- *. intros b Hb. apply in_map_iff in Hb as (c & <- & Hc). apply H; [left; reflexivity|right; exact Hc|auto].
Qed.
Lemma sorted_unmap {A B} (Q : B -> B -> Prop) (f : A -> B) l : StronglySorted Q (map f l) -> StronglySorted (fun a b => Q (f a) (f b)) l.
Proof.
  induction l as [|a l IH]; intros S; [constructor|]. cbn in S. inversion S as [|? ? S1 F]; subst. constructor; [auto|]. rewrite Forall_forall in F |- *. intros b Hb. apply F. apply in_map. exact Hb.
Qed.
(** one level *)
Lemma sorted_level k rv h a cs ks : Forall (ltree (view h)) cs -> Permutation cs ks ->
  StronglySorted (in_order h (node_key k) rv) (map root ks) ->
  (forall c, filter (fun y => (compared h (node_key k) y =? c)%Z) (map root ks) = filter (fun y => (compared h (node_key k) y =? c)%Z) (map root cs)) ->
  forall vs, Forall2 (deep_sorted k rv) (map (tmap (content h)) ks) vs ->
  deep_sorted k rv (tmap (content h) (Node a cs)) (Node (content h a) vs).
Proof.
  intros L Pm SS St vs F. cbn [tmap].
  assert (Lk : Forall (ltree (view h)) ks) by (rewrite Forall_forall in L |- *; intros t Ht; apply L; eapply Permutation_in; [apply Permutation_sym; exact Pm|exact Ht]).
  apply ds_node with (us := map (tmap (content h)) ks).
  - apply Permutation_map. exact Pm.
  - apply (sorted_map (fun t u => in_order h (node_key k) rv (root t) (root u))); [|apply (sorted_unmap (in_order h (node_key k) rv) root); exact SS]. intros t u Ht Hu K. rewrite Forall_forall in Lk. unfold sle, in_order in *.
    rewrite !skey_compared by (apply Lk; assumption). exact K.
  - intros z. rewrite !filter_map. f_equal.
    assert (Q : forall l, Forall (ltree (view h)) l -> filter (fun t => (skey k (tmap (content h) t) =? z)%Z) l = filter (fun t => (compared h (node_key k) (root t) =? z)%Z) l).
    { intros l Hl. apply filter_ext_in. intros t Ht. rewrite Forall_forall in Hl. rewrite skey_compared by (apply Hl; exact Ht). reflexivity. }
    rewrite !Q by assumption. apply (same_roots h); [apply Forall_filter; exact Lk|apply Forall_filter; exact L|].
    specialize (St z). rewrite !filter_map in St. exact St.
  - exact F.
Qed.
Lemma cp_content h l : flags_masked h -> (exists y, l = label (view h) y) ->
  x_tag (cp_label l) = x_tag l /\ x_val (cp_label l) = x_val l /\ x_flags (cp_label l) = x_flags l.
Proof.
  intros FM [y ->]. unfold cp_label, label. cbn. split; [reflexivity|]. split; [reflexivity|]. pose proof (FM y) as M. change (a_flags (view h y)) with (nflags (hnode h y)).
  destruct (has (nflags (hnode h y)) LINK_ROOT) eqn:E; [|rewrite M; reflexivity]. rewrite M. apply Z.bits_inj'. intros i Hi. rewrite Z.lor_spec.
  change LINK_ROOT with (2 ^ 5)%Z in *. rewrite has_bit in E by lia. rewrite Z.pow2_bits_eqb by lia. destruct (Z.eqb_spec 5 i) as [<-|]; [rewrite E; reflexivity|apply orb_false_r].
Qed.
Definition of_label (l : xlabel) : info := (x_tag l, x_val l, x_flags l).
Lemma content_label h y : content h y = of_label (label (view h) y).
Proof. reflexivity. Qed.
(** a copy has the same contents *)
Lemma copy_content h h' n n' x c T : flags_masked h -> copy_of (view h) (view h') n n' x c -> tree_at h x T ->
  exists T', tree_at h' c T' /\ tmap (content h') T' = tmap (content h) T /\ forall y, In y (flatten T') -> n <= y < n'.
Proof.
  intros FM (T0 & T' & L0 & E0 & L' & E' & Lab & Rng) [E L]. assert (T0 = T) by (eapply ltree_unique; eauto; congruence). subst T0.
  exists T'. split; [split; assumption|]. split; [|exact Rng].
  assert (Q : tmap of_label (tmap (label (view h')) T') = tmap of_label (tmap (fun y => cp_label (label (view h) y)) T)) by (rewrite Lab; reflexivity).
  rewrite !tmap_tmap in Q. change (fun a => of_label (label (view h') a)) with (content h') in Q. rewrite Q. apply tmap_ext. intros y _.
  destruct (cp_content h (label (view h) y) FM (ex_intro _ y eq_refl)) as (A & B & C). unfold of_label, content. rewrite A, B, C. reflexivity.
Qed.

Definition sort_spec (k : option key_fun) (rv : bool) (f : nat) : Prop := forall T h x, size T <= f -> ReachL h -> x < hnext h -> tree_at h x T ->
  (forall y, In y (flatten T) -> tree_protected h y = false) ->
  exists h' T', deep_sort f x (node_key k) rv h = (h', Ok tt) /\ ReachL h' /\ hnext h <= hnext h' /\
    (forall y, y < hnext h -> y <> x -> view h' y = view h y) /\ view h' x = a_set_children (children h' x) (view h x) /\
    tree_at h' x T' /\ deep_sorted k rv (tmap (content h) T) (tmap (content h') T') /\ (forall y, In y (below_tree T') -> hnext h <= y).
Lemma sort_list_step k rv f : sort_spec k rv f -> forall ds h, ReachL h -> Forall (ltree (view h)) ds -> NoDup (flat_map flatten ds) ->
  (forall y, In y (flat_map flatten ds) -> y < hnext h /\ tree_protected h y = false) -> (forall d, In d ds -> size d <= f) ->
  exists h' vs, mapM_ (fun i => deep_sort f i (node_key k) rv) (map root ds) h = (h', Ok tt) /\ ReachL h' /\ hnext h <= hnext h' /\
    (forall y, y < hnext h -> ~ In y (map root ds) -> view h' y = view h y) /\
    map root vs = map root ds /\ Forall (ltree (view h')) vs /\
    Forall2 (deep_sorted k rv) (map (tmap (content h)) ds) (map (tmap (content h')) vs) /\
    (forall y, In y (flat_map flatten vs) -> In y (map root ds) \/ hnext h <= y < hnext h').
Proof.
  intros SP. induction ds as [|d ds IH]; intros h R L ND P Sz.
  - exists h, []. split; [reflexivity|]. split; [exact R|]. split; [lia|]. split; [auto|]. split; [reflexivity|]. split; [constructor|]. split; [constructor|intros y []].
  - inversion L as [|? ? L1 L2]; subst. destruct (flat_nodup_app d ds ND) as (ND1 & ND2 & Dj).
    assert (Pd : forall y, In y (flatten d) -> y < hnext h /\ tree_protected h y = false) by (intros y Hy; apply P; cbn [flat_map]; apply in_or_app; auto).
    assert (Hr : root d < hnext h) by (apply Pd; rewrite flatten_cons; left; reflexivity).
    destruct (SP d h (root d) (Sz d (or_introl eq_refl)) R Hr (conj eq_refl L1) ltac:(intros y Hy; apply Pd; exact Hy)) as (h1 & V & E1 & R1 & N1 & Fr1 & Vr1 & [Er1 LV] & DS1 & Fresh1).
    assert (Keep : forall y, In y (flat_map flatten ds) -> view h1 y = view h y).
    { intros y Hy. apply Fr1; [apply P; cbn [flat_map]; apply in_or_app; auto|]. intros ->. apply (Dj (root d)); [rewrite flatten_cons; left; reflexivity|exact Hy]. }
    destruct (IH h1 R1) as (h2 & vs & E2 & R2 & N2 & Fr2 & Er2 & LV2 & DS2 & Fresh2).
    { rewrite Forall_forall in L2 |- *. intros e He. eapply ltree_frame; [|apply L2; exact He]. intros y Hy. rewrite Keep; [reflexivity|]. apply in_flat_map. exists e. auto. }
    { exact ND2. }
    { intros y Hy. destruct (P y) as [A B]; [cbn [flat_map]; apply in_or_app; auto|]. split; [lia|]. rewrite (prot_view h); [exact B|]. rewrite Keep by exact Hy. reflexivity. }
    { intros e He. apply Sz. right. exact He. }
    assert (Roots : forall y, In y (map root ds) -> In y (flat_map flatten ds)).
    { intros y Hy. apply in_map_iff in Hy as (e & <- & He). apply in_flat_map. exists e. split; [exact He|rewrite flatten_cons; left; reflexivity]. }
    assert (KeepV : forall y, In y (flatten V) -> view h2 y = view h1 y).
    { intros y Hy. assert (A : y < hnext h1) by (eapply ltree_lt; [apply (wf_forest _ (reach_WF h1 (ReachL_Reach h1 R1)))|exact LV|rewrite Er1; lia|exact Hy]).
      apply Fr2; [exact A|]. intros K. apply Roots in K. rewrite flatten_cons, Er1 in Hy. destruct Hy as [<-|Hy].
      - apply (Dj (root d)); [rewrite flatten_cons; left; reflexivity|exact K].
      - apply Fresh1 in Hy. destruct (P y) as [B _]; [cbn [flat_map]; apply in_or_app; auto|]. lia. }
    exists h2, (V :: vs). split; [cbn [map mapM_]; rewrite (bind_ok _ _ _ _ _ E1); exact E2|]. split; [exact R2|]. split; [lia|]. split; [|split; [|split; [|split]]].
    + intros y Hy K. cbn [map] in K. rewrite Fr2; [apply Fr1; [exact Hy|]|lia|]; intros Q; apply K; [left; congruence|right; exact Q].
    + cbn [map]. rewrite Er1, Er2. reflexivity.
    + constructor; [|exact LV2]. eapply ltree_frame; [|exact LV]. intros y Hy. rewrite KeepV by exact Hy. reflexivity.
    + cbn [map]. constructor.
      * assert (Q : tmap (content h2) V = tmap (content h1) V). { apply tmap_ext. intros y Hy. unfold content, tag_of. rewrite KeepV by exact Hy. reflexivity. }
        rewrite Q. exact DS1.
      * assert (Q : map (tmap (content h1)) ds = map (tmap (content h)) ds).
        { apply map_ext_in. intros e He. apply tmap_ext. intros y Hy. unfold content, tag_of. rewrite Keep; [reflexivity|]. apply in_flat_map. exists e. auto. }
        rewrite <- Q. exact DS2.
    + intros y Hy. cbn [flat_map] in Hy. apply in_app_iff in Hy as [Hy|Hy].
      * rewrite flatten_cons, Er1 in Hy. destruct Hy as [<-|Hy]; [left; left; reflexivity|]. right. split; [apply Fresh1; exact Hy|].
        assert (A : y < hnext h1) by (eapply ltree_lt; [apply (wf_forest _ (reach_WF h1 (ReachL_Reach h1 R1)))|exact LV|rewrite Er1; lia|rewrite flatten_cons; right; exact Hy]). lia.
      * destruct (Fresh2 y Hy) as [Q|Q]; [left; right; exact Q|right; lia].
Qed.
Lemma copies_content h h' n n' : flags_masked h -> forall ks cs, Forall (ltree (view h)) ks -> Forall2 (copy_of (view h) (view h') n n') (map root ks) cs ->
  exists ds, map root ds = cs /\ Forall (ltree (view h')) ds /\ map (tmap (content h')) ds = map (tmap (content h)) ks /\ (forall y, In y (flat_map flatten ds) -> n <= y < n').
Proof.
  intros FM. induction ks as [|t ks IH]; intros cs L F; cbn [map] in F; inversion F as [|? c ? cs0 F1 F2]; subst.
  - exists []. split; [reflexivity|]. split; [constructor|]. split; [reflexivity|intros y []].
  - inversion L as [|? ? L1 L2]; subst. destruct (copy_content h h' n n' (root t) c t FM F1 (conj eq_refl L1)) as (T' & [E' L'] & C' & Rg).
    destruct (IH cs0 L2 F2) as (ds & Ed & Ld & Cd & Rd). exists (T' :: ds). split; [cbn; congruence|]. split; [constructor; assumption|]. split; [cbn; congruence|].
    intros y Hy. cbn [flat_map] in Hy. apply in_app_iff in Hy as [Hy|Hy]; auto.
Qed.
Lemma size_in {A} (d : tree A) cs : In d cs -> size d <= list_sum (map size cs).
Proof. intros Hd. induction cs as [|c l IH]; [destruct Hd|]. change (size d <= size c + list_sum (map size l)). destruct Hd as [->|Hd]; [lia|]. specialize (IH Hd). lia. Qed.
Lemma sort_next h p key rv h' : WF h -> p < hnext h -> tree_protected h p = false -> children h p = [] -> sort p key rv h = (h', Ok tt) -> hnext h <= hnext h'.
Proof.
  intros W Hp Hpr Hn. unfold sort. rewrite (bind_ok _ _ _ _ _ (pure_ok _ _ _ (check_order_pure p h) (check_order_unprot p h Hpr))), bind_gets. cbv zeta.
  change (nitems (hnode h p)) with (children h p). rewrite Hn.
  rewrite (bind_ok (clear_items p) _ h (hclear h p) tt eq_refl). unfold extend.
  assert (Hpr1 : tree_protected (hclear h p) p = false).
  { rewrite (prot_view h); [assumption|]. rewrite (hclear_view h p p). unfold reorder. rewrite Nat.eqb_refl. reflexivity. }
  rewrite (bind_ok _ _ _ _ _ (check_extend_unprot p _ _ Hpr1)).
  destruct (iter_extend_ok (hclear h p) p [] (hclear_WF h p W Hp) Hp) as (h1 & r & E & _ & N & _); [constructor|constructor|].
  intros Q. change (sort_list (sort_key h key rv) []) with (@nil loc) in Q. cbn [map] in Q. rewrite E in Q. injection Q as <- _. exact N.
Qed.
Lemma sort_all k rv : forall f, sort_spec k rv f.
Proof.
  induction f as [|f IH]; intros T h x Sz R Hx TA P; [destruct T; cbn in Sz; lia|].
  pose proof (ReachL_Reach h R) as R0. pose proof (reach_flags h R0) as FM. destruct TA as [E L]. destruct T as [a cs]. cbn [root] in E. subst a.
  pose proof L as L0. apply ltree_iff in L as [Ek L]. change (a_children (view h x)) with (children h x) in Ek.
  assert (Hp : tree_protected h x = false) by (apply P; left; reflexivity).
  destruct (C19_sort_partial h x (node_key k) rv R Hx Hp) as (h1 & ys & cc & E1 & Pm & SS & St & Vx & F2 & Fr1 & _).
  assert (R1 : ReachL h1). { assert (Q : h1 = after (OSort x (node_key k) rv) h) by (unfold after; cbn [run]; rewrite E1; reflexivity). rewrite Q. apply ReachL_step; [exact R|exact Hx|reflexivity]. }
  rewrite <- Ek in Pm. destruct (Permutation_map_inv root cs (Permutation_sym Pm)) as (ks & -> & Pk).
  assert (Lk : Forall (ltree (view h)) ks) by (rewrite Forall_forall in L |- *; intros t Ht; apply L; eapply Permutation_in; [apply Permutation_sym; exact Pk|exact Ht]).
  destruct (copies_content h h1 (hnext h) (hnext h1) FM ks cc Lk F2) as (ds & Ed & Ld & Cd & Rg).
  assert (N1 : hnext h <= hnext h1).
  { destruct ds as [|d ds].
    - destruct cs as [|c0 cs0].
      + eapply sort_next; [apply (reach_WF h R0)|exact Hx|exact Hp| |exact E1]. rewrite <- Ek. reflexivity.
      + apply Permutation_length in Pk. rewrite <- (map_length (tmap (content h)) ks), <- Cd in Pk. discriminate.
    - assert (hnext h <= root d < hnext h1) by (apply Rg; cbn [flat_map]; rewrite flatten_cons; left; reflexivity). lia. }
  assert (Cx : children h1 x = map root ds) by (unfold children; rewrite Vx, Ed; reflexivity).
  assert (Lx1 : ltree (view h1) (Node x ds)) by (apply ltree_iff; split; [symmetry; exact Cx|exact Ld]).
  assert (ND : NoDup (flatten (Node x ds))) by (eapply (tree_ND h1 x); [apply ReachL_Reach; exact R1|split; [reflexivity|exact Lx1]]).
  change (NoDup (x :: flat_map flatten ds)) in ND. apply NoDup_cons_iff in ND as [_ ND].
  assert (Prot1 : forall y, In y (flat_map flatten ds) -> tree_protected h1 y = false).
  { intros y Hy. apply in_flat_map in Hy as (d & Hd & Hy).
    assert (Q : In (content h1 y) (flat_map flatten (map (tmap (content h1)) ds))).
    { apply in_flat_map. exists (tmap (content h1) d). split; [apply in_map; exact Hd|]. rewrite flatten_tmap. apply in_map. exact Hy. }
    rewrite Cd in Q. apply in_flat_map in Q as (u & Hu & Q). apply in_map_iff in Hu as (t & <- & Ht). rewrite flatten_tmap in Q. apply in_map_iff in Q as (z & Q & Hz).
    assert (Pz : tree_protected h z = false).
    { apply P. cbn [flatten]. right. apply in_flat_map. exists t. split; [eapply Permutation_in; [apply Permutation_sym; exact Pk|exact Ht]|exact Hz]. }
    injection Q as _ _ Q. rewrite <- Pz. unfold tree_protected. cbn in Q. rewrite Q. reflexivity. }
  destruct (sort_list_step k rv f IH ds h1 R1 Ld ND) as (h2 & vs & E2 & R2 & N2 & Fr2 & Er2 & LV & DS & Fresh).
  { intros y Hy. split; [apply Rg; exact Hy|apply Prot1; exact Hy]. }
  { intros d Hd. assert (Q : In (tmap (content h1) d) (map (tmap (content h)) ks)) by (rewrite <- Cd; apply in_map; exact Hd).
    apply in_map_iff in Q as (t & Q & Ht). apply (f_equal size) in Q. rewrite !size_tmap in Q. rewrite <- Q.
    assert (Ht' : In t cs) by (eapply Permutation_in; [apply Permutation_sym; exact Pk|exact Ht]). pose proof (size_in t cs Ht').
    cbn [size] in Sz. lia. }
  assert (Old : forall y, y < hnext h -> ~ In y (map root ds)).
  { intros y Hy K. apply in_map_iff in K as (d & <- & Hd). assert (hnext h <= root d < hnext h1); [|lia]. apply Rg. apply in_flat_map. exists d. split; [exact Hd|rewrite flatten_cons; left; reflexivity]. }
  assert (Vx2 : view h2 x = view h1 x) by (apply Fr2; [lia|apply Old; exact Hx]).
  exists h2, (Node x vs). split; [|split; [exact R2|split; [lia|split; [|split; [|split; [|split]]]]]].
  - cbn [deep_sort]. rewrite (bind_ok _ _ _ _ _ (pure_ok _ _ _ (check_order_pure x h) (check_order_unprot x h Hp))). rewrite (bind_ok _ _ _ _ _ E1), bind_gets.
    change (nitems (hnode h1 x)) with (children h1 x). rewrite Cx. exact E2.
  - intros y Hy Ne. rewrite Fr2; [apply Fr1; assumption|lia|apply Old; exact Hy].
  - unfold children. rewrite Vx2, Vx. reflexivity.
  - split; [reflexivity|]. apply ltree_iff. split; [|exact LV]. rewrite Vx2. change (a_children (view h1 x)) with (children h1 x). rewrite Cx. exact Er2.
  - cbn [tmap]. assert (Q : content h2 x = content h x) by (unfold content, tag_of; rewrite Vx2, Vx; reflexivity). rewrite Q.
    apply (sorted_level k rv h x cs ks L Pk SS).
    + intros c. rewrite St, Ek. reflexivity.
    + rewrite <- Cd. exact DS.
  - intros y Hy. change (In y (flat_map flatten vs)) in Hy. destruct (Fresh y Hy) as [K|K]; [|lia].
    apply in_map_iff in K as (d & <- & Hd). apply Rg. apply in_flat_map. exists d. split; [exact Hd|rewrite flatten_cons; left; reflexivity].
Qed.
Theorem C75_sort_partial : forall h p T k rv fuel, ReachL h -> p < hnext h -> tree_at h p T -> size T <= fuel ->
  (forall y, In y (flatten T) -> tree_protected h y = false) ->
  exists h' T', deep_sort fuel p (node_key k) rv h = (h', Ok tt) /\ ReachL h' /\ tree_at h' p T' /\
    deep_sorted k rv (tmap (content h) T) (tmap (content h') T') /\
    (forall y, y < hnext h -> y <> p -> view h' y = view h y) /\ parent_of h' p = parent_of h p.
Proof.
  intros h p T k rv fuel R Hp TA Sz P. destruct (sort_all k rv fuel T h p Sz R Hp TA P) as (h' & T' & E & R' & _ & Fr & Vp & TA' & DS & _).
  exists h', T'. split; [exact E|]. split; [exact R'|]. split; [exact TA'|]. split; [exact DS|]. split; [exact Fr|]. unfold parent_of. rewrite Vp. reflexivity.
Qed.
(** the specification determines the result, and a sorted tree is its own result *)
Lemma sorted_unique {A} (key : A -> Z) (rv : bool) (Q := fun a b => if rv then (key b <= key a)%Z else (key a <= key b)%Z) : forall l1 l2,
  StronglySorted Q l1 -> StronglySorted Q l2 -> (forall z, filter (fun t => (key t =? z)%Z) l1 = filter (fun t => (key t =? z)%Z) l2) -> l1 = l2.
Proof.
  assert (Mem : forall l1 l2, (forall z, filter (fun t => (key t =? z)%Z) l1 = filter (fun t => (key t =? z)%Z) l2) -> forall a, In a l1 -> In a l2).
  { intros l1 l2 H a Ha. assert (K : In a (filter (fun t => (key t =? key a)%Z) l1)) by (apply filter_In; split; [exact Ha|apply Z.eqb_refl]).
    rewrite H in K. apply filter_In in K. apply K. }
  induction l1 as [|a l1 IH]; intros [|b l2] S1 S2 H.
  - reflexivity.
  - exfalso. apply (Mem (b :: l2) [] (fun z => eq_sym (H z)) b). left. reflexivity.
  - exfalso. apply (Mem (a :: l1) [] H a). left. reflexivity.
  - inversion S1 as [|? ? S1' F1]; subst. inversion S2 as [|? ? S2' F2]; subst. rewrite Forall_forall in F1, F2.
    assert (K1 : key a = key b \/ Q b a). { destruct (Mem (a :: l1) (b :: l2) H a (or_introl eq_refl)) as [->|K]; [left; reflexivity|right; auto]. }
    assert (K2 : key a = key b \/ Q a b). { destruct (Mem (b :: l2) (a :: l1) (fun z => eq_sym (H z)) b (or_introl eq_refl)) as [->|K]; [left; reflexivity|right; auto]. }
    assert (K : key a = key b) by (unfold Q in *; destruct rv; lia).
    pose proof (H (key a)) as E. cbn [filter] in E. rewrite Z.eqb_refl, K, Z.eqb_refl in E. injection E as -> _.
    f_equal. apply IH; [exact S1'|exact S2'|]. intros z. specialize (H z). cbn [filter] in H. destruct (key b =? z)%Z; [injection H as H|]; exact H.
Qed.
Lemma deep_sorted_unique k rv : forall T A B, deep_sorted k rv T A -> deep_sorted k rv T B -> A = B.
Proof.
  induction T as [c ts IH] using tree_ind'. intros A B HA HB. inversion HA as [c1 t1 us vs P1 S1 F1 D1]; subst. inversion HB as [c2 t2 us' vs' P2 S2 F2 D2]; subst.
  assert (us = us'). { apply (sorted_unique (skey k) rv); [exact S1|exact S2|]. intros z. rewrite F1, F2. reflexivity. } subst us'.
  f_equal. assert (In' : forall u, In u us -> In u ts) by (intros u; apply Permutation_in, Permutation_sym; exact P1). clear - IH D1 D2 In'. rewrite Forall_forall in IH.
  revert vs' D2. induction D1 as [|u v us vs Hd D IHd]; intros vs' D2; inversion D2; subst; [reflexivity|]. f_equal.
  - eapply IH; eauto. apply In'. left. reflexivity.
  - apply IHd; auto. intros w Hw. apply In'. right. exact Hw.
Qed.
Lemma deep_sorted_skey k rv A B : deep_sorted k rv A B -> skey k A = skey k B.
Proof. intros [c ts us vs P _ _ D]. cbn [skey]. assert (N : length us = length vs) by (clear -D; induction D; cbn; congruence). rewrite (Permutation_length P), N. reflexivity. Qed.
Lemma deep_sorted_again k rv : forall T A, deep_sorted k rv T A -> deep_sorted k rv A A.
Proof.
  induction T as [c ts IH] using tree_ind'. intros A HA. inversion HA as [c1 t1 us vs P S F D]; subst.
  assert (In' : forall u, In u us -> In u ts) by (intros u; apply Permutation_in, Permutation_sym; exact P). rewrite Forall_forall in IH.
  apply ds_node with (us := vs); [apply Permutation_refl| |reflexivity|].
  - clear - S D. revert vs D. induction S as [|u us S IHs Fu]; intros vs D; inversion D as [|? v ? vs' Hd Hr]; subst; constructor; [apply IHs; exact Hr|].
    rewrite Forall_forall in Fu |- *. intros w Hw. destruct (in_split _ _ Hw) as (w1 & w2 & Ew). rewrite Ew in Hr. apply Forall2_app_inv_r in Hr as (u1 & u2 & _ & Hr & Eu).
    inversion Hr as [|u0 ? u3 ? Hd0 _]; subst. specialize (Fu u0). unfold sle in *. rewrite <- (deep_sorted_skey _ _ _ _ Hd), <- (deep_sorted_skey _ _ _ _ Hd0). apply Fu, in_or_app. right. left. reflexivity.
  - clear - IH D In'. induction D as [|u v us vs Hd D IHd]; constructor; [eapply IH; eauto; apply In'; left; reflexivity|]. apply IHd. intros w Hw. apply In'. right. exact Hw.
Qed.
(** the same items are there, wherever they moved *)
Lemma deep_sorted_perm k rv : forall T A, deep_sorted k rv T A -> Permutation (flatten T) (flatten A).
Proof.
  induction T as [c ts IH] using tree_ind'. intros A HA. inversion HA as [c1 t1 us vs P S F D]; subst.
  change (Permutation (c :: flat_map flatten ts) (c :: flat_map flatten vs)). constructor.
  eapply perm_trans; [apply Permutation_flat_map; exact P|]. assert (In' : forall u, In u us -> In u ts) by (intros u; apply Permutation_in, Permutation_sym; exact P). rewrite Forall_forall in IH.
  clear - IH D In'. induction D as [|u v us vs Hd D IHd]; [constructor|]. cbn [flat_map]. apply Permutation_app; [apply IH; [apply In'; left; reflexivity|exact Hd]|].
  apply IHd. intros w Hw. apply In'. right. exact Hw.
Qed.
Lemma tmap_size_eq {A B C} (f : A -> C) (g : B -> C) T U : Permutation (flatten (tmap f T)) (flatten (tmap g U)) -> size T = size U.
Proof. intros P. apply Permutation_length in P. rewrite !flatten_tmap, !map_length, !flatten_length in P. exact P. Qed.
(** sorting twice is sorting once *)
Theorem C75_sort_twice_partial : forall h p T k rv fuel, ReachL h -> p < hnext h -> tree_at h p T -> size T <= fuel ->
  (forall y, In y (flatten T) -> tree_protected h y = false) ->
  exists h1 h2 T1 T2, deep_sort fuel p (node_key k) rv h = (h1, Ok tt) /\ deep_sort fuel p (node_key k) rv h1 = (h2, Ok tt) /\
    tree_at h1 p T1 /\ tree_at h2 p T2 /\ tmap (content h2) T2 = tmap (content h1) T1 /\
    Permutation (map (content h) (flatten T)) (map (content h1) (flatten T1)).
Proof.
  intros h p T k rv fuel R Hp TA Sz P. destruct (sort_all k rv fuel T h p Sz R Hp TA P) as (h1 & T1 & E1 & R1 & N1 & _ & _ & TA1 & DS1 & _).
  pose proof (deep_sorted_perm _ _ _ _ DS1) as Pm.
  destruct (sort_all k rv fuel T1 h1 p) as (h2 & T2 & E2 & R2 & N2 & _ & _ & TA2 & DS2 & _).
  - rewrite <- (tmap_size_eq _ _ _ _ Pm). exact Sz.
  - exact R1.
  - lia.
  - exact TA1.
  - intros y Hy. rewrite !flatten_tmap in Pm. assert (Q : In (content h1 y) (map (content h) (flatten T))) by (eapply Permutation_in; [apply Permutation_sym; exact Pm|apply in_map; exact Hy]).
    apply in_map_iff in Q as (z & Q & Hz). injection Q as _ _ Q. rewrite <- (P z Hz). unfold tree_protected. cbn in Q. rewrite Q. reflexivity.
  - exists h1, h2, T1, T2. split; [exact E1|]. split; [exact E2|]. split; [exact TA1|]. split; [exact TA2|]. rewrite !flatten_tmap in Pm. split; [|exact Pm].
    eapply deep_sorted_unique; [exact DS2|eapply deep_sorted_again; exact DS1].
Qed.
(** a protected item refuses ... *)
Theorem C75_sort_protected : forall h p fuel key rv, tree_protected h p = true -> is_link_root h p = false ->
  deep_sort (S fuel) p key rv h = (h, Err PermissionError).
Proof. intros h p fuel key rv H L. cbn [deep_sort]. unfold check_order, bind, gets. rewrite H, L. reflexivity. Qed.
(** ... but a protected item further down stops the operation half way, and the items that were
    in the tree are replaced by copies: they are no longer children of their parent *)
Definition by_tag : key_fun := fun t _ _ _ => match t with PStr s => if String.eqb s "a" then 0%Z else 1%Z | _ => 2%Z end.
Definition half_sort : list op :=
  [ONew (PStr "r") PNoValue [EArgs (PStr "b") (PInt 1); EArgs (PStr "a") (PInt 2)] None 0; OSetTreeReadOnly 1].
Theorem C75_sort_refuted : let h := runs half_sort empty_heap in let h' := fst (deep_sort 9 0 (node_key (Some by_tag)) false h) in
  ReachL h /\ children h 0 = [1; 2] /\ tree_protected h 0 = false /\ snd (deep_sort 9 0 (node_key (Some by_tag)) false h) = Err PermissionError /\
  map (tag_of h) (children h 0) = [PStr "b"; PStr "a"] /\ map (tag_of h') (children h' 0) = [PStr "a"; PStr "b"] /\ children h' 0 = [3; 4] /\ parent_of h' 1 = Some 0.
Proof. cbv zeta. split; [apply reachL_runs; [constructor|vm_compute; reflexivity|reflexivity]|]. vm_compute. auto 9. Qed.
Lemma ex2L : ReachL ex2.
Proof. apply reachL_runs; [constructor|vm_compute; reflexivity|reflexivity]. Qed.
Lemma C75_case1 : size ex2_tree <= 9 /\ forallb (fun y => negb (tree_protected ex2 y)) (flatten ex2_tree) = true /\ (0 <? hnext ex2 = true) /\
  map (fun y => length (children ex2 y)) (children ex2 0) = [2; 1].
Proof. split; [vm_compute; lia|]. vm_compute. auto. Qed.
Lemma C75_case2 : map (fun y => length (children (fst (deep_sort 9 0 (node_key None) false ex2)) y)) (children (fst (deep_sort 9 0 (node_key None) false ex2)) 0) = [1; 2].
Proof. vm_compute. reflexivity. Qed.
Example C75_case : ReachL ex2 /\ 0 < hnext ex2 /\ tree_at ex2 0 ex2_tree /\ size ex2_tree <= 9 /\ (forall y, In y (flatten ex2_tree) -> tree_protected ex2 y = false) /\
  map (fun y => length (children ex2 y)) (children ex2 0) = [2; 1] /\
  map (fun y => length (children (fst (deep_sort 9 0 (node_key None) false ex2)) y)) (children (fst (deep_sort 9 0 (node_key None) false ex2)) 0) = [1; 2].
Proof.
  destruct C75_case1 as (A & B & C & D). split; [exact ex2L|]. split; [apply Nat.ltb_lt; exact C|]. split; [exact ex2_tree_at|]. split; [exact A|]. split; [|split; [exact D|exact C75_case2]].
  intros y Hy. rewrite forallb_forall in B. specialize (B y Hy). apply negb_true_iff in B. exact B.
Qed.
