(** What the items built from a tree of rows look like. *)
From Verif Require Import Base Heap HeapSpec ListLemmas ForestLemmas HeapInv HeapAttach HeapHoare Tree HeapTree HeapCopy HeapMut
  HeapExt HeapExt2 HeapOrd HeapHist History HeapRead Runs PropsA PropsB PropsF Deep JsonModel SerModel SerNew SerLoad.
Import ListNotations.
Open Scope list_scope.

Definition args_label (a : rowargs) : xlabel := XL (ra_tag a) (ra_val a) (new_flags (ra_flags a) (ra_link a)) (ra_link a).
Definition or_flags (F : Z) (l : xlabel) : xlabel := XL (x_tag l) (x_val l) (Z.lor (x_flags l) F) (x_src l).
(** every item gets the flags LOAD_LINKS / READ_ONLY_TREE of the items above it *)
Fixpoint inherit (F : Z) (L : tree xlabel) : tree xlabel :=
  match L with Node l cs => Node (or_flags F l) (map (inherit (Z.lor F (Z.land (x_flags l) DEEP_FLAG_MASK))) cs) end.

Lemma inherit_or F L : forall G, tmap (or_flags F) (inherit G L) = inherit (Z.lor G F) L.
Proof.
  induction L as [l cs IH] using tree_ind'. intros G. cbn [inherit tmap]. f_equal.
  - unfold or_flags. cbn [x_tag x_val x_flags x_src]. rewrite <- Z.lor_assoc. reflexivity.
  - rewrite map_map. apply map_ext_in. intros c Hc. rewrite Forall_forall in IH. rewrite (IH c Hc). f_equal.
    rewrite <- !Z.lor_assoc. f_equal. apply Z.lor_comm.
Qed.

Definition arg_good (a : rowargs) : Prop := hashable (ra_tag a) = true /\ (ra_link a <> None -> has (ra_flags a) LOAD_LINKS = false).

Lemma make_run r a xs h : row_args r = Ok a -> arg_good a ->
  make r xs h = new_tree (ra_tag a) (ra_val a) (map EItem xs) (ra_link a) (ra_flags a) h.
Proof.
  intros E [_ G]. unfold make, lift. unfold bind at 1. rewrite E. destruct (ra_link a) as [s|]; [|reflexivity].
  rewrite G by discriminate. reflexivity.
Qed.

Definition built (h0 h : heap) (A : tree rowargs) (x : loc) : Prop :=
  exists T, ltree (view h) T /\ root T = x /\ tmap (label (view h)) T = inherit 0 (tmap args_label A) /\
    (forall y, In y (flatten T) -> hnext h0 <= y < hnext h) /\ a_parent (view h x) = None.

Definition grows (h h' : heap) : Prop := hnext h <= hnext h' /\ forall y, y < hnext h -> view h' y = view h y.
Lemma grows_refl h : grows h h. Proof. split; auto. Qed.
Lemma grows_trans a b c : grows a b -> grows b c -> grows a c.
Proof. intros [A1 A2] [B1 B2]. split; [lia|]. intros y Hy. rewrite B2, A2 by lia. reflexivity. Qed.
Lemma built_grows h0 h h' A x : grows h h' -> built h0 h A x -> built h0 h' A x.
Proof.
  intros [N V] (T & HT & Er & L & R & P). exists T.
  assert (Q : forall y, In y (flatten T) -> view h' y = view h y) by (intros y Hy; apply V; apply R; exact Hy).
  split; [eapply ltree_frame; [|exact HT]; intros y Hy; rewrite Q by assumption; reflexivity|]. split; [exact Er|]. split.
  - rewrite <- L. apply tmap_ext. intros y Hy. unfold label. rewrite Q by assumption. reflexivity.
  - split; [intros y Hy; specialize (R y Hy); lia|]. rewrite Q; [exact P|]. rewrite <- Er. destruct T; left; reflexivity.
Qed.
Lemma built_lt h0 h A x : built h0 h A x -> hnext h0 <= x < hnext h.
Proof. intros (T & _ & Er & _ & R & _). apply R. rewrite <- Er. destruct T; left; reflexivity. Qed.
Lemma built_base h0 h1 h A x : hnext h0 <= hnext h1 -> built h1 h A x -> built h0 h A x.
Proof. intros N (T & HT & Er & L & R & P). exists T. repeat (split; [assumption|]). split; [|assumption]. intros y Hy. specialize (R y Hy). lia. Qed.

Lemma deep_new fl lk : deep_flags fl = Z.land (new_flags fl lk) DEEP_FLAG_MASK.
Proof. unfold deep_flags, new_flags. destruct lk; [|reflexivity]. rewrite Z.land_lor_distr_l. change (Z.land LINK_ROOT DEEP_FLAG_MASK) with 0%Z. rewrite Z.lor_0_r. reflexivity. Qed.

(** one item with already built children *)
Lemma new_node h0 h a As xs : Reach h -> hashable (ra_tag a) = true -> hnext h0 <= hnext h ->
  Forall2 (built h0 h) As xs -> NoDup xs ->
  exists h', new_tree (ra_tag a) (ra_val a) (map EItem xs) (ra_link a) (ra_flags a) h = (h', Ok (hnext h)) /\ Reach h' /\ hnext h <= hnext h' /\
    (forall y, y < hnext h0 -> view h' y = view h y) /\ built h0 h' (Node a As) (hnext h).
Proof.
  intros R G N0 HB ND. pose proof (reach_WF h R) as W.
  assert (HT : exists Ts, map root Ts = xs /\ Forall2 (fun A T => ltree (view h) T /\ tmap (label (view h)) T = inherit 0 (tmap args_label A) /\
       (forall y, In y (flatten T) -> hnext h0 <= y < hnext h) /\ a_parent (view h (root T)) = None) As Ts).
  { clear ND. induction HB as [|A x As xs (T & B1 & B2 & B3 & B4 & B5) _ (Ts & C1 & C2)]; [exists []; split; constructor|].
    exists (T :: Ts). cbn. rewrite C1, B2. split; [reflexivity|]. constructor; [|exact C2]. rewrite B2. auto. }
  destruct HT as (Ts & <- & HT).
  assert (HF : Forall (fun T => ltree (view h) T /\ root T < hnext h /\ a_parent (view h (root T)) = None) Ts).
  { clear - HT. induction HT as [|A T As Ts (B1 & B2 & B3 & B4) _ IH]; constructor; [|exact IH]. split; [exact B1|]. split; [|exact B4]. apply B3. destruct T; left; reflexivity. }
  destruct (new_tree_free h (ra_tag a) (ra_val a) (ra_link a) (ra_flags a) Ts W G HF ND) as (h' & E & N' & Vn & Vo).
  exists h'. split; [exact E|]. split; [|split; [lia|]].
  { apply (reach_after h (ONew (ra_tag a) (ra_val a) (map EItem (map root Ts)) (ra_link a) (ra_flags a)) h' (Ok tt)); [exact R| |].
    - cbn. apply Forall_forall. intros e He. apply in_map_iff in He as (x & <- & Hx). apply in_map_iff in Hx as (T & <- & HT').
      rewrite Forall_forall in HF. apply (HF T HT').
    - cbn [run]. unfold void. rewrite (bind_ok _ _ _ _ _ E). reflexivity. }
  assert (Rng : forall y, In y (flat_map flatten Ts) -> hnext h0 <= y < hnext h).
  { intros y Hy. apply in_flat_map in Hy as (T & HT' & Hy). clear - HT HT' Hy. induction HT as [|A U As Us (B1 & B2 & B3 & B4) _ IH]; [destruct HT'|].
    destruct HT' as [->|HT']; [apply B3; exact Hy|apply IH; exact HT']. }
  assert (Old : forall y, y < hnext h0 -> view h' y = view h y).
  { intros y Hy. rewrite Vo by lia. unfold mix.
    assert (M1 : mem y (map root Ts) = false).
    { apply mem_false. intros K. apply in_map_iff in K as (T & Er & HT'). assert (hnext h0 <= y); [|lia]. apply Rng. apply in_flat_map. exists T. split; [exact HT'|]. rewrite <- Er. destruct T; left; reflexivity. }
    assert (M2 : mem y (flat_map flatten Ts) = false) by (apply mem_false; intros K; apply Rng in K; lia).
    rewrite M1, M2. reflexivity. }
  split; [exact Old|].
  exists (Node (hnext h) Ts). split.
  { apply ltree_iff. split; [rewrite Vn; reflexivity|]. rewrite Forall_forall in *. intros T HT'. destruct (HF T HT') as (B1 & B2 & _).
    eapply ltree_frame; [|exact B1]. intros y Hy.
    assert (y < hnext h) by (apply Rng; apply in_flat_map; eauto). rewrite Vo by assumption. rewrite mix_children. reflexivity. }
  split; [reflexivity|]. split.
  { cbn [tmap inherit]. f_equal.
    - unfold label, args_label, or_flags. rewrite Vn. cbn [a_tag a_val a_flags a_link x_tag x_val x_flags x_src]. rewrite Z.lor_0_r. destruct (ra_link a); reflexivity.
    - cbn [args_label x_flags]. rewrite <- (deep_new (ra_flags a) (ra_link a)). cbn [Z.lor]. rewrite map_map.
      assert (Mix : forall T, In T Ts -> tmap (label (view h')) T = tmap (or_flags (deep_flags (ra_flags a))) (tmap (label (view h)) T)).
      { intros T HT'. rewrite tmap_tmap. apply tmap_ext. intros y Hy. assert (Iy : In y (flat_map flatten Ts)) by (apply in_flat_map; eauto).
        unfold label. rewrite Vo by (apply Rng; exact Iy). unfold mix. apply mem_in in Iy. rewrite Iy. destruct (mem y (map root Ts)); reflexivity. }
      clear - HT Mix. induction HT as [|A T As Ts (B1 & B2 & B3 & B4) _ IH]; [reflexivity|]. cbn [map]. f_equal.
      + rewrite (Mix T) by (left; reflexivity). rewrite B2. rewrite inherit_or. reflexivity.
      + apply IH. intros U HU. apply Mix. right. exact HU. }
  split.
  - intros y [<-|Hy]; [lia|]. apply Rng in Hy. lia.
  - rewrite Vn. reflexivity.
Qed.

Lemma make_node h0 h r a As xs : Reach h -> row_args r = Ok a -> arg_good a -> hnext h0 <= hnext h ->
  Forall2 (built h0 h) As xs -> NoDup xs ->
  exists h', make r xs h = (h', Ok (hnext h)) /\ Reach h' /\ hnext h <= hnext h' /\
    (forall y, y < hnext h0 -> view h' y = view h y) /\ built h0 h' (Node a As) (hnext h).
Proof. intros R Ea G N0 HB ND. rewrite (make_run r a _ h Ea G). apply new_node; try assumption. apply (proj1 G). Qed.

(** entries *)
Definition ent_ok (h0 h : heap) (R : tree row) (A : tree rowargs) (e : entry) : Prop :=
  match e with
  | ERaw r => R = Node r [] /\ kids A = [] /\ row_args r = Ok (root A) /\ arg_good (root A)
  | EDone x => built h0 h A x
  end.
Definition dones (es : list entry) : list loc := flat_map (fun e => match e with EDone x => [x] | ERaw _ => [] end) es.

Inductive rows_good : tree row -> tree rowargs -> Prop :=
| rg r cs a As : row_args r = Ok a -> arg_good a -> Forall2 rows_good cs As -> rows_good (Node r cs) (Node a As).


(** the leaves among the entries are constructed *)
Lemma builds h0 : forall es Rs As h, Reach h -> hnext h0 <= hnext h ->
  length Rs = length es -> length As = length es ->
  (forall i R A e, nth_error Rs i = Some R -> nth_error As i = Some A -> nth_error es i = Some e -> ent_ok h0 h R A e) ->
  NoDup (dones es) -> (forall x, In x (dones es) -> x < hnext h) ->
  exists h' xs, mapM build es h = (h', Ok xs) /\ Reach h' /\ grows h h' /\ Forall2 (built h0 h') As xs /\ NoDup xs /\
    forall x, In x xs -> In x (dones es) \/ hnext h <= x < hnext h'.
Proof.
  induction es as [|e es IH]; intros Rs As h R N0 LR LA HE ND HD.
  - destruct As; [|discriminate]. exists h, []. split; [reflexivity|]. split; [exact R|]. split; [apply grows_refl|]. split; [constructor|]. split; [constructor|]. intros x [].
  - destruct Rs as [|Ra Rs]; [discriminate|]. destruct As as [|A As]; [discriminate|]. cbn [length] in LR, LA.
    pose proof (HE 0 Ra A e eq_refl eq_refl eq_refl) as He. cbn [mapM].
    assert (Step : exists h1 x, build e h = (h1, Ok x) /\ Reach h1 /\ grows h h1 /\ built h0 h1 A x /\ (In x (dones [e]) \/ hnext h <= x < hnext h1)).
    { destruct e as [r|x]; cbn [ent_ok build] in *.
      - destruct He as (ER & EA & Er & G). destruct A as [a Bs]. cbn in EA, Er, G. subst Bs.
        destruct (make_node h h r a [] [] R Er G (le_n _)) as (h1 & E1 & R1 & N1 & V1 & B1); [constructor|constructor|].
        exists h1, (hnext h). split; [exact E1|]. split; [exact R1|]. split; [split; [exact N1|exact V1]|]. split; [eapply built_base; [exact N0|exact B1]|].
        right. apply built_lt in B1. lia.
      - exists h, x. split; [reflexivity|]. split; [exact R|]. split; [apply grows_refl|]. split; [exact He|]. left. left. reflexivity. }
    destruct Step as (h1 & x & E1 & R1 & G1 & B1 & Hx).
    destruct (IH Rs As h1 R1) as (h2 & xs & E2 & R2 & G2 & F2 & N2 & X2).
    + destruct G1. lia.
    + lia.
    + lia.
    + intros i R' A' e' H1 H2 H3. specialize (HE (S i) R' A' e' H1 H2 H3). destruct e' as [r'|y]; cbn [ent_ok] in *; [exact HE|]. eapply built_grows; eassumption.
    + destruct e; cbn in ND; [exact ND|inversion ND; assumption].
    + intros y Hy. destruct G1. assert (y < hnext h); [|lia]. apply HD. destruct e; cbn; auto.
    + exists h2, (x :: xs). rewrite (bind_ok _ _ _ _ _ E1), (bind_ok _ _ _ _ _ E2). split; [reflexivity|]. split; [exact R2|]. split; [eapply grows_trans; eassumption|].
      split; [constructor; [eapply built_grows; eassumption|exact F2]|]. destruct G1 as [G1 G1'], G2 as [G2 G2']. split.
      * constructor; [|exact N2]. intros K. apply X2 in K. destruct Hx as [Hx|Hx].
        -- destruct e as [r|z]; cbn in Hx; [tauto|]. destruct Hx as [->|[]]. destruct K as [K|K].
           ++ cbn in ND. inversion ND; contradiction.
           ++ assert (x < hnext h) by (apply HD; left; reflexivity). lia.
        -- destruct K as [K|K]; [|lia]. assert (x < hnext h); [|lia]. apply HD. destruct e; cbn; auto.
      * intros y [<-|Hy].
        -- destruct Hx as [Hx|Hx]; [left|right; lia]. destruct e; cbn in Hx; [tauto|]. destruct Hx as [->|[]]. left. reflexivity.
        -- destruct (X2 y Hy) as [K|K]; [left; destruct e; cbn; auto|right; lia].
Qed.

Definition builds_entry (R : tree row) : Prop := forall A h, rows_good R A -> Reach h ->
  exists h' e, build_entry R h = (h', Ok e) /\ Reach h' /\ grows h h' /\ ent_ok h h' R A e /\ (kids R <> [] -> exists x, e = EDone x).

Lemma ent_grows h0 h h' R A e : grows h h' -> ent_ok h0 h R A e -> ent_ok h0 h' R A e.
Proof. destruct e as [r|x]; cbn [ent_ok]; [auto|]. apply built_grows. Qed.

Lemma entries_ok cs : Forall builds_entry cs -> forall As h, Forall2 rows_good cs As -> Reach h ->
  exists h' es, mapM build_entry cs h = (h', Ok es) /\ Reach h' /\ grows h h' /\ length es = length cs /\
    (forall i R A e, nth_error cs i = Some R -> nth_error As i = Some A -> nth_error es i = Some e -> ent_ok h h' R A e) /\
    NoDup (dones es) /\ (forall x, In x (dones es) -> hnext h <= x < hnext h').
Proof.
  induction 1 as [|R cs HR _ IH]; intros As h HG Rh.
  - exists h, []. split; [reflexivity|]. split; [exact Rh|]. split; [apply grows_refl|]. split; [reflexivity|]. split; [intros [|i] ? ? ? E; discriminate|]. split; [constructor|]. intros x [].
  - inversion HG as [|? A ? As' G1 G2]; subst. destruct (HR A h G1 Rh) as (h1 & e & E1 & R1 & Gr1 & K1 & _).
    destruct (IH As' h1 G2 R1) as (h2 & es & E2 & R2 & Gr2 & L2 & K2 & N2 & X2).
    exists h2, (e :: es). cbn [mapM]. rewrite (bind_ok _ _ _ _ _ E1), (bind_ok _ _ _ _ _ E2). split; [reflexivity|]. split; [exact R2|].
    split; [eapply grows_trans; eassumption|]. split; [cbn; lia|]. destruct Gr1 as [Gr1 Gr1'], Gr2 as [Gr2 Gr2']. split; [|split].
    + intros [|i] R' A' e'; cbn.
      * intros [= <-] [= <-] [= <-]. apply (ent_grows h h1); [split; assumption|exact K1].
      * intros H1 H2 H3. specialize (K2 i R' A' e' H1 H2 H3). destruct e' as [r'|y]; cbn [ent_ok] in *; [exact K2|]. eapply built_base; [exact Gr1|exact K2].
    + destruct e as [r|x]; cbn; [exact N2|]. constructor; [|exact N2]. intros K. apply X2 in K. apply built_lt in K1. lia.
    + intros x Hx. destruct e as [r|y]; cbn in Hx; [apply X2 in Hx; lia|]. destruct Hx as [<-|Hx]; [apply built_lt in K1; lia|apply X2 in Hx; lia].
Qed.

Lemma Forall2_len {A B} (P : A -> B -> Prop) l m : Forall2 P l m -> length l = length m.
Proof. induction 1; cbn; congruence. Qed.
Lemma builds_all R : builds_entry R.
Proof.
  induction R as [r cs IH] using tree_ind'. intros A h HG Rh. inversion HG as [? ? a As Ea G HF]; subst.
  destruct cs as [|c cs].
  - inversion HF; subst. exists h, (ERaw r). split; [reflexivity|]. split; [exact Rh|]. split; [apply grows_refl|]. split; [cbn; auto|]. cbn. tauto.
  - destruct (entries_ok (c :: cs) IH As h HF Rh) as (h1 & es & E1 & R1 & Gr1 & L1 & K1 & N1 & X1).
    destruct (builds h es (c :: cs) As h1 R1) as (h2 & xs & E2 & R2 & Gr2 & F2 & N2 & X2).
    + apply Gr1.
    + congruence.
    + apply Forall2_len in HF. congruence.
    + exact K1.
    + exact N1.
    + intros x Hx. apply X1 in Hx. lia.
    + destruct (make_node h h2 r a As xs R2 Ea G ltac:(destruct Gr1, Gr2; lia) F2 N2) as (h3 & E3 & R3 & N3 & V3 & B3).
      exists h3, (EDone (hnext h2)). rewrite build_entry_node. rewrite (bind_ok _ _ _ _ _ E1), (bind_ok _ _ _ _ _ E2), (bind_ok _ _ _ _ _ E3).
      split; [reflexivity|]. split; [exact R3|]. split.
      * destruct Gr1 as [A1 A2], Gr2 as [B1 B2]. split; [lia|]. intros y Hy. rewrite V3, B2, A2 by lia. reflexivity.
      * split; [exact B3|]. intros _. eauto.
Qed.

Theorem create_built R A h : at_depth 0 R -> rows_good R A -> kids R <> [] -> Reach h ->
  exists h' x, create_from_raw (flatten R) h = (h', Ok x) /\ Reach h' /\ grows h h' /\ built h h' A x.
Proof.
  intros D G K Rh. destruct (builds_all R A h G Rh) as (h' & e & E & R' & Gr & B & X). destruct (X K) as (x & ->).
  exists h', x. rewrite create_rows by exact D. rewrite (bind_ok _ _ _ _ _ E). auto.
Qed.
