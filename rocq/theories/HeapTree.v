(** The tree of items below an item, and the deep reader on the heap. *)
From Verif Require Import Base Heap HeapSpec ListLemmas ForestLemmas HeapInv HeapAttach Tree.

(** T is the tree of item identities of (the subtree of) its root in state s. *)
Fixpoint ltree (s : astate) (T : tree loc) : Prop :=
  match T with
  | Node x cs => map root cs = a_children (s x) /\
                 (fix all (l : list (tree loc)) : Prop :=
                    match l with [] => True | c :: r => ltree s c /\ all r end) cs
  end.
Lemma ltree_iff s x cs : ltree s (Node x cs) <-> map root cs = a_children (s x) /\ Forall (ltree s) cs.
Proof.
  cbn. split; intros [H1 H2]; (split; [assumption|]).
  - induction cs as [|c cs IH]; [constructor|].  clear H1. revert H2. intros [A B]. constructor; [assumption|].
    clear IH A. induction cs as [|d cs IH]; [constructor|]. destruct B as [B1 B2]. constructor; auto.
  - clear H1. induction H2; [exact I|]. split; assumption.
Qed.
Lemma ltree_frame s s' T : (forall y, In y (flatten T) -> a_children (s y) = a_children (s' y)) ->
  ltree s T -> ltree s' T.
Proof.
  induction T as [x cs IH] using tree_ind'. intros H. rewrite !ltree_iff. intros [H1 H2]. split.
  - rewrite <- H by (left; reflexivity). assumption.
  - rewrite Forall_forall in *. intros c Hc. apply IH; auto. intros y Hy. apply H. right.
    apply in_flat_map. eauto.
Qed.

(** levels *)
Inductive Lev (s : astate) : loc -> nat -> Prop :=
| Lev0 x : a_parent (s x) = None -> Lev s x 0
| LevS x q k : a_parent (s x) = Some q -> Lev s q k -> Lev s x (S k).
Lemma Lev_fun s x k : Lev s x k -> forall j, Lev s x j -> j = k.
Proof.
  induction 1 as [x H|x q k H _ IH]; intros j Hj; inversion Hj; subst; try congruence.
  assert (q0 = q) as -> by congruence. f_equal. auto.
Qed.
Lemma Rooted_Lev s x : Rooted s x -> exists k, Lev s x k.
Proof.
  induction 1 as [x H|x q H _ [k IH]]; [exists 0; constructor; assumption|].
  exists (S k). econstructor; eauto.
Qed.
Lemma Lev_chain n s : Forest n s -> forall x k, Lev s x k -> x < n ->
  exists l, length l = S k /\ NoDup l /\ (forall y, In y l -> y < n /\ exists j, j <= k /\ Lev s y j).
Proof.
  intros F x k H. induction H as [x H|x q k H HL IH]; intros Hx.
  - exists [x]. split; [reflexivity|]. split; [repeat constructor; intros []|].
    intros y [<-|[]]. split; [assumption|]. exists 0. split; [lia|]. constructor; assumption.
  - destruct IH as (l & E & D & P); [apply (fo_par _ _ F _ _ H)|].
    exists (x :: l). split; [cbn; congruence|]. split.
    + constructor; [|assumption]. intros Hin. destruct (P x Hin) as (_ & j & Hj & HLj).
      assert (HLx : Lev s x (S k)) by (econstructor; eauto).
      pose proof (Lev_fun _ _ _ HLx _ HLj). lia.
    + intros y [<-|Hy].
      * split; [assumption|]. exists (S k). split; [lia|]. econstructor; eauto.
      * destruct (P y Hy) as (A & j & B & C). split; [assumption|]. exists j. split; [lia|assumption].
Qed.
Lemma Lev_bound n s x k : Forest n s -> Lev s x k -> x < n -> k < n.
Proof.
  intros F H Hx. destruct (Lev_chain n s F x k H Hx) as (l & E & D & P).
  assert (length l <= length (seq 0 n)).
  { apply NoDup_incl_length; [assumption|]. intros y Hy. apply in_seq. destruct (P y Hy). lia. }
  rewrite seq_length in *. lia.
Qed.

Lemma Forall_ex {A B} (R : A -> B -> Prop) l : (forall a, In a l -> exists b, R a b) ->
  exists m, Forall2 R l m.
Proof.
  induction l as [|a l IH]; intros H; [exists []; constructor|].
  destruct (H a (or_introl eq_refl)) as [b Hb]. destruct IH as [m Hm]; [intros; apply H; right; assumption|].
  exists (b :: m). constructor; assumption.
Qed.

Lemma ltree_exists_gen n s : Forest n s -> forall d x k, Lev s x k -> x < n -> n - k <= d ->
  exists T, ltree s T /\ root T = x /\ height T < d.
Proof.
  intros F. induction d as [|d IH]; intros x k HL Hx Hd.
  - pose proof (Lev_bound n s x k F HL Hx). lia.
  - destruct (Forall_ex (fun c T => ltree s T /\ root T = c /\ height T < d) (a_children (s x)))
      as [cs Hcs].
    + intros c Hc. pose proof (fo_child _ _ F _ _ Hc) as Hp.
      apply (IH c (S k)); [econstructor; eauto|eapply Forest_child_lt; eauto|].
      assert (Hl : S k < n).
      { eapply Lev_bound; [exact F|econstructor; [exact Hp|exact HL]|eapply Forest_child_lt; eauto]. }
      lia.
    + exists (Node x cs). split; [|split; [reflexivity|]].
      * apply ltree_iff. split.
        -- clear - Hcs. induction Hcs as [|c T l m (_ & H & _) _ IH]; cbn; [reflexivity|]. congruence.
        -- clear - Hcs. induction Hcs as [|c T l m (H & _) _ IH]; constructor; auto.
      * cbn. assert (list_max (map (fun c => S (height c)) cs) <= d); [|lia].
        apply list_max_le. apply Forall_forall. intros j Hj. apply in_map_iff in Hj as (T & <- & HT).
        clear - Hcs HT. induction Hcs as [|c T' l m (_ & _ & H) _ IH]; [destruct HT|].
        destruct HT as [->|HT]; [lia|auto].
Qed.
Lemma ltree_exists n s x : Forest n s -> x < n ->
  exists T, ltree s T /\ root T = x /\ height T < n.
Proof.
  intros F Hx. destruct (Rooted_Lev s x (fo_root _ _ F x)) as [k HL].
  apply (ltree_exists_gen n s F n x k HL Hx). lia.
Qed.
Lemma ltree_lt n s T : Forest n s -> ltree s T -> root T < n -> forall y, In y (flatten T) -> y < n.
Proof.
  intros F. induction T as [x cs IH] using tree_ind'. rewrite ltree_iff. intros [H1 H2] Hx y [<-|Hy];
    [assumption|].
  apply in_flat_map in Hy as (c & Hc & Hy). rewrite Forall_forall in *. eapply IH; eauto.
  eapply Forest_child_lt; [exact F|]. rewrite <- H1. apply in_map_iff. eauto.
Qed.
Lemma ltree_unique s T : forall T', ltree s T -> ltree s T' -> root T = root T' -> T = T'.
Proof.
  induction T as [x cs IH] using tree_ind'. intros [x' cs']. rewrite !ltree_iff. cbn [root].
  intros [H1 H2] [H3 H4] <-. f_equal. rewrite <- H1 in H3. clear H1. revert cs' H3 H4.
  induction IH as [|c cs Hc _ IHcs]; intros [|c' cs'] H3 H4; cbn in H3; try discriminate; [reflexivity|].
  injection H3 as E1 E2. inversion H2; inversion H4; subst. f_equal; auto.
Qed.
(** the items of a subtree are its descendants *)
Lemma ltree_anc n s T : Forest n s -> ltree s T -> forall y, In y (flatten T) -> Anc s (root T) y.
Proof.
  intros F. induction T as [x cs IH] using tree_ind'. rewrite ltree_iff. intros [H1 H2] y [<-|Hy];
    [constructor|].
  apply in_flat_map in Hy as (c & Hc & Hy). rewrite Forall_forall in *. cbn [root].
  eapply Anc_trans; [|eapply IH; eauto].
  assert (a_parent (s (root c)) = Some x) by (apply (fo_child _ _ F); rewrite <- H1; apply in_map; assumption).
  econstructor; [eassumption|constructor].
Qed.
Lemma ltree_NoDup n s T : Forest n s -> ltree s T -> NoDup (flatten T).
Proof.
  intros F. induction T as [x cs IH] using tree_ind'. intros HT. assert (HT' := HT).
  rewrite ltree_iff in HT. destruct HT as [H1 H2]. cbn. rewrite Forall_forall in *.
  assert (Hpar : forall c, In c cs -> a_parent (s (root c)) = Some x).
  { intros c Hc. apply (fo_child _ _ F). rewrite <- H1. apply in_map. assumption. }
  assert (Hnoanc : forall a b, a_parent (s b) = Some x -> Anc s a b -> a = b \/ Anc s a x).
  { intros a b Hb HA. inversion HA; subst; [left; reflexivity|right]. congruence. }
  assert (Hacyc : forall c, a_parent (s c) = Some x -> ~ Anc s c x).
  { intros c Hc HA. destruct (Rooted_Lev s x (fo_root _ _ F x)) as [k HL].
    assert (G : forall a y, Anc s a y -> forall i j, Lev s a i -> Lev s y j -> i <= j).
    { intros a y Hay. induction Hay as [|y q Hq _ IHa]; intros i j Hi Hj.
      - rewrite (Lev_fun _ _ _ Hi _ Hj). lia.
      - inversion Hj as [|? q' j' Hq' HL']; subst; [congruence|]. assert (q' = q) as -> by congruence.
        specialize (IHa i j' Hi HL'). lia. }
    specialize (G c x HA (S k) k). assert (Lev s c (S k)) by (econstructor; eauto).
    specialize (G H HL). lia. }
  constructor.
  - intros Hx. apply in_flat_map in Hx as (c & Hc & Hx).
    apply (Hacyc (root c)); [auto|]. apply (ltree_anc n s c F); auto.
  - assert (Hnd : NoDup (map root cs)) by (rewrite H1; apply (fo_nodup _ _ F)).
    assert (Hlt : forall c, In c cs -> ltree s c) by assumption.
    clear H1 HT'. revert H2 IH Hpar Hnd Hlt. induction cs as [|c cs IHcs]; intros H2 IH Hpar Hnd Hlt; cbn; [constructor|].
    inversion Hnd as [|? ? Hni Hnd']; subst.
    apply NoDup_app.
    + apply IH; [left; reflexivity|]. apply Hlt. left. reflexivity.
    + apply IHcs; auto; intros; try (apply IH || apply Hpar || apply Hlt || apply H2); auto; right; assumption.
    + intros y Hy1 Hy2. apply in_flat_map in Hy2 as (c2 & Hc2 & Hy2).
      pose proof (ltree_anc n s c F (Hlt c (or_introl eq_refl)) y Hy1) as A1.
      pose proof (ltree_anc n s c2 F (Hlt c2 (or_intror Hc2)) y Hy2) as A2.
      assert (Hcomp : forall a b y, Anc s a y -> Anc s b y -> Anc s a b \/ Anc s b a).
      { clear. intros a b y H. induction H as [|y q Hq H IH]; intros Hb; [right; assumption|].
        inversion Hb as [|? q' Hq' Hb']; subst.
        - left. econstructor; eauto.
        - assert (q' = q) as -> by congruence. auto. }
      assert (Hp1 := Hpar c (or_introl eq_refl)). assert (Hp2 := Hpar c2 (or_intror Hc2)).
      assert (Hne : root c <> root c2).
      { intros E. apply Hni. rewrite E. apply in_map. assumption. }
      destruct (Hcomp _ _ _ A1 A2) as [A3|A3].
      * destruct (Hnoanc _ _ Hp2 A3) as [E|E]; [congruence|]. exact (Hacyc _ Hp1 E).
      * destruct (Hnoanc _ _ Hp1 A3) as [E|E]; [congruence|]. exact (Hacyc _ Hp2 E).
Qed.

(** deep_list is the pre-order of the subtree *)
Lemma opt_concat_some {A} (l : list (list A)) : opt_concat (map Some l) = Some (concat l).
Proof. induction l as [|a l IH]; cbn; [reflexivity|]. rewrite IH. reflexivity. Qed.
Lemma deep_list_ok h : forall fuel T, ltree (view h) T -> height T < fuel ->
  deep_list fuel h (root T) = Some (below_tree T).
Proof.
  induction fuel as [|f IH]; intros [x cs] H Hh; [lia|]. rewrite ltree_iff in H. destruct H as [H1 H2].
  cbn [deep_list root]. change (nitems (hnode h x)) with (a_children (view h x)). rewrite <- H1.
  rewrite map_map. unfold below_tree. cbn [kids].
  assert (E : map (fun c => option_map (cons (root c)) (deep_list f h (root c))) cs =
              map Some (map flatten cs)).
  { rewrite map_map. apply map_ext_in. intros c Hc. rewrite Forall_forall in H2.
    rewrite IH; [|apply H2; assumption|pose proof (height_kid x cs c Hc); lia].
    destruct c. reflexivity. }
  rewrite E, opt_concat_some, flat_map_concat_map. reflexivity.
Qed.
Lemma deep_list_total h x : Forest (hnext h) (view h) -> x < hnext h ->
  exists T, ltree (view h) T /\ root T = x /\ deep_list (S (hnext h)) h x = Some (below_tree T).
Proof.
  intros F Hx. destruct (ltree_exists _ _ _ F Hx) as (T & HT & <- & Hh).
  exists T. split; [assumption|]. split; [reflexivity|]. apply deep_list_ok; [assumption|lia].
Qed.

(** root and level *)
Lemma Lev_level h x k : Lev (view h) x k -> forall fuel, k < fuel -> level_of fuel h x = Some k.
Proof.
  induction 1 as [x H|x q k H _ IH]; intros [|f] Hf; try lia; cbn in *.
  - destruct (nprt (hnode h x)); [discriminate|reflexivity].
  - destruct (nprt (hnode h x)) as [pl|]; [|discriminate]. cbn in H. injection H as <-.
    rewrite IH by lia. reflexivity.
Qed.
Lemma Lev_root h x k : Lev (view h) x k -> forall fuel, k < fuel ->
  exists r, root_of fuel h x = Some r /\ Anc (view h) r x /\ parent_of h r = None.
Proof.
  induction 1 as [x H|x q k H _ IH]; intros [|f] Hf; try lia; cbn [root_of].
  - pose proof H as H'. cbn in H'. destruct (nprt (hnode h x)) eqn:E; [discriminate|].
    exists x. split; [reflexivity|]. split; [constructor|assumption].
  - pose proof H as H'. cbn in H'. destruct (nprt (hnode h x)) as [pl|]; [|discriminate]. cbn in H'. injection H' as ->.
    destruct (IH f) as (r & E & A & P); [lia|]. exists r. split; [assumption|]. split; [|assumption].
    econstructor; eauto.
Qed.
