(** C76, C77: in-depth removal and in-depth flags (iTree.deep). *)
From Coq Require Import Sorting.Permutation Sorting.Sorted.
From Verif Require Import Base Heap HeapSpec ListLemmas ForestLemmas HeapInv HeapAttach HeapOps HeapOps2 HeapOps3
  HeapHoare Tree HeapTree HeapCopy HeapMut HeapExt HeapExt2 HeapOrd HeapOrd2 HeapRen HeapMove HeapSet HeapSet2 HeapHist
  HeapHash History HeapRead HeapRead2 Runs HeapDel HeapLink HeapLinkH HeapFlags PropsA PropsB PropsC PropsD PropsE PropsF PropsG
  JsonModel GetModel NavModel PropsO PropsP Deep DeepSpec DeepProofs DeepInst DeepFacts DeepOps PropsS PropsT.
Import ListNotations.
Local Open Scope list_scope.

(** * C76 *)
(** the items of l are taken out of their parents; nothing else changes *)
Definition removed (h h' : heap) (l : list loc) : Prop := forall y,
  view h' y = a_set_children (filter (fun z => negb (existsb (Nat.eqb z) l)) (children h y))
                (if existsb (Nat.eqb y) l then a_set_parent None (view h y) else view h y).
Lemma set_children_id v : a_set_children (a_children v) v = v. Proof. destruct v; reflexivity. Qed.
Lemma removed_one h h1 q x : WF h -> In x (children h q) -> same (view h1) (detach (view h) q x (posn (children h q) x)) -> removed h h1 [x].
Proof.
  intros W Hx S y. rewrite (S y). unfold detach.
  assert (Hxq : x <> q) by (intros ->; apply (child_not_anc h q q W Hx); constructor).
  cbn [existsb]. rewrite (orb_false_r (Nat.eqb y x)). destruct (Nat.eqb_spec y q) as [->|Ne].
  - destruct (Nat.eqb_spec q x) as [E|_]; [congruence|]. f_equal.
    rewrite (remove_at_filter _ _ x); [|apply (WF_nodup h q W)|apply posn_in; exact Hx]. apply filter_ext. intros z. rewrite orb_false_r. reflexivity.
  - assert (K : filter (fun z => negb (Nat.eqb z x || false)) (children h y) = children h y).
    { apply forallb_filter_id. apply forallb_forall. intros z Hz. rewrite orb_false_r. apply negb_true_iff, Nat.eqb_neq. intros ->.
      destruct (child_attached h y x W Hz) as [_ A]. destruct (child_attached h q x W Hx) as [_ B]. congruence. }
    rewrite K. destruct (Nat.eqb_spec y x) as [->|_]; unfold children; [destruct (view h x); reflexivity|symmetry; apply set_children_id].
Qed.
Lemma filter_twice {A} (f g : A -> bool) l : filter f (filter g l) = filter (fun a => g a && f a) l.
Proof. induction l as [|a l IH]; [reflexivity|]. cbn. destruct (g a); cbn; rewrite IH; reflexivity. Qed.
Lemma removed_nil h h' : same (view h') (view h) -> removed h h' [].
Proof. intros S y. rewrite (S y). cbn [existsb negb]. rewrite forallb_filter_id by (apply forallb_forall; reflexivity). symmetry. apply set_children_id. Qed.
Lemma removed_comp h h1 h2 x l : removed h h1 [x] -> removed h1 h2 l -> removed h h2 (x :: l).
Proof.
  intros A B y. rewrite (B y). unfold children at 1. rewrite (A y). cbn [existsb]. rewrite (orb_false_r (Nat.eqb y x)). cbn [a_children a_set_children].
  rewrite filter_twice. assert (K : filter (fun a => negb (Nat.eqb a x || false) && negb (existsb (Nat.eqb a) l)) (children h y) = filter (fun z => negb (Nat.eqb z x || existsb (Nat.eqb z) l)) (children h y)).
  { apply filter_ext. intros a. rewrite orb_false_r, negb_orb. reflexivity. }
  rewrite K. destruct (Nat.eqb_spec y x) as [->|_]; cbn [orb]; destruct (existsb (Nat.eqb _) l); reflexivity.
Qed.
Lemma removed_flags h h' l : removed h h' l -> forall y, tree_protected h' y = tree_protected h y /\ is_link_root h' y = is_link_root h y.
Proof.
  intros H y. assert (K : nflags (hnode h' y) = nflags (hnode h y)). { change (a_flags (view h' y) = a_flags (view h y)). rewrite (H y). destruct (existsb (Nat.eqb y) l); reflexivity. }
  unfold tree_protected, is_link_root. rewrite K. split; reflexivity.
Qed.
Lemma removed_child h h' l q x : removed h h' l -> ~ In x l -> In x (children h q) <-> In x (children h' q).
Proof.
  intros H N. unfold children at 2. rewrite (H q). cbn [a_children a_set_children]. rewrite filter_In. split; [|tauto]. intros K. split; [exact K|].
  apply negb_true_iff. destruct (existsb (Nat.eqb x) l) eqn:E; [|reflexivity]. apply existsb_exists in E as (z & Hz & E). apply Nat.eqb_eq in E. subst z. contradiction.
Qed.
Definition rm1 (x : loc) : M unit :=
  h1 <- gets (fun h => h) ;;
  match nprt (hnode h1 x) with
  | None => throw AttributeError
  | Some pl => remove (pl_par pl) x ;;; ret tt
  end.
Lemma rm1_ok h q x : Reach h -> In x (children h q) -> tree_protected h q = false -> exists h1, rm1 x h = (h1, Ok tt) /\ Reach h1 /\ removed h h1 [x].
Proof.
  intros R Hx P. pose proof (reach_WF h R) as W. destruct (WF_child_prt h q x W Hx) as (pl & Epl & Eq).
  destruct (remove_ok h q x W P Hx) as (h1 & E & _ & S). exists h1. unfold rm1. rewrite bind_gets, Epl, Eq, (bind_ok _ _ _ _ _ E). split; [reflexivity|]. split.
  - eapply (reach_after h (ORemove q x)); [exact R|exact I|cbn [run]; apply (void_run _ _ _ _ E)].
  - eapply removed_one; eauto.
Qed.
Lemma rms_ok : forall l h rest, Reach h -> NoDup l -> (forall x, In x l -> exists q, In x (children h q) /\ tree_protected h q = false) ->
  exists h', mapM_ rm1 (l ++ rest) h = mapM_ rm1 rest h' /\ Reach h' /\ removed h h' l.
Proof.
  induction l as [|x l IH]; intros h rest R ND P.
  - exists h. split; [reflexivity|]. split; [exact R|apply removed_nil; apply same_refl].
  - apply NoDup_cons_iff in ND as [Nx ND]. destruct (P x (or_introl eq_refl)) as (q & Hq & Pq).
    destruct (rm1_ok h q x R Hq Pq) as (h1 & E1 & R1 & V1). destruct (IH h1 rest R1 ND) as (h2 & E2 & R2 & V2).
    + intros y Hy. destruct (P y (or_intror Hy)) as (qy & Hqy & Py). exists qy. split.
      * apply (removed_child h h1 [x] qy y V1); [|exact Hqy]. intros [->|[]]. contradiction.
      * rewrite (proj1 (removed_flags _ _ _ V1 qy)). exact Py.
    + exists h2. split; [cbn [mapM_ app]; rewrite (bind_ok _ _ _ _ _ E1); exact E2|]. split; [exact R2|]. eapply removed_comp; eauto.
Qed.
Lemma mapM_one {A} (f : A -> M unit) x h : mapM_ f [x] h = (let r := f x h in (fst r, match snd r with Ok _ => Ok tt | Err e => Err e end)).
Proof. cbn [mapM_]. unfold bind. destruct (f x h) as [h1 [[]|e]]; reflexivity. Qed.
(** what the call does once the targets are resolved *)
Lemma deep_remove_list h p tg path l : get h p tg path = Ok (GList l) ->
  deep_remove p tg path h = bind (mapM_ rm1 l) (fun _ => ret (GList l)) h.
Proof. intros E. unfold deep_remove. rewrite bind_gets, E. reflexivity. Qed.
Lemma deep_remove_item h p tg path x : get h p tg path = Ok (GItem x) ->
  deep_remove p tg path h = match nprt (hnode h x) with None => (h, Err AttributeError) | Some pl => bind (i <- idx_or_type_error x ;; del_int (pl_par pl) i) (fun y => ret (GItem y)) h end.
Proof.
  intros E. unfold deep_remove. rewrite bind_gets, E. unfold lift. cbn [bind ret]. unfold bind at 1. cbn. destruct (nprt (hnode h x)) as [pl|]; [|reflexivity].
  unfold bind. destruct (idx_or_type_error x h) as [h1 [i|e]]; [|reflexivity]. cbn [delitem]. unfold bind. reflexivity.
Qed.
Lemma hits_child h p t r x : Reach h -> In x (hits h p (t :: r)) -> exists q, In x (children h q).
Proof.
  intros R. revert p t. induction r as [|t' r IH]; intros p t H; cbn [hits] in H; apply in_flat_map in H as (z & Hz & Hy).
  - destruct Hy as [<-|[]]. exists p. pose proof (C27_only_children h p t R) as O. unfold answer in Hz. destruct (getitem h p t) as [[y|l]|e]; [destruct Hz as [<-|[]]; exact O|apply O; exact Hz|destruct Hz].
  - eapply IH. exact Hy.
Qed.
(** remove( *targets ): every item reached level by level is taken out of its parent and
    returned, nothing else changes; a lookup that fails changes nothing *)
Theorem C76_remove_partial : forall h p tg path, Reach h -> forallb plain_target (tg :: path) = true ->
  NoDup (hits h p (tg :: path)) ->
  (forall x q, In x (hits h p (tg :: path)) -> In x (children h q) -> tree_protected h q = false) ->
  match get h p tg path with
  | Err e => deep_remove p tg path h = (h, Err e)
  | Ok r => exists h', deep_remove p tg path h = (h', Ok r) /\ Reach h' /\ removed h h' (hits h p (tg :: path))
  end.
Proof.
  intros h p tg path R Pl ND P. destruct (C63_levels_partial h p tg path Pl) as [A _]. pose proof (reach_WF h R) as W.
  assert (Par : forall x, In x (hits h p (tg :: path)) -> exists q, In x (children h q) /\ tree_protected h q = false).
  { intros x Hx. destruct (hits_child h p tg path x R Hx) as (q & Hq). exists q. split; [exact Hq|]. eapply P; eauto. }
  destruct (get h p tg path) as [[x|l]|e] eqn:E.
  - rewrite A in Par. rewrite A. destruct (Par x (or_introl eq_refl)) as (q & Hq & Pq). destruct (WF_child_prt h q x W Hq) as (pl & Epl & Eq).
    destruct (remove_ok h q x W Pq Hq) as (h1 & E1 & _ & S). unfold remove in E1. rewrite bind_gets, Epl, Eq, Nat.eqb_refl in E1.
    exists h1. rewrite (deep_remove_item h p tg path x E), Epl, Eq, (bind_ok _ _ _ _ _ E1). split; [reflexivity|]. split.
    + eapply (reach_after h (ORemove q x)); [exact R|exact I|]. cbn [run]. apply (void_run _ _ _ x). unfold remove. rewrite bind_gets, Epl, Eq, Nat.eqb_refl. exact E1.
    + eapply removed_one; eauto.
  - subst l. destruct (rms_ok (hits h p (tg :: path)) h [] R ND Par) as (h' & E' & R' & V). rewrite app_nil_r in E'. exists h'.
    rewrite (deep_remove_list h p tg path _ E), (bind_ok _ _ _ _ _ E'). split; [reflexivity|]. split; assumption.
  - unfold deep_remove. rewrite bind_gets, E. reflexivity.
Qed.
(** an item whose parent is protected stops the removal: what was before it is gone.  An item
    met for the second time has no parent any more, which is an AttributeError *)
Theorem C76_stops_partial : forall h p tg path l1 x l2, Reach h -> forallb plain_target (tg :: path) = true ->
  get h p tg path = Ok (GList (l1 ++ x :: l2)) -> NoDup l1 ->
  (forall y q, In y l1 -> In y (children h q) -> tree_protected h q = false) ->
  (~ In x l1 -> forall q, In x (children h q) -> tree_protected h q = true -> is_link_root h q = false ->
     exists h', deep_remove p tg path h = (h', Err PermissionError) /\ removed h h' l1) /\
  (In x l1 -> exists h', deep_remove p tg path h = (h', Err AttributeError) /\ removed h h' l1).
Proof.
  intros h p tg path l1 x l2 R Pl E ND P. destruct (C63_levels_partial h p tg path Pl) as [A _]. rewrite E in A.
  destruct (rms_ok l1 h (x :: l2) R ND) as (h' & E' & R' & V).
  { intros y Hy. destruct (hits_child h p tg path y R) as (q & Hq); [rewrite <- A; apply in_or_app; auto|]. exists q. split; [exact Hq|eapply P; eauto]. }
  rewrite (deep_remove_list h p tg path _ E). unfold bind at 1. rewrite E'. cbn [mapM_]. pose proof (reach_WF h' R') as W'. split.
  - intros Nx q Hq Pq Lq. assert (Hq' : In x (children h' q)) by (apply (removed_child h h' l1 q x V Nx); exact Hq).
    destruct (WF_child_prt h' q x W' Hq') as (pl & Epl & Eq). destruct (removed_flags _ _ _ V q) as [F1 F2].
    destruct (idx_or_type_error_ok h' q x _ W' (posn_in _ _ Hq')) as (h2 & E2 & Q2 & _).
    assert (RM : rm1 x h' = (h2, Err PermissionError)).
    { unfold rm1. rewrite bind_gets, Epl. unfold bind at 1. unfold remove. rewrite bind_gets, Epl, Eq, Nat.eqb_refl, (bind_ok _ _ _ _ _ E2).
      assert (D : del_int q (Z.of_nat (posn (children h' q) x)) h2 = (h2, Err PermissionError)).
      { unfold del_int. apply bind_err. unfold check_del. rewrite bind_gets. unfold tree_protected, is_link_root in *. rewrite !(ceq_flags _ _ Q2), F1, Pq, F2, Lq. reflexivity. }
      rewrite D. reflexivity. }
    exists h2. unfold bind. rewrite RM. split; [reflexivity|]. intros y. rewrite (ceq_view _ _ Q2). apply V.
  - intros Hx. assert (Epl : nprt (hnode h' x) = None).
    { assert (K : parent_of h' x = None). { unfold parent_of. rewrite (V x). rewrite (proj2 (mem_in x l1) Hx). reflexivity. }
      unfold parent_of, view in K. cbn in K. destruct (nprt (hnode h' x)); [discriminate K|reflexivity]. }
    assert (RM : rm1 x h' = (h', Err AttributeError)) by (unfold rm1; rewrite bind_gets, Epl; reflexivity).
    exists h'. split; [|exact V]. unfold bind at 1. rewrite E'. cbn [mapM_]. unfold bind. rewrite RM. reflexivity.
Qed.
(** a target list naming one item twice: the item is gone and the call raises *)
Theorem C76_twice_refuted : let h := ex2 in let tg := TgVal (PList [PInt 0; PInt 0]) in let r := deep_remove 0 (TgVal (PInt 0)) [tg] h in
  Reach h /\ forallb plain_target [TgVal (PInt 0); tg] = true /\ hits h 0 [TgVal (PInt 0); tg] = [3; 3] /\ snd r = Err AttributeError /\
  children h 1 = [3; 4] /\ children (fst r) 1 = [4] /\ parent_of (fst r) 3 = None.
Proof. cbv zeta. split; [exact ex2_reach|]. vm_compute. auto 9. Qed.
(** half of the removal is done when a protected parent is met *)
Definition half_rem : list op :=
  [ONew (PStr "r") PNoValue [EArgs (PStr "a") (PInt 1); EArgs (PStr "b") (PInt 2)] None 0; OAppend 1 (IVal (PInt 3)); OAppend 2 (IVal (PInt 4)); OSetTreeReadOnly 2].
Theorem C76_half_refuted : let h := runs half_rem empty_heap in let r := deep_remove 0 TgEllipsis [TgEllipsis] h in
  Reach h /\ hits h 0 [TgEllipsis; TgEllipsis] = [3; 4] /\ NoDup (hits h 0 [TgEllipsis; TgEllipsis]) /\ snd r = Err PermissionError /\
  map (children (fst r)) [0; 1; 2] = [[1; 2]; []; [4]].
Proof.
  cbv zeta. split; [apply reach_runs; [constructor|vm_compute; reflexivity]|].
  assert (H : hits (runs half_rem empty_heap) 0 [TgEllipsis; TgEllipsis] = [3; 4]) by (vm_compute; reflexivity). rewrite H.
  split; [reflexivity|]. split; [repeat constructor; cbn; intuition discriminate|]. vm_compute. auto.
Qed.
Lemma all_unprot h n : Reach h -> hnext h <= n -> forallb (fun y => negb (tree_protected h y)) (seq 0 n) = true ->
  forall x q, In x (children h q) -> tree_protected h q = false.
Proof.
  intros R Q P x q K. rewrite forallb_forall in P. apply negb_true_iff. apply P. apply in_seq.
  assert (q < hnext h); [|lia]. destruct (Nat.lt_ge_cases q (hnext h)) as [|G]; [assumption|].
  destruct (fo_alloc _ _ (wf_forest _ (reach_WF _ R)) q G) as [N _]. unfold children in K. rewrite N in K. destruct K.
Qed.
Lemma C76_case1 : hits ex2 0 [TgEllipsis; TgVal (PInt 0)] = [3; 5] /\ snd (deep_remove 0 TgEllipsis [TgVal (PInt 0)] ex2) = Ok (GList [3; 5]) /\
  map (children (fst (deep_remove 0 TgEllipsis [TgVal (PInt 0)] ex2))) [0; 1; 2; 3] = [[1; 2]; [4]; []; [6]].
Proof. vm_compute. auto. Qed.
Lemma C76_case2 : forallb (fun y => negb (tree_protected ex2 y)) (seq 0 20) = true /\ (hnext ex2 <=? 20) = true. Proof. vm_compute. auto. Qed.
Example C76_case : Reach ex2 /\ forallb plain_target [TgEllipsis; TgVal (PInt 0)] = true /\ NoDup (hits ex2 0 [TgEllipsis; TgVal (PInt 0)]) /\
  (forall x q, In x (hits ex2 0 [TgEllipsis; TgVal (PInt 0)]) -> In x (children ex2 q) -> tree_protected ex2 q = false) /\
  hits ex2 0 [TgEllipsis; TgVal (PInt 0)] = [3; 5] /\ snd (deep_remove 0 TgEllipsis [TgVal (PInt 0)] ex2) = Ok (GList [3; 5]) /\
  map (children (fst (deep_remove 0 TgEllipsis [TgVal (PInt 0)] ex2))) [0; 1; 2; 3] = [[1; 2]; [4]; []; [6]].
Proof.
  destruct C76_case1 as (A & B & C). split; [exact ex2_reach|]. split; [reflexivity|]. split; [rewrite A; repeat constructor; cbn; intuition discriminate|]. split; [|auto].
  intros x q _ K. destruct C76_case2 as [P Q]. apply Nat.leb_le in Q. exact (all_unprot ex2 20 ex2_reach Q P x q K).
Qed.

(** * C77 *)
(** the items a call of t.deep.set_value_read_only(filter, hierarchical) etc. is about *)
Definition touched (h : heap) (f : option (loc -> bool)) (hierarchical : bool) (x y : loc) : Prop :=
  match f with
  | None => y = x \/ Below h x y
  | Some g => (y = x /\ g x = true) \/
      (Below h x y /\ if hierarchical then forall z, Anc (view h) z y -> Below h x z -> g z = true else g y = true)
  end.
Definition parent_locked (h : heap) (x : loc) : Prop := exists q, parent_of h x = Some q /\ flag h q 0 = true.
(** exactly the touched items change, and of these only the flags, from fl to g fl *)
Definition reflagged (h h' : heap) (P : loc -> Prop) (g : Z -> Z) : Prop := forall y,
  (P y -> view h' y = a_set_flags (g (a_flags (view h y))) (view h y)) /\ (~ P y -> view h' y = view h y).
Lemma locked_dec h x : (match nprt (hnode h x) with Some pl => has (nflags (hnode h (pl_par pl))) READ_ONLY_TREE | None => false end = true) <-> parent_locked h x.
Proof.
  unfold parent_locked, parent_of, view, flag. cbn [a_parent]. destruct (nprt (hnode h x)) as [pl|]; cbn [option_map].
  - change READ_ONLY_TREE with (2 ^ 0)%Z. rewrite has_bit by lia. cbn. split; [intros H; exists (pl_par pl); auto|intros (q & E & H); injection E as <-; exact H].
  - split; [discriminate|intros (q & E & _); discriminate].
Qed.
Lemma deep_flags_list h c x f hier : Reach h -> x < hnext h ->
  (parent_locked h x -> deep_flags c x f hier h = (h, Err PermissionError)) /\
  (~ parent_locked h x -> exists l, (forall y, In y l <-> touched h f hier x y) /\ NoDup l /\ deep_flags c x f hier h = mapM_ c l h).
Proof.
  intros R Hx. unfold deep_flags. split.
  - intros K. rewrite bind_gets, (proj2 (locked_dec h x) K). reflexivity.
  - intros K. rewrite bind_gets. destruct (match nprt (hnode h x) with Some pl => _ | None => false end) eqn:E; [exfalso; apply K, locked_dec; exact E|]. clear E K.
    assert (Self : ~ Below h x x).
    { intros B. destruct (ltree_exists _ _ x (wf_forest _ (reach_WF h R)) Hx) as (T & L & E & _). subst x. apply (Below_tree h T L) in B.
      pose proof (tree_ND _ _ _ R (conj eq_refl L)) as ND. rewrite flatten_cons in ND. inversion ND; contradiction. }
    destruct f as [g|].
    + destruct (ltree_exists _ _ x (wf_forest _ (reach_WF h R)) Hx) as (T & L & E & _). assert (TA : tree_at h x T) by (split; assumption).
      destruct (deep_all_lists h x R Hx) as (la & Ea & NDa & Ba). destruct (deep_filtered_ok h x T g R Hx TA) as (lf & Ef & NDf & _ & Bf).
      set (l := if hier then lf else filter g la).
      assert (El : (if hier then deep_filtered h g x else rbind (deep_all h x) (fun l => Ok (filter g l))) = Ok l) by (unfold l; destruct hier; [exact Ef|rewrite Ea; reflexivity]).
      assert (Bl : forall y, In y l <-> Below h x y /\ if hier then forall z, Anc (view h) z y -> Below h x z -> g z = true else g y = true).
      { intros y. unfold l. destruct hier; [apply Bf|]. rewrite filter_In, Ba. reflexivity. }
      assert (NDl : NoDup l) by (unfold l; destruct hier; [exact NDf|apply NoDup_filter; exact NDa]).
      exists ((if g x then [x] else []) ++ l). split; [|split].
      * intros y. rewrite in_app_iff, Bl. cbn [touched]. destruct (g x) eqn:G; cbn [In]; split; intros [H|H]; try (right; exact H); try (destruct H as [H|[]]; left; auto; fail).
        -- left. left. symmetry. apply H.
        -- destruct H.
        -- destruct H as [_ H]. discriminate.
      * destruct (g x); [|exact NDl]. cbn [app]. constructor; [|exact NDl]. rewrite Bl. intros [B _]. exact (Self B).
      * rewrite El. destruct (g x); cbn [app mapM_]; unfold bind, lift; destruct (c x h) as [h1 [[]|e]]; reflexivity.
    + destruct (deep_all_lists h x R Hx) as (la & Ea & NDa & Ba). exists (x :: la). split; [|split].
      * intros y. cbn [In touched]. rewrite Ba. split; intros [H|H]; auto.
      * constructor; [rewrite Ba; exact Self|exact NDa].
      * rewrite Ea. cbn [mapM_]. unfold bind, lift. destruct (c x h) as [h1 [[]|e]]; reflexivity.
Qed.
(** one step *)
Definition stepper (Inv : heap -> Prop) (c : loc -> M unit) (g : Z -> Z) : Prop := forall h y, Inv h ->
  if flag h y 3 then c y h = (h, Err PermissionError)
  else exists h1, c y h = (h1, Ok tt) /\ Inv h1 /\ forall z, view h1 z = if Nat.eqb z y then a_set_flags (g (a_flags (view h z))) (view h z) else view h z.
Lemma steps_ok Inv c g : stepper Inv c g -> forall l h rest, Inv h -> NoDup l -> (forall y, In y l -> flag h y 3 = false) ->
  exists h', mapM_ c (l ++ rest) h = mapM_ c rest h' /\ Inv h' /\ reflagged h h' (fun y => In y l) g.
Proof.
  intros ST. induction l as [|x l IH]; intros h rest R ND L.
  - exists h. split; [reflexivity|]. split; [exact R|]. intros y. split; [intros []|reflexivity].
  - apply NoDup_cons_iff in ND as [Nx ND]. pose proof (ST h x R) as K. rewrite (L x (or_introl eq_refl)) in K. destruct K as (h1 & E1 & R1 & V1).
    destruct (IH h1 rest R1 ND) as (h2 & E2 & R2 & V2).
    + intros y Hy. unfold flag. rewrite V1. destruct (Nat.eqb_spec y x) as [->|_]; [contradiction|]. apply L. right. exact Hy.
    + exists h2. split; [cbn [app mapM_]; rewrite (bind_ok _ _ _ _ _ E1); exact E2|]. split; [exact R2|]. intros y. destruct (V2 y) as [A B]. rewrite V1 in A, B. split.
      * intros [<-|H].
        -- rewrite (B Nx), Nat.eqb_refl. reflexivity.
        -- specialize (A H). destruct (Nat.eqb_spec y x) as [E|_]; [exfalso; apply Nx; rewrite <- E; exact H|exact A].
      * intros H. destruct (Nat.eqb_spec y x) as [E|_]; [elim H; left; symmetry; exact E|]. apply B. intros Q. apply H. right. exact Q.
Qed.
Lemma deep_flags_ok (Inv : heap -> Prop) c g h x f hier : stepper Inv c g -> Inv h -> Reach h -> x < hnext h -> ~ parent_locked h x -> (forall y, touched h f hier x y -> flag h y 3 = false) ->
  exists h', deep_flags c x f hier h = (h', Ok tt) /\ Inv h' /\ reflagged h h' (touched h f hier x) g.
Proof.
  intros ST I R Hx K L. destruct (deep_flags_list h c x f hier R Hx) as [_ D]. destruct (D K) as (l & B & ND & E).
  destruct (steps_ok Inv c g ST l h [] I ND) as (h' & E' & R' & V); [intros y Hy; apply L, B; exact Hy|]. rewrite app_nil_r in E'.
  exists h'. rewrite E. split; [exact E'|]. split; [exact R'|]. intros y. destruct (V y) as [P Q]. split; intros H; [apply P, B; exact H|apply Q; rewrite B; exact H].
Qed.
(** what happens when one of them is LINKED: the ones before it are changed *)
Lemma deep_flags_stop (Inv : heap -> Prop) c g h x f hier y : stepper Inv c g -> Inv h -> Reach h -> x < hnext h -> ~ parent_locked h x -> touched h f hier x y -> flag h y 3 = true ->
  exists h' l, deep_flags c x f hier h = (h', Err PermissionError) /\ reflagged h h' (fun z => In z l) g /\ NoDup l /\
    forall z, In z l -> touched h f hier x z /\ flag h z 3 = false.
Proof.
  intros ST I R Hx K Ty Fy. destruct (deep_flags_list h c x f hier R Hx) as [_ D]. destruct (D K) as (l & B & ND & E). apply B in Ty.
  assert (Sp : exists l1 w l2, l = l1 ++ w :: l2 /\ flag h w 3 = true /\ forall z, In z l1 -> flag h z 3 = false).
  { clear -Ty Fy. induction l as [|a l IH]; [destruct Ty|]. destruct (flag h a 3) eqn:Fa; [exists [], a, l; split; [reflexivity|]; split; [exact Fa|intros z []]|].
    destruct Ty as [->|Ty]; [congruence|]. destruct (IH Ty) as (l1 & w & l2 & -> & Fw & A). exists (a :: l1), w, l2. split; [reflexivity|]. split; [exact Fw|]. intros z [<-|H]; auto. }
  destruct Sp as (l1 & w & l2 & -> & Fw & A). apply NoDup_app_inv in ND as (ND1 & _ & Dj).
  destruct (steps_ok Inv c g ST l1 h (w :: l2) I ND1 A) as (h' & E' & I' & V).
  exists h', l1. split; [|split; [exact V|split; [exact ND1|]]].
  - rewrite E, E'. cbn [mapM_]. pose proof (ST h' w I') as Q. assert (Fw' : flag h' w 3 = true).
    { unfold flag. rewrite (proj2 (V w)); [exact Fw|]. intros Hw. rewrite (A w Hw) in Fw. discriminate. }
    rewrite Fw' in Q. unfold bind. rewrite Q. reflexivity.
  - intros z Hz. split; [apply B, in_or_app; auto|apply A; exact Hz].
Qed.
Lemma set_stepper : stepper Reach (fun y => set_flags y READ_ONLY_VALUE false) (fun fl => Z.lor fl 2).
Proof.
  intros h y R. unfold set_flags. rewrite bind_gets. cbn [negb andb]. rewrite has_linked. destruct (flag h y 3) eqn:E; [reflexivity|].
  exists (hmod h y (fun n => set_flg (Z.lor (nflags n) READ_ONLY_VALUE) n)). split; [reflexivity|]. split.
  - eapply (reach_after h (OSetValueReadOnly y)); [exact R|exact I|]. cbn [run]. unfold set_value_read_only, set_flags. rewrite bind_gets. cbn [negb andb]. rewrite has_linked, E. reflexivity.
  - intros z. apply (view_set_flg h y (fun n => Z.lor (nflags n) READ_ONLY_VALUE)).
Qed.
Lemma unset_view h y fl z : view (hmod h y (fun n => set_flg (unset_flags_val (nflags n) fl) n)) z = if Nat.eqb z y then a_set_flags 0 (view h z) else view h z.
Proof. rewrite (view_set_flg h y (fun n => unset_flags_val (nflags n) fl)). rewrite unset_flags_zero. reflexivity. Qed.
Lemma unset_stepper : stepper Reach (fun y => unset_flags y READ_ONLY_VALUE) (fun _ => 0%Z).
Proof.
  intros h y R. unfold unset_flags. rewrite bind_gets. rewrite has_linked. destruct (flag h y 3) eqn:E; [reflexivity|].
  exists (hmod h y (fun n => set_flg (unset_flags_val (nflags n) READ_ONLY_VALUE) n)). split; [reflexivity|]. split.
  - eapply (reach_after h (OUnsetValueReadOnly y)); [exact R|exact I|]. cbn [run]. unfold unset_value_read_only. rewrite bind_gets, has_linked, E. unfold unset_flags. rewrite bind_gets, has_linked, E. reflexivity.
  - intros z. apply unset_view.
Qed.
Lemma unset_tree_stepper : stepper WF (fun y => unset_flags y READ_ONLY_TREE) (fun _ => 0%Z).
Proof.
  intros h y W. pose proof (WFp_unset_flags y READ_ONLY_TREE h W) as W'. revert W'. unfold unset_flags. rewrite bind_gets. rewrite has_linked. destruct (flag h y 3) eqn:E; [reflexivity|]. cbn. intros W'.
  exists (hmod h y (fun n => set_flg (unset_flags_val (nflags n) READ_ONLY_TREE) n)). split; [reflexivity|]. split; [exact W'|]. intros z. apply unset_view.
Qed.
Lemma wf_agree h : WF h -> families_agree h.
Proof.
  intros W p t Ht. change (filter (fun x => pyval_eqb (tag_of h x) t) (children h p)) with (with_tag (view h) p t).
  unfold getitem. destruct (nitems (hnode h p)) eqn:E.
  - unfold with_tag, view. cbn. rewrite E. reflexivity.
  - rewrite fam_of_ok; [|assumption|assumption|unfold children; cbn; congruence]. destruct (with_tag (view h) p t); reflexivity.
Qed.
(** set_value_read_only: every touched item gets the flag, nothing else changes *)
Theorem C77_set_partial : forall h x f hier, Reach h -> x < hnext h -> ~ parent_locked h x ->
  (forall y, touched h f hier x y -> flag h y 3 = false) ->
  exists h', deep_set_value_read_only x f hier h = (h', Ok tt) /\ Reach h' /\
    (forall y i, (0 <= i)%Z -> touched h f hier x y -> flag h' y i = if (i =? 1)%Z then true else flag h y i) /\
    (forall y, touched h f hier x y -> a_set_flags 0 (view h' y) = a_set_flags 0 (view h y)) /\
    (forall y, ~ touched h f hier x y -> view h' y = view h y).
Proof.
  intros h x f hier R Hx K L. destruct (deep_flags_ok Reach _ _ h x f hier set_stepper R R Hx K L) as (h' & E & R' & V).
  exists h'. split; [exact E|]. split; [exact R'|]. split; [|split].
  - intros y i Hi T. unfold flag. rewrite (proj1 (V y) T). cbn [a_set_flags a_flags]. apply (lor_pow_bit _ 1 i); lia.
  - intros y T. rewrite (proj1 (V y) T). reflexivity.
  - intros y T. apply V. exact T.
Qed.
(** unset_value_read_only / unset_tree_read_only: every touched item loses *all* its flags *)
Theorem C77_unset_clears_all : forall h x f hier, Reach h -> x < hnext h -> ~ parent_locked h x ->
  (forall y, touched h f hier x y -> flag h y 3 = false) ->
  (exists h', deep_unset_value_read_only x f hier h = (h', Ok tt) /\ Reach h' /\
     (forall y, touched h f hier x y -> view h' y = a_set_flags 0 (view h y)) /\ (forall y, ~ touched h f hier x y -> view h' y = view h y)) /\
  (exists h', deep_unset_tree_read_only x f hier h = (h', Ok tt) /\ families_agree h' /\
     (forall y, touched h f hier x y -> view h' y = a_set_flags 0 (view h y)) /\ (forall y, ~ touched h f hier x y -> view h' y = view h y)).
Proof.
  intros h x f hier R Hx K L. split.
  - destruct (deep_flags_ok Reach _ _ h x f hier unset_stepper R R Hx K L) as (h' & E & R' & V). exists h'. split; [exact E|]. split; [exact R'|]. split; intros y; apply V.
  - destruct (deep_flags_ok WF _ _ h x f hier unset_tree_stepper (reach_WF h R) R Hx K L) as (h' & E & W' & V). exists h'. split; [exact E|]. split; [apply wf_agree; exact W'|]. split; intros y; apply V.
Qed.
(** so exactly the named flag is changed when the touched items carry no other one *)
Definition only_flag (h : heap) (k : Z) (y : loc) : Prop := forall i, (0 <= i)%Z -> i <> k -> flag h y i = false.
Theorem C77_unset_partial : forall h x f hier, Reach h -> x < hnext h -> ~ parent_locked h x ->
  ((forall y, touched h f hier x y -> only_flag h 1 y) ->
   exists h', deep_unset_value_read_only x f hier h = (h', Ok tt) /\
     (forall y i, (0 <= i)%Z -> flag h' y i = true <-> flag h y i = true /\ ~ (touched h f hier x y /\ i = 1%Z)) /\
     (forall y, a_set_flags 0 (view h' y) = a_set_flags 0 (view h y))) /\
  ((forall y, touched h f hier x y -> only_flag h 0 y) ->
   exists h', deep_unset_tree_read_only x f hier h = (h', Ok tt) /\
     (forall y i, (0 <= i)%Z -> flag h' y i = true <-> flag h y i = true /\ ~ (touched h f hier x y /\ i = 0%Z)) /\
     (forall y, a_set_flags 0 (view h' y) = a_set_flags 0 (view h y))).
Proof.
  intros h x f hier R Hx K.
  assert (Dec : forall y, touched h f hier x y \/ ~ touched h f hier x y).
  { intros y. destruct (deep_flags_list h (fun _ => ret tt) x f hier R Hx) as [_ D]. destruct (D K) as (l & B & _). rewrite <- B. destruct (in_dec Nat.eq_dec y l); auto. }
  assert (Main : forall k h', (forall y, touched h f hier x y -> only_flag h k y) ->
     (forall y, touched h f hier x y -> view h' y = a_set_flags 0 (view h y)) -> (forall y, ~ touched h f hier x y -> view h' y = view h y) ->
     (forall y i, (0 <= i)%Z -> flag h' y i = true <-> flag h y i = true /\ ~ (touched h f hier x y /\ i = k)) /\ (forall y, a_set_flags 0 (view h' y) = a_set_flags 0 (view h y))).
  { intros k h' O A B. split.
    - intros y i Hi. destruct (Dec y) as [T|T].
      + unfold flag at 1. rewrite (A y T). cbn [a_set_flags a_flags]. rewrite Z.bits_0. split; [discriminate|]. intros [F N]. destruct (Z.eq_dec i k) as [->|Ne]; [elim N; auto|]. rewrite (O y T i Hi Ne) in F. discriminate.
      + unfold flag at 1. rewrite (B y T). unfold flag. split; [|tauto]. intros F. split; [exact F|tauto].
    - intros y. destruct (Dec y) as [T|T]; [rewrite (A y T); reflexivity|rewrite (B y T); reflexivity]. }
  split; intros O.
  - destruct (C77_unset_clears_all h x f hier R Hx K) as [(h' & E & _ & A & B) _]; [intros y T; apply (O y T); lia|]. exists h'. split; [exact E|]. apply Main; assumption.
  - destruct (C77_unset_clears_all h x f hier R Hx K) as [_ (h' & E & _ & A & B)]; [intros y T; apply (O y T); lia|]. exists h'. split; [exact E|]. apply Main; assumption.
Qed.
(** under a parent with READ_ONLY_TREE the calls refuse without effect *)
Theorem C77_locked : forall h x f hier, Reach h -> x < hnext h -> parent_locked h x ->
  deep_set_value_read_only x f hier h = (h, Err PermissionError) /\
  deep_unset_value_read_only x f hier h = (h, Err PermissionError) /\ deep_unset_tree_read_only x f hier h = (h, Err PermissionError).
Proof. intros h x f hier R Hx K. split; [|split]; apply deep_flags_list; assumption. Qed.
(** a LINKED item among the touched ones raises after some of the others were changed *)
Theorem C77_linked : forall h x f hier y, Reach h -> x < hnext h -> ~ parent_locked h x -> touched h f hier x y -> flag h y 3 = true ->
  exists h' l, deep_set_value_read_only x f hier h = (h', Err PermissionError) /\ NoDup l /\
    (forall z, In z l -> touched h f hier x z /\ flag h z 3 = false) /\ reflagged h h' (fun z => In z l) (fun fl => Z.lor fl 2).
Proof.
  intros h x f hier y R Hx K T F. destruct (deep_flags_stop Reach _ _ h x f hier y set_stepper R R Hx K T F) as (h' & l & E & V & ND & A).
  exists h', l. auto.
Qed.
Definition lock_ops : list op :=
  [ONew (PStr "r") PNoValue [EArgs (PStr "a") (PInt 1); EArgs (PStr "b") (PInt 2)] None 0; OSetValueReadOnly 1; OSetTreeReadOnly 1].
Theorem C77_unset_refuted : let h := runs lock_ops empty_heap in
  Reach h /\ parent_of h 0 = None /\ children h 0 = [1; 2] /\ flag h 1 0 = true /\ flag h 1 1 = true /\
  snd (deep_unset_value_read_only 0 None true h) = Ok tt /\ flag (fst (deep_unset_value_read_only 0 None true h)) 1 1 = false /\
  flag (fst (deep_unset_value_read_only 0 None true h)) 1 0 = false.
Proof. cbv zeta. split; [apply reach_runs; [constructor|vm_compute; reflexivity]|]. vm_compute. auto 9. Qed.
(** half done *)
Definition linked_ops : list op :=
  [ONew (PStr "r") PNoValue [EArgs (PStr "a") PNone] None 0; ONew (PStr "l") PNoValue [] None 8; OAppend 0 (IItem 2)].
Theorem C77_half_refuted : let h := runs linked_ops empty_heap in let r := deep_set_value_read_only 0 None true h in
  Reach h /\ children h 0 = [1; 2] /\ snd r = Err PermissionError /\ map (fun y => flag h y 1) [0; 1; 2] = [false; false; false] /\
  map (fun y => flag (fst r) y 1) [0; 1; 2] = [true; true; false].
Proof. cbv zeta. split; [apply reach_runs; [constructor|vm_compute; reflexivity]|]. vm_compute. auto 9. Qed.
Lemma C77_case1 : (0 <? hnext ex2) = true /\ parent_of ex2 0 = None /\ forallb (fun y => Z.eqb (a_flags (view ex2 y)) 0) (flatten ex2_tree) = true. Proof. vm_compute. auto. Qed.
Lemma C77_case2 : map (fun y => flag (fst (deep_set_value_read_only 0 (Some (fun y => negb (Nat.eqb y 3))) true ex2)) y 1) [0; 1; 2; 3; 4; 5; 6; 7] = [true; true; true; false; true; true; false; false] /\
  map (fun y => flag (fst (deep_set_value_read_only 0 (Some (fun y => negb (Nat.eqb y 3))) false ex2)) y 1) [0; 1; 2; 3; 4; 5; 6; 7] = [true; true; true; false; true; true; true; true].
Proof. vm_compute. auto. Qed.
Example C77_case : Reach ex2 /\ 0 < hnext ex2 /\ ~ parent_locked ex2 0 /\ (forall f hier y, touched ex2 f hier 0 y -> flag ex2 y 3 = false /\ only_flag ex2 1 y) /\
  map (fun y => flag (fst (deep_set_value_read_only 0 (Some (fun y => negb (Nat.eqb y 3))) true ex2)) y 1) [0; 1; 2; 3; 4; 5; 6; 7] = [true; true; true; false; true; true; false; false] /\
  map (fun y => flag (fst (deep_set_value_read_only 0 (Some (fun y => negb (Nat.eqb y 3))) false ex2)) y 1) [0; 1; 2; 3; 4; 5; 6; 7] = [true; true; true; false; true; true; true; true].
Proof.
  destruct C77_case1 as (A & B & C). split; [exact ex2_reach|]. split; [apply Nat.ltb_lt; exact A|]. split; [intros (q & Q & _); rewrite B in Q; discriminate Q|]. split; [|exact C77_case2].
  intros f hier y T. assert (In y (flatten ex2_tree)).
  { assert (U : y = 0 \/ Below ex2 0 y) by (unfold touched in T; destruct f as [g|]; [destruct T as [[T _]|[T _]]|]; tauto). rewrite flatten_cons. destruct ex2_tree_at as [Er L].
    destruct U as [->|U]; [left; exact Er|]. right. apply (Below_tree ex2 ex2_tree L). rewrite Er. exact U. }
  rewrite forallb_forall in C. specialize (C y H). apply Z.eqb_eq in C. unfold only_flag, flag. rewrite C. split; [apply Z.bits_0|intros; apply Z.bits_0].
Qed.
