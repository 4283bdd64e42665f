(** C89: eval(repr(t)) rebuilds t. *)
From Coq Require Import String.
From Verif Require Import Base Heap HeapSpec ListLemmas ForestLemmas HeapInv HeapHoare HeapOrd Tree HeapTree HeapCopy HeapHist HeapHash History Runs HeapFlags HeapLink HeapLinkH PropsA PropsF
  Deep DeepSpec JsonModel SerModel SerNew SerLoad SerBuild PropsM PickleModel PropsR ReprModel ReprFacts.
Import ListNotations.
Local Open Scope string_scope.
Local Open Scope list_scope.

(** every item with children stands at most on level limit/5 *)
Definition shallow (limit : nat) (h : heap) (T : tree loc) : Prop :=
  forall y, In y (flatten T) -> children h y <> [] -> exists k, level_of (S (hnext h)) h y = Some k /\ 5 * k <= limit.

(** eval(repr(x)), in any process state g: a new tree with the shape, order, tags, values, links and flags of
    x's tree; items additionally get the flags READ_ONLY_TREE / LOAD_LINKS of the items above them ([inherit]).
    No other item changes.  Excluded: linked items and loaded links, deep trees. *)
Theorem C89_repr_partial : forall limit h x T, Reach h -> tree_at h x T ->
  (forall y, In y (flatten T) -> flag h y 3 = false /\ picklable h y /\ plain_link h y) -> shallow limit h T ->
  exists text, (forall n, height T < n -> repr_toks n limit h x = Some text) /\
  forall g, Reach g -> exists g' y T', py_eval text g = (g', Ok y) /\ Reach g' /\ hnext g <= y < hnext g' /\ parent_of g' y = None /\ tree_at g' y T' /\
    tmap (label (view g')) T' = inherit 0 (tmap (stored h) T) /\ (forall z, In z (flatten T') -> hnext g <= z) /\
    (forall z, z < hnext g -> view g' z = view g z).
Proof.
  intros limit h x T R HT HP HS. exists (toks_of (tmap (args_of h) T)). split.
  - intros n Hn. destruct HT as [<- HT]. apply repr_ok; try assumption. intros y Hy. apply HP. exact Hy.
  - intros g Rg. destruct (C70_pickle_partial h x T R HT) as (A & D & K); [intros y Hy; destruct (HP y Hy) as (A1 & A2 & _); auto|].
    assert (EA : A = tmap (args_of h) T).
    { specialize (D (S (height T)) (Nat.lt_succ_diag_r _)). destruct HT as [<- HT]. rewrite (dumps_plain h T HT) in D; [|intros y Hy; destruct (HP y Hy) as (A1 & A2 & _); auto|lia].
      pose proof (f_equal (fun o => match o with Some (Ok B) => B | _ => A end) D) as Q. cbn in Q. symmetry. exact Q. }
    rewrite eval_toks, <- EA. exact (K g Rg).
Qed.
Theorem C89_exact_partial : forall limit h x T, Reach h -> tree_at h x T ->
  (forall y, In y (flatten T) -> flag h y 3 = false /\ picklable h y /\ plain_link h y) -> shallow limit h T -> flags_passed_on h T ->
  exists text, (forall n, height T < n -> repr_toks n limit h x = Some text) /\
  forall g, Reach g -> exists g' y T', py_eval text g = (g', Ok y) /\ parent_of g' y = None /\ tree_at g' y T' /\
    tmap (stored g') T' = tmap (stored h) T /\ (forall z, In z (flatten T') -> hnext g <= z) /\
    (forall z, z < hnext g -> view g' z = view g z).
Proof.
  intros limit h x T R HT HP HS HF. destruct (C89_repr_partial limit h x T R HT HP HS) as (A & D & H). exists A. split; [exact D|]. intros g Rg.
  destruct (H g Rg) as (g' & y & T' & E & _ & _ & P & HT' & L & N & V). exists g', y, T'. split; [exact E|]. split; [exact P|]. split; [exact HT'|]. split; [|split; assumption].
  apply stored_label. rewrite L. destruct HT as [Er HT]. pose proof (inherit_exact h (fun _ => true) T 0 HT HF) as Q. rewrite prune_true in Q. apply Q; [apply Z.lor_0_r|reflexivity].
Qed.
(** different trees (with plain literals only) have different texts *)
Theorem C89_text_tells_partial : forall limit h x T g y U n, Reach h -> Reach g -> tree_at h x T -> tree_at g y U ->
  (forall z, In z (flatten T) -> flag h z 3 = false /\ picklable h z /\ plain_link h z) -> shallow limit h T ->
  (forall z, In z (flatten U) -> flag g z 3 = false /\ picklable g z /\ plain_link g z) -> shallow limit g U ->
  height T < n -> height U < n ->
  (repr_toks n limit h x = repr_toks n limit g y <-> tmap (stored h) T = tmap (stored g) U).
Proof.
  intros limit h x T g y U n Rh Rg [<- HT] [<- HU] PT ST PU SU NT NU.
  rewrite (repr_ok limit h T HT) by (auto; intros; apply PT; assumption). rewrite (repr_ok limit g U HU) by (auto; intros; apply PU; assumption).
  assert (SA : forall k V, tmap (args_of k) V = tmap (fun l => RA (x_tag l) (x_val l) (x_src l) (x_flags l)) (tmap (stored k) V)) by (intros k V; rewrite tmap_tmap; reflexivity).
  assert (SB : forall k V, tmap (stored k) V = tmap (fun a => XL (ra_tag a) (ra_val a) (ra_flags a) (ra_link a)) (tmap (args_of k) V)) by (intros k V; rewrite tmap_tmap; reflexivity).
  split; intros E.
  - assert (ET : toks_of (tmap (args_of h) T) = toks_of (tmap (args_of g) U)) by (injection E as E; exact E).
    assert (EV : Some (VTree (tmap (args_of h) T)) = Some (VTree (tmap (args_of g) U))).
    { rewrite <- !ev_ok. pose proof (parse_toks (tmap (args_of h) T)) as P1. rewrite ET, parse_toks in P1. pose proof (f_equal (fun o => match o with Some e => ev e | None => None end) P1) as Q. cbn beta iota in Q. symmetry. exact Q. }
    pose proof (f_equal (fun o => match o with Some (VTree B) => B | _ => tmap (args_of h) T end) EV) as EB. cbn in EB.
    rewrite (SB h T), (SB g U), EB. reflexivity.
  - rewrite (SA h T), (SA g U), E. reflexivity.
Qed.

(** * Deep trees *)
(** an item with children below level limit/5: its text cannot be evaluated, with flags not even parsed (a comma
    is missing) *)
Theorem C89_deep_refuted : forall limit h x k n, level_of (S (hnext h)) h x = Some k -> limit < 5 * k -> children h x <> [] -> a_link (view h x) = None ->
  exists text, repr_toks (S n) limit h x = Some text /\
    forall g, py_eval text g = (g, Err (if (a_flags (view h x) =? 0)%Z then TypeError else SyntaxError)).
Proof.
  intros limit h x k n Hk Hl HC HN. change (a_link (view h x)) with (nlink (hnode h x)) in HN. unfold children in HC. change (a_children (view h x)) with (nitems (hnode h x)) in HC.
  change (a_flags (view h x)) with (nflags (hnode h x)). cbn [repr_toks]. rewrite HN. destruct (nitems (hnode h x)) as [|c l]; [congruence|]. rewrite Hk.
  apply Nat.ltb_lt in Hl. rewrite Hl. generalize (ntag (hnode h x)) (nval (hnode h x)). intros t v.
  destruct (pyval_eqb t PNoTag), (pyval_eqb v PNoValue), (nflags (hnode h x) =? 0)%Z; (eexists; split; [reflexivity|]; intros g; reflexivity).
Qed.
Definition dp_ops : list op :=
  [ ONew (PStr "root") PNoValue [EArgs (PStr "a") (PInt 1)] None 0; ONew (PStr "b") (PInt 2) [] None 0; OAppend 1 (IItem 2);
    ONew (PStr "c") (PInt 3) [] None 0; OAppend 2 (IItem 3); OSetValueReadOnly 2 ].
Definition dp_heap : heap := runs dp_ops empty_heap.
Theorem C89_deep_case : Reach dp_heap /\ level_of (S (hnext dp_heap)) dp_heap 2 = Some 2 /\ children dp_heap 2 <> [] /\ a_link (view dp_heap 2) = None /\ a_flags (view dp_heap 2) <> 0%Z /\
  (forall text, repr_toks 10 9 dp_heap 0 = Some text -> forall g, py_eval text g = (g, Err SyntaxError)).
Proof.
  split; [apply reach_runs; [constructor|vm_compute; reflexivity]|]. split; [vm_compute; reflexivity|]. split; [vm_compute; discriminate|]. split; [vm_compute; reflexivity|]. split; [vm_compute; discriminate|].
  assert (E : exists t, repr_toks 10 9 dp_heap 0 = Some t /\ parse t = None) by (eexists; split; [vm_compute; reflexivity|vm_compute; reflexivity]).
  destruct E as (t & -> & Pt). intros text Et. assert (t = text) as <- by exact (f_equal (fun o => match o with Some a => a | None => t end) Et). intros g. unfold py_eval. rewrite Pt. reflexivity.
Qed.
(** the flags spread to the items below: the rebuilt tree has other flags *)
Theorem C89_flags_refuted : exists h x text g y c d, Reach h /\ repr_toks 100 1000 h x = Some text /\ py_eval text h = (g, Ok y) /\
  children h x = [c] /\ children g y = [d] /\ flag h c 2 = false /\ flag g d 2 = true.
Proof.
  set (text := match repr_toks 100 1000 flag_heap 0 with Some t => t | None => [] end).
  exists flag_heap, 0, text, (fst (py_eval text flag_heap)), 3, 1, 2.
  split; [apply reach_runs; [constructor|vm_compute; reflexivity]|]. split; [vm_compute; reflexivity|]. split.
  { assert (E : snd (py_eval text flag_heap) = Ok 3) by (vm_compute; reflexivity). rewrite <- E. apply surjective_pairing. }
  split; [vm_compute; reflexivity|]. split; [vm_compute; reflexivity|]. split; vm_compute; reflexivity.
Qed.

(** * Concrete case: the tree of C70, with a link root, a read-only value and two levels *)
Definition rp_text : list tok := match repr_toks 100 1000 pk_heap 0 with Some t => t | None => [] end.
Definition level_le (h : heap) (limit : nat) (y : loc) : bool := match level_of (S (hnext h)) h y with Some k => Nat.leb (5 * k) limit | None => false end.
Lemma shallow_b limit h T : forallb (level_le h limit) (flatten T) = true -> shallow limit h T.
Proof.
  intros H y Hy _. rewrite forallb_forall in H. specialize (H y Hy). unfold level_le in H. destruct (level_of (S (hnext h)) h y) as [k|]; [|discriminate]. exists k. split; [reflexivity|]. apply Nat.leb_le. exact H.
Qed.
Definition plain_b (h : heap) (y : loc) : bool := match a_link (view h y) with None => true | Some k => flag h y 5 && negb (lk_loaded k) && match lk_cover k with None => true | _ => false end end.
Lemma plain_b_ok h T : forallb (plain_b h) (flatten T) = true -> forall y, In y (flatten T) -> plain_link h y.
Proof.
  intros H y Hy k E. rewrite forallb_forall in H. specialize (H y Hy). unfold plain_b in H. rewrite E in H. destruct (flag h y 5), (lk_loaded k), (lk_cover k); try discriminate. auto.
Qed.
Theorem C89_case : Reach pk_heap /\ tree_at pk_heap 0 pk_tree /\ (forall y, In y (flatten pk_tree) -> flag pk_heap y 3 = false /\ picklable pk_heap y /\ plain_link pk_heap y) /\
  shallow 1000 pk_heap pk_tree /\ flags_passed_on pk_heap pk_tree /\ flag pk_heap 7 5 = true /\ length rp_text = 94 /\
  exists g y, py_eval rp_text empty_heap = (g, Ok y) /\
    map (fun z => (tag_of g z, a_val (view g z), a_flags (view g z))) (children g y) = map (fun z => (tag_of pk_heap z, a_val (view pk_heap z), a_flags (view pk_heap z))) (children pk_heap 0).
Proof.
  destruct C70_case as (R & T & P & F & L & _ & _). split; [exact R|]. split; [exact T|]. split.
  { intros y Hy. destruct (P y Hy) as [A B]. split; [exact A|]. split; [exact B|]. refine (plain_b_ok _ _ _ y Hy). vm_compute. reflexivity. }
  split; [apply shallow_b; vm_compute; reflexivity|]. split; [exact F|]. split; [exact L|]. split; [vm_compute; reflexivity|].
  exists (fst (py_eval rp_text empty_heap)), 7. split; [|vm_compute; reflexivity].
  assert (E : snd (py_eval rp_text empty_heap) = Ok 7) by (vm_compute; reflexivity). rewrite <- E. apply surjective_pairing.
Qed.
