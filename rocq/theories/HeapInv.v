(** Invariant of the heap layer and the cache machinery. *)
From Verif Require Import Base Heap HeapSpec ListLemmas ForestLemmas.

(** * Invariant *)
Definition caches_ok (h : heap) : Prop :=
  forall x pl, nprt (hnode h x) = Some pl ->
    (0 <= pl_abs pl)%Z /\ (0 <= pl_fam pl)%Z /\ pl_tuple pl = false.

Definition nonempty {A} (l : list A) : option (list A) :=
  match l with [] => None | _ => Some l end.

Definition fam_ok (tg : loc -> pyval) (d : fdict) (l : list loc) : Prop :=
  NoDup (map fst d) /\
  forall t, dget d t = nonempty (filter (fun x => pyval_eqb (tg x) t) l).

Definition node_fam_ok (h : heap) (p : loc) : Prop :=
  let n := hnode h p in
  match nbound n with
  | Unbound => (nfams n = None \/ nfams n = Some []) /\ nitems n = []
  | Current => exists d, nfams n = Some d /\ fam_ok (fun x => ntag (hnode h x)) d (nitems n)
  | Stale _ => nfams n = Some [] /\ nitems n = []
  end.

Record WF (h : heap) : Prop := {
  wf_forest : Forest (hnext h) (view h);
  wf_caches : caches_ok h;
  wf_fams : forall p, node_fam_ok h p;
  wf_cover : forall x k, nlink (hnode h x) = Some k -> lk_cover k = None }.

(** * Equality up to caches *)
Definition strip (n : node) : node :=
  set_prt (option_map (fun pl => PL (pl_par pl) 0 0 (pl_tuple pl)) (nprt n)) n.

Definition ceq (h h' : heap) : Prop :=
  hnext h = hnext h' /\ (forall y, strip (hnode h y) = strip (hnode h' y)) /\
  (caches_ok h -> caches_ok h').

Lemma ceq_refl h : ceq h h.
Proof. split; [reflexivity|]. split; auto. Qed.
Lemma ceq_trans h1 h2 h3 : ceq h1 h2 -> ceq h2 h3 -> ceq h1 h3.
Proof.
  intros (A1 & B1 & C1) (A2 & B2 & C2). split; [congruence|]. split; [|auto].
  intros y. rewrite B1. apply B2.
Qed.

Section Ceq.
  Context (h h' : heap) (E : ceq h h').
  Let B : forall y, strip (hnode h y) = strip (hnode h' y) := proj1 (proj2 E).
  Lemma ceq_next : hnext h' = hnext h. Proof. symmetry. apply E. Qed.
  Lemma ceq_items y : nitems (hnode h' y) = nitems (hnode h y).
  Proof. specialize (B y). apply (f_equal nitems) in B. symmetry. exact B. Qed.
  Lemma ceq_tag y : ntag (hnode h' y) = ntag (hnode h y).
  Proof. specialize (B y). apply (f_equal ntag) in B. symmetry. exact B. Qed.
  Lemma ceq_val y : nval (hnode h' y) = nval (hnode h y).
  Proof. specialize (B y). apply (f_equal nval) in B. symmetry. exact B. Qed.
  Lemma ceq_flags y : nflags (hnode h' y) = nflags (hnode h y).
  Proof. specialize (B y). apply (f_equal nflags) in B. symmetry. exact B. Qed.
  Lemma ceq_fams y : nfams (hnode h' y) = nfams (hnode h y).
  Proof. specialize (B y). apply (f_equal nfams) in B. symmetry. exact B. Qed.
  Lemma ceq_bound y : nbound (hnode h' y) = nbound (hnode h y).
  Proof. specialize (B y). apply (f_equal nbound) in B. symmetry. exact B. Qed.
  Lemma ceq_link y : nlink (hnode h' y) = nlink (hnode h y).
  Proof. specialize (B y). apply (f_equal nlink) in B. symmetry. exact B. Qed.
  Lemma ceq_coupled y : ncoupled (hnode h' y) = ncoupled (hnode h y).
  Proof. specialize (B y). apply (f_equal ncoupled) in B. symmetry. exact B. Qed.
  Lemma ceq_prt y :
    option_map (fun pl => (pl_par pl, pl_tuple pl)) (nprt (hnode h' y)) =
    option_map (fun pl => (pl_par pl, pl_tuple pl)) (nprt (hnode h y)).
  Proof.
    specialize (B y). apply (f_equal nprt) in B. cbn in B.
    destruct (nprt (hnode h y)), (nprt (hnode h' y)); cbn in *; congruence.
  Qed.
  Lemma ceq_par y : option_map pl_par (nprt (hnode h' y)) = option_map pl_par (nprt (hnode h y)).
  Proof.
    pose proof (ceq_prt y) as P.
    destruct (nprt (hnode h y)), (nprt (hnode h' y)); cbn in *; congruence.
  Qed.
  Lemma ceq_view y : view h' y = view h y.
  Proof.
    unfold view. rewrite ceq_items, ceq_tag, ceq_val, ceq_flags, ceq_link, ceq_coupled, ceq_par.
    reflexivity.
  Qed.
  Lemma ceq_WF : WF h -> WF h'.
  Proof.
    intros [F C G K]. split.
    - rewrite ceq_next. eapply Forest_ext; [|exact F]. intros y. rewrite ceq_view. auto.
    - apply E, C.
    - intros p. specialize (G p). unfold node_fam_ok in *.
      rewrite ceq_bound, ceq_fams, ceq_items. destruct (nbound (hnode h p)); auto.
      destruct G as (d & Ed & Hd). exists d. split; [assumption|].
      unfold fam_ok in *. destruct Hd as [Hn Hd]. split; [assumption|]. intros t.
      rewrite Hd. f_equal. apply filter_ext. intros x. rewrite ceq_tag. reflexivity.
    - intros x k. rewrite ceq_link. apply K.
  Qed.
End Ceq.

(** * Monad laws used in proofs *)
Lemma bind_ok {A B} (m : M A) (k : A -> M B) h h' a :
  m h = (h', Ok a) -> bind m k h = k a h'.
Proof. unfold bind. intros ->. reflexivity. Qed.
Lemma bind_err {A B} (m : M A) (k : A -> M B) h h' e :
  m h = (h', Err e) -> bind m k h = (h', Err e).
Proof. unfold bind. intros ->. reflexivity. Qed.
Lemma bind_gets {A B} (f : heap -> A) (k : A -> M B) h : bind (gets f) k h = k (f h) h.
Proof. reflexivity. Qed.
Lemma bind_upd {B} x f (k : unit -> M B) h : bind (upd x f) k h = k tt (hmod h x f).
Proof. reflexivity. Qed.
Lemma bind_ret {A B} (a : A) (k : A -> M B) h : bind (ret a) k h = k a h.
Proof. reflexivity. Qed.
Lemma bind_lift {A B} (r : res A) (k : A -> M B) h :
  bind (lift r) k h = match r with Ok a => k a h | Err e => (h, Err e) end.
Proof. destruct r; reflexivity. Qed.
Lemma bind_throw {A B} e (k : A -> M B) h : bind (throw e) k h = (h, Err e).
Proof. reflexivity. Qed.
Lemma bind_assoc {A B C} (m : M A) (k : A -> M B) (j : B -> M C) h :
  bind (bind m k) j h = bind m (fun a => bind (k a) j) h.
Proof. unfold bind. destruct (m h) as [h' [a|e]]; reflexivity. Qed.

Lemma hmod_same h x f : hnode (hmod h x f) x = f (hnode h x).
Proof. cbn. rewrite Nat.eqb_refl. reflexivity. Qed.
Lemma hmod_other h x f y : y <> x -> hnode (hmod h x f) y = hnode h y.
Proof. intros H. cbn. destruct (Nat.eqb_spec y x); [contradiction|reflexivity]. Qed.

(** * Caches *)
Lemma set_cache_ok e s y i h pl :
  nprt (hnode h y) = Some pl -> pl_tuple pl = false -> (0 <= i)%Z ->
  exists h', set_cache e s y i h = (h', Ok tt) /\ ceq h h'.
Proof.
  intros Hp Ht Hi. unfold set_cache. rewrite Hp, Ht. eexists; split; [reflexivity|].
  split; [reflexivity|]. split.
  - intros z. cbn. destruct (Nat.eqb_spec z y) as [->|]; [|reflexivity].
    unfold strip, set_prt. cbn. rewrite Hp. cbn. destruct s; reflexivity.
  - intros C z plz. cbn. destruct (Nat.eqb_spec z y) as [->|]; [|apply C].
    cbn. intros [= <-]. destruct (C _ _ Hp) as (H1 & H2 & H3).
    destruct s; cbn; auto.
Qed.

(** h' differs from h only in caches [s], and each changed cache of an item y of l holds
    a position computed by [f] from the index of y in l. *)
Definition writes (s : slot) (l : list loc) (f : nat -> Z) (h h' : heap) : Prop :=
  forall y, hnode h' y = hnode h y \/
    exists j pl, nth_error l j = Some y /\ nprt (hnode h y) = Some pl /\
      hnode h' y = set_prt (Some (with_cache s (f j) pl)) (hnode h y).

Lemma scan_ok s l : forall h i d x k,
  nth_error l k = Some x -> (forall j, j < k -> nth_error l j <> Some x) ->
  (forall j y, j <= k -> nth_error l j = Some y -> nprt (hnode h y) <> None) -> caches_ok h ->
  (forall j, j <= k -> (0 <= i + Z.of_nat j * d)%Z) ->
  exists h', scan s l i d x h = (h', Ok (i + Z.of_nat k * d)%Z) /\ ceq h h' /\
    writes s l (fun j => (i + Z.of_nat j * d)%Z) h h'.
Proof.
  induction l as [|y l IH]; intros h i d x k Hk Hfirst Hpr Hc Hpos.
  - destruct k; discriminate.
  - cbn [scan]. assert (Hy : nprt (hnode h y) <> None) by (apply (Hpr 0); [lia|reflexivity]).
    destruct (nprt (hnode h y)) as [pl|] eqn:Ep; [|congruence].
    assert (Hi : (0 <= i)%Z) by (specialize (Hpos 0 ltac:(lia)); lia).
    destruct (set_cache_ok AttributeError s y i h pl Ep (proj2 (proj2 (Hc _ _ Ep))) Hi)
      as (h1 & E1 & Q1).
    assert (W1 : h1 = hmod h y (set_prt (Some (with_cache s i pl)))).
    { unfold set_cache in E1. rewrite Ep, (proj2 (proj2 (Hc _ _ Ep))) in E1. congruence. }
    rewrite (bind_ok _ _ _ _ _ E1).
    destruct (Nat.eqb_spec y x) as [->|Hne].
    + assert (k = 0) as ->.
      { destruct k; [reflexivity|]. exfalso. apply (Hfirst 0 ltac:(lia)). reflexivity. }
      exists h1. split; [|split; [assumption|]].
      * unfold ret. do 2 f_equal. lia.
      * intros z. rewrite W1. destruct (Nat.eq_dec z x) as [->|Hz].
        -- right. exists 0, pl. rewrite hmod_same. repeat split; auto.
           do 3 f_equal. lia.
        -- left. apply hmod_other; assumption.
    + destruct k as [|k]; [cbn in Hk; congruence|]. cbn in Hk.
      destruct (IH h1 (i + d)%Z d x k) as (h2 & E2 & Q2 & W2); auto.
      * intros j Hj. apply (Hfirst (S j)). lia.
      * intros j z Hj Hz. pose proof (ceq_par _ _ Q1 z) as P.
        specialize (Hpr (S j) z ltac:(lia) Hz).
        destruct (nprt (hnode h1 z)), (nprt (hnode h z)); cbn in P; congruence.
      * apply Q1, Hc.
      * intros j Hj. specialize (Hpos (S j) ltac:(lia)). lia.
      * exists h2. split; [|split; [eapply ceq_trans; eauto|]].
        -- rewrite E2. do 2 f_equal. lia.
        -- intros z. specialize (W2 z). rewrite W1 in W2.
           destruct (Nat.eq_dec z y) as [->|Hz].
           ++ right. rewrite hmod_same in W2. destruct W2 as [W2|(j & plz & Hj & Hplz & W2)].
              ** exists 0, pl. repeat split; auto. rewrite W2. do 3 f_equal. lia.
              ** exists (S j), pl. repeat split; auto. rewrite W2.
                 cbn in Hplz. injection Hplz as <-.
                 replace (i + Z.of_nat (S j) * d)%Z with (i + d + Z.of_nat j * d)%Z by lia.
                 destruct s; reflexivity.
           ++ rewrite hmod_other in W2 by assumption.
              destruct W2 as [W2|(j & plz & Hj & Hplz & W2)]; [left; assumption|right].
              exists (S j), plz. repeat split; auto. rewrite W2. do 3 f_equal. lia.
Qed.

Lemma fast_hit_nonneg l c x : (0 <= c)%Z ->
  fast_hit l c x = Ok (match nth_error l (Z.to_nat c) with Some y => Nat.eqb y x | None => false end).
Proof.
  intros Hc. unfold fast_hit. destruct (Z.ltb_spec c (Z.of_nat (length l))).
  - rewrite py_idx_nonneg by lia. reflexivity.
  - replace (nth_error l (Z.to_nat c)) with (@None loc); [reflexivity|].
    symmetry. apply nth_error_None. lia.
Qed.

Lemma window_some l x a b i : window l x a b = Some i -> nth_error l i = Some x.
Proof.
  unfold window. intros H. apply find_some in H as [_ H].
  destruct (nth_error l i) as [y|]; [|discriminate].
  apply Nat.eqb_eq in H. congruence.
Qed.
Lemma window_hits l x a b k : nth_error l k = Some x ->
  (0 <= a <= Z.of_nat k)%Z -> (Z.of_nat k < b)%Z -> window l x a b <> None.
Proof.
  intros Hk Ha Hb. unfold window. intros H.
  assert (Hin : In k (seq (Z.to_nat a) (Z.to_nat (b - a)))) by (apply in_seq; lia).
  eapply find_none in H; [|exact Hin]. cbn in H. rewrite Hk, Nat.eqb_refl in H. discriminate.
Qed.

Definition is_slow (f : found) : bool := match f with Slow _ => true | _ => false end.

(** The search finds the true position; the slow path is taken only when the cached
    position is more than 20 away.  The slow path needs every item of the list to have a
    parent record.  Every cache write stores a true position. *)
Lemma locate_ok s l c x h k :
  nth_error l k = Some x -> NoDup l -> (0 <= c)%Z -> caches_ok h ->
  nprt (hnode h x) <> None ->
  (forall y, In y l -> nprt (hnode h y) <> None) \/ (Z.abs (c - Z.of_nat k) <= 20)%Z ->
  exists f h', locate s l c x h = (h', Ok f) /\ found_pos f = Z.of_nat k /\ ceq h h' /\
    (is_slow f = true <-> (20 < Z.abs (c - Z.of_nat k))%Z) /\
    writes s l Z.of_nat h h'.
Proof.
  intros Hk Hd Hc C Hx Hpr.
  pose proof (nth_error_lt _ _ _ Hk) as Hlt.
  unfold locate. rewrite fast_hit_nonneg by assumption.
  set (b := match nth_error l (Z.to_nat c) with Some y => Nat.eqb y x | None => false end).
  assert (Hb : b = true <-> c = Z.of_nat k).
  { subst b. destruct (nth_error l (Z.to_nat c)) as [y|] eqn:E.
    - rewrite Nat.eqb_eq. split; [intros ->|intros ->].
      + pose proof (NoDup_nth_error_inj _ _ _ _ Hd Hk E). lia.
      + rewrite Nat2Z.id in E. congruence.
    - split; [discriminate|intros ->]. rewrite Nat2Z.id in E. congruence. }
  rewrite bind_lift. destruct b eqn:Eb.
  - exists (Fast c), h. split; [reflexivity|]. split; [apply Hb; reflexivity|].
    split; [apply ceq_refl|]. split; [|intros y; left; reflexivity].
    cbn. split; [discriminate|]. pose proof (proj1 Hb eq_refl). lia.
  - destruct (window l x _ _) as [i|] eqn:Ew.
    + pose proof (window_some _ _ _ _ _ Ew) as Hi.
      assert (i = k) as -> by (eapply NoDup_nth_error_inj; eauto).
      destruct (nprt (hnode h x)) as [pl|] eqn:Ep; [|congruence].
      destruct (set_cache_ok TypeError s x (Z.of_nat k) h pl Ep (proj2 (proj2 (C _ _ Ep))) ltac:(lia))
        as (h1 & E1 & Q1).
      assert (W1 : h1 = hmod h x (set_prt (Some (with_cache s (Z.of_nat k) pl)))).
      { unfold set_cache in E1. rewrite Ep, (proj2 (proj2 (C _ _ Ep))) in E1. congruence. }
      exists (Win (Z.of_nat k)), h1. rewrite (bind_ok _ _ _ _ _ E1).
      split; [reflexivity|]. split; [reflexivity|]. split; [assumption|]. split.
      * cbn. split; [discriminate|]. intros Hfar. exfalso.
        unfold window in Ew. apply find_some in Ew as [Ew _]. apply in_seq in Ew. lia.
      * intros z. rewrite W1. destruct (Nat.eq_dec z x) as [->|Hz].
        -- right. exists k, pl. rewrite hmod_same. repeat split; auto.
        -- left. apply hmod_other; assumption.
    + assert (Hfar : (20 < Z.abs (c - Z.of_nat k))%Z).
      { destruct (Z.lt_ge_cases 20 (Z.abs (c - Z.of_nat k))) as [|Hn]; [assumption|exfalso].
        eapply window_hits; [exact Hk| | |exact Ew]; lia. }
      destruct Hpr as [Hpr|Hpr]; [|lia].
      destruct (Z.ltb_spec (2 * c) (Z.of_nat (length l))).
      * destruct (scan_ok s l h 0 1 x k Hk) as (h1 & E1 & Q1 & W1); auto.
        { intros j Hj Hj'. pose proof (NoDup_nth_error_inj _ _ _ _ Hd Hk Hj'). lia. }
        { intros j y _ Hj. apply Hpr. eapply nth_error_In; eauto. }
        { intros j Hj. lia. }
        exists (Slow (Z.of_nat k)), h1. rewrite (bind_ok _ _ _ _ _ E1).
        split; [unfold ret; do 3 f_equal; lia|]. split; [reflexivity|]. split; [assumption|].
        split; [cbn; tauto|]. intros z.
        destruct (W1 z) as [Z1|(j & pl & Hj & Hpl & Z1)]; [left; assumption|right].
        exists j, pl. repeat split; auto. rewrite Z1. do 3 f_equal. lia.
      * assert (Hrev : forall j, j < length l -> nth_error (rev l) j = nth_error l (length l - 1 - j)).
        { intros j Hj. rewrite nth_error_nth' with (d := x) by (rewrite rev_length; lia).
          rewrite rev_nth by lia.
          rewrite nth_error_nth' with (d := x) by lia. do 2 f_equal. lia. }
        assert (Hrk : nth_error (rev l) (length l - 1 - k) = Some x).
        { rewrite Hrev by lia. replace (length l - 1 - (length l - 1 - k)) with k by lia. assumption. }
        destruct (scan_ok s (rev l) h (Z.of_nat (length l) - 1) (-1) x (length l - 1 - k) Hrk)
          as (h1 & E1 & Q1 & W1); auto.
        { intros j Hj Hj'.
          pose proof (NoDup_nth_error_inj _ _ _ _ (NoDup_rev Hd) Hrk Hj'). lia. }
        { intros j y _ Hy. apply Hpr. apply in_rev. eapply nth_error_In; eauto. }
        { intros j Hj. lia. }
        exists (Slow (Z.of_nat k)), h1. rewrite (bind_ok _ _ _ _ _ E1).
        split; [unfold ret; do 3 f_equal; lia|]. split; [reflexivity|]. split; [assumption|].
        split; [cbn; tauto|]. intros z.
        destruct (W1 z) as [Z1|(j & pl & Hj & Hpl & Z1)]; [left; assumption|right].
        pose proof (nth_error_lt _ _ _ Hj) as Hjl. rewrite rev_length in Hjl.
        rewrite Hrev in Hj by assumption.
        exists (length l - 1 - j), pl. repeat split; auto. rewrite Z1. do 3 f_equal. lia.
Qed.

(** * Facts from the invariant *)
Lemma WF_child_prt h p c : WF h -> In c (nitems (hnode h p)) ->
  exists pl, nprt (hnode h c) = Some pl /\ pl_par pl = p.
Proof.
  intros W H. pose proof (fo_child _ _ (wf_forest _ W) p c H) as E. cbn in E.
  destruct (nprt (hnode h c)) as [pl|]; cbn in E; [|discriminate].
  exists pl. split; [reflexivity|congruence].
Qed.
Lemma WF_nodup h p : WF h -> NoDup (nitems (hnode h p)).
Proof. intros W. exact (fo_nodup _ _ (wf_forest _ W) p). Qed.

(** Cached absolute positions of the items in l are at most m away from the truth. *)
Definition drift_ok (h : heap) (l : list loc) (m : Z) : Prop :=
  forall k y pl, nth_error l k = Some y -> nprt (hnode h y) = Some pl ->
    (Z.abs (pl_abs pl - Z.of_nat k) <= m)%Z.

Lemma writes_drift l h h' m : NoDup l -> (0 <= m)%Z ->
  writes SAbs l Z.of_nat h h' -> drift_ok h l m -> drift_ok h' l m.
Proof.
  intros Hd Hm W D k y pl Hk Hp. destruct (W y) as [E|(j & pl0 & Hj & Hp0 & E)].
  - rewrite E in Hp. eapply D; eauto.
  - rewrite E in Hp. cbn in Hp. injection Hp as <-. cbn.
    assert (j = k) as -> by (eapply NoDup_nth_error_inj; eauto). lia.
Qed.

(** idx of an item whose parent list is l: position k in l.  Used also for the half
    updated states inside insert, where the new item is in l but has no parent yet. *)
Lemma get_idx_gen h p c k :
  nth_error (nitems (hnode h p)) k = Some c -> NoDup (nitems (hnode h p)) ->
  parent_of h c = Some p -> caches_ok h ->
  (forall y, In y (nitems (hnode h p)) -> nprt (hnode h y) <> None) \/
     drift_ok h (nitems (hnode h p)) 20 ->
  exists h', get_idx c h = (h', Ok (Some (Z.of_nat k))) /\ ceq h h' /\
    writes SAbs (nitems (hnode h p)) Z.of_nat h h'.
Proof.
  intros Hk Hd Hp C H. unfold parent_of in Hp. cbn in Hp. unfold get_idx.
  destruct (nprt (hnode h c)) as [pl|] eqn:Ep; [|discriminate]. cbn in Hp. injection Hp as Hp.
  rewrite Hp.
  destruct (locate_ok SAbs (nitems (hnode h p)) (pl_abs pl) c h k Hk)
    as (f & h' & E & Ef & Q & _ & Wr); auto.
  - apply (C _ _ Ep).
  - congruence.
  - destruct H as [H|H]; [left; assumption|right]. eapply H; eauto.
  - exists h'. rewrite (bind_ok _ _ _ _ _ E). rewrite Ef. split; [reflexivity|auto].
Qed.

(** idx of a child is its position. *)
Lemma get_idx_ok h p c k : WF h -> nth_error (nitems (hnode h p)) k = Some c ->
  exists h', get_idx c h = (h', Ok (Some (Z.of_nat k))) /\ ceq h h' /\
    writes SAbs (nitems (hnode h p)) Z.of_nat h h'.
Proof.
  intros W Hk. assert (Hin : In c (nitems (hnode h p))) by (eapply nth_error_In; eauto).
  apply get_idx_gen; auto using WF_nodup.
  - exact (fo_child _ _ (wf_forest _ W) p c Hin).
  - apply (wf_caches _ W).
  - left. intros y Hy. destruct (WF_child_prt _ _ _ W Hy) as (? & -> & _). discriminate.
Qed.

Lemma idx_or_type_error_ok h p c k : WF h -> nth_error (nitems (hnode h p)) k = Some c ->
  exists h', idx_or_type_error c h = (h', Ok (Z.of_nat k)) /\ ceq h h' /\
    writes SAbs (nitems (hnode h p)) Z.of_nat h h'.
Proof.
  intros W Hk. destruct (get_idx_ok h p c k W Hk) as (h' & E & Q).
  exists h'. unfold idx_or_type_error. rewrite (bind_ok _ _ _ _ _ E). auto.
Qed.

(** The family list behind the bound methods. *)
Lemma WF_fam h p t : WF h -> nitems (hnode h p) <> [] ->
  exists d, nfams (hnode h p) = Some d /\ nbound (hnode h p) = Current /\
    fam_ok (fun x => ntag (hnode h x)) d (nitems (hnode h p)) /\
    get_fam p t h = (h, Ok (nonempty (with_tag (view h) p t))).
Proof.
  intros W Hne. pose proof (wf_fams _ W p) as G. unfold node_fam_ok in G.
  destruct (nbound (hnode h p)) eqn:Eb.
  - destruct G; congruence.
  - destruct G as (d & Ed & Hok). exists d. repeat split; auto; try apply Hok.
    unfold get_fam. rewrite Eb, Ed. do 2 f_equal. apply Hok.
  - destruct G; congruence.
Qed.
