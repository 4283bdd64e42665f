(** C65 - C68: ancestors and root, count and index, equal(), link_root. *)
From Verif Require Import Base Heap HeapSpec ListLemmas ForestLemmas HeapInv HeapAttach HeapOps HeapOps2 HeapOps3
  HeapHoare Tree HeapTree HeapCopy HeapMut HeapExt HeapExt2 HeapOrd HeapOrd2 HeapRen HeapMove HeapSet HeapSet2 HeapHist
  HeapHash History HeapRead HeapRead2 Runs HeapDel HeapLink HeapLinkH PropsA PropsB PropsC PropsD PropsE PropsF PropsG
  SerModel PropsM LinkModel LinkFacts LinkFacts2 LinkMerge LinkLoad LinkRun LinkAll LinkWF LinkSpec LinkDel PropsN GetModel NavModel PropsO.

(** * C65 *)
(** [Line h l x]: [l] are the ancestors of [x], from the root down to the parent *)
Inductive Line (h : heap) : list loc -> loc -> Prop :=
| line_root x : parent_of h x = None -> Line h [] x
| line_step l q x : parent_of h x = Some q -> Line h l q -> Line h (l ++ [q]) x.

Lemma collect_line h : forall x k, Lev (view h) x k -> forall fuel, k <= fuel ->
  exists l, collect_up fuel h (parent h x) = Some l /\ Line h (rev l) x /\ length l = k.
Proof.
  intros x k L. induction L as [x P|x q k P L IH]; intros fuel Hf.
  - exists []. change (parent h x) with (parent_of h x). unfold parent_of. rewrite P. destruct fuel; (split; [reflexivity|]; split; [constructor; exact P|reflexivity]).
  - change (parent h x) with (parent_of h x). unfold parent_of. rewrite P. destruct fuel as [|f]; [lia|]. cbn [collect_up].
    destruct (IH f ltac:(lia)) as (l & E & Li & Ln). exists (q :: l). rewrite E. split; [reflexivity|]. split; [|cbn; lia].
    cbn [rev]. constructor; assumption.
Qed.
Lemma Line_facts h l x : Line h l x ->
  parent_of h (hd x l) = None /\ (forall a, In a (l ++ [x]) <-> Anc (view h) a x) /\ Lev (view h) x (length l).
Proof.
  induction 1 as [x P|l q x P L (I1 & I2 & I3)].
  - cbn [hd app length]. split; [exact P|]. split; [|constructor; exact P]. intros a. split.
    + intros [<-|[]]. constructor.
    + intros A. left. symmetry. eapply Anc_root_eq; eassumption.
  - rewrite app_length. cbn [length]. rewrite Nat.add_1_r. split; [|split].
    + destruct l; exact I1.
    + intros a. rewrite in_app_iff, I2. split.
      * intros [A|[<-|[]]]; [econstructor; [exact P|exact A]|constructor].
      * intros A. inversion A as [|? q' Q A']; subst; [right; left; reflexivity|]. left. change (a_parent (view h x)) with (parent_of h x) in Q. congruence.
    + econstructor; [exact P|exact I3].
Qed.
Lemma Line_fun h l x : Line h l x -> forall m, Line h m x -> m = l.
Proof.
  induction 1 as [x P|l q x P L IH]; intros m M; inversion M; subst; try congruence.
  match goal with A : parent_of h x = Some ?z, B : Line h _ ?z |- _ => assert (z = q) by congruence; subst z; rewrite (IH _ B); reflexivity end.
Qed.
(** ancestors is the line of parents from the root down; level is its length; root is its first
    item (the item itself when it has no parent); is_root says whether it is empty; no item is
    its own ancestor *)
Theorem C65_ancestors : forall h x, Reach h -> x < hnext h ->
  exists l, ancestors (S (hnext h)) h x = Some l /\ Line h l x /\
    level_of (S (hnext h)) h x = Some (length l) /\
    root_of (S (hnext h)) h x = Some (hd x l) /\ parent_of h (hd x l) = None /\
    (is_root h x = true <-> l = []) /\
    (forall a, In a (l ++ [x]) <-> Anc (view h) a x) /\ NoDup (l ++ [x]).
Proof.
  intros h x R Hx. pose proof (wf_forest _ (reach_WF h R)) as F. destruct (Rooted_Lev _ _ (fo_root _ _ F x)) as [k Hk].
  pose proof (Lev_bound _ _ _ _ F Hk Hx) as Hb. destruct (collect_line h x k Hk (S (hnext h)) ltac:(lia)) as (l & E & Li & Ln).
  exists (rev l). unfold ancestors. rewrite E. split; [reflexivity|]. split; [exact Li|]. destruct (Line_facts h _ _ Li) as (A1 & A2 & A3).
  rewrite (Lev_level h x k Hk) by lia. rewrite rev_length, Ln. split; [reflexivity|]. split.
  - destruct (Lev_root h x k Hk (S (hnext h)) ltac:(lia)) as (r & Er & Ar & Pr). rewrite Er. f_equal.
    assert (G : forall m y, Line h m y -> forall r, Anc (view h) r y -> parent_of h r = None -> r = hd y m).
    { clear. induction 1 as [y P|m q y P L IH]; intros r A N.
      - cbn. eapply Anc_root_eq; eassumption.
      - inversion A as [|? q' Q A']; subst; [congruence|]. change (a_parent (view h y)) with (parent_of h y) in Q. assert (q' = q) by congruence. subst q'.
        rewrite (IH r A' N). destruct m; reflexivity. }
    exact (G _ _ Li r Ar Pr).
  - split; [exact A1|]. split.
    + unfold is_root. clear - Li. inversion Li as [y P|m q y P L]; subst.
      * cbn in P. destruct (nprt (hnode h x)); [discriminate|]. split; reflexivity.
      * cbn in P. destruct (nprt (hnode h x)); [|discriminate]. split; [discriminate|]. destruct m; discriminate.
    + split; [exact A2|]. clear - Li. assert (G : forall m y, Line h m y -> NoDup (m ++ [y]) /\ forall j a, nth_error (m ++ [y]) j = Some a -> Lev (view h) a j).
      { induction 1 as [y P|m q y P L (I1 & I2)].
        - split; [cbn; constructor; [intros []|constructor]|]. intros [|j] a H; [injection H as <-; constructor; exact P|destruct j; discriminate].
        - assert (I2' : forall j a, nth_error ((m ++ [q]) ++ [y]) j = Some a -> Lev (view h) a j).
          { intros j a H. destruct (Nat.lt_ge_cases j (length (m ++ [q]))) as [Hj|Hj].
            - rewrite nth_error_app1 in H by exact Hj. apply I2. exact H.
            - rewrite nth_error_app2 in H by exact Hj. destruct (j - length (m ++ [q])) as [|n] eqn:Ej; [|destruct n; discriminate]. injection H as <-.
              assert (j = S (length m)) by (rewrite app_length in *; cbn in *; lia). subst j. econstructor; [exact P|]. apply I2. rewrite nth_error_app2 by lia. rewrite Nat.sub_diag. reflexivity. }
          split; [|exact I2']. apply NoDup_nth_error. intros i j Hi Hij. destruct (nth_error ((m ++ [q]) ++ [y]) i) as [a|] eqn:Ea; [|apply nth_error_None in Ea; lia].
          symmetry in Hij. apply I2' in Ea. apply I2' in Hij. eapply Lev_fun; eassumption. }
      apply G. exact Li.
Qed.
Example C65_case : Reach ex2 /\ 7 < hnext ex2 /\ ancestors 9 ex2 7 = Some [0; 1; 3; 6] /\ level_of 9 ex2 7 = Some 4 /\ root_of 9 ex2 7 = Some 0.
Proof. split; [exact ex2_reach|]. split; [vm_compute; lia|]. vm_compute. auto. Qed.

(** * C66 *)
(** [k] is the first position in [lo, hi) whose item equals x *)
Definition first_equal (h : heap) (p x : loc) (lo hi k : nat) : Prop :=
  lo <= k < hi /\ (exists y, nth_error (children h p) k = Some y /\ item_eqb h y x = true) /\
  (forall j y, lo <= j < k -> nth_error (children h p) j = Some y -> item_eqb h y x = false).
Definition none_equal (h : heap) (p x : loc) (lo hi : nat) : Prop :=
  forall j y, lo <= j < hi -> nth_error (children h p) j = Some y -> item_eqb h y x = false.
Definition start_at (h : heap) (p : loc) (start : option loc) (lo : nat) : Prop :=
  match start with None => lo = 0 | Some s => nth_error (children h p) lo = Some s end.
(** a stop item that is not a child stops nothing *)
Definition stop_at (h : heap) (p : loc) (stop : option loc) (hi : nat) : Prop :=
  match stop with
  | None => hi = length (children h p)
  | Some s => nth_error (children h p) hi = Some s \/ (~ In s (children h p) /\ hi = length (children h p))
  end.

Lemma skipn_nth {A} (l : list A) k a : nth_error l k = Some a -> skipn k l = a :: skipn (S k) l.
Proof.
  revert k. induction l as [|b l IH]; intros [|k] H; try discriminate; cbn in *; [injection H as ->; reflexivity|]. apply IH. exact H.
Qed.
Lemma drop_to_skip f (l : list loc) : forall n lo, length l - lo <= n -> lo <= length l ->
  (exists k y, lo <= k < length l /\ nth_error l k = Some y /\ f y = true /\ (forall j z, lo <= j < k -> nth_error l j = Some z -> f z = false) /\
     drop_to f (skipn lo l) = Some (y, skipn (S k) l)) \/
  ((forall j z, lo <= j -> nth_error l j = Some z -> f z = false) /\ drop_to f (skipn lo l) = None).
Proof.
  induction n as [|n IH]; intros lo Hn Hl.
  - right. assert (lo = length l) by lia. subst lo. rewrite skipn_all. split; [|reflexivity]. intros j z Hj H. assert (H' : nth_error l j <> None) by congruence. apply nth_error_Some in H'. lia.
  - destruct (nth_error l lo) as [y|] eqn:Ey.
    + rewrite (skipn_nth _ _ _ Ey). cbn [drop_to]. assert (HL : lo < length l) by (apply nth_error_Some; congruence). destruct (f y) eqn:Ef.
      * left. exists lo, y. repeat split; auto; lia.
      * destruct (IH (S lo) ltac:(lia) ltac:(lia)) as [(k & z & Hk & Hz & Fz & Hm & D)|[Hm D]].
        -- left. exists k, z. repeat split; auto; try lia. intros j w Hj Hw. destruct (Nat.eq_dec j lo) as [->|N]; [congruence|]. apply (Hm j w); [lia|exact Hw].
        -- right. split; [|exact D]. intros j w Hj Hw. destruct (Nat.eq_dec j lo) as [->|N]; [congruence|]. apply (Hm j w); [lia|exact Hw].
    + apply nth_error_None in Ey. right. rewrite skipn_all2 by lia. split; [|reflexivity]. intros j z Hj H. assert (H' : nth_error l j <> None) by congruence. apply nth_error_Some in H'. lia.
Qed.

Lemma get_idx_at h p k y : Reach h -> nth_error (children h p) k = Some y ->
  exists h', get_idx y h = (h', Ok (Some (Z.of_nat k))) /\ same (view h') (view h).
Proof. intros R H. destruct (get_idx_ok h p y k (reach_WF h R) H) as (h' & E & Q & _). exists h'. split; [exact E|apply ceq_same; exact Q]. Qed.

Lemma index_tail_ok h p x stop hi lo : Reach h -> stop_at h p stop hi -> lo <= hi ->
  (forall k, first_equal h p x lo hi k -> exists h', index_tail p x (option_map RItem stop) (skipn lo (children h p)) h = (h', Ok (Some (Z.of_nat k))) /\ same (view h') (view h)) /\
  (none_equal h p x lo hi -> index_tail p x (option_map RItem stop) (skipn lo (children h p)) h = (h, Err IndexError)).
Proof.
  intros R S L. pose proof (fo_nodup _ _ (wf_forest _ (reach_WF h R)) p) as ND. change (a_children (view h p)) with (children h p) in ND.
  assert (HiL : hi <= length (children h p)).
  { destruct stop as [s|]; cbn [stop_at] in S; [|lia]. destruct S as [S|[_ S]]; [|lia]. assert (nth_error (children h p) hi <> None) by congruence. apply nth_error_Some in H. lia. }
  assert (Hstop : forall s y j, stop = Some s -> nth_error (children h p) j = Some y -> j < hi -> Nat.eqb y s = false).
  { intros s y j -> Hy Hj. cbn [stop_at] in S. apply Nat.eqb_neq. intros ->. destruct S as [S|[S _]].
    - rewrite NoDup_nth_error in ND. assert (j = hi); [|lia]. apply ND; [apply nth_error_Some|]; congruence.
    - apply S. eapply nth_error_In; eauto. }
  unfold index_tail. rewrite bind_gets. destruct stop as [s|]; cbn [option_map].
  - cbn [resolve]. rewrite bind_lift. set (f := fun i => is_loc (Some s) i || item_eqb h i x).
    destruct (drop_to_skip f (children h p) (length (children h p)) lo ltac:(lia) ltac:(lia)) as [(k & y & Hk & Hy & Fy & Hm & D)|[Hm D]].
    + rewrite D. unfold f in Fy. destruct (Nat.lt_ge_cases k hi) as [Hk'|Hk'].
      * pose proof (Hstop s y k eq_refl Hy Hk') as E. cbn [is_loc] in *. rewrite E in *. cbn [orb] in Fy. split.
        -- intros k0 (Hk0 & (y0 & Hy0 & E0) & M0). assert (k0 = k); [|subst k0; apply (get_idx_at h p k y R Hy)].
           destruct (Nat.lt_trichotomy k k0) as [H|[H|H]]; [|congruence|].
           ++ rewrite (M0 k y ltac:(lia) Hy) in Fy. discriminate.
           ++ specialize (Hm k0 y0 ltac:(lia) Hy0). unfold f in Hm. rewrite E0, orb_true_r in Hm. discriminate.
        -- intros N. rewrite (N k y ltac:(lia) Hy) in Fy. discriminate.
      * split.
        -- intros k0 (Hk0 & (y0 & Hy0 & E0) & M0). specialize (Hm k0 y0 ltac:(lia) Hy0). unfold f in Hm. rewrite E0, orb_true_r in Hm. discriminate.
        -- intros N. destruct S as [S|[_ S]]; [|lia]. assert (k = hi).
           { destruct (Nat.eq_dec k hi); [assumption|]. specialize (Hm hi s ltac:(lia) S). unfold f in Hm. cbn [is_loc] in Hm. rewrite Nat.eqb_refl in Hm. discriminate. }
           subst k. assert (y = s) by congruence. subst y. cbn [is_loc]. rewrite Nat.eqb_refl. reflexivity.
    + rewrite D. split; [|reflexivity]. intros k0 (Hk0 & (y0 & Hy0 & E0) & M0). specialize (Hm k0 y0 ltac:(lia) Hy0). unfold f in Hm. rewrite E0, orb_true_r in Hm. discriminate.
  - cbn [stop_at] in S. subst hi. set (f := fun i => item_eqb h i x).
    destruct (drop_to_skip f (children h p) (length (children h p)) lo ltac:(lia) ltac:(lia)) as [(k & y & Hk & Hy & Fy & Hm & D)|[Hm D]].
    + rewrite D. unfold f in Fy. split.
      * intros k0 (Hk0 & (y0 & Hy0 & E0) & M0). assert (k0 = k); [|subst k0; apply (get_idx_at h p k y R Hy)].
        destruct (Nat.lt_trichotomy k k0) as [H|[H|H]]; [|congruence|].
        -- rewrite (M0 k y ltac:(lia) Hy) in Fy. discriminate.
        -- specialize (Hm k0 y0 ltac:(lia) Hy0). unfold f in Hm. congruence.
      * intros N. rewrite (N k y ltac:(lia) Hy) in Fy. discriminate.
    + rewrite D. split; [|reflexivity]. intros k0 (Hk0 & (y0 & Hy0 & E0) & M0). specialize (Hm k0 y0 ltac:(lia) Hy0). unfold f in Hm. congruence.
Qed.
(** index(x, start, stop): the first position from start (included) up to stop (excluded) whose
    item equals x, IndexError when there is none; for a tree with children and start before
    stop *)
Theorem C66_index_partial : forall h p x start stop lo hi, Reach h -> children h p <> [] ->
  start_at h p start lo -> stop_at h p stop hi -> lo < hi ->
  (forall k, first_equal h p x lo hi k ->
     exists h', index p x (option_map RItem start) (option_map RItem stop) h = (h', Ok (Some (Z.of_nat k))) /\ same (view h') (view h)) /\
  (none_equal h p x lo hi -> index p x (option_map RItem start) (option_map RItem stop) h = (h, Err IndexError)).
Proof.
  intros h p x start stop lo hi R NE S1 S2 L. unfold index. rewrite bind_gets. change (nitems (hnode h p)) with (children h p).
  assert (NC : forall (A : Type) (u v : A), (match children h p with [] => u | _ :: _ => v end) = v) by (intros; destruct (children h p); [congruence|reflexivity]).
  destruct start as [s|]; cbn [option_map].
  - cbn [start_at] in S1. cbn [resolve].
    assert (E : match children h p with [] => ret None | _ :: _ => s0 <- lift (Ok (Some s)) ;; match drop_to (is_loc s0) (children h p) with
        | Some (y, rest) => if item_eqb h y x then get_idx y else index_tail p x (option_map RItem stop) rest | None => throw IndexError end end h
      = (if item_eqb h s x then get_idx s else index_tail p x (option_map RItem stop) (skipn (S lo) (children h p))) h).
    { rewrite NC, bind_lift. destruct (drop_to_skip (is_loc (Some s)) (children h p) (length (children h p)) 0 ltac:(lia) ltac:(lia)) as [(k & y & Hk & Hy & Fy & Hm & D)|[Hm D]].
      - cbn [skipn] in D. rewrite D. cbn in Fy. apply Nat.eqb_eq in Fy. subst y.
        pose proof (fo_nodup _ _ (wf_forest _ (reach_WF h R)) p) as ND. rewrite NoDup_nth_error in ND. assert (k = lo) by (apply ND; [apply nth_error_Some; unfold children in Hy; congruence|unfold children in *; congruence]). subst k. reflexivity.
      - specialize (Hm lo s ltac:(lia) S1). cbn in Hm. rewrite Nat.eqb_refl in Hm. discriminate. }
    destruct (children h p) as [|c0 r0] eqn:Ec; [congruence|]. rewrite <- Ec in *. cbn [resolve] in E. rewrite E.
    destruct (item_eqb h s x) eqn:Es.
    + split.
      * intros k (Hk & (y & Hy & Ey) & M). assert (k = lo); [|subst k; apply (get_idx_at h p lo s R S1)].
        destruct (Nat.eq_dec k lo); [assumption|]. rewrite (M lo s ltac:(lia) S1) in Es. discriminate.
      * intros N. rewrite (N lo s ltac:(lia) S1) in Es. discriminate.
    + destruct (index_tail_ok h p x stop hi (S lo) R S2 ltac:(lia)) as [T1 T2]. split.
      * intros k (Hk & (y & Hy & Ey) & M). apply T1. split.
        -- destruct (Nat.eq_dec k lo); [|lia]. subst k. congruence.
        -- split; [exists y; auto|]. intros j z Hj. apply M. lia.
      * intros N. apply T2. intros j z Hj. apply N. lia.
  - cbn [start_at] in S1. subst lo. destruct (index_tail_ok h p x stop hi 0 R S2 ltac:(lia)) as [T1 T2]. cbn [skipn] in T1, T2.
    destruct (children h p) as [|c0 r0] eqn:Ec; [congruence|]. rewrite <- Ec in *. split; [exact T1|exact T2].
Qed.
(** a start item that is not a child: IndexError *)
Theorem C66_index_start_missing : forall h p x s stop, ~ In s (children h p) -> children h p <> [] ->
  index p x (Some (RItem s)) stop h = (h, Err IndexError).
Proof.
  intros h p x s stop N NE. unfold index. rewrite bind_gets. change (nitems (hnode h p)) with (children h p).
  assert (D : drop_to (is_loc (Some s)) (children h p) = None).
  { clear NE. induction (children h p) as [|c l IH]; [reflexivity|]. cbn. destruct (Nat.eqb_spec c s) as [->|]; [exfalso; apply N; left; reflexivity|]. apply IH. intros H. apply N. right. exact H. }
  destruct (children h p) as [|c0 r0]; [congruence|]. cbn [resolve]. rewrite bind_lift, D. reflexivity.
Qed.
(** start/stop given as a target that addresses one child mean that child *)
Theorem C66_index_targets : forall h p x t s start stop, get_single h p t [] = Ok (GItem s) ->
  index p x (Some (RTarget t)) stop h = index p x (Some (RItem s)) stop h /\
  (index p x start (Some (RTarget t)) h = index p x start (Some (RItem s)) h).
Proof.
  intros h p x t s start stop E. unfold index. rewrite !bind_gets. destruct (nitems (hnode h p)) as [|c0 r0]; [split; reflexivity|]. split.
  - cbn [resolve]. rewrite E. reflexivity.
  - assert (T : forall l, index_tail p x (Some (RTarget t)) l h = index_tail p x (Some (RItem s)) l h).
    { intros l. unfold index_tail. rewrite !bind_gets. cbn [resolve]. rewrite E. reflexivity. }
    destruct start as [r|]; [|apply T]. destruct (resolve h p r) as [s0|e]; [|reflexivity]. rewrite !bind_lift.
    destruct (drop_to (is_loc s0) (c0 :: r0)) as [[y rest]|]; [|reflexivity]. destruct (item_eqb h y x); [reflexivity|apply T].
Qed.
(** count is the number of equal children; it is positive exactly when [x in t], and then
    index finds the first of them *)
Theorem C66_count : forall h p x,
  count h p x = length (filter (fun c => item_eqb h c x) (children h p)) /\
  (contains_item h p x = true <-> 1 <= count h p x).
Proof.
  intros h p x. assert (E : count h p x = length (filter (fun c => item_eqb h c x) (children h p))).
  { unfold count. change (nitems (hnode h p)) with (children h p). induction (children h p) as [|c l IH]; [reflexivity|]. cbn [map filter].
    change (list_sum ((if item_eqb h x c then 1 else 0) :: map (fun c0 => if item_eqb h x c0 then 1 else 0) l)) with ((if item_eqb h x c then 1 else 0) + list_sum (map (fun c0 => if item_eqb h x c0 then 1 else 0) l)).
    rewrite IH, (C39_eq_sym h x c). destruct (item_eqb h c x); reflexivity. }
  split; [exact E|]. rewrite E. unfold contains_item. change (nitems (hnode h p)) with (children h p). rewrite existsb_exists. split.
  - intros (c & Hc & Ec). assert (In c (filter (fun c => item_eqb h c x) (children h p))) by (apply filter_In; auto). destruct (filter _ _); [destruct H|cbn; lia].
  - intros H. destruct (filter (fun c => item_eqb h c x) (children h p)) as [|c l] eqn:Ef; [cbn in H; lia|]. assert (In c (filter (fun c => item_eqb h c x) (children h p))) by (rewrite Ef; left; reflexivity).
    apply filter_In in H0. exists c. exact H0.
Qed.
Theorem C66_count_index : forall h p x, Reach h -> children h p <> [] ->
  (1 <= count h p x <-> exists h' k, index p x None None h = (h', Ok (Some k))).
Proof.
  intros h p x R NE. destruct (C66_count h p x) as [E _]. assert (L : 0 < length (children h p)) by (destruct (children h p); [congruence|cbn; lia]).
  destruct (C66_index_partial h p x None None 0 (length (children h p)) R NE eq_refl eq_refl L) as [T1 T2]. cbn [option_map] in *. split.
  - intros H. destruct (drop_to_skip (fun c => item_eqb h c x) (children h p) (length (children h p)) 0 ltac:(lia) ltac:(lia)) as [(k & y & Hk & Hy & Fy & Hm & D)|[Hm D]].
    + destruct (T1 k) as (h' & E' & _); [|exists h', (Z.of_nat k); exact E']. split; [exact Hk|]. split; [exists y; auto|exact Hm].
    + exfalso. rewrite E in H. destruct (filter (fun c => item_eqb h c x) (children h p)) as [|c l] eqn:Ef; [cbn in H; lia|].
      assert (Hc : In c (filter (fun c => item_eqb h c x) (children h p))) by (rewrite Ef; left; reflexivity). apply filter_In in Hc as [Hc Ec].
      apply In_nth_error in Hc as [j Hj]. rewrite (Hm j c ltac:(lia) Hj) in Ec. discriminate.
  - intros (h' & k & I). destruct (Nat.eq_dec (count h p x) 0) as [Z|]; [|lia]. rewrite T2 in I; [discriminate|].
    intros j y Hj Hy. destruct (item_eqb h y x) eqn:Ey; [|reflexivity]. exfalso. rewrite E in Z.
    assert (Hc : In y (filter (fun c => item_eqb h c x) (children h p))) by (apply filter_In; split; [eapply nth_error_In; eauto|exact Ey]).
    destruct (filter _ _); [destruct Hc|discriminate].
Qed.
Definition idx_ops : list op :=
  [ONew (PStr "r") PNoValue [EArgs (PStr "a") (PInt 1); EArgs (PStr "b") (PInt 2); EArgs (PStr "a") (PInt 1); EArgs (PStr "b") (PInt 2); EArgs (PStr "a") (PInt 1)] None 0;
   ONew (PStr "a") (PInt 1) [] None 0].
Definition idx_heap : heap := runs idx_ops empty_heap.
Lemma idx_reach : Reach idx_heap. Proof. apply reach_runs; [constructor|vm_compute; reflexivity]. Qed.
Example C66_case : Reach idx_heap /\ children idx_heap 0 <> [] /\ start_at idx_heap 0 (Some 2) 1 /\ stop_at idx_heap 0 (Some 5) 4 /\
  first_equal idx_heap 0 6 1 4 2 /\ snd (index 0 6 (Some (RItem 2)) (Some (RItem 5)) idx_heap) = Ok (Some 2%Z) /\ count idx_heap 0 6 = 3 /\
  snd (index 0 6 None (Some (RTarget (TgVal (PInt 0)))) idx_heap) = Err IndexError.
Proof.
  split; [exact idx_reach|]. split; [vm_compute; discriminate|]. split; [vm_compute; reflexivity|]. split; [left; vm_compute; reflexivity|]. split.
  - split; [lia|]. split; [exists 3; vm_compute; auto|]. intros j y Hj. assert (j = 1) by lia. subst j. intros H. vm_compute in H. injection H as <-. vm_compute. reflexivity.
  - vm_compute. auto.
Qed.
(** an empty tree: None instead of IndexError *)
Theorem C66_index_empty_refuted : Reach idx_heap /\ children idx_heap 1 = [] /\ snd (index 1 6 None None idx_heap) = Ok None.
Proof. split; [exact idx_reach|]. vm_compute. auto. Qed.
(** stop at or before start: the search runs on to the end of the tree *)
Theorem C66_index_stop_refuted : Reach idx_heap /\
  snd (index 0 6 (Some (RItem 2)) (Some (RItem 2)) idx_heap) = Ok (Some 2%Z) /\
  snd (index 0 6 (Some (RItem 4)) (Some (RItem 1)) idx_heap) = Ok (Some 4%Z) /\
  snd (index 0 6 (Some (RItem 1)) (Some (RItem 1)) idx_heap) = Ok (Some 0%Z).
Proof. split; [exact idx_reach|]. vm_compute. auto. Qed.
(** filtered_len counts the accepted children, tag_number the different tags, and the order
    comparisons compare the number of children *)
Theorem C66_sizes : forall h p, Reach h ->
  (forall f l, getitem h p (TgFilter f) = Ok (GList l) -> filtered_len h p f = length l) /\
  (exists ts, NoDup ts /\ (forall t, In t ts <-> exists c, In c (children h p) /\ tag_of h c = t) /\ tag_number h p = Ok (length ts)) /\
  (forall q, (item_lt h p q = true <-> length (children h p) < length (children h q)) /\
     item_gt h p q = item_lt h q p /\ item_le h p q = negb (item_lt h q p) /\ item_ge h p q = negb (item_lt h p q)).
Proof.
  intros h p R. split; [|split].
  - intros f l. unfold getitem, filtered_len. destruct (nitems (hnode h p)); [discriminate|]. intros E. injection E as <-. reflexivity.
  - unfold tag_number. change (nitems (hnode h p)) with (children h p). destruct (children h p) as [|c0 r0] eqn:Ec.
    + exists []. split; [constructor|]. split; [|reflexivity]. intros t. split; [intros []|intros (c & [] & _)].
    + rewrite <- Ec. assert (NE : children h p <> []) by congruence. pose proof (wf_fams h (reach_WF h R) p) as NF. unfold node_fam_ok in NF.
      change (nitems (hnode h p)) with (children h p) in NF. destruct (nbound (hnode h p)).
      * destruct NF as [_ NF]. congruence.
      * destruct NF as (d & Ed & FO). rewrite Ed. exists (map fst d). split; [apply FO|]. split; [|rewrite map_length; reflexivity].
        intros t. destruct FO as [ND FO]. specialize (FO t).
        assert (K : In t (map fst d) <-> dget d t <> None).
        { clear. induction d as [|[k v] d IH]; cbn; [split; [intros []|congruence]|]. destruct (pyval_eqb k t) eqn:Ek.
          - apply pyval_eqb_eq in Ek. subst k. split; [discriminate|]. auto.
          - rewrite <- IH. split; [intros [->|H]; [rewrite (proj2 (pyval_eqb_eq t t) eq_refl) in Ek; discriminate|exact H]|auto]. }
        rewrite K, FO. split.
        -- intros H. destruct (filter (fun x => pyval_eqb (ntag (hnode h x)) t) (children h p)) as [|c l] eqn:Ef; [cbn in H; congruence|].
           assert (Hc : In c (filter (fun x => pyval_eqb (ntag (hnode h x)) t) (children h p))) by (rewrite Ef; left; reflexivity). apply filter_In in Hc as [Hc Et]. exists c. split; [exact Hc|]. apply pyval_eqb_eq. exact Et.
        -- intros (c & Hc & Et). assert (Hf : In c (filter (fun x => pyval_eqb (ntag (hnode h x)) t) (children h p))) by (apply filter_In; split; [exact Hc|apply pyval_eqb_eq; exact Et]).
           destruct (filter _ _); [destruct Hf|cbn; discriminate].
      * destruct NF as [_ NF]. congruence.
  - intros q. unfold item_lt, item_gt, item_le, item_ge, ilen. split; [apply Nat.ltb_lt|]. split; [reflexivity|].
    split; apply Bool.eq_true_iff_eq; rewrite negb_true_iff, Nat.leb_le, Nat.ltb_ge; reflexivity.
Qed.
Example C66_sizes_case : Reach idx_heap /\ tag_number idx_heap 0 = Ok 2 /\ filtered_len idx_heap 0 (fun n => pyval_eqb (ntag n) (PStr "a")) = 3 /\ item_lt idx_heap 1 0 = true.
Proof. split; [exact idx_reach|]. vm_compute. auto. Qed.

(** * C67 *)
(** the items of the two subtrees that equal() compares with each other: same position in
    pre-order *)
Definition paired (h : heap) (x y a b : loc) : Prop :=
  exists T U i, tree_at h x T /\ tree_at h y U /\ nth_error (flatten T) i = Some a /\ nth_error (flatten U) i = Some b.
Lemma zip_equal_split h cc cf : forall l m, zip_equal cc cf h l m = true <->
  zip_all h l m = true /\ (forall i a b, nth_error l i = Some a -> nth_error m i = Some b -> check_flg cf h a b = true /\ check_cpl cc h a b = true).
Proof.
  induction l as [|x l IH]; intros m.
  - cbn. split; [|reflexivity]. intros _. split; [reflexivity|]. intros [|i] a b H; discriminate.
  - destruct m as [|y m].
    + cbn. split; [|reflexivity]. intros _. split; [reflexivity|]. intros [|i] a b H H'; discriminate.
    + cbn [zip_equal zip_all]. rewrite !andb_true_iff, IH. split.
      * intros [[[F C] P] [Z A]]. split; [auto|]. intros [|i] a b H H'; [injection H as <-; injection H' as <-; auto|]. eapply A; eassumption.
      * intros [[P Z] A]. destruct (A 0 x y eq_refl eq_refl) as [F C]. repeat split; auto; eapply (A (S i)); eauto.
Qed.
(** equal(other) is ==; with the optional checks it also compares the flags resp. the coupled
    objects of all compared pairs of items *)
Theorem C67_equal : forall h cc cf x y, Reach h -> x < hnext h -> y < hnext h ->
  (equal h cc cf x y = true <-> item_eqb h x y = true /\
     (cf = true -> forall a b, paired h x y a b -> a_flags (view h a) = a_flags (view h b)) /\
     (cc = true -> forall a b, paired h x y a b -> a_coupled (view h a) = a_coupled (view h b))).
Proof.
  intros h cc cf x y R Hx Hy. pose proof (wf_forest _ (reach_WF h R)) as F.
  assert (CF : forall a b, check_flg cf h a b = true <-> (cf = true -> a_flags (view h a) = a_flags (view h b))).
  { intros a b. unfold check_flg. cbn [view a_flags]. rewrite orb_true_iff, negb_true_iff, Z.eqb_eq. destruct cf; intuition congruence. }
  assert (CC : forall a b, check_cpl cc h a b = true <-> (cc = true -> a_coupled (view h a) = a_coupled (view h b))).
  { intros a b. unfold check_cpl. cbn [view a_coupled]. rewrite orb_true_iff, negb_true_iff.
    assert (E : match ncoupled (hnode h a), ncoupled (hnode h b) with Some c, Some d => Nat.eqb c d | None, None => true | _, _ => false end = true <-> ncoupled (hnode h a) = ncoupled (hnode h b)).
    { destruct (ncoupled (hnode h a)), (ncoupled (hnode h b)); split; intros E; try discriminate; try reflexivity; [apply Nat.eqb_eq in E; congruence|injection E as ->; apply Nat.eqb_refl]. }
    rewrite E. destruct cc; intuition congruence. }
  destruct (deep_list_total h x F Hx) as (T & HT & ET & D1). destruct (deep_list_total h y F Hy) as (U & HU & EU & D2).
  assert (PI : forall a b, paired h x y a b <-> (a = x /\ b = y) \/ exists i, nth_error (below_tree T) i = Some a /\ nth_error (below_tree U) i = Some b).
  { intros a b. split.
    - intros (T' & U' & i & [E1 L1] & [E2 L2] & N1 & N2). assert (T' = T) by (eapply ltree_unique; eauto; congruence). assert (U' = U) by (eapply ltree_unique; eauto; congruence). subst T' U'.
      destruct T as [x0 ts], U as [y0 us]. cbn in ET, EU. subst x0 y0. destruct i as [|i]; [left; cbn in N1, N2; split; congruence|]. right. exists i. split; [exact N1|exact N2].
    - intros H. assert (K : exists i, nth_error (flatten T) i = Some a /\ nth_error (flatten U) i = Some b).
      { destruct T as [x0 ts], U as [y0 us]. cbn in ET, EU. subst x0 y0. destruct H as [[-> ->]|(i & N1 & N2)]; [exists 0; split; reflexivity|]. exists (S i). split; [exact N1|exact N2]. }
      destruct K as (i & N1 & N2). exists T, U, i. repeat split; auto. }
  unfold equal, item_eqb. destruct (Nat.eqb_spec x y) as [<-|NE].
  { split; [|reflexivity]. intros _. assert (T = U) by (eapply ltree_unique; eauto; congruence). subst U.
    assert (S : forall a b, paired h x x a b -> a = b) by (intros a b H; apply PI in H as [[-> ->]|(i & N1 & N2)]; congruence).
    split; [reflexivity|]. split; intros _ a b H; apply S in H; congruence. }
  assert (ROOT : (forall a b, paired h x y a b -> check_flg cf h a b = true) /\ (forall a b, paired h x y a b -> check_cpl cc h a b = true) <->
    (cf = true -> forall a b, paired h x y a b -> a_flags (view h a) = a_flags (view h b)) /\ (cc = true -> forall a b, paired h x y a b -> a_coupled (view h a) = a_coupled (view h b))).
  { split; intros [A B]; split.
    - intros c a b P. apply (proj1 (CF a b)); auto.
    - intros c a b P. apply (proj1 (CC a b)); auto.
    - intros a b P. apply CF. intros c. apply A; assumption.
    - intros a b P. apply CC. intros c. apply B; assumption. }
  rewrite <- ROOT. clear ROOT. rewrite D1, D2.
  assert (PXY : paired h x y x y) by (apply PI; left; auto).
  destruct (check_flg cf h x y && check_cpl cc h x y) eqn:Ec; cbn [negb].
  - apply andb_true_iff in Ec as [Ec1 Ec2].
    destruct (negb (pyval_eqb (ntag (hnode h x)) (ntag (hnode h y)))); [intuition discriminate|].
    destruct (negb (Nat.eqb (length (nitems (hnode h x))) (length (nitems (hnode h y))))); [intuition discriminate|].
    destruct (negb (pyval_eqb (nval (hnode h x)) (nval (hnode h y)))); [intuition discriminate|].
    rewrite zip_equal_split. split; intros [Z A]; (split; [exact Z|]).
    + split; intros a b P; apply PI in P as [[-> ->]|(i & N1 & N2)]; auto; apply (A i a b N1 N2).
    + destruct A as [A1 A2]. intros i a b N1 N2. assert (P : paired h x y a b) by (apply PI; right; exists i; auto). auto.
  - split; [discriminate|]. intros [_ [A B]]. rewrite (A x y PXY), (B x y PXY) in Ec. discriminate.
Qed.
Theorem C67_equal_is_eq : forall h x y, equal h false false x y = item_eqb h x y.
Proof.
  intros h x y. unfold equal, item_eqb. destruct (Nat.eqb x y); [reflexivity|]. cbn [check_flg check_cpl negb orb andb].
  destruct (negb (pyval_eqb (ntag (hnode h x)) (ntag (hnode h y)))); [reflexivity|].
  destruct (negb (Nat.eqb (length (nitems (hnode h x))) (length (nitems (hnode h y))))); [reflexivity|].
  destruct (negb (pyval_eqb (nval (hnode h x)) (nval (hnode h y)))); [reflexivity|].
  destruct (deep_list (S (hnext h)) h x) as [l|]; [|reflexivity]. destruct (deep_list (S (hnext h)) h y) as [m|]; [|reflexivity].
  revert m. induction l as [|a l IH]; intros [|b m]; try reflexivity. cbn [zip_equal zip_all check_flg check_cpl negb orb andb]. rewrite IH. reflexivity.
Qed.
Theorem C67_equal_sym : forall h cc cf x y, equal h cc cf x y = equal h cc cf y x.
Proof.
  assert (SF : forall on h a b, check_flg on h a b = check_flg on h b a) by (intros; unfold check_flg; rewrite Z.eqb_sym; reflexivity).
  assert (SC : forall on h a b, check_cpl on h a b = check_cpl on h b a).
  { intros. unfold check_cpl. destruct (ncoupled (hnode h a)), (ncoupled (hnode h b)); try reflexivity. rewrite Nat.eqb_sym. reflexivity. }
  intros h cc cf x y. pose proof (C39_eq_sym h x y) as E. unfold item_eqb in E. unfold equal. rewrite (Nat.eqb_sym y x). destruct (Nat.eqb x y) eqn:Exy; [reflexivity|].
  rewrite (SF cf h y x), (SC cc h y x). destruct (negb (check_flg cf h x y && check_cpl cc h x y)); [reflexivity|].
  rewrite (Nat.eqb_sym y x), Exy in E.
  assert (PS : forall a b, pyval_eqb a b = pyval_eqb b a) by (intros a b; apply Bool.eq_true_iff_eq; rewrite !pyval_eqb_eq; split; congruence).
  rewrite (PS (ntag (hnode h y))), (PS (nval (hnode h y))), (Nat.eqb_sym (length (nitems (hnode h y)))) in *.
  destruct (negb (pyval_eqb (ntag (hnode h x)) (ntag (hnode h y)))); [reflexivity|].
  destruct (negb (Nat.eqb (length (nitems (hnode h x))) (length (nitems (hnode h y))))); [reflexivity|].
  destruct (negb (pyval_eqb (nval (hnode h x)) (nval (hnode h y)))); [reflexivity|].
  destruct (deep_list (S (hnext h)) h x) as [l|], (deep_list (S (hnext h)) h y) as [m|]; try reflexivity.
  apply Bool.eq_true_iff_eq. rewrite !zip_equal_split, E. split; intros [Z A]; (split; [exact Z|]); intros i a b N1 N2; rewrite SF, SC; eapply A; eassumption.
Qed.
Definition equal_ops : list op := [ONew (PStr "r") PNoValue [EArgs (PStr "a") (PInt 1)] None 0; OCopy 0; OSetValueReadOnly 3].
Example C67_case : let h := runs equal_ops empty_heap in Reach h /\ 0 < hnext h /\ 2 < hnext h /\
  equal h false false 0 2 = true /\ equal h false true 0 2 = false /\ equal h true false 0 2 = true /\ paired h 0 2 1 3.
Proof.
  cbv zeta. split; [apply reach_runs; [constructor|vm_compute; reflexivity]|]. split; [vm_compute; lia|]. split; [vm_compute; lia|].
  split; [vm_compute; reflexivity|]. split; [vm_compute; reflexivity|]. split; [vm_compute; reflexivity|].
  exists (Node 0 [Node 1 []]), (Node 2 [Node 3 []]), 1. vm_compute. auto 20.
Qed.
(** with all checks switched on, trees with different tags below the root still are equal *)
Theorem C67_equal_tags_refuted : let h := runs eq_ops empty_heap in Reach h /\ equal h true true 0 2 = true /\
  map (tag_of h) (children h 0) = [PStr "a"] /\ map (tag_of h) (children h 2) = [PStr "b"].
Proof. cbv zeta. split; [apply reach_runs; [constructor|vm_compute; reflexivity]|]. vm_compute. auto. Qed.

(** * C68 *)
(** [r] is the highest item reached from [x] through linked items only *)
Inductive LinkedUp (h : heap) : loc -> loc -> Prop :=
| lu_top x : flag h x 3 = true -> (forall q, parent_of h x = Some q -> flag h q 3 = false) -> LinkedUp h x x
| lu_up x q r : flag h x 3 = true -> parent_of h x = Some q -> LinkedUp h q r -> LinkedUp h x r.
Theorem C68_link_root : forall h x, LReach h -> x < hnext h -> flag h x 3 = true ->
  exists r, link_root (S (hnext h)) h x = Some (Some r) /\ LinkedUp h x r /\ flag h r 3 = true /\ Anc (view h) r x.
Proof.
  intros h x R Hx Fx. pose proof (lw_forest _ (proj1 (lreach_ok h R))) as F. destruct (Rooted_Lev _ _ (fo_root _ _ F x)) as [k Hk].
  pose proof (Lev_bound _ _ _ _ F Hk Hx) as Hb.
  assert (LF : forall y, is_linked h y = flag h y 3) by (intros y; apply linked_flag).
  assert (G : forall y j, Lev (view h) y j -> forall fuel, j < fuel -> flag h y 3 = true ->
    exists r, link_root fuel h y = Some (Some r) /\ LinkedUp h y r /\ flag h r 3 = true /\ Anc (view h) r y).
  { intros y j L. induction L as [y P|y q j P L IH]; intros fuel Hf Fy; (destruct fuel as [|f]; [lia|]); cbn [link_root]; rewrite LF, Fy; cbn [view a_parent] in P.
    - destruct (nprt (hnode h y)) eqn:E; [discriminate|]. exists y. split; [reflexivity|]. split; [|split; [exact Fy|constructor]].
      constructor; [exact Fy|]. intros q Q. cbn in Q. rewrite E in Q. discriminate.
    - destruct (nprt (hnode h y)) as [pl|] eqn:E; [|discriminate]. cbn in P. injection P as P. rewrite P, LF. destruct (flag h q 3) eqn:Fq.
      + destruct (IH f ltac:(lia) eq_refl) as (r & E1 & E2 & E3 & E4). exists r. split; [exact E1|]. assert (Q : parent_of h y = Some q) by (cbn; rewrite E; cbn; congruence).
        split; [econstructor; eassumption|]. split; [exact E3|]. econstructor; [exact Q|exact E4].
      + exists y. split; [reflexivity|]. split; [|split; [exact Fy|constructor]]. constructor; [exact Fy|]. intros q' Q. cbn in Q. rewrite E in Q. cbn in Q. congruence. }
  apply (G x k Hk); [lia|exact Fx].
Qed.

Theorem C68_not_linked_none : forall h x, flag h x 3 = false -> link_root (S (hnext h)) h x = Some None.
Proof. intros h x F. cbn [link_root]. rewrite linked_flag, F. reflexivity. Qed.
(** items 7, 8, 9 were loaded below the link root 6, item 10 below 9 *)
Example C68_case : LReach lk1_heap /\ parent_of lk1_heap 10 = Some 9 /\ flag lk1_heap 10 3 = true /\ flag lk1_heap 9 3 = true /\
  flag lk1_heap 6 3 = false /\ link_root (S (hnext lk1_heap)) lk1_heap 10 = Some (Some 9) /\ link_root (S (hnext lk1_heap)) lk1_heap 9 = Some (Some 9).
Proof. split; [exact (proj1 C45_case)|]. vm_compute. repeat split. Qed.
(** documented: "in case item is not linked it delivers itself" *)
Theorem C68_not_linked_refuted : let h := runs equal_ops empty_heap in Reach h /\ 1 < hnext h /\ flag h 1 3 = false /\
  link_root (S (hnext h)) h 1 = Some None.
Proof. cbv zeta. split; [apply reach_runs; [constructor|vm_compute; reflexivity]|]. vm_compute. repeat split. lia. Qed.
