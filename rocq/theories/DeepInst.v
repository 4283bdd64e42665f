(** The idx_path and tag_idx_path iterators: the counters give the right numbers, and the
    public methods compute the specified lists on every tree. *)
From Verif Require Import Base Heap HeapSpec ListLemmas Tree HeapTree Deep DeepSpec DeepProofs DeepPaths.

Lemma unf_ltree h T : unf (children h) T <-> ltree (view h) T.
Proof.
  induction T as [x cs IH] using tree_ind'. rewrite unf_iff, ltree_iff. split; intros [A B]; split; try exact A; clear A.
  - induction IH as [|c cs Hc _ IHcs]; [constructor|]. inversion B; subst. constructor; [apply Hc|]; auto.
  - induction IH as [|c cs Hc _ IHcs]; [constructor|]. inversion B; subst. constructor; [apply Hc|]; auto.
Qed.

Section Inst.
  Context (ch : loc -> list loc) (tg : loc -> pyval).
  (** ** idx *)
  Lemma numbers_idx_fwd l : forall i, numbers (nxt_idx false) (Z.of_nat i - 1)%Z l = Some (map Z.of_nat (seq i (length l))).
  Proof.
    induction l as [|x l IH]; intros i; [reflexivity|]. cbn [numbers nxt_idx length seq map]. unfold move_idx.
    specialize (IH (S i)). replace (Z.of_nat (S i) - 1)%Z with (Z.of_nat i) in IH by lia.
    replace (Z.of_nat i - 1 + 1)%Z with (Z.of_nat i) by lia. rewrite IH. reflexivity.
  Qed.
  Lemma numbers_idx_rev l : numbers (nxt_idx true) (Z.of_nat (length l)) l = Some (rev (map Z.of_nat (seq 0 (length l)))).
  Proof.
    induction l as [|x l IH]; [reflexivity|]. cbn [numbers nxt_idx]. unfold move_idx. cbn [length].
    replace (Z.of_nat (S (length l)) - 1)%Z with (Z.of_nat (length l)) by lia. rewrite IH.
    rewrite seq_S, map_app, rev_app_distr. reflexivity.
  Qed.
  Lemma num_ok_idx rv x : numbers (nxt_idx rv) (start_idx ch rv x) (ord rv (ch x)) = Some (ord rv (map (idx_el (ch x)) (seq 0 (length (ch x))))).
  Proof.
    unfold start_idx. destruct rv; cbn [ord].
    - rewrite <- (rev_length (ch x)) at 1. rewrite numbers_idx_rev, rev_length. reflexivity.
    - apply (numbers_idx_fwd (ch x) 0).
  Qed.
  (** ** tag_idx *)
  Notation cnt := (fun t l => Z.of_nat (count_tag tg t l)).
  Lemma count_app t l m : count_tag tg t (l ++ m) = count_tag tg t l + count_tag tg t m.
  Proof. unfold count_tag. rewrite filter_app, app_length. reflexivity. Qed.
  Lemma count_one t x : count_tag tg t [x] = if pyval_eqb (tg x) t then 1 else 0.
  Proof. unfold count_tag. cbn. destruct (pyval_eqb (tg x) t); reflexivity. Qed.
  Lemma dget_dset d t v t' : dget_cnt (dset_cnt d t v) t' = if pyval_eqb t t' then Some v else dget_cnt d t'.
  Proof.
    induction d as [|[k w] d IH]; cbn.
    - destruct (pyval_eqb t t'); reflexivity.
    - destruct (pyval_eqb k t) eqn:E; cbn.
      + apply pyval_eqb_eq in E. subst k. destruct (pyval_eqb t t'); reflexivity.
      + rewrite IH. destruct (pyval_eqb k t') eqn:E2; [|reflexivity]. destruct (pyval_eqb t t') eqn:E3; [|reflexivity].
        apply pyval_eqb_eq in E2, E3. subst. rewrite (proj2 (pyval_eqb_eq t' t') eq_refl) in E. discriminate.
  Qed.
  Lemma dget_map (g : pyval -> Z) ks t : In t ks -> dget_cnt (map (fun t => (t, g t)) ks) t = Some (g t).
  Proof.
    induction ks as [|k ks IH]; [intros []|]. cbn. intros H. destruct (pyval_eqb k t) eqn:E; [apply pyval_eqb_eq in E; subst; reflexivity|].
    apply IH. destruct H as [<-|H]; [|exact H]. rewrite (proj2 (pyval_eqb_eq k k) eq_refl) in E. discriminate.
  Qed.
  Lemma dget_start rv x t : In t (map tg (ch x)) -> dget_cnt (start_cnt ch tg rv x) t = Some (if rv then cnt t (ch x) else -1)%Z.
  Proof. intros H. unfold start_cnt. rewrite (dget_map (fun t => if rv then cnt t (ch x) else (-1)%Z)); [reflexivity|]. apply nodup_In. exact H. Qed.
  Lemma tag_num_at l x m : tag_num tg (l ++ x :: m) (length l) = cnt (tg x) l.
  Proof. unfold tag_num. rewrite nth_error_app2, Nat.sub_diag by lia. cbn [nth_error]. rewrite firstn_app, Nat.sub_diag, firstn_all. cbn [firstn]. rewrite app_nil_r. reflexivity. Qed.
  Lemma numbers_tag_fwd l2 : forall l1 d, (forall t, In t (map tg (l1 ++ l2)) -> dget_cnt d t = Some (cnt t l1 - 1)%Z) ->
    numbers (nxt_tag tg false) d l2 = Some (map (tag_num tg (l1 ++ l2)) (seq (length l1) (length l2))).
  Proof.
    induction l2 as [|x l2 IH]; intros l1 d H; [reflexivity|].
    cbn [numbers length seq map]. unfold nxt_tag at 1. rewrite (H (tg x)) by (rewrite map_app; apply in_or_app; right; left; reflexivity).
    unfold move_idx. replace (cnt (tg x) l1 - 1 + 1)%Z with (cnt (tg x) l1) by lia. rewrite tag_num_at.
    assert (El : l1 ++ x :: l2 = (l1 ++ [x]) ++ l2) by (rewrite <- app_assoc; reflexivity).
    rewrite El. rewrite (IH (l1 ++ [x])).
    - rewrite app_length, Nat.add_1_r. reflexivity.
    - intros t Ht. rewrite dget_dset, count_app, count_one. destruct (pyval_eqb (tg x) t) eqn:E.
      + apply pyval_eqb_eq in E. subst t. f_equal. lia.
      + rewrite H by (rewrite El; exact Ht). f_equal. lia.
  Qed.
  Lemma numbers_tag_rev l : forall m d, (forall t, In t (map tg l) -> dget_cnt d t = Some (cnt t l)) ->
    numbers (nxt_tag tg true) d (rev l) = Some (rev (map (tag_num tg (l ++ m)) (seq 0 (length l)))).
  Proof.
    induction l as [|x l IH] using rev_ind; intros m d H; [reflexivity|].
    rewrite rev_app_distr, app_length, Nat.add_1_r, seq_S, map_app, rev_app_distr. cbn [rev app numbers map Nat.add]. unfold nxt_tag at 1.
    rewrite (H (tg x)) by (rewrite map_app; apply in_or_app; right; left; reflexivity).
    unfold move_idx. rewrite count_app, count_one, (proj2 (pyval_eqb_eq (tg x) (tg x)) eq_refl).
    replace (Z.of_nat (count_tag tg (tg x) l + 1) - 1)%Z with (cnt (tg x) l) by lia.
    rewrite <- app_assoc. cbn [app]. rewrite tag_num_at, (IH (x :: m)); [reflexivity|].
    intros t Ht. rewrite dget_dset. destruct (pyval_eqb (tg x) t) eqn:E; [apply pyval_eqb_eq in E; subst; reflexivity|].
    rewrite H by (rewrite map_app; apply in_or_app; auto). rewrite count_app, count_one, E. f_equal. lia.
  Qed.
  Lemma num_ok_tag rv x : numbers (nxt_tag tg rv) (start_cnt ch tg rv x) (ord rv (ch x)) = Some (ord rv (map (tag_num tg (ch x)) (seq 0 (length (ch x))))).
  Proof.
    destruct rv; cbn [ord].
    - rewrite (numbers_tag_rev (ch x) []); [rewrite app_nil_r; reflexivity|]. intros t Ht. apply (dget_start true); assumption.
    - apply (numbers_tag_fwd (ch x) []). intros t Ht. apply (dget_start false); assumption.
  Qed.
  Lemma el_ok_tag ls i x : nth_error ls i = Some x -> tag_el tg ls i = (tg x, tag_num tg ls i).
  Proof. intros E. unfold tag_el. rewrite E. reflexivity. Qed.

  (** ** the generators on a tree *)
  Context (T : tree loc) (U : unf ch T) (n : nat) (L : 3 * size T <= n).
  Notation x := (root T).
  Definition around {O} (slf front : bool) (self : O) (l : list O) : list O :=
    if slf then if front then self :: l else l ++ [self] else l.
  Lemma with_self_ok {O} f slf first (self : O) l : with_self f slf first self x (Some (l, None)) =
    Some (if slf && negb (ok f x) then [] else around slf first self l, None).
  Proof. unfold with_self, around. destruct slf; cbn; [|reflexivity]. destruct (ok f x); cbn; [|reflexivity]. destruct first; reflexivity. Qed.
  Lemma iter_down_ok rv f slf : iter_down ch rv f slf n x =
    Some (if slf && negb (ok f x) then [] else around slf (negb rv) x (below_tree (shape rv (ok f) T)), None).
  Proof. unfold iter_down. rewrite (run_down ch rv f T n U) by lia. apply with_self_ok. Qed.
  Lemma iter_up_ok rv f slf : iter_up ch rv f slf n x =
    Some (if slf && negb (ok f x) then [] else around slf false x (post_below (shape rv (ok f) T)), None).
  Proof. unfold iter_up. rewrite (run_up ch rv f T n U) by lia. apply with_self_ok. Qed.
  (** cache writes among the events are right: the position resp. the number in the family *)
  Definition caches_right {P} (evs : list (ev P)) : Prop :=
    (forall y i, In (CacheAbs y i) evs -> exists p k, nth_error (ch p) k = Some y /\ i = Z.of_nat k) /\
    (forall y i, In (CacheFam y i) evs -> exists p k, nth_error (ch p) k = Some y /\ i = tag_num tg (ch p) k).
  Lemma caches_app {P} (a b : list (ev P)) : caches_right a -> caches_right b -> caches_right (a ++ b).
  Proof. intros [A1 A2] [B1 B2]. split; intros y i H; apply in_app_iff in H as [H|H]; eauto. Qed.
  Lemma caches_yield {P} (p : P) y : caches_right [Yield p y].
  Proof. split; intros ? ? [H|[]]; discriminate. Qed.
  Lemma caches_nil {P} : @caches_right P []. Proof. split; intros ? ? []. Qed.
  Lemma caches_abs (evs : list (ev (list Z))) : evs_ok ch CacheAbs (@idx_el loc) evs -> caches_right evs.
  Proof.
    intros H. split; intros y i Hi; destruct (H _ Hi) as [(p & z & E)|(z & j & E & q & k & A & B)]; try discriminate.
    injection E as <- <-. exists q, k. split; [exact A|]. rewrite <- B. reflexivity.
  Qed.
  Lemma caches_fam (evs : list (ev (list (pyval * Z)))) : evs_ok ch CacheFam (tag_num tg) evs -> caches_right evs.
  Proof.
    intros H. split; intros y i Hi; destruct (H _ Hi) as [(p & z & E)|(z & j & E & q & k & A & B)]; try discriminate.
    injection E as <- <-. exists q, k. split; [exact A|]. symmetry; exact B.
  Qed.
  Lemma caches_with_self {P} f slf first (self : P) evs : caches_right evs ->
    exists evs', with_self f slf first (Yield self x) x (Some (evs, None)) = Some (evs', None) /\ caches_right evs' /\
      yields evs' = if slf && negb (ok f x) then [] else around slf first (self, x) (yields evs).
  Proof.
    intros C. rewrite with_self_ok. eexists. split; [reflexivity|]. destruct (slf && negb (ok f x)); [split; [apply caches_nil|reflexivity]|].
    unfold around. destruct slf; [|auto]. destruct first.
    - split; [apply (caches_app [_]); [apply caches_yield|exact C]|reflexivity].
    - split; [apply caches_app; [exact C|apply caches_yield]|]. rewrite yields_app. reflexivity.
  Qed.
  Notation okp := (fun f (px : _ * loc) => ok f (snd px)).
  Lemma iter_down_idx_ok rv f slf pre : exists evs, iter_down_idx ch rv f slf pre n x = Some (evs, None) /\ caches_right evs /\
    yields evs = if slf && negb (ok f x) then [] else around slf (negb rv) (pre, x) (below_tree (shape rv (okp f) (path_tree idx_el pre T))).
  Proof.
    unfold iter_down_idx. edestruct (run_down_num_ok ch rv f (start_idx ch rv) (start_idx ch rv) (nxt_idx rv) (fun _ j => j) CacheAbs pre idx_el idx_el) as (evs & E & K & Y);
      [apply num_ok_idx|reflexivity|reflexivity|exact U|instantiate (1 := n); lia|]. rewrite E.
    destruct (caches_with_self f slf (negb rv) pre evs (caches_abs _ K)) as (evs' & E' & C & Y'). exists evs'. rewrite Y', Y. auto.
  Qed.
  Lemma iter_up_idx_ok rv f slf pre : exists evs, iter_up_idx ch rv f slf pre n x = Some (evs, None) /\ caches_right evs /\
    yields evs = if slf && negb (ok f x) then [] else around slf false (pre, x) (post_below (shape rv (okp f) (path_tree idx_el pre T))).
  Proof.
    unfold iter_up_idx. edestruct (run_up_num_ok ch rv f (start_idx ch rv) (start_idx ch rv) (nxt_idx rv) (fun _ j => j) CacheAbs pre idx_el idx_el) as (evs & E & K & Y);
      [apply num_ok_idx|reflexivity|reflexivity|exact U|instantiate (1 := n); lia|]. rewrite E.
    destruct (caches_with_self f slf false pre evs (caches_abs _ K)) as (evs' & E' & C & Y'). exists evs'. rewrite Y', Y. auto.
  Qed.
  Lemma iter_up_tag_ok rv f slf pre : exists evs, iter_up_tag ch tg rv f slf pre n x = Some (evs, None) /\ caches_right evs /\
    yields evs = if slf && negb (ok f x) then [] else around slf false (pre, x) (post_below (shape rv (okp f) (path_tree (tag_el tg) pre T))).
  Proof.
    unfold iter_up_tag. edestruct (run_up_num_ok ch rv f (start_cnt ch tg rv) (fun _ => TI_NONE) (nxt_tag tg rv) (fun c j => (tg c, j)) CacheFam pre (tag_num tg) (tag_el tg)) as (evs & E & K & Y);
      [apply num_ok_tag|apply el_ok_tag|reflexivity|exact U|instantiate (1 := n); lia|]. rewrite E.
    destruct (caches_with_self f slf false pre evs (caches_fam _ K)) as (evs' & E' & C & Y'). exists evs'. rewrite <- Y. auto.
  Qed.
  (** here the calling item comes twice when there is a filter it passes, forwards, with SELF *)
  Definition twice (f : option (loc -> bool)) (slf rv : bool) : bool := match f with Some g => slf && negb rv && g x | None => false end.
  Lemma iter_down_tag_ok rv f slf pre : exists evs, iter_down_tag ch tg rv f slf pre n x = Some (evs, None) /\ caches_right evs /\
    yields evs = if slf && negb (ok f x) then [] else
      around slf (negb rv) (pre, x) (below_tree (shape rv (okp f) (path_tree (tag_el tg) pre T)) ++ if twice f slf rv then [(pre, x)] else []).
  Proof.
    unfold iter_down_tag. edestruct (run_down_num_ok ch rv f (start_cnt ch tg rv) (fun _ => TI_NONE) (nxt_tag tg rv) (fun c j => (tg c, j)) CacheFam pre (tag_num tg) (tag_el tg)) as (evs & E & K & Y);
      [apply num_ok_tag|apply el_ok_tag|reflexivity|exact U|instantiate (1 := n); lia|]. rewrite E.
    set (evs2 := evs ++ if twice f slf rv then [Yield pre x] else []).
    assert (A : again f slf rv (Yield pre x) x (Some (evs, None)) = Some (evs2, None)).
    { unfold again, evs2, twice. destruct f as [g|]; [|rewrite app_nil_r; reflexivity]. destruct (slf && negb rv && g x); [reflexivity|rewrite app_nil_r; reflexivity]. }
    rewrite A. assert (C2 : caches_right evs2).
    { apply caches_app; [apply caches_fam; exact K|]. destruct (twice f slf rv); [apply caches_yield|apply caches_nil]. }
    destruct (caches_with_self f slf (negb rv) pre evs2 C2) as (evs' & E' & C & Y'). exists evs'. split; [exact E'|]. split; [exact C|].
    rewrite <- Y. rewrite Y'. unfold evs2. rewrite yields_app. destruct (twice f slf rv); reflexivity.
  Qed.
End Inst.
