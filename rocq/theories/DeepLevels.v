(** Facts about the levels of a tree, and the level-wise iterators. *)
From Coq Require Import Sorting.Permutation.
From Verif Require Import Base Heap HeapSpec ListLemmas Tree HeapTree Deep DeepSpec DeepProofs DeepPaths DeepInst DeepSib DeepSibProofs.

Lemma Permutation_flat_map_pw {A B} (f g : A -> list B) l : (forall a, In a l -> Permutation (f a) (g a)) -> Permutation (flat_map f l) (flat_map g l).
Proof. induction l as [|a l IH]; intros H; cbn; [constructor|]. apply Permutation_app; [apply H; left; reflexivity|apply IH; intros; apply H; right; assumption]. Qed.
Lemma Permutation_flat_map_l {A B} (f : A -> list B) l m : Permutation l m -> Permutation (flat_map f l) (flat_map f m).
Proof. induction 1; cbn; [constructor|apply Permutation_app_head; assumption| |eapply perm_trans; eassumption]. rewrite !app_assoc. apply Permutation_app_tail, Permutation_app_comm. Qed.
Lemma flatten_mirror_perm {A} (T : tree A) : Permutation (flatten (mirror T)) (flatten T).
Proof.
  induction T as [a cs IH] using tree_ind'. cbn. constructor. rewrite Forall_forall in IH.
  etransitivity; [apply Permutation_flat_map_l; symmetry; apply Permutation_rev|]. rewrite flat_map_map. apply Permutation_flat_map_pw. exact IH.
Qed.
Lemma flatten_turned_perm {A} rv (T : tree A) : Permutation (flatten (turned rv T)) (flatten T).
Proof. destruct rv; [apply flatten_mirror_perm|reflexivity]. Qed.
Lemma postorder_perm {A} (T : tree A) : Permutation (postorder T) (flatten T).
Proof.
  induction T as [a cs IH] using tree_ind'. cbn. rewrite Forall_forall in IH. etransitivity; [apply Permutation_app_comm|]. cbn. constructor. apply Permutation_flat_map_pw. exact IH.
Qed.
Lemma NoDup_flat_map_inj {A B} (f : A -> list B) l : NoDup (flat_map f l) -> forall c d y, In c l -> In d l -> In y (f c) -> In y (f d) -> c = d.
Proof.
  induction l as [|a l IH]; cbn; [intros _ c d y []|]. intros ND c d y Hc Hd Yc Yd. apply NoDup_app_inv in ND as (N1 & N2 & N3).
  destruct Hc as [<-|Hc], Hd as [<-|Hd]; [reflexivity| | |eauto].
  - exfalso. apply (N3 y Yc). apply in_flat_map. eauto.
  - exfalso. apply (N3 y Yd). apply in_flat_map. eauto.
Qed.
Lemma NoDup_flat_map_sub {A B} (f g : A -> list B) l : NoDup (flat_map f l) -> (forall a, In a l -> NoDup (f a) -> NoDup (g a) /\ incl (g a) (f a)) -> NoDup (flat_map g l).
Proof.
  induction l as [|a l IH]; cbn; [constructor|]. intros ND H. apply NoDup_app_inv in ND as (N1 & N2 & N3).
  destruct (H a (or_introl eq_refl) N1) as [G1 G2]. apply NoDup_app; [exact G1|apply IH; [exact N2|intros; apply H; auto]|].
  intros y Y1 Y2. apply in_flat_map in Y2 as (b & Hb & Yb). apply (N3 y (G2 y Y1)). apply in_flat_map. exists b. split; [exact Hb|].
  assert (Nb : NoDup (f b)). { clear - N2 Hb. apply in_split in Hb as (l1 & l2 & ->). rewrite flat_map_app in N2. cbn in N2. apply NoDup_app_inv in N2 as (_ & N2 & _). apply NoDup_app_inv in N2 as (N2 & _ & _). exact N2. }
  apply (H b (or_intror Hb) Nb). exact Yb.
Qed.
Lemma at_depth_unique {A} (T : tree A) : NoDup (flatten T) -> forall i j y, In y (at_depth i T) -> In y (at_depth j T) -> i = j.
Proof.
  induction T as [a cs IH] using tree_ind'. cbn. intros ND i j y Hi Hj. inversion ND as [|? ? N1 N2]; subst. rewrite Forall_forall in IH.
  destruct i as [|i], j as [|j]; [reflexivity| | |]; cbn in Hi, Hj.
  - destruct Hi as [<-|[]]. exfalso. apply N1. apply in_flat_map in Hj as (c & Hc & H). apply in_flat_map. exists c. split; [exact Hc|]. eapply at_depth_in; exact H.
  - destruct Hj as [<-|[]]. exfalso. apply N1. apply in_flat_map in Hi as (c & Hc & H). apply in_flat_map. exists c. split; [exact Hc|]. eapply at_depth_in; exact H.
  - apply in_flat_map in Hi as (c & Hc & Yc). apply in_flat_map in Hj as (d & Hd & Yd).
    assert (c = d) by (eapply (NoDup_flat_map_inj flatten cs N2 c d y); eauto using at_depth_in). subst d. f_equal. eapply (IH c Hc); eauto.
    clear - N2 Hc. apply in_split in Hc as (l1 & l2 & ->). rewrite flat_map_app in N2. cbn in N2. apply NoDup_app_inv in N2 as (_ & N2 & _). apply NoDup_app_inv in N2 as (N2 & _ & _). exact N2.
Qed.
Lemma at_depth_NoDup {A} k : forall T : tree A, NoDup (flatten T) -> NoDup (at_depth k T).
Proof.
  induction k as [|k IH]; intros [a cs] ND; cbn; [constructor; [intros []|constructor]|]. cbn in ND. inversion ND as [|? ? _ N2]; subst.
  eapply NoDup_flat_map_sub; [exact N2|]. intros c _ Nc. split; [apply IH; exact Nc|]. intros y. apply at_depth_in.
Qed.
Lemma at_depth_turned {A} rv k : forall (T : tree A) y, In y (at_depth k (turned rv T)) <-> In y (at_depth k T).
Proof.
  destruct rv; [|reflexivity]. cbn [turned]. induction k as [|k IH]; intros [a cs] y; [reflexivity|]. cbn. rewrite !in_flat_map. split.
  - intros (c & Hc & H). apply in_rev, in_map_iff in Hc as (d & <- & Hd). exists d. split; [exact Hd|]. apply IH; exact H.
  - intros (c & Hc & H). exists (mirror c). split; [apply in_rev; rewrite rev_involutive; apply in_map; exact Hc|]. apply IH; exact H.
Qed.
Lemma at_depth_parent ch k : forall T y, unf ch T -> In y (at_depth (S k) T) -> exists p, In p (at_depth k T) /\ In y (ch p).
Proof.
  induction k as [|k IH]; intros [a cs] y U H; apply unf_iff in U as [E U].
  - exists a. split; [left; reflexivity|]. rewrite <- E. cbn in H. apply in_flat_map in H as (c & Hc & [<-|[]]). apply in_map. exact Hc.
  - cbn in H. apply in_flat_map in H as (c & Hc & H). rewrite Forall_forall in U. destruct (IH c y (U c Hc)) as (p & P1 & P2); [exact H|].
    exists p. split; [|exact P2]. cbn. apply in_flat_map. eauto.
Qed.
Lemma at_depth_empty {A} k : forall T : tree A, height T < k -> at_depth k T = [].
Proof.
  induction k as [|k IH]; intros [a cs] H; [lia|]. cbn [at_depth kids]. rewrite (flat_map_ext_in _ (fun _ => [])).
  - clear. induction cs; cbn; auto.
  - intros c Hc. apply IH. pose proof (height_kid a cs c Hc). lia.
Qed.
Lemma list_max_in l : l <> [] -> In (list_max l) l.
Proof.
  induction l as [|a l IH]; [congruence|]. intros _. destruct l as [|b l]; [cbn; left; lia|]. change (list_max (a :: b :: l)) with (Nat.max a (list_max (b :: l))).
  destruct (Nat.max_spec a (list_max (b :: l))) as [[_ ->]|[_ ->]]; [right; apply IH; discriminate|left; reflexivity].
Qed.
Lemma at_depth_nonempty {A} k : forall T : tree A, k <= height T -> at_depth k T <> [].
Proof.
  induction k as [|k IH]; intros [a cs] H; [discriminate|]. cbn [at_depth kids height] in *.
  assert (N : cs <> []) by (intros ->; cbn in H; lia).
  pose proof (list_max_in (map (fun c => S (height c)) cs)) as Hi. assert (Nm : map (fun c => S (height c)) cs <> []) by (destruct cs; [congruence|discriminate]).
    specialize (Hi Nm). apply in_map_iff in Hi as (d & Ed & Hd). intros Ef.
    assert (K : at_depth k d = []). { destruct (at_depth k d) as [|z zs] eqn:Ek; [reflexivity|]. exfalso. assert (In z (flat_map (at_depth k) cs)) by (apply in_flat_map; exists d; rewrite Ek; split; [exact Hd|left; reflexivity]). rewrite Ef in H0. destruct H0. }
    apply (IH d); [lia|exact K].
Qed.

(** ** the loop of levels() for step > 0 *)
Lemma mem_in y l : mem y l = true <-> In y l.
Proof. unfold mem. rewrite existsb_exists. split; [intros (z & H & E); apply Nat.eqb_eq in E; subst; exact H|intros H; exists y; split; [exact H|apply Nat.eqb_refl]]. Qed.
Lemma mem_out y l : mem y l = false <-> ~ In y l.
Proof. rewrite <- mem_in. destruct (mem y l); split; congruence. Qed.
Section Fwd.
  Context (ch : loc -> list loc) (slf multi : bool) (x : loc).
  (** nothing of the level is in the stop set: everything is yielded (or nothing, when the
      step skips this level) *)
  Lemma pass_yield modulo l : NoDup l -> forall stop yielded,
    (forall y, In y l -> ~ In y stop) -> (forall y, In y l -> may_yield slf multi x y yielded = true) ->
    (forall y z yl, In y l -> y <> z -> may_yield slf multi x y yl = true -> may_yield slf multi x y (z :: yl) = true) ->
    exists s d, pass_fwd ch slf multi modulo x stop yielded l = (if modulo then l else [], s, d) /\
      (forall y, In y s -> In y l \/ In y stop) /\ incl stop s /\ (forall y, In y d -> In y l \/ In y yielded).
  Proof.
    induction 1 as [|y l Hy ND IH]; intros stop yielded H1 H2 H3; cbn.
    - exists stop, yielded. destruct modulo; split; [reflexivity|split; [auto|split; [apply incl_refl|auto]]|reflexivity|split; [auto|split; [apply incl_refl|auto]]].
    - assert (M : mem y stop = false) by (apply mem_out; apply H1; left; reflexivity). rewrite M. cbn [negb andb].
      rewrite (H2 y (or_introl eq_refl)), andb_true_r.
      set (stop2 := if leaf ch y then y :: stop else stop).
      assert (S2 : forall z, In z stop2 -> z = y \/ In z stop) by (intros z; unfold stop2; destruct (leaf ch y); cbn; intuition).
      set (yl2 := if modulo then y :: yielded else yielded).
      destruct (IH stop2 yl2) as (s & d & E & A & B & C).
      + intros z Hz Hs. apply S2 in Hs as [->|Hs]; [contradiction|]. apply (H1 z); [right; exact Hz|exact Hs].
      + intros z Hz. unfold yl2. destruct modulo; [|apply H2; right; exact Hz]. apply H3; [right; exact Hz|intros ->; contradiction|apply H2; right; exact Hz].
      + intros z w yl Hz. apply H3. right; exact Hz.
      + rewrite E. exists s, d. split; [destruct modulo; reflexivity|]. split; [|split].
        * intros z Hz. destruct (A z Hz) as [K|K]; [left; right; exact K|]. apply S2 in K as [->|K]; [left; left; reflexivity|right; exact K].
        * intros z Hz. apply B. unfold stop2. destruct (leaf ch y); [right|]; exact Hz.
        * intros z Hz. destruct (C z Hz) as [K|K]; [left; right; exact K|]. unfold yl2 in K. destruct modulo; [destruct K as [->|K]; [left; left; reflexivity|right; exact K]|right; exact K].
  Qed.
  (** everything of the level is in the stop set: nothing is yielded, the children join the set *)
  Lemma pass_stop modulo l : forall stop yielded, (forall y, In y l -> In y stop) ->
    exists s, pass_fwd ch slf multi modulo x stop yielded l = ([], s, yielded) /\ incl stop s /\ (forall y z, In y l -> In z (ch y) -> In z s).
  Proof.
    induction l as [|y l IH]; intros stop yielded H; cbn.
    - exists stop. split; [reflexivity|]. split; [apply incl_refl|intros y z []].
    - assert (M : mem y stop = true) by (apply mem_in, H; left; reflexivity). rewrite M. cbn [negb andb].
      set (stop2 := if leaf ch y then y :: ch y ++ stop else ch y ++ stop).
      assert (I2 : incl (ch y ++ stop) stop2) by (unfold stop2; destruct (leaf ch y); [apply incl_tl|]; apply incl_refl).
      destruct (IH stop2 yielded) as (s & E & B & C).
      + intros z Hz. apply I2, in_or_app. right. apply H. right; exact Hz.
      + rewrite E. exists s. split; [reflexivity|]. split.
        * intros z Hz. apply B, I2, in_or_app. right; exact Hz.
        * intros z w [->|Hz] Hw; [apply B, I2, in_or_app; left; exact Hw|eapply C; eauto].
  Qed.

  (** the loop over levels *)
  Context (opt : Z) (n : nat) (step : Z) (sl : nat -> list loc) (H E0 s0 : nat).
  Hypothesis Oslf : has opt SELF = slf.
  Hypothesis Omul : has opt MULTIPLE = multi.
  Hypothesis Omode : multi = true -> slf = true.
  Hypothesis Hsib : forall up k, siblings ch up (Z.of_nat k) opt n x = Some (sl k, None).
  Hypothesis Hdis : forall i j y, In y (sl i) -> In y (sl j) -> i = j.
  Hypothesis Hnd : forall k, NoDup (sl k).
  Hypothesis Hself : slf = false -> forall k, ~ In x (sl k).
  Hypothesis Hpar : forall k y, E0 <= k -> In y (sl (S k)) -> exists p, In p (sl k) /\ In y (ch p).
  Hypothesis Hend : forall k, H < k -> sl k = [].
  Hypothesis Hfull : forall k, s0 < k -> k <= H -> sl k <> [].
  Hypothesis Hs : s0 <= E0.
  Definition want (k : nat) : bool := divides step (Z.of_nat k - Z.of_nat s0) && (k <? E0).
  Definition inv (k : nat) (stop yielded : list loc) : Prop :=
    (multi = false -> forall y k', In y yielded -> k <= k' -> ~ In y (sl k')) /\
    (k < E0 -> (forall y k', In y stop -> k <= k' -> In y (sl k') -> k' = E0) /\ incl (sl E0) stop) /\
    (E0 <= k -> incl (sl k) stop).
  Lemma loop_fwd_ok up : forall m k stop yielded, s0 <= k -> inv k stop yielded ->
    (if Nat.eqb k s0 then 2 else 1) + (S H - k) <= m ->
    loop_fwd ch up opt (Z.of_nat s0) step n x m (Z.of_nat k) false stop yielded =
    Some (flat_map (fun k => if want k then sl k else []) (seq k (S H - k)), None).
  Proof.
    induction m as [|m IH]; intros k stop yielded Hk I Hm; [destruct (Nat.eqb k s0); lia|].
    cbn [loop_fwd]. rewrite Hsib, Oslf, Omul. destruct I as (I1 & I2 & I3).
    assert (P : exists s d, pass_fwd ch slf multi (divides step (Z.of_nat k - Z.of_nat s0)) x stop yielded (sl k) = (if want k then sl k else [], s, d) /\ inv (S k) s d).
    { unfold want. destruct (Nat.ltb_spec k E0) as [L|L].
      - rewrite andb_true_r. destruct (I2 L) as [A B]. destruct (pass_yield (divides step (Z.of_nat k - Z.of_nat s0)) (sl k) (Hnd k) stop yielded) as (s & d & Ep & P1 & P2 & P3).
        + intros y Hy Hst. pose proof (A y k Hst (le_n k) Hy). lia.
        + intros y Hy. unfold may_yield. destruct multi eqn:Em; [rewrite (Omode eq_refl); reflexivity|]. apply negb_true_iff, mem_out. intros Hyl. exact (I1 eq_refl y k Hyl (le_n k) Hy).
        + intros y z yl Hy Hyz. unfold may_yield. destruct multi; [auto|]. rewrite !negb_true_iff, !mem_out. cbn. intuition.
        + exists s, d. split; [exact Ep|]. split; [|split].
          * intros Em y k' Hy Hk' Hin. destruct (P3 y Hy) as [Q|Q]; [pose proof (Hdis _ _ _ Q Hin); lia|]. apply (I1 Em y k' Q); [lia|exact Hin].
          * intros L'. split.
            -- intros y k' Hy Hk' Hin. destruct (P1 y Hy) as [Q|Q]; [pose proof (Hdis _ _ _ Q Hin); lia|]. apply (A y k' Q); [lia|exact Hin].
            -- intros y Hy. apply P2, B, Hy.
          * intros L'. assert (S k = E0) by lia. intros y Hy. apply P2, B. congruence.
      - rewrite andb_false_r. destruct (pass_stop (divides step (Z.of_nat k - Z.of_nat s0)) (sl k) stop yielded (I3 L)) as (s & Ep & P2 & P3).
        exists s, yielded. split; [exact Ep|]. split; [|split].
        + intros Em y k' Hy Hk'. apply (I1 Em y k' Hy). lia.
        + lia.
        + intros _ y Hy. destruct (Hpar k y L Hy) as (p & Hp & Hc). eapply P3; eauto. }
    destruct P as (s & d & -> & I'). assert (Mf : multi && negb slf = false) by (destruct multi; [rewrite (Omode eq_refl)|]; reflexivity). rewrite Mf.
    assert (Ek : (Z.of_nat k =? Z.of_nat s0)%Z = Nat.eqb k s0). { destruct (Nat.eqb_spec k s0) as [->|Nk]; [apply Z.eqb_refl|]. apply Z.eqb_neq. lia. }
    rewrite Ek. replace (Z.of_nat k + 1)%Z with (Z.of_nat (S k)) by lia.
    destruct (Nat.eqb k s0 || nonnil (sl k)) eqn:F.
    - rewrite (IH (S k) s d).
      + cbn [andthen option_map fst snd]. f_equal. f_equal. destruct (le_lt_dec k H) as [L|L].
        * replace (S H - k) with (S (S H - S k)) by lia. reflexivity.
        * replace (S H - k) with 0 by lia. replace (S H - S k) with 0 by lia. cbn. rewrite (Hend k L). destruct (want k); reflexivity.
      + lia.
      + exact I'.
      + assert (Ns : Nat.eqb (S k) s0 = false) by (apply Nat.eqb_neq; lia). rewrite Ns. destruct (Nat.eqb k s0) eqn:Eks; [lia|].
        destruct (le_lt_dec k H) as [L|L]; [lia|]. rewrite (Hend k L) in F. discriminate.
    - apply orb_false_iff in F as [F1 F2]. apply Nat.eqb_neq in F1. assert (El : sl k = []) by (destruct (sl k); [reflexivity|discriminate]).
      assert (L : H < k) by (destruct (le_lt_dec k H) as [L|L]; [exfalso; apply (Hfull k); [lia|exact L|exact El]|exact L]).
      replace (S H - k) with 0 by lia. rewrite El. destruct (want k); reflexivity.
  Qed.
End Fwd.

Lemma level_items_depth {A} rv slf k (T : tree A) y : In y (level_items rv slf k T) -> In y (at_depth k T).
Proof. destruct k as [|k]; cbn [level_items]; [destruct slf; [auto|intros []]|]. apply at_depth_turned. Qed.
Lemma siblings_nonneg ch up k opt n T : unf ch T -> NoDup (flatten T) -> 2 * size T <= n -> bad_opts opt siblings_opts = false ->
  siblings ch up (Z.of_nat k) opt n (root T) = Some (level_items (has opt REVERSE) (has opt SELF) k T, None).
Proof.
  intros U ND L B. unfold siblings. rewrite B. destruct (Z.ltb_spec (Z.of_nat k) 0); [lia|]. rewrite Nat2Z.id. apply siblings_plus_ok; assumption.
Qed.
Lemma levels_slice_body ch up start stop step opt n m x :
  levels_slice ch up start stop (Some step) opt n m x =
  match (match stop with None => Some ([], None) | Some e => siblings ch up e opt n x end) with
  | Some (stops, None) =>
      let yielded := if has opt SELF || has opt MULTIPLE then [] else [x] in
      if (0 <? step)%Z then loop_fwd ch up opt (match start with Some s => s | None => 0%Z end) step n x m (match start with Some s => s | None => 0%Z end) false stops yielded
      else loop_bwd ch up opt (match start with Some s => s | None => 0%Z end) step n x m (match start with Some s => s | None => 0%Z end) stops yielded
  | Some (_, e) => Some ([], e)
  | None => None
  end.
Proof. destruct start, stop; reflexivity. Qed.
Lemma levels_slice_ok ch up opt n m T (s0 : nat) (e : option nat) (step : Z) (start stop : option Z) :
  unf ch T -> NoDup (flatten T) -> 2 * size T <= n -> height T + 3 <= m -> bad_opts opt siblings_opts = false ->
  (has opt MULTIPLE = true -> has opt SELF = true) -> (0 < step)%Z ->
  (start = Some (Z.of_nat s0) \/ start = None /\ s0 = 0) ->
  stop = option_map Z.of_nat e ->
  (forall k, e = Some k -> s0 <= k /\ (k = 0 -> has opt SELF = true)) ->
  levels_slice ch up start stop (Some step) opt n m (root T) =
  Some (flat_map (fun k => if divides step (Z.of_nat k - Z.of_nat s0) && match e with None => true | Some e => k <? e end
                           then level_items (has opt REVERSE) (has opt SELF) k T else [])
                 (seq s0 (S (height T) - s0)), None).
Proof.
  intros U ND L Lm B Mode Hstep Hst Hsp He.
  set (sl := fun k => level_items (has opt REVERSE) (has opt SELF) k T).
  set (E0 := match e with Some k => k | None => Nat.max s0 (S (height T)) end).
  assert (Es : match start with Some s => s | None => 0%Z end = Z.of_nat s0) by (destruct Hst as [->|[-> ->]]; reflexivity).
  assert (End : forall k, height T < k -> sl k = []).
  { intros k Hk. unfold sl. destruct k as [|k]; [lia|]. cbn [level_items]. destruct (at_depth (S k) (turned (has opt REVERSE) T)) as [|z zs] eqn:Ez; [reflexivity|].
    exfalso. assert (In z (at_depth (S k) T)) by (apply (at_depth_turned (has opt REVERSE)); rewrite Ez; left; reflexivity). rewrite at_depth_empty in H by exact Hk. destruct H. }
  assert (Est : (match stop with None => Some ([], None) | Some e => siblings ch up e opt n (root T) end) = Some (sl E0, None)).
  { subst stop. destruct e as [k|]; cbn [option_map].
    - rewrite siblings_nonneg by assumption. reflexivity.
    - unfold E0. rewrite (End (Nat.max s0 (S (height T)))) by lia. reflexivity. }
  rewrite levels_slice_body, Es, Est. assert (Hb : (0 <? step)%Z = true) by (apply Z.ltb_lt; exact Hstep). rewrite Hb.
  rewrite (loop_fwd_ok ch (has opt SELF) (has opt MULTIPLE) (root T) opt n step sl (height T) E0 s0); try reflexivity; try assumption.
  all: try (intros; apply siblings_nonneg; assumption).
  all: try (intros i j y Hi Hj; eapply (at_depth_unique T ND i j y); eapply level_items_depth; eassumption).
  all: try (intros k; unfold sl; destruct k as [|k]; cbn [level_items]; [destruct (has opt SELF); repeat constructor; intros []|
            apply at_depth_NoDup; eapply Permutation_NoDup; [symmetry; apply flatten_turned_perm|exact ND]]).
  all: try (intros Hslf k Hin; unfold sl in Hin; rewrite Hslf in Hin; destruct k as [|k]; [destruct Hin|]; apply level_items_depth in Hin;
            pose proof (at_depth_unique T ND 0 (S k) (root T) (or_introl eq_refl) Hin); discriminate).
  all: try (intros k y Hk Hin; destruct (at_depth_parent ch k T y U (level_items_depth _ _ _ _ _ Hin)) as (p & P1 & P2); exists p; split; [|exact P2];
            unfold sl; destruct k as [|k]; cbn [level_items];
            [destruct P1 as [<-|[]]; assert (HS : has opt SELF = true) by
               (unfold E0 in Hk; destruct e as [k0|]; [apply (He k0 eq_refl); lia|lia]); rewrite HS; left; reflexivity
            |apply at_depth_turned; exact P1]).
  all: try (intros k Hk1 Hk2 Ek; unfold sl in Ek; destruct k as [|k]; [lia|]; cbn [level_items] in Ek; apply (at_depth_nonempty (S k) T Hk2);
            destruct (at_depth (S k) T) as [|z zs] eqn:Ez; [reflexivity|]; exfalso;
            assert (Hz : In z (at_depth (S k) (turned (has opt REVERSE) T))) by (apply at_depth_turned; rewrite Ez; left; reflexivity); rewrite Ek in Hz; destruct Hz).
  all: try (unfold E0; destruct e as [k|]; [apply (He k eq_refl)|lia]).
  all: try lia.
  all: try (rewrite Nat.eqb_refl; lia).
  all: try (f_equal; f_equal; apply flat_map_ext_in; intros k Hk; apply in_seq in Hk; unfold want, E0; destruct e as [k0|]; [reflexivity|];
            replace (k <? Nat.max s0 (S (height T))) with true by (symmetry; apply Nat.ltb_lt; lia); reflexivity).
  split; [|split].
  - intros Em y k' Hy _. rewrite Em, orb_false_r in Hy. destruct (has opt SELF) eqn:HS; [destruct Hy|]. destruct Hy as [<-|[]]. intros Hin.
    destruct k' as [|k']; [destruct Hin|]. apply level_items_depth in Hin.
    pose proof (at_depth_unique T ND 0 (S k') (root T) (or_introl eq_refl) Hin). discriminate.
  - intros HL. split; [|apply incl_refl]. intros y k' Hy _ Hin. symmetry. eapply (at_depth_unique T ND E0 k' y); eapply level_items_depth; eassumption.
  - intros HL. assert (E0 = s0) as ->; [|apply incl_refl]. unfold E0 in *. destruct e as [k|]; [destruct (He k eq_refl)|]; lia.
Qed.
