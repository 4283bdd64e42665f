(** siblings, levels, max_depth, iter_family_items: what they compute on every tree. *)
From Verif Require Import Base Heap HeapSpec ListLemmas Tree HeapTree Deep DeepSpec DeepProofs DeepPaths DeepInst DeepSib.

Definition turned {A} (rv : bool) (T : tree A) : tree A := if rv then mirror T else T.
Lemma turned_eq {A} rv (a : A) cs : turned rv (Node a cs) = Node a (map (turned rv) (ord rv cs)).
Proof. destruct rv; cbn [turned ord mirror]; [rewrite map_rev|rewrite map_id]; reflexivity. Qed.
Lemma root_turned {A} rv (T : tree A) : root (turned rv T) = root T. Proof. destruct rv; [apply root_mirror|reflexivity]. Qed.
Lemma flat_map_ext_in {A B} (f g : A -> list B) l : (forall a, In a l -> f a = g a) -> flat_map f l = flat_map g l.
Proof. induction l as [|a l IH]; intros H; cbn; [reflexivity|]. rewrite (H a (or_introl eq_refl)), IH; [reflexivity|]. intros; apply H; right; assumption. Qed.
Lemma filter_flat_map {A B} (p : B -> bool) (g : A -> list B) l : filter p (flat_map g l) = flat_map (fun a => filter p (g a)) l.
Proof. induction l as [|a l IH]; cbn; [reflexivity|]. rewrite filter_app, IH. reflexivity. Qed.
Lemma flatten_mirror_in {A} (T : tree A) y : In y (flatten (mirror T)) <-> In y (flatten T).
Proof.
  induction T as [a cs IH] using tree_ind'. cbn. apply or_iff_compat_l. rewrite !in_flat_map. rewrite Forall_forall in IH. split.
  - intros (c & Hc & H). apply in_rev, in_map_iff in Hc as (d & <- & Hd). exists d. split; [exact Hd|]. apply IH; assumption.
  - intros (c & Hc & H). exists (mirror c). split; [apply in_rev; rewrite rev_involutive; apply in_map; exact Hc|]. apply IH; assumption.
Qed.
Lemma at_depth_in {A} k : forall (T : tree A) y, In y (at_depth k T) -> In y (flatten T).
Proof.
  induction k as [|k IH]; intros [a cs] y H; cbn in H; [destruct H as [<-|[]]; left; reflexivity|].
  right. apply in_flat_map in H as (c & Hc & H). apply in_flat_map. exists c. split; [exact Hc|]. apply IH; exact H.
Qed.
Lemma at_depth_below {A} k (T : tree A) y : In y (at_depth (S k) T) -> In y (below_tree T).
Proof. destruct T as [a cs]. cbn. intros H. apply in_flat_map in H as (c & Hc & H). apply in_flat_map. exists c. split; [exact Hc|]. eapply at_depth_in; exact H. Qed.

Section Plus.
  Context (ch : loc -> list loc) (rv slf : bool) (level : nat) (x0 : loc).
  Notation st := (step_sib ch rv slf level x0).
  Notation keep := (filter (fun y => slf || negb (Nat.eqb y x0))).
  Definition sib_good T := unf ch T -> forall l r, S (length r) <= level ->
    exists k, k <= 2 * size T /\ steps st k ((root T :: l) :: r) (keep (at_depth (level - S (length r)) (turned rv T))) (l :: r).
  Lemma sib_list cs : Forall sib_good cs -> Forall (unf ch) cs -> forall l r, S (length r) <= level ->
    exists k, k <= 2 * sizes cs /\ steps st k ((map root cs ++ l) :: r) (flat_map (fun c => keep (at_depth (level - S (length r)) (turned rv c))) cs) (l :: r).
  Proof.
    intros G. induction G as [|c cs Hc _ IH]; intros U l r B; [exists 0; split; [lia|constructor]|].
    inversion U as [|? ? U1 U2]; subst. destruct (Hc U1 (map root cs ++ l) r B) as (k1 & L1 & S1). destruct (IH U2 l r B) as (k2 & L2 & S2).
    exists (k1 + k2). rewrite sizes_cons. split; [lia|]. eapply steps_trans; eassumption.
  Qed.
  Lemma sib_tree T : sib_good T.
  Proof.
    induction T as [x cs IH] using tree_ind'. intros U l r B. apply unf_iff in U as [E U].
    destruct (Nat.eq_dec (S (length r)) level) as [D|D].
    - exists 1. split; [rewrite size_node; lia|]. apply steps1. cbn [step_sib root length]. rewrite D, Nat.eqb_refl, Nat.sub_diag. cbn [at_depth filter].
      rewrite root_turned. cbn [root]. destruct (slf || negb (Nat.eqb x x0)); reflexivity.
    - assert (Dq : Nat.eqb (S (length r)) level = false) by (apply Nat.eqb_neq; exact D).
      destruct (level - S (length r)) as [|j] eqn:Ej; [lia|]. rewrite turned_eq. cbn [at_depth kids]. rewrite flat_map_map.
      destruct cs as [|c0 cs0] eqn:Ecs.
      + exists 1. split; [cbn; lia|]. apply steps1. cbn [step_sib root length]. rewrite Dq, <- E. cbn. destruct rv; reflexivity.
      + rewrite <- Ecs in *. assert (N : nonnil (ch x) = true) by (rewrite <- E, Ecs; reflexivity). clear Ecs c0 cs0.
        destruct (sib_list (ord rv cs)) with (l := @nil loc) (r := l :: r) as (k & L & S); [apply Forall_ord; exact IH|apply Forall_ord; exact U|cbn; lia|].
        rewrite sizes_ord in L. exists (1 + (k + 1)). split; [rewrite size_node; lia|].
        assert (Eo : keep (flat_map (fun a => at_depth j (turned rv a)) (ord rv cs)) =
                 [] ++ flat_map (fun c => keep (at_depth (level - Datatypes.S (length (l :: r))) (turned rv c))) (ord rv cs) ++ []).
        { rewrite app_nil_r. cbn [app]. rewrite filter_flat_map. apply flat_map_ext_in. intros a _. cbn [length]. replace (level - Datatypes.S (Datatypes.S (length r))) with j by lia. reflexivity. }
        rewrite Eo.
        eapply steps_trans; [apply steps1; cbn [step_sib root length]; rewrite Dq, N; reflexivity|].
        eapply steps_trans; [rewrite <- E, <- map_ord, <- (app_nil_r (map root _)); exact S|]. apply steps1. reflexivity.
  Qed.
  Lemma run_sib T n : unf ch T -> 2 * size T <= n -> 1 <= level ->
    run_gen st n [ord rv (ch (root T))] = Some (keep (at_depth level (turned rv T)), None).
  Proof.
    destruct T as [x cs]. intros U L B. apply unf_iff in U as [E U]. cbn [root].
    destruct (sib_list (ord rv cs)) with (l := @nil loc) (r := @nil (list loc)) as (k & L1 & S).
    - apply Forall_ord, Forall_forall. intros; apply sib_tree.
    - apply Forall_ord. exact U.
    - cbn. exact B.
    - rewrite sizes_ord in L1. destruct level as [|j] eqn:Ej; [lia|]. rewrite turned_eq. cbn [at_depth kids]. rewrite flat_map_map.
      replace (keep (flat_map (fun a => at_depth j (turned rv a)) (ord rv cs)))
        with (flat_map (fun c => keep (at_depth (Datatypes.S j - Datatypes.S (length (@nil (list loc)))) (turned rv c))) (ord rv cs) ++ [])
        by (rewrite app_nil_r, filter_flat_map; cbn [length]; rewrite Nat.sub_1_r; reflexivity).
      eapply run_done with (s' := []) (k := k + 1); [|reflexivity|rewrite size_node in L; lia].
      eapply steps_trans; [rewrite <- E, <- map_ord, <- (app_nil_r (map root _)); exact S|]. apply steps1. reflexivity.
  Qed.
End Plus.
Lemma filter_all {A} (p : A -> bool) l : (forall y, In y l -> p y = true) -> filter p l = l.
Proof. induction l as [|a l IH]; intros H; cbn; [reflexivity|]. rewrite (H a (or_introl eq_refl)), IH; [reflexivity|]. intros; apply H; right; assumption. Qed.

(** ** siblings(n), n >= 0 *)
Definition level_items {A} (rv slf : bool) (k : nat) (T : tree A) : list A :=
  match k with 0 => if slf then [root T] else [] | S _ => at_depth k (turned rv T) end.
Lemma siblings_plus_ok ch rv slf k T n : unf ch T -> NoDup (flatten T) -> 2 * size T <= n ->
  siblings_plus ch rv slf k n (root T) = Some (level_items rv slf k T, None).
Proof.
  intros U ND L. unfold siblings_plus. destruct k as [|k]; [reflexivity|]. cbn [Nat.eqb]. rewrite run_sib by (assumption || lia).
  f_equal. f_equal. cbn [level_items]. apply filter_all. intros y Hy. apply at_depth_below in Hy.
  assert (Hb : In y (below_tree T)).
  { destruct rv; [|exact Hy]. destruct T as [a cs]. unfold below_tree in *. cbn [turned mirror kids] in Hy. apply in_flat_map in Hy as (c & Hc & H).
    apply in_rev, in_map_iff in Hc as (d & <- & Hd). apply in_flat_map. exists d. split; [exact Hd|]. apply flatten_mirror_in. exact H. }
  destruct T as [a cs]. cbn in ND, Hb |- *. inversion ND as [|? ? N _]; subst. destruct (Nat.eqb_spec y a); [subst; contradiction|]. destruct slf; reflexivity.
Qed.

(** ** max_depth *)
Lemma list_max_zero {A} (g : A -> nat) l : (forall a, In a l -> 0 < g a) -> list_max (map g l) = 0 -> l = [].
Proof. destruct l as [|a l]; [reflexivity|]. cbn. intros H E. specialize (H a (or_introl eq_refl)). lia. Qed.
Lemma list_max_S {A} (g : A -> nat) l : forall c, list_max (map (fun a => S (g a)) (c :: l)) = S (list_max (map g (c :: l))).
Proof.
  induction l as [|d l IH]; intros c; [cbn; lia|]. cbn [map]. specialize (IH d). cbn [map] in IH.
  change (list_max (S (g c) :: S (g d) :: map (fun a => S (g a)) l)) with (Nat.max (S (g c)) (list_max (S (g d) :: map (fun a => S (g a)) l))).
  change (list_max (g c :: g d :: map g l)) with (Nat.max (g c) (list_max (g d :: map g l))). rewrite IH. lia.
Qed.
Lemma depth_loop_ok ch cs : forall k, (forall c, In c cs -> height c < k) -> Forall (unf ch) cs -> forall n d, k < n ->
  depth_loop ch n (map root cs) d = Some (d - 1 + Z.of_nat (list_max (map (fun c => S (height c)) cs)))%Z.
Proof.
  intros k. revert cs. induction k as [|k IH]; intros cs Hk U n d L.
  - destruct cs as [|c cs]; [|exfalso; specialize (Hk c (or_introl eq_refl)); lia]. destruct n; [lia|]. cbn. f_equal. lia.
  - destruct n as [|n]; [lia|]. destruct cs as [|c0 cs0] eqn:Ecs; [cbn; f_equal; lia|]. rewrite <- Ecs in *.
    assert (Ne : map root cs <> []) by (rewrite Ecs; discriminate). cbn [depth_loop]. destruct (map root cs) as [|r0 rs] eqn:Er; [congruence|]. rewrite <- Er.
    assert (Ef : flat_map ch (map root cs) = map root (flat_map kids cs)).
    { clear - U. induction cs as [|[a ks] cs IH]; [reflexivity|]. inversion U as [|? ? U1 U2]; subst. apply unf_iff in U1 as [E _]. cbn. rewrite map_app, <- E, IH by assumption. reflexivity. }
    rewrite Ef. rewrite IH.
    + f_equal. assert (Hh : list_max (map (fun c => S (height c)) cs) = S (list_max (map (fun c => S (height c)) (flat_map kids cs)))).
      { assert (Nc : cs <> []) by (rewrite Ecs; discriminate). clear - Nc. assert (H : forall l : list (tree loc), list_max (map (fun c => S (height c)) (flat_map kids l)) = list_max (map height l)).
        { induction l as [|[a ks] l IHl]; [reflexivity|]. cbn [flat_map kids map]. rewrite map_app, list_max_app, IHl. reflexivity. }
        rewrite H. destruct cs as [|c cs]; [congruence|]. apply list_max_S. }
      rewrite Hh. lia.
    + intros c Hc. apply in_flat_map in Hc as ([a ks] & Hd & Hc). specialize (Hk _ Hd). pose proof (height_kid a ks c Hc). lia.
    + rewrite Forall_forall in *. intros c Hc. apply in_flat_map in Hc as ([a ks] & Hd & Hc). specialize (U _ Hd). apply unf_iff in U as [_ U]. rewrite Forall_forall in U. auto.
    + lia.
Qed.
Lemma max_depth_ok ch T n : unf ch T -> S (height T) < n -> max_depth ch n (root T) = Some (Z.of_nat (height T)).
Proof.
  intros U L. unfold max_depth. destruct (nonnil (ch (root T))) eqn:N.
  - change [root T] with (map root [T]). rewrite (depth_loop_ok ch [T] (S (height T))).
    + f_equal. unfold list_max. cbn [map fold_right]. lia.
    + intros c [<-|[]]. lia.
    + constructor; [exact U|constructor].
    + exact L.
  - destruct T as [x cs]. apply unf_iff in U as [E _]. cbn in N. rewrite <- E in N. destruct cs; [reflexivity|discriminate].
Qed.
