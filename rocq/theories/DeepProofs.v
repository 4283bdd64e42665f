(** The stack machines of the in-depth iterators compute the specified lists, for every tree. *)
From Verif Require Import Base Heap Tree Deep DeepSpec.

Section Steps.
  Context {St O : Type} (step : St -> next St O).
  Inductive steps : nat -> St -> list O -> St -> Prop :=
  | steps0 s : steps 0 s [] s
  | stepsS s o s' k o' s'' : step s = Go o s' -> steps k s' o' s'' -> steps (S k) s (o ++ o') s''.
  Lemma steps_trans k1 s1 o1 s2 : steps k1 s1 o1 s2 -> forall k2 o2 s3, steps k2 s2 o2 s3 -> steps (k1 + k2) s1 (o1 ++ o2) s3.
  Proof.
    induction 1 as [|s o s' k o' s'' E _ IH]; intros k2 o2 s3 H; [exact H|]. cbn. rewrite <- app_assoc. econstructor; [exact E|]. apply IH. assumption.
  Qed.
  Lemma steps1 s o s' : step s = Go o s' -> steps 1 s o s'.
  Proof. intros E. rewrite <- (app_nil_r o). econstructor; [exact E|constructor]. Qed.
  Lemma run_steps k s o s' : steps k s o s' -> forall n, run_gen step (k + n) s = option_map (fun r => (o ++ fst r, snd r)) (run_gen step n s').
  Proof.
    induction 1 as [|s o s' k o' s'' E _ IH]; intros n.
    - cbn [Nat.add]. destruct (run_gen step n s) as [[a b]|]; reflexivity.
    - cbn. rewrite E, IH. destruct (run_gen step n s'') as [[a b]|]; cbn; [|reflexivity]. rewrite app_assoc. reflexivity.
  Qed.
  Lemma run_done k s o s' n : steps k s o s' -> step s' = Done -> k < n -> run_gen step n s = Some (o, None).
  Proof.
    intros H E L. replace n with (k + S (n - k - 1)) by lia. rewrite (run_steps _ _ _ _ H). cbn. rewrite E. cbn. rewrite app_nil_r. reflexivity.
  Qed.
End Steps.

(** T is the tree of items below its root, as the children function shows it *)
Fixpoint unf (ch : loc -> list loc) (T : tree loc) : Prop :=
  match T with Node x cs => map root cs = ch x /\ (fix all l := match l with [] => True | c :: r => unf ch c /\ all r end) cs end.
Lemma unf_iff ch x cs : unf ch (Node x cs) <-> map root cs = ch x /\ Forall (unf ch) cs.
Proof.
  cbn. split; intros [A B]; split; try exact A; clear A.
  - induction cs as [|c cs IH]; [constructor|]. destruct B as [B1 B2]. constructor; auto.
  - induction B; auto.
Qed.
Definition sizes {A} (l : list (tree A)) : nat := list_sum (map size l).
Lemma sizes_cons {A} (a : tree A) l : sizes (a :: l) = size a + sizes l. Proof. reflexivity. Qed.
Lemma size_node {A} (a : A) cs : size (Node a cs) = S (sizes cs). Proof. reflexivity. Qed.
Lemma sizes_filter {A} (p : tree A -> bool) l : sizes (filter p l) <= sizes l.
Proof. induction l as [|a l IH]; cbn [filter]; [lia|]. destruct (p a); rewrite ?sizes_cons; lia. Qed.
Lemma sizes_app {A} (l m : list (tree A)) : sizes (l ++ m) = sizes l + sizes m.
Proof. unfold sizes. rewrite map_app, list_sum_app. reflexivity. Qed.
Lemma sizes_rev {A} (l : list (tree A)) : sizes (rev l) = sizes l.
Proof. induction l as [|a l IH]; [reflexivity|]. cbn [rev]. rewrite sizes_app, IH, !sizes_cons. unfold sizes at 2. cbn. lia. Qed.
Lemma sizes_ord {A} rv (l : list (tree A)) : sizes (ord rv l) = sizes l.
Proof. destruct rv; cbn; [apply sizes_rev|reflexivity]. Qed.
Lemma size_pos {A} (T : tree A) : 1 <= size T. Proof. destruct T. cbn. lia. Qed.
Lemma Forall_ord {A} (P : A -> Prop) rv l : Forall P l -> Forall P (ord rv l).
Proof. destruct rv; cbn; [apply Forall_rev|auto]. Qed.
Lemma Forall_filter {A} (P : A -> Prop) q l : Forall P l -> Forall P (filter q l).
Proof. intros H. apply Forall_forall. intros x Hx. apply filter_In in Hx as [Hx _]. rewrite Forall_forall in H. auto. Qed.
Lemma map_ord {A B} (g : A -> B) rv l : map g (ord rv l) = ord rv (map g l).
Proof. destruct rv; cbn; [apply map_rev|reflexivity]. Qed.
Lemma ord_length {A} rv (l : list A) : length (ord rv l) = length l.
Proof. destruct rv; cbn; [apply rev_length|reflexivity]. Qed.
Lemma flat_map_map {A B C} (g : A -> B) (f : B -> list C) l : flat_map f (map g l) = flat_map (fun a => f (g a)) l.
Proof. induction l as [|a l IH]; cbn; [reflexivity|]. rewrite IH. reflexivity. Qed.

Section Down.
  Context (ch : loc -> list loc) (rv : bool) (f : option (loc -> bool)).
  Notation sh := (shape rv (ok f)).
  Lemma sub_roots x cs : map root cs = ch x -> sub ch rv f x = map root (filter (fun c => ok f (root c)) (ord rv cs)).
  Proof. intros E. unfold sub. rewrite <- E, <- map_ord, filter_map_comm. reflexivity. Qed.
  Lemma below_shape x cs : flat_map flatten (kids (sh (Node x cs))) = flat_map (fun c => flatten (sh c)) (filter (fun c => ok f (root c)) (ord rv cs)).
  Proof. rewrite shape_eq. cbn [kids]. rewrite flat_map_map. reflexivity. Qed.
  Definition down_good T := unf ch T -> forall l r, exists k, k <= 2 * size T /\ steps (step_down ch rv f) k ((root T :: l) :: r) (flatten (sh T)) (l :: r).
  Lemma down_list cs : Forall down_good cs -> Forall (unf ch) cs -> forall l r,
    exists k, k <= 2 * sizes cs /\ steps (step_down ch rv f) k ((map root cs ++ l) :: r) (flat_map (fun c => flatten (sh c)) cs) (l :: r).
  Proof.
    intros G. induction G as [|c cs Hc _ IH]; intros U l r; [exists 0; split; [lia|constructor]|].
    inversion U as [|? ? U1 U2]; subst. destruct (Hc U1 (map root cs ++ l) r) as (k1 & L1 & S1). destruct (IH U2 l r) as (k2 & L2 & S2).
    exists (k1 + k2). rewrite sizes_cons. split; [lia|]. eapply steps_trans; eassumption.
  Qed.
  Lemma down_tree T : down_good T.
  Proof.
    induction T as [x cs IH] using tree_ind'. intros U l r. apply unf_iff in U as [E U].
    destruct cs as [|c0 cs0] eqn:Ecs.
    - exists 1. split; [cbn; lia|]. apply steps1. cbn. rewrite <- E. cbn. rewrite shape_eq. destruct rv; reflexivity.
    - rewrite <- Ecs in *. assert (N : nonnil (ch x) = true) by (rewrite <- E, Ecs; reflexivity). clear Ecs c0 cs0.
      set (ks := filter (fun c => ok f (root c)) (ord rv cs)).
      destruct (down_list ks) with (l := @nil loc) (r := l :: r) as (k & L & S).
      + apply Forall_filter, Forall_ord. exact IH.
      + apply Forall_filter, Forall_ord. exact U.
      + assert (L2 : sizes ks <= sizes cs) by (unfold ks; etransitivity; [apply sizes_filter|rewrite sizes_ord; lia]).
        exists (1 + (k + 1)). split; [rewrite size_node; lia|].
        replace (flatten (sh (Node x cs))) with ([x] ++ flat_map (fun c => flatten (sh c)) ks ++ [])
          by (rewrite app_nil_r; cbn [app]; rewrite shape_eq; cbn [flatten]; rewrite flat_map_map; reflexivity).
        eapply steps_trans; [apply steps1; cbn; rewrite N; reflexivity|].
        eapply steps_trans; [rewrite (sub_roots x cs E), <- (app_nil_r (map root _)); exact S|]. apply steps1. reflexivity.
  Qed.
  Lemma run_down T n : unf ch T -> 2 * size T <= n ->
    run_gen (step_down ch rv f) n (if nonnil (ch (root T)) then [sub ch rv f (root T)] else []) = Some (below_tree (sh T), None).
  Proof.
    destruct T as [x cs]. intros U L. apply unf_iff in U as [E U]. cbn [root]. destruct cs as [|c0 cs0] eqn:Ecs.
    - rewrite <- E. cbn [map nonnil]. destruct n; [cbn in L; lia|]. cbn. rewrite shape_eq. destruct rv; reflexivity.
    - rewrite <- Ecs in *. assert (N : nonnil (ch x) = true) by (rewrite <- E, Ecs; reflexivity). clear Ecs c0 cs0. rewrite N.
      set (ks := filter (fun c => ok f (root c)) (ord rv cs)).
      destruct (down_list ks) with (l := @nil loc) (r := @nil (list loc)) as (k & L1 & S).
      + apply Forall_filter, Forall_ord, Forall_forall. intros; apply down_tree.
      + apply Forall_filter, Forall_ord. exact U.
      + assert (L2 : sizes ks <= sizes cs) by (unfold ks; etransitivity; [apply sizes_filter|rewrite sizes_ord; lia]).
        unfold below_tree. rewrite below_shape. fold ks. rewrite <- (app_nil_r (flat_map _ ks)).
        eapply run_done with (s' := []) (k := k + 1); [|reflexivity|rewrite size_node in L; lia].
        eapply steps_trans; [rewrite (sub_roots x cs E), <- (app_nil_r (map root _)); exact S|]. apply steps1. reflexivity.
  Qed.

  Definition up_good T := unf ch T -> forall l r, exists k, k <= 3 * size T /\ steps (step_up ch rv f) k (EIt (root T :: l) :: r) (postorder (sh T)) (EIt l :: r).
  Lemma up_list cs : Forall up_good cs -> Forall (unf ch) cs -> forall l r,
    exists k, k <= 3 * sizes cs /\ steps (step_up ch rv f) k (EIt (map root cs ++ l) :: r) (flat_map (fun c => postorder (sh c)) cs) (EIt l :: r).
  Proof.
    intros G. induction G as [|c cs Hc _ IH]; intros U l r; [exists 0; split; [lia|constructor]|].
    inversion U as [|? ? U1 U2]; subst. destruct (Hc U1 (map root cs ++ l) r) as (k1 & L1 & S1). destruct (IH U2 l r) as (k2 & L2 & S2).
    exists (k1 + k2). rewrite sizes_cons. split; [lia|]. eapply steps_trans; eassumption.
  Qed.
  Lemma up_tree T : up_good T.
  Proof.
    induction T as [x cs IH] using tree_ind'. intros U l r. apply unf_iff in U as [E U].
    destruct cs as [|c0 cs0] eqn:Ecs.
    - exists 1. split; [cbn; lia|]. apply steps1. cbn. rewrite <- E. cbn. rewrite shape_eq. destruct rv; reflexivity.
    - rewrite <- Ecs in *. assert (N : nonnil (ch x) = true) by (rewrite <- E, Ecs; reflexivity). clear Ecs c0 cs0.
      set (ks := filter (fun c => ok f (root c)) (ord rv cs)).
      destruct (up_list ks) with (l := @nil loc) (r := EMk x :: EIt l :: r) as (k & L & S).
      + apply Forall_filter, Forall_ord. exact IH.
      + apply Forall_filter, Forall_ord. exact U.
      + assert (L2 : sizes ks <= sizes cs) by (unfold ks; etransitivity; [apply sizes_filter|rewrite sizes_ord; lia]).
        exists (1 + (k + (1 + 1))). split; [rewrite size_node; lia|].
        replace (postorder (sh (Node x cs))) with ([] ++ flat_map (fun c => postorder (sh c)) ks ++ [] ++ [x])
          by (cbn [app]; rewrite shape_eq; cbn [postorder]; rewrite flat_map_map; reflexivity).
        eapply steps_trans; [apply steps1; cbn; rewrite N; reflexivity|].
        eapply steps_trans; [rewrite (sub_roots x cs E), <- (app_nil_r (map root _)); exact S|].
        eapply steps_trans; apply steps1; reflexivity.
  Qed.
  Lemma run_up T n : unf ch T -> 3 * size T <= n ->
    run_gen (step_up ch rv f) n (if nonnil (ch (root T)) then [EIt (sub ch rv f (root T))] else []) = Some (post_below (sh T), None).
  Proof.
    destruct T as [x cs]. intros U L. apply unf_iff in U as [E U]. cbn [root]. destruct cs as [|c0 cs0] eqn:Ecs.
    - rewrite <- E. cbn [map nonnil]. destruct n; [cbn in L; lia|]. cbn. rewrite shape_eq. destruct rv; reflexivity.
    - rewrite <- Ecs in *. assert (N : nonnil (ch x) = true) by (rewrite <- E, Ecs; reflexivity). clear Ecs c0 cs0. rewrite N.
      set (ks := filter (fun c => ok f (root c)) (ord rv cs)).
      destruct (up_list ks) with (l := @nil loc) (r := @nil ent) as (k & L1 & S).
      + apply Forall_filter, Forall_ord, Forall_forall. intros; apply up_tree.
      + apply Forall_filter, Forall_ord. exact U.
      + assert (L2 : sizes ks <= sizes cs) by (unfold ks; etransitivity; [apply sizes_filter|rewrite sizes_ord; lia]).
        replace (post_below (sh (Node x cs))) with (flat_map (fun c => postorder (sh c)) ks ++ [])
          by (rewrite app_nil_r; unfold post_below; rewrite shape_eq; cbn [kids]; rewrite flat_map_map; reflexivity).
        eapply run_done with (s' := []) (k := k + 1); [|reflexivity|rewrite size_node in L; lia].
        eapply steps_trans; [rewrite (sub_roots x cs E), <- (app_nil_r (map root _)); exact S|]. apply steps1. reflexivity.
  Qed.
End Down.
