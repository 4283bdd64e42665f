(** The constructor applied to free items, exactly. *)
From Verif Require Import Base Heap HeapSpec ListLemmas ForestLemmas HeapInv HeapAttach HeapOps HeapOps2 HeapOps3 HeapHoare Tree HeapTree HeapCopy HeapMut
  HeapExt HeapExt2 HeapOrd HeapHist History HeapRead Runs PropsA PropsB PropsF.
Import ListNotations.
Open Scope list_scope.

Definition mem (y : loc) (l : list loc) : bool := existsb (Nat.eqb y) l.
Lemma mem_in y l : mem y l = true <-> In y l.
Proof. unfold mem. rewrite existsb_exists. split; [intros (z & H & E); apply Nat.eqb_eq in E; congruence|intros H; exists y; split; [exact H|apply Nat.eqb_refl]]. Qed.
Lemma mem_false y l : mem y l = false <-> ~ In y l.
Proof. rewrite <- mem_in. destruct (mem y l); intuition congruence. Qed.
Lemma mem_app y l m : mem y (l ++ m) = mem y l || mem y m.
Proof. apply existsb_app. Qed.

(** item [a] with number [y] after the items [xs] became children of [p] and the items [ys] got the flags [F] *)
Definition mix (p : loc) (F : Z) (xs ys : list loc) (y : loc) (a : anode) : anode :=
  let b := if mem y xs then a_set_parent (Some p) a else a in
  if mem y ys then a_set_flags (Z.lor (a_flags b) F) b else b.

Lemma mix_nil p F y a : mix p F [] [] y a = a. Proof. reflexivity. Qed.
Lemma mix_app p F xs ys xs' ys' y a : mix p F (xs ++ xs') (ys ++ ys') y a = mix p F xs' ys' y (mix p F xs ys y a).
Proof.
  unfold mix. rewrite !mem_app. destruct (mem y xs), (mem y ys), (mem y xs'), (mem y ys'); cbn; try reflexivity;
    unfold a_set_flags, a_set_parent; cbn; rewrite <- ?Z.lor_assoc, ?Z.lor_diag; reflexivity.
Qed.
Lemma mix_children p F xs ys y a : a_children (mix p F xs ys y a) = a_children a.
Proof. unfold mix. destruct (mem y xs), (mem y ys); reflexivity. Qed.
Lemma mix_parent p F xs ys y a : a_parent (mix p F xs ys y a) = if mem y xs then Some p else a_parent a.
Proof. unfold mix. destruct (mem y xs), (mem y ys); reflexivity. Qed.

Lemma free_step h p x T F : WF h -> p < hnext h -> nbound (hnode h p) = Current -> a_parent (view h p) = None ->
  ltree (view h) T -> root T = x -> x < hnext h -> a_parent (view h x) = None -> x <> p ->
  exists h', ext_step_flags p F (EItem x) h = (h', Ok tt) /\ WF h' /\ hnext h' = hnext h /\ nbound (hnode h' p) = Current /\
    view h' p = a_set_children (children h p ++ [x]) (view h p) /\
    forall y, y <> p -> view h' y = mix p F [x] (flatten T) y (view h y).
Proof.
  intros W Hp Hb Pp HT Er Hx Px Hxp.
  assert (NA : ~ Anc (view h) x p) by (intros K; apply (Anc_root_eq _ _ _ Pp) in K; congruence).
  assert (Nx : nprt (hnode h x) = None). { unfold view in Px. cbn in Px. destruct (nprt (hnode h x)); [discriminate|reflexivity]. }
  assert (At : attachable h p x) by (split; [exact Nx|]; auto).
  destruct (ext_attach_ok h W p x At Hb) as (h1 & E1 & Q1).
  assert (E : ext_step p (EItem x) h = (h1, Ok tt)).
  { unfold ext_step, ext_item. unfold bind at 1. rewrite bind_gets, Nx. cbn [ret]. rewrite bind_gets. exact E1. }
  assert (V1 : same (view h1) (attach (view h) p x (length (nitems (hnode h p))))).
  { eapply same_trans; [apply ceq_view_same; exact Q1|]. apply mk_attach_view. assumption. }
  assert (W1 : WF h1) by (eapply ceq_WF; [exact Q1|apply mk_attach_WF; assumption]).
  assert (N1 : hnext h1 = hnext h) by (rewrite (ceq_next _ _ Q1); reflexivity).
  assert (B1 : nbound (hnode h1 p) = Current).
  { rewrite (ceq_bound _ _ Q1). unfold mk_attach. rewrite hmod_other by congruence. rewrite hmod_same. reflexivity. }
  assert (Vp : view h1 p = a_set_children (children h p ++ [x]) (view h p)).
  { rewrite (V1 p). unfold attach. rewrite Nat.eqb_refl, insert_at_end by apply le_n. reflexivity. }
  assert (Vo : forall y, y <> p -> view h1 y = if Nat.eqb y x then a_set_parent (Some p) (view h y) else view h y).
  { intros y Hy. rewrite (V1 y). unfold attach. apply Nat.eqb_neq in Hy. rewrite Hy. destruct (Nat.eqb_spec y x) as [->|]; reflexivity. }
  assert (NpT : ~ In p (flatten T)).
  { intros Hi. pose proof (ltree_anc _ _ T (wf_forest _ W) HT p Hi) as K. rewrite Er in K. contradiction. }
  unfold ext_step_flags. rewrite (bind_ok _ _ _ _ _ E).
  destruct (Z.eqb_spec F 0) as [->|_].
  - exists h1. split; [reflexivity|]. split; [exact W1|]. split; [exact N1|]. split; [exact B1|]. split; [exact Vp|].
    intros y Hy. rewrite (Vo y Hy). unfold mix. cbn [mem existsb]. rewrite orb_false_r.
    destruct (Nat.eqb y x), (mem y (flatten T)); unfold a_set_flags, a_set_parent; cbn [a_flags]; rewrite ?Z.lor_0_r; destruct (view h y); reflexivity.
  - rewrite bind_gets. change (nitems (hnode h1 p)) with (a_children (view h1 p)). rewrite Vp. cbn [a_set_children a_children].
    rewrite map_app. cbn [map]. rewrite last_last.
    destruct (deep_list_total h1 x (wf_forest _ W1) ltac:(lia)) as (T' & HT' & ET' & D). rewrite D.
    assert (T' = T).
    { eapply ltree_unique; [exact HT'| |congruence]. eapply ltree_frame; [|exact HT]. intros y Hy.
      assert (y <> p) by congruence. rewrite (Vo y) by assumption. destruct (Nat.eqb y x); reflexivity. }
    subst T'. assert (Fl : x :: below_tree T = flatten T) by (destruct T as [z cs]; cbn in Er; subst z; reflexivity). rewrite Fl.
    destruct (set_flags_list_init F (flatten T) h1) as (h2 & E2 & N2 & V2).
    assert (W2 : WF h2) by (pose proof (WFp_set_flags_list F true (flatten T) h1 W1) as K; rewrite E2 in K; exact K).
    pose proof (set_flags_list_keep F true (flatten T) h1) as (_ & _ & _ & Kb). rewrite E2 in Kb. cbn [fst] in Kb.
    exists h2. split; [exact E2|]. split; [exact W2|]. split; [lia|]. split; [rewrite Kb; exact B1|]. split.
    + rewrite V2. assert (M : existsb (Nat.eqb p) (flatten T) = false) by (apply mem_false; exact NpT). rewrite M. exact Vp.
    + intros y Hy. rewrite V2, (Vo y Hy). unfold mix. fold (mem y (flatten T)). cbn [mem existsb]. rewrite orb_false_r. reflexivity.
Qed.

Lemma free_loop p F : forall Ts h, WF h -> p < hnext h -> nbound (hnode h p) = Current -> a_parent (view h p) = None ->
  Forall (fun T => ltree (view h) T /\ root T < hnext h /\ a_parent (view h (root T)) = None /\ root T <> p) Ts -> NoDup (map root Ts) ->
  exists h', mapM_ (ext_step_flags p F) (map (fun T => EItem (root T)) Ts) h = (h', Ok tt) /\ WF h' /\ hnext h' = hnext h /\
    view h' p = a_set_children (children h p ++ map root Ts) (view h p) /\
    forall y, y <> p -> view h' y = mix p F (map root Ts) (flat_map flatten Ts) y (view h y).
Proof.
  induction Ts as [|T Ts IH]; intros h W Hp Hb Pp HF HN.
  - exists h. split; [reflexivity|]. split; [exact W|]. split; [reflexivity|]. split; [cbn [map]; rewrite app_nil_r; unfold children; destruct (view h p); reflexivity|]. intros y _. reflexivity.
  - inversion HF as [|? ? (HT & Hx & Px & Hxp) HF']; subst. inversion HN as [|? ? Hni HN']; subst.
    destruct (free_step h p (root T) T F W Hp Hb Pp HT eq_refl Hx Px Hxp) as (h1 & E1 & W1 & N1 & B1 & Vp & Vo).
    assert (HF1 : Forall (fun T => ltree (view h1) T /\ root T < hnext h1 /\ a_parent (view h1 (root T)) = None /\ root T <> p) Ts).
    { rewrite Forall_forall in *. intros U HU. destruct (HF' U HU) as (A & B & C & D).
      assert (NpU : ~ In p (flatten U)).
      { intros Hi. pose proof (ltree_anc _ _ U (wf_forest _ W) A p Hi) as K. apply (Anc_root_eq _ _ _ Pp) in K. congruence. }
      split; [|split; [lia|split; [|exact D]]].
      - eapply ltree_frame; [|exact A]. intros y Hy. assert (y <> p) by congruence. rewrite Vo by assumption. rewrite mix_children. reflexivity.
      - rewrite Vo by assumption. rewrite mix_parent. assert (M : mem (root U) [root T] = false).
        { apply mem_false. intros [Q|[]]. apply Hni. rewrite Q. apply in_map. exact HU. }
        rewrite M. exact C. }
    assert (Pp1 : a_parent (view h1 p) = None) by (rewrite Vp; exact Pp).
    destruct (IH h1 W1 ltac:(lia) B1 Pp1 HF1 HN') as (h2 & E2 & W2 & N2 & Vp2 & Vo2).
    exists h2. cbn [map mapM_]. rewrite (bind_ok _ _ _ _ _ E1). split; [exact E2|]. split; [exact W2|]. split; [lia|]. split.
    + rewrite Vp2. unfold children. rewrite Vp. cbn [a_set_children a_children]. rewrite <- app_assoc. reflexivity.
    + intros y Hy. rewrite Vo2, Vo by assumption. cbn [flat_map].
      change (root T :: map root Ts) with ([root T] ++ map root Ts). rewrite mix_app. reflexivity.
Qed.

(** flags of a constructed item *)
Definition new_flags (fl : Z) (lk : option nat) : Z :=
  match lk with None => Z.land fl FLAG_MASK | Some _ => Z.lor (Z.land fl FLAG_MASK) LINK_ROOT end.
Definition deep_flags (fl : Z) : Z := Z.land (Z.land fl FLAG_MASK) DEEP_FLAG_MASK.
Definition new_link (lk : option nat) : option linkrec := option_map (fun s => LK s false [] None) lk.

Lemma new_tree_free h t v lk fl Ts : WF h -> hashable t = true ->
  Forall (fun T => ltree (view h) T /\ root T < hnext h /\ a_parent (view h (root T)) = None) Ts -> NoDup (map root Ts) ->
  exists h', new_tree t v (map EItem (map root Ts)) lk fl h = (h', Ok (hnext h)) /\ hnext h' = S (hnext h) /\
    view h' (hnext h) = AN t v (new_flags fl lk) None (map root Ts) (new_link lk) None /\
    forall y, y < hnext h -> view h' y = mix (hnext h) (deep_flags fl) (map root Ts) (flat_map flatten Ts) y (view h y).
Proof.
  intros W Ht HF HN. unfold new_tree. rewrite Ht. cbn [negb].
  set (h1 := fst (halloc h (fresh_node t v (Z.land fl FLAG_MASK) None))).
  assert (E1 : new_item t v (Z.land fl FLAG_MASK) None h = (h1, Ok (hnext h))) by reflexivity.
  rewrite (bind_ok _ _ _ _ _ E1). fold (deep_flags fl).
  assert (W1 : WF h1) by (apply halloc_WF; [assumption|discriminate]).
  assert (V1 : forall y, y <> hnext h -> view h1 y = view h y).
  { intros y Hy. unfold h1. rewrite new_item_view. destruct (Nat.eqb_spec y (hnext h)); [lia|reflexivity]. }
  assert (Vn : view h1 (hnext h) = AN t v (Z.land fl FLAG_MASK) None [] None None).
  { unfold h1. rewrite new_item_view, Nat.eqb_refl. reflexivity. }
  assert (Nx : hnext h1 = S (hnext h)) by reflexivity.
  clearbody h1.
  assert (Body : exists h2, (match map EItem (map root Ts) with [] => ret tt | _ => upd (hnext h) (set_fams (Some []) Current) ;;;
             mapM_ (ext_step_flags (hnext h) (deep_flags fl)) (map EItem (map root Ts)) end) h1 = (h2, Ok tt) /\ hnext h2 = S (hnext h) /\
    view h2 (hnext h) = AN t v (Z.land fl FLAG_MASK) None (map root Ts) None None /\
    forall y, y < hnext h -> view h2 y = mix (hnext h) (deep_flags fl) (map root Ts) (flat_map flatten Ts) y (view h y)).
  { destruct Ts as [|T Ts].
    - exists h1. split; [reflexivity|]. split; [exact Nx|]. split; [exact Vn|]. intros y Hy. rewrite V1 by lia. reflexivity.
    - set (h0 := hmod h1 (hnext h) (set_fams (Some []) Current)).
      assert (Ei : nitems (hnode h1 (hnext h)) = []) by (change (a_children (view h1 (hnext h)) = []); rewrite Vn; reflexivity).
      assert (W0 : WF h0) by (apply set_fams_WF; assumption).
      assert (V0 : same (view h0) (view h1)) by apply same_view_fams.
      assert (B0 : nbound (hnode h0 (hnext h)) = Current) by (unfold h0; rewrite hmod_same; reflexivity).
      assert (N0 : hnext h0 = S (hnext h)) by exact Nx.
      assert (P0 : a_parent (view h0 (hnext h)) = None) by (rewrite V0, Vn; reflexivity).
      assert (HF0 : Forall (fun T => ltree (view h0) T /\ root T < hnext h0 /\ a_parent (view h0 (root T)) = None /\ root T <> hnext h) (T :: Ts)).
      { eapply Forall_impl; [|exact HF]. intros U (A & B & C). split; [|split; [lia|split; [|lia]]].
        - eapply ltree_frame; [|exact A]. intros y Hy. assert (y < hnext h) by (eapply ltree_lt; [apply (wf_forest _ W)|exact A|exact B|exact Hy]).
          rewrite V0, V1 by lia. reflexivity.
        - rewrite V0, V1 by lia. exact C. }
      destruct (free_loop (hnext h) (deep_flags fl) (T :: Ts) h0 W0 ltac:(lia) B0 P0 HF0 HN) as (h2 & E2 & W2 & N2 & Vp & Vo).
      exists h2. rewrite map_map. cbn [map]. rewrite bind_upd. split; [exact E2|]. split; [lia|]. split.
      + rewrite Vp. unfold children. rewrite V0, Vn. reflexivity.
      + intros y Hy. rewrite Vo by lia. rewrite V0, V1 by lia. reflexivity. }
  destruct Body as (h2 & E2 & N2 & Vp & Vo). rewrite (bind_ok _ _ _ _ _ E2). destruct lk as [s|]; unfold new_flags, new_link, option_map.
  - rewrite bind_upd. eexists. split; [reflexivity|]. split; [exact N2|].
    assert (V3 : forall y, view (hmod h2 (hnext h) (fun n => set_link (Some (LK s false [] None)) (set_flg (Z.lor (nflags n) LINK_ROOT) n))) y =
      if Nat.eqb y (hnext h) then AN (a_tag (view h2 y)) (a_val (view h2 y)) (Z.lor (a_flags (view h2 y)) LINK_ROOT) (a_parent (view h2 y)) (a_children (view h2 y)) (Some (LK s false [] None)) (a_coupled (view h2 y)) else view h2 y).
    { intros y. unfold view. cbn [hnode hmod]. destruct (Nat.eqb y (hnext h)); reflexivity. }
    split.
    + rewrite V3, Nat.eqb_refl, Vp. reflexivity.
    + intros y Hy. rewrite V3. destruct (Nat.eqb_spec y (hnext h)); [lia|]. apply Vo. exact Hy.
  - exists h2. split; [reflexivity|]. auto.
Qed.
