(** The constructor applied to items some of which occur several times. *)
From Verif Require Import Base Heap HeapSpec ListLemmas ForestLemmas HeapInv HeapAttach HeapOps HeapOps2 HeapOps3 HeapHoare Tree HeapTree HeapCopy HeapMut
  HeapExt HeapExt2 HeapOrd HeapHist HeapFlags History HeapRead Runs HeapLink HeapLinkH PropsA PropsB PropsF SerNew ArithModel.
Import ListNotations.
Open Scope list_scope.

Definition addf (d : Z) (l : xlabel) : xlabel := XL (x_tag l) (x_val l) (Z.lor (x_flags l) d) (x_src l).
Lemma addf_addf d l : addf d (addf d l) = addf d l.
Proof. unfold addf. cbn. rewrite <- Z.lor_assoc, Z.lor_diag. reflexivity. Qed.
Lemma has_lor_none f d m : has d m = false -> has (Z.lor f d) m = has f m.
Proof. unfold has. intros H. apply negb_false_iff, Z.eqb_eq in H. rewrite Z.land_lor_distr_l, H, Z.lor_0_r. reflexivity. Qed.
Lemma addf_cp d l : has d LINK_ROOT = false -> in_mask d -> cp_label (addf d l) = addf d (cp_label l).
Proof.
  intros H M. unfold in_mask in M. unfold cp_label, addf. cbn [x_tag x_val x_flags x_src]. rewrite has_lor_none by exact H.
  f_equal. rewrite Z.land_lor_distr_l, M. destruct (has (x_flags l) LINK_ROOT); [|reflexivity].
  rewrite <- !Z.lor_assoc. f_equal. apply Z.lor_comm.
Qed.

(** one round: item [root T] itself when it is free, a copy otherwise *)
Lemma dup_step h p d T : WF h -> links_sane h -> p < hnext h -> nbound (hnode h p) = Current -> a_parent (view h p) = None ->
  ltree (view h) T -> root T < hnext h -> root T <> p ->
  exists h' c Tc, ext_step_flags p d (EItem (root T)) h = (h', Ok tt) /\ WF h' /\ hnext h <= hnext h' /\ nbound (hnode h' p) = Current /\
    view h' p = a_set_children (children h p ++ [c]) (view h p) /\
    ltree (view h') Tc /\ root Tc = c /\
    (Tc = T /\ tmap (label (view h')) Tc = tmap (fun y => addf d (label (view h) y)) T \/
     tmap (label (view h')) Tc = tmap (fun y => addf d (cp_label (label (view h) y))) T /\ (forall y, In y (flatten Tc) -> hnext h <= y)) /\
    (forall y, In y (flatten Tc) -> y < hnext h') /\
    (forall y, y < hnext h -> y <> p -> ~ In y (flatten T) -> view h' y = view h y) /\
    (forall y, In y (flatten T) -> a_children (view h' y) = a_children (view h y) /\
       (label (view h') y = label (view h) y \/ label (view h') y = addf d (label (view h) y))).
Proof.
  intros W L Hp Hb Pp HT Hx Hxp.
  assert (LT : forall y, In y (flatten T) -> y < hnext h) by (apply (ltree_lt _ _ T (wf_forest _ W) HT Hx)).
  assert (NpT : ~ In p (flatten T)).
  { intros Hi. pose proof (ltree_anc _ _ T (wf_forest _ W) HT p Hi) as K. apply (Anc_root_eq _ _ _ Pp) in K. congruence. }
  destruct (a_parent (view h (root T))) as [q|] eqn:Px.
  - assert (Ok1 : earg_ok h p (EItem (root T))) by (split; [exact Hx|intros K; unfold parent_of in K; congruence]).
    destruct (ext_step_case h p (EItem (root T)) W Hp Hb Ok1) as (h1 & r & E1 & W1 & Hn1 & Hb1 & R1).
    pose proof (ext_step_total h p (EItem (root T)) W L Hp Hb Ok1 I) as Tot. rewrite E1 in Tot. cbn [snd] in Tot. subst r.
    destruct R1 as (c & El & Hcp & Hc & Vp & Pc & Fr & _). cbn [elem] in El. destruct El as [[K _]|[_ (T0 & Tc & HT0 & ET0 & HTc & ETc & Lab & Rng)]]; [congruence|].
    assert (T0 = T) by (eapply ltree_unique; eauto). subst T0. subst c.
    assert (Old : forall y, y < hnext h -> y <> p -> view h1 y = view h y).
    { intros y Hy Hyp. rewrite Fr by assumption. destruct (Nat.eqb_spec y (root Tc)) as [->|]; [|reflexivity]. exfalso.
      specialize (Rng (root Tc) (in_flatten_root Tc)). lia. }
    unfold ext_step_flags. rewrite (bind_ok _ _ _ _ _ E1). destruct (Z.eqb_spec d 0) as [->|_].
    + exists h1, (root Tc), Tc. split; [reflexivity|]. split; [exact W1|]. split; [exact Hn1|]. split; [exact Hb1|]. split; [exact Vp|]. split; [exact HTc|]. split; [reflexivity|].
      split; [right; split; [|intros y Hy; apply Rng in Hy; lia]|].
      { rewrite Lab. apply tmap_ext. intros y _. unfold addf. rewrite Z.lor_0_r. destruct (cp_label _). reflexivity. }
      split; [intros y Hy; apply Rng in Hy; lia|]. split; [intros y A B _; apply Old; assumption|].
      intros y Hy. assert (y <> p) by congruence. unfold label. rewrite Old by auto. auto.
    + rewrite bind_gets. change (nitems (hnode h1 p)) with (a_children (view h1 p)). rewrite Vp. cbn [a_set_children a_children].
      rewrite map_app. cbn [map]. rewrite last_last.
      destruct (deep_list_total h1 (root Tc) (wf_forest _ W1) ltac:(lia)) as (T' & HT' & ET' & D). rewrite D.
      assert (T' = Tc) by (eapply ltree_unique; eauto). subst T'.
      assert (Fl : root Tc :: below_tree Tc = flatten Tc) by (destruct Tc; reflexivity). rewrite Fl.
      destruct (set_flags_list_init d (flatten Tc) h1) as (h2 & E2 & N2 & V2). fold (mem) in V2.
      assert (W2 : WF h2) by (pose proof (WFp_set_flags_list d true (flatten Tc) h1 W1) as K; rewrite E2 in K; exact K).
      pose proof (set_flags_list_keep d true (flatten Tc) h1) as (_ & _ & _ & Kb). rewrite E2 in Kb. cbn [fst] in Kb.
      assert (Off : forall y, y < hnext h -> view h2 y = view h1 y).
      { intros y Hy. rewrite V2. assert (M : existsb (Nat.eqb y) (flatten Tc) = false) by (apply mem_false; intros K; apply Rng in K; lia). rewrite M. reflexivity. }
      exists h2, (root Tc), Tc. split; [exact E2|]. split; [exact W2|]. split; [lia|]. split; [rewrite Kb; exact Hb1|]. split; [rewrite Off by exact Hp; exact Vp|].
      split; [eapply ltree_frame; [|exact HTc]; intros y Hy; rewrite V2; destruct (existsb _ _); reflexivity|]. split; [reflexivity|].
      split; [right; split; [|intros y Hy; apply Rng in Hy; lia]|].
      { rewrite <- (tmap_tmap (fun y => cp_label (label (view h) y)) (addf d)), <- Lab, tmap_tmap. apply tmap_ext. intros y Hy. unfold label at 1. rewrite V2.
        assert (M : existsb (Nat.eqb y) (flatten Tc) = true) by (apply mem_in; exact Hy). rewrite M. reflexivity. }
      split; [intros y Hy; apply Rng in Hy; lia|]. split; [intros y A B _; rewrite Off by exact A; apply Old; assumption|].
      intros y Hy. assert (y <> p) by congruence. unfold label. rewrite Off by auto. rewrite Old by auto. auto.
  - destruct (free_step h p (root T) T d W Hp Hb Pp HT eq_refl Hx Px Hxp) as (h1 & E1 & W1 & N1 & B1 & Vp & Vo).
    exists h1, (root T), T. split; [exact E1|]. split; [exact W1|]. split; [lia|]. split; [exact B1|]. split; [exact Vp|].
    split; [eapply ltree_frame; [|exact HT]; intros y Hy; assert (y <> p) by congruence; rewrite Vo, mix_children by assumption; reflexivity|]. split; [reflexivity|].
    assert (Lb : forall y, In y (flatten T) -> label (view h1) y = addf d (label (view h) y)).
    { intros y Hy. assert (y <> p) by congruence. unfold label. rewrite Vo by assumption. unfold mix. assert (M : mem y (flatten T) = true) by (apply mem_in; exact Hy). rewrite M.
      destruct (mem y [root T]); reflexivity. }
    split; [left; split; [reflexivity|apply tmap_ext; exact Lb]|]. split; [intros y Hy; rewrite N1; auto|].
    split.
    + intros y A B C. rewrite Vo by exact B. unfold mix. assert (M : mem y (flatten T) = false) by (apply mem_false; exact C). rewrite M.
      assert (M2 : mem y [root T] = false) by (apply mem_false; intros [K|[]]; apply C; rewrite <- K; apply in_flatten_root). rewrite M2. reflexivity.
    + intros y Hy. assert (y <> p) by congruence. split; [rewrite Vo, mix_children by assumption; reflexivity|right; apply Lb; exact Hy].
Qed.

Lemma tmap_pointwise {A B} (f g : A -> B) T : tmap f T = tmap g T -> forall y, In y (flatten T) -> f y = g y.
Proof.
  intros E y Hy. apply (f_equal flatten) in E. rewrite !flatten_tmap in E. revert E Hy. generalize (flatten T). intros l. induction l as [|a l IH]; [contradiction|].
  cbn. intros [= E1 E2] [->|Hy]; auto.
Qed.

Section Dup.
  Variables (p : loc) (d : Z) (n0 : nat) (s0 : astate) (P0 : anode) (lab0 : loc -> xlabel) (Src : tree loc -> Prop).
  (** the children made so far from [done] *)
  Definition made (h : heap) (T : tree loc) (c : loc) : Prop :=
    exists Tc, ltree (view h) Tc /\ root Tc = c /\ tmap (label (view h)) Tc = tmap (fun y => addf d (lab0 y)) T /\
      forall y, In y (flatten Tc) -> n0 <= y < hnext h.
  Definition DInv (h : heap) (done : list (tree loc)) : Prop :=
    WF h /\ links_sane h /\ n0 <= p < hnext h /\ nbound (hnode h p) = Current /\ a_parent (view h p) = None /\ a_set_children [] (view h p) = P0 /\
    (forall T, Src T -> ltree (view h) T /\ root T < hnext h /\ root T <> p /\ forall y, In y (flatten T) -> n0 <= y /\ addf d (label (view h) y) = addf d (lab0 y)) /\
    Forall2 (made h) done (children h p) /\ (forall y, y < n0 -> view h y = s0 y).
  Hypothesis dL : has d LINK_ROOT = false.
  Hypothesis dM : in_mask d.
  Hypothesis cpn : forall T y, Src T -> In y (flatten T) -> cp_label (lab0 y) = lab0 y.

  Lemma dup_loop : forall Ts h done, DInv h done -> Forall Src Ts ->
    exists h', mapM_ (ext_step_flags p d) (map (fun T => EItem (root T)) Ts) h = (h', Ok tt) /\ hnext h <= hnext h' /\ DInv h' (done ++ Ts).
  Proof.
    induction Ts as [|T Ts IH]; intros h done I HS.
    { exists h. rewrite app_nil_r. auto. }
    inversion HS as [|? ? HT HS']; subst. destruct I as (W & L & Hp & Hb & Pp & EP & SI & Dn & S0).
    destruct (SI T HT) as (LT & Hx & Hxp & Hy).
    destruct (dup_step h p d T W L (proj2 Hp) Hb Pp LT Hx Hxp) as (h1 & c & Tc & E1 & W1 & N1 & B1 & Vp & LTc & ETc & Lab & Rc & Off & On).
    assert (NpT : forall U, ltree (view h) U -> root U <> p -> ~ In p (flatten U)).
    { intros U HU K Hi. pose proof (ltree_anc _ _ U (wf_forest _ W) HU p Hi) as Q. apply (Anc_root_eq _ _ _ Pp) in Q. congruence. }
    assert (Any : forall y, y < hnext h -> y <> p -> a_children (view h1 y) = a_children (view h y) /\
              (label (view h1) y = label (view h) y \/ label (view h1) y = addf d (label (view h) y))).
    { intros y A B. destruct (in_dec Nat.eq_dec y (flatten T)) as [Hi|Hi]; [apply On; exact Hi|]. unfold label. rewrite (Off y A B Hi). auto. }
    assert (L1 : links_sane h1).
    { assert (K : lsp (ext_step_flags p d (EItem (root T)))).
      { unfold ext_step_flags. apply lsp_bind; [apply lsp_ext_step|]. intros _. destruct (d =? 0)%Z; [apply lsp_ret|]. apply lsp_bind; [apply lsp_gets|]. intros g.
        destruct (last _ _); [|apply lsp_ret]. destruct (deep_list _ _ _); [|apply lsp_throw]. apply lsp_set_flags_list. exact dL. }
      specialize (K h L). rewrite E1 in K. exact K. }
    assert (I1 : DInv h1 (done ++ [T])).
    { split; [exact W1|]. split; [exact L1|]. split; [lia|]. split; [exact B1|]. split; [rewrite Vp; exact Pp|]. split; [rewrite Vp; exact EP|]. split; [|split].
      - intros U HU. destruct (SI U HU) as (A & B & C & D). pose proof (NpT U A C) as Np. assert (LU := ltree_lt _ _ U (wf_forest _ W) A B).
        split; [|split; [lia|split; [exact C|]]].
        + eapply ltree_frame; [|exact A]. intros y Hz. assert (y <> p) by congruence. symmetry. apply Any; auto.
        + intros y Hz. destruct (D y Hz) as [D1 D2]. split; [exact D1|]. assert (y <> p) by congruence. destruct (Any y (LU y Hz) H) as [_ [->| ->]]; [exact D2|]. rewrite addf_addf. exact D2.
      - assert (Ch : children h1 p = children h p ++ [c]) by (unfold children at 1; rewrite Vp; reflexivity). rewrite Ch. apply Forall2_app; [|constructor; [|constructor]].
        + assert (Keep : forall Us cs, Forall2 (made h) Us cs -> (forall c', In c' cs -> In c' (children h p)) -> Forall2 (made h1) Us cs); [|apply Keep; auto].
          intros Us0 cs0 Dn'. induction Dn' as [|U c' Us cs Hm Dn' IHD]; intros In'; constructor.
          * destruct Hm as (Uc & A & B & C & D). assert (Hc' : In c' (a_children (view h p))) by (apply In'; left; reflexivity).
            assert (Nc : root Uc <> p). { rewrite B. intros ->. pose proof (fo_child _ _ (wf_forest _ W) p p Hc') as Q. congruence. }
            pose proof (NpT Uc A Nc) as Np.
            assert (Fix : forall y, In y (flatten Uc) -> addf d (label (view h) y) = label (view h) y).
            { apply (tmap_pointwise (fun y => addf d (label (view h) y)) (label (view h))). rewrite <- (tmap_tmap (label (view h)) (addf d)), C, tmap_tmap. apply tmap_ext. intros y _. apply addf_addf. }
            exists Uc. split; [|split; [exact B|split]].
            -- eapply ltree_frame; [|exact A]. intros y Hz. assert (y <> p) by congruence. symmetry. apply Any; [apply D; exact Hz|assumption].
            -- rewrite <- C. apply tmap_ext. intros y Hz. assert (y <> p) by congruence. destruct (Any y (proj2 (D y Hz)) H) as [_ [->| ->]]; [reflexivity|apply Fix; exact Hz].
            -- intros y Hz. specialize (D y Hz). lia.
          * apply IHD. intros c'' Hc''. apply In'. right. exact Hc''.
        + exists Tc. split; [exact LTc|]. split; [exact ETc|]. destruct Lab as [[-> Lab]|[Lab Fresh]].
          * split; [rewrite Lab; apply tmap_ext; intros y Hz; apply Hy; exact Hz|]. intros y Hz. split; [apply Hy; exact Hz|apply Rc; exact Hz].
          * split; [|intros y Hz; split; [specialize (Fresh y Hz); lia|apply Rc; exact Hz]]. rewrite Lab. apply tmap_ext. intros y Hz.
            rewrite <- (addf_cp d _ dL dM), (proj2 (Hy y Hz)), (addf_cp d _ dL dM), (cpn T y HT Hz). reflexivity.
      - intros y Hz. rewrite <- S0 by exact Hz. apply Off; [lia|lia|]. intros Hi. specialize (Hy y Hi). lia. }
    destruct (IH h1 _ I1 HS') as (h' & E & N & I'). exists h'. cbn [map mapM_]. rewrite (bind_ok _ _ _ _ _ E1). split; [exact E|]. split; [lia|]. rewrite <- app_assoc in I'. exact I'.
  Qed.
End Dup.

(** the constructor applied to free items, each possibly several times *)
Lemma new_tree_dup h t v fl (Src : tree loc -> Prop) Ts n0 : WF h -> links_sane h -> hashable t = true -> has fl LINK_ROOT = false -> n0 <= hnext h ->
  (forall T, Src T -> ltree (view h) T /\ root T < hnext h /\ (forall y, In y (flatten T) -> n0 <= y /\ cp_label (label (view h) y) = label (view h) y)) ->
  Forall Src Ts ->
  exists h' cs, new_tree t v (map (fun T => EItem (root T)) Ts) None fl h = (h', Ok (hnext h)) /\ hnext h < hnext h' /\
    view h' (hnext h) = AN t v (Z.land fl FLAG_MASK) None cs None None /\
    Forall2 (made (deep_flags fl) n0 (label (view h)) h') Ts cs /\ (forall y, y < n0 -> view h' y = view h y).
Proof.
  intros W L Ht Hfl Hn0 HSrc HTs. unfold new_tree. rewrite Ht. cbn [negb].
  set (h1 := fst (halloc h (fresh_node t v (Z.land fl FLAG_MASK) None))).
  assert (E1 : new_item t v (Z.land fl FLAG_MASK) None h = (h1, Ok (hnext h))) by reflexivity.
  rewrite (bind_ok _ _ _ _ _ E1). fold (deep_flags fl).
  assert (W1 : WF h1) by (apply halloc_WF; [assumption|discriminate]).
  assert (L1 : links_sane h1).
  { assert (K : lsp (new_item t v (Z.land fl FLAG_MASK) None)) by (apply lsp_new_item; rewrite has_land by reflexivity; congruence). apply (K h L). }
  assert (V1 : forall y, y <> hnext h -> view h1 y = view h y).
  { intros y Hy. unfold h1. rewrite new_item_view. destruct (Nat.eqb_spec y (hnext h)); [lia|reflexivity]. }
  assert (Vn : view h1 (hnext h) = AN t v (Z.land fl FLAG_MASK) None [] None None) by (unfold h1; rewrite new_item_view, Nat.eqb_refl; reflexivity).
  assert (Nx : hnext h1 = S (hnext h)) by reflexivity.
  clearbody h1. destruct Ts as [|T Ts].
  { cbn [map]. rewrite !bind_ret. exists h1, []. split; [reflexivity|]. split; [lia|]. split; [exact Vn|]. split; [constructor|]. intros y Hy. apply V1. lia. }
  set (h0 := hmod h1 (hnext h) (set_fams (Some []) Current)).
  assert (Ei : nitems (hnode h1 (hnext h)) = []) by (change (a_children (view h1 (hnext h)) = []); rewrite Vn; reflexivity).
  assert (W0 : WF h0) by (apply set_fams_WF; assumption).
  assert (V0 : same (view h0) (view h1)) by apply same_view_fams.
  assert (L0 : links_sane h0) by (eapply ls_same_view; [exact V0|exact L1]).
  assert (B0 : nbound (hnode h0 (hnext h)) = Current) by (unfold h0; rewrite hmod_same; reflexivity).
  assert (N0 : hnext h0 = S (hnext h)) by exact Nx.
  assert (VL : forall y, y < hnext h -> view h0 y = view h y) by (intros y Hy; rewrite V0; apply V1; lia).
  assert (I0 : DInv (hnext h) (deep_flags fl) n0 (view h) (AN t v (Z.land fl FLAG_MASK) None [] None None) (label (view h)) Src h0 []).
  { split; [exact W0|]. split; [exact L0|]. split; [lia|]. split; [exact B0|]. split; [rewrite V0, Vn; reflexivity|]. split; [rewrite V0, Vn; reflexivity|]. split; [|split].
    - intros U HU. destruct (HSrc U HU) as (A & B & C). assert (LU := ltree_lt _ _ U (wf_forest _ W) A B). split; [|split; [lia|split; [lia|]]].
      + eapply ltree_frame; [|exact A]. intros y Hy. rewrite VL by auto. reflexivity.
      + intros y Hy. split; [apply C; exact Hy|]. unfold label. rewrite VL by auto. reflexivity.
    - unfold children. rewrite V0, Vn. constructor.
    - intros y Hy. apply VL. lia. }
  assert (dL : has (deep_flags fl) LINK_ROOT = false).
  { unfold deep_flags, has. rewrite <- Z.land_assoc. change (Z.land DEEP_FLAG_MASK LINK_ROOT) with 0%Z. rewrite Z.land_0_r. reflexivity. }
  assert (dM : in_mask (deep_flags fl)).
  { unfold deep_flags, in_mask. rewrite <- !Z.land_assoc. f_equal. }
  destruct (dup_loop (hnext h) (deep_flags fl) n0 (view h) _ (label (view h)) Src dL dM (fun U y HU Hy => proj2 (proj2 (proj2 (HSrc U HU)) y Hy)) (T :: Ts) h0 [] I0 HTs)
    as (h2 & E2 & N2 & (W2 & L2 & P2 & B2 & Pp2 & EP & _ & Dn & S2)).
  cbn [app] in Dn. exists h2, (children h2 (hnext h)). split; [|split; [lia|split; [|split; [exact Dn|exact S2]]]].
  - assert (Body : (upd (hnext h) (set_fams (Some []) Current) ;;; mapM_ (ext_step_flags (hnext h) (deep_flags fl)) (map (fun T0 => EItem (root T0)) (T :: Ts))) h1 = (h2, Ok tt)).
    { rewrite bind_upd. exact E2. }
    cbn [map] in *. rewrite (bind_ok _ _ _ _ _ Body). reflexivity.
  - unfold children. destruct (view h2 (hnext h)) as [a1 a2 a3 a4 a5 a6 a7]. cbn in EP |- *. injection EP. intros; subst; reflexivity.
Qed.

(** copies of several items *)
Lemma copies_ok : forall xs h, WF h -> links_sane h -> (forall x, In x xs -> x < hnext h) ->
  exists h' cs, mapM copy_item xs h = (h', Ok cs) /\ WF h' /\ links_sane h' /\ hnext h <= hnext h' /\
    Forall2 (copy_of (view h) (view h') (hnext h) (hnext h')) xs cs /\ Forall (fun c => a_parent (view h' c) = None) cs /\
    (forall y, y < hnext h -> view h' y = view h y).
Proof.
  induction xs as [|x xs IH]; intros h W L Hx.
  { exists h, []. split; [reflexivity|]. split; [exact W|]. split; [exact L|]. split; [lia|]. auto. }
  assert (Hx0 : x < hnext h) by (apply Hx; left; reflexivity).
  destruct (ltree_exists _ _ _ (wf_forest _ W) Hx0) as (T & HT & Er & _). subst x.
  destruct (copy_item_ok h W T HT Hx0) as (h1 & r & E & W1 & N1 & Fr & K).
  destruct (copy_item_total h (root T) W L Hx0) as (h1' & c & E'). rewrite E in E'. injection E' as <- ->.
  destruct K as (T' & HT' & Ec & Lab & Rng & Par & _).
  pose proof (lsp_copy_item (root T) h L) as L1. rewrite E in L1. cbn [fst] in L1.
  destruct (IH h1 W1 L1) as (h2 & cs & E2 & W2 & L2 & N2 & Cs & Ps & F2); [intros x Hin; specialize (Hx x (or_intror Hin)); lia|].
  exists h2, (c :: cs). cbn [mapM]. rewrite (bind_ok _ _ _ _ _ E), (bind_ok _ _ _ _ _ E2). split; [reflexivity|]. split; [exact W2|]. split; [exact L2|]. split; [lia|].
  assert (Hc : c < hnext h1) by (rewrite <- Ec; apply (Rng (root T')), in_flatten_root).
  split; [|split].
  - constructor.
    + exists T, T'. split; [exact HT|]. split; [reflexivity|]. split; [|split; [exact Ec|split]].
      * eapply ltree_frame; [|exact HT']. intros y Hy. rewrite F2 by (apply Rng; exact Hy). reflexivity.
      * rewrite <- Lab. apply tmap_ext. intros y Hy. unfold label. rewrite F2 by (apply Rng; exact Hy). reflexivity.
      * intros y Hy. specialize (Rng y Hy). lia.
    + eapply Forall2_impl_in; [|exact Cs]. intros x c' Hin (U & U' & A & B & C & D & Eq & R).
      assert (Hx' : x < hnext h) by (apply Hx; right; exact Hin).
      destruct (ltree_exists _ _ _ (wf_forest _ W) Hx') as (V & HV & EV & _).
      assert (LV := ltree_lt _ _ V (wf_forest _ W) HV ltac:(congruence)).
      assert (HV1 : ltree (view h1) V) by (eapply ltree_frame; [|exact HV]; intros y Hy; destruct (Fr y (LV y Hy)) as [-> _]; reflexivity).
      assert (U = V) by (eapply ltree_unique; [exact A|exact HV1|congruence]). subst U.
      exists V, U'. split; [exact HV|]. split; [exact B|]. split; [exact C|]. split; [exact D|]. split.
      * rewrite Eq. apply tmap_ext. intros y Hy. unfold label. destruct (Fr y (LV y Hy)) as [-> _]. reflexivity.
      * intros y Hy. specialize (R y Hy). lia.
  - constructor; [rewrite F2 by exact Hc; exact Par|exact Ps].
  - intros y Hy. rewrite F2 by lia. apply Fr. exact Hy.
Qed.
