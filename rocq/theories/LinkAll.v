(** load_links: the whole call. *)
From Coq Require Import List.
From Verif Require Import Base Heap HeapSpec ListLemmas ForestLemmas HeapInv HeapAttach HeapOps HeapOps2 HeapOps3 Tree HeapTree HeapCopy Deep SerModel LinkModel LinkFacts LinkFacts2 LinkMerge LinkLoad LinkRun.
Import ListNotations.
Local Open Scope list_scope.

Lemma kept_locals h l : forall add pre p, In p (kept_of (locals h add pre l)) -> In (snd p) l.
Proof.
  induction l as [|y l IH]; intros add pre p; [intros []|]. cbn [locals]. destruct (is_linked h y && add); [|destruct (has _ _)]; unfold kept_of; cbn [flat_map snd fst app]; fold kept_of.
  - intros H. right. eapply IH. exact H.
  - intros H. right. eapply IH. exact H.
  - intros [<-|H]; [left; reflexivity|right; eapply IH; exact H].
Qed.
Lemma kept_locals_NoDup h l : forall add pre, NoDup l -> NoDup (map snd (kept_of (locals h add pre l))).
Proof.
  induction l as [|y l IH]; intros add pre ND; [constructor|]. inversion ND as [|a b N1 N2]; subst. cbn [locals].
  destruct (is_linked h y && add); [|destruct (has _ _)]; unfold kept_of; cbn [flat_map snd fst app]; fold kept_of; [apply IH; exact N2|apply IH; exact N2|]. cbn [map snd]. constructor; [|apply IH; exact N2].
  intros H. apply in_map_iff in H as (p & E & H). apply N1. rewrite <- E. eapply kept_locals. exact H.
Qed.
Lemma NoDup_snd_inj {A B} (l : list (A * B)) p q : NoDup (map snd l) -> In p l -> In q l -> snd p = snd q -> p = q.
Proof.
  induction l as [|a l IH]; intros ND Hp Hq E; [destruct Hp|]. cbn in ND. inversion ND as [|u v N1 N2]; subst.
  destruct Hp as [<-|Hp], Hq as [<-|Hq]; [reflexivity| | |apply IH; assumption].
  - exfalso. apply N1. rewrite E. apply in_map. exact Hq.
  - exfalso. apply N1. rewrite <- E. apply in_map. exact Hp.
Qed.

Lemma combine_fst_NoDup {A B} (l : list A) : forall m : list B, NoDup l -> NoDup (map fst (combine l m)).
Proof.
  induction l as [|a l IH]; intros [|b m] ND; cbn; try constructor; inversion ND as [|u v N1 N2]; subst; [|apply IH; exact N2].
  intros H. apply N1. apply in_map_iff in H as ((u, v) & E & H). cbn in E. subst u. apply in_combine_l in H. exact H.
Qed.
Lemma combine_snd_NoDup {A B} (l : list A) : forall m : list B, NoDup m -> NoDup (map snd (combine l m)).
Proof.
  induction l as [|a l IH]; intros [|b m] ND; cbn; try constructor; inversion ND as [|u v N1 N2]; subst; [|apply IH; exact N2].
  intros H. apply N1. apply in_map_iff in H as ((u, v) & E & H). cbn in E. subst v. apply in_combine_r in H. exact H.
Qed.

Lemma item_parent h0 x h' cl L : forall ks Cs Rs, Forall2 (item_done h0 x h' cl L) (combine ks Cs) Rs -> length ks = length Cs ->
  forall k z, In (k, z) (combine ks (map root Rs)) -> (forall w, lget L k <> Some (LOld w)) -> parent_of h' z = Some x.
Proof.
  induction ks as [|k0 ks IH]; intros [|C Cs] Rs A6 Lc k z Hp Eg; try discriminate; [destruct Hp|]. cbn [combine] in A6. inversion A6 as [|a C' c Rs' A1 A2]; subst.
  cbn [map combine] in Hp. destruct Hp as [Hp|Hp].
  - injection Hp as -> <-. destruct A1 as (_ & V & _). cbn [fst] in V. rewrite V. destruct (lget L k) as [[w|]|] eqn:E; [exfalso; apply (Eg w); reflexivity|reflexivity|reflexivity].
  - eapply IH; [exact A2| |exact Hp|exact Eg]. cbn in Lc. lia.
Qed.

Definition target_ok (h0 : heap) (x : loc) (olds : list loc) (C : tree loc) : Prop :=
  ltree (view h0) C /\ NoDup (flatten C) /\ (forall y, In y (flatten C) -> y < hnext h0 /\ y <> x /\ ~ In y olds) /\
  is_linked h0 (root C) = false /\ is_link_root h0 (root C) = false /\ hashable (ntag (hnode h0 (root C))) = true /\
  (forall y, In y (below_tree C) -> conv_good (label (view h0) y) = true).

Lemma load_links_ok target_of changed force n h0 x t olds Cs lk :
  kids_of h0 x olds -> kids_of h0 t (map root Cs) -> x < hnext h0 -> t < hnext h0 -> x <> t -> (forall y, In y olds -> y < hnext h0 /\ y <> x) ->
  Forall (target_ok h0 x olds) Cs -> all_near h0 [] (map root Cs) ->
  place_ok h0 [] olds ->
  is_link_root h0 x = true -> nlink (hnode h0 x) = Some lk -> force || negb (lk_loaded lk) || changed h0 x = true -> target_of h0 x = Ok t ->
  let L := locals h0 false [] olds in let ks := keys_from (tags h0) [] (map root Cs) in let cl := coupled_from h0 [] olds in
  exists h' Rs', load_links target_of changed force (S n) x h0 = (h', Ok true) /\
    own h' x (merge (IT h0 t) L (combine ks (map root Rs'))) /\ caches_ok h' /\ hnext h0 <= hnext h' /\
    (forall y, hnext h' <= y -> hnode h' y = hnode h0 y) /\
    (forall y, In y (merge (IT h0 t) L (combine ks (map root Rs'))) -> parent_of h' y = Some x) /\
    ntag (hnode h' x) = ntag (hnode h0 x) /\ nval (hnode h' x) = nval (hnode h0 x) /\ nflags (hnode h' x) = nflags (hnode h0 x) /\
    ncoupled (hnode h' x) = ncoupled (hnode h0 x) /\ nprt (hnode h' x) = nprt (hnode h0 x) /\
    nlink (hnode h' x) = Some (LK (lk_src lk) true (rev (map (tags h0) (map root Cs))) (lk_cover lk)) /\
    (forall y, y < hnext h0 -> y <> x -> ~ In y olds -> strip (hnode h' y) = strip (hnode h0 y)) /\
    (forall y, In y olds -> strip (set_link None (hnode h' y)) = strip (set_link None (hnode h0 y))) /\
    (forall y, In y olds -> (forall k, In k ks -> lget L k <> Some (LOld y)) -> nlink (hnode h' y) = nlink (hnode h0 y)) /\
    Forall2 (item_done h0 x h' cl L) (combine ks Cs) Rs' /\
    (let ts := combine ks (map root Rs') in let ml := merge (IT h0 t) L ts in NoDup ml /\ (forall y, In y ml <-> In y (map (rep L) ts) \/ In y (map snd (kept_of L))) /\ filter (memb (map (rep L) ts)) ml = map (rep L) ts) /\
    (forall y, In y (flat_map flatten Rs') <-> hnext h0 <= y < hnext h') /\ NoDup (flat_map flatten Rs') /\
    (* the stored family numbers *)
    all_near h' [] (map root Cs) /\ (forall y, y < hnext h0 -> y <> x -> ~ In y olds -> ~ In y (map root Cs) -> nprt (hnode h' y) = nprt (hnode h0 y)).
Proof.
  intros Kx Kt Lx Lt Nxt Lo HCs Hnear Hpl Hlr Hlk Hdo Htg L ks cl. cbn [load_links]. rewrite bind_gets, Hlr, Hlk, Hdo. cbn [negb].
  assert (Et : forall {B} (f : loc -> M B), bind (lift (target_of h0 x)) f h0 = f t h0) by (intros B f; rewrite Htg; reflexivity). rewrite Et. clear Et.
  pose proof Kx as ((Ei & _) & NDo & CA & Po). rewrite Ei.
  destruct (local_items_ok x olds [] [] false [] h0 Kx Hpl) as (h1 & E1 & Q1 & O1 & A1); [reflexivity|apply keys_from_NoDup|].
  rewrite (bind_ok _ _ _ _ _ E1). cbn [app]. fold L.
  destruct (old_coupled_ok x olds [] h1 (kids_ceq _ _ _ _ Q1 Kx) A1) as (h2 & E2 & Q2 & O2).
  rewrite (bind_ok _ _ _ _ _ E2), (coupled_ceq _ _ _ Q1). fold cl. cbn [app] in *.
  assert (Q02 : ceq h0 h2) by (eapply ceq_trans; eassumption). assert (O02 : forall y, ~ In y olds -> hnode h2 y = hnode h0 y) by (intros y Hy; rewrite O2, O1; auto).
  unfold clear_items at 1. rewrite bind_upd. set (h3 := hmod h2 x _).
  assert (Xo : ~ In x olds) by (intros H; apply Lo in H; tauto).
  assert (Nx3 : forall y, y <> x -> hnode h3 y = hnode h2 y) by (intros y Hy; apply hmod_other; exact Hy).
  assert (X3 : hnode h3 x = set_items [] (set_fams (Some []) (match nbound (hnode h2 x) with Current => match nfams (hnode h2 x) with Some d => Stale d | None => Unbound end | b => b end) (hnode h2 x))) by (unfold h3; rewrite hmod_same; reflexivity).
  assert (Hold : forall y, In y olds -> y < hnext h0 /\ y <> x /\ parent_of h0 y = Some x /\ (forall pl, nprt (hnode h0 y) = Some pl -> pl_tuple pl = false)).
  { intros y Hy. destruct (Lo y Hy). split; [assumption|]. split; [assumption|]. split; [apply Po; exact Hy|]. intros pl Hp. apply (CA y pl Hp). }
  assert (I3 : Inv h0 x olds Cs h3 []).
  { constructor.
    - split; [rewrite X3; reflexivity|left]. split; [reflexivity|]. rewrite X3. unfold leaf_ok. cbn. destruct (nbound (hnode h2 x)); [right; reflexivity| |reflexivity]. destruct (nfams (hnode h2 x)); [reflexivity|right; reflexivity].
    - intros y pl Hp. apply (proj2 (proj2 Q02) CA y pl). destruct (Nat.eq_dec y x) as [->|Y]; [rewrite X3 in Hp; exact Hp|rewrite Nx3 in Hp by exact Y; exact Hp].
    - unfold h3. cbn. rewrite <- (proj1 Q02). apply le_n.
    - rewrite X3, O02 by exact Xo. split; reflexivity.
    - intros y Y1 Y2 Y3. rewrite Nx3, O02 by assumption. reflexivity.
    - intros y Hy. rewrite Nx3 by (apply Lo; exact Hy). pose proof (proj1 (proj2 Q02) y) as Q. clear -Q.
      change (set_link None (strip (hnode h2 y)) = set_link None (strip (hnode h0 y))). rewrite Q. reflexivity.
    - intros l1 c l2 E.
      assert (Hc : In c (map root Cs)) by (rewrite E; apply in_elt). apply in_map_iff in Hc as (C & Ec & Hc).
      destruct (proj1 (Forall_forall _ _) HCs C Hc) as (_ & _ & Bc & _). destruct (Bc (root C) (in_flatten_root C)) as (U & V & W). rewrite Ec in *.
      specialize (Hnear l1 c l2 E). cbn [app] in Hnear. intros pl Hp. apply Hnear. rewrite Nx3, O02 in Hp by assumption. exact Hp.
    - intros y [].
    - intros y Hy. assert (Xh : hnext h3 = hnext h0) by (unfold h3; cbn; symmetry; apply Q02). rewrite Nx3, O02; [reflexivity| |]; [intros K; apply Lo in K|]; lia.
    - intros y Y1 Y2 Y3 _. rewrite Nx3, O02 by assumption. reflexivity. }
  rewrite bind_gets.
  assert (Et3 : nitems (hnode h3 t) = map root Cs).
  { rewrite Nx3 by auto. pose proof (f_equal nitems (proj1 (proj2 Q02) t)) as Q. cbn in Q. rewrite <- Q. apply Kt. }
  rewrite Et3.
  match goal with |- context [load_items ?f x t cl (map root Cs) _] => set (conv := f) end.
  assert (ND : NoDup (map fst L)) by (unfold L; rewrite locals_keys; apply keys_from_NoDup).
  assert (HCs' := HCs). unfold target_ok in HCs'.
  destruct (loop_heap h0 x t olds Cs Lx Lt Nxt Hold Kt HCs' conv cl) with (R := Cs) (D := @nil (tree loc)) (L := L) (tg := @nil pyval) (h := h3) (lst := @nil loc) as (h4 & Lf & Rs' & lst' & E4 & I4 & X4 & M4 & F4 & O4 & A4 & B4 & N4 & W4 & CV4).
  { intros c g _ Hg. unfold conv. rewrite bind_gets, Hg. reflexivity. }
  { reflexivity. } { exact I3. } { exact ND. } { intros p Hp. eapply kept_locals. exact Hp. }
  { intros p q. apply NoDup_snd_inj. apply kept_locals_NoDup. exact NDo. }
  cbn [map] in *. fold ks in M4, A4, W4. cbn [app] in M4. rewrite app_nil_r in E4. rewrite (bind_ok _ _ _ _ _ E4). cbn [fst snd].
  destruct (apps_ok x (map snd (kept_of Lf)) h4 lst' (i_own _ _ _ _ _ _ I4)) as (h5 & E5 & O5 & X5 & F5 & D5 & P5 & N5 & C5).
  { intros H. apply Xo. apply in_map_iff in H as (p & <- & H). eapply kept_locals. apply F4. exact H. }
  rewrite <- append_rest in E5. rewrite (bind_ok _ _ _ _ _ E5). rewrite M4 in O5.
  set (ml := merge (IT h0 t) L (combine ks (map root Rs'))) in *.
  rewrite bind_upd. set (h6 := hmod h5 x _).
  assert (Nx6 : forall y, y <> x -> hnode h6 y = hnode h5 y) by (intros y Hy; apply hmod_other; exact Hy).
  assert (X6 : hnode h6 x = set_link (option_map (fun lk => LK (lk_src lk) true (rev (map (tags h0) (map root Cs))) (lk_cover lk)) (nlink (hnode h5 x))) (hnode h5 x)) by (unfold h6; rewrite hmod_same; reflexivity).
  assert (Lk5 : nlink (hnode h5 x) = Some lk).
  { pose proof D5 as Q. rewrite (proj1 (i_x _ _ _ _ _ _ I4)) in Q. injection Q as _ _ _ Q _. congruence. }
  assert (Lf_old : forall y, In y (map snd (kept_of Lf)) -> In y olds) by (intros y H; apply in_map_iff in H as (p & <- & H); eapply kept_locals; apply F4; exact H).
  assert (Ox : forall y, In y olds -> y <> x) by (intros y Hy; apply Lo; exact Hy).
  assert (Fr : forall y, y <> x -> ~ In y olds -> hnode h6 y = hnode h4 y) by (intros y Y1 Y2; rewrite Nx6, F5; auto).
  assert (Or : forall y, In y olds -> strip (set_link None (hnode h6 y)) = strip (set_link None (hnode h0 y)) /\ nlink (hnode h6 y) = nlink (hnode h4 y)).
  { intros y Hy. rewrite Nx6 by auto. pose proof (i_old _ _ _ _ _ _ I4 y Hy) as Q. destruct (in_dec Nat.eq_dec y (map snd (kept_of Lf))) as [Hi|Hi]; [|rewrite F5 by auto; auto].
    destruct (N5 y Hi) as (i & f & E & _). rewrite E. split; [|reflexivity]. rewrite <- Q. pose proof (f_equal nprt Q) as Qp. cbn in Qp.
    destruct (Hold y Hy) as (_ & _ & Pr & Tu). cbn in Pr. destruct (nprt (hnode h0 y)) as [pl0|]; [|discriminate]. cbn in Pr, Qp. injection Pr as Pr. specialize (Tu pl0 eq_refl).
    unfold strip. cbn [nprt set_prt set_link option_map pl_par pl_tuple]. rewrite Qp. unfold set_prt, set_link. cbn. rewrite Pr, Tu. reflexivity. }
  assert (Dx : data (hnode h5 x) = data (hnode h0 x)) by (rewrite D5; apply (i_x _ _ _ _ _ _ I4)).
  assert (Ge : forall y, In y (flat_map flatten Rs') -> hnext h0 <= y /\ y <> x /\ ~ In y olds).
  { intros y Hy. pose proof (B4 y Hy). pose proof (i_next _ _ _ _ _ _ I3). split; [lia|]. split; [lia|]. intros K. apply Lo in K. lia. }
  assert (A6 : Forall2 (item_done h0 x h6 cl L) (combine ks Cs) Rs').
  { assert (Fz : forall C', In C' Rs' -> forall y, In y (flatten C') -> hnode h6 y = hnode h4 y).
    { intros C' HC' y Hy. destruct (Ge y) as (_ & U & V); [apply in_flat_map; eauto|]. apply Fr; assumption. }
    clear -A4 Fz Or HCs Lo ND. revert A4. generalize (combine ks Cs). intros l A4. induction A4 as [|p C' l l' H A4 IHA]; constructor.
    - destruct H as (U & V & W). assert (HI : In C' (C' :: l')) by (left; reflexivity). split; [eapply copy_frame; [apply Fz; exact HI|exact U]|]. split; [rewrite <- V; unfold parent_of, view; rewrite (Fz C' HI _ (in_flatten_root C')); reflexivity|].
      intros y Hy. rewrite <- (W y Hy). apply Or. apply (lget_in L _ _ ND) in Hy. apply kept_in in Hy. apply kept_locals in Hy. exact Hy.
    - apply IHA. intros D HD. apply Fz. right. exact HD. }
  assert (Sub : incl (map snd (kept_of L)) olds) by (intros z Hz; apply in_map_iff in Hz as (p & <- & Hz); eapply kept_locals; exact Hz).
  assert (MO : NoDup ml /\ (forall y, In y ml <-> In y (map (rep L) (combine ks (map root Rs'))) \/ In y (map snd (kept_of L))) /\ filter (memb (map (rep L) (combine ks (map root Rs')))) ml = map (rep L) (combine ks (map root Rs'))).
  { apply merge_ok; [exact ND| | |].
    - apply combine_fst_NoDup. apply keys_from_NoDup.
    - intros (k, z) Hp. apply in_combine_l in Hp. cbn.
      assert (Q : forall l2 l1, map root Cs = l1 ++ l2 -> In k (keys_from (tags h0) l1 l2) -> IT h0 t k = true).
      { clear -Kt HCs' Lx Lt Nxt Hold. induction l2 as [|w l2 IH2]; intros l1 E Hk; [destruct Hk|]. cbn [keys_from] in Hk. destruct Hk as [<-|Hk]; [exact (IT_target h0 x t olds Cs Lx Lt Nxt Kt HCs' l1 w l2 E)|].
        apply (IH2 (l1 ++ [w])); [rewrite <- app_assoc; exact E|exact Hk]. }
      apply (Q (map root Cs) []); [reflexivity|exact Hp].
    - apply NoDup_app; [apply kept_locals_NoDup; exact NDo| |].
      + assert (NR : NoDup (map root Rs')).
        { clear -N4. induction Rs' as [|C Rs' IH]; [constructor|]. cbn in N4. apply NoDup_app_inv in N4 as (Na & Nb & Nc). cbn. constructor; [|apply IH; exact Nb].
          intros H. apply in_map_iff in H as (D & E & H). apply (Nc (root C)); [apply in_flatten_root|]. rewrite <- E. apply in_flat_map. exists D. split; [exact H|apply in_flatten_root]. }
        apply combine_snd_NoDup. exact NR.
      + intros z Hz Hz'. apply Sub in Hz. apply in_map_iff in Hz' as ((u, v) & <- & Hz'). apply in_combine_r in Hz'. cbn in *. apply in_map_iff in Hz' as (C & <- & HC). destruct (Ge (root C)) as (_ & _ & K); [apply in_flat_map; exists C; split; [exact HC|apply in_flatten_root]|]. contradiction. }
  exists h6, Rs'. split; [reflexivity|]. split.
  { destruct O5 as (U & V). split; [rewrite X6; exact U|]. destruct V as [V|(V1 & d & V2 & V3)]; [left; rewrite X6; exact V|right]. rewrite X6. split; [exact V1|]. exists d. split; [exact V2|].
    eapply fam_ok_ext; [|exact V3]. intros y _. destruct (Nat.eq_dec y x) as [->|Y]; [rewrite X6; reflexivity|rewrite Nx6 by exact Y; reflexivity]. }
  split.
  { intros y pl Hp. apply (C5 (i_cache _ _ _ _ _ _ I4) y pl). destruct (Nat.eq_dec y x) as [->|Y]; [rewrite X6 in Hp; exact Hp|rewrite Nx6 in Hp by exact Y; exact Hp]. }
  split; [change (hnext h6) with (hnext h5); pose proof (i_next _ _ _ _ _ _ I4); lia|].
  split.
  { change (hnext h6) with (hnext h5). intros y Hy. pose proof (i_next _ _ _ _ _ _ I4). rewrite Fr; [apply (i_free _ _ _ _ _ _ I4); lia|lia|]. intros K. apply Lo in K. lia. }
  split.
  { assert (Po6 : forall y, In y olds -> parent_of h6 y = Some x).
    { intros y Hy. rewrite <- (Po y Hy). destruct (Or y Hy) as (Q & _). apply strip_nview in Q. apply (f_equal a_parent) in Q. exact Q. }
    intros y Hy. destruct MO as (_ & Mi & _).
    apply Mi in Hy as [Hy|Hy]; [|apply Po6, Sub; exact Hy]. apply in_map_iff in Hy as ((k, z) & <- & Hp). unfold rep. cbn [fst snd].
      destruct (lget L k) as [[w|]|] eqn:Eg.
      + apply Po6. apply (lget_in L _ _ ND) in Eg. apply kept_in in Eg. apply kept_locals in Eg. exact Eg.
      + eapply item_parent; [exact A6|unfold ks; rewrite keys_from_length, map_length; reflexivity|exact Hp|]. rewrite Eg. discriminate.
      + eapply item_parent; [exact A6|unfold ks; rewrite keys_from_length, map_length; reflexivity|exact Hp|]. rewrite Eg. discriminate. }
  injection Dx as D1 D2 D3 D4 D6. rewrite X6. cbn [ntag nval nflags ncoupled nprt nlink set_link]. rewrite Lk5. cbn [option_map].
  split; [exact D1|]. split; [exact D2|]. split; [exact D3|]. split; [exact D6|]. split; [rewrite P5; apply (i_x _ _ _ _ _ _ I4)|]. split; [reflexivity|].
  split; [intros y Y1 Y2 Y3; rewrite Fr by assumption; apply (i_rest _ _ _ _ _ _ I4); assumption|].
  split; [intros y Hy; apply Or; exact Hy|]. split.
  { intros y Hy Q. rewrite (proj2 (Or y Hy)), W4 by assumption. rewrite Nx3 by auto. pose proof (f_equal nlink (proj1 (proj2 Q02) y)) as Z. cbn in Z. symmetry. exact Z. }
  split; [exact A6|]. split; [exact MO|]. split; [|split; [exact N4|split]].
  - change (hnext h6) with (hnext h5). intros y. split; [intros Hy; pose proof (B4 y Hy); destruct (Ge y Hy); lia|].
    intros Hy. apply CV4. assert (Xh : hnext h3 = hnext h0) by (unfold h3; cbn; symmetry; apply Q02). lia.
  - intros l1 c l2 E. cbn [app].
    assert (Sc : forall z, In z (map root Cs) -> z < hnext h0 /\ z <> x /\ ~ In z olds).
    { intros z Hz. apply in_map_iff in Hz as (C & <- & HC). apply (proj1 (Forall_forall _ _) HCs C HC). apply in_flatten_root. }
    assert (Hc : In c (map root Cs)) by (rewrite E; apply in_elt). destruct (Sc c Hc) as (U & V & W).
    assert (Tz : forall z, In z (map root Cs) -> ntag (hnode h6 z) = ntag (hnode h0 z)).
    { intros z Hz. destruct (Sc z Hz) as (U' & V' & W'). rewrite Fr by assumption. pose proof (i_rest _ _ _ _ _ _ I4 z U' V' W') as Q. apply strip_fields in Q as (_ & _ & _ & Q). exact Q. }
    rewrite Tz by exact Hc.
    replace (byt (tags h6) (ntag (hnode h0 c)) l1) with (byt (tags h0) (ntag (hnode h0 c)) l1).
    + intros pl Hp. rewrite Fr in Hp by assumption. apply (i_near _ _ _ _ _ _ I4 l1 c l2 E). exact Hp.
    + apply filter_ext_in. intros z Hz. rewrite Tz by (rewrite E; apply in_app_iff; left; exact Hz). reflexivity.
  - intros y Y1 Y2 Y3 Y4. rewrite Fr by assumption. apply (i_prt _ _ _ _ _ _ I4); assumption.
Qed.
