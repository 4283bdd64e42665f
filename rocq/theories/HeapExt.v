(** extend, extendleft, extend(iTree): one round of the loop, then the loop. *)
From Verif Require Import Base Heap HeapSpec ListLemmas ForestLemmas HeapInv HeapAttach
  HeapOps HeapOps2 HeapOps3 HeapHoare Tree HeapTree HeapCopy HeapMut.

Lemma Anc_frame s s' a p : (forall y, Anc s y p -> a_parent (s y) = a_parent (s' y)) ->
  Anc s' a p -> Anc s a p.
Proof.
  intros H HA. induction HA as [|y q Hq HA IH]; [constructor|].
  econstructor.
  - rewrite H; [exact Hq|constructor].
  - apply IH. intros z Hz. apply H. econstructor; [|exact Hz]. rewrite H; [exact Hq|constructor].
Qed.
(** attaching x (not above p) does not change who is above p *)
Lemma Anc_attach_p s p x k a : x <> p -> ~ Anc s x p -> Anc (attach s p x k) a p -> Anc s a p.
Proof.
  intros Hne Hn. apply Anc_frame. intros y Hy. rewrite attach_parent by assumption.
  destruct (Nat.eqb_spec y x) as [->|]; [contradiction|reflexivity].
Qed.

(** The new tree with root c is a copy of the tree of x: same shape, tags, values, and the
    flags/link source the copy protocol keeps; all its items are new. *)
Definition copy_of (s s' : astate) (n n' : nat) (x c : loc) : Prop :=
  exists T T', ltree s T /\ root T = x /\ ltree s' T' /\ root T' = c /\
    tmap (label s') T' = tmap (fun y => cp_label (label s y)) T /\
    (forall y, In y (flatten T') -> n <= y < n').

(** what the element e of an extend call turns into *)
Definition elem (s s' : astate) (n n' : nat) (e : earg) (c : loc) : Prop :=
  match e with
  | EItem x => (a_parent (s x) = None /\ c = x) \/
               (a_parent (s x) <> None /\ copy_of s s' n n' x c)
  | EArgs t v => n <= c < n' /\ label s' c = XL t v 0 None /\ a_children (s' c) = []
  | EVal v => n <= c < n' /\ label s' c = XL PNoTag v 0 None /\ a_children (s' c) = []
  end.

Definition earg_ok (h : heap) (p : loc) (e : earg) : Prop :=
  match e with
  | EItem x => x < hnext h /\ (parent_of h x = None -> ~ Anc (view h) x p)
  | _ => True
  end.

Lemma ceq_frame h h' : ceq h h' -> (forall y, view h' y = view h y) /\
  (forall y, nbound (hnode h' y) = nbound (hnode h y)) /\ hnext h' = hnext h.
Proof.
  intros Q. split; [apply (ceq_view_same _ _ Q)|]. split; [apply (ceq_bound _ _ Q)|apply (ceq_next _ _ Q)].
Qed.

Lemma ext_item_case h p e : WF h -> p < hnext h -> earg_ok h p e ->
  exists h1 r, ext_item e h = (h1, r) /\ WF h1 /\ hnext h <= hnext h1 /\
    (forall y, y < hnext h -> view h1 y = view h y /\ nbound (hnode h1 y) = nbound (hnode h y)) /\
    match r with
    | Ok c => attachable h1 p c /\ elem (view h) (view h1) (hnext h) (hnext h1) e c /\
              (c < hnext h \/ (hnext h <= c < hnext h1))
    | Err _ => True
    end.
Proof.
  intros W Hp He.
  assert (Fresh : forall t v, exists h1, new_item t v 0 None h = (h1, Ok (hnext h)) /\ WF h1 /\
     hnext h1 = S (hnext h) /\ view h1 (hnext h) = AN t v 0 None [] None None /\
     (forall y, y < hnext h -> view h1 y = view h y /\ nbound (hnode h1 y) = nbound (hnode h y)) /\
     attachable h1 p (hnext h)).
  { intros t v. exists (fst (halloc h (fresh_node t v 0 None))). split; [reflexivity|].
    split; [apply halloc_WF; [assumption|discriminate]|]. split; [reflexivity|].
    split; [rewrite (new_item_view h t v 0%Z None), Nat.eqb_refl; reflexivity|]. split.
    - intros y Hy. split.
      + rewrite (new_item_view h t v 0%Z None). destruct (Nat.eqb_spec y (hnext h)); [lia|reflexivity].
      + cbn. destruct (Nat.eqb_spec y (hnext h)); [lia|reflexivity].
    - split; [cbn; rewrite Nat.eqb_refl; reflexivity|]. split; [cbn; lia|]. split; [cbn; lia|].
      intros HA. apply (Anc_ext _ (view h)) in HA.
      + eapply fresh_not_anc; [apply (wf_forest _ W)|apply le_n| |exact HA]. lia.
      + intros y. rewrite (new_item_view h t v 0%Z None y).
        destruct (Nat.eqb_spec y (hnext h)) as [->|]; [|reflexivity]. cbn.
        symmetry. apply (fo_alloc _ _ (wf_forest _ W) (hnext h) (le_n _)). }
  destruct e as [x|t v|v]; cbn [ext_item].
  - destruct He as [Hx He]. rewrite bind_gets. destruct (nprt (hnode h x)) as [pl|] eqn:Ep.
    + destruct (ltree_exists _ _ _ (wf_forest _ W) Hx) as (T & HT & Er & _). subst x.
      destruct (copy_item_ok h W T HT Hx) as (h1 & r & E & W1 & Hn & Fr & R).
      exists h1, r. split; [exact E|]. split; [assumption|]. split; [assumption|]. split; [assumption|].
      destruct r as [c|]; [|exact I]. destruct R as (T' & HT' & Ec & Lab & Rng & Par & _).
      assert (Hc : hnext h <= c < hnext h1) by (apply Rng; rewrite <- Ec; apply in_flatten_root).
      split; [|split].
      * split; [apply prt_none; assumption|]. split; [lia|]. split; [lia|].
        intros HA. apply (Anc_frame (view h)) in HA.
        -- revert HA. eapply fresh_not_anc; [apply (wf_forest _ W)| |]; lia.
        -- intros y Hy. destruct (Fr y) as [-> _]; [|reflexivity].
           destruct (Nat.lt_ge_cases y (hnext h)); [assumption|]. exfalso.
           revert Hy. eapply fresh_not_anc; [apply (wf_forest _ W)|assumption|]. lia.
      * right. split; [cbn; rewrite Ep; discriminate|]. exists T, T'. auto 10.
      * auto.
    + exists h, (Ok x). split; [reflexivity|]. split; [assumption|]. split; [lia|]. split; [auto|].
      assert (Hpar : parent_of h x = None) by (apply prt_none; assumption).
      split; [|split; [left; split; [exact Hpar|reflexivity]|auto]].
      split; [assumption|]. split; [assumption|]. split; [assumption|]. apply He. assumption.
  - destruct (hashable t).
    + destruct (Fresh t v) as (h1 & E & W1 & Hn & V & Fr & A). exists h1, (Ok (hnext h)).
      split; [exact E|]. split; [assumption|]. split; [lia|]. split; [assumption|]. split; [assumption|].
      split; [|lia]. cbn [elem]. unfold label. rewrite V. split; [lia|]. split; reflexivity.
    + exists h, (Err TypeError). split; [reflexivity|]. split; [assumption|]. split; [lia|]. auto.
  - destruct (Fresh PNoTag v) as (h1 & E & W1 & Hn & V & Fr & A). exists h1, (Ok (hnext h)).
    split; [exact E|]. split; [assumption|]. split; [lia|]. split; [assumption|]. split; [assumption|].
    split; [|lia]. cbn [elem]. unfold label. rewrite V. split; [lia|]. split; reflexivity.
Qed.

(** one round *)
Lemma ext_step_case h p e : WF h -> p < hnext h -> nbound (hnode h p) = Current -> earg_ok h p e ->
  exists h' r, ext_step p e h = (h', r) /\ WF h' /\ hnext h <= hnext h' /\
    nbound (hnode h' p) = Current /\
    match r with
    | Ok _ => exists c, elem (view h) (view h') (hnext h) (hnext h') e c /\ c <> p /\ c < hnext h' /\
        view h' p = a_set_children (children h p ++ [c]) (view h p) /\
        parent_of h' c = Some p /\
        (forall y, y < hnext h -> y <> p ->
           view h' y = if Nat.eqb y c then a_set_parent (Some p) (view h y) else view h y) /\
        (forall y, y <> p -> nbound (hnode h' y) = nbound (hnode h y) \/ hnext h <= y) /\
        (forall a, Anc (view h') a p -> Anc (view h) a p)
    | Err _ => forall y, y < hnext h -> view h' y = view h y
    end.
Proof.
  intros W Hp Hb He. destruct (ext_item_case h p e W Hp He) as (h1 & r & E & W1 & Hn & Fr & R).
  unfold ext_step. destruct r as [c|er].
  2:{ rewrite (bind_err _ _ _ _ _ E). exists h1, (Err er). split; [reflexivity|]. split; [assumption|].
      split; [assumption|]. split; [destruct (Fr p Hp) as [_ ->]; assumption|]. intros y Hy. apply Fr. assumption. }
  rewrite (bind_ok _ _ _ _ _ E), bind_gets. destruct R as (A & El & Hc).
  destruct (ext_attach_ok h1 W1 p c A) as (h2 & E2 & Q2); [destruct (Fr p Hp) as [_ ->]; assumption|].
  cbv zeta in E2. exists h2, (Ok tt). split; [exact E2|].
  assert (Hcp : c <> p) by (eapply attachable_ne; eauto).
  assert (V2 : same (view h2) (attach (view h1) p c (length (nitems (hnode h1 p))))).
  { eapply same_trans; [apply ceq_view_same; exact Q2|]. apply mk_attach_view. assumption. }
  assert (Ech : a_children (view h1 p) = children h p) by (unfold children; destruct (Fr p Hp) as [-> _]; reflexivity).
  assert (Enx : hnext h2 = hnext h1) by (rewrite (ceq_next _ _ Q2); reflexivity).
  split; [eapply ceq_WF; [exact Q2|apply mk_attach_WF; assumption]|]. split; [lia|].
  split.
  { rewrite (ceq_bound _ _ Q2). unfold mk_attach. rewrite hmod_other by congruence. rewrite hmod_same. reflexivity. }
  exists c. split; [|split; [assumption|split; [rewrite Enx; apply A|split; [|split; [|split; [|split]]]]]].
  - rewrite Enx. destruct e as [x|t v|v]; cbn [elem] in *.
    + destruct El as [El|[Ea (T & T' & HT & Er & HT' & Ec & Lab & Rng)]]; [left; assumption|right].
      split; [assumption|]. exists T, T'. split; [assumption|]. split; [assumption|]. split; [|split; [assumption|split; [|assumption]]].
      * eapply ltree_frame; [|exact HT']. intros y Hy. rewrite (V2 y), attach_children.
        destruct (Nat.eqb_spec y p) as [->|]; [|reflexivity]. apply Rng in Hy. lia.
      * rewrite <- Lab. apply tmap_ext. intros y Hy. unfold label. rewrite (V2 y). unfold attach.
        destruct (Nat.eqb_spec y p) as [->|]; [apply Rng in Hy; lia|].
        destruct (Nat.eqb_spec y c) as [->|]; reflexivity.
    + destruct El as (Hr & Lb & Ch). split; [assumption|]. unfold label in *. rewrite (V2 c). unfold attach.
      destruct (Nat.eqb_spec c p); [congruence|]. rewrite Nat.eqb_refl. cbn. split; assumption.
    + destruct El as (Hr & Lb & Ch). split; [assumption|]. unfold label in *. rewrite (V2 c). unfold attach.
      destruct (Nat.eqb_spec c p); [congruence|]. rewrite Nat.eqb_refl. cbn. split; assumption.
  - rewrite (V2 p). unfold attach. rewrite Nat.eqb_refl. rewrite Ech, insert_at_end.
    + destruct (Fr p Hp) as [-> _]. reflexivity.
    + change (nitems (hnode h1 p)) with (a_children (view h1 p)). rewrite Ech. apply le_n.
  - unfold parent_of. rewrite (V2 c), attach_parent by assumption. rewrite Nat.eqb_refl. reflexivity.
  - intros y Hy Hyp. rewrite (V2 y). unfold attach. destruct (Nat.eqb_spec y p); [congruence|].
    destruct (Nat.eqb_spec y c) as [->|]; destruct (Fr _ Hy) as [-> _]; reflexivity.
  - intros y Hyp. rewrite (ceq_bound _ _ Q2). unfold mk_attach.
    destruct (Nat.lt_ge_cases y (hnext h)) as [Hy|Hy]; [left|right; assumption].
    assert (E3 : nbound (hnode h1 y) = nbound (hnode h y)) by (apply Fr; assumption). rewrite <- E3.
    destruct (Nat.eqb_spec y c) as [->|].
    + rewrite hmod_same, hmod_other by congruence. reflexivity.
    + rewrite !hmod_other by congruence. reflexivity.
  - intros a HA. apply (Anc_same _ _ _ _ V2) in HA. apply Anc_attach_p in HA; [|assumption|apply A].
    apply (Anc_frame (view h)) in HA; [assumption|]. intros y Hy. destruct (Fr y) as [-> _]; [|reflexivity].
    destruct (Nat.lt_ge_cases y (hnext h)); [assumption|]. exfalso.
    revert Hy. eapply fresh_not_anc; [apply (wf_forest _ W)|assumption|]. lia.
Qed.

(** the loop keeps the invariant *)
Lemma ext_loop_WF p es : forall h, WF h -> p < hnext h -> nbound (hnode h p) = Current ->
  Forall (earg_ok h p) es -> WF (fst (mapM_ (ext_step p) es h)).
Proof.
  induction es as [|e es IH]; intros h W Hp Hb HF; [exact W|]. inversion HF as [|? ? He HF']; subst.
  destruct (ext_step_case h p e W Hp Hb He) as (h' & r & E & W' & Hn & Hb' & R). cbn [mapM_].
  destruct r as [[]|er]; [|rewrite (bind_err _ _ _ _ _ E); exact W'].
  rewrite (bind_ok _ _ _ _ _ E). destruct R as (c & _ & Hcp & _ & Vp & _ & Fr & _ & HA).
  apply IH; [assumption|lia|assumption|]. eapply Forall_impl; [|exact HF'].
  intros [x|t v|v]; cbn [earg_ok]; auto. intros [Hx H]. split; [lia|]. intros Hpar HAx.
  apply HA in HAx. revert HAx. apply H. destruct (Nat.eq_dec x p) as [->|Hxp].
  - unfold parent_of in *. rewrite Vp in Hpar. exact Hpar.
  - unfold parent_of in *. rewrite Fr in Hpar by assumption.
    destruct (Nat.eqb_spec x c) as [->|]; [discriminate|assumption].
Qed.

(** The loop, functionally, for pairwise distinct items none of which is above p. *)
Definition eitems (es : list earg) : list loc :=
  flat_map (fun e => match e with EItem x => [x] | _ => [] end) es.
Definition is_free (s : astate) (x : loc) : bool := match a_parent (s x) with None => true | _ => false end.

(** [s'] arises from [s] by appending the elements [es], as [cs], to the children of p;
    nothing else changes for the n old items *)
Definition extended (s s' : astate) (n n' : nat) (p : loc) (es : list earg) (cs : list loc) : Prop :=
  s' p = a_set_children (a_children (s p) ++ cs) (s p) /\
  Forall2 (elem s s' n n') es cs /\
  (forall y, y < n -> y <> p ->
     s' y = if existsb (Nat.eqb y) (filter (is_free s) (eitems es)) then a_set_parent (Some p) (s y) else s y).

Lemma elem_mono s s' s'' n n' n'' e c :
  n <= n' -> n' <= n'' ->
  (forall y, n <= y < n' -> label s'' y = label s' y /\ a_children (s'' y) = a_children (s' y)) ->
  elem s s' n n' e c -> elem s s'' n n'' e c.
Proof.
  intros H1 H2 H. destruct e as [x|t v|v]; cbn.
  - intros [A|[A (T & T' & HT & Er & HT' & Ec & Lab & Rng)]]; [left; assumption|right; split; [assumption|]].
    exists T, T'. split; [assumption|]. split; [assumption|]. split; [|split; [assumption|split]].
    + eapply ltree_frame; [|exact HT']. intros y Hy. symmetry. apply H. apply Rng. assumption.
    + rewrite <- Lab. apply tmap_ext. intros y Hy. apply H. apply Rng. assumption.
    + intros y Hy. apply Rng in Hy. lia.
  - intros (A & B & C). destruct (H c A) as [-> ->]. split; [lia|]. auto.
  - intros (A & B & C). destruct (H c A) as [-> ->]. split; [lia|]. auto.
Qed.

(** moving the base state back over one round *)
Lemma elem_base s s1 s' n n1 n' p c1 e c :
  n <= n1 ->
  (forall y, y < n -> y <> p -> s1 y = if Nat.eqb y c1 then a_set_parent (Some p) (s y) else s y) ->
  (forall x, e = EItem x -> x < n /\ x <> c1 /\ x <> p /\
     (a_parent (s x) <> None -> forall T, ltree s T -> root T = x -> ~ In p (flatten T) /\ forall y, In y (flatten T) -> y < n)) ->
  (forall x, x < n -> exists T, ltree s T /\ root T = x) ->
  elem s1 s' n1 n' e c -> elem s s' n n' e c.
Proof.
  intros Hn Fr Hx Hex. destruct e as [x|t v|v]; cbn.
  - destruct (Hx x eq_refl) as (Hxn & Hxc & Hxp & HT0).
    assert (E1 : s1 x = s x).
    { rewrite Fr by assumption. destruct (Nat.eqb_spec x c1); [congruence|reflexivity]. }
    rewrite E1. intros [A|[A (T & T' & HT & Er & HT' & Ec & Lab & Rng)]]; [left; assumption|right; split; [assumption|]].
    destruct (Hex x Hxn) as (T0 & HT0l & Er0). destruct (HT0 A T0 HT0l Er0) as [Hnp Hlt].
    assert (HTs1 : ltree s1 T0).
    { eapply ltree_frame; [|exact HT0l]. intros y Hy. rewrite Fr; [|apply Hlt; assumption|intros ->; contradiction].
      destruct (Nat.eqb y c1); reflexivity. }
    assert (T = T0) as -> by (eapply ltree_unique; eauto; congruence).
    exists T0, T'. split; [assumption|]. split; [assumption|]. split; [assumption|]. split; [assumption|]. split.
    + rewrite Lab. apply tmap_ext. intros y Hy. unfold label.
      rewrite Fr; [|apply Hlt; assumption|intros ->; contradiction]. destruct (Nat.eqb y c1); reflexivity.
    + intros y Hy. apply Rng in Hy. lia.
  - intros (A & B). split; [lia|assumption].
  - intros (A & B). split; [lia|assumption].
Qed.

Lemma Forall2_impl_in {A B} (P Q : A -> B -> Prop) l m :
  (forall a b, In a l -> P a b -> Q a b) -> Forall2 P l m -> Forall2 Q l m.
Proof.
  intros H HF. induction HF as [|a b l m Hab HF IH]; constructor.
  - apply H; [left; reflexivity|assumption].
  - apply IH. intros a' b' Hin. apply H. right. assumption.
Qed.

Definition earg_far (h : heap) (p : loc) (e : earg) : Prop :=
  match e with EItem x => x < hnext h /\ ~ Anc (view h) x p | _ => True end.

Lemma ext_loop p es : forall h, WF h -> p < hnext h -> nbound (hnode h p) = Current ->
  Forall (earg_far h p) es -> NoDup (eitems es) ->
  exists h' r, mapM_ (ext_step p) es h = (h', r) /\ WF h' /\ hnext h <= hnext h' /\
    nbound (hnode h' p) = Current /\
    (forall y, y <> p -> nbound (hnode h' y) = nbound (hnode h y) \/ hnext h <= y) /\
    match r with
    | Ok _ => exists cs, extended (view h) (view h') (hnext h) (hnext h') p es cs
    | Err _ => exists es1 es2 cs, es = es1 ++ es2 /\ extended (view h) (view h') (hnext h) (hnext h') p es1 cs
    end.
Proof.
  induction es as [|e es IH]; intros h W Hp Hb HF Hnd.
  { exists h, (Ok tt). split; [reflexivity|]. split; [assumption|]. split; [lia|]. split; [assumption|]. split; [auto|].
    exists []. split; [rewrite app_nil_r; destruct (view h p); reflexivity|]. split; [constructor|].
    intros y Hy Hyp. reflexivity. }
  inversion HF as [|? ? He HF']; subst.
  assert (He' : earg_ok h p e) by (destruct e as [x| |]; cbn in *; [split; [apply He|intros _; apply He]|exact I|exact I]).
  destruct (ext_step_case h p e W Hp Hb He') as (h1 & r & E & W1 & Hn & Hb1 & R). cbn [mapM_].
  destruct r as [[]|er].
  2:{ rewrite (bind_err _ _ _ _ _ E). exists h1, (Err er). split; [reflexivity|]. split; [assumption|]. split; [assumption|].
      split; [assumption|].
      split.
      - intros y Hy. destruct (Nat.lt_ge_cases y (hnext h)) as [Hlt|]; [left|right; assumption].
        destruct (ext_item_case h p e W Hp He') as (h1' & r' & E' & _ & _ & Fr' & _).
        unfold ext_step in E. destruct r' as [c'|e'].
        + exfalso. rewrite (bind_ok _ _ _ _ _ E'), bind_gets in E.
          destruct (ext_item_case h p e W Hp He') as (h1'' & r'' & E'' & W'' & _ & Fr'' & R'').
          rewrite E' in E''. injection E'' as <- <-. destruct R'' as (A'' & _).
          destruct (ext_attach_ok h1' W'' p c' A'') as (h2 & E2 & Q2); [destruct (Fr' p Hp) as [_ ->]; assumption|].
          cbv zeta in E2. rewrite E2 in E. discriminate.
        + rewrite (bind_err _ _ _ _ _ E') in E. injection E as <- <-. apply Fr'. assumption.
      - exists [], (e :: es), []. split; [reflexivity|]. split; [rewrite app_nil_r, R by assumption; destruct (view h p); reflexivity|].
        split; [constructor|]. intros y Hy _. apply R. assumption. }
  rewrite (bind_ok _ _ _ _ _ E). destruct R as (c & El & Hcp & Hc1 & Vp & Pc & Fr & Bn & HA).
  assert (Hnd' : NoDup (eitems es)) by (destruct e; cbn in Hnd; [inversion Hnd|..]; assumption).
  assert (HF1 : Forall (earg_far h1 p) es).
  { eapply Forall_impl; [|exact HF']. intros [x| |]; cbn; auto. intros [Hx Hx2]. split; [lia|].
    intros HAx. apply Hx2. apply HA. assumption. }
  destruct (IH h1 W1 ltac:(lia) Hb1 HF1 Hnd') as (h' & r & E2 & W' & Hn' & Hb' & Bn' & R').
  (* facts about the elements of es *)
  assert (Hcl : forall x, In x (eitems es) -> x < hnext h /\ x <> p /\ ~ Anc (view h) x p /\ x <> c).
  { intros x Hx. unfold eitems in Hx. apply in_flat_map in Hx as (e' & Hin & Hx). destruct e' as [x'| |]; [|destruct Hx..].
    destruct Hx as [->|[]]. rewrite Forall_forall in HF'. specialize (HF' _ Hin). cbn in HF'. destruct HF' as [H1 H2].
    split; [assumption|]. split; [intros ->; apply H2; constructor|]. split; [assumption|]. intros ->.
    destruct e as [x'|t v|v]; cbn in El.
    - destruct El as [[_ ->]|[_ (T & T' & _ & _ & _ & Ec & _ & Rng)]].
      + cbn in Hnd. inversion Hnd as [|? ? Hni _]; subst. apply Hni. unfold eitems. apply in_flat_map. eexists; split; [exact Hin|left; reflexivity].
      + pose proof (Rng c ltac:(rewrite <- Ec; apply in_flatten_root)). lia.
    - lia.
    - lia. }
  assert (Hrest : forall es1 cs, (exists es2, es = es1 ++ es2) ->
     extended (view h1) (view h') (hnext h1) (hnext h') p es1 cs ->
     extended (view h) (view h') (hnext h) (hnext h') p (e :: es1) (c :: cs)).
  { intros es1 cs [es2 Ees] (X1 & X2 & X3).
    assert (Hin1 : forall x, In x (eitems es1) -> In x (eitems es)).
    { intros x Hx. rewrite Ees. unfold eitems in *. rewrite flat_map_app. apply in_or_app. left. assumption. }
    assert (Hnew : forall y, hnext h <= y < hnext h1 ->
       label (view h') y = label (view h1) y /\ a_children (view h' y) = a_children (view h1 y)).
    { intros y Hy. assert (Hyp : y <> p) by lia. assert (HX3 := X3 y ltac:(lia) Hyp). unfold label. rewrite HX3.
      destruct (existsb _ _); split; reflexivity. }
    assert (Hnewc : forall y, y < hnext h -> y <> p -> label (view h') y = label (view h1) y /\ True).
    { intros y Hy Hyp. assert (HX3 := X3 y ltac:(lia) Hyp). unfold label. rewrite HX3. destruct (existsb _ _); split; auto. }
    split; [|split].
    - rewrite X1, Vp. cbn. rewrite <- app_assoc. reflexivity.
    - constructor.
      + eapply elem_mono; [exact Hn|exact Hn'|exact Hnew|exact El].
      + revert X2. apply Forall2_impl_in. intros e' c' Hin' El'.
        eapply (elem_base _ (view h1) _ _ (hnext h1) _ p c); [exact Hn|exact Fr| |
           intros x Hx; destruct (ltree_exists _ _ x (wf_forest _ W) Hx) as (T & ? & ? & _); eauto|exact El'].
        intros x ->.
        assert (Hxin : In x (eitems es)) by (apply Hin1; unfold eitems; apply in_flat_map; eexists; split; [exact Hin'|left; reflexivity]).
        destruct (Hcl x Hxin) as (Q1 & Q2 & Q3 & Q4). split; [assumption|]. split; [assumption|]. split; [assumption|].
        intros _ T HT Er. split.
        * intros Hpin. apply Q3. rewrite <- Er. eapply ltree_anc; [apply (wf_forest _ W)|exact HT|exact Hpin].
        * eapply ltree_lt; [apply (wf_forest _ W)|exact HT|congruence].
    - intros y Hy Hyp. rewrite X3 by lia. rewrite Fr by assumption.
      assert (Hcy : y = c -> existsb (Nat.eqb y) (filter (is_free (view h1)) (eitems es1)) = false).
      { intros ->. destruct (existsb _ _) eqn:Ex; [|reflexivity]. apply existsb_exists in Ex as (z & Hz & Ez).
        apply Nat.eqb_eq in Ez. subst z. apply filter_In in Hz as [Hz _]. destruct (Hcl c (Hin1 _ Hz)) as (_ & _ & _ & F). congruence. }
      assert (Hsame : y <> c -> existsb (Nat.eqb y) (filter (is_free (view h1)) (eitems es1)) =
                      existsb (Nat.eqb y) (filter (is_free (view h)) (eitems es1))).
      { intros Hyc. f_equal. apply filter_ext_in. intros z Hz. destruct (Hcl z (Hin1 _ Hz)) as (Z1 & Z2 & _ & Z4).
        unfold is_free. rewrite Fr by assumption. destruct (Nat.eqb_spec z c); [congruence|reflexivity]. }
      destruct (Nat.eqb_spec y c) as [->|Hyc].
      + rewrite (Hcy eq_refl).
        assert (Efree : existsb (Nat.eqb c) (filter (is_free (view h)) (eitems (e :: es1))) = true).
        { destruct e as [x|t v|v]; cbn in El.
          - destruct El as [[Hx ->]|[_ (T & T' & _ & _ & _ & Ec & _ & Rng)]].
            + cbn. unfold is_free at 1. cbn in Hx. cbn. rewrite Hx. cbn. rewrite Nat.eqb_refl. reflexivity.
            + pose proof (Rng c ltac:(rewrite <- Ec; apply in_flatten_root)). lia.
          - lia.
          - lia. }
        rewrite Efree. reflexivity.
      + rewrite (Hsame Hyc).
        assert (Eh : existsb (Nat.eqb y) (filter (is_free (view h)) (eitems (e :: es1))) =
                     existsb (Nat.eqb y) (filter (is_free (view h)) (eitems es1))).
        { destruct e as [x|t v|v]; [|reflexivity..]. cbn [elem] in El.
          change (eitems (EItem x :: es1)) with (x :: eitems es1). cbn [filter].
          destruct (is_free (view h) x) eqn:Ef; [|reflexivity]. cbn [existsb].
          destruct El as [[_ ->]|[A _]]; [|unfold is_free in Ef; destruct (a_parent (view h x)); congruence].
          destruct (Nat.eqb_spec y x); [congruence|reflexivity]. }
        rewrite Eh. reflexivity. }
  exists h', r. split; [exact E2|]. split; [assumption|]. split; [lia|]. split; [assumption|]. split.
  { intros y Hy. destruct (Bn y Hy) as [B|B]; [|right; assumption]. destruct (Bn' y Hy) as [B'|B']; [left; congruence|right; lia]. }
  destruct r as [[]|er].
  - destruct R' as (cs & X). exists (c :: cs). apply Hrest; [exists []; rewrite app_nil_r; reflexivity|assumption].
  - destruct R' as (es1 & es2 & cs & Ees & X). exists (e :: es1), es2, (c :: cs). split; [rewrite Ees; reflexivity|].
    apply Hrest; [eauto|assumption].
Qed.
