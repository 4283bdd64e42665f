(** Positions, make_local and the merge of load_links. *)
From Coq Require Import Permutation.
From Verif Require Import Base Heap HeapSpec ListLemmas ForestLemmas HeapInv HeapAttach HeapOps HeapOps2 HeapOps3 Tree HeapTree HeapCopy Deep SerModel LinkModel LinkFacts.
Import ListNotations.
Local Open Scope list_scope.

(** * tag_idx on the level of nodes *)
Notation tags h := (fun z => ntag (hnode h z)) (only parsing).
(** the remembered family index of [c], which has number [n] in its family, is at most 20 off *)
Definition near (h : heap) (c : loc) (n : nat) : Prop :=
  forall pl, nprt (hnode h c) = Some pl -> (Z.abs (pl_fam pl - Z.of_nat n) <= 20)%Z.
(** only the family index of [c] was written *)
Definition cached (h h' : heap) (c : loc) (n : nat) : Prop :=
  hnext h' = hnext h /\ (forall y, y <> c -> hnode h' y = hnode h y) /\
  (hnode h' c = hnode h c \/ exists pl, nprt (hnode h c) = Some pl /\ hnode h' c = set_prt (Some (with_cache SFam (Z.of_nat n) pl)) (hnode h c)).
Lemma tag_idx_node h p c l k : own h p l -> NoDup l -> nth_error l k = Some c ->
  parent_of h c = Some p -> (forall pl, nprt (hnode h c) = Some pl -> (0 <= pl_fam pl)%Z /\ pl_tuple pl = false) ->
  near h c (length (byt (tags h) (ntag (hnode h c)) (firstn k l))) ->
  exists h', get_tag_idx c h = (h', Ok (TIPair (ntag (hnode h c)) (Z.of_nat (length (byt (tags h) (ntag (hnode h c)) (firstn k l)))))) /\
    cached h h' c (length (byt (tags h) (ntag (hnode h c)) (firstn k l))).
Proof.
  intros (Ei & B) ND Hk Hp HC HN. set (t := ntag (hnode h c)) in *. set (n := length (byt (tags h) t (firstn k l))) in *.
  destruct B as [(-> & _)|(B & d & D & F)]; [destruct k; discriminate|].
  unfold get_tag_idx. unfold parent_of in Hp. cbn in Hp. destruct (nprt (hnode h c)) as [pl|] eqn:Ep; [|discriminate]. injection Hp as Hp. rewrite Hp. fold t.
  destruct (HC pl eq_refl) as (C1 & C2). specialize (HN pl Ep).
  set (fam := byt (tags h) t l). assert (Hn : nth_error fam n = Some c) by (apply (byt_nth (tags h) k c l Hk)).
  assert (NF : NoDup fam) by (apply NoDup_filter; exact ND).
  unfold getitem_fam. rewrite bind_assoc, (bind_ok _ _ _ _ _ (get_fam_cur h p t d B D)), (fam_ok_get _ _ _ t F). fold fam.
  assert (Hne : fam <> []) by (intros E0; rewrite E0 in Hn; destruct n; discriminate).
  rewrite (nonempty_ne _ Hne), bind_ret. pose proof (nth_error_lt _ _ _ Hn) as Hlt.
  unfold locate. rewrite fast_hit_nonneg by assumption.
  destruct (match nth_error fam (Z.to_nat (pl_fam pl)) with Some y => Nat.eqb y c | None => false end) eqn:Eb; rewrite bind_assoc, bind_lift.
  - destruct (nth_error fam (Z.to_nat (pl_fam pl))) as [y|] eqn:Ey; [|discriminate]. apply Nat.eqb_eq in Eb as ->.
    pose proof (NoDup_nth_error_inj _ _ _ _ NF Hn Ey) as En. assert (E : pl_fam pl = Z.of_nat n) by lia. rewrite bind_ret, E.
    exists h. split; [reflexivity|]. split; [reflexivity|]. split; [reflexivity|left; reflexivity].
  - destruct (window fam c _ _) as [i|] eqn:Ew.
    + pose proof (window_some _ _ _ _ _ Ew) as Hi. assert (i = n) as -> by (eapply NoDup_nth_error_inj; eauto).
      rewrite bind_assoc. unfold set_cache. unfold bind at 1. rewrite Ep, C2. rewrite bind_ret.
      eexists. split; [reflexivity|]. split; [reflexivity|]. split; [intros y Hy; rewrite hmod_other by exact Hy; reflexivity|]. right. exists pl. rewrite hmod_same. auto.
    + exfalso. eapply window_hits; [exact Hn| | |exact Ew]; lia.
Qed.

(** * make_local *)
Lemma own_ceq h h' x l : ceq h h' -> own h x l -> own h' x l.
Proof.
  intros Q (A & B). split; [rewrite (ceq_items _ _ Q); exact A|]. destruct B as [(-> & B)|(B & d & D & F)]; [left; split; [reflexivity|unfold leaf_ok in *; rewrite (ceq_bound _ _ Q), (ceq_fams _ _ Q); exact B]|right].
  rewrite (ceq_bound _ _ Q), (ceq_fams _ _ Q). split; [exact B|]. exists d. split; [exact D|]. eapply fam_ok_ext; [|exact F]. intros y _. symmetry. apply (ceq_tag _ _ Q).
Qed.
Lemma own_fam h p : own h p (nitems (hnode h p)) <-> node_fam_ok h p.
Proof.
  unfold own, node_fam_ok, leaf_ok. split.
  - intros (_ & [(E & L)|(B & L)]).
    + destruct (nbound (hnode h p)); [split; assumption| |split; assumption]. destruct L as (d & D & F). exists d. split; [exact D|]. rewrite E. destruct F as (F1 & F2). split; [exact F1|]. intros t. apply (F2 t).
    + rewrite B. exact L.
  - intros G. split; [reflexivity|]. destruct (nbound (hnode h p)); [left; split; apply G| |left; split; apply G]. right. split; [reflexivity|exact G].
Qed.
(** well-formed, with or without covered items *)
Record LWF (h : heap) : Prop := { lw_forest : Forest (hnext h) (view h); lw_caches : caches_ok h; lw_fams : forall p, node_fam_ok h p }.
Lemma WF_LWF h : WF h -> LWF h. Proof. intros [A B C D]. constructor; assumption. Qed.
Lemma LWF_own h p : LWF h -> own h p (nitems (hnode h p)).
Proof. intros W. apply own_fam. apply (lw_fams _ W). Qed.
Lemma LWF_child_prt h p c : LWF h -> In c (nitems (hnode h p)) -> exists pl, nprt (hnode h c) = Some pl /\ pl_par pl = p.
Proof.
  intros W H. pose proof (fo_child _ _ (lw_forest _ W) p c H) as E. cbn in E. destruct (nprt (hnode h c)) as [pl|]; cbn in E; [|discriminate]. exists pl. split; [reflexivity|congruence].
Qed.
Lemma LWF_child_lt h p x : LWF h -> In x (nitems (hnode h p)) -> p < hnext h /\ x < hnext h.
Proof. intros W H. eapply Forest_child_lt; [apply (lw_forest _ W)|exact H]. Qed.
Lemma byt_swap tg l1 x y l2 : tg y = tg x -> forall u, byt tg u (l1 ++ y :: l2) = if pyval_eqb (tg x) u then byt tg u l1 ++ y :: byt tg u l2 else byt tg u (l1 ++ x :: l2).
Proof. intros E u. rewrite !byt_app, !byt_cons, E. destruct (pyval_eqb (tg x) u); reflexivity. Qed.
Lemma fam_ok_swap tg d l1 x y l2 : fam_ok tg d (l1 ++ x :: l2) -> tg y = tg x ->
  fam_ok tg (dset d (tg x) (byt tg (tg x) l1 ++ y :: byt tg (tg x) l2)) (l1 ++ y :: l2).
Proof.
  intros F E. eapply fam_ok_put; [exact F| | |].
  - destruct (byt tg (tg x) l1); discriminate.
  - rewrite (byt_swap tg l1 x y l2 E), pyval_eqb_refl. reflexivity.
  - intros u Hu. rewrite (byt_swap tg l1 x y l2 E). destruct (pyval_eqb (tg x) u) eqn:K; [apply pyval_eqb_eq in K; congruence|reflexivity].
Qed.
Lemma cached_ceq h h' c n : cached h h' c n -> (caches_ok h -> caches_ok h') -> ceq h h'.
Proof.
  intros (X & O & K) CA. split; [auto|]. split; [|exact CA]. intros y. destruct (Nat.eq_dec y c) as [->|Y]; [|rewrite O by exact Y; reflexivity].
  destruct K as [->|(pl & E & ->)]; [reflexivity|]. unfold strip. cbn. rewrite E. reflexivity.
Qed.
Lemma cached_caches h h' c n : cached h h' c n -> caches_ok h -> caches_ok h'.
Proof.
  intros (X & O & K) CA y pl Hy. destruct (Nat.eq_dec y c) as [->|Y]; [|rewrite O in Hy by exact Y; apply (CA _ _ Hy)].
  destruct K as [E|(pl0 & E & E')]; [rewrite E in Hy; apply (CA _ _ Hy)|]. rewrite E' in Hy. cbn in Hy. injection Hy as <-. destruct (CA _ _ E) as (A & B & C). cbn. auto with zarith.
Qed.

Lemma strip_all n m : strip n = strip m -> data n = data m /\ option_map pl_par (nprt n) = option_map pl_par (nprt m) /\ nitems n = nitems m /\ nfams n = nfams m.
Proof.
  intros E. split; [exact (f_equal data E)|]. split; [|split; [exact (f_equal nitems E)|exact (f_equal nfams E)]].
  pose proof (f_equal nprt E) as Q. cbn in Q. destruct (nprt n), (nprt m); cbn in *; try discriminate; congruence.
Qed.
Lemma make_local_ok h p l1 x l2 T b : LWF h -> nitems (hnode h p) = l1 ++ x :: l2 -> is_linked h x = true -> is_link_root h p = true ->
  near h x (length (byt (tags h) (ntag (hnode h x)) l1)) ->
  ltree (view h) T -> root T = x -> (forall y, In y (below_tree T) -> conv_good (label (view h) y) = true) ->
  let new := hnext h in let n := hnode h x in
  exists h' Ts', make_local x b h = (h', Ok new) /\ hnext h < hnext h' /\
    own h' p (l1 ++ new :: l2) /\ view h' p = a_set_children (l1 ++ new :: l2) (view h p) /\
    (forall y, y < hnext h -> y <> p -> strip (hnode h' y) = strip (hnode h y)) /\ (forall y, hnext h' <= y -> hnode h' y = hnode h y) /\
    data (hnode h' p) = data (hnode h p) /\ nprt (hnode h' p) = nprt (hnode h p) /\
    nprt (hnode h' new) = Some (PL p (Z.of_nat (length l1)) (Z.of_nat (length (byt (tags h) (ntag n) l1))) false) /\
    data (hnode h' new) = (ntag n, nval n, Z.land (Z.land (nflags n) (Z.lnot LINKED)) FLAG_MASK, Some (cover_link x), None) /\
    own h' new (map root Ts') /\ Forall (built h' new) Ts' /\
    map (tmap (label (view h'))) Ts' = conv_spec h (if b then kids T else []) /\
    (forall y, In y (flat_map flatten Ts') -> hnext h < y < hnext h') /\ NoDup (flat_map flatten Ts') /\ caches_ok h' /\
    (forall y, hnext h < y < hnext h' -> In y (flat_map flatten Ts')).
Proof.
  intros W El NL LR HN HT Er HG new n. assert (Hin : In x (nitems (hnode h p))) by (rewrite El; apply in_elt).
  destruct (LWF_child_prt h p x W Hin) as (pl & Epl & Epp).
  assert (Hx : x < hnext h) by (apply (LWF_child_lt h p x W Hin)).
  assert (Hp : p < hnext h). { apply (fo_par _ _ (lw_forest _ W) x p). cbn. rewrite Epl. cbn. congruence. }
  pose proof (fo_nodup _ _ (lw_forest _ W) p) as ND. cbn in ND. rewrite El in ND.
  unfold make_local. rewrite bind_gets, Epl, NL, Epp, LR. cbn [negb].
  destruct (to_local_ok h T b HT) as (h1 & Ts' & E1 & X1 & O1 & D1 & P1 & W1 & B1 & L1 & R1 & N1 & C1 & CV1).
  { intros y Hy. eapply ltree_lt; [apply (lw_forest _ W)|exact HT|rewrite Er; exact Hx|exact Hy]. }
  { eapply ltree_NoDup; [apply (lw_forest _ W)|exact HT]. } { exact HG. } { rewrite Er. exact NL. }
  rewrite Er in E1, D1. fold n new in D1. fold new in E1, D1, P1, W1, B1. rewrite (bind_ok _ _ _ _ _ E1). specialize (C1 (lw_caches _ W)). assert (O1' := O1). clear O1. assert (O1 : forall y, y < hnext h -> hnode h1 y = hnode h y) by (intros y Hy; apply O1'; left; exact Hy).
  assert (Ei1 : nitems (hnode h1 p) = l1 ++ x :: l2) by (rewrite O1 by exact Hp; exact El).
  assert (Lt : forall y, In y (l1 ++ x :: l2) -> y < hnext h).
  { intros y Hy. rewrite <- El in Hy. apply (LWF_child_lt h p y W Hy). }
  assert (Own1 : own h1 p (l1 ++ x :: l2)).
  { rewrite <- El. eapply own_ext; [apply O1; exact Hp| |apply LWF_own; exact W]. intros y Hy. rewrite O1; [reflexivity|]. apply Lt. rewrite <- El. exact Hy. }
  destruct (get_idx_gen h1 p x (length l1)) as (h2 & E2 & Q2 & Wr2).
  { rewrite Ei1. rewrite nth_error_app2, Nat.sub_diag by apply le_n. reflexivity. }
  { rewrite Ei1. exact ND. }
  { cbn. rewrite O1 by exact Hx. rewrite Epl. cbn. congruence. }
  { exact C1. }
  { left. intros y Hy. rewrite Ei1 in Hy. rewrite O1 by (apply Lt; exact Hy). rewrite <- El in Hy. destruct (LWF_child_prt h p y W Hy) as (ply & -> & _). discriminate. }
  rewrite (bind_ok _ _ _ _ _ E2).
  assert (C2 : caches_ok h2) by (apply Q2; exact C1). pose proof (own_ceq _ _ _ _ Q2 Own1) as Own2.
  assert (T2 : forall y, In y (l1 ++ x :: l2) -> ntag (hnode h2 y) = ntag (hnode h y)) by (intros y Hy; rewrite (ceq_tag _ _ Q2), O1 by (apply Lt; exact Hy); reflexivity).
  assert (Ety : ntag (hnode h2 x) = ntag n) by (apply T2, in_elt).
  assert (EB : byt (tags h2) (ntag n) l1 = byt (tags h) (ntag n) l1).
  { apply filter_ext_in. intros y Hy. rewrite T2; [reflexivity|]. apply in_app_iff. auto. }
  assert (PL2 : exists pl2, nprt (hnode h2 x) = Some pl2 /\ pl_par pl2 = p /\ pl_fam pl2 = pl_fam pl).
  { destruct (Wr2 x) as [E|(j & pl0 & _ & E & E')]; rewrite ?E, ?E', ?O1 in * by exact Hx.
    - exists pl. auto.
    - rewrite Epl in E. injection E as <-. cbn. eexists. split; [reflexivity|]. auto. }
  destruct PL2 as (pl2 & Epl2 & Epp2 & Efam2).
  assert (Hk : nth_error (l1 ++ x :: l2) (length l1) = Some x) by (rewrite nth_error_app2, Nat.sub_diag by apply le_n; reflexivity).
  assert (FN : firstn (length l1) (l1 ++ x :: l2) = l1) by (rewrite firstn_app, firstn_all, Nat.sub_diag; cbn; apply app_nil_r).
  destruct (tag_idx_node h2 p x (l1 ++ x :: l2) (length l1) Own2 ND Hk) as (h3 & E3 & K3).
  { cbn. rewrite Epl2. cbn. congruence. }
  { intros pl' E'. destruct (C2 _ _ E') as (_ & A & B). auto. }
  { rewrite FN, Ety, EB. intros pl' E'. rewrite Epl2 in E'. injection E' as <-. rewrite Efam2. apply HN. exact Epl. }
  rewrite FN, Ety, EB in *. rewrite (bind_ok _ _ _ _ _ E3). rewrite bind_gets.
  pose proof (cached_ceq _ _ _ _ K3 (cached_caches _ _ _ _ K3)) as Q3. pose proof (ceq_trans _ _ _ Q2 Q3) as Q13.
  pose proof (own_ceq _ _ _ _ Q3 Own2) as Own3. destruct Own3 as (I3 & [(K & _)|(Bd3 & d & D3 & F3)]); [destruct l1; discriminate|].
  rewrite I3, py_idx_of_nat, bind_upd by (rewrite app_length; cbn; lia). rewrite (replace_at_split l1 l2 x new).
  set (h4 := hmod h3 p (set_items (l1 ++ new :: l2))).
  assert (Bd4 : nbound (hnode h4 p) = Current) by (unfold h4; hnodes; exact Bd3). assert (D4 : nfams (hnode h4 p) = Some d) by (unfold h4; hnodes; exact D3).
  unfold getitem_fam. rewrite bind_assoc, (bind_ok _ _ _ _ _ (get_fam_cur h4 p (ntag n) d Bd4 D4)). rewrite (fam_ok_get _ _ _ (ntag n) F3).
  assert (T3 : forall y, In y (l1 ++ x :: l2) -> ntag (hnode h3 y) = ntag (hnode h y)) by (intros y Hy; rewrite (ceq_tag _ _ Q3); apply T2; exact Hy).
  set (f1 := byt (tags h) (ntag n) l1). set (f2 := byt (tags h) (ntag n) l2).
  assert (EF : byt (tags h3) (ntag n) (l1 ++ x :: l2) = f1 ++ x :: f2).
  { rewrite byt_app, byt_cons, T3 by apply in_elt. fold n. rewrite pyval_eqb_refl. f_equal; [|f_equal]; apply filter_ext_in; intros y Hy; rewrite T3; auto; apply in_app_iff; cbn; auto. }
  rewrite EF. rewrite nonempty_ne by (destruct f1; discriminate). rewrite bind_ret. rewrite py_idx_of_nat by (unfold f1; rewrite app_length; cbn; lia).
  rewrite (replace_at_split f1 f2 x new).
  assert (E5 : put_fam p (ntag n) (f1 ++ new :: f2) h4 = (hmod h4 p (set_fams (Some (dset d (ntag n) (f1 ++ new :: f2))) Current), Ok tt)).
  { unfold put_fam. rewrite Bd4, D4. reflexivity. }
  rewrite (bind_ok _ _ _ _ _ E5), bind_upd. fold f1. set (pn := PL p (Z.of_nat (length l1)) (Z.of_nat (length f1)) false).
  set (h6 := hmod _ new (set_prt (Some pn))).
  assert (Np : new <> p) by (unfold new; lia).
  assert (O6 : forall y, y <> p -> y <> new -> hnode h6 y = hnode h3 y) by (intros y Y1 Y2; unfold h6, h4; hnodes; reflexivity).
  assert (N6 : hnode h6 new = set_prt (Some pn) (hnode h3 new)) by (unfold h6, h4; hnodes; reflexivity).
  assert (P6 : hnode h6 p = set_fams (Some (dset d (ntag n) (f1 ++ new :: f2))) Current (set_items (l1 ++ new :: l2) (hnode h3 p))) by (unfold h6, h4; hnodes; reflexivity).
  assert (X6 : hnext h6 = hnext h1) by (transitivity (hnext h3); [reflexivity|apply (ceq_next _ _ Q13)]).
  assert (S6 : forall y, y <> x -> ~ In y (l1 ++ x :: l2) -> hnode h3 y = hnode h1 y).
  { intros y Y1 Y2. destruct K3 as (_ & O & _). rewrite O by exact Y1. destruct (Wr2 y) as [E|(j & ? & Hj & _)]; [exact E|]. exfalso. apply Y2. rewrite <- Ei1. eapply nth_error_In. exact Hj. }
  assert (Tn : ntag (hnode h3 new) = ntag n) by (rewrite (ceq_tag _ _ Q13); injection D1; auto).
  assert (G6 : forall y, hnext h < y -> hnode h6 y = hnode h1 y).
  { intros y Y. rewrite O6 by (unfold new; lia). apply S6; [lia|]. intros K. apply Lt in K. lia. }
  assert (T6 : forall y, ntag (hnode h6 y) = ntag (hnode h3 y)).
  { intros y. destruct (Nat.eq_dec y p) as [->|Y1]; [rewrite P6; reflexivity|]. destruct (Nat.eq_dec y new) as [->|Y2]; [rewrite N6; reflexivity|]. rewrite O6 by assumption. reflexivity. }
  assert (V3 : forall y, y < hnext h -> strip (hnode h3 y) = strip (hnode h y)).
  { intros y Y. rewrite <- (proj1 (proj2 Q13) y), O1 by exact Y. reflexivity. }
  clearbody h6. exists h6, Ts'. split; [reflexivity|]. split; [lia|]. split.
  { split; [rewrite P6; reflexivity|right]. rewrite P6. split; [reflexivity|]. eexists. split; [reflexivity|].
    eapply (fam_ok_ext (tags h3)); [intros y _; symmetry; apply T6|]. 
    assert (E : ntag (hnode h3 x) = ntag n) by (apply T3, in_elt).
    pose proof (fam_ok_swap (tags h3) d l1 x new l2 F3 ltac:(cbn; congruence)) as K. cbn beta in K. rewrite E in K.
    assert (F1 : byt (tags h3) (ntag n) l1 = f1) by (apply filter_ext_in; intros y Hy; rewrite T3; auto; apply in_app_iff; cbn; auto).
    assert (F2 : byt (tags h3) (ntag n) l2 = f2) by (apply filter_ext_in; intros y Hy; rewrite T3; auto; apply in_app_iff; cbn; auto).
    rewrite F1, F2 in K. exact K. }
  pose proof (strip_all _ _ (V3 p Hp)) as (V3a & V3b & V3c & V3d).
  split. { unfold view. rewrite P6. injection V3a as A1 A2 A3 A4 A5. cbn. rewrite A1, A2, A3, A4, A5, V3b. reflexivity. }
  split. { intros y Y1 Y2. rewrite O6 by (unfold new; lia). apply V3. exact Y1. }
  split. { intros y Y. assert (Z : hnext h1 <= y) by lia. rewrite O6, S6, O1' by (try (intros K; apply Lt in K); unfold new; lia). reflexivity. }
  split. { rewrite P6. exact V3a. }
  split. { rewrite P6. cbn. destruct K3 as (_ & OO & _). assert (Px : p <> x) by (intros ->; apply (not_self_parent _ _ (fo_root _ _ (lw_forest _ W) x)); apply (fo_child _ _ (lw_forest _ W)); cbn; rewrite El; apply in_elt).
    rewrite OO by exact Px. destruct (Wr2 p) as [E|(j & ? & Hj & _)]; [rewrite E, O1 by exact Hp; reflexivity|].
    exfalso. apply (not_self_parent _ _ (fo_root _ _ (lw_forest _ W) p)). apply (fo_child _ _ (lw_forest _ W)). cbn. rewrite El, <- Ei1. eapply nth_error_In. exact Hj. }
  split. { rewrite N6. reflexivity. }
  split. { rewrite N6. change (data (set_prt (Some pn) (hnode h3 new))) with (data (hnode h3 new)). rewrite S6; [exact D1|unfold new; lia|]. intros K. apply Lt in K. unfold new in K. lia. }
  assert (Eb : forall y, In y (flat_map flatten Ts') -> hnode h6 y = hnode h1 y) by (intros y Hy; apply G6; specialize (R1 y Hy); unfold new in *; lia).
  split. { destruct W1 as (Wi & Wf). assert (S : hnode h3 new = hnode h1 new) by (apply S6; [unfold new; lia|intros K; apply Lt in K; unfold new in K; lia]).
    split; [rewrite N6, S; exact Wi|]. destruct Wf as [(-> & Wl)|(Wb & dn & Wd & Wo)]; [left; split; [reflexivity|rewrite N6, S; exact Wl]|right]. rewrite N6, S. split; [exact Wb|]. exists dn. split; [exact Wd|].
    eapply fam_ok_ext; [|exact Wo]. intros y Hy. rewrite Eb; [reflexivity|]. apply in_map_iff in Hy as (U & <- & HU). apply in_flat_map. exists U. split; [exact HU|apply in_flatten_root]. }
  split. { rewrite Forall_forall in *. intros U HU. eapply built_frame; [|apply B1, HU]. intros y Hy. apply Eb. apply in_flat_map. exists U. auto. }
  split. { transitivity (map (tmap (label (view h1))) Ts').
    - apply map_ext_in. intros U HU. apply tmap_ext. intros y Hy. apply label_data. rewrite Eb; [reflexivity|]. apply in_flat_map. exists U. auto.
    - rewrite L1. destruct b; reflexivity. }
  rewrite X6. split; [exact R1|]. split; [exact N1|]. split; [|exact CV1].
  assert (C3 : caches_ok h3) by (apply Q3, C2). intros y pl' E. destruct (Nat.eq_dec y new) as [->|Y2]; [rewrite N6 in E; cbn in E; injection E as <-; cbn; lia|].
  destruct (Nat.eq_dec y p) as [->|Y1]; [rewrite P6 in E; apply (C3 _ _ E)|]. rewrite O6 in E by assumption. apply (C3 _ _ E).
Qed.
