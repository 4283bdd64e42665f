(** load_links: the loop over the target items and the whole call. *)
From Coq Require Import List.
From Verif Require Import Base Heap HeapSpec ListLemmas ForestLemmas HeapInv HeapAttach HeapOps HeapOps2 HeapOps3 Tree HeapTree HeapCopy Deep DeepLevels SerModel LinkModel LinkFacts LinkFacts2 LinkMerge LinkLoad.
Import ListNotations.
Local Open Scope list_scope.

(** * Appending several items *)
Lemma mapM_map {A B} (f : B -> M unit) (g : A -> B) l h : mapM_ (fun a => f (g a)) l h = mapM_ f (map g l) h.
Proof. revert h. induction l as [|a l IH]; intros h; [reflexivity|]. cbn [mapM_ map]. unfold bind. destruct (f (g a) h) as [h1 [u|e]]; [apply IH|reflexivity]. Qed.
Lemma append_rest x (L : list ((pyval * Z) * lent)) h :
  mapM_ (fun p => match snd p with LOld y => append_core x y | LPlace => ret tt end) L h = mapM_ (append_core x) (map snd (kept_of L)) h.
Proof.
  revert h. induction L as [|(k, [y|]) L IH]; intros h; [reflexivity| |].
  - unfold kept_of. cbn [flat_map snd fst app map mapM_]. unfold bind. destruct (append_core x y h) as [h1 [u|e]]; [apply IH|reflexivity].
  - cbn [mapM_ snd]. rewrite bind_ret. apply IH.
Qed.
Lemma set_prt_twice a b n : set_prt a (set_prt b n) = set_prt a n. Proof. reflexivity. Qed.
Lemma apps_ok x : forall l h lst, own h x lst -> ~ In x l ->
  exists h', mapM_ (append_core x) l h = (h', Ok tt) /\ own h' x (lst ++ l) /\ hnext h' = hnext h /\
    (forall y, y <> x -> ~ In y l -> hnode h' y = hnode h y) /\ data (hnode h' x) = data (hnode h x) /\ nprt (hnode h' x) = nprt (hnode h x) /\
    (forall y, In y l -> exists i f, hnode h' y = set_prt (Some (PL x i f false)) (hnode h y) /\ (0 <= i)%Z /\ (0 <= f)%Z) /\ (caches_ok h -> caches_ok h').
Proof.
  induction l as [|y l IH]; intros h lst HO Hx.
  - exists h. cbn [mapM_]. rewrite app_nil_r. split; [reflexivity|]. split; [exact HO|]. split; [reflexivity|]. split; [reflexivity|]. split; [reflexivity|]. split; [reflexivity|]. split; [intros y []|auto].
  - assert (Yx : y <> x) by (intros ->; apply Hx; left; reflexivity).
    destruct (app_own h x y lst HO Yx) as (h1 & E1 & O1 & X1 & F1 & D1 & P1 & N1). cbn [mapM_]. rewrite (bind_ok _ _ _ _ _ E1).
    destruct (IH h1 (lst ++ [y]) O1) as (h' & E' & O' & X' & F' & D' & P' & N' & C'); [intros K; apply Hx; right; exact K|].
    rewrite <- app_assoc in O'. exists h'. split; [exact E'|]. split; [exact O'|]. split; [congruence|]. split.
    { intros z Z1 Z2. rewrite F', F1; auto; intros K; apply Z2; cbn; auto. }
    split; [congruence|]. split; [congruence|].
    assert (PN : exists i f, nprt (hnode h1 y) = Some (PL x i f false) /\ (0 <= i)%Z /\ (0 <= f)%Z) by (rewrite N1; eexists _, _; split; [reflexivity|lia]).
    split.
    { intros z [<-|Hz].
      - destruct (in_dec Nat.eq_dec y l) as [Hy|Hy].
        + destruct (N' y Hy) as (i & f & E & Hi & Hf). exists i, f. rewrite E, N1, set_prt_twice. auto.
        + rewrite (F' y Yx Hy), N1. eexists _, _. split; [reflexivity|lia].
      - destruct (N' z Hz) as (i & f & E & Hi & Hf). exists i, f. split; [|auto]. rewrite E. destruct (Nat.eq_dec z y) as [->|Zy]; [rewrite N1; reflexivity|].
        rewrite F1; [reflexivity|intros ->; apply Hx; right; exact Hz|exact Zy]. }
    intros CA. apply C'. eapply caches_app; eauto.
Qed.

(** * The loop *)
Definition nview (n : node) : anode := AN (ntag n) (nval n) (nflags n) (option_map pl_par (nprt n)) (nitems n) (nlink n) (ncoupled n).
Lemma strip_nview n m : strip n = strip m -> nview n = nview m.
Proof.
  intros E. transitivity (nview (strip n)); [destruct n as [? ? ? [p|] ? ? ? ? ?]; reflexivity|]. rewrite E. destruct m as [? ? ? [p|] ? ? ? ? ?]; reflexivity.
Qed.
Lemma strip_fields n m : strip n = strip m -> nitems n = nitems m /\ nfams n = nfams m /\ nbound n = nbound m /\ ntag n = ntag m.
Proof. intros E. pose proof (f_equal nitems E). pose proof (f_equal nfams E). pose proof (f_equal nbound E). pose proof (f_equal ntag E). auto. Qed.

(** [C'] is the linked copy of [C]: data of the root, then the converted subtree *)
Definition copy_of (h0 h' : heap) (C : tree loc) (co : option nat) (C' : tree loc) : Prop :=
  let n := hnode h0 (root C) in
  data (hnode h' (root C')) = (ntag n, nval n, Z.land (Z.lor (nflags n) LINKED) FLAG_MASK, None, co) /\
  own h' (root C') (map root (kids C')) /\ Forall (built h' (root C')) (kids C') /\
  map (tmap (label (view h'))) (kids C') = conv_spec h0 (kids C).
Lemma copy_frame h0 h h' C co C' : (forall y, In y (flatten C') -> hnode h' y = hnode h y) -> copy_of h0 h C co C' -> copy_of h0 h' C co C'.
Proof.
  intros E (A & B & D & L). destruct C' as [z cs]. cbn [root kids] in *.
  assert (Ez : hnode h' z = hnode h z) by (apply E; left; reflexivity).
  assert (Ec : forall c, In c cs -> forall y, In y (flatten c) -> hnode h' y = hnode h y) by (intros c Hc y Hy; apply E; right; apply in_flat_map; exists c; auto).
  split; [cbn [root]; rewrite Ez; exact A|]. split; [|split].
  - cbn [root kids]. eapply own_ext; [exact Ez| |exact B]. intros y Hy. apply in_map_iff in Hy as (c & <- & Hc). rewrite (Ec c Hc); [reflexivity|apply in_flatten_root].
  - cbn [root kids]. rewrite Forall_forall in *. intros c Hc. eapply built_frame; [apply Ec; exact Hc|apply D, Hc].
  - cbn [kids]. rewrite <- L. apply map_ext_in. intros c Hc. apply tmap_ext. intros y Hy. apply label_data. rewrite (Ec c Hc y Hy). reflexivity.
Qed.

Section Run.
  Context (h0 : heap) (x t : loc) (olds : list loc) (Cs : list (tree loc)).
  Hypothesis Hx : x < hnext h0.
  Hypothesis Ht : t < hnext h0.
  Hypothesis Hxt : x <> t.
  Hypothesis Hold : forall y, In y olds -> y < hnext h0 /\ y <> x /\ parent_of h0 y = Some x /\ (forall pl, nprt (hnode h0 y) = Some pl -> pl_tuple pl = false).
  Hypothesis Htk : kids_of h0 t (map root Cs).
  Hypothesis HCs : Forall (fun C => ltree (view h0) C /\ NoDup (flatten C) /\ (forall y, In y (flatten C) -> y < hnext h0 /\ y <> x /\ ~ In y olds) /\
     is_linked h0 (root C) = false /\ is_link_root h0 (root C) = false /\ hashable (ntag (hnode h0 (root C))) = true /\
     (forall y, In y (below_tree C) -> conv_good (label (view h0) y) = true)) Cs.

  Record Inv (h : heap) (lst : list loc) : Prop := {
    i_own : own h x lst;
    i_cache : caches_ok h;
    i_next : hnext h0 <= hnext h;
    i_x : data (hnode h x) = data (hnode h0 x) /\ nprt (hnode h x) = nprt (hnode h0 x);
    i_rest : forall y, y < hnext h0 -> y <> x -> ~ In y olds -> strip (hnode h y) = strip (hnode h0 y);
    i_old : forall y, In y olds -> strip (set_link None (hnode h y)) = strip (set_link None (hnode h0 y));
    i_near : forall l1 c l2, map root Cs = l1 ++ c :: l2 -> near h c (length (byt (tags h0) (ntag (hnode h0 c)) l1));
    i_lt : forall y, In y lst -> y < hnext h;
    i_free : forall y, hnext h <= y -> hnode h y = hnode h0 y;
    i_prt : forall y, y < hnext h0 -> y <> x -> ~ In y olds -> ~ In y (map root Cs) -> nprt (hnode h y) = nprt (hnode h0 y) }.

  Lemma inv_view h lst y : Inv h lst -> y < hnext h0 -> y <> x -> ~ In y olds -> view h y = view h0 y.
  Proof. intros I A B C. apply (strip_nview (hnode h y) (hnode h0 y)). apply (i_rest _ _ I); assumption. Qed.
  Lemma inv_fields h lst y : Inv h lst -> y < hnext h0 -> y <> x ->
    nitems (hnode h y) = nitems (hnode h0 y) /\ nfams (hnode h y) = nfams (hnode h0 y) /\ nbound (hnode h y) = nbound (hnode h0 y) /\ ntag (hnode h y) = ntag (hnode h0 y).
  Proof.
    intros I A B. destruct (in_dec Nat.eq_dec y olds) as [K|K]; [|apply strip_fields; apply (i_rest _ _ I); assumption].
    exact (strip_fields _ _ (i_old _ _ I y K)).
  Qed.
  Lemma root_in y : In y (map root Cs) -> exists C, In C Cs /\ root C = y.
  Proof. intros H. apply in_map_iff in H as (C & E & H). exists C. auto. Qed.
  Lemma tkid y : In y (map root Cs) -> y < hnext h0 /\ y <> x /\ ~ In y olds.
  Proof. intros H. apply root_in in H as (C & HC & <-). rewrite Forall_forall in HCs. apply (HCs C HC). apply in_flatten_root. Qed.
  Lemma inv_byt h lst l s : Inv h lst -> incl l (map root Cs) -> byt (tags h) s l = byt (tags h0) s l.
  Proof. intros I H. apply filter_ext_in. intros y Hy. destruct (tkid y (H y Hy)) as (A & B & _). rewrite (proj2 (proj2 (proj2 (inv_fields h lst y I A B)))). reflexivity. Qed.
  Lemma inv_tk h lst : Inv h lst -> kids_of h t (map root Cs).
  Proof.
    intros I. destruct Htk as ((A1 & A2) & B & C & D). destruct (inv_fields h lst t I Ht (fun E => Hxt (eq_sym E))) as (F1 & F2 & F3 & _).
    split; [|split; [exact B|split; [apply (i_cache _ _ I)|]]].
    - split; [congruence|]. destruct A2 as [(-> & A2)|(A2 & d & A3 & A4)]; [left; split; [reflexivity|unfold leaf_ok in *; rewrite F2, F3; exact A2]|right]. split; [congruence|]. exists d. split; [congruence|].
      eapply fam_ok_ext; [|exact A4]. intros y Hy. symmetry. destruct (tkid y Hy) as (U & V & _). apply (inv_fields h lst y I U V).
    - intros y Hy. destruct (tkid y Hy) as (U & V & W). unfold parent_of. rewrite (inv_view h lst y I U V W). apply D. exact Hy.
  Qed.
  Lemma inv_contains h lst k : Inv h lst -> contains_target h t (TgVal (key_val k)) = contains_target h0 t (TgVal (key_val k)).
  Proof.
    intros I. destruct (inv_fields h lst t I Ht (fun E => Hxt (eq_sym E))) as (F1 & F2 & F3 & _).
    assert (FE : forall u, fam_of h t u = fam_of h0 t u) by (intros u; unfold fam_of; rewrite F2, F3; reflexivity).
    unfold contains_target, getitem, key_val, getitem_val. rewrite F1. unfold getitem_tuple, fallback. rewrite !FE. reflexivity.
  Qed.
  Definition IT (k : pyval * Z) : bool := contains_target h0 t (TgVal (key_val k)).
  Lemma IT_target l1 c l2 : map root Cs = l1 ++ c :: l2 -> IT (ntag (hnode h0 c), Z.of_nat (length (byt (tags h0) (ntag (hnode h0 c)) l1))) = true.
  Proof.
    intros E. set (s := ntag (hnode h0 c)). unfold IT, contains_target, getitem, key_val, getitem_val. cbn [fst snd].
    destruct Htk as ((A1 & A2) & B & _). rewrite A1. destruct A2 as [(A2 & _)|(A2 & d & A3 & A4)]; [rewrite E in A2; destruct l1; discriminate|].
    assert (Hs : hashable s = true). { destruct (root_in c) as (C & HC & EC); [rewrite E; apply in_elt|]. unfold s. rewrite <- EC. rewrite Forall_forall in HCs. apply (HCs C HC). }
    rewrite E. destruct (l1 ++ c :: l2) eqn:El; [destruct l1; discriminate|]. rewrite <- El in *. unfold getitem_tuple, fam_of. rewrite A2, A3, Hs, (fam_ok_get _ _ _ s A4), E.
    rewrite byt_app, byt_cons. fold s. rewrite pyval_eqb_refl. set (f1 := byt _ s l1). set (f2 := byt _ s l2).
    rewrite nonempty_ne by (destruct f1; discriminate). cbn [as_index]. unfold list_at. rewrite py_idx_of_nat by (rewrite app_length; cbn; lia).
    rewrite nth_error_app2, Nat.sub_diag by apply le_n. reflexivity.
  Qed.

  Lemma step_heap conv cl L tg C l1 l2 h lst : Inv h lst -> In C Cs -> map root Cs = l1 ++ root C :: l2 ->
    (forall g, is_link_root g (root C) = false -> conv (root C) g = to_linked (root C) g) ->
    NoDup (map fst L) -> (forall p, In p (kept_of L) -> In (snd p) olds) ->
    let s := ntag (hnode h0 (root C)) in let k := (s, Z.of_nat (length (byt (tags h0) s l1))) in let new := hnext h in
    exists h' Ts', load_step conv x t cl (L, tg) (root C) h = (h', Ok (step_left IT L k new, s :: tg)) /\
      Inv h' (lst ++ map snd (step_items IT L k new)) /\ hnext h < hnext h' /\
      (forall y, hnext h0 <= y < hnext h -> hnode h' y = hnode h y) /\
      copy_of h0 h' C (find_coupled cl k) (Node new Ts') /\
      (forall y, In y (flat_map flatten Ts') -> hnext h < y < hnext h') /\ NoDup (flat_map flatten Ts') /\
      parent_of h' new = (match lget L k with Some (LOld _) => None | _ => Some x end) /\
      (forall y, lget L k = Some (LOld y) -> nlink (hnode h' y) = Some (cover_link new)) /\
      (forall y, In y olds -> lget L k <> Some (LOld y) -> nlink (hnode h' y) = nlink (hnode h y)) /\
      (forall y, hnext h <= y < hnext h' -> In y (flatten (Node new Ts'))).
  Proof.
    intros I HC El Hconv NL HK s k new. destruct (proj1 (Forall_forall _ _) HCs C HC) as (CT & CN & CB & CL & CR & CH & CG).
    assert (Sv : forall y, In y (flatten C) -> view h y = view h0 y) by (intros y Hy; destruct (CB y Hy) as (U & V & W); apply (inv_view h lst y I U V W)).
    assert (Rin : In (root C) (flatten C)) by apply in_flatten_root. set (c := root C) in *.
    assert (Fl : nflags (hnode h c) = nflags (hnode h0 c)) by (exact (f_equal a_flags (Sv c Rin))).
    assert (Tg : ntag (hnode h c) = s) by (exact (f_equal a_tag (Sv c Rin))).
    assert (Vl : nval (hnode h c) = nval (hnode h0 c)) by (exact (f_equal a_val (Sv c Rin))).
    unfold load_step. assert (LRh : is_link_root h c = false) by (unfold is_link_root; rewrite Fl; exact CR).
    destruct (to_linked_ok h C) as (h1 & Ts' & E1 & X1 & O1 & D1 & P1 & W1 & B1 & L1 & R1 & N1 & C1 & CV1).
    { eapply ltree_frame; [|exact CT]. intros y Hy. rewrite Sv by exact Hy. reflexivity. }
    { intros y Hy. destruct (CB y Hy) as (U & _). pose proof (i_next _ _ I). lia. }
    { exact CN. }
    { intros y Hy. unfold label. rewrite Sv; [apply CG; exact Hy|]. destruct C as [z cs]. right. exact Hy. }
    { unfold is_linked. fold c. rewrite Fl. exact CL. }
    fold c in E1, D1. rewrite Fl, Tg, Vl in D1. fold new in E1, D1, P1, W1, B1, R1. rewrite <- (Hconv h LRh) in E1. rewrite (bind_ok _ _ _ _ _ E1). specialize (C1 (i_cache _ _ I)).
    assert (Cold : forall y, y < hnext h0 -> hnode h1 y = hnode h y) by (intros y Hy; apply O1; pose proof (i_next _ _ I); lia).
    (* the invariant after the conversion *)
    assert (I1 : Inv h1 lst).
    { destruct I as [i1 i2 i3 i4 i5 i6 i7 i8 i9 i10]. constructor; auto.
      - eapply own_ext; [apply Cold; exact Hx| |exact i1]. intros y Hy. rewrite O1; [reflexivity|]. left. apply i8. exact Hy.
      - lia.
      - rewrite Cold by exact Hx. exact i4.
      - intros y Y1 Y2 Y3. rewrite Cold by exact Y1. auto.
      - intros y Y. rewrite Cold by (apply Hold; exact Y). auto.
      - intros a z b E pl Hp. rewrite Cold in Hp by (apply (tkid z); rewrite E; apply in_elt). revert Hp. apply i7 with b. exact E.
      - intros y Hy. specialize (i8 y Hy). lia.
      - intros y Hy. rewrite O1 by (right; exact Hy). apply i9. lia.
      - intros y Y1 Y2 Y3 Y4. rewrite Cold by exact Y1. auto. }
    pose proof (inv_tk h1 lst I1) as TK1. rewrite El in TK1.
    assert (Tg1 : ntag (hnode h1 c) = s) by (rewrite Cold by (apply CB; exact Rin); exact Tg).
    assert (Inc : incl l1 (map root Cs)) by (rewrite El; intros y Hy; apply in_app_iff; auto).
    assert (Bt1 : byt (tags h1) s l1 = byt (tags h0) s l1) by (apply (inv_byt h1 lst l1 s I1 Inc)).
    destruct (tag_idx_at h1 t l1 c l2 TK1) as (h2 & E2 & K2).
    { rewrite Tg1, Bt1. apply (i_near _ _ I1 l1 c l2 El). }
    rewrite Tg1, Bt1 in E2, K2. rewrite (bind_ok _ _ _ _ _ E2). fold k.
    pose proof (cached_ceq _ _ _ _ K2 (cached_caches _ _ _ _ K2)) as Q2. pose proof K2 as (X2 & O2 & _).
    assert (Cx : c <> x) by (apply CB; exact Rin). assert (Cn : c <> new) by (destruct (CB c Rin) as (U & _); pose proof (i_next _ _ I); unfold new; lia).
    assert (Cn1 : c < hnext h0) by (apply CB; exact Rin).
    assert (I2 : Inv h2 lst).
    { destruct I1 as [i1 i2 i3 i4 i5 i6 i7 i8 i9 i10]. constructor.
      - eapply own_ceq; eauto.
      - apply Q2; exact i2.
      - lia.
      - rewrite O2 by auto. exact i4.
      - intros y Y1 Y2 Y3. rewrite <- (i5 y Y1 Y2 Y3). symmetry. apply Q2.
      - intros y Y. rewrite O2; [apply i6; exact Y|]. intros ->. destruct (CB c Rin) as (_ & _ & U). contradiction.
      - intros a z b E. eapply cached_near; [exact K2| |apply (i7 a z b E)]. intros ->. change (ntag (hnode h0 c)) with s.
        do 2 f_equal. assert (NDr : NoDup (map root Cs)) by apply Htk. rewrite E in El.
        assert (Elen : nth_error (a ++ c :: b) (length a) = Some c) by (rewrite nth_error_app2, Nat.sub_diag by apply le_n; reflexivity).
        assert (Elen' : nth_error (a ++ c :: b) (length l1) = Some c) by (rewrite El, nth_error_app2, Nat.sub_diag by apply le_n; reflexivity).
        rewrite <- E in Elen, Elen'. pose proof (NoDup_nth_error_inj _ _ _ _ NDr Elen Elen') as Q. apply (f_equal (firstn (length a))) in El. rewrite Q in El at 2.
        rewrite !firstn_app, !firstn_all, !Nat.sub_diag in El. cbn in El. rewrite !app_nil_r in El. exact El.
      - intros y Hy. rewrite X2. apply i8. exact Hy.
      - intros y Hy. rewrite O2; [apply i9; lia|]. intros ->. lia.
      - intros y Y1 Y2 Y3 Y4. rewrite O2; [auto|]. intros ->. apply Y4. rewrite El. apply in_elt. }
    (* the coupled object *)
    assert (E3 : exists h3, (match find_coupled cl k with Some c0 => set_coupled_object new c0 | None => ret tt end) h2 = (h3, Ok tt) /\
      hnext h3 = hnext h2 /\ (forall y, y <> new -> hnode h3 y = hnode h2 y) /\ hnode h3 new = set_coupled (find_coupled cl k) (hnode h2 new)).
    { assert (Nc : ncoupled (hnode h2 new) = None) by (rewrite O2 by auto; injection D1; auto).
      destruct (find_coupled cl k) as [o|].
      - eexists. split; [reflexivity|]. split; [reflexivity|]. split; [intros y Hy; apply hmod_other; exact Hy|]. rewrite hmod_same. reflexivity.
      - exists h2. split; [reflexivity|]. split; [reflexivity|]. split; [reflexivity|]. destruct (hnode h2 new); cbn in *. rewrite Nc. reflexivity. }
    destruct E3 as (h3 & E3 & X3 & O3 & N3). rewrite (bind_ok _ _ _ _ _ E3), bind_gets.
    assert (Nlt : forall y, y < hnext h0 -> y <> new) by (intros y Hy; pose proof (i_next _ _ I); unfold new; lia).
    assert (T3 : forall y, ntag (hnode h3 y) = ntag (hnode h2 y)) by (intros y; destruct (Nat.eq_dec y new) as [->|Y]; [rewrite N3|rewrite O3 by exact Y]; reflexivity).
    assert (I3 : Inv h3 lst).
    { destruct I2 as [i1 i2 i3 i4 i5 i6 i7 i8 i9 i10]. constructor.
      - eapply own_ext; [apply O3; auto| |exact i1]. intros y _. apply T3.
      - intros y pl Hp. apply (i2 y pl). destruct (Nat.eq_dec y new) as [->|Y]; [rewrite N3 in Hp|rewrite O3 in Hp by exact Y]; exact Hp.
      - lia.
      - rewrite O3 by auto. exact i4.
      - intros y Y1 Y2 Y3. rewrite O3 by auto. auto.
      - intros y Y. rewrite O3 by (apply Nlt, Hold; exact Y). auto.
      - intros a z b E pl Hp. rewrite O3 in Hp by (apply Nlt, tkid; rewrite E; apply in_elt). revert Hp. apply (i7 a z b E).
      - intros y Hy. rewrite X3. apply i8. exact Hy.
      - intros y Hy. rewrite O3; [apply i9; lia|]. unfold new. lia.
      - intros y Y1 Y2 Y3 Y4. rewrite O3 by auto. auto. }
    (* state of the new items before appending *)
    assert (B3 : copy_of h0 h3 C (find_coupled cl k) (Node new Ts')).
    { assert (Ey : forall y, In y (flat_map flatten Ts') -> hnode h3 y = hnode h1 y).
      { intros y Hy. pose proof (R1 y Hy). rewrite O3, O2; [reflexivity| |unfold new; lia]. intros ->. pose proof (i_next _ _ I). lia. }
      assert (En : hnode h3 new = set_coupled (find_coupled cl k) (hnode h1 new)) by (rewrite N3, O2 by auto; reflexivity).
      split; [cbn [root]; rewrite En; injection D1 as A1 A2 A3 A4 _; unfold data; cbn [ntag nval nflags nlink ncoupled set_coupled]; fold c; fold s; rewrite A1, A2, A3, A4; reflexivity|].
      cbn [root kids]. split.
      - destruct W1 as (Wi & Wf). split; [rewrite En; exact Wi|]. destruct Wf as [(-> & Wf)|(Wb & d & Wd & Wo)]; [left; split; [reflexivity|rewrite En; exact Wf]|right]. rewrite En. split; [exact Wb|]. exists d. split; [exact Wd|].
        eapply fam_ok_ext; [|exact Wo]. intros y Hy. rewrite Ey; [reflexivity|]. apply in_map_iff in Hy as (U & <- & HU). apply in_flat_map. exists U. split; [exact HU|apply in_flatten_root].
      - split; [rewrite Forall_forall in *; intros U HU; eapply built_frame; [|apply B1, HU]; intros y Hy; apply Ey; apply in_flat_map; exists U; auto|].
        transitivity (map (tmap (label (view h1))) Ts').
        + apply map_ext_in. intros U HU. apply tmap_ext. intros y Hy. apply label_data. rewrite Ey; [reflexivity|]. apply in_flat_map. exists U. auto.
        + rewrite L1. apply conv_spec_ext. intros y Hy. rewrite pre_fst in Hy. unfold label. rewrite Sv; [reflexivity|]. destruct C as [z cs]. right. exact Hy. }
    assert (Old3 : forall y, hnext h0 <= y < hnext h -> hnode h3 y = hnode h y).
    { intros y Hy. rewrite O3, O2, O1; [reflexivity| | |]; try (unfold new; lia). }
    assert (P3 : nprt (hnode h3 new) = None) by (rewrite N3; cbn; rewrite O2 by auto; exact P1).
    assert (Lk3 : forall y, In y olds -> nlink (hnode h3 y) = nlink (hnode h y)).
    { intros y Hy. assert (Y : y < hnext h0) by (apply Hold; exact Hy). assert (Yc : y <> c) by (intros ->; destruct (CB c Rin) as (_ & _ & U); contradiction). rewrite O3, O2, Cold by auto. reflexivity. }
    assert (X13 : hnext h3 = hnext h1) by lia.
    clear E2 K2 Q2 X2 O2 I2 T3 N3 E3 X3 O3 W1 B1 L1 D1 P1 E1 C1 Cold TK1 Bt1 I1 O1 Tg1 h2. 
    (* appending *)
    set (its := step_items IT L k new).
    destruct (step_ok IT L k new NL) as (a & Es & _ & Ha & _). fold its in Es.
    assert (Ri : forall y, In y (map snd its) -> In y olds \/ (y = new /\ ~ exists z, lget L k = Some (LOld z))).
    { intros y Hy. rewrite Es, map_app in Hy. apply in_app_iff in Hy as [Hy|[<-|[]]].
      - left. apply in_map_iff in Hy as (p & <- & Hp). apply HK. apply Ha. exact Hp.
      - unfold rep. cbn [fst snd]. destruct (lget L k) as [[y|]|] eqn:E; [|right; split; [reflexivity|intros (z & K); discriminate]..].
        left. apply (HK (k, y)). apply kept_in. apply lget_in; assumption. }
    assert (Nx : ~ In x (map snd its)).
    { intros Hi. apply Ri in Hi as [Hi|[Hi _]]; [apply Hold in Hi; tauto|]. pose proof (i_next _ _ I). unfold new in Hi. lia. }
    (* common end: [h4] differs from [h3] in the link of the covering item only *)
    assert (End : forall h4, hnext h4 = hnext h3 -> (forall y, lget L k <> Some (LOld y) -> hnode h4 y = hnode h3 y) ->
       (forall y, lget L k = Some (LOld y) -> hnode h4 y = set_link (Some (cover_link new)) (hnode h3 y)) ->
       exists h', mapM_ (append_core x) (map snd its) h4 = (h', Ok tt) /\
         Inv h' (lst ++ map snd its) /\ hnext h < hnext h' /\
         (forall y, hnext h0 <= y < hnext h -> hnode h' y = hnode h y) /\
         copy_of h0 h' C (find_coupled cl k) (Node new Ts') /\
         (forall y, In y (flat_map flatten Ts') -> hnext h < y < hnext h') /\ NoDup (flat_map flatten Ts') /\
         parent_of h' new = (match lget L k with Some (LOld _) => None | _ => Some x end) /\
         (forall y, lget L k = Some (LOld y) -> nlink (hnode h' y) = Some (cover_link new)) /\
         (forall y, In y olds -> lget L k <> Some (LOld y) -> nlink (hnode h' y) = nlink (hnode h y)) /\
         (forall y, hnext h <= y < hnext h' -> In y (flatten (Node new Ts')))).
    { intros h4 X4 O4 K4.
      assert (Ko : forall y, lget L k = Some (LOld y) -> In y olds) by (intros y E; apply (HK (k, y)); apply kept_in; apply lget_in; assumption).
      assert (T4 : forall y, ntag (hnode h4 y) = ntag (hnode h3 y)).
      { intros y. destruct (lget L k) as [[z|]|] eqn:E; try (rewrite O4 by discriminate; reflexivity). destruct (Nat.eq_dec z y) as [->|Z]; [rewrite (K4 y eq_refl); reflexivity|rewrite O4 by congruence; reflexivity]. }
      assert (S4 : forall y, ~ In y olds -> hnode h4 y = hnode h3 y) by (intros y Hy; apply O4; intros E; apply Hy, Ko; exact E).
      assert (Xo : ~ In x olds) by (intros Hi; apply Hold in Hi; tauto).
      assert (Lo : forall y, In y olds -> y < hnext h0) by (intros y Hy; apply Hold; exact Hy).
      assert (Own4 : own h4 x lst) by (eapply own_ext; [apply S4; exact Xo|intros y _; apply T4|apply (i_own _ _ I3)]).
      assert (CA4 : caches_ok h4).
      { intros y pl Hp. apply (i_cache _ _ I3 y pl). destruct (lget L k) as [[z|]|] eqn:E; try (rewrite O4 in Hp by discriminate; exact Hp).
        destruct (Nat.eq_dec z y) as [->|Z]; [rewrite (K4 y eq_refl) in Hp; exact Hp|rewrite O4 in Hp by congruence; exact Hp]. }
      destruct (apps_ok x (map snd its) h4 lst Own4 Nx) as (h' & E' & O' & X' & F' & D' & P' & N' & C').
      exists h'. split; [exact E'|].
      assert (Fr : forall y, y <> x -> ~ In y olds -> y <> new -> hnode h' y = hnode h3 y).
      { intros y Y1 Y2 Y3. rewrite F', S4; auto. intros Hi. apply Ri in Hi as [Hi|[Hi _]]; contradiction. }
      assert (Dn : forall y, ~ In y olds -> y <> x -> (hnode h' y = hnode h3 y \/ exists i f, hnode h' y = set_prt (Some (PL x i f false)) (hnode h3 y))).
      { intros y Hy Yx. destruct (in_dec Nat.eq_dec y (map snd its)) as [Hi|Hi].
        - right. destruct (N' y Hi) as (i & f & E & _). exists i, f. rewrite E, S4 by exact Hy. reflexivity.
        - left. rewrite F', S4; auto. }
      assert (Do : forall y, In y olds -> hnode h' y = hnode h4 y \/ exists i f, hnode h' y = set_prt (Some (PL x i f false)) (hnode h4 y)).
      { intros y Hy. destruct (in_dec Nat.eq_dec y (map snd its)) as [Hi|Hi].
        - right. destruct (N' y Hi) as (i & f & E & _). exists i, f. exact E.
        - left. apply F'; [apply Hold; exact Hy|exact Hi]. }
      assert (NewO : ~ In new olds) by (intros K; apply Lo in K; pose proof (i_next _ _ I); unfold new in K; lia).
      assert (NewX : new <> x) by (pose proof (i_next _ _ I); unfold new; lia).
      split; [|split; [|split; [|split; [|split; [|split; [|split; [|split; [|split]]]]]]]].
      - constructor.
        + exact O'.
        + auto.
        + pose proof (i_next _ _ I3). lia.
        + rewrite D', P', S4 by exact Xo. apply (i_x _ _ I3).
        + intros y Y1 Y2 Y3. rewrite Fr by auto. apply (i_rest _ _ I3); assumption.
        + intros y Hy. rewrite <- (i_old _ _ I3 y Hy).
          assert (E4 : set_link None (hnode h4 y) = set_link None (hnode h3 y)).
          { destruct (lget L k) as [[z|]|] eqn:E; try (rewrite O4 by discriminate; reflexivity). destruct (Nat.eq_dec z y) as [->|Z]; [rewrite (K4 y eq_refl); reflexivity|rewrite O4 by congruence; reflexivity]. }
          destruct (Do y Hy) as [E|(i & f & E)]; rewrite E; [rewrite E4; reflexivity|].
          change (set_link None (set_prt (Some (PL x i f false)) (hnode h4 y))) with (set_prt (Some (PL x i f false)) (set_link None (hnode h4 y))). rewrite E4.
          pose proof (i_old _ _ I3 y Hy) as Q. apply (f_equal nprt) in Q. cbn in Q. destruct (Hold y Hy) as (_ & _ & Pr & Tu). cbn in Pr.
          destruct (nprt (hnode h0 y)) as [pl0|]; [|discriminate]. cbn in Pr, Q. injection Pr as Pr. specialize (Tu pl0 eq_refl).
          unfold strip. cbn [nprt set_prt set_link option_map pl_par pl_tuple]. rewrite Q. unfold set_prt, set_link. cbn. rewrite Pr, Tu. reflexivity.
        + intros l z r E pl Hp. destruct (tkid z) as (U & V & W); [rewrite E; apply in_elt|]. rewrite Fr in Hp by auto. revert Hp. apply (i_near _ _ I3 l z r E).
        + intros y Hy. rewrite X', X4. apply in_app_iff in Hy as [Hy|Hy]; [apply (i_lt _ _ I3); exact Hy|].
          apply Ri in Hy as [Hy|[-> _]]; [apply Lo in Hy; pose proof (i_next _ _ I3); lia|unfold new; lia].
        + intros y Hy. pose proof (i_next _ _ I3). rewrite Fr; [apply (i_free _ _ I3); lia|lia| |unfold new; lia]. intros K. apply Lo in K. lia.
        + intros y Y1 Y2 Y3 Y4. rewrite Fr by auto. apply (i_prt _ _ I3); assumption.
      - lia.
      - intros y Hy. rewrite Fr; [apply Old3; exact Hy| | |unfold new; lia]; [lia|]. intros K. apply Lo in K. lia.
      - assert (Fz : forall y, In y (flat_map flatten Ts') -> hnode h' y = hnode h3 y).
        { intros y Hy. pose proof (R1 y Hy). pose proof (i_next _ _ I). apply Fr; [lia| |unfold new in *; lia]. intros K. apply Lo in K. unfold new in *. lia. }
        destruct B3 as (A & B & D & Lb). cbn [root kids] in *.
        assert (En : data (hnode h' new) = data (hnode h3 new) /\ nitems (hnode h' new) = nitems (hnode h3 new) /\ nfams (hnode h' new) = nfams (hnode h3 new) /\ nbound (hnode h' new) = nbound (hnode h3 new)).
        { destruct (Dn new NewO NewX) as [E|(i & f & E)]; rewrite E; auto. }
        destruct En as (En1 & En2 & En3 & En4).
        split; [cbn [root]; rewrite En1; exact A|]. cbn [root kids]. split; [|split].
        + destruct B as (Bi & Bf). split; [congruence|]. destruct Bf as [(-> & Bf)|(Bb & d & Bd & Bo)]; [left; split; [reflexivity|unfold leaf_ok in *; rewrite En3, En4; exact Bf]|right]. rewrite En4, En3. split; [exact Bb|]. exists d. split; [exact Bd|].
          eapply fam_ok_ext; [|exact Bo]. intros y Hy. rewrite Fz; [reflexivity|]. apply in_map_iff in Hy as (U & <- & HU). apply in_flat_map. exists U. split; [exact HU|apply in_flatten_root].
        + rewrite Forall_forall in *. intros U HU. eapply built_frame; [|apply D, HU]. intros y Hy. apply Fz. apply in_flat_map. exists U. auto.
        + rewrite <- Lb. apply map_ext_in. intros U HU. apply tmap_ext. intros y Hy. apply label_data. rewrite Fz; [reflexivity|]. apply in_flat_map. exists U. auto.
      - intros y Hy. pose proof (R1 y Hy). lia.
      - exact N1.
      - assert (Yes : (~ exists z, lget L k = Some (LOld z)) -> parent_of h' new = Some x).
        { intros NE. assert (Hi : In new (map snd its)).
          { rewrite Es, map_app. apply in_app_iff. right. left. unfold rep. cbn [fst snd]. destruct (lget L k) as [[z|]|]; try reflexivity. exfalso. apply NE. eauto. }
          destruct (N' new Hi) as (i & f & E & _). unfold parent_of. cbn. rewrite E. reflexivity. }
        destruct (lget L k) as [[z|]|] eqn:E; [|apply Yes; intros (z & K); discriminate..].
        unfold parent_of. cbn. rewrite F', S4, P3; auto. intros Hi. apply Ri in Hi as [Hi|[_ Hi]]; [contradiction|]. apply Hi. eauto.
      - intros y E. destruct (Do y (Ko y E)) as [Q|(i & f & Q)]; rewrite Q; cbn; rewrite (K4 y E); reflexivity.
      - intros y Hy E. rewrite <- (Lk3 y Hy). destruct (Do y Hy) as [Q|(i & f & Q)]; rewrite Q; cbn; rewrite (O4 y E); reflexivity.
      - intros y Hy. cbn [flatten]. destruct (Nat.eq_dec y new) as [->|Yn]; [left; reflexivity|right]. apply CV1. unfold new in *. lia. }
    destruct (lget L k) as [e|] eqn:Eg.
    - assert (Ec : collect (fun k' => contains_target h3 t (TgVal (key_val k'))) k new [] L = its).
      { unfold its, step_items. rewrite Eg. clear -I3 Hxt Ht. assert (forall acc, collect (fun k' => contains_target h3 t (TgVal (key_val k'))) k new acc L = collect IT k new acc L); [|auto].
        induction L as [|(k', e') r IH]; intros acc; [reflexivity|]. cbn [collect]. rewrite (inv_contains h3 lst k' I3). fold (IT k'). destruct (key_eqb k' k), (IT k'), e'; auto. }
      rewrite Ec. assert (Esl : step_left IT L k new = fold_left (fun L p => ldel L (fst p)) its L) by (unfold step_left, its, step_items; rewrite Eg; reflexivity).
      rewrite Esl. destruct e as [y|].
      + rewrite bind_upd. destruct (End (hmod h3 y (set_link (Some (cover_link new))))) as (h' & E' & Rest).
        { reflexivity. } { intros z Z. apply hmod_other. congruence. } { intros z [= <-]. apply hmod_same. }
        exists h', Ts'. rewrite <- mapM_map in E'. rewrite (bind_ok _ _ _ _ _ E'). split; [reflexivity|exact Rest].
      + rewrite bind_ret. destruct (End h3) as (h' & E' & Rest); [reflexivity|reflexivity|discriminate|].
        exists h', Ts'. rewrite <- mapM_map in E'. rewrite (bind_ok _ _ _ _ _ E'). split; [reflexivity|exact Rest].
    - destruct (End h3) as (h' & E' & Rest); [reflexivity|reflexivity|discriminate|].
      exists h', Ts'. unfold step_left. rewrite Eg. split; [|exact Rest].
      assert (Ei : map snd its = [new]) by (unfold its, step_items; rewrite Eg; reflexivity). rewrite Ei in E'. cbn [mapM_] in E'.
      unfold bind in E' |- *. destruct (append_core x new h3) as [h5 [u|e5]]; [|discriminate]. cbn in E'. injection E' as <-. reflexivity.
  Qed.

  (** what the loop promises about the new item [C'] of the target item [C] with key [k] *)
  Definition item_done (h' : heap) (cl : list ((pyval * Z) * nat)) (L : list ((pyval * Z) * lent)) (p : (pyval * Z) * tree loc) (C' : tree loc) : Prop :=
    copy_of h0 h' (snd p) (find_coupled cl (fst p)) C' /\
      parent_of h' (root C') = (match lget L (fst p) with Some (LOld _) => None | _ => Some x end) /\
      (forall y, lget L (fst p) = Some (LOld y) -> nlink (hnode h' y) = Some (cover_link (root C'))).

  Lemma loop_heap conv cl : (forall c g, In c (map root Cs) -> is_link_root g c = false -> conv c g = to_linked c g) ->
    forall R D L tg h lst, Cs = D ++ R -> Inv h lst -> NoDup (map fst L) -> (forall p, In p (kept_of L) -> In (snd p) olds) ->
    (forall p q, In p (kept_of L) -> In q (kept_of L) -> snd p = snd q -> p = q) ->
    let ks := keys_from (tags h0) (map root D) (map root R) in
    exists h' Lf Rs' lst', load_items conv x t cl (map root R) (L, tg) h = (h', Ok (Lf, rev (map (tags h0) (map root R)) ++ tg)) /\
      Inv h' lst' /\ hnext h <= hnext h' /\
      lst' ++ map snd (kept_of Lf) = lst ++ merge IT L (combine ks (map root Rs')) /\
      (forall p, In p (kept_of Lf) -> In p (kept_of L)) /\
      (forall y, hnext h0 <= y < hnext h -> hnode h' y = hnode h y) /\
      Forall2 (item_done h' cl L) (combine ks R) Rs' /\
      (forall y, In y (flat_map flatten Rs') -> hnext h <= y < hnext h') /\ NoDup (flat_map flatten Rs') /\
      (forall y, In y olds -> (forall k, In k ks -> lget L k <> Some (LOld y)) -> nlink (hnode h' y) = nlink (hnode h y)) /\
      (forall y, hnext h <= y < hnext h' -> In y (flat_map flatten Rs')).
  Proof.
    intros Hconv. induction R as [|C R IH]; intros D L tg h lst ED I NL HK HU ks.
    - exists h, L, [], lst. cbn. split; [reflexivity|]. split; [exact I|]. split; [apply le_n|]. split; [reflexivity|]. split; [auto|]. split; [auto|]. split; [constructor|].
      split; [intros y []|]. split; [constructor|]. split; [auto|]. intros y Hy. lia.
    - assert (HC : In C Cs) by (rewrite ED; apply in_elt).
      assert (El : map root Cs = map root D ++ root C :: map root R) by (rewrite ED, map_app; reflexivity).
      destruct (step_heap conv cl L tg C (map root D) (map root R) h lst I HC El) as (h1 & Ts & E1 & I1 & X1 & O1 & C1 & R1 & N1 & P1 & V1 & W1 & CV1); auto.
      { intros g Hg. apply Hconv; [rewrite El; apply in_elt|exact Hg]. }
      set (s := ntag (hnode h0 (root C))) in *. set (k := (s, Z.of_nat (length (byt (tags h0) s (map root D))))) in *. set (new := hnext h) in *.
      set (L1 := step_left IT L k new) in *.
      destruct (step_ok IT L k new NL) as (a & Es & NL1 & Ha & _ & Hpart & Hout & Hget). fold L1 in NL1, Hpart, Hout, Hget.
      assert (Sub : forall p, In p (kept_of L1) -> In p (kept_of L)) by (intros p Hp; apply Hpart; auto).
      destruct (IH (D ++ [C]) L1 (s :: tg) h1 (lst ++ map snd (step_items IT L k new))) as (h' & Lf & Rs' & lst' & E' & I' & X' & M' & F' & O' & A' & B' & N' & W' & CV'); auto.
      { rewrite ED, <- app_assoc. reflexivity. }
      assert (Eks : ks = k :: keys_from (tags h0) (map root (D ++ [C])) (map root R)) by (unfold ks; rewrite map_app; reflexivity).
      set (ks' := keys_from (tags h0) (map root (D ++ [C])) (map root R)) in *.
      assert (NK : ~ In k ks') by (assert (Q : NoDup ks) by apply keys_from_NoDup; rewrite Eks in Q; inversion Q; assumption).
      assert (ITk : IT k = true) by (apply (IT_target _ _ _ El)).
      assert (ITs : forall k', In k' ks' -> IT k' = true).
      { intros k' Hk'. assert (Q : forall l2 l1, map root Cs = l1 ++ l2 -> In k' (keys_from (tags h0) l1 l2) -> IT k' = true).
        { clear -Htk HCs Hx Ht Hxt Hold. induction l2 as [|y l2 IH2]; intros l1 E Hk; [destruct Hk|]. cbn [keys_from] in Hk. destruct Hk as [<-|Hk]; [apply (IT_target _ _ _ E)|].
          apply (IH2 (l1 ++ [y])); [rewrite <- app_assoc; exact E|exact Hk]. }
        apply (Q (map root R) (map root (D ++ [C]))); [rewrite map_app, <- app_assoc; exact El|exact Hk']. }
      assert (Gk : forall k', In k' ks' -> lget L1 k' = lget L k') by (intros k' Hk'; apply (Hget ITk); [apply ITs; exact Hk'|intros ->; contradiction]).
      exists h', Lf, (Node new Ts :: Rs'), lst'.
      split; [cbn [load_items map]; rewrite (bind_ok _ _ _ _ _ E1), E'; cbn [map rev]; rewrite <- app_assoc; reflexivity|].
      split; [exact I'|]. split; [lia|]. split; [rewrite M', Eks; cbn [map root combine merge]; rewrite <- app_assoc; reflexivity|].
      split; [auto|]. split; [intros y Hy; rewrite O' by lia; apply O1; exact Hy|].
      assert (Fz : forall y, In y (flatten (Node new Ts)) -> hnode h' y = hnode h1 y).
      { intros y Hy. apply O'. pose proof (i_next _ _ I). cbn [flatten] in Hy. destruct Hy as [<-|Hy]; [unfold new; lia|]. pose proof (R1 y Hy). lia. }
      split; [rewrite Eks; cbn [combine]; constructor|].
      + unfold item_done. cbn [fst snd root]. split; [eapply copy_frame; [exact Fz|exact C1]|]. split; [rewrite <- P1; cbn; rewrite Fz by (left; reflexivity); reflexivity|].
        intros y Hy. assert (Kp : In (k, y) (kept_of L)) by (apply kept_in, lget_in; assumption).
        rewrite W'; [apply V1; exact Hy|apply (HK (k, y)); exact Kp|]. intros k' Hk' Q. rewrite (Gk k' Hk') in Q.
        assert (Kp' : In (k', y) (kept_of L)) by (apply kept_in, lget_in; assumption). specialize (HU _ _ Kp Kp' eq_refl). injection HU as <-. contradiction.
      + assert (Kin : forall p, In p (combine ks' R) -> In (fst p) ks') by (intros (u, v) Hp; eapply in_combine_l; exact Hp).
        revert A' Kin. generalize (combine ks' R). intros l A' Kin. clear -A' Kin Gk. induction A' as [|p C' l l' H A' IHA]; constructor.
        * destruct H as (U & V & W). rewrite (Gk (fst p)) in V by (apply Kin; left; reflexivity). split; [exact U|]. split; [exact V|]. intros y Hy. apply W. rewrite Gk by (apply Kin; left; reflexivity). exact Hy.
        * apply IHA. intros q Hq. apply Kin. right. exact Hq.
      + cbn [flat_map]. split; [|split; [|split]].
        * intros y Hy. apply in_app_iff in Hy as [Hy|Hy]; [|pose proof (B' y Hy); lia]. cbn [flatten] in Hy. destruct Hy as [<-|Hy]; [unfold new; lia|]. pose proof (R1 y Hy). lia.
        * apply NoDup_app; [|exact N'|].
          -- cbn [flatten]. constructor; [|exact N1]. intros Hy. pose proof (R1 _ Hy). unfold new in *. lia.
          -- intros y Hy Hy'. pose proof (B' y Hy'). cbn [flatten] in Hy. destruct Hy as [<-|Hy]; [unfold new in *; lia|]. pose proof (R1 y Hy). lia.
        * intros y Hy Q. rewrite W'; [apply W1; [exact Hy|]|exact Hy|].
          -- apply (Q k). rewrite Eks. left. reflexivity.
          -- intros k' Hk'. rewrite Gk by exact Hk'. apply Q. rewrite Eks. right. exact Hk'.
        * intros y Hy. apply in_app_iff. destruct (Nat.lt_ge_cases y (hnext h1)); [left; apply CV1; lia|right; apply CV'; lia].
  Qed.
End Run.
