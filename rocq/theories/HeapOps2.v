(** Binary search for the family position, insert, deletion of one item. *)
From Verif Require Import Base Heap HeapSpec ListLemmas ForestLemmas HeapInv HeapAttach HeapOps.
From Coq Require Import Sorting.Sorted.

(** * Binary search *)
Definition below (pos : loc -> nat) (i : Z) (l : list loc) : list loc :=
  filter (fun y => (Z.of_nat (pos y) <? i)%Z) l.

Lemma round_half_range s : 2 <= s -> 1 <= round_half s < s.
Proof.
  intros H. unfold round_half.
  pose proof (Nat.div2_odd s) as E. unfold Nat.odd in E.
  destruct (Nat.even s) eqn:Es; cbn in E.
  - lia.
  - assert (Nat.div2 s = 1 -> Nat.even (Nat.div2 s) = false) by (intros ->; reflexivity).
    destruct (Nat.even (Nat.div2 s)) eqn:E2; [|lia].
    destruct (Nat.eq_dec (Nat.div2 s) 0); lia.
Qed.

Definition sorted_pos (pos : loc -> nat) (l : list loc) : Prop :=
  StronglySorted (fun a b => pos a < pos b) l.

Lemma sorted_app pos l m : sorted_pos pos (l ++ m) ->
  sorted_pos pos l /\ sorted_pos pos m /\ (forall a b, In a l -> In b m -> pos a < pos b).
Proof.
  induction l as [|x l IH]; cbn; intros H.
  - repeat split; [constructor|assumption|intros a b []].
  - inversion H as [|? ? H1 H2]; subst. destruct (IH H1) as (A & B & C).
    repeat split; auto.
    + constructor; auto. apply Forall_forall. intros y Hy. rewrite Forall_forall in H2.
      apply H2. apply in_or_app. auto.
    + intros a b [->|Ha] Hb; auto. rewrite Forall_forall in H2. apply H2. apply in_or_app. auto.
Qed.

Lemma below_all pos i l : (forall y, In y l -> (Z.of_nat (pos y) < i)%Z) -> below pos i l = l.
Proof.
  intros H. unfold below. induction l as [|x l IH]; cbn; [reflexivity|].
  destruct (Z.ltb_spec (Z.of_nat (pos x)) i) as [|Hn].
  - f_equal. apply IH. intros y Hy. apply H. right. assumption.
  - specialize (H x (or_introl eq_refl)). lia.
Qed.
Lemma below_none pos i l : (forall y, In y l -> (i <= Z.of_nat (pos y))%Z) -> below pos i l = [].
Proof.
  intros H. apply filter_nil_iff. intros y Hy. apply Z.ltb_ge. auto.
Qed.

Lemma fam_ins_idx_ok (I : heap -> Prop) pos i : forall fuel fam last h,
  (forall h, I h -> forall y, In y fam ->
     exists h', get_idx y h = (h', Ok (Some (Z.of_nat (pos y)))) /\ ceq h h' /\ I h') ->
  sorted_pos pos fam -> fam <> [] -> length fam <= fuel -> I h ->
  exists h', fam_ins_idx fuel fam i last h = (h', Ok (last + length (below pos i fam))) /\
    ceq h h' /\ I h'.
Proof.
  induction fuel as [|fuel IH]; intros fam last h Hg Hs Hne Hf HI.
  - destruct fam; cbn in Hf; [congruence|lia].
  - cbn [fam_ins_idx]. destruct (Nat.eqb_spec (length fam) 1) as [E1|E1].
    + destruct fam as [|y [|]]; cbn in E1; try lia.
      destruct (Hg h HI y (or_introl eq_refl)) as (h' & E & Q & HI').
      exists h'. rewrite (bind_ok _ _ _ _ _ E). split; [|split; assumption].
      cbn. destruct (Z.ltb_spec (Z.of_nat (pos y)) i); cbn; unfold ret; repeat f_equal; lia.
    + assert (H2 : 2 <= length fam) by (destruct fam as [|? [|]]; cbn in *; try congruence; lia).
      pose proof (round_half_range _ H2) as Hm. set (m := round_half (length fam)) in *.
      destruct (nth_error fam m) as [y|] eqn:Ey; [|apply nth_error_None in Ey; lia].
      assert (Hy : In y fam) by (eapply nth_error_In; eauto).
      destruct (Hg h HI y Hy) as (h' & E & Q & HI').
      rewrite (bind_ok _ _ _ _ _ E). cbn beta iota.
      pose proof (firstn_skipn m fam) as Esp.
      assert (Esk : exists r, skipn m fam = y :: r).
      { apply nth_error_split' in Ey as (l1 & l2 & E0 & El). rewrite E0, <- El.
        rewrite skipn_app, Nat.sub_diag, skipn_all. cbn. eauto. }
      destruct Esk as (r & Esk).
      assert (Hs' := Hs). rewrite <- Esp in Hs'. apply sorted_app in Hs' as (Sa & Sb & Sab).
      destruct (Z.ltb_spec (Z.of_nat (pos y)) i) as [Hlt|Hge].
      * destruct (IH (skipn m fam) (last + m) h') as (h2 & E2 & Q2 & I2); auto.
        -- intros h0 HI0 z Hz. apply Hg; auto. rewrite <- Esp. apply in_or_app. auto.
        -- rewrite Esk. discriminate.
        -- rewrite skipn_length. lia.
        -- exists h2. rewrite E2. split; [|split; [eapply ceq_trans; eauto|assumption]].
           do 2 f_equal. rewrite <- Esp at 2. unfold below. rewrite filter_app, app_length.
           assert (Ef : below pos i (firstn m fam) = firstn m fam).
           { apply below_all. intros z Hz. specialize (Sab z y Hz).
             rewrite Esk in Sab. specialize (Sab (or_introl eq_refl)). lia. }
           unfold below in Ef. rewrite Ef, firstn_length. lia.
      * destruct (IH (firstn m fam) last h') as (h2 & E2 & Q2 & I2); auto.
        -- intros h0 HI0 z Hz. apply Hg; auto. rewrite <- Esp. apply in_or_app. auto.
        -- intros E0. apply (f_equal (@length _)) in E0. rewrite firstn_length in E0. cbn in E0. lia.
        -- rewrite firstn_length. lia.
        -- exists h2. rewrite E2. split; [|split; [eapply ceq_trans; eauto|assumption]].
           do 2 f_equal. rewrite <- Esp at 2. unfold below. rewrite filter_app, app_length.
           assert (Ef : below pos i (skipn m fam) = []).
           { apply below_none. intros z Hz. rewrite Esk in Hz, Sb. inversion Sb as [|? ? _ Hall]; subst.
             destruct Hz as [->|Hz]; [lia|]. rewrite Forall_forall in Hall. specialize (Hall z Hz). lia. }
           unfold below in Ef. rewrite Ef. cbn. lia.
Qed.

(** * Positions *)
Definition posn (l : list loc) (y : loc) : nat := match pos_of y l with Some k => k | None => 0 end.

Lemma posn_nth l k y : NoDup l -> nth_error l k = Some y -> posn l y = k.
Proof. intros Hd Hk. unfold posn. rewrite (pos_of_NoDup _ _ _ Hd Hk). reflexivity. Qed.
Lemma posn_in l y : In y l -> nth_error l (posn l y) = Some y.
Proof.
  intros H. unfold posn. destruct (pos_of_In _ _ H) as [k E]. rewrite E. apply pos_of_nth. assumption.
Qed.

Lemma sorted_posn_seg l m : forall r, l = m ++ r -> NoDup l -> sorted_pos (posn l) r.
Proof.
  intros r. revert m. induction r as [|x r IH]; intros m E Hd; [constructor|].
  constructor.
  - apply (IH (m ++ [x])); [|assumption]. rewrite <- app_assoc. assumption.
  - apply Forall_forall. intros y Hy. apply In_nth_error in Hy as [j Hj].
    rewrite (posn_nth l (length m) x Hd), (posn_nth l (length m + S j) y Hd); [lia| |].
    + rewrite E. rewrite nth_error_app2 by lia. replace (length m + S j - length m) with (S j) by lia. assumption.
    + rewrite E. apply nth_error_mid.
Qed.
Lemma sorted_posn l : NoDup l -> sorted_pos (posn l) l.
Proof. apply (sorted_posn_seg l [] l eq_refl). Qed.
Lemma sorted_filter pos (f : loc -> bool) l : sorted_pos pos l -> sorted_pos pos (filter f l).
Proof.
  induction l as [|x l IH]; cbn; intros H; [constructor|]. inversion H as [|? ? H1 H2]; subst.
  destruct (f x); [|apply IH; assumption]. constructor; [apply IH; assumption|].
  apply Forall_forall. intros y Hy. apply filter_In in Hy as [Hy _].
  rewrite Forall_forall in H2. auto.
Qed.

(** members of the prefix are exactly those with a smaller position *)
Lemma below_prefix l (f : loc -> bool) k : NoDup l ->
  below (posn l) (Z.of_nat k) (filter f l) = filter f (firstn k l).
Proof.
  intros Hd. rewrite <- (firstn_skipn k l) at 2. unfold below. rewrite filter_app, filter_app.
  assert (E1 : below (posn l) (Z.of_nat k) (filter f (firstn k l)) = filter f (firstn k l)).
  { apply below_all. intros y Hy. apply filter_In in Hy as [Hy _].
    apply In_nth_error in Hy as [j Hj]. pose proof (nth_error_lt _ _ _ Hj) as Hl.
    rewrite firstn_length in Hl. rewrite (posn_nth l j y Hd); [lia|].
    rewrite <- (firstn_skipn k l). rewrite nth_error_app1; [assumption|]. rewrite firstn_length. lia. }
  assert (E2 : below (posn l) (Z.of_nat k) (filter f (skipn k l)) = []).
  { apply below_none. intros y Hy. apply filter_In in Hy as [Hy _].
    apply In_nth_error in Hy as [j Hj]. pose proof (nth_error_lt _ _ _ Hj) as Hl.
    rewrite skipn_length in Hl. rewrite (posn_nth l (k + j) y Hd); [lia|].
    rewrite <- (firstn_skipn k l). rewrite nth_error_app2; [|rewrite firstn_length; lia].
    rewrite firstn_length. replace (k + j - Nat.min k (length l)) with j by lia. assumption. }
  unfold below in E1, E2. rewrite E1, E2, app_nil_r. reflexivity.
Qed.

Lemma filter_insert_other (f : loc -> bool) k x l : f x = false -> filter f (insert_at k x l) = filter f l.
Proof. intros H. rewrite filter_insert_at, H. reflexivity. Qed.

Lemma nth_error_insert_lt {A} j k (x : A) l : j < k -> k <= length l ->
  nth_error (insert_at k x l) j = nth_error l j.
Proof.
  intros H1 H2. unfold insert_at. rewrite nth_error_app1 by (rewrite firstn_length; lia).
  rewrite <- (firstn_skipn k l) at 2. rewrite nth_error_app1; [reflexivity|]. rewrite firstn_length; lia.
Qed.
Lemma nth_error_insert_ge {A} j k (x : A) l : k <= j -> k <= length l ->
  nth_error (insert_at k x l) (S j) = nth_error l j.
Proof.
  intros H1 H2. unfold insert_at. rewrite nth_error_app2 by (rewrite firstn_length; lia).
  rewrite firstn_length. replace (S j - Nat.min k (length l)) with (S (j - k)) by lia. cbn.
  rewrite <- (firstn_skipn k l) at 2. rewrite nth_error_app2; [|rewrite firstn_length; lia].
  rewrite firstn_length. f_equal. lia.
Qed.
Lemma posn_insert k x l y : NoDup l -> ~ In x l -> k <= length l -> In y l ->
  posn (insert_at k x l) y = if posn l y <? k then posn l y else S (posn l y).
Proof.
  intros Hd Hx Hk Hy. pose proof (posn_in _ _ Hy) as Hn.
  pose proof (NoDup_insert_at k x l Hd Hx) as Hd'.
  destruct (Nat.ltb_spec (posn l y) k).
  - apply posn_nth; [assumption|]. rewrite nth_error_insert_lt by lia. assumption.
  - apply posn_nth; [assumption|]. rewrite nth_error_insert_ge by lia. assumption.
Qed.

(** * insert_core *)
Lemma drift_mono h l m m' : (m <= m')%Z -> drift_ok h l m -> drift_ok h l m'.
Proof. intros H D k y pl Hk Hp. specialize (D k y pl Hk Hp). lia. Qed.

Section Ins.
  Context (h : heap) (W : WF h) (p x : loc) (A : attachable h p x).
  Let Hne : x <> p := attachable_ne _ _ _ A.
  Let t := ntag (hnode h x).
  Let tg := fun y => ntag (hnode h y).
  Let items := nitems (hnode h p).

  Lemma att_notin : ~ In x items.
  Proof.
    intros Hin. destruct (WF_child_prt h p x W Hin) as (pl & E & _).
    pose proof (proj1 A). congruence.
  Qed.

  Lemma insert_core_ok abs : items <> [] -> (0 <= abs)%Z ->
    (byt tg t items <> [] -> abs <> 0%Z -> drift_ok h items 19) ->
    exists h', insert_core p x abs h = (h', Ok tt) /\
      ceq (mk_attach h p x (Nat.min (Z.to_nat abs) (length items))) h'.
  Proof.
    intros Hi Habs Hdr. unfold insert_core. destruct (Z.eqb_spec abs 0) as [->|Hnz].
    - cbn [Z.to_nat Nat.min]. apply append_left_core_ok; assumption.
    - rewrite bind_gets. fold items t. rewrite bind_upd.
      assert (Epos : py_insert_pos (length items) abs = Nat.min (Z.to_nat abs) (length items)).
      { unfold py_insert_pos. destruct (Z.ltb_spec abs 0); lia. }
      unfold py_insert. rewrite Epos. set (k := Nat.min (Z.to_nat abs) (length items)).
      assert (Hk : k <= length items) by (subst k; lia).
      set (h1 := hmod h p _).
      destruct (WF_fam h p t W) as (d & Ed & Eb & Hok & _); [assumption|].
      assert (Eb1 : nbound (hnode h1 p) = Current) by (subst h1; hnodes; assumption).
      assert (Ed1 : nfams (hnode h1 p) = Some d) by (subst h1; hnodes; assumption).
      rewrite (bind_ok _ _ _ _ _ (get_fam_cur h1 p t d Eb1 Ed1)).
      pose proof (base_fams_cur h p d W Eb Ed) as Hbf.
      destruct (dget d t) as [f|] eqn:Ef.
      + assert (Ff : byt tg t items = f /\ f <> []).
        { rewrite (fam_ok_get _ _ _ _ Hok) in Ef. apply nonempty_Some in Ef. exact Ef. }
        destruct Ff as [Ff Hfne]. rewrite Ff in Hdr. specialize (Hdr Hfne Hnz).
        pose proof (WF_nodup h p W) as Hnd. fold items in Hnd.
        set (items' := insert_at k x items).
        assert (Hit : nitems (hnode h1 p) = items') by (subst h1; hnodes; reflexivity).
        assert (Hnd' : NoDup items') by (apply NoDup_insert_at; [assumption|apply att_notin]).
        (* the invariant of the search: caches within 20, parents unchanged *)
        set (I := fun g : heap => ceq h1 g /\ drift_ok g items' 20 /\ caches_ok g).
        assert (C1 : caches_ok h1).
        { intros y pl. subst h1. destruct (Nat.eq_dec y p) as [->|Hy]; hnodes; cbn; apply (wf_caches _ W). }
        assert (HI1 : I h1).
        { split; [apply ceq_refl|]. split; [|assumption].
          intros j y pl Hj Hp.
          assert (Hp' : nprt (hnode h y) = Some pl).
          { rewrite <- Hp. subst h1. destruct (Nat.eq_dec y p) as [->|Hy]; hnodes; reflexivity. }
          assert (Hyx : y <> x) by (intros ->; pose proof (proj1 A); congruence).
          destruct (Nat.lt_trichotomy j k) as [Hlt|[->|Hgt]].
          - unfold items' in Hj. rewrite nth_error_insert_lt in Hj by lia.
            specialize (Hdr j y pl Hj Hp'). lia.
          - unfold items' in Hj. rewrite nth_error_insert in Hj by lia. congruence.
          - destruct j as [|j]; [lia|]. unfold items' in Hj. rewrite nth_error_insert_ge in Hj by lia.
            specialize (Hdr j y pl Hj Hp'). lia. }
        assert (Hg : forall g, I g -> forall y, In y f ->
            exists g', get_idx y g = (g', Ok (Some (Z.of_nat (posn items' y)))) /\ ceq g g' /\ I g').
        { intros g (Qg & Dg & Cg) y Hy.
          assert (Hyi : In y items).
          { rewrite <- Ff in Hy. apply filter_In in Hy. apply Hy. }
          assert (Hyi' : In y items') by (apply In_insert_at; auto).
          assert (Hitg : nitems (hnode g p) = items') by (rewrite (ceq_items _ _ Qg); assumption).
          destruct (get_idx_gen g p y (posn items' y)) as (g' & E & Q & Wr).
          - rewrite Hitg. apply posn_in. assumption.
          - rewrite Hitg. assumption.
          - unfold parent_of. rewrite (ceq_view _ _ Qg).
            destruct (WF_child_prt h p y W Hyi) as (pl & Epl & Epp).
            assert (Hyp : y <> p).
            { eapply Forest_child_ne; [apply (wf_forest _ W)|]. exact Hyi. }
            assert (En : hnode h1 y = hnode h y) by (subst h1; hnodes; reflexivity).
            unfold view. rewrite En. cbn. rewrite Epl. cbn. congruence.
          - assumption.
          - right. rewrite Hitg. assumption.
          - exists g'. split; [assumption|]. split; [assumption|]. split; [eapply ceq_trans; eauto|].
            split; [|apply Q; assumption]. rewrite Hitg in Wr. eapply writes_drift; eauto. lia. }
        assert (Hsort : sorted_pos (posn items') f).
        { assert (Es : sorted_pos (posn items') (filter (fun y => negb (Nat.eqb y x)) items')).
          { apply sorted_filter. apply sorted_posn. assumption. }
          assert (Ex : filter (fun y => negb (Nat.eqb y x)) items' = items).
          { unfold items'. rewrite filter_insert_at, Nat.eqb_refl. cbn [negb].
            rewrite <- (below_all (fun _ => 0) 1 items) at 2; [|intros; lia].
            apply filter_ext_in. intros y Hy. cbn.
            destruct (Nat.eqb_spec y x) as [->|]; [exfalso; apply att_notin; assumption|reflexivity]. }
          rewrite Ex in Es. rewrite <- Ff. apply sorted_filter. assumption. }
        unfold family_insertion_idx.
        destruct (fam_ins_idx_ok I (posn items') abs (S (length f)) f 0 h1 Hg Hsort Hfne)
          as (h2 & E2 & Q2 & _); [lia|assumption|].
        rewrite (bind_ok _ _ _ _ _ E2). cbn [Nat.add].
        assert (Ecnt : length (below (posn items') abs f) = length (byt tg t (firstn k items))).
        { f_equal. transitivity (below (posn items) (Z.of_nat k) f).
          - unfold below. apply filter_ext_in. intros y Hy.
            assert (Hyi : In y items).
            { rewrite <- Ff in Hy. apply filter_In in Hy. apply Hy. }
            unfold items'. rewrite posn_insert by (auto using att_notin).
            pose proof (posn_in _ _ Hyi) as Hn. apply nth_error_lt in Hn.
            destruct (Nat.ltb_spec (posn items y) k) as [Hl|Hl].
            + transitivity true; [apply Z.ltb_lt|symmetry; apply Z.ltb_lt]; lia.
            + transitivity false; [apply Z.ltb_ge|symmetry; apply Z.ltb_ge]; subst k; lia.
          - rewrite <- Ff. unfold byt. apply below_prefix. assumption. }
        assert (Eb2 : nbound (hnode h2 p) = Current) by (rewrite (ceq_bound _ _ Q2); assumption).
        assert (Ed2 : nfams (hnode h2 p) = Some d) by (rewrite (ceq_fams _ _ Q2); assumption).
        rewrite (bind_ok _ _ _ _ _ (put_fam_cur h2 p t d _ Eb2 Ed2)).
        eexists; split; [reflexivity|].
        (* h3: h with the caches of h2 *)
        set (h3 := hmod h2 p (set_items items)).
        assert (Q3 : ceq h h3).
        { split; [cbn; rewrite (ceq_next _ _ Q2); reflexivity|]. split.
          - intros y. subst h3. pose proof (ceq_strip _ _ y Q2) as S.
            destruct (Nat.eq_dec y p) as [->|Hy].
            + rewrite hmod_same, strip_items, <- S. subst h1. hnodes.
              fold items. destruct (hnode h p) eqn:En. unfold items. rewrite ?En. reflexivity.
            + hnodes. rewrite <- S. subst h1. hnodes. reflexivity.
          - intros _ y pl. assert (C2 : caches_ok h2) by (apply Q2; assumption).
            subst h3. destruct (Nat.eq_dec y p) as [->|Hy]; hnodes; cbn; apply C2. }
        eapply attach_intro with (h1 := h3); cycle 4.
        * hnodes. subst h3. hnodes. rewrite set_items_fams, set_items_items. fold items.
          rewrite (att_dict_some h p x d f k _ Hbf Ef eq_refl). fold tg t items. rewrite <- Ecnt.
          pose proof (ceq_items _ _ Q2 p) as E3. rewrite Hit in E3. fold items'.
          destruct (hnode h2 p) eqn:En2. cbn in *. rewrite E3. reflexivity.
        * hnodes. subst h3. hnodes. reflexivity.
        * assumption.
        * lia.
        * intros y H1 H2. subst h3. hnodes. reflexivity.
        * apply (wf_caches _ W).
        * assumption.
        * assumption.
        * cbn. rewrite (ceq_next _ _ Q2). reflexivity.
      + rewrite (bind_ok _ _ _ _ _ (put_fam_cur h1 p t d _ Eb1 Ed1)).
        eexists; split; [reflexivity|].
        eapply attach_intro with (h1 := h); cycle 4.
        * hnodes. subst h1. hnodes. rewrite set_items_fams.
          fold items. rewrite (att_dict_none h p x d _ Hbf Ef). reflexivity.
        * hnodes. subst h1. hnodes. reflexivity.
        * assumption.
        * lia.
        * intros y H1 H2. subst h1. hnodes. reflexivity.
        * apply (wf_caches _ W).
        * assumption.
        * apply ceq_refl.
        * reflexivity.
  Qed.
End Ins.
