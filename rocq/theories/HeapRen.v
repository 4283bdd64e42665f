(** rename. *)
From Verif Require Import Base Heap HeapSpec ListLemmas ForestLemmas HeapInv HeapAttach
  HeapOps HeapOps2 HeapOps3 HeapHoare HeapMut.

(** [x] gets the tag [t]; nothing else changes. *)
Definition retag (s : astate) (x : loc) (t : pyval) : astate := fun y =>
  if Nat.eqb y x then a_set_tag t (s x) else s y.

Lemma det_dict_ok h p x k : WF h -> nth_error (nitems (hnode h p)) k = Some x ->
  fam_ok (fun y => ntag (hnode h y)) (det_dict h p x k) (remove_at k (nitems (hnode h p))).
Proof.
  intros W Hk. pose proof (WF_base_fam h p W) as Hb. unfold det_dict.
  set (tg := fun y => ntag (hnode h y)) in *. fold (tg x).
  rewrite (fam_list_ok tg _ _ _ Hb).
  assert (Ho : forall u, u <> tg x ->
            byt tg u (remove_at k (nitems (hnode h p))) = byt tg u (nitems (hnode h p))).
  { intros u Hu. rewrite (byt_remove _ _ _ _ _ Hk).
    destruct (pyval_eqb (tg x) u) eqn:Eu; [|reflexivity]. apply pyval_eqb_eq in Eu. congruence. }
  assert (Ht : byt tg (tg x) (remove_at k (nitems (hnode h p))) =
               remove_at (length (byt tg (tg x) (firstn k (nitems (hnode h p)))))
                         (byt tg (tg x) (nitems (hnode h p)))).
  { rewrite (byt_remove _ _ _ _ _ Hk), pyval_eqb_refl. reflexivity. }
  pose proof (byt_nth tg k x _ Hk) as Hn.
  apply nth_error_split' in Hn as (f1 & f2 & Ef & El).
  rewrite Ef in *. rewrite <- El in *. rewrite remove_at_split in *.
  destruct (Nat.eqb_spec (length (f1 ++ x :: f2)) 1) as [E1|E1].
  - eapply fam_ok_del; [exact Hb| |exact Ho]. rewrite Ht.
    rewrite app_length in E1. cbn in E1. destruct f1, f2; cbn in E1; try lia. reflexivity.
  - eapply fam_ok_put; [exact Hb| |exact Ht|exact Ho].
    intros E2. apply E1. rewrite app_length. apply (f_equal (@length _)) in E2.
    rewrite app_length in E2. cbn in *. lia.
Qed.

Lemma filter_remove_at k x l (f : loc -> bool) : NoDup l -> nth_error l k = Some x ->
  filter f (remove_at k l) = filter (fun y => f y && negb (Nat.eqb y x)) l.
Proof.
  intros Hnd Hk. apply nth_error_split' in Hk as (l1 & l2 & -> & <-). rewrite remove_at_split.
  apply NoDup_remove_at in Hnd as [_ Hni]. rewrite !filter_app. cbn [filter]. rewrite Nat.eqb_refl. cbn [negb]. rewrite andb_false_r.
  f_equal; apply filter_ext_in; intros y Hy; (destruct (Nat.eqb_spec y x) as [->|]; [exfalso; apply Hni; apply in_or_app; auto|cbn [negb]; rewrite andb_true_r; reflexivity]).
Qed.

(** dictionary after rename *)
Definition ren_dict (h : heap) (p x : loc) (k : nat) (t : pyval) : fdict :=
  let d := det_dict h p x k in
  dset d t (insert_at (length (byt (fun y => ntag (hnode h y)) t (firstn k (nitems (hnode h p)))))
                      x (fam_list d t)).
Definition mk_rename (h : heap) (p x : loc) (k : nat) (t : pyval) : heap :=
  hmod (hmod h p (set_fams (Some (ren_dict h p x k t)) Current)) x (set_tag t).

Lemma mk_rename_view h p x k t : x <> p -> same (view (mk_rename h p x k t)) (retag (view h) x t).
Proof.
  intros Hne y. unfold mk_rename, view, retag. cbn. destruct (Nat.eqb_spec y x) as [->|].
  - destruct (Nat.eqb_spec x p); [congruence|]. reflexivity.
  - destruct (Nat.eqb_spec y p) as [->|]; reflexivity.
Qed.
Lemma remove_insert_same {A} k (x : A) l : nth_error l k = Some x -> insert_at k x (remove_at k l) = l.
Proof.
  intros H. apply nth_error_split' in H as (l1 & l2 & -> & <-). rewrite remove_at_split. apply insert_at_split.
Qed.
Lemma firstn_remove_at {A} k (l : list A) : firstn k (remove_at k l) = firstn k l.
Proof.
  unfold remove_at. destruct (Nat.le_gt_cases k (length l)) as [H|H].
  - rewrite firstn_app, firstn_length, Nat.min_l by assumption. rewrite Nat.sub_diag. cbn. rewrite app_nil_r, firstn_firstn, Nat.min_id. reflexivity.
  - rewrite (firstn_all2 l) by lia. rewrite skipn_all2 by lia. rewrite app_nil_r. apply firstn_all2. lia.
Qed.
Lemma remove_at_notin {A} k (x : A) l : NoDup l -> nth_error l k = Some x -> ~ In x (remove_at k l).
Proof.
  intros Hnd H. apply nth_error_split' in H as (l1 & l2 & -> & <-). rewrite remove_at_split. apply (NoDup_remove_at l1 l2 x Hnd).
Qed.
Lemma retag_Forest n s x t : Forest n s -> Forest n (retag s x t).
Proof.
  intros F. eapply Forest_ext; [|exact F]. intros y. unfold retag. destruct (Nat.eqb_spec y x) as [->|]; split; reflexivity.
Qed.
Lemma ren_dict_ok h p x k t : WF h -> nth_error (nitems (hnode h p)) k = Some x ->
  fam_ok (fun y => if Nat.eqb y x then t else ntag (hnode h y)) (ren_dict h p x k t) (nitems (hnode h p)).
Proof.
  intros W Hk. pose proof (det_dict_ok h p x k W Hk) as Hd. pose proof (WF_nodup h p W) as Hnd.
  pose proof (remove_at_notin _ _ _ Hnd Hk) as Hni.
  set (tg := fun y => ntag (hnode h y)) in *. set (tg' := fun y => if Nat.eqb y x then t else tg y).
  assert (Hag : forall y, In y (remove_at k (nitems (hnode h p))) -> tg y = tg' y).
  { intros y Hy. unfold tg'. destruct (Nat.eqb_spec y x) as [->|]; [contradiction|reflexivity]. }
  pose proof (fam_ok_ext _ tg' _ _ Hag Hd) as Hd'.
  unfold ren_dict. rewrite (fam_list_ok tg' _ _ t Hd').
  pose proof (byt_insert tg' t k x (remove_at k (nitems (hnode h p)))) as B.
  assert (Ex : tg' x = t) by (unfold tg'; rewrite Nat.eqb_refl; reflexivity).
  rewrite (remove_insert_same _ _ _ Hk), Ex, pyval_eqb_refl, firstn_remove_at in B.
  match goal with |- fam_ok _ ?d ?l => change (fam_ok tg' d l) end.
  eapply fam_ok_put; [exact Hd'| | |].
  - intros E. apply (f_equal (@length _)) in E. rewrite insert_at_length in E. discriminate.
  - rewrite B. f_equal. f_equal. apply filter_ext_in. intros y Hy. unfold tg'. destruct (Nat.eqb_spec y x) as [->|]; [|reflexivity].
    exfalso. apply Hni. rewrite <- (firstn_remove_at k) in Hy. rewrite <- (firstn_skipn k (remove_at k _)). apply in_or_app. left. assumption.
  - intros u Hu. pose proof (byt_insert tg' u k x (remove_at k (nitems (hnode h p)))) as B'.
    rewrite (remove_insert_same _ _ _ Hk), Ex in B'. rewrite B'. destruct (pyval_eqb t u) eqn:Eu; [|reflexivity].
    apply pyval_eqb_eq in Eu. congruence.
Qed.
Lemma mk_rename_WF h p x k t : WF h -> nth_error (nitems (hnode h p)) k = Some x -> WF (mk_rename h p x k t).
Proof.
  intros W Hk. pose proof (WF_child_ne _ _ _ _ W Hk) as Hne.
  assert (Hnode : forall y, nprt (hnode (mk_rename h p x k t) y) = nprt (hnode h y) /\
     nitems (hnode (mk_rename h p x k t) y) = nitems (hnode h y) /\ nlink (hnode (mk_rename h p x k t) y) = nlink (hnode h y) /\
     ntag (hnode (mk_rename h p x k t) y) = (if Nat.eqb y x then t else ntag (hnode h y))).
  { intros y. unfold mk_rename. cbn. destruct (Nat.eqb_spec y x) as [->|]; [destruct (Nat.eqb_spec x p) as [->|]|destruct (Nat.eqb_spec y p) as [->|]]; auto. }
  split.
  - eapply Forest_ext; [|apply (retag_Forest _ _ x t (wf_forest _ W))]. intros y. rewrite (mk_rename_view h p x k t Hne y). auto.
  - intros y pl. destruct (Hnode y) as (-> & _). apply (wf_caches _ W).
  - intros q. pose proof (wf_fams _ W q) as G. unfold node_fam_ok in *. destruct (Hnode q) as (_ & -> & _ & _).
    destruct (Nat.eq_dec q p) as [->|Hq].
    + assert (Eb : nbound (hnode (mk_rename h p x k t) p) = Current /\ nfams (hnode (mk_rename h p x k t) p) = Some (ren_dict h p x k t)).
      { unfold mk_rename. cbn. destruct (Nat.eqb_spec p x); [congruence|]. rewrite Nat.eqb_refl. split; reflexivity. }
      destruct Eb as [-> ->]. eexists. split; [reflexivity|].
      eapply fam_ok_ext; [|apply ren_dict_ok; assumption]. intros y _. symmetry. apply Hnode.
    + assert (Eb : nbound (hnode (mk_rename h p x k t) q) = nbound (hnode h q) /\ nfams (hnode (mk_rename h p x k t) q) = nfams (hnode h q)).
      { unfold mk_rename. cbn. destruct (Nat.eqb_spec q x) as [->|]; [destruct (Nat.eqb_spec x p)|destruct (Nat.eqb_spec q p)]; try congruence; split; reflexivity. }
      destruct Eb as [-> ->]. destruct (nbound (hnode h q)); auto. destruct G as (d & Ed & Hd). exists d. split; [assumption|].
      eapply fam_ok_ext; [|exact Hd]. intros y Hy. destruct (Hnode y) as (_ & _ & _ & ->).
      destruct (Nat.eqb_spec y x) as [->|]; [|reflexivity]. exfalso.
      pose proof (fo_child _ _ (wf_forest _ W) q x Hy) as P1.
      pose proof (fo_child _ _ (wf_forest _ W) p x (nth_error_In _ _ Hk)) as P2. congruence.
  - intros y lk. destruct (Hnode y) as (_ & _ & -> & _). apply (wf_cover _ W).
Qed.

(** the first member of the family that equals x is x itself *)
Definition first_equal (h : heap) (p x : loc) : Prop :=
  forall l1 l2 y, with_tag (view h) p (tag_of h x) = l1 ++ x :: l2 -> In y l1 -> item_eqb h x y = false.

Lemma index_from_first eq l1 l2 x : forall i, (forall y, In y l1 -> eq y = false) -> eq x = true ->
  index_from eq (l1 ++ x :: l2) i 0 = Some (i + length l1).
Proof.
  induction l1 as [|y l1 IH]; intros i H Hx; cbn.
  - rewrite Hx. f_equal. lia.
  - rewrite (H y) by (left; reflexivity). cbn. rewrite IH; [f_equal; lia| |assumption]. intros z Hz. apply H. right. assumption.
Qed.

Lemma check_rename_pure p x t h : fst (check_rename p x t h) = h.
Proof.
  unfold check_rename. rewrite bind_gets. destruct (tree_protected h p); [|reflexivity].
  destruct (is_link_root h p); [|reflexivity]. destruct (nlink (hnode h p)) as [k|]; [|reflexivity].
  destruct (lk_loaded k); [|reflexivity]. destruct (tag_in t (lk_tags k)); [reflexivity|].
  destruct (has _ _); reflexivity.
Qed.
Lemma rename_root h x t : parent_of h x = None -> rename x t h = (hmod h x (set_tag t), Ok None).
Proof. intros H. apply prt_none in H. unfold rename. rewrite bind_gets, H. reflexivity. Qed.
Lemma rename_root_WF h x t : WF h -> parent_of h x = None -> WF (hmod h x (set_tag t)).
Proof.
  intros W Hx.
  assert (V : same (view (hmod h x (set_tag t))) (retag (view h) x t)).
  { intros y. unfold view, retag. cbn. destruct (Nat.eqb_spec y x) as [->|]; reflexivity. }
  assert (Hnode : forall y, nprt (hnode (hmod h x (set_tag t)) y) = nprt (hnode h y) /\
     nitems (hnode (hmod h x (set_tag t)) y) = nitems (hnode h y) /\ nlink (hnode (hmod h x (set_tag t)) y) = nlink (hnode h y) /\
     nbound (hnode (hmod h x (set_tag t)) y) = nbound (hnode h y) /\ nfams (hnode (hmod h x (set_tag t)) y) = nfams (hnode h y)).
  { intros y. cbn. destruct (Nat.eqb_spec y x) as [->|]; repeat split; reflexivity. }
  split.
  - eapply Forest_ext; [|apply (retag_Forest _ _ x t (wf_forest _ W))]. intros y. rewrite (V y). auto.
  - intros y pl. destruct (Hnode y) as (-> & _). apply (wf_caches _ W).
  - intros q. pose proof (wf_fams _ W q) as G. unfold node_fam_ok in *. destruct (Hnode q) as (_ & -> & _ & -> & ->).
    destruct (nbound (hnode h q)); auto. destruct G as (d & Ed & Hd). exists d. split; [assumption|].
    eapply fam_ok_ext; [|exact Hd]. intros y Hy. cbn. destruct (Nat.eqb_spec y x) as [->|]; [|reflexivity].
    exfalso. pose proof (fo_child _ _ (wf_forest _ W) q x Hy) as P1. unfold parent_of in Hx. congruence.
  - intros y lk. destruct (Hnode y) as (_ & _ & -> & _). apply (wf_cover _ W).
Qed.

Lemma rename_ok h p x k t : WF h -> hashable t = true -> nth_error (children h p) k = Some x -> first_equal h p x ->
  outcome (check_rename p x t) h = Ok tt ->
  exists h', rename x t h = (h', Ok (Some x)) /\ ceq (mk_rename h p x k t) h'.
Proof.
  intros W Hash Hk Hfe Hc. change (children h p) with (nitems (hnode h p)) in Hk.
  pose proof (WF_child_ne _ _ _ _ W Hk) as Hne. pose proof (WF_nodup h p W) as Hnd.
  assert (Hin : In x (nitems (hnode h p))) by (eapply nth_error_In; eauto).
  destruct (WF_child_prt h p x W Hin) as (pl & Epl & Epp).
  unfold rename. rewrite bind_gets, Epl. cbv zeta. rewrite Epp, Hash.
  rewrite (bind_ok _ _ _ _ _ (pure_ok _ _ _ (check_rename_pure p x t h) Hc)).
  destruct (WF_fam h p (ntag (hnode h x)) W) as (d & Ed & Eb & Hok & _); [intros E; rewrite E in Hin; destruct Hin|].
  pose proof (base_fams_cur h p d W Eb Ed) as Hbf.
  assert (Edg : dict_get p (ntag (hnode h x)) h = (h, Ok (dget d (ntag (hnode h x))))) by (unfold dict_get; rewrite Ed; reflexivity).
  rewrite (bind_ok _ _ _ _ _ Edg).
  set (tg := fun y => ntag (hnode h y)) in *. fold (tg x). rewrite (fam_ok_get _ _ _ _ Hok).
  pose proof (byt_nth tg k x _ Hk) as Hn. set (j := length (byt tg (tg x) (firstn k (nitems (hnode h p))))) in *.
  set (f := byt tg (tg x) (nitems (hnode h p))) in *.
  rewrite nonempty_ne by (intros E; rewrite E in Hn; destruct j; discriminate).
  assert (Efl : fam_list d (tg x) = f) by (apply fam_list_ok; assumption).
  pose proof (nth_error_split' _ _ _ Hn) as (f1 & f2 & Ef & El).
  (* the dictionary after removing x *)
  assert (E1 : (if length f =? 1 then del_fam p (tg x)
                else match list_remove_eq (fun y => item_eqb h x y) f with
                     | Some f' => dict_put p (tg x) f'
                     | None => throw ValueError
                     end) h = (hmod h p (set_fams (Some (det_dict h p x k)) Current), Ok tt)).
  { unfold det_dict. rewrite Hbf. fold tg. fold (tg x). rewrite Efl. fold j. destruct (Nat.eqb_spec (length f) 1) as [L1|L1].
    - unfold del_fam. rewrite Eb, Ed. rewrite (fam_ok_get _ _ _ _ Hok). fold f.
      rewrite nonempty_ne by (intros E; rewrite E in Hn; destruct j; discriminate). reflexivity.
    - unfold list_remove_eq. rewrite Ef, index_from_first.
      + cbn [Nat.add]. rewrite El. unfold dict_put. rewrite Ed, Eb. reflexivity.
      + intros y Hy. eapply (Hfe f1 f2); [|exact Hy]. exact Ef.
      + apply item_eqb_refl. }
  rewrite (bind_ok _ _ _ _ _ E1). rewrite bind_upd.
  set (d1 := det_dict h p x k) in *. set (h1 := hmod (hmod h p _) x (set_tag t)).
  assert (H1p : hnode h1 p = set_fams (Some d1) Current (hnode h p)).
  { unfold h1. rewrite hmod_other by congruence. apply hmod_same. }
  assert (Edg1 : dict_get p t h1 = (h1, Ok (dget d1 t))) by (unfold dict_get; rewrite H1p; reflexivity).
  rewrite (bind_ok _ _ _ _ _ Edg1).
  pose proof (det_dict_ok h p x k W Hk) as Hd1. fold tg d1 in Hd1.
  pose proof (remove_at_notin _ _ _ Hnd Hk) as Hni.
  assert (Hnp : forall y, nprt (hnode h1 y) = nprt (hnode h y)).
  { intros y. unfold h1. cbn. destruct (Nat.eqb_spec y x) as [->|]; [destruct (Nat.eqb_spec x p) as [->|]|destruct (Nat.eqb_spec y p) as [->|]]; reflexivity. }
  assert (Hit : nitems (hnode h1 p) = nitems (hnode h p)) by (rewrite H1p; reflexivity).
  assert (C1 : caches_ok h1) by (intros y pl0; rewrite Hnp; apply (wf_caches _ W)).
  set (I := fun g : heap => ceq h1 g /\ caches_ok g).
  assert (Hg : forall g, I g -> forall y, In y (nitems (hnode h p)) ->
     exists g', get_idx y g = (g', Ok (Some (Z.of_nat (posn (nitems (hnode h p)) y)))) /\ ceq g g' /\ I g').
  { intros g (Qg & Cg) y Hy.
    assert (Hitg : nitems (hnode g p) = nitems (hnode h p)) by (rewrite (ceq_items _ _ Qg); assumption).
    assert (Hpar : forall z, In z (nitems (hnode h p)) -> parent_of g z = Some p).
    { intros z Hz. unfold parent_of. rewrite (ceq_view _ _ Qg). unfold view. cbn. rewrite <- (fo_child _ _ (wf_forest _ W) p z Hz).
      cbn. f_equal. apply Hnp. }
    destruct (get_idx_gen g p y (posn (nitems (hnode h p)) y)) as (g' & E & Q & Wr).
    - rewrite Hitg. apply posn_in. assumption.
    - rewrite Hitg. assumption.
    - apply Hpar. assumption.
    - assumption.
    - left. intros z Hz. rewrite Hitg in Hz. specialize (Hpar z Hz). intros Hn0. apply prt_none in Hn0. congruence.
    - exists g'. split; [assumption|]. split; [assumption|]. split; [eapply ceq_trans; eauto|]. apply Q. assumption. }
  (* a final state reached from a state equal to h1 up to caches *)
  assert (Fin : forall g l c, ceq h1 g -> caches_ok g -> (0 <= c)%Z -> ren_dict h p x k t = dset d1 t l ->
     exists h', (dict_put p t l ;;; set_cache TypeError SFam x c ;;; ret (Some x)) g = (h', Ok (Some x)) /\
       ceq (mk_rename h p x k t) h').
  { intros g l c Qg Cg Hc0 Er. unfold dict_put at 1. unfold bind at 1. rewrite (ceq_fams _ _ Qg), H1p. cbn [nfams set_fams].
    rewrite (ceq_bound _ _ Qg), H1p. cbn [nbound set_fams].
    set (g1 := hmod g p _).
    assert (Hxp : exists pl', nprt (hnode g1 x) = Some pl' /\ pl_tuple pl' = false).
    { unfold g1. rewrite hmod_other by congruence. pose proof (ceq_prt _ _ Qg x) as P. rewrite Hnp, Epl in P.
      destruct (nprt (hnode g x)) as [pl'|] eqn:Eg; [|discriminate]. exists pl'. split; [reflexivity|]. apply (Cg _ _ Eg). }
    destruct Hxp as (pl' & Epl' & Et').
    destruct (set_cache_ok TypeError SFam x c g1 pl' Epl' Et' Hc0) as (h' & E & Q).
    rewrite (bind_ok _ _ _ _ _ E). exists h'. split; [reflexivity|].
    eapply ceq_trans; [|exact Q]. split; [|split].
    - unfold mk_rename, g1. cbn. rewrite (ceq_next _ _ Qg). reflexivity.
    - intros y. unfold mk_rename, g1. rewrite Er. destruct (Nat.eq_dec y p) as [->|Hyp].
      + rewrite hmod_other by congruence. rewrite !hmod_same. rewrite !strip_fams. rewrite <- (ceq_strip _ _ p Qg). rewrite H1p. reflexivity.
      + rewrite (hmod_other g) by assumption. rewrite <- (ceq_strip _ _ y Qg). unfold h1. destruct (Nat.eq_dec y x) as [->|].
        * rewrite !hmod_same, !hmod_other by assumption. reflexivity.
        * rewrite !hmod_other by assumption. reflexivity.
    - intros _ y pl0. unfold g1. destruct (Nat.eq_dec y p) as [->|Hyp]; [rewrite hmod_same|rewrite hmod_other by assumption]; apply Cg. }
  destruct (dget d1 t) as [g|] eqn:Eg.
  - rewrite bind_assoc.
    destruct (Hg h1 (conj (ceq_refl h1) C1) x Hin) as (h2 & E2 & Q2 & I2).
    assert (E2' : idx_or_type_error x h1 = (h2, Ok (Z.of_nat k))).
    { unfold idx_or_type_error. rewrite (bind_ok _ _ _ _ _ E2). rewrite (posn_nth _ _ _ Hnd Hk). reflexivity. }
    rewrite (bind_ok _ _ _ _ _ E2').
    assert (Fg : byt tg t (remove_at k (nitems (hnode h p))) = g /\ g <> []).
    { rewrite (fam_ok_get _ _ _ _ Hd1) in Eg. apply nonempty_Some in Eg. exact Eg. }
    destruct Fg as [Fg Hgne].
    assert (Fg2 : g = filter (fun y => pyval_eqb (tg y) t && negb (Nat.eqb y x)) (nitems (hnode h p))).
    { rewrite <- Fg. apply filter_remove_at; assumption. }
    assert (Hgi : forall y, In y g -> In y (nitems (hnode h p))) by (intros y; rewrite Fg2; intros Hy; apply filter_In in Hy; apply Hy).
    destruct (fam_ins_idx_ok I (posn (nitems (hnode h p))) (Z.of_nat k) (S (length g)) g 0 h2) as (h3 & E3 & Q3 & I3); auto.
    + rewrite Fg2. apply sorted_filter, sorted_posn. assumption.
    + rewrite bind_assoc. unfold family_insertion_idx. rewrite (bind_ok _ _ _ _ _ E3). cbn [Nat.add]. rewrite bind_assoc.
      rewrite Fg2, below_prefix by assumption. rewrite <- Fg2.
      apply Fin; [apply I3|apply I3|lia|]. unfold ren_dict. fold d1 tg. unfold fam_list. rewrite Eg. do 2 f_equal. f_equal.
      apply filter_ext_in. intros y Hy. destruct (Nat.eqb_spec y x) as [->|]; [|rewrite andb_true_r; reflexivity].
      exfalso. apply Hni. rewrite <- (firstn_remove_at k) in Hy. rewrite <- (firstn_skipn k (remove_at k _)). apply in_or_app. left. assumption.
  - rewrite bind_assoc. apply Fin; [apply ceq_refl|assumption|lia|]. unfold ren_dict. fold d1 tg. unfold fam_list. rewrite Eg.
    f_equal. unfold insert_at. rewrite firstn_nil, skipn_nil. reflexivity.
Qed.

Definition ren_ok (h : heap) (x : loc) : Prop :=
  forall p, parent_of h x = Some p -> In x (children h p) /\ first_equal h p x.
Lemma rename_err h p x t e : parent_of h x = Some p -> outcome (check_rename p x t) h = Err e -> rename x t h = (h, Err e).
Proof.
  intros Hp Hc. unfold rename. rewrite bind_gets. unfold parent_of in Hp. cbn in Hp.
  destruct (nprt (hnode h x)) as [pl|]; [|discriminate]. injection Hp as <-.
  exact (bind_pure_err _ _ _ _ (check_rename_pure _ x t h) Hc).
Qed.
Lemma rename_WF h x t : WF h -> hashable t = true -> ren_ok h x -> WF (fst (rename x t h)).
Proof.
  intros W Hash G. destruct (parent_of h x) as [p|] eqn:Ep.
  - destruct (G p Ep) as [Hin Hf]. destruct (outcome (check_rename p x t) h) as [[]|e] eqn:Hc.
    + apply In_nth_error in Hin as [k Hk]. destruct (rename_ok h p x k t W Hash Hk Hf Hc) as (h' & -> & Q).
      eapply ceq_WF; [exact Q|]. apply mk_rename_WF; assumption.
    + rewrite (rename_err _ _ _ _ _ Ep Hc). assumption.
  - rewrite rename_root by assumption. apply rename_root_WF; assumption.
Qed.
