(** Deleting a local item that covers a linked one. *)
From Coq Require Import List.
From Verif Require Import Base Heap HeapSpec ListLemmas ForestLemmas HeapInv HeapAttach HeapOps HeapOps2 HeapOps3 Tree HeapTree HeapCopy Deep SerModel HeapHash History LinkModel LinkFacts LinkFacts2 LinkMerge LinkLoad LinkRun LinkAll LinkWF LinkSpec.
Import ListNotations.
Local Open Scope list_scope.

(** tag_idx needs the family dictionary only *)
Lemma tag_idx_fams h p c l k d : nbound (hnode h p) = Current -> nfams (hnode h p) = Some d -> fam_ok (tags h) d l -> NoDup l -> nth_error l k = Some c ->
  parent_of h c = Some p -> (forall pl, nprt (hnode h c) = Some pl -> (0 <= pl_fam pl)%Z /\ pl_tuple pl = false) ->
  near h c (length (byt (tags h) (ntag (hnode h c)) (firstn k l))) ->
  exists h', get_tag_idx c h = (h', Ok (TIPair (ntag (hnode h c)) (Z.of_nat (length (byt (tags h) (ntag (hnode h c)) (firstn k l)))))) /\
    cached h h' c (length (byt (tags h) (ntag (hnode h c)) (firstn k l))).
Proof.
  intros B D F ND Hk Hp HC HN. set (t := ntag (hnode h c)) in *. set (n := length (byt (tags h) t (firstn k l))) in *.
  unfold get_tag_idx. unfold parent_of in Hp. cbn in Hp. destruct (nprt (hnode h c)) as [pl|] eqn:Ep; [|discriminate]. injection Hp as Hp. rewrite Hp. fold t.
  destruct (HC pl eq_refl) as (C1 & C2). specialize (HN pl Ep).
  set (fam := byt (tags h) t l). assert (Hn : nth_error fam n = Some c) by (apply (byt_nth (tags h) k c l Hk)).
  assert (NF : NoDup fam) by (apply NoDup_filter; exact ND).
  unfold getitem_fam. rewrite bind_assoc, (bind_ok _ _ _ _ _ (get_fam_cur h p t d B D)), (fam_ok_get _ _ _ t F). fold fam.
  assert (Hne : fam <> []) by (intros E0; rewrite E0 in Hn; destruct n; discriminate).
  rewrite (nonempty_ne _ Hne), bind_ret. pose proof (nth_error_lt _ _ _ Hn) as Hlt.
  unfold locate. rewrite fast_hit_nonneg by assumption.
  destruct (match nth_error fam (Z.to_nat (pl_fam pl)) with Some y => Nat.eqb y c | None => false end) eqn:Eb; rewrite bind_assoc, bind_lift.
  - destruct (nth_error fam (Z.to_nat (pl_fam pl))) as [y|] eqn:Ey; [|discriminate]. apply Nat.eqb_eq in Eb as ->.
    pose proof (NoDup_nth_error_inj _ _ _ _ NF Hn Ey) as En. assert (E : pl_fam pl = Z.of_nat n) by lia. rewrite bind_ret, E.
    exists h. split; [reflexivity|]. split; [reflexivity|]. split; [reflexivity|left; reflexivity].
  - destruct (window fam c _ _) as [i|] eqn:Ew.
    + pose proof (window_some _ _ _ _ _ Ew) as Hi. assert (i = n) as -> by (eapply NoDup_nth_error_inj; eauto).
      rewrite bind_assoc. unfold set_cache. unfold bind at 1. rewrite Ep, C2. rewrite bind_ret.
      eexists. split; [reflexivity|]. split; [reflexivity|]. split; [intros y Hy; rewrite hmod_other by exact Hy; reflexivity|]. right. exists pl. rewrite hmod_same. auto.
    + exfalso. eapply window_hits; [exact Hn| | |exact Ew]; lia.
Qed.

(** [x] covers [y] *)
Definition covers (h : heap) (x y : loc) : Prop := exists lk, nlink (hnode h x) = Some lk /\ lk_cover lk = Some y.
(** __delitem__ of x from p is permitted *)
Definition del_perm (h : heap) (p x : loc) : Prop :=
  tree_protected h p = true -> is_link_root h p = true /\ (root_loaded h p = true -> has (nflags (hnode h x)) (Z.lor LINKED PLACEHOLDER) = false).

Lemma del_cover_ok h p l1 x l2 y : LWF h -> nitems (hnode h p) = l1 ++ x :: l2 -> covers h x y -> y <> p -> y <> x -> ntag (hnode h y) = ntag (hnode h x) ->
  near h x (length (byt (tags h) (ntag (hnode h x)) l1)) -> del_perm h p x ->
  exists h' d, del_int p (Z.of_nat (length l1)) h = (h', Ok x) /\ hnext h' = hnext h /\ own h' p (l1 ++ y :: l2) /\
    hnode h' p = set_fams (Some d) Current (set_items (l1 ++ y :: l2) (hnode h p)) /\
    hnode h' y = set_prt (Some (PL p (Z.of_nat (length l1)) (Z.of_nat (length (byt (tags h) (ntag (hnode h x)) l1))) false)) (hnode h y) /\
    hnode h' x = set_prt None (hnode h x) /\ (forall z, z <> p -> z <> x -> z <> y -> hnode h' z = hnode h z).
Proof.
  intros W El (lk & Elk & Ecv) Yp Yx Ty HN HP. assert (Hin : In x (nitems (hnode h p))) by (rewrite El; apply in_elt).
  destruct (LWF_child_prt h p x W Hin) as (pl & Epl & Epp).
  assert (Px : p <> x) by (intros ->; apply (not_self_parent _ _ (fo_root _ _ (lw_forest _ W) x)); apply (fo_child _ _ (lw_forest _ W)); exact Hin).
  pose proof (fo_nodup _ _ (lw_forest _ W) p) as ND. cbn in ND. rewrite El in ND.
  pose proof (LWF_own h p W) as Ow. rewrite El in Ow. destruct Ow as (_ & [(K & _)|(Bd & d & D & F)]); [destruct l1; discriminate|].
  set (n := hnode h x) in *. set (t := ntag n) in *. set (f1 := byt (tags h) t l1) in *.
  unfold del_int, check_del. rewrite bind_assoc, bind_gets.
  assert (CD : exists lr, (forall (g : bool -> M loc), bind (if tree_protected h p then if negb (is_link_root h p) then throw PermissionError else ret (root_loaded h p) else ret false) g h = g lr h) /\
    lr && has (nflags n) (Z.lor LINKED PLACEHOLDER) = false).
  { unfold del_perm in HP. destruct (tree_protected h p).
    - destruct (HP eq_refl) as (-> & Q). cbn [negb]. exists (root_loaded h p). split; [reflexivity|]. destruct (root_loaded h p); [apply Q; reflexivity|reflexivity].
    - exists false. split; [reflexivity|reflexivity]. }
  destruct CD as (lr & CD1 & CD2). rewrite CD1, bind_gets. rewrite El.
  assert (NE : exists a r, l1 ++ x :: l2 = a :: r) by (destruct l1; eexists _, _; reflexivity). destruct NE as (a & r & NE). rewrite NE. cbv iota. rewrite <- NE.
  assert (Hk : nth_error (l1 ++ x :: l2) (length l1) = Some x) by (rewrite nth_error_app2, Nat.sub_diag by apply le_n; reflexivity).
  rewrite py_idx_of_nat by (rewrite app_length; cbn; lia). rewrite Hk. fold n. rewrite CD2, Elk, Ecv, remove_at_split, bind_upd.
  set (h1 := hmod h p (set_items (l1 ++ l2))).
  assert (O1 : forall z, z <> p -> hnode h1 z = hnode h z) by (intros z Z; unfold h1; hnodes; reflexivity).
  assert (P1 : hnode h1 p = set_items (l1 ++ l2) (hnode h p)) by (unfold h1; hnodes; reflexivity).
  assert (T1 : forall z, ntag (hnode h1 z) = ntag (hnode h z)) by (intros z; destruct (Nat.eq_dec z p) as [->|Z]; [rewrite P1; reflexivity|rewrite O1 by exact Z; reflexivity]).
  assert (F1 : fam_ok (tags h1) d (l1 ++ x :: l2)) by (eapply fam_ok_ext; [|exact F]; intros z _; symmetry; apply T1).
  assert (B1 : forall u l, byt (tags h1) u l = byt (tags h) u l) by (intros u l; apply filter_ext; intros z; rewrite T1; reflexivity).
  assert (N1 : hnode h1 x = n) by (apply O1; auto). assert (X1 : hnext h1 = hnext h) by reflexivity. clearbody h1.
  assert (FN : firstn (length l1) (l1 ++ x :: l2) = l1) by (rewrite firstn_app, firstn_all, Nat.sub_diag; cbn; apply app_nil_r).
  destruct (tag_idx_fams h1 p x (l1 ++ x :: l2) (length l1) d) as (h2 & E2 & K2); auto.
  { rewrite P1. exact Bd. } { rewrite P1. exact D. } { unfold parent_of. cbn. rewrite N1, Epl. cbn. congruence. }
  { intros pl' E'. rewrite N1 in E'. destruct (lw_caches _ W x pl' E') as (_ & A & B). auto. }
  { rewrite FN, N1. fold t. rewrite B1. intros pl' E'. rewrite N1 in E'. apply HN. exact E'. }
  rewrite FN, N1 in E2, K2. fold t in E2, K2. rewrite B1 in E2, K2. fold f1 in E2, K2. rewrite (bind_ok _ _ _ _ _ E2), bind_gets.
  destruct K2 as (X2 & O2 & NX2). rewrite (O2 p Px), P1. cbn [nitems set_items].
  assert (PI : py_insert (Z.of_nat (length l1)) y (l1 ++ l2) = l1 ++ y :: l2).
  { unfold py_insert, py_insert_pos, insert_at. rewrite app_length. destruct (Z.ltb_spec (Z.of_nat (length l1)) 0) as [Q|Q]; [lia|].
    replace (Z.to_nat (Z.min (Z.of_nat (length l1)) (Z.of_nat (length l1 + length l2)))) with (length l1) by lia.
    rewrite firstn_app, firstn_all, Nat.sub_diag, skipn_app, skipn_all, Nat.sub_diag. cbn. rewrite app_nil_r. reflexivity. }
  rewrite PI, bind_upd. set (h3 := hmod h2 p (set_items (l1 ++ y :: l2))).
  assert (P3 : hnode h3 p = set_items (l1 ++ y :: l2) (hnode h1 p)) by (unfold h3; hnodes; rewrite (O2 p Px); reflexivity).
  assert (O3 : forall z, z <> p -> hnode h3 z = hnode h2 z) by (intros z Z; unfold h3; hnodes; reflexivity).
  assert (X3 : hnext h3 = hnext h) by (transitivity (hnext h2); [reflexivity|rewrite X2; exact X1]). clearbody h3.
  assert (Bd3 : nbound (hnode h3 p) = Current) by (rewrite P3, P1; exact Bd). assert (D3 : nfams (hnode h3 p) = Some d) by (rewrite P3, P1; exact D).
  fold t. unfold getitem_fam. rewrite bind_assoc, (bind_ok _ _ _ _ _ (get_fam_cur h3 p t d Bd3 D3)), (fam_ok_get _ _ _ t F).
  set (f2 := byt (tags h) t l2).
  assert (EF : byt (tags h) t (l1 ++ x :: l2) = f1 ++ x :: f2) by (rewrite byt_app, byt_cons; fold n; fold t; rewrite pyval_eqb_refl; reflexivity).
  rewrite EF. rewrite nonempty_ne by (destruct f1; discriminate). rewrite bind_ret. rewrite py_idx_of_nat by (rewrite app_length; cbn; lia).
  rewrite (replace_at_split f1 f2 x y). set (d' := dset d t (f1 ++ y :: f2)).
  assert (E5 : put_fam p t (f1 ++ y :: f2) h3 = (hmod h3 p (set_fams (Some d') Current), Ok tt)) by (unfold put_fam; rewrite Bd3, D3; reflexivity).
  rewrite (bind_ok _ _ _ _ _ E5), bind_upd, bind_upd. eexists. exists d'. split; [reflexivity|]. split; [exact X3|].
  set (h6 := hmod _ x (set_prt None)).
  assert (P6 : hnode h6 p = set_fams (Some d') Current (set_items (l1 ++ y :: l2) (hnode h p))) by (unfold h6; hnodes; rewrite P3, P1; reflexivity).
  assert (Y6 : hnode h6 y = set_prt (Some (PL p (Z.of_nat (length l1)) (Z.of_nat (length f1)) false)) (hnode h y)) by (unfold h6; hnodes; rewrite O3, O2, O1 by auto; reflexivity).
  assert (X6 : hnode h6 x = set_prt None n). { unfold h6. hnodes. rewrite O3 by auto. destruct NX2 as [->|(pl' & Ep' & ->)]; rewrite N1; reflexivity. }
  assert (O6 : forall z, z <> p -> z <> x -> z <> y -> hnode h6 z = hnode h z) by (intros z Z1 Z2 Z3; unfold h6; hnodes; rewrite O3, O2, O1 by auto; reflexivity).
  clearbody h6. split; [|auto].
  assert (T6 : forall z, ntag (hnode h6 z) = ntag (hnode h z)).
  { intros z. destruct (Nat.eq_dec z p) as [->|Z1]; [rewrite P6; reflexivity|]. destruct (Nat.eq_dec z x) as [->|Z2]; [rewrite X6; reflexivity|].
    destruct (Nat.eq_dec z y) as [->|Z3]; [rewrite Y6; reflexivity|]. rewrite O6 by assumption. reflexivity. }
  split; [rewrite P6; reflexivity|right]. rewrite P6. split; [reflexivity|]. exists d'. split; [reflexivity|].
  eapply (fam_ok_ext (tags h)); [intros z _; symmetry; apply T6|]. apply (fam_ok_swap (tags h) d l1 x y l2 F Ty).
Qed.

(** [x] is a child of [p], or covered by one *)
Inductive Live (h : heap) (p : loc) : loc -> Prop :=
| Live_child x : In x (nitems (hnode h p)) -> Live h p x
| Live_cover x y : Live h p x -> covers h x y -> Live h p y.
(** what is known of the covered items *)
Record covers_ok (h : heap) : Prop := {
  cv_one : forall p x y, Live h p x -> covers h x y ->
    y < hnext h /\ (forall q, ~ In y (nitems (hnode h q))) /\ ntag (hnode h y) = ntag (hnode h x) /\
    (parent_of h y = Some p \/ parent_of h y = None /\ forall a, Anc (view h) a p -> a < y);
  cv_inj : forall p q x x' y, Live h p x -> Live h q x' -> covers h x y -> covers h x' y -> x = x' }.

Lemma covers_fun h x y z : covers h x y -> covers h x z -> y = z.
Proof. intros (a & A1 & A2) (b & B1 & B2). congruence. Qed.
Lemma cv_ne h p x y : LWF h -> covers_ok h -> In x (nitems (hnode h p)) -> covers h x y -> y <> p /\ y <> x.
Proof.
  intros W C Hx Hc. destruct (cv_one h C p x y (Live_child _ _ _ Hx) Hc) as (_ & N & _ & Q). split.
  - intros ->. destruct Q as [Q|(_ & Q)]; [apply (not_self_parent _ _ (fo_root _ _ (lw_forest _ W) p) Q)|]. specialize (Q p (Anc_refl _ _)). lia.
  - intros ->. exact (N p Hx).
Qed.

Section Restore.
  Variables (h h' : heap) (p x y : loc) (l1 l2 : list loc) (pl : plink) (d : fdict).
  Hypothesis W : LWF h. Hypothesis C : covers_ok h.
  Hypothesis El : nitems (hnode h p) = l1 ++ x :: l2.
  Hypothesis Cv : covers h x y.
  Hypothesis Hn : hnext h' = hnext h.
  Hypothesis Ow : own h' p (l1 ++ y :: l2).
  Hypothesis Np : hnode h' p = set_fams (Some d) Current (set_items (l1 ++ y :: l2) (hnode h p)).
  Hypothesis Ny : hnode h' y = set_prt (Some pl) (hnode h y).
  Hypothesis Ep : pl_par pl = p. Hypothesis Cp : (0 <= pl_abs pl)%Z /\ (0 <= pl_fam pl)%Z /\ pl_tuple pl = false.
  Hypothesis Nx : hnode h' x = set_prt None (hnode h x).
  Hypothesis No : forall z, z <> p -> z <> x -> z <> y -> hnode h' z = hnode h z.

  Lemma rs_in : In x (nitems (hnode h p)). Proof. rewrite El. apply in_elt. Qed.
  Lemma rs_px : p <> x.
  Proof. intros E. apply (not_self_parent _ _ (fo_root _ _ (lw_forest _ W) x)). apply (fo_child _ _ (lw_forest _ W)). pose proof rs_in as Q. rewrite E in Q at 1. exact Q. Qed.
  Lemma rs_y : y <> p /\ y <> x. Proof. apply (cv_ne h p x y W C rs_in Cv). Qed.
  Lemma rs_data z : data (hnode h' z) = data (hnode h z).
  Proof.
    destruct (Nat.eq_dec z p) as [->|Z1]; [rewrite Np; reflexivity|]. destruct (Nat.eq_dec z x) as [->|Z2]; [rewrite Nx; reflexivity|].
    destruct (Nat.eq_dec z y) as [->|Z3]; [rewrite Ny; reflexivity|]. rewrite No by assumption. reflexivity.
  Qed.
  Lemma rs_tag z : ntag (hnode h' z) = ntag (hnode h z). Proof. exact (f_equal (fun d => fst (fst (fst (fst d)))) (rs_data z)). Qed.
  Lemma rs_link z : nlink (hnode h' z) = nlink (hnode h z). Proof. exact (f_equal (fun d => snd (fst d)) (rs_data z)). Qed.
  Lemma rs_covers a b : covers h' a b <-> covers h a b. Proof. unfold covers. rewrite rs_link. reflexivity. Qed.
  Lemma rs_items z : z <> p -> nitems (hnode h' z) = nitems (hnode h z).
  Proof.
    intros Z1. destruct (Nat.eq_dec z x) as [->|Z2]; [rewrite Nx; reflexivity|]. destruct (Nat.eq_dec z y) as [->|Z3]; [rewrite Ny; reflexivity|]. rewrite No by assumption. reflexivity.
  Qed.
  Lemma rs_par z : a_parent (view h' z) = if Nat.eqb z x then None else if Nat.eqb z y then Some p else a_parent (view h z).
  Proof.
    cbn. destruct (Nat.eqb_spec z x) as [->|Z1]; [rewrite Nx; reflexivity|]. destruct (Nat.eqb_spec z y) as [->|Z2]; [rewrite Ny; cbn; rewrite Ep; reflexivity|].
    destruct (Nat.eq_dec z p) as [->|Z3]; [rewrite Np; reflexivity|]. rewrite No by assumption. reflexivity.
  Qed.
  Lemma rs_one : y < hnext h /\ (forall q, ~ In y (nitems (hnode h q))) /\ ntag (hnode h y) = ntag (hnode h x) /\
    (parent_of h y = Some p \/ parent_of h y = None /\ forall a, Anc (view h) a p -> a < y).
  Proof. apply (cv_one h C p x y); [apply Live_child, rs_in|exact Cv]. Qed.
  Lemma rs_rooted z : Rooted (view h') z.
  Proof.
    destruct rs_one as (_ & _ & _ & Q). set (s1 := fun z => a_set_parent (if Nat.eqb z y then Some p else a_parent (view h z)) (view h z)).
    assert (R : forall z, Rooted s1 z).
    { destruct Q as [Q|(Q & A)].
      - intros w. eapply (Rooted_ext (view h)); [|apply (fo_root _ _ (lw_forest _ W))]. intros u. unfold s1, a_set_parent. cbn [a_parent]. destruct (Nat.eqb_spec u y) as [->|]; [exact Q|reflexivity].
      - apply (Rooted_attach (view h) s1 y p); [reflexivity|apply (fo_root _ _ (lw_forest _ W))|]. intros K. specialize (A y K). lia. }
    apply (Rooted_drop s1 (view h') (fun u => Nat.eqb u x)); [|apply R]. intros u. rewrite rs_par. destruct (Nat.eqb u x); reflexivity.
  Qed.
  Lemma rs_ND : NoDup (l1 ++ y :: l2) /\ ~ In x (l1 ++ y :: l2).
  Proof.
    pose proof (fo_nodup _ _ (lw_forest _ W) p) as ND. cbn in ND. rewrite El in ND. apply NoDup_app_inv in ND as (A & B & D). apply NoDup_cons_iff in B as (B1 & B2).
    destruct rs_one as (_ & N & _). specialize (N p). rewrite El in N. split.
    - apply NoDup_app; [exact A|constructor; [intros K; apply N; apply in_app_iff; cbn; auto|exact B2]|]. intros u U [<-|V]; [apply N; apply in_app_iff; auto|apply (D u U); right; exact V].
    - intros K. apply in_app_iff in K as [K|[K|K]]; [apply (D x K); left; reflexivity|apply (proj2 rs_y); exact K|contradiction].
  Qed.
  Lemma rs_LWF : LWF h'.
  Proof.
    pose proof rs_ND as (ND & NX). destruct rs_one as (Hy & Ny' & _). pose proof (lw_forest _ W) as F.
    assert (Ip : nitems (hnode h' p) = l1 ++ y :: l2) by (rewrite Np; reflexivity).
    constructor; [constructor| |].
    - intros q c Hc. rewrite rs_par. cbn in Hc. destruct (Nat.eqb_spec c x) as [->|Cx].
      + exfalso. destruct (Nat.eq_dec q p) as [->|Q]; [rewrite Ip in Hc; contradiction|]. rewrite rs_items in Hc by exact Q.
        pose proof (fo_child _ _ F q x Hc) as E1. pose proof (fo_child _ _ F p x rs_in) as E2. congruence.
      + destruct (Nat.eqb_spec c y) as [->|Cy].
        * destruct (Nat.eq_dec q p) as [->|Q]; [reflexivity|]. rewrite rs_items in Hc by exact Q. exfalso. exact (Ny' q Hc).
        * apply (fo_child _ _ F). cbn. destruct (Nat.eq_dec q p) as [->|Q]; [|rewrite rs_items in Hc by exact Q; exact Hc].
          rewrite Ip in Hc. rewrite El. apply in_app_iff in Hc as [Hc|[Hc|Hc]]; [apply in_app_iff; auto|congruence|apply in_app_iff; cbn; auto].
    - intros q. cbn. destruct (Nat.eq_dec q p) as [->|Q]; [rewrite Ip; exact ND|rewrite rs_items by exact Q; apply (fo_nodup _ _ F)].
    - intros z Hz. rewrite Hn in Hz. destruct (LWF_child_lt h p x W rs_in) as (Lp & Lx). split.
      + cbn. rewrite rs_items by lia. apply (fo_alloc _ _ F z Hz).
      + rewrite rs_par. destruct (Nat.eqb_spec z x); [lia|]. destruct (Nat.eqb_spec z y); [lia|]. apply (fo_alloc _ _ F z Hz).
    - intros z q. rewrite rs_par, Hn. destruct (Nat.eqb z x); [discriminate|]. destruct (Nat.eqb z y); [intros [= <-]; apply (LWF_child_lt h p x W rs_in)|apply (fo_par _ _ F)].
    - exact rs_rooted.
    - intros z pl' Hz. destruct (Nat.eq_dec z p) as [->|Z1]; [rewrite Np in Hz; apply (lw_caches _ W _ _ Hz)|]. destruct (Nat.eq_dec z x) as [->|Z2]; [rewrite Nx in Hz; discriminate|].
      destruct (Nat.eq_dec z y) as [->|Z3]; [rewrite Ny in Hz; injection Hz as <-; exact Cp|]. rewrite No in Hz by assumption. apply (lw_caches _ W _ _ Hz).
    - intros q. destruct (Nat.eq_dec q p) as [->|Q]; [apply own_fam; rewrite Ip; exact Ow|].
      assert (E : nbound (hnode h' q) = nbound (hnode h q) /\ nfams (hnode h' q) = nfams (hnode h q)).
      { destruct (Nat.eq_dec q x) as [->|Z2]; [rewrite Nx; auto|]. destruct (Nat.eq_dec q y) as [->|Z3]; [rewrite Ny; auto|]. rewrite No by assumption. auto. }
      destruct E as (E1 & E2). pose proof (LWF_own h q W) as (_ & O). apply own_fam. rewrite rs_items by exact Q. split; [apply rs_items; exact Q|].
      destruct O as [(E & O)|(B & d0 & D & O)]; [left; split; [exact E|unfold leaf_ok in *; rewrite E1, E2; exact O]|right]. rewrite E1, E2. split; [exact B|]. exists d0. split; [exact D|].
      eapply fam_ok_ext; [|exact O]. intros z _. symmetry. apply rs_tag.
  Qed.
  Lemma rs_live q z : Live h' q z -> Live h q z /\ z <> x.
  Proof.
    induction 1 as [z Hz|a b _ (IH & _) Hc].
    - destruct (Nat.eq_dec q p) as [->|Q].
      + rewrite Np in Hz. cbn in Hz. split; [|intros ->; apply (proj2 rs_ND); exact Hz].
        apply in_app_iff in Hz as [Hz|[<-|Hz]]; [apply Live_child; rewrite El; apply in_app_iff; auto|eapply Live_cover; [apply Live_child, rs_in|exact Cv]|apply Live_child; rewrite El; apply in_app_iff; cbn; auto].
      + rewrite rs_items in Hz by exact Q. split; [apply Live_child; exact Hz|]. intros ->.
        pose proof (fo_child _ _ (lw_forest _ W) q x Hz) as E1. pose proof (fo_child _ _ (lw_forest _ W) p x rs_in) as E2. congruence.
    - apply rs_covers in Hc. split; [eapply Live_cover; eassumption|]. intros ->. apply (proj1 (proj2 (cv_one h C q a x IH Hc)) p). exact rs_in.
  Qed.
  Lemma rs_anc a z : Anc (view h') a z -> Anc (view h) a z \/ (parent_of h y = None /\ Anc (view h) y z /\ Anc (view h) a p).
  Proof.
    induction 1 as [|z q E _ IH]; [left; apply Anc_refl|]. rewrite rs_par in E. destruct (Nat.eqb_spec z x) as [->|Zx]; [discriminate|].
    destruct (Nat.eqb_spec z y) as [->|Zy].
    - injection E as <-. destruct rs_one as (_ & _ & _ & [Q|(Q & A)]).
      + destruct IH as [IH|(K & _)]; [left; eapply Anc_step; [exact Q|exact IH]|congruence].
      + right. split; [exact Q|]. split; [apply Anc_refl|]. destruct IH as [IH|(_ & K & _)]; [exact IH|]. specialize (A y K). lia.
    - destruct IH as [IH|(K1 & K2 & K3)]; [left; eapply Anc_step; eassumption|right]. split; [exact K1|]. split; [eapply Anc_step; eassumption|exact K3].
  Qed.
  Lemma rs_covers_ok : covers_ok h'.
  Proof.
    constructor.
    - intros q u v Hu Hc. apply rs_live in Hu as (Hu & Ux). apply rs_covers in Hc. destruct (cv_one h C q u v Hu Hc) as (Hv & Nv & Tv & Pv).
      assert (Vy : v <> y) by (intros ->; apply Ux; apply (cv_inj h C q p u x y Hu (Live_child _ _ _ rs_in) Hc Cv)).
      assert (Vx : v <> x) by (intros ->; exact (Nv p rs_in)).
      split; [rewrite Hn; exact Hv|]. split.
      { intros q' K. destruct (Nat.eq_dec q' p) as [->|Q]; [|rewrite rs_items in K by exact Q; exact (Nv q' K)]. rewrite Np in K. cbn in K.
        apply in_app_iff in K as [K|[K|K]]; [|congruence|]; apply (Nv p); rewrite El; apply in_app_iff; cbn; auto. }
      split; [rewrite !rs_tag; exact Tv|]. unfold parent_of. rewrite rs_par. destruct (Nat.eqb_spec v x); [contradiction|]. destruct (Nat.eqb_spec v y); [contradiction|].
      destruct Pv as [Pv|(Pv & A)]; [left; exact Pv|right]. split; [exact Pv|]. intros a Ha. apply rs_anc in Ha as [Ha|(K1 & K2 & K3)]; [apply A; exact Ha|].
      destruct rs_one as (_ & _ & _ & [Q|(_ & Q)]); [congruence|]. specialize (Q a K3). specialize (A y K2). lia.
    - intros q q' u u' v Hu Hu' Hc Hc'. apply rs_live in Hu as (Hu & _). apply rs_live in Hu' as (Hu' & _). apply rs_covers in Hc, Hc'. apply (cv_inj h C q q' u u' v); assumption.
  Qed.
End Restore.

Lemma no_covers_ok h : (forall x y, x < hnext h -> ~ covers h x y) -> LWF h -> covers_ok h.
Proof.
  intros N W. assert (L : forall p x, Live h p x -> x < hnext h).
  { intros p x. induction 1 as [x Hx|x y _ IH Hc]; [apply (LWF_child_lt h p x W Hx)|exfalso; exact (N x y IH Hc)]. }
  constructor; [intros p x y Hl Hc|intros p q x x' y Hl _ Hc _]; exfalso; exact (N x y (L p x Hl) Hc).
Qed.
Lemma live_lt h p x : LWF h -> covers_ok h -> Live h p x -> p < hnext h /\ x < hnext h.
Proof.
  intros W C. induction 1 as [x Hx|x y H (IH & _) Hc]; [apply (LWF_child_lt h p x W Hx)|]. split; [exact IH|]. apply (cv_one h C p x y H Hc).
Qed.
Lemma live_child h p x q : LWF h -> covers_ok h -> Live h p x -> In x (nitems (hnode h q)) -> In x (nitems (hnode h p)).
Proof. intros W C H. destruct H as [x Hx|x y H Hc]; [auto|]. intros K. exfalso. apply (proj1 (proj2 (cv_one h C p x y H Hc)) q). exact K. Qed.
Lemma strip_par n m : strip n = strip m -> option_map pl_par (nprt n) = option_map pl_par (nprt m).
Proof. intros E. apply (strip_all _ _ E). Qed.
Lemma strip_link n m : strip n = strip m -> nlink n = nlink m.
Proof. intros E. apply strip_all in E as (E & _). exact (f_equal (fun d => snd (fst d)) E). Qed.
Lemma strip_items n m : strip n = strip m -> nitems n = nitems m.
Proof. intros E. apply (strip_all _ _ E). Qed.
Lemma anc_old h h' n : (forall z, z < n -> a_parent (view h' z) = a_parent (view h z)) -> (forall z q, a_parent (view h z) = Some q -> q < n) ->
  forall a z, Anc (view h') a z -> z < n -> Anc (view h) a z /\ a < n.
Proof.
  intros E P a z. induction 1 as [|z q Q _ IH]; [intros L; split; [apply Anc_refl|exact L]|]. intros L. rewrite E in Q by exact L. destruct (IH (P _ _ Q)) as (I1 & I2). split; [eapply Anc_step; eassumption|exact I2].
Qed.

(** make_local *)
Lemma make_local_covers h p l1 x l2 T b h' new : LWF h -> covers_ok h -> nitems (hnode h p) = l1 ++ x :: l2 -> is_linked h x = true -> is_link_root h p = true ->
  near h x (length (byt (tags h) (ntag (hnode h x)) l1)) ->
  ltree (view h) T -> root T = x -> (forall y, In y (below_tree T) -> conv_good (label (view h) y) = true) ->
  make_local x b h = (h', Ok new) -> covers_ok h'.
Proof.
  intros W C El NL LR HN HT Er HG Em. pose proof (make_local_LWF h p l1 x l2 T b h' new W El NL LR HN HT Er HG Em) as W'.
  destruct (make_local_ok h p l1 x l2 T b W El NL LR HN HT Er HG) as (h2 & Ts & E & X1 & (I1 & _) & V1 & S1 & F1 & D1 & P1 & PN & DN & (IN & _) & BN & LN & RN & NN & CN & CV).
  rewrite Em in E. injection E as <- Enew. subst new. clear Em. set (new := hnext h) in *.
  assert (Hin : In x (nitems (hnode h p))) by (rewrite El; apply in_elt). destruct (LWF_child_lt h p x W Hin) as (Lp & Lx).
  assert (Par : forall z, z < hnext h -> a_parent (view h' z) = a_parent (view h z)).
  { intros z Z. cbn. destruct (Nat.eq_dec z p) as [->|Zp]; [rewrite P1; reflexivity|apply strip_par, S1; assumption]. }
  assert (Lk : forall z, z < hnext h -> nlink (hnode h' z) = nlink (hnode h z)).
  { intros z Z. destruct (Nat.eq_dec z p) as [->|Zp]; [exact (f_equal (fun d => snd (fst d)) D1)|apply strip_link, S1; assumption]. }
  assert (It : forall z, z < hnext h -> z <> p -> nitems (hnode h' z) = nitems (hnode h z)) by (intros z Z Zp; apply strip_items, S1; assumption).
  assert (Tg : forall z, z < hnext h -> ntag (hnode h' z) = ntag (hnode h z)).
  { intros z Z. destruct (Nat.eq_dec z p) as [->|Zp]; [exact (f_equal (fun d => fst (fst (fst (fst d)))) D1)|]. pose proof (S1 z Z Zp) as Q. apply strip_all in Q as (Q & _). exact (f_equal (fun d => fst (fst (fst (fst d)))) Q). }
  assert (Cn : covers h' new x) by (exists (cover_link x); split; [exact (f_equal (fun d => snd (fst d)) DN)|reflexivity]).
  assert (Fr : forall z, hnext h < z < hnext h' -> forall v, ~ covers h' z v).
  { intros z Z v (lk & K1 & K2). apply CV in Z. apply in_flat_map in Z as (U & HU & Z). rewrite Forall_forall in BN. destruct (built_nodes h' U new (BN U HU) z Z) as (_ & _ & _ & _ & _ & (_ & Q)).
    rewrite (Q lk K1) in K2. discriminate. }
  assert (Co : forall z v, z < hnext h -> (covers h' z v <-> covers h z v)) by (intros z v Z; unfold covers; rewrite Lk by exact Z; reflexivity).
  (* children of the new items are new *)
  assert (Kid : forall q z, hnext h <= q -> In z (nitems (hnode h' q)) -> hnext h < z < hnext h').
  { intros q z Q Hz. destruct (Nat.lt_ge_cases q (hnext h')) as [Q'|Q']; [|pose proof (proj1 (fo_alloc _ _ (lw_forest _ W) q Q)) as K; cbn in K; rewrite F1, K in Hz by exact Q'; destruct Hz].
    assert (K : In z (flat_map flatten Ts)); [|apply RN in K; exact K]. destruct (Nat.eq_dec q new) as [->|Qn].
    - rewrite IN in Hz. apply in_map_iff in Hz as (U & <- & HU). apply in_flat_map. exists U. split; [exact HU|apply in_flatten_root].
    - assert (Q2 : hnext h < q < hnext h') by (unfold new in *; lia). apply CV in Q2. apply in_flat_map in Q2 as (U & HU & Hq). rewrite Forall_forall in BN.
      destruct (built_nodes h' U new (BN U HU) q Hq) as (_ & _ & K & _). apply in_flat_map. exists U. split; [exact HU|]. apply K. exact Hz. }
  assert (Lv : forall q z, Live h' q z -> (Live h q z) \/ (z = new /\ q = p) \/ (hnext h < z < hnext h')).
  { intros q z. induction 1 as [z Hz|z v HL IH Hc].
    - destruct (Nat.lt_ge_cases q (hnext h)) as [Q|Q]; [|right; right; eapply Kid; eassumption].
      destruct (Nat.eq_dec q p) as [->|Qp]; [|left; apply Live_child; rewrite <- It by assumption; exact Hz].
      rewrite I1 in Hz. apply in_app_iff in Hz as [Hz|[<-|Hz]]; [left; apply Live_child; rewrite El; apply in_app_iff; auto|auto|left; apply Live_child; rewrite El; apply in_app_iff; cbn; auto].
    - destruct IH as [IH|[(-> & ->)|IH]].
      + left. apply Co in Hc; [eapply Live_cover; eassumption|apply (live_lt h q z W C IH)].
      + left. rewrite <- (covers_fun _ _ _ _ Cn Hc). apply Live_child. exact Hin.
      + exfalso. exact (Fr z IH v Hc). }
  constructor.
  - intros q u v Hu Hc. destruct (Lv q u Hu) as [L|[(-> & ->)|L]]; [| |exfalso; exact (Fr u L v Hc)].
    + destruct (live_lt h q u W C L) as (Q & U). apply Co in Hc; [|exact U]. destruct (cv_one h C q u v L Hc) as (A1 & A2 & A3 & A4). split; [lia|]. split.
      { intros q' K. destruct (Nat.lt_ge_cases q' (hnext h)) as [Q'|Q']; [|specialize (Kid q' v Q' K); lia]. destruct (Nat.eq_dec q' p) as [->|Qp]; [|rewrite It in K by assumption; exact (A2 q' K)].
        rewrite I1 in K. apply (A2 p). rewrite El. apply in_app_iff in K as [K|[K|K]]; [apply in_app_iff; auto|unfold new in K; lia|apply in_app_iff; cbn; auto]. }
      split; [rewrite !Tg by assumption; exact A3|]. unfold parent_of in *. rewrite Par by exact A1. destruct A4 as [A4|(A4 & A5)]; [left; exact A4|right]. split; [exact A4|].
      intros a Ha. apply A5. apply (anc_old h h' (hnext h) Par (fo_par _ _ (lw_forest _ W)) a q Ha Q).
    + rewrite <- (covers_fun _ _ _ _ Cn Hc). split; [lia|]. split.
      { intros q' K. destruct (Nat.lt_ge_cases q' (hnext h)) as [Q'|Q']; [|specialize (Kid q' x Q' K); lia]. pose proof (fo_child _ _ (lw_forest _ W) p x Hin) as E2.
        destruct (Nat.eq_dec q' p) as [->|Qp]; [|rewrite It in K by assumption; pose proof (fo_child _ _ (lw_forest _ W) q' x K); congruence].
        pose proof (fo_nodup _ _ (lw_forest _ W) p) as ND. cbn in ND. rewrite El in ND. rewrite I1 in K. apply NoDup_remove_2 in ND. apply ND. apply in_app_iff. apply in_app_iff in K as [K|[K|K]]; auto. unfold new in K. lia. }
      split; [rewrite Tg by exact Lx; symmetry; exact (f_equal (fun d => fst (fst (fst (fst d)))) DN)|]. left. unfold parent_of. rewrite Par by exact Lx. apply (fo_child _ _ (lw_forest _ W)). exact Hin.
  - assert (NC : forall q u v, Live h q u -> covers h u v -> v <> x) by (intros q u v L Hc ->; apply (proj1 (proj2 (cv_one h C q u x L Hc)) p); exact Hin).
    intros q q' u u' v Hu Hu' Hc Hc'. destruct (Lv q u Hu) as [L|[(-> & _)|L]]; [| |exfalso; exact (Fr u L v Hc)]; (destruct (Lv q' u' Hu') as [L'|[(-> & _)|L']]; [| |exfalso; exact (Fr u' L' v Hc')]).
    + apply Co in Hc; [|apply (live_lt h q u W C L)]. apply Co in Hc'; [|apply (live_lt h q' u' W C L')]. apply (cv_inj h C q q' u u' v); assumption.
    + exfalso. apply Co in Hc; [|apply (live_lt h q u W C L)]. apply (NC q u v L Hc). apply (covers_fun _ _ _ _ Hc' Cn).
    + exfalso. apply Co in Hc'; [|apply (live_lt h q' u' W C L')]. apply (NC q' u' v L' Hc'). apply (covers_fun _ _ _ _ Hc Cn).
    + reflexivity.
Qed.

(** load_links *)
Lemma locals_tag h l : forall add pre k y, In (k, LOld y) (locals h add pre l) -> fst k = ntag (hnode h y).
Proof.
  induction l as [|z r IH]; intros add pre k y; [intros []|]. cbn [locals]. destruct (is_linked h z && add); [|destruct (has _ _)].
  - intros [E|H]; [discriminate|eapply IH; exact H].
  - intros [E|H]; [discriminate|eapply IH; exact H].
  - intros [E|H]; [injection E as <- <-; reflexivity|eapply IH; exact H].
Qed.
Lemma combine_keys_tag (h : heap) (Cs : list (tree loc)) : forall pre k C, In (k, C) (combine (keys_from (tags h) pre (map root Cs)) Cs) -> fst k = ntag (hnode h (root C)).
Proof.
  induction Cs as [|C Cs IH]; intros pre k D; [intros []|]. cbn [map keys_from combine]. intros [E|H]; [injection E as <- <-; reflexivity|eapply IH; exact H].
Qed.
Lemma old_dec (L : list ((pyval * Z) * lent)) y : forall ks, (forall k, In k ks -> lget L k <> Some (LOld y)) \/ exists k, In k ks /\ lget L k = Some (LOld y).
Proof.
  induction ks as [|k ks [IH|(k' & IH)]]; [left; intros k []| |right; exists k'; cbn; tauto].
  destruct (lget L k) as [[z|]|] eqn:E; [destruct (Nat.eq_dec z y) as [->|Z]; [right; exists k; cbn; auto|]| |]; left; intros k' [<-|H]; try (apply IH; exact H); congruence.
Qed.
Lemma Forall2_idx {A B} (R : A -> B -> Prop) l m : Forall2 R l m -> forall a, In a l -> exists i b, nth_error l i = Some a /\ nth_error m i = Some b /\ R a b.
Proof.
  induction 1 as [|a b l m H _ IH]; [intros ? []|]. intros c [<-|Hc]; [exists 0, b; auto|]. destruct (IH c Hc) as (i & b' & E1 & E2 & Hr). exists (S i), b'. auto.
Qed.
Lemma in_combine_ex {A B} (l : list A) : forall (m : list B) a, length l = length m -> In a l -> exists b, In (a, b) (combine l m).
Proof. induction l as [|x l IH]; intros [|y m] a E H; try discriminate; [destruct H|]. destruct H as [<-|H]; [exists y; left; reflexivity|]. destruct (IH m a ltac:(cbn in E; lia) H) as (b & Hb). exists b. right. exact Hb. Qed.
Lemma load_covers h x t Cs lk h' Rs : LWF h -> covers_ok h -> x < hnext h -> nlink (hnode h x) = Some lk -> load_result h x t Cs lk h' Rs -> covers_ok h'.
Proof.
  intros W C Lx Elk (W' & HO & Hn & T1 & _ & _ & _ & T5 & T6 & S1 & S2 & S3 & FD & M1 & M2 & _ & RR & NR & FR). cbv zeta in *.
  set (olds := nitems (hnode h x)) in *. set (L := locals h false [] olds) in *. set (ks := keys_from (tags h) [] (map root Cs)) in *.
  set (cl := coupled_from h [] olds) in *. set (ts := combine ks (map root Rs)) in *. set (ml := merge (IT h t) L ts) in *.
  assert (NL : NoDup (map fst L)) by (unfold L; rewrite locals_keys; apply keys_from_NoDup).
  assert (Len : length ks = length Cs) by (unfold ks; rewrite keys_from_length, map_length; reflexivity).
  assert (Lo : forall y, In y olds -> y < hnext h) by (intros y Hy; apply (LWF_child_lt h x y W Hy)).
  assert (Kp : forall y, In y (map snd (kept_of L)) -> In y olds).
  { intros y Hy. apply in_map_iff in Hy as (p & <- & Hp). eapply kept_locals. exact Hp. }
  assert (KO : forall k y, lget L k = Some (LOld y) -> In y olds /\ fst k = ntag (hnode h y)).
  { intros k y E. apply lget_in in E; [|exact NL]. split; [apply Kp; apply in_map_iff; exists (k, y); split; [reflexivity|apply kept_in; exact E]|eapply locals_tag; exact E]. }
  assert (SF : forall z, z < hnext h -> z <> x -> strip (set_link None (hnode h' z)) = strip (set_link None (hnode h z))).
  { intros z Z Zx. destruct (in_dec Nat.eq_dec z olds) as [K|K]; [apply S2; exact K|exact (f_equal (set_link None) (S1 z Z Zx K))]. }
  assert (Par : forall z, z < hnext h -> a_parent (view h' z) = a_parent (view h z)).
  { intros z Z. cbn. destruct (Nat.eq_dec z x) as [->|Zx]; [rewrite T5; reflexivity|exact (strip_par _ _ (SF z Z Zx))]. }
  assert (It : forall z, z < hnext h -> z <> x -> nitems (hnode h' z) = nitems (hnode h z)) by (intros z Z Zx; exact (strip_items _ _ (SF z Z Zx))).
  assert (Tg : forall z, z < hnext h -> ntag (hnode h' z) = ntag (hnode h z)).
  { intros z Z. destruct (Nat.eq_dec z x) as [->|Zx]; [exact T1|]. exact (f_equal ntag (SF z Z Zx)). }
  (* the copies *)
  assert (Cp : forall C', In C' Rs -> exists D co, copy_of h h' D co C').
  { intros C' HC'. clear - FD HC'. revert FD. generalize (combine ks Cs). intros l FD. induction FD as [|p D l l' H FD IH]; [destruct HC'|]. destruct HC' as [->|HC']; [|apply IH; exact HC']. destruct H as (A & _). eauto. }
  assert (Fr : forall z, hnext h <= z < hnext h' -> (forall v, ~ covers h' z v) /\ (forall c, In c (nitems (hnode h' z)) -> hnext h <= c < hnext h')).
  { intros z Z. apply RR in Z. apply in_flat_map in Z as (C' & HC' & Z). destruct (Cp C' HC') as (D & co & (Q1 & (Q2 & _) & Q3 & _)). destruct C' as [c cs]. cbn [root kids] in *.
    assert (In' : forall w, In w (flatten (Node c cs)) -> hnext h <= w < hnext h') by (intros w Hw; apply RR; apply in_flat_map; exists (Node c cs); auto).
    rewrite Forall_forall in Q3. destruct Z as [<-|Z].
    - split; [intros v (k & K & _)|intros w Hw]; [rewrite (f_equal (fun d => snd (fst d)) Q1 : nlink (hnode h' c) = None) in K; discriminate|].
      rewrite Q2 in Hw. apply in_map_iff in Hw as (U & <- & HU). apply In'. right. apply in_flat_map. exists U. split; [exact HU|apply in_flatten_root].
    - apply in_flat_map in Z as (U & HU & Z). destruct (built_nodes h' U c (Q3 U HU) z Z) as (_ & _ & K & _ & _ & (_ & P)). split; [intros v (k & K1 & K2); rewrite (P k K1) in K2; discriminate|].
      intros w Hw. apply In'. right. apply in_flat_map. exists U. split; [exact HU|apply K; exact Hw]. }
  assert (Kid : forall q z, hnext h <= q -> In z (nitems (hnode h' q)) -> hnext h <= z < hnext h').
  { intros q z Q Hz. destruct (Nat.lt_ge_cases q (hnext h')) as [Q'|Q']; [exact (proj2 (Fr q (conj Q Q')) z Hz)|]. pose proof (proj1 (fo_alloc _ _ (lw_forest _ W) q Q)) as K. cbn in K. rewrite FR, K in Hz by exact Q'. destruct Hz. }
  (* the covers of the old items *)
  assert (Co : forall z v, z < hnext h -> covers h' z v -> covers h z v \/
     (In z olds /\ exists i k C', nth_error (combine ks Cs) i = Some (k, C') /\ lget L k = Some (LOld z) /\ nth_error (map root Rs) i = Some v /\ hnext h <= v < hnext h' /\ parent_of h' v = None /\ ntag (hnode h' v) = ntag (hnode h z))).
  { intros z v Z (k0 & K1 & K2). destruct (Nat.eq_dec z x) as [->|Zx]; [left; exists lk; rewrite T6 in K1; injection K1 as <-; auto|].
    destruct (in_dec Nat.eq_dec z olds) as [O|O]; [|left; exists k0; rewrite (strip_link _ _ (S1 z Z Zx O)) in K1; auto].
    destruct (old_dec L z ks) as [D|(k & Hk & D)]; [left; exists k0; rewrite (S3 z O D) in K1; auto|right]. split; [exact O|].
    destruct (in_combine_ex ks Cs k Len Hk) as (D' & HD'). destruct (Forall2_idx _ _ _ FD _ HD') as (i & C' & E1 & E2 & (I1 & I2 & I3)). cbn [fst snd] in *. rewrite D in I2. rewrite (I3 z D) in K1. injection K1 as <-. cbn in K2. injection K2 as <-.
    exists i, k, D'. split; [exact E1|]. split; [exact D|]. split; [rewrite nth_error_map, E2; reflexivity|]. split; [apply RR; apply in_flat_map; exists C'; split; [eapply nth_error_In; exact E2|apply in_flatten_root]|].
    split; [exact I2|]. destruct I1 as (I1 & _). rewrite <- (proj2 (KO k z D)), (combine_keys_tag h Cs [] k D' HD'). exact (f_equal (fun d => fst (fst (fst (fst d)))) I1). }
  assert (Lv : forall q z, Live h' q z -> Live h q z \/ hnext h <= z < hnext h').
  { intros q z. induction 1 as [z Hz|z v HL IH Hc].
    - destruct (Nat.lt_ge_cases q (hnext h)) as [Q|Q]; [|right; eapply Kid; eassumption].
      destruct (Nat.eq_dec q x) as [->|Qx]; [|left; apply Live_child; rewrite <- It by assumption; exact Hz].
      rewrite HO in Hz. apply M2 in Hz as [Hz|Hz]; [|left; apply Live_child, Kp; exact Hz]. apply in_map_iff in Hz as ((k, w) & Ew & Hw). unfold rep in Ew. cbn [fst snd] in Ew.
      assert (Fw : hnext h <= w < hnext h'). { unfold ts in Hw. apply in_combine_r in Hw. apply in_map_iff in Hw as (U & <- & HU). apply RR. apply in_flat_map. exists U. split; [exact HU|apply in_flatten_root]. }
      destruct (lget L k) as [[u|]|] eqn:EL; [left; apply Live_child; rewrite <- Ew; apply (KO k u EL)|right; rewrite <- Ew; exact Fw|right; rewrite <- Ew; exact Fw].
    - destruct IH as [IH|IH]; [|exfalso; exact (proj1 (Fr z IH) v Hc)]. destruct (Co z v (proj2 (live_lt h q z W C IH)) Hc) as [K|(_ & i & k & C' & _ & _ & _ & K & _)]; [left; eapply Live_cover; eassumption|right; exact K]. }
  assert (Lq : forall q z, Live h q z -> In z olds -> q = x).
  { intros q z HL HZ. pose proof (live_child h q z x W C HL HZ) as K. pose proof (fo_child _ _ (lw_forest _ W) q z K). pose proof (fo_child _ _ (lw_forest _ W) x z HZ). congruence. }
  constructor.
  - intros q u v Hu Hc. destruct (Lv q u Hu) as [HL|HL]; [|exfalso; exact (proj1 (Fr u HL) v Hc)]. destruct (live_lt h q u W C HL) as (Q & U).
    destruct (Co u v U Hc) as [K|(O & i & k & C' & _ & _ & _ & K1 & K2 & K3)].
    + destruct (cv_one h C q u v HL K) as (A1 & A2 & A3 & A4). split; [lia|]. split.
      { intros q' K'. destruct (Nat.lt_ge_cases q' (hnext h)) as [Q'|Q']; [|specialize (Kid q' v Q' K'); lia]. destruct (Nat.eq_dec q' x) as [->|Qx]; [|rewrite It in K' by assumption; exact (A2 q' K')].
        assert (HL' : Live h' x v) by (apply Live_child; exact K'). rewrite HO in K'. apply M2 in K' as [K'|K']; [|apply (A2 x), Kp; exact K'].
        apply in_map_iff in K' as ((k, w) & Ew & Hw). unfold rep in Ew. cbn [fst snd] in Ew.
        assert (Fw : hnext h <= w). { unfold ts in Hw. apply in_combine_r in Hw. apply in_map_iff in Hw as (D & <- & HD). apply RR. apply in_flat_map. exists D. split; [exact HD|apply in_flatten_root]. }
        destruct (lget L k) as [[z|]|] eqn:EL; [apply (A2 x); rewrite <- Ew; apply (KO k z EL)|lia|lia]. }
      split; [rewrite !Tg by assumption; exact A3|]. unfold parent_of in *. rewrite Par by exact A1. destruct A4 as [A4|(A4 & A5)]; [left; exact A4|right]. split; [exact A4|].
      intros a Ha. apply A5. apply (anc_old h h' (hnext h) Par (fo_par _ _ (lw_forest _ W)) a q Ha Q).
    + rewrite (Lq q u HL O) in *. split; [lia|]. split; [intros q' K'; pose proof (fo_child _ _ (lw_forest _ W') q' v K'); unfold parent_of in K2; congruence|].
      split; [rewrite K3; symmetry; apply Tg; exact U|]. right. split; [exact K2|]. intros a Ha. pose proof (anc_old h h' (hnext h) Par (fo_par _ _ (lw_forest _ W)) a x Ha Lx) as (_ & K). lia.
  - assert (ND : NoDup (map root Rs)) by (apply NoDup_flat_sub; exact NR).
    intros q q' u u' v Hu Hu' Hc Hc'. destruct (Lv q u Hu) as [HL|HL]; [|exfalso; exact (proj1 (Fr u HL) v Hc)]. destruct (Lv q' u' Hu') as [HL'|HL']; [|exfalso; exact (proj1 (Fr u' HL') v Hc')].
    destruct (Co u v (proj2 (live_lt h q u W C HL)) Hc) as [K|(O & i & k & C' & E1 & E2 & E3 & K & _)]; destruct (Co u' v (proj2 (live_lt h q' u' W C HL')) Hc') as [K'|(O' & i' & k' & C'' & E1' & E2' & E3' & K' & _)].
    + apply (cv_inj h C q q' u u' v); assumption.
    + exfalso. pose proof (proj1 (cv_one h C q u v HL K)). lia.
    + exfalso. pose proof (proj1 (cv_one h C q' u' v HL' K')). lia.
    + pose proof (NoDup_nth_error_inj _ _ _ _ ND E3 E3') as <-. rewrite E1 in E1'. injection E1' as <- _. congruence.
Qed.
