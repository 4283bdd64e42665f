(** load_links and make_local keep the trees well-formed (links may cover items afterwards). *)
From Coq Require Import List.
From Verif Require Import Base Heap HeapSpec ListLemmas ForestLemmas HeapInv HeapAttach HeapOps HeapOps2 HeapOps3 Tree HeapTree HeapCopy Deep SerModel HeapHash LinkModel LinkFacts LinkFacts2 LinkMerge LinkLoad LinkRun LinkAll.
Import ListNotations.
Local Open Scope list_scope.

Lemma NoDup_flat_sub (Ts : list (tree loc)) : NoDup (flat_map flatten Ts) -> NoDup (map root Ts) /\ forall T, In T Ts -> NoDup (flatten T).
Proof.
  induction Ts as [|T Ts IH]; intros N; [split; [constructor|intros T []]|]. cbn in N. apply NoDup_app_inv in N as (N1 & N2 & N3). destruct (IH N2) as (I1 & I2). split.
  - cbn. constructor; [|exact I1]. intros H. apply in_map_iff in H as (U & E & H). apply (N3 (root T)); [apply in_flatten_root|]. rewrite <- E. apply in_flat_map. exists U. split; [exact H|apply in_flatten_root].
  - intros U [<-|H]; [exact N1|apply I2; exact H].
Qed.

Lemma built_nodes h T : forall p, built h p T -> forall y, In y (flatten T) ->
  (exists q, parent_of h y = Some q /\ (q = p \/ In q (flatten T))) /\ node_fam_ok h y /\
  (forall c, In c (nitems (hnode h y)) -> parent_of h c = Some y /\ In c (flatten T)) /\
  (NoDup (flatten T) -> NoDup (nitems (hnode h y))) /\ (Rooted (view h) p -> Rooted (view h) y) /\ plain (hnode h y).
Proof.
  induction T as [z cs IH] using tree_ind'. intros p HB y Hy. apply built_iff in HB as ((i & f & Ep & _) & HO & Hc & HB).
  assert (Pz : parent_of h z = Some p) by (unfold parent_of; cbn; rewrite Ep; reflexivity).
  assert (Rz : Rooted (view h) p -> Rooted (view h) z) by (intros R; eapply Rooted_step; [exact Pz|exact R]).
  rewrite Forall_forall in IH, HB. destruct Hy as [<-|Hy].
  - split; [exists p; auto|]. pose proof HO as (Ei & _). split; [apply own_fam; rewrite Ei; exact HO|]. split.
    { intros c Hc'. rewrite Ei in Hc'. apply in_map_iff in Hc' as (U & <- & HU). split; [|right; apply in_flat_map; exists U; split; [exact HU|apply in_flatten_root]].
      specialize (HB U HU). destruct U as [u us]. apply built_iff in HB as ((i' & f' & Ep' & _) & _). unfold parent_of. cbn. rewrite Ep'. reflexivity. }
    split; [|split; [exact Rz|exact Hc]]. intros N. rewrite Ei. cbn in N. inversion N; subst. apply NoDup_flat_sub. assumption.
  - apply in_flat_map in Hy as (U & HU & Hy). destruct (IH U HU z (HB U HU) y Hy) as ((q & Pq & Q) & A & B & C & D & E). split; [|split; [exact A|split; [|split; [|split]]]].
    + exists q. split; [exact Pq|]. right. destruct Q as [->|Q]; [left; reflexivity|right; apply in_flat_map; exists U; auto].
    + intros c Hc'. destruct (B c Hc') as (B1 & B2). split; [exact B1|]. right. apply in_flat_map. exists U. auto.
    + intros N. apply C. cbn in N. inversion N; subst. eapply (proj2 (NoDup_flat_sub cs H2)). exact HU.
    + auto.
    + exact E.
Qed.

Lemma node_fam_strip h h' y : strip (set_link None (hnode h' y)) = strip (set_link None (hnode h y)) -> (forall c, In c (nitems (hnode h y)) -> ntag (hnode h' c) = ntag (hnode h c)) -> node_fam_ok h y -> node_fam_ok h' y.
Proof.
  intros S T F. apply strip_fields in S as (S1 & S2 & S3 & _). cbn in S1, S2, S3. apply own_fam. apply own_fam in F. rewrite S1. destruct F as (_ & F). split; [exact S1|].
  destruct F as [(E & F)|(B & d & D & F)]; [left; split; [exact E|unfold leaf_ok; rewrite S2, S3; exact F]|right]. rewrite S2, S3. split; [exact B|]. exists d. split; [exact D|].
  eapply fam_ok_ext; [|exact F]. intros c Hc. symmetry. apply T. exact Hc.
Qed.

(** the children of [x] are replaced, new items are added *)
Lemma LWF_graft h0 h' x l : LWF h0 -> x < hnext h0 -> hnext h0 <= hnext h' -> caches_ok h' -> (forall y, hnext h' <= y -> hnode h' y = hnode h0 y) ->
  (forall y, y < hnext h0 -> y <> x -> strip (set_link None (hnode h' y)) = strip (set_link None (hnode h0 y))) ->
  ntag (hnode h' x) = ntag (hnode h0 x) -> parent_of h' x = parent_of h0 x -> own h' x l -> NoDup l -> (forall y, In y l -> parent_of h' y = Some x) ->
  (forall y, hnext h0 <= y < hnext h' -> node_fam_ok h' y /\ NoDup (nitems (hnode h' y)) /\ (forall c, In c (nitems (hnode h' y)) -> parent_of h' c = Some y) /\
     (forall q, parent_of h' y = Some q -> q < hnext h') /\ ((forall z, z < hnext h0 -> Rooted (view h') z) -> Rooted (view h') y)) ->
  LWF h'.
Proof.
  intros W Hx Hn CA Hfree Hold Tx Px HO ND HP Hnew.
  assert (V : forall y, y < hnext h0 -> parent_of h' y = parent_of h0 y).
  { intros y Hy. destruct (Nat.eq_dec y x) as [->|Y]; [exact Px|]. specialize (Hold y Hy Y). apply strip_nview in Hold. exact (f_equal a_parent Hold). }
  assert (Ch : forall y, y < hnext h0 -> y <> x -> nitems (hnode h' y) = nitems (hnode h0 y)).
  { intros y Hy Y. specialize (Hold y Hy Y). apply strip_nview in Hold. exact (f_equal a_children Hold). }
  assert (T : forall y, y < hnext h0 -> ntag (hnode h' y) = ntag (hnode h0 y)).
  { intros y Hy. destruct (Nat.eq_dec y x) as [->|Y]; [exact Tx|]. specialize (Hold y Hy Y). apply strip_nview in Hold. exact (f_equal a_tag Hold). }
  pose proof (lw_forest _ W) as F. assert (Ex : nitems (hnode h' x) = l) by apply HO.
  assert (Rt : forall z, Rooted (view h0) z -> z < hnext h0 -> Rooted (view h') z).
  { induction 1 as [z E|z q E R IH]; intros Hz; [apply Rooted_root|eapply Rooted_step; [|apply IH; eapply (fo_par _ _ F); exact E]].
    - change (parent_of h' z = None). rewrite V by exact Hz. exact E.
    - change (parent_of h' z = Some q). rewrite V by exact Hz. exact E. }
  assert (Ro : forall z, z < hnext h0 -> Rooted (view h') z) by (intros z Hz; apply Rt; [apply (fo_root _ _ F)|exact Hz]).
  assert (Cases : forall y, y < hnext h0 \/ hnext h0 <= y < hnext h' \/ hnext h' <= y) by (intros y; lia).
  assert (Free : forall y, hnext h' <= y -> nitems (hnode h' y) = [] /\ parent_of h' y = None).
  { intros y Hy. destruct (fo_alloc _ _ F y ltac:(lia)) as (A & B). rewrite Hfree by exact Hy. split; [exact A|]. unfold parent_of, view. rewrite Hfree by exact Hy. exact B. }
  constructor.
  - constructor.
    + intros p c Hc. change (In c (nitems (hnode h' p))) in Hc. destruct (Cases p) as [Hp|[Hp|Hp]].
      * destruct (Nat.eq_dec p x) as [->|Y]; [apply HP; rewrite <- Ex; exact Hc|]. rewrite Ch in Hc by assumption.
        change (parent_of h' c = Some p). rewrite V by (apply (LWF_child_lt h0 p c W Hc)). apply (fo_child _ _ F). exact Hc.
      * apply Hnew; assumption.
      * rewrite (proj1 (Free p Hp)) in Hc. destruct Hc.
    + intros p. change (NoDup (nitems (hnode h' p))). destruct (Cases p) as [Hp|[Hp|Hp]].
      * destruct (Nat.eq_dec p x) as [->|Y]; [rewrite Ex; exact ND|]. rewrite Ch by assumption. apply (fo_nodup _ _ F).
      * apply Hnew; assumption.
      * rewrite (proj1 (Free p Hp)). constructor.
    + exact Free.
    + intros y p E. change (parent_of h' y = Some p) in E. destruct (Cases y) as [Hy|[Hy|Hy]].
      * rewrite V in E by exact Hy. pose proof (fo_par _ _ F _ _ E). lia.
      * eapply Hnew; eassumption.
      * rewrite (proj2 (Free y Hy)) in E. discriminate.
    + intros y. destruct (Cases y) as [Hy|[Hy|Hy]]; [apply Ro; exact Hy|apply Hnew; assumption|apply Rooted_root; apply Free; exact Hy].
  - exact CA.
  - intros p. destruct (Cases p) as [Hp|[Hp|Hp]].
    + destruct (Nat.eq_dec p x) as [->|Y]; [apply own_fam; rewrite Ex; exact HO|]. eapply node_fam_strip; [apply Hold; assumption| |apply (lw_fams _ W)].
      intros c Hc. apply T. apply (LWF_child_lt h0 p c W Hc).
    + apply Hnew; assumption.
    + pose proof (lw_fams _ W p) as Q. unfold node_fam_ok in *. rewrite Hfree by exact Hp. destruct (fo_alloc _ _ F p ltac:(lia)) as (A & _). cbn in A.
      destruct (nbound (hnode h0 p)); try exact Q. destruct Q as (d & D1 & D2). exists d. split; [exact D1|]. rewrite A in *. exact D2.
Qed.

(** items built below [p], as seen by [LWF_graft] *)
Lemma built_graft h0 h' p Ts : Forall (built h' p) Ts -> NoDup (flat_map flatten Ts) -> (forall y, In y (flat_map flatten Ts) -> hnext h0 <= y < hnext h') -> p < hnext h' ->
  forall y, In y (flat_map flatten Ts) -> node_fam_ok h' y /\ NoDup (nitems (hnode h' y)) /\ (forall c, In c (nitems (hnode h' y)) -> parent_of h' c = Some y) /\
     (forall q, parent_of h' y = Some q -> q < hnext h') /\ (Rooted (view h') p -> Rooted (view h') y).
Proof.
  intros HB ND HR Hp y Hy. apply in_flat_map in Hy as (T & HT & Hy). rewrite Forall_forall in HB.
  destruct (built_nodes h' T p (HB T HT) y Hy) as ((q & Pq & Q) & A & B & C & D & _). split; [exact A|]. split; [apply C; apply (proj2 (NoDup_flat_sub Ts ND)); exact HT|].
  split; [intros c Hc; apply B; exact Hc|]. split; [|exact D]. intros q' E. rewrite Pq in E. injection E as <-. destruct Q as [->|Q]; [exact Hp|]. apply HR. apply in_flat_map. exists T. auto.
Qed.

Lemma make_local_LWF h p l1 x l2 T b h' new : LWF h -> nitems (hnode h p) = l1 ++ x :: l2 -> is_linked h x = true -> is_link_root h p = true ->
  near h x (length (byt (tags h) (ntag (hnode h x)) l1)) ->
  ltree (view h) T -> root T = x -> (forall y, In y (below_tree T) -> conv_good (label (view h) y) = true) ->
  make_local x b h = (h', Ok new) -> LWF h'.
Proof.
  intros W El NL LR HN HT Er HG E. destruct (make_local_ok h p l1 x l2 T b W El NL LR HN HT Er HG) as (h1 & Ts & E1 & X1 & O1 & V1 & S1 & F1 & D1 & P1 & PN & DN & ON & BN & LN & RN & NN & CN & CV).
  rewrite E in E1. injection E1 as <- ->.
  assert (Hin : In x (nitems (hnode h p))) by (rewrite El; apply in_elt). destruct (LWF_child_lt h p x W Hin) as (Hp & Hx).
  pose proof (fo_nodup _ _ (lw_forest _ W) p) as ND. cbn in ND. rewrite El in ND.
  assert (Lt : forall y, In y (l1 ++ x :: l2) -> y < hnext h) by (intros y Hy; rewrite <- El in Hy; apply (LWF_child_lt h p y W Hy)).
  assert (In' : forall y, In y (l1 ++ hnext h :: l2) -> y = hnext h \/ In y (l1 ++ x :: l2)) by (intros y Hy; apply in_app_iff in Hy as [Hy|[Hy|Hy]]; [right; apply in_app_iff; auto|auto|right; apply in_app_iff; cbn; auto]).
  assert (Px : p <> x) by (intros ->; apply (not_self_parent _ _ (fo_root _ _ (lw_forest _ W) x)); apply (fo_child _ _ (lw_forest _ W)); exact Hin).
  eapply (LWF_graft h h' p); eauto.
  - lia.
  - intros y Y1 Y2. pose proof (S1 y Y1 Y2) as Q. exact (f_equal (set_link None) Q).
  - injection D1. auto.
  - unfold parent_of. cbn. rewrite P1. reflexivity.
  - assert (Nn : ~ In (hnext h) (l1 ++ x :: l2)) by (intros K; apply Lt in K; lia). apply NoDup_remove in ND as (N1 & N2).
    apply NoDup_app_inv in N1 as (A & B & C). apply NoDup_app; [exact A|constructor; [intros K; apply Nn; apply in_app_iff; cbn; auto|exact B]|].
    intros y H1 [<-|H2]; [apply Nn; apply in_app_iff; auto|apply (C y H1 H2)].
  - intros y Hy. apply In' in Hy as [->|Hy]; [unfold parent_of; cbn; rewrite PN; reflexivity|].
    assert (Y : y <> p). { intros ->. apply (not_self_parent _ _ (fo_root _ _ (lw_forest _ W) p)). apply (fo_child _ _ (lw_forest _ W)). cbn. rewrite El. exact Hy. }
    pose proof (S1 y (Lt y Hy) Y) as Q. apply strip_nview in Q. apply (f_equal a_parent) in Q. change (parent_of h' y = parent_of h y) in Q. rewrite Q.
    apply (fo_child _ _ (lw_forest _ W)). cbn. rewrite El. exact Hy.
  - assert (Rn : (forall z, z < hnext h -> Rooted (view h') z) -> Rooted (view h') (hnext h)).
    { intros R. eapply Rooted_step; [|apply R; exact Hp]. cbn. rewrite PN. reflexivity. }
    intros y Hy. destruct (Nat.eq_dec y (hnext h)) as [->|Y].
    + pose proof ON as (Ei & _). split; [apply own_fam; rewrite Ei; exact ON|]. rewrite Ei. split; [apply NoDup_flat_sub; exact NN|].
      split. { intros c Hc. apply in_map_iff in Hc as (U & <- & HU). rewrite Forall_forall in BN. specialize (BN U HU). destruct U as [u us]. apply built_iff in BN as ((i' & f' & Ep' & _) & _). unfold parent_of. cbn. rewrite Ep'. reflexivity. }
      split; [|exact Rn]. intros q. unfold parent_of. cbn. rewrite PN. cbn. intros [= <-]. lia.
    + destruct (built_graft h h' (hnext h) Ts BN NN) with (y := y) as (A & B & C & D & F); [intros z Hz; specialize (RN z Hz); lia|lia|apply CV; lia|]. repeat (split; [assumption|]). intros R. apply F, Rn, R.
Qed.

(** * load_links *)
(** the situation: [x] is a link root whose link has to be loaded, [Node t Cs] is the target tree *)
Record LoadReady (target_of : heap -> loc -> res loc) (changed : heap -> loc -> bool) (force : bool) (h : heap) (x t : loc) (Cs : list (tree loc)) (lk : linkrec) : Prop := {
  lr_wf : LWF h;
  lr_x : x < hnext h;
  lr_root : is_link_root h x = true;
  lr_link : nlink (hnode h x) = Some lk;
  lr_load : force || negb (lk_loaded lk) || changed h x = true;
  lr_place : place_ok h [] (nitems (hnode h x));
  lr_target : target_of h x = Ok t;
  lr_tree : ltree (view h) (Node t Cs);
  lr_lt : t < hnext h;
  lr_out : ~ In x (flatten (Node t Cs));
  lr_near : all_near h [] (map root Cs);
  lr_kids : forall C, In C Cs -> is_linked h (root C) = false /\ is_link_root h (root C) = false;
  lr_hash : forall C, In C Cs -> hashable (ntag (hnode h (root C))) = true;
  lr_below : forall C y, In C Cs -> In y (below_tree C) -> conv_good (label (view h) y) = true }.

Lemma link_root_lt h x : LWF h -> hnext h <= x -> nitems (hnode h x) = [].
Proof. intros W H. apply (fo_alloc _ _ (lw_forest _ W) x H). Qed.
Lemma LWF_kids_of h x : LWF h -> kids_of h x (nitems (hnode h x)).
Proof.
  intros W. split; [apply LWF_own; exact W|]. split; [apply (fo_nodup _ _ (lw_forest _ W) x)|]. split; [apply (lw_caches _ W)|]. intros y Hy. apply (fo_child _ _ (lw_forest _ W)). exact Hy.
Qed.
Lemma ltree_parent s n T : Forest n s -> ltree s T -> forall y q, In y (below_tree T) -> a_parent (s y) = Some q -> In q (flatten T).
Proof.
  intros F. induction T as [z cs IH] using tree_ind'. intros HT y q Hy E. apply ltree_iff in HT as (Ek & HT). rewrite Forall_forall in IH, HT.
  cbn in Hy. apply in_flat_map in Hy as (U & HU & Hy). destruct U as [u us]. destruct Hy as [<-|Hy].
  - left. assert (In u (a_children (s z))) by (rewrite <- Ek; apply in_map_iff; exists (Node u us); auto). apply (fo_child _ _ F) in H. congruence.
  - right. apply in_flat_map. exists (Node u us). split; [exact HU|]. eapply (IH _ HU (HT _ HU) y); eauto.
Qed.
Lemma load_targets to ch f h x t Cs lk : LoadReady to ch f h x t Cs lk -> Forall (target_ok h x (nitems (hnode h x))) Cs /\ kids_of h t (map root Cs) /\ x <> t.
Proof.
  intros [W Lx R Lk Ld Pl Tg HT Ht Hx Nr Kd Hs Bl]. pose proof (lw_forest _ W) as F. pose proof HT as HT'. apply ltree_iff in HT' as (Ek & HTk). cbn in Ek.
  split; [|split].
  - rewrite Forall_forall in HTk. apply Forall_forall. intros C HC. destruct (Kd C HC) as (K1 & K2). split; [apply HTk; exact HC|]. split; [eapply ltree_NoDup; [exact F|apply HTk; exact HC]|].
    split; [|split; [exact K1|split; [exact K2|split; [apply Hs; exact HC|intros y Hy; eapply Bl; eassumption]]]].
    intros y Hy. assert (B : In y (below_tree (Node t Cs))) by (apply in_flat_map; exists C; auto).
    split; [eapply (ltree_lt _ _ _ F HT Ht); right; exact B|]. split; [intros ->; apply Hx; right; exact B|].
    intros Hc. apply Hx. eapply (ltree_parent _ _ _ F HT y); [exact B|]. apply (fo_child _ _ F). exact Hc.
  - rewrite Ek. apply LWF_kids_of. exact W.
  - intros ->. apply Hx. left. reflexivity.
Qed.

Definition load_result (h0 : heap) (x t : loc) (Cs : list (tree loc)) (lk : linkrec) (h' : heap) (Rs' : list (tree loc)) : Prop :=
  let olds := nitems (hnode h0 x) in
  let L := locals h0 false [] olds in let ks := keys_from (tags h0) [] (map root Cs) in let cl := coupled_from h0 [] olds in
  let ts := combine ks (map root Rs') in let ml := merge (IT h0 t) L ts in
    LWF h' /\ nitems (hnode h' x) = ml /\ hnext h0 <= hnext h' /\
    ntag (hnode h' x) = ntag (hnode h0 x) /\ nval (hnode h' x) = nval (hnode h0 x) /\ nflags (hnode h' x) = nflags (hnode h0 x) /\
    ncoupled (hnode h' x) = ncoupled (hnode h0 x) /\ nprt (hnode h' x) = nprt (hnode h0 x) /\
    nlink (hnode h' x) = Some (LK (lk_src lk) true (rev (map (tags h0) (map root Cs))) (lk_cover lk)) /\
    (forall y, y < hnext h0 -> y <> x -> ~ In y olds -> strip (hnode h' y) = strip (hnode h0 y)) /\
    (forall y, In y olds -> strip (set_link None (hnode h' y)) = strip (set_link None (hnode h0 y))) /\
    (forall y, In y olds -> (forall k, In k ks -> lget L k <> Some (LOld y)) -> nlink (hnode h' y) = nlink (hnode h0 y)) /\
    Forall2 (item_done h0 x h' cl L) (combine ks Cs) Rs' /\
    NoDup ml /\ (forall y, In y ml <-> In y (map (rep L) ts) \/ In y (map snd (kept_of L))) /\ filter (memb (map (rep L) ts)) ml = map (rep L) ts /\
    (forall y, In y (flat_map flatten Rs') <-> hnext h0 <= y < hnext h') /\ NoDup (flat_map flatten Rs') /\
    (forall y, hnext h' <= y -> hnode h' y = hnode h0 y).

Lemma load_near to ch f n h x t Cs lk : LoadReady to ch f h x t Cs lk ->
  exists h', load_links to ch f (S n) x h = (h', Ok true) /\ all_near h' [] (map root Cs) /\
    (forall y, y < hnext h -> y <> x -> ~ In y (nitems (hnode h x)) -> ~ In y (map root Cs) -> nprt (hnode h' y) = nprt (hnode h y)).
Proof.
  intros R. destruct (load_targets _ _ _ _ _ _ _ _ R) as (TO & KT & Nxt). destruct R as [W Lx R Lk Ld Pl Tg HT Ht Hx Nr Kd Hs Bl].
  destruct (load_links_ok to ch f n h x t (nitems (hnode h x)) Cs lk (LWF_kids_of h x W) KT Lx Ht Nxt) as
    (h' & Rs' & E & HO & CA & Hn & Hfr & Hpa & T1 & T2 & T3 & T4 & T5 & T6 & S1 & S2 & S3 & FD & (M1 & M2 & M3) & RR & NR & N1 & N2); auto.
  { intros y Hy. split; [apply (LWF_child_lt h x y W Hy)|]. intros ->. apply (not_self_parent _ _ (fo_root _ _ (lw_forest _ W) x)). apply (fo_child _ _ (lw_forest _ W)). exact Hy. }
  exists h'. auto.
Qed.
Lemma load_LWF to ch f n h x t Cs lk : LoadReady to ch f h x t Cs lk ->
  exists h' Rs', load_links to ch f (S n) x h = (h', Ok true) /\ load_result h x t Cs lk h' Rs'.
Proof.
  intros R. destruct (load_targets _ _ _ _ _ _ _ _ R) as (TO & KT & Nxt). destruct R as [W Lx R Lk Ld Pl Tg HT Ht Hx Nr Kd Hs Bl].
  destruct (load_links_ok to ch f n h x t (nitems (hnode h x)) Cs lk (LWF_kids_of h x W) KT Lx Ht Nxt) as
    (h' & Rs' & E & HO & CA & Hn & Hfr & Hpa & T1 & T2 & T3 & T4 & T5 & T6 & S1 & S2 & S3 & FD & (M1 & M2 & M3) & RR & NR & _ & _); auto.
  { intros y Hy. split; [apply (LWF_child_lt h x y W Hy)|]. intros ->. apply (not_self_parent _ _ (fo_root _ _ (lw_forest _ W) x)). apply (fo_child _ _ (lw_forest _ W)). exact Hy. }
  exists h', Rs'. split; [exact E|]. split; [|split; [apply HO|repeat (split; [assumption|]); exact Hfr]].
  eapply (LWF_graft h h' x); eauto.
  - intros y Y1 Y2. destruct (in_dec Nat.eq_dec y (nitems (hnode h x))) as [K|K]; [apply S2; exact K|]. exact (f_equal (set_link None) (S1 y Y1 Y2 K)).
  - unfold parent_of. cbn. rewrite T5. reflexivity.
  - intros y Hy. apply RR in Hy. apply in_flat_map in Hy as (C' & HC' & Hy). 
    assert (Q : exists C co, copy_of h h' C co C' /\ (forall q, parent_of h' (root C') = Some q -> q = x)).
    { clear - FD HC'. revert FD. generalize (combine (keys_from (tags h) [] (map root Cs)) Cs). intros l FD. induction FD as [|p D l l' H FD IH]; [destruct HC'|].
      destruct HC' as [->|HC']; [|apply IH; exact HC']. destruct H as (A & B & _). exists (snd p), (find_coupled (coupled_from h [] (nitems (hnode h x))) (fst p)). split; [exact A|].
      intros q Eq. rewrite B in Eq. destruct (lget _ _) as [[w|]|]; congruence. }
    destruct Q as (C & co & (_ & QO & QB & _) & Pq). destruct C' as [c cs]. cbn [root kids] in *.
    assert (Rg : forall z, In z (flatten (Node c cs)) -> hnext h <= z < hnext h') by (intros z Hz; apply RR; apply in_flat_map; exists (Node c cs); auto).
    assert (Nc : NoDup (flatten (Node c cs))) by (apply (proj2 (NoDup_flat_sub Rs' NR)); exact HC').
    assert (Rn : (forall z, z < hnext h -> Rooted (view h') z) -> Rooted (view h') c).
    { intros Ro. destruct (parent_of h' c) as [q|] eqn:Eq; [|apply Rooted_root; exact Eq]. eapply Rooted_step; [exact Eq|]. apply Ro. rewrite (Pq q eq_refl). exact Lx. }
    cbn [flatten] in Nc. inversion Nc as [|? ? N1 N2]; subst. destruct Hy as [<-|Hy].
    + pose proof QO as (Ei & _). split; [apply own_fam; rewrite Ei; exact QO|]. rewrite Ei. split; [apply NoDup_flat_sub; exact N2|].
      split. { intros z Hz. apply in_map_iff in Hz as (U & <- & HU). rewrite Forall_forall in QB. specialize (QB U HU). destruct U as [u us]. apply built_iff in QB as ((i' & f' & Ep' & _) & _). unfold parent_of. cbn. rewrite Ep'. reflexivity. }
      split; [|exact Rn]. intros q Eq. rewrite (Pq q Eq). lia.
    + destruct (built_graft h h' c cs QB N2) with (y := y) as (A & B & D & G & F); [intros z Hz; apply Rg; right; exact Hz|apply Rg; left; reflexivity|exact Hy|]. repeat (split; [assumption|]). intros Ro. apply F, Rn, Ro.
Qed.
