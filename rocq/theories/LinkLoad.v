(** load_links: the effect of one run on the heap. *)
From Coq Require Import List.
From Verif Require Import Base Heap HeapSpec ListLemmas ForestLemmas HeapInv HeapAttach HeapOps HeapOps2 HeapOps3 Tree HeapTree HeapCopy Deep SerModel LinkModel LinkFacts LinkFacts2 LinkMerge.
Import ListNotations.
Local Open Scope list_scope.

(** * The dictionary of local items *)
(** a linked child is replaced by a placeholder unless it is the first child or the child before it was replaced;
    a child that is a placeholder is entered as such *)
Fixpoint locals (h : heap) (add : bool) (pre l : list loc) : list ((pyval * Z) * lent) :=
  match l with
  | [] => []
  | y :: r =>
      let k := (ntag (hnode h y), Z.of_nat (length (byt (tags h) (ntag (hnode h y)) pre))) in
      if is_linked h y && add then (k, LPlace) :: locals h false (pre ++ [y]) r
      else if has (nflags (hnode h y)) PLACEHOLDER then (k, LPlace) :: locals h true (pre ++ [y]) r
      else (k, LOld y) :: locals h true (pre ++ [y]) r
  end.
Lemma locals_keys h l : forall add pre, map fst (locals h add pre l) = keys_from (tags h) pre l.
Proof. induction l as [|y r IH]; intros add pre; [reflexivity|]. cbn [locals keys_from]. destruct (is_linked h y && add); [|destruct (has _ _)]; cbn [map fst]; rewrite IH; reflexivity. Qed.
Lemma locals_ceq h h' l : ceq h h' -> forall add pre, locals h' add pre l = locals h add pre l.
Proof.
  intros Q. assert (T : forall t pre, byt (tags h') t pre = byt (tags h) t pre) by (intros; apply filter_ext; intros z; rewrite (ceq_tag _ _ Q); reflexivity).
  induction l as [|y r IH]; intros add pre; [reflexivity|]. cbn [locals]. unfold is_linked. rewrite (ceq_flags _ _ Q), (ceq_tag _ _ Q), !IH, T. reflexivity.
Qed.
(** coupled objects of linked children *)
Fixpoint coupled_from (h : heap) (pre l : list loc) : list ((pyval * Z) * nat) :=
  match l with
  | [] => []
  | y :: r =>
      match is_linked h y, ncoupled (hnode h y) with
      | true, Some c => ((ntag (hnode h y), Z.of_nat (length (byt (tags h) (ntag (hnode h y)) pre))), c) :: coupled_from h (pre ++ [y]) r
      | _, _ => coupled_from h (pre ++ [y]) r
      end
  end.
Lemma coupled_ceq h h' l : ceq h h' -> forall pre, coupled_from h' pre l = coupled_from h pre l.
Proof.
  intros Q. assert (T : forall t pre, byt (tags h') t pre = byt (tags h) t pre) by (intros; apply filter_ext; intros z; rewrite (ceq_tag _ _ Q); reflexivity).
  induction l as [|y r IH]; intros pre; [reflexivity|]. cbn [coupled_from]. unfold is_linked. rewrite (ceq_flags _ _ Q), (ceq_tag _ _ Q), (ceq_coupled _ _ Q), !IH, T. reflexivity.
Qed.
Lemma count_byt h pre t : count_tag t (map (tags h) pre) = Z.of_nat (length (byt (tags h) t pre)).
Proof.
  unfold count_tag. f_equal. induction pre as [|y r IH]; [reflexivity|]. rewrite byt_cons. cbn [map filter].
  assert (E : pyval_eqb t (ntag (hnode h y)) = pyval_eqb (ntag (hnode h y)) t).
  { destruct (pyval_eqb t (ntag (hnode h y))) eqn:A, (pyval_eqb (ntag (hnode h y)) t) eqn:B; auto; apply pyval_eqb_eq in A || apply pyval_eqb_eq in B; subst; rewrite pyval_eqb_refl in *; discriminate. }
  rewrite E. destruct (pyval_eqb (ntag (hnode h y)) t); cbn; rewrite IH; reflexivity.
Qed.
Lemma count_cons t u l : count_tag t (u :: l) = count_tag t (l ++ [u]).
Proof. unfold count_tag. rewrite filter_app, app_length. cbn [filter]. destruct (pyval_eqb t u); cbn [length]; lia. Qed.

Definition kids_of (h : heap) (x : loc) (l : list loc) : Prop :=
  own h x l /\ NoDup l /\ caches_ok h /\ forall y, In y l -> parent_of h y = Some x.
Lemma kids_ceq h h' x l : ceq h h' -> kids_of h x l -> kids_of h' x l.
Proof.
  intros Q (A & B & C & D). split; [eapply own_ceq; eauto|]. split; [exact B|]. split; [apply Q; exact C|].
  intros y Hy. unfold parent_of. rewrite (ceq_view _ _ Q). apply D. exact Hy.
Qed.
Definition all_near (h : heap) (pre l : list loc) : Prop :=
  forall l1 y l2, l = l1 ++ y :: l2 -> near h y (length (byt (tags h) (ntag (hnode h y)) (pre ++ l1))).

Lemma tag_idx_at h x l1 y l2 : kids_of h x (l1 ++ y :: l2) -> near h y (length (byt (tags h) (ntag (hnode h y)) l1)) ->
  exists h', get_tag_idx y h = (h', Ok (TIPair (ntag (hnode h y)) (Z.of_nat (length (byt (tags h) (ntag (hnode h y)) l1))))) /\
    cached h h' y (length (byt (tags h) (ntag (hnode h y)) l1)).
Proof.
  intros (A & B & C & D) HN. assert (FN : firstn (length l1) (l1 ++ y :: l2) = l1) by (rewrite firstn_app, firstn_all, Nat.sub_diag; cbn; apply app_nil_r).
  pose proof (tag_idx_node h x y (l1 ++ y :: l2) (length l1) A B) as K. rewrite FN in K. apply K; auto.
  - rewrite nth_error_app2, Nat.sub_diag by apply le_n. reflexivity.
  - apply D, in_elt.
  - intros pl E. destruct (C _ _ E) as (_ & U & V). auto.
Qed.

Lemma cached_near h h' c n y m : cached h h' c n -> (y = c -> m = n) -> near h y m -> near h' y m.
Proof.
  intros (_ & O & K) E HN pl Hp. destruct (Nat.eq_dec y c) as [->|Y]; [|rewrite O in Hp by exact Y; apply HN; exact Hp].
  destruct K as [K|(pl0 & E0 & K)]; rewrite K in Hp; [apply HN; exact Hp|]. cbn in Hp. injection Hp as <-. cbn. rewrite (E eq_refl). lia.
Qed.
Lemma all_near_ceq h h' pre l : ceq h h' -> (forall l1 y l2, l = l1 ++ y :: l2 -> near h y (length (byt (tags h) (ntag (hnode h y)) (pre ++ l1))) -> near h' y (length (byt (tags h) (ntag (hnode h y)) (pre ++ l1)))) ->
  all_near h pre l -> all_near h' pre l.
Proof.
  intros Q H A l1 y l2 E. assert (T : forall t p, byt (tags h') t p = byt (tags h) t p) by (intros; apply filter_ext; intros z; rewrite (ceq_tag _ _ Q); reflexivity).
  rewrite (ceq_tag _ _ Q), T. eapply H; [exact E|]. eapply A. exact E.
Qed.

(** the value of a placeholder is its position in the family *)
Definition place_ok (h : heap) (pre l : list loc) : Prop :=
  forall l1 y l2, l = l1 ++ y :: l2 -> has (nflags (hnode h y)) PLACEHOLDER = true -> nval (hnode h y) = PInt (Z.of_nat (length (byt (tags h) (ntag (hnode h y)) (pre ++ l1)))).
Lemma local_items_ok x : forall l pre seen add acc h, kids_of h x (pre ++ l) ->
  place_ok h pre l ->
  (forall t, count_tag t seen = Z.of_nat (length (byt (tags h) t pre))) ->
  NoDup (map fst acc ++ keys_from (tags h) pre l) ->
  exists h', local_items l seen add acc h = (h', Ok (acc ++ locals h add pre l)) /\ ceq h h' /\
    (forall y, ~ In y l -> hnode h' y = hnode h y) /\ all_near h' pre l.
Proof.
  induction l as [|y r IH]; intros pre seen add acc h HK HP HS ND.
  - exists h. cbn [locals]. rewrite app_nil_r. split; [reflexivity|]. split; [apply ceq_refl|]. split; [reflexivity|]. intros [|? l1] ? ? E; discriminate.
  - cbn [local_items]. rewrite bind_gets. set (t := ntag (hnode h y)). rewrite (HS t). set (n := length (byt (tags h) t pre)).
    destruct HK as (A & B & C & D). assert (Hy : In y (pre ++ y :: r)) by apply in_elt.
    pose proof (D y Hy) as Dy. cbn in Dy. destruct (nprt (hnode h y)) as [pl|] eqn:Epl; [|discriminate]. injection Dy as Dy.
    destruct (C _ _ Epl) as (C1 & C2 & C3).
    destruct (set_cache_ok TypeError SFam y (Z.of_nat n) h pl Epl C3 ltac:(lia)) as (h1 & E1 & Q1). rewrite (bind_ok _ _ _ _ _ E1).
    assert (W1 : h1 = hmod h y (set_prt (Some (with_cache SFam (Z.of_nat n) pl)))) by (unfold set_cache in E1; rewrite Epl, C3 in E1; congruence).
    assert (HK1 : kids_of h1 x (pre ++ y :: r)) by (eapply kids_ceq; [exact Q1|]; split; auto).
    assert (T1 : forall t p, byt (tags h1) t p = byt (tags h) t p) by (intros; apply filter_ext; intros z; rewrite (ceq_tag _ _ Q1); reflexivity).
    assert (Near1 : near h1 y n) by (intros pl' E'; rewrite W1, hmod_same in E'; cbn in E'; injection E' as <-; cbn; lia).
    assert (Yr : ~ In y r) by (apply NoDup_remove_2 in B; intros K; apply B; apply in_app_iff; auto).
    cbn [locals]. fold t n. cbn [keys_from] in ND. fold t n in ND.
    assert (Step : forall h2 add' e, cached h1 h2 y n -> 
      exists h', local_items r (t :: seen) add' (lset acc (t, Z.of_nat n) e) h2 = (h', Ok (acc ++ ((t, Z.of_nat n), e) :: locals h add' (pre ++ [y]) r)) /\ ceq h h' /\
        (forall z, ~ In z (y :: r) -> hnode h' z = hnode h z) /\ all_near h' pre (y :: r)).
    { intros h2 add' e K2. pose proof (cached_ceq _ _ _ _ K2 (cached_caches _ _ _ _ K2)) as Q2. pose proof (ceq_trans _ _ _ Q1 Q2) as Q12.
      assert (T2 : forall t p, byt (tags h2) t p = byt (tags h) t p) by (intros; apply filter_ext; intros z; rewrite (ceq_tag _ _ Q12); reflexivity).
      assert (Kx : ~ In (t, Z.of_nat n) (map fst acc)) by (apply NoDup_remove_2 in ND; intros K; apply ND; apply in_app_iff; auto).
      rewrite (lset_new _ _ _ Kx).
      destruct (IH (pre ++ [y]) (t :: seen) add' (acc ++ [((t, Z.of_nat n), e)]) h2) as (h' & E' & Q' & O' & N').
      - rewrite <- app_assoc. cbn [app]. eapply kids_ceq; [exact Q2|exact HK1].
      - intros l1 z l2 Ez. rewrite (ceq_flags _ _ Q12), (ceq_val _ _ Q12), (ceq_tag _ _ Q12), T2, <- app_assoc. cbn [app]. apply (HP (y :: l1) z l2). rewrite Ez. reflexivity.
      - intros u. unfold count_tag. cbn [filter]. specialize (HS u). unfold count_tag in HS. rewrite T2, byt_app, byt_cons, app_length. fold t.
        assert (Es : pyval_eqb u t = pyval_eqb t u).
        { destruct (pyval_eqb u t) eqn:X1, (pyval_eqb t u) eqn:X2; auto; apply pyval_eqb_eq in X1 || apply pyval_eqb_eq in X2; subst; rewrite pyval_eqb_refl in *; discriminate. }
        rewrite Es. destruct (pyval_eqb t u); cbn [length byt filter]; lia.
      - rewrite map_app. cbn [map fst]. rewrite <- app_assoc. cbn [app]. rewrite (keys_from_ext _ (tags h)); [exact ND|]. intros z _. apply (ceq_tag _ _ Q12).
      - exists h'. split; [rewrite E'; do 2 f_equal; rewrite <- app_assoc; cbn [app]; do 2 f_equal; apply locals_ceq; exact Q12|].
        split; [eapply ceq_trans; eauto|]. split.
        + intros z Hz. rewrite O' by (intros K; apply Hz; right; exact K). destruct K2 as (_ & O2 & _). rewrite O2 by (intros ->; apply Hz; left; reflexivity).
          rewrite W1. apply hmod_other. intros ->. apply Hz. left. reflexivity.
        + assert (T' : forall t p, byt (tags h') t p = byt (tags h) t p) by (intros; apply filter_ext; intros z; rewrite (ceq_tag _ _ Q'), (ceq_tag _ _ Q12); reflexivity).
          intros [|z l1] y' l2 El.
          * injection El as <- _. rewrite app_nil_r, T', (ceq_tag _ _ Q'), (ceq_tag _ _ Q12). fold t n.
            intros pl' Hp. rewrite O' in Hp by exact Yr. apply (cached_near _ _ _ _ y n K2 (fun _ => eq_refl) Near1). exact Hp.
          * injection El as <- El. specialize (N' l1 y' l2 El). rewrite <- app_assoc in N'. exact N'. }
    destruct (is_linked h y && add).
    + apply Step. split; [reflexivity|]. split; [reflexivity|left; reflexivity].
    + destruct (has (nflags (hnode h y)) PLACEHOLDER) eqn:Epl0.
      { pose proof (HP [] y r eq_refl Epl0) as Ev. rewrite app_nil_r in Ev. fold t n in Ev. rewrite Ev. apply Step. split; [reflexivity|]. split; [reflexivity|left; reflexivity]. }
      destruct (tag_idx_at h1 x pre y r HK1) as (h2 & E2 & K2).
      { rewrite (ceq_tag _ _ Q1), T1. exact Near1. }
      rewrite (ceq_tag _ _ Q1), T1 in E2, K2. fold t n in E2, K2. rewrite (bind_ok _ _ _ _ _ E2). apply Step. exact K2.
Qed.

Lemma old_coupled_ok x : forall l pre h, kids_of h x (pre ++ l) -> all_near h pre l ->
  exists h', old_coupled l h = (h', Ok (coupled_from h pre l)) /\ ceq h h' /\ (forall y, ~ In y l -> hnode h' y = hnode h y).
Proof.
  induction l as [|y r IH]; intros pre h HK HN.
  - exists h. split; [reflexivity|]. split; [apply ceq_refl|reflexivity].
  - cbn [old_coupled coupled_from]. rewrite bind_gets. pose proof HK as (_ & B & _).
    assert (Yr : ~ In y r) by (apply NoDup_remove_2 in B; intros K; apply B; apply in_app_iff; auto).
    assert (Skip : exists h', old_coupled r h = (h', Ok (coupled_from h (pre ++ [y]) r)) /\ ceq h h' /\ (forall z, ~ In z (y :: r) -> hnode h' z = hnode h z)).
    { destruct (IH (pre ++ [y]) h) as (h' & E & Q & O); [rewrite <- app_assoc; exact HK| |].
      - intros l1 z l2 E. subst r. specialize (HN (y :: l1) z l2 eq_refl). rewrite <- app_assoc. exact HN.
      - exists h'. split; [exact E|]. split; [exact Q|]. intros z Hz. apply O. intros K. apply Hz. right. exact K. }
    destruct (is_linked h y); [|exact Skip]. destruct (ncoupled (hnode h y)) as [c|]; [|exact Skip].
    pose proof (HN [] y r eq_refl) as Ny. rewrite app_nil_r in Ny.
    destruct (tag_idx_at h x pre y r HK Ny) as (h1 & E1 & K1). rewrite (bind_ok _ _ _ _ _ E1).
    pose proof (cached_ceq _ _ _ _ K1 (cached_caches _ _ _ _ K1)) as Q1.
    destruct (IH (pre ++ [y]) h1) as (h' & E & Q & O).
    + rewrite <- app_assoc. cbn [app]. eapply kids_ceq; eauto.
    + apply (all_near_ceq h h1 _ _ Q1).
      * intros l1 z l2 E Hz. eapply cached_near; [exact K1| |exact Hz]. intros ->. exfalso. apply Yr. rewrite E. apply in_elt.
      * intros l1 z l2 E'. subst r. specialize (HN (y :: l1) z l2 eq_refl). rewrite <- app_assoc. exact HN.
    + rewrite (bind_ok _ _ _ _ _ E). exists h'. rewrite (coupled_ceq _ _ _ Q1). split; [reflexivity|]. split; [eapply ceq_trans; eauto|].
      intros z Hz. rewrite O by (intros K; apply Hz; right; exact K). destruct K1 as (_ & O1 & _). apply O1. intros ->. apply Hz. left. reflexivity.
Qed.
