(** reverse, rotate, sort, clear; extend(iTree) functionally. *)
From Coq Require Import Permutation Sorted.
From Verif Require Import Base Heap HeapSpec ListLemmas ForestLemmas HeapInv HeapAttach
  HeapOps HeapOps2 HeapOps3 HeapHoare Tree HeapTree HeapCopy HeapMut HeapExt HeapExt2 HeapOrd.

(** * deletion keeps WFN *)
Lemma WFNp_del_int p i : WFNp (del_int p i).
Proof.
  intros h [W N]. destruct (del_exn h p i) as [e|] eqn:E.
  - rewrite (del_int_err _ _ _ _ E). split; assumption.
  - pose proof E as E0. unfold del_exn in E0.
    destruct (tree_protected h p && negb (is_link_root h p)); [discriminate|].
    destruct (nitems (hnode h p)) as [|i0 ir] eqn:Ei; [discriminate|]. rewrite <- Ei in E0.
    destruct (py_idx (length (nitems (hnode h p))) i) as [k|] eqn:Ek; [|discriminate].
    destruct (nth_error (nitems (hnode h p)) k) as [x|] eqn:Ex; [|discriminate].
    destruct (del_int_ok h p i k x W E Ek Ex) as (h' & -> & Q). cbn [fst].
    eapply ceq_WFN; [exact Q|]. apply mk_detach_WFN; [split; assumption|assumption].
Qed.
Lemma WFNp_gets_bind {A B} (f : heap -> A) (k : A -> M B) :
  (forall h, WFN h -> WFN (fst (k (f h) h))) -> WFNp (bind (gets f) k).
Proof. intros H h W. rewrite bind_gets. apply H. assumption. Qed.
Lemma conly_check_del p : conly (check_del p).
Proof.
  apply conly_pure. intros h. unfold check_del. rewrite bind_gets. destruct (tree_protected h p); [|reflexivity].
  destruct (is_link_root h p); reflexivity.
Qed.
Lemma WFNp_idx_del p x : WFNp (i <- idx_or_type_error x ;; del_int p i).
Proof. apply WFNp_bind; [apply conly_WFNp, conly_idx|intros i; apply WFNp_del_int]. Qed.
Lemma WFNp_delitem p tg : not_slice tg -> WFNp (delitem p tg).
Proof.
  intros Hs.
  assert (G : forall tg, WFNp (check_del p ;;;
    h <- gets (fun h => h) ;;
    match nitems (hnode h p) with
    | [] => throw KeyError
    | _ :: _ =>
      match getitem h p tg with
      | Err e => throw e
      | Ok (GItem x) => i <- idx_or_type_error x ;; y <- del_int p i ;; ret (GItem y)
      | Ok (GList l) =>
        ys <- mapM (fun x => i <- idx_or_type_error x ;; del_int p i) l ;; ret (GList ys)
      end
    end)).
  { intros tg'. apply WFNp_bind; [apply conly_WFNp, conly_check_del|]. intros _. apply WFNp_gets_bind. intros h W.
    destruct (nitems (hnode h p)) as [|n0 nr]; [exact W|]. destruct (getitem h p tg') as [[x|l]|e]; [| |exact W].
    - revert h W. change (WFNp (i <- idx_or_type_error x;; y <- del_int p i;; ret (GItem y))).
      apply WFNp_bind; [apply conly_WFNp, conly_idx|]. intros i. apply WFNp_bind; [apply WFNp_del_int|]. intros a. apply WFNp_ret.
    - revert h W. change (WFNp (ys <- mapM (fun x : loc => i <- idx_or_type_error x;; del_int p i) l;; ret (GList ys))).
      apply WFNp_bind; [apply WFNp_mapM; intros x _; apply WFNp_idx_del|]. intros a. apply WFNp_ret. }
  destruct tg as [v| | | | | |]; try (exact (G _)); [|destruct Hs].
  destruct v; try (exact (G _)). cbn [delitem]. apply WFNp_bind; [apply WFNp_del_int|]. intros a. apply WFNp_ret.
Qed.
Lemma WFNp_remove p x : WFNp (remove p x).
Proof.
  apply WFNp_gets_bind. intros h W. destruct (nprt (hnode h x)) as [pl|]; [|exact W].
  destruct (Nat.eqb (pl_par pl) p); [|exact W]. apply WFNp_idx_del. assumption.
Qed.
Lemma WFNp_pop_n n p i : WFNp (pop_n n p i).
Proof.
  induction n as [|n IH]; [apply WFNp_ret|]. cbn [pop_n]. apply WFNp_bind; [apply WFNp_del_int|]. intros x.
  apply WFNp_bind; [exact IH|]. intros r. apply WFNp_ret.
Qed.

(** * popping n children from one end *)
Lemma del_unprot h p i : tree_protected h p = false ->
  del_exn h p i = match nitems (hnode h p) with
       | [] => Some KeyError
       | _ => match py_idx (length (nitems (hnode h p))) i with
              | None => Some IndexError
              | Some k => match nth_error (nitems (hnode h p)) k with Some _ => None | None => Some IndexError end
              end end.
Proof.
  intros Hp. unfold del_exn. rewrite Hp. cbn. destruct (nitems (hnode h p)); [reflexivity|].
  destruct (py_idx _ i); [|reflexivity]. destruct (nth_error _ _); reflexivity.
Qed.
Definition pure_view (h h' : heap) : Prop := forall y, a_flags (view h' y) = a_flags (view h y).

Lemma pop_one h p i k x : WF h -> tree_protected h p = false -> py_idx (length (children h p)) i = Some k ->
  nth_error (children h p) k = Some x ->
  exists h', del_int p i h = (h', Ok x) /\ WF h' /\ hnext h' = hnext h /\
    same (view h') (detach (view h) p x k).
Proof.
  intros W Hp Hk Hx. change (children h p) with (nitems (hnode h p)) in *.
  destruct (del_int_ok h p i k x W) as (h' & E & Q); auto.
  - rewrite del_unprot by assumption. rewrite Hk, Hx. destruct (nitems (hnode h p)) eqn:Ei; [|reflexivity].
    destruct k; discriminate.
  - exists h'. split; [exact E|]. split; [eapply ceq_WF; [exact Q|apply mk_detach_WF; assumption]|].
    split; [rewrite (ceq_next _ _ Q); reflexivity|].
    eapply same_trans; [apply ceq_view_same; exact Q|apply mk_detach_view; eapply WF_child_ne; eauto].
Qed.
Lemma detach_flags s p x k y : a_flags (detach s p x k y) = a_flags (s y).
Proof. unfold detach. destruct (Nat.eqb_spec y p) as [->|]; [reflexivity|]. destruct (Nat.eqb_spec y x) as [->|]; reflexivity. Qed.
Lemma prot_view h h' p : a_flags (view h' p) = a_flags (view h p) -> tree_protected h' p = tree_protected h p.
Proof. unfold tree_protected. cbn. intros ->. reflexivity. Qed.

Lemma freed_detach_app s s1 p x k rest l l' : x <> p -> a_children (s p) <> rest ->
  same s1 (detach s p x k) -> (forall y, memb y l' = Nat.eqb y x || memb y l) -> memb p l = false ->
  same (freed s1 p l rest) (freed s p l' rest).
Proof.
  intros Hxp _ V Hl Hp y. unfold freed. rewrite !V. unfold detach. rewrite Nat.eqb_refl.
  destruct (Nat.eqb_spec y p) as [->|]; [reflexivity|]. rewrite Hl.
  destruct (Nat.eqb_spec y x) as [->|]; cbn; [destruct (memb x l); reflexivity|]. reflexivity.
Qed.

Lemma pop_front n : forall h p, WF h -> tree_protected h p = false -> n <= length (children h p) ->
  exists h', pop_n n p 0 h = (h', Ok (firstn n (children h p))) /\ WF h' /\ hnext h' = hnext h /\
    same (view h') (freed (view h) p (firstn n (children h p)) (skipn n (children h p))).
Proof.
  induction n as [|n IH]; intros h p W Hp Hn.
  - exists h. split; [reflexivity|]. split; [assumption|]. split; [reflexivity|]. intros y. unfold freed. cbn.
    destruct (Nat.eqb_spec y p) as [->|]; reflexivity.
  - destruct (children h p) as [|x r] eqn:Ec; [cbn in Hn; lia|]. cbn [firstn skipn pop_n].
    destruct (pop_one h p 0%Z 0 x W Hp) as (h1 & E1 & W1 & N1 & V1).
    { rewrite Ec. reflexivity. } { rewrite Ec. reflexivity. }
    rewrite (bind_ok _ _ _ _ _ E1).
    assert (Hxp : x <> p).
    { eapply (WF_child_ne h p x 0 W). change (nitems (hnode h p)) with (children h p). rewrite Ec. reflexivity. }
    assert (Ec1 : children h1 p = r).
    { unfold children. rewrite (V1 p), detach_children, Nat.eqb_refl. change (a_children (view h p)) with (children h p). rewrite Ec. reflexivity. }
    assert (Hp1 : tree_protected h1 p = false).
    { rewrite (prot_view h h1); [assumption|]. rewrite (V1 p). apply detach_flags. }
    destruct (IH h1 p W1 Hp1) as (h2 & E2 & W2 & N2 & V2); [rewrite Ec1; cbn in Hn; lia|].
    rewrite Ec1 in *. rewrite (bind_ok _ _ _ _ _ E2). exists h2. split; [reflexivity|]. split; [assumption|]. split; [congruence|].
    eapply same_trans; [exact V2|]. eapply freed_detach_app; [exact Hxp| |exact V1| |].
    + change (a_children (view h p)) with (children h p). rewrite Ec. intros F. apply (f_equal (@length _)) in F. cbn in F.
      rewrite skipn_length in F. lia.
    + reflexivity.
    + destruct (memb p (firstn n r)) eqn:Em; [|reflexivity]. apply memb_In in Em.
      exfalso. eapply (Forest_child_ne (hnext h) (view h) p p (wf_forest _ W)); [|reflexivity].
      change (In p (children h p)). rewrite Ec. right. rewrite <- (firstn_skipn n r). apply in_or_app. left. assumption.
Qed.

Lemma last_split {A} (l : list A) : l <> [] -> exists m x, l = m ++ [x].
Proof. intros H. destruct (exists_last H) as (m & x & ->). eauto. Qed.

Lemma pop_back n : forall h p, WF h -> tree_protected h p = false -> n <= length (children h p) ->
  exists h', pop_n n p (-1) h = (h', Ok (rev (skipn (length (children h p) - n) (children h p)))) /\ WF h' /\ hnext h' = hnext h /\
    same (view h') (freed (view h) p (skipn (length (children h p) - n) (children h p))
                                     (firstn (length (children h p) - n) (children h p))).
Proof.
  induction n as [|n IH]; intros h p W Hp Hn.
  - exists h. rewrite Nat.sub_0_r, skipn_all, firstn_all. split; [reflexivity|]. split; [assumption|]. split; [reflexivity|].
    intros y. unfold freed. cbn. destruct (Nat.eqb_spec y p) as [->|]; reflexivity.
  - destruct (last_split (children h p)) as (m & x & Ec); [intros E; rewrite E in Hn; cbn in Hn; lia|].
    assert (Hlen : length (children h p) = S (length m)) by (rewrite Ec, app_length; cbn; lia).
    cbn [pop_n].
    destruct (pop_one h p (-1)%Z (length m) x W Hp) as (h1 & E1 & W1 & N1 & V1).
    { rewrite Hlen. rewrite py_idx_neg by lia. f_equal. lia. }
    { rewrite Ec. apply nth_error_mid. }
    rewrite (bind_ok _ _ _ _ _ E1).
    assert (Hxp : x <> p).
    { eapply (WF_child_ne h p x (length m) W). change (nitems (hnode h p)) with (children h p). rewrite Ec. apply nth_error_mid. }
    assert (Ec1 : children h1 p = m).
    { unfold children. rewrite (V1 p), detach_children, Nat.eqb_refl. change (a_children (view h p)) with (children h p). rewrite Ec.
      rewrite remove_at_split. apply app_nil_r. }
    assert (Hp1 : tree_protected h1 p = false).
    { rewrite (prot_view h h1); [assumption|]. rewrite (V1 p). apply detach_flags. }
    destruct (IH h1 p W1 Hp1) as (h2 & E2 & W2 & N2 & V2); [rewrite Ec1; lia|].
    rewrite Ec1 in *. rewrite (bind_ok _ _ _ _ _ E2). exists h2. rewrite Hlen. replace (S (length m) - S n) with (length m - n) by lia.
    assert (Es : skipn (length m - n) (children h p) = skipn (length m - n) m ++ [x]).
    { rewrite Ec, skipn_app. f_equal. replace (length m - n - length m) with 0 by lia. reflexivity. }
    assert (Ef : firstn (length m - n) (children h p) = firstn (length m - n) m).
    { rewrite Ec, firstn_app. replace (length m - n - length m) with 0 by lia. cbn. apply app_nil_r. }
    rewrite Es, Ef. split; [rewrite rev_app_distr; reflexivity|]. split; [assumption|]. split; [congruence|].
    eapply same_trans; [exact V2|]. eapply freed_detach_app; [exact Hxp| |exact V1| |].
    + change (a_children (view h p)) with (children h p). rewrite Ec. intros F. apply (f_equal (@length _)) in F.
      rewrite app_length in F. cbn in F. rewrite firstn_length in F. lia.
    + intros y. clear. induction (skipn (length m - n) m) as [|z l IH]; cbn; [reflexivity|]. rewrite IH.
      destruct (Nat.eqb y z), (Nat.eqb y x); reflexivity.
    + destruct (memb p _) eqn:Em; [|reflexivity]. apply memb_In in Em.
      exfalso. eapply (Forest_child_ne (hnext h) (view h) p p (wf_forest _ W)); [|reflexivity].
      change (In p (children h p)). rewrite Ec. apply in_or_app. left. rewrite <- (firstn_skipn (length m - n) m). apply in_or_app. right. assumption.
Qed.

(** asking for more children than there are raises *)
Lemma pop_too_many n : forall h p i, (i = 0 \/ i = -1)%Z -> WF h -> tree_protected h p = false ->
  length (children h p) < n -> exists h' e, pop_n n p i h = (h', Err e).
Proof.
  induction n as [|n IH]; intros h p i Hi W Hp Hn; [lia|]. cbn [pop_n].
  destruct (children h p) as [|c0 cr] eqn:Ec.
  - rewrite (bind_err _ _ h h KeyError); [eauto|]. apply del_int_err. rewrite del_unprot by assumption.
    change (nitems (hnode h p)) with (children h p). rewrite Ec. reflexivity.
  - assert (Hk : exists k x, py_idx (length (children h p)) i = Some k /\ nth_error (children h p) k = Some x).
    { assert (exists k, py_idx (length (children h p)) i = Some k) as [k Hk].
      { destruct (py_idx _ i) eqn:E; eauto. apply py_idx_None in E. rewrite Ec in E. cbn [length] in E. lia. }
      exists k. pose proof (py_idx_lt _ _ _ Hk). destruct (nth_error (children h p) k) eqn:E; eauto.
      apply nth_error_None in E. lia. }
    destruct Hk as (k & x & Hk & Hx). destruct (pop_one h p i k x W Hp Hk Hx) as (h1 & E1 & W1 & N1 & V1).
    rewrite (bind_ok _ _ _ _ _ E1).
    destruct (IH h1 p i Hi W1) as (h2 & e & E2).
    + rewrite (prot_view h h1); [assumption|]. rewrite (V1 p). apply detach_flags.
    + unfold children. rewrite (V1 p), detach_children, Nat.eqb_refl. change (a_children (view h p)) with (children h p).
      destruct (nth_error_split' _ _ _ Hx) as (l1 & l2 & E & <-). rewrite E, remove_at_split.
      rewrite E in Ec. apply (f_equal (@length _)) in Ec. rewrite app_length in *. cbn in *. lia.
    + rewrite (bind_err _ _ _ _ _ E2). eauto.
Qed.

(** * re-attaching free items always succeeds *)
Lemma ext_loop_free p l : forall h, WF h -> p < hnext h -> nbound (hnode h p) = Current ->
  Forall (earg_far h p) (map EItem l) -> NoDup l -> (forall x, In x l -> parent_of h x = None) ->
  snd (mapM_ (ext_step p) (map EItem l) h) = Ok tt.
Proof.
  induction l as [|x l IH]; intros h W Hp Hb HF Hnd Hfr; [reflexivity|]. cbn [map mapM_].
  inversion HF as [|? ? He HF']; subst. inversion Hnd; subst.
  destruct (ext_step_case h p (EItem x) W Hp Hb (far_ok _ _ _ He)) as (h1 & r & E & W1 & Hn & Hb1 & R).
  destruct r as [[]|er].
  - rewrite (bind_ok _ _ _ _ _ E). destruct R as (c & El & Hcp & Hc & Vp & _ & Fr & _ & HA).
    assert (c = x) as ->.
    { cbn [elem] in El. destruct El as [[_ ->]|[El _]]; [reflexivity|]. elim El. apply (Hfr x). left. reflexivity. }
    apply IH; [assumption|lia|assumption| |assumption|].
    + apply Forall_forall. intros e Hin. rewrite Forall_forall in HF'. specialize (HF' e Hin).
      destruct e as [z| |]; cbn in *; auto. destruct HF' as [Z1 Z2]. split; [lia|]. intros K. apply Z2, HA, K.
    + intros z Hz. rewrite Forall_forall in HF'. pose proof (HF' (EItem z) (in_map EItem _ _ Hz)) as [Z1 Z2].
      assert (z <> p) by (intros ->; apply Z2; constructor). unfold parent_of. rewrite Fr by assumption.
      destruct (Nat.eqb_spec z x) as [->|]; [contradiction|]. apply (Hfr z). right. assumption.
  - exfalso. unfold ext_step in E. assert (Hx : nprt (hnode h x) = None) by (apply prt_none; apply Hfr; left; reflexivity).
    assert (Ei : ext_item (EItem x) h = (h, Ok x)) by (cbn; unfold bind, gets; rewrite Hx; reflexivity).
    rewrite (bind_ok _ _ _ _ _ Ei), bind_gets in E.
    destruct (ext_attach_ok h W p x) as (h2 & E2 & Q2); [|assumption|].
    + split; [assumption|]. destruct He as [He1 He2]. split; [assumption|]. split; [assumption|]. exact He2.
    + cbv zeta in E2, E. rewrite E2 in E. discriminate.
Qed.
Lemma iter_extend_free h p l : WF h -> p < hnext h -> Forall (earg_far h p) (map EItem l) -> NoDup l ->
  (forall x, In x l -> parent_of h x = None) ->
  exists h', iter_extend p (map EItem l) h = (h', Ok tt) /\ WF h' /\ hnext h <= hnext h' /\
    view h' p = a_set_children (children h p ++ l) (view h p) /\
    (forall y, y < hnext h -> y <> p -> view h' y = if memb y l then a_set_parent (Some p) (view h y) else view h y).
Proof.
  intros W Hp HF Hnd Hfr.
  destruct (iter_extend_ok h p (map EItem l) W Hp HF) as (h' & r & E & W' & Hn & R); [rewrite eitems_map; assumption|].
  assert (Er : r = Ok tt).
  { rewrite iter_extend_start in E. destruct (ext_start_ok h p W) as (W1 & B1 & N1 & V1 & _).
    pose proof (ext_loop_free p l (ext_start h p) W1) as K. rewrite E in K. cbn in K. apply K; auto; try lia.
    - eapply Forall_impl; [|exact HF]. intros e. apply earg_far_same; assumption.
    - intros x Hx. etransitivity; [apply (f_equal a_parent (V1 x))|]. apply Hfr. assumption. }
  subst r. destruct R as (cs & X1 & X2 & X3). exists h'. split; [exact E|]. split; [assumption|]. split; [assumption|].
  assert (cs = l) as ->.
  { clear - X2 Hfr. revert cs X2. induction l as [|x l IH]; intros cs F; inversion F as [|? c ? cs' Hc Hr]; subst; [reflexivity|].
    f_equal; [|apply IH; [intros z Hz; apply Hfr; right; assumption|assumption]].
    cbn [elem] in Hc. destruct Hc as [[_ ->]|[Hc _]]; [reflexivity|]. elim Hc. apply (Hfr x). left. reflexivity. }
  split; [exact X1|]. intros y Hy Hyp. rewrite X3 by assumption. rewrite memb_existsb, eitems_map.
  rewrite forallb_filter_id; [reflexivity|]. apply forallb_forall. intros z Hz. unfold is_free. fold (parent_of h z).
  change (match parent_of h z with Some _ => false | None => true end = true). rewrite (Hfr z Hz). reflexivity.
Qed.

(** * rotate *)
Lemma check_order_pure p h : fst (check_order p h) = h.
Proof.
  unfold check_order. rewrite bind_gets. destruct (tree_protected h p); [|reflexivity].
  destruct (is_link_root h p); [|reflexivity]. destruct (nlink (hnode h p)) as [k|]; [|reflexivity].
  destruct (lk_loaded k); reflexivity.
Qed.
Lemma check_order_true p h : outcome (check_order p) h = Ok true -> tree_protected h p = false.
Proof.
  unfold outcome, check_order. rewrite bind_gets. destruct (tree_protected h p); [|reflexivity].
  destruct (is_link_root h p); [|discriminate]. destruct (nlink (hnode h p)) as [k|]; [|discriminate].
  destruct (lk_loaded k); discriminate.
Qed.
Lemma check_extend_unprot p es h : tree_protected h p = false -> check_extend p es h = (h, Ok tt).
Proof. intros H. unfold check_extend. rewrite bind_gets, H. reflexivity. Qed.
Lemma check_extendleft_unprot p es h : tree_protected h p = false -> check_extendleft p es h = (h, Ok tt).
Proof. intros H. unfold check_extendleft. rewrite bind_gets, H. reflexivity. Qed.

(** Python's deque.rotate for |n| <= len *)
Definition rotated {A} (n : Z) (l : list A) : list A :=
  if (0 <=? n)%Z then skipn (length l - Z.to_nat n) l ++ firstn (length l - Z.to_nat n) l
  else skipn (Z.to_nat (- n)) l ++ firstn (Z.to_nat (- n)) l.

(** facts about the state after popping l from p *)
Lemma freed_facts h h1 p l rest : WF h -> p < hnext h -> WF h1 -> hnext h1 = hnext h ->
  same (view h1) (freed (view h) p l rest) -> incl l (children h p) -> NoDup l ->
  Forall (earg_far h1 p) (map EItem l) /\ (forall x, In x l -> parent_of h1 x = None) /\
  (tree_protected h1 p = tree_protected h p) /\ children h1 p = rest /\ memb p l = false.
Proof.
  intros W Hp W1 Hn V Hi Hnd.
  assert (Hpl : memb p l = false).
  { destruct (memb p l) eqn:Em; [|reflexivity]. apply memb_In in Em. apply Hi in Em.
    exfalso. eapply (Forest_child_ne (hnext h) (view h) p p (wf_forest _ W)); [exact Em|reflexivity]. }
  assert (HA : forall a, Anc (view h1) a p -> Anc (view h) a p).
  { intros a Ha. apply (Anc_same _ _ _ _ V) in Ha. eapply freed_anc; [|exact Ha].
    intros (y & Hy & Hy2). revert Hy2. apply child_not_anc; [assumption|]. apply Hi. assumption. }
  split; [|split; [|split; [|split; [|assumption]]]].
  - apply Forall_forall. intros e He. apply in_map_iff in He as (x & <- & Hx). split.
    + rewrite Hn. apply (child_attached h p x W). apply Hi. assumption.
    + intros K. apply HA in K. revert K. apply child_not_anc; [assumption|]. apply Hi. assumption.
  - intros x Hx. unfold parent_of. rewrite (V x). unfold freed. destruct (Nat.eqb_spec x p) as [->|].
    + apply memb_In in Hx. congruence.
    + apply memb_In in Hx. rewrite Hx. reflexivity.
  - apply prot_view. rewrite (V p). unfold freed. rewrite Nat.eqb_refl. reflexivity.
  - unfold children. rewrite (V p). unfold freed. rewrite Nat.eqb_refl. reflexivity.
Qed.
Lemma memb_false y l : memb y l = false <-> ~ In y l.
Proof. rewrite <- memb_In. destruct (memb y l); split; congruence. Qed.

Lemma rotate_ok h p n : WF h -> p < hnext h -> outcome (check_order p) h = Ok true ->
  (Z.abs n <= Z.of_nat (length (children h p)))%Z ->
  exists h', rotate p n h = (h', Ok tt) /\ WF h' /\ hnext h <= hnext h' /\
    (forall y, y < hnext h -> view h' y = reorder (view h) p (rotated n (children h p)) y).
Proof.
  intros W Hp Hc Hn. pose proof (check_order_true p h Hc) as Hpr. unfold rotate.
  rewrite (bind_ok _ _ _ _ _ (pure_ok _ _ _ (check_order_pure p h) Hc)).
  assert (Hnd : NoDup (children h p)) by apply (fo_nodup _ _ (wf_forest _ W)).
  assert (Hpar : forall y, In y (children h p) -> a_parent (view h y) = Some p) by (intros y; apply (fo_child _ _ (wf_forest _ W))).
  destruct (Z.ltb_spec 0 n) as [Hpos|Hpos]; [|destruct (Z.ltb_spec n 0) as [Hneg|Hneg]].
  - destruct (pop_back (Z.to_nat n) h p W Hpr) as (h1 & E1 & W1 & N1 & V1); [lia|].
    rewrite (bind_ok _ _ _ _ _ E1). rewrite rev_involutive.
    set (cs := children h p) in *. set (k := length cs - Z.to_nat n) in *.
    assert (Hi : incl (skipn k cs) cs) by (intros y Hy; rewrite <- (firstn_skipn k cs); apply in_or_app; right; assumption).
    assert (Hnd2 : NoDup (firstn k cs ++ skipn k cs)) by (rewrite firstn_skipn; assumption).
    apply NoDup_app_inv in Hnd2 as (Nd1 & Nd2 & Hdis).
    destruct (freed_facts h h1 p _ _ W Hp W1 N1 V1 Hi Nd2) as (F1 & F2 & F3 & F4 & F5).
    assert (Hpr1 : tree_protected h1 p = false) by congruence.
    destruct (extendleft_start h1 p (map EItem (skipn k cs)) W1) as (h2 & Q & E2).
    { unfold outcome. rewrite check_extendleft_unprot by assumption. reflexivity. }
    rewrite E2. change (nitems (hnode h1 p)) with (children h1 p). rewrite F4. rewrite <- map_app.
    pose proof (extendleft_pre h1 p (map EItem (skipn k cs)) h2 W1 ltac:(lia) F1 Q) as HF2.
    change (nitems (hnode h1 p)) with (children h1 p) in HF2. rewrite F4, <- map_app in HF2.
    assert (W2 : WF h2) by (eapply heq_WF; [exact Q|apply hfree_WF; [assumption|lia]]).
    assert (N2 : hnext h2 = hnext h) by (rewrite <- (proj1 Q); exact N1).
    assert (V2 : same (view h2) (freed (view h1) p (firstn k cs) [])).
    { eapply same_trans; [apply heq_view; exact Q|]. intros y. rewrite (hfree_view h1 p W1 y).
      change (nitems (hnode h1 p)) with (children h1 p). rewrite F4. reflexivity. }
    destruct (iter_extend_free h2 p (skipn k cs ++ firstn k cs) W2) as (h3 & E3 & W3 & N3 & V3p & V3).
    + lia.
    + assumption.
    + apply NoDup_app; [assumption|assumption|]. intros z Z1 Z2. eapply Hdis; eauto.
    + intros x Hx. unfold parent_of. rewrite (V2 x). unfold freed. destruct (Nat.eqb_spec x p) as [->|].
      * exfalso. apply in_app_or in Hx. destruct Hx as [Hx|Hx].
        -- apply memb_In in Hx. congruence.
        -- eapply (Forest_child_ne (hnext h) (view h) p p (wf_forest _ W)); [|reflexivity]. change (In p cs).
           rewrite <- (firstn_skipn k cs). apply in_or_app. left. assumption.
      * destruct (memb x (firstn k cs)) eqn:Em; [reflexivity|]. apply in_app_or in Hx. destruct Hx as [Hx|Hx].
        -- apply F2. assumption.
        -- apply memb_In in Hx. congruence.
    + exists h3. split; [exact E3|]. split; [assumption|]. split; [lia|]. intros y Hy. unfold reorder.
      destruct (Nat.eqb_spec y p) as [->|Hyp].
      * rewrite V3p. unfold children. rewrite (V2 p). unfold freed. rewrite Nat.eqb_refl. rewrite (V1 p). unfold freed.
        rewrite Nat.eqb_refl. cbn. unfold rotated. destruct (Z.leb_spec 0 n); [|lia]. reflexivity.
      * rewrite V3 by (assumption || lia). rewrite (V2 y). unfold freed at 1 2. destruct (Nat.eqb_spec y p); [congruence|].
        rewrite (V1 y). unfold freed. destruct (Nat.eqb_spec y p); [congruence|].
        destruct (memb y (skipn k cs ++ firstn k cs)) eqn:Em.
        -- apply memb_In in Em.
           assert (In y cs) as Hy2.
           { apply in_app_or in Em. rewrite <- (firstn_skipn k cs). apply in_or_app. tauto. }
           pose proof (Hpar y Hy2) as Hpy.
           destruct (memb y (firstn k cs)), (memb y (skipn k cs)); cbn;
             first [etransitivity; [apply a_set_parent_back; exact Hpy|reflexivity]
                   |etransitivity; [apply a_set_parent_same; exact Hpy|reflexivity]|idtac].
           etransitivity; [|apply (a_set_parent_back (Some p) None); exact Hpy]. reflexivity.
        -- apply memb_false in Em.
           assert (memb y (firstn k cs) = false) as -> by (apply memb_false; intros K; apply Em, in_or_app; auto).
           assert (memb y (skipn k cs) = false) as -> by (apply memb_false; intros K; apply Em, in_or_app; auto).
           reflexivity.
  - destruct (pop_front (Z.to_nat (- n)) h p W Hpr) as (h1 & E1 & W1 & N1 & V1); [lia|].
    rewrite (bind_ok _ _ _ _ _ E1).
    set (cs := children h p) in *. set (k := Z.to_nat (- n)) in *.
    assert (Hi : incl (firstn k cs) cs) by (intros y Hy; rewrite <- (firstn_skipn k cs); apply in_or_app; left; assumption).
    assert (Hnd2 : NoDup (firstn k cs ++ skipn k cs)) by (rewrite firstn_skipn; assumption).
    apply NoDup_app_inv in Hnd2 as (Nd1 & Nd2 & Hdis).
    destruct (freed_facts h h1 p _ _ W Hp W1 N1 V1 Hi Nd1) as (F1 & F2 & F3 & F4 & F5).
    unfold extend. rewrite (bind_ok _ _ _ _ _ (check_extend_unprot p _ h1 ltac:(congruence))).
    destruct (iter_extend_free h1 p (firstn k cs) W1) as (h3 & E3 & W3 & N3 & V3p & V3); [lia|assumption|assumption|assumption|].
    exists h3. split; [exact E3|]. split; [assumption|]. split; [lia|]. intros y Hy. unfold reorder.
    destruct (Nat.eqb_spec y p) as [->|Hyp].
    + rewrite V3p, F4, (V1 p). unfold freed. rewrite Nat.eqb_refl. unfold rotated. destruct (Z.leb_spec 0 n); [lia|]. reflexivity.
    + rewrite V3 by (assumption || lia). rewrite (V1 y). unfold freed. destruct (Nat.eqb_spec y p); [congruence|].
      destruct (memb y (firstn k cs)) eqn:Em; [|reflexivity]. apply memb_In in Em. apply a_set_parent_back. apply Hpar, Hi, Em.
  - assert (n = 0%Z) as -> by lia. exists h. split; [reflexivity|]. split; [assumption|]. split; [lia|]. intros y _. unfold reorder, rotated. cbn.
    rewrite Nat.sub_0_r, skipn_all, firstn_all. cbn. destruct (Nat.eqb_spec y p) as [->|]; reflexivity.
Qed.

Lemma rotate_WF_gen (P : heap -> Prop) h p n :
  WF h -> p < hnext h -> P h -> (forall h1 n i, fst (pop_n n p i h) = h1 -> P h1) ->
  (forall h1 es, WF h1 -> P h1 -> p < hnext h1 -> Forall (earg_far h1 p) es -> P (fst (extendleft p es h1))) ->
  (forall h1 es, WF h1 -> P h1 -> p < hnext h1 -> Forall (earg_far h1 p) es -> P (fst (extend p es h1))) ->
  P (fst (rotate p n h)).
Proof.
  intros W Hp P0 Ppop Pl Pe. unfold rotate. destruct (outcome (check_order p) h) as [[]|e] eqn:Hc.
  2:{ rewrite (bind_ok _ _ _ _ _ (pure_ok _ _ _ (check_order_pure p h) Hc)). exact P0. }
  2:{ rewrite (bind_pure_err _ _ _ _ (check_order_pure p h) Hc). exact P0. }
  rewrite (bind_ok _ _ _ _ _ (pure_ok _ _ _ (check_order_pure p h) Hc)).
  pose proof (check_order_true p h Hc) as Hpr.
  assert (Hnd : NoDup (children h p)) by apply (fo_nodup _ _ (wf_forest _ W)).
  destruct (Z.ltb_spec 0 n) as [Hpos|Hpos]; [|destruct (Z.ltb_spec n 0) as [Hneg|Hneg]; [|exact P0]].
  - destruct (Nat.le_gt_cases (Z.to_nat n) (length (children h p))) as [Hle|Hgt].
    + destruct (pop_back (Z.to_nat n) h p W Hpr Hle) as (h1 & E1 & W1 & N1 & V1).
      rewrite (bind_ok _ _ _ _ _ E1). rewrite rev_involutive. set (cs := children h p) in *. set (k := length cs - Z.to_nat n) in *.
      assert (Hi : incl (skipn k cs) cs) by (intros y Hy; rewrite <- (firstn_skipn k cs); apply in_or_app; right; assumption).
      assert (Nd2 : NoDup (skipn k cs)) by (rewrite <- (firstn_skipn k cs) in Hnd; apply NoDup_app_inv in Hnd; tauto).
      destruct (freed_facts h h1 p _ _ W Hp W1 N1 V1 Hi Nd2) as (F1 & _).
      apply Pl; [assumption|eapply Ppop; rewrite E1; reflexivity|lia|assumption].
    + destruct (pop_too_many (Z.to_nat n) h p (-1)%Z) as (h1 & e & E1); auto. rewrite (bind_err _ _ _ _ _ E1). eapply Ppop. rewrite E1. reflexivity.
  - destruct (Nat.le_gt_cases (Z.to_nat (-n)) (length (children h p))) as [Hle|Hgt].
    + destruct (pop_front (Z.to_nat (-n)) h p W Hpr Hle) as (h1 & E1 & W1 & N1 & V1).
      rewrite (bind_ok _ _ _ _ _ E1). set (cs := children h p) in *. set (k := Z.to_nat (- n)) in *.
      assert (Hi : incl (firstn k cs) cs) by (intros y Hy; rewrite <- (firstn_skipn k cs); apply in_or_app; left; assumption).
      assert (Nd2 : NoDup (firstn k cs)) by (rewrite <- (firstn_skipn k cs) in Hnd; apply NoDup_app_inv in Hnd; tauto).
      destruct (freed_facts h h1 p _ _ W Hp W1 N1 V1 Hi Nd2) as (F1 & _).
      apply Pe; [assumption|eapply Ppop; rewrite E1; reflexivity|lia|assumption].
    + destruct (pop_too_many (Z.to_nat (-n)) h p 0%Z) as (h1 & e & E1); auto. rewrite (bind_err _ _ _ _ _ E1). eapply Ppop. rewrite E1. reflexivity.
Qed.
Lemma rotate_WF h p n : WF h -> p < hnext h -> WF (fst (rotate p n h)).
Proof.
  intros W Hp. apply (rotate_WF_gen WF); auto.
  - intros h1 m i <-. apply WFp_pop_n. assumption.
  - intros h1 es W1 _ Hp1 HF. apply extendleft_WF; assumption.
  - intros h1 es W1 _ Hp1 HF. apply extend_WF; [assumption|assumption|]. eapply Forall_impl; [apply far_ok|assumption].
Qed.
Lemma rotate_WFN h p n : WFN h -> p < hnext h -> WFN (fst (rotate p n h)).
Proof.
  intros W Hp. apply (rotate_WF_gen WFN); [apply W|assumption|assumption|..].
  - intros h1 m i <-. apply WFNp_pop_n. assumption.
  - intros h1 es _ W1 Hp1 HF. apply extendleft_WFN; assumption.
  - intros h1 es _ W1 Hp1 HF. apply extend_WFN; [assumption|assumption|]. eapply Forall_impl; [apply far_ok|assumption].
Qed.

(** * reverse *)
Lemma reverse_case h p : WF h ->
  exists h' r, reverse p h = (h', r) /\ WF h' /\ hnext h' = hnext h /\
    match r with
    | Ok _ => (outcome (check_order p) h = Ok false /\ h' = h) \/
              same (view h') (reorder (view h) p (rev (children h p)))
    | Err e => same (view h') (view h) /\ (outcome (check_order p) h = Err e \/
               (nfams (hnode h p) = None /\ children h p = [] /\ e = AttributeError))
    end.
Proof.
  intros W. unfold reverse. destruct (outcome (check_order p) h) as [[]|e] eqn:Hc.
  2:{ rewrite (bind_ok _ _ _ _ _ (pure_ok _ _ _ (check_order_pure p h) Hc)). exists h, (Ok tt).
      split; [reflexivity|]. split; [assumption|]. split; [reflexivity|]. left. auto. }
  2:{ rewrite (bind_pure_err _ _ _ _ (check_order_pure p h) Hc). exists h, (Err e). split; [reflexivity|]. split; [assumption|]. split; [reflexivity|].
      split; [apply same_refl|]. auto. }
  rewrite (bind_ok _ _ _ _ _ (pure_ok _ _ _ (check_order_pure p h) Hc)), bind_gets, bind_upd.
  destruct (nfams (hnode h p)) as [d|] eqn:Ef.
  - set (h' := hmod (hmod h p (set_items (rev (nitems (hnode h p))))) p
        (fun n => set_fams (Some (map (fun kv => (fst kv, rev (snd kv))) d)) (nbound n) n)).
    exists h', (Ok tt). split; [reflexivity|].
    assert (Hnode : forall y, hnode h' y = if Nat.eqb y p then
       set_items (rev (nitems (hnode h p))) (set_fams (Some (map (fun kv => (fst kv, rev (snd kv))) d)) (nbound (hnode h p)) (hnode h p)) else hnode h y).
    { intros y. cbn. destruct (Nat.eqb_spec y p) as [->|]; reflexivity. }
    assert (V : same (view h') (reorder (view h) p (rev (children h p)))).
    { intros y. unfold view, reorder. rewrite Hnode. destruct (Nat.eqb_spec y p) as [->|]; reflexivity. }
    split; [|split; [reflexivity|right; exact V]]. split.
    + destruct (Nat.lt_ge_cases p (hnext h)) as [Hp|Hp].
      * eapply (Forest_ext _ (reorder (view h) p (rev (children h p)))); [intros y; rewrite (V y); auto|].
        apply reorder_Forest; [apply (wf_forest _ W)|apply NoDup_rev; apply (fo_nodup _ _ (wf_forest _ W))| |assumption].
        intros y Hy. apply in_rev. assumption.
      * eapply (Forest_ext _ (view h)); [|apply (wf_forest _ W)]. intros y. rewrite (V y). rewrite reorder_parent, reorder_children.
        split; [reflexivity|]. destruct (Nat.eqb_spec y p) as [->|]; [|reflexivity].
        unfold children. destruct (fo_alloc _ _ (wf_forest _ W) p Hp) as [-> _]. reflexivity.
    + intros x pl. rewrite Hnode. destruct (Nat.eqb_spec x p) as [->|]; apply (wf_caches _ W).
    + intros q. unfold node_fam_ok. rewrite Hnode. pose proof (wf_fams _ W q) as Hq. unfold node_fam_ok in Hq.
      assert (Ht : forall y, ntag (hnode h' y) = ntag (hnode h y)) by (intros y; rewrite Hnode; destruct (Nat.eqb_spec y p) as [->|]; reflexivity).
      destruct (Nat.eqb_spec q p) as [->|].
      * cbn. destruct (nbound (hnode h p)).
        -- destruct Hq as [[Hq|Hq] Hi]; [congruence|]. assert (d = []) as -> by congruence. rewrite Hi. cbn. auto.
        -- destruct Hq as (d' & Ed & Hd). assert (d' = d) as -> by congruence. eexists. split; [reflexivity|].
           eapply fam_ok_ext; [|apply fam_ok_rev; exact Hd]. intros y _. symmetry. apply Ht.
        -- destruct Hq as [Hq Hi]. assert (d = []) as -> by congruence. rewrite Hi. cbn. auto.
      * destruct (nbound (hnode h q)); auto. destruct Hq as (d' & Ed & Hd). exists d'. split; [assumption|].
        eapply fam_ok_ext; [|exact Hd]. intros y _. symmetry. apply Ht.
    + intros x k. rewrite Hnode. destruct (Nat.eqb_spec x p) as [->|]; apply (wf_cover _ W).
  - assert (Hi : nitems (hnode h p) = []).
    { pose proof (wf_fams _ W p) as Hq. unfold node_fam_ok in Hq. destruct (nbound (hnode h p)).
      - apply Hq.
      - destruct Hq as (d & Hq & _). congruence.
      - destruct Hq; congruence. }
    assert (Q : heq h (hmod h p (set_items (rev (nitems (hnode h p)))))).
    { split; [reflexivity|]. intros y. cbn. destruct (Nat.eqb_spec y p) as [->|]; [|reflexivity]. rewrite Hi. cbn.
      unfold set_items. rewrite <- Hi. destruct (hnode h p); reflexivity. }
    eexists _, (Err AttributeError). split; [reflexivity|]. split; [eapply heq_WF; [exact Q|assumption]|]. split; [reflexivity|].
    split; [apply heq_view; assumption|]. right. auto.
Qed.
Lemma reverse_WFN h p : WFN h -> WFN (fst (reverse p h)).
Proof.
  intros [W N]. destruct (reverse_case h p W) as (h' & r & -> & W' & Hn & R). cbn. split; [assumption|].
  destruct r as [[]|e].
  - destruct R as [[_ ->]|V]; [assumption|]. eapply NoOrphan_same; [apply same_sym; exact V|].
    intros x q. rewrite reorder_parent, reorder_children. intros H. pose proof (N x q H) as K.
    destruct (Nat.eqb_spec q p) as [->|]; [|assumption]. apply in_rev in K. exact K.
  - destruct R as [V _]. eapply NoOrphan_same; [apply same_sym; exact V|assumption].
Qed.

(** * sort *)
Section Sort.
  Context (key : loc -> Z).
  Definition kle x y := (key x <= key y)%Z.
  Lemma ins_sorted_perm x l : Permutation (x :: l) (ins_sorted key x l).
  Proof.
    induction l as [|y l IH]; cbn; [reflexivity|]. destruct (key x <=? key y)%Z; [reflexivity|].
    rewrite perm_swap. constructor. assumption.
  Qed.
  Lemma sort_list_perm l : Permutation l (sort_list key l).
  Proof. induction l as [|x l IH]; cbn; [constructor|]. rewrite <- ins_sorted_perm. constructor. assumption. Qed.
  Lemma ins_sorted_sorted x l : StronglySorted kle l -> StronglySorted kle (ins_sorted key x l).
  Proof.
    induction l as [|y l IH]; cbn; intros H; [repeat constructor|]. inversion H as [|? ? H1 H2]; subst.
    destruct (Z.leb_spec (key x) (key y)).
    - constructor; [assumption|]. constructor; [assumption|]. eapply Forall_impl; [|exact H2]. unfold kle. intros; lia.
    - constructor; [apply IH; assumption|]. eapply Permutation_Forall; [apply ins_sorted_perm|]. constructor; [unfold kle; lia|assumption].
  Qed.
  Lemma sort_list_sorted l : StronglySorted kle (sort_list key l).
  Proof. induction l; cbn; [constructor|]. apply ins_sorted_sorted. assumption. Qed.
  Lemma ins_sorted_filter (c : Z) x l : StronglySorted kle l ->
    filter (fun y => (key y =? c)%Z) (ins_sorted key x l) = filter (fun y => (key y =? c)%Z) (x :: l).
  Proof.
    induction l as [|y l IH]; cbn [ins_sorted]; intros H; [reflexivity|]. inversion H as [|? ? H1 H2]; subst.
    destruct (Z.leb_spec (key x) (key y)); [reflexivity|]. cbn [filter]. rewrite IH by assumption. cbn [filter].
    destruct (Z.eqb_spec (key y) c), (Z.eqb_spec (key x) c); try reflexivity. lia.
  Qed.
  (** stability: for every key value, the items with that key keep their order *)
  Lemma sort_list_stable (c : Z) l : filter (fun y => (key y =? c)%Z) (sort_list key l) = filter (fun y => (key y =? c)%Z) l.
  Proof.
    induction l as [|x l IH]; cbn [sort_list]; [reflexivity|]. rewrite ins_sorted_filter by apply sort_list_sorted.
    cbn [filter]. rewrite IH. reflexivity.
  Qed.
End Sort.

Lemma sort_WF h p key rv : WF h -> p < hnext h -> WF (fst (sort p key rv h)).
Proof.
  intros W Hp. unfold sort. destruct (outcome (check_order p) h) as [[]|e] eqn:Hc.
  2:{ rewrite (bind_ok _ _ _ _ _ (pure_ok _ _ _ (check_order_pure p h) Hc)). exact W. }
  2:{ rewrite (bind_pure_err _ _ _ _ (check_order_pure p h) Hc). exact W. }
  rewrite (bind_ok _ _ _ _ _ (pure_ok _ _ _ (check_order_pure p h) Hc)), bind_gets. cbv zeta.
  rewrite (bind_ok (clear_items p) _ h (hclear h p) tt eq_refl).
  apply extend_WF; [apply hclear_WF; assumption|assumption|]. apply Forall_forall. intros e He.
  apply in_map_iff in He as (x & <- & Hx). apply (Permutation_in _ (Permutation_sym (sort_list_perm _ _))) in Hx.
  destruct (child_attached h p x W Hx) as [H1 H2]. split; [exact H1|]. unfold parent_of. rewrite (hclear_view h p x), reorder_parent.
  unfold parent_of in H2. rewrite H2. discriminate.
Qed.

(** What sort really does: the new children are copies of the sorted old ones. *)
Lemma sort_ok h p key rv : WF h -> p < hnext h -> outcome (check_order p) h = Ok true ->
  exists h' r, sort p key rv h = (h', r) /\ WF h' /\
    match r with
    | Ok _ => exists cs, view h' p = a_set_children cs (view h p) /\
        Forall2 (copy_of (view h) (view h') (hnext h) (hnext h')) (sort_list (sort_key h key rv) (children h p)) cs /\
        (forall y, y < hnext h -> y <> p -> view h' y = view h y)
    | Err _ => True
    end.
Proof.
  intros W Hp Hc. pose proof (check_order_true p h Hc) as Hpr. unfold sort.
  rewrite (bind_ok _ _ _ _ _ (pure_ok _ _ _ (check_order_pure p h) Hc)), bind_gets. cbv zeta.
  rewrite (bind_ok (clear_items p) _ h (hclear h p) tt eq_refl). unfold extend.
  set (l := sort_list (sort_key h key rv) (nitems (hnode h p))).
  assert (Hl : forall x, In x l -> In x (children h p)).
  { intros x Hx. apply (Permutation_in _ (Permutation_sym (sort_list_perm _ _))) in Hx. exact Hx. }
  assert (Hpr1 : tree_protected (hclear h p) p = false).
  { rewrite (prot_view h); [assumption|]. rewrite (hclear_view h p p). unfold reorder. rewrite Nat.eqb_refl. reflexivity. }
  rewrite (bind_ok _ _ _ _ _ (check_extend_unprot p _ _ Hpr1)).
  pose proof (hclear_view h p) as V1.
  destruct (iter_extend_ok (hclear h p) p (map EItem l) (hclear_WF h p W Hp) Hp) as (h' & r & E & W' & Hn & R).
  - apply Forall_forall. intros e He. apply in_map_iff in He as (x & <- & Hx). split; [apply (child_attached h p x W); auto|].
    intros K. apply (Anc_same _ _ _ _ V1) in K. apply (Anc_ext _ (view h)) in K; [|intros y; apply reorder_parent].
    revert K. apply child_not_anc; auto.
  - rewrite eitems_map. eapply Permutation_NoDup; [apply sort_list_perm|]. apply (WF_nodup h p W).
  - exists h', r. split; [exact E|]. split; [assumption|]. destruct r as [[]|er]; [|exact I].
    destruct R as (cs & X1 & X2 & X3). exists cs. split; [|split].
    + rewrite X1, (V1 p). unfold reorder. rewrite Nat.eqb_refl. reflexivity.
    + change (sort_list (sort_key h key rv) (children h p)) with l. clearbody l. clear - X2 Hl W V1 Hp. revert cs X2. induction l as [|x l IH]; intros cs F; inversion F as [|? c ? cs' Hc Hr]; subst; constructor.
      2:{ apply IH; [intros z Hz; apply Hl; right; assumption|assumption]. }
      assert (Hx : In x (children h p)) by (apply Hl; left; reflexivity).
      destruct (child_attached h p x W Hx) as [Hxn Hxp].
      assert (Hno : a_parent (view (hclear h p) x) <> None) by (rewrite (V1 x), reorder_parent; unfold parent_of in Hxp; congruence).
      cbn [elem] in Hc. destruct Hc as [[Hc _]|[_ Hc]]; [contradiction|].
      destruct Hc as (T & T' & HT & Er & HT' & Ec & Lab & Rng).
      destruct (ltree_exists _ _ _ (wf_forest _ W) Hxn) as (T0 & HT0 & Er0 & _).
      assert (Hnp : ~ In p (flatten T0)).
      { intros K. eapply child_not_anc; [exact W|exact Hx|]. rewrite <- Er0. eapply ltree_anc; [apply (wf_forest _ W)|exact HT0|exact K]. }
      assert (HT1 : ltree (view (hclear h p)) T0).
      { eapply ltree_frame; [|exact HT0]. intros y Hy. rewrite (V1 y), reorder_children.
        destruct (Nat.eqb_spec y p) as [->|]; [contradiction|reflexivity]. }
      assert (T = T0) as -> by (eapply ltree_unique; eauto; congruence).
      exists T0, T'. split; [assumption|]. split; [assumption|]. split; [assumption|]. split; [assumption|].
      split; [|assumption]. rewrite Lab. apply tmap_ext. intros y Hy. unfold label. rewrite (V1 y). unfold reorder.
      destruct (Nat.eqb_spec y p) as [->|]; [contradiction|reflexivity].
    + intros y Hy Hyp. rewrite X3 by assumption. rewrite memb_existsb, eitems_map.
      assert (Ef : filter (is_free (view (hclear h p))) l = []).
      { apply filter_nil_iff. intros x Hx. unfold is_free. rewrite (V1 x), reorder_parent. destruct (child_attached h p x W (Hl x Hx)) as [_ Hxp].
        unfold parent_of in Hxp. rewrite Hxp. reflexivity. }
      rewrite Ef. cbn [memb existsb]. etransitivity; [apply (V1 y)|]. unfold reorder. destruct (Nat.eqb_spec y p); [congruence|reflexivity].
Qed.

(** * clear *)
Lemma benign_link_loaded : benign (fun n => set_link (match nlink n with
   | Some k => Some (LK (lk_src k) true (lk_tags k) (lk_cover k)) | None => None end) n).
Proof.
  intros n. cbn. repeat (split; [reflexivity|]). intros k. destruct (nlink n) as [k0|]; [|discriminate]. intros [= <-]. right. right. eauto.
Qed.
Lemma WFp_unset_flags x fl : WFp (unset_flags x fl).
Proof.
  apply WFp_gets_bind. intros h W. destruct (has (nflags (hnode h x)) LINKED); [exact W|].
  apply (WFp_upd_benign x); [apply (benign_flg (fun n => unset_flags_val (nflags n) fl))|exact W].
Qed.
Lemma clear_WF h p kv : WF h -> p < hnext h -> WF (fst (clear p kv h)).
Proof.
  intros W Hp. unfold clear. rewrite bind_gets. destruct (tree_protected h p && negb (is_link_root h p)); [exact W|].
  set (m := if is_link_root h p then _ else _).
  assert (Hm : exists h1 r, m h = (h1, r) /\ WF h1 /\ hnext h1 = hnext h).
  { subst m. destruct (is_link_root h p); [|exists h, (Ok tt); auto]. destruct (nlink (hnode h p)) as [k|] eqn:Ek; [|exists h, (Err AttributeError); auto].
    eexists _, (Ok tt). split; [reflexivity|]. split; [|reflexivity].
    pose proof (WFp_upd_benign p _ benign_link_loaded h W) as K. cbn in K. eapply heq_WF; [|exact K].
    split; [reflexivity|]. intros y. cbn. destruct (Nat.eqb_spec y p) as [->|]; [|reflexivity]. rewrite Ek. reflexivity. }
  destruct Hm as (h1 & r & E1 & W1 & N1). destruct r as [[]|e]; [|rewrite (bind_err _ _ _ _ _ E1); exact W1].
  rewrite (bind_ok _ _ _ _ _ E1). pose proof (WFp_unset_flags p LOAD_LINKS h1 W1) as W2.
  assert (N2 : hnext (fst (unset_flags p LOAD_LINKS h1)) = hnext h).
  { unfold unset_flags. rewrite bind_gets. destruct (has _ LINKED); exact N1. }
  destruct (unset_flags p LOAD_LINKS h1) as [h2 [[]|e]] eqn:E2; cbn [fst] in W2, N2; [|rewrite (bind_err _ _ _ _ _ E2); exact W2].
  rewrite (bind_ok _ _ _ _ _ E2). rewrite (bind_ok (clear_items p) _ h2 (hclear h2 p) tt eq_refl).
  assert (W3 : WF (hclear h2 p)) by (apply hclear_WF; [assumption|lia]). destruct kv; [exact W3|].
  apply (WFp_upd_benign p); [apply benign_val|exact W3].
Qed.
(** children, parents and identity after a successful clear *)
Lemma clear_ok h p kv h' : p < hnext h -> clear p kv h = (h', Ok tt) ->
  children h' p = [] /\ (forall t, with_tag (view h') p t = []) /\
  tag_of h' p = tag_of h p /\ parent_of h' p = parent_of h p /\
  a_val (view h' p) = (if kv then a_val (view h p) else PNoValue) /\
  a_coupled (view h' p) = a_coupled (view h p) /\
  (forall y, y <> p -> view h' y = view h y).
Proof.
  intros Hp. unfold clear. rewrite bind_gets. destruct (tree_protected h p && negb (is_link_root h p)); [discriminate|].
  set (m := if is_link_root h p then _ else _).
  assert (Hm : exists h1 r, m h = (h1, r) /\ (forall y, y <> p -> hnode h1 y = hnode h y) /\
     exists lk, hnode h1 p = set_link lk (hnode h p)).
  { subst m. destruct (is_link_root h p).
    - destruct (nlink (hnode h p)) as [k|] eqn:Ek.
      + eexists _, (Ok tt). split; [reflexivity|]. split; [intros y Hy; apply hmod_other; assumption|]. rewrite hmod_same. eauto.
      + exists h, (Err AttributeError). split; [reflexivity|]. split; [auto|]. exists None. destruct (hnode h p); cbn in *; subst; reflexivity.
    - exists h, (Ok tt). split; [reflexivity|]. split; [auto|]. exists (nlink (hnode h p)). destruct (hnode h p); reflexivity. }
  destruct Hm as (h1 & r & E1 & Fr1 & lk & Hp1). destruct r as [[]|e]; [|rewrite (bind_err _ _ _ _ _ E1); discriminate].
  rewrite (bind_ok _ _ _ _ _ E1).
  unfold unset_flags. rewrite bind_assoc, bind_gets. destruct (has (nflags (hnode h1 p)) LINKED); [discriminate|].
  rewrite bind_upd. set (h2 := hmod h1 p _). rewrite (bind_ok (clear_items p) _ h2 (hclear h2 p) tt eq_refl).
  assert (Fr3 : forall y, y <> p -> hnode (hclear h2 p) y = hnode h y).
  { intros y Hy. rewrite hclear_node. destruct (Nat.eqb_spec y p); [congruence|]. unfold h2. rewrite hmod_other by assumption. apply Fr1. assumption. }
  assert (Hp3 : exists fl fs b, hnode (hclear h2 p) p = set_items [] (set_fams fs b (set_flg fl (set_link lk (hnode h p))))).
  { rewrite hclear_node, Nat.eqb_refl. unfold h2. rewrite hmod_same, Hp1. do 3 eexists. reflexivity. }
  destruct Hp3 as (fl & fs & b & Hp3). destruct kv.
  - intros [= <-]. unfold children, with_tag, tag_of, parent_of. unfold view at 1 2 3 4 5 6 7 8 9 10. cbn [a_children a_tag a_val a_parent a_coupled].
    rewrite Hp3. cbn. repeat (split; [reflexivity|]). intros y Hy. unfold view. rewrite Fr3 by assumption. reflexivity.
  - intros [= <-].
    assert (Hp4 : hnode (hmod (hclear h2 p) p (set_val PNoValue)) p = set_val PNoValue (set_items [] (set_fams fs b (set_flg fl (set_link lk (hnode h p)))))).
    { rewrite hmod_same, Hp3. reflexivity. }
    assert (Vp : view (hmod (hclear h2 p) p (set_val PNoValue)) p = AN (ntag (hnode h p)) PNoValue fl (option_map pl_par (nprt (hnode h p))) [] lk (ncoupled (hnode h p))).
    { unfold view. rewrite Hp4. reflexivity. }
    unfold children, with_tag, tag_of, parent_of. rewrite Vp. cbn [a_children a_tag a_val a_parent a_coupled filter].
    repeat (split; [reflexivity|]). intros y Hy. unfold view. rewrite hmod_other by assumption. rewrite Fr3 by assumption. reflexivity.
Qed.
