(** move. *)
From Verif Require Import Base Heap HeapSpec ListLemmas ForestLemmas HeapInv HeapAttach
  HeapOps HeapOps2 HeapOps3 HeapHoare Tree HeapTree HeapCopy HeapMut HeapExt HeapExt2 HeapOrd HeapOrd2 HeapRen.

(** programs that do not touch parent links *)
Definition pkeep {A} (m : M A) : Prop := forall h y, nprt (hnode (fst (m h)) y) = nprt (hnode h y).
Lemma pkeep_bind {A B} (m : M A) (k : A -> M B) : pkeep m -> (forall a, pkeep (k a)) -> pkeep (bind m k).
Proof.
  intros H1 H2 h y. unfold bind. pose proof (H1 h y) as E. destruct (m h) as [h1 [a|e]]; cbn in *; [|assumption].
  rewrite H2. assumption.
Qed.
Lemma pkeep_pure {A} (m : M A) : (forall h, fst (m h) = h) -> pkeep m.
Proof. intros H h y. rewrite H. reflexivity. Qed.
Lemma pkeep_get_fam p t : pkeep (get_fam p t).
Proof. apply pkeep_pure. intros h. unfold get_fam. destruct (nbound (hnode h p)); reflexivity. Qed.
Lemma pkeep_hmod h x f y : (forall n, nprt (f n) = nprt n) -> nprt (hnode (hmod h x f) y) = nprt (hnode h y).
Proof. intros H. cbn. destruct (Nat.eqb_spec y x) as [->|]; [apply H|reflexivity]. Qed.
Lemma pkeep_put_fam p t l : pkeep (put_fam p t l).
Proof.
  intros h y. unfold put_fam. destruct (nbound (hnode h p)); [reflexivity| |apply pkeep_hmod; reflexivity].
  destruct (nfams (hnode h p)); [|reflexivity]. apply pkeep_hmod. reflexivity.
Qed.
Lemma pkeep_del_fam p t : pkeep (del_fam p t).
Proof.
  intros h y. unfold del_fam. destruct (nfams (hnode h p)) as [d|]; [|reflexivity]. destruct (dget d t); [|reflexivity].
  apply pkeep_hmod. reflexivity.
Qed.
Lemma pkeep_unfamily p x : pkeep (unfamily p x).
Proof.
  unfold unfamily. apply pkeep_bind; [apply pkeep_pure; reflexivity|]. intros h.
  apply pkeep_bind.
  { unfold getitem_fam. apply pkeep_bind; [apply pkeep_get_fam|]. intros [f|]; apply pkeep_pure; reflexivity. }
  intros fam. destruct (negb _); [|apply pkeep_del_fam]. destruct (nprt (hnode h x)) as [pl|]; [|apply pkeep_pure; reflexivity].
  apply pkeep_bind; [apply pkeep_pure; reflexivity|]. intros [].
  - destruct (py_idx _ _); [apply pkeep_put_fam|apply pkeep_pure; reflexivity].
  - apply pkeep_bind; [apply pkeep_pure; reflexivity|]. intros k. apply pkeep_put_fam.
Qed.

(** a successful deletion of x touches no other parent link *)
Lemma del_int_keep h p i h' x y : WF h -> del_int p i h = (h', Ok x) -> y <> x -> nprt (hnode h' y) = nprt (hnode h y).
Proof.
  intros W E Hy. unfold del_int in E.
  assert (Hc : fst (check_del p h) = h).
  { unfold check_del. rewrite bind_gets. destruct (tree_protected h p); [|reflexivity]. destruct (is_link_root h p); reflexivity. }
  unfold bind at 1 in E. destruct (check_del p h) as [h0 [lr|e]]; cbn in Hc; subst h0; [|discriminate].
  rewrite bind_gets in E. destruct (nitems (hnode h p)) as [|i0 ir] eqn:Ei; [discriminate|]. rewrite <- Ei in E.
  destruct (py_idx _ i) as [k|]; [|discriminate]. destruct (nth_error _ k) as [x0|]; [|discriminate].
  destruct (lr && _); [discriminate|]. rewrite bind_upd in E. set (h1 := hmod h p _) in E.
  assert (Hcov : match nlink (hnode h x0) with Some lk => lk_cover lk | None => None end = None).
  { destruct (nlink (hnode h x0)) as [k0|] eqn:El; [|reflexivity]. apply (wf_cover _ W _ _ El). }
  rewrite Hcov in E. unfold bind at 1 in E. pose proof (pkeep_unfamily p x0 h1 y) as K.
  destruct (unfamily p x0 h1) as [h2 [[]|e]]; [|discriminate]. cbn [fst] in K. rewrite bind_upd in E.
  injection E as <- <-. rewrite hmod_other by assumption. rewrite K. unfold h1. apply pkeep_hmod. reflexivity.
Qed.
Lemma del_drift h p i h' k x m : WF h -> nth_error (nitems (hnode h p)) k = Some x -> del_int p i h = (h', Ok x) ->
  drift_ok h (nitems (hnode h p)) m -> drift_ok h' (remove_at k (nitems (hnode h p))) (m + 1).
Proof.
  intros W Hk E D j y pl Hj Hp. pose proof (remove_at_notin _ _ _ (WF_nodup h p W) Hk) as Hni.
  assert (Hyx : y <> x) by (intros ->; apply Hni; eapply nth_error_In; eauto).
  rewrite (del_int_keep _ _ _ _ _ _ W E Hyx) in Hp.
  apply nth_error_split' in Hk as (l1 & l2 & El & <-). rewrite El in *. rewrite remove_at_split in Hj.
  destruct (Nat.lt_ge_cases j (length l1)) as [Hl|Hl].
  - rewrite nth_error_app1 in Hj by assumption. specialize (D j y pl). rewrite nth_error_app1 in D by assumption.
    specialize (D Hj Hp). lia.
  - rewrite nth_error_app2 in Hj by assumption. specialize (D (S j) y pl). rewrite nth_error_app2 in D by lia.
    replace (S j - length l1) with (S (j - length l1)) in D by lia. specialize (D Hj Hp). lia.
Qed.

Definition move_idx (h : heap) (p : loc) (tg : option target) : option Z :=
  match tg with
  | None => Some (Z.of_nat (length (children h p)))
  | Some (TgVal (PInt z)) => Some z
  | Some tg => match getitem h p tg with
               | Ok (GItem y) => option_map Z.of_nat (pos_of y (children h p))
               | _ => None
               end
  end.
Definition mv_ok (h : heap) (p x : loc) (tg : option target) : Prop :=
  match tg with
  | Some (TgVal (PInt z)) => length (children h p) = 1 \/ (- Z.of_nat (length (children h p) - 1) <= z)%Z
  | _ => True
  end /\
  match tg with
  | None => True
  | Some _ => with_tag (view h) p (tag_of h x) = [x] \/ drift_ok h (nitems (hnode h p)) 18
  end.
Lemma check_move_pure p x h : fst (check_move p x h) = h.
Proof.
  unfold check_move. rewrite bind_gets. destruct (tree_protected h p); [|reflexivity]. destruct (is_link_root h p); [|reflexivity].
  destruct (nlink (hnode h p)) as [k|]; [|reflexivity]. destruct (lk_loaded k && _); reflexivity.
Qed.
Lemma check_move_unprot p x h : tree_protected h p = false -> check_move p x h = (h, Ok tt).
Proof. intros H. unfold check_move. rewrite bind_gets, H. reflexivity. Qed.
Lemma check_append_unprot p a h : tree_protected h p = false -> check_append p a h = (h, Ok tt).
Proof. intros H. unfold check_append. rewrite bind_gets, H. reflexivity. Qed.
Lemma check_insert_unprot p a h : tree_protected h p = false -> check_insert p a h = (h, Ok tt).
Proof. intros H. unfold check_insert. rewrite bind_gets, H. reflexivity. Qed.

(** the detached item can go back, anywhere *)
Lemma detached_arg h h1 p x k : WF h -> nth_error (nitems (hnode h p)) k = Some x ->
  same (view h1) (detach (view h) p x k) -> hnext h1 = hnext h ->
  arg_ok h1 p (IItem x) /\ arg_free h1 (IItem x).
Proof.
  intros W Hk V N. destruct (WF_child_lt _ _ _ _ W Hk) as [Hp Hx]. pose proof (WF_child_ne _ _ _ _ W Hk) as Hne.
  assert (Hfr : parent_of h1 x = None).
  { unfold parent_of. rewrite (V x). unfold detach. destruct (Nat.eqb_spec x p); [congruence|]. rewrite Nat.eqb_refl. reflexivity. }
  split; [|exact Hfr]. split; [lia|]. split; [lia|].
  intros _ K. apply (Anc_same _ _ _ _ V) in K.
  assert (K2 : Anc (view h) x p).
  { clear - K. induction K as [|y q Hq K IH]; [constructor|]. econstructor; [|exact IH]. revert Hq. unfold detach.
    destruct (Nat.eqb_spec y p) as [->|]; [auto|]. destruct (Nat.eqb_spec y x) as [->|]; [discriminate|auto]. }
  revert K2. apply child_not_anc; [assumption|]. eapply nth_error_In; eauto.
Qed.
Lemma attach_detach s p x k j : x <> p -> nth_error (a_children (s p)) k = Some x -> a_parent (s x) = Some p ->
  same (attach (detach s p x k) p x j) (reorder s p (insert_at j x (remove_at k (a_children (s p))))).
Proof.
  intros Hne Hk Hp y. unfold attach, detach, reorder. rewrite Nat.eqb_refl. destruct (Nat.eqb_spec y p) as [->|Hy]; [reflexivity|].
  destruct (Nat.eqb_spec x p); [congruence|]. rewrite Nat.eqb_refl. destruct (Nat.eqb_spec y x) as [->|]; [|reflexivity].
  destruct (s x); cbn in *. rewrite Hp. reflexivity.
Qed.

Lemma move_ok h p x k tg : WF h -> nth_error (children h p) k = Some x -> tree_protected h p = false -> mv_ok h p x tg ->
  match move_idx h p tg with
  | Some z => exists h', move x tg h = (h', Ok x) /\ WF h' /\
      same (view h') (reorder (view h) p (py_insert z x (remove_at k (children h p))))
  | None => exists h' e, move x tg h = (h', Err e) /\ ceq h h'
  end.
Proof.
  intros W Hk Hpr [G1 G2]. change (children h p) with (nitems (hnode h p)) in Hk.
  pose proof (WF_child_ne _ _ _ _ W Hk) as Hne.
  assert (Hin : In x (nitems (hnode h p))) by (eapply nth_error_In; eauto).
  assert (Hlt : k < length (nitems (hnode h p))) by (eapply nth_error_lt; eauto).
  pose proof (fo_child _ _ (wf_forest _ W) p x Hin) as Hpar.
  destruct (WF_child_prt h p x W Hin) as (pl & Epl & Epp).
  unfold move. rewrite bind_gets, Epl. cbv zeta. rewrite Epp.
  rewrite (bind_ok _ _ _ _ _ (check_move_unprot p x h Hpr)).
  assert (Del : forall g, ceq h g -> exists g1, (forall (k : loc -> M loc), (i <- idx_or_type_error x ;; y <- del_int p i ;; k y) g = k x g1) /\
     WF g1 /\ same (view g1) (detach (view h) p x k) /\ hnext g1 = hnext h /\ tree_protected g1 p = false /\
     (forall m, drift_ok g (nitems (hnode h p)) m -> (0 <= m)%Z -> drift_ok g1 (remove_at k (nitems (hnode h p))) (m + 1))).
  { intros g Qg. pose proof (ceq_WF _ _ Qg W) as Wg.
    assert (Hkg : nth_error (nitems (hnode g p)) k = Some x) by (rewrite (ceq_items _ _ Qg); assumption).
    destruct (idx_or_type_error_ok g p x k Wg Hkg) as (g1 & E1 & Q1 & Wr).
    pose proof (ceq_trans _ _ _ Qg Q1) as Qg1. pose proof (ceq_WF _ _ Qg1 W) as Wg1.
    assert (Hkg1 : nth_error (nitems (hnode g1 p)) k = Some x) by (rewrite (ceq_items _ _ Qg1); assumption).
    assert (Hpg1 : tree_protected g1 p = false) by (unfold tree_protected in *; rewrite (ceq_flags _ _ Qg1); assumption).
    destruct (pop_one g1 p (Z.of_nat k) k x Wg1 Hpg1) as (g2 & E2 & W2 & N2 & V2).
    - unfold children. cbn. rewrite (ceq_items _ _ Qg1). apply py_idx_of_nat. assumption.
    - exact Hkg1.
    - exists g2. split; [intros kk; rewrite (bind_ok _ _ _ _ _ E1), (bind_ok _ _ _ _ _ E2); reflexivity|].
      split; [assumption|].
      assert (V : same (view g2) (detach (view h) p x k)).
      { eapply same_trans; [exact V2|]. apply detach_same. apply ceq_view_same. assumption. }
      split; [exact V|]. split; [rewrite N2; apply (ceq_next _ _ Qg1)|]. split.
      + rewrite (prot_view h); [assumption|]. rewrite (V p). apply detach_flags.
      + intros m D Hm. rewrite <- (ceq_items _ _ Qg1 p). eapply del_drift; [exact Wg1|exact Hkg1|exact E2|].
        rewrite (ceq_items _ _ Qg1). rewrite (ceq_items _ _ Qg) in Wr.
        eapply writes_drift; [apply (WF_nodup h p W)|assumption|exact Wr|exact D]. }
  assert (Fin : forall g1 h' z j, WF h' -> same (view g1) (detach (view h) p x k) ->
     same (view h') (attach (view g1) p x j) -> j = py_insert_pos (length (remove_at k (nitems (hnode h p)))) z ->
     same (view h') (reorder (view h) p (py_insert z x (remove_at k (children h p))))).
  { intros g1 h' z j _ V1 V2 ->. eapply same_trans; [exact V2|]. eapply same_trans; [apply attach_same; exact V1|].
    eapply same_trans; [apply attach_detach; assumption|]. apply same_refl. }
  assert (Ef : forall g1, arg_free g1 (IItem x) -> fst (free_item (IItem x) g1) = g1).
  { intros g1 Hf. apply prt_none in Hf. unfold free_item. rewrite bind_gets, Hf. reflexivity. }
  assert (Ch1 : forall g1, same (view g1) (detach (view h) p x k) -> children g1 p = remove_at k (nitems (hnode h p))).
  { intros g1 V1. unfold children. rewrite (V1 p), detach_children, Nat.eqb_refl. reflexivity. }
  assert (Hlen : S (length (remove_at k (nitems (hnode h p)))) = length (nitems (hnode h p))).
  { pose proof (nth_error_split' _ _ _ Hk) as (l1 & l2 & El & Ek). rewrite El, <- Ek, remove_at_split, !app_length. cbn. lia. }
  assert (Ins : forall g z, ceq h g -> (drift_ok h (nitems (hnode h p)) 18 -> drift_ok g (nitems (hnode h p)) 18) ->
     (length (children h p) = 1 \/ (- Z.of_nat (length (children h p) - 1) <= z)%Z) ->
     (with_tag (view h) p (tag_of h x) = [x] \/ drift_ok h (nitems (hnode h p)) 18) ->
     exists h', (si <- idx_or_type_error x ;; y <- del_int p si ;; insert p (InsAt (TgVal (PInt z))) (IItem y)) g = (h', Ok x) /\ WF h' /\
      same (view h') (reorder (view h) p (py_insert z x (remove_at k (children h p))))).
  { intros g z Qg Dg Hz Hd. destruct (Del g Qg) as (g1 & E1 & W1 & V1 & N1 & P1 & D1).
    rewrite (E1 (fun y => insert p (InsAt (TgVal (PInt z))) (IItem y))).
    destruct (detached_arg h g1 p x k W Hk V1 N1) as [A1 A2].
    assert (T1 : ntag (hnode g1 x) = tag_of h x).
    { change (a_tag (view g1 x) = a_tag (view h x)). rewrite (V1 x). unfold detach.
      destruct (Nat.eqb_spec x p); [congruence|]. rewrite Nat.eqb_refl. reflexivity. }
    destruct (insert_ok g1 p (InsAt (TgVal (PInt z))) (IItem x) W1 A1 A2) as [I1 _].
    - split.
      + change (nitems (hnode g1 p)) with (children g1 p). rewrite (Ch1 g1 V1). change (children h p) with (nitems (hnode h p)) in Hz.
        destruct Hz as [Hz|Hz]; [left; destruct (remove_at k (nitems (hnode h p))); [reflexivity|cbn in Hlen; lia]|right; lia].
      + destruct Hd as [Hd|Hd].
        * left. rewrite T1. unfold with_tag. change (a_children (view g1 p)) with (children g1 p). rewrite (Ch1 g1 V1).
          rewrite (filter_remove_at k x) by (apply (WF_nodup h p W) || assumption). apply filter_nil_iff. intros y Hy.
          destruct (Nat.eqb_spec y x) as [->|Hyx]; [apply andb_false_r|]. rewrite andb_true_r.
          assert (Ty : a_tag (view g1 y) = a_tag (view h y)).
          { rewrite (V1 y). unfold detach. destruct (Nat.eqb_spec y p) as [->|]; [reflexivity|]. destruct (Nat.eqb_spec y x) as [->|]; reflexivity. }
          rewrite Ty. destruct (pyval_eqb (a_tag (view h y)) (tag_of h x)) eqn:Et; [|reflexivity]. exfalso.
          assert (K : In y (with_tag (view h) p (tag_of h x))) by (apply filter_In; split; assumption).
          rewrite Hd in K. destruct K as [K|[]]. congruence.
        * right. change (nitems (hnode g1 p)) with (children g1 p). rewrite (Ch1 g1 V1). replace 19%Z with (18 + 1)%Z by reflexivity.
          apply D1; [auto|lia].
    - unfold outcome. rewrite check_insert_unprot by assumption. reflexivity.
    - destruct (I1 _ eq_refl) as (h' & E' & W' & V'). exists h'. split; [exact E'|]. split; [assumption|].
      eapply Fin; [assumption|exact V1|exact V'|]. rewrite (Ef g1 A2), (Ch1 g1 V1). reflexivity. }
  destruct tg as [tg|].
  - assert (Gen : forall y j, getitem h p tg = Ok (GItem y) -> pos_of y (children h p) = Some j ->
       with_tag (view h) p (tag_of h x) = [x] \/ drift_ok h (nitems (hnode h p)) 18 ->
       exists h', (ti <- idx_or_type_error y ;; si <- idx_or_type_error x ;; y <- del_int p si ;; insert p (InsAt (TgVal (PInt ti))) (IItem y)) h
          = (h', Ok x) /\ WF h' /\ same (view h') (reorder (view h) p (py_insert (Z.of_nat j) x (remove_at k (children h p))))).
    { intros y j Eg Ej Hd. apply pos_of_nth in Ej. destruct (idx_or_type_error_ok h p y j W Ej) as (g & E1 & Q1 & Wr).
      rewrite (bind_ok _ _ _ _ _ E1). apply Ins; [assumption| |right; lia|assumption].
      intros D. eapply writes_drift; [apply (WF_nodup h p W)|lia|exact Wr|exact D]. }
    assert (Gen2 : match (match getitem h p tg with
                 | Ok (GItem y) => option_map Z.of_nat (pos_of y (children h p))
                 | _ => None end) with
      | Some z => exists h', (ti <- (h1 <- gets (fun h => h) ;;
                    match getitem h1 p tg with
                    | Err e => throw e
                    | Ok (GItem y) => idx_or_type_error y
                    | Ok (GList _) => throw LookupError
                    end) ;; si <- idx_or_type_error x ;; y <- del_int p si ;; insert p (InsAt (TgVal (PInt ti))) (IItem y)) h = (h', Ok x) /\ WF h' /\
          same (view h') (reorder (view h) p (py_insert z x (remove_at k (children h p))))
      | None => exists h' e, (ti <- (h1 <- gets (fun h => h) ;;
                    match getitem h1 p tg with
                    | Err e => throw e
                    | Ok (GItem y) => idx_or_type_error y
                    | Ok (GList _) => throw LookupError
                    end) ;; si <- idx_or_type_error x ;; y <- del_int p si ;; insert p (InsAt (TgVal (PInt ti))) (IItem y)) h = (h', Err e) /\ ceq h h'
      end).
    { rewrite bind_assoc, bind_gets. destruct (getitem h p tg) as [[y|l]|e] eqn:Eg.
      - pose proof (getitem_incl h p tg (GItem y) W Eg y (or_introl eq_refl)) as Hy.
        destruct (pos_of_In y (nitems (hnode h p)) Hy) as [j Ej]. unfold children. cbn [a_children view]. rewrite Ej. cbn [option_map].
        apply (Gen y j eq_refl Ej G2).
      - exists h, LookupError. split; [reflexivity|apply ceq_refl].
      - exists h, e. split; [reflexivity|apply ceq_refl]. }
    destruct tg as [v|a b|t|t a b|t i| |f]; try exact Gen2. destruct v; try exact Gen2.
    cbn [move_idx]. rewrite bind_ret. apply Ins; [apply ceq_refl|auto|exact G1|exact G2].
  - cbn [move_idx]. destruct (Del h (ceq_refl h)) as (g1 & E1 & W1 & V1 & N1 & P1 & D1).
    rewrite (E1 (fun y => append p (IItem y))). destruct (detached_arg h g1 p x k W Hk V1 N1) as [A1 A2].
    destruct (append_ok g1 p (IItem x) W1 A1 A2) as (h' & E' & W' & V').
    { unfold outcome. rewrite check_append_unprot by assumption. reflexivity. }
    exists h'. split; [exact E'|]. split; [assumption|]. eapply Fin; [assumption|exact V1|exact V'|].
    rewrite (Ch1 g1 V1). change (children h p) with (nitems (hnode h p)). unfold py_insert_pos.
    destruct (Z.ltb_spec (Z.of_nat (length (nitems (hnode h p)))) 0); lia.
Qed.
