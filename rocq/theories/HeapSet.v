(** item assignment. *)
From Verif Require Import Base Heap HeapSpec ListLemmas ForestLemmas HeapInv HeapAttach
  HeapOps HeapOps2 HeapOps3 HeapHoare Tree HeapTree HeapCopy HeapMut HeapExt HeapExt2 HeapOrd HeapOrd2 HeapRen HeapMove.

(** [x] takes the place of [o], the child number [k] of [p]; nothing else changes. *)
Definition replaced (s : astate) (p o x : loc) (k : nat) : astate := fun y =>
  if Nat.eqb y p then a_set_children (replace_at k x (a_children (s p))) (s p)
  else if Nat.eqb y x then a_set_parent (Some p) (s x)
  else if Nat.eqb y o then a_set_parent None (s o)
  else s y.

Definition mk_set (h : heap) (p o x : loc) (k : nat) (d : fdict) : heap :=
  hmod (hmod (hmod h o (set_prt None)) p
          (fun n => set_items (replace_at k x (nitems n)) (set_fams (Some d) Current n)))
       x (set_prt (Some (PL p 0 0 false))).

Lemma replace_eq {A} k (o x : A) l : nth_error l k = Some o -> replace_at k x l = insert_at k x (remove_at k l).
Proof.
  intros H. apply nth_error_split' in H as (l1 & l2 & -> & <-). rewrite replace_at_split, remove_at_split, insert_at_split. reflexivity.
Qed.
Lemma replaced_eq s p o x k : o <> p -> x <> p -> x <> o -> nth_error (a_children (s p)) k = Some o ->
  same (replaced s p o x k) (attach (detach s p o k) p x k).
Proof.
  intros H1 H2 H3 Hk y. unfold replaced, attach, detach. rewrite Nat.eqb_refl. destruct (Nat.eqb_spec y p) as [->|].
  - cbn. rewrite (replace_eq k o x) by assumption. reflexivity.
  - destruct (Nat.eqb_spec y x) as [->|]; [|reflexivity]. destruct (Nat.eqb_spec x p); [congruence|].
    destruct (Nat.eqb_spec x o); [congruence|reflexivity].
Qed.
Lemma mk_set_view h p o x k d : o <> p -> x <> p -> x <> o -> same (view (mk_set h p o x k d)) (replaced (view h) p o x k).
Proof.
  intros H1 H2 H3 y. unfold mk_set, view, replaced. cbn. destruct (Nat.eqb_spec y x) as [->|].
  - destruct (Nat.eqb_spec x p); [congruence|]. destruct (Nat.eqb_spec x o); [congruence|]. reflexivity.
  - destruct (Nat.eqb_spec y p) as [->|].
    + destruct (Nat.eqb_spec p o); [congruence|]. reflexivity.
    + destruct (Nat.eqb_spec y o) as [->|]; reflexivity.
Qed.
Lemma Anc_detach s p o k a b : Anc (detach s p o k) a b -> Anc s a b.
Proof.
  induction 1 as [|y q Hq K IH]; [constructor|]. econstructor; [|exact IH]. revert Hq. unfold detach.
  destruct (Nat.eqb_spec y p) as [->|]; [auto|]. destruct (Nat.eqb_spec y o) as [->|]; [discriminate|auto].
Qed.
Lemma att_det_dict_tag h p o x k y : ntag (hnode (mk_set h p o x k []) y) = ntag (hnode h y).
Proof. unfold mk_set. cbn. destruct (Nat.eqb_spec y x) as [->|]; [destruct (Nat.eqb_spec x p) as [->|]|destruct (Nat.eqb_spec y p) as [->|]];
  match goal with |- context [Nat.eqb ?a ?b] => destruct (Nat.eqb_spec a b) as [->|] end; reflexivity. Qed.

Section MkSet.
  Context (h : heap) (W : WF h) (p o x : loc) (k : nat) (Hk : nth_error (nitems (hnode h p)) k = Some o)
          (A : attachable h p x) (Hox : x <> o).
  Let Hop : o <> p := WF_child_ne _ _ _ _ W Hk.
  Let Hxp : x <> p := attachable_ne _ _ _ A.
  Lemma mk_set_node d y :
    hnode (mk_set h p o x k d) y =
      if Nat.eqb y x then set_prt (Some (PL p 0 0 false)) (hnode h x)
      else if Nat.eqb y p then set_items (replace_at k x (nitems (hnode h p))) (set_fams (Some d) Current (hnode h p))
      else if Nat.eqb y o then set_prt None (hnode h o) else hnode h y.
  Proof.
    unfold mk_set. cbn. destruct (Nat.eqb_spec y x) as [->|].
    - destruct (Nat.eqb_spec x p); [congruence|]. destruct (Nat.eqb_spec x o); [congruence|]. reflexivity.
    - destruct (Nat.eqb_spec y p) as [->|]; [|destruct (Nat.eqb_spec y o) as [->|]; reflexivity].
      destruct (Nat.eqb_spec p o); [congruence|]. reflexivity.
  Qed.
  Lemma mk_set_WFN d : fam_ok (fun y => ntag (hnode h y)) d (replace_at k x (nitems (hnode h p))) ->
    WF (mk_set h p o x k d) /\ (NoOrphan (view h) -> NoOrphan (view (mk_set h p o x k d))).
  Proof.
    intros Hd.
    assert (V : same (view (mk_set h p o x k d)) (attach (detach (view h) p o k) p x k)).
    { eapply same_trans; [apply mk_set_view; assumption|]. apply replaced_eq; assumption. }
    assert (FD : Forest (hnext h) (detach (view h) p o k)) by (apply detach_Forest; [apply (wf_forest _ W)|assumption]).
    pose proof A as (A1 & A2 & A3 & A4).
    assert (Hfree : a_parent (detach (view h) p o k x) = None).
    { unfold detach. destruct (Nat.eqb_spec x p); [congruence|]. destruct (Nat.eqb_spec x o); [congruence|]. apply prt_none. assumption. }
    assert (Htag : forall y, ntag (hnode (mk_set h p o x k d) y) = ntag (hnode h y)).
    { intros y. rewrite mk_set_node. destruct (Nat.eqb_spec y x) as [->|]; [reflexivity|]. destruct (Nat.eqb_spec y p) as [->|]; [reflexivity|].
      destruct (Nat.eqb_spec y o) as [->|]; reflexivity. }
    split; [split|].
    - apply (Forest_ext _ (attach (detach (view h) p o k) p x k)); [intros y; rewrite (V y); auto|]. apply attach_Forest; auto.
      intros K. apply A4. eapply Anc_detach. exact K.
    - intros y pl. rewrite mk_set_node. destruct (Nat.eqb_spec y x) as [->|].
      + cbn. intros [= <-]. cbn. lia.
      + destruct (Nat.eqb_spec y p) as [->|]; [cbn; apply (wf_caches _ W)|]. destruct (Nat.eqb_spec y o) as [->|]; [discriminate|apply (wf_caches _ W)].
    - intros q. pose proof (wf_fams _ W q) as G. unfold node_fam_ok in *. rewrite mk_set_node.
      destruct (Nat.eqb_spec q p) as [->|Hq].
      + destruct (Nat.eqb_spec p x); [congruence|]. cbn. eexists. split; [reflexivity|].
        eapply fam_ok_ext; [|exact Hd]. intros y _. symmetry. apply Htag.
      + assert (E : forall n, n = hnode h q -> match nbound n with
            | Unbound => (nfams n = None \/ nfams n = Some []) /\ nitems n = []
            | Current => exists d0, nfams n = Some d0 /\ fam_ok (fun z => ntag (hnode (mk_set h p o x k d) z)) d0 (nitems n)
            | Stale _ => nfams n = Some [] /\ nitems n = [] end).
        { intros n ->. destruct (nbound (hnode h q)); auto. destruct G as (d0 & Ed & Hd0). exists d0. split; [assumption|].
          eapply fam_ok_ext; [|exact Hd0]. intros y _. symmetry. apply Htag. }
        destruct (Nat.eqb_spec q x) as [->|]; [apply (E _ eq_refl)|]. destruct (Nat.eqb_spec q o) as [->|]; apply (E _ eq_refl).
    - intros y lk. rewrite mk_set_node. destruct (Nat.eqb_spec y x) as [->|]; [cbn; apply (wf_cover _ W)|].
      destruct (Nat.eqb_spec y p) as [->|]; [cbn; apply (wf_cover _ W)|]. destruct (Nat.eqb_spec y o) as [->|]; [cbn|]; apply (wf_cover _ W).
    - intros N. eapply NoOrphan_same; [apply same_sym; exact V|]. eapply attach_NoOrphan; [exact FD| |assumption|assumption].
      eapply detach_NoOrphan; [apply (wf_forest _ W)|assumption|assumption].
  Qed.

  Lemma set_same_fam d : fam_ok (fun y => ntag (hnode h y)) d (nitems (hnode h p)) -> ntag (hnode h x) = ntag (hnode h o) ->
    fam_ok (fun y => ntag (hnode h y)) (dset d (ntag (hnode h o)) (replace_at (fam_pos h p o k) x (byt (fun y => ntag (hnode h y)) (ntag (hnode h o)) (nitems (hnode h p)))))
           (replace_at k x (nitems (hnode h p))).
  Proof.
    intros Hd Ht. set (tg := fun y => ntag (hnode h y)) in *. pose proof (byt_nth tg k o _ Hk) as Hn.
    change (length (byt tg (tg o) (firstn k (nitems (hnode h p))))) with (fam_pos h p o k) in Hn.
    assert (B : forall u, byt tg u (replace_at k x (nitems (hnode h p))) =
              if pyval_eqb (tg o) u then replace_at (fam_pos h p o k) x (byt tg (tg o) (nitems (hnode h p))) else byt tg u (nitems (hnode h p))).
    { intros u. rewrite (replace_eq k o x) by assumption. rewrite byt_insert, firstn_remove_at, (byt_remove tg u k o) by assumption.
      change (tg x = tg o) in Ht. rewrite Ht. destruct (pyval_eqb (tg o) u) eqn:Eu; [|reflexivity]. apply pyval_eqb_eq in Eu. subst u.
      symmetry. apply replace_eq with (o := o). exact Hn. }
    fold (tg o). eapply fam_ok_put; [exact Hd| | |].
    - rewrite (replace_eq _ o x) by exact Hn. intros E. apply (f_equal (@length _)) in E. rewrite insert_at_length in E. discriminate.
    - rewrite B, pyval_eqb_refl. reflexivity.
    - intros u Hu. rewrite B. destruct (pyval_eqb (tg o) u) eqn:Eu; [|reflexivity]. apply pyval_eqb_eq in Eu. congruence.
  Qed.
  Lemma set_diff_fam : ntag (hnode h x) <> ntag (hnode h o) ->
    let t := ntag (hnode h x) in
    let d := det_dict h p o k in
    fam_ok (fun y => ntag (hnode h y)) (dset d t (insert_at (length (byt (fun y => ntag (hnode h y)) t (firstn k (nitems (hnode h p))))) x (fam_list d t)))
           (replace_at k x (nitems (hnode h p))).
  Proof.
    intros Ht t d. pose proof (det_dict_ok h p o k W Hk) as Hd. fold d in Hd. set (tg := fun y => ntag (hnode h y)) in *.
    rewrite (replace_eq k o x) by assumption. rewrite (fam_list_ok tg _ _ t Hd).
    assert (B : forall u, byt tg u (insert_at k x (remove_at k (nitems (hnode h p)))) =
              if pyval_eqb t u then insert_at (length (byt tg u (firstn k (nitems (hnode h p))))) x (byt tg u (remove_at k (nitems (hnode h p))))
              else byt tg u (remove_at k (nitems (hnode h p)))).
    { intros u. rewrite byt_insert, firstn_remove_at. reflexivity. }
    eapply fam_ok_put; [exact Hd| | |].
    - intros E. apply (f_equal (@length _)) in E. rewrite insert_at_length in E. discriminate.
    - rewrite B, pyval_eqb_refl. reflexivity.
    - intros u Hu. rewrite B. destruct (pyval_eqb t u) eqn:Eu; [|reflexivity]. apply pyval_eqb_eq in Eu. congruence.
  Qed.
End MkSet.

(** * tag_idx keeps the absolute caches *)
Lemma get_tag_idx_abs h p x k : WF h -> nth_error (nitems (hnode h p)) k = Some x ->
  exists h' r, get_tag_idx x h = (h', Ok r) /\ ceq h h' /\
    (r = TIPair (ntag (hnode h x)) (Z.of_nat (fam_pos h p x k)) \/ r = TIBare (Z.of_nat (fam_pos h p x k))) /\
    (forall y, option_map pl_abs (nprt (hnode h' y)) = option_map pl_abs (nprt (hnode h y))) /\
    (forall pl, nprt (hnode h x) = Some pl -> (Z.abs (pl_fam pl - Z.of_nat (fam_pos h p x k)) <= 20)%Z ->
       r = TIPair (ntag (hnode h x)) (Z.of_nat (fam_pos h p x k))).
Proof.
  intros W Hk. assert (Hin : In x (nitems (hnode h p))) by (eapply nth_error_In; eauto).
  destruct (WF_child_prt h p x W Hin) as (pl & Epl & Epp).
  destruct (get_tag_idx_ok h p x k pl W Hk Epl) as (h' & Q & E).
  eexists h', _. split; [exact E|]. split; [assumption|]. split; [destruct (20 <? _)%Z; auto|]. split.
  - unfold get_tag_idx in E. rewrite Epl, Epp in E.
    destruct (WF_fam h p (ntag (hnode h x)) W) as (d & Ed & Eb & Hok & Eg); [intros E0; rewrite E0 in Hin; exact Hin|].
    pose proof (fam_pos_nth h p x k Hk) as Hn. set (fam := with_tag (view h) p (ntag (hnode h x))) in *.
    assert (Hne : fam <> []) by (intros E0; rewrite E0 in Hn; destruct (fam_pos h p x k); discriminate).
    cbv zeta in E. unfold getitem_fam in E. rewrite bind_assoc, (bind_ok _ _ _ _ _ Eg), (nonempty_ne _ Hne), bind_ret in E.
    destruct (locate_ok SFam fam (pl_fam pl) x h (fam_pos h p x k) Hn) as (f & h1 & E1 & Ef & Q1 & Hs & Wr).
    + apply NoDup_filter. apply (WF_nodup h p W).
    + apply (wf_caches _ W _ _ Epl).
    + apply (wf_caches _ W).
    + congruence.
    + left. intros y Hy. apply filter_In in Hy as [Hy _]. destruct (WF_child_prt h p y W Hy) as (ply & -> & _). discriminate.
    + rewrite (bind_ok _ _ _ _ _ E1) in E. injection E as <- _. intros y. destruct (Wr y) as [->|(j & ply & _ & Hy & ->)]; [reflexivity|].
      cbn. rewrite Hy. reflexivity.
  - intros pl0 E0 Hd. rewrite Epl in E0. injection E0 as <-. destruct (Z.ltb_spec 20 (Z.abs (pl_fam pl - Z.of_nat (fam_pos h p x k)))); [lia|reflexivity].
Qed.
Lemma abs_drift h h' l m : (forall y, option_map pl_abs (nprt (hnode h' y)) = option_map pl_abs (nprt (hnode h y))) ->
  drift_ok h l m -> drift_ok h' l m.
Proof.
  intros H D j y pl Hj Hp. specialize (H y). rewrite Hp in H. cbn in H. destruct (nprt (hnode h y)) as [pl0|] eqn:E; [|discriminate].
  injection H as ->. eapply D; eauto.
Qed.

(** * the replacement itself *)
Definition set_core (p : loc) (x o : loc) : M loc :=
  h1 <- gets (fun h => h) ;;
  let t := ntag (hnode h1 x) in
  i <- idx_or_type_error o ;;
  ti <- get_tag_idx o ;;
  match ti with
  | TIPair ot of_ =>
    upd o (set_prt None) ;;;
    h2 <- gets (fun h => h) ;;
    match py_idx (length (nitems (hnode h2 p))) i with
    | None => throw IndexError
    | Some k =>
      upd p (set_items (replace_at k x (nitems (hnode h2 p)))) ;;;
      fi <- (if pyval_eqb t ot then
               f <- getitem_fam p t ;;
               match py_idx (length f) of_ with
               | Some k' => put_fam p t (replace_at k' x f) ;;; ret of_
               | None => throw IndexError
               end
             else
               f <- getitem_fam p ot ;;
               match py_idx (length f) of_ with
               | None => throw IndexError
               | Some k' =>
                 put_fam p ot (remove_at k' f) ;;;
                 g <- get_fam p t ;;
                 match g with
                 | None => put_fam p t [x] ;;; ret 0%Z
                 | Some g =>
                   fun hh =>
                     match family_insertion_idx g i hh with
                     | (hh1, Ok n) => (put_fam p t (insert_at n x g) ;;;
                                       ret (Z.of_nat n)) hh1
                     | (hh1, Err IndexError) | (hh1, Err KeyError) =>
                         (put_fam p t [x] ;;; ret 0%Z) hh1
                     | (hh1, Err e) => (hh1, Err e)
                     end
                 end
               end) ;;
      upd x (set_prt (Some (PL p i fi false))) ;;;
      ret x
    end
  | _ => throw TypeError
  end.

(** guard of the replacement: same tag, or the old family does not become empty and (if the
    new family exists) no position cache is off by more than 20 *)
Definition set_guard (h : heap) (p o : loc) (t : pyval) : Prop :=
  t = tag_of h o \/
  (with_tag (view h) p (tag_of h o) <> [o] /\
   (with_tag (view h) p t = [] \/ drift_ok h (nitems (hnode h p)) 20)).

Lemma with_tag_byt h p t : with_tag (view h) p t = byt (fun y => ntag (hnode h y)) t (nitems (hnode h p)).
Proof. reflexivity. Qed.

Lemma set_core_ok h p x o k : WF h -> nth_error (nitems (hnode h p)) k = Some o -> attachable h p x -> x <> o ->
  set_guard h p o (tag_of h x) ->
  exists h' r, set_core p x o h = (h', r) /\
    match r with
    | Ok y => y = x /\ WF h' /\ (NoOrphan (view h) -> NoOrphan (view h')) /\ same (view h') (replaced (view h) p o x k) /\ hnext h' = hnext h
    | Err e => e = TypeError /\ ceq h h' /\
        exists pl, nprt (hnode h o) = Some pl /\ (20 < Z.abs (pl_fam pl - Z.of_nat (fam_pos h p o k)))%Z
    end.
Proof.
  intros W Hk A Hox G. pose proof (WF_child_ne _ _ _ _ W Hk) as Hop. pose proof (attachable_ne _ _ _ A) as Hxp.
  assert (Hin : In o (nitems (hnode h p))) by (eapply nth_error_In; eauto).
  assert (Hlt : k < length (nitems (hnode h p))) by (eapply nth_error_lt; eauto).
  destruct (WF_child_prt h p o W Hin) as (pl & Epl & Epp).
  unfold set_core. rewrite bind_gets. cbv zeta. set (t := ntag (hnode h x)) in *. set (ot := ntag (hnode h o)).
  destruct (idx_or_type_error_ok h p o k W Hk) as (h1 & E1 & Q1 & Wr1). rewrite (bind_ok _ _ _ _ _ E1).
  pose proof (ceq_WF _ _ Q1 W) as W1.
  assert (Hk1 : nth_error (nitems (hnode h1 p)) k = Some o) by (rewrite (ceq_items _ _ Q1); assumption).
  destruct (get_tag_idx_abs h1 p o k W1 Hk1) as (h2 & r & E2 & Q2 & Hr & Habs & Hfast).
  rewrite (bind_ok _ _ _ _ _ E2). pose proof (ceq_trans _ _ _ Q1 Q2) as Q. pose proof (ceq_WF _ _ Q W) as W2.
  assert (Efp : fam_pos h1 p o k = fam_pos h p o k).
  { unfold fam_pos. rewrite (ceq_items _ _ Q1), (ceq_tag _ _ Q1). f_equal. apply filter_ext. intros y. rewrite (ceq_tag _ _ Q1). reflexivity. }
  assert (Eot : ntag (hnode h1 o) = ot) by (rewrite (ceq_tag _ _ Q1); reflexivity).
  rewrite Efp, Eot in *.
  destruct Hr as [->| ->].
  2:{ exists h2, (Err TypeError). split; [reflexivity|]. split; [reflexivity|]. split; [assumption|]. exists pl. split; [assumption|].
      destruct (Z.lt_ge_cases 20 (Z.abs (pl_fam pl - Z.of_nat (fam_pos h p o k)))) as [|Hle]; [assumption|exfalso].
      destruct (WF_child_prt h1 p o W1 (nth_error_In _ _ Hk1)) as (pl1 & Epl1 & _).
      assert (Ef1 : pl_fam pl1 = pl_fam pl).
      { destruct (Wr1 o) as [Eo|(j & pl0 & _ & Hp0 & Eo)]; rewrite Eo in Epl1; [congruence|]. cbn in Epl1. injection Epl1 as <-.
        rewrite Epl in Hp0. injection Hp0 as <-. reflexivity. }
      specialize (Hfast pl1 Epl1). rewrite Ef1 in Hfast. specialize (Hfast Hle). discriminate. }
  rewrite bind_upd, bind_gets. set (h3 := hmod h2 o (set_prt None)).
  assert (H3p : hnode h3 p = hnode h2 p) by (apply hmod_other; congruence).
  rewrite H3p, (ceq_items _ _ Q). rewrite py_idx_of_nat by assumption. rewrite bind_upd. set (h4 := hmod h3 p _).
  destruct (WF_fam h p ot W) as (d & Ed & Eb & Hok & _); [intros E; rewrite E in Hin; destruct Hin|].
  pose proof (base_fams_cur h p d W Eb Ed) as Hbf.
  set (tg := fun y => ntag (hnode h y)) in *.
  assert (H4p : hnode h4 p = set_items (replace_at k x (nitems (hnode h p))) (hnode h2 p)).
  { unfold h4. rewrite hmod_same, H3p. reflexivity. }
  assert (Eb4 : nbound (hnode h4 p) = Current) by (rewrite H4p; cbn; rewrite (ceq_bound _ _ Q); assumption).
  assert (Ed4 : nfams (hnode h4 p) = Some d) by (rewrite H4p; cbn; rewrite (ceq_fams _ _ Q); assumption).
  assert (H4o : forall y, y <> p -> y <> o -> hnode h4 y = hnode h2 y).
  { intros y Hy1 Hy2. unfold h4, h3. rewrite !hmod_other by assumption. reflexivity. }
  assert (H4oo : hnode h4 o = set_prt None (hnode h2 o)) by (unfold h4, h3; rewrite hmod_other by congruence; apply hmod_same).
  (* final states *)
  assert (C2 : caches_ok h2) by (apply (wf_caches _ W2)).
  assert (Fin : forall g dd fi, ceq h4 g -> caches_ok g -> nfams (hnode g p) = Some d -> nbound (hnode g p) = Current -> (0 <= fi)%Z ->
     ceq (mk_set h p o x k dd) (hmod (hmod g p (set_fams (Some dd) Current)) x (set_prt (Some (PL p (Z.of_nat k) fi false))))).
  { intros g dd fi Qg Cg Edg Ebg Hfi. split; [|split].
    - cbn. rewrite (ceq_next _ _ Qg). cbn. symmetry. apply (ceq_next _ _ Q).
    - intros y. rewrite (mk_set_node h W p o x k Hk A Hox). destruct (Nat.eqb_spec y x) as [->|Hyx].
      + rewrite hmod_same, hmod_other by assumption. pose proof (ceq_strip _ _ x Qg) as S1. rewrite H4o in S1 by assumption.
        pose proof (ceq_strip _ _ x Q) as S2. rewrite S1 in S2. unfold strip, set_prt in *. cbn in *. congruence.
      + rewrite (hmod_other _ x) by assumption. destruct (Nat.eqb_spec y p) as [->|Hyp].
        * rewrite hmod_same. pose proof (ceq_strip _ _ p Qg) as S1. rewrite H4p in S1. rewrite strip_items in S1. rewrite <- (ceq_strip _ _ p Q) in S1.
          rewrite !strip_items, !strip_fams. rewrite <- S1. reflexivity.
        * rewrite hmod_other by assumption. rewrite <- (ceq_strip _ _ y Qg). destruct (Nat.eqb_spec y o) as [->|Hyo].
          -- rewrite H4oo. pose proof (ceq_strip _ _ o Q) as S2. unfold strip, set_prt in *. cbn in *. congruence.
          -- rewrite H4o by assumption. apply (ceq_strip _ _ y Q).
    - intros _ y pl0. destruct (Nat.eq_dec y x) as [->|Hyx].
      + rewrite hmod_same. cbn. intros [= <-]. cbn. lia.
      + rewrite (hmod_other _ x) by assumption. destruct (Nat.eq_dec y p) as [->|Hyp]; [rewrite hmod_same; cbn|rewrite hmod_other by assumption]; apply Cg. }
  assert (C4 : caches_ok h4).
  { intros y pl0. destruct (Nat.eq_dec y o) as [->|]; [rewrite H4oo; discriminate|]. destruct (Nat.eq_dec y p) as [->|]; [rewrite H4p; apply C2|].
    rewrite H4o by assumption. apply C2. }
  assert (Done : forall h' dd, ceq (mk_set h p o x k dd) h' -> fam_ok tg dd (replace_at k x (nitems (hnode h p))) ->
     x = x /\ WF h' /\ (NoOrphan (view h) -> NoOrphan (view h')) /\ same (view h') (replaced (view h) p o x k) /\ hnext h' = hnext h).
  { intros h' dd Qh Hdd. destruct (mk_set_WFN h W p o x k Hk A Hox dd Hdd) as [K1 K2]. split; [reflexivity|]. split; [eapply ceq_WF; eauto|].
    split; [intros N; eapply NoOrphan_same; [apply same_sym, ceq_view_same; exact Qh|auto]|].
    split; [eapply same_trans; [apply ceq_view_same; exact Qh|apply mk_set_view; assumption]|]. rewrite (ceq_next _ _ Qh). reflexivity. }
  pose proof (byt_nth tg k o _ Hk) as Hn. change (length (byt tg (tg o) (firstn k (nitems (hnode h p))))) with (fam_pos h p o k) in Hn.
  change (tg o) with ot in Hn.
  assert (Hot : dget d ot = Some (byt tg ot (nitems (hnode h p)))).
  { rewrite (fam_ok_get _ _ _ _ Hok). apply nonempty_ne. intros E. rewrite E in Hn. destruct (fam_pos h p o k); discriminate. }
  assert (Hof : py_idx (length (byt tg ot (nitems (hnode h p)))) (Z.of_nat (fam_pos h p o k)) = Some (fam_pos h p o k)).
  { apply py_idx_of_nat. eapply nth_error_lt; eauto. }
  destruct (pyval_eqb t ot) eqn:Et.
  - apply pyval_eqb_eq in Et. unfold getitem_fam. rewrite !bind_assoc, (bind_ok _ _ _ _ _ (get_fam_cur h4 p t d Eb4 Ed4)).
    rewrite Et, Hot, bind_ret, Hof. rewrite bind_assoc, (bind_ok _ _ _ _ _ (put_fam_cur h4 p ot d _ Eb4 Ed4)), bind_ret, bind_upd.
    eexists _, (Ok x). split; [reflexivity|]. eapply Done; [apply Fin; [apply ceq_refl|assumption|assumption|assumption|lia]|].
    apply (set_same_fam h p o x k Hk d Hok). exact Et.
  - assert (Hne : t <> ot) by (intros E; rewrite E, pyval_eqb_refl in Et; discriminate).
    destruct G as [G|[G1 G2]]; [exfalso; apply Hne; exact G|].
    unfold getitem_fam. rewrite !bind_assoc, (bind_ok _ _ _ _ _ (get_fam_cur h4 p ot d Eb4 Ed4)).
    rewrite Hot, bind_ret, Hof. rewrite bind_assoc, (bind_ok _ _ _ _ _ (put_fam_cur h4 p ot d _ Eb4 Ed4)).
    set (d1 := dset d ot _). set (h5 := hmod h4 p _).
    assert (Ed5 : nfams (hnode h5 p) = Some d1) by (unfold h5; rewrite hmod_same; reflexivity).
    assert (Eb5 : nbound (hnode h5 p) = Current) by (unfold h5; rewrite hmod_same; reflexivity).
    rewrite bind_assoc, (bind_ok _ _ _ _ _ (get_fam_cur h5 p t d1 Eb5 Ed5)).
    assert (Edd : det_dict h p o k = d1).
    { unfold det_dict, d1. fold ot. rewrite Hbf. unfold fam_list. rewrite Hot. destruct (Nat.eqb_spec (length (byt tg ot (nitems (hnode h p)))) 1) as [L1|]; [|reflexivity].
      exfalso. apply G1. change (byt tg ot (nitems (hnode h p)) = [o]). destruct (byt tg ot (nitems (hnode h p))) as [|z [|z2 zr]]; try discriminate.
      destruct (fam_pos h p o k) as [|[|]]; cbn in Hn; congruence. }
    pose proof (set_diff_fam h W p o x k Hk Hne) as Hfin. cbv zeta in Hfin. fold t tg in Hfin. rewrite Edd in Hfin.
    (* ceq from h5-derived states to the final one *)
    assert (Fin5 : forall g dd fi, ceq h5 g -> caches_ok g -> (0 <= fi)%Z -> nfams (hnode g p) = Some d1 -> nbound (hnode g p) = Current ->
       ceq (mk_set h p o x k dd) (hmod (hmod g p (set_fams (Some dd) Current)) x (set_prt (Some (PL p (Z.of_nat k) fi false))))).
    { intros g dd fi Qg Cg Hfi Edg Ebg.
      set (g0 := hmod g p (set_fams (Some d) Current)).
      assert (Q0 : ceq h4 g0).
      { split; [|split].
        - cbn. symmetry. apply (ceq_next _ _ Qg).
        - intros y. unfold g0. destruct (Nat.eq_dec y p) as [->|Hy].
          + rewrite hmod_same, strip_fams, <- (ceq_strip _ _ p Qg). unfold h5. rewrite hmod_same, strip_fams. rewrite H4p. cbn.
            unfold strip, set_fams, set_items, set_prt. cbn. rewrite (ceq_fams _ _ Q), (ceq_bound _ _ Q), Ed, Eb. reflexivity.
          + rewrite hmod_other by assumption. rewrite <- (ceq_strip _ _ y Qg). unfold h5. rewrite hmod_other by assumption. reflexivity.
        - intros _ y pl0. unfold g0. destruct (Nat.eq_dec y p) as [->|Hy]; [rewrite hmod_same; cbn|rewrite hmod_other by assumption]; apply Cg. }
      assert (C0 : caches_ok g0) by (apply Q0; assumption).
      pose proof (Fin g0 dd fi Q0 C0) as K. eapply ceq_trans; [apply K; [unfold g0; rewrite hmod_same; reflexivity|unfold g0; rewrite hmod_same; reflexivity|assumption]|].
      apply heq_ceq. split; [reflexivity|]. intros y. unfold g0. cbn. destruct (Nat.eqb_spec y x) as [->|].
      - destruct (Nat.eqb_spec x p); [congruence|reflexivity].
      - destruct (Nat.eqb_spec y p) as [->|]; reflexivity. }
    destruct (dget d1 t) as [f|] eqn:Ef.
    + assert (Hft : dget d t = Some f).
      { unfold d1 in Ef. rewrite dget_dset in Ef. destruct (pyval_eqb ot t) eqn:E0; [apply pyval_eqb_eq in E0; congruence|exact Ef]. }
      assert (Ff : byt tg t (nitems (hnode h p)) = f /\ f <> []).
      { rewrite (fam_ok_get _ _ _ _ Hok) in Hft. apply nonempty_Some in Hft. exact Hft. }
      destruct Ff as [Ff Hfne]. destruct G2 as [G2|G2]; [exfalso; apply Hfne; rewrite <- Ff; exact G2|].
      pose proof (WF_nodup h p W) as Hnd.
      set (items' := replace_at k x (nitems (hnode h p))).
      assert (Hxn : ~ In x (nitems (hnode h p))) by (apply (att_notin h W p x A)).
      assert (Hni : ~ In x (remove_at k (nitems (hnode h p)))).
      { intros K. apply Hxn. destruct (nth_error_split' _ _ _ Hk) as (l1 & l2 & El & Ek). rewrite El, <- Ek, remove_at_split in K. rewrite El.
        apply in_or_app. apply in_app_or in K. destruct K; [auto|right; right; assumption]. }
      assert (Hnd1 : NoDup (remove_at k (nitems (hnode h p)))).
      { destruct (nth_error_split' _ _ _ Hk) as (l1 & l2 & El & Ek). rewrite El, <- Ek, remove_at_split. rewrite El in Hnd. apply (NoDup_remove_at l1 l2 o Hnd). }
      assert (Hnd' : NoDup items') by (unfold items'; rewrite (replace_eq k o x) by assumption; apply NoDup_insert_at; assumption).
      assert (Hnth : forall j y, y <> x -> (nth_error items' j = Some y <-> nth_error (nitems (hnode h p)) j = Some y /\ y <> o)).
      { intros j y Hy. unfold items'. destruct (nth_error_split' _ _ _ Hk) as (l1 & l2 & El & Ek). rewrite El, <- Ek, replace_at_split.
        destruct (Nat.lt_trichotomy j (length l1)) as [L|[->|L]].
        - rewrite !nth_error_app1 by assumption. split; [|tauto]. intros K. split; [assumption|]. intros ->. rewrite El in Hnd.
          apply NoDup_remove_at in Hnd as [_ Hnd]. apply Hnd. apply in_or_app. left. eapply nth_error_In; eauto.
        - rewrite !nth_error_mid. split; [intros [= ->]; congruence|intros [[= ->] ?]; congruence].
        - rewrite !nth_error_app2 by lia. destruct (j - length l1) as [|m] eqn:Em; [lia|]. cbn. split; [|tauto]. intros K. split; [assumption|]. intros ->. rewrite El in Hnd.
          apply NoDup_remove_at in Hnd as [_ Hnd]. apply Hnd. apply in_or_app. right. eapply nth_error_In; eauto. }
      set (I := fun g : heap => ceq h5 g /\ drift_ok g items' 20 /\ caches_ok g).
      assert (H5n : forall y, nprt (hnode h5 y) = if Nat.eqb y o then None else nprt (hnode h2 y)).
      { intros y. unfold h5. destruct (Nat.eq_dec y p) as [->|Hy].
        - rewrite hmod_same. change (nprt (hnode h4 p) = if Nat.eqb p o then None else nprt (hnode h2 p)). rewrite H4p. destruct (Nat.eqb_spec p o); [congruence|reflexivity].
        - rewrite hmod_other by assumption. destruct (Nat.eqb_spec y o) as [->|]; [rewrite H4oo; reflexivity|rewrite H4o by assumption; reflexivity]. }
      assert (C5 : caches_ok h5).
      { intros y pl0. rewrite H5n. destruct (Nat.eqb y o); [discriminate|apply C2]. }
      assert (Hit5 : nitems (hnode h5 p) = items') by (unfold h5; rewrite hmod_same; change (nitems (hnode h4 p) = items'); rewrite H4p; reflexivity).
      assert (HI5 : I h5).
      { split; [apply ceq_refl|]. split; [|assumption]. intros j y pl0 Hj Hp. rewrite H5n in Hp. destruct (Nat.eqb_spec y o) as [|Hyo]; [discriminate|].
        destruct (Nat.eq_dec y x) as [->|Hyx].
        - exfalso. pose proof (ceq_par _ _ Q x) as P. rewrite Hp, (proj1 A) in P. discriminate.
        - apply Hnth in Hj; [|assumption].
          assert (D2 : drift_ok h2 (nitems (hnode h p)) 20).
          { eapply abs_drift; [exact Habs|]. eapply writes_drift; [exact Hnd|lia|exact Wr1|exact G2]. }
          eapply D2; [apply Hj|exact Hp]. }
      assert (Hfi : forall y, In y f -> In y items' /\ y <> x /\ y <> o).
      { intros y Hy. rewrite <- Ff in Hy. apply filter_In in Hy as [Hy1 Hy2]. apply pyval_eqb_eq in Hy2.
        assert (y <> x) by (intros ->; contradiction). assert (y <> o) by (intros ->; apply Hne; symmetry; exact Hy2).
        split; [|auto]. apply In_nth_error in Hy1 as [j Hj]. apply (nth_error_In items' j). apply Hnth; auto. }
      assert (Hg : forall g, I g -> forall y, In y f ->
            exists g', get_idx y g = (g', Ok (Some (Z.of_nat (posn items' y)))) /\ ceq g g' /\ I g').
      { intros g (Qg & Dg & Cg) y Hy. destruct (Hfi y Hy) as (Y1 & Y2 & Y3).
        assert (Hitg : nitems (hnode g p) = items') by (rewrite (ceq_items _ _ Qg); assumption).
        destruct (get_idx_gen g p y (posn items' y)) as (g' & E & Qg' & Wr).
        - rewrite Hitg. apply posn_in. assumption.
        - rewrite Hitg. assumption.
        - unfold parent_of. rewrite (ceq_view _ _ Qg). unfold view. cbn [a_parent]. rewrite H5n.
          destruct (Nat.eqb_spec y o); [congruence|]. rewrite (ceq_par _ _ Q).
          assert (Hyi : In y (nitems (hnode h p))) by (rewrite <- Ff in Hy; apply filter_In in Hy; apply Hy).
          apply (fo_child _ _ (wf_forest _ W) p y Hyi).
        - assumption.
        - right. rewrite Hitg. assumption.
        - exists g'. split; [assumption|]. split; [assumption|]. split; [eapply ceq_trans; eauto|].
          split; [|apply Qg'; assumption]. rewrite Hitg in Wr. eapply writes_drift; eauto. lia. }
      assert (Ff' : byt tg t items' = insert_at (length (byt tg t (firstn k (nitems (hnode h p))))) x f).
      { unfold items'. rewrite (replace_eq k o x) by assumption. rewrite byt_insert, firstn_remove_at. change (tg x) with t. rewrite pyval_eqb_refl.
        f_equal. rewrite (byt_remove tg t k o) by assumption. change (tg o) with ot. destruct (pyval_eqb ot t) eqn:E0; [apply pyval_eqb_eq in E0; congruence|]. exact Ff. }
      assert (Ff2 : f = filter (fun y => pyval_eqb (tg y) t && negb (Nat.eqb y x)) items').
      { rewrite <- Ff. unfold items'. rewrite (replace_eq k o x) by assumption. rewrite filter_insert_other by (rewrite Nat.eqb_refl; apply andb_false_r).
        rewrite (filter_ext_in _ (fun y => pyval_eqb (tg y) t) (remove_at k (nitems (hnode h p)))).
        2:{ intros y Hy. destruct (Nat.eqb_spec y x) as [->|]; [contradiction|]. rewrite andb_true_r. reflexivity. }
        symmetry. etransitivity; [apply (byt_remove tg t k o _ Hk)|]. change (tg o) with ot.
        destruct (pyval_eqb ot t) eqn:E0; [apply pyval_eqb_eq in E0; congruence|]. reflexivity. }
      destruct (fam_ins_idx_ok I (posn items') (Z.of_nat k) (S (length f)) f 0 h5) as (h6 & E6 & Q6 & I6); auto.
      { rewrite Ff2. apply sorted_filter, sorted_posn. assumption. }
      assert (En : length (below (posn items') (Z.of_nat k) f) = length (byt tg t (firstn k (nitems (hnode h p))))).
      { rewrite Ff2 at 1. rewrite below_prefix by assumption. f_equal. unfold items'. destruct (nth_error_split' _ _ _ Hk) as (l1 & l2 & El & Ek).
        rewrite El, <- Ek, replace_at_split, !firstn_app, Nat.sub_diag. cbn. rewrite !app_nil_r, firstn_all. apply filter_ext_in. intros y Hy.
        destruct (Nat.eqb_spec y x) as [->|]; [|rewrite andb_true_r; reflexivity]. exfalso. apply Hxn. rewrite El. apply in_or_app. auto. }
      cbn [Nat.add] in E6. rewrite En in E6.
      eexists _, (Ok x). split.
      { unfold bind at 1. unfold family_insertion_idx. rewrite E6.
        rewrite (bind_ok _ _ _ _ _ (put_fam_cur h6 p t d1 _ ltac:(rewrite (ceq_bound _ _ Q6); exact Eb5) ltac:(rewrite (ceq_fams _ _ Q6); exact Ed5))).
        unfold ret at 1. rewrite bind_upd. reflexivity. }
      eapply Done; [apply Fin5; [exact Q6|apply I6|lia|rewrite (ceq_fams _ _ Q6); exact Ed5|rewrite (ceq_bound _ _ Q6); exact Eb5]|].
      unfold fam_list in Hfin. rewrite Ef in Hfin. exact Hfin.
    + rewrite bind_assoc, (bind_ok _ _ _ _ _ (put_fam_cur h5 p t d1 _ Eb5 Ed5)), bind_ret, bind_upd.
      eexists _, (Ok x). split; [reflexivity|].
      assert (C5 : caches_ok h5).
      { intros y pl0. unfold h5. destruct (Nat.eq_dec y p) as [->|Hy]; [rewrite hmod_same; cbn|rewrite hmod_other by assumption]; apply C4. }
      eapply Done; [apply Fin5; [apply ceq_refl|assumption|lia|assumption|assumption]|].
      unfold fam_list in Hfin. rewrite Ef in Hfin. unfold insert_at in Hfin. rewrite firstn_nil, skipn_nil in Hfin. exact Hfin.
Qed.
