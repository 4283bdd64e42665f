(** tag_idx and deletion of one item. *)
From Verif Require Import Base Heap HeapSpec ListLemmas ForestLemmas HeapInv HeapAttach HeapOps HeapOps2.

(** * tag_idx *)
(** number of earlier siblings with the same tag *)
Definition fam_pos (h : heap) (p x : loc) (k : nat) : nat :=
  length (byt (fun y => ntag (hnode h y)) (ntag (hnode h x)) (firstn k (nitems (hnode h p)))).

Lemma fam_pos_nth h p x k : nth_error (nitems (hnode h p)) k = Some x ->
  nth_error (with_tag (view h) p (ntag (hnode h x))) (fam_pos h p x k) = Some x.
Proof. intros H. apply (byt_nth (fun y => ntag (hnode h y)) k x _ H). Qed.

Lemma get_tag_idx_ok h p x k pl : WF h -> nth_error (nitems (hnode h p)) k = Some x ->
  nprt (hnode h x) = Some pl ->
  exists h', ceq h h' /\
    get_tag_idx x h = (h', Ok (if (20 <? Z.abs (pl_fam pl - Z.of_nat (fam_pos h p x k)))%Z
                               then TIBare (Z.of_nat (fam_pos h p x k))
                               else TIPair (ntag (hnode h x)) (Z.of_nat (fam_pos h p x k)))).
Proof.
  intros W Hk Hp. unfold get_tag_idx. rewrite Hp.
  assert (Hin : In x (nitems (hnode h p))) by (eapply nth_error_In; eauto).
  destruct (WF_child_prt h p x W Hin) as (pl' & E' & Epp). rewrite Hp in E'. injection E' as <-.
  rewrite Epp. set (t := ntag (hnode h x)).
  destruct (WF_fam h p t W) as (d & Ed & Eb & Hok & Eg); [intros E0; rewrite E0 in Hin; exact Hin|].
  pose proof (fam_pos_nth h p x k Hk) as Hn. fold t in Hn.
  set (fam := with_tag (view h) p t) in *.
  assert (Hne : fam <> []) by (intros E0; rewrite E0 in Hn; destruct (fam_pos h p x k); discriminate).
  unfold getitem_fam. rewrite bind_assoc, (bind_ok _ _ _ _ _ Eg), (nonempty_ne _ Hne), bind_ret.
  destruct (wf_caches _ W _ _ Hp) as (C1 & C2 & C3).
  destruct (locate_ok SFam fam (pl_fam pl) x h (fam_pos h p x k) Hn) as (f & h' & E & Ef & Q & Hs & _).
  - apply NoDup_filter. apply (WF_nodup h p W).
  - assumption.
  - apply (wf_caches _ W).
  - congruence.
  - left. intros y Hy. apply filter_In in Hy as [Hy _].
    destruct (WF_child_prt h p y W Hy) as (ply & -> & _). discriminate.
  - exists h'. split; [assumption|]. rewrite (bind_ok _ _ _ _ _ E). unfold ret. do 2 f_equal.
    destruct (Z.ltb_spec 20 (Z.abs (pl_fam pl - Z.of_nat (fam_pos h p x k)))) as [Hl|Hl].
    + apply Hs in Hl. destruct f; try discriminate. cbn in Ef. rewrite Ef. reflexivity.
    + destruct f; cbn in Ef; rewrite Ef; try reflexivity.
      exfalso. assert (is_slow (Slow i) = true) by reflexivity. apply Hs in H. lia.
Qed.

(** * the search of a member of a family *)
Lemma index_from_le (eq : loc -> bool) x : eq x = true -> forall l j i start,
  nth_error l j = Some x -> start <= i + j ->
  exists m, index_from eq l i start = Some m /\ start <= m <= i + j /\
    exists y, nth_error l (m - i) = Some y /\ i <= m.
Proof.
  intros Hx. induction l as [|y l IH]; intros j i start Hj Hs; [destruct j; discriminate|].
  cbn [index_from]. destruct (Nat.leb_spec start i) as [Hl|Hl]; cbn [andb].
  - destruct (eq y) eqn:Ey.
    + exists i. split; [reflexivity|]. split; [lia|]. exists y. rewrite Nat.sub_diag. auto.
    + destruct j as [|j]; [cbn in Hj; congruence|]. cbn in Hj.
      destruct (IH j (S i) start Hj) as (m & E & Hm & z & Hz & Hi); [lia|].
      exists m. split; [assumption|]. split; [lia|]. exists z.
      replace (m - i) with (S (m - S i)) by lia. split; [assumption|lia].
  - destruct j as [|j]; [lia|]. cbn in Hj.
    destruct (IH j (S i) start Hj) as (m & E & Hm & z & Hz & Hi); [lia|].
    exists m. split; [assumption|]. split; [lia|]. exists z.
    replace (m - i) with (S (m - S i)) by lia. split; [assumption|lia].
Qed.

Lemma fam_search_ok (eq : loc -> bool) fam x j : eq x = true -> NoDup fam ->
  nth_error fam j = Some x -> forall rounds start, start <= j -> j < start + rounds ->
  fam_search rounds eq fam x start = Ok j.
Proof.
  intros Hx Hd Hj. induction rounds as [|r IH]; intros start Hs Hr; [lia|].
  cbn [fam_search].
  destruct (index_from_le eq x Hx fam j 0 start Hj) as (m & E & Hm & y & Hy & _); [lia|].
  rewrite E. rewrite Nat.sub_0_r in Hy. rewrite Hy.
  destruct (Nat.eqb_spec y x) as [->|Hne].
  - f_equal. eapply NoDup_nth_error_inj; eauto.
  - apply IH; [|lia]. assert (m <> j) by (intros ->; congruence). lia.
Qed.

(** * del_int *)
Lemma item_eqb_refl h x : item_eqb h x x = true.
Proof. unfold item_eqb. rewrite Nat.eqb_refl. reflexivity. Qed.

(** the exceptions of del_int, in the order they are checked; None = success *)
Definition del_exn (h : heap) (p : loc) (i : Z) : option exn :=
  if tree_protected h p && negb (is_link_root h p) then Some PermissionError
  else match nitems (hnode h p) with
       | [] => Some KeyError
       | _ => match py_idx (length (nitems (hnode h p))) i with
              | None => Some IndexError
              | Some k => match nth_error (nitems (hnode h p)) k with
                          | Some x => if tree_protected h p && root_loaded h p &&
                                         has (nflags (hnode h x)) (Z.lor LINKED PLACEHOLDER)
                                      then Some PermissionError else None
                          | None => Some IndexError
                          end
              end
       end.

Lemma del_int_err h p i e : del_exn h p i = Some e -> del_int p i h = (h, Err e).
Proof.
  unfold del_exn, del_int, check_del. rewrite bind_assoc, bind_gets.
  destruct (tree_protected h p) eqn:Ep; cbn [andb].
  - destruct (is_link_root h p) eqn:El; cbn [negb].
    + rewrite bind_ret, bind_gets. destruct (nitems (hnode h p)) as [|i0 ir] eqn:Ei.
      * intros [= <-]. reflexivity.
      * rewrite <- Ei. destruct (py_idx _ i) as [k|]; [|intros [= <-]; reflexivity].
        destruct (nth_error _ k) as [x|]; [|intros [= <-]; reflexivity].
        destruct (root_loaded h p && has (nflags (hnode h x)) (Z.lor LINKED PLACEHOLDER)); [|discriminate].
        intros [= <-]. reflexivity.
    + intros [= <-]. reflexivity.
  - rewrite bind_ret, bind_gets. destruct (nitems (hnode h p)) as [|i0 ir] eqn:Ei.
    + intros [= <-]. reflexivity.
    + rewrite <- Ei. destruct (py_idx _ i) as [k|]; [|intros [= <-]; reflexivity].
      destruct (nth_error _ k) as [x|]; [discriminate|intros [= <-]; reflexivity].
Qed.

Lemma unfamily_ok h p x k : WF h -> nth_error (nitems (hnode h p)) k = Some x ->
  exists h', (unfamily p x ;;; upd x (set_prt None) ;;; ret x)
               (hmod h p (set_items (remove_at k (nitems (hnode h p))))) = (h', Ok x) /\
    ceq (mk_detach h p x k) h'.
Proof.
  intros W Hk. pose proof (WF_child_ne _ _ _ _ W Hk) as Hne.
  set (items := nitems (hnode h p)) in *. set (h1 := hmod h p _).
  assert (Hin : In x items) by (eapply nth_error_In; eauto).
  destruct (WF_child_prt h p x W Hin) as (pl & Epl & Epp).
  set (t := ntag (hnode h x)).
  destruct (WF_fam h p t W) as (d & Ed & Eb & Hok & _);
    [intros E0; unfold items in Hin; rewrite E0 in Hin; exact Hin|].
  assert (Et1 : ntag (hnode h1 x) = t) by (subst h1; hnodes; reflexivity).
  assert (Eb1 : nbound (hnode h1 p) = Current) by (subst h1; hnodes; assumption).
  assert (Ed1 : nfams (hnode h1 p) = Some d) by (subst h1; hnodes; assumption).
  assert (Epl1 : nprt (hnode h1 x) = Some pl) by (subst h1; hnodes; assumption).
  pose proof (base_fams_cur h p d W Eb Ed) as Hbf.
  pose proof (fam_pos_nth h p x k Hk) as Hn. fold t in Hn.
  set (fam := with_tag (view h) p t) in *.
  assert (Hfne : fam <> []) by (intros E0; rewrite E0 in Hn; destruct (fam_pos h p x k); discriminate).
  assert (Hdg : dget d t = Some fam).
  { rewrite (fam_ok_get _ _ _ _ Hok). apply nonempty_ne. exact Hfne. }
  assert (Hfd : NoDup fam) by (apply NoDup_filter; apply (WF_nodup h p W)).
  destruct (wf_caches _ W _ _ Epl) as (C1 & C2 & C3).
  unfold unfamily, getitem_fam. rewrite bind_assoc, bind_gets. rewrite Et1.
  rewrite !bind_assoc, (bind_ok _ _ _ _ _ (get_fam_cur h1 p t d Eb1 Ed1)), Hdg, bind_ret.
  assert (Hdet : det_dict h p x k =
            if Nat.eqb (length fam) 1 then ddel d t
            else dset d t (remove_at (fam_pos h p x k) fam)).
  { unfold det_dict. fold t items. rewrite Hbf. unfold fam_list. rewrite Hdg. reflexivity. }
  assert (Hput : exists h', (put_fam p t (remove_at (fam_pos h p x k) fam) ;;;
                 upd x (set_prt None) ;;; ret x) h1 = (h', Ok x) /\
       (Nat.eqb (length fam) 1 = false -> ceq (mk_detach h p x k) h')).
  { rewrite (bind_ok _ _ _ _ _ (put_fam_cur h1 p t d _ Eb1 Ed1)). rewrite bind_upd.
    eexists; split; [reflexivity|]. intros E1. rewrite E1 in Hdet.
    eapply detach_intro with (h1 := h).
    - apply (wf_caches _ W).
    - assumption.
    - apply ceq_refl.
    - reflexivity.
    - hnodes. subst h1. hnodes. rewrite Hdet. fold items. reflexivity.
    - hnodes. subst h1. hnodes. reflexivity.
    - intros y H1 H2. subst h1. hnodes. reflexivity. }
  destruct (Nat.eqb (length fam) 1) eqn:E1; cbn [negb].
  - unfold del_fam. unfold bind at 1. rewrite Ed1, Hdg. rewrite bind_upd.
    eexists; split; [reflexivity|].
    eapply detach_intro with (h1 := h).
    + apply (wf_caches _ W).
    + assumption.
    + apply ceq_refl.
    + reflexivity.
    + hnodes. subst h1. hnodes. cbn [nbound set_items]. rewrite Eb, Hdet. fold items. reflexivity.
    + hnodes. subst h1. hnodes. reflexivity.
    + intros y H1 H2. subst h1. hnodes. reflexivity.
  - destruct Hput as (h' & Eh & Qh). exists h'. split; [|auto].
    rewrite Epl1, bind_assoc. rewrite fast_hit_nonneg, bind_lift by assumption. cbn beta iota.
    destruct (nth_error fam (Z.to_nat (pl_fam pl))) as [y|] eqn:Ey; [destruct (Nat.eqb_spec y x) as [->|]|].
    + pose proof (nth_error_lt _ _ _ Ey) as Hl. rewrite py_idx_nonneg by lia.
      assert (Z.to_nat (pl_fam pl) = fam_pos h p x k) as -> by (eapply NoDup_nth_error_inj; eauto).
      exact Eh.
    + rewrite bind_assoc, bind_lift. pose proof (nth_error_lt _ _ _ Hn).
      rewrite (fam_search_ok _ fam x _ (item_eqb_refl _ x) Hfd Hn) by lia. exact Eh.
    + rewrite bind_assoc, bind_lift. pose proof (nth_error_lt _ _ _ Hn).
      rewrite (fam_search_ok _ fam x _ (item_eqb_refl _ x) Hfd Hn) by lia. exact Eh.
Qed.

Lemma del_int_ok h p i k x : WF h -> del_exn h p i = None ->
  py_idx (length (nitems (hnode h p))) i = Some k -> nth_error (nitems (hnode h p)) k = Some x ->
  exists h', del_int p i h = (h', Ok x) /\ ceq (mk_detach h p x k) h'.
Proof.
  intros W Hex Hi Hk.
  assert (Hcov : match nlink (hnode h x) with Some lk => lk_cover lk | None => None end = None).
  { destruct (nlink (hnode h x)) as [lk|] eqn:El; [|reflexivity]. apply (wf_cover _ W x lk El). }
  destruct (unfamily_ok h p x k W Hk) as (h' & E & Q). exists h'. split; [|assumption].
  unfold del_exn in Hex. unfold del_int, check_del. rewrite bind_assoc, bind_gets.
  rewrite Hi, Hk in Hex.
  assert (Hcase : (bind (ret (tree_protected h p && root_loaded h p)) (fun lr =>
             h0 <- gets (fun h => h) ;;
             match nitems (hnode h0 p) with
             | [] => throw KeyError
             | _ :: _ =>
               match py_idx (length (nitems (hnode h0 p))) i with
               | None => throw IndexError
               | Some k =>
                 match nth_error (nitems (hnode h0 p)) k with
                 | None => throw IndexError
                 | Some x =>
                   if lr && has (nflags (hnode h0 x)) (Z.lor LINKED PLACEHOLDER) then throw PermissionError
                   else
                     upd p (set_items (remove_at k (nitems (hnode h0 p)))) ;;;
                     match match nlink (hnode h0 x) with Some lk => lk_cover lk | None => None end with
                     | Some y =>
                       ti <- get_tag_idx x ;;
                       match ti with
                       | TIPair _ f =>
                         h1 <- gets (fun h => h) ;;
                         upd p (set_items (py_insert i y (nitems (hnode h1 p)))) ;;;
                         fam <- getitem_fam p (ntag (hnode h0 x)) ;;
                         match py_idx (length fam) f with
                         | Some k' => put_fam p (ntag (hnode h0 x)) (replace_at k' y fam)
                         | None => throw IndexError
                         end ;;;
                         upd y (set_prt (Some (PL p i f false))) ;;;
                         upd x (set_prt None) ;;;
                         ret x
                       | _ => throw TypeError
                       end
                     | None =>
                       unfamily p x ;;;
                       upd x (set_prt None) ;;;
                       ret x
                     end
                 end
               end
             end)) h = (h', Ok x)).
  { rewrite bind_ret, bind_gets. destruct (nitems (hnode h p)) as [|i0 ir] eqn:Ei; [destruct k; discriminate|].
    rewrite <- Ei in *. rewrite Hi, Hk, Hcov.
    destruct (tree_protected h p && negb (is_link_root h p)); [discriminate|].
    destruct (tree_protected h p && root_loaded h p && has (nflags (hnode h x)) (Z.lor LINKED PLACEHOLDER)) eqn:E3;
      [discriminate|]. rewrite bind_upd. exact E. }
  destruct (tree_protected h p) eqn:Ep; cbn [andb] in *.
  - destruct (is_link_root h p) eqn:El; cbn [negb] in *; [exact Hcase|].
    discriminate.
  - exact Hcase.
Qed.
