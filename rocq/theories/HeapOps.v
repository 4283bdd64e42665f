(** The building blocks of the mutators give, up to position caches, the canonical
    heaps of HeapAttach. *)
From Verif Require Import Base Heap HeapSpec ListLemmas ForestLemmas HeapInv HeapAttach.

(** * congruence of the canonical heaps *)
Lemma ceq_strip h h' y : ceq h h' -> strip (hnode h y) = strip (hnode h' y).
Proof. intros E. apply E. Qed.

Lemma att_dict_ceq h h' p x k : ceq h h' -> att_dict h' p x k = att_dict h p x k.
Proof.
  intros E. unfold att_dict, base_fams.
  rewrite (ceq_tag _ _ E), (ceq_items _ _ E), (ceq_fams _ _ E).
  do 3 f_equal. unfold byt. apply filter_ext. intros y. rewrite (ceq_tag _ _ E). reflexivity.
Qed.
Lemma det_dict_ceq h h' p x k : ceq h h' -> det_dict h' p x k = det_dict h p x k.
Proof.
  intros E. unfold det_dict, base_fams.
  rewrite (ceq_tag _ _ E), (ceq_items _ _ E), (ceq_fams _ _ E).
  destruct (Nat.eqb _ 1); [reflexivity|].
  do 3 f_equal. unfold byt. apply filter_ext. intros y. rewrite (ceq_tag _ _ E). reflexivity.
Qed.

Lemma strip_items l n : strip (set_items l n) = set_items l (strip n). Proof. reflexivity. Qed.
Lemma strip_fams d b n : strip (set_fams d b n) = set_fams d b (strip n). Proof. reflexivity. Qed.

(** what it takes to be the canonical result *)
Lemma attach_intro h h1 h' p x k a b :
  caches_ok h ->
  x <> p -> ceq h h1 -> hnext h' = hnext h ->
  hnode h' p = set_items (insert_at k x (nitems (hnode h p)))
                         (set_fams (Some (att_dict h p x k)) Current (hnode h1 p)) ->
  hnode h' x = set_prt (Some (PL p a b false)) (hnode h1 x) ->
  (0 <= a)%Z -> (0 <= b)%Z ->
  (forall y, y <> p -> y <> x -> hnode h' y = hnode h1 y) ->
  ceq (mk_attach h p x k) h'.
Proof.
  intros C0 Hne E Hn Hp Hx Ha Hb Ho.
  assert (Mp : hnode (mk_attach h p x k) p = set_items (insert_at k x (nitems (hnode h p)))
                         (set_fams (Some (att_dict h p x k)) Current (hnode h p))).
  { unfold mk_attach. rewrite hmod_other by congruence. apply hmod_same. }
  assert (Mx : hnode (mk_attach h p x k) x = set_prt (Some (PL p 0 0 false)) (hnode h x)).
  { unfold mk_attach. rewrite hmod_same, hmod_other by congruence. reflexivity. }
  assert (Mo : forall y, y <> p -> y <> x -> hnode (mk_attach h p x k) y = hnode h y).
  { intros y H1 H2. unfold mk_attach. rewrite !hmod_other by congruence. reflexivity. }
  assert (C1 : caches_ok h1) by (apply E; assumption).
  split; [cbn; congruence|]. split.
  - intros y. destruct (Nat.eq_dec y p) as [->|Hyp].
    + rewrite Hp, Mp, !strip_items, !strip_fams, (ceq_strip _ _ _ E). reflexivity.
    + destruct (Nat.eq_dec y x) as [->|Hyx].
      * rewrite Hx, Mx. pose proof (ceq_strip _ _ x E) as S.
        unfold strip, set_prt in *. cbn in *. congruence.
      * rewrite (Ho y Hyp Hyx), (Mo y Hyp Hyx). apply ceq_strip. assumption.
  - intros _ y pl. destruct (Nat.eq_dec y p) as [->|Hyp].
    + rewrite Hp. cbn. apply C1.
    + destruct (Nat.eq_dec y x) as [->|Hyx].
      * rewrite Hx. cbn. intros [= <-]. cbn. auto.
      * rewrite (Ho y Hyp Hyx). apply C1.
Qed.

Lemma detach_intro h h1 h' p x k :
  caches_ok h ->
  x <> p -> ceq h h1 -> hnext h' = hnext h ->
  hnode h' p = set_items (remove_at k (nitems (hnode h p)))
                         (set_fams (Some (det_dict h p x k)) Current (hnode h1 p)) ->
  hnode h' x = set_prt None (hnode h1 x) ->
  (forall y, y <> p -> y <> x -> hnode h' y = hnode h1 y) ->
  ceq (mk_detach h p x k) h'.
Proof.
  intros C0 Hne E Hn Hp Hx Ho.
  assert (Mp : hnode (mk_detach h p x k) p = set_items (remove_at k (nitems (hnode h p)))
                         (set_fams (Some (det_dict h p x k)) Current (hnode h p))).
  { unfold mk_detach. rewrite hmod_other by congruence. apply hmod_same. }
  assert (Mx : hnode (mk_detach h p x k) x = set_prt None (hnode h x)).
  { unfold mk_detach. rewrite hmod_same, hmod_other by congruence. reflexivity. }
  assert (Mo : forall y, y <> p -> y <> x -> hnode (mk_detach h p x k) y = hnode h y).
  { intros y H1 H2. unfold mk_detach. rewrite !hmod_other by congruence. reflexivity. }
  assert (C1 : caches_ok h1) by (apply E; assumption).
  split; [cbn; congruence|]. split.
  - intros y. destruct (Nat.eq_dec y p) as [->|Hyp].
    + rewrite Hp, Mp, !strip_items, !strip_fams, (ceq_strip _ _ _ E). reflexivity.
    + destruct (Nat.eq_dec y x) as [->|Hyx].
      * rewrite Hx, Mx. pose proof (ceq_strip _ _ x E) as S.
        unfold strip, set_prt in *. cbn in *. congruence.
      * rewrite (Ho y Hyp Hyx), (Mo y Hyp Hyx). apply ceq_strip. assumption.
  - intros _ y pl. destruct (Nat.eq_dec y p) as [->|Hyp].
    + rewrite Hp. cbn. apply C1.
    + destruct (Nat.eq_dec y x) as [->|Hyx].
      * rewrite Hx. cbn. discriminate.
      * rewrite (Ho y Hyp Hyx). apply C1.
Qed.

(** node records: merging updates *)
Lemma set_items_items a b n : set_items a (set_items b n) = set_items a n. Proof. reflexivity. Qed.
Lemma set_fams_fams a b c d n : set_fams a b (set_fams c d n) = set_fams a b n. Proof. reflexivity. Qed.
Lemma set_items_fams a b c n : set_fams b c (set_items a n) = set_items a (set_fams b c n). Proof. reflexivity. Qed.

Ltac hnodes :=
  repeat first [ rewrite hmod_same
               | rewrite hmod_other by congruence ].

(** get_fam / put_fam depend on the families only *)
Lemma get_fam_cur h p t d : nbound (hnode h p) = Current -> nfams (hnode h p) = Some d ->
  get_fam p t h = (h, Ok (dget d t)).
Proof. intros Hb Hf. unfold get_fam. rewrite Hb, Hf. reflexivity. Qed.
Lemma put_fam_cur h p t d l : nbound (hnode h p) = Current -> nfams (hnode h p) = Some d ->
  put_fam p t l h = (hmod h p (set_fams (Some (dset d t l)) Current), Ok tt).
Proof. intros Hb Hf. unfold put_fam. rewrite Hb, Hf. reflexivity. Qed.

Lemma base_fams_cur h p d : WF h -> nbound (hnode h p) = Current -> nfams (hnode h p) = Some d ->
  base_fams (hnode h p) = d.
Proof.
  intros W Hb Hf. unfold base_fams. rewrite Hf. destruct (nitems (hnode h p)) eqn:E; [|reflexivity].
  pose proof (wf_fams _ W p) as G. unfold node_fam_ok in G. rewrite Hb, Hf, E in G.
  destruct G as (d' & [= <-] & G). symmetry. eapply fam_ok_nil; eauto.
Qed.

Section Att.
  Context (h : heap) (W : WF h) (p x : loc) (A : attachable h p x).
  Let Hne := attachable_ne _ _ _ A.
  Let t := ntag (hnode h x).
  Let tg := fun y => ntag (hnode h y).
  Let items := nitems (hnode h p).

  (** writing the new family entry and the parent record, given the family position *)
  Lemma att_dict_some d f k j :
    base_fams (hnode h p) = d -> dget d t = Some f ->
    j = length (byt tg t (firstn k items)) ->
    att_dict h p x k = dset d t (insert_at j x f).
  Proof. intros <- Hf ->. unfold att_dict, fam_list. fold t. rewrite Hf. reflexivity. Qed.
  Lemma att_dict_none d k : base_fams (hnode h p) = d -> dget d t = None ->
    att_dict h p x k = dset d t [x].
  Proof.
    intros <- Hf. unfold att_dict, fam_list. fold t. rewrite Hf.
    unfold insert_at. rewrite firstn_nil, skipn_nil. reflexivity.
  Qed.

  Lemma append_core_ok :
    exists h', append_core p x h = (h', Ok tt) /\ ceq (mk_attach h p x (length items)) h'.
  Proof.
    unfold append_core. rewrite bind_gets. fold items t.
    pose proof (WF_base_fam h p W) as Hb.
    destruct items as [|i0 ir] eqn:Ei.
    - do 2 rewrite bind_upd. eexists; split; [reflexivity|].
      eapply attach_intro with (h1 := h); cycle 4.
      * hnodes. rewrite set_items_fams. fold items. rewrite Ei. cbn [length insert_at firstn skipn app].
        assert (base_fams (hnode h p) = []) by (unfold base_fams; fold items; rewrite Ei; reflexivity).
        rewrite (att_dict_none []) by (assumption || reflexivity). reflexivity.
      * hnodes. reflexivity.
      * lia.
      * lia.
      * intros y H1 H2. hnodes. reflexivity.
      * apply (wf_caches _ W).
      * assumption.
      * apply ceq_refl.
      * reflexivity.
    - rewrite bind_upd. rewrite <- Ei.
      destruct (WF_fam h p t W) as (d & Ed & Eb & Hok & _); [fold items; congruence|].
      set (h1 := hmod h p _).
      assert (Eb1 : nbound (hnode h1 p) = Current) by (subst h1; hnodes; assumption).
      assert (Ed1 : nfams (hnode h1 p) = Some d) by (subst h1; hnodes; assumption).
      rewrite (bind_ok _ _ _ _ _ (get_fam_cur h1 p t d Eb1 Ed1)).
      pose proof (base_fams_cur h p d W Eb Ed) as Hbf.
      destruct (dget d t) as [f|] eqn:Ef.
      + rewrite (bind_ok _ _ _ _ _ (put_fam_cur h1 p t d _ Eb1 Ed1)).
        eexists; split; [reflexivity|].
        eapply attach_intro with (h1 := h); cycle 4.
        * hnodes. subst h1. hnodes. rewrite set_items_fams.
          fold items. rewrite insert_at_end by reflexivity.
          rewrite (att_dict_some d f _ (length f) Hbf Ef).
          -- rewrite insert_at_end by lia. reflexivity.
          -- rewrite firstn_all. rewrite (fam_ok_get _ _ _ _ Hok) in Ef.
             apply nonempty_Some in Ef as [<- _]. reflexivity.
        * hnodes. subst h1. hnodes. reflexivity.
        * lia.
        * lia.
        * intros y H1 H2. subst h1. hnodes. reflexivity.
        * apply (wf_caches _ W).
        * assumption.
        * apply ceq_refl.
        * reflexivity.
      + rewrite (bind_ok _ _ _ _ _ (put_fam_cur h1 p t d _ Eb1 Ed1)).
        eexists; split; [reflexivity|].
        eapply attach_intro with (h1 := h); cycle 4.
        * hnodes. subst h1. hnodes. rewrite set_items_fams.
          fold items. rewrite insert_at_end by reflexivity.
          rewrite (att_dict_none d _ Hbf Ef). reflexivity.
        * hnodes. subst h1. hnodes. reflexivity.
        * lia.
        * lia.
        * intros y H1 H2. subst h1. hnodes. reflexivity.
        * apply (wf_caches _ W).
        * assumption.
        * apply ceq_refl.
        * reflexivity.
  Qed.

  Lemma append_left_core_ok : items <> [] ->
    exists h', append_left_core p x h = (h', Ok tt) /\ ceq (mk_attach h p x 0) h'.
  Proof.
    intros Hi. unfold append_left_core. rewrite bind_gets. fold items t. rewrite bind_upd.
    destruct (WF_fam h p t W) as (d & Ed & Eb & Hok & _); [assumption|].
    set (h1 := hmod h p _).
    assert (Eb1 : nbound (hnode h1 p) = Current) by (subst h1; hnodes; assumption).
    assert (Ed1 : nfams (hnode h1 p) = Some d) by (subst h1; hnodes; assumption).
    rewrite (bind_ok _ _ _ _ _ (get_fam_cur h1 p t d Eb1 Ed1)).
    pose proof (base_fams_cur h p d W Eb Ed) as Hbf.
    destruct (dget d t) as [f|] eqn:Ef.
    - rewrite (bind_ok _ _ _ _ _ (put_fam_cur h1 p t d _ Eb1 Ed1)).
      eexists; split; [reflexivity|].
      eapply attach_intro with (h1 := h); cycle 4.
      * hnodes. subst h1. hnodes. rewrite set_items_fams.
        fold items. rewrite insert_at_0. rewrite (att_dict_some d f 0 0 Hbf Ef eq_refl).
        rewrite insert_at_0. reflexivity.
      * hnodes. subst h1. hnodes. reflexivity.
      * lia.
      * lia.
      * intros y H1 H2. subst h1. hnodes. reflexivity.
      * apply (wf_caches _ W).
      * assumption.
      * apply ceq_refl.
      * reflexivity.
    - rewrite (bind_ok _ _ _ _ _ (put_fam_cur h1 p t d _ Eb1 Ed1)).
      eexists; split; [reflexivity|].
      eapply attach_intro with (h1 := h); cycle 4.
      * hnodes. subst h1. hnodes. rewrite set_items_fams.
        fold items. rewrite insert_at_0.
        rewrite (att_dict_none d _ Hbf Ef). reflexivity.
      * hnodes. subst h1. hnodes. reflexivity.
      * lia.
      * lia.
      * intros y H1 H2. subst h1. hnodes. reflexivity.
      * apply (wf_caches _ W).
      * assumption.
      * apply ceq_refl.
      * reflexivity.
  Qed.

  (** the second half of an extend round *)
  Lemma ext_attach_ok : nbound (hnode h p) = Current ->
    exists h', (let i := Z.of_nat (length items) in
      fam <- get_fam p t ;;
      match fam with
      | None => put_fam p t [x] ;;; upd x (set_prt (Some (PL p i 0 false)))
      | Some f => put_fam p t (f ++ [x]) ;;;
              upd x (set_prt (Some (PL p i (Z.of_nat (length f)) false)))
      end ;;;
      h' <- gets (fun h => h) ;;
      upd p (set_items (nitems (hnode h' p) ++ [x]))) h = (h', Ok tt) /\
      ceq (mk_attach h p x (length items)) h'.
  Proof.
    intros Eb. pose proof (wf_fams _ W p) as G. unfold node_fam_ok in G. rewrite Eb in G.
    destruct G as (d & Ed & Hok). cbv zeta.
    rewrite (bind_ok _ _ _ _ _ (get_fam_cur h p t d Eb Ed)).
    pose proof (base_fams_cur h p d W Eb Ed) as Hbf.
    destruct (dget d t) as [f|] eqn:Ef.
    - rewrite bind_assoc, (bind_ok _ _ _ _ _ (put_fam_cur h p t d _ Eb Ed)).
      rewrite bind_upd, bind_gets. eexists; split; [reflexivity|].
      eapply attach_intro with (h1 := h); cycle 4.
      * hnodes. cbn [nitems set_fams]. fold items.
        rewrite insert_at_end by reflexivity.
        rewrite (att_dict_some d f _ (length f) Hbf Ef).
        -- rewrite insert_at_end by lia. reflexivity.
        -- rewrite firstn_all. rewrite (fam_ok_get _ _ _ _ Hok) in Ef.
           apply nonempty_Some in Ef as [<- _]. reflexivity.
      * hnodes. reflexivity.
      * lia.
      * lia.
      * intros y H1 H2. hnodes. reflexivity.
      * apply (wf_caches _ W).
      * assumption.
      * apply ceq_refl.
      * reflexivity.
    - rewrite bind_assoc, (bind_ok _ _ _ _ _ (put_fam_cur h p t d _ Eb Ed)).
      rewrite bind_upd, bind_gets. eexists; split; [reflexivity|].
      eapply attach_intro with (h1 := h); cycle 4.
      * hnodes. cbn [nitems set_fams]. fold items.
        rewrite insert_at_end by reflexivity.
        rewrite (att_dict_none d _ Hbf Ef). reflexivity.
      * hnodes. reflexivity.
      * lia.
      * lia.
      * intros y H1 H2. hnodes. reflexivity.
      * apply (wf_caches _ W).
      * assumption.
      * apply ceq_refl.
      * reflexivity.
  Qed.
End Att.
