(** Canonical results of attaching / detaching one item: [mk_attach], [mk_detach],
    [mk_reorder]; they keep the invariant and refine the abstract operations.
    The mutators are proved (HeapOps) to give these heaps up to position caches. *)
From Verif Require Import Base Heap HeapSpec ListLemmas ForestLemmas HeapInv.

(** * dict lemmas *)
Lemma dget_dset d t v u : dget (dset d t v) u = if pyval_eqb t u then Some v else dget d u.
Proof.
  induction d as [|[k w] d IH]; cbn.
  - reflexivity.
  - destruct (pyval_eqb k t) eqn:E; cbn.
    + apply pyval_eqb_eq in E as ->. destruct (pyval_eqb t u); reflexivity.
    + rewrite IH. destruct (pyval_eqb k u) eqn:E2; [|reflexivity].
      apply pyval_eqb_eq in E2 as ->. rewrite pyval_eqb_sym, E. reflexivity.
Qed.
Lemma dset_keys d t v : map fst (dset d t v) =
  if existsb (fun k => pyval_eqb k t) (map fst d) then map fst d else map fst d ++ [t].
Proof.
  induction d as [|[k w] d IH]; cbn; [reflexivity|].
  destruct (pyval_eqb k t) eqn:E; cbn; [reflexivity|].
  rewrite IH. destruct (existsb _ _); reflexivity.
Qed.
Lemma dset_NoDup d t v : NoDup (map fst d) -> NoDup (map fst (dset d t v)).
Proof.
  intros H. rewrite dset_keys. destruct (existsb _ _) eqn:E; [assumption|].

  rewrite <- (rev_involutive (map fst d ++ [t])). apply NoDup_rev. rewrite rev_app_distr. cbn.
  constructor; [|apply NoDup_rev; assumption].
  rewrite <- in_rev. intros Hin.
  assert (existsb (fun k => pyval_eqb k t) (map fst d) = true); [|congruence].
  apply existsb_exists. exists t. split; [assumption|apply pyval_eqb_refl].
Qed.
Lemma dget_notin d t : ~ In t (map fst d) -> dget d t = None.
Proof.
  induction d as [|[k w] d IH]; cbn; [reflexivity|]. intros H.
  destruct (pyval_eqb k t) eqn:E; [apply pyval_eqb_eq in E; tauto|]. apply IH. tauto.
Qed.
Lemma dget_in d t v : dget d t = Some v -> In (t, v) d.
Proof.
  induction d as [|[k w] d IH]; cbn; [discriminate|].
  destruct (pyval_eqb k t) eqn:E; [apply pyval_eqb_eq in E as ->; intros [= ->]; auto|auto].
Qed.
Lemma in_dget d t v : NoDup (map fst d) -> In (t, v) d -> dget d t = Some v.
Proof.
  induction d as [|[k w] d IH]; cbn; [intros _ []|]. intros H [E|Hin]; inversion H; subst.
  - injection E as -> ->. rewrite pyval_eqb_refl. reflexivity.
  - destruct (pyval_eqb k t) eqn:E; [|auto]. apply pyval_eqb_eq in E as ->.
    exfalso. apply H2. apply in_map_iff. exists (t, v). auto.
Qed.
Lemma ddel_keys_incl d t : incl (map fst (ddel d t)) (map fst d).
Proof.
  induction d as [|[k w] d IH]; cbn; [apply incl_refl|].
  destruct (pyval_eqb k t); [apply incl_tl, incl_refl|]. cbn.
  intros y [->|H]; [left; reflexivity|right; auto].
Qed.
Lemma ddel_NoDup d t : NoDup (map fst d) -> NoDup (map fst (ddel d t)).
Proof.
  induction d as [|[k w] d IH]; cbn; [auto|]. intros H; inversion H; subst.
  destruct (pyval_eqb k t); [assumption|]. cbn. constructor; [|auto].
  intros Hin. apply H2. eapply ddel_keys_incl; eauto.
Qed.
Lemma dget_ddel d t u : NoDup (map fst d) ->
  dget (ddel d t) u = if pyval_eqb t u then None else dget d u.
Proof.
  induction d as [|[k w] d IH]; cbn; intros H; [destruct (pyval_eqb t u); reflexivity|].
  inversion H; subst. destruct (pyval_eqb k t) eqn:E; cbn.
  - apply pyval_eqb_eq in E as ->. destruct (pyval_eqb t u) eqn:E2; [|reflexivity].
    apply pyval_eqb_eq in E2 as ->. apply dget_notin. assumption.
  - rewrite IH by assumption. destruct (pyval_eqb k u) eqn:E2; [|reflexivity].
    apply pyval_eqb_eq in E2 as ->. rewrite pyval_eqb_sym, E. reflexivity.
Qed.
Lemma dget_map d (f : list loc -> list loc) t :
  dget (map (fun kv => (fst kv, f (snd kv))) d) t = option_map f (dget d t).
Proof.
  induction d as [|[k w] d IH]; cbn; [reflexivity|]. destruct (pyval_eqb k t); auto.
Qed.

(** * families of a child list *)
Definition byt (tg : loc -> pyval) (t : pyval) (l : list loc) : list loc :=
  filter (fun x => pyval_eqb (tg x) t) l.

Lemma nonempty_Some {A} (l f : list A) : nonempty l = Some f -> l = f /\ f <> [].
Proof. destruct l; cbn; [discriminate|]. intros [= <-]. split; congruence. Qed.
Lemma nonempty_None {A} (l : list A) : nonempty l = None -> l = [].
Proof. destruct l; cbn; congruence. Qed.
Lemma nonempty_ne {A} (l : list A) : l <> [] -> nonempty l = Some l.
Proof. destruct l; intros H; [elim H|]; reflexivity. Qed.

Lemma fam_ok_get tg d l t : fam_ok tg d l -> dget d t = nonempty (byt tg t l).
Proof. intros [_ H]. apply H. Qed.
Lemma fam_ok_nil tg d : fam_ok tg d [] -> d = [].
Proof.
  intros [H1 H2]. destruct d as [|[k w] d]; [reflexivity|]. specialize (H2 k). cbn in H2.
  rewrite pyval_eqb_refl in H2. discriminate.
Qed.
Lemma fam_ok_ext tg tg' d l : (forall x, In x l -> tg x = tg' x) -> fam_ok tg d l -> fam_ok tg' d l.
Proof.
  intros E [H1 H2]. split; [assumption|]. intros t. rewrite H2. f_equal.
  apply filter_ext_in. intros x Hx. rewrite E by assumption. reflexivity.
Qed.
Lemma fam_ok_put tg d l l' t f :
  fam_ok tg d l -> f <> [] -> byt tg t l' = f ->
  (forall u, u <> t -> byt tg u l' = byt tg u l) -> fam_ok tg (dset d t f) l'.
Proof.
  intros [H1 H2] Hf Ht Ho. split; [apply dset_NoDup; assumption|]. intros u.
  rewrite dget_dset. destruct (pyval_eqb t u) eqn:E.
  - apply pyval_eqb_eq in E as <-. unfold byt in Ht. rewrite Ht. rewrite nonempty_ne by assumption. reflexivity.
  - rewrite H2. f_equal. symmetry. apply Ho. intros ->. rewrite pyval_eqb_refl in E. discriminate.
Qed.
Lemma fam_ok_del tg d l l' t :
  fam_ok tg d l -> byt tg t l' = [] ->
  (forall u, u <> t -> byt tg u l' = byt tg u l) -> fam_ok tg (ddel d t) l'.
Proof.
  intros [H1 H2] Ht Ho. split; [apply ddel_NoDup; assumption|]. intros u.
  rewrite dget_ddel by assumption. destruct (pyval_eqb t u) eqn:E.
  - apply pyval_eqb_eq in E as <-. unfold byt in Ht. rewrite Ht. reflexivity.
  - rewrite H2. f_equal. symmetry. apply Ho. intros ->. rewrite pyval_eqb_refl in E. discriminate.
Qed.
Lemma fam_ok_rev tg d l : fam_ok tg d l ->
  fam_ok tg (map (fun kv => (fst kv, rev (snd kv))) d) (rev l).
Proof.
  intros [H1 H2]. split.
  - rewrite map_map. cbn. assumption.
  - intros t. rewrite (dget_map d (@rev loc) t), H2, filter_rev.
    destruct (filter _ l) as [|a r]; [reflexivity|]. cbn [nonempty option_map].
    symmetry. apply nonempty_ne. intros E. apply (f_equal (@length _)) in E.
    rewrite rev_length in E. discriminate.
Qed.

Lemma byt_insert tg t k x l :
  byt tg t (insert_at k x l) =
  if pyval_eqb (tg x) t then insert_at (length (byt tg t (firstn k l))) x (byt tg t l)
  else byt tg t l.
Proof. apply (filter_insert_at (fun y => pyval_eqb (tg y) t)). Qed.

Lemma byt_app tg t l m : byt tg t (l ++ m) = byt tg t l ++ byt tg t m.
Proof. apply filter_app. Qed.

Lemma byt_cons tg t x l : byt tg t (x :: l) = if pyval_eqb (tg x) t then x :: byt tg t l else byt tg t l.
Proof. reflexivity. Qed.

Lemma byt_remove tg t k x l : nth_error l k = Some x ->
  byt tg t (remove_at k l) =
  if pyval_eqb (tg x) t then remove_at (length (byt tg t (firstn k l))) (byt tg t l)
  else byt tg t l.
Proof.
  intros H. apply nth_error_split' in H as (l1 & l2 & -> & <-).
  rewrite remove_at_split, firstn_app, Nat.sub_diag, firstn_all, app_nil_r.
  rewrite !byt_app, byt_cons.
  destruct (pyval_eqb (tg x) t); [|reflexivity]. rewrite remove_at_split. reflexivity.
Qed.

(** position of the k-th element in its family *)
Lemma byt_nth tg k x l : nth_error l k = Some x ->
  nth_error (byt tg (tg x) l) (length (byt tg (tg x) (firstn k l))) = Some x.
Proof.
  intros H. apply nth_error_split' in H as (l1 & l2 & -> & <-).
  rewrite firstn_app, Nat.sub_diag, firstn_all, app_nil_r, byt_app.
  rewrite byt_cons, pyval_eqb_refl. apply nth_error_mid.
Qed.

(** * equality of heaps on every node (no functional extensionality) *)
Definition heq (h h' : heap) : Prop := hnext h = hnext h' /\ forall y, hnode h y = hnode h' y.
Lemma heq_ceq h h' : heq h h' -> ceq h h'.
Proof.
  intros [A B]. split; [assumption|]. split; [intros y; rewrite B; reflexivity|].
  intros C x pl. rewrite <- B. apply C.
Qed.
Lemma heq_refl h : heq h h. Proof. split; auto. Qed.
Lemma heq_trans a b c : heq a b -> heq b c -> heq a c.
Proof. intros [A B] [C D]. split; [congruence|]. intros y. rewrite B. apply D. Qed.

Lemma ceq_view_same h h' : ceq h h' -> same (view h') (view h).
Proof. intros E y. apply ceq_view. assumption. Qed.
Lemma same_trans a b c : same a b -> same b c -> same a c.
Proof. intros A B y. rewrite A. apply B. Qed.
Lemma same_sym a b : same a b -> same b a.
Proof. intros A y. symmetry. apply A. Qed.
Lemma same_refl a : same a a. Proof. intros y. reflexivity. Qed.
Lemma attach_same s s' p x k : same s s' -> same (attach s p x k) (attach s' p x k).
Proof. intros E y. unfold attach. rewrite (E p), (E x), (E y). reflexivity. Qed.
Lemma detach_same s s' p x k : same s s' -> same (detach s p x k) (detach s' p x k).
Proof. intros E y. unfold detach. rewrite (E p), (E x), (E y). reflexivity. Qed.
Lemma reorder_same s s' p l : same s s' -> same (reorder s p l) (reorder s' p l).
Proof. intros E y. unfold reorder. rewrite (E p), (E y). reflexivity. Qed.

(** * mk_attach *)
Definition base_fams (n : node) : fdict :=
  match nitems n with [] => [] | _ => match nfams n with Some d => d | None => [] end end.
Definition fam_list (d : fdict) (t : pyval) : list loc :=
  match dget d t with Some f => f | None => [] end.

Definition att_dict (h : heap) (p x : loc) (k : nat) : fdict :=
  let t := ntag (hnode h x) in
  let d := base_fams (hnode h p) in
  dset d t (insert_at (length (byt (fun y => ntag (hnode h y)) t (firstn k (nitems (hnode h p)))))
                      x (fam_list d t)).
Definition mk_attach (h : heap) (p x : loc) (k : nat) : heap :=
  hmod (hmod h p (fun n => set_items (insert_at k x (nitems n))
                             (set_fams (Some (att_dict h p x k)) Current n)))
       x (set_prt (Some (PL p 0 0 false))).

Lemma WF_base_fam h p : WF h ->
  fam_ok (fun x => ntag (hnode h x)) (base_fams (hnode h p)) (nitems (hnode h p)).
Proof.
  intros W. unfold base_fams. destruct (nitems (hnode h p)) as [|a l] eqn:E.
  - split; [constructor|]. intros t. reflexivity.
  - rewrite <- E. destruct (WF_fam h p PNone W) as (d & -> & _ & H & _); [congruence|assumption].
Qed.

Lemma fam_list_ok tg d l t : fam_ok tg d l -> fam_list d t = byt tg t l.
Proof.
  intros H. unfold fam_list. rewrite (fam_ok_get _ _ _ _ H).
  destruct (byt tg t l); reflexivity.
Qed.

Lemma mk_attach_view h p x k : x <> p -> same (view (mk_attach h p x k)) (attach (view h) p x k).
Proof.
  intros Hne y. unfold mk_attach, attach, view.
  destruct (Nat.eqb_spec y p) as [->|Hp].
  - rewrite hmod_other by congruence. rewrite hmod_same. reflexivity.
  - destruct (Nat.eqb_spec y x) as [->|Hx].
    + rewrite hmod_same, hmod_other by congruence. reflexivity.
    + rewrite !hmod_other by congruence. reflexivity.
Qed.

Lemma mk_attach_tag h p x k y : ntag (hnode (mk_attach h p x k) y) = ntag (hnode h y).
Proof.
  unfold mk_attach. destruct (Nat.eq_dec y x) as [->|Hx]; [rewrite hmod_same|rewrite hmod_other by assumption];
  (destruct (Nat.eq_dec y p) as [->|Hp] || destruct (Nat.eq_dec x p) as [->|Hp]);
  rewrite ?hmod_same, ?hmod_other by congruence; reflexivity.
Qed.

Definition attachable (h : heap) (p x : loc) : Prop :=
  nprt (hnode h x) = None /\ x < hnext h /\ p < hnext h /\ ~ Anc (view h) x p.

Lemma attachable_ne h p x : attachable h p x -> x <> p.
Proof. intros (_ & _ & _ & H) ->. apply H. constructor. Qed.

Lemma mk_attach_WF h p x k : WF h -> attachable h p x -> WF (mk_attach h p x k).
Proof.
  intros W A. pose proof (attachable_ne _ _ _ A) as Hne. destruct A as (A1 & A2 & A3 & A4).
  split.
  - apply (Forest_ext _ (attach (view h) p x k)).
    + intros y. rewrite (mk_attach_view h p x k Hne y). auto.
    + apply attach_Forest; auto. apply (wf_forest _ W). cbn. rewrite A1. reflexivity.
  - intros y pl. unfold mk_attach. destruct (Nat.eq_dec y x) as [->|Hx].
    + rewrite hmod_same. cbn. intros [= <-]. cbn. lia.
    + rewrite hmod_other by assumption. destruct (Nat.eq_dec y p) as [->|Hp].
      * rewrite hmod_same. cbn. apply (wf_caches _ W).
      * rewrite hmod_other by assumption. apply (wf_caches _ W).
  - intros q. pose proof (wf_fams _ W q) as G. unfold node_fam_ok in *.
    destruct (Nat.eq_dec q p) as [->|Hq].
    + assert (E : hnode (mk_attach h p x k) p = set_items (insert_at k x (nitems (hnode h p)))
                             (set_fams (Some (att_dict h p x k)) Current (hnode h p))).
      { unfold mk_attach. rewrite hmod_other by congruence. apply hmod_same. }
      rewrite E. cbn. eexists; split; [reflexivity|].
      eapply fam_ok_ext; [intros y _; symmetry; apply mk_attach_tag|].
      pose proof (WF_base_fam h p W) as Hb. unfold att_dict.
      set (tg := fun y => ntag (hnode h y)) in *. fold (tg x).
      rewrite (fam_list_ok tg _ _ _ Hb).
      eapply fam_ok_put; [exact Hb| | |].
      * intros E1. apply (f_equal (@length _)) in E1. rewrite insert_at_length in E1. discriminate.
      * rewrite byt_insert, pyval_eqb_refl. reflexivity.
      * intros u Hu. rewrite byt_insert. destruct (pyval_eqb (tg x) u) eqn:Eu; [|reflexivity].
        apply pyval_eqb_eq in Eu. congruence.
    + assert (E : nbound (hnode (mk_attach h p x k) q) = nbound (hnode h q) /\
                  nfams (hnode (mk_attach h p x k) q) = nfams (hnode h q) /\
                  nitems (hnode (mk_attach h p x k) q) = nitems (hnode h q)).
      { unfold mk_attach. destruct (Nat.eq_dec q x) as [->|Hx].
        - rewrite hmod_same, hmod_other by congruence. auto.
        - rewrite !hmod_other by assumption. auto. }
      destruct E as (-> & -> & ->). destruct (nbound (hnode h q)); auto.
      destruct G as (d & Ed & Hd). exists d. split; [assumption|].
      eapply fam_ok_ext; [intros y _; symmetry; apply mk_attach_tag|]. assumption.
  - intros y lk. intros E. apply (wf_cover _ W y). rewrite <- E.
    unfold mk_attach. destruct (Nat.eq_dec y x) as [->|Hx].
    + rewrite hmod_same, hmod_other by congruence. reflexivity.
    + rewrite hmod_other by assumption. destruct (Nat.eq_dec y p) as [->|Hp].
      * rewrite hmod_same. reflexivity.
      * rewrite hmod_other by assumption. reflexivity.
Qed.

(** * mk_detach *)
Definition det_dict (h : heap) (p x : loc) (k : nat) : fdict :=
  let t := ntag (hnode h x) in
  let d := base_fams (hnode h p) in
  let f := fam_list d t in
  if Nat.eqb (length f) 1 then ddel d t
  else dset d t (remove_at (length (byt (fun y => ntag (hnode h y)) t
                                        (firstn k (nitems (hnode h p))))) f).
Definition mk_detach (h : heap) (p x : loc) (k : nat) : heap :=
  hmod (hmod h p (fun n => set_items (remove_at k (nitems n))
                             (set_fams (Some (det_dict h p x k)) Current n)))
       x (set_prt None).

Lemma mk_detach_view h p x k : x <> p -> same (view (mk_detach h p x k)) (detach (view h) p x k).
Proof.
  intros Hne y. unfold mk_detach, detach, view.
  destruct (Nat.eqb_spec y p) as [->|Hp].
  - rewrite hmod_other by congruence. rewrite hmod_same. reflexivity.
  - destruct (Nat.eqb_spec y x) as [->|Hx].
    + rewrite hmod_same, hmod_other by congruence. reflexivity.
    + rewrite !hmod_other by congruence. reflexivity.
Qed.
Lemma mk_detach_tag h p x k y : ntag (hnode (mk_detach h p x k) y) = ntag (hnode h y).
Proof.
  unfold mk_detach. destruct (Nat.eq_dec y x) as [->|Hx]; [rewrite hmod_same|rewrite hmod_other by assumption];
  (destruct (Nat.eq_dec y p) as [->|Hp] || destruct (Nat.eq_dec x p) as [->|Hp]);
  rewrite ?hmod_same, ?hmod_other by congruence; reflexivity.
Qed.

Lemma WF_child_ne h p x k : WF h -> nth_error (nitems (hnode h p)) k = Some x -> x <> p.
Proof.
  intros W H. eapply Forest_child_ne; [apply (wf_forest _ W)|]. cbn. eapply nth_error_In; eauto.
Qed.
Lemma WF_child_lt h p x k : WF h -> nth_error (nitems (hnode h p)) k = Some x ->
  p < hnext h /\ x < hnext h.
Proof.
  intros W H. eapply Forest_child_lt; [apply (wf_forest _ W)|]. cbn. eapply nth_error_In; eauto.
Qed.

Lemma mk_detach_WF h p x k : WF h -> nth_error (nitems (hnode h p)) k = Some x ->
  WF (mk_detach h p x k).
Proof.
  intros W Hk. pose proof (WF_child_ne _ _ _ _ W Hk) as Hne. split.
  - apply (Forest_ext _ (detach (view h) p x k)).
    + intros y. rewrite (mk_detach_view h p x k Hne y). auto.
    + apply detach_Forest; auto. apply (wf_forest _ W).
  - intros y pl. unfold mk_detach. destruct (Nat.eq_dec y x) as [->|Hx].
    + rewrite hmod_same. cbn. discriminate.
    + rewrite hmod_other by assumption. destruct (Nat.eq_dec y p) as [->|Hp].
      * rewrite hmod_same. cbn. apply (wf_caches _ W).
      * rewrite hmod_other by assumption. apply (wf_caches _ W).
  - intros q. pose proof (wf_fams _ W q) as G. unfold node_fam_ok in *.
    destruct (Nat.eq_dec q p) as [->|Hq].
    + assert (E : hnode (mk_detach h p x k) p = set_items (remove_at k (nitems (hnode h p)))
                             (set_fams (Some (det_dict h p x k)) Current (hnode h p))).
      { unfold mk_detach. rewrite hmod_other by congruence. apply hmod_same. }
      rewrite E. cbn. eexists; split; [reflexivity|].
      eapply fam_ok_ext; [intros y _; symmetry; apply mk_detach_tag|].
      pose proof (WF_base_fam h p W) as Hb. unfold det_dict.
      set (tg := fun y => ntag (hnode h y)) in *. fold (tg x).
      rewrite (fam_list_ok tg _ _ _ Hb).
      assert (Ho : forall u, u <> tg x ->
                byt tg u (remove_at k (nitems (hnode h p))) = byt tg u (nitems (hnode h p))).
      { intros u Hu. rewrite (byt_remove _ _ _ _ _ Hk).
        destruct (pyval_eqb (tg x) u) eqn:Eu; [|reflexivity]. apply pyval_eqb_eq in Eu. congruence. }
      assert (Ht : byt tg (tg x) (remove_at k (nitems (hnode h p))) =
                   remove_at (length (byt tg (tg x) (firstn k (nitems (hnode h p)))))
                             (byt tg (tg x) (nitems (hnode h p)))).
      { rewrite (byt_remove _ _ _ _ _ Hk), pyval_eqb_refl. reflexivity. }
      pose proof (byt_nth tg k x _ Hk) as Hn.
      apply nth_error_split' in Hn as (f1 & f2 & Ef & El).
      rewrite Ef in *. rewrite <- El in *. rewrite remove_at_split in *.
      destruct (Nat.eqb_spec (length (f1 ++ x :: f2)) 1) as [E1|E1].
      * eapply fam_ok_del; [exact Hb| |exact Ho]. rewrite Ht.
        rewrite app_length in E1. cbn in E1. destruct f1, f2; cbn in E1; try lia. reflexivity.
      * eapply fam_ok_put; [exact Hb| |exact Ht|exact Ho].
        intros E2. apply E1. rewrite app_length. apply (f_equal (@length _)) in E2.
        rewrite app_length in E2. cbn in *. lia.
    + assert (E : nbound (hnode (mk_detach h p x k) q) = nbound (hnode h q) /\
                  nfams (hnode (mk_detach h p x k) q) = nfams (hnode h q) /\
                  nitems (hnode (mk_detach h p x k) q) = nitems (hnode h q)).
      { unfold mk_detach. destruct (Nat.eq_dec q x) as [->|Hx].
        - rewrite hmod_same, hmod_other by congruence. auto.
        - rewrite !hmod_other by assumption. auto. }
      destruct E as (-> & -> & ->). destruct (nbound (hnode h q)); auto.
      destruct G as (d & Ed & Hd). exists d. split; [assumption|].
      eapply fam_ok_ext; [intros y _; symmetry; apply mk_detach_tag|]. assumption.
  - intros y lk. intros E. apply (wf_cover _ W y). rewrite <- E.
    unfold mk_detach. destruct (Nat.eq_dec y x) as [->|Hx].
    + rewrite hmod_same, hmod_other by congruence. reflexivity.
    + rewrite hmod_other by assumption. destruct (Nat.eq_dec y p) as [->|Hp].
      * rewrite hmod_same. reflexivity.
      * rewrite hmod_other by assumption. reflexivity.
Qed.
