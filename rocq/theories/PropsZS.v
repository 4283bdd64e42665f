(** C106: is_link_cover. *)
From Verif Require Import Base Heap HeapSpec ListLemmas ForestLemmas HeapInv HeapAttach HeapOps HeapOps2 HeapOps3 HeapHoare HeapHash Tree HeapTree HeapCopy HeapMut History Runs HeapRead HeapRead2 HeapHist HeapFlags PropsA PropsC PropsF
  PropsG SerModel PropsM LinkModel LinkFacts2 LinkWF LinkDel LinkSpec PropsN LinkCover.
Import ListNotations.
Open Scope string_scope.
Open Scope list_scope.

(** ** Facts *)
(** nothing from [lo] on covers anything *)
Definition bare (lo : nat) (h : heap) : Prop := forall z k, lo <= z -> nlink (hnode h z) = Some k -> lk_cover k = None.
Definition bsp {A} (m : M A) : Prop := forall lo h, bare lo h -> bare lo (fst (m h)).
Lemma bsp_bind {A B} (m : M A) (k : A -> M B) : bsp m -> (forall a, bsp (k a)) -> bsp (bind m k).
Proof. intros Hm Hk lo h H. unfold bind. specialize (Hm lo h H). destruct (m h) as [h' [a|e]]; cbn in *; [apply Hk|]; assumption. Qed.
Lemma bsp_ret {A} (a : A) : bsp (ret a). Proof. intros lo h H. exact H. Qed.
Lemma bsp_throw {A} e : bsp (@throw A e). Proof. intros lo h H. exact H. Qed.
Lemma bsp_gets {A} (f : heap -> A) : bsp (gets f). Proof. intros lo h H. exact H. Qed.
Lemma bare_hmod lo h x f : (forall n, nlink (f n) = nlink n) -> bare lo h -> bare lo (hmod h x f).
Proof. intros Hf H y k Hy. cbn. destruct (Nat.eqb y x); [rewrite Hf|]; apply H; exact Hy. Qed.
Lemma bsp_upd x f : (forall n, nlink (f n) = nlink n) -> bsp (upd x f).
Proof. intros Hf lo h H. apply bare_hmod; assumption. Qed.
Lemma bsp_mapM_ {A} (f : A -> M unit) l : (forall a, bsp (f a)) -> bsp (mapM_ f l).
Proof. intros H. induction l; cbn; [apply bsp_ret|]. apply bsp_bind; auto. Qed.
Lemma bsp_get_fam p t : bsp (get_fam p t).
Proof. intros lo h H. unfold get_fam. destruct (nbound _); exact H. Qed.
Lemma bsp_put_fam p t l : bsp (put_fam p t l).
Proof. intros lo h H. unfold put_fam. destruct (nbound _); [exact H| |]; [destruct (nfams _); [|exact H]|]; apply bare_hmod; auto. Qed.
Lemma bsp_copy_node x : bsp (copy_node x).
Proof.
  intros lo h H. unfold copy_node. rewrite bind_gets. cbn.
  destruct (_ && _); [exact H|]. intros y k Hy. cbn. destruct (Nat.eqb _ _); [|apply H; exact Hy]. cbn.
  destruct (has _ _); [|discriminate]. destruct (nlink _); cbn; [|discriminate]. intros E. injection E as <-. reflexivity.
Qed.
Ltac bs := repeat first
  [ assumption
  | match goal with |- bsp (bind _ _) => apply bsp_bind; [|intro] end
  | apply bsp_ret | apply bsp_throw | apply bsp_gets
  | apply bsp_get_fam | apply bsp_put_fam | apply bsp_copy_node
  | apply bsp_upd; intros; reflexivity
  | apply bsp_mapM_; intro
  | progress cbv zeta
  | match goal with |- bsp (match ?x with _ => _ end) => destruct x end ].
Lemma bsp_append_core p x : bsp (append_core p x). Proof. unfold append_core. bs. Qed.
Lemma bsp_copy_children fuel : forall s d, bsp (copy_children fuel s d).
Proof. induction fuel; intros; cbn [copy_children]; bs; [apply bsp_append_core|apply IHfuel]. Qed.
Lemma bsp_copy_item x : bsp (copy_item x). Proof. unfold copy_item. bs. apply bsp_copy_children. Qed.
Lemma cover_view h x : is_link_cover h x = match a_link (view h x) with Some k => match lk_cover k with Some _ => true | None => false end | None => false end.
Proof. reflexivity. Qed.
Lemma cover_true h x : is_link_cover h x = true <-> exists y, covers h x y.
Proof.
  unfold is_link_cover, covers. destruct (nlink (hnode h x)) as [k|]; [|split; [discriminate|intros (y & lk & E & _); discriminate]].
  destruct (lk_cover k) as [y|] eqn:E; split; try discriminate; try (intros _; exists y, k; auto); auto. intros (y & lk & E1 & E2). injection E1 as <-. congruence.
Qed.
(** the state without covers *)
Definition unlink (n : node) : node :=
  ND (ntag n) (nval n) (nflags n) (nprt n) (nitems n) (nfams n) (nbound n) (option_map (fun k => LK (lk_src k) (lk_loaded k) (lk_tags k) None) (nlink n)) (ncoupled n).
Definition unlinked (h : heap) : heap := HP (hnext h) (fun z => unlink (hnode h z)).
Lemma Rooted_unlinked h x : Rooted (view h) x -> Rooted (view (unlinked h)) x.
Proof. induction 1 as [x E|x p E _ IH]; [apply Rooted_root; exact E|eapply Rooted_step; [exact E|exact IH]]. Qed.
Lemma unlinked_WF h : LWF h -> WF (unlinked h).
Proof.
  intros [F C N]. apply uncovered_WF.
  - constructor.
    + destruct F. constructor; auto. intros x. apply Rooted_unlinked. auto.
    + exact C.
    + exact N.
  - intros y k _ E. cbn in E. destruct (nlink (hnode h y)); [|discriminate]. injection E as <-. reflexivity.
  - intros y k _ E. cbn in E. destruct (nlink (hnode h y)); [|discriminate]. injection E as <-. reflexivity.
Qed.
Lemma getitem_val_child h p v o : LWF h -> nitems (hnode h p) <> [] -> getitem_val h p v = Ok (GItem o) -> In o (nitems (hnode h p)).
Proof.
  intros W N E. destruct v as [| | | | |bb|zz|ff|ss|sb|tl|l|dl|sl|d1|d2|n];
    try (match type of E with getitem_val _ _ ?v = _ => apply (getitem_val_incl (unlinked h) (unlinked_WF h W) p N v (GItem o) E) end; left; reflexivity).
  exfalso. cbn [getitem_val] in E. destruct (nitems (hnode h p)) as [|i0 ir]; [congruence|].
  assert (G : forall l acc,
    (fix go (l : list pyval) (acc : list loc) : res gres :=
       match l with
       | [] => match acc with [] => Err KeyError | _ => Ok (GList acc) end
       | t :: r => match getitem_val h p t with Ok (GItem x) => go r (acc ++ [x]) | Ok (GList xs) => go r (acc ++ xs) | Err e => Err e end
       end) l acc <> Ok (GItem o)); [|exact (G l [] E)].
  clear. induction l as [|t r IH]; intros acc; [destruct acc; discriminate|]. destruct (getitem_val h p t) as [[x|xs]|e]; [apply IH|apply IH|discriminate].
Qed.
Lemma key_inj h x y z : LReach h -> In y (children h x) -> In z (children h x) -> key h x y = key h x z -> y = z.
Proof.
  intros R Hy Hz K. apply zkey_key in K. pose proof (zkey_NoDup (tags h) (children h x) (fo_nodup _ _ (lw_forest _ (proj1 (lreach_ok h R))) x)) as ND.
  revert K Hy Hz ND. generalize (zkey (tags h) (children h x)) as f. generalize (children h x) as l. clear. intros l f K Hy Hz ND.
  induction l as [|a l IH]; [destruct Hy|]. cbn [map] in ND. inversion ND as [|? ? N1 N2]; subst. destruct Hy as [->|Hy], Hz as [->|Hz]; auto.
  - exfalso. apply N1. rewrite K. apply in_map. exact Hz.
  - exfalso. apply N1. rewrite <- K. apply in_map. exact Hy.
Qed.

(** ** C106 *)
(** The local item made by make_local covers the linked item; nothing changes for the other items. *)
Theorem C106_made_local : forall h p x copy_subtree, LReach h -> local_case h p x ->
  exists h' new, make_local x copy_subtree h = (h', Ok new) /\ is_link_cover h' new = true /\ flag h' new 3 = false /\
    (forall y, y < hnext h -> is_link_cover h' y = is_link_cover h y) /\ is_link_cover h' (hnext h') = false.
Proof.
  intros h p x b R L. destruct (C45_make_local_partial h p x b R L) as (h' & new & l1 & l2 & T & T' & E & R' & _ & _ & _ & _ & _ & F3 & _ & _ & _ & _ & _ & _ & O & P & C).
  exists h', new. split; [exact E|]. split. { rewrite cover_view. destruct (a_link (view h' new)) as [k|]; [|discriminate]. injection C as ->. reflexivity. }
  split; [exact F3|]. split.
  { intros y Hy. rewrite !cover_view. destruct (Nat.eq_dec y p) as [->|N]; [rewrite P; destruct (view h p); reflexivity|rewrite O by assumption; reflexivity]. }
  pose proof (proj1 (proj2 (proj2 (lreach_inv h' R')))) as J. unfold is_link_cover. destruct (nlink (hnode h' (hnext h'))) as [k|] eqn:Ek; [|reflexivity]. rewrite (J _ k (Nat.le_refl _) Ek). reflexivity.
Qed.
(** After load_links a local child covers a linked item if the target has a child with its key; otherwise
    it covers what it covered before. *)
Theorem C106_loaded : forall target_of changed force n h x t y, LReach h -> load_case target_of changed force h x t ->
  In y (children h x) -> flag h y 3 = false -> flag h y 4 = false ->
  exists h', load_links target_of changed force (S n) x h = (h', Ok true) /\ In y (children h' x) /\
    ((exists c, In c (children h t) /\ key h x y = key h t c) -> is_link_cover h' y = true) /\
    ((forall c, In c (children h t) -> key h x y <> key h t c) -> is_link_cover h' y = is_link_cover h y).
Proof.
  intros to ch fo n h x t y R L Hy F3 F4.
  destruct (C46_merge_partial to ch fo n h x t R L) as (h' & copy & rep & E & R' & Cp & Rp & _ & _ & _ & St & _ & _ & Ol & _).
  exists h'. split; [exact E|]. destruct (St y Hy F3 F4) as (S1 & S2). split; [exact S2|]. split.
  - intros (c & Hc & K). destruct (Rp c Hc) as [(y' & Hy' & K' & _ & _ & lk & E1 & E2)|(N & _)]; [|exfalso; exact (N y S1 K)].
    assert (y' = y) as ->. { apply (key_inj h x); [exact R| | |congruence]; [eapply staying_in; exact Hy'|exact Hy]. }
    rewrite cover_view, E1, E2. reflexivity.
  - intros N. assert (K : forall c, In c (children h t) -> rep c <> y).
    { intros c Hc Q. destruct (Rp c Hc) as [(y' & _ & K' & Ry & _)|(_ & Rc)]; [apply (N c Hc); congruence|].
      destruct (Cp c Hc) as (B & _). destruct (LWF_child_lt h x y (proj1 (lreach_ok h R)) Hy). lia. }
    destruct (Ol y Hy) as (_ & _ & _ & _ & _ & Lk). specialize (Lk K). rewrite !cover_view, Lk. reflexivity.
Qed.
(** Without link calls no item is a cover. *)
Theorem C106_no_link_calls : forall h x, Reach h -> is_link_cover h x = false.
Proof. intros h x R. unfold is_link_cover. destruct (nlink (hnode h x)) as [k|] eqn:E; [|reflexivity]. rewrite (wf_cover _ (reach_WF h R) x k E). reflexivity. Qed.
(** A cover in a tree stands for exactly one item, which has the same tag and is in no tree; no other
    cover in a tree stands for it. *)
Theorem C106_in_tree_partial : forall h p x, LReach h -> In x (children h p) -> is_link_cover h x = true ->
  exists y k, a_link (view h x) = Some k /\ lk_cover k = Some y /\ y < hnext h /\ tag_of h y = tag_of h x /\ (forall q, ~ In y (children h q)) /\
    forall q x' k', In x' (children h q) -> a_link (view h x') = Some k' -> lk_cover k' = Some y -> x' = x.
Proof.
  intros h p x R Hx Hc. apply cover_true in Hc as (y & Cv). pose proof Cv as (k & Ek & Ec). pose proof (lreach_covers h R) as C.
  destruct (cv_one h C p x y (Live_child _ _ _ Hx) Cv) as (Y & N & T & _).
  exists y, k. split; [exact Ek|]. split; [exact Ec|]. split; [exact Y|]. split; [exact T|]. split; [exact N|].
  intros q x' k' Hx' E1 E2. eapply (cv_inj h C); [apply Live_child; exact Hx'|apply Live_child; exact Hx| |exact Cv]. exists k'. auto.
Qed.
(** copies are never covers, whatever is copied *)
Theorem C106_copies : forall h x h' r, LReach h -> copy_item x h = (h', r) -> forall z, hnext h <= z -> is_link_cover h' z = false.
Proof.
  intros h x h' r R E z Hz. pose proof (proj1 (proj2 (proj2 (lreach_inv h R)))) as J.
  pose proof (bsp_copy_item x (hnext h) h (fun z k Hz Ek => J z k Hz Ek)) as B. rewrite E in B. cbn [fst] in B.
  unfold is_link_cover. destruct (nlink (hnode h' z)) as [k|] eqn:Ek; [|reflexivity]. rewrite (B z k Hz Ek). reflexivity.
Qed.
(** p[tag] = x is refused, with no effect, when the family has a cover *)
Theorem C106_replace_refused : forall h p y x, LReach h -> In y (children h p) -> is_link_cover h y = true ->
  tag_of h x = tag_of h y -> parent_of h x = None ->
  exists e, setitem p (TgVal (tag_of h x)) (IItem x) h = (h, Err e).
Proof.
  intros h p y x R Hy Hc Ht Hx. destruct (lreach_ok h R) as (W & _). pose proof (lw_fams _ W p) as NF.
  assert (EF : exists f, get_fam p (tag_of h x) h = (h, Ok (Some f)) /\ In y f).
  { unfold node_fam_ok in NF. unfold get_fam. change (children h p) with (nitems (hnode h p)) in Hy. destruct (nbound (hnode h p)).
    - destruct NF as (_ & E). rewrite E in Hy. destruct Hy.
    - destruct NF as (d & Ed & (_ & G)). rewrite Ed, G.
      assert (I : In y (filter (fun x0 => pyval_eqb (ntag (hnode h x0)) (tag_of h x)) (nitems (hnode h p)))).
      { apply filter_In. split; [exact Hy|]. rewrite Ht. apply pyval_eqb_eq. reflexivity. }
      destruct (filter _ _) as [|a l] eqn:EF; [destruct I|]. exists (a :: l). split; [reflexivity|exact I].
    - destruct NF as (_ & E). rewrite E in Hy. destruct Hy. }
  destruct EF as (f & EF & If).
  assert (Px : nprt (hnode h x) = None). { unfold parent_of in Hx. cbn in Hx. destruct (nprt (hnode h x)); [discriminate|reflexivity]. }
  assert (Ck : exists r, check_insert p (IItem x) h = (h, r)).
  { unfold check_insert. rewrite bind_gets. destruct (tree_protected h p); [|eexists; reflexivity]. destruct (is_link_root h p); [|eexists; reflexivity].
    destruct (has _ _); [eexists; reflexivity|]. destruct (nlink _); [|eexists; reflexivity]. destruct (_ && _); eexists; reflexivity. }
  destruct Ck as (r & Ck). unfold setitem. unfold bind at 1. rewrite Ck. destruct r as [[]|e]; [|eauto]. rewrite bind_gets.
  destruct (getitem h p (TgVal (tag_of h x))) as [old|e] eqn:G; [|eexists; reflexivity].
  assert (NX : match old with GItem o => Nat.eqb o x | GList _ => false end = false).
  { destruct old as [o|]; [|reflexivity]. apply Nat.eqb_neq. intros ->.
    assert (I : In x (nitems (hnode h p))).
    { unfold getitem in G. destruct (nitems (hnode h p)) as [|a l] eqn:El; [discriminate|]. rewrite <- El.
      apply (getitem_val_child h p _ _ W ltac:(rewrite El; discriminate) G). }
    pose proof (fo_child _ _ (lw_forest _ W) p x I) as K. cbn in K. rewrite Px in K. discriminate. }
  rewrite NX. unfold bind at 1. rewrite Px. cbn [ret]. rewrite bind_gets. cbv zeta. change (ntag (hnode h x)) with (tag_of h x).
  rewrite (proj2 (pyval_eqb_eq _ _) eq_refl). unfold bind at 1. rewrite EF.
  replace (existsb _ f) with true; [eexists; reflexivity|]. symmetry. apply existsb_exists. exists y. split; [exact If|exact Hc].
Qed.
(** After the deletion of a cover the linked item is back in the tree, but the deleted item still counts
    as a cover of it. *)
Theorem C106_deleted_refuted : forall h p k x y, LReach h -> restore_case h p k x y ->
  exists h', del_int p (Z.of_nat k) h = (h', Ok x) /\ In y (children h' p) /\ parent_of h' x = None /\ is_link_cover h' x = true.
Proof.
  intros h p k x y R RC. destruct (C62_restore_partial h p k x y R RC) as (h' & l1 & l2 & E & _ & _ & _ & _ & Ch & _ & _ & _ & Vx & _).
  exists h'. split; [exact E|]. split; [rewrite Ch; apply in_elt|]. split; [unfold parent_of; rewrite Vx; destruct (view h x); reflexivity|].
  destruct (rc_cover _ _ _ _ _ RC) as (lk & E1 & E2). rewrite cover_view, Vx. destruct (view h x); cbn in *. rewrite E1, E2. reflexivity.
Qed.
(** cases *)
Example C106_case : LReach lkl_heap /\ In 12 (children lkl_heap 6) /\ is_link_cover lkl_heap 12 = true /\ is_link_cover lkl_heap 9 = false /\ tag_of lkl_heap 12 = PStr "a" /\
  let h := fst (new_item (PStr "a") (PInt 5) 0 None lkl_heap) in
  tag_of h 15 = PStr "a" /\ parent_of h 15 = None /\ snd (setitem 6 (TgVal (PStr "a")) (IItem 15) h) = Err PermissionError /\
  restore_case lkl_heap 6 2 12 9.
Proof.
  split; [exact lkl_reach|]. split; [vm_compute; auto|]. split; [vm_compute; reflexivity|]. split; [vm_compute; reflexivity|]. split; [vm_compute; reflexivity|].
  cbv zeta. split; [vm_compute; reflexivity|]. split; [vm_compute; reflexivity|]. split; [vm_compute; reflexivity|]. exact (proj1 (proj2 C62_case)).
Qed.
Example C106_copy_case : let r := copy_item 12 lkl_heap in snd r = Ok 15 /\ is_link_cover (fst r) 15 = false /\ is_link_cover (fst r) 12 = true.
Proof. vm_compute. auto. Qed.
(** the local child "b" (6) gets a linked counterpart, "z" (7) does not; a second target without
    children leaves 6 as it is *)
Example C106_loaded_case : load_case (lk_to 0) never false lk4_heap 5 0 /\ In 6 (children lk4_heap 5) /\ In 7 (children lk4_heap 5) /\
  let h := fst (load_links (lk_to 0) never false 201 5 lk4_heap) in
  is_link_cover lk4_heap 6 = false /\ is_link_cover h 6 = true /\ is_link_cover h 7 = false /\
  load_case (lk_to 1) never true h 5 1 /\ children h 1 = [] /\ is_link_cover (fst (load_links (lk_to 1) never true 201 5 h)) 6 = true.
Proof.
  split; [exact (proj1 (proj2 C46_case))|]. split; [vm_compute; auto|]. split; [vm_compute; auto|]. cbv zeta.
  split; [vm_compute; reflexivity|]. split; [vm_compute; reflexivity|]. split; [vm_compute; reflexivity|].
  split. { apply (load_b_ok never true _ 5 (Node 1 [])); [split; [reflexivity|vm_compute; auto]|vm_compute; reflexivity]. }
  split; vm_compute; reflexivity.
Qed.
(** a cover stays one when the link is loaded again and the target has no such child any more *)
Theorem C106_gone_refuted : exists h x t y, LReach h /\ load_case (lk_to t) never true h x t /\ In y (children h x) /\ flag h y 3 = false /\ flag h y 4 = false /\
  children h t = [] /\ let h' := fst (load_links (lk_to t) never true 201 x h) in In y (children h' x) /\ is_link_cover h' y = true.
Proof.
  pose proof C106_loaded_case as H. destruct H as (L & H). destruct H as (_ & H). destruct H as (_ & H). cbv zeta in H. destruct H as (_ & H). destruct H as (_ & H). destruct H as (_ & H). destruct H as (L2 & _).
  pose proof (LReach_load lk4_heap (lk_to 0) never false 200 5 0 (proj1 C46_case) L) as R.
  exists (fst (load_links (lk_to 0) never false 201 5 lk4_heap)), 5, 1, 6.
  split; [exact R|]. split; [exact L2|]. split; [vm_compute; auto|]. split; [vm_compute; reflexivity|]. split; [vm_compute; reflexivity|].
  split; [vm_compute; reflexivity|]. cbv zeta. split; [vm_compute; auto|vm_compute; reflexivity].
Qed.
