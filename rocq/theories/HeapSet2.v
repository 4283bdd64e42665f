(** item assignment, continued: the whole operation. *)
From Verif Require Import Base Heap HeapSpec ListLemmas ForestLemmas HeapInv HeapAttach
  HeapOps HeapOps2 HeapOps3 HeapHoare Tree HeapTree HeapCopy HeapMut HeapExt HeapExt2 HeapOrd HeapOrd2 HeapRen HeapMove HeapSet.

(** * programs that change only items allocated at or after N *)
Definition above {A} (N : nat) (m : M A) : Prop := forall h, N <= hnext h ->
  N <= hnext (fst (m h)) /\ forall y, y < N -> hnode (fst (m h)) y = hnode h y.
Lemma above_bind {A B} N (m : M A) (k : A -> M B) : above N m -> (forall a, above N (k a)) -> above N (bind m k).
Proof.
  intros H1 H2 h Hn. unfold bind. destruct (H1 h Hn) as [N1 F1]. destruct (m h) as [h1 [a|e]]; cbn in *; [|auto].
  destruct (H2 a h1 N1) as [N2 F2]. split; [assumption|]. intros y Hy. rewrite F2, F1 by assumption. reflexivity.
Qed.
Lemma above_pure {A} N (m : M A) : (forall h, fst (m h) = h) -> above N m.
Proof. intros H h Hn. rewrite H. auto. Qed.
Lemma above_gets_bind {A B} N (f : heap -> A) (k : A -> M B) : (forall a, above N (k a)) -> above N (bind (gets f) k).
Proof. intros H. apply above_bind; [apply above_pure; reflexivity|assumption]. Qed.
Lemma above_upd N x f : N <= x -> above N (upd x f).
Proof. intros Hx h Hn. cbn. split; [assumption|]. intros y Hy. destruct (Nat.eqb_spec y x); [lia|reflexivity]. Qed.
Lemma above_get_fam N p t : above N (get_fam p t).
Proof. apply above_pure. intros h. unfold get_fam. destruct (nbound (hnode h p)); reflexivity. Qed.
Lemma above_put_fam N p t l : N <= p -> above N (put_fam p t l).
Proof.
  intros Hp h Hn. unfold put_fam. destruct (nbound (hnode h p)); [auto| |apply (above_upd N p _ Hp h Hn)].
  destruct (nfams (hnode h p)); [apply (above_upd N p _ Hp h Hn)|auto].
Qed.
Lemma above_append_core N p x : N <= p -> N <= x -> above N (append_core p x).
Proof.
  intros Hp Hx. unfold append_core. apply above_gets_bind. intros h. destruct (nitems (hnode h p)).
  - repeat (apply above_bind; [apply above_upd; assumption|intros _]). apply above_upd; assumption.
  - apply above_bind; [apply above_upd; assumption|]. intros _. apply above_bind; [apply above_get_fam|].
    intros [f|]; (apply above_bind; [apply above_put_fam; assumption|]); intros _; apply above_upd; assumption.
Qed.
Lemma copy_node_above N x h : N <= hnext h -> match copy_node x h with
  | (h', Ok c) => N <= c /\ N <= hnext h' /\ forall y, y < N -> hnode h' y = hnode h y
  | (h', Err _) => h' = h end.
Proof.
  intros Hn. unfold copy_node. rewrite bind_gets. destruct (copy_args (hnode h x)) as [[[t v] fl] lk].
  destruct (has (nflags (hnode h x)) LINK_ROOT && _); [reflexivity|]. unfold new_item. cbn. split; [assumption|]. split; [lia|].
  intros y Hy. destruct (Nat.eqb_spec y (hnext h)); [lia|reflexivity].
Qed.
Lemma copy_children_above N fuel : forall src dst, N <= dst -> above N (copy_children fuel src dst).
Proof.
  induction fuel as [|f IH]; intros src dst Hd; [apply above_pure; reflexivity|]. cbn [copy_children]. apply above_gets_bind.
  intros h0. generalize (nitems (hnode h0 src)) as l. induction l as [|c l IHl]; [apply above_pure; reflexivity|]. cbn [mapM_].
  apply above_bind; [|intros _; exact IHl]. intros h Hn. pose proof (copy_node_above N c h Hn) as Hc.
  destruct (copy_node c h) as [h1 [c'|e]] eqn:Ec.
  - rewrite (bind_ok _ _ _ _ _ Ec). destruct Hc as (C1 & C2 & C3).
    destruct (above_bind N _ _ (above_append_core N dst c' Hd C1) (fun _ => IH c c' C1) h1 C2) as [N2 F2]. split; [exact N2|].
    intros y Hy. rewrite F2, C3 by assumption. reflexivity.
  - subst h1. rewrite (bind_err _ _ _ _ _ Ec). auto.
Qed.
Lemma copy_item_above x h : forall y, y < hnext h -> hnode (fst (copy_item x h)) y = hnode h y.
Proof.
  intros y Hy. unfold copy_item. rewrite bind_gets. pose proof (copy_node_above (hnext h) x h (le_n _)) as Hc.
  destruct (copy_node x h) as [h1 [c'|e]] eqn:Ec.
  - rewrite (bind_ok _ _ _ _ _ Ec). destruct Hc as (C1 & C2 & C3).
    assert (K : above (hnext h) (copy_children (S (hnext h)) x c' ;;; ret c')).
    { apply above_bind; [apply copy_children_above; assumption|]. intros _. apply above_pure. reflexivity. }
    destruct (K h1 C2) as [N2 F2]. rewrite F2, C3 by assumption. reflexivity.
  - subst h1. rewrite (bind_err _ _ _ _ _ Ec). reflexivity.
Qed.
Lemma ext_item_above e h : forall y, y < hnext h -> hnode (fst (ext_item e h)) y = hnode h y.
Proof.
  intros y Hy. destruct e as [x|t v|v]; cbn [ext_item].
  - rewrite bind_gets. destruct (nprt (hnode h x)); [apply copy_item_above; assumption|reflexivity].
  - destruct (hashable t); [|reflexivity]. cbn. destruct (Nat.eqb_spec y (hnext h)); [lia|reflexivity].
  - cbn. destruct (Nat.eqb_spec y (hnext h)); [lia|reflexivity].
Qed.

Lemma copy_of_tag s s' n n' x c : copy_of s s' n n' x c -> a_tag (s' c) = a_tag (s x).
Proof.
  intros (T & T' & _ & E1 & _ & E2 & L & _). apply (f_equal (fun t => x_tag (root t))) in L.
  destruct T as [r cs], T' as [r' cs']. cbn in *. subst. exact L.
Qed.

(** tag of the item that an argument denotes *)
Definition arg_tag (h : heap) (a : iarg) : pyval := match a with IItem x => tag_of h x | IVal _ => PNoTag end.
Definition seti_ok (h : heap) (p : loc) (tg : target) (a : iarg) : Prop :=
  tg <> TgEllipsis /\ tg <> TgVal (arg_tag h a) /\
  forall o, getitem h p tg = Ok (GItem o) -> a <> IItem o -> set_guard h p o (arg_tag h a).

(** the state after the new item is ready: x itself, a new item or a copy *)
Definition acquired (h h1 : heap) (p : loc) (a : iarg) (c : loc) : Prop :=
  match a with
  | IItem x => (parent_of h x = None /\ c = x /\ h1 = h) \/
               (parent_of h x <> None /\ copy_of (view h) (view h1) (hnext h) (hnext h1) x c)
  | IVal v => c = hnext h /\ label (view h1) c = XL PNoTag v 0 None /\ a_children (view h1 c) = []
  end.

Lemma setitem_case h p tg a : WF h -> arg_ok h p a -> seti_ok h p tg a ->
  exists h' r, setitem p tg a h = (h', r) /\ WF h' /\ (NoOrphan (view h) -> NoOrphan (view h')) /\
    match r with
    | Ok c => exists o k, getitem h p tg = Ok (GItem o) /\ nth_error (children h p) k = Some o /\
        ((a = IItem o /\ c = o /\ h' = h) \/
         exists h1, WF h1 /\ hnext h <= hnext h1 /\ (forall y, y < hnext h -> hnode h1 y = hnode h y) /\ acquired h h1 p a c /\ c <> o /\
            same (view h') (replaced (view h1) p o c k))
    | Err _ => forall y, y < hnext h -> view h' y = view h y
    end.
Proof.
  intros W [Hp Ha] (G1 & G2 & G3). unfold setitem.
  destruct (outcome (check_insert p a) h) as [[]|e] eqn:Hc.
  2:{ exists h, (Err e). rewrite (bind_pure_err _ _ _ _ (check_insert_pure p a h) Hc). auto. }
  rewrite (bind_ok _ _ _ _ _ (pure_ok _ _ _ (check_insert_pure p a h) Hc)), bind_gets.
  destruct (getitem h p tg) as [old|e] eqn:Eg.
  2:{ exists h, (Err e). auto. }
  destruct (match old, a with GItem o, IItem x => Nat.eqb o x | _, _ => false end) eqn:Esame.
  { destruct old as [o|l]; [|discriminate]. destruct a as [x|v]; [|discriminate]. apply Nat.eqb_eq in Esame. subst x.
    exists h, (Ok o). split; [reflexivity|]. split; [assumption|]. split; [auto|].
    pose proof (getitem_incl h p tg _ W Eg o (or_introl eq_refl)) as Hin. apply In_nth_error in Hin as [k Hk].
    exists o, k. repeat split; auto. }
  (* the new item *)
  set (acq := match a with IItem x => _ | IVal _ => _ end).
  assert (Acq : exists h1 r, acq h = (h1, r) /\ WF h1 /\ (NoOrphan (view h) -> NoOrphan (view h1)) /\ hnext h <= hnext h1 /\ (forall y, y < hnext h -> hnode h1 y = hnode h y) /\
     match r with Ok c => attachable h1 p c /\ acquired h h1 p a c /\ tag_of h1 c = arg_tag h a /\ (old <> GItem c) | Err _ => True end).
  { pose proof (fun e He => ext_item_case h p e W Hp He) as K.
    destruct a as [x|v]; cbn [acq].
    - destruct Ha as [Hx Hanc]. specialize (K (EItem x) (conj Hx Hanc)). destruct K as (h1 & r & E & W1 & N1 & F1 & R).
      pose proof (ext_item_above (EItem x) h) as F2. rewrite E in F2. cbn [fst] in F2.
      pose proof (ext_item_WFN (EItem x) h) as O1. rewrite E in O1. cbn [fst] in O1.
      unfold acq. cbn [ext_item] in E. rewrite bind_gets in E. destruct (nprt (hnode h x)) as [pl|] eqn:Epl.
      + destruct (item_eqb h (pl_par pl) p).
        * exists h1, r. split; [exact E|]. split; [assumption|]. split; [intros N; apply O1; split; assumption|]. split; [assumption|]. split; [assumption|].
          destruct r as [c|]; [|exact I]. destruct R as (R1 & R2 & R3). split; [assumption|].
          assert (Hpx : parent_of h x <> None) by (intros E0; apply prt_none in E0; congruence).
          cbn [elem] in R2. destruct R2 as [[R2 _]|[_ R2]]; [contradiction|]. split; [right; auto|].
          split; [apply (copy_of_tag _ _ _ _ _ _ R2)|]. intros ->.
          pose proof (getitem_incl h p tg _ W Eg c (or_introl eq_refl)) as Hin.
          destruct (child_attached h p c W Hin) as [Hlt _]. destruct R2 as (T & T' & _ & _ & _ & Er & _ & Rng).
          specialize (Rng c). rewrite <- Er in Rng. destruct T' as [r' cs']. cbn in Rng. rewrite <- Er in Hlt. cbn in Hlt. specialize (Rng (or_introl eq_refl)). lia.
        * exists h, (Err RecursionError). auto 6.
      + exists h, (Ok x). split; [reflexivity|]. split; [assumption|]. split; [auto|]. split; [lia|]. split; [auto|].
        assert (Hpx : parent_of h x = None) by (apply prt_none; assumption). split; [split; [assumption|]; split; [assumption|]; split; [assumption|auto]|].
        split; [left; auto|]. split; [reflexivity|]. intros ->. cbn in Esame. rewrite Nat.eqb_refl in Esame. discriminate.
    - specialize (K (EVal v) I). destruct K as (h1 & r & E & W1 & N1 & F1 & R).
      pose proof (ext_item_above (EVal v) h) as F2. rewrite E in F2. cbn [fst] in F2.
      pose proof (ext_item_WFN (EVal v) h) as O1. rewrite E in O1. cbn [fst] in O1.
      assert (Ok1 : acq = new_item PNoTag v 0 None \/ acq = throw Unsupported) by (unfold acq; destruct v; auto).
      destruct Ok1 as [->| ->]; [|exists h, (Err Unsupported); auto 6].
      exists h1, r. split; [exact E|]. split; [assumption|]. split; [intros N; apply O1; split; assumption|]. split; [assumption|]. split; [assumption|].
      destruct r as [c|]; [|exact I]. destruct R as (R1 & (R2 & R3 & R4) & R5). split; [assumption|].
      assert (c = hnext h) as -> by (cbn in E; injection E as _ <-; reflexivity).
      split; [cbn; auto|]. split; [apply (f_equal x_tag R3)|]. intros ->.
      pose proof (getitem_incl h p tg _ W Eg (hnext h) (or_introl eq_refl)) as Hin.
      destruct (child_attached h p _ W Hin) as [Hlt _]. lia. }
  destruct Acq as (h1 & r & E1 & W1 & O1 & N1 & F1 & R). destruct r as [c|e].
  2:{ exists h1, (Err e). rewrite (bind_err _ _ _ _ _ E1). split; [reflexivity|]. split; [assumption|]. split; [assumption|].
      intros y Hy. unfold view. rewrite F1 by assumption. reflexivity. }
  rewrite (bind_ok _ _ _ _ _ E1), bind_gets. destruct R as (R1 & R2 & R3 & R4). change (ntag (hnode h1 c)) with (tag_of h1 c).
  assert (V1 : forall y, y < hnext h -> view h1 y = view h y) by (intros y Hy; unfold view; rewrite F1 by assumption; reflexivity).
  cbv zeta. rewrite R3.
  assert (Main : exists h' r, match old with
      | GList _ => throw LookupError
      | GItem o => set_core p c o
      end h1 = (h', r) /\ WF h' /\ (NoOrphan (view h) -> NoOrphan (view h')) /\
    match r with
    | Ok c => exists o k, Ok old = Ok (GItem o) /\ nth_error (children h p) k = Some o /\
        ((a = IItem o /\ c = o /\ h' = h) \/
         exists h1, WF h1 /\ hnext h <= hnext h1 /\ (forall y, y < hnext h -> hnode h1 y = hnode h y) /\ acquired h h1 p a c /\ c <> o /\
            same (view h') (replaced (view h1) p o c k))
    | Err _ => forall y, y < hnext h -> view h' y = view h y
    end).
  { destruct old as [o|l]; [|exists h1, (Err LookupError); auto].
    pose proof (getitem_incl h p tg _ W Eg o (or_introl eq_refl)) as Hin. apply In_nth_error in Hin as [k Hk].
    assert (Hnp : hnode h1 p = hnode h p) by (apply F1; assumption).
    assert (Hk1 : nth_error (nitems (hnode h1 p)) k = Some o) by (rewrite Hnp; assumption).
    assert (Ho : o < hnext h) by (apply (child_attached h p o W); eapply nth_error_In; eauto).
    assert (Hco : c <> o) by (intros ->; apply R4; reflexivity).
    assert (Hao : a <> IItem o).
    { intros ->. cbn in Esame. rewrite Nat.eqb_refl in Esame. discriminate. }
    assert (Ewt : forall t, with_tag (view h1) p t = with_tag (view h) p t).
    { intros t. unfold with_tag. rewrite V1 by assumption. apply filter_ext_in. intros y Hy.
      rewrite V1 by (apply (child_attached h p y W); exact Hy). reflexivity. }
    assert (Gd : set_guard h1 p o (tag_of h1 c)).
    { rewrite R3. pose proof (G3 o eq_refl Hao) as Gd. unfold set_guard in *. rewrite !Ewt. unfold tag_of in *. rewrite V1 by assumption.
      destruct Gd as [Gd|[Gd1 Gd2]]; [left; exact Gd|right]. split; [exact Gd1|]. destruct Gd2 as [Gd2|Gd2]; [left; exact Gd2|right].
      rewrite Hnp. eapply ceq_drift_sym; [|exact Gd2]. intros y Hy. apply F1. apply (child_attached h p y W). exact Hy. }
    destruct (set_core_ok h1 p c o k W1 Hk1 R1 Hco Gd) as (h' & r & E & R). exists h', r. split; [exact E|]. destruct r as [c'|e].
    - destruct R as (-> & X1 & X2 & X3 & X4). split; [assumption|]. split; [auto|]. exists o, k. split; [reflexivity|]. split; [exact Hk|].
      right. exists h1. auto 8.
    - destruct R as (_ & X2 & _). split; [eapply ceq_WF; eauto|]. split; [intros N; eapply NoOrphan_same; [apply same_sym, ceq_view_same; exact X2|auto]|].
      intros y Hy. rewrite (ceq_view _ _ X2). apply V1. assumption. }
  destruct tg as [v|sa sb|t|t sa sb|t i| |f]; try congruence; cbv iota.
  1: destruct (pyval_eqb v (arg_tag h a)) eqn:Ev; [apply pyval_eqb_eq in Ev; congruence|].
  all: destruct old as [o|l]; cbn iota in Main |- *; [unfold set_core in Main; rewrite bind_gets in Main; cbv zeta in Main; change (ntag (hnode h1 c)) with (tag_of h1 c) in Main; rewrite R3 in Main; exact Main|exact Main].
Qed.
Lemma setitem_WF h p tg a : WF h -> arg_ok h p a -> seti_ok h p tg a -> WF (fst (setitem p tg a h)).
Proof. intros W A G. destruct (setitem_case h p tg a W A G) as (h' & r & -> & W' & _). exact W'. Qed.
Lemma setitem_WFN h p tg a : WFN h -> arg_ok h p a -> seti_ok h p tg a -> WFN (fst (setitem p tg a h)).
Proof. intros [W N] A G. destruct (setitem_case h p tg a W A G) as (h' & r & -> & W' & N' & _). split; [exact W'|auto]. Qed.
