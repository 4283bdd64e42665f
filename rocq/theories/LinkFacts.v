(** Facts about converting subtrees into linked ones (LinkModel). *)
From Verif Require Import Base Heap HeapSpec ListLemmas ForestLemmas HeapInv HeapAttach HeapOps Tree HeapTree HeapCopy Deep SerModel LinkModel.
Import ListNotations.
Local Open Scope list_scope.

(** * Appending on the level of nodes *)
(** [l] are the children of [x] and the families of [x] are those of [l] *)
Definition leaf_ok (n : node) : Prop :=
  match nbound n with
  | Unbound => nfams n = None \/ nfams n = Some []
  | Current => exists d, nfams n = Some d /\ fam_ok (fun _ => PNone) d []
  | Stale _ => nfams n = Some []
  end.
Definition own (h : heap) (x : loc) (l : list loc) : Prop :=
  nitems (hnode h x) = l /\
  ((l = [] /\ leaf_ok (hnode h x)) \/ (nbound (hnode h x) = Current /\ exists d, nfams (hnode h x) = Some d /\ fam_ok (fun y => ntag (hnode h y)) d l)).
(** the fields of an item besides children, families and position *)
Definition data (n : node) := (ntag n, nval n, nflags n, nlink n, ncoupled n).

Lemma own_ext h h' x l : hnode h' x = hnode h x -> (forall y, In y l -> ntag (hnode h' y) = ntag (hnode h y)) -> own h x l -> own h' x l.
Proof.
  intros E T (A & B). split; [rewrite E; exact A|]. destruct B as [(-> & B)|(B & d & D & F)]; [left; split; [reflexivity|rewrite E; exact B]|right].
  rewrite E. split; [exact B|]. exists d. split; [exact D|]. eapply fam_ok_ext; [|exact F]. intros y Hy. symmetry. apply T, Hy.
Qed.

Lemma fam_ok_snoc tg d l y : fam_ok tg d l -> fam_ok tg (dset d (tg y) (byt tg (tg y) l ++ [y])) (l ++ [y]).
Proof.
  intros F. eapply fam_ok_put; [exact F| | |].
  - destruct (byt tg (tg y) l); discriminate.
  - rewrite byt_app, byt_cons, pyval_eqb_refl. reflexivity.
  - intros u Hu. rewrite byt_app, byt_cons. destruct (pyval_eqb (tg y) u) eqn:E; [apply pyval_eqb_eq in E; congruence|].
    cbn. apply app_nil_r.
Qed.

Lemma app_own h x y l : own h x l -> y <> x ->
  exists h', append_core x y h = (h', Ok tt) /\ own h' x (l ++ [y]) /\ hnext h' = hnext h /\
    (forall z, z <> x -> z <> y -> hnode h' z = hnode h z) /\
    data (hnode h' x) = data (hnode h x) /\ nprt (hnode h' x) = nprt (hnode h x) /\
    hnode h' y = set_prt (Some (PL x (Z.of_nat (length l)) (Z.of_nat (length (byt (fun z => ntag (hnode h z)) (ntag (hnode h y)) l))) false)) (hnode h y).
Proof.
  intros (Ei & B) Hy. unfold append_core. rewrite bind_gets, Ei. set (t := ntag (hnode h y)).
  destruct l as [|a l].
  - rewrite !bind_upd. eexists. split; [reflexivity|]. cbn [app]. split.
    { split; [hnodes; reflexivity|right]. hnodes. split; [reflexivity|]. eexists. split; [reflexivity|].
      assert (T : forall z, ntag (hnode (hmod (hmod (hmod h x (set_items [y])) x (set_fams (Some [(t, [y])]) Current)) y (set_prt (Some (PL x 0 0 false)))) z) = ntag (hnode h z)).
      { intros z. unfold hmod. cbn. destruct (Nat.eqb z x), (Nat.eqb z y); reflexivity. }
      split; [cbn; constructor; [intros []|constructor]|]. intros u. cbn [dget filter]. rewrite T. fold t.
      destruct (pyval_eqb t u); reflexivity. }
    split; [reflexivity|]. split; [intros z H1 H2; hnodes; reflexivity|]. split; [hnodes; reflexivity|]. split; [hnodes; reflexivity|].
    hnodes. reflexivity.
  - destruct B as [(B & _)|(B & d & D & F)]; [discriminate|]. remember (a :: l) as l0 eqn:El0. clear a l El0.
    rewrite bind_upd. set (h1 := hmod h x (set_items (l0 ++ [y]))).
    assert (B1 : nbound (hnode h1 x) = Current) by (unfold h1; hnodes; exact B).
    assert (D1 : nfams (hnode h1 x) = Some d) by (unfold h1; hnodes; exact D).
    rewrite (bind_ok _ _ _ _ _ (get_fam_cur h1 x t d B1 D1)).
    rewrite (fam_ok_get _ _ _ t F). set (f := byt (fun z => ntag (hnode h z)) t l0).
    assert (P : forall g, put_fam x t g h1 = (hmod h1 x (set_fams (Some (dset d t g)) Current), Ok tt)).
    { intros g. unfold put_fam. rewrite B1, D1. reflexivity. }
    set (fin := hmod (hmod h1 x (set_fams (Some (dset d t (f ++ [y]))) Current)) y (set_prt (Some (PL x (Z.of_nat (length l0)) (Z.of_nat (length f)) false)))).
    exists fin. split.
    { destruct f as [|b f'] eqn:Ef; cbn [nonempty]; rewrite (bind_ok _ _ _ _ _ (P _)); reflexivity. }
    assert (T : forall z, ntag (hnode fin z) = ntag (hnode h z)).
    { intros z. unfold fin, h1, hmod. cbn. destruct (Nat.eqb z x), (Nat.eqb z y); reflexivity. }
    split.
    { split; [unfold fin, h1; hnodes; reflexivity|right]. unfold fin, h1. hnodes. split; [reflexivity|]. eexists. split; [reflexivity|].
      eapply (fam_ok_ext (fun z => ntag (hnode h z))); [intros z _; symmetry; apply T|]. unfold f, t. apply (fam_ok_snoc (fun z => ntag (hnode h z)) d l0 y F). }
    split; [reflexivity|]. unfold fin, h1. split; [intros z H1 H2; hnodes; reflexivity|]. split; [hnodes; reflexivity|]. split; [hnodes; reflexivity|].
    hnodes. reflexivity.
Qed.

Lemma caches_alloc h t v fl lk : caches_ok h -> caches_ok (fst (halloc h (fresh_node t v fl lk))).
Proof. intros C y pl. unfold halloc. cbn. destruct (Nat.eqb y (hnext h)); [discriminate|apply C]. Qed.
Lemma caches_app h h' x y : append_core x y h = (h', Ok tt) -> (forall z, z <> x -> z <> y -> hnode h' z = hnode h z) -> nprt (hnode h' x) = nprt (hnode h x) ->
  (exists i f, nprt (hnode h' y) = Some (PL x i f false) /\ (0 <= i)%Z /\ (0 <= f)%Z) -> caches_ok h -> caches_ok h'.
Proof.
  intros _ O P (i & f & N & Hi & Hf) C z pl Hz. destruct (Nat.eq_dec z y) as [->|Zy]; [rewrite N in Hz; injection Hz as <-; cbn; auto|].
  destruct (Nat.eq_dec z x) as [->|Zx]; [rewrite P in Hz; apply (C _ _ Hz)|]. rewrite O in Hz by assumption. apply (C _ _ Hz).
Qed.

(** * The shape the conversion produces *)
(** items in pre-order with the information whether they have children *)
Definition pre {A} (F : list (tree A)) : list (A * bool) :=
  flat_map (fix go (T : tree A) := match T with Node a cs => (a, nonnil cs) :: flat_map go cs end) F.
(** everything that follows an item with children becomes part of this item *)
Fixpoint cat {A} (l : list (A * bool)) : list (tree A) :=
  match l with
  | [] => []
  | (a, true) :: r => [Node a (cat r)]
  | (a, false) :: r => Node a [] :: cat r
  end.
(** only the last of several siblings has children, on every level *)
Inductive last_only {A} : list (tree A) -> Prop :=
| lo_nil : last_only []
| lo_last a cs : last_only cs -> last_only [Node a cs]
| lo_leaf a F : last_only F -> last_only (Node a [] :: F).

Lemma pre_cons {A} (a : A) cs F : pre (Node a cs :: F) = (a, nonnil cs) :: pre cs ++ pre F.
Proof. reflexivity. Qed.
Lemma pre_app {A} (F G : list (tree A)) : pre (F ++ G) = pre F ++ pre G.
Proof. apply flat_map_app. Qed.
Lemma cat_last {A} (l : list (A * bool)) : last_only (cat l).
Proof. induction l as [|[a [|]] r IH]; cbn [cat]; constructor; assumption. Qed.
Lemma last_cat {A} (F : list (tree A)) : last_only F -> cat (pre F) = F.
Proof.
  induction 1 as [|a cs _ IH|a F _ IH]; [reflexivity| |].
  - rewrite pre_cons, app_nil_r. destruct cs as [|c cs]; [reflexivity|]. cbn [cat nonnil]. rewrite IH. reflexivity.
  - rewrite pre_cons. cbn [cat nonnil app pre flat_map]. f_equal. exact IH.
Qed.
(** the conversion reproduces the shape exactly when only last siblings have children *)
Lemma cat_exact {A} (F : list (tree A)) : cat (pre F) = F <-> last_only F.
Proof. split; [intros E; rewrite <- E; apply cat_last|apply last_cat]. Qed.
Lemma pre_map {A B} (f : A -> B) F : pre (map (tmap f) F) = map (fun p => (f (fst p), snd p)) (pre F).
Proof.
  induction F as [|T F IH]; [reflexivity|]. change (map (tmap f) (T :: F)) with ([tmap f T] ++ map (tmap f) F). rewrite pre_app, IH.
  change (T :: F) with ([T] ++ F). rewrite pre_app, map_app. f_equal. clear. unfold pre. cbn [flat_map]. rewrite !app_nil_r.
  induction T as [a cs IH] using tree_ind'. cbn [tmap map flat_map]. cbn [fst snd]. f_equal; [destruct cs; reflexivity|].
  induction IH as [|c cs Hc _ IHl]; [reflexivity|]. cbn [map flat_map]. rewrite map_app. f_equal; assumption.
Qed.
Lemma cat_map {A B} (f : A -> B) l : cat (map (fun p => (f (fst p), snd p)) l) = map (tmap f) (cat l).
Proof. induction l as [|[a [|]] r IH]; cbn [map cat fst snd tmap]; [reflexivity|rewrite IH; reflexivity|rewrite IH; reflexivity]. Qed.
Lemma pre_length {A} (F : list (tree A)) : length (pre F) = list_sum (map size F).
Proof.
  induction F as [|T F IH]; [reflexivity|]. change (T :: F) with ([T] ++ F). rewrite pre_app, app_length, map_app, list_sum_app, IH. f_equal. clear.
  unfold pre. cbn [flat_map map list_sum fold_right]. rewrite app_nil_r, Nat.add_0_r.
  induction T as [a cs IH] using tree_ind'. cbn [length size]. f_equal. induction IH as [|c cs Hc _ IHl]; [reflexivity|].
  cbn [flat_map map]. rewrite app_length, Hc. change (list_sum (size c :: map size cs)) with (size c + list_sum (map size cs)). lia.
Qed.

(** * The conversion loop *)
(** what becomes of a converted item: copied, then marked as linked *)
Definition lk_label (l : xlabel) : xlabel :=
  XL (x_tag l) (x_val l) (Z.lor (x_flags (cp_label l)) LINKED) (x_src (cp_label l)).
Definition conv_good (l : xlabel) : bool := link_good l && negb (has (x_flags l) LINK_ROOT && has (x_flags l) LOAD_LINKS).

(** no coupled object, covers no linked item *)
Definition plain (n : node) : Prop := ncoupled n = None /\ (forall k, nlink n = Some k -> lk_cover k = None).
(** a new subtree below [p]: every item knows its parent, its children and families fit *)
Fixpoint built (h : heap) (p : loc) (T : tree loc) : Prop :=
  match T with
  | Node y cs => (exists i f, nprt (hnode h y) = Some (PL p i f false) /\ (0 <= i)%Z /\ (0 <= f)%Z) /\ own h y (map root cs) /\ plain (hnode h y) /\
                 (fix all (l : list (tree loc)) : Prop := match l with [] => True | c :: r => built h y c /\ all r end) cs
  end.
Lemma built_iff h p y cs : built h p (Node y cs) <->
  (exists i f, nprt (hnode h y) = Some (PL p i f false) /\ (0 <= i)%Z /\ (0 <= f)%Z) /\ own h y (map root cs) /\ plain (hnode h y) /\ Forall (built h y) cs.
Proof.
  cbn [built]. assert (H : forall l, (fix all (l : list (tree loc)) : Prop := match l with [] => True | c :: r => built h y c /\ all r end) l <-> Forall (built h y) l).
  { induction l as [|c r IH]; [split; [constructor|auto]|]. rewrite IH. split; [intros (A & B); constructor; assumption|inversion 1; subst; auto]. }
  rewrite H. tauto.
Qed.
Lemma built_frame h h' T : forall p, (forall y, In y (flatten T) -> hnode h' y = hnode h y) -> built h p T -> built h' p T.
Proof.
  induction T as [y cs IH] using tree_ind'. intros p E. rewrite !built_iff. intros (A & B & C & D).
  assert (Ey : hnode h' y = hnode h y) by (apply E; left; reflexivity). rewrite Ey. split; [exact A|].
  assert (Ec : forall c, In c cs -> forall z, In z (flatten c) -> hnode h' z = hnode h z).
  { intros c Hc z Hz. apply E. right. apply in_flat_map. exists c. auto. }
  split; [|split; [exact C|]].
  - eapply own_ext; [exact Ey| |exact B]. intros z Hz. apply in_map_iff in Hz as (c & <- & Hc). rewrite (Ec c Hc); [reflexivity|apply in_flatten_root].
  - rewrite Forall_forall in *. intros c Hc. apply (IH c Hc); [apply Ec; exact Hc|]. apply D, Hc.
Qed.
Lemma built_ltree h T : forall p, built h p T -> ltree (view h) T.
Proof.
  induction T as [y cs IH] using tree_ind'. intros p. rewrite built_iff, ltree_iff. intros (_ & B & _ & D). split.
  - symmetry. exact (proj1 B).
  - rewrite Forall_forall in *. intros c Hc. eapply (IH c Hc). apply D, Hc.
Qed.
Lemma label_data h h' y y' : data (hnode h y) = data (hnode h' y') -> label (view h) y = label (view h') y'.
Proof. intros [= A B C D _]. unfold label, view. cbn. rewrite A, B, C, D. reflexivity. Qed.
Lemma data_flg n m : data (set_flg m n) = (ntag n, nval n, m, nlink n, ncoupled n). Proof. reflexivity. Qed.

Lemma copy_args_ok h y : conv_good (label (view h) y) = true ->
  exists lk, (option_map lk_src lk = x_src (cp_label (label (view h) y)) /\ (forall k, lk = Some k -> lk_cover k = None)) /\
    copy_args_node y h = (fst (halloc h (fresh_node (ntag (hnode h y)) (nval (hnode h y)) (x_flags (cp_label (label (view h) y))) lk)), Ok (hnext h)).
Proof.
  unfold conv_good, link_good, copy_args_node, copy_node, copy_args, cp_label, label. cbn [x_flags x_src x_tag x_val view a_flags a_link a_tag a_val].
  rewrite bind_gets. unfold is_link_root. intros H. apply andb_true_iff in H as [H1 H2]. apply negb_true_iff in H2. rewrite H2. rewrite bind_gets.
  destruct (has (nflags (hnode h y)) LINK_ROOT); cbn [negb orb andb] in *.
  - destruct (nlink (hnode h y)) as [k|]; [|discriminate]. cbn [andb option_map]. eexists. split; [|reflexivity]. split; [reflexivity|]. intros k0 [= <-]. reflexivity.
  - eexists. split; [|reflexivity]. split; [reflexivity|discriminate].
Qed.

Definition to_cent (o : option (list (tree loc))) : cent := match o with Some Ts => CIt (map root Ts) | None => CNone end.
Definition ents (st : list (option (list (tree loc)))) : list (tree loc) := flat_map (fun o => match o with Some Ts => Ts | None => [] end) st.
Definition cost (st : list (option (list (tree loc)))) : nat := length st + 3 * length (pre (ents st)).
Definition conv_spec (h : heap) (F : list (tree loc)) : list (tree xlabel) :=
  cat (map (fun p => (lk_label (label (view h) (fst p)), snd p)) (pre F)).

Lemma conv_spec_ext h h' F : (forall y, In y (map fst (pre F)) -> label (view h) y = label (view h') y) -> conv_spec h F = conv_spec h' F.
Proof. intros E. unfold conv_spec. f_equal. apply map_ext_in. intros p Hp. rewrite (E (fst p)); [reflexivity|]. apply in_map. exact Hp. Qed.
Lemma pre_fst {A} (F : list (tree A)) : map fst (pre F) = flat_map flatten F.
Proof.
  induction F as [|T F IH]; [reflexivity|]. change (T :: F) with ([T] ++ F). rewrite pre_app, map_app, IH, flat_map_app. f_equal. clear.
  unfold pre. cbn [flat_map]. rewrite !app_nil_r. induction T as [a cs IH] using tree_ind'. cbn [map flatten fst]. f_equal.
  induction IH as [|c cs Hc _ IHl]; [reflexivity|]. cbn [flat_map]. rewrite map_app. f_equal; assumption.
Qed.
Lemma nonnil_map {A B} (f : A -> B) l : nonnil (map f l) = nonnil l. Proof. destruct l; reflexivity. Qed.

Lemma conv_ok : forall n h st cur rest l, cost st < n ->
  Forall (ltree (view h)) (ents st) ->
  (forall y, In y (flat_map flatten (ents st)) -> y < hnext h /\ y <> cur /\ conv_good (label (view h) y) = true) ->
  cur < hnext h -> own h cur l -> (forall y, In y l -> y < hnext h) ->
  exists h' Ts', conv_loop n (map to_cent st) (cur :: rest) h = (h', Ok tt) /\
    hnext h' = hnext h + length (pre (ents st)) /\
    own h' cur (l ++ map root Ts') /\ data (hnode h' cur) = data (hnode h cur) /\ nprt (hnode h' cur) = nprt (hnode h cur) /\
    (forall y, y < hnext h \/ hnext h' <= y -> y <> cur -> hnode h' y = hnode h y) /\
    Forall (built h' cur) Ts' /\ map (tmap (label (view h'))) Ts' = conv_spec h (ents st) /\
    (forall y, In y (flat_map flatten Ts') -> hnext h <= y < hnext h') /\ NoDup (flat_map flatten Ts') /\ (caches_ok h -> caches_ok h') /\
    (forall y, hnext h <= y < hnext h' -> In y (flat_map flatten Ts')).
Proof.
  induction n as [|n IH]; intros h st cur rest l Hn HT HG Hc HO HL; [lia|].
  destruct st as [|[[|T ts]|] r].
  - exists h, []. cbn [map ents flat_map]. rewrite app_nil_r. split; [reflexivity|]. split; [cbn; lia|]. split; [exact HO|]. split; [reflexivity|]. split; [reflexivity|].
    split; [reflexivity|]. split; [constructor|]. split; [reflexivity|]. split; [intros y []|]. split; [constructor|]. split; [auto|intros y Hy; lia].
  - destruct (IH h r cur rest l) as (h' & Ts' & E); auto; [unfold cost in *; change (ents (Some [] :: r)) with (ents r) in Hn; cbn [length] in *; lia|]. exists h', Ts'. exact E.
  - destruct T as [i cs]. change (ents (Some (Node i cs :: ts) :: r)) with (Node i cs :: ts ++ ents r) in *.
    assert (Ec : ents (Some ts :: r) = ts ++ ents r) by reflexivity.
    pose proof (Forall_inv HT) as HTi. pose proof (Forall_inv_tail HT) as HTt.
    apply ltree_iff in HTi as (Ek & HTk). cbn in Ek.
    destruct (HG i) as (Hi & Hic & Hig); [left; reflexivity|].
    cbn [map to_cent root conv_loop]. rewrite bind_gets.
    destruct (copy_args_ok h i Hig) as (lk & (Elk & Clk) & E1). rewrite (bind_ok _ _ _ _ _ E1).
    set (lb := cp_label (label (view h) i)) in *. set (new := hnext h) in *.
    set (nd := fresh_node (ntag (hnode h i)) (nval (hnode h i)) (x_flags lb) lk) in *.
    set (h1 := fst (halloc h nd)) in *.
    assert (N1 : hnode h1 new = nd) by (unfold h1, halloc; cbn; rewrite Nat.eqb_refl; reflexivity).
    assert (O1 : forall y, y <> new -> hnode h1 y = hnode h y).
    { intros y Hy. unfold h1, halloc. cbn. apply Nat.eqb_neq in Hy. fold new. rewrite Hy. reflexivity. }
    assert (X1 : hnext h1 = S new) by reflexivity. clearbody h1.
    assert (HO1 : own h1 cur l) by (eapply own_ext; [apply O1; lia| |exact HO]; intros y Hy; rewrite O1; [reflexivity|specialize (HL y Hy); lia]).
    destruct (app_own h1 cur new l HO1 ltac:(lia)) as (h2 & E2 & HO2 & X2 & O2 & D2 & P2 & N2). rewrite (bind_ok _ _ _ _ _ E2).
    unfold add_flag. rewrite bind_upd. set (h3 := hmod h2 new (fun n0 => set_flg (Z.lor (nflags n0) LINKED) n0)).
    assert (O3 : forall y, y <> new -> y <> cur -> hnode h3 y = hnode h y) by (intros y Y1 Y2; unfold h3; rewrite hmod_other, O2, O1 by auto; reflexivity).
    assert (C3 : hnode h3 cur = hnode h2 cur) by (unfold h3; rewrite hmod_other by lia; reflexivity).
    assert (X3 : hnext h3 = S new) by (unfold h3; cbn; lia).
    assert (N3 : data (hnode h3 new) = (ntag (hnode h i), nval (hnode h i), Z.lor (x_flags lb) LINKED, lk, None)).
    { unfold h3. rewrite hmod_same, data_flg, N2, N1. reflexivity. }
    assert (PL0 : plain (hnode h3 new)) by (split; [exact (f_equal snd N3)|]; intros k Hk; apply Clk; rewrite <- Hk; symmetry; exact (f_equal (fun d => snd (fst d)) N3)).
    assert (PN3 : nprt (hnode h3 new) = nprt (hnode h2 new)) by (unfold h3; rewrite hmod_same; reflexivity).
    assert (LO3 : leaf_ok (hnode h3 new)) by (unfold h3; rewrite hmod_same; unfold leaf_ok; cbn; rewrite N2, N1; cbn; auto).
    assert (I3 : nitems (hnode h3 new) = []) by (unfold h3; rewrite hmod_same; cbn; rewrite N2, N1; reflexivity).
    assert (HO3 : own h3 cur (l ++ [new])).
    { eapply own_ext; [exact C3| |exact HO2]. intros y _. unfold h3, hmod. cbn. destruct (Nat.eqb y new); reflexivity. }
    assert (D3 : data (hnode h3 cur) = data (hnode h cur)) by (rewrite C3, D2, O1 by lia; reflexivity).
    assert (P3 : nprt (hnode h3 cur) = nprt (hnode h cur)) by (rewrite C3, P2, O1 by lia; reflexivity).
    assert (PL2 : exists a f, nprt (hnode h2 new) = Some (PL cur a f false) /\ (0 <= a)%Z /\ (0 <= f)%Z) by (rewrite N2; eexists _, _; split; [reflexivity|]; lia).
    assert (CA1 : caches_ok h -> caches_ok h1) by (intros CA y pl; destruct (Nat.eq_dec y new) as [->|Y]; [rewrite N1; discriminate|rewrite O1 by exact Y; apply CA]).
    assert (CA3 : caches_ok h -> caches_ok h3).
    { intros CA. pose proof (caches_app h1 h2 cur new E2 O2 P2 PL2 (CA1 CA)) as CA2. intros y pl Hy. apply (CA2 y pl). unfold h3, hmod in Hy. cbn in Hy.
      destruct (Nat.eqb_spec y new) as [->|]; exact Hy. }
    clearbody h3.
    assert (PL3 : exists a f, nprt (hnode h3 new) = Some (PL cur a f false) /\ (0 <= a)%Z /\ (0 <= f)%Z).
    { rewrite PN3, N2. eexists _, _. split; [reflexivity|]. lia. }
    assert (L3 : forall g, data (hnode g new) = data (hnode h3 new) -> label (view g) new = lk_label (label (view h) i)).
    { intros g Dg. rewrite (label_data _ _ _ _ Dg). injection N3 as A1 A2 A3 A4 _. unfold label at 1, lk_label, view. cbn [a_tag a_val a_flags a_link].
      rewrite A1, A2, A3, A4, Elk. reflexivity. }
    assert (S3 : forall y, y < hnext h -> y <> cur -> view h3 y = view h y) by (intros y Y1 Y2; unfold view; rewrite O3 by lia; reflexivity).
    rewrite <- Ek, nonnil_map. destruct cs as [|c cs]; cbn [nonnil].
    + (* leaf *)
      destruct (IH h3 (Some ts :: r) cur rest (l ++ [new])) as (h' & Ts' & E' & X' & HO' & D' & P' & O' & B' & L' & R' & ND' & CA' & CV').
      { unfold cost in *. change (ents (Some (Node i [] :: ts) :: r)) with (Node i [] :: ents (Some ts :: r)) in Hn. rewrite pre_cons in Hn.
        cbn [pre flat_map app length] in *. lia. }
      { rewrite Ec. rewrite Forall_forall in *. intros T HTin. eapply ltree_frame; [|apply HTt, HTin]. intros y Hy.
        destruct (HG y) as (Y1 & Y2 & _); [right; cbn [flat_map]; apply in_flat_map; exists T; auto|]. rewrite S3 by auto. reflexivity. }
      { rewrite Ec. intros y Hy. destruct (HG y) as (Y1 & Y2 & Y3); [right; exact Hy|]. split; [lia|]. split; [exact Y2|]. unfold label in *. rewrite S3 by auto. exact Y3. }
      { lia. } { exact HO3. }
      { intros y Hy. apply in_app_iff in Hy as [Hy|[<-|[]]]; [specialize (HL y Hy); lia|lia]. }
      rewrite Ec in *. exists h', (Node new [] :: Ts').
      change (CIt (map root ts) :: map to_cent r) with (map to_cent (Some ts :: r)). split; [exact E'|].
      rewrite pre_cons. cbn [nonnil pre flat_map app length]. split; [fold (pre (ts ++ ents r)); lia|].
      split; [cbn [map root]; rewrite <- app_assoc in HO'; exact HO'|]. split; [congruence|]. split; [congruence|].
      assert (NN : hnode h' new = hnode h3 new) by (apply O'; lia).
      split; [intros y Y1 Y2; rewrite O' by lia; apply O3; lia|].
      split. { constructor; [|exact B']. apply built_iff. rewrite NN. split; [exact PL3|]. split; [|split; [exact PL0|constructor]].
        split; [rewrite NN; exact I3|left; split; [reflexivity|rewrite NN; exact LO3]]. }
      split.
      { cbn [map tmap]. rewrite (L3 h') by congruence. unfold conv_spec. rewrite pre_cons. cbn [nonnil pre flat_map app map fst snd cat]. f_equal.
        rewrite L'. apply conv_spec_ext. intros y Hy. rewrite pre_fst in Hy. destruct (HG y) as (Y1 & Y2 & _); [right; exact Hy|]. unfold label. rewrite S3 by auto. reflexivity. }
      cbn [flat_map flatten app]. split.
      { intros y [<-|Hy]; [lia|]. specialize (R' y Hy). lia. }
      { split; [constructor; [|exact ND']; intros Hy; specialize (R' _ Hy); lia|]. split; [auto|]. intros y Hy. cbn [In]. destruct (Nat.eq_dec y new) as [->|Yn]; [left; reflexivity|right]. apply CV'. lia. }
    + (* item with children *)
      change (CIt (map root (c :: cs)) :: CNone :: CIt (map root ts) :: map to_cent r) with (map to_cent (Some (c :: cs) :: None :: Some ts :: r)).
      set (cs0 := c :: cs) in *. assert (En : nonnil cs0 = true) by reflexivity. clearbody cs0.
      assert (Ee : ents (Some cs0 :: None :: Some ts :: r) = cs0 ++ ts ++ ents r) by reflexivity.
      assert (Hin : forall y, In y (flat_map flatten (cs0 ++ ts ++ ents r)) -> In y (flat_map flatten (Node i cs0 :: ts ++ ents r))).
      { intros y Hy. rewrite flat_map_app in Hy. cbn [flat_map flatten]. right. exact Hy. }
      destruct (IH h3 (Some cs0 :: None :: Some ts :: r) new (cur :: rest) []) as (h' & Ts' & E' & X' & HO' & D' & P' & O' & B' & L' & R' & ND' & CA' & CV').
      { unfold cost in *. rewrite Ee. change (ents (Some (Node i cs0 :: ts) :: r)) with (Node i cs0 :: ts ++ ents r) in Hn. rewrite pre_cons in Hn.
        rewrite pre_app. cbn [length] in *. lia. }
      { rewrite Ee. apply Forall_app. split.
        - rewrite Forall_forall in *. intros T HTin. eapply ltree_frame; [|apply HTk, HTin]. intros y Hy.
          destruct (HG y) as (Y1 & Y2 & _); [apply Hin; rewrite flat_map_app; apply in_app_iff; left; apply in_flat_map; exists T; auto|]. rewrite S3 by auto. reflexivity.
        - rewrite Forall_forall in *. intros T HTin. eapply ltree_frame; [|apply HTt, HTin]. intros y Hy.
          destruct (HG y) as (Y1 & Y2 & _); [apply Hin; rewrite flat_map_app; apply in_app_iff; right; apply in_flat_map; exists T; auto|]. rewrite S3 by auto. reflexivity. }
      { rewrite Ee. intros y Hy. apply Hin in Hy. destruct (HG y Hy) as (Y1 & Y2 & Y3). split; [lia|]. split; [lia|]. unfold label in *. rewrite S3 by auto. exact Y3. }
      { lia. } { split; [exact I3|left; split; [reflexivity|exact LO3]]. } { intros y []. }
      rewrite Ee in *. exists h', [Node new Ts']. split; [exact E'|].
      rewrite pre_cons. cbn [length]. split; [rewrite pre_app in X'; lia|]. cbn [map root].
      assert (NC : hnode h' cur = hnode h3 cur) by (apply O'; lia).
      split. { eapply own_ext; [exact NC| |exact HO3]. intros y Hy. apply in_app_iff in Hy as [Hy|[<-|[]]].
        - destruct (Nat.eq_dec y cur) as [->|]; [rewrite NC; reflexivity|]. rewrite O'; [reflexivity|specialize (HL y Hy); lia|specialize (HL y Hy); lia].
        - injection D'; auto. }
      split; [rewrite NC; exact D3|]. split; [rewrite NC; exact P3|].
      split; [intros y Y1 Y2; rewrite O' by lia; apply O3; lia|].
      split. { constructor; [|constructor]. apply built_iff. split; [rewrite P'; exact PL3|]. split; [exact HO'|]. split; [|exact B'].
        destruct PL0 as (Q1 & Q2). split; [rewrite <- Q1; exact (f_equal snd D')|]. intros k Hk. apply Q2. rewrite <- Hk. symmetry. exact (f_equal (fun d => snd (fst d)) D'). }
      split.
      { cbn [map tmap]. rewrite (L3 h' D'). unfold conv_spec. rewrite pre_cons. rewrite En, <- pre_app. cbn [map fst snd cat]. do 2 f_equal.
        rewrite L'. apply conv_spec_ext. intros y Hy. rewrite pre_fst in Hy. apply Hin in Hy. destruct (HG y Hy) as (Y1 & Y2 & _). unfold label. rewrite S3 by auto. reflexivity. }
      cbn [flat_map flatten app]. rewrite app_nil_r. split.
      { intros y [<-|Hy]; [lia|]. specialize (R' y Hy). lia. }
      { split; [constructor; [|exact ND']; intros Hy; specialize (R' _ Hy); lia|]. split; [auto|]. intros y Hy. cbn [In]. destruct (Nat.eq_dec y new) as [->|Yn]; [left; reflexivity|right]. apply CV'. lia. }
  - destruct (IH h r cur rest l) as (h' & Ts' & E); auto; [unfold cost in *; change (ents (None :: r)) with (ents r) in Hn; cbn [length] in *; lia|]. exists h', Ts'. exact E.
Qed.

(** * Converting one item *)
(** [new_item] followed by the loop over the children of the root of [C] *)
Definition conv_tree (h : heap) (C : tree loc) (h' : heap) (t v : pyval) (fl : Z) (lk : option linkrec) (Ts' : list (tree loc)) : Prop :=
  hnext h < hnext h' /\
  (forall y, y < hnext h \/ hnext h' <= y -> hnode h' y = hnode h y) /\
  data (hnode h' (hnext h)) = (t, v, fl, lk, None) /\ nprt (hnode h' (hnext h)) = None /\
  own h' (hnext h) (map root Ts') /\ Forall (built h' (hnext h)) Ts' /\
  map (tmap (label (view h'))) Ts' = conv_spec h (kids C) /\
  (forall y, In y (flat_map flatten Ts') -> hnext h < y < hnext h') /\ NoDup (flat_map flatten Ts') /\ (caches_ok h -> caches_ok h') /\
  (forall y, hnext h < y < hnext h' -> In y (flat_map flatten Ts')).

Lemma flatten_fits (C : tree loc) n : (forall y, In y (flatten C) -> y < n) -> NoDup (flatten C) -> size C <= n.
Proof.
  intros H N. rewrite <- flatten_length. rewrite <- (seq_length n 0). apply NoDup_incl_length; [exact N|].
  intros y Hy. apply in_seq. specialize (H y Hy). lia.
Qed.

Lemma conv_start h C t v fl lk h1 : ltree (view h) C -> (forall y, In y (flatten C) -> y < hnext h) -> NoDup (flatten C) ->
  (forall y, In y (below_tree C) -> conv_good (label (view h) y) = true) ->
  hnext h1 = S (hnext h) -> (forall y, y <> hnext h -> hnode h1 y = hnode h y) -> data (hnode h1 (hnext h)) = (t, v, fl, lk, None) ->
  nprt (hnode h1 (hnext h)) = None -> nitems (hnode h1 (hnext h)) = [] -> leaf_ok (hnode h1 (hnext h)) -> (caches_ok h -> caches_ok h1) ->
  exists h' Ts', (if nonnil (nitems (hnode h (root C))) then conv_loop (conv_fuel h) [CIt (nitems (hnode h (root C)))] [hnext h] else ret tt) h1 = (h', Ok tt) /\
    conv_tree h C h' t v fl lk Ts'.
Proof.
  intros HT HL ND HG X1 O1 D1 P1 I1 LO CA. destruct C as [x cs]. apply ltree_iff in HT as (Ek & HTk). cbn in Ek. cbn [root]. rewrite <- Ek, nonnil_map.
  destruct cs as [|c cs].
  - exists h1, []. split; [reflexivity|]. split; [lia|]. split; [intros y Hy; apply O1; lia|]. split; [exact D1|]. split; [exact P1|]. split; [split; [exact I1|left; split; [reflexivity|exact LO]]|].
    split; [constructor|]. split; [reflexivity|]. split; [intros y []|]. split; [constructor|]. split; [auto|]. intros y Hy. lia.
  - cbn [nonnil]. set (cs0 := c :: cs) in *. clearbody cs0.
    assert (Ee : ents [Some cs0] = cs0) by (unfold ents; cbn; apply app_nil_r).
    destruct (conv_ok (conv_fuel h) h1 [Some cs0] (hnext h) [] []) as (h' & Ts' & E & X' & HO' & D' & P' & O' & B' & L' & R' & ND' & CA' & CV').
    + unfold cost. rewrite Ee, pre_length. pose proof (flatten_fits _ _ HL ND) as K.
      change (size (Node x cs0)) with (S (list_sum (map size cs0))) in K. cbn [length]. unfold conv_fuel. lia.
    + rewrite Ee. rewrite Forall_forall in *. intros T HT. eapply ltree_frame; [|apply HTk, HT]. intros y Hy. unfold view. rewrite O1; [reflexivity|].
      apply Nat.lt_neq, HL. right. apply in_flat_map. exists T. auto.
    + rewrite Ee. intros y Hy. assert (Y : y < hnext h) by (apply HL; right; exact Hy). split; [lia|]. split; [lia|]. unfold label, view in *. rewrite O1 by lia. apply HG. exact Hy.
    + lia.
    + split; [exact I1|left; split; [reflexivity|exact LO]].
    + intros y [].
    + rewrite Ee in *. exists h', Ts'. split; [exact E|]. split; [lia|]. split; [intros y Y; rewrite O' by lia; apply O1; lia|]. split; [congruence|]. split; [congruence|].
      split; [exact HO'|]. split; [exact B'|]. split.
      { rewrite L'. apply conv_spec_ext. intros y Hy. rewrite pre_fst in Hy. unfold label, view. rewrite O1; [reflexivity|]. apply Nat.lt_neq, HL. right. exact Hy. }
      split; [intros y Hy; specialize (R' y Hy); lia|]. split; [exact ND'|]. split; [auto|]. intros y Hy. apply CV'. lia.
Qed.

Lemma to_linked_ok h C : ltree (view h) C -> (forall y, In y (flatten C) -> y < hnext h) -> NoDup (flatten C) ->
  (forall y, In y (below_tree C) -> conv_good (label (view h) y) = true) -> is_linked h (root C) = false ->
  exists h' Ts', to_linked (root C) h = (h', Ok (hnext h)) /\
    conv_tree h C h' (ntag (hnode h (root C))) (nval (hnode h (root C))) (Z.land (Z.lor (nflags (hnode h (root C))) LINKED) FLAG_MASK) None Ts'.
Proof.
  intros HT HL ND HG NL. unfold to_linked. rewrite bind_gets, NL. set (n := hnode h (root C)).
  set (nd := fresh_node (ntag n) (nval n) (Z.land (Z.lor (nflags n) LINKED) FLAG_MASK) None).
  set (h1 := fst (halloc h nd)).
  assert (E1 : new_item (ntag n) (nval n) (Z.land (Z.lor (nflags n) LINKED) FLAG_MASK) None h = (h1, Ok (hnext h))) by reflexivity.
  rewrite (bind_ok _ _ _ _ _ E1).
  assert (N1 : hnode h1 (hnext h) = nd) by (unfold h1, halloc; cbn; rewrite Nat.eqb_refl; reflexivity).
  destruct (conv_start h C (ntag n) (nval n) (Z.land (Z.lor (nflags n) LINKED) FLAG_MASK) None h1 HT HL ND HG) as (h' & Ts' & E & Q).
  - reflexivity.
  - intros y Hy. unfold h1, halloc. cbn. destruct (Nat.eqb_spec y (hnext h)); [lia|reflexivity].
  - rewrite N1. reflexivity.
  - rewrite N1. reflexivity.
  - rewrite N1. reflexivity.
  - rewrite N1. left. reflexivity.
  - apply caches_alloc.
  - exists h', Ts'. split; [|exact Q]. rewrite (bind_ok _ _ _ _ _ E). reflexivity.
Qed.

Lemma to_local_ok h C b : ltree (view h) C -> (forall y, In y (flatten C) -> y < hnext h) -> NoDup (flatten C) ->
  (forall y, In y (below_tree C) -> conv_good (label (view h) y) = true) -> is_linked h (root C) = true ->
  exists h' Ts', to_local (root C) b h = (h', Ok (hnext h)) /\
    conv_tree h (if b then C else Node (root C) []) h' (ntag (hnode h (root C))) (nval (hnode h (root C)))
      (Z.land (Z.land (nflags (hnode h (root C))) (Z.lnot LINKED)) FLAG_MASK) (Some (cover_link (root C))) Ts'.
Proof.
  intros HT HL ND HG NL. unfold to_local. rewrite bind_gets, NL. cbn [negb]. set (n := hnode h (root C)). set (fl := Z.land (Z.land (nflags n) (Z.lnot LINKED)) FLAG_MASK).
  set (nd := fresh_node (ntag n) (nval n) fl None).
  set (h1 := fst (halloc h nd)).
  assert (E1 : new_item (ntag n) (nval n) fl None h = (h1, Ok (hnext h))) by reflexivity.
  rewrite (bind_ok _ _ _ _ _ E1), bind_upd. set (h2 := hmod h1 (hnext h) (set_link (Some (cover_link (root C))))).
  assert (N1 : hnode h2 (hnext h) = set_link (Some (cover_link (root C))) nd) by (unfold h2; hnodes; unfold h1, halloc; cbn; rewrite Nat.eqb_refl; reflexivity).
  assert (O1 : forall y, y <> hnext h -> hnode h2 y = hnode h y).
  { intros y Hy. unfold h2. rewrite hmod_other by lia. unfold h1, halloc. cbn. destruct (Nat.eqb_spec y (hnext h)); [lia|reflexivity]. }
  assert (CA : caches_ok h -> caches_ok h2).
  { intros CA. pose proof (caches_alloc h (ntag n) (nval n) fl None CA) as C1. intros y pl Hy. apply (C1 y pl). unfold h2, h1, hmod in *. cbn in *. destruct (Nat.eqb y (hnext h)); exact Hy. }
  destruct b.
  - destruct (conv_start h C (ntag n) (nval n) fl (Some (cover_link (root C))) h2 HT HL ND HG) as (h' & Ts' & E & Q); try (rewrite N1; reflexivity); auto; [rewrite N1; left; reflexivity|].
    exists h', Ts'. split; [|exact Q]. rewrite andb_true_r. rewrite (bind_ok _ _ _ _ _ E). reflexivity.
  - rewrite andb_false_r. exists h2, []. split; [reflexivity|]. split; [cbn; lia|]. split; [intros y Hy; apply O1; cbn in Hy; lia|]. split; [rewrite N1; reflexivity|]. split; [rewrite N1; reflexivity|].
    split; [split; [rewrite N1; reflexivity|left; split; [reflexivity|rewrite N1; left; reflexivity]]|]. split; [constructor|]. split; [reflexivity|]. split; [intros y []|]. split; [constructor|]. split; [exact CA|]. intros y Hy. cbn in Hy. lia.
Qed.
