(** C93, C94: enumeration models and the printed form of value models. *)
From Coq Require Import Ascii QArith.
From Verif Require Import Base MathSet MathSpec MathFacts DataModel DataFacts EnumModel PropsI.
Import ListNotations.
Local Open Scope string_scope.
Local Open Scope list_scope.

(** * C93 *)
Definition single (v : dval) : Prop := v <> DNoValue /\ forall l, v <> DSeq l.
(** the entries of a dictionary have different keys *)
Definition is_dict (d : pydict) : Prop := ForallOrdPairs (fun a b => key_eq (fst a) (fst b) = false) d.
Definition int_key (k : dval) : Prop := exists n, k = DNum n /\ integral n = Ok true.

Lemma key_eq_sym a b : key_eq a b = key_eq b a.
Proof.
  destruct a, b; cbn; auto using String.eqb_sym, Nat.eqb_sym. unfold num_eq. apply andb_comm.
Qed.
Lemma key_eq_trans a b c : key_eq a b = true -> key_eq b c = true -> key_eq a c = true.
Proof.
  destruct a, b; cbn; try discriminate; destruct c; cbn; try discriminate; auto.
  - unfold num_eq. rewrite !andb_true_iff, !num_le_iff. intros [A B] [C D]. split; eapply nle_trans; eauto.
  - rewrite !String.eqb_eq. congruence.
  - rewrite !Nat.eqb_eq. congruence.
Qed.
Lemma key_eq_left a b x : key_eq a b = true -> key_eq a x = key_eq b x.
Proof.
  intro E. apply eq_true_iff_eq. split; intro H; eapply key_eq_trans; eauto. now rewrite key_eq_sym.
Qed.
Lemma dget_dset d k v x : dget (dset d k v) x = if key_eq k x then Some v else dget d x.
Proof.
  induction d as [|[k' v'] d IH]; cbn; [reflexivity|].
  destruct (key_eq k' k) eqn:E; cbn.
  - rewrite (key_eq_left _ _ x E). destruct (key_eq k x); auto.
  - rewrite IH. destruct (key_eq k' x) eqn:E1, (key_eq k x) eqn:E2; auto.
    rewrite key_eq_sym in E2. pose proof (key_eq_trans _ _ _ E1 E2). congruence.
Qed.
(** the last entry with a given name *)
Fixpoint last_key (d : pydict) (x : dval) (acc : option dval) : option dval :=
  match d with [] => acc | (k, n) :: d => last_key d x (if key_eq n x then Some k else acc) end.
Lemma enum_names_ok l : forall cd cd' x, enum_names l cd = Ok cd' -> dget cd' x = last_key l x (dget cd x).
Proof.
  induction l as [|[k n] l IH]; intros cd cd' x; cbn.
  - intro H; injection H as <-; reflexivity.
  - destruct n; try discriminate; intro H; rewrite (IH _ _ _ H), dget_dset; reflexivity.
Qed.
Fixpoint last_same (ks : list dval) (x : dval) (acc : option dval) : option dval :=
  match ks with [] => acc | k :: ks => last_same ks x (if key_eq k x then Some k else acc) end.
Lemma enum_keys_ok parse ks : forall cd cd' x, enum_keys parse ks cd = Ok cd' ->
  dget cd' x = last_same ks x (dget cd x) /\ forall k, In k ks -> enum_key parse k = Ok true.
Proof.
  induction ks as [|k ks IH]; intros cd cd' x; cbn.
  - intro H; injection H as <-. split; [reflexivity|intros k []].
  - destruct (enum_key parse k) as [[|]|] eqn:E; cbn; try discriminate. intro H. destruct (IH _ _ x H) as [A B].
    rewrite A, dget_dset. split; [reflexivity|]. intros k' [<-|I]; auto.
Qed.
Lemma last_key_spec d x : forall acc,
  (exists pre k n post, d = pre ++ (k, n) :: post /\ key_eq n x = true /\ (forall k' n', In (k', n') post -> key_eq n' x = false) /\ last_key d x acc = Some k) \/
  ((forall k n, In (k, n) d -> key_eq n x = false) /\ last_key d x acc = acc).
Proof.
  induction d as [|[k n] d IH]; intro acc; cbn; [right; split; [intros k n []|reflexivity]|].
  destruct (IH (if key_eq n x then Some k else acc)) as [(pre & k1 & n1 & post & A & B & C & D)|[A B]].
  - left. exists ((k, n) :: pre), k1, n1, post. split; [now rewrite A|auto].
  - destruct (key_eq n x) eqn:E.
    + left. exists [], k, n, d. auto.
    + right. split; auto. intros k' n' [I|I]; [injection I as <- <-; auto|eauto].
Qed.
Lemma last_same_spec ks x : forall acc,
  (exists pre k post, ks = pre ++ k :: post /\ key_eq k x = true /\ (forall k', In k' post -> key_eq k' x = false) /\ last_same ks x acc = Some k) \/
  ((forall k, In k ks -> key_eq k x = false) /\ last_same ks x acc = acc).
Proof.
  induction ks as [|k ks IH]; intro acc; cbn; [right; split; [intros k []|reflexivity]|].
  destruct (IH (if key_eq k x then Some k else acc)) as [(pre & k1 & post & A & B & C & D)|[A B]].
  - left. exists (k :: pre), k1, post. split; [now rewrite A|auto].
  - destruct (key_eq k x) eqn:E.
    + left. exists [], k, ks. auto.
    + right. split; auto. intros k' [<-|I]; auto.
Qed.

(** what an enumeration answers for one object: the key itself, else the key of the last entry
    with that name *)
Inductive selects (d : pydict) (v : dval) : dval -> Prop :=
| sel_key k n : In (k, n) d -> key_eq k v = true -> selects d v k
| sel_name pre k n post : (forall k' n', In (k', n') d -> key_eq k' v = false) ->
    d = pre ++ (k, n) :: post -> key_eq n v = true -> (forall k' n', In (k', n') post -> key_eq n' v = false) -> selects d v k.

Lemma in_add d k n v : single v -> In (k, n) (enum_add d) -> key_eq k v = true \/ key_eq n v = true -> In (k, n) d.
Proof.
  unfold enum_add. intros [N _]. destruct (dget d DNoValue); auto. intros I E. apply in_app_or in I. destruct I as [I|[I|[]]]; auto.
  injection I as <- <-. destruct v; cbn in E; destruct E; try discriminate; congruence.
Qed.
Lemma add_in d e : In e d -> In e (enum_add d).
Proof. unfold enum_add. destruct (dget d DNoValue); auto. intro. apply in_or_app. auto. Qed.
Lemma add_eq d : enum_add d = d \/ enum_add d = d ++ [(DNoValue, DNoValue)].
Proof. unfold enum_add. destruct (dget d DNoValue); auto. Qed.
Lemma last_key_app d e x acc : last_key (d ++ [e]) x acc = if key_eq (snd e) x then Some (fst e) else last_key d x acc.
Proof. revert acc. induction d as [|[k n] d IH]; intro acc; cbn; [destruct e; reflexivity|apply IH]. Qed.
Lemma last_same_app d e x acc : last_same (d ++ [e]) x acc = if key_eq e x then Some e else last_same d x acc.
Proof. revert acc. induction d as [|k d IH]; intro acc; cbn; [reflexivity|apply IH]. Qed.
Lemma not_noval v : single v -> key_eq DNoValue v = false.
Proof. intros [N _]. destruct v; auto. congruence. Qed.

Lemma enum_get parse d v0 d' m st x : enum_init parse d v0 = (d', Ok (m, st)) -> single x ->
  vm_shape m = None /\ vm_contains m = None /\
  vm_cast m x = match last_same (map fst d) x (last_key d x None) with Some k => Ok k | None => Err ValueError end.
Proof.
  unfold enum_init. intros H S. injection H as _ H.
  destruct (enum_names (enum_add d) []) as [cd|] eqn:E1; cbn in H; try discriminate.
  destruct (enum_keys parse (map fst (enum_add d)) cd) as [cd'|] eqn:E2; cbn in H; try discriminate.
  destruct (vm_init _ v0); cbn in H; try discriminate. injection H as <- _. cbn. split; auto. split; auto.
  assert (G : dget cd' x = last_same (map fst d) x (last_key d x None)).
  { rewrite (proj1 (enum_keys_ok _ _ _ _ x E2)), (enum_names_ok _ _ _ x E1).
    destruct (add_eq d) as [->| ->]; [reflexivity|]. rewrite map_app. cbn [map fst]. rewrite last_same_app, last_key_app. cbn [fst snd].
    rewrite (not_noval _ S). reflexivity. }
  rewrite <- G. destruct S as [S1 S2]. destruct x; cbn; auto; [congruence|]. destruct (S2 l). reflexivity.
Qed.
Lemma enum_cast_spec parse d v0 d' m st x w : is_dict d -> enum_init parse d v0 = (d', Ok (m, st)) -> single x ->
  (vm_cast m x = Ok w <-> selects d x w).
Proof.
  intros D H S. destruct (enum_get _ _ _ _ _ _ _ H S) as (_ & _ & G). rewrite G. clear G H.
  destruct (last_same_spec (map fst d) x (last_key d x None)) as [(pre & k & post & A & B & C & ->)|[A ->]].
  - assert (I : exists n, In (k, n) d).
    { assert (I : In k (map fst d)) by (rewrite A; apply in_or_app; right; left; auto). apply in_map_iff in I.
      destruct I as ([k1 n] & <- & I). eauto. }
    destruct I as [n I]. split.
    + intro E; injection E as <-. econstructor; eauto.
    + intros [k1 n1 I1 E1|pre' k1 n1 post' F _ _ _]; [|rewrite (F _ _ I) in B; discriminate].
      assert (K : k1 = k); [|now subst].
      destruct (ForallOrdPairs_In D _ _ I I1) as [E|[E|E]]; [congruence| |]; cbn in E; exfalso.
      * rewrite key_eq_sym in E1. pose proof (key_eq_trans _ _ _ B E1). congruence.
      * rewrite key_eq_sym in B. pose proof (key_eq_trans _ _ _ E1 B). congruence.
  - assert (F : forall k n, In (k, n) d -> key_eq k x = false).
    { intros k n I. apply A. apply in_map_iff. exists (k, n). auto. }
    destruct (last_key_spec d x None) as [(pre & k & n & post & B & C & E & ->)|[B ->]].
    + split.
      * intro Q; injection Q as <-. eapply sel_name; eauto.
      * intros [k1 n1 I1 E1|pre' k1 n1 post' _ B' C' E']; [rewrite (F _ _ I1) in E1; discriminate|].
        f_equal. rewrite B in B'. clear - B' C E C' E'.
        revert pre' B'. induction pre as [|e pre IH]; intros [|e' pre'] B'; cbn in B'; injection B' as Q1 Q2.
        -- congruence.
        -- rewrite (E k1 n1) in C'; [discriminate|]. rewrite Q2. apply in_or_app. right. left. reflexivity.
        -- rewrite (E' k n) in C; [discriminate|]. rewrite <- Q2. apply in_or_app. right. left. reflexivity.
        -- eapply IH; eauto.
    + split; [discriminate|]. intros [k1 n1 I1 E1|pre' k1 n1 post' _ B' C' E']; exfalso.
      * rewrite (F _ _ I1) in E1. discriminate.
      * rewrite (B k1 n1) in C'; [discriminate|]. rewrite B'. apply in_or_app. right. left. reflexivity.
Qed.
Lemma cast_single m v w : single v -> vm_contains m = None -> (cast_ok m v w <-> vm_cast m v = Ok w).
Proof.
  intros [S1 S2] C. split.
  - intro H. destruct H; auto. destruct (S2 l). reflexivity.
  - intro H. constructor; auto. intros c E. congruence.
Qed.
Lemma enum_accept parse d v0 d' m st0 v w : is_dict d -> enum_init parse d v0 = (d', Ok (m, st0)) -> single v ->
  (accept m v = Ok w <-> selects d v w).
Proof.
  intros D H S. rewrite accept_ok. destruct (enum_get _ _ _ _ _ _ _ H S) as (A & B & _).
  rewrite (cast_single m v w S B), (enum_cast_spec _ _ _ _ _ _ _ w D H S). unfold fits_model. rewrite A.
  split; [intros []; auto|intro; split; auto; intros; discriminate].
Qed.
(** Setting one object: it is accepted exactly if it is a key or a name of the dictionary; what
    is stored is the key. *)
Theorem C93_stores : forall parse d v0 d' m st0 st v w, is_dict d -> enum_init parse d v0 = (d', Ok (m, st0)) -> single v ->
  (vm_set m st v = (VS w None, Ok (vs_value st)) <-> selects d v w).
Proof.
  intros parse d v0 d' m st0 st v w D H S. rewrite <- (enum_accept _ _ _ _ _ _ v w D H S). destruct S as [S _].
  unfold vm_set. destruct v; try congruence; destruct (accept m _) as [w'|e]; (split; intro E; [|]); congruence.
Qed.
Lemma selects_some d v : (exists w, selects d v w) <-> exists k n, In (k, n) d /\ (key_eq k v = true \/ key_eq n v = true).
Proof.
  split.
  - intros (w & [k n I E|pre k n post _ -> E _]); [eauto|]. exists k, n. split; auto. apply in_or_app. right. left. reflexivity.
  - intros (k & n & I & E).
    destruct (existsb (fun e => key_eq (fst e) v) d) eqn:X.
    + apply existsb_exists in X. destruct X as ([k1 n1] & I1 & E1). exists k1. econstructor; eauto.
    + assert (F : forall k' n', In (k', n') d -> key_eq k' v = false).
      { intros k' n' I'. destruct (key_eq k' v) eqn:Q; auto. rewrite <- X. symmetry. apply existsb_exists. exists (k', n'). auto. }
      destruct (last_key_spec d v None) as [(pre & k1 & n1 & post & A & B & C & _)|[A _]].
      * exists k1. eapply sel_name; eauto.
      * rewrite (F _ _ I), (A _ _ I) in E. destruct E; discriminate.
Qed.
(** accepted exactly if it is a key or a name *)
Theorem C93_accepts : forall parse d v0 d' m st0 st v, is_dict d -> enum_init parse d v0 = (d', Ok (m, st0)) -> single v ->
  (snd (vm_in m st v) = true <-> exists k n, In (k, n) d /\ (key_eq k v = true \/ key_eq n v = true)) /\
  is_ok (snd (vm_set m st v)) = snd (vm_in m st v).
Proof.
  intros parse d v0 d' m st0 st v D H S. pose proof (fun w => enum_accept _ _ _ _ _ _ v w D H S) as A. rewrite <- selects_some.
  assert (Q : (exists w, selects d v w) <-> is_ok (accept m v) = true).
  { destruct (accept m v) as [w|e]; cbn; split; auto; try discriminate.
    - intros _. exists w. apply A. reflexivity.
    - intros (w & W). apply A in W. discriminate. }
  rewrite Q. destruct S as [S _]. unfold vm_in, vm_set. destruct v; try congruence; destruct (accept m _); cbn; split; split; auto.
Qed.

(** What the model holds, after any history: only keys of the dictionary (or NoValue), also inside
    lists. *)
Fixpoint leaves (v : dval) : list dval := match v with DSeq l => flat_map leaves l | _ => [v] end.
Lemma enum_int_keys parse d v0 d' m st : enum_init parse d v0 = (d', Ok (m, st)) ->
  forall k n, In (k, n) d -> k = DNoValue \/ int_key k.
Proof.
  unfold enum_init. intros H k n I. injection H as _ H.
  destruct (enum_names (enum_add d) []) as [cd|]; cbn in H; try discriminate.
  destruct (enum_keys parse (map fst (enum_add d)) cd) as [cd'|] eqn:E; cbn in H; try discriminate.
  assert (K : enum_key parse k = Ok true).
  { apply (proj2 (enum_keys_ok _ _ _ _ DNoValue E)). apply in_map_iff. exists (k, n). split; auto. now apply add_in. }
  destruct k as [|x|s|l|x]; cbn in K; auto; try discriminate; [right; exists x; auto|destruct (parse s); discriminate].
Qed.
Lemma cast_novalue parse d v0 d' m st : enum_init parse d v0 = (d', Ok (m, st)) -> vm_cast m DNoValue = Ok DNoValue.
Proof.
  unfold enum_init. intro H. injection H as _ H.
  destruct (enum_names (enum_add d) []) as [cd|]; cbn in H; try discriminate.
  destruct (enum_keys _ _ cd) as [cd'|]; cbn in H; try discriminate.
  destruct (vm_init _ v0); cbn in H; try discriminate. injection H as <- _. reflexivity.
Qed.
Lemma selects_in d v w : selects d v w -> exists n, In (w, n) d.
Proof. intros [k n I _|pre k n post _ -> _ _]; exists n; auto. apply in_or_app. right. left. reflexivity. Qed.
Lemma cast_leaves parse d v0 d' m st0 v w : is_dict d -> enum_init parse d v0 = (d', Ok (m, st0)) -> cast_ok m v w ->
  forall x, In x (leaves w) -> x = DNoValue \/ exists n, In (x, n) d.
Proof.
  intros D H. revert w. induction v as [|n|s|l IH|n] using dval_ind'; intros w C; inversion C as [v' w' NS CS CT|l1 l2 F]; subst;
    try (exfalso; eapply NS; reflexivity).
  1: { rewrite (cast_novalue _ _ _ _ _ _ H) in CS. injection CS as <-. cbn. intros x [<-|[]]. auto. }
  3: { cbn. clear C. intros x I. apply in_flat_map in I. destruct I as (y & Y & I). revert Y.
       induction F as [|a b l l2 Fab F IHF]; cbn; [tauto|]. intros [->|Y].
       - eapply (IH a); eauto. left. reflexivity.
       - apply IHF; auto. intros v Iv. apply IH. right. exact Iv. }
  all: assert (S : single _) by (split; [|exact NS]; discriminate);
    apply (enum_cast_spec _ _ _ _ _ _ _ _ D H S) in CS; destruct (selects_in _ _ _ CS) as [nm I];
    destruct (enum_int_keys _ _ _ _ _ _ H _ _ I) as [->|(q & -> & _)]; cbn; intros x [<-|[]]; eauto.
Qed.
Theorem C93_history : forall parse d v0 d' m st0 ops, is_dict d -> enum_init parse d v0 = (d', Ok (m, st0)) ->
  forall x, In x (leaves (vs_value (vrun m st0 ops))) -> x = DNoValue \/ exists n, In (x, n) d /\ int_key x.
Proof.
  intros parse d v0 d' m st0 ops D H x I.
  assert (V : valid m (vs_value (vrun m st0 ops))).
  { assert (V : vm_init m v0 = Ok st0).
    { unfold enum_init in H. injection H as _ H.
      destruct (enum_names (enum_add d) []) as [cd|]; cbn in H; try discriminate.
      destruct (enum_keys _ _ cd) as [cd'|]; cbn in H; try discriminate.
      destruct (vm_init _ v0) eqn:E; cbn in H; try discriminate. injection H as <- <-. exact E. }
    eapply C54_history; eauto. }
  destruct V as [V|(_ & v & C)].
  - rewrite V in I. cbn in I. destruct I as [<-|[]]. auto.
  - destruct (cast_leaves _ _ _ _ _ _ _ _ D H C x I) as [->|(n & N)]; auto.
    destruct (enum_int_keys _ _ _ _ _ _ H _ _ N); eauto.
Qed.

(** The constructor: works for every dictionary with whole numbers as keys and hashable names and
    raises for every other key. *)
Lemma enum_names_total l : (forall k n, In (k, n) l -> forall x, n <> DSeq x) -> forall cd, exists cd', enum_names l cd = Ok cd'.
Proof.
  induction l as [|[k n] l IH]; intros A cd; cbn; [eauto|]. destruct n; try (apply IH; intros; eapply A; right; eauto).
  destruct (A k (DSeq l0) (or_introl eq_refl) l0 eq_refl).
Qed.
Lemma enum_keys_total parse ks : (forall k, In k ks -> enum_key parse k = Ok true) -> forall cd, exists cd', enum_keys parse ks cd = Ok cd'.
Proof.
  induction ks as [|k ks IH]; intros A cd; cbn; [eauto|]. rewrite (A k (or_introl eq_refl)). cbn. apply IH. intros. apply A. right. auto.
Qed.
Theorem C93_constructor : forall parse d, (forall k n, In (k, n) d -> int_key k /\ forall l, n <> DSeq l) ->
  exists m, snd (enum_init parse d DNoValue) = Ok (m, VS DNoValue None).
Proof.
  intros parse d A. unfold enum_init. cbn [snd].
  destruct (enum_names_total (enum_add d)) with (cd := @nil (dval * dval)) as [cd ->].
  { intros k n I x E. destruct (add_eq d) as [Q|Q]; rewrite Q in I; [destruct (A _ _ I) as [_ B]; now apply (B x)|].
    apply in_app_or in I. destruct I as [I|[I|[]]]; [destruct (A _ _ I) as [_ B]; now apply (B x)|]. injection I as <- <-. discriminate. }
  cbn. destruct (enum_keys_total parse (map fst (enum_add d))) with (cd := cd) as [cd' ->]; [|cbn; eauto].
  intros k I. apply in_map_iff in I. destruct I as ([k' n] & <- & I). cbn.
  assert (B : k' = DNoValue \/ int_key k').
  { destruct (add_eq d) as [Q|Q]; rewrite Q in I; [right; now apply (A _ _ I)|].
    apply in_app_or in I. destruct I as [I|[I|[]]]; [right; now apply (A _ _ I)|]. injection I as <- <-. auto. }
  destruct B as [->|(x & -> & E)]; auto.
Qed.
Theorem C93_constructor_keys : forall parse d v m, snd (enum_init parse d v) = Ok m -> forall k n, In (k, n) d -> k = DNoValue \/ int_key k.
Proof. intros parse d v [m st] H k n I. eapply enum_int_keys; eauto. rewrite <- H. apply surjective_pairing. Qed.

(** ** round trip through the printed name *)
(** different whole number keys, different texts as names *)
Record named_enum (d : pydict) : Prop := {
  ne_dict : is_dict d;
  ne_entry : forall k n, In (k, n) d -> int_key k /\ exists s, n = DStr s;
  ne_names : NoDup (map snd d) }.
Lemma named_init parse d : named_enum d -> exists m, enum_init parse d DNoValue = (d ++ [(DNoValue, DNoValue)], Ok (m, VS DNoValue None)).
Proof.
  intros [_ E _]. destruct (C93_constructor parse d) as [m M].
  { intros k n I. destruct (E _ _ I) as [A [s ->]]. split; auto. discriminate. }
  exists m. rewrite (surjective_pairing (enum_init _ _ _)), M. f_equal. cbn. unfold enum_add.
  replace (dget d DNoValue) with (@None dval); auto. symmetry. clear M. induction d as [|[k n] d IH]; cbn; auto.
  destruct (E k n (or_introl eq_refl)) as [(x & -> & _) _]. cbn. apply IH. intros. apply E. right. auto.
Qed.
Lemma dget_entry d k n e : is_dict d -> In (k, n) d -> key_eq k k = true -> dget (d ++ e) k = Some n.
Proof.
  intros D I R. induction d as [|[k' n'] d IH]; cbn in *; [tauto|]. inversion D as [|a l A B]; subst.
  destruct I as [I|I]; [injection I as <- <-; now rewrite R|].
  rewrite Forall_forall in A. specialize (A _ I). cbn in A. rewrite A. auto.
Qed.
Lemma int_key_refl k : int_key k -> key_eq k k = true.
Proof. intros (n & -> & E). cbn. destruct n; try discriminate; apply num_eq_refl; discriminate. Qed.
Theorem C93_shows_name : forall parse d, named_enum d ->
  exists m, let d' := d ++ [(DNoValue, DNoValue)] in enum_init parse d DNoValue = (d', Ok (m, VS DNoValue None)) /\
  forall k s st, In (k, DStr s) d ->
    (* the name or the key (also as an equal float) selects the entry, the name is shown *)
    vm_set m st (DStr s) = (VS k None, Ok (vs_value st)) /\
    (forall v, key_eq k v = true -> vm_set m st v = (VS k None, Ok (vs_value st))) /\
    enum_str d' (VS k None) = Ok s.
Proof.
  intros parse d N. destruct (named_init parse d N) as [m M]. exists m. split; auto. intros k s st I.
  destruct N as [D E NN]. destruct (E _ _ I) as [K _].
  assert (ST : single (DStr s)) by (split; discriminate).
  split; [|split].
  - apply (C93_stores _ _ _ _ _ _ _ _ _ D M ST).
    apply in_split in I. destruct I as (pre & post & Q). subst d.
    eapply sel_name with (pre := pre) (post := post); eauto.
    + intros k' n' I'. destruct (E _ _ I') as [(x & -> & _) _]. reflexivity.
    + apply String.eqb_refl.
    + intros k' n' I'. rewrite map_app in NN. cbn in NN. apply NoDup_remove_2 in NN.
      assert (I2 : In (k', n') (pre ++ (k, DStr s) :: post)) by (apply in_or_app; right; right; auto).
      destruct (E _ _ I2) as [_ [s' ->]]. cbn. destruct (String.eqb_spec s' s) as [->|]; auto.
      exfalso. apply NN. apply in_or_app. right. apply in_map_iff. exists (k', DStr s). auto.
  - intros v V. apply (C93_stores _ _ _ _ _ _ _ _ _ D M); [|econstructor; eauto].
    destruct K as (x & -> & _). split; [|intros l]; intros ->; discriminate.
  - unfold enum_str, vm_str. destruct K as (x & -> & XI). cbn [vs_value item_str]. unfold enum_fmt.
    rewrite (dget_entry _ _ _ _ D I); auto. apply int_key_refl. exists x. auto.
Qed.
(** two entries are never shown alike *)
Theorem C93_text_identifies : forall d k1 k2 s, named_enum d -> In (k1, DStr s) d -> In (k2, DStr s) d -> k1 = k2.
Proof.
  intros d k1 k2 s [_ _ N] A B. induction d as [|[k n] d IH]; cbn in *; [tauto|]. inversion N; subst.
  destruct A as [A|A], B as [B|B]; try congruence; auto; [injection A as -> ->|injection B as -> ->]; exfalso;
    match goal with H : ~ In _ _ |- _ => apply H; apply in_map_iff; eexists (_, _); split; [|eassumption]; auto end.
Qed.

(** ** where the claim fails *)
Definition colors : pydict := [(DNum (NI 1), DStr "red"); (DNum (NI 2), DStr "green")].
Example colors_named : named_enum colors.
Proof.
  split.
  - repeat constructor.
  - intros k n [I|[I|[]]]; injection I as <- <-; (split; [eexists; split; reflexivity|eauto]).
  - repeat constructor; cbn; intuition discriminate.
Qed.
(** the caller's dictionary gets an additional entry *)
Theorem C93_dict_refuted : fst (enum_init (fun _ => None) colors DNoValue) = colors ++ [(DNoValue, DNoValue)] /\
  (forall parse d v, dget d DNoValue = None -> fst (enum_init parse d v) <> d).
Proof.
  split; [reflexivity|]. intros parse d v E. unfold enum_init, enum_add. rewrite E. cbn. intro H.
  apply (f_equal (@length _)) in H. rewrite app_length in H. cbn in H. lia.
Qed.
(** equal names: the last entry; a number used as a name that is also a key: the key, shown with
    another name than the one entered *)
Theorem C93_names_refuted :
  (exists m, let d := [(DNum (NI 1), DStr "a"); (DNum (NI 2), DStr "a")] in snd (enum_init (fun _ => None) d DNoValue) = Ok m /\
     vs_value (fst (vm_set (fst m) (snd m) (DStr "a"))) = DNum (NI 2)) /\
  (exists m, let d := [(DNum (NI 1), DNum (NI 2)); (DNum (NI 2), DStr "b")] in snd (enum_init (fun _ => None) d DNoValue) = Ok m /\
     vs_value (fst (vm_set (fst m) (snd m) (DNum (NI 2)))) = DNum (NI 2)).
Proof. split; eexists; (split; [reflexivity|vm_compute; reflexivity]). Qed.
(** a text as a key raises ValueError instead of TypeError; 1.0 is taken as an integer *)
Theorem C93_key_errors_refuted :
  snd (enum_init (fun _ => None) [(DStr "x", DStr "a")] DNoValue) = Err ValueError /\
  snd (enum_init (fun _ => Some 1%Z) [(DStr "1", DStr "a")] DNoValue) = Err TypeError /\
  is_ok (snd (enum_init (fun _ => None) [(DNum (NF (1 # 1)), DStr "a")] DNoValue)) = true.
Proof. repeat split; reflexivity. Qed.
(** NoValue inside a list is accepted, but can not be shown; a later change of the dictionary
    changes the text but not what is accepted *)
Theorem C93_show_refuted : exists m, snd (enum_init (fun _ => None) colors DNoValue) = Ok m /\
  (let st := fst (vm_set (fst m) (snd m) (DSeq [DStr "red"; DNoValue])) in
   vs_value st = DSeq [DNum (NI 1); DNoValue] /\ enum_str (enum_add colors) st = Err TypeError) /\
  (let st := fst (vm_set (fst m) (snd m) (DStr "red")) in
   vs_value st = DNum (NI 1) /\ enum_str (dset (enum_add colors) (DNum (NI 1)) (DStr "blue")) st = Ok "blue" /\
   snd (vm_in (fst m) st (DStr "blue")) = false).
Proof. eexists. split; [reflexivity|]. vm_compute. auto. Qed.
(** several keys at once, shown as a list *)
Example colors_list : exists m, snd (enum_init (fun _ => None) colors DNoValue) = Ok m /\
  enum_str (enum_add colors) (fst (vm_set (fst m) (snd m) (DSeq [DStr "green"; DNum (NI 1)]))) = Ok "[green, red]".
Proof. eexists. split; [reflexivity|]. vm_compute. reflexivity. Qed.

(** * C94 *)
(** the text of a value: "NoValue", the formatted object, or the texts of the elements in
    brackets *)
Fixpoint join (l : list string) : string :=
  match l with [] => "" | [s] => s | s :: r => (s ++ ", " ++ join r)%string end.
Inductive shows (fmt : dval -> res string) : dval -> string -> Prop :=
| sh_leaf v s : (forall l, v <> DSeq l) -> fmt v = Ok s -> shows fmt v s
| sh_list l ts : l <> [] -> Forall2 (shows fmt) l ts -> shows fmt (DSeq l) ("[" ++ join ts ++ "]").
Inductive no_empty : dval -> Prop :=
| ne_leaf v : (forall l, v <> DSeq l) -> no_empty v
| ne_list l : l <> [] -> Forall no_empty l -> no_empty (DSeq l).
Definition items_str (fmt : dval -> res string) : list dval -> res string :=
  fix go (l : list dval) : res string :=
    match l with
    | [] => Ok ""%string
    | x :: r => rbind (item_str fmt x) (fun s => rbind (go r) (fun t => Ok ((s ++ ", ") ++ t)%string))
    end.
Lemma item_str_seq fmt l : item_str fmt (DSeq l) = rbind (items_str fmt l) (fun s => Ok (drop_last2 ("[" ++ s) ++ "]")%string).
Proof. reflexivity. Qed.
Lemma item_str_leaf fmt v : (forall l, v <> DSeq l) -> item_str fmt v = fmt v.
Proof. destruct v; auto. intro N. destruct (N l). reflexivity. Qed.
Lemma app_assoc_s a b c : ((a ++ b) ++ c = a ++ (b ++ c))%string.
Proof. induction a; cbn; congruence. Qed.
Lemma drop_last2_app s a b : drop_last2 (s ++ String a (String b "")) = s.
Proof. induction s as [|c s IH]; [reflexivity|]. cbn [append drop_last2]. rewrite IH. destruct s as [|d [|]]; reflexivity. Qed.
Fixpoint ended (l : list string) : string := match l with [] => "" | s :: r => ((s ++ ", ") ++ ended r)%string end.
Lemma ended_join l : l <> [] -> ended l = (join l ++ ", ")%string.
Proof.
  induction l as [|s l IH]; [congruence|]. intros _. destruct l as [|t l]; [cbn; now rewrite app_assoc_s|].
  change (ended (s :: t :: l)) with ((s ++ ", ") ++ ended (t :: l))%string.
  change (join (s :: t :: l)) with (s ++ ", " ++ join (t :: l))%string.
  rewrite IH by discriminate. now rewrite !app_assoc_s.
Qed.
Lemma drop_join l : l <> [] -> (drop_last2 ("[" ++ ended l) ++ "]" = "[" ++ join l ++ "]")%string.
Proof.
  intro N. rewrite ended_join by exact N.
  replace ("[" ++ join l ++ ", ")%string with (("[" ++ join l) ++ ", ")%string by apply app_assoc_s.
  rewrite drop_last2_app. apply app_assoc_s.
Qed.
(** The text of a model: exactly the text described, if no list inside is empty. *)
Lemma item_str_shows fmt v : no_empty v -> forall s, item_str fmt v = Ok s <-> shows fmt v s.
Proof.
  induction v as [|n|s|l IH|n] using dval_ind'; intros NE;
    try (intro t; rewrite item_str_leaf by discriminate; split; [intro E; constructor; [discriminate|auto]|intro H; inversion H; auto]).
  inversion NE as [v A|l' NN NA]; subst; [destruct (A l); reflexivity|]. clear NE.
  assert (G : forall t, items_str fmt l = Ok t <-> exists ts, Forall2 (shows fmt) l ts /\ t = ended ts).
  { clear NN. induction l as [|x l IHl]; intro t.
    - cbn. split; [intro E; injection E as <-; exists []; auto|intros (ts & F & ->); inversion F; auto].
    - inversion NA; subst. cbn [items_str]. fold (items_str fmt). split.
      + destruct (item_str fmt x) as [a|] eqn:E1; cbn; [|discriminate]. destruct (items_str fmt l) as [b|] eqn:E2; cbn; [|discriminate].
        intro Q; injection Q as <-. apply (IH x (or_introl eq_refl) H1) in E1.
        destruct (proj1 (IHl (fun v I => IH v (or_intror I)) H2 b) eq_refl) as (ts & F & ->). exists (a :: ts). split; auto.
      + intros (ts & F & ->). inversion F as [|x' a l' ts' F1 F2]; subst. apply (IH x (or_introl eq_refl) H1) in F1. rewrite F1. cbn.
        rewrite (proj2 (IHl (fun v I => IH v (or_intror I)) H2 (ended ts'))); [reflexivity|eauto]. }
  intro t. rewrite item_str_seq. split.
  - destruct (items_str fmt l) as [b|] eqn:E; cbn [rbind]; [|discriminate]. intro Q.
    destruct (proj1 (G b) eq_refl) as (ts & F & ->).
    assert (TN : ts <> []) by (intros ->; inversion F; subst; congruence).
    rewrite (drop_join ts TN) in Q.
    assert (Q' : ("[" ++ join ts ++ "]")%string = t) by congruence. rewrite <- Q'. apply sh_list; auto.
  - intro H. inversion H as [v s A|l' ts _ F]; subst; [destruct (A l); reflexivity|].
    rewrite (proj2 (G (ended ts))); eauto. cbn [rbind]. rewrite drop_join; auto. intros ->. inversion F. subst. congruence.
Qed.
Theorem C94_text_partial : forall fmt st s, vs_value st <> DNoValue -> no_empty (vs_value st) ->
  (vm_str fmt st = Ok s <-> shows fmt (vs_value st) s).
Proof.
  intros fmt [v e] s N NE. cbn in *. rewrite <- item_str_shows by exact NE. unfold vm_str. cbn. destruct v; try reflexivity. congruence.
Qed.
Theorem C94_novalue : forall fmt st, vs_value st = DNoValue -> vm_str fmt st = Ok "NoValue".
Proof. intros fmt st E. unfold vm_str. now rewrite E. Qed.
(** it raises exactly if the formatter raises for an object inside, with the exception of the
    first one *)
Theorem C94_raises : forall fmt st e, vs_value st <> DNoValue ->
  (vm_str fmt st = Err e <-> exists pre x post, leaves (vs_value st) = pre ++ x :: post /\ fmt x = Err e /\ forall y, In y pre -> is_ok (fmt y) = true).
Proof.
  intros fmt [v ex] e N. cbn in *.
  assert (G : forall v, (item_str fmt v = Err e <-> exists pre x post, leaves v = pre ++ x :: post /\ fmt x = Err e /\ forall y, In y pre -> is_ok (fmt y) = true)
                  /\ (is_ok (item_str fmt v) = true <-> forall y, In y (leaves v) -> is_ok (fmt y) = true)).
  { clear. intro v. 
    assert (LF : forall v, leaves v = [v] -> item_str fmt v = fmt v ->
      (item_str fmt v = Err e <-> exists pre x post, leaves v = pre ++ x :: post /\ fmt x = Err e /\ forall y, In y pre -> is_ok (fmt y) = true)
      /\ (is_ok (item_str fmt v) = true <-> forall y, In y (leaves v) -> is_ok (fmt y) = true)).
    { clear. intros v L E. rewrite E, L. split.
      - split; [intro H; exists [], v, []; repeat split; auto; intros y []|].
        intros (pre & x & post & A & B & _). destruct pre as [|a [|]]; cbn in A; injection A as <- ?; auto; discriminate.
      - split; [intros H y [<-|[]]; auto|intro H; apply H; left; auto]. }
    induction v as [|n|s|l IH|n] using dval_ind'; try (apply LF; reflexivity).
    assert (GL : (items_str fmt l = Err e <-> exists pre x post, flat_map leaves l = pre ++ x :: post /\ fmt x = Err e /\ forall y, In y pre -> is_ok (fmt y) = true)
                 /\ (is_ok (items_str fmt l) = true <-> forall y, In y (flat_map leaves l) -> is_ok (fmt y) = true)).
    { induction l as [|a l IHl]; cbn [items_str flat_map]; fold (items_str fmt).
      - split; [split; [discriminate|intros (pre & x & post & A & _); destruct pre; discriminate]|split; [intros _ y []|reflexivity]].
      - destruct (IH a (or_introl eq_refl)) as [A1 A2]. destruct (IHl (fun v I => IH v (or_intror I))) as [B1 B2]. clear IH IHl.
        destruct (item_str fmt a) as [sa|ea]; cbn [rbind].
        + assert (OA : forall y, In y (leaves a) -> is_ok (fmt y) = true) by (apply A2; reflexivity).
          assert (X : rbind (items_str fmt l) (fun t => Ok ((sa ++ ", ") ++ t)%string) = Err e <-> items_str fmt l = Err e)
            by (destruct (items_str fmt l); cbn; split; congruence).
          assert (Y : is_ok (rbind (items_str fmt l) (fun t => Ok ((sa ++ ", ") ++ t)%string)) = is_ok (items_str fmt l))
            by (destruct (items_str fmt l); reflexivity).
          rewrite X, Y, B1, B2. split.
          * split.
            -- intros (pre & x & post & P & Q & R). exists (leaves a ++ pre), x, post. rewrite P, app_assoc. repeat split; auto.
               intros y I. apply in_app_or in I. destruct I; auto.
            -- intros (pre & x & post & P & Q & R).
               assert (S : exists pre', pre = leaves a ++ pre' /\ flat_map leaves l = pre' ++ x :: post).
               { revert pre P R. generalize (leaves a) OA. clear - Q. intros la. induction la as [|b la IHa]; intros OA pre P R; [exists pre; auto|].
                 destruct pre as [|c pre]; cbn in P; injection P as -> P.
                 - specialize (OA x (or_introl eq_refl)). rewrite Q in OA. discriminate.
                 - destruct (IHa (fun y I => OA y (or_intror I)) pre P (fun y I => R y (or_intror I))) as (pre' & -> & S). exists pre'. auto. }
               destruct S as (pre' & -> & S). exists pre', x, post. repeat split; auto. intros y I. apply R. apply in_or_app. auto.
          * split; [intros H y I; apply in_app_or in I; destruct I; auto|intros H y I; apply H; apply in_or_app; auto].
        + split.
          * split.
            -- intro E; injection E as ->. destruct (proj1 A1 eq_refl) as (pre & x & post & P & Q & R).
               exists pre, x, (post ++ flat_map leaves l). rewrite P, <- app_assoc. repeat split; auto.
            -- intros (pre & x & post & P & Q & R).
               assert (NA : ~ forall y, In y (leaves a) -> is_ok (fmt y) = true) by (intro H; apply A2 in H; discriminate).
               assert (S : exists post', leaves a = pre ++ x :: post').
               { revert P NA. generalize (leaves a). revert R. clear - Q. induction pre as [|b pre IHp]; intros R la P NA.
                 - destruct la as [|c la]; [exfalso; apply NA; intros y []|]. cbn in P. injection P as -> P. exists la. reflexivity.
                 - destruct la as [|c la]; [exfalso; apply NA; intros y []|]. cbn in P. injection P as -> P.
                   destruct (IHp (fun y I => R y (or_intror I)) la P) as (post' & ->); [|exists post'; reflexivity].
                   intro H. apply NA. intros y [<-|I]; [apply R; left; auto|auto]. }
               destruct S as (post' & S). destruct A1 as [_ A1]. rewrite A1; auto. exists pre, x, post'. auto.
          * cbn. split; [discriminate|]. intro H. assert (X : is_ok (Err ea : res string) = true); [|discriminate X].
            apply A2. intros y I. apply H. apply in_or_app. auto. }
    cbn [leaves]. rewrite item_str_seq. destruct GL as [G1 G2]. rewrite <- G1, <- G2. destruct (items_str fmt l); cbn; split; split; congruence. }
  unfold vm_str. cbn. destruct (G v) as [G1 _]. rewrite <- G1. destruct v; try reflexivity. congruence.
Qed.
(** an empty list is shown without its opening bracket *)
Theorem C94_empty_refuted : forall fmt e, vm_str fmt (VS (DSeq []) e) = Ok "]" /\ vm_str fmt (VS (DSeq [DSeq []]) e) = Ok "[]]".
Proof. intros. split; reflexivity. Qed.
Example C94_case : let fmt v := match v with DNum (NI 1) => Ok "one" | DNum (NI 2) => Ok "two" | _ => Err TypeError end in
  no_empty (DSeq [DNum (NI 1); DSeq [DNum (NI 2); DNum (NI 1)]]) /\
  vm_str fmt (VS (DSeq [DNum (NI 1); DSeq [DNum (NI 2); DNum (NI 1)]]) None) = Ok "[one, [two, one]]" /\
  vm_str fmt (VS (DSeq [DNum (NI 1); DSeq [DNum (NI 7)]]) None) = Err TypeError.
Proof.
  split; [|split; reflexivity]. apply ne_list; [discriminate|]. constructor; [apply ne_leaf; discriminate|]. constructor; [|constructor].
  apply ne_list; [discriminate|]. constructor; [apply ne_leaf; discriminate|]. constructor; [apply ne_leaf; discriminate|constructor].
Qed.
