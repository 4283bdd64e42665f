(** Properties of the filter classes: C55 (inversion), C60 (each filter decides what it says). *)
From Verif Require Import Base Heap FilterModel.
Open Scope Z_scope.
Import ListNotations.

(** ** C55: [invert=True] gives exactly the negated decision (and the same exceptions). *)
Theorem C55_invert : forall fn fz f it,
  call fn fz f true it = match call fn fz f false it with Ok b => Ok (negb b) | Err e => Err e end.
Proof.
  intros fn fz f it. destruct f; cbn [call];
    unfold has_item_flags, is_item_tag, has_item_tag_fnmatch, has_item_value, has_item_value_dict_value,
      has_item_value_list_value, has_item_value_fnmatch, has_item_value_dict_value_fnmatch, has_item_value_list_item_fnmatch,
      is_item_value_in, has_item_value_dict_value_in, has_item_value_list_item_in, has_item_value_dict_key,
      has_item_value_list_idx, has_item_value_dict_key_fnmatch, has_item_value_dict_key_in, guarded; try reflexivity.
  all: match goal with
       | |- context [match ?r with Ok _ => _ | Err _ => _ end] => destruct r as [[|]|e]; try reflexivity
       end.
  all: destruct (_ e); reflexivity.
Qed.

(** Inverting twice is the identity on decisions. *)
Theorem C55_invert_iterator : forall fn fz f l,
  (forall it, In it l -> exists b, call fn fz f false it = Ok b) ->
  iter_items_over_filter_method (call fn fz f true) l =
  map (fun r => match r with Ok b => Ok (negb b) | Err e => Err e end) (iter_items_over_filter_method (call fn fz f false) l).
Proof.
  intros fn fz f l. induction l as [|x r IH]; intros H; [reflexivity|].
  cbn [iter_items_over_filter_method]. rewrite C55_invert.
  destruct (H x (or_introl eq_refl)) as [b E]. rewrite E. cbn [map]. f_equal.
  apply IH. intros it Hi. apply H. right. exact Hi.
Qed.

(** The iterator method delivers the decision of each item in order; the first exception of the
    filter ends it and reaches the caller. *)
Theorem C55_iterator : forall (f : fitem -> res bool) a,
  (forall it, In it a -> exists b, f it = Ok b) ->
  iter_items_over_filter_method f a = map f a /\
  forall x e r, f x = Err e -> iter_items_over_filter_method f (a ++ x :: r) = map f a ++ [Err e].
Proof.
  intros f a. induction a as [|y a IH]; intros H; cbn [iter_items_over_filter_method app map].
  - split; [reflexivity|]. intros x e r ->. reflexivity.
  - destruct (H y (or_introl eq_refl)) as [b E]. rewrite E. destruct IH as [I1 I2]; [intros it J; apply H; right; exact J|].
    split; [rewrite I1; reflexivity|]. intros x e r X. rewrite (I2 x e r X). reflexivity.
Qed.

Example C55_example : let it := FI 3 (PStr "a") (PDict [(PStr "k", PInt 7)]) in
  call (fun _ _ => true) (fun _ => false) (FDictValue (PInt 7)) false it = Ok true /\
  call (fun _ _ => true) (fun _ => false) (FDictValue (PInt 7)) true it = Ok false /\
  call (fun _ _ => true) (fun _ => false) (FTagMatch (PInt 1)) true (FI 0 (PInt 2) PNone) = Err TypeError.
Proof. repeat split. Qed.

(** ** C60: specification, independent of the model's helpers. *)
(** The filter object (not inverted) always answers, and with True exactly for the items in [Q]. *)
Definition decides (d : bool -> fitem -> res bool) (Q : fitem -> Prop) : Prop :=
  forall it, exists b, d false it = Ok b /\ (b = true <-> Q it).
(** The value is a dictionary with these entries. *)
Definition is_dict (v : pyval) (l : list (pyval * pyval)) : Prop := v = PDict l \/ v = PODict l.
(** The value is a list-like object (list, tuple, deque, set) with these elements. *)
Definition is_listlike (v : pyval) (l : list pyval) : Prop := v = PList l \/ v = PTuple l \/ v = PDeque l \/ v = PSet l.
(** Iteration over the value delivers [x]. *)
Inductive delivers : pyval -> pyval -> Prop :=
| dl_list v l x : is_listlike v l -> In x l -> delivers v x
| dl_dict v l k y : is_dict v l -> In (k, y) l -> delivers v k
| dl_str s c : In c (list_ascii_of_string s) -> delivers (PStr s) (PStr (String c EmptyString))
| dl_bytes s c : In c (list_ascii_of_string s) -> delivers (PBytes s) (PInt (Z.of_N (Ascii.N_of_ascii c))).
Definition iterable (v : pyval) : Prop :=
  (exists l, is_listlike v l) \/ (exists l, is_dict v l) \/ (exists s, v = PStr s \/ v = PBytes s).
Definition numeric (v : pyval) : Prop := exists z b, v = PInt z \/ v = PFloat z \/ v = PBool b.
(** Pattern match: text against text pattern, bytes against bytes pattern. *)
Definition matches (fn : string -> string -> bool) (pat v : pyval) : Prop :=
  exists s p, (v = PStr s /\ pat = PStr p \/ v = PBytes s /\ pat = PBytes p) /\ fn s p = true.
Definition pattern (pat : pyval) : Prop := exists p, pat = PStr p \/ pat = PBytes p.

(** *** Helper facts. *)
Lemma typed_match_spec fn pat v : pattern pat -> exists b, typed_match fn pat v = Ok b /\ (b = true <-> matches fn pat v).
Proof.
  intros [p [-> | ->]]; unfold typed_match; destruct v; cbn [same_type fnmatch]; eexists; split; try reflexivity;
    split; try discriminate;
    try (intros (s' & p' & [[E1 E2]|[E1 E2]] & E3); try discriminate E1; try discriminate E2;
         injection E1 as ->; injection E2 as ->; exact E3).
  - intros E. exists s, p. auto.
  - intros E. exists s, p. auto.
Qed.

Lemma any_of_spec f (Q : pyval -> Prop) l : (forall v, exists b, f v = Ok b /\ (b = true <-> Q v)) ->
  exists b, any_of f l = Ok b /\ (b = true <-> exists x, In x l /\ Q x).
Proof.
  intros H. induction l as [|x r (b & Eb & Hb)]; cbn [any_of].
  - exists false. split; [reflexivity|]. split; [discriminate|intros (x & [] & _)].
  - destruct (H x) as (c & Ec & Hc). rewrite Ec. destruct c.
    + exists true. split; [reflexivity|]. split; [|reflexivity]. intros _. exists x. split; [left; reflexivity|apply Hc; reflexivity].
    + exists b. split; [exact Eb|]. rewrite Hb. split.
      * intros (y & Hy & Qy). exists y. split; [right; exact Hy|exact Qy].
      * intros (y & [<-|Hy] & Qy); [apply Hc in Qy; discriminate|exists y; auto].
Qed.

Lemma num_in_spec (P : pyval -> bool) v :
  exists b, num_in (fun v => Ok (P v)) v = Ok b /\ (b = true <-> numeric v /\ P v = true).
Proof.
  unfold num_in, numeric. destruct v; cbn [is_number]; eexists; (split; [reflexivity|]).
  all: split; [try discriminate|intros [(z' & b' & [E|[E|E]]) H]; try discriminate E; exact H].
  all: intros H; split; [|exact H].
  - exists 0, b. auto.
  - exists z, true. auto.
  - exists tok, true. auto.
Qed.

Lemma existsb_in t l : existsb (pyval_eqb t) l = true <-> In t l.
Proof.
  rewrite existsb_exists. split.
  - intros (x & Hx & E). apply pyval_eqb_eq in E. subst x. exact Hx.
  - intros H. exists t. split; [exact H|apply pyval_eqb_refl].
Qed.

Lemma values_cases v : (exists l, is_dict v l /\ values_of v = Ok (map snd l) /\ keys_of v = Ok (map fst l)) \/
  ((forall l, ~ is_dict v l) /\ values_of v = Err AttributeError /\ keys_of v = Err AttributeError).
Proof.
  destruct v; try (right; split; [intros l' [E|E]; discriminate E|split; reflexivity]);
    left; exists l; (split; [unfold is_dict; auto|split; reflexivity]).
Qed.

Lemma is_dict_fun v l m : is_dict v l -> is_dict v m -> l = m.
Proof. intros [->| ->] [E|E]; congruence. Qed.

Lemma iter_cases v : (exists l, iter_of v = Ok l /\ iterable v /\ forall x, In x l <-> delivers v x) \/
  (iter_of v = Err TypeError /\ ~ iterable v /\ forall x, ~ delivers v x).
Proof.
  unfold iterable.
  assert (NL : forall v (l : list pyval), (match v with PList _ | PTuple _ | PDeque _ | PSet _ => False | _ => True end) -> ~ is_listlike v l)
    by (intros ? ? H [E|[E|[E|E]]]; subst; exact H).
  assert (ND : forall v l, (match v with PDict _ | PODict _ => False | _ => True end) -> ~ is_dict v l)
    by (intros ? ? H [E|E]; subst; exact H).
  assert (LL : forall v l, is_listlike v l -> iter_of v = Ok l -> 
    (exists l, iter_of v = Ok l /\ ((exists l, is_listlike v l) \/ (exists l, is_dict v l) \/ (exists s, v = PStr s \/ v = PBytes s)) /\ forall x, In x l <-> delivers v x)).
  { intros w l Hl E. exists l. split; [exact E|]. split; [eauto|]. intros x. split; [apply (dl_list w l x Hl)|].
    intros D. destruct D as [w m x Hm Hx|w m k y Hm Hx|s c|s c].
    - destruct Hl as [->|[->|[->| ->]]], Hm as [M|[M|[M|M]]]; try discriminate M; injection M as ->; exact Hx.
    - destruct Hm as [->| ->]; exfalso; eapply NL; [|exact Hl| |exact Hl]; exact I.
    - exfalso; eapply NL; [|exact Hl]; exact I.
    - exfalso; eapply NL; [|exact Hl]; exact I. }
  assert (DD : forall v l, is_dict v l -> iter_of v = Ok (map fst l) ->
    (exists l, iter_of v = Ok l /\ ((exists l, is_listlike v l) \/ (exists l, is_dict v l) \/ (exists s, v = PStr s \/ v = PBytes s)) /\ forall x, In x l <-> delivers v x)).
  { intros w l Hl E. exists (map fst l). split; [exact E|]. split; [eauto|]. intros x. rewrite in_map_iff. split.
    - intros ([k y] & <- & Hi). exact (dl_dict w l k y Hl Hi).
    - intros D. destruct D as [w m x Hm Hx|w m k y Hm Hx|s c|s c].
      + exfalso. destruct Hl as [->| ->]; (eapply NL; [|exact Hm]); exact I.
      + rewrite (is_dict_fun _ _ _ Hl Hm). exists (k, y). auto.
      + exfalso; eapply ND; [|exact Hl]; exact I.
      + exfalso; eapply ND; [|exact Hl]; exact I. }
  destruct v.
  all: try (right; split; [reflexivity|]; split;
    [intros [[l' H]|[[l' H]|[s' [H|H]]]]; [eapply NL; [|exact H]; exact I|eapply ND; [|exact H]; exact I|discriminate H|discriminate H]
    |intros x D; inversion D as [w l' y H|w l' k y H| |]; subst; [eapply NL; [|exact H]; exact I|eapply ND; [|exact H]; exact I]]).
  all: left.
  all: try (apply (LL _ l); [unfold is_listlike; auto|reflexivity]).
  all: try (apply (DD _ l); [unfold is_dict; auto|reflexivity]).
  - exists (chars s). split; [reflexivity|]. split; [eauto 6|]. intros x. unfold chars. rewrite in_map_iff. split.
    + intros (c & <- & Hc). apply dl_str. exact Hc.
    + intros D. inversion D as [w l' y H|w l' k y H|s' c Hc|]; subst.
      * exfalso; eapply NL; [|exact H]; exact I.
      * exfalso; eapply ND; [|exact H]; exact I.
      * eauto.
  - exists (bytes s). split; [reflexivity|]. split; [eauto 6|]. intros x. unfold bytes. rewrite in_map_iff. split.
    + intros (c & <- & Hc). apply dl_bytes. exact Hc.
    + intros D. inversion D as [w l' y H|w l' k y H| |s' c Hc]; subst.
      * exfalso; eapply NL; [|exact H]; exact I.
      * exfalso; eapply ND; [|exact H]; exact I.
      * exists c; split; [reflexivity|exact Hc].
Qed.

(** *** The theorems. *)
Theorem C60_flags : forall mask, decides (has_item_flags mask)
  (fun it => exists i, 0 <= i /\ Z.testbit (fi_flags it) i = true /\ Z.testbit mask i = true).
Proof.
  intros mask it. unfold has_item_flags. eexists. split; [reflexivity|]. rewrite negb_true_iff, Z.eqb_neq. split.
  - intros H. destruct (Z.eq_dec (Z.land (fi_flags it) mask) 0) as [E|_]; [contradiction|].
    assert (HX : exists i, 0 <= i /\ Z.testbit (Z.land (fi_flags it) mask) i = true).
    { remember (Z.land (fi_flags it) mask) as z eqn:Ez. clear Ez. destruct (Z_lt_le_dec z 0) as [Hn|Hp].
      - pose proof (Z.bits_iff_neg z) as B. 
        exists (Z.log2 (Z.pred (- z)) + 1). split; [pose proof (Z.log2_nonneg (Z.pred (- z))); lia|].
        destruct (Z.eq_dec z (-1)) as [->|].
        + rewrite Z.bits_m1; [reflexivity|]. pose proof (Z.log2_nonneg (Z.pred (- -1))); lia.
        + apply Z.bits_above_log2_neg; lia.
      - exists (Z.log2 z). split; [apply Z.log2_nonneg|]. apply Z.bit_log2. lia. }
    destruct HX as (i & Hi & Hb). rewrite Z.land_spec in Hb. apply andb_true_iff in Hb. exists i. tauto.
  - intros (i & Hi & H1 & H2) E. pose proof (Z.land_spec (fi_flags it) mask i) as L. rewrite E, Z.bits_0, H1, H2 in L. discriminate.
Qed.

Theorem C60_tag : forall t, decides (is_item_tag t) (fun it => fi_tag it = t).
Proof. intros t it. eexists. split; [reflexivity|]. apply pyval_eqb_eq. Qed.

Theorem C60_value : forall t, decides (has_item_value t) (fun it => fi_value it = t).
Proof. intros t it. eexists. split; [reflexivity|]. apply pyval_eqb_eq. Qed.

Theorem C60_tag_match : forall fn pat, pattern pat -> decides (has_item_tag_fnmatch fn pat) (fun it => matches fn pat (fi_tag it)).
Proof.
  intros fn pat Hp it. unfold has_item_tag_fnmatch. destruct (typed_match_spec fn pat (fi_tag it) Hp) as (b & -> & Hb). eauto.
Qed.

Theorem C60_value_match : forall fn pat, pattern pat -> decides (has_item_value_fnmatch fn pat) (fun it => matches fn pat (fi_value it)).
Proof.
  intros fn pat Hp it. unfold has_item_value_fnmatch, guarded.
  destruct (typed_match_spec fn pat (fi_value it) Hp) as (b & -> & Hb). destruct b; eauto.
Qed.

Theorem C60_dict_value : forall t, decides (has_item_value_dict_value t)
  (fun it => exists l k, is_dict (fi_value it) l /\ In (k, t) l).
Proof.
  intros t it. unfold has_item_value_dict_value, guarded.
  destruct (values_cases (fi_value it)) as [(l & Hl & -> & _)|(N & -> & _)]; cbn [try_list sup_all].
  - destruct (existsb (pyval_eqb t) (map snd l)) eqn:E; eexists; (split; [reflexivity|]); cbn [negb].
    + split; [|reflexivity]. intros _. apply existsb_in, in_map_iff in E. destruct E as ([k x] & <- & Hi). exists l, k. auto.
    + split; [discriminate|]. intros (l' & k & Hl' & Hi). rewrite (is_dict_fun _ _ _ Hl Hl') in E.
      assert (C : existsb (pyval_eqb t) (map snd l') = true) by (apply existsb_in, in_map_iff; exists (k, t); auto).
      congruence.
  - eexists. split; [reflexivity|]. split; [discriminate|]. intros (l & k & H & _). exfalso. exact (N l H).
Qed.

Theorem C60_dict_value_match : forall fn pat, pattern pat -> decides (has_item_value_dict_value_fnmatch fn pat)
  (fun it => exists l k v, is_dict (fi_value it) l /\ In (k, v) l /\ matches fn pat v).
Proof.
  intros fn pat Hp it. unfold has_item_value_dict_value_fnmatch, guarded.
  destruct (values_cases (fi_value it)) as [(l & Hl & -> & _)|(N & -> & _)]; cbn [try_list sup_attr].
  - destruct (any_of_spec (typed_match fn pat) (matches fn pat) (map snd l) (fun v => typed_match_spec fn pat v Hp)) as (b & -> & Hb).
    exists b. split; [destruct b; reflexivity|]. rewrite Hb. split.
    + intros (x & Hx & M). apply in_map_iff in Hx. destruct Hx as ([k y] & <- & Hi). exists l, k, y. auto.
    + intros (l' & k & v & Hl' & Hi & M). rewrite (is_dict_fun _ _ _ Hl Hl'). exists v. split; [|exact M].
      apply in_map_iff. exists (k, v). auto.
  - eexists. split; [reflexivity|]. split; [discriminate|]. intros (l & k & v & H & _). exfalso. exact (N l H).
Qed.

Theorem C60_dict_key_match : forall fn pat, pattern pat -> decides (has_item_value_dict_key_fnmatch fn pat)
  (fun it => exists l k v, is_dict (fi_value it) l /\ In (k, v) l /\ matches fn pat k).
Proof.
  intros fn pat Hp it. unfold has_item_value_dict_key_fnmatch, guarded.
  destruct (values_cases (fi_value it)) as [(l & Hl & _ & ->)|(N & _ & ->)]; cbn [try_list sup_attr].
  - destruct (any_of_spec (typed_match fn pat) (matches fn pat) (map fst l) (fun v => typed_match_spec fn pat v Hp)) as (b & -> & Hb).
    exists b. split; [destruct b; reflexivity|]. rewrite Hb. split.
    + intros (x & Hx & M). apply in_map_iff in Hx. destruct Hx as ([k y] & <- & Hi). exists l, k, y. auto.
    + intros (l' & k & v & Hl' & Hi & M). rewrite (is_dict_fun _ _ _ Hl Hl'). exists k. split; [|exact M].
      apply in_map_iff. exists (k, v). auto.
  - eexists. split; [reflexivity|]. split; [discriminate|]. intros (l & k & v & H & _). exfalso. exact (N l H).
Qed.

(** The range argument of the "_in" filters is any membership test [P] that does not raise. *)
Theorem C60_value_in : forall (P : pyval -> bool), decides (is_item_value_in (fun v => Ok (P v)))
  (fun it => numeric (fi_value it) /\ P (fi_value it) = true).
Proof.
  intros P it. unfold is_item_value_in, guarded. destruct (num_in_spec P (fi_value it)) as (b & -> & Hb). destruct b; eauto.
Qed.

Theorem C60_dict_value_in : forall (P : pyval -> bool), decides (has_item_value_dict_value_in (fun v => Ok (P v)))
  (fun it => exists l k v, is_dict (fi_value it) l /\ In (k, v) l /\ numeric v /\ P v = true).
Proof.
  intros P it. unfold has_item_value_dict_value_in, guarded.
  destruct (values_cases (fi_value it)) as [(l & Hl & -> & _)|(N & -> & _)]; cbn [try_list sup_attr].
  - destruct (any_of_spec (num_in (fun v => Ok (P v))) (fun v => numeric v /\ P v = true) (map snd l) (num_in_spec P)) as (b & -> & Hb).
    exists b. split; [destruct b; reflexivity|]. rewrite Hb. split.
    + intros (x & Hx & M). apply in_map_iff in Hx. destruct Hx as ([k y] & <- & Hi). exists l, k, y. auto.
    + intros (l' & k & v & Hl' & Hi & M). rewrite (is_dict_fun _ _ _ Hl Hl'). exists v. split; [|exact M].
      apply in_map_iff. exists (k, v). auto.
  - eexists. split; [reflexivity|]. split; [discriminate|]. intros (l & k & v & H & _). exfalso. exact (N l H).
Qed.

Theorem C60_dict_key_in : forall (P : pyval -> bool), decides (has_item_value_dict_key_in (fun v => Ok (P v)))
  (fun it => exists l k v, is_dict (fi_value it) l /\ In (k, v) l /\ numeric k /\ P k = true).
Proof.
  intros P it. unfold has_item_value_dict_key_in, guarded.
  destruct (values_cases (fi_value it)) as [(l & Hl & _ & ->)|(N & _ & ->)]; cbn [try_list sup_all].
  - destruct (any_of_spec (num_in (fun v => Ok (P v))) (fun v => numeric v /\ P v = true) (map fst l) (num_in_spec P)) as (b & -> & Hb).
    exists b. split; [destruct b; reflexivity|]. rewrite Hb. split.
    + intros (x & Hx & M). apply in_map_iff in Hx. destruct Hx as ([k y] & <- & Hi). exists l, k, y. auto.
    + intros (l' & k & v & Hl' & Hi & M). rewrite (is_dict_fun _ _ _ Hl Hl'). exists k. split; [|exact M].
      apply in_map_iff. exists (k, v). auto.
  - eexists. split; [reflexivity|]. split; [discriminate|]. intros (l & k & v & H & _). exfalso. exact (N l H).
Qed.

Theorem C60_list_value : forall t, decides (has_item_value_list_value t) (fun it => delivers (fi_value it) t).
Proof.
  intros t it. unfold has_item_value_list_value, guarded.
  destruct (iter_cases (fi_value it)) as [(l & -> & _ & Hl)|(-> & _ & N)]; cbn [try_list sup_all].
  - destruct (existsb (pyval_eqb t) l) eqn:E; eexists; (split; [reflexivity|]); cbn [negb].
    + split; [|reflexivity]. intros _. apply Hl, existsb_in, E.
    + split; [discriminate|]. intros D. apply Hl, existsb_in in D. congruence.
  - eexists. split; [reflexivity|]. split; [discriminate|]. intros D. exfalso. exact (N t D).
Qed.

Theorem C60_list_item_in : forall (P : pyval -> bool), decides (has_item_value_list_item_in (fun v => Ok (P v)))
  (fun it => exists v, delivers (fi_value it) v /\ numeric v /\ P v = true).
Proof.
  intros P it. unfold has_item_value_list_item_in, guarded.
  destruct (iter_cases (fi_value it)) as [(l & -> & _ & Hl)|(-> & _ & N)]; cbn [try_list sup_type_attr].
  - destruct (any_of_spec (num_in (fun v => Ok (P v))) (fun v => numeric v /\ P v = true) l (num_in_spec P)) as (b & -> & Hb).
    exists b. split; [destruct b; reflexivity|]. rewrite Hb. split; intros (x & Hx & M); exists x; (split; [apply Hl, Hx|exact M]).
  - eexists. split; [reflexivity|]. split; [discriminate|]. intros (v & D & _). exfalso. exact (N v D).
Qed.

(** has_item_value_list_item_fnmatch: right for iterable values ... *)
Theorem C60_list_item_match_partial : forall fn pat it, pattern pat -> iterable (fi_value it) ->
  exists b, has_item_value_list_item_fnmatch fn pat false it = Ok b /\
            (b = true <-> exists v, delivers (fi_value it) v /\ matches fn pat v).
Proof.
  intros fn pat it Hp Hi. unfold has_item_value_list_item_fnmatch, guarded.
  destruct (iter_cases (fi_value it)) as [(l & -> & _ & Hl)|(-> & N & _)]; [|contradiction]. cbn [try_list].
  destruct (any_of_spec (typed_match fn pat) (matches fn pat) l (fun v => typed_match_spec fn pat v Hp)) as (b & -> & Hb).
  exists b. split; [destruct b; reflexivity|]. rewrite Hb. split; intros (x & Hx & M); exists x; (split; [apply Hl, Hx|exact M]).
Qed.
(** ... and raises for every other value (e.g. the default NoValue), where the other filters answer False. *)
Theorem C60_list_item_match_refuted : forall fn pat invert it, ~ iterable (fi_value it) ->
  has_item_value_list_item_fnmatch fn pat invert it = Err TypeError.
Proof.
  intros fn pat invert it N. unfold has_item_value_list_item_fnmatch, guarded.
  destruct (iter_cases (fi_value it)) as [(l & _ & H & _)|(-> & _)]; [contradiction|reflexivity].
Qed.
Example novalue_not_iterable : ~ iterable PNoValue.
Proof. intros [(l & [E|[E|[E|E]]])|[(l & [E|E])|(s & [E|E])]]; discriminate E. Qed.

(** exceptions of the interval, and of a pattern that is no text, are not suppressed by these two *)
Theorem C60_value_raises : forall ival inv it e, numeric (fi_value it) -> ival (fi_value it) = Err e -> is_item_value_in ival inv it = Err e.
Proof.
  intros ival inv it e N E. unfold is_item_value_in, guarded, num_in. destruct (is_number (fi_value it)) eqn:X; [rewrite E; reflexivity|].
  exfalso. destruct N as (z & b & [N|[N|N]]); rewrite N in X; discriminate X.
Qed.
Theorem C60_match_raises : forall fn z w inv it, fi_value it = PInt w -> has_item_value_fnmatch fn (PInt z) inv it = Err TypeError.
Proof. intros fn z w inv it E. unfold has_item_value_fnmatch. rewrite E. reflexivity. Qed.
(** has_item_value_dict_key: right for dictionaries and for values that are no containers;
    keys must be hashable, as those of any Python dictionary are. *)
Theorem C60_dict_key_partial : forall k it l, is_dict (fi_value it) l -> hashable k = true ->
  exists b, has_item_value_dict_key k false it = Ok b /\ (b = true <-> exists v, In (k, v) l).
Proof.
  intros k it l Hl Hk. unfold has_item_value_dict_key.
  assert (E : contains_op k (fi_value it) = Ok (existsb (pyval_eqb k) (map fst l))).
  { destruct Hl as [->| ->]; cbn [contains_op]; rewrite Hk; reflexivity. }
  rewrite E. eexists. split; [reflexivity|]. rewrite existsb_in, in_map_iff. split.
  - intros ([k' v] & <- & Hi). eauto.
  - intros (v & Hi). exists (k, v). auto.
Qed.
Theorem C60_dict_key_scalar : forall k it, ~ iterable (fi_value it) -> has_item_value_dict_key k false it = Ok false.
Proof.
  intros k it N. unfold has_item_value_dict_key. unfold iterable, is_listlike, is_dict in N.
  destruct (fi_value it); cbn [contains_op]; try reflexivity; exfalso; apply N; eauto 10.
Qed.
(** ... but a list holding the key, or a string containing it, passes as well although it is no dictionary. *)
Theorem C60_dict_key_refuted :
  has_item_value_dict_key (PStr "a") false (FI 0 PNoTag (PList [PStr "a"])) = Ok true /\
  has_item_value_dict_key (PStr "a") false (FI 0 PNoTag (PStr "bar")) = Ok true.
Proof. split; reflexivity. Qed.

(** has_item_value_list_idx: documented as "the index is inside the list". *)
Definition inside (n : nat) (z : Z) : Prop := - Z.of_nat n <= z < Z.of_nat n.
Lemma list_at_ok l z : inside (length l) z <-> exists x, list_at l z = Ok x.
Proof.
  unfold inside, list_at. destruct (z <? 0) eqn:E; [apply Z.ltb_lt in E|apply Z.ltb_ge in E].
  - destruct (z + Z.of_nat (length l) <? 0) eqn:F; [apply Z.ltb_lt in F|apply Z.ltb_ge in F].
    + split; [lia|intros [x H]; discriminate].
    + split; [|lia]. intros _. destruct (nth_error l (Z.to_nat (z + Z.of_nat (length l)))) eqn:G; [eauto|].
      apply nth_error_None in G. lia.
  - destruct (z <? 0) eqn:F; [apply Z.ltb_lt in F; lia|]. clear F.
    destruct (nth_error l (Z.to_nat z)) eqn:G.
    + split; [eauto|]. intros _. assert (nth_error l (Z.to_nat z) <> None) as G' by congruence. apply nth_error_Some in G'. lia.
    + apply nth_error_None in G. split; [lia|intros [x H]; discriminate].
Qed.
(** It answers so when no element of the list is falsy ... *)
Theorem C60_list_idx_partial : forall fz z it l, fi_value it = PList l \/ fi_value it = PTuple l \/ fi_value it = PDeque l ->
  (forall x, In x l -> truthy fz x = true) ->
  exists b, has_item_value_list_idx fz (PInt z) false it = Ok b /\ (b = true <-> inside (length l) z).
Proof.
  intros fz z it l Hv Ht. unfold has_item_value_list_idx, guarded.
  assert (E : has_index (fi_value it) = true /\ index_op (fi_value it) (PInt z) = list_at l z)
    by (destruct Hv as [->|[->| ->]]; split; reflexivity).
  destruct E as [-> ->]. pose proof (list_at_ok l z) as OK. destruct (list_at l z) as [x|e] eqn:E.
  - assert (Hx : In x l).
    { unfold list_at in E. set (i := if z <? 0 then _ else _) in E. cbv zeta in E. destruct (i <? 0); [discriminate|].
      destruct (nth_error l (Z.to_nat i)) eqn:G; [|discriminate]. injection E as ->. eapply nth_error_In; exact G. }
    rewrite (Ht x Hx). exists true. split; [reflexivity|]. split; [intros _; apply OK; eauto|reflexivity].
  - exists false. split; [reflexivity|]. split; [discriminate|]. intros I. apply OK in I. destruct I; discriminate.
Qed.
(** ... but for a falsy element it answers False although the index is inside. *)
Theorem C60_list_idx_refuted : forall fz, has_item_value_list_idx fz (PInt 0) false (FI 0 PNoTag (PList [PInt 0; PInt 1])) = Ok false /\
  inside (length [PInt 0; PInt 1]) 0.
Proof. intros fz. split; [reflexivity|unfold inside; cbn; lia]. Qed.
Theorem C60_list_idx_other : forall fz idx it, has_index (fi_value it) = false -> has_item_value_list_idx fz idx false it = Ok false.
Proof. intros fz idx it E. unfold has_item_value_list_idx. rewrite E. reflexivity. Qed.

(** What the filter computes: is there an element at the index that Python counts as true?  Counted
    as false are None, False, the numbers 0 and 0.0 and the empty containers, str and bytes. *)
Definition falsy (fz : Z -> bool) (v : pyval) : Prop :=
  v = PNone \/ v = PBool false \/ v = PInt 0 \/ (exists t, v = PFloat t /\ fz t = true) \/ v = PStr EmptyString \/ v = PBytes EmptyString
  \/ In v [PTuple []; PList []; PDeque []; PSet []; PDict []; PODict []].
(** the element at index z: counted from the front, or from the back for a negative z *)
Definition element (l : list pyval) (z : Z) (x : pyval) : Prop :=
  exists a b, l = a ++ x :: b /\ (z = Z.of_nat (length a) \/ z = - Z.of_nat (length b) - 1).
Lemma truthy_ok fz v : truthy fz v = true <-> ~ falsy fz v.
Proof.
  unfold falsy. split.
  - intros T F. cbn [In] in F. repeat destruct F as [F|F]; subst; try discriminate T; try (destruct F as (t & -> & E); cbn in T; rewrite E in T; discriminate T); contradiction.
  - intros N. destruct v as [ | | | | |b|z|t|s|s|l|l|l|l|l|l|n]; try reflexivity; try (exfalso; apply N; tauto);
      try (destruct b; [reflexivity|exfalso; apply N; tauto]);
      try (destruct s; [exfalso; apply N; tauto|reflexivity]);
      try (destruct l; [exfalso; apply N; cbn; tauto|reflexivity]).
    + cbn. destruct (Z.eqb_spec z 0); [subst; exfalso; apply N; tauto|reflexivity].
    + cbn. destruct (fz t) eqn:E; [exfalso; apply N; do 3 right; left; eauto|reflexivity].
Qed.
Lemma list_at_element l z x : list_at l z = Ok x <-> element l z x.
Proof.
  unfold list_at, element. cbv zeta. split.
  - destruct (z <? 0) eqn:E; [apply Z.ltb_lt in E|apply Z.ltb_ge in E].
    + destruct (z + Z.of_nat (length l) <? 0) eqn:F; [discriminate|apply Z.ltb_ge in F].
      destruct (nth_error l (Z.to_nat (z + Z.of_nat (length l)))) eqn:G; [|discriminate]. intros H. injection H as ->.
      apply nth_error_split in G as (a & b & -> & L). exists a, b. split; [reflexivity|]. right. rewrite app_length in *. cbn [length] in *. lia.
    + destruct (z <? 0) eqn:F; [apply Z.ltb_lt in F; lia|]. destruct (nth_error l (Z.to_nat z)) eqn:G; [|discriminate]. intros H. injection H as ->.
      apply nth_error_split in G as (a & b & -> & L). exists a, b. split; [reflexivity|]. left. lia.
  - intros (a & b & -> & H).
    assert (I : (if z <? 0 then z + Z.of_nat (length (a ++ x :: b)) else z) = Z.of_nat (length a)).
    { rewrite app_length. cbn [length]. destruct (Z.ltb_spec z 0); lia. }
    rewrite I. destruct (Z.ltb_spec (Z.of_nat (length a)) 0); [lia|]. rewrite Nat2Z.id, nth_error_app2, Nat.sub_diag by lia. reflexivity.
Qed.
Theorem C60_list_idx_true : forall fz z it l, fi_value it = PList l \/ fi_value it = PTuple l \/ fi_value it = PDeque l ->
  exists b, has_item_value_list_idx fz (PInt z) false it = Ok b /\ (b = true <-> exists x, element l z x /\ ~ falsy fz x).
Proof.
  intros fz z it l Hv. unfold has_item_value_list_idx, guarded.
  assert (E : has_index (fi_value it) = true /\ index_op (fi_value it) (PInt z) = list_at l z)
    by (destruct Hv as [->|[->| ->]]; split; reflexivity).
  destruct E as [-> ->]. destruct (list_at l z) as [x|e] eqn:E.
  - pose proof (proj1 (list_at_element l z x) E) as X. destruct (truthy fz x) eqn:T; eexists; (split; [reflexivity|]).
    + split; [|reflexivity]. intros _. exists x. split; [exact X|apply truthy_ok, T].
    + split; [discriminate|]. intros (y & Y & N). apply list_at_element in Y. rewrite E in Y. injection Y as <-. apply truthy_ok in N. congruence.
  - exists false. split; [reflexivity|]. split; [discriminate|]. intros (y & Y & _). apply list_at_element in Y. congruence.
Qed.
(** True and False are the indices 1 and 0 *)
Theorem C60_list_idx_bool : forall fz b inv it, has_item_value_list_idx fz (PBool b) inv it = has_item_value_list_idx fz (PInt (if b then 1 else 0)) inv it.
Proof. intros fz b inv it. destruct b; reflexivity. Qed.
(** has_item_value_dict_key on texts and lists: is the key a part of the text, an element of the list? *)
Lemma prefix_app p : forall s, String.prefix p s = true <-> exists c, s = String.append p c.
Proof.
  induction p as [|a p IH]; intros s; [split; [intros _; exists s; reflexivity|destruct s; reflexivity]|].
  destruct s as [|b s]; cbn; [split; [discriminate|intros [c C]; discriminate]|].
  destruct (Ascii.ascii_dec a b) as [->|N].
  - rewrite IH. split; intros [c C]; exists c; [subst; reflexivity|injection C as C; exact C].
  - split; [discriminate|intros [c C]; injection C as -> _; contradiction].
Qed.
Lemma index_part p : forall s, (match String.index 0 p s with Some _ => true | None => false end) = true <-> exists a c, s = String.append a (String.append p c).
Proof.
  induction s as [|b s IH].
  - destruct p; cbn; [split; [intros _; exists EmptyString, EmptyString; reflexivity|reflexivity]|]. split; [discriminate|]. intros (u & c & H). destruct u; discriminate.
  - change (String.index 0 p (String b s)) with (if String.prefix p (String b s) then Some 0%nat else match String.index 0 p s with Some n => Some (S n) | None => None end).
    destruct (String.prefix p (String b s)) eqn:P.
    + split; [|reflexivity]. intros _. apply prefix_app in P as [c C]. exists EmptyString, c. exact C.
    + transitivity (match String.index 0 p s with Some _ => true | None => false end = true); [destruct (String.index 0 p s); reflexivity|]. rewrite IH. split.
      * intros (a & c & ->). exists (String b a), c. reflexivity.
      * intros (a & c & H). destruct a as [|a0 a]; [|injection H as -> H; eauto]. exfalso.
        assert (X : String.prefix p (String b s) = true) by (apply prefix_app; exists c; exact H). congruence.
Qed.
Theorem C60_dict_key_text : forall p s it, fi_value it = PStr s ->
  exists b, has_item_value_dict_key (PStr p) false it = Ok b /\ (b = true <-> exists a c, s = String.append a (String.append p c)).
Proof. intros p s it E. unfold has_item_value_dict_key. rewrite E. cbn [contains_op]. eexists. split; [reflexivity|apply index_part]. Qed.
Theorem C60_dict_key_list : forall k l it, fi_value it = PList l \/ fi_value it = PTuple l \/ fi_value it = PDeque l ->
  exists b, has_item_value_dict_key k false it = Ok b /\ (b = true <-> In k l).
Proof.
  intros k l it E. unfold has_item_value_dict_key.
  assert (X : contains_op k (fi_value it) = Ok (existsb (pyval_eqb k) l)) by (destruct E as [->|[->| ->]]; reflexivity).
  rewrite X. eexists. split; [reflexivity|apply existsb_in].
Qed.

Example C60_example : let it := FI 4 (PStr "x") (PList [PInt 3; PStr "abc"]) in
  has_item_flags 6 false it = Ok true /\ has_item_value_list_value (PInt 3) false it = Ok true /\
  has_item_value_list_item_in (fun v => Ok (pyval_eqb v (PInt 3))) false it = Ok true /\
  has_item_value_list_idx (fun _ => false) (PInt (-2)) false it = Ok true.
Proof. repeat split. Qed.

Print Assumptions C55_invert.
Print Assumptions C60_flags.
Print Assumptions C60_list_item_in.
