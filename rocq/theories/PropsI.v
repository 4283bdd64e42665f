(** C54, C58, C59: value models and the iTData dictionary.  The specification of casts, shapes
    and of the allowed values is in DataFacts.v (cast_ok, fits, shape). *)
From Coq Require Import Ascii NArith.
From Verif Require Import Base MathSet MathSpec MathFacts DataModel DataFacts.
Local Open Scope Z_scope.

(** * C54 *)
(** the calls that can change a value model *)
Inductive vop := VSet (v : dval) | VCheck (v : dval) | VClear.
Definition vstep (m : vmodel) (st : vstate) (o : vop) : vstate :=
  match o with VSet v => fst (vm_set m st v) | VCheck v => fst (vm_in m st v) | VClear => vm_clear st end.
Definition vrun (m : vmodel) (st : vstate) (ops : list vop) : vstate := fold_left (vstep m) ops st.
(** empty, or the cast of some value, all items in the allowed set, within the shape *)
Definition valid (m : vmodel) (w : dval) : Prop := w = DNoValue \/ (fits_model m w /\ exists v, cast_ok m v w).

Lemma set_cases m st v : v <> DNoValue ->
  (exists w, cast_ok m v w /\ fits_model m w /\ vm_set m st v = (VS w None, Ok (vs_value st))) \/
  ((~ exists w, cast_ok m v w /\ fits_model m w) /\ exists e, vm_set m st v = (VS (vs_value st) (Some e), Err e)).
Proof.
  intro N. pose proof (accept_ok m v) as A. destruct (accept m v) as [w|e] eqn:E.
  - left. exists w. destruct (proj1 (A w) eq_refl). split; auto. split; auto. unfold vm_set. rewrite E. destruct v; auto; congruence.
  - right. split; [intros (w & W); apply A in W; discriminate|]. exists e. unfold vm_set. rewrite E. destruct v; auto; congruence.
Qed.
Lemma vstep_valid m st o : valid m (vs_value st) -> valid m (vs_value (vstep m st o)).
Proof.
  intro V. destruct o as [v|v|]; cbn [vstep].
  - assert (D : v = DNoValue \/ v <> DNoValue) by (destruct v; auto; right; discriminate). destruct D as [->|D].
    + cbn. destruct (vs_exc st); cbn; auto. left. auto.
    + destruct (set_cases m st v D) as [(w & A & B & ->)|(_ & e & ->)]; cbn; auto. right. split; eauto.
  - unfold vm_in. destruct v; cbn [fst]; auto; destruct (accept m _); auto.
  - left. reflexivity.
Qed.
Theorem C54_history : forall m v0 st ops, vm_init m v0 = Ok st -> valid m (vs_value (vrun m st ops)).
Proof.
  intros m v0 st ops I.
  assert (V : valid m (vs_value st)).
  { unfold vm_init in I. pose proof (accept_ok m v0) as A. destruct v0; try (injection I as <-; left; reflexivity);
      destruct (accept m _) as [w|]; try discriminate; injection I as <-; right; destruct (proj1 (A w) eq_refl); split; eauto. }
  clear I. revert st V. induction ops as [|o ops IH]; intros st V; [exact V|]. apply IH. apply vstep_valid. exact V.
Qed.
(** set(v) of a value other than NoValue, whatever happened before: an allowed one is stored
    (after the cast) and the old one returned, every other one raises and the stored value stays *)
Theorem C54_set : forall m st v, v <> DNoValue ->
  (exists w, cast_ok m v w /\ fits_model m w /\ snd (vm_set m st v) = Ok (vs_value st) /\ vs_value (fst (vm_set m st v)) = w) \/
  ((~ exists w, cast_ok m v w /\ fits_model m w) /\
   (exists e, snd (vm_set m st v) = Err e) /\ vs_value (fst (vm_set m st v)) = vs_value st).
Proof.
  intros m st v N. destruct (set_cases m st v N) as [(w & A & B & ->)|(A & e & ->)]; [left; exists w; auto|right; cbn; eauto].
Qed.
(** a call that raises never changes the stored value *)
Theorem C54_rejected : forall m st v e, snd (vm_set m st v) = Err e -> vs_value (fst (vm_set m st v)) = vs_value st.
Proof.
  intros m st v e. unfold vm_set. destruct v; try (destruct (accept m _); cbn; [discriminate|auto]). destruct (vs_exc st); cbn; [auto|discriminate].
Qed.
(** set(NoValue) empties the model, if the last set or check of a value did not fail *)
Theorem C54_empty_partial : forall m st, vs_exc st = None -> vm_set m st DNoValue = (VS DNoValue None, Ok (vs_value st)).
Proof. intros m [w e] E. cbn in E. subst. reflexivity. Qed.
Theorem C54_clear : forall st, vs_value (vm_clear st) = DNoValue.
Proof. reflexivity. Qed.
(** the constructor raises for every value that is not allowed *)
Theorem C54_constructor : forall m v, v <> DNoValue ->
  (exists w, cast_ok m v w /\ fits_model m w /\ vm_init m v = Ok (VS w None)) \/
  ((~ exists w, cast_ok m v w /\ fits_model m w) /\ exists e, vm_init m v = Err e).
Proof.
  intros m v N. pose proof (accept_ok m v) as A. unfold vm_init. destruct (accept m v) as [w|e].
  - left. exists w. destruct (proj1 (A w) eq_refl). destruct v; try congruence; auto.
  - right. split; [intros (w & W); apply A in W; discriminate|]. destruct v; try congruence; eauto.
Qed.

(** iTDataModel.set(v): what the validator returns is stored and the old value returned; a raising
    validator: the same exception, the stored value stays; NoValue empties the model *)
Theorem C54_data_model_set : forall validator st v, v <> DNoValue ->
  match validator v with
  | Ok w => dm_set validator st v = (w, Ok st)
  | Err e => dm_set validator st v = (st, Err e)
  end.
Proof. intros val st v N. unfold dm_set. destruct v; try congruence; destruct (val _); reflexivity. Qed.
Theorem C54_data_model_empty : forall validator st, dm_set validator st DNoValue = (DNoValue, Ok st) /\ dm_clear st = (DNoValue, st).
Proof. split; reflexivity. Qed.
(** the integer models: whatever is called, every number inside is an integer in the range *)
Inductive items_are (P : dval -> Prop) : dval -> Prop :=
| items_leaf v : P v -> items_are P v
| items_seq l : Forall (items_are P) l -> items_are P (DSeq l).
Lemma cast_items m (P : dval -> Prop) : (forall v w, vm_cast m v = Ok w -> (forall c, vm_contains m = Some c -> c w = Ok true) -> P w) ->
  forall v w, cast_ok m v w -> items_are P w.
Proof.
  intros H v. induction v as [| | |l IH|] using dval_ind'; intros w C; inversion C; subst; try (apply items_leaf; eapply H; eauto; fail).
  apply items_seq. clear C. revert l' H1. induction l as [|x l IHl]; intros l' F; inversion F; subst; constructor.
  - apply (IH x); auto. left. auto.
  - apply IHl; auto. intros v V. apply IH. right. auto.
Qed.
Definition in_range (lo hi : Z) (w : dval) : Prop := exists z, w = DNum (NI z) /\ lo <= z <= hi.
Lemma intn_leaf parse lo hi c sh m : lo <= hi -> intn_model parse lo hi c sh = Ok m ->
  forall v w, vm_cast m v = Ok w -> (forall t, vm_contains m = Some t -> t w = Ok true) -> in_range lo hi w.
Proof.
  intros LE M v w C T.
  assert (CW : exists z, w = DNum (NI z)).
  { destruct c; try discriminate; injection M as <-; cbn in C; unfold int_cast in C;
      destruct v as [|[]|s| |]; try discriminate; try (injection C as <-; eauto); destruct (parse s); try discriminate; injection C as <-; eauto. }
  destruct CW as [z ->].
  assert (IM : in_mset (int_interval lo hi) (DNum (NI z)) = Ok true).
  { destruct c; try discriminate; injection M as <-; cbn [vm_contains] in T; specialize (T _ eq_refl); cbn beta in T; auto.
    destruct (f (DNum (NI z))); [auto|discriminate]. }
  exists z. split; auto. unfold in_mset, int_interval in IM. cbn [contains tval_of] in IM.
  destruct (membership (Some (NI lo, false)) (Some (NI hi, false)) false false (NI z) None) as (r & E & R).
  { intros [_ K]. apply K. reflexivity. } { discriminate. }
  rewrite IM in E. injection E as <-. destruct (proj1 R eq_refl) as [[(A & B & D)|(A & B & D)] _];
    change (nle (NI lo) (NI z)) in B || change (nle (NI hi) (NI z)) in B; change (nle (NI z) (NI hi)) in D || change (nle (NI z) (NI lo)) in D;
    cbn [fst] in A; rewrite nle_NI in *; cbn in *; lia.
Qed.
(** the eight classes: 8, 16, 32, 64 bits, with and without sign *)
Definition int_bits (k : intn) : Z := match k with Int8 | UInt8 => 8 | Int16 | UInt16 => 16 | Int32 | UInt32 => 32 | Int64 | UInt64 => 64 end.
Definition int_signed (k : intn) : bool := match k with Int8 | Int16 | Int32 | Int64 => true | _ => false end.
Definition int_min (k : intn) : Z := if int_signed k then - 2 ^ (int_bits k - 1) else 0.
Definition int_max (k : intn) : Z := if int_signed k then 2 ^ (int_bits k - 1) - 1 else 2 ^ int_bits k - 1.
Lemma intn_range_bits k : intn_range k = (int_min k, int_max k).
Proof. destruct k; reflexivity. Qed.
Theorem C54_int_models : forall parse k c sh m v0 st ops,
  intn_model parse (fst (intn_range k)) (snd (intn_range k)) c sh = Ok m -> vm_init m v0 = Ok st ->
  let w := vs_value (vrun m st ops) in
  w = DNoValue \/ items_are (in_range (int_min k) (int_max k)) w.
Proof.
  intros parse k c sh m v0 st ops M I w. destruct (C54_history m v0 st ops I) as [E|(_ & v & C)]; [left; exact E|right].
  rewrite intn_range_bits in M. cbn [fst snd] in M.
  eapply cast_items; [|exact C]. eapply intn_leaf; [|exact M]. destruct k; cbn; lia.
Qed.
(** and every integer of the range is accepted (no contains parameter, no shape) *)
Theorem C54_int_accepts : forall parse k m st z,
  intn_model parse (fst (intn_range k)) (snd (intn_range k)) CANone None = Ok m -> int_min k <= z <= int_max k ->
  vm_set m st (DNum (NI z)) = (VS (DNum (NI z)) None, Ok (vs_value st)).
Proof.
  intros parse k m st z M R. rewrite intn_range_bits in M. cbn [fst snd] in M. injection M as <-.
  assert (IM : in_mset (int_interval (int_min k) (int_max k)) (DNum (NI z)) = Ok true).
  { unfold in_mset, int_interval. cbn [contains tval_of].
    destruct (membership (Some (NI (int_min k), false)) (Some (NI (int_max k), false)) false false (NI z) None) as (r & E & X).
    { intros [_ K]. apply K. reflexivity. } { discriminate. }
    rewrite E. f_equal. apply X. split; [|discriminate]. left. cbn [fst snd lower_of upper_of].
    change (nle (NI (int_min k)) (NI (int_max k)) /\ nle (NI (int_min k)) (NI z) /\ nle (NI z) (NI (int_max k))). rewrite !nle_NI. lia. }
  unfold vm_set, accept. cbn [rec_check]. unfold leaf. cbn [vm_cast int_cast rbind vm_contains]. rewrite IM. reflexivity.
Qed.
(** iTASCIIStrModel: only strings of characters below 128 *)
Theorem C54_ascii : forall str contains sh v0 st ops, let m := VM (ascii_cast str) contains sh in
  vm_init m v0 = Ok st -> let w := vs_value (vrun m st ops) in
  w = DNoValue \/ items_are (fun x => exists s, x = DStr s /\ forall c, In c (list_ascii_of_string s) -> (N_of_ascii c < 128)%N) w.
Proof.
  intros str ct sh v0 st ops m I w. destruct (C54_history m v0 st ops I) as [E|(_ & v & C)]; [left; exact E|right].
  eapply cast_items; [|exact C]. cbn. intros x y K _. unfold ascii_cast in K. destruct (forallb _ _) eqn:F; [|discriminate].
  injection K as <-. eexists. split; [reflexivity|]. intros c H. eapply forallb_forall in F; [|exact H]. apply N.ltb_lt. exact F.
Qed.
(** refuted: after a rejected set, set(NoValue) raises the old exception again and the value stays *)
Definition no_parse (s : string) : option Z := None.
Definition int8 : vmodel := VM (int_cast no_parse) (Some (in_mset (int_interval (-128) 127))) None.
Theorem C54_stale_refuted : exists st, vm_init int8 (DNum (NI 5)) = Ok st /\
  let st1 := fst (vm_set int8 st (DNum (NI 300))) in
  snd (vm_set int8 st1 DNoValue) = Err ValueError /\ vs_value (fst (vm_set int8 st1 DNoValue)) = DNum (NI 5).
Proof. exists (VS (DNum (NI 5)) None). vm_compute. auto. Qed.
(** the text models store the text of the value *)
Theorem C54_text : forall str st v, v <> DNoValue -> (forall l, v <> DSeq l) ->
  vm_set (VM (str_cast str) None None) st v = (VS (DStr (str v)) None, Ok (vs_value st)).
Proof. intros str st v N S. destruct v; try congruence; try reflexivity. Qed.
(** refuted: the parameter contains of the integer models cannot be a set *)
Theorem C54_contains_refuted : forall parse lo hi s sh, intn_model parse lo hi (CASet s) sh = Err TypeError.
Proof. reflexivity. Qed.
Example C54_case : intn_model no_parse (-128) 127 CANone None = Ok int8 /\ exists st, vm_init int8 (DNum (NI 5)) = Ok st /\
  vs_value (vrun int8 st [VSet (DNum (NI 300)); VSet (DSeq [DNum (NI 1); DSeq [DNum (NI (-128))]]); VSet (DSeq [DNum (NI 128)])])
  = DSeq [DNum (NI 1); DSeq [DNum (NI (-128))]].
Proof. split; [reflexivity|]. exists (VS (DNum (NI 5)) None). vm_compute. auto. Qed.
(** shape (2, 3): two rows of up to three numbers *)
Example C54_shape_case : let m := VM Ok None (Some [Dim 2; Dim 3]) in
  let row n := DSeq (repeat (DNum (NI 1)) n) in
  fits [Dim 2; Dim 3] (shape false (DSeq [row 1%nat; row 3%nat])) /\
  (exists st, vm_init m (DSeq [row 1%nat; row 3%nat]) = Ok st) /\
  (forall st, snd (vm_set m st (DSeq [row 1%nat; row 4%nat])) = Err ValueError) /\
  (forall st, snd (vm_set m st (row 2%nat)) = Err ValueError).
Proof.
  intros m row. split; [apply check_fits; vm_compute; reflexivity|]. split; [eexists; vm_compute; reflexivity|].
  split; intro st; vm_compute; reflexivity.
Qed.

(** * C58 *)
(** asking whether a value is allowed answers correctly and does not change the stored value *)
Theorem C58_value_model : forall m st v, vs_value (fst (vm_in m st v)) = vs_value st /\
  (snd (vm_in m st v) = true <-> v = DNoValue \/ exists w, cast_ok m v w /\ fits_model m w).
Proof.
  intros m st v. unfold vm_in. pose proof (accept_ok m v) as A.
  assert (X : forall w, cast_ok m v w /\ fits_model m w -> accept m v = Ok w) by (intros w H; apply A; auto).
  destruct v; try (split; [reflexivity|]; cbn; split; auto; fail);
    (destruct (accept m _) as [w|e] eqn:E; (split; [reflexivity|]); cbn; split; intro H;
     [right; exists w; apply A; auto|auto|discriminate|destruct H as [H|(w & H)]; [discriminate|apply X in H; discriminate]]).
Qed.
(** the answer is the one set() would give *)
Theorem C58_agrees_with_set : forall m st v, v <> DNoValue ->
  (snd (vm_in m st v) = true <-> exists old, snd (vm_set m st v) = Ok old).
Proof.
  intros m st v N. rewrite (proj2 (C58_value_model m st v)). destruct (C54_set m st v N) as [(w & A & B & C & _)|(A & (e & C) & _)].
  - rewrite C. split; eauto.
  - rewrite C. split; [intros [K|K]; [contradiction|exfalso; auto]|intros [o K]; discriminate].
Qed.
(** refuted for iTDataModel.check(): it stores the checked value *)
Theorem C58_data_model_refuted : dm_check Ok (DNum (NI 1)) (DNum (NI 2)) = (DNum (NI 2), true).
Proof. reflexivity. Qed.
(** its answer is right, and without an allowed value nothing changes *)
Theorem C58_data_model_partial : forall validator st v,
  (snd (dm_check validator st v) = true <-> exists w, validator v = Ok w) /\
  (snd (dm_check validator st v) = false -> fst (dm_check validator st v) = st).
Proof.
  intros val st v. unfold dm_check. destruct (val v); cbn; (split; [split; [|intros [w K]]|]); eauto; discriminate.
Qed.
(** iTDataModel: the stored value is NoValue or was returned by the validator; the calls are set, check, clear *)
Theorem C58_data_model_history : forall validator v0 st ops, dm_init validator v0 = Ok st ->
  let w := fold_left (fun st o => match o with VSet v => fst (dm_set validator st v) | VCheck v => fst (dm_check validator st v) | VClear => fst (dm_clear st) end) ops st in
  w = DNoValue \/ exists v, validator v = Ok w.
Proof.
  intros val v0 st ops I.
  assert (V : st = DNoValue \/ exists v, val v = Ok st) by (destruct v0; cbn in I; eauto; injection I as <-; auto).
  clear I. cbn zeta. revert st V. induction ops as [|o ops IH]; intros st V; [exact V|]. cbn [fold_left]. apply IH. destruct o as [v|v|]; cbn.
  - unfold dm_set. destruct v; auto; destruct (val _) eqn:E; cbn; eauto.
  - unfold dm_check. destruct (val v) eqn:E; cbn; eauto.
  - auto.
Qed.

(** * C59 *)
Definition keys (d : data) : list dkey := map fst d.
Lemma dkey_eqb_eq a b : dkey_eqb a b = true <-> a = b.
Proof. destruct a, b; cbn; split; try discriminate; auto; [intro H; apply String.eqb_eq in H; congruence|intro H; injection H as ->; apply String.eqb_refl]. Qed.
Lemma raw_get_set d k e k' : raw_get (raw_set d k e) k' = if dkey_eqb k k' then Some e else raw_get d k'.
Proof.
  induction d as [|[q x] d IH]; cbn. { auto. }
  destruct (dkey_eqb q k) eqn:E; cbn.
  - apply dkey_eqb_eq in E. subst. destruct (dkey_eqb k k'); auto.
  - rewrite IH. destruct (dkey_eqb q k') eqn:F; auto. apply dkey_eqb_eq in F. subst. destruct (dkey_eqb k k') eqn:G; auto.
    apply dkey_eqb_eq in G. subst. assert (dkey_eqb k' k' = true) by (apply dkey_eqb_eq; auto). congruence.
Qed.
Lemma raw_get_del d k k' : NoDup (keys d) -> raw_get (raw_del d k) k' = if dkey_eqb k k' then None else raw_get d k'.
Proof.
  induction d as [|[q x] d IH]; cbn; intro N. { destruct (dkey_eqb k k'); auto. }
  inversion N; subst. destruct (dkey_eqb q k) eqn:E; cbn.
  - apply dkey_eqb_eq in E. subst. destruct (dkey_eqb k k') eqn:F; auto. apply dkey_eqb_eq in F. subst.
    assert (G : forall d, ~ In k' (keys d) -> raw_get d k' = None).
    { clear. induction d as [|[q x] d IH]; cbn; auto. intro H. destruct (dkey_eqb q k') eqn:E; [apply dkey_eqb_eq in E; subst; exfalso; auto|auto]. }
    apply G. auto.
  - rewrite IH by auto. destruct (dkey_eqb q k') eqn:F; auto. apply dkey_eqb_eq in F. subst. destruct (dkey_eqb k k') eqn:G; auto.
    apply dkey_eqb_eq in G. subst. assert (dkey_eqb k' k' = true) by (apply dkey_eqb_eq; auto). congruence.
Qed.
(** d[k] = v: reading k gives v, all other keys are unchanged *)
Theorem C59_setitem : forall d k v, (k = KNo -> v <> DNoValue) ->
  data_getitem (data_setitem d k (EPlain v)) k = Ok v /\
  forall k', k' <> k -> data_getitem (data_setitem d k (EPlain v)) k' = data_getitem d k'.
Proof.
  intros d k v H.
  assert (E : data_setitem d k (EPlain v) = raw_set d k (EPlain v)).
  { destruct k; auto. cbn. destruct v; auto. exfalso. apply H; auto. }
  rewrite E. unfold data_getitem. split.
  - rewrite raw_get_set. assert (dkey_eqb k k = true) as -> by (apply dkey_eqb_eq; auto). auto.
  - intros k' N. rewrite raw_get_set. destruct (dkey_eqb k k') eqn:F; auto. apply dkey_eqb_eq in F. congruence.
Qed.
(** del d[k], d.pop(k) *)
Theorem C59_delete : forall d k, NoDup (keys d) ->
  match data_getitem d k with
  | Ok v => exists d', data_delitem d k = Ok d' /\ (exists e, data_pop d k = Ok (d', e)) /\ data_getitem d' k = Err KeyError /\
                       forall k', k' <> k -> data_getitem d' k' = data_getitem d k'
  | Err _ => data_delitem d k = Err KeyError /\ data_pop d k = Err KeyError
  end.
Proof.
  intros d k N. unfold data_getitem, data_delitem, data_pop. 
  assert (X : forall e, raw_get d k = Some e -> raw_get (raw_del d k) k = None /\ forall k', k' <> k -> raw_get (raw_del d k) k' = raw_get d k').
  { intros e _. split; [|intros k' K]; rewrite raw_get_del by auto.
    - assert (dkey_eqb k k = true) as -> by (apply dkey_eqb_eq; auto). auto.
    - destruct (dkey_eqb k k') eqn:F; auto. apply dkey_eqb_eq in F. congruence. }
  destruct (raw_get d k) as [[v|val v]|]; auto; (destruct (X _ eq_refl) as [A B]; exists (raw_del d k); split; [auto|]; split; [eauto|]; rewrite A; split; auto; intros k' K; rewrite B; auto).
Qed.
(** keys stay unique *)
Theorem C59_unique_keys : forall d k e, NoDup (keys d) -> NoDup (keys (data_setitem d k e)) /\ NoDup (keys (raw_del d k)).
Proof.
  assert (A : forall d k e x, In x (keys (raw_set d k e)) -> x = k \/ In x (keys d)).
  { induction d as [|[q y] d IH]; cbn; intros k e x; [intros [<-|[]]; auto|]. destruct (dkey_eqb q k) eqn:E; cbn; [tauto|]. intros [<-|H]; auto. destruct (IH _ _ _ H); auto. }
  assert (B : forall d k x, In x (keys (raw_del d k)) -> In x (keys d)).
  { induction d as [|[q y] d IH]; cbn; intros k x; [auto|]. destruct (dkey_eqb q k); cbn; [auto|]. intros [<-|H]; auto. right. eapply IH. exact H. }
  assert (C : forall d k e, NoDup (keys d) -> NoDup (keys (raw_set d k e))).
  { induction d as [|[q y] d IH]; cbn; intros k e N; [repeat constructor; auto|]. inversion N; subst. destruct (dkey_eqb q k) eqn:E; cbn; constructor; auto.
    intro H. apply A in H as [->|H]; auto. assert (dkey_eqb k k = true) by (apply dkey_eqb_eq; auto). congruence. }
  assert (D : forall d k, NoDup (keys d) -> NoDup (keys (raw_del d k))).
  { induction d as [|[q y] d IH]; cbn; intros k N; auto. inversion N; subst. destruct (dkey_eqb q k); cbn; auto. constructor; auto. intro H. apply B in H. auto. }
  intros d k e N. split; auto. destruct k; cbn; auto. destruct (is_novalue e); auto. destruct (raw_get d KNo); auto.
Qed.
(** d.get(k, default): d[k], or the default if there is no such key *)
Theorem C59_get : forall d k default,
  (In k (keys d) -> data_getitem d k = Ok (data_get d k default)) /\
  (~ In k (keys d) -> data_get d k default = default /\ data_getitem d k = Err KeyError).
Proof.
  intros d k df. unfold data_get, data_getitem.
  assert (G : match raw_get d k with Some _ => In k (keys d) | None => ~ In k (keys d) end).
  { induction d as [|[q x] d IH]; cbn; auto. destruct (dkey_eqb q k) eqn:E; [left; apply dkey_eqb_eq; auto|].
    destruct (raw_get d k); auto. intros [K|K]; auto. subst. assert (dkey_eqb k k = true) by (apply dkey_eqb_eq; auto). congruence. }
  destruct (raw_get d k) as [[v|val v]|]; split; intro H; auto; contradiction.
Qed.
(** refuted: assigning to a key that holds a model replaces the model, nothing is validated *)
Theorem C59_model_refuted : let m := EModel (fun v => match v with DNum n => Ok (DNum n) | _ => Err ValueError end) (DNum (NI 1)) in
  data_setitem [(KStr "a", m)] (KStr "a") (EPlain (DStr "x")) = [(KStr "a", EPlain (DStr "x"))].
Proof. reflexivity. Qed.
(** refuted: deleting or popping such a key removes the model, and pop() returns the model object *)
Theorem C59_delete_refuted : let m := EModel Ok (DNum (NI 1)) in
  data_delitem [(KStr "a", m)] (KStr "a") = Ok [] /\ data_pop [(KStr "a", m)] (KStr "a") = Ok ([], m).
Proof. split; reflexivity. Qed.
(** update(): all values are validated before anything is written, one rejected value leaves everything as it was *)
Theorem C59_update_atomic : forall d l e, snd (data_update d l) = Err e -> fst (data_update d l) = d.
Proof. intros d l e. unfold data_update. destruct (update_check d l); cbn; [discriminate|auto]. Qed.
Theorem C59_update_rejects : forall d l k v val st err, In (k, v) l -> raw_get d k = Some (EModel val st) -> val v = Err err ->
  exists e, snd (data_update d l) = Err e.
Proof.
  intros d l k v val st err I G E. unfold data_update.
  assert (X : exists e, update_check d l = Err e).
  { induction l as [|kv l IH]; [destruct I|]. cbn. destruct I as [->|I].
    - unfold update_ok. cbn. rewrite G, E. cbn. eauto.
    - destruct (update_ok d kv) as [[]|]; cbn; eauto. }
  destruct X as [e ->]. cbn. eauto.
Qed.
(** a successful update(): a model that holds a true value (not 0, '', []) keeps being a model and
    stores what its validator returns, under all other given keys the given value is stored; the
    keys that are not given keep their values.  [l] is a dict: its keys are different. *)
Theorem C59_update_partial : forall d l d', data_update d l = (d', Ok tt) -> NoDup (map fst l) ->
  (forall k, ~ In k (map fst l) -> raw_get d' k = raw_get d k) /\
  (forall k v, In (k, v) l -> match raw_get d k with
     | Some (EModel validator st) => falsy st = false -> v <> DNoValue -> exists w, validator v = Ok w /\ raw_get d' k = Some (EModel validator w)
     | _ => data_getitem d' k = Ok v
     end).
Proof.
  intros d l d' U N.
  assert (C : update_check d l = Ok tt /\ d' = fold_left (fun d kv => update_one d (fst kv) (snd kv)) l d).
  { unfold data_update in U. destruct (update_check d l) as [[]|e]; [|discriminate]. injection U as <-. auto. }
  destruct C as [C ->]. clear U.
  assert (OK : forall k v val st, In (k, v) l -> raw_get d k = Some (EModel val st) -> exists w, val v = Ok w).
  { clear N. induction l as [|kv l IH]; [intros ? ? ? ? []|]. cbn in C. destruct (update_ok d kv) as [[]|] eqn:E; [|discriminate]. cbn in C.
    intros k v val st [->|I] G; [|eapply IH; eauto]. unfold update_ok in E. cbn in E. rewrite G in E. destruct (val v); [eauto|discriminate]. }
  clear C.
  assert (O1 : forall d k v k', k' <> k -> raw_get (update_one d k v) k' = raw_get d k').
  { clear. intros d k v k' N.
    assert (X : forall e, raw_get (raw_set d k e) k' = raw_get d k').
    { intro e. rewrite raw_get_set. destruct (dkey_eqb k k') eqn:E; auto. apply dkey_eqb_eq in E. congruence. }
    unfold update_one. destruct (raw_get d k) as [[|val st]|]; auto. destruct v; auto; try (destruct (falsy st); auto; fail); destruct (val _); auto; destruct (falsy st); auto. }
  assert (FR : forall l d k, ~ In k (map fst l) -> raw_get (fold_left (fun d kv => update_one d (fst kv) (snd kv)) l d) k = raw_get d k).
  { clear - O1. induction l as [|[q x] l IH]; intros d k H; cbn in *; auto. rewrite IH by auto. apply O1. intro; subst; auto. }
  split; [intros; apply FR; auto|].
  intros k v I. revert d OK N I. induction l as [|[q x] l IH]; intros d OK N I; [destruct I|]. cbn [map fst] in N. inversion N; subst. cbn [fold_left fst snd].
  destruct I as [E|I].
  - injection E as -> ->.
    assert (K : dkey_eqb k k = true) by (apply dkey_eqb_eq; auto).
    specialize (OK k v). unfold data_getitem. rewrite !FR by auto.
    unfold update_one. destruct (raw_get d k) as [[u|val st]|] eqn:G; try (rewrite raw_get_set, K; reflexivity).
    intros F NV. destruct (OK val st (or_introl eq_refl) eq_refl) as [w W]. exists w. split; auto.
    destruct v; try congruence; rewrite W, F, raw_get_set, K; reflexivity.
  - assert (Q : k <> q) by (intro; subst; apply H1; apply in_map_iff; exists (q, v); auto).
    specialize (IH (update_one d q x)). rewrite (O1 d q x k Q) in IH. apply IH; auto.
    intros k' v' val st I' G. assert (Q' : k' <> q) by (intro; subst; apply H1; apply in_map_iff; exists (q, v'); auto).
    rewrite O1 in G by auto. apply (OK k' v' val st); auto. right. auto.
Qed.
Example C59_update_case : let d := [(KStr "a", EModel (fun v => match v with DNum (NI z) => Ok (DNum (NI (z + 1))) | _ => Err ValueError end) (DNum (NI 1))); (KStr "b", EPlain (DNum (NI 2))); (KStr "c", EPlain (DNum (NI 3)))] in
  let l := [(KStr "a", DNum (NI 7)); (KStr "b", DStr "x"); (KStr "n", DNum (NI 0))] in
  NoDup (map fst l) /\ exists d', data_update d l = (d', Ok tt) /\ data_getitem d' (KStr "a") = Ok (DNum (NI 8)) /\ data_getitem d' (KStr "b") = Ok (DStr "x") /\ data_getitem d' (KStr "c") = Ok (DNum (NI 3)).
Proof. split; [repeat constructor; cbn; intuition discriminate|]. eexists. split; [reflexivity|]. vm_compute. auto. Qed.
(** refuted: update() replaces a model that holds 0 (or '' or []) by the plain value *)
Theorem C59_update_refuted : let val := fun v => match v with DNum n => Ok (DNum n) | _ => Err ValueError end in
  fst (data_update [(KStr "a", EModel val (DNum (NI 0)))] [(KStr "a", DNum (NI 5))]) = [(KStr "a", EPlain (DNum (NI 5)))] /\
  fst (data_update [(KStr "a", EModel val (DNum (NI 1)))] [(KStr "a", DNum (NI 5))]) = [(KStr "a", EModel val (DNum (NI 5)))].
Proof. vm_compute. auto. Qed.
Example C59_case : let d := [(KStr "a", EPlain (DNum (NI 1))); (KNo, EPlain (DStr "x"))] in
  NoDup (keys d) /\ data_getitem (data_setitem d (KStr "b") (EPlain (DNum (NI 2)))) (KStr "b") = Ok (DNum (NI 2)) /\ data_getitem d KNo = Ok (DStr "x").
Proof. split; [repeat constructor; cbn; intuition discriminate|]. vm_compute. auto. Qed.

Print Assumptions C54_history.
Print Assumptions C54_set.
Print Assumptions C54_rejected.
Print Assumptions C54_empty_partial.
Print Assumptions C54_constructor.
Print Assumptions C54_int_models.
Print Assumptions C54_ascii.
Print Assumptions C54_stale_refuted.
Print Assumptions C58_value_model.
Print Assumptions C58_agrees_with_set.
Print Assumptions C58_data_model_history.
Print Assumptions C59_setitem.
Print Assumptions C59_delete.
Print Assumptions C59_unique_keys.
Print Assumptions C59_update_atomic.
Print Assumptions C59_update_rejects.
Print Assumptions C54_int_accepts.
Print Assumptions C54_data_model_set.
Print Assumptions C59_get.
Print Assumptions C59_update_partial.
