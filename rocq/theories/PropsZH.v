(** C95: value models can be rebuilt from their arguments. *)
From Verif Require Import Base MathSet DataModel DataFacts InitArgs.
Import ListNotations.
Local Open Scope string_scope.
Local Open Scope list_scope.

(** a cast does not change what it has produced (int(int(x)), str(str(x)), ...) *)
Definition settled (cast : dval -> res dval) : Prop := forall v w, (forall l, v <> DSeq l) -> cast v = Ok w ->
  (forall l, w <> DSeq l) /\ cast w = Ok w.
(** two models that cannot be told apart by value, description, shape, contains and formatter *)
Definition held (cast : dval -> res dval) (test : nat -> dval -> res bool) (o : vobj) : Prop :=
  vo_val o = DNoValue \/ vo_val o <> DNoValue /\ exists v, cast_ok (model_of cast test (vo_shape o) (vo_cont o)) v (vo_val o) /\ fits_model (model_of cast test (vo_shape o) (vo_cont o)) (vo_val o).

Lemma cast_again cast test sh c : settled cast -> forall v w, cast_ok (model_of cast test sh c) v w -> cast_ok (model_of cast test sh c) w w.
Proof.
  intros S. induction v as [|n|s|l IH|n] using dval_ind'; intros w H; inversion H as [v' w' A B C|l1 l2 F]; subst;
    try (exfalso; eapply A; reflexivity);
    try (cbn in B; destruct (S _ _ A B) as (B1 & B3); constructor; auto; fail).
  apply cast_seq. clear H. induction F as [|a b l l2 Fab F IHF]; constructor.
  - apply (IH a); auto. left. reflexivity.
  - apply IHF. intros v I. apply IH. right. exact I.
Qed.
Lemma held_intro cast test w d sh c f v : cast_ok (model_of cast test sh c) v w -> fits_model (model_of cast test sh c) w -> held cast test (VO w d sh c f).
Proof.
  intros A B. assert (D : w = DNoValue \/ w <> DNoValue) by (destruct w; auto; right; discriminate).
  destruct D as [->|D]; [left; reflexivity|right; cbn; eauto].
Qed.
Lemma accept_again cast test o : settled cast -> held cast test o ->
  exists st, vm_init (model_of cast test (vo_shape o) (vo_cont o)) (vo_val o) = Ok st /\ vs_value st = vo_val o.
Proof.
  intros S [E|(N & v & C & F)].
  - rewrite E. cbn. eauto.
  - apply (cast_again _ _ _ _ S) in C. pose proof (proj2 (accept_ok _ _ _) (conj C F)) as A. unfold vm_init.
    destruct (vo_val o); try congruence; rewrite A; eexists; split; reflexivity.
Qed.
Lemma held_init cast test v d sh c f o : settled cast -> mk_obj cast test v d sh c f = Ok o -> held cast test o /\ vo_desc o <> Some "".
Proof.
  intros S. unfold mk_obj, vm_init. pose proof (accept_ok (model_of cast test sh c) v) as A.
  assert (D : match d with Some "" => None | _ => d end <> Some "") by (destruct d as [[|]|]; discriminate).
  destruct v; cbn [rbind]; [intro H; injection H as <-; split; [left; reflexivity|exact D]|..];
    (destruct (accept _ _) as [w|]; cbn; [|discriminate]; intro H; injection H as <-; split; [cbn [vs_value]|exact D];
     destruct (proj1 (A w) eq_refl) as [A1 A2]; eapply held_intro; eauto).
Qed.
Lemma held_step cast test o p : settled cast -> held cast test o -> held cast test (obj_step cast test o p).
Proof.
  intros S H. destruct p as [v| |s|f]; try exact H; try (left; reflexivity).
  assert (D : v = DNoValue \/ v <> DNoValue) by (destruct v; auto; right; discriminate). destruct D as [->|D]; [left; reflexivity|].
  replace (obj_step cast test o (MSet v)) with (match accept (model_of cast test (vo_shape o) (vo_cont o)) v with
    | Ok w => VO w (vo_desc o) (vo_shape o) (vo_cont o) (vo_fmt o) | Err _ => o end) by (destruct v; auto; congruence).
  pose proof (accept_ok (model_of cast test (vo_shape o) (vo_cont o)) v) as A. destruct (accept _ v) as [w|]; auto.
  destruct (proj1 (A w) eq_refl) as [A1 A2]. eapply held_intro; eauto.
Qed.
Lemma held_run cast test ops : forall o, settled cast -> held cast test o -> held cast test (obj_run cast test o ops).
Proof. induction ops as [|p ops IH]; intros o S H; [exact H|]. apply IH; auto. apply held_step; auto. Qed.
Lemma obj_init_mk cast test args o : obj_init cast test args = Ok o -> exists v d sh c f, mk_obj cast test v d sh c f = Ok o.
Proof.
  intro H. unfold obj_init in H. repeat (match type of H with match ?x with _ => _ end = _ => destruct x end; try discriminate H); eauto 6.
Qed.

(** No history empties the description text by set_description(""). *)
Definition no_empty_text (ops : list mop) : Prop := forall s, In (MDesc s) ops -> s <> "".
Lemma desc_run cast test ops : forall o, vo_desc o <> Some "" -> no_empty_text ops -> vo_desc (obj_run cast test o ops) <> Some "".
Proof.
  induction ops as [|p ops IH]; intros o D N; [exact D|]. cbn. apply IH; [|intros s I; apply N; right; exact I].
  destruct p as [v| |s|f]; cbn; auto.
  - destruct v; cbn; auto; destruct (accept _ _); auto.
  - intro E. injection E as ->. apply (N ""); [left|]; reflexivity.
Qed.
Lemma rebuild cast test o full : settled cast -> held cast test o -> vo_desc o <> Some "" -> obj_init cast test (init_args full false o) = Ok o.
Proof.
  intros S H D. destruct (accept_again _ _ _ S H) as (st & A & B).
  assert (M : mk_obj cast test (vo_val o) (vo_desc o) (vo_shape o) (vo_cont o) (vo_fmt o) = Ok o).
  { unfold mk_obj. rewrite A. cbn. rewrite B. destruct o as [v [[|a s]|] sh c f]; cbn in *; congruence. }
  unfold init_args. destruct o as [v d sh c f]. cbn in *.
  destruct full, f; cbn; auto; destruct c, sh, d as [[|]|]; cbn; auto; congruence.
Qed.
(** Whatever the constructor call and the history of set, clear, set_description, set_formatter:
    class( *m.get_init_args()) is a model with the same value, description, shape, contains and
    formatter, and is == m. *)
Theorem C95_rebuild_partial : forall cast test args o ops full, settled cast -> obj_init cast test args = Ok o -> no_empty_text ops ->
  let m := obj_run cast test o ops in
  obj_init cast test (init_args full false m) = Ok m.
Proof.
  intros cast test args o ops full S I N m. destruct (obj_init_mk _ _ _ _ I) as (v & d & sh & c & f & M).
  destruct (held_init _ _ _ _ _ _ _ _ S M) as [H D]. apply rebuild; auto; [apply held_run; auto|apply desc_run; auto].
Qed.
(** What the calls of a history leave behind: the shape and contains of the constructor, the last
    description and the last formatter; and no call but set and clear touches the value. *)
Fixpoint last_text (d : option string) (ops : list mop) : option string :=
  match ops with [] => d | MDesc s :: r => last_text (Some s) r | _ :: r => last_text d r end.
Fixpoint last_format (f : option nat) (ops : list mop) : option nat :=
  match ops with [] => f | MFmt None :: r => last_format (Some 0%nat) r | MFmt (Some n) :: r => last_format (Some n) r | _ :: r => last_format f r end.
Theorem C95_history : forall cast test ops o, let m := obj_run cast test o ops in
  vo_shape m = vo_shape o /\ vo_cont m = vo_cont o /\ vo_desc m = last_text (vo_desc o) ops /\ vo_fmt m = last_format (vo_fmt o) ops /\
  ((forall p, In p ops -> (exists s, p = MDesc s) \/ (exists f, p = MFmt f)) -> vo_val m = vo_val o).
Proof.
  intros cast test ops. induction ops as [|p ops IH]; intros o m; subst m; [cbn; auto|].
  destruct (IH (obj_step cast test o p)) as (A & B & C & D & E). unfold obj_run in *. cbn [fold_left]. rewrite A, B, C, D. clear A B C D IH.
  destruct p as [v| |s|f].
  - assert (Q : forall X : Prop, (In (MSet v) (MSet v :: ops) -> (exists s, MSet v = MDesc s) \/ (exists f, MSet v = MFmt f)) -> X).
    { intros X [[s H]|[f H]]; [left; reflexivity|discriminate|discriminate]. }
    repeat split; try (intro H; apply Q; apply H); destruct v; cbn; auto; destruct (accept _ _); auto.
  - cbn. repeat split. intro H. destruct (H MClear) as [[s Q]|[f Q]]; [left; reflexivity|discriminate|discriminate].
  - cbn in *. repeat split. intro H. apply E. intros p I. apply H. right. exact I.
  - cbn in *. repeat split; [destruct f; reflexivity|]. intro H. apply E. intros p I. apply H. right. exact I.
Qed.
(** The value after one call: clear empties; set stores what the model's rules make of the new
    value, and a value against the rules changes nothing. *)
Theorem C95_set : forall cast test o v, v <> DNoValue -> let vm := model_of cast test (vo_shape o) (vo_cont o) in
  (forall w, cast_ok vm v w -> fits_model vm w -> vo_val (obj_step cast test o (MSet v)) = w) /\
  ((forall w, cast_ok vm v w -> ~ fits_model vm w) -> obj_step cast test o (MSet v) = o) /\
  vo_val (obj_step cast test o MClear) = DNoValue.
Proof.
  intros cast test o v N vm.
  replace (obj_step cast test o (MSet v)) with (match accept vm v with
    | Ok w => VO w (vo_desc o) (vo_shape o) (vo_cont o) (vo_fmt o) | Err _ => o end) by (destruct v; auto; congruence).
  split; [|split; [|reflexivity]].
  - intros w A B. rewrite (proj2 (accept_ok vm v w) (conj A B)). reflexivity.
  - intro H. pose proof (accept_ok vm v) as A. destruct (accept vm v) as [w|]; auto. destruct (proj1 (A w) eq_refl) as [A1 A2]. destruct (H w A1 A2).
Qed.
(** get_init_args(clear=True): the same model without value *)
Theorem C95_cleared : forall cast test o full, vo_desc o <> Some "" ->
  obj_init cast test (init_args full true o) = Ok (VO DNoValue (vo_desc o) (vo_shape o) (vo_cont o) (vo_fmt o)).
Proof.
  intros cast test [v d sh c f] full D. unfold init_args. cbn in *.
  destruct full, f; cbn; destruct c, sh, d as [[|]|]; cbn; auto; congruence.
Qed.
(** == means equal in all five (for models whose description is not the empty text) *)
Theorem C95_equal : forall a b, vo_desc a <> Some "" -> vo_desc b <> Some "" -> (obj_eq a b <-> a = b).
Proof.
  intros a b A B. split; [|intros ->; reflexivity]. unfold obj_eq, init_args. destruct a as [v1 d1 s1 c1 f1], b as [v2 d2 s2 c2 f2]. cbn in *.
  destruct f1, f2; cbn; try (destruct c1, s1, d1 as [[|]|]; cbn; congruence);
    try (destruct c2, s2, d2 as [[|]|]; cbn; congruence);
    try (destruct c1, s1, d1 as [[|]|], c2, s2, d2 as [[|]|]; cbn; congruence).
Qed.
(** the casts of the package settle *)
Theorem C95_casts : settled Ok /\ (forall parse, settled (int_cast parse)) /\
  (forall str, (forall s, str (DStr s) = s) -> settled (str_cast str) /\ settled (ascii_cast str)).
Proof.
  split; [|split].
  - intros v w N H. injection H as <-. auto.
  - intros parse [|n|s|l|n] w _; cbn; try discriminate.
    + destruct n; try discriminate. intro H; injection H as <-. split; [discriminate|reflexivity].
    + destruct (parse s); [|discriminate]. intro H; injection H as <-. split; [discriminate|reflexivity].
  - intros str S. split; intros v w _ H.
    + unfold str_cast in *. injection H as <-. rewrite S. split; [discriminate|reflexivity].
    + unfold ascii_cast in *. destruct (forallb _ _) eqn:E; [|discriminate]. injection H as <-. rewrite S, E. split; [discriminate|reflexivity].
Qed.
(** the integer models: with the default formatter *)
Lemma intn_mk cast test args o : intn_init cast test args = Ok o -> exists v d sh f, mk_obj cast test v d sh (Some 0%nat) f = Ok o.
Proof.
  intro H. unfold intn_init in H. cbv zeta in H. repeat (match type of H with match ?x with _ => _ end = _ => destruct x end; try discriminate H); eauto 6.
Qed.
Lemma run_cont cast test ops : forall o, vo_cont (obj_run cast test o ops) = vo_cont o.
Proof.
  induction ops as [|p ops IH]; intro o; [reflexivity|]. cbn. unfold obj_run in IH. rewrite IH.
  destruct p as [v| |s|f]; cbn; auto. destruct v; cbn; auto; destruct (accept _ _); auto.
Qed.
Theorem C95_int_partial : forall cast test args o ops, settled cast -> intn_init cast test args = Ok o -> no_empty_text ops ->
  let m := obj_run cast test o ops in vo_fmt m = None -> intn_init cast test (intn_args false false m) = Ok m.
Proof.
  intros cast test args o ops S I N m F. destruct (intn_mk _ _ _ _ I) as (v & d & sh & f & M).
  destruct (held_init _ _ _ _ _ _ _ _ S M) as [H D].
  assert (C : vo_cont o = Some 0%nat).
  { unfold mk_obj in M. destruct (vm_init _ _); cbn in M; [|discriminate]. injection M as <-. reflexivity. }
  assert (HM : held cast test m) by (apply held_run; auto). assert (DM : vo_desc m <> Some "") by (apply desc_run; auto).
  assert (CM : vo_cont m = Some 0%nat) by (unfold m; rewrite run_cont; exact C).
  destruct (accept_again _ _ _ S HM) as (st & A & B).
  assert (Q : mk_obj cast test (vo_val m) (vo_desc m) (vo_shape m) (Some 0%nat) None = Ok m).
  { unfold mk_obj. rewrite CM in A. rewrite A. cbn. rewrite B. destruct m as [v1 [[|a s]|] sh1 c1 f1]; cbn in *; congruence. }
  clear - F DM CM Q. destruct m as [v d sh c f]. cbn in *. subst. unfold intn_args. cbn. destruct sh, d as [[|]|]; cbn; auto; congruence.
Qed.
(** ** where it fails *)
(** every integer model with a formatter, or asked for the full list *)
Theorem C95_int_refuted : forall cast test args o ops full, intn_init cast test args = Ok o ->
  let m := obj_run cast test o ops in full = true \/ vo_fmt m <> None -> intn_init cast test (intn_args full false m) = Err TypeError.
Proof.
  intros cast test args o ops full I m F. destruct (intn_mk _ _ _ _ I) as (v & d & sh & f & M).
  assert (C : vo_cont m = Some 0%nat).
  { unfold m. rewrite run_cont. unfold mk_obj in M. destruct (vm_init _ _); cbn in M; [|discriminate]. injection M as <-. reflexivity. }
  destruct m as [v1 d1 sh1 c1 f1]. cbn in *. subst. unfold intn_args, init_args. cbn.
  destruct full, f1; cbn; auto. destruct F; congruence.
Qed.
(** every pattern model that has a pattern: it cannot even be created *)
Theorem C95_pattern_refuted : forall cast test v d sh c p f,
  pat_init cast test [AVal v; ADesc d; AShape sh; ACont c; APat (Some p)] = Err NameError /\
  pat_init cast test [AVal v; ADesc d; AShape sh; ACont c; APat (Some p); AFmt f] = Err NameError.
Proof. split; reflexivity. Qed.
(** ... without a pattern they are rebuilt *)
Theorem C95_pattern_partial : forall cast test args o ops full, settled cast -> pat_init cast test args = Ok o -> no_empty_text ops ->
  let m := obj_run cast test o ops in pat_init cast test (pat_args full false m) = Ok m.
Proof.
  intros cast test args o ops full S I N m.
  assert (M : exists v d sh c f, mk_obj cast test v d sh c f = Ok o).
  { unfold pat_init in I. cbv zeta in I. repeat (match type of I with match ?x with _ => _ end = _ => destruct x end; try discriminate I); eauto 6; eapply obj_init_mk; eauto. }
  destruct M as (v & d & sh & c & f & M). destruct (held_init _ _ _ _ _ _ _ _ S M) as [H D].
  assert (HM : held cast test m) by (apply held_run; auto). assert (DM : vo_desc m <> Some "") by (apply desc_run; auto).
  pose proof (rebuild cast test m false S HM DM) as R1. pose proof (rebuild cast test m true S HM DM) as R2.
  clear - R1 R2. destruct m as [v d sh c f]. unfold pat_args. unfold init_args in *. cbn [vo_val vo_desc vo_shape vo_cont vo_fmt] in *.
  destruct full, f; cbn [orb] in *; try exact R2.
  destruct c; [exact R1|]. destruct sh; [exact R1|]. destruct d as [[|]|]; exact R1.
Qed.
(** the enumeration model delivers five arguments for two parameters *)
Theorem C95_enum_refuted : forall o n, vo_fmt o = Some n -> enum_arity (length (enum_args o)) = Err TypeError.
Proof. intros [v d sh c f] n E. cbn in E. subst. reflexivity. Qed.
(** set_description("") *)
Theorem C95_description_refuted : let m := obj_run Ok (fun _ _ => Ok true) (VO DNoValue None None (Some 1%nat) None) [MDesc ""] in
  exists m', obj_init Ok (fun _ _ => Ok true) (init_args false false m) = Ok m' /\ m' <> m /\ ~ obj_eq m' m.
Proof. cbn. eexists. split; [reflexivity|]. split; [|unfold obj_eq; cbn]; intro E; discriminate. Qed.
(** set_formatter(None) does not bring back the default: it sets a formatter, which the
    constructor's formatter=None does not *)
Theorem C95_formatter_refuted : forall cast test o, vo_fmt (obj_step cast test o (MFmt None)) <> None /\
  exists o', obj_init cast test [AVal DNoValue; ADesc None; AShape None; ACont None; AFmt None] = Ok o' /\ vo_fmt o' = None.
Proof. intros. split; [discriminate|]. eexists. split; reflexivity. Qed.
(** a model with a history *)
Example C95_case : let cast := int_cast (fun _ => Some 7%Z) in let test := fun _ v => Ok (match v with DNum (NI z) => Z.leb z 10 | _ => false end) in
  exists o, obj_init cast test [AVal (DStr "seven"); ADesc (Some "a number"); AShape (Some [Dim 2]); ACont (Some 3%nat)] = Err AttributeError /\
  obj_init cast test [AVal (DSeq [DStr "7"; DNum (NI 1)]); ADesc (Some "a number"); AShape (Some [Dim 2]); ACont (Some 3%nat)] = Ok o /\
  let m := obj_run cast test o [MSet (DNum (NI 5)); MSet (DSeq [DNum (NI 3)]); MSet (DSeq [DNum (NI 11)]); MFmt (Some 4%nat); MDesc "x"] in
  m = VO (DSeq [DNum (NI 3)]) (Some "x") (Some [Dim 2]) (Some 3%nat) (Some 4%nat) /\
  init_args false false m = [AVal (DSeq [DNum (NI 3)]); ADesc (Some "x"); AShape (Some [Dim 2]); ACont (Some 3%nat); AFmt (Some 4%nat)].
Proof. eexists. split; [reflexivity|]. split; [reflexivity|]. cbn. split; reflexivity. Qed.
