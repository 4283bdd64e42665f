(** C107: str() of a single item of mathematical sets. *)
From Coq Require Import QArith Qabs Qpower Ascii Lqa.
From Verif Require Import Base MathSet MathStr MathStrFacts LitFacts PropsV SetRepr PropsZO ItemStr.
Import ListNotations.
Local Open Scope Z_scope.
Local Open Scope string_scope.
Local Open Scope list_scope.

Definition finite (n : num) : Prop := match n with NI _ | NF _ => True | _ => False end.
(** a variable with any format string, or a finite number that float() accepts without format *)
Definition shown_in_full (i : pitem) : Prop :=
  match pi_val i with
  | VVar s => variable s /\ match pi_fmt i with FHex | FOct | FBin => False | _ => True end
  | VNum n => finite n /\ too_big n = false /\ pi_fmt i = FStr
  end.
(** the text of the item evaluates to an item that cannot be told from it *)
Theorem C107_eval_partial : forall fstr i, shown_in_full i -> exists t, item_str fstr i = Ok t /\ eval t = Ok (SItem i).
Proof.
  intros fstr i H. exists (item_toks i). split.
  - unfold item_str, str_val, item_toks. unfold shown_in_full in H. destruct (pi_val i) as [[z|q| | |]|s]; cbn [finite] in H; try (exfalso; exact (proj1 H)).
    + destruct H as (_ & _ & ->). reflexivity.
    + destruct H as (_ & _ & ->). reflexivity.
    + reflexivity.
  - assert (P : plain i).
    { unfold shown_in_full in H. split; destruct (pi_val i) as [n|s].
      - destruct H as (F & B & _). split; [intros ->; exact F|exact B].
      - apply H.
      - destruct H as (_ & _ & ->). exact I.
      - apply H. }
    destruct (item_expr i P) as (e & -> & C & E). rewrite eval_print by exact C. exact E.
Qed.

(** a formatted number *)
Lemma formatted_toks v o f : match f with FFix _ _ | FExp _ _ => True | _ => False end ->
  [TName "mSetItem"; TOpen] ++ sep_toks (map (fun t => [t]) (KNum v :: item_args (PI (VNum v) o f))) ++ [TClose] =
  print (XCall "mSetItem" [XNum v; XBool o; XFmt f]).
Proof. destruct f; try contradiction; reflexivity. Qed.
Lemma eval_formatted v o f : too_big v = false -> match f with FFix _ _ | FExp _ _ => True | _ => False end ->
  eval (print (XCall "mSetItem" [XNum v; XBool o; XFmt f])) = Ok (SItem (PI (VNum v) o f)).
Proof.
  intros B F. rewrite eval_print by (constructor; intros a [<-|[<-|[<-|[]]]]; constructor).
  cbn [run map_all rbind]. unfold call. cbn [String.eqb Ascii.eqb Bool.eqb item_call mk_item]. rewrite B. reflexivity.
Qed.
Lemma str_formatted fstr q o f t r g : match f with FFix _ _ | FExp _ _ => True | _ => False end ->
  item_repr fstr (PI (VNum (NF q)) o f) = Ok t -> parse_item t false = Ok (PI (VNum (NF r)) false g) ->
  item_str fstr (PI (VNum (NF q)) o f) = Ok (print (XCall "mSetItem" [XNum (NF r); XBool o; XFmt f])).
Proof.
  intros F E P. unfold item_str.
  assert (V : str_val fstr (PI (VNum (NF q)) o f) = Ok (KNum (NF r))).
  { unfold str_val. cbn [pi_val pi_fmt]. destruct f; try contradiction; rewrite E; cbn [rbind]; rewrite P; reflexivity. }
  rewrite V. cbn [rbind]. f_equal. rewrite <- formatted_toks by exact F. destruct f; try contradiction; reflexivity.
Qed.
(** a float with a fixed point format: the item of the nearest number with as many digits behind
    the point (ties to even), with the same border flag and format *)
Theorem C107_fixed : forall fstr q o w n, (0 < n)%nat -> exists t r,
  item_str fstr (PI (VNum (NF q)) o (FFix w n)) = Ok t /\ eval t = Ok (SItem (PI (VNum (NF r)) o (FFix w n))) /\ nearest (10 ^ (- Z.of_nat n))%Q r q.
Proof.
  intros fstr q o w n N. destruct (C78_printed_fixed fstr q false w n N) as (t & r & f & E & P & R).
  exists (print (XCall "mSetItem" [XNum (NF r); XBool o; XFmt (FFix w n)])), r. split; [|split; [apply eval_formatted; [reflexivity|exact I]|exact R]].
  apply (str_formatted fstr q o (FFix w n) t r f); [exact I|exact E|exact P].
Qed.
(** with an exponent format: as many digits behind the leading one *)
Theorem C107_exponent : forall fstr q o w n, (0 < n)%nat -> exists t r,
  item_str fstr (PI (VNum (NF q)) o (FExp w n)) = Ok t /\ eval t = Ok (SItem (PI (VNum (NF r)) o (FExp w n))) /\ ((q == 0)%Q -> (r == 0)%Q) /\
  forall e, (10 ^ e <= Qabs q)%Q -> (Qabs q < 10 ^ (e + 1))%Q -> nearest (10 ^ (e - Z.of_nat n))%Q r q.
Proof.
  intros fstr q o w n N. destruct (C78_printed_exponent fstr q false w n N) as (t & r & f & E & P & Z0 & R).
  exists (print (XCall "mSetItem" [XNum (NF r); XBool o; XFmt (FExp w n)])), r. split; [|split; [apply eval_formatted; [reflexivity|exact I]|split; [exact Z0|exact R]]].
  apply (str_formatted fstr q o (FExp w n) t r f); [exact I|exact E|exact P].
Qed.
(** so a number that has no more digits than the format shows comes back *)
Lemma nearest_exact u r q m : (0 < u)%Q -> nearest u r q -> (q == inject_Z m * u)%Q -> (r == q)%Q.
Proof.
  intros U (k & K & D & _) Q. assert (k = m); [|subst; rewrite K, Q; reflexivity].
  assert (X : (Qabs (inject_Z (k - m)) * u <= (1 # 2) * u)%Q).
  { assert (Y : (Qabs (inject_Z (k - m)) * u == Qabs (r - q))%Q).
    { rewrite <- (Qabs_pos u) at 1 by lra. rewrite <- Qabs_Qmult. apply Qabs_wd. rewrite K, Q. unfold Zminus. rewrite inject_Z_plus, inject_Z_opp. ring. }
    rewrite Y. exact D. }
  apply Qmult_le_r in X; [|exact U]. destruct (Z.eq_dec (k - m) 0) as [E|E]; [lia|]. exfalso.
  assert (1 <= Qabs (inject_Z (k - m)))%Q; [|lra]. change (inject_Z 1 <= inject_Z (Z.abs (k - m)))%Q. rewrite <- Zle_Qle. lia.
Qed.
Theorem C107_short : forall fstr q o w n m, (0 < n)%nat -> (q == inject_Z m * 10 ^ (- Z.of_nat n))%Q -> exists t r,
  item_str fstr (PI (VNum (NF q)) o (FFix w n)) = Ok t /\ eval t = Ok (SItem (PI (VNum (NF r)) o (FFix w n))) /\ (r == q)%Q.
Proof.
  intros fstr q o w n m N Q. destruct (C107_fixed fstr q o w n N) as (t & r & E & V & R). exists t, r. split; [exact E|split; [exact V|]].
  eapply nearest_exact; [|exact R|exact Q]. apply Qpower_0_lt. reflexivity.
Qed.

(** ** where the claim fails *)
(** further digits are lost *)
Theorem C107_rounded_refuted : forall fstr, exists i t r, pi_val i = VNum (NF (255 # 100)) /\ item_str fstr i = Ok t /\
  eval t = Ok (SItem (PI (VNum (NF r)) (pi_open i) (pi_fmt i))) /\ ~ (r == 255 # 100)%Q.
Proof.
  intros fstr. destruct (C107_fixed fstr (255 # 100) false 1 1 ltac:(lia)) as (t & r & E & V & (k & K & _)).
  exists (PI (VNum (NF (255 # 100))) false (FFix 1 1)), t, r. split; [reflexivity|split; [exact E|split; [exact V|]]].
  intros H. rewrite K in H. unfold Qeq in H. cbn in H. lia.
Qed.
(** numbers given in hex, octal or binary: never *)
Theorem C107_hex_refuted : forall fstr z o f, f = FHex \/ f = FOct \/ f = FBin -> exists t,
  item_str fstr (PI (VNum (NI z)) o f) = Ok t /\ eval t = Err SyntaxError.
Proof. intros fstr z o f [-> |[-> | ->]]; eexists; (split; [reflexivity|destruct o; reflexivity]). Qed.
(** ... although the number in the text, read alone, is the right one *)
Theorem C107_hex_value : forall fstr z o f, f = FHex \/ f = FOct \/ f = FBin -> exists t r,
  item_str fstr (PI (VNum (NI z)) o f) = Ok (TName "mSetItem" :: TOpen :: t :: TComma :: r) /\ eval [t] = Ok (SNum (NI z)).
Proof. intros fstr z o f [-> |[-> | ->]]; exists (KNum (NI z)); eexists; split; reflexivity. Qed.
(** inf, -inf and nan: never *)
Theorem C107_inf_refuted : forall fstr n o, ~ finite n -> exists t, item_str fstr (num_item n o) = Ok t /\ eval t = Err NameError.
Proof. intros fstr n o F. destruct n; try (exfalso; apply F; exact I); eexists; (split; [reflexivity|destruct o; reflexivity]). Qed.
(** an integer too large for float() *)
Theorem C107_big_refuted : forall fstr z o, too_big (NI z) = true -> exists t, item_str fstr (num_item (NI z) o) = Ok t /\ eval t = Err OverflowError.
Proof.
  intros fstr z o B. eexists. split; [reflexivity|]. cbn [num_item pi_val pi_fmt item_args pi_open].
  transitivity (eval (print (XCall "mSetItem" (XNum (NI z) :: if o then [XBool true] else [])))); [destruct o; reflexivity|].
  rewrite eval_print by (constructor; intros a [<-|A]; [constructor|destruct o; [destruct A as [<-|[]]; constructor|destruct A]]).
  destruct o; cbn [run map_all rbind]; unfold call; cbn [String.eqb Ascii.eqb Bool.eqb item_call mk_item]; rewrite B; reflexivity.
Qed.

Example C107_case : forall fstr,
  item_str fstr (PI (VVar "x") true FStr) = Ok [TName "mSetItem"; TOpen; KStr "x"; TComma; TBool true; TClose] /\
  eval [TName "mSetItem"; TOpen; KStr "x"; TComma; TBool true; TClose] = Ok (SItem (PI (VVar "x") true FStr)) /\
  shown_in_full (PI (VVar "x") true FStr) /\ shown_in_full (num_item (NI (-7)) true) /\ shown_in_full (num_item (NF (1 # 2)) false) /\
  item_str fstr (num_item (NI (-7)) true) = Ok [TName "mSetItem"; TOpen; KNum (NI (-7)); TComma; TBool true; TClose].
Proof. intros fstr. repeat split; vm_compute; reflexivity. Qed.

Print Assumptions C107_eval_partial.
Print Assumptions C107_fixed.
Print Assumptions C107_exponent.
Print Assumptions C107_hex_refuted.
