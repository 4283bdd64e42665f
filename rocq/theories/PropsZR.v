(** C105: str() of mathematical sets. *)
From Coq Require Import QArith Ascii Permutation.
From Verif Require Import Base MathSet MathSpec MathFacts MathStr MathStrFacts MathBuild RosterStr CombStr CombFacts PropsV PropsX PropsZF SetRepr SetStr.
Import ListNotations.
Local Open Scope list_scope.

(** ** Facts *)
Lemma unsnoc_app (t : text) c : unsnoc (t ++ [c]) = Some (t, c).
Proof. unfold unsnoc. rewrite rev_app_distr. cbn. rewrite rev_involutive. reflexivity. Qed.
Lemma eval_call fuel f q t : before_paren (lit f ++ lit "(" ++ [q] ++ t ++ [q] ++ lit ")") = Some (lit f, [q] ++ t ++ [q] ++ lit ")") ->
  q = "'"%char \/ q = dquote -> forallb simple_char t = true ->
  str_eval fuel (lit f ++ lit "(" ++ [q] ++ t ++ [q] ++ lit ")") =
    if text_eqb (lit f) (lit "mSetInterval") then match interval_str t with Ok p => Ok (CInt p) | Err e => Err e end
    else if text_eqb (lit f) (lit "mSetRoster") then match roster_str t with Ok r => Ok (CRos r) | Err e => Err e end
    else if text_eqb (lit f) (lit "mSetCombine") then comb_str fuel t else Err NameError.
Proof.
  intros B Q S. unfold str_eval. rewrite B.
  replace ([q] ++ t ++ [q] ++ lit ")") with (([q] ++ t ++ [q]) ++ [")"%char]) by (rewrite <- !app_assoc; reflexivity).
  rewrite unsnoc_app. cbn [Ascii.eqb Bool.eqb negb].
  assert (P : parse_arg ([q] ++ t ++ [q]) = Some (PStr t)).
  { cbn [app parse_arg]. rewrite unsnoc_app, Ascii.eqb_refl.
    replace (Ascii.eqb q "'" || Ascii.eqb q dquote)%bool with true by (destruct Q as [-> | ->]; reflexivity). cbn [andb].
    assert (F : forallb (fun c => negb (Ascii.eqb c q) && negb (Ascii.eqb c "\")) t = true); [|rewrite F; reflexivity].
    revert S. apply forallb_imp. intros c C. unfold simple_char in C. repeat (apply andb_prop in C as [C ?]).
    destruct Q as [-> | ->]; apply andb_true_intro; split; assumption. }
  rewrite P. reflexivity.
Qed.
Lemma simple_okc t : forallb okc t = true -> forallb simple_char t = true.
Proof. apply forallb_imp. chars. Qed.
Lemma simple_tchar t : forallb tchar t = true -> forallb simple_char t = true.
Proof. apply forallb_imp. chars. Qed.
Lemma simple_spaces k : forallb simple_char (repeat " "%char k) = true.
Proof. induction k; [reflexivity|exact IHk]. Qed.
Lemma interval_simple fstr lo hi n c t : printable fstr lo -> printable fstr hi ->
  interval_repr fstr (mk_piv lo hi n c) = Ok t -> forallb simple_char t = true.
Proof.
  intros PL PH E. destruct (piv_order lo hi n c) as (a & b & X & O & _). rewrite X in E.
  assert (PA : printable fstr a) by (destruct O as [[-> _]|[-> _]]; auto). assert (PB : printable fstr b) by (destruct O as [[_ ->]|[_ ->]]; auto).
  destruct (item_back fstr a PA) as (ka & ta & Ea & Ca & _). destruct (item_back fstr b PB) as (kb & tb & Eb & Cb & _).
  unfold interval_repr in E. cbn [pv_lo pv_hi pv_int pv_compl] in E. rewrite Ea, Eb in E. injection E as <-.
  rewrite !forallb_app, !simple_spaces, (simple_okc ta (cl_ok _ Ca)), (simple_okc tb (cl_ok _ Cb)). destruct c, (pi_open a), n, (pi_open b); reflexivity.
Qed.
Lemma roster_simple fstr l c t : Forall (printable fstr) l -> roster_repr fstr l c = Ok t -> forallb simple_char t = true.
Proof.
  intros P E. unfold roster_repr in E. destruct (join_items fstr l) as [u|e] eqn:J; [|discriminate]. injection E as <-.
  assert (S : forallb simple_char u = true).
  { revert u J. induction P as [|i l Pi Pl IH]; intros u J; [injection J as <-; reflexivity|]. cbn [join_items] in J.
    destruct (item_back fstr i Pi) as (k & w & Ew & Cw & _). rewrite Ew in J.
    assert (SW : forallb simple_char (repeat " "%char k ++ w) = true).
    { rewrite forallb_app, simple_spaces. exact (simple_okc w (cl_ok _ Cw)). }
    destruct l as [|i2 l]; [injection J as <-; exact SW|]. destruct (join_items fstr (i2 :: l)) as [u2|e]; [|discriminate]. injection J as <-.
    specialize (IH u2 eq_refl). rewrite forallb_app. rewrite SW. cbn [lit list_ascii_of_string app forallb]. rewrite IH. reflexivity. }
  destruct c; cbn [lit list_ascii_of_string app forallb]; rewrite forallb_app, S; reflexivity.
Qed.
Lemma prints_simple fstr m t : prints fstr m t -> forallb simple_char t = true.
Proof.
  intros [lo hi n c t' P1 P2 E|items c order t' D O P PM E]; [eapply interval_simple; [| |exact E]; eassumption|].
  eapply roster_simple; [|exact E]. rewrite Forall_forall in *. intros x X. apply P. eapply Permutation_in; [apply Permutation_sym; eauto|auto].
Qed.

(** ** C105 *)
(** intervals from two bounds: the text evaluates to an equal interval with the same members *)
Theorem C105_interval_partial : forall fstr fuel lo hi int_only complement, printable fstr lo -> printable fstr hi ->
  exists t p, set_str fstr (CInt (mk_piv lo hi int_only complement)) = Ok t /\ str_eval fuel t = Ok (CInt p) /\
    iv_eq (piv_set p) (piv_set (mk_piv lo hi int_only complement)) = true /\
    forall v d, c_contains (CInt p) v d = c_contains (CInt (mk_piv lo hi int_only complement)) v d.
Proof.
  intros fstr fuel lo hi n c PL PH. destruct (C78_round_trip_partial fstr lo hi n c PL PH) as (t & p & E & R & Q & M).
  pose proof (interval_simple fstr lo hi n c t PL PH E) as S.
  exists (lit "mSetInterval" ++ lit "(" ++ ["'"%char] ++ t ++ ["'"%char] ++ lit ")"), p. split.
  - unfold set_str. cbn [math_text rbind]. rewrite E. cbn [rbind]. unfold py_repr. rewrite S. cbn [rbind].
    unfold lit. cbn [list_ascii_of_string app]. do 14 f_equal. rewrite <- app_assoc. reflexivity.
  - rewrite (eval_call fuel "mSetInterval" "'"%char t); [|reflexivity|auto|exact S].
    change (text_eqb (lit "mSetInterval") (lit "mSetInterval")) with true. cbn iota. rewrite R. split; [reflexivity|]. split; [exact Q|].
    intros v d. apply M.
Qed.
(** every definition string that is accepted ([tame] as in C78) *)
Theorem C105_strings_partial : forall fstr fuel s p, interval_str s = Ok p -> tame (pv_lo p) -> tame (pv_hi p) ->
  exists t q, set_str fstr (CInt p) = Ok t /\ str_eval fuel t = Ok (CInt q) /\ iv_eq (piv_set q) (piv_set p) = true /\
    forall v d, c_contains (CInt q) v d = c_contains (CInt p) v d.
Proof.
  intros fstr fuel s p H TL TH. assert (X : exists lo hi n c, p = mk_piv lo hi n c /\ (tame lo -> printable fstr lo) /\ (tame hi -> printable fstr hi)).
  { unfold interval_str in H. destruct (split_bang s) as [[pre d]|]; [|discriminate]. destruct d as [|c d]; [discriminate|].
    destruct (Ascii.eqb c "[" || Ascii.eqb c "(").
    - unfold parse_math in H. destruct (no_sp (c :: d)) as [|c' s']; [discriminate|].
      destruct (if Ascii.eqb c' "(" || Ascii.eqb c' "[" then math_re s' else None) as [[l [dots [u [[uo q] rest]]]]|]; [|discriminate].
      destruct rest; [|discriminate]. destruct (parse_item l (Ascii.eqb c' "(")) as [lo|] eqn:A; [|discriminate].
      destruct (parse_item u uo) as [hi|] eqn:B; [|discriminate]. destruct (var_spaces lo l (c :: d) || var_spaces hi u (c :: d)); [discriminate|].
      injection H as <-. exists lo, hi, dots, (xorb pre q). split; auto. split; eapply parse_printable; eauto.
    - destruct (Ascii.eqb c "{"); [discriminate|]. destruct (parse_item s false) as [lo|] eqn:A.
      + injection H as <-. exists lo, (num_item PInf false), false, false. split; auto. split; [eapply parse_printable; eauto|intros _; constructor].
      + destruct (existsb _ (c :: d)); discriminate. }
  destruct X as (lo & hi & n & c & -> & PL & PH). destruct (piv_order lo hi n c) as (a & b & E & O & _). rewrite E in TL, TH. cbn in TL, TH.
  apply C105_interval_partial; [apply PL|apply PH]; destruct O as [[-> ->]|[-> ->]]; auto.
Qed.
Lemma math_prints fstr ms : Forall (fun m => exists t, prints fstr m t /\ math_text fstr m = Ok t) ms ->
  exists ts, Forall2 (prints fstr) ms ts /\ map_all (math_text fstr) ms = Ok ts.
Proof.
  induction 1 as [|m ms (t & P & E) _ (ts & A & B)]; [exists []; split; [constructor|reflexivity]|].
  exists (t :: ts). split; [constructor; assumption|]. cbn [map_all]. rewrite E. cbn [rbind]. rewrite B. reflexivity.
Qed.
Lemma comb_simple fstr u c ms ts : Forall2 (prints fstr) ms ts -> forallb simple_char (comb_text u c ts) = true.
Proof.
  intros F. unfold comb_text. assert (J : forallb simple_char (join_sep (sep_of u) ts) = true).
  { induction F as [|m t ms ts P F IH]; [reflexivity|]. cbn [join_sep]. destruct ts as [|t2 ts]; [eapply prints_simple; eauto|].
    rewrite !forallb_app, (prints_simple _ _ _ P), IH. destruct u; reflexivity. }
  rewrite !forallb_app, J. destruct c; reflexivity.
Qed.
(** unions and intersections of at least two intervals and rosters, and complements of these *)
Theorem C105_combination_partial : forall fstr fuel ms ts u c, (2 <= fuel)%nat -> (2 <= length ms)%nat ->
  Forall2 (prints fstr) ms ts -> map_all (math_text fstr) ms = Ok ts -> match ms with m :: _ => complemented m = false | [] => True end ->
  exists t ms', set_str fstr (CCmb ms u c) = Ok t /\ str_eval fuel t = Ok (CCmb ms' u c) /\
    Forall2 same_members ms' ms /\ forall v d, c_contains (CCmb ms' u c) v d = c_contains (CCmb ms u c) v d.
Proof.
  intros fstr fuel ms ts u c FU L F E B. destruct (C92_round_trip_partial fstr ms ts u c fuel F L B FU) as (ms' & R & A & M).
  pose proof (comb_simple fstr u c ms ts F) as S.
  exists (lit "mSetCombine" ++ lit "(" ++ [dquote] ++ comb_text u c ts ++ [dquote] ++ lit ")"), ms'. split.
  - unfold set_str. cbn [math_text]. rewrite E. reflexivity.
  - rewrite (eval_call fuel "mSetCombine" dquote _); [|reflexivity|auto|exact S].
    change (text_eqb (lit "mSetCombine") (lit "mSetInterval")) with false. change (text_eqb (lit "mSetCombine") (lit "mSetRoster")) with false.
    change (text_eqb (lit "mSetCombine") (lit "mSetCombine")) with true. cbn iota. split; [exact R|]. split; [exact A|exact M].
Qed.
(** the text of a roster is never accepted *)
Theorem C105_roster_refuted : forall fstr fuel r t, set_str fstr (CRos r) = Ok t -> exists e, str_eval fuel t = Err e.
Proof.
  intros fstr fuel r t E. unfold set_str in E. destruct (math_text fstr (CRos r)) as [u|e] eqn:M; [|discriminate]. cbn [rbind] in E. injection E as <-.
  cbn [math_text] in M. unfold roster_repr in M. destruct (join_items fstr (pr_items r)) as [w|e]; [|discriminate]. injection M as <-.
  unfold str_eval.
  replace (before_paren _) with (Some (lit "mSetRoster", (((if pr_compl r then lit "!" else []) ++ lit "{" ++ w) ++ ["}"%char]) ++ [")"%char])).
  2: { unfold lit. cbn [list_ascii_of_string app before_paren Ascii.eqb Bool.eqb]. destruct (pr_compl r); cbn [app]; rewrite <- ?app_assoc; reflexivity. }
  rewrite unsnoc_app. cbn [Ascii.eqb Bool.eqb negb].
  destruct (pr_compl r).
  - change (((lit "!" ++ lit "{" ++ w) ++ ["}"%char])) with ("!"%char :: ("{"%char :: w) ++ ["}"%char]). unfold parse_arg. rewrite unsnoc_app. eexists. reflexivity.
  - change ((([] ++ lit "{" ++ w) ++ ["}"%char])) with ("{"%char :: w ++ ["}"%char]). unfold parse_arg. rewrite unsnoc_app. eexists. reflexivity.
Qed.
(** a complement in front of the first member becomes the complement of everything, without an error *)
Theorem C105_first_refuted : forall fstr, exists ms t s, Forall (fun m => exists t, prints fstr m t) ms /\ set_str fstr (CCmb ms true false) = Ok t /\ str_eval 9 t = Ok s /\ c_contains (CCmb ms true false) (NI 3) None = Ok true /\ c_contains s (NI 3) None = Ok false.
Proof.
  intros fstr. exists [iv12 true; iv34]. do 2 eexists.
  split; [constructor; [eexists; apply (prints_iv12 fstr true)|constructor; [eexists; apply prints_iv34|constructor]]|].
  split; [vm_compute; reflexivity|]. split; [vm_compute; reflexivity|]. split; vm_compute; reflexivity.
Qed.
(** a bound 0 *)
Theorem C105_zero_refuted : forall fstr fuel, exists t, set_str fstr (CInt (mk_piv (num_item (NI 0) false) (num_item (NI 5) true) false false)) = Ok t /\ str_eval fuel t = Err TypeError.
Proof. intros fstr fuel. eexists. split; [vm_compute; reflexivity|]. vm_compute. reflexivity. Qed.
(** a combination of combinations is printed without parentheses *)
Theorem C105_nested_refuted : forall fstr, exists t, set_str fstr (CCmb [CCmb [iv12 false; iv34] true false; CRos (PR [num_item (NI 7) false; num_item (NI 5) false] false)] false false) = Ok t /\ str_eval 9 t = Err TypeError.
Proof. intros fstr. eexists. split; [vm_compute; reflexivity|]. vm_compute. reflexivity. Qed.
(** cases *)
Example C105_case : let s := CCmb [iv12 false; CInt (mk_piv (PI (VVar "a_1") true FStr) (num_item PInf true) true true)] false true in
  let t := lit "mSetCombine(" ++ [dquote] ++ lit "!([1,2] n !(a_1..inf))" ++ [dquote] ++ lit ")" in
  set_str (fun _ => []) s = Ok t /\ exists s', str_eval 9 t = Ok s' /\ c_contains s' (NI 3) None = c_contains s (NI 3) None.
Proof. split; [vm_compute; reflexivity|]. eexists. split; [vm_compute; reflexivity|]. vm_compute. reflexivity. Qed.
Example C105_case_string : exists p, interval_str (lit "!(0x10 , a_1]") = Ok p /\ tame (pv_lo p) /\ tame (pv_hi p) /\ set_str (fun _ => []) (CInt p) = Ok (lit "mSetInterval('!(0x10,a_1]')").
Proof. eexists. split; [vm_compute; reflexivity|]. split; [vm_compute; auto|]. split; [vm_compute; auto|]. vm_compute. reflexivity. Qed.
Example C105_case_interval : let p := mk_piv (num_item (NI (-4)) true) (num_item (NI 5) false) true true in
  set_str (fun _ => []) (CInt p) = Ok (lit "mSetInterval('!(-4..5]')") /\ printable (fun _ => []) (pv_lo p) /\ printable (fun _ => []) (pv_hi p).
Proof. split; [vm_compute; reflexivity|]. split; apply p_int; discriminate. Qed.
