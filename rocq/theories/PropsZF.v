(** C92: definition strings of combined sets. *)
From Coq Require Import QArith Ascii Permutation Lia.
From Verif Require Import Base MathSet MathSpec MathFacts MathCard MathComb MathStr MathStrFacts LitFacts MathBuild BuildFacts RosterStr ItemModel PropsH PropsV PropsX CombStr CombFacts.
Import ListNotations.
Local Open Scope list_scope.
Local Open Scope char_scope.

(** * Specification *)
(** a member of a combination as Python prints it: an interval, or a roster whose items come in
    some order *)
Inductive prints (fstr : Q -> text) : cset -> text -> Prop :=
| pr_interval lo hi n c t : printable fstr lo -> printable fstr hi ->
    interval_repr fstr (mk_piv lo hi n c) = Ok t -> prints fstr (CInt (mk_piv lo hi n c)) t
| pr_roster items c order t : distinct items -> Forall (fun i => pi_open i = false) items -> Forall (printable fstr) items -> Permutation items order ->
    roster_repr fstr order c = Ok t -> prints fstr (CRos (PR items c)) t.
Definition complemented (m : cset) : bool :=
  match m with CInt p => pv_compl p | CBld b => bv_compl b | CRos r => pr_compl r | CCmb _ _ c => c end.
(** the same numbers under every assignment of variables, the same exceptions *)
Definition same_members (m n : cset) : Prop := forall v d, c_contains m v d = c_contains n v d.
(** union and intersection of the members, or the complement *)
Definition in_comb (is_union complement : bool) (inside : cset -> Prop) (ms : list cset) : Prop :=
  let p := if is_union then exists m, In m ms /\ inside m else forall m, In m ms -> inside m in
  if complement then ~ p else p.

(** * Facts *)
Lemma tchar_okc t : forallb okc t = true -> forallb tchar t = true.
Proof. intros H. apply forallb_forall. intros c C. rewrite forallb_forall in H. apply okc_tchar. auto. Qed.
Lemma tchar_pad k t : forallb tchar (repeat " " k ++ t) = forallb tchar t.
Proof. induction k as [|k IH]; [reflexivity|exact IH]. Qed.
Lemma fol_okc c s y t : forallb okc s = true -> is_sp y = false -> fol c (s ++ y :: t) = fol c (y :: t).
Proof.
  intros H Y. rewrite fol_app, fol_nosp; [reflexivity|]. rewrite forallb_app, (okc_nosp s H). cbn. rewrite Y. reflexivity.
Qed.
Definition sep_txt (n : bool) : text := if n then lit ".." else lit ",".
(** the text of two bounds: harmless characters, no letter before a space *)
Lemma bounds_chars ka a n kb b : forallb okc a = true -> forallb okc b = true -> forallb tchar (repeat " " ka ++ a ++ sep_text n ++ repeat " " kb ++ b) = true.
Proof. intros A B. rewrite tchar_pad, tchar_app, tchar_app, tchar_pad, (tchar_okc a A), (tchar_okc b B). destruct n; reflexivity. Qed.
Lemma bounds_fol c ka a n kb b z : is_sp c = false -> Ascii.eqb "." c = false -> Ascii.eqb "," c = false -> is_sp z = false -> forallb okc a = true -> forallb okc b = true ->
  fol c ((repeat " " ka ++ a ++ sep_text n ++ repeat " " kb ++ b) ++ [z]) = false.
Proof.
  intros C D E Z A B. rewrite <- !app_assoc, fol_pad by exact C.
  assert (K : fol c (repeat " " kb ++ b ++ [z]) = false).
  { rewrite fol_pad by exact C. rewrite fol_okc by assumption. cbn. rewrite andb_false_r. reflexivity. }
  destruct n; cbn [sep_text lit list_ascii_of_string app]; rewrite fol_okc by auto; rewrite ?fol_cons; auto.
Qed.
Lemma interval_member fstr lo hi n c t : printable fstr lo -> printable fstr hi -> interval_repr fstr (mk_piv lo hi n c) = Ok t ->
  exists m', member t m' /\ same_members m' (CInt (mk_piv lo hi n c)) /\ (c = false -> starts_plain t).
Proof.
  intros PL PH ET. destruct (piv_order lo hi n c) as (a & b & E & O & L).
  assert (PA : printable fstr a) by (destruct O as [[-> _]|[-> _]]; auto). assert (PB : printable fstr b) by (destruct O as [[_ ->]|[_ ->]]; auto).
  destruct (C78_round_trip_partial fstr lo hi n c PL PH) as (t' & p' & E1 & E2 & _ & SM). rewrite ET in E1. injection E1 as <-.
  destruct (item_back fstr a PA) as (ka & ta & Ea & Ca & a' & Ja & Sa). destruct (item_back fstr b PB) as (kb & tb & Eb & Cb & b' & Jb & Sb).
  unfold interval_repr in ET. rewrite E in ET. cbn [pv_lo pv_hi pv_int pv_compl] in ET. rewrite Ea, Eb in ET. injection ET as ET.
  set (o := if pi_open a then "(" else "["). set (z := if pi_open b then ")" else "]").
  assert (BK : forall k, interval_str (tx c o (repeat " " k ++ ta ++ sep_text n ++ repeat " " kb ++ tb) z) = Ok (mk_piv a' b' n c)).
  { intros k. pose proof (bracket_ok c (pi_open a) k ta n kb tb (pi_open b) false a' b' Ca Cb Ja Jb) as X. rewrite xorb_false_r in X. rewrite <- X. f_equal.
    unfold tx, bracket, o, z. cbn [quote_text]. rewrite app_nil_r, <- !app_assoc. destruct c, (pi_open a), (pi_open b); reflexivity. }
  assert (Et : t = tx c o (repeat " " ka ++ ta ++ sep_text n ++ repeat " " kb ++ tb) z).
  { rewrite <- ET. unfold tx, o, z. rewrite <- !app_assoc. destruct c, (pi_open a), (pi_open b), n; reflexivity. }
  assert (PT : forall k, part (tx c o (repeat " " k ++ ta ++ sep_text n ++ repeat " " kb ++ tb) z) (CInt (mk_piv a' b' n c))).
  { intros k. left. unfold interval_def. rewrite (BK k). reflexivity. }
  exists (CInt (mk_piv a' b' n c)). split; [|split].
  - exists c, o, (repeat " " ka ++ ta ++ sep_text n ++ repeat " " kb ++ tb), z. split; [exact Et|].
    assert (CZ : closing z) by (unfold z, closing; destruct (pi_open b); auto).
    assert (SZ : is_sp z = false) by (apply closing_facts; exact CZ).
    split.
    + unfold o. destruct (pi_open a); auto.
    + left. exact CZ.
    + apply bounds_chars; [apply (cl_ok _ Ca)|apply (cl_ok _ Cb)].
    + apply bounds_fol; auto; [apply (cl_ok _ Ca)|apply (cl_ok _ Cb)].
    + apply bounds_fol; auto; [apply (cl_ok _ Ca)|apply (cl_ok _ Cb)].
    + apply PT.
    + intros _. split; [exact CZ|]. pose proof (cl_ok _ Ca) as OA. pose proof (cl_ne _ Ca) as NA. pose proof (PT 0%nat) as P0. cbn [repeat app] in P0.
      destruct ta as [|y ta]; [contradiction|]. cbn in OA. apply andb_prop in OA as [OA _].
      exists ka, y, (ta ++ sep_text n ++ repeat " " kb ++ tb). split; [reflexivity|]. split; [exact OA|]. exact P0.
    + intros _. pose proof (cl_ok _ Cb) as OB. pose proof (cl_ne _ Cb) as NB. destruct (exists_last NB) as (tb' & y & ->).
      exists (repeat " " ka ++ ta ++ sep_text n ++ repeat " " kb ++ tb'), y. split; [rewrite <- !app_assoc; reflexivity|].
      rewrite forallb_app in OB. apply andb_prop in OB as [_ OB]. cbn in OB. rewrite andb_true_r in OB. exact OB.
  - intros v d. cbn [c_contains]. rewrite <- (SM (TNum v) d). rewrite Et, (BK ka) in E2. injection E2 as <-. reflexivity.
  - intros ->. rewrite Et. unfold tx, o. cbn. destruct (pi_open a); discriminate.
Qed.
Lemma join_chars fstr : forall l u, Forall (printable fstr) l -> join_items fstr l = Ok u ->
  forallb tchar u = true /\ forall c z, is_sp c = false -> Ascii.eqb "," c = false -> is_sp z = false -> fol c (u ++ [z]) = false.
Proof.
  induction l as [|i l IH]; intros u P E.
  - injection E as <-. split; [reflexivity|]. intros. cbn. rewrite andb_false_r. reflexivity.
  - inversion P as [|? ? P1 P2]; subst. destruct (item_back fstr i P1) as (k & t & Et & Ct & _).
    assert (OK : forallb okc t = true) by apply (cl_ok _ Ct).
    destruct l as [|i2 l]; cbn [join_items] in E; rewrite Et in E.
    + injection E as <-. split; [rewrite tchar_pad; apply tchar_okc; exact OK|]. intros c z C D Z.
      rewrite <- app_assoc, fol_pad by exact C. rewrite fol_okc by assumption. cbn. rewrite andb_false_r. reflexivity.
    + destruct (match item_repr fstr i2 with Ok _ => _ | Err _ => _ end) as [u'|] eqn:E'; [|discriminate]. injection E as <-.
      destruct (IH u' P2 E') as [I1 I2]. split.
      * rewrite tchar_app, tchar_pad, (tchar_okc t OK). cbn. exact I1.
      * intros c z C D Z. rewrite <- !app_assoc, fol_pad by exact C. cbn [lit list_ascii_of_string app]. rewrite fol_okc by auto. rewrite fol_cons by exact D. apply I2; assumption.
Qed.
Lemma brace_builder w : forallb tchar w = true -> builder_re ("{" :: no_sp w ++ ["}"]) = None.
Proof.
  intros W. apply tchar_no_sp in W. unfold builder_re. destruct (no_sp w) as [|x [|v r]]; cbn [app]; [reflexivity| |].
  - destruct (_ && _) eqn:E; [|reflexivity]. apply andb_prop in E as [_ E]. discriminate.
  - destruct (_ && _) eqn:E; [|reflexivity]. apply andb_prop in E as [_ E]. apply eqb_ne in E. subst v.
    cbn in W. apply andb_prop in W as [_ W]. discriminate.
Qed.
Lemma brace_interval bang w : forallb tchar w = true -> interval_def (tx bang "{" w "}") = Err TypeError.
Proof.
  intros W. set (d := "{" :: w ++ ["}"]).
  assert (ND : no_sp d = "{" :: no_sp w ++ ["}"]). { unfold d. change ("{" :: w ++ ["}"]) with (["{"] ++ w ++ ["}"]). rewrite !CombFacts.no_sp_app. reflexivity. }
  assert (S2 : strip is_sp d = d) by (apply (strip_ends d "{" "}" w eq_refl); reflexivity).
  assert (S1 : strip is_sp ("!" :: d) = "!" :: d) by (apply (strip_ends ("!" :: d) "!" "}" ("{" :: w) eq_refl); reflexivity).
  assert (SB : split_bang (tx bang "{" w "}") = Ok (bang, d)).
  { unfold split_bang, tx. destruct bang; cbn [app]; fold d.
    - rewrite S1. cbn [Ascii.eqb Bool.eqb]. rewrite S2. reflexivity.
    - rewrite S2. reflexivity. }
  assert (B : builder_of d bang = Err TypeError) by (unfold builder_of, parse_builder; rewrite ND, (brace_builder w W); reflexivity).
  unfold interval_def, interval_str, builder_str. rewrite SB. clear - B. unfold d in *. cbn [Ascii.eqb Bool.eqb orb]. rewrite B. reflexivity.
Qed.
Lemma roster_member fstr items c order t : distinct items -> Forall (fun i => pi_open i = false) items -> Forall (printable fstr) items -> Permutation items order ->
  roster_repr fstr order c = Ok t -> exists m', member t m' /\ same_members m' (CRos (PR items c)) /\ (c = false -> starts_plain t).
Proof.
  intros D O P PM ET. destruct (C80_round_trip_partial fstr items c order D O P PM) as (t' & q & E1 & E2 & _ & SM). rewrite ET in E1. injection E1 as <-.
  unfold roster_repr in ET. destruct (join_items fstr order) as [u|] eqn:J; [|discriminate]. injection ET as ET.
  assert (PO : Forall (printable fstr) order) by (eapply Permutation_Forall; eassumption).
  destruct (join_chars fstr order u PO J) as [U1 U2].
  assert (Et : t = tx c "{" u "}") by (rewrite <- ET; unfold tx; destruct c; reflexivity).
  exists (CRos q). split; [|split].
  - exists c, "{", u, "}". split; [exact Et|]. split.
    + auto.
    + auto.
    + exact U1.
    + apply U2; reflexivity.
    + apply U2; reflexivity.
    + right. split; [apply brace_interval; exact U1|]. exists q. split; [rewrite <- Et; exact E2|reflexivity].
    + discriminate.
    + discriminate.
  - intros v d. cbn [c_contains]. f_equal. apply SM.
  - intros ->. rewrite Et. unfold tx. cbn. discriminate.
Qed.
Lemma prints_member fstr m t : prints fstr m t -> exists m', member t m' /\ same_members m' m /\ (complemented m = false -> starts_plain t).
Proof.
  intros [lo hi n c t' P1 P2 E|items c order t' D O P PM E].
  - destruct (interval_member fstr lo hi n c t' P1 P2 E) as (m' & A & B & C). exists m'. split; [exact A|]. split; [exact B|].
    cbn. destruct (piv_order lo hi n c) as (a & b & -> & _). exact C.
  - destruct (roster_member fstr items c order t' D O P PM E) as (m' & A & B & C). exists m'. auto.
Qed.
Lemma prints_members fstr ms ts : Forall2 (prints fstr) ms ts -> exists ms', Forall2 member ts ms' /\ Forall2 same_members ms' ms.
Proof.
  induction 1 as [|m t ms ts H F (ms' & A & B)]; [exists []; split; constructor|].
  destruct (prints_member fstr m t H) as (m' & M & S & _). exists (m' :: ms'). split; constructor; auto.
Qed.
Lemma same_answer ms' ms u c v d : Forall2 same_members ms' ms -> c_contains (CCmb ms' u c) v d = c_contains (CCmb ms u c) v d.
Proof.
  intros F. cbn [c_contains]. f_equal. induction F as [|a b l l' H F IH]; [reflexivity|]. cbn [map]. rewrite (H v d), IH. reflexivity.
Qed.
Lemma answer_spec (inside : cset -> Prop) u c ms (f : cset -> res bool) : (forall m, In m ms -> exists b, f m = Ok b /\ (b = true <-> inside m)) ->
  exists r, comb_answer u c None (map f ms) = Ok r /\ (r = true <-> in_comb u c inside ms).
Proof.
  intros H.
  assert (X : exists r, comb_answer u c None (map f ms) = Ok r /\
     (if u then (r = negb c <-> exists m, In m ms /\ inside m) else (r = c <-> exists m, In m ms /\ ~ inside m))).
  { induction ms as [|m ms IH].
    - cbn. exists (if u then c else negb c). split; [reflexivity|]. destruct u, c; split; try discriminate; intros (m & [] & _).
    - cbn [map comb_answer]. destruct (H m (or_introl eq_refl)) as (b & -> & Hb).
      destruct IH as (r & E & IH); [intros k K; apply H; right; exact K|].
      destruct (Bool.eqb b u) eqn:EB.
      + apply Bool.eqb_prop in EB. subst b. exists (if u then negb c else c). split; [reflexivity|]. destruct u.
        * split; [|reflexivity]. intros _. exists m. split; [left; reflexivity|]. apply Hb. reflexivity.
        * split; [|reflexivity]. intros _. exists m. split; [left; reflexivity|]. rewrite <- Hb. discriminate.
      + exists r. split; [exact E|]. destruct u; rewrite IH.
        * split; intros (k & K & I); exists k; (split; [|exact I]); [right; exact K|]. destruct K as [->|K]; [|exact K].
          apply Hb in I. subst b. discriminate.
        * split; intros (k & K & I); exists k; (split; [|exact I]); [right; exact K|]. destruct K as [->|K]; [|exact K].
          exfalso. apply I, Hb. destruct b; [reflexivity|discriminate]. }
  destruct X as (r & E & X). exists r. split; [exact E|]. unfold in_comb.
  assert (DI : forall m, In m ms -> inside m \/ ~ inside m). { intros m M. destruct (H m M) as (b & _ & Hb). destruct b; [left; apply Hb; reflexivity|right; rewrite <- Hb; discriminate]. }
  destruct u.
  - destruct c; cbn in X; [|exact X]. rewrite <- X. destruct r; split; congruence.
  - assert (AL : (exists m, In m ms /\ ~ inside m) <-> ~ (forall m, In m ms -> inside m)).
    { split; [intros (m & M & N) A; apply N, A, M|]. intros N. clear - DI N. induction ms as [|m ms IH]; [exfalso; apply N; intros ? []|].
      destruct (DI m (or_introl eq_refl)) as [I|I]; [|exists m; split; [left; reflexivity|exact I]].
      destruct IH as (k & K & J); [intros k K; apply DI; right; exact K|intros A; apply N; intros k [<-|K]; auto|]. exists k. split; [right; exact K|exact J]. }
    rewrite AL in X. destruct c; [exact X|]. destruct r.
    + split; [|reflexivity]. intros _ m M. destruct (DI m M) as [I|I]; [exact I|]. exfalso.
      assert (true = false) by (apply X; intros A; apply I, A, M). discriminate.
    + split; [discriminate|]. intros A. exfalso. assert (N : ~ (forall m, In m ms -> inside m)) by (apply X; reflexivity). exact (N A).
Qed.

(** * C92 *)
(** printed unions and intersections of intervals and rosters, and complements of these, are
    read back as sets with the same members *)
Theorem C92_round_trip_partial : forall fstr ms ts u c fuel,
  Forall2 (prints fstr) ms ts -> (2 <= length ms)%nat -> match ms with m :: _ => complemented m = false | [] => True end -> (2 <= fuel)%nat ->
  exists ms', comb_str fuel (comb_text u c ts) = Ok (CCmb ms' u c) /\ Forall2 same_members ms' ms /\ same_members (CCmb ms' u c) (CCmb ms u c).
Proof.
  intros fstr ms ts u c fuel F L B FU. destruct (prints_members fstr ms ts F) as (ms' & M & S). exists ms'.
  destruct fuel as [|[|fuel]]; [lia|lia|]. split; [|split; [exact S|intros v d; apply same_answer; exact S]].
  unfold comb_str. rewrite (comb_parse_text fuel u c ts ms').
  - reflexivity.
  - assert (EL : length ms = length ts) by (clear - F; induction F; cbn; auto). rewrite <- EL. exact L.
  - exact M.
  - destruct F as [|m t ms ts H F]; [cbn in L; lia|]. destruct (prints_member fstr m t H) as (_ & _ & _ & SP). exact (SP B).
Qed.
(** the notation: the text stands for the union, intersection or complement of its members *)
Theorem C92_notation_partial : forall fstr ms ts u c fuel v d (inside : cset -> Prop),
  Forall2 (prints fstr) ms ts -> (2 <= length ms)%nat -> match ms with m :: _ => complemented m = false | [] => True end -> (2 <= fuel)%nat ->
  (forall m, In m ms -> exists b, c_contains m v d = Ok b /\ (b = true <-> inside m)) ->
  exists s r, comb_str fuel (comb_text u c ts) = Ok s /\ c_contains s v d = Ok r /\ (r = true <-> in_comb u c inside ms).
Proof.
  intros fstr ms ts u c fuel v d inside F L B FU H.
  destruct (C92_round_trip_partial fstr ms ts u c fuel F L B FU) as (ms' & E & _ & S).
  destruct (answer_spec inside u c ms (fun m => c_contains m v d) H) as (r & A & R).
  exists (CCmb ms' u c), r. split; [exact E|]. split; [|exact R]. rewrite (S v d). exact A.
Qed.

(** a complement in front of the first member is read as the complement of everything *)
Definition iv12 (c : bool) : cset := CInt (mk_piv (num_item (NI 1) false) (num_item (NI 2) false) false c).
Definition iv34 : cset := CInt (mk_piv (num_item (NI 3) false) (num_item (NI 4) false) false false).
Definition ro57 : cset := CRos (PR [num_item (NI 5) false; num_item (NI 7) false] false).
Lemma prints_iv12 fstr c : prints fstr (iv12 c) ((if c then lit "!" else []) ++ lit "[1,2]").
Proof. apply pr_interval; [apply p_int; discriminate|apply p_int; discriminate|]. destruct c; vm_compute; reflexivity. Qed.
Lemma prints_iv34 fstr : prints fstr iv34 (lit "[3,4]").
Proof. apply pr_interval; [apply p_int; discriminate|apply p_int; discriminate|]. vm_compute; reflexivity. Qed.
Lemma prints_ro57 fstr : prints fstr ro57 (lit "{7,5}").
Proof.
  apply (pr_roster fstr _ _ [num_item (NI 7) false; num_item (NI 5) false]).
  - repeat constructor.
  - repeat constructor.
  - repeat (constructor; try (apply p_int; discriminate)).
  - apply perm_swap.
  - vm_compute. reflexivity.
Qed.
Theorem C92_first_refuted : forall fstr, exists ms ts s, Forall2 (prints fstr) ms ts /\ comb_text true false ts = lit "![1,2] u [3,4]" /\
  comb_str 9 (lit "![1,2] u [3,4]") = Ok s /\
  c_contains (CCmb ms true false) (NI 3) None = Ok true /\ c_contains s (NI 3) None = Ok false.
Proof.
  intros fstr. exists [iv12 true; iv34], [lit "![1,2]"; lit "[3,4]"].
  eexists. split; [constructor; [apply (prints_iv12 fstr true)|constructor; [apply prints_iv34|constructor]]|].
  split; [vm_compute; reflexivity|]. split; [vm_compute; reflexivity|]. split; vm_compute; reflexivity.
Qed.
(** so is a quote behind the last member *)
Theorem C92_quote_refuted : exists p s, interval_str (lit "[3,4]'") = Ok p /\ comb_str 9 (lit "[1,2] u [3,4]'") = Ok s /\
  c_contains (CCmb [iv12 false; CInt p] true false) (NI 1) None = Ok true /\ c_contains s (NI 1) None = Ok false.
Proof. do 2 eexists. split; [vm_compute; reflexivity|]. split; [vm_compute; reflexivity|]. split; vm_compute; reflexivity. Qed.
(** a combination of combinations is printed without parentheses; with parentheses the text is not accepted either *)
Theorem C92_nested_refuted : let inner := comb_text true false [lit "[1,2]"; lit "[3,4]"] in
  comb_text false false [inner; lit "{7,5}"] = lit "[1,2] u [3,4] n {7,5}" /\
  comb_str 9 (lit "[1,2] u [3,4] n {7,5}") = Err TypeError /\ comb_str 9 (lit "([1,2] u [3,4]) n {7,5}") = Err TypeError.
Proof. vm_compute. auto. Qed.
(** a single open interval whose bounds are variables with unlucky names *)
Theorem C92_single_refuted : forall fstr, exists m s f, prints fstr m (lit "(xeZ,xeR)") /\ comb_text true false [lit "(xeZ,xeR)"] = lit "(xeZ,xeR)" /\
  comb_str 9 (lit "(xeZ,xeR)") = Ok s /\ c_contains m (NI 7) (Some f) = Ok false /\ c_contains s (NI 7) (Some f) = Ok true.
Proof.
  intros fstr. exists (CInt (mk_piv (PI (VVar "xeZ") true FStr) (PI (VVar "xeR") true FStr) false false)). eexists. exists (fun _ => Some (NI 1)).
  split; [apply pr_interval; [apply p_var; repeat split; discriminate|apply p_var; repeat split; discriminate|vm_compute; reflexivity]|].
  split; [reflexivity|]. split; [vm_compute; reflexivity|]. split; vm_compute; reflexivity.
Qed.
(** a text that is no set: not refused but read again and again until the recursion limit *)
Theorem C92_malformed_refuted : forall fuel, comb_str fuel (lit "abc def") = Err RecursionError.
Proof.
  assert (H : forall fuel c, comb_parse fuel (lit "abc def") c = Err RecursionError); [|intros; unfold comb_str; rewrite H; reflexivity].
  induction fuel as [|fuel IH]; intros c; [reflexivity|]. cbn [comb_parse].
  change (strip is_sp (lit "abc def")) with (lit "abc def"). cbn [lit list_ascii_of_string Ascii.eqb Bool.eqb].
  change ["a"; "b"; "c"; " "; "d"; "e"; "f"] with (lit "abc def"). change (unsnoc (lit "abc def")) with (Some (lit "abc de", "f")). cbn [Ascii.eqb Bool.eqb andb].
  unfold comb_split. change (split_sep "u" 0 (lit "abc def")) with [lit "abc def"]. change (split_sep "n" 0 (lit "abc def")) with [lit "abc def"].
  cbn [map_res]. unfold sub_def. assert (E1 : interval_def (lit "abc def") = Err TypeError) by (vm_compute; reflexivity). assert (E2 : roster_str (lit "abc def") = Err TypeError) by (vm_compute; reflexivity).
  rewrite E1, E2, IH. reflexivity.
Qed.

(** the hypotheses are met, open intervals included (the parentheses of "(1,2) u (3,4)" do not
    belong together) *)
Example C92_example : Forall2 (prints (fun _ => [])) [iv12 false; ro57; iv12 true] [lit "[1,2]"; lit "{7,5}"; lit "![1,2]"] /\
  comb_text false true [lit "[1,2]"; lit "{7,5}"; lit "![1,2]"] = lit "!([1,2] n {7,5} n ![1,2])".
Proof.
  split; [|reflexivity]. constructor; [apply (prints_iv12 _ false)|]. constructor; [apply prints_ro57|]. constructor; [apply (prints_iv12 _ true)|constructor].
Qed.
Example C92_round : exists s, comb_str 9 (lit "(1,2) u (3,4)") = Ok s /\ c_contains s (NF (3 # 2)) None = Ok true /\ c_contains s (NI 3) None = Ok false.
Proof. eexists. split; [vm_compute; reflexivity|]. split; vm_compute; reflexivity. Qed.
