(** Facts about definition strings of combined sets. *)
From Coq Require Import QArith Ascii Lia.
From Verif Require Import Base MathSet MathSpec MathFacts MathStr MathStrFacts MathBuild RosterStr CombStr.
Import ListNotations.
Local Open Scope list_scope.
Local Open Scope char_scope.

(** * texts that are no numbers *)
(** a character that no number and no name contains *)
Definition alien (c : ascii) : Prop := okc c = false /\ is_ws c = false.
Lemma alien_sp c : alien c -> is_sp c = false.
Proof. intros [_ H]. unfold is_ws in H. apply orb_false_iff in H as [H _]. apply orb_false_iff in H as [H _]. exact H. Qed.
Lemma okc_cases c : okc c = false -> is_alpha c = false /\ is_digit c = false /\ Ascii.eqb c "_" = false /\ Ascii.eqb c "." = false /\ Ascii.eqb c "+" = false /\ Ascii.eqb c "-" = false.
Proof. unfold okc, var_char. intros H. repeat (apply orb_false_iff in H as [H ?]). repeat split; auto. unfold is_alpha. apply orb_false_iff; auto. Qed.
Lemma alien_digit c : alien c -> digit_val c = None.
Proof.
  intros [H _]. apply okc_cases in H as (A & D & _). unfold is_alpha in A. apply orb_false_iff in A as [L U].
  unfold digit_val. rewrite D, L, U. reflexivity.
Qed.
Lemma strip_in p c s : p c = false -> In c s -> In c (strip p s).
Proof. intros P I. apply in_split in I as (a & b & ->). destruct (strip_app p a c b P) as (a' & b' & -> & _). apply in_elt. Qed.
Lemma sign_in c s : alien c -> In c s -> In c (snd (sign_of s)).
Proof.
  intros [O _] I. apply okc_cases in O as (_ & _ & _ & _ & P & M). apply in_split in I as (a & b & ->).
  destruct (sign_of_app a c b M P) as (x & a' & -> & _). apply in_elt.
Qed.
Lemma digs_alien b c : alien c -> forall s acc after, In c s -> digs b acc after s = None.
Proof.
  intros A. induction s as [|d s IH]; intros acc after I; [destruct I|]. cbn [digs].
  destruct I as [->|I].
  - rewrite (alien_digit c A). destruct A as [O _]. apply okc_cases in O as (_ & _ & U & _). rewrite U. reflexivity.
  - destruct (Ascii.eqb d "_"); [destruct after; [apply IH; exact I|reflexivity]|].
    destruct (digit_val d) as [k|]; [|reflexivity]. destruct (k <? b)%Z; [apply IH; exact I|reflexivity].
Qed.
Lemma eqb_ne a b : Ascii.eqb a b = true -> a = b. Proof. apply Ascii.eqb_eq. Qed.
Lemma lower_alpha c d : Ascii.eqb (to_lower c) d = true -> is_alpha d = true -> is_alpha c = true.
Proof.
  intros E A. apply eqb_ne in E. unfold to_lower in E. destruct (is_upper c) eqn:U; [unfold is_alpha; rewrite U; apply orb_true_r|congruence].
Qed.
Lemma py_int_alien b c s : alien c -> In c s -> py_int b s = None.
Proof.
  intros A I. unfold py_int. pose proof (sign_in c _ A (strip_in is_ws c s (proj2 A) I)) as J.
  destruct (sign_of (strip is_ws s)) as [neg t]. cbn [snd] in J.
  enough (K : In c (match t with
           | z :: x :: r =>
               if Ascii.eqb z "0" && ((Ascii.eqb (to_lower x) "x" && (b =? 16)%Z) || (Ascii.eqb (to_lower x) "o" && (b =? 8)%Z) || (Ascii.eqb (to_lower x) "b" && (b =? 2)%Z))
               then match r with u :: r' => if Ascii.eqb u "_" then r' else r | [] => r end
               else t
           | _ => t
           end)) by (rewrite (digs_alien b c A _ _ _ K); reflexivity).
  destruct A as [O _]. apply okc_cases in O as (AL & D & U & _).
  destruct t as [|z [|x r]]; [exact J|exact J|].
  destruct (_ && _) eqn:E; [|exact J]. apply andb_prop in E as [E0 E1]. apply eqb_ne in E0. subst z.
  destruct J as [J|[J|J]].
  - subst c. discriminate.
  - subst x. exfalso. apply orb_prop in E1 as [E1|E1]; [apply orb_prop in E1 as [E1|E1]|]; apply andb_prop in E1 as [E1 _];
      rewrite (lower_alpha _ _ E1 eq_refl) in AL; discriminate.
  - destruct r as [|u r']; [destruct J|]. destruct (Ascii.eqb u "_") eqn:E2; [|exact J].
    destruct J as [J|J]; [subst u; rewrite E2 in U; discriminate|exact J].
Qed.
Lemma cut_in p c : p c = false -> forall s, In c s -> In c (fst (cut p s)) \/ exists r, snd (cut p s) = Some r /\ In c r.
Proof.
  intros P. induction s as [|d s IH]; intros I; [destruct I|]. cbn [cut]. destruct (p d) eqn:E.
  - right. exists s. split; [reflexivity|]. destruct I as [->|I]; [congruence|exact I].
  - destruct (cut p s) as [a b]. cbn in *. destruct I as [->|I]; [auto|]. destruct (IH I) as [H|H]; auto.
Qed.
Lemma dig_part_alien c s : alien c -> In c s -> dig_part s = None.
Proof. intros A I. unfold dig_part. destruct s; [destruct I|]. rewrite (digs_alien 10 c A _ _ _ I). reflexivity. Qed.
Lemma py_float_alien c s : alien c -> In c s -> py_float s = None.
Proof.
  intros A I. unfold py_float. pose proof (sign_in c _ A (strip_in is_ws c s (proj2 A) I)) as J.
  destruct (sign_of (strip is_ws s)) as [neg t]. cbn [snd] in J.
  pose proof (okc_cases c (proj1 A)) as (AL & D & U & DOT & P & M).
  assert (Ee : is_e c = false). { unfold is_e. apply orb_false_iff. split; apply Ascii.eqb_neq; intros ->; discriminate. }
  pose proof (cut_in is_e c Ee t J) as C1. destruct (cut is_e t) as [mant ex]. cbn [fst snd] in C1.
  destruct C1 as [C1|(e & -> & C1)].
  - pose proof (cut_in (fun c => Ascii.eqb c ".") c DOT mant C1) as C2. destruct (cut (fun c => Ascii.eqb c ".") mant) as [ip fp]. cbn [fst snd] in C2.
    destruct C2 as [C2|(f & -> & C2)].
    + destruct fp as [fp|]; [|reflexivity]. rewrite (dig_part_alien c ip A C2). reflexivity.
    + rewrite (dig_part_alien c f A C2). destruct (dig_part ip) as [[? ?]|]; reflexivity.
  - destruct (cut (fun c => Ascii.eqb c ".") mant) as [ip fp]. destruct fp as [fp|]; [|reflexivity].
    pose proof (sign_in c e A C1) as C2. destruct (sign_of e) as [eneg e']. cbn [snd] in C2. rewrite (digs_alien 10 c A _ _ _ C2).
    destruct (dig_part ip) as [[? ?]|]; [|reflexivity]. destruct (dig_part fp) as [[? ?]|]; reflexivity.
Qed.
Lemma parse_num_alien c s : alien c -> In c s -> parse_num s = None.
Proof.
  intros A I. unfold parse_num. destruct (find_char "." s) as [i|].
  - rewrite (py_float_alien c s A I). reflexivity.
  - destruct s as [|z [|x r]]; [destruct I| |].
    + destruct (Ascii.eqb z "0"); [reflexivity|]. rewrite (py_int_alien 10 c _ A I). reflexivity.
    + rewrite !(py_int_alien _ c _ A I). cbn [option_map]. repeat match goal with |- (if ?b then _ else _) = _ => destruct b end; reflexivity.
Qed.
Lemma text_eqb_in c s t : In c s -> ~ In c t -> text_eqb s t = false.
Proof. intros I N. unfold text_eqb. destruct (list_eq_dec ascii_dec s t) as [->|]; [contradiction|reflexivity]. Qed.
Lemma alien_inf c : alien c -> ~ In c (lit "inf").
Proof. intros [O _] I. cbn in I. destruct I as [<-|[<-|[<-|[]]]]; discriminate. Qed.
Lemma parse_item_alien c s o : alien c -> In c s -> parse_item s o = Err TypeError.
Proof.
  intros A I. unfold parse_item. pose proof (strip_in is_sp c s (alien_sp c A) I) as J.
  pose proof (okc_cases c (proj1 A)) as (AL & D & U & DOT & P & M).
  assert (VC : var_char c = false) by (unfold var_char; rewrite AL, D, U; reflexivity).
  destruct (strip is_sp s) as [|h r] eqn:E; [destruct J|].
  rewrite (text_eqb_in c (h :: r) _ J (alien_inf c A)). rewrite andb_true_r.
  destruct (var_start h).
  - replace (forallb var_char (h :: r)) with false; [reflexivity|]. symmetry. apply not_true_is_false. intros F.
    rewrite forallb_forall in F. rewrite (F c J) in VC. discriminate.
  - destruct (num_start h); [|reflexivity].
    destruct (Ascii.eqb h "-") eqn:E1; [|destruct (Ascii.eqb h "+") eqn:E2].
    + assert (J' : In c (strip is_sp r)). { apply strip_in; [apply alien_sp; exact A|]. destruct J as [->|J]; [congruence|exact J]. }
      rewrite (text_eqb_in c _ _ J' (alien_inf c A)), (parse_num_alien c _ A J'). reflexivity.
    + assert (J' : In c (strip is_sp r)). { apply strip_in; [apply alien_sp; exact A|]. destruct J as [->|J]; [congruence|exact J]. }
      rewrite (text_eqb_in c _ _ J' (alien_inf c A)), (parse_num_alien c _ A J'). reflexivity.
    + rewrite (text_eqb_in c _ _ J (alien_inf c A)), (parse_num_alien c _ A J). reflexivity.
Qed.

(** * statements of builder notation *)
Definition opchar (c : ascii) : bool := Ascii.eqb c "<" || Ascii.eqb c ">" || Ascii.eqb c "=" || Ascii.eqb c "!".
Lemma take_op_none c r : opchar c = false -> take_rel (c :: r) = None /\ take_op (c :: r) = None.
Proof.
  unfold opchar. intros H. repeat (apply orb_false_iff in H as [H ?]). unfold take_op, take_rel.
  rewrite H, H2, H1, H0. split; reflexivity.
Qed.
Lemma span_spec p s : exists a b, span p s = (a, b) /\ s = a ++ b /\ forallb p a = true /\ match b with [] => True | c :: _ => p c = false end.
Proof.
  induction s as [|c s IH]; cbn [span]; [exists [], []; repeat split|].
  destruct (p c) eqn:E; [|exists [], (c :: s); repeat split; exact E].
  destruct IH as (a & b & -> & -> & F & N). exists (c :: a), b. cbn. rewrite E. repeat split; auto.
Qed.
Lemma stmt_none x t : is_alpha x = true -> forallb (fun c => negb (opchar c)) t = true -> (exists c, In c t /\ vchar c = false) -> stmt x t = None.
Proof.
  intros AX NO (c & I & V). unfold stmt. destruct (span_spec vchar t) as (a & b & -> & Et & F & N).
  destruct b as [|d b].
  { exfalso. rewrite app_nil_r in Et. subst a. rewrite forallb_forall in F. rewrite (F c I) in V. discriminate. }
  assert (Od : opchar d = false). { rewrite forallb_forall in NO. apply negb_true_iff, NO. rewrite Et. apply in_elt. }
  destruct (take_op_none d b Od) as [-> ->].
  destruct t as [|y r]; [reflexivity|]. destruct (Ascii.eqb y x) eqn:EY; [|reflexivity]. apply eqb_ne in EY. subst y.
  assert (Ir : In c r). { destruct I as [->|I]; [|exact I]. unfold vchar in V. rewrite AX in V. discriminate. }
  destruct r as [|e r]; [destruct Ir|]. unfold take_op_e.
  assert (Oe : opchar e = false). { rewrite forallb_forall in NO. apply negb_true_iff, NO. right. left. reflexivity. }
  rewrite (proj2 (take_op_none e r Oe)). destruct (is_e e) eqn:EE; [|reflexivity].
  replace (forallb vchar r) with false; [reflexivity|]. symmetry. apply not_true_is_false. intros Fr.
  destruct Ir as [->|Ir].
  - unfold is_e in EE. apply orb_prop in EE as [EE|EE]; apply eqb_ne in EE; subst c; discriminate.
  - rewrite forallb_forall in Fr. rewrite (Fr c Ir) in V. discriminate.
Qed.
Lemma cut_none p s : forallb (fun c => negb (p c)) s = true -> cut p s = (s, None).
Proof. induction s as [|c s IH]; cbn; [reflexivity|]. intros H. apply andb_prop in H as [H1 H2]. apply negb_true_iff in H1. rewrite H1, (IH H2). reflexivity. Qed.
Lemma cut_app p s c r : forallb (fun c => negb (p c)) s = true -> p c = true -> cut p (s ++ c :: r) = (s, Some r).
Proof. intros H P. induction s as [|d s IH]; cbn in *; [rewrite P; reflexivity|]. apply andb_prop in H as [H1 H2]. apply negb_true_iff in H1. rewrite H1, (IH H2). reflexivity. Qed.

(** * splitting *)
(** the character c directly before a space *)
Fixpoint fol (c : ascii) (t : text) : bool :=
  match t with x :: r => (Ascii.eqb x c && match r with y :: _ => is_sp y | [] => false end) || fol c r | [] => false end.
Lemma fol_app c s y t : fol c (s ++ y :: t) = fol c (s ++ [y]) || fol c (y :: t).
Proof.
  induction s as [|x s IH]; [cbn [app fol]; rewrite andb_false_r; reflexivity|].
  change ((x :: s) ++ y :: t) with (x :: (s ++ y :: t)). change ((x :: s) ++ [y]) with (x :: (s ++ [y])).
  cbn [fol]. rewrite IH, orb_assoc. destruct s; reflexivity.
Qed.
Lemma fol_cons c x t : Ascii.eqb x c = false -> fol c (x :: t) = fol c t.
Proof. intros H. cbn [fol]. rewrite H. reflexivity. Qed.
Lemma fol_snoc_sp c s z : fol c (s ++ [z]) = false -> Ascii.eqb z c = false -> fol c (s ++ [z; " "]) = false.
Proof. intros H Z. rewrite fol_app, H. cbn. rewrite Z. cbn. rewrite andb_false_r. reflexivity. Qed.
Lemma fol_prefix c s t : fol c (s ++ t) = false -> fol c s = false.
Proof.
  revert t. induction s as [|x s IH]; intros t H; [reflexivity|]. change ((x :: s) ++ t) with (x :: (s ++ t)) in H. cbn [fol] in *.
  apply orb_false_iff in H as [H1 H2]. apply orb_false_iff. split; [|eapply IH; exact H2].
  destruct s as [|y s]; [apply andb_false_r|exact H1].
Qed.
Lemma fol_nosp c s : forallb (fun c => negb (is_sp c)) s = true -> fol c s = false.
Proof.
  induction s as [|x s IH]; [reflexivity|]. cbn. intros H. apply andb_prop in H as [_ H]. rewrite (IH H), orb_false_r.
  destruct s; [apply andb_false_r|]. cbn in H. apply andb_prop in H as [H _]. apply negb_true_iff in H. rewrite H. apply andb_false_r.
Qed.
Lemma fol_pad c k t : is_sp c = false -> fol c (repeat " " k ++ t) = fol c t.
Proof. intros H. induction k as [|k IH]; [reflexivity|]. cbn [repeat app]. rewrite fol_cons; [exact IH|]. rewrite Ascii.eqb_sym. exact H. Qed.
Lemma prefix3 (c d : ascii) r : prefixb [" "; c; " "] (d :: r) = true -> d = " " /\ exists t, r = c :: " " :: t.
Proof.
  cbn [prefixb]. intros H. apply andb_prop in H as [H1 H2]. destruct r as [|e r]; [discriminate|]. cbn [prefixb] in H2. apply andb_prop in H2 as [H2 H3].
  destruct r as [|f r]; [discriminate|]. cbn [prefixb] in H3. apply andb_prop in H3 as [H3 _]. apply eqb_ne in H1, H2, H3. subst. split; [reflexivity|]. exists r. reflexivity.
Qed.
Lemma split_one c t : fol c t = false -> split_sep c 0 t = [t].
Proof.
  induction t as [|d t IH]; intros H; [reflexivity|]. cbn [split_sep].
  destruct (prefixb [" "; c; " "] (d :: t)) eqn:P.
  - apply prefix3 in P as (-> & r & ->). cbn in H. rewrite Ascii.eqb_refl in H. cbn in H. rewrite orb_true_r in H. discriminate.
  - rewrite IH; [reflexivity|]. cbn [fol] in H. apply orb_false_iff in H as [_ H]. exact H.
Qed.
Lemma split_part c m r : is_sp c = false -> fol c (m ++ [" "]) = false -> split_sep c 0 (m ++ " " :: c :: " " :: r) = m :: split_sep c 0 r.
Proof.
  intros C. induction m as [|d m IH]; intros H.
  - cbn [app split_sep prefixb]. rewrite !Ascii.eqb_refl. reflexivity.
  - cbn [app split_sep]. destruct (prefixb [" "; c; " "] (d :: m ++ " " :: c :: " " :: r)) eqn:P.
    + exfalso. apply prefix3 in P as (-> & t & E). destruct m as [|e m]; cbn [app] in E.
      * injection E as E _. subst c. discriminate.
      * injection E as -> E. destruct m as [|f m]; cbn [app] in E, H; cbn in H; rewrite Ascii.eqb_refl in H; cbn in H.
        -- rewrite orb_true_r in H. discriminate.
        -- injection E as -> _. cbn in H. rewrite orb_true_r in H. discriminate.
    + rewrite IH; [reflexivity|]. cbn [app] in H. cbn [fol] in H. apply orb_false_iff in H as [_ H]. exact H.
Qed.
Lemma split_ne c k s : split_sep c k s <> [].
Proof.
  revert k. induction s as [|d s IH]; intros k; cbn [split_sep]; [discriminate|]. destruct k; [|apply IH].
  destruct (prefixb _ _); [discriminate|]. destruct (split_sep c 0 s); discriminate.
Qed.
Lemma split_join c ts : is_sp c = false -> ts <> [] -> Forall (fun t => fol c (t ++ [" "]) = false) ts -> split_sep c 0 (join_sep [" "; c; " "] ts) = ts.
Proof.
  intros C N F. induction F as [|t ts H F IH]; [contradiction|]. destruct ts as [|t2 ts].
  - cbn [join_sep]. apply split_one. eapply fol_prefix. exact H.
  - change (join_sep [" "; c; " "] (t :: t2 :: ts)) with (t ++ " " :: c :: " " :: join_sep [" "; c; " "] (t2 :: ts)).
    rewrite split_part by assumption. rewrite IH by discriminate. reflexivity.
Qed.
Lemma fol_join c c' ts : Ascii.eqb c' c = false -> Ascii.eqb " " c = false -> Forall (fun t => fol c (t ++ [" "]) = false) ts -> fol c (join_sep [" "; c'; " "] ts) = false.
Proof.
  intros C S F. induction F as [|t ts H F IH]; [reflexivity|]. destruct ts as [|t2 ts].
  - cbn [join_sep]. eapply fol_prefix. exact H.
  - change (join_sep [" "; c'; " "] (t :: t2 :: ts)) with (t ++ " " :: c' :: " " :: join_sep [" "; c'; " "] (t2 :: ts)).
    rewrite fol_app, H. rewrite (fol_cons c " ") by exact S. rewrite (fol_cons c c') by exact C. rewrite (fol_cons c " ") by exact S. exact IH.
Qed.

(** * the halves of a text in round brackets *)
Definition tchar (c : ascii) : bool := okc c || Ascii.eqb c "," || is_sp c.
Definition closing (z : ascii) : Prop := z = ")" \/ z = "]".
Lemma closing_alien z : closing z -> alien z. Proof. intros [-> | ->]; split; reflexivity. Qed.
Lemma tchar_cases c : tchar c = true -> opchar c = false /\ Ascii.eqb c "}" = false.
Proof.
  unfold tchar. intros H. apply orb_prop in H as [H|H]; [apply orb_prop in H as [H|H]|]; [|apply eqb_ne in H; subst; split; reflexivity|apply eqb_ne in H; subst; split; reflexivity].
  assert (K : forall d, okc d = false -> Ascii.eqb c d = false) by (intros d D; apply Ascii.eqb_neq; intros ->; congruence).
  unfold opchar. rewrite !K by reflexivity. split; reflexivity.
Qed.
Lemma cut_comma w e : forallb tchar w = true -> forallb (fun c => negb (is_c "," c)) e = true ->
  cut (is_c ",") (w ++ e) = (w ++ e, None) \/ exists a b, cut (is_c ",") (w ++ e) = (a, Some (b ++ e)) /\ forallb tchar b = true.
Proof.
  induction w as [|c w IH]; intros H E; [left; apply cut_none; exact E|]. cbn in H. apply andb_prop in H as [H1 H2]. cbn [app cut].
  destruct (is_c "," c) eqn:C; [right; exists [], w; auto|]. destruct (IH H2 E) as [-> |(a & b & -> & B)]; [left; reflexivity|right; exists (c :: a), b; auto].
Qed.
Lemma builder_half x w z : is_alpha x = true -> forallb tchar w = true -> closing z -> builder_re ("{" :: x :: "|" :: w ++ [z; "}"]) = None.
Proof.
  intros X W Z. unfold builder_re. cbn [Ascii.eqb Bool.eqb andb]. rewrite X. cbn [andb].
  change (if true then ?a else _) with a.
  assert (L : forall b, forallb tchar b = true ->
    match cut (is_c "}") (b ++ [z; "}"]) with
    | (t2, Some after) => match stmt x t2, after with Some s2, [] => Some (s2, false) | Some s2, [q] => if Ascii.eqb q "'" then Some (s2, true) else None | _, _ => None end
    | _ => None end = None).
  { intros b B. assert (E : b ++ [z; "}"] = (b ++ [z]) ++ "}" :: []) by (rewrite <- app_assoc; reflexivity). rewrite E.
    rewrite cut_app; [|rewrite forallb_app; apply andb_true_intro; split|reflexivity].
    - rewrite stmt_none; [reflexivity|exact X| |].
      + rewrite forallb_app. apply andb_true_intro. split.
        * apply forallb_forall. intros c C. rewrite forallb_forall in B. apply negb_true_iff, tchar_cases, B, C.
        * destruct Z as [-> | ->]; reflexivity.
      + exists z. split; [apply in_elt|]. destruct Z as [-> | ->]; reflexivity.
    - apply forallb_forall. intros c C. rewrite forallb_forall in B. apply negb_true_iff, tchar_cases, B, C.
    - destruct Z as [-> | ->]; reflexivity. }
  destruct (cut_comma w [z; "}"] W) as [E|(a & b & E & B)]; [destruct Z as [-> | ->]; reflexivity| |]; rewrite E.
  - rewrite (L w W). reflexivity.
  - rewrite (L b B). destruct (stmt x a); reflexivity.
Qed.
Lemma no_sp_app a b : no_sp (a ++ b) = no_sp a ++ no_sp b. Proof. apply filter_app. Qed.
Lemma tchar_no_sp w : forallb tchar w = true -> forallb tchar (no_sp w) = true.
Proof. intros H. apply forallb_forall. intros c C. unfold no_sp in C. apply filter_In in C as [C _]. rewrite forallb_forall in H. auto. Qed.
Lemma okc_tchar c : okc c = true -> tchar c = true. Proof. unfold tchar. intros ->. reflexivity. Qed.
Lemma okc_not c d : okc c = true -> okc d = false -> Ascii.eqb c d = false.
Proof. intros A B. apply Ascii.eqb_neq. intros ->. congruence. Qed.
Lemma okc_sp c : okc c = true -> is_sp c = false. Proof. intros H. apply (okc_not c " " H). reflexivity. Qed.
Lemma closing_facts z : closing z -> is_sp z = false /\ Ascii.eqb z "'" = false /\ Ascii.eqb z "}" = false /\ Ascii.eqb z "!" = false.
Proof. intros [-> | ->]; repeat split. Qed.
Lemma half_strip y w z : okc y = true -> closing z -> strip is_sp (y :: w ++ [z]) = y :: w ++ [z].
Proof. intros Y Z. apply (strip_ends _ y z w eq_refl); [apply okc_sp; exact Y|apply closing_facts; exact Z]. Qed.
Lemma builder_of_half x pre d w z : is_alpha x = true -> closing z -> no_sp d = "{" :: x :: "|" :: w ++ [z; "}"] -> forallb tchar w = true -> builder_of d pre = Err TypeError.
Proof. intros X Z E W. unfold builder_of, parse_builder. rewrite E, (builder_half x w z X W Z). reflexivity. Qed.
Lemma half_interval y w z : okc y = true -> forallb tchar w = true -> closing z -> interval_def (y :: w ++ [z]) = Err TypeError.
Proof.
  intros Y W Z. pose proof (half_strip y w z Y Z) as ST. set (d := y :: w ++ [z]) in *.
  assert (ED : d = y :: w ++ [z]) by reflexivity.
  assert (IZ : In z d) by (right; apply in_elt).
  assert (SB : split_bang d = Ok (false, d)). { unfold split_bang. rewrite ST. unfold d. rewrite (okc_not y "!" Y eq_refl). reflexivity. }
  assert (PZ : parse_item d false = Err TypeError) by (apply (parse_item_alien z); [apply closing_alien; exact Z|exact IZ]).
  assert (ND : no_sp d = no_sp (y :: w) ++ [z]).
  { unfold d. change (y :: w ++ [z]) with ((y :: w) ++ [z]). rewrite no_sp_app. f_equal. unfold no_sp. cbn. rewrite (proj1 (closing_facts z Z)). reflexivity. }
  assert (TY : forallb tchar (no_sp (y :: w)) = true). { apply tchar_no_sp. cbn. rewrite (okc_tchar y Y). exact W. }
  assert (Bx : forall pre, builder_of (lit "{x|" ++ d ++ lit "}") pre = Err TypeError).
  { intros pre. apply (builder_of_half "x" pre _ (no_sp (y :: w)) z); [reflexivity|exact Z| |exact TY].
    rewrite !no_sp_app, ND, <- app_assoc. reflexivity. }
  assert (Bn : forall pre, builder_of (lit "{n|neZ," ++ d ++ lit "}") pre = Err TypeError).
  { intros pre. apply (builder_of_half "n" pre _ ("n" :: "e" :: "Z" :: "," :: no_sp (y :: w)) z); [reflexivity|exact Z| |exact TY].
    rewrite !no_sp_app, ND, <- app_assoc. reflexivity. }
  clearbody d. clear ND TY. destruct d as [|d0 d1]; [destruct IZ|]. injection ED as ED _. subst d0.
  unfold interval_def, interval_str, builder_str. rewrite SB, PZ, Bx, Bn.
  rewrite (okc_not y "[" Y eq_refl), (okc_not y "(" Y eq_refl), (okc_not y "{" Y eq_refl). cbn [orb to_type_error].
  destruct (existsb (fun c => Ascii.eqb c "x" || Ascii.eqb c "n") (y :: d1)); [|reflexivity].
  destruct (existsb (is_c "x") _); [reflexivity|]. destruct (existsb (is_c "n") _); reflexivity.
Qed.
Lemma half_roster y w z : okc y = true -> forallb tchar w = true -> closing z -> roster_str (y :: w ++ [z]) = Err TypeError.
Proof.
  intros Y W Z. unfold roster_str.
  rewrite (parse_item_alien z (y :: w ++ [z]) false); [|apply closing_alien; exact Z|right; apply in_elt].
  replace (roster_parse (y :: w ++ [z])) with (@Err (list pitem * bool) TypeError); [reflexivity|]. symmetry.
  unfold roster_parse.
  assert (ND : no_sp (y :: w ++ [z]) = y :: no_sp w ++ [z]).
  { change (y :: w ++ [z]) with ([y] ++ w ++ [z]). rewrite !no_sp_app. unfold no_sp at 1 3. cbn. rewrite (okc_sp y Y), (proj1 (closing_facts z Z)). reflexivity. }
  destruct (closing_facts z Z) as (_ & Q & B & _).
  rewrite ND, (okc_not y "!" Y eq_refl). change (y :: no_sp w ++ [z]) with ((y :: no_sp w) ++ [z]). rewrite rev_app_distr. cbn [rev app]. rewrite Q.
  rewrite rev_app_distr. cbn [rev app]. rewrite (okc_not y "{" Y eq_refl), B. reflexivity.
Qed.
Lemma unsnoc_snoc s z : unsnoc (s ++ [z]) = Some (s, z).
Proof. unfold unsnoc. rewrite rev_app_distr. cbn. rewrite rev_involutive. reflexivity. Qed.
Lemma half_comb y w z : okc y = true -> forallb tchar w = true -> closing z -> fol "u" (y :: w ++ [z]) = false -> fol "n" (y :: w ++ [z]) = false ->
  forall fuel c, exists e, comb_parse fuel (y :: w ++ [z]) c = Err e.
Proof.
  intros Y W Z FU FN. induction fuel as [|fuel IH]; intros c; [exists RecursionError; reflexivity|].
  cbn [comb_parse]. rewrite (half_strip y w z Y Z), (okc_not y "!" Y eq_refl).
  pose proof (unsnoc_snoc (y :: w) z) as US. cbn [app] in US. rewrite US.
  destruct (closing_facts z Z) as (_ & Q & B & _). rewrite Q, US. rewrite (okc_not y "(" Y eq_refl). cbn [andb].
  unfold comb_split. rewrite (split_one _ _ FU), (split_one _ _ FN). cbn [map_res]. unfold sub_def.
  rewrite (half_interval y w z Y W Z), (half_roster y w z Y W Z). destruct (IH false) as [e ->]. exists e. reflexivity.
Qed.

(** * texts of members *)
(** what a text stands for as a member: an interval, or else a roster *)
Definition part (t : text) (m : cset) : Prop :=
  interval_def t = Ok m \/ (interval_def t = Err TypeError /\ exists r, roster_str t = Ok r /\ m = CRos r).
Lemma part_sub comb t m : part t m -> sub_def comb t = Ok m.
Proof. unfold sub_def. intros [-> |[-> (r & -> & ->)]]; reflexivity. Qed.
Lemma parts_sub comb ts ms : Forall2 part ts ms -> map_res (sub_def comb) ts = Ok ms.
Proof. induction 1 as [|t m ts ms P F IH]; [reflexivity|]. cbn [map_res]. rewrite (part_sub comb t m P), IH. reflexivity. Qed.
Definition calm (t : text) : Prop := fol "u" (t ++ [" "]) = false /\ fol "n" (t ++ [" "]) = false.
Lemma comb_split_ok comb u ts ms c : (2 <= length ts)%nat -> Forall calm ts -> Forall2 part ts ms ->
  comb_split comb (join_sep (sep_of u) ts) c = Ok (ms, u, c).
Proof.
  intros L C P. assert (N : ts <> []) by (destruct ts; [cbn in L; lia|discriminate]).
  assert (CU : Forall (fun t => fol "u" (t ++ [" "]) = false) ts) by (eapply Forall_impl; [|exact C]; intros t [A _]; exact A).
  assert (CN : Forall (fun t => fol "n" (t ++ [" "]) = false) ts) by (eapply Forall_impl; [|exact C]; intros t [_ A]; exact A).
  unfold comb_split, sep_of. destruct ts as [|t1 [|t2 ts]]; [contradiction|cbn in L; lia|]. destruct u.
  - rewrite (split_join "u" (t1 :: t2 :: ts) eq_refl N CU), (split_one "n") by (apply fol_join; auto). rewrite (parts_sub comb _ _ P). reflexivity.
  - rewrite (split_join "n" (t1 :: t2 :: ts) eq_refl N CN), (split_one "u") by (apply fol_join; auto). rewrite (parts_sub comb _ _ P). reflexivity.
Qed.
(** the text  [!] o w z  of a member *)
Definition tx (bang : bool) (o : ascii) (w : text) (z : ascii) : text := (if bang then ["!"] else []) ++ o :: w ++ [z].
Record mtext (bang : bool) (o : ascii) (w : text) (z : ascii) (m : cset) : Prop := {
  mt_open : o = "[" \/ o = "(" \/ o = "{";
  mt_close : closing z \/ z = "}";
  mt_chars : forallb tchar w = true;
  mt_u : fol "u" (w ++ [z]) = false;
  mt_n : fol "n" (w ++ [z]) = false;
  mt_part : part (tx bang o w z) m;
  mt_round : o = "(" -> closing z /\ exists k y w', w = repeat " " k ++ y :: w' /\ okc y = true /\ part (tx bang o (y :: w') z) m;
  mt_last : z = ")" -> exists w' y, w = w' ++ [y] /\ okc y = true }.
Definition member (t : text) (m : cset) : Prop := exists bang o w z, t = tx bang o w z /\ mtext bang o w z m.
Lemma mtext_calm bang o w z m : mtext bang o w z m -> calm (tx bang o w z).
Proof.
  intros M. unfold calm, tx. rewrite <- !app_assoc. cbn [app].
  assert (K : forall c, Ascii.eqb "!" c = false -> Ascii.eqb o c = false -> Ascii.eqb z c = false -> fol c (w ++ [z]) = false -> fol c ((if bang then ["!"] else []) ++ o :: (w ++ [z]) ++ [" "]) = false).
  { intros c B O Z F. rewrite <- app_assoc. destruct bang; cbn [app]; [rewrite (fol_cons c "!") by exact B|]; rewrite (fol_cons c o) by exact O; apply fol_snoc_sp; assumption. }
  destruct M as [O Z _ U N _ _ _]. split; apply K; auto; try (destruct O as [-> |[-> | ->]]; reflexivity); destruct Z as [[-> | ->]| ->]; reflexivity.
Qed.
Lemma member_calm ts ms : Forall2 member ts ms -> Forall calm ts.
Proof. induction 1 as [|t m ts ms (b & o & w & z & -> & M) F IH]; constructor; auto. eapply mtext_calm; exact M. Qed.
Lemma member_part ts ms : Forall2 member ts ms -> Forall2 part ts ms.
Proof. induction 1 as [|t m ts ms (b & o & w & z & -> & M) F IH]; constructor; auto. apply (mt_part _ _ _ _ _ M). Qed.
(** the end of a joined text *)
Lemma join_end sep ts ms : ts <> [] -> Forall2 member ts ms -> exists q z, join_sep sep ts = q ++ [z] /\ (closing z \/ z = "}") /\
  (z = ")" -> exists q' y, q = q' ++ [y] /\ okc y = true).
Proof.
  intros N F. induction F as [|t m ts ms (b & o & w & z & -> & M) F IH]; [contradiction|]. destruct ts as [|t2 ts].
  - exists ((if b then ["!"] else []) ++ o :: w), z. cbn [join_sep]. unfold tx. rewrite <- app_assoc. split; [reflexivity|]. split; [apply (mt_close _ _ _ _ _ M)|].
    intros E. destruct (mt_last _ _ _ _ _ M E) as (w' & y & -> & Y). exists ((if b then ["!"] else []) ++ o :: w'), y. split; [|exact Y]. rewrite <- app_assoc. reflexivity.
  - destruct IH as (q & z' & E & Z & L); [discriminate|].
    change (join_sep sep (tx b o w z :: t2 :: ts)) with (tx b o w z ++ sep ++ join_sep sep (t2 :: ts)). rewrite E.
    exists (tx b o w z ++ sep ++ q), z'. split; [rewrite <- !app_assoc; reflexivity|]. split; [exact Z|].
    intros E2. destruct (L E2) as (q' & y & -> & Y). exists (tx b o w z ++ sep ++ q'), y. split; [rewrite <- !app_assoc; reflexivity|exact Y].
Qed.
Definition starts_plain (t : text) : Prop := match t with c :: _ => c <> "!" | [] => False end.
Lemma strip_pad k s : strip is_sp (repeat " " k ++ s) = strip is_sp s.
Proof. unfold strip. do 3 f_equal. induction k as [|k IH]; [reflexivity|]. exact IH. Qed.
Lemma tchar_app a b : forallb tchar (a ++ b) = forallb tchar a && forallb tchar b. Proof. apply forallb_app. Qed.
Lemma comb_split_err comb (u : bool) p l d c e : split_sep (if u then "u" else "n") 0 d = p :: l -> l <> [] -> sub_def comb p = Err e ->
  exists e, comb_split comb d c = Err e.
Proof.
  intros S N E. destruct l as [|p2 l]; [contradiction|]. unfold comb_split. destruct u; rewrite S; cbn [map_res]; rewrite E.
  - destruct (split_sep "n" 0 d) as [|? [|? ?]]; eexists; reflexivity.
  - destruct (split_sep "u" 0 d) as [|? [|? ?]]; eexists; reflexivity.
Qed.
Lemma inner_fails (u : bool) y w z q y' : okc y = true -> okc y' = true -> forallb tchar w = true -> closing z -> fol "u" (y :: w ++ [z]) = false -> fol "n" (y :: w ++ [z]) = false ->
  forall fuel c, exists e, comb_parse fuel ((y :: w ++ [z]) ++ sep_of u ++ q ++ [y']) c = Err e.
Proof.
  intros Y Y' W Z FU FN [|fuel] c; [exists RecursionError; reflexivity|].
  set (p := y :: w ++ [z]) in *.
  assert (E : p ++ sep_of u ++ q ++ [y'] = y :: ((w ++ [z]) ++ sep_of u ++ q) ++ [y']) by (unfold p; cbn [app]; rewrite <- !app_assoc; reflexivity).
  assert (SS : exists l, split_sep (if u then "u" else "n") 0 (p ++ sep_of u ++ q ++ [y']) = p :: l /\ l <> []).
  { exists (split_sep (if u then "u" else "n") 0 (q ++ [y'])). split; [|apply split_ne].
    assert (Zc : forall a, okc a = true -> Ascii.eqb z a = false) by (intros a A; apply Ascii.eqb_neq; intros ->; destruct Z as [-> | ->]; discriminate).
    destruct u; apply split_part; try reflexivity; unfold p; change (y :: w ++ [z]) with ((y :: w) ++ [z]) in *; rewrite <- app_assoc; apply fol_snoc_sp; auto. }
  set (T := p ++ sep_of u ++ q ++ [y']) in *.
  assert (ST : strip is_sp T = T) by (apply (strip_ends T y y' _ E); apply okc_sp; assumption).
  assert (US : unsnoc T = Some (y :: (w ++ [z]) ++ sep_of u ++ q, y')) by (rewrite E; apply (unsnoc_snoc (y :: (w ++ [z]) ++ sep_of u ++ q) y')).
  destruct SS as (l & SS & N). clearbody T.
  cbn [comb_parse]. rewrite ST. destruct T as [|t0 T]; [discriminate|]. injection E as E0 _. subst t0.
  rewrite (okc_not y "!" Y eq_refl), US, (okc_not y' "'" Y' eq_refl), US, (okc_not y "(" Y eq_refl). cbn [andb].
  destruct (half_comb y w z Y W Z FU FN fuel false) as [e He].
  eapply (comb_split_err _ u p l); [exact SS|exact N|]. unfold sub_def, p.
  rewrite (half_interval y w z Y W Z), (half_roster y w z Y W Z), He. reflexivity.
Qed.
Lemma comb_parse_members fuel u ts ms c : (2 <= length ts)%nat -> Forall2 member ts ms -> match ts with t :: _ => starts_plain t | [] => False end ->
  comb_parse (S fuel) (join_sep (sep_of u) ts) c = Ok (ms, u, c).
Proof.
  intros L F B. destruct ts as [|t1 [|t2 ts]]; [destruct B|cbn in L; lia|].
  pose proof (member_calm _ _ F) as CA. pose proof (member_part _ _ F) as PA.
  pose proof (fun comb => comb_split_ok comb u (t1 :: t2 :: ts) ms c L CA PA) as OK.
  inversion F as [|? m1 ? ms' (b & o & w & z & E1 & M) F']; subst. destruct b; [destruct B; reflexivity|].
  destruct (join_end (sep_of u) (t2 :: ts) ms') as (q & z' & EQ & Z' & LQ); [discriminate|exact F'|].
  assert (ET : join_sep (sep_of u) (tx false o w z :: t2 :: ts) = o :: ((w ++ [z]) ++ sep_of u ++ q) ++ [z']).
  { change (join_sep (sep_of u) (tx false o w z :: t2 :: ts)) with (tx false o w z ++ sep_of u ++ join_sep (sep_of u) (t2 :: ts)). rewrite EQ. unfold tx. cbn [app]. rewrite <- !app_assoc. reflexivity. }
  set (T := join_sep (sep_of u) (tx false o w z :: t2 :: ts)) in *.
  assert (O : is_sp o = false /\ Ascii.eqb o "!" = false) by (destruct (mt_open _ _ _ _ _ M) as [-> |[-> | ->]]; split; reflexivity).
  assert (ZF : is_sp z' = false /\ Ascii.eqb z' "'" = false) by (destruct Z' as [[-> | ->]| ->]; split; reflexivity).
  assert (ST : strip is_sp T = T) by (apply (strip_ends T o z' _ ET); [apply O|apply ZF]).
  assert (US : unsnoc T = Some (o :: (w ++ [z]) ++ sep_of u ++ q, z')) by (rewrite ET; apply (unsnoc_snoc (o :: (w ++ [z]) ++ sep_of u ++ q) z')).
  cbn [comb_parse]. rewrite ST. clearbody T. destruct T as [|t0 T]; [discriminate|]. injection ET as E0 ET. subst t0.
  rewrite (proj2 O), US, (proj2 ZF), US.
  destruct (Ascii.eqb o "(" && Ascii.eqb z' ")") eqn:R; [|apply OK].
  apply andb_prop in R as [R1 R2]. apply eqb_ne in R1, R2. subst o z'.
  destruct (mt_round _ _ _ _ _ M eq_refl) as (CZ & k & y & w' & -> & Y & P').
  destruct (LQ eq_refl) as (q' & y' & -> & Y').
  assert (RL : strip is_sp (removelast T) = (y :: w' ++ [z]) ++ sep_of u ++ q' ++ [y']).
  { rewrite ET, removelast_app by discriminate. cbn [removelast]. rewrite app_nil_r, <- !app_assoc, strip_pad.
    assert (E : (y :: w' ++ [z]) ++ sep_of u ++ q' ++ [y'] = y :: ((w' ++ [z]) ++ sep_of u ++ q') ++ [y']) by (cbn [app]; rewrite <- !app_assoc; reflexivity).
    change ((y :: w') ++ [z] ++ sep_of u ++ q' ++ [y']) with (y :: w' ++ [z] ++ sep_of u ++ q' ++ [y']).
    rewrite <- (strip_ends _ y y' _ E (okc_sp y Y) (okc_sp y' Y')). cbn [app]. rewrite <- app_assoc. reflexivity. }
  rewrite RL.
  pose proof (mt_chars _ _ _ _ _ M) as CH. rewrite tchar_app in CH. apply andb_prop in CH as [_ CH]. cbn [forallb] in CH. apply andb_prop in CH as [_ CH].
  pose proof (mt_u _ _ _ _ _ M) as FU. pose proof (mt_n _ _ _ _ _ M) as FN. rewrite <- app_assoc, fol_pad in FU, FN by reflexivity. cbn [app] in FU, FN.
  destruct (inner_fails u y w' z q' y' Y Y' CH CZ FU FN fuel c) as [e ->].
  (* the text with the parentheses put back *)
  assert (EB : "(" :: ((y :: w' ++ [z]) ++ sep_of u ++ q' ++ [y']) ++ [")"] = join_sep (sep_of u) (tx false "(" (y :: w') z :: t2 :: ts)).
  { change (join_sep (sep_of u) (tx false "(" (y :: w') z :: t2 :: ts)) with (tx false "(" (y :: w') z ++ sep_of u ++ join_sep (sep_of u) (t2 :: ts)).
    rewrite EQ. unfold tx. cbn [app]. rewrite <- !app_assoc. reflexivity. }
  rewrite EB. apply comb_split_ok; [cbn; lia| |].
  - inversion CA; subst. constructor; [|assumption].
    assert (K : forall a, Ascii.eqb "(" a = false -> Ascii.eqb z a = false -> fol a (y :: w' ++ [z]) = false -> fol a (tx false "(" (y :: w') z ++ [" "]) = false).
    { intros a A1 A2 A3. unfold tx. cbn [app]. rewrite fol_cons by exact A1. rewrite <- app_assoc. apply (fol_snoc_sp a (y :: w') z); assumption. }
    split; apply K; auto; destruct CZ as [-> | ->]; reflexivity.
  - inversion PA; subst. constructor; assumption.
Qed.
(** with the complement: "!(" ... ")" *)
Lemma comb_parse_text fuel u c ts ms : (2 <= length ts)%nat -> Forall2 member ts ms -> match ts with t :: _ => starts_plain t | [] => False end ->
  comb_parse (S (S fuel)) (comb_text u c ts) false = Ok (ms, u, c).
Proof.
  intros L F B. destruct c; unfold comb_text; [|rewrite app_nil_r; cbn [app]; apply comb_parse_members; assumption].
  pose proof (comb_parse_members fuel u ts ms true L F B) as OK. set (T := join_sep (sep_of u) ts) in *.
  assert (ST : strip is_sp T = T).
  { destruct ts as [|t1 ts]; [destruct B|]. destruct (join_end (sep_of u) (t1 :: ts) ms) as (q & z & E & Z & _); [discriminate|exact F|].
    inversion F as [|? m1 ? ms' (b & o & w & z1 & E1 & M) F']; subst. destruct b; [destruct B; reflexivity|].
    assert (HT : exists r, T = o :: r). { unfold T. destruct ts as [|t2 ts]; [exists (w ++ [z1]); reflexivity|]. eexists. unfold tx. cbn [join_sep app]. reflexivity. }
    destruct HT as [r HT]. fold T in E. rewrite HT in E. destruct q as [|q0 q]; cbn [app] in E.
    - injection E as E1 E2. subst. destruct ts as [|t2 ts]; unfold T, tx in HT; cbn in HT, L; [lia|]. injection HT as HT. destruct w; discriminate.
    - injection E as E1 E2. subst q0. rewrite HT, E2. apply (strip_ends _ o z q eq_refl); [destruct (mt_open _ _ _ _ _ M) as [-> |[-> | ->]]; reflexivity|destruct Z as [[-> | ->]| ->]; reflexivity]. }
  change (lit "!(") with ["!"; "("]. change (lit ")") with [")"]. cbn [app].
  assert (S1 : strip is_sp ("!" :: "(" :: T ++ [")"]) = "!" :: "(" :: T ++ [")"]) by (apply (strip_ends _ "!" ")" ("(" :: T) eq_refl); reflexivity).
  assert (S2 : strip is_sp ("(" :: T ++ [")"]) = "(" :: T ++ [")"]) by (apply (strip_ends _ "(" ")" T eq_refl); reflexivity).
  pose proof (unsnoc_snoc ("(" :: T) ")") as US. cbn [app] in US.
  remember (S fuel) as k. cbn [comb_parse]. rewrite S1. cbn [Ascii.eqb Bool.eqb negb]. rewrite S2, US. cbn [Ascii.eqb Bool.eqb]. rewrite US. cbn [Ascii.eqb Bool.eqb andb].
  rewrite removelast_app by discriminate. cbn [removelast]. rewrite app_nil_r, ST, OK. reflexivity.
Qed.
