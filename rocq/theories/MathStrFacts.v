(** Facts on definition strings (MathStr.v): printed numbers are read back. *)
From Coq Require Import QArith Ascii.
From Verif Require Import Base MathSet MathSpec MathFacts MathStr.
Local Open Scope Z_scope.

(** ** single characters *)
Lemma dig_range d : 0 <= d < 16 -> In d (map Z.of_nat (seq 0 16)).
Proof. intro H. apply in_map_iff. exists (Z.to_nat d). split; [lia|]. apply in_seq. lia. Qed.
Lemma dig_all (P : Z -> bool) : forallb P (map Z.of_nat (seq 0 16)) = true -> forall d, 0 <= d < 16 -> P d = true.
Proof. intros H d D. rewrite forallb_forall in H. apply H. apply dig_range. auto. Qed.
Lemma digit_val_char d : 0 <= d < 16 -> digit_val (dig_char d) = Some d.
Proof.
  intro D. pose proof (dig_all (fun d => match digit_val (dig_char d) with Some e => e =? d | None => false end) ltac:(vm_compute; reflexivity) d D) as H.
  cbv beta in H. destruct (digit_val (dig_char d)); [|discriminate]. apply Z.eqb_eq in H. subst. auto.
Qed.
(** hexadecimal digit, lower case *)
Definition hexc (c : ascii) : bool := is_digit c || within "a" "f" c.
Lemma dig_hexc d : 0 <= d < 16 -> hexc (dig_char d) = true.
Proof. exact (dig_all (fun d => hexc (dig_char d)) ltac:(vm_compute; reflexivity) d). Qed.
Lemma dig_dec d : 0 <= d < 10 -> is_digit (dig_char d) = true.
Proof.
  intro D. pose proof (dig_all (fun d => negb (d <? 10) || is_digit (dig_char d)) ltac:(vm_compute; reflexivity) d ltac:(lia)) as H.
  cbv beta in H. destruct (d <? 10) eqn:E; [exact H|lia].
Qed.
Lemma dig_nz d : 1 <= d < 16 -> Ascii.eqb (dig_char d) "0" = false.
Proof.
  intro D. pose proof (dig_all (fun d => (d =? 0) || negb (Ascii.eqb (dig_char d) "0")) ltac:(vm_compute; reflexivity) d ltac:(lia)) as H.
  cbv beta in H. destruct (d =? 0) eqn:E; [lia|]. cbn in H. apply negb_true_iff in H. auto.
Qed.
Definition all_chars : list ascii := map ascii_of_nat (seq 0 256).
Lemma all_chars_in c : In c all_chars.
Proof.
  unfold all_chars. apply in_map_iff. exists (nat_of_ascii c). split; [apply ascii_nat_embedding|]. apply in_seq.
  pose proof (nat_ascii_bounded c). lia.
Qed.
(** a property of characters, checked for all 256 *)
Lemma char_all (P : ascii -> bool) : forallb P all_chars = true -> forall c, P c = true.
Proof. intros H c. rewrite forallb_forall in H. apply H, all_chars_in. Qed.
Lemma char_imp (P R : ascii -> bool) : forallb (fun c => implb (P c) (R c)) all_chars = true -> forall c, P c = true -> R c = true.
Proof. intros H c E. pose proof (char_all _ H c) as K. cbv beta in K. rewrite E in K. exact K. Qed.
Ltac chars := apply char_imp; vm_compute; reflexivity.
Lemma forallb_imp (P R : ascii -> bool) (t : text) : (forall c, P c = true -> R c = true) -> forallb P t = true -> forallb R t = true.
Proof. intros H K. rewrite forallb_forall in *. auto. Qed.

(** ** stripping *)
Lemma lstrip_none p (t : text) : forallb (fun c => negb (p c)) t = true -> lstrip p t = t.
Proof. destruct t as [|c t]; cbn; auto. intro H. apply andb_true_iff in H as [H _]. apply negb_true_iff in H. rewrite H. auto. Qed.
Lemma forallb_rev (P : ascii -> bool) (t : text) : forallb P t = true -> forallb P (rev t) = true.
Proof. intro H. rewrite forallb_forall in *. intros x X. apply H. apply in_rev. auto. Qed.
Lemma strip_none p (t : text) : forallb (fun c => negb (p c)) t = true -> strip p t = t.
Proof.
  intro H. unfold strip. rewrite (lstrip_none p t H). rewrite lstrip_none by (apply forallb_rev; auto). apply rev_involutive.
Qed.
Lemma strip_pad k (t : text) : forallb (fun c => negb (is_sp c)) t = true -> strip is_sp (repeat " "%char k ++ t) = t.
Proof.
  intro H. unfold strip. assert (lstrip is_sp (repeat " "%char k ++ t) = t) as ->.
  { induction k; cbn; auto. apply lstrip_none; auto. }
  rewrite lstrip_none by (apply forallb_rev; auto). apply rev_involutive.
Qed.
Lemma no_sp_id (t : text) : forallb (fun c => negb (is_sp c)) t = true -> no_sp t = t.
Proof. induction t as [|c t IH]; cbn; auto. intro H. apply andb_true_iff in H as [H K]. rewrite H. f_equal. apply IH, K. Qed.
Lemma no_sp_pad k (t : text) : forallb (fun c => negb (is_sp c)) t = true -> no_sp (repeat " "%char k ++ t) = t.
Proof. intro H. induction k; cbn; auto. apply no_sp_id; auto. Qed.
Lemma no_sp_app a b : no_sp (a ++ b) = no_sp a ++ no_sp b.
Proof. apply filter_app. Qed.

(** ** digits *)
Record shown (b n : Z) (ds : text) : Prop := {
  sh_ne : ds <> [];
  sh_hex : forallb hexc ds = true;
  sh_dec : b = 10 -> forallb is_digit ds = true;
  sh_len : (length ds = 1%nat \/ b ^ (Z.of_nat (length ds) - 1) <= n);
  sh_head : 0 < n -> forall c r, ds = c :: r -> Ascii.eqb c "0" = false;
  sh_digs : forall a after rest, digs b a after (ds ++ rest) = digs b (a * b ^ Z.of_nat (length ds) + n) true rest
}.
Lemma digs_step b a after d rest : 2 <= b <= 16 -> 0 <= d < b -> digs b a after (dig_char d :: rest) = digs b (a * b + d) true rest.
Proof.
  intros B D. cbn [digs]. assert (Ascii.eqb (dig_char d) "_" = false) as ->.
  { pose proof (dig_hexc d ltac:(lia)) as H. revert H. generalize (dig_char d). intros c H.
    pose proof (char_imp hexc (fun c => negb (Ascii.eqb c "_")) ltac:(vm_compute; reflexivity) c H) as K. apply negb_true_iff in K. auto. }
  rewrite digit_val_char by lia. rewrite (proj2 (Z.ltb_lt d b)) by lia. auto.
Qed.
Lemma show_fuel_ok b : 2 <= b <= 16 -> forall fuel n rest, 0 <= n < 2 ^ Z.of_nat fuel -> (0 < fuel)%nat ->
  exists ds, show_fuel fuel b n rest = ds ++ rest /\ shown b n ds.
Proof.
  intro B. induction fuel as [|f IH]; intros n rest N F; [lia|]. cbn [show_fuel]. cbv zeta.
  assert (M : 0 <= n mod b < b) by (apply Z.mod_pos_bound; lia).
  pose proof (Z.div_mod n b ltac:(lia)) as DM.
  destruct (n / b =? 0) eqn:E.
  - apply Z.eqb_eq in E. assert (n mod b = n) as X by lia. rewrite X in *. exists [dig_char n]. split; auto. constructor.
    + discriminate.
    + cbn. rewrite dig_hexc by lia. auto.
    + intros ->. cbn. rewrite dig_dec by lia. auto.
    + auto.
    + intros P c r [= <- _]. apply dig_nz. lia.
    + intros a after r. cbn [app length]. rewrite digs_step by lia. change (Z.of_nat 1) with 1. rewrite Z.pow_1_r. auto.
  - apply Z.eqb_neq in E.
    assert (Q : 0 <= n / b) by (apply Z.div_pos; lia).
    assert (L : n / b < 2 ^ Z.of_nat f).
    { rewrite Nat2Z.inj_succ, Z.pow_succ_r in N by lia. apply Z.div_lt_upper_bound; [lia|]. nia. }
    assert (F' : (0 < f)%nat) by (destruct f; [cbn in L; lia|lia]).
    destruct (IH (n / b) (dig_char (n mod b) :: rest) (conj Q L) F') as (ds & E1 & S). exists (ds ++ [dig_char (n mod b)]).
    split; [rewrite E1, <- app_assoc; auto|]. destruct S as [s1 s2 s3 s4 s5 s6]. constructor.
    + destruct ds; discriminate.
    + rewrite forallb_app, s2. cbn. rewrite dig_hexc by lia. auto.
    + intros ->. rewrite forallb_app, s3 by auto. cbn. rewrite dig_dec by lia. auto.
    + right. rewrite app_length. cbn [length]. rewrite Nat2Z.inj_add. replace (Z.of_nat (length ds) + Z.of_nat 1 - 1) with (Z.succ (Z.of_nat (length ds) - 1)) by lia.
      assert (LN : (0 < length ds)%nat) by (destruct ds; [congruence|cbn; lia]).
      rewrite Z.pow_succ_r by lia. destruct s4 as [->|s4].
      * change (Z.of_nat 1 - 1) with 0. rewrite Z.pow_0_r. nia.
      * nia.
    + intros _ c r X. destruct ds as [|x ds]; [congruence|]. injection X as <- _. apply (s5 ltac:(lia) x ds eq_refl).
    + intros a after r. rewrite <- app_assoc. cbn [app]. rewrite s6, digs_step by lia. f_equal. rewrite app_length. cbn [length].
      rewrite Nat2Z.inj_add. change (Z.of_nat 1) with 1. rewrite Z.pow_add_r by lia. rewrite Z.pow_1_r. nia.
Qed.
Lemma show_nat_ok b n : 2 <= b <= 16 -> 0 <= n -> shown b n (show_nat b n).
Proof.
  intros B N. destruct (show_fuel_ok b B (S (Z.to_nat (Z.log2 n))) n []) as (ds & E & S); [|lia|].
  - split; auto. rewrite Nat2Z.inj_succ, Z2Nat.id by apply Z.log2_nonneg. destruct (Z.eq_dec n 0) as [->|NZ]; [vm_compute; auto|].
    apply Z.log2_spec. lia.
  - unfold show_nat. rewrite E, app_nil_r. auto.
Qed.
Lemma shown_digs b n ds : shown b n ds -> digs b 0 false ds = Some n.
Proof. intros S. pose proof (sh_digs _ _ _ S 0 false []) as H. rewrite app_nil_r in H. rewrite H. cbn. f_equal; lia. Qed.

(** ** integers *)
Lemma hex_nows (t : text) : forallb hexc t = true -> forallb (fun c => negb (is_ws c)) t = true.
Proof. apply forallb_imp. chars. Qed.
Lemma hex_nosp (t : text) : forallb hexc t = true -> forallb (fun c => negb (is_sp c)) t = true.
Proof. apply forallb_imp. chars. Qed.
Lemma find_none (P : ascii -> bool) c (t : text) : forallb P t = true -> (forall d, P d = true -> Ascii.eqb d c = false) -> find_char c t = None.
Proof.
  intros H K. induction t as [|d t IH]; cbn in *; auto. apply andb_true_iff in H as [H1 H2]. rewrite (K d H1). rewrite IH; auto.
Qed.
Lemma hex_nodot (t : text) : forallb hexc t = true -> find_char "." t = None.
Proof.
  intro H. apply (find_none hexc); auto. intros d D. apply negb_true_iff. revert d D. chars.
Qed.
Lemma sign_of_hex c (r : text) : hexc c = true -> sign_of (c :: r) = (false, c :: r).
Proof.
  intro H. cbn. assert (Ascii.eqb c "-" = false) as -> by (apply negb_true_iff; revert c H; chars).
  assert (Ascii.eqb c "+" = false) as -> by (apply negb_true_iff; revert c H; chars). auto.
Qed.
Definition digit_first (t : text) : Prop := exists c r, t = c :: r /\ is_digit c = true.
(** a text that begins with a digit is the number [parse_num] reads *)
Lemma parse_item_num t (neg o : bool) n f : digit_first t -> forallb (fun c => negb (is_sp c)) t = true -> parse_num t = Some (n, f) ->
  forall k, parse_item (repeat " "%char k ++ (if neg then lit "-" else []) ++ t) o = Ok (PI (VNum (if neg then num_neg n else n)) o f).
Proof.
  intros (c & r & -> & D) S P k. unfold parse_item. rewrite strip_pad.
  2:{ destruct neg; cbn in *; auto. }
  assert (I : text_eqb (c :: r) (lit "inf") = false).
  { unfold text_eqb. destruct (list_eq_dec ascii_dec (c :: r) (lit "inf")) as [X|]; auto. cbn in X. injection X as -> _. vm_compute in D. discriminate. }
  destruct neg; [change (lit "-") with ["-"%char]|]; cbn [app].
  - change (var_start "-") with false. cbn [andb]. change (num_start "-") with true. cbn iota. change (Ascii.eqb "-" "-") with true. cbn iota.
    rewrite strip_none by auto. rewrite I, P. auto.
  - assert (var_start c = false) as -> by (apply negb_true_iff; revert c D S P I; intros c D _ _ _; revert c D; chars). cbn [andb].
    assert (num_start c = true) as -> by (revert c D S P I; intros c D _ _ _; revert c D; chars).
    assert (Ascii.eqb c "-" = false) as -> by (apply negb_true_iff; revert c D S P I; intros c D _ _ _; revert c D; chars).
    assert (Ascii.eqb c "+" = false) as -> by (apply negb_true_iff; revert c D S P I; intros c D _ _ _; revert c D; chars).
    rewrite I, P. auto.
Qed.
Lemma parse_item_num0 t (neg o : bool) n f : digit_first t -> forallb (fun c => negb (is_sp c)) t = true -> parse_num t = Some (n, f) ->
  parse_item ((if neg then lit "-" else []) ++ t) o = Ok (PI (VNum (if neg then num_neg n else n)) o f).
Proof. intros A B C. exact (parse_item_num t neg o n f A B C 0%nat). Qed.
Lemma digit_first_shown n ds : shown 10 n ds -> digit_first ds.
Proof.
  intros S. destruct ds as [|c r]; [destruct (sh_ne _ _ _ S); auto|]. exists c, r. split; auto.
  pose proof (sh_dec _ _ _ S eq_refl) as H. cbn in H. apply andb_true_iff in H. tauto.
Qed.
Lemma py_int_dec n ds : shown 10 n ds -> py_int 10 ds = Some n.
Proof.
  intro S. unfold py_int. rewrite strip_none by (apply hex_nows, (sh_hex _ _ _ S)).
  destruct ds as [|c r]; [destruct (sh_ne _ _ _ S); auto|].
  rewrite sign_of_hex by (pose proof (sh_hex _ _ _ S) as H; cbn in H; apply andb_true_iff in H; tauto).
  change (10 =? 16) with false. change (10 =? 8) with false. change (10 =? 2) with false.
  destruct r as [|x r]; [|rewrite !andb_false_r]; rewrite (shown_digs _ _ _ S); reflexivity.
Qed.
Lemma parse_num_dec n ds : shown 10 n ds -> 0 < n -> parse_num ds = Some (NI n, FStr).
Proof.
  intros S N. unfold parse_num. rewrite hex_nodot by apply (sh_hex _ _ _ S).
  destruct ds as [|c r] eqn:E; [destruct (sh_ne _ _ _ S); auto|]. rewrite (sh_head _ _ _ S N c r eq_refl).
  rewrite (py_int_dec n) by auto. auto.
Qed.
Definition base_ok (b : Z) (x : ascii) (f : fmt) : Prop :=
  (b = 16 /\ x = "x"%char /\ f = FHex) \/ (b = 8 /\ x = "o"%char /\ f = FOct) \/ (b = 2 /\ x = "b"%char /\ f = FBin).
Lemma parse_num_base b x f n : base_ok b x f -> 0 <= n -> parse_num ("0"%char :: x :: show_nat b n) = Some (NI n, f).
Proof.
  intros B N. assert (BB : 2 <= b <= 16) by (destruct B as [(-> & _)|[(-> & _)|(-> & _)]]; lia).
  pose proof (show_nat_ok b n BB N) as S. remember (show_nat b n) as ds eqn:E. clear E.
  assert (P : py_int b ("0"%char :: x :: ds) = Some n).
  { unfold py_int. rewrite strip_none.
    2:{ cbn [forallb]. rewrite (hex_nows ds (sh_hex _ _ _ S)). destruct B as [(_ & -> & _)|[(_ & -> & _)|(_ & -> & _)]]; vm_compute; auto. }
    change (sign_of ("0"%char :: x :: ds)) with (false, "0"%char :: x :: ds). cbv iota beta.
    change (Ascii.eqb "0" "0") with true.
    replace ((Ascii.eqb (to_lower x) "x" && (b =? 16)) || (Ascii.eqb (to_lower x) "o" && (b =? 8)) || (Ascii.eqb (to_lower x) "b" && (b =? 2))) with true
      by (destruct B as [(-> & -> & _)|[(-> & -> & _)|(-> & -> & _)]]; vm_compute; auto).
    cbn [andb]. destruct ds as [|u r] eqn:E; [destruct (sh_ne _ _ _ S); auto|].
    assert (Ascii.eqb u "_" = false) as ->.
    { pose proof (sh_hex _ _ _ S) as H. cbn in H. apply andb_true_iff in H as [H _]. apply negb_true_iff. revert H. clear. revert u. chars. }
    rewrite (shown_digs _ _ _ S). auto. }
  unfold parse_num. assert (find_char "." ("0"%char :: x :: ds) = None) as ->.
  { cbn [find_char]. change (Ascii.eqb "0" ".") with false. rewrite (hex_nodot ds (sh_hex _ _ _ S)).
    destruct B as [(_ & -> & _)|[(_ & -> & _)|(_ & -> & _)]]; reflexivity. }
  change (Ascii.eqb "0" "0") with true. cbn iota.
  destruct B as [(-> & -> & ->)|[(-> & -> & ->)|(-> & -> & ->)]]; cbv [to_lower is_upper]; 
   (let X := fresh in match goal with |- (if ?c then _ else _) = _ => let v := eval vm_compute in c in change c with v end; cbn iota;
    repeat match goal with |- (if ?c then _ else _) = _ => let v := eval vm_compute in c in change c with v; cbn iota end; rewrite P; reflexivity).
Qed.

(** ** decimals *)
Lemma length_shown b n ds k : 2 <= b -> shown b n ds -> n < b ^ Z.of_nat k -> (0 < k)%nat -> (length ds <= k)%nat.
Proof.
  intros B S N K. destruct (sh_len _ _ _ S) as [->|L]; [lia|].
  destruct (Nat.le_gt_cases (length ds) k) as [|G]; auto. exfalso.
  assert (b ^ Z.of_nat k <= b ^ (Z.of_nat (length ds) - 1)) by (apply Z.pow_le_mono_r; lia). lia.
Qed.
Lemma digs_zeros' k (t : text) : forall after, exists after', digs 10 0 after (repeat "0"%char k ++ t) = digs 10 0 after' t /\ (k = 0%nat -> after' = after).
Proof.
  induction k as [|k IH]; intro af; [exists af; auto|]. cbn [repeat app]. 
  change (digs 10 0 af ("0"%char :: repeat "0"%char k ++ t)) with (digs 10 0 true (repeat "0"%char k ++ t)).
  destruct (IH true) as (a' & E & _). exists a'. split; auto. lia.
Qed.
Lemma shown_digs_any n ds after : shown 10 n ds -> digs 10 0 after ds = Some n.
Proof. intros S. pose proof (sh_digs _ _ _ S 0 after []) as H. rewrite app_nil_r in H. rewrite H. cbn. f_equal; lia. Qed.
Lemma dig_part_pad n ds k : shown 10 n ds -> (length ds <= k)%nat -> dig_part (lpad "0" k ds) = Some (n, Z.of_nat k).
Proof.
  intros S L. unfold lpad. set (z := (k - length ds)%nat). assert (k = (z + length ds)%nat) as Ek by lia.
  assert (LL : length (repeat "0"%char z ++ ds) = k) by (rewrite app_length, repeat_length; lia).
  assert (AD : forallb is_digit (repeat "0"%char z ++ ds) = true).
  { rewrite forallb_app, (sh_dec _ _ _ S eq_refl), andb_true_r. clear. induction z; cbn; auto. }
  assert (FD : filter is_digit (repeat "0"%char z ++ ds) = repeat "0"%char z ++ ds).
  { revert AD. generalize (repeat "0"%char z ++ ds). clear. induction l; cbn; auto. intro H. apply andb_true_iff in H as [H K]. rewrite H. f_equal; auto. }
  unfold dig_part. destruct (repeat "0"%char z ++ ds) as [|c r] eqn:E.
  - cbn in LL. apply app_eq_nil in E as [_ E]. destruct (sh_ne _ _ _ S E).
  - rewrite FD, LL. rewrite <- E. destruct (digs_zeros' z ds false) as (a' & X & _). rewrite X, (shown_digs_any _ _ a' S). auto.
Qed.
Lemma dig_part_shown n ds : shown 10 n ds -> dig_part ds = Some (n, Z.of_nat (length ds)).
Proof.
  intro S. pose proof (dig_part_pad n ds (length ds) S (le_n _)) as H. unfold lpad in H. rewrite Nat.sub_diag in H. exact H.
Qed.
Lemma cut_none p (t : text) : forallb (fun c => negb (p c)) t = true -> cut p t = (t, None).
Proof.
  induction t as [|c t IH]; cbn; auto. intro H. apply andb_true_iff in H as [H K]. apply negb_true_iff in H. rewrite H, IH; auto.
Qed.
Lemma cut_at p (a : text) c (b : text) : forallb (fun c => negb (p c)) a = true -> p c = true -> cut p (a ++ c :: b) = (a, Some b).
Proof.
  intros H C. induction a as [|d a IH]; cbn in *; [rewrite C; auto|]. apply andb_true_iff in H as [H K]. apply negb_true_iff in H. rewrite H, IH; auto.
Qed.
Lemma find_at c (a b : text) : forallb (fun d => negb (Ascii.eqb d c)) a = true -> find_char c (a ++ c :: b) = Some (length a).
Proof.
  intro H. induction a as [|d a IH]; cbn in *; [rewrite Ascii.eqb_refl; auto|].
  apply andb_true_iff in H as [H K]. apply negb_true_iff in H. rewrite H, IH; auto.
Qed.
Lemma lpad_digits n ds k : shown 10 n ds -> forallb is_digit (lpad "0" k ds) = true.
Proof. intro S. unfold lpad. rewrite forallb_app, (sh_dec _ _ _ S eq_refl), andb_true_r. generalize (k - length ds)%nat. induction n0; cbn; auto. Qed.
(** digits "." digits *)
Lemma parse_decimal i ip f fp : shown 10 i ip -> shown 10 f fp -> forall k, (length fp <= k)%nat -> (0 < k)%nat ->
  exists fm, parse_num (ip ++ "."%char :: lpad "0" k fp) = Some (NF (dec_q (i * 10 ^ Z.of_nat k + f) (0 - Z.of_nat k)), fm).
Proof.
  intros I F k L K. set (t := ip ++ "."%char :: lpad "0" k fp).
  assert (DI : forallb is_digit ip = true) by apply (sh_dec _ _ _ I eq_refl).
  assert (DF : forallb is_digit (lpad "0" k fp) = true) by (eapply lpad_digits; eauto).
  unfold parse_num. assert (find_char "." t = Some (length ip)) as ->.
  { apply find_at. revert DI. apply forallb_imp. chars. }
  assert (py_float t = Some (dec_q (i * 10 ^ Z.of_nat k + f) (0 - Z.of_nat k))) as ->; [|eexists; reflexivity].
  unfold py_float. rewrite strip_none.
  2:{ unfold t. rewrite forallb_app. cbn [forallb]. change (is_ws ".") with false.
      rewrite (forallb_imp is_digit (fun c => negb (is_ws c)) ip ltac:(chars) DI), (forallb_imp is_digit (fun c => negb (is_ws c)) _ ltac:(chars) DF). auto. }
  assert (sign_of t = (false, t)) as ->.
  { unfold t. destruct (digit_first_shown _ _ I) as (c & r & -> & D). cbn [app]. apply sign_of_hex. revert D. clear. revert c. chars. }
  rewrite (cut_none is_e t).
  2:{ unfold t. rewrite forallb_app. cbn [forallb]. change (is_e ".") with false.
      rewrite (forallb_imp is_digit (fun c => negb (is_e c)) ip ltac:(chars) DI), (forallb_imp is_digit (fun c => negb (is_e c)) _ ltac:(chars) DF). auto. }
  unfold t. rewrite (cut_at (fun c => Ascii.eqb c ".") ip "." (lpad "0" k fp)); [|revert DI; apply forallb_imp; chars|reflexivity].
  rewrite (dig_part_shown _ _ I), (dig_part_pad _ _ k F L).
  destruct (Z.of_nat (length ip) + Z.of_nat k =? 0) eqn:E; [apply Z.eqb_eq in E; lia|]. unfold zneg. reflexivity.
Qed.
(** the decimal n-digit fraction m / 10^n *)
Lemma dec_q_div m n : (dec_q m (0 - Z.of_nat n) == inject_Z m / inject_Z (10 ^ Z.of_nat n))%Q.
Proof.
  unfold dec_q. assert (P : 0 < 10 ^ Z.of_nat n) by (apply Z.pow_pos_nonneg; lia).
  destruct (0 <=? 0 - Z.of_nat n) eqn:E.
  - assert (Z.of_nat n = 0) as -> by lia. cbn [Z.sub Z.add Z.opp Z.pow]. unfold Qeq, inject_Z, Qdiv, Qmult, Qinv. cbn. lia.
  - replace (- (0 - Z.of_nat n)) with (Z.of_nat n) by lia. unfold Qeq, inject_Z, Qdiv, Qmult, Qinv. cbn [Qnum Qden].
    destruct (10 ^ Z.of_nat n) eqn:X; try lia. cbn. lia.
Qed.
(** q is an integer multiple of 10^-n *)
Definition has_decimals (n : nat) (q : Q) : Prop := exists m : Z, (q * inject_Z (10 ^ Z.of_nat n) == inject_Z m)%Q.
Lemma round_exact m d : 0 < d -> round_he (m * d) d = m.
Proof. intro D. unfold round_he. rewrite Z.div_mul, Z.mod_mul by lia. cbn. rewrite (proj2 (Z.ltb_lt 0 d)) by lia. auto. Qed.
Lemma fix_round n q : has_decimals n q -> exists m, 0 <= m /\ round_he (Z.abs (Qnum q) * 10 ^ Z.of_nat n) (Zpos (Qden q)) = m /\
  (q == (if q_neg q then - (inject_Z m / inject_Z (10 ^ Z.of_nat n)) else inject_Z m / inject_Z (10 ^ Z.of_nat n)))%Q.
Proof.
  intros [m H]. set (p := 10 ^ Z.of_nat n) in *. assert (P : 0 < p) by (apply Z.pow_pos_nonneg; lia).
  destruct q as [a d]. unfold Qeq, Qmult, inject_Z in H. cbn in H. rewrite Z.mul_1_r, Pos.mul_1_r in H.
  exists (Z.abs m). split; [lia|]. cbn [Qnum Qden q_neg]. assert (Z.abs a * p = Z.abs m * Zpos d) as ->.
  { rewrite <- (Z.abs_eq p) at 1 by lia. rewrite <- Z.abs_mul, H, Z.abs_mul. lia. }
  split; [apply round_exact; lia|]. unfold q_neg. cbn [Qnum].
  destruct (a <? 0) eqn:E; unfold Qeq, Qdiv, Qmult, Qinv, Qopp, inject_Z; destruct p eqn:X; try lia; cbn; nia.
Qed.

(** ** items *)
(** names of variables *)
Definition var_name (s : string) : Prop :=
  match lit s with c :: _ => var_start c = true | [] => False end /\ forallb var_char (lit s) = true /\ s <> "inf"%string.
(** what a float prints: some literal that is a number equal to it *)
Definition float_text (q : Q) (t : text) : Prop :=
  digit_first (snd (sign_of t)) /\ forallb (fun c => is_digit c || Ascii.eqb c "." || is_e c || Ascii.eqb c "+" || Ascii.eqb c "-") t = true /\
  infixb (lit "..") t = false /\
  exists r f, parse_item t false = Ok (PI (VNum r) false f) /\ neq r (NF q).
(** items that are read back *)
Inductive printable (fstr : Q -> text) : pitem -> Prop :=
| p_var s o : var_name s -> printable fstr (PI (VVar s) o FStr)
| p_pinf o : printable fstr (PI (VNum PInf) o FStr)
| p_ninf o : printable fstr (PI (VNum NInf) o FStr)
| p_int z o : z <> 0 -> printable fstr (PI (VNum (NI z)) o FStr)
| p_base z o f : f = FHex \/ f = FOct \/ f = FBin -> printable fstr (PI (VNum (NI z)) o f)
| p_fix q o w n : has_decimals n q -> (n = 0%nat -> ~ (q == 0)%Q) -> printable fstr (PI (VNum (NF q)) o (FFix w n))
| p_float q o : float_text q (fstr q) -> printable fstr (PI (VNum (NF q)) o FStr).
(** equal values of bounds *)
Definition same_val (v w : sval) : Prop :=
  match v, w with VNum a, VNum b => neq a b | VVar s, VVar t => s = t | _, _ => False end.
Definition same_item (i j : pitem) : Prop := same_val (pi_val i) (pi_val j) /\ pi_open i = pi_open j.
(** texts of bounds *)
Definition okc (c : ascii) : bool := var_char c || Ascii.eqb c "." || Ascii.eqb c "+" || Ascii.eqb c "-".
Record clean (t : text) : Prop := {
  cl_ne : t <> [];
  cl_ok : forallb okc t = true;
  cl_dd : infixb (lit "..") t = false;
  cl_first : forall c r, t = c :: r -> Ascii.eqb c "." = false
}.
Lemma nodot_dd (t : text) : find_char "." t = None -> infixb (lit "..") t = false.
Proof.
  induction t as [|c t IH]; intro H; [vm_compute; auto|]. cbn in H. destruct (Ascii.eqb c ".") eqn:E; [discriminate|].
  destruct (find_char "." t); [discriminate|]. change (infixb (lit "..") (c :: t)) with (prefixb (lit "..") (c :: t) || infixb (lit "..") t).
  rewrite IH by auto. change (prefixb (lit "..") (c :: t)) with (Ascii.eqb "." c && prefixb (lit ".") t).
  rewrite Ascii.eqb_sym, E. auto.
Qed.
Lemma onedot_dd (a b : text) : find_char "." a = None -> find_char "." b = None -> infixb (lit "..") (a ++ "."%char :: b) = false.
Proof.
  intros A B. induction a as [|c a IH].
  - change (infixb (lit "..") ([] ++ "."%char :: b)) with (prefixb (lit ".") b || infixb (lit "..") b). rewrite nodot_dd by auto.
    destruct b as [|c b]; auto. cbn in B. destruct (Ascii.eqb c ".") eqn:E; [discriminate|]. change (prefixb (lit ".") (c :: b)) with (Ascii.eqb "." c && true).
    rewrite Ascii.eqb_sym, E. auto.
  - cbn in A. destruct (Ascii.eqb c ".") eqn:E; [discriminate|]. destruct (find_char "." a) eqn:F; [discriminate|].
    change (infixb (lit "..") ((c :: a) ++ "."%char :: b)) with ((Ascii.eqb "." c && prefixb (lit ".") (a ++ "."%char :: b)) || infixb (lit "..") (a ++ "."%char :: b)).
    rewrite IH by auto. rewrite Ascii.eqb_sym, E. auto.
Qed.
Lemma clean_sign (neg : bool) t : clean t -> clean ((if neg then lit "-" else []) ++ t).
Proof.
  intros [a b c d]. destruct neg; [|constructor; auto]. constructor.
  - discriminate.
  - cbn [lit list_ascii_of_string app forallb]. rewrite b. reflexivity.
  - change (infixb (lit "..") (lit "-" ++ t)) with (infixb (lit "..") t). auto.
  - intros x r [= <- _]. reflexivity.
Qed.
Lemma okc_nosp (t : text) : forallb okc t = true -> forallb (fun c => negb (is_sp c)) t = true.
Proof. apply forallb_imp. chars. Qed.
Lemma hex_okc (t : text) : forallb hexc t = true -> forallb okc t = true.
Proof. apply forallb_imp. chars. Qed.
Lemma clean_hex (t : text) : t <> [] -> forallb hexc t = true -> clean t.
Proof.
  intros N H. constructor; auto using hex_okc. { apply nodot_dd, hex_nodot. auto. }
  intros c r ->. cbn in H. apply andb_true_iff in H as [H _]. apply negb_true_iff. revert H. clear. revert c. chars.
Qed.
Lemma parse_item_flag t v f o : parse_item t false = Ok (PI v false f) -> parse_item t o = Ok (PI v o f).
Proof.
  unfold parse_item. destruct (strip is_sp t) as [|c r]; [discriminate|].
  destruct (var_start c && negb (text_eqb (c :: r) (lit "inf"))).
  - destruct (forallb var_char (c :: r)); [|discriminate]. intro H. injection H as <- <-. auto.
  - destruct (num_start c); [|discriminate].
    destruct (if Ascii.eqb c "-" then _ else _) as [neg w]. destruct (text_eqb w (lit "inf")); [intro H; injection H as <- <-; auto|].
    destruct (parse_num w) as [[n g]|]; [|discriminate]. intro H. injection H as <- <-. auto.
Qed.
Lemma parse_item_pad t k o : forallb okc t = true -> parse_item (repeat " "%char k ++ t) o = parse_item t o.
Proof. intro H. unfold parse_item. rewrite strip_pad, strip_none by (apply okc_nosp; auto). auto. Qed.
Lemma neq_refl a : a <> NaN -> neq a a.
Proof. intro. split; apply nle_refl; auto. Qed.
Lemma neq_NF p q : (p == q)%Q -> neq (NF p) (NF q).
Proof. intro E. split; cbn; rewrite E; apply Qle_refl. Qed.

(** the printed text of an item: spaces, then a text that is read as an equal item *)
Definition reads (t : text) (i : pitem) : Prop :=
  clean t /\ exists j, parse_item t (pi_open i) = Ok j /\ same_item j i.
Lemma item_back fstr i : printable fstr i -> exists k t, item_repr fstr i = Ok (repeat " "%char k ++ t) /\ reads t i.
Proof.
  intros [s o V|o|o|z o Z|z o f F|q o w n H Z|q o (DF & OK & DD & r & f & P & E)]; cbn [item_repr pi_val pi_fmt].
  - exists 0%nat, (lit s). split; auto. destruct V as (A & B & C). destruct (lit s) as [|c r] eqn:E; [contradiction|]. split.
    + constructor; try discriminate.
      * revert B. apply forallb_imp. chars.
      * apply nodot_dd, (find_none var_char); auto. intros d D. apply negb_true_iff. revert d D. chars.
      * intros x y X. injection X as <- _. apply negb_true_iff. revert A. clear. revert c. chars.
    + unfold parse_item. rewrite strip_none. 2:{ revert B. apply forallb_imp. chars. }
      assert (text_eqb (c :: r) (lit "inf") = false) as ->.
      { unfold text_eqb. destruct (list_eq_dec ascii_dec (c :: r) (lit "inf")) as [X|]; auto. exfalso. apply C. rewrite <- E in X.
        apply (f_equal unlit) in X. unfold lit, unlit in X. rewrite !string_of_list_ascii_of_string in X. auto. }
      rewrite A, B. cbn [andb negb]. eexists. split; [reflexivity|]. split; [|reflexivity]. cbn [same_val pi_val]. rewrite <- E. unfold lit, unlit. apply string_of_list_ascii_of_string.
  - exists 0%nat, (lit "inf"). split; auto. split; [constructor; try discriminate; try reflexivity; intros c r X; injection X as <- _; reflexivity|].
    eexists. split; [reflexivity|]. split; cbn; auto. apply neq_refl. discriminate.
  - exists 0%nat, (lit "-inf"). split; auto. split; [constructor; try discriminate; try reflexivity; intros c r X; injection X as <- _; reflexivity|].
    eexists. split; [reflexivity|]. split; cbn; auto. apply neq_refl. discriminate.
  - exists 0%nat, (show_int 10 [] z). split; auto. unfold show_int. cbn [app repeat].
    pose proof (show_nat_ok 10 (Z.abs z) ltac:(lia) ltac:(lia)) as S. split.
    + apply clean_sign, clean_hex; [apply (sh_ne _ _ _ S)|apply (sh_hex _ _ _ S)].
    + eexists. split; [apply (parse_item_num0 _ (z <? 0) o (NI (Z.abs z)) FStr); [eapply digit_first_shown; eauto|apply hex_nosp, (sh_hex _ _ _ S)|apply parse_num_dec; auto; lia]|].
      split; cbn; auto. destruct (z <? 0) eqn:E; apply neq_NI; lia.
  - destruct f; try (exfalso; destruct F as [F|[F|F]]; discriminate); exists 0%nat; [exists (show_int 16 (lit "0x") z)|exists (show_int 8 (lit "0o") z)|exists (show_int 2 (lit "0b") z)]; (split; [reflexivity|]); unfold show_int.
    1: pose proof (show_nat_ok 16 (Z.abs z) ltac:(lia) ltac:(lia)) as S.
    2: pose proof (show_nat_ok 8 (Z.abs z) ltac:(lia) ltac:(lia)) as S.
    3: pose proof (show_nat_ok 2 (Z.abs z) ltac:(lia) ltac:(lia)) as S.
    1: pose proof (parse_num_base 16 "x" FHex (Z.abs z) ltac:(left; auto) ltac:(lia)) as P.
    2: pose proof (parse_num_base 8 "o" FOct (Z.abs z) ltac:(right; left; auto) ltac:(lia)) as P.
    3: pose proof (parse_num_base 2 "b" FBin (Z.abs z) ltac:(right; right; auto) ltac:(lia)) as P.
    all: split; [apply clean_sign; constructor|].
    all: try discriminate.
    all: try (intros c r X; injection X as <- _; reflexivity).
    all: try (cbn [lit list_ascii_of_string app forallb]; rewrite (hex_okc _ (sh_hex _ _ _ S)); reflexivity).
    all: try (apply nodot_dd; cbn [lit list_ascii_of_string app find_char]; rewrite (hex_nodot _ (sh_hex _ _ _ S)); reflexivity).
    all: eexists; split; [eapply (parse_item_num0 _ (z <? 0) o _ _ _ _ P)|split; cbn; auto; destruct (z <? 0) eqn:E; apply neq_NI; lia].
    Unshelve.
    all: try (eexists _, _; split; [reflexivity|reflexivity]).
    all: cbn [forallb]; rewrite (hex_nosp _ (sh_hex _ _ _ S)); reflexivity.
  - destruct (fix_round n q H) as (m & M & R & E). unfold fix_text. rewrite R. cbv zeta.
    set (p := 10 ^ Z.of_nat n) in *. assert (PP : 0 < p) by (apply Z.pow_pos_nonneg; lia).
    unfold lpad at 1. set (core := (if q_neg q then lit "-" else []) ++ _). eexists _, core. split; [reflexivity|].
    assert (MD : 0 <= m / p) by (apply Z.div_pos; lia). pose proof (show_nat_ok 10 (m / p) ltac:(lia) MD) as S.
    pose proof (Z.mod_pos_bound m p PP) as MM. pose proof (Z.div_mod m p ltac:(lia)) as DM.
    destruct n as [|n].
    + assert (p = 1) as P1 by (unfold p; reflexivity). rewrite P1 in *. subst core. cbv iota. rewrite app_nil_r. split.
      * apply clean_sign, clean_hex; [apply (sh_ne _ _ _ S)|apply (sh_hex _ _ _ S)].
      * assert (0 < m / 1).
        { rewrite Z.div_1_r in *. destruct (Z.eq_dec m 0) as [->|]; [|lia]. exfalso. apply (Z eq_refl). rewrite E. destruct (q_neg q); reflexivity. }
        eexists. split; [apply (parse_item_num0 _ (q_neg q) o (NI (m / 1)) FStr); [eapply digit_first_shown; eauto|apply hex_nosp, (sh_hex _ _ _ S)|apply parse_num_dec; auto]|].
        split; cbn [pi_val pi_open]; auto. rewrite Z.div_1_r. cbn [same_val].
        assert (X : neq (NF (if q_neg q then - (inject_Z m / inject_Z 1) else inject_Z m / inject_Z 1)%Q) (NF q)) by (apply neq_NF; symmetry; exact E).
        revert X. destruct (q_neg q); cbn [num_neg]; intro X; refine (neq_trans _ _ _ _ X); split; cbn; unfold Qle, Qdiv, Qmult, Qinv, Qopp, inject_Z; cbn; lia.
    + pose proof (show_nat_ok 10 (m mod p) ltac:(lia) ltac:(lia)) as T.
      assert (LT : (length (show_nat 10 (m mod p)) <= Datatypes.S n)%nat) by (eapply length_shown; eauto; lia).
      destruct (parse_decimal _ _ _ _ S T (Datatypes.S n) LT ltac:(lia)) as (fm & PN). split.
      * subst core. apply clean_sign. change (lit "." ++ lpad "0" (Datatypes.S n) (show_nat 10 (m mod p))) with ("."%char :: lpad "0" (Datatypes.S n) (show_nat 10 (m mod p))).
        pose proof (lpad_digits _ _ (Datatypes.S n) T) as LD.
        constructor.
        -- destruct (show_nat 10 (m / p)); discriminate.
        -- rewrite forallb_app, (hex_okc _ (sh_hex _ _ _ S)). cbn [forallb]. rewrite (forallb_imp is_digit okc _ ltac:(chars) LD). reflexivity.
        -- apply onedot_dd; [apply hex_nodot, (sh_hex _ _ _ S)|]. apply hex_nodot. revert LD. apply forallb_imp. chars.
        -- destruct (digit_first_shown _ _ S) as (c & r & X & D). rewrite X. intros c' r' Y. injection Y as <- _. apply negb_true_iff. revert D. clear. revert c. chars.
      * assert (DF : digit_first (show_nat 10 (m / p) ++ "."%char :: lpad "0" (Datatypes.S n) (show_nat 10 (m mod p)))).
        { destruct (digit_first_shown _ _ S) as (c & r & X & D). rewrite X. exists c. eexists. split; [reflexivity|auto]. }
        assert (NS : forallb (fun c => negb (is_sp c)) (show_nat 10 (m / p) ++ "."%char :: lpad "0" (Datatypes.S n) (show_nat 10 (m mod p))) = true).
        { apply okc_nosp. rewrite forallb_app, (hex_okc _ (sh_hex _ _ _ S)). cbn [forallb]. rewrite (forallb_imp is_digit okc _ ltac:(chars) (lpad_digits _ _ _ T)). reflexivity. }
        eexists. split; [exact (parse_item_num0 _ (q_neg q) o _ fm DF NS PN)|].
        split; cbn [pi_val pi_open]; auto. cbn [same_val].
        assert (X : (dec_q (m / p * 10 ^ Z.of_nat (Datatypes.S n) + m mod p) (0 - Z.of_nat (Datatypes.S n)) == inject_Z m / inject_Z p)%Q).
        { rewrite dec_q_div. fold p. replace (m / p * p + m mod p) with m by lia. reflexivity. }
        destruct (q_neg q); cbn [num_neg]; apply neq_NF; rewrite E; rewrite X; reflexivity.
  - exists 0%nat, (fstr q). split; auto. split.
    + constructor; auto.
      * intro X. rewrite X in DF. destruct DF as (c & y & Y & _). discriminate.
      * revert OK. apply forallb_imp. chars.
      * intros c y X. rewrite X in DF. destruct DF as (c' & y' & Y & D). cbn in Y. destruct (Ascii.eqb c ".") eqn:K; auto.
        apply Ascii.eqb_eq in K. subst c. cbn in Y. injection Y as <- <-. vm_compute in D. discriminate.
    + exists (PI (VNum r) o f). split; [apply (parse_item_flag _ _ _ _ P)|]. split; auto.
Qed.

(** ** intervals *)
Lemma longest_app {A} (k : text -> option A) a (p r : text) : longest k r = None -> k r = Some a -> p <> [] ->
  forallb (fun c => negb (Ascii.eqb c newline)) p = true -> longest k (p ++ r) = Some (p, a).
Proof.
  intros L K N H. induction p as [|c p IH]; [congruence|]. cbn in *. apply andb_true_iff in H as [H1 H2]. apply negb_true_iff in H1. rewrite H1.
  destruct p as [|d p].
  - cbn. rewrite L, K. auto.
  - rewrite IH by (auto; discriminate). auto.
Qed.
Definition is_none {A} (o : option A) : bool := match o with None => true | _ => false end.
Fixpoint nosep (s : text) : bool := match s with [] => true | _ :: r => is_none (sep_re s) && nosep r end.
Definition K (r : text) : option (bool * (text * (bool * bool * text))) :=
  match sep_re r with Some (b, r') => option_map (fun u => (b, u)) (longest close_re r') | None => None end.
Lemma longest_nosep (c : ascii) s : nosep s = true -> longest K (c :: s) = None.
Proof.
  revert c. induction s as [|d s IH]; intros c H; cbn [longest]; destruct (Ascii.eqb c newline); auto.
  cbn [nosep] in H. apply andb_true_iff in H as [H1 H2]. cbn [longest] in IH. rewrite (IH d H2). unfold K.
  destruct (sep_re (d :: s)); [discriminate|]. auto.
Qed.
Lemma nosep_clean t (x : text) : forallb okc t = true -> infixb (lit "..") t = false -> nosep x = true -> (forall c r, x = c :: r -> Ascii.eqb c "." = false) ->
  nosep (t ++ x) = true.
Proof.
  intros O D C1 C2. induction t as [|d t IH]; auto.
  cbn [forallb] in O. apply andb_true_iff in O as [O1 O2].
  change (infixb (lit "..") (d :: t)) with ((Ascii.eqb "." d && prefixb (lit ".") t) || infixb (lit "..") t) in D. apply orb_false_iff in D as [D1 D2].
  cbn [app nosep]. rewrite IH by auto. rewrite andb_true_r. cbn [sep_re].
  assert (Ascii.eqb d "," = false) as -> by (apply negb_true_iff; revert O1; clear; revert d; chars).
  rewrite Ascii.eqb_sym in D1. destruct (Ascii.eqb d "."); auto.
  destruct t as [|e t]; cbn [app].
  - destruct x as [|e x]; auto. rewrite (C2 e x eq_refl). auto.
  - change (prefixb (lit ".") (e :: t)) with (Ascii.eqb "." e && true) in D1. rewrite Ascii.eqb_sym in D1. cbn [andb] in D1.
    rewrite andb_true_r in D1. rewrite D1. auto.
Qed.
Definition sep_text (dots : bool) : text := if dots then lit ".." else lit ",".
Definition close_text (o : bool) : text := if o then lit ")" else lit "]".
Definition open_text (o : bool) : text := if o then lit "(" else lit "[".
Lemma okc_nonl (t : text) : forallb okc t = true -> forallb (fun c => negb (Ascii.eqb c newline)) t = true.
Proof. apply forallb_imp. chars. Qed.
Definition quote_text (q : bool) : text := if q then lit "'" else [].
Lemma math_re_ok l u dots o q : clean l -> clean u ->
  math_re (l ++ sep_text dots ++ u ++ close_text o ++ quote_text q) = Some (l, (dots, (u, (o, q, [])))).
Proof.
  intros L U. unfold math_re. fold K. set (x := close_text o ++ quote_text q).
  assert (C : longest close_re x = None /\ close_re x = Some (o, q, []) /\ nosep x = true /\ (forall c r, x = c :: r -> Ascii.eqb c "." = false)).
  { unfold x. destruct o, q; (split; [reflexivity|]); (split; [reflexivity|]); (split; [reflexivity|]); intros c r X; injection X as <- _; reflexivity. }
  destruct C as (C1 & C2 & C3 & C4).
  assert (LU : longest close_re (u ++ x) = Some (u, (o, q, []))).
  { apply longest_app; auto; [apply (cl_ne _ U)|apply okc_nonl, (cl_ok _ U)]. }
  pose proof (nosep_clean u x (cl_ok _ U) (cl_dd _ U) C3 C4) as NS.
  apply longest_app; [|unfold K|apply (cl_ne _ L)|apply okc_nonl, (cl_ok _ L)].
  - destruct dots; cbn [sep_text lit list_ascii_of_string app].
    + apply longest_nosep. cbn [nosep]. rewrite NS, andb_true_r. destruct u as [|d u]; [destruct (cl_ne _ U); auto|].
      cbn [app sep_re]. change (Ascii.eqb "." ",") with false. change (Ascii.eqb "." ".") with true. cbn iota.
      rewrite (cl_first _ U d u eq_refl). auto.
    + apply longest_nosep. auto.
  - destruct dots; cbn [sep_text lit list_ascii_of_string app sep_re].
    + change (Ascii.eqb "." ",") with false. change (Ascii.eqb "." ".") with true. cbn iota. rewrite LU. auto.
    + change (Ascii.eqb "," ",") with true. cbn iota. rewrite LU. auto.
Qed.
Lemma prefixb_app a b : prefixb a (a ++ b) = true.
Proof. induction a; cbn; auto. rewrite Ascii.eqb_refl. auto. Qed.
Lemma infixb_app a b c : infixb a (b ++ a ++ c) = true.
Proof.
  induction b as [|x b IH]; cbn [app].
  - destruct (a ++ c) eqn:E; [apply app_eq_nil in E as [-> ->]; auto|]. cbn [infixb]. rewrite <- E, prefixb_app. auto.
  - cbn [infixb]. rewrite IH, orb_true_r. auto.
Qed.
(** bracket notation: the texts of two bounds, the separator, the brackets, spaces before the bounds *)
Definition bracket (compl : bool) (lo_open : bool) (l : text) (dots : bool) (u : text) (hi_open : bool) (quote : bool) : text :=
  (if compl then lit "!" else []) ++ open_text lo_open ++ l ++ sep_text dots ++ u ++ close_text hi_open ++ quote_text quote.
Lemma strip_ends (t : text) c d m : t = c :: m ++ [d] -> is_sp c = false -> is_sp d = false -> strip is_sp t = t.
Proof.
  intros -> C D. unfold strip. cbn [lstrip]. rewrite C. cbn [rev]. rewrite rev_app_distr. cbn [rev app lstrip]. rewrite D.
  cbn [rev]. rewrite rev_app_distr, rev_involutive. reflexivity.
Qed.
Lemma bracket_ok compl oa ka a dots kb b ob q (lo hi : pitem) :
  clean a -> clean b -> parse_item a oa = Ok lo -> parse_item b ob = Ok hi ->
  interval_str (bracket compl oa (repeat " "%char ka ++ a) dots (repeat " "%char kb ++ b) ob q) = Ok (mk_piv lo hi dots (xorb compl q)).
Proof.
  intros A B PA PB. set (body := open_text oa ++ (repeat " "%char ka ++ a) ++ sep_text dots ++ (repeat " "%char kb ++ b) ++ close_text ob ++ quote_text q).
  assert (SB : split_bang (bracket compl oa (repeat " "%char ka ++ a) dots (repeat " "%char kb ++ b) ob q) = Ok (compl, body)).
  { assert (E : exists c m d, body = c :: m ++ [d] /\ is_sp c = false /\ is_sp d = false /\ Ascii.eqb c "!" = false).
    { unfold body. exists (if oa then "(" else "[")%char, ((repeat " "%char ka ++ a) ++ sep_text dots ++ (repeat " "%char kb ++ b) ++ (if q then close_text ob else [])), (if q then "'" else if ob then ")" else "]")%char.
      split; [destruct oa, ob, q; cbn [open_text close_text quote_text lit list_ascii_of_string app]; rewrite <- !app_assoc; reflexivity|]. destruct oa, ob, q; vm_compute; auto. }
    destruct E as (c & m & d & E & E1 & E2 & E3). unfold split_bang, bracket. fold body. destruct compl.
    - rewrite (strip_ends _ "!" d (c :: m)); [|rewrite E; reflexivity|reflexivity|auto]. cbn [lit list_ascii_of_string app].
      change (Ascii.eqb "!" "!") with true. cbn iota. rewrite (strip_ends body c d m) by auto. auto.
    - cbn [app]. rewrite (strip_ends body c d m) by auto. rewrite E, E3. auto. }
  unfold interval_str. rewrite SB. 
  assert (PM : parse_math body compl = Ok (lo, hi, dots, xorb compl q)).
  { unfold parse_math. assert (NS : no_sp body = open_text oa ++ a ++ sep_text dots ++ b ++ close_text ob ++ quote_text q).
    { unfold body. rewrite !no_sp_app, !no_sp_id with (t := a), !no_sp_id with (t := b) by (apply okc_nosp; first [apply (cl_ok _ A)|apply (cl_ok _ B)]).
      assert (forall k, no_sp (repeat " "%char k) = []) as R by (induction k; cbn; auto). rewrite !R. destruct oa, ob, dots, q; reflexivity. }
    rewrite NS. assert (VA : var_spaces lo a body = false).
    { unfold var_spaces. replace (infixb a body) with true; [rewrite andb_false_r; auto|]. unfold body. symmetry.
      rewrite <- (app_assoc (repeat " "%char ka) a). rewrite (app_assoc (open_text oa)). apply infixb_app. }
    assert (VB : var_spaces hi b body = false).
    { unfold var_spaces. replace (infixb b body) with true; [rewrite andb_false_r; auto|]. unfold body. symmetry.
      rewrite <- (app_assoc (repeat " "%char kb) b). rewrite (app_assoc (sep_text dots)), (app_assoc (repeat " "%char ka ++ a)), (app_assoc (open_text oa)). apply infixb_app. }
    destruct oa; cbn [open_text lit list_ascii_of_string app];
      (match goal with |- context [if ?c then math_re _ else None] => change c with true end); cbn iota; rewrite (math_re_ok a b dots ob q A B);
      (match goal with |- context [parse_item a ?c] => let v := eval vm_compute in c in change c with v end); rewrite PA, PB, VA, VB; reflexivity. }
  assert (E : exists m, body = (if oa then "(" else "[")%char :: m) by (unfold body; destruct oa; eexists; reflexivity).
  destruct E as [m E]. rewrite E in *. rewrite PM. destruct oa; reflexivity.
Qed.

(** ** equal bounds make equal sets *)
Lemma num_le_neq a a' b b' : neq a a' -> neq b b' -> num_le a b = num_le a' b'.
Proof.
  intros A B. destruct (num_le a b) eqn:E, (num_le a' b') eqn:F; auto; exfalso.
  - apply num_le_iff in E. assert (nle a' b') as X by (apply (neq_le_l a a' b' A), (neq_le_r b b' a B); auto). apply num_le_iff in X. congruence.
  - apply num_le_iff in F. assert (nle a b) as X by (apply (neq_le_l a a' b A), (neq_le_r b b' a' B); auto). apply num_le_iff in X. congruence.
Qed.
Lemma num_lt_neq a a' b b' : neq a a' -> neq b b' -> num_lt a b = num_lt a' b'.
Proof. intros. unfold num_lt. rewrite (num_le_neq a a' b b'), (num_le_neq b b' a a') by auto. auto. Qed.
Lemma val_eq_same v v' w w' : same_val v v' -> same_val w w' -> val_eq v w = val_eq v' w'.
Proof.
  destruct v, v', w, w'; cbn; try contradiction; auto; [|intros -> ->; auto].
  intros. unfold num_eq. rewrite (num_le_neq n n0 n1 n2), (num_le_neq n1 n2 n n0) by auto. auto.
Qed.
Lemma val_eq_refl v w : same_val v w -> val_eq v w = true.
Proof. destruct v, w; cbn; try contradiction; [apply num_eq_iff|intros ->; apply String.eqb_refl]. Qed.
Definition same_iv (i j : interval) : Prop :=
  same_val (si_val (iv_lo i)) (si_val (iv_lo j)) /\ same_val (si_val (iv_hi i)) (si_val (iv_hi j)) /\
  si_open (iv_lo i) = si_open (iv_lo j) /\ si_open (iv_hi i) = si_open (iv_hi j) /\
  iv_lstrict i = iv_lstrict j /\ iv_ustrict i = iv_ustrict j /\ iv_int i = iv_int j /\ iv_compl i = iv_compl j.
Lemma mk_interval_same lo lo' hi hi' n c : same_item lo lo' -> same_item hi hi' ->
  same_iv (mk_interval (Some (pi_si lo)) (Some (pi_si hi)) n c) (mk_interval (Some (pi_si lo')) (Some (pi_si hi')) n c).
Proof.
  intros [A A'] [B B']. destruct lo as [v o f], lo' as [v' o' f'], hi as [w p g], hi' as [w' p' g']. cbn in A', B'. subst o' p'. cbn [pi_val] in A, B. unfold mk_interval, pi_si. cbn [si_val si_open pi_val pi_open].
  assert (X : forall a a' b b' x y, same_val a a' -> same_val b b' ->
     same_iv (if val_eq b a && (negb x || negb y) then IV (SI a x) (SI b y) false false n c else IV (SI a x) (SI b y) x y n c)
             (if val_eq b' a' && (negb x || negb y) then IV (SI a' x) (SI b' y) false false n c else IV (SI a' x) (SI b' y) x y n c)).
  { intros a a' b b' x y P R. rewrite (val_eq_same b b' a a') by auto. destruct (val_eq b' a' && _); repeat split; auto. }
  destruct v as [a|s], v' as [a'|s']; try contradiction; destruct w as [b|t], w' as [b'|t']; try contradiction; try (cbn [si_val si_open]; apply X; auto; fail).
  rewrite (num_lt_neq b b' a a') by auto. destruct (num_lt b' a'); cbn [si_val si_open]; apply X; auto.
Qed.
Lemma subst_same d v w : same_val v w -> same_val (subst_val d v) (subst_val d w) \/ subst_val d v = subst_val d w.
Proof. destruct v, w; cbn; try contradiction; auto. intros ->. right. auto. Qed.
Lemma op_le_same s a a' b b' : neq a a' -> neq b b' -> op_le s a b = op_le s a' b'.
Proof. intros. unfold op_le. rewrite (num_lt_neq a a' b b'), (num_le_neq a a' b b') by auto. auto. Qed.
Lemma cmp_lo_same s v w n : same_val v w \/ v = w -> cmp_lo s v n = cmp_lo s w n.
Proof.
  intros [H| ->]; auto. destruct v, w; cbn in *; try contradiction; auto. f_equal. destruct n as [z|q| | |]; 
   try (apply op_le_same; auto; apply neq_refl; discriminate). unfold op_le, num_lt. destruct n0, n1; cbn in *; destruct H; cbn in *; try contradiction; destruct s; auto.
Qed.
Lemma cmp_hi_same s v w n : same_val v w \/ v = w -> cmp_hi s v n = cmp_hi s w n.
Proof.
  intros [H| ->]; auto. destruct v, w; cbn in *; try contradiction; auto. f_equal. destruct n as [z|q| | |]; 
   try (apply op_le_same; auto; apply neq_refl; discriminate). unfold op_le, num_lt. destruct n0, n1; cbn in *; destruct H; cbn in *; try contradiction; destruct s; auto.
Qed.
Lemma iv_contains_same i j v d : same_iv i j -> iv_contains i v d = iv_contains j v d.
Proof.
  intros (A & B & _ & _ & C & D & E & F). unfold iv_contains, limits.
  pose proof (subst_same d _ _ A) as A'. pose proof (subst_same d _ _ B) as B'.
  revert A' B'. generalize (subst_val d (si_val (iv_lo i))) (subst_val d (si_val (iv_lo j))) (subst_val d (si_val (iv_hi i))) (subst_val d (si_val (iv_hi j))).
  intros l l' u u' L U. induction v as [n|s|vs IH] using tval_ind'.
  - cbn. unfold iv_num. rewrite E, F, C, D. cbn [fst snd]. rewrite (cmp_lo_same _ l l' n L), (cmp_hi_same _ u u' n U). auto.
  - cbn. f_equal. auto.
  - rewrite !iv_test_seq. induction vs as [|x vs IHl]; cbn [res_all]; auto. rewrite (IH x) by (left; auto).
    destruct (iv_test j (l', u') x) as [[|]|]; cbn; auto. apply IHl. intros. apply IH. right. auto.
Qed.
Lemma iv_eq_same i j : same_iv i j -> iv_eq i j = true.
Proof.
  intros (A & B & C & D & _ & _ & E & F). unfold iv_eq, iv_args. cbn [orb]. rewrite E, F.
  assert (X : sitem_eq (iv_lo i) (iv_lo j) = true) by (unfold sitem_eq; rewrite C, xorb_nilpotent; apply val_eq_refl; auto).
  assert (Y : sitem_eq (iv_hi i) (iv_hi j) = true) by (unfold sitem_eq; rewrite D, xorb_nilpotent; apply val_eq_refl; auto).
  destruct (iv_compl j), (iv_int j); rewrite X, Y; auto.
Qed.

(** ** what the parser delivers is printable, apart from exponents and a plain zero *)
Lemma piv_order lo hi n c : exists a b, mk_piv lo hi n c = PIV a b n c /\ ((a = lo /\ b = hi) \/ (a = hi /\ b = lo)) /\
  (forall x y, pi_val a = VNum x -> pi_val b = VNum y -> num_lt y x = false).
Proof.
  unfold mk_piv. destruct (pi_val lo) as [x|s] eqn:A, (pi_val hi) as [y|t] eqn:B.
  1: destruct (num_lt y x) eqn:L.
  all: eexists _, _; (split; [reflexivity|]); (split; [auto|]); intros u w U W; rewrite ?A, ?B in *; try discriminate; injection U as <-; injection W as <-; auto.
  unfold num_lt in *. apply andb_true_iff in L as [L1 L2]. apply negb_true_iff in L2. rewrite L2. auto.
Qed.
Lemma same_item_sym i j : same_item i j -> same_item j i.
Proof. intros [A B]. split; auto. revert A. destruct (pi_val i), (pi_val j); cbn; auto using neq_sym. Qed.
Lemma find_split c (t : text) i : find_char c t = Some i -> exists a b, t = a ++ c :: b /\ length a = i /\ forallb (fun d => negb (Ascii.eqb d c)) a = true.
Proof.
  revert i. induction t as [|d t IH]; cbn; intros i H; [discriminate|]. destruct (Ascii.eqb d c) eqn:E.
  - injection H as <-. apply Ascii.eqb_eq in E. subst d. exists [], t. auto.
  - destruct (find_char c t) as [j|]; [|discriminate]. injection H as <-. destruct (IH j eq_refl) as (a & b & -> & <- & F).
    exists (d :: a), b. cbn. rewrite E, F. auto.
Qed.
Lemma lstrip_app p (a : text) c b : p c = false -> exists a', lstrip p (a ++ c :: b) = a' ++ c :: b /\ (length a' <= length a)%nat /\ incl a' a.
Proof.
  intro P. induction a as [|d a IH]; cbn; [rewrite P; exists []; repeat split; auto; apply incl_refl|].
  destruct (p d).
  - destruct IH as (a' & -> & L & I). exists a'. repeat split; auto. apply incl_tl. auto.
  - exists (d :: a). repeat split; auto. apply incl_refl.
Qed.
Lemma strip_app p (a : text) c b : p c = false -> exists a' b', strip p (a ++ c :: b) = a' ++ c :: b' /\ (length b' <= length b)%nat /\ incl a' a.
Proof.
  intro P. destruct (lstrip_app p a c b P) as (a' & E & L & I). unfold strip. rewrite E, rev_app_distr. cbn [rev]. rewrite <- app_assoc. cbn [app].
  destruct (lstrip_app p (rev b) c (rev a') P) as (b' & E' & L' & _). rewrite E'. exists a', (rev b').
  rewrite rev_app_distr. cbn [rev]. rewrite rev_involutive, <- app_assoc. cbn [app]. rewrite rev_length. rewrite rev_length in L'. auto.
Qed.
Lemma sign_of_app (a : text) c b : Ascii.eqb c "-" = false -> Ascii.eqb c "+" = false -> exists s a', sign_of (a ++ c :: b) = (s, a' ++ c :: b) /\ incl a' a.
Proof.
  intros C1 C2. destruct a as [|d a]; cbn.
  - rewrite C1, C2. exists false, []. split; auto. apply incl_refl.
  - destruct (Ascii.eqb d "-"); [exists true, a; split; auto; apply incl_tl, incl_refl|].
    destruct (Ascii.eqb d "+"); [exists false, a; split; auto; apply incl_tl, incl_refl|]. exists false, (d :: a). split; auto. apply incl_refl.
Qed.
Lemma forallb_incl (P : ascii -> bool) (a b : text) : incl a b -> forallb P b = true -> forallb P a = true.
Proof. intros I H. rewrite forallb_forall in *. auto. Qed.
Lemma find_none_forall c (t : text) : find_char c t = None -> forallb (fun d => negb (Ascii.eqb d c)) t = true.
Proof. induction t as [|d t IH]; cbn; auto. destruct (Ascii.eqb d c); [discriminate|]. destruct (find_char c t); [discriminate|]. auto. Qed.
Lemma filter_len (p : ascii -> bool) (t : text) : (length (filter p t) <= length t)%nat.
Proof. induction t as [|c t IH]; cbn; auto. destruct (p c); cbn [length]; lia. Qed.
Lemma dig_part_len t v k : dig_part t = Some (v, k) -> 0 <= k <= Z.of_nat (length t).
Proof.
  unfold dig_part. destruct t as [|c t]; [intro H; injection H as <- <-; cbn [length]; lia|].
  destruct (digs 10 0 false (c :: t)); [|discriminate]. cbn [option_map]. intro H. injection H as <- <-.
  split; [apply Nat2Z.is_nonneg|]. apply inj_le. exact (filter_len is_digit (c :: t)).
Qed.
Lemma dec_q_decimals m k n : 0 <= k <= Z.of_nat n -> has_decimals n (dec_q m (0 - k)).
Proof.
  intro H. exists (m * 10 ^ (Z.of_nat n - k)). replace k with (Z.of_nat (Z.to_nat k)) by lia. rewrite dec_q_div.
  rewrite Z2Nat.id by lia. replace (10 ^ Z.of_nat n) with (10 ^ (Z.of_nat n - k) * 10 ^ k) by (rewrite <- Z.pow_add_r by lia; f_equal; lia).
  assert (0 < 10 ^ k) by (apply Z.pow_pos_nonneg; lia). set (x := 10 ^ k) in *. set (y := 10 ^ (Z.of_nat n - k)).
  unfold Qeq, Qdiv, Qmult, Qinv, inject_Z. destruct x; try lia. cbn. lia.
Qed.
Lemma py_float_decimals v q i n : py_float v = Some q -> find_char "." v = Some i -> float_fmt i v = FFix i n -> has_decimals n q.
Proof.
  intros P F G. unfold float_fmt in G. destruct (find_char "e" v) eqn:E1; [discriminate|]. destruct (find_char "E" v) eqn:E2; [discriminate|].
  injection G as <-. destruct (find_split _ _ _ F) as (a & b & -> & <- & ND).
  assert (NE : forallb (fun c => negb (is_e c)) (a ++ "."%char :: b) = true).
  { apply find_none_forall in E1, E2. rewrite forallb_forall in *. intros x X. specialize (E1 x X). specialize (E2 x X). unfold is_e. rewrite negb_orb, E1, E2. auto. }
  unfold py_float in P. destruct (strip_app is_ws a "." b eq_refl) as (a1 & b1 & ES & L1 & I1). rewrite ES in P.
  destruct (sign_of_app a1 "." b1 eq_refl eq_refl) as (sg & a2 & E3 & I2). rewrite E3 in P.
  assert (SI : forallb (fun c => negb (is_e c)) (a1 ++ "."%char :: b1) = true).
  { rewrite <- ES. unfold strip. revert NE. generalize (a ++ "."%char :: b). clear. intros t H.
    assert (X : forall t : text, forallb (fun c => negb (is_e c)) t = true -> forallb (fun c => negb (is_e c)) (lstrip is_ws t) = true).
    { induction t0 as [|c t0 IH]; cbn; auto. intro K. apply andb_true_iff in K as [K1 K2]. destruct (is_ws c); auto. cbn. rewrite K1, K2. auto. }
    apply forallb_rev, X, forallb_rev, X, H. }
  rewrite (cut_none is_e) in P.
  2:{ revert SI. apply forallb_incl. intros x X. apply in_app_iff in X as [X|X]; apply in_app_iff; auto. }
  rewrite cut_at in P; [|revert ND; apply forallb_incl; eapply incl_tran; eauto|reflexivity].
  destruct (dig_part a2) as [[x nx]|] eqn:DA; [|discriminate]. destruct (dig_part b1) as [[y ny]|] eqn:DB; [|discriminate].
  destruct (nx + ny =? 0); [discriminate|]. injection P as <-. apply dig_part_len in DB. apply dec_q_decimals.
  rewrite app_length. cbn [length]. lia.
Qed.
Lemma has_decimals_opp n q : has_decimals n q -> has_decimals n (- q)%Q.
Proof.
  intros [m H]. exists (- m). setoid_replace ((- q) * inject_Z (10 ^ Z.of_nat n))%Q with (- (q * inject_Z (10 ^ Z.of_nat n)))%Q by ring.
  rewrite H. unfold Qeq, Qopp, inject_Z. cbn. lia.
Qed.
(** the exceptions: exponent notation, a zero without prefix and decimals *)
Definition is_zero (n : num) : Prop := neq n (NI 0).
Definition tame (i : pitem) : Prop :=
  match pi_fmt i, pi_val i with
  | FExp _ _, _ => False
  | FStr, VNum n | FFix _ 0, VNum n => ~ is_zero n
  | _, _ => True
  end.
Lemma num_fmt v n f : parse_num v = Some (n, f) -> (exists z, n = NI z /\ (f = FStr \/ f = FHex \/ f = FOct \/ f = FBin)) \/
  (exists q i, n = NF q /\ py_float v = Some q /\ find_char "." v = Some i /\ f = float_fmt i v).
Proof.
  unfold parse_num. destruct (find_char "." v) as [i|] eqn:F.
  - destruct (py_float v) as [q|]; [|discriminate]. intro H. injection H as <- <-. right. exists q, i. auto.
  - intro H. left. destruct v as [|c [|x r]]; [discriminate| |].
    + destruct (Ascii.eqb c "0"); [discriminate|]. destruct (py_int 10 [c]); [|discriminate]. injection H as <- <-. eauto 10.
    + destruct (Ascii.eqb c "0").
      * destruct (Ascii.eqb (to_lower x) "x"); [|destruct (Ascii.eqb (to_lower x) "o"); [|destruct (Ascii.eqb (to_lower x) "b")]];
          match type of H with option_map _ ?o = _ => destruct o; [|discriminate] end; injection H as <- <-; eauto 10.
      * destruct (py_int 10 (c :: x :: r)); [|discriminate]. injection H as <- <-. eauto 10.
Qed.
Lemma parse_printable fstr s o i : parse_item s o = Ok i -> tame i -> printable fstr i.
Proof.
  unfold parse_item. destruct (strip is_sp s) as [|c r]; [discriminate|].
  destruct (var_start c && negb (text_eqb (c :: r) (lit "inf"))) eqn:V.
  - apply andb_true_iff in V as [V1 V2]. destruct (forallb var_char (c :: r)) eqn:A; [|discriminate]. intros H _. assert (i = PI (VVar (unlit (c :: r))) o FStr) as -> by congruence. constructor.
    assert (L : lit (unlit (c :: r)) = c :: r) by (unfold lit, unlit; apply list_ascii_of_string_of_list_ascii). unfold var_name. rewrite L.
    repeat split; auto. intro X. apply negb_true_iff in V2. unfold text_eqb in V2. destruct (list_eq_dec ascii_dec (c :: r) (lit "inf")) as [|N]; [discriminate|].
    apply N. rewrite <- L, X. auto.
  - destruct (num_start c); [|discriminate]. destruct (if Ascii.eqb c "-" then _ else _) as [neg w].
    destruct (text_eqb w (lit "inf")). { intros H _. injection H as <-. destruct neg; constructor. }
    destruct (parse_num w) as [[n f]|] eqn:P; [|discriminate]. intros H T. injection H as <-.
    destruct (num_fmt _ _ _ P) as [(z & -> & F)|(q & k & -> & PF & FC & ->)].
    + assert (E : (if neg then num_neg (NI z) else NI z) = NI (zneg neg z)) by (destruct neg; auto). rewrite E in *.
      destruct F as [-> |F]; [|apply p_base; auto]. apply p_int. intro X. apply T. cbn. rewrite X. apply neq_refl. discriminate.
    + assert (E : (if neg then num_neg (NF q) else NF q) = NF (if neg then - q else q)%Q) by (destruct neg; auto). rewrite E in *.
      unfold float_fmt in *. destruct (match find_char "e" w with Some j => Some j | None => find_char "E" w end) eqn:EE; [destruct T|].
      apply p_fix.
      * assert (HD : has_decimals (length w - k - 1) q). { apply (py_float_decimals w q k); auto. unfold float_fmt. rewrite EE. auto. }
        destruct neg; auto. apply has_decimals_opp. auto.
      * intros N X. unfold tame in T. cbn [pi_fmt pi_val] in T. rewrite N in T. apply T. unfold is_zero. split; cbn; rewrite X; apply Qle_refl.
Qed.
(** ** spaces anywhere *)
Lemma no_sp_rev t : no_sp (rev t) = rev (no_sp t).
Proof. induction t as [|c t IH]; cbn; auto. rewrite no_sp_app, IH. cbn. destruct (is_sp c); cbn; [apply app_nil_r|auto]. Qed.
Lemma no_sp_lstrip t : no_sp (lstrip is_sp t) = no_sp t.
Proof. induction t as [|c t IH]; cbn; auto. destruct (is_sp c) eqn:E; cbn [negb]; auto. cbn. rewrite E. auto. Qed.
Lemma no_sp_strip t : no_sp (strip is_sp t) = no_sp t.
Proof. unfold strip. rewrite no_sp_rev, no_sp_lstrip, no_sp_rev, rev_involutive. apply no_sp_lstrip. Qed.
Lemma lstrip_head p t c r : lstrip p t = c :: r -> p c = false.
Proof. induction t as [|d t IH]; cbn; [discriminate|]. destruct (p d) eqn:E; auto. intro H. injection H as <- _. auto. Qed.
Lemma lstrip_snoc p (t : text) c : p c = false -> exists t', lstrip p (t ++ [c]) = t' ++ [c].
Proof. intro P. induction t as [|d t IH]; cbn; [rewrite P; exists []; auto|]. destruct (p d); auto. exists (d :: t). auto. Qed.
Lemma strip_head p t c r : strip p t = c :: r -> p c = false.
Proof.
  unfold strip. destruct (lstrip p t) as [|d s] eqn:E; [discriminate|]. pose proof (lstrip_head _ _ _ _ E) as D. cbn [rev].
  destruct (lstrip_snoc p (rev s) d D) as [t' ->]. rewrite rev_app_distr. cbn. intro H. injection H as <- _. auto.
Qed.
Lemma no_sp_head t c r : strip is_sp t = c :: r -> no_sp t = c :: no_sp r.
Proof. intro H. pose proof (strip_head _ _ _ _ H) as C. rewrite <- (no_sp_strip t), H. cbn. rewrite C. auto. Qed.
Lemma no_sp_nil t : strip is_sp t = [] -> no_sp t = [].
Proof. intro H. rewrite <- no_sp_strip, H. auto. Qed.
Lemma spaced_ok s compl oa a dots b ob q (lo hi : pitem) :
  no_sp s = bracket compl oa a dots b ob q -> clean a -> clean b -> parse_item a oa = Ok lo -> parse_item b ob = Ok hi ->
  is_var (pi_val lo) = false -> is_var (pi_val hi) = false ->
  interval_str s = Ok (mk_piv lo hi dots (xorb compl q)).
Proof.
  intros NS A B PA PB VL VH. set (body := open_text oa ++ a ++ sep_text dots ++ b ++ close_text ob ++ quote_text q).
  assert (SB : exists d, split_bang s = Ok (compl, d) /\ no_sp d = body /\ (exists r, d = (if oa then "(" else "[")%char :: r)).
  { unfold bracket in NS. fold body in NS. unfold split_bang.
    assert (BH : exists m, body = (if oa then "(" else "[")%char :: m) by (unfold body; destruct oa; eexists; reflexivity). destruct BH as [m BH].
    destruct (strip is_sp s) as [|c r] eqn:E.
    - apply no_sp_nil in E. rewrite E in NS. destruct compl; [discriminate|]. cbn in NS. rewrite BH in NS. discriminate.
    - pose proof (no_sp_head _ _ _ E) as H. rewrite H in NS. destruct compl.
      + cbn [lit list_ascii_of_string app] in NS. injection NS as -> NS. change (Ascii.eqb "!" "!") with true. cbn iota. eexists. split; [reflexivity|].
        rewrite no_sp_strip. split; auto. destruct (strip is_sp r) as [|c' r'] eqn:E'.
        * apply no_sp_nil in E'. rewrite E', BH in NS. discriminate.
        * pose proof (no_sp_head _ _ _ E') as H'. rewrite H', BH in NS. injection NS as -> _. eauto.
      + cbn [app] in NS. assert (c = (if oa then "(" else "[")%char) as -> by (rewrite BH in NS; injection NS; auto).
        replace (Ascii.eqb (if oa then "(" else "[")%char "!") with false by (destruct oa; reflexivity).
        eexists. split; [reflexivity|]. split; [|eauto]. cbn [no_sp filter]. fold (no_sp r).
        replace (negb (is_sp (if oa then "(" else "["))) with true by (destruct oa; reflexivity). auto. }
  destruct SB as (d & SB & ND & r & ->). unfold interval_str. rewrite SB.
  assert (PM : parse_math ((if oa then "(" else "[")%char :: r) compl = Ok (lo, hi, dots, xorb compl q)).
  { unfold parse_math. rewrite ND. unfold body, var_spaces.
    destruct oa; cbn [open_text lit list_ascii_of_string app];
      (match goal with |- context [if ?c then math_re _ else None] => change c with true end); cbn iota; rewrite (math_re_ok a b dots ob q A B);
      (match goal with |- context [parse_item a ?c] => let v := eval vm_compute in c in change c with v end); rewrite PA, PB, VL, VH; reflexivity. }
  rewrite PM. destruct oa; reflexivity.
Qed.
