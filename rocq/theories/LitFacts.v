(** Number literals (C78-C80): an independent specification of the value of a literal, and the
    proof that the item reader of MathStr.v computes it; rounding of printed numbers. *)
From Coq Require Import QArith Qabs Qpower Ascii.
From Verif Require Import Base MathSet MathSpec MathFacts MathStr MathStrFacts.
Local Open Scope Z_scope.

(** ** specification *)
(** the character of a digit, upper or lower case *)
Definition digit_char (d : Z) (c : ascii) : Prop :=
  nth_error (lit "0123456789abcdef") (Z.to_nat d) = Some c \/ nth_error (lit "0123456789ABCDEF") (Z.to_nat d) = Some c.
(** the text of a list of digits of base b *)
Definition spelled (b : Z) (ds : list Z) (t : text) : Prop := Forall2 (fun d c => 0 <= d < b /\ digit_char d c) ds t.
(** its number *)
Definition value (b : Z) (ds : list Z) : Z := fold_left (fun a d => a * b + d) ds 0.
Inductive sign := SNone | SPlus | SMinus.
Definition sign_text (s : sign) : text := match s with SNone => [] | SPlus => lit "+" | SMinus => lit "-" end.
Definition signed (s : sign) (z : Z) : Z := match s with SMinus => - z | _ => z end.
(** prefix and base of an integer literal *)
Inductive base_prefix : text -> Z -> Prop :=
| bp_dec : base_prefix [] 10
| bp_hex : base_prefix (lit "0x") 16 | bp_hex' : base_prefix (lit "0X") 16
| bp_oct : base_prefix (lit "0o") 8 | bp_oct' : base_prefix (lit "0O") 8
| bp_bin : base_prefix (lit "0b") 2 | bp_bin' : base_prefix (lit "0B") 2.
(** an exponent: e or E, sign, digits *)
Inductive exponent : text -> Z -> Prop :=
| no_exp : exponent [] 0
| some_exp c s ds t : c = "e"%char \/ c = "E"%char -> ds <> [] -> spelled 10 ds t -> exponent (c :: sign_text s ++ t) (signed s (value 10 ds)).

(** the number that a text denotes; the single digit 0 is left out (it is refused) *)
Inductive numeral : text -> num -> Prop :=
| n_int s p b ds t : base_prefix p b -> spelled b ds t -> ds <> [] -> (p = [] -> length ds = 1%nat -> hd 0 ds <> 0) ->
    numeral (sign_text s ++ p ++ t) (NI (signed s (value b ds)))
| n_float s ip ti fp tf et e : spelled 10 ip ti -> spelled 10 fp tf -> ip <> [] -> exponent et e ->
    numeral (sign_text s ++ ti ++ "."%char :: tf ++ et) (NF (inject_Z (signed s (value 10 (ip ++ fp))) * (10 # 1) ^ (e - Z.of_nat (length fp))))
| n_inf s : numeral (sign_text s ++ lit "inf") (match s with SMinus => NInf | _ => PInf end).

(** ** digits *)
Definition hx (c : ascii) : bool := is_digit c || within "a" "f" c || within "A" "F" c.
Lemma digit_char_ok d c : 0 <= d < 16 -> digit_char d c -> digit_val c = Some d /\ hx c = true /\ (d < 10 -> is_digit c = true).
Proof.
  intros D H. apply dig_range in D. cbn in D. unfold digit_char in H.
  repeat (destruct D as [<-|D]; [destruct H as [H|H]; cbn in H; injection H as <-; (split; [vm_compute; reflexivity|split; [vm_compute; reflexivity|intro; (vm_compute; reflexivity) || lia]])|]).
  destruct D.
Qed.
Lemma spelled_hx b ds t : b <= 16 -> spelled b ds t -> forallb hx t = true.
Proof.
  intros B. induction 1 as [|d c ds t [D H] _ IH]; auto. cbn [forallb]. rewrite IH. destruct (digit_char_ok d c ltac:(lia) H) as (_ & -> & _). auto.
Qed.
Lemma spelled_dec ds t : spelled 10 ds t -> forallb is_digit t = true.
Proof.
  induction 1 as [|d c ds t [D H] _ IH]; auto. cbn [forallb]. rewrite IH. destruct (digit_char_ok d c ltac:(lia) H) as (_ & _ & X). rewrite X by lia. auto.
Qed.
Lemma spelled_length b ds t : spelled b ds t -> length t = length ds.
Proof. induction 1; cbn; auto. Qed.
Lemma digs_spelled b ds t : b <= 16 -> spelled b ds t -> forall a aft rest,
  digs b a aft (t ++ rest) = digs b (fold_left (fun a d => a * b + d) ds a) (match ds with [] => aft | _ => true end) rest.
Proof.
  intros B. induction 1 as [|d c ds t [D H] _ IH]; auto. intros a aft rest. cbn [app digs fold_left].
  destruct (digit_char_ok d c ltac:(lia) H) as (V & X & _).
  assert (Ascii.eqb c "_" = false) as ->.
  { apply negb_true_iff. revert X. clear. revert c. apply char_imp. vm_compute. reflexivity. }
  rewrite V, (proj2 (Z.ltb_lt d b)) by lia. rewrite IH. destruct ds; auto.
Qed.
Lemma digs_value b ds t : b <= 16 -> ds <> [] -> spelled b ds t -> digs b 0 false t = Some (value b ds).
Proof.
  intros B N S. pose proof (digs_spelled b ds t B S 0 false []) as H. rewrite app_nil_r in H. rewrite H. destruct ds; [congruence|reflexivity].
Qed.
Lemma dig_part_value ds t : spelled 10 ds t -> dig_part t = Some (value 10 ds, Z.of_nat (length ds)).
Proof.
  intro S. destruct ds as [|d ds].
  - inversion S; subst. reflexivity.
  - unfold dig_part. destruct t as [|c r]; [inversion S|]. remember (c :: r) as t eqn:E.
    rewrite (digs_value 10 (d :: ds) t) by (auto; try lia; discriminate). cbn [option_map].
    assert (filter is_digit t = t) as ->.
    { pose proof (spelled_dec _ _ S) as X. clear -X. induction t as [|x t IH]; auto. cbn in *. apply andb_true_iff in X. destruct X as [-> X]. rewrite IH; auto. }
    rewrite (spelled_length _ _ _ S). auto.
Qed.
Lemma fold_value b ds : forall a, fold_left (fun a d => a * b + d) ds a = a * b ^ Z.of_nat (length ds) + value b ds.
Proof.
  unfold value. induction ds as [|d ds IH]; intro a; cbn [fold_left length].
  - rewrite Z.pow_0_r. lia.
  - rewrite IH, (IH (0 * b + d)). rewrite Nat2Z.inj_succ, Z.pow_succ_r by lia. lia.
Qed.
Lemma value_app b x y : value b (x ++ y) = value b x * b ^ Z.of_nat (length y) + value b y.
Proof. unfold value at 1. rewrite fold_left_app. apply fold_value. Qed.
Lemma value_nonneg b ds t : spelled b ds t -> 0 <= value b ds.
Proof.
  intro S. unfold value. assert (G : forall a, 0 <= a -> 0 <= fold_left (fun a d => a * b + d) ds a); [|apply G; lia].
  induction S as [|d c ds t [D _] _ IH]; intros a A; cbn; auto. apply IH. nia.
Qed.

(** ** reading *)
Lemma hx_imp (R : ascii -> bool) t : forallb (fun c => implb (hx c) (R c)) all_chars = true -> forallb hx t = true -> forallb R t = true.
Proof. intros H. apply forallb_imp, char_imp, H. Qed.
Lemma dg_imp (R : ascii -> bool) t : forallb (fun c => implb (is_digit c) (R c)) all_chars = true -> forallb is_digit t = true -> forallb R t = true.
Proof. intros H. apply forallb_imp, char_imp, H. Qed.
Lemma parse_item_sign s t o n f k : digit_first t -> forallb (fun c => negb (is_sp c)) t = true -> parse_num t = Some (n, f) ->
  parse_item (repeat " "%char k ++ sign_text s ++ t) o = Ok (PI (VNum (match s with SMinus => num_neg n | _ => n end)) o f).
Proof.
  intros D S P. destruct s; [exact (parse_item_num t false o n f D S P k)| |exact (parse_item_num t true o n f D S P k)].
  unfold parse_item. rewrite strip_pad by (cbn; auto). destruct D as (c & r & -> & D).
  assert (I : text_eqb (c :: r) (lit "inf") = false).
  { unfold text_eqb. destruct (list_eq_dec ascii_dec (c :: r) (lit "inf")) as [X|]; auto. cbn in X. injection X as -> _. vm_compute in D. discriminate. }
  change (sign_text SPlus) with ["+"%char]. cbn [app].
  change (var_start "+") with false. cbn [andb]. change (num_start "+") with true. cbn iota. change (Ascii.eqb "+" "-") with false. change (Ascii.eqb "+" "+") with true. cbn iota.
  rewrite strip_none by auto. rewrite I, P. auto.
Qed.
Lemma sign_of_hx c (r : text) : hx c = true -> sign_of (c :: r) = (false, c :: r).
Proof.
  intro H. unfold sign_of. assert (Ascii.eqb c "-" = false) as -> by (apply negb_true_iff; revert H; revert c; apply char_imp; vm_compute; reflexivity).
  assert (Ascii.eqb c "+" = false) as -> by (apply negb_true_iff; revert H; revert c; apply char_imp; vm_compute; reflexivity). auto.
Qed.
Lemma sign_of_sign s (t : text) : (t = [] \/ exists c r, t = c :: r /\ hx c = true) -> sign_of (sign_text s ++ t) = (match s with SMinus => true | _ => false end, t).
Proof.
  intros [->|(c & r & -> & H)]; destruct s; try reflexivity. cbn [sign_text app]. apply sign_of_hx. auto.
Qed.
Lemma int_literal p b ds t : base_prefix p b -> spelled b ds t -> ds <> [] -> (p = [] -> length ds = 1%nat -> hd 0 ds <> 0) ->
  exists f, parse_num (p ++ t) = Some (NI (value b ds), f).
Proof.
  intros B S N Z0. assert (BB : b <= 16) by (destruct B; lia). pose proof (spelled_hx b ds t BB S) as HX. pose proof (digs_value b ds t BB N S) as DV.
  destruct t as [|u r]; [inversion S; subst; congruence|].
  assert (NU : Ascii.eqb u "_" = false).
  { cbn in HX. apply andb_true_iff in HX. destruct HX as [HX _]. apply negb_true_iff. revert HX. revert u S DV. intros u _ _. revert u. apply char_imp. vm_compute. reflexivity. }
  destruct B.
  { exists FStr. cbn [app]. unfold parse_num. rewrite (find_none hx "." (u :: r)); [|auto|intros d D; apply negb_true_iff; revert d D; apply char_imp; vm_compute; reflexivity].
    assert (P : py_int 10 (u :: r) = Some (value 10 ds)).
    { unfold py_int. rewrite strip_none by (revert HX; apply hx_imp; vm_compute; reflexivity).
      rewrite sign_of_hx by (cbn in HX; apply andb_true_iff in HX; tauto). change (10 =? 16) with false. change (10 =? 8) with false. change (10 =? 2) with false.
      destruct r as [|x r]; [|rewrite !andb_false_r]; rewrite DV; reflexivity. }
    rewrite P. cbn [option_map]. destruct (Ascii.eqb u "0") eqn:U; auto. destruct r as [|x r].
    - exfalso. inversion S as [|d c ds' t' [D C] S' E1 E2]; subst. inversion S'; subst. specialize (Z0 eq_refl eq_refl). cbn in Z0.
      apply Ascii.eqb_eq in U. subst u. destruct (digit_char_ok d "0" ltac:(lia) C) as (V & _). vm_compute in V. injection V as <-. congruence.
    - pose proof (spelled_dec _ _ S) as DG. cbn in DG. apply andb_true_iff in DG. destruct DG as [_ DG]. apply andb_true_iff in DG. destruct DG as [DG _].
      assert (A : forall y, y = "x"%char \/ y = "o"%char \/ y = "b"%char -> Ascii.eqb (to_lower x) y = false).
      { clear -DG. intros y Y. apply negb_true_iff. revert DG. revert x. destruct Y as [->|[->| ->]]; apply char_imp; vm_compute; reflexivity. }
      rewrite !A by auto. auto. }
  all: assert (HD : forall c, forallb (fun d => negb (Ascii.eqb d ".")) ("0"%char :: c :: u :: r) = true -> find_char "." ("0"%char :: c :: u :: r) = None) by (intros c F; apply (find_none (fun d => negb (Ascii.eqb d "."))); auto; intros d D; apply negb_true_iff; auto).
  all: assert (ND : forallb (fun d => negb (Ascii.eqb d ".")) (u :: r) = true) by (revert HX; apply hx_imp; vm_compute; reflexivity).
  all: assert (NW : forallb (fun c => negb (is_ws c)) (u :: r) = true) by (revert HX; apply hx_imp; vm_compute; reflexivity).
  all: match goal with |- context [lit ?s] => let x := eval vm_compute in (lit s) in change (lit s) with x end; cbn [app].
  all: unfold parse_num; rewrite HD by (cbn [forallb] in ND |- *; rewrite ND; reflexivity).
  all: change (Ascii.eqb "0" "0") with true; cbv iota.
  all: match goal with |- context [to_lower ?x] => let y := eval vm_compute in (to_lower x) in change (to_lower x) with y end.
  all: repeat match goal with |- context [Ascii.eqb ?a ?b] => is_constructor a || (let v := eval vm_compute in (Ascii.eqb a b) in match v with true => idtac | false => idtac end; change (Ascii.eqb a b) with v) end; cbv iota.
  all: unfold py_int; rewrite strip_none by (cbn [forallb] in NW |- *; rewrite NW; reflexivity).
  all: rewrite sign_of_hx by reflexivity.
  all: cbv iota beta; match goal with |- context [(if ?c then _ else _)] => let v := eval vm_compute in c in change c with v end; cbv iota; rewrite NU, DV; eexists; reflexivity.
Qed.
Lemma dec_q_pow m k : (dec_q m k == inject_Z m * (10 # 1) ^ k)%Q.
Proof.
  unfold dec_q. destruct (0 <=? k) eqn:E.
  - rewrite inject_Z_mult, Zpower_Qpower by lia. reflexivity.
  - assert (K : k = - (- k)) by lia. rewrite K at 2. rewrite Qpower_opp. assert (P : 0 < 10 ^ (- k)) by (apply Z.pow_pos_nonneg; lia).
    change (10 # 1)%Q with (inject_Z 10). rewrite <- Zpower_Qpower by lia. destruct (10 ^ (- k)) as [|p|p] eqn:X; try lia.
    cbn [Z.to_pos]. unfold Qeq, inject_Z, Qmult, Qinv. cbn. lia.
Qed.
Lemma exponent_ok t e : exponent t e -> t = [] /\ e = 0 \/
  exists c r, t = c :: r /\ is_e c = true /\ option_map (zneg (fst (sign_of r))) (digs 10 0 false (snd (sign_of r))) = Some e /\
              forallb (fun c => negb (is_ws c) && negb (is_sp c)) t = true.
Proof.
  destruct 1 as [|c s ds t C N S]; [auto|]. right. exists c, (sign_text s ++ t). split; auto. split; [destruct C as [->| ->]; reflexivity|]. split.
  - rewrite sign_of_sign.
    2:{ right. destruct t as [|x t]; [inversion S; subst; congruence|]. exists x, t. split; auto. pose proof (spelled_hx 10 ds _ ltac:(lia) S) as H. cbn in H. apply andb_true_iff in H. tauto. }
    cbn [fst snd]. rewrite (digs_value 10 ds t) by (auto; lia). destruct s; reflexivity.
  - cbn [forallb]. rewrite forallb_app. pose proof (spelled_hx 10 ds _ ltac:(lia) S) as H.
    rewrite (hx_imp (fun c => negb (is_ws c) && negb (is_sp c)) t ltac:(vm_compute; reflexivity) H). destruct C as [->| ->], s; reflexivity.
Qed.
Lemma float_literal ip ti fp tf et e : spelled 10 ip ti -> spelled 10 fp tf -> ip <> [] -> exponent et e ->
  exists q f, parse_num (ti ++ "."%char :: tf ++ et) = Some (NF q, f) /\
    (q == inject_Z (value 10 (ip ++ fp)) * (10 # 1) ^ (e - Z.of_nat (length fp)))%Q.
Proof.
  intros SI SF N EX. apply exponent_ok in EX. set (t := ti ++ "."%char :: tf ++ et).
  pose proof (spelled_dec _ _ SI) as DI. pose proof (spelled_dec _ _ SF) as DF.
  assert (py_float t = Some (dec_q (value 10 (ip ++ fp)) (e - Z.of_nat (length fp)))) as PF.
  { unfold py_float. rewrite strip_none.
    2:{ unfold t. rewrite forallb_app. cbn [forallb]. rewrite forallb_app. change (is_ws ".") with false.
        rewrite (dg_imp (fun c => negb (is_ws c)) ti ltac:(vm_compute; reflexivity) DI), (dg_imp (fun c => negb (is_ws c)) tf ltac:(vm_compute; reflexivity) DF). cbn [andb negb].
        destruct EX as [[-> _]|(c & r & E & _ & _ & W)]; auto. revert W. apply forallb_imp. intros x X. apply andb_true_iff in X. tauto. }
    assert (sign_of t = (false, t)) as ->.
    { unfold t. destruct ti as [|c ti]; [inversion SI; subst; congruence|]. cbn [app]. apply sign_of_hx. cbn in DI. apply andb_true_iff in DI. destruct DI as [DI _].
      revert DI. clear. revert c. apply char_imp. vm_compute. reflexivity. }
    assert (C : cut is_e t = (ti ++ "."%char :: tf, match et with [] => None | _ :: r => Some r end)).
    { assert (M : forallb (fun c => negb (is_e c)) (ti ++ "."%char :: tf) = true).
      { rewrite forallb_app. cbn [forallb]. change (is_e ".") with false.
        rewrite (dg_imp (fun c => negb (is_e c)) ti ltac:(vm_compute; reflexivity) DI), (dg_imp (fun c => negb (is_e c)) tf ltac:(vm_compute; reflexivity) DF). auto. }
      unfold t. destruct EX as [[-> _]|(c & r & -> & IE & _ & _)].
      - rewrite app_nil_r. apply cut_none. exact M.
      - change (ti ++ "."%char :: tf ++ c :: r) with (ti ++ ("."%char :: tf) ++ c :: r). rewrite app_assoc. apply cut_at; auto. }
    rewrite C. rewrite (cut_at (fun c => Ascii.eqb c ".") ti "." tf); [|revert DI; apply dg_imp; vm_compute; reflexivity|reflexivity].
    rewrite (dig_part_value _ _ SI), (dig_part_value _ _ SF).
    assert (0 < Z.of_nat (length ip)) by (destruct ip; [congruence|cbn; lia]).
    assert (match match et with [] => None | _ :: r => Some r end with None => Some 0 | Some e0 => let '(eneg, e1) := sign_of e0 in option_map (zneg eneg) (digs 10 0 false e1) end = Some e) as ->.
    { destruct EX as [[-> ->]|(c & r & -> & _ & D & _)]; auto. destruct (sign_of r) as [a b]. exact D. }
    destruct (Z.of_nat (length ip) + Z.of_nat (length fp) =? 0) eqn:Z; [apply Z.eqb_eq in Z; lia|]. unfold zneg. rewrite value_app. auto. }
  eexists. exists (float_fmt (length ti) t). split; [|apply dec_q_pow]. unfold parse_num. assert (find_char "." t = Some (length ti)) as ->.
  { apply find_at. revert DI. apply dg_imp. vm_compute. reflexivity. }
  rewrite PF. reflexivity.
Qed.

(** ** digits that are printed *)
Lemma dig_char_spec d : 0 <= d < 16 -> digit_char d (dig_char d).
Proof.
  intros D. apply dig_range in D. cbn in D. left. repeat (destruct D as [<-|D]; [vm_compute; reflexivity|]). destruct D.
Qed.
Lemma show_fuel_spelled b : 2 <= b <= 16 -> forall fuel n, 0 <= n < 2 ^ Z.of_nat fuel -> (0 < fuel)%nat ->
  exists ds t, (forall acc, show_fuel fuel b n acc = t ++ acc) /\ spelled b ds t /\ value b ds = n /\ ds <> [].
Proof.
  intros B. induction fuel as [|f IH]; intros n N F; [lia|]. pose proof (Z.mod_pos_bound n b ltac:(lia)) as MB. pose proof (Z.div_mod n b ltac:(lia)) as DM.
  cbn [show_fuel]. destruct (n / b =? 0) eqn:E.
  - apply Z.eqb_eq in E. exists [n mod b], [dig_char (n mod b)]. split; auto. split; [constructor; [|constructor]; split; [lia|apply dig_char_spec; lia]|]. split; [unfold value; cbn; rewrite E in DM; lia|discriminate].
  - apply Z.eqb_neq in E. assert (0 <= n / b) by (apply Z.div_pos; lia).
    assert (n / b < 2 ^ Z.of_nat f).
    { apply Z.div_lt_upper_bound; [lia|]. rewrite Nat2Z.inj_succ, Z.pow_succ_r in N by lia. nia. }
    destruct (IH (n / b) ltac:(lia)) as (ds & t & A & S & V & NE).
    { destruct f; [|lia]. cbn in *. lia. }
    exists (ds ++ [n mod b]), (t ++ [dig_char (n mod b)]). split; [intro acc; rewrite A, <- app_assoc; auto|]. split; [apply Forall2_app; auto; constructor; [|constructor]; split; [lia|apply dig_char_spec; lia]|].
    split; [rewrite value_app, V; unfold value; cbn [fold_left length]; change (Z.of_nat 1) with 1; rewrite Z.pow_1_r; lia|destruct ds; discriminate].
Qed.
Lemma show_spelled b n : 2 <= b <= 16 -> 0 <= n -> exists ds, spelled b ds (show_nat b n) /\ value b ds = n /\ ds <> [].
Proof.
  intros B N. unfold show_nat. destruct (show_fuel_spelled b B (S (Z.to_nat (Z.log2 n))) n) as (ds & t & A & S & V & NE); [|lia|].
  - split; auto. rewrite Nat2Z.inj_succ, Z2Nat.id by apply Z.log2_nonneg. destruct (Z.eq_dec n 0) as [->|]; [cbn; lia|]. apply Z.log2_spec. lia.
  - exists ds. rewrite A, app_nil_r. auto.
Qed.
Lemma zeros_spelled k : spelled 10 (repeat 0 k) (repeat "0"%char k).
Proof. induction k as [|k IH]; constructor; auto. split; [lia|left; reflexivity]. Qed.
Lemma value_zeros k ds : value 10 (repeat 0 k ++ ds) = value 10 ds.
Proof. rewrite value_app. assert (value 10 (repeat 0 k) = 0) as ->; [|lia]. unfold value. induction k; cbn; auto. Qed.
Lemma lpad_spelled k n ds t : spelled 10 ds t -> value 10 ds = n -> exists es, spelled 10 es (lpad "0" k t) /\ value 10 es = n.
Proof. intros S V. exists (repeat 0 (k - length t) ++ ds). split; [apply Forall2_app; auto; apply zeros_spelled|rewrite value_zeros; auto]. Qed.

(** ** rounding *)
Lemma round_he_spec n d : 0 < d -> 2 * Z.abs (round_he n d * d - n) <= d /\ (2 * Z.abs (round_he n d * d - n) = d -> Z.even (round_he n d) = true).
Proof.
  intros D. unfold round_he. cbv zeta. pose proof (Z.div_mod n d ltac:(lia)) as DM. pose proof (Z.mod_pos_bound n d D) as MB.
  destruct (2 * (n mod d) <? d) eqn:E1; [apply Z.ltb_lt in E1; split; [nia|intro; exfalso; nia]|]. apply Z.ltb_ge in E1.
  destruct (d <? 2 * (n mod d)) eqn:E2; [apply Z.ltb_lt in E2; split; [nia|intro; exfalso; nia]|]. apply Z.ltb_ge in E2.
  destruct (Z.even (n / d)) eqn:EV; [split; [nia|auto]|]. split; [nia|]. intros _. rewrite Z.even_add, EV. reflexivity.
Qed.
(** r is the multiple of u nearest to q, ties to even *)
Definition nearest (u r q : Q) : Prop :=
  exists m : Z, (r == inject_Z m * u)%Q /\ (Qabs (r - q) <= (1 # 2) * u)%Q /\ ((Qabs (r - q) == (1 # 2) * u)%Q -> Z.even m = true).
Definition ten (e : Z) : Q := ((10 # 1) ^ e)%Q.
Definition up (e : Z) : Z := 10 ^ Z.max 0 e.
Lemma up_pos e : 0 < up e.
Proof. apply Z.pow_pos_nonneg; lia. Qed.
Lemma ten_up e : (ten e == inject_Z (up e) / inject_Z (up (- e)))%Q.
Proof.
  pose proof (dec_q_pow 1 e) as H. unfold ten. rewrite Qmult_1_l in H. rewrite <- H. clear H. unfold dec_q, up. destruct (0 <=? e) eqn:E.
  - rewrite Z.max_r by lia. rewrite (Z.max_l 0 (- e)) by lia. rewrite Z.pow_0_r, Z.mul_1_l. change (inject_Z 1) with 1%Q. field.
  - rewrite Z.max_l by lia. rewrite (Z.max_r 0 (- e)) by lia. rewrite Z.pow_0_r. assert (P : 0 < 10 ^ (- e)) by (apply Z.pow_pos_nonneg; lia).
    destruct (10 ^ (- e)) as [|p|p]; try lia. reflexivity.
Qed.
Lemma ten_le e a d : (ten e <= a # d)%Q <-> Zpos d * up e <= a * up (- e).
Proof.
  rewrite ten_up. pose proof (up_pos e). pose proof (up_pos (- e)). destruct (up e) as [|p|p], (up (- e)) as [|r|r]; try lia.
  unfold Qle, Qdiv, Qmult, Qinv, inject_Z. cbn. lia.
Qed.
Lemma ten_lt e a d : (a # d < ten e)%Q <-> a * up (- e) < Zpos d * up e.
Proof.
  split; intro H.
  - apply Z.nle_gt. intro K. apply ten_le in K. apply (Qlt_not_le _ _ H K).
  - apply Qnot_le_lt. intro K. apply ten_le in K. lia.
Qed.
Lemma ten_uniq e f q : (ten e <= q)%Q -> (q < ten (e + 1))%Q -> (ten f <= q)%Q -> (q < ten (f + 1))%Q -> e = f.
Proof.
  intros A B C D. assert (X : forall a b, (ten a < ten b)%Q -> a < b) by (intros a b K; apply (Qpower_lt_compat_l_inv (10 # 1)); [exact K|reflexivity]).
  assert (e < f + 1) by (apply X; eapply Qle_lt_trans; eauto). assert (f < e + 1) by (apply X; eapply Qle_lt_trans; eauto). lia.
Qed.
Lemma scaled_up a d k : scaled a d k = round_he (a * up (- k)) (d * up k).
Proof.
  unfold scaled, up. destruct (0 <=? k) eqn:E.
  - rewrite (Z.max_l 0 (- k)), (Z.max_r 0 k) by lia. rewrite Z.pow_0_r, Z.mul_1_r. auto.
  - rewrite (Z.max_r 0 (- k)), (Z.max_l 0 k) by lia. rewrite Z.pow_0_r, Z.mul_1_r. auto.
Qed.
Lemma nearest_scaled a d k : nearest (ten k) (inject_Z (scaled a (Zpos d) k) * ten k) (a # d).
Proof.
  rewrite scaled_up. exists (round_he (a * up (- k)) (Zpos d * up k)). split; [reflexivity|].
  pose proof (up_pos k). pose proof (up_pos (- k)). destruct (round_he_spec (a * up (- k)) (Zpos d * up k) ltac:(nia)) as [R T].
  set (m := round_he _ _) in *. rewrite ten_up. destruct (up k) as [|p|p], (up (- k)) as [|r|r]; try lia.
  assert (E : (inject_Z m * (inject_Z (Zpos p) / inject_Z (Zpos r)) - (a # d) == (m * (Zpos d * Zpos p) - a * Zpos r) # (r * d))%Q).
  { unfold Qeq, Qdiv, Qmult, Qinv, Qminus, Qplus, Qopp, inject_Z. cbn. lia. }
  rewrite E. assert (U : ((1 # 2) * (inject_Z (Zpos p) / inject_Z (Zpos r)) == (Zpos p # (2 * r)))%Q) by (unfold Qeq, Qdiv, Qmult, Qinv, inject_Z; cbn; lia).
  rewrite U. unfold Qabs. split.
  - unfold Qle. cbn [Qnum Qden]. rewrite !Pos2Z.inj_mul. nia.
  - intro Q. apply T. unfold Qeq in Q. cbn [Qnum Qden] in Q. rewrite !Pos2Z.inj_mul in Q. nia.
Qed.
Lemma nearest_opp u r q : nearest u r q -> nearest u (- r) (- q).
Proof.
  intros (m & A & B & C). exists (- m). assert (E : (- r - - q == - (r - q))%Q) by ring. rewrite E, Qabs_opp. split; [rewrite A, inject_Z_opp; ring|]. split; auto.
  intro K. rewrite Z.even_opp. auto.
Qed.
Lemma nearest_eq u r r' q q' : (r == r')%Q -> (q == q')%Q -> nearest u r q -> nearest u r' q'.
Proof. intros A B (m & M & N & T). exists m. rewrite <- A, <- B. auto. Qed.
Lemma sign_q q : (q == if q_neg q then - (Z.abs (Qnum q) # Qden q) else Z.abs (Qnum q) # Qden q)%Q.
Proof. destruct q as [a d]. unfold q_neg. cbn [Qnum Qden]. destruct (a <? 0) eqn:E; unfold Qeq, Qopp; cbn [Qnum Qden]; nia. Qed.

(** the printed fixed point number is read as the nearest one *)
Lemma fix_reads w n q o : (0 < n)%nat -> exists r f, parse_item (fix_text w n q) o = Ok (PI (VNum (NF r)) o f) /\ nearest (ten (- Z.of_nat n)) r q.
Proof.
  intros N. unfold fix_text. cbv zeta. set (m := round_he _ _). set (p := 10 ^ Z.of_nat n). assert (PP : 0 < p) by (apply Z.pow_pos_nonneg; lia).
  assert (M0 : 0 <= m).
  { unfold m, round_he. cbv zeta. assert (0 <= Z.abs (Qnum q) * 10 ^ Z.of_nat n / Z.pos (Qden q)) by (apply Z.div_pos; fold p; nia). repeat destruct (_ : bool); lia. }
  pose proof (Z.mod_pos_bound m p PP) as MM. pose proof (Z.div_mod m p ltac:(lia)) as DM.
  destruct (show_spelled 10 (m / p) ltac:(lia)) as (ip & SI & VI & NI). { apply Z.div_pos; lia. }
  destruct (show_spelled 10 (m mod p) ltac:(lia) ltac:(lia)) as (f0 & S0 & V0 & N0).
  destruct (lpad_spelled n _ _ _ S0 V0) as (fp & SF & VF).
  assert (LF : length fp = n).
  { rewrite <- (spelled_length _ _ _ SF). unfold lpad. rewrite app_length, repeat_length.
    assert (length (show_nat 10 (m mod p)) <= n)%nat; [|lia].
    eapply (length_shown 10 (m mod p)); [lia|apply show_nat_ok; lia|fold p; lia|auto]. }
  destruct (float_literal ip _ fp _ [] 0 SI SF NI no_exp) as (r & f & P & E). rewrite app_nil_r in P. rewrite LF, value_app, VI, VF, LF in E. fold p in E.
  replace (m / p * p + m mod p) with m in E by lia. rewrite Z.sub_0_l in E.
  assert (NR : nearest (ten (- Z.of_nat n)) r (Z.abs (Qnum q) # Qden q)).
  { eapply nearest_eq; [symmetry; exact E|reflexivity|]. replace m with (scaled (Z.abs (Qnum q)) (Zpos (Qden q)) (- Z.of_nat n)); [apply nearest_scaled|].
    rewrite scaled_up. unfold up, m. rewrite Z.max_r, Z.max_l by lia. rewrite Z.opp_involutive, Z.pow_0_r, Z.mul_1_r. auto. }
  destruct n as [|n]; [lia|]. change (lit "." ++ lpad "0" (S n) (show_nat 10 (m mod p))) with ("."%char :: lpad "0" (S n) (show_nat 10 (m mod p))).
  remember (show_nat 10 (m / p)) as ti eqn:Eti. remember (lpad "0" (S n) (show_nat 10 (m mod p))) as tf eqn:Etf.
  pose proof (spelled_dec _ _ SI) as DI. pose proof (spelled_dec _ _ SF) as DF.
  assert (D1 : digit_first (ti ++ "."%char :: tf)).
  { destruct ti as [|c ti]; [inversion SI; subst; congruence|]. exists c. eexists. split; [reflexivity|]. cbn in DI. apply andb_true_iff in DI. tauto. }
  assert (NS : forallb (fun c => negb (is_sp c)) (ti ++ "."%char :: tf) = true).
  { rewrite forallb_app. cbn [forallb]. change (is_sp ".") with false.
    rewrite (dg_imp (fun c => negb (is_sp c)) ti ltac:(vm_compute; reflexivity) DI), (dg_imp (fun c => negb (is_sp c)) tf ltac:(vm_compute; reflexivity) DF). auto. }
  exists (if q_neg q then (- r)%Q else r), f. split.
  - unfold lpad at 1. destruct (q_neg q); [exact (parse_item_sign SMinus _ o _ _ _ D1 NS P)|exact (parse_item_sign SNone _ o _ _ _ D1 NS P)].
  - destruct (q_neg q) eqn:QN.
    + eapply nearest_eq; [reflexivity| |apply nearest_opp; exact NR]. rewrite (sign_q q) at 3. rewrite QN. reflexivity.
    + eapply nearest_eq; [reflexivity| |exact NR]. rewrite (sign_q q) at 3. rewrite QN. reflexivity.
Qed.

(** ** exponent notation *)
Lemma value_bound b ds t : spelled b ds t -> value b ds < b ^ Z.of_nat (length ds).
Proof.
  intro S. unfold spelled in S. induction S as [|d c ds t [D _] S IH]; [unfold value; cbn; lia|].
  unfold value. cbn [fold_left length]. rewrite fold_value. rewrite Nat2Z.inj_succ, Z.pow_succ_r by lia.
  assert (0 < b ^ Z.of_nat (length ds)) by (apply Z.pow_pos_nonneg; lia). nia.
Qed.
Lemma ndig_bounds z : 0 < z -> 0 < ndig z /\ 10 ^ (ndig z - 1) <= z < 10 ^ ndig z.
Proof.
  intro Z. unfold ndig. destruct (show_spelled 10 z ltac:(lia) ltac:(lia)) as (ds & S & V & N). pose proof (show_nat_ok 10 z ltac:(lia) ltac:(lia)) as SH.
  pose proof (value_bound _ _ _ S) as B. rewrite V, <- (spelled_length _ _ _ S) in B. pose proof (sh_ne _ _ _ SH) as NE.
  split; [destruct (show_nat 10 z); [congruence|cbn; lia]|]. split; auto.
  destruct (sh_len _ _ _ SH) as [L|L]; auto. rewrite L. cbn. lia.
Qed.
(** the exponent that is computed *)
Definition expo (a : Z) (d : positive) : Z :=
  let e0 := ndig a - ndig (Zpos d) in
  if (if 0 <=? e0 then Zpos d * 10 ^ e0 <=? a else Zpos d <=? a * 10 ^ (- e0)) then e0 else e0 - 1.
Lemma expo_ok a d : 0 < a -> (ten (expo a d) <= a # d)%Q /\ (a # d < ten (expo a d + 1))%Q.
Proof.
  intros A. destruct (ndig_bounds a A) as (A0 & A1 & A2). destruct (ndig_bounds (Zpos d) ltac:(lia)) as (D0 & D1 & D2). unfold expo. cbv zeta.
  set (x := ndig a) in *. set (y := ndig (Zpos d)) in *.
  assert (T : (if 0 <=? x - y then Z.pos d * 10 ^ (x - y) <=? a else Z.pos d <=? a * 10 ^ (- (x - y))) = (Zpos d * up (x - y) <=? a * up (- (x - y)))).
  { unfold up. destruct (0 <=? x - y) eqn:E.
    - rewrite (Z.max_r 0 (x - y)), (Z.max_l 0 (- (x - y))) by lia. rewrite Z.pow_0_r, Z.mul_1_r. auto.
    - rewrite (Z.max_l 0 (x - y)), (Z.max_r 0 (- (x - y))) by lia. rewrite Z.pow_0_r, Z.mul_1_r. auto. }
  rewrite T. assert (AA : (inject_Z a == (a # d) * inject_Z (Zpos d))%Q) by (unfold Qeq, Qmult, inject_Z; cbn; lia).
  assert (H1 : (ten (x - 1) <= inject_Z a)%Q) by (unfold ten; change (10 # 1)%Q with (inject_Z 10); rewrite <- Zpower_Qpower by lia; rewrite <- Zle_Qle; auto).
  assert (H2 : (inject_Z a < ten x)%Q) by (unfold ten; change (10 # 1)%Q with (inject_Z 10); rewrite <- Zpower_Qpower by lia; rewrite <- Zlt_Qlt; auto).
  assert (H3 : (ten (y - 1) <= inject_Z (Zpos d))%Q) by (unfold ten; change (10 # 1)%Q with (inject_Z 10); rewrite <- Zpower_Qpower by lia; rewrite <- Zle_Qle; auto).
  assert (H4 : (inject_Z (Zpos d) < ten y)%Q) by (unfold ten; change (10 # 1)%Q with (inject_Z 10); rewrite <- Zpower_Qpower by lia; rewrite <- Zlt_Qlt; auto).
  assert (PL : forall u v, (ten (u + v) == ten u * ten v)%Q) by (intros; apply Qpower_plus; discriminate).
  assert (TP : forall u, (0 < ten u)%Q) by (intro; apply Qpower_0_lt; reflexivity).
  assert (DP : (0 < inject_Z (Zpos d))%Q) by reflexivity.
  destruct (Zpos d * up (x - y) <=? a * up (- (x - y))) eqn:E; [apply Z.leb_le in E; apply ten_le in E|apply Z.leb_gt in E; apply ten_lt in E].
  - split; auto. apply (Qmult_lt_r _ _ (inject_Z (Zpos d)) DP). rewrite <- AA. eapply Qlt_le_trans; [exact H2|].
    replace x with (x - y + 1 + (y - 1)) at 1 by lia. rewrite PL. rewrite Qmult_comm, (Qmult_comm _ (inject_Z (Z.pos d))). apply Qmult_le_compat_r; auto. apply Qlt_le_weak; auto.
  - replace (x - y - 1 + 1) with (x - y) by lia. split; auto. apply Qlt_le_weak. apply (Qmult_lt_r _ _ (inject_Z (Zpos d)) DP). rewrite <- AA. eapply Qlt_le_trans; [|exact H1].
    replace (x - 1) with (x - y - 1 + y) by lia. rewrite PL, Qmult_comm, (Qmult_comm (ten (x - y - 1))). apply Qmult_lt_compat_r; auto.
Qed.
Lemma round_bounds n d l u : 0 < d -> l * d <= n -> n < u * d -> l <= round_he n d <= u.
Proof.
  intros D L U. assert (l <= n / d) by (apply Z.div_le_lower_bound; lia). assert (n / d < u) by (apply Z.div_lt_upper_bound; lia).
  unfold round_he. cbv zeta. repeat match goal with |- context [if ?b then _ else _] => destruct b end; lia.
Qed.
Lemma exp_reads w n q o : (0 < n)%nat -> exists r f, parse_item (exp_text w n q) o = Ok (PI (VNum (NF r)) o f) /\
  ((q == 0)%Q -> (r == 0)%Q) /\ forall e, (ten e <= Qabs q)%Q -> (Qabs q < ten (e + 1))%Q -> nearest (ten (e - Z.of_nat n)) r q.
Proof.
  intros N. unfold exp_text. cbv zeta. set (a := Z.abs (Qnum q)). set (d := Qden q). set (k := Z.of_nat n).
  fold (expo a d). set (e := expo a d) in *. set (me := if a =? 0 then _ else _).
  assert (ME : 0 <= fst me < 10 ^ (k + 1) /\ (a = 0 -> fst me = 0) /\ (a <> 0 -> (inject_Z (fst me) * ten (snd me - k) == inject_Z (scaled a (Zpos d) (e - k)) * ten (e - k))%Q)).
  { unfold me. destruct (a =? 0) eqn:A0; cbn [fst snd]; [apply Z.eqb_eq in A0; split; [split; [lia|apply Z.pow_pos_nonneg; lia]|tauto]|].
    apply Z.eqb_neq in A0. assert (A : 0 < a) by lia. destruct (expo_ok a d A) as [E1 E2]. fold e in E1, E2.
    assert (B : 10 ^ k <= scaled a (Zpos d) (e - k) <= 10 ^ (k + 1)).
    { rewrite scaled_up. pose proof (up_pos (e - k)). pose proof (up_pos (- (e - k))).
      assert (PL : forall u v, (ten (u + v) == ten u * ten v)%Q) by (intros; apply Qpower_plus; discriminate).
      assert (Q10 : forall j, 0 <= j -> (ten j == inject_Z (10 ^ j))%Q) by (intros j J; unfold ten; change (10 # 1)%Q with (inject_Z 10); rewrite Zpower_Qpower by lia; reflexivity).
      replace e with (k + (e - k)) in E1 by lia. replace (e + 1) with (k + 1 + (e - k)) in E2 by lia. rewrite PL, Q10, ten_up in E1 by lia. rewrite PL, Q10, ten_up in E2 by lia.
      set (K := 10 ^ k) in *. set (K1 := 10 ^ (k + 1)) in *. apply round_bounds; [nia| |]; destruct (up (e - k)) as [|p|p], (up (- (e - k))) as [|r|r]; try lia.
      - unfold Qle, Qdiv, Qmult, Qinv, inject_Z in E1. cbn in E1. nia.
      - unfold Qlt, Qdiv, Qmult, Qinv, inject_Z in E2. cbn in E2. nia. }
    split; [|split; [tauto|]]; destruct (scaled a (Z.pos d) (e - k) =? 10 ^ (k + 1)) eqn:M; cbn [fst snd]; intros.
    - split; [apply Z.pow_nonneg; lia|]. apply Z.pow_lt_mono_r; lia.
    - apply Z.eqb_neq in M. split; [|lia]. assert (0 <= 10 ^ k) by (apply Z.pow_nonneg; lia). lia.
    - apply Z.eqb_eq in M. rewrite M. replace (k + 1) with (Z.succ k) by lia. rewrite Z.pow_succ_r by lia. replace (e + 1 - k) with (1 + (e - k)) by lia.
      unfold ten. rewrite Qpower_plus by discriminate. rewrite inject_Z_mult. change ((10 # 1) ^ 1)%Q with (inject_Z 10). ring.
    - reflexivity. }
  destruct me as [m x]. cbn [fst snd] in ME. destruct ME as ([M0 M1] & MZ & MV).
  destruct (show_spelled 10 m ltac:(lia) M0) as (f0 & S0 & V0 & N0). destruct (lpad_spelled (S n) _ _ _ S0 V0) as (ds & SD & VD).
  assert (LD : length ds = S n).
  { rewrite <- (spelled_length _ _ _ SD). unfold lpad. rewrite app_length, repeat_length.
    assert (length (show_nat 10 m) <= S n)%nat; [|lia].
    eapply (length_shown 10 m); [lia|apply show_nat_ok; lia| |lia]. replace (Z.of_nat (S n)) with (k + 1) by lia. lia. }
  destruct ds as [|d0 ds]; [discriminate|]. destruct (lpad "0" (S n) (show_nat 10 m)) as [|c t] eqn:LP; [inversion SD|].
  inversion SD as [|x1 x2 x3 x4 C0 ST X5 X6]. subst x1 x2 x3 x4.
  destruct (show_spelled 10 (Z.abs x) ltac:(lia) ltac:(lia)) as (g0 & T0 & W0 & NG0). destruct (lpad_spelled 2 _ _ _ T0 W0) as (es & SE & VE).
  assert (NE : es <> []).
  { intro K. subst es. apply spelled_length in SE. cbn [length] in SE. unfold lpad in SE. rewrite app_length, repeat_length in SE. apply spelled_length in T0. destruct g0; [congruence|cbn in T0; lia]. }
  set (et := "e"%char :: sign_text (if x <? 0 then SMinus else SPlus) ++ lpad "0" 2 (show_nat 10 (Z.abs x))).
  assert (EX : exponent et x).
  { replace x with (signed (if x <? 0 then SMinus else SPlus) (value 10 es)) at 1; [apply some_exp; auto|]. rewrite VE. destruct (x <? 0) eqn:X0; cbn; lia. }
  destruct (float_literal [d0] [c] ds t et x) as (r & f & P & E); auto; [constructor; [exact C0|constructor]|discriminate|].
  cbn [app] in P. change ([d0] ++ ds) with (d0 :: ds) in E. rewrite VD in E. assert (length ds = n) as L by (cbn in LD; lia). rewrite L in E. fold k in E. fold (ten (x - k)) in E.
  exists (if q_neg q then (- r)%Q else r), f. split; [|split].
  - assert (TX : (c :: match n with O => [] | S _ => lit "." ++ t end) ++ lit "e" ++ (if x <? 0 then lit "-" else lit "+") ++ lpad "0" 2 (show_nat 10 (Z.abs x)) = c :: "."%char :: t ++ et).
    { destruct n as [|n0]; [lia|]. unfold et. change (lit ".") with ["."%char]. change (lit "e") with ["e"%char]. destruct (x <? 0); reflexivity. }
    rewrite TX.
    assert (DC : is_digit c = true) by (apply (digit_char_ok d0 c ltac:(lia)); [tauto|lia]).
    assert (D1 : digit_first (c :: "."%char :: t ++ et)) by (exists c; eexists; split; [reflexivity|auto]).
    assert (NS : forallb (fun c => negb (is_sp c)) (c :: "."%char :: t ++ et) = true).
    { cbn [forallb]. rewrite forallb_app. change (is_sp ".") with false. pose proof (spelled_dec _ _ ST) as DT.
      rewrite (dg_imp (fun c => negb (is_sp c)) t ltac:(vm_compute; reflexivity) DT).
      pose proof (dg_imp (fun c => negb (is_sp c)) [c] ltac:(vm_compute; reflexivity)) as DD. cbn [forallb] in DD. rewrite DC in DD. specialize (DD eq_refl). rewrite andb_true_r in DD. rewrite DD.
      cbn [andb negb]. destruct (exponent_ok _ _ EX) as [[K _]|(y & z & _ & _ & _ & W)]; [discriminate|]. revert W. apply forallb_imp. intros y0 Y. apply andb_true_iff in Y. tauto. }
    unfold lpad at 1. destruct (q_neg q); [exact (parse_item_sign SMinus _ o _ _ _ D1 NS P)|exact (parse_item_sign SNone _ o _ _ _ D1 NS P)].
  - intro Q0. assert (a = 0) as A0 by (unfold a; unfold Qeq in Q0; cbn in Q0; lia). rewrite (MZ A0) in E. assert (r == 0)%Q by (rewrite E; ring). destruct (q_neg q); rewrite H; reflexivity.
  - intros e' H1 H2. assert (QA : (Qabs q == a # d)%Q) by (destruct q; reflexivity). rewrite QA in H1, H2.
    assert (A0 : a <> 0).
    { intro A0. rewrite A0 in H1. assert (T : (0 < ten e')%Q) by (apply Qpower_0_lt; reflexivity). apply (Qlt_irrefl 0). eapply Qlt_le_trans; [exact T|].
      eapply Qle_trans; [exact H1|]. unfold Qle. cbn. lia. }
    destruct (expo_ok a d ltac:(lia)) as [E1 E2]. fold e in E1, E2. assert (e' = e) as -> by (eapply ten_uniq; eauto).
    assert (NR : nearest (ten (e - k)) r (a # d)).
    { eapply nearest_eq; [|reflexivity|apply nearest_scaled]. rewrite E. symmetry. apply MV. auto. }
    destruct (q_neg q) eqn:QN.
    + eapply nearest_eq; [reflexivity| |apply nearest_opp; exact NR]. rewrite (sign_q q). rewrite QN. reflexivity.
    + eapply nearest_eq; [reflexivity| |exact NR]. rewrite (sign_q q). rewrite QN. reflexivity.
Qed.

(** ** numerals *)
Lemma numeral_nn t x : numeral t x -> x <> NaN.
Proof. destruct 1; try discriminate. destruct s; discriminate. Qed.
Lemma hx_okc t : forallb hx t = true -> forallb okc t = true.
Proof. apply hx_imp. vm_compute. reflexivity. Qed.
Lemma clean_signed s t : clean t -> clean (sign_text s ++ t).
Proof.
  intro C. destruct s; [exact C| |exact (clean_sign true t C)]. destruct C as [A B D E]. change (sign_text SPlus) with ["+"%char]. constructor; cbn [app].
  - discriminate.
  - cbn [forallb]. rewrite B. reflexivity.
  - cbn [infixb]. rewrite D. reflexivity.
  - intros c r X. injection X as <- _. reflexivity.
Qed.
Lemma hx_nodot t : forallb hx t = true -> find_char "." t = None.
Proof. intro H. apply (find_none hx "." t); auto. intros d D. apply negb_true_iff. revert d D. apply char_imp. vm_compute. reflexivity. Qed.
Lemma okc_nosp' t : forallb okc t = true -> forallb (fun c => negb (is_sp c)) t = true.
Proof. apply forallb_imp, char_imp. vm_compute. reflexivity. Qed.
Lemma numeral_reads t x : numeral t x -> clean t /\ exists y f, neq y x /\ forall o, parse_item t o = Ok (PI (VNum y) o f).
Proof.
  destruct 1 as [s p b ds t BP SP NE Z0|s ip ti fp tf et e SI SF NE EX|s].
  - assert (BB : b <= 16) by (destruct BP; lia). pose proof (spelled_hx b ds t BB SP) as HX.
    destruct (int_literal p b ds t BP SP NE Z0) as (f & P).
    assert (NT : t <> []) by (intro K; subst t; inversion SP; subst; congruence).
    assert (C : clean (p ++ t)).
    { constructor.
      - destruct p, t; discriminate || congruence.
      - rewrite forallb_app, (hx_okc t HX). destruct BP; reflexivity.
      - apply nodot_dd. destruct BP; cbn; rewrite ?(hx_nodot t HX); reflexivity.
      - intros c r X. destruct BP; cbn in X; try (injection X as <- _; reflexivity). subst t. cbn in HX. apply andb_true_iff in HX. destruct HX as [HX _].
        apply negb_true_iff. revert HX. clear. revert c. apply char_imp. vm_compute. reflexivity. }
    split; [apply clean_signed; auto|]. exists (match s with SMinus => num_neg (NI (value b ds)) | _ => NI (value b ds) end), f. split.
    + destruct s; cbn [num_neg signed]; apply neq_refl; discriminate.
    + intro o. refine (parse_item_sign s (p ++ t) o _ f 0 _ (okc_nosp' _ (cl_ok _ C)) P). destruct BP; try (eexists _, _; split; [reflexivity|reflexivity]).
      cbn [app]. destruct t as [|c r]; [congruence|]. exists c, r. split; auto. pose proof (spelled_dec _ _ SP) as D. cbn in D. apply andb_true_iff in D. tauto.
  - destruct (float_literal ip ti fp tf et e SI SF NE EX) as (q & f & P & E). pose proof (spelled_dec _ _ SI) as DI. pose proof (spelled_dec _ _ SF) as DF.
    assert (HI : forallb hx ti = true) by (eapply spelled_hx; [|eauto]; lia). assert (HF : forallb hx tf = true) by (eapply spelled_hx; [|eauto]; lia).
    assert (EO : forallb okc et = true /\ find_char "." et = None).
    { destruct EX as [|c s0 gs g C0 NG SG]; [split; reflexivity|]. assert (HG : forallb hx g = true) by (eapply spelled_hx; [|eauto]; lia). split.
      - cbn [forallb]. rewrite forallb_app, (hx_okc g HG). destruct C0 as [->| ->], s0; reflexivity.
      - destruct C0 as [->| ->], s0; cbn; rewrite (hx_nodot g HG); reflexivity. }
    destruct EO as [EO EN]. destruct ti as [|c ti]; [inversion SI; subst; congruence|].
    assert (DC : is_digit c = true) by (cbn in DI; apply andb_true_iff in DI; tauto).
    assert (C : clean ((c :: ti) ++ "."%char :: tf ++ et)).
    { constructor.
      - discriminate.
      - rewrite forallb_app, (hx_okc _ HI). cbn [forallb]. rewrite forallb_app, (hx_okc tf HF), EO. reflexivity.
      - apply onedot_dd; [apply hx_nodot; auto|]. revert EN HF. clear. induction tf as [|d tf IH]; cbn [app find_char forallb]; auto. intros EN HF. apply andb_true_iff in HF. destruct HF as [A B].
        rewrite IH by auto. assert (Ascii.eqb d "." = false) as ->; auto. apply negb_true_iff. revert A. clear. revert d. apply char_imp. vm_compute. reflexivity.
      - intros c' r X. cbn in X. injection X as <- _. apply negb_true_iff. revert DC. clear. revert c. apply char_imp. vm_compute. reflexivity. }
    split; [apply clean_signed; auto|]. exists (match s with SMinus => num_neg (NF q) | _ => NF q end), f. split.
    + destruct s; cbn [num_neg signed]; apply neq_NF; rewrite E; auto; try reflexivity. rewrite inject_Z_opp. ring.
    + intro o. refine (parse_item_sign s _ o _ f 0 _ (okc_nosp' _ (cl_ok _ C)) P). exists c. eexists. split; [reflexivity|auto].
  - split.
    + destruct s; constructor; try discriminate; try reflexivity; intros c r X; injection X as <- _; reflexivity.
    + exists (match s with SMinus => NInf | _ => PInf end), FStr. destruct s; (split; [apply neq_refl; discriminate|intro o; reflexivity]).
Qed.
(** numbers that are equal make equal intervals *)
Lemma above_neq a a' o v : neq a a' -> (above (a, o) v <-> above (a', o) v).
Proof. intro E. unfold above. cbn [fst snd]. destruct o; [unfold nlt; rewrite (neq_le_l a a' v E), (neq_le_r a a' v E)|rewrite (neq_le_l a a' v E)]; tauto. Qed.
Lemma under_neq a a' o v : neq a a' -> (under (a, o) v <-> under (a', o) v).
Proof. intro E. unfold under. cbn [fst snd]. destruct o; [unfold nlt; rewrite (neq_le_l a a' v E), (neq_le_r a a' v E)|rewrite (neq_le_r a a' v E)]; tauto. Qed.
Lemma in_interval_neq a a' b b' oa ob n c v : neq a a' -> neq b b' -> (in_interval (a, oa) (b, ob) n c v <-> in_interval (a', oa) (b', ob) n c v).
Proof.
  intros A B. unfold in_interval, between. cbn [fst]. pose proof (neq_le_l a a' b A). pose proof (neq_le_r b b' a' B). pose proof (neq_le_l b b' a B). pose proof (neq_le_r a a' b' A).
  pose proof (above_neq a a' oa v A). pose proof (above_neq b b' ob v B). pose proof (under_neq a a' oa v A). pose proof (under_neq b b' ob v B). destruct c; tauto.
Qed.
