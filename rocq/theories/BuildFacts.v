(** Proofs about builder definition strings: what the parser makes of the text, and membership. *)
From Coq Require Import QArith Ascii.
From Verif Require Import Base MathSet MathSpec MathFacts MathStr MathStrFacts MathBuild BuildSpec.
Local Open Scope Z_scope.

(** ** the regular expression *)
Lemma okc_vchar c : okc c = vchar c.
Proof.
  assert (H : forallb (fun c => Bool.eqb (okc c) (vchar c)) all_chars = true) by (vm_compute; reflexivity).
  apply Bool.eqb_prop. apply (char_all (fun c => Bool.eqb (okc c) (vchar c)) H c).
Qed.
Lemma okc_vchars t : forallb okc t = forallb vchar t.
Proof. induction t as [|c t IH]; auto. cbn [forallb]. rewrite okc_vchar, IH. auto. Qed.
Lemma cls_neq (P : ascii -> bool) d c : P d = false -> P c = true -> Ascii.eqb c d = false.
Proof. intros D C. destruct (Ascii.eqb_spec c d) as [E|]; auto. subst. congruence. Qed.
Lemma span_app p a c r : forallb p a = true -> p c = false -> span p (a ++ c :: r) = (a, c :: r).
Proof.
  induction a as [|d a IH]; intros H K; cbn [app span].
  - rewrite K. auto.
  - cbn [forallb] in H. apply andb_prop in H as [H1 H2]. rewrite H1, (IH H2 K). auto.
Qed.
Lemma span_all p a : forallb p a = true -> span p a = (a, []).
Proof. induction a as [|d a IH]; intro H; auto. cbn [forallb] in H. apply andb_prop in H as [H1 H2]. cbn [span]. rewrite H1, (IH H2). auto. Qed.
Definition rel_op (r : rel) : rop := match r with RLe => OLe | RLt => OLt | RGe => OGe | RGt => OGt end.
Definition noteq (t : text) : Prop := match t with c :: _ => Ascii.eqb c "=" = false | [] => True end.
Lemma take_rel_text r t : noteq t -> take_rel (rel_text r ++ t) = Some (rel_op r, t).
Proof. destruct t as [|c t]; destruct r; cbn; intro H; try rewrite H; auto. Qed.
Lemma rel_head r t : exists c u, rel_text r ++ t = c :: u /\ vchar c = false.
Proof. destruct r; (eexists _, _; split; [reflexivity|reflexivity]). Qed.
Lemma alpha_noteq c : is_alpha c = true -> Ascii.eqb c "=" = false.
Proof. intro H. apply Bool.negb_true_iff. revert c H. apply char_imp. vm_compute. reflexivity. Qed.
Lemma alpha_vchar c : is_alpha c = true -> vchar c = true.
Proof. revert c. apply char_imp. vm_compute. reflexivity. Qed.
Lemma vchar_noteq t : forallb vchar t = true -> noteq t.
Proof.
  destruct t as [|c t]; cbn [noteq]; auto. intro H. cbn [forallb] in H. apply andb_prop in H as [H _].
  apply Bool.negb_true_iff. revert c H. apply char_imp. vm_compute. reflexivity.
Qed.
Lemma take_rel_vchar t : forallb vchar t = true -> take_rel t = None.
Proof.
  destruct t as [|c t]; auto. intro H. cbn [forallb] in H. apply andb_prop in H as [H _]. unfold take_rel.
  rewrite (cls_neq vchar "<" c), (cls_neq vchar ">" c) by auto. auto.
Qed.
Lemma stmt_left x a r : is_alpha x = true -> forallb vchar a = true -> stmt x (a ++ rel_text r ++ [x]) = Some (ST a (Some (rel_op r)) None []).
Proof.
  intros X A. unfold stmt. destruct (rel_head r [x]) as (c & u & E & V). rewrite E, (span_app vchar a c u A V), <- E.
  assert (N : noteq [x]) by (cbn; apply alpha_noteq; auto). unfold take_op. rewrite (take_rel_text r [x] N), Ascii.eqb_refl. cbn [take_rel]. auto.
Qed.
Lemma stmt_right x r b : is_alpha x = true -> forallb vchar b = true -> b <> [x] -> stmt x (x :: rel_text r ++ b) = Some (ST [] None (Some (rel_op r)) b).
Proof.
  intros X B NX. unfold stmt. destruct (rel_head r b) as (c & u & E & V).
  change (x :: rel_text r ++ b) with ([x] ++ (rel_text r ++ b)). rewrite E. rewrite (span_app vchar [x] c u); [|cbn [forallb]; rewrite (alpha_vchar x X); auto|exact V].
  rewrite <- E. assert (N : noteq b) by (apply vchar_noteq; auto). unfold take_op_e, take_op. rewrite (take_rel_text r b N).
  cbn [app]. rewrite Ascii.eqb_refl, B. destruct b as [|y b']; auto.
  cbn [forallb] in B. apply andb_prop in B as [_ B']. rewrite (take_rel_vchar b' B').
  destruct (Ascii.eqb_spec y x) as [E1|]; [|destruct b'; auto]. subst y. destruct b' as [|z b']; [congruence|auto].
Qed.
Lemma stmt_both x a r r' b : is_alpha x = true -> forallb vchar a = true -> forallb vchar b = true ->
  stmt x (a ++ rel_text r ++ x :: rel_text r' ++ b) = Some (ST a (Some (rel_op r)) (Some (rel_op r')) b).
Proof.
  intros X A B. unfold stmt. destruct (rel_head r (x :: rel_text r' ++ b)) as (c & u & E & V). rewrite E, (span_app vchar a c u A V), <- E.
  assert (N : noteq (x :: rel_text r' ++ b)) by (cbn; apply alpha_noteq; auto). unfold take_op.
  rewrite (take_rel_text r _ N), Ascii.eqb_refl, (take_rel_text r' b (vchar_noteq b B)), B. auto.
Qed.
(** characters of a statement *)
Definition schar (c : ascii) : bool := vchar c || Ascii.eqb c "<" || Ascii.eqb c ">" || Ascii.eqb c "=" || Ascii.eqb c "!".
Lemma schar_v t : forallb vchar t = true -> forallb schar t = true.
Proof. apply forallb_imp. intros c H. unfold schar. rewrite H. auto. Qed.
Lemma schar_rel r : forallb schar (rel_text r) = true.
Proof. destruct r; reflexivity. Qed.
Lemma schar_not d t : schar d = false -> forallb schar t = true -> forallb (fun c => negb (is_c d c)) t = true.
Proof. intro D. apply forallb_imp. intros c H. unfold is_c. destruct (Ascii.eqb_spec c d) as [E|]; auto. subst c. congruence. Qed.
Definition last_st (x : ascii) (t : text) : option (bstmt * bool) :=
  match cut (is_c "}") t with
  | (t2, Some after) => match stmt x t2, after with Some s2, [] => Some (s2, false) | Some s2, [q] => if Ascii.eqb q "'" then Some (s2, true) else None | _, _ => None end
  | _ => None
  end.
Lemma builder_re_body x body : is_alpha x = true ->
  builder_re ("{"%char :: x :: "|"%char :: body) =
  match cut (is_c ",") body with
  | (t1, Some r2) => match stmt x t1, last_st x r2 with Some s1, Some (s2, q) => Some (Some s1, s2, q) | _, _ => None end
  | (_, None) => match last_st x body with Some (s2, q) => Some (None, s2, q) | None => None end
  end.
Proof. intro X. unfold builder_re. rewrite X. cbn [Ascii.eqb Bool.eqb andb]. reflexivity. Qed.
Lemma last_st_ok x t s q : forallb schar t = true -> stmt x t = Some s -> last_st x (t ++ "}"%char :: quote_text q) = Some (s, q).
Proof.
  intros T S. unfold last_st. rewrite (cut_at (is_c "}") t "}" (quote_text q)); [|apply schar_not; auto|reflexivity]. rewrite S. destruct q; reflexivity.
Qed.
Lemma builder_one x t s q : is_alpha x = true -> forallb schar t = true -> stmt x t = Some s ->
  builder_re ("{"%char :: x :: "|"%char :: t ++ "}"%char :: quote_text q) = Some (None, s, q).
Proof.
  intros X T S. rewrite builder_re_body by auto. rewrite (cut_none (is_c ",")).
  - rewrite (last_st_ok x t s q T S). auto.
  - rewrite forallb_app. rewrite schar_not by auto. destruct q; reflexivity.
Qed.
Lemma builder_two x t1 s1 t2 s2 q : is_alpha x = true -> forallb schar t1 = true -> stmt x t1 = Some s1 -> forallb schar t2 = true -> stmt x t2 = Some s2 ->
  builder_re ("{"%char :: x :: "|"%char :: (t1 ++ ","%char :: t2) ++ "}"%char :: quote_text q) = Some (Some s1, s2, q).
Proof.
  intros X T1 S1 T2 S2. rewrite builder_re_body by auto. rewrite <- app_assoc. cbn [app].
  rewrite (cut_at (is_c ",") t1 ","); [|apply schar_not; auto|reflexivity]. rewrite S1, (last_st_ok x t2 s2 q T2 S2). auto.
Qed.

(** ** literals *)
Lemma good_not_var l x : good l -> is_alpha x = true -> l_text l <> [x].
Proof.
  intros [_ [f P]] X E. rewrite E in P. unfold parse_item in P.
  assert (S : strip is_sp [x] = [x]).
  { apply strip_none. cbn [forallb]. unfold is_sp. rewrite (cls_neq is_alpha " " x) by auto. auto. }
  rewrite S in P. unfold var_start in P. rewrite X in P.
  assert (I : text_eqb [x] (lit "inf") = false).
  { unfold text_eqb. destruct (list_eq_dec _ _ _) as [K|]; auto. discriminate K. }
  rewrite I in P. cbn [andb negb] in P. destruct (forallb var_char [x]); discriminate.
Qed.
Lemma good_ne l : good l -> l_text l <> [].
Proof. intros [_ [f P]] E. rewrite E in P. discriminate P. Qed.
Lemma good_parse l o : good l -> exists f, parse_item (l_text l) o = Ok (PI (VNum (l_num l)) o f).
Proof. intros [_ [f P]]. exists f. apply parse_item_flag. exact P. Qed.
Lemma good_v l : good l -> forallb vchar (l_text l) = true.
Proof. intros [H _]. rewrite <- okc_vchars. exact H. Qed.
Lemma parse_num_real t n f : parse_num t = Some (n, f) -> n <> NaN.
Proof.
  unfold parse_num. intro H. destruct (find_char "." t).
  - destruct (py_float t); inversion H; subst; discriminate.
  - destruct t as [|c r]; [discriminate|]. destruct (Ascii.eqb c "0").
    + destruct r as [|x r]; [discriminate|]. repeat match type of H with context [if ?b then _ else _] => destruct b end;
        match type of H with option_map _ ?o = _ => destruct o end; inversion H; subst; discriminate.
    + destruct (py_int 10 (c :: r)); inversion H; subst; discriminate.
Qed.
Lemma good_real l : good l -> l_num l <> NaN.
Proof.
  intros [_ [f P]]. unfold parse_item in P. destruct (strip is_sp (l_text l)) as [|c r]; [discriminate|].
  destruct (var_start c && negb (text_eqb (c :: r) (lit "inf"))); [destruct (forallb var_char (c :: r)); discriminate|].
  destruct (num_start c); [|discriminate].
  destruct (if Ascii.eqb c "-" then (true, strip is_sp r) else if Ascii.eqb c "+" then (false, strip is_sp r) else (false, c :: r)) as [neg v].
  destruct (text_eqb v (lit "inf")).
  - injection P as E _. rewrite <- E. destruct neg; discriminate.
  - destruct (parse_num v) as [[n g]|] eqn:E; [|discriminate]. injection P as P _. rewrite <- P. apply parse_num_real in E.
    destruct neg; auto. destruct n; auto; discriminate.
Qed.

(** ** limits *)
(** a closed limit with a number *)
Definition fixed (b : bitem) (n : num) : Prop := bi_open b = false /\ (bi_val b = BV (VNum n) \/ exists o, bi_val b = BW (SI (VNum n) o)).
Definition lo_num (o : option bitem) (n : num) : Prop := match o with Some b => fixed b n | None => n = NInf end.
Definition hi_num (o : option bitem) (n : num) : Prop := match o with Some b => fixed b n | None => n = PInf end.
Lemma fixed_num b n : fixed b n -> bnum (bi_val b) = Some n.
Proof. intros [_ [H|[o H]]]; rewrite H; reflexivity. Qed.
Lemma fixed_wrap n o f : fixed (wrap (PI (VNum n) o f)) n.
Proof. split; auto. right. exists o. auto. Qed.
Lemma fixed_lo b n v d : fixed b n -> bcmp_lo false (bsubst d (bi_val b)) v = Ok (num_le n v).
Proof. intros [_ [H|[o H]]]; rewrite H; reflexivity. Qed.
Lemma fixed_hi b n v d : fixed b n -> bcmp_hi false (bsubst d (bi_val b)) v = Ok (num_le v n).
Proof. intros [_ [H|[o H]]]; rewrite H; reflexivity. Qed.
Lemma closed_member lo hi l u v d c : lo_num lo l -> hi_num hi u -> nle l u ->
  exists r, b_contains (mk_biv lo hi false c) v d = Ok r /\ (r = true <-> flip c (nle l v /\ nle v u)).
Proof.
  intros A B LU.
  assert (exists lo', (match lo with Some i => i | None => BI (BV (VNum NInf)) false end) = lo' /\ fixed lo' l) as (lo' & E1 & F1).
  { destruct lo as [i|]; eexists; (split; [reflexivity|]); auto. cbn in A. subst l. split; auto. }
  assert (exists hi', (match hi with Some i => i | None => BI (BV (VNum PInf)) false end) = hi' /\ fixed hi' u) as (hi' & E2 & F2).
  { destruct hi as [i|]; eexists; (split; [reflexivity|]); auto. cbn in B. subst u. split; auto. }
  unfold mk_biv. rewrite E1, E2, (fixed_num _ _ F1), (fixed_num _ _ F2).
  assert (NL : num_lt u l = false). { destruct (num_lt u l) eqn:E; auto. apply num_lt_iff in E. destruct E. contradiction. }
  rewrite NL. assert (X : (if bval_eq (bi_val hi') (bi_val lo') && (negb (bi_open lo') || negb (bi_open hi')) then BIV lo' hi' false false false c
    else BIV lo' hi' (bi_open lo') (bi_open hi') false c) = BIV lo' hi' false false false c).
  { destruct F1 as [-> _], F2 as [-> _]. destruct (bval_eq _ _ && _); auto. }
  rewrite X. unfold b_contains. cbn [bv_int bv_lstrict bv_ustrict bv_lo bv_hi bv_compl].
  unfold rbind at 1. rewrite (fixed_lo _ _ v d F1), (fixed_hi _ _ v d F2). cbn [rbind].
  assert (Y : (nle l v /\ nle v u) <-> (if num_le l v then num_le v u else false) = true).
  { rewrite <- !num_le_iff. destruct (num_le l v); intuition congruence. }
  unfold flip. destruct (num_le l v) eqn:L.
  - cbn [rbind]. exists (xorb c (num_le v u)). split; auto. destruct c, (num_le v u); cbn [xorb]; rewrite Y; intuition congruence.
  - cbn [rbind]. exists (xorb c false). split; auto. destruct c; cbn [xorb]; rewrite Y; intuition congruence.
Qed.

(** ** evaluating bounds *)
(** what is known about the local variables: a lower limit l only when one was given, and u *)
Record known (s : bstate) (l u : num) (pre : bool) : Prop := K0 {
  k_lo : lo_num (b_lo s) l; k_hi : hi_num (b_hi s) u; k_int : b_int s = false; k_eq : b_eq s = false; k_pre : b_pre s = pre; k_real : u <> NaN }.
Lemma limit_lo_ok s l u pre a open : known s l u pre -> b_lo s = None -> good a ->
  exists s', limit_lo s (l_text a) open = Ok s' /\ known s' (l_num a) u pre /\ b_hi s' = b_hi s.
Proof.
  intros K N G. destruct (good_parse a open G) as [f P]. unfold limit_lo. rewrite P. cbn [rbind]. rewrite N. cbn [repl_lower set_lo].
  eexists. split; [reflexivity|]. destruct K. split; auto. constructor; cbn; auto. apply fixed_wrap.
Qed.
Lemma nle_min a n : a <> NaN -> n <> NaN -> forall v, nle v a -> nle a n -> nle v n.
Proof. intros _ _ v. apply nle_trans. Qed.
Lemma limit_hi_ok s l u pre a open : known s l u pre -> good a ->
  exists s' u', limit_hi s (l_text a) open = Ok s' /\ known s' l u' pre /\ b_lo s' = b_lo s /\ (forall v, nle v u' <-> nle v u /\ nle v (l_num a)).
Proof.
  intros K G. destruct (good_parse a open G) as [f P]. pose proof (good_real a G) as R. unfold limit_hi. rewrite P. cbn [rbind]. destruct K as [K1 K2 K3 K4 K5 K6].
  destruct (b_hi s) as [b|] eqn:H.
  - cbn [repl_upper]. rewrite K4. assert (b_isvar b = false) as ->. { destruct K2 as [_ [E|[o E]]]; unfold b_isvar; rewrite E; auto. }
    cbn [pi_val pi_open]. unfold b_gt, b_ge. rewrite (fixed_num b u K2).
    assert (X : forall b' u', (if (if open then num_lt (l_num a) u else num_le (l_num a) u) then (b', u') = (wrap (PI (VNum (l_num a)) open f), l_num a) else (b', u') = (b, u)) ->
      fixed b' u' /\ u' <> NaN /\ (forall v, nle v u' <-> nle v u /\ nle v (l_num a))).
    { intros b' u' E. destruct (if open then num_lt (l_num a) u else num_le (l_num a) u) eqn:C.
      - injection E as -> ->. split; [apply fixed_wrap|]. split; auto. assert (LE : nle (l_num a) u).
        { destruct open; [apply num_lt_iff in C; apply C|apply num_le_iff; auto]. }
        intro v. split; [|tauto]. intro W. split; auto. eapply nle_trans; eauto.
      - injection E as -> ->. split; auto. split; auto. assert (LE : nle u (l_num a)).
        { destruct open.
          - apply num_lt_false; auto.
          - destruct (nle_total u (l_num a) K6 R) as [|W]; auto. apply num_le_iff in W. congruence. }
        intro v. split; [|tauto]. intro W. split; auto. eapply nle_trans; eauto. }
    destruct (if open then num_lt (l_num a) u else num_le (l_num a) u) eqn:C.
    + destruct (X _ _ eq_refl) as (F & N & V). cbn [set_hi]. eexists _, (l_num a). split; [reflexivity|]. split; [constructor; cbn; auto|]. split; auto.
    + destruct (X _ _ eq_refl) as (F & N & V). cbn [set_hi]. eexists _, u. split; [reflexivity|]. split; [constructor; cbn; auto|]. split; auto.
  - cbn [repl_upper set_hi]. eexists _, (l_num a). split; [reflexivity|]. split; [constructor; cbn; auto; apply fixed_wrap|]. split; auto.
    cbn in K2. subst u. intro v. split; [|tauto]. intro W. split; auto. destruct v; cbn; auto; destruct (l_num a); cbn in W; contradiction.
Qed.
(** one relation: a r x (side true) or x r a (side false) *)
Definition rel_side (side : bool) (r : rel) : bool := if side then up_left r else negb (up_left r).
Definition step (side : bool) (r : rel) (s : bstate) (t : text) : res bstate :=
  if rel_side side r then limit_lo s t (negb (non_strict r)) else limit_hi s t (negb (non_strict r)).
Definition wcmp (side : bool) (r : rel) (a v : num) : Prop := if rel_side side r then nle a v else nle v a.
Lemma step_ok side r s l u pre a : known s l u pre -> good a -> (rel_side side r = true -> b_lo s = None) ->
  exists s' l' u', step side r s (l_text a) = Ok s' /\ known s' l' u' pre /\
    (rel_side side r = false -> b_lo s' = b_lo s) /\
    (forall v, v <> NaN -> (nle l' v /\ nle v u') <-> (nle l v /\ nle v u) /\ wcmp side r (l_num a) v).
Proof.
  intros K G N. unfold step, wcmp. destruct (rel_side side r).
  - destruct (limit_lo_ok s l u pre a (negb (non_strict r)) K (N eq_refl) G) as (s' & E & K' & H). exists s', (l_num a), u.
    split; auto. split; auto. split; [discriminate|]. destruct K as [K1 _ _ _ _ _]. rewrite (N eq_refl) in K1. cbn in K1. subst l.
    intros v NV. assert (nle NInf v) by (destruct v; cbn; auto; congruence). tauto.
  - destruct (limit_hi_ok s l u pre a (negb (non_strict r)) K G) as (s' & u' & E & K' & H & V). exists s', l, u'.
    split; auto. split; auto. split; auto. intros v _. rewrite V. tauto.
Qed.
Lemma known0 pre : known (BS None None false false pre) NInf PInf pre.
Proof. constructor; cbn; auto. discriminate. Qed.
Definition bound_stmt (s : sentence) : bstmt :=
  match s with
  | SLeft a r => ST (l_text a) (Some (rel_op r)) None []
  | SRight r b => ST [] None (Some (rel_op r)) (l_text b)
  | SBoth a r r' b => ST (l_text a) (Some (rel_op r)) (Some (rel_op r')) (l_text b)
  end.
Lemma sentence_stmt x s : is_alpha x = true -> s_good s -> stmt x (s_text x s) = Some (bound_stmt s) /\ forallb schar (s_text x s) = true.
Proof.
  intros X G. pose proof (alpha_vchar x X) as XV.
  assert (XS : schar x = true) by (unfold schar; rewrite XV; auto).
  destruct s as [a r|r b|a r r' b]; cbn [s_good] in G; cbn [s_text bound_stmt].
  - split; [apply stmt_left; auto; apply good_v; auto|]. rewrite !forallb_app, (schar_v _ (good_v _ G)), schar_rel. cbn [forallb]. rewrite XS. auto.
  - split; [apply stmt_right; auto; [apply good_v; auto|apply good_not_var; auto]|]. cbn [forallb]. rewrite XS, forallb_app, (schar_v _ (good_v _ G)), schar_rel. auto.
  - destruct G as [GA GB]. split; [apply stmt_both; auto; apply good_v; auto|].
    rewrite forallb_app, forallb_app. cbn [forallb]. rewrite forallb_app, XS, !schar_rel, (schar_v _ (good_v _ GA)), (schar_v _ (good_v _ GB)). auto.
Qed.
Definition lower_bit (s : bstate) : nat := match b_lo s with Some _ => 1 | None => 0 end.
Lemma eval2_steps s st : eval2 (bound_stmt s) st =
  match s with
  | SLeft a r => step true r st (l_text a)
  | SRight r b => step false r st (l_text b)
  | SBoth a r r' b => rbind (step true r st (l_text a)) (fun st => step false r' st (l_text b))
  end.
Proof.
  assert (I : forall r : res bstate, rbind r (fun s => Ok s) = r) by (intros []; reflexivity).
  destruct s as [a r|r b|a r r' b]; unfold eval2; cbn [bound_stmt st_lo st_uo st_lv st_uv].
  - destruct r; cbn [rel_op]; rewrite I; reflexivity.
  - cbn [rbind]. destruct r; reflexivity.
  - destruct r, r'; reflexivity.
Qed.
Lemma eval1_eval2 s s2 st : eval1 (bound_stmt s) s2 st = eval2 (bound_stmt s) st.
Proof.
  destruct s as [a r|r b|a r r' b]; unfold eval1, eval2; cbn [bound_stmt st_lo st_uo st_lv st_uv].
  - destruct r; reflexivity.
  - destruct r; reflexivity.
  - destruct r, r'; reflexivity.
Qed.
Lemma weak_wcmp s v : holds (weak s) v <->
  match s with SLeft a r => wcmp true r (l_num a) v | SRight r b => wcmp false r (l_num b) v | SBoth a r r' b => wcmp true r (l_num a) v /\ wcmp false r' (l_num b) v end.
Proof. destruct s as [a r|r b|a r r' b]; cbn [weak holds]; unfold wcmp; [destruct r| destruct r|destruct r, r']; cbn; reflexivity. Qed.
Lemma lower_none st : (lower_bit st <= 0)%nat -> b_lo st = None.
Proof. unfold lower_bit. destruct (b_lo st); auto. lia. Qed.
Lemma sentence_ok s st l u pre : known st l u pre -> s_good s -> (lower_bit st + n_lower s <= 1)%nat ->
  exists st' l' u', eval2 (bound_stmt s) st = Ok st' /\ known st' l' u' pre /\ (n_lower s = 0%nat -> b_lo st' = b_lo st) /\
    (forall v, v <> NaN -> (nle l' v /\ nle v u') <-> (nle l v /\ nle v u) /\ holds (weak s) v).
Proof.
  intros K G N. rewrite eval2_steps. destruct s as [a r|r b|a r r' b]; cbn [s_good n_lower] in G, N.
  - destruct (step_ok true r st l u pre a K G) as (st' & l' & u' & E & K' & B & V).
    { cbn [rel_side]. intro X. rewrite X in N. cbn in N. apply lower_none. lia. }
    exists st', l', u'. split; auto. split; auto. split; [cbn; intro Z; apply B; cbn; destruct (up_left r); auto; discriminate|].
    intros v NV. rewrite V by auto. rewrite weak_wcmp. tauto.
  - destruct (step_ok false r st l u pre b K G) as (st' & l' & u' & E & K' & B & V).
    { cbn [rel_side]. intro X. rewrite X in N. cbn in N. apply lower_none. lia. }
    exists st', l', u'. split; auto. split; auto. split; [cbn; intro Z; apply B; cbn; destruct (up_left r); auto; discriminate|].
    intros v NV. rewrite V by auto. rewrite weak_wcmp. tauto.
  - destruct G as [GA GB]. destruct (step_ok true r st l u pre a K GA) as (st' & l' & u' & E & K' & B & V).
    { cbn [rel_side]. intro X. rewrite X in N. cbn in N. apply lower_none. lia. }
    rewrite E. cbn [rbind]. destruct (step_ok false r' st' l' u' pre b K' GB) as (st2 & l2 & u2 & E2 & K2 & B2 & V2).
    { cbn [rel_side]. intro X. destruct (up_left r) eqn:UR.
      - rewrite X in N. cbn in N. lia.
      - rewrite X in N. cbn in N. rewrite B by (cbn; auto). apply lower_none. lia. }
    exists st2, l2, u2. split; auto. split; auto. split.
    + intro Z. cbn in Z. destruct (up_left r) eqn:UR; cbn in Z; [discriminate|]. rewrite B2, B; auto. cbn. destruct (up_left r'); auto; discriminate.
    + intros v NV. rewrite V2, V by auto. rewrite weak_wcmp. tauto.
Qed.
(** ** the whole text *)
Lemma split_spaced s (compl : bool) r : no_sp s = (if compl then lit "!" else []) ++ "{"%char :: r ->
  exists d, split_bang s = Ok (compl, "{"%char :: d) /\ no_sp ("{"%char :: d) = "{"%char :: r.
Proof.
  intro H. unfold split_bang. destruct (strip is_sp s) as [|c t] eqn:E.
  - rewrite (no_sp_nil _ E) in H. destruct compl; discriminate.
  - pose proof (no_sp_head _ _ _ E) as X. rewrite H in X. destruct compl.
    + change (lit "!" ++ "{"%char :: r) with ("!"%char :: "{"%char :: r) in X. injection X as <- X. cbn [Ascii.eqb Bool.eqb].
      destruct (strip is_sp t) as [|c t'] eqn:E'; [rewrite (no_sp_nil _ E') in X; discriminate|]. pose proof (no_sp_head _ _ _ E') as Y.
      rewrite <- X in Y. injection Y as <- Y. exists t'. split; auto. rewrite Y. auto.
    + cbn [app] in X. injection X as <- X. exists t. split; auto. rewrite X. auto.
Qed.
Lemma builder_spaced s compl x body q : no_sp s = b_text compl x body q ->
  builder_str s = match builder_re ("{"%char :: x :: "|"%char :: body ++ "}"%char :: quote_text q) with
                  | None => Err TypeError
                  | Some (s1, s2, quote) =>
                      let s0 := BS None None false false compl in
                      rbind (rbind (match s1 with
                                    | Some s1 => if empty_t (st_lv s1) && empty_t (st_uv s1) then Ok s0 else eval1 s1 s2 s0
                                    | None => Ok s0
                                    end) (fun s => rbind (eval2 s2 s) (fun s => Ok (s, xorb (b_pre s) quote))))
                            (fun '(s, c) => Ok (mk_biv (b_lo s) (b_hi s) (b_int s) c))
                  end.
Proof.
  intro H. unfold b_text in H. destruct (split_spaced s compl _ H) as (d & E & N). unfold builder_str. rewrite E. cbn [Ascii.eqb Bool.eqb orb].
  unfold builder_of, parse_builder. rewrite N. destruct (builder_re _) as [[[s1 s2] quote]|]; reflexivity.
Qed.
Definition body1 (x : ascii) (s : sentence) : text := s_text x s.
Lemma sat_le l u P : (forall v, v <> NaN -> (nle l v /\ nle v u) <-> P v) -> (exists v, v <> NaN /\ P v) -> nle l u.
Proof. intros V (v & NV & H). apply V in H; auto. destruct H. eapply nle_trans; eauto. Qed.
Lemma nan_not_holds s v : holds (weak s) v -> v <> NaN.
Proof.
  intros H E. subst v. apply weak_wcmp in H.
  assert (X : forall side r a, ~ wcmp side r a NaN). { intros side r a. unfold wcmp. destruct (rel_side side r); destruct a; cbn; auto. }
  destruct s as [a r|r b|a r r' b]; [apply (X true r _ H)|apply (X false r _ H)|apply (X true r _ (proj1 H))].
Qed.
Lemma one_denotes s x st compl q : no_sp s = b_text compl x (s_text x st) q -> is_alpha x = true -> s_good st -> (n_lower st <= 1)%nat ->
  (exists v, holds (weak st) v) -> denotes s (fun v => flip (xorb compl q) (holds (weak st) v)) false.
Proof.
  intros H X G N (v0 & V0). unfold denotes. rewrite (builder_spaced _ _ _ _ _ H). destruct (sentence_stmt x st X G) as [S C].
  rewrite (builder_one x _ _ q X C S). cbn [rbind].
  destruct (sentence_ok st _ _ _ compl (known0 compl) G N) as (st' & l & u & E & K & _ & V).
  rewrite E. cbn [rbind]. destruct K as [K1 K2 K3 K4 K5 K6]. rewrite K3, K5. eexists. split; [reflexivity|]. intros v d _.
  assert (LU : nle l u). { destruct (proj2 (V v0 (nan_not_holds st v0 V0))) as [A B]. { split; auto. pose proof (nan_not_holds st v0 V0). split; destruct v0; cbn; auto; congruence. } eapply nle_trans; eauto. }
  destruct (closed_member _ _ l u v d (xorb compl q) K1 K2 LU) as (r & R & M). exists r. split; auto. rewrite M.
  assert (Y : (nle l v /\ nle v u) <-> holds (weak st) v).
  { split.
    - intros [A B]. assert (NV : v <> NaN) by (apply nle_nn in A; tauto). apply V; auto.
    - intro W. pose proof (nan_not_holds st v W) as NV. apply V; auto. split; auto. split; destruct v; cbn; auto; congruence. }
  unfold flip. destruct (xorb compl q); tauto.
Qed.
Lemma two_denotes s x st1 st2 compl q : no_sp s = b_text compl x (s_text x st1 ++ ","%char :: s_text x st2) q -> is_alpha x = true -> s_good st1 -> s_good st2 ->
  (n_lower st1 + n_lower st2 <= 1)%nat ->
  (exists v, holds (weak st1) v /\ holds (weak st2) v) -> denotes s (fun v => flip (xorb compl q) (holds (weak st1) v /\ holds (weak st2) v)) false.
Proof.
  intros H X G1 G2 N (v0 & V1 & V2). unfold denotes. rewrite (builder_spaced _ _ _ _ _ H).
  destruct (sentence_stmt x st1 X G1) as [S1 C1]. destruct (sentence_stmt x st2 X G2) as [S2 C2].
  rewrite (builder_two x _ _ _ _ q X C1 S1 C2 S2). cbn [rbind].
  assert (EM : empty_t (st_lv (bound_stmt st1)) && empty_t (st_uv (bound_stmt st1)) = false).
  { destruct st1 as [a r|r b|a r r' b]; cbn [bound_stmt st_lv st_uv s_good] in *.
    - pose proof (good_ne a G1). destruct (l_text a); auto. congruence.
    - pose proof (good_ne b G1). destruct (l_text b); auto. congruence.
    - pose proof (good_ne a (proj1 G1)). destruct (l_text a); auto. congruence. }
  rewrite EM, eval1_eval2. destruct (sentence_ok st1 _ _ _ compl (known0 compl) G1) as (st' & l1 & u1 & E1 & K & B1 & W1). { cbn. lia. }
  rewrite E1. cbn [rbind]. destruct (sentence_ok st2 _ _ _ compl K G2) as (st'' & l & u & E & K' & _ & W2).
  { destruct (n_lower st1) as [|k] eqn:Z.
    - unfold lower_bit. rewrite B1 by auto. cbn. lia.
    - assert (n_lower st2 = 0%nat) by lia. unfold lower_bit. destruct (b_lo st'); lia. }
  rewrite E. cbn [rbind]. destruct K' as [K1 K2 K3 K4 K5 K6]. rewrite K3, K5. eexists. split; [reflexivity|]. intros v d _.
  assert (V : forall v, (nle l v /\ nle v u) <-> (holds (weak st1) v /\ holds (weak st2) v)).
  { clear v. intro v. split.
    - intros [A B]. assert (NV : v <> NaN) by (apply nle_nn in A; tauto). destruct (proj1 (W2 v NV)) as [Y Z]; auto. apply W1 in Y; tauto.
    - intros [Y Z]. pose proof (nan_not_holds st1 v Y) as NV. apply W2; auto. split; auto. apply W1; auto. split; auto. split; destruct v; cbn; auto; congruence. }
  assert (LU : nle l u). { destruct (proj2 (V v0)) as [A B]; auto. eapply nle_trans; eauto. }
  destruct (closed_member _ _ l u v d (xorb compl q) K1 K2 LU) as (r & R & M). exists r. split; auto. rewrite M.
  unfold flip. destruct (xorb compl q); rewrite V; tauto.
Qed.

(** ** equality *)
Definition eq_rop (o : eqop) : rop := if eq_neg o then ONe else OEq.
Lemma take_op_eq o t : noteq t -> take_rel (eq_text o ++ t) = None /\ take_op (eq_text o ++ t) = Some (eq_rop o, t).
Proof. destruct t as [|c t]; destruct o; cbn; intro H; try rewrite H; auto. Qed.
Lemma eq_head o t : exists c u, eq_text o ++ t = c :: u /\ vchar c = false.
Proof. destruct o; (eexists _, _; split; [reflexivity|reflexivity]). Qed.
Lemma stmt_eq_left x a o : is_alpha x = true -> forallb vchar a = true -> stmt x (a ++ eq_text o ++ [x]) = Some (ST a (Some (eq_rop o)) None []).
Proof.
  intros X A. unfold stmt. destruct (eq_head o [x]) as (c & u & E & V). rewrite E, (span_app vchar a c u A V), <- E.
  destruct (take_op_eq o [x]) as [T1 T2]; [cbn; apply alpha_noteq; auto|]. rewrite T1, T2, Ascii.eqb_refl. auto.
Qed.
Lemma stmt_eq_right x o b : is_alpha x = true -> forallb vchar b = true -> b <> [x] -> stmt x (x :: eq_text o ++ b) = Some (ST [] None (Some (eq_rop o)) b).
Proof.
  intros X B NX. unfold stmt. destruct (eq_head o b) as (c & u & E & V).
  change (x :: eq_text o ++ b) with ([x] ++ (eq_text o ++ b)). rewrite E. rewrite (span_app vchar [x] c u); [|cbn [forallb]; rewrite (alpha_vchar x X); auto|exact V].
  rewrite <- E. destruct (take_op_eq o b (vchar_noteq b B)) as [T1 T2]. unfold take_op_e. rewrite T1, T2. cbn [app].
  rewrite Ascii.eqb_refl, B. destruct b as [|y [|z b']]; auto. destruct (Ascii.eqb_spec y x) as [E1|]; auto. subst y. congruence.
Qed.
Lemma eq_schar o : forallb schar (eq_text o) = true.
Proof. destruct o; reflexivity. Qed.
Definition eq_body (x : ascii) (left : bool) (a : literal) (o : eqop) : text := if left then l_text a ++ eq_text o ++ [x] else x :: eq_text o ++ l_text a.
Lemma equal_denotes s x left a o compl q : no_sp s = b_text compl x (eq_body x left a o) q -> is_alpha x = true -> good a ->
  denotes s (fun v => flip (xorb (xorb compl q) (eq_neg o)) (neq v (l_num a))) false.
Proof.
  intros H X G. unfold denotes. rewrite (builder_spaced _ _ _ _ _ H). pose proof (good_v a G) as V. pose proof (alpha_vchar x X) as XV.
  assert (XS : schar x = true) by (unfold schar; rewrite XV; auto).
  destruct (good_parse a false G) as [f P]. pose proof (good_real a G) as R.
  assert (Q : exists st, builder_re ("{"%char :: x :: "|"%char :: eq_body x left a o ++ "}"%char :: quote_text q) = Some (None, st, q) /\
                eval2 st (BS None None false false compl) =
                Ok (BS (Some (direct (PI (VNum (l_num a)) false f))) (Some (direct (PI (VNum (l_num a)) false f))) false true (xorb (eq_neg o) compl))).
  { destruct left; cbn [eq_body].
    - eexists. split; [apply builder_one; [auto| |apply stmt_eq_left; auto]|].
      + rewrite !forallb_app, (schar_v _ V), eq_schar. cbn [forallb]. rewrite XS. auto.
      + unfold eval2. cbn [st_lo st_uo st_lv]. unfold eq_rop. destruct (eq_neg o); cbn; rewrite P; reflexivity.
    - eexists. split; [apply builder_one; [auto| |apply stmt_eq_right; auto; apply good_not_var; auto]|].
      + cbn [forallb]. rewrite forallb_app, (schar_v _ V), eq_schar, XS. auto.
      + unfold eval2. cbn [st_lo st_uo st_uv rbind]. unfold eq_rop. destruct (eq_neg o); cbn; rewrite P; reflexivity. }
  destruct Q as (st & -> & E). cbn [rbind]. rewrite E. cbn [rbind b_lo b_hi b_int b_pre]. eexists. split; [reflexivity|]. intros v d _.
  assert (F : fixed (direct (PI (VNum (l_num a)) false f)) (l_num a)) by (split; auto).
  destruct (closed_member _ _ (l_num a) (l_num a) v d (xorb (xorb (eq_neg o) compl) q) (F : lo_num (Some _) _) (F : hi_num (Some _) _) (nle_refl _ R)) as (r & E1 & M).
  exists r. split; auto. rewrite M. replace (xorb (xorb compl q) (eq_neg o)) with (xorb (xorb (eq_neg o) compl) q) by (destruct compl, q, (eq_neg o); auto).
  unfold neq. unfold flip. destruct (xorb (xorb (eq_neg o) compl) q); tauto.
Qed.

(** ** domains *)
(** limits without a hidden open flag behave as in the interval object *)
Definition plain (b : bitem) (n : num) (o : bool) : Prop := (bi_val b = BV (VNum n) \/ bi_val b = BW (SI (VNum n) false)) /\ bi_open b = o.
Lemma plain_member lo hi l ol u ou ints c v d : plain lo l ol -> plain hi u ou ->
  b_contains (mk_biv (Some lo) (Some hi) ints c) v d = iv_contains (mk (Some (l, ol)) (Some (u, ou)) ints c) (TNum v) d.
Proof.
  intros [A1 A2] [B1 B2]. unfold mk_biv, mk, mk_interval, option_map, bnd. cbn [fst snd si_val si_open].
  assert (EA : bnum (bi_val lo) = Some l) by (destruct A1 as [-> | ->]; reflexivity). assert (EB : bnum (bi_val hi) = Some u) by (destruct B1 as [-> | ->]; reflexivity).
  rewrite EA, EB.
  assert (EQ : forall a b x y, (bi_val a = BV (VNum x) \/ bi_val a = BW (SI (VNum x) false)) -> (bi_val b = BV (VNum y) \/ bi_val b = BW (SI (VNum y) false)) ->
    bval_eq (bi_val a) (bi_val b) = num_eq x y).
  { assert (SY : forall x y, num_eq y x = num_eq x y) by (intros x y; unfold num_eq; apply andb_comm).
    intros a b x y [-> | ->] [-> | ->]; cbn; auto; destruct (num_eq x y) eqn:E1, (num_eq y x) eqn:E2; auto; rewrite SY in E2; congruence. }
  assert (LO : forall st a x, (bi_val a = BV (VNum x) \/ bi_val a = BW (SI (VNum x) false)) -> bcmp_lo st (bsubst d (bi_val a)) v = Ok (op_le st x v)) by (intros st a x [-> | ->]; reflexivity).
  assert (HI : forall st a x, (bi_val a = BV (VNum x) \/ bi_val a = BW (SI (VNum x) false)) -> bcmp_hi st (bsubst d (bi_val a)) v = Ok (op_le st v x)) by (intros st a x [-> | ->]; reflexivity).
  destruct (num_lt u l).
  - rewrite (EQ lo hi l u A1 B1), A2, B2. cbn [si_val si_open val_eq]. unfold b_contains, iv_contains, iv_test, iv_num, limits.
    destruct (num_eq l u && (negb ou || negb ol)); cbn [bv_int bv_lstrict bv_ustrict bv_lo bv_hi bv_compl iv_int iv_lstrict iv_ustrict iv_lo iv_hi iv_compl];
      rewrite (LO _ hi u B1), (HI _ lo l A1); reflexivity.
  - rewrite (EQ hi lo u l B1 A1), A2, B2. cbn [si_val si_open val_eq]. unfold b_contains, iv_contains, iv_test, iv_num, limits.
    destruct (num_eq u l && (negb ol || negb ou)); cbn [bv_int bv_lstrict bv_ustrict bv_lo bv_hi bv_compl iv_int iv_lstrict iv_ustrict iv_lo iv_hi iv_compl];
      rewrite (LO _ lo l A1), (HI _ hi u B1); reflexivity.
Qed.
Definition lim (b : num * bool) : limit := if snd b then LOpen (fst b) else LNum (fst b).
Lemma domain_table D ints lo hi : In (D, ints, lo, hi) domains ->
  get_set_data (lit D) = Ok (ints, lim lo, lim hi) /\ forallb vchar (lit D) = true /\ lit D <> [] /\ nlt (fst lo) (fst hi).
Proof.
  unfold domains. cbn [In]. intro H.
  repeat (destruct H as [H|H]; [injection H as <- <- <- <-; split; [vm_compute; reflexivity|]; split; [reflexivity|]; split; [discriminate|]; apply num_lt_iff; reflexivity|]). destruct H.
Qed.
Definition e_char (big : bool) : ascii := if big then "E"%char else "e"%char.
Lemma stmt_in x big D : is_alpha x = true -> forallb vchar D = true -> stmt x (x :: e_char big :: D) = Some (ST [] None (Some OIn) D).
Proof.
  intros X V. unfold stmt. rewrite span_all.
  - cbn [take_rel take_op]. rewrite Ascii.eqb_refl. unfold take_op_e, take_op. rewrite take_rel_vchar; [|destruct big; cbn [forallb e_char]; rewrite V; auto].
    destruct big; cbn [e_char Ascii.eqb Bool.eqb is_e orb]; rewrite V; reflexivity.
  - cbn [forallb]. rewrite (alpha_vchar x X), V. destruct big; auto.
Qed.
Lemma in_schar x big D : is_alpha x = true -> forallb vchar D = true -> forallb schar (x :: e_char big :: D) = true.
Proof. intros X V. apply schar_v. cbn [forallb]. rewrite (alpha_vchar x X), V. destruct big; auto. Qed.
Definition dom_item (b : num * bool) : bitem := BI (BV (VNum (fst b))) (snd b).
Lemma repl_none b e : repl_upper None (lim b) e = Ok (dom_item b).
Proof. destruct b as [n []]; reflexivity. Qed.
Lemma between_lt a b v : nlt (fst a) (fst b) -> (between a b v <-> above a v /\ under b v).
Proof. intros [L N]. unfold between. tauto. Qed.
Lemma interval_denotes i lo hi l ol u ou ints c : i = mk_biv (Some lo) (Some hi) ints c -> plain lo l ol -> plain hi u ou -> nle l u -> ~ half_open_point (l, ol) (u, ou) ->
  (~ nlt l u -> ol = false) ->
  forall v d, (ints = true -> finite v) -> exists r, b_contains i v d = Ok r /\ (r = true <-> flip c (in_domain ints (l, ol) (u, ou) v)).
Proof.
  intros -> PL PH LE HO CL v d FV. rewrite (plain_member _ _ _ _ _ _ _ _ v d PL PH).
  destruct (membership (Some (l, ol)) (Some (u, ou)) ints c v d HO FV) as (r & E & M). exists r. split; auto. rewrite M. cbn [lower_of upper_of].
  assert (X : between (l, ol) (u, ou) v <-> above (l, ol) v /\ under (u, ou) v).
  { unfold between. cbn [fst]. split; [|tauto]. intros [W|(W1 & W2 & W3)]; [tauto|].
    assert (ol = false) as -> by (apply CL; intros [_ Z]; auto). assert (ou = false) as -> by (destruct ou; auto; exfalso; apply HO; split; [split; auto|discriminate]).
    unfold above, under in *. cbn [fst snd] in *. split; eapply nle_trans; eauto; eapply nle_trans; eauto. }
  unfold in_interval, flip, in_domain. destruct c; tauto.
Qed.
Lemma domain_denotes s x big D ints lo hi compl q : no_sp s = b_text compl x (x :: e_char big :: lit D) q -> is_alpha x = true -> In (D, ints, lo, hi) domains ->
  denotes s (fun v => flip (xorb compl q) (in_domain ints lo hi v)) ints.
Proof.
  intros H X I. destruct (domain_table _ _ _ _ I) as (T & V & NE & LT). unfold denotes. rewrite (builder_spaced _ _ _ _ _ H).
  rewrite (builder_one x _ _ q X (in_schar x big _ X V) (stmt_in x big _ X V)). cbn [rbind]. unfold eval2. cbn [st_lo st_uo st_uv rbind].
  unfold limit_in. rewrite T. cbn [rbind b_lo b_hi]. rewrite !repl_none. cbn [rbind b_lo b_hi b_int b_pre]. eexists. split; [reflexivity|].
  destruct lo as [l ol], hi as [u ou]. apply (interval_denotes _ _ _ l ol u ou ints _ eq_refl); [split; auto|split; auto|apply LT| |intro N; contradiction].
  intros [[_ N] _]. destruct LT as [_ K]. contradiction.
Qed.
(** domain and upper bound, in either order *)
Definition upper_sentence (b : literal) (s : sentence) : Prop := s = SRight RLe b \/ s = SLeft b RGe.
Lemma upper_eval b s st : upper_sentence b s -> eval2 (bound_stmt s) st = limit_hi st (l_text b) false.
Proof. intros [-> | ->]; rewrite eval2_steps; reflexivity. Qed.
Lemma domain_upper_denotes s x big D ints lo hi compl q b st first :
  no_sp s = b_text compl x (if first : bool then (x :: e_char big :: lit D) ++ ","%char :: s_text x st else s_text x st ++ ","%char :: x :: e_char big :: lit D) q ->
  is_alpha x = true -> In (D, ints, lo, hi) domains -> good b -> upper_sentence b st -> nlt (l_num b) (fst hi) ->
  (exists v, in_domain ints lo hi v /\ nle v (l_num b)) ->
  denotes s (fun v => flip (xorb compl q) (in_domain ints lo hi v /\ nle v (l_num b))) ints.
Proof.
  intros H X I G U LT (v0 & D0 & V0). destruct (domain_table _ _ _ _ I) as (T & V & NE & _).
  assert (SG : s_good st) by (destruct U as [-> | ->]; exact G). destruct (sentence_stmt x st X SG) as [S C].
  destruct (good_parse b false G) as [f P]. set (hb := wrap (PI (VNum (l_num b)) false f)).
  assert (Q : exists i, builder_str s = Ok i /\ i = mk_biv (Some (dom_item lo)) (Some hb) ints (xorb compl q)).
  { rewrite (builder_spaced _ _ _ _ _ H). clear H. destruct first.
    - rewrite (builder_two x _ _ _ _ q X (in_schar x big _ X V) (stmt_in x big _ X V) C S). cbn [st_lv st_uv empty_t andb].
      assert (empty_t (lit D) = false) as -> by (destruct (lit D); auto; congruence).
      assert (EQ : is_eq_op (st_lo (bound_stmt st)) || is_eq_op (st_uo (bound_stmt st)) = false) by (destruct U as [-> | ->]; reflexivity).
      unfold eval1. cbn [st_lo st_uo st_uv rbind]. rewrite EQ. unfold limit_in. rewrite T. cbn [rbind b_lo b_hi]. rewrite !repl_none. cbn [rbind b_eq b_pre].
      rewrite (upper_eval b) by auto. unfold limit_hi. rewrite P. cbn [rbind b_hi b_eq]. unfold repl_upper. cbn [dom_item b_isvar bi_val pi_val pi_open].
      assert (b_ge (dom_item hi) (l_num b) = true) as X1. { unfold b_ge. cbn. apply num_le_iff. apply LT. }
      rewrite X1. cbn [set_hi rbind b_pre b_lo b_hi b_int]. eexists. split; [reflexivity|]. reflexivity.
    - rewrite (builder_two x _ _ _ _ q X C S (in_schar x big _ X V) (stmt_in x big _ X V)).
      assert (EM : empty_t (st_lv (bound_stmt st)) && empty_t (st_uv (bound_stmt st)) = false).
      { pose proof (good_ne b G). destruct U as [-> | ->]; cbn [bound_stmt st_lv st_uv]; destruct (l_text b); auto; congruence. }
      rewrite EM. cbn zeta. rewrite eval1_eval2, (upper_eval b) by auto. unfold limit_hi at 1. rewrite P. cbn [rbind b_hi repl_upper set_hi b_lo b_int b_eq b_pre].
      unfold eval2. cbn [st_lo st_uo st_uv rbind]. unfold limit_in. rewrite T. cbn [rbind b_lo b_hi b_eq b_pre]. rewrite repl_none. cbn [rbind].
      assert (Y : repl_upper (Some hb) (lim hi) false = Ok hb).
      { unfold repl_upper, lim. cbn [hb wrap b_isvar bi_val]. destruct LT as [L N]. destruct (snd hi).
        - assert (b_gt hb (fst hi) = false) as -> ; auto. unfold b_gt. cbn. destruct (num_lt (fst hi) (l_num b)) eqn:E; auto. apply num_lt_iff in E. destruct E; contradiction.
        - assert (b_ge hb (fst hi) = false) as -> ; auto. unfold b_ge. cbn. destruct (num_le (fst hi) (l_num b)) eqn:E; auto. apply num_le_iff in E. contradiction. }
      change (BI (BW (pi_si (PI (VNum (l_num b)) false f))) false) with hb. fold hb. rewrite Y. cbn [rbind b_lo b_hi b_int b_pre]. eexists. split; reflexivity. }
  destruct Q as (i & E & Ei). exists i. split; auto. destruct lo as [l ol]. intros v d FV.
  assert (LB : nle l (l_num b) /\ (~ nlt l (l_num b) -> ol = false)).
  { destruct D0 as [A _]. unfold above in A. cbn [fst snd] in A. destruct ol.
    - destruct A as [A1 A2]. split; [eapply nle_trans; eauto|]. intro N. exfalso. apply N. split; [eapply nle_trans; eauto|]. intro Z. apply A2. eapply nle_trans; eauto.
    - split; [eapply nle_trans; eauto|auto]. }
  destruct LB as [LB CL].
  destruct (interval_denotes i _ _ l ol (l_num b) false ints (xorb compl q) Ei) with (v := v) (d := d) as (r & R & M); auto.
  - split; auto.
  - split; auto.
  - intros [[_ N] O]. cbn [fst snd] in *. rewrite CL in O by (intros [_ Z]; contradiction). auto.
  - exists r. split; auto. rewrite M. assert (Y : in_domain ints (l, ol) (l_num b, false) v <-> in_domain ints (l, ol) hi v /\ nle v (l_num b)).
    { unfold in_domain. unfold under at 1. cbn [fst snd]. split; [|tauto]. intros (A & B & C0). repeat split; auto.
      destruct LT as [L N]. unfold under. destruct (snd hi); [|eapply nle_trans; eauto]. split; [eapply nle_trans; eauto|]. intro Z. apply N. eapply nle_trans; eauto. }
    unfold flip. destruct (xorb compl q); tauto.
Qed.

(** ** short forms: a text with a relation sign is no single bound *)
Definition bad (c : ascii) : bool := Ascii.eqb c "<" || Ascii.eqb c ">" || Ascii.eqb c "=".
Lemma bad_cls (P : ascii -> bool) : P "<"%char = false -> P ">"%char = false -> P "="%char = false -> forall c, P c = true -> bad c = false.
Proof. intros A B C c H. unfold bad. rewrite (cls_neq P "<" c), (cls_neq P ">" c), (cls_neq P "=" c); auto. Qed.
Notation has t := (existsb bad t).
Lemma has_lstrip (p : ascii -> bool) t : (forall c, p c = true -> bad c = false) -> has (lstrip p t) = has t.
Proof. intro P. induction t as [|c t IH]; auto. cbn [lstrip]. destruct (p c) eqn:E; auto. cbn [existsb]. rewrite (P c E). auto. Qed.
Lemma has_rev t : has (rev t) = has t.
Proof. induction t as [|c t IH]; auto. cbn [rev]. rewrite existsb_app, IH. cbn. destruct (bad c), (has t); auto. Qed.
Lemma has_strip (p : ascii -> bool) t : (forall c, p c = true -> bad c = false) -> has (strip p t) = has t.
Proof. intro P. unfold strip. rewrite has_rev, has_lstrip, has_rev, has_lstrip by auto. auto. Qed.
Lemma has_sign t : has (snd (sign_of t)) = has t.
Proof.
  destruct t as [|c t]; auto. unfold sign_of. destruct (Ascii.eqb_spec c "-") as [->|_]; [reflexivity|]. destruct (Ascii.eqb_spec c "+") as [->|_]; reflexivity.
Qed.
Lemma has_digs b t : has t = true -> forall acc a, digs b acc a t = None.
Proof.
  induction t as [|c t IH]; [discriminate|]. cbn [existsb]. intros H acc a. cbn [digs]. apply orb_prop in H.
  destruct (Ascii.eqb_spec c "_") as [E|_].
  - subst c. destruct H as [H|H]; [discriminate|]. destruct a; auto.
  - destruct (digit_val c) eqn:D; auto. destruct (z <? b); auto. destruct H as [H|H]; auto. exfalso.
    assert (X : bad c = false); [|congruence]. apply (bad_cls (fun c => match digit_val c with Some _ => true | None => false end)); auto. rewrite D. auto.
Qed.
Lemma has_py_int b t : has t = true -> py_int b t = None.
Proof.
  intro H. unfold py_int. rewrite <- (has_strip is_ws t) in H by (apply bad_cls; reflexivity). rewrite <- has_sign in H. destruct (sign_of (strip is_ws t)) as [neg s]. cbn [snd] in H.
  destruct s as [|z [|x r]]; [discriminate|rewrite has_digs; auto|].
  destruct (Ascii.eqb z "0" && ((Ascii.eqb (to_lower x) "x" && (b =? 16)) || (Ascii.eqb (to_lower x) "o" && (b =? 8)) || (Ascii.eqb (to_lower x) "b" && (b =? 2)))) eqn:E.
  - apply andb_prop in E as [Z X]. apply Ascii.eqb_eq in Z. subst z.
    assert (BX : bad x = false). { apply (bad_cls (fun x => Ascii.eqb (to_lower x) "x" || Ascii.eqb (to_lower x) "o" || Ascii.eqb (to_lower x) "b")); auto.
      apply orb_prop in X as [X|X]; [apply orb_prop in X as [X|X]|]; apply andb_prop in X as [X _]; rewrite X; destruct (Ascii.eqb (to_lower x) "x"), (Ascii.eqb (to_lower x) "o"); auto. }
    cbn [existsb] in H. rewrite BX in H. cbn [orb] in H. change (bad "0"%char) with false in H. cbn [orb] in H.
    destruct r as [|u r]; [discriminate|]. destruct (Ascii.eqb_spec u "_") as [E|_]; [subst u; cbn [existsb] in H|]; rewrite has_digs; auto.
  - rewrite has_digs; auto.
Qed.
Lemma has_cut p t a o : cut p t = (a, o) -> (forall c, p c = true -> bad c = false) -> has t = has a || match o with Some r => has r | None => false end.
Proof.
  intros H P. revert a o H. induction t as [|c t IH]; intros a o H; cbn [cut] in H.
  - injection H as <- <-. auto.
  - destruct (p c) eqn:E.
    + injection H as <- <-. cbn [existsb]. rewrite (P c E). auto.
    + destruct (cut p t) as [a' o'] eqn:C. injection H as <- <-. cbn [existsb]. rewrite (IH _ _ eq_refl), orb_assoc. auto.
Qed.
Lemma has_dig_part t : has t = true -> dig_part t = None.
Proof. intro H. unfold dig_part. destruct t as [|c t]; [discriminate|]. rewrite has_digs; auto. Qed.
Lemma has_py_float t : has t = true -> py_float t = None.
Proof.
  intro H. unfold py_float. rewrite <- (has_strip is_ws t) in H by (apply bad_cls; reflexivity). rewrite <- has_sign in H. destruct (sign_of (strip is_ws t)) as [neg s]. cbn [snd] in H.
  destruct (cut is_e s) as [mant ex] eqn:C1. rewrite (has_cut _ _ _ _ C1) in H by (apply bad_cls; reflexivity).
  destruct (cut (fun c => Ascii.eqb c ".") mant) as [ip fp] eqn:C2. rewrite (has_cut _ _ _ _ C2) in H by (apply bad_cls; reflexivity).
  destruct fp as [fp|]; auto. destruct (has ip) eqn:H1; [rewrite (has_dig_part ip H1); auto|]. destruct (dig_part ip) as [[i ni]|]; auto.
  destruct (has fp) eqn:H2; [rewrite (has_dig_part fp H2); auto|]. destruct (dig_part fp) as [[f nf]|]; auto. cbn [orb] in H.
  destruct ex as [e|]; [|discriminate]. rewrite <- has_sign in H. destruct (sign_of e) as [eneg e']. cbn [snd] in H. rewrite has_digs; auto.
Qed.
Lemma has_parse_num t : has t = true -> parse_num t = None.
Proof.
  intro H. unfold parse_num. destruct (find_char "." t); [rewrite has_py_float; auto|]. destruct t as [|c r]; auto.
  rewrite !has_py_int by auto. destruct (Ascii.eqb c "0"); auto. destruct r; auto. repeat match goal with |- context [if ?b then _ else _] => destruct b end; auto.
Qed.
Lemma has_not_inf t : has t = true -> text_eqb t (lit "inf") = false.
Proof. intro H. unfold text_eqb. destruct (list_eq_dec _ _ _) as [E|]; auto. subst t. discriminate. Qed.
Lemma has_parse_item t o : has t = true -> exists e, parse_item t o = Err e.
Proof.
  intro H. assert (SP : forall c, is_sp c = true -> bad c = false) by (apply bad_cls; reflexivity). rewrite <- (has_strip is_sp t SP) in H. unfold parse_item. destruct (strip is_sp t) as [|c r]; [eauto|].
  destruct (var_start c && negb (text_eqb (c :: r) (lit "inf"))).
  - assert (forallb var_char (c :: r) = false) as ->; eauto. destruct (forallb var_char (c :: r)) eqn:F; auto. exfalso.
    apply existsb_exists in H as (d & D & B). rewrite forallb_forall in F. specialize (F d D). rewrite (bad_cls var_char) in B; auto; discriminate.
  - destruct (num_start c) eqn:N; [|eauto].
    assert (X : forall (neg : bool) v, has v = true -> exists e, (if text_eqb v (lit "inf") then Ok (PI (VNum (if neg then NInf else PInf)) o FStr)
      else match parse_num v with Some (n, f) => Ok (PI (VNum (if neg then num_neg n else n)) o f) | None => Err TypeError end) = Err e).
    { intros neg v V. rewrite (has_not_inf v V), (has_parse_num v V). eauto. }
    assert (HS : has r = true -> has (strip is_sp r) = true) by (intro; rewrite has_strip; auto).
    destruct (Ascii.eqb_spec c "-") as [E|_]; [subst c; apply (X true), HS; exact H|]. destruct (Ascii.eqb_spec c "+") as [E|_]; [subst c; apply (X false), HS; exact H|]. apply (X false). exact H.
Qed.
Lemma no_sp_idem t : no_sp (no_sp t) = no_sp t.
Proof. unfold no_sp. induction t as [|c t IH]; auto. cbn [filter]. destruct (negb (is_sp c)) eqn:E; auto. cbn [filter]. rewrite E, IH. auto. Qed.
Lemma builder_of_nosp d pre : builder_of d pre = builder_of (no_sp d) pre.
Proof. unfold builder_of, parse_builder. rewrite no_sp_idem. auto. Qed.
Lemma existsb_nosp (p : ascii -> bool) t : p " "%char = false -> existsb p (no_sp t) = existsb p t.
Proof.
  intro P. unfold no_sp. induction t as [|c t IH]; auto. cbn [filter]. destruct (is_sp c) eqn:E; cbn [negb existsb]; rewrite IH; auto.
  apply Ascii.eqb_eq in E. subst c. rewrite P. auto.
Qed.
(** what [builder_str] does with a text without bracket *)
Definition plain_start (c : ascii) : bool := vchar c.
Lemma split_plain s (compl : bool) c r : no_sp s = (if compl then lit "!" else []) ++ c :: r -> vchar c = true ->
  exists d, split_bang s = Ok (compl, c :: d) /\ no_sp (c :: d) = c :: r.
Proof.
  intros H V. assert (NB : Ascii.eqb c "!" = false) by (apply (cls_neq vchar); auto). unfold split_bang. destruct (strip is_sp s) as [|c' t] eqn:E.
  - rewrite (no_sp_nil _ E) in H. destruct compl; discriminate.
  - pose proof (no_sp_head _ _ _ E) as X. rewrite H in X. destruct compl.
    + change (lit "!" ++ c :: r) with ("!"%char :: c :: r) in X. injection X as <- X. cbn [Ascii.eqb Bool.eqb].
      destruct (strip is_sp t) as [|c' t'] eqn:E'; [rewrite (no_sp_nil _ E') in X; discriminate|]. pose proof (no_sp_head _ _ _ E') as Y.
      rewrite <- X in Y. injection Y as <- Y. exists t'. split; auto. cbn [no_sp filter]. unfold is_sp. rewrite (cls_neq vchar " " c) by auto. cbn [negb]. unfold no_sp in Y. rewrite Y. auto.
    + cbn [app] in X. injection X as <- X. rewrite NB. exists t. split; auto. cbn [no_sp filter]. unfold is_sp. rewrite (cls_neq vchar " " c) by auto. cbn [negb]. unfold no_sp in X. rewrite X. auto.
Qed.
Lemma vchar_starts c : vchar c = true -> Ascii.eqb c "[" || Ascii.eqb c "(" = false /\ Ascii.eqb c "{" = false.
Proof. intro V. rewrite (cls_neq vchar "[" c), (cls_neq vchar "(" c), (cls_neq vchar "{" c); auto. Qed.
Lemma builder_str_braces compl x body q : is_alpha x = true -> forallb (fun c => negb (is_sp c)) body = true ->
  builder_str (b_text compl x body q) = builder_of ("{"%char :: x :: "|"%char :: body ++ "}"%char :: quote_text q) compl.
Proof.
  intros X B. assert (N : no_sp (b_text compl x body q) = b_text compl x body q).
  { apply no_sp_id. unfold b_text. rewrite forallb_app. cbn [forallb]. unfold is_sp at 3. rewrite (cls_neq is_alpha " " x) by auto. rewrite forallb_app, B. destruct compl, q; reflexivity. }
  unfold b_text in N. destruct (split_spaced _ compl _ N) as (d & E & D). unfold builder_str, b_text. rewrite E. cbn [Ascii.eqb Bool.eqb orb].
  rewrite builder_of_nosp, D. reflexivity.
Qed.
Lemma short_x s compl body i : no_sp s = (if compl : bool then lit "!" else []) ++ body -> has body = true -> existsb (is_c "x") body = true ->
  (exists c r, body = c :: r /\ vchar c = true) ->
  builder_str (b_text compl "x" body false) = Ok i -> builder_str s = Ok i.
Proof.
  intros H B X (c & r & -> & V) I. destruct (split_plain s compl c r H V) as (d & E & D).
  assert (NS : forallb (fun c => negb (is_sp c)) (c :: r) = true). { rewrite <- D. apply forallb_forall. intros z Z. apply filter_In in Z. tauto. }
  rewrite builder_str_braces in I by auto. unfold builder_str. rewrite E. destruct (vchar_starts c V) as [-> ->].
  assert (HS : has s = true). { rewrite <- existsb_nosp by reflexivity. rewrite H, existsb_app, B. apply orb_true_r. }
  destruct (has_parse_item s false HS) as [e ->]. assert (existsb (is_c "x") (c :: d) = true) as ->. { rewrite <- existsb_nosp by reflexivity. rewrite D. auto. }
  rewrite builder_of_nosp. rewrite !no_sp_app, D. change (no_sp (lit "{x|") ++ (c :: r) ++ no_sp (lit "}")) with ("{"%char :: "x"%char :: "|"%char :: (c :: r) ++ "}"%char :: quote_text false). rewrite I. auto.
Qed.
Lemma short_n s compl body i : no_sp s = (if compl : bool then lit "!" else []) ++ body -> has body = true -> existsb (is_c "x") body = false -> existsb (is_c "n") body = true ->
  (exists c r, body = c :: r /\ vchar c = true) ->
  builder_str (b_text compl "n" (lit "neZ," ++ body) false) = Ok i -> builder_str s = Ok i.
Proof.
  intros H B X Y (c & r & -> & V) I. destruct (split_plain s compl c r H V) as (d & E & D).
  assert (NS : forallb (fun c => negb (is_sp c)) (c :: r) = true). { rewrite <- D. apply forallb_forall. intros z Z. apply filter_In in Z. tauto. }
  rewrite builder_str_braces in I by auto. unfold builder_str. rewrite E. destruct (vchar_starts c V) as [-> ->].
  assert (HS : has s = true). { rewrite <- existsb_nosp by reflexivity. rewrite H, existsb_app, B. apply orb_true_r. }
  destruct (has_parse_item s false HS) as [e ->]. assert (existsb (is_c "x") (c :: d) = false) as ->. { rewrite <- existsb_nosp by reflexivity. rewrite D. auto. }
  assert (existsb (is_c "n") (c :: d) = true) as ->. { rewrite <- existsb_nosp by reflexivity. rewrite D. auto. }
  rewrite builder_of_nosp. rewrite !no_sp_app, D. change (no_sp (lit "{n|neZ,") ++ (c :: r) ++ no_sp (lit "}")) with ("{"%char :: "n"%char :: "|"%char :: (lit "neZ," ++ c :: r) ++ "}"%char :: quote_text false). rewrite I. auto.
Qed.
