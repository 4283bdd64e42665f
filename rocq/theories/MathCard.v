(** Cardinality, iteration, equality and re-construction of sets *)
From Coq Require Import QArith Sorted FinFun.
From Verif Require Import Base MathSet MathSpec MathFacts.
Local Open Scope Z_scope.

Definition zrange (a b : Z) : list Z := map (fun k => a + Z.of_nat k) (seq 0 (Z.to_nat (b + 1 - a))).
Lemma zrange_in a b z : In z (zrange a b) <-> a <= z <= b.
Proof.
  unfold zrange. rewrite in_map_iff. split.
  - intros (k & <- & H). apply in_seq in H. lia.
  - intro H. exists (Z.to_nat (z - a)). split; [lia|]. apply in_seq. lia.
Qed.
Lemma zrange_sorted a b : StronglySorted Z.lt (zrange a b).
Proof.
  unfold zrange. generalize 0%nat. generalize (Z.to_nat (b + 1 - a)). induction n; intros m; cbn; constructor; auto.
  apply Forall_forall. intros z H. apply in_map_iff in H as (k & <- & H). apply in_seq in H. lia.
Qed.
Lemma zrange_len a b : a <= b + 1 -> Z.of_nat (length (zrange a b)) = b - a + 1.
Proof. intro H. unfold zrange. rewrite map_length, seq_length. lia. Qed.

Lemma num_lt_NI x y : num_lt (NI x) (NI y) = (x <? y).
Proof.
  apply Bool.eq_true_iff_eq. rewrite num_lt_iff, Z.ltb_lt. unfold nlt. rewrite !nle_NI. lia.
Qed.
Lemma num_eq_NI x y : num_eq (NI x) (NI y) = (x =? y).
Proof. apply Bool.eq_true_iff_eq. rewrite num_eq_iff, Z.eqb_eq, neq_NI. reflexivity. Qed.

(** the integers of an integer interval with ordered bounds *)
Definition b2z (b : bool) : Z := if b then 1 else 0.
Definition ints (x : Z) (ox : bool) (y : Z) (oy : bool) : list Z :=
  if (x =? y) && xorb ox oy then [x] else zrange (x + b2z ox) (y - b2z oy).
Definition mint (x : Z) (ox : bool) (y : Z) (oy : bool) (c : bool) : interval := mk (Some (NI x, ox)) (Some (NI y, oy)) true c.
Lemma mint_shape x ox y oy c : x <= y -> exists ls us,
  mint x ox y oy c = IV (SI (VNum (NI x)) ox) (SI (VNum (NI y)) oy) ls us true c.
Proof.
  intro H. unfold mint, mk, mk_interval. cbn [option_map bnd fst snd si_val].
  rewrite num_lt_NI. replace (y <? x) with false by (symmetry; apply Z.ltb_ge; lia).
  cbn [si_val si_open]. destruct (_ && _); do 2 eexists; reflexivity.
Qed.
Lemma mint_card x ox y oy : x <= y -> iv_card (mint x ox y oy false) = NI (Z.of_nat (length (ints x ox y oy))).
Proof.
  intro H. destruct (mint_shape x ox y oy false H) as (ls & us & ->).
  unfold iv_card, iv_card0, iv_vars, iv_first, iv_last. cbn [iv_lo iv_hi si_val is_var orb negb iv_int andb iv_compl num_of si_open].
  assert (E : forall (o : bool) z k, (if o then num_plus (NI z) k else NI z) = NI (z + if o then k else 0)) by (intros []; intros; cbn; f_equal; lia).
  rewrite !E. cbn [num_sub num_plus]. rewrite num_lt_NI, num_eq_NI. unfold ints.
  destruct (Z.eqb_spec x y) as [->|N].
  - destruct ox, oy; cbn [xorb andb b2z negb].
    all: repeat match goal with |- context [?a <? ?b] => destruct (Z.ltb_spec a b); try lia end.
    all: repeat match goal with |- context [?a =? ?b] => destruct (Z.eqb_spec a b); try lia end; cbn [andb].
    all: try reflexivity.
    + f_equal. unfold zrange. rewrite map_length, seq_length. lia.
    + f_equal. rewrite zrange_len by lia. lia.
  - cbn [andb].
    assert (K : y - b2z oy - (x + b2z ox) + 1 >= 0) by (destruct ox, oy; cbn; lia).
    rewrite zrange_len by (unfold b2z in *; lia).
    assert (Q : y + (if oy then -1 else 0) - (x + (if ox then 1 else 0)) + 1 = y - b2z oy - (x + b2z ox) + 1) by (destruct ox, oy; cbn; lia).
    rewrite Q. destruct (Z.ltb_spec (y - b2z oy - (x + b2z ox) + 1) 0); [lia|].
    destruct (Z.eqb_spec (y - b2z oy - (x + b2z ox) + 1) 0) as [Z|]; cbn [andb]; auto.
    destruct ox, oy; cbn [negb andb b2z] in *; auto; lia.
Qed.
Lemma mint_iter x ox y oy : x <= y -> ~ (x = y /\ ox <> oy) ->
  iv_iter (mint x ox y oy false) = Ok (map NI (ints x ox y oy)).
Proof.
  intros H D. destruct (mint_shape x ox y oy false H) as (ls & us & ->).
  unfold iv_iter, iv_vars, iv_first, iv_last. cbn [iv_lo iv_hi si_val is_var orb negb iv_int andb iv_compl num_of si_open val_eq].
  change (num_eq (NI y) PInf) with false. change (num_eq (NI x) NInf) with false. cbn [negb].
  assert (E : forall (o : bool) z k, (if o then num_plus (NI z) k else NI z) = NI (z + if o then k else 0)) by (intros []; intros; cbn; f_equal; lia).
  rewrite !E, num_lt_NI, num_eq_NI. unfold ints.
  replace ((x =? y) && xorb ox oy) with false.
  2:{ symmetry. destruct (Z.eqb_spec x y); auto. destruct ox, oy; auto; exfalso; apply D; split; auto; discriminate. }
  replace (y + (if oy then -1 else 0)) with (y - b2z oy) by (destruct oy; cbn; lia).
  replace (x + (if ox then 1 else 0)) with (x + b2z ox) by (destruct ox; cbn; lia).
  destruct (Z.ltb_spec (y - b2z oy) (x + b2z ox)).
  - unfold zrange. replace (Z.to_nat (y - b2z oy + 1 - (x + b2z ox))) with 0%nat by lia. reflexivity.
  - destruct (Z.eqb_spec (x + b2z ox) (y - b2z oy)) as [Q|Q].
    + rewrite <- Q. unfold zrange. replace (Z.to_nat (x + b2z ox + 1 - (x + b2z ox))) with 1%nat by lia. cbn. do 2 f_equal. f_equal. lia.
    + unfold zrange. rewrite map_map. reflexivity.
Qed.
Lemma in_ints x ox y oy z : x <= y ->
  (In z (ints x ox y oy) <-> if (x =? y) && xorb ox oy then z = x else between (NI x, ox) (NI y, oy) (NI z)).
Proof.
  intro H. unfold ints. destruct ((x =? y) && xorb ox oy) eqn:E. { cbn. intuition. }
  rewrite zrange_in, between_raw; cbn [fst snd].
  - unfold raw_in, nlt. destruct ox, oy; cbn [b2z]; rewrite ?nle_NI; lia.
  - rewrite num_lt_NI. apply Z.ltb_ge. lia.
  - intros [A B]. cbn in A, B. apply neq_NI in A. subst. rewrite Z.eqb_refl in E. destruct ox, oy; cbn in *; congruence.
Qed.
Lemma between_neq a b v w : neq v w -> (between a b v <-> between a b w).
Proof.
  intro E. unfold between, above, under, nlt. destruct (snd a), (snd b);
    rewrite !(neq_le_l _ _ (fst a) E), !(neq_le_r _ _ (fst a) E), !(neq_le_l _ _ (fst b) E), !(neq_le_r _ _ (fst b) E); reflexivity.
Qed.
Lemma mint_member x ox y oy d v : x <= y -> finite v ->
  (iv_contains (mint x ox y oy false) (TNum v) d = Ok true <-> exists z, In z (ints x ox y oy) /\ neq v (NI z)).
Proof.
  intros H F. pose proof (in_ints x ox y oy) as I. 
  destruct ((x =? y) && xorb ox oy) eqn:E.
  - apply andb_true_iff in E as [E1 E2]. apply Z.eqb_eq in E1. subst y.
    destruct (half_open_contains (Some (NI x, ox)) (Some (NI x, oy)) true false v d) as (r & A & B); auto.
    { split; cbn. { apply neq_NI; auto. } destruct ox, oy; cbn in *; congruence. }
    unfold mint. rewrite A. cbn [lower_of fst] in B. split.
    + intro K. injection K as ->. destruct (proj1 B eq_refl) as [C _]. exists x. split; auto. apply I; auto.
    + intros (z & K & N). apply I in K; auto. subst z. f_equal. apply B. split; auto. intros _. exists x. auto.
  - destruct (membership (Some (NI x, ox)) (Some (NI y, oy)) true false v d) as (r & A & B); auto.
    { intros [P Q]. cbn in P, Q. apply neq_NI in P. subst. rewrite Z.eqb_refl in E. destruct ox, oy; cbn in *; congruence. }
    unfold mint. rewrite A. cbn [lower_of upper_of in_interval] in B. split.
    + intro K. injection K as ->. destruct (proj1 B eq_refl) as [C D]. destruct (D eq_refl) as [z N]. exists z. split; auto.
      apply I; auto. eapply between_neq; [apply neq_sym|]; eauto.
    + intros (z & K & N). apply I in K; auto. f_equal. apply B. split; [eapply between_neq; eauto|]. intros _. exists z. auto.
Qed.

(** bounds in any order *)
Lemma mint_swap x ox y oy c : y < x -> mint x ox y oy c = mint y oy x ox c.
Proof.
  intro H. unfold mint, mk, mk_interval. cbn [option_map bnd fst snd si_val]. rewrite !num_lt_NI.
  replace (y <? x) with true by (symmetry; apply Z.ltb_lt; lia).
  replace (x <? y) with false by (symmetry; apply Z.ltb_ge; lia). reflexivity.
Qed.
Lemma mint_exact x ox y oy d : exists l : list Z, StronglySorted Z.lt l /\
  (forall v, finite v -> (iv_contains (mint x ox y oy false) (TNum v) d = Ok true <-> exists z, In z l /\ neq v (NI z))) /\
  iv_card (mint x ox y oy false) = NI (Z.of_nat (length l)) /\
  (~ (x = y /\ ox <> oy) -> iv_iter (mint x ox y oy false) = Ok (map NI l)).
Proof.
  assert (X : forall x ox y oy, x <= y -> exists l : list Z, StronglySorted Z.lt l /\
  (forall v, finite v -> (iv_contains (mint x ox y oy false) (TNum v) d = Ok true <-> exists z, In z l /\ neq v (NI z))) /\
  iv_card (mint x ox y oy false) = NI (Z.of_nat (length l)) /\
  (~ (x = y /\ ox <> oy) -> iv_iter (mint x ox y oy false) = Ok (map NI l))).
  { clear. intros x ox y oy H. exists (ints x ox y oy). repeat split.
    - unfold ints. destruct (_ && _); [repeat constructor|apply zrange_sorted].
    - apply mint_member; auto.
    - apply mint_member; auto.
    - apply mint_card; auto.
    - apply mint_iter; auto. }
  destruct (Z_le_gt_dec x y) as [H|H]. { apply X; auto. }
  destruct (X y oy x ox ltac:(lia)) as (l & A & B & C & D). exists l. rewrite (mint_swap x ox y oy false) by lia.
  split; [auto|]. split; [auto|]. split; [auto|]. intro. apply D. intros [E _]. lia.
Qed.

(** ** infinitely many members *)
Definition infinitely_many (P : Z -> Prop) : Prop := forall k, exists l, NoDup l /\ length l = k /\ forall z, In z l -> P z.
Lemma zrange_nodup a b : NoDup (zrange a b).
Proof.
  unfold zrange. apply FinFun.Injective_map_NoDup; [|apply seq_NoDup]. intros p q. lia.
Qed.
Lemma inf_up (P : Z -> Prop) z0 : (forall z, z0 <= z -> P z) -> infinitely_many P.
Proof.
  intros H k. exists (zrange z0 (z0 + Z.of_nat k - 1)). split; [apply zrange_nodup|]. split.
  - unfold zrange. rewrite map_length, seq_length. lia.
  - intros z K. apply H. apply zrange_in in K. lia.
Qed.
Lemma inf_down (P : Z -> Prop) z0 : (forall z, z <= z0 -> P z) -> infinitely_many P.
Proof.
  intros H k. exists (zrange (z0 - Z.of_nat k + 1) z0). split; [apply zrange_nodup|]. split.
  - unfold zrange. rewrite map_length, seq_length. lia.
  - intros z K. apply H. apply zrange_in in K. lia.
Qed.

Lemma member_true a b n c v d : ~ half_open_point (lower_of a) (upper_of b) -> finite v ->
  in_interval (lower_of a) (upper_of b) n c v -> iv_contains (mk a b n c) (TNum v) d = Ok true.
Proof.
  intros H F I. destruct (membership a b n c v d H (fun _ => F)) as (r & E & K). rewrite E. f_equal. apply K. auto.
Qed.
Lemma is_integer_NI z : is_integer (NI z).
Proof. exists z. apply neq_NI. auto. Qed.

(** one end at infinity *)
Lemma unbounded_below o (y : Z) oy d :
  let i := mk (Some (NInf, o)) (Some (NI y, oy)) true false in
  iv_card i = PInf /\ infinitely_many (fun z => iv_contains i (TNum (NI z)) d = Ok true).
Proof.
  intro i. split. { subst i. destruct o, oy; vm_compute; reflexivity. }
  apply (inf_down _ (y - 1)). intros z H. apply member_true; cbn; auto. { intros [[_ []] _]. }
  split; [left|intros _; apply is_integer_NI].
  unfold above, under, nlt. cbn [fst snd]. destruct o, oy; rewrite ?nle_NI; cbn; repeat split; auto; lia.
Qed.
Lemma unbounded_above o (x : Z) ox d :
  let i := mk (Some (NI x, ox)) (Some (PInf, o)) true false in
  iv_card i = PInf /\ infinitely_many (fun z => iv_contains i (TNum (NI z)) d = Ok true).
Proof.
  intro i. split. { subst i. destruct o, ox; vm_compute; reflexivity. }
  apply (inf_up _ (x + 1)). intros z H. apply member_true; cbn; auto. { intros [[_ []] _]. }
  split; [left|intros _; apply is_integer_NI].
  unfold above, under, nlt. cbn [fst snd]. destruct o, ox; rewrite ?nle_NI; cbn; repeat split; auto; lia.
Qed.
Lemma unbounded_both o o' d :
  let i := mk (Some (NInf, o)) (Some (PInf, o')) true false in
  iv_card i = PInf /\ infinitely_many (fun z => iv_contains i (TNum (NI z)) d = Ok true).
Proof.
  intro i. split. { subst i. destruct o, o'; vm_compute; reflexivity. }
  apply (inf_up _ 0). intros z H. apply member_true; cbn; auto. { intros [[_ []] _]. }
  split; [left|intros _; apply is_integer_NI].
  unfold above, under, nlt. cbn. destruct o, o'; cbn; repeat split; auto; lia.
Qed.
Lemma compl_infinite x ox y oy d :
  iv_card (mint x ox y oy true) = PInf /\ infinitely_many (fun z => iv_contains (mint x ox y oy true) (TNum (NI z)) d = Ok true).
Proof.
  split.
  - unfold iv_card. destruct (mint_shape (Z.min x y) (if x <=? y then ox else oy) (Z.max x y) (if x <=? y then oy else ox) true) as (ls & us & E). { lia. }
    assert (M : mint x ox y oy true = mint (Z.min x y) (if x <=? y then ox else oy) (Z.max x y) (if x <=? y then oy else ox) true).
    { destruct (Z.leb_spec x y). { rewrite Z.min_l, Z.max_r by lia. auto. } rewrite Z.min_r, Z.max_l by lia. apply mint_swap. lia. }
    rewrite M, E. cbn [iv_compl iv_lo iv_hi si_val]. change (val_eq (VNum (NI (Z.min x y))) (VNum NInf)) with false.
    rewrite Bool.andb_false_r. reflexivity.
  - apply (inf_up _ (Z.max x y + 1)). intros z H. unfold mint.
    destruct ((x =? y) && xorb ox oy) eqn:E.
    + apply andb_true_iff in E as [E1 E2]. apply Z.eqb_eq in E1. subst y.
      destruct (half_open_contains (Some (NI x, ox)) (Some (NI x, oy)) true true (NI z) d) as (r & A & B); [|cbn; auto|].
      { split; cbn. { apply neq_NI; auto. } destruct ox, oy; cbn in *; congruence. }
      rewrite A. f_equal. apply B. cbn. rewrite neq_NI. lia.
    + apply member_true; cbn; auto.
      { intros [P Q]. cbn in P, Q. apply neq_NI in P. subst. rewrite Z.eqb_refl in E. destruct ox, oy; cbn in *; congruence. }
      intros [[(A & B & C)|(A & B & C)] _]; unfold above, under, nlt in *; cbn [fst snd] in *; destruct ox, oy; rewrite !nle_NI in *; lia.
Qed.

(** ** sets built by the constructors *)
Inductive built : mset -> Prop :=
| built_int lo hi n c : built (MInt (mk_interval lo hi n c))
| built_ros items c : built (MRos (mk_roster items c))
| built_comb l u c s : (forall x, In x l -> built x) -> mk_comb l u c = Ok s -> built s.
Lemma mk_interval_compl lo hi n c : let i := mk_interval lo hi n c in
  IV (iv_lo i) (iv_hi i) (iv_lstrict i) (iv_ustrict i) (iv_int i) (negb (iv_compl i)) = mk_interval lo hi n (negb c).
Proof. unfold mk_interval. destruct (match si_val _ with VNum _ => _ | _ => _ end) as [x y]. destruct (_ && _); reflexivity. Qed.
Lemma built_switch s : built s -> built (switch s).
Proof.
  intros [lo hi n c|items c|l u c s' H E].
  - pose proof (mk_interval_compl lo hi n c) as E. cbn zeta in E. cbn [switch].
    destruct (mk_interval lo hi n c) as [a b ls us n' c']. cbn [iv_lo iv_hi iv_lstrict iv_ustrict iv_int iv_compl] in E. rewrite E. constructor.
  - exact (built_ros items (negb c)).
  - unfold mk_comb in E. destruct l; try discriminate. injection E as <-. cbn [switch]. apply (built_comb (m :: l) u (negb c)); auto.
Qed.

(** the strictness of an interval depends on its bounds alone *)
Definition strict_of (lo hi : sitem) : bool * bool :=
  if val_eq (si_val hi) (si_val lo) && (negb (si_open lo) || negb (si_open hi)) then (false, false) else (si_open lo, si_open hi).
Lemma mk_interval_form lo hi n c : let i := mk_interval lo hi n c in
  iv_int i = n /\ iv_compl i = c /\ (iv_lstrict i, iv_ustrict i) = strict_of (iv_lo i) (iv_hi i) /\
  (forall a b, si_val (iv_lo i) = VNum a -> si_val (iv_hi i) = VNum b -> num_lt b a = false).
Proof.
  unfold mk_interval, strict_of. destruct (match si_val _ with VNum _ => _ | _ => _ end) as [x y] eqn:E.
  assert (O : forall a b, si_val x = VNum a -> si_val y = VNum b -> num_lt b a = false).
  { intros a b A B. revert E.
    destruct (match lo with Some i => i | None => SI (VNum NInf) false end) as [[p|] op], (match hi with Some i => i | None => SI (VNum PInf) false end) as [[q|] oq];
      cbn [si_val].
    2-4: intro E; injection E as <- <-; cbn in A, B; congruence.
    destruct (num_lt q p) eqn:L; intro E; injection E as <- <-; cbn in A, B; injection A as <-; injection B as <-; auto.
    destruct (num_lt p q) eqn:M; auto. apply num_lt_iff in L, M. destruct L, M. tauto. }
  destruct (_ && _) eqn:G; cbn; rewrite ?G; auto.
Qed.

(** ** get_init_args() *)
Lemma iv_rebuild_same lo hi n c : iv_rebuild false (mk_interval lo hi n c) = mk_interval lo hi n c.
Proof.
  destruct (mk_interval_form lo hi n c) as (N & C & S & O). cbn zeta in *. set (i := mk_interval lo hi n c) in *. clearbody i.
  destruct i as [l u ls us n' c']. cbn [iv_lo iv_hi iv_lstrict iv_ustrict iv_int iv_compl] in *. subst n' c'.
  unfold iv_rebuild, iv_args. cbn [iv_lo iv_hi iv_int iv_compl orb].
  assert (X : mk_interval (Some l) (Some u) n c = IV l u ls us n c).
  { unfold mk_interval.
    assert (E : match si_val l, si_val u with VNum a, VNum b => if num_lt b a then (u, l) else (l, u) | _, _ => (l, u) end = (l, u)).
    { destruct (si_val l) eqn:A, (si_val u) eqn:B; auto. rewrite (O _ _ eq_refl eq_refl). auto. }
    rewrite E. unfold strict_of in S. destruct (_ && _); injection S as -> ->; reflexivity. }
  destruct c; [exact X|]. destruct n; exact X.
Qed.

Lemma add_vals_mono l : forall acc v, has_val acc v = true -> has_val (fold_left add_val l acc) v = true.
Proof.
  induction l as [|x l IH]; cbn; auto. intros acc v H. apply IH. unfold add_val. destruct (has_val acc x); auto.
  unfold has_val in *. rewrite existsb_app, H. auto.
Qed.
Definition distinct (l : list sval) : Prop := forall a b, In a l -> In b l -> val_eq a b = true -> a = b.
Inductive ndup : list sval -> Prop := ndup_nil : ndup [] | ndup_snoc l v : ndup l -> has_val l v = false -> ndup (l ++ [v]).
Lemma add_vals_ndup l : forall acc, ndup acc -> ndup (fold_left add_val l acc).
Proof.
  induction l as [|x l IH]; cbn; auto. intros acc H. apply IH. unfold add_val. destruct (has_val acc x) eqn:E; auto. constructor; auto.
Qed.
Lemma add_vals_id l : ndup l -> fold_left add_val l [] = l.
Proof.
  induction 1 as [|l v H IH E]; auto. rewrite fold_left_app, IH. cbn. unfold add_val. rewrite E. auto.
Qed.
Lemma map_item l : map rarg_item (map (fun v => RItem (SI v false)) l) = map (fun v => SI v false) l.
Proof. rewrite map_map. reflexivity. Qed.
Lemma last_item l : match rev (map (fun v => RItem (SI v false)) l) with RFlag b :: _ => False | _ => True end.
Proof. rewrite <- map_rev. destruct (rev l); cbn; auto. Qed.
Lemma ro_rebuild_gen full l c : ro_rebuild full (RO l c) = Ok (mk_roster (map (fun v => SI v false) l) c).
Proof.
  unfold ro_rebuild, ro_args, mk_roster_args. cbn [ro_items ro_compl]. rewrite <- map_item.
  pose proof (last_item l) as L. set (m := map (fun v => RItem (SI v false)) l) in *. clearbody m.
  destruct (full || c) eqn:F.
  - rewrite rev_app_distr. cbn [rev app]. rewrite !rev_involutive. destruct (rev m) as [|[]]; try contradiction; auto.
  - destruct c; [destruct full; discriminate|]. destruct (rev m) as [|[]] eqn:R; try contradiction; rewrite R; auto.
Qed.
Lemma ro_rebuild_same full items c : ro_rebuild full (mk_roster items c) = Ok (mk_roster items c).
Proof.
  unfold mk_roster at 1. rewrite ro_rebuild_gen. f_equal. unfold mk_roster. f_equal.
  set (l := fold_left add_val (map si_val (filter (fun i => negb (si_open i)) items)) []).
  assert (E : map si_val (filter (fun i => negb (si_open i)) (map (fun v => SI v false) l)) = l).
  { generalize l. clear. intro l. induction l; cbn; congruence. }
  rewrite E. apply add_vals_id. apply add_vals_ndup. constructor.
Qed.

Lemma comb_in_sets l u c v d : comb_in (map CSet l) u c None v d = contains (MComb l u c) v d.
Proof.
  cbn [contains]. destruct u.
  - match goal with |- _ = ?g l None => set (go := g) end. generalize (@None exn).
    induction l as [|s l IH]; intro e; cbn. { destruct e; auto. }
    destruct (contains s v d) as [[|]|]; cbn; auto.
  - match goal with |- _ = ?g l None => set (go := g) end. generalize (@None exn).
    induction l as [|s l IH]; intro e; cbn. { destruct e; auto. }
    destruct (contains s v d) as [[|]|]; cbn; auto.
Qed.
Lemma last_set l : match rev (map CSet l) with CFlag b :: _ => False | _ => True end.
Proof. rewrite <- map_rev. destruct (rev l); cbn; auto. Qed.
Lemma comb_rebuild_same full l u c v d : (2 <= length l)%nat ->
  comb_rebuild_contains full l u c v d = contains (MComb l u c) v d.
Proof.
  intro H. unfold comb_rebuild_contains, comb_args.
  replace (match l with [s] => [CSet s; CNone] | _ => map CSet l end) with (map CSet l).
  2:{ destruct l as [|a [|b l]]; cbn in *; auto; lia. }
  assert (NE : map CSet l <> []). { destruct l; cbn in *; [lia|discriminate]. }
  pose proof (last_set l) as L. rewrite <- comb_in_sets. set (m := map CSet l) in *. clearbody m.
  assert (X : mk_comb_args (if c || full then m ++ [CFlag u; CFlag c] else if negb u then m ++ [CFlag u] else m) = Ok (m, u, c)).
  { unfold mk_comb_args. destruct (c || full) eqn:F; [|destruct c; [destruct full; discriminate|]; destruct u; cbn [negb]].
    - rewrite rev_app_distr. cbn [rev app]. rewrite ?rev_app_distr. cbn [rev app]. rewrite ?rev_app_distr. cbn [rev app]. rewrite !rev_involutive.
      destruct m; [congruence|auto].
    - destruct (rev m) as [|[]] eqn:R; try contradiction; rewrite R; destruct m; congruence.
    - rewrite rev_app_distr. cbn [rev app]. rewrite !rev_involutive. 
      destruct (rev m) as [|[]] eqn:R; try contradiction; destruct m; congruence. }
  rewrite X. auto.
Qed.

(** ** equality *)
(** the comparison of mSetInterval bounds ignores whether they are open (C52_refuted): same_form
    demands that the open bounds agree, and that combined sets have equally many members *)
Fixpoint same_form (s t : mset) {struct s} : Prop :=
  match s, t with
  | MInt i, MInt j => si_open (iv_lo i) = si_open (iv_lo j) /\ si_open (iv_hi i) = si_open (iv_hi j)
  | MComb l _ _, MComb m _ _ =>
      (fix all (l m : list mset) : Prop :=
         match l, m with
         | a :: l, b :: m => same_form a b /\ all l m
         | [], [] => True
         | _, _ => False
         end) l m
  | _, _ => True
  end.
Lemma val_eq_subst d v w : val_eq v w = true ->
  match subst_val d v, subst_val d w with VNum a, VNum b => a = b \/ neq a b | VVar s, VVar t => s = t | _, _ => False end.
Proof.
  destruct v, w; cbn; try discriminate; intro H.
  - apply num_eq_iff in H. auto.
  - apply String.eqb_eq in H. subst. destruct d as [f|]; auto. destruct (f s0); auto.
Qed.
Lemma op_le_neq_l st a b v : neq a b -> op_le st a v = op_le st b v.
Proof.
  intro E. apply Bool.eq_true_iff_eq. rewrite !op_le_iff. unfold nlt. destruct st; rewrite ?(neq_le_l _ _ v E), ?(neq_le_r _ _ v E); reflexivity.
Qed.
Lemma op_le_neq_r st a b v : neq a b -> op_le st v a = op_le st v b.
Proof.
  intro E. apply Bool.eq_true_iff_eq. rewrite !op_le_iff. unfold nlt. destruct st; rewrite ?(neq_le_l _ _ v E), ?(neq_le_r _ _ v E); reflexivity.
Qed.
Lemma cmp_lo_eq d st v w n : val_eq v w = true -> cmp_lo st (subst_val d v) n = cmp_lo st (subst_val d w) n.
Proof.
  intro H. apply (val_eq_subst d) in H. destruct (subst_val d v), (subst_val d w); try contradiction; cbn; auto.
  destruct H as [->|H]; auto. f_equal. apply op_le_neq_l. auto.
Qed.
Lemma cmp_hi_eq d st v w n : val_eq v w = true -> cmp_hi st (subst_val d v) n = cmp_hi st (subst_val d w) n.
Proof.
  intro H. apply (val_eq_subst d) in H. destruct (subst_val d v), (subst_val d w); try contradiction; cbn; auto.
  destruct H as [->|H]; auto. f_equal. apply op_le_neq_r. auto.
Qed.
Lemma val_eq_sym v w : val_eq v w = val_eq w v.
Proof. destruct v, w; cbn; auto. { unfold num_eq. apply Bool.andb_comm. } apply String.eqb_sym. Qed.
Lemma val_eq_trans u v w : val_eq u v = true -> val_eq v w = true -> val_eq u w = true.
Proof.
  destruct u, v, w; cbn; try discriminate.
  - rewrite !num_eq_iff. apply neq_trans.
  - rewrite !String.eqb_eq. congruence.
Qed.
Lemma iv_eq_sound lo hi n c lo' hi' n' c' : let i := mk_interval lo hi n c in let j := mk_interval lo' hi' n' c' in
  iv_eq i j = true -> si_open (iv_lo i) = si_open (iv_lo j) -> si_open (iv_hi i) = si_open (iv_hi j) ->
  forall v d, iv_contains i v d = iv_contains j v d.
Proof.
  destruct (mk_interval_form lo hi n c) as (N & C & S & _), (mk_interval_form lo' hi' n' c') as (N' & C' & S' & _).
  cbn zeta in *. set (i := mk_interval lo hi n c) in *. set (j := mk_interval lo' hi' n' c') in *. clearbody i j.
  destruct i as [l u ls us ni ci], j as [l' u' ls' us' nj cj].
  cbn [iv_lo iv_hi iv_lstrict iv_ustrict iv_int iv_compl] in *. subst ni ci nj cj.
  intros E OL OU.
  assert (E' : val_eq (si_val l) (si_val l') = true /\ val_eq (si_val u) (si_val u') = true /\ n = n' /\ c = c').
  { unfold iv_eq, iv_args, sitem_eq in E. cbn [iv_lo iv_hi iv_int iv_compl orb] in E.
    destruct c, n, c', n'; cbn [optb_eq Bool.eqb] in E; rewrite OL, OU in E;
      rewrite !Bool.xorb_nilpotent in E; rewrite ?andb_true_r, ?andb_false_r in E; try discriminate; apply andb_true_iff in E; tauto. }
  destruct E' as (EL & EU & -> & ->).
  assert (SS : (ls, us) = (ls', us')).
  { rewrite S, S'. unfold strict_of. rewrite OL, OU.
    assert (X : val_eq (si_val u) (si_val l) = val_eq (si_val u') (si_val l')).
    { apply Bool.eq_true_iff_eq. split; intro K.
      - eapply val_eq_trans; [rewrite val_eq_sym; exact EU|]. eapply val_eq_trans; eauto.
      - eapply val_eq_trans; [exact EU|]. eapply val_eq_trans; [exact K|]. rewrite val_eq_sym. auto. }
    rewrite X. reflexivity. }
  injection SS as -> ->. intros v d. unfold iv_contains, limits. cbn [iv_lo iv_hi]. apply iv_test_ext; auto.
  intro m. unfold iv_num. cbn [iv_int iv_lstrict iv_ustrict iv_compl fst snd].
  rewrite (cmp_lo_eq d ls' _ _ m EL), (cmp_hi_eq d us' _ _ m EU). reflexivity.
Qed.

(** rosters *)
Lemma has_val_iff l v : has_val l v = true <-> exists w, In w l /\ val_eq w v = true.
Proof. unfold has_val. apply existsb_exists. Qed.
Lemma has_val_eq l v w : val_eq v w = true -> has_val l v = has_val l w.
Proof.
  intro H. apply Bool.eq_true_iff_eq. rewrite !has_val_iff. split; intros (x & A & B); exists x; split; auto.
  - eapply val_eq_trans; eauto.
  - eapply val_eq_trans; eauto. rewrite val_eq_sym. auto.
Qed.
Lemma nth_ndup l : ndup l -> forall i j, (i < j < length l)%nat -> val_eq (nth i l (VNum NaN)) (nth j l (VNum NaN)) = false.
Proof.
  induction 1 as [|l v H IH E]; intros i j L; [cbn in L; lia|].
  rewrite app_length in L. cbn in L. destruct (Nat.eq_dec j (length l)) as [->|NJ].
  - rewrite app_nth1 by lia. rewrite app_nth2 by lia. rewrite Nat.sub_diag. cbn [nth].
    destruct (val_eq (nth i l (VNum NaN)) v) eqn:K; auto.
    assert (has_val l v = true). { apply has_val_iff. eexists. split; [|exact K]. apply nth_In. lia. } congruence.
  - rewrite !app_nth1 by lia. apply IH. lia.
Qed.
(** pigeonhole up to equality of values *)
Lemma ndup_incl a b : ndup a -> length a = length b -> forallb (has_val b) a = true -> forall w, In w b -> val_eq w w = true -> has_val a w = true.
Proof.
  intros D L F w W WW.
  set (f := fun i => match find (fun j => val_eq (nth j b (VNum NaN)) (nth i a (VNum NaN))) (seq 0 (length b)) with Some j => j | None => 0%nat end).
  assert (FS : forall i, (i < length a)%nat -> (f i < length b)%nat /\ val_eq (nth (f i) b (VNum NaN)) (nth i a (VNum NaN)) = true).
  { intros i I. unfold f.
    assert (K : has_val b (nth i a (VNum NaN)) = true). { eapply forallb_forall in F; [exact F|]. apply nth_In. auto. }
    apply has_val_iff in K as (x & X1 & X2). apply In_nth with (d := VNum NaN) in X1 as (j & J1 & J2).
    destruct (find _ _) as [k|] eqn:FD.
    - apply find_some in FD as [P Q]. apply in_seq in P. split; [lia|auto].
    - exfalso. eapply find_none in FD. 2:{ apply in_seq. split; [apply Nat.le_0_l|]. exact J1. } cbn beta in FD. congruence. }
  assert (ND : NoDup (map f (seq 0 (length a)))).
  { assert (INJ : forall i j, (i < length a)%nat -> (j < length a)%nat -> f i = f j -> i = j).
    { intros i j I J E. destruct (FS i I) as [_ A], (FS j J) as [_ B]. rewrite E in A.
      assert (V : val_eq (nth i a (VNum NaN)) (nth j a (VNum NaN)) = true).
      { eapply val_eq_trans; [rewrite val_eq_sym; exact A|exact B]. }
      destruct (lt_eq_lt_dec i j) as [[Q|Q]|Q]; auto.
      - rewrite (nth_ndup a D i j) in V by lia. discriminate.
      - rewrite val_eq_sym, (nth_ndup a D j i) in V by lia. discriminate. }
    assert (G : forall l, NoDup l -> (forall i, In i l -> (i < length a)%nat) -> NoDup (map f l)).
    { induction 1 as [|x l NI ND IH]; cbn; intro Q; constructor; auto.
      intro K. apply in_map_iff in K as (y & Y1 & Y2). apply NI. rewrite <- (INJ y x); auto. }
    apply G; [apply seq_NoDup|]. intros i I. apply in_seq in I. lia. }
  apply In_nth with (d := VNum NaN) in W as (j & J & EW).
  assert (IN : In j (map f (seq 0 (length a)))).
  { apply (NoDup_length_incl ND (l' := seq 0 (length b))).
    - rewrite map_length, !seq_length. lia.
    - intros k K. apply in_map_iff in K as (i & <- & I). apply in_seq in I. apply in_seq. destruct (FS i); lia.
    - apply in_seq. lia. }
  apply in_map_iff in IN as (i & E & I). apply in_seq in I. destruct (FS i ltac:(lia)) as [_ V]. rewrite E in V.
  apply has_val_iff. exists (nth i a (VNum NaN)). split; [apply nth_In; lia|]. rewrite val_eq_sym. rewrite <- EW. exact V.
Qed.
Lemma ro_eq_vals r t items items' c c' : r = mk_roster items c -> t = mk_roster items' c' -> ro_eq r t = true ->
  c = c' /\ forall v, has_val (ro_items r) v = has_val (ro_items t) v.
Proof.
  intros -> -> E. unfold ro_eq in E. apply andb_true_iff in E as [E C]. apply andb_true_iff in E as [L F].
  apply Nat.eqb_eq in L. apply Bool.eqb_prop in C. split; [exact C|].
  assert (D : ndup (ro_items (mk_roster items c))) by (apply add_vals_ndup; constructor).
  intro v. apply Bool.eq_true_iff_eq. split; intro H.
  - apply has_val_iff in H as (w & W & V). assert (has_val (ro_items (mk_roster items' c')) w = true) by (eapply forallb_forall in F; eauto).
    rewrite <- (has_val_eq _ _ _ V). auto.
  - apply has_val_iff in H as (w & W & V). rewrite <- (has_val_eq _ _ _ V). eapply ndup_incl; eauto.
    eapply val_eq_trans; [exact V|]. rewrite val_eq_sym. auto.
Qed.
Lemma ro_repl_vals r d v : has_val (ro_repl r d) v = true <->
  exists f s n, d = Some f /\ has_val (ro_items r) (VVar s) = true /\ f s = Some n /\ val_eq (VNum n) v = true.
Proof.
  unfold ro_repl. destruct d as [f|].
  2:{ split; [discriminate|]. intros (f & s & n & K & _). discriminate. }
  rewrite has_val_iff. split.
  - intros (w & W & E). apply in_flat_map in W as (x & X & I). destruct x as [n|s]; [destruct I|].
    destruct (f s) as [n|] eqn:F; [|destruct I]. destruct I as [<-|[]]. exists f, s, n. repeat split; auto.
    apply has_val_iff. exists (VVar s). split; auto. cbn. apply String.eqb_refl.
  - intros (g & s & n & E & H & F & V). injection E as <-. apply has_val_iff in H as (x & X & K).
    destruct x as [m|t]; cbn in K; [discriminate|]. apply String.eqb_eq in K. subst t.
    exists (VNum n). split; auto. apply in_flat_map. exists (VVar s). split; auto. rewrite F. left. auto.
Qed.
Lemma ro_test_seq r repl l : ro_test r repl (TSeq l) = forallb (ro_test r repl) l.
Proof. cbn. induction l; cbn; auto. Qed.
Lemma forallb_ext' {A} (f g : A -> bool) l : (forall x, In x l -> f x = g x) -> forallb f l = forallb g l.
Proof. induction l; cbn; auto. intro H. rewrite (H a) by auto. f_equal. auto. Qed.
Lemma ro_contains_ext r t d : ro_compl r = ro_compl t -> (forall v, has_val (ro_items r) v = has_val (ro_items t) v) ->
  forall v, ro_contains r v d = ro_contains t v d.
Proof.
  intros C H. assert (R : forall v, has_val (ro_repl r d) v = has_val (ro_repl t d) v).
  { intro v. apply Bool.eq_true_iff_eq. rewrite !ro_repl_vals. split; intros (f & s & n & A & B & K); exists f, s, n; rewrite H in *; auto. }
  unfold ro_contains. induction v using tval_ind'; cbn [ro_test]; rewrite ?C, ?H, ?R; auto.
  change (ro_test r (ro_repl r d) (TSeq l) = ro_test t (ro_repl t d) (TSeq l)). rewrite !ro_test_seq. apply forallb_ext'. auto.
Qed.

(** an order on nesting *)
Fixpoint mdepth (s : mset) : nat := match s with MComb l _ _ => S (fold_right (fun x => Nat.max (mdepth x)) 0%nat l) | _ => 0%nat end.
Lemma mdepth_in l u c x : In x l -> (mdepth x < mdepth (MComb l u c))%nat.
Proof. cbn. induction l as [|y l IH]; cbn; intros []; [subst; lia|]. apply IH in H. lia. Qed.
Lemma contains_comb_ext l m u c v d : length l = length m ->
  (forall i, (i < length l)%nat -> contains (nth i l (MRos (RO [] false))) v d = contains (nth i m (MRos (RO [] false))) v d) ->
  contains (MComb l u c) v d = contains (MComb m u c) v d.
Proof.
  intros L H. cbn [contains]. destruct u.
  - match goal with |- ?g l None = _ => set (go := g) end. generalize (@None exn). revert m L H.
    induction l as [|s l IH]; intros [|t m] L H e; try discriminate; auto. cbn.
    pose proof (H 0%nat ltac:(cbn; lia)) as E. cbn in E. rewrite E. cbn in L.
    assert (K : forall e, go l e = go m e). { apply IH; [lia|]. intros i I. apply (H (S i)). cbn. lia. }
    destruct (contains t v d) as [[|]|]; auto.
  - match goal with |- ?g l None = _ => set (go := g) end. generalize (@None exn). revert m L H.
    induction l as [|s l IH]; intros [|t m] L H e; try discriminate; auto. cbn.
    pose proof (H 0%nat ltac:(cbn; lia)) as E. cbn in E. rewrite E. cbn in L.
    assert (K : forall e, go l e = go m e). { apply IH; [lia|]. intros i I. apply (H (S i)). cbn. lia. }
    destruct (contains t v d) as [[|]|]; auto.
Qed.

Lemma built_inv_int i : built (MInt i) -> exists lo hi n c, i = mk_interval lo hi n c.
Proof. intro H. inversion H; subst; eauto. unfold mk_comb in *. destruct l; discriminate. Qed.
Lemma built_inv_ros r : built (MRos r) -> exists items c, r = mk_roster items c.
Proof. intro H. inversion H; subst; eauto. unfold mk_comb in *. destruct l; discriminate. Qed.
Lemma built_inv_comb l u c : built (MComb l u c) -> forall x, In x l -> built x.
Proof. intro H. inversion H as [| |l' u' c' s B E]; subst. unfold mk_comb in E. destruct l'; [discriminate|]. injection E as <- <- <-. auto. Qed.

Theorem mset_eq_sound : forall s t, built s -> built t -> mset_eq s t = true -> same_form s t ->
  forall v d, contains s v d = contains t v d.
Proof.
  enough (X : forall k s t, (mdepth s <= k)%nat -> built s -> built t -> mset_eq s t = true -> same_form s t -> forall v d, contains s v d = contains t v d).
  { intros s t. apply (X (mdepth s)). auto. }
  induction k as [k IH] using lt_wf_ind. intros s t K BS BT E F v d.
  destruct s as [i|r|l u c], t as [j|r'|m u' c']; cbn [mset_eq] in E; try discriminate.
  - destruct (built_inv_int _ BS) as (lo & hi & n & c & ->), (built_inv_int _ BT) as (lo' & hi' & n' & c' & ->).
    destruct F. apply iv_eq_sound; auto.
  - destruct (built_inv_ros _ BS) as (it & c & ->), (built_inv_ros _ BT) as (it' & c' & ->).
    destruct (ro_eq_vals _ _ _ _ _ _ eq_refl eq_refl E) as [C H]. cbn [contains]. f_equal. apply ro_contains_ext; auto.
  - apply andb_true_iff in E as [E U]. apply andb_true_iff in E as [E C]. apply Bool.eqb_prop in C, U. subst u' c'.
    pose proof (built_inv_comb _ _ _ BS) as BL. pose proof (built_inv_comb _ _ _ BT) as BM.
    assert (D : forall x, In x l -> (mdepth x < k)%nat). { intros x H. pose proof (mdepth_in l u c x H). lia. }
    clear BS BT K. cbn [same_form] in F.
    enough (G : length l = length m /\ forall i, (i < length l)%nat -> contains (nth i l (MRos (RO [] false))) v d = contains (nth i m (MRos (RO [] false))) v d).
    { destruct G. apply contains_comb_ext; auto. }
    revert m E F BM. induction l as [|a l IHl]; intros [|b m] E F BM; try contradiction. { split; [reflexivity|]. cbn. intros; lia. }
    apply andb_true_iff in E as [E1 E2]. destruct F as [F1 F2].
    destruct (IHl (fun x H => BL x (or_intror H)) (fun x H => D x (or_intror H)) m E2 F2 (fun x H => BM x (or_intror H))) as [L H].
    split; [cbn; lia|]. intros [|i] I; cbn.
    + apply (IH (mdepth a)); auto. { apply D. left. auto. } { apply BL. left. auto. } apply BM. left. auto.
    + apply H. cbn in I. lia.
Qed.

(** ** roster membership *)
Lemma fold_add_vals l : forall acc v, has_val (fold_left add_val l acc) v = has_val acc v || has_val l v.
Proof.
  induction l as [|x l IH]; intros acc v; cbn [fold_left]. { cbn. rewrite Bool.orb_false_r. auto. }
  rewrite IH. change (has_val (x :: l) v) with (val_eq x v || has_val l v). unfold add_val. destruct (has_val acc x) eqn:E.
  - destruct (val_eq x v) eqn:V; cbn [orb]; auto. rewrite <- (has_val_eq _ _ _ V), E. auto.
  - unfold has_val at 1. rewrite existsb_app. cbn. rewrite Bool.orb_false_r, <- Bool.orb_assoc. reflexivity.
Qed.
Lemma mk_roster_vals items c v : has_val (ro_items (mk_roster items c)) v = true <-> exists i, In i items /\ si_open i = false /\ val_eq (si_val i) v = true.
Proof.
  cbn [mk_roster ro_items]. rewrite fold_add_vals. cbn [has_val existsb orb]. rewrite has_val_iff. split.
  - intros (w & W & V). apply in_map_iff in W as (i & <- & W). apply filter_In in W as [A B]. exists i. destruct (si_open i); auto; discriminate.
  - intros (i & A & B & V). exists (si_val i). split; auto. apply in_map_iff. exists i. split; auto. apply filter_In. rewrite B. auto.
Qed.
