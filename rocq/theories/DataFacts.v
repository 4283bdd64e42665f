(** Proofs about value models *)
From Coq Require Import Ascii NArith.
From Verif Require Import Base MathSet MathSpec MathFacts DataModel.
Local Open Scope Z_scope.

Fixpoint dval_ind' (P : dval -> Prop) (H0 : P DNoValue) (HN : forall n, P (DNum n)) (HS : forall s, P (DStr s))
  (HL : forall l, (forall v, In v l -> P v) -> P (DSeq l)) (HO : forall n, P (DObj n)) (v : dval) {struct v} : P v :=
  match v with
  | DNoValue => H0
  | DNum n => HN n
  | DStr s => HS s
  | DObj n => HO n
  | DSeq l => HL l ((fix go (l : list dval) : forall v, In v l -> P v :=
                       match l with
                       | [] => fun v H => match H with end
                       | x :: r => fun v H => match H with or_introl E => eq_ind x P (dval_ind' P H0 HN HS HL HO x) v E | or_intror H => go r v H end
                       end) l)
  end.

(** ** specification of the shape of a value: the maximal length per nesting depth, as long as
    there is one.  A string counts with its length; one of a single character counts as a
    scalar at even depths only ([b] false). *)
Fixpoint pmax (s t : list Z) : list Z :=
  match s, t with
  | [], t => t
  | s, [] => s
  | a :: s, b :: t => Z.max a b :: pmax s t
  end.
Definition pmaxs (l : list (list Z)) : list Z := fold_right pmax [] l.
Definition str_len (s : string) : nat := length (list_ascii_of_string s).
Fixpoint shape (b : bool) (v : dval) : list Z :=
  match v with
  | DSeq [] => []
  | DSeq l => Z.of_nat (length l) :: pmaxs (map (shape (negb b)) l)
  | DStr s => if (str_len s <=? (if b then 0 else 1))%nat then [] else [Z.of_nat (str_len s)]
  | _ => []
  end.
(** the value fits into the model's shape *)
Definition fits (ts : list dim) (vs : list Z) : Prop :=
  (* no more dimensions than allowed, Any at the end allows every number *)
  ((length vs <= length ts)%nat \/ exists pre, ts = pre ++ [DimAny]) /\
  (* every length is within its limit *)
  (forall k n v, nth_error ts k = Some (Dim n) -> nth_error vs k = Some v -> v <= n) /\
  (* no fewer dimensions, unless the first missing one is Any *)
  ((length vs < length ts)%nat -> nth_error ts (length vs) = Some DimAny).

(** pmax is the least upper bound *)
Definition sle (s t : list Z) : Prop := (length s <= length t)%nat /\ forall k, (k < length s)%nat -> nth k s 0 <= nth k t 0.
Lemma sle_refl s : sle s s. Proof. split; [lia|intros; lia]. Qed.
Lemma sle_trans s t u : sle s t -> sle t u -> sle s u.
Proof. intros [A B] [C D]. split; [lia|]. intros k K. etransitivity; [apply B|apply D]; lia. Qed.
Lemma sle_nil s : sle [] s. Proof. split; cbn; [lia|intros; lia]. Qed.
Lemma sle_antisym s t : sle s t -> sle t s -> s = t.
Proof.
  intros [A B] [C D]. apply nth_ext with (d := 0) (d' := 0); [lia|]. intros k K. specialize (B k K). specialize (D k ltac:(lia)). lia.
Qed.
Lemma sle_cons a s b t : sle (a :: s) (b :: t) <-> a <= b /\ sle s t.
Proof.
  split.
  - intros [A B]. cbn in A. split; [apply (B 0%nat); cbn; lia|]. split; [lia|]. intros k K. apply (B (S k)). cbn. lia.
  - intros [H [A B]]. split; [cbn; lia|]. intros [|k] K; cbn in *; [lia|]. apply B. lia.
Qed.
Lemma pmax_l s : forall t, sle s (pmax s t).
Proof. induction s as [|a s IH]; intros [|b t]; cbn; auto using sle_nil, sle_refl. apply sle_cons. split; [lia|auto]. Qed.
Lemma pmax_r s : forall t, sle t (pmax s t).
Proof. induction s as [|a s IH]; intros [|b t]; cbn; auto using sle_nil, sle_refl. apply sle_cons. split; [lia|auto]. Qed.
Lemma pmax_lub s : forall t u, sle s u -> sle t u -> sle (pmax s t) u.
Proof.
  induction s as [|a s IH]; intros [|b t] [|c u] A B; cbn; auto using sle_nil.
  - destruct A as [A _]. cbn in A. lia.
  - apply sle_cons in A as [A1 A2], B as [B1 B2]. apply sle_cons. split; [lia|auto].
Qed.
Lemma pmaxs_ub l s : In s l -> sle s (pmaxs l).
Proof.
  induction l as [|x l IH]; cbn; intros []; [subst; apply pmax_l|]. eapply sle_trans; [apply IH; auto|apply pmax_r].
Qed.
Lemma pmaxs_lub l u : (forall s, In s l -> sle s u) -> sle (pmaxs l) u.
Proof. induction l as [|x l IH]; cbn; intro H; [apply sle_nil|]. apply pmax_lub; auto. Qed.
Lemma pmaxs_ext l m : (forall s, In s l -> s = [] \/ In s m) -> (forall s, In s m -> s = [] \/ In s l) -> pmaxs l = pmaxs m.
Proof.
  intros A B. apply sle_antisym; apply pmaxs_lub; intros s S.
  - destruct (A s S) as [->|K]; auto using sle_nil, pmaxs_ub.
  - destruct (B s S) as [->|K]; auto using sle_nil, pmaxs_ub.
Qed.

(** merge_shape is pmax *)
Lemma merge_pmax s : forall t, merge_shape s t = pmax s t.
Proof.
  induction s as [|a s IH]; intros [|b t]; cbn; auto. f_equal; auto. destruct (Z.ltb_spec a b); lia.
Qed.
Lemma pmax_comm s t : pmax s t = pmax t s.
Proof. apply sle_antisym; apply pmax_lub; auto using pmax_l, pmax_r. Qed.
Lemma pmax_assoc s t u : pmax s (pmax t u) = pmax (pmax s t) u.
Proof.
  apply sle_antisym.
  - apply pmax_lub. { eapply sle_trans; [apply (pmax_l s t)|apply pmax_l]. }
    apply pmax_lub. { eapply sle_trans; [apply (pmax_r s t)|apply pmax_l]. } apply pmax_r.
  - apply pmax_lub; [apply pmax_lub|]. { apply pmax_l. } { eapply sle_trans; [apply (pmax_l t u)|apply pmax_r]. }
    eapply sle_trans; [apply (pmax_r t u)|apply pmax_r].
Qed.
Lemma fold_merge l : forall acc, fold_left merge_shape l acc = pmax acc (pmaxs l).
Proof.
  induction l as [|x l IH]; intro acc; cbn. { destruct acc; auto. }
  rewrite IH, merge_pmax. symmetry. apply pmax_assoc.
Qed.
Lemma pmax_nil_l s : pmax [] s = s. Proof. destruct s; auto. Qed.

Definition max_len (rows : list (list (list Z))) : nat := fold_right Nat.max 0%nat (map (@length _) rows).
Lemma max_len_ge rows r : In r rows -> (length r <= max_len rows)%nat.
Proof. induction rows as [|x l IH]; cbn; intros []; [subst; lia|]. apply IH in H. unfold max_len in H. lia. Qed.
Lemma columns_len rows : length (columns rows) = max_len rows.
Proof. unfold columns. rewrite map_length, seq_length. auto. Qed.
Lemma in_columns rows s : In s (concat (columns rows)) -> s = [] \/ In s (concat rows).
Proof.
  intro H. apply in_concat in H as (c & C & H). apply in_map_iff in C as (k & <- & K). apply in_map_iff in H as (r & <- & R).
  destruct (nth_in_or_default k r []) as [I|E]; auto. right. apply in_concat. eauto.
Qed.
Lemma in_rows rows s : In s (concat rows) -> In s (concat (columns rows)).
Proof.
  intro H. apply in_concat in H as (r & R & H). apply In_nth with (d := []) in H as (k & K & E).
  apply in_concat. exists (map (fun r => nth k r []) rows). split.
  - apply in_map_iff. exists k. split; auto. apply in_seq. split; [lia|]. pose proof (max_len_ge _ _ R). unfold max_len in *. lia.
  - apply in_map_iff. exists r. auto.
Qed.
Lemma columns_pmaxs rows : pmaxs (concat (columns rows)) = pmaxs (concat rows).
Proof. apply pmaxs_ext; intros s S; [apply in_columns; auto|]. right. apply in_rows. auto. Qed.

(** the dimensions below: maximal row length, then the items *)
Definition rshape (r : list (list Z)) : list Z := match r with [] => [] | _ => Z.of_nat (length r) :: pmaxs r end.
Lemma pmaxs_app l m : pmaxs (l ++ m) = pmax (pmaxs l) (pmaxs m).
Proof. induction l as [|x l IH]; [reflexivity|]. change (pmax x (pmaxs (l ++ m)) = pmax (pmax x (pmaxs l)) (pmaxs m)). rewrite IH. apply pmax_assoc. Qed.
Lemma rshape_pmaxs rows : pmaxs (map rshape rows) =
  match max_len rows with O => [] | S _ => Z.of_nat (max_len rows) :: pmaxs (concat rows) end.
Proof.
  induction rows as [|r rows IH]; [reflexivity|]. cbn [map pmaxs fold_right]. change (fold_right pmax [] (map rshape rows)) with (pmaxs (map rshape rows)).
  rewrite IH. change (max_len (r :: rows)) with (Nat.max (length r) (max_len rows)). cbn [concat]. rewrite pmaxs_app.
  destruct r as [|x r].
  - change (rshape []) with (@nil Z). change (pmaxs []) with (@nil Z). rewrite !pmax_nil_l. reflexivity.
  - cbn [rshape]. destruct (max_len rows) as [|k] eqn:M.
    + assert (E : concat rows = []).
      { clear IH. induction rows as [|y rows IH]; auto. change (max_len (y :: rows)) with (Nat.max (length y) (max_len rows)) in M.
        destruct y; cbn in M; [|destruct (max_len rows); discriminate]. cbn. auto. }
      rewrite E. cbn [pmaxs fold_right]. rewrite Nat.max_0_r. cbn [pmax]. destruct (pmaxs (x :: r)) eqn:P; cbn [length]; auto.
      * f_equal. cbn [pmaxs fold_right] in P. rewrite P. auto.
      * f_equal. cbn [pmaxs fold_right] in P. rewrite P. auto.
    + cbn [length pmax]. replace (Nat.max (S (length r)) (S k)) with (S (Nat.max (length r) k)) by lia. cbn iota.
      f_equal. lia.
Qed.
Lemma max_shape_spec v : max_shape v = shape false v.
Proof.
  enough (X : (max_shape v = shape false v) /\ (match v with DSeq l' => rshape (map max_shape l') | DStr s => rshape (map (fun _ => []) (list_ascii_of_string s)) | _ => [] end = shape true v)) by apply X.
  induction v as [| |s|l IH|] using dval_ind'; try (split; reflexivity).
  - split; [reflexivity|]. cbn [shape]. unfold str_len. destruct (list_ascii_of_string s) as [|c r]; [reflexivity|].
    cbn [map rshape length Nat.leb]. rewrite map_length. f_equal. clear. cbn [pmaxs fold_right]. rewrite pmax_nil_l. induction r; cbn; auto.
  - split.
    + destruct l as [|x l0]; [reflexivity|]. set (l := x :: l0) in *.
      change (max_shape (DSeq l)) with
        (let rows := map (fun r => match r with DSeq l' => map max_shape l' | DStr s => map (fun _ => []) (list_ascii_of_string s) | _ => [] end) l in
         let cols := columns rows in let sub := fold_left merge_shape (concat cols) [] in
         match sub, cols with
         | _ :: _, _ => Z.of_nat (length l) :: Z.of_nat (length cols) :: sub
         | [], _ :: _ => [Z.of_nat (length l); Z.of_nat (length cols)]
         | [], [] => [Z.of_nat (length l)]
         end).
      cbn zeta. change (shape false (DSeq l)) with (Z.of_nat (length l) :: pmaxs (map (shape true) l)).
      set (rows := map _ l). rewrite fold_merge, pmax_nil_l, columns_pmaxs.
      assert (E : map (shape true) l = map rshape rows).
      { unfold rows. rewrite map_map. apply map_ext_in. intros v V. destruct (IH v V) as [_ H]. rewrite <- H. destruct v; reflexivity. }
      rewrite E, rshape_pmaxs. pose proof (columns_len rows) as CL. 
      destruct (max_len rows) as [|k] eqn:M.
      * destruct (columns rows) as [|c cs] eqn:C; [|discriminate].
        assert (Z : pmaxs (concat rows) = []). { rewrite <- columns_pmaxs, C. reflexivity. } rewrite Z. reflexivity.
      * rewrite CL. destruct (columns rows); [discriminate|]. destruct (pmaxs (concat rows)); reflexivity.
    + destruct l as [|x l0]; [reflexivity|]. set (l := x :: l0) in *.
      change (shape true (DSeq l)) with (Z.of_nat (length l) :: pmaxs (map (shape false) l)).
      change (rshape (map max_shape l)) with (Z.of_nat (length (map max_shape l)) :: pmaxs (map max_shape l)).
      rewrite map_length. do 2 f_equal. apply map_ext_in. intros v V. apply IH. auto.
Qed.

(** ** check_shape *)
Lemma last_any_iff ts : last_any ts = true <-> exists pre, ts = pre ++ [DimAny].
Proof.
  unfold last_any. split.
  - intro H. destruct (rev ts) as [|t r] eqn:E; [discriminate|]. destruct t; try discriminate.
    exists (rev r). rewrite <- (rev_involutive ts), E. reflexivity.
  - intros (pre & ->). rewrite rev_app_distr. reflexivity.
Qed.
Lemma check_shape_spec all vs : forall ts, 
  check_shape all ts vs = true <->
  ((length vs <= length ts)%nat \/ last_any all = true) /\
  (forall k n v, nth_error ts k = Some (Dim n) -> nth_error vs k = Some v -> v <= n) /\
  ((length vs < length ts)%nat -> nth_error ts (length vs) = Some DimAny).
Proof.
  induction vs as [|v vs IH]; intros [|t ts]; cbn [check_shape length nth_error].
  - split; auto. intros _. split; [left; lia|]. split; [intros [|k]; discriminate|lia].
  - split.
    + intro H. split; [left; lia|]. split; [intros [|k]; discriminate|]. intros _. destruct t; try discriminate. auto.
    + intros (_ & _ & H). specialize (H ltac:(lia)). injection H as ->. auto.
  - split.
    + intro H. split; [auto|]. split; [intros [|k]; discriminate|lia].
    + intros ([H|H] & _); [lia|auto].
  - rewrite andb_true_iff, IH. split.
    + intros (D & A & B & C). split; [destruct A; auto; left; lia|]. split.
      * intros [|k] n w E F; cbn in E, F; [|eapply B; eauto]. injection E as ->. injection F as <-. cbn in D. apply Z.leb_le in D. lia.
      * intro H. apply C. lia.
    + intros (A & B & C). split.
      * destruct t; auto. cbn. apply Z.leb_le. apply (B 0%nat n v); auto.
      * split; [destruct A; auto; left; lia|]. split; [intros k n w E F; apply (B (S k) n w); auto|]. intro H. apply C. lia.
Qed.
Lemma check_fits ts vs : check_shape ts ts vs = true <-> fits ts vs.
Proof. rewrite check_shape_spec, last_any_iff. reflexivity. Qed.

(** ** accepted values *)
(** the value w results from v by casting all its items, each being in the allowed set *)
Inductive cast_ok (m : vmodel) : dval -> dval -> Prop :=
| cast_leaf v w : (forall l, v <> DSeq l) -> vm_cast m v = Ok w ->
    (forall c, vm_contains m = Some c -> c w = Ok true) -> cast_ok m v w
| cast_seq l l' : Forall2 (cast_ok m) l l' -> cast_ok m (DSeq l) (DSeq l').
Definition fits_model (m : vmodel) (w : dval) : Prop := forall ts, vm_shape m = Some ts -> fits ts (shape false w).
Lemma leaf_ok m v w : leaf m v = Ok w <-> vm_cast m v = Ok w /\ (forall c, vm_contains m = Some c -> c w = Ok true).
Proof.
  unfold leaf. destruct (vm_cast m v) as [x|]; cbn [rbind]; [|split; [discriminate|intros [K _]; discriminate]].
  destruct (vm_contains m) as [c|].
  - destruct (c x) as [[|]|] eqn:E; cbn [rbind]; split; try discriminate.
    + intro K. injection K as <-. split; auto. intros c' K. injection K as <-. auto.
    + intros [K _]. auto.
    + intros [K L]. injection K as <-. rewrite (L c eq_refl) in E. discriminate.
    + intros [K L]. injection K as <-. rewrite (L c eq_refl) in E. discriminate.
  - split; [|tauto]. intro K. split; auto. discriminate.
Qed.
Lemma rec_check_ok m v : forall w, rec_check m v = Ok w <-> cast_ok m v w.
Proof.
  induction v as [| | |l IH|] using dval_ind'; intro w.
  1,2,3,5: cbn [rec_check]; rewrite leaf_ok; split;
    [intros [A B]; constructor; auto; intros; discriminate|intro H; inversion H; subst; auto].
  cbn [rec_check].
  match goal with |- rbind (?g l) _ = _ <-> _ => set (go := g) end.
  assert (X : forall l', go l = Ok l' <-> Forall2 (cast_ok m) l l').
  { clear w. induction l as [|x l IHl]; intro l'; cbn.
    - split; [intro K; injection K as <-; constructor|intro H; inversion H; auto].
    - fold go. pose proof (IH x (or_introl eq_refl)) as Hx. specialize (IHl (fun v V => IH v (or_intror V))).
      destruct (rec_check m x) as [y|e]; cbn [rbind].
      + destruct (go l) as [r|e]; cbn [rbind].
        * split.
          -- intro K. injection K as <-. constructor; [apply Hx; auto|apply IHl; auto].
          -- intro H. inversion H; subst. apply Hx in H2. injection H2 as ->. apply IHl in H4. injection H4 as ->. auto.
        * split; [discriminate|]. intro H. inversion H; subst. apply IHl in H4. discriminate.
      + split; [discriminate|]. intro H. inversion H; subst. apply Hx in H2. discriminate. }
  destruct (go l) as [r|e] eqn:E; cbn [rbind].
  - split; [intro K; injection K as <-; constructor; apply X; auto|].
    intro H. inversion H; subst. { exfalso. eapply H0; reflexivity. } apply X in H1. injection H1 as ->. auto.
  - split; [discriminate|]. intro H. inversion H; subst. { exfalso. eapply H0; reflexivity. } apply X in H1. discriminate.
Qed.
Theorem accept_ok m v w : accept m v = Ok w <-> cast_ok m v w /\ fits_model m w.
Proof.
  unfold accept, fits_model. pose proof (rec_check_ok m v) as R. destruct (rec_check m v) as [x|e]; cbn [rbind].
  - destruct (vm_shape m) as [ts|].
    + rewrite max_shape_spec. destruct (check_shape ts ts (shape false x)) eqn:C.
      * split.
        -- intro K. injection K as <-. split; [apply R; auto|]. intros t K. injection K as <-. apply check_fits. auto.
        -- intros [A _]. apply R in A. auto.
      * split; [discriminate|]. intros [A B]. apply R in A. injection A as ->. specialize (B _ eq_refl). apply check_fits in B. congruence.
    + split; [intro K; split; [apply R; auto|discriminate]|]. intros [A _]. apply R in A. auto.
  - split; [discriminate|]. intros [A _]. apply R in A. discriminate.
Qed.
