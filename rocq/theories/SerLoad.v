(** The level machine of [create_itree_from_raw] builds the tree whose pre-order list it reads. *)
From Verif Require Import Base Heap HeapSpec HeapInv HeapOps Deep JsonModel SerModel Tree HeapHoare.
Import ListNotations.
Open Scope list_scope.

Definition rdepth (n : nat) (r : row) : Prop := exists l, r = JInt (Z.of_nat n) :: l.
Fixpoint at_depth (n : nat) (R : tree row) : Prop :=
  match R with Node r cs => rdepth n r /\ (fix all l := match l with [] => True | c :: l => at_depth (S n) c /\ all l end) cs end.
Lemma at_depth_iff n r cs : at_depth n (Node r cs) <-> rdepth n r /\ Forall (at_depth (S n)) cs.
Proof.
  cbn. assert (H : (fix all l := match l with [] => True | c :: l => at_depth (S n) c /\ all l end) cs <-> Forall (at_depth (S n)) cs); [|tauto].
  induction cs as [|c cs IH]; [split; auto|]. split; [intros [A B]; constructor; tauto|inversion 1; tauto].
Qed.

(** what is built for a (sub)tree of rows: a leaf stays a row *)
Fixpoint build_entry (R : tree row) : M entry :=
  match R with
  | Node r [] => ret (ERaw r)
  | Node r cs => es <- (fix go l := match l with [] => ret [] | c :: l => e <- build_entry c ;; es <- go l ;; ret (e :: es) end) cs ;;
                 xs <- mapM build es ;; x <- make r xs ;; ret (EDone x)
  end.
Definition push (e : entry) (st : lstate) : lstate :=
  (match fst st with top :: rest => (e :: top) :: rest | [] => [[e]] end, match e with EDone x => Some x | ERaw _ => snd st end).

Lemma close_len st h st' h' : close st h = (h', Ok st') -> length (fst st) = S (length (fst st')).
Proof.
  unfold close. destruct (fst st) as [|top [|[|[r|y] es] rest]]; try discriminate.
  destruct (mapM build (rev top) h) as [h1 [xs|e]] eqn:E1; [rewrite (bind_ok _ _ _ _ _ E1)|rewrite (bind_err _ _ _ _ _ E1); discriminate].
  destruct (make r xs h1) as [h2 [x|e]] eqn:E2; [rewrite (bind_ok _ _ _ _ _ E2)|rewrite (bind_err _ _ _ _ _ E2); discriminate].
  intros [= <- <-]. reflexivity.
Qed.
Lemma close_eq st top r es rest h : fst st = top :: (ERaw r :: es) :: rest ->
  close st h = (cs <- mapM build (rev top) ;; x <- make r cs ;; ret ((EDone x :: es) :: rest, Some x)) h.
Proof. intros E. unfold close. rewrite E. reflexivity. Qed.
Lemma close_n_len n : forall st h st' h', close_n n st h = (h', Ok st') -> length (fst st) = n + length (fst st').
Proof.
  induction n as [|n IH]; intros st h st' h'; cbn [close_n]; [intros [= <- <-]; reflexivity|].
  destruct (close st h) as [h1 [st1|e]] eqn:E1; [rewrite (bind_ok _ _ _ _ _ E1)|rewrite (bind_err _ _ _ _ _ E1); discriminate].
  intros E. rewrite (close_len _ _ _ _ E1), (IH _ _ _ _ E). reflexivity.
Qed.
Lemma bind_ext {A B} (m : M A) (k k' : A -> M B) h : (forall a h', m h = (h', Ok a) -> k a h' = k' a h') -> bind m k h = bind m k' h.
Proof. intros H. unfold bind. destruct (m h) as [h' [a|e]]; [apply H|]; reflexivity. Qed.
Lemma bind_assoc' {A B C} (m : M A) (k : A -> M B) (j : B -> M C) h : bind (bind m k) j h = bind m (fun a => bind (k a) j) h.
Proof. unfold bind. destruct (m h) as [h' [a|e]]; reflexivity. Qed.
Lemma close_n_add a : forall b st h, close_n (a + b) st h = (st' <- close_n a st ;; close_n b st') h.
Proof.
  induction a as [|a IH]; intros b st h; [reflexivity|]. cbn [Nat.add close_n].
  rewrite bind_assoc'. apply bind_ext. intros st1 h1 _. apply IH.
Qed.

(** continuations that first close everything above depth n *)
Definition lazy {B} (n : nat) (k : lstate -> M B) : Prop :=
  forall st h, S n <= length (fst st) -> k st h = (st' <- close_n (length (fst st) - S n) st ;; k st') h.
Lemma lazy_S {B} n (k : lstate -> M B) : lazy n k -> lazy (S n) k.
Proof.
  intros L st h Hl. rewrite (L st h) by lia.
  replace (length (fst st) - S n) with ((length (fst st) - S (S n)) + 1) by lia.
  unfold bind at 1. rewrite close_n_add. unfold bind at 1 2.
  destruct (close_n (length (fst st) - S (S n)) st h) as [h1 [st1|e]] eqn:E1; [|reflexivity].
  pose proof (close_n_len _ _ _ _ _ E1) as Q. rewrite (L st1 h1) by lia.
  replace (length (fst st1) - S n) with 1 by lia. reflexivity.
Qed.

Lemma step_row_low n r st h : rdepth n r -> S n <= length (fst st) ->
  step_row st r h = (st' <- close_n (length (fst st) - S n) st ;; ret (add_row r st')) h.
Proof.
  intros (l & ->) Hl. unfold step_row.
  destruct (Z.eqb_spec (Z.of_nat n) (Z.of_nat (length (fst st)) - 1)) as [E|N1].
  - replace (length (fst st) - S n) with 0 by lia. reflexivity.
  - destruct (Z.eqb_spec (Z.of_nat n) (Z.of_nat (length (fst st)) - 1 + 1)); [lia|].
    destruct (Z.ltb_spec (Z.of_nat n) (Z.of_nat (length (fst st)) - 1)); [|lia].
    replace (Z.to_nat (Z.of_nat (length (fst st)) - 1 - Z.of_nat n)) with (length (fst st) - S n) by lia. reflexivity.
Qed.
Lemma step_row_eq n r st h : rdepth n r -> length (fst st) = S n -> step_row st r h = (h, Ok (add_row r st)).
Proof. intros D Hl. rewrite (step_row_low n r st h D) by lia. replace (length (fst st) - S n) with 0 by lia. reflexivity. Qed.
Lemma step_row_open n r st h : rdepth n r -> n = length (fst st) -> step_row st r h = (h, Ok ([ERaw r] :: fst st, snd st)).
Proof.
  intros (l & ->) Hl. unfold step_row.
  destruct (Z.eqb_spec (Z.of_nat n) (Z.of_nat (length (fst st)) - 1)); [lia|].
  destruct (Z.eqb_spec (Z.of_nat n) (Z.of_nat (length (fst st)) - 1 + 1)); [reflexivity|lia].
Qed.
Lemma rows_loop_app l : forall m st h, rows_loop (l ++ m) st h = (st' <- rows_loop l st ;; rows_loop m st') h.
Proof.
  induction l as [|r l IH]; intros m st h; [reflexivity|]. cbn [app rows_loop]. rewrite bind_assoc'. apply bind_ext. intros st1 h1 _. apply IH.
Qed.
Lemma rows_lazy {B} n r l (k : lstate -> M B) : rdepth n r -> lazy n (fun st => st' <- rows_loop (r :: l) st ;; k st').
Proof.
  intros D st h Hl. cbn [rows_loop]. rewrite !bind_assoc'. 
  unfold bind at 1. rewrite (step_row_low n r st h D Hl). unfold bind at 1 3.
  destruct (close_n (length (fst st) - S n) st h) as [h1 [st1|e]] eqn:E1; [|reflexivity].
  pose proof (close_n_len _ _ _ _ _ E1) as Q. rewrite bind_assoc'. unfold bind at 2.
  rewrite (step_row_low n r st1 h1 D) by lia. replace (length (fst st1) - S n) with 0 by lia. reflexivity.
Qed.

Definition pushes (es : list entry) (st : lstate) : lstate := fold_left (fun st e => push e st) es st.
Lemma pushes_top es : forall top rest it, fst (pushes es (top :: rest, it)) = (rev es ++ top) :: rest.
Proof.
  induction es as [|e es IH]; intros top rest it; [reflexivity|]. unfold pushes. cbn [fold_left].
  change (fst (pushes es (push e (top :: rest, it))) = (rev (e :: es) ++ top) :: rest). unfold push at 1. cbn [fst]. rewrite IH. cbn [rev]. rewrite <- app_assoc. reflexivity.
Qed.
Lemma push_len e st : fst st <> [] -> length (fst (push e st)) = length (fst st).
Proof. unfold push. destruct (fst st); [congruence|]. reflexivity. Qed.

Lemma mapM_cons {A B} (f : A -> M B) a l h : mapM f (a :: l) h = (b <- f a ;; bs <- mapM f l ;; ret (b :: bs)) h.
Proof. reflexivity. Qed.

Lemma build_entry_node r c cs h : build_entry (Node r (c :: cs)) h =
  (es <- mapM build_entry (c :: cs) ;; xs <- mapM build es ;; x <- make r xs ;; ret (EDone x)) h.
Proof.
  set (go := fix go (l : list (tree row)) : M (list entry) := match l with [] => ret [] | c :: l => e <- build_entry c ;; es <- go l ;; ret (e :: es) end).
  change ((es <- go (c :: cs) ;; xs <- mapM build es ;; x <- make r xs ;; ret (EDone x)) h = (es <- mapM build_entry (c :: cs) ;; xs <- mapM build es ;; x <- make r xs ;; ret (EDone x)) h).
  assert (G : forall l h, go l h = mapM build_entry l h).
  { induction l as [|a l IH]; intros h0; [reflexivity|]. cbn [mapM]. unfold go at 1. fold go. apply bind_ext. intros e h1 _. unfold bind. rewrite IH. reflexivity. }
  unfold bind at 1 4. rewrite G. reflexivity.
Qed.

Definition tree_ok (R : tree row) : Prop := forall B n (k : lstate -> M B) st h, at_depth n R -> lazy n k -> length (fst st) = S n ->
  (st' <- rows_loop (flatten R) st ;; k st') h = (e <- build_entry R ;; k (push e st)) h.

Lemma forest_ok cs : Forall tree_ok cs -> forall B n (k : lstate -> M B) st h, Forall (at_depth n) cs -> lazy n k -> length (fst st) = S n ->
  (st' <- rows_loop (flat_map flatten cs) st ;; k st') h = (es <- mapM build_entry cs ;; k (pushes es st)) h.
Proof.
  induction 1 as [|R cs HR _ IH]; intros B n k st h HD L Hl; [reflexivity|].
  inversion HD as [|? ? D HD']; subst. cbn [flat_map].
  assert (L2 : lazy n (fun st => st' <- rows_loop (flat_map flatten cs) st ;; k st')).
  { destruct cs as [|[r ds] cs]; [exact L|]. inversion HD' as [|? ? D2 _]; subst. apply at_depth_iff in D2. cbn [flat_map flatten app]. apply rows_lazy. apply D2. }
  unfold bind at 1. rewrite rows_loop_app. fold (bind (bind (rows_loop (flatten R) st) (fun st' => rows_loop (flat_map flatten cs) st')) k h).
  change ((st' <- (st' <- rows_loop (flatten R) st ;; rows_loop (flat_map flatten cs) st') ;; k st') h = (es <- mapM build_entry (R :: cs) ;; k (pushes es st)) h).
  rewrite bind_assoc'. rewrite (HR B n (fun st => st' <- rows_loop (flat_map flatten cs) st ;; k st') st h D L2 Hl).
  cbn [mapM]. rewrite bind_assoc'. apply bind_ext. intros e h1 _. rewrite bind_assoc'.
  rewrite (IH B n k (push e st) h1 HD' L).
  - apply bind_ext. intros es h2 _. reflexivity.
  - rewrite push_len; [exact Hl|]. destruct (fst st); [discriminate|congruence].
Qed.

Lemma tree_ok_all R : tree_ok R.
Proof.
  induction R as [r cs IH] using tree_ind'. intros B n k st h D L Hl. apply at_depth_iff in D. destruct D as [Dr Dc].
  cbn [flatten rows_loop]. rewrite bind_assoc'. unfold bind at 1. rewrite (step_row_low n r st h Dr) by lia.
  replace (length (fst st) - S n) with 0 by lia. cbn [close_n]. unfold bind at 1, ret at 1 2.
  destruct st as [[|top rest] it]; [discriminate|]. cbn [add_row fst snd] in *.
  destruct cs as [|c cs]; [reflexivity|].
  (* the first child opens a level *)
  assert (Open : forall h', rows_loop (flat_map flatten (c :: cs)) ((ERaw r :: top) :: rest, it) h' = rows_loop (flat_map flatten (c :: cs)) ([] :: (ERaw r :: top) :: rest, it) h').
  { intros h'. destruct c as [rc ds]. inversion Dc as [|? ? Dc1 _]; subst. apply at_depth_iff in Dc1 as [Dc1 _]. cbn [flat_map flatten app rows_loop].
    unfold bind at 1 2. rewrite (step_row_open (S n) rc) by (assumption || (cbn [fst Datatypes.length] in *; lia)). 
    rewrite (step_row_eq (S n) rc) by (assumption || (cbn [fst Datatypes.length] in *; lia)). reflexivity. }
  unfold bind at 1. rewrite Open.
  change ((st' <- rows_loop (flat_map flatten (c :: cs)) ([] :: (ERaw r :: top) :: rest, it) ;; k st') h = (e <- build_entry (Node r (c :: cs)) ;; k (push e (top :: rest, it))) h).
  rewrite (forest_ok (c :: cs) IH B (S n) k) by (assumption || (apply lazy_S; assumption) || (cbn [fst Datatypes.length] in *; lia)).
  unfold bind at 2. rewrite build_entry_node.
  change ((es <- mapM build_entry (c :: cs) ;; k (pushes es ([] :: (ERaw r :: top) :: rest, it))) h =
    (e <- (es <- mapM build_entry (c :: cs) ;; xs <- mapM build es ;; x <- make r xs ;; ret (EDone x)) ;; k (push e (top :: rest, it))) h).
  rewrite bind_assoc'. apply bind_ext. intros es h1 _.
  set (st2 := pushes es _). assert (F2 : fst st2 = (rev es ++ []) :: (ERaw r :: top) :: rest) by apply pushes_top.
  assert (L2 : length (fst st2) = S (S n)) by (etransitivity; [exact (f_equal (@Datatypes.length _) F2)|]; cbn [fst Datatypes.length] in *; lia).
  rewrite (L st2 h1) by lia. rewrite L2. replace (S (S n) - S n) with 1 by lia.
  cbn [close_n]. rewrite bind_assoc'. unfold bind at 1. rewrite (close_eq st2 _ _ _ _ h1 F2), app_nil_r, rev_involutive.
  rewrite bind_assoc'. unfold bind at 1 4. destruct (mapM build es h1) as [h2 [xs|e]]; [|reflexivity]. rewrite bind_assoc'.
  unfold bind at 1 3. destruct (make r xs h2) as [h3 [x|e]]; reflexivity.
Qed.

Theorem create_rows R h : at_depth 0 R ->
  create_from_raw (flatten R) h =
  (e <- build_entry R ;; match e with EDone x => ret x | ERaw _ => throw UnboundLocalError end) h.
Proof.
  intros D. unfold create_from_raw.
  set (k := fun st : lstate => st' <- close_n (length (fst st) - 1) st ;; match snd st' with Some x => ret x | None => throw UnboundLocalError end).
  assert (L : lazy 0 k).
  { intros st h0 Hl. unfold k. unfold bind at 1 2. destruct (close_n (length (fst st) - 1) st h0) as [h1 [st1|e]] eqn:E1; [|reflexivity].
    pose proof (close_n_len _ _ _ _ _ E1) as Q. unfold bind. replace (length (fst st1) - 1) with 0 by lia. reflexivity. }
  change ((st' <- rows_loop (flatten R) ([[]], None) ;; k st') h = (e <- build_entry R ;; match e with EDone x => ret x | ERaw _ => throw UnboundLocalError end) h).
  rewrite (tree_ok_all R _ 0 k) by (assumption || reflexivity). apply bind_ext. intros [r|x] h1 _; reflexivity.
Qed.
