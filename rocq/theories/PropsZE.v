(** C91: iter_in() and filter() of the mathematical sets. *)
From Coq Require Import QArith.
From Verif Require Import Base MathSet MathIter.
Import ListNotations.
Local Open Scope list_scope.

(** * Specification *)
(** [answers test l bs e]: asking [test] for the elements of [l] one after the other gives [bs]
    and then ends (e = None) or raises e *)
Definition answers {A} (test : A -> res bool) (l : list A) (bs : list bool) (e : option exn) : Prop :=
  exists done rest, l = done ++ rest /\ map test done = map Ok bs /\
    match e with None => rest = [] | Some x => exists a r, rest = a :: r /\ test a = Err x end.
(** the elements that were asked and answered True *)
Fixpoint kept {A} (l : list A) (bs : list bool) : list A :=
  match l, bs with a :: l, b :: bs => if b then a :: kept l bs else kept l bs | _, _ => [] end.
(** the agreement with membership under the given dictionary: intervals and rosters deliver
    while they work, a combined set delivers all or nothing *)
Definition lazy (s : mset) : bool := match s with MComb _ _ _ => false | _ => true end.
Definition agrees (s : mset) (l : list arg) (d : vars) : Prop :=
  exists bs e, answers (fun a => arg_in s a d) l bs e /\
    raised (iter_in s l d) = e /\ raised (set_filter s l d) = e /\
    (e = None \/ lazy s = true -> delivered (iter_in s l d) = bs /\ delivered (set_filter s l d) = kept l bs) /\
    (e <> None /\ lazy s = false -> delivered (iter_in s l d) = [] /\ delivered (set_filter s l d) = []).
Definition plain (a : arg) : Prop := match a with AVal _ => True | APair _ _ => False end.
Definition no_vars (s : mset) : Prop :=
  match s with
  | MInt i => iv_vars i = false
  | MRos r => forallb (fun v => negb (is_var v)) (ro_items r) = true
  | MComb _ _ _ => True
  end.

(** * Facts *)
Lemma yields {A} (f g : A -> res bool) : forall l, (forall a, In a l -> f a = g a) ->
  exists bs, answers g l bs (raised (yield_all f l)) /\ delivered (yield_all f l) = bs /\
    raised (yield_if f l) = raised (yield_all f l) /\ delivered (yield_if f l) = kept l bs.
Proof.
  induction l as [|a l IH]; intros H; cbn [yield_all yield_if].
  - exists []. cbn. split; [exists [], []; repeat split|repeat split].
  - rewrite (H a (or_introl eq_refl)). destruct (g a) as [b|x] eqn:E.
    + destruct IH as (bs & (dn & rs & El & Em & Er) & I2 & I3 & I4); [intros c Hc; apply H; right; exact Hc|].
      exists (b :: bs). cbn [delivered raised]. split; [|split; [|split]].
      * exists (a :: dn), rs. split; [rewrite El; reflexivity|]. split; [cbn; rewrite E, Em; reflexivity|exact Er].
      * rewrite I2. reflexivity.
      * exact I3.
      * cbn [kept]. rewrite I4. reflexivity.
    + exists []. cbn. split; [|auto]. exists [], (a :: l). split; [reflexivity|]. split; [reflexivity|]. exists a, l. auto.
Qed.
Lemma agrees_gen s l d (f : arg -> res bool) : (forall a, In a l -> f a = arg_in s a d) ->
  iter_in s l d = (if lazy s then yield_all f l else strict (yield_all f l)) ->
  set_filter s l d = (if lazy s then yield_if f l else strict (yield_if f l)) -> agrees s l d.
Proof.
  intros H E1 E2. destruct (yields f (fun a => arg_in s a d) l H) as (bs & A1 & A2 & A3 & A4).
  exists bs, (raised (yield_all f l)). rewrite E1, E2. split; [exact A1|]. destruct (lazy s).
  - split; [reflexivity|]. split; [exact A3|]. split; [auto|]. intros [_ X]. discriminate.
  - unfold strict. rewrite A3. destruct (raised (yield_all f l)) as [e|] eqn:R; cbn.
    + split; [reflexivity|]. split; [reflexivity|]. split; [intros [X|X]; discriminate|auto].
    + rewrite R, A3, A2, A4. split; [reflexivity|]. split; [reflexivity|]. split; [auto|]. intros [X _]. congruence.
Qed.
Lemma repl_novars r d : forallb (fun v => negb (is_var v)) (ro_items r) = true -> ro_repl r d = [].
Proof.
  intros H. destruct d as [f|]; [|reflexivity]. cbn. induction (ro_items r) as [|v l IH]; [reflexivity|].
  cbn in *. apply andb_prop in H as [H1 H2]. destruct v; [|discriminate]. exact (IH H2).
Qed.
Lemma limits_novars i d e : iv_vars i = false -> limits d i = limits e i.
Proof. unfold iv_vars, limits. intros H. apply orb_false_iff in H as [H1 H2]. destruct (si_val (iv_lo i)), (si_val (iv_hi i)); try discriminate. reflexivity. Qed.

(** * C91 *)
(** combined sets: every argument, also pairs *)
Theorem C91_combine : forall l u c args d, agrees (MComb l u c) args d.
Proof. intros. apply (agrees_gen _ _ _ (fun a => arg_in (MComb l u c) a d)); reflexivity. Qed.
(** intervals and rosters: arguments that bring no dictionary of their own; or, when no
    dictionary was given to the call, also pairs for sets without variables *)
Theorem C91_iter_partial : forall s args d,
  (Forall plain args \/ (no_vars s /\ falsy d = true)) -> agrees s args d.
Proof.
  intros s args d H. destruct s as [i|r|l u c]; [| |apply C91_combine].
  - apply (agrees_gen _ _ _ (fun a => iv_in i a None (Some (limits (as_dict d) i)))); [|reflexivity|reflexivity].
    intros a Ha. cbn [arg_in]. destruct a as [v|v w].
    + reflexivity.
    + destruct H as [H|[H1 H2]]; [rewrite Forall_forall in H; destruct (H _ Ha)|].
      unfold iv_in. rewrite H2. cbn [falsy]. rewrite (limits_novars i (as_dict d) (as_dict (Some w)) H1). reflexivity.
  - apply (agrees_gen _ _ _ (fun a => Ok (ro_in r a None (ro_repl r (as_dict d))))); [|reflexivity|reflexivity].
    intros a Ha. cbn [arg_in]. f_equal. destruct a as [v|v w].
    + unfold ro_in. destruct (ro_repl r (as_dict d)); reflexivity.
    + destruct H as [H|[H1 H2]]; [rewrite Forall_forall in H; destruct (H _ Ha)|].
      unfold ro_in. rewrite H2. cbn [falsy]. rewrite !(repl_novars r _ H1). reflexivity.
Qed.
(** consequence in terms of the plain values: filter delivers exactly the members, in order *)
Theorem C91_filter : forall s vs d, (forall v, In v vs -> exists b, contains s v (as_dict d) = Ok b) ->
  set_filter s (map AVal vs) d = Gen (map AVal (filter (fun v => match contains s v (as_dict d) with Ok b => b | Err _ => false end) vs)) None /\
  iter_in s (map AVal vs) d = Gen (map (fun v => match contains s v (as_dict d) with Ok b => b | Err _ => false end) vs) None.
Proof.
  intros s vs d H.
  assert (Y : forall (f : arg -> res bool), (forall v, In v vs -> f (AVal v) = contains s v (as_dict d)) ->
    yield_if f (map AVal vs) = Gen (map AVal (filter (fun v => match contains s v (as_dict d) with Ok b => b | Err _ => false end) vs)) None /\
    yield_all f (map AVal vs) = Gen (map (fun v => match contains s v (as_dict d) with Ok b => b | Err _ => false end) vs) None).
  { intros f. induction vs as [|v vs IH]; intros Hf; [split; reflexivity|]. cbn [map yield_if yield_all filter].
    destruct (H v (or_introl eq_refl)) as [b Eb]. rewrite (Hf v (or_introl eq_refl)), Eb.
    destruct IH as [I1 I2]; [intros w Hw; apply H; right; exact Hw|intros w Hw; apply Hf; right; exact Hw|].
    rewrite I1, I2. cbn [delivered raised]. destruct b; split; reflexivity. }
  destruct s as [i|r|l u c]; cbn [set_filter iter_in].
  - apply Y. intros v _. reflexivity.
  - apply Y. intros v _. cbn [contains]. f_equal. unfold ro_in, ro_contains. destruct (ro_repl r (as_dict d)); reflexivity.
  - destruct (Y (fun a => arg_in (MComb l u c) a d)) as [I1 I2]; [reflexivity|]. rewrite I1, I2. split; reflexivity.
Qed.
(** a pair's own dictionary: [(5, {"n": 10}) in {x | 0 <= x <= n}] is True, but iter_in of that
    pair raises *)
Definition upto_n : mset := MInt (mk_interval (Some (SI (VNum (NI 0)) false)) (Some (SI (VVar "n") false)) false false).
Definition five_ten : arg := APair (TNum (NI 5)) [("n"%string, NI 10)].
Theorem C91_pair_refuted :
  arg_in upto_n five_ten None = Ok true /\ iter_in upto_n [five_ten] None = Gen [] (Some TypeError) /\
  ~ agrees upto_n [five_ten] None.
Proof.
  split; [reflexivity|]. split; [reflexivity|]. intros (bs & e & (dn & rs & El & Em & Er) & R & _).
  cbn in R. subst e. destruct Er as (a & r & -> & Ea). destruct dn as [|a' [|b dn]]; cbn in El.
  - injection El as <- <-. vm_compute in Ea. discriminate.
  - discriminate.
  - discriminate.
Qed.
(** next to a dictionary for the whole call: membership takes the pair for a sequence and asks for
    the variable names too, iter_in takes the pair apart *)
Definition one_to_three : mset := MInt (mk_interval (Some (SI (VNum (NI 1)) false)) (Some (SI (VNum (NI 3)) false)) false false).
Definition two_n : arg := APair (TNum (NI 2)) [("n"%string, NI 10)].
Theorem C91_two_dicts_refuted : exists d, falsy d = false /\
  arg_in one_to_three two_n d = Ok false /\ delivered (iter_in one_to_three [two_n] d) = [true] /\ ~ agrees one_to_three [two_n] d.
Proof.
  exists (Some [("k"%string, NI 1)]). split; [reflexivity|]. split; [vm_compute; reflexivity|]. split; [vm_compute; reflexivity|].
  intros (bs & e & (dn & rs & El & Em & Er) & R & _ & D & _). destruct (D (or_intror eq_refl)) as [D1 _].
  vm_compute in R. subst e rs. rewrite app_nil_r in El. subst dn. vm_compute in D1. subst bs. vm_compute in Em. discriminate.
Qed.
(** rosters with a variable behave the same way *)
Theorem C91_roster_refuted : exists s d a, falsy d = false /\ arg_in s a d <> Ok (hd false (delivered (iter_in s [a] d))).
Proof. exists (MRos (RO [VVar "n"; VNum (NI 5)] false)), (Some [("k"%string, NI 1)]), (APair (TNum (NI 10)) [("n"%string, NI 10)]). split; [reflexivity|]. vm_compute. discriminate. Qed.

(** a pair in place of the value: the test of the value under the dictionary of the pair, when no
    other dictionary with entries is given (or the set is a combination) *)
Theorem C91_pair : forall s v w d, (d = None \/ d = Some [] \/ exists l u c, s = MComb l u c) ->
  arg_in s (APair v w) d = contains s v (as_dict (Some w)).
Proof. intros s v w d H. destruct s as [i|r|l u c]; [| |reflexivity]; (destruct H as [-> |[-> |(l & u & c & H)]]; [reflexivity|reflexivity|discriminate]). Qed.
(** a name has the value that the dictionary gives it (names occur once in a Python dictionary) *)
Theorem C91_lookup : forall w, NoDup (map fst w) -> exists f, as_dict (Some w) = Some f /\ forall x n, f x = Some n <-> In (x, n) w.
Proof.
  intros w D. eexists. split; [reflexivity|]. intros x n. induction w as [|[k m] w IH]; [split; [discriminate|intros []]|].
  cbn [map fst] in D. inversion D as [|? ? N D']; subst. cbn [assoc In]. destruct (String.eqb_spec k x) as [->|K].
  - split; [intros H; injection H as <-; left; reflexivity|]. intros [H|H]; [injection H as <-; reflexivity|].
    exfalso. apply N. apply (in_map fst) in H. exact H.
  - rewrite (IH D'). split; [right; assumption|]. intros [H|H]; [injection H as H _; contradiction|exact H].
Qed.

(** the hypotheses are met: a set with variables, values that raise on the way *)
Example C91_example :
  iter_in upto_n [AVal (TNum (NI 5)); AVal (TNum (NF (21 # 2))); AVal (TStr "a")] (Some [("n"%string, NI 10)]) = Gen [true; false; false] None /\
  set_filter upto_n [AVal (TNum (NI 5)); AVal (TNum (NF (21 # 2))); AVal (TStr "a"); AVal (TNum (NI 0))] (Some [("n"%string, NI 10)])
    = Gen [AVal (TNum (NI 5)); AVal (TNum (NI 0))] None /\
  iter_in upto_n [AVal (TStr "a"); AVal (TNum (NI 5))] None = Gen [false] (Some TypeError) /\
  iter_in (MComb [upto_n] true false) [AVal (TStr "a"); AVal (TNum (NI 5))] None = Gen [] (Some TypeError).
Proof. repeat split; reflexivity. Qed.
