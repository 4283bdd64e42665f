(** Running concrete histories; deciding the side conditions on concrete states.
    Used only by the examples and counterexamples that stand beside the theorems. *)
From Verif Require Import Base Heap HeapSpec HeapInv HeapTree HeapMut HeapExt2 History.

(** the state after a list of calls *)
Fixpoint runs (ops : list op) (h : heap) : heap :=
  match ops with [] => h | o :: r => runs r (after o h) end.

Fixpoint anc_b (fuel : nat) (h : heap) (a y : loc) : option bool :=
  if Nat.eqb a y then Some true
  else match fuel with
       | O => None
       | S f => match nprt (hnode h y) with None => Some false | Some pl => anc_b f h a (pl_par pl) end
       end.
Lemma anc_b_false h a : forall fuel y, anc_b fuel h a y = Some false -> ~ Anc (view h) a y.
Proof.
  induction fuel as [|f IH]; intros y; cbn; destruct (Nat.eqb_spec a y) as [E|E]; try discriminate.
  intros H HA. inversion HA as [|? q Hq HA']; subst; [congruence|]. cbn in Hq.
  destruct (nprt (hnode h y)) as [pl|]; [|discriminate]. injection Hq as Hq. subst q. eapply IH; eauto.
Qed.

(** [allowed] as a check on concrete states (sound, not complete; only for the calls used
    in the examples). *)
Definition arg_ok_b (h : heap) (p : loc) (a : iarg) : bool :=
  Nat.ltb p (hnext h) &&
  match a with
  | IItem x => Nat.ltb x (hnext h) &&
               match parent_of h x with
               | Some _ => true
               | None => match anc_b (hnext h) h x p with Some false => true | _ => false end
               end
  | IVal _ => true
  end.
Lemma arg_ok_b_ok h p a : arg_ok_b h p a = true -> arg_ok h p a.
Proof.
  unfold arg_ok_b, arg_ok. intros H. apply andb_true_iff in H as [H1 H2]. apply Nat.ltb_lt in H1. split; [assumption|].
  destruct a as [x|v]; [|trivial]. apply andb_true_iff in H2 as [H2 H3]. apply Nat.ltb_lt in H2. split; [assumption|].
  intros E. rewrite E in H3. destruct (anc_b (hnext h) h x p) as [[|]|] eqn:Eb; try discriminate. eapply anc_b_false; eauto.
Qed.
Definition allowed_b (h : heap) (o : op) : bool :=
  match o with
  | ONew _ _ es _ _ => forallb (fun e => match e with EItem x => Nat.ltb x (hnext h) | _ => true end) es
  | OAppend p a | OAppendLeft p a => arg_ok_b h p a
  | OExtend p es | OExtendLeft p es => Nat.ltb p (hnext h) && forallb (fun e => match e with EItem x => Nat.ltb x (hnext h) &&
      match anc_b (hnext h) h x p with Some false => true | _ => false end | _ => true end) es
  | OExtendTree p q => Nat.ltb p (hnext h) && Nat.ltb q (hnext h)
  | ODelete p tg => match tg with TgSlice _ _ => false | _ => true end
  | ORotate p _ | OSort p _ _ | OClear p _ => Nat.ltb p (hnext h)
  | OCopy x => Nat.ltb x (hnext h)
  | OInsert _ _ _ | OSetItem _ _ _ | OMove _ _ | ORename _ _ => false
  | _ => true
  end.
Lemma allowed_b_ok h o : allowed_b h o = true -> allowed h o.
Proof.
  destruct o; cbn [allowed_b allowed]; intros H; try exact I; try discriminate;
    try (apply Nat.ltb_lt; assumption); try (apply arg_ok_b_ok; assumption).
  - rewrite forallb_forall in H. apply Forall_forall. intros e He. specialize (H e He). destruct e; try exact I.
    apply Nat.ltb_lt; assumption.
  - apply andb_true_iff in H as [H1 H2]. apply Nat.ltb_lt in H1. split; [assumption|]. rewrite forallb_forall in H2.
    apply Forall_forall. intros e He. specialize (H2 e He). destruct e; try exact I. apply andb_true_iff in H2 as [H2 H3].
    apply Nat.ltb_lt in H2. split; [assumption|]. intros _.
    destruct (anc_b (hnext h) h x p) as [[|]|] eqn:Eb; try discriminate. eapply anc_b_false; eauto.
  - apply andb_true_iff in H as [H1 H2]. apply Nat.ltb_lt in H1, H2. auto.
  - apply andb_true_iff in H as [H1 H2]. apply Nat.ltb_lt in H1. split; [assumption|]. rewrite forallb_forall in H2.
    apply Forall_forall. intros e He. specialize (H2 e He). destruct e; try exact I. apply andb_true_iff in H2 as [H2 H3].
    apply Nat.ltb_lt in H2. split; [assumption|].
    destruct (anc_b (hnext h) h x p) as [[|]|] eqn:Eb; try discriminate. eapply anc_b_false; eauto.
  - destruct tg; try exact I. discriminate.
Qed.
Fixpoint allowed_all (ops : list op) (h : heap) : bool :=
  match ops with [] => true | o :: r => allowed_b h o && allowed_all r (after o h) end.
Lemma reach_runs ops : forall h, Reach h -> allowed_all ops h = true -> Reach (runs ops h).
Proof.
  induction ops as [|o r IH]; intros h H A; [assumption|]. cbn in A. apply andb_true_iff in A as [A1 A2].
  cbn [runs]. apply IH; [|assumption]. apply Reach_step; [assumption|]. apply allowed_b_ok. assumption.
Qed.
Definition keeps_b (o : op) : bool := match o with OSort _ _ _ | OClear _ _ => false | _ => true end.
Lemma reach1_runs ops : forall h, Reach1 h -> allowed_all ops h = true -> forallb keeps_b ops = true -> Reach1 (runs ops h).
Proof.
  induction ops as [|o r IH]; intros h H A K; [assumption|]. cbn in A. apply andb_true_iff in A as [A1 A2].
  cbn in K. apply andb_true_iff in K as [K1 K2].
  cbn [runs]. apply IH; [|assumption|assumption]. apply Reach1_step; [assumption|apply allowed_b_ok; assumption|].
  destruct o; try exact I; discriminate.
Qed.

(** a small tree used in many examples:
      0 "root" with children 1 "a", 2 "b", 3 "a" (with child 5 "x"), 4 "c";  6 "free" without parent *)
Definition ex_ops : list op :=
  [ ONew (PStr "root") PNoValue
      [EArgs (PStr "a") (PInt 1); EArgs (PStr "b") (PInt 2); EArgs (PStr "a") (PInt 3);
       EArgs (PStr "c") (PInt 4)] None 0;
    ONew (PStr "x") (PInt 5) [] None 0;
    OAppend 3 (IItem 5);
    ONew (PStr "free") (PInt 6) [] None 0 ].
Definition ex_heap : heap := runs ex_ops empty_heap.
Lemma ex_reach : Reach ex_heap.
Proof. apply reach_runs; [constructor|vm_compute; reflexivity]. Qed.
Lemma ex_reach1 : Reach1 ex_heap.
Proof. apply reach1_runs; [constructor|vm_compute; reflexivity|reflexivity]. Qed.
