(** The bookkeeping of load_links: keys of children, local items, and which items are appended. *)
From Coq Require Import List Permutation.
From Verif Require Import Base Heap HeapSpec ListLemmas ForestLemmas HeapInv HeapAttach HeapOps HeapOps2 Tree HeapTree HeapCopy Deep SerModel LinkModel LinkFacts.
Import ListNotations.
Local Open Scope list_scope.

Lemma forallb_filter_id {A} (f : A -> bool) l : forallb f l = true -> filter f l = l.
Proof. induction l as [|a l IH]; [reflexivity|]. cbn. intros H. apply andb_true_iff in H as [H K]. rewrite H, IH by exact K. reflexivity. Qed.
(** * Keys *)
Lemma key_eqb_eq (a b : pyval * Z) : key_eqb a b = true <-> a = b.
Proof.
  unfold key_eqb. rewrite andb_true_iff, pyval_eqb_eq, Z.eqb_eq. destruct a, b; cbn. split; [intros [-> ->]; reflexivity|intros [= -> ->]; auto].
Qed.
Lemma key_eqb_refl k : key_eqb k k = true. Proof. apply key_eqb_eq. reflexivity. Qed.
Lemma key_eqb_neq a b : key_eqb a b = false <-> a <> b.
Proof. rewrite <- key_eqb_eq. destruct (key_eqb a b); intuition congruence. Qed.

(** (tag, family number) of the items of [l] that follow the items [pre] *)
Fixpoint keys_from (tg : loc -> pyval) (pre l : list loc) : list (pyval * Z) :=
  match l with [] => [] | y :: r => (tg y, Z.of_nat (length (byt tg (tg y) pre))) :: keys_from tg (pre ++ [y]) r end.
Lemma keys_from_app tg l1 : forall pre l2, keys_from tg pre (l1 ++ l2) = keys_from tg pre l1 ++ keys_from tg (pre ++ l1) l2.
Proof. induction l1 as [|y r IH]; intros pre l2; cbn [app keys_from]; [rewrite app_nil_r; reflexivity|]. rewrite IH, <- app_assoc. reflexivity. Qed.
Lemma keys_from_ge tg l : forall pre t n, In (t, Z.of_nat n) (keys_from tg pre l) -> length (byt tg t pre) <= n.
Proof.
  induction l as [|y r IH]; intros pre t n; [intros []|]. intros [E|H].
  - injection E as <- E. lia.
  - apply IH in H. rewrite byt_app, app_length in H. lia.
Qed.
Lemma keys_from_NoDup tg l : forall pre, NoDup (keys_from tg pre l).
Proof.
  induction l as [|y r IH]; intros pre; constructor; [|apply IH]. intros H. apply keys_from_ge in H.
  rewrite byt_app, byt_cons, pyval_eqb_refl, app_length in H. cbn in H. lia.
Qed.
Lemma keys_from_length tg l : forall pre, length (keys_from tg pre l) = length l.
Proof. induction l as [|y r IH]; intros pre; cbn; [reflexivity|]. rewrite IH. reflexivity. Qed.
Lemma keys_from_ext tg tg' l : forall pre, (forall y, In y (pre ++ l) -> tg y = tg' y) -> keys_from tg pre l = keys_from tg' pre l.
Proof.
  induction l as [|y r IH]; intros pre H; [reflexivity|]. cbn [keys_from].
  assert (E : tg y = tg' y) by (apply H; apply in_elt). rewrite E. f_equal.
  - do 3 f_equal. apply filter_ext_in. intros z Hz. rewrite H; [reflexivity|]. apply in_app_iff. auto.
  - apply IH. intros z Hz. apply H. rewrite <- app_assoc in Hz. exact Hz.
Qed.

(** * The dictionary of local items *)
Notation lmap := (list ((pyval * Z) * lent)) (only parsing).
Lemma lset_new (L : lmap) k e : ~ In k (map fst L) -> lset L k e = L ++ [(k, e)].
Proof.
  induction L as [|(k', e') r IH]; intros H; [reflexivity|]. cbn [lset]. destruct (key_eqb k' k) eqn:E.
  - apply key_eqb_eq in E. exfalso. apply H. left. exact E.
  - rewrite IH; [reflexivity|]. intros K. apply H. right. exact K.
Qed.
Lemma lget_in (L : lmap) k e : NoDup (map fst L) -> (lget L k = Some e <-> In (k, e) L).
Proof.
  induction L as [|(k', e') r IH]; intros ND; [split; [discriminate|intros []]|]. inversion ND as [|? ? N ND']; subst. cbn [lget].
  destruct (key_eqb k' k) eqn:E.
  - apply key_eqb_eq in E as ->. split; [intros [= ->]; left; reflexivity|]. intros [[= ->]|H]; [reflexivity|]. exfalso. apply N. apply in_map_iff. exists (k, e). auto.
  - rewrite (IH ND'). apply key_eqb_neq in E. split; [right; assumption|]. intros [[= A _]|H]; [congruence|exact H].
Qed.
Lemma lget_none (L : lmap) k : lget L k = None <-> ~ In k (map fst L).
Proof.
  induction L as [|(k', e') r IH]; [split; [intros _ []|reflexivity]|]. cbn [lget map fst]. destruct (key_eqb k' k) eqn:E.
  - apply key_eqb_eq in E as ->. split; [discriminate|]. intros H. exfalso. apply H. left. reflexivity.
  - apply key_eqb_neq in E. rewrite IH. cbn. tauto.
Qed.
Lemma ldel_filter (L : lmap) k : NoDup (map fst L) -> ldel L k = filter (fun p => negb (key_eqb (fst p) k)) L.
Proof.
  induction L as [|(k', e') r IH]; intros ND; [reflexivity|]. inversion ND as [|? ? N ND']; subst. cbn [ldel filter fst]. destruct (key_eqb k' k) eqn:E; cbn [negb].
  - apply key_eqb_eq in E as ->. symmetry. apply forallb_filter_id. apply forallb_forall. intros p Hp. apply negb_true_iff, key_eqb_neq. intros E2. apply N. rewrite <- E2. apply in_map. exact Hp.
  - rewrite (IH ND'). reflexivity.
Qed.

(** the local items: those that are no placeholder *)
Definition kept_of (L : lmap) : list ((pyval * Z) * loc) := flat_map (fun p => match snd p with LOld y => [(fst p, y)] | LPlace => [] end) L.
Lemma kept_in (L : lmap) k y : In (k, y) (kept_of L) <-> In (k, LOld y) L.
Proof.
  unfold kept_of. rewrite in_flat_map. split.
  - intros ((k', [z|]) & H & E); cbn in E; [|contradiction]. destruct E as [[= -> ->]|[]]. exact H.
  - intros H. exists (k, LOld y). split; [exact H|left; reflexivity].
Qed.
Lemma kept_keys (L : lmap) p : In p (kept_of L) -> In (fst p) (map fst L).
Proof. destruct p as [k y]. rewrite kept_in. intros H. apply in_map_iff. exists (k, LOld y). auto. Qed.
Lemma kept_NoDup (L : lmap) : NoDup (map fst L) -> NoDup (map fst (kept_of L)).
Proof.
  induction L as [|(k, e) r IH]; intros ND; [constructor|]. inversion ND as [|? ? N ND']; subst. unfold kept_of. cbn [flat_map snd fst]. fold (kept_of r).
  destruct e; cbn [app map fst]; [|apply IH; exact ND']. constructor; [|apply IH; exact ND']. intros H. apply N. apply in_map_iff in H as (p & E & H). rewrite <- E. apply kept_keys. exact H.
Qed.
Lemma kept_filter (f : pyval * Z -> bool) (L : lmap) : kept_of (filter (fun p => f (fst p)) L) = filter (fun p => f (fst p)) (kept_of L).
Proof.
  induction L as [|(k, e) r IH]; [reflexivity|]. cbn [filter fst]. unfold kept_of in *. cbn [flat_map snd fst]. rewrite filter_app, <- IH.
  destruct (f k) eqn:E; cbn [flat_map snd fst]; destruct e; cbn [app filter fst]; rewrite ?E; reflexivity.
Qed.

Definition ent (e : lent) (new : loc) : loc := match e with LOld y => y | LPlace => new end.
Lemma collect_ok IT k new : forall (L : lmap) acc e, NoDup (map fst acc ++ map fst L) -> lget L k = Some e ->
  exists a, collect IT k new acc L = a ++ [(k, ent e new)] /\
    (forall p, In p a -> In p acc \/ (In p (kept_of L) /\ IT (fst p) = false)) /\ NoDup (map fst a ++ [k]).
Proof.
  induction L as [|(k', e') r IH]; intros acc e ND E; [discriminate|]. cbn [lget] in E. cbn [collect].
  destruct (key_eqb k' k) eqn:K.
  - injection E as ->. apply key_eqb_eq in K as ->. exists acc. split; [destruct e; reflexivity|]. split; [auto|].
    cbn [map fst] in ND. apply NoDup_remove in ND as [ND NI]. apply NoDup_app; [apply NoDup_app_inv in ND; apply ND|constructor; [intros []|constructor]|].
    intros z Hz [<-|[]]. apply NI. apply in_app_iff. auto.
  - cbn [map fst] in ND. destruct (IT k') eqn:T.
    + destruct (IH [] e) as (a & Ea & Ha & Na); [apply NoDup_app_inv in ND as (_ & ND & _); inversion ND; assumption|exact E|].
      exists a. split; [exact Ea|]. split; [|exact Na]. intros p Hp. destruct (Ha p Hp) as [[]|(H1 & H2)]. right. split; [|exact H2].
      unfold kept_of. cbn [flat_map]. apply in_app_iff. auto.
    + destruct e' as [y|].
      * destruct (IH (acc ++ [(k', y)]) e) as (a & Ea & Ha & Na); [rewrite map_app, <- app_assoc; exact ND|exact E|].
        exists a. split; [exact Ea|]. split; [|exact Na]. intros p Hp. destruct (Ha p Hp) as [H|(H1 & H2)].
        -- apply in_app_iff in H as [H|[<-|[]]]; [left; exact H|]. right. split; [|exact T]. unfold kept_of. cbn. left. reflexivity.
        -- right. split; [|exact H2]. unfold kept_of. cbn [flat_map]. apply in_app_iff. auto.
      * destruct (IH acc e) as (a & Ea & Ha & Na); [apply NoDup_remove_1 in ND; exact ND|exact E|].
        exists a. split; [exact Ea|]. split; [|exact Na]. intros p Hp. destruct (Ha p Hp) as [H|(H1 & H2)]; [left; exact H|right; split; assumption].
Qed.

Definition inkeys (k : pyval * Z) (ks : list (pyval * Z)) : bool := existsb (key_eqb k) ks.
Lemma inkeys_in k ks : inkeys k ks = true <-> In k ks.
Proof. unfold inkeys. rewrite existsb_exists. split; [intros (z & H & E); apply key_eqb_eq in E; congruence|intros H; exists k; split; [exact H|apply key_eqb_refl]]. Qed.
Lemma inkeys_not k ks : inkeys k ks = false <-> ~ In k ks.
Proof. rewrite <- inkeys_in. destruct (inkeys k ks); intuition congruence. Qed.
Lemma NoDup_map_filter {A B} (f : A -> B) p l : NoDup (map f l) -> NoDup (map f (filter p l)).
Proof.
  induction l as [|a l IH]; intros H; [constructor|]. inversion H as [|? ? N ND]; subst. cbn [filter]. destruct (p a); [|apply IH; exact ND].
  cbn [map]. constructor; [|apply IH; exact ND]. intros K. apply N. apply in_map_iff in K as (b & E & K). apply filter_In in K as [K _]. apply in_map_iff. exists b. auto.
Qed.
Lemma filter_and {A} (f g : A -> bool) l : filter f (filter g l) = filter (fun x => g x && f x) l.
Proof. induction l as [|a l IH]; [reflexivity|]. cbn [filter]. destruct (g a); cbn [filter andb]; rewrite IH; reflexivity. Qed.
Lemma ldel_all {X} (l : list ((pyval * Z) * X)) : forall (L : lmap), NoDup (map fst L) ->
  fold_left (fun L p => ldel L (fst p)) l L = filter (fun p => negb (inkeys (fst p) (map fst l))) L.
Proof.
  induction l as [|p l IH]; intros L ND; cbn [fold_left map].
  - symmetry. rewrite forallb_filter_id; [reflexivity|]. apply forallb_forall. reflexivity.
  - rewrite IH by (rewrite ldel_filter by exact ND; apply NoDup_map_filter; exact ND). rewrite ldel_filter by exact ND. rewrite filter_and.
    apply filter_ext. intros q. cbn [inkeys existsb]. unfold inkeys. destruct (key_eqb (fst q) (fst p)); cbn; reflexivity.
Qed.
Lemma lget_filter (f : pyval * Z -> bool) (L : lmap) k : f k = true -> lget (filter (fun p => f (fst p)) L) k = lget L k.
Proof.
  intros H. induction L as [|(k', e) r IH]; [reflexivity|]. cbn [filter fst lget]. destruct (key_eqb k' k) eqn:E.
  - apply key_eqb_eq in E as ->. rewrite H. cbn [lget]. rewrite key_eqb_refl. reflexivity.
  - destruct (f k'); [cbn [lget]; rewrite E|]; exact IH.
Qed.

(** * All target items *)
Section Merge.
  Variable IT : pyval * Z -> bool.
  Definition step_items (L : lmap) (k : pyval * Z) (new : loc) : list ((pyval * Z) * loc) :=
    match lget L k with Some _ => collect IT k new [] L | None => [(k, new)] end.
  Definition step_left (L : lmap) (k : pyval * Z) (new : loc) : lmap :=
    match lget L k with Some _ => fold_left (fun L p => ldel L (fst p)) (collect IT k new [] L) L | None => L end.
  Fixpoint merge (L : lmap) (ts : list ((pyval * Z) * loc)) : list loc :=
    match ts with
    | [] => map snd (kept_of L)
    | (k, new) :: r => map snd (step_items L k new) ++ merge (step_left L k new) r
    end.
  Definition rep (L : lmap) (p : (pyval * Z) * loc) : loc := match lget L (fst p) with Some (LOld y) => y | _ => snd p end.

  Lemma step_ok (L : lmap) k new : NoDup (map fst L) ->
    exists a, step_items L k new = a ++ [(k, rep L (k, new))] /\
      NoDup (map fst (step_left L k new)) /\
      (forall p, In p a -> In p (kept_of L) /\ IT (fst p) = false) /\ NoDup (map fst a) /\
      (forall p, In p (kept_of L) <-> In p a \/ (fst p = k /\ In p (kept_of L)) \/ In p (kept_of (step_left L k new))) /\
      (forall p, In p (kept_of (step_left L k new)) -> ~ In p a /\ fst p <> k) /\
      (IT k = true -> forall k', IT k' = true -> k' <> k -> lget (step_left L k new) k' = lget L k').
  Proof.
    intros ND. unfold step_items, step_left, rep. cbn [fst snd]. destruct (lget L k) as [e|] eqn:E.
    - destruct (collect_ok IT k new L [] e ND E) as (a & Ea & Ha & Na). exists a. rewrite Ea. split; [destruct e; reflexivity|].
      rewrite ldel_all by exact ND. rewrite map_app. cbn [map fst]. set (ks := map fst a ++ [k]) in *.
      split; [apply NoDup_map_filter; exact ND|].
      assert (Ha' : forall p, In p a -> In p (kept_of L) /\ IT (fst p) = false) by (intros p Hp; destruct (Ha p Hp) as [[]|H]; exact H).
      split; [exact Ha'|]. split; [apply NoDup_app_inv in Na; apply Na|].
      rewrite (kept_filter (fun q => negb (inkeys q ks))).
      assert (Inj : forall p q, In p (kept_of L) -> In q (kept_of L) -> fst p = fst q -> p = q).
      { intros p q Hp Hq Ef. pose proof (kept_NoDup L ND) as K. revert Hp Hq Ef. clear -K. revert K. generalize (kept_of L) as l.
        induction l as [|z l IH]; intros K Hp Hq Ef; [contradiction|]. inversion K as [|? ? N K']; subst. destruct Hp as [->|Hp], Hq as [->|Hq]; auto.
        - exfalso. apply N. rewrite Ef. apply in_map. exact Hq.
        - exfalso. apply N. rewrite <- Ef. apply in_map. exact Hp. }
      split; [|split].
      + intros p. rewrite filter_In, negb_true_iff, inkeys_not. unfold ks. rewrite in_app_iff. split.
        * intros Hp. destruct (inkeys (fst p) (map fst a)) eqn:I1.
          -- apply inkeys_in in I1. apply in_map_iff in I1 as (q & Eq & Hq). left. rewrite <- (Inj q p); auto. apply Ha'. exact Hq.
          -- apply inkeys_not in I1. destruct (key_eqb (fst p) k) eqn:I2; [apply key_eqb_eq in I2; auto|]. apply key_eqb_neq in I2. right. right. split; [exact Hp|]. intros [H|[H|[]]]; auto.
        * intros [H|[[_ H]|[H _]]]; [apply Ha'; exact H|exact H|exact H].
      + intros p. rewrite filter_In, negb_true_iff, inkeys_not. unfold ks. rewrite in_app_iff. intros [_ H]. split; [intros K; apply H; left; apply in_map; exact K|intros E2; apply H; cbn; auto].
      + intros Tk k' Tk' Nk. apply (lget_filter (fun q => negb (inkeys q ks))). apply negb_true_iff, inkeys_not. unfold ks. rewrite in_app_iff. intros [H|[H|[]]]; [|congruence].
        apply in_map_iff in H as (q & Eq & Hq). apply Ha' in Hq as [_ Hq]. congruence.
    - exists []. split; [reflexivity|]. split; [exact ND|]. split; [intros p []|]. split; [constructor|]. split; [|split].
      + intros p. split; [auto|]. intros [[]|[[_ H]|H]]; exact H.
      + intros p Hp. split; [intros []|]. intros <-. apply lget_none in E. apply E. apply kept_keys. exact Hp.
      + intros; reflexivity.
  Qed.

  Definition memb (l : list loc) (y : loc) : bool := existsb (Nat.eqb y) l.
  Lemma memb_in l y : memb l y = true <-> In y l.
  Proof. unfold memb. rewrite existsb_exists. split; [intros (z & H & E); apply Nat.eqb_eq in E; congruence|intros H; exists y; split; [exact H|apply Nat.eqb_refl]]. Qed.

  Lemma merge_ok : forall ts (L : lmap), NoDup (map fst L) -> NoDup (map fst ts) -> (forall p, In p ts -> IT (fst p) = true) ->
    NoDup (map snd (kept_of L) ++ map snd ts) ->
    NoDup (merge L ts) /\ (forall y, In y (merge L ts) <-> In y (map (rep L) ts) \/ In y (map snd (kept_of L))) /\
    filter (memb (map (rep L) ts)) (merge L ts) = map (rep L) ts.
  Proof.
    induction ts as [|(k, new) ts IH]; intros L NL NT HT NS.
    - cbn [merge map]. rewrite app_nil_r in NS. split; [exact NS|]. split; [intros y; cbn; tauto|].
      generalize (map snd (kept_of L)) as l. induction l as [|y l IH]; [reflexivity|exact IH].
    - destruct (step_ok L k new NL) as (a & Es & NL' & Ha & Na & Hk & Hk' & Hg). cbn [merge]. rewrite Es. set (L' := step_left L k new) in *.
      inversion NT as [|? ? NTk NT']; subst. assert (Tk : IT k = true) by (apply (HT (k, new)); left; reflexivity).
      specialize (Hg Tk). set (r := rep L (k, new)) in *.
      assert (Er : map (rep L') ts = map (rep L) ts).
      { apply map_ext_in. intros (k', n') Hp. unfold rep. cbn [fst snd]. rewrite (Hg k'); [reflexivity|apply (HT (k', n')); right; exact Hp|].
        intros ->. apply NTk. apply in_map_iff. exists (k, n'). auto. }
      apply NoDup_app_inv in NS as (NK & NT2 & Dis). cbn [map snd] in NT2, Dis. inversion NT2 as [|? ? Nn NT2']; subst.
      assert (Inj : forall p q, In p (kept_of L) -> In q (kept_of L) -> snd p = snd q -> p = q).
      { intros p q Hp Hq Ef. revert NK Hp Hq Ef. clear. generalize (kept_of L) as l.
        induction l as [|z l IH]; intros K Hp Hq Ef; [contradiction|]. inversion K as [|? ? N K']; subst. destruct Hp as [->|Hp], Hq as [->|Hq]; auto.
        - exfalso. apply N. rewrite Ef. apply in_map. exact Hq.
        - exfalso. apply N. rewrite <- Ef. apply in_map. exact Hp. }
      assert (Sub : forall p, In p (kept_of L') -> In p (kept_of L)) by (intros p Hp; apply Hk; auto).
      assert (NK' : NoDup (map snd (kept_of L'))).
      { unfold L', step_left. destruct (lget L k); [|exact NK]. rewrite ldel_all by exact NL. rewrite (kept_filter (fun q => negb (inkeys q _))). apply NoDup_map_filter. exact NK. }
      destruct (IH L' NL' NT') as (I1 & I2 & I3).
      { intros p Hp. apply HT. right. exact Hp. }
      { apply NoDup_app; [exact NK'|exact NT2'|]. intros y Hy Hy'. apply (Dis y); [|right; exact Hy']. apply in_map_iff in Hy as (p & <- & Hp). apply in_map. apply Sub. exact Hp. }
      rewrite Er in *.
      (* what stands for the first target item *)
      assert (Hr : (r = new /\ ~ In new (map snd (kept_of L))) \/ In (k, r) (kept_of L)).
      { unfold r, rep. cbn [fst snd]. destruct (lget L k) as [[y|]|] eqn:E.
        - right. apply kept_in. apply lget_in; assumption.
        - left. split; [reflexivity|]. intros H. apply (Dis new H). left. reflexivity.
        - left. split; [reflexivity|]. intros H. apply (Dis new H). left. reflexivity. }
      (* the other stand-ins *)
      assert (Ho : forall y, In y (map (rep L) ts) -> In y (map snd ts) \/ exists k', In (k', y) (kept_of L) /\ In k' (map fst ts)).
      { intros y Hy. apply in_map_iff in Hy as ((k', n') & <- & Hp). unfold rep. cbn [fst snd]. destruct (lget L k') as [[y|]|] eqn:E.
        - right. exists k'. split; [apply kept_in; apply lget_in; assumption|]. apply in_map_iff. exists (k', n'). auto.
        - left. apply in_map_iff. exists (k', n'). auto.
        - left. apply in_map_iff. exists (k', n'). auto. }
      assert (NTa : forall k', In k' (map fst ts) -> IT k' = true) by (intros k' H; apply in_map_iff in H as (p & <- & H); apply HT; right; exact H).
      assert (Ra : forall p, In p a -> ~ In (snd p) (map (rep L) ts) /\ snd p <> r).
      { intros p Hp. destruct (Ha p Hp) as [Hp1 Hp2]. split.
        - intros H. apply Ho in H as [H|(k' & H & Hk1)].
          + apply (Dis (snd p)); [apply in_map; exact Hp1|right; exact H].
          + pose proof (Inj p (k', snd p) Hp1 H eq_refl) as Q. rewrite Q in Hp2. cbn in Hp2. rewrite NTa in Hp2 by exact Hk1. discriminate.
        - intros H. destruct Hr as [[E Hn]|Hn].
          + apply Hn. rewrite <- E, <- H. apply in_map. exact Hp1.
          + pose proof (Inj p (k, r) Hp1 Hn H) as Q. rewrite Q in Hp2. cbn in Hp2. congruence. }
      assert (Rr : ~ In r (merge L' ts)).
      { rewrite I2. intros [H|H].
        - apply Ho in H as [H|(k' & H & Hk1)].
          + destruct Hr as [[E Hn]|Hn]; [rewrite E in H; contradiction|]. apply (Dis r); [apply in_map_iff; exists (k, r); auto|right; exact H].
          + destruct Hr as [[E Hn]|Hn]; [apply Hn; rewrite <- E; apply in_map_iff; exists (k', r); auto|].
            pose proof (Inj _ _ Hn H eq_refl) as Q. injection Q as <-. contradiction.
        - apply in_map_iff in H as (p & E & H). destruct Hr as [[E' Hn]|Hn]; [apply Hn; rewrite <- E', <- E; apply in_map; apply Sub; exact H|].
          pose proof (Inj p (k, r) (Sub p H) Hn E) as Q. apply Hk' in H as [_ H]. apply H. rewrite Q. reflexivity. }
      rewrite map_app. cbn [map snd].
      assert (Na2 : NoDup (map snd a)).
      { clear - Na Ha Inj. induction a as [|p a IH]; [constructor|]. cbn [map] in *. inversion Na as [|? ? N Na']; subst. constructor.
        - intros H. apply in_map_iff in H as (q & E & H). apply N. rewrite (Inj p q); [apply in_map; exact H| | |auto]; apply Ha; [left; reflexivity|right; exact H].
        - apply IH; [|exact Na']. intros q Hq. apply Ha. right. exact Hq. }
      split; [|split].
      + apply NoDup_app; [|exact I1|].
        * apply NoDup_app; [exact Na2|constructor; [intros []|constructor]|]. intros y Hy [<-|[]]. apply in_map_iff in Hy as (p & E & Hp). exact (proj2 (Ra p Hp) E).
        * intros y Hy Hy'. apply in_app_iff in Hy as [Hy|[<-|[]]]; [|contradiction]. apply in_map_iff in Hy as (p & <- & Hp).
          apply I2 in Hy' as [H|H]; [exact (proj1 (Ra p Hp) H)|]. apply in_map_iff in H as (q & E & H). pose proof (Inj p q (proj1 (Ha p Hp)) (Sub q H) (eq_sym E)) as Q. subst q.
          apply Hk' in H as [H _]. contradiction.
      + intros y. rewrite in_app_iff, I2, in_app_iff. split.
        * intros [[H|[<-|[]]]|[H|H]]; cbn; auto.
          -- right. apply in_map_iff in H as (p & <- & H). apply in_map. apply Ha. exact H.
          -- right. apply in_map_iff in H as (p & <- & H). apply in_map. apply Sub. exact H.
        * intros [[<-|H]|H]; cbn; auto. apply in_map_iff in H as (p & <- & H). apply Hk in H as [H|[[E H]|H]].
          -- left. left. apply in_map. exact H.
          -- left. right. left. unfold r, rep. cbn [fst snd]. destruct p as [k' y]. cbn in E. subst k'. apply kept_in in H. apply lget_in in H; [|exact NL]. rewrite H. reflexivity.
          -- right. right. apply in_map. exact H.
      + change (rep L (k, new)) with r. rewrite !filter_app. cbn [filter]. assert (E1 : memb (r :: map (rep L) ts) r = true) by (apply memb_in; left; reflexivity). rewrite E1.
        assert (E2 : filter (memb (r :: map (rep L) ts)) (map snd a) = []).
        { clear - Ra. induction a as [|p a IH]; [reflexivity|]. cbn [map filter]. destruct (memb _ (snd p)) eqn:E.
          - apply memb_in in E. exfalso. destruct (Ra p) as [R1 R2]; [left; reflexivity|]. destruct E as [E|E]; [congruence|contradiction].
          - apply IH. intros q Hq. apply Ra. right. exact Hq. }
        rewrite E2. cbn [app]. f_equal. rewrite <- I3 at 2. apply filter_ext_in. intros y Hy. unfold memb. cbn [existsb].
        destruct (Nat.eqb_spec y r) as [->|]; [contradiction|reflexivity].
  Qed.
End Merge.
