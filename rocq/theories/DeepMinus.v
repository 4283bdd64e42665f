(** siblings() with negative levels, levels() over lists, iter_family_items(). *)
From Coq Require Import Sorting.Permutation.
From Verif Require Import Base Heap HeapSpec ListLemmas ForestLemmas HeapInv Tree HeapTree Deep DeepSpec DeepProofs DeepPaths DeepInst DeepSib DeepSibProofs DeepLevels.

(** the item j levels above y *)
Fixpoint above (h : heap) (j : nat) (y : loc) : option loc :=
  match j with 0 => Some y | S j => match parent_of h y with None => None | Some p => above h j p end end.
Lemma from_end_snoc0 {A} (l : list A) a : from_end 0 (l ++ [a]) = Some a.
Proof. unfold from_end. rewrite rev_app_distr. reflexivity. Qed.
Lemma from_end_snoc {A} j (l : list A) a : from_end (S j) (l ++ [a]) = from_end j l.
Proof. unfold from_end. rewrite rev_app_distr. reflexivity. Qed.
Lemma anc_path_above h x k : Lev (view h) x k -> forall fuel j, k <= fuel -> from_end j (anc_path fuel h x) = above h j x.
Proof.
  induction 1 as [x Hp|x q k Hp HL IH]; intros [|f] j Hf; try lia; cbn [anc_path].
  - destruct j as [|j]; [reflexivity|]. cbn [above]. unfold parent_of. rewrite Hp. unfold from_end. cbn. destruct j; reflexivity.
  - unfold parent_of. rewrite Hp. destruct j as [|j]; [reflexivity|]. cbn [above]. unfold parent_of. rewrite Hp. unfold from_end. cbn. destruct j; reflexivity.
  - unfold parent_of at 1. rewrite Hp. destruct j as [|j]; [apply from_end_snoc0|]. rewrite from_end_snoc. cbn [above]. unfold parent_of. rewrite Hp. apply IH. lia.
Qed.

Section Minus.
  Context (up : loc -> list loc) (slf : bool) (j : nat) (x : loc).
  Notation keep := (fun z : loc => slf || negb (Nat.eqb z x)).
  Lemma minus_multi l seen : minus_loop up true slf j x seen l =
    filter keep (flat_map (fun y => match from_end j (up y) with Some z => [z] | None => [] end) l).
  Proof.
    revert seen. induction l as [|y l IH]; intros seen; [reflexivity|]. cbn [minus_loop flat_map]. destruct (from_end j (up y)) as [z|]; [|apply IH].
    cbn [orb andb app filter]. destruct (slf || negb (Nat.eqb z x)); rewrite IH; reflexivity.
  Qed.
  Lemma minus_once l : forall seen,
    NoDup (minus_loop up false slf j x seen l) /\
    (forall z, In z (minus_loop up false slf j x seen l) <->
       ~ In z seen /\ keep z = true /\ exists y, In y l /\ from_end j (up y) = Some z).
  Proof.
    induction l as [|y l IH]; intros seen; cbn [minus_loop].
    - split; [constructor|]. intros z. split; [intros []|]. intros (_ & _ & y & [] & _).
    - destruct (from_end j (up y)) as [w|] eqn:E.
      + cbn [orb]. destruct (negb (mem w seen)) eqn:M; cbn [andb].
        * destruct (slf || negb (Nat.eqb w x)) eqn:K.
          -- destruct (IH (w :: seen)) as [N F]. apply negb_true_iff, mem_out in M. split.
             ++ constructor; [|exact N]. intros H. apply F in H as (H & _). apply H. left; reflexivity.
             ++ intros z. cbn [In]. rewrite F. split.
                ** intros [<-|(A & B & y' & C & D)]; [split; [exact M|split; [exact K|exists y; auto]]|]. split; [intros H; apply A; right; exact H|]. split; [exact B|]. exists y'. auto.
                ** intros (A & B & y' & C & D). destruct (Nat.eq_dec w z) as [->|Nz]; [left; reflexivity|]. right. destruct C as [<-|C]; [congruence|].
                   split; [intros [H|H]; [contradiction|auto]|]. split; [exact B|]. eauto.
          -- destruct (IH seen) as [N F]. split; [exact N|]. intros z. rewrite F. split.
             ++ intros (A & B & y' & C & D). split; [exact A|]. split; [exact B|]. exists y'. split; [right; exact C|exact D].
             ++ intros (A & B & y' & C & D). split; [exact A|]. split; [exact B|]. destruct C as [<-|C]; [|eauto]. exfalso. rewrite E in D. injection D as <-. congruence.
        * destruct (IH seen) as [N F]. split; [exact N|]. apply negb_false_iff, mem_in in M. intros z. rewrite F. split.
          -- intros (A & B & y' & C & D). split; [exact A|]. split; [exact B|]. exists y'. split; [right; exact C|exact D].
          -- intros (A & B & y' & C & D). split; [exact A|]. split; [exact B|]. destruct C as [<-|C]; [|eauto]. exfalso. rewrite E in D. injection D as <-. contradiction.
      + destruct (IH seen) as [N F]. split; [exact N|]. intros z. rewrite F. split.
        * intros (A & B & y' & C & D). split; [exact A|]. split; [exact B|]. exists y'. split; [right; exact C|exact D].
        * intros (A & B & y' & C & D). split; [exact A|]. split; [exact B|]. destruct C as [<-|C]; [congruence|eauto].
  Qed.
End Minus.
(** the leaves below x in iteration order *)
Definition leaves_below (ch : loc -> list loc) (rv : bool) (T : tree loc) : list loc :=
  filter (fun y => negb (nonnil (ch y))) (below_tree (turned rv T)).
Lemma shape_all {A} rv (T : tree A) : shape rv (fun _ => true) T = turned rv T.
Proof. unfold shape, turned. rewrite prune_true. reflexivity. Qed.
Lemma ok_none : ok None = fun _ => true. Proof. reflexivity. Qed.
Lemma siblings_neg ch up j opt n T : unf ch T -> NoDup (flatten T) -> 3 * size T <= n -> bad_opts opt siblings_opts = false ->
  siblings ch up (- Z.of_nat (S j)) opt n (root T) =
  Some (if Nat.eqb j 0 then leaves_below ch (has opt REVERSE) T
        else minus_loop up (has opt MULTIPLE) (has opt SELF) j (root T) [] (leaves_below ch (has opt REVERSE) T), None).
Proof.
  intros U ND L B. unfold siblings. rewrite B. destruct (Z.ltb_spec (- Z.of_nat (S j)) 0); [|lia].
  replace (Z.to_nat (- (- Z.of_nat (S j)) - 1)) with j by lia. unfold siblings_minus, deep_iter0.
  rewrite !(iter_down_ok ch T U n L), !ok_none. cbn [andb around].
  assert (E : (if has opt REVERSE then Some (below_tree (shape true (fun _ => true) T), @None exn) else Some (below_tree (shape false (fun _ => true) T), None))
              = Some (below_tree (turned (has opt REVERSE) T), None)) by (destruct (has opt REVERSE); rewrite shape_all; reflexivity).
  rewrite E. fold (leaf ch). f_equal. f_equal. destruct (Nat.eqb j 0); [|reflexivity].
  apply filter_all. intros y Hy. apply filter_In in Hy as [Hy _]. destruct (Nat.eqb_spec y (root T)) as [->|]; [|destruct (has opt SELF); reflexivity].
  exfalso. assert (ND' : NoDup (flatten (turned (has opt REVERSE) T))) by (eapply Permutation_NoDup; [symmetry; apply flatten_turned_perm|exact ND]).
  rewrite <- (root_turned (has opt REVERSE) T) in Hy. destruct (turned (has opt REVERSE) T) as [a cs]. cbn in ND', Hy. inversion ND'; contradiction.
Qed.

(** ** levels() over a list of levels, none of which is 0 *)
Lemma levels_list_ok ch up opt n m x (g : Z -> list loc) ls : (forall k, In k ls -> k <> 0%Z /\ siblings ch up k opt n x = Some (g k, None)) ->
  levels_list ch up opt n m x (-1) None ls = Some (flat_map g ls, None).
Proof.
  induction ls as [|k ls IH]; intros H; [reflexivity|]. cbn [levels_list]. destruct (H k (or_introl eq_refl)) as [Hk Es].
  destruct (Z.eqb_spec (-1 + 1) k) as [E|_]; [lia|]. cbn [flush seq_gen]. rewrite Es. cbn [seq_gen]. rewrite IH by (intros; apply H; right; assumption). reflexivity.
Qed.
Lemma once_spec l : forall seen, NoDup (once seen l) /\ (forall z, In z (once seen l) <-> In z l /\ ~ In z seen) /\ (NoDup l -> (forall z, In z l -> ~ In z seen) -> once seen l = l).
Proof.
  induction l as [|y l IH]; intros seen; cbn [once]; [split; [constructor|split; [intros z; split; [intros []|intros [[] _]]|reflexivity]]|].
  destruct (mem y seen) eqn:M.
  - apply mem_in in M. destruct (IH seen) as (A & B & C). split; [exact A|]. split.
    + intros z. rewrite B. cbn [In]. split; [tauto|]. intros [[<-|H] N]; [contradiction|auto].
    + intros ND H. exfalso. exact (H y (or_introl eq_refl) M).
  - apply mem_out in M. destruct (IH (y :: seen)) as (A & B & C). split; [|split].
    + constructor; [|exact A]. rewrite B. intros [_ H]. apply H. left; reflexivity.
    + intros z. cbn [In]. rewrite B. cbn [In]. destruct (Nat.eq_dec y z) as [->|N]; [tauto|]. tauto.
    + intros ND H. inversion ND; subst. f_equal. apply C; [assumption|]. intros z Hz [<-|Hs]; [contradiction|]. apply (H z); [right; exact Hz|exact Hs].
Qed.

(** ** a level loop that never ends: step > 0, MULTIPLE without SELF *)
Lemma loop_frozen ch up opt start step n x m stop yielded : has opt MULTIPLE = true -> has opt SELF = false ->
  loop_fwd ch up opt start step n x m start true stop yielded = None.
Proof.
  intros M S. revert stop yielded. induction m as [|m IH]; intros stop yielded; [reflexivity|].
  cbn [loop_fwd pass_fwd]. rewrite Z.eqb_refl, M, S. cbn [orb andb negb andthen]. rewrite IH. reflexivity.
Qed.
Lemma levels_never_ends ch up opt n m x start step l : has opt MULTIPLE = true -> has opt SELF = false -> (0 < step)%Z ->
  siblings ch up start opt n x = Some (l, None) ->
  levels_slice ch up (Some start) None (Some step) opt n m x = None.
Proof.
  intros M S Hs El. rewrite levels_slice_body. assert (Hb : (0 <? step)%Z = true) by (apply Z.ltb_lt; exact Hs). rewrite Hb.
  destruct m as [|m]; [reflexivity|]. cbn [loop_fwd]. rewrite El, Z.eqb_refl, M, S. cbn [orb andb negb].
  destruct (pass_fwd ch false true (divides step (start - start)) x [] [] l) as [[o s] d]. rewrite loop_frozen by assumption. reflexivity.
Qed.

(** ** iter_family_items *)
Section FamP.
  Context (ch : loc -> list loc) (tg : loc -> pyval).
  (** the families of x, one after the other *)
  Definition grouped (x : loc) : list loc := flat_map (by_tag ch tg x) (tags_of ch tg x).
  Lemma fam_pass_leaves l : (forall y, In y l -> ch y = []) -> fam_pass ch l = (l, None).
  Proof. induction l as [|y l IH]; intros H; [reflexivity|]. cbn. rewrite (H y (or_introl eq_refl)). cbn. rewrite IH by (intros; apply H; right; assumption). reflexivity. Qed.
  Lemma fam_flat_steps x : (forall y, In y (ch x) -> ch y = []) -> forall ts, ~ In PNone ts ->
    steps (step_fam ch tg) (length ts) ([FTags ts], [x]) (flat_map (by_tag ch tg x) ts) ([FTags []], [x]).
  Proof.
    intros F. induction ts as [|t ts IH]; intros N; [constructor|]. cbn [length flat_map]. econstructor; [|apply IH; intros H; apply N; right; exact H].
    cbn [step_fam]. rewrite fam_pass_leaves by (intros y Hy; apply F; apply filter_In in Hy; apply Hy). destruct t; try reflexivity. exfalso. apply N. left; reflexivity.
  Qed.
  Lemma fam_flat x n : (forall y, In y (ch x) -> ch y = []) -> ~ In PNone (tags_of ch tg x) -> length (tags_of ch tg x) + 2 <= n ->
    iter_family_items ch tg n x = Some (grouped x, None).
  Proof.
    intros F N L. unfold iter_family_items, grouped. destruct (nonnil (ch x)) eqn:E.
    - rewrite <- (app_nil_r (flat_map _ _)). eapply run_done with (k := length (tags_of ch tg x) + 1) (s' := ([], [x])); [|reflexivity|lia].
      eapply steps_trans; [apply fam_flat_steps; assumption|]. apply steps1. reflexivity.
    - unfold tags_of. destruct (ch x); [|discriminate]. cbn in *. destruct n; [lia|]. reflexivity.
  Qed.
  Lemma tags_from_in l : forall seen t, In t (tags_from tg seen l) <-> ~ In t seen /\ In t (map tg l).
  Proof.
    induction l as [|y l IH]; intros seen t; cbn; [tauto|].
    assert (Ex : existsb (pyval_eqb (tg y)) seen = true <-> In (tg y) seen).
    { rewrite existsb_exists. split; [intros (z & H & E); apply pyval_eqb_eq in E; subst; exact H|intros H; exists (tg y); split; [exact H|apply pyval_eqb_eq; reflexivity]]. }
    destruct (existsb (pyval_eqb (tg y)) seen).
    - rewrite IH. assert (In (tg y) seen) by (apply Ex; reflexivity). split; [tauto|]. intros [A [<-|B]]; [contradiction|auto].
    - assert (~ In (tg y) seen) by (rewrite <- Ex; discriminate). cbn. rewrite IH. cbn. destruct (pyval_eq_dec (tg y) t) as [Et|Nt]; [rewrite <- Et; tauto|]. tauto.
  Qed.
  Lemma tags_from_nodup l : forall seen, NoDup (tags_from tg seen l).
  Proof.
    induction l as [|y l IH]; intros seen; cbn; [constructor|]. destruct (existsb (pyval_eqb (tg y)) seen); [apply IH|]. constructor; [|apply IH].
    rewrite tags_from_in. intros [H _]. apply H. left; reflexivity.
  Qed.
  Lemma grouped_perm_gen l : NoDup l -> forall ts, NoDup ts -> (forall y, In y l -> In (tg y) ts) ->
    Permutation (flat_map (fun t => filter (fun y => pyval_eqb (tg y) t) l) ts) l.
  Proof.
    intros ND ts Nt H. apply NoDup_Permutation; [|exact ND|].
    - clear H. induction Nt as [|t ts N _ IH]; cbn; [constructor|]. apply NoDup_app; [apply NoDup_filter; exact ND|exact IH|].
      intros y A B. apply filter_In in A as [_ A]. apply in_flat_map in B as (t' & T' & B). apply filter_In in B as [_ B]. apply pyval_eqb_eq in A, B. subst. contradiction.
    - intros y. rewrite in_flat_map. split.
      + intros (t & _ & Hy). apply filter_In in Hy. apply Hy.
      + intros Hy. exists (tg y). split; [apply H; exact Hy|]. apply filter_In. split; [exact Hy|apply pyval_eqb_eq; reflexivity].
  Qed.
  Lemma grouped_perm x : NoDup (ch x) -> Permutation (grouped x) (ch x).
  Proof.
    intros ND. apply grouped_perm_gen; [exact ND|apply tags_from_nodup|]. intros y Hy. unfold tags_of. rewrite tags_from_in. split; [intros []|]. apply in_map. exact Hy.
  Qed.
End FamP.
