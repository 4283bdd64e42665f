(** C100: clear(local_only=True) on link roots. *)
From Verif Require Import Base Heap HeapSpec ListLemmas ForestLemmas HeapInv HeapAttach HeapOps HeapOps2 HeapOps3 HeapHash Tree HeapTree HeapCopy History Runs HeapRead HeapRead2 HeapHist HeapFlags PropsA PropsC PropsF
  PropsG SerModel PropsM LinkModel LinkFacts2 LinkWF LinkSpec PropsN LinkTree PropsZL LinkClear.
Import ListNotations.
Open Scope string_scope.
Open Scope list_scope.

(** ** Specification *)
(** the link of the link root p is loaded *)
Definition loaded (h : heap) (p : loc) : bool := match a_link (view h p) with Some k => lk_loaded k | None => false end.
(** Outcome: the children [gone] are detached, the value is reset if [reset], nothing else changes. *)
Record cleared (h h' : heap) (p : loc) (gone : list loc) (reset : bool) : Prop := {
  cl_next : hnext h' = hnext h;
  cl_kids : children h' p = filter (fun y => negb (existsb (Nat.eqb y) gone)) (children h p);
  cl_gone : forall y, In y gone -> In y (children h p) /\ view h' y = a_set_parent None (view h y);
  cl_p : view h' p = a_set_children (children h' p) (if reset then a_set_val PNoValue (view h p) else view h p);
  cl_else : forall y, y <> p -> ~ In y gone -> view h' y = view h y }.
(** the children in pairs: a local one and a linked one, at the end possibly a single local one *)
Inductive pairs (h : heap) : list loc -> Prop :=
| pairs_nil : pairs h []
| pairs_one y : flag h y 3 = false -> flag h y 4 = false -> pairs h [y]
| pairs_two y z l : flag h y 3 = false -> flag h y 4 = false -> flag h z 3 = true -> pairs h l -> pairs h (y :: z :: l).

(** ** Proofs *)
Section Scan.
  Variables (linked place : loc -> bool) (guarded : bool).
  Fixpoint scan (add : bool) (l : list loc) : list loc * list loc * bool :=
    match l with
    | [] => ([], [], true)
    | y :: r =>
        if linked y && add then let '(k, g, o) := scan false r in (y :: k, g, o)
        else if place y then let '(k, g, o) := scan true r in (y :: k, g, o)
        else if guarded && linked y then (y :: r, [], false)
        else match r with [] => ([], [y], true) | z :: r' => let '(k, g, o) := scan true r' in (z :: k, y :: g, o) end
    end.
End Scan.
Lemma scan_ext a b a' b' gd : forall n add l, length l <= n -> (forall y, In y l -> a y = a' y /\ b y = b' y) -> scan a b gd add l = scan a' b' gd add l.
Proof.
  induction n as [|n IH]; intros add [|y r] Hn H; try reflexivity; [cbn in Hn; lia|]. cbn [scan]. destruct (H y (or_introl eq_refl)) as (-> & ->).
  rewrite !(IH _ r) by (cbn in Hn; try lia; intros; apply H; right; assumption).
  destruct r as [|z r']; [reflexivity|]. rewrite (IH true r'); [reflexivity|cbn in Hn; lia|intros; apply H; right; right; assumption].
Qed.
Lemma scan_facts a b gd : forall n add l k g o, length l <= n -> NoDup l -> scan a b gd add l = (k, g, o) ->
  k = filter (fun y => negb (existsb (Nat.eqb y) g)) l /\ (forall y, In y g -> In y l /\ b y = false /\ (gd = true -> a y = false)) /\ NoDup g.
Proof.
  assert (keep : forall y g r, ~ In y g -> y :: filter (fun y => negb (existsb (Nat.eqb y) g)) r = filter (fun y => negb (existsb (Nat.eqb y) g)) (y :: r)).
  { intros y g r Hy. cbn [filter]. destruct (existsb (Nat.eqb y) g) eqn:E; [|reflexivity]. apply existsb_exists in E as (z & Hz & Ez). apply Nat.eqb_eq in Ez. subst z. contradiction. }
  induction n as [|n IH]; intros add [|y r] k g o Hn ND E; try (injection E as <- <- <-; split; [reflexivity|]; split; [intros y []|constructor]); [cbn in Hn; lia|].
  inversion ND as [|y0 r0 N1 N2]; subst y0 r0. cbn [scan] in E. cbn in Hn.
  destruct (a y && add); [|destruct (b y) eqn:Eb; [|destruct (gd && a y) eqn:Eg]].
  - destruct (scan a b gd false r) as [[k' g'] o'] eqn:S. injection E as <- <- <-. destruct (IH _ r _ _ _ ltac:(lia) N2 S) as (-> & G & ND'). split; [apply keep; intros K; apply N1, (G y K)|]. split; [|exact ND']. intros z Hz. destruct (G z Hz) as (G1 & G2). split; [right; exact G1|exact G2].
  - destruct (scan a b gd true r) as [[k' g'] o'] eqn:S. injection E as <- <- <-. destruct (IH _ r _ _ _ ltac:(lia) N2 S) as (-> & G & ND'). split; [apply keep; intros K; apply N1, (G y K)|]. split; [|exact ND']. intros z Hz. destruct (G z Hz) as (G1 & G2). split; [right; exact G1|exact G2].
  - injection E as <- <- <-. split; [|split; [intros z []|constructor]]. cbn [existsb negb]. clear. induction (y :: r) as [|a l IH]; [reflexivity|]. cbn [filter]. rewrite <- IH. reflexivity.
  - assert (Ga : gd = true -> a y = false) by (intros ->; destruct (a y); [discriminate|reflexivity]).
    destruct r as [|z r'].
    + injection E as <- <- <-. split; [cbn; rewrite Nat.eqb_refl; reflexivity|]. split; [|repeat constructor; intros []]. intros x [<-|[]]. split; [left; reflexivity|]. auto.
    + destruct (scan a b gd true r') as [[k' g'] o'] eqn:S. injection E as <- <- <-. inversion N2 as [|z0 r0 M1 M2]; subst z0 r0. destruct (IH _ r' _ _ _ ltac:(cbn in Hn; lia) M2 S) as (-> & G & ND').
      assert (Yg : ~ In y g') by (intros K; apply N1; right; apply (G y K)). assert (Zg : ~ In z g') by (intros K; apply M1, (G z K)).
      split; [|split].
      * rewrite (keep z g' r' Zg). cbn [filter]. cbn [existsb]. rewrite Nat.eqb_refl. cbn [orb negb]. assert (Ezy : Nat.eqb z y = false) by (apply Nat.eqb_neq; intros ->; apply N1; left; reflexivity).
        rewrite Ezy. cbn [orb]. destruct (existsb (Nat.eqb z) g'); cbn [negb]; [|f_equal]; apply filter_ext_in; intros x Hx; (assert (Exy : Nat.eqb x y = false) by (apply Nat.eqb_neq; intros ->; apply N1; right; exact Hx); rewrite Exy; reflexivity).
      * intros x [<-|Hx]; [split; [left; reflexivity|auto]|]. destruct (G x Hx) as (G1 & G2). split; [right; right; exact G1|exact G2].
      * constructor; assumption.
Qed.
Lemma scan_pairs h gd : forall l, pairs h l -> forall add, scan (fun y => flag h y 3) (fun y => flag h y 4) gd add l =
  (filter (fun y => flag h y 3) l, filter (fun y => negb (flag h y 3)) l, true).
Proof.
  induction 1 as [|y A B|y z l A B D P IH]; intros add; [reflexivity| |]; cbn [scan filter]; rewrite A, B; cbn [andb negb]; rewrite ?andb_false_r.
  - reflexivity.
  - rewrite IH, D. reflexivity.
Qed.

Lemma place_flag h y : is_placeholder h y = flag h y 4. Proof. unfold is_placeholder, flag. rewrite (has_bit _ 4) by lia. reflexivity. Qed.
Lemma root_protected h p : is_link_root h p = true -> tree_protected h p = true.
Proof.
  unfold is_link_root, tree_protected, has. intros H. apply negb_true_iff in H. apply negb_true_iff. apply Z.eqb_neq in H. apply Z.eqb_neq. intros K. apply H.
  apply Z.bits_inj'. intros i Hi. apply (f_equal (fun z => Z.testbit z i)) in K. rewrite Z.land_spec, Z.bits_0 in *. destruct (Z.testbit (nflags (hnode h p)) i); [|reflexivity]. cbn [andb] in *.
  destruct (Z.testbit LINK_ROOT i) eqn:E; [|reflexivity]. exfalso.
  assert (i = 5)%Z as ->. { destruct (Z.eq_dec i 5) as [->|Ne]; [reflexivity|]. change LINK_ROOT with (2 ^ 5)%Z in E. rewrite Z.pow2_bits_false in E by lia. discriminate. }
  vm_compute in K. discriminate K.
Qed.
Definition del_same (h h' : heap) (p : loc) (l gone : list loc) : Prop :=
  hnext h' = hnext h /\ view h' p = a_set_children l (view h p) /\ (forall y, In y gone -> view h' y = a_set_parent None (view h y)) /\
  (forall y, y <> p -> ~ In y gone -> view h' y = view h y).

Lemma clear_loop_ok : forall fuel h p pre l seen add k g o, WF h -> children h p = pre ++ l -> length l < fuel -> is_link_root h p = true ->
  scan (fun y => flag h y 3) (fun y => flag h y 4) (loaded h p) add l = (k, g, o) ->
  exists h', clear_loop fuel p (length pre) seen add h = (h', if o then Ok tt else Err PermissionError) /\ WF h' /\ del_same h h' p (pre ++ k) g.
Proof.
  induction fuel as [|fuel IH]; intros h p pre l seen add k g o W El Hf HR HS; [lia|]. cbn [clear_loop]. rewrite bind_gets. change (nitems (hnode h p)) with (children h p). rewrite El.
  destruct l as [|y r].
  - rewrite app_nil_r. rewrite (proj2 (nth_error_None pre (length pre))) by lia. injection HS as <- <- <-. exists h. split; [reflexivity|]. split; [exact W|]. split; [reflexivity|]. split; [|split; [intros z []|reflexivity]].
    rewrite <- El. unfold children. destruct (view h p); reflexivity.
  - assert (Hk : nth_error (pre ++ y :: r) (length pre) = Some y) by (rewrite nth_error_app2, Nat.sub_diag by apply le_n; reflexivity). rewrite Hk. cbn [length] in Hf.
    assert (Hin : In y (children h p)) by (rewrite El; apply in_elt).
    assert (Pn : exists pl, nprt (hnode h y) = Some pl /\ pl_tuple pl = false).
    { pose proof (fo_child _ _ (wf_forest _ W) p y Hin) as E. cbn in E. destruct (nprt (hnode h y)) as [pl|] eqn:Ep; [|discriminate]. exists pl. split; [reflexivity|]. apply (wf_caches _ W y pl Ep). }
    destruct Pn as (pl & Ep & Et). destruct (set_cache_ok TypeError SFam y (count_tag (ntag (hnode h y)) seen) h pl Ep Et ltac:(unfold count_tag; lia)) as (h1 & E1 & Q1).
    rewrite (bind_ok _ _ _ _ _ E1). pose proof (ceq_WF _ _ Q1 W) as W1. pose proof (ceq_same _ _ Q1) as V1.
    assert (C1 : children h1 p = children h p) by (unfold children; rewrite V1; reflexivity).
    assert (R1 : is_link_root h1 p = true) by (rewrite root_flag in *; unfold flag in *; rewrite V1; exact HR).
    assert (S1 : forall add l, scan (fun y => flag h1 y 3) (fun y => flag h1 y 4) (loaded h1 p) add l = scan (fun y => flag h y 3) (fun y => flag h y 4) (loaded h p) add l).
    { intros add' l'. replace (loaded h1 p) with (loaded h p) by (unfold loaded; rewrite V1; reflexivity). apply (scan_ext _ _ _ _ _ (length l')); [lia|]. intros z _. unfold flag. rewrite V1. auto. }
    assert (N1 : hnext h1 = hnext h) by (symmetry; apply Q1).
    assert (App : forall r', pre ++ y :: r' = (pre ++ [y]) ++ r') by (intros; rewrite <- app_assoc; reflexivity).
    assert (Lp : S (length pre) = length (pre ++ [y])) by (rewrite app_length; cbn; lia).
    cbn [scan] in HS. rewrite linked_flag, place_flag. destruct (flag h y 3 && add) eqn:Ea; [|destruct (flag h y 4) eqn:Eb].
    + destruct (scan _ _ _ false r) as [[k' g'] o'] eqn:S. injection HS as <- <- <-. rewrite Lp.
      destruct (IH h1 p (pre ++ [y]) r (ntag (hnode h y) :: seen) false k' g' o' W1) as (h' & E' & W' & D1 & D2 & D3 & D4); [rewrite C1, El; apply App|lia|exact R1|rewrite S1; exact S|].
      exists h'. split; [exact E'|]. split; [exact W'|]. split; [congruence|]. split; [rewrite D2, V1, <- App; reflexivity|]. split; [intros z Hz; rewrite D3, V1 by exact Hz; reflexivity|intros z Z1 Z2; rewrite D4, V1 by assumption; reflexivity].
    + destruct (scan _ _ _ true r) as [[k' g'] o'] eqn:S. injection HS as <- <- <-. rewrite Lp, bind_ret.
      destruct (IH h1 p (pre ++ [y]) r (ntag (hnode h y) :: seen) true k' g' o' W1) as (h' & E' & W' & D1 & D2 & D3 & D4); [rewrite C1, El; apply App|lia|exact R1|rewrite S1; exact S|].
      exists h'. split; [exact E'|]. split; [exact W'|]. split; [congruence|]. split; [rewrite D2, V1, <- App; reflexivity|]. split; [intros z Hz; rewrite D3, V1 by exact Hz; reflexivity|intros z Z1 Z2; rewrite D4, V1 by assumption; reflexivity].
    + assert (Hk1 : nth_error (nitems (hnode h1 p)) (length pre) = Some y) by (change (nitems (hnode h1 p)) with (children h1 p); rewrite C1, El; exact Hk).
      destruct (idx_or_type_error_ok h1 p y (length pre) W1 Hk1) as (h2 & E2 & Q2 & _). pose proof (ceq_WF _ _ Q2 W1) as W2. pose proof (ceq_same _ _ Q2) as V2.
      assert (V12 : forall z, view h2 z = view h z) by (intros z; rewrite V2, V1; reflexivity).
      assert (C2 : nitems (hnode h2 p) = pre ++ y :: r) by (change (children h2 p = pre ++ y :: r); unfold children; rewrite V12; exact El).
      assert (R2 : is_link_root h2 p = true) by (rewrite root_flag in *; unfold flag in *; rewrite V12; exact HR).
      rewrite bind_assoc, (bind_ok _ _ _ _ _ E2), bind_assoc.
      assert (HL : loaded h p = root_loaded h2 p). { unfold root_loaded. rewrite R2. change (nlink (hnode h2 p)) with (a_link (view h2 p)). rewrite V12. reflexivity. }
      assert (Hfl : has (nflags (hnode h2 y)) (Z.lor LINKED PLACEHOLDER) = flag h y 3).
      { unfold has. change (nflags (hnode h2 y)) with (a_flags (view h2 y)). rewrite V12. unfold flag in *. rewrite <- (has_bit _ 3) by lia. unfold has. f_equal. 
        rewrite Z.land_lor_distr_r. assert (Zp : Z.land (a_flags (view h y)) PLACEHOLDER = 0%Z). { pose proof (has_bit (a_flags (view h y)) 4 ltac:(lia)) as K. rewrite Eb in K. unfold has in K. apply negb_false_iff in K. apply Z.eqb_eq in K. exact K. }
        rewrite Zp, Z.lor_0_r. reflexivity. }
      assert (Pi : py_idx (length (nitems (hnode h2 p))) (Z.of_nat (length pre)) = Some (length pre)) by (apply py_idx_of_nat; rewrite C2, app_length; cbn; lia).
      assert (DE : del_exn h2 p (Z.of_nat (length pre)) = if loaded h p && flag h y 3 then Some PermissionError else None).
      { unfold del_exn. rewrite R2, (root_protected h2 p R2). cbn [negb andb]. rewrite Pi, C2, Hk, Hfl, HL. destruct (pre ++ y :: r) eqn:Ee; [destruct pre; discriminate|]. reflexivity. }
      destruct (loaded h p && flag h y 3) eqn:Eg.
      * rewrite (bind_err _ _ _ _ _ (del_int_err _ _ _ _ DE)). injection HS as <- <- <-. exists h2. split; [reflexivity|]. split; [exact W2|].
        split; [rewrite <- N1; symmetry; apply Q2|]. split; [rewrite V12, <- El; unfold children; destruct (view h p); reflexivity|]. split; [intros z []|intros z _ _; apply V12].
      * destruct (del_int_ok h2 p _ _ y W2 DE Pi ltac:(rewrite C2; exact Hk)) as (h3 & E3 & Q3). rewrite (bind_ok _ _ _ _ _ E3), bind_ret.
        destruct (del_state h2 h3 p y (length pre) W2 ltac:(rewrite C2; exact Hk) Q3) as (W3 & V3 & N3 & _ & _ & _ & C3 & _). rewrite C2, remove_at_split in C3.
        assert (Yp : y <> p) by (eapply WF_child_ne; [exact W2|rewrite C2; exact Hk]).
        assert (Vp : view h3 p = a_set_children (pre ++ r) (view h p)). { rewrite V3. unfold detach. rewrite Nat.eqb_refl, V12. fold (children h p). rewrite El, remove_at_split. reflexivity. }
        assert (Vy : view h3 y = a_set_parent None (view h y)). { rewrite V3. unfold detach. destruct (Nat.eqb_spec y p); [contradiction|]. rewrite Nat.eqb_refl, V12. reflexivity. }
        assert (Vo : forall z, z <> p -> z <> y -> view h3 z = view h z). { intros z Z1 Z2. rewrite V3. unfold detach. destruct (Nat.eqb_spec z p); [contradiction|]. destruct (Nat.eqb_spec z y); [contradiction|]. apply V12. }
        assert (R3 : is_link_root h3 p = true) by (rewrite root_flag in *; unfold flag in *; rewrite Vp; exact HR).
        assert (Nx : hnext h3 = hnext h) by (rewrite N3, <- N1; symmetry; apply Q2).
        assert (S3 : forall add l, ~ In y l -> scan (fun y => flag h3 y 3) (fun y => flag h3 y 4) (loaded h3 p) add l = scan (fun y => flag h y 3) (fun y => flag h y 4) (loaded h p) add l).
        { intros add' l' _. replace (loaded h3 p) with (loaded h p) by (unfold loaded; rewrite Vp; reflexivity). apply (scan_ext _ _ _ _ _ (length l')); [lia|]. intros z _. unfold flag.
          destruct (Nat.eq_dec z p) as [->|Z1]; [rewrite Vp; auto|]. destruct (Nat.eq_dec z y) as [->|Z2]; [rewrite Vy; auto|]. rewrite Vo by assumption. auto. }
        assert (ND : NoDup (pre ++ y :: r)) by (rewrite <- C2; apply (WF_nodup h2 p W2)). pose proof (NoDup_remove_2 _ _ _ ND) as Yr.
        destruct r as [|z r'].
        -- injection HS as <- <- <-. destruct (IH h3 p pre [] (ntag (hnode h y) :: seen) true [] [] true W3) as (h' & E' & W' & D1 & D2 & D3 & D4).
           { change (children h3 p) with (nitems (hnode h3 p)). rewrite C3. reflexivity. } { cbn. lia. } { exact R3. } { reflexivity. }
           exists h3. split; [|split; [exact W3|]].
           ++ destruct fuel as [|fuel]; [cbn in Hf; lia|]. cbn [clear_loop]. rewrite bind_gets, C3. rewrite app_nil_r. rewrite (proj2 (nth_error_None pre (S (length pre)))) by lia. reflexivity.
           ++ split; [exact Nx|]. split; [exact Vp|]. split; [intros x [<-|[]]; exact Vy|]. intros x X1 X2. apply Vo; [exact X1|]. intros ->. apply X2. left. reflexivity.
        -- destruct (scan _ _ _ true r') as [[k' g'] o'] eqn:S. injection HS as <- <- <-.
           assert (Yz : ~ In y (pre ++ z :: r')) by exact Yr.
           replace (Datatypes.S (length pre)) with (length (pre ++ [z])) by (rewrite app_length; cbn; lia).
           destruct (IH h3 p (pre ++ [z]) r' (ntag (hnode h y) :: seen) true k' g' o' W3) as (h' & E' & W' & D1 & D2 & D3 & D4).
           { change (children h3 p) with (nitems (hnode h3 p)). rewrite C3, <- app_assoc. reflexivity. } { cbn in Hf. lia. } { exact R3. }
           { rewrite S3; [exact S|]. intros K. apply Yz. apply in_or_app. right. right. exact K. }
           assert (NDr : NoDup r') by (apply NoDup_remove_1, NoDup_app_inv in ND; destruct ND as (_ & ND & _); inversion ND; assumption).
           destruct (scan_facts _ _ _ (length r') true r' k' g' o' (le_n _) NDr S) as (_ & G & _).
           assert (Yg : ~ In y g') by (intros K; apply Yz, in_or_app; right; right; apply (G y K)).
           assert (Pg : forall x, In x g' -> x <> p). { intros x Hx ->. assert (K : In p (children h p)) by (rewrite El; apply in_or_app; right; right; right; apply (G p Hx)). destruct (In_nth_error _ _ K) as (j & Hj). eapply (WF_child_ne h p p j W Hj). reflexivity. }
           exists h'. split; [exact E'|]. split; [exact W'|]. split; [congruence|]. split; [rewrite D2, Vp, <- app_assoc; reflexivity|]. split.
           ++ intros x [<-|Hx]; [rewrite D4 by assumption; exact Vy|]. rewrite D3 by exact Hx. rewrite Vo; [reflexivity|apply Pg; exact Hx|intros ->; contradiction].
           ++ intros x X1 X2. rewrite D4; [|exact X1|intros K; apply X2; right; exact K]. apply Vo; [exact X1|]. intros ->. apply X2. left. reflexivity.
Qed.

Lemma clear_local_gen h p kv k g o : WF h -> flag h p 5 = true -> scan (fun y => flag h y 3) (fun y => flag h y 4) (loaded h p) false (children h p) = (k, g, o) ->
  exists h', clear_local p kv h = (h', if o then Ok tt else Err PermissionError) /\ children h' p = k /\ cleared h h' p g (o && negb kv) /\
    forall y, In y g -> flag h y 4 = false /\ (loaded h p = true -> flag h y 3 = false).
Proof.
  intros W HR S. rewrite <- root_flag in HR. destruct (clear_loop_ok (Datatypes.S (length (children h p))) h p [] (children h p) [] false k g o W eq_refl ltac:(lia) HR S) as (h1 & E1 & W1 & D1 & D2 & D3 & D4).
  cbn [app length] in *. destruct (scan_facts _ _ _ (length (children h p)) false (children h p) k g o (le_n _) (WF_nodup h p W) S) as (Ek & G & _).
  assert (Pg : ~ In p g). { intros Hx. destruct (In_nth_error _ _ (proj1 (G p Hx))) as (j & Hj). eapply (WF_child_ne h p p j W Hj). reflexivity. }
  unfold clear_local. rewrite bind_gets, HR. change (nitems (hnode h p)) with (children h p). destruct o.
  - rewrite (bind_ok _ _ _ _ _ E1). destruct kv.
    + exists h1. assert (Ck : children h1 p = k) by (unfold children; rewrite D2; reflexivity). split; [reflexivity|]. split; [exact Ck|]. split; [|intros y Hy; apply (G y Hy)].
      constructor; [exact D1|congruence|intros y Hy; split; [apply (G y Hy)|apply D3; exact Hy]|rewrite Ck; exact D2|exact D4].
    + set (h2 := hmod h1 p (set_val PNoValue)). assert (E2 : upd p (set_val PNoValue) h1 = (h2, Ok tt)) by reflexivity. exists h2. rewrite E2.
      assert (Vp : view h2 p = a_set_val PNoValue (view h1 p)) by (unfold h2, view; rewrite hmod_same; reflexivity).
      assert (Vo : forall z, z <> p -> view h2 z = view h1 z) by (intros z Hz; unfold h2, view; rewrite hmod_other by exact Hz; reflexivity).
      assert (Ck : children h2 p = k) by (unfold children; rewrite Vp, D2; reflexivity).
      split; [reflexivity|]. split; [exact Ck|]. split; [|intros y Hy; apply (G y Hy)].
      constructor; [exact D1|congruence|intros y Hy; split; [apply (G y Hy)|rewrite Vo; [apply D3; exact Hy|intros ->; contradiction]]|rewrite Ck, Vp, D2; reflexivity|].
      intros y Y1 Y2. rewrite Vo by exact Y1. apply D4; assumption.
  - rewrite (bind_err _ _ _ _ _ E1). exists h1. assert (Ck : children h1 p = k) by (unfold children; rewrite D2; reflexivity). split; [reflexivity|]. split; [exact Ck|]. split; [|intros y Hy; apply (G y Hy)].
    constructor; [exact D1|congruence|intros y Hy; split; [apply (G y Hy)|apply D3; exact Hy]|rewrite Ck; exact D2|exact D4].
Qed.
Lemma lreach_uncovered h : LReach h -> uncovered h -> WF h.
Proof. intros R U. destruct (lreach_inv h R) as (W & _ & J & _). apply uncovered_WF; assumption. Qed.

(** * C100: removing the local items of a link root *)
(** Linked children and placeholders are never removed; what is removed was a local child and is a
    root afterwards; nothing else changes; the call succeeds or fails with PermissionError.  (The
    English property also says that every local child is removed: see below.) *)
Theorem C100_safe_partial : forall h p keep_value, LReach h -> uncovered h -> flag h p 5 = true -> loaded h p = true ->
  exists h' gone (ok : bool), clear_local p keep_value h = (h', if ok then Ok tt else Err PermissionError) /\ cleared h h' p gone (ok && negb keep_value) /\
    forall y, In y gone -> flag h y 3 = false /\ flag h y 4 = false.
Proof.
  intros h p kv R U HR HL. destruct (scan (fun y => flag h y 3) (fun y => flag h y 4) (loaded h p) false (children h p)) as [[k g] o] eqn:S.
  destruct (clear_local_gen h p kv k g o (lreach_uncovered h R U) HR S) as (h' & E & _ & C & G). exists h', g, o. split; [exact E|]. split; [exact C|]. intros y Hy. destruct (G y Hy) as (G1 & G2). auto.
Qed.
(** If local and linked children alternate and the first one is local, exactly the local children are removed. *)
Theorem C100_alternating_partial : forall h p keep_value, LReach h -> uncovered h -> flag h p 5 = true -> pairs h (children h p) ->
  exists h', clear_local p keep_value h = (h', Ok tt) /\ children h' p = filter (fun y => flag h y 3) (children h p) /\
    cleared h h' p (filter (fun y => negb (flag h y 3)) (children h p)) (negb keep_value).
Proof.
  intros h p kv R U HR HP. destruct (clear_local_gen h p kv _ _ _ (lreach_uncovered h R U) HR (scan_pairs h (loaded h p) _ HP false)) as (h' & E & K & C & _). exists h'. auto.
Qed.
(** If the first child is linked - as after loading a target whose first item is not replaced - the
    call fails and changes nothing: local children cannot be removed this way. *)
Theorem C100_first_linked_partial : forall h p keep_value y l, LReach h -> uncovered h -> flag h p 5 = true -> loaded h p = true ->
  children h p = y :: l -> flag h y 3 = true -> flag h y 4 = false ->
  exists h', clear_local p keep_value h = (h', Err PermissionError) /\ hnext h' = hnext h /\ forall z, view h' z = view h z.
Proof.
  intros h p kv y l R U HR HL El F3 F4. assert (S : scan (fun y => flag h y 3) (fun y => flag h y 4) (loaded h p) false (children h p) = (y :: l, [], false)).
  { rewrite El. cbn [scan]. rewrite F3, F4, HL. reflexivity. }
  destruct (clear_local_gen h p kv _ _ _ (lreach_uncovered h R U) HR S) as (h' & E & K & [C1 C2 C3 C4 C5] & _). exists h'. split; [exact E|]. split; [exact C1|]. intros z.
  destruct (Nat.eq_dec z p) as [->|Z]; [|apply C5; [exact Z|intros []]]. rewrite C4, K, <- El. unfold children. cbn [andb]. destruct (view h p); reflexivity.
Qed.

(** *** cases and limits *)
Example C100_case : LReach lk4_heap /\ uncovered lk4_heap /\ flag lk4_heap 5 5 = true /\ pairs lk4_heap (children lk4_heap 5) /\
  children lk4_heap 5 = [6; 4; 7] /\ children (fst (clear_local 5 true lk4_heap)) 5 = [4].
Proof.
  split; [apply C46_case|]. split; [apply uncovered_b_ok; vm_compute; reflexivity|]. split; [vm_compute; reflexivity|].
  assert (Ch : children lk4_heap 5 = [6; 4; 7]) by (vm_compute; reflexivity). split; [rewrite Ch; apply pairs_two; [vm_compute; reflexivity..|]; apply pairs_one; vm_compute; reflexivity|].
  split; [exact Ch|]. vm_compute. reflexivity.
Qed.
(** the link root 6 of [lk1_heap] is loaded; a local item (12) is appended *)
Definition cl_heap : heap := after (OAppend 6 (IVal (PInt 1))) lk1_heap.
Lemma cl_reach : LReach cl_heap.
Proof. apply LReach_op; [exact lk1_reach|apply uncovered_b_ok; vm_compute; reflexivity|apply allowed_b_ok; vm_compute; reflexivity]. Qed.
(** A local child exists, but the call raises PermissionError and the child stays. *)
Theorem C100_raises_refuted : exists h p y, LReach h /\ uncovered h /\ flag h p 5 = true /\ loaded h p = true /\ In y (children h p) /\ flag h y 3 = false /\ flag h y 4 = false /\
  snd (clear_local p true h) = Err PermissionError /\ In y (children (fst (clear_local p true h)) p).
Proof.
  exists cl_heap, 6, 12. split; [exact cl_reach|]. split; [apply uncovered_b_ok; vm_compute; reflexivity|]. split; [vm_compute; reflexivity|]. split; [vm_compute; reflexivity|].
  split; [vm_compute; auto|]. split; [vm_compute; reflexivity|]. split; [vm_compute; reflexivity|]. split; [vm_compute; reflexivity|]. vm_compute. auto.
Qed.
(** Two local children: the second one stays although the call succeeds. *)
Theorem C100_neighbours_refuted : exists h p y z, LReach h /\ uncovered h /\ flag h p 5 = true /\ children h p = [y; z] /\
  flag h y 3 = false /\ flag h y 4 = false /\ flag h z 3 = false /\ flag h z 4 = false /\
  snd (clear_local p true h) = Ok tt /\ children (fst (clear_local p true h)) p = [z].
Proof.
  exists (runs [ONew (PStr "link") (PInt 0) [] (Some 1) 0; OAppend 0 (IVal (PInt 1)); OAppend 0 (IVal (PInt 2))] empty_heap), 0, 1, 2.
  split; [apply Reach_LReach, reach_runs; [constructor|vm_compute; reflexivity]|]. split; [apply uncovered_b_ok; vm_compute; reflexivity|]. split; [vm_compute; reflexivity|]. split; [vm_compute; reflexivity|].
  split; [vm_compute; reflexivity|]. split; [vm_compute; reflexivity|]. split; [vm_compute; reflexivity|]. split; [vm_compute; reflexivity|]. split; vm_compute; reflexivity.
Qed.
Example C100_first_linked_case : exists l, children cl_heap 6 = 7 :: l /\ flag cl_heap 7 3 = true /\ flag cl_heap 7 4 = false /\ loaded cl_heap 6 = true.
Proof. eexists. split; [vm_compute; reflexivity|]. split; [vm_compute; reflexivity|]. split; vm_compute; reflexivity. Qed.

Print Assumptions C100_safe_partial.
Print Assumptions C100_alternating_partial.
Print Assumptions C100_first_linked_partial.
Print Assumptions C100_raises_refuted.
Print Assumptions C100_neighbours_refuted.
