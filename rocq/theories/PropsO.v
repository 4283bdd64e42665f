(** C63, C64: the accessor object [tree.get]. *)
From Verif Require Import Base Heap HeapSpec ListLemmas ForestLemmas HeapInv HeapAttach HeapOps HeapOps2 HeapOps3
  HeapHoare Tree HeapTree HeapCopy HeapMut HeapExt HeapExt2 HeapOrd HeapOrd2 HeapRen HeapMove HeapSet HeapSet2 HeapHist
  HeapHash History HeapRead HeapRead2 Runs HeapDel HeapLink HeapLinkH PropsA PropsB PropsC PropsD PropsE GetModel.

(** ** specification *)
(** the items that tree[target] returns *)
Definition answer (h : heap) (x : loc) (t : target) : list loc :=
  match getitem h x t with Ok (GItem y) => [y] | Ok (GList l) => l | Err _ => [] end.
(** the items reached by subscripting level by level, in order *)
Fixpoint hits (h : heap) (x : loc) (path : list target) : list loc :=
  match path with
  | [] => [x]
  | t :: r => flat_map (fun y => hits h y r) (answer h x t)
  end.
(** tree[t1][t2]...[tn] is the item y, every step giving a single item *)
Inductive Chain (h : heap) : loc -> list target -> loc -> Prop :=
| Chain_nil x : Chain h x [] x
| Chain_cons x t r y z : getitem h x t = Ok (GItem y) -> Chain h y r z -> Chain h x (t :: r) z.
(** target kinds for which get works as documented: no (tag, slice) pair, no marker class
    such as NoTag as a tag *)
Definition plain_target (t : target) : bool :=
  match t with TgTagSlice _ _ _ => false | TgVal v => negb (marker v) | _ => true end.
(** y is n levels below x *)
Fixpoint deeper (h : heap) (n : nat) (x y : loc) : Prop :=
  match n with O => y = x | S m => exists q, parent_of h y = Some q /\ deeper h m x q end.

(** ** get_child_ren against __getitem__ *)
Lemma fb_agree h p t e :
  match ch_fallback h p t e with
  | Ok (CMany l) => fallback h p t e = Ok (GList l)
  | Err e' => fallback h p t e = Err e'
  | _ => False end.
Proof. unfold ch_fallback, fallback. destruct (fam_of h p t) as [[f|]|e0]; reflexivity. Qed.

Definition agrees (c : res cres) (g : res gres) : Prop :=
  match c with
  | Ok (COne x) => g = Ok (GItem x)
  | Ok (CMany l) | Ok (CFilt l) => g = Ok (GList l)
  | Err e => g = Err e
  | _ => False
  end.
Lemma fb_agrees h p t e : agrees (ch_fallback h p t e) (fallback h p t e).
Proof. pose proof (fb_agree h p t e) as H. unfold agrees. destruct (ch_fallback h p t e) as [[]|]; auto; destruct H. Qed.

Lemma ch_agree h p tg : plain_target tg = true -> agrees (get_child_ren h p tg) (getitem h p tg).
Proof.
  intros P. unfold get_child_ren, getitem. destruct (nitems (hnode h p)) as [|c0 r0] eqn:Ec; [reflexivity|].
  destruct tg as [v|a b|t|t a b|t i| |f]; try (reflexivity); try discriminate.
  - destruct v as [| | | | |b|z|tok|s|s|l|l|l|l|l|l|n]; cbn [plain_target marker negb] in P; try discriminate;
      cbn [getitem_val marker]; rewrite Ec;
      try (match goal with |- context [fam_of h p ?t] => destruct (fam_of h p t) as [[f|]|] eqn:E; reflexivity end).
    + destruct (list_at (c0 :: r0) z) as [x|]; [reflexivity|apply fb_agrees].
    + unfold ch_tuple, getitem_tuple. destruct l as [|t [|i [|? ?]]]; try apply fb_agrees.
      destruct (fam_of h p t) as [[f|]|e] eqn:E; [|apply fb_agrees|destruct e; apply fb_agrees].
      destruct (as_index i) as [z|]; [destruct (list_at f z); [reflexivity|apply fb_agrees]|].
      match goal with |- context [match ?o with Some _ => _ | None => ch_fallback _ _ _ _ end] => destruct o; [reflexivity|apply fb_agrees] end.
    + (* list *)
      assert (Gl : forall acc, agrees (ch_list h p l acc) ((fix go (l : list pyval) (acc : list loc) : res gres :=
         match l with
         | [] => match acc with [] => Err KeyError | _ => Ok (GList acc) end
         | t :: r => match getitem_val h p t with
                     | Ok (GItem x) => go r (acc ++ [x])
                     | Ok (GList xs) => go r (acc ++ xs)
                     | Err e => Err e
                     end
         end) l acc)).
      { clear P. induction l as [|t l IH]; intros acc; cbn [ch_list]; [destruct acc; reflexivity|].
        unfold getitem. rewrite Ec. destruct (getitem_val h p t) as [[x|xs]|e]; [apply IH|apply IH|reflexivity]. }
      apply Gl.
    + assert (Gl : forall acc, agrees (ch_set h p l acc) ((fix go (l : list pyval) (acc : list loc) : res gres :=
         match l with
         | [] => match acc with [] => Err KeyError | _ => Ok (GList acc) end
         | t :: r => match families_of h p t with
                     | Ok (Some f) => go r (acc ++ f)
                     | Ok None => Err KeyError
                     | Err e => Err e
                     end
         end) l acc)).
      { clear P. induction l as [|t l IH]; intros acc; cbn [ch_set]; [destruct acc; reflexivity|].
        destruct (families_of h p t) as [[f|]|e]; [apply IH|reflexivity|reflexivity]. }
      apply Gl.
  - destruct (fam_of h p t) as [[f|]|e]; [reflexivity|reflexivity|destruct e; reflexivity].
  - destruct (fam_of h p t) as [[f|]|e]; [destruct (list_at f i); reflexivity|reflexivity|reflexivity].
Qed.

Lemma ch_elems_answer h p tg : plain_target tg = true -> ch_elems (get_child_ren h p tg) = answer h p tg.
Proof.
  intros P. pose proof (ch_agree h p tg P) as A. unfold agrees in A. unfold ch_elems, answer.
  destruct (get_child_ren h p tg) as [[x|l|l|l|]|e]; try rewrite A; try reflexivity; destruct A.
Qed.
Lemma not_spoiled h p tg : plain_target tg = true -> spoiled (get_child_ren h p tg) = false.
Proof.
  intros P. pose proof (ch_agree h p tg P) as A. unfold agrees in A. unfold spoiled.
  destruct (get_child_ren h p tg) as [[x|l|l|l|]|e]; auto. destruct A.
Qed.

Definition c_hits (h : heap) (c : cres) (path : list target) : list loc :=
  match c with
  | COne x => hits h x path
  | CMany l | CFilt l => flat_map (fun x => hits h x path) l
  | _ => []
  end.
Definition c_list (c : cres) : list loc :=
  match c with COne x => [x] | CMany l | CFilt l | COneList l => l | CFiltErr => [] end.
Definition good (c : cres) : bool := match c with COne _ | CMany _ | CFilt _ => true | _ => false end.

Lemma flat_map_flat_map {A B C} (f : B -> list C) (g : A -> list B) l :
  flat_map f (flat_map g l) = flat_map (fun x => flat_map f (g x)) l.
Proof. induction l as [|x l IH]; [reflexivity|]. cbn. rewrite flat_map_app, IH. reflexivity. Qed.

Lemma flat_map_one {A} (l : list A) : flat_map (fun x => [x]) l = l.
Proof. induction l as [|x l IH]; [reflexivity|]. cbn. rewrite IH. reflexivity. Qed.
Lemma good_of h p tg c : plain_target tg = true -> get_child_ren h p tg = Ok c ->
  good c = true /\ c_list c = answer h p tg.
Proof.
  intros P E. pose proof (ch_agree h p tg P) as A. rewrite E in A. unfold agrees in A. unfold answer.
  destruct c; try (rewrite A; split; reflexivity); destruct A.
Qed.

Definition multi (c : cres) : bool := match c with CMany _ | CFilt _ => true | _ => false end.
Lemma multi_path h path : forallb plain_target path = true -> forall c, multi c = true -> path <> [] ->
  get_path h c path = Ok (CMany (c_hits h c path)).
Proof.
  induction path as [|t path IH]; intros P c M NE; [congruence|]. cbn in P. apply andb_true_iff in P as [Pt P].
  assert (G : forall l, get_path h (CMany l) (t :: path) = Ok (CMany (flat_map (fun x => hits h x (t :: path)) l))).
  { intros l. cbn [get_path].
    assert (E : existsb (fun x => spoiled (get_child_ren h x t)) l = false).
    { clear -Pt. induction l as [|x l IH]; [reflexivity|]. cbn. rewrite (not_spoiled h x t Pt). exact IH. }
    rewrite E. assert (F : flat_map (fun x => ch_elems (get_child_ren h x t)) l = flat_map (fun x => answer h x t) l).
    { apply flat_map_ext. intros x. apply ch_elems_answer. exact Pt. }
    rewrite F. destruct path as [|t' path'].
    - cbn [get_path hits]. do 2 f_equal. apply flat_map_ext. intros x. rewrite <- (map_id (answer h x t)) at 1. rewrite flat_map_concat_map.
      induction (answer h x t) as [|y l' IHl]; [reflexivity|]. cbn. f_equal. exact IHl.
    - rewrite IH; [|exact P|reflexivity|discriminate]. unfold c_hits. do 2 f_equal. rewrite flat_map_flat_map. reflexivity. }
  destruct c; try discriminate; [apply G|]. change (get_path h (CFilt l) (t :: path)) with (get_path h (CMany l) (t :: path)). rewrite G. reflexivity.
Qed.

Lemma path_ok h path : forallb plain_target path = true -> forall c, good c = true ->
  match get_path h c path with
  | Ok c' => good c' = true /\ c_list c' = c_hits h c path /\
             (forall y, c' = COne y <-> exists x, c = COne x /\ Chain h x path y)
  | Err e => c_hits h c path = [] /\ (exists x, c = COne x) /\ e <> Unsupported
  end.
Proof.
  induction path as [|t path IH]; intros P c G.
  - cbn [get_path]. split; [exact G|]. split.
    + destruct c; try discriminate; cbn; rewrite ?app_nil_r; try reflexivity; symmetry; apply flat_map_one.
    + intros y. split; [intros ->; exists y; split; [reflexivity|constructor]|]. intros (x & -> & C). inversion C; subst. reflexivity.
  - pose proof P as P0. cbn in P. apply andb_true_iff in P as [Pt P]. destruct (multi c) eqn:Em.
    + rewrite multi_path; [|exact P0|exact Em|discriminate]. split; [reflexivity|]. split; [reflexivity|].
      intros y. split; [discriminate|]. intros (x & -> & _). discriminate.
    + destruct c as [x|l|l|l|]; try discriminate. cbn [get_path c_hits hits].
      pose proof (ch_agree h x t Pt) as A. destruct (get_child_ren h x t) as [c'|e] eqn:E.
      * destruct (good_of h x t c' Pt E) as [G' L']. specialize (IH P c' G').
        assert (K : c_hits h c' path = flat_map (fun y => hits h y path) (answer h x t)).
        { rewrite <- L'. destruct c'; try discriminate; cbn; rewrite ?app_nil_r; reflexivity. }
        destruct (get_path h c' path) as [c2|e2].
        -- destruct IH as (I1 & I2 & I3). split; [exact I1|]. split; [rewrite I2; exact K|].
           intros y. rewrite I3. split.
           ++ intros (x' & -> & C). exists x. split; [reflexivity|]. econstructor; [exact A|exact C].
           ++ intros (x0 & E0 & C). injection E0 as <-. inversion C as [|? ? ? y0 ? Ey Cy]; subst.
              exists y0. split; [|exact Cy]. unfold agrees in A. rewrite Ey in A. destruct c'; try discriminate; injection A as <-; reflexivity.
        -- destruct IH as (I1 & (x' & I2) & I3). split; [rewrite <- K; exact I1|]. split; [exists x; reflexivity|exact I3].
      * cbn in A. unfold answer. rewrite A. split; [reflexivity|]. split; [exists x; reflexivity|].
        intros ->. clear -A. revert A. unfold getitem. destruct (nitems (hnode h x)) as [|c0 r0] eqn:Ec; [discriminate|].
        assert (FO : forall t0, fam_of h x t0 <> Err Unsupported).
        { intros t0. unfold fam_of. destruct (nbound (hnode h x)); [discriminate|destruct (nfams (hnode h x)); [destruct (hashable t0)|]; discriminate|destruct (hashable t0); discriminate]. }
        assert (FB : forall t0 e, e <> Unsupported -> fallback h x t0 e <> Err Unsupported).
        { intros t0 e He. unfold fallback. destruct (fam_of h x t0) as [[f|]|]; congruence. }
        destruct t as [v|a b|t|t a b|t i| |f]; try discriminate.
        -- revert v. fix IHv 1. intros v.
           destruct v as [| | | | |b|z|tok|s|s|l|l|l|l|l|l|n]; cbn [getitem_val]; rewrite Ec;
             try (match goal with |- context [fam_of h x ?t] => pose proof (FO t); destruct (fam_of h x t) as [[f|]|] eqn:E; congruence end).
           ++ destruct (list_at (c0 :: r0) z); [discriminate|]. apply FB. discriminate.
           ++ unfold getitem_tuple. destruct l as [|t [|i [|? ?]]]; try (apply FB; discriminate).
              destruct (fam_of h x t) as [[f|]|e] eqn:E; [|apply FB; discriminate|destruct e; apply FB; discriminate].
              destruct (as_index i) as [z|]; [destruct (list_at f z); [discriminate|apply FB; discriminate]|].
              match goal with |- context [match ?o with Some _ => _ | None => fallback _ _ _ _ end] => destruct o; [discriminate|apply FB; discriminate] end.
           ++ assert (Gl : forall acc, (fix go (l : list pyval) (acc : list loc) : res gres :=
                match l with
                | [] => match acc with [] => Err KeyError | _ => Ok (GList acc) end
                | t :: r => match getitem_val h x t with
                            | Ok (GItem x) => go r (acc ++ [x])
                            | Ok (GList xs) => go r (acc ++ xs)
                            | Err e => Err e
                            end
                end) l acc <> Err Unsupported).
              { induction l as [|t l IHl]; intros acc; [destruct acc; discriminate|].
                specialize (IHv t). destruct (getitem_val h x t) as [[y|xs]|e]; [apply IHl|apply IHl|exact IHv]. }
              apply Gl.
           ++ assert (Gl : forall acc, (fix go (l : list pyval) (acc : list loc) : res gres :=
                match l with
                | [] => match acc with [] => Err KeyError | _ => Ok (GList acc) end
                | t :: r => match families_of h x t with
                            | Ok (Some f) => go r (acc ++ f)
                            | Ok None => Err KeyError
                            | Err e => Err e
                            end
                end) l acc <> Err Unsupported).
              { induction l as [|t l IHl]; intros acc; [destruct acc; discriminate|].
                assert (FS : families_of h x t <> Err Unsupported).
                { unfold families_of. destruct (nfams (hnode h x)); [destruct (hashable t)|]; discriminate. }
                destruct (families_of h x t) as [[f|]|e]; [apply IHl|discriminate|congruence]. }
              apply Gl.
        -- destruct (fam_of h x t) as [[f|]|e]; [discriminate|discriminate|destruct e; discriminate].
        -- destruct (fam_of h x t) as [[f|]|e]; [discriminate|discriminate|destruct e; discriminate].
        -- pose proof (FO t). destruct (fam_of h x t) as [[f|]|e]; [destruct (list_at f i); discriminate|discriminate|congruence].
Qed.

(** * C63 *)
(** get with one target is the subscript, also in the kind of error *)
Theorem C63_one_target_partial : forall h p tg, plain_target tg = true -> get h p tg [] = getitem h p tg.
Proof.
  intros h p tg P. unfold get. pose proof (ch_agree h p tg P) as A.
  destruct (get_child_ren h p tg) as [[x|l|l|l|]|e]; try (symmetry; exact A); destruct A.
Qed.
(** get(t1, ..., tn) delivers the items reached level by level, in order: a single item
    exactly when every step addresses a single item, and it fails only when no item is
    reached *)
Theorem C63_levels_partial : forall h p tg path, forallb plain_target (tg :: path) = true ->
  match get h p tg path with
  | Ok (GItem x) => hits h p (tg :: path) = [x]
  | Ok (GList l) => l = hits h p (tg :: path)
  | Err e => hits h p (tg :: path) = []
  end /\
  (forall x, get h p tg path = Ok (GItem x) <-> Chain h p (tg :: path) x).
Proof.
  intros h p tg path P. pose proof P as P0. cbn [forallb] in P. apply andb_true_iff in P as [Pt P]. destruct path as [|t path].
  - rewrite (C63_one_target_partial h p tg Pt). cbn [hits]. unfold answer. split.
    + destruct (getitem h p tg) as [[x|l]|e]; try reflexivity. induction l as [|y l IH]; [reflexivity|]. cbn. congruence.
    + intros x. split; [intros E; econstructor; [exact E|constructor]|]. intros C. inversion C as [|? ? ? y ? E C']; subst. inversion C'; subst. exact E.
  - unfold get. pose proof (ch_agree h p tg Pt) as A. destruct (get_child_ren h p tg) as [c|e] eqn:E.
    + destruct (good_of h p tg c Pt E) as [G L]. pose proof (path_ok h (t :: path) P c G) as K.
      assert (H0 : c_hits h c (t :: path) = hits h p (tg :: t :: path)).
      { cbn [hits]. rewrite <- L. destruct c; try discriminate; cbn [c_hits c_list flat_map]; rewrite ?app_nil_r; reflexivity. }
      rewrite H0 in K.
      assert (CH : forall y, (exists x, c = COne x /\ Chain h x (t :: path) y) <-> Chain h p (tg :: t :: path) y).
      { intros y. split.
        - intros (x & -> & C). econstructor; [exact A|exact C].
        - intros C. inversion C as [|? ? ? x ? Ex Cx]; subst. exists x. split; [|exact Cx]. unfold agrees in A. rewrite Ex in A.
          destruct c; try discriminate; injection A as <-; reflexivity. }
      set (gp := get_path h c (t :: path)) in *. clearbody gp. destruct gp as [c'|e].
      * destruct K as (K1 & K2 & K3). destruct c' as [x|[|y l]|l|l|]; try discriminate; cbn in K2.
        -- split; [symmetry; exact K2|]. intros z. rewrite <- CH, <- K3. split; congruence.
        -- split; [symmetry; exact K2|]. intros z. rewrite <- CH, <- K3. split; discriminate.
        -- split; [exact K2|]. intros z. rewrite <- CH, <- K3. split; discriminate.
        -- split; [exact K2|]. intros z. rewrite <- CH, <- K3. split; discriminate.
      * destruct K as (K1 & K2 & K3). split; [exact K1|]. intros z. split; [discriminate|]. intros C.
        assert (HC : forall x r y, Chain h x r y -> In y (hits h x r)).
        { clear. induction 1 as [x|x t r y z E C IH]; [left; reflexivity|]. cbn. unfold answer. rewrite E. cbn. rewrite app_nil_r. exact IH. }
        apply HC in C. rewrite K1 in C. destruct C.
    + cbn in A. cbn [hits]. unfold answer. rewrite A. split; [reflexivity|]. intros x. split; [discriminate|].
      intros C. inversion C; subst. congruence.
Qed.
(** get.single: exactly one item reached, otherwise an error *)
Theorem C63_single_partial : forall h p tg path, forallb plain_target (tg :: path) = true ->
  (forall x, get_single h p tg path = Ok (GItem x) <-> hits h p (tg :: path) = [x]) /\
  (forall l, get_single h p tg path <> Ok (GList l)) /\
  (2 <= length (hits h p (tg :: path)) -> get_single h p tg path = Err ValueError).
Proof.
  intros h p tg path P. destruct (C63_levels_partial h p tg path P) as [A B].
  assert (OO : forall l, (forall x, only_one l = Ok (GItem x) <-> l = [x]) /\ (forall l', only_one l <> Ok (GList l')) /\ (2 <= length l -> only_one l = Err ValueError)).
  { intros [|y [|z l]]; cbn; (split; [|split]); try (intros; split; congruence); try (intros; discriminate); try reflexivity; intros H; lia. }
  assert (S1 : forall x, (forall z, Ok (GItem x) = Ok (GItem z) <-> [x] = [z]) /\ (forall l', Ok (GItem x) <> Ok (GList l')) /\ (2 <= length [x] -> Ok (GItem x) = Err ValueError)).
  { intros x. split; [intros z; split; congruence|]. split; [discriminate|]. cbn. lia. }
  assert (SE : forall e, (forall z : loc, Err e = Ok (GItem z) <-> [] = [z]) /\ (forall l' : list loc, Err e <> Ok (GList l')) /\ (2 <= length (@nil loc) -> Err e = @Err gres ValueError)).
  { intros e. split; [intros z; split; discriminate|]. split; [discriminate|]. cbn. lia. }
  unfold get in A. unfold get_single. cbn [forallb] in P. apply andb_true_iff in P as [Pt P].
  destruct (get_child_ren h p tg) as [c|e] eqn:E; [|rewrite A; apply SE].
  destruct (good_of h p tg c Pt E) as [G _].
  destruct path as [|t path].
  - destruct c as [x|l|l|l|]; try discriminate; rewrite <- ?A; try apply OO. rewrite A. apply S1.
  - pose proof (path_ok h (t :: path) P c G) as K. set (gp := get_path h c (t :: path)) in *. clearbody gp.
    destruct gp as [c'|e]; [|rewrite A; apply SE]. destruct K as (K1 & _).
    destruct c' as [x|[|y l]|l|l|]; try discriminate; rewrite ?A; try apply S1; try apply SE; rewrite <- A; apply OO.
Qed.
(** get.iter delivers the same items *)
Theorem C63_iter_partial : forall h p tg path, forallb plain_target (tg :: path) = true ->
  match get_iter h p tg path with Ok l => l = hits h p (tg :: path) | Err e => hits h p (tg :: path) = [] end.
Proof.
  intros h p tg path P. destruct (C63_levels_partial h p tg path P) as [A _].
  unfold get in A. unfold get_iter. cbn [forallb] in P. apply andb_true_iff in P as [Pt P].
  destruct (get_child_ren h p tg) as [c|e] eqn:E; [|exact A]. destruct (good_of h p tg c Pt E) as [G _].
  destruct path as [|t path].
  - destruct c as [x|l|l|l|]; try discriminate; rewrite A; reflexivity.
  - pose proof (path_ok h (t :: path) P c G) as K. set (gp := get_path h c (t :: path)) in *. clearbody gp.
    destruct gp as [c'|e]; [|exact A]. destruct K as (K1 & _).
    destruct c' as [x|[|y l]|l|l|]; try discriminate; rewrite ?A; try reflexivity.
Qed.
(** every delivered item is as many levels below the item as targets were given *)
Theorem C63_depth : forall h p path y, Reach h -> In y (hits h p path) -> deeper h (length path) p y.
Proof.
  intros h p path y R. revert p y.
  assert (D : forall n x y q, deeper h n x y -> parent_of h x = Some q -> deeper h (S n) q y).
  { induction n as [|n IH]; intros x y q H Q.
    - cbn in H. subst y. exists q. split; [exact Q|reflexivity].
    - destruct H as (z & Z1 & Z2). exists z. split; [exact Z1|]. apply (IH x); assumption. }
  induction path as [|t path IH]; intros p y H.
  - destruct H as [<-|[]]. reflexivity.
  - cbn [hits] in H. apply in_flat_map in H as (z & Hz & Hy). apply IH in Hy. cbn [length]. apply (D _ z); [exact Hy|].
    assert (C : In z (children h p)).
    { pose proof (C27_only_children h p t R) as O. unfold answer in Hz. destruct (getitem h p t) as [[x|l]|e]; [destruct Hz as [<-|[]]; exact O|apply O; exact Hz|destruct Hz]. }
    apply (fo_child _ _ (wf_forest h (reach_WF h R)) _ _ C).
Qed.
(** get(..., default=d): a result when there is one, d when the lookup fails; only a target
    that Python cannot hash still raises *)
Theorem C63_default_partial : forall h p tg path (d : gres), forallb plain_target (tg :: path) = true ->
  (forall r, get h p tg path = Ok r -> with_default d (get h p tg path) = Ok r) /\
  (forall e, get h p tg path = Err e -> with_default d (get h p tg path) = Ok d \/ e = TypeError).
Proof.
  intros h p tg path d P. split; [intros r ->; reflexivity|]. intros e E. rewrite E. unfold with_default.
  destruct (lookup_error e) eqn:L; [left; reflexivity|]. right.
  assert (GE : forall x t e', plain_target t = true -> get_child_ren h x t = Err e' -> lookup_error e' = true \/ e' = TypeError).
  { intros x t e' Pt H. revert H. unfold get_child_ren. destruct (nitems (hnode h x)) as [|c0 r0] eqn:Ec; [intros H; injection H as <-; auto|].
    assert (FO : forall t0 e0, fam_of h x t0 = Err e0 -> e0 = AttributeError \/ e0 = TypeError).
    { intros t0 e0. unfold fam_of. destruct (nbound (hnode h x)); [|destruct (nfams (hnode h x)); [destruct (hashable t0)|]|destruct (hashable t0)]; intros H0; inversion H0; auto. }
    assert (FS : forall t0 e0, families_of h x t0 = Err e0 -> e0 = AttributeError \/ e0 = TypeError).
    { intros t0 e0. unfold families_of. destruct (nfams (hnode h x)); [destruct (hashable t0)|]; intros H0; inversion H0; auto. }
    assert (FB : forall t0 e0 e1, lookup_error e0 = true -> ch_fallback h x t0 e0 = Err e1 -> lookup_error e1 = true \/ e1 = TypeError).
    { intros t0 e0 e1 He. unfold ch_fallback. destruct (fam_of h x t0) as [[f|]|]; intros H0; inversion H0; subst; auto. }
    assert (OK : forall e0 e1 : exn, e0 = AttributeError \/ e0 = TypeError -> @Err cres e0 = Err e1 -> lookup_error e1 = true \/ e1 = TypeError).
    { intros e0 e1 [->| ->] H0; injection H0 as <-; auto. }
    destruct t as [v|a b|t|t a b|t i| |f]; try discriminate.
    - assert (GV : forall v0 e0, getitem_val h x v0 = Err e0 -> lookup_error e0 = true \/ e0 = TypeError).
      { fix IHv 1. intros v0. assert (FB' : forall t0 e0 e1, lookup_error e0 = true -> fallback h x t0 e0 = Err e1 -> lookup_error e1 = true \/ e1 = TypeError).
        { intros t0 e0 e1 He. unfold fallback. destruct (fam_of h x t0) as [[f|]|]; intros H0; inversion H0; subst; auto. }
        destruct v0 as [| | | | |b|z|tok|s|s|l|l|l|l|l|l|n]; cbn [getitem_val]; rewrite Ec;
          try (match goal with |- context [fam_of h x ?t] => pose proof (FO t) as F0; destruct (fam_of h x t) as [[f|]|e1] eqn:E1; intros e0 H0; inversion H0; subst; auto;
             destruct (F0 _ eq_refl) as [->| ->]; auto end).
        - destruct (list_at (c0 :: r0) z); [discriminate|]. intros e0. apply FB'. reflexivity.
        - intros e0. unfold getitem_tuple. destruct l as [|t [|i [|? ?]]]; try (apply FB'; reflexivity).
          destruct (fam_of h x t) as [[f|]|e1] eqn:E1; [|apply FB'; reflexivity|destruct e1; apply FB'; reflexivity].
          destruct (as_index i) as [z|]; [destruct (list_at f z); [discriminate|apply FB'; reflexivity]|].
          match goal with |- context [match ?o with Some _ => _ | None => fallback _ _ _ _ end] => destruct o; [discriminate|apply FB'; reflexivity] end.
        - generalize (@nil loc) at 2 as acc. induction l as [|t l IHl]; intros acc e0; [destruct acc; intros H0; inversion H0; auto|].
          pose proof (IHv t) as It. destruct (getitem_val h x t) as [[y|xs]|e1]; [apply IHl|apply IHl|intros H0; injection H0 as <-; apply It; reflexivity].
        - generalize (@nil loc) as acc. induction l as [|t l IHl]; intros acc e0; [destruct acc; intros H0; inversion H0; auto|].
          pose proof (FS t) as F0. destruct (families_of h x t) as [[f|]|e1]; [apply IHl|intros H0; injection H0 as <-; auto|].
          intros H0. injection H0 as <-. destruct (F0 _ eq_refl) as [->| ->]; auto. }
      intros H. pose proof (ch_agree h x (TgVal v) Pt) as A. unfold get_child_ren in A. rewrite Ec in A. unfold getitem in A. rewrite Ec in A.
      assert (H' : getitem_val h x v = Err e') by (revert A; rewrite H; cbn; auto). eapply GV; exact H'.
    - pose proof (FO t) as F0. destruct (fam_of h x t) as [[f|]|e1]; [discriminate|intros H; injection H as <-; auto|].
      destruct (F0 _ eq_refl) as [->| ->]; intros H; injection H as <-; auto.
    - pose proof (FO t) as F0. destruct (fam_of h x t) as [[f|]|e1]; [destruct (list_at f i); [discriminate|intros H; injection H as <-; auto]|intros H; injection H as <-; auto|].
      apply OK. apply F0. reflexivity. }
  assert (PE : forall path0 c, forallb plain_target path0 = true -> good c = true -> forall e', get_path h c path0 = Err e' -> lookup_error e' = true \/ e' = TypeError).
  { induction path0 as [|t path0 IH]; intros c P0 G e'; [discriminate|]. pose proof P0 as P1. cbn [forallb] in P0. apply andb_true_iff in P0 as [Pt0 P0].
    destruct (multi c) eqn:Em; [rewrite multi_path; [discriminate|exact P1|exact Em|discriminate]|].
    destruct c as [x|l|l|l|]; try discriminate. cbn [get_path]. destruct (get_child_ren h x t) as [c'|e0] eqn:E0.
    - apply IH; [exact P0|]. apply (good_of h x t c' Pt0 E0).
    - intros H. injection H as <-. eapply GE; eassumption. }
  cbn [forallb] in P. apply andb_true_iff in P as [Pt P]. unfold get in E. destruct (get_child_ren h p tg) as [c|e0] eqn:E0.
  - destruct (good_of h p tg c Pt E0) as [G _]. destruct path as [|t path].
    + destruct c; discriminate.
    + pose proof (PE (t :: path) c P G) as PE'. pose proof (path_ok h (t :: path) P c G) as K. set (gp := get_path h c (t :: path)) in *. clearbody gp. destruct gp as [c'|e1].
      * destruct K as [K _]. destruct c' as [x|[|y l]|l|l|]; try discriminate; injection E as <-; discriminate.
      * injection E as ->. destruct (PE' e eq_refl) as [H|H]; [congruence|exact H].
  - injection E as ->. destruct (GE p tg e Pt E0) as [H|H]; [congruence|exact H].
Qed.
(** a concrete tree:  r > a > (x > k, y), b > x, a > x, NoTag, ab *)
Definition get_ops : list op :=
  [ ONew (PStr "r") PNoValue [EArgs (PStr "a") (PInt 1); EArgs (PStr "b") (PInt 2); EArgs (PStr "a") (PInt 3)] None 0;
    ONew (PStr "x") (PInt 4) [] None 0; ONew (PStr "y") (PInt 5) [] None 0; ONew (PStr "x") (PInt 6) [] None 0;
    ONew (PStr "x") (PInt 7) [] None 0; ONew (PStr "k") (PInt 8) [] None 0; ONew PNoTag (PInt 9) [] None 0; ONew (PStr "ab") (PInt 10) [] None 0;
    OAppend 1 (IItem 4); OAppend 1 (IItem 5); OAppend 2 (IItem 6); OAppend 3 (IItem 7); OAppend 4 (IItem 8);
    OAppend 0 (IItem 9); OAppend 0 (IItem 10) ].
Definition get_heap : heap := runs get_ops empty_heap.
Lemma get_reach : Reach get_heap. Proof. apply reach_runs; [constructor|vm_compute; reflexivity]. Qed.
Example C63_case : Reach get_heap /\
  get get_heap 0 (TgVal (PStr "a")) [TgVal (PStr "x")] = Ok (GList [4; 7]) /\
  hits get_heap 0 [TgVal (PStr "a"); TgVal (PStr "x")] = [4; 7] /\
  get get_heap 0 (TgVal (PInt 0)) [TgVal (PTuple [PStr "x"; PInt 0]); TgVal (PInt 0)] = Ok (GItem 8) /\
  get get_heap 0 (TgVal (PStr "a")) [TgVal (PStr "x"); TgVal (PStr "k")] = Ok (GList [8]) /\
  get_single get_heap 0 (TgVal (PStr "a")) [TgVal (PStr "x"); TgVal (PStr "k")] = Ok (GItem 8) /\
  get_single get_heap 0 (TgVal (PStr "a")) [TgVal (PStr "x")] = Err ValueError /\
  get get_heap 0 (TgVal (PStr "a")) [TgVal (PStr "z")] = Err KeyError /\
  with_default (GList [99]) (get get_heap 0 (TgVal (PStr "a")) [TgVal (PStr "z")]) = Ok (GList [99]).
Proof. split; [exact get_reach|]. vm_compute. auto 10. Qed.

(** NoTag as target: t[NoTag] finds the family, t.get(NoTag) raises TypeError even with a
    default (get treats the class as a filter function) *)
Theorem C63_no_tag_refuted : Reach get_heap /\
  getitem get_heap 0 (TgVal PNoTag) = Ok (GList [9]) /\ get get_heap 0 (TgVal PNoTag) [] = Err TypeError /\
  with_default (GList []) (get get_heap 0 (TgVal PNoTag) []) = Err TypeError.
Proof. split; [exact get_reach|]. vm_compute. auto. Qed.
(** (tag, slice) works as subscript, but not as the start of a path, and get.single returns a
    list of items for it *)
Theorem C63_tag_slice_refuted : Reach get_heap /\
  getitem get_heap 0 (TgTagSlice (PStr "a") (Some 0%Z) (Some 2%Z)) = Ok (GList [1; 3]) /\
  hits get_heap 0 [TgTagSlice (PStr "a") (Some 0%Z) (Some 2%Z); TgVal (PInt 0)] = [4; 7] /\
  get get_heap 0 (TgTagSlice (PStr "a") (Some 0%Z) (Some 2%Z)) [TgVal (PInt 0)] = Err AttributeError /\
  get_single get_heap 0 (TgTagSlice (PStr "a") (Some 0%Z) (Some 2%Z)) [] = Ok (GList [1; 3]).
Proof. split; [exact get_reach|]. vm_compute. auto 10. Qed.
(** a default does not cover a target that cannot be hashed *)
Theorem C63_default_refuted : Reach get_heap /\
  with_default (GList []) (get get_heap 0 (TgVal (PDict [])) []) = Err TypeError.
Proof. split; [exact get_reach|]. vm_compute. reflexivity. Qed.

(** * C64 *)
(** the by_... accessors.  [slices], [idxs]: what they address, level by level *)
Theorem C64_by_idx : forall h x i path y, by_idx h x (i :: path) = Ok y ->
  get h x (TgVal (PInt i)) (map (fun j => TgVal (PInt j)) path) = Ok (GItem y).
Proof.
  intros h x i path y H. apply (C63_levels_partial h x (TgVal (PInt i)) (map (fun j => TgVal (PInt j)) path)).
  - cbn. clear. induction path; [reflexivity|exact IHpath].
  - revert x H. change (TgVal (PInt i) :: map (fun j => TgVal (PInt j)) path) with (map (fun j => TgVal (PInt j)) (i :: path)).
    generalize (i :: path) as l. induction l as [|j l IH]; intros x H; cbn in *; [injection H as ->; constructor|].
    destruct (list_at (nitems (hnode h x)) j) as [z|] eqn:E; [|discriminate]. econstructor; [|apply IH; exact H].
    unfold getitem. destruct (nitems (hnode h x)) as [|c0 r0] eqn:Ec.
    + unfold list_at in E. destruct (py_idx (length (@nil loc)) j) as [k|] eqn:Ek; [destruct k; discriminate|discriminate].
    + cbn [getitem_val]. rewrite Ec, E. reflexivity.
Qed.
(** the address of an item by absolute indices is exact: by_idx finds y iff each index of the
    path addresses the next item in the children of the item before *)
Inductive IdxPath (h : heap) : loc -> list Z -> loc -> Prop :=
| ip_nil x : IdxPath h x [] x
| ip_cons x i k y r z : py_idx (length (children h x)) i = Some k -> nth_error (children h x) k = Some y ->
    IdxPath h y r z -> IdxPath h x (i :: r) z.
Theorem C64_by_idx_exact : forall h x path y, by_idx h x path = Ok y <-> IdxPath h x path y.
Proof.
  intros h x path. revert x. induction path as [|i path IH]; intros x y; cbn.
  - split; [intros H; injection H as ->; constructor|]. intros H. inversion H; subst. reflexivity.
  - unfold list_at. change (nitems (hnode h x)) with (children h x). destruct (py_idx (length (children h x)) i) as [k|] eqn:Ek.
    + destruct (nth_error (children h x) k) as [z|] eqn:En.
      * rewrite IH. split; [intros H; econstructor; eassumption|]. intros H. inversion H; subst. congruence.
      * split; [discriminate|]. intros H. inversion H; subst. congruence.
    + split; [discriminate|]. intros H. inversion H; subst. congruence.
Qed.
(** the guard of the tag based accessors: on an item without children get.by_tag fails (false
    after clear(), see [C64_clear_refuted]) *)
Definition forgotten (h : heap) : Prop :=
  forall q t, q < hnext h -> children h q = [] -> by_tag h q t [] = Err KeyError.
Lemma fam_of_spec h x t : Reach h -> forgotten h -> x < hnext h ->
  match fam_of h x t with
  | Ok (Some f) => hashable t = true /\ f = family h x t /\ f <> [] /\ children h x <> []
  | Ok None => hashable t = true /\ family h x t = []
  | Err e => (e = TypeError /\ hashable t = false) \/ (e = AttributeError /\ family h x t = [])
  end.
Proof.
  intros R F L. destruct (children h x) as [|c0 r0] eqn:Ec.
  - assert (E0 : family h x t = []) by (unfold family; rewrite Ec; reflexivity).
    specialize (F x t L Ec). unfold by_tag, own_fam_of in F. destruct (hashable t) eqn:Eh.
    + destruct (fam_of h x t) as [[f|]|e] eqn:E; [discriminate|split; [reflexivity|exact E0]|].
      right. split; [|exact E0]. unfold fam_of in E. rewrite Eh in E. destruct (nbound (hnode h x)); [|destruct (nfams (hnode h x))|]; congruence.
    + destruct (fam_of h x t) as [[f|]|e] eqn:E; [discriminate| |].
      * unfold fam_of in E. rewrite Eh in E. destruct (nbound (hnode h x)); [|destruct (nfams (hnode h x))|]; congruence.
      * unfold fam_of in E. rewrite Eh in E. destruct (nbound (hnode h x)); [|destruct (nfams (hnode h x))|]; injection E as <-; auto.
  - assert (NE : children h x <> []) by congruence. destruct (hashable t) eqn:Eh.
    + rewrite (fam_of_ok h x t (reach_WF h R) Eh NE). rewrite <- family_with_tag. destruct (family h x t) as [|y f] eqn:Ef; cbn [nonempty]; [auto|].
      repeat split; congruence.
    + unfold fam_of. rewrite Eh. destruct (WF_fam h x t (reach_WF h R) NE) as (d & Ed & Eb & _). rewrite Eb, Ed. left. auto.
Qed.
(** by_tag_idx: each (tag, i) of the path addresses the i-th child with that tag *)
Inductive TagPath (h : heap) : loc -> list (pyval * Z) -> loc -> Prop :=
| tp_nil x : TagPath h x [] x
| tp_cons x t i k y r z : py_idx (length (family h x t)) i = Some k -> nth_error (family h x t) k = Some y ->
    TagPath h y r z -> TagPath h x ((t, i) :: r) z.
Lemma family_lt h x t y : Reach h -> In y (family h x t) -> y < hnext h.
Proof.
  intros R H. unfold family in H. apply filter_In in H as [H _]. apply (Forest_child_lt _ _ _ _ (wf_forest h (reach_WF h R)) H).
Qed.
Theorem C64_by_tag_idx_partial : forall h x path y, Reach h -> forgotten h -> x < hnext h ->
  (by_tag_idx h x path = Ok y <-> TagPath h x path y).
Proof.
  intros h x path y R F. revert x. induction path as [|[t i] path IH]; intros x L; cbn [by_tag_idx].
  - split; [intros H; injection H as ->; constructor|]. intros H. inversion H; subst. reflexivity.
  - pose proof (fam_of_spec h x t R F L) as S. destruct (fam_of h x t) as [[f|]|e].
    + destruct S as (_ & -> & NE & _). unfold list_at. destruct (py_idx (length (family h x t)) i) as [k|] eqn:Ek.
      * destruct (nth_error (family h x t) k) as [z|] eqn:En.
        -- rewrite IH by (eapply family_lt; [exact R|eapply nth_error_In; exact En]). split; [intros H; econstructor; eassumption|]. intros H. inversion H; subst. congruence.
        -- split; [discriminate|]. intros H. inversion H; subst. congruence.
      * split; [discriminate|]. intros H. inversion H; subst. congruence.
    + destruct S as (_ & E0). split; [discriminate|]. intros H. inversion H; subst. rewrite E0 in *. match goal with X : nth_error [] ?k = Some _ |- _ => destruct k; discriminate end.
    + assert (E0 : family h x t = []).
      { destruct S as [[_ S]|[_ S]]; [|exact S]. unfold family. destruct (filter _ (children h x)) as [|z l] eqn:Ef; [reflexivity|exfalso].
        assert (Hz : In z (filter (fun y0 => pyval_eqb (tag_of h y0) t) (children h x))) by (rewrite Ef; left; reflexivity).
        apply filter_In in Hz as [_ Hz]. apply pyval_eqb_eq in Hz. pose proof (reach_hash h R z) as HH. unfold tag_of in Hz. cbn in Hz. rewrite <- Hz in S. congruence. }
      split; [destruct e; discriminate|]. intros H. inversion H; subst. rewrite E0 in *. match goal with X : nth_error [] ?k = Some _ |- _ => destruct k; discriminate end.
Qed.
(** by_tag(tag) is the family; fails when there is none *)
Theorem C64_by_tag_partial : forall h x t, Reach h -> forgotten h -> x < hnext h -> hashable t = true ->
  by_tag h x t [] = match family h x t with [] => Err KeyError | f => Ok f end.
Proof.
  intros h x t R F L Ht. pose proof (fam_of_spec h x t R F L) as S. unfold by_tag, own_fam_of. destruct (fam_of h x t) as [[f|]|e].
  - destruct S as (_ & -> & NE & _). destruct (family h x t); [congruence|reflexivity].
  - destruct S as (_ & ->). reflexivity.
  - destruct S as [[_ S]|[-> ->]]; [congruence|reflexivity].
Qed.
(** by_tags(tags): the families of the given tags one after the other; fails when one of them
    does not exist *)
Theorem C64_by_tags_partial : forall h x ts, Reach h -> forgotten h -> x < hnext h -> forallb hashable ts = true ->
  by_tags h x (PList ts) [] =
  if match children h x with [] => false | _ => forallb (fun t => negb (match family h x t with [] => true | _ => false end)) ts end
  then Ok (flat_map (family h x) ts) else Err KeyError.
Proof.
  intros h x ts R F L Ht. unfold by_tags. change (nitems (hnode h x)) with (children h x). destruct (children h x) as [|c0 r0] eqn:Ec; [reflexivity|].
  cbn [iter_tags]. assert (A : all_fams h x ts = if forallb (fun t => negb (match family h x t with [] => true | _ => false end)) ts then Ok (flat_map (family h x) ts) else Err KeyError).
  { induction ts as [|t ts IH]; [reflexivity|]. cbn [forallb] in Ht. apply andb_true_iff in Ht as [H1 H2]. cbn [all_fams forallb flat_map].
    unfold own_fam_of. rewrite (fam_of_ok h x t (reach_WF h R) H1) by congruence. rewrite <- family_with_tag. rewrite (IH H2).
    destruct (family h x t); cbn [nonempty negb andb]; [reflexivity|].
    match goal with |- context [if ?b then _ else _] => destruct b; reflexivity end. }
  rewrite A. match goal with |- context [if ?b then _ else _] => destruct b; reflexivity end.
Qed.
(** by_tag_idx_slice / by_tag_idx_list on one level *)
Theorem C64_by_tag_idx_slice_partial : forall h x t a b l, Reach h -> forgotten h -> x < hnext h -> hashable t = true ->
  (by_tag_idx_slice h x t a b [] = Ok l <-> l = py_slice a b (family h x t) /\ l <> []).
Proof.
  intros h x t a b l R F L Ht. pose proof (fam_of_spec h x t R F L) as S. unfold by_tag_idx_slice, own_fam_of.
  assert (P : py_slice a b (@nil loc) = []) by (unfold py_slice; rewrite skipn_nil, firstn_nil; reflexivity).
  destruct (fam_of h x t) as [[f|]|e] eqn:E.
  - destruct S as (_ & -> & NE & NC). destruct (py_slice a b (family h x t)) as [|y r]; split; try discriminate.
    + intros [-> H]. congruence.
    + intros H. injection H as <-. split; [reflexivity|discriminate].
    + intros [-> _]. reflexivity.
  - destruct S as (_ & ->). rewrite P. split; [discriminate|]. intros [-> H]. congruence.
  - destruct S as [[_ S]|[-> ->]]; [congruence|]. rewrite P. split; [discriminate|]. intros [-> H]. congruence.
Qed.
(** [y] is what the Python index [i] selects from the list [l] *)
Definition at_index (l : list loc) (i : Z) (y : loc) : Prop :=
  exists k, py_idx (length l) i = Some k /\ nth_error l k = Some y.
Lemma list_at_iff l i y : list_at l i = Some y <-> at_index l i y.
Proof.
  unfold list_at, at_index. destruct (py_idx (length l) i) as [k|].
  - split; [intros H; exists k; auto|]. intros (k' & H & H'). congruence.
  - split; [discriminate|]. intros (k' & H & _). discriminate.
Qed.
Lemma pick_idx_iff l : forall il r, pick_idx l il = Ok r <-> Forall2 (at_index l) il r.
Proof.
  induction il as [|i il IH]; intros r; cbn.
  - split; [intros H; injection H as <-; constructor|]. intros H. inversion H; subst. reflexivity.
  - destruct (list_at l i) as [y|] eqn:E.
    + apply list_at_iff in E. destruct (pick_idx l il) as [xs|e] eqn:Ex.
      * split; [intros H; injection H as <-; constructor; [exact E|apply IH; reflexivity]|].
        intros H. inversion H as [|? z ? r' Hz Hr]; subst. apply IH in Hr. apply list_at_iff in E, Hz. congruence.
      * split; [discriminate|]. intros H. inversion H as [|? z ? r' Hz Hr]; subst. apply IH in Hr. congruence.
    + split; [discriminate|]. intros H. inversion H as [|? z ? r' Hz Hr]; subst. apply list_at_iff in Hz. congruence.
Qed.
Theorem C64_by_tag_idx_list_partial : forall h x t il l, Reach h -> forgotten h -> x < hnext h -> hashable t = true -> family h x t <> [] ->
  (by_tag_idx_list h x t (Some il) [] = Ok l <-> Forall2 (at_index (family h x t)) il l) /\
  by_tag_idx_list h x t None [] = Ok (family h x t).
Proof.
  intros h x t il l R F L Ht NE. pose proof (fam_of_spec h x t R F L) as S. unfold by_tag_idx_list, own_fam_of. destruct (fam_of h x t) as [[f|]|e].
  - destruct S as (_ & -> & _). split; [|destruct (family h x t); reflexivity]. rewrite <- pick_idx_iff. destruct (pick_idx (family h x t) il) as [[|]|e]; split; congruence.
  - destruct S as (_ & S). congruence.
  - destruct S as [[_ S]|[_ S]]; congruence.
Qed.
(** by_idx_slice(s1, ..., sn): the slices of the children, level by level *)
Theorem C64_by_idx_slice : forall h x s path,
  let tgs := map (fun q => TgSlice (fst q) (snd q)) (s :: path) in
  match by_idx_slice h x s path with
  | Ok l => l = hits h x tgs /\ l <> []
  | Err e => e = IndexError /\ hits h x tgs = []
  end.
Proof.
  intros h x s path.
  assert (A : forall z a b, answer h z (TgSlice a b) = py_slice a b (nitems (hnode h z))).
  { intros z a b. unfold answer, getitem. destruct (nitems (hnode h z)) eqn:E; [|reflexivity]. unfold py_slice. rewrite skipn_nil, firstn_nil. reflexivity. }
  assert (B : forall path l, path <> [] \/ l <> [] -> match idx_slice_path h l path with
      | Ok r => r = flat_map (fun z => hits h z (map (fun q => TgSlice (fst q) (snd q)) path)) l /\ r <> []
      | Err e => e = IndexError /\ flat_map (fun z => hits h z (map (fun q => TgSlice (fst q) (snd q)) path)) l = [] end).
  { induction path0 as [|[a b] p0 IH]; intros l NE.
    - cbn. rewrite flat_map_one. destruct NE as [NE|NE]; [congruence|auto].
    - cbn [idx_slice_path map hits fst snd]. rewrite <- flat_map_flat_map.
      rewrite (flat_map_ext (fun z => answer h z (TgSlice a b)) (fun z => py_slice a b (nitems (hnode h z))) (fun z => A z a b) l).
      destruct (flat_map (fun z => py_slice a b (nitems (hnode h z))) l) as [|y r] eqn:E; [split; reflexivity|].
      apply IH. right. discriminate. }
  cbv zeta. cbn [map hits]. destruct s as [a b]. cbn [fst snd]. rewrite A. unfold by_idx_slice. cbn [fst snd]. destruct path as [|q path].
  - cbn [map hits]. rewrite flat_map_one. destruct (py_slice a b (nitems (hnode h x))); [auto|split; [reflexivity|discriminate]].
  - apply B. left. discriminate.
Qed.
(** by_idx_list(l1, ..., ln) with non-negative indices: the addressed children; from the second
    level on indices beyond the end are skipped *)
Fixpoint idx_hits (h : heap) (l : list loc) (path : list (option (list Z))) : list loc :=
  match path with
  | [] => l
  | None :: r => idx_hits h (flat_map (children h) l) r
  | Some il :: r => idx_hits h (flat_map (fun x => flat_map (fun i => match nth_error (children h x) (Z.to_nat i) with Some y => [y] | None => [] end) il) l) r
  end.
Definition first_level (h : heap) (x : loc) (o : option (list Z)) (l0 : list loc) : Prop :=
  match o with None => l0 = children h x | Some il => Forall2 (fun i y => nth_error (children h x) (Z.to_nat i) = Some y) il l0 end.
Theorem C64_by_idx_list_partial : forall h x o path,
  Forall (fun q => match q with None => True | Some il => Forall (fun i => (0 <= i)%Z) il end) (o :: path) -> children h x <> [] ->
  match by_idx_list h x o path with
  | Ok l => exists l0, first_level h x o l0 /\ l = idx_hits h l0 path
  | Err e => forall l0, first_level h x o l0 -> idx_hits h l0 path = []
  end.
Proof.
  intros h x o path N NE. inversion N as [|? ? No Np]; subst.
  assert (NN : forall (m : list loc) i y, (0 <= i)%Z -> (list_at m i = Some y <-> nth_error m (Z.to_nat i) = Some y)).
  { intros m i y Hi. unfold list_at, py_idx. destruct (Z.leb_spec 0 i); [|lia]. destruct (Z.ltb_spec i (Z.of_nat (length m))) as [B|B]; cbn [andb]; [reflexivity|].
    destruct (Z.ltb_spec i 0); [lia|]. cbn [andb]. split; [discriminate|]. intros E. assert (E' : nth_error m (Z.to_nat i) <> None) by congruence. apply nth_error_Some in E'. lia. }
  assert (NP : forall m il r, Forall (fun i => (0 <= i)%Z) il -> (pick_idx m il = Ok r <-> Forall2 (fun i y => nth_error m (Z.to_nat i) = Some y) il r)).
  { intros m il r Hi. rewrite pick_idx_iff. revert r. induction Hi as [|i il Hi Hl IH]; intros r.
    - split; intros H; inversion H; subst; constructor.
    - split; intros H; inversion H as [|? y ? r' Hy Hr]; subst; constructor; try (apply IH; exact Hr).
      + apply NN; [exact Hi|]. apply list_at_iff. exact Hy.
      + apply list_at_iff. apply NN; [exact Hi|]. exact Hy. }
  assert (NS : forall m il, Forall (fun i => (0 <= i)%Z) il ->
    pick_idx m (filter (fun i => (i <? Z.of_nat (length m))%Z) il) = Ok (flat_map (fun i => match nth_error m (Z.to_nat i) with Some y => [y] | None => [] end) il)).
  { intros m il Hi. induction Hi as [|i il Hi Hl IH]; [reflexivity|]. cbn [filter flat_map]. destruct (Z.ltb_spec i (Z.of_nat (length m))) as [B|B].
    - cbn [pick_idx]. destruct (nth_error m (Z.to_nat i)) as [y|] eqn:E; [|apply nth_error_None in E; lia].
      rewrite (proj2 (NN m i y Hi) E), IH. reflexivity.
    - rewrite IH. destruct (nth_error m (Z.to_nat i)) as [y|] eqn:E; [|reflexivity].
      assert (E' : nth_error m (Z.to_nat i) <> None) by congruence. apply nth_error_Some in E'. lia. }
  assert (NL : forall il, Forall (fun i => (0 <= i)%Z) il -> forall r, idx_list_level h r il =
     Ok (flat_map (fun z => flat_map (fun i => match nth_error (children h z) (Z.to_nat i) with Some y => [y] | None => [] end) il) r)).
  { intros il Hi. induction r as [|z r IH]; [reflexivity|]. cbn [idx_list_level flat_map]. change (nitems (hnode h z)) with (children h z).
    rewrite (NS (children h z) il Hi), IH. reflexivity. }
  assert (E0 : forall path0, idx_hits h [] path0 = []).
  { induction path0 as [|[il|] p0 IH]; cbn; auto. }
  assert (NPath : forall r, match idx_list_path h r path with Ok l => l = idx_hits h r path | Err e => idx_hits h r path = [] end).
  { clear No N NE. induction path as [|q path IH]; intros r; [reflexivity|]. inversion Np as [|? ? Nq Np']; subst. cbn [idx_list_path idx_hits].
    destruct q as [il|].
    - rewrite (NL il Nq). destruct (flat_map _ r) as [|y r'] eqn:E; [apply E0|]. apply (IH Np').
    - change (fun x0 : loc => nitems (hnode h x0)) with (children h). destruct (flat_map (children h) r) as [|y r'] eqn:E; [apply E0|]. apply (IH Np'). }
  unfold by_idx_list. change (nitems (hnode h x)) with (children h x). destruct (children h x) as [|c0 r0] eqn:Ec; [congruence|]. rewrite <- Ec.
  destruct o as [il|]; cbn [first_level].
  - destruct (pick_idx (children h x) il) as [r|e] eqn:Ep.
    + specialize (NPath r). assert (U : forall l0, Forall2 (fun i y => nth_error (children h x) (Z.to_nat i) = Some y) il l0 -> l0 = r).
      { intros l0 H. apply NP in H; [|exact No]. congruence. }
      destruct (idx_list_path h r path); [exists r; split; [apply NP; assumption|exact NPath]|]. intros l0 H. rewrite (U _ H). exact NPath.
    + intros l0 H. apply NP in H; [|exact No]. congruence.
  - specialize (NPath (children h x)). destruct (idx_list_path h (children h x) path); [exists (children h x); auto|]. intros l0 ->. exact NPath.
Qed.
(** by_level_filter(f) and by_level_filter(f, g): the children accepted by f, the children of
    those accepted by g *)
Theorem C64_by_level_filter_partial : forall h x f,
  (children h x <> [] -> by_level_filter h x f [] = Ok (filter (fun y => f (hnode h y)) (children h x))) /\
  (forall g, match by_level_filter h x f [g] with
    | Ok l => l = filter (fun z => g (hnode h z)) (flat_map (children h) (filter (fun y => f (hnode h y)) (children h x))) /\ l <> []
    | Err e => e = KeyError /\ filter (fun z => g (hnode h z)) (flat_map (children h) (filter (fun y => f (hnode h y)) (children h x))) = []
    end).
Proof.
  intros h x f. unfold by_level_filter. change (nitems (hnode h x)) with (children h x). split.
  - destruct (children h x); [congruence|reflexivity].
  - intros g. destruct (children h x) as [|c0 r0] eqn:Ec; [split; reflexivity|]. rewrite <- Ec.
    assert (E : forall l, filter (fun z => g (hnode h z)) (flat_map (children h) l) = flat_map (fun y => filter (fun z => g (hnode h z)) (nitems (hnode h y))) l).
    { induction l as [|y l IH]; [reflexivity|]. cbn [flat_map]. rewrite filter_app, IH. reflexivity. }
    rewrite E. destruct (flat_map _ _) as [|y r]; [auto|split; [reflexivity|discriminate]].
Qed.
(** same_index_children(i): x's child number i, that item's child number i, ... until an item
    has none *)
Inductive SameIndex (h : heap) (i : Z) : loc -> list loc -> Prop :=
| si_stop x : (forall y, ~ at_index (children h x) i y) -> SameIndex h i x []
| si_step x y l : at_index (children h x) i y -> SameIndex h i y l -> SameIndex h i x (y :: l).
Theorem C64_same_index : forall h x i incl, Reach h -> x < hnext h ->
  exists l, SameIndex h i x l /\ same_index_children (S (hnext h)) h x i incl = Some (if incl then x :: l else l).
Proof.
  intros h x i incl R L. destruct (ltree_exists (hnext h) (view h) x (wf_forest h (reach_WF h R)) L) as (T & LT & RT & HT).
  assert (G : forall fuel T, ltree (view h) T -> height T < fuel -> exists l, SameIndex h i (root T) l /\ same_index fuel h (root T) i = Some l).
  { clear. induction fuel as [|n IH]; intros T LT HT; [lia|]. destruct T as [x cs]. apply ltree_iff in LT as [E F]. cbn [root same_index].
    change (a_children (view h x)) with (children h x) in E. change (nitems (hnode h x)) with (children h x).
    destruct (list_at (children h x) i) as [y|] eqn:Ey.
    - pose proof Ey as Ey'. apply list_at_iff in Ey'. destruct Ey' as (k & K1 & K2). rewrite <- E in K2. rewrite nth_error_map in K2.
      destruct (nth_error cs k) as [c|] eqn:Ec; [|discriminate]. cbn in K2. injection K2 as K2. apply nth_error_In in Ec.
      assert (HC : height c < n) by (pose proof (height_kid x cs c Ec); lia).
      destruct (IH c (proj1 (Forall_forall _ _) F c Ec) HC) as (l & S & S'). rewrite K2 in S, S'. exists (y :: l). split.
      + econstructor; [apply list_at_iff; exact Ey|exact S].
      + destruct (children h x) eqn:Ex; [unfold list_at in Ey; destruct (py_idx _ i) as [[|]|]; discriminate|].
        rewrite Ey, S'. reflexivity.
    - exists []. split; [constructor; intros y Hy; apply list_at_iff in Hy; congruence|]. destruct (children h x); [reflexivity|]. rewrite Ey. reflexivity. }
  destruct (G (S (hnext h)) T LT ltac:(lia)) as (l & S & S'). rewrite RT in S, S'. exists l. split; [exact S|]. unfold same_index_children. rewrite S'. destruct incl; reflexivity.
Qed.
Lemma get_forgotten : forgotten get_heap.
Proof.
  intros q t Hq Hc. assert (H : In q (seq 0 11)) by (apply in_seq; vm_compute in Hq; lia).
  cbn [seq] in H. repeat (destruct H as [<-|H]; [first [vm_compute in Hc; discriminate | vm_compute; reflexivity]|]). destruct H.
Qed.
Example C64_case : Reach get_heap /\ forgotten get_heap /\
  by_idx get_heap 0 [0; 0; -1]%Z = Ok 8 /\ by_tag_idx get_heap 0 [(PStr "a", 1%Z); (PStr "x", 0%Z)] = Ok 7 /\
  by_tag get_heap 0 (PStr "a") [] = Ok [1; 3] /\ by_tags get_heap 0 (PList [PStr "b"; PStr "a"]) [] = Ok [2; 1; 3] /\
  by_idx_slice get_heap 0 (Some 0%Z, Some 3%Z) [(None, Some 1%Z)] = Ok [4; 6; 7] /\
  by_idx_list get_heap 0 (Some [0; 2]%Z) [Some [0; 1]%Z] = Ok [4; 5; 7] /\
  by_tag_idx_slice get_heap 0 (PStr "a") (Some 1%Z) None [] = Ok [3] /\
  by_tag_idx_list get_heap 0 (PStr "a") (Some [1; 0]%Z) [] = Ok [3; 1] /\
  by_level_filter get_heap 0 (fun n => pyval_eqb (ntag n) (PStr "a")) [fun n => pyval_eqb (ntag n) (PStr "x")] = Ok [4; 7] /\
  same_index_children 12 get_heap 0 0 true = Some [0; 1; 4; 8].
Proof. split; [exact get_reach|]. split; [exact get_forgotten|]. vm_compute. auto 20. Qed.

(** a tag path never works: iTree has no method _contains_fam *)
Theorem C64_by_tag_path_refuted : Reach get_heap /\ family get_heap 1 (PStr "x") = [4] /\
  (forall h p t path l, path <> [] -> by_tag h p t path <> Ok l) /\
  (forall h p ts path l, path <> [] -> by_tags h p ts path <> Ok l) /\
  (forall h p t a b path l, path <> [] -> by_tag_idx_slice h p t a b path <> Ok l) /\
  (forall h p t o path l, path <> [] -> by_tag_idx_list h p t o path <> Ok l).
Proof.
  split; [exact get_reach|]. split; [vm_compute; reflexivity|]. repeat split; intros.
  - unfold by_tag. destruct (own_fam_of h p t) as [f|e]; [|destruct e; discriminate]. destruct path; [congruence|]. destruct f; discriminate.
  - unfold by_tags. destruct (nitems (hnode h p)); [discriminate|]. destruct (all_fams h p (iter_tags ts)) as [r|e]; [|discriminate]. destruct path; [congruence|]. destruct r; [discriminate|]. destruct (flat_map iter_tags (p0 :: path)); discriminate.
  - unfold by_tag_idx_slice. destruct (own_fam_of h p t) as [f|e]; [|discriminate]. destruct (py_slice a b f); [discriminate|]. destruct path; [congruence|discriminate].
  - unfold by_tag_idx_list. destruct (own_fam_of h p t) as [f|e]; [|discriminate]. destruct o as [il|]; [destruct (pick_idx f il) as [[|]|]|destruct f]; destruct path; try congruence; discriminate.
Qed.
(** three filters: the third is never applied and the items of the second level are returned *)
Theorem C64_by_level_filter_refuted : Reach get_heap /\
  (forall h p f g fs, by_level_filter h p f (g :: fs) = by_level_filter h p f [g]) /\
  by_level_filter get_heap 0 (fun _ => true) [(fun _ => true); (fun _ => false)] = Ok [4; 5; 6; 7].
Proof. split; [exact get_reach|]. split; [reflexivity|]. vm_compute. reflexivity. Qed.
(** a single string tag is taken apart into its characters *)
Theorem C64_by_tags_string_refuted : Reach get_heap /\ family get_heap 0 (PStr "ab") = [10] /\
  by_tags get_heap 0 (PStr "ab") [] = Ok [1; 3; 2].
Proof. split; [exact get_reach|]. vm_compute. auto. Qed.
(** after clear() the tag based accessors still return the removed items *)
Theorem C64_clear_refuted : let h := runs (get_ops ++ [OClear 0 false]) empty_heap in Reach h /\
  children h 0 = [] /\ by_tag h 0 (PStr "a") [] = Ok [1; 3] /\ by_tag_idx h 0 [(PStr "b", 0%Z)] = Ok 2.
Proof. cbv zeta. split; [apply reach_runs; [constructor|vm_compute; reflexivity]|]. vm_compute. auto. Qed.
