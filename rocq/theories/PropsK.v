(** C56: rendering. *)
From Verif Require Import Base Heap HeapSpec ListLemmas ForestLemmas HeapInv HeapOrd Tree HeapTree History Runs PropsA PropsF PropsG
  Deep DeepSpec DeepProofs DeepSibProofs DeepFacts RenderModel.
Open Scope string_scope.

(** ** Specification *)
(** [y] lies [d] levels below the children of [x]. *)
Inductive Level (h : heap) (x : loc) : nat -> loc -> Prop :=
| level_child y : In y (children h x) -> Level h x 0 y
| level_step d q y : Level h x d q -> In y (children h q) -> Level h x (S d) y.

(** Number of line ends in a text. *)
Definition count_nl (s : string) : nat :=
  length (filter (fun c => Ascii.eqb c (Ascii.ascii_of_nat 10)) (list_ascii_of_string s)).

(** One rendered line: indentation of depth [d], the arrow, the text of the item with its number. *)
Record rline := RL { rl_depth : nat; rl_num : nat; rl_item : loc }.
Definition indent (d : nat) : string := " " ++ concat_str (repeat ".  " d).
Section Text.
  Variables (repr : pyval -> string) (bin : Z -> string) (dec : nat -> string) (lt : nat -> option string) (h : heap).
  Definition text (enumerate : bool) (y : loc) (i : nat) : string :=
    build_item_str repr bin dec lt h y (if enumerate then Some i else None).
  Definition arrow (y : loc) : string := if flag h y 3 then ">>" else "> ".
  Definition line (enumerate : bool) (l : rline) : string :=
    indent (rl_depth l) ++ arrow (rl_item l) ++ text enumerate (rl_item l) (rl_num l).
End Text.

(** ** Proofs *)
Fixpoint outline (lvl : nat) (T : tree loc) : list rline :=
  match T with Node _ cs => concat (mapi (fun i c => RL lvl i (root c) :: outline (S lvl) c) cs) end.

Lemma app_str_assoc (a b c : string) : (a ++ b) ++ c = a ++ b ++ c.
Proof. induction a as [|x a IH]; [reflexivity|]. cbn. f_equal. exact IH. Qed.
Lemma concat_str_app l m : concat_str (l ++ m)%list = concat_str l ++ concat_str m.
Proof. induction l as [|s l IH]; [reflexivity|]. cbn. rewrite IH. symmetry. apply app_str_assoc. Qed.
Lemma dots_indent d : " " ++ dots d = indent d.
Proof. unfold indent. f_equal. induction d as [|d IH]; [reflexivity|]. cbn [dots repeat concat_str]. rewrite IH. reflexivity. Qed.

Section Main.
  Context (repr : pyval -> string) (bin : Z -> string) (dec : nat -> string) (lt : nat -> option string) (h : heap)
          (f : option (loc -> bool)) (enumerate : bool).
  Let ln := line repr bin dec lt h enumerate.

  Lemma render_ok : (enumerate = true -> f <> None) -> forall n lvl T, ltree (view h) T -> size T <= n ->
    render_main repr bin dec lt h n f enumerate lvl (root T) =
    Some (Ok ((if Nat.eqb lvl 0 then if ok f (root T) then text repr bin dec lt h enumerate (root T) 0 else "" else "") ++
              concat_str (map ln (outline lvl (prune (ok f) T))))).
  Proof.
    intros He n. induction n as [|n IH]; intros lvl [x cs] L Hs; [cbn in Hs; lia|].
    apply ltree_iff in L. destruct L as [Ec Lc]. cbn [root] in *.
    assert (Ech : nitems (hnode h x) = map root cs) by (symmetry; exact Ec).
    cbn [render_main]. rewrite Ech.
    assert (Hsz : forall c, In c cs -> size c <= n).
    { intros c Hc. change (S (list_sum (map size cs)) <= S n) in Hs. assert (size c <= list_sum (map size cs)); [|lia].
      clear -Hc. induction cs as [|a r IHr]; [destruct Hc|]. change (size c <= size a + list_sum (map size r)).
      destruct Hc as [->|Hc]; [lia|]. specialize (IHr Hc). lia. }
    rewrite filter_map_comm, prune_eq. cbn [outline].
    assert (G : forall ds i cnt, (forall c, In c ds -> In c cs) -> (enumerate = true -> cnt = Some i) ->
      render_items repr bin dec lt h (render_main repr bin dec lt h n f enumerate (S lvl)) enumerate lvl cnt (map root ds) =
      Some (Ok (concat_str (map ln (concat (mapi_from (fun i c => RL lvl i (root c) :: outline (S lvl) c) i (map (prune (ok f)) ds))))))).
    { induction ds as [|d ds IHd]; intros i cnt Hin Hc; [reflexivity|]. cbn [map render_items mapi_from concat].
      rewrite (IH (S lvl) d) by (try apply (Hsz d); try (rewrite Forall_forall in Lc; apply Lc); apply Hin; left; reflexivity).
      cbn [Nat.eqb append]. rewrite root_prune.
      assert (El : ln (RL lvl i (root d)) =
        " " ++ dots lvl ++ heading h (root d) ++ build_item_str repr bin dec lt h (root d) (if enumerate then Some i else None)).
      { unfold ln, line. cbn [rl_depth rl_item rl_num]. rewrite <- dots_indent, app_str_assoc. unfold text, arrow, heading.
        replace (is_linked h (root d)) with (flag h (root d) 3); [reflexivity|].
        unfold is_linked, has, LINKED, flag. change 8%Z with (2 ^ 3)%Z.
        change (a_flags (view h (root d))) with (nflags (hnode h (root d))).
        destruct (Z.testbit (nflags (hnode h (root d))) 3) eqn:B.
        - destruct (Z.eqb_spec (Z.land (nflags (hnode h (root d))) (2 ^ 3)) 0) as [E|]; [|reflexivity].
          exfalso. apply (f_equal (fun z => Z.testbit z 3)) in E. rewrite Z.land_spec, B, Z.bits_0, Z.pow2_bits_true in E; [discriminate|lia].
        - destruct (Z.eqb_spec (Z.land (nflags (hnode h (root d))) (2 ^ 3)) 0) as [|E]; [reflexivity|].
          exfalso. apply E. apply Z.bits_inj'. intros k Hk. rewrite Z.land_spec, Z.bits_0.
          destruct (Z.eq_dec k 3) as [->|Nk]; [rewrite B; reflexivity|]. rewrite Z.pow2_bits_false by congruence. apply andb_false_r. }
      destruct enumerate eqn:En.
      - rewrite (Hc eq_refl). cbn [map]. rewrite (IHd (S i) (Some (S i))); [|intros c Hc'; apply Hin; right; exact Hc'|reflexivity].
        rewrite map_app, concat_str_app. cbn [concat_str map]. rewrite El. rewrite !app_str_assoc. reflexivity.
      - rewrite (IHd (S i) cnt); [|intros c Hc'; apply Hin; right; exact Hc'|discriminate].
        cbn [concat_str map app]. rewrite map_app, concat_str_app, El, !app_str_assoc. reflexivity. }
    rewrite (G (filter (fun c => ok f (root c)) cs) 0).
    - destruct lvl; cbn [Nat.eqb]; reflexivity.
    - intros c Hc. apply filter_In in Hc. tauto.
    - intros E. specialize (He E). destruct f; [reflexivity|congruence].
  Qed.
End Main.

Lemma concat_mapi_in {A B} (g : nat -> A -> list B) cs b : In b (concat (mapi g cs)) <->
  exists i c, nth_error cs i = Some c /\ In b (g i c).
Proof.
  unfold mapi. assert (G : forall i0, In b (concat (mapi_from g i0 cs)) <-> exists i c, nth_error cs i = Some c /\ In b (g (i0 + i) c)).
  { induction cs as [|c cs IH]; intros i0; cbn [mapi_from concat].
    - split; [intros []|intros (i & c & E & _); destruct i; discriminate].
    - rewrite in_app_iff, IH. split.
      + intros [H|(i & d & E & H)]; [exists 0, c; rewrite Nat.add_0_r; auto|exists (S i), d; rewrite Nat.add_succ_r; auto].
      + intros ([|i] & d & E & H); cbn in E; [injection E as ->; left; rewrite Nat.add_0_r in H; exact H|].
        right. exists i, d. rewrite Nat.add_succ_r in H. auto. }
  apply G.
Qed.

Lemma outline_items T : forall lvl, map rl_item (outline lvl T) = below_tree T.
Proof.
  induction T as [a cs IH] using tree_ind'. intros lvl. unfold below_tree, mapi. cbn [outline kids]. unfold mapi.
  assert (G : forall i, map rl_item (concat (mapi_from (fun i c => RL lvl i (root c) :: outline (S lvl) c) i cs)) = flat_map flatten cs).
  { induction IH as [|c cs Hc _ IHl]; intros i; [reflexivity|]. cbn [mapi_from concat flat_map]. rewrite map_app, IHl. f_equal.
    cbn [map rl_item]. rewrite Hc. destruct c. reflexivity. }
  apply G.
Qed.

(** The position facts for the outline of the (pruned) tree. *)
Lemma outline_pos h f x T : ltree (view h) T -> forall lvl, (forall y, In y (children h (root T)) -> Level h x lvl y) ->
  forall l, In l (outline lvl (prune f T)) ->
    Level h x (rl_depth l) (rl_item l) /\ exists p, nth_error (filter f (children h p)) (rl_num l) = Some (rl_item l).
Proof.
  induction T as [a cs IH] using tree_ind'. intros L lvl Hl l Hin.
  apply ltree_iff in L. destruct L as [Ec Lc]. rewrite prune_eq in Hin. cbn [outline] in Hin. cbn [root] in Hl.
  apply concat_mapi_in in Hin. destruct Hin as (i & c & E & H).
  rewrite nth_error_map in E. destruct (nth_error (filter (fun c => f (root c)) cs) i) as [d|] eqn:Ed; [|discriminate].
  injection E as <-. assert (Hd : In d cs) by (apply nth_error_In in Ed; apply filter_In in Ed; tauto).
  assert (Hc : children h a = map root cs) by (symmetry; exact Ec).
  destruct H as [<-|H].
  - cbn [rl_depth rl_item rl_num]. rewrite root_prune. split.
    + apply Hl. rewrite Hc. apply in_map. exact Hd.
    + exists a. rewrite Hc, filter_map_comm, nth_error_map, Ed. reflexivity.
  - rewrite Forall_forall in IH, Lc. apply (IH d Hd (Lc d Hd) (S lvl)); [|exact H].
    intros y Hy. apply (level_step h x lvl (root d)); [|exact Hy]. apply Hl. rewrite Hc. apply in_map. exact Hd.
Qed.

(** ** The theorems.  [repr], [bin], [dec] (number text) and [lt] (link text) are arbitrary. *)

(** Without a filter and without enumeration: the text of the item itself, then one line per item
    below it, in pre-order, indented by its depth. *)
Theorem C56_renders : forall repr bin dec lt h x, Reach h -> x < hnext h -> exists T ls, tree_at h x T /\
  map rl_item ls = below_tree T /\ (forall y, In y (map rl_item ls) <-> Below h x y) /\ NoDup (map rl_item ls) /\
  (forall l, In l ls -> Level h x (rl_depth l) (rl_item l)) /\
  forall n, size T <= n ->
    renders repr bin dec lt h n None false x =
    Some (Ok (text repr bin dec lt h false x 0 ++ concat_str (map (line repr bin dec lt h false) ls))).
Proof.
  intros repr bin dec lt h x R Hx. destruct (C30_deep_iter h x R Hx) as (T & TA & HT).
  destruct (HT (3 * size T) (le_n _)) as (_ & _ & ND & HB).
  exists T, (outline 0 T). split; [exact TA|]. rewrite outline_items. split; [reflexivity|]. split; [exact HB|]. split; [exact ND|].
  destruct TA as [<- L]. split.
  - intros l Hl. rewrite <- (prune_true T) in Hl.
    apply (outline_pos h (fun _ => true) (root T) T L 0 (fun y => level_child h (root T) y) l Hl).
  - intros n Hn. unfold renders. rewrite (render_ok repr bin dec lt h None false ltac:(discriminate) n 0 T L Hn). cbn [Nat.eqb ok].
    replace (prune (fun _ => true) T) with T by (symmetry; apply prune_true).
    change (ok None) with (fun _ : loc => true). rewrite prune_true. reflexivity.
Qed.

(** With a filter (hierarchical: items below a filtered out item are not shown) and optionally with
    numbers: the shown items are those that pass together with all items between them and the root of the
    rendering, in pre-order; the number is the position among the shown siblings.
    The root line appears only if the root passes the filter (see the refuted theorem below). *)
Theorem C56_filtered_partial : forall repr bin dec lt h x T f enumerate, Reach h -> tree_at h x T -> exists ls,
  Subseq (map rl_item ls) (below_tree T) /\
  (forall y, In y (map rl_item ls) <-> In y (below_tree T) /\ forall z, Anc (view h) z y -> In z (below_tree T) -> f z = true) /\
  (forall l, In l ls -> Level h x (rl_depth l) (rl_item l) /\
     exists p, parent_of h (rl_item l) = Some p /\ nth_error (filter f (children h p)) (rl_num l) = Some (rl_item l)) /\
  forall n, size T <= n ->
    renders repr bin dec lt h n (Some f) enumerate x =
    Some (Ok ((if f x then text repr bin dec lt h enumerate x 0 else "") ++ concat_str (map (line repr bin dec lt h enumerate) ls))).
Proof.
  intros repr bin dec lt h x T f enumerate R TA. pose proof (tree_ND _ _ _ R TA) as ND. destruct TA as [<- L].
  pose proof (wf_forest _ (reach_WF h R)) as FF.
  exists (outline 0 (prune f T)). rewrite outline_items. split; [apply below_prune_sub|]. split; [intros y; apply (below_prune_in _ _ f T FF L ND y)|]. split.
  - intros l Hl. destruct (outline_pos h f (root T) T L 0 (fun y => level_child h (root T) y) l Hl) as [A (p & B)].
    split; [exact A|]. exists p. split; [|exact B]. apply (child_attached h p); [exact (reach_WF h R)|].
    apply nth_error_In in B. apply filter_In in B. tauto.
  - intros n Hn. unfold renders. rewrite (render_ok repr bin dec lt h (Some f) enumerate ltac:(discriminate) n 0 T L Hn). reflexivity.
Qed.

(** Documented: "The root of the object is not filtered and always in the outputs first line"; it is filtered. *)
Theorem C56_root_filtered_refuted : forall repr bin dec lt, Reach ex2 /\
  renders repr bin dec lt ex2 9 (Some (fun _ => false)) false 0 = Some (Ok "").
Proof. intros. split; [exact ex2_reach|]. vm_compute. reflexivity. Qed.

(** Enumeration without a filter fails as soon as there is an item to number ... *)
Theorem C56_enumerate_refuted : forall repr bin dec lt h n x, children h x <> [] ->
  renders repr bin dec lt h (S n) None true x = Some (Err UnboundLocalError).
Proof.
  intros repr bin dec lt h n x Hc. unfold renders. cbn [render_main].
  change (nitems (hnode h x)) with (children h x).
  rewrite (filter_all (ok None) (children h x)) by reflexivity.
  destruct (children h x) as [|y r]; [contradiction|reflexivity].
Qed.
(** ... and is right for an item without children. *)
Theorem C56_enumerate_leaf : forall repr bin dec lt h n x, children h x = [] ->
  renders repr bin dec lt h (S n) None true x = Some (Ok (text repr bin dec lt h true x 0)).
Proof.
  intros repr bin dec lt h n x Hc. unfold renders. cbn [render_main].
  change (nitems (hnode h x)) with (children h x). rewrite Hc. cbn [filter render_items Nat.eqb ok].
  f_equal. f_equal. unfold text. generalize (build_item_str repr bin dec lt h x (Some 0)). intros s.
  induction s as [|c s IH]; [reflexivity|]. cbn. f_equal. exact IH.
Qed.

(** Text of an item without link and flags. *)
Theorem C56_item_text : forall repr bin dec lt h x, a_flags (view h x) = 0%Z -> nlink (hnode h x) = None ->
  (forall v, repr v <> ", " /\ repr v <> ",") ->
  let t := tag_of h x in let v := a_val (view h x) in
  text repr bin dec lt h false x 0 =
  "iTree(" ++ (if pyval_eqb t PNoTag then "" else repr t) ++
  (if pyval_eqb t PNoTag || pyval_eqb v PNoValue then "" else ", ") ++
  (if pyval_eqb v PNoValue then "" else "value=" ++ repr v) ++ ")" ++ nl.
Proof.
  intros repr bin dec lt h x Hf Hl Hr t v. unfold text, build_item_str.
  change (ntag (hnode h x)) with t. change (nval (hnode h x)) with v. change (nflags (hnode h x)) with (a_flags (view h x)).
  rewrite Hf, Hl. cbn [Z.eqb negb orb].
  assert (N1 : forall w, String.eqb (repr w) ", " = false) by (intros w; apply String.eqb_neq; apply Hr).
  assert (N2 : forall w, String.eqb (repr w) "," = false) by (intros w; apply String.eqb_neq; apply Hr).
  destruct (pyval_eqb t PNoTag), (pyval_eqb v PNoValue); cbn [orb app]; unfold drop_last; cbn [last removelast app concat_str];
    rewrite ?String.eqb_refl; cbn [last removelast app concat_str]; rewrite ?N2; cbn [app concat_str append]; try reflexivity.
  all: cbn; repeat (f_equal; try reflexivity).
Qed.

(** If the texts of tags, values, flags, numbers and links contain no line end, the output has exactly
    one line per item: the number of line ends is the number of rendered items. *)
Lemma count_nl_app a b : count_nl (a ++ b) = count_nl a + count_nl b.
Proof.
  unfold count_nl. rewrite <- app_length, <- filter_app. do 2 f_equal.
  induction a as [|c a IH]; [reflexivity|]. cbn. f_equal. exact IH.
Qed.
Lemma count_nl_concat l : count_nl (concat_str l) = list_sum (map count_nl l).
Proof. induction l as [|s l IH]; [reflexivity|]. cbn [concat_str map]. rewrite count_nl_app, IH. reflexivity. Qed.

Lemma count_drop s out : (forall x, In x out -> count_nl x = 0) -> forall x, In x (drop_last s out) -> count_nl x = 0.
Proof.
  intros H x. unfold drop_last. destruct (String.eqb (last out "") s); [|apply H]. intros Hx. apply H.
  destruct out as [|o out]; [destruct Hx|].
  rewrite (app_removelast_last "" (l := o :: out)) by discriminate. apply in_or_app. left. exact Hx.
Qed.

Lemma text_nl repr bin dec lt h e y i : (forall v, count_nl (repr v) = 0) -> (forall z, count_nl (bin z) = 0) -> (forall n, count_nl (dec n) = 0) ->
  (forall n s, lt n = Some s -> count_nl s = 0) -> count_nl (text repr bin dec lt h e y i) = 1.
Proof.
  intros Hr Hb Hd Hl. unfold text, build_item_str.
  set (o1 := if pyval_eqb (ntag (hnode h y)) PNoTag then _ else _).
  set (o2 := if pyval_eqb (nval (hnode h y)) PNoValue then _ else _).
  set (o3 := match nlink (hnode h y) with Some lk => match lt (lk_src lk) with Some s => (o2 ++ [s; ", "])%list | None => o2 end | None => o2 end).
  cbv zeta.
  set (ld := match nlink (hnode h y) with Some lk => lk_loaded lk | None => false end).
  set (o4 := if _ || ld then _ else _).
  assert (A : forall l m, (forall x, In x l -> count_nl x = 0) -> (forall x, In x m -> count_nl x = 0) -> forall x, In x (l ++ m)%list -> count_nl x = 0)
    by (intros l m H1 H2 x Hx; apply in_app_or in Hx; destruct Hx; auto).
  assert (H1 : forall x, In x o1 -> count_nl x = 0).
  { unfold o1. destruct (pyval_eqb _ _); [|apply A]; cbn; intuition (subst; auto). }
  assert (H2 : forall x, In x o2 -> count_nl x = 0).
  { unfold o2. clearbody o1. destruct (pyval_eqb (nval (hnode h y)) PNoValue); [exact H1|apply A; [exact H1|]]; cbn; intuition (subst; auto). }
  assert (H3 : forall x, In x o3 -> count_nl x = 0).
  { unfold o3. clearbody o2. destruct (nlink (hnode h y)) as [lk|]; [|exact H2]. destruct (lt (lk_src lk)) as [s|] eqn:E; [|exact H2].
    apply A; [exact H2|]. cbn; intuition (subst; auto). eapply Hl; exact E. }
  assert (H4 : forall x, In x o4 -> count_nl x = 0).
  { unfold o4. clearbody o3 ld. destruct (_ || ld); [|exact H3]. set (z := if ld && is_link_root h y then _ else _). destruct (negb (z =? 0)%Z); [|exact H3].
    apply A; [exact H3|]. intros x [<-|[]]. rewrite count_nl_app, Hb. reflexivity. }
  pose proof (count_drop "," _ (count_drop ", " _ H4)) as H5.
  set (o5 := drop_last "," (drop_last ", " o4)) in *.
  assert (S0 : forall l, (forall x, In x l -> count_nl x = 0) -> list_sum (map count_nl l) = 0).
  { induction l as [|s l IHl]; intros H; [reflexivity|]. change (count_nl s + list_sum (map count_nl l) = 0).
    rewrite IHl, (H s (or_introl eq_refl)); [reflexivity|]. intros x Hx. apply H. right. exact Hx. }
  rewrite count_nl_concat. destruct e.
  - cbn [map]. change (count_nl (dec i ++ ". ") + list_sum (map count_nl (o5 ++ [")" ++ nl])) = 1).
    rewrite count_nl_app, Hd, map_app, list_sum_app, (S0 _ H5). reflexivity.
  - rewrite map_app, list_sum_app, (S0 _ H5). reflexivity.
Qed.

Theorem C56_one_line_each : forall repr bin dec lt h x, (forall v, count_nl (repr v) = 0) -> (forall z, count_nl (bin z) = 0) ->
  (forall n, count_nl (dec n) = 0) -> (forall n s, lt n = Some s -> count_nl s = 0) -> Reach h -> x < hnext h ->
  exists T, tree_at h x T /\ forall n, size T <= n ->
    exists out, renders repr bin dec lt h n None false x = Some (Ok out) /\ count_nl out = size T.
Proof.
  intros repr bin dec lt h x Hr Hb Hd Hl R Hx. destruct (C56_renders repr bin dec lt h x R Hx) as (T & ls & TA & Ei & _ & _ & _ & E).
  exists T. split; [exact TA|]. intros n Hn. eexists. split; [apply E; exact Hn|].
  rewrite count_nl_app, count_nl_concat, map_map, text_nl by assumption.
  assert (G : list_sum (map (fun l => count_nl (line repr bin dec lt h false l)) ls) = length ls).
  { clear -Hr Hb Hd Hl. induction ls as [|l ls IH]; [reflexivity|]. 
    change (count_nl (line repr bin dec lt h false l) + list_sum (map (fun l => count_nl (line repr bin dec lt h false l)) ls) = S (length ls)).
    rewrite IH. unfold line. rewrite !count_nl_app, text_nl by assumption.
    replace (count_nl (indent (rl_depth l))) with 0.
    - replace (count_nl (arrow h (rl_item l))) with 0; [reflexivity|]. unfold arrow. destruct (flag _ _ _); reflexivity.
    - unfold indent. rewrite count_nl_app, count_nl_concat. induction (rl_depth l) as [|d IHd]; [reflexivity|]. exact IHd. }
  rewrite G. rewrite <- (map_length rl_item ls), Ei. rewrite <- flatten_length. destruct T. reflexivity.
Qed.

Example C56_example : renders (fun v => match v with PStr s => s | _ => "1" end) (fun _ => "") (fun _ => "") (fun _ => None) ex2 9 None false 0 =
  Some (Ok ("iTree(r)" ++ nl ++ " > iTree(a, value=1)" ++ nl ++ " .  > iTree(c, value=1)" ++ nl ++ " .  .  > iTree(f, value=1)" ++ nl ++
            " .  .  .  > iTree(g, value=1)" ++ nl ++ " .  > iTree(d, value=1)" ++ nl ++ " > iTree(b, value=1)" ++ nl ++ " .  > iTree(e, value=1)" ++ nl)).
Proof. vm_compute. reflexivity. Qed.

Print Assumptions C56_renders.
Print Assumptions C56_filtered_partial.
Print Assumptions C56_one_line_each.
