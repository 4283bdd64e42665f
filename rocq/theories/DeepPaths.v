(** idx_paths / tag_idx_paths: the numbered stack machines deliver every item with its path. *)
From Verif Require Import Base Heap Tree Deep DeepSpec DeepProofs.

Lemma yields_app {P} (a b : list (ev P)) : yields (a ++ b) = yields a ++ yields b.
Proof. unfold yields. apply flat_map_app. Qed.
Lemma combine_rev {A B} (l : list A) : forall (m : list B), length l = length m -> combine (rev l) (rev m) = rev (combine l m).
Proof.
  induction l as [|a l IH]; intros [|b m] H; try discriminate; [reflexivity|]. cbn in *. injection H as H. rewrite <- IH by assumption.
  assert (G : forall (p : list A) (q : list B), length p = length q -> combine (p ++ [a]) (q ++ [b]) = combine p q ++ [(a, b)]).
  { induction p as [|x p IHp]; intros [|y q] E; try discriminate; [reflexivity|]. cbn. rewrite IHp by (cbn in E; lia). reflexivity. }
  apply G. rewrite !rev_length. assumption.
Qed.
Lemma combine_ord {A B} rv (l : list A) (m : list B) : length l = length m -> combine (ord rv l) (ord rv m) = ord rv (combine l m).
Proof. destruct rv; cbn; [apply combine_rev|reflexivity]. Qed.
Lemma flat_map_filter {A B} (p : A -> bool) (g : A -> list B) l : flat_map g (filter p l) = flat_map (fun a => if p a then g a else []) l.
Proof. induction l as [|a l IH]; cbn; [reflexivity|]. destruct (p a); cbn; rewrite IH; reflexivity. Qed.
Lemma combine_map_l {A B C} (g : A -> B) (l : list A) : forall (m : list C), combine (map g l) m = map (fun ac => (g (fst ac), snd ac)) (combine l m).
Proof. induction l as [|a l IH]; intros [|b m]; cbn; try reflexivity. rewrite IH. reflexivity. Qed.
Lemma in_combine_seq {A} (l : list A) i a : In (i, a) (combine (seq 0 (length l)) l) -> nth_error l i = Some a.
Proof.
  intros H. assert (G : forall s, In (i, a) (combine (seq s (length l)) l) -> s <= i /\ nth_error l (i - s) = Some a).
  { clear H. induction l as [|b l IH]; intros s H; [destruct H|]. cbn in H. destruct H as [[= -> ->]|H].
    - rewrite Nat.sub_diag. auto.
    - destruct (IH (S s) H) as [A1 A2]. split; [lia|]. replace (i - s) with (S (i - S s)) by lia. exact A2. }
  destruct (G 0 H) as [_ G']. rewrite Nat.sub_0_r in G'. exact G'.
Qed.

Section Num.
  Context (ch : loc -> list loc) (rv : bool) (f : option (loc -> bool)).
  Context {D K : Type} (start : loc -> D) (k0 : loc -> K) (nxt : D -> loc -> option (Z * D))
          (key : loc -> Z -> K) (cev : loc -> Z -> ev (list K)) (pre : list K).
  Context (elz : list loc -> nat -> Z) (el : list loc -> nat -> K).
  (** the numbers the counter gives to a list of items *)
  Fixpoint numbers (d : D) (l : list loc) : option (list Z) :=
    match l with
    | [] => Some []
    | x :: r => match nxt d x with None => None | Some (j, d') => option_map (cons j) (numbers d' r) end
    end.
  Hypothesis num_ok : forall x, numbers (start x) (ord rv (ch x)) = Some (ord rv (map (elz (ch x)) (seq 0 (length (ch x))))).
  Hypothesis el_ok : forall ls i x, nth_error ls i = Some x -> el ls i = key x (elz ls i).
  Hypothesis quiet : forall x j, yields [cev x j] = [].

  Definition numbered (x : loc) (j : Z) : Prop := exists y i, nth_error (ch y) i = Some x /\ elz (ch y) i = j.
  Definition evs_ok (evs : list (ev (list K))) : Prop :=
    forall e, In e evs -> (exists p x, e = Yield p x) \/ (exists x j, e = cev x j /\ numbered x j).
  Lemma evs_ok_app a b : evs_ok a -> evs_ok b -> evs_ok (a ++ b).
  Proof. intros A B e H. apply in_app_iff in H as [H|H]; auto. Qed.
  Lemma evs_ok_nil : evs_ok []. Proof. intros e []. Qed.
  Lemma evs_ok_cev x j : numbered x j -> evs_ok [cev x j].
  Proof. intros H e [<-|[]]. right. eauto. Qed.
  Lemma evs_ok_yield p x : evs_ok [Yield p x]. Proof. intros e [<-|[]]. left. eauto. Qed.
  Notation okp := (fun px : list K * loc => ok f (snd px)).
  Notation sh := (shape rv okp).
  Notation pt := (path_tree el).

  (** the children of a node, numbered, in iteration order *)
  Definition numbered_kids (x : loc) (cs : list (tree loc)) : list (Z * tree loc) :=
    ord rv (combine (map (elz (ch x)) (seq 0 (length cs))) cs).
  Lemma kids_shape p x cs : map root cs = ch x -> forall {B} (g : tree (list K * loc) -> list B),
    flat_map g (kids (sh (pt p (Node x cs)))) =
    flat_map (fun jc => if ok f (root (snd jc)) then g (sh (pt (p ++ [key (root (snd jc)) (fst jc)]) (snd jc))) else []) (numbered_kids x cs).
  Proof.
    intros E B g. cbn [path_tree]. rewrite shape_eq. cbn [kids]. rewrite flat_map_map, flat_map_filter. unfold mapi. rewrite mapi_combine.
    fold (ord rv (map (fun ia => pt (p ++ [el (map root cs) (fst ia)]) (snd ia)) (combine (seq 0 (length cs)) cs))).
    rewrite <- map_ord, flat_map_map. unfold numbered_kids. rewrite combine_map_l, <- map_ord, flat_map_map. rewrite E.
    assert (H : forall ia, In ia (ord rv (combine (seq 0 (length cs)) cs)) -> el (ch x) (fst ia) = key (root (snd ia)) (elz (ch x) (fst ia))).
    { intros [i c] Hin. assert (Hin' : In (i, c) (combine (seq 0 (length cs)) cs)) by (destruct rv; cbn in Hin; [apply in_rev; exact Hin|exact Hin]).
      apply in_combine_seq in Hin'. apply el_ok. rewrite <- E. cbn. rewrite nth_error_map, Hin'. reflexivity. }
    revert H. generalize (ord rv (combine (seq 0 (length cs)) cs)). induction l as [|[i c] l IH]; intros H; [reflexivity|]. cbn [flat_map fst snd].
    rewrite IH by (intros; apply H; right; assumption). specialize (H (i, c) (or_introl eq_refl)). cbn in H. rewrite root_path_tree. cbn [snd]. rewrite H. reflexivity.
  Qed.
  Lemma kids_numbers x cs : map root cs = ch x -> map snd (numbered_kids x cs) = ord rv cs /\
    numbers (start x) (map root (ord rv cs)) = Some (map fst (numbered_kids x cs)) /\
    Forall (fun jc => numbered (root (snd jc)) (fst jc)) (numbered_kids x cs).
  Proof.
    intros E. assert (L : length (ch x) = length cs) by (rewrite <- E; apply map_length). unfold numbered_kids. rewrite !map_ord.
    assert (C1 : forall (a : list Z) (b : list (tree loc)), length a = length b -> map snd (combine a b) = b /\ map fst (combine a b) = a).
    { induction a as [|z a IH]; intros [|c b] H; try discriminate; [auto|]. cbn in *. destruct (IH b ltac:(lia)) as [-> ->]. auto. }
    destruct (C1 (map (elz (ch x)) (seq 0 (length cs))) cs) as [H1 H2]; [rewrite map_length, seq_length; reflexivity|]. rewrite H1, H2. split; [reflexivity|].
    split; [rewrite E, <- L; apply num_ok|]. apply Forall_ord. rewrite combine_map_l. apply Forall_map. apply Forall_forall. intros [i c] Hin. apply in_combine_seq in Hin.
    exists x, i. cbn. split; [|reflexivity]. rewrite <- E, nth_error_map, Hin. reflexivity.
  Qed.

  Notation dstep := (step_down_num ch start k0 nxt key cev rv f pre).
  Definition dn_good T := unf ch T -> forall l r d ds k ks j d', nxt d (root T) = Some (j, d') -> numbered (root T) j ->
    exists n evs, n <= 2 * size T /\ steps dstep n ((root T :: l) :: r, (d :: ds, k :: ks)) evs (l :: r, (d' :: ds, key (root T) j :: ks)) /\
      evs_ok evs /\ yields evs = if ok f (root T) then flatten (sh (pt (pre ++ rev (key (root T) j :: ks)) T)) else [].
  Lemma dn_list zs : Forall dn_good (map snd zs) -> Forall (unf ch) (map snd zs) -> Forall (fun jc => numbered (root (snd jc)) (fst jc)) zs ->
    forall l r d ds k ks, numbers d (map root (map snd zs)) = Some (map fst zs) ->
    exists n evs d' k', n <= 2 * sizes (map snd zs) /\ steps dstep n ((map root (map snd zs) ++ l) :: r, (d :: ds, k :: ks)) evs (l :: r, (d' :: ds, k' :: ks)) /\
      evs_ok evs /\ yields evs = flat_map (fun jc => if ok f (root (snd jc)) then flatten (sh (pt ((pre ++ rev ks) ++ [key (root (snd jc)) (fst jc)]) (snd jc))) else []) zs.
  Proof.
    induction zs as [|[z c] zs IH]; intros G U NB l r d ds k ks Hn; [exists 0, [], d, k; repeat split; [lia|constructor|apply evs_ok_nil]|].
    cbn [map fst snd] in *. inversion G as [|? ? G1 G2]; subst. inversion U as [|? ? U1 U2]; subst. inversion NB as [|? ? N1 N2]; subst. cbn [fst snd] in N1.
    cbn [numbers] in Hn. destruct (nxt d (root c)) as [[j d']|] eqn:En; [|discriminate]. destruct (numbers d' (map root (map snd zs))) as [js|] eqn:Ej; [|discriminate].
    cbn in Hn. injection Hn as -> ->.
    destruct (G1 U1 (map root (map snd zs) ++ l) r d ds k ks z d' En N1) as (n1 & e1 & L1 & S1 & O1 & Y1).
    destruct (IH G2 U2 N2 l r d' ds (key (root c) z) ks Ej) as (n2 & e2 & d2 & k2 & L2 & S2 & O2 & Y2).
    exists (n1 + n2), (e1 ++ e2), d2, k2. rewrite sizes_cons. split; [lia|]. split; [eapply steps_trans; [exact S1|exact S2]|].
    split; [apply evs_ok_app; assumption|]. rewrite yields_app, Y1, Y2. cbn [flat_map fst snd rev]. rewrite app_assoc. reflexivity.
  Qed.
  Lemma dn_tree T : dn_good T.
  Proof.
    induction T as [x cs IH] using tree_ind'. intros U l r d ds k ks j d' En NB. cbn [root] in *. apply unf_iff in U as [E U].
    destruct (kids_numbers x cs E) as (K1 & K2 & K3).
    assert (Fl : forall p, flatten (sh (pt p (Node x cs))) = (p, x) :: flat_map flatten (kids (sh (pt p (Node x cs))))).
    { intros p. destruct (sh (pt p (Node x cs))) as [a b] eqn:Es. cbn. f_equal. pose proof (f_equal root Es) as R. rewrite root_shape in R. cbn in R. congruence. }
    destruct (ok f x && nonnil (ch x)) eqn:Eo.
    - apply andb_true_iff in Eo as [Eo Ec]. set (ks' := key x j :: ks).
      destruct (dn_list (numbered_kids x cs)) with (l := @nil loc) (r := l :: r) (d := start x) (ds := d' :: ds) (k := k0 x) (ks := ks') as (n & evs & d2 & k2 & L & S & O & Y).
      + rewrite K1. apply Forall_ord. exact IH.
      + rewrite K1. apply Forall_ord. exact U.
      + exact K3.
      + rewrite K1. exact K2.
      + rewrite K1 in *. rewrite sizes_ord in L. exists (1 + (n + 1)), ((cev x j :: [Yield (pre ++ rev ks') x]) ++ evs ++ []).
        split; [rewrite size_node; lia|]. split.
        * eapply steps_trans; [apply steps1; cbn [step_down_num]; rewrite En, Eo, Ec; cbn [andb tl]; rewrite <- E, <- map_ord, <- (app_nil_r (map root _)); reflexivity|].
          eapply steps_trans; [exact S|]. apply steps1. reflexivity.
        * split.
          -- change (cev x j :: [Yield (pre ++ rev ks') x]) with ([cev x j] ++ [Yield (pre ++ rev ks') x]). rewrite app_nil_r.
             apply evs_ok_app; [apply evs_ok_app; [apply evs_ok_cev; exact NB|apply evs_ok_yield]|exact O].
          -- rewrite Eo, app_nil_r, yields_app, Y, Fl, (kids_shape _ x cs E).
             change (cev x j :: [Yield (pre ++ rev ks') x]) with ([cev x j] ++ [Yield (pre ++ rev ks') x]). rewrite yields_app, quiet. reflexivity.
    - exists 1, (cev x j :: if ok f x then [Yield (pre ++ rev (key x j :: ks)) x] else []). split; [rewrite size_node; lia|].
      split; [apply steps1; cbn [step_down_num]; rewrite En, Eo; reflexivity|]. split.
      + destruct (ok f x); [change (cev x j :: [Yield (pre ++ rev (key x j :: ks)) x]) with ([cev x j] ++ [Yield (pre ++ rev (key x j :: ks)) x]); apply evs_ok_app; [apply evs_ok_cev; exact NB|apply evs_ok_yield]|apply evs_ok_cev; exact NB].
      + change (cev x j :: if ok f x then [Yield (pre ++ rev (key x j :: ks)) x] else []) with ([cev x j] ++ if ok f x then [Yield (pre ++ rev (key x j :: ks)) x] else []).
        rewrite yields_app, quiet. cbn [app]. destruct (ok f x); [|reflexivity]. cbn [andb] in Eo. assert (Ecs : cs = []) by (destruct cs; [reflexivity|rewrite <- E in Eo; discriminate]).
        rewrite Fl, (kids_shape _ x cs E), Ecs. unfold numbered_kids. destruct rv; reflexivity.
  Qed.
  Lemma run_down_num_ok T n : unf ch T -> 2 * size T <= n ->
    exists evs, run_down_num ch start k0 nxt key cev rv f pre n (root T) = Some (evs, None) /\ evs_ok evs /\
      yields evs = below_tree (sh (pt pre T)).
  Proof.
    destruct T as [x cs]. intros U L. apply unf_iff in U as [E U]. unfold run_down_num. cbn [root]. unfold below_tree. rewrite (kids_shape _ x cs E).
    destruct (kids_numbers x cs E) as (K1 & K2 & K3). destruct (nonnil (ch x)) eqn:Ec.
    - destruct (dn_list (numbered_kids x cs)) with (l := @nil loc) (r := @nil (list loc)) (d := start x) (ds := @nil D) (k := k0 x) (ks := @nil K) as (m & evs & d2 & k2 & L1 & S & O & Y).
      + rewrite K1. apply Forall_ord, Forall_forall. intros; apply dn_tree.
      + rewrite K1. apply Forall_ord. exact U.
      + exact K3.
      + rewrite K1. exact K2.
      + rewrite K1 in *. rewrite sizes_ord in L1. exists (evs ++ []). split; [|rewrite app_nil_r; split; [exact O|rewrite Y; cbn [rev]; rewrite app_nil_r; reflexivity]].
        eapply run_done with (s' := ([], ([], []))) (k := m + 1); [|reflexivity|rewrite size_node in L; lia].
        eapply steps_trans; [rewrite <- E, <- map_ord, <- (app_nil_r (map root _)); exact S|]. apply steps1. reflexivity.
    - exists []. assert (Ecs : cs = []) by (destruct cs; [reflexivity|rewrite <- E in Ec; discriminate]). subst cs. split; [destruct n; [cbn in L; lia|reflexivity]|].
      split; [apply evs_ok_nil|]. unfold numbered_kids. destruct rv; reflexivity.
  Qed.

  Context (recheck : bool).
  Notation ustep := (step_up_num ch start k0 nxt key cev rv f recheck pre).
  Definition un_good T := unf ch T -> forall l r d ds k ks j d', nxt d (root T) = Some (j, d') -> numbered (root T) j ->
    exists n evs, n <= 3 * size T /\ steps ustep n (EIt (root T :: l) :: r, (d :: ds, k :: ks)) evs (EIt l :: r, (d' :: ds, key (root T) j :: ks)) /\
      evs_ok evs /\ yields evs = if ok f (root T) then postorder (sh (pt (pre ++ rev (key (root T) j :: ks)) T)) else [].
  Lemma un_list zs : Forall un_good (map snd zs) -> Forall (unf ch) (map snd zs) -> Forall (fun jc => numbered (root (snd jc)) (fst jc)) zs ->
    forall l r d ds k ks, numbers d (map root (map snd zs)) = Some (map fst zs) ->
    exists n evs d' k', n <= 3 * sizes (map snd zs) /\ steps ustep n (EIt (map root (map snd zs) ++ l) :: r, (d :: ds, k :: ks)) evs (EIt l :: r, (d' :: ds, k' :: ks)) /\
      evs_ok evs /\ yields evs = flat_map (fun jc => if ok f (root (snd jc)) then postorder (sh (pt ((pre ++ rev ks) ++ [key (root (snd jc)) (fst jc)]) (snd jc))) else []) zs.
  Proof.
    induction zs as [|[z c] zs IH]; intros G U NB l r d ds k ks Hn; [exists 0, [], d, k; repeat split; [lia|constructor|apply evs_ok_nil]|].
    cbn [map fst snd] in *. inversion G as [|? ? G1 G2]; subst. inversion U as [|? ? U1 U2]; subst. inversion NB as [|? ? N1 N2]; subst. cbn [fst snd] in N1.
    cbn [numbers] in Hn. destruct (nxt d (root c)) as [[j d']|] eqn:En; [|discriminate]. destruct (numbers d' (map root (map snd zs))) as [js|] eqn:Ej; [|discriminate].
    cbn in Hn. injection Hn as -> ->.
    destruct (G1 U1 (map root (map snd zs) ++ l) r d ds k ks z d' En N1) as (n1 & e1 & L1 & S1 & O1 & Y1).
    destruct (IH G2 U2 N2 l r d' ds (key (root c) z) ks Ej) as (n2 & e2 & d2 & k2 & L2 & S2 & O2 & Y2).
    exists (n1 + n2), (e1 ++ e2), d2, k2. rewrite sizes_cons. split; [lia|]. split; [eapply steps_trans; [exact S1|exact S2]|].
    split; [apply evs_ok_app; assumption|]. rewrite yields_app, Y1, Y2. cbn [flat_map fst snd rev]. rewrite app_assoc. reflexivity.
  Qed.
  Lemma un_tree T : un_good T.
  Proof.
    induction T as [x cs IH] using tree_ind'. intros U l r d ds k ks j d' En NB. cbn [root] in *. apply unf_iff in U as [E U].
    destruct (kids_numbers x cs E) as (K1 & K2 & K3).
    assert (Fl : forall p, postorder (sh (pt p (Node x cs))) = flat_map postorder (kids (sh (pt p (Node x cs)))) ++ [(p, x)]).
    { intros p. destruct (sh (pt p (Node x cs))) as [a b] eqn:Es. cbn. do 2 f_equal. pose proof (f_equal root Es) as R. rewrite root_shape in R. cbn in R. congruence. }
    destruct (nonnil (ch x) && ok f x) eqn:Eo.
    - pose proof Eo as Eo'. apply andb_true_iff in Eo' as [Ec Ef]. set (ks' := key x j :: ks).
      destruct (un_list (numbered_kids x cs)) with (l := @nil loc) (r := EMk x :: EIt l :: r) (d := start x) (ds := d' :: ds) (k := k0 x) (ks := ks') as (n & evs & d2 & k2 & L & S & O & Y).
      + rewrite K1. apply Forall_ord. exact IH.
      + rewrite K1. apply Forall_ord. exact U.
      + exact K3.
      + rewrite K1. exact K2.
      + rewrite K1 in *. rewrite sizes_ord in L. exists (1 + (n + (1 + 1))), ([cev x j] ++ evs ++ [] ++ [Yield (pre ++ rev ks') x]).
        split; [rewrite size_node; lia|]. split.
        * eapply steps_trans; [apply steps1; cbn [step_up_num]; rewrite En, Eo; cbn [tl]; rewrite <- E, <- map_ord, <- (app_nil_r (map root _)); reflexivity|].
          eapply steps_trans; [exact S|]. eapply steps_trans; apply steps1; [reflexivity|]. cbn [step_up_num]. rewrite Ef. reflexivity.
        * split.
          -- apply evs_ok_app; [apply evs_ok_cev; exact NB|]. apply evs_ok_app; [exact O|apply evs_ok_yield].
          -- rewrite Ef, !yields_app, Y, quiet, Fl, (kids_shape _ x cs E). reflexivity.
    - exists 1, (cev x j :: if ok f x then [Yield (pre ++ rev (key x j :: ks)) x] else []). split; [rewrite size_node; lia|].
      split; [apply steps1; cbn [step_up_num]; rewrite En, Eo; reflexivity|]. split.
      + destruct (ok f x); [change (cev x j :: [Yield (pre ++ rev (key x j :: ks)) x]) with ([cev x j] ++ [Yield (pre ++ rev (key x j :: ks)) x]); apply evs_ok_app; [apply evs_ok_cev; exact NB|apply evs_ok_yield]|apply evs_ok_cev; exact NB].
      + change (cev x j :: if ok f x then [Yield (pre ++ rev (key x j :: ks)) x] else []) with ([cev x j] ++ if ok f x then [Yield (pre ++ rev (key x j :: ks)) x] else []).
        rewrite yields_app, quiet. cbn [app]. destruct (ok f x); [|reflexivity]. rewrite andb_true_r in Eo. assert (Ecs : cs = []) by (destruct cs; [reflexivity|rewrite <- E in Eo; discriminate]).
        rewrite Fl, (kids_shape _ x cs E), Ecs. unfold numbered_kids. destruct rv; reflexivity.
  Qed.
  Lemma run_up_num_ok T n : unf ch T -> 3 * size T <= n ->
    exists evs, run_up_num ch start k0 nxt key cev rv f recheck pre n (root T) = Some (evs, None) /\ evs_ok evs /\
      yields evs = post_below (sh (pt pre T)).
  Proof.
    destruct T as [x cs]. intros U L. apply unf_iff in U as [E U]. unfold run_up_num. cbn [root]. unfold post_below. rewrite (kids_shape _ x cs E).
    destruct (kids_numbers x cs E) as (K1 & K2 & K3). destruct (nonnil (ch x)) eqn:Ec.
    - destruct (un_list (numbered_kids x cs)) with (l := @nil loc) (r := @nil ent) (d := start x) (ds := @nil D) (k := k0 x) (ks := @nil K) as (m & evs & d2 & k2 & L1 & S & O & Y).
      + rewrite K1. apply Forall_ord, Forall_forall. intros; apply un_tree.
      + rewrite K1. apply Forall_ord. exact U.
      + exact K3.
      + rewrite K1. exact K2.
      + rewrite K1 in *. rewrite sizes_ord in L1. exists (evs ++ []). split; [|rewrite app_nil_r; split; [exact O|rewrite Y; cbn [rev]; rewrite app_nil_r; reflexivity]].
        eapply run_done with (s' := ([], ([d2], [k2]))) (k := m + 1); [|reflexivity|rewrite size_node in L; lia].
        eapply steps_trans; [rewrite <- E, <- map_ord, <- (app_nil_r (map root _)); exact S|]. apply steps1. reflexivity.
    - exists []. assert (Ecs : cs = []) by (destruct cs; [reflexivity|rewrite <- E in Ec; discriminate]). subst cs. split; [destruct n; [cbn in L; lia|reflexivity]|].
      split; [apply evs_ok_nil|]. unfold numbered_kids. destruct rv; reflexivity.
  Qed.
End Num.
