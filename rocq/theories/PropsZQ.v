(** C104: str(t). *)
From Coq Require Import String.
From Verif Require Import Base Heap HeapSpec ListLemmas ForestLemmas HeapInv HeapHoare HeapOrd Tree HeapTree HeapCopy HeapHist HeapHash History Runs HeapFlags HeapLink HeapLinkH PropsA PropsF
  Deep DeepSpec JsonModel SerModel SerNew SerLoad SerBuild SerDump PropsM LinkModel LinkFacts LinkFacts2 LinkMerge LinkLoad LinkRun LinkAll LinkWF LinkSpec LinkDel PropsN PickleModel PropsR ReprModel ReprFacts PropsZC PropsZK StrModel.
Import ListNotations.
Local Open Scope string_scope.
Local Open Scope list_scope.

(** ** Specification *)
(** what is shown of a tree: an item with its arguments and the list of its shown children; None: "..." *)
Inductive stree := SNode (a : rowargs) (subs : list (option stree)).
(** of more than two children the first and the last *)
Definition ends {A} (l : list A) : list (option A) :=
  match l with
  | [] => []
  | [a] => [Some a]
  | [a; b] => [Some a; Some b]
  | a :: _ :: c :: r => [Some a; None; Some (last (c :: r) a)]
  end.
(** k: level of the item; below level limit/5 no children *)
Fixpoint shown (limit k : nat) (T : tree rowargs) : stree :=
  match T with
  | Node a cs => SNode a (match cs with [] => [] | _ => if Nat.ltb limit (5 * k) then [None] else ends (map (shown limit (S k)) cs) end)
  end.
(** the constructor call that is written ([call_toks], [arg_toks]: ReprFacts) *)
Fixpoint stoks (s : stree) : list tok :=
  match s with SNode a subs => call_toks (arg_toks a (map (fun o => match o with Some t => stoks t | None => [KOp "..."] end) subs)) end.
(** tag, value, link and flags; the flag LOAD_LINKS is added if the links are loaded *)
Definition srow (h : heap) (y : loc) : rowargs :=
  RA (a_tag (view h y)) (a_val (view h y)) (option_map lk_src (a_link (view h y)))
     (match a_link (view h y) with Some k => if lk_loaded k then Z.lor (a_flags (view h y)) LOAD_LINKS else a_flags (view h y) | None => a_flags (view h y) end).
Definition no_cover (h : heap) (y : loc) : Prop := forall k, a_link (view h y) = Some k -> lk_cover k = None.
(** number of items shown *)
Fixpoint scount (s : stree) : nat :=
  match s with SNode _ subs => S (list_sum (map (fun o => match o with Some t => scount t | None => 0 end) subs)) end.

(** ** Proofs *)
Lemma stree_ind' (P : stree -> Prop) : (forall a subs, Forall (fun o => match o with Some t => P t | None => True end) subs -> P (SNode a subs)) -> forall s, P s.
Proof.
  intros H. fix IH 1. intros [a subs]. apply H. induction subs as [|[t|] r IHr]; constructor; auto.
Qed.
Definition sub_toks (o : option stree) : list tok := match o with Some t => stoks t | None => [KOp "..."] end.
Lemma lor_load_nz z : Z.lor z LOAD_LINKS <> 0%Z.
Proof. intros E. apply Z.lor_eq_0_iff in E as [_ E]. discriminate. Qed.
Definition head_toks (t v : pyval) : list (list tok) :=
  let out := [[KName "iTree"; KOp "("]] in
  let out := if pyval_eqb t PNoTag then out else out ++ [[KLit t]; comma] in
  if pyval_eqb v PNoValue then out else out ++ [[KName "value"; KOp "="]; [KLit v]; comma].
(** the end of the text: link, flags, ")" *)
Definition tail_toks (out : list (list tok)) (lk : option linkrec) (fl : Z) : list tok :=
  let '(out, loaded) := match lk with None => (out, false) | Some lk => (out ++ [[KName "link"; KOp "="; KName "iTLink"; KOp "("; KSrc (lk_src lk); KOp ")"]; comma], lk_loaded lk) end in
  let out := if (negb (fl =? 0)%Z || loaded)%bool then out ++ [[KName "flags"; KOp "="; KLit (PInt (if loaded then Z.lor fl LOAD_LINKS else fl))]] else out in
  concat (drop_comma (drop_comma out) ++ [[KOp ")"]]).
Lemma last_snoc {A} (l : list A) a d : last (l ++ [a]) d = a.
Proof. induction l as [|b l IH]; [reflexivity|]. cbn. destruct (l ++ [a]) eqn:E; [destruct l; discriminate|exact IH]. Qed.
Lemma drop_snoc l p : drop_comma (l ++ [p]) = match p with [KOp ","] => l | _ => l ++ [p] end.
Proof. unfold drop_comma. rewrite last_snoc, removelast_last. reflexivity. Qed.
Definition loaded_flags (lk : option linkrec) (fl : Z) : Z := match lk with Some k => if lk_loaded k then Z.lor fl LOAD_LINKS else fl | None => fl end.
Definition end_ok (p : list (list tok)) : Prop := exists q r, p = q ++ [r] /\ r <> comma.
Definition pieces (ps : list (list (list tok))) : list (list tok) := flat_map (fun p => p ++ [comma]) ps.
Lemma drop_keep l p : p <> comma -> drop_comma (l ++ [p]) = l ++ [p].
Proof.
  intros H. rewrite drop_snoc. destruct p as [|[s|s|v|n] [|? ?]]; try reflexivity.
  - destruct s as [|[[] [] [] [] [] [] [] []] [|? ?]]; try reflexivity. destruct (H eq_refl).
  - destruct s as [|[[] [] [] [] [] [] [] []] [|? ?]]; reflexivity.
Qed.
Lemma concat_pieces ps : ps <> [] -> concat (pieces ps) = join comma (map (@concat tok) ps) ++ comma.
Proof.
  induction ps as [|p ps IH]; [congruence|]. intros _. cbn [pieces flat_map]. rewrite !concat_app. cbn [concat]. rewrite app_nil_r. fold (pieces ps). destruct ps as [|q ps].
  - cbn. rewrite !app_nil_r. reflexivity.
  - rewrite IH by discriminate. cbn [map join]. rewrite <- !app_assoc. reflexivity.
Qed.
Lemma join_snoc (l : list (list tok)) a : l <> [] -> join comma (l ++ [a]) = join comma l ++ comma ++ a.
Proof.
  induction l as [|b l IH]; [congruence|]. intros _. destruct l as [|c l]; [reflexivity|]. cbn [app join] in *. rewrite IH by discriminate. rewrite <- !app_assoc. reflexivity.
Qed.
Lemma drop2 hd ps f : hd <> comma -> Forall end_ok ps -> (f = [] \/ exists q, f = [q] /\ q <> comma) ->
  concat (drop_comma (drop_comma ((hd :: pieces ps) ++ f))) = hd ++ join comma (map (@concat tok) ps ++ f).
Proof.
  intros H1 H2 [->|(q & -> & Hq)].
  - rewrite !app_nil_r. destruct ps as [|p ps _] using rev_ind.
    + cbn [pieces flat_map map join]. change [hd] with ([] ++ [hd]). rewrite !drop_keep by exact H1. cbn. reflexivity.
    + apply Forall_app in H2 as [_ H2]. inversion H2 as [|? ? (p0 & r & Ep & Hr) _]; subst. 
      assert (E : hd :: pieces (ps ++ [p0 ++ [r]]) = ((hd :: pieces ps ++ p0) ++ [r]) ++ [comma]).
      { unfold pieces. rewrite flat_map_app. cbn [flat_map app]. rewrite app_nil_r, <- !app_assoc. reflexivity. }
      rewrite E. rewrite drop_snoc. cbn [comma]. rewrite drop_keep by exact Hr.
      apply (app_inv_tail comma). rewrite <- app_assoc. rewrite map_app. cbn [map].
      destruct ps as [|p1 ps].
      * cbn [pieces flat_map app map join concat]. rewrite <- app_assoc. reflexivity.
      * rewrite join_snoc by discriminate. change ((hd :: pieces (p1 :: ps) ++ p0) ++ [r]) with (hd :: ((pieces (p1 :: ps) ++ p0) ++ [r])). cbn [concat].
        rewrite <- (app_assoc (pieces (p1 :: ps))), (concat_app (pieces (p1 :: ps))), concat_pieces by discriminate. rewrite <- !app_assoc. reflexivity.
  - rewrite !drop_keep by exact Hq. rewrite concat_app. cbn [concat]. destruct ps as [|p ps].
    + cbn [pieces flat_map map join concat app]. rewrite !app_nil_r. reflexivity.
    + rewrite join_snoc by discriminate. rewrite concat_pieces by discriminate. rewrite app_nil_r, <- !app_assoc. reflexivity.
Qed.
Definition opt_if {A} (b : bool) (a : A) : list A := if b then [] else [a].
Lemma tail_ok t v lk fl subs m : match subs with [] => m = [] | _ => exists m', m = [m'] /\ end_ok m' /\ concat m' = kw "subtree" (KOp "[" :: join comma subs ++ [KOp "]"]) end ->
  tail_toks (head_toks t v ++ pieces m) lk fl = call_toks (arg_toks (RA t v (option_map lk_src lk) (loaded_flags lk fl)) subs).
Proof.
  intros Hm.
  set (pt := opt_if (pyval_eqb t PNoTag) [[KLit t]]). set (pv := opt_if (pyval_eqb v PNoValue) [[KName "value"; KOp "="]; [KLit v]]).
  set (pl := match lk with None => [] | Some k => [[[KName "link"; KOp "="; KName "iTLink"; KOp "("; KSrc (lk_src k); KOp ")"]]] end).
  set (pf := opt_if (loaded_flags lk fl =? 0)%Z (kw "flags" [KLit (PInt (loaded_flags lk fl))])).
  assert (EH : head_toks t v = [KName "iTree"; KOp "("] :: pieces (pt ++ pv)).
  { unfold head_toks, pt, pv, opt_if. destruct (pyval_eqb t PNoTag), (pyval_eqb v PNoValue); reflexivity. }
  assert (ET : tail_toks (head_toks t v ++ pieces m) lk fl = concat (drop_comma (drop_comma (([KName "iTree"; KOp "("] :: pieces (pt ++ pv ++ m ++ pl)) ++ pf)) ++ [[KOp ")"]])).
  { rewrite EH. unfold tail_toks, pl, pf, loaded_flags, opt_if. unfold pieces. rewrite !flat_map_app.
    destruct lk as [[src ld tg cv]|]; cbn [lk_src lk_loaded flat_map].
    - assert (B : (negb (fl =? 0)%Z || ld)%bool = negb (((if ld then Z.lor fl LOAD_LINKS else fl) =? 0)%Z)).
      { destruct ld; [|apply orb_false_r]. rewrite orb_true_r. pose proof (lor_load_nz fl) as NZ. apply Z.eqb_neq in NZ. rewrite NZ. reflexivity. }
      rewrite B. destruct ((if ld then Z.lor fl LOAD_LINKS else fl) =? 0)%Z; cbn [negb]; rewrite ?app_nil_r; cbn [app]; rewrite <- ?app_assoc; reflexivity.
    - rewrite orb_false_r. destruct (fl =? 0)%Z; cbn [negb]; rewrite ?app_nil_r; cbn [app]; rewrite <- ?app_assoc; reflexivity. }
  rewrite ET, concat_app, drop2.
  - unfold call_toks, arg_toks. cbn [ra_tag ra_val ra_link ra_flags concat]. rewrite app_nil_r. cbn [app]. do 2 f_equal.
    assert (EL : map (@concat tok) (pt ++ pv ++ m ++ pl) ++ pf =
      (if pyval_eqb t PNoTag then [] else [[KLit t]]) ++ (if pyval_eqb v PNoValue then [] else [kw "value" [KLit v]]) ++
      (match subs with [] => [] | _ => [kw "subtree" (KOp "[" :: join comma subs ++ [KOp "]"])] end) ++
      (match option_map lk_src lk with None => [] | Some s => [kw "link" [KName "iTLink"; KOp "("; KSrc s; KOp ")"]] end) ++ pf); [|rewrite EL; reflexivity].
    rewrite !map_app, <- !app_assoc. f_equal; [unfold pt, opt_if; destruct (pyval_eqb t PNoTag); reflexivity|]. f_equal; [unfold pv, opt_if; destruct (pyval_eqb v PNoValue); reflexivity|].
    f_equal; [|f_equal; unfold pl; destruct lk; reflexivity]. destruct subs; [subst m; reflexivity|]. destruct Hm as (m' & -> & _ & Em). cbn [map]. rewrite Em. reflexivity.
  - discriminate.
  - repeat (apply Forall_app; split).
    + unfold pt, opt_if. destruct (pyval_eqb t PNoTag); repeat constructor. exists [], [KLit t]. split; [reflexivity|discriminate].
    + unfold pv, opt_if. destruct (pyval_eqb v PNoValue); repeat constructor. exists [[KName "value"; KOp "="]], [KLit v]. split; [reflexivity|discriminate].
    + destruct subs; [subst m; constructor|]. destruct Hm as (m' & -> & Ee & _). repeat constructor. exact Ee.
    + unfold pl. destruct lk; repeat constructor. eexists [], _. split; [reflexivity|discriminate].
  - unfold pf, opt_if. destruct (_ =? 0)%Z; [left; reflexivity|right]. eexists. split; [reflexivity|]. discriminate.
Qed.

Lemma sep_join (l : list (list tok)) t : concat (flat_map (fun t => [t; comma]) l) ++ t = join comma (l ++ [t]).
Proof.
  induction l as [|a l IH]; [reflexivity|]. cbn [flat_map app concat]. rewrite <- !app_assoc, IH. destruct (l ++ [t]) eqn:Q; [destruct l; discriminate|]. reflexivity.
Qed.
Lemma last_map {A B} (f : A -> B) l : forall a, last (map f l) (f a) = f (last l a).
Proof. induction l as [|b [|b2 l] IHl]; intros a; [reflexivity|reflexivity|apply IHl]. Qed.
Lemma last_in {A} (l : list A) a : l <> [] -> In (last l a) l.
Proof. destruct l as [|b l _] using rev_ind; [congruence|]. intros _. rewrite last_snoc. apply in_or_app. right. left. reflexivity. Qed.
Lemma list_toks (l : list (list tok)) : l <> [] ->
  exists m', removelast ([[KName "subtree"; KOp "="; KOp "["]] ++ flat_map (fun t => [t; comma]) l) ++ [[KOp "]"]; comma] = pieces [m'] /\ end_ok m' /\
    concat m' = kw "subtree" (KOp "[" :: join comma l ++ [KOp "]"]).
Proof.
  intros N. exists (removelast ([[KName "subtree"; KOp "="; KOp "["]] ++ flat_map (fun t => [t; comma]) l) ++ [[KOp "]"]]).
  split; [cbn [pieces flat_map]; rewrite app_nil_r, <- !app_assoc; reflexivity|]. split; [eexists _, _; split; [reflexivity|discriminate]|].
  assert (E : concat (removelast ([[KName "subtree"; KOp "="; KOp "["]] ++ flat_map (fun t => [t; comma]) l)) = [KName "subtree"; KOp "="; KOp "["] ++ join comma l).
  { clear - N. induction l as [|t l _] using rev_ind; [congruence|]. rewrite flat_map_app. cbn [flat_map]. rewrite app_nil_r.
    replace ([[KName "subtree"; KOp "="; KOp "["]] ++ flat_map (fun t0 => [t0; comma]) l ++ [t; comma]) with (([[KName "subtree"; KOp "="; KOp "["]] ++ flat_map (fun t0 => [t0; comma]) l ++ [t]) ++ [comma]) by (rewrite <- !app_assoc; reflexivity).
    rewrite removelast_last, !concat_app. cbn [concat]. rewrite !app_nil_r. f_equal. apply sep_join. }
  rewrite concat_app, E. cbn [concat]. unfold kw. cbn [app]. rewrite ?app_nil_r. reflexivity.
Qed.
Lemma ends_map {A B} (f : A -> B) (l : list A) : ends (map f l) = map (option_map f) (ends l).
Proof.
  destruct l as [|a [|b [|c r]]]; try reflexivity. cbn [map ends option_map]. do 3 f_equal. f_equal.
  change (f c :: map f r) with (map f (c :: r)). generalize (c :: r) a. clear. induction l as [|b l IH]; intros a; [reflexivity|]. destruct l; [reflexivity|]. cbn [map last] in *. apply IH.
Qed.
Lemma removelast_mid {A} (o a b e : list A) : a <> [] -> removelast ((o ++ a) ++ b) ++ e = o ++ (removelast (a ++ b) ++ e).
Proof.
  intros N. rewrite <- (app_assoc o a b), removelast_app; [rewrite <- app_assoc; reflexivity|]. destruct a; [congruence|discriminate].
Qed.
Lemma str_ok limit h : LWF h -> forall T, ltree (view h) T -> root T < hnext h -> (forall y, In y (flatten T) -> no_cover h y) ->
  forall k n, Lev (view h) (root T) k -> height T < n -> str_toks n limit h (root T) = Some (stoks (shown limit k (tmap (srow h) T))).
Proof.
  intros W. induction T as [x cs IH] using tree_ind'. intros HT Hx HC k n HL Hn. cbn [root] in *. apply ltree_iff in HT as [E F]. rewrite Forall_forall in IH, F. destruct n as [|n]; [lia|].
  change (map root cs = nitems (hnode h x)) in E.
  assert (Sub : forall c, In c cs -> str_toks n limit h (root c) = Some (stoks (shown limit (S k) (tmap (srow h) c)))).
  { intros c Hc. assert (Hcx : In (root c) (children h x)) by (unfold children; change (a_children (view h x)) with (nitems (hnode h x)); rewrite <- E; apply in_map; exact Hc).
    apply (IH c Hc (F c Hc)).
    - apply (LWF_child_lt h x (root c) W Hcx).
    - intros y Hy. apply HC. right. apply in_flat_map. eauto.
    - eapply LevS; [|exact HL]. apply (fo_child _ _ (lw_forest _ W)). exact Hcx.
    - pose proof (height_kid x cs c Hc). lia. }
  cbn [tmap shown stoks]. set (sub := fun c => stoks (shown limit (S k) (tmap (srow h) c))).
  set (subs := map (fun o => match o with Some t => stoks t | None => [KOp "..."] end) _).
  assert (Mid : exists m, match subs with [] => m = [] | _ => exists m', m = [m'] /\ end_ok m' /\ concat m' = kw "subtree" (KOp "[" :: join comma subs ++ [KOp "]"]) end /\
     str_toks (S n) limit h x = Some (tail_toks (head_toks (ntag (hnode h x)) (nval (hnode h x)) ++ pieces m) (nlink (hnode h x)) (nflags (hnode h x)))).
  { assert (Tl : forall out, match nlink (hnode h x) with None => Some (out, false) | Some lk => match lk_cover lk with Some i => match repr_toks n limit h i with None => None | Some l => Some (out ++ [[KName "link"; KOp "="; KName "iTLink"; KOp "("; KName "link_item"; KOp "="] ++ l ++ [KOp ")"]; comma], lk_loaded lk) end
        | None => Some (out ++ [[KName "link"; KOp "="; KName "iTLink"; KOp "("; KSrc (lk_src lk); KOp ")"]; comma], lk_loaded lk) end end
      = match nlink (hnode h x) with None => Some (out, false) | Some lk => Some (out ++ [[KName "link"; KOp "="; KName "iTLink"; KOp "("; KSrc (lk_src lk); KOp ")"]; comma], lk_loaded lk) end).
    { intros out. pose proof (HC x (or_introl eq_refl)) as Q. unfold no_cover in Q. change (a_link (view h x)) with (nlink (hnode h x)) in Q. destruct (nlink (hnode h x)) as [lk|]; [rewrite (Q lk eq_refl)|]; reflexivity. }
    cbn [str_toks]. unfold tail_toks, head_toks. rewrite (Lev_level h x k HL) by (pose proof (Lev_bound _ _ _ _ (lw_forest _ W) HL Hx); lia).
    destruct (nitems (hnode h x)) as [|c0 l0] eqn:EI.
    - destruct cs; [|discriminate]. exists []. split; [reflexivity|]. rewrite Tl. unfold pieces. cbn [flat_map]. rewrite app_nil_r. destruct (nlink (hnode h x)); reflexivity.
    - destruct cs as [|t0 ts]; [discriminate|].
      cbn [map] in subs. destruct (Nat.ltb limit (5 * k)) eqn:EL.
      + exists [[[KName "subtree"; KOp "="; KOp "["; KOp "..."; KOp "]"]]]. split; [eexists; split; [reflexivity|]; split; [exists [], [KName "subtree"; KOp "="; KOp "["; KOp "..."; KOp "]"]; split; [reflexivity|discriminate]|reflexivity]|].
        rewrite Tl. cbn [pieces flat_map app]. destruct (nlink (hnode h x)); reflexivity.
      + assert (Es : subs = map (fun o => match o with Some t => t | None => [KOp "..."] end) (ends (map sub (t0 :: ts)))).
        { unfold subs. transitivity (map (fun o => match o with Some t => stoks t | None => [KOp "..."] end) (ends (map (fun c => shown limit (S k) (tmap (srow h) c)) (t0 :: ts)))); [rewrite <- (map_map (tmap (srow h)) (shown limit (S k)) (t0 :: ts)); reflexivity|].
          rewrite (ends_map (fun c => shown limit (S k) (tmap (srow h) c))), (ends_map sub), !map_map. apply map_ext. intros [c|]; reflexivity. }
        assert (OA : opt_all (map (str_toks n limit h) (c0 :: l0)) = Some (map sub (t0 :: ts))).
        { rewrite <- E, map_map. rewrite <- (opt_all_some (map sub (t0 :: ts))), map_map. f_equal. apply map_ext_in. intros c Hc. apply Sub. exact Hc. }
        destruct (Nat.leb (length (c0 :: l0)) 2) eqn:E2.
        * rewrite OA. assert (Es' : subs = map sub (t0 :: ts)).
          { rewrite Es. apply Nat.leb_le in E2. rewrite <- E, map_length in E2. destruct ts as [|t1 [|t2 ts]]; [reflexivity|reflexivity|cbn in E2; lia]. }
          destruct (list_toks (map sub (t0 :: ts)) ltac:(discriminate)) as (m' & Em & Ee & Ec). exists [m']. rewrite Es'. split; [exists m'; auto|].
          rewrite Tl.
          rewrite removelast_mid, Em by discriminate.
          destruct (nlink (hnode h x)); reflexivity.
        * assert (Ea : str_toks n limit h c0 = Some (sub t0)) by (cbn [map] in E; injection E as E0 _; rewrite <- E0; apply Sub; left; reflexivity).
          apply Nat.leb_gt in E2. rewrite <- E, map_length in E2. destruct ts as [|t1 [|t2 ts]]; [cbn in E2; lia|cbn in E2; lia|].
          assert (Eb : str_toks n limit h (last (c0 :: l0) c0) = Some (last (map sub (t2 :: ts)) (sub t0))).
          { rewrite <- E. cbn [map] in E. injection E as E0 _. rewrite <- E0. change (root t0 :: map root (t1 :: t2 :: ts)) with (map root (t0 :: t1 :: t2 :: ts)). rewrite (last_map root), (last_map sub).
            change (last (t0 :: t1 :: t2 :: ts) t0) with (last (t2 :: ts) t0). apply Sub. do 2 right. apply last_in. discriminate. }
          exists [[[KName "subtree"; KOp "="; KOp "["]; sub t0; [KOp ","; KOp "..."; KOp ","]; last (map sub (t2 :: ts)) (sub t0); [KOp "]"]]].
          assert (Es' : subs = [sub t0; [KOp "..."]; last (map sub (t2 :: ts)) (sub t0)]) by (rewrite Es; reflexivity). rewrite Es'.
          split. { eexists. split; [reflexivity|]. split; [exists [[KName "subtree"; KOp "="; KOp "["]; sub t0; [KOp ","; KOp "..."; KOp ","]; last (map sub (t2 :: ts)) (sub t0)], [KOp "]"]; split; [reflexivity|discriminate]|].
            unfold kw. cbn [concat join]. unfold comma. rewrite <- !app_assoc. cbn [app]. reflexivity. }
          rewrite Ea, Eb, Tl. cbn [pieces flat_map]. rewrite app_nil_r, <- !app_assoc. destruct (nlink (hnode h x)); reflexivity. }
  destruct Mid as (m & Hm & ->). f_equal. rewrite (tail_ok _ _ _ _ subs m Hm). unfold srow, loaded_flags. change (a_link (view h x)) with (nlink (hnode h x)). change (a_tag (view h x)) with (ntag (hnode h x)). change (a_val (view h x)) with (nval (hnode h x)). change (a_flags (view h x)) with (nflags (hnode h x)). reflexivity.
Qed.

(** *** reading the text back *)
Definition starts (t : list tok) : Prop := exists a u, t = a :: u /\ a <> KOp "]".
Lemma list_ok' tls es : Forall2 (fun t e => shows t e /\ starts t) tls es ->
  forall r m, 2 * length (join comma tls) + 3 <= m -> p_list m (join comma tls ++ KOp "]" :: r) = Some (es, r).
Proof.
  induction 1 as [|t e tls es (A & k & u & Et & Nk) F IH]; intros r m Hm; destruct m as [|m]; try (cbn in Hm; lia); [reflexivity|].
  rewrite p_list_step.
  2:{ destruct (join_app_ne t tls (KOp "]" :: r)) as (w & ->). subst t. intros r0 Q. injection Q as Q _. exact (Nk Q). }
  destruct tls as [|t2 tls].
  - inversion F; subst es. cbn [join] in *. rewrite A by lia. reflexivity.
  - assert (EJ : join comma (t :: t2 :: tls) = t ++ KOp "," :: join comma (t2 :: tls)) by reflexivity. rewrite EJ in *.
    rewrite app_length in Hm. cbn [length] in Hm. rewrite <- app_assoc. cbn [app]. rewrite A by lia. rewrite IH by lia. reflexivity.
Qed.
Lemma list_shows' tls es : Forall2 (fun t e => shows t e /\ starts t) tls es -> shows (KOp "[" :: join comma tls ++ [KOp "]"]) (XList es).
Proof.
  intros F r m Hm. cbn [length] in Hm. rewrite app_length in Hm. cbn [length] in Hm. destruct m as [|m]; [lia|].
  cbn [app p_expr]. rewrite <- app_assoc. cbn [app]. change (String.eqb "[" "...") with false. change (String.eqb "[" "[") with true. cbn iota. rewrite (list_ok' tls es F) by lia. reflexivity.
Qed.
Lemma args_shows' a tls es : Forall2 (fun t e => shows t e /\ starts t) tls es -> Forall2 arg_shows (arg_toks a tls) (args_ex a es).
Proof.
  intros F. unfold arg_toks, args_ex. repeat apply Forall2_app.
  - destruct (pyval_eqb (ra_tag a) PNoTag); repeat constructor.
  - destruct (pyval_eqb (ra_val a) PNoValue); [constructor|]. constructor; [|constructor]. constructor; [discriminate|apply shows_lit].
  - destruct F as [|t e tls es A F]; [constructor|]. constructor; [|constructor]. constructor; [discriminate|apply (list_shows' (t :: tls) (e :: es)); constructor; assumption].
  - destruct (ra_link a) as [s|]; [|constructor]. constructor; [|constructor]. constructor; [discriminate|]. apply (call_shows "iTLink" [[KSrc s]] [(None, XSrc s)]). repeat constructor.
  - destruct (ra_flags a =? 0)%Z; [constructor|]. constructor; [|constructor]. constructor; [discriminate|apply shows_lit].
Qed.
Fixpoint sex (s : stree) : ex :=
  match s with SNode a subs => XCall "iTree" (args_ex a (map (fun o => match o with Some t => sex t | None => XDots end) subs)) end.
Lemma stoks_shows s : shows (stoks s) (sex s).
Proof.
  induction s as [a subs IH] using stree_ind'. cbn [stoks sex]. apply call_shows. apply args_shows'.
  induction IH as [|o subs So F IHF]; constructor; [|exact IHF]. destruct o as [t|].
  - split; [exact So|]. destruct t. cbn [stoks]. unfold call_toks. eexists _, _. split; [reflexivity|discriminate].
  - split; [|eexists _, _; split; [reflexivity|discriminate]]. intros r m Hm. destruct m; [cbn in Hm; lia|]. reflexivity.
Qed.
Lemma parse_stoks s : parse (stoks s) = Some (sex s).
Proof. unfold parse. rewrite <- (app_nil_r (stoks s)) at 2. rewrite stoks_shows by lia. reflexivity. Qed.
Fixpoint arg_of (k : string) (l : list (option string * ex)) : option ex :=
  match l with [] => None | (Some q, e) :: r => if String.eqb q k then Some e else arg_of k r | (None, e) :: r => if String.eqb "tag" k then Some e else arg_of k r end.
Lemma args_proj a es : 
  match arg_of "tag" (args_ex a es) with Some (XVal v) => v | _ => PNoTag end = ra_tag a /\
  match arg_of "value" (args_ex a es) with Some (XVal v) => v | _ => PNoValue end = ra_val a /\
  match arg_of "subtree" (args_ex a es) with Some (XList l) => l | _ => [] end = es /\
  match arg_of "link" (args_ex a es) with Some (XCall _ [(_, XSrc s)]) => Some s | _ => None end = ra_link a /\
  match arg_of "flags" (args_ex a es) with Some (XVal (PInt z)) => z | _ => 0%Z end = ra_flags a.
Proof.
  destruct a as [t v k z]. unfold args_ex. cbn [ra_tag ra_val ra_link ra_flags].
  destruct (pyval_eqb_spec t PNoTag) as [->|Nt]; destruct (pyval_eqb_spec v PNoValue) as [->|Nv]; destruct es as [|e es]; destruct k as [s|]; destruct (Z.eqb_spec z 0) as [->|Nz]; repeat split; reflexivity.
Qed.
Lemma sex_inj : forall s s', sex s = sex s' -> s = s'.
Proof.
  induction s as [a subs IH] using stree_ind'. intros [a' subs'] E. cbn [sex] in E.
  set (f := fun o => match o with Some t => sex t | None => XDots end) in *.
  assert (EA : args_ex a (map f subs) = args_ex a' (map f subs')) by (injection E as E; exact E).
  destruct (args_proj a (map f subs)) as (P1 & P2 & P3 & P4 & P5). rewrite EA in *. destruct (args_proj a' (map f subs')) as (Q1 & Q2 & Q3 & Q4 & Q5).
  assert (Ea : a = a') by (destruct a, a'; cbn in *; congruence). assert (Es : map f subs = map f subs') by congruence. rewrite Ea. f_equal.
  clear - IH Es. revert subs' Es. induction IH as [|o subs Ho _ IHs]; intros [|o' subs'] Es; try discriminate; [reflexivity|]. cbn [map] in Es. injection Es as E1 E2. f_equal; [|apply IHs; exact E2].
  destruct o as [t|], o' as [t'|]; cbn in E1; [f_equal; apply Ho; exact E1|destruct t; discriminate|destruct t'; discriminate|reflexivity].
Qed.

(** ** C104 *)
Theorem C104_str : forall limit h x T, LReach h -> tree_at h x T -> x < hnext h -> (forall y, In y (flatten T) -> no_cover h y) ->
  exists k, level_of (S (hnext h)) h x = Some k /\
    forall n, height T < n -> str_toks n limit h x = Some (stoks (shown limit k (tmap (srow h) T))).
Proof.
  intros limit h x T LR [<- HT] Hx HC. destruct (lreach_ok h LR) as (W & _). destruct (Rooted_Lev _ _ (fo_root _ _ (lw_forest _ W) (root T))) as [k HL].
  exists k. split; [apply (Lev_level h _ k HL); pose proof (Lev_bound _ _ _ _ (lw_forest _ W) HL Hx); lia|].
  intros n Hn. apply str_ok; assumption.
Qed.
(** the text tells exactly what is shown: the same for trees that show the same, in any states ... *)
Theorem C104_tells_what_is_shown : forall limit h x T g y U n k j, LReach h -> LReach g -> tree_at h x T -> tree_at g y U -> x < hnext h -> y < hnext g ->
  (forall z, In z (flatten T) -> no_cover h z) -> (forall z, In z (flatten U) -> no_cover g z) -> height T < n -> height U < n ->
  level_of (S (hnext h)) h x = Some k -> level_of (S (hnext g)) g y = Some j ->
  (str_toks n limit h x = str_toks n limit g y <-> shown limit k (tmap (srow h) T) = shown limit j (tmap (srow g) U)).
Proof.
  intros limit h x T g y U n k j LR LR' HT HU Hx Hy HC HD NT NU Lk Lj.
  destruct (C104_str limit h x T LR HT Hx HC) as (k' & Lk' & E). destruct (C104_str limit g y U LR' HU Hy HD) as (j' & Lj' & E').
  rewrite Lk in Lk'. injection Lk' as <-. rewrite Lj in Lj'. injection Lj' as <-. rewrite (E n NT), (E' n NU). split; intros Q; [|rewrite Q; reflexivity].
  apply sex_inj. assert (Q' : parse (stoks (shown limit k (tmap (srow h) T))) = parse (stoks (shown limit j (tmap (srow g) U)))) by (f_equal; injection Q as Q; exact Q).
  rewrite !parse_stoks in Q'. injection Q' as Q'. exact Q'.
Qed.
(** ... no child between the first and the last matters *)
Theorem C104_middle_does_not_matter : forall limit k a c d ms ms', ms <> [] -> ms' <> [] ->
  shown limit k (Node a (c :: ms ++ [d])) = shown limit k (Node a (c :: ms' ++ [d])).
Proof.
  intros limit k a c d ms ms' N N'. cbn [shown]. f_equal. destruct (Nat.ltb limit (5 * k)); [reflexivity|].
  assert (E : forall l, l <> [] -> ends (map (shown limit (S k)) (c :: l ++ [d])) = [Some (shown limit (S k) c); None; Some (shown limit (S k) d)]).
  { intros l Nl. destruct l as [|m l]; [congruence|]. cbn [app map ends]. destruct (map (shown limit (S k)) (l ++ [d])) as [|z r] eqn:Q; [destruct l; discriminate|].
    rewrite <- Q, map_app. cbn [map]. rewrite last_snoc. reflexivity. }
  rewrite !E by assumption. reflexivity.
Qed.
(** the number of items shown is bounded by the recursion limit, not by the tree *)
Theorem C104_bounded : forall limit T k, scount (shown limit k T) <= 2 ^ (S (S (limit / 5)) - k).
Proof.
  intros limit T. assert (B : forall k, scount (shown limit k T) + 1 <= 2 ^ (S (S (limit / 5)) - k) \/ (limit < 5 * k /\ scount (shown limit k T) <= 1)).
  { induction T as [a cs IH] using tree_ind'. intros k. rewrite Forall_forall in IH. cbn [shown scount].
    destruct (Nat.ltb_spec limit (5 * k)) as [L|L].
    { right. split; [exact L|]. destruct cs; cbn; lia. }
    left. assert (Lk : k <= limit / 5) by (apply Nat.div_le_lower_bound; lia).
    replace (S (S (limit / 5)) - k) with (S (S (limit / 5) - k)) by lia. rewrite Nat.pow_succ_r'.
    assert (P1 : 2 <= 2 ^ (S (limit / 5) - k)) by (replace (S (limit / 5) - k) with (S (limit / 5 - k)) by lia; rewrite Nat.pow_succ_r'; pose proof (Nat.pow_nonzero 2 (limit / 5 - k) ltac:(lia)); lia).
    assert (C : forall c, In c cs -> scount (shown limit (S k) c) + 1 <= 2 ^ (S (limit / 5) - k)).
    { intros c Hc. destruct (IH c Hc (S k)) as [H|[_ H]]; [replace (S (limit / 5) - k) with (S (S (limit / 5)) - S k) by lia; exact H|lia]. }
    set (P := 2 ^ (S (limit / 5) - k)) in *. clearbody P.
    assert (G : list_sum (map (fun o => match o with Some t => scount t | None => 0 end) (ends (map (shown limit (S k)) cs))) + 2 <= 2 * P).
    { rewrite ends_map, map_map. destruct cs as [|c [|d [|e r]]]; cbn [ends map option_map list_sum fold_right].
      - lia.
      - pose proof (C c (or_introl eq_refl)). lia.
      - pose proof (C c (or_introl eq_refl)). pose proof (C d (or_intror (or_introl eq_refl))). lia.
      - pose proof (C c (or_introl eq_refl)). assert (Hl : In (last (e :: r) c) (c :: d :: e :: r)) by (do 2 right; apply last_in; discriminate). pose proof (C _ Hl). unfold list_sum. cbn [fold_right]. lia. }
    destruct cs as [|c cs]; [cbn; lia|]. lia. }
  intros k. destruct (B k) as [H|[_ H]]; [lia|]. pose proof (Nat.pow_nonzero 2 (S (S (limit / 5)) - k) ltac:(lia)). lia.
Qed.
Definition full_tail (d : list (list tok) -> list (list tok)) (lk : option (linkrec * option (list tok))) (fl : Z) (out : list (list tok)) : option (list tok) :=
  match (match lk with
         | None => Some (out, false)
         | Some (lk, cov) =>
             match lk_cover lk with
             | Some i => match cov with
                         | None => None
                         | Some l => Some (out ++ [[KName "link"; KOp "="; KName "iTLink"; KOp "("; KName "link_item"; KOp "="] ++ l ++ [KOp ")"]; comma], lk_loaded lk)
                         end
             | None => Some (out ++ [[KName "link"; KOp "="; KName "iTLink"; KOp "("; KSrc (lk_src lk); KOp ")"]; comma], lk_loaded lk)
             end
         end) with
  | None => None
  | Some (out, loaded) =>
    let out := if (negb (fl =? 0)%Z || loaded)%bool then out ++ [[KName "flags"; KOp "="; KLit (PInt (if loaded then Z.lor fl LOAD_LINKS else fl))]] else out in
    Some (concat (d out ++ [[KOp ")"]]))
  end.
Definition dd l := drop_comma (drop_comma l).
Lemma d_once A p : p <> comma -> drop_comma (A ++ [p; comma]) = A ++ [p] /\ dd (A ++ [p; comma]) = A ++ [p].
Proof.
  intros H. assert (E : drop_comma (A ++ [p; comma]) = A ++ [p]).
  { change (A ++ [p; comma]) with (A ++ [p] ++ [comma]). rewrite app_assoc, drop_snoc. reflexivity. }
  split; [exact E|]. unfold dd. rewrite E. apply drop_keep. exact H.
Qed.
Lemma d_flags A p : p <> comma -> drop_comma (A ++ [p]) = A ++ [p] /\ dd (A ++ [p]) = A ++ [p].
Proof. intros H. unfold dd. rewrite !drop_keep by exact H. auto. Qed.
Lemma full_tail_same lk fl A B p q : p <> comma -> q <> comma -> concat (A ++ [p]) = concat (B ++ [q]) -> full_tail dd lk fl (A ++ [p; comma]) = full_tail drop_comma lk fl (B ++ [q; comma]).
Proof.
  intros Hp Hq E. assert (E2 : concat (A ++ [p; comma]) = concat (B ++ [q; comma])).
  { change (A ++ [p; comma]) with (A ++ [p] ++ [comma]). change (B ++ [q; comma]) with (B ++ [q] ++ [comma]). rewrite !(app_assoc _ [_] [comma]), !(concat_app (_ ++ [_])), E. reflexivity. }
  assert (Fl : forall z C, drop_comma (C ++ [[KName "flags"; KOp "="; KLit (PInt z)]]) = C ++ [[KName "flags"; KOp "="; KLit (PInt z)]] /\ dd (C ++ [[KName "flags"; KOp "="; KLit (PInt z)]]) = C ++ [[KName "flags"; KOp "="; KLit (PInt z)]]) by (intros; apply d_flags; discriminate).
  assert (C2 : forall f g, concat (((A ++ [p; comma]) ++ f) ++ g) = concat (((B ++ [q; comma]) ++ f) ++ g)) by (intros f g; rewrite <- !(app_assoc _ f g), (concat_app (A ++ _)), (concat_app (B ++ _)), E2; reflexivity).
  assert (C3 : forall f f' g, concat ((((A ++ [p; comma]) ++ f) ++ f') ++ g) = concat ((((B ++ [q; comma]) ++ f) ++ f') ++ g)) by (intros f f' g; rewrite <- !(app_assoc _ f f'); apply C2).
  assert (Ln1 : forall r C, r <> comma -> drop_comma (C ++ [r; comma]) = C ++ [r]) by (intros; apply d_once; assumption).
  assert (Ln2 : forall r C, r <> comma -> dd (C ++ [r; comma]) = C ++ [r]) by (intros; apply d_once; assumption).
  unfold full_tail. destruct lk as [[lk cov]|].
  - destruct (lk_cover lk) as [i|]; [destruct cov as [l|]; [|reflexivity]|];
    (destruct (negb (fl =? 0)%Z || lk_loaded lk)%bool;
    [rewrite (proj1 (Fl _ _)), (proj2 (Fl _ _)), C3; reflexivity
    |rewrite Ln1, Ln2, C2 by discriminate; reflexivity]).
  - rewrite orb_false_r. destruct (fl =? 0)%Z; cbn [negb].
    + rewrite (proj1 (d_once B q Hq)), (proj2 (d_once A p Hp)). rewrite (concat_app (A ++ _)), (concat_app (B ++ _)), E. reflexivity.
    + rewrite (proj1 (Fl _ _)), (proj2 (Fl _ _)), C2. reflexivity.
Qed.
Lemma full_tail_head t v lk fl : full_tail dd lk fl (head_toks t v) = full_tail drop_comma lk fl (head_toks t v).
Proof.
  unfold full_tail, head_toks, dd. destruct lk as [[lk [l|]]|]; try destruct (lk_cover lk); try destruct (lk_loaded lk); destruct (pyval_eqb t PNoTag), (pyval_eqb v PNoValue), (fl =? 0)%Z; reflexivity.
Qed.
(** Trees without items of more than two children and not deeper than limit/5 are written as by repr *)
Theorem C104_narrow_is_repr : forall limit h x T n, tree_at h x T -> (forall y, In y (flatten T) -> length (children h y) <= 2) -> shallow limit h T ->
  str_toks n limit h x = repr_toks n limit h x.
Proof.
  intros limit h x T n [<- HT] H2 HS. revert T HT H2 HS. induction n as [|n IH]; intros [y cs] HT H2 HS; [reflexivity|]. cbn [root].
  apply ltree_iff in HT as [E F]. rewrite Forall_forall in F. change (map root cs = nitems (hnode h y)) in E.
  assert (Sub : map (str_toks n limit h) (nitems (hnode h y)) = map (repr_toks n limit h) (nitems (hnode h y))).
  { rewrite <- E, !map_map. apply map_ext_in. intros c Hc. apply (IH c (F c Hc)).
    - intros z Hz. apply H2. right. apply in_flat_map. eauto.
    - intros z Hz. apply HS. right. apply in_flat_map. eauto. }
  cbn [str_toks repr_toks]. rewrite Sub. pose proof (H2 y (or_introl eq_refl)) as L2. pose proof (HS y (or_introl eq_refl)) as HSy.
  unfold children in L2, HSy. change (a_children (view h y)) with (nitems (hnode h y)) in L2, HSy.
  set (lk := option_map (fun k => (k, match lk_cover k with Some i => repr_toks n limit h i | None => None end)) (nlink (hnode h y))).
  assert (TL : forall d out, match match nlink (hnode h y) with None => Some (out, false) | Some lk => match lk_cover lk with Some i => match repr_toks n limit h i with None => None | Some l => Some (out ++ [[KName "link"; KOp "="; KName "iTLink"; KOp "("; KName "link_item"; KOp "="] ++ l ++ [KOp ")"]; comma], lk_loaded lk) end
        | None => Some (out ++ [[KName "link"; KOp "="; KName "iTLink"; KOp "("; KSrc (lk_src lk); KOp ")"]; comma], lk_loaded lk) end end with
      | None => None
      | Some (out, loaded) => let out := if (negb (nflags (hnode h y) =? 0)%Z || loaded)%bool then out ++ [[KName "flags"; KOp "="; KLit (PInt (if loaded then Z.lor (nflags (hnode h y)) LOAD_LINKS else nflags (hnode h y)))]] else out in
          Some (concat (d out ++ [[KOp ")"]]))
      end = full_tail d lk (nflags (hnode h y)) out).
  { intros d out. unfold full_tail, lk. destruct (nlink (hnode h y)) as [k|]; cbn [option_map]; [destruct (lk_cover k)|]; reflexivity. }
  fold (head_toks (ntag (hnode h y)) (nval (hnode h y))).
  destruct (nitems (hnode h y)) as [|c0 l0] eqn:EI.
  - rewrite (TL dd), (TL drop_comma). apply full_tail_head.
  - destruct HSy as (k & -> & Hk); [discriminate|]. assert (Nat.ltb limit (5 * k) = false) as -> by (apply Nat.ltb_ge; exact Hk).
    assert (Nat.leb (length (c0 :: l0)) 2 = true) as -> by (apply Nat.leb_le; exact L2).
    destruct (opt_all (map (repr_toks n limit h) (c0 :: l0))) as [l|] eqn:EO; [|reflexivity]. rewrite (TL dd), (TL drop_comma).
    assert (Nl : l <> []).
    { intros ->. cbn [map opt_all] in EO. destruct (repr_toks n limit h c0); [|discriminate]. destruct (opt_all (map (repr_toks n limit h) l0)); discriminate. }
    destruct (list_toks l Nl) as (m' & Em & Ee & Ec). rewrite removelast_mid, Em by discriminate. destruct Ee as (m0 & r & -> & Hr).
    unfold pieces. cbn [flat_map]. rewrite app_nil_r, <- app_assoc. cbn [app].
    replace (head_toks (ntag (hnode h y)) (nval (hnode h y)) ++ m0 ++ [r; comma]) with ((head_toks (ntag (hnode h y)) (nval (hnode h y)) ++ m0) ++ [r; comma]) by (rewrite <- app_assoc; reflexivity).
    change [[KName "subtree"; KOp "="]; KOp "[" :: join comma l ++ [KOp "]"]; comma] with ([[KName "subtree"; KOp "="]] ++ [KOp "[" :: join comma l ++ [KOp "]"]; comma]). rewrite app_assoc.
    apply full_tail_same; [exact Hr|discriminate|]. rewrite <- !app_assoc, !concat_app. f_equal. rewrite concat_app in Ec. rewrite Ec. unfold kw. cbn. rewrite app_nil_r. reflexivity.
Qed.

(** *** cases *)
(** the tree of C70 (five children, one of them a link root): first, "...", last *)
Definition no_cover_b (h : heap) (y : loc) : bool := match a_link (view h y) with Some k => match lk_cover k with None => true | Some _ => false end | None => true end.
Lemma no_cover_ok h l : forallb (no_cover_b h) l = true -> forall y, In y l -> no_cover h y.
Proof. intros H y Hy k E. rewrite forallb_forall in H. specialize (H y Hy). unfold no_cover_b in H. rewrite E in H. destruct (lk_cover k); [discriminate|reflexivity]. Qed.
Example C104_case : LReach pk_heap /\ tree_at pk_heap 0 pk_tree /\ (forall y, In y (flatten pk_tree) -> no_cover pk_heap y) /\ level_of (S (hnext pk_heap)) pk_heap 0 = Some 0 /\
  length (children pk_heap 0) = 5 /\
  match shown 1000 0 (tmap (srow pk_heap) pk_tree) with SNode a [Some (SNode b []); None; Some (SNode c [Some (SNode d [])])] =>
    (ra_tag a, ra_tag b, ra_val b, ra_flags b, ra_link c, ra_tag d) = (PStr "root", PStr "a", PInt 1, 2%Z, Some 3, PStr "k") | _ => False end /\
  option_map (@length tok) (str_toks 10 1000 pk_heap 0) = Some 56.
Proof.
  destruct C70_case as (R & T & _). split; [apply Reach_LReach; exact R|]. split; [exact T|]. split; [apply no_cover_ok; vm_compute; reflexivity|].
  split; [vm_compute; reflexivity|]. split; [vm_compute; reflexivity|]. split; vm_compute; reflexivity.
Qed.
(** loaded links show LOAD_LINKS; below level limit/5: "..." *)
Example C104_loaded_case : LReach sv_heap /\ tree_at sv_heap 12 sv_tree /\ (forall y, In y (flatten sv_tree) -> no_cover sv_heap y) /\
  match shown 9 0 (tmap (srow sv_heap) sv_tree) with SNode a [Some (SNode b [Some (SNode c []); None; Some (SNode d [None])])] => (ra_link b, ra_flags b, ra_flags c, ra_flags d) = (Some 1, 36%Z, 8%Z, 8%Z) | _ => False end.
Proof.
  split; [exact sv_reach|]. split; [split; [reflexivity|vm_compute; auto 20]|]. split; [apply no_cover_ok; vm_compute; reflexivity|]. vm_compute. reflexivity.
Qed.
Example C104_narrow_case : tree_at dp_heap 0 (Node 0 [Node 1 [Node 2 [Node 3 []]]]) /\ (forall y, In y (flatten (Node 0 [Node 1 [Node 2 [Node 3 []]]])) -> length (children dp_heap y) <= 2) /\
  shallow 15 dp_heap (Node 0 [Node 1 [Node 2 [Node 3 []]]]) /\ str_toks 10 9 dp_heap 0 <> repr_toks 10 9 dp_heap 0.
Proof.
  split; [split; [reflexivity|vm_compute; auto 20]|]. split; [intros y [<-|[<-|[<-|[<-|[]]]]]; vm_compute; auto|]. split; [apply shallow_b; vm_compute; reflexivity|]. vm_compute. discriminate.
Qed.

Print Assumptions C104_str.
Print Assumptions C104_tells_what_is_shown.
Print Assumptions C104_middle_does_not_matter.
Print Assumptions C104_bounded.
Print Assumptions C104_narrow_is_repr.
