(** Reading back the text of repr. *)
From Coq Require Import String.
From Verif Require Import Base Heap HeapSpec ListLemmas ForestLemmas Tree HeapTree HeapFlags PropsF JsonModel SerModel PickleModel PropsM ReprModel.
Import ListNotations.
Local Open Scope string_scope.
Local Open Scope list_scope.

(** ** the text of a tree of constructor arguments *)
Definition kw (k : string) (l : list tok) : list tok := KName k :: KOp "=" :: l.
Definition arg_toks (a : rowargs) (subs : list (list tok)) : list (list tok) :=
  (if pyval_eqb (ra_tag a) PNoTag then [] else [[KLit (ra_tag a)]]) ++
  (if pyval_eqb (ra_val a) PNoValue then [] else [kw "value" [KLit (ra_val a)]]) ++
  (match subs with [] => [] | _ => [kw "subtree" (KOp "[" :: join comma subs ++ [KOp "]"])] end) ++
  (match ra_link a with None => [] | Some s => [kw "link" [KName "iTLink"; KOp "("; KSrc s; KOp ")"]] end) ++
  (if (ra_flags a =? 0)%Z then [] else [kw "flags" [KLit (PInt (ra_flags a))]]).
Definition call_toks (args : list (list tok)) : list tok := KName "iTree" :: KOp "(" :: join comma args ++ [KOp ")"].
Fixpoint toks_of (A : tree rowargs) : list tok :=
  match A with Node a As => call_toks (arg_toks a (map toks_of As)) end.
Definition args_ex (a : rowargs) (subs : list ex) : list (option string * ex) :=
  (if pyval_eqb (ra_tag a) PNoTag then [] else [(None, XVal (ra_tag a))]) ++
  (if pyval_eqb (ra_val a) PNoValue then [] else [(Some "value", XVal (ra_val a))]) ++
  (match subs with [] => [] | _ => [(Some "subtree", XList subs)] end) ++
  (match ra_link a with None => [] | Some s => [(Some "link", XCall "iTLink" [(None, XSrc s)])] end) ++
  (if (ra_flags a =? 0)%Z then [] else [(Some "flags", XVal (PInt (ra_flags a)))]).
Fixpoint ex_of (A : tree rowargs) : ex :=
  match A with Node a As => XCall "iTree" (args_ex a (map ex_of As)) end.

(** ** parsing *)
Definition shows (t : list tok) (e : ex) : Prop := forall r m, 2 * length t <= m -> p_expr m (t ++ r) = Some (e, r).
Inductive arg_shows : list tok -> option string * ex -> Prop :=
| as_pos v : arg_shows [KLit v] (None, XVal v)
| as_src n : arg_shows [KSrc n] (None, XSrc n)
| as_kw k t e : t <> [] -> shows t e -> arg_shows (kw k t) (Some k, e).
Lemma shows_lit v : shows [KLit v] (XVal v).
Proof. intros r m H. destruct m; [cbn in H; lia|]. reflexivity. Qed.
Lemma shows_src v : shows [KSrc v] (XSrc v).
Proof. intros r m H. destruct m; [cbn in H; lia|]. reflexivity. Qed.
Lemma p_args_step n l : l <> [] -> (forall r, l <> KOp ")" :: r) ->
  p_args (S n) l = (let '(k, l) := match l with KName s :: KOp "=" :: r => (Some s, r) | _ => (None, l) end in
      match p_expr n l with
      | Some (e, KOp "," :: r) => match p_args n r with Some (es, r') => Some ((k, e) :: es, r') | None => None end
      | Some (e, KOp ")" :: r) => Some ([(k, e)], r)
      | _ => None
      end).
Proof.
  intros N1 N2. destruct l as [|[s|s|v|s] r]; [congruence|reflexivity| |reflexivity|reflexivity].
  cbn [p_args]. destruct s as [|[[] [] [] [] [] [] [] []] [|c s]]; try reflexivity. destruct (N2 r eq_refl).
Qed.
Lemma p_list_step n l : (forall r, l <> KOp "]" :: r) ->
  p_list (S n) l = match p_expr n l with
           | Some (e, KOp "," :: r) => match p_list n r with Some (es, r') => Some (e :: es, r') | None => None end
           | Some (e, KOp "]" :: r) => Some ([e], r)
           | _ => None
           end.
Proof.
  intros N2. destruct l as [|[s|s|v|s] r]; [reflexivity|reflexivity| |reflexivity|reflexivity].
  cbn [p_list]. destruct s as [|[[] [] [] [] [] [] [] []] [|c s]]; try reflexivity. destruct (N2 r eq_refl).
Qed.
Lemma one_arg t ke r m : arg_shows t ke -> 2 * length t <= m ->
  p_args (S m) (t ++ r) = match r with
    | KOp "," :: r => match p_args m r with Some (es, r') => Some (ke :: es, r') | None => None end
    | KOp ")" :: r => Some ([ke], r)
    | _ => None
    end.
Proof.
  intros A H. inversion A as [v|n|k u e Nu S]; subst.
  - rewrite p_args_step by (intros; discriminate). cbn [app]. rewrite (shows_lit v r m H : p_expr m (KLit v :: r) = _). reflexivity.
  - rewrite p_args_step by (intros; discriminate). cbn [app]. rewrite (shows_src n r m H : p_expr m (KSrc n :: r) = _). reflexivity.
  - rewrite p_args_step by (intros; discriminate). unfold kw. cbn [app]. rewrite (S r m) by (cbn in H; lia). reflexivity.
Qed.
Lemma args_ok tls args : Forall2 arg_shows tls args -> forall r m, 2 * length (join comma tls) + 3 <= m -> p_args m (join comma tls ++ KOp ")" :: r) = Some (args, r).
Proof.
  induction 1 as [|t ke tls args A F IH]; intros r m Hm; destruct m as [|m]; try (cbn in Hm; lia); [reflexivity|].
  destruct tls as [|t2 tls].
  - inversion F; subst. cbn [join] in *. rewrite (one_arg t ke) by (auto; lia). reflexivity.
  - assert (EJ : join comma (t :: t2 :: tls) = t ++ KOp "," :: join comma (t2 :: tls)) by reflexivity. rewrite EJ in *.
    rewrite app_length in Hm. cbn [length] in Hm. rewrite <- app_assoc. cbn [app]. rewrite (one_arg t ke) by (auto; lia). rewrite IH by lia. reflexivity.
Qed.
Lemma join_app_ne t (l : list (list tok)) r : exists u, join comma (t :: l) ++ r = t ++ u.
Proof. destruct l; cbn [join]; [eauto|rewrite <- app_assoc; eauto]. Qed.
Lemma list_ok tls es : Forall2 (fun t e => shows t e /\ exists k u, t = KName k :: u) tls es ->
  forall r m, 2 * length (join comma tls) + 3 <= m -> p_list m (join comma tls ++ KOp "]" :: r) = Some (es, r).
Proof.
  induction 1 as [|t e tls es (A & k & u & Et) F IH]; intros r m Hm; destruct m as [|m]; try (cbn in Hm; lia); [reflexivity|].
  rewrite p_list_step.
  2:{ destruct (join_app_ne t tls (KOp "]" :: r)) as (w & ->). subst t. intros r0. discriminate. }
  destruct tls as [|t2 tls].
  - inversion F; subst es. cbn [join] in *. rewrite A by lia. reflexivity.
  - assert (EJ : join comma (t :: t2 :: tls) = t ++ KOp "," :: join comma (t2 :: tls)) by reflexivity. rewrite EJ in *.
    rewrite app_length in Hm. cbn [length] in Hm. rewrite <- app_assoc. cbn [app]. rewrite A by lia. rewrite IH by lia. reflexivity.
Qed.
Lemma call_shows f tls args : Forall2 arg_shows tls args -> shows (KName f :: KOp "(" :: join comma tls ++ [KOp ")"]) (XCall f args).
Proof.
  intros F r m Hm. cbn [length] in Hm. rewrite app_length in Hm. cbn [length] in Hm. destruct m as [|m]; [lia|].
  cbn [app p_expr]. rewrite <- app_assoc. cbn [app]. change (String.eqb "(" "(") with true. cbn iota. rewrite (args_ok tls args F) by lia. reflexivity.
Qed.
Lemma list_shows tls es : Forall2 (fun t e => shows t e /\ exists k u, t = KName k :: u) tls es -> shows (KOp "[" :: join comma tls ++ [KOp "]"]) (XList es).
Proof.
  intros F r m Hm. cbn [length] in Hm. rewrite app_length in Hm. cbn [length] in Hm. destruct m as [|m]; [lia|].
  cbn [app p_expr]. rewrite <- app_assoc. cbn [app]. change (String.eqb "[" "...") with false. change (String.eqb "[" "[") with true. cbn iota. rewrite (list_ok tls es F) by lia. reflexivity.
Qed.
Lemma args_shows a tls es : Forall2 (fun t e => shows t e /\ exists k u, t = KName k :: u) tls es -> Forall2 arg_shows (arg_toks a tls) (args_ex a es).
Proof.
  intros F. unfold arg_toks, args_ex. repeat apply Forall2_app.
  - destruct (pyval_eqb (ra_tag a) PNoTag); repeat constructor.
  - destruct (pyval_eqb (ra_val a) PNoValue); [constructor|]. constructor; [|constructor]. constructor; [discriminate|apply shows_lit].
  - destruct F as [|t e tls es A F]; [constructor|]. constructor; [|constructor]. constructor; [discriminate|apply (list_shows (t :: tls) (e :: es)); constructor; assumption].
  - destruct (ra_link a) as [s|]; [|constructor]. constructor; [|constructor]. constructor; [discriminate|]. apply (call_shows "iTLink" [[KSrc s]] [(None, XSrc s)]). repeat constructor.
  - destruct (ra_flags a =? 0)%Z; [constructor|]. constructor; [|constructor]. constructor; [discriminate|apply shows_lit].
Qed.
Lemma toks_shows A : shows (toks_of A) (ex_of A).
Proof.
  induction A as [a As IH] using tree_ind'. cbn [toks_of ex_of]. apply call_shows. apply args_shows.
  induction IH as [|B As SB F IHF]; constructor; [|exact IHF]. split; [exact SB|]. destruct B. cbn [toks_of]. unfold call_toks. eauto.
Qed.
Lemma parse_toks A : parse (toks_of A) = Some (ex_of A).
Proof. unfold parse. rewrite <- (app_nil_r (toks_of A)) at 2. rewrite toks_shows by lia. reflexivity. Qed.

(** ** evaluation *)
Lemma ev_list l : ev (XList l) = option_map VList (opt_all (map ev l)).
Proof.
  cbn [ev]. set (go := fix go l := match l with [] => _ | a :: r => _ end).
  assert (E : forall l, go l = opt_all (map ev l)) by (induction l0 as [|a r IH]; [reflexivity|]; cbn; rewrite IH; reflexivity).
  rewrite E. destruct (opt_all (map ev l)); reflexivity.
Qed.
Fixpoint ev_args (l : list (option string * ex)) : option (list (option string * pv)) :=
  match l with [] => Some [] | (k, a) :: r => match ev a, ev_args r with Some x, Some y => Some ((k, x) :: y) | _, _ => None end end.
Lemma ev_call f l : ev (XCall f l) = match ev_args l with Some vs => apply_fn f vs | None => None end.
Proof. reflexivity. Qed.
Lemma opt_all_some {A} (l : list A) : opt_all (map Some l) = Some l.
Proof. induction l as [|a l IH]; [reflexivity|]. cbn. rewrite IH. reflexivity. Qed.
Lemma ev_ok A : ev (ex_of A) = Some (VTree A).
Proof.
  induction A as [a As IH] using tree_ind'. cbn [ex_of]. rewrite ev_call.
  assert (EL : ev (XList (map ex_of As)) = Some (VList (map VTree As))).
  { rewrite ev_list, map_map. replace (map (fun x => ev (ex_of x)) As) with (map Some (map VTree As)); [rewrite opt_all_some; reflexivity|].
    rewrite map_map. apply map_ext_in. intros B HB. rewrite Forall_forall in IH. symmetry. apply IH. exact HB. }
  assert (ET : opt_all (map as_tree (map VTree As)) = Some As) by (rewrite map_map; apply opt_all_some).
  destruct a as [t v k z]. unfold args_ex. cbn [ra_tag ra_val ra_link ra_flags].
  remember (map ex_of As) as es. assert (EN : es = [] -> As = []) by (subst es; destruct As; [reflexivity|discriminate]).
  remember (XList es) as xl. remember (map VTree As) as vl.
  assert (EE : ev_args (match es with [] => [] | _ => [(Some "subtree", xl)] end) = Some (match es with [] => [] | _ => [(Some "subtree", VList vl)] end)).
  { destruct es; [reflexivity|]. cbn [ev_args]. rewrite EL. reflexivity. }
  destruct (pyval_eqb_spec t PNoTag) as [->|Nt]; destruct (pyval_eqb_spec v PNoValue) as [->|Nv]; destruct es as [|e es]; destruct k as [s|]; destruct (Z.eqb_spec z 0) as [->|Nz];
    try (rewrite (EN eq_refl)); cbn [app ev_args ev]; try rewrite EL;
    unfold apply_fn; cbn [String.eqb Ascii.eqb Bool.eqb bind_params existsb orb filter negb fst option_map lookup app]; try rewrite ET; reflexivity.
Qed.
Lemma eval_toks A h : py_eval (toks_of A) h = pickle_loads A h.
Proof. unfold py_eval. rewrite parse_toks, ev_ok. reflexivity. Qed.

(** ** what repr writes *)
Definition plain_link (h : heap) (y : loc) : Prop := forall k, a_link (view h y) = Some k -> flag h y 5 = true /\ lk_loaded k = false /\ lk_cover k = None.
Lemma repr_ok limit h T : ltree (view h) T -> (forall y, In y (flatten T) -> plain_link h y) ->
  (forall y, In y (flatten T) -> children h y <> [] -> exists k, level_of (S (hnext h)) h y = Some k /\ 5 * k <= limit) ->
  forall n, height T < n -> repr_toks n limit h (root T) = Some (toks_of (tmap (args_of h) T)).
Proof.
  induction T as [x cs IH] using tree_ind'. intros HT HL HK n Hn. apply ltree_iff in HT as [E F]. destruct n as [|n]; [lia|]. cbn [repr_toks root tmap toks_of].
  assert (Sub : opt_all (map (repr_toks n limit h) (nitems (hnode h x))) = Some (map toks_of (map (tmap (args_of h)) cs))).
  { change (nitems (hnode h x)) with (a_children (view h x)). rewrite <- E, !map_map.
    replace (map (fun c => repr_toks n limit h (root c)) cs) with (map Some (map (fun c => toks_of (tmap (args_of h) c)) cs)); [apply opt_all_some|].
    rewrite map_map. apply map_ext_in. intros c Hc. rewrite Forall_forall in IH, F. symmetry. apply (IH c Hc (F c Hc)).
    - intros y Hy. apply HL. right. apply in_flat_map. eauto.
    - intros y Hy. apply HK. right. apply in_flat_map. eauto.
    - pose proof (height_kid x cs c Hc). lia. }
  assert (NE : nitems (hnode h x) = [] <-> map toks_of (map (tmap (args_of h)) cs) = []).
  { change (nitems (hnode h x)) with (a_children (view h x)). rewrite <- E. destruct cs; cbn; split; congruence. }
  pose proof (HK x (or_introl eq_refl)) as HKx. unfold children in HKx. change (a_children (view h x)) with (nitems (hnode h x)) in HKx.
  specialize (HL x (or_introl eq_refl)). unfold plain_link in HL. change (a_link (view h x)) with (nlink (hnode h x)) in HL.
  assert (EA : args_of h x = RA (ntag (hnode h x)) (nval (hnode h x)) (option_map lk_src (nlink (hnode h x))) (nflags (hnode h x))).
  { unfold args_of. change (a_link (view h x)) with (nlink (hnode h x)). destruct (nlink (hnode h x)) as [k|]; [destruct (HL k eq_refl) as (-> & _)|destruct (flag h x 5)]; reflexivity. }
  rewrite EA. clear EA. set (subs := map toks_of _) in *.
  destruct (nitems (hnode h x)) as [|c0 l0] eqn:EI.
  - assert (ES : subs = []) by (apply NE; reflexivity). rewrite ES. unfold call_toks, arg_toks. cbn [ra_tag ra_val ra_link ra_flags].
    destruct (nlink (hnode h x)) as [k|]; [destruct (HL k eq_refl) as (_ & -> & ->)|];
    destruct (pyval_eqb (ntag (hnode h x)) PNoTag), (pyval_eqb (nval (hnode h x)) PNoValue), (nflags (hnode h x) =? 0)%Z; reflexivity.
  - destruct HKx as (k0 & -> & Hk0); [discriminate|]. assert (Nat.ltb limit (5 * k0) = false) as -> by (apply Nat.ltb_ge; exact Hk0). rewrite Sub.
    assert (ES : exists s0 ss, subs = s0 :: ss) by (destruct subs as [|s0 ss]; [destruct NE as [_ NE]; discriminate (NE eq_refl)|eauto]).
    destruct ES as (s0 & ss & ES). unfold call_toks, arg_toks. cbn [ra_tag ra_val ra_link ra_flags]. rewrite ES. generalize (join comma (s0 :: ss)). intros J.
    destruct (nlink (hnode h x)) as [k|]; [destruct (HL k eq_refl) as (_ & -> & ->)|];
    destruct (pyval_eqb (ntag (hnode h x)) PNoTag), (pyval_eqb (nval (hnode h x)) PNoValue), (nflags (hnode h x) =? 0)%Z; cbn; rewrite <- ?app_assoc; cbn; rewrite ?app_nil_r; try reflexivity.
Qed.
