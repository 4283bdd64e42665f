(** C84 - C86: the iTData dictionary: read-only variant, constructor, clear and views. *)
From Coq Require Import Ascii.
From Verif Require Import Base MathSet DataModel PropsI DataMore.
Import ListNotations.
Open Scope string_scope.
Open Scope list_scope.

(** ** C84 *)
(** a sequence of calls on a read-only dictionary *)
Definition ro_runs (os : list ro_op) (d : data) : data := fold_left (fun d o => fst (ro_run o d)) os d.
Definition inherited (o : ro_op) : bool := match o with RSetDefault _ _ | RPopItem => true | _ => false end.
Lemma ro_one o d : inherited o = false -> fst (ro_run o d) = d /\ exists e, snd (ro_run o d) = Err e.
Proof. destruct o; cbn; intros H; try discriminate; eauto. Qed.
(** d[k]=v, del d[k], pop, update, clear, delete_item, |=: every call raises and no sequence of
    them changes anything *)
Theorem C84_read_only_partial : forall os d, forallb (fun o => negb (inherited o)) os = true ->
  ro_runs os d = d /\ forall o, In o os -> exists e, snd (ro_run o d) = Err e.
Proof.
  unfold ro_runs. induction os as [|o os IH]; intros d H; [split; [reflexivity|intros o []]|]. cbn in H. apply andb_prop in H as (H1 & H2). apply negb_true_iff in H1.
  destruct (ro_one o d H1) as (E & X). cbn [fold_left]. rewrite E. destruct (IH d H2) as (A & B). split; [exact A|]. intros o' [<-|Ho]; [exact X|apply B; exact Ho].
Qed.
Theorem C84_permission : forall d k e l b,
  snd (ro_run (RSet k e) d) = Err PermissionError /\ snd (ro_run (RDel k) d) = Err PermissionError /\ snd (ro_run (RPop k) d) = Err PermissionError /\
  snd (ro_run (RUpdate l) d) = Err PermissionError /\ snd (ro_run (RClear b) d) = Err PermissionError /\ snd (ro_run (RDeleteItem k) d) = Err PermissionError.
Proof. intros. cbn. auto 10. Qed.
(** refuted: setdefault() and popitem() are inherited from dict and change the object *)
Theorem C84_read_only_refuted : let d := [(KStr "a", EPlain (DNum (NI 1)))] in
  ro_run (RSetDefault (KStr "b") (EPlain (DNum (NI 2)))) d = ([(KStr "a", EPlain (DNum (NI 1))); (KStr "b", EPlain (DNum (NI 2)))], Ok tt) /\
  ro_run RPopItem d = ([], Ok tt).
Proof. vm_compute. auto. Qed.
(** their exact effect: setdefault never changes an existing key *)
Theorem C84_setdefault : forall d k e k', data_getitem (fst (ro_run (RSetDefault k e) d)) k' =
  match data_getitem d k' with Ok v => Ok v | Err x => if dkey_eqb k k' then Ok (entry_val e) else Err x end.
Proof.
  intros d k e k'. cbn [ro_run]. unfold data_setdefault, data_getitem.
  assert (App : forall d, raw_get (d ++ [(k, e)]) k' = match raw_get d k' with Some x => Some x | None => if dkey_eqb k k' then Some e else None end).
  { clear d. induction d as [|[q x] d IH]; [reflexivity|]. cbn. destruct (dkey_eqb q k'); [reflexivity|exact IH]. }
  destruct (raw_get d k) as [x|] eqn:E; cbn [fst].
  - destruct (dkey_eqb k k') eqn:K; [apply dkey_eqb_eq in K; subst k'; rewrite E; destruct x; reflexivity|]. destruct (raw_get d k') as [[v|val v]|]; reflexivity.
  - rewrite App. destruct (raw_get d k') as [[v|val v]|]; [reflexivity|reflexivity|]. destruct (dkey_eqb k k'); [destruct e; reflexivity|reflexivity].
Qed.
(** popitem takes the last entry *)
Theorem C84_popitem : (forall d k e, ro_run RPopItem (d ++ [(k, e)]) = (d, Ok tt) /\ data_popitem (d ++ [(k, e)]) = (d, Ok (k, e))) /\
  ro_run RPopItem [] = ([], Err KeyError).
Proof.
  split; [|reflexivity]. intros d k e. cbn [ro_run]. unfold data_popitem. rewrite rev_app_distr. cbn [rev app]. rewrite rev_involutive. auto.
Qed.
Example C84_case : let d := [(KStr "a", EPlain (DNum (NI 1)))] in let os := [RSet (KStr "a") (EPlain DNoValue); RClear false; RPop (KStr "a"); ROr []] in
  forallb (fun o => negb (inherited o)) os = true /\ ro_runs os d = d.
Proof. vm_compute. auto. Qed.

(** ** C85 *)
(** a value that Python's dict() takes for a list of (key, value) pairs *)
Definition looks_like_pair (v : dval) : Prop := match v with DStr s => String.length s = 2 | DSeq l => length l = 2 | _ => False end.
Definition looks_like_dict (v : dval) : Prop := match v with DStr s => s = "" | DSeq l => Forall looks_like_pair l | _ => False end.
Lemma pair_err v : ~ looks_like_pair v -> exists e, pair_of v = Err e /\ e <> Unsupported.
Proof.
  destruct v as [|n|s|l|n]; cbn; intros H; try (eexists; split; [reflexivity|discriminate]).
  - destruct s as [|a [|b [|c s]]]; try (eexists; split; [reflexivity|discriminate]). exfalso. apply H. reflexivity.
  - destruct l as [|a [|b [|c l]]]; try (eexists; split; [reflexivity|discriminate]). exfalso. apply H. reflexivity.
Qed.
(** iTData(v): a value that does not look like a dictionary is stored under NoKey and is the only
    entry *)
Theorem C85_single_partial : forall v, ~ looks_like_dict v ->
  data_init v [] = Ok [(KNo, EPlain v)] /\ data_getitem [(KNo, EPlain v)] KNo = Ok v.
Proof.
  intros v H. split; [|reflexivity]. unfold data_init. assert (E : exists e, dict_seq v = Err e /\ e <> Unsupported).
  { destruct v as [|n|s|l|n]; cbn in *; try (eexists; split; [reflexivity|discriminate]).
    - destruct s; [congruence|]. eexists. split; [reflexivity|discriminate].
    - assert (G : forall l d, ~ Forall looks_like_pair l -> exists e, dict_of l d = Err e /\ e <> Unsupported).
      { clear. induction l as [|v l IH]; intros d H; [exfalso; apply H; constructor|]. cbn.
        assert (P : ~ looks_like_pair v \/ looks_like_pair v /\ ~ Forall looks_like_pair l).
        { assert (D : looks_like_pair v \/ ~ looks_like_pair v) by (destruct v; cbn; try tauto; match goal with |- context [?a = 2] => destruct (Nat.eq_dec a 2); tauto end).
          destruct D as [D|D]; [right; split; [exact D|]|left; exact D]. intros F. apply H. constructor; assumption. }
        destruct P as [P|(P & F)].
        - destruct (pair_err v P) as (e & -> & N). exists e. destruct e; try (split; [reflexivity|exact N]). congruence.
        - destruct (pair_of v) as [[k e]|e] eqn:E; [apply IH; exact F|]. destruct e; try (eexists; split; [reflexivity|discriminate]).
          destruct (IH d F) as (e & -> & N). eauto. }
      apply G. exact H. }
  destruct E as (e & -> & N). destruct e; congruence.
Qed.
Definition str_pair (s : string) (x v : dval) : Prop :=
  v = DSeq [DStr s; x] \/ exists a b, s = String a "" /\ x = DStr (String b "") /\ v = DStr (String a (String b "")).
(** pairs with str keys: the dictionary of these pairs, the last one of a key counts *)
Theorem C85_pairs : forall l (ps : list (string * dval)), Forall2 (fun p v => str_pair (fst p) (snd p) v) ps l ->
  exists d, data_init (DSeq l) [] = Ok d /\
    forall s, data_getitem d (KStr s) = match find (fun p => String.eqb (fst p) s) (rev ps) with Some p => Ok (snd p) | None => Err KeyError end.
Proof.
  intros l ps H. unfold data_init, dict_seq.
  assert (G : forall l ps d, Forall2 (fun p v => str_pair (fst p) (snd p) v) ps l -> exists d', dict_of l d = Ok d' /\
     forall s, data_getitem d' (KStr s) = match find (fun p => String.eqb (fst p) s) (rev ps) with Some p => Ok (snd p) | None => data_getitem d (KStr s) end).
  { clear. intros l ps d H. revert d. induction H as [|[s x] v ps l Hp _ IH]; intros d; [exists d; split; reflexivity|]. cbn [dict_of].
    assert (E : pair_of v = Ok (KStr s, EPlain x)). { cbn in Hp. destruct Hp as [->|(a & b & -> & -> & ->)]; reflexivity. }
    rewrite E. destruct (IH (raw_set d (KStr s) (EPlain x))) as (d' & E' & G). exists d'. split; [exact E'|]. intros t. rewrite G. cbn [rev].
    assert (A : forall q, find (fun p : string * dval => String.eqb (fst p) t) (q ++ [(s, x)]) = match find (fun p => String.eqb (fst p) t) q with Some p => Some p | None => if String.eqb s t then Some (s, x) else None end).
    { induction q as [|y q IHq]; [reflexivity|]. cbn. destruct (String.eqb (fst y) t); [reflexivity|exact IHq]. }
    rewrite A. destruct (find _ (rev ps)); [reflexivity|]. unfold data_getitem. rewrite raw_get_set. cbn [dkey_eqb]. destruct (String.eqb s t); reflexivity. }
  destruct (G l ps [] H) as (d & -> & E). exists d. split; [reflexivity|exact E].
Qed.
(** refuted: an empty str or list is lost, a list of two-character strings becomes a dictionary,
    and with keyword arguments a str raises ValueError while a number is accepted *)
Theorem C85_single_refuted : data_init (DStr "") [] = Ok [] /\ data_init (DSeq []) [] = Ok [] /\
  data_init (DSeq [DStr "ab"; DStr "cd"]) [] = Ok [(KStr "a", EPlain (DStr "b")); (KStr "c", EPlain (DStr "d"))] /\
  data_init (DStr "text") [(KStr "k", EPlain (DNum (NI 1)))] = Err ValueError /\
  data_init (DNum (NI 5)) [(KStr "k", EPlain (DNum (NI 1)))] = Ok [(KNo, EPlain (DNum (NI 5))); (KStr "k", EPlain (DNum (NI 1)))].
Proof. vm_compute. auto 10. Qed.
Example C85_case : ~ looks_like_dict (DSeq [DNum (NI 1); DStr "ab"]) /\ data_init (DSeq [DNum (NI 1); DStr "ab"]) [] = Ok [(KNo, EPlain (DSeq [DNum (NI 1); DStr "ab"]))] /\
  Forall2 (fun p v => str_pair (fst p) (snd p) v) [("x", DNum (NI 1)); ("a", DStr "b")] [DSeq [DStr "x"; DNum (NI 1)]; DStr "ab"].
Proof.
  split; [intros H; inversion H; subst; cbn in *; contradiction|]. split; [reflexivity|].
  constructor; [left; reflexivity|]. constructor; [right; exists "a"%char, "b"%char; auto|constructor].
Qed.

(** ** C86 *)
Definition is_model (d : data) (k : dkey) : Prop := exists val st, raw_get d k = Some (EModel val st).
Lemma raw_get_in d k : (exists e, raw_get d k = Some e) <-> In k (keys d).
Proof.
  induction d as [|[q x] d IH]; cbn; [split; [intros (e & H); discriminate|tauto]|]. destruct (dkey_eqb q k) eqn:E.
  - apply dkey_eqb_eq in E. split; [left; exact E|intros _; eexists; reflexivity].
  - rewrite IH. split; [tauto|]. intros [K|K]; [|exact K]. subst. assert (dkey_eqb k k = true) by (apply dkey_eqb_eq; reflexivity). congruence.
Qed.
Lemma clear_get d k : NoDup (keys d) -> raw_get (data_clear d true) k = match raw_get d k with Some (EModel val _) => Some (EModel val DNoValue) | _ => None end.
Proof.
  unfold data_clear. induction d as [|[q x] d IH]; intros N; [reflexivity|]. cbn [flat_map raw_get fst snd]. inversion N as [|? ? N1 N2]; subst.
  destruct x as [v|val st]; cbn [app raw_get].
  - rewrite IH by exact N2. destruct (dkey_eqb q k) eqn:E; [|reflexivity]. apply dkey_eqb_eq in E. subst q. destruct (raw_get d k) eqn:G; [|reflexivity]. exfalso. apply N1. apply raw_get_in. eauto.
  - destruct (dkey_eqb q k); [reflexivity|apply IH; exact N2].
Qed.
(** keyword arguments are added to the dict and win over its keys *)
Theorem C85_keywords : forall v kw d0 d, NoDup (map fst kw) -> data_init v [] = Ok d0 -> data_init v kw = Ok d ->
  forall k, data_getitem d k = match data_getitem kw k with Ok x => Ok x | Err _ => data_getitem d0 k end.
Proof.
  intros v kw d0 d N H0 H k.
  assert (G : forall kw d, NoDup (map fst kw) -> data_getitem (put_all d kw) k = match data_getitem kw k with Ok x => Ok x | Err _ => data_getitem d k end).
  { clear. unfold put_all. induction kw as [|[q e] kw IH]; intros d N; [reflexivity|]. cbn [map fst] in N. inversion N as [|? ? NI N']; subst.
    cbn [fold_left fst snd]. rewrite (IH _ N'). unfold data_getitem. cbn [raw_get]. rewrite raw_get_set. destruct (dkey_eqb q k) eqn:E.
    - apply dkey_eqb_eq in E. subst q. assert (raw_get kw k = None) as ->; [|destruct e; reflexivity].
      destruct (raw_get kw k) eqn:R; auto. exfalso. apply NI. apply (raw_get_in kw k). eauto.
    - destruct (raw_get kw k) as [[]|]; reflexivity. }
  unfold data_init in H0, H. destruct (dict_seq v) as [d1|e].
  - injection H0 as <-. injection H as <-. rewrite G by auto. reflexivity.
  - destruct e; try discriminate; injection H0 as <-; destruct kw as [|ke kw]; try discriminate; try (injection H as <-; reflexivity).
    assert (d = put_all [(KNo, EPlain v)] (ke :: kw)) as -> by congruence. rewrite G; [reflexivity|exact N].
Qed.
(** clear(): nothing is left; clear(values_only=True): exactly the models are left, without value *)
Theorem C86_clear : forall d, NoDup (keys d) -> (forall k, data_getitem (data_clear d false) k = Err KeyError) /\
  forall k, (is_model d k -> data_getitem (data_clear d true) k = Ok DNoValue /\ is_model (data_clear d true) k) /\
            (~ is_model d k -> data_getitem (data_clear d true) k = Err KeyError).
Proof.
  intros d N. split; [reflexivity|]. intros k. unfold data_getitem, is_model. rewrite (clear_get d k N). split.
  - intros (val & st & ->). split; [reflexivity|eauto].
  - intros H. destruct (raw_get d k) as [[v|val st]|]; [reflexivity| |reflexivity]. exfalso. apply H. eauto.
Qed.
(** the order of the remaining models is kept *)
Theorem C86_clear_order : forall d, exists f, keys (data_clear d true) = map fst (filter f d) /\ forall ke, f ke = true <-> exists val st, snd ke = EModel val st.
Proof.
  intros d. exists (fun ke => match snd ke with EModel _ _ => true | EPlain _ => false end). split.
  - unfold data_clear, keys. induction d as [|[q [v|val st]] d IH]; cbn; [reflexivity|exact IH|f_equal; exact IH].
  - intros [q [v|val st]]; cbn; split; try discriminate; eauto. intros (a & b & K). discriminate.
Qed.
(** model_items(), model_values(): for every key in order what d[key] gives *)
Theorem C86_views : forall d, NoDup (keys d) -> map fst (data_model_items d) = keys d /\ map snd (data_model_items d) = data_model_values d /\
  Forall (fun kv => data_getitem d (fst kv) = Ok (snd kv)) (data_model_items d).
Proof.
  intros d N. unfold data_model_items, data_model_values, keys. rewrite !map_map. cbn. split; [reflexivity|]. split; [reflexivity|].
  apply Forall_forall. intros kv H. apply in_map_iff in H as ([k e] & <- & H). cbn. unfold data_getitem.
  assert (G : raw_get d k = Some e).
  { revert H N. clear. induction d as [|[q x] d IH]; intros H N; [destruct H|]. cbn in *. inversion N as [|? ? N1 N2]; subst. destruct H as [H|H].
    - injection H as -> ->. assert (dkey_eqb k k = true) as -> by (apply dkey_eqb_eq; reflexivity). reflexivity.
    - destruct (dkey_eqb q k) eqn:E; [|apply IH; assumption]. apply dkey_eqb_eq in E. subst q. exfalso. apply N1. apply (in_map fst) in H. exact H. }
  rewrite G. destruct e; reflexivity.
Qed.
(** is_empty, is_no_key_only, is_key_empty *)
Theorem C86_tests : forall d, NoDup (keys d) -> (data_is_empty d = true <-> forall k, data_getitem d k = Err KeyError) /\
  (data_is_no_key_only d = true <-> forall k, (exists v, data_getitem d k = Ok v) <-> k = KNo) /\
  (forall k, data_is_key_empty d k = true <-> data_getitem d k = Err KeyError \/ data_getitem d k = Ok DNoValue).
Proof.
  intros d N. assert (K : forall k, (exists v, data_getitem d k = Ok v) <-> In k (keys d)).
  { intros k. rewrite <- raw_get_in. unfold data_getitem. destruct (raw_get d k) as [[v|val st]|]; split; intros (a & H); try discriminate; eauto. }
  split; [|split].
  - split; [intros H; destruct d; [reflexivity|discriminate]|]. intros H. destruct d as [|[q e] d]; [reflexivity|]. exfalso.
    destruct (proj2 (K q) (or_introl eq_refl)) as (v & E). rewrite H in E. discriminate.
  - split.
    + intros H. destruct d as [|[[|s] e] [|? ?]]; try discriminate. intros k. rewrite K. cbn. split; [intros [H1|[]]; auto|intros ->; auto].
    + intros H. assert (H2 : forall k, In k (keys d) <-> k = KNo) by (intros k; rewrite <- K; apply H). destruct d as [|[q e] d]; [destruct (proj2 (H2 KNo) eq_refl)|].
      assert (q = KNo) by (apply H2; left; reflexivity). subst q. destruct d as [|[q e'] d]; [reflexivity|]. exfalso.
      assert (q = KNo) by (apply H2; right; left; reflexivity). subst q. inversion N as [|? ? N1 _]. apply N1. left. reflexivity.
  - intros k. unfold data_is_key_empty, data_getitem. destruct (raw_get d k) as [[v|val v]|]; [| |tauto]; cbn [entry_val]; destruct v; split; auto; try discriminate; intros [H|H]; discriminate.
Qed.
(** pop(key, default) *)
Theorem C86_pop_default : forall d k df, NoDup (keys d) ->
  match data_getitem d k with
  | Ok v => exists e, snd (data_pop_default d k df) = Ok e /\ entry_val e = v /\ data_getitem (fst (data_pop_default d k df)) k = Err KeyError /\
            forall k', k' <> k -> data_getitem (fst (data_pop_default d k df)) k' = data_getitem d k'
  | Err _ => data_pop_default d k df = (d, Ok df)
  end.
Proof.
  intros d k df N. unfold data_pop_default, data_getitem. destruct (raw_get d k) as [e|] eqn:G; [|reflexivity].
  assert (X : raw_get (raw_del d k) k = None) by (rewrite raw_get_del by exact N; assert (dkey_eqb k k = true) as -> by (apply dkey_eqb_eq; reflexivity); reflexivity).
  assert (Y : forall k', k' <> k -> raw_get (raw_del d k) k' = raw_get d k').
  { intros k' Q. rewrite raw_get_del by exact N. destruct (dkey_eqb k k') eqn:E; [apply dkey_eqb_eq in E; congruence|reflexivity]. }
  cbn [fst snd]. destruct e as [v|val v]; eexists; (split; [reflexivity|]); (split; [reflexivity|]); rewrite X; (split; [reflexivity|]); intros k' Q; rewrite Y by exact Q; reflexivity.
Qed.
Example C86_case : let d := [(KStr "a", EModel Ok (DNum (NI 1))); (KStr "b", EPlain (DNum (NI 2))); (KNo, EPlain DNoValue)] in
  NoDup (keys d) /\ keys (data_clear d true) = [KStr "a"] /\ data_model_values d = [DNum (NI 1); DNum (NI 2); DNoValue] /\ data_is_key_empty d KNo = true.
Proof. split; [repeat constructor; cbn; intuition discriminate|]. vm_compute. auto. Qed.

Print Assumptions C84_read_only_partial.
Print Assumptions C84_setdefault.
Print Assumptions C85_single_partial.
Print Assumptions C85_pairs.
Print Assumptions C86_clear.
Print Assumptions C86_clear_order.
Print Assumptions C86_views.
Print Assumptions C86_tests.
Print Assumptions C86_pop_default.
Print Assumptions C84_popitem.
