(** C97: which value objects a tree shares with its copies. *)
From Verif Require Import Base ObjModel.
From Coq Require Import Lia.

(** * Specification *)
(** values of a tree in preorder; the tree without its values *)
Fixpoint vals (t : vtree) : list ref := match t with VT _ v _ ks => v :: flat_map vals ks end.
Fixpoint skel (t : vtree) : vtree := match t with VT tg _ fl ks => VT tg 0 fl (map skel ks) end.
(** z is r or inside r, at any depth *)
Inductive reach (s : store) : ref -> ref -> Prop :=
  | reach_refl r : reach s r r
  | reach_step r q z : In q (omem (oget s r)) -> reach s q z -> reach s r z.
(** objects refer to existing objects, and there is nothing inside an atom *)
Definition closed (s : store) : Prop := forall r q, r < onext s -> In q (omem (oget s r)) -> q < onext s /\ okind (oget s r) <> KAtom.
(** a and b are built in the same way: same kinds of objects, same contents, and two places hold
    the same object in one exactly if they do in the other *)
Definition isomorphic (s : store) (a b : ref) : Prop := exists R : ref -> ref -> Prop, R a b /\
  (forall x y, R x y -> x < onext s /\ y < onext s /\
     okind (oget s x) = okind (oget s y) /\ opay (oget s x) = opay (oget s y) /\
     Forall2 R (omem (oget s x)) (omem (oget s y))) /\
  (forall x y x' y', R x y -> R x' y' -> (x = x' <-> y = y')).
(** changes a program can make when it holds the objects [roots] only: change the contents of a
    mutable object it can reach, or make a new object, with contents it can reach *)
Inductive edits (roots : list ref) : store -> store -> Prop :=
  | ed_refl s : edits roots s s
  | ed_set s r o s' : (exists v, In v roots /\ reach s v r) -> is_mutable (okind (oget s r)) = true ->
      okind o = okind (oget s r) -> (forall q, In q (omem o) -> exists v, In v roots /\ reach s v q) ->
      edits roots (oset s r o) s' -> edits roots s s'
  | ed_new s o s' : (forall q, In q (omem o) -> exists v, In v roots /\ reach s v q) ->
      edits (onext s :: roots) (fst (alloc s o)) s' -> edits roots s s'.

(** * The sequence of calls made by _iter_copy *)
Fixpoint run (f : store -> ref -> store * res ref) (l : list ref) (s : store) : store * res (list ref) :=
  match l with
  | [] => (s, Ok [])
  | v :: l' =>
    match f s v with
    | (s1, Err e) => (s1, Err e)
    | (s1, Ok v') => match run f l' s1 with (s2, Err e) => (s2, Err e) | (s2, Ok vs) => (s2, Ok (v' :: vs)) end
    end
  end.
Lemma run_app f a : forall b s, run f (a ++ b) s =
  match run f a s with (s1, Err e) => (s1, Err e)
  | (s1, Ok va) => match run f b s1 with (s2, Err e) => (s2, Err e) | (s2, Ok vb) => (s2, Ok (va ++ vb)) end end.
Proof.
  induction a as [|v a IH]; intros b s; cbn [app run].
  - destruct (run f b s) as [s2 [x|e]]; reflexivity.
  - destruct (f s v) as [s1 [v'|e]]; [|reflexivity]. rewrite IH. destruct (run f a s1) as [s2 [x|e]]; [|reflexivity].
    destruct (run f b s2) as [s3 [y|e]]; reflexivity.
Qed.
Section vt_ind.
  Variable P : vtree -> Prop.
  Hypothesis H : forall t v f ks, Forall P ks -> P (VT t v f ks).
  Fixpoint vt_ind' (t : vtree) : P t :=
    match t with VT tg v fl ks => H tg v fl ks ((fix go l : Forall P l := match l with [] => Forall_nil P | k :: l' => Forall_cons k (vt_ind' k) (go l') end) ks) end.
End vt_ind.
Definition vkids (f : store -> ref -> store * res ref) :=
  fix go (l : list vtree) (s : store) : store * res (list vtree) :=
         match l with
         | [] => (s, Ok [])
         | k :: l' =>
           match vcopy f s k with
           | (s2, Err e) => (s2, Err e)
           | (s2, Ok k') =>
             match go l' s2 with
             | (s3, Err e) => (s3, Err e)
             | (s3, Ok ks') => (s3, Ok (k' :: ks'))
             end
           end
         end.
Lemma vcopy_eq f s tg v fl ks : vcopy f s (VT tg v fl ks) =
  match f s v with (s1, Err e) => (s1, Err e) | (s1, Ok v') =>
    match vkids f ks s1 with (s2, Err e) => (s2, Err e) | (s2, Ok ks') => (s2, Ok (VT tg v' fl ks')) end end.
Proof. reflexivity. Qed.
Lemma vcopy_run f t : forall s,
  match vcopy f s t with
  | (s', Ok t') => run f (vals t) s = (s', Ok (vals t')) /\ skel t' = skel t
  | (s', Err e) => run f (vals t) s = (s', Err e)
  end.
Proof.
  induction t as [tg v fl ks IH] using vt_ind'. intro s. rewrite vcopy_eq. cbn [vals run skel].
  destruct (f s v) as [s1 [v'|e]]; [|reflexivity].
  assert (K : match vkids f ks s1 with
    | (s', Ok ks') => run f (flat_map vals ks) s1 = (s', Ok (flat_map vals ks')) /\ map skel ks' = map skel ks
    | (s', Err e) => run f (flat_map vals ks) s1 = (s', Err e) end).
  { revert s1. induction IH as [|k ks Hk _ IH2]; intro s1; cbn [vkids flat_map run map]; [auto|].
    fold (vkids f). specialize (Hk s1). rewrite run_app. destruct (vcopy f s1 k) as [s2 [k'|e]]; [|rewrite Hk; reflexivity].
    destruct Hk as [Hk1 Hk2]. rewrite Hk1. specialize (IH2 s2). destruct (vkids f ks s2) as [s3 [ks'|e]]; [|rewrite IH2; reflexivity].
    destruct IH2 as [A B]. rewrite A. split; [reflexivity|]. cbn. now rewrite Hk2, B. }
  destruct (vkids f ks s1) as [s2 [ks'|e]]; [|rewrite K; reflexivity].
  destruct K as [A B]. rewrite A. split; [reflexivity|]. cbn [skel]. now rewrite B.
Qed.

(** * copy_keep_value *)
Theorem C97_keep_value : forall s t, copy_keep_value s t = (s, Ok t).
Proof.
  intros s t. unfold copy_keep_value. revert s. induction t as [tg v fl ks IH] using vt_ind'. intro s. rewrite vcopy_eq. cbn [arg_keep].
  assert (K : vkids arg_keep ks s = (s, Ok ks)).
  { induction IH as [|k ks Hk _ IH2]; cbn [vkids]; [reflexivity|]. fold (vkids arg_keep). now rewrite Hk, IH2. }
  now rewrite K.
Qed.

(** * copy *)
Definition extends (s s' : store) : Prop := onext s <= onext s' /\ forall q, q < onext s -> oget s' q = oget s q.
Lemma ext_refl s : extends s s.
Proof. split; auto. Qed.
Lemma ext_trans a b c : extends a b -> extends b c -> extends a c.
Proof. intros [A1 A2] [B1 B2]. split; [lia|]. intros q Q. rewrite B2 by lia. auto. Qed.
Lemma ext_alloc s o : extends s (fst (alloc s o)).
Proof. split; cbn; [lia|]. intros q Q. destruct (Nat.eqb_spec q (onext s)); [lia|reflexivity]. Qed.
Lemma alloc_get s o : oget (fst (alloc s o)) (onext s) = o.
Proof. cbn. now rewrite Nat.eqb_refl. Qed.
(** python objects whose class has __hash__ = None: lists, dicts and value models (a class that
    defines __eq__ only) *)
Definition unhashable (k : kind) : bool := match k with KList | KDict | KModel => true | _ => false end.
Lemma callable_spec k : hash_callable k = negb (unhashable k).
Proof. destruct k; reflexivity. Qed.
Definition copied (s s' : store) (v v' : ref) : Prop :=
  if unhashable (okind (oget s v)) then onext s <= v' /\ v' < onext s' /\ oget s' v' = oget s v else v' = v.
Lemma run_copy l : forall s0 s, extends s0 s -> (forall v, In v l -> v < onext s0) ->
  exists s' l', run arg_copy l s = (s', Ok l') /\ extends s s' /\ Forall2 (copied s0 s') l l' /\
    (forall v, In v l' -> onext s0 <= v -> onext s <= v) /\
    (forall i j v, nth_error l' i = Some v -> nth_error l' j = Some v -> i <> j -> v < onext s0).
Proof.
  induction l as [|v l IH]; intros s0 s E B; cbn [run].
  - exists s, []. repeat split; auto; [intros v []|]. intros [|i] j v X; discriminate.
  - assert (V : v < onext s0) by (apply B; left; auto). destruct E as [E1 E2].
    unfold arg_copy at 1. rewrite (E2 v V). destruct (hash_callable (okind (oget s0 v))) eqn:HC0; pose proof HC0 as HC; rewrite callable_spec in HC; [apply Bool.negb_true_iff in HC|apply Bool.negb_false_iff in HC].
    + destruct (IH s0 s (conj E1 E2)) as (s' & l' & R & X & F & N & D); [intros; apply B; right; auto|].
      rewrite R. exists s', (v :: l'). split; [reflexivity|]. split; auto. split; [constructor; auto; unfold copied; now rewrite HC|].
      split; [intros w [<-|W]; [lia|auto]|]. intros i j w I J IJ.
      destruct i as [|i], j as [|j]; cbn in I, J; [lia| | |apply (D i j w); auto].
      * injection I as <-. exact V.
      * injection J as <-. exact V.
    + unfold py_copy. rewrite (E2 v V). assert (M : is_mutable (okind (oget s0 v)) = true) by (destruct (okind (oget s0 v)); try discriminate; reflexivity).
      rewrite M. change (let (s', v') := alloc s (oget s0 v) in (s', Ok v')) with (fst (alloc s (oget s0 v)), @Ok ref (onext s)).
      set (s1 := fst (alloc s (oget s0 v))). assert (X1 : extends s s1) by apply ext_alloc.
      destruct (IH s0 s1 (ext_trans _ _ _ (conj E1 E2) X1)) as (s' & l' & R & X & F & N & D); [intros; apply B; right; auto|].
      cbn iota beta. rewrite R. exists s', (onext s :: l'). split; [reflexivity|]. split; [eapply ext_trans; eauto|].
      assert (Q : onext s < onext s1) by (cbn; lia).
      split; [constructor; auto; unfold copied; rewrite HC; split; [lia|]; split; [destruct X; lia|]; rewrite (proj2 X) by exact Q; unfold s1; apply alloc_get|].
      split; [intros w [<-|W]; [lia|intro G; specialize (N w W G); lia]|]. intros i j w I J IJ.
      destruct i as [|i], j as [|j]; cbn in I, J; [lia| | |apply (D i j w); auto].
      * injection I as <-. apply nth_error_In in J. destruct (Nat.lt_ge_cases (onext s) (onext s0)); auto. specialize (N _ J H). lia.
      * injection J as <-. apply nth_error_In in I. destruct (Nat.lt_ge_cases (onext s) (onext s0)); auto. specialize (N _ I H). lia.
Qed.
(** copy() changes no existing object and never raises; it has the shape, tags and flags of the
    original; a value with a callable __hash__ is the same object in both, any other value (list,
    dict, value model) is a new object with the same contents, one for each item *)
Theorem C97_copy_partial : forall s t, (forall v, In v (vals t) -> v < onext s) ->
  exists s' t', tree_copy s t = (s', Ok t') /\ extends s s' /\ skel t' = skel t /\
    Forall2 (fun v v' => if unhashable (okind (oget s v)) then onext s <= v' /\ v' < onext s' /\ oget s' v' = oget s v
                         else v' = v) (vals t) (vals t') /\
    (forall i j v, nth_error (vals t') i = Some v -> nth_error (vals t') j = Some v -> i <> j -> v < onext s).
Proof.
  intros s t B. destruct (run_copy (vals t) s s (ext_refl s) B) as (s' & l' & R & E & F & _ & D).
  pose proof (vcopy_run arg_copy t s) as K. fold (tree_copy s t) in K. unfold tree_copy in *. rewrite R in K.
  destruct (vcopy arg_copy s t) as [s2 [t'|e]]; [|discriminate]. destruct K as [K1 K2]. injection K1 as <- ->.
  exists s', t'. auto.
Qed.

(** * deepcopy: the invariant *)
(** objects that deepcopy returns as they are: immutable all the way down *)
Inductive frozen (s : store) : ref -> Prop :=
  | fz_atom r : okind (oget s r) = KAtom -> frozen s r
  | fz_tuple r : okind (oget s r) = KTuple -> (forall q, In q (omem (oget s r)) -> frozen s q) -> frozen s r.
Section deep.
Variable s0 : store.
Hypothesis C0 : closed s0.
Let n0 := onext s0.
Definition Rel (m : memo) (x y : ref) : Prop := In (x, y) m \/ (x = y /\ frozen s0 x).
Record Inv (s : store) (m : memo) (op : list ref) : Prop := {
  i_ext : extends s0 s;
  i_memo : forall a b, In (a, b) m -> a < n0 /\ n0 <= b /\ b < onext s /\ ~ frozen s0 a /\ okind (oget s0 a) <> KData;
  i_one : forall a b a' b', In (a, b) m -> In (a', b') m -> (a = a' <-> b = b');
  i_done : forall a b, In (a, b) m -> ~ In b op -> okind (oget s b) = okind (oget s0 a) /\ opay (oget s b) = opay (oget s0 a) /\
             Forall2 (Rel m) (omem (oget s0 a)) (omem (oget s b));
  i_closed : closed s }.
Lemma mlook_in r m b : mlook r m = Some b -> In (r, b) m.
Proof.
  induction m as [|[a c] m IH]; cbn; [discriminate|]. destruct (Nat.eqb_spec r a) as [E|_].
  - intros [=<-]. left. now rewrite E.
  - intro H. right. auto.
Qed.
Lemma mlook_none r m : mlook r m = None -> forall b, ~ In (r, b) m.
Proof.
  induction m as [|[a c] m IH]; cbn; [intros _ b []|]. destruct (Nat.eqb_spec r a) as [E|E]; [discriminate|].
  intros H b [X|X]; [injection X; congruence|apply (IH H b X)].
Qed.
Lemma rel_mono m m' x y : incl m m' -> Rel m x y -> Rel m' x y.
Proof. intros I [H|H]; [left; auto|right; auto]. Qed.
Lemma rels_mono m m' l l' : incl m m' -> Forall2 (Rel m) l l' -> Forall2 (Rel m') l l'.
Proof. intros I H. induction H; constructor; eauto using rel_mono. Qed.
Lemma rel_bound s m op x y : Inv s m op -> x < n0 -> Rel m x y -> y < onext s.
Proof. intros I X [H|[<- _]]; [apply (i_memo _ _ _ I _ _ H)|]. destruct (i_ext _ _ _ I). unfold n0 in X. lia. Qed.
Lemma rel_self s m op x : Inv s m op -> Rel m x x -> frozen s0 x.
Proof. intros I [H|[_ H]]; auto. destruct (i_memo _ _ _ I _ _ H) as (A & B & _). lia. Qed.
Lemma rel_frozen s m op x y : Inv s m op -> Rel m x y -> frozen s0 x -> y = x.
Proof. intros I [H|[H _]] F; [|now symmetry]. destruct (i_memo _ _ _ I _ _ H) as (_ & _ & _ & N & _). contradiction. Qed.
Lemma diag {A} (R : A -> A -> Prop) l : Forall2 R l l -> forall q, In q l -> R q q.
Proof. induction l as [|x l IH]; intros H q; [intros []|]. inversion H; subst. intros [<-|Q]; auto. Qed.
(** what one call guarantees *)
Definition post {A} (Q : memo -> A -> Prop) (s : store) (m : memo) (op : list ref) (x : store * memo * res A) : Prop :=
  match x with
  | (s', m', Ok y) => Inv s' m' op /\ incl m m' /\ extends s s' /\ Q m' y
  | (s', _, Err _) => extends s s'
  end.
Definition good (dp : ref -> store -> memo -> store * memo * res ref) : Prop :=
  forall r s m op, r < n0 -> Inv s m op -> post (fun m' y => Rel m' r y) s m op (dp r s m).
Lemma deep_list_good dp : good dp -> forall l s m op, (forall x, In x l -> x < n0) -> Inv s m op ->
  post (fun m' ys => Forall2 (Rel m') l ys) s m op (deep_list dp l s m).
Proof.
  intros G. induction l as [|x l IH]; intros s m op B I; cbn [deep_list].
  - split; auto. split; [intros z; auto|split; [apply ext_refl|constructor]].
  - pose proof (G x s m op (B x (or_introl eq_refl)) I) as K. destruct (dp x s m) as [[s1 m1] [y|e]]; [|exact K].
    destruct K as (I1 & L1 & E1 & R1). specialize (IH s1 m1 op (fun z Z => B z (or_intror Z)) I1).
    destruct (deep_list dp l s1 m1) as [[s2 m2] [ys|e]]; cbn in IH |- *.
    + destruct IH as (I2 & L2 & E2 & R2). split; auto. split; [eapply incl_tran; eauto|]. split; [eapply ext_trans; eauto|].
      constructor; auto. eapply rel_mono; eauto.
    + eapply ext_trans; eauto.
Qed.
(** a new object and its memo entry *)
Lemma inv_alloc s m op r o : Inv s m op -> r < n0 -> ~ frozen s0 r -> okind (oget s0 r) <> KData -> (forall b, ~ In (r, b) m) ->
  (forall q, In q (omem o) -> q < onext s /\ okind o <> KAtom) ->
  (In (onext s) op \/ (okind o = okind (oget s0 r) /\ opay o = opay (oget s0 r) /\ Forall2 (Rel m) (omem (oget s0 r)) (omem o))) ->
  Inv (fst (alloc s o)) ((r, onext s) :: m) op.
Proof.
  intros I R F K N C D. destruct (i_ext _ _ _ I) as [X1 X2].
  assert (E : extends s (fst (alloc s o))) by apply ext_alloc.
  assert (L : incl m ((r, onext s) :: m)) by (intros z Z; right; auto).
  constructor.
  - eapply ext_trans; [apply I|exact E].
  - intros a b [H|H].
    + injection H as <- <-. split; [exact R|]. split; [unfold n0; exact X1|]. split; [cbn; lia|split; auto].
    + destruct (i_memo _ _ _ I _ _ H) as (A & B & B' & Q). split; auto. split; auto. split; [cbn; lia|auto].
  - assert (U : forall a b, In (a, b) m -> a <> r /\ b <> onext s).
    { intros a b H. split; [intros ->; apply (N b H)|]. destruct (i_memo _ _ _ I _ _ H) as (_ & _ & B' & _). lia. }
    intros a b a' b' [H|H] [H'|H'].
    + injection H as <- <-. injection H' as <- <-. tauto.
    + injection H as <- <-. destruct (U _ _ H') as [U1 U2]. split; intro X; exfalso; [apply U1|apply U2]; auto.
    + injection H' as <- <-. destruct (U _ _ H) as [U1 U2]. split; intro X; exfalso; [apply U1|apply U2]; auto.
    + apply (i_one _ _ _ I); auto.
  - intros a b [H|H] O.
    + injection H as <- <-. rewrite alloc_get. destruct D as [D|(D1 & D2 & D3)]; [contradiction|]. split; auto. split; auto. eapply rels_mono; eauto.
    + destruct (i_memo _ _ _ I _ _ H) as (_ & _ & B' & _). rewrite (proj2 E b B'). destruct (i_done _ _ _ I _ _ H O) as (D1 & D2 & D3).
      split; auto. split; auto. eapply rels_mono; eauto.
  - intros q z Q Z. change (onext (fst (alloc s o))) with (S (onext s)) in *. destruct (Nat.eq_dec q (onext s)) as [->|NE].
    + rewrite alloc_get in *. apply C in Z. split; [lia|apply Z].
    + rewrite (proj2 E q) in * by lia. apply (i_closed _ _ _ I q z) in Z; [|lia]. split; [lia|apply Z].
Qed.
(** a finished object *)
Lemma inv_fill s m op r b o : Inv s m (b :: op) -> In (r, b) m -> (forall q, In q (omem o) -> q < onext s /\ okind o <> KAtom) ->
  okind o = okind (oget s0 r) -> opay o = opay (oget s0 r) -> Forall2 (Rel m) (omem (oget s0 r)) (omem o) -> Inv (oset s b o) m op.
Proof.
  intros I M C D1 D2 D3. destruct (i_memo _ _ _ I _ _ M) as (R & B1 & B2 & _). constructor.
  - destruct (i_ext _ _ _ I) as [X1 X2]. split; [exact X1|]. intros q Q. cbn. destruct (Nat.eqb_spec q b) as [E|_]; [unfold n0 in *; lia|auto].
  - apply I.
  - apply I.
  - intros a c H O. cbn. destruct (Nat.eqb_spec c b) as [E|NE].
    + subst c. assert (a = r) by (apply (i_one _ _ _ I _ _ _ _ H M); auto). subst a. auto.
    + apply (i_done _ _ _ I); auto. intros [X|X]; [congruence|contradiction].
  - intros q z Q Z. cbn in Q, Z |- *. destruct (Nat.eqb_spec q b); [auto|apply (i_closed _ _ _ I q z); auto].
Qed.
Lemma inv_open s m op b : Inv s m op -> Inv s m (b :: op).
Proof. intros I. constructor; try apply I. intros a c H O. apply (i_done _ _ _ I); auto. intro X. apply O. right. auto. Qed.
Lemma rels_bound s m op l ys : Inv s m op -> (forall x, In x l -> x < n0) -> Forall2 (Rel m) l ys -> forall q, In q ys -> q < onext s.
Proof.
  intros I B H. revert B. induction H as [|x y xs ys H _ IH]; intros B q; [intros []|]. intros [<-|Q].
  - eapply rel_bound; [exact I|apply B; left; reflexivity|exact H].
  - apply IH; auto. intros z Z. apply B. right. exact Z.
Qed.
Lemma new_obj f r s m op k : good (deep f) -> r < n0 -> Inv s m op -> mlook r m = None -> okind (oget s0 r) = k ->
  is_mutable k = true -> k <> KData ->
  post (fun m' y => Rel m' r y) s m op
    (let (s1, r') := alloc s (Obj k (opay (oget s0 r)) []) in
     match deep_list (deep f) (omem (oget s0 r)) s1 ((r, r') :: m) with
         | (s2, m2, Err e) => (s2, m2, @Err ref e)
         | (s2, m2, Ok ys) => (oset s2 r' (Obj k (opay (oget s0 r)) ys), m2, Ok r')
         end).
Proof.
  intros G R I M K MU ND. set (o := Obj k (opay (oget s0 r)) []).
  change (alloc s o) with (fst (alloc s o), onext s). cbv iota beta.
  set (s1 := fst (alloc s o)). set (b := onext s). set (m1 := (r, b) :: m).
  assert (NF : ~ frozen s0 r) by (intro F; destruct F as [x E|x E _]; rewrite E in K; subst k; discriminate).
  assert (I1 : Inv s1 m1 (b :: op)).
  { apply inv_alloc; auto; [apply inv_open; auto|congruence|apply mlook_none; auto|intros q []|left; left; reflexivity]. }
  assert (B : forall x, In x (omem (oget s0 r)) -> x < n0) by (intros x X; apply (proj1 (C0 r x R X))).
  pose proof (deep_list_good _ G (omem (oget s0 r)) s1 m1 (b :: op) B I1) as P.
  change ((r, b) :: m) with m1. destruct (deep_list (deep f) (omem (oget s0 r)) s1 m1) as [[s2 m2] [ys|e]]; cbn [post] in P |- *.
  - destruct P as (I2 & L2 & E2 & R2). assert (Mb : In (r, b) m2) by (apply L2; left; reflexivity).
    split; [apply inv_fill with (r := r); [exact I2|exact Mb|intros q Q; split; [exact (rels_bound _ _ _ _ _ I2 B R2 q Q)|cbn; intros X; rewrite X in MU; discriminate]|now rewrite K|reflexivity|exact R2]|].
    split; [intros z Z; apply L2; right; exact Z|]. split; [|left; exact Mb].
    split; [destruct E2 as [E2 _]; cbn in *; lia|]. intros q Q. cbn. destruct (Nat.eqb_spec q b) as [X|_]; [unfold b in X; lia|].
    rewrite (proj2 E2 q) by (cbn; lia). apply (proj2 (ext_alloc s o) q Q).
  - eapply ext_trans; [apply ext_alloc|exact P].
Qed.
Lemma deep_good f : good (deep f).
Proof.
  induction f as [|f IH]; intros r s m op R I; cbn [deep]; [apply ext_refl|].
  destruct (mlook r m) as [r'|] eqn:M.
  { split; auto. split; [intros z; auto|]. split; [apply ext_refl|]. left. apply mlook_in. exact M. }
  assert (OR : oget s r = oget s0 r) by (apply (proj2 (i_ext _ _ _ I)); exact R). rewrite OR.
  assert (B : forall x, In x (omem (oget s0 r)) -> x < n0) by (intros x X; apply (proj1 (C0 r x R X))).
  destruct (okind (oget s0 r)) eqn:K;
    try (apply (new_obj f r s m op _ IH R I M K); [reflexivity|discriminate]).
  - split; auto. split; [intros z; auto|]. split; [apply ext_refl|]. right. split; auto. now apply fz_atom.
  - pose proof (deep_list_good _ IH (omem (oget s0 r)) s m op B I) as P.
    destruct (deep_list (deep f) (omem (oget s0 r)) s m) as [[s1 m1] [ys|e]]; [|exact P].
    destruct P as (I1 & L1 & E1 & R1). destruct (mlook r m1) as [r'|] eqn:M1.
    { split; auto. split; auto. split; auto. left. apply mlook_in. exact M1. }
    destruct (list_eq_dec Nat.eq_dec ys (omem (oget s0 r))) as [->|NE].
    + split; auto. split; auto. split; auto. right. split; auto. apply fz_tuple; auto. intros q Q.
      apply (rel_self _ _ _ _ I1). apply (diag _ _ R1 q Q).
    + set (o := Obj KTuple (opay (oget s0 r)) ys). change (alloc s1 o) with (fst (alloc s1 o), onext s1). cbn [post].
      assert (NF : ~ frozen s0 r).
      { intro F. destruct F as [x E|x E F]; [congruence|]. apply NE. clear - R1 I1 F. induction R1 as [|x0 y xs ys H _ IH2]; [reflexivity|].
        f_equal; [apply (rel_frozen _ _ _ _ _ I1 H); apply F; left; reflexivity|apply IH2; intros q Q; apply F; right; exact Q]. }
      split; [apply inv_alloc; [exact I1|exact R|exact NF|congruence|apply mlook_none; exact M1|intros q Q; split; [exact (rels_bound _ _ _ _ _ I1 B R1 q Q)|discriminate]|right; split; [now rewrite K|split; [reflexivity|exact R1]]]|].
      split; [intros z Z; right; apply L1; exact Z|]. split; [eapply ext_trans; [exact E1|apply ext_alloc]|]. left. left. reflexivity.
  - apply ext_refl.
Qed.
End deep.

Lemma inv0 s : closed s -> Inv s s [] [].
Proof. intro C. constructor; auto; [apply ext_refl|intros a b []|intros a b a' b' []|intros a b []]. Qed.
(** one deepcopy call *)
Definition R0 (s : store) (m : memo) (x y : ref) : Prop := x < onext s /\ Rel s m x y.
Lemma rel_step s m s' sF x y : closed s -> Inv s s' m [] -> extends s' sF -> R0 s m x y ->
  x < onext sF /\ y < onext sF /\ okind (oget sF x) = okind (oget sF y) /\ opay (oget sF x) = opay (oget sF y) /\
  Forall2 (R0 s m) (omem (oget sF x)) (omem (oget sF y)).
Proof.
  intros C I E [X H]. pose proof (i_ext _ _ _ _ I) as E0. pose proof (ext_trans _ _ _ E0 E) as E1.
  pose proof (rel_bound _ _ _ _ _ _ I X H) as Y.
  assert (OX : oget sF x = oget s x) by (apply (proj2 E1); exact X).
  assert (LX : x < onext sF) by (destruct E1; lia). assert (LY : y < onext sF) by (destruct E; lia).
  split; auto. split; auto. destruct H as [H|[<- F]].
  - destruct (i_done _ _ _ _ I _ _ H (fun Z => Z)) as (D1 & D2 & D3). rewrite OX, (proj2 E y Y). split; auto. split; auto.
    assert (B : forall q, In q (omem (oget s x)) -> q < onext s) by (intros q Q; apply (C x q X Q)).
    clear - D3 B. induction D3 as [|a b l l' H D IH]; constructor; [split; [apply B; left; auto|auto]|apply IH; intros; apply B; right; auto].
  - split; auto. split; auto. rewrite OX.
    assert (B : forall q, In q (omem (oget s x)) -> R0 s m q q).
    { intros q Q. split; [apply (C x q X Q)|]. right. split; auto. destruct F as [x E2|x E2 F]; [destruct (C x q X Q); contradiction|auto]. }
    clear - B. induction (omem (oget s x)) as [|a l IH]; constructor; [apply B; left; auto|apply IH; intros; apply B; right; auto].
Qed.
Lemma rel_one s m s' : Inv s s' m [] -> forall x y x' y', R0 s m x y -> R0 s m x' y' -> (x = x' <-> y = y').
Proof.
  intros I x y x' y' [X [H|[<- F]]] [X' [H'|[<- F']]].
  - apply (i_one _ _ _ _ I); auto.
  - destruct (i_memo _ _ _ _ I _ _ H) as (A & B & _ & N & _). split; [intros ->; contradiction|lia].
  - destruct (i_memo _ _ _ _ I _ _ H') as (A & B & _ & N & _). split; [intros ->; contradiction|lia].
  - tauto.
Qed.
Lemma in_forall2 {A B} (R : A -> B -> Prop) l l' b : Forall2 R l l' -> In b l' -> exists a, In a l /\ R a b.
Proof. induction 1 as [|x y l l' H _ IH]; intros []; [subst; exists x; split; [left|]; auto|]. destruct IH as (a & A1 & A2); auto. exists a. split; [right|]; auto. Qed.
Lemma in_forall2' {A B} (R : A -> B -> Prop) l l' a : Forall2 R l l' -> In a l -> exists b, In b l' /\ R a b.
Proof. induction 1 as [|x y l l' H _ IH]; intros []; [subst; exists y; split; [left|]; auto|]. destruct IH as (b & A1 & A2); auto. exists b. split; [right|]; auto. Qed.
Lemma reach_img s m s' sF y z : closed s -> Inv s s' m [] -> extends s' sF -> reach sF y z -> (exists x, R0 s m x y) -> exists x, R0 s m x z.
Proof.
  intros C I E H. induction H as [r|r q z Q _ IH]; auto. intros (x & X). apply IH.
  destruct (rel_step _ _ _ _ _ _ C I E X) as (_ & _ & _ & _ & F). destruct (in_forall2 _ _ _ _ F Q) as (a & _ & A). exists a. exact A.
Qed.
Lemma reach_dom s m s' x z : closed s -> Inv s s' m [] -> reach s x z -> (exists y, R0 s m x y) -> exists y, R0 s m z y.
Proof.
  intros C I H. induction H as [r|r q z Q _ IH]; auto. intros (y & Y). apply IH.
  destruct (rel_step _ _ _ _ _ _ C I (ext_refl s') Y) as (_ & _ & _ & _ & F).
  rewrite (proj2 (i_ext _ _ _ _ I) r (proj1 Y)) in F. destruct (in_forall2' _ _ _ _ F Q) as (b & _ & B). exists b. exact B.
Qed.
Lemma frozen_kind s x : frozen s x -> okind (oget s x) = KAtom \/ okind (oget s x) = KTuple.
Proof. intros [r E|r E _]; auto. Qed.
Lemma item_deep fuel s r : closed s -> r < onext s ->
  match arg_deep fuel s r with
  | (s', Err _) => extends s s'
  | (s', Ok r') => extends s s' /\ closed s' /\ r' < onext s' /\
      (forall z, reach s r z -> okind (oget s z) <> KData) /\
      (forall sF, extends s' sF -> isomorphic sF r r' /\
         forall z, reach sF r' z -> is_mutable (okind (oget sF z)) = true -> onext s <= z /\ z < onext s')
  end.
Proof.
  intros C R. unfold arg_deep, py_deepcopy. pose proof (deep_good s C fuel r s [] [] R (inv0 s C)) as K.
  destruct (deep fuel r s []) as [[s' m] [r'|e]]; [|exact K]. destruct K as (I & _ & E & H).
  assert (HR : R0 s m r r') by (split; auto). split; auto. split; [apply I|]. split; [apply (rel_bound _ _ _ _ _ _ I R H)|]. split.
  - intros z Z. destruct (reach_dom _ _ _ _ _ C I Z (ex_intro _ r' HR)) as (y & _ & [M|[_ F]]); [apply (i_memo _ _ _ _ I _ _ M)|].
    destruct (frozen_kind _ _ F) as [Q|Q]; rewrite Q; discriminate.
  - intros sF EF. split.
    + exists (R0 s m). split; auto. split; [intros x y; apply (rel_step s m s' sF x y C I EF)|apply (rel_one s m s' I)].
    + intros z Z MU. destruct (reach_img _ _ _ _ _ _ C I EF Z (ex_intro _ r HR)) as (x & X & [M|[-> F]]).
      * destruct (i_memo _ _ _ _ I _ _ M) as (_ & A & B & _). auto.
      * rewrite (proj2 (ext_trans _ _ _ E EF) z X) in MU. destruct (frozen_kind _ _ F) as [Q|Q]; rewrite Q in MU; discriminate.
Qed.
Lemma run_deep fuel l : forall s, closed s -> (forall v, In v l -> v < onext s) ->
  match run (arg_deep fuel) l s with
  | (s', Err _) => extends s s'
  | (s', Ok l') => extends s s' /\ closed s' /\
      (forall v z, In v l -> reach s v z -> okind (oget s z) <> KData) /\
      (forall sF, extends s' sF -> Forall2 (isomorphic sF) l l' /\
         (forall v z, In v l' -> reach sF v z -> is_mutable (okind (oget sF z)) = true -> onext s <= z /\ z < onext s') /\
         (forall i j v w z, nth_error l' i = Some v -> nth_error l' j = Some w -> i <> j -> reach sF v z -> reach sF w z -> is_mutable (okind (oget sF z)) = false))
  end.
Proof.
  induction l as [|v l IH]; intros s C B; cbn [run].
  - split; [apply ext_refl|]. split; auto. split; [intros v z []|]. intros sF EF. split; [constructor|]. split; [intros v z []|].
    intros [|i] j v w z X; discriminate.
  - pose proof (item_deep fuel s v C (B v (or_introl eq_refl))) as K. destruct (arg_deep fuel s v) as [s1 [v'|e]]; [|exact K].
    destruct K as (E1 & C1 & V1 & D1 & K1). specialize (IH s1 C1 (fun w W => Nat.lt_le_trans _ _ _ (B w (or_intror W)) (proj1 E1))).
    destruct (run (arg_deep fuel) l s1) as [s2 [l'|e]]; [|eapply ext_trans; eauto].
    destruct IH as (E2 & C2 & D2 & K2). split; [eapply ext_trans; eauto|]. split; auto. split.
    + intros w z [<-|W] Z; [apply D1; exact Z|].
      assert (RE : forall a b, reach s a b -> a < onext s -> reach s1 a b /\ b < onext s).
      { clear - C E1. induction 1 as [r|r q z Q _ IH]; intro L; [split; [constructor|auto]|]. destruct (C r q L Q) as [LQ _]. destruct (IH LQ). split; auto.
        apply reach_step with q; auto. rewrite (proj2 E1 r L). exact Q. }
      destruct (RE w z Z (B w (or_intror W))) as [Z1 Z2]. rewrite <- (proj2 E1 z Z2). apply (D2 w z W Z1).
    + intros sF EF. destruct (K1 sF (ext_trans _ _ _ E2 EF)) as [I1 N1]. destruct (K2 sF EF) as (I2 & N2 & P2). split; [constructor; auto|].
      split; [intros w z [<-|W] Z M; [destruct (N1 z Z M); destruct E2; lia|destruct (N2 w z W Z M); destruct E1; lia]|].
      intros i j a b z IA JB IJ RA RB. destruct (is_mutable (okind (oget sF z))) eqn:M; auto. exfalso.
      destruct i as [|i], j as [|j]; cbn in IA, JB; [lia| | |].
      * injection IA as <-. apply nth_error_In in JB. destruct (N1 z RA M), (N2 b z JB RB M). lia.
      * injection JB as <-. apply nth_error_In in IA. destruct (N1 z RB M), (N2 a z IA RA M). lia.
      * rewrite (P2 i j a b z IA JB) in M; auto. discriminate.
Qed.
(** deepcopy() changes no existing object.  When it returns, the new tree has the shape, tags and
    flags of the original, every value is built like the original value, nothing that can be
    changed is reachable from both trees, nor from two items of the new tree *)
Theorem C97_deepcopy_partial : forall fuel s t, closed s -> (forall v, In v (vals t) -> v < onext s) ->
  match tree_deepcopy fuel s t with
  | (s', Err _) => extends s s'
  | (s', Ok t') => extends s s' /\ skel t' = skel t /\ Forall2 (isomorphic s') (vals t) (vals t') /\
      (forall v z, In v (vals t') -> reach s' v z -> is_mutable (okind (oget s' z)) = true -> onext s <= z) /\
      (forall i j v w z, nth_error (vals t') i = Some v -> nth_error (vals t') j = Some w -> i <> j ->
         reach s' v z -> reach s' w z -> is_mutable (okind (oget s' z)) = false)
  end.
Proof.
  intros fuel s t C B. pose proof (run_deep fuel (vals t) s C B) as K. pose proof (vcopy_run (arg_deep fuel) t s) as V.
  unfold tree_deepcopy. destruct (vcopy (arg_deep fuel) s t) as [s' [t'|e]].
  - destruct V as [V1 V2]. rewrite V1 in K. destruct K as (E & _ & _ & K). destruct (K s' (ext_refl s')) as (I & N & P).
    split; auto. split; auto. split; auto. split; auto. intros v z V Z M. apply (N v z V Z M).
  - rewrite V in K. exact K.
Qed.

(** * Independence *)
Lemma edits_frame roots s s' : edits roots s s' -> forall D : ref -> Prop, (forall q, onext s <= q -> D q) ->
  (forall v z, In v roots -> reach s v z -> is_mutable (okind (oget s z)) = true -> D z) ->
  forall q, ~ D q -> oget s' q = oget s q.
Proof.
  induction 1 as [roots s|roots s r o s' (v0 & V0 & R0') MU KO MEM _ IH|roots s o s' MEM _ IH]; intros D HN HR q Q; auto.
  - assert (DR : D r) by (apply (HR v0 r V0 R0' MU)).
    assert (CL : forall v z, In v roots -> reach (oset s r o) v z -> exists w, In w roots /\ reach s w z).
    { assert (G : forall a z, reach (oset s r o) a z -> (exists w, In w roots /\ reach s w a) -> exists w, In w roots /\ reach s w z).
      { induction 1 as [a|a b z AB _ IH2]; auto. intros (w & W & RW). apply IH2. cbn in AB. destruct (Nat.eqb_spec a r) as [E|_]; [apply MEM; exact AB|].
        exists w. split; auto. clear - RW AB. induction RW as [x|x y z XY _ IH]; [apply reach_step with b; auto; constructor|apply reach_step with y; auto]. }
      intros v z V Z. apply (G v z Z). exists v. split; auto. constructor. }
    rewrite (IH D); auto.
    + cbn. destruct (Nat.eqb_spec q r) as [E|_]; [subst q; contradiction|reflexivity].
    + intros v z V Z M. destruct (CL v z V Z) as (w & W & RW). apply (HR w z W RW). cbn in M. destruct (Nat.eqb_spec z r) as [E|_]; auto. subst z. exact MU.
  - assert (QN : q <> onext s) by (intros ->; apply Q, HN; auto).
    rewrite (IH D); auto; [cbn; destruct (Nat.eqb_spec q (onext s)); [contradiction|reflexivity]|intros z Z; apply HN; cbn in Z; lia|].
    assert (G : forall a z, reach (fst (alloc s o)) a z -> (a = onext s \/ exists w, In w roots /\ reach s w a) -> z = onext s \/ exists w, In w roots /\ reach s w z).
    { induction 1 as [a|a b z AB _ IH2]; auto. intros A. apply IH2. cbn in AB. destruct (Nat.eqb_spec a (onext s)) as [E|NE]; [right; apply MEM; exact AB|].
      destruct A as [A|(w & W & RW)]; [contradiction|]. right. exists w. split; auto.
      clear - RW AB. induction RW as [x|x y z XY _ IH]; [apply reach_step with b; auto; constructor|apply reach_step with y; auto]. }
    intros v z V Z M. destruct (G v z Z) as [->|(w & W & RW)]; [destruct V as [<-|V]; [left; auto|right; exists v; split; auto; constructor]|apply HN; auto|].
    destruct (Nat.eq_dec z (onext s)) as [->|NE]; [apply HN; auto|]. apply (HR w z W RW). cbn in M. destruct (Nat.eqb_spec z (onext s)); [contradiction|exact M].
Qed.
Lemma reach_bound s v z : closed s -> v < onext s -> reach s v z -> z < onext s.
Proof. intros C V H. induction H as [r|r q z Q _ IH]; auto. apply IH. apply (C r q V Q). Qed.
Lemma reach_ext s s' v z : closed s -> extends s s' -> v < onext s -> reach s' v z -> reach s v z.
Proof.
  intros C E V H. induction H as [r|r q z Q _ IH]; [constructor|]. rewrite (proj2 E r V) in Q. apply reach_step with q; auto. apply IH. apply (C r q V Q).
Qed.
(** after deepcopy(), whatever a program does to the values of the new tree changes nothing that
    can be reached from the original tree, and the other way round *)
Theorem C97_deepcopy_independent : forall fuel s t s' t', closed s -> (forall v, In v (vals t) -> v < onext s) ->
  tree_deepcopy fuel s t = (s', Ok t') ->
  (forall s2, edits (vals t') s' s2 -> forall v q, In v (vals t) -> reach s' v q -> oget s2 q = oget s' q) /\
  (forall s2, edits (vals t) s' s2 -> forall v q, In v (vals t') -> reach s' v q -> oget s2 q = oget s' q).
Proof.
  intros fuel s t s' t' C B H. pose proof (run_deep fuel (vals t) s C B) as K. pose proof (vcopy_run (arg_deep fuel) t s) as V.
  unfold tree_deepcopy in H. rewrite H in V. destruct V as [V1 V2]. rewrite V1 in K. destruct K as (E & C' & _ & K).
  destruct (K s' (ext_refl s')) as (I & N & _).
  assert (OLD : forall v q, In v (vals t) -> reach s' v q -> q < onext s).
  { intros v q Q RQ. apply (reach_bound s v q C (B v Q)). apply (reach_ext s s' v q C E (B v Q) RQ). }
  split; intros s2 ED v q Q RQ.
  - apply (edits_frame _ _ _ ED (fun z => onext s <= z)).
    + intros z Z. destruct E; lia.
    + intros w z W RW M. apply (N w z W RW M).
    + pose proof (OLD v q Q RQ). lia.
  - apply (edits_frame _ _ _ ED (fun z => onext s' <= z \/ (z < onext s /\ is_mutable (okind (oget s' z)) = true))).
    + intros z Z. left. exact Z.
    + intros w z W RW M. right. split; [apply (OLD w z W RW)|exact M].
    + intros [X|[X M]].
      * destruct (in_forall2 _ _ _ _ I Q) as (a & _ & (R & RA & RB & _)). destruct (RB _ _ RA) as (_ & BV & _).
        pose proof (reach_bound s' v q C' BV RQ). lia.
      * pose proof (N v q Q RQ M). lia.
Qed.

(** * When deepcopy returns *)
Section total.
Variable s0 : store.
Hypothesis C0 : closed s0.
Variable rank : ref -> nat.
Hypothesis RK : forall r q, r < onext s0 -> In q (omem (oget s0 r)) -> rank q < rank r.
Definition fine (r : ref) : Prop := forall z, reach s0 r z -> okind (oget s0 z) <> KData.
Lemma fine_in r q : fine r -> In q (omem (oget s0 r)) -> fine q.
Proof. intros F Q z Z. apply F. apply reach_step with q; auto. Qed.
Ltac new KD :=
  match goal with |- context [alloc ?s (Obj ?k ?p ?x)] =>
    change (alloc s (Obj k p x)) with (fst (alloc s (Obj k p x)), onext s); cbv iota beta;
    destruct (KD k eq_refl eq_refl eq_refl ltac:(discriminate) p) as (s2 & m2 & ys & E);
    match goal with |- context [deep_list ?a ?b ?c ?d] => change (deep_list a b c d = (s2, m2, Ok ys)) in E end; rewrite E; eauto end.
Lemma deep_total f : forall r s m op, r < onext s0 -> Inv s0 s m op -> rank r < f -> fine r ->
  exists s' m' y, deep f r s m = (s', m', Ok y).
Proof.
  induction f as [|f IH]; intros r s m op R I K F; [lia|].
  assert (L : forall l s m op, (forall x, In x l -> x < onext s0 /\ rank x < f /\ fine x) -> Inv s0 s m op ->
    exists s' m' ys, deep_list (deep f) l s m = (s', m', Ok ys)).
  { induction l as [|x l IHl]; intros s1 m1 op1 B I1; cbn [deep_list]; [eauto|].
    destruct (B x (or_introl eq_refl)) as (X1 & X2 & X3). destruct (IH x s1 m1 op1 X1 I1 X2 X3) as (s2 & m2 & y & E).
    pose proof (deep_good s0 C0 f x s1 m1 op1 X1 I1) as P. rewrite E in *. destruct P as (I2 & _).
    destruct (IHl s2 m2 op1 (fun z Z => B z (or_intror Z)) I2) as (s3 & m3 & ys & E3). rewrite E3. eauto. }
  assert (M : forall x, In x (omem (oget s0 r)) -> x < onext s0 /\ rank x < f /\ fine x).
  { intros x X. split; [apply (C0 r x R X)|]. split; [specialize (RK r x R X); lia|apply (fine_in r x F X)]. }
  assert (NEW : forall k, okind (oget s0 r) = k -> mlook r m = None -> is_mutable k = true -> k <> KData -> forall p,
    exists s' m' ys, deep_list (deep f) (omem (oget s0 r)) (fst (alloc s (Obj k p []))) ((r, onext s) :: m) = (s', m', Ok ys)).
  { intros k KD ML MU ND p. apply (L _ _ _ (onext s :: op) M). apply inv_alloc; auto; [apply inv_open; auto| |congruence|apply mlook_none; auto|intros q []|left; left; reflexivity].
    intro FZ; destruct FZ as [x E|x E _]; rewrite E in KD; subst k; discriminate. }
  cbn [deep]. destruct (mlook r m) as [r'|] eqn:ML; [eauto|].
  assert (OR : oget s r = oget s0 r) by (apply (proj2 (i_ext _ _ _ _ I)); exact R). rewrite OR.
  destruct (okind (oget s0 r)) eqn:KD; try (eauto; fail).
  - destruct (L _ s m op M I) as (s1 & m1 & ys & E). rewrite E. destruct (mlook r m1); [eauto|]. destruct (list_eq_dec _ _ _); [eauto|].
    cbn. eauto.
  - new NEW.
  - new NEW.
  - new NEW.
  - exfalso. apply (F r); [constructor|exact KD].
  - new NEW.
Qed.
End total.

(** without cycles and without iTData inside the values, deepcopy() returns (given enough stack) *)
Theorem C97_deepcopy_returns : forall s t rank, closed s -> (forall v, In v (vals t) -> v < onext s) ->
  (forall r q, r < onext s -> In q (omem (oget s r)) -> rank q < rank r) ->
  (forall v z, In v (vals t) -> reach s v z -> okind (oget s z) <> KData) ->
  forall fuel, (forall v, In v (vals t) -> rank v < fuel) -> exists s' t', tree_deepcopy fuel s t = (s', Ok t').
Proof.
  intros s t rank C B RK ND fuel FU.
  assert (G : forall l sk, extends s sk -> closed sk -> (forall v, In v l -> v < onext s /\ rank v < fuel /\ forall z, reach s v z -> okind (oget s z) <> KData) ->
    exists s' l', run (arg_deep fuel) l sk = (s', Ok l')).
  { induction l as [|v l IH]; intros sk E CK H; cbn [run]; [eauto|]. destruct (H v (or_introl eq_refl)) as (V1 & V2 & V3).
    assert (I : Inv s sk [] []) by (constructor; auto; [intros a b []|intros a b a' b' []|intros a b []]).
    destruct (deep_total s C rank RK fuel v sk [] [] V1 I V2 V3) as (s1 & m1 & y & D).
    pose proof (item_deep fuel sk v CK (Nat.lt_le_trans _ _ _ V1 (proj1 E))) as K. unfold arg_deep, py_deepcopy in *. rewrite D in *.
    destruct K as (E1 & C1 & _). destruct (IH s1 (ext_trans _ _ _ E E1) C1 (fun w W => H w (or_intror W))) as (s2 & l' & R).
    change (fun s r => let '(s', _, a) := deep fuel r s [] in (s', a)) with (fun s r => py_deepcopy fuel s r) in R.
    exists s2, (y :: l'). unfold arg_deep, py_deepcopy in R. rewrite R. reflexivity. }
  destruct (G (vals t) s (ext_refl s) C) as (s' & l' & R).
  { intros v V. split; auto. split; auto. intros z Z. apply (ND v z V Z). }
  pose proof (vcopy_run (arg_deep fuel) t s) as V. unfold tree_deepcopy. destruct (vcopy (arg_deep fuel) s t) as [s2 [t'|e]]; [eauto|].
  rewrite R in V. discriminate.
Qed.

(** * Where the claim fails *)
(** deepcopy() never returns if an iTData object is inside one of the values *)
Theorem C97_deepcopy_data_refuted :
  (forall fuel s t v z s' t', closed s -> (forall v, In v (vals t) -> v < onext s) -> In v (vals t) -> reach s v z -> okind (oget s z) = KData ->
     tree_deepcopy fuel s t <> (s', Ok t')) /\
  (exists s t, closed s /\ (forall v, In v (vals t) -> v < onext s) /\ snd (tree_deepcopy 10 s t) = Err TypeError).
Proof.
  split.
  - intros fuel s t v z s' t' C B V Z K H. pose proof (run_deep fuel (vals t) s C B) as G. pose proof (vcopy_run (arg_deep fuel) t s) as W.
    unfold tree_deepcopy in H. rewrite H in W. destruct W as [W _]. rewrite W in G. destruct G as (_ & _ & D & _). apply (D v z V Z K).
  - exists (Store 1 (fun _ => Obj KData PNone [])), (VT (PStr "a") 0 0%Z []). split; [intros r q _ []|]. split; [intros v [<-|[]]; cbn; lia|reflexivity].
Qed.
(** copy() of an item with an iTData value: the same iTData object is in both trees, a change in one
    is a change in the other (the documentation says the iTData object is copied) *)
Theorem C97_copy_data_refuted : exists s t t' s2, closed s /\ (forall v, In v (vals t) -> v < onext s) /\
  okind (oget s (vt_val t)) = KData /\ tree_copy s t = (s, Ok t') /\
  edits (vals t') s s2 /\ oget s2 (vt_val t) <> oget s (vt_val t).
Proof.
  pose (s := Store 2 (fun r => if Nat.eqb r 0 then Obj KData (PStr "k") [1] else Obj KAtom (PInt 7) [])).
  exists s, (VT (PStr "a") 0 0%Z []), (VT (PStr "a") 0 0%Z []), (oset s 0 (Obj KData PNone [])).
  split; [intros [|[|r]] q R Q; cbn in *; try lia; destruct Q as [<-|[]]; split; [lia|discriminate]|].
  split; [intros v [<-|[]]; cbn; lia|]. split; [reflexivity|]. split; [reflexivity|]. split.
  - apply ed_set with (r := 0) (o := Obj KData PNone []); [exists 0; split; [left; reflexivity|constructor]|reflexivity|reflexivity|intros q []|constructor].
  - discriminate.
Qed.
(** copy() of an item with a list inside a list: the inner list is in both trees *)
Theorem C97_copy_inner_refuted : exists s t s' t' s2, closed s /\ (forall v, In v (vals t) -> v < onext s) /\
  tree_copy s t = (s', Ok t') /\ edits (vals t') s' s2 /\
  exists q, reach s (vt_val t) q /\ oget s2 q <> oget s q.
Proof.
  pose (s := Store 2 (fun r => if Nat.eqb r 0 then Obj KList PNone [1] else Obj KList PNone [])).
  exists s, (VT (PStr "a") 0 0%Z []), (fst (tree_copy s (VT (PStr "a") 0 0%Z []))), (VT (PStr "a") 2 0%Z []).
  exists (oset (fst (tree_copy s (VT (PStr "a") 0 0%Z []))) 1 (Obj KList PNone [1])).
  split; [intros [|[|r]] q R Q; cbn in *; try lia; destruct Q as [<-|[]]; split; [lia|discriminate]|].
  split; [intros v [<-|[]]; cbn; lia|]. split; [reflexivity|]. 
  assert (R1 : reach (fst (tree_copy s (VT (PStr "a") 0 0%Z []))) 2 1) by (apply reach_step with 1; [left; reflexivity|constructor]). split.
  - apply ed_set with (r := 1) (o := Obj KList PNone [1]); [exists 2; split; [left; reflexivity|exact R1]|reflexivity|reflexivity| |constructor].
    intros q [<-|[]]. exists 2. split; [left; reflexivity|exact R1].
  - exists 1. split; [apply reach_step with 1; [left; reflexivity|constructor]|discriminate].
Qed.

(** two items with the same list [7, [7]], one with a dict holding a tuple holding the inner list *)
Definition ex_store : store := Store 5 (fun r => match r with
  | 0 => Obj KAtom (PInt 7) [] | 1 => Obj KList PNone [0] | 2 => Obj KList PNone [0; 1]
  | 3 => Obj KTuple PNone [0; 1] | _ => Obj KDict (PStr "k") [3; 2] end).
Definition ex_vtree : vtree := VT (PStr "r") 2 0%Z [VT (PStr "a") 2 0%Z []; VT (PStr "b") 4 16%Z []].
Example C97_case : closed ex_store /\ (forall v, In v (vals ex_vtree) -> v < onext ex_store) /\
  (forall r q, r < onext ex_store -> In q (omem (oget ex_store r)) -> q < r) /\
  (forall v z, In v (vals ex_vtree) -> reach ex_store v z -> okind (oget ex_store z) <> KData) /\
  option_map vals (match snd (tree_deepcopy 9 ex_store ex_vtree) with Ok t => Some t | _ => None end) = Some [5; 7; 9] /\
  option_map vals (match snd (tree_copy ex_store ex_vtree) with Ok t => Some t | _ => None end) = Some [5; 6; 7].
Proof.
  assert (RK : forall r q, r < 5 -> In q (omem (oget ex_store r)) -> q < r).
  { intros r q R Q. do 5 (destruct r as [|r]; [cbn in Q; repeat (destruct Q as [<-|Q]; [lia|]); destruct Q|]). lia. }
  assert (C : closed ex_store).
  { intros r q R Q. pose proof (RK r q R Q). split; [cbn in *; lia|]. destruct r as [|r]; [destruct Q|]. do 3 (destruct r as [|r]; [discriminate|]). discriminate. }
  assert (B : forall v, In v (vals ex_vtree) -> v < 5) by (intros v V; cbn in V; repeat (destruct V as [<-|V]; [lia|]); destruct V).
  split; auto. split; [exact B|]. split; [exact RK|]. split; [|split; reflexivity].
  intros v z V Z. pose proof (reach_bound ex_store v z C (B v V) Z) as L. cbn in L.
  do 5 (destruct z as [|z]; [discriminate|]). lia.
Qed.
