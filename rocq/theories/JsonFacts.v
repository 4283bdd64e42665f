(** Round trip of the value codec. *)
From Verif Require Import Base Heap JsonModel.
Import ListNotations.
Open Scope string_scope.
Open Scope list_scope.

(** Serialisable values: no user objects; set elements and dictionary keys are hashable and
    occur once (as in any Python set / dictionary). *)
Inductive serialisable : pyval -> Prop :=
| ser_const v : In v [PNoTag; PNoValue; PNoKey; PAny; PNone] -> serialisable v
| ser_bool b : serialisable (PBool b)
| ser_int z : serialisable (PInt z)
| ser_float t : serialisable (PFloat t)
| ser_str s : serialisable (PStr s)
| ser_bytes s : serialisable (PBytes s)
| ser_tuple l : Forall serialisable l -> serialisable (PTuple l)
| ser_list l : Forall serialisable l -> serialisable (PList l)
| ser_deque l : Forall serialisable l -> serialisable (PDeque l)
| ser_set l : Forall serialisable l -> NoDup l -> Forall (fun x => hashable x = true) l -> serialisable (PSet l)
| ser_dict l : Forall (fun kv => serialisable (fst kv) /\ serialisable (snd kv)) l -> NoDup (map fst l) ->
    Forall (fun k => hashable k = true) (map fst l) -> serialisable (PDict l)
| ser_odict l : Forall (fun kv => serialisable (fst kv) /\ serialisable (snd kv)) l -> NoDup (map fst l) ->
    Forall (fun k => hashable k = true) (map fst l) -> serialisable (PODict l).

Lemma mk_bytes_ints s : mk_bytes (byte_ints s) = Ok s.
Proof.
  unfold byte_ints. induction s as [|c s IH]; [reflexivity|]. cbn [list_ascii_of_string map mk_bytes].
  assert (B : (Ascii.N_of_ascii c < 256)%N) by apply Ascii.N_ascii_bounded.
  replace ((0 <=? Z.of_N (Ascii.N_of_ascii c)) && (Z.of_N (Ascii.N_of_ascii c) <? 256))%Z with true.
  - rewrite IH. cbn [rbind]. rewrite N2Z.id, Ascii.ascii_N_embedding. reflexivity.
  - symmetry. apply andb_true_iff. split; [apply Z.leb_le; lia|apply Z.ltb_lt; lia].
Qed.

Lemma mk_set_id l : forall s, NoDup (s ++ l) -> Forall (fun x => hashable x = true) l -> mk_set s l = Ok (s ++ l).
Proof.
  induction l as [|x l IH]; intros s ND H; cbn [mk_set]; [rewrite app_nil_r; reflexivity|].
  inversion H as [|? ? Hx Hl]; subst. rewrite Hx.
  assert (E : existsb (pyval_eqb x) s = false).
  { destruct (existsb (pyval_eqb x) s) eqn:E; [|reflexivity]. apply existsb_exists in E. destruct E as (y & Hy & E).
    apply pyval_eqb_eq in E. subst y. apply NoDup_remove_2 in ND. exfalso. apply ND, in_or_app. left; exact Hy. }
  rewrite E, IH; [rewrite <- app_assoc; reflexivity| |exact Hl]. rewrite <- app_assoc. exact ND.
Qed.

Lemma put_new d k v : ~ In k (map fst d) -> put d k v = d ++ [(k, v)].
Proof.
  induction d as [|[k' v'] d IH]; intros H; [reflexivity|]. cbn [put app]. cbn in H.
  destruct (pyval_eqb_spec k' k) as [->|]; [tauto|]. rewrite IH by tauto. reflexivity.
Qed.
Lemma mk_dict_id l : forall d, NoDup (map fst (d ++ l)) -> Forall (fun k => hashable k = true) (map fst l) -> mk_dict d l = Ok (d ++ l).
Proof.
  induction l as [|[k v] l IH]; intros d ND H; cbn [mk_dict]; [rewrite app_nil_r; reflexivity|].
  inversion H as [|? ? Hx Hl]; subst. cbn [fst] in Hx. rewrite Hx.
  assert (N : ~ In k (map fst d)).
  { rewrite map_app in ND. cbn in ND. apply NoDup_remove_2 in ND. intros X. apply ND, in_or_app. left; exact X. }
  rewrite put_new by exact N. rewrite IH; [rewrite <- app_assoc; reflexivity| |exact Hl]. rewrite <- app_assoc. exact ND.
Qed.

Definition codec_ok (v : pyval) : Prop := exists j, to_json v = Ok j /\ from_json j = Ok v.

Lemma map_codec l : Forall codec_ok l -> exists js, map_res to_json l = Ok js /\ map_res from_json js = Ok l.
Proof.
  induction 1 as [|v l (j & E1 & E2) _ (js & E3 & E4)]; [exists []; auto|].
  exists (j :: js). cbn [map_res]. rewrite E1, E2. cbn [rbind]. rewrite E3, E4. auto.
Qed.

Definition dict_to : list (pyval * pyval) -> res (list json) :=
  fix go (l : list (pyval * pyval)) : res (list json) :=
    match l with
    | [] => Ok []
    | (k, x) :: r => rbind (to_json k) (fun jk => rbind (to_json x) (fun jx => rbind (go r) (fun js => Ok (JList [jk; jx] :: js))))
    end.
Definition dict_from : list json -> res (list (pyval * pyval)) :=
  fix go (l : list json) : res (list (pyval * pyval)) :=
    match l with
    | [] => Ok []
    | JList [k; x] :: r => rbind (from_json k) (fun pk => rbind (from_json x) (fun px => rbind (go r) (fun ps => Ok ((pk, px) :: ps))))
    | _ :: _ => Err ValueError
    end.
Lemma dict_codec l : Forall (fun kv => codec_ok (fst kv) /\ codec_ok (snd kv)) l -> exists js, dict_to l = Ok js /\ dict_from js = Ok l.
Proof.
  induction 1 as [|[k v] l [(j & E1 & E2) (i & F1 & F2)] _ (js & E3 & E4)]; [exists []; auto|]. cbn [fst snd] in *.
  exists (JList [j; i] :: js). cbn [dict_to dict_from]. rewrite E1, E2, F1, F2. cbn [rbind]. rewrite E3, E4. auto.
Qed.

Lemma codec : forall v, serialisable v -> codec_ok v.
Proof.
  induction v as [| | | | |b|z|t|s|s|l IH|l IH|l IH|l IH|l IH|l IH|n] using pyval_ind'; intros S;
    try (eexists; split; reflexivity).
  - eexists. split; [reflexivity|]. change (rbind (mk_bytes (byte_ints s)) (fun s => Ok (PBytes s)) = Ok (PBytes s)).
    rewrite mk_bytes_ints. reflexivity.
  - inversion S as [? Hi| | | | | |? Hl| | | | |]; subst; [cbn in Hi; intuition discriminate|].
    destruct (map_codec l) as (js & E1 & E2). { rewrite Forall_forall in *. intros x Hx. apply IH; [exact Hx|]. apply Hl; exact Hx. }
    exists (JList [JList js; ITER_TYPE; JStr "tuple"]). cbn [to_json from_json ITER_TYPE]. rewrite E1, E2. auto.
  - inversion S as [? Hi| | | | | | |? Hl| | | |]; subst; [cbn in Hi; intuition discriminate|].
    destruct (map_codec l) as (js & E1 & E2). { rewrite Forall_forall in *. intros x Hx. apply IH; [exact Hx|]. apply Hl; exact Hx. }
    exists (JList [JList js; ITER_TYPE; JStr "list"]). cbn [to_json from_json ITER_TYPE]. rewrite E1, E2. auto.
  - inversion S as [? Hi| | | | | | | |? Hl| | |]; subst; [cbn in Hi; intuition discriminate|].
    destruct (map_codec l) as (js & E1 & E2). { rewrite Forall_forall in *. intros x Hx. apply IH; [exact Hx|]. apply Hl; exact Hx. }
    exists (JList [JList js; ITER_TYPE; JStr "deque"]). cbn [to_json from_json ITER_TYPE]. rewrite E1, E2. auto.
  - inversion S as [? Hi| | | | | | | | |? Hl HN HH| |]; subst; [cbn in Hi; intuition discriminate|].
    destruct (map_codec l) as (js & E1 & E2). { rewrite Forall_forall in *. intros x Hx. apply IH; [exact Hx|]. apply Hl; exact Hx. }
    exists (JList [JList js; ITER_TYPE; JStr "set"]). cbn [to_json from_json ITER_TYPE]. rewrite E1, E2. split; [reflexivity|].
    cbn [rbind]. change (rbind (mk_set [] l) (fun l => Ok (PSet l)) = Ok (PSet l)). rewrite mk_set_id by assumption. reflexivity.
  - inversion S as [? Hi| | | | | | | | | |? Hl HN HH|]; subst; [cbn in Hi; intuition discriminate|].
    destruct (dict_codec l) as (js & E1 & E2). { rewrite Forall_forall in *. intros x Hx. destruct (IH x Hx), (Hl x Hx). auto. }
    exists (JList [JList js; DICT_TYPE; JStr "dict"]). split.
    + change (rbind (dict_to l) (fun js => Ok (JList [JList js; DICT_TYPE; JStr "dict"])) = Ok (JList [JList js; DICT_TYPE; JStr "dict"])).
      rewrite E1. reflexivity.
    + change (rbind (dict_from js) (mk_map "dict") = Ok (PDict l)). rewrite E2.
      change (rbind (mk_dict [] l) (fun d => Ok (PDict d)) = Ok (PDict l)). rewrite mk_dict_id by assumption. reflexivity.
  - inversion S as [? Hi| | | | | | | | | | |? Hl HN HH]; subst; [cbn in Hi; intuition discriminate|].
    destruct (dict_codec l) as (js & E1 & E2). { rewrite Forall_forall in *. intros x Hx. destruct (IH x Hx), (Hl x Hx). auto. }
    exists (JList [JList js; DICT_TYPE; JStr "OrderedDict"]). split.
    + change (rbind (dict_to l) (fun js => Ok (JList [JList js; DICT_TYPE; JStr "OrderedDict"])) = Ok (JList [JList js; DICT_TYPE; JStr "OrderedDict"])).
      rewrite E1. reflexivity.
    + change (rbind (dict_from js) (mk_map "OrderedDict") = Ok (PODict l)). rewrite E2.
      change (rbind (mk_dict [] l) (fun d => Ok (PODict d)) = Ok (PODict l)). rewrite mk_dict_id by assumption. reflexivity.
  - inversion S as [? Hi| | | | | | | | | | |]; subst. cbn in Hi; intuition discriminate.
Qed.

(** Everything that contains a user object is rejected. *)
Inductive holds_obj : pyval -> Prop :=
| ho_obj n : holds_obj (PObj n)
| ho_iter v l x : In v [PTuple l; PList l; PDeque l; PSet l] -> In x l -> holds_obj x -> holds_obj v
| ho_dict v l k x y : In v [PDict l; PODict l] -> In (k, x) l -> y = k \/ y = x -> holds_obj y -> holds_obj v.

Lemma to_json_err v e : to_json v = Err e -> e = TypeError.
Proof.
  revert e.
  assert (MR : forall l, Forall (fun v => forall e, to_json v = Err e -> e = TypeError) l -> forall e, map_res to_json l = Err e -> e = TypeError).
  { induction 1 as [|x l Hx _ IHl]; intros e; cbn [map_res]; [discriminate|]. destruct (to_json x) eqn:E; cbn [rbind]; [|intros [= <-]; auto].
    destruct (map_res to_json l) eqn:E2; cbn [rbind]; [discriminate|intros [= <-]; auto]. }
  assert (DR : forall l, Forall (fun kv => (forall e, to_json (fst kv) = Err e -> e = TypeError) /\ (forall e, to_json (snd kv) = Err e -> e = TypeError)) l ->
     forall e, dict_to l = Err e -> e = TypeError).
  { induction 1 as [|[k x] l [Hk Hx] _ IHl]; intros e; cbn [dict_to]; [discriminate|]. cbn [fst snd] in *.
    destruct (to_json k) eqn:E; cbn [rbind]; [|intros [= <-]; auto]. destruct (to_json x) eqn:E1; cbn [rbind]; [|intros [= <-]; auto].
    destruct (dict_to l) eqn:E2; cbn [rbind]; [discriminate|intros [= <-]; auto]. }
  induction v as [| | | | |b|z|t|s|s|l IH|l IH|l IH|l IH|l IH|l IH|n] using pyval_ind'; intros e; try discriminate;
    try (cbn [to_json]; destruct (map_res to_json l) eqn:E; cbn [rbind]; [discriminate|intros [= <-]; eapply MR; eassumption]).
  - change (to_json (PDict l)) with (rbind (dict_to l) (fun js => Ok (JList [JList js; DICT_TYPE; JStr "dict"]))).
    destruct (dict_to l) eqn:E; cbn [rbind]; [discriminate|intros [= <-]; eapply DR; eassumption].
  - change (to_json (PODict l)) with (rbind (dict_to l) (fun js => Ok (JList [JList js; DICT_TYPE; JStr "OrderedDict"]))).
    destruct (dict_to l) eqn:E; cbn [rbind]; [discriminate|intros [= <-]; eapply DR; eassumption].
  - intros [= <-]. reflexivity.
Qed.

Lemma to_json_obj v : holds_obj v -> to_json v = Err TypeError.
Proof.
  assert (MR : forall l x, In x l -> to_json x = Err TypeError -> map_res to_json l = Err TypeError).
  { induction l as [|y l IH]; intros x Hx E; [destruct Hx|]. cbn [map_res]. destruct (to_json y) as [j|e] eqn:Ey; cbn [rbind].
    - destruct Hx as [->|Hx]; [congruence|]. rewrite (IH x Hx E). reflexivity.
    - apply to_json_err in Ey. subst. reflexivity. }
  assert (DR : forall l k x, In (k, x) l -> to_json k = Err TypeError \/ to_json x = Err TypeError -> dict_to l = Err TypeError).
  { induction l as [|[k' x'] l IH]; intros k x Hx E; [destruct Hx|]. cbn [dict_to]. destruct (to_json k') as [j|e] eqn:Ey; cbn [rbind].
    - destruct (to_json x') as [j'|e] eqn:Ex; cbn [rbind].
      + destruct Hx as [[= -> ->]|Hx]; [destruct E; congruence|]. rewrite (IH k x Hx E). reflexivity.
      + apply to_json_err in Ex. subst. reflexivity.
    - apply to_json_err in Ey. subst. reflexivity. }
  induction 1 as [n|v l x Hv Hx _ IH|v l k x y Hv Hx Hy _ IH].
  - reflexivity.
  - destruct Hv as [<-|[<-|[<-|[<-|[]]]]]; cbn [to_json]; rewrite (MR l x Hx IH); reflexivity.
  - assert (E : dict_to l = Err TypeError) by (apply (DR l k x Hx); destruct Hy; subst; auto).
    destruct Hv as [<-|[<-|[]]].
    + change (rbind (dict_to l) (fun js => Ok (JList [JList js; DICT_TYPE; JStr "dict"])) = Err TypeError). rewrite E. reflexivity.
    + change (rbind (dict_to l) (fun js => Ok (JList [JList js; DICT_TYPE; JStr "OrderedDict"])) = Err TypeError). rewrite E. reflexivity.
Qed.
