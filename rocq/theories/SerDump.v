(** What [dumps] writes. *)
From Verif Require Import Base Heap HeapSpec ListLemmas ForestLemmas HeapInv HeapOrd Tree HeapTree HeapCopy History Deep DeepSpec DeepProofs
  JsonModel JsonFacts SerModel SerNew SerLoad SerBuild.
Import ListNotations.
Open Scope list_scope.
Local Open Scope Z_scope.

(** The tree of delivered items below a delivered item. *)
Inductive dtree (h : heap) (f : option (ditem -> bool)) : tree ditem -> Prop :=
| dt_item x cs : map root cs = keep f (d_kids h x) -> Forall (dtree h f) cs -> dtree h f (Node (DItem x) cs)
| dt_place t k : dtree h f (Node (DPlace t k) []).

Section Out.
  Context (h : heap).
  Fixpoint dout (d k : Z) (D : tree ditem) : list (Z * Z * ditem) :=
    match D with
    | Node i cs => (d, k, i) :: (fix go (s : list pyval) (cs : list (tree ditem)) : list (Z * Z * ditem) :=
        match cs with
        | [] => []
        | c :: r => dout (d + 1) (count_tag (d_tag h (root c)) s) c ++ go (d_tag h (root c) :: s) r
        end) [] cs
    end.
  Fixpoint dforest (d : Z) (s : list pyval) (cs : list (tree ditem)) : list (Z * Z * ditem) :=
    match cs with
    | [] => []
    | c :: r => dout d (count_tag (d_tag h (root c)) s) c ++ dforest d (d_tag h (root c) :: s) r
    end.
  Lemma dout_node d k i cs : dout d k (Node i cs) = (d, k, i) :: dforest (d + 1) [] cs.
  Proof.
    cbn [dout]. f_equal. generalize (@nil pyval). induction cs as [|c cs IH]; intros s; [reflexivity|]. cbn [dforest]. f_equal. apply IH.
  Qed.
End Out.

Lemma dtree_ind' h f (P : tree ditem -> Prop) :
  (forall x cs, map root cs = keep f (d_kids h x) -> Forall P cs -> P (Node (DItem x) cs)) -> (forall t k, P (Node (DPlace t k) [])) ->
  forall D, dtree h f D -> P D.
Proof.
  intros H1 H2. induction D as [i cs IH] using tree_ind'. intros HD. inversion HD as [x ? E F|]; subst; [|apply H2]. apply H1; [exact E|].
  rewrite Forall_forall in *. intros c Hc. apply IH; [exact Hc|]. apply F; exact Hc.
Qed.

Definition dumped h f D := forall l r d s seen, exists k, (k <= 3 * size D)%nat /\
  steps (step_dump h f) k (DIt (root D :: l) :: r, d, s :: seen) (dout h d (count_tag (d_tag h (root D)) s) D) (DIt l :: r, d, (d_tag h (root D) :: s) :: seen).
Lemma dumped_list h f cs : Forall (dumped h f) cs -> forall r d s seen, exists k s', (k <= 3 * sizes cs)%nat /\
  steps (step_dump h f) k (DIt (map root cs) :: r, d, s :: seen) (dforest h d s cs) (DIt [] :: r, d, s' :: seen).
Proof.
  induction 1 as [|c cs Hc _ IH]; intros r d s seen; [exists 0%nat, s; split; [cbn; lia|constructor]|].
  destruct (Hc (map root cs) r d s seen) as (k1 & B1 & S1). destruct (IH r d (d_tag h (root c) :: s) seen) as (k2 & s' & B2 & S2).
  exists (k1 + k2)%nat, s'. split; [rewrite sizes_cons; lia|]. cbn [map dforest]. eapply steps_trans; eassumption.
Qed.
Lemma dumped_all h f D : dtree h f D -> dumped h f D.
Proof.
  revert D. apply dtree_ind'.
  - intros x cs E F l r d s seen. rewrite dout_node. cbn [root d_tag]. destruct (nitems (hnode h x)) as [|c0 l0] eqn:En.
    + assert (Ec : cs = []). { unfold d_kids, locals_add_placeholders in E. rewrite En in E. assert (K : map root cs = []) by (destruct (is_link_root h x), f; exact E). destruct cs; [reflexivity|discriminate]. }
      subst cs. exists 1%nat. split; [cbn; lia|]. apply steps1. cbn [step_dump]. rewrite En. reflexivity.
    + destruct (dumped_list h f cs F (DEnd :: DIt l :: r) (d + 1) [] ((ntag (hnode h x) :: s) :: seen)) as (k & s' & B & S).
      exists (1 + (k + 2))%nat. split; [rewrite size_node; lia|].
      eapply (steps_trans _ 1 _ [(d, count_tag (ntag (hnode h x)) s, DItem x)]).
      * apply steps1. cbn [step_dump]. rewrite En. cbn [nonnil]. rewrite <- E. reflexivity.
      * rewrite <- (app_nil_r (dforest _ _ _ _)). eapply steps_trans; [exact S|].
        eapply (stepsS _ _ [] _ 1 []); [reflexivity|]. replace d with (d + 1 - 1) at 2 by lia. apply steps1. reflexivity.
  - intros t k l r d s seen. exists 1%nat. split; [cbn; lia|]. apply steps1. reflexivity.
Qed.

(** the whole generator *)
Lemma deep_locals_ok h f x cs n : map root cs = keep f (map DItem (nitems (hnode h x))) -> Forall (dtree h f) cs -> (3 * sizes cs + 2 < n)%nat ->
  deep_locals h f n x = Some (dforest h 1 [] cs, None).
Proof.
  intros E F Hn. unfold deep_locals. destruct (nitems (hnode h x)) as [|c0 l0] eqn:En; cbn [nonnil].
  - assert (Ec : cs = []) by (destruct cs; [reflexivity|destruct f; discriminate]). subst cs. cbn [dforest].
    apply (run_done (step_dump h f) 0 ([], 1, [[]]) [] ([], 1, [[]]) n); [constructor|reflexivity|lia].
  - destruct (dumped_list h f cs) with (r := @nil dent) (d := 1) (s := @nil pyval) (seen := @nil (list pyval)) as (k & s' & B & S).
    { eapply Forall_impl; [|exact F]. intros D. apply dumped_all. }
    eapply (run_done (step_dump h f) (k + 1)); [| |].
    + rewrite <- (app_nil_r (dforest _ _ _ _)). rewrite <- E. eapply steps_trans; [exact S|]. apply steps1. reflexivity.
    + reflexivity.
    + lia.
Qed.

(** ** Rows *)
Definition writable (h : heap) (i : ditem) (a : rowargs) : Prop :=
  args_skip_subtree h i = Ok a /\ serialisable (ra_tag a) /\ serialisable (ra_val a).
Lemma args_codec a d k : serialisable (ra_tag a) -> serialisable (ra_val a) ->
  exists l, args_json a = Ok l /\ row_args (d :: k :: l) = Ok a.
Proof.
  intros St Sv. destruct (codec _ St) as (jt & T1 & T2), (codec _ Sv) as (jv & V1 & V2). unfold args_json. rewrite T1, V1. cbn [rbind].
  destruct a as [t v lk fl]. cbn [ra_tag ra_val ra_link ra_flags] in *. destruct lk as [s|].
  - eexists. split; [reflexivity|]. destruct (Z.eqb_spec fl 0) as [->|N].
    + cbn [app row_args]. rewrite T2, V2. cbn [rbind conv_link link_json IT_TYPE]. rewrite Nat2Z.id. reflexivity.
    + cbn [app row_args]. rewrite T2, V2. cbn [rbind conv_link link_json IT_TYPE]. rewrite Nat2Z.id. reflexivity.
  - eexists. split; [reflexivity|]. destruct (Z.eqb_spec fl 0) as [->|N].
    + cbn [app row_args]. rewrite T2, V2. reflexivity.
    + cbn [app row_args]. rewrite T2, V2. reflexivity.
Qed.

Inductive writes (h : heap) : tree ditem -> tree rowargs -> Prop :=
| wr i a cs As : writable h i a -> arg_good a -> Forall2 (writes h) cs As -> writes h (Node i cs) (Node a As).

Lemma map_res_app {A B} (g : A -> res B) l m a b : map_res g l = Ok a -> map_res g m = Ok b -> map_res g (l ++ m) = Ok (a ++ b).
Proof.
  revert a. induction l as [|x l IH]; intros a; cbn [map_res app]; [intros [= <-] ->; reflexivity|].
  destruct (g x); cbn [rbind]; [|discriminate]. destruct (map_res g l) eqn:E; cbn [rbind]; [|discriminate]. intros [= <-] Hm. rewrite (IH _ eq_refl Hm). reflexivity.
Qed.
Definition row_ok h D := forall A n k, writes h D A -> exists R, map_res (row_json h) (dout h (Z.of_nat n) k D) = Ok (flatten R) /\ at_depth n R /\ rows_good R A.
Lemma row_forest h cs : Forall (row_ok h) cs -> forall As n s, Forall2 (writes h) cs As ->
  exists Rs, map_res (row_json h) (dforest h (Z.of_nat n) s cs) = Ok (flat_map flatten Rs) /\ Forall (at_depth n) Rs /\ Forall2 rows_good Rs As.
Proof.
  induction 1 as [|c cs Hc _ IH]; intros As n s HW; inversion HW as [|? A ? As' W1 W2]; subst.
  - exists []. repeat split; constructor.
  - destruct (Hc A n (count_tag (d_tag h (root c)) s) W1) as (R & E1 & D1 & G1). destruct (IH As' n (d_tag h (root c) :: s) W2) as (Rs & E2 & D2 & G2).
    exists (R :: Rs). split; [cbn [dforest flat_map]; apply map_res_app; assumption|]. split; constructor; assumption.
Qed.
Lemma rows_all h D : row_ok h D.
Proof.
  induction D as [i cs IH] using tree_ind'. intros A n k HW. inversion HW as [? a ? As (Ea & St & Sv) G F]; subst.
  destruct (row_forest h cs IH As (S n) [] F) as (Rs & E & D & GR).
  destruct (args_codec a (JInt (Z.of_nat n)) (JInt k) St Sv) as (l & El & Er).
  exists (Node (JInt (Z.of_nat n) :: JInt k :: l) Rs). rewrite dout_node. split.
  - cbn [map_res row_json]. rewrite Ea. cbn [rbind]. rewrite El. cbn [rbind]. replace (Z.of_nat n + 1) with (Z.of_nat (S n)) by lia. rewrite E. reflexivity.
  - split; [apply at_depth_iff; split; [eexists; reflexivity|exact D]|]. constructor; assumption.
Qed.

(** ** Text *)
Lemma parse_join l : forall r rest, parse_docs (join_docs (r :: l) ++ TClose :: rest) = Ok (r :: l, rest).
Proof.
  induction l as [|r2 l IH]; intros r rest; [reflexivity|]. change (join_docs (r :: r2 :: l)) with (TDoc r :: TComma :: join_docs (r2 :: l)).
  cbn [app parse_docs]. rewrite IH. reflexivity.
Qed.
Definition text_of (r0 : row) (rows : list row) : list tok := [TOpen; TDoc r0; TComma] ++ join_docs rows ++ [TClose].
Lemma parse_text r0 r rows rest : parse_list (text_of r0 (r :: rows) ++ rest) = Ok (r0 :: r :: rows, rest).
Proof. unfold text_of. cbn [app parse_list parse_docs]. rewrite <- app_assoc. cbn [app]. rewrite parse_join. reflexivity. Qed.
Lemma parse_text_nil r0 rest : parse_list (text_of r0 [] ++ rest) = Err ValueError.
Proof. reflexivity. Qed.

Section Sha.
  Variable sha : list tok -> nat.
  Definition wrap (hdr hash : bool) (t : list tok) : list tok :=
    if hdr then [TOpen; THead (HD "2.0" (if hash then Some (sha t) else None)); TComma] ++ t ++ [TClose] else t.

  (** dumps of an item whose delivered tree is [D] *)
  Lemma dumps_ok h f hdr hash x cs As a n : map root cs = keep f (map DItem (nitems (hnode h x))) -> Forall (dtree h f) cs -> (3 * sizes cs + 2 < n)%nat ->
    writable h (DItem x) a -> arg_good a -> Forall2 (writes h) cs As ->
    exists R, dumps sha h n f hdr hash x = Some (Ok (wrap hdr hash (text_of (root R) (flat_map flatten (kids R))))) /\
      at_depth 0 R /\ rows_good R (Node a As).
  Proof.
    intros E F Hn Wa Ga HW. destruct (row_forest h cs) with (As := As) (n := 1%nat) (s := @nil pyval) as (Rs & ER & D & GR); [apply Forall_forall; intros; apply rows_all|exact HW|].
    destruct Wa as (Ea & St & Sv). destruct (args_codec a (JInt 0) (JInt 0) St Sv) as (l & El & Er).
    exists (Node (JInt 0 :: JInt 0 :: l) Rs). unfold dumps. rewrite (deep_locals_ok h f x cs n E F Hn). change (Z.of_nat 1) with 1 in ER. rewrite ER. cbn [rbind row_json].
    rewrite Ea. cbn [rbind]. rewrite El. cbn [rbind root kids]. split; [|split].
    - unfold wrap, text_of. destruct hdr; reflexivity.
    - apply at_depth_iff. split; [exists (JInt 0 :: l); reflexivity|exact D].
    - constructor; assumption.
  Qed.

  (** reading the text back *)
  Lemma loads_text r0 rows hdr hash chk ll h : rows <> [] ->
    loads sha (wrap hdr hash (text_of r0 rows)) chk ll h = (x <- create_from_raw (r0 :: rows) ;; finish ll x) h.
  Proof.
    intros N. destruct rows as [|r rows]; [congruence|]. set (t := text_of r0 (r :: rows)).
    assert (P : forall rest, parse_list (t ++ rest) = Ok (r0 :: r :: rows, rest)) by (intros rest; apply parse_text).
    unfold wrap. destruct hdr.
    - cbn [app loads hd_major hd_hash]. unfold lift. unfold bind at 1. rewrite P. cbn [String.eqb Ascii.eqb Bool.eqb negb].
      rewrite removelast_last. destruct hash; [|rewrite andb_false_r; reflexivity]. rewrite Nat.eqb_refl. cbn [negb]. rewrite andb_false_r. reflexivity.
    - unfold loads, t, text_of. cbn [app]. unfold lift. unfold bind at 1.
      pose proof (P []) as P0. rewrite app_nil_r in P0. unfold t, text_of in P0. cbn [app] in P0. rewrite P0. reflexivity.
  Qed.
End Sha.
