(** C102: repr() of a mathematical set can be evaluated. *)
From Coq Require Import QArith Ascii Permutation.
From Verif Require Import Base MathSet MathStr MathBuild RosterStr CombStr SetRepr.
Import ListNotations.
Local Open Scope Z_scope.
Local Open Scope string_scope.
Local Open Scope list_scope.

(** ** The sets in question *)

(** set objects made by the constructors from items, and switched to their complement *)
Definition turned (s : cset) : cset :=
  match s with
  | CInt p => CInt (PIV (pv_lo p) (pv_hi p) (pv_int p) (negb (pv_compl p)))
  | CRos r => CRos (PR (pr_items r) (negb (pr_compl r)))
  | CCmb l u c => CCmb l u (negb c)
  | CBld b => CBld b
  end.
Inductive built : cset -> Prop :=
| b_interval lo hi n c : built (CInt (mk_piv lo hi n c))
| b_roster items c : built (CRos (mk_pr items c))
| b_combine l u c : l <> [] -> (forall m, In m l -> built m) -> built (CCmb l u c)
| b_switch s : built s -> built (turned s).

(** a variable, or a number other than nan that float() accepts; the formatter is no function *)
Definition variable (s : string) : Prop := parse_item (lit s) false = Ok (PI (VVar s) false FStr).
Definition plain (i : pitem) : Prop :=
  match pi_val i with VVar s => variable s | VNum n => n <> NaN /\ too_big n = false end
  /\ match pi_fmt i with FHex | FOct | FBin => False | _ => True end.
Inductive printable : cset -> Prop :=
| p_interval p : plain (pv_lo p) -> plain (pv_hi p) -> printable (CInt p)
| p_roster r : (forall i, In i (pr_items r) -> plain i) -> pr_items r <> [] \/ pr_compl r = false -> printable (CRos r)
| p_combine l u c : (2 <= length l)%nat -> (forall m, In m l -> printable m) -> printable (CCmb l u c).

(** the same set; the items of rosters in another order (Python's sets have none) *)
Inductive reordered : cset -> cset -> Prop :=
| r_interval p : reordered (CInt p) (CInt p)
| r_roster l l' c : Permutation l l' -> reordered (CRos (PR l c)) (CRos (PR l' c))
| r_combine l l' u c : all_reordered l l' -> reordered (CCmb l u c) (CCmb l' u c)
with all_reordered : list cset -> list cset -> Prop :=
| ar_nil : all_reordered [] []
| ar_cons s s' l l' : reordered s s' -> all_reordered l l' -> all_reordered (s :: l) (s' :: l').
Scheme reordered_mut := Induction for reordered Sort Prop
with all_reordered_mut := Induction for all_reordered Sort Prop.

(** ** Facts *)
Definition distinct (l : list pitem) : Prop := ForallOrdPairs (fun i j => val_eq (pi_val i) (pi_val j) = false) l.
Inductive wf : cset -> Prop :=
| w_interval p : match pi_val (pv_lo p), pi_val (pv_hi p) with VNum a, VNum b => num_lt b a = false | _, _ => True end -> wf (CInt p)
| w_roster r : Forall (fun i => pi_open i = false) (pr_items r) -> distinct (pr_items r) -> wf (CRos r)
| w_combine l u c : (forall m, In m l -> wf m) -> wf (CCmb l u c).

Lemma num_eq_sym a b : num_eq a b = num_eq b a.
Proof. unfold num_eq. apply andb_comm. Qed.
Lemma val_eq_sym a b : val_eq a b = val_eq b a.
Proof. destruct a, b; cbn; try reflexivity; [apply num_eq_sym|apply String.eqb_sym]. Qed.
Lemma distinct_snoc l i : distinct l -> Forall (fun j => val_eq (pi_val j) (pi_val i) = false) l -> distinct (l ++ [i]).
Proof.
  induction 1 as [|a l Ha Hl IH]; intros F; cbn [app]; [constructor; constructor|].
  inversion F; subst. constructor; [|apply IH; assumption]. apply Forall_app. split; [assumption|constructor; [assumption|constructor]].
Qed.
Lemma existsb_Forall {A} (f : A -> bool) l : existsb f l = false <-> Forall (fun x => f x = false) l.
Proof.
  induction l as [|a l IH]; cbn [existsb]; [split; constructor|]. rewrite orb_false_iff, IH. split; [intros [H1 H2]; constructor; assumption|intros H; inversion H; auto].
Qed.
Lemma add_item_distinct l : forall acc, distinct acc -> Forall (fun i => pi_open i = false) acc -> Forall (fun i => pi_open i = false) l ->
  distinct (fold_left add_item l acc) /\ Forall (fun i => pi_open i = false) (fold_left add_item l acc).
Proof.
  induction l as [|i l IH]; intros acc D F1 F2; cbn [fold_left]; [split; assumption|]. inversion F2; subst.
  unfold add_item at 2 4. destruct (existsb _ acc) eqn:E; [apply IH; assumption|].
  apply IH; [|apply Forall_app; split; [assumption|constructor; [assumption|constructor]]|assumption].
  apply distinct_snoc; [assumption|]. apply existsb_Forall, E.
Qed.
Lemma item_set_id l : forall acc, distinct (acc ++ l) -> fold_left add_item l acc = acc ++ l.
Proof.
  induction l as [|i l IH]; intros acc D; cbn [fold_left]; [rewrite app_nil_r; reflexivity|].
  assert (E : existsb (fun j => val_eq (pi_val j) (pi_val i)) acc = false).
  { clear IH. apply existsb_Forall. induction acc as [|a acc IHa]; [constructor|]. cbn [app] in D. inversion D as [|? ? Da Dl]; subst.
    constructor; [|apply IHa, Dl]. apply Forall_app in Da as [_ Da]. inversion Da; assumption. }
  unfold add_item at 2. rewrite E, IH; [rewrite <- app_assoc; reflexivity|]. rewrite <- app_assoc. exact D.
Qed.
Lemma filter_all {A} (f : A -> bool) l : Forall (fun x => f x = true) l -> filter f l = l.
Proof. induction 1 as [|x l Hx Hl IH]; cbn [filter]; [reflexivity|]. rewrite Hx, IH. reflexivity. Qed.
Lemma filter_Forall {A} (f : A -> bool) l : Forall (fun x => f x = true) (filter f l).
Proof. apply Forall_forall. intros x H. apply filter_In in H as [_ H]. exact H. Qed.

Lemma built_wf s : built s -> wf s.
Proof.
  induction 1 as [lo hi n c|items c|l u c N _ IH|s _ IH].
  - constructor. unfold mk_piv. destruct (pi_val lo) eqn:E1, (pi_val hi) eqn:E2; cbn [pv_lo pv_hi]; rewrite ?E1, ?E2; try exact I.
    destruct (num_lt n1 n0) eqn:L; cbn [pv_lo pv_hi]; rewrite ?E1, ?E2; [|exact L].
    unfold num_lt in *. apply andb_prop in L as [L1 L2]. apply negb_true_iff in L2. rewrite L2. reflexivity.
  - unfold mk_pr. destruct (add_item_distinct (filter (fun i => negb (pi_open i)) items) [] ltac:(constructor) ltac:(constructor)) as [H1 H2].
    { eapply Forall_impl; [|apply filter_Forall]. intros i H. apply negb_true_iff, H. }
    constructor; cbn [pr_items]; assumption.
  - constructor. exact IH.
  - inversion IH; subst; constructor; assumption.
Qed.
Lemma distinct_perm l l' : Permutation l l' -> distinct l -> distinct l'.
Proof.
  induction 1 as [|x l l' P IH|x y l|l l1 l2 P1 IH1 P2 IH2]; intros D; [exact D| | |auto].
  - inversion D as [|? ? Da Dl]; subst. constructor; [eapply Permutation_Forall; eassumption|apply IH, Dl].
  - inversion D as [|? ? D1 D2]; subst. inversion D2 as [|? ? D3 D4]; subst. inversion D1; subst.
    constructor; [constructor; [rewrite val_eq_sym; assumption|assumption]|constructor; assumption].
Qed.
Lemma all_reordered_length l l' : all_reordered l l' -> length l = length l'.
Proof. induction 1; cbn; congruence. Qed.
Lemma reordered_kept : forall s s', reordered s s' -> (wf s -> wf s') /\ (printable s -> printable s').
Proof.
  apply (reordered_mut (fun s s' _ => (wf s -> wf s') /\ (printable s -> printable s'))
           (fun l l' _ => ((forall m, In m l -> wf m) -> forall m, In m l' -> wf m) /\ ((forall m, In m l -> printable m) -> forall m, In m l' -> printable m))).
  - tauto.
  - intros l l' c P. split; intros H; inversion H; subst.
    + cbn [pr_items] in *. apply w_roster; [eapply Permutation_Forall; eassumption|eapply distinct_perm; eassumption].
    + cbn [pr_items pr_compl] in *. apply p_roster; cbn [pr_items pr_compl]; [intros i Hi; apply H1; eapply Permutation_in; [apply Permutation_sym; exact P|exact Hi]|].
      destruct H2 as [N|E]; [left; intros ->; apply N; apply Permutation_nil, Permutation_sym, P|right; exact E].
  - intros l l' u c R [IH1 IH2]. split; intros H; inversion H; subst; [apply w_combine; auto|apply p_combine; [rewrite <- (all_reordered_length _ _ R); assumption|auto]].
  - split; intros _ m [].
  - intros s s' l l' _ [H1 H2] _ [H3 H4]. split; intros H m [<-|Hm]; [apply H1, H; left; reflexivity|exact (H3 (fun x Hx => H x (or_intror Hx)) m Hm)|apply H2, H; left; reflexivity|exact (H4 (fun x Hx => H x (or_intror Hx)) m Hm)].
Qed.

(** ** Reading printed expressions *)
Fixpoint print (e : sx) : list stok :=
  match e with
  | XNum n => [KNum n] | XStr s => [KStr s] | XFmt f => [TFmt f] | XBool b => [TBool b] | XNone => [TNone] | XName s => [TName s]
  | XCall f args => TName f :: TOpen :: sep_toks (map print args) ++ [TClose]
  end.
Inductive clean : sx -> Prop :=
| c_num n : clean (XNum n) | c_str s : clean (XStr s) | c_fmt f : clean (XFmt f) | c_bool b : clean (XBool b) | c_none : clean XNone
| c_call f args : (forall a, In a args -> clean a) -> clean (XCall f args).
Fixpoint size (e : sx) : nat :=
  match e with XCall f args => S (S (fold_right (fun a n => S (size a + n)) 0 args)) | _ => 1 end%nat.
Definition asize (args : list sx) : nat := S (fold_right (fun a n => S (size a + n)) 0 args)%nat.
Lemma print_head e : clean e -> exists t r, print e = t :: r /\ t <> TClose.
Proof. intros H; inversion H; subst; cbn [print]; eexists; eexists; (split; [reflexivity|discriminate]). Qed.
Lemma parse_print n : (forall e r, clean e -> (size e <= n)%nat -> p_expr n (print e ++ r) = Some (e, r))
  /\ (forall args r, (forall a, In a args -> clean a) -> (asize args <= n)%nat -> p_args n (sep_toks (map print args) ++ TClose :: r) = Some (args, r)).
Proof.
  induction n as [|n [IH1 IH2]]; (split; [intros e r C L|intros args r C L]).
  - inversion C; subst; cbn in L; lia.
  - unfold asize in L. lia.
  - inversion C as [| | | | |f args Ca]; subst; cbn [print app p_expr]; try reflexivity.
    rewrite <- app_assoc. cbn [app]. rewrite IH2; [reflexivity|exact Ca|]. cbn [size] in L. unfold asize. lia.
  - destruct args as [|a args]; [reflexivity|].
    unfold asize in L. cbn [fold_right] in L.
    assert (E : forall x, p_args (S n) (print a ++ x) = match p_expr n (print a ++ x) with
           | Some (e, TComma :: r) => match p_args n r with Some (es, r') => Some (e :: es, r') | None => None end
           | Some (e, TClose :: r) => Some ([e], r) | _ => None end).
    { intros x. destruct (print_head a (C a (or_introl eq_refl))) as (t & u & -> & N). cbn [p_args app]. destruct t; try reflexivity. contradiction. }
    destruct args as [|b args].
    + cbn [map sep_toks]. rewrite E, IH1; [reflexivity|auto with datatypes|lia].
    + change (sep_toks (map print (a :: b :: args))) with (print a ++ TComma :: sep_toks (map print (b :: args))).
      rewrite <- app_assoc. cbn [app]. rewrite E, IH1; [|auto with datatypes|lia].
      rewrite IH2; [reflexivity|intros x Hx; apply C; right; exact Hx|]. unfold asize. lia.
Qed.
Lemma size_print : forall n e, (size e <= n)%nat -> (size e <= 2 * length (print e))%nat.
Proof.
  induction n as [|n IH]; intros e L; destruct e; cbn [print size length] in *; try lia.
  rewrite app_length. cbn [length].
  assert (X : (fold_right (fun a n => S (size a + n)) 0 args <= 2 * length (sep_toks (map print args)) + 1)%nat).
  { assert (Y : (fold_right (fun a n => S (size a + n)) 0 args <= n)%nat) by lia. clear L. induction args as [|a args IHa]; [cbn; lia|].
    cbn [fold_right] in Y |- *. assert (A : (size a <= 2 * length (print a))%nat) by (apply IH; lia). specialize (IHa ltac:(lia)).
    destruct args as [|b args]; [cbn [map sep_toks fold_right]; lia|].
    change (sep_toks (map print (a :: b :: args))) with (print a ++ TComma :: sep_toks (map print (b :: args))). rewrite app_length. cbn [length]. lia. }
  lia.
Qed.
Lemma eval_print e : clean e -> eval (print e) = run e.
Proof.
  intros C. unfold eval. destruct (parse_print (2 * length (print e) + 2)%nat) as [H _].
  specialize (H e [] C). rewrite app_nil_r in H. rewrite H; [reflexivity|]. pose proof (size_print (size e) e (Nat.le_refl _)). lia.
Qed.

(** ** The printed sets as expressions *)
Lemma parse_item_open t o v f : parse_item t false = Ok (PI v false f) -> parse_item t o = Ok (PI v o f).
Proof.
  unfold parse_item. destruct (strip is_sp t) as [|c r]; [discriminate|].
  destruct (var_start c && negb (text_eqb (c :: r) (lit "inf"))).
  - destruct (forallb var_char (c :: r)); [|discriminate]. intros H; inversion H; reflexivity.
  - destruct (num_start c); [|discriminate].
    destruct (if Ascii.eqb c "-" then _ else _) as [neg w]. destruct (text_eqb w (lit "inf")); [intros H; inversion H; reflexivity|].
    destruct (parse_num w) as [[m g]|]; [|discriminate]. intros H; inversion H; reflexivity.
Qed.
Lemma item_expr i : plain i -> exists e, item_toks i = print e /\ clean e /\ run e = Ok (SItem i).
Proof.
  intros [V F]. set (x := match pi_val i with VVar s => XStr s | VNum PInf => XStr "inf" | VNum NInf => XStr "-inf" | VNum n => XNum n end).
  exists (XCall "mSetItem" (x :: match pi_fmt i with FStr => if pi_open i then [XBool true] else [] | f => [XBool (pi_open i); XFmt f] end)).
  assert (X : [val_tok (pi_val i)] = print x /\ clean x) by (subst x; destruct (pi_val i) as [[| | | |]|]; repeat constructor; destruct V as [V _]; contradiction).
  destruct X as [X1 X2]. split; [|split].
  - unfold item_toks, item_args. cbn [map app print]. rewrite X1. destruct (pi_fmt i), (pi_open i); try contradiction; reflexivity.
  - constructor. intros a [<-|Ha]; [exact X2|]. destruct (pi_fmt i), (pi_open i); cbn in Ha; intuition (subst; constructor).
  - assert (Y : exists w, run x = Ok w /\ forall o f, match f with FHex | FOct | FBin => False | _ => True end -> mk_item w o f = Ok (PI (pi_val i) o f)).
    { subst x. destruct (pi_val i) as [[z|q| | |]|s]; cbn [run]; eexists; (split; [reflexivity|]); intros o f Hf; cbn [mk_item];
        try first [rewrite (proj2 V); reflexivity|reflexivity|exfalso; apply (proj1 V); reflexivity].
      rewrite (parse_item_open _ o _ _ V). cbn. destruct f; reflexivity. }
    destruct Y as (w & E1 & E2). destruct i as [v o f]. cbn [pi_val pi_open pi_fmt] in *.
    destruct f; try contradiction; [destruct o|..]; cbn [run map_all]; rewrite E1; cbn [rbind map_all run]; unfold call; cbn [String.eqb Ascii.eqb Bool.eqb item_call]; rewrite E2 by exact I; reflexivity.
Qed.
Lemma items_expr l : (forall i, In i l -> plain i) -> exists es, map item_toks l = map print es /\ (forall a, In a es -> clean a) /\ map_all run es = Ok (map SItem l).
Proof.
  induction l as [|i l IH]; intros P; [exists []; repeat split; intros a []|].
  destruct (item_expr i (P i (or_introl eq_refl))) as (e & E1 & E2 & E3). destruct (IH (fun j Hj => P j (or_intror Hj))) as (es & H1 & H2 & H3).
  exists (e :: es). cbn [map map_all]. rewrite E1, H1, E3. cbn [rbind]. rewrite H3. repeat split. intros a [<-|Ha]; auto.
Qed.
Lemma sep_snoc l a : l <> [] -> sep_toks (l ++ [a]) = sep_toks l ++ TComma :: a.
Proof.
  induction l as [|x l IH]; intros N; [contradiction|]. destruct l as [|y l]; [reflexivity|].
  change (x ++ TComma :: sep_toks ((y :: l) ++ [a]) = (x ++ TComma :: sep_toks (y :: l)) ++ TComma :: a). rewrite IH by discriminate. rewrite <- app_assoc. reflexivity.
Qed.
Lemma map_all_app {A B} (f : A -> res B) l m : map_all f (l ++ m) = rbind (map_all f l) (fun x => rbind (map_all f m) (fun y => Ok (x ++ y))).
Proof. induction l as [|a l IH]; cbn [app map_all rbind]; [destruct (map_all f m); reflexivity|]. rewrite IH. destruct (f a); [cbn|reflexivity]. destruct (map_all f l); [cbn|reflexivity]. destruct (map_all f m); reflexivity. Qed.
Lemma unflag_item l : unflag (map SItem l) = (map SItem l, None).
Proof. unfold unflag. rewrite <- map_rev. destruct (rev l) as [|i r]; reflexivity. Qed.
Lemma unflag_set l : unflag (map SSet l) = (map SSet l, None).
Proof. unfold unflag. rewrite <- map_rev. destruct (rev l) as [|i r]; reflexivity. Qed.
Lemma unflag_flag l b : unflag (l ++ [SBool b]) = (l, Some b).
Proof. unfold unflag. rewrite rev_app_distr. cbn [rev app]. rewrite rev_involutive. reflexivity. Qed.
Lemma map_as_item l : map_all as_item (map SItem l) = Ok l.
Proof. induction l as [|i l IH]; cbn [map map_all as_item rbind]; [reflexivity|]. rewrite IH. reflexivity. Qed.
Lemma map_as_set l : map_all as_set (map SSet l) = Ok l.
Proof. induction l as [|i l IH]; cbn [map map_all as_set rbind]; [reflexivity|]. rewrite IH. reflexivity. Qed.
Lemma mk_pr_id r : wf (CRos r) -> mk_pr (pr_items r) (pr_compl r) = r.
Proof.
  intros W. inversion W; subst. unfold mk_pr. rewrite filter_all by (eapply Forall_impl; [|eassumption]; cbn; intros i ->; reflexivity).
  unfold item_set. rewrite item_set_id by assumption. destruct r; reflexivity.
Qed.

Lemma set_expr s : printable s -> wf s -> exists e, set_toks s = print e /\ clean e /\ run e = Ok (SSet s).
Proof.
  induction 1 as [p P1 P2|r P N|l u c L _ IH]; intros W.
  - destruct (item_expr _ P1) as (x & X1 & X2 & X3), (item_expr _ P2) as (y & Y1 & Y2 & Y3).
    exists (XCall "mSetInterval" (x :: y :: if pv_compl p then [XBool (pv_int p); XBool true] else if pv_int p then [XBool true] else [])).
    split; [|split].
    + cbn [set_toks]. unfold piv_toks. rewrite X1, Y1. cbn [print map]. destruct (pv_compl p), (pv_int p); cbn [map print sep_toks app]; repeat (rewrite <- app_assoc; cbn [app]); reflexivity.
    + constructor. intros a [<-|[<-|Ha]]; [assumption|assumption|]. destruct (pv_compl p), (pv_int p); cbn in Ha; intuition (subst; constructor).
    + assert (M : mk_piv (pv_lo p) (pv_hi p) (pv_int p) (pv_compl p) = p).
      { inversion W as [q Q| |]; subst. unfold mk_piv. destruct (pi_val (pv_lo p)), (pi_val (pv_hi p)); try rewrite Q; destruct p; reflexivity. }
      cbn [run map_all]. rewrite X3. cbn [rbind map_all]. rewrite Y3. cbn [rbind]. transitivity (Ok (SSet (CInt (mk_piv (pv_lo p) (pv_hi p) (pv_int p) (pv_compl p))))); [|rewrite M; reflexivity].
      clear M. destruct (pv_compl p), (pv_int p); reflexivity.
  - destruct (items_expr _ P) as (es & H1 & H2 & H3).
    exists (XCall "mSetRoster" (es ++ if pr_compl r then [XBool true] else [])). split; [|split].
    + cbn [set_toks print]. unfold ros_toks. rewrite H1. destruct (pr_compl r) eqn:E; [|rewrite app_nil_r; reflexivity].
      rewrite map_app. cbn [map print]. rewrite sep_snoc; [rewrite <- app_assoc; reflexivity|]. rewrite <- H1. destruct N as [N|N]; [|discriminate]. intros X. apply N. destruct (pr_items r); [reflexivity|discriminate].
    + constructor. intros a Ha. apply in_app_or in Ha as [Ha|Ha]; [auto|]. destruct (pr_compl r); [destruct Ha as [<-|[]]; constructor|destruct Ha].
    + pose proof (mk_pr_id r W) as M. cbn [run]. rewrite map_all_app, H3. cbn [rbind]. destruct (pr_compl r) eqn:E; cbn [map_all run rbind]; rewrite ?app_nil_r; unfold call; cbn [String.eqb Ascii.eqb Bool.eqb].
      * unfold roster_call. rewrite unflag_flag, map_as_item. cbn [rbind]. rewrite M. reflexivity.
      * unfold roster_call. rewrite unflag_item, map_as_item. cbn [rbind]. rewrite M. reflexivity.
  - assert (X : exists es, map set_toks l = map print es /\ (forall a, In a es -> clean a) /\ map_all run es = Ok (map SSet l)).
    { inversion W as [| |? ? ? Wl]; subst. clear L W. induction l as [|s l IHl]; [exists []; repeat split; intros a []|].
      destruct (IH s (or_introl eq_refl) (Wl s (or_introl eq_refl))) as (e & E1 & E2 & E3).
      destruct IHl as (es & H1 & H2 & H3); [intros m Hm; apply IH; right; exact Hm|intros m Hm; apply Wl; right; exact Hm|].
      exists (e :: es). cbn [map map_all]. rewrite E1, H1, E3. cbn [rbind]. rewrite H3. repeat split. intros a [<-|Ha]; auto. }
    destruct X as (es & H1 & H2 & H3).
    set (fl := if c then [XBool u; XBool c] else if u then [] else [XBool u]).
    exists (XCall "mSetCombine" (es ++ fl)). split; [|split].
    + cbn [set_toks print]. assert (Q : match l with [a] => [set_toks a; [TNone]] | _ => map set_toks l end = map print es) by (rewrite <- H1; destruct l as [|a [|b l]]; [reflexivity|cbn in L; lia|reflexivity]).
      rewrite Q, map_app. subst fl. destruct c, u; reflexivity.
    + constructor. intros a Ha. apply in_app_or in Ha as [Ha|Ha]; [auto|]. subst fl. destruct c, u; cbn in Ha; intuition (subst; constructor).
    + cbn [run]. rewrite map_all_app, H3. cbn [rbind]. unfold call. cbn [String.eqb Ascii.eqb Bool.eqb].
      assert (NE : map SSet l <> []) by (destruct l; [cbn in L; lia|discriminate]).
      subst fl. destruct c; [|destruct u]; cbn [map_all run rbind].
      * change (map SSet l ++ [SBool u; SBool true]) with (map SSet l ++ [SBool u] ++ [SBool true]). rewrite app_assoc. unfold comb_call. rewrite unflag_flag.
        destruct (map SSet l ++ [SBool u]) as [|q qs] eqn:E; [destruct l; discriminate|]. rewrite <- E, unflag_flag.
        destruct (map SSet l) as [|q' qs'] eqn:E'; [contradiction|]. rewrite <- E', map_as_set. reflexivity.
      * rewrite app_nil_r. unfold comb_call. rewrite unflag_set. destruct (map SSet l) as [|q qs] eqn:E; [contradiction|]. rewrite <- E, unflag_set, E. rewrite <- E, map_as_set. reflexivity.
      * unfold comb_call. rewrite unflag_flag. destruct (map SSet l) as [|q qs] eqn:E; [contradiction|]. rewrite <- E, unflag_set, E. rewrite <- E, map_as_set. reflexivity.
Qed.

(** ** C102 *)
Theorem C102_eval_partial s s' : built s -> printable s -> reordered s s' -> eval (set_toks s') = Ok (SSet s').
Proof.
  intros B P R. destruct (reordered_kept _ _ R) as [K1 K2]. destruct (set_expr s' (K2 P) (K1 (built_wf _ B))) as (e & -> & C & E).
  rewrite eval_print by exact C. exact E.
Qed.

Lemma existsb_perm {A} (f : A -> bool) l l' : Permutation l l' -> existsb f l = existsb f l'.
Proof. induction 1; cbn [existsb]; [reflexivity|congruence|rewrite !orb_assoc, (orb_comm (f y)); reflexivity|congruence]. Qed.
Lemma add_val_all l : forall acc, distinct l -> Forall (fun i => existsb (fun w => val_eq w (pi_val i)) acc = false) l -> fold_left add_val (map pi_val l) acc = acc ++ map pi_val l.
Proof.
  induction l as [|i l IH]; intros acc D F; cbn [map fold_left]; [rewrite app_nil_r; reflexivity|].
  inversion D as [|? ? Da Dl]; subst. inversion F as [|? ? Fi Fl]; subst. unfold add_val at 2, has_val. rewrite Fi.
  rewrite IH; [rewrite <- app_assoc; reflexivity|exact Dl|].
  rewrite Forall_forall in *. intros j Hj. rewrite existsb_app, (Fl j Hj). cbn [existsb]. rewrite (Da j Hj). reflexivity.
Qed.
Lemma pr_set_items r : wf (CRos r) -> ro_items (pr_set r) = map pi_val (pr_items r).
Proof.
  intros W. inversion W; subst. unfold pr_set, mk_roster. cbn [ro_items].
  replace (map si_val (filter (fun i => negb (si_open i)) (map pi_si (pr_items r)))) with (map pi_val (pr_items r)).
  - rewrite add_val_all; [reflexivity|assumption|]. apply Forall_forall. reflexivity.
  - rewrite filter_all; [rewrite map_map; reflexivity|]. apply Forall_map. eapply Forall_impl; [|eassumption]. cbn. intros i ->. reflexivity.
Qed.
Lemma ro_contains_perm r r' n d : wf (CRos r) -> wf (CRos r') -> Permutation (pr_items r) (pr_items r') -> pr_compl r = pr_compl r' ->
  ro_contains (pr_set r) (TNum n) d = ro_contains (pr_set r') (TNum n) d.
Proof.
  intros W W' P C. unfold ro_contains, ro_repl, ro_test, has_val. rewrite !pr_set_items by assumption.
  change (ro_compl (pr_set r)) with (pr_compl r). change (ro_compl (pr_set r')) with (pr_compl r'). rewrite C.
  rewrite (existsb_perm _ _ _ (Permutation_map pi_val P)). f_equal. f_equal. destruct d as [f|]; [|reflexivity].
  apply existsb_perm. apply Permutation_flat_map, Permutation_map, P.
Qed.
Lemma contains_reordered : forall s s', reordered s s' -> wf s -> forall v d, c_contains s' v d = c_contains s v d.
Proof.
  apply (reordered_mut (fun s s' _ => wf s -> forall v d, c_contains s' v d = c_contains s v d)
           (fun l l' _ => (forall m, In m l -> wf m) -> forall v d, map (fun m => c_contains m v d) l' = map (fun m => c_contains m v d) l)).
  - reflexivity.
  - intros l l' c P W v d. cbn [c_contains]. f_equal. apply ro_contains_perm; [|exact W|apply Permutation_sym, P|reflexivity].
    eapply (reordered_kept _ _ (r_roster l l' c P)). exact W.
  - intros l l' u c _ IH W v d. inversion W; subst. cbn [c_contains]. rewrite IH by assumption. reflexivity.
  - reflexivity.
  - intros s s' l l' _ IH1 _ IH2 W v d. cbn [map]. rewrite IH1 by (apply W; left; reflexivity). rewrite IH2 by (intros m Hm; apply W; right; exact Hm). reflexivity.
Qed.
(** the set that comes back has the same members under all values of the variables *)
Theorem C102_members_partial s s' : built s -> printable s -> reordered s s' ->
  exists t, eval (set_toks s') = Ok (SSet t) /\ forall v d, c_contains t v d = c_contains s v d.
Proof.
  intros B P R. exists s'. split; [apply (C102_eval_partial s); assumption|]. apply contains_reordered; [exact R|apply built_wf, B].
Qed.

(** *** an example: !( [1,x') u {2.50, 'a'} ) *)
Definition ex_set : cset :=
  CCmb [CInt (mk_piv (PI (VVar "x") true FStr) (num_item (NI 1) false) false false);
        CRos (mk_pr [PI (VNum (NF (5 # 2))) false (FFix 1 2); PI (VVar "a") false FStr; num_item (NI 7) true; PI (VNum (NF (5 # 2))) false FStr] true);
        CCmb [CInt (mk_piv (num_item (NI 9) true) (num_item NInf false) true true); CRos (mk_pr [] false)] false false] true true.
Example C102_ex_built : built ex_set.
Proof.
  apply b_combine; [discriminate|]. intros m [<-|[<-|[<-|[]]]]; [apply b_interval|apply b_roster|].
  apply b_combine; [discriminate|]. intros m [<-|[<-|[]]]; [apply b_interval|apply b_roster].
Qed.
Example C102_ex_printable : printable ex_set.
Proof.
  assert (N : forall n o, n <> NaN -> too_big n = false -> plain (num_item n o)) by (intros n o H1 H2; repeat split; assumption).
  apply p_combine; [cbn; lia|]. intros m [<-|[<-|[<-|[]]]].
  - apply p_interval; [split; [vm_compute; reflexivity|exact I]|apply N; [discriminate|vm_compute; reflexivity]].
  - apply p_roster; [|left; discriminate]. vm_compute pr_items. intros i [<-|[<-|[]]]; (split; [|exact I]); [split; [discriminate|reflexivity]|vm_compute; reflexivity].
  - apply p_combine; [cbn; lia|]. intros m [<-|[<-|[]]].
    + apply p_interval; cbn [mk_piv num_item pi_val]; vm_compute num_lt; cbn [pv_lo pv_hi]; apply N; solve [discriminate|vm_compute; reflexivity].
    + apply p_roster; [intros i []|right; reflexivity].
Qed.
Example C102_ex_text : set_toks (CCmb [CInt (mk_piv (num_item (NI 3) true) (num_item NInf false) true true); CRos (mk_pr [] false)] false true)
  = [TName "mSetCombine"; TOpen; TName "mSetInterval"; TOpen; TName "mSetItem"; TOpen; KStr "-inf"; TClose; TComma; TName "mSetItem"; TOpen; KNum (NI 3); TComma; TBool true; TClose;
     TComma; TBool true; TComma; TBool true; TClose; TComma; TName "mSetRoster"; TOpen; TClose; TComma; TBool false; TComma; TBool true; TClose].
Proof. vm_compute. reflexivity. Qed.
Example C102_ex_eval : eval (set_toks ex_set) = Ok (SSet ex_set).
Proof. vm_compute. reflexivity. Qed.

(** ** where the claim fails *)
(** numbers written in hex, octal or binary have a function as formatter *)
Theorem C102_hex_refuted : exists i, parse_item (lit "0x10") false = Ok i /\ built (CRos (mk_pr [i] false)) /\ eval (set_toks (CRos (mk_pr [i] false))) = Err SyntaxError.
Proof. exists (PI (VNum (NI 16)) false FHex). split; [vm_compute; reflexivity|]. split; [apply b_roster|vm_compute; reflexivity]. Qed.
(** the complement of the empty roster, the set of all numbers, prints "mSetRoster(, True)" *)
Theorem C102_empty_refuted : exists s, built s /\ (forall v d, c_contains s v d = Ok true) /\ eval (set_toks s) = Err SyntaxError.
Proof. exists (CRos (mk_pr [] true)). split; [apply b_roster|]. split; [intros v [f|]; reflexivity|vm_compute; reflexivity]. Qed.
Theorem C102_nan_refuted : exists s, built s /\ eval (set_toks s) = Err NameError.
Proof. exists (CRos (mk_pr [num_item NaN false] false)). split; [apply b_roster|vm_compute; reflexivity]. Qed.
(** an integer that float() does not accept can be written in a definition string only *)
Theorem C102_big_refuted : exists z s, too_big (NI z) = true /\ s = CRos (mk_pr [num_item (NI z) false] false) /\ built s /\ eval (set_toks s) = Err OverflowError.
Proof. exists (2 ^ 1024), (CRos (mk_pr [num_item (NI (2 ^ 1024)) false] false)). split; [vm_compute; reflexivity|]. split; [reflexivity|]. split; [apply b_roster|vm_compute; reflexivity]. Qed.
(** a combination of one set prints a second member None *)
Theorem C102_single_refuted : ~ (forall a, built a -> printable a -> exists t, eval (set_toks (CCmb [a] true false)) = Ok (SSet t)).
Proof.
  intros H. destruct (H (CRos (mk_pr [] false))) as [t E]; [apply b_roster|apply p_roster; [intros i []|right; reflexivity]|]. vm_compute in E. discriminate.
Qed.
