(** C103: pickling trees with loaded links. *)
From Verif Require Import Base Heap HeapSpec ListLemmas ForestLemmas HeapInv HeapAttach HeapOps HeapOps2 HeapOps3 HeapOrd HeapHash Tree HeapTree HeapCopy History Runs HeapRead HeapFlags PropsA PropsC PropsF
  Deep DeepSpec DeepProofs PropsG JsonModel JsonFacts SerModel SerNew SerLoad SerBuild SerDump PropsM LinkModel LinkFacts LinkFacts2 LinkMerge LinkLoad LinkRun LinkAll LinkWF LinkSpec LinkDel PropsN PropsZK PickleModel PropsR.
Import ListNotations.
Open Scope string_scope.
Open Scope list_scope.

(** ** Specification *)
(** [Saved h false T L] (PropsZK, C98): L is what is written for the tree T, where the placeholders of
    [replaced] are written also for the children of the top item. [picklable h y] (PropsR): a link root has
    its link and not LOAD_LINKS. *)

(** ** Proofs *)
Lemma pick_args h y : hash_ok h -> picklable h y -> args_skip_subtree h (DItem y) = Ok (args_of h y) /\ arg_good (args_of h y).
Proof.
  intros R P. split; [apply args_plain; exact P|]. split; [apply (R y)|]. cbn [args_of ra_link ra_flags]. destruct (flag h y 5) eqn:E; [|congruence]. intros _.
  change (has (nflags (hnode h y)) LOAD_LINKS = false). rewrite (has_flag h y LOAD_LINKS 2) by (lia || reflexivity). apply P. exact E.
Qed.
Lemma collect_args h (Q : nat -> tree loc -> tree xlabel -> Prop) : forall cs ds, length ds = length cs ->
  (forall i c d, nth_error cs i = Some c -> nth_error ds i = Some d ->
     exists A, (forall m, height c < m -> pickle_dumps m h d = Some (Ok A)) /\ all_good A /\ Q i c (tmap args_label A)) ->
  exists As, (forall n, (forall c, In c cs -> height c < n) -> all_some (map (pickle_dumps n h) ds) = Some (Ok As)) /\ Forall all_good As /\ length As = length cs /\
    forall i c L, nth_error cs i = Some c -> nth_error (map (tmap args_label) As) i = Some L -> Q i c L.
Proof.
  intros cs. revert Q. induction cs as [|c cs IH]; intros Q ds HL H.
  - destruct ds; [|discriminate]. exists []. split; [reflexivity|]. split; [constructor|]. split; [reflexivity|]. intros [|i] c L; discriminate.
  - destruct ds as [|d ds]; [discriminate|]. injection HL as HL.
    destruct (H 0 c d eq_refl eq_refl) as (A & E1 & E2 & E3).
    destruct (IH (fun i => Q (S i)) ds HL) as (As & F1 & F2 & F3 & F4).
    { intros i c' d' Hc Hd. exact (H (S i) c' d' Hc Hd). }
    exists (A :: As). split.
    { intros n Hn. cbn [map all_some]. rewrite (E1 n) by (apply Hn; left; reflexivity). rewrite (F1 n) by (intros c' Hc'; apply Hn; right; exact Hc'). reflexivity. }
    split; [constructor; assumption|]. split; [cbn; rewrite F3; reflexivity|].
    intros [|i] c' L Hc Hl; cbn in Hc, Hl; [injection Hc as <-; injection Hl as <-; exact E3|exact (F4 i c' L Hc Hl)].
Qed.

Lemma pick_tree h : LWF h -> hash_ok h -> forall T, ltree (view h) T -> (forall y, In y (flatten T) -> picklable h y) ->
  exists A, (forall n, height T < n -> pickle_dumps n h (DItem (root T)) = Some (Ok A)) /\ all_good A /\ Saved h false T (tmap args_label A).
Proof.
  intros W HH. induction T as [x cs IH] using tree_ind'. intros HT HS. apply ltree_iff in HT as [Ec FT]. rewrite Forall_forall in IH, FT.
  set (lk := fun j => match nth_error (children h x) j with Some y => flag h y 3 | None => false end).
  assert (Len : length (d_kids h x) = length cs).
  { unfold d_kids, locals_add_placeholders. change (map root cs = nitems (hnode h x)) in Ec. rewrite <- Ec.
    destruct (is_link_root h x); [rewrite (proj1 (locals_nth h _ _ _))|]; rewrite ?map_length; reflexivity. }
  destruct (collect_args h (fun i c L => let place := negb false && flag h x 5 && replaced lk i in
       (place = true -> L = Node (placeholder (tag_of h (root c)) (fam_index h x (root c))) []) /\ (place = false -> Saved h false c L)) cs (d_kids h x) Len)
    as (As & F1 & F2 & F3 & F4).
  { intros i c d Hc Hd. cbv zeta. cbn [negb andb].
    assert (Hin : In c cs) by (eapply nth_error_In; exact Hc).
    assert (Hk : nth_error (nitems (hnode h x)) i = Some (root c)). { change (map root cs = nitems (hnode h x)) in Ec. rewrite <- Ec. apply map_nth_error. exact Hc. }
    assert (Sub : forall z, In z (flatten c) -> picklable h z) by (intros z Hz; apply HS; right; apply in_flat_map; eauto).
    destruct (flag h x 5 && replaced lk i) eqn:Ep.
    - apply andb_true_iff in Ep as [E5 Ep]. unfold d_kids, locals_add_placeholders in Hd. rewrite link_root_flag, E5 in Hd.
      rewrite (proj2 (locals_nth h _ _ _) i _ Hk) in Hd. rewrite (rep_from_ext _ _ lk), rep_from_0, Ep in Hd.
      2:{ intros j. unfold lk. change (children h x) with (nitems (hnode h x)). destruct (nth_error (nitems (hnode h x)) j); [apply linked_flag|reflexivity]. }
      change (nitems (hnode h x)) with (children h x) in Hd, Hk. rewrite (count_fam h x (root c) i W Hk) in Hd. injection Hd as <-.
      exists (Node (RA (ntag (hnode h (root c))) (PInt (Z.of_nat (fam_index h x (root c)))) None PLACEHOLDER) []).
      split. { intros [|m] Hm; [lia|]. reflexivity. }
      split; [constructor; [split; [apply HH|cbn; congruence]|constructor]|]. split; [intros _; reflexivity|discriminate].
    - destruct (IH c Hin (FT c Hin) Sub) as (A & G1 & G2 & G3). exists A.
      assert (Ed : d = DItem (root c)).
      { unfold d_kids, locals_add_placeholders in Hd. rewrite link_root_flag in Hd. destruct (flag h x 5).
        + cbn [andb] in Ep. rewrite (proj2 (locals_nth h _ _ _) i _ Hk) in Hd. rewrite (rep_from_ext _ _ lk), rep_from_0, Ep in Hd.
          2:{ intros j. unfold lk. change (children h x) with (nitems (hnode h x)). destruct (nth_error (nitems (hnode h x)) j); [apply linked_flag|reflexivity]. }
          congruence.
        + rewrite (map_nth_error DItem _ _ Hk) in Hd. congruence. }
      rewrite Ed. split; [exact G1|]. split; [exact G2|]. split; [discriminate|intros _; exact G3]. }
  destruct (pick_args h x HH (HS x (or_introl eq_refl))) as [Wa Ga].
  exists (Node (args_of h x) As). split.
  { intros [|n] Hn; [lia|]. cbn [pickle_dumps root]. unfold init_args. rewrite Wa. cbn [rbind keep].
    rewrite (F1 n); [reflexivity|]. intros c Hc. pose proof (height_kid x cs c Hc). lia. }
  split; [constructor; assumption|]. cbn [tmap]. rewrite (args_kept h x) by (intros E; apply (HS x (or_introl eq_refl) E)).
  constructor; [rewrite map_length; exact F3|]. exact F4.
Qed.

(** ** C103 *)
(** pickle.loads(pickle.dumps(t)) in any process: every item is rebuilt with its contents, except the
    children of link roots (t itself included) that are replaced by placeholders. *)
Theorem C103_pickle_partial : forall h x T, LReach h -> tree_at h x T -> (forall y, In y (flatten T) -> picklable h y) ->
  exists A L, Saved h false T L /\ (forall n, height T < n -> pickle_dumps n h (DItem x) = Some (Ok A)) /\
  forall h0, Reach h0 -> exists h' y T', pickle_loads A h0 = (h', Ok y) /\ Reach h' /\ parent_of h' y = None /\
    tree_at h' y T' /\ (forall z, In z (flatten T') -> hnext h0 <= z < hnext h') /\ tmap (label (view h')) T' = inherit 0 L /\ (forall z, z < hnext h0 -> view h' z = view h0 z).
Proof.
  intros h x T LR [Er HT] HS. destruct (lreach_ok h LR) as (W & HH). destruct (pick_tree h W HH T HT HS) as (A & D & G & SV).
  exists A, (tmap args_label A). split; [exact SV|]. split; [rewrite <- Er; exact D|]. intros h0 R0.
  destruct (loads_ok _ G h0 R0) as (h' & y & E & R' & [N V] & (T' & HT' & ET' & L & Rng & P)).
  exists h', y, T'. split; [exact E|]. split; [exact R'|]. split; [exact P|]. split; [split; assumption|]. split; [exact Rng|]. split; [exact L|exact V].
Qed.
(** A link root p in the pickled tree, or the pickled item itself, whose linked children each directly follow a local child: after
    unpickling and load_links(force=True), its local children are those written, and its linked
    children are copies of the children of the target as it is now; nothing linked comes from the text
    and no placeholder is left. *)
Theorem C103_reload_partial : forall h x T ps p, LReach h -> tree_at h x T ->
  (forall y, In y (flatten T) -> picklable h y) ->
  option_map root (at_path ps T) = Some p ->
  (forall qs rs q, ps = qs ++ rs -> qs <> [] -> option_map root (at_path qs T) = Some q -> flag h q 3 = false) ->
  flag h p 5 = true -> linked_follow h p -> (forall y, In y (children h p) -> flag h y 4 = false) ->
  exists A, (forall n, height T < n -> pickle_dumps n h (DItem x) = Some (Ok A)) /\
  forall h0, Reach h0 -> exists h' y T' p', pickle_loads A h0 = (h', Ok y) /\ Reach h' /\ tree_at h' y T' /\ option_map root (at_path ps T') = Some p' /\
    tag_value h' p' = tag_value h p /\
  forall target_of changed n t, target_of h' p' = Ok t -> t < hnext h0 ->
    (forall c, In c (children h' t) -> flag h' c 3 = false /\ flag h' c 5 = false /\ has_tag_idx h' c) -> (forall c z, In c (children h' t) -> Below h' c z -> copyable h' z) ->
  exists h'', load_links target_of changed true (S n) p' h' = (h'', Ok true) /\ LReach h'' /\
    (forall y, In y (children h p) -> flag h y 3 = false -> exists z, In z (children h'' p') /\ flag h'' z 3 = false /\ tag_value h'' z = tag_value h y) /\
    (forall z, In z (children h'' p') -> flag h'' z 3 = false -> flag h'' z 4 = false /\ exists y, In y (children h p) /\ flag h y 3 = false /\ tag_value h'' z = tag_value h y) /\
    (forall z, In z (children h'' p') -> flag h'' z 3 = true -> exists c, In c (children h' t) /\ tag_value h'' z = tag_value h' c /\
       forall y, In y (children h p) -> flag h y 3 = false -> key h p y <> key h' t c) /\
    (forall c, In c (children h' t) -> (exists y, In y (children h p) /\ flag h y 3 = false /\ key h p y = key h' t c) \/
       (exists z, In z (children h'' p') /\ flag h'' z 3 = true /\ tag_value h'' z = tag_value h' c)).
Proof.
  intros h x T ps p LR HT HS Ep HU H5 LF H4. destruct (lreach_ok h LR) as (W & _).
  destruct (at_path ps T) as [S|] eqn:EP; [|discriminate]. cbn in Ep. injection Ep as Ep.
  destruct (C103_pickle_partial h x T LR HT HS) as (A & L & SV & ED & RD). exists A. split; [exact ED|]. intros h0 R0.
  destruct (RD h0 R0) as (h' & y & T' & E & R' & P' & TA' & Rng & EL & V). destruct HT as [Er HT]. destruct TA' as [Er' HT'].
  destruct (at_saved h ps false T L S SV ltac:(discriminate)) as (LS & ELS & SVS).
  { intros qs q _ Nq (rs & Eq) Eqq. apply (HU qs rs q Eq Nq Eqq). }
  { exact HT. } { exact EP. }
  destruct (at_inherit ps 0 L LS) as (F & HF & EI); [intros i _ _; apply Z.bits_0|exact ELS|]. rewrite <- EL, at_tmap in EI.
  destruct (at_path ps T') as [S'|] eqn:EP'; [|discriminate]. cbn [option_map] in EI. injection EI as EI.
  pose proof (proj1 (lreach_ok h' (Reach_LReach h' R'))) as W'.
  assert (Lk : a_link (view h p) <> None). { apply (HS p); [rewrite <- Ep; eapply at_in; exact EP|exact H5]. }
  destruct S as [s ds]. cbn in Ep. subst s. destruct S' as [p' ds'].
  destruct (read_root h h' p ds LS p' ds' F W W' H5 Lk (at_ltree _ _ _ _ HT EP) (at_ltree _ _ _ _ HT' EP') SVS EI HF LF) as (TVp & H5' & Lk' & Len & KR).
  exists h', y, T', p'. split; [exact E|]. split; [exact R'|]. split; [split; assumption|]. split; [rewrite EP'; reflexivity|]. split; [exact TVp|].
  intros to ch n t Etg Lt Kd Cp.
  assert (Lp' : hnext h0 <= p' < hnext h') by (apply Rng; apply (at_in _ _ _ EP')).
  assert (Cor : forall k, (exists u, nth_error (children h p) k = Some u) <-> exists u, nth_error (children h' p') k = Some u).
  { intros k. split; intros (u & Hu); (assert (N : k < length (children h p)) by first [apply nth_error_Some; congruence | rewrite <- Len; apply nth_error_Some; congruence]).
    - destruct (nth_error (children h' p') k) eqn:Q; [eauto|]. apply nth_error_None in Q. lia.
    - destruct (nth_error (children h p) k) eqn:Q; [eauto|]. apply nth_error_None in Q. lia. }
  assert (LC : load_case to ch true h' p' t).
  { constructor; auto; try lia.
    - destruct (a_link (view h' p')) as [lk|]; [|congruence]. exists lk. auto.
    - intros z Hz Hf. apply In_nth_error in Hz as (k & Hk). destruct (proj2 (Cor k) (ex_intro _ z Hk)) as (u & Hu). destruct (KR k u z Hu Hk) as (_ & K2 & _ & K4).
      destruct (flag h u 3); [rewrite K2; apply K4|]. destruct K4 as [K4 _]. rewrite Hf in K4. rewrite (H4 u) in K4 by (eapply nth_error_In; exact Hu). discriminate.
    - split; [lia|]. intros B. apply (below_old h0 h' R0 V t p' Lt) in B. lia. }
  destruct (C46_merge_partial to ch true n h' p' t (Reach_LReach h' R') LC) as (h'' & copy & rep & EM & LR2 & M1 & M2 & M3 & M4 & M5 & M6 & M7 & M8 & M9 & _).
  assert (NL : forall z, In z (children h' p') -> flag h' z 3 = false).
  { intros z Hz. apply In_nth_error in Hz as (k & Hk). destruct (proj2 (Cor k) (ex_intro _ z Hk)) as (u & Hu). apply (KR k u z Hu Hk). }
  assert (ST : forall z, In z (stay h' p') <-> In z (children h' p') /\ flag h' z 4 = false).
  { intros z. unfold stay. split; [intros H; split; [eapply staying_in; exact H|apply (staying_real _ _ _ _ _ H)]|]. intros [H1 H2]. apply staying_local; auto. }
  assert (FlE : forall z i, In z (children h' p') -> flag h'' z i = flag h' z i) by (intros z i Hz; destruct (M9 z Hz) as (_ & Q & _); unfold flag; rewrite Q; reflexivity).
  assert (Loc : forall z, In z (stay h' p') -> exists k u, nth_error (children h p) k = Some u /\ nth_error (children h' p') k = Some z /\ flag h u 3 = false /\ tag_value h'' z = tag_value h u /\ key h' p' z = key h p u).
  { intros z Hz. apply ST in Hz as [Hz Hf]. destruct (In_nth_error _ _ Hz) as (k & Hk). destruct (proj2 (Cor k) (ex_intro _ z Hk)) as (u & Hu). exists k, u. split; [exact Hu|]. split; [exact Hk|].
    destruct (KR k u z Hu Hk) as (K1 & K2 & _ & K4). destruct (flag h u 3) eqn:E3; [destruct K4; congruence|]. split; [reflexivity|].
    split; [rewrite (proj1 (M9 z Hz)); unfold tag_value; rewrite K1; f_equal; apply K4|]. unfold key. rewrite K1, K2. reflexivity. }
  assert (Loc' : forall u, In u (children h p) -> flag h u 3 = false -> exists z, In z (stay h' p') /\ tag_value h'' z = tag_value h u /\ key h' p' z = key h p u).
  { intros u Hu E3. destruct (In_nth_error _ _ Hu) as (k & Hk). destruct (proj1 (Cor k) (ex_intro _ u Hk)) as (z & Hz). destruct (KR k u z Hk Hz) as (K1 & K2 & _ & K4). rewrite E3 in K4. destruct K4 as [K4 K5].
    assert (Hz' : In z (children h' p')) by (eapply nth_error_In; exact Hz).
    exists z. split; [apply ST; split; [exact Hz'|]; rewrite K4; apply H4; exact Hu|]. split; [rewrite (proj1 (M9 z Hz')); unfold tag_value; rewrite K1, K5; reflexivity|]. unfold key. rewrite K1, K2. reflexivity. }
  exists h''. split; [exact EM|]. split; [exact LR2|]. split; [|split; [|split]].
  - intros u Hu E3. destruct (Loc' u Hu E3) as (z & Hz & TV & _). exists z. split; [apply M4; left; exact Hz|]. apply ST in Hz as [Hz _]. split; [rewrite FlE by exact Hz; apply NL; exact Hz|exact TV].
  - intros z Hz E3. assert (Hs : In z (stay h' p')).
    { apply M4 in Hz as [Hz|Hz]; [exact Hz|]. apply in_map_iff in Hz as (c & <- & Hc). destruct (M2 c Hc) as [(w & Hw & _ & -> & _)|(_ & Q)]; [exact Hw|]. rewrite Q in E3. destruct (M1 c Hc) as (_ & _ & Q3 & _). congruence. }
    split; [apply ST in Hs as [Hs Hf]; rewrite FlE by exact Hs; exact Hf|]. destruct (Loc z Hs) as (k & u & Hu & _ & E3' & TV & _). exists u. split; [eapply nth_error_In; exact Hu|]. auto.
  - intros z Hz E3. apply M4 in Hz as [Hz|Hz]; [apply ST in Hz as [Hz _]; rewrite FlE, (NL z Hz) in E3 by exact Hz; discriminate|]. apply in_map_iff in Hz as (c & Ec & Hc). exists c. split; [exact Hc|].
    destruct (M2 c Hc) as [(w & Hw & _ & Q & _)|(Q1 & Q)].
    + rewrite <- Ec, Q in E3. apply ST in Hw as [Hw _]. rewrite FlE, (NL w Hw) in E3 by exact Hw. discriminate.
    + rewrite <- Ec, Q. split; [apply (M1 c Hc)|]. intros u Hu Eu K. destruct (Loc' u Hu Eu) as (w & Hw & _ & Kw). apply (Q1 w Hw). congruence.
  - intros c Hc. destruct (M2 c Hc) as [(w & Hw & Kw & _)|(Q1 & Q)].
    + left. destruct (Loc w Hw) as (k & u & Hu & _ & Eu & _ & Ku). exists u. split; [eapply nth_error_In; exact Hu|]. split; [exact Eu|congruence].
    + right. exists (rep c). rewrite Q. destruct (M1 c Hc) as (_ & Q2 & Q3 & _). split; [apply M4; right; rewrite <- Q; apply in_map; exact Hc|]. auto.
Qed.

(** *** cases *)
(** "top" with the link root: local "b", linked "a", local "z" ([rl_heap], PropsZK) *)
Definition zp_args : tree rowargs := match pickle_dumps 100 rl_heap (DItem 8) with Some (Ok A) => A | _ => Node (RA PNone PNone None 0) [] end.
Definition zp_read : heap := fst (pickle_loads zp_args rl_heap).
Lemma pick_b_ok h l : forallb (fun y => negb (flag h y 5) || (match a_link (view h y) with Some _ => true | None => false end && negb (flag h y 2))) l = true ->
  forall y, In y l -> picklable h y.
Proof.
  intros H y Hy E. rewrite forallb_forall in H. specialize (H y Hy). rewrite E in H. cbn [negb orb] in H. apply andb_true_iff in H as [H1 H2]. split; [|apply negb_true_iff; exact H2].
  intros N. rewrite N in H1. discriminate.
Qed.
Example C103_case : LReach rl_heap /\ tree_at rl_heap 8 rl_tree /\ (forall y, In y (flatten rl_tree) -> picklable rl_heap y) /\
  option_map root (at_path [0] rl_tree) = Some 5 /\ flag rl_heap 5 3 = false /\ flag rl_heap 5 5 = true /\ linked_follow rl_heap 5 /\ (forall y, In y (children rl_heap 5) -> flag rl_heap y 4 = false) /\
  snd (pickle_loads zp_args rl_heap) = Ok 13 /\ children zp_read 13 = [12] /\
  map (tvf zp_read) (children zp_read 12) = [(PStr "b", PInt 20, 0%Z); (PStr "a", PInt 0, 16%Z); (PStr "z", PInt 30, 0%Z)] /\
  let r := load_links (lk_to 0) never true 201 12 zp_read in snd r = Ok true /\
  map (tvf (fst r)) (children (fst r) 12) = [(PStr "a", PInt 1, 8%Z); (PStr "b", PInt 20, 0%Z); (PStr "a", PInt 3, 8%Z); (PStr "z", PInt 30, 0%Z)].
Proof.
  pose proof C98_reload_case as (C1 & C2 & _ & C4 & C5 & C6 & C7 & C8 & _).
  split; [exact C1|]. split; [exact C2|]. split; [apply pick_b_ok; vm_compute; reflexivity|]. split; [exact C4|]. split; [exact C5|]. split; [exact C6|]. split; [exact C7|]. split; [exact C8|]. clear.
  cbv zeta. split; [vm_compute; reflexivity|]. split; [vm_compute; reflexivity|]. split; [vm_compute; reflexivity|]. split; vm_compute; reflexivity.
Qed.

(** *** limits *)
(** The unpickled item is not the pickled one: items of the tree have other values ... *)
Theorem C103_equal_refuted : exists h x A h' y c d, LReach h /\ flag h x 5 = true /\ pickle_dumps 100 h (DItem x) = Some (Ok A) /\ pickle_loads A h = (h', Ok y) /\
  nth_error (children h x) 1 = Some c /\ nth_error (children h' y) 1 = Some d /\ flag h c 3 = true /\ flag h c 4 = false /\ a_val (view h c) = PInt 10 /\
  flag h' d 3 = false /\ flag h' d 4 = true /\ a_val (view h' d) = PInt 0.
Proof.
  pose (A := match pickle_dumps 100 rl_heap (DItem 5) with Some (Ok A) => A | _ => Node (RA PNone PNone None 0) [] end).
  exists rl_heap, 5, A, (fst (pickle_loads A rl_heap)), 12, 4, 10.
  split; [apply Reach_LReach; exact rl_reach|]. split; [vm_compute; reflexivity|]. split; [vm_compute; reflexivity|].
  split; [apply run_pair; vm_compute; reflexivity|].
  repeat match goal with |- _ /\ _ => split end; vm_compute; reflexivity.
Qed.
(** ... and a linked child that is not written as a placeholder is still marked as linked after unpickling,
    with the contents it had. *)
Theorem C103_contents_refuted : exists h x A h' x' p' y y', LReach h /\ pickle_dumps 100 h (DItem x) = Some (Ok A) /\ pickle_loads A empty_heap = (h', Ok x') /\
  In p' (children h' x') /\ In y' (children h' p') /\ flag h' y' 3 = true /\ flag h' y' 4 = false /\ flag h y 3 = true /\ tag_value h' y' = tag_value h y.
Proof.
  pose (A := match pickle_dumps 100 sv_heap (DItem 12) with Some (Ok A) => A | _ => Node (RA PNone PNone None 0) [] end).
  exists sv_heap, 12, A, (fst (pickle_loads A empty_heap)), 6, 5, 7, 0. split; [exact sv_reach|]. split; [vm_compute; reflexivity|].
  split; [apply run_pair; vm_compute; reflexivity|].
  split; [vm_compute; auto|]. split; [vm_compute; auto|]. repeat match goal with |- _ /\ _ => split end; vm_compute; reflexivity.
Qed.

Print Assumptions C103_pickle_partial.
Print Assumptions C103_reload_partial.
Print Assumptions C103_equal_refuted.
Print Assumptions C103_contents_refuted.
