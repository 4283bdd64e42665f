(** Which items a call can write to: everything outside a region that is closed under
    parent / child links and contains the operands stays as it was. *)
From Verif Require Import Base Heap HeapSpec ListLemmas ForestLemmas HeapInv HeapAttach HeapMut History.

Definition incR (R : loc -> Prop) (l : list loc) : Prop := forall y, In y l -> R y.
(** every item a node refers to (children, parent, covered item) lies in the region *)
Definition fdR (R : loc -> Prop) (d : fdict) : Prop := forall t f, In (t, f) d -> incR R f.
Record ncl (R : loc -> Prop) (n : node) : Prop := {
  ncl_items : incR R (nitems n);
  ncl_prt : forall pl, nprt n = Some pl -> R (pl_par pl);
  ncl_cover : forall k y, nlink n = Some k -> lk_cover k = Some y -> R y;
  ncl_fams : forall d, nfams n = Some d -> fdR R d;
  ncl_stale : forall d, nbound n = Stale d -> nitems n = [] }.
(** the look-up methods are not those of a dict replaced by clear() *)
Definition nst (n : node) : Prop := forall d, nbound n <> Stale d.

(** the items a call may write to *)
Definition writes (o : op) : list loc :=
  match o with
  | ONew _ _ _ _ _ | OCopy _ => []
  | OAppend p _ | OAppendLeft p _ | OInsert p _ _ | OExtend p _ | OExtendTree p _
  | OExtendLeft p _ | ODelete p _ | ORemove p _ | OSetItem p _ _
  | OReverse p | ORotate p _ | OSort p _ _ | OClear p _ => [p]
  | OMove x _ | ORename x _
  | OSetTreeReadOnly x | OUnsetTreeReadOnly x | OSetValueReadOnly x | OUnsetValueReadOnly x
  | OSetValue x _ | ODelValue x | OSetKeyValue x _ _ | ODelKeyValue x _ | OCouple x _ => [x]
  | OIdx _ | OTagIdx _ | OIdxPath _ | OTagIdxPath _ | OPre _ | OPost _ | OKeys _ | OTags _ _
  | OFamilies _ _ | OForceCache _ => []
  end.
(** the items a call may attach *)
Definition given (o : op) : list loc :=
  let ofi a := match a with IItem x => [x] | IVal _ => [] end in
  let ofe := flat_map (fun e => match e with EItem x => [x] | _ => [] end) in
  match o with
  | ONew _ _ es _ _ | OExtend _ es | OExtendLeft _ es => ofe es
  | OAppend _ a | OAppendLeft _ a | OInsert _ _ a | OSetItem _ _ a => ofi a
  | _ => []
  end.

Section LOCAL.
Variable R : loc -> Prop.
Variable R_dec : forall x, R x \/ ~ R x.
Variable h0 : heap.
Hypothesis R_fresh : forall y, hnext h0 <= y -> R y.
Hypothesis has_parent : forall p c, In c (nitems (hnode h0 p)) -> nprt (hnode h0 c) <> None.
(** N: items known not to have replaced look-up methods *)
Record linv (N : loc -> Prop) (h : heap) : Prop := {
  li_next : hnext h0 <= hnext h;
  li_frame : forall y, ~ R y -> strip (hnode h y) = strip (hnode h0 y);
  li_closed : forall y, R y -> ncl R (hnode h y);
  li_nst : forall y, N y -> nst (hnode h y) }.

Definition lopat {A} (N : loc -> Prop) (h : heap) (Q : A -> Prop) (m : M A) : Prop :=
  linv N (fst (m h)) /\ forall a, snd (m h) = Ok a -> Q a.
Definition lop {A} (N : loc -> Prop) (Q : A -> Prop) (m : M A) : Prop := forall h, linv N h -> lopat N h Q m.
Definition any {A} : A -> Prop := fun _ => True.
Definition plus (N : loc -> Prop) (p : loc) : loc -> Prop := fun y => N y \/ y = p.
Notation incR := (HeapLocal.incR R).
Notation fdR := (HeapLocal.fdR R).

Lemma linv_weak (N N' : loc -> Prop) h : (forall y, N y -> N' y) -> linv N' h -> linv N h.
Proof. intros H [A B C D]. split; auto. Qed.
Lemma linv_plus N p h : linv N h -> nst (hnode h p) -> linv (plus N p) h.
Proof. intros [A B C D] H. split; auto. intros y [Hy|Hy]; [auto|subst; exact H]. Qed.
Lemma lopat_plus {A} N p h (Q : A -> Prop) m : linv N h -> nst (hnode h p) -> lop (plus N p) Q m -> lopat N h Q m.
Proof.
  intros I H L. destruct (L h (linv_plus N p h I H)) as [I' P]. split; [|exact P].
  eapply linv_weak; [|exact I']. intros y Hy. left. exact Hy.
Qed.

Lemma lop_ret {A} N (Q : A -> Prop) a : Q a -> lop N Q (ret a).
Proof. intros H h I. split; [exact I|]. intros b [= <-]. exact H. Qed.
Lemma lop_throw {A} N (Q : A -> Prop) e : lop N Q (throw e).
Proof. intros h I. split; [exact I|]. intros b. discriminate. Qed.
Lemma lop_any {A} N (Q : A -> Prop) m : lop N Q m -> lop N any m.
Proof. intros H h I. destruct (H h I). split; [assumption|]. intros; exact Logic.I. Qed.
Lemma lopat_bind {A B} N h (Q : A -> Prop) (Q' : B -> Prop) m k :
  lopat N h Q m -> (forall a, Q a -> lop N Q' (k a)) -> lopat N h Q' (bind m k).
Proof.
  intros [I P] H. unfold lopat, bind in *. destruct (m h) as [h1 [a|e]]; cbn in *.
  - apply H; [apply P; reflexivity|exact I].
  - split; [exact I|]. discriminate.
Qed.
Lemma lop_bind {A B} N (Q : A -> Prop) (Q' : B -> Prop) m k :
  lop N Q m -> (forall a, Q a -> lop N Q' (k a)) -> lop N Q' (bind m k).
Proof. intros H1 H2 h I. eapply lopat_bind; [apply H1, I|exact H2]. Qed.
Lemma lop_seq {A B} N (Q' : B -> Prop) (m : M A) k :
  lop N any m -> (forall a, lop N Q' (k a)) -> lop N Q' (bind m k).
Proof. intros H1 H2. eapply lop_bind; [exact H1|]. intros a _. apply H2. Qed.
Lemma lop_getsb {A B} N (f : heap -> A) (Q : B -> Prop) k :
  (forall h, linv N h -> lop N Q (k (f h))) -> lop N Q (bind (gets f) k).
Proof. intros H h I. apply (H h I h I). Qed.
(** reading the state and looking whether p has children *)
Lemma lop_getsn {B} (N : loc -> Prop) p (Q : B -> Prop) k : R p ->
  (forall h, linv N h -> nitems (hnode h p) = [] -> lop N Q (k h)) ->
  (forall h c l, linv N h -> nitems (hnode h p) = c :: l -> lop (plus N p) Q (k h)) ->
  lop N Q (bind (gets (fun h => h)) k).
Proof.
  intros Rp H1 H2 h I. destruct (nitems (hnode h p)) as [|c l] eqn:E.
  - apply (H1 h I E h I).
  - apply (lopat_plus N p h Q (k h) I); [|apply (H2 h c l I E)].
    intros d Ed. rewrite (ncl_stale _ _ (li_closed _ _ I p Rp) d Ed) in E. discriminate.
Qed.
Lemma lop_lift {A} N (r : res A) : lop N any (lift r).
Proof. intros h I. split; [exact I|]. intros; exact Logic.I. Qed.

Lemma linv_hmod (N : loc -> Prop) h x f : linv N h -> R x ->
  (ncl R (hnode h x) -> (N x -> nst (hnode h x)) -> ncl R (f (hnode h x)) /\ (N x -> nst (f (hnode h x)))) ->
  linv N (hmod h x f).
Proof.
  intros [L F C D] Rx Hf. destruct (Hf (C x Rx) (D x)) as [Hc Hn]. split; cbn [hmod hnext hnode].
  - exact L.
  - intros y Hy. destruct (Nat.eqb_spec y x) as [E|_]; [subst; contradiction|]. apply F, Hy.
  - intros y Hy. destruct (Nat.eqb_spec y x) as [E|_]; [subst y; exact Hc|apply C, Hy].
  - intros y Hy. destruct (Nat.eqb_spec y x) as [E|_]; [subst y; apply Hn, Hy|apply D, Hy].
Qed.
Lemma lop_upd (N : loc -> Prop) x f (Q : unit -> Prop) : R x ->
  (forall n, ncl R n -> (N x -> nst n) -> ncl R (f n) /\ (N x -> nst (f n))) -> Q tt -> lop N Q (upd x f).
Proof.
  intros Rx Hf HQ h I. split; [apply linv_hmod; auto|]. intros [] _. exact HQ.
Qed.
(** new look-up methods *)
Lemma lop_rebind {B} N p d (Q : B -> Prop) k : R p -> fdR d -> lop (plus N p) Q (k tt) ->
  lop N Q (bind (upd p (set_fams (Some d) Current)) k).
Proof.
  intros Rp Hd Hk h I. set (h' := hmod h p (set_fams (Some d) Current)).
  assert (I' : linv N h').
  { apply linv_hmod; [exact I|exact Rp|]. intros [A B' C D E] _. split; [|intros _ d'; discriminate].
    split; cbn; auto; try discriminate. intros d' [= <-]. exact Hd. }
  apply (lopat_plus N p h' Q (k tt) I'); [|exact Hk].
  intros d' E. subst h'. cbn in E. rewrite Nat.eqb_refl in E. discriminate E.
Qed.
Lemma set_cache_lop N e s y i : lop N any (set_cache e s y i).
Proof.
  intros h I. unfold lopat, set_cache. split; [|intros; exact Logic.I].
  destruct (nprt (hnode h y)) as [pl|] eqn:E; [|exact I].
  destruct (pl_tuple pl) eqn:Et; [exact I|]. destruct I as [L F C D]. split; cbn [fst hmod hnext hnode].
  - exact L.
  - intros z Hz. destruct (Nat.eqb_spec z y) as [Ez|_]; [subst z|apply F, Hz].
    rewrite <- F by exact Hz. unfold strip. destruct s; cbn; rewrite E; cbn; rewrite ?Et; reflexivity.
  - intros z Hz. destruct (Nat.eqb_spec z y) as [Ez|_]; [subst z|apply C, Hz].
    specialize (C y Hz). destruct C as [C1 C2 C3 C4 C5]. split; cbn [nitems nprt nlink nfams nbound set_prt]; try assumption.
    intros pl' [= <-]. destruct s; cbn; eapply C2, E.
  - intros z Hz. destruct (Nat.eqb_spec z y) as [Ez|_]; [subst z|apply D, Hz]. apply (D y Hz).
Qed.

(** ** node updates *)
Definition upk (N : loc -> Prop) (x : loc) (n n' : node) : Prop :=
  (ncl R n /\ (N x -> nst n)) -> ncl R n' /\ (N x -> nst n').
Lemma upk_items (N : loc -> Prop) x l n n' : N x -> incR l -> upk N x n n' -> upk N x n (set_items l n').
Proof.
  intros Nx H U P. destruct (U P) as [[A B C D E] S]. split; [|exact S]. split; cbn; auto.
  intros d Ed. destruct (S Nx d Ed).
Qed.
Lemma upk_clear (N : loc -> Prop) x b n n' : (forall d, b <> Stale d) \/ ~ N x -> upk N x n n' -> upk N x n (set_items [] (set_fams (Some []) b n')).
Proof.
  intros H U P. destruct (U P) as [[A B C D E] S]. split; [split; cbn; auto|].
  - intros y [].
  - intros d [= <-] t f [].
  - cbn. destruct H as [H|H]; [intros _; exact H|]. intros Nx. destruct (H Nx).
Qed.
Lemma upk_nil N x n n' : upk N x n n' -> upk N x n (set_items [] n').
Proof.
  intros U P. destruct (U P) as [[A B C D E] S]. split; [|exact S]. split; cbn; auto. intros y [].
Qed.
Lemma upk_fams N x d n n' : fdR d -> upk N x n n' -> upk N x n (set_fams (Some d) (nbound n') n').
Proof.
  intros H U P. destruct (U P) as [[A B C D E] S]. split; [|exact S]. split; cbn; auto. intros d' [= <-]. exact H.
Qed.
Ltac upk_easy := let U := fresh in let P := fresh in intros U P; destruct (U P) as [[A B C D E] S]; split; [split; cbn; auto|exact S].
Lemma upk_tag N x t n n' : upk N x n n' -> upk N x n (set_tag t n').
Proof. upk_easy. Qed.
Lemma upk_val N x t n n' : upk N x n n' -> upk N x n (set_val t n').
Proof. upk_easy. Qed.
Lemma upk_flg N x t n n' : upk N x n n' -> upk N x n (set_flg t n').
Proof. upk_easy. Qed.
Lemma upk_coupled N x t n n' : upk N x n n' -> upk N x n (set_coupled t n').
Proof. upk_easy. Qed.
Lemma upk_prt_none N x n n' : upk N x n n' -> upk N x n (set_prt None n').
Proof. upk_easy. discriminate. Qed.
Lemma upk_prt N x p i j b n n' : R p -> upk N x n n' -> upk N x n (set_prt (Some (PL p i j b)) n').
Proof. intros Rp. upk_easy. intros pl [= <-]. exact Rp. Qed.
Lemma upk_link_none N x s b ts n n' : upk N x n n' -> upk N x n (set_link (Some (LK s b ts None)) n').
Proof. upk_easy. intros k y [= <-]. discriminate. Qed.
Lemma upk_id N x n : upk N x n n. Proof. intros H. exact H. Qed.
Lemma upk_use (N : loc -> Prop) x (f : node -> node) : (forall n, upk N x n (f n)) ->
  forall n, ncl R n -> (N x -> nst n) -> ncl R (f n) /\ (N x -> nst (f n)).
Proof. intros H n A B. apply H. auto. Qed.
Lemma ncl_fresh t v fl lk : (forall k, lk = Some k -> lk_cover k = None) -> ncl R (fresh_node t v fl lk).
Proof.
  intros H. split; cbn; try discriminate; [intros y []|]. intros k y E Ey. rewrite (H k E) in Ey. discriminate.
Qed.

(** ** lists *)
Lemma incR_nil : incR []. Proof. intros y []. Qed.
Lemma incR_cons x l : R x -> incR l -> incR (x :: l).
Proof. intros H H' y [<-|Hy]; auto. Qed.
Lemma incR_app l m : incR l -> incR m -> incR (l ++ m).
Proof. intros H H' y Hy. apply in_app_iff in Hy as [|]; auto. Qed.
Lemma incR_sub l m : (forall y, In y m -> In y l) -> incR l -> incR m.
Proof. intros H H' y Hy. auto. Qed.
Lemma in_firstn {A} (y : A) k l : In y (firstn k l) -> In y l.
Proof. intros H. rewrite <- (firstn_skipn k l). apply in_app_iff. left. exact H. Qed.
Lemma in_skipn {A} (y : A) k l : In y (skipn k l) -> In y l.
Proof. intros H. rewrite <- (firstn_skipn k l). apply in_app_iff. right. exact H. Qed.
Lemma incR_insert k x l : R x -> incR l -> incR (insert_at k x l).
Proof.
  intros H H' y Hy. unfold insert_at in Hy. apply in_app_iff in Hy as [Hy|[<-|Hy]]; auto;
    [apply in_firstn in Hy|apply in_skipn in Hy]; auto.
Qed.
Lemma incR_remove k l : incR l -> incR (remove_at k l).
Proof.
  intros H' y Hy. unfold remove_at in Hy. apply in_app_iff in Hy as [Hy|Hy];
    [apply in_firstn in Hy|apply in_skipn in Hy]; auto.
Qed.
Lemma incR_replace k x l : R x -> incR l -> incR (replace_at k x l).
Proof.
  intros H H' y Hy. unfold replace_at in Hy. apply in_app_iff in Hy as [Hy|[<-|Hy]]; auto;
    [apply in_firstn in Hy|apply in_skipn in Hy]; auto.
Qed.
Lemma incR_rev l : incR l -> incR (rev l).
Proof. intros H y Hy. apply H, in_rev, Hy. Qed.
Lemma incR_nth l k x : incR l -> nth_error l k = Some x -> R x.
Proof. intros H E. apply H. eapply nth_error_In, E. Qed.
Lemma incR_slice a b l : incR l -> incR (py_slice a b l).
Proof. intros H y Hy. unfold py_slice in Hy. apply in_firstn, in_skipn in Hy. auto. Qed.
Lemma incR_slice_del a b l : incR l -> incR (py_slice_del a b l).
Proof.
  intros H y Hy. unfold py_slice_del in Hy.
  apply in_app_iff in Hy as [Hy|Hy]; [apply in_firstn in Hy|apply in_skipn in Hy]; auto.
Qed.
Lemma in_ins_sorted key x l y : In y (ins_sorted key x l) -> y = x \/ In y l.
Proof.
  induction l as [|z l IH]; cbn; [intuition|]. destruct (key x <=? key z)%Z; cbn; [intuition|].
  intros [<-|H]; [auto|]. destruct (IH H); auto.
Qed.
Lemma incR_sort key l : incR l -> incR (sort_list key l).
Proof.
  induction l as [|x l IH]; cbn; intros H; [exact H|]. intros y Hy. apply in_ins_sorted in Hy as [->|Hy].
  - apply H. left. reflexivity.
  - apply IH; [|exact Hy]. intros z Hz. apply H. right. exact Hz.
Qed.
Lemma incR_last l x : incR l -> last (map Some l) None = Some x -> R x.
Proof.
  intros H. induction l as [|y l IH]; cbn; [discriminate|]. destruct l as [|z l'].
  - cbn. intros [= <-]. apply H. left. reflexivity.
  - intros E. apply IH; [intros w Hw; apply H; right; exact Hw|exact E].
Qed.
Lemma incR_tail x l : incR (x :: l) -> incR l.
Proof. intros H y Hy. apply H. right. exact Hy. Qed.
Lemma incR_head x l : incR (x :: l) -> R x.
Proof. intros H. apply H. left. reflexivity. Qed.

Lemma linv_items {N} h p : linv N h -> R p -> incR (nitems (hnode h p)).
Proof. intros I Rp. apply (li_closed _ _ I p Rp). Qed.
Lemma linv_par {N} h x pl : linv N h -> R x -> nprt (hnode h x) = Some pl -> R (pl_par pl).
Proof. intros I Rx. apply (li_closed _ _ I x Rx). Qed.

Lemma deep_R {N} h (I : linv N h) : forall fuel x l, R x -> deep_list fuel h x = Some l -> incR l.
Proof.
  induction fuel as [|f IH]; intros x l Rx; cbn [deep_list]; [discriminate|].
  pose proof (linv_items h x I Rx) as Hi. revert l Hi.
  generalize (nitems (hnode h x)) as cs. induction cs as [|c cs IHc]; cbn [map opt_concat]; intros l Hi.
  - intros [= <-]. apply incR_nil.
  - destruct (deep_list f h c) as [lc|] eqn:Ec; cbn [option_map]; [|discriminate].
    destruct (opt_concat _) as [r|] eqn:Er; [|discriminate]. intros [= <-].
    apply incR_cons; [apply (incR_head _ _ Hi)|]. apply incR_app.
    + apply (IH c); [apply (incR_head _ _ Hi)|exact Ec].
    + apply IHc; [apply (incR_tail _ _ Hi)|reflexivity].
Qed.

(** ** the families dict *)
Lemma dget_fdR d t f : fdR d -> dget d t = Some f -> incR f.
Proof.
  intros H. induction d as [|[k w] d IH]; cbn; [discriminate|]. destruct (pyval_eqb k t).
  - intros [= <-]. apply (H k). left. reflexivity.
  - apply IH. intros t' f' Hin. apply (H t'). right. exact Hin.
Qed.
Lemma fdR_dset d t l : fdR d -> incR l -> fdR (dset d t l).
Proof.
  intros H Hl. induction d as [|[k w] d IH]; cbn.
  - intros t' f' [[= <- <-]|[]]. exact Hl.
  - assert (H' : fdR d) by (intros t' f' Hin; apply (H t'); right; exact Hin).
    destruct (pyval_eqb k t); intros t' f' [[= <- <-]|Hin].
    + exact Hl.
    + apply (H' t'), Hin.
    + apply (H k). left. reflexivity.
    + apply (IH H' t'), Hin.
Qed.
Lemma fdR_ddel d t : fdR d -> fdR (ddel d t).
Proof.
  intros H. induction d as [|[k w] d IH]; cbn; [exact H|].
  assert (H' : fdR d) by (intros t' f' Hin; apply (H t'); right; exact Hin).
  destruct (pyval_eqb k t); [exact H'|]. intros t' f' [[= <- <-]|Hin]; [apply (H k); left; reflexivity|apply (IH H' t'), Hin].
Qed.
Lemma fdR_rev d : fdR d -> fdR (map (fun kv => (fst kv, rev (snd kv))) d).
Proof.
  intros H t f Hin. apply in_map_iff in Hin as ([k w] & [= <- <-] & Hw). apply incR_rev, (H k), Hw.
Qed.
Lemma linv_fams {N} h p d : linv N h -> R p -> nfams (hnode h p) = Some d -> fdR d.
Proof. intros I Rp E. apply (ncl_fams _ _ (li_closed _ _ I p Rp) d E). Qed.
Definition famR (o : option (list loc)) : Prop := forall f, o = Some f -> incR f.
Lemma get_fam_lop {N} p t : lop N any (get_fam p t).
Proof.
  intros h I. split; [|intros; exact Logic.I]. unfold get_fam.
  destruct (nbound (hnode h p)); [exact I| |exact I]. destruct (nfams (hnode h p)); exact I.
Qed.
Lemma get_fam_R (N : loc -> Prop) p t : R p -> N p -> lop N famR (get_fam p t).
Proof.
  intros Rp Np h I. split; [apply (get_fam_lop p t h I)|]. intros o. unfold get_fam.
  destruct (nbound (hnode h p)) as [| |d] eqn:Eb; cbn; [discriminate| |destruct (li_nst _ _ I p Np d Eb)].
  destruct (nfams (hnode h p)) as [d|] eqn:Ed; [|discriminate]. cbn. intros [= <-] f Ef.
  apply (dget_fdR d t f); [apply (linv_fams h p d I Rp Ed)|exact Ef].
Qed.
Lemma linv_set_fams (N : loc -> Prop) h p d : linv N h -> R p -> fdR d ->
  linv N (hmod h p (set_fams (Some d) (nbound (hnode h p)))).
Proof.
  intros I Rp Hd. apply linv_hmod; [exact I|exact Rp|]. intros [A B C D E] S. split; [|exact S].
  split; cbn; auto. intros d' [= <-]. exact Hd.
Qed.
Lemma put_fam_lop (N : loc -> Prop) p t l : R p -> N p -> incR l -> lop N any (put_fam p t l).
Proof.
  intros Rp Np Hl h I. split; [|intros; exact Logic.I]. unfold put_fam.
  destruct (nbound (hnode h p)) as [| |d] eqn:Eb; [exact I| |destruct (li_nst _ _ I p Np d Eb)].
  destruct (nfams (hnode h p)) as [d|] eqn:Ed; [|exact I]. cbn [fst]. rewrite <- Eb.
  apply linv_set_fams; [exact I|exact Rp|]. apply fdR_dset; [apply (linv_fams h p d I Rp Ed)|exact Hl].
Qed.
Lemma del_fam_lop {N} p t : R p -> lop N any (del_fam p t).
Proof.
  intros Rp h I. split; [|intros; exact Logic.I]. unfold del_fam.
  destruct (nfams (hnode h p)) as [d|] eqn:Ed; [|exact I]. destruct (dget d t); [|exact I].
  apply linv_set_fams; [exact I|exact Rp|]. apply fdR_ddel, (linv_fams h p d I Rp Ed).
Qed.
Lemma dict_get_lop {N} p t : R p -> lop N famR (dict_get p t).
Proof.
  intros Rp h I. unfold lopat, dict_get. destruct (nfams (hnode h p)) as [d|] eqn:Ed; (split; [exact I|]); [|discriminate].
  intros o [= <-] f Ef. apply (dget_fdR d t f); [apply (linv_fams h p d I Rp Ed)|exact Ef].
Qed.
Lemma dict_put_lop {N} p t l : R p -> incR l -> lop N any (dict_put p t l).
Proof.
  intros Rp Hl h I. split; [|intros; exact Logic.I]. unfold dict_put.
  destruct (nfams (hnode h p)) as [d|] eqn:Ed; [|exact I].
  apply linv_set_fams; [exact I|exact Rp|]. apply fdR_dset; [apply (linv_fams h p d I Rp Ed)|exact Hl].
Qed.
Lemma new_item_lop {N} t v fl lk : (forall k, lk = Some k -> lk_cover k = None) -> lop N R (new_item t v fl lk).
Proof.
  intros Hk h I. destruct I as [L F C D]. split; cbn.
  - split; cbn.
    + lia.
    + intros y Hy. destruct (Nat.eqb_spec y (hnext h)) as [E|_]; [|apply F, Hy].
      subst y. exfalso. apply Hy, R_fresh, L.
    + intros y Hy. destruct (Nat.eqb_spec y (hnext h)) as [E|_]; [|apply C, Hy]. apply ncl_fresh, Hk.
    + intros y Hy. destruct (Nat.eqb_spec y (hnext h)) as [E|_]; [|apply D, Hy]. intros d. discriminate.
  - intros a [= <-]. apply R_fresh, L.
Qed.
Lemma mapM__lop {N} {A} (f : A -> M unit) l : (forall a, In a l -> lop N any (f a)) -> lop N any (mapM_ f l).
Proof.
  induction l as [|a l IH]; intros H; cbn; [apply lop_ret; exact I|].
  apply lop_seq; [apply H; left; reflexivity|]. intros _. apply IH. intros b Hb. apply H. right. exact Hb.
Qed.
Lemma mapM_lop {N} {A B} (Q : B -> Prop) (f : A -> M B) l :
  (forall a, In a l -> lop N Q (f a)) -> lop N (fun bs => forall b, In b bs -> Q b) (mapM f l).
Proof.
  induction l as [|a l IH]; intros H; cbn; [apply lop_ret; intros b []|].
  eapply lop_bind; [apply H; left; reflexivity|]. intros b Hb.
  eapply lop_bind; [apply IH; intros c Hc; apply H; right; exact Hc|]. intros bs Hbs.
  apply lop_ret. intros c [<-|Hc]; auto.
Qed.
(** what a subscript finds lies in the region *)
Lemma fam_of_R {N} h p t f : linv N h -> R p -> nitems (hnode h p) <> [] -> fam_of h p t = Ok (Some f) -> incR f.
Proof.
  intros I Rp Hne. unfold fam_of. destruct (nbound (hnode h p)) as [| |d] eqn:Eb; [discriminate| |].
  - destruct (nfams (hnode h p)) as [d|] eqn:Ed; [|discriminate]. destruct (hashable t); [|discriminate].
    intros [= E]. apply (dget_fdR d t f); [apply (linv_fams h p d I Rp Ed)|exact E].
  - destruct (Hne (ncl_stale _ _ (li_closed _ _ I p Rp) d Eb)).
Qed.
Lemma list_at_R l i x : incR l -> list_at l i = Some x -> R x.
Proof. intros H. unfold list_at. destruct (py_idx _ _); [|discriminate]. intros E. apply (incR_nth l n x H E). Qed.
Lemma getitem_R {N} h p tg o : linv N h -> R p -> getitem h p tg = Ok (GItem o) -> R o.
Proof.
  intros I Rp. unfold getitem. pose proof (linv_items h p I Rp) as Hi.
  destruct (nitems (hnode h p)) as [|c0 cs] eqn:Ei; [discriminate|].
  assert (Hne : nitems (hnode h p) <> []) by congruence.
  assert (NF : forall t e, fallback h p t e <> Ok (GItem o)).
  { intros t e. unfold fallback. destruct (fam_of h p t) as [[?|]|]; discriminate. }
  destruct tg as [v|a b|t|t a b|t i| |f]; try discriminate.
  - assert (L : forall v, getitem_val h p v = Ok (GItem o) ->
        match v with
        | PTuple l => getitem_tuple h p l = Ok (GItem o)
        | PInt z => list_at (c0 :: cs) z = Some o
        | _ => False end).
    { intros w. destruct w; cbn [getitem_val]; rewrite Ei;
        try (match goal with |- context[fam_of h p ?x] => destruct (fam_of h p x) as [[?|]|]; discriminate end).
      - destruct (list_at _ z); [intros [= ->]; reflexivity|]. intros E. destruct (NF _ _ E).
      - auto.
      - generalize (@nil loc) at 2 as acc. induction l as [|t r IH]; intros acc.
        + destruct acc; discriminate.
        + destruct (getitem_val h p t) as [[?|?]|]; [apply IH|apply IH|discriminate].
      - generalize (@nil loc) as acc. induction l as [|t r IH]; intros acc.
        + destruct acc; discriminate.
        + destruct (families_of h p t) as [[?|]|]; [apply IH|discriminate|discriminate]. }
    intros E. specialize (L v E). destruct v; try contradiction.
    + apply (list_at_R _ _ _ Hi L).
    + clear E. unfold getitem_tuple in L. destruct l as [|t [|i [|? ?]]]; try (destruct (NF _ _ L)).
      destruct (fam_of h p t) as [[f|]|e] eqn:Ef; [|destruct (NF _ _ L)|destruct e; destruct (NF _ _ L)].
      destruct (as_index i).
      * destruct (list_at f z) eqn:El; [|destruct (NF _ _ L)]. injection L as ->.
        apply (list_at_R f z o); [apply (fam_of_R h p t f I Rp Hne Ef)|exact El].
      * match type of L with match ?X with _ => _ end = _ => destruct X end; [discriminate|destruct (NF _ _ L)].
  - destruct (fam_of h p t) as [[?|]|[]]; discriminate.
  - destruct (fam_of h p t) as [[?|]|[]]; discriminate.
  - destruct (fam_of h p t) as [[f|]|] eqn:Ef; try discriminate. destruct (list_at f i) eqn:El; [|discriminate].
    intros [= ->]. apply (list_at_R f i o); [apply (fam_of_R h p t f I Rp Hne Ef)|exact El].
Qed.

(** ** automation: one rule per construct *)
Ltac nin := solve [repeat first [assumption | right; reflexivity | left]].
Ltac rfact :=
  first [ assumption
        | match goal with
          | |- R (pl_par ?pl) => eapply linv_par; [eassumption| |eassumption]; rfact
          | H : nth_error ?l _ = Some ?x |- R ?x => eapply incR_nth; [|exact H]; rfact
          | H : _ ?a |- R ?a => exact H
          | H : _ ?a |- incR ?a => exact H
          | H : famR ?o, E : ?o = Some ?f |- incR ?f => exact (H _ E)
          | H : famR (Some ?f) |- incR ?f => exact (H _ eq_refl)
          | |- incR [] => apply incR_nil
          | E : nitems (hnode ?h ?p) = ?l |- incR ?l => rewrite <- E; apply (linv_items h); [assumption|rfact]
          | |- incR (_ :: _) => apply incR_cons; rfact
          | |- incR (_ ++ _) => apply incR_app; rfact
          | |- incR (nitems (hnode _ _)) => eapply linv_items; [eassumption|rfact]
          | |- incR (insert_at _ _ _) => apply incR_insert; rfact
          | |- incR (py_insert _ _ _) => apply incR_insert; rfact
          | |- incR (remove_at _ _) => apply incR_remove; rfact
          | |- incR (replace_at _ _ _) => apply incR_replace; rfact
          | |- incR (rev _) => apply incR_rev; rfact
          | |- incR (py_slice _ _ _) => apply incR_slice; rfact
          | |- incR (py_slice_del _ _ _) => apply incR_slice_del; rfact
          | |- incR (sort_list _ _) => apply incR_sort; rfact
          | E : nfams (hnode _ _) = Some ?d |- fdR ?d => eapply linv_fams; [eassumption| |exact E]; rfact
          | |- fdR (dset _ _ _) => apply fdR_dset; rfact
          | |- fdR (ddel _ _) => apply fdR_ddel; rfact
          | |- fdR (map _ _) => apply fdR_rev; rfact
          | |- fdR [] => intros ? ? []
          | H : incR (?x :: _) |- R ?x => apply (incR_head _ _ H)
          end ].
Ltac nfact := apply upk_use; intros;
  repeat first [ apply upk_items; [nin|rfact|] | apply upk_fams; [rfact|] | apply upk_tag
               | apply upk_val | apply upk_flg | apply upk_coupled
               | apply upk_prt_none | apply upk_prt; [rfact|] | apply upk_link_none ];
  apply upk_id.
Ltac lstep :=
  match goal with
  | |- lop _ _ (bind (gets _) _) => apply lop_getsb; let h := fresh "h" in let I := fresh "I" in intros h I; cbv beta zeta
  | |- lop _ _ (bind (get_fam _ _) _) => eapply lop_bind; [apply get_fam_R; [rfact|nin]|intros ? ?; cbv beta]
  | |- lop _ _ (bind (dict_get _ _) _) => eapply lop_bind; [apply dict_get_lop; rfact|intros ? ?; cbv beta]
  | |- lop _ _ (ret _) => apply lop_ret; first [exact Logic.I|rfact|idtac]
  | |- lop _ _ (throw _) => apply lop_throw
  | |- lop _ _ (lift _) => apply lop_lift
  | |- lop _ _ (upd _ _) => apply lop_upd; [rfact|nfact|exact Logic.I]
  | |- lop _ _ (get_fam _ _) => apply get_fam_lop
  | |- lop _ _ (put_fam _ _ _) => apply put_fam_lop; [rfact|nin|rfact]
  | |- lop _ _ (del_fam _ _) => apply del_fam_lop; rfact
  | |- lop _ _ (dict_put _ _ _) => apply dict_put_lop; rfact
  | |- lop _ _ (set_cache _ _ _ _) => apply set_cache_lop
  | |- lop _ _ (let _ := _ in _) => cbv zeta
  | |- lop _ _ (match ?x with _ => _ end) => let E := fresh "E" in destruct x eqn:E
  end.
Ltac lseq := apply lop_seq; [|intros ?].
Tactic Notation "lsq" ident(x) := apply lop_seq; [|intros x].
Ltac ll := repeat first [lstep | lseq].

Lemma scan_lop {N} s x l : forall i d, lop N any (scan s l i d x).
Proof. induction l as [|y l IH]; intros i d; cbn [scan]; ll. apply IH. Qed.
Lemma locate_lop {N} s l c x : lop N any (locate s l c x).
Proof. unfold locate. ll; apply scan_lop. Qed.
Lemma get_idx_lop {N} x : lop N any (get_idx x).
Proof.
  intros h I. unfold lopat, get_idx. destruct (nprt (hnode h x)) as [pl|]; [|split; [exact I|intros; exact Logic.I]].
  apply (lop_seq _ any (locate SAbs (nitems (hnode h (pl_par pl))) (pl_abs pl) x)); [apply locate_lop|intros; ll|exact I].
Qed.
Lemma getitem_fam_lop {N} p t : lop N any (getitem_fam p t).
Proof. unfold getitem_fam. apply lop_seq; [apply get_fam_lop|intros ?]. ll. Qed.
Lemma getitem_fam_R (N : loc -> Prop) p t : R p -> N p -> lop N incR (getitem_fam p t).
Proof. intros Rp Np. unfold getitem_fam. ll. Qed.
Ltac lfam := eapply lop_bind; [apply getitem_fam_R; [rfact|nin]|intros ? ?; cbv beta].
Lemma get_tag_idx_lop {N} x : lop N any (get_tag_idx x).
Proof.
  intros h I. unfold lopat, get_tag_idx. destruct (nprt (hnode h x)) as [pl|]; [|split; [exact I|intros; exact Logic.I]].
  cbv zeta. apply (lop_seq _ any (getitem_fam (pl_par pl) (ntag (hnode h x)))); [apply getitem_fam_lop| |exact I].
  intros f. lseq; [apply locate_lop|ll].
Qed.
Lemma idx_lop {N} x : lop N any (idx_or_type_error x).
Proof. unfold idx_or_type_error. lseq; [apply get_idx_lop|ll]. Qed.

(** ** attaching *)
Lemma append_core_lop {N} p x : R p -> R x -> lop N any (append_core p x).
Proof.
  intros Rp Rx. unfold append_core. apply (lop_getsn N p); [exact Rp| |].
  - intros h I E. rewrite E. intros h1 I1.
    set (t := ntag (hnode h x)).
    change (lopat N h1 any (upd p (fun n => set_fams (Some [(t, [x])]) Current (set_items [x] n)) ;;;
                            upd x (set_prt (Some (PL p 0 0 false))))) || idtac.
    set (h2 := hmod (hmod h1 p (set_items [x])) p (set_fams (Some [(t, [x])]) Current)).
    assert (I2 : linv N h2).
    { destruct I1 as [L F C D]. split; subst h2; cbn [hmod hnext hnode].
      - exact L.
      - intros y Hy. destruct (Nat.eqb_spec y p) as [E'|_]; [subst; contradiction|apply F, Hy].
      - intros y Hy. destruct (Nat.eqb_spec y p) as [E'|_]; [subst y|apply C, Hy].
        destruct (C p Hy) as [C1 C2 C3 C4 C5]. split; cbn; auto; try discriminate.
        + intros y [<-|[]]. exact Rx.
        + intros d [= <-] t' f' [[= <- <-]|[]]. intros y [<-|[]]. exact Rx.
      - intros y Hy. destruct (Nat.eqb_spec y p) as [E'|_]; [subst y; intros d; discriminate|apply D, Hy]. }
    assert (U : lop N any (upd x (set_prt (Some (PL p 0 0 false))))) by ll.
    apply (U h2 I2).
  - intros h c l I E. rewrite E. pose proof (linv_items h p I Rp) as Hi. rewrite E in Hi. cbv zeta. ll.
Qed.
Lemma append_left_core_lop (N : loc -> Prop) p x : R p -> N p -> R x -> lop N any (append_left_core p x).
Proof. intros Rp Np Rx. unfold append_left_core. ll. Qed.
Lemma check_append_lop {N} p a : lop N any (check_append p a).
Proof. unfold check_append. ll. Qed.
Lemma check_insert_lop {N} p a : lop N any (check_insert p a).
Proof. unfold check_insert. ll. Qed.

(** an item argument is harmless when it lies in the region or (being attached
    elsewhere) has a parent *)
Definition argR (x : loc) : Prop := R x \/ nprt (hnode h0 x) <> None.
Lemma free_R {N} h x : linv N h -> argR x -> nprt (hnode h x) = None -> R x.
Proof.
  intros I [H|H] E; [exact H|]. destruct (R_dec x) as [Hx|Hx]; [exact Hx|]. exfalso. apply H.
  pose proof (li_frame _ _ I x Hx) as F. apply (f_equal nprt) in F. unfold strip in F. cbn in F.
  rewrite E in F. cbn in F. destruct (nprt (hnode h0 x)); [discriminate|reflexivity].
Qed.
Definition iargR (a : iarg) : Prop := match a with IItem x => argR x | IVal _ => True end.
Definition eargR (e : earg) : Prop := match e with EItem x => argR x | _ => True end.
Lemma free_item_lop {N} a : iargR a -> lop N R (free_item a).
Proof.
  intros Ha. destruct a as [x|v]; cbn [free_item].
  - lstep. destruct (nprt (hnode h x)) eqn:E; [ll|]. apply lop_ret. apply (free_R h x I Ha E).
  - apply new_item_lop. discriminate.
Qed.
Lemma append_lop {N} p a : R p -> iargR a -> lop N R (append p a).
Proof.
  intros Rp Ha. unfold append. lseq; [apply check_append_lop|].
  eapply lop_bind; [apply free_item_lop, Ha|]. intros x Rx. cbv beta. lseq; [apply append_core_lop; assumption|]. ll.
Qed.
Lemma appendleft_lop {N} p a : R p -> iargR a -> lop N R (appendleft p a).
Proof.
  intros Rp Ha. unfold appendleft. lseq; [apply check_insert_lop|].
  eapply lop_bind; [apply free_item_lop, Ha|]. intros x Rx. cbv beta.
  apply (lop_getsn N p); [exact Rp| |]; [intros h I E|intros h c l I E]; rewrite E; (lseq; [|ll]).
  - apply append_core_lop; assumption.
  - apply append_left_core_lop; [assumption|nin|assumption].
Qed.
Lemma fam_ins_idx_lop {N} fuel : forall f i last, lop N any (fam_ins_idx fuel f i last).
Proof.
  induction fuel as [|n IH]; intros f i last; cbn [fam_ins_idx]; [ll|].
  repeat first [apply get_idx_lop | apply IH | lstep | lseq].
Qed.
Lemma fii_lop {N} f i : lop N any (family_insertion_idx f i).
Proof. apply fam_ins_idx_lop. Qed.
Lemma insert_pos_lop {N} p s it : lop N any (insert_pos p s it).
Proof. unfold insert_pos. repeat first [apply get_idx_lop | lstep | lseq]. Qed.
Lemma insert_core_lop (N : loc -> Prop) p x abs : R p -> N p -> R x -> lop N any (insert_core p x abs).
Proof.
  intros Rp Np Rx. unfold insert_core.
  repeat first [apply append_left_core_lop; assumption | apply fii_lop | lstep | lseq].
Qed.
Lemma insert_lop {N} p it a : R p -> iargR a -> lop N R (insert p it a).
Proof.
  intros Rp Ha. unfold insert.
  assert (H : lop N R (check_insert p a ;;; x <- free_item a ;; h <- gets (fun h => h) ;;
     match nitems (hnode h p) with
     | _ :: _ => abs <- insert_pos p (Z.of_nat (length (nitems (hnode h p)))) it ;;
                 insert_core p x abs ;;; ret x
     | [] => append_core p x ;;; ret x end)).
  { lseq; [apply check_insert_lop|]. eapply lop_bind; [apply free_item_lop, Ha|]. intros x Rx. cbv beta.
    apply (lop_getsn N p); [exact Rp| |]; [intros h I E|intros h c l I E]; rewrite E.
    - lseq; [apply append_core_lop; assumption|ll].
    - lseq; [apply insert_pos_lop|]. lseq; [apply insert_core_lop; [assumption|nin|assumption]|ll]. }
  destruct it; [apply append_lop; assumption|exact H|exact H].
Qed.

(** ** copying: reads anything, writes new items only *)
Lemma copy_node_lop {N} x : lop N R (copy_node x).
Proof.
  unfold copy_node. lstep. unfold copy_args. cbv beta iota.
  destruct (_ && _); [ll|]. apply new_item_lop. intros k Hk.
  destruct (has _ _); [|discriminate]. destruct (nlink _); [|discriminate]. injection Hk as <-. reflexivity.
Qed.
Lemma copy_children_lop {N} fuel : forall src dst, R dst -> lop N any (copy_children fuel src dst).
Proof.
  induction fuel as [|f IH]; intros src dst Rd; cbn [copy_children]; [ll|].
  lstep. apply mapM__lop. intros c _. eapply lop_bind; [apply copy_node_lop|]. intros c' Rc. cbv beta.
  lseq; [apply append_core_lop; assumption|]. apply IH, Rc.
Qed.
Lemma copy_item_lop {N} x : lop N R (copy_item x).
Proof.
  unfold copy_item. lstep. eapply lop_bind; [apply copy_node_lop|]. intros x' Rx. cbv beta.
  lseq; [apply copy_children_lop, Rx|]. ll.
Qed.

(** ** extending *)
Lemma ext_item_lop {N} e : eargR e -> lop N R (ext_item e).
Proof.
  intros He. destruct e as [x|t v|v]; cbn [ext_item].
  - lstep. destruct (nprt (hnode h x)) eqn:E; [apply copy_item_lop|]. apply lop_ret, (free_R h x I He E).
  - destruct (hashable t); [|ll]. apply new_item_lop. discriminate.
  - apply new_item_lop. discriminate.
Qed.
Lemma ext_step_lop (N : loc -> Prop) p e : R p -> N p -> eargR e -> lop N any (ext_step p e).
Proof.
  intros Rp Np He. unfold ext_step. eapply lop_bind; [apply ext_item_lop, He|]. intros x Rx. cbv beta. ll.
Qed.
Lemma iter_extend_lop {N} p es : R p -> (forall e, In e es -> eargR e) -> lop N any (iter_extend p es).
Proof.
  intros Rp He. unfold iter_extend.
  apply (lop_getsn N p); [exact Rp| |]; [intros h I E|intros h c l I E]; rewrite E.
  - apply lop_rebind; [exact Rp|intros ? ? []|]. apply mapM__lop. intros e Hin. apply ext_step_lop; [exact Rp|nin|auto].
  - lseq; [ll|]. apply mapM__lop. intros e Hin. apply ext_step_lop; [exact Rp|nin|auto].
Qed.
Lemma check_extend_lop {N} p es : lop N any (check_extend p es).
Proof. unfold check_extend. ll. Qed.
Lemma check_extendleft_lop {N} p es : lop N any (check_extendleft p es).
Proof. unfold check_extendleft. ll. Qed.
Lemma extend_lop {N} p es : R p -> (forall e, In e es -> eargR e) -> lop N any (extend p es).
Proof. intros Rp He. unfold extend. lseq; [apply check_extend_lop|apply iter_extend_lop; assumption]. Qed.
Lemma items_argR {N} h q c : linv N h -> In c (nitems (hnode h q)) -> argR c.
Proof.
  intros I Hc. destruct (R_dec q) as [Rq|Nq].
  - left. apply (linv_items h q I Rq), Hc.
  - right. apply (has_parent q).
    pose proof (li_frame _ _ I q Nq) as F. apply (f_equal nitems) in F. cbn in F. rewrite <- F. exact Hc.
Qed.
Lemma extend_tree_lop {N} p q : R p -> lop N any (extend_tree p q).
Proof.
  intros Rp. unfold extend_tree. lseq; [apply check_extend_lop|]. lstep.
  destruct (root_of _ h p); [|ll]. destruct (root_of _ h q); [|ll].
  lseq; [destruct (Nat.eqb _ _); [eapply lop_any, copy_item_lop|ll]|].
  lstep. apply iter_extend_lop; [exact Rp|]. intros e He. apply in_map_iff in He as (c & <- & Hc).
  apply (items_argR h1 _ c I0 Hc).
Qed.
Definition none : loc -> Prop := fun _ => False.
Lemma clear_items_lop p : R p -> lop none any (clear_items p).
Proof.
  intros Rp. unfold clear_items. apply lop_upd; [exact Rp| |exact Logic.I]. apply upk_use. intros n.
  apply upk_clear; [right; intros []|apply upk_id].
Qed.
Lemma eargR_map l : incR l -> forall e, In e (map EItem l) -> eargR e.
Proof. intros H e He. apply in_map_iff in He as (c & <- & Hc). left. apply H, Hc. Qed.
Lemma extendleft_lop p es : R p -> (forall e, In e es -> eargR e) -> lop none any (extendleft p es).
Proof.
  intros Rp He. unfold extendleft. lseq; [apply check_extendleft_lop|]. lstep.
  pose proof (linv_items h p I Rp) as Hi.
  lseq; [apply mapM__lop; intros c Hc; apply lop_upd; [apply Hi, Hc|apply upk_use; intros; apply upk_prt_none, upk_id|exact Logic.I]|].
  lseq; [apply clear_items_lop, Rp|]. apply iter_extend_lop; [exact Rp|].
  intros e H. apply in_app_iff in H as [H|H]; [apply He, H|apply (eargR_map _ Hi), H].
Qed.

(** ** removing *)
Lemma check_del_lop {N} p : lop N any (check_del p).
Proof. unfold check_del. ll. Qed.
Lemma unfamily_lop (N : loc -> Prop) p x : R p -> N p -> lop N any (unfamily p x).
Proof. intros Rp Np. unfold unfamily. lstep. lfam. ll. Qed.
Lemma del_int_lop {N} p i : R p -> lop N R (del_int p i).
Proof.
  intros Rp. unfold del_int. lseq; [apply check_del_lop|].
  apply (lop_getsn N p); [exact Rp| |]; [intros h I Ei|intros h c0 cs I Ei]; rewrite Ei; [ll|].
  pose proof (linv_items h p I Rp) as Hi. rewrite Ei in Hi.
  destruct (py_idx _ i) as [k|]; [|ll]. destruct (nth_error (c0 :: cs) k) as [x|] eqn:Ex; [|ll].
  assert (Rx : R x) by (apply (incR_nth _ k x Hi Ex)).
  destruct (_ && _); [ll|]. lseq; [lstep|].
  destruct (match nlink (hnode h x) with Some lk => lk_cover lk | None => None end) as [y|] eqn:Ey.
  - assert (Ry : R y).
    { destruct (nlink (hnode h x)) as [k0|] eqn:El; [|discriminate]. apply (ncl_cover _ _ (li_closed _ _ I x Rx) k0 y El Ey). }
    lsq ti; [apply get_tag_idx_lop|]. destruct ti; [ll| |ll]. lstep. lseq; [ll|]. lfam. ll.
  - lseq; [apply unfamily_lop; [exact Rp|nin]|]. ll.
Qed.
Lemma del_slice_lop {N} p a b : R p -> lop N any (del_slice p a b).
Proof.
  intros Rp. unfold del_slice. lseq; [apply check_del_lop|].
  apply (lop_getsn N p); [exact Rp| |]; [intros h I Ei|intros h c0 cs I Ei]; rewrite Ei; [ll|].
  pose proof (linv_items h p I Rp) as Hi. rewrite Ei in Hi. cbv zeta.
  assert (Hs : incR (py_slice a b (c0 :: cs))) by (apply incR_slice, Hi).
  destruct (_ && _); [ll|]. lseq; [lstep|].
  destruct (py_slice a b (c0 :: cs)) as [|x xs]; [ll|].
  pose proof (incR_head _ _ Hs) as Rx.
  destruct a; [|ll]. destruct b; [|ll]. destruct (_ <? _)%Z; [|ll]. lfam. ll.
Qed.
Lemma delitem_lop {N} p tg : R p -> lop N any (delitem p tg).
Proof.
  intros Rp. unfold delitem.
  assert (H : lop N any (check_del p ;;; h <- gets (fun h => h) ;;
    match nitems (hnode h p) with
    | [] => throw KeyError
    | _ :: _ =>
      match getitem h p tg with
      | Err e => throw e
      | Ok (GItem x) => i <- idx_or_type_error x ;; y <- del_int p i ;; ret (GItem y)
      | Ok (GList l) =>
        ys <- mapM (fun x => i <- idx_or_type_error x ;; del_int p i) l ;; ret (GList ys)
      end
    end)).
  { lseq; [apply check_del_lop|]. lstep. destruct (nitems (hnode h p)); [ll|].
    destruct (getitem h p tg) as [[x|l']|e]; [| |ll].
    - lseq; [apply idx_lop|]. lseq; [eapply lop_any, del_int_lop, Rp|ll].
    - lseq; [|ll]. eapply lop_any, mapM_lop. intros x _. lseq; [apply idx_lop|apply del_int_lop, Rp]. }
  destruct tg as [v| | | | | |]; try exact H; [|apply del_slice_lop, Rp].
  destruct v; try exact H. lseq; [eapply lop_any, del_int_lop, Rp|ll].
Qed.
Lemma remove_lop {N} p x : R p -> lop N any (remove p x).
Proof.
  intros Rp. unfold remove. lstep. destruct (nprt (hnode h x)); [|ll]. destruct (Nat.eqb _ _); [|ll].
  lseq; [apply idx_lop|eapply lop_any, del_int_lop, Rp].
Qed.

(** ** assignment *)
Lemma setitem_tail (N : loc -> Prop) h1 p tg x old : linv N h1 -> R p -> N p -> R x ->
  (forall o, old = GItem o -> R o) ->
  lop N R (let t := ntag (hnode h1 x) in
      match tg with
      | TgEllipsis =>
        fo <- lift (families_of h1 p t) ;;
        match fo with
        | Some _ => delitem p (TgVal t) ;;; append p (IItem x)
        | None => append p (IItem x)
        end
      | _ =>
        if match tg with TgVal v => pyval_eqb v t | _ => false end then
          fam <- get_fam p t ;;
          match fam with
          | None => append p (IItem x)
          | Some f =>
            if existsb (fun i => match nlink (hnode h1 i) with
                                 | Some k => match lk_cover k with Some _ => true | None => false end
                                 | None => false end) f
            then throw AttributeError
            else
              match f with
              | [] => throw IndexError
              | f0 :: fr =>
                oi <- idx_or_type_error f0 ;;
                mapM_ (fun i => j <- idx_or_type_error i ;;
                                h2 <- gets (fun h => h) ;;
                                match py_idx (length (nitems (hnode h2 p))) j with
                                | Some k => upd p (set_items (remove_at k (nitems (hnode h2 p))))
                                | None => throw IndexError
                                end) (rev fr) ;;;
                h3 <- gets (fun h => h) ;;
                match py_idx (length (nitems (hnode h3 p))) oi with
                | None => throw IndexError
                | Some k =>
                  upd p (set_items (replace_at k x (nitems (hnode h3 p)))) ;;;
                  (match nfams (hnode h3 p) with
                   | Some d => upd p (fun n => set_fams (Some (dset d t [x])) (nbound n) n)
                   | None => throw AttributeError
                   end) ;;;
                  upd x (set_prt (Some (PL p oi 0 true))) ;;;
                  ret x
                end
              end
          end
        else
          match old with
          | GList _ => throw LookupError
          | GItem o =>
            i <- idx_or_type_error o ;;
            ti <- get_tag_idx o ;;
            match ti with
            | TIPair ot of_ =>
              upd o (set_prt None) ;;;
              h2 <- gets (fun h => h) ;;
              match py_idx (length (nitems (hnode h2 p))) i with
              | None => throw IndexError
              | Some k =>
                upd p (set_items (replace_at k x (nitems (hnode h2 p)))) ;;;
                fi <- (if pyval_eqb t ot then
                         f <- getitem_fam p t ;;
                         match py_idx (length f) of_ with
                         | Some k' => put_fam p t (replace_at k' x f) ;;; ret of_
                         | None => throw IndexError
                         end
                       else
                         f <- getitem_fam p ot ;;
                         match py_idx (length f) of_ with
                         | None => throw IndexError
                         | Some k' =>
                           put_fam p ot (remove_at k' f) ;;;
                           g <- get_fam p t ;;
                           match g with
                           | None => put_fam p t [x] ;;; ret 0%Z
                           | Some g =>
                             fun hh =>
                               match family_insertion_idx g i hh with
                               | (hh1, Ok n) => (put_fam p t (insert_at n x g) ;;;
                                                 ret (Z.of_nat n)) hh1
                               | (hh1, Err IndexError) | (hh1, Err KeyError) =>
                                   (put_fam p t [x] ;;; ret 0%Z) hh1
                               | (hh1, Err e) => (hh1, Err e)
                               end
                           end
                         end) ;;
                upd x (set_prt (Some (PL p i fi false))) ;;;
                ret x
              end
            | _ => throw TypeError
            end
          end
      end).
Proof.
  intros I1 Rp Np Rx Ro. cbv zeta. set (t := ntag (hnode h1 x)). clearbody t.
  destruct tg; [destruct (pyval_eqb v t)| | | | | |].
  7: {  apply lop_seq; [ll|intros fo]; destruct fo; [lseq; [apply delitem_lop, Rp|]|]; apply append_lop; auto; left; exact Rx. }
  1: {  eapply lop_bind; [apply get_fam_R; assumption|intros ff Hff; cbv beta]; destruct ff as [f|]; [|apply append_lop; auto; left; exact Rx];
  destruct (existsb _ _); [ll|]; destruct f as [|f0 fr]; [ll|]; lseq; [apply idx_lop|];
  lseq; [apply mapM__lop; intros c _; lseq; [apply idx_lop|ll]|]; ll. }
  all:  destruct old as [o|l]; [|ll]; specialize (Ro o eq_refl); apply lop_seq; [apply idx_lop|intros ai];
    apply lop_seq; [apply get_tag_idx_lop|intros ti]; destruct ti as [|ot of_|]; [ll| |ll]; lseq; [ll|]; lstep;
    destruct (py_idx _ _); [|ll]; lseq; [ll|]; lseq; [|ll];
    destruct (pyval_eqb t ot);
    [ lfam; ll
    | lfam; destruct (py_idx _ _); [|ll]; lseq; [ll|]; eapply lop_bind; [apply get_fam_R; assumption|intros gg Hgg; cbv beta];
      destruct gg as [g|]; [specialize (Hgg g eq_refl)|ll];
      let hh := fresh "hh" in let Ih := fresh "Ih" in let I2 := fresh "I2" in let hh1 := fresh "hh1" in
      let nn := fresh "nn" in let H1 := fresh "H1" in let e := fresh "e" in
      intros hh Ih; unfold lopat;
      destruct (fii_lop g ai hh Ih) as [I2 _];
      destruct (family_insertion_idx g ai hh) as [hh1 [nn|e]]; cbn in I2;
      [ apply (lop_seq _ any (put_fam p t (insert_at nn x g))); [ll|intros; ll|exact I2]
      | assert (H1 : linv N (fst ((put_fam p t [x] ;;; ret 0%Z) hh1)) /\
                       (forall a5, snd ((put_fam p t [x] ;;; ret 0%Z) hh1) = Ok a5 -> any a5));
        [ apply (lop_seq _ any (put_fam p t [x])); [ll|intros; ll|exact I2]
        | destruct e; try exact H1; (split; [exact I2|intros; exact Logic.I]) ] ] ].
Qed.
Lemma setitem_lop {N} p tg a : R p -> iargR a -> lop N R (setitem p tg a).
Proof.
  intros Rp Ha. unfold setitem. lseq; [apply check_insert_lop|].
  apply (lop_getsn N p); [exact Rp| |]; [intros h I Ei|intros h c0 cs I Ei].
  { unfold getitem. rewrite Ei. ll. }
  destruct (getitem h p tg) as [old|e] eqn:Eg; [|ll].
  destruct (match old with GItem _ => _ | _ => _ end) eqn:Eo.
  - destruct a as [x|v]; [|ll].
    destruct old as [o|]; [|discriminate]. apply Nat.eqb_eq in Eo. subst o.
    apply lop_ret. apply (getitem_R h p tg x I Rp Eg).
  - eapply (lop_bind _ R).
    + destruct a as [x|v].
      * destruct (nprt (hnode h x)) as [pl|] eqn:Ep.
        -- destruct (item_eqb h (pl_par pl) p); [apply copy_item_lop|ll].
        -- apply lop_ret, (free_R h x I Ha Ep).
      * assert (Hn : lop (plus N p) R (new_item PNoTag v 0 None)) by (apply new_item_lop; discriminate).
        destruct v; (apply Hn || apply lop_throw).
    + intros x Rx. apply lop_getsb. intros h1 I1.
      apply (setitem_tail _ h1 p tg x old I1 Rp); [nin|exact Rx|]. intros o ->. apply (getitem_R h p tg o I Rp Eg).
Qed.

(** ** moving and renaming *)
Lemma check_move_lop {N} p x : lop N any (check_move p x).
Proof. unfold check_move. ll. Qed.
Lemma move_lop {N} x tg : R x -> lop N any (move x tg).
Proof.
  intros Rx. unfold move. lstep. destruct (nprt (hnode h x)) as [pl|] eqn:Ep; [|ll].
  pose proof (linv_par h x pl I Rx Ep) as Rp. cbv zeta. lseq; [apply check_move_lop|].
  destruct tg as [tg|].
  - lseq.
    { destruct tg; repeat first [apply idx_lop|lstep]. }
    lseq; [apply idx_lop|]. eapply lop_bind; [apply del_int_lop, Rp|]. intros y Ry. cbv beta.
    eapply lop_any, insert_lop; [exact Rp|left; exact Ry].
  - lseq; [apply idx_lop|]. eapply lop_bind; [apply del_int_lop, Rp|]. intros y Ry. cbv beta.
    eapply lop_any, append_lop; [exact Rp|left; exact Ry].
Qed.
Lemma check_rename_lop {N} p x t : lop N any (check_rename p x t).
Proof. unfold check_rename. ll. Qed.
Lemma rename_lop {N} x t : R x -> lop N any (rename x t).
Proof.
  intros Rx. unfold rename. lstep. destruct (nprt (hnode h x)) as [pl|] eqn:Ep; [|ll].
  pose proof (linv_par h x pl I Rx Ep) as Rp. cbv zeta. lseq; [apply check_rename_lop|].
  eapply lop_bind; [apply dict_get_lop, Rp|]. intros fo Hfo. cbv beta. destruct fo as [f|]; [|ll]. specialize (Hfo f eq_refl).
  lseq.
  { destruct (Nat.eqb _ _); [ll|]. unfold list_remove_eq. destruct (index_from _ _ _ _); ll. }
  lseq; [ll|]. eapply (lop_bind _ famR); [destruct (hashable t); [apply dict_get_lop, Rp|ll]|]. intros go Hgo. cbv beta.
  lseq; [|ll]. destruct go as [g|]; [specialize (Hgo g eq_refl)|ll].
  lseq; [apply idx_lop|]. lseq; [apply fii_lop|]. ll.
Qed.

(** ** order *)
Lemma check_order_lop {N} p : lop N any (check_order p).
Proof. unfold check_order. ll. Qed.
Lemma reverse_lop {N} p : R p -> lop N any (reverse p).
Proof.
  intros Rp. unfold reverse. lsq go; [apply check_order_lop|]. destruct go; [|ll].
  apply (lop_getsn N p); [exact Rp| |]; [intros h I Ei|intros h c0 cs I Ei].
  - rewrite Ei. change (rev []) with (@nil loc). lseq; [apply lop_upd; [exact Rp|apply upk_use; intros; apply upk_nil, upk_id|exact Logic.I]|].
    destruct (nfams (hnode h p)) as [d|] eqn:Ed; ll.
  - lseq; [ll|]. destruct (nfams (hnode h p)) as [d|] eqn:Ed; ll.
Qed.
Lemma pop_n_lop {N} p i n : R p -> lop N incR (pop_n n p i).
Proof.
  intros Rp. induction n as [|n IH]; cbn [pop_n]; [ll|].
  eapply lop_bind; [apply del_int_lop, Rp|]. intros x Rx. cbv beta.
  eapply lop_bind; [exact IH|]. intros r Hr. cbv beta. ll.
Qed.
Lemma rotate_lop p n : R p -> lop none any (rotate p n).
Proof.
  intros Rp. unfold rotate. lseq; [apply check_order_lop|]. destruct a; [|ll].
  destruct (0 <? n)%Z; [|destruct (n <? 0)%Z; [|ll]];
    (eapply lop_bind; [apply pop_n_lop, Rp|]; intros l Hl; cbv beta).
  - apply extendleft_lop; [exact Rp|apply eargR_map, incR_rev, Hl].
  - apply extend_lop; [exact Rp|apply eargR_map, Hl].
Qed.
Lemma sort_lop p key rv : R p -> lop none any (sort p key rv).
Proof.
  intros Rp. unfold sort. lseq; [apply check_order_lop|]. destruct a; [|ll]. lstep.
  pose proof (linv_items h p I Rp) as Hi.
  lseq; [apply clear_items_lop, Rp|]. apply extend_lop; [exact Rp|apply eargR_map, incR_sort, Hi].
Qed.
Lemma unset_flags_lop {N} x fl : R x -> lop N any (unset_flags x fl).
Proof. intros Rx. unfold unset_flags. ll. Qed.
Lemma clear_lop p kv : R p -> lop none any (clear p kv).
Proof.
  intros Rp. unfold clear. lstep. destruct (_ && _); [ll|]. lseq.
  { destruct (is_link_root h p); [|ll]. destruct (nlink (hnode h p)) as [k|] eqn:Ek; [|ll].
    apply lop_upd; [exact Rp| |exact Logic.I]. intros n [A B C D E] S. split; [|exact S]. split; cbn; auto.
    intros k' y [= <-]. cbn. intros Ey. apply (ncl_cover _ _ (li_closed _ _ I p Rp) k y Ek Ey). }
  lseq; [apply unset_flags_lop, Rp|]. lseq; [apply clear_items_lop, Rp|]. ll.
Qed.

(** ** flags, values *)
Lemma set_flags_lop {N} x fl b : R x -> lop N any (set_flags x fl b).
Proof. intros Rx. unfold set_flags. ll. Qed.
Lemma set_flags_list_lop {N} fl b l : incR l -> lop N any (set_flags_list fl b l).
Proof. intros H. apply mapM__lop. intros x Hx. apply set_flags_lop, H, Hx. Qed.
Lemma set_tree_read_only_lop {N} x : R x -> lop N any (set_tree_read_only x).
Proof.
  intros Rx. unfold set_tree_read_only. lstep. destruct (has _ _); [ll|].
  destruct (deep_list _ h x) as [l|] eqn:E; [|ll]. apply set_flags_list_lop, incR_cons; [exact Rx|].
  apply (deep_R h I _ _ _ Rx E).
Qed.
Lemma unset_tree_read_only_lop {N} x : R x -> lop N any (unset_tree_read_only x).
Proof. intros Rx. unfold unset_tree_read_only, unset_flags. ll. Qed.
Lemma unset_value_read_only_lop {N} x : R x -> lop N any (unset_value_read_only x).
Proof. intros Rx. unfold unset_value_read_only, unset_flags. ll. Qed.
Lemma set_value_lop {N} x v : R x -> lop N any (set_value x v).
Proof. intros Rx. unfold set_value. ll. Qed.
Lemma del_value_lop {N} x : R x -> lop N any (del_value x).
Proof. intros Rx. unfold del_value. ll. Qed.
Lemma set_key_value_lop {N} x k v : R x -> lop N any (set_key_value x k v).
Proof. intros Rx. unfold set_key_value. ll. Qed.
Lemma del_key_value_lop {N} x k : R x -> lop N any (del_key_value x k).
Proof. intros Rx. unfold del_key_value. ll. Qed.

(** ** constructor *)
Lemma ext_step_flags_lop (N : loc -> Prop) p fl e : R p -> N p -> eargR e -> lop N any (ext_step_flags p fl e).
Proof.
  intros Rp Np He. unfold ext_step_flags. lseq; [apply ext_step_lop; assumption|].
  destruct (fl =? 0)%Z; [ll|]. lstep. destruct (last _ _) as [x|] eqn:El; [|ll].
  pose proof (incR_last _ x (linv_items h p I Rp) El) as Rx.
  destruct (deep_list _ h x) as [l|] eqn:Ed; [|ll].
  apply set_flags_list_lop, incR_cons; [exact Rx|apply (deep_R h I _ _ _ Rx Ed)].
Qed.
Lemma new_tree_lop {N} t v es lk fl : (forall e, In e es -> eargR e) -> lop N R (new_tree t v es lk fl).
Proof.
  intros He. unfold new_tree. destruct (hashable t); cbn [negb]; [|ll].
  eapply lop_bind; [apply new_item_lop; discriminate|]. intros x Rx. cbv beta.
  lseq; [destruct es as [|e es]; [ll|]|].
  { apply lop_rebind; [exact Rx|intros ? ? []|]. apply mapM__lop. intros e' H. apply ext_step_flags_lop; [exact Rx|nin|apply He, H]. }
  lseq; [|ll]. destruct lk; [|ll]. lstep.
Qed.

(** ** reading *)
Lemma idx_path_lop {N} fuel : forall x, lop N any (idx_path fuel x).
Proof.
  induction fuel as [|f IH]; intros x; cbn [idx_path]; [ll|]. repeat first [apply IH|apply idx_lop|lstep|lseq].
Qed.
Lemma tag_idx_path_lop {N} fuel : forall x, lop N any (tag_idx_path fuel x).
Proof.
  induction fuel as [|f IH]; intros x; cbn [tag_idx_path]; [ll|].
  repeat first [apply IH|apply get_tag_idx_lop|lstep|lseq].
Qed.
Lemma pre_lop {N} x : lop N any (pre_item x).
Proof. unfold pre_item. repeat first [apply idx_lop|lstep|lseq]. Qed.
Lemma post_lop {N} x : lop N any (post_item x).
Proof. unfold post_item. repeat first [apply idx_lop|lstep|lseq]. Qed.
Lemma enum_lop {N} s l : lop N any (enum_cache s l).
Proof. apply mapM__lop. intros [i y] _. apply set_cache_lop. Qed.
Lemma force_lop {N} x : lop N any (force_cache_update x).
Proof.
  unfold force_cache_update. lstep. destruct (nprt _); [|ll]. lseq; [apply enum_lop|].
  destruct (nfams _); [|ll]. apply mapM__lop. intros; apply enum_lop.
Qed.
Lemma keys_loop_lop {N} l : forall cnt, lop N any (keys_loop cnt l).
Proof. induction l as [|x l IH]; intros cnt; cbn [keys_loop]; [ll|]. repeat first [apply IH|lstep|lseq]. Qed.
Lemma keys_view_lop {N} p : lop N any (keys_view p).
Proof. unfold keys_view, items_view. repeat first [apply keys_loop_lop|lstep|lseq]. Qed.
Lemma sorted_heads_lop {N} p o : lop N any (sorted_heads p o).
Proof.
  unfold sorted_heads. lstep. destruct (nfams _); [|ll]. lseq; [ll|].
  lseq; [eapply lop_any, mapM_lop; intros; apply idx_lop|ll].
Qed.
Lemma tags_view_lop {N} p o : lop N any (tags_view p o).
Proof. unfold tags_view. repeat first [apply sorted_heads_lop|lstep|lseq]. Qed.
Lemma families_view_lop {N} p o : lop N any (families_view p o).
Proof.
  unfold families_view. lstep. destruct (nitems _); [ll|]. lseq; [apply sorted_heads_lop|].
  eapply lop_any, (mapM_lop any). intros x _. lseq; [apply getitem_fam_lop|ll].
Qed.

(** ** one call *)
Lemma after_lop h o : linv none h -> (forall x, In x (writes o) -> R x) -> (forall x, In x (given o) -> argR x) ->
  linv none (after o h).
Proof.
  intros I0 W G. unfold after.
  assert (one : forall m : M unit, lop none any m -> linv none (fst (m h))) by (intros m Hm; apply Hm, I0).
  assert (onv : forall A (m : M A) (Q : A -> Prop), lop none Q m -> linv none (fst (void m h))) by (intros A m Q Hm; rewrite void_fst; apply (Hm h I0)).
  assert (ia : forall a, (forall x, In x (match a with IItem x => [x] | IVal _ => [] end) -> argR x) -> iargR a).
  { intros [x|v] H; [apply H; left; reflexivity|exact I]. }
  assert (ea : forall es, (forall x, In x (flat_map (fun e => match e with EItem x => [x] | _ => [] end) es) -> argR x) -> forall e, In e es -> eargR e).
  { intros es H [x|t v|v] He; try exact I. apply H. apply in_flat_map. exists (EItem x). split; [exact He|left; reflexivity]. }
  destruct o; cbn [run writes given] in *;
    try (assert (Rp : R p) by (apply W; left; reflexivity)); try (assert (Rx : R x) by (apply W; left; reflexivity)).
  - eapply onv, new_tree_lop, ea, G.
  - eapply onv, append_lop; [exact Rp|apply ia, G].
  - eapply onv, appendleft_lop; [exact Rp|apply ia, G].
  - eapply onv, insert_lop; [exact Rp|apply ia, G].
  - apply one, extend_lop; [exact Rp|apply ea, G].
  - apply one, extend_tree_lop, Rp.
  - apply one, extendleft_lop; [exact Rp|apply ea, G].
  - eapply onv, delitem_lop, Rp.
  - eapply onv, remove_lop, Rp.
  - eapply onv, setitem_lop; [exact Rp|apply ia, G].
  - eapply onv, move_lop, Rx.
  - eapply onv, rename_lop, Rx.
  - apply one, reverse_lop, Rp.
  - apply one, rotate_lop, Rp.
  - apply one, sort_lop, Rp.
  - apply one, clear_lop, Rp.
  - eapply onv, copy_item_lop.
  - apply one, set_tree_read_only_lop, Rx.
  - apply one, unset_tree_read_only_lop, Rx.
  - apply one, set_flags_lop, Rx.
  - apply one, unset_value_read_only_lop, Rx.
  - eapply onv, set_value_lop, Rx.
  - eapply onv, del_value_lop, Rx.
  - eapply onv, set_key_value_lop, Rx.
  - eapply onv, del_key_value_lop, Rx.
  - apply one. unfold set_coupled_object. lstep.
  - eapply onv, get_idx_lop.
  - eapply onv, get_tag_idx_lop.
  - eapply (onv _ (idx_path (S (hnext h)) x)), idx_path_lop.
  - eapply (onv _ (tag_idx_path (S (hnext h)) x)), tag_idx_path_lop.
  - eapply onv, pre_lop.
  - eapply onv, post_lop.
  - eapply onv, keys_view_lop.
  - eapply onv, tags_view_lop.
  - eapply onv, families_view_lop.
  - apply one, force_lop.
Qed.
End LOCAL.

(** ** any number of calls on a region, started in a well-formed state *)
(** no condition on the calls other than the operands *)
Inductive RunsOn (R : loc -> Prop) (h0 : heap) : heap -> Prop :=
| RunsOn_start : RunsOn R h0 h0
| RunsOn_step h o : RunsOn R h0 h -> (forall x, In x (writes o) -> R x) ->
    (forall x, In x (given o) -> R x \/ nprt (hnode h x) <> None) -> RunsOn R h0 (after o h).
Definition closed (R : loc -> Prop) (h : heap) : Prop :=
  (forall y, hnext h <= y -> R y) /\ forall y, R y -> ncl R (hnode h y).
Lemma runs_local R (R_dec : forall x, R x \/ ~ R x) h0 h : WF h0 -> closed R h0 -> RunsOn R h0 h ->
  hnext h0 <= hnext h /\ closed R h /\ forall y, ~ R y -> strip (hnode h y) = strip (hnode h0 y).
Proof.
  intros Wf [Fr Cl] Hr.
  assert (H : linv R h0 none h).
  { induction Hr as [|h o _ IH W G].
    - split; auto. intros y [].
    - apply after_lop; auto.
      + intros p c Hc. pose proof (fo_child _ _ (wf_forest _ Wf) p c Hc) as E. cbn in E.
        destruct (nprt (hnode h0 c)); [discriminate|discriminate E].
      + intros x Hx. destruct (G x Hx) as [Rx|P]; [left; exact Rx|].
        destruct (R_dec x) as [Rx|Nx]; [left; exact Rx|right].
        pose proof (f_equal nprt (li_frame _ _ _ _ IH x Nx)) as E. unfold strip in E. cbn in E.
        intros E0. rewrite E0 in E. cbn in E. apply P. destruct (nprt (hnode h x)); [discriminate|reflexivity]. }
  destruct H as [L F C _]. split; [exact L|]. split; [split|]; auto. intros y Hy. apply Fr. lia.
Qed.
(** a region closed under parents and children *)
Lemma WF_closed (R : loc -> Prop) h : WF h -> (forall y, hnext h <= y -> R y) ->
  (forall y c, R y -> In c (nitems (hnode h y)) -> R c) ->
  (forall y pl, R y -> nprt (hnode h y) = Some pl -> R (pl_par pl)) -> closed R h.
Proof.
  intros W Hf Hc Hp. split; [exact Hf|]. intros y Hy. split.
  - intros c. apply (Hc y c Hy).
  - intros pl. apply (Hp y pl Hy).
  - intros k z E Ez. rewrite (wf_cover _ W y k E) in Ez. discriminate.
  - intros d Ed t f Hin c Hcf. pose proof (wf_fams _ W y) as G. unfold node_fam_ok in G.
    destruct (nbound (hnode h y)).
    + destruct G as [[G|G] _]; rewrite G in Ed; [discriminate|]. injection Ed as <-. destruct Hin.
    + destruct G as (d' & Ed' & Hd). rewrite Ed in Ed'. injection Ed' as <-.
      destruct Hd as [Hn Hd]. specialize (Hd t). rewrite (in_dget d t f Hn Hin) in Hd.
      apply (Hc y c Hy). destruct (filter _ _) eqn:Ef in Hd; [discriminate|]. injection Hd as ->. rewrite <- Ef in Hcf.
      apply filter_In in Hcf. apply Hcf.
    + destruct G as [G _]. rewrite G in Ed. injection Ed as <-. destruct Hin.
  - intros d Ed. pose proof (wf_fams _ W y) as G. unfold node_fam_ok in G. rewrite Ed in G. apply G.
Qed.
