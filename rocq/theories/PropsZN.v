(** C101: reading files of version 1.1.1 (itree_json_converter.py). *)
From Coq Require Import Ascii.
From Verif Require Import Base Heap JsonModel JsonFacts MathStr ConvModel.
Import ListNotations.
Local Open Scope Z_scope.
Local Open Scope string_scope.
Local Open Scope list_scope.

(** ** The old format *)

(** the dictionary has distinct names, and under [k] stands [v] *)
Definition field (d : list (string * raw)) (k : string) (v : raw) : Prop := NoDup (map fst d) /\ In (k, v) d.
Definition missing (d : list (string * raw)) (k : string) : Prop := NoDup (map fst d) /\ ~ In k (map fst d).

Definition dict_of (kvs : list (pyval * pyval)) : Prop := NoDup (map fst kvs) /\ Forall (fun k => hashable k = true) (map fst kvs).
(** the Python call name(members) *)
Inductive call : string -> list pyval -> pyval -> Prop :=
| call_tuple l : call "tuple" l (PTuple l)
| call_list l : call "list" l (PList l)
| call_deque l : call "deque" l (PDeque l)
| call_set l : NoDup l -> Forall (fun x => hashable x = true) l -> call "set" l (PSet l).

(** [value r v]: the text [r] stands for the Python value [v]; [members], [entries]: lists of such *)
Inductive value : raw -> pyval -> Prop :=
| v_null : value WNull PNone
| v_bool b : value (WBool b) (PBool b)
| v_int z : value (WInt z) (PInt z)
| v_float t : value (WFloat t) (PFloat t)
| v_str s : value (WStr s) (PStr s)
| v_dict d ty es kvs : field d "TP" (WStr ty) -> In ty ["D"; "d"; "DR"] -> field d "DC" (WList es) -> entries es kvs ->
    dict_of kvs -> value (WDict d) (PDict kvs)
| v_odict d es kvs : field d "TP" (WStr "OD") -> field d "DC" (WList es) -> entries es kvs ->
    dict_of kvs -> value (WDict d) (PODict kvs)
| v_iter d name ms vs v : field d "TP" (WStr ("ITER:" ++ name)) -> field d "DC" (WList ms) -> members ms vs ->
    call name vs v -> value (WDict d) v
| v_tagidx d t tg i : field d "TP" (WStr "iTI") -> field d "TG" t -> value t tg -> field d "IDX" (WInt i) ->
    value (WDict d) (PTuple [tg; PInt i])
with members : list raw -> list pyval -> Prop :=
| m_nil : members [] []
| m_cons r v rs vs : value r v -> members rs vs -> members (r :: rs) (v :: vs)
with entries : list raw -> list (pyval * pyval) -> Prop :=
| e_nil : entries [] []
| e_cons a x b y rs kvs : value a x -> value b y -> entries rs kvs -> entries (WList [a; b] :: rs) ((x, y) :: kvs).

(** the value of an item: no DT means None *)
Definition data (d : list (string * raw)) (v : pyval) : Prop :=
  (missing d "DT" /\ v = PNone) \/ (exists r, field d "DT" r /\ value r v).

(** [item ro r T]: the text [r] stands for the tree [T], created below a read-only item iff [ro].
    The flags: 1 read-only tree, 2 read-only value, 16 placeholder, 32 link. *)
Definition inherited (ro : bool) : Z := if ro then 1 else 0.
Inductive item : bool -> raw -> otree -> Prop :=
| i_placeholder ro d t tg : field d "TP" (WStr "iTPH") -> field d "TG" t -> value t tg -> hashable tg = true ->
    item ro (WDict d) (OT tg PNoValue (16 + inherited ro) None [])
| i_plain ro d t tg v ks Ks : field d "TP" (WStr "iT") -> field d "TG" t -> value t tg -> hashable tg = true -> data d v ->
    missing d "LK" -> field d "iT" (WList ks) -> items ro ks Ks ->
    item ro (WDict d) (OT tg v (inherited ro) None Ks)
| i_locked ro d ty t tg v ks Ks : field d "TP" (WStr ty) -> In ty ["iTRO"; "iTl"] -> field d "TG" t -> value t tg -> hashable tg = true -> data d v ->
    missing d "LK" -> field d "iT" (WList ks) -> items true ks Ks ->
    item ro (WDict d) (OT tg v 3 None Ks)
| i_link ro d ty t tg v ks Ks file kp key : field d "TP" (WStr ty) -> In ty ["iT"; "iTRO"; "iTl"] -> field d "TG" t -> value t tg -> hashable tg = true -> data d v ->
    field d "LK" (WList [WStr file; kp]) -> value kp key -> field d "iT" (WList ks) -> items ro ks Ks ->
    item ro (WDict d) (OT tg v (32 + inherited ro) (Some (PStr file, key)) Ks)
with items : bool -> list raw -> list otree -> Prop :=
| is_nil ro : items ro [] []
| is_cons ro r T rs Ts : item ro r T -> items ro rs Ts -> items ro (r :: rs) (T :: Ts).

Scheme value_mut := Induction for value Sort Prop
with members_mut := Induction for members Sort Prop
with entries_mut := Induction for entries Sort Prop.
Scheme item_mut := Induction for item Sort Prop
with items_mut := Induction for items Sort Prop.

(** ** Facts *)
Lemma find_field {A} d k v (m : A) f : field d k v -> find_with k m f d = f v.
Proof.
  intros [ND HI]. induction d as [|[k' v'] d IH]; [destruct HI|]. cbn [find_with]. inversion ND as [|? ? N1 N2]; subst. destruct HI as [HI|HI].
  - inversion HI; subst. rewrite String.eqb_refl. reflexivity.
  - destruct (String.eqb_spec k' k) as [->|E]; [exfalso; apply N1; apply in_map_iff; exists (k, v); auto|auto].
Qed.
Lemma find_missing {A} d k (m : A) f : missing d k -> find_with k m f d = m.
Proof.
  intros [_ HI]. induction d as [|[k' v'] d IH]; [reflexivity|]. cbn [find_with]. cbn in HI.
  destruct (String.eqb_spec k' k) as [->|E]; [exfalso; apply HI; left; reflexivity|]. apply IH. intros X. apply HI. right; exact X.
Qed.
Lemma wget_find d k : wget d k = find_with k None (fun v => match v with WNull => None | _ => Some v end) d.
Proof. induction d as [|[k' v'] d IH]; [reflexivity|]. cbn [wget find_with]. rewrite IH. reflexivity. Qed.
Lemma wget_field d k v : field d k v -> v <> WNull -> wget d k = Some v.
Proof. intros H N. rewrite wget_find, (find_field d k v) by exact H. destruct v; congruence. Qed.

Lemma call_ok name l v : call name l v -> mk_iter name l = Ok v.
Proof. intros H; inversion H; subst; try reflexivity. unfold mk_iter. cbn [String.eqb Ascii.eqb Bool.eqb]. rewrite mk_set_id by assumption. reflexivity. Qed.
Lemma iter_name name : is_item ("ITER:" ++ name) = false /\ starts_iter ("ITER:" ++ name) = Some name
  /\ String.eqb ("ITER:" ++ name) "OD" = false /\ String.eqb ("ITER:" ++ name) "D" = false /\ String.eqb ("ITER:" ++ name) "d" = false /\ String.eqb ("ITER:" ++ name) "DR" = false.
Proof.
  repeat split. unfold starts_iter. change ("ITER:" ++ name)%string with (String "I" (String "T" (String "E" (String "R" (String ":" name))))).
  cbn. unfold unlit. rewrite string_of_list_ascii_of_string. reflexivity.
Qed.

Lemma decode_all : forall r v, value r v -> decode r = Ok (OVal v).
Proof.
  apply (value_mut (fun r v _ => decode r = Ok (OVal v)) (fun rs vs _ => exists os, map_res decode rs = Ok os /\ map_res o_val os = Ok vs)
           (fun rs kvs _ => dec_pairs decode rs = Ok kvs)); try reflexivity.
  - intros d ty es kvs TP TY DC _ IH [N1 N2]. cbn [decode]. rewrite (wget_field d "TP" _ TP) by discriminate.
    rewrite (find_field d "DC" _ _ _ DC), IH. cbn [rbind]. rewrite mk_dict_id by assumption. cbn [rbind app].
    destruct TY as [<-|[<-|[<-|[]]]]; reflexivity.
  - intros d es kvs TP DC _ IH [N1 N2]. cbn [decode]. rewrite (wget_field d "TP" _ TP) by discriminate.
    rewrite (find_field d "DC" _ _ _ DC), IH. cbn [rbind]. rewrite mk_dict_id by assumption. reflexivity.
  - intros d name ms vs v TP DC _ [os [H1 H2]] C. cbn [decode]. rewrite (wget_field d "TP" _ TP) by discriminate.
    destruct (iter_name name) as (-> & -> & -> & -> & -> & ->). cbn [orb].
    rewrite (find_field d "DC" _ _ _ DC), H1. cbn [rbind]. rewrite H2. cbn [rbind]. rewrite (call_ok _ _ _ C). reflexivity.
  - intros d t tg i TP TG _ IH IX. cbn [decode]. rewrite (wget_field d "TP" _ TP) by discriminate.
    rewrite (find_field d "TG" _ _ _ TG), IH, (wget_field d "IDX" _ IX) by discriminate. reflexivity.
  - exists []. split; reflexivity.
  - intros r v rs vs _ IH _ [os [H1 H2]]. exists (OVal v :: os). cbn [map_res]. rewrite IH. cbn [rbind]. rewrite H1. cbn [rbind o_val]. rewrite H2. split; reflexivity.
  - intros a x b y rs kvs _ IH1 _ IH2 _ IH3. cbn [dec_pairs]. rewrite IH1. cbn [rbind o_val]. rewrite IH2. cbn [rbind o_val]. rewrite IH3. reflexivity.
Qed.

Lemma data_ok d v : data d v -> find_with "DT" (Ok (OVal PNone)) (fun v => decode v) d = Ok (OVal v).
Proof.
  intros [[M ->]|[r [F V]]]; [apply find_missing, M|]. rewrite (find_field d "DT" _ _ _ F). apply decode_all, V.
Qed.

Definition under (ro : bool) (T : otree) : otree := if ro then add_flags 1 T else T.
Lemma add_flags_twice T : add_flags 1 (add_flags 1 T) = add_flags 1 T.
Proof.
  revert T. fix IH 1. intros [tg v f lk ks]. cbn [add_flags]. f_equal; [rewrite <- Z.lor_assoc; reflexivity|].
  rewrite map_map. induction ks as [|k ks IHk]; [reflexivity|]. cbn [map]. rewrite IH. f_equal. exact IHk.
Qed.
Lemma map_under ro Ts : map (under ro) Ts = if ro then map (add_flags 1) Ts else Ts.
Proof. destruct ro; [reflexivity|]. apply map_id. Qed.

Lemma item_all : forall ro r T, item ro r T -> exists T0, decode r = Ok (OTree T0) /\ T = under ro T0.
Proof.
  apply (item_mut (fun ro r T _ => exists T0, decode r = Ok (OTree T0) /\ T = under ro T0)
           (fun ro rs Ts _ => exists os T0s, map_res decode rs = Ok os /\ map_res o_tree os = Ok T0s /\ Ts = map (under ro) T0s)).
  - intros ro d t tg TP TG V HH. exists (OT tg PNoValue 16 None []). split; [|destruct ro; reflexivity].
    cbn [decode]. rewrite (wget_field d "TP" _ TP) by discriminate. rewrite (find_field d "TG" _ _ _ TG), (decode_all _ _ V). cbn [rbind o_val].
    unfold mk_tree. rewrite HH. reflexivity.
  - intros ro d t tg v ks Ks TP TG V HH D LK IT _ (os & T0s & H1 & H2 & ->). exists (OT tg v 0 None T0s). split; [|rewrite map_under; destruct ro; reflexivity].
    cbn [decode]. rewrite (wget_field d "TP" _ TP) by discriminate. rewrite (find_field d "TG" _ _ _ TG), (decode_all _ _ V), (data_ok _ _ D).
    rewrite (find_field d "iT" _ _ _ IT), H1, (find_missing d "LK" _ _ LK). cbn [rbind o_val]. rewrite H2. cbn [rbind].
    unfold mk_tree. rewrite HH. reflexivity.
  - intros ro d ty t tg v ks Ks TP TY TG V HH D LK IT _ (os & T0s & H1 & H2 & ->). exists (OT tg v 3 None (map (add_flags 1) T0s)). split.
    + cbn [decode]. rewrite (wget_field d "TP" _ TP) by discriminate. rewrite (find_field d "TG" _ _ _ TG), (decode_all _ _ V), (data_ok _ _ D).
      rewrite (find_field d "iT" _ _ _ IT), H1, (find_missing d "LK" _ _ LK). cbn [rbind o_val]. rewrite H2. cbn [rbind].
      unfold mk_tree. rewrite HH. destruct TY as [<-|[<-|[]]]; reflexivity.
    + destruct ro; cbn [under add_flags]; [|reflexivity]. f_equal. rewrite map_map. apply map_ext. intros T. symmetry. apply add_flags_twice.
  - intros ro d ty t tg v ks Ks file kp key TP TY TG V HH D LK KV IT _ (os & T0s & H1 & H2 & ->). exists (OT tg v 32 (Some (PStr file, key)) T0s). split; [|rewrite map_under; destruct ro; reflexivity].
    cbn [decode]. rewrite (wget_field d "TP" _ TP) by discriminate. rewrite (find_field d "TG" _ _ _ TG), (decode_all _ _ V), (data_ok _ _ D).
    rewrite (find_field d "iT" _ _ _ IT), H1, (find_field d "LK" _ _ _ LK), (decode_all _ _ KV). cbn [rbind o_val]. rewrite H2. cbn [rbind].
    unfold mk_tree. rewrite HH. destruct TY as [<-|[<-|[<-|[]]]]; reflexivity.
  - intros ro. exists [], []. repeat split.
  - intros ro r T rs Ts _ (T0 & H1 & ->) _ (os & T0s & H2 & H3 & ->). exists (OTree T0 :: os), (T0 :: T0s). cbn [map_res]. rewrite H1. cbn [rbind]. rewrite H2. cbn [rbind o_tree]. rewrite H3. repeat split.
Qed.

(** ** C101: trees *)
Theorem C101_tree_partial r T : item false r T -> decode r = Ok (OTree T).
Proof. intros H. destruct (item_all _ _ _ H) as (T0 & E & ->). exact E. Qed.
Theorem C101_value_partial r v : value r v -> decode r = Ok (OVal v).
Proof. apply decode_all. Qed.

(** what makes an item below a read-only one: only the flag 1 is added, all the way down *)
Theorem C101_locked_below ro r T : item ro r T -> ro = true -> forall tg v f lk ks, T = OT tg v f lk ks -> Z.testbit f 0 = true /\ exists rs, items true rs ks.
Proof.
  intros H E tg v f lk ks ->. subst ro. inversion H; subst.
  - split; [reflexivity|]. exists []. constructor.
  - split; [reflexivity|]. eexists; eassumption.
  - split; [reflexivity|]. eexists; eassumption.
  - split; [reflexivity|]. eexists; eassumption.
Qed.

(** a tree with all kinds of items *)
Definition ex_raw : raw :=
  WDict [("TP", WStr "iT"); ("TG", WStr "root");
         ("DT", WDict [("TP", WStr "D"); ("DC", WList [WList [WStr "level"; WDict [("TP", WStr "ITER:tuple"); ("DC", WList [WInt 0; WInt (-1)])]]])]);
         ("iT", WList [WDict [("TP", WStr "iTRO"); ("TG", WDict [("TP", WStr "ITER:tuple"); ("DC", WList [WInt 1; WStr "a"])]); ("DT", WInt 5);
                              ("iT", WList [WDict [("TP", WStr "iT"); ("TG", WStr "x"); ("iT", WList [])]])];
                       WDict [("TP", WStr "iTPH"); ("TG", WStr "p")];
                       WDict [("TP", WStr "iTl"); ("TG", WStr "l"); ("LK", WList [WStr "f.itz"; WStr "/root"]); ("iT", WList [])]])].
Definition ex_tree : otree :=
  OT (PStr "root") (PDict [(PStr "level", PTuple [PInt 0; PInt (-1)])]) 0 None
    [OT (PTuple [PInt 1; PStr "a"]) (PInt 5) 3 None [OT (PStr "x") PNone 1 None []];
     OT (PStr "p") PNoValue 16 None [];
     OT (PStr "l") PNone 32 (Some (PStr "f.itz", PStr "/root")) []].
Local Ltac nd := repeat (apply NoDup_cons; [cbn; intuition discriminate|]); apply NoDup_nil.
Local Ltac fld := split; [cbn; nd|cbn; tauto].
Local Ltac mis := split; [cbn; nd|cbn; intuition discriminate].
Example C101_ex_item : item false ex_raw ex_tree.
Proof.
  eapply i_plain with (ro := false); [fld|fld|apply v_str|reflexivity|right; eexists; split; [fld|]|mis|fld|].
  - eapply v_dict; [fld|left; reflexivity|fld| |split; [nd|repeat constructor]].
    apply e_cons; [apply v_str| |apply e_nil].
    eapply v_iter with (name := "tuple"); [fld|fld| |apply call_tuple]. repeat (apply m_cons; [apply v_int|]). apply m_nil.
  - apply is_cons; [|apply is_cons; [|apply is_cons; [|apply is_nil]]].
    + eapply i_locked; [fld|left; reflexivity|fld| |reflexivity|right; eexists; split; [fld|apply v_int]|mis|fld|].
      * eapply v_iter with (name := "tuple"); [fld|fld| |apply call_tuple]. apply m_cons; [apply v_int|]. apply m_cons; [apply v_str|]. apply m_nil.
      * apply is_cons; [|apply is_nil]. eapply i_plain with (ro := true); [fld|fld|apply v_str|reflexivity|left; split; [mis|reflexivity]|mis|fld|apply is_nil].
    + eapply i_placeholder with (ro := false); [fld|fld|apply v_str|reflexivity].
    + eapply i_link with (ro := false); [fld|right; right; left; reflexivity|fld|apply v_str|reflexivity|left; split; [mis|reflexivity]|fld|apply v_str|fld|apply is_nil].
Qed.
Example C101_ex_decode : decode ex_raw = Ok (OTree ex_tree).
Proof. vm_compute. reflexivity. Qed.

(** ** C101: files *)
Definition occurs (m s : text) : Prop := exists a b, s = a ++ m ++ b.
Lemma prefixb_iff m s : prefixb m s = true <-> exists b, s = m ++ b.
Proof.
  revert s. induction m as [|c m IH]; intros s; [split; [exists s; reflexivity|destruct s; reflexivity]|].
  destruct s as [|d s]; cbn [prefixb app].
  - split; [discriminate|intros [b H]; discriminate].
  - rewrite andb_true_iff, IH, Ascii.eqb_eq. split.
    + intros [-> [b ->]]. exists b. reflexivity.
    + intros [b H]. inversion H; subst. split; [reflexivity|exists b; reflexivity].
Qed.
Lemma tail_inside (t : text) c : ~ In c t -> forall h x b, h ++ c :: x = t ++ b -> exists b', h = t ++ b'.
Proof.
  induction t as [|d t IH]; intros N h x b E; [exists h; reflexivity|]. destruct h as [|e h].
  - cbn in E. inversion E; subst. exfalso. apply N. left; reflexivity.
  - cbn in E. inversion E; subst. destruct (IH (fun X => N (or_intror X)) h x b H1) as [b' ->]. exists b'. reflexivity.
Qed.
Lemma mark_head c (h : text) x : ~ occurs MARK (c :: h) -> prefixb MARK (c :: h ++ MARK ++ x) = false.
Proof.
  intros N. destruct (prefixb MARK (c :: h ++ MARK ++ x)) eqn:E; [exfalso|reflexivity]. apply prefixb_iff in E as [b E].
  change (MARK ++ b) with ("}"%char :: lit "***DT***" ++ b) in E. inversion E as [[E1 E2]]. subst c.
  assert (NI : ~ In "}"%char (lit "***DT***")) by (cbn; intuition discriminate).
  destruct (tail_inside (lit "***DT***") "}"%char NI h (lit "***DT***" ++ x) b E2) as [b' ->].
  apply N. exists [], b'. reflexivity.
Qed.
Lemma split_none s : forall f cur, (length s < f)%nat -> ~ occurs MARK s -> split_fuel f MARK cur s = [rev cur ++ s].
Proof.
  induction s as [|c s IH]; intros f cur L N; (destruct f; [cbn in L; lia|]); cbn [split_fuel].
  - change (prefixb MARK []) with false. cbn. rewrite app_nil_r. reflexivity.
  - destruct (prefixb MARK (c :: s)) eqn:E; [apply prefixb_iff in E as [b E]; exfalso; apply N; exists [], b; exact E|].
    rewrite IH; [cbn [rev]; rewrite <- app_assoc; reflexivity|cbn in L; lia|].
    intros (a & b & ->). apply N. exists (c :: a), b. reflexivity.
Qed.
Lemma split_two h d : forall f cur, (length (h ++ MARK ++ d) < f)%nat -> ~ occurs MARK h -> ~ occurs MARK d ->
  split_fuel f MARK cur (h ++ MARK ++ d) = [rev cur ++ h; d].
Proof.
  induction h as [|c h IH]; intros f cur L N1 N2; (destruct f; [cbn in L; lia|]).
  - cbn [split_fuel app]. assert (E : prefixb MARK (MARK ++ d) = true) by (apply prefixb_iff; exists d; reflexivity). rewrite E.
    change (skipn (length MARK) (MARK ++ d)) with d. rewrite split_none; [rewrite app_nil_r; reflexivity|rewrite !app_length in L; cbn in L; lia|exact N2].
  - cbn [split_fuel app]. rewrite mark_head by exact N1. rewrite IH; [cbn [rev]; rewrite <- app_assoc; reflexivity|cbn [app length] in L; lia| |exact N2].
    intros (a & b & ->). apply N1. exists (c :: a), b. reflexivity.
Qed.

Lemma split_some f : forall cur s, split_fuel f MARK cur s <> [].
Proof. induction f as [|f IH]; intros cur s; cbn [split_fuel]; [discriminate|]. destruct (prefixb MARK s); [discriminate|]. destruct s; [discriminate|apply IH]. Qed.
Lemma split_one f : forall cur s a, split_fuel f MARK cur s = [a] -> rev cur ++ s = a.
Proof.
  induction f as [|f IH]; intros cur s a E; cbn [split_fuel] in E; [inversion E; reflexivity|]. destruct (prefixb MARK s) eqn:P.
  - exfalso. inversion E. eapply split_some; eassumption.
  - destruct s as [|c s]; [inversion E; rewrite app_nil_r; reflexivity|]. apply IH in E. cbn [rev] in E. rewrite <- app_assoc in E. exact E.
Qed.
Lemma split_glue f : forall cur s a b, split_fuel f MARK cur s = [a; b] -> rev cur ++ s = a ++ MARK ++ b.
Proof.
  induction f as [|f IH]; intros cur s a b E; cbn [split_fuel] in E; [discriminate|]. destruct (prefixb MARK s) eqn:P.
  - apply prefixb_iff in P as [t ->]. injection E as <- E2. f_equal. f_equal.
    change (skipn (length MARK) (MARK ++ t)) with t in E2. apply split_one in E2. cbn [rev app] in E2. exact E2.
  - destruct s as [|c s]; [discriminate|]. apply IH in E. cbn [rev] in E. rewrite <- app_assoc in E. exact E.
Qed.

Section Files.
  Variables (gunzip : text -> option text) (header : text -> res (string * option string)) (json : text -> res raw) (sha : text -> string).
  (** the content of the file: unpacked if it is packed *)
  Definition content (file src : text) : Prop := gunzip file = Some src \/ (gunzip file = None /\ src = file).
  (** the file has a readable header and a data part *)
  Definition two_parts (file : text) (version : string) (hash : option string) (dt : text) : Prop :=
    exists src h, content file src /\ src = h ++ lit "}***DT***" ++ dt /\ ~ occurs (lit "}***DT***") h /\ ~ occurs (lit "}***DT***") dt
      /\ header (h ++ lit "}") = Ok (version, hash).
  Lemma convert_parts chk file version hash dt : two_parts file version hash dt ->
    convert gunzip header json sha chk file =
    (if negb (String.eqb version "1.1.1") then Err PermissionError
     else if (chk && match hash with Some x => negb (String.eqb (sha dt) x) | None => false end)%bool then Err PermissionError
     else rbind (json dt) decode).
  Proof.
    intros (src & h & C & E & N1 & N2 & HD). unfold convert.
    assert (X : match gunzip file with Some s => s | None => file end = src) by (destruct C as [-> | [-> ->]]; reflexivity).
    rewrite X. subst src. unfold split. change (lit "}***DT***") with MARK in *. rewrite split_two; [|lia|assumption|assumption].
    cbn [rev app]. rewrite HD. reflexivity.
  Qed.
  Theorem C101_file_partial file hash dt r T chk : two_parts file "1.1.1" hash dt -> chk = false \/ hash = None \/ hash = Some (sha dt) ->
    json dt = Ok r -> item false r T -> convert gunzip header json sha chk file = Ok (OTree T).
  Proof.
    intros P H J I. rewrite (convert_parts chk file _ _ _ P). cbn [String.eqb Ascii.eqb Bool.eqb negb].
    assert (X : (chk && match hash with Some x => negb (String.eqb (sha dt) x) | None => false end)%bool = false).
    { destruct H as [-> | [-> | ->]]; [reflexivity|apply andb_false_r|rewrite String.eqb_refl; apply andb_false_r]. }
    rewrite X, J. cbn [rbind]. apply C101_tree_partial, I.
  Qed.
  Theorem C101_wrong_version file version hash dt chk : two_parts file version hash dt -> version <> "1.1.1" ->
    convert gunzip header json sha chk file = Err PermissionError.
  Proof. intros P N. rewrite (convert_parts chk file _ _ _ P). destruct (String.eqb_spec version "1.1.1"); [contradiction|reflexivity]. Qed.
  Theorem C101_corrupted file x dt : two_parts file "1.1.1" (Some x) dt -> sha dt <> x ->
    convert gunzip header json sha true file = Err PermissionError.
  Proof. intros P N. rewrite (convert_parts true file _ _ _ P). destruct (String.eqb_spec (sha dt) x); [contradiction|reflexivity]. Qed.
  (** whatever the file: a tree comes out only from a 1.1.1 file whose data part has the hash of the header *)
  Theorem C101_accepted file o : convert gunzip header json sha true file = Ok o ->
    exists src h dt hash r, content file src /\ src = h ++ lit "}***DT***" ++ dt /\ header (h ++ lit "}") = Ok ("1.1.1", hash)
      /\ (forall x, hash = Some x -> sha dt = x) /\ json dt = Ok r /\ decode r = Ok o.
  Proof.
    unfold convert. set (src := match gunzip file with Some s => s | None => file end). intros H.
    pose proof split_glue as S.
    destruct (split MARK src) as [|h [|dt [|x l]]] eqn:E; try discriminate. apply S in E. cbn [rev app] in E.
    destruct (header (h ++ lit "}")) as [[version hash]|] eqn:HD; [|discriminate]. cbn [rbind] in H.
    destruct (String.eqb_spec version "1.1.1") as [->|]; [|discriminate]. cbn [negb] in H.
    destruct (match hash with Some x => negb (String.eqb (sha dt) x) | None => false end) eqn:HH; cbn [andb] in H; [discriminate|].
    destruct (json dt) as [r|] eqn:J; [|discriminate]. cbn [rbind] in H.
    exists src, h, dt, hash, r. split; [|split; [exact E|split; [exact HD|split; [|split; [exact J|exact H]]]]].
    - unfold content, src. destruct (gunzip file); [left|right]; auto.
    - intros x ->. apply negb_false_iff, String.eqb_eq in HH. exact HH.
  Qed.
End Files.

(** ** C101: where the full claim fails *)
(** an item saved without data should come back without a value *)
Theorem C101_no_value_refuted :
  ~ (forall d t v ks, missing d "DT" -> decode (WDict d) = Ok (OTree (OT t v 0 None ks)) -> v = PNoValue).
Proof.
  intros H. assert (X : PNone = PNoValue); [|discriminate].
  apply (H [("TP", WStr "iT"); ("TG", WStr "a"); ("iT", WList [])] (PStr "a") PNone []); [mis|vm_compute; reflexivity].
Qed.
(** version 1.1.1 stores the value of an item under a key of its own; the converted item should have
    the value *)
Theorem C101_value_key_refuted :
  ~ (forall x v T, value x v ->
       decode (WDict [("TP", WStr "iT"); ("TG", WStr "B");
                      ("DT", WDict [("TP", WStr "D"); ("DC", WList [WList [WDict [("TP", WStr "ITER:tuple"); ("DC", WList [WStr "__iTree_NOKEY__"])]; x]])]);
                      ("iT", WList [])]) = Ok (OTree T) -> T = OT (PStr "B") v 0 None []).
Proof.
  intros H. assert (X := H (WStr "B0") (PStr "B0") (OT (PStr "B") (PDict [(PTuple [PStr "__iTree_NOKEY__"], PStr "B0")]) 0 None [])).
  specialize (X (v_str _)). assert (Y := X ltac:(vm_compute; reflexivity)). discriminate.
Qed.
(** different placeholders should stay different *)
Theorem C101_placeholder_refuted :
  ~ (forall i j, decode (WDict [("TP", WStr "iTPH"); ("TG", WStr "p"); ("IDX", WInt i)]) = decode (WDict [("TP", WStr "iTPH"); ("TG", WStr "p"); ("IDX", WInt j)]) -> i = j).
Proof. intros H. assert (X : 0 = 1); [|discriminate]. apply H. vm_compute. reflexivity. Qed.
(** a read-only item should stay read-only *)
Theorem C101_locked_link_refuted :
  ~ (forall d tg v f lk ks, field d "TP" (WStr "iTRO") -> decode (WDict d) = Ok (OTree (OT tg v f lk ks)) -> Z.testbit f 0 = true).
Proof.
  intros H.
  assert (X := H [("TP", WStr "iTRO"); ("TG", WStr "l"); ("LK", WList [WStr "f"; WStr "k"]); ("iT", WList [])] (PStr "l") PNone 32 (Some (PStr "f", PStr "k")) []).
  assert (Y := X ltac:(fld) ltac:(vm_compute; reflexivity)). discriminate.
Qed.
(** a dictionary without type should come back as it is; all but names of two letters raise *)
Theorem C101_plain_dict_refuted :
  ~ (forall d, missing d "TP" -> NoDup (map fst d) -> decode (WDict d) = Ok (OVal (raw_val (WDict d)))).
Proof. intros H. assert (X := H [("key", WInt 1)] ltac:(mis) ltac:(cbn; nd)). vm_compute in X. discriminate. Qed.
Theorem C101_plain_dict_raises : forall d k v, missing d "TP" -> In (k, v) d -> String.length k <> 2%nat -> exists e, decode (WDict d) = Err e.
Proof.
  intros d k v M I L. cbn [decode]. rewrite wget_find, (find_missing d "TP" _ _ M).
  assert (X : exists e, names_dict d = Err e).
  { clear M. induction d as [|[k' v'] d IH]; [destruct I|]. destruct I as [I|I].
    - inversion I; subst. cbn [names_dict]. destruct k as [|a [|b [|c k]]]; try (eexists; reflexivity). exfalso. apply L. reflexivity.
    - destruct (IH I) as [e E]. cbn [names_dict]. destruct k' as [|a [|b [|c k']]]; try (eexists; reflexivity). rewrite E. eexists; reflexivity. }
  destruct X as [e ->]. eexists; reflexivity.
Qed.
(** the members of a plain list should be decoded like those of a typed one *)
Theorem C101_plain_list_refuted :
  ~ (forall l vs, members l vs -> decode (WList l) = Ok (OVal (PList vs))).
Proof.
  intros H. assert (X := H [WDict [("TP", WStr "ITER:tuple"); ("DC", WList [])]] [PTuple []]).
  assert (M : members [WDict [("TP", WStr "ITER:tuple"); ("DC", WList [])]] [PTuple []]).
  { apply m_cons; [|apply m_nil]. eapply v_iter with (name := "tuple"); [fld|fld|apply m_nil|apply call_tuple]. }
  specialize (X M). vm_compute in X. discriminate.
Qed.
(** an item without children may be saved without the list *)
Theorem C101_no_children_refuted :
  ~ (forall d t tg, field d "TP" (WStr "iT") -> field d "TG" t -> value t tg -> hashable tg = true -> missing d "iT" -> exists T, decode (WDict d) = Ok (OTree T)).
Proof.
  intros H. destruct (H [("TP", WStr "iT"); ("TG", WStr "a")] (WStr "a") (PStr "a")) as [T E]; [fld|fld|apply v_str|reflexivity|mis|].
  vm_compute in E. discriminate.
Qed.
(** every 1.1.1 file with a readable header and readable data should be converted *)
Theorem C101_marker_refuted :
  ~ (forall gunzip header json sha file h dt r T, gunzip file = None -> file = h ++ lit "}***DT***" ++ dt -> header (h ++ lit "}") = Ok ("1.1.1", None) ->
       ~ occurs (lit "}***DT***") h -> json dt = Ok r -> item false r T -> convert gunzip header json sha true file = Ok (OTree T)).
Proof.
  intros H.
  set (dt := lit "{'TP':'iT','TG':'a}***DT***','iT':[]}"). set (h := lit "{'VERSION':'1.1.1'").
  assert (X := H (fun _ => None) (fun _ => Ok ("1.1.1", None)) (fun _ => Ok (WDict [("TP", WStr "iT"); ("TG", WStr "a}***DT***"); ("iT", WList [])])) (fun _ => "")
     (h ++ lit "}***DT***" ++ dt) h dt (WDict [("TP", WStr "iT"); ("TG", WStr "a}***DT***"); ("iT", WList [])]) (OT (PStr "a}***DT***") PNone 0 None [])
     eq_refl eq_refl eq_refl).
  assert (Y := X ltac:(intros (a & b & E); assert (Q : In "*"%char h) by (rewrite E; apply in_or_app; right; apply in_or_app; left; cbn; tauto); revert Q; cbn; intuition discriminate) eq_refl).
  assert (I : item false (WDict [("TP", WStr "iT"); ("TG", WStr "a}***DT***"); ("iT", WList [])]) (OT (PStr "a}***DT***") PNone 0 None [])).
  { eapply i_plain with (ro := false); [fld|fld|apply v_str|reflexivity|left; split; [mis|reflexivity]|mis|fld|apply is_nil]. }
  specialize (Y I). vm_compute in Y. discriminate.
Qed.

Section ExFile.
  Let h := lit "{'VERSION':'1.1.1','HASH':'ab'".
  Let dt := lit "{'TP':'iT'...}".
  Let file := h ++ lit "}***DT***" ++ dt.
  Example C101_ex_file : two_parts (fun _ => None) (fun _ => Ok ("1.1.1", Some "ab")) file "1.1.1" (Some "ab") dt.
  Proof.
    exists file, h. split; [right; split; reflexivity|]. split; [reflexivity|]. split; [|split; [|reflexivity]];
      (intros (a & b & E); match type of E with ?s = _ => assert (Q : In "*"%char s) by (rewrite E; apply in_or_app; right; apply in_or_app; left; cbn; tauto) end;
       revert Q; cbn; intuition discriminate).
  Qed.
  Example C101_ex_convert : convert (fun _ => None) (fun _ => Ok ("1.1.1", Some "ab")) (fun _ => Ok ex_raw) (fun _ => "ab") true file = Ok (OTree ex_tree)
    /\ convert (fun _ => None) (fun _ => Ok ("1.1.1", Some "ab")) (fun _ => Ok ex_raw) (fun _ => "cd") true file = Err PermissionError.
  Proof. split; vm_compute; reflexivity. Qed.
End ExFile.
