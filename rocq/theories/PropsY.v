(** C82, C83: trees in files. *)
From Verif Require Import Base Heap HeapSpec Tree HeapTree History Runs HeapFlags PropsF Deep DeepSpec JsonModel JsonFacts SerModel SerDump PropsM FileModel.
Import ListNotations.
Open Scope string_scope.
Open Scope list_scope.

(** ** Specification *)
(** What the dumps call writes for a tree: [text] is the text of that call. *)
Definition dumped (sha : list tok -> nat) (h : heap) (f : option (ditem -> bool)) (hash : bool) (x : loc) (text : list tok) : Prop :=
  exists n, dumps sha h n f true hash x = Some (Ok text).
(** what [loads] answers, as an answer of [load] *)
Definition as_file (r : heap * res loc) : heap * fres loc :=
  (fst r, match snd r with Ok y => FOk y | Err e => FErr (PyErr e) end).
(** Histories of a file system: dump calls (complete, refused, failing or interrupted), and other
    programs that remove a path or create a directory.  The log has one entry for every dump
    call: its path, its text. *)
Inductive DiskReach (sha : list tok -> nat) (wid : tok -> nat) (gwid : list byte -> nat) : disk -> list (string * list tok) -> Prop :=
| DR_empty : DiskReach sha wid gwid (fun _ => None) []
| DR_dump d log h n f x path pack hash ow opn stop text : DiskReach sha wid gwid d log ->
    dumps sha h n f true hash x = Some (Ok text) ->
    DiskReach sha wid gwid (fst (dump_file sha wid gwid h n f x path pack hash ow opn stop d)) ((path, text) :: log)
| DR_fail d log h n f x path pack hash ow opn stop : DiskReach sha wid gwid d log ->
    (forall text, dumps sha h n f true hash x <> Some (Ok text)) ->
    DiskReach sha wid gwid (fst (dump_file sha wid gwid h n f x path pack hash ow opn stop d)) log
| DR_remove d log path : DiskReach sha wid gwid d log -> DiskReach sha wid gwid (put d path None) log
| DR_mkdir d log path : DiskReach sha wid gwid d log -> DiskReach sha wid gwid (put d path (Some Dir)) log.

(** ** Proofs *)
Lemma dec_more wid n l : dec wid n (repeat BMore n ++ l) = dec wid 0 l.
Proof. induction n as [|n IH]; [reflexivity|exact IH]. Qed.
Lemma dec_enc wid l : dec wid 0 (enc wid l) = Some l.
Proof. induction l as [|t l IH]; [reflexivity|]. cbn [enc flat_map enc1 app dec]. rewrite dec_more. change (flat_map (enc1 wid) l) with (enc wid l). rewrite IH. reflexivity. Qed.
Lemma dec_short wid n k : k < n -> dec wid n (repeat BMore k) = None.
Proof. revert k. induction n as [|n IH]; intros [|k] H; [lia|lia|reflexivity|]. cbn [repeat dec]. apply IH. lia. Qed.
Lemma firstn_rep {A} (a : A) k n : k <= n -> firstn k (repeat a n) = repeat a k.
Proof. revert n. induction k as [|k IH]; intros [|n] H; try reflexivity; [lia|]. cbn. rewrite IH by lia. reflexivity. Qed.
Lemma dec_prefix wid l : forall k, k < length (enc wid l) -> dec wid 0 (firstn k (enc wid l)) = None \/ exists j, j < length l /\ dec wid 0 (firstn k (enc wid l)) = Some (firstn j l).
Proof.
  induction l as [|t l IH]; intros k Hk; [cbn in Hk; lia|]. cbn [enc flat_map enc1 app] in *. change (flat_map (enc1 wid) l) with (enc wid l) in *. cbn [length] in *. rewrite app_length, repeat_length in Hk.
  destruct k as [|k]; [right; exists 0; cbn; split; [lia|reflexivity]|]. cbn [firstn dec]. rewrite firstn_app, repeat_length.
  destruct (Nat.le_gt_cases (wid t) k) as [G|G].
  - rewrite firstn_all2 by (rewrite repeat_length; lia). rewrite dec_more. destruct (IH (k - wid t)) as [->|(j & J & ->)]; [lia|left; reflexivity|].
    right. exists (Datatypes.S j). split; [lia|reflexivity].
  - left. replace (k - wid t) with 0 by lia. cbn [firstn]. rewrite app_nil_r. rewrite firstn_rep by lia. rewrite dec_short by exact G. reflexivity.
Qed.

(** *** texts and their prefixes *)
Definition closes (l : list tok) : nat := length (filter (fun t => match t with TClose => true | _ => false end) l).
Lemma closes_app a b : closes (a ++ b) = closes a + closes b.
Proof. unfold closes. rewrite filter_app, app_length. reflexivity. Qed.
Lemma closes_firstn j l : closes (firstn j l) <= closes l.
Proof. rewrite <- (firstn_skipn j l) at 2. rewrite closes_app. lia. Qed.
Lemma parse_docs_closes l : forall rows rest, parse_docs l = Ok (rows, rest) -> closes l = Datatypes.S (closes rest).
Proof.
  assert (H : forall n l, length l <= n -> forall rows rest, parse_docs l = Ok (rows, rest) -> closes l = Datatypes.S (closes rest)).
  { induction n as [|n IH]; intros l' Hl rows rest; [destruct l'; [discriminate|cbn in Hl; lia]|].
    destruct l' as [|[| | |r|] [|[| | | |] l']]; try discriminate; cbn [parse_docs].
    - intros [= <- <-]. reflexivity.
    - destruct (parse_docs l') as [[rows' rest']|e] eqn:E; [|discriminate]. cbn. intros [= <- <-]. apply (IH l') in E; [exact E|cbn in Hl; lia]. }
  exact (H (length l) l (le_n _)).
Qed.
Lemma parse_list_closes l rows rest : parse_list l = Ok (rows, rest) -> closes l = Datatypes.S (closes rest).
Proof.
  destruct l as [|[| | | |] l]; try discriminate. cbn [parse_list].
  destruct l as [|[| | | |] l]; try discriminate; intros E.
  - injection E as <- <-. reflexivity.
  - apply parse_docs_closes in E. exact E.
Qed.
Lemma closes_docs rows : closes (join_docs rows) = 0.
Proof. induction rows as [|r [|r' rows] IH]; [reflexivity|reflexivity|]. cbn [join_docs] in *. exact IH. Qed.
Lemma dumps_form sha h n f hash x text : dumps sha h n f true hash x = Some (Ok text) ->
  exists body, dumps sha h n f false hash x = Some (Ok body) /\ closes body = 1 /\
    text = [TOpen; THead (HD "2.0" (if hash then Some (sha body) else None)); TComma] ++ body ++ [TClose].
Proof.
  intros E. rewrite C61_header in E. destruct (dumps sha h n f false hash x) as [[body|e]|] eqn:D; try discriminate. cbn [option_map rbind] in E. injection E as <-.
  exists body. split; [reflexivity|]. split; [|reflexivity]. unfold dumps in D. destruct (deep_locals h f n x) as [[l e]|]; [|discriminate].
  destruct (map_res (row_json h) l) as [rows|]; [|discriminate]. cbn [rbind] in D. destruct e; [discriminate|]. destruct (row_json h (0%Z, 0%Z, DItem x)) as [r0|e0]; cbn [rbind] in D; [|discriminate]. injection D as <-.
  change (closes (join_docs rows ++ [TClose]) = 1). rewrite closes_app, closes_docs. reflexivity.
Qed.
Lemma loads_closes sha l chk ll h h' y hd : loads sha ([TOpen; THead hd; TComma] ++ l) chk ll h = (h', Ok y) -> closes l = 2.
Proof.
  cbn [app loads]. unfold lift. unfold bind at 1. destruct (parse_list l) as [[rows rest]|e] eqn:E; [|discriminate]. apply parse_list_closes in E. rewrite E.
  destruct rest as [|[| | | |] [|]]; try discriminate. reflexivity.
Qed.
(** a strict prefix of a written text is refused *)
Lemma loads_header_err sha l chk ll h hd : closes l <> 2 -> exists e, loads sha ([TOpen; THead hd; TComma] ++ l) chk ll h = (h, Err e).
Proof.
  intros N. cbn [app loads]. unfold lift. unfold bind at 1. destruct (parse_list l) as [[rows rest]|e] eqn:E; [|eexists; reflexivity]. apply parse_list_closes in E.
  destruct rest as [|[| | | |] [|]]; try (eexists; reflexivity). exfalso. apply N. exact E.
Qed.
Lemma prefix_refused sha h n f hash x text j chk ll h0 : dumps sha h n f true hash x = Some (Ok text) -> j < length text -> exists e, loads sha (firstn j text) chk ll h0 = (h0, Err e).
Proof.
  intros E Hj. destruct (dumps_form _ _ _ _ _ _ _ E) as (body & _ & C & ->). rewrite !app_length in Hj. cbn [length] in Hj.
  destruct j as [|[|[|j]]]; try (eexists; reflexivity). rewrite firstn_app. cbn [firstn length Nat.sub]. rewrite ?firstn_nil, ?Nat.sub_0_r. cbn [app].
  apply (loads_header_err sha (firstn j (body ++ [TClose]))). rewrite firstn_app. replace (j - length body) with 0 by lia. cbn [firstn]. rewrite app_nil_r. pose proof (closes_firstn j body). lia.
Qed.
(** *** files *)
Lemma load_plain sha wid gwid d path text chk ll h : text <> [] -> d path = Some (File (enc wid text)) -> load_file sha wid gwid path chk ll d h = as_file (loads sha text chk ll h).
Proof.
  intros N E. unfold load_file. rewrite E. pose proof (dec_enc wid text) as D. destruct text as [|t text]; [congruence|]. cbn [enc flat_map enc1 app] in *.
  assert (G : forall r, gunzip gwid (BTok t :: r) = FErr OSErr) by (intros [|b r]; reflexivity). rewrite G. rewrite D. unfold as_file.
  destruct (loads sha (t :: text) chk ll h) as [h' [y|e]]; reflexivity.
Qed.
Lemma gunzip_gzip gwid l : gunzip gwid (gzip gwid l) = FOk l.
Proof. unfold gunzip, gzip. cbn [repeat Nat.add]. cbn [length]. rewrite repeat_length, Nat.eqb_refl. reflexivity. Qed.
Lemma load_packed sha wid gwid d path text chk ll h : d path = Some (File (gzip gwid (enc wid text))) -> load_file sha wid gwid path chk ll d h = as_file (loads sha text chk ll h).
Proof.
  intros E. unfold load_file. rewrite E, gunzip_gzip, dec_enc. unfold as_file. destruct (loads sha text chk ll h) as [h' [y|e]]; reflexivity.
Qed.
Lemma load_cut sha wid gwid d path h n f hash x text (pack : bool) k chk ll h0 : dumps sha h n f true hash x = Some (Ok text) ->
  let data := if pack then gzip gwid (enc wid text) else enc wid text in
  k < length data -> d path = Some (File (firstn k data)) -> exists e, load_file sha wid gwid path chk ll d h0 = (h0, FErr e).
Proof.
  intros D data Hk E. unfold load_file. rewrite E. subst data. destruct pack.
  - unfold gzip in *. destruct k as [|[|k]].
    + cbn. eexists. reflexivity.
    + cbn. eexists. reflexivity.
    + cbn [length] in Hk. rewrite repeat_length in Hk. remember (17 + gwid (enc wid text)) as m eqn:Em. change (firstn (Datatypes.S (Datatypes.S k)) (BGz (enc wid text) :: repeat BMore m)) with (BGz (enc wid text) :: firstn (Datatypes.S k) (repeat BMore m)). rewrite firstn_rep by lia. cbn [repeat gunzip].
      rewrite <- Em. cbn [length]. rewrite repeat_length. rewrite Em. destruct (Nat.eqb_spec (Datatypes.S k) (17 + gwid (enc wid text))) as [K|_]; [lia|]. eexists. reflexivity.
  - assert (G : gunzip gwid (firstn k (enc wid text)) = FOk [] /\ k = 0 \/ gunzip gwid (firstn k (enc wid text)) = FErr OSErr).
    { destruct k as [|k]; [left; split; reflexivity|right]. destruct text as [|t text]; [cbn in Hk; lia|]. cbn [enc flat_map enc1 app firstn].
      match goal with |- gunzip _ (_ :: ?r) = _ => destruct r; reflexivity end. }
    assert (P : dec wid 0 (firstn k (enc wid text)) = None \/ exists j, j < length text /\ dec wid 0 (firstn k (enc wid text)) = Some (firstn j text)) by (apply dec_prefix; exact Hk).
    assert (Q : exists e, (match dec wid 0 (firstn k (enc wid text)) with
          | None => (h0, FErr (PyErr ValueError))
          | Some text => match loads sha text chk ll h0 with (h', Ok y) => (h', FOk y) | (h', Err e) => (h', FErr (PyErr e)) end
          end) = (h0, FErr e)).
    { destruct P as [->|(j & J & ->)]; [eexists; reflexivity|]. destruct (prefix_refused _ _ _ _ _ _ _ j chk ll h0 D J) as (e & ->). eexists. reflexivity. }
    destruct G as [(-> & ->)|G]; [|rewrite G; exact Q]. cbn. eexists. reflexivity.
Qed.
Lemma put_same d p o : put d p o p = o.
Proof. unfold put. rewrite String.eqb_refl. reflexivity. Qed.
Lemma put_other d p o q : q <> p -> put d p o q = d q.
Proof. intros N. unfold put. apply String.eqb_neq in N. rewrite N. reflexivity. Qed.

(** ** C82 *)
(** dump without error: load of that path (packed or not, at any later state of the items)
    answers exactly what loads answers for the text of the dump; the answer of dump is the hash
    of the data part; no other path is touched. *)
Theorem C82_read_back : forall sha wid gwid h n f x path pack hash ow opn stop d d' r,
  dump_file sha wid gwid h n f x path pack hash ow opn stop d = (d', FOk r) ->
  exists text, dumped sha h f hash x text /\
    (forall h0 chk ll, load_file sha wid gwid path chk ll d' h0 = as_file (loads sha text chk ll h0)) /\
    (forall q, q <> path -> d' q = d q) /\
    exists body, dumps sha h n f false hash x = Some (Ok body) /\ r = if hash then Some (sha body) else None.
Proof.
  intros sha wid gwid h n f x path pack hash ow opn stop d d' r. unfold dump_file.
  destruct (exists_path d path && negb ow); [discriminate|]. destruct (exists_path d path && is_dir d path); [discriminate|].
  destruct (dumps sha h n f true hash x) as [[text|e]|] eqn:D; [|discriminate|discriminate]. destruct opn as [e|]; [discriminate|]. destruct stop as [k|]; [discriminate|]. intros [= <- <-].
  exists text. split; [exists n; exact D|]. destruct (dumps_form _ _ _ _ _ _ _ D) as (body & B & _ & Et). split; [|split].
  - intros h0 chk ll. destruct pack; [apply load_packed|apply load_plain; [rewrite Et; discriminate|]]; apply put_same.
  - intros q N. apply put_other. exact N.
  - exists body. split; [exact B|]. rewrite Et. destruct hash; reflexivity.
Qed.
(** together with C48: the tree that comes back from a file *)
Theorem C48_file_partial : forall sha wid gwid h x T f path pack hash ow chk ll d, Reach h -> x < hnext h -> tree_at h x T ->
  (forall y, In y (flatten T) -> flag h y 3 = false) -> flags_passed_on h T ->
  kids (prune (shown f) T) <> [] ->
  (forall y, In y (flatten (prune (shown f) T)) -> storable h y /\ (ll = true -> flag h y 5 = false)) ->
  d path = None \/ ow = true /\ d path <> Some Dir ->
  exists d' r, (forall n, 3 * size T + 3 <= n -> dump_file sha wid gwid h n f x path pack hash ow None None d = (d', FOk r)) /\
  exists h' y T', load_file sha wid gwid path chk ll d' h = (h', FOk y) /\ hnext h <= y < hnext h' /\ parent_of h' y = None /\ tree_at h' y T' /\
    tmap (stored h') T' = tmap (stored h) (prune (shown f) T) /\
    (forall z, z < hnext h -> view h' z = view h z).
Proof.
  intros sha wid gwid h x T f path pack hash ow chk ll d R Hx HT HL HF HK HS HP.
  destruct (C48_exact_partial sha h x T f true hash chk ll R Hx HT HL HF HK HS) as (text & Hd & h' & y & T' & El & _ & Hy & Py & Ty & St & Vz).
  assert (G : (exists_path d path && negb ow = false) /\ (exists_path d path && is_dir d path = false)).
  { unfold exists_path, is_dir. destruct HP as [->|(-> & HP)]; [split; reflexivity|]. destruct (d path) as [[l|]|]; [split; reflexivity|congruence|split; reflexivity]. }
  set (data := if pack then gzip gwid (enc wid text) else enc wid text).
  exists (put d path (Some (File data))), (if hash then match text with _ :: THead hd :: _ => hd_hash hd | _ => None end else None). split.
  - intros n Hn. unfold dump_file. rewrite (proj1 G), (proj2 G), (Hd n Hn). reflexivity.
  - exists h', y, T'. split; [|auto 10]. assert (L : load_file sha wid gwid path chk ll (put d path (Some (File data))) h = as_file (loads sha text chk ll h)).
    { destruct (dumps_form _ _ _ _ _ _ _ (Hd _ (le_n _))) as (body & _ & _ & Et). subst data. destruct pack; [apply load_packed|apply load_plain; [rewrite Et; discriminate|]]; apply put_same. }
    rewrite L, El. reflexivity.
Qed.
(** an existing path is never changed without overwrite, a directory never *)
Theorem C82_no_overwrite : forall sha wid gwid h n f x path pack hash ow opn stop d,
  d path <> None -> ow = false \/ d path = Some Dir ->
  dump_file sha wid gwid h n f x path pack hash ow opn stop d = (d, FErr FileExistsError).
Proof.
  intros sha wid gwid h n f x path pack hash ow opn stop d N H. unfold dump_file, exists_path, is_dir. destruct (d path) as [o|]; [|congruence].
  destruct H as [->|[= ->]]; [reflexivity|]. destruct (negb ow); reflexivity.
Qed.
(** a dump whose writing is interrupted after any number of bytes: the path is as before (the
    call failed before the file was opened), or the file is complete, or no load accepts it - and
    such a load creates no item. *)
Theorem C82_interrupted : forall sha wid gwid h n f x path pack hash ow opn k d,
  let d' := fst (dump_file sha wid gwid h n f x path pack hash ow opn (Some k) d) in
  (forall q, d' q = d q) \/
  (forall q, q <> path -> d' q = d q) /\ exists text, dumped sha h f hash x text /\
    ((forall h0 chk ll, load_file sha wid gwid path chk ll d' h0 = as_file (loads sha text chk ll h0)) \/
     (forall h0 chk ll, exists e, load_file sha wid gwid path chk ll d' h0 = (h0, FErr e))).
Proof.
  intros sha wid gwid h n f x path pack hash ow opn k d. cbn zeta. unfold dump_file.
  destruct (exists_path d path && negb ow); [left; reflexivity|]. destruct (exists_path d path && is_dir d path); [left; reflexivity|].
  destruct (dumps sha h n f true hash x) as [[text|e]|] eqn:D; [|left; reflexivity|left; reflexivity]. destruct opn as [e|]; [left; reflexivity|]. cbn [fst].
  right. split; [intros q N; apply put_other; exact N|]. exists text. split; [exists n; exact D|].
  set (data := if pack then gzip gwid (enc wid text) else enc wid text). destruct (Nat.lt_ge_cases k (length data)) as [K|K].
  - right. intros h0 chk ll. eapply load_cut with (pack := pack); [exact D|exact K|apply put_same].
  - left. intros h0 chk ll. rewrite firstn_all2 by exact K. destruct (dumps_form _ _ _ _ _ _ _ D) as (body & _ & _ & Et).
    subst data. destruct pack; [apply load_packed|apply load_plain; [rewrite Et; discriminate|]]; apply put_same.
Qed.
(** along every history of dumps, interruptions, removals: what load accepts is the text of some
    dump call to that path, and it answers what loads answers for that text *)
Theorem C82_history : forall sha wid gwid d log, DiskReach sha wid gwid d log ->
  forall path chk ll h h' y, load_file sha wid gwid path chk ll d h = (h', FOk y) ->
  exists text, In (path, text) log /\ loads sha text chk ll h = (h', Ok y).
Proof.
  intros sha wid gwid d log R path chk ll h h' y. revert h h' y.
  assert (Load : forall d1 d2 h, d1 path = d2 path -> load_file sha wid gwid path chk ll d1 h = load_file sha wid gwid path chk ll d2 h) by (intros d1 d2 h E; unfold load_file; rewrite E; reflexivity).
  induction R as [|d log h1 n f x path' pack hash ow opn stop text R IH D|d log h1 n f x path' pack hash ow opn stop R IH D|d log path' R IH|d log path' R IH]; intros h h' y.
  - discriminate.
  - assert (Old : forall h h' y, load_file sha wid gwid path chk ll d h = (h', FOk y) -> exists t, In (path, t) ((path', text) :: log) /\ loads sha t chk ll h = (h', Ok y)).
    { intros a b c E. destruct (IH a b c E) as (t & I & L). exists t. split; [right; exact I|exact L]. }
    unfold dump_file. destruct (exists_path d path' && negb ow); [apply Old|]. destruct (exists_path d path' && is_dir d path'); [apply Old|]. rewrite D.
    destruct opn as [e|]; [apply Old|]. set (data := if pack then gzip gwid (enc wid text) else enc wid text).
    assert (New : forall k, load_file sha wid gwid path chk ll (put d path' (Some (File (firstn k data)))) h = (h', FOk y) -> exists t, In (path, t) ((path', text) :: log) /\ loads sha t chk ll h = (h', Ok y)).
    { intros k E. destruct (String.eqb_spec path path') as [->|N].
      - exists text. split; [left; reflexivity|]. destruct (Nat.lt_ge_cases k (length data)) as [K|K].
        + destruct (load_cut sha wid gwid _ path' h1 n f hash x text pack k chk ll h D K (put_same d path' _)) as (e & E'). pose proof (eq_trans (eq_sym E') E) as Z. discriminate.
        + rewrite firstn_all2 in E by exact K. destruct (dumps_form _ _ _ _ _ _ _ D) as (body & _ & _ & Et).
          assert (L : load_file sha wid gwid path' chk ll (put d path' (Some (File data))) h = as_file (loads sha text chk ll h)).
          { subst data. destruct pack; [apply load_packed|apply load_plain; [rewrite Et; discriminate|]]; apply put_same. }
          rewrite L in E. unfold as_file in E. destruct (loads sha text chk ll h) as [h2 [y2|e2]]; cbn in E; [|discriminate]. injection E as -> ->. reflexivity.
      - apply Old. rewrite <- E. apply Load. symmetry. apply put_other. exact N. }
    destruct stop as [k|]; cbn [fst]; [apply New|]. rewrite <- (firstn_all data). apply New.
  - intros E. apply (IH h h' y). rewrite <- E. apply Load. unfold dump_file. destruct (exists_path d path' && negb ow); [reflexivity|]. destruct (exists_path d path' && is_dir d path'); [reflexivity|].
    destruct (dumps sha h1 n f true hash x) as [[text|e]|]; [destruct (D text eq_refl)|reflexivity|reflexivity].
  - intros E. apply (IH h h' y). rewrite <- E. apply Load. unfold load_file in E. destruct (String.eqb_spec path path') as [->|N]; [rewrite put_same in E; discriminate|]. symmetry. apply put_other. exact N.
  - intros E. apply (IH h h' y). rewrite <- E. apply Load. unfold load_file in E. destruct (String.eqb_spec path path') as [->|N]; [rewrite put_same in E; discriminate|]. symmetry. apply put_other. exact N.
Qed.

(** a tree written packed, then the unpacked overwriting is interrupted *)
Definition y_dump pack ow stop : disk -> disk * fres (option nat) := dump_file (@length tok) (fun _ => 1) (fun _ => 3) ser_heap 100 None 0 "t.itr" pack true ow None stop.
Definition y_load (d : disk) : fres loc := snd (load_file (@length tok) (fun _ => 1) (fun _ => 3) "t.itr" true false d ser_heap).
Definition y_disk1 : disk := fst (y_dump true false None (fun _ => None)).
Definition y_disk2 : disk := fst (y_dump false true (Some 7) y_disk1).
Example C82_case : (exists r, snd (y_dump true false None (fun _ => None)) = FOk (Some r)) /\ y_load y_disk1 = FOk 14 /\
  snd (y_dump true false None y_disk1) = FErr FileExistsError /\
  (exists log, DiskReach (@length tok) (fun _ => 1) (fun _ => 3) y_disk2 log /\ length log = 2).
Proof.
  split; [eexists; vm_compute; reflexivity|]. split; [vm_compute; reflexivity|]. split; [vm_compute; reflexivity|].
  destruct (dumps (@length tok) ser_heap 100 None true true 0) as [[text|e]|] eqn:E; [|exfalso; revert E; vm_compute; discriminate..].
  exists [("t.itr", text); ("t.itr", text)]. split; [|reflexivity]. unfold y_disk2, y_disk1, y_dump. apply DR_dump; [apply DR_dump; [apply DR_empty|exact E]|exact E].
Qed.

(** ** C83 *)
(** a dump that raises before its file is opened - existing path, directory, a value that cannot
    be written, open() refused - changes nothing *)
Theorem C83_failed_dump_partial : forall sha wid gwid h n f x path pack hash ow opn d d' e,
  dump_file sha wid gwid h n f x path pack hash ow opn None d = (d', FErr e) -> forall q, d' q = d q.
Proof.
  intros sha wid gwid h n f x path pack hash ow opn d d' e. unfold dump_file.
  destruct (exists_path d path && negb ow); [intros [= <- <-]; reflexivity|]. destruct (exists_path d path && is_dir d path); [intros [= <- <-]; reflexivity|].
  destruct (dumps sha h n f true hash x) as [[text|e1]|]; [|intros [= <- <-]; reflexivity|intros [= <- <-]; reflexivity]. destruct opn as [e1|]; [intros [= <- <-]; reflexivity|discriminate].
Qed.
(** the error of the serializer is passed on *)
Theorem C83_unserialisable : forall sha wid gwid h n f x path pack hash ow opn stop d e,
  d path = None \/ ow = true /\ d path <> Some Dir -> dumps sha h n f true hash x = Some (Err e) ->
  dump_file sha wid gwid h n f x path pack hash ow opn stop d = (d, FErr (PyErr e)).
Proof.
  intros sha wid gwid h n f x path pack hash ow opn stop d e HP E. unfold dump_file.
  assert (G : (exists_path d path && negb ow = false) /\ (exists_path d path && is_dir d path = false)).
  { unfold exists_path, is_dir. destruct HP as [->|(-> & HP)]; [split; reflexivity|]. destruct (d path) as [[l|]|]; [split; reflexivity|congruence|split; reflexivity]. }
  rewrite (proj1 G), (proj2 G), E. reflexivity.
Qed.
(** refuted: an interrupted overwriting dump loses the tree that was in the file: neither the old
    nor the new tree can be read *)
Theorem C83_atomic_refuted : y_load y_disk1 = FOk 14 /\ snd (y_dump false true (Some 7) y_disk1) = FErr OSErr /\ y_load y_disk2 = FErr (PyErr ValueError).
Proof. split; [vm_compute; reflexivity|]. split; vm_compute; reflexivity. Qed.
Example C83_case : snd (dump_file (@length tok) (fun _ => 1) (fun _ => 3) ser_heap 100 None 0 "t.itr" true true true (Some FileNotFoundError) None y_disk1) = FErr FileNotFoundError.
Proof. vm_compute. reflexivity. Qed.

Print Assumptions C82_read_back.
Print Assumptions C82_no_overwrite.
Print Assumptions C82_interrupted.
Print Assumptions C82_history.
Print Assumptions C48_file_partial.
Print Assumptions C83_failed_dump_partial.
