(** Properties of loading, partitioning and piecewise execution: C18-C22. *)
From Verif Require Import Base Util Spec QueryClass PosSpec Claims Lexer LexSpec LexClaim CutSpec Dfa Stream Num FilterSpec Builder Eval Filter Loader Run EndToEnd
  LoaderProof Pieces PieceRun LoadClaim Samples.
Open Scope Z_scope.

(** * C18: loading piece by piece covers the file

    [loads M X file s ps]: calling loadBoundedInputStream with the start
    position [s], then with the position it has stored, and so on, gives the
    pieces [ps] and then NULL.  [M] is MEMORY_FOOTPRINT, [X] is MAX_EXTENSION. *)
Definition C18_full : Prop := forall M X file, 0 < M -> 0 < X -> exists ps, loads M X file 0 ps /\ concat ps = file.

(** Missing: files in which the next cut is [X] bytes or more away, or which
    start with white space; the code has undefined behaviour there. *)
Theorem C18_partial : forall M X file, 0 < M -> 0 < X -> (file = [] \/ solid_start file = true) -> cuts_from M X file ->
  exists ps, loads M X file 0 ps /\ concat ps = file.
Proof.
  intros M X file H1 H2 H3 H4. destruct (load_total M X file H1 H2 H3 H4) as (ps & H). exists ps. split; [exact H|apply (load_sound M X file ps H1 H)].
Qed.
Print Assumptions C18_partial.

(** For all files: as long as no call has undefined behaviour nothing is lost or
    duplicated, and there are at most as many pieces as bytes. *)
Theorem C18_sound : forall M X file ps, 0 < M -> loads M X file 0 ps -> concat ps = file /\ zlen ps <= zlen file.
Proof. exact load_sound. Qed.
Print Assumptions C18_sound.

Example C18_example : exists ps, loads 20 100 (doc_text store) 0 ps /\ zlen ps = 6 /\ concat ps = doc_text store.
Proof.
  eexists. split; [|split].
  - repeat (first [apply loads_end; vm_compute; reflexivity | eapply loads_more; [vm_compute; reflexivity|]]).
  - vm_compute. reflexivity.
  - vm_compute. reflexivity.
Qed.
Example C18_example_cuts : cuts_from 2 5 (B "[""a"",""b""]") /\ solid_start (B "[""a"",""b""]") = true.
Proof.
  split; [|reflexivity]. intros a b E Hl.
  assert (Ea : a = firstn (List.length a) (B "[""a"",""b""]")) by (rewrite E, firstn_app, Nat.sub_diag, firstn_all; cbn; rewrite app_nil_r; reflexivity).
  assert (Eb : b = skipn (List.length a) (B "[""a"",""b""]")) by (rewrite E, skipn_app, Nat.sub_diag, skipn_all; reflexivity).
  assert (Hn : (List.length a <= 9)%nat) by (apply (f_equal (@List.length ascii)) in E; rewrite app_length in E; cbn in E; lia).
  unfold zlen in Hl. set (n := List.length a) in *. clearbody n. subst a b. clear E.
  destruct n as [|[|[|[|[|[|[|[|[|[|n]]]]]]]]]]; [exfalso; lia|exfalso; lia|..].
  all: try (exfalso; lia).
  all: first
    [ exists (B """b""]"), []; repeat split; auto; vm_compute; reflexivity
    | exists (B "a"","), (B """b""]"); repeat split; auto; vm_compute; reflexivity
    | exists (B ""","), (B """b""]"); repeat split; auto; vm_compute; reflexivity
    | exists (B ","), (B """b""]"); repeat split; auto; vm_compute; reflexivity
    | exists [], (B """b""]"); repeat split; auto; vm_compute; reflexivity
    | exists (B "b""]"), []; repeat split; auto; vm_compute; reflexivity
    | exists (B """]"), []; repeat split; auto; vm_compute; reflexivity
    | exists (B "]"), []; repeat split; auto; vm_compute; reflexivity
    | exists [], []; repeat split; auto; vm_compute; reflexivity ].
Qed.

(** The calls with the constants of the header: [file_loads file s ps]. *)
Inductive file_loads (file : bytes) : Z -> list bytes -> Prop :=
| file_end s : loadBoundedInputStream file s = Ok None -> file_loads file s []
| file_more s p s' ps : loadBoundedInputStream file s = Ok (Some (p, s')) -> file_loads file s' ps -> file_loads file s (p :: ps).

(** Cuts at distances below 2000 bytes suffice, and are needed only behind the first
    250000000 bytes; a file of at most that size is loaded as it is by one call. *)
Theorem C18_limits : forall file, (file = [] \/ solid_start file = true) -> cuts_from 250000000 2000 file ->
  exists ps, file_loads file 0 ps /\ concat ps = file.
Proof.
  intros file H1 H2. destruct (C18_partial 250000000 2000 file eq_refl eq_refl H1 H2) as (ps & H & E). exists ps. split; [|exact E].
  clear - H. induction H as [s E|s p s' ps E Hl IH]; [apply file_end; exact E|]. eapply file_more; [exact E|exact IH].
Qed.
Print Assumptions C18_limits.
Theorem C18_whole : forall file, 0 < zlen file <= 250000000 -> file_loads file 0 [file].
Proof.
  intros file H. eapply file_more; [exact (load_whole 250000000 2000 file eq_refl H)|]. apply file_end.
  unfold loadBoundedInputStream, loadBounded. rewrite Z.sub_diag. reflexivity.
Qed.
Print Assumptions C18_whole.
Example C18_whole_example : 0 < zlen (doc_text store) <= 250000000.
Proof. vm_compute. split; [reflexivity|discriminate]. Qed.

(** Whatever the constants, some file makes the extension overflow its buffer. *)
Theorem C18_refuted : forall M X, 1 <= M -> 0 <= X -> exists file, loadBounded M X file 0 = UB OOBWrite.
Proof. intros M X H1 H2. eexists. exact (load_overflow M X H1 H2). Qed.
Print Assumptions C18_refuted.

(** * C19: partitioning *)
Definition C19_full : Prop := forall s n, n <> O -> no_nul s -> s <> [] ->
  exists p ps, partitionInputStream s n = Ok (map Some (p :: ps)) /\ concat (p :: ps) = s /\ (List.length (p :: ps) <= n)%nat /\ well_cut p ps = true.

(** Missing: streams in which a cut is missing within 2000 bytes of a place where
    the code looks for one, and streams that start with white space. *)
Theorem C19_partial : forall s n, n <> O -> no_nul s -> solid_start s = true ->
  cuts_upto (Z.of_nat (pred n) * (zlen s / Z.of_nat n + 1 + 2000)) 2000 s ->
  exists p ps, partitionInputStream s n = Ok (map Some (p :: ps)) /\ concat (p :: ps) = s /\ (List.length (p :: ps) <= n)%nat /\ well_cut p ps = true.
Proof. exact part_total. Qed.
Print Assumptions C19_partial.

(** Whenever the call returns, for streams that do not start with a blank. *)
Theorem C19_sound : forall s n cs, s <> [] -> lead_blanks s = O -> no_nul s -> partitionInputStream s n = Ok cs ->
  exists p ps, cs = map Some (p :: ps) /\ concat (p :: ps) = s /\ (List.length (p :: ps) <= n)%nat /\ well_cut p ps = true.
Proof. exact part_sound. Qed.
Print Assumptions C19_sound.

Example C19_example : exists cs, partitionInputStream (doc_text store) 4 = Ok cs /\ List.length cs = 4%nat.
Proof. eexists. split; [vm_compute; reflexivity|reflexivity]. Qed.
(** With one core nothing has to be cut. *)
Example C19_example_one : solid_start (B "[1,2]") = true /\ partitionInputStream (B "[1,2]") 1 = Ok [Some (B "[1,2]")].
Proof. split; reflexivity. Qed.

(** No place to cut: the search runs past the end of the stream. *)
Theorem C19_refuted : exists s n, n <> O /\ no_nul s /\ solid_start s = true /\ partitionInputStream s n = UB OOBRead.
Proof.
  exists (B "[1,2,3,4]"), 2%nat. split; [discriminate|]. split; [|split; reflexivity]. intros H. vm_compute in H.
  repeat (destruct H as [H|H]; [discriminate H|]). exact H.
Qed.
Print Assumptions C19_refuted.
(** A stream that starts with a blank: bytes are skipped. *)
Theorem C19_refuted_blank : exists s n cs, n <> O /\ partitionInputStream s n = Ok (map Some cs) /\ concat cs <> s.
Proof. exists (B " [""a"",""b"",""c""]"), 2%nat, [B "[""a"",""b"""","; B "c""]"]. split; [discriminate|]. split; [vm_compute; reflexivity|]. vm_compute. discriminate. Qed.
Print Assumptions C19_refuted_blank.
(** partitionFile writes behind the buffer of the last chunk, for every file that
    is not empty when one chunk is asked for; and it never fills all entries. *)
Theorem C19_file_refuted : (forall file, file <> [] -> partitionFile file 1 = UB OOBWrite) /\
  (forall file n cs, partitionFile file n = Ok cs -> In None cs).
Proof. split; [apply partition_file_one|apply partition_file_null]. Qed.
Print Assumptions C19_file_refuted.

(** * C20: cuts fall between tokens *)
(** [p :: ps] are the pieces that one of the two loaders makes of the stream. *)
Definition pieces_of (s : bytes) (p : bytes) (ps : list bytes) : Prop :=
  (exists M X, loaded_pieces M X s p ps) \/ (exists n, chunks s n p ps).
Definition C20_full : Prop := forall dc p ps, good_doc dc -> pieces_of (doc_text dc) p ps ->
  exists evss, Forall2 (fun p evs => lex_all p = Ok evs) (p :: ps) evss /\ map e_tok (concat evss) = doc_tokens (d_val dc).

(** Missing: documents with a key or a string that ends in a comma, an opening
    brace or an opening bracket; partitionFile (see C19). *)
Theorem C20_partial : forall dc p ps, good_doc dc -> tame (d_val dc) = true -> pieces_of (doc_text dc) p ps ->
  exists evss, Forall2 (fun p evs => lex_all p = Ok evs) (p :: ps) evss /\ map e_tok (concat evss) = doc_tokens (d_val dc).
Proof.
  intros dc p ps H1 H2 H3. destruct (made_pieces dc p ps H1 H3) as [E1 E2]. exact (pieces_tokens dc p ps (gd_wf dc H1) (gd_safe dc H1) H2 E1 E2).
Qed.
Print Assumptions C20_partial.

Example C20_example : good_doc store /\ tame (d_val store) = true /\ exists p ps, pieces_of (doc_text store) p ps /\ List.length ps = 3%nat.
Proof.
  split; [apply good_checked; vm_compute; reflexivity|]. split; [vm_compute; reflexivity|]. destruct (partitionInputStream (doc_text store) 4) as [[|[p0|] [|[p1|] [|[p2|] [|[p3|] [|? ?]]]]]|] eqn:E; try (vm_compute in E; discriminate E).
  exists p0, [p1; p2; p3]. split; [right; exists 4%nat; exact E|reflexivity].
Qed.

(** A string that ends in a comma is cut before its closing quote, and the lexer
    reads outside of the second piece. *)
Definition comma_doc : doc := docu (arr [str "a,"; str "b"; str "c"]).
Theorem C20_refuted : exists dc p ps, good_doc dc /\ pieces_of (doc_text dc) p ps /\
  exists r, In r (p :: ps) /\ lex_all r = UB OOBRead.
Proof.
  exists comma_doc, (B "[""a,"), [B """,""b"","; B """c""]"]. split; [apply good_checked; vm_compute; reflexivity|]. split.
  - right. exists 4%nat. unfold chunks. vm_compute. reflexivity.
  - exists (B """,""b"","). split; [right; left; reflexivity|vm_compute; reflexivity].
Qed.
Print Assumptions C20_refuted.

(** * C21: piece by piece equals the whole

    [feed d ps init_core]: the automaton, started once, executes the pieces [ps]
    one after the other; its tuples are then filtered. *)
Definition C21_full : Prop := forall N strict q dc p p0 ps,
  supported q = true -> (strict = true -> single_names q) -> predicates_fit strict q ->
  good_doc dc -> limits q (d_val dc) -> filters_meaningful N q (d_val dc) -> createPathProcessor strict q = Ok p ->
  concat (p0 :: ps) = doc_text dc -> well_cut p0 ps = true ->
  exists c pf0 pf1, feed (p_dfa p) (p0 :: ps) init_core = Ok c /\ initPredicateFilter (p_ctx p) = Ok pf0 /\
    generateFinalOutput N (p_ctx p) pf0 (c_tl c) = Ok pf1 /\ f_output pf1 = answer_text (holds N) q (d_val dc).

(** Missing: a selected object or array with a cut inside, strings that end like
    the text before a cut (C20), cuts not made by the loaders' rule. *)
Theorem C21_partial : forall N strict q dc p p0 ps,
  supported q = true -> (strict = true -> single_names q) -> predicates_fit strict q ->
  good_doc dc -> limits q (d_val dc) -> filters_meaningful N q (d_val dc) -> createPathProcessor strict q = Ok p ->
  tame (d_val dc) = true -> concat (p0 :: ps) = doc_text dc -> well_cut p0 ps = true ->
  (forall k w o v, In k (cuts (zlen p0) ps) -> In (w, o, v) (doc_located dc) -> is_container v = true ->
     lsel q (labels w) = true -> ~ straddles k o v) ->
  exists c pf0 pf1, feed (p_dfa p) (p0 :: ps) init_core = Ok c /\ initPredicateFilter (p_ctx p) = Ok pf0 /\
    generateFinalOutput N (p_ctx p) pf0 (c_tl c) = Ok pf1 /\ f_output pf1 = answer_text (holds N) q (d_val dc).
Proof.
  intros N strict q dc p p0 ps H1 H2 H3 H4 H5 H6 H7 H8 H9 H10 H11.
  exact (feed_answer N strict q p dc p0 ps H1 H2 H7 H3 H4 H8 H5 H6 H9 H10 H11).
Qed.
Print Assumptions C21_partial.

(** Four chunks; the selected values are numbers and arrays, with no cut inside. *)
Example C21_example : let q := [SChild (B "store"); SChildAny; SSlice None None; SChild (B "price")] in exists p0 ps,
  supported q = true /\ good_doc store /\ limits q (d_val store) /\ tame (d_val store) = true /\
  concat (p0 :: ps) = doc_text store /\ well_cut p0 ps = true /\ List.length ps = 3%nat /\
  strings (answer_text (fun _ _ => false) q (d_val store)) = ["8"; "20"]%string /\
  (forall k w o v, In k (cuts (zlen p0) ps) -> In (w, o, v) (doc_located store) -> is_container v = true ->
     lsel q (labels w) = true -> ~ straddles k o v).
Proof.
  destruct (partitionInputStream (doc_text store) 4) as [[|[p0|] [|[p1|] [|[p2|] [|[p3|] [|? ?]]]]]|] eqn:E; try (vm_compute in E; discriminate E).
  vm_compute in E. injection E as E0 E1 E2 E3. exists p0, [p1; p2; p3]. split; [reflexivity|]. split; [apply good_checked; vm_compute; reflexivity|].
  split; [apply limits_checked; vm_compute; reflexivity|]. split; [vm_compute; reflexivity|]. split; [subst; vm_compute; reflexivity|].
  split; [subst; vm_compute; reflexivity|]. split; [reflexivity|]. split; [vm_compute; reflexivity|].
  intros k w o v _ Hin Hc Hl. exfalso. revert Hc Hl.
  assert (H : forallb (fun x => negb (is_container (snd x) && lsel [SChild (B "store"); SChildAny; SSlice None None; SChild (B "price")] (labels (fst (fst x))))) (doc_located store) = true) by (vm_compute; reflexivity).
  rewrite forallb_forall in H. specialize (H _ Hin). cbn [fst snd] in H. intros H1 H2. rewrite H1, H2 in H. discriminate.
Qed.

(** A selected object with a cut inside: offsets of the first piece are used in
    the second one. *)
Definition split_doc : doc := docu (obj [(B "a", obj [(B "b", num "1"); (B "c", str "d")])]).
Theorem C21_refuted : exists q dc p0 ps out, supported q = true /\ good_doc dc /\ limits q (d_val dc) /\ tame (d_val dc) = true /\
  concat (p0 :: ps) = doc_text dc /\ well_cut p0 ps = true /\
  (forall N strict p, createPathProcessor strict q = Ok p ->
    exists c pf0 pf1, feed (p_dfa p) (p0 :: ps) init_core = Ok c /\ initPredicateFilter (p_ctx p) = Ok pf0 /\
    generateFinalOutput N (p_ctx p) pf0 (c_tl c) = Ok pf1 /\ f_output pf1 = out) /\
  out <> answer_text (fun _ _ => false) q (d_val dc).
Proof.
  exists [SChild (B "a")], split_doc, (B "{""a"": {""b"": 1,"), [B """c"": ""d""}}"], [B "d""}"].
  split; [reflexivity|]. split; [apply good_checked; vm_compute; reflexivity|]. split; [apply limits_checked; vm_compute; reflexivity|].
  split; [reflexivity|]. split; [vm_compute; reflexivity|]. split; [vm_compute; reflexivity|]. split.
  - intros N strict p Hp. destruct strict; vm_compute in Hp; injection Hp as <-; eexists; eexists; eexists; repeat split; vm_compute; reflexivity.
  - vm_compute. discriminate.
Qed.
Print Assumptions C21_refuted.

(** * C22: several loads *)
Definition C22_full : Prop := forall N strict q dc j p, supported q = true -> (strict = true -> single_names q) -> predicates_fit strict q ->
  wf_doc dc = true -> limits q (d_val dc) -> filters_meaningful N q (d_val dc) -> j_major_null j = true -> createPathProcessor strict q = Ok p ->
  serialRun N j p (doc_text dc) = Ok (Some (answer_text (holds N) q (d_val dc))).

(** Every run that loads a second piece has undefined behaviour when the
    uninitialised flag is 0: the list of tuples has been released. *)
Theorem C22_two_loads : forall N j p M X file a n b m, j_finish j = 0 ->
  loadBounded M X file 0 = Ok (Some (a, n)) -> loadBounded M X file n = Ok (Some (b, m)) ->
  exists r, serial_run N j p M X file = UB r.
Proof. exact two_loads. Qed.
Print Assumptions C22_two_loads.

(** With the constants of the code, for every query. *)
Theorem C22_refuted : exists dc, wf_doc dc = true /\ forall N j p, j_finish j = 0 -> exists r, serialRun N j p (doc_text dc) = UB r.
Proof. exists (wide MEMORY_FOOTPRINT). split; [apply wide_wf|exact wide_run]. Qed.
Print Assumptions C22_refuted.

(** With any other value of the flag the first answer is output twice. *)
Definition two_keys : doc := docu (obj [(B "a", num "1"); (B "b", str "2")]).
Theorem C22_refuted_twice : exists q dc M X out, supported q = true /\ good_doc dc /\ 0 < M /\ 0 < X /\
  (forall N strict j p, j_major_null j = true -> j_finish j <> 0 -> createPathProcessor strict q = Ok p ->
     serial_run N j p M X (doc_text dc) = Ok (Some (out ++ out))) /\
  out = answer_text (fun _ _ => false) q (d_val dc) /\ out <> [].
Proof.
  exists [SChild (B "a")], two_keys, 7, 100, [B "1"]. split; [reflexivity|]. split; [apply good_checked; vm_compute; reflexivity|].
  split; [reflexivity|]. split; [reflexivity|]. split; [|split; [reflexivity|discriminate]].
  intros N strict j p Hj Hf Hp. destruct j as [f b]. cbn [j_major_null j_finish] in *. subst b.
  destruct strict; vm_compute in Hp; injection Hp as <-; (destruct f as [|f|f]; [congruence| |]); vm_compute; reflexivity.
Qed.
Print Assumptions C22_refuted_twice.
Example C22_two_loads_example : exists a n b m,
  loadBounded 7 100 (doc_text two_keys) 0 = Ok (Some (a, n)) /\ loadBounded 7 100 (doc_text two_keys) n = Ok (Some (b, m)).
Proof. do 4 eexists. split; vm_compute; reflexivity. Qed.
