(** Properties of the query automaton: C04, C05, C06, C35. *)
From Verif Require Import Base Util Spec QueryClass AutoSpec Claims Regex Mixer Compress CompressProof Dfa Stream TreeSem Num FilterSpec
  Builder Eval Filter Loader Run EndToEnd AnyQuery ClaimProof AutoClaim Findings Lost Samples.
Open Scope Z_scope.

(** * C04: the automaton recognises exactly the query's paths *)

(** Any list of path expressions, whatever query they come from; [names] is the
    list of names that the builder has collected. *)
Definition C04_full : Prop := forall names es out,
  NoDup names -> es <> [] -> (forall e, In e es -> path_query e = true /\ incl (query_names e) names) ->
  exists m d, compile_patterns (zlen names + 3) (b_pats (expression_ctx names es)) = Ok m /\
    create_query_dfa (expression_ctx names es) out m = Ok d /\
    forall w, exists s n, follow d 1 w = Ok s /\ getDFAStopState d s = Ok n /\ last_matching es w n.

(** Missing: more than 253 names together with a wildcard or descendant step,
    and more names than an [int] can count. *)
Theorem C04_partial : forall names es out,
  NoDup names -> zlen names <= 253 \/ (Forall (fun e => existsb is_wild e = false) es /\ zlen names <= 2147483000) ->
  es <> [] -> (forall e, In e es -> path_query e = true /\ incl (query_names e) names) ->
  exists m d, compile_patterns (zlen names + 3) (b_pats (expression_ctx names es)) = Ok m /\
    create_query_dfa (expression_ctx names es) out m = Ok d /\
    forall w, exists s n, follow d 1 w = Ok s /\ getDFAStopState d s = Ok n /\ last_matching es w n.
Proof. intros names es out H1 H2 H3 H4. exact (expressions_match names es out H1 H2 H3 H4). Qed.
Print Assumptions C04_partial.

(** Three expressions; the path [a[1].b] is matched by the first and the third. *)
Definition three : list query :=
  [[SChild (B "a"); SAll; SChildAny]; [SDescAny; SChild (B "c")]; [SDesc (B "b")]].
Example C04_example :
  NoDup [B "a"; B "b"; B "c"] /\ zlen [B "a"; B "b"; B "c"] <= 253 /\ three <> [] /\
  (forall e, In e three -> path_query e = true /\ incl (query_names e) [B "a"; B "b"; B "c"]) /\
  last_matching three [LKey (B "a"); LIdx 1; LKey (B "b")] 3 /\
  last_matching three [LKey (B "a"); LIdx 1; LKey (B "x")] 1 /\
  last_matching three [LKey (B "x"); LKey (B "c")] 2 /\
  last_matching three [LKey (B "c")] 0.
Proof.
  assert (Hn : NoDup [B "a"; B "b"; B "c"]).
  { repeat constructor; cbn; intuition discriminate. }
  split; [exact Hn|]. split; [vm_compute; discriminate|]. split; [discriminate|]. split.
  { intros e [<-|[<-|[<-|[]]]]; (split; [reflexivity|]); intros k Hk; cbn in Hk |- *; tauto. }
  repeat split.
  - right. exists 2%nat, [SDesc (B "b")]. repeat split. intros [|[|[|i]]] e' Hi H; try lia; destruct i; discriminate.
  - right. exists 0%nat, [SChild (B "a"); SAll; SChildAny]. repeat split.
    intros [|[|[|i]]] e' Hi H; try lia; try (injection H as <-; reflexivity); destruct i; discriminate.
  - right. exists 1%nat, [SDescAny; SChild (B "c")]. repeat split.
    intros [|[|[|i]]] e' Hi H; try lia; try (injection H as <-; reflexivity); destruct i; discriminate.
  - left. split; [reflexivity|]. intros e [<-|[<-|[<-|[]]]]; reflexivity.
Qed.

(** The automaton of a whole query.  The kind of match reported along a path:
    candidate of the output, element to be filtered, field that a filter looks at.
    (Whether an index lies in a slice is decided by the stream automaton.) *)
Theorem C04_query_partial : forall strict q, supported q = true -> (strict = true -> single_names q) ->
  exists d x, build strict q = Ok (d, x) /\
    forall w, exists s a, follow d 1 w = Ok s /\ getDFAAcceptType d s = Ok a /\
      (a = DFA_OUTPUT_CANDIDATE <-> lsel (widen q) w = true) /\
      (a = DFA_PREDICATE <-> filtered_at q w) /\
      (a = DFA_CONDITION <-> looked_at q w).
Proof. intros strict q H1 H2. exact (query_paths strict q H1 H2). Qed.
Print Assumptions C04_query_partial.

Definition q_kinds : query :=
  [SChild (B "a"); SSlice (Some 1) None; SFilter (EBin BLt (EField [B "p"]) (ENum false (B "5"))); SDesc (B "t")].
Example C04_query_example : supported q_kinds = true /\ single_names q_kinds /\
  lsel (widen q_kinds) [LKey (B "a"); LIdx 4; LIdx 0; LKey (B "z"); LKey (B "t")] = true /\
  filtered_at q_kinds [LKey (B "a"); LIdx 4; LIdx 0] /\
  looked_at q_kinds [LKey (B "a"); LIdx 4; LIdx 0; LKey (B "p")].
Proof.
  split; [reflexivity|]. split; [apply single_checked; reflexivity|]. split; [reflexivity|].
  split; [exists 2%nat; eexists; split; reflexivity|].
  exists 2%nat. eexists. exists [B "p"], [LKey (B "a"); LIdx 4; LIdx 0]. repeat split. left. reflexivity.
Qed.

(** * C05: unknown keys *)
Theorem C05_unknown_key : forall strict q d x s k,
  zlen (query_names q) <= name_bound -> build strict q = Ok (d, x) -> 0 <= s < zlen (d_table d) ->
  ~ In k (query_names q) \/ unusable d s k ->
  dfaNextStateByStr d s (Some k) = dfaNextState d s 1.
Proof. intros strict q d x s k H1 H2 H3 H4. exact (unknown_keys strict q d x s k H1 H2 H3 H4). Qed.
Print Assumptions C05_unknown_key.

(** In [$.a.*.b] the keys [x] (unknown) and [a] (known, but of no use after [a])
    both follow the wildcard. *)
Example C05_example : exists d x, build true [SChild (B "a"); SChildAny; SChild (B "b")] = Ok (d, x) /\
  ~ In (B "x") (query_names [SChild (B "a"); SChildAny; SChild (B "b")]) /\
  dfaNextStateByStr d 1 (Some (B "a")) = Ok 2 /\ 0 <= 2 < zlen (d_table d) /\ unusable d 1 (B "b") /\ dfaNextState d 2 1 = Ok 3.
Proof.
  eexists _, _. split; [vm_compute; reflexivity|]. split; [cbn; intuition discriminate|].
  split; [vm_compute; reflexivity|]. split; [vm_compute; split; [discriminate|reflexivity]|]. split; [|vm_compute; reflexivity].
  apply unusable_checked. vm_compute. reflexivity.
Qed.

(** * C06: the compressed table *)
Theorem C06_lossless : forall rows, proper_rows rows ->
  exists c, add_rows empty_cdfa 1 rows = Ok c /\
    forall t row max a, nth_error rows t = Some (row, max) -> 1 <= a < zlen row ->
      lookup c (Z.of_nat t + 1) a = zread row a.
Proof. exact lossless. Qed.
Print Assumptions C06_lossless.

(** Rows of different density, sharing the packed table. *)
Definition some_rows : list (list Z * Z) := [([0; 2; 0; 3], 3); ([0; 0; 0; 0], 3); ([0; 3; 3; 1], 3); ([0; 0; 5; 0], 5)].
Example C06_example : proper_rows some_rows /\ exists c, add_rows empty_cdfa 1 some_rows = Ok c /\
  lookup c 1 3 = Ok 3 /\ lookup c 2 3 = Ok 0 /\ lookup c 4 2 = Ok 5.
Proof.
  split.
  - intros t row max H. do 4 (destruct t as [|t]; [injection H as <- <-; repeat split; try (vm_compute; discriminate); try reflexivity;
      intros; cbn in *; lia|]). destruct t; discriminate.
  - eexists. split; [vm_compute; reflexivity|]. vm_compute. auto.
Qed.

(** * C35: any number of field names *)
Definition C35_full : Prop := forall N strict q dc j,
  restricted_before_desc false q && forallb slice_ok q && end_ok q && filters_ok q && fields_ok q = true ->
  (strict = true -> single_names q) -> predicates_fit strict q ->
  good_doc dc -> limits q (d_val dc) -> filters_meaningful N q (d_val dc) -> j_major_null j = true ->
  exists p, createPathProcessor strict q = Ok p /\
    serialRun N j p (doc_text dc) = Ok (Some (answer_text (holds N) q (d_val dc))).

(** A query without wildcards and descendant steps may mention any number of
    names (up to the range of an [int]). *)
Theorem C35_partial : forall N strict q dc j,
  restricted_before_desc false q && forallb slice_ok q && end_ok q && filters_ok q && fields_ok q = true ->
  existsb is_wild q = false -> zlen (query_names q) <= 2147483000 ->
  (strict = true -> single_names q) -> predicates_fit strict q ->
  good_doc dc -> limits q (d_val dc) -> filters_meaningful N q (d_val dc) -> j_major_null j = true ->
  exists p, createPathProcessor strict q = Ok p /\
    serialRun N j p (doc_text dc) = Ok (Some (answer_text (holds N) q (d_val dc))).
Proof.
  intros N strict q dc j H1 Hw Hn H2 H3 H4 H5 H6 H7. apply serial_answer; auto.
  unfold supported, names_fit. rewrite H1, Hw. cbn. apply orb_true_iff. right. apply Z.leb_le, Hn.
Qed.
Print Assumptions C35_partial.

(** [q_many] is [$[?(@.n0a || ...)].y] with 256 names. *)
Definition many_doc : doc := docu (arr [obj [(nth_name 254, num "1"); (B "y", str "v")]; obj [(B "y", str "w")]]).
Example C35_example :
  restricted_before_desc false q_many && forallb slice_ok q_many && end_ok q_many && filters_ok q_many && fields_ok q_many = true /\
  existsb is_wild q_many = false /\ zlen (query_names q_many) = 256 /\ single_names q_many /\ predicates_fit true q_many /\
  good_doc many_doc /\ limits q_many (d_val many_doc) /\ filters_meaningful zops q_many (d_val many_doc) /\
  strings (answer_text (holds zops) q_many (d_val many_doc)) = ["""v"""]%string.
Proof.
  do 3 (split; [vm_compute; reflexivity|]). split; [apply single_checked; vm_compute; reflexivity|]. split; [apply many_fits|].
  premises.
Qed.

(** With a descendant step the 254th name is lost: [$[?(!(@.n0a || ...))]..x.y]
    compiles but misses the [y] of an [x] inside an [x]. *)
Theorem C35_refuted : exists q dc,
  restricted_before_desc false q && forallb slice_ok q && end_ok q && filters_ok q && fields_ok q = true /\ single_names q /\
  good_doc dc /\ limits q (d_val dc) /\ (forall N, filters_meaningful N q (d_val dc)) /\
  (forall strict, predicates_fit strict q /\ exists p, createPathProcessor strict q = Ok p) /\
  forall N strict j p, createPathProcessor strict q = Ok p ->
    serialRun N j p (doc_text dc) <> Ok (Some (answer_text (holds N) q (d_val dc))).
Proof.
  exists q_lost, lost_doc. split; [vm_compute; reflexivity|]. split; [apply single_checked; vm_compute; reflexivity|].
  split; [apply good_checked; vm_compute; reflexivity|]. split; [apply limits_checked; vm_compute; reflexivity|].
  split; [|split].
  - intros N. apply meaningful_checked. vm_compute. reflexivity.
  - intros strict. split; [apply lost_fits|apply lost_compiles].
  - intros N strict j p Hp. replace (answer_text (holds N) q_lost (d_val lost_doc)) with [B """v"""] by (vm_compute; reflexivity).
    exact (lost_run N strict j p Hp).
Qed.
Print Assumptions C35_refuted.
