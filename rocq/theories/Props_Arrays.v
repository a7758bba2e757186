(** Runs on arrays, whatever the memory held before: C16, C43, C44 and C45 once more,
    with the stack, the tuple lists, the Output and the buffer of the filters as the
    arrays they are (CellRun.v) in place of lists. *)
From Verif Require Import Base Util Spec Num Dfa Stream Builder Eval Filter Worker Merge CellSpec Cells CellsProof CellFilter CellFilterProof CellEngine CellEngineProof CellRun
  QueryClass FilterSpec Claims Lexer LexSpec MalSpec Loader Run EndToEnd PosProof RecSpec VerbSpec Samples Findings Props_Lex Props_Rec Props_Verb Props_Cells.
Open Scope Z_scope.

(** The same with undefined behaviour: whatever the memory held, the run on arrays is
    undefined exactly if the one on lists is. *)
Definition run_lists (N : numops) (p : processor) (stream : bytes) : res (list bytes) :=
  c <- executeAutomaton (p_dfa p) stream init_core ;; pf <- initPredicateFilter (p_ctx p) ;; f <- generateFinalOutput N (p_ctx p) pf (c_tl c) ;; Ok (f_output f).
Lemma run_both N p stream m : memory_fits m ->
  match run_lists N p stream with
  | Ok out => exists o, serialPartialRun_c N p m stream = Ok o /\ shows o out
  | UB r => serialPartialRun_c N p m stream = UB r
  end.
Proof.
  intros (H1 & H2 & H3 & H4 & H5 & H6 & H7 & H8 & H9). unfold run_lists, serialPartialRun_c. pose proof (C48_engine (p_dfa p) stream (m_syms m) (m_elts m) (m_tuples m) H1 H2 H3 H4) as A.
  destruct (executeAutomaton (p_dfa p) stream init_core) as [c|r]; cbn [bind]; [|rewrite A; reflexivity]. destruct A as (a & -> & Ha & _). cbn [bind].
  destruct (initPredicateFilter (p_ctx p)) as [pf0|r] eqn:Ei; cbn [bind]; [|reflexivity].
  assert (E0 : pf0 = mkF (f_conds pf0) [] [] []).
  { unfold initPredicateFilter in Ei. destruct (foldM (init_pred (p_ctx p)) (x_preds (p_ctx p)) (repeat None MAX_PREDICATE_STATE)); [|discriminate]. cbn [bind] in Ei. injection Ei as <-. reflexivity. }
  pose proof (C48_filter N (p_ctx p) (f_conds pf0) (m_open m) (m_out m) (m_buffer m) [a_tl a] [c_tl c] H5 H6 H7 H8 H9 (Forall2_cons _ _ Ha (Forall2_nil _))) as G.
  cbn [foldM] in G. rewrite <- E0 in G. destruct (generateFinalOutput N (p_ctx p) pf0 (c_tl c)) as [f|r]; cbn [bind] in G |- *.
  - destruct G as (g & Eg & G1 & G2). destruct (generateFinalOutput_c N (p_ctx p) (m_buffer m) (initFilter_c (f_conds pf0) (m_open m) (m_out m)) (a_tl a)) as [g'|r]; [|discriminate Eg].
    cbn [bind] in Eg |- *. injection Eg as <-. exists (g_output g'). split; [reflexivity|]. split; assumption.
  - destruct (generateFinalOutput_c N (p_ctx p) (m_buffer m) (initFilter_c (f_conds pf0) (m_open m) (m_out m)) (a_tl a)) as [g'|r']; cbn [bind] in G |- *; [discriminate G|injection G as ->; reflexivity].
Qed.
(** C45 on arrays: any processor, any stream, any two contents of the memory.  Both runs
    are undefined in the same way or give the same texts. *)
Theorem C45_arrays : forall N p stream m1 m2, memory_fits m1 -> memory_fits m2 ->
  match serialPartialRun_c N p m1 stream with
  | UB r => serialPartialRun_c N p m2 stream = UB r
  | Ok o1 => exists o2 texts, serialPartialRun_c N p m2 stream = Ok o2 /\ shows o1 texts /\ shows o2 texts
  end.
Proof.
  intros N p stream m1 m2 M1 M2. pose proof (run_both N p stream m1 M1) as A. pose proof (run_both N p stream m2 M2) as B'. destruct (run_lists N p stream) as [out|r].
  - destruct A as (o1 & -> & A). destruct B' as (o2 & -> & B'). eauto.
  - rewrite A. exact B'.
Qed.
Print Assumptions C45_arrays.
(** C16 on arrays: arbitrary bytes, under the conditions of C16_run. *)
Theorem C16_arrays : forall N strict q p file m, zlen (query_names q) <= 2147483000 -> supported q = true -> slice_query q = true -> createPathProcessor strict q = Ok p ->
  0 < zlen file <= 998 -> lexable Between (c_string file) = true -> lead_blanks (c_string file) = O ->
  (forall evs, lex_all file = Ok evs -> bracket_closes_brace [] (map e_tok evs) = false) -> memory_fits m ->
  exists o, serialPartialRun_c N p m file = Ok o.
Proof.
  intros N strict q p file m H1 H2 H3 H4 H5 H6 H7 H8 Hm. destruct (C16_run N strict q p (mkJunk 0 true) file H1 H2 H3 H4 eq_refl H5 H6 H7 H8) as (out & Er).
  destruct (C48_run N (mkJunk 0 true) p file out m) as (o & Eo & _); [clear - H5; lia|exact Hm|exact Er|]. eauto.
Qed.
Print Assumptions C16_arrays.
(** C43 on arrays: any file of one load, any processor. *)
Theorem C43_arrays : forall N j p file out m, 0 < zlen file <= 250000000 -> memory_fits m -> serialRun N j p file = Ok (Some out) ->
  exists o, serialPartialRun_c N p m file = Ok o /\ getOutputSize o = zlen out /\
    forall i, 0 <= i < getOutputSize o -> exists b, getOutputElement o i = Ok b /\ occurs (c_string b) file.
Proof.
  intros N j p file out m Hf Hm Hr. destruct (C48_run N j p file out m Hf Hm Hr) as (o & Eo & S1 & S2). exists o. split; [exact Eo|]. split; [exact S1|]. intros i Hi.
  rewrite S1 in Hi. destruct (nth_error out (Z.to_nat i)) as [t|] eqn:E; [|apply nth_error_None in E; unfold zlen in Hi; lia].
  destruct (S2 _ _ E) as (b & Eb & Ec). rewrite Z2Nat.id in Eb by lia. exists b. split; [exact Eb|]. rewrite Ec.
  pose proof (C43_partial N j p _ _ file out Hr) as F. rewrite Forall_forall in F. apply F. eapply nth_error_In, E.
Qed.
Print Assumptions C43_arrays.
(** C44 on arrays. *)
Theorem C44_arrays : forall N strict q ds m,
  supported q = true -> (strict = true -> single_names q) -> predicates_fit strict q ->
  good_records ds -> records_limits q ds -> Forall (fun dc => filters_meaningful N q (d_val dc)) ds -> memory_fits m ->
  exists p, createPathProcessor strict q = Ok p /\
    exists o, serialPartialRun_c N p m (records_text ds) = Ok o /\ shows o (records_answer (holds N) q ds).
Proof.
  intros N strict q ds m Hs Hn Hp Hg Hl Hfm Hm. destruct (C44_partial N strict q (mkJunk 0 true) ds Hs Hn Hp Hg Hl Hfm eq_refl) as (p & Ep & Er).
  exists p. split; [exact Ep|]. apply (C48_run N (mkJunk 0 true) p (records_text ds) _ m); [|exact Hm|exact Er].
  destruct Hg as [Hne Hwf _ Hsize]. split; [|exact Hsize]. destruct ds as [|dc r]; [congruence|]. apply Forall_inv in Hwf.
  change (records_text (dc :: r)) with (doc_text dc ++ records_text r). unfold doc_text. rewrite !zlen_app.
  pose proof (text_pos _ (wf_doc_val dc (proj1 Hwf))). pose proof (zlen_nonneg (d_pre dc)). pose proof (zlen_nonneg (d_post dc)). pose proof (zlen_nonneg (records_text r)). lia.
Qed.
Print Assumptions C44_arrays.

(** The memory of the example of C03, with the records of C44 and the rubbish of C16
    as files. *)
Example arrays_example : exists m p p' o, memory_fits m /\ createPathProcessor true q_log = Ok p /\ serialPartialRun_c zops p m (records_text log) = Ok o /\
  shows o [B """a"""; B """f"""; B """h"""] /\
  createPathProcessor true [SDesc (B "a")] = Ok p' /\ exists o', serialPartialRun_c zops p' m rubbish = Ok o'.
Proof.
  destruct C03_arrays_example as (m & Hm). destruct C44_example as (E1 & E2 & E3 & _ & E5 & E6 & E7 & _).
  destruct (C44_arrays zops true q_log log m E1 (fun _ => E2) E3 E5 E6 E7 Hm) as (p & Ep & o & Eo & So).
  destruct (createPathProcessor true [SDesc (B "a")]) as [p'|] eqn:E'; [|vm_compute in E'; discriminate].
  exists m, p, p', o. split; [exact Hm|]. split; [exact Ep|]. split; [exact Eo|]. split; [|split; [reflexivity|]].
  - replace [B """a"""; B """f"""; B """h"""] with (records_answer (holds zops) q_log log); [exact So|vm_compute; reflexivity].
  - destruct C16_bytes_example as (R1 & R2 & R3 & R4 & _). clear - R1 R2 R3 R4 E' Hm.
    apply (C16_arrays zops true [SDesc (B "a")] p' rubbish m); [vm_compute; discriminate|reflexivity|reflexivity|exact E'|split; [reflexivity|vm_compute; discriminate]|exact R1|exact R2|exact R4|exact Hm].
Qed.
