(** Whole serial runs on any text (C16). *)
From Verif Require Import Base Util Spec QueryClass PosSpec Claims Lexer Dfa Stream MalSpec Builder Eval Filter FilterProof Loader Run Roles Compiled Malformed VerbSpec Verbatim EndToEnd ClaimProof AnyQuery Relax.
Open Scope Z_scope.

Theorem malformed_run N strict q p j file : zlen (query_names q) <= name_bound -> supported q = true -> slice_query q = true -> createPathProcessor strict q = Ok p -> j_major_null j = true ->
  0 < zlen file <= 998 -> lexable Between (c_string file) = true -> lead_blanks (c_string file) = O ->
  (forall evs, lex_all file = Ok evs -> bracket_closes_brace [] (map e_tok evs) = false) ->
  exists out, serialRun N j p file = Ok (Some out).
Proof.
  intros HU Hs Hq Hp Hj Hz Hl Hlead Hbr. destruct (no_filter_fields q Hq) as [Hf0 _].
  destruct (create_ok strict q Hs) as (d & x & st & E & _ & C). { intros _ f Hf. rewrite Hf0 in Hf. destruct Hf. }
  pose proof Hp as Hb. unfold createPathProcessor in Hb. destruct (build strict q) as [[d' x']|] eqn:Eb; [|discriminate]. cbn [bind] in Hb. injection Hb as Hb.
  rewrite Hp in E. injection E as E. subst p. injection Hb as -> ->.
  assert (Hz' : zlen (c_string file) <= 998).
  { destruct (c_string_occurs file) as (a & b & E). rewrite E, !zlen_app in Hz. pose proof (zlen_nonneg a). pose proof (zlen_nonneg b). lia. }
  destruct (malformed_small strict q d x file HU Eb Hz' Hl Hlead Hbr) as (c & Hc & Hn).
  assert (Hin : all_in file (c_tl c)) by (eapply exec_in; [apply occurs_refl| |exact Hc]; constructor).
  assert (Hall : Forall (fun t : bytes => zlen t <= 998) (map snd (c_tl c))).
  { rewrite Forall_forall. intros t Ht. apply in_map_iff in Ht as (tp & <- & Ht). unfold all_in in Hin. rewrite Forall_forall in Hin. specialize (Hin tp Ht).
    destruct Hin as (a & b & E). rewrite E, !zlen_app in Hz. pose proof (zlen_nonneg a). pose proof (zlen_nonneg b). lia. }
  exists (map snd (c_tl c)). unfold serialRun. eapply run_whole; [unfold MAX_EXTENSION; lia|unfold MEMORY_FOOTPRINT; lia|exact Hj| |].
  - unfold serialPartialRun. cbn [init_context sc_context sc_core andb p_dfa p_ctx]. rewrite Hc. cbn [bind]. unfold initPredicateFilter. rewrite (slice_preds q d x st Hs Hq C). cbn [foldM bind].
    unfold generateFinalOutput. change (no_predicates _) with true. cbv iota. rewrite add_all; [reflexivity| |exact Hall].
    cbn [f_output]. unfold zlen in *. rewrite map_length. unfold MAX_OUTPUT. cbn [List.length Z.of_nat Z.add]. eapply Z.le_trans; [exact Hn|lia].
  - reflexivity.
Qed.
