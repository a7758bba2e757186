(** A parallel run on one core is a serial run. *)
From Verif Require Import Base Util Spec Lexer LexProof LexDoc LexMain QueryClass Dfa Constraint Stream TreeSem TreeInv Num Builder Eval Filter
  Loader Run EndToEnd AnyQuery PosSpec PosProof Claims ClaimProof LoadClaim Regex Mixer Worker Chains WorkRep Merge MalSpec NestSpec Single.
Open Scope Z_scope.

(** The kinds of states in a compiled automaton. *)
Lemma build_kinds strict q d x : build strict q = Ok (d, x) -> forall a, In a (d_accept d) -> 0 <= a <= 3.
Proof.
  unfold build. destruct (construct_dfa strict q) as [b0|]; [|discriminate]. cbn [bind].
  destruct (finish_ctx b0) as [[b out]|]; [|discriminate]. cbn [bind].
  destruct (compile_patterns _ _) as [m|]; [|discriminate]. cbn [bind].
  destruct (create_query_dfa b out m) as [d'|] eqn:Ed; [|discriminate]. cbn [bind].
  destruct (create_context b m d'); [|discriminate]. cbn [bind]. injection 1 as -> _.
  unfold create_query_dfa in Ed. destruct (get_table m); [|discriminate]. cbn [bind] in Ed.
  destruct (mapM _ _) as [infos|] eqn:Em; [|discriminate]. cbn [bind] in Ed. injection Ed as <-. cbn [d_accept].
  intros acc Hacc. apply in_map_iff in Hacc as (r & <- & Hr).
  assert (Hall : forall l infos, mapM (state_info b out m) l = Ok infos -> Forall (fun r => 0 <= st_accept r <= 3) infos).
  { clear. induction l as [|i l IH]; intros infos E; cbn [mapM] in E; [injection E as <-; constructor|].
    destruct (state_info b out m i) as [r|] eqn:Ei; [|discriminate]. cbn [bind] in E.
    destruct (mapM _ l) as [rs|]; [|discriminate]. cbn [bind] in E. injection E as <-. constructor; [|apply IH; reflexivity].
    unfold state_info in Ei. destruct (_ =? 0); [injection Ei as <-; cbn; lia|].
    assert (Hacc : forall r0 : res Z, (if tread (m_stops m) i =? out then Ok DFA_OUTPUT_CANDIDATE else t <- array_target m i ;; Ok (if t : bool then DFA_PREDICATE else DFA_CONDITION)) = r0 ->
      match r0 with Ok a => 0 <= a <= 3 | UB _ => True end).
    { intros r0 <-. unfold DFA_OUTPUT_CANDIDATE, DFA_PREDICATE, DFA_CONDITION. destruct (_ =? out); [lia|]. destruct (array_target m i) as [[]|]; cbn; lia || exact I. }
    specialize (Hacc _ eq_refl). destruct (if _ =? out then _ else _) as [acc|]; [|discriminate]. cbn [bind] in Ei.
    destruct (zread _ _) as [rg|]; [|discriminate]. cbn [bind] in Ei.
    destruct (negb _ || negb _); [destruct (_ =? DFA_OUTPUT_CANDIDATE)|]; injection Ei as <-; cbn; lia. }
  apply Hall in Em. rewrite Forall_forall in Em. apply Em, Hr.
Qed.

Lemma plain_vals : forall tw cl, vals tw = wv cl -> mapM plain_tuple tw = Ok cl.
Proof.
  induction tw as [|t tw IH]; intros [|[s x] cl] H; cbn in *; try discriminate; [reflexivity|].
  injection H as H1 H2 H3. unfold plain_tuple at 1. rewrite H2, H1. cbn [bind]. rewrite (IH cl H3). reflexivity.
Qed.

(** One thread on a whole text. *)
Lemma single_exec d x text junk ju evs : built d x -> (forall a, In a (d_accept d) -> 0 <= a <= 3) ->
  lex_all text = Ok evs -> well_nested [] (map e_tok evs) = true ->
  match executeAutomaton d text init_core with
  | Ok c => exists w, executeWorkerAutomaton d First None junk ju text [] = Ok w /\ vals (wa_tl w) = wv (c_tl c)
  | UB u => executeWorkerAutomaton d First None junk ju text [] = UB u
  end.
Proof.
  intros Hb Hk Hl Hw. unfold executeAutomaton, executeWorkerAutomaton. rewrite Hl. cbn [bind].
  change (MAX_STATE <? zlen [1]) with false. cbn [initQueryStacks bind].
  pose proof (run_sim d (bt_dfa _ _ Hb) (bt_start _ _ Hb) (bt_free _ _ Hb) Hk junk (c_string text) evs [] init_core _ (start_R d (bt_dfa _ _ Hb) (initUnit ju)) Hw) as H.
  cbn [initQueryStacks fst snd] in H.
  destruct (foldM _ evs init_core) as [c|u].
  - destruct H as (w & l & Ew & HR). rewrite Ew. cbn [bind]. destruct (end_R d (c_string text) l c w HR) as (us & ->). cbn [bind].
    eexists. split; [reflexivity|]. cbn [wa_tl]. destruct HR as (f & fs & tw & sh & u & _ & -> & Htl & _). exact Htl.
  - rewrite H. reflexivity.
Qed.

Lemma single_chunk text : c_string text <> [] -> lead_blanks (c_string text) = O -> partitionInputStream text 1 = Ok [Some (c_string text)].
Proof.
  intros Hne Hb. unfold partitionInputStream, partition. cbn [Nat.eqb pred part_loop bind]. rewrite Z.sub_0_r.
  assert (H0 : 0 < zlen (c_string text)) by (destruct (c_string text) as [|c l]; [congruence|rewrite zlen_cons; pose proof (zlen_nonneg l); lia]).
  replace (0 <? zlen (c_string text)) with true by lia. unfold substring, ltrim. cbn [Z.to_nat skipn]. rewrite Hb. cbn [Z.of_nat Z.add].
  replace (zlen (c_string text) <? 0) with false by lia. unfold read_range. rewrite Z.sub_0_r.
  replace (zlen (c_string text) <=? 0) with false by lia. replace (zlen (c_string text) + 1 <? 0 + zlen (c_string text)) with false by lia.
  cbn [Z.ltb Z.compare orb Z.to_nat skipn bind]. unfold zlen. rewrite Nat2Z.id. rewrite firstn_app, firstn_all, Nat.sub_diag. cbn [firstn]. rewrite app_nil_r.
  rewrite c_string_id by apply c_string_no_nul. reflexivity.
Qed.

Theorem single_run N p j pj text : (exists strict q, createPathProcessor strict q = Ok p /\ zlen (query_names q) <= name_bound) ->
  j_major_null j = true -> c_string text <> [] -> lead_blanks (c_string text) = O -> zlen text <= MEMORY_FOOTPRINT ->
  (forall evs, lex_all text = Ok evs -> well_nested [] (map e_tok evs) = true) ->
  parallelRun N p pj text 1 = serialRun N j p text.
Proof.
  intros (strict & q & Hc & HU) Hj Hne Hbl Hsize Hw.
  unfold createPathProcessor in Hc. destruct (build strict q) as [[d x]|] eqn:Eb; [|discriminate]. cbn [bind] in Hc. injection Hc as <-.
  pose proof (build_any strict q d x HU Eb) as Hb. pose proof (build_kinds strict q d x Eb) as Hk.
  assert (Hpos : 0 < zlen text) by (destruct text as [|c l]; [cbn in Hne; congruence|rewrite zlen_cons; pose proof (zlen_nonneg l); lia]).
  unfold parallelRun, parallel_run, serialRun, serial_run.
  destruct (List.length text) as [|n] eqn:El; [unfold zlen in Hpos; lia|]. cbn [parallel_loop serial_loop].
  rewrite (load_whole MEMORY_FOOTPRINT MAX_EXTENSION text) by (reflexivity || lia). cbn [bind].
  unfold parallelPartialRun, serialPartialRun. rewrite single_chunk by assumption. cbn [bind init_pcontext init_context pc_context pc_main sc_context sc_core andb p_dfa p_ctx m_tl].
  unfold executeParallelAutomata. change (MAX_THREAD <? zlen [Some (c_string text)]) with false. cbn [all_threads thread_result].
  assert (Hl2 : lex_all (c_string text) = lex_all text) by (unfold lex_all; rewrite (c_string_id (c_string text)) by apply c_string_no_nul; reflexivity).
  assert (He2 : executeAutomaton d (c_string text) init_core = executeAutomaton d text init_core) by (unfold executeAutomaton; rewrite Hl2, (c_string_id (c_string text)) by apply c_string_no_nul; reflexivity).
  assert (G : match executeAutomaton d text init_core with
    | Ok c => exists w, executeWorkerAutomaton d First None (pj_name pj) (pj_unit pj 0) (c_string text) [] = Ok w /\ vals (wa_tl w) = wv (c_tl c)
    | UB u => executeWorkerAutomaton d First None (pj_name pj) (pj_unit pj 0) (c_string text) [] = UB u
    end).
  { destruct (lex_all text) as [evs|u] eqn:Ev.
    - rewrite <- He2. apply (single_exec d x (c_string text) _ _ evs Hb Hk Hl2 (Hw _ eq_refl)).
    - unfold executeAutomaton, executeWorkerAutomaton. rewrite Ev, Hl2. reflexivity. }
  destruct (executeAutomaton d text init_core) as [c|u].
  2:{ rewrite G. reflexivity. }
  destruct G as (w & Ew & Hv). rewrite Ew. cbn [bind combine_all merge_chunks snd fst m_tl]. rewrite (plain_vals _ _ Hv). cbn [bind].
  destruct (initPredicateFilter x) as [pf0|u]; [|reflexivity]. cbn [bind].
  destruct (generateFinalOutput N x pf0 (c_tl c)) as [pf1|u]; [|reflexivity]. cbn [bind].
  rewrite load_end. cbn [bind pc_context]. unfold destroyStreamingContext. rewrite Hj. reflexivity.
Qed.

(** The tokens of a document are well nested. *)
Lemma nested_all :
  (forall v l ts, value_here l = true -> (List.length l + depth v <= 100)%nat ->
     well_nested l (tok_val v ++ ts) = well_nested (value_done l) ts) /\
  (forall ms l ts, (S (List.length l) + depth_ms ms <= 100)%nat ->
     well_nested (OBrace :: l) (tok_ms ms ++ ts) = well_nested (OBrace :: l) ts) /\
  (forall es l ts, (S (List.length l) + depth_es es <= 100)%nat ->
     well_nested (OBracket :: l) (tok_es es ++ ts) = well_nested (OBracket :: l) ts).
Proof.
  apply json_all_ind; cbn [tok_val tok_ms tok_es depth depth_ms depth_es].
  - intros s l ts Hv _. cbn [app well_nested]. rewrite Hv. reflexivity.
  - intros s l ts Hv _. cbn [app well_nested]. rewrite Hv. reflexivity.
  - intros w ms IH l ts Hv Hl. cbn [app well_nested]. rewrite Hv. unfold room. replace (Nat.ltb (List.length l) 100) with true by (symmetry; apply Nat.ltb_lt; lia).
    cbn [andb]. rewrite <- app_assoc, IH by lia. cbn [app well_nested]. reflexivity.
  - intros w es IH l ts Hv Hl. cbn [app well_nested]. rewrite Hv. unfold room. replace (Nat.ltb (List.length l) 100) with true by (symmetry; apply Nat.ltb_lt; lia).
    cbn [andb]. rewrite <- app_assoc, IH by lia. cbn [app well_nested]. reflexivity.
  - reflexivity.
  - intros w k v IHv ms IHm l ts Hl. cbn [app well_nested value_here negb andb]. unfold room. replace (Nat.ltb (List.length (OBrace :: l)) 100) with true by (symmetry; apply Nat.ltb_lt; cbn; lia).
    rewrite <- app_assoc, IHv by (reflexivity || (cbn; lia)). cbn [value_done]. destruct ms as [|w2 k2 v2 ms]; [reflexivity|].
    cbn [app well_nested]. apply IHm. lia.
  - reflexivity.
  - intros w v IHv wa es IHe l ts Hl. rewrite <- app_assoc, IHv by (reflexivity || (cbn; lia)). cbn [value_done]. destruct es as [|w2 v2 w3 es]; [reflexivity|].
    cbn [app well_nested]. apply IHe. lia.
Qed.

Theorem single_doc N strict q p j pj dc : createPathProcessor strict q = Ok p -> zlen (query_names q) <= name_bound -> j_major_null j = true ->
  good_doc dc -> (depth (d_val dc) <= 100)%nat -> parallelRun N p pj (doc_text dc) 1 = serialRun N j p (doc_text dc).
Proof.
  intros Hc HU Hj Hg Hd. pose proof (doc_lead dc Hg) as Hlead. destruct Hg as [Hwf Hsafe Hbl Hsize]. pose proof (doc_no_nul dc Hwf) as Hnn.
  apply single_run; eauto; rewrite ?c_string_id by exact Hnn.
  - unfold doc_text. pose proof (text_pos _ (wf_doc_val dc Hwf)) as H. destruct (d_pre dc); [|discriminate]. cbn [app]. destruct (text (d_val dc)); [cbn in H; lia|discriminate].
  - exact Hlead.
  - intros evs He. destruct (lex_doc_tokens dc Hwf Hsafe) as (evs' & E & Ht). rewrite E in He. injection He as <-. rewrite Ht.
    rewrite <- (app_nil_r (tok_val (d_val dc))). rewrite (proj1 nested_all) by (reflexivity || (cbn; lia)). reflexivity.
Qed.
