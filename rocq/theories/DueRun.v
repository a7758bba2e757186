(** The run on a prefix of a document delivers every selected value that ends before
    the last byte of the prefix that is neither a blank nor a tab. *)
From Verif Require Import Base Util Lexer Spec LexSpec LexProof LexDoc LexMain Compress Dfa Stream TreeSem TreeInv Builder Num Eval Filter AutoProof BuilderProof QueryClass Compiled Roles TreeSel SelProof SelFilter
  FilterProof FilterSpec Loader Run EndToEnd PosSpec CutSpec Claims ClaimProof AnyRun LexLocal PieceDoc Trunc DueSpec Due.
From Coq Require Import Lia Sorted.
Open Scope Z_scope.

(** * The texts *)
Section Texts.
  Variable q : query.
  Variables (d : dfa) (x : qctx) (st : list label -> Z).
  Hypothesis Hrbd : restricted_before_desc false q = true.
  Hypothesis Hslice : forallb slice_ok q = true.
  Hypothesis Hend : end_ok q = true.
  Hypothesis Hne : forall f, In f (query_fields q) -> f <> [].
  Hypothesis Hcp : compiled q d x st.
  Hypothesis Hnf : forallb (fun s => negb (is_filter s)) q = true.
  Variable K : Z.

  Let mtk := mt_kd q d x st Hrbd Hslice Hend Hne Hcp.
  Let nxe := nx_es q d x st Hrbd Hslice Hend Hne Hcp.

  Definition dpick (ns : list (path * Z * json)) : list bytes :=
    map (fun s => text (snd s)) (filter (fun s => lsel q (labels (fst (fst s))) && (snd (fst s) + zlen (text (snd s)) <? K)) ns).
  Lemma dpick_app a b : dpick (a ++ b) = dpick a ++ dpick b.
  Proof. unfold dpick. rewrite filter_app, map_app. reflexivity. Qed.
  Lemma dpick_self p o v : dpick [(p, o, v)] = if o + zlen (text v) <? K then if kd q (labels p) =? DFA_OUTPUT_CANDIDATE then [text v] else [] else [].
  Proof. unfold dpick. cbn [filter fst snd]. rewrite (kd_out q Hrbd Hslice Hend Hne). destruct (lsel _ _), (_ <? _); reflexivity. Qed.

  Lemma texts_due :
    (forall v ar p o, smalls (nodes p v) -> map snd (due_val d K ar (es q st (labels p)) (ix (labels p)) o v) = dpick (located p o v)) /\
    (forall ms p o, small (labels p) -> smalls (nodes_ms p ms) -> map snd (due_ms d K (es q st (labels p)) (ix (labels p)) o ms) = dpick (located_ms p o ms)) /\
    (forall l p i o, smalls (nodes_es p i l) -> map snd (due_es d K (es q st (labels p ++ [LIdx 0])) (Z.of_nat i) o l) = dpick (located_es p i o l)).
  Proof.
    assert (Hc : forall w, (kd q w =? DFA_CONDITION) = false) by (intros w; apply Z.eqb_neq, (kd_nocond q Hrbd Hslice Hend Hne Hnf)).
    assert (Hp : forall w, (kd q w =? DFA_PREDICATE) = false) by (intros w; apply Z.eqb_neq, (kd_nopred q Hrbd Hslice Hend Hne Hnf)).
    apply json_all_ind.
    - intros s ar p o Hs. pose proof (smalls_self _ _ Hs) as Hs'. rewrite due_bare. cbn [located]. rewrite dpick_self. destruct (_ <? _); [|reflexivity].
      unfold t_prim. rewrite mtk by exact Hs'. rewrite Hc, orb_false_r. destruct (_ =? _); reflexivity.
    - intros s ar p o Hs. pose proof (smalls_self _ _ Hs) as Hs'. rewrite due_str. cbn [located]. rewrite dpick_self. destruct (_ <? _); [|reflexivity].
      unfold t_prim. rewrite mtk by exact Hs'. rewrite Hc, orb_false_r. destruct (_ =? _); reflexivity.
    - intros w ms IH ar p o Hs. pose proof (smalls_self _ _ Hs) as Hs'. rewrite due_obj. cbn [located nodes] in *. apply smalls_app in Hs.
      rewrite dpick_app, dpick_self, !map_app. unfold tuple, bytes in *. rewrite (IH p _ Hs' (proj1 Hs)).
      unfold t_open_obj, t_close, t_close_elem. rewrite mtk by exact Hs'. rewrite Hp, Hc, andb_false_r.
      destruct (o + 1 <? K); cbn [map app]; (destruct (_ + zlen _ <? K); [|reflexivity]); rewrite app_nil_r; destruct (_ =? _); reflexivity.
    - intros w l IH ar p o Hs. pose proof (smalls_self _ _ Hs) as Hs'. rewrite due_arr. cbn [located nodes] in *. apply smalls_app in Hs.
      rewrite dpick_app, dpick_self, !map_app. change None with (linput (LIdx 0)). rewrite nxe by exact Hs'. unfold tuple, bytes in *. rewrite (IH p O _ (proj1 Hs)).
      unfold t_open_arr, t_close. rewrite mtk by exact Hs'. rewrite Hc.
      destruct (o + 1 <? K); cbn [map app]; (destruct (_ + zlen _ <? K); [|reflexivity]); destruct (_ =? _); reflexivity.
    - reflexivity.
    - intros m k v IHv ms IHm p o Hp' Hs. rewrite due_ms_cons. cbn [located_ms nodes_ms] in *. cbv zeta. apply smalls_app in Hs. destruct Hs as [Hs1 Hs2].
      rewrite map_app, dpick_app. unfold tuple, bytes in *. rewrite (IHm p _ Hp' Hs2).
      change (Some k) with (linput (LKey k)). rewrite nxe by exact Hp'. rewrite <- (IHv false _ _ Hs1). rewrite labels_snoc, ix_key. reflexivity.
    - reflexivity.
    - intros wb v IHv wa l IHl p i o Hs. rewrite due_es_cons. cbn [located_es nodes_es] in *. apply smalls_app in Hs. destruct Hs as [Hs1 Hs2].
      rewrite map_app, dpick_app. unfold tuple, bytes in *. replace (Z.of_nat i + 1) with (Z.of_nat (S i)) by lia. rewrite (IHl p (S i) _ Hs2).
      rewrite <- (IHv true _ _ Hs1). rewrite labels_snoc, ix_idx. rewrite (es_idx q d x st Hrbd Hslice Hend Hcp (labels p) i). reflexivity.
  Qed.
End Texts.

(** * Blanks behind strings *)
Section Agree.
  Variables (P1 R1 : bytes) (c : ascii).
  Hypothesis Hc : blank_char c = false.
  Notation K := (zlen P1 + 1).

  Lemma blanks_pass : forall w pre post, P1 ++ c :: R1 = pre ++ w ++ post -> (zlen pre <? K) = (zlen pre + lead_bt w <? K).
  Proof.
    induction w as [|b w IH]; intros pre post H; cbn [lead_bt]; [rewrite Z.add_0_r; reflexivity|].
    destruct (blank_char b) eqn:Eb; [|rewrite Z.add_0_r; reflexivity].
    specialize (IH (pre ++ [b]) post). rewrite zlen_app in IH. change (zlen [b]) with 1 in IH.
    assert (zlen pre <> zlen P1).
    { intros E. assert (El : List.length pre = List.length P1) by (unfold zlen in E; lia).
      assert (Hn : nth_error (P1 ++ c :: R1) (List.length P1) = nth_error (pre ++ (b :: w) ++ post) (List.length pre)) by (rewrite H, El; reflexivity).
      rewrite !nth_error_app2, !Nat.sub_diag in Hn by lia. cbn in Hn. injection Hn as ->. congruence. }
    rewrite <- app_assoc in IH. specialize (IH H). assert (0 <= lead_bt w) by (clear; induction w as [|a w IHw]; cbn; [lia|destruct (blank_char a); lia]). lia.
  Qed.

  Lemma agree :
    (forall v pre w post tb, P1 ++ c :: R1 = pre ++ text v ++ w ++ post -> is_container v = true \/ tb = lead_bt w -> ag_val K (zlen pre) tb v) /\
    (forall ms pre post, P1 ++ c :: R1 = pre ++ text_ms ms ++ post -> ag_ms K (zlen pre) ms) /\
    (forall l pre post, P1 ++ c :: R1 = pre ++ text_es l ++ post -> ag_es K (zlen pre) l).
  Proof.
    apply json_all_ind.
    - intros. exact I.
    - intros s pre w post tb H [Hw|Hw]; [discriminate|]. subst tb. cbn [ag_val].
      pose proof (blanks_pass w (pre ++ text (JStr s)) post ltac:(rewrite <- app_assoc; exact H)) as E. rewrite zlen_app in E.
      assert (Et : zlen (text (JStr s)) = zlen s + 2) by (cbn [text]; rewrite zlen_cons, zlen_app; change (zlen [DQ]) with 1; lia).
      rewrite Et in *. rewrite E. f_equal. lia.
    - intros w ms IH pre w2 post tb H _. cbn [ag_val text] in *.
      replace (zlen pre + 1 + zlen w) with (zlen (pre ++ B "{" ++ w)) by (change (B "{") with ["{"%char]; zlc).
      apply (IH _ (B "}" ++ w2 ++ post)). rewrite H. leq.
    - intros w es IH pre w2 post tb H _. cbn [ag_val text] in *.
      replace (zlen pre + 1 + zlen w) with (zlen (pre ++ B "[" ++ w)) by (change (B "[") with ["["%char]; zlc).
      apply (IH _ (B "]" ++ w2 ++ post)). rewrite H. leq.
    - intros. exact I.
    - intros p k v IHv ms IHm pre post H. cbn [ag_ms text_ms] in *. cbv zeta.
      set (pre2 := pre ++ w_before p ++ (DQ :: k ++ [DQ]) ++ w_colon p ++ B ":" ++ w_value p).
      assert (Hp2 : zlen pre2 = zlen pre + zlen (w_before p) + (zlen k + 2) + zlen (w_colon p) + 1 + zlen (w_value p)).
      { unfold pre2. change (B ":") with [":"%char]. zlc. }
      rewrite <- Hp2. split.
      + apply (IHv pre2 (w_after p) (match ms with MNil => [] | _ => B "," ++ text_ms ms end ++ post)); [|auto]. rewrite H. unfold pre2. leq.
      + destruct ms as [|p' k' v' ms']; [exact I|]. set (ms1 := MCons p' k' v' ms') in *.
        replace (zlen pre2 + zlen (text v) + zlen (w_after p) + 1) with (zlen (pre2 ++ text v ++ w_after p ++ B ",")) by (change (B ",") with [","%char]; zlc).
        apply (IHm _ post). rewrite H. unfold pre2, ms1. leq.
    - intros. exact I.
    - intros wb v IHv wa l IHl pre post H. cbn [ag_es text_es] in *.
      assert (Hp2 : zlen (pre ++ wb) = zlen pre + zlen wb) by zlc. rewrite <- Hp2. split.
      + apply (IHv (pre ++ wb) wa (match l with ENil => [] | _ => B "," ++ text_es l end ++ post)); [|auto]. rewrite H. leq.
      + destruct l as [|wb' v' wa' l']; [exact I|]. set (l1 := ECons wb' v' wa' l') in *.
        replace (zlen (pre ++ wb) + zlen (text v) + zlen wa + 1) with (zlen (pre ++ wb ++ text v ++ wa ++ B ",")) by (change (B ",") with [","%char]; zlc).
        apply (IHl _ post). rewrite H. unfold l1. leq.
  Qed.
End Agree.

(** * The events are in order *)
Definition ev_le (a b : event) : Prop := e_next a <= e_next b.

Lemma events_sorted T : forall f lx evs, tokens_from f T lx = Ok evs -> 0 <= nxt lx ->
  StronglySorted ev_le evs /\ Forall (fun e => nxt lx <= e_next e) evs.
Proof.
  induction f as [|f IH]; intros lx evs H H0; [discriminate|]. cbn [tokens_from] in H.
  destruct (next_facts T lx H0) as [_ F]. destruct (nextToken T lx) as [[t lx']|]; [|discriminate]. cbn [bind] in H.
  destruct (F _ _ eq_refl) as [->|Hn]; [injection H as <-; split; constructor|].
  assert (Hev : evs = [] \/ exists rest, tokens_from f T lx' = Ok rest /\ evs = mkEvent t (nxt lx') (cur_start lx') :: rest).
  { destruct t; try (injection H as <-; left; reflexivity); (destruct (tokens_from f T lx') as [rest|]; [|discriminate]; cbn in H; injection H as <-; eauto). }
  destruct Hev as [->|(rest & Er & ->)]; [split; constructor|]. destruct (IH lx' rest Er ltac:(lia)) as [I1 I2]. split.
  - constructor; [exact I1|]. eapply Forall_impl; [|exact I2]. intros e He. exact He.
  - constructor; [cbn; lia|]. eapply Forall_impl; [|exact I2]. cbn. intros e He. lia.
Qed.

Lemma split_at K : forall evs, StronglySorted ev_le evs -> exists E1 E2, evs = E1 ++ E2 /\ Forall (soon K) E1 /\ Forall (late K) E2.
Proof.
  induction evs as [|e evs IH]; intros H; [exists [], []; repeat constructor|]. apply StronglySorted_inv in H as [H1 H2].
  destruct (Z_lt_le_dec (e_next e) K) as [Hl|Hl].
  - destruct (IH H1) as (E1 & E2 & -> & S1 & S2). exists (e :: E1), E2. repeat split; [constructor; assumption|exact S2].
  - exists [], (e :: evs). repeat split; [constructor|]. constructor; [exact Hl|]. eapply Forall_impl; [|exact H2].
    intros e' He. unfold late, ev_le in *. lia.
Qed.

(** * The automaton on the prefix *)
Lemma exec_due d dc P1 c w R c0 cz : dfa_ok d -> wf_doc dc = true -> lex_safe (d_val dc) = true -> lead_blanks (doc_text dc) = O ->
  doc_text dc = (P1 ++ c :: w) ++ R -> blank_char c = false -> colon_next R = false ->
  c_ss c0 = [] -> c_qs c0 = [] -> q_ms (c_cur c0) <> MUninit -> valid_state d (q_state (c_cur c0)) -> (stack_need (d_val dc) <= 100)%nat ->
  fits (c_tl c0) (t_val d false (q_state (c_cur c0)) (q_count (c_cur c0)) (d_val dc)) ->
  executeAutomaton d (doc_text dc) c0 = Ok cz ->
  exists c1 l l', executeAutomaton d (P1 ++ c :: w) c0 = Ok c1 /\ c_tl cz = c_tl c1 ++ l' /\
    c_tl c1 = (c_tl c0 ++ due_val d (zlen P1 + 1) false (q_state (c_cur c0)) (q_count (c_cur c0)) (zlen (d_pre dc)) (d_val dc)) ++ l.
Proof.
  intros Hd Hwf Hsafe Hlead Heq Hcb Hcut Hss Hqs Hms Hq Hsn Hf Hz.
  assert (Hne : P1 ++ c :: w <> []) by (destruct P1; discriminate).
  destruct (exec_prefix d dc _ R c0 cz Hwf Hsafe Hlead Heq Hne Hcut Hz) as (c1 & l' & Hx & Hl').
  pose proof (lex_doc dc Hwf Hsafe) as Hlex. pose proof (doc_no_nul dc Hwf) as Hnn.
  assert (Hcont : is_container (d_val dc) = true) by (unfold wf_doc in Hwf; andb_split; assumption).
  set (P := P1 ++ c :: w) in *.
  assert (Hsp : spaced (map e_tok (doc_events dc)) = true).
  { destruct (lex_doc_tokens dc Hwf Hsafe) as (evs' & E1 & E2). rewrite Hlex in E1. injection E1 as <-. rewrite E2. apply doc_spaced, Hwf. }
  unfold lex_all in Hlex. rewrite (c_string_id _ Hnn) in Hlex.
  destruct (events_sorted _ _ _ _ Hlex ltac:(cbn; lia)) as [Hsort _].
  destruct (split_at (zlen P1 + 1) _ Hsort) as (E1 & E2 & HE & HE1 & HE2).
  destruct (proj1 (due_all d (zlen P1 + 1) Hd (doc_text dc) Hlead Hnn) (d_val dc) AtRoot [] [] (q_state (c_cur c0)) (q_count (c_cur c0)) (q_ms (c_cur c0)) (c_tl c0) (d_pre dc) (d_post dc) 0 0 E1 E2)
    as (cd & Hrd & Hcd); try assumption.
  { congruence. } { reflexivity. } { cbn; lia. } { reflexivity. }
  { refine (proj1 (agree P1 (w ++ R) c Hcb) (d_val dc) (d_pre dc) [] (d_post dc) 0 _ (or_introl Hcont)).
    change (c :: w ++ R) with ((c :: w) ++ R). rewrite app_assoc. fold P. rewrite <- Heq. reflexivity. }
  replace (mkCore [] [] (mkElt (q_state (c_cur c0)) (q_count (c_cur c0)) (q_ms (c_cur c0))) (c_tl c0)) with c0 in Hrd by (destruct c0 as [? ? [? ? ?] ?]; cbn in *; subst; reflexivity).
  exists c1. cbn [in_arr] in Hcd. 
  assert (Hg : exists l, c_tl c1 = c_tl cd ++ l).
  { unfold executeAutomaton, lex_all in Hx.
    rewrite (c_string_id P) in Hx by (rewrite Heq in Hnn; exact (no_nul_app_l _ _ Hnn)).
    rewrite Heq in Hlex.
    destruct (tokens_pre P R Hcut _ (S (List.length P)) initLexer _ Hlex Hsp) as (k & tl & Et & Hall & Hsk & _).
    { intros y _ _. cbn. auto. }
    { cbn. pose proof (zlen_nonneg P). lia. }
    { cbn. unfold zlen. lia. }
    rewrite Et in Hx. cbn [bind] in Hx.
    assert (HP : zlen P1 + 1 <= zlen P) by (unfold P; rewrite zlen_app, zlen_cons; pose proof (zlen_nonneg w); lia).
    assert (Hpre : exists F, firstn k (doc_events dc) = E1 ++ F).
    { pose proof (firstn_skipn k (doc_events dc)) as Hfs. rewrite HE in Hfs at 3. apply app_cases in Hfs as [(E & HE1' & Hs)|(y & E & Hs & _)]; [|eauto].
      exists []. rewrite app_nil_r. destruct E as [|e E]; [rewrite app_nil_r in HE1'; auto|]. exfalso.
      rewrite HE1', Forall_app in HE1. destruct HE1 as [_ HE1]. apply Forall_cons_iff in HE1 as [He _]. unfold soon in He.
      specialize (Hsk e). rewrite Hs in Hsk. specialize (Hsk ltac:(left; reflexivity)). lia. }
    destruct Hpre as (F & HF). rewrite HF in Hx, Hall. rewrite <- app_assoc, foldM_app in Hx. apply Forall_app in Hall as [Hall _].
    rewrite Heq in Hlead, Hrd. rewrite (run_pre d P R Hlead Hne) in Hx by exact Hall. rewrite Hrd in Hx. cbn [bind] in Hx. exact (run_grows _ _ _ _ _ Hx). }
  destruct Hg as (l & Hl). exists l, l'. split; [exact Hx|]. split; [exact Hl'|]. rewrite Hl, Hcd. reflexivity.
Qed.

(** * The whole run *)
Theorem due_answers N strict q j dc P1 c w R : slice_query q = true -> restricted_before_desc false q = true -> forallb slice_ok q = true ->
  names_fit q = true -> good_doc dc -> limits q (d_val dc) -> j_major_null j = true ->
  doc_text dc = (P1 ++ c :: w) ++ R -> blank_char c = false -> colon_next R = false ->
  exists p more rest, createPathProcessor strict q = Ok p /\
    serialRun N j p (P1 ++ c :: w) = Ok (Some (ended_answers (zlen P1) q dc ++ more)) /\
    serialRun N j p (doc_text dc) = Ok (Some (ended_answers (zlen P1) q dc ++ more ++ rest)).
Proof.
  intros Hsq Hr Hs Hn Hg Hlim Hj Heq Hcb Hcut.
  pose proof (slice_supported q Hsq Hr Hs Hn) as Hsup. destruct (no_filter_fields q Hsq) as [Hf Hnf].
  destruct (supported_parts q Hsup) as (_ & _ & Hend & _ & Hfo & _).
  destruct (slice_answer N strict q j dc Hsq Hr Hs Hn Hg Hlim Hj) as (p & Hp & Hrun).
  destruct (create_ok strict q Hsup) as (d & x & st & Hc & Hb & Hcp).
  { intros _ f Hin. rewrite Hf in Hin. destruct Hin. }
  rewrite Hp in Hc. injection Hc as ->.
  assert (Hne : forall f, In f (query_fields q) -> f <> []) by (intros f Hin; rewrite Hf in Hin; destruct Hin).
  assert (Hnf' : forallb (fun s => negb (is_filter s)) q = true).
  { apply forallb_forall. intros s Hin. rewrite (Hnf s Hin). reflexivity. }
  destruct Hg as [Hwf Hsafe Hbl Hsize].
  assert (Hlead : lead_blanks (doc_text dc) = O).
  { pose proof (lead_zero dc Hbl) as Hz. unfold doc_text. destruct (d_pre dc) as [|c' w'] eqn:Ew.
    - cbn [app]. destruct (d_val dc) as [s|s|w0 ms|w0 es] eqn:Ev; unfold wf_doc in Hwf; rewrite Ev in Hwf; cbn in Hwf; rewrite ?andb_false_r in Hwf; try discriminate; reflexivity.
    - cbn in *. destruct (Ascii.eqb c' " "%char); [discriminate|reflexivity]. }
  assert (Hsz : zlen (text (d_val dc)) <= INT_MAX).
  { unfold doc_text in Hsize. rewrite !zlen_app in Hsize. pose proof (zlen_nonneg (d_pre dc)). pose proof (zlen_nonneg (d_post dc)). unfold INT_MAX. clear - Hsize H H0. lia. }
  destruct (exec_all q Hsup d x st Hcp dc Hwf Hsafe (lead_zero dc Hbl) Hlim Hsz) as (ms & Hex & _).
  assert (Hts : tv q d st false [] (d_val dc) = t_val d false 1 0 (d_val dc)).
  { unfold tv, es. cbn [labels map]. unfold ix, last_idx, alive. cbn. rewrite (cp_start _ _ _ _ Hcp). reflexivity. }
  destruct (exec_due d dc P1 c w R init_core (mkCore [] [] (mkElt 1 0 ms) (tv q d st false [] (d_val dc))) (cp_ok _ _ _ _ Hcp) Hwf Hsafe Hlead Heq Hcb Hcut)
    as (c1 & l & l' & Hx & Hl' & Hl); try reflexivity.
  { discriminate. }
  { pose proof (cp_valid _ _ _ _ Hcp []) as H. rewrite (cp_start _ _ _ _ Hcp) in H. exact H. }
  { rewrite (proj1 depth_need). apply (lim_depth _ _ Hlim). }
  { cbn [init_core c_tl c_cur q_state q_count]. rewrite <- Hts.
    destruct (proj1 (tuples_bound q d x st Hr Hs Hend Hne Hcp) (d_val dc) false [] (fun n H => nodes_small (d_val dc) n Hsz H)) as [H1 H2].
    pose proof (lim_nodes _ _ Hlim) as Hnn. split.
    - rewrite zlen_nil. unfold tuple, bytes in *. unfold MAX_TUPLE_LIST. clear - H1 Hnn. lia.
    - eapply Forall_impl; [|exact H2]. intros t [Ht|(n & Hin & Et & Hse)]; [eapply Z.le_trans; [exact Ht|discriminate]|]. unfold tuple, bytes in *. rewrite Et.
      destruct n as [p' u]. eapply (lim_text _ _ Hlim); eauto. }
  { exact Hex. }
  apply whole_run in Hrun; [|rewrite Heq; unfold MEMORY_FOOTPRINT; rewrite !zlen_app, zlen_cons; rewrite Heq, !zlen_app, zlen_cons in Hsize; pose proof (zlen_nonneg P1) as Z1; pose proof (zlen_nonneg w) as Z2; pose proof (zlen_nonneg R) as Z3; clear - Hsize Z1 Z2 Z3; lia].
  destruct Hrun as (ci & Hrun & _).
  unfold serialPartialRun in Hrun. cbn [init_context sc_context sc_core andb p_dfa p_ctx] in Hrun. rewrite Hex in Hrun. cbn [bind c_tl] in Hrun.
  destruct (initPredicateFilter x) as [pf0|] eqn:Ei; [|discriminate]. cbn [bind] in Hrun.
  destruct (generateFinalOutput N x pf0 _) as [pf2|] eqn:Eg; [|discriminate]. cbn [bind] in Hrun. injection Hrun as Hout _.
  cbn [c_tl] in Hl'. rewrite Hl' in Eg. apply final_prefix in Eg. destruct Eg as (pf1 & m1 & Eg1 & Em1).
  pose proof Eg1 as Eg. rewrite Hl in Eg. apply final_prefix in Eg. destruct Eg as (pfd & m2 & Egd & Em2).
  assert (Hd : f_output pfd = ended_answers (zlen P1) q dc).
  { rewrite (init_nofilter q d x st Hcp) in Ei.
    2:{ intros w' j' Hc'. apply (rp_role q Hr Hs Hend Hne) in Hc'. destruct Hc' as (e & He & _). apply nth_error_In, Hnf in He. discriminate. }
    injection Ei as <-. unfold generateFinalOutput in Egd. change (no_predicates _) with true in Egd. cbv iota in Egd. cbn [init_core c_tl c_cur q_state q_count app f_output] in Egd.
    assert (Hadd : forall l o o', foldM addOutputElement l o = Ok o' -> o' = o ++ l).
    { clear. induction l as [|t l IH]; intros o o' H; cbn [foldM] in H; [injection H as <-; rewrite app_nil_r; reflexivity|].
      unfold addOutputElement at 1 in H. destruct (_ <=? _); [discriminate|]. unfold strcopy in H. destruct (_ <? _); [discriminate|]. cbn [bind] in H.
      apply IH in H. rewrite H, <- app_assoc. reflexivity. }
    match type of Egd with bind ?a _ = _ => destruct a as [o|] eqn:Eo; [|discriminate Egd] end. cbn [bind] in Egd. injection Egd as <-. cbn [f_output].
    apply Hadd in Eo. cbn [app] in Eo. subst o.
    pose proof (proj1 (texts_due q d x st Hr Hs Hend Hne Hcp Hnf' (zlen P1 + 1)) (d_val dc) false [] (zlen (d_pre dc)) (fun n H => nodes_small (d_val dc) n Hsz H)) as Ht.
    replace (es q st (labels [])) with 1 in Ht by (unfold es, alive; cbn; rewrite (cp_start _ _ _ _ Hcp); reflexivity).
    change (ix (labels [])) with 0 in Ht. etransitivity; [exact Ht|].
    unfold dpick, ended_answers, doc_located. f_equal. apply filter_ext. intros [[p' o'] u]. cbn [fst snd]. rewrite sel_none by exact Hnf. f_equal.
    destruct (Z.ltb_spec (o' + zlen (text u)) (zlen P1 + 1)), (Z.leb_spec (o' + zlen (text u)) (zlen P1)) as [Z1|Z1]; try reflexivity; exfalso; match goal with H : _ |- _ => clear - H Z1; lia end. }
  exists (mkProc d x), m2, m1. split; [exact Hp|]. rewrite <- Hd. 
  assert (HPl : 0 < zlen (P1 ++ c :: w) <= MEMORY_FOOTPRINT).
  { rewrite Heq, zlen_app in Hsize. rewrite zlen_app, zlen_cons in *. pose proof (zlen_nonneg P1) as Z1. pose proof (zlen_nonneg w) as Z2. pose proof (zlen_nonneg R) as Z3. unfold MEMORY_FOOTPRINT. clear - Hsize Z1 Z2 Z3. lia. }
  split.
  - unfold serialRun. eapply run_whole; [reflexivity|exact HPl|exact Hj| |].
    + unfold serialPartialRun. cbn [init_context sc_context sc_core andb p_dfa p_ctx]. rewrite Hx. cbn [bind]. rewrite Ei. cbn [bind]. rewrite Eg1. cbn [bind]. rewrite <- Em2. reflexivity.
    + reflexivity.
  - destruct (slice_answer N strict q j dc Hsq Hr Hs Hn (Build_good_doc dc Hwf Hsafe Hbl Hsize) Hlim Hj) as (p2 & Hp2 & Hrun2).
    rewrite Hp in Hp2. injection Hp2 as <-. rewrite Hrun2, <- Hout, Em1, Em2, <- app_assoc. reflexivity.
Qed.
