(** A file of several records: the answers of the records one after the other. *)
From Verif Require Import Base Util Spec Lexer LexProof LexDoc LexMain QueryClass Compress Dfa Stream TreeSem Num FilterSpec Builder Eval Filter
                          AutoProof BuilderProof Roles Compiled TreeSel SelProof FilterProof SelFilter EvalProof Loader Run EndToEnd Claims ClaimProof RecSpec.
From Coq Require Import Lia.
Open Scope Z_scope.

(** * Tokens *)
Fixpoint rec_events (o : Z) (ds : list doc) : list event :=
  match ds with
  | [] => []
  | dc :: ds' => ev_val 0 (o + zlen (d_pre dc)) 0 (d_val dc) ++ rec_events (o + zlen (doc_text dc)) ds'
  end.

Lemma lex_recs : forall ds buf pre w lx,
  Forall (fun dc => wf_doc dc = true /\ lex_safe (d_val dc) = true) ds -> ws w = true ->
  buf = pre ++ w ++ records_text ds -> nxt lx = zlen pre ->
  toks buf lx (rec_events (zlen pre + zlen w) ds).
Proof.
  induction ds as [|dc ds IH]; intros buf pre w lx Hall Hw Hb Hn.
  - exists 1%nat. cbn [tokens_from]. rewrite (next_end buf lx pre w); auto. rewrite Hb. cbn. rewrite app_nil_r. reflexivity.
  - inversion Hall as [|? ? [Hwf Hsafe] Hrest]; subst.
    assert (Hwf' := Hwf). unfold wf_doc in Hwf'. andb_split.
    cbn [rec_events]. set (e := zlen pre + zlen (w ++ d_pre dc) + zlen (text (d_val dc))).
    assert (Ho : zlen pre + zlen w + zlen (d_pre dc) = zlen pre + zlen (w ++ d_pre dc)) by (rewrite zlen_app; lia).
    rewrite Ho. eapply (proj1 lex_all_values (d_val dc)) with (post := d_post dc ++ records_text ds) (e := e); eauto.
    + rewrite ws_app. rewrite Hw. assumption.
    + unfold records_text, doc_text. cbn [map concat]. rewrite <- !app_assoc. reflexivity.
    + assert (He : zlen pre + zlen w + zlen (doc_text dc) = zlen (pre ++ w ++ d_pre dc ++ text (d_val dc)) + zlen (d_post dc)).
      { unfold doc_text. rewrite !zlen_app. lia. }
      rewrite He. apply IH; auto.
      * unfold records_text, doc_text. cbn [map concat]. rewrite <- !app_assoc. reflexivity.
      * cbn [nxt]. unfold e. rewrite !zlen_app. lia.
Qed.

Lemma recs_no_nul ds : Forall (fun dc => wf_doc dc = true /\ lex_safe (d_val dc) = true) ds -> no_nul (records_text ds).
Proof.
  induction 1 as [|dc ds [H _] _ IH]; [intros []|]. unfold records_text in *. cbn [map concat].
  apply no_nul_app; [apply doc_no_nul, H|exact IH].
Qed.

Lemma lex_records ds : Forall (fun dc => wf_doc dc = true /\ lex_safe (d_val dc) = true) ds ->
  lex_all (records_text ds) = Ok (rec_events 0 ds).
Proof.
  intros H. apply toks_lex_all. rewrite c_string_id by (apply recs_no_nul, H).
  exact (lex_recs ds (records_text ds) [] [] initLexer H eq_refl eq_refl eq_refl).
Qed.

(** * The automaton *)
Definition rec_tuples (d : dfa) (q i : Z) (ds : list doc) : list tuple := concat (map (fun dc => t_val d false q i (d_val dc)) ds).

Lemma exec_recs d buf : dfa_ok d -> lead_blanks buf = O -> no_nul buf -> forall ds pre q i ms L,
  Forall (fun dc => wf_doc dc = true /\ (stack_need (d_val dc) <= 100)%nat) ds -> buf = pre ++ records_text ds ->
  ms <> MUninit -> valid_state d q -> fits L (rec_tuples d q i ds) ->
  exists ms', ms' <> MUninit /\ foldM (core_step d buf) (rec_events (zlen pre) ds) (mkCore [] [] (mkElt q i ms) L)
    = Ok (mkCore [] [] (mkElt q i ms') (L ++ rec_tuples d q i ds)).
Proof.
  intros Hd Hl Hnn. induction ds as [|dc ds IH]; intros pre q i ms L Hall Hb Hms Hq Hf.
  - exists ms. split; [exact Hms|]. cbn. rewrite app_nil_r. reflexivity.
  - inversion Hall as [|? ? [Hwf Hneed] Hrest]; subst x l. unfold rec_tuples in *. cbn [map concat] in *. apply fits_app in Hf as [Hf1 Hf2].
    assert (Hc : is_container (d_val dc) = true).
    { unfold wf_doc in Hwf. andb_split. assumption. }
    cbn [rec_events]. rewrite foldM_app.
    destruct (proj1 (machine_all d Hd buf Hl Hnn) (d_val dc) AtRoot [] [] q i ms L
                (pre ++ d_pre dc) (d_post dc ++ records_text ds) 0 0) as (c & Hrun & Haft).
    { congruence. } { reflexivity. } { exact Hms. } { exact Hq. } { cbn; lia. } { cbn; lia. }
    { rewrite Hb. unfold records_text, doc_text. cbn [map concat]. rewrite <- !app_assoc. reflexivity. } { exact Hf1. }
    rewrite zlen_app in Hrun. rewrite Hrun. cbn [bind]. destruct Haft as (ms1 & H1 & _ & ->). cbn [in_arr] in *.
    destruct (IH (pre ++ doc_text dc) q i ms1 (L ++ t_val d false q i (d_val dc))) as (ms' & Hms' & He); auto.
    { rewrite Hb. unfold records_text. cbn [map concat]. rewrite <- !app_assoc. reflexivity. }
    exists ms'. split; [exact Hms'|]. rewrite zlen_app in He. rewrite He. rewrite <- app_assoc. reflexivity.
Qed.

(** * The whole run *)
Section Recs.
  Variable N : numops.
  Variable strict : bool.
  Variable q : query.
  Hypothesis Hsup : supported q = true.
  Variables (d : dfa) (x : qctx) (st : list label -> Z).
  Hypothesis Hb : build strict q = Ok (d, x).
  Hypothesis Hcp : compiled q d x st.
  Hypothesis Hfit : predicates_fit strict q.

  Let Hrbd := proj1 (supported_parts q Hsup).
  Let Hslice := proj1 (proj2 (supported_parts q Hsup)).
  Let Hend := proj1 (proj2 (proj2 (supported_parts q Hsup))).
  Let Hfil := proj1 (proj2 (proj2 (proj2 (supported_parts q Hsup)))).
  Let Hfo := proj1 (proj2 (proj2 (proj2 (proj2 (supported_parts q Hsup))))).
  Let Hne := FilterProof.Hne q Hfo.

  Let Hst : forall w j, cls q w = Some (RP j) -> st w < 100.
  Proof.
    intros w j Hc. pose proof (Hfit d x Hb) as H. rewrite Forall_forall in H. apply H. apply (cp_preds _ _ _ _ Hcp). eauto.
  Qed.

  (** What is needed of one record. *)
  Definition fine (dc : doc) : Prop :=
    wf_doc dc = true /\ limits q (d_val dc) /\ zlen (text (d_val dc)) <= INT_MAX /\ filters_meaningful N q (d_val dc).

  Lemma ts_eq v : tv q d st false [] v = t_val d false 1 0 v.
  Proof. unfold tv, es. cbn [labels map]. unfold ix, last_idx, alive. cbn. rewrite (cp_start _ _ _ _ Hcp). reflexivity. Qed.

  Lemma recs_fit ds : Forall fine ds ->
    zlen (rec_tuples d 1 0 ds) <= 2 * zlen (concat (map (fun dc => nodes [] (d_val dc)) ds)) /\
    Forall (fun t : tuple => zlen (snd t) <= 998) (rec_tuples d 1 0 ds).
  Proof.
    induction 1 as [|dc ds (Hwf & Hlim & Hsz & _) _ [IH1 IH2]]; [split; [cbn; lia|constructor]|].
    unfold rec_tuples in *. cbn [map concat]. rewrite <- ts_eq.
    destruct (proj1 (tuples_bound q d x st Hrbd Hslice Hend Hne Hcp) (d_val dc) false [] (fun n H => nodes_small (d_val dc) n Hsz H)) as [H1 H2].
    split.
    - rewrite !zlen_app. clear - H1 IH1. unfold tuple, bytes in *. lia.
    - apply Forall_app. split; [|exact IH2]. eapply Forall_impl; [|exact H2].
      intros t [Ht|(n & Hn & Et & Hs)]; [eapply Z.le_trans; [exact Ht|discriminate]|]. unfold tuple, bytes in *. rewrite Et.
      destruct n as [p u]. eapply (lim_text _ _ Hlim); eauto.
  Qed.

  Lemma filter_recs : existsb is_filter q = true -> forall ds C O, Forall fine ds -> repr q st C (fun _ _ => None) ->
    zlen O + zlen (concat (map (fun dc => nodes [] (d_val dc)) ds)) <= MAX_OUTPUT ->
    exists C', foldM (filter_step N x) (rec_tuples d 1 0 ds) (mkF C [] [] O) = Ok (mkF C' [] [] (O ++ records_answer (holds N) q ds)).
  Proof.
    intros Hhas. induction ds as [|dc ds IH]; intros C O Hall HC Hroom.
    - exists C. cbn. rewrite app_nil_r. reflexivity.
    - inversion Hall as [|? ? (Hwf & Hlim & Hsz & Hmean) Hrest]; subst.
      unfold rec_tuples in *. cbn [map concat] in *. rewrite zlen_app in Hroom. rewrite foldM_app, <- ts_eq.
      pose proof (fun n H => nodes_small (d_val dc) n Hsz H) as Hsm.
      destruct (proj1 (run_all N (holds N) q d x st Hrbd Hslice Hend Hfo Hcp Hst) (d_val dc) [] false [] [] C (fun _ _ => None) [] [] O) as (C1 & HC1 & Hr).
      + exact (wf_doc_val dc Hwf).
      + exact Hsm.
      + intros p u e Hin Ho He. apply (pexpr_spec q Hrbd Hslice Hend Hfo) in He. destruct He as (j & Hj & Hl).
        apply ev_holds.
        * intros f Hf. assert (Hq : In f (query_fields q)).
          { apply in_flat_map. exists (SFilter e). split; [eapply nth_error_In; eauto|exact Hf]. }
          split; [apply Hne, Hq|apply (Hdf q Hfo), Hq].
        * eapply Hmean; eauto.
      + intros p u Hin Hl. eapply (lim_text _ _ Hlim); eauto.
      + intros Hk. cbn in Hk. exfalso. destruct (proj2 (pexpr_kd q Hrbd Hslice Hend Hfo []) Hk) as (e & He).
        rewrite (pexpr_nil q Hrbd Hslice Hend Hfo) in He. discriminate.
      + exact HC.
      + intros w' f _. reflexivity.
      + exact I.
      + reflexivity.
      + congruence.
      + cbn [List.length]. rewrite (proj1 depth_need). pose proof (lim_depth _ _ Hlim) as Hd. clear - Hd. lia.
      + pose proof (lim_nodes _ _ Hlim) as Hn. unfold MAX_OUTPUT. rewrite zlen_nil. clear - Hn. lia.
      + pose proof (zlen_nonneg (concat (map (fun dc => nodes [] (d_val dc)) ds))). lia.
      + rewrite Hr. cbn [bind kpB kpO app]. cbn [newV] in HC1.
        assert (Hk : keep0 (holds N) q [] (d_val dc) = answer_text (holds N) q (d_val dc))
          by (apply (keep_answer (holds N) q Hrbd Hslice Hend Hfo Hfil Hhas)).
        destruct (IH C1 (O ++ keep0 (holds N) q [] (d_val dc)) Hrest HC1) as (C' & He).
        { rewrite Hk, zlen_app.
          assert (zlen (answer_text (holds N) q (d_val dc)) <= zlen (nodes [] (d_val dc))).
          { unfold answer_text, answer, zlen. rewrite !map_length. pose proof (filter_le _ (fun n => selects (holds N) q (fst n)) (nodes [] (d_val dc))). lia. }
          lia. }
        exists C'. rewrite He, Hk. unfold records_answer. cbn [map concat]. rewrite <- app_assoc. reflexivity.
  Qed.

  Lemma nofilter_recs : existsb is_filter q = false -> forall ds, Forall fine ds ->
    map snd (rec_tuples d 1 0 ds) = records_answer (holds N) q ds.
  Proof.
    intros Hhas.
    assert (Hnf : forall s, In s q -> is_filter s = false).
    { intros s Hs. destruct (is_filter s) eqn:E; [|reflexivity].
      assert (existsb is_filter q = true) by (apply existsb_exists; eauto). congruence. }
    assert (Hnf' : forallb (fun s => negb (is_filter s)) q = true).
    { apply forallb_forall. intros s Hs. rewrite (Hnf s Hs). reflexivity. }
    induction 1 as [|dc ds (Hwf & Hlim & Hsz & Hmean) _ IH]; [reflexivity|].
    unfold rec_tuples, records_answer in *. cbn [map concat]. etransitivity; [apply map_app|]. apply f_equal2; [|exact IH]. rewrite <- ts_eq.
    rewrite (proj1 (texts_nofilter q d x st Hrbd Hslice Hend Hne Hcp Hnf')) by (exact (fun n H => nodes_small (d_val dc) n Hsz H)).
    unfold pick, answer_text, answer. rewrite map_map. f_equal. apply filter_ext_in. intros [p u] _. cbn [fst].
    symmetry. apply sel_none. exact Hnf.
  Qed.

  Lemma filter_all_recs ds : Forall fine ds -> zlen (concat (map (fun dc => nodes [] (d_val dc)) ds)) <= 800000 ->
    exists pf0 pf1, initPredicateFilter x = Ok pf0 /\ generateFinalOutput N x pf0 (rec_tuples d 1 0 ds) = Ok pf1 /\
    f_output pf1 = records_answer (holds N) q ds.
  Proof.
    intros Hall Hroom. destruct (existsb is_filter q) eqn:Hhas.
    - destruct (init_filter q d x st Hcp Hst) as (C & Hi & HC). exists (mkF C [] [] []).
      assert (Hnp : no_predicates (mkF C [] [] []) = false).
      { apply existsb_exists in Hhas. destruct Hhas as (s & Hs & Hf). destruct s; try discriminate.
        apply In_nth_error in Hs. destruct Hs as (j & Hj).
        assert (Hc : cls q (map wit (pre q j)) = Some (RP j)).
        { apply (rp_role q Hrbd Hslice Hend Hne). exists e. split; [exact Hj|]. apply wit_match. }
        destruct HC as [_ HC]. specialize (HC _ _ Hc). unfold no_predicates. cbn [f_conds].
        apply not_true_iff_false. intros Hall'. rewrite forallb_forall in Hall'.
        unfold zread in HC. destruct (znth C _) as [o|] eqn:Ez; [|discriminate]. injection HC as ->.
        assert (Hin : In (Some (map (fun f => (join f, None)) (the_cf q j))) C).
        { unfold znth in Ez. destruct (_ <? 0); [discriminate|]. eapply nth_error_In; eauto. }
        apply Hall' in Hin. discriminate. }
      destruct (filter_recs Hhas ds C [] Hall HC) as (C' & He).
      { unfold MAX_OUTPUT. rewrite zlen_nil. lia. }
      eexists. split; [exact Hi|]. split; [unfold generateFinalOutput; rewrite Hnp; exact He|reflexivity].
    - pose proof (nofilter_recs Hhas ds Hall) as Hans.
      rewrite (init_nofilter q d x st Hcp).
      2:{ intros w j Hc. apply (rp_role q Hrbd Hslice Hend Hne) in Hc. destruct Hc as (e & He & _).
          apply nth_error_In in He. assert (existsb is_filter q = true) by (apply existsb_exists; eauto). congruence. }
      destruct (recs_fit ds Hall) as [_ Hf].
      eexists. eexists. split; [reflexivity|]. split.
      + unfold generateFinalOutput. change (no_predicates _) with true. cbv iota.
        rewrite add_all; [reflexivity| |].
        * cbn [f_output]. rewrite Hans, zlen_nil. clear - Hroom. eapply Z.le_trans; [|unfold MAX_OUTPUT; exact Hroom].
          unfold records_answer. induction ds as [|dc ds IH]; [cbn; lia|]. cbn [map concat] in *. rewrite !zlen_app in *.
          pose proof (zlen_nonneg (nodes [] (d_val dc))).
          assert (zlen (answer_text (holds N) q (d_val dc)) <= zlen (nodes [] (d_val dc))).
          { unfold answer_text, answer, zlen. rewrite !map_length. pose proof (filter_le _ (fun n => selects (holds N) q (fst n)) (nodes [] (d_val dc))). lia. }
          assert (Hr' : zlen (concat (map (fun dc => nodes [] (d_val dc)) ds)) <= 800000) by lia. specialize (IH Hr'). lia.
        * apply Forall_forall. intros t Ht. apply in_map_iff in Ht. destruct Ht as (t' & <- & Ht).
          rewrite Forall_forall in Hf. apply (Hf t' Ht).
      + cbn [f_output]. exact Hans.
  Qed.

  Lemma partial_run_recs j ds : Forall fine ds -> Forall (fun dc => wf_doc dc = true /\ lex_safe (d_val dc) = true) ds ->
    lead_blanks (records_text ds) = O -> zlen (concat (map (fun dc => nodes [] (d_val dc)) ds)) <= 800000 ->
    exists ci, serialPartialRun N j (mkProc d x) (records_text ds) init_context = Ok (records_answer (holds N) q ds, ci) /\ sc_context ci = true.
  Proof.
    intros Hall Hwf Hlead Hroom.
    pose proof (recs_no_nul ds Hwf) as Hnn.
    assert (He : exists ms, executeAutomaton d (records_text ds) init_core = Ok (mkCore [] [] (mkElt 1 0 ms) (rec_tuples d 1 0 ds))).
    { unfold executeAutomaton. rewrite (lex_records ds Hwf). cbn [bind]. rewrite c_string_id by exact Hnn.
      destruct (exec_recs d (records_text ds) (cp_ok _ _ _ _ Hcp) Hlead Hnn ds [] 1 0 MInv []) as (ms & _ & He).
      - eapply Forall_impl; [|exact Hall]. intros dc (H1 & H2 & _). split; [exact H1|]. rewrite (proj1 depth_need). apply (lim_depth _ _ H2).
      - reflexivity.
      - discriminate.
      - pose proof (cp_valid _ _ _ _ Hcp []) as H. rewrite (cp_start _ _ _ _ Hcp) in H. exact H.
      - destruct (recs_fit ds Hall) as [H1 H2]. split; [rewrite zlen_nil; unfold MAX_TUPLE_LIST; lia|exact H2].
      - exists ms. exact He. }
    destruct He as (ms & He). destruct (filter_all_recs ds Hall Hroom) as (pf0 & pf1 & Hi & Hg & Ho).
    unfold serialPartialRun. cbn [init_context sc_context sc_core andb p_dfa p_ctx]. rewrite He. cbn [bind c_tl]. rewrite Hi. cbn [bind].
    rewrite Hg. cbn [bind]. rewrite Ho. eexists. split; [reflexivity|reflexivity].
  Qed.
End Recs.

Lemma recs_lead ds : good_records ds -> lead_blanks (records_text ds) = O.
Proof.
  intros [Hs Hwf Hbl _]. destruct ds as [|dc ds]; [congruence|]. inversion Hwf as [|? ? [H _] _]; subst.
  unfold records_text. cbn [map concat]. unfold doc_text, no_leading_blank, wf_doc in *. andb_split.
  destruct (d_pre dc) as [|c w].
  - destruct (d_val dc); try discriminate; reflexivity.
  - cbn. destruct (Ascii.eqb c " "%char); [discriminate|reflexivity].
Qed.

Theorem records_run N strict q j ds : supported q = true -> (strict = true -> single_names q) -> predicates_fit strict q ->
  good_records ds -> records_limits q ds -> Forall (fun dc => filters_meaningful N q (d_val dc)) ds -> j_major_null j = true ->
  exists p, createPathProcessor strict q = Ok p /\ serialRun N j p (records_text ds) = Ok (Some (records_answer (holds N) q ds)).
Proof.
  intros Hsup Hstrict Hfit Hg [Hlim Hroom] Hmean Hj.
  destruct (create_ok strict q Hsup) as (d & x & st & Hc & Hb & Hcp).
  { intros E. exact (Hstrict E). }
  exists (mkProc d x). split; [exact Hc|].
  assert (Hsz : forall dc, In dc ds -> zlen (doc_text dc) <= zlen (records_text ds)).
  { clear. induction ds as [|d0 ds IH]; intros dc []; unfold records_text in *; cbn [map concat]; rewrite zlen_app.
    - subst. pose proof (zlen_nonneg (concat (map doc_text ds))). lia.
    - specialize (IH dc H). pose proof (zlen_nonneg (doc_text d0)). lia. }
  assert (Hall : Forall (fine N q) ds).
  { rewrite Forall_forall in *. intros dc Hin. pose proof (gr_wf _ Hg) as Hwf. rewrite Forall_forall in Hwf. destruct (Hwf dc Hin) as [H1 H2].
    split; [exact H1|]. split; [exact (Hlim dc Hin)|]. split; [|exact (Hmean dc Hin)].
    specialize (Hsz dc Hin). pose proof (gr_size _ Hg) as Hgs. unfold doc_text in Hsz. rewrite !zlen_app in Hsz.
    pose proof (zlen_nonneg (d_pre dc)). pose proof (zlen_nonneg (d_post dc)). unfold INT_MAX. lia. }
  destruct (partial_run_recs N strict q Hsup d x st Hb Hcp Hfit j ds Hall (gr_wf _ Hg) (recs_lead ds Hg) Hroom) as (ci & Hr & Hci).
  unfold serialRun. eapply run_whole; eauto; [unfold MAX_EXTENSION; lia|]. split; [|exact (gr_size _ Hg)].
  destruct ds as [|dc ds]; [destruct (gr_some _ Hg); reflexivity|].
  pose proof (gr_wf _ Hg) as Hwf. inversion Hwf as [|? ? [H _] _]; subst. specialize (Hsz dc (or_introl eq_refl)).
  unfold wf_doc in H. andb_split. assert (0 < zlen (doc_text dc)); [|lia].
  pose proof (zlen_nonneg (d_pre dc)). pose proof (zlen_nonneg (d_post dc)). unfold doc_text. rewrite !zlen_app.
  pose proof (PosProof.text_pos (d_val dc) ltac:(assumption)). lia.
Qed.
