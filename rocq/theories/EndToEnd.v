(** A serial run outputs the answer of the query. *)
From Verif Require Import Base Util Spec Lexer LexProof QueryClass Compress Dfa Stream TreeSem Num FilterSpec Builder Eval Filter
                          AutoProof BuilderProof Roles Compiled TreeSel SelProof FilterProof SelFilter EvalProof Loader Run.
Open Scope Z_scope.

(** Every stack of steps is matched by some path. *)
Definition wit (s : se) : label :=
  match s with SeDot k | SeParent k => LKey k | SeArray | SeIndex _ _ => LIdx 0 | _ => LKey [] end.
Lemma wit_match : forall st, st_match st (map wit st) = true.
Proof.
  induction st as [|s st IH]; [reflexivity|]. cbn [map st_match].
  destruct s; cbn [wit]; rewrite ?beq_refl, ?IH; reflexivity.
Qed.

Lemma filter_le : forall A (f : A -> bool) l, (List.length (filter f l) <= List.length l)%nat.
Proof. intros A f l. induction l as [|a l IH]; [cbn; lia|]. cbn. destruct (f a); cbn; lia. Qed.

Section Init.
  Variable q : query.
  Variables (d : dfa) (x : qctx) (st : list label -> Z).
  Hypothesis Hcp : compiled q d x st.
  Hypothesis Hst : forall w j, cls q w = Some (RP j) -> st w < 100.

  Lemma st_nonneg w : 0 <= st w.
  Proof. pose proof (cp_valid _ _ _ _ Hcp w) as H. unfold valid_state in H. lia. Qed.

  Definition entry (j : nat) : option conditions := Some (map (fun f => (join f, None)) (the_cf q j)).
  Lemma init_loop : forall ss C0, zlen C0 = 100 ->
    (forall s, In s ss -> exists w j, st w = s /\ cls q w = Some (RP j)) ->
    exists C, foldM (init_pred x) ss C0 = Ok C /\ zlen C = 100 /\
      (forall w j, cls q w = Some (RP j) -> In (st w) ss \/ zread C0 (st w) = Ok (entry j) -> zread C (st w) = Ok (entry j)).
  Proof.
    induction ss as [|s ss IH]; intros C0 HC Hall.
    - exists C0. split; [reflexivity|]. split; [exact HC|]. intros w j _ [[]|H]. exact H.
    - destruct (Hall s (or_introl eq_refl)) as (w & j & Es & Hc). cbn [foldM].
      destruct (cp_map _ _ _ _ Hcp w j Hc) as (l & Hm & Hi). unfold init_pred at 1. rewrite <- Es, Hm. cbn [bind].
      pose proof (st_nonneg w). pose proof (Hst w j Hc).
      replace ((st w <? 0) || (Z.of_nat MAX_PREDICATE_STATE <=? st w)) with false by (change (Z.of_nat MAX_PREDICATE_STATE) with 100; lia).
      rewrite Hi. cbn [bind].
      destruct (IH (upd C0 (Z.to_nat (st w)) (entry j))) as (C & Hr & HlC & Hrep).
      { unfold zlen in *. rewrite upd_length. exact HC. }
      { intros s' Hs'. apply Hall. right. exact Hs'. }
      exists C. split; [exact Hr|]. split; [exact HlC|]. intros w' j' Hc' Hor. apply Hrep; [exact Hc'|].
      destruct (Z.eq_dec (st w') (st w)) as [E|E].
      + right. rewrite E. pose proof (cp_cls _ _ _ _ Hcp _ _ E) as Ec. rewrite Hc, Hc' in Ec. injection Ec as ->.
        apply zread_upd_same. unfold zlen in *. lia.
      + destruct Hor as [[Hor|Hor]|Hor]; [congruence|left; exact Hor|]. right. rewrite zread_upd_other; auto using st_nonneg.
  Qed.

  Lemma init_filter : exists C, initPredicateFilter x = Ok (mkF C [] [] []) /\ repr q st C (fun _ _ => None).
  Proof.
    destruct (init_loop (x_preds x) (repeat None MAX_PREDICATE_STATE)) as (C & Hr & HlC & Hrep).
    { reflexivity. }
    { intros s Hs. apply (cp_preds _ _ _ _ Hcp) in Hs. exact Hs. }
    exists C. unfold initPredicateFilter. rewrite Hr. split; [reflexivity|]. split; [exact HlC|].
    intros w j Hc. apply Hrep; [exact Hc|]. left. apply (cp_preds _ _ _ _ Hcp). eauto.
  Qed.

  Lemma init_nofilter : (forall w j, cls q w <> Some (RP j)) -> initPredicateFilter x = Ok (mkF (repeat None MAX_PREDICATE_STATE) [] [] []).
  Proof.
    intros Hno. unfold initPredicateFilter. destruct (x_preds x) as [|s l] eqn:E; [reflexivity|].
    destruct (proj1 (cp_preds _ _ _ _ Hcp s)) as (w & j & _ & Hc); [rewrite E; left; reflexivity|]. destruct (Hno _ _ Hc).
  Qed.
End Init.

(** The filters get states that the table of the filter stage has room for. *)
Definition predicates_fit (strict : bool) (q : query) : Prop :=
  forall d x, build strict q = Ok (d, x) -> Forall (fun s => s < 100) (x_preds x).

Lemma supported_parts q : supported q = true ->
  restricted_before_desc false q = true /\ forallb slice_ok q = true /\ end_ok q = true /\ filters_ok q = true /\
  fields_ok q = true /\ names_fit q = true.
Proof.
  unfold supported. intros H. rewrite !andb_true_iff in H. destruct H as [[[[[H1 H2] H3] H4] H5] H6]. tauto.
Qed.

Lemma wf_doc_val dc : wf_doc dc = true -> wf (d_val dc) = true.
Proof. unfold wf_doc. rewrite !andb_true_iff. tauto. Qed.

Section End.
  Variable N : numops.
  Variable strict : bool.
  Variable q : query.
  Hypothesis Hsup : supported q = true.
  Hypothesis Hstrict : strict = true -> forall f, In f (query_fields q) -> (List.length f <= 1)%nat.

  Let Hrbd := proj1 (supported_parts q Hsup).
  Let Hslice := proj1 (proj2 (supported_parts q Hsup)).
  Let Hend := proj1 (proj2 (proj2 (supported_parts q Hsup))).
  Let Hfil := proj1 (proj2 (proj2 (proj2 (supported_parts q Hsup)))).
  Let Hfo := proj1 (proj2 (proj2 (proj2 (proj2 (supported_parts q Hsup))))).
  Let Hnames := proj2 (proj2 (proj2 (proj2 (proj2 (supported_parts q Hsup))))).
  Let Hne := Hne q Hfo.

  Theorem create_ok : exists d x st, createPathProcessor strict q = Ok (mkProc d x) /\ build strict q = Ok (d, x) /\ compiled q d x st.
  Proof.
    assert (Hff : fields_fine strict q).
    { intros f Hf. split; [apply Hne, Hf|]. intros E. apply Hstrict; auto. }
    destruct (build_ok q strict Hrbd Hslice Hend Hff Hnames) as (d & x & st & Hb & Hc).
    exists d, x, st. unfold createPathProcessor. rewrite Hb. auto.
  Qed.

  Variables (d : dfa) (x : qctx) (st : list label -> Z).
  Hypothesis Hb : build strict q = Ok (d, x).
  Hypothesis Hcp : compiled q d x st.
  Hypothesis Hfit : predicates_fit strict q.

  Let Hst : forall w j, cls q w = Some (RP j) -> st w < 100.
  Proof.
    intros w j Hc. pose proof (Hfit d x Hb) as H. rewrite Forall_forall in H. apply H. apply (cp_preds _ _ _ _ Hcp). eauto.
  Qed.

  Variable dc : doc.
  Hypothesis Hwf : wf_doc dc = true.
  Hypothesis Hsafe : lex_safe (d_val dc) = true.
  Hypothesis Hlead : lead_blanks (d_pre dc) = O.
  Hypothesis Hlim : limits q (d_val dc).
  Hypothesis Hsize : zlen (text (d_val dc)) <= INT_MAX.
  Hypothesis Hmean : filters_meaningful N q (d_val dc).

  Let v := d_val dc.
  Let Hsm : smalls (nodes [] v) := fun n H => nodes_small v n Hsize H.

  Let ts : list tuple := tv q d st false [] v.
  Let ts_eq : ts = t_val d false 1 0 v.
  Proof.
    unfold ts, tv, es. cbn [labels map]. unfold ix, last_idx, alive. cbn. rewrite (cp_start _ _ _ _ Hcp). reflexivity.
  Qed.
  Let ts_fits : fits [] ts.
  Proof.
    destruct (proj1 (tuples_bound q d x st Hrbd Hslice Hend Hne Hcp) v false [] Hsm) as [H1 H2].
    pose proof (lim_nodes _ _ Hlim) as Hnn. split.
    - fold ts in H1. change (nodes [] v) with (nodes [] (d_val dc)) in H1. rewrite zlen_nil. unfold tuple, bytes in *. unfold MAX_TUPLE_LIST. clear - H1 Hnn. lia.
    - fold ts in H2. eapply Forall_impl; [|exact H2]. intros t [Ht|(n & Hn & Et & Hs)]; [eapply Z.le_trans; [exact Ht|discriminate]|]. unfold tuple, bytes in *. rewrite Et.
      destruct n as [p u]. eapply (lim_text _ _ Hlim); eauto.
  Qed.

  Theorem exec_all : exists ms, executeAutomaton d (doc_text dc) init_core = Ok (mkCore [] [] (mkElt 1 0 ms) ts) /\ ms <> MUninit.
  Proof.
    destruct (exec_doc d dc init_core) as (ms & Hms & _ & He); auto.
    - apply (cp_ok _ _ _ _ Hcp).
    - discriminate.
    - pose proof (cp_valid _ _ _ _ Hcp []) as H. rewrite (cp_start _ _ _ _ Hcp) in H. exact H.
    - rewrite (proj1 depth_need). apply (lim_depth _ _ Hlim).
    - cbn [init_core c_tl c_cur q_state q_count]. fold v. rewrite <- ts_eq. exact ts_fits.
    - exists ms. split; [|exact Hms]. rewrite He. cbn [init_core c_tl c_cur q_state q_count]. fold v. rewrite <- ts_eq. reflexivity.
  Qed.

  Theorem filter_all : exists pf0 pf1, initPredicateFilter x = Ok pf0 /\ generateFinalOutput N x pf0 ts = Ok pf1 /\
    f_output pf1 = answer_text (holds N) q v.
  Proof.
    destruct (existsb is_filter q) eqn:Hhas.
    - destruct (init_filter q d x st Hcp Hst) as (C & Hi & HC). exists (mkF C [] [] []).
      assert (Hnp : no_predicates (mkF C [] [] []) = false).
      { apply existsb_exists in Hhas. destruct Hhas as (s & Hs & Hf). destruct s; try discriminate.
        apply In_nth_error in Hs. destruct Hs as (j & Hj).
        assert (Hc : cls q (map wit (pre q j)) = Some (RP j)).
        { apply (rp_role q Hrbd Hslice Hend Hne). exists e. split; [exact Hj|]. apply wit_match. }
        destruct HC as [_ HC]. specialize (HC _ _ Hc). unfold no_predicates. cbn [f_conds].
        apply not_true_iff_false. intros Hall. rewrite forallb_forall in Hall.
        unfold zread in HC. destruct (znth C _) as [o|] eqn:Ez; [|discriminate]. injection HC as ->.
        assert (Hin : In (Some (map (fun f => (join f, None)) (the_cf q j))) C).
        { unfold znth in Ez. destruct (_ <? 0); [discriminate|]. eapply nth_error_In; eauto. }
        apply Hall in Hin. discriminate. }
      destruct (proj1 (run_all N (holds N) q d x st Hrbd Hslice Hend Hfo Hcp Hst) v [] false [] [] C (fun _ _ => None) [] [] []) as (C' & _ & Hr).
      + exact (wf_doc_val dc Hwf).
      + exact Hsm.
      + intros p u e Hin Ho He. apply (pexpr_spec q Hrbd Hslice Hend Hfo) in He. destruct He as (j & Hj & Hl).
        apply ev_holds.
        * intros f Hf. assert (Hq : In f (query_fields q)).
          { apply in_flat_map. exists (SFilter e). split; [eapply nth_error_In; eauto|exact Hf]. }
          split; [apply Hne, Hq|apply (Hdf q Hfo), Hq].
        * eapply Hmean; eauto.
      + intros p u Hin Hl. eapply (lim_text _ _ Hlim); eauto.
      + intros Hk. cbn in Hk. exfalso. destruct (proj2 (pexpr_kd q Hrbd Hslice Hend Hfo []) Hk) as (e & He).
        rewrite (pexpr_nil q Hrbd Hslice Hend Hfo) in He. discriminate.
      + exact HC.
      + intros w' f _. reflexivity.
      + exact I.
      + reflexivity.
      + congruence.
      + cbn [List.length]. rewrite (proj1 depth_need). pose proof (lim_depth _ _ Hlim) as Hd. unfold v. clear - Hd. lia.
      + pose proof (lim_nodes _ _ Hlim) as Hn. unfold MAX_OUTPUT. rewrite zlen_nil. unfold v. clear - Hn. lia.
      + pose proof (lim_nodes _ _ Hlim) as Hn. unfold MAX_OUTPUT. rewrite zlen_nil. unfold v. clear - Hn. lia.
      + exists (mkF C' [] [] (keep0 (holds N) q [] v)). split; [exact Hi|]. split.
        * unfold generateFinalOutput. rewrite Hnp. unfold ts. exact Hr.
        * apply (keep_answer (holds N) q Hrbd Hslice Hend Hfo Hfil Hhas).
    - assert (Hnf : forall s, In s q -> is_filter s = false).
      { intros s Hs. destruct (is_filter s) eqn:E; [|reflexivity].
        assert (existsb is_filter q = true) by (apply existsb_exists; eauto). congruence. }
      rewrite (init_nofilter q d x st Hcp).
      2:{ intros w j Hc. apply (rp_role q Hrbd Hslice Hend Hne) in Hc. destruct Hc as (e & He & _).
          apply nth_error_In, Hnf in He. discriminate. }
      assert (Hnf' : forallb (fun s => negb (is_filter s)) q = true).
      { apply forallb_forall. intros s Hs. rewrite (Hnf s Hs). reflexivity. }
      assert (Hans : map snd ts = answer_text (holds N) q v).
      { unfold ts. rewrite (proj1 (texts_nofilter q d x st Hrbd Hslice Hend Hne Hcp Hnf')) by exact Hsm.
        unfold pick, answer_text, answer. rewrite map_map. f_equal. apply filter_ext_in. intros [p u] _. cbn [fst].
        symmetry. apply sel_none. exact Hnf. }
      eexists. eexists. split; [reflexivity|]. split.
      + unfold generateFinalOutput. change (no_predicates _) with true. cbv iota.
        rewrite add_all; [reflexivity| |].
        * cbn [f_output]. rewrite Hans, zlen_nil. unfold answer_text, answer, MAX_OUTPUT, zlen. rewrite !map_length.
          pose proof (lim_nodes _ _ Hlim) as Hn. unfold zlen in Hn.
          pose proof (filter_le _ (fun n => selects (holds N) q (fst n)) (nodes [] v)) as Hle. unfold v in *. clear - Hn Hle. lia.
        * apply Forall_forall. intros t Ht. apply in_map_iff in Ht. destruct Ht as (t' & <- & Ht).
          destruct ts_fits as [_ Hf]. rewrite Forall_forall in Hf. apply (Hf t' Ht).
      + cbn [f_output]. exact Hans.
  Qed.

  (** One piece that is the whole document. *)
  Theorem partial_run_all j : exists ci, serialPartialRun N j (mkProc d x) (doc_text dc) init_context
    = Ok (answer_text (holds N) q v, ci) /\ sc_context ci = true.
  Proof.
    destruct exec_all as (ms & He & _). destruct filter_all as (pf0 & pf1 & Hi & Hg & Ho).
    unfold serialPartialRun. cbn [init_context sc_context sc_core andb p_dfa p_ctx]. rewrite He. cbn [bind c_tl]. rewrite Hi. cbn [bind].
    rewrite Hg. cbn [bind]. rewrite Ho. eexists. split; [reflexivity|reflexivity].
  Qed.
End End.

(** * The whole run *)
Lemma load_whole M X file : 0 < X -> 0 < zlen file <= M -> loadBounded M X file 0 = Ok (Some (file, zlen file)).
Proof.
  intros HX HM. unfold loadBounded. rewrite Z.sub_0_r. replace (Z.min (zlen file) M) with (zlen file) by lia.
  replace (zlen file <=? 0) with false by lia. cbn [Z.to_nat skipn]. unfold zlen. rewrite Nat2Z.id, firstn_all, skipn_all.
  cbn [extend bind]. replace (X <=? 0) with false by lia. rewrite rev_involutive, !Z.add_0_r. reflexivity.
Qed.
Lemma load_end M X file : loadBounded M X file (zlen file) = Ok None.
Proof. unfold loadBounded. rewrite Z.sub_diag. replace (Z.min 0 M <=? 0) with true by lia. reflexivity. Qed.

Lemma run_whole N j p M X file out ci : 0 < X -> 0 < zlen file <= M -> j_major_null j = true ->
  serialPartialRun N j p file init_context = Ok (out, ci) -> sc_context ci = true ->
  serial_run N j p M X file = Ok (Some out).
Proof.
  intros HX HM Hj Hr Hc. unfold serial_run. destruct file as [|c file]; [cbn in HM; lia|].
  cbn [List.length serial_loop]. rewrite (load_whole M X (c :: file) HX HM). cbn [bind]. rewrite Hr. cbn [bind].
  rewrite load_end. cbn [bind]. unfold destroyStreamingContext. rewrite Hj, Hc. reflexivity.
Qed.

Theorem run_supported N strict q p j dc : supported q = true ->
  (strict = true -> forall f, In f (query_fields q) -> (List.length f <= 1)%nat) ->
  createPathProcessor strict q = Ok p -> predicates_fit strict q ->
  wf_doc dc = true -> lex_safe (d_val dc) = true -> lead_blanks (d_pre dc) = O ->
  limits q (d_val dc) -> filters_meaningful N q (d_val dc) ->
  zlen (doc_text dc) <= MEMORY_FOOTPRINT -> j_major_null j = true ->
  serialRun N j p (doc_text dc) = Ok (Some (answer_text (holds N) q (d_val dc))).
Proof.
  intros Hsup Hstrict Hp Hfit Hwf Hsafe Hlead Hlim Hmean Hsize Hj.
  destruct (create_ok strict q Hsup Hstrict) as (d & x & st & Hcr & Hb & Hcp). rewrite Hp in Hcr. injection Hcr as ->.
  assert (Hdt : doc_text dc = d_pre dc ++ text (d_val dc) ++ d_post dc) by reflexivity.
  assert (Htxt : 0 < zlen (text (d_val dc)) /\ zlen (text (d_val dc)) <= zlen (doc_text dc)).
  { rewrite Hdt, !zlen_app. pose proof (zlen_nonneg (d_pre dc)). pose proof (zlen_nonneg (d_post dc)). split; [|lia].
    pose proof (wf_doc_val dc Hwf) as Hw.
    destruct (d_val dc) as [s|s|w ms|w l]; cbn [text] in *; rewrite ?zlen_cons, ?zlen_app.
    - destruct s; [discriminate|]. rewrite zlen_cons. pose proof (zlen_nonneg s). lia.
    - pose proof (zlen_nonneg s). change (zlen [DQ]) with 1. lia.
    - pose proof (zlen_nonneg w). pose proof (zlen_nonneg (text_ms ms)). pose proof (zlen_nonneg (B "}")). change (zlen (B "{")) with 1. lia.
    - pose proof (zlen_nonneg w). pose proof (zlen_nonneg (text_es l)). pose proof (zlen_nonneg (B "]")). change (zlen (B "[")) with 1. lia. }
  assert (Hint : zlen (text (d_val dc)) <= INT_MAX) by (unfold MEMORY_FOOTPRINT, INT_MAX in *; lia).
  destruct (partial_run_all N strict q Hsup d x st Hb Hcp Hfit dc Hwf Hsafe Hlead Hlim Hint Hmean j) as (ci & Hr & Hc).
  unfold serialRun. eapply run_whole; eauto; [unfold MAX_EXTENSION; lia|]. lia.
Qed.
