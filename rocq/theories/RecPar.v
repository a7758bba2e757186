(** Files of several records on one core. *)
From Verif Require Import Base Util Spec Lexer LexProof LexDoc LexMain QueryClass Dfa Stream TreeSem TreeInv Num FilterSpec Builder Eval Filter
  Loader Run EndToEnd AnyQuery PosSpec PosProof Claims ClaimProof RecSpec Records Worker Merge MalSpec NestSpec Single SingleRun.
Open Scope Z_scope.

Lemma recs_nested : forall ds o, Forall (fun dc => (depth (d_val dc) <= 100)%nat) ds -> well_nested [] (map e_tok (rec_events o ds)) = true.
Proof.
  induction ds as [|dc ds IH]; intros o H; [reflexivity|]. apply Forall_cons_iff in H as [H1 H2]. cbn [rec_events]. rewrite map_app, (proj1 map_e_tok_ev).
  rewrite (proj1 nested_all) by (reflexivity || (cbn; lia)). apply IH, H2.
Qed.
Theorem records_one N strict q j pj ds : supported q = true -> (strict = true -> single_names q) -> predicates_fit strict q ->
  good_records ds -> records_limits q ds -> Forall (fun dc => filters_meaningful N q (d_val dc)) ds -> j_major_null j = true ->
  exists p, createPathProcessor strict q = Ok p /\ parallelRun N p pj (records_text ds) 1 = Ok (Some (records_answer (holds N) q ds)).
Proof.
  intros Hsup Hstrict Hfit Hg Hl Hm Hj. destruct (records_run N strict q j ds Hsup Hstrict Hfit Hg Hl Hm Hj) as (p & Hp & Hr). exists p. split; [exact Hp|]. rewrite <- Hr.
  pose proof (gr_wf _ Hg) as Hwf. pose proof (recs_no_nul ds Hwf) as Hnn. apply single_run; rewrite ?c_string_id by exact Hnn; auto.
  - exists strict, q. split; [exact Hp|]. destruct (supported_parts q Hsup) as (_ & _ & _ & _ & _ & Hf). unfold names_fit in Hf. unfold name_bound. lia.
  - destruct ds as [|dc ds]; [destruct (gr_some _ Hg eq_refl)|]. apply Forall_cons_iff in Hwf as [[H _] _]. unfold records_text, doc_text. cbn [map concat].
    pose proof (text_pos _ (wf_doc_val dc H)) as Hp0. destruct (d_pre dc); [|discriminate]. cbn [app]. destruct (text (d_val dc)); [cbn in Hp0; lia|discriminate].
  - exact (recs_lead ds Hg).
  - exact (gr_size _ Hg).
  - intros evs He. rewrite (lex_records ds Hwf) in He. injection He as <-. apply recs_nested. destruct Hl as [Hl _]. eapply Forall_impl; [|exact Hl]. intros dc H. exact (lim_depth _ _ H).
Qed.
