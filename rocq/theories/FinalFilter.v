(** Queries that end in a filter: exactly what the code returns. *)
From Verif Require Import Base Util Spec QueryClass Regex RegexProof Mixer MixerProof Compress Lexer LexProof LexDoc LexMain
  Dfa Stream TreeSem Builder Eval Filter FilterProof AutoProof BuilderProof Roles Compiled TreeSel SelProof PosSpec Claims Num Loader Run EndToEnd
  ClaimProof PosProof SliceSpec SliceAny FinalSpec.
Open Scope Z_scope.

(** * The patterns *)
Lemma match_array_dots : forall w s f, st_match (s ++ map SeDot f) w = true <-> exists u, w = u ++ map LKey f /\ st_match s u = true.
Proof.
  intros w s f. split.
  - revert s. induction w as [|l w IH]; intros s H.
    + destruct s as [|x s]; [|discriminate]. destruct f; [|discriminate]. exists []. split; reflexivity.
    + destruct s as [|x s].
      * cbn [app] in H. apply st_match_dots in H. exists []. split; [exact H|reflexivity].
      * cbn [app] in H. assert (G : forall s', st_match (s' ++ map SeDot f) w = true -> (forall u, st_match s' u = true -> st_match (x :: s) (l :: u) = true) ->
          exists u, l :: w = u ++ map LKey f /\ st_match (x :: s) u = true).
        { intros s' H' Hu. destruct (IH s' H') as (u & -> & Hm). exists (l :: u). split; [reflexivity|apply Hu, Hm]. }
        cbn [st_match] in H. destruct x.
        -- apply (G s H). intros u Hu. exact Hu.
        -- apply orb_true_iff in H. destruct H as [H|H]; [apply (G s H)|apply (G (SeParentAll :: s) H)]; intros u Hu; cbn [st_match]; rewrite Hu; rewrite ?orb_true_r; reflexivity.
        -- apply andb_true_iff in H. destruct H as [H0 H]. apply (G s H). intros u Hu. cbn [st_match]. rewrite Hu, H0. reflexivity.
        -- apply orb_true_iff in H. destruct H as [H|H].
           ++ apply andb_true_iff in H. destruct H as [H0 H]. apply (G s H). intros u Hu. cbn [st_match]. rewrite Hu, H0. reflexivity.
           ++ apply (G (SeParent k :: s) H). intros u Hu. cbn [st_match]. rewrite Hu, orb_true_r. reflexivity.
        -- apply andb_true_iff in H. destruct H as [H0 H]. apply (G s H). intros u Hu. cbn [st_match]. rewrite Hu, H0. reflexivity.
        -- apply andb_true_iff in H. destruct H as [H0 H]. apply (G s H). intros u Hu. cbn [st_match]. rewrite Hu, H0. reflexivity.
  - intros (u & -> & Hm). revert s Hm. induction u as [|l u IH]; intros s Hm.
    + destruct s; [|discriminate]. cbn [app]. apply st_match_dots. reflexivity.
    + destruct s as [|x s]; [discriminate|]. cbn [app st_match] in *. destruct x.
      * apply IH, Hm.
      * apply orb_true_iff in Hm. destruct Hm as [H|H]; [rewrite (IH s H); reflexivity|]. pose proof (IH (SeParentAll :: s) H) as G. cbn [app] in G. rewrite G, orb_true_r. reflexivity.
      * apply andb_true_iff in Hm. destruct Hm as [H0 H]. rewrite H0, (IH s H). reflexivity.
      * apply orb_true_iff in Hm. destruct Hm as [H|H].
        -- apply andb_true_iff in H. destruct H as [H0 H]. rewrite H0, (IH s H). reflexivity.
        -- pose proof (IH (SeParent k :: s) H) as G. cbn [app] in G. rewrite G, orb_true_r. reflexivity.
      * apply andb_true_iff in Hm. destruct Hm as [H0 H]. rewrite H0, (IH s H). reflexivity.
      * apply andb_true_iff in Hm. destruct Hm as [H0 H]. rewrite H0, (IH s H). reflexivity.
Qed.

Lemma filter_var_lastid b f : b_lastid (filter_var b f) = b_lastid b.
Proof.
  unfold filter_var. rewrite (push_fields b f b eq_refl). unfold b_create.
  destruct (existsb _ _); reflexivity.
Qed.
Lemma filter_vars_lastid : forall fs b, b_lastid (fold_left filter_var fs b) = b_lastid b.
Proof. induction fs as [|f fs IH]; intros b; [reflexivity|]. cbn [fold_left]. rewrite IH. apply filter_var_lastid. Qed.
Lemma filter_var_lastgen b f : b_lastgen b <> None -> b_lastgen (filter_var b f) <> None.
Proof.
  intros H. unfold filter_var. rewrite (push_fields b f b eq_refl). unfold b_create.
  destruct (existsb _ _); [|discriminate]. destruct f; [exact H|discriminate].
Qed.
Lemma filter_vars_lastgen : forall fs b, b_lastgen b <> None -> b_lastgen (fold_left filter_var fs b) <> None.
Proof. induction fs as [|f fs IH]; intros b H; [exact H|]. cbn [fold_left]. apply IH, filter_var_lastgen, H. Qed.

Lemma path_roles : forall q j, forallb is_path_step q = true -> roles_from j q = [].
Proof.
  induction q as [|s q IH]; intros j H; [reflexivity|]. cbn [forallb] in H. apply andb_true_iff in H. destruct H as [H1 H2].
  cbn [roles_from]. rewrite IH by exact H2. destruct s; try discriminate; reflexivity.
Qed.

Section FinalFilter.
  Variables (q1 : query) (e : expr) (strict : bool).
  Let q := q1 ++ [SFilter e].
  Hypothesis Hpath : forallb is_path_step q1 = true.
  Hypothesis Hff : fields_fine strict q.
  Let J := List.length q1.
  Definition froles : list role := RP J :: map (RC J) (nub_fields e).

  Let Hnidx : no_index q.
  Proof.
    intros s Hs. unfold q in Hs. apply in_app_or in Hs. destruct Hs as [Hs|[<-|[]]]; [|intros E; discriminate].
    rewrite forallb_forall in Hpath. specialize (Hpath s Hs). destruct s; try discriminate; intros E; discriminate.
  Qed.
  Lemma froles_eq : roles_from 0 q = froles.
  Proof. unfold q. rewrite roles_from_app, path_roles by exact Hpath. cbn [roles_from app Nat.add step_roles]. rewrite app_nil_r. reflexivity. Qed.
  Let Hfields : forall f, In f (fields_in e) -> f <> [] /\ (strict = true -> (List.length f <= 1)%nat).
  Proof. intros f Hf. apply Hff. unfold query_fields, q. apply in_flat_map. exists (SFilter e). split; [apply in_or_app; right; left; reflexivity|exact Hf]. Qed.

  Lemma final_finish : exists b, (b0 <- construct_dfa strict q ;; finish_ctx b0) = Ok (b, 1) /\ binv q q froles (the_cf q) b.
  Proof.
    destruct (construct_ok strict q Hnidx Hff q [] (eq_sym (app_nil_r q))) as (b & Hrun & Hb & _). rewrite froles_eq in Hb.
    destruct (construct_ok strict q Hnidx Hff q1 [SFilter e] eq_refl) as (b1 & Hrun1 & Hb1 & _).
    rewrite path_roles in Hb1 by exact Hpath.
    unfold construct_dfa. rewrite Hrun. cbn [bind]. exists b. split; [|exact Hb].
    unfold q in Hrun. rewrite foldM_app, Hrun1 in Hrun. cbn [bind foldM construct_step] in Hrun.
    assert (Hc : b_create false (b_push b1 SeArray) = (fst (b_create false (b_push b1 SeArray)), false) /\
                 b_lastid (fst (b_create false (b_push b1 SeArray))) = Some 1 /\ b_lastgen (fst (b_create false (b_push b1 SeArray))) = Some true).
    { unfold b_create. cbn [b_push b_check b_pats]. rewrite (bi_check _ _ _ _ _ Hb1), (bi_pats _ _ _ _ _ Hb1). repeat split; reflexivity. }
    destruct Hc as (_ & Hid & Hgen). set (b2 := fst (b_create false (b_push b1 SeArray))) in *.
    destruct (modify_reference strict e) as [[]|]; [|discriminate]. cbn [bind] in Hrun. injection Hrun as Hrun.
    rewrite construct_filter_fold in Hrun.
    2:{ apply forallb_forall. intros f Hf. destruct (Hfields f Hf) as [H _]. destruct f; [contradiction|reflexivity]. }
    assert (Hid' : b_lastid b = Some 1) by (rewrite <- Hrun, filter_vars_lastid; exact Hid).
    assert (Hgen' : b_lastgen b <> None) by (rewrite <- Hrun; apply filter_vars_lastgen; cbn; rewrite Hgen; discriminate).
    unfold finish_ctx. destruct (b_lastgen b) as [g|]; [|contradiction].
    assert (Hk : b_create false b = (b, true)).
    { unfold b_create. replace (existsb (st_eqb (b_st b)) (b_check b)) with true; [reflexivity|]. symmetry. apply existsb_exists.
      exists (b_st b). split; [|apply st_eqb_true; reflexivity]. rewrite (bi_check _ _ _ _ _ Hb), (bi_st _ _ _ _ _ Hb). left.
      cbn [role_st]. f_equal. unfold q, J. rewrite firstn_all2; [reflexivity|]. rewrite app_length. cbn. lia. }
    rewrite Hk. destruct g; cbn [fst]; rewrite Hid'; reflexivity.
  Qed.

  (** Which labels they match. *)
  Let Hcut : firstn (S J) q = q.
  Proof. unfold q, J. apply firstn_all2. rewrite app_length. cbn. lia. Qed.
  Lemma f_stack : stack_of q = stack_of q1 ++ [SeArray].
  Proof. unfold q. apply stack_of_app. Qed.
  Lemma f_elem w : st_match (role_st q (RP J)) w = filtered q1 w.
  Proof.
    cbn [role_st]. rewrite Hcut, f_stack. change (stack_of q1 ++ [SeArray]) with (stack_of q1 ++ stack_of [SAll]). rewrite <- stack_of_app.
    symmetry. apply lsel_none; intros s Hs; apply in_app_or in Hs; (destruct Hs as [Hs|[<-|[]]]; [|try discriminate; reflexivity]);
      rewrite forallb_forall in Hpath; specialize (Hpath s Hs); destruct s; try discriminate; reflexivity.
  Qed.
  Lemma f_field f w : In f (fields_in e) -> st_match (role_st q (RC J f)) w = true -> mentioned q1 e w = true.
  Proof.
    intros Hf Hm. cbn [role_st] in Hm. apply match_array_dots in Hm. destruct Hm as (u & -> & Hm).
    unfold mentioned. apply existsb_exists. exists f. split; [exact Hf|]. cbv zeta.
    rewrite app_length, map_length, Nat.add_sub, skipn_app, skipn_all, Nat.sub_diag, firstn_app, firstn_all, Nat.sub_diag. cbn [skipn firstn app].
    rewrite app_nil_r. destruct (list_eq_dec _ _ _) as [_|C]; [|contradiction]. rewrite <- f_elem. exact Hm.
  Qed.
  Lemma f_field_inv w : mentioned q1 e w = true -> exists f, In f (nub_fields e) /\ st_match (role_st q (RC J f)) w = true.
  Proof.
    unfold mentioned. intros H. apply existsb_exists in H. destruct H as (f & Hf & H). exists f. split; [apply nub_in, Hf|].
    cbv zeta in H. destruct (list_eq_dec _ _ _) as [E|]; [|discriminate]. cbn [andb] in H. cbn [role_st]. apply match_array_dots.
    exists (firstn (List.length w - List.length f) w). split; [rewrite <- E; symmetry; apply firstn_skipn|]. rewrite <- f_elem in H. exact H.
  Qed.
  Lemma elem_last w : filtered q1 w = true -> exists u i, w = u ++ [LIdx i].
  Proof.
    rewrite <- f_elem. cbn [role_st]. rewrite Hcut, f_stack. intros H. apply st_match_last in H. destruct H as (u & l & -> & Hl).
    destruct l as [k|i]; [discriminate|eauto].
  Qed.
  Lemma field_last w : mentioned q1 e w = true -> exists u k, w = u ++ [LKey k].
  Proof.
    intros H. destruct (f_field_inv w H) as (f & Hf & Hm). apply nub_in in Hf. destruct (Hfields f Hf) as [Hf0 _].
    cbn [role_st] in Hm. apply match_array_dots in Hm. destruct Hm as (u & -> & _). destruct (keys_last u f Hf0) as (w' & ->). eauto.
  Qed.

  (** The stop of a state. *)
  Lemma f_stop w : last_st (map (role_st q) froles) w 1 =
    if filtered q1 w then 1 else if mentioned q1 e w then last_st (map (role_st q) froles) w 1 else 0.
  Proof.
    destruct (last_st_spec (map (role_st q) froles) w 1 ltac:(lia)) as [[E H]|(i & st & Hi & E & Hm & Hlater)].
    - rewrite E. assert (Hel : filtered q1 w = false) by (rewrite <- f_elem; apply H; left; reflexivity).
      rewrite Hel. destruct (mentioned q1 e w); reflexivity.
    - destruct (filtered q1 w) eqn:Hel.
      + destruct i as [|i]; [exact E|]. exfalso. cbn [froles map nth_error] in Hi. rewrite map_map, nth_error_map in Hi.
        destruct (nth_error (nub_fields e) i) as [f|] eqn:Ef; [|discriminate]. injection Hi as <-.
        apply nth_error_In, nub_in in Ef. pose proof (f_field f w Ef Hm) as Hme. destruct (field_last w Hme) as (u & k & E1).
        destruct (elem_last w Hel) as (u' & i' & E2). rewrite E1 in E2. apply app_inj_tail in E2. destruct E2. discriminate.
      + destruct i as [|i].
        * exfalso. cbn in Hi. injection Hi as <-. rewrite f_elem in Hm. congruence.
        * cbn [froles map nth_error] in Hi. rewrite map_map, nth_error_map in Hi.
          destruct (nth_error (nub_fields e) i) as [f|] eqn:Ef; [|discriminate]. injection Hi as <-.
          apply nth_error_In, nub_in in Ef. rewrite (f_field f w Ef Hm). reflexivity.
  Qed.
  Lemma f_stop_field w : filtered q1 w = false -> mentioned q1 e w = true -> exists i, last_st (map (role_st q) froles) w 1 = 2 + Z.of_nat i.
  Proof.
    intros Hel Hme. destruct (last_st_spec (map (role_st q) froles) w 1 ltac:(lia)) as [[E H]|(i & st & Hi & E & Hm & _)].
    - exfalso. destruct (f_field_inv w Hme) as (f & Hf & Hm). rewrite H in Hm; [discriminate|].
      unfold froles. cbn [map]. right. rewrite map_map. apply in_map_iff. eauto.
    - destruct i as [|i]; [|exists i; rewrite E; lia]. exfalso. cbn in Hi. injection Hi as <-. rewrite f_elem in Hm. congruence.
  Qed.

  Record fbuilt (d : dfa) (x : qctx) (st : list label -> Z) : Prop := {
    fb_ok : dfa_ok d;
    fb_start : st [] = 1;
    fb_valid : forall w, valid_state d (st w);
    fb_next : forall w l, dfaNextStateByStr d (st w) (linput l) = Ok (st (w ++ [l]));
    fb_accept : forall w, getDFAAcceptType d (st w) =
                  Ok (if filtered q1 w then DFA_OUTPUT_CANDIDATE else if mentioned q1 e w then DFA_CONDITION else 0);
    fb_range : forall w, getDFAArrayIndex d (st w) = Ok (0, 0);
    fb_preds : x_preds x = []
  }.

  Hypothesis Hnames : names_fit q = true.
  Theorem final_built : exists d x st, build strict q = Ok (d, x) /\ fbuilt d x st.
  Proof.
    destruct final_finish as (b & Hfin & Hb).
    unfold build. destruct (construct_dfa strict q) as [b0|?]; [|discriminate]. cbn [bind] in Hfin |- *.
    rewrite Hfin. cbn [bind].
    set (sts := map (role_st q) froles). set (out := 1).
    pose proof (bi_nd _ _ _ _ _ Hb) as Hnd.
    assert (Hsmall : codes_fit (b_names b) sts).
    { pose proof (NoDup_incl_length Hnd (bi_names _ _ _ _ _ Hb)) as Hle. unfold names_fit in Hnames.
      apply orb_true_iff in Hnames. destruct Hnames as [H|H]; [left; unfold zlen in *; lia|right].
      apply andb_true_iff in H. destruct H as [H H']. split; [|unfold zlen in *; lia].
      apply Forall_forall. intros s Hs. unfold sts in Hs. apply in_map_iff in Hs. destruct Hs as (r & <- & Hr).
      apply role_no_wild, negb_true_iff, H. }
    assert (Hsts : sts <> []) by discriminate.
    assert (Hstne : Forall (fun st => st <> []) sts).
    { apply Forall_forall. intros s Hs. unfold sts in Hs. apply in_map_iff in Hs. destruct Hs as (r & <- & Hr).
      intros E. apply (f_equal (@List.length se)) in E. destruct Hr as [<-|Hr]; [|apply in_map_iff in Hr; destruct Hr as (f & <- & _)];
        cbn [role_st] in E; rewrite Hcut, f_stack, ?app_length in E; cbn in E; lia. }
    assert (Hin : Forall (fun st => incl (st_names st) (b_names b)) sts).
    { apply Forall_forall. intros s Hs. unfold sts in Hs. apply in_map_iff in Hs. destruct Hs as (r & <- & Hr).
      pose proof (bi_in _ _ _ _ _ Hb) as H. rewrite Forall_forall in H. apply H, Hr. }
    assert (Hpats : b_pats b = map (flat_map (items_of (b_names b))) sts).
    { unfold sts. rewrite map_map. apply (bi_pats _ _ _ _ _ Hb). }
    assert (Hrange : zlen (b_range b) = zlen sts).
    { rewrite (bi_range _ _ _ _ _ Hb). unfold sts, zlen. rewrite !map_length. reflexivity. }
    assert (Htrees : zlen (b_trees b) = zlen sts).
    { rewrite (bi_trees _ _ _ _ _ Hb). unfold sts, zlen. rewrite !map_length. reflexivity. }
    destruct (compile_main b sts Hsmall Hsts Hstne Hin Hpats Hrange Htrees) as (m & T & Hc & ds & Hds & Hm).
    rewrite Hc. cbn [bind]. rewrite (create_query_dfa_ok b out sts Hnd Hsmall Hstne Hin Hpats Hrange m T ds Hm). cbn [bind].
    rewrite (create_context_ok b out sts Hnd Hsmall Hstne Hin Hpats Htrees m T ds Hm). cbn [bind].
    set (d := the_dfa b out m T). set (x := the_ctx b out m T).
    exists d, x, (stt b T). split; [reflexivity|].
    pose proof (stt_range b m T ds Hm) as Hst.
    pose proof (stt_stop b sts Hsmall Hstne Hin Hpats m T ds Hm) as Hstop.
    pose proof (mo_two _ _ _ _ _ Hm) as H2.
    assert (Hrng : forall s, rng_of b s = (0, 0)).
    { intros s. unfold rng_of. rewrite (bi_range _ _ _ _ _ Hb).
      replace (map (role_rng q) froles) with (repeat (0, 0) (List.length froles)).
      - apply nth_repeat.
      - unfold froles. cbn [map List.length repeat role_rng]. f_equal. rewrite map_map, map_length. cbn [role_rng].
        induction (nub_fields e) as [|f fs IH]; [reflexivity|]. cbn. f_equal. exact IH. }
    assert (Harr : forall w, filtered q1 w = false -> mentioned q1 e w = true -> arr_target m T (stt b T w) = false).
    { intros w Hel Hme. destruct (arr_target m T (stt b T w)) eqn:Ea; [|reflexivity]. exfalso.
      destruct (f_stop_field w Hel Hme) as (i & Ei). fold sts in Ei.
      assert (stt b T w <> 0) as H0.
      { intros E0. pose proof (Hstop w) as A. rewrite E0, (mo_stop0 _ _ _ _ _ Hm), Ei in A. clear - A. lia. }
      destruct (arr_target_inv b Hnd m T ds Hm _ Ea H0) as (u & Eu).
      pose proof (Hstop (u ++ [LIdx 0])) as A. rewrite Eu, Hstop, Ei in A. unfold sts in A. rewrite f_stop in A.
      destruct (filtered q1 (u ++ [LIdx 0])) eqn:E1; [clear - A; lia|].
      destruct (mentioned q1 e (u ++ [LIdx 0])) eqn:E2; [|clear - A; lia].
      destruct (field_last _ E2) as (w' & k & E). apply app_inj_tail in E. destruct E. discriminate. }
    assert (Hinfo : forall w, st_accept (info_of b out m T (stt b T w)) =
                                (if filtered q1 w then DFA_OUTPUT_CANDIDATE else if mentioned q1 e w then DFA_CONDITION else 0) /\
                              Builder.st_range (info_of b out m T (stt b T w)) = (0, 0)).
    { intros w. unfold info_of. rewrite Hrng, Hstop. unfold sts. rewrite f_stop. destruct (filtered q1 w) eqn:E1; [split; reflexivity|].
      destruct (mentioned q1 e w) eqn:E2; [|split; reflexivity]. destruct (f_stop_field w E1 E2) as (i & ->).
      replace (2 + Z.of_nat i =? 0) with false by lia. unfold out. replace (2 + Z.of_nat i =? 1) with false by lia. rewrite (Harr w E1 E2).
      split; reflexivity. }
    assert (Hinfo0 : info_of b out m T 0 = mkSt 0 0 (0, 0)).
    { unfold info_of. rewrite (mo_stop0 _ _ _ _ _ Hm). reflexivity. }
    assert (Honto : forall s, 1 <= s < m_states m -> exists w, stt b T w = s).
    { intros s Hs. apply (st_onto b Hnd m T ds Hm s Hs). }
    constructor.
    - apply (the_dfa_ok b out m T ds Hm).
    - reflexivity.
    - intros w. unfold valid_state. unfold d. rewrite (nstates_the b out m T ds Hm). apply Hst.
    - intros w l. apply (next_label b out sts Hnd Hsmall Hin Hpats m T ds Hm).
    - intros w. unfold d. rewrite (the_accept b out m T (stt b T w)) by apply Hst. rewrite (proj1 (Hinfo w)). reflexivity.
    - intros w. unfold d. rewrite (the_range b out m T (stt b T w)) by apply Hst. rewrite (proj2 (Hinfo w)). reflexivity.
    - destruct (x_preds x) as [|s l] eqn:Ex; [reflexivity|]. exfalso.
      assert (Hs : In s (x_preds x)) by (rewrite Ex; left; reflexivity). unfold x in Hs. cbn [the_ctx x_preds] in Hs.
      rewrite filter_In, in_state_list in Hs. destruct Hs as (Hs & Hc'). apply andb_true_iff in Hc'. destruct Hc' as [C1 C2].
      assert (s <> 0) as H0. { intros ->. rewrite Hinfo0 in C2. discriminate. }
      destruct (Honto s ltac:(lia)) as (w & <-). rewrite (proj1 (Hinfo w)) in C2. destruct (filtered q1 w); [discriminate|]. destruct (mentioned q1 e w); discriminate.
  Qed.
End FinalFilter.

(** * The run *)
Section FRun.
  Variables (q1 : query) (e : expr) (d : dfa) (x : qctx) (st : list label -> Z).
  Hypothesis Hfb : fbuilt q1 e d x st.

  Lemma f_in_range w i m : in_range d (mkElt (st w) i m) = Ok true.
  Proof. unfold in_range. cbn [q_state]. rewrite (fb_range _ _ _ _ _ Hfb). reflexivity. Qed.
  Lemma f_nx w i l : nx d (st w) i (linput l) = st (w ++ [l]).
  Proof. unfold nx, next_elt. rewrite f_in_range. cbn [bind q_state]. rewrite (fb_next _ _ _ _ _ Hfb). reflexivity. Qed.
  Lemma f_mt w i : mt d (st w) i = if filtered q1 w then DFA_OUTPUT_CANDIDATE else if mentioned q1 e w then DFA_CONDITION else 0.
  Proof.
    unfold mt, getMatchedType. cbn [q_state]. rewrite (fb_accept _ _ _ _ _ Hfb). cbn [bind]. rewrite f_in_range. cbn [bind].
    destruct (filtered q1 w); [reflexivity|]. destruct (mentioned q1 e w); reflexivity.
  Qed.
  Lemma f_idx w i : st (w ++ [LIdx i]) = st (w ++ [LIdx 0]).
  Proof. pose proof (fb_next _ _ _ _ _ Hfb w (LIdx i)) as H1. pose proof (fb_next _ _ _ _ _ Hfb w (LIdx 0)) as H2. cbn [linput] in *. congruence. Qed.
  Hypothesis Hdisj : forall w, filtered q1 w = true -> mentioned q1 e w = false.

  Theorem texts_final :
    (forall v ar w i, map snd (t_val d ar (st w) i v) = final_val (filtered q1) (mentioned q1 e) w v) /\
    (forall ms w i, map snd (t_ms d (st w) i ms) = final_ms (filtered q1) (mentioned q1 e) w ms) /\
    (forall l w i, map snd (t_es d (st (w ++ [LIdx 0])) (Z.of_nat i) l) = final_es (filtered q1) (mentioned q1 e) w i l).
  Proof.
    apply json_all_ind.
    - intros s ar w i. cbn [t_val final_val]. unfold t_prim. rewrite f_mt. destruct (filtered q1 w); [reflexivity|]. destruct (mentioned q1 e w); reflexivity.
    - intros s ar w i. cbn [t_val final_val]. unfold t_prim. rewrite f_mt. destruct (filtered q1 w); [reflexivity|]. destruct (mentioned q1 e w); reflexivity.
    - intros ws ms IH ar w i. rewrite t_val_obj. unfold t_open_obj, t_close, t_close_elem. rewrite f_mt, !map_app.
      specialize (IH w i). unfold tuple in *. rewrite IH. cbn [final_val]. pose proof (Hdisj w) as Hd.
      destruct (filtered q1 w).
      + rewrite (Hd eq_refl), andb_false_r. reflexivity.
      + destruct (mentioned q1 e w); rewrite andb_false_r; reflexivity.
    - intros ws l IH ar w i. rewrite t_val_arr. unfold t_open_arr, t_close. rewrite f_mt, !map_app.
      change None with (linput (LIdx 0)). rewrite f_nx. specialize (IH w O). cbn [Z.of_nat] in IH. unfold tuple in *. rewrite IH. cbn [final_val]. pose proof (Hdisj w) as Hd.
      destruct (filtered q1 w).
      + rewrite (Hd eq_refl). reflexivity.
      + destruct (mentioned q1 e w); reflexivity.
    - reflexivity.
    - intros m k v IHv ms IHm w i. rewrite t_ms_cons. change (Some k) with (linput (LKey k)). rewrite f_nx, map_app, IHv, IHm. reflexivity.
    - reflexivity.
    - intros wb v IHv wa l IHl w i. rewrite t_es_cons, map_app. rewrite <- (f_idx w i), IHv, (f_idx w i).
      replace (Z.of_nat i + 1) with (Z.of_nat (S i)) by lia. rewrite IHl. reflexivity.
  Qed.
End FRun.

(** The texts are those of elements and of mentioned fields, or empty. *)
Section FTexts.
  Ltac zl := unfold zlen, bytes in *; rewrite ?app_length; cbn [List.length]; lia.
  Variables elem field : list label -> bool.
  Hypothesis Hdisj : forall w, elem w = true -> field w = false.
  Definition texts_of (ns : list (path * json)) (l : list bytes) : Prop :=
    zlen l <= zlen ns /\
    Forall (fun t => t = [] \/ exists n, In n ns /\ t = text (snd n) /\ (elem (labels (fst n)) = true \/ field (labels (fst n)) = true)) l.
  Lemma texts_app a b k l : texts_of a k -> texts_of b l -> texts_of (a ++ b) (k ++ l).
  Proof.
    intros [H1 H2] [H3 H4]. split; [zl|]. apply Forall_app. split.
    - eapply Forall_impl; [|exact H2]. cbn. intros t [->|(n & Hn & H)]; [left; reflexivity|right; exists n; split; [apply in_or_app; left; exact Hn|exact H]].
    - eapply Forall_impl; [|exact H4]. cbn. intros t [->|(n & Hn & H)]; [left; reflexivity|right; exists n; split; [apply in_or_app; right; exact Hn|exact H]].
  Qed.
  Lemma texts_nil ns : texts_of ns [].
  Proof. split; [rewrite zlen_nil; apply zlen_nonneg|constructor]. Qed.
  Lemma texts_around p v ns l : texts_of ns l ->
    texts_of (ns ++ [(p, v)]) ((if field (labels p) then [[]] else []) ++ l ++ (if elem (labels p) then [text v] else [])).
  Proof.
    intros [H1 H2].
    assert (H3 : Forall (fun t => t = [] \/ exists n, In n (ns ++ [(p, v)]) /\ t = text (snd n) /\ (elem (labels (fst n)) = true \/ field (labels (fst n)) = true)) l).
    { eapply Forall_impl; [|exact H2]. cbn. intros t [->|(n & Hn & H)]; [left; reflexivity|right; exists n; split; [apply in_or_app; left; exact Hn|exact H]]. }
    pose proof (Hdisj (labels p)) as Hd. destruct (elem (labels p)) eqn:Ee.
    - rewrite (Hd eq_refl). cbn [app]. split; [zl|]. apply Forall_app. split; [exact H3|].
      constructor; [|constructor]. right. exists (p, v). split; [apply in_or_app; right; left; reflexivity|]. cbn [fst snd]. rewrite Ee. auto.
    - rewrite app_nil_r. destruct (field (labels p)); cbn [app].
      + split; [zl|]. constructor; [left; reflexivity|exact H3].
      + split; [zl|exact H3].
  Qed.
  Lemma texts_prim p v : texts_of [(p, v)] (if elem (labels p) || field (labels p) then [text v] else []).
  Proof.
    destruct (elem (labels p) || field (labels p)) eqn:E; [|apply texts_nil]. split; [zl|].
    constructor; [|constructor]. right. exists (p, v). split; [left; reflexivity|]. split; [reflexivity|]. apply orb_true_iff, E.
  Qed.
  Lemma final_from :
    (forall v p, texts_of (nodes p v) (final_val elem field (labels p) v)) /\
    (forall ms p, texts_of (nodes_ms p ms) (final_ms elem field (labels p) ms)) /\
    (forall l p i, texts_of (nodes_es p i l) (final_es elem field (labels p) i l)).
  Proof.
    apply json_all_ind.
    - intros s p. apply texts_prim.
    - intros s p. apply texts_prim.
    - intros ws ms IH p. cbn [nodes final_val]. apply texts_around, IH.
    - intros ws l IH p. cbn [nodes final_val]. apply texts_around, IH.
    - intros p. apply texts_nil.
    - intros m k v IHv ms IHm p. cbn [nodes_ms final_ms]. apply texts_app; [|apply IHm]. rewrite <- (labels_snoc p (LKey k) v). apply IHv.
    - intros p i. apply texts_nil.
    - intros wb v IHv wa l IHl p i. cbn [nodes_es final_es]. apply texts_app; [|apply IHl]. rewrite <- (labels_snoc p (LIdx i) v). apply IHv.
  Qed.
End FTexts.

Lemma filtered_lsel : forall q e w, filtered q w = lsel (q ++ [SFilter e]) w.
Proof.
  assert (G : forall e w q, lsel (q ++ [SAll]) w = lsel (q ++ [SFilter e]) w).
  { intros e. induction w as [|l w IH]; intros q; [destruct q; reflexivity|].
    destruct q as [|s q]; [reflexivity|]. pose proof (IH q) as H1. pose proof (IH (s :: q)) as H2. cbn [app] in *. cbn [lsel].
    destruct s; rewrite ?H1, ?H2; reflexivity. }
  intros q e w. apply G.
Qed.
Lemma mentioned_tested q e w : mentioned q e w = true -> tested (q ++ [SFilter e]) w.
Proof.
  unfold mentioned. intros H. apply existsb_exists in H. destruct H as (f & Hf & H). cbv zeta in H.
  destruct (list_eq_dec _ _ _) as [E|]; [|discriminate]. cbn [andb] in H.
  exists (List.length q), e, f, (firstn (List.length w - List.length f) w). split; [apply nth_pre|]. split; [exact Hf|].
  split; [rewrite <- E; symmetry; apply firstn_skipn|]. rewrite firstn_all2 by (rewrite app_length; cbn; lia). rewrite <- filtered_lsel. exact H.
Qed.

(** What the serial run returns. *)
Theorem final_answer N strict q e j dc : let q' := q ++ [SFilter e] in
  forallb is_path_step q = true -> fields_ok q' = true -> (strict = true -> single_names q') -> names_fit q' = true ->
  good_doc dc -> limits q' (d_val dc) -> j_major_null j = true ->
  exists p, createPathProcessor strict q' = Ok p /\ serialRun N j p (doc_text dc) = Ok (Some (final_text q e (d_val dc))).
Proof.
  intros q' Hpath Hfields Hsingle Hnames [Hwf Hsafe Hbl Hsize] Hlim Hj.
  assert (Hff : fields_fine strict q').
  { intros f Hf. unfold fields_ok in Hfields. rewrite forallb_forall in Hfields. specialize (Hfields f Hf). apply andb_true_iff in Hfields.
    split; [intros ->; destruct Hfields; discriminate|]. intros Hs. apply (Hsingle Hs f Hf). }
  destruct (final_built q e strict Hpath Hff Hnames) as (d & x & st & Hb & Hbt). exists (mkProc d x).
  unfold createPathProcessor. fold q' in Hb. rewrite Hb. split; [reflexivity|].
  assert (Hdisj : forall w, filtered q w = true -> mentioned q e w = false).
  { intros w Hw. destruct (mentioned q e w) eqn:E; [|reflexivity]. exfalso.
    destruct (elem_last q e Hpath w Hw) as (u & i & E1). destruct (field_last q e strict Hpath Hff w E) as (u' & k & E2).
    rewrite E1 in E2. apply app_inj_tail in E2. destruct E2. discriminate. }
  assert (Hdt : doc_text dc = d_pre dc ++ text (d_val dc) ++ d_post dc) by reflexivity.
  assert (Htxt : 0 < zlen (text (d_val dc)) /\ zlen (text (d_val dc)) <= zlen (doc_text dc)).
  { rewrite Hdt, !zlen_app. pose proof (zlen_nonneg (d_pre dc)). pose proof (zlen_nonneg (d_post dc)).
    pose proof (text_pos (d_val dc) (wf_doc_val dc Hwf)). lia. }
  set (v := d_val dc) in *. set (ts := t_val d false 1 0 v).
  assert (Hts : map snd ts = final_text q e v).
  { pose proof (proj1 (texts_final q e d x st Hbt Hdisj) v false [] 0) as H. rewrite (fb_start _ _ _ _ _ Hbt) in H. exact H. }
  destruct (proj1 (final_from (filtered q) (mentioned q e) Hdisj) v []) as [Hcount Hfrom]. cbn [labels map] in Hcount, Hfrom.
  fold (final_text q e v) in Hcount, Hfrom.
  assert (Htl : Forall (fun t => zlen t <= 998) (map snd ts) /\ zlen ts <= 800000).
  { pose proof (lim_nodes _ _ Hlim) as Hn. split.
    - rewrite Hts. eapply Forall_impl; [|exact Hfrom]. cbn. intros t [->|([p u] & Ht & -> & Hor)]; [rewrite zlen_nil; lia|].
      cbn [fst snd] in *. apply (lim_text _ _ Hlim p u Ht). destruct Hor as [H|H]; [left|right; apply mentioned_tested, H].
      unfold q'. rewrite <- filtered_lsel. exact H.
    - assert (Hl : zlen ts = zlen (final_text q e v)) by (rewrite <- Hts; unfold zlen; rewrite map_length; reflexivity).
      rewrite Hl. clear - Hn Hcount. lia. }
  destruct Htl as [Ht1 Ht2].
  assert (Hlead : lead_blanks (d_pre dc) = O) by (apply lead_zero, Hbl).
  destruct (exec_doc d dc init_core (fb_ok _ _ _ _ _ Hbt) Hwf Hsafe Hlead eq_refl eq_refl ltac:(discriminate)) as (ms & _ & _ & He).
  { pose proof (fb_valid _ _ _ _ _ Hbt []) as H. rewrite (fb_start _ _ _ _ _ Hbt) in H. exact H. }
  { rewrite (proj1 depth_need). apply (lim_depth _ _ Hlim). }
  { cbn [init_core c_tl c_cur q_state q_count]. fold v. fold ts. split.
    - rewrite zlen_nil. unfold MAX_TUPLE_LIST, tuple, bytes in *. clear - Ht2. lia.
    - apply Forall_forall. intros t Ht. rewrite Forall_forall in Ht1. apply Ht1, in_map, Ht. }
  cbn [init_core c_tl c_cur q_state q_count app] in He. fold v in He. fold ts in He.
  assert (Hinit : initPredicateFilter x = Ok (mkF (repeat None MAX_PREDICATE_STATE) [] [] [])).
  { unfold initPredicateFilter. rewrite (fb_preds _ _ _ _ _ Hbt). reflexivity. }
  assert (Hout : generateFinalOutput N x (mkF (repeat None MAX_PREDICATE_STATE) [] [] []) ts
                 = Ok (mkF (repeat None MAX_PREDICATE_STATE) [] [] (final_text q e v))).
  { unfold generateFinalOutput. change (no_predicates _) with true. cbv iota. rewrite add_all; [cbn [bind f_output app]; rewrite Hts; reflexivity| |exact Ht1].
    cbn [f_output]. rewrite zlen_nil. unfold MAX_OUTPUT. assert (Hl : zlen (map snd ts) = zlen ts) by (unfold zlen; rewrite map_length; reflexivity).
    rewrite Hl. unfold tuple, bytes in *. clear - Ht2. lia. }
  unfold serialRun.
  assert (Hpr : exists ci, serialPartialRun N j (mkProc d x) (doc_text dc) init_context = Ok (final_text q e v, ci) /\ sc_context ci = true).
  { unfold serialPartialRun. cbn [init_context sc_context sc_core andb p_dfa p_ctx]. rewrite He. cbn [bind c_tl]. rewrite Hinit. cbn [bind].
    rewrite Hout. cbn [bind f_output]. eexists. split; reflexivity. }
  destruct Hpr as (ci & Hr & Hc). eapply run_whole; eauto; [unfold MAX_EXTENSION; lia|]. unfold MEMORY_FOOTPRINT. clear - Hsize Htxt. lia.
Qed.
