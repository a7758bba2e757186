(** The automaton and the filter context that the compiler produces for a
    supported query, described by the labels of document paths. *)
From Verif Require Import Base Spec QueryClass Regex RegexProof Mixer MixerProof Compress
                          Dfa Stream TreeSem Builder Eval Filter AutoProof BuilderProof Roles.
Open Scope Z_scope.

Definition is_out (q : query) (r : role) : bool :=
  match r with RO => true | RS j => Nat.eqb (S j) (List.length q) | _ => false end.

Definition accept_of (q : query) (o : option role) : Z :=
  match o with
  | None => 0
  | Some r =>
      if is_out q r then DFA_OUTPUT_CANDIDATE
      else match r with RP _ => DFA_PREDICATE | RC _ _ => DFA_CONDITION | _ => 0 end
  end.
Definition range_of (q : query) (o : option role) : Z * Z :=
  match o with None => (0, 0) | Some r => role_rng q r end.

Record compiled (q : query) (d : dfa) (x : qctx) (st : list label -> Z) : Prop := {
  cp_ok : dfa_ok d;
  cp_start : st [] = 1;
  cp_valid : forall w, valid_state d (st w);
  cp_next : forall w l, dfaNextStateByStr d (st w) (linput l) = Ok (st (w ++ [l]));
  cp_accept : forall w, getDFAAcceptType d (st w) = Ok (accept_of q (cls q w));
  cp_range : forall w, getDFAArrayIndex d (st w) = Ok (range_of q (cls q w));
  cp_next0 : forall inp, dfaNextStateByStr d 0 inp = Ok 0;
  cp_accept0 : getDFAAcceptType d 0 = Ok 0;
  cp_range0 : getDFAArrayIndex d 0 = Ok (0, 0);
  cp_cls : forall w w', st w = st w' -> cls q w = cls q w';
  cp_tree : forall w r, cls q w = Some r -> accept_of q (Some r) <> 0 ->
              zread (x_subtrees x) (st w) = Ok (role_tree q r);
  cp_preds : forall s, In s (x_preds x) <-> exists w j, st w = s /\ cls q w = Some (RP j);
  cp_map : forall w j, cls q w = Some (RP j) ->
              exists ss, zread (x_mapping x) (st w) = Ok ss /\
                mapM (init_condition x) ss = Ok (map (fun f => (join f, None)) (the_cf q j))
}.

Section Build.
  Variable q : query.
  Variable strict : bool.
  Hypothesis Hrbd : restricted_before_desc false q = true.
  Hypothesis Hslice : forallb slice_ok q = true.
  Hypothesis Hend : end_ok q = true.
  Hypothesis Hff : fields_fine strict q.

  Let Hne : forall f, In f (query_fields q) -> f <> [].
  Proof. intros f Hf. apply Hff, Hf. Qed.
  Let Hnidx : no_index q := rbd_no_index _ _ Hrbd.

  Lemma q_nonempty : q <> [].
  Proof. intros E. rewrite E in Hend. discriminate. Qed.

  (** The last role is the output. *)
  Lemma last_role : exists rs r, roles q = rs ++ [r] /\ is_out q r = true.
  Proof.
    unfold roles. destruct (ends_in_slice q) eqn:Es.
    - unfold ends_in_slice in Es. destruct (last_step q) as [s|] eqn:El; [|discriminate].
      destruct (last_step_some _ _ El) as (q' & Hq). destruct s; try discriminate.
      exists (roles_from 0 q'), (RS (List.length q')). rewrite app_nil_r. split.
      + rewrite Hq at 1. rewrite roles_from_app. reflexivity.
      + unfold is_out. apply Nat.eqb_eq. rewrite Hq, app_length. cbn. lia.
    - eexists _, RO. split; [reflexivity|reflexivity].
  Qed.

  Lemma out_unique r r' : In r (roles q) -> In r' (roles q) -> is_out q r = true -> is_out q r' = true -> r = r'.
  Proof.
    intros H H' E E'. apply role_in in H. apply role_in in H'.
    assert (Haux : forall j lo hi, nth_error q j = Some (SSlice lo hi) -> Nat.eqb (S j) (List.length q) = true ->
              ends_in_slice q = true).
    { intros j lo hi Hj Ej. apply Nat.eqb_eq in Ej. unfold ends_in_slice.
      destruct (exists_last q_nonempty) as (q' & s & Hq). rewrite Hq, app_length in Ej. cbn in Ej.
      rewrite Hq in Hj |- *. replace j with (List.length q') in Hj by lia. rewrite nth_pre in Hj. injection Hj as ->.
      rewrite last_step_snoc. reflexivity. }
    destruct r as [j|j|j f|], r' as [j'|j'|j' f'|]; cbn [is_out] in E, E'; try discriminate.
    - apply Nat.eqb_eq in E. apply Nat.eqb_eq in E'. f_equal. lia.
    - destruct H as (lo & hi & H). rewrite (Haux _ _ _ H E) in H'. discriminate.
    - destruct H' as (lo & hi & H'). rewrite (Haux _ _ _ H' E') in H. discriminate.
    - reflexivity.
  Qed.

  Lemma out_index i r : nth_error (roles q) i = Some r ->
    (1 + Z.of_nat i =? zlen (roles q)) = is_out q r.
  Proof.
    intros Hi. destruct last_role as (rs & r0 & Er & E0). pose proof (roles_nodup q) as Hnd.
    assert (Hl : nth_error (roles q) (List.length rs) = Some r0) by (rewrite Er, nth_pre; reflexivity).
    assert (Hz : zlen (roles q) = 1 + Z.of_nat (List.length rs)).
    { rewrite Er, zlen_app, zlen_cons, zlen_nil. unfold zlen. lia. }
    destruct (is_out q r) eqn:E.
    - assert (r = r0) by (apply out_unique; auto; eapply nth_error_In; eauto). subst r0.
      assert (i = List.length rs).
      { eapply (proj1 (NoDup_nth_error _) Hnd); [apply nth_error_Some; congruence|congruence]. }
      lia.
    - apply Z.eqb_neq. intros Ez. assert (i = List.length rs) by lia. subst i. congruence.
  Qed.

  Lemma role_nonempty r : In r (roles q) -> role_st q r <> [].
  Proof.
    intros Hr. apply role_in in Hr.
    assert (Haux : forall j s, nth_error q j = Some s -> stack_of (firstn (S j) q) <> []).
    { intros j s Hj E. pose proof (pre_len q Hrbd Hend j s Hj) as L. unfold pre in L. rewrite E in L. discriminate. }
    destruct r as [j|j|j f|]; cbn [role_st].
    - destruct Hr as (lo & hi & Hr). eapply Haux; eauto.
    - destruct Hr as (e & Hr). eapply Haux; eauto.
    - destruct Hr as (e & Hr & _). intros E. apply app_eq_nil in E. destruct E as [E _]. eapply Haux; eauto.
    - intros E. apply (f_equal (@List.length se)) in E. rewrite stack_len in E by exact Hnidx.
      destruct q; [discriminate|]. discriminate.
  Qed.

  Lemma stack_no_wild q0 : existsb is_wild q0 = false -> no_wild (stack_of q0).
  Proof.
    intros H s Hs. unfold stack_of in Hs. apply in_flat_map in Hs. destruct Hs as (t & Ht & Hs).
    assert (Hw : is_wild t = false).
    { destruct (is_wild t) eqn:E; [|reflexivity]. assert (existsb is_wild q0 = true) by (apply existsb_exists; eauto). congruence. }
    destruct t; try discriminate; cbn [se_of In] in Hs; try contradiction; destruct Hs as [<-|[]]; reflexivity.
  Qed.
  Lemma role_no_wild r : existsb is_wild q = false -> no_wild (role_st q r).
  Proof.
    intros H. assert (Hn : forall n, existsb is_wild (firstn n q) = false).
    { intros n. rewrite <- (firstn_skipn n q), existsb_app in H. apply orb_false_iff in H. apply H. }
    destruct r as [j|j|j f|]; cbn [role_st]; [apply stack_no_wild; auto|apply stack_no_wild; auto| |apply stack_no_wild; auto].
    intros s Hs. apply in_app_or in Hs. destruct Hs as [Hs|Hs]; [exact (stack_no_wild _ (Hn (S j)) s Hs)|].
    apply in_map_iff in Hs. destruct Hs as (k & <- & _). reflexivity.
  Qed.

  (** Roles without a range, and with one. *)
  Lemma has_rng_role r : In r (roles q) -> has_rng (role_rng q r) = match r with RS _ => true | _ => false end.
  Proof.
    intros Hr. apply role_in in Hr. destruct r as [j|j|j f|]; try reflexivity.
    destruct Hr as (lo & hi & Hr). cbn [role_rng]. rewrite Hr. rewrite forallb_forall in Hslice.
    pose proof (Hslice _ (nth_error_In _ _ Hr)) as Hs. unfold has_rng, bounds. cbn [fst snd].
    destruct lo as [lo|]; [|reflexivity]. destruct hi as [hi|]; [|cbn; rewrite orb_true_r; reflexivity].
    cbn in Hs. destruct (Z.eqb_spec lo 0) as [->|]; [|reflexivity].
    destruct (Z.eqb_spec hi 0) as [->|]; [discriminate|reflexivity].
  Qed.

  Lemma role_last_label r w : In r (roles q) -> st_match (role_st q r) w = true ->
    match r with
    | RP _ | RS _ => exists w' i, w = w' ++ [LIdx i]
    | RC _ _ => exists w' k, w = w' ++ [LKey k]
    | RO => True
    end.
  Proof.
    intros Hr Hm. apply role_in in Hr. destruct r as [j|j|j f|]; cbn [role_st] in Hm; [| | |exact I].
    - destruct Hr as (lo & hi & Hr). eapply (match_pre q Hrbd Hend j _ w Hr eq_refl Hm).
    - destruct Hr as (e & Hr). eapply (match_pre q Hrbd Hend j _ w Hr eq_refl Hm).
    - destruct Hr as (e & Hr & Hf). apply (match_cond q Hrbd j e f w Hr) in Hm. destruct Hm as (u & -> & _).
      destruct (keys_last u f (Hne f (field_in _ _ _ _ Hr Hf))) as (w' & ->). eauto.
  Qed.

  Hypothesis Hnames : names_fit q = true.

  Theorem build_ok : exists d x st, build strict q = Ok (d, x) /\ compiled q d x st.
  Proof.
    destruct (finish_ok strict q Hnidx Hff Hend) as (b & Hfin & Hb).
    unfold build. destruct (construct_dfa strict q) as [b0|?]; [|discriminate]. cbn [bind] in Hfin |- *.
    rewrite Hfin. cbn [bind].
    set (sts := map (role_st q) (roles q)). set (out := zlen (roles q)).
    pose proof (bi_nd _ _ _ _ _ Hb) as Hnd.
    assert (Hsmall : codes_fit (b_names b) sts).
    { pose proof (NoDup_incl_length Hnd (bi_names _ _ _ _ _ Hb)) as Hle. unfold names_fit in Hnames.
      apply orb_true_iff in Hnames. destruct Hnames as [H|H]; [left; unfold zlen in *; lia|right].
      apply andb_true_iff in H. destruct H as [H H']. split; [|unfold zlen in *; lia].
      apply Forall_forall. intros s Hs. unfold sts in Hs. apply in_map_iff in Hs. destruct Hs as (r & <- & Hr).
      apply role_no_wild, negb_true_iff, H. }
    assert (Hsts : sts <> []).
    { unfold sts. destruct last_role as (rs & r & E & _). rewrite E, map_app. cbn. intros E0.
      apply app_eq_nil in E0. destruct E0. discriminate. }
    assert (Hstne : Forall (fun st => st <> []) sts).
    { apply Forall_forall. intros s Hs. unfold sts in Hs. apply in_map_iff in Hs. destruct Hs as (r & <- & Hr).
      apply role_nonempty, Hr. }
    assert (Hin : Forall (fun st => incl (st_names st) (b_names b)) sts).
    { apply Forall_forall. intros s Hs. unfold sts in Hs. apply in_map_iff in Hs. destruct Hs as (r & <- & Hr).
      pose proof (bi_in _ _ _ _ _ Hb) as H. rewrite Forall_forall in H. apply H, Hr. }
    assert (Hpats : b_pats b = map (flat_map (items_of (b_names b))) sts).
    { unfold sts. rewrite map_map. apply (bi_pats _ _ _ _ _ Hb). }
    assert (Hrange : zlen (b_range b) = zlen sts).
    { rewrite (bi_range _ _ _ _ _ Hb). unfold sts, zlen. rewrite !map_length. reflexivity. }
    assert (Htrees : zlen (b_trees b) = zlen sts).
    { rewrite (bi_trees _ _ _ _ _ Hb). unfold sts, zlen. rewrite !map_length. reflexivity. }
    destruct (compile_main b sts Hsmall Hsts Hstne Hin Hpats Hrange Htrees) as (m & T & Hc & ds & Hds & Hm).
    rewrite Hc. cbn [bind]. rewrite (create_query_dfa_ok b out sts Hnd Hsmall Hstne Hin Hpats Hrange m T ds Hm). cbn [bind].
    rewrite (create_context_ok b out sts Hnd Hsmall Hstne Hin Hpats Htrees m T ds Hm). cbn [bind].
    set (d := the_dfa b out m T). set (x := the_ctx b out m T).
    exists d, x, (stt b T). split; [reflexivity|].
    pose proof (stt_range b m T ds Hm) as Hst.
    pose proof (stt_stop b sts Hsmall Hstne Hin Hpats m T ds Hm) as Hstop.
    pose proof (mo_two _ _ _ _ _ Hm) as H2.
    (* what the tables say about the state of labels *)
    assert (Hidx : forall w, match cls q w with
              | None => tread (m_stops m) (stt b T w) = 0
              | Some r => exists i, nth_error (roles q) i = Some r /\ tread (m_stops m) (stt b T w) = 1 + Z.of_nat i
              end).
    { intros w. pose proof (last_st_cls q Hrbd Hend Hne w) as H. fold sts in H. rewrite <- Hstop in H. exact H. }
    assert (Hrng : forall i r, nth_error (roles q) i = Some r -> rng_of b (1 + Z.of_nat i) = role_rng q r).
    { intros i r Hi. unfold rng_of. replace (Z.to_nat (1 + Z.of_nat i - 1)) with i by lia.
      rewrite (bi_range _ _ _ _ _ Hb). apply nth_error_nth. rewrite nth_error_map, Hi. reflexivity. }
    assert (Htree : forall i r, nth_error (roles q) i = Some r -> tree_of b (1 + Z.of_nat i) = role_tree q r).
    { intros i r Hi. unfold tree_of. replace (Z.to_nat (1 + Z.of_nat i - 1)) with i by lia.
      rewrite (bi_trees _ _ _ _ _ Hb). apply nth_error_nth. rewrite nth_error_map, Hi. reflexivity. }
    assert (Hclsst : forall w w', stt b T w = stt b T w' -> cls q w = cls q w').
    { intros w w' E. pose proof (Hidx w) as A. pose proof (Hidx w') as A'. rewrite E in A.
      destruct (cls q w) as [r|], (cls q w') as [r'|].
      - destruct A as (i & Hi & Ei), A' as (i' & Hi' & Ei'). assert (i = i') by lia. subst i'. congruence.
      - destruct A as (i & Hi & Ei). lia.
      - destruct A' as (i & Hi & Ei). lia.
      - reflexivity. }
    assert (Harr : forall w r, cls q w = Some r ->
              match r with RP _ => arr_target m T (stt b T w) = true | RC _ _ => arr_target m T (stt b T w) = false | _ => True end).
    { intros w r Hw. pose proof (proj1 (cls_spec q Hrbd Hend Hne w r) Hw) as (Hr & Hmw).
      pose proof (role_last_label r w Hr Hmw) as Hl. destruct r as [j|j|j f|]; try exact I.
      - destruct Hl as (w' & i & ->). apply (arr_target_snoc b m T ds Hm).
      - destruct (arr_target m T (stt b T w)) eqn:Ea; [|reflexivity]. exfalso.
        assert (stt b T w <> 0) as H0.
        { intros E0. pose proof (Hidx w) as A. rewrite Hw in A. destruct A as (i & _ & A).
          rewrite E0, (mo_stop0 _ _ _ _ _ Hm) in A. lia. }
        destruct (arr_target_inv b Hnd m T ds Hm _ Ea H0) as (u & Eu).
        assert (cls q (u ++ [LIdx 0]) = Some (RC j f)) as Hu by (rewrite <- Hw; apply Hclsst, Eu).
        apply (cls_spec q Hrbd Hend Hne) in Hu. destruct Hu as (_ & Hu).
        destruct (role_last_label (RC j f) _ Hr Hu) as (w' & k & E). apply app_inj_tail in E. destruct E. discriminate. }
    assert (Hinfo : forall w, info_of b out m T (stt b T w) =
              match cls q w with
              | None => mkSt 0 0 (0, 0)
              | Some r => mkSt (if accept_of q (Some r) =? 0 then 0 else tread (m_stops m) (stt b T w))
                               (accept_of q (Some r)) (role_rng q r)
              end).
    { intros w. unfold info_of. pose proof (Hidx w) as A. destruct (cls q w) as [r|] eqn:Ec.
      - destruct A as (i & Hi & Ei). rewrite Ei. replace (1 + Z.of_nat i =? 0) with false by lia.
        unfold out. rewrite (out_index i r Hi), (Hrng i r Hi).
        rewrite (has_rng_role r) by (eapply nth_error_In; eauto).
        pose proof (Harr w r Ec) as Ha. cbn [accept_of]. destruct (is_out q r) eqn:Eo.
        + destruct r as [j|j|j f|]; try discriminate; reflexivity.
        + destruct r as [j|j|j f|]; try discriminate.
          * destruct (arr_target m T (stt b T w)); reflexivity.
          * rewrite Ha. reflexivity.
          * rewrite Ha. reflexivity.
      - rewrite A. reflexivity. }
    assert (Hacc : forall w, st_accept (info_of b out m T (stt b T w)) = accept_of q (cls q w)).
    { intros w. rewrite Hinfo. destruct (cls q w); reflexivity. }
    assert (Hinfo0 : info_of b out m T 0 = mkSt 0 0 (0, 0)).
    { unfold info_of. rewrite (mo_stop0 _ _ _ _ _ Hm). reflexivity. }
    assert (Hctx : forall w r, cls q w = Some r -> accept_of q (Some r) <> 0 ->
              exists i, nth_error (roles q) i = Some r /\
              ctx_of b out m T (stt b T w) =
                (role_tree q r, map (fun v => acc_id2state (m_stops m) (v + 1) 0) (map_get (b_map b) (Z.of_nat i)))).
    { intros w r Hw Ha. pose proof (Hidx w) as A. rewrite Hw in A. destruct A as (i & Hi & Ei). exists i.
      split; [exact Hi|]. unfold ctx_of. rewrite Hinfo, Hw. cbn [st_stop].
      replace (accept_of q (Some r) =? 0) with false by lia. rewrite Ei. replace (1 + Z.of_nat i =? 0) with false by lia.
      rewrite (Htree i r Hi). replace (1 + Z.of_nat i - 1) with (Z.of_nat i) by lia. reflexivity. }
    assert (Honto : forall s, 1 <= s < m_states m -> exists w, stt b T w = s).
    { intros s Hs. apply (st_onto b Hnd m T ds Hm s Hs). }
    constructor.
    - apply (the_dfa_ok b out m T ds Hm).
    - reflexivity.
    - intros w. unfold valid_state. unfold d. rewrite (nstates_the b out m T ds Hm). apply Hst.
    - intros w l. apply (next_label b out sts Hnd Hsmall Hin Hpats m T ds Hm).
    - intros w. unfold d. rewrite (the_accept b out m T (stt b T w)) by apply Hst. rewrite Hacc. reflexivity.
    - intros w. unfold d. rewrite (the_range b out m T (stt b T w)) by apply Hst. rewrite Hinfo.
      destruct (cls q w); reflexivity.
    - intros inp.
      assert (Hrow : exists row, zread (d_table d) 0 = Ok row /\ zlen row = zlen (b_names b) + 3 /\
                forall a, 0 <= a < zlen (b_names b) + 3 -> zread row a = Ok 0).
      { destruct (zread_row b sts m T ds Hm 0 0) as (row & R1 & R2 & _); [lia|pose proof (zlen_nonneg (b_names b)); lia|].
        exists row. split; [exact R1|]. split.
        - apply (mo_row _ _ _ _ _ Hm). unfold zread, znth in R1. cbn in R1. destruct T as [|r T']; [discriminate|].
          injection R1 as ->. left. reflexivity.
        - intros a Ha. destruct (zread_row b sts m T ds Hm 0 a) as (row' & R1' & R2' & R3'); [lia|exact Ha|].
          replace row' with row in R3' by congruence. rewrite R3'. rewrite <- R2. pose proof (row0 b m T ds Hm a Ha) as R0. cbn [Z.to_nat] in *. rewrite R0. reflexivity. }
      destruct Hrow as (row & R1 & R2 & R3). pose proof (zlen_nonneg (b_names b)).
      destruct inp as [k|]; cbn [dfaNextStateByStr].
      + rewrite R1. cbn [bind]. destruct (find_input_ok d row k) with (n := Z.to_nat (d_inputs d - 3)) (c := 3) as (c & Ec & Hcr).
        * apply (the_dfa_ok b out m T ds Hm).
        * unfold zread, znth in R1. cbn in R1. destruct T; [discriminate|]. injection R1 as ->. left. reflexivity.
        * lia.
        * unfold d, the_dfa. cbn [d_inputs]. lia.
        * rewrite Ec. cbn [bind]. apply R3. unfold d, the_dfa in Hcr. cbn [d_inputs] in Hcr. lia.
      + unfold dfaNextState. rewrite R1. cbn [bind]. apply R3. lia.
    - unfold d. rewrite the_accept by lia. rewrite Hinfo0. reflexivity.
    - unfold d. rewrite the_range by lia. rewrite Hinfo0. reflexivity.
    - exact Hclsst.
    - intros w r Hw Ha. unfold x. rewrite (the_subtree b out m T (stt b T w)) by apply Hst.
      destruct (Hctx w r Hw Ha) as (i & _ & ->). reflexivity.
    - intros s. unfold x. cbn [the_ctx x_preds]. rewrite filter_In, in_state_list. split.
      + intros (Hs & Hc'). apply andb_true_iff in Hc'. destruct Hc' as [C1 C2].
        assert (s <> 0) as H0. { intros ->. rewrite Hinfo0 in C2. discriminate. }
        destruct (Honto s ltac:(lia)) as (w & <-). rewrite Hacc in C2. exists w.
        destruct (cls q w) as [r|] eqn:Ec; [|discriminate]. cbn [accept_of] in C2.
        destruct (is_out q r); [discriminate|]. destruct r as [j|j|j f|]; try discriminate. exists j. auto.
      + intros (w & j & <- & Hw). split; [apply Hst|]. rewrite Hacc, Hinfo, Hw. cbn.
        pose proof (Hidx w) as A. rewrite Hw in A. destruct A as (i & _ & ->).
        replace (1 + Z.of_nat i =? 0) with false by lia. reflexivity.
    - intros w j Hw. destruct (Hctx w (RP j) Hw ltac:(discriminate)) as (i & Hi & Ectx).
      unfold x at 1. rewrite (the_mapping b out m T (stt b T w)) by apply Hst. rewrite Ectx. cbn [snd].
      eexists. split; [reflexivity|].
      destruct (bi_map _ _ _ _ _ Hb i j Hi) as [Em Hmc]. rewrite Em, map_map.
      (* every condition state carries its field *)
      assert (Hcond : forall t f, nth_error (the_cf q j) t = Some f ->
                init_condition x (acc_id2state (m_stops m) (Z.of_nat (S i + t) + 1) 0) = Ok (join f, None)).
      { intros t f Ht. pose proof (Hmc t f Ht) as Hrc.
        assert (Hin' : In (RC j f) (roles q)) by (eapply nth_error_In; eauto).
        set (w' := map wit (role_st q (RC j f))).
        assert (Hcw : cls q w' = Some (RC j f)).
        { apply (cls_spec q Hrbd Hend Hne). split; [exact Hin'|]. apply st_match_wit. }
        pose proof (Hidx w') as A. rewrite Hcw in A. destruct A as (i' & Hi' & Ei').
        assert (i' = S i + t)%nat.
        { eapply (proj1 (NoDup_nth_error _) (roles_nodup q)); [apply nth_error_Some; congruence|congruence]. }
        subst i'. rewrite Hstop in Ei'.
        destruct (acc_state b sts Hsmall Hstne Hin Hpats m T ds Hm (Z.of_nat (S i + t) + 1) w' ltac:(lia)) as (As & At).
        { rewrite Ei'. lia. }
        destruct (Honto _ As) as (w2 & Ew2). rewrite <- Ew2 in At |- *.
        assert (Hcw2 : cls q w2 = Some (RC j f)).
        { pose proof (Hidx w2) as A2. rewrite At in A2. destruct (cls q w2) as [r2|]; [|lia].
          destruct A2 as (i2 & Hi2 & Ei2). replace i2 with (S i + t)%nat in Hi2 by lia. congruence. }
        destruct (Hctx w2 _ Hcw2 ltac:(discriminate)) as (i2 & _ & Ec2).
        unfold init_condition, getContextSubtree, x. rewrite (the_subtree b out m T (stt b T w2)) by apply Hst.
        rewrite Ec2. cbn [fst role_tree bind]. apply role_in in Hin'. destruct Hin' as (e & He & Hf).
        pose proof (Hne f (field_in _ _ _ _ He Hf)). destruct f; [contradiction|]. reflexivity. }
      clear - Hcond. revert Hcond. generalize (the_cf q j) as fs. intros fs. generalize (S i) as n. clear i.
      induction fs as [|f fs IH]; intros n Hcond; cbn [List.length seq map mapM]; [reflexivity|].
      pose proof (Hcond O f eq_refl) as H0. rewrite Nat.add_0_r in H0. rewrite H0. cbn [bind].
      rewrite IH; [reflexivity|]. intros t g Ht. specialize (Hcond (S t) g Ht).
      replace (S n + t)%nat with (n + S t)%nat by lia. exact Hcond.
  Qed.
End Build.
