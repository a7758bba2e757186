(** Filter-free queries with slices in any place: exactly what the code returns. *)
From Verif Require Import Base Util Spec QueryClass Regex RegexProof Mixer MixerProof Compress Lexer LexProof LexDoc LexMain
  Dfa Stream TreeSem Builder Eval Filter FilterProof AutoProof BuilderProof Roles Compiled TreeSel SelProof PosSpec Claims Num Loader Run EndToEnd
  ClaimProof PosProof SliceSpec.
Open Scope Z_scope.

Lemma slice_noidx q : forallb is_slice_or_path q = true -> no_index q.
Proof. intros H s Hs. rewrite forallb_forall in H. specialize (H s Hs). destruct s; try discriminate; intros E; discriminate. Qed.

Lemma match_unsliced : forall w q, st_match (stack_of (map unsliced q)) w = st_match (stack_of q) w.
Proof.
  assert (G : forall w s t, Forall2 (fun a b => a = b \/ (a = SeArray /\ exists x y, b = SeIndex x y)) s t -> st_match s w = st_match t w).
  { induction w as [|l w IH]; intros s t H.
    - destruct H; reflexivity.
    - destruct H as [|a b s t Hab H]; [reflexivity|]. pose proof (IH _ _ H) as H1.
      destruct Hab as [->|(-> & x & y & ->)].
      + assert (H2 : Forall2 (fun a b => a = b \/ (a = SeArray /\ exists x y, b = SeIndex x y)) (b :: s) (b :: t)) by (constructor; auto).
        pose proof (IH _ _ H2) as H3. cbn [st_match]. destruct b; rewrite ?H1, ?H3; reflexivity.
      + cbn [st_match]. rewrite H1. reflexivity. }
  intros w q. apply G. induction q as [|s q IH]; [constructor|]. unfold stack_of in *. cbn [map flat_map].
  apply Forall2_app; [|exact IH]. destruct s; cbn [unsliced se_of]; try (constructor; [left; reflexivity|constructor]); [|constructor].
  constructor; [|constructor]. right. split; [reflexivity|]. eauto.
Qed.

Lemma reach_match q w : forallb is_slice_or_path q = true -> reach q w = st_match (stack_of q) w.
Proof.
  intros H. unfold reach. rewrite <- match_unsliced. apply lsel_none.
  - intros s Hs. apply in_map_iff in Hs. destruct Hs as (s' & <- & Hs). rewrite forallb_forall in H. specialize (H _ Hs). destruct s'; discriminate.
  - intros s Hs. apply in_map_iff in Hs. destruct Hs as (s' & <- & Hs). rewrite forallb_forall in H. specialize (H _ Hs). destruct s'; try discriminate; reflexivity.
Qed.

Lemma sp_firstn q n : forallb is_slice_or_path q = true -> forallb is_slice_or_path (firstn n q) = true.
Proof. intros H. rewrite <- (firstn_skipn n q), forallb_app in H. apply andb_true_iff in H. apply H. Qed.

(** The fold that looks for the last slice. *)
Lemma latest_some q w j b : (j < List.length q)%nat -> slice_at q w j = Some b ->
  (forall j', (j < j')%nat -> slice_at q w j' = None) -> latest q w = Some b.
Proof.
  intros Hj Hb Hn. unfold latest. replace (List.length q) with (j + S (List.length q - S j))%nat by lia.
  rewrite seq_app, fold_left_app. cbn [seq fold_left]. rewrite Nat.add_0_l, Hb. generalize (List.length q - S j)%nat as n. intros n.
  assert (G : forall k n, (j < k)%nat -> fold_left (fun acc j => match slice_at q w j with Some b => Some b | None => acc end) (seq k n) (Some b) = Some b).
  { clear n. intros k n. revert k. induction n as [|n IH]; intros k Hk; [reflexivity|]. cbn [seq fold_left]. rewrite Hn by exact Hk. apply IH. lia. }
  apply G. lia.
Qed.
Lemma latest_none q w : (forall j, slice_at q w j = None) -> latest q w = None.
Proof. intros H. unfold latest. induction (seq 0 (List.length q)) as [|a l IH]; [reflexivity|]. cbn [fold_left]. rewrite H. exact IH. Qed.

Lemma roles_split q j lo hi : nth_error q j = Some (SSlice lo hi) ->
  exists q1 q2, q = q1 ++ SSlice lo hi :: q2 /\ List.length q1 = j /\
    roles q = roles_from 0 q1 ++ RS j :: roles_from (S j) q2 ++ (if ends_in_slice q then [] else [RO]).
Proof.
  intros H. destruct (nth_error_split _ _ H) as (q1 & q2 & E & L). exists q1, q2. split; [exact E|]. split; [exact L|].
  unfold roles. rewrite E at 1. rewrite roles_from_app, <- app_assoc. cbn [roles_from step_roles app Nat.add]. rewrite L. reflexivity.
Qed.

(** Later slices have later roles. *)
Lemma later_role q j lo hi j' lo' hi' i : nth_error q j = Some (SSlice lo hi) -> nth_error q j' = Some (SSlice lo' hi') -> (j < j')%nat ->
  nth_error (roles q) i = Some (RS j) -> exists i', (i < i')%nat /\ nth_error (roles q) i' = Some (RS j').
Proof.
  intros Hj Ej Hlt Hi. destruct (roles_split q j lo hi Hj) as (q1 & q2 & Eq & L1 & Eroles).
  assert (Hi1 : i = List.length (roles_from 0 q1)).
  { eapply (proj1 (NoDup_nth_error _) (roles_nodup q)); [apply nth_error_Some; congruence|]. rewrite Hi, Eroles, nth_pre. reflexivity. }
  assert (Hin : In (RS j') (roles_from (S j) q2)).
  { rewrite Eq in Ej. rewrite nth_error_app2 in Ej by lia. replace (j' - List.length q1)%nat with (S (j' - S j)) in Ej by lia. cbn [nth_error] in Ej.
    destruct (nth_error_split _ _ Ej) as (a & b & Eab & Lab). rewrite Eab, roles_from_app. apply in_or_app. right. left. f_equal. lia. }
  apply In_nth_error in Hin. destruct Hin as (k & Hk). exists (List.length (roles_from 0 q1) + S k)%nat. split; [lia|].
  rewrite Eroles, nth_error_app2 by lia. replace (_ + S k - _)%nat with (S k) by lia. cbn [nth_error].
  rewrite nth_error_app1; [exact Hk|]. apply nth_error_Some. congruence.
Qed.

Section Slices.
  Variable q : query.
  Hypothesis Hq : slice_query q = true.
  Hypothesis Hslice : forallb slice_ok q = true.

  Let Hsp : forallb is_slice_or_path q = true.
  Proof. unfold slice_query in Hq. apply andb_true_iff in Hq. apply Hq. Qed.
  Let Hnidx : no_index q := slice_noidx q Hsp.
  Let Hnofields : query_fields q = [] := proj1 (no_filter_fields q Hq).
  Let Hnofilter := proj2 (no_filter_fields q Hq).
  Let Hend : end_ok q = true.
  Proof.
    unfold end_ok. rewrite (no_fields_untested q Hnofields), andb_true_r. unfold ends_well. destruct (last_step q) as [s|] eqn:E.
    - destruct (last_step_some _ _ E) as (q' & Eq). destruct s; try reflexivity.
      exfalso. assert (In (SFilter e) q) by (rewrite Eq; apply in_or_app; right; left; reflexivity). apply Hnofilter in H. discriminate.
    - destruct q as [|s q']; [discriminate|]. exfalso. clear -E. revert s E. induction q' as [|s' q' IH]; intros s E; [discriminate|].
      cbn in E. eapply IH. exact E.
  Qed.

  Lemma sl_role r : In r (roles q) -> (exists j lo hi, r = RS j /\ nth_error q j = Some (SSlice lo hi)) \/ (r = RO /\ ends_in_slice q = false).
  Proof.
    intros H. apply role_in in H. destruct r as [j|j|j f|].
    - destruct H as (lo & hi & H). left. eauto 6.
    - destruct H as (e & H). apply nth_error_In, Hnofilter in H. discriminate.
    - destruct H as (e & H & _). apply nth_error_In, Hnofilter in H. discriminate.
    - right. auto.
  Qed.

  Lemma slice_at_role w j lo hi : nth_error q j = Some (SSlice lo hi) ->
    slice_at q w j = if st_match (role_st q (RS j)) w then Some (lo, hi) else None.
  Proof. intros H. unfold slice_at. rewrite H. cbn [role_st]. rewrite reach_match by (apply sp_firstn, Hsp). reflexivity. Qed.

  Lemma slice_at_other w j : (forall lo hi, nth_error q j <> Some (SSlice lo hi)) -> slice_at q w j = None.
  Proof. intros H. unfold slice_at. destruct (nth_error q j) as [[]|]; try reflexivity. exfalso. eapply H. reflexivity. Qed.

  Definition grange (w : list label) : Z * Z := match guard q w with Some (lo, hi) => bounds lo hi | None => (0, 0) end.

  (** The stop of a state says which bounds are checked there and whether it
      accepts. *)
  Lemma winner w :
    (last_st (map (role_st q) (roles q)) w 1 = 0 /\ guard q w = None /\ reach q w = false) \/
    exists i r, nth_error (roles q) i = Some r /\ last_st (map (role_st q) (roles q)) w 1 = 1 + Z.of_nat i /\
      role_rng q r = grange w /\ is_out q r = reach q w.
  Proof.
    destruct (last_role q Hslice Hend) as (rs & ro & Elast & Eout).
    assert (Hro : st_match (role_st q ro) w = reach q w).
    { rewrite reach_match by exact Hsp. destruct (sl_role ro) as [(j & lo & hi & -> & Hj)|[-> _]].
      - rewrite Elast. apply in_or_app. right. left. reflexivity.
      - cbn [is_out] in Eout. apply Nat.eqb_eq in Eout. cbn [role_st]. rewrite Eout, firstn_all. reflexivity.
      - reflexivity. }
    destruct (last_st_spec (map (role_st q) (roles q)) w 1 ltac:(lia)) as [[E H]|(i & stk & Hi & E & Hm & Hlater)].
    - left. split; [exact E|].
      assert (Hr : reach q w = false).
      { rewrite <- Hro. apply H, in_map. rewrite Elast. apply in_or_app. right. left. reflexivity. }
      split; [|exact Hr]. unfold guard. rewrite Hr. cbn [andb]. apply latest_none. intros j.
      destruct (nth_error q j) as [s|] eqn:Ej; [|apply slice_at_other; congruence].
      destruct s; try (apply slice_at_other; congruence).
      rewrite (slice_at_role w j lo hi Ej), H; [reflexivity|]. apply in_map. destruct (roles_split q j lo hi Ej) as (q1 & q2 & _ & _ & ->).
      apply in_or_app. right. left. reflexivity.
    - right. rewrite nth_error_map in Hi. destruct (nth_error (roles q) i) as [r|] eqn:Er; [|discriminate]. injection Hi as <-.
      exists i, r. split; [exact Er|]. split; [exact E|]. clear E.
      assert (Hlate : forall i' r', (i < i')%nat -> nth_error (roles q) i' = Some r' -> st_match (role_st q r') w = false).
      { intros i' r' Hlt Hr'. apply (Hlater i' _ Hlt). rewrite nth_error_map, Hr'. reflexivity. }
      assert (Hlastout : ro = r \/ reach q w = false).
      { destruct (Nat.lt_trichotomy i (List.length rs)) as [L|[L|L]].
        - right. rewrite <- Hro. apply (Hlate (List.length rs) ro L). rewrite Elast, nth_pre. reflexivity.
        - left. rewrite Elast, L, nth_pre in Er. congruence.
        - exfalso. assert (i < List.length (roles q))%nat by (apply nth_error_Some; congruence). rewrite Elast, app_length in H. cbn in H. lia. }
      destruct (sl_role r) as [(j & lo & hi & -> & Hj)|[-> Hes]]; [eapply nth_error_In; eauto| |].
      + assert (Hlat : latest q w = Some (lo, hi)).
        { apply latest_some with (j := j).
          - apply nth_error_Some. congruence.
          - rewrite (slice_at_role w j lo hi Hj), Hm. reflexivity.
          - intros j' Hjj. destruct (nth_error q j') as [s|] eqn:Ej; [|apply slice_at_other; congruence].
            destruct s as [| | | | |lo' hi'| |]; try (apply slice_at_other; congruence).
            rewrite (slice_at_role w j' lo' hi' Ej). destruct (later_role q j lo hi j' lo' hi' i Hj Ej Hjj Er) as (i' & Hlt & Hi').
            rewrite (Hlate i' _ Hlt Hi'). reflexivity. }
        split.
        * unfold grange, guard. replace (reach q w && negb (ends_sliced q)) with false.
          -- rewrite Hlat. cbn [role_rng]. rewrite Hj. reflexivity.
          -- destruct Hlastout as [-> | ->]; [|reflexivity]. unfold ends_sliced. cbn [is_out] in Eout. apply Nat.eqb_eq in Eout.
             destruct (exists_last (q_nonempty q Hend)) as (q' & s & E'). rewrite E' in Hj, Eout |- *. rewrite app_length in Eout. cbn in Eout.
             replace j with (List.length q') in Hj by lia. rewrite nth_pre in Hj. injection Hj as ->. rewrite last_step_snoc. symmetry. apply andb_false_r.
        * destruct (is_out q (RS j)) eqn:Eo.
          -- assert (ro = RS j) as Er0. { apply (out_unique q Hslice Hend); auto; [rewrite Elast; apply in_or_app; right; left; reflexivity|eapply nth_error_In; eauto]. }
             rewrite <- Hro, Er0. symmetry. exact Hm.
          -- destruct Hlastout as [E' | ->]; [congruence|reflexivity].
      + cbn [role_rng is_out role_st] in *. rewrite <- reach_match in Hm by exact Hsp. split; [|symmetry; exact Hm].
        unfold grange, guard. rewrite Hm. unfold ends_sliced. unfold ends_in_slice in Hes. destruct (last_step q) as [[]|]; try discriminate; reflexivity.
  Qed.

  Lemma out_pos i r : nth_error (roles q) i = Some r -> (1 + Z.of_nat i =? zlen (roles q)) = is_out q r.
  Proof.
    intros Hi. destruct (last_role q Hslice Hend) as (rs & r0 & Er & E0). pose proof (roles_nodup q) as Hnd.
    assert (Hl : nth_error (roles q) (List.length rs) = Some r0) by (rewrite Er, nth_pre; reflexivity).
    assert (Hz : zlen (roles q) = 1 + Z.of_nat (List.length rs)).
    { rewrite Er, zlen_app, zlen_cons, zlen_nil. unfold zlen. clear. lia. }
    destruct (is_out q r) eqn:E.
    - assert (r = r0) by (apply (out_unique q Hslice Hend); auto; eapply nth_error_In; eauto). subst r0.
      assert (i = List.length rs).
      { eapply (proj1 (NoDup_nth_error _) Hnd); [apply nth_error_Some; congruence|congruence]. }
      clear - H Hz. lia.
    - apply Z.eqb_neq. intros Ez. assert (i = List.length rs) by (clear - Ez Hz; lia). subst i. congruence.
  Qed.

  Record built (d : dfa) (x : qctx) (st : list label -> Z) : Prop := {
    bl_ok : dfa_ok d;
    bl_start : st [] = 1;
    bl_valid : forall w, valid_state d (st w);
    bl_next : forall w l, dfaNextStateByStr d (st w) (linput l) = Ok (st (w ++ [l]));
    bl_accept : forall w, getDFAAcceptType d (st w) = Ok (if reach q w then DFA_OUTPUT_CANDIDATE else 0);
    bl_range : forall w, getDFAArrayIndex d (st w) = Ok (grange w);
    bl_next0 : forall inp, dfaNextStateByStr d 0 inp = Ok 0;
    bl_accept0 : getDFAAcceptType d 0 = Ok 0;
    bl_range0 : getDFAArrayIndex d 0 = Ok (0, 0);
    bl_preds : x_preds x = []
  }.

  Hypothesis Hnames : names_fit q = true.
  Variable strict : bool.

  Theorem slices_built : exists d x st, build strict q = Ok (d, x) /\ built d x st.
  Proof.
    assert (Hff : fields_fine strict q). { intros f Hf. rewrite Hnofields in Hf. destruct Hf. }
    destruct (finish_ok strict q Hnidx Hff Hend) as (b & Hfin & Hb).
    unfold build. destruct (construct_dfa strict q) as [b0|?]; [|discriminate]. cbn [bind] in Hfin |- *.
    rewrite Hfin. cbn [bind].
    set (sts := map (role_st q) (roles q)). set (out := zlen (roles q)).
    pose proof (bi_nd _ _ _ _ _ Hb) as Hnd.
    assert (Hsmall : codes_fit (b_names b) sts).
    { pose proof (NoDup_incl_length Hnd (bi_names _ _ _ _ _ Hb)) as Hle. unfold names_fit in Hnames.
      apply orb_true_iff in Hnames. destruct Hnames as [H|H]; [left; unfold zlen in *; lia|right].
      apply andb_true_iff in H. destruct H as [H H']. split; [|unfold zlen in *; lia].
      apply Forall_forall. intros s Hs. unfold sts in Hs. apply in_map_iff in Hs. destruct Hs as (r & <- & Hr).
      apply role_no_wild, negb_true_iff, H. }
    destruct (last_role q Hslice Hend) as (rs0 & r0 & Elast & Eout0).
    assert (Hsts : sts <> []).
    { unfold sts. rewrite Elast, map_app. cbn. intros E0. apply app_eq_nil in E0. destruct E0. discriminate. }
    assert (Hstne : Forall (fun st => st <> []) sts).
    { apply Forall_forall. intros s Hs. unfold sts in Hs. apply in_map_iff in Hs. destruct Hs as (r & <- & Hr).
      intros E. apply (f_equal (@List.length se)) in E. cbn [List.length] in E.
      destruct (sl_role r Hr) as [(j & lo & hi & -> & Hj)|[-> _]]; cbn [role_st] in E.
      - rewrite stack_len in E.
        + assert (j < List.length q)%nat by (apply nth_error_Some; congruence). rewrite firstn_length in E. lia.
        + intros s Hs. apply Hnidx. rewrite <- (firstn_skipn (S j) q). apply in_or_app. left. exact Hs.
      - rewrite stack_len in E by exact Hnidx. pose proof (q_nonempty q Hend). destruct q; [contradiction|discriminate]. }
    assert (Hin : Forall (fun st => incl (st_names st) (b_names b)) sts).
    { apply Forall_forall. intros s Hs. unfold sts in Hs. apply in_map_iff in Hs. destruct Hs as (r & <- & Hr).
      pose proof (bi_in _ _ _ _ _ Hb) as H. rewrite Forall_forall in H. apply H, Hr. }
    assert (Hpats : b_pats b = map (flat_map (items_of (b_names b))) sts).
    { unfold sts. rewrite map_map. apply (bi_pats _ _ _ _ _ Hb). }
    assert (Hrange : zlen (b_range b) = zlen sts).
    { rewrite (bi_range _ _ _ _ _ Hb). unfold sts, zlen. rewrite !map_length. reflexivity. }
    assert (Htrees : zlen (b_trees b) = zlen sts).
    { rewrite (bi_trees _ _ _ _ _ Hb). unfold sts, zlen. rewrite !map_length. reflexivity. }
    destruct (compile_main b sts Hsmall Hsts Hstne Hin Hpats Hrange Htrees) as (m & T & Hc & ds & Hds & Hm).
    rewrite Hc. cbn [bind]. rewrite (create_query_dfa_ok b out sts Hnd Hsmall Hstne Hin Hpats Hrange m T ds Hm). cbn [bind].
    rewrite (create_context_ok b out sts Hnd Hsmall Hstne Hin Hpats Htrees m T ds Hm). cbn [bind].
    set (d := the_dfa b out m T). set (x := the_ctx b out m T).
    exists d, x, (stt b T). split; [reflexivity|].
    pose proof (stt_range b m T ds Hm) as Hst.
    pose proof (stt_stop b sts Hsmall Hstne Hin Hpats m T ds Hm) as Hstop.
    pose proof (mo_two _ _ _ _ _ Hm) as H2.
    assert (Hrng : forall i r, nth_error (roles q) i = Some r -> rng_of b (1 + Z.of_nat i) = role_rng q r).
    { intros i r Hi. unfold rng_of. replace (Z.to_nat (1 + Z.of_nat i - 1)) with i by lia.
      rewrite (bi_range _ _ _ _ _ Hb). apply nth_error_nth. rewrite nth_error_map, Hi. reflexivity. }
    assert (Hinfo : forall w, st_accept (info_of b out m T (stt b T w)) = (if reach q w then DFA_OUTPUT_CANDIDATE else 0) /\
                              Builder.st_range (info_of b out m T (stt b T w)) = grange w).
    { intros w. unfold info_of. rewrite Hstop. fold sts. destruct (winner w) as [(E & Eg & Er)|(i & r & Hi & E & Eg & Eo)]; fold sts in E; rewrite E.
      - rewrite Er. unfold grange. rewrite Eg. split; reflexivity.
      - replace (1 + Z.of_nat i =? 0) with false by lia. unfold out. rewrite (out_pos i r Hi), (Hrng i r Hi), Eo.
        pose proof (has_rng_role q Hslice r (nth_error_In _ _ Hi)) as Hr. rewrite Hr, Eg in *.
        destruct (sl_role r (nth_error_In _ _ Hi)) as [(j & lo & hi & -> & Hj)|[-> Hes]].
        + destruct (reach q w); [split; reflexivity|]. destruct (arr_target m T (stt b T w)); split; reflexivity.
        + cbn [is_out] in Eo. rewrite <- Eo. cbn [role_rng] in Eg. rewrite <- Eg. split; reflexivity. }
    assert (Hinfo0 : info_of b out m T 0 = mkSt 0 0 (0, 0)).
    { unfold info_of. rewrite (mo_stop0 _ _ _ _ _ Hm). reflexivity. }
    assert (Honto : forall s, 1 <= s < m_states m -> exists w, stt b T w = s).
    { intros s Hs. apply (st_onto b Hnd m T ds Hm s Hs). }
    constructor.
    - apply (the_dfa_ok b out m T ds Hm).
    - reflexivity.
    - intros w. unfold valid_state. unfold d. rewrite (nstates_the b out m T ds Hm). apply Hst.
    - intros w l. apply (next_label b out sts Hnd Hsmall Hin Hpats m T ds Hm).
    - intros w. unfold d. rewrite (the_accept b out m T (stt b T w)) by apply Hst. rewrite (proj1 (Hinfo w)). reflexivity.
    - intros w. unfold d. rewrite (the_range b out m T (stt b T w)) by apply Hst. rewrite (proj2 (Hinfo w)). reflexivity.
    - intros inp.
      assert (Hrow : exists row, zread (d_table d) 0 = Ok row /\ zlen row = zlen (b_names b) + 3 /\
                forall a, 0 <= a < zlen (b_names b) + 3 -> zread row a = Ok 0).
      { destruct (zread_row b sts m T ds Hm 0 0) as (row & R1 & R2 & _); [lia|pose proof (zlen_nonneg (b_names b)); lia|].
        exists row. split; [exact R1|]. split.
        - apply (mo_row _ _ _ _ _ Hm). unfold zread, znth in R1. cbn in R1. destruct T as [|r T']; [discriminate|].
          injection R1 as ->. left. reflexivity.
        - intros a Ha. destruct (zread_row b sts m T ds Hm 0 a) as (row' & R1' & R2' & R3'); [lia|exact Ha|].
          replace row' with row in R3' by congruence. rewrite R3'. rewrite <- R2. pose proof (row0 b m T ds Hm a Ha) as R0. cbn [Z.to_nat] in *. rewrite R0. reflexivity. }
      destruct Hrow as (row & R1 & R2 & R3). pose proof (zlen_nonneg (b_names b)).
      destruct inp as [k|]; cbn [dfaNextStateByStr].
      + rewrite R1. cbn [bind]. destruct (find_input_ok d row k) with (n := Z.to_nat (d_inputs d - 3)) (c := 3) as (c & Ec & Hcr).
        * apply (the_dfa_ok b out m T ds Hm).
        * unfold zread, znth in R1. cbn in R1. destruct T; [discriminate|]. injection R1 as ->. left. reflexivity.
        * lia.
        * unfold d, the_dfa. cbn [d_inputs]. lia.
        * rewrite Ec. cbn [bind]. apply R3. unfold d, the_dfa in Hcr. cbn [d_inputs] in Hcr. lia.
      + unfold dfaNextState. rewrite R1. cbn [bind]. apply R3. lia.
    - unfold d. rewrite the_accept by lia. rewrite Hinfo0. reflexivity.
    - unfold d. rewrite the_range by lia. rewrite Hinfo0. reflexivity.
    - destruct (x_preds x) as [|s l] eqn:Ex; [reflexivity|]. exfalso.
      assert (Hs : In s (x_preds x)) by (rewrite Ex; left; reflexivity). unfold x in Hs. cbn [the_ctx x_preds] in Hs.
      rewrite filter_In, in_state_list in Hs. destruct Hs as (Hs & Hc'). apply andb_true_iff in Hc'. destruct Hc' as [C1 C2].
      assert (s <> 0) as H0. { intros ->. rewrite Hinfo0 in C2. discriminate. }
      destruct (Honto s ltac:(lia)) as (w & <-). rewrite (proj1 (Hinfo w)) in C2. destruct (reach q w); discriminate.
  Qed.
End Slices.

(** * The run *)
Lemma passes_rok q w : small w -> forallb slice_ok q = true ->
  (match guard q w with Some (lo, hi) => In (SSlice lo hi) q | None => True end) -> forall (i : Z), i = ix w ->
  (let r := grange q w in ((fst r =? 0) && (snd r =? 0)) || ((fst r <=? i) && (i <? snd r))) = passes q w.
Proof.
  intros Hs Hslice Hg i ->. unfold passes, grange. destruct (guard q w) as [[lo hi]|]; [|reflexivity].
  rewrite forallb_forall in Hslice. pose proof (Hslice _ Hg) as Hsl. change (last_index w) with (last_idx w). unfold ix.
  assert (Hi : Z.of_nat (last_idx w) < INT_MAX).
  { unfold last_idx. destruct w as [|l w'] using rev_ind; [reflexivity|]. rewrite last_last. destruct l as [k|i]; [reflexivity|].
    apply Hs, in_or_app. right. left. reflexivity. }
  generalize (last_idx w) Hi. clear - Hsl. intros i Hi. unfold bounds, in_slice. cbn [fst snd].
  assert (Hmin : INT_MIN < 0) by reflexivity. assert (Hmax : 0 < INT_MAX) by reflexivity.
  destruct lo as [lo|], hi as [hi|].
  - assert ((lo =? 0) && (hi =? 0) = false) as ->; [|reflexivity].
    destruct (Z.eqb_spec lo 0) as [->|]; [|reflexivity]. destruct (Z.eqb_spec hi 0) as [->|]; [discriminate|reflexivity].
  - replace (INT_MAX =? 0) with false by lia. rewrite andb_false_r. cbn [orb].
    replace (Z.of_nat i <? INT_MAX) with true by lia. reflexivity.
  - replace (INT_MIN =? 0) with false by lia. cbn [andb orb].
    replace (INT_MIN <=? Z.of_nat i) with true by lia. reflexivity.
  - replace (INT_MIN =? 0) with false by lia. cbn [andb orb].
    replace (INT_MIN <=? Z.of_nat i) with true by lia. replace (Z.of_nat i <? INT_MAX) with true by lia. reflexivity.
Qed.

Lemma latest_in q w b : latest q w = Some b -> In (SSlice (fst b) (snd b)) q.
Proof.
  unfold latest. assert (G : forall l acc, fold_left (fun acc j => match slice_at q w j with Some b => Some b | None => acc end) l acc = Some b ->
    acc = Some b \/ exists j, slice_at q w j = Some b).
  { induction l as [|j l IH]; intros acc H; [left; exact H|]. cbn [fold_left] in H. apply IH in H. destruct H as [H|H]; [|right; exact H].
    destruct (slice_at q w j) eqn:E; [right; exists j; congruence|left; exact H]. }
  intros H. apply G in H. destruct H as [H|(j & H)]; [discriminate|]. unfold slice_at in H.
  destruct (nth_error q j) as [[]|] eqn:E; try discriminate. destruct (reach _ _); [|discriminate]. injection H as <-. eapply nth_error_In. exact E.
Qed.

Section Run.
  Variable q : query.
  Hypothesis Hslice : forallb slice_ok q = true.
  Variables (d : dfa) (x : qctx) (st : list label -> Z).
  Hypothesis Hbl : built q d x st.

  Definition walive (w : list label) : bool := forallb (fun n => passes q (firstn n w)) (seq 0 (List.length w)).
  Definition ws (w : list label) : Z := if walive w then st w else 0.

  Lemma walive_snoc w l : walive (w ++ [l]) = walive w && passes q w.
  Proof.
    unfold walive. rewrite app_length. cbn [List.length]. rewrite Nat.add_1_r, seq_S, forallb_app. cbn [forallb Nat.add].
    rewrite firstn_app, firstn_all, Nat.sub_diag, firstn_O, app_nil_r, andb_true_r. f_equal.
    apply forallb_ext_in. intros n Hn. apply in_seq in Hn. rewrite firstn_app.
    replace (n - List.length w)%nat with 0%nat by lia. rewrite firstn_O, app_nil_r. reflexivity.
  Qed.

  Lemma in_range_passes w m : small w -> in_range d (mkElt (st w) (ix w) m) = Ok (passes q w).
  Proof.
    intros Hs. unfold in_range. cbn [q_state q_count]. rewrite (bl_range _ _ _ _ Hbl). cbn [bind]. f_equal.
    rewrite <- (passes_rok q w Hs Hslice) with (i := ix w); [destruct (grange q w); reflexivity| |reflexivity].
    unfold guard. destruct (reach q w && _); [exact I|]. destruct (latest q w) as [[lo hi]|] eqn:E; [|exact I]. apply (latest_in _ _ _ E).
  Qed.
  Lemma in_range_0 i m : in_range d (mkElt 0 i m) = Ok true.
  Proof. unfold in_range. cbn [q_state]. rewrite (bl_range0 _ _ _ _ Hbl). reflexivity. Qed.

  Lemma nx_ws w l : small w -> nx d (ws w) (ix w) (linput l) = ws (w ++ [l]).
  Proof.
    intros Hs. unfold nx, next_elt, ws. rewrite walive_snoc. destruct (walive w); cbn [andb q_state].
    - rewrite in_range_passes by exact Hs. cbn [bind]. destruct (passes q w); [|reflexivity].
      rewrite (bl_next _ _ _ _ Hbl). reflexivity.
    - rewrite in_range_0. cbn [bind]. rewrite (bl_next0 _ _ _ _ Hbl). reflexivity.
  Qed.
  Lemma ws_idx w i : ws (w ++ [LIdx i]) = ws (w ++ [LIdx 0]).
  Proof.
    unfold ws. rewrite !walive_snoc. destruct (walive w && passes q w); [|reflexivity].
    pose proof (bl_next _ _ _ _ Hbl w (LIdx i)) as H1. pose proof (bl_next _ _ _ _ Hbl w (LIdx 0)) as H2. cbn [linput] in *. congruence.
  Qed.

  Lemma coded_alive w : coded q w = reach q w && (walive w && passes q w).
  Proof.
    unfold coded, walive. rewrite seq_S, forallb_app. cbn [forallb Nat.add]. rewrite firstn_all, andb_true_r. reflexivity.
  Qed.
  Lemma mt_coded w : small w -> mt d (ws w) (ix w) = if coded q w then DFA_OUTPUT_CANDIDATE else 0.
  Proof.
    intros Hs. rewrite coded_alive. unfold mt, getMatchedType, ws. destruct (walive w); cbn [q_state andb].
    - rewrite (bl_accept _ _ _ _ Hbl). cbn [bind]. rewrite in_range_passes by exact Hs. destruct (reach q w); [|reflexivity].
      cbn [bind andb]. replace (DFA_OUTPUT_CANDIDATE =? DFA_OUTPUT_CANDIDATE) with true by reflexivity. cbv iota. destruct (passes q w); reflexivity.
    - rewrite (bl_accept0 _ _ _ _ Hbl), andb_false_r. reflexivity.
  Qed.

  Definition wpick (ns : list (path * json)) : list bytes :=
    map (fun n => text (snd n)) (filter (fun n => coded q (labels (fst n))) ns).
  Lemma wpick_app a b : wpick (a ++ b) = wpick a ++ wpick b.
  Proof. unfold wpick. rewrite filter_app, map_app. reflexivity. Qed.
  Lemma wpick_self p v : wpick [(p, v)] = if coded q (labels p) then [text v] else [].
  Proof. unfold wpick. cbn [filter fst]. destruct (coded _ _); reflexivity. Qed.

  Definition sv (ar : bool) (p : path) (v : json) : list tuple := t_val d ar (ws (labels p)) (ix (labels p)) v.
  Definition svm (p : path) (ms : members) : list tuple := t_ms d (ws (labels p)) (ix (labels p)) ms.
  Definition sve (p : path) (i : nat) (l : elements) : list tuple := t_es d (ws (labels p ++ [LIdx 0])) (Z.of_nat i) l.

  Lemma coded_out w : ((if coded q w then DFA_OUTPUT_CANDIDATE else 0) =? DFA_OUTPUT_CANDIDATE) = coded q w.
  Proof. destruct (coded q w); reflexivity. Qed.
  Lemma coded_pred w : ((if coded q w then DFA_OUTPUT_CANDIDATE else 0) =? DFA_PREDICATE) = false.
  Proof. destruct (coded q w); reflexivity. Qed.
  Lemma coded_cond w : ((if coded q w then DFA_OUTPUT_CANDIDATE else 0) =? DFA_CONDITION) = false.
  Proof. destruct (coded q w); reflexivity. Qed.

  Theorem texts_coded :
    (forall v ar p, smalls (nodes p v) -> map snd (sv ar p v) = wpick (nodes p v)) /\
    (forall ms p, small (labels p) -> smalls (nodes_ms p ms) -> map snd (svm p ms) = wpick (nodes_ms p ms)) /\
    (forall l p i, smalls (nodes_es p i l) -> map snd (sve p i l) = wpick (nodes_es p i l)).
  Proof.
    apply json_all_ind.
    - intros s ar p Hs. pose proof (smalls_self _ _ Hs) as Hs'. unfold sv. cbn [t_val nodes]. unfold t_prim.
      rewrite mt_coded, coded_out, coded_cond, orb_false_r, wpick_self by exact Hs'. destruct (coded _ _); reflexivity.
    - intros s ar p Hs. pose proof (smalls_self _ _ Hs) as Hs'. unfold sv. cbn [t_val nodes]. unfold t_prim.
      rewrite mt_coded, coded_out, coded_cond, orb_false_r, wpick_self by exact Hs'. destruct (coded _ _); reflexivity.
    - intros w ms IH ar p Hs. pose proof (smalls_self _ _ Hs) as Hs'. unfold sv. rewrite t_val_obj. unfold t_open_obj, t_close, t_close_elem.
      rewrite mt_coded, coded_out, coded_cond, coded_pred, andb_false_r by exact Hs'. cbn [nodes] in *. apply smalls_app in Hs.
      rewrite wpick_app, wpick_self, !map_app. specialize (IH p Hs' (proj1 Hs)). unfold svm, tuple in *. rewrite IH.
      cbn [map app]. rewrite app_nil_r. destruct (coded _ _); reflexivity.
    - intros w l IH ar p Hs. pose proof (smalls_self _ _ Hs) as Hs'. unfold sv. rewrite t_val_arr. unfold t_open_arr, t_close.
      rewrite mt_coded, coded_out, coded_cond by exact Hs'. change None with (linput (LIdx 0)). rewrite nx_ws by exact Hs'. cbn [nodes] in *.
      apply smalls_app in Hs. rewrite wpick_app, wpick_self, !map_app. specialize (IH p O (proj1 Hs)). unfold sve, tuple in *. cbn [Z.of_nat] in IH. rewrite IH.
      cbn [map app]. destruct (coded _ _); reflexivity.
    - reflexivity.
    - intros m k v IHv ms IHm p Hp' Hs. unfold svm. rewrite t_ms_cons. change (Some k) with (linput (LKey k)). rewrite nx_ws by exact Hp'.
      cbn [nodes_ms] in *. apply smalls_app in Hs. destruct Hs as [Hs1 Hs2]. specialize (IHv false _ Hs1). specialize (IHm p Hp' Hs2).
      unfold sv in IHv. rewrite labels_snoc, ix_key in IHv. unfold svm, tuple in *. rewrite map_app, wpick_app, IHv, IHm. reflexivity.
    - reflexivity.
    - intros wb v IHv wa l IHl p i Hs. unfold sve. rewrite t_es_cons.
      cbn [nodes_es] in *. apply smalls_app in Hs. destruct Hs as [Hs1 Hs2]. specialize (IHv true _ Hs1). specialize (IHl p (S i) Hs2).
      unfold sv in IHv. rewrite labels_snoc, ix_idx, ws_idx in IHv. unfold sve, tuple in *. replace (Z.of_nat (S i)) with (Z.of_nat i + 1) in IHl by lia.
      rewrite map_app, wpick_app, IHv, IHl. reflexivity.
  Qed.
End Run.

Lemma coded_reach q w : coded q w = true -> reach q w = true.
Proof. unfold coded. intros H. apply andb_true_iff in H. apply H. Qed.

(** What the serial run returns. *)
Theorem coded_answer N strict q j dc : slice_query q = true -> forallb slice_ok q = true -> names_fit q = true ->
  good_doc dc -> limits (map unsliced q) (d_val dc) -> j_major_null j = true ->
  exists p, createPathProcessor strict q = Ok p /\ serialRun N j p (doc_text dc) = Ok (Some (coded_text q (d_val dc))).
Proof.
  intros Hq Hslice Hnames [Hwf Hsafe Hbl Hsize] Hlim Hj.
  destruct (slices_built q Hq Hslice Hnames strict) as (d & x & st & Hb & Hbt). exists (mkProc d x).
  unfold createPathProcessor. rewrite Hb. split; [reflexivity|].
  assert (Hdt : doc_text dc = d_pre dc ++ text (d_val dc) ++ d_post dc) by reflexivity.
  assert (Htxt : 0 < zlen (text (d_val dc)) /\ zlen (text (d_val dc)) <= zlen (doc_text dc)).
  { rewrite Hdt, !zlen_app. pose proof (zlen_nonneg (d_pre dc)). pose proof (zlen_nonneg (d_post dc)).
    pose proof (text_pos (d_val dc) (wf_doc_val dc Hwf)). lia. }
  assert (Hint : zlen (text (d_val dc)) <= INT_MAX) by (unfold INT_MAX in *; lia).
  set (v := d_val dc) in *. assert (Hsm : smalls (nodes [] v)) by (intros n H; apply (nodes_small v n Hint H)).
  set (ts := t_val d false 1 0 v).
  assert (Hts : map snd ts = coded_text q v).
  { pose proof (proj1 (texts_coded q Hslice d x st Hbt) v false [] Hsm) as H. unfold sv, ws in H. cbn [labels map] in H.
    unfold walive, ix, last_idx in H. cbn in H. rewrite (bl_start _ _ _ _ Hbt) in H. exact H. }
  assert (Htl : Forall (fun t => zlen t <= 998) (map snd ts) /\ zlen ts <= 800000).
  { pose proof (lim_nodes _ _ Hlim) as Hn. split.
    - rewrite Hts. apply Forall_forall. intros t Ht. unfold coded_text in Ht. apply in_map_iff in Ht. destruct Ht as ([p u] & <- & Ht).
      apply filter_In in Ht. destruct Ht as [H1 H2]. cbn [fst snd] in *. apply (lim_text _ _ Hlim p u H1). left. apply coded_reach, H2.
    - assert (Hl : zlen ts = zlen (coded_text q v)) by (rewrite <- Hts; unfold zlen; rewrite map_length; reflexivity).
      rewrite Hl. unfold coded_text, zlen. rewrite map_length.
      pose proof (filter_le _ (fun n => coded q (labels (fst n))) (nodes [] v)) as Hle. unfold zlen in Hn. clear - Hn Hle. lia. }
  destruct Htl as [Ht1 Ht2].
  assert (Hlead : lead_blanks (d_pre dc) = O) by (apply lead_zero, Hbl).
  destruct (exec_doc d dc init_core (bl_ok _ _ _ _ Hbt) Hwf Hsafe Hlead eq_refl eq_refl ltac:(discriminate)) as (ms & _ & _ & He).
  { pose proof (bl_valid _ _ _ _ Hbt []) as H. rewrite (bl_start _ _ _ _ Hbt) in H. exact H. }
  { rewrite (proj1 depth_need). apply (lim_depth _ _ Hlim). }
  { cbn [init_core c_tl c_cur q_state q_count]. fold v. fold ts. split.
    - rewrite zlen_nil. unfold MAX_TUPLE_LIST, tuple, bytes in *. clear - Ht2. lia.
    - apply Forall_forall. intros t Ht. rewrite Forall_forall in Ht1. apply Ht1, in_map, Ht. }
  cbn [init_core c_tl c_cur q_state q_count app] in He. fold v in He. fold ts in He.
  assert (Hinit : initPredicateFilter x = Ok (mkF (repeat None MAX_PREDICATE_STATE) [] [] [])).
  { unfold initPredicateFilter. rewrite (bl_preds _ _ _ _ Hbt). reflexivity. }
  assert (Hout : generateFinalOutput N x (mkF (repeat None MAX_PREDICATE_STATE) [] [] []) ts
                 = Ok (mkF (repeat None MAX_PREDICATE_STATE) [] [] (coded_text q v))).
  { unfold generateFinalOutput. change (no_predicates _) with true. cbv iota. rewrite add_all; [cbn [bind f_output app]; rewrite Hts; reflexivity| |exact Ht1].
    cbn [f_output]. rewrite zlen_nil. unfold MAX_OUTPUT. assert (Hl : zlen (map snd ts) = zlen ts) by (unfold zlen; rewrite map_length; reflexivity).
    rewrite Hl. unfold tuple, bytes in *. clear - Ht2. lia. }
  unfold serialRun.
  assert (Hpr : exists ci, serialPartialRun N j (mkProc d x) (doc_text dc) init_context = Ok (coded_text q v, ci) /\ sc_context ci = true).
  { unfold serialPartialRun. cbn [init_context sc_context sc_core andb p_dfa p_ctx]. rewrite He. cbn [bind c_tl]. rewrite Hinit. cbn [bind].
    rewrite Hout. cbn [bind f_output]. eexists. split; reflexivity. }
  destruct Hpr as (ci & Hr & Hc). eapply run_whole; eauto; [unfold MAX_EXTENSION; lia|]. unfold MEMORY_FOOTPRINT. clear - Hsize Htxt. lia.
Qed.
