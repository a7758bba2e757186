(** The automaton properties. *)
From Verif Require Import Base Util Spec QueryClass AutoSpec Regex RegexProof Mixer MixerProof Compress CompressProof Dfa Stream TreeSem
  Builder AutoProof BuilderProof Roles Compiled TreeSel AnyQuery EndToEnd Claims ClaimProof.
Open Scope Z_scope.

Lemma widen_match : forall w q, no_index q -> lsel (widen q) w = st_match (stack_of q) w.
Proof.
  induction w as [|l w IH]; intros q Hn.
  - destruct q as [|s q]; [reflexivity|]. cbn [lsel widen map stack_of flat_map].
    pose proof (Hn s (or_introl eq_refl)) as Hs. destruct s; cbn in *; try reflexivity; try congruence; destruct (in_dec _ _ _); reflexivity.
  - destruct q as [|s q]; [reflexivity|]. assert (Hn' : no_index q) by (intros x Hx; apply Hn; right; exact Hx).
    pose proof (Hn s (or_introl eq_refl)) as Hs.
    pose proof (IH q Hn') as H1. pose proof (IH (s :: q) Hn) as H2.
    destruct s; cbn [widen map widen_step lsel stack_of flat_map se_of app st_match] in *; fold (stack_of q) in *; fold (widen q) in *;
      try congruence; try (rewrite H1; reflexivity); try (rewrite H1, H2; reflexivity).
Qed.

Lemma follow_app d : forall w s w', follow d s (w ++ w') = (s' <- follow d s w ;; follow d s' w').
Proof.
  induction w as [|l w IH]; intros s w'; cbn [app follow bind]; [reflexivity|].
  destruct (dfaNextStateByStr d s (asked l)); cbn [bind]; [apply IH|reflexivity].
Qed.

Lemma follow_st d (st : list label -> Z) : (forall w l, dfaNextStateByStr d (st w) (linput l) = Ok (st (w ++ [l]))) ->
  forall w, follow d (st []) w = Ok (st w).
Proof.
  intros H w. induction w as [|l w IH] using rev_ind; [reflexivity|]. rewrite follow_app, IH. cbn [bind follow].
  change (asked l) with (linput l). rewrite H. reflexivity.
Qed.

(** * Any list of path expressions *)
Definition expression_ctx (names : list bytes) (es : list query) : bctx :=
  mkB [] None None names [] (map (fun e => flat_map (items_of names) (stack_of e)) es)
      (map (fun _ => (0, 0)) es) (map (fun _ => None) es) [] 0.

Lemma stack_names q : no_index q -> (forall s, In s q -> is_filter s = false) -> incl (st_names (stack_of q)) (query_names q).
Proof.
  intros Hn Hf k Hk. unfold st_names, stack_of in Hk. apply in_flat_map in Hk. destruct Hk as (e & He & Hk).
  apply in_flat_map in He. destruct He as (s & Hs & He). apply in_flat_map. exists s. split; [exact Hs|].
  specialize (Hf s Hs). destruct s; cbn in *; try discriminate; intuition (subst; cbn in *; intuition).
Qed.

Theorem expressions_match names es out : NoDup names ->
  zlen names <= 253 \/ (Forall (fun e => existsb is_wild e = false) es /\ zlen names <= 2147483000) -> es <> [] ->
  (forall e, In e es -> path_query e = true /\ incl (query_names e) names) ->
  exists m d, compile_patterns (zlen names + 3) (b_pats (expression_ctx names es)) = Ok m /\
    create_query_dfa (expression_ctx names es) out m = Ok d /\
    forall w, exists s n, follow d 1 w = Ok s /\ getDFAStopState d s = Ok n /\ last_matching es w n.
Proof.
  intros Hnd Hsm0 Hne Hes. set (b := expression_ctx names es). set (sts := map stack_of es).
  assert (Hp : forall e, In e es -> no_index e /\ (forall s, In s e -> is_filter s = false) /\ e <> [] /\ widen e = e).
  { intros e He. destruct (Hes e He) as [H _]. unfold path_query in H. apply andb_true_iff in H. destruct H as [H0 H].
    rewrite forallb_forall in H. repeat split.
    - intros s Hs. specialize (H s Hs). destruct s; try discriminate; congruence.
    - intros s Hs. specialize (H s Hs). destruct s; try discriminate; reflexivity.
    - intros ->. discriminate.
    - unfold widen. rewrite <- (map_id e) at 2. apply map_ext_in. intros s Hs. specialize (H s Hs). destruct s; try discriminate; reflexivity. }
  assert (Hsm : codes_fit (b_names b) sts).
  { destruct Hsm0 as [H|[H H']]; [left; exact H|right]. split; [|exact H']. unfold sts. apply Forall_map.
    eapply Forall_impl; [|exact H]. intros e He. apply stack_no_wild, He. }
  assert (A1 : sts <> []) by (unfold sts; destruct es; [contradiction|discriminate]).
  assert (A2 : Forall (fun st => st <> []) sts).
  { apply Forall_forall. intros st Hst. apply in_map_iff in Hst. destruct Hst as (e & <- & He).
    destruct (Hp e He) as (P1 & _ & P3 & _). intros E. apply (f_equal (@List.length se)) in E. rewrite stack_len in E by exact P1.
    destruct e; [contradiction|discriminate]. }
  assert (A3 : Forall (fun st => incl (st_names st) (b_names b)) sts).
  { apply Forall_forall. intros st Hst. apply in_map_iff in Hst. destruct Hst as (e & <- & He).
    destruct (Hp e He) as (P1 & P2 & _). intros k Hk. apply (proj2 (Hes e He)). apply stack_names; assumption. }
  assert (A4 : b_pats b = map (flat_map (items_of (b_names b))) sts) by (unfold sts; rewrite map_map; reflexivity).
  assert (A5 : zlen (b_range b) = zlen sts) by (unfold zlen, sts; cbn; rewrite !map_length; reflexivity).
  assert (A6 : zlen (b_trees b) = zlen sts) by (unfold zlen, sts; cbn; rewrite !map_length; reflexivity).
  destruct (compile_main b sts Hsm A1 A2 A3 A4 A5 A6) as (m & T & E & ds & _ & Hm).
  exists m, (the_dfa b out m T). split; [exact E|].
  split; [apply (create_query_dfa_ok b out sts Hnd Hsm A2 A3 A4 A5 m T ds Hm)|].
  intros w. pose proof (stt_range b m T ds Hm w) as Hr.
  exists (stt b T w). exists (last_st sts w 1).
  assert (Hinfo : st_stop (info_of b out m T (stt b T w)) = last_st sts w 1).
  { unfold info_of. rewrite (stt_stop b sts Hsm A2 A3 A4 m T ds Hm w).
    destruct (Z.eqb_spec (last_st sts w 1) 0) as [E0|E0]; [rewrite E0; reflexivity|].
    assert (Hz : rng_of b (last_st sts w 1) = (0, 0)).
    { unfold rng_of. cbn [b expression_ctx b_range]. clear. generalize (Z.to_nat (last_st sts w 1 - 1)) as n.
      induction es as [|e l IH]; intros [|n]; cbn; auto. }
    rewrite Hz. reflexivity. }
  split; [|split].
  - change 1 with (stt b T []). apply follow_st. intros w' l.
    apply (next_label b out sts Hnd Hsm A3 A4 m T ds Hm w' l).
  - rewrite (the_stop b out m T ) by exact Hr. rewrite Hinfo. reflexivity.
  - assert (Hsel : forall e, In e es -> lsel e w = st_match (stack_of e) w).
    { intros e He. destruct (Hp e He) as (P1 & _ & _ & P4). rewrite <- P4 at 1. apply widen_match, P1. }
    destruct (last_st_spec sts w 1 ltac:(lia)) as [[E0 H0]|(j & st & Hj & E0 & Hmt & Hlast)].
    + left. split; [exact E0|]. intros e He. rewrite Hsel by exact He. apply H0. unfold sts. apply in_map, He.
    + right. assert (He : exists e, nth_error es j = Some e /\ stack_of e = st).
      { unfold sts in Hj. rewrite nth_error_map in Hj. unfold query in *. destruct (nth_error es j) as [e|]; [|discriminate Hj].
        exists e. injection Hj as <-. auto. }
      destruct He as (e & Ee & <-). exists j, e. split; [exact E0|]. split; [exact Ee|]. split.
      * rewrite Hsel; [exact Hmt|]. eapply nth_error_In; eauto.
      * intros i' e' Hi He'. rewrite Hsel by (eapply nth_error_In; eauto). apply (Hlast i' (stack_of e') Hi).
        unfold sts. apply map_nth_error, He'.
Qed.

(** * The automaton of a supported query *)
Theorem query_paths strict q : supported q = true -> (strict = true -> single_names q) ->
  exists d x, build strict q = Ok (d, x) /\
    forall w, exists s a, follow d 1 w = Ok s /\ getDFAAcceptType d s = Ok a /\
      (a = DFA_OUTPUT_CANDIDATE <-> lsel (widen q) w = true) /\
      (a = DFA_PREDICATE <-> filtered_at q w) /\
      (a = DFA_CONDITION <-> looked_at q w).
Proof.
  intros Hs Hst. destruct (supported_parts q Hs) as (Hrbd & Hsl & Hend & Hfo & Hfi & Hnm).
  assert (Hne : forall f, In f (query_fields q) -> f <> []).
  { intros f Hf. unfold fields_ok in Hfi. rewrite forallb_forall in Hfi. specialize (Hfi f Hf). intros ->. discriminate. }
  assert (Hff : fields_fine strict q).
  { intros f Hf. split; [apply Hne, Hf|]. intros Es. apply (Hst Es f Hf). }
  destruct (build_ok q strict Hrbd Hsl Hend Hff Hnm) as (d & x & st & E & C). exists d, x. split; [exact E|].
  pose proof (rbd_no_index _ _ Hrbd) as Hni.
  assert (Hnf : forall n, no_index (firstn n q)).
  { intros n s Hin. apply Hni. rewrite <- (firstn_skipn n q). apply in_or_app. left. exact Hin. }
  intros w. exists (st w), (accept_of q (cls q w)). split; [rewrite <- (cp_start _ _ _ _ C); apply follow_st, (cp_next _ _ _ _ C)|].
  split; [apply (cp_accept _ _ _ _ C)|]. rewrite (widen_match w q Hni). split; [|split].
  - rewrite <- (out_role q Hrbd Hsl Hend Hne w). split.
    + destruct (cls q w) as [r|] eqn:Ec; [|discriminate]. cbn [accept_of]. destruct (is_out q r) eqn:Eo; [eauto|].
      destruct r; discriminate.
    + intros (r & -> & Ho). cbn [accept_of]. rewrite Ho. reflexivity.
  - split.
    + destruct (cls q w) as [r|] eqn:Ec; [|discriminate]. cbn [accept_of]. destruct (is_out q r) eqn:Eo; [discriminate|].
      destruct r as [j|j|j f|]; try discriminate. intros _. apply (rp_role q Hrbd Hsl Hend Hne) in Ec.
      destruct Ec as (e & Hj & Hm). exists j, e. split; [exact Hj|]. rewrite widen_match by apply Hnf. exact Hm.
    + intros (j & e & Hj & Hm). rewrite widen_match in Hm by apply Hnf.
      assert (Hc : cls q w = Some (RP j)) by (apply (rp_role q Hrbd Hsl Hend Hne); eauto). rewrite Hc. reflexivity.
  - split.
    + destruct (cls q w) as [r|] eqn:Ec; [|discriminate]. cbn [accept_of]. destruct (is_out q r) eqn:Eo; [discriminate|].
      destruct r as [j|j|j f|]; try discriminate. intros _. apply (rc_role q Hrbd Hend Hne) in Ec.
      destruct Ec as (e & u & Hj & Hf & Ew & Hm). exists j, e, f, u. rewrite widen_match by apply Hnf. auto.
    + intros (j & e & f & u & Hj & Hf & Ew & Hm). rewrite widen_match in Hm by apply Hnf.
      assert (Hc : cls q w = Some (RC j f)) by (apply (rc_role q Hrbd Hend Hne); exists e, u; auto). rewrite Hc. reflexivity.
Qed.

(** * Unknown keys *)
Lemma find_none d row k : zlen row = d_inputs d -> zlen (d_names d) = d_inputs d ->
  (forall c, 3 <= c -> zread (d_names d) c = Ok k -> zread row c = Ok 0) ->
  forall n c, 3 <= c -> c + Z.of_nat n = d_inputs d -> find_input n d row c k = Ok 1.
Proof.
  intros Hr Hn H. induction n as [|n IH]; intros c Hc Hl; [reflexivity|]. cbn [find_input].
  destruct (zread_ok row c) as (e & Ee & _); [lia|]. rewrite Ee. cbn [bind]. rewrite (IH (c + 1)) by lia.
  destruct (Z.eqb_spec e 0) as [->|E0]; [reflexivity|].
  destruct (zread_ok (d_names d) c) as (nm & En & _); [lia|]. rewrite En. cbn [bind]. destruct (beq nm k) eqn:Eb; [|reflexivity].
  apply beq_true in Eb. subst nm. rewrite (H c Hc En) in Ee. congruence.
Qed.

Lemma unusable_other d s k : dfa_ok d -> valid_state d s -> unusable d s k ->
  dfaNextStateByStr d s (Some k) = dfaNextState d s 1.
Proof.
  intros Hd Hs Hu. cbn [dfaNextStateByStr]. unfold dfaNextState.
  destruct (zread_ok (d_table d) s Hs) as (row & Er & Hin). rewrite Er. cbn [bind].
  destruct (ok_rows d Hd row Hin) as [Hl _]. pose proof (ok_inputs d Hd).
  rewrite (find_none d row k Hl (ok_names d Hd)); [reflexivity| |lia|lia].
  intros c Hc Hk. specialize (Hu c Hc Hk). unfold dfaNextState in Hu. rewrite Er in Hu. exact Hu.
Qed.

Theorem unknown_keys strict q d x s k : zlen (query_names q) <= name_bound -> build strict q = Ok (d, x) -> valid_state d s ->
  ~ In k (query_names q) \/ unusable d s k -> dfaNextStateByStr d s (Some k) = dfaNextState d s 1.
Proof.
  intros HU Hb Hs Hk. pose proof (build_any _ _ _ _ HU Hb) as Hbt. apply (unusable_other d s k (bt_dfa _ _ Hbt) Hs).
  destruct Hk as [Hk|Hk]; [|exact Hk]. destruct (build_names _ _ _ _ Hb) as (ns & En & Hi).
  intros c Hc Hz. exfalso. apply Hk, Hi. rewrite En in Hz. unfold zread, znth in Hz.
  destruct (c <? 0); [discriminate|]. replace (Z.to_nat c) with (S (S (S (Z.to_nat (c - 3))))) in Hz by lia. cbn [nth_error] in Hz.
  destruct (nth_error ns _) eqn:E; [|discriminate]. injection Hz as ->. eapply nth_error_In; eauto.
Qed.

Definition unusable_check (d : dfa) (s : Z) (k : bytes) : bool :=
  forallb (fun c => match zread (d_names d) c with
                    | Ok nm => negb (beq nm k) || match dfaNextState d s c with Ok t => t =? 0 | _ => false end
                    | _ => true end) (state_list (zlen (d_names d))).
Lemma unusable_checked d s k : unusable_check d s k = true -> unusable d s k.
Proof.
  unfold unusable_check. rewrite forallb_forall. intros H c Hc Hz.
  assert (Hin : In c (state_list (zlen (d_names d)))).
  { assert (c < zlen (d_names d)).
    { unfold zread, znth in Hz. destruct (c <? 0) eqn:E; [discriminate|]. destruct (nth_error _ _) eqn:En; [|discriminate].
      assert (Hl : nth_error (d_names d) (Z.to_nat c) <> None) by congruence. apply nth_error_Some in Hl. unfold zlen. lia. }
    apply in_state_list. lia. }
  specialize (H c Hin). rewrite Hz, beq_refl in H. cbn [negb orb] in H.
  destruct (dfaNextState d s c) as [t|]; [|discriminate]. apply Z.eqb_eq in H. congruence.
Qed.

(** * The compressed table *)
Lemma rows_ok_of : forall rows s, (forall t row max, nth_error rows t = Some (row, max) ->
    Z.of_nat t + s <= max /\ zlen row < 2147483648 /\ forall q, In q row -> 0 <= q <= max) -> rows_ok s rows.
Proof.
  induction rows as [|[row max] rows IH]; intros s H; cbn [rows_ok]; [exact I|].
  destruct (H O row max eq_refl) as (H1 & H2 & H3). repeat split; try lia; try apply H3; auto.
  apply IH. intros t row' max' Ht. destruct (H (S t) row' max' Ht) as (E1 & E2 & E3). repeat split; try lia; try apply E3; auto.
Qed.

Theorem lossless rows : proper_rows rows ->
  exists c, add_rows empty_cdfa 1 rows = Ok c /\
    forall t row max a, nth_error rows t = Some (row, max) -> 1 <= a < zlen row ->
      lookup c (Z.of_nat t + 1) a = zread row a.
Proof. intros H. apply compress_lossless, rows_ok_of. exact H. Qed.
