(** What holds of the compiler for every query, supported or not: it produces a
    well-formed automaton. *)
From Verif Require Import Base Util Spec QueryClass Regex RegexProof Mixer MixerProof Compress Dfa Stream TreeSem
                          Builder AutoProof BuilderProof.
Open Scope Z_scope.

Section Any.
  Variable U : list bytes.

  Record cinv (b : bctx) : Prop := {
    ci_nd : NoDup (b_names b);
    ci_in : incl (b_names b) U;
    ci_st : incl (st_names (b_st b)) U;
    ci_range : zlen (b_range b) = zlen (b_pats b);
    ci_trees : zlen (b_trees b) = zlen (b_pats b);
    ci_check : b_pats b = [] -> b_check b = [];
    ci_id : b_lastid b <> None <-> b_pats b <> [];
    ci_gen : b_lastgen b = Some true -> b_pats b <> []
  }.

  Lemma cinv_init : cinv init_bctx.
  Proof.
    constructor; cbn; try reflexivity; try (intros x []); try constructor; try discriminate; intros H; exfalso; apply H; reflexivity.
  Qed.

  Lemma cinv_push b s : cinv b -> incl (se_names s) U -> cinv (b_push b s).
  Proof.
    intros [] Hs. constructor; cbn; auto; try discriminate.
    unfold st_names in *. rewrite flat_map_app. cbn. rewrite app_nil_r. apply incl_app; assumption.
  Qed.

  Lemma cinv_pop b n : cinv b -> cinv (b_pop b n).
  Proof.
    intros []. constructor; cbn; auto.
    intros x Hx. apply ci_st0. unfold st_names in *. apply in_flat_map in Hx. destruct Hx as (s & Hs & Hx).
    apply in_flat_map. exists s. split; [|exact Hx]. rewrite <- (firstn_skipn (List.length (b_st b) - n) (b_st b)).
    apply in_or_app. left. exact Hs.
  Qed.

  (** A path is created as the output or for a filter variable; the latter never
      comes first. *)
  Lemma cinv_create p b : cinv b -> (p = true -> b_pats b <> []) ->
    cinv (fst (b_create p b)) /\ b_pats (fst (b_create p b)) <> [].
  Proof.
    intros Hb Hp. pose proof Hb as []. unfold b_create. destruct (existsb _ (b_check b)) eqn:E.
    - cbn [fst]. split; [exact Hb|]. intros H. rewrite (ci_check0 H) in E. discriminate.
    - cbn [fst]. split.
      2:{ cbn [b_pats]. intros H. apply app_eq_nil in H. destruct H as [_ H]. discriminate. }
      destruct (add_names_spec (b_st b) (b_names b) ci_nd0) as (ex & E1 & E2 & E3 & E4).
      constructor; cbn [b_st b_lastgen b_lastid b_names b_check b_pats b_range b_trees b_map b_handle].
      + rewrite E1. exact E2.
      + rewrite E1. apply incl_app; [exact ci_in0|]. intros x Hx. apply ci_st0, E4, Hx.
      + exact ci_st0.
      + rewrite !zlen_app, ci_range0. reflexivity.
      + rewrite !zlen_app, ci_trees0. reflexivity.
      + intros H. apply app_eq_nil in H. destruct H as [_ H]. discriminate.
      + split; intros _; [intros H; apply app_eq_nil in H; destruct H as [_ H]; discriminate|].
        destruct p; [|discriminate]. apply ci_id0, Hp. reflexivity.
      + intros _ H. apply app_eq_nil in H. destruct H as [_ H]. discriminate.
  Qed.

  Lemma cinv_tree b i e : cinv b -> cinv (set_tree b i e).
  Proof. intros []. constructor; cbn; auto. unfold zlen in *. rewrite upd_length. assumption. Qed.
  Lemma cinv_range b i r : cinv b -> cinv (set_range b i r).
  Proof. intros []. constructor; cbn; auto. unfold zlen in *. rewrite upd_length. assumption. Qed.
  Lemma cinv_map b m : cinv b -> cinv (set_map b m).
  Proof. intros []. constructor; cbn; auto. Qed.
  Lemma cinv_handle b h : cinv b -> cinv (set_handle b h).
  Proof. intros []. constructor; cbn; auto. Qed.

  Lemma cinv_pushes : forall p b, cinv b -> incl p U ->
    cinv (fold_left (fun b k => b_push b (SeDot k)) p b) /\ b_pats (fold_left (fun b k => b_push b (SeDot k)) p b) = b_pats b.
  Proof.
    induction p as [|k p IH]; intros b Hb Hi; cbn [fold_left]; [auto|].
    destruct (IH (b_push b (SeDot k))) as [H1 H2].
    - apply cinv_push; [exact Hb|]. cbn. intros x [<-|[]]. apply Hi. left. reflexivity.
    - intros x Hx. apply Hi. right. exact Hx.
    - split; [exact H1|]. rewrite H2. reflexivity.
  Qed.

  Lemma cinv_var b p : cinv b -> b_pats b <> [] -> incl p U -> cinv (filter_var b p) /\ b_pats (filter_var b p) <> [].
  Proof.
    intros Hb Hn Hi. unfold filter_var. destruct (cinv_pushes p b Hb Hi) as [H1 H2].
    set (b1 := fold_left (fun b k => b_push b (SeDot k)) p b) in *.
    destruct (cinv_create true b1 H1) as [H3 H4].
    { intros _. rewrite H2. exact Hn. }
    destruct (b_create true b1) as [b2 ig]. cbn [fst] in *. destruct ig.
    - split; [apply cinv_pop, H3|exact H4].
    - split; [apply cinv_pop, cinv_tree, cinv_map, H3|exact H4].
  Qed.

  Lemma cinv_filter : forall e b, cinv b -> b_pats b <> [] -> incl (List.concat (fields_in e)) U ->
    cinv (construct_filter b e) /\ b_pats (construct_filter b e) <> [].
  Proof.
    induction e as [p|ng lit|s|e IH|op e1 IH1 e2 IH2]; intros b Hb Hn Hi; cbn [construct_filter fields_in] in *; auto.
    - destruct p as [|k p]; [auto|]. apply cinv_var; auto. cbn [List.concat] in Hi. rewrite app_nil_r in Hi. exact Hi.
    - rewrite concat_app in Hi.
      assert (Hl : incl (List.concat (fields_in e1)) U) by (intros x Hx; apply Hi, in_or_app; auto).
      assert (Hr : incl (List.concat (fields_in e2)) U) by (intros x Hx; apply Hi, in_or_app; auto).
      destruct (IH1 b Hb Hn Hl). apply IH2; auto.
  Qed.

  Definition real_step (s : step) : bool := match s with SIndex _ => false | _ => true end.

  Lemma cinv_step strict b s : cinv b -> incl (step_names s) U ->
    (strict = true -> forall f, In f (step_fields s) -> (List.length f <= 1)%nat) ->
    exists b', construct_step strict b s = Ok b' /\ cinv b' /\ (b_lastgen b <> None \/ real_step s = true -> b_lastgen b' <> None).
  Proof.
    intros Hb Hi Hs.
    assert (Hgen : forall p b1, b_lastgen b1 <> None -> b_lastgen (fst (b_create p b1)) <> None).
    { intros p b1 H. unfold b_create. destruct (existsb _ _); cbn [fst b_lastgen]; [exact H|discriminate]. }
    destruct s as [k| |k| | |lo hi|n|e]; cbn [construct_step step_names] in *.
    - eexists. split; [reflexivity|]. split; [apply cinv_push; auto|discriminate].
    - eexists. split; [reflexivity|]. split; [apply cinv_push; auto; intros x []|discriminate].
    - eexists. split; [reflexivity|]. split; [apply cinv_push; auto|discriminate].
    - eexists. split; [reflexivity|]. split; [apply cinv_push; auto; intros x []|discriminate].
    - eexists. split; [reflexivity|]. split; [apply cinv_push; auto; intros x []|discriminate].
    - eexists. split; [reflexivity|]. split.
      + apply cinv_range. apply cinv_create; [|discriminate]. apply cinv_push; [exact Hb|intros x []].
      + intros _. apply (Hgen false). discriminate.
    - exists b. split; [reflexivity|]. split; [exact Hb|]. intros [H|H]; [exact H|discriminate].
    - destruct (cinv_create false (b_push b SeArray)) as [H1 H2].
      { apply cinv_push; [exact Hb|intros x []]. } { discriminate. }
      assert (Hm : modify_reference strict e = Ok tt).
      { unfold modify_reference. destruct strict; [|reflexivity].
        destruct (existsb _ (fields_of e)) eqn:E; [|reflexivity]. exfalso. apply existsb_exists in E.
        destruct E as (f & Hf & Hl). apply Nat.leb_le in Hl.
        assert (Heq : fields_of e = fields_in e).
        { clear. induction e; cbn; congruence. }
        rewrite Heq in Hf. specialize (Hs eq_refl f Hf). lia. }
      rewrite Hm. cbn [bind]. eexists. split; [reflexivity|].
      set (b1 := fst (b_create false (b_push b SeArray))) in *.
      set (b4 := set_tree _ _ _). assert (H4 : cinv b4) by (apply cinv_tree, cinv_map, cinv_handle, H1).
      split; [apply cinv_filter; auto|].
      intros _.
      assert (G4 : b_lastgen b4 <> None) by (apply (Hgen false); discriminate).
      clearbody b4. clear - G4 Hgen. revert b4 G4.
      induction e as [p|ng lit|s|e IH|op e1 IH1 e2 IH2]; intros b G; cbn [construct_filter]; auto.
      destruct p as [|k p]; [exact G|]. unfold filter_var.
      set (b1 := fold_left _ _ _). assert (G1 : b_lastgen b1 <> None).
      { unfold b1. clear b1. generalize (k :: p). intros l. revert b G. induction l as [|k' l IH]; intros b G; cbn; [exact G|].
        apply IH. discriminate. }
      specialize (Hgen true b1 G1). destruct (b_create true b1) as [b2 ig]. cbn [fst] in Hgen. destruct ig; exact Hgen.
  Qed.
End Any.

Lemma construct_any strict U : forall q b, cinv U b -> incl (query_names q) U ->
  (strict = true -> forall f, In f (query_fields q) -> (List.length f <= 1)%nat) ->
  exists b', foldM (construct_step strict) q b = Ok b' /\ cinv U b' /\
    (b_lastgen b <> None \/ existsb real_step q = true -> b_lastgen b' <> None).
Proof.
  induction q as [|s q IH]; intros b Hb Hi Hs; cbn [foldM].
  - exists b. split; [reflexivity|]. split; [exact Hb|]. intros [H|H]; [exact H|discriminate].
  - unfold query_names, query_fields in *. cbn [flat_map] in *.
    destruct (cinv_step U strict b s Hb) as (b1 & -> & H1 & G1).
    { intros x Hx. apply Hi, in_or_app. auto. }
    { intros E f Hf. apply (Hs E), in_or_app. auto. }
    cbn [bind]. destruct (IH b1 H1) as (b2 & -> & H2 & G2).
    { intros x Hx. apply Hi, in_or_app. auto. }
    { intros E f Hf. apply (Hs E), in_or_app. auto. }
    exists b2. split; [reflexivity|]. split; [exact H2|]. intros H. apply G2.
    cbn [existsb] in H. destruct (real_step s) eqn:Er.
    + left. apply G1. auto.
    + cbn [orb] in H. destruct H as [H|H]; [left; apply G1; auto|right; exact H].
Qed.

Lemma finish_any U b : cinv U b -> b_lastgen b <> None ->
  exists b' i, finish_ctx b = Ok (b', i) /\ cinv U b' /\ b_pats b' <> [].
Proof.
  intros Hb Hg. unfold finish_ctx. destruct (b_lastgen b) as [g|] eqn:E; [|contradiction].
  assert (H : cinv U (if g then b else fst (b_create false b)) /\ b_pats (if g then b else fst (b_create false b)) <> []).
  { destruct g; [split; [exact Hb|apply (ci_gen _ _ Hb E)]|apply cinv_create; [exact Hb|discriminate]]. }
  destruct H as [H1 H2]. set (b' := if g then b else fst (b_create false b)) in *.
  destruct (b_lastid b') as [i|] eqn:Ei.
  - exists b', i. auto.
  - exfalso. apply (ci_id _ _ H1) in H2. contradiction.
Qed.

(** Conversely nothing is built when no path was started. *)
Lemma finish_pats U b b' i : cinv U b -> finish_ctx b = Ok (b', i) -> cinv U b' /\ b_pats b' <> [].
Proof.
  intros Hb H. assert (Hg : b_lastgen b <> None).
  { unfold finish_ctx in H. destruct (b_lastgen b); discriminate. }
  destruct (finish_any U b Hb Hg) as (b2 & i2 & E & H1 & H2). rewrite E in H. injection H as <- <-. auto.
Qed.

Lemma last_match_bound : forall pats w i, 1 <= i -> last_match pats w i = 0 \/ i <= last_match pats w i < i + zlen pats.
Proof.
  induction pats as [|p pats IH]; intros w i Hi; cbn [last_match]; [auto|].
  rewrite zlen_cons. pose proof (zlen_nonneg pats). destruct (IH w (i + 1) ltac:(lia)) as [E|E].
  - rewrite E. cbn [negb Z.eqb]. destruct (pm p w); [right; lia|left; reflexivity].
  - destruct (Z.eqb_spec (last_match pats w (i + 1)) 0); [lia|]. cbn [negb]. right. lia.
Qed.

Section Main.
  Variables (b : bctx) (out : Z) (m : main_dfa) (T : list (list Z)) (ds : list sdfa).
  Notation inputs := (zlen (b_names b) + 3).
  Hypothesis Hm : main_ok inputs (b_pats b) ds m T.
  Hypothesis Hrange : zlen (b_range b) = zlen (b_pats b).
  Hypothesis Htrees : zlen (b_trees b) = zlen (b_pats b).

  Lemma any_stop s : 0 <= s < m_states m -> 0 <= tread (m_stops m) s <= zlen (b_pats b).
  Proof.
    intros Hs. pose proof (zlen_nonneg (b_pats b)). destruct (Z.eq_dec s 0) as [->|H0].
    - rewrite (mo_stop0 _ _ _ _ _ Hm). lia.
    - destruct (mo_reach _ _ _ _ _ Hm s ltac:(lia)) as (w & Hw & <-). destruct w as [|a w].
      + cbn [trun]. rewrite (mo_stop1 _ _ _ _ _ Hm). lia.
      + rewrite (mo_stop _ _ _ _ _ Hm) by (auto; discriminate).
        destruct (last_match_bound (b_pats b) (a :: w) 1 ltac:(lia)); lia.
  Qed.

  Lemma any_dfa : exists d, create_query_dfa b out m = Ok d /\ dfa_ok d /\ nstates d = m_states m /\
    (forall i, 0 <= i < m_states m -> zread (d_stop d) i = Ok 0 \/ zread (d_stop d) i = Ok (tread (m_stops m) i)) /\
    zread (d_accept d) 1 = Ok 0 /\ zread (d_range d) 1 = Ok (0, 0) /\
    (forall i a, 0 <= i < m_states m -> zread (d_accept d) i = Ok a -> a <> 0 -> tread (d_stop d) i <> 0).
  Proof.
    unfold create_query_dfa. rewrite (get_table_ok b m T ds Hm). cbn [bind].
    assert (Hi : exists infos, mapM (state_info b out m) (state_list (m_states m)) = Ok infos /\
              zlen infos = m_states m /\
              (forall i, 0 <= i < m_states m -> exists r, zread infos i = Ok r /\ (st_stop r = 0 \/ st_stop r = tread (m_stops m) i) /\
                (tread (m_stops m) i = 0 -> st_accept r = 0 /\ st_range r = (0, 0)) /\ (st_accept r <> 0 -> st_stop r <> 0))).
    { exists (map (info_of b out m T) (state_list (m_states m))). pose proof (mo_two _ _ _ _ _ Hm). split; [|split].
      - apply mapM_ok. intros i Hi. apply in_state_list in Hi. unfold state_info, info_of.
        pose proof (any_stop i Hi) as Hb. destruct (Z.eqb_spec (tread (m_stops m) i) 0) as [E|E]; [reflexivity|].
        rewrite (array_target_ok b m T ds Hm).
        assert (Hr : zread (b_range b) (tread (m_stops m) i - 1) = Ok (rng_of b (tread (m_stops m) i))).
        { unfold zread, znth, rng_of. replace (tread (m_stops m) i - 1 <? 0) with false by lia.
          destruct (nth_error _ _) as [r|] eqn:En.
          - rewrite (nth_error_nth _ _ (0, 0) En). reflexivity.
          - apply nth_error_None in En. unfold zlen in *. lia. }
        destruct (tread (m_stops m) i =? out); [|destruct (arr_target m T i)]; cbn [bind]; rewrite Hr; cbn [bind];
          fold (has_rng (rng_of b (tread (m_stops m) i))); destruct (has_rng _); reflexivity.
      - unfold zlen. rewrite map_length. fold (zlen (state_list (m_states m))). apply zlen_state_list. lia.
      - intros i Hi. eexists. split; [apply zread_map, Hi|]. unfold info_of.
        destruct (Z.eqb_spec (tread (m_stops m) i) 0) as [E|E]; [auto|].
        destruct (has_rng _); [|cbn; repeat split; auto; intros; contradiction].
        destruct (_ =? DFA_OUTPUT_CANDIDATE); cbn; repeat split; auto; intros; contradiction. }
    destruct Hi as (infos & -> & Hl & Hst). cbn [bind]. eexists. split; [reflexivity|].
    pose proof (mo_two _ _ _ _ _ Hm). pose proof (zlen_nonneg (b_names b)).
    assert (Hn : zlen T = m_states m) by apply (mo_states _ _ _ _ _ Hm).
    split; [|split; [|split; [|split; [|split]]]].
    - constructor; unfold nstates; cbn [d_inputs d_names d_accept d_range d_table].
      + lia.
      + rewrite (mo_inputs _ _ _ _ _ Hm). lia.
      + rewrite (mo_inputs _ _ _ _ _ Hm), !zlen_cons. lia.
      + unfold zlen at 1. rewrite map_length. fold (zlen infos). lia.
      + unfold zlen at 1. rewrite map_length. fold (zlen infos). lia.
      + intros row Hr. destruct (mo_row _ _ _ _ _ Hm row Hr) as [H1 H2]. rewrite (mo_inputs _ _ _ _ _ Hm). split; [exact H1|].
        rewrite Hn. exact H2.
    - exact Hn.
    - intros i Hi. cbn [d_stop]. destruct (Hst i Hi) as (r & Hr & Hor & _). unfold zread, znth in *.
      destruct (i <? 0); [discriminate|]. rewrite nth_error_map. destruct (nth_error infos _); [|discriminate].
      injection Hr as ->. cbn [option_map]. destruct Hor as [->| ->]; auto.
    - cbn [d_accept]. destruct (Hst 1 ltac:(lia)) as (r & Hr & _ & Ha & _). unfold zread, znth in *.
      cbn [Z.ltb Z.compare] in *. rewrite nth_error_map. destruct (nth_error infos _); [|discriminate].
      injection Hr as ->. cbn [option_map]. rewrite (proj1 (Ha (mo_stop1 _ _ _ _ _ Hm))). reflexivity.
    - cbn [d_range]. destruct (Hst 1 ltac:(lia)) as (r & Hr & _ & Ha & _). unfold zread, znth in *.
      cbn [Z.ltb Z.compare] in *. rewrite nth_error_map. destruct (nth_error infos _); [|discriminate].
      injection Hr as ->. cbn [option_map]. rewrite (proj2 (Ha (mo_stop1 _ _ _ _ _ Hm))). reflexivity.
    - intros i a Hi. cbn [d_accept d_stop]. destruct (Hst i Hi) as (r & Hr & _ & _ & Ha). unfold tread, zread, znth in *.
      destruct (i <? 0); [discriminate|]. rewrite nth_error_map. destruct (nth_error infos _) as [r'|] eqn:En; [|discriminate].
      injection Hr as ->. cbn [option_map]. intros E Hne. injection E as <-.
      rewrite (nth_error_nth _ _ 0 (map_nth_error st_stop _ _ En)). auto.
  Qed.

  Lemma any_ctx d : (forall i, 0 <= i < m_states m -> zread (d_stop d) i = Ok 0 \/ zread (d_stop d) i = Ok (tread (m_stops m) i)) ->
    exists x, create_context b m d = Ok x /\ zlen (x_subtrees x) = m_states m /\ zlen (x_mapping x) = m_states m /\
      (forall s, In s (x_preds x) -> 0 <= s < m_states m) /\
      (forall s, 0 <= s < m_states m -> tread (d_stop d) s <> 0 -> tread (d_accept d) s = DFA_PREDICATE -> In s (x_preds x)).
  Proof.
    intros Hs. unfold create_context. pose proof (mo_two _ _ _ _ _ Hm).
    assert (Hl : exists l, mapM (state_ctx b m d) (state_list (m_states m)) = Ok l /\ zlen l = m_states m).
    { set (g := fun i => get (state_ctx b m d i) (None, [])). exists (map g (state_list (m_states m))). split.
      - apply mapM_ok. intros i Hi. apply in_state_list in Hi. unfold g, state_ctx. pose proof (any_stop i Hi) as Hb.
        destruct (Hs i Hi) as [->| ->]; cbn [bind]; [reflexivity|].
        destruct (Z.eqb_spec (tread (m_stops m) i) 0); [reflexivity|].
        destruct (zread_ok (b_trees b) (tread (m_stops m) i - 1)) as (t & -> & _); [lia|]. reflexivity.
      - unfold zlen. rewrite map_length. fold (zlen (state_list (m_states m))). apply zlen_state_list. lia. }
    destruct Hl as (l & -> & Hl). cbn [bind]. eexists. split; [reflexivity|]. cbn [x_subtrees x_mapping x_preds].
    unfold zlen in *. rewrite !map_length. split; [exact Hl|]. split; [exact Hl|].
    split.
    - intros s Hin. apply filter_In in Hin. apply in_state_list. apply Hin.
    - intros s Hr Hn Ha. apply filter_In. rewrite in_state_list. split; [exact Hr|]. rewrite Ha, Z.eqb_refl.
      apply Z.eqb_neq in Hn. rewrite Hn. reflexivity.
  Qed.
End Main.

(** The bound of the [int] arithmetic on the number of names. *)
Definition name_bound : Z := 2147483000.

Lemma names_bound U b : cinv U b -> zlen (b_names b) <= zlen U.
Proof.
  intros Hb. unfold zlen. apply inj_le. apply NoDup_incl_length; [apply (ci_nd _ _ Hb)|apply (ci_in _ _ Hb)].
Qed.

Record built (d : dfa) (x : qctx) : Prop := {
  bt_dfa : dfa_ok d;
  bt_trees : zlen (x_subtrees x) = nstates d;
  bt_map : zlen (x_mapping x) = nstates d;
  bt_preds : forall s, In s (x_preds x) -> valid_state d s;
  bt_start : zread (d_accept d) 1 = Ok 0;
  bt_free  : zread (d_range d) 1 = Ok (0, 0);
  bt_all   : forall s, valid_state d s -> zread (d_accept d) s = Ok DFA_PREDICATE -> In s (x_preds x)
}.

Lemma build_rest U b out : cinv U b -> b_pats b <> [] -> zlen U <= name_bound ->
  exists d x, (m <- compile_patterns (zlen (b_names b) + 3) (b_pats b) ;;
               d <- create_query_dfa b out m ;; x <- create_context b m d ;; Ok (d, x)) = Ok (d, x) /\ built d x.
Proof.
  intros Hb Hp HU. pose proof (names_bound U b Hb) as Hn. pose proof (zlen_nonneg (b_names b)) as H0. unfold compile_patterns.
  destruct (create_all (zlen (b_names b) + 3) (b_pats b) ltac:(lia)) as (ds & -> & F). cbn [bind].
  destruct (Combine_ok (zlen (b_names b) + 3) ltac:(unfold name_bound in *; lia) (b_pats b) ds F Hp) as (m & T & -> & Hm). cbn [bind].
  destruct (any_dfa b out m T ds Hm (ci_range _ _ Hb)) as (d & -> & Hd & Hns & Hst & Hs1 & Hsr & Hsa). cbn [bind].
  destruct (any_ctx b m T ds Hm (ci_trees _ _ Hb) d Hst) as (x & -> & H1 & H2 & H3 & H4). cbn [bind].
  exists d, x. split; [reflexivity|]. constructor; rewrite ?Hns; auto.
  - intros s Hs. unfold valid_state. rewrite Hns. auto.
  - intros s Hs Ha. unfold valid_state in Hs. rewrite Hns in Hs. apply H4; [exact Hs| |].
    + eapply Hsa; [exact Hs|exact Ha|discriminate].
    + unfold tread. unfold zread, znth in Ha. destruct (s <? 0); [discriminate|].
      destruct (nth_error _ _) eqn:En; [|discriminate]. injection Ha as ->. exact (nth_error_nth _ _ 0 En).
Qed.

(** Every query with a step other than [n] compiles. *)
Theorem build_total strict q : existsb real_step q = true ->
  (strict = true -> forall f, In f (query_fields q) -> (List.length f <= 1)%nat) ->
  zlen (query_names q) <= name_bound ->
  exists d x, build strict q = Ok (d, x) /\ built d x.
Proof.
  intros Hr Hs HU. unfold build, construct_dfa.
  destruct (construct_any strict (query_names q) q init_bctx (cinv_init _) (incl_refl _) Hs) as (b & -> & Hb & Hg).
  cbn [bind]. destruct (finish_any _ b Hb (Hg (or_intror Hr))) as (b' & i & -> & Hb' & Hp). cbn [bind].
  apply (build_rest _ b' i Hb' Hp HU).
Qed.

Lemma build_inv strict q d x : build strict q = Ok (d, x) ->
  exists b i, cinv (query_names q) b /\ b_pats b <> [] /\
    (m <- compile_patterns (zlen (b_names b) + 3) (b_pats b) ;;
     d <- create_query_dfa b i m ;; x <- create_context b m d ;; Ok (d, x)) = Ok (d, x).
Proof.
  intros Hbd. unfold build, construct_dfa in Hbd.
  assert (Hc : exists b, foldM (construct_step strict) q init_bctx = Ok b /\ cinv (query_names q) b).
  { destruct (foldM (construct_step strict) q init_bctx) as [b|u] eqn:E; [|discriminate]. exists b. split; [reflexivity|].
    assert (E' : foldM (construct_step false) q init_bctx = Ok b).
    { clear - E. revert E. generalize init_bctx as b0. induction q as [|s q IH]; intros b0 E; cbn [foldM] in *; [exact E|].
      destruct (construct_step strict b0 s) as [b1|] eqn:Es; [|discriminate]. cbn [bind] in E.
      assert (Ef : construct_step false b0 s = Ok b1).
      { destruct s; cbn [construct_step] in *; auto. unfold modify_reference in *. cbn [andb bind].
        destruct (strict && _) in Es; [discriminate|exact Es]. }
      rewrite Ef. cbn [bind]. apply IH, E. }
    destruct (construct_any false (query_names q) q init_bctx (cinv_init _) (incl_refl _)) as (b' & Eb & Hb & _); [discriminate|].
    rewrite E' in Eb. injection Eb as ->. exact Hb. }
  destruct Hc as (b & E & Hb). rewrite E in Hbd. cbn [bind] in Hbd.
  destruct (finish_ctx b) as [[b' i]|] eqn:Ef; [|discriminate]. cbn [bind] in Hbd.
  destruct (finish_pats _ _ _ _ Hb Ef) as [Hb' Hp].
  exists b', i. auto.
Qed.

Theorem build_any strict q d x : zlen (query_names q) <= name_bound -> build strict q = Ok (d, x) -> built d x.
Proof.
  intros HU Hbd. destruct (build_inv _ _ _ _ Hbd) as (b & i & Hb & Hp & E).
  destruct (build_rest _ b i Hb Hp HU) as (d' & x' & E' & Hbt). rewrite E' in E. injection E as <- <-. exact Hbt.
Qed.

(** The names of the automaton are names of the query. *)
Lemma build_names strict q d x : build strict q = Ok (d, x) ->
  exists ns, d_names d = [] :: B "other" :: B "array" :: ns /\ incl ns (query_names q).
Proof.
  intros Hbd. destruct (build_inv _ _ _ _ Hbd) as (b & i & Hb & Hp & E).
  destruct (compile_patterns _ _) as [m|]; [|discriminate]. cbn [bind] in E.
  unfold create_query_dfa in E. destruct (get_table m) as [t|]; [|discriminate]. cbn [bind] in E.
  destruct (mapM _ _) as [infos|]; [|discriminate]. cbn [bind] in E.
  destruct (create_context b m _) as [x'|]; [|discriminate]. cbn [bind] in E. injection E as <- _.
  exists (b_names b). split; [reflexivity|apply (ci_in _ _ Hb)].
Qed.
