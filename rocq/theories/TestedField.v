(** Queries whose last steps select a field that the filter before them tests. *)
From Verif Require Import Base Util Spec QueryClass Regex RegexProof Mixer MixerProof Compress
  Dfa Stream TreeSem Builder Eval Filter AutoProof BuilderProof Roles Compiled TreeSel Claims Num Loader Run FinalSpec FinalFilter.
Open Scope Z_scope.

(** * The last steps are the field itself *)
Lemma b_create_in flag b : In (b_st b) (b_check (fst (b_create flag b))).
Proof.
  unfold b_create. destruct (existsb _ _) eqn:E; cbn [fst].
  - apply existsb_exists in E. destruct E as (x & Hx & E). apply st_eqb_true in E. subst x. exact Hx.
  - cbn [b_check]. apply in_or_app. right. left. reflexivity.
Qed.
Lemma b_create_keep flag b : b_st (fst (b_create flag b)) = b_st b /\ incl (b_check b) (b_check (fst (b_create flag b))).
Proof.
  unfold b_create. destruct (existsb _ _); cbn [fst b_st b_check]; (split; [reflexivity|]); [apply incl_refl|].
  intros x Hx. apply in_or_app. left. exact Hx.
Qed.
Lemma b_create_known flag b : In (b_st b) (b_check b) -> b_create flag b = (b, true).
Proof.
  intros H. unfold b_create. replace (existsb (st_eqb (b_st b)) (b_check b)) with true; [reflexivity|].
  symmetry. apply existsb_exists. exists (b_st b). split; [exact H|]. apply st_eqb_true. reflexivity.
Qed.

Lemma filter_var_check b f : b_st (filter_var b f) = b_st b /\ incl (b_check b) (b_check (filter_var b f)) /\
  In (b_st b ++ map SeDot f) (b_check (filter_var b f)).
Proof.
  unfold filter_var. rewrite (push_fields b f b eq_refl). set (b1 := mkB _ _ _ _ _ _ _ _ _ _).
  destruct (b_create_keep true b1) as [K1 K2]. pose proof (b_create_in true b1) as K3. destruct (b_create true b1) as [b2 ign]. cbn [fst] in *.
  assert (Hs : b_st (b_pop (if ign : bool then b2 else set_tree (set_map b2 (map_push (b_map b2) (b_handle b2) (zlen (b_pats b2) - 1))) (zlen (b_pats b2) - 1) (EField f)) (List.length f)) = b_st b).
  { destruct ign; cbn [b_pop set_tree set_map b_st]; rewrite K1; unfold b1; cbn [b_st]; rewrite app_length, map_length, Nat.add_sub, firstn_app, firstn_all, Nat.sub_diag;
      cbn [firstn]; apply app_nil_r. }
  assert (Hc : b_check (b_pop (if ign : bool then b2 else set_tree (set_map b2 (map_push (b_map b2) (b_handle b2) (zlen (b_pats b2) - 1))) (zlen (b_pats b2) - 1) (EField f)) (List.length f)) = b_check b2).
  { destruct ign; reflexivity. }
  split; [exact Hs|]. split; intros; rewrite Hc; [exact K2|exact K3].
Qed.
Lemma filter_vars_check : forall fs b, b_st (fold_left filter_var fs b) = b_st b /\ incl (b_check b) (b_check (fold_left filter_var fs b)) /\
  forall f, In f fs -> In (b_st b ++ map SeDot f) (b_check (fold_left filter_var fs b)).
Proof.
  induction fs as [|g fs IH]; intros b; cbn [fold_left]; [split; [reflexivity|]; split; [apply incl_refl|intros f []]|].
  destruct (filter_var_check b g) as (V1 & V2 & V3). destruct (IH (filter_var b g)) as (I1 & I2 & I3). rewrite V1 in *.
  split; [exact I1|]. split; [intros x Hx; apply I2, V2, Hx|]. intros f [<-|Hf]; [apply I2, V3|apply I3, Hf].
Qed.

Lemma children_fold strict : forall f b, foldM (construct_step strict) (map SChild f) b = Ok (fold_left (fun b k => b_push b (SeDot k)) f b).
Proof. induction f as [|k f IH]; intros b; [reflexivity|]. cbn [map foldM construct_step bind fold_left]. apply IH. Qed.

Theorem build_tested strict q e f : (forall g, In g (fields_in e) -> g <> []) -> In f (fields_in e) ->
  build strict (q ++ SFilter e :: map SChild f) = build strict (q ++ [SFilter e]).
Proof.
  intros Hne Hf. unfold build, construct_dfa. rewrite !foldM_app. destruct (foldM (construct_step strict) q init_bctx) as [b|]; [|reflexivity].
  cbn [bind foldM construct_step]. destruct (modify_reference strict e) as [[]|]; [|reflexivity]. cbn [bind].
  rewrite construct_filter_fold.
  2:{ apply forallb_forall. intros g Hg. apply Hne in Hg. destruct g; [contradiction|reflexivity]. }
  set (b1 := fst (b_create false (b_push b SeArray))). set (b4 := set_tree _ _ _).
  destruct (filter_vars_check (fields_in e) b4) as (V1 & V2 & V3). set (b5 := fold_left filter_var (fields_in e) b4) in *.
  assert (Hgen : b_lastgen b5 <> None).
  { apply filter_vars_lastgen. change (b_lastgen b1 <> None). unfold b1, b_create. destruct (existsb _ _); discriminate. }
  assert (Hs4 : b_st b4 = b_st (b_push b SeArray)) by (apply (b_create_keep false (b_push b SeArray))).
  assert (Hin : In (b_st b5) (b_check b5)).
  { rewrite V1. apply V2. change (b_check b4) with (b_check b1). rewrite Hs4. apply b_create_in. }
  rewrite children_fold. cbn [bind]. rewrite (push_fields b5 f b5 eq_refl). set (b6 := mkB _ _ _ _ _ _ _ _ _ _).
  assert (Hin6 : In (b_st b6) (b_check b6)) by (unfold b6; cbn [b_st b_check]; rewrite V1; apply V3, Hf).
  pose proof (Hne f Hf) as Hf0. unfold finish_ctx.
  assert (E5 : (let b' := match b_lastgen b5 with Some true => b5 | _ => fst (b_create false b5) end in b') = b5).
  { cbv zeta. destruct (b_lastgen b5) as [[]|]; rewrite ?b_create_known by exact Hin; reflexivity. }
  replace (b_lastgen b6) with (Some false) by (unfold b6; cbn [b_lastgen]; destruct f; [contradiction|reflexivity]).
  rewrite (b_create_known false b6 Hin6). cbn [fst]. destruct (b_lastgen b5) as [g|]; [|contradiction].
  replace (if g then b5 else fst (b_create false b5)) with b5 by (destruct g; [reflexivity|rewrite b_create_known by exact Hin; reflexivity]).
  change (b_lastid b6) with (b_lastid b5). destruct (b_lastid b5) as [i|]; [|reflexivity]. cbn [bind].
  change (b_names b6) with (b_names b5). change (b_pats b6) with (b_pats b5).
  destruct (compile_patterns (zlen (b_names b5) + 3) (b_pats b5)) as [m|]; [|reflexivity]. cbn [bind].
  reflexivity.
Qed.

(** * Other last steps that select it *)
Lemma match_join : forall u s t w, st_match s u = true -> st_match t w = true -> st_match (s ++ t) (u ++ w) = true.
Proof.
  induction u as [|l u IH]; intros s t w H1 H2.
  - destruct s; [exact H2|discriminate].
  - destruct s as [|x s]; [discriminate|]. cbn [app st_match] in *. destruct x.
    + apply IH; assumption.
    + apply orb_true_iff in H1. apply orb_true_iff. destruct H1 as [H|H]; [left; apply IH; assumption|right]. apply (IH (SeParentAll :: s) t w H H2).
    + apply andb_true_iff in H1. destruct H1 as [-> H]. apply IH; assumption.
    + apply orb_true_iff in H1. apply orb_true_iff. destruct H1 as [H|H].
      * left. apply andb_true_iff in H. destruct H as [-> H]. apply IH; assumption.
      * right. apply (IH (SeParent k :: s) t w H H2).
    + apply andb_true_iff in H1. destruct H1 as [-> H]. apply IH; assumption.
    + apply andb_true_iff in H1. destruct H1 as [-> H]. apply IH; assumption.
Qed.

Lemma acc_none : forall l acc i, ~ In acc l -> acc_id2state l acc i = -1.
Proof.
  induction l as [|x l IH]; intros acc i H; [reflexivity|]. cbn [acc_id2state]. destruct (Z.eqb_spec acc x) as [->|]; [exfalso; apply H; left; reflexivity|].
  apply IH. intros Hi. apply H. right. exact Hi.
Qed.

Lemma foldM_ub {S A} (f : S -> A -> res S) : forall l s a, In a l -> (forall s, exists r, f s a = UB r) -> exists r, foldM f l s = UB r.
Proof.
  induction l as [|x l IH]; intros s a Hin H; [destruct Hin|]. destruct Hin as [-> | Hin]; cbn [foldM].
  - destruct (H s) as (r & ->). exists r. reflexivity.
  - destruct (f s x) as [s'|r]; [|exists r; reflexivity]. cbn [bind]. eapply IH; eauto.
Qed.
Lemma mapM_ub {A C} (f : A -> res C) : forall l a r, In a l -> f a = UB r -> exists r', mapM f l = UB r'.
Proof.
  induction l as [|x l IH]; intros a r Hin H; [destruct Hin|]. destruct Hin as [-> | Hin]; cbn [mapM].
  - rewrite H. cbn. eauto.
  - destruct (f x) as [y|r']; [|cbn; eauto]. cbn [bind]. destruct (IH a r Hin H) as (r' & ->). cbn. eauto.
Qed.

Section AnyField.
  Variables (q1 : query) (e : expr) (q2 : query) (strict : bool).
  Let q := q1 ++ SFilter e :: q2.
  Hypothesis Hp1 : forallb is_path_step q1 = true.
  Hypothesis Hp2 : forallb is_path_step q2 = true.
  Hypothesis Hff : fields_fine strict q.
  Hypothesis Hother : forall f, In f (fields_in e) -> stack_of q2 <> map SeDot f.
  Hypothesis Hq2 : stack_of q2 <> [].
  Let J := List.length q1.
  Definition troles : list role := froles q1 e ++ [RO].

  Let Hnidx : no_index q.
  Proof.
    intros s Hs. unfold q in Hs. apply in_app_or in Hs. destruct Hs as [Hs|[<-|Hs]]; [|intros E; discriminate|].
    - rewrite forallb_forall in Hp1. specialize (Hp1 s Hs). destruct s; try discriminate; intros E; discriminate.
    - rewrite forallb_forall in Hp2. specialize (Hp2 s Hs). destruct s; try discriminate; intros E; discriminate.
  Qed.
  Let Hfields : forall f, In f (fields_in e) -> f <> [].
  Proof.
    intros f Hf. apply Hff. unfold query_fields, q. apply in_flat_map. exists (SFilter e).
    split; [apply in_or_app; right; left; reflexivity|exact Hf].
  Qed.
  Let Hcut : firstn (S J) q = q1 ++ [SFilter e].
  Proof.
    unfold q, J. replace (S (List.length q1)) with (List.length (q1 ++ [SFilter e])) by (rewrite app_length; cbn; lia).
    change (SFilter e :: q2) with ([SFilter e] ++ q2). rewrite app_assoc, firstn_app, Nat.sub_diag, firstn_all. apply app_nil_r.
  Qed.
  Let Hstack : stack_of q = (stack_of q1 ++ [SeArray]) ++ stack_of q2.
  Proof. unfold q. change (SFilter e :: q2) with ([SFilter e] ++ q2). rewrite !stack_of_app, <- app_assoc. reflexivity. Qed.
  Lemma t_rp : role_st q (RP J) = stack_of q1 ++ [SeArray].
  Proof. cbn [role_st]. rewrite Hcut. apply stack_of_app. Qed.
  Lemma t_rc f : role_st q (RC J f) = (stack_of q1 ++ [SeArray]) ++ map SeDot f.
  Proof. cbn [role_st]. rewrite Hcut, stack_of_app. reflexivity. Qed.
  Let Hroles : roles_from 0 q = froles q1 e.
  Proof.
    unfold q. rewrite roles_from_app, path_roles by exact Hp1. cbn [roles_from app Nat.add step_roles].
    rewrite path_roles by exact Hp2. rewrite app_nil_r. reflexivity.
  Qed.

  Lemma tested_finish : exists b, (b0 <- construct_dfa strict q ;; finish_ctx b0) = Ok (b, zlen troles) /\ binv q q troles (the_cf q) b.
  Proof.
    destruct (construct_ok strict q Hnidx Hff q [] (eq_sym (app_nil_r q))) as (b & Hrun & Hb & Hl). rewrite Hroles in Hb.
    unfold construct_dfa. rewrite Hrun. cbn [bind]. unfold finish_ctx.
    assert (Hg : b_lastgen b = Some false).
    { destruct (exists_last (l := q2)) as (q3 & s & E). { intros E. apply Hq2. rewrite E. reflexivity. }
      assert (Hs : is_path_step s = true). { rewrite forallb_forall in Hp2. apply Hp2. rewrite E. apply in_or_app. right. left. reflexivity. }
      unfold q in Hl. rewrite E in Hl. change (SFilter e :: q3 ++ [s]) with ((SFilter e :: q3) ++ [s]) in Hl. rewrite app_assoc in Hl.
      rewrite last_step_snoc in Hl. destruct s; try discriminate; exact Hl. }
    rewrite Hg.
    assert (Hnew : ~ In (stack_of q) (map (role_st q) (froles q1 e))).
    { intros H. apply in_map_iff in H. destruct H as (r & E & H). destruct H as [<-|H].
      - fold J in E. rewrite t_rp, Hstack in E. apply Hq2. rewrite <- (app_nil_r (stack_of q1 ++ [SeArray])) in E at 1. apply app_inv_head in E. congruence.
      - apply in_map_iff in H. destruct H as (f & <- & H). fold J in E. rewrite t_rc, Hstack in E. apply app_inv_head in E.
        apply nub_in in H. apply (Hother f H). congruence. }
    destruct (binv_create q q (froles q1 e) (the_cf q) b RO false (stack_of q)) as (Hc1 & Hc2).
    { apply (bi_st _ _ _ _ _ Hb). } { reflexivity. } { rewrite (bi_check _ _ _ _ _ Hb). exact Hnew. }
    { apply (stack_names_incl q q []). symmetry. apply app_nil_r. }
    { destruct Hb. constructor; auto. }
    set (b1 := fst (b_create false b)) in *.
    destruct (Hc2 b1 eq_refl) as (C1 & C2 & C3 & C4 & C5 & C6 & C7 & C8 & C9 & C10 & C11 & C12 & C13).
    rewrite C3, C4. exists b1. unfold troles. split; [rewrite zlen_app, zlen_cons, zlen_nil; reflexivity|].
    constructor; auto.
    - rewrite C10, map_app. reflexivity.
    - rewrite C11, map_app. reflexivity.
    - intros i j Hi. rewrite C12.
      destruct (Nat.lt_ge_cases i (List.length (froles q1 e))) as [Hl'|Hl'].
      + rewrite nth_error_app1 in Hi by exact Hl'. destruct (bi_map _ _ _ _ _ Hb i j Hi) as [G1 G2].
        split; [exact G1|]. intros t f Ht. specialize (G2 t f Ht).
        rewrite nth_error_app1; [exact G2|]. apply nth_error_Some. congruence.
      + rewrite nth_error_app2 in Hi by exact Hl'. destruct (i - _)%nat as [|[|?]]; discriminate.
    - intros i Hi. rewrite C12. apply (bi_map0 _ _ _ _ _ Hb).
      rewrite zlen_app, zlen_cons, zlen_nil in Hi. lia.
  Qed.

  Variable f0 : list bytes.
  Hypothesis Hf0 : In f0 (fields_in e).
  Hypothesis Hsel : st_match (stack_of q2) (map LKey f0) = true.
  Hypothesis Hnames : names_fit q = true.
  (** The expression of the field is never the last one that matches. *)
  Lemma never_last t w : nth_error (nub_fields e) t = Some f0 -> last_st (map (role_st q) troles) w 1 <> 2 + Z.of_nat t.
  Proof.
    intros Ht E. destruct (last_st_spec (map (role_st q) troles) w 1 ltac:(lia)) as [[E' _]|(i & st & Hi & E' & Hm & Hlater)]; [lia|].
    assert (i = S t) by lia. subst i. unfold troles, froles in Hi. cbn [map app nth_error] in Hi. rewrite map_app, map_map in Hi.
    rewrite nth_error_app1, nth_error_map, Ht in Hi by (rewrite map_length; apply nth_error_Some; congruence). injection Hi as <-. change (st_match (role_st q (RC J f0)) w = true) in Hm.
    rewrite t_rc in Hm. apply match_array_dots in Hm. destruct Hm as (u & -> & Hm).
    assert (Hout : st_match (role_st q RO) (u ++ map LKey f0) = true).
    { cbn [role_st]. rewrite Hstack. apply match_join; assumption. }
    assert (Hn : nth_error (map (role_st q) troles) (S (List.length (nub_fields e))) = Some (role_st q RO)).
    { unfold troles, froles. cbn [map app nth_error]. rewrite map_app, map_map, nth_error_app2 by (rewrite map_length; apply le_n). rewrite map_length, Nat.sub_diag. reflexivity. }
    assert (Ht' : (S t < S (List.length (nub_fields e)))%nat) by (apply (proj1 (Nat.succ_lt_mono _ _)), nth_error_Some; congruence).
    rewrite (Hlater _ _ Ht' Hn) in Hout. discriminate.
  Qed.

  Theorem tested_built : exists d x s, build strict q = Ok (d, x) /\ In s (x_preds x) /\ forall cs, exists r, init_pred x cs s = UB r.
  Proof.
    destruct tested_finish as (b & Hfin & Hb).
    unfold build. destruct (construct_dfa strict q) as [b0|?]; [|discriminate]. cbn [bind] in Hfin |- *.
    rewrite Hfin. cbn [bind].
    set (sts := map (role_st q) troles). set (out := zlen troles).
    pose proof (bi_nd _ _ _ _ _ Hb) as Hnd.
    assert (Hsmall : codes_fit (b_names b) sts).
    { pose proof (NoDup_incl_length Hnd (bi_names _ _ _ _ _ Hb)) as Hle. unfold names_fit in Hnames.
      apply orb_true_iff in Hnames. destruct Hnames as [H|H]; [left; unfold zlen in *; lia|right].
      apply andb_true_iff in H. destruct H as [H H']. split; [|unfold zlen in *; lia].
      apply Forall_forall. intros s Hs. unfold sts in Hs. apply in_map_iff in Hs. destruct Hs as (r & <- & Hr).
      apply role_no_wild, negb_true_iff, H. }
    assert (Hsts : sts <> []) by discriminate.
    assert (Hstne : Forall (fun st => st <> []) sts).
    { apply Forall_forall. intros s Hs. unfold sts in Hs. apply in_map_iff in Hs. destruct Hs as (r & <- & Hr).
      intros E. apply (f_equal (@List.length se)) in E. unfold troles in Hr. apply in_app_or in Hr. destruct Hr as [[<-|Hr]|[<-|[]]].
      - fold J in E. rewrite t_rp, app_length in E. cbn in E. lia.
      - apply in_map_iff in Hr. destruct Hr as (f & <- & _). fold J in E. rewrite t_rc, !app_length in E. cbn in E. lia.
      - cbn [role_st] in E. rewrite Hstack, !app_length in E. cbn in E. lia. }
    assert (Hin : Forall (fun st => incl (st_names st) (b_names b)) sts).
    { apply Forall_forall. intros s Hs. unfold sts in Hs. apply in_map_iff in Hs. destruct Hs as (r & <- & Hr).
      pose proof (bi_in _ _ _ _ _ Hb) as H. rewrite Forall_forall in H. apply H, Hr. }
    assert (Hpats : b_pats b = map (flat_map (items_of (b_names b))) sts).
    { unfold sts. rewrite map_map. apply (bi_pats _ _ _ _ _ Hb). }
    assert (Hrange : zlen (b_range b) = zlen sts).
    { rewrite (bi_range _ _ _ _ _ Hb). unfold sts, zlen. rewrite !map_length. reflexivity. }
    assert (Htrees : zlen (b_trees b) = zlen sts).
    { rewrite (bi_trees _ _ _ _ _ Hb). unfold sts, zlen. rewrite !map_length. reflexivity. }
    destruct (compile_main b sts Hsmall Hsts Hstne Hin Hpats Hrange Htrees) as (m & T & Hc & ds & Hds & Hm).
    rewrite Hc. cbn [bind]. rewrite (create_query_dfa_ok b out sts Hnd Hsmall Hstne Hin Hpats Hrange m T ds Hm). cbn [bind].
    rewrite (create_context_ok b out sts Hnd Hsmall Hstne Hin Hpats Htrees m T ds Hm). cbn [bind].
    set (d := the_dfa b out m T). set (x := the_ctx b out m T).
    pose proof (stt_range b m T ds Hm) as Hst.
    pose proof (stt_stop b sts Hsmall Hstne Hin Hpats m T ds Hm) as Hstop.
    set (w0 := map wit (role_st q (RP J))).
    assert (Hw0 : st_match (stack_of q1 ++ [SeArray]) w0 = true) by (unfold w0; rewrite t_rp; apply st_match_wit).
    assert (Elast : exists u i, w0 = u ++ [LIdx i]).
    { unfold w0. rewrite t_rp, map_app. cbn [map wit]. eauto. }
    assert (Hs1 : last_st sts w0 1 = 1).
    { destruct (last_st_spec sts w0 1 ltac:(lia)) as [[_ H]|(i & st & Hi & E' & Hm' & _)].
      - exfalso. assert (st_match (role_st q (RP J)) w0 = false) as H'; [apply H; left; reflexivity|]. rewrite t_rp in H'. congruence.
      - destruct i as [|i]; [lia|]. exfalso. unfold sts, troles, froles in Hi. cbn [map app nth_error] in Hi. rewrite map_app, map_map in Hi.
        apply nth_error_In, in_app_or in Hi. destruct Hi as [Hi|[<-|[]]].
        + apply in_map_iff in Hi. destruct Hi as (f & <- & Hi). apply nub_in in Hi. fold J in Hm'. rewrite t_rc in Hm'. apply match_array_dots in Hm'.
          destruct Hm' as (u & Eu & _). destruct (keys_last u f (Hfields f Hi)) as (w' & Ew). rewrite Ew in Eu. destruct Elast as (u' & i' & E2).
          rewrite E2 in Eu. apply app_inj_tail in Eu. destruct Eu. discriminate.
        + cbn [role_st] in Hm'. apply st_match_min in Hm'. rewrite Hstack, app_length in Hm'. unfold w0 in Hm'. rewrite map_length, t_rp in Hm'.
          destruct (stack_of q2); [contradiction|]. cbn [List.length] in Hm'. lia. }
    set (s := stt b T w0).
    assert (Hss : tread (m_stops m) s = 1) by (unfold s; rewrite Hstop; exact Hs1).
    assert (Hrng : rng_of b 1 = (0, 0)).
    { unfold rng_of. rewrite (bi_range _ _ _ _ _ Hb). reflexivity. }
    assert (Hinfo : info_of b out m T s = mkSt 1 DFA_PREDICATE (0, 0)).
    { unfold info_of. rewrite Hss, Hrng. replace (1 =? 0) with false by reflexivity.
      replace (1 =? out) with false. 2:{ symmetry. apply Z.eqb_neq. unfold out, troles. rewrite zlen_app. unfold froles. rewrite !zlen_cons, zlen_nil.
        pose proof (zlen_nonneg (map (RC (List.length q1)) (nub_fields e))). lia. }
      replace (arr_target m T s) with true; [reflexivity|]. symmetry. unfold s. destruct Elast as (u & i & ->). apply (arr_target_snoc b m T ds Hm). }
    exists d, x, s. split; [reflexivity|]. split.
    - unfold x. cbn [the_ctx x_preds]. rewrite filter_In, in_state_list. split; [apply Hst|]. rewrite Hinfo. reflexivity.
    - intros cs. unfold init_pred. unfold x at 1. rewrite (the_mapping b out m T s) by apply Hst. cbn [bind].
      destruct (_ || _); [eexists; reflexivity|].
      destruct (In_nth_error (nub_fields e) f0) as (t & Ht); [apply nub_in, Hf0|].
      destruct (mapM_ub (init_condition x) (snd (ctx_of b out m T s)) (-1) OOBRead) as (r & ->); [|reflexivity|eexists; reflexivity].
      unfold ctx_of. rewrite Hinfo. cbn [st_stop]. replace (1 =? 0) with false by reflexivity. cbn [snd]. change (1 - 1) with (Z.of_nat 0).
      destruct (bi_map _ _ _ _ _ Hb O J eq_refl) as [Em _]. rewrite Em, map_map.
      assert (Ecf : the_cf q J = nub_fields e) by (unfold the_cf, q, J; rewrite nth_error_app2, Nat.sub_diag by lia; reflexivity).
      rewrite Ecf. apply in_map_iff. exists (S t). split.
      + apply acc_none. intros Hi. apply In_nth_error in Hi. destruct Hi as (n & Hn).
        assert (Hlen : (n < List.length (m_stops m))%nat) by (apply nth_error_Some; congruence).
        pose proof (mo_stops _ _ _ _ _ Hm) as Hls. unfold zlen in Hls.
        assert (Htr : tread (m_stops m) (Z.of_nat n) = 2 + Z.of_nat t).
        { unfold tread. rewrite Nat2Z.id. rewrite (nth_error_nth _ _ 0 Hn). lia. }
        destruct n as [|n].
        * change (Z.of_nat 0) with 0 in Htr. rewrite (mo_stop0 _ _ _ _ _ Hm) in Htr. lia.
        * destruct (st_onto b Hnd m T ds Hm (Z.of_nat (S n)) ltac:(lia)) as (w & Ew). rewrite <- Ew, Hstop in Htr.
          exact (never_last t w Ht Htr).
      + apply in_seq. assert (t < List.length (nub_fields e))%nat by (apply nth_error_Some; congruence). lia.
  Qed.
End AnyField.

Lemma dots_children : forall q g, forallb is_path_step q = true -> stack_of q = map SeDot g -> q = map SChild g.
Proof.
  induction q as [|s q IH]; intros g H E; [destruct g; [reflexivity|discriminate]|].
  cbn [forallb] in H. apply andb_true_iff in H. destruct H as [Hs H].
  destruct s; try discriminate; (destruct g as [|k' g]; [discriminate|]); cbn in E; try discriminate.
  injection E as -> E. cbn [map]. f_equal. apply IH; [exact H|exact E].
Qed.
Lemma path_lsel q w : forallb is_path_step q = true -> lsel q w = st_match (stack_of q) w.
Proof.
  intros H. apply lsel_none; intros s Hs; rewrite forallb_forall in H; specialize (H s Hs); destruct s; try discriminate; reflexivity.
Qed.

(** No file can be run. *)
Theorem tested_never N strict q e q2 f j file : let q' := q ++ SFilter e :: q2 in
  forallb is_path_step q = true -> forallb is_path_step q2 = true -> fields_ok q' = true -> (strict = true -> single_names q') -> names_fit q' = true ->
  In f (fields_in e) -> lsel q2 (map LKey f) = true -> (forall g, In g (fields_in e) -> q2 <> map SChild g) ->
  exists p, createPathProcessor strict q' = Ok p /\ exists r, serialRun N j p file = UB r.
Proof.
  intros q' Hp1 Hp2 Hfields Hsingle Hnames Hf Hsel Hother.
  assert (Hff : fields_fine strict q').
  { intros g Hg. unfold fields_ok in Hfields. rewrite forallb_forall in Hfields. specialize (Hfields g Hg). apply andb_true_iff in Hfields.
    split; [intros ->; destruct Hfields; discriminate|]. intros Hs. apply (Hsingle Hs g Hg). }
  rewrite path_lsel in Hsel by exact Hp2.
  assert (Ho : forall g, In g (fields_in e) -> stack_of q2 <> map SeDot g).
  { intros g Hg E. apply (Hother g Hg). apply dots_children; assumption. }
  assert (Hq2 : stack_of q2 <> []).
  { intros E. rewrite E in Hsel. destruct f; [|discriminate]. destruct (Hff []) as [H _]; [|contradiction].
    unfold query_fields, q'. apply in_flat_map. exists (SFilter e). split; [apply in_or_app; right; left; reflexivity|exact Hf]. }
  destruct (tested_built q e q2 strict Hp1 Hp2 Hff Ho Hq2 f Hf Hsel Hnames) as (d & x & s & Hb & Hs & Hub).
  exists (mkProc d x). unfold createPathProcessor. fold q' in Hb. rewrite Hb. split; [reflexivity|].
  unfold serialRun, serial_run. cbn [serial_loop].
  destruct (loadBounded _ _ file 0) as [[[piece next]|]|r]; cbn [bind].
  - unfold serialPartialRun. cbn [init_context sc_context andb p_dfa p_ctx].
    destruct (executeAutomaton d piece init_core) as [c|r]; cbn [bind]; [|exists r; reflexivity].
    destruct (foldM_ub (init_pred x) (x_preds x) (repeat None MAX_PREDICATE_STATE) s Hs Hub) as (r & Hr).
    unfold initPredicateFilter. rewrite Hr. cbn [bind]. exists r. reflexivity.
  - unfold destroyStreamingContext. destruct (negb (j_major_null j)); eexists; reflexivity.
  - exists r. reflexivity.
Qed.

(** The steps [.a.b] after a filter that tests [@.a.b] are dropped. *)
Theorem tested_dropped strict q e f : (forall g, In g (fields_in e) -> g <> []) -> In f (fields_in e) ->
  createPathProcessor strict (q ++ SFilter e :: map SChild f) = createPathProcessor strict (q ++ [SFilter e]).
Proof. intros H1 H2. unfold createPathProcessor. rewrite build_tested by assumption. reflexivity. Qed.
