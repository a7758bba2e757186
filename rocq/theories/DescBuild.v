(** The automaton of a query with one filter, which may come after [..] steps. *)
From Verif Require Import Base Util Spec QueryClass Regex RegexProof Mixer MixerProof Compress
  Dfa Stream TreeSem Builder Eval Filter AutoProof BuilderProof Roles Compiled TreeSel FinalSpec FinalFilter SelFilter SliceOne TestedField.
Open Scope Z_scope.

Lemma match_split : forall w s t, st_match (s ++ t) w = true -> exists u v, w = u ++ v /\ st_match s u = true /\ st_match t v = true.
Proof.
  induction w as [|l w IH]; intros s t H.
  - destruct s as [|x s]; [|discriminate]. exists [], []. repeat split. exact H.
  - destruct s as [|x s]; [exists [], (l :: w); repeat split; exact H|].
    assert (G : forall s', st_match (s' ++ t) w = true -> (forall u, st_match s' u = true -> st_match (x :: s) (l :: u) = true) ->
              exists u v, l :: w = u ++ v /\ st_match (x :: s) u = true /\ st_match t v = true).
    { intros s' H' Hu. destruct (IH s' t H') as (u & v & -> & H1 & H2). exists (l :: u), v. repeat split; [apply Hu, H1|exact H2]. }
    cbn [app st_match] in H. destruct x.
    + apply (G s H). intros u Hu. exact Hu.
    + apply orb_true_iff in H. destruct H as [H|H]; [apply (G s H)|apply (G (SeParentAll :: s) H)]; intros u Hu; cbn [st_match]; rewrite Hu, ?orb_true_r; reflexivity.
    + apply andb_true_iff in H. destruct H as [H0 H]. apply (G s H). intros u Hu. cbn [st_match]. rewrite Hu, H0. reflexivity.
    + apply orb_true_iff in H. destruct H as [H|H].
      * apply andb_true_iff in H. destruct H as [H0 H]. apply (G s H). intros u Hu. cbn [st_match]. rewrite Hu, H0. reflexivity.
      * apply (G (SeParent k :: s) H). intros u Hu. cbn [st_match]. rewrite Hu, orb_true_r. reflexivity.
    + apply andb_true_iff in H. destruct H as [H0 H]. apply (G s H). intros u Hu. cbn [st_match]. rewrite Hu, H0. reflexivity.
    + apply andb_true_iff in H. destruct H as [H0 H]. apply (G s H). intros u Hu. cbn [st_match]. rewrite Hu, H0. reflexivity.
Qed.

Lemma app_len {A} : forall (a c b d : list A), List.length a = List.length c -> a ++ b = c ++ d -> a = c /\ b = d.
Proof.
  induction a as [|x a IH]; intros [|y c] b d El E; try discriminate; [split; [reflexivity|exact E]|].
  cbn in El, E. injection El as El. injection E as -> E. destruct (IH c b d El E) as [-> ->]. auto.
Qed.

(** For the labels a filter is like [*]. *)
Lemma lsel_filter_all e : forall w q q2, lsel (q ++ SFilter e :: q2) w = lsel (q ++ SAll :: q2) w.
Proof.
  induction w as [|l w IH]; intros q q2; [destruct q; reflexivity|].
  destruct q as [|s q]; [reflexivity|]. pose proof (IH q q2) as H1. pose proof (IH (s :: q) q2) as H2. cbn [app] in *. cbn [lsel].
  destruct s; rewrite ?H1, ?H2; reflexivity.
Qed.

Section DBuild.
  Variables (q1 : query) (e : expr) (q2 : query) (strict : bool).
  Let q := q1 ++ SFilter e :: q2.
  Hypothesis Hp1 : forallb is_path_step q1 = true.
  Hypothesis Hp2 : forallb is_path_step q2 = true.
  Hypothesis Hff : fields_fine strict q.
  Hypothesis Hq2 : q2 <> [].
  Hypothesis Hun : forall f, In f (fields_in e) -> lsel q2 (map LKey f) = false.
  Let J := List.length q1.
  Let roles := troles q1 e.

  Lemma d_fields : forall f, In f (fields_in e) -> f <> [].
  Proof.
    intros f Hf. apply Hff. unfold query_fields, q. apply in_flat_map. exists (SFilter e).
    split; [apply in_or_app; right; left; reflexivity|exact Hf].
  Qed.
  Let Hrp : role_st q (RP J) = stack_of q1 ++ [SeArray] := t_rp q1 e q2 Hp1 Hp2.
  Let Hrc : forall f, role_st q (RC J f) = (stack_of q1 ++ [SeArray]) ++ map SeDot f := t_rc q1 e q2 Hp1 Hp2.
  Lemma d_stack : role_st q RO = (stack_of q1 ++ [SeArray]) ++ stack_of q2.
  Proof. cbn [role_st]. unfold q. change (SFilter e :: q2) with ([SFilter e] ++ q2). rewrite !stack_of_app, <- app_assoc. reflexivity. Qed.
  Lemma d_elem w : st_match (stack_of q1 ++ [SeArray]) w = filtered q1 w.
  Proof. rewrite <- (f_elem q1 e Hp1 w). cbn [role_st]. rewrite firstn_all2 by (rewrite app_length; cbn; lia). rewrite stack_of_app. reflexivity. Qed.
  Lemma d_field f w : st_match (role_st q (RC J f)) w = true <-> exists u, w = u ++ map LKey f /\ filtered q1 u = true.
  Proof.
    rewrite Hrc, match_array_dots. split; intros (u & E & H); exists u; (split; [exact E|]); [rewrite <- d_elem|rewrite d_elem]; exact H.
  Qed.
  Lemma d_split w : lsel q w = true <-> exists u t, w = u ++ t /\ filtered q1 u = true /\ lsel q2 t = true.
  Proof.
    unfold q, filtered. rewrite lsel_filter_all. change (SAll :: q2) with ([SAll] ++ q2). rewrite app_assoc, SliceOne.lsel_app. split.
    - intros (n & Hn & H1 & H2). exists (firstn n w), (skipn n w). split; [symmetry; apply firstn_skipn|auto].
    - intros (u & t & -> & H1 & H2). exists (List.length u). split; [rewrite app_length; lia|].
      rewrite firstn_app, firstn_all, Nat.sub_diag, skipn_app, skipn_all, Nat.sub_diag. cbn [firstn skipn app]. rewrite app_nil_r. auto.
  Qed.
  Lemma d_out w : st_match (role_st q RO) w = lsel q w.
  Proof.
    rewrite d_stack. apply eq_true_iff_eq. rewrite d_split. split.
    - intros H. apply match_split in H. destruct H as (u & v & -> & H1 & H2). exists u, v. split; [reflexivity|].
      rewrite <- d_elem, (path_lsel q2 v Hp2). auto.
    - intros (u & v & -> & H1 & H2). apply match_join; [rewrite d_elem; exact H1|rewrite <- (path_lsel q2 v Hp2); exact H2].
  Qed.
  Lemma d_last w : filtered q1 w = true -> exists u i, w = u ++ [LIdx i].
  Proof. apply (elem_last q1 e Hp1). Qed.

  (** A tested field belongs to one element, and has one path in it. *)
  Lemma keys_tail : forall f g (u : list label) u' i, u ++ [LIdx i] ++ map LKey f = u' ++ map LKey g -> (List.length g <= List.length f)%nat.
  Proof.
    intros f g u u' i E. destruct (Nat.le_gt_cases (List.length g) (List.length f)) as [H|H]; [exact H|]. exfalso.
    assert (El : List.length (u ++ [LIdx i] ++ map LKey f) = List.length (u' ++ map LKey g)) by (rewrite E; reflexivity).
    rewrite !app_length, !map_length in El. cbn [List.length] in El.
    assert (Hn : nth_error (u ++ [LIdx i] ++ map LKey f) (List.length u) = Some (LIdx i)) by (rewrite nth_error_app2, Nat.sub_diag by lia; reflexivity).
    rewrite E, nth_error_app2 in Hn by lia. apply nth_error_In, in_map_iff in Hn. destruct Hn as (k & Hk & _). discriminate.
  Qed.
  Lemma field_one w f g u u' : w = u ++ map LKey f -> filtered q1 u = true -> w = u' ++ map LKey g -> filtered q1 u' = true -> u = u' /\ f = g.
  Proof.
    intros E1 H1 E2 H2. destruct (d_last u H1) as (u0 & i & ->). destruct (d_last u' H2) as (u1 & i' & ->).
    rewrite <- app_assoc in E1, E2. pose proof (keys_tail f g u0 (u1 ++ [LIdx i']) i) as K1. pose proof (keys_tail g f u1 (u0 ++ [LIdx i]) i') as K2.
    rewrite <- !app_assoc in K1, K2. specialize (K1 ltac:(congruence)). specialize (K2 ltac:(congruence)).
    assert (El : List.length (u0 ++ [LIdx i]) = List.length (u1 ++ [LIdx i'])).
    { assert (E : List.length (u0 ++ [LIdx i] ++ map LKey f) = List.length (u1 ++ [LIdx i'] ++ map LKey g)) by congruence.
      rewrite !app_length, !map_length in E. rewrite !app_length. cbn [List.length] in *. lia. }
    rewrite !app_assoc in E1, E2. rewrite E1 in E2. destruct (app_len _ _ _ _ El E2) as [Eu E3]. split; [exact Eu|]. clear E2. rename E3 into E2.
    clear - E2. revert g E2. induction f as [|k f IH]; intros [|k' g] E; try discriminate; [reflexivity|]. cbn in E. injection E as -> E. f_equal. auto.
  Qed.
  Lemma field_last w f : In f (fields_in e) -> st_match (role_st q (RC J f)) w = true -> exists u k, w = u ++ [LKey k].
  Proof.
    intros Hf H. apply d_field in H. destruct H as (u & -> & _). destruct (exists_last (d_fields f Hf)) as (f' & k & ->).
    exists (u ++ map LKey f'), k. rewrite map_app, app_assoc. reflexivity.
  Qed.

  (** The role that counts. *)
  Definition dcls (w : list label) : option role :=
    if lsel q w then Some RO
    else match find (fun f => st_match (role_st q (RC J f)) w) (nub_fields e) with
         | Some f => Some (RC J f)
         | None => if filtered q1 w then Some (RP J) else None
         end.
  Definition dkind (o : option role) : Z :=
    match o with Some RO => DFA_OUTPUT_CANDIDATE | Some (RC _ _) => DFA_CONDITION | Some (RP _) => DFA_PREDICATE | _ => 0 end.

  Lemma roles_at : forall i r, nth_error roles i = Some r -> match i with O => r = RP J | S t =>
    (exists f, nth_error (nub_fields e) t = Some f /\ r = RC J f) \/ (t = List.length (nub_fields e) /\ r = RO) end.
  Proof.
    intros i r H. unfold roles, troles, froles in H. destruct i as [|t]; cbn [app nth_error] in H; [injection H as <-; reflexivity|].
    destruct (Nat.lt_ge_cases t (List.length (nub_fields e))) as [Hl|Hl].
    - rewrite nth_error_app1, nth_error_map in H by (rewrite map_length; exact Hl). destruct (nth_error (nub_fields e) t) as [f|] eqn:E; [|discriminate].
      left. exists f. split; [reflexivity|]. cbn in H. injection H as <-. reflexivity.
    - rewrite nth_error_app2 in H by (rewrite map_length; exact Hl). rewrite map_length in H. right.
      destruct (t - List.length (nub_fields e))%nat as [|n] eqn:E; [|destruct n; discriminate]. split; [lia|]. cbn in H. congruence.
  Qed.
  Lemma roles_ro : nth_error roles (S (List.length (nub_fields e))) = Some RO.
  Proof. unfold roles, troles, froles. cbn [app nth_error]. rewrite nth_error_app2, map_length, Nat.sub_diag by (rewrite map_length; apply le_n). reflexivity. Qed.
  Lemma roles_rc t f : nth_error (nub_fields e) t = Some f -> nth_error roles (S t) = Some (RC J f).
  Proof.
    intros H. unfold roles, troles, froles. cbn [app nth_error]. rewrite nth_error_app1, nth_error_map, H by (rewrite map_length; apply nth_error_Some; congruence).
    reflexivity.
  Qed.

  Lemma d_index w : match dcls w with
    | None => last_st (map (role_st q) roles) w 1 = 0
    | Some r => exists i, nth_error roles i = Some r /\ last_st (map (role_st q) roles) w 1 = 1 + Z.of_nat i
    end.
  Proof.
    destruct (last_st_spec (map (role_st q) roles) w 1 ltac:(lia)) as [[E H]|(i & st & Hi & E & Hm & Hlater)].
    - assert (G : forall r, In r roles -> st_match (role_st q r) w = false) by (intros r Hr; apply H, in_map, Hr).
      unfold dcls. rewrite <- d_out, (G RO) by (eapply nth_error_In, roles_ro).
      destruct (find _ _) as [f|] eqn:Ef.
      + exfalso. apply find_some in Ef. destruct Ef as [Hf Ef]. apply In_nth_error in Hf. destruct Hf as (t & Ht).
        rewrite (G (RC J f)) in Ef by (eapply nth_error_In, roles_rc, Ht). discriminate.
      + rewrite <- d_elem, <- Hrp, (G (RP J)) by (left; reflexivity). exact E.
    - rewrite nth_error_map in Hi. destruct (nth_error roles i) as [r|] eqn:Er; [|discriminate]. cbn in Hi. injection Hi as <-.
      assert (Hl : forall i' r', (i < i')%nat -> nth_error roles i' = Some r' -> st_match (role_st q r') w = false).
      { intros i' r' H1 H2. apply (Hlater i' _ H1). rewrite nth_error_map, H2. reflexivity. }
      assert (Hr : dcls w = Some r).
      { unfold dcls. pose proof (roles_at i r Er) as Hr. destruct i as [|t]; [subst r|destruct Hr as [(f & Hf & ->)|(Et & ->)]].
        - rewrite <- d_out, (Hl _ _ (Nat.lt_0_succ _) roles_ro). destruct (find _ _) as [f|] eqn:Ef.
          + exfalso. apply find_some in Ef. destruct Ef as [Hf Ef]. apply In_nth_error in Hf. destruct Hf as (t & Ht).
            rewrite (Hl _ _ (Nat.lt_0_succ t) (roles_rc t f Ht)) in Ef. discriminate.
          + rewrite Hrp, d_elem in Hm. rewrite Hm. reflexivity.
        - rewrite <- d_out, (Hl _ _ (proj1 (Nat.succ_lt_mono _ _) (proj1 (nth_error_Some (nub_fields e) t) ltac:(congruence))) roles_ro).
          destruct (find _ _) as [g|] eqn:Eg.
          + apply find_some in Eg. destruct Eg as [_ Eg]. apply d_field in Hm, Eg. destruct Hm as (u & E1 & H1), Eg as (u' & E2 & H2).
            destruct (field_one w f g u u' E1 H1 E2 H2) as [_ ->]. reflexivity.
          + exfalso. apply find_none with (x := f) in Eg; [congruence|]. eapply nth_error_In, Hf.
        - rewrite <- d_out, Hm. reflexivity. }
      rewrite Hr. exists i. auto.
  Qed.

  Lemma roles_nd : NoDup roles.
  Proof.
    unfold roles, troles, froles. cbn [app]. constructor.
    - intros H. apply in_app_or in H. destruct H as [H|[H|[]]]; [|discriminate]. apply in_map_iff in H. destruct H as (f & H & _). discriminate.
    - assert (G : forall l, NoDup l -> NoDup (map (RC J) l ++ [RO])).
      { induction l as [|f l IH]; intros H; cbn [map app]; [constructor; [intros []|constructor]|]. inversion H; subst. constructor; [|auto].
        intros Hi. apply in_app_or in Hi. destruct Hi as [Hi|[Hi|[]]]; [|discriminate]. apply in_map_iff in Hi. destruct Hi as (g & Eg & Hg). injection Eg as ->. contradiction. }
      apply G, nub_nodup.
  Qed.

  (** The path that a tested field has for certain. *)
  Lemma d_witness f : In f (fields_in e) -> dcls (map wit (role_st q (RC J f))) = Some (RC J f).
  Proof.
    intros Hf. set (w := map wit (role_st q (RC J f))).
    assert (Hm : st_match (role_st q (RC J f)) w = true) by apply st_match_wit.
    assert (Ew : w = map wit (stack_of q1) ++ [LIdx 0] ++ map LKey f).
    { unfold w. rewrite Hrc, !map_app, <- app_assoc. cbn [map wit]. do 2 f_equal. rewrite map_map. reflexivity. }
    unfold dcls. destruct (lsel q w) eqn:El.
    - exfalso. apply d_split in El. destruct El as (u & t & Et & Hu & Ht). destruct (d_last u Hu) as (u0 & i & E0).
      pose proof (Hu) as Hl. rewrite <- d_elem in Hl. apply st_match_min in Hl. rewrite app_length in Hl. cbn [List.length] in Hl.
      assert (Hlen : List.length u = S (List.length (stack_of q1))).
      { destruct (Nat.le_gt_cases (List.length u) (S (List.length (stack_of q1)))) as [H|H]; [lia|]. exfalso. subst u.
        rewrite app_length in H. cbn [List.length] in H.
        assert (Hn : nth_error w (List.length u0) = Some (LIdx i)) by (rewrite Et, <- app_assoc, nth_error_app2, Nat.sub_diag by lia; reflexivity).
        rewrite Ew, app_assoc, nth_error_app2 in Hn by (rewrite app_length, map_length; cbn; lia).
        apply nth_error_In, in_map_iff in Hn. destruct Hn as (k & Hk & _). discriminate. }
      rewrite Ew, app_assoc in Et. destruct (app_len (map wit (stack_of q1) ++ [LIdx 0]) u (map LKey f) t) as [_ <-]; [rewrite app_length, map_length; cbn; lia|exact Et|].
      rewrite (Hun f Hf) in Ht. discriminate.
    - destruct (find _ _) as [g|] eqn:Eg.
      + apply find_some in Eg. destruct Eg as [_ Eg]. apply d_field in Hm, Eg. destruct Hm as (u & E1 & H1), Eg as (u' & E2 & H2).
        destruct (field_one w f g u u' E1 H1 E2 H2) as [_ ->]. reflexivity.
      + exfalso. apply find_none with (x := f) in Eg; [congruence|]. apply nub_in, Hf.
  Qed.

  Record dbuilt (d : dfa) (x : qctx) (st : list label -> Z) : Prop := {
    db_ok : dfa_ok d;
    db_start : st [] = 1;
    db_valid : forall w, valid_state d (st w);
    db_next : forall w l, dfaNextStateByStr d (st w) (linput l) = Ok (st (w ++ [l]));
    db_accept : forall w, getDFAAcceptType d (st w) = Ok (dkind (dcls w));
    db_range : forall w, getDFAArrayIndex d (st w) = Ok (0, 0);
    db_tree : forall w r, dcls w = Some r -> zread (x_subtrees x) (st w) = Ok (match r with RP _ => Some e | RC _ f => Some (EField f) | _ => None end);
    db_preds : forall s, In s (x_preds x) <-> exists w, st w = s /\ dcls w = Some (RP J);
    db_map : forall w, dcls w = Some (RP J) -> exists ss, zread (x_mapping x) (st w) = Ok ss /\
               mapM (init_condition x) ss = Ok (map (fun f => (join f, None)) (nub_fields e))
  }.

  Lemma d_role w r : dcls w = Some r -> match r with RP j => j = J /\ filtered q1 w = true | RC j f => j = J /\ In f (fields_in e) /\ st_match (role_st q (RC J f)) w = true
    | RO => lsel q w = true | RS _ => False end.
  Proof.
    unfold dcls. destruct (lsel q w) eqn:El; [intros [= <-]; reflexivity|].
    destruct (find _ _) as [f|] eqn:Ef.
    - intros [= <-]. apply find_some in Ef. destruct Ef as [H1 H2]. apply nub_in in H1. auto.
    - destruct (filtered q1 w) eqn:E; [|discriminate]. intros [= <-]. auto.
  Qed.

  Hypothesis Hnames : names_fit q = true.
  Theorem desc_built : exists d x st, build strict q = Ok (d, x) /\ dbuilt d x st.
  Proof.
    assert (Hother : forall f, In f (fields_in e) -> stack_of q2 <> map SeDot f).
    { intros f Hf E. pose proof (Hun f Hf) as H. rewrite (path_lsel q2 _ Hp2), E in H. rewrite (proj2 (st_match_dots f (map LKey f)) eq_refl) in H. discriminate. }
    assert (Hst2 : stack_of q2 <> []).
    { clear - Hp2 Hq2. pose proof Hp2 as H. pose proof Hq2 as H0. revert H H0. generalize q2. intros [|s l] H H0; [contradiction|].
      cbn [forallb] in H. apply andb_true_iff in H. destruct H as [Hs _]. destruct s; try discriminate; cbn; discriminate. }
    destruct (tested_finish q1 e q2 strict Hp1 Hp2 Hff Hother Hst2) as (b & Hfin & Hb). fold q in Hfin, Hb. fold roles in Hfin, Hb.
    unfold build. destruct (construct_dfa strict q) as [b0|?]; [|discriminate]. cbn [bind] in Hfin |- *.
    rewrite Hfin. cbn [bind].
    set (sts := map (role_st q) roles). set (out := zlen roles).
    pose proof (bi_nd _ _ _ _ _ Hb) as Hnd.
    assert (Hsmall : codes_fit (b_names b) sts).
    { pose proof (NoDup_incl_length Hnd (bi_names _ _ _ _ _ Hb)) as Hle. unfold names_fit in Hnames.
      apply orb_true_iff in Hnames. destruct Hnames as [H|H]; [left; unfold zlen in *; lia|right].
      apply andb_true_iff in H. destruct H as [H H']. split; [|unfold zlen in *; lia].
      apply Forall_forall. intros s Hs. unfold sts in Hs. apply in_map_iff in Hs. destruct Hs as (r & <- & Hr).
      apply role_no_wild, negb_true_iff, H. }
    assert (Hsts : sts <> []) by discriminate.
    assert (Hstne : Forall (fun st => st <> []) sts).
    { apply Forall_forall. intros s Hs. unfold sts in Hs. apply in_map_iff in Hs. destruct Hs as (r & <- & Hr).
      intros E. apply (f_equal (@List.length se)) in E. unfold roles, troles in Hr. apply in_app_or in Hr. destruct Hr as [[<-|Hr]|[<-|[]]].
      - fold J in E. rewrite Hrp, app_length in E. cbn in E. lia.
      - apply in_map_iff in Hr. destruct Hr as (f & <- & _). fold J in E. rewrite Hrc, !app_length in E. cbn in E. lia.
      - rewrite d_stack, !app_length in E. cbn in E. lia. }
    assert (Hin : Forall (fun st => incl (st_names st) (b_names b)) sts).
    { apply Forall_forall. intros s Hs. unfold sts in Hs. apply in_map_iff in Hs. destruct Hs as (r & <- & Hr).
      pose proof (bi_in _ _ _ _ _ Hb) as H. rewrite Forall_forall in H. apply H, Hr. }
    assert (Hpats : b_pats b = map (flat_map (items_of (b_names b))) sts).
    { unfold sts. rewrite map_map. apply (bi_pats _ _ _ _ _ Hb). }
    assert (Hrange : zlen (b_range b) = zlen sts).
    { rewrite (bi_range _ _ _ _ _ Hb). unfold sts, zlen. rewrite !map_length. reflexivity. }
    assert (Htrees : zlen (b_trees b) = zlen sts).
    { rewrite (bi_trees _ _ _ _ _ Hb). unfold sts, zlen. rewrite !map_length. reflexivity. }
    destruct (compile_main b sts Hsmall Hsts Hstne Hin Hpats Hrange Htrees) as (m & T & Hc & ds & Hds & Hm).
    rewrite Hc. cbn [bind]. rewrite (create_query_dfa_ok b out sts Hnd Hsmall Hstne Hin Hpats Hrange m T ds Hm). cbn [bind].
    rewrite (create_context_ok b out sts Hnd Hsmall Hstne Hin Hpats Htrees m T ds Hm). cbn [bind].
    set (d := the_dfa b out m T). set (x := the_ctx b out m T).
    exists d, x, (stt b T). split; [reflexivity|].
    pose proof (stt_range b m T ds Hm) as Hst.
    pose proof (stt_stop b sts Hsmall Hstne Hin Hpats m T ds Hm) as Hstop.
    pose proof (mo_two _ _ _ _ _ Hm) as H2.
    assert (Hidx : forall w, match dcls w with
              | None => tread (m_stops m) (stt b T w) = 0
              | Some r => exists i, nth_error roles i = Some r /\ tread (m_stops m) (stt b T w) = 1 + Z.of_nat i
              end).
    { intros w. pose proof (d_index w) as H. fold sts in H. rewrite <- Hstop in H. exact H. }
    assert (Hrng : forall s, rng_of b s = (0, 0)).
    { intros s. unfold rng_of. rewrite (bi_range _ _ _ _ _ Hb).
      replace (map (role_rng q) roles) with (repeat (0, 0) (List.length roles)); [apply nth_repeat|].
      assert (G : forall r, In r roles -> role_rng q r = (0, 0)).
      { intros r Hr. apply In_nth_error in Hr. destruct Hr as (i & Hi). pose proof (roles_at i r Hi) as Hr. destruct i; [subst r; reflexivity|].
        destruct Hr as [(f & _ & ->)|(_ & ->)]; reflexivity. }
      revert G. clear. generalize roles as l. induction l as [|r l IH]; intros G; [reflexivity|]. cbn [List.length repeat map]. rewrite (G r (or_introl eq_refl)). f_equal.
      apply IH. intros r' Hr'. apply G. right. exact Hr'. }
    assert (Htree : forall i r, nth_error roles i = Some r -> tree_of b (1 + Z.of_nat i) = role_tree q r).
    { intros i r Hi. unfold tree_of. replace (Z.to_nat (1 + Z.of_nat i - 1)) with i by lia.
      rewrite (bi_trees _ _ _ _ _ Hb). apply nth_error_nth. rewrite nth_error_map, Hi. reflexivity. }
    assert (Hclsst : forall w w', stt b T w = stt b T w' -> dcls w = dcls w').
    { intros w w' E. pose proof (Hidx w) as A. pose proof (Hidx w') as A'. rewrite E in A.
      destruct (dcls w) as [r|], (dcls w') as [r'|].
      - destruct A as (i & Hi & Ei), A' as (i' & Hi' & Ei'). assert (i = i') by (clear - Ei Ei'; lia). subst i'. congruence.
      - destruct A as (i & Hi & Ei). clear - Ei A'. lia.
      - destruct A' as (i & Hi & Ei). clear - Ei A. lia.
      - reflexivity. }
    assert (Harr : forall w r, dcls w = Some r ->
              match r with RP _ => arr_target m T (stt b T w) = true | RC _ _ => arr_target m T (stt b T w) = false | _ => True end).
    { intros w r Hw. pose proof (d_role w r Hw) as Hr. destruct r as [j|j|j f|]; try exact I.
      - destruct Hr as [_ Hr]. destruct (d_last w Hr) as (w' & i & ->). apply (arr_target_snoc b m T ds Hm).
      - destruct (arr_target m T (stt b T w)) eqn:Ea; [|reflexivity]. exfalso.
        assert (stt b T w <> 0) as H0.
        { intros E0. pose proof (Hidx w) as A. rewrite Hw in A. destruct A as (i & _ & A).
          rewrite E0, (mo_stop0 _ _ _ _ _ Hm) in A. clear - A. lia. }
        destruct (arr_target_inv b Hnd m T ds Hm _ Ea H0) as (u & Eu).
        assert (dcls (u ++ [LIdx 0]) = Some (RC j f)) as Hu by (rewrite <- Hw; apply Hclsst, Eu).
        apply d_role in Hu. destruct Hu as (_ & Hf & Hu). destruct (field_last _ f Hf Hu) as (w' & k & E). apply app_inj_tail in E. destruct E. discriminate. }
    assert (Hout : forall i r, nth_error roles i = Some r -> (1 + Z.of_nat i =? out) = match r with RO => true | _ => false end).
    { intros i r Hi. assert (Eo : out = 1 + Z.of_nat (S (List.length (nub_fields e)))).
      { unfold out, roles, troles, froles, zlen. rewrite app_length. cbn [List.length]. rewrite map_length. clear. lia. }
      rewrite Eo. pose proof (roles_at i r Hi) as Hr. destruct i as [|t]; [subst r; apply Z.eqb_neq; clear; lia|].
      destruct Hr as [(f & Hf & ->)|(-> & ->)]; [|apply Z.eqb_refl]. apply Z.eqb_neq.
      assert (t < List.length (nub_fields e))%nat by (apply nth_error_Some; congruence). clear - H. lia. }
    assert (Hinfo : forall w, info_of b out m T (stt b T w) =
              match dcls w with
              | None => mkSt 0 0 (0, 0)
              | Some r => mkSt (tread (m_stops m) (stt b T w)) (dkind (Some r)) (0, 0)
              end).
    { intros w. unfold info_of. pose proof (Hidx w) as A. destruct (dcls w) as [r|] eqn:Ec; [|rewrite A; reflexivity].
      destruct A as (i & Hi & Ei). rewrite Ei. replace (1 + Z.of_nat i =? 0) with false by (clear; symmetry; apply Z.eqb_neq; lia).
      rewrite (Hout i r Hi), Hrng. pose proof (Harr w r Ec) as Ha. pose proof (roles_at i r Hi) as Hr.
      destruct r as [j|j|j f|]; cbn [dkind].
      - destruct i; [discriminate|]. destruct Hr as [(f & _ & H)|(_ & H)]; discriminate.
      - rewrite Ha. reflexivity.
      - rewrite Ha. reflexivity.
      - reflexivity. }
    assert (Hacc : forall w, st_accept (info_of b out m T (stt b T w)) = dkind (dcls w)).
    { intros w. rewrite Hinfo. destruct (dcls w); reflexivity. }
    assert (Hinfo0 : info_of b out m T 0 = mkSt 0 0 (0, 0)).
    { unfold info_of. rewrite (mo_stop0 _ _ _ _ _ Hm). reflexivity. }
    assert (Hctx : forall w r, dcls w = Some r ->
              exists i, nth_error roles i = Some r /\
              ctx_of b out m T (stt b T w) =
                (role_tree q r, map (fun v => acc_id2state (m_stops m) (v + 1) 0) (map_get (b_map b) (Z.of_nat i)))).
    { intros w r Hw. pose proof (Hidx w) as A. rewrite Hw in A. destruct A as (i & Hi & Ei). exists i.
      split; [exact Hi|]. unfold ctx_of. rewrite Hinfo, Hw. cbn [st_stop]. rewrite Ei.
      replace (1 + Z.of_nat i =? 0) with false by (clear; symmetry; apply Z.eqb_neq; lia).
      rewrite (Htree i r Hi). replace (1 + Z.of_nat i - 1) with (Z.of_nat i) by (clear; lia). reflexivity. }
    assert (Honto : forall s, 1 <= s < m_states m -> exists w, stt b T w = s).
    { intros s Hs. apply (st_onto b Hnd m T ds Hm s Hs). }
    assert (Ecf : nth_error q J = Some (SFilter e)) by (unfold q, J; rewrite nth_error_app2, Nat.sub_diag by apply le_n; reflexivity).
    assert (Htr : forall r, In r roles -> role_tree q r = match r with RP _ => Some e | RC _ f => Some (EField f) | _ => None end).
    { intros r Hr. apply In_nth_error in Hr. destruct Hr as (i & Hi). pose proof (roles_at i r Hi) as Hr. destruct i; [subst r; cbn [role_tree]; rewrite Ecf; reflexivity|].
      destruct Hr as [(f & _ & ->)|(_ & ->)]; reflexivity. }
    constructor.
    - apply (the_dfa_ok b out m T ds Hm).
    - reflexivity.
    - intros w. unfold valid_state. unfold d. rewrite (nstates_the b out m T ds Hm). apply Hst.
    - intros w l. apply (next_label b out sts Hnd Hsmall Hin Hpats m T ds Hm).
    - intros w. unfold d. rewrite (the_accept b out m T (stt b T w)) by apply Hst. rewrite Hacc. reflexivity.
    - intros w. unfold d. rewrite (the_range b out m T (stt b T w)) by apply Hst. rewrite Hinfo.
      destruct (dcls w); reflexivity.
    - intros w r Hw. unfold x. rewrite (the_subtree b out m T (stt b T w)) by apply Hst.
      destruct (Hctx w r Hw) as (i & Hi & ->). cbn [fst]. rewrite Htr by (eapply nth_error_In, Hi). reflexivity.
    - intros s. unfold x. cbn [the_ctx x_preds]. rewrite filter_In, in_state_list. split.
      + intros (Hs & Hc'). apply andb_true_iff in Hc'. destruct Hc' as [C1 C2].
        assert (s <> 0) as H0. { intros ->. rewrite Hinfo0 in C2. discriminate. }
        destruct (Honto s ltac:(lia)) as (w & <-). rewrite Hacc in C2. exists w. split; [reflexivity|].
        destruct (dcls w) as [r|] eqn:Ec; [|discriminate]. pose proof (d_role w r Ec) as Hr.
        destruct r as [j|j|j f|]; try discriminate. destruct Hr as [-> _]. reflexivity.
      + intros (w & <- & Hw). split; [apply Hst|]. rewrite Hacc, Hinfo, Hw. cbn [st_stop dkind].
        pose proof (Hidx w) as A. rewrite Hw in A. destruct A as (i & _ & ->).
        replace (1 + Z.of_nat i =? 0) with false by (clear; symmetry; apply Z.eqb_neq; lia). reflexivity.
    - intros w Hw. destruct (Hctx w (RP J) Hw) as (i & Hi & Ectx).
      unfold x at 1. rewrite (the_mapping b out m T (stt b T w)) by apply Hst. rewrite Ectx. cbn [snd].
      eexists. split; [reflexivity|].
      destruct (bi_map _ _ _ _ _ Hb i J Hi) as [Em Hmc]. rewrite Em, map_map.
      assert (Ecf' : the_cf q J = nub_fields e) by (unfold the_cf; rewrite Ecf; reflexivity). rewrite Ecf' in *.
      assert (Hcond : forall t f, nth_error (nub_fields e) t = Some f ->
                init_condition x (acc_id2state (m_stops m) (Z.of_nat (S i + t) + 1) 0) = Ok (join f, None)).
      { intros t f Ht. pose proof (Hmc t f Ht) as Hrc'.
        assert (Hfe : In f (fields_in e)) by (apply nub_in; eapply nth_error_In, Ht).
        set (w' := map wit (role_st q (RC J f))).
        assert (Hcw : dcls w' = Some (RC J f)) by (apply d_witness, Hfe).
        pose proof (Hidx w') as A. rewrite Hcw in A. destruct A as (i' & Hi' & Ei').
        assert (i' = S i + t)%nat.
        { eapply (proj1 (NoDup_nth_error _) roles_nd); [apply nth_error_Some; congruence|congruence]. }
        subst i'. rewrite Hstop in Ei'.
        destruct (acc_state b sts Hsmall Hstne Hin Hpats m T ds Hm (Z.of_nat (S i + t) + 1) w' ltac:(lia)) as (As & At).
        { rewrite Ei'. clear. lia. }
        destruct (Honto _ As) as (w2 & Ew2). rewrite <- Ew2 in At |- *.
        assert (Hcw2 : dcls w2 = Some (RC J f)).
        { pose proof (Hidx w2) as A2. rewrite At in A2. destruct (dcls w2) as [r2|]; [|clear - A2; lia].
          destruct A2 as (i2 & Hi2 & Ei2). replace i2 with (S i + t)%nat in Hi2 by (clear - Ei2; lia). congruence. }
        destruct (Hctx w2 _ Hcw2) as (i2 & _ & Ec2).
        unfold init_condition, getContextSubtree, x. rewrite (the_subtree b out m T (stt b T w2)) by apply Hst.
        rewrite Ec2. cbn [fst role_tree bind]. pose proof (d_fields f Hfe). destruct f; [contradiction|]. reflexivity. }
      clear - Hcond. revert Hcond. generalize (nub_fields e) as fs. intros fs. generalize (S i) as n. clear i.
      induction fs as [|f fs IH]; intros n Hcond; cbn [List.length seq map mapM]; [reflexivity|].
      pose proof (Hcond O f eq_refl) as H0. rewrite Nat.add_0_r in H0. rewrite H0. cbn [bind].
      rewrite IH; [reflexivity|]. intros t g Ht. specialize (Hcond (S t) g Ht).
      replace (S n + t)%nat with (n + S t)%nat by (clear; lia). exact Hcond.
  Qed.
End DBuild.
