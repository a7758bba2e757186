(** Queries with one slice, on documents in which its elements are not nested. *)
From Verif Require Import Base Util Spec QueryClass Regex RegexProof Mixer MixerProof Compress Lexer LexProof LexDoc LexMain
  Dfa Stream TreeSem Builder Eval Filter FilterProof AutoProof BuilderProof Roles Compiled TreeSel SelProof SelFilter PosSpec Claims Num Loader Run EndToEnd
  ClaimProof SliceSpec SliceAny.
Open Scope Z_scope.

Lemma lsel_app : forall w a b, lsel (a ++ b) w = true <->
  exists n, (n <= List.length w)%nat /\ lsel a (firstn n w) = true /\ lsel b (skipn n w) = true.
Proof.
  induction w as [|l w IH]; intros a b.
  - split.
    + intros H. exists O. split; [cbn; lia|]. destruct a; [split; [reflexivity|exact H]|discriminate].
    + intros (n & Hn & H1 & H2). cbn in Hn. assert (n = O) by lia. subst n. destruct a; [exact H2|discriminate].
  - split.
    + intros H. destruct a as [|s a]; [exists O; split; [cbn; lia|]; split; [reflexivity|exact H]|].
      assert (Hone : forall b1, b1 && lsel (a ++ b) w = true -> exists n, (n <= List.length (l :: w))%nat /\
                b1 && lsel a (firstn n w) = true /\ lsel b (skipn (S n) (l :: w)) = true /\ (S n <= List.length (l :: w))%nat).
      { intros b1 H1. apply andb_true_iff in H1. destruct H1 as [-> H1]. apply IH in H1. destruct H1 as (n & Hn & A1 & A2).
        exists n. cbn [List.length skipn andb]. repeat split; auto; lia. }
      assert (Hrec : lsel ((s :: a) ++ b) w = true -> exists n, (n <= List.length w)%nat /\ lsel (s :: a) (firstn n w) = true /\ lsel b (skipn n w) = true).
      { intros H1. apply IH in H1. exact H1. }
      cbn [app] in Hrec. cbn [app lsel] in H.
      destruct s as [k| |k| | |lo hi|n0|e].
      1,5,6,7,8: (apply Hone in H; destruct H as (n & _ & H1 & H2 & H3); exists (S n); split; [exact H3|]; split; [exact H1|exact H2]).
      * destruct (Hone true H) as (n & _ & H1 & H2 & H3). exists (S n). split; [exact H3|]. split; [exact H1|exact H2].
      * apply orb_true_iff in H. destruct H as [H|H].
        -- apply Hone in H. destruct H as (n & _ & H1 & H2 & H3). exists (S n). split; [exact H3|]. split; [|exact H2]. cbn [firstn lsel]. rewrite H1. reflexivity.
        -- destruct (Hrec H) as (n & Hn & H1 & H2). exists (S n). split; [cbn; lia|]. split; [|exact H2]. cbn [firstn lsel]. rewrite H1. apply orb_true_r.
      * apply orb_true_iff in H. destruct H as [H|H].
        -- destruct (Hone true H) as (n & _ & H1 & H2 & H3). exists (S n). split; [exact H3|]. split; [|exact H2]. cbn [firstn lsel]. cbn [andb] in H1. rewrite H1. reflexivity.
        -- destruct (Hrec H) as (n & Hn & H1 & H2). exists (S n). split; [cbn; lia|]. split; [|exact H2]. cbn [firstn lsel]. rewrite H1. apply orb_true_r.
    + intros (n & Hn & H1 & H2). destruct n as [|n].
      * destruct a; [exact H2|discriminate].
      * cbn [firstn skipn] in H1, H2. cbn in Hn. destruct a as [|s a]; [discriminate|].
        assert (Ha : lsel a (firstn n w) = true -> lsel (a ++ b) w = true) by (intros H; apply IH; exists n; repeat split; auto; lia).
        assert (Hs : lsel (s :: a) (firstn n w) = true -> lsel ((s :: a) ++ b) w = true) by (intros H; apply IH; exists n; repeat split; auto; lia).
        cbn [app] in Hs. cbn [app]. cbn [lsel] in H1 |- *.
        destruct s as [k| |k| | |lo hi|n0|e].
        1,5,6,7,8: (apply andb_true_iff in H1; destruct H1 as [H1 H3]; rewrite H1, (Ha H3); reflexivity).
        -- apply Ha, H1.
        -- apply orb_true_iff in H1. destruct H1 as [H1|H1].
           ++ apply andb_true_iff in H1; destruct H1 as [H1 H3]; rewrite H1, (Ha H3); reflexivity.
           ++ rewrite (Hs H1). apply orb_true_r.
        -- apply orb_true_iff in H1. destruct H1 as [H1|H1]; [rewrite (Ha H1); reflexivity|rewrite (Hs H1); apply orb_true_r].
Qed.

Lemma path_unsliced q : forallb is_path_step q = true -> map unsliced q = q.
Proof.
  induction q as [|s q IH]; intros H; [reflexivity|]. cbn [forallb map] in *. apply andb_true_iff in H. destruct H as [H1 H2].
  rewrite (IH H2). destruct s; try discriminate; reflexivity.
Qed.
Lemma path_nth q j lo hi : forallb is_path_step q = true -> nth_error q j <> Some (SSlice lo hi).
Proof. intros H E. apply nth_error_In in E. rewrite forallb_forall in H. apply H in E. discriminate. Qed.

Section Single.
  Variables (q1 q2 : query) (lo hi : option Z).
  Hypothesis H1 : forallb is_path_step q1 = true.
  Hypothesis H2 : forallb is_path_step q2 = true.
  Let q := q1 ++ SSlice lo hi :: q2.

  Lemma single_pre w : reach (q1 ++ [SSlice lo hi]) w = lsel (q1 ++ [SAll]) w.
  Proof. unfold reach. rewrite map_app, (path_unsliced _ H1). reflexivity. Qed.
  Lemma single_any w : reach (q1 ++ [SAll]) w = lsel (q1 ++ [SAll]) w.
  Proof. unfold reach. rewrite map_app, (path_unsliced _ H1). reflexivity. Qed.
  Lemma single_reach w : reach q w = lsel ((q1 ++ [SAll]) ++ q2) w.
  Proof. unfold reach, q. rewrite map_app. cbn [map unsliced]. rewrite (path_unsliced _ H1), (path_unsliced _ H2), <- app_assoc. reflexivity. Qed.

  Lemma single_latest w : latest q w = if lsel (q1 ++ [SAll]) w then Some (lo, hi) else None.
  Proof.
    assert (Hat : slice_at q w (List.length q1) = if lsel (q1 ++ [SAll]) w then Some (lo, hi) else None).
    { unfold slice_at, q. rewrite nth_pre. replace (firstn (S (List.length q1)) (q1 ++ SSlice lo hi :: q2)) with (q1 ++ [SSlice lo hi]).
      - rewrite single_pre. reflexivity.
      - rewrite firstn_app. replace (S (List.length q1) - List.length q1)%nat with 1%nat by lia. rewrite firstn_all2 by lia. reflexivity. }
    assert (Hno : forall j, j <> List.length q1 -> slice_at q w j = None).
    { intros j Hj. unfold slice_at. destruct (nth_error q j) as [s|] eqn:E; [|reflexivity]. destruct s; try reflexivity. exfalso.
      unfold q in E. destruct (Nat.lt_ge_cases j (List.length q1)) as [L|L].
      - rewrite nth_error_app1 in E by exact L. exact (path_nth _ _ _ _ H1 E).
      - rewrite nth_error_app2 in E by exact L. replace (j - List.length q1)%nat with (S (j - S (List.length q1))) in E by lia.
        cbn [nth_error] in E. exact (path_nth _ _ _ _ H2 E). }
    destruct (lsel (q1 ++ [SAll]) w).
    - apply latest_some with (j := List.length q1); [unfold q; rewrite app_length; cbn; lia|exact Hat|]. intros j' Hj. apply Hno. lia.
    - apply latest_none. intros j. destruct (Nat.eq_dec j (List.length q1)) as [->|Hj]; [exact Hat|apply Hno, Hj].
  Qed.

  Lemma single_ends : ends_sliced q = match q2 with [] => true | _ => false end.
  Proof.
    unfold ends_sliced, q. destruct q2 as [|s q2'] using rev_ind; [rewrite last_step_snoc; reflexivity|].
    replace (q1 ++ SSlice lo hi :: q2' ++ [s]) with ((q1 ++ SSlice lo hi :: q2') ++ [s]) by (rewrite <- app_assoc; reflexivity).
    rewrite last_step_snoc. rewrite forallb_app in H2. apply andb_true_iff in H2. destruct H2 as [_ Hs]. cbn in Hs. rewrite andb_true_r in Hs.
    destruct s; try discriminate; destruct q2'; reflexivity.
  Qed.

  Lemma last_step_slice w : lsel (q1 ++ [SSlice lo hi]) w = lsel (q1 ++ [SAll]) w && in_slice lo hi (last_index w).
  Proof.
    apply eq_true_iff_eq. rewrite andb_true_iff, !lsel_app. split.
    - intros (n & Hn & A1 & A2). destruct (skipn n w) as [|l w'] eqn:E; [discriminate|]. cbn [lsel] in A2.
      destruct l as [k|i]; [discriminate|]. apply andb_true_iff in A2. destruct A2 as [A2 A3]. destruct w'; [|discriminate].
      split; [exists n; rewrite E; auto|]. rewrite <- (firstn_skipn n w), E. unfold last_index. rewrite last_last. exact A2.
    - intros ((n & Hn & A1 & A2) & A3). exists n. split; [exact Hn|]. split; [exact A1|].
      destruct (skipn n w) as [|l w'] eqn:E; [discriminate|]. cbn [lsel] in A2 |- *.
      destruct l as [k|i]; [discriminate|]. cbn [andb] in A2. destruct w'; [|discriminate].
      rewrite <- (firstn_skipn n w), E in A3. unfold last_index in A3. rewrite last_last in A3. rewrite A3. reflexivity.
  Qed.

  Definition one_element (w : list label) : Prop := forall n m, (n <= List.length w)%nat -> (m <= List.length w)%nat ->
    lsel (q1 ++ [SAll]) (firstn n w) = true -> lsel (q1 ++ [SAll]) (firstn m w) = true -> n = m.

  Lemma coded_single w : one_element w -> coded q w = lsel q w.
  Proof.
    intros Huniq. apply eq_true_iff_eq. unfold coded. rewrite andb_true_iff, forallb_forall, single_reach.
    replace (lsel q w) with (lsel ((q1 ++ [SSlice lo hi]) ++ q2) w) by (unfold q; rewrite <- app_assoc; reflexivity). rewrite !lsel_app.
    assert (Hp : forall n, (n <= List.length w)%nat -> lsel (q1 ++ [SAll]) (firstn n w) = true ->
              passes q (firstn n w) = in_slice lo hi (last_index (firstn n w))).
    { intros n Hn Hl. unfold passes, guard. rewrite single_latest, Hl. replace (reach q (firstn n w) && negb (ends_sliced q)) with false; [reflexivity|].
      symmetry. apply not_true_iff_false. intros H. apply andb_true_iff in H. destruct H as [A B]. rewrite single_ends in B.
      rewrite single_reach in A. apply lsel_app in A. destruct A as (m & Hm & A1 & A2). rewrite firstn_firstn in A1.
      rewrite firstn_length in Hm. replace (Nat.min m n) with m in A1 by lia.
      assert (m = n) by (apply Huniq; auto; lia). subst m. rewrite skipn_all2 in A2 by (rewrite firstn_length; lia).
      destruct q2; [discriminate B|discriminate A2]. }
    split.
    - intros ((n & Hn & A1 & A2) & A3). exists n. split; [exact Hn|]. split; [|exact A2]. rewrite last_step_slice, A1. cbn [andb].
      rewrite <- (Hp n Hn A1). apply A3, in_seq. lia.
    - intros (n & Hn & A1 & A2). rewrite last_step_slice in A1. apply andb_true_iff in A1. destruct A1 as [A1 A3].
      split; [exists n; auto|]. intros m Hm. apply in_seq in Hm.
      destruct (lsel (q1 ++ [SAll]) (firstn m w)) eqn:E.
      + rewrite Hp by (try lia; exact E). assert (m = n) by (apply Huniq; auto; lia). subst m. exact A3.
      + unfold passes, guard. rewrite single_latest, E. destruct (_ && _); reflexivity.
  Qed.
End Single.

Lemma labels_firstn' n p : labels (firstn n p) = firstn n (labels p).
Proof. unfold labels. symmetry. apply firstn_map. Qed.

Theorem single_slice N strict q1 lo hi q2 j dc :
  let q := q1 ++ SSlice lo hi :: q2 in
  forallb is_path_step q1 = true -> forallb is_path_step q2 = true -> slice_ok (SSlice lo hi) = true -> names_fit q = true ->
  good_doc dc -> limits (map unsliced q) (d_val dc) -> not_nested q1 (d_val dc) -> j_major_null j = true ->
  exists p, createPathProcessor strict q = Ok p /\ serialRun N j p (doc_text dc) = Ok (Some (answer_text (fun _ _ => false) q (d_val dc))).
Proof.
  intros q H1 H2 H3 H4 H5 H6 H7 H8.
  assert (Hsp : forall l, forallb is_path_step l = true -> forallb is_slice_or_path l = true).
  { intros l H. rewrite forallb_forall in *. intros s Hs. unfold is_slice_or_path. rewrite (H s Hs). reflexivity. }
  assert (Hok : forall l, forallb is_path_step l = true -> forallb slice_ok l = true).
  { intros l H. rewrite forallb_forall in *. intros s Hs. specialize (H s Hs). destruct s; try discriminate; reflexivity. }
  assert (Hq : slice_query q = true).
  { unfold slice_query, q. rewrite forallb_app. cbn [forallb]. rewrite (Hsp _ H1), (Hsp _ H2). destruct q1; reflexivity. }
  assert (Hso : forallb slice_ok q = true).
  { unfold q. rewrite forallb_app. cbn [forallb]. rewrite (Hok _ H1), (Hok _ H2), H3. reflexivity. }
  destruct (coded_answer N strict q j dc Hq Hso H4 H5 H6 H8) as (p & Hp & Hr). exists p. split; [exact Hp|]. rewrite Hr. do 2 f_equal.
  unfold coded_text, answer_text, answer. rewrite map_map. f_equal. apply filter_ext_in. intros [w u] Hn. cbn [fst].
  rewrite sel_none by (apply (no_filter_fields q Hq)).
  apply (coded_single q1 q2 lo hi H1 H2). intros n m Hn1 Hm1 A B. unfold labels in Hn1, Hm1. rewrite map_length in Hn1, Hm1.
  apply (H7 w u n m Hn Hn1 Hm1); rewrite labels_firstn', (single_any q1 H1); assumption.
Qed.
