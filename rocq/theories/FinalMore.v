(** When the output of a query that ends in a filter is its answer. *)
From Verif Require Import Base Util Spec QueryClass TreeSem TreeSel SelProof Claims Num FilterSpec Builder Run Loader EndToEnd FinalSpec FinalFilter.
From Verif Require FilterProof SelFilter BuilderProof Roles RegexProof.
Open Scope Z_scope.

Lemma nodes_end :
  (forall v p n, In n (nodes p v) -> n = (p, v) \/ exists p' (l0 : label), fst n = p' ++ [(l0, snd n)]) /\
  (forall ms p n, In n (nodes_ms p ms) -> exists p' (l0 : label), fst n = p' ++ [(l0, snd n)]) /\
  (forall l p i n, In n (nodes_es p i l) -> exists p' (l0 : label), fst n = p' ++ [(l0, snd n)]).
Proof.
  assert (G : forall (p : path) (l : label) (v : json) (n : path * json), n = (p ++ [(l, v)], v) \/ (exists p' (l0 : label), fst n = p' ++ [(l0, snd n)]) -> exists p' (l0 : label), fst n = p' ++ [(l0, snd n)]).
  { intros p l v n [->|H]; [exists p, l; reflexivity|exact H]. }
  apply json_all_ind.
  - intros s p n [<-|[]]. left. reflexivity.
  - intros s p n [<-|[]]. left. reflexivity.
  - intros w ms IH p n H. cbn [nodes] in H. apply in_app_or in H. destruct H as [H|[<-|[]]]; [right; eapply IH, H|left; reflexivity].
  - intros w l IH p n H. cbn [nodes] in H. apply in_app_or in H. destruct H as [H|[<-|[]]]; [right; eapply IH, H|left; reflexivity].
  - intros p n [].
  - intros m k v IHv ms IHm p n H. cbn [nodes_ms] in H. apply in_app_or in H. destruct H as [H|H]; [eapply G, IHv, H|eapply IHm, H].
  - intros p i n [].
  - intros wb v IHv wa l IHl p i n H. cbn [nodes_es] in H. apply in_app_or in H. destruct H as [H|H]; [eapply G, IHv, H|eapply IHl, H].
Qed.

Lemma selects_final holds e : forall p q l u, forallb is_path_step q = true ->
  selects holds (q ++ [SFilter e]) (p ++ [(l, u)]) = filtered q (labels (p ++ [(l, u)])) && (is_object u && holds e u).
Proof.
  unfold filtered. induction p as [|[l0 v] p IH]; intros q l u H.
  - destruct q as [|s q]; cbn [app labels map fst selects lsel].
    + destruct l; [reflexivity|]. rewrite !andb_true_r. reflexivity.
    + assert (Hn : forall X, match q ++ [X] with [] => true | _ :: _ => false end = false) by (intros X; destruct q; reflexivity).
      destruct s; try (cbn in H; discriminate); rewrite ?Hn, ?andb_false_r; reflexivity.
  - destruct q as [|s q].
    + cbn [app labels map fst selects lsel]. fold (labels (p ++ [(l, u)])).
      replace (selects holds [] (p ++ [(l, u)])) with false by (destruct p as [|[]]; reflexivity).
      replace (lsel [] (labels (p ++ [(l, u)]))) with false by (destruct p as [|[]]; reflexivity). rewrite !andb_false_r. reflexivity.
    + pose proof (IH (s :: q) l u H) as H2. cbn [forallb] in H. apply andb_true_iff in H. destruct H as [Hs H].
      pose proof (IH q l u H) as H1. cbn [app labels map fst selects lsel] in *. fold (labels (p ++ [(l, u)])) in *.
      remember (is_object u && holds e u) as c. clear Heqc.
      destruct s; try discriminate; rewrite ?H1, ?H2; rewrite ?andb_assoc; try reflexivity.
      * rewrite <- andb_orb_distrib_l. reflexivity.
      * rewrite <- andb_orb_distrib_l. reflexivity.
Qed.

Section Counting.
  Variables elem field : list label -> bool.
  Hypothesis Hdisj : forall w, elem w = true -> field w = false.
  Let either (n : path * json) : bool := elem (labels (fst n)) || field (labels (fst n)).
  Let fl_len (ns : list (path * json)) : nat := List.length (filter either ns).
  Lemma fl_app a b : fl_len (a ++ b) = (fl_len a + fl_len b)%nat.
  Proof. unfold fl_len. rewrite filter_app, app_length. reflexivity. Qed.
  Lemma final_count :
    (forall v p, List.length (final_val elem field (labels p) v) = fl_len (nodes p v)) /\
    (forall ms p, List.length (final_ms elem field (labels p) ms) = fl_len (nodes_ms p ms)) /\
    (forall l p i, List.length (final_es elem field (labels p) i l) = fl_len (nodes_es p i l)).
  Proof.
    assert (Hself : forall p v, fl_len [(p, v)] = (List.length (if field (labels p) then [[]] else [] : list bytes) + List.length (if elem (labels p) then [text v] else []))%nat).
    { intros p v. unfold fl_len, either. cbn [filter fst]. pose proof (Hdisj (labels p)) as Hd. destruct (elem (labels p)); [rewrite (Hd eq_refl); reflexivity|].
      destruct (field (labels p)); reflexivity. }
    apply json_all_ind.
    - intros s p. cbn [final_val nodes]. unfold fl_len, either. cbn [filter fst]. destruct (_ || _); reflexivity.
    - intros s p. cbn [final_val nodes]. unfold fl_len, either. cbn [filter fst]. destruct (_ || _); reflexivity.
    - intros w ms IH p. cbn [final_val nodes]. rewrite fl_app, !app_length, IH, Hself. unfold bytes in *. lia.
    - intros w l IH p. cbn [final_val nodes]. rewrite fl_app, !app_length, IH, Hself. unfold bytes in *. lia.
    - reflexivity.
    - intros m k v IHv ms IHm p. cbn [final_ms nodes_ms]. rewrite fl_app, app_length, IHm, <- IHv. rewrite labels_snoc. reflexivity.
    - reflexivity.
    - intros wb v IHv wa l IHl p i. cbn [final_es nodes_es]. rewrite fl_app, app_length, IHl, <- IHv. rewrite labels_snoc. reflexivity.
  Qed.

  Let pick (ns : list (path * json)) : list bytes := map (fun n => text (snd n)) (filter (fun n => elem (labels (fst n))) ns).
  Lemma pick_app a b : pick (a ++ b) = pick a ++ pick b.
  Proof. unfold pick. rewrite filter_app, map_app. reflexivity. Qed.
  Lemma final_plain :
    (forall v p, (forall n, In n (nodes p v) -> field (labels (fst n)) = false) -> final_val elem field (labels p) v = pick (nodes p v)) /\
    (forall ms p, (forall n, In n (nodes_ms p ms) -> field (labels (fst n)) = false) -> final_ms elem field (labels p) ms = pick (nodes_ms p ms)) /\
    (forall l p i, (forall n, In n (nodes_es p i l) -> field (labels (fst n)) = false) -> final_es elem field (labels p) i l = pick (nodes_es p i l)).
  Proof.
    assert (Hself : forall p v, pick [(p, v)] = if elem (labels p) then [text v] else []).
    { intros p v. unfold pick. cbn [filter fst]. destruct (elem (labels p)); reflexivity. }
    apply json_all_ind.
    - intros s p H. cbn [final_val nodes]. pose proof (H (p, JBare s) (or_introl eq_refl)) as H0. cbn [fst] in H0. rewrite Hself, H0, orb_false_r. reflexivity.
    - intros s p H. cbn [final_val nodes]. pose proof (H (p, JStr s) (or_introl eq_refl)) as H0. cbn [fst] in H0. rewrite Hself, H0, orb_false_r. reflexivity.
    - intros w ms IH p H. cbn [final_val nodes] in *. pose proof (H (p, JObj w ms) ltac:(apply in_or_app; right; left; reflexivity)) as H0. cbn [fst] in H0. rewrite pick_app, Hself, H0. cbn [app]. rewrite IH; [reflexivity|]. intros n Hn. apply H, in_or_app. left. exact Hn.
    - intros w l IH p H. cbn [final_val nodes] in *. pose proof (H (p, JArr w l) ltac:(apply in_or_app; right; left; reflexivity)) as H0. cbn [fst] in H0. rewrite pick_app, Hself, H0. cbn [app]. rewrite IH; [reflexivity|]. intros n Hn. apply H, in_or_app. left. exact Hn.
    - reflexivity.
    - intros m k v IHv ms IHm p H. cbn [final_ms nodes_ms] in *. rewrite pick_app, IHm, <- IHv, labels_snoc; [reflexivity| |];
        intros n Hn; apply H, in_or_app; auto.
    - reflexivity.
    - intros wb v IHv wa l IHl p i H. cbn [final_es nodes_es] in *. rewrite pick_app, IHl, <- IHv, labels_snoc; [reflexivity| |];
        intros n Hn; apply H, in_or_app; auto.
  Qed.
End Counting.

Lemma filter_len_same {A} (f g : A -> bool) : (forall x, f x = true -> g x = true) -> forall l,
  (List.length (filter f l) <= List.length (filter g l))%nat /\
  (List.length (filter f l) = List.length (filter g l) -> forall x, In x l -> g x = true -> f x = true).
Proof.
  intros H. induction l as [|a l [IH1 IH2]]; [split; [reflexivity|intros _ x []]|]. cbn [filter]. pose proof (H a) as Ha.
  destruct (f a) eqn:Ef.
  - rewrite (Ha eq_refl). cbn [List.length]. split; [lia|]. intros E x [<-|Hx] Hg; [exact Ef|apply IH2; [lia|exact Hx|exact Hg]].
  - destruct (g a) eqn:Eg; cbn [List.length]; (split; [lia|]); intros E x [<-|Hx] Hg; try congruence; try lia; apply IH2; auto.
Qed.

(** The output is the answer exactly if every element satisfies the expression and
    no element has a field that it mentions. *)
Theorem final_exact holds q e v : forallb is_path_step q = true -> (forall f, In f (fields_in e) -> f <> []) ->
  (final_text q e v = answer_text holds (q ++ [SFilter e]) v <->
   (forall u, In u (answer holds (q ++ [SAll]) v) -> is_object u = true /\ holds e u = true) /\
   (forall p u, In (p, u) (nodes [] v) -> mentioned q e (labels p) = false)).
Proof.
  intros Hq Hne.
  assert (Hall : forall p, selects holds (q ++ [SAll]) p = filtered q (labels p)).
  { intros p. apply SelFilter.sel_none. intros s Hs. apply in_app_or in Hs. destruct Hs as [Hs|[<-|[]]]; [|reflexivity].
    rewrite forallb_forall in Hq. specialize (Hq s Hs). destruct s; try discriminate; reflexivity. }
  assert (Hdisj : forall w, filtered q w = true -> mentioned q e w = false).
  { intros w Hw. destruct (mentioned q e w) eqn:E; [|reflexivity]. exfalso.
    destruct (elem_last q e Hq w Hw) as (u & i & E1).
    assert (Hff : BuilderProof.fields_fine false (q ++ [SFilter e])).
    { intros f Hf. split; [|discriminate]. apply Hne. unfold query_fields in Hf. apply in_flat_map in Hf. destruct Hf as (s & Hs & Hf).
      apply in_app_or in Hs. destruct Hs as [Hs|[<-|[]]]; [|exact Hf]. rewrite forallb_forall in Hq. specialize (Hq s Hs). destruct s; try discriminate; destruct Hf. }
    destruct (field_last q e false Hq Hff w E) as (u' & k & E2).
    rewrite E1 in E2. apply app_inj_tail in E2. destruct E2. discriminate. }
  assert (Hsel : forall p u, In (p, u) (nodes [] v) -> selects holds (q ++ [SFilter e]) p = filtered q (labels p) && (is_object u && holds e u)).
  { intros p u Hn. destruct (proj1 nodes_end v [] (p, u) Hn) as [E|(p' & l & E)].
    - injection E as -> ->. cbn [labels map]. destruct q; reflexivity.
    - cbn [fst snd] in E. subst p. apply selects_final, Hq. }
  unfold final_text, answer_text, answer. split.
  - intros E. apply (f_equal (@List.length bytes)) in E. rewrite !map_length in E.
    pose proof (proj1 (final_count (filtered q) (mentioned q e) Hdisj) v []) as Hc. cbn [labels map] in Hc. rewrite Hc in E.
    set (ns := nodes [] v) in *.
    assert (Hf : filter (fun n => selects holds (q ++ [SFilter e]) (fst n)) ns =
                 filter (fun n => filtered q (labels (fst n)) && (is_object (snd n) && holds e (snd n))) ns).
    { apply filter_ext_in. intros [p u] Hn. apply Hsel, Hn. }
    rewrite Hf in E.
    destruct (filter_len_same (fun n : path * json => filtered q (labels (fst n)) && (is_object (snd n) && holds e (snd n)))
                (fun n => filtered q (labels (fst n)) || mentioned q e (labels (fst n)))) with (l := ns) as [_ Hs].
    { intros n H. apply andb_true_iff in H. destruct H as [-> _]. reflexivity. }
    specialize (Hs (eq_sym E)). split.
    + intros u Hu. apply in_map_iff in Hu. destruct Hu as ([p u'] & <- & Hu). apply filter_In in Hu. destruct Hu as [Hn Hp].
      cbn [fst snd] in *. rewrite Hall in Hp. specialize (Hs (p, u') Hn). cbn [fst snd] in Hs. rewrite Hp in Hs. specialize (Hs eq_refl).
      cbn [andb] in Hs. apply andb_true_iff in Hs. exact Hs.
    + intros p u Hn. destruct (mentioned q e (labels p)) eqn:Em; [|reflexivity]. specialize (Hs (p, u) Hn). cbn [fst snd] in Hs.
      rewrite Em, orb_true_r in Hs. specialize (Hs eq_refl). apply andb_true_iff in Hs. destruct Hs as [Hs _]. rewrite (Hdisj _ Hs) in Em. discriminate.
  - intros [H1 H2]. pose proof (proj1 (final_plain (filtered q) (mentioned q e)) v []) as Hp. cbn [labels map] in Hp. rewrite Hp.
    + rewrite map_map. f_equal. apply filter_ext_in. intros [p u] Hn. cbn [fst]. rewrite (Hsel p u Hn).
      destruct (filtered q (labels p)) eqn:Ef; [|reflexivity]. destruct (H1 u) as [-> ->]; [|reflexivity].
      apply in_map_iff. exists (p, u). split; [reflexivity|]. apply filter_In. split; [exact Hn|]. cbn [fst]. rewrite Hall. exact Ef.
    + intros [p u] Hn. apply (H2 p u Hn).
Qed.

(** Every element is in the output; and only the mentioned fields matter. *)
Lemma final_all elem field :
  (forall v p n, In n (nodes p v) -> elem (labels (fst n)) = true -> In (text (snd n)) (final_val elem field (labels p) v)) /\
  (forall ms p n, In n (nodes_ms p ms) -> elem (labels (fst n)) = true -> In (text (snd n)) (final_ms elem field (labels p) ms)) /\
  (forall l p i n, In n (nodes_es p i l) -> elem (labels (fst n)) = true -> In (text (snd n)) (final_es elem field (labels p) i l)).
Proof.
  apply json_all_ind.
  - intros s p n [<-|[]] H. cbn [final_val fst snd] in *. rewrite H. left. reflexivity.
  - intros s p n [<-|[]] H. cbn [final_val fst snd] in *. rewrite H. left. reflexivity.
  - intros w ms IH p n Hn H. cbn [nodes final_val] in *. apply in_or_app. right. apply in_or_app. apply in_app_or in Hn. destruct Hn as [Hn|[<-|[]]].
    + left. apply IH; assumption.
    + right. cbn [fst snd] in *. rewrite H. left. reflexivity.
  - intros w l IH p n Hn H. cbn [nodes final_val] in *. apply in_or_app. right. apply in_or_app. apply in_app_or in Hn. destruct Hn as [Hn|[<-|[]]].
    + left. apply IH; assumption.
    + right. cbn [fst snd] in *. rewrite H. left. reflexivity.
  - intros p n [].
  - intros m k v IHv ms IHm p n Hn H. cbn [nodes_ms final_ms] in *. apply in_or_app. apply in_app_or in Hn. destruct Hn as [Hn|Hn].
    + left. rewrite <- (labels_snoc p (LKey k) v). apply IHv; assumption.
    + right. apply IHm; assumption.
  - intros p i n [].
  - intros wb v IHv wa l IHl p i n Hn H. cbn [nodes_es final_es] in *. apply in_or_app. apply in_app_or in Hn. destruct Hn as [Hn|Hn].
    + left. rewrite <- (labels_snoc p (LIdx i) v). apply IHv; assumption.
    + right. apply IHl; assumption.
Qed.
Lemma final_same_fields q e e' v : fields_in e = fields_in e' -> final_text q e v = final_text q e' v.
Proof. intros H. unfold final_text. replace (mentioned q e') with (mentioned q e); [reflexivity|]. unfold mentioned. rewrite H. reflexivity. Qed.

Theorem final_ignored N strict q e e' dc j p p' : let q' := q ++ [SFilter e] in let q2 := q ++ [SFilter e'] in
  forallb is_path_step q = true -> fields_in e = fields_in e' -> fields_ok q' = true -> (strict = true -> single_names q') -> names_fit q' = true ->
  good_doc dc -> limits q' (d_val dc) -> j_major_null j = true ->
  createPathProcessor strict q' = Ok p -> createPathProcessor strict q2 = Ok p' ->
  exists out, serialRun N j p (doc_text dc) = Ok (Some out) /\ serialRun N j p' (doc_text dc) = Ok (Some out).
Proof.
  intros q' q2 Hq Hf Hok Hs Hn Hd Hl Hj Hp Hp'.
  assert (Eqf : query_fields q2 = query_fields q').
  { unfold q2, q', query_fields. rewrite !flat_map_app. cbn [flat_map step_fields]. rewrite Hf. reflexivity. }
  assert (Eqn : query_names q2 = query_names q').
  { unfold q2, q', query_names. rewrite !flat_map_app. cbn [flat_map step_names]. rewrite Hf. reflexivity. }
  destruct (final_answer N strict q e j dc Hq Hok Hs Hn Hd Hl Hj) as (p0 & E0 & R0). unfold q' in Hp. rewrite E0 in Hp. injection Hp as <-.
  destruct (final_answer N strict q e' j dc Hq) as (p1 & E1 & R1).
  - fold q2. unfold fields_ok in *. rewrite Eqf. exact Hok.
  - fold q2. unfold single_names in *. rewrite Eqf. exact Hs.
  - fold q2. unfold names_fit in *. rewrite Eqn. replace (existsb is_wild q2) with (existsb is_wild q'); [exact Hn|].
    unfold q2, q'. rewrite !existsb_app. reflexivity.
  - exact Hd.
  - fold q2. destruct Hl as [L1 L2 L3]. constructor; [exact L1|exact L2|]. intros p1 u Hu Hor. apply (L3 p1 u Hu). destruct Hor as [H|H].
    + left. unfold q', q2 in *. rewrite <- filtered_lsel in *. exact H.
    + right. destruct H as (i & e0 & f & w & Hi & Hfi & Ew & Hw). unfold q2 in Hi.
      destruct (Nat.lt_ge_cases i (List.length q)) as [Hlt|Hge].
      * rewrite nth_error_app1 in Hi by exact Hlt. apply nth_error_In in Hi. rewrite forallb_forall in Hq. specialize (Hq _ Hi). discriminate.
      * assert (i = List.length q).
        { assert (i < List.length (q ++ [SFilter e']))%nat by (apply nth_error_Some; congruence). rewrite app_length in H. cbn in H. lia. }
        subst i. rewrite RegexProof.nth_pre in Hi. injection Hi as <-. exists (List.length q), e, f, w.
        split; [apply RegexProof.nth_pre|]. rewrite <- Hf in Hfi. split; [exact Hfi|]. split; [exact Ew|].
        unfold q', q2 in *. rewrite firstn_all2 in * by (rewrite app_length; cbn; lia). rewrite <- filtered_lsel in *. exact Hw.
  - exact Hj.
  - unfold q2 in Hp'. rewrite E1 in Hp'. injection Hp' as <-. exists (final_text q e (d_val dc)). split; [exact R0|].
    rewrite (final_same_fields q e e' _ Hf). exact R1.
Qed.

Theorem final_partial N strict q e dc j p out : let q' := q ++ [SFilter e] in
  forallb is_path_step q = true -> fields_ok q' = true -> (strict = true -> single_names q') -> names_fit q' = true ->
  good_doc dc -> limits q' (d_val dc) -> j_major_null j = true ->
  createPathProcessor strict q' = Ok p -> serialRun N j p (doc_text dc) = Ok (Some out) ->
  (forall u, In u (answer (holds N) (q ++ [SAll]) (d_val dc)) -> In (text u) out) /\
  (out = answer_text (holds N) q' (d_val dc) <->
   (forall u, In u (answer (holds N) (q ++ [SAll]) (d_val dc)) -> is_object u = true /\ holds N e u = true) /\
   (forall f u p x, In f (fields_in e) -> filtered q (labels p) = true ->
      ~ In (p ++ x, u) (nodes [] (d_val dc)) \/ labels x <> map LKey f)).
Proof.
  intros q' Hq Hok Hs Hn Hd Hl Hj Hp Hr.
  destruct (final_answer N strict q e j dc Hq Hok Hs Hn Hd Hl Hj) as (p0 & E0 & R0). unfold q' in Hp. rewrite E0 in Hp. injection Hp as <-.
  rewrite R0 in Hr. injection Hr as <-.
  assert (Hall : forall p, selects (holds N) (q ++ [SAll]) p = filtered q (labels p)).
  { intros p. apply SelFilter.sel_none. intros s Hs'. apply in_app_or in Hs'. destruct Hs' as [Hs'|[<-|[]]]; [|reflexivity].
    rewrite forallb_forall in Hq. specialize (Hq s Hs'). destruct s; try discriminate; reflexivity. }
  split.
  - intros u Hu. unfold answer in Hu. apply in_map_iff in Hu. destruct Hu as (n & <- & Hu). apply filter_In in Hu. destruct Hu as [Hin Hsel].
    rewrite Hall in Hsel. apply (proj1 (final_all (filtered q) (mentioned q e)) (d_val dc) [] n Hin Hsel).
  - assert (Hne : forall f, In f (fields_in e) -> f <> []).
    { intros f Hf ->. unfold fields_ok in Hok. rewrite forallb_forall in Hok. specialize (Hok []).
      assert (Hin : In [] (query_fields q')).
      { unfold query_fields, q'. apply in_flat_map. exists (SFilter e). split; [apply in_or_app; right; left; reflexivity|exact Hf]. }
      specialize (Hok Hin). discriminate. }
    pose proof (final_exact (holds N) q e (d_val dc) Hq Hne) as Hex. fold q' in Hex.
    assert (Hiff : (forall p u, In (p, u) (nodes [] (d_val dc)) -> mentioned q e (labels p) = false) <->
                   (forall f u p x, In f (fields_in e) -> filtered q (labels p) = true -> ~ In (p ++ x, u) (nodes [] (d_val dc)) \/ labels x <> map LKey f)).
    { split.
      - intros H f u p x Hf Hfil. destruct (list_eq_dec label_eq_dec (labels x) (map LKey f)) as [E|]; [left|right; assumption].
        intros Hin. specialize (H _ _ Hin).
        assert (C : mentioned q e (labels (p ++ x)) = true); [|congruence]. unfold mentioned.
        apply existsb_exists. exists f. split; [exact Hf|]. cbv zeta. unfold labels in *. rewrite map_app, E.
        rewrite app_length, map_length, (map_length LKey), Nat.add_sub. rewrite <- (map_length fst p).
        rewrite skipn_app, skipn_all, Nat.sub_diag, firstn_app, firstn_all, Nat.sub_diag. cbn [skipn firstn app].
        rewrite app_nil_r, Hfil. destruct (list_eq_dec _ _ _) as [_|C]; [reflexivity|contradiction].
      - intros H p u Hin. destruct (mentioned q e (labels p)) eqn:E; [|reflexivity]. exfalso. unfold mentioned in E. apply existsb_exists in E.
        destruct E as (f & Hf & E). cbv zeta in E. destruct (list_eq_dec _ _ _) as [E1|]; [|discriminate]. cbn [andb] in E.
        set (n := (List.length (labels p) - List.length f)%nat) in *. unfold labels in E1, E. rewrite skipn_map in E1. rewrite firstn_map in E.
        destruct (H f u (firstn n p) (skipn n p) Hf E) as [C|C]; [rewrite firstn_skipn in C; contradiction|]. apply C, E1. }
    rewrite Hiff in Hex. exact Hex.
Qed.
