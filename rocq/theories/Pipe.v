(** A query in two stages: the second part of the steps applied to each answer of the
    first part. *)
From Verif Require Import Base Util Spec QueryClass FilterSpec Claims PipeSpec Lexer Dfa Stream Num Builder Eval Filter Loader Run EndToEnd ClaimProof Compose Roles SelFilter PosProof.
Open Scope Z_scope.

(** * Values below a value *)
Definition within (u v : json) : Prop := (depth u <= depth v)%nat /\ (exists a b, text v = a ++ text u ++ b) /\
  (wf v = true -> wf u = true) /\ (lex_safe v = true -> lex_safe u = true) /\ zlen (nodes [] u) <= zlen (nodes [] v).
Lemma within_refl v : within v v.
Proof. split; [lia|]. split; [exists [], []; rewrite app_nil_r; reflexivity|]. repeat split; auto; lia. Qed.
Lemma within_trans u v x : within u v -> within v x -> within u x.
Proof.
  intros (H1 & (a & b & H2) & H3 & H4 & H5) (G1 & (a' & b' & G2) & G3 & G4 & G5). split; [lia|]. split; [|repeat split; auto; lia].
  exists (a' ++ a), (b ++ b'). rewrite G2, H2, <- !app_assoc. reflexivity.
Qed.
Lemma zlen_flat {A C} (g : A -> list C) l a : In a l -> zlen (g a) <= zlen (flat_map g l).
Proof. induction l as [|x l IH]; [contradiction|]. cbn [flat_map]. rewrite zlen_app. intros [->|H]; [pose proof (zlen_nonneg (flat_map g l)); lia|]. specialize (IH H). pose proof (zlen_nonneg (g x)). lia. Qed.
Lemma child_within v c : In c (children v) -> within (snd c) v.
Proof.
  intros H. assert (Hz : zlen (nodes [] (snd c)) <= zlen (nodes [] v)).
  { rewrite (nodes_children v), zlen_app. pose proof (zlen_flat (fun c0 : label * json => map (fun n => (c0 :: fst n, snd n)) (nodes [] (snd c0))) (children v) c H) as Hf.
    cbn beta in Hf. replace (zlen (map (fun n => (c :: fst n, snd n)) (nodes [] (snd c)))) with (zlen (nodes [] (snd c))) in Hf by (unfold zlen; rewrite map_length; reflexivity).
    eapply Z.le_trans; [exact Hf|]. apply Z.le_sub_le_add_l. rewrite Z.sub_diag. apply zlen_nonneg. }
  destruct v as [s|s|w ms|w es]; cbn [children] in H; try contradiction.
  - assert (G : (S (depth (snd c)) <= depth_ms ms)%nat /\ (exists a b, text_ms ms = a ++ text (snd c) ++ b) /\ (wf_ms ms = true -> wf (snd c) = true) /\ (lex_safe_ms ms = true -> lex_safe (snd c) = true)).
    { clear Hz. induction ms as [|m k v ms IH]; cbn [members_of] in H; [contradiction|]. cbn [depth_ms text_ms wf_ms lex_safe_ms]. destruct H as [<-|H].
      - cbn [snd]. split; [lia|]. split; [|rewrite !andb_true_iff; tauto]. eexists (w_before m ++ (DQ :: k ++ [DQ]) ++ w_colon m ++ B ":" ++ w_value m), _. rewrite <- !app_assoc. reflexivity.
      - destruct (IH H) as (H1 & (a & b & H2) & H3 & H4). split; [lia|]. split; [|rewrite !andb_true_iff; tauto].
        destruct ms as [|m2 k2 v2 ms]; [contradiction|]. rewrite H2. eexists (w_before m ++ (DQ :: k ++ [DQ]) ++ w_colon m ++ B ":" ++ w_value m ++ text v ++ w_after m ++ B "," ++ a), b. rewrite <- !app_assoc. reflexivity. }
    destruct G as (G1 & (a & b & G2) & G3 & G4). split; [cbn [depth]; lia|]. split; [|split; [|split; [exact G4|exact Hz]]].
    + exists (B "{" ++ w ++ a), (b ++ B "}"). cbn [text]. rewrite G2, <- !app_assoc. reflexivity.
    + cbn [wf]. rewrite andb_true_iff. tauto.
  - assert (G : forall i, In c (elements_of i es) -> (depth (snd c) <= depth_es es)%nat /\ (exists a b, text_es es = a ++ text (snd c) ++ b) /\ (wf_es es = true -> wf (snd c) = true) /\ (lex_safe_es es = true -> lex_safe (snd c) = true)).
    { clear Hz H. induction es as [|wb v wa es IH]; intros i H; cbn [elements_of] in H; [contradiction|]. cbn [depth_es text_es wf_es lex_safe_es]. destruct H as [<-|H].
      - cbn [snd]. split; [lia|]. split; [|rewrite !andb_true_iff; tauto]. eexists wb, _. reflexivity.
      - destruct (IH _ H) as (H1 & (a & b & H2) & H3 & H4). split; [lia|]. split; [|rewrite !andb_true_iff; tauto].
        destruct es as [|wb2 v2 wa2 es]; [contradiction|]. rewrite H2. eexists (wb ++ text v ++ wa ++ B "," ++ a), b. rewrite <- !app_assoc. reflexivity. }
    destruct (G _ H) as (G1 & (a & b & G2) & G3 & G4). split; [cbn [depth]; lia|]. split; [|split; [|split; [exact G4|exact Hz]]].
    + exists (B "[" ++ w ++ a), (b ++ B "]"). cbn [text]. rewrite G2, <- !app_assoc. reflexivity.
    + cbn [wf]. rewrite andb_true_iff. tauto.
Qed.
Lemma node_cases p u v : In (p, u) (nodes [] v) -> (p = [] /\ u = v) \/ exists c p', p = c :: p' /\ In c (children v) /\ In (p', u) (nodes [] (snd c)).
Proof.
  rewrite nodes_children. intros H. apply in_app_or in H. destruct H as [H|[E|[]]]; [|injection E as <- <-; auto].
  right. apply in_flat_map in H. destruct H as (c & Hc & H). apply in_map_iff in H. destruct H as ([p' u'] & E & H). injection E as <- <-. cbn [fst snd]. eauto.
Qed.
Lemma node_below : forall p u v, In (p, u) (nodes [] v) -> within u v /\ forall p' x, In (p', x) (nodes [] u) -> In (p ++ p', x) (nodes [] v).
Proof.
  induction p as [|c0 p IH]; intros u v H; destruct (node_cases _ _ _ H) as [[E ->]|(c & p' & E & Hc & H1)]; try discriminate E.
  - split; [apply within_refl|auto].
  - injection E as <- <-. destruct (IH _ _ H1) as [G1 G2]. split; [eapply within_trans; [exact G1|apply child_within, Hc]|].
    intros p' x Hx. rewrite nodes_children. apply in_or_app. left. apply in_flat_map. exists c0. split; [exact Hc|]. apply in_map_iff. exists (p ++ p', x). split; [reflexivity|]. apply G2, Hx.
Qed.

(** * Steps that go down one level *)
Lemma down_nodesc q : forallb down q = true -> forallb nodesc q = true.
Proof. induction q as [|s q IH]; [reflexivity|]. cbn [forallb]. rewrite !andb_true_iff. intros [H1 H2]. split; [destruct s; try discriminate; reflexivity|auto]. Qed.
Lemma lsel_length : forall q w, forallb down q = true -> lsel q w = true -> List.length w = List.length q.
Proof.
  induction q as [|s q IH]; intros [|l w] H1 H2; try discriminate; [reflexivity|]. cbn [forallb] in H1. apply andb_true_iff in H1. destruct H1 as [Hs H1].
  cbn [List.length]. f_equal. apply IH; [exact H1|]. destruct s; try discriminate; cbn [lsel] in H2; try (apply andb_true_iff in H2; destruct H2 as [_ H2]); exact H2.
Qed.
Lemma lsel_join q1 q2 w1 w2 : forallb down q1 = true -> lsel q1 w1 = true -> lsel q2 w2 = true -> lsel (q1 ++ q2) (w1 ++ w2) = true.
Proof.
  intros Hd H1 H2. pose proof (lsel_length _ _ Hd H1) as Hl. rewrite (lsel_app q1 q2 _ (down_nodesc _ Hd)), <- Hl, firstn_app, firstn_all, skipn_app, skipn_all, Nat.sub_diag.
  cbn [firstn skipn app]. rewrite app_nil_r, H1, H2. reflexivity.
Qed.
Lemma selects_down holds : forall q p, forallb down q = true -> selects holds q p = true -> lsel q (labels p) = true.
Proof.
  induction q as [|s q IH]; intros [|[l v] p] H1 H2; try discriminate; [reflexivity|]. cbn [forallb] in H1. apply andb_true_iff in H1. destruct H1 as [Hs H1].
  cbn [labels map fst]. fold (labels p). destruct s; try discriminate; cbn [selects lsel] in *; try (apply andb_true_iff in H2; destruct H2 as [H3 H2]); rewrite (IH p H1 H2), ?andb_true_r; try exact H3; try reflexivity.
  destruct l; [discriminate|reflexivity].
Qed.

(** What is assumed for the whole query holds for its second part on every value that
    the first part reaches. *)
Section Rest.
  Variables (q1 q2 : query) (v u : json) (p : path).
  Hypothesis Hd : forallb down q1 = true.
  Hypothesis Hin : In (p, u) (nodes [] v).
  Hypothesis Hsel : lsel q1 (labels p) = true.
  Lemma labels_cat (a b : path) : labels (a ++ b) = labels a ++ labels b.
  Proof. apply map_app. Qed.
  Lemma rest_limits : limits (q1 ++ q2) v -> limits q2 u.
  Proof.
    intros [H1 H2 H3]. destruct (node_below _ _ _ Hin) as [(W1 & _ & _ & _ & W5) Hb]. split; [lia|lia|].
    intros p' x Hx Ht. apply (H3 (p ++ p') x (Hb _ _ Hx)). rewrite labels_cat. destruct Ht as [Ht|(j & e & f & w & E1 & E2 & E3 & E4)].
    - left. apply lsel_join; assumption.
    - right. exists (List.length q1 + j)%nat, e, f, (labels p ++ w). split; [rewrite nth_error_app2 by lia; replace (List.length q1 + j - List.length q1)%nat with j by lia; exact E1|].
      split; [exact E2|]. split; [rewrite E3, app_assoc; reflexivity|].
      replace (S (List.length q1 + j)) with (List.length q1 + S j)%nat by lia. rewrite firstn_app_2. apply lsel_join; assumption.
  Qed.
  Lemma rest_meaningful N : filters_meaningful N (q1 ++ q2) v -> filters_meaningful N q2 u.
  Proof.
    intros H j e p' x E Hx Hl Ho. destruct (node_below _ _ _ Hin) as [_ Hb]. refine (H (List.length q1 + j)%nat e (p ++ p') x _ (Hb _ _ Hx) _ Ho).
    - rewrite nth_error_app2 by lia. replace (List.length q1 + j - List.length q1)%nat with j by lia. exact E.
    - replace (S (List.length q1 + j)) with (List.length q1 + S j)%nat by lia. rewrite firstn_app_2, labels_cat. apply lsel_join; assumption.
  Qed.
End Rest.
Lemma first_meaningful N q1 q2 v : filters_meaningful N (q1 ++ q2) v -> filters_meaningful N q1 v.
Proof.
  intros H j e p x E. assert (Hj : (j < List.length q1)%nat) by (apply nth_error_Some; rewrite E; discriminate). intros Hx Hl Ho.
  refine (H j e p x _ Hx _ Ho); [rewrite nth_error_app1 by lia; exact E|]. rewrite firstn_app. replace (S j - List.length q1)%nat with 0%nat by lia. cbn [firstn]. rewrite app_nil_r. exact Hl.
Qed.

(** * Two stages *)
Lemma opens_container v : wf v = true -> opens (text v) = is_container v.
Proof.
  destruct v as [s|s|w ms|w es]; try reflexivity. cbn [wf text is_container]. destruct s as [|c s]; [discriminate|]. cbn [bare_word forallb opens]. intros H. apply andb_true_iff in H. destruct H as [H _].
  destruct (Ascii.eqb_spec c "{"%char) as [->|_]; [discriminate H|]. destruct (Ascii.eqb_spec c "["%char) as [->|_]; [discriminate H|]. reflexivity.
Qed.
Lemma answer_prim holds q v : is_container v = false -> q <> [] -> answer holds q v = [].
Proof. intros H Hq. unfold answer. destruct v as [s|s|w ms|w es]; try discriminate; cbn [nodes filter fst]; destruct q; try congruence; reflexivity. Qed.
Lemma ends_well_ne q : supported q = true -> q <> [].
Proof. intros H ->. discriminate H. Qed.

Theorem two_stages N strict q1 q2 dc j : forallb one_level q1 = true -> supported q1 = true -> supported q2 = true -> supported (q1 ++ q2) = true ->
  (strict = true -> single_names (q1 ++ q2)) -> predicates_fit strict q1 -> predicates_fit strict q2 -> predicates_fit strict (q1 ++ q2) ->
  good_doc dc -> limits q1 (d_val dc) -> limits (q1 ++ q2) (d_val dc) -> filters_meaningful N (q1 ++ q2) (d_val dc) -> j_major_null j = true ->
  exists p1 p2 p ts outs, createPathProcessor strict q1 = Ok p1 /\ createPathProcessor strict q2 = Ok p2 /\ createPathProcessor strict (q1 ++ q2) = Ok p /\
    serialRun N j p1 (doc_text dc) = Ok (Some ts) /\ serialRun N j p (doc_text dc) = Ok (Some (List.concat outs)) /\
    Forall2 (fun t out => if opens t then serialRun N j p2 t = Ok (Some out) else out = []) ts outs.
Proof.
  intros Hd0 S1 S2 S Hsn F1 F2 F Hg L1 L Hm Hj. pose proof (Hd0 : forallb down q1 = true) as Hd.
  assert (Hsn1 : strict = true -> single_names q1). { intros E f Hf. apply (Hsn E). unfold query_fields. rewrite flat_map_app. apply in_or_app. left. exact Hf. }
  assert (Hsn2 : strict = true -> single_names q2). { intros E f Hf. apply (Hsn E). unfold query_fields. rewrite flat_map_app. apply in_or_app. right. exact Hf. }
  destruct (serial_answer N strict q1 j dc S1 Hsn1 F1 Hg L1 (first_meaningful _ _ _ _ Hm) Hj) as (p1 & E1 & R1).
  destruct (serial_answer N strict (q1 ++ q2) j dc S Hsn F Hg L Hm Hj) as (p & E & R).
  destruct (create_ok strict q2 S2 Hsn2) as (d2 & x2 & st2 & E2 & _). exists p1, (mkProc d2 x2), p, (answer_text (holds N) q1 (d_val dc)), (map (answer_text (holds N) q2) (answer (holds N) q1 (d_val dc))).
  split; [exact E1|]. split; [exact E2|]. split; [exact E|]. split; [exact R1|]. split.
  { rewrite R. unfold answer_text. rewrite (answer_app (holds N) q1 q2 _ Hd), map_flat_map. rewrite <- flat_map_concat_map. reflexivity. }
  unfold answer_text at 1. assert (Hall : forall u, In u (answer (holds N) q1 (d_val dc)) -> if opens (text u) then serialRun N j (mkProc d2 x2) (text u) = Ok (Some (answer_text (holds N) q2 u)) else answer_text (holds N) q2 u = []).
  { intros u Hu. unfold answer in Hu. apply in_map_iff in Hu. destruct Hu as ([p0 u'] & <- & Hu). apply filter_In in Hu. destruct Hu as [Hu Hs]. cbn [fst snd] in *.
    pose proof (selects_down _ _ _ Hd Hs) as Hl. destruct (node_below _ _ _ Hu) as [(W1 & (a & b & W2) & W3 & W4 & W5) _]. destruct Hg as [Hwf Hsf _ Hsz].
    rewrite opens_container by (apply W3, wf_doc_val, Hwf). destruct (is_container u') eqn:Hc; [|unfold answer_text; rewrite answer_prim by (auto; apply ends_well_ne, S2); reflexivity].
    destruct (serial_answer N strict q2 j (mkDoc [] u' []) S2 Hsn2 F2) as (p2 & E2' & R2); auto.
    - split; [unfold wf_doc; cbn [d_pre d_val d_post]; rewrite (W3 (wf_doc_val _ Hwf)), Hc; reflexivity|apply W4, Hsf|reflexivity|].
      unfold doc_text in *. cbn [d_pre d_val d_post app]. rewrite app_nil_r. rewrite W2, !zlen_app in Hsz. pose proof (zlen_nonneg (d_pre dc)) as Z1. pose proof (zlen_nonneg (d_post dc)) as Z2. pose proof (zlen_nonneg a) as Z3. pose proof (zlen_nonneg b) as Z4. clear -Hsz Z1 Z2 Z3 Z4. lia.
    - exact (rest_limits q1 q2 _ _ _ Hd Hu Hl L).
    - exact (rest_meaningful q1 q2 _ _ _ Hd Hu Hl N Hm).
    - rewrite E2 in E2'. injection E2' as <-. unfold doc_text in R2. cbn [d_pre d_val d_post app] in R2. rewrite app_nil_r in R2. exact R2. }
  revert Hall. induction (answer (holds N) q1 (d_val dc)) as [|u l IH]; intros Hall; constructor; [apply Hall; left; reflexivity|]. apply IH. intros u' Hu'. apply Hall. right. exact Hu'.
Qed.
