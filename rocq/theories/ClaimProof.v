(** The theorems behind the property files for serial runs. *)
From Coq Require Import Sorting.Sorted.
From Verif Require Import Base Util Spec Lexer LexProof QueryClass Compress Dfa Stream TreeSem Num FilterSpec Builder Eval Filter
                          AutoProof BuilderProof Roles Compiled TreeSel SelProof FilterProof SelFilter EvalProof Loader Run
                          EndToEnd PosSpec PosProof Claims AnyQuery.
Open Scope Z_scope.

Lemma slice_supported q : slice_query q = true -> restricted_before_desc false q = true -> forallb slice_ok q = true ->
  names_fit q = true -> supported q = true.
Proof.
  intros Hp Hr Hs Hn. unfold slice_query in Hp. apply andb_true_iff in Hp. destruct Hp as [Hne Hp].
  assert (Hf : query_fields q = []).
  { clear - Hp. unfold query_fields. induction q as [|s q IH]; [reflexivity|]. cbn in *. apply andb_true_iff in Hp. destruct Hp as [Hs Hp].
    rewrite (IH Hp), app_nil_r. destruct s; try discriminate; reflexivity. }
  assert (Hfl : filter is_filter q = []).
  { clear - Hp. induction q as [|s q IH]; [reflexivity|]. cbn in *. apply andb_true_iff in Hp. destruct Hp as [Hs Hp].
    destruct s; try discriminate; apply IH, Hp. }
  assert (He : end_ok q = true).
  { unfold end_ok. rewrite (no_fields_untested q Hf), andb_true_r. unfold ends_well. destruct (last_step q) as [s|] eqn:E.
    - destruct (last_step_some _ _ E) as (q' & Eq).
      assert (Hin : In s q) by (rewrite Eq; apply in_or_app; right; left; reflexivity).
      rewrite forallb_forall in Hp. specialize (Hp s Hin). destruct s; try discriminate; reflexivity.
    - exfalso. clear - Hne E. destruct q as [|s q]; [discriminate|]. clear Hne. revert s E.
      induction q as [|s' q IH]; intros s E; [discriminate|]. apply (IH s'). exact E. }
  unfold supported, filters_ok, fields_ok. rewrite Hr, Hs, He, Hfl, Hf. cbn. exact Hn.
Qed.

Lemma no_filter_fields q : slice_query q = true -> query_fields q = [] /\ forall s, In s q -> is_filter s = false.
Proof.
  intros Hp. unfold slice_query in Hp. apply andb_true_iff in Hp. destruct Hp as [_ Hp]. split.
  - unfold query_fields. induction q as [|s q IH]; [reflexivity|]. cbn in *. apply andb_true_iff in Hp. destruct Hp as [Hs Hp].
    rewrite (IH Hp), app_nil_r. destruct s; try discriminate; reflexivity.
  - intros s Hin. rewrite forallb_forall in Hp. specialize (Hp s Hin). destruct s; try discriminate; reflexivity.
Qed.
Lemma path_slice q : path_query q = true -> slice_query q = true.
Proof.
  unfold path_query, slice_query. rewrite !andb_true_iff. intros [H1 H2]. split; [exact H1|].
  rewrite forallb_forall in *. intros s Hs. unfold is_slice_or_path. rewrite (H2 s Hs). reflexivity.
Qed.

Lemma lead_zero dc : no_leading_blank dc = true -> lead_blanks (d_pre dc) = O.
Proof. unfold no_leading_blank. destruct (d_pre dc) as [|c w]; [reflexivity|]. cbn. destruct (Ascii.eqb c " "); [discriminate|reflexivity]. Qed.

Lemma path_supported q : path_query q = true -> names_fit q = true -> supported q = true.
Proof.
  intros Hp Hn. assert (Hp' := Hp). unfold path_query in Hp'. apply andb_true_iff in Hp'. destruct Hp' as [_ Hp'].
  apply slice_supported; auto using path_slice.
  - clear - Hp'. revert Hp'. generalize false as b. induction q as [|s q IH]; intros b Hp; [reflexivity|]. cbn in *.
    apply andb_true_iff in Hp. destruct Hp as [Hs Hp]. destruct s; try discriminate; apply IH, Hp.
  - apply forallb_forall. intros s Hin. rewrite forallb_forall in Hp'. specialize (Hp' s Hin). destruct s; try discriminate; reflexivity.
Qed.

(** Without filters there is nothing to fit. *)
Lemma nofilter_fit strict q : supported q = true -> slice_query q = true -> predicates_fit strict q.
Proof.
  intros Hsup Hq d x Hb. destruct (no_filter_fields q Hq) as [Hf Hnf].
  destruct (create_ok strict q Hsup) as (d' & x' & st & _ & Hb' & Hcp).
  { intros _ f Hin. rewrite Hf in Hin. destruct Hin. }
  rewrite Hb in Hb'. injection Hb' as <- <-. apply Forall_forall. intros s Hs. exfalso.
  apply (cp_preds _ _ _ _ Hcp) in Hs. destruct Hs as (w & j & _ & Hc).
  destruct (supported_parts q Hsup) as (H1 & H2 & H3 & _ & H5 & _).
  apply (rp_role q H1 H2 H3 (Hne q H5)) in Hc. destruct Hc as (e & He & _). apply nth_error_In, Hnf in He. discriminate.
Qed.
Lemma nofilter_meaningful N q v : (forall s, In s q -> is_filter s = false) -> filters_meaningful N q v.
Proof. intros H j e p u Hj. apply nth_error_In, H in Hj. discriminate. Qed.

(** The general statement. *)
Theorem serial_answer N strict q j dc : supported q = true -> (strict = true -> single_names q) ->
  predicates_fit strict q -> good_doc dc -> limits q (d_val dc) -> filters_meaningful N q (d_val dc) -> j_major_null j = true ->
  exists p, createPathProcessor strict q = Ok p /\
    serialRun N j p (doc_text dc) = Ok (Some (answer_text (holds N) q (d_val dc))).
Proof.
  intros Hsup Hstrict Hfit [Hwf Hsafe Hbl Hsize] Hlim Hmean Hj.
  destruct (create_ok strict q Hsup) as (d & x & st & Hc & Hb & Hcp).
  { intros E. exact (Hstrict E). }
  exists (mkProc d x). split; [exact Hc|]. eapply run_supported; eauto using lead_zero.
Qed.

Theorem slice_answer N strict q j dc : slice_query q = true -> restricted_before_desc false q = true -> forallb slice_ok q = true ->
  names_fit q = true -> good_doc dc -> limits q (d_val dc) -> j_major_null j = true ->
  exists p, createPathProcessor strict q = Ok p /\
    serialRun N j p (doc_text dc) = Ok (Some (answer_text (fun _ _ => false) q (d_val dc))).
Proof.
  intros Hq Hr Hs Hn Hd Hl Hj. pose proof (slice_supported q Hq Hr Hs Hn) as Hsup.
  destruct (no_filter_fields q Hq) as [Hf Hnf].
  destruct (serial_answer N strict q j dc) as (p & Hp & Hrun); auto.
  - intros _ f Hin. rewrite Hf in Hin. destruct Hin.
  - apply nofilter_fit; assumption.
  - apply nofilter_meaningful, Hnf.
  - exists p. split; [exact Hp|]. rewrite Hrun. do 2 f_equal. unfold answer_text, answer. do 2 f_equal.
    apply filter_ext. intros [w u]. cbn [fst]. rewrite !sel_none by exact Hnf. reflexivity.
Qed.

Theorem path_answer N strict q j dc : path_query q = true ->
  names_fit q = true -> good_doc dc -> limits q (d_val dc) -> j_major_null j = true ->
  exists p, createPathProcessor strict q = Ok p /\
    serialRun N j p (doc_text dc) = Ok (Some (answer_text (fun _ _ => false) q (d_val dc))).
Proof.
  intros Hq Hn Hd Hl Hj. pose proof (path_supported q Hq Hn) as Hsup.
  destruct (supported_parts q Hsup) as (H1 & H2 & _). apply slice_answer; auto. apply path_slice, Hq.
Qed.

Theorem serial_order N strict q j dc : supported q = true -> (strict = true -> single_names q) ->
  predicates_fit strict q -> good_doc dc -> limits q (d_val dc) -> filters_meaningful N q (d_val dc) -> j_major_null j = true ->
  exists p l, createPathProcessor strict q = Ok p /\
    serialRun N j p (doc_text dc) = Ok (Some (map (fun s => text (snd s)) l)) /\ in_completion_order dc l.
Proof.
  intros Hsup Hstrict Hfit Hd Hlim Hmean Hj.
  destruct (serial_answer N strict q j dc) as (p & Hp & Hrun); auto.
  destruct (answer_spans (holds N) q dc) as (l & Hl & Hsub). exists p, l. split; [exact Hp|]. rewrite Hl. split; [exact Hrun|].
  split.
  - apply Forall_forall. intros s Hs. pose proof (subseq_in _ _ Hsub s Hs) as Hin. split; [exact Hin|].
    pose proof (proj1 spans_written (d_val dc) (doc_text dc) (d_pre dc) (d_post dc) eq_refl) as Hw.
    rewrite Forall_forall in Hw. apply Hw, Hin.
  - eapply subseq_sorted; [exact Hsub|]. apply (proj1 spans_sorted). apply wf_doc_val, (gd_wf _ Hd).
Qed.

(** Two layouts of one document. *)
Lemma forall2_map {A C} (R : C -> C -> Prop) (f : A -> C) : forall l1 l2, Forall2 (fun a b => R (f a) (f b)) l1 l2 -> Forall2 R (map f l1) (map f l2).
Proof. induction 1; constructor; auto. Qed.

Lemma map_eq_forall2 {A C} (g : A -> C) : forall l1 l2 : list A, map g l1 = map g l2 -> Forall2 (fun a b => g a = g b) l1 l2.
Proof. induction l1 as [|a l1 IH]; intros [|b l2] H; try discriminate; constructor; injection H as H1 H2; auto. Qed.

Theorem serial_layout N strict q j dc1 dc2 : supported q = true -> (strict = true -> single_names q) ->
  predicates_fit strict q -> good_doc dc1 -> good_doc dc2 -> limits q (d_val dc1) -> limits q (d_val dc2) ->
  filters_meaningful N q (d_val dc1) -> filters_meaningful N q (d_val dc2) -> j_major_null j = true ->
  same_up_to_layout (d_val dc1) (d_val dc2) ->
  exists p l1 l2, createPathProcessor strict q = Ok p /\
    serialRun N j p (doc_text dc1) = Ok (Some (map text l1)) /\
    serialRun N j p (doc_text dc2) = Ok (Some (map text l2)) /\
    Forall2 (fun v1 v2 => same_up_to_layout v1 v2 /\ (is_container v1 = false -> text v1 = text v2)) l1 l2.
Proof.
  intros Hsup Hstrict Hfit Hd1 Hd2 Hl1 Hl2 Hm1 Hm2 Hj Hsame.
  destruct (serial_answer N strict q j dc1) as (p & Hp & Hrun1); auto.
  destruct (serial_answer N strict q j dc2) as (p2 & Hp2 & Hrun2); auto.
  rewrite Hp in Hp2. injection Hp2 as <-.
  exists p, (answer (holds N) q (d_val dc1)), (answer (holds N) q (d_val dc2)).
  split; [exact Hp|]. split; [exact Hrun1|]. split; [exact Hrun2|].
  assert (E : map strip (answer (holds N) q (d_val dc1)) = map strip (answer (holds N) q (d_val dc2))).
  { rewrite <- !answer_strip. unfold same_up_to_layout in Hsame. rewrite Hsame. reflexivity. }
  apply map_eq_forall2 in E. induction E as [|v1 v2 r1 r2 H _ IH]; constructor; [|exact IH]. split; [exact H|].
  intros Hc. rewrite (strip_prim _ _ H Hc). reflexivity.
Qed.
