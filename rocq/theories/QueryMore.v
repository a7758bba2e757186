(** Consequences of the theorem on supported queries: index steps, filters that are
    followed by a field, and what serialRun releases. *)
From Verif Require Import Base Util Spec QueryClass PosSpec Claims Lexer Dfa Stream TreeSem Num FilterSpec Builder Eval Filter Loader Run EndToEnd
  AnyQuery ClaimProof SliceProof SliceSpec Compose.
Open Scope Z_scope.

(** An index step has no effect on a run. *)
Theorem index_answer N strict q1 n q2 j dc : supported (q1 ++ q2) = true -> (strict = true -> single_names (q1 ++ q2)) ->
  predicates_fit strict (q1 ++ q2) -> good_doc dc -> limits (q1 ++ q2) (d_val dc) -> filters_meaningful N (q1 ++ q2) (d_val dc) ->
  j_major_null j = true ->
  exists p, createPathProcessor strict (q1 ++ SIndex n :: q2) = Ok p /\
    serialRun N j p (doc_text dc) = Ok (Some (answer_text (holds N) (q1 ++ q2) (d_val dc))).
Proof.
  intros H1 H2 H3 H4 H5 H6 H7. destruct (serial_answer N strict (q1 ++ q2) j dc H1 H2 H3 H4 H5 H6 H7) as (p & Hp & Hr).
  exists p. split; [|exact Hr]. unfold createPathProcessor in *. rewrite index_ignored. exact Hp.
Qed.

(** A filter followed by other steps. *)
Lemma supported_down q s q2 : supported (q ++ s :: q2) = true -> (match s with SFilter _ | SSlice _ _ => True | _ => False end) ->
  forallb down q = true.
Proof.
  intros H Hs. destruct (supported_parts _ H) as (Hr & _). revert Hr. generalize false.
  assert (G : forall q, restricted_before_desc true (q ++ s :: q2) = false).
  { clear - Hs. induction q as [|x q IH]; cbn [app restricted_before_desc]; [destruct s; try contradiction; reflexivity|].
    destruct x; rewrite ?IH; rewrite ?andb_false_r; reflexivity. }
  clear - Hs G. induction q as [|x q IH]; intros b Hr; [reflexivity|]. cbn [app restricted_before_desc forallb] in *.
  destruct x; cbn [down andb]; try discriminate; try (apply (IH b); exact Hr); try (rewrite G in Hr; discriminate);
    apply andb_true_iff in Hr; apply (IH b), Hr.
Qed.

Theorem steps_of_filtered N strict q e q2 j dc :
  let q' := q ++ SFilter e :: q2 in
  supported q' = true -> (strict = true -> single_names q') -> predicates_fit strict q' -> good_doc dc -> limits q' (d_val dc) ->
  filters_meaningful N q' (d_val dc) -> j_major_null j = true ->
  exists p, createPathProcessor strict q' = Ok p /\
    serialRun N j p (doc_text dc) =
    Ok (Some (map text (flat_map (fun u => if is_object u && holds N e u then answer (holds N) q2 u else [])
                          (flat_map elements_in (answer (holds N) q (d_val dc)))))).
Proof.
  intros q' H1 H2 H3 H4 H5 H6 H7. destruct (serial_answer N strict q' j dc H1 H2 H3 H4 H5 H6 H7) as (p & Hp & Hr).
  exists p. split; [exact Hp|]. rewrite Hr. unfold answer_text. subst q'. rewrite filter_then; [reflexivity|].
  exact (supported_down q (SFilter e) q2 H1 I).
Qed.

(** The loop of serialRun depends on the unset memory only through the flag that
    destroyStreamingAutomaton reads. *)
Lemma loop_junk N f b b' p M X file : forall fuel start out ci,
  serial_loop N (mkJunk f b) p M X file fuel start out ci = serial_loop N (mkJunk f b') p M X file fuel start out ci.
Proof.
  reflexivity.
Qed.
(** A run that ends well when the pointer happens to be NULL follows a pointer that
    was never set otherwise. *)
Theorem release_junk N f p file out : serialRun N (mkJunk f true) p file = Ok out -> serialRun N (mkJunk f false) p file = UB UninitRead.
Proof.
  unfold serialRun, serial_run. rewrite (loop_junk N f true false).
  destruct (serial_loop N (mkJunk f false) p MEMORY_FOOTPRINT MAX_EXTENSION file (S (List.length file)) 0 None init_context) as [[o ci]|]; cbn [bind]; [|discriminate].
  intros _. reflexivity.
Qed.
Theorem release N strict q p j dc : supported q = true -> (strict = true -> single_names q) ->
  predicates_fit strict q -> good_doc dc -> limits q (d_val dc) -> filters_meaningful N q (d_val dc) ->
  createPathProcessor strict q = Ok p ->
  serialRun N j p (doc_text dc) <> UB UninitRead <-> j_major_null j = true.
Proof.
  intros H1 H2 H3 H4 H5 H6 Hp. destruct j as [f b]. cbn [j_major_null].
  destruct (serial_answer N strict q (mkJunk f true) dc H1 H2 H3 H4 H5 H6 eq_refl) as (p' & Hp' & Hr).
  rewrite Hp in Hp'. injection Hp' as <-. destruct b; split; intros H; try reflexivity; try discriminate.
  - rewrite Hr. discriminate.
  - destruct H. exact (release_junk N f p (doc_text dc) _ Hr).
Qed.
