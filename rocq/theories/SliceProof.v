(** Small consequences used by the property files. *)
From Verif Require Import Base Util Spec QueryClass PosSpec Claims Lexer Dfa Constraint Stream TreeSem Num FilterSpec Builder Eval Filter Loader Run EndToEnd
  AnyQuery ClaimProof AnyRun.
Open Scope Z_scope.

(** * Index steps are ignored by the compiler *)
Lemma index_ignored strict q1 n q2 : build strict (q1 ++ SIndex n :: q2) = build strict (q1 ++ q2).
Proof.
  unfold build, construct_dfa. rewrite !foldM_app. destruct (foldM (construct_step strict) q1 init_bctx) as [b|u]; [|reflexivity].
  cbn [bind foldM construct_step]. reflexivity.
Qed.

(** * Empty slices *)
Lemma slice_empty holds lo hi q2 : lo >= hi -> forall q1 p, selects holds (q1 ++ SSlice (Some lo) (Some hi) :: q2) p = false.
Proof.
  intros Hlh q1 p. revert q1. induction p as [|[l v] p IH]; intros q1; [destruct q1; reflexivity|].
  destruct q1 as [|s q1]; cbn [app selects].
  - destruct l as [k|i]; [reflexivity|]. unfold in_slice. destruct (Z.leb_spec lo (Z.of_nat i)); cbn [andb]; [|reflexivity].
    destruct (Z.ltb_spec (Z.of_nat i) hi); [lia|reflexivity].
  - destruct s; rewrite ?IH, ?andb_false_r; try reflexivity.
    + apply (IH (SDesc k :: q1)).
    + apply (IH (SDescAny :: q1)).
Qed.

Theorem empty_slice N strict q1 lo hi q2 dc j :
  let q := q1 ++ SSlice (Some lo) (Some hi) :: q2 in
  lo >= hi -> slice_query q = true -> restricted_before_desc false q = true -> forallb slice_ok q = true ->
  names_fit q = true -> good_doc dc -> limits q (d_val dc) -> j_major_null j = true ->
  exists p, createPathProcessor strict q = Ok p /\ serialRun N j p (doc_text dc) = Ok (Some []).
Proof.
  intros q Hlh H1 H2 H3 H4 H5 H6 H7. destruct (slice_answer N strict q j dc H1 H2 H3 H4 H5 H6 H7) as (p & Hp & Hr).
  exists p. split; [exact Hp|]. rewrite Hr. do 2 f_equal. unfold answer_text, answer.
  rewrite (filter_ext _ (fun _ => false)).
  - induction (nodes [] (d_val dc)); [reflexivity|assumption].
  - intros n. apply slice_empty, Hlh.
Qed.

(** * Compilation *)
Theorem compiles strict q : existsb real_step q = true -> (strict = true -> single_names q) ->
  zlen (query_names q) <= name_bound ->
  exists p, createPathProcessor strict q = Ok p /\ dfa_ok (p_dfa p) /\ zlen (x_subtrees (p_ctx p)) = nstates (p_dfa p).
Proof.
  intros H1 H2 H3. destruct (build_total strict q H1 H2 H3) as (d & x & E & Hb). exists (mkProc d x). unfold createPathProcessor. rewrite E.
  split; [reflexivity|]. split; [apply (bt_dfa _ _ Hb)|apply (bt_trees _ _ Hb)].
Qed.
