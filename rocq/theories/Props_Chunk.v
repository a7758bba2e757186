(** Properties of a thread of a parallel run: C36. *)
From Verif Require Import Base Util Spec QueryClass PosSpec Claims Lexer Dfa Constraint Stream TreeSem Num FilterSpec Builder Eval Filter Loader Run Worker Merge
  MalSpec NestSpec AnyQuery SingleRun ReportSpec Report Findings Samples Props_Par.
Open Scope Z_scope.

(** * C36: the reports for the start states
    [bs]: what is open where the chunk starts (a chunk never starts between a key
    and its value). *)
Definition C36_full : Prop := forall strict q p text bs evs junk ju, createPathProcessor strict q = Ok p ->
  lex_all text = Ok evs -> openable bs -> hd_error bs <> Some OKey -> nested_in 98 bs (map e_tok evs) ->
  exists w ps, executeWorkerAutomaton (p_dfa p) Speculate None junk ju text [] = Ok w /\ parts_of ps evs /\
    faithful (fun _ _ => True) (p_dfa p) (c_string text) w bs ps (wa_units w).

(** The second of three chunks of ["p","q","r","s","t","u"] is ["q","r","s",]; for
    the state in which strings are output the thread reports "r" instead of "q". *)
Theorem C36_refuted : exists q p text rest evs bs w, createPathProcessor true q = Ok p /\ partitionInputStream (doc_text letters) 3 = Ok (rest ++ [Some text; Some (B """t"",""u""]}")]) /\
  lex_all text = Ok evs /\ openable bs /\ hd_error bs <> Some OKey /\ nested_in 98 bs (map e_tok evs) /\
  executeWorkerAutomaton (p_dfa p) Speculate None [] 0 text [] = Ok w /\
  forall ps, parts_of ps evs -> ~ faithful (fun _ _ => True) (p_dfa p) (c_string text) w bs ps (wa_units w).
Proof.
  eexists q_all, _, (B """q"",""r"",""s"","), [_], _, [OBracket; OKey; OBrace], _.
  split; [vm_compute; reflexivity|]. split; [vm_compute; reflexivity|]. split; [vm_compute; reflexivity|].
  split; [repeat split|]. split; [discriminate|]. split; [cbn; repeat split; discriminate|]. split; [vm_compute; reflexivity|].
  intros ps [He Hp] Hf. cbn [wa_units] in Hf. destruct ps as [|[P E] [|? ?]]; cbn [faithful] in Hf; try tauto.
  cbn [flat_map pt_ends pt_inside] in *. rewrite app_nil_r in He. inversion Hp as [|? ? [H1 _] _]; subst.
  destruct P as [|ev P]; [|injection He as -> _; discriminate H1]. cbn [app] in He. subst E. cbn [map open_after fold_left] in Hf. destruct Hf as (_ & Hf & _).
  match type of Hf with forall r c, _ -> _ -> serial_inside ?d ?t ?bs r ?E = _ -> _ => assert (G : exists c, serial_inside d t bs 3 E = Ok c /\ map snd (c_tl c) = map (fun s => DQ :: B s ++ [DQ]) ["q"; "r"; "s"]%string) end.
  { eexists. split; vm_compute; reflexivity. }
  destruct G as (c & Hc & Ht). specialize (Hf 3 c ltac:(vm_compute; repeat split; discriminate) I Hc).
  apply (f_equal (fun r => match r with Ok l => map snd l | UB _ => [] end)) in Hf. cbn beta iota in Hf. rewrite Ht in Hf. vm_compute in Hf. discriminate Hf.
Qed.
Print Assumptions C36_refuted.

(** A slice: the thread does not know how many elements precede the chunk; for the
    state of the elements of [a] it reports every [b], although only the element
    at position 2 is selected.  (The state has no output, so that this is not the
    case of C36_refuted.) *)
Theorem C36_refuted_slice : exists q p text evs bs w r, slice_query q = true /\ createPathProcessor true q = Ok p /\ valid_state (p_dfa p) r /\ zread (d_accept (p_dfa p)) r = Ok 0 /\
  lex_all text = Ok evs /\ openable bs /\ hd_error bs <> Some OKey /\ nested_in 98 bs (map e_tok evs) /\
  executeWorkerAutomaton (p_dfa p) Speculate None [] 0 text [] = Ok w /\
  forall ps, parts_of ps evs -> ~ faithful (fun _ r' => r' = r) (p_dfa p) (c_string text) w bs ps (wa_units w).
Proof.
  eexists [SChild (B "a"); SSlice (Some 2) (Some 3); SChild (B "b")], _, (B """q"",{""b"": ""r""},{""b"": ""s""},"), _, [OBracket; OKey; OBrace], _, 3.
  split; [reflexivity|]. split; [vm_compute; reflexivity|]. split; [vm_compute; repeat split; discriminate|]. split; [vm_compute; reflexivity|]. split; [vm_compute; reflexivity|].
  split; [repeat split|]. split; [discriminate|]. split; [cbn; repeat split; try discriminate; lia|]. split; [vm_compute; reflexivity|].
  intros ps [He Hp] Hf. cbn [wa_units] in Hf. destruct ps as [|[P E] [|? ?]]; cbn [faithful] in Hf; try tauto.
  cbn [flat_map pt_ends pt_inside] in *. rewrite app_nil_r in He. inversion Hp as [|? ? [H1 _] _]; subst.
  destruct P as [|ev P]; [|injection He as -> _; discriminate H1]. cbn [app] in He. subst E. cbn [map open_after fold_left] in Hf. destruct Hf as (_ & Hf & _).
  match type of Hf with forall r c, _ -> _ -> serial_inside ?d ?t ?bs r ?E = _ -> _ => assert (G : exists c, serial_inside d t bs 3 E = Ok c /\ map snd (c_tl c) = [DQ :: B "s" ++ [DQ]]) end.
  { eexists. split; vm_compute; reflexivity. }
  destruct G as (c & Hc & Ht). specialize (Hf 3 c ltac:(vm_compute; repeat split; discriminate) eq_refl Hc).
  apply (f_equal (fun r => match r with Ok l => map snd l | UB _ => [] end)) in Hf. cbn beta iota in Hf. rewrite Ht in Hf. vm_compute in Hf. discriminate Hf.
Qed.
Print Assumptions C36_refuted_slice.

(** A filter: a thread that sees no token after the end of the second object does
    not report that end for the state of the elements of [a], although the filter is
    evaluated there. *)
Theorem C36_refuted_filter : exists q p text evs bs w r, supported q = true /\ createPathProcessor true q = Ok p /\ valid_state (p_dfa p) r /\ zread (d_accept (p_dfa p)) r = Ok DFA_PREDICATE /\
  lex_all text = Ok evs /\ openable bs /\ hd_error bs <> Some OKey /\ nested_in 98 bs (map e_tok evs) /\
  executeWorkerAutomaton (p_dfa p) Speculate None [] 0 text [] = Ok w /\
  forall ps, parts_of ps evs -> ~ faithful (fun _ r' => r' = r) (p_dfa p) (c_string text) w bs ps (wa_units w).
Proof.
  eexists [SChild (B "a"); SFilter (EField [B "b"]); SChild (B "c")], _, (B """b"": ""r""},{""b"": ""s""}"), _, [OBrace; OBracket; OKey; OBrace], _, 3.
  split; [reflexivity|]. split; [vm_compute; reflexivity|]. split; [vm_compute; repeat split; discriminate|]. split; [vm_compute; reflexivity|]. split; [vm_compute; reflexivity|].
  split; [repeat split|]. split; [discriminate|]. split; [cbn; repeat split; try discriminate; lia|]. split; [vm_compute; reflexivity|].
  intros ps [He Hp] Hf. cbn [wa_units] in Hf. destruct ps as [|[P E] [|[P2 E2] [|? ?]]]; cbn [faithful] in Hf; try tauto.
  cbn [flat_map pt_ends pt_inside] in *. rewrite app_nil_r in He. inversion Hp as [|? ? [H1 H2] Hp2]; subst. inversion Hp2 as [|? ? [H3 H4] _]; subst. cbn [pt_ends pt_inside] in *.
  destruct P as [|ev P]; [|injection He as -> _; discriminate H1]. cbn [app] in He.
  destruct E as [|e1 E]; cbn [app] in He.
  { destruct P2 as [|ev P2]; [|injection He as -> _; discriminate H3]. cbn [app] in He. subst E2. cbn in H4. destruct (proj1 (proj2 (proj2 H4)) eq_refl) as [[] _]. reflexivity. }
  injection He as -> He. destruct E as [|e2 E]; cbn [app] in He.
  { destruct P2 as [|ev P2]; [|injection He as -> _; discriminate H3]. cbn [app] in He. subst E2. cbn in H4. destruct (proj1 (proj2 H4) eq_refl) as [[] _]. reflexivity. }
  injection He as -> He. destruct E as [|e3 E]; [|injection He as -> _; cbn in H2; destruct (proj1 (proj2 (proj2 H2)) eq_refl) as [[] _]; reflexivity]. cbn [app] in He.
  destruct P2 as [|e4 P2]; [cbn [app] in He; subst E2; cbn in H4; destruct (proj1 H4 eq_refl) as [[] _]; reflexivity|]. injection He as -> He.
  destruct Hf as (_ & _ & _ & Hf & _). cbn [map open_after fold_left e_tok pt_ends pt_inside] in Hf.
  assert (HP : P2 = [] \/ exists ev, P2 = [ev] /\ e_tok ev = TCOM).
  { destruct P2 as [|e5 P2]; [auto|]. injection He as -> He. destruct P2 as [|e6 P2]; [right; eexists; split; reflexivity|]. injection He as -> _. discriminate H3. }
  match type of Hf with forall r c, _ -> _ -> serial_inside ?d ?t ?bs _ _ = _ -> _ =>
    assert (G : exists c, serial_inside d t [OBracket; OKey; OBrace] 3 E2 = Ok c /\ map snd (c_tl c) = [B "{"; DQ :: B "s" ++ [DQ]; B "}"]) end.
  { destruct HP as [-> |(ev & -> & _)]; cbn [app] in He; [|injection He as _ He]; subst E2; eexists; split; vm_compute; reflexivity. }
  destruct G as (c & Hc & Ht).
  assert (Hf' := Hf 3 c ltac:(vm_compute; repeat split; discriminate) eq_refl). destruct HP as [-> |(ev & -> & Hev)]; cbn [map fold_left] in Hf'; [|rewrite Hev in Hf']; cbn [value_done tl] in Hf'; specialize (Hf' Hc);
    apply (f_equal (fun r => match r with Ok l => map snd l | UB _ => [] end)) in Hf'; cbn beta iota in Hf'; rewrite Ht in Hf'; vm_compute in Hf'; discriminate Hf'.
Qed.
Print Assumptions C36_refuted_filter.

(** Every query; every chunk; every state without an index range, except states in
    which the elements of the array are output or looked at by a filter when the
    chunk starts directly in an array; chunks of such a size that the tables of the
    thread suffice.  The exceptions are necessary: C36_refuted_slice, C36_refuted
    and C36_refuted_filter.  Without slices no state has an index range (C36_path). *)
Theorem C36_partial : forall strict q p D text bs evs junk ju, zlen (query_names q) <= name_bound -> createPathProcessor strict q = Ok p ->
  (D <= 98)%nat -> nstates (p_dfa p) * (Z.of_nat D + 2) <= 500 -> nstates (p_dfa p) <= 100 ->
  lex_all text = Ok evs -> openable bs -> (List.length bs <= D)%nat -> hd_error bs <> Some OKey -> nested_in D bs (map e_tok evs) ->
  Forall (fun ev => match e_tok ev with TKY s | TPRI s => zlen s <= 998 | _ => True end) evs -> nstates (p_dfa p) * (zlen evs + 1) <= 5000000 ->
  exists w ps, executeWorkerAutomaton (p_dfa p) Speculate None junk ju text [] = Ok w /\ parts_of ps evs /\
    faithful (fun bs r => getDFAArrayIndex (p_dfa p) r = Ok (0, 0) /\ (hd_error bs = Some OBracket -> zread (d_accept (p_dfa p)) r = Ok 0)) (p_dfa p) (c_string text) w bs ps (wa_units w).
Proof. exact reports_plain. Qed.
Print Assumptions C36_partial.

(** If each brace that ends an element of an array is followed by another token of
    the chunk (as in every chunk that partitionInputStream makes of a JSON text), the
    states of elements that a filter looks at are no exception. *)
Theorem C36_filters : forall strict q p D text bs evs junk ju, zlen (query_names q) <= name_bound -> createPathProcessor strict q = Ok p ->
  (D <= 98)%nat -> nstates (p_dfa p) * (Z.of_nat D + 2) <= 500 -> nstates (p_dfa p) <= 100 ->
  lex_all text = Ok evs -> openable bs -> (List.length bs <= D)%nat -> hd_error bs <> Some OKey -> nested_in D bs (map e_tok evs) ->
  Forall (fun ev => match e_tok ev with TKY s | TPRI s => zlen s <= 998 | _ => True end) evs -> nstates (p_dfa p) * (zlen evs + 1) <= 5000000 ->
  elements_followed bs (map e_tok evs) ->
  exists w ps, executeWorkerAutomaton (p_dfa p) Speculate None junk ju text [] = Ok w /\ parts_of ps evs /\
    faithful (fun bs r => getDFAArrayIndex (p_dfa p) r = Ok (0, 0) /\ (hd_error bs = Some OBracket -> zread (d_accept (p_dfa p)) r = Ok 0 \/ zread (d_accept (p_dfa p)) r = Ok DFA_PREDICATE))
      (p_dfa p) (c_string text) w bs ps (wa_units w).
Proof. exact reports_filters. Qed.
Print Assumptions C36_filters.

(** Queries without filters and slices: every state, except output states in an array. *)
Theorem C36_path : forall strict q p D text bs evs junk ju, path_query q = true -> zlen (query_names q) <= name_bound -> createPathProcessor strict q = Ok p ->
  (D <= 98)%nat -> nstates (p_dfa p) * (Z.of_nat D + 2) <= 500 -> nstates (p_dfa p) <= 100 ->
  lex_all text = Ok evs -> openable bs -> (List.length bs <= D)%nat -> hd_error bs <> Some OKey -> nested_in D bs (map e_tok evs) ->
  Forall (fun ev => match e_tok ev with TKY s | TPRI s => zlen s <= 998 | _ => True end) evs -> nstates (p_dfa p) * (zlen evs + 1) <= 5000000 ->
  exists w ps, executeWorkerAutomaton (p_dfa p) Speculate None junk ju text [] = Ok w /\ parts_of ps evs /\
    faithful (fun bs r => hd_error bs = Some OBracket -> zread (d_accept (p_dfa p)) r <> Ok DFA_OUTPUT_CANDIDATE) (p_dfa p) (c_string text) w bs ps (wa_units w).
Proof. exact reports_path. Qed.
Print Assumptions C36_path.

(** The second of three chunks of an array of objects; what the
    two units report for the state of the elements of the array. *)
Definition q_all_b : query := [SChild (B "a"); SAll; SChild (B "b")].
Definition chunk_b : bytes := B """b"": ""r""},{""b"": ""s""},{""b"": ""t""},{".
Example C36_partial_case : exists p evs w u1 u2, createPathProcessor true q_all_b = Ok p /\ path_query q_all_b = true /\ zlen (query_names q_all_b) <= name_bound /\
  nstates (p_dfa p) * (Z.of_nat 20 + 2) <= 500 /\ nstates (p_dfa p) <= 100 /\
  lex_all chunk_b = Ok evs /\ openable [OBrace; OBracket; OKey; OBrace] /\ nested_in 20 [OBrace; OBracket; OKey; OBrace] (map e_tok evs) /\
  Forall (fun ev => match e_tok ev with TKY s | TPRI s => zlen s <= 998 | _ => True end) evs /\ nstates (p_dfa p) * (zlen evs + 1) <= 5000000 /\
  executeWorkerAutomaton (p_dfa p) Speculate None [] 0 chunk_b [] = Ok w /\ wa_units w = [u1; u2] /\
  reported w chunk_b u1 3 = Ok [(4, DQ :: B "r" ++ [DQ])] /\ reported w chunk_b u2 3 = Ok [(4, DQ :: B "s" ++ [DQ]); (4, DQ :: B "t" ++ [DQ])].
Proof.
  do 5 eexists. split; [vm_compute; reflexivity|]. split; [reflexivity|]. split; [vm_compute; discriminate|].
  split; [vm_compute; discriminate|]. split; [vm_compute; discriminate|]. split; [vm_compute; reflexivity|]. split; [repeat split|].
  split; [cbn; repeat split; try discriminate; lia|]. split; [repeat constructor; vm_compute; discriminate|]. split; [vm_compute; discriminate|]. split; [vm_compute; reflexivity|].
  split; [reflexivity|]. split; vm_compute; reflexivity.
Qed.

(** A filter: the same chunk; what the units report for the state of the elements
    of the array in the first unit (the tested field), and for the state of the
    array's holder in the second (nothing: its elements belong to another state). *)
Definition q_has_b : query := [SChild (B "a"); SFilter (EField [B "b"]); SChild (B "c")].
Example C36_partial_filter : exists p evs w u1 u2, createPathProcessor true q_has_b = Ok p /\ zlen (query_names q_has_b) <= name_bound /\
  nstates (p_dfa p) * (Z.of_nat 20 + 2) <= 500 /\ nstates (p_dfa p) <= 100 /\
  lex_all chunk_b = Ok evs /\ openable [OBrace; OBracket; OKey; OBrace] /\ nested_in 20 [OBrace; OBracket; OKey; OBrace] (map e_tok evs) /\
  Forall (fun ev => match e_tok ev with TKY s | TPRI s => zlen s <= 998 | _ => True end) evs /\ nstates (p_dfa p) * (zlen evs + 1) <= 5000000 /\
  executeWorkerAutomaton (p_dfa p) Speculate None [] 0 chunk_b [] = Ok w /\ wa_units w = [u1; u2] /\
  getDFAArrayIndex (p_dfa p) 3 = Ok (0, 0) /\ reported w chunk_b u1 3 = Ok [(4, DQ :: B "r" ++ [DQ])] /\
  zread (d_accept (p_dfa p)) 2 = Ok 0 /\ reported w chunk_b u2 2 = Ok [].
Proof.
  do 5 eexists. split; [vm_compute; reflexivity|]. split; [vm_compute; discriminate|].
  split; [vm_compute; discriminate|]. split; [vm_compute; discriminate|]. split; [vm_compute; reflexivity|]. split; [repeat split|].
  split; [cbn; repeat split; try discriminate; lia|]. split; [repeat constructor; vm_compute; discriminate|]. split; [vm_compute; discriminate|]. split; [vm_compute; reflexivity|].
  split; [reflexivity|]. repeat split; vm_compute; reflexivity.
Qed.

(** The second unit starts in the array: what is reported for the state of its
    elements, which the filter looks at. *)
Example C36_filters_case : exists p evs w u1 u2, createPathProcessor true q_has_b = Ok p /\ zlen (query_names q_has_b) <= name_bound /\
  nstates (p_dfa p) * (Z.of_nat 20 + 2) <= 500 /\ nstates (p_dfa p) <= 100 /\
  lex_all chunk_b = Ok evs /\ openable [OBrace; OBracket; OKey; OBrace] /\ nested_in 20 [OBrace; OBracket; OKey; OBrace] (map e_tok evs) /\
  Forall (fun ev => match e_tok ev with TKY s | TPRI s => zlen s <= 998 | _ => True end) evs /\ nstates (p_dfa p) * (zlen evs + 1) <= 5000000 /\
  elements_followed [OBrace; OBracket; OKey; OBrace] (map e_tok evs) /\
  executeWorkerAutomaton (p_dfa p) Speculate None [] 0 chunk_b [] = Ok w /\ wa_units w = [u1; u2] /\
  getDFAArrayIndex (p_dfa p) 3 = Ok (0, 0) /\ zread (d_accept (p_dfa p)) 3 = Ok DFA_PREDICATE /\
  reported w chunk_b u2 3 = Ok [(3, B "{"); (4, DQ :: B "s" ++ [DQ]); (3, B "}"); (3, B "{"); (4, DQ :: B "t" ++ [DQ]); (3, B "}"); (3, B "{")].
Proof.
  do 5 eexists. split; [vm_compute; reflexivity|]. split; [vm_compute; discriminate|].
  split; [vm_compute; discriminate|]. split; [vm_compute; discriminate|]. split; [vm_compute; reflexivity|]. split; [repeat split|].
  split; [cbn; repeat split; try discriminate; lia|]. split; [repeat constructor; vm_compute; discriminate|]. split; [vm_compute; discriminate|].
  split; [cbn; repeat split; try discriminate; intros; do 2 eexists; split; first [reflexivity|discriminate]|]. split; [vm_compute; reflexivity|].
  split; [reflexivity|]. repeat split; vm_compute; reflexivity.
Qed.
