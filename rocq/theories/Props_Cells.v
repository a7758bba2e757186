(** C48: what was stored is what is read.

    The Output and the tuple lists are arrays of fixed buffers that are used again
    and again.  Whatever the memory held before, they behave like lists as long as
    the numbers and lengths stay within the arrays; where they do not, the store is
    outside of the array. *)
From Verif Require Import Base Util Spec Num Dfa Stream Builder Eval Filter Worker Merge CellSpec Cells CellsProof CellFilter CellFilterProof CellEngine CellEngineProof QueryClass PosSpec Claims FilterSpec Loader Run EndToEnd PosProof CellRun Samples Findings Props_Query.
Open Scope Z_scope.

(** The Output: adding and removing. *)
Theorem C48_output : forall junk xs, zlen junk = 800000 -> Forall (fun c : bytes => zlen c = 1000) junk -> outs_fit [] xs ->
  exists o, foldM out_call xs (initOutput junk) = Ok o /\ getOutputSize o = zlen (fold_left out_after xs []) /\
    forall i t, nth_error (fold_left out_after xs []) i = Some t -> exists b, getOutputElement o (Z.of_nat i) = Ok b /\ c_string b = t.
Proof.
  intros junk xs H1 H2 H3. destruct (calls_rep xs _ [] (init_rep junk H1 H2) H3) as (o & E & R). exists o. split; [exact E|].
  split; [unfold getOutputSize; rewrite (or_count _ _ R); apply Z.sub_add|]. intros i t Ht. exact (get_rep o _ i t R Ht).
Qed.
Print Assumptions C48_output.

(** The limits are exact: one text more, or a longer one, is written outside. *)
Theorem C48_limit : forall junk xs t, zlen junk = 800000 -> Forall (fun c : bytes => zlen c = 1000) junk -> outs_fit [] xs -> no_nul t ->
  zlen (fold_left out_after xs []) = 800000 \/ 998 < zlen t ->
  foldM out_call (xs ++ [OAdd t]) (initOutput junk) = UB OOBWrite.
Proof.
  intros junk xs t H1 H2 H3 Hn Hl. destruct (calls_rep xs _ [] (init_rep junk H1 H2) H3) as (o & E & R). rewrite foldM_app, E. cbn [bind foldM out_call].
  pose proof (add_rep o _ t R Hn) as A. unfold addOutputElement, strcopy, MAX_OUTPUT, MAX_STRING in A. destruct (Z.leb_spec 800000 (zlen (fold_left out_after xs []))); [rewrite A; reflexivity|].
  destruct Hl as [Hl|Hl]; [rewrite Hl in *; exfalso; apply (Z.lt_irrefl _ H)|]. destruct (Z.ltb_spec 1000 (zlen t + 2)) as [G|G]; [cbn [bind] in A; rewrite A; reflexivity|]. exfalso. clear - Hl G. lia.
Qed.
Print Assumptions C48_limit.

(** The tuple list: texts, pairs of positions, and links from one to the next. *)
Theorem C48_tuples : forall junk xs, zlen junk = 5000000 -> Forall (fun c => zlen (tc_text c) = 1000) junk -> tls_fit [] xs ->
  exists tl, foldM tl_call xs (initTupleList junk) = Ok tl /\ getTupleListSize tl = zlen (fold_left tl_after xs []) /\
    (forall i t, nth_error (fold_left tl_after xs []) i = Some t -> exists c, getTuple tl (Z.of_nat i) = Ok c /\
       tc_state c = e_state t /\ tc_next c = e_next t /\
       match e_item t with IText s => tc_start c = -1 /\ c_string (tc_text c) = s | ISpan b e => tc_start c = b /\ tc_end c = e /\ b <> -1 end) /\
    (forall i k t, nth_error (fold_left tl_after xs []) i = Some t -> e_next t = Z.of_nat k -> Z.of_nat k < zlen (fold_left tl_after xs []) ->
       getNextTuple tl (Z.of_nat i) = getTuple tl (Z.of_nat k)).
Proof.
  intros junk xs H1 H2 H3. destruct (tl_calls_rep xs _ [] (tl_init_rep junk H1 H2) H3) as (tl & E & R). exists tl. split; [exact E|].
  split; [unfold getTupleListSize; rewrite (tr_count _ _ R); apply Z.sub_add|]. split.
  - intros i t Ht. destruct (tl_get_rep _ _ _ _ R Ht) as (c & G & <-). exists c. split; [exact G|]. cbn [entry_of e_state e_next e_item]. do 2 (split; [reflexivity|]).
    destruct (Z.eqb_spec (tc_start c) (-1)); auto.
  - intros i k t Ht Hk _. destruct (tl_get_rep _ _ _ _ R Ht) as (c & G & <-). unfold getNextTuple. rewrite G. cbn [bind]. rewrite <- Hk. reflexivity.
Qed.
Print Assumptions C48_tuples.

(** The stacks of the automata: pushes, pops, and a stack put on top of another.  None
    of the calls leaves the array, and the reads give what the list has. *)
Theorem C48_stack : forall (A : Type) (junk junk2 : list A) xs, zlen junk = 100 -> zlen junk2 = 100 -> Forall st_fits xs ->
  exists st, foldM (st_call junk2) xs (initStack junk) = Ok st /\ stackSize st = zlen (fold_left st_after xs []) /\
    stackTop st = Ok (hd_error (fold_left st_after xs [])) /\ stackSecondTop st = Ok (nth_error (fold_left st_after xs []) 1) /\
    exists st', stackPop st = Ok (hd_error (fold_left st_after xs []), st').
Proof.
  intros A junk junk2 xs H1 H2 H3. destruct (st_calls_rep junk2 H2 xs _ [] (st_init_rep junk H1) H3) as (st & E & R). exists st. split; [exact E|].
  split; [unfold stackSize; rewrite (sr_top _ _ R); apply Z.sub_add|]. split; [apply st_top_rep, R|]. split; [apply st_second_rep, R|].
  destruct (st_pop_rep _ _ R) as (st' & E' & _). exists st'. exact E'.
Qed.
Print Assumptions C48_stack.
Example C48_stack_example : Forall st_fits [SPush 1; SPush 2; SPop; SCombine [5; 4]; SPop] /\
  fold_left st_after [SPush 1; SPush 2; SPop; SCombine [5; 4]; SPop] [] = [4; 1].
Proof. split; [|reflexivity]. repeat constructor; discriminate. Qed.

(** The lists that the rest of the model works on are these arrays: each call gives the
    list, or the undefined behaviour, that is assumed there. *)
Theorem C48_lists :
  (forall o l t, out_rep o l -> no_nul t ->
     match addOutputElement l t with
     | Ok l' => exists o', addOutputElement_c o t = Ok o' /\ out_rep o' l'
     | UB r => addOutputElement_c o t = UB r
     end) /\
  (forall tl l s v, tl_rep tl (map of_wtuple l) -> match v with VText t => no_nul t | VSpan b _ => 0 <= b end ->
     match store_tuple l s v with
     | Ok l' => exists tl', match v with VText t => addTuple_c tl s t | VSpan b e => addVirtualTuple_c tl s b e end = Ok tl' /\ tl_rep tl' (map of_wtuple l')
     | UB r => match v with VText t => addTuple_c tl s t | VSpan b e => addVirtualTuple_c tl s b e end = UB r
     end) /\
  (forall tl l i n l', tl_rep tl (map of_wtuple l) -> linkTuples l i n = Ok l' -> exists tl', linkTuples_c tl i n = Ok tl' /\ tl_rep tl' (map of_wtuple l')) /\
  (forall (st : astack elt) l x, st_rep st l -> exists st', stackPush st x = Ok st' /\ st_rep st' (push l x)) /\
  (forall st l, st_rep st l -> exists st', stackPop st = Ok (hd_error l, st') /\ st_rep st' (snd (qs_pop l)) /\
     fst (qs_pop l) = match hd_error l with Some e => e | None => mkElt (-1) 0 MUninit end) /\
  (forall dst src l l2, st_rep dst l -> st_rep src l2 -> exists d, combineStack dst src = Ok d /\ st_rep d (combineSyntaxStack l l2)).
Proof.
  split; [exact add_rep|]. split; [exact store_rep|]. split; [intros tl l i n l' R; exact (link_rep tl l i n R l')|].
  split; [intros st l x R; rewrite push_same; apply st_push_rep, R|]. split.
  - intros st l R. destruct (st_pop_rep st l R) as (st' & E & R'). exists st'. split; [exact E|]. destruct l; (split; [exact R'|reflexivity]).
  - intros dst src l l2 R R2. destruct (st_combine_rep dst src l l2 R R2) as (d & E & R'). exists d. split; [exact E|]. rewrite combine_same. exact R'.
Qed.
Print Assumptions C48_lists.

(** Memory of that size exists, and sequences of calls that fit: the second text takes
    the place of the first. *)
Lemma zlen_repeat {A} (x : A) n : 0 <= n -> zlen (repeat x (Z.to_nat n)) = n.
Proof. intros H. unfold zlen. rewrite repeat_length. apply Z2Nat.id, H. Qed.
Lemma all_repeat {A} (P : A -> Prop) x n : P x -> Forall P (repeat x n).
Proof. intros H. induction n; constructor; assumption. Qed.
Example C48_example : exists (junk : list bytes) (cells : list tcell),
  zlen junk = 800000 /\ Forall (fun c : bytes => zlen c = 1000) junk /\ zlen cells = 5000000 /\ Forall (fun c => zlen (tc_text c) = 1000) cells /\
  outs_fit [] [OAdd (B "long text"); OAdd (B "b"); ORemove 2; OAdd (B "c")] /\
  fold_left out_after [OAdd (B "long text"); OAdd (B "b"); ORemove 2; OAdd (B "c")] [] = [B "c"] /\
  tls_fit [] [TAdd 3 (B "x"); TSpan 4 7 9; TLink 0 1] /\
  fold_left tl_after [TAdd 3 (B "x"); TSpan 4 7 9; TLink 0 1] [] = [mkEntry 3 (IText (B "x")) 1; mkEntry 4 (ISpan 7 9) (-1)].
Proof.
  exists (repeat (repeat "x"%char (Z.to_nat 1000)) (Z.to_nat 800000)), (repeat (mkTc 1 2 3 (repeat "x"%char (Z.to_nat 1000)) 4) (Z.to_nat 5000000)).
  split; [apply zlen_repeat; discriminate|]. split; [apply all_repeat, zlen_repeat; discriminate|]. split; [apply zlen_repeat; discriminate|]. split; [apply all_repeat; cbn [tc_text]; apply zlen_repeat; discriminate|].
  split; [|split; [reflexivity|split; [|reflexivity]]].
  - cbn [outs_fit out_fits]. repeat split; try discriminate; try (intros H; cbn in H; intuition discriminate).
  - cbn [tls_fit tl_fits]. repeat split; try discriminate; try (intros H; cbn in H; intuition discriminate).
Qed.

(** The filtering stage on these arrays, call after call: its output holds the texts
    that the stage gives on lists, and where that has undefined behaviour so has this.
    [cs] are the condition tables, [tls] the tuple lists of the loads with the tuples
    [ls]; the stack, the output and the buffer of candidates have any old contents. *)
Theorem C48_filter : forall N x cs (stack_junk : list (Z * Z)) out_junk buf_junk tls ls,
  zlen stack_junk = 100 -> zlen out_junk = 800000 -> Forall (fun c : bytes => zlen c = 1000) out_junk ->
  zlen buf_junk = 800000 -> Forall (fun c : bytes => zlen c = 1000) buf_junk -> Forall2 holds_tuples tls ls ->
  match foldM (generateFinalOutput N x) ls (mkF cs [] [] []) with
  | UB r => foldM (generateFinalOutput_c N x buf_junk) tls (initFilter_c cs stack_junk out_junk) = UB r
  | Ok f => exists g, foldM (generateFinalOutput_c N x buf_junk) tls (initFilter_c cs stack_junk out_junk) = Ok g /\
      getOutputSize (g_output g) = zlen (f_output f) /\
      forall i t, nth_error (f_output f) i = Some t -> exists b, getOutputElement (g_output g) (Z.of_nat i) = Ok b /\ c_string b = t
  end.
Proof.
  intros N x cs sj oj bj tls ls H1 H2 H3 H4 H5 F.
  assert (R0 : idle_rep (initFilter_c cs sj oj) (mkF cs [] [] [])).
  { split; [split; cbn; auto; [apply st_init_rep, H1|apply init_rep; assumption]|reflexivity]. }
  assert (E : match foldM (generateFinalOutput N x) ls (mkF cs [] [] []) with
    | UB r => foldM (generateFinalOutput_c N x bj) tls (initFilter_c cs sj oj) = UB r
    | Ok f => exists g, foldM (generateFinalOutput_c N x bj) tls (initFilter_c cs sj oj) = Ok g /\ idle_rep g f end).
  { revert R0. generalize (initFilter_c cs sj oj) (mkF cs [] [] []). induction F as [|tl l tls ls Hh F IH]; intros g f R; [cbn; eauto|]. cbn [foldM].
    pose proof (final_rep N x bj g f tl l H4 H5 R Hh) as S. destruct (generateFinalOutput N x f l) as [f1|r]; cbn [bind]; [|rewrite S; reflexivity].
    destruct S as (g1 & -> & R1). cbn [bind]. apply IH, R1. }
  destruct (foldM (generateFinalOutput N x) ls (mkF cs [] [] [])) as [f|r]; [|exact E]. destruct E as (g & Eg & [[_ _ _ Ro] _]). exists g. split; [exact Eg|].
  split; [unfold getOutputSize; rewrite (or_count _ _ Ro); apply Z.sub_add|]. intros i t Ht. exact (get_rep _ _ i t Ro Ht).
Qed.
Print Assumptions C48_filter.
(** Tuple lists that hold given tuples are what addTuple makes of any memory. *)
Theorem C48_filter_tuples : forall junk l, zlen junk = 5000000 -> Forall (fun c => zlen (tc_text c) = 1000) junk ->
  Forall (fun t : tuple => no_nul (snd t) /\ zlen (snd t) <= 998) l -> zlen l <= 5000000 ->
  exists tl, foldM (fun tl t => addTuple_c tl (fst t) (snd t)) l (initTupleList junk) = Ok tl /\ holds_tuples tl l.
Proof.
  intros junk l H1 H2 Hl Hz.
  assert (E : forall rest done tl, l = done ++ rest -> tl_rep tl (map (fun t => mkEntry (fst t) (IText (snd t)) (-1)) done) ->
    exists tl', foldM (fun tl t => addTuple_c tl (fst t) (snd t)) rest tl = Ok tl' /\ tl_rep tl' (map (fun t => mkEntry (fst t) (IText (snd t)) (-1)) l)).
  { induction rest as [|t rest IH]; intros done tl El R; [exists tl; split; [reflexivity|]; rewrite El, app_nil_r; exact R|].
    assert (Ht : no_nul (snd t) /\ zlen (snd t) <= 998) by (rewrite El, Forall_app in Hl; destruct Hl as [_ Hl]; inversion Hl; assumption).
    pose proof (tl_add_rep tl _ (fst t) (snd t) R (proj1 Ht)) as A.
    replace ((5000000 <=? zlen (map (fun t => mkEntry (fst t) (IText (snd t)) (-1)) done)) || (1000 <? zlen (snd t) + 2)) with false in A.
    2:{ symmetry. apply Bool.orb_false_iff. split; [apply Z.leb_gt|apply Z.ltb_ge; lia]. rewrite El, zlen_app, zlen_cons in Hz. clear - Hz. unfold zlen, tuple, bytes in *. rewrite map_length. lia. }
    destruct A as (tl1 & E1 & R1). cbn [foldM]. rewrite E1. cbn [bind]. apply (IH (done ++ [t])); [rewrite El, <- app_assoc; reflexivity|]. rewrite map_app. exact R1. }
  destruct (E l [] (initTupleList junk) eq_refl (tl_init_rep junk H1 H2)) as (tl & Et & R). exists tl. split; [exact Et|].
  eexists. split; [exact R|]. clear. induction l as [|t l IH]; constructor; [split; reflexivity|exact IH].
Qed.
Print Assumptions C48_filter_tuples.
Example C48_filter_example : exists tl, holds_tuples tl [(3, B "{"); (5, B "7"); (3, B "}")].
Proof.
  destruct C48_example as (_ & cells & _ & _ & H1 & H2 & _). destruct (C48_filter_tuples cells [(3, B "{"); (5, B "7"); (3, B "}")] H1 H2) as (tl & _ & H).
  - repeat constructor; try discriminate; intros H; cbn in H; intuition discriminate.
  - discriminate.
  - exists tl. exact H.
Qed.

(** The first stage on these arrays: the two stacks and the tuple list of the engine.
    Its run ends as it does with lists, and leaves the same tuples. *)
Theorem C48_engine : forall d stream (syms : list sym) (elts : list elt) (cells : list tcell),
  zlen syms = 100 -> zlen elts = 100 -> zlen cells = 5000000 -> Forall (fun c => zlen (tc_text c) = 1000) cells ->
  match executeAutomaton d stream init_core with
  | UB r => executeAutomaton_c d stream (initAutomaton_c syms elts cells) = UB r
  | Ok c => exists a, executeAutomaton_c d stream (initAutomaton_c syms elts cells) = Ok a /\ holds_tuples (a_tl a) (c_tl c) /\
      stackSize (a_ss a) = zlen (c_ss c) /\ stackSize (a_qs a) = zlen (c_qs c) /\ a_cur a = c_cur c
  end.
Proof.
  intros d stream syms elts cells H1 H2 H3 H4. pose proof (execute_rep d stream _ _ (init_a_rep syms elts cells H1 H2 H3 H4)) as E.
  destruct (executeAutomaton d stream init_core) as [c|r]; [|exact E]. destruct E as (a & E & R). exists a. split; [exact E|]. split; [exact (a_holds a c R)|].
  split; [exact (size_rep _ _ (ar_ss _ _ R))|]. split; [exact (size_rep _ _ (ar_qs _ _ R))|exact (ar_cur _ _ R)].
Qed.
Print Assumptions C48_engine.
(** Both stages, one after the other. *)
Theorem C48_query : forall d stream N x cs (syms : list sym) (elts : list elt) (cells : list tcell) (stack_junk : list (Z * Z)) out_junk buf_junk c f,
  zlen syms = 100 -> zlen elts = 100 -> zlen cells = 5000000 -> Forall (fun c => zlen (tc_text c) = 1000) cells ->
  zlen stack_junk = 100 -> zlen out_junk = 800000 -> Forall (fun c : bytes => zlen c = 1000) out_junk ->
  zlen buf_junk = 800000 -> Forall (fun c : bytes => zlen c = 1000) buf_junk ->
  executeAutomaton d stream init_core = Ok c -> generateFinalOutput N x (mkF cs [] [] []) (c_tl c) = Ok f ->
  exists a g, executeAutomaton_c d stream (initAutomaton_c syms elts cells) = Ok a /\
    generateFinalOutput_c N x buf_junk (initFilter_c cs stack_junk out_junk) (a_tl a) = Ok g /\
    getOutputSize (g_output g) = zlen (f_output f) /\
    forall i t, nth_error (f_output f) i = Some t -> exists b, getOutputElement (g_output g) (Z.of_nat i) = Ok b /\ c_string b = t.
Proof.
  intros d stream N x cs syms elts cells sj oj bj c f H1 H2 H3 H4 K1 K2 K3 K4 K5 E F. pose proof (C48_engine d stream syms elts cells H1 H2 H3 H4) as A. rewrite E in A.
  destruct A as (a & Ea & Ha & _). exists a. pose proof (C48_filter N x cs sj oj bj [a_tl a] [c_tl c] K1 K2 K3 K4 K5 (Forall2_cons _ _ Ha (Forall2_nil _))) as G.
  cbn [foldM] in G. rewrite F in G. cbn [bind] in G. destruct G as (g & Eg & G). destruct (generateFinalOutput_c N x bj (initFilter_c cs sj oj) (a_tl a)) as [g'|r]; [|discriminate Eg].
  cbn [bind] in Eg. inversion Eg; subst g'. exists g. split; [exact Ea|]. split; [reflexivity|exact G].
Qed.
Print Assumptions C48_query.
Definition cheap_text : bytes := B "{""a"": [{""p"": 8, ""c"": ""x""}, {""c"": [1, 2], ""p"": 12}, {""c"": {""d"": 0}, ""p"": 9}]}".
Example C48_query_example : exists d x cs c f, build true [SChild (B "a"); below "p" "10"; SChild (B "c")] = Ok (d, x) /\
  initPredicateFilter x = Ok (mkF cs [] [] []) /\ executeAutomaton d cheap_text init_core = Ok c /\ generateFinalOutput zops x (mkF cs [] [] []) (c_tl c) = Ok f /\
  f_output f = [B """x"""; B "{""d"": 0}"] /\ List.length (c_tl c) = 12%nat.
Proof. do 5 eexists. split; [vm_compute; reflexivity|]. split; [vm_compute; reflexivity|]. split; [vm_compute; reflexivity|]. split; [vm_compute; reflexivity|]. split; vm_compute; reflexivity. Qed.

(** * Serial runs on arrays *)
Definition memory_fits (m : memory) : Prop :=
  zlen (m_syms m) = 100 /\ zlen (m_elts m) = 100 /\ zlen (m_tuples m) = 5000000 /\ Forall (fun c => zlen (tc_text c) = 1000) (m_tuples m) /\
  zlen (m_open m) = 100 /\ zlen (m_out m) = 800000 /\ Forall (fun c : bytes => zlen c = 1000) (m_out m) /\
  zlen (m_buffer m) = 800000 /\ Forall (fun c : bytes => zlen c = 1000) (m_buffer m).
(** The Output holds these texts. *)
Definition shows (o : output) (l : list bytes) : Prop := getOutputSize o = zlen l /\
  forall i t, nth_error l i = Some t -> exists b, getOutputElement o (Z.of_nat i) = Ok b /\ c_string b = t.

(** Any processor, any file of one load: a run that ends well on lists gives the same on
    arrays, whatever they held. *)
Theorem C48_run : forall N j p file out m, 0 < zlen file <= 250000000 -> memory_fits m ->
  serialRun N j p file = Ok (Some out) -> exists o, serialPartialRun_c N p m file = Ok o /\ shows o out.
Proof.
  intros N j p file out m Hf (H1 & H2 & H3 & H4 & H5 & H6 & H7 & H8 & H9) Hrun. unfold serialRun, serial_run in Hrun.
  cbn [serial_loop] in Hrun. rewrite (load_whole MEMORY_FOOTPRINT MAX_EXTENSION file eq_refl Hf) in Hrun. cbn [bind] in Hrun.
  destruct (serialPartialRun N j p file init_context) as [[o ci]|] eqn:Er; [|discriminate]. cbn [bind] in Hrun.
  assert (Ho : o = out).
  { destruct file as [|c file]; [destruct Hf as [Hf _]; discriminate Hf|]. cbn [List.length serial_loop] in Hrun. rewrite load_end in Hrun. cbn [bind] in Hrun.
    destruct (destroyStreamingContext j ci); [|discriminate]. cbn [bind] in Hrun. injection Hrun as <-. reflexivity. }
  subst o. clear Hrun. unfold serialPartialRun in Er. cbn [init_context sc_context sc_core andb] in Er.
  destruct (executeAutomaton (p_dfa p) file init_core) as [c|] eqn:Ex; [|discriminate]. cbn [bind] in Er.
  destruct (initPredicateFilter (p_ctx p)) as [pf0|] eqn:Ei; [|discriminate]. cbn [bind] in Er.
  destruct (generateFinalOutput N (p_ctx p) pf0 (c_tl c)) as [pf1|] eqn:Eg; [|discriminate]. cbn [bind] in Er. injection Er as <- _.
  assert (E0 : pf0 = mkF (f_conds pf0) [] [] []).
  { unfold initPredicateFilter in Ei. destruct (foldM (init_pred (p_ctx p)) (x_preds (p_ctx p)) (repeat None MAX_PREDICATE_STATE)); [|discriminate]. cbn [bind] in Ei. injection Ei as <-. reflexivity. }
  rewrite E0 in Eg. destruct (C48_query (p_dfa p) file N (p_ctx p) (f_conds pf0) (m_syms m) (m_elts m) (m_tuples m) (m_open m) (m_out m) (m_buffer m) c pf1 H1 H2 H3 H4 H5 H6 H7 H8 H9 Ex Eg)
    as (a & g & Ea & Eg' & Hs & Ht).
  exists (g_output g). split; [|split; [exact Hs|exact Ht]]. unfold serialPartialRun_c. rewrite Ea. cbn [bind]. rewrite Ei. cbn [bind]. rewrite Eg'. reflexivity.
Qed.
Print Assumptions C48_run.

(** C03 on arrays: the Output holds the answers of the query. *)
Theorem C03_arrays : forall N strict q dc m,
  supported q = true -> (strict = true -> single_names q) -> predicates_fit strict q ->
  good_doc dc -> limits q (d_val dc) -> filters_meaningful N q (d_val dc) -> memory_fits m ->
  exists p, createPathProcessor strict q = Ok p /\
    exists o, serialPartialRun_c N p m (doc_text dc) = Ok o /\ shows o (answer_text (holds N) q (d_val dc)).
Proof.
  intros N strict q dc m Hs Hn Hp Hg Hl Hfm Hm. destruct (C03_partial N strict q dc (mkJunk 0 true) Hs Hn Hp Hg Hl Hfm eq_refl) as (p & Ep & Er).
  exists p. split; [exact Ep|]. apply (C48_run N (mkJunk 0 true) p (doc_text dc) _ m); [|exact Hm|exact Er].
  destruct Hg as [Hwf _ _ Hsize]. split; [|exact Hsize]. unfold doc_text. rewrite !zlen_app. pose proof (text_pos _ (wf_doc_val dc Hwf)).
  pose proof (zlen_nonneg (d_pre dc)). pose proof (zlen_nonneg (d_post dc)). lia.
Qed.
Print Assumptions C03_arrays.
Example C03_arrays_example : exists m, memory_fits m.
Proof.
  destruct C48_example as (junk & cells & H1 & H2 & H3 & H4 & _). exists (mkMem (repeat SKY (Z.to_nat 100)) (repeat (mkElt 7 8 (MAt 9)) (Z.to_nat 100)) cells (repeat (5, 6) (Z.to_nat 100)) junk junk).
  repeat split; cbn [m_syms m_elts m_tuples m_open m_out m_buffer]; try assumption; apply zlen_repeat; discriminate.
Qed.
