(** Model of the merging phase and of the parallel runs:
    JSONQuery/parallel_automata_execution.h, combineSyntaxStack (stack.h:148-155),
    combineQueryStacks (multi_stack.h:375-432) and
    JSONQuery/path_processor.h:266-367. *)
From Verif Require Import Base Spec Util Lexer Dfa Constraint Stream Builder Eval Filter Loader Run Worker.
Open Scope Z_scope.

(** The variables of [combine] (parallel_automata_execution.h:127-137). *)
Record merged : Type := mkM {
  m_ss  : list sym;
  m_qs  : qstacks;
  m_cur : Z * Z;
  m_tl  : list wtuple
}.

(** Offsets [b..e) of a C string as substring_in_place copies them
    (utility.c:47-57, with the blanks that ltrim skips), before the result is
    read as a C string. *)
Definition raw_sub (buf : bytes) (b e : Z) : res bytes := read_range buf (ltrim buf 0 + b) (e - b).

(** JSONQuery/stack.h:148-155 [combineSyntaxStack]. *)
Definition combineSyntaxStack (dst src : list sym) : list sym := fold_left push (rev src) dst.

(** multi_stack.h:392-401: the node of the lowest level with the given state. *)
Fixpoint find_state (nodes : list tnode) (is : list Z) (state : Z) : res (option Z) :=
  match is with
  | [] => Ok None
  | i :: is' =>
      n <- zread nodes i ;;
      if t_state n =? state then Ok (Some i) else find_state nodes is' state
  end.

(** multi_stack.h:411-429: the node of a level that has the given root (nodes
    that are roots themselves have an empty range and are passed over). *)
Definition range_roots (q : qstacks) (n : tnode) : res (list Z) :=
  '(s, e) <- known (t_root n) ;;
  rp <- known (k_rp q) ;; mapM (zread rp) (zseq s e).
Fixpoint find_path (q : qstacks) (is : list Z) (root : Z) : res (option tnode) :=
  match is with
  | [] => Ok None
  | i :: is' =>
      n <- zread (k_nodes q) i ;;
      rs <- range_roots q n ;;
      if existsb (Z.eqb root) rs then Ok (Some n) else find_path q is' root
  end.

(** multi_stack.h:404-430: one level. *)
Definition combine_level (src : qstacks) (root : Z) (st : qstacks * (Z * Z)) (level : Z * Z) : res (qstacks * (Z * Z)) :=
  let '(q, cur) := st in
  if Z.of_nat MAX_STACK <=? zlen (k_item q) then UB OOBWrite
  else
    f <- find_path src (zseq (fst level) (snd level)) root ;;
    match f with
    | None => Ok (mkQs (k_nodes q) (k_np q) (k_rp q) (cur :: k_item q), cur)
    | Some n =>
        let i := zlen (k_nodes q) in
        if MAX_NODE <=? i then UB OOBWrite
        else Ok (mkQs (k_nodes q ++ [mkNode (t_state n) (t_count n) (t_ms n) None None None])
                      (k_np q) (k_rp q) (cur :: k_item q), (i, i))
    end.

(** JSONQuery/multi_stack.h:375-432 [combineQueryStacks]. *)
Definition combineQueryStacks (dst : qstacks) (cur : Z * Z) (src : qstacks) (scur : Z * Z) : res (qstacks * (Z * Z)) :=
  if Z.of_nat MAX_STACK <=? zlen (k_item src) then UB OOBWrite
  else
    c <- zread (k_nodes dst) (fst cur) ;;
    match rev (scur :: k_item src) with
    | [] => Ok (dst, cur)
    | lowest :: levels =>
        r <- find_state (k_nodes src) (zseq (fst lowest) (snd lowest)) (t_state c) ;;
        match r with
        | None => Ok (dst, cur)
        | Some root => foldM (combine_level src root) levels (dst, cur)
        end
    end.

Section Merge.
  Variable d : dfa.

  (** parallel_automata_execution.h:102-119 [getMatchedType]. *)
  Definition mergeType (n : tnode) : res Z := getMatchedType d (mkElt (t_state n) (t_count n) (t_ms n)).

  Definition m_pop (m : merged) : res merged :=
    '(q, cur) <- queryStacksPop (m_qs m) ;; Ok (mkM (m_ss m) q cur (m_tl m)).
  Definition m_with_ss (m : merged) (ss : list sym) : merged := mkM ss (m_qs m) (m_cur m) (m_tl m).
  Definition m_add (i state : Z) (v : wval) (m : merged) : res merged :=
    '(q, tl) <- addTupleInfo i state v (m_qs m, m_tl m) ;; Ok (mkM (m_ss m) q (m_cur m) tl).
  (** [qs.node[qs_elt.start].count++]. *)
  Definition m_count (m : merged) : res merged :=
    let i := fst (m_cur m) in
    n <- zread (k_nodes (m_qs m)) i ;;
    Ok (mkM (m_ss m) (set_node (m_qs m) i (with_count n (t_count n + 1))) (m_cur m) (m_tl m)).
  Definition m_clear (i : Z) (m : merged) : res merged :=
    n <- zread (k_nodes (m_qs m)) i ;;
    Ok (mkM (m_ss m) (set_node (m_qs m) i (with_ms n MInv)) (m_cur m) (m_tl m)).

  (** parallel_automata_execution.h:163-211: an unmatched closing brace;
      [prev] and [here] are the chunks before and at hand. *)
  Definition merge_rcb (prev here : bytes) (index : Z) (m : merged) : res merged :=
    let i := fst (m_cur m) in
    n <- zread (k_nodes (m_qs m)) i ;;
    m <- match m_ss m with
         | [] => Ok m
         | _ =>
             s <- ms_set (t_ms n) ;;
             match s with
             | None => Ok m
             | Some start =>
                 ty <- mergeType n ;;
                 if ty =? DFA_OUTPUT_CANDIDATE then
                   (* 172-180; left_len is strlen(prev)-start, right_len is index+1 *)
                   if zlen prev - start + (index + 1) <? 0 then UB OOBWrite
                   else
                     a <- raw_sub prev start (zlen prev) ;;
                     b <- raw_sub here 0 (index + 1) ;;
                     m <- m_add i (t_state n) (VText (c_string (a ++ b))) m ;;
                     m_clear i m
                 else Ok m
             end
         end ;;
    match m_ss m with
    | [] => Ok m
    | [_] => Ok (m_with_ss m [])
    | _ :: SKY :: ss' => m_pop (m_with_ss m ss')
    | _ :: SLB :: ss' =>
        m <- m_count (m_with_ss m (SLB :: ss')) ;;
        ty <- mergeType n ;;
        if ty =? DFA_PREDICATE then m_add i (t_state n) (VText (B "}")) m else Ok m
    | _ => Ok m
    end.

  (** parallel_automata_execution.h:212-257: an unmatched closing bracket.  The
      buffer of line 226-229 is one byte too short for what lines 230-231 write. *)
  Definition merge_rb (m : merged) : res merged :=
    _ <- match m_ss m with
         | [] => Ok tt
         | _ =>
             (* an empty query stack: indeterminate start *)
             top <- match k_item (m_qs m) with t :: _ => Ok t | [] => UB UninitRead end ;;
             n <- zread (k_nodes (m_qs m)) (fst top) ;;
             s <- ms_set (t_ms n) ;;
             match s with
             | None => Ok tt
             | Some _ =>
                 ty <- mergeType n ;;
                 if ty =? DFA_OUTPUT_CANDIDATE then UB OOBWrite else Ok tt
             end
         end ;;
    match m_ss m with
    | [] => Ok m
    | [_] => m_pop (m_with_ss m [])
    | _ :: SKY :: ss' => m <- m_pop (m_with_ss m ss') ;; m_pop m
    | _ :: SLB :: ss' => m <- m_pop (m_with_ss m (SLB :: ss')) ;; m_count m
    | _ => Ok m
    end.

  (** parallel_automata_execution.h:157-264: one unmatched symbol (PRI is not
      handled there). *)
  Definition merge_sym (prev here : bytes) (m : merged) (s : usym) : res merged :=
    match s with
    | URcb i => merge_rcb prev here i m
    | URb _ => merge_rb m
    | UObj | UArr => m <- m_pop m ;; Ok (m_with_ss m (ss_pop (m_ss m)))
    | UPri => Ok m
    end.

  (** parallel_automata_execution.h:267-275: the root with the current state;
      the second part of the result is the loop counter [l]. *)
  Fixpoint find_root (rs : list tnode) (state : Z) : option tnode :=
    match rs with
    | [] => None
    | r :: rs' => if t_state r =? state then Some r else find_root rs' state
    end.

  (** [qs.node[qs_elt.start].query_state = 0]. *)
  Definition m_dead (m : merged) : res merged :=
    let i := fst (m_cur m) in
    n <- zread (k_nodes (m_qs m)) i ;;
    Ok (mkM (m_ss m) (set_node (m_qs m) i (mkNode 0 (t_count n) (t_ms n) (t_pend n) (t_root n) (t_tup n))) (m_cur m) (m_tl m)).

  (** parallel_automata_execution.h:339-346: a tuple of the chunk becomes a tuple
      of the result. *)
  Definition collect_one (here : bytes) (t : wtuple) (m : merged) : res merged :=
    txt <- match w_val t with
           | VText s => Ok s
           | VSpan b e => substring_in_place MAX_TEXT here 0 b e
           end ;;
    tl <- store_tuple (m_tl m) (w_state t) (VText txt) ;;
    Ok (mkM (m_ss m) (m_qs m) (m_cur m) tl).

  Definition is_text (v : wval) (s : bytes) : bool := match v with VText t => beq t s | VSpan _ _ => false end.

  (** parallel_automata_execution.h:309-348: the loop over the tuples of a root.
      (The comparison of line 322 reads the text of a virtual tuple, which is
      unset; such a tuple is taken to be neither of the two texts.) *)
  Fixpoint collect (fuel : nat) (here : bytes) (tl : list wtuple) (i : Z) (m : merged) : res merged :=
    if i =? -1 then Ok m
    else match fuel with
         | O => UB Fuel
         | S fuel' =>
             t <- zread tl i ;;
             n <- zread (k_nodes (m_qs m)) (fst (m_cur m)) ;;
             if t_state n =? 0 then collect fuel' here tl (w_next t) m
             else
               '(lower, upper) <- getDFAArrayIndex d (t_state n) ;;
               if (lower =? 0) && (upper =? 0)
               then m <- collect_one here t m ;; collect fuel' here tl (w_next t) m
               else if is_text (w_val t) (B "}") || is_text (w_val t) (B "]")
               then m <- m_count m ;;
                    m <- (if upper <=? t_count n + 1 then m_dead m else Ok m) ;;
                    collect fuel' here tl (w_next t) m
               else if negb ((lower <=? t_count n) && (t_count n <? upper))
               then m <- (if upper <=? t_count n then m_dead m else Ok m) ;;
                    collect fuel' here tl (w_next t) m
               else
                 ty <- mergeType n ;;
                 m <- (if ty =? DFA_OUTPUT_CANDIDATE then m_count m else Ok m) ;;
                 m <- collect_one here t m ;;
                 collect fuel' here tl (w_next t) m
         end.

  (** parallel_automata_execution.h:282-290: the text of a unit that is processed
      again; None when the branch is left without doing so. *)
  Definition unit_text (here : bytes) (u : unit_) : res (option bytes) :=
    match un_start u, un_end u with
    | Some s, Some e => if s <? e then t <- substring here 0 s e ;; Ok (Some t) else Ok None
    | _, _ => UB NullDeref
    end.

  Variable junk : bytes.
  (** What the never initialised unit_state holds when a unit is processed again. *)
  Variable ju : Z.

  (** parallel_automata_execution.h:146-349: one unit; [w] is the worker of the
      chunk.  The flag is true when the unit has been processed again. *)
  Definition merge_unit (prev here : bytes) (w : worker) (m : merged) (u : unit_) : res (merged * bool) :=
    m <- foldM (merge_sym prev here) (un_syms u) m ;;
    n <- zread (k_nodes (m_qs m)) (fst (m_cur m)) ;;
    let found := find_root (un_roots u) (t_state n) in
    t <- match found, un_roots u with
         | None, _ :: _ => if un_state u =? UNIT_UNMATCHED then Ok None else unit_text here u
         | _, _ => Ok None
         end ;;
    match t with
    | Some txt =>
        w0 <- executeWorkerAutomaton d (Continue (m_ss m) (m_qs m) (m_cur m)) None junk ju txt (m_tl m) ;;
        Ok (mkM (wa_ss w0) (wa_qs w0) (wa_cur w0) (wa_tl w0), true)
    | None =>
        first <- match found with Some r => '(f, _) <- known (t_tup r) ;; Ok f | None => Ok (-1) end ;;
        m <- collect (S (List.length (wa_tl w))) here (wa_tl w) first m ;;
        Ok (m, false)
    end.

  Fixpoint merge_units (prev here : bytes) (w : worker) (us : list unit_) (m : merged) : res (merged * bool) :=
    match us with
    | [] => Ok (m, false)
    | [u] => merge_unit prev here w m u
    | u :: us' => '(m, _) <- merge_unit prev here w m u ;; merge_units prev here w us' m
    end.

  (** parallel_automata_execution.h:139-356: one chunk; the stacks of the chunk are
      appended unless its last unit has been processed again. *)
  Definition merge_chunk (prev here : bytes) (w : worker) (m : merged) : res merged :=
    '(m, again) <- merge_units prev here w (wa_units w) m ;;
    if again : bool then Ok m
    else
      '(q, cur) <- combineQueryStacks (m_qs m) (m_cur m) (wa_qs w) (wa_cur w) ;;
      Ok (mkM (combineSyntaxStack (m_ss m) (wa_ss w)) q cur (m_tl m)).

  Fixpoint merge_chunks (prev : bytes) (rest : list (bytes * worker)) (m : merged) : res merged :=
    match rest with
    | [] => Ok m
    | (s, w) :: rest' => m <- merge_chunk prev s w m ;; merge_chunks s rest' m
    end.
End Merge.

(** JSONQuery/parallel_automata_execution.h:121-363 [combine]: the chunks with the
    workers that have processed them. *)
Definition combine_all (d : dfa) (junk : bytes) (ju : Z) (first : bytes * worker) (rest : list (bytes * worker)) : res merged :=
  let w := snd first in
  merge_chunks d junk ju (fst first) rest (mkM (wa_ss w) (wa_qs w) (wa_cur w) (wa_tl w)).

(** Uninitialised memory in a parallel run: unit_state in the stack frame of the
    i-th thread and of the main thread, the unset token names, and pa.finish_flag. *)
Record pjunk : Type := mkPj { pj_unit : nat -> Z; pj_main : Z; pj_name : bytes; pj_finish : Z }.

(** parallel_automata_execution.h:26. *)
Definition MAX_THREAD : Z := 100.

(** What thread [i] computes (main_thread, parallel_automata_execution.h:70-97);
    a chunk that is NULL is dereferenced by strlen.  Thread 0 never prunes. *)
Definition thread_result (d : dfa) (ct : option ctable) (pj : pjunk) (start0 : wstart) (tl0 : list wtuple)
    (i : nat) (chunk : option bytes) : res (bytes * worker) :=
  match chunk with
  | None => UB NullDeref
  | Some s =>
      let st := match i with O => start0 | _ => Speculate end in
      let tl := match i with O => tl0 | _ => [] end in
      w <- executeWorkerAutomaton d st ct (pj_name pj) (pj_unit pj i) s tl ;;
      Ok (c_string s, w)
  end.
Fixpoint all_threads (d : dfa) (ct : option ctable) (pj : pjunk) (start0 : wstart) (tl0 : list wtuple)
    (i : nat) (chunks : list (option bytes)) : res (list (bytes * worker)) :=
  match chunks with
  | [] => Ok []
  | c :: cs => r <- thread_result d ct pj start0 tl0 i c ;; rs <- all_threads d ct pj start0 tl0 (S i) cs ;; Ok (r :: rs)
  end.

(** JSONQuery/parallel_automata_execution.h:366-404 [executeParallelAutomata]. *)
Definition executeParallelAutomata (d : dfa) (ct : option ctable) (pj : pjunk) (start0 : wstart) (tl0 : list wtuple)
    (chunks : list (option bytes)) : res merged :=
  if MAX_THREAD <? zlen chunks then UB OOBWrite
  else
    rs <- all_threads d ct pj start0 tl0 0 chunks ;;
    match rs with
    | [] => UB UninitRead
    | r :: rs' => combine_all d (pj_name pj) (pj_main pj) r rs'
    end.

(** The tuples of the result; the first thread and the merging phase store texts. *)
Definition plain_tuple (t : wtuple) : res tuple :=
  match w_val t with VText s => Ok (w_state t, s) | VSpan _ _ => UB UninitRead end.

(** path_processor.h:173-179 [StreamingContext], the parts used by parallel
    runs: the major automaton with its tuple list, and the filter. *)
Record pcontext : Type := mkPc { pc_context : bool; pc_main : merged; pc_filter : pfilter }.
Definition init_pcontext : pcontext := mkPc false (mkM [] (mkQs [] None None []) (0, -1) []) (mkF [] [] [] []).

Section ParRun.
  Variable N : numops.
  Variable p : processor.
  Variable ct : option ctable.
  Variable pj : pjunk.

  (** path_processor.h:266-297 [parallelPartialRun] (no table) and 320-351
      [parallelPartialRunOpt].  destroyParallelAutomata releases the tuple list
      and gives the major automaton a new one if [pa.finish_flag], which is never
      set, is INPROGRESS (parallel_automata_execution.h:50-67). *)
  Definition parallelPartialRun (stream : bytes) (num_core : nat) (ci : pcontext) : res (list bytes * pcontext) :=
    chunks <- partitionInputStream stream num_core ;;
    let m0 := pc_main ci in
    let start0 := if pc_context ci then Continue (m_ss m0) (m_qs m0) (m_cur m0) else First in
    m <- executeParallelAutomata (p_dfa p) ct pj start0 (m_tl m0) chunks ;;
    tl <- mapM plain_tuple (m_tl m) ;;
    pf0 <- (if pc_context ci then Ok (pc_filter ci) else initPredicateFilter (p_ctx p)) ;;
    pf1 <- generateFinalOutput N (p_ctx p) pf0 tl ;;
    let tl' := if pj_finish pj =? 0 then [] else m_tl m in
    Ok (f_output pf1, mkPc true (mkM (m_ss m) (m_qs m) (m_cur m) tl') pf1).

  Fixpoint parallel_loop (M X : Z) (file : bytes) (num_core : nat) (fuel : nat) (start : Z) (out : option (list bytes)) (ci : pcontext)
    : res (option (list bytes) * pcontext) :=
    match fuel with
    | O => UB Fuel
    | S fuel' =>
        piece <- loadBounded M X file start ;;
        match piece with
        | None => Ok (out, ci)
        | Some (s, next) =>
            '(o, ci') <- parallelPartialRun s num_core ci ;;
            parallel_loop M X file num_core fuel' next (Some o) ci'
        end
    end.

  (** path_processor.h:299-317 and 353-367.  destroyStreamingContext
      (path_processor.h:187-194) releases nothing of a parallel run but the
      filter, which is unset when the file is empty. *)
  Definition parallel_run (M X : Z) (file : bytes) (num_core : nat) : res (option (list bytes)) :=
    '(o, ci) <- parallel_loop M X file num_core (S (List.length file)) 0 None init_pcontext ;;
    if pc_context ci then Ok o else UB UninitRead.
End ParRun.

(** path_processor.h:299-317 [parallelRun] and 353-367 [parallelRunOpt]. *)
Definition parallelRun (N : numops) (p : processor) (pj : pjunk) (file : bytes) (num_core : nat) : res (option (list bytes)) :=
  parallel_run N p None pj MEMORY_FOOTPRINT MAX_EXTENSION file num_core.
Definition parallelRunOpt (N : numops) (p : processor) (ct : ctable) (pj : pjunk) (file : bytes) (num_core : nat) : res (option (list bytes)) :=
  parallel_run N p (Some ct) pj MEMORY_FOOTPRINT MAX_EXTENSION file num_core.
