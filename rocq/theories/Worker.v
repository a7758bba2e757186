(** Model of the speculative engine of one thread: JSONQuery/multi_stack.h,
    JSONQuery/unit.h, JSONQuery/worker_automaton.[hc]. *)
From Verif Require Import Base Util Lexer Dfa Constraint Stream.
Open Scope Z_scope.

(** JSONQuery/multi_stack.h:9 and JSONQuery/unit.h:8-14. *)
Definition MAX_NODE : Z := 500.
Definition MAX_STATE : Z := 100.
Definition MAX_UNMATCHED_SYMBOL : Z := 100.
Definition MAX_UNIT : Z := 100.

(** JSONQuery/multi_stack.h:17-33 [TreeNode].  [matched_start] is INVALID ([MInv])
    or an offset.  Of [parent_range] only the end is ever read.  None stands for
    fields that nothing has been stored in: the two ranges of nodes made by
    combineQueryStacks, the tuple indexes of nodes made by queryStacksPush.  (C
    would find there what the slot held before; using such a value is undefined
    behaviour in the model.) *)
Record tnode : Type := mkNode {
  t_state : Z;                 (* query_state                          *)
  t_count : Z;                 (* count                                *)
  t_ms    : mstart;            (* matched_start                        *)
  t_pend  : option Z;          (* parent_range.end                     *)
  t_root  : option (Z * Z);    (* root_range                           *)
  t_tup   : option (Z * Z)     (* first_tuple_index, last_tuple_index  *)
}.

(** JSONQuery/multi_stack.h:39-51 [QueryStacks].  [k_nodes] is
    [node[0..num_node)], [k_rp] is [root_pointers[0..num_root_pointers)] and
    [k_item] is [item[0..top_item]] with the top first.  The entries of
    [parent_pointers] are never read outside of printQueryStacks, so only their number is
    kept.  None: the number is indeterminate. *)
Record qstacks : Type := mkQs {
  k_nodes : list tnode;
  k_np    : option Z;
  k_rp    : option (list Z);
  k_item  : list (Z * Z)
}.

(** The value of a tuple: a text (addTuple, tuple_list.h:42-49) or a pair of
    offsets (addVirtualTuple, tuple_list.h:51-58). *)
Inductive wval : Type := VText (s : bytes) | VSpan (b e : Z).
(** JSONQuery/tuple_list.h:9-18 [Tuple]; next_index is -1 at the end. *)
Record wtuple : Type := mkT { w_state : Z; w_val : wval; w_next : Z }.

(** JSONQuery/unit.h:16-21 [UnmatchedSymbol]: the index is only read for RCB and RB. *)
Inductive usym : Type := URcb (i : Z) | URb (i : Z) | UObj | UArr | UPri.

(** JSONQuery/unit.h:23-43 [Unit]; the starting states are never used.  The
    positions are offsets into the chunk, None is NULL; [un_roots] is
    [root_node[0..num_root)]. *)
Record unit_ : Type := mkUnit {
  un_syms   : list usym;
  un_state  : Z;
  un_pruned : bool;
  un_start  : option Z;
  un_end    : option Z;
  un_roots  : list tnode
}.
Definition UNIT_UNMATCHED : Z := 1.
Definition UNIT_MATCHED : Z := 2.

(** unit.h:50-58 [initUnit]: [unit_state] keeps the value it had. *)
Definition initUnit (state : Z) : unit_ := mkUnit [] state false None None [].

(** The integers from [s] to [e], the loops over [qs_elt.start..qs_elt.end]. *)
Definition zseq (s e : Z) : list Z :=
  map (fun k => s + Z.of_nat k) (seq 0 (Z.to_nat (e - s + 1))).

(** Array element update (bounds are checked by the read before it). *)
Definition set_node (q : qstacks) (i : Z) (n : tnode) : qstacks :=
  mkQs (upd (k_nodes q) (Z.to_nat i) n) (k_np q) (k_rp q) (k_item q).

Definition with_tup (n : tnode) (t : Z * Z) : tnode :=
  mkNode (t_state n) (t_count n) (t_ms n) (t_pend n) (t_root n) (Some t).
Definition with_ms (n : tnode) (m : mstart) : tnode :=
  mkNode (t_state n) (t_count n) m (t_pend n) (t_root n) (t_tup n).
Definition with_count (n : tnode) (c : Z) : tnode :=
  mkNode (t_state n) c (t_ms n) (t_pend n) (t_root n) (t_tup n).

(** Reading a field that may never have been written. *)
Definition known {A} (x : option A) : res A :=
  match x with Some a => Ok a | None => UB UninitRead end.

(** JSONQuery/multi_stack.h:53-80 [initQueryStacks]. *)
Definition root_node (s : Z) : tnode := mkNode s 0 MInv (Some (-1)) (Some (0, -1)) (Some (-1, -1)).
Definition initQueryStacks (states : list Z) : qstacks * (Z * Z) :=
  (mkQs (map root_node states) (Some 0) (Some []) [], (0, zlen states - 1)).

(** JSONQuery/multi_stack.h:82-105 [pruneQueryPaths]: keeps the nodes whose
    indexes are the given states. *)
Definition pruneQueryPaths (q : qstacks) (states : list Z) : res (qstacks * (Z * Z)) :=
  match states with
  | [] => Ok (q, (0, zlen (k_nodes q) - 1))
  | _ => ns <- mapM (zread (k_nodes q)) states ;;
         Ok (mkQs ns (k_np q) (k_rp q) (k_item q), (0, zlen states - 1))
  end.

(** The roots of the node with index [i]: itself when its root range is empty,
    otherwise the entries of the range (multi_stack.h:157-170, 290-326). *)
Definition roots_of (q : qstacks) (i : Z) (n : tnode) : res (list Z) :=
  '(s, e) <- known (t_root n) ;;
  if e =? -1 then Ok [i]
  else rp <- known (k_rp q) ;; mapM (zread rp) (zseq s e).

(** [root_range.end == -1]. *)
Definition is_root (n : tnode) : res bool := '(_, e) <- known (t_root n) ;; Ok (e =? -1).

Section Multi.
  Variable d : dfa.

  (** The index tests of multi_stack.h:133-145: no lower bound at a root. *)
  Definition in_range_at (root : bool) (state count : Z) : res bool :=
    '(lower, upper) <- getDFAArrayIndex d state ;;
    Ok (((lower =? 0) && (upper =? 0))
        || (if root then count <? upper else (lower <=? count) && (count <? upper))).

  (** The next state of one node, multi_stack.h:127-145. *)
  Definition next_at (root : bool) (state count : Z) (input : option bytes) : res Z :=
    r <- in_range_at root state count ;;
    if r : bool then dfaNextStateByStr d state input else Ok 0.

  (** The temporary arrays [parent_pointer] and [root_pointer] of
      multi_stack.h:121-125 with the nodes made so far: for every new state the
      number of its parents and its roots.  (The states of a level are distinct,
      so that an array indexed by state and a list of pairs are the same.)
      multi_stack.h:147-199. *)
  Fixpoint add_target (acc : list (Z * (Z * list Z))) (s : Z) (rs : list Z) : list (Z * (Z * list Z)) :=
    match acc with
    | [] => [(s, (1, rs))]
    | (s', (np, rs')) :: acc' =>
        if s' =? s then (s', (np + 1, rs' ++ rs)) :: acc'
        else (s', (np, rs')) :: add_target acc' s rs
    end.

  (** multi_stack.h:126-200: the loop over the current nodes. *)
  Definition push_targets (q : qstacks) (cur : Z * Z) (input : option bytes) : res (list (Z * (Z * list Z))) :=
    foldM (fun acc i =>
             n <- zread (k_nodes q) i ;;
             root <- is_root n ;;
             s <- next_at root (t_state n) (t_count n) input ;;
             rs <- roots_of q i n ;;
             Ok (add_target acc s rs)) (zseq (fst cur) (snd cur)) [].

  (** multi_stack.h:202-220: the new nodes with their ranges. *)
  Fixpoint new_nodes (acc : list (Z * (Z * list Z))) (np nr : Z) : list tnode :=
    match acc with
    | [] => []
    | (s, (p, rs)) :: acc' =>
        mkNode s 0 MInv (Some (np + p - 1)) (Some (nr, nr + zlen rs - 1)) None
        :: new_nodes acc' (np + p) (nr + zlen rs)
    end.

  (** JSONQuery/multi_stack.h:107-223 [queryStacksPush].  The arrays node,
      parent_pointers and root_pointers hold MAX_NODE entries, item MAX_STACK. *)
  Definition queryStacksPush (q : qstacks) (cur : Z * Z) (input : option bytes) : res (qstacks * (Z * Z)) :=
    if Z.of_nat MAX_STACK <=? zlen (k_item q) then UB OOBWrite
    else
      acc <- push_targets q cur input ;;
      np <- known (k_np q) ;;
      rp <- known (k_rp q) ;;
      let np' := np + fold_right (fun a n => fst (snd a) + n) 0 acc in
      let rp' := rp ++ flat_map (fun a => snd (snd a)) acc in
      let nodes' := k_nodes q ++ new_nodes acc np (zlen rp) in
      if (MAX_NODE <? zlen nodes') || (MAX_NODE <? np') || (MAX_NODE <? zlen rp') then UB OOBWrite
      else Ok (mkQs nodes' (Some np') (Some rp') (cur :: k_item q),
               (snd cur + 1, zlen nodes' - 1)).

  (** JSONQuery/multi_stack.h:226-241 [queryStacksPop].  On an empty stack C
      returns an element whose start is indeterminate; all callers use it.  Where
      the ranges of the node are indeterminate, so are count_pp (None) and count_rp;
      root_pointers keeps its entries, and a push, which needs both counts, stops at
      the unknown count_pp. *)
  Definition queryStacksPop (q : qstacks) : res (qstacks * (Z * Z)) :=
    match k_item q with
    | [] => UB UninitRead
    | top :: rest =>
        n <- zread (k_nodes q) (snd top) ;;
        let np := match t_pend n with Some e => Some (e + 1) | None => None end in
        let rp := match t_root n with
                  | Some (_, e) => match k_rp q with Some rp => Some (firstn (Z.to_nat (e + 1)) rp) | None => None end
                  | None => k_rp q
                  end in
        Ok (mkQs (firstn (Z.to_nat (snd top + 1)) (k_nodes q)) np rp rest, top)
    end.

  (** JSONQuery/multi_stack.h:290-305: one tuple for one root.  A text is copied
      into MAX_TEXT bytes (tuple_list.h:47), offsets are only stored. *)
  Definition store_tuple (tl : list wtuple) (state : Z) (v : wval) : res (list wtuple) :=
    if MAX_TUPLE_LIST <=? zlen tl then UB OOBWrite
    else match v with
         | VText s => t <- strcopy MAX_TEXT s ;; Ok (tl ++ [mkT state (VText t) (-1)])
         | VSpan b e => Ok (tl ++ [mkT state (VSpan b e) (-1)])
         end.
  (** JSONQuery/tuple_list.h:60-63 [linkTuples]. *)
  Definition linkTuples (tl : list wtuple) (i next : Z) : res (list wtuple) :=
    t <- zread tl i ;; Ok (upd tl (Z.to_nat i) (mkT (w_state t) (w_val t) next)).
  Definition add_for_root (state : Z) (v : wval) (st : qstacks * list wtuple) (r : Z) : res (qstacks * list wtuple) :=
    let '(q, tl) := st in
    n <- zread (k_nodes q) r ;;
    '(f, l) <- known (t_tup n) ;;
    tl1 <- store_tuple tl state v ;;
    let i := zlen tl1 - 1 in
    if 0 <=? f
    then tl2 <- linkTuples tl1 l i ;; Ok (set_node q r (with_tup n (f, i)), tl2)
    else Ok (set_node q r (with_tup n (i, i)), tl1).

  (** JSONQuery/multi_stack.h:283-326 [addTupleInfo] and 329-372
      [addVirtualTupleInfo], which differ in the value only. *)
  Definition addTupleInfo (i state : Z) (v : wval) (st : qstacks * list wtuple) : res (qstacks * list wtuple) :=
    n <- zread (k_nodes (fst st)) i ;;
    rs <- roots_of (fst st) i n ;;
    foldM (add_for_root state v) rs st.

  (** worker_automaton.c:3-4 and 12-45 [getMatchedType]. *)
  Definition DFA_INCOMPLETE_INDEX : Z := 4.
  Definition DFA_UNSELECTED_CANDIDATE : Z := 5.
  Definition matchedType (root : bool) (state count : Z) : res Z :=
    m <- getDFAAcceptType d state ;;
    '(lower, upper) <- getDFAArrayIndex d state ;;
    let free := (lower =? 0) && (upper =? 0) in
    if m =? DFA_OUTPUT_CANDIDATE
    then if root
         then if negb (free || (count <? upper)) then Ok 0
              else if negb free then Ok DFA_UNSELECTED_CANDIDATE else Ok m
         else if negb (free || ((lower <=? count) && (count <? upper))) then Ok 0 else Ok m
    else if root
         then if negb (free || (count <? upper)) then Ok 0
              else if negb free then Ok DFA_INCOMPLETE_INDEX else Ok m
         else Ok m.

  (** What the body of one of the loops of worker_automaton.c does to the node
      with index [i]: [f] gets the flag and the fields state, count and
      matched_start, and returns the new count and matched_start and the value
      handed to addTupleInfo, if any. *)
  Definition loop_body := bool -> elt -> res (elt * option wval).
  Definition visit (f : loop_body) (st : qstacks * list wtuple) (i : Z) : res (qstacks * list wtuple) :=
    n <- zread (k_nodes (fst st)) i ;;
    root <- is_root n ;;
    '(e, out) <- f root (mkElt (t_state n) (t_count n) (t_ms n)) ;;
    '(q, tl) <- match out with
                | Some v => addTupleInfo i (t_state n) v st
                | None => Ok st
                end ;;
    n' <- zread (k_nodes q) i ;;
    Ok (set_node q i (with_ms (with_count n' (q_count e)) (q_ms e)), tl).
  Definition each (f : loop_body) (cur : Z * Z) (st : qstacks * list wtuple) : res (qstacks * list wtuple) :=
    foldM (visit f) (zseq (fst cur) (snd cur)) st.

  (** ** The loops *)
  Variable id0 : bool.   (* wa->id == 0 *)

  (** [matched_type==DFA_OUTPUT_CANDIDATE || (wa->id>0 && matched_type==DFA_UNSELECTED_CANDIDATE)] *)
  Definition selects (m : Z) : bool :=
    (m =? DFA_OUTPUT_CANDIDATE) || (negb id0 && (m =? DFA_UNSELECTED_CANDIDATE)).

  (** worker_automaton.c:176-194 (case LCB). *)
  Definition on_lcb (next : Z) : loop_body := fun root e =>
    m <- matchedType root (q_state e) (q_count e) ;;
    if selects m then Ok (set_ms e (MAt (next - 1)), None)
    else if m =? DFA_PREDICATE then Ok (e, Some (VText (B "{")))
    else if m =? DFA_CONDITION then Ok (e, Some (VText []))
    else Ok (e, None).

  (** worker_automaton.c:205-223 (case RCB) and 387-410 (case RB): the matched
      container; [rb] tells which. *)
  Definition on_close (rb : bool) (buf : bytes) (next : Z) : loop_body := fun root e =>
    s <- ms_set (q_ms e) ;;
    match s with
    | None => Ok (e, None)
    | Some start =>
        m <- matchedType root (q_state e) (q_count e) ;;
        if selects m then
          (if id0 then txt <- substring buf 0 start next ;; Ok (set_ms e MInv, Some (VText txt))
           else Ok (set_ms e MInv, Some (VSpan start next)))
        else if rb && (m =? DFA_INCOMPLETE_INDEX) then Ok (e, Some (VText (B "]")))
        else Ok (e, None)
    end.

  (** worker_automaton.c:277-297 and 314-333 (case RCB in an array);
      [base]: the first of the two.  The matched type is that of the copy made
      before the counter is increased. *)
  Definition on_elt_close (base : bool) : loop_body := fun root e =>
    m <- matchedType root (q_state e) (q_count e) ;;
    Ok (incr e, if (m =? DFA_PREDICATE) || (base && (m =? DFA_INCOMPLETE_INDEX)) then Some (VText (B "}")) else None).

  (** worker_automaton.c:358-373 (case LB). *)
  Definition on_lb (next : Z) : loop_body := fun root e =>
    m <- matchedType root (q_state e) (q_count e) ;;
    if selects m then Ok (set_ms e (MAt (next - 1)), None)
    else if m =? DFA_CONDITION then Ok (e, Some (VText []))
    else Ok (e, None).

  (** worker_automaton.c:436-445 and 464-473: counting only. *)
  Definition on_count : loop_body := fun _ e => Ok (incr e, None).

  (** worker_automaton.c:530-543 and 578-589 (case PRI); [count]: whether the
      element is counted. *)
  Definition on_pri (count : bool) (s : bytes) : loop_body := fun root e =>
    m <- matchedType root (q_state e) (q_count e) ;;
    Ok (if count then incr e else e,
        if selects m || (m =? DFA_CONDITION) then Some (VText s) else None).

  (** ** The transitions *)
  (** The local variables of executeWorkerAutomaton. *)
  Record wstate : Type := mkW {
    ws_ss     : list sym;
    ws_shadow : list sym;
    ws_qs     : qstacks;
    ws_cur    : Z * Z;
    ws_tl     : list wtuple;
    ws_units  : list unit_;     (* wa->unit_list, in order *)
    ws_unit   : unit_
  }.

  (** The states used by automata resetting (query_state, num_query_state);
      None: not set (worker_automaton.c:127-132). *)
  Variable start_states : option (list Z).
  (** The constraint table; None: constraint_flag is CLOSE. *)
  Variable ct : option ctable.
  Variable junk : bytes.
  (** [lexer.begin_stream]. *)
  Variable buf : bytes.

  (** worker_automaton.c:48-113 [syntaxStackInference] on the next two tokens;
      [n] is the size of the syntax stack, the result is added to the shadow
      stack (top first). *)
  Definition inference (closing : token) (t1 t2 : token) (n : nat) : list sym :=
    let val := match t1, t2 with TRCB, _ => true | TCOM, TKY _ => true | _, _ => false end in
    match closing with
    | TRCB =>
        let none := match t1 with TLCB | TEND => true | _ => false end in
        if Nat.eqb n 1 then if val then [SKY] else if none then [] else [SLB]
        else if Nat.eqb n 0 then if val then [SLCB; SKY] else if none then [SLCB] else [SLCB; SLB]
        else []
    | TRB =>
        let none := match t1 with TLB | TEND => true | _ => false end in
        if Nat.eqb n 1 then if val then [SKY] else if none then [] else [SLB]
        else if Nat.eqb n 0 then if val then [SLB; SKY] else if none then [SLB] else [SLB; SLB]
        else []
    | TPRI _ => if val then [SKY] else [SLB]
    | _ => []
    end.

  (** The next two tokens of the copy of the lexer; END is repeated. *)
  Definition look (rest : list event) : token * token :=
    match rest with
    | [] => (TEND, TEND)
    | [e1] => (e_tok e1, TEND)
    | e1 :: e2 :: _ => (e_tok e1, e_tok e2)
    end.

  (** The copy of the lexer shares the content buffer (lexing.h:28, the struct is copied
      at worker_automaton.c:550), so looking ahead replaces the text of the
      current token by that of the last key or primitive seen. *)
  Definition clobber (s : bytes) (t : token) : bytes :=
    match t with TKY k => k | TPRI p => p | _ => s end.

  (** unit.h:72-81, 94-101. *)
  Definition started (u : unit_) (pos : Z) : unit_ :=
    if un_state u =? UNIT_MATCHED then u
    else mkUnit (un_syms u) UNIT_MATCHED (un_pruned u) (Some pos) (un_end u) (un_roots u).
  Definition addUnmatchedSymbol (u : unit_) (s : usym) : res unit_ :=
    if MAX_UNMATCHED_SYMBOL <=? zlen (un_syms u) then UB OOBWrite
    else Ok (mkUnit (un_syms u ++ [s]) UNIT_UNMATCHED (un_pruned u) (un_start u) (un_end u) (un_roots u)).
  Definition set_pruned (u : unit_) : unit_ :=
    mkUnit (un_syms u) (un_state u) true (un_start u) (un_end u) (un_roots u).
  (** unit.h:104-111 [addRoots], 113-118 [addUnit]. *)
  Definition addRoots (u : unit_) (rs : list tnode) (pos : Z) : res unit_ :=
    if MAX_STATE <? zlen rs then UB OOBWrite
    else Ok (mkUnit (un_syms u) (un_state u) (un_pruned u) (un_start u) (Some pos) rs).
  Definition addUnit (ul : list unit_) (u : unit_) : res (list unit_) :=
    if MAX_UNIT <=? zlen ul then UB OOBWrite else Ok (ul ++ [u]).

  (** An unmatched symbol, e.g. worker_automaton.c:225-243: a unit that has
      begun is closed and the automaton is reset. *)
  Definition unmatched (pos : Z) (s : usym) (w : wstate) : res wstate :=
    w1 <- (if un_state (ws_unit w) =? UNIT_MATCHED
           then u <- addRoots (ws_unit w) (k_nodes (ws_qs w)) pos ;;
                ul <- addUnit (ws_units w) u ;;
                states <- known start_states ;;
                let '(q, cur) := initQueryStacks states in
                Ok (mkW [] [] q cur (ws_tl w) ul (initUnit (un_state u)))
           else Ok w) ;;
    u <- addUnmatchedSymbol (ws_unit w1) s ;;
    Ok (mkW (ws_ss w1) (ws_shadow w1) (ws_qs w1) (ws_cur w1) (ws_tl w1) (ws_units w1) u).

  Definition with_loop (w : wstate) (st : qstacks * list wtuple) : wstate :=
    mkW (ws_ss w) (ws_shadow w) (fst st) (ws_cur w) (snd st) (ws_units w) (ws_unit w).
  Definition with_ss (w : wstate) (ss : list sym) : wstate :=
    mkW ss (ws_shadow w) (ws_qs w) (ws_cur w) (ws_tl w) (ws_units w) (ws_unit w).
  Definition with_shadow (w : wstate) (sh : list sym) : wstate :=
    mkW (ws_ss w) sh (ws_qs w) (ws_cur w) (ws_tl w) (ws_units w) (ws_unit w).
  Definition with_qs (w : wstate) (qc : qstacks * (Z * Z)) : wstate :=
    mkW (ws_ss w) (ws_shadow w) (fst qc) (snd qc) (ws_tl w) (ws_units w) (ws_unit w).
  Definition with_unit (w : wstate) (u : unit_) : wstate :=
    mkW (ws_ss w) (ws_shadow w) (ws_qs w) (ws_cur w) (ws_tl w) (ws_units w) u.

  Definition loop (f : loop_body) (cur : Z * Z) (w : wstate) : res wstate :=
    st <- each f cur (ws_qs w, ws_tl w) ;; Ok (with_loop w st).
  (** ... over the current nodes. *)
  Definition loop_cur (f : loop_body) (w : wstate) : res wstate := loop f (ws_cur w) w.
  Definition pop_query (w : wstate) : res wstate := qc <- queryStacksPop (ws_qs w) ;; Ok (with_qs w qc).

  (** The shadow stack is filled when it is empty, e.g. worker_automaton.c:247-251. *)
  Definition infer (t : token) (rest : list event) (w : wstate) : wstate :=
    match ws_shadow w with
    | [] => let '(t1, t2) := look rest in with_shadow w (inference t t1 t2 (List.length (ws_ss w)))
    | _ => w
    end.

  (** case LCB, worker_automaton.c:166-196. *)
  Definition w_lcb (ev : event) (w : wstate) : res wstate :=
    let w := with_unit w (started (ws_unit w) (e_start ev - 1)) in
    loop_cur (on_lcb (e_next ev)) (with_ss w (push (ws_ss w) SLCB)).

  (** case RCB, worker_automaton.c:197-337. *)
  Definition w_rcb (ev : event) (rest : list event) (w : wstate) : res wstate :=
    match ws_ss w with
    | [] => unmatched (e_start ev - 1) (URcb (e_next ev - 1)) w
    | _ =>
        w <- loop_cur (on_close false buf (e_next ev)) w ;;
        match ws_ss w with
        | [_] =>
            let w := infer TRCB rest w in
            match ss_top (ws_shadow w) with
            | None => Ok (with_ss w (ss_pop (ws_ss w)))
            | Some SKY => unmatched (e_start ev - 1) UObj w
            | Some SLB => loop_cur (on_elt_close true) (with_ss w (ss_pop (ws_ss w)))
            | Some SLCB => Ok w
            end
        | _ :: SKY :: ss' => pop_query (with_ss w ss')
        | _ :: SLB :: ss' => loop_cur (on_elt_close false) (with_ss w (SLB :: ss'))
        | _ => Ok w
        end
    end.

  (** The pruning of worker_automaton.c:345-356 and 498-511. *)
  Definition prune (k : ckey) (w : wstate) : res wstate :=
    match ct with
    | Some t =>
        if id0 || un_pruned (ws_unit w) then Ok w
        else
          let w' := with_unit w (set_pruned (ws_unit w)) in
          _ <- (match k with CKey n => strcopy MAX_KEY_TEXT n | CArr => Ok [] end) ;;
          match updateStateInfo junk t k with
          | Some (s :: l) => qc <- pruneQueryPaths (ws_qs w) (s :: l) ;; Ok (with_qs w' qc)
          | _ => Ok w'
          end
    | None => Ok w
    end.

  (** case LB, worker_automaton.c:338-377. *)
  Definition w_lb (ev : event) (w : wstate) : res wstate :=
    let w := with_unit w (started (ws_unit w) (e_start ev - 1)) in
    w <- prune CArr w ;;
    w <- loop_cur (on_lb (e_next ev)) w ;;
    qc <- queryStacksPush (ws_qs w) (ws_cur w) None ;;
    Ok (with_qs (with_ss w (push (ws_ss w) SLB)) qc).

  (** case RB, worker_automaton.c:378-491. *)
  Definition w_rb (ev : event) (rest : list event) (w : wstate) : res wstate :=
    match ws_ss w with
    | [] => unmatched (e_start ev - 1) (URb (e_next ev - 1)) w
    | _ =>
        (* an empty query stack: queryStacksTop returns an element with an
           indeterminate start *)
        top <- match k_item (ws_qs w) with t :: _ => Ok t | [] => UB UninitRead end ;;
        w <- loop (on_close true buf (e_next ev)) top w ;;
        match ws_ss w with
        | [_] =>
            let w := infer TRB rest w in
            match ss_top (ws_shadow w) with
            | None => pop_query (with_ss w (ss_pop (ws_ss w)))
            | Some SKY => unmatched (e_start ev - 1) UArr w
            | Some SLB =>
                w <- pop_query (with_ss w (ss_pop (ws_ss w))) ;;
                loop_cur on_count w
            | Some SLCB => Ok w
            end
        | _ :: SKY :: ss' => w <- pop_query (with_ss w ss') ;; pop_query w
        | _ :: SLB :: ss' =>
            w <- pop_query (with_ss w (SLB :: ss')) ;;
            loop_cur on_count w
        | _ => Ok w
        end
    end.

  (** case KY, worker_automaton.c:494-514. *)
  Definition w_ky (ev : event) (k : bytes) (w : wstate) : res wstate :=
    let w := with_unit w (started (ws_unit w) (e_start ev - 1)) in
    w <- match k_item (ws_qs w) with [] => prune (CKey k) w | _ => Ok w end ;;
    qc <- queryStacksPush (ws_qs w) (ws_cur w) (Some k) ;;
    Ok (with_qs (with_ss w (push (ws_ss w) SKY)) qc).

  (** case PRI, worker_automaton.c:515-592. *)
  Definition w_pri (ev : event) (s : bytes) (rest : list event) (w : wstate) : res wstate :=
    match ss_top (ws_ss w) with
    | Some top =>
        w <- loop_cur (on_pri (match top with SLB => true | _ => false end) s) w ;;
        match top with
        | SKY => pop_query (with_ss w (ss_pop (ws_ss w)))
        | _ => Ok w
        end
    | None =>
        let s := match ws_shadow w with
                 | [] => let '(t1, t2) := look rest in clobber (clobber s t1) t2
                 | _ => s
                 end in
        let w := infer (TPRI s) rest w in
        match ss_top (ws_shadow w) with
        | Some SKY => unmatched (e_start ev - 1) UPri w
        | Some SLB =>
            let u := ws_unit w in
            let w := with_unit w (if un_state u =? UNIT_MATCHED then u
                                  else mkUnit (un_syms u) UNIT_MATCHED (un_pruned u) (un_start u) (un_end u) (un_roots u)) in
            loop_cur (on_pri true s) w
        | _ => Ok w
        end
    end.

  (** One iteration of the loop, worker_automaton.c:162-596; [rest] are the
      tokens to come. *)
  Definition worker_step (ev : event) (rest : list event) (w : wstate) : res wstate :=
    match e_tok ev with
    | TLCB => w_lcb ev w
    | TRCB => w_rcb ev rest w
    | TLB => w_lb ev w
    | TRB => w_rb ev rest w
    | TCOM => Ok w
    | TKY k => w_ky ev k w
    | TPRI s => w_pri ev s rest w
    | TEND => Ok w
    end.
  Fixpoint worker_loop (evs : list event) (w : wstate) : res wstate :=
    match evs with
    | [] => Ok w
    | ev :: rest => w' <- worker_step ev rest w ;; worker_loop rest w'
    end.

  (** worker_automaton.c:597-614: the last unit; its roots are the nodes of the
      lowest level.  (num_node is never 0 here.) *)
  Definition last_unit (w : wstate) : res (list unit_) :=
    let lowest := last (k_item (ws_qs w)) (ws_cur w) in
    rs <- mapM (zread (k_nodes (ws_qs w))) (zseq (fst lowest) (snd lowest)) ;;
    u <- addRoots (ws_unit w) rs (zlen buf) ;;
    addUnit (ws_units w) u.
End Multi.

(** JSONQuery/worker_automaton.h:29-50 [WorkerAutomaton]: what a run leaves. *)
Record worker : Type := mkWorker {
  wa_ss    : list sym;
  wa_qs    : qstacks;
  wa_cur   : Z * Z;
  wa_units : list unit_;
  wa_tl    : list wtuple
}.

(** How executeWorkerAutomaton starts (worker_automaton.c:127-150). *)
Inductive wstart : Type :=
| Continue (ss : list sym) (qs : qstacks) (cur : Z * Z)  (* REPROCESS, or thread 0 in a later load *)
| First                                                   (* thread 0 *)
| Speculate.                                              (* the other threads *)

(** JSONQuery/worker_automaton.c:115-623 [executeWorkerAutomaton] of a worker
    with the given tuple list; [ju] is what the never initialised field
    unit_state of its first unit holds. *)
Definition executeWorkerAutomaton (d : dfa) (st : wstart) (ct : option ctable) (junk : bytes) (ju : Z)
    (stream : bytes) (tl : list wtuple) : res worker :=
  let id0 := match st with Speculate => false | _ => true end in
  let states := match st with
                | Continue _ _ _ => None
                | First => Some [1]
                | Speculate => Some (map Z.of_nat (seq 0 (List.length (d_accept d))))
                end in
  if match states with Some l => MAX_STATE <? zlen l | None => false end then UB OOBWrite
  else
    let '(ss, (q, cur)) := match st, states with
                           | Continue ss q cur, _ => (ss, (q, cur))
                           | _, Some l => ([], initQueryStacks l)
                           | _, None => ([], initQueryStacks [])
                           end in
    evs <- lex_all stream ;;
    let buf := c_string stream in
    w <- worker_loop d id0 states ct junk buf evs (mkW ss [] q cur tl [] (initUnit ju)) ;;
    ul <- last_unit buf w ;;
    Ok (mkWorker (ws_ss w) (ws_qs w) (ws_cur w) ul (ws_tl w)).
