(** Model of the serial engine (JSONQuery/streaming_automaton.c) on the arrays of
    Cells.v: the two stacks and the tuple list are as they are in memory.  Stream.v has
    lists in their place; CellEngineProof.v relates the two. *)
From Verif Require Import Base Util Lexer Dfa Stream Cells.
Open Scope Z_scope.

(** JSONQuery/streaming_automaton.h:15-31. *)
Record acore : Type := mkA { a_ss : astack sym; a_qs : astack elt; a_cur : elt; a_tl : tlist }.
(** JSONQuery/streaming_automaton.h:34-47 [initStreamingAutomaton]; the arguments are
    what the memory held. *)
Definition initAutomaton_c (j1 : list sym) (j2 : list elt) (j3 : list tcell) : acore :=
  mkA (initStack j1) (initStack j2) (mkElt 1 0 MInv) (initTupleList j3).
(** JSONQuery/stack.h:70-85 [queryStackPop], 108-119 [queryStackTop]. *)
Definition pop_elt (st : astack elt) : res (elt * astack elt) :=
  '(o, st') <- stackPop st ;; Ok (match o with Some e => e | None => mkElt (-1) 0 MUninit end, st').
Definition top_elt (st : astack elt) : res elt :=
  o <- stackTop st ;; Ok (match o with Some e => e | None => mkElt (-1) 0 MInv end).
(** JSONQuery/stack.h:55-67 [syntaxStackPop]. *)
Definition pop_sym (st : astack sym) : res (astack sym) := '(_, st') <- stackPop st ;; Ok st'.

Section Engine.
  Variable d : dfa.

  (** streaming_automaton.c:187-193 and 250-256. *)
  Definition emit_a (buf : bytes) (e : elt) (position : Z) (tl : tlist) : res (tlist * bool) :=
    s <- ms_set (q_ms e) ;;
    match s with
    | None => Ok (tl, false)
    | Some start =>
        m <- getMatchedType d e ;;
        if m =? DFA_OUTPUT_CANDIDATE
        then txt <- substring buf 0 start position ;; tl' <- addTuple_c tl (q_state e) txt ;; Ok (tl', true)
        else Ok (tl, false)
    end.
  (** streaming_automaton.c:167-184, 41-44 [obj_s]. *)
  Definition lcb_a (next : Z) (a : acore) : res acore :=
    ss <- stackPush (a_ss a) SLCB ;;
    let e := a_cur a in
    m <- getMatchedType d e ;;
    if m =? DFA_OUTPUT_CANDIDATE then Ok (mkA ss (a_qs a) (set_ms e (MAt (next - 1))) (a_tl a))
    else if m =? DFA_PREDICATE then tl <- addTuple_c (a_tl a) (q_state e) (B "{") ;; Ok (mkA ss (a_qs a) e tl)
    else if m =? DFA_CONDITION then tl <- addTuple_c (a_tl a) (q_state e) [] ;; Ok (mkA ss (a_qs a) e tl)
    else Ok (mkA ss (a_qs a) e (a_tl a)).
  (** streaming_automaton.c:185-218, 46-61 [obj_e], [val_obj_e], [elt_obj_e]. *)
  Definition rcb_a (buf : bytes) (next : Z) (a : acore) : res acore :=
    '(tl, emitted) <- emit_a buf (a_cur a) next (a_tl a) ;;
    let e := if emitted : bool then set_ms (a_cur a) MInv else a_cur a in
    if stackSize (a_ss a) =? 1 then ss <- pop_sym (a_ss a) ;; Ok (mkA ss (a_qs a) e tl)
    else if 1 <? stackSize (a_ss a) then
      second <- stackSecondTop (a_ss a) ;;
      match second with
      | Some SKY =>
          '(e', qs) <- pop_elt (a_qs a) ;; ss1 <- pop_sym (a_ss a) ;; ss2 <- pop_sym ss1 ;; Ok (mkA ss2 qs e' tl)
      | Some SLB =>
          ss <- pop_sym (a_ss a) ;;
          let e' := incr e in
          m <- getMatchedType d e' ;;
          if m =? DFA_PREDICATE then tl' <- addTuple_c tl (q_state e') (B "}") ;; Ok (mkA ss (a_qs a) e' tl')
          else Ok (mkA ss (a_qs a) e' tl)
      | _ => Ok (mkA (a_ss a) (a_qs a) e tl)
      end
    else Ok (mkA (a_ss a) (a_qs a) e tl).
  (** streaming_automaton.c:219-244 without the constraint part, 63-83 [ary_s]. *)
  Definition lb_a (next : Z) (a : acore) : res acore :=
    let e := a_cur a in
    m <- getMatchedType d e ;;
    '(e', tl) <-
      (if m =? DFA_OUTPUT_CANDIDATE then Ok (set_ms e (MAt (next - 1)), a_tl a)
       else if m =? DFA_CONDITION then tl <- addTuple_c (a_tl a) (q_state e) [] ;; Ok (e, tl)
       else Ok (e, a_tl a)) ;;
    ss <- stackPush (a_ss a) SLB ;;
    qs <- stackPush (a_qs a) e' ;;
    n <- next_elt d e' None ;;
    Ok (mkA ss qs n tl).
  (** streaming_automaton.c:245-278, 85-104 [ary_e], [val_ary_e], [elt_ary_e]. *)
  Definition rb_a (buf : bytes) (next : Z) (a : acore) : res acore :=
    if 1 <=? stackSize (a_ss a) then
      top <- top_elt (a_qs a) ;;
      '(tl, _) <- emit_a buf top next (a_tl a) ;;
      if stackSize (a_ss a) =? 1 then
        '(e, qs) <- pop_elt (a_qs a) ;; ss <- pop_sym (a_ss a) ;; Ok (mkA ss qs e tl)
      else
        second <- stackSecondTop (a_ss a) ;;
        match second with
        | Some SKY =>
            '(_, qs) <- pop_elt (a_qs a) ;; '(e, qs') <- pop_elt qs ;;
            ss1 <- pop_sym (a_ss a) ;; ss2 <- pop_sym ss1 ;; Ok (mkA ss2 qs' e tl)
        | Some SLB => '(e, qs) <- pop_elt (a_qs a) ;; ss <- pop_sym (a_ss a) ;; Ok (mkA ss qs (incr e) tl)
        | _ => Ok (mkA (a_ss a) (a_qs a) (a_cur a) tl)
        end
    else Ok a.
  (** streaming_automaton.c:281-295 without the constraint part, 106-125 [key]. *)
  Definition ky_a (k : bytes) (a : acore) : res acore :=
    ss <- stackPush (a_ss a) SKY ;;
    qs <- stackPush (a_qs a) (a_cur a) ;;
    n <- next_elt d (a_cur a) (Some k) ;;
    Ok (mkA ss qs n (a_tl a)).
  (** streaming_automaton.c:296-319, 127-131 [val_pmt]. *)
  Definition pri_a (s : bytes) (a : acore) : res acore :=
    if 1 <=? stackSize (a_ss a) then
      let e := a_cur a in
      m <- getMatchedType d e ;;
      tl <- (if m =? DFA_OUTPUT_CANDIDATE then addTuple_c (a_tl a) (q_state e) s
             else if m =? DFA_CONDITION then addTuple_c (a_tl a) (q_state e) s else Ok (a_tl a)) ;;
      top <- stackTop (a_ss a) ;;
      match top with
      | Some SKY => '(e', qs) <- pop_elt (a_qs a) ;; ss <- pop_sym (a_ss a) ;; Ok (mkA ss qs e' tl)
      | Some SLB => Ok (mkA (a_ss a) (a_qs a) (incr e) tl)
      | _ => Ok (mkA (a_ss a) (a_qs a) e tl)
      end
    else Ok a.
  (** One iteration of the loop of streaming_automaton.c:163-323. *)
  Definition step_a (buf : bytes) (a : acore) (ev : event) : res acore :=
    match e_tok ev with
    | TLCB => lcb_a (e_next ev) a
    | TRCB => rcb_a buf (e_next ev) a
    | TLB => lb_a (e_next ev) a
    | TRB => rb_a buf (e_next ev) a
    | TKY k => ky_a k a
    | TPRI s => pri_a s a
    | TCOM | TEND => Ok a
    end.
  (** JSONQuery/streaming_automaton.c:132-330 [executeAutomaton] with
      [data_constraint_flag] CLOSE. *)
  Definition executeAutomaton_c (stream : bytes) (a : acore) : res acore :=
    evs <- lex_all stream ;; foldM (step_a (c_string stream)) evs a.
End Engine.
