(** Model of the serial engine: JSONQuery/stack.h, JSONQuery/tuple_list.h and
    JSONQuery/streaming_automaton.[hc]. *)
From Verif Require Import Base Util Lexer Dfa Constraint.
Open Scope Z_scope.

(** JSONQuery/stack.h:6. *)
Definition MAX_STACK : nat := 100.

(** Symbols on the syntax stack (LCB, LB and KY are the only ones pushed). *)
Inductive sym : Type := SLCB | SLB | SKY.

(** [matched_start] (stack.h:12): INVALID, an offset, or the indeterminate value
    of the element that [queryStackPop] returns on an empty stack
    (stack.h:79-82 leaves the field unset). *)
Inductive mstart : Type := MInv | MAt (z : Z) | MUninit.

(** JSONQuery/stack.h:9-13 [QueryStackElement]. *)
Record elt : Type := mkElt { q_state : Z; q_count : Z; q_ms : mstart }.

(** JSONQuery/stack.h:37-44 and 46-53: a push on a full stack does nothing.
    Stacks are lists with the top first. *)
Definition push {A} (st : list A) (x : A) : list A :=
  if Nat.ltb (List.length st) MAX_STACK then x :: st else st.

(** JSONQuery/stack.h:55-67 [syntaxStackPop] (the result is never used). *)
Definition ss_pop (st : list sym) : list sym := tl st.

(** JSONQuery/stack.h:88-95 and 98-105; [None] is INVALID. *)
Definition ss_top (st : list sym) : option sym := nth_error st 0.
Definition ss_second (st : list sym) : option sym := nth_error st 1.

(** JSONQuery/stack.h:70-85 [queryStackPop]. *)
Definition qs_pop (st : list elt) : elt * list elt :=
  match st with
  | e :: st' => (e, st')
  | [] => (mkElt (-1) 0 MUninit, [])
  end.

(** JSONQuery/stack.h:108-119 [queryStackTop]. *)
Definition qs_top (st : list elt) : elt :=
  match st with e :: _ => e | [] => mkElt (-1) 0 MInv end.

(** JSONQuery/tuple_list.h:6-7 and 42-49 [addTuple]. *)
Definition MAX_TUPLE_LIST : Z := 5000000.
Definition MAX_TEXT : Z := 1000.
Definition tuple := (Z * bytes)%type.
Definition addTuple (tl : list tuple) (state : Z) (txt : bytes) : res (list tuple) :=
  if MAX_TUPLE_LIST <=? zlen tl then UB OOBWrite
  else t <- strcopy MAX_TEXT txt ;; Ok (tl ++ [(state, t)]).

(** The running state of the automaton (streaming_automaton.h:15-31). *)
Record core : Type := mkCore {
  c_ss  : list sym;     (* syntax_stack                          *)
  c_qs  : list elt;     (* query_stack                           *)
  c_cur : elt;          (* query_state, count, matched_start     *)
  c_tl  : list tuple    (* tuple_list                            *)
}.

(** JSONQuery/streaming_automaton.h:34-47 [initStreamingAutomaton]. *)
Definition init_core : core := mkCore [] [] (mkElt 1 0 MInv) [].

Section Engine.
  Variable d : dfa.

  (** The index test used at streaming_automaton.c:25,74,115,240,291. *)
  Definition in_range (e : elt) : res bool :=
    '(lower, upper) <- getDFAArrayIndex d (q_state e) ;;
    Ok (((lower =? 0) && (upper =? 0))
        || ((lower <=? q_count e) && (q_count e <? upper))).

  (** JSONQuery/streaming_automaton.c:14-31 [getMatchedType]. *)
  Definition getMatchedType (e : elt) : res Z :=
    m <- getDFAAcceptType d (q_state e) ;;
    if m =? DFA_OUTPUT_CANDIDATE
    then r <- in_range e ;; Ok (if r : bool then m else 0)
    else Ok m.

  (** The next element computed by [ary_s] and [key],
      streaming_automaton.c:68-80 and 109-122. *)
  Definition next_elt (e : elt) (input : option bytes) : res elt :=
    r <- in_range e ;;
    s <- (if r : bool then dfaNextStateByStr d (q_state e) input else Ok 0) ;;
    Ok (mkElt s 0 MInv).

  (** [matched_start != INVALID]. *)
  Definition ms_set (m : mstart) : res (option Z) :=
    match m with MInv => Ok None | MAt z => Ok (Some z) | MUninit => UB UninitRead end.

  (** Emission at a closing bracket, streaming_automaton.c:187-193 and 250-256;
      returns the new tuple list and whether a match was emitted. *)
  Definition emit_close (buf : bytes) (e : elt) (position : Z) (tl : list tuple)
    : res (list tuple * bool) :=
    s <- ms_set (q_ms e) ;;
    match s with
    | None => Ok (tl, false)
    | Some start =>
        m <- getMatchedType e ;;
        if m =? DFA_OUTPUT_CANDIDATE
        then txt <- substring buf 0 start position ;;
             tl' <- addTuple tl (q_state e) txt ;; Ok (tl', true)
        else Ok (tl, false)
    end.

  Definition incr (e : elt) : elt := mkElt (q_state e) (q_count e + 1) (q_ms e).
  Definition set_ms (e : elt) (m : mstart) : elt := mkElt (q_state e) (q_count e) m.

  (** case LCB, streaming_automaton.c:167-184. *)
  Definition do_lcb (next : Z) (c : core) : res core :=
    let ss := push (c_ss c) SLCB in
    let e := c_cur c in
    m <- getMatchedType e ;;
    if m =? DFA_OUTPUT_CANDIDATE
    then Ok (mkCore ss (c_qs c) (set_ms e (MAt (next - 1))) (c_tl c))
    else if m =? DFA_PREDICATE
    then tl <- addTuple (c_tl c) (q_state e) (B "{") ;; Ok (mkCore ss (c_qs c) e tl)
    else if m =? DFA_CONDITION
    then tl <- addTuple (c_tl c) (q_state e) [] ;; Ok (mkCore ss (c_qs c) e tl)
    else Ok (mkCore ss (c_qs c) e (c_tl c)).

  (** case RCB, streaming_automaton.c:185-218. *)
  Definition do_rcb (buf : bytes) (next : Z) (c : core) : res core :=
    '(tl, emitted) <- emit_close buf (c_cur c) next (c_tl c) ;;
    let e := if emitted : bool then set_ms (c_cur c) MInv else c_cur c in
    match c_ss c with
    | [] => Ok (mkCore [] (c_qs c) e tl)
    | [_] => Ok (mkCore [] (c_qs c) e tl)
    | _ :: SKY :: ss' =>
        let '(e', qs') := qs_pop (c_qs c) in
        Ok (mkCore ss' qs' e' tl)
    | _ :: SLB :: ss' =>
        let e' := incr e in
        m <- getMatchedType e' ;;
        if m =? DFA_PREDICATE
        then tl' <- addTuple tl (q_state e') (B "}") ;; Ok (mkCore (SLB :: ss') (c_qs c) e' tl')
        else Ok (mkCore (SLB :: ss') (c_qs c) e' tl)
    | ss => Ok (mkCore ss (c_qs c) e tl)
    end.

  (** case LB, streaming_automaton.c:219-244, without the constraint part. *)
  Definition do_lb (next : Z) (c : core) : res core :=
    let e := c_cur c in
    m <- getMatchedType e ;;
    '(e', tl) <-
      (if m =? DFA_OUTPUT_CANDIDATE then Ok (set_ms e (MAt (next - 1)), c_tl c)
       else if m =? DFA_CONDITION
       then tl <- addTuple (c_tl c) (q_state e) [] ;; Ok (e, tl)
       else Ok (e, c_tl c)) ;;
    n <- next_elt e' None ;;
    Ok (mkCore (push (c_ss c) SLB) (push (c_qs c) e') n tl).

  (** case RB, streaming_automaton.c:245-278. *)
  Definition do_rb (buf : bytes) (next : Z) (c : core) : res core :=
    match c_ss c with
    | [] => Ok c
    | _ :: ss1 =>
        '(tl, _) <- emit_close buf (qs_top (c_qs c)) next (c_tl c) ;;
        match ss1 with
        | [] => let '(e, qs) := qs_pop (c_qs c) in Ok (mkCore [] qs e tl)
        | SKY :: ss2 =>
            let '(_, qs) := qs_pop (c_qs c) in
            let '(e, qs') := qs_pop qs in
            Ok (mkCore ss2 qs' e tl)
        | SLB :: _ =>
            let '(e, qs) := qs_pop (c_qs c) in
            Ok (mkCore ss1 qs (incr e) tl)
        | SLCB :: _ => Ok (mkCore (c_ss c) (c_qs c) (c_cur c) tl)
        end
    end.

  (** case KY, streaming_automaton.c:281-295, without the constraint part. *)
  Definition do_ky (k : bytes) (c : core) : res core :=
    n <- next_elt (c_cur c) (Some k) ;;
    Ok (mkCore (push (c_ss c) SKY) (push (c_qs c) (c_cur c)) n (c_tl c)).

  (** case PRI, streaming_automaton.c:296-319. *)
  Definition do_pri (s : bytes) (c : core) : res core :=
    match c_ss c with
    | [] => Ok c
    | top :: ss' =>
        let e := c_cur c in
        m <- getMatchedType e ;;
        tl <- (if (m =? DFA_OUTPUT_CANDIDATE) || (m =? DFA_CONDITION)
               then addTuple (c_tl c) (q_state e) s else Ok (c_tl c)) ;;
        match top with
        | SKY => let '(e', qs') := qs_pop (c_qs c) in Ok (mkCore ss' qs' e' tl)
        | SLB => Ok (mkCore (c_ss c) (c_qs c) (incr e) tl)
        | SLCB => Ok (mkCore (c_ss c) (c_qs c) e tl)
        end
    end.

  (** One iteration of the loop of streaming_automaton.c:163-323, without the
      constraint part. *)
  Definition core_step (buf : bytes) (c : core) (ev : event) : res core :=
    match e_tok ev with
    | TLCB => do_lcb (e_next ev) c
    | TRCB => do_rcb buf (e_next ev) c
    | TLB => do_lb (e_next ev) c
    | TRB => do_rb buf (e_next ev) c
    | TCOM => Ok c
    | TKY k => do_ky k c
    | TPRI s => do_pri s c
    | TEND => Ok c
    end.

  (** JSONQuery/streaming_automaton.c:132-330 [executeAutomaton] with
      [data_constraint_flag] CLOSE, on one piece of the stream. *)
  Definition executeAutomaton (stream : bytes) (c : core) : res core :=
    evs <- lex_all stream ;;
    foldM (core_step (c_string stream)) evs c.

  (** ** The same with [data_constraint_flag] OPEN *)
  Variable junk : bytes.

  (** The constraint part of the cases LB and KY, streaming_automaton.c:231-242
      and 282-293. *)
  Definition train_step (c : core) (ct : ctable) (ev : event) : res ctable :=
    let add (k : ckey) :=
      let e := c_cur c in
      ct1 <- addConstraintInfo junk ct (q_state e) k ;;
      r <- in_range e ;;
      if r : bool then Ok ct1 else addConstraintInfo junk ct1 0 k
    in
    match e_tok ev with
    | TLB => add CArr
    | TKY k => add (CKey k)
    | _ => Ok ct
    end.

  (** One iteration of the loop with constraints collected.  (In the case LB the
      C code adds the tuple first and the constraint second; the two do not
      interact.) *)
  Definition train_core_step (buf : bytes) (s : core * ctable) (ev : event) : res (core * ctable) :=
    ct <- train_step (fst s) (snd s) ev ;;
    c <- core_step buf (fst s) ev ;;
    Ok (c, ct).

  (** [executeAutomaton] with [data_constraint_flag] OPEN: a new table is
      created (streaming_automaton.c:153-161). *)
  Definition executeAutomatonTrain (stream : bytes) (c : core) : res (core * ctable) :=
    evs <- lex_all stream ;;
    foldM (train_core_step (c_string stream)) evs (c, []).
End Engine.
