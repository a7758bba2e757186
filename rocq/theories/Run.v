(** Model of JSONQuery/path_processor.h:151-263: the path processor, the
    streaming context and the serial runs, with the ownership of the tuple list. *)
From Verif Require Import Base Spec Util Lexer Dfa Constraint Stream Builder Eval Filter Loader.
Open Scope Z_scope.

(** What local variables hold before anything has been stored in them:
    [streaming_automaton.finish_flag] (path_processor.h:204; initStreamingAutomaton
    does not set it) and whether [ci.pa.major_automaton] (path_processor.h:229)
    is NULL. *)
Record junk := mkJunk { j_finish : Z; j_major_null : bool }.

(** path_processor.h:151-154 [PathProcessor]. *)
Record processor := mkProc { p_dfa : dfa; p_ctx : qctx }.

(** path_processor.h:156-165 [createPathProcessor], from the parsed query. *)
Definition createPathProcessor (strict : bool) (q : query) : res processor :=
  '(d, x) <- build strict q ;; Ok (mkProc d x).

(** path_processor.h:173-179 [StreamingContext], the parts used by serial runs.
    [sc_freed]: the tuple list that [sc_core] refers to has been released. *)
Record scontext := mkSc {
  sc_context : bool;
  sc_core    : core;
  sc_finish  : Z;
  sc_freed   : bool;
  sc_filter  : pfilter
}.

(** path_processor.h:181-185 [initStreamingContext].  The fields that it leaves
    alone are not read before the first run has set them. *)
Definition init_context : scontext := mkSc false init_core 0 false (mkF [] [] [] []).

Section Run.
  Variable N : numops.
  Variable j : junk.
  Variable p : processor.

  (** path_processor.h:197-225 [serialPartialRun]: the elements of the Output,
      and the context.  The list of tuples is released by
      destroyStreamingAutomaton (streaming_automaton.h:49-60) after the context
      has received a copy of the pointer. *)
  Definition serialPartialRun (stream : bytes) (ci : scontext) : res (list bytes * scontext) :=
    let finish := if sc_context ci then sc_finish ci else j_finish j in
    let c0 := if sc_context ci then sc_core ci else init_core in
    if sc_context ci && sc_freed ci then UB UseAfterFree
    else
      c1 <- executeAutomaton (p_dfa p) stream c0 ;;
      pf0 <- (if sc_context ci then Ok (sc_filter ci) else initPredicateFilter (p_ctx p)) ;;
      pf1 <- generateFinalOutput N (p_ctx p) pf0 (c_tl c1) ;;
      Ok (f_output pf1, mkSc true c1 finish (finish =? 0) pf1).

  (** path_processor.h:187-194 [destroyStreamingContext] as called by serialRun:
      [ci.pa] was never set; the predicate filter is set by the first run. *)
  Definition destroyStreamingContext (ci : scontext) : res unit :=
    if negb (j_major_null j) then UB UninitRead
    else if negb (sc_context ci) then UB UninitRead
    else Ok tt.

  (** path_processor.h:234-240: the loop of serialRun; [M], [X] as for
      [loadBounded]. *)
  Fixpoint serial_loop (M X : Z) (file : bytes) (fuel : nat) (start : Z) (out : option (list bytes)) (ci : scontext)
    : res (option (list bytes) * scontext) :=
    match fuel with
    | O => UB Fuel
    | S fuel' =>
        piece <- loadBounded M X file start ;;
        match piece with
        | None => Ok (out, ci)
        | Some (s, next) =>
            '(o, ci') <- serialPartialRun s ci ;;
            serial_loop M X file fuel' next (Some o) ci'
        end
    end.

  (** path_processor.h:227-243 [serialRun]; None is NULL (also when the file
      cannot be opened, which is not modelled). *)
  Definition serial_run (M X : Z) (file : bytes) : res (option (list bytes)) :=
    '(o, ci) <- serial_loop M X file (S (List.length file)) 0 None init_context ;;
    _ <- destroyStreamingContext ci ;;
    Ok o.
  Definition serialRun : bytes -> res (option (list bytes)) := serial_run MEMORY_FOOTPRINT MAX_EXTENSION.

  (** path_processor.h:245-263 [collectDataConstraints]; [jk] is the content of
      unset token names. *)
  Definition collectDataConstraints (jk : bytes) (file : bytes) : res ctable :=
    '(_, ct) <- executeAutomatonTrain (p_dfa p) jk file init_core ;; Ok ct.
End Run.
