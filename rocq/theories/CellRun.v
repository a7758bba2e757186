(** Model of one serial run (path_processor.h) on the arrays of Cells.v. *)
From Verif Require Import Base Util Spec Num Dfa Stream Builder Eval Filter Run Cells CellFilter CellEngine.
Open Scope Z_scope.

(** What the memory held before: the two stacks and the tuple list of the engine, the
    stack, the Output and the buffer of the predicate filter.  (The arrays are those of
    JSONQuery/stack.h:15-25, tuple_list.h:19-22, predicate.h:20-38,
    output.h:9-12.) *)
Record memory : Type := mkMem {
  m_syms : list sym; m_elts : list elt; m_tuples : list tcell;
  m_open : list (Z * Z); m_out : list bytes; m_buffer : list bytes }.
(** JSONQuery/path_processor.h:197-225 [serialPartialRun] on a context that holds
    nothing yet: the resulting Output.  (Conditions are as in Filter.v.) *)
Definition serialPartialRun_c (N : numops) (p : processor) (m : memory) (stream : bytes) : res output :=
  a <- executeAutomaton_c (p_dfa p) stream (initAutomaton_c (m_syms m) (m_elts m) (m_tuples m)) ;;
  pf <- initPredicateFilter (p_ctx p) ;;
  g <- generateFinalOutput_c N (p_ctx p) (m_buffer m) (initFilter_c (f_conds pf) (m_open m) (m_out m)) (a_tl a) ;;
  Ok (g_output g).
