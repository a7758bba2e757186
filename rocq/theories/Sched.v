(** Interleavings of the threads of executeParallelAutomata
    (JSONQuery/parallel_automata_execution.h:70-97 and 366-404).

    The shared memory holds the query automaton, the constraint table, the chunks
    and the array [ti] of ThreadInfo.  The workers read the first three and never
    write them; thread [i] reads and writes only [ti[i]] and what hangs on it (the
    worker has no global or static variable).  A step of a thread is one turn of
    the loop of executeWorkerAutomaton.  Simplification: the tokens of a chunk are
    split off when the thread starts; nobody writes to the chunks. *)
From Verif Require Import Base Spec Util Lexer Dfa Constraint Stream Builder Eval Filter Loader Run Worker Merge.
Open Scope Z_scope.

(** Where a thread is: created but not scheduled yet (main_thread, line 70); in
    the loop of executeWorkerAutomaton (worker_automaton.c:163-595) with the tokens
    still to come; finished (line 97). *)
Inductive phase : Type :=
| Created
| Looping (buf : bytes) (evs : list event) (w : wstate)
| Finished (r : bytes * worker).

(** ThreadInfo (parallel_automata_execution.h:11-18): the chunk and, for the worker
    automaton, how it starts and its tuple list. *)
Record thread : Type := mkTh { th_id : nat; th_chunk : option bytes; th_phase : phase }.

(** The whole memory: the chunks for which no thread was created yet, the
    array [ti], the number of threads joined, and the result of [combine]. *)
Record system : Type := mkSys {
  s_todo : list (option bytes);
  s_ti : list thread;
  s_joined : nat;
  s_result : option merged
}.

Inductive action : Type := Main | Thread (i : nat).

Section Sched.
  Variable d : dfa.
  Variable ct : option ctable.
  Variable pj : pjunk.
  Variable start0 : wstart.
  Variable tl0 : list wtuple.

  (** How worker [i] starts (parallel_automata_execution.h:376-380). *)
  Definition start_of (i : nat) : wstart := match i with O => start0 | _ => Speculate end.
  Definition tuples_of (i : nat) : list wtuple := match i with O => tl0 | _ => [] end.
  Definition is_first (st : wstart) : bool := match st with Speculate => false | _ => true end.
  Definition states_of (st : wstart) : option (list Z) :=
    match st with
    | Continue _ _ _ => None
    | First => Some [1]
    | Speculate => Some (map Z.of_nat (seq 0 (List.length (d_accept d))))
    end.

  (** One step of a thread (worker_automaton.c:115-162: the start; 163-595: one
      token; 597-623: the end).  [None]: it has ended. *)
  Definition thread_step (t : thread) : option (res thread) :=
    let st := start_of (th_id t) in
    match th_phase t with
    | Created => Some (
        match th_chunk t with
        | None => UB NullDeref
        | Some s =>
            if match states_of st with Some l => MAX_STATE <? zlen l | None => false end then UB OOBWrite
            else
              let '(ss, (q, cur)) := match st, states_of st with
                                     | Continue ss q cur, _ => (ss, (q, cur))
                                     | _, Some l => ([], initQueryStacks l)
                                     | _, None => ([], initQueryStacks [])
                                     end in
              evs <- lex_all s ;;
              Ok (mkTh (th_id t) (th_chunk t)
                (Looping (c_string s) evs (mkW ss [] q cur (tuples_of (th_id t)) [] (initUnit (pj_unit pj (th_id t))))))
        end)
    | Looping buf [] w => Some (
        ul <- last_unit buf w ;;
        Ok (mkTh (th_id t) (th_chunk t) (Finished (buf, mkWorker (ws_ss w) (ws_qs w) (ws_cur w) ul (ws_tl w)))))
    | Looping buf (ev :: evs) w => Some (
        w' <- worker_step d (is_first st) (states_of st) ct (pj_name pj) buf ev evs w ;;
        Ok (mkTh (th_id t) (th_chunk t) (Looping buf evs w')))
    | Finished _ => None
    end.

  Definition result_of (t : thread) : res (bytes * worker) :=
    match th_phase t with Finished r => Ok r | _ => UB UninitRead end.

  (** One step of the main thread: pthread_create (lines 371-386), pthread_join
      (387-388; possible when the thread has ended), combine (390). *)
  Definition main_step (s : system) : option (res system) :=
    match s_result s with
    | Some _ => None
    | None =>
        match s_todo s with
        | c :: todo => Some (
            if MAX_THREAD <=? zlen (s_ti s) then UB OOBWrite
            else Ok (mkSys todo (s_ti s ++ [mkTh (List.length (s_ti s)) c Created]) (s_joined s) None))
        | [] =>
            match nth_error (s_ti s) (s_joined s) with
            | Some t =>
                match th_phase t with
                | Finished _ => Some (Ok (mkSys [] (s_ti s) (S (s_joined s)) None))
                | _ => None
                end
            | None => Some (
                rs <- mapM result_of (s_ti s) ;;
                m <- match rs with
                     | [] => UB UninitRead
                     | r :: rs' => combine_all d (pj_name pj) (pj_main pj) r rs'
                     end ;;
                Ok (mkSys [] (s_ti s) (s_joined s) (Some m)))
            end
        end
    end.

  Definition step_by (a : action) (s : system) : option (res system) :=
    match a with
    | Main => main_step s
    | Thread i =>
        match nth_error (s_ti s) i with
        | None => None
        | Some t =>
            match thread_step t with
            | None => None
            | Some r => Some (t' <- r ;; Ok (mkSys (s_todo s) (firstn i (s_ti s) ++ t' :: skipn (S i) (s_ti s)) (s_joined s) (s_result s)))
            end
        end
    end.

  (** A schedule: who makes the next step.  [None]: an action was not possible. *)
  Fixpoint schedule (l : list action) (s : system) : option (res system) :=
    match l with
    | [] => Some (Ok s)
    | a :: l' =>
        match step_by a s with
        | None => None
        | Some (UB e) => Some (UB e)
        | Some (Ok s') => schedule l' s'
        end
    end.

  Definition start_system (chunks : list (option bytes)) : system := mkSys chunks [] 0 None.
End Sched.

(** * The parallel runs under given schedules

    As parallelPartialRun and parallel_run (Merge.v; path_processor.h:266-367),
    with one schedule for each load.  [None]: the schedule of some load makes an
    impossible step or stops before the threads are combined. *)
Section SchedRun.
  Variable N : numops.
  Variable p : processor.
  Variable ct : option ctable.
  Variable pj : pjunk.

  Definition scheduled_execute (start0 : wstart) (tl0 : list wtuple) (l : list action) (chunks : list (option bytes)) : option (res merged) :=
    match schedule (p_dfa p) ct pj start0 tl0 l (start_system chunks) with
    | None => None
    | Some (UB e) => Some (UB e)
    | Some (Ok s) => match s_result s with Some m => Some (Ok m) | None => None end
    end.

  Definition scheduled_partial (l : list action) (stream : bytes) (num_core : nat) (ci : pcontext) : option (res (list bytes * pcontext)) :=
    match partitionInputStream stream num_core with
    | UB e => Some (UB e)
    | Ok chunks =>
        let m0 := pc_main ci in
        let start0 := if pc_context ci then Continue (m_ss m0) (m_qs m0) (m_cur m0) else First in
        match scheduled_execute start0 (m_tl m0) l chunks with
        | None => None
        | Some (UB e) => Some (UB e)
        | Some (Ok m) => Some (
            tl <- mapM plain_tuple (m_tl m) ;;
            pf0 <- (if pc_context ci then Ok (pc_filter ci) else initPredicateFilter (p_ctx p)) ;;
            pf1 <- generateFinalOutput N (p_ctx p) pf0 tl ;;
            let tl' := if pj_finish pj =? 0 then [] else m_tl m in
            Ok (f_output pf1, mkPc true (mkM (m_ss m) (m_qs m) (m_cur m) tl') pf1))
        end
    end.

  Fixpoint scheduled_loop (scheds : nat -> list action) (M X : Z) (file : bytes) (num_core : nat) (fuel : nat) (start : Z)
      (out : option (list bytes)) (ci : pcontext) : option (res (option (list bytes) * pcontext)) :=
    match fuel with
    | O => Some (UB Fuel)
    | S fuel' =>
        match loadBounded M X file start with
        | UB e => Some (UB e)
        | Ok None => Some (Ok (out, ci))
        | Ok (Some (s, next)) =>
            match scheduled_partial (scheds O) s num_core ci with
            | None => None
            | Some (UB e) => Some (UB e)
            | Some (Ok (o, ci')) => scheduled_loop (fun n => scheds (S n)) M X file num_core fuel' next (Some o) ci'
            end
        end
    end.

  Definition scheduled_run (scheds : nat -> list action) (M X : Z) (file : bytes) (num_core : nat) : option (res (option (list bytes))) :=
    match scheduled_loop scheds M X file num_core (S (List.length file)) 0 None init_pcontext with
    | None => None
    | Some r => Some ('(o, ci) <- r ;; if pc_context ci then Ok o else UB UninitRead)
    end.
End SchedRun.
