(** Properties of the threads: C24. *)
From Verif Require Import Base Util Spec QueryClass Lexer Dfa Constraint Stream Num Builder Eval Filter Loader Run Worker Merge Sched SchedProof Samples.
Open Scope Z_scope.

(** * C24: scheduling does not influence the result

    [schedule ... l (start_system chunks)] performs the steps of the main thread and
    of the workers in the order [l] (Sched.v); [None] if a step is not possible.
    [s_result] is the outcome of [combine].  [executeParallelAutomata] runs the
    workers one after the other (Merge.v). *)
Theorem C24 : forall d ct pj start0 tl0 chunks l s m,
  schedule d ct pj start0 tl0 l (start_system chunks) = Some (Ok s) -> s_result s = Some m ->
  executeParallelAutomata d ct pj start0 tl0 chunks = Ok m.
Proof. exact any_schedule. Qed.
Print Assumptions C24.

(** Two schedules give the same worker results and the same merge. *)
Theorem C24_same : forall d ct pj start0 tl0 chunks l1 l2 s1 s2 m1 m2,
  schedule d ct pj start0 tl0 l1 (start_system chunks) = Some (Ok s1) -> s_result s1 = Some m1 ->
  schedule d ct pj start0 tl0 l2 (start_system chunks) = Some (Ok s2) -> s_result s2 = Some m2 -> m1 = m2.
Proof.
  intros d ct pj start0 tl0 chunks l1 l2 s1 s2 m1 m2 H1 R1 H2 R2. pose proof (any_schedule _ _ _ _ _ _ _ _ _ H1 R1) as E.
  rewrite (any_schedule _ _ _ _ _ _ _ _ _ H2 R2) in E. congruence.
Qed.
Print Assumptions C24_same.

(** If one schedule runs into undefined behaviour, none ends. *)
Theorem C24_undefined : forall d ct pj start0 tl0 chunks l1 e l2 s,
  schedule d ct pj start0 tl0 l1 (start_system chunks) = Some (UB e) ->
  schedule d ct pj start0 tl0 l2 (start_system chunks) = Some (Ok s) -> s_result s = None.
Proof.
  intros d ct pj start0 tl0 chunks l1 e l2 s H1 H2. destruct (s_result s) as [m|] eqn:E; [|reflexivity].
  destruct (any_schedule_ub _ _ _ _ _ _ _ _ H1) as [e' E']. rewrite (any_schedule _ _ _ _ _ _ _ _ _ H2 E) in E'. discriminate.
Qed.
Print Assumptions C24_undefined.

(** No deadlock: every schedule is short, one that cannot go on has combined, and
    if running one after the other is defined, every schedule so far leads to the
    same result. *)
Theorem C24_ends : forall d ct pj start0 tl0 chunks,
  (exists n, forall l s, schedule d ct pj start0 tl0 l (start_system chunks) = Some (Ok s) -> (List.length l <= n)%nat) /\
  (forall l s, schedule d ct pj start0 tl0 l (start_system chunks) = Some (Ok s) ->
     (forall a, step_by d ct pj start0 tl0 a s = None) -> s_result s <> None) /\
  (forall l s m, executeParallelAutomata d ct pj start0 tl0 chunks = Ok m ->
     schedule d ct pj start0 tl0 l (start_system chunks) = Some (Ok s) ->
     exists l' s', schedule d ct pj start0 tl0 (l ++ l') (start_system chunks) = Some (Ok s') /\ s_result s' = Some m).
Proof.
  intros d ct pj start0 tl0 chunks. split; [apply schedule_ends|]. split; [apply schedule_stuck|]. intros l s m. apply schedule_completes.
Qed.
Print Assumptions C24_ends.

(** The output of the parallel runs, with any schedule for each load. *)
Theorem C24_run : forall N p ct pj scheds M X file n,
  match scheduled_run N p ct pj scheds M X file n with
  | None => True
  | Some (Ok o) => parallel_run N p ct pj M X file n = Ok o
  | Some (UB _) => exists e, parallel_run N p ct pj M X file n = UB e
  end.
Proof. exact run_agrees. Qed.
Print Assumptions C24_run.
Theorem C24_run_possible : forall N p ct pj M X file n o, parallel_run N p ct pj M X file n = Ok o ->
  exists scheds, scheduled_run N p ct pj scheds M X file n = Some (Ok o).
Proof. exact run_some. Qed.
Print Assumptions C24_run_possible.

(** Two workers: in turns, and the second one first. *)
Definition c24_text : bytes := B "{""a"": [1 ,2 ],""a"": 3 }".
Definition c24_turns : list action := [Main; Main] ++ flat_map (fun _ => [Thread 1; Thread 0]) (seq 0 5) ++ flat_map (fun _ => [Thread 0]) (seq 0 5) ++ [Main; Main; Main].
Definition c24_second : list action := [Main; Main] ++ flat_map (fun _ => [Thread 1]) (seq 0 5) ++ flat_map (fun _ => [Thread 0]) (seq 0 10) ++ [Main; Main; Main].
Definition c24_junk : pjunk := mkPj (fun _ => 0) 0 [] 0.
Example C24_example : exists p, createPathProcessor true [SChild (B "a")] = Ok p /\
  scheduled_run zops p None c24_junk (fun _ => c24_turns) 1000 1000 c24_text 2 = Some (Ok (Some [B "[1 ,2 ]"; B "3"])) /\
  scheduled_run zops p None c24_junk (fun _ => c24_second) 1000 1000 c24_text 2 = Some (Ok (Some [B "[1 ,2 ]"; B "3"])).
Proof. eexists. split; [vm_compute; reflexivity|]. split; vm_compute; reflexivity. Qed.
