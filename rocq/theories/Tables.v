(** Parallel runs beyond the sizes of the tables of the threads. *)
From Verif Require Import Base Util Lexer Dfa Constraint Stream Num Eval Builder Filter Loader Run Worker Merge EndToEnd.
Open Scope Z_scope.

Lemma threads_states d ct pj tl chunks : zlen (d_accept d) > 100 -> (2 <= List.length chunks)%nat -> exists r, executeParallelAutomata d ct pj First tl chunks = UB r.
Proof.
  intros Hs Hl. unfold executeParallelAutomata. destruct (MAX_THREAD <? zlen chunks); [eexists; reflexivity|].
  destruct chunks as [|c0 [|c1 cs]]; [cbn in Hl; lia|cbn in Hl; lia|]. cbn [all_threads].
  destruct (thread_result d ct pj First tl 0 c0) as [r0|]; [|eexists; reflexivity]. cbn [bind].
  destruct c1 as [s|]; [|eexists; reflexivity]. unfold thread_result at 1. unfold executeWorkerAutomaton.
  replace (MAX_STATE <? zlen (map Z.of_nat (seq 0 (List.length (d_accept d))))) with true; [eexists; reflexivity|].
  symmetry. apply Z.ltb_lt. unfold MAX_STATE, zlen in *. rewrite map_length, seq_length. lia.
Qed.

Lemma parallel_first N p ct pj file n chunks r : 0 < zlen file <= 250000000 -> partitionInputStream file n = Ok chunks ->
  executeParallelAutomata (p_dfa p) ct pj First [] chunks = UB r -> parallel_run N p ct pj MEMORY_FOOTPRINT MAX_EXTENSION file n = UB r.
Proof.
  intros Hf Hp He. unfold parallel_run. destruct file as [|c file]; [cbn in Hf; lia|]. cbn [List.length parallel_loop].
  rewrite (load_whole MEMORY_FOOTPRINT MAX_EXTENSION (c :: file)) by (reflexivity || (unfold MEMORY_FOOTPRINT; lia)). cbn [bind].
  unfold parallelPartialRun. rewrite Hp. cbn [bind init_pcontext pc_context pc_main m_tl]. rewrite He. reflexivity.
Qed.
