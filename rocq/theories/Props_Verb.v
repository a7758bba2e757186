(** C43: nothing in the output is invented.

    The claims about documents (C01 and those after it) say which values come
    out; this one is about every file, also text that is not JSON, cut off in the
    middle of a value, or with values that the tokenizer misreads: what comes out
    is at least a piece of the file. *)
From Verif Require Import Base Util Spec QueryClass VerbSpec Lexer Dfa Constraint Stream Builder Eval Filter Loader Run Worker Merge Verbatim VerbPar Samples.
Open Scope Z_scope.

Definition C43_full : Prop := forall N jk p ct pj M X file threads out,
  serial_run N jk p M X file = Ok (Some out) \/ parallel_run N p ct pj M X file threads = Ok (Some out) ->
  Forall (fun t => occurs t file) out.

(** Serial runs: every byte string as file, every automaton (not only those that
    the compiler builds), all sizes of the load buffers. *)
Theorem C43_partial : forall N jk p M X file out,
  serial_run N jk p M X file = Ok (Some out) -> Forall (fun t => occurs t file) out.
Proof. exact verbatim. Qed.
Print Assumptions C43_partial.

(** Parallel runs, with every table of constraints and every number of threads,
    if the file does not begin with a blank and holds no NUL. *)
Theorem C43_parallel_partial : forall N p ct pj M X file threads out,
  hd_error file <> Some " "%char -> no_nul file ->
  parallel_run N p ct pj M X file threads = Ok (Some out) -> Forall (fun t => occurs t file) out.
Proof.
  intros N p ct pj M X file threads out Hh. apply verbatim_par. destruct file as [|c r]; [reflexivity|]. cbn in *.
  destruct (Ascii.eqb_spec c " "); [congruence|reflexivity].
Qed.
Print Assumptions C43_parallel_partial.

(** A text that is no JSON, run in serial and by two threads; in the second case
    the text is put together from two chunks. *)
Example C43_example :
  (exists p, createPathProcessor true [SChild (B "a")] = Ok p /\
     exists out, serial_run zops j0 p 100 100 (B "{""a"": 1x }, ""a"" [2 }") = Ok (Some out) /\ out <> []) /\
  (exists p, createPathProcessor true [SChild (B "a")] = Ok p /\
     parallel_run zops p None (mkPj (fun _ => 0) 0 [] 0) 100 100 (B "{""a"":{""b"":1 ,""c"":2x }}}") 2 = Ok (Some [B "{""b"":1 ,""c"":2x }"])).
Proof.
  split; eexists; (split; [vm_compute; reflexivity|]); [eexists; split; [vm_compute; reflexivity|discriminate]|vm_compute; reflexivity].
Qed.

(** With one blank at the beginning of the file the partitioner takes one byte
    twice (the copy of the chunk starts behind the blank, the search for the next
    token does not): a string comes out with a letter too many. *)
Theorem C43_refuted : exists p file out,
  createPathProcessor true [SChild (B "a")] = Ok p /\ file = B " {""a"":""stuv"",""b"":1}" /\
  parallel_run zops p None (mkPj (fun _ => 0) 0 [] 0) 100 100 file 2 = Ok (Some out) /\
  out = [B """stuvv"""] /\ ~ Forall (fun t => occurs t file) out.
Proof.
  destruct (createPathProcessor true [SChild (B "a")]) as [p|] eqn:E; [|vm_compute in E; discriminate]. vm_compute in E. injection E as <-.
  eexists. exists (B " {""a"":""stuv"",""b"":1}"), [B """stuvv"""]. split; [reflexivity|]. split; [reflexivity|]. split; [vm_compute; reflexivity|]. split; [reflexivity|].
  intros H. apply Forall_inv in H. destruct H as (x & y & H). cbn in H.
  repeat (destruct x as [|? x]; [discriminate H|cbn [app] in H; try discriminate H; injection H as _ H]).
Qed.
Print Assumptions C43_refuted.
