(** C41: every run comes to an end.

    The loops of the model that do not follow the structure of their input carry
    a counter that is set to the number of bytes (or of tuples, or of states) plus
    one when the loop is entered; the outcome [UB Fuel] means that a loop would go
    on longer than that.  The theorems say that this never happens, and why: each
    token and each load takes at least one byte. *)
From Verif Require Import Base Util Spec QueryClass Lexer Dfa Constraint Stream Mixer Builder Eval Filter Loader Run Worker Merge AnyQuery Ends Samples.
Open Scope Z_scope.

(** Every byte string as file, every automaton (not only those that the compiler
    builds), all sizes of the load buffers, every number of threads, every table
    of constraints, every content of memory that was never set; compilation of
    every query whose names can be counted by an [int]. *)
Theorem C41 : forall N jk p ct pj junk M X file threads strict q,
  serial_run N jk p M X file <> UB Fuel /\
  collectDataConstraints p junk file <> UB Fuel /\
  parallel_run N p ct pj M X file threads <> UB Fuel /\
  (zlen (query_names q) <= name_bound -> createPathProcessor strict q <> UB Fuel).
Proof. intros. split; [apply serial_ends|]. split; [apply train_ends|]. split; [apply parallel_ends|apply build_ends]. Qed.
Print Assumptions C41.

(** A token other than the end of the stream takes at least one byte. *)
Theorem C41_token : forall buf lx t lx', nextToken buf lx = Ok (t, lx') -> 0 <= nxt lx ->
  t = TEND \/ nxt lx < nxt lx' <= zlen buf.
Proof. exact token_progress. Qed.
Print Assumptions C41_token.

(** A load takes at least one byte, and none behind the end of the file. *)
Theorem C41_load : forall M X file start stream next, 0 <= start ->
  loadBounded M X file start = Ok (Some (stream, next)) -> start < next <= zlen file.
Proof. exact load_progress. Qed.
Print Assumptions C41_load.

(** A text that is not JSON is run through and gives an output; a load in the
    middle of a file; a token. *)
Example C41_example :
  (exists p, createPathProcessor true [SChild (B "a")] = Ok p /\
     exists out, serial_run zops j0 p 100 100 (B "{""a"": 1 ,""a"" [2 }") = Ok (Some out) /\ out <> []) /\
  (exists stream next, loadBounded 4 20 (B "[{""a"":1},{""b"":2},{""c"":3}]") 1 = Ok (Some (stream, next)) /\ next = 10) /\
  (exists t lx', nextToken (B "[}]") (mkLexer 1 1 1) = Ok (t, lx') /\ t <> TEND).
Proof.
  split; [eexists; split; [vm_compute; reflexivity|]; eexists; split; [vm_compute; reflexivity|discriminate]|].
  split; [do 2 eexists; split; vm_compute; reflexivity|].
  do 2 eexists. split; [vm_compute; reflexivity|discriminate].
Qed.
