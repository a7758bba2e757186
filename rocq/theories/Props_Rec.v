(** C44: a file with several records gives the answers of each of them.

    Streams of JSON texts, one per line or one directly after the other, are a
    usual input of streaming tools.  The automaton must be back where it started,
    with nothing left on its stacks, in its counters and in the tables of the
    filters, when a record ends. *)
From Verif Require Import Base Util Spec QueryClass FilterSpec Claims Lexer Dfa Stream Num Builder Eval Filter Loader Run EndToEnd RecSpec Records RecPar Worker Merge Samples Findings.
Open Scope Z_scope.

Definition C44_full : Prop := forall N strict q j ds,
  supported q = true -> (strict = true -> single_names q) -> ds <> [] -> Forall (fun dc => wf_doc dc = true) ds ->
  Forall (fun dc => filters_meaningful N q (d_val dc)) ds -> j_major_null j = true ->
  exists p, createPathProcessor strict q = Ok p /\
    serialRun N j p (records_text ds) = Ok (Some (records_answer (holds N) q ds)).

(** Missing: what is missing in C03 for a single record (layouts and sizes on which
    tokenizer and tables are exact).  Of the records together only the number of
    values is limited, by the size of the output. *)
Theorem C44_partial : forall N strict q j ds,
  supported q = true -> (strict = true -> single_names q) -> predicates_fit strict q ->
  good_records ds -> records_limits q ds -> Forall (fun dc => filters_meaningful N q (d_val dc)) ds -> j_major_null j = true ->
  exists p, createPathProcessor strict q = Ok p /\
    serialRun N j p (records_text ds) = Ok (Some (records_answer (holds N) q ds)).
Proof. exact records_run. Qed.
Print Assumptions C44_partial.

(** Three records on three lines, and a query with a slice and a filter: the
    positions start anew in each record, and so do the values of the tested field
    (the second record has an element without it). *)
Definition line (v : json) : doc := mkDoc [] v [ascii_of_nat 10].
Definition row (l : list json) : json := obj [(B "list", arr l)].
Definition yes (s : string) : json := obj [(B "on", str "y"); (B "name", str s)].
Definition no (s : string) : json := obj [(B "name", str s); (B "on", str "n")].
Definition log : list doc :=
  [line (obj [(B "rows", arr [row [yes "a"; no "b"]; row [no "c"]; row [yes "d"]])]);
   line (obj [(B "rows", arr [row [obj [(B "name", str "e")]; yes "f"]])]);
   line (obj [(B "rows", arr [row []; row [no "g"; yes "h"]; row [yes "i"]])])].
Definition q_log : query :=
  [SChild (B "rows"); SSlice None (Some 2); SChild (B "list"); SFilter (EBin BEq (EField [B "on"]) (EStr (B "y"))); SChild (B "name")].

Lemma records_checked ds : nonempty ds && forallb (fun dc => wf_doc dc && lex_safe (d_val dc)) ds
  && match ds with dc :: _ => no_leading_blank dc | [] => true end && (zlen (records_text ds) <=? 250000000) = true -> good_records ds.
Proof.
  rewrite !andb_true_iff. intros [[[H1 H2] H3] H4]. split.
  - destruct ds; discriminate.
  - apply Forall_forall. rewrite forallb_forall in H2. intros dc Hd. apply andb_true_iff. auto.
  - destruct ds; [exact I|exact H3].
  - apply Z.leb_le. exact H4.
Qed.

Example C44_example :
  supported q_log = true /\ single_names q_log /\ predicates_fit true q_log /\ predicates_fit false q_log /\
  good_records log /\ records_limits q_log log /\ Forall (fun dc => filters_meaningful zops q_log (d_val dc)) log /\
  strings (records_answer (holds zops) q_log log) = ["""a"""; """f"""; """h"""]%string.
Proof.
  do 4 (split; [premises|]). split; [apply records_checked; vm_compute; reflexivity|].
  split; [split; [repeat (constructor; [apply limits_checked; vm_compute; reflexivity|]); constructor|vm_compute; discriminate]|].
  split; [repeat (constructor; [apply meaningful_checked; vm_compute; reflexivity|]); constructor|].
  vm_compute. reflexivity.
Qed.

(** Two records in a layout that the tokenizer misreads. *)
Definition two_tight : list doc := [line (obj0 [(B "a", num "1")]); line (obj0 [(B "a", num "2")])].
Theorem C44_refuted : exists q ds out, supported q = true /\ ds <> [] /\ Forall (fun dc => wf_doc dc = true) ds /\
  (forall N strict j p, j_major_null j = true -> createPathProcessor strict q = Ok p -> serialRun N j p (records_text ds) = Ok (Some out)) /\
  forall N, out <> records_answer (holds N) q ds.
Proof.
  exists [SChild (B "a")], two_tight, [B "1}"; B "2}"]. split; [reflexivity|]. split; [discriminate|].
  split; [repeat constructor|]. split; [run_it|]. intros N H. discriminate H.
Qed.
Print Assumptions C44_refuted.

(** The parallel entry point on one core gives the same answers, whatever its
    uninitialised memory holds.  On several cores this is not proved. *)
Theorem C44_one_core : forall N strict q pj ds,
  supported q = true -> (strict = true -> single_names q) -> predicates_fit strict q ->
  good_records ds -> records_limits q ds -> Forall (fun dc => filters_meaningful N q (d_val dc)) ds ->
  exists p, createPathProcessor strict q = Ok p /\
    parallelRun N p pj (records_text ds) 1 = Ok (Some (records_answer (holds N) q ds)).
Proof. intros N strict q pj ds H1 H2 H3 H4 H5 H6. exact (records_one N strict q (mkJunk 0 true) pj ds H1 H2 H3 H4 H5 H6 eq_refl). Qed.
Print Assumptions C44_one_core.

(** With a slice it is false on two cores: the cut is behind the bracket that opens
    the second record, and the value of this record is lost. *)
Definition pairs : list doc :=
  map (fun s => line (arr [str s; obj [(B "a", str s)]; str s; obj [(B "a", str s)]])) ["p"; "q"]%string.
Definition q_pairs : query := [SSlice (Some 1) (Some 2); SChild (B "a")].
Theorem C44_refuted_cores : exists q ds out, supported q = true /\ single_names q /\ good_records ds /\ records_limits q ds /\
  (exists p, createPathProcessor true q = Ok p /\
     parallelRun zops p (mkPj (fun _ => 0) 0 [] 0) (records_text ds) 2 = Ok (Some out)) /\
  strings (records_answer (holds zops) q ds) = ["""p"""; """q"""]%string /\ strings out = ["""p"""]%string.
Proof.
  exists q_pairs, pairs, [B """p"""]. split; [reflexivity|]. split; [premises|].
  split; [apply records_checked; vm_compute; reflexivity|].
  split; [split; [repeat (constructor; [apply limits_checked; vm_compute; reflexivity|]); constructor|vm_compute; discriminate]|].
  split; [|split; vm_compute; reflexivity].
  assert (H : match createPathProcessor true q_pairs with
    | Ok p => parallelRun zops p (mkPj (fun _ => 0) 0 [] 0) (records_text pairs) 2 | UB r => UB r end = Ok (Some [B """p"""]))
    by (vm_compute; reflexivity).
  destruct (createPathProcessor true q_pairs) as [p|]; [|discriminate H]. exists p. split; [reflexivity|exact H].
Qed.
Print Assumptions C44_refuted_cores.
