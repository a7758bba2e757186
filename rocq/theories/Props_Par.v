(** Properties of the parallel runs: C23, C26, C36, C37. *)
From Verif Require Import Base Util Spec QueryClass PosSpec Claims Lexer Dfa Constraint Stream Num FilterSpec Builder Eval Filter Loader Run Worker Merge NestSpec AnyQuery TreeSem SingleRun CutSpec EndToEnd ClaimProof WorkRep Report Tables ParSpec ParDoc TrainSpec TrainDoc ParTrain Findings Samples.
Open Scope Z_scope.

(** * C23: parallel and serial runs *)
Definition C23_full : Prop := forall N strict q j pj p dc n, wf_doc dc = true -> (0 < n)%nat -> j_major_null j = true ->
  createPathProcessor strict q = Ok p -> parallelRun N p pj (doc_text dc) n = serialRun N j p (doc_text dc).

(** All memory that is never written holds zeros. *)
Definition zeros : pjunk := mkPj (fun _ => 0) 0 [] 0.

(** What a parallel run does, whatever the numbers and the compilation mode. *)
Definition par_outcome (q : query) (dc : doc) (n : nat) (r : res (option (list bytes))) : Prop :=
  forall N strict p, createPathProcessor strict q = Ok p -> parallelRun N p zeros (doc_text dc) n = r.
Ltac run_par :=
  intros; match goal with s : bool |- _ => destruct s | _ => idtac end;
  match goal with Hp : createPathProcessor _ _ = Ok _ |- _ => vm_compute in Hp; injection Hp as <- end;
  vm_compute; reflexivity.
(** The same with smaller proof terms, when the result is known. *)
Ltac run_par1 :=
  intros; match goal with Hp : createPathProcessor ?s ?q = Ok ?p |- parallelRun ?N ?p ?z ?t ?n = ?r =>
    let H := fresh in assert (H : match createPathProcessor s q with Ok p' => parallelRun N p' z t n | UB _ => r end = r) by (destruct s; vm_compute; reflexivity);
    rewrite Hp in H; exact H end.
Ltac run_serial :=
  intros; match goal with j : junk |- _ => destruct j as [? ?]; cbn [j_major_null] in *; subst end;
  match goal with Hp : createPathProcessor ?s ?q = Ok ?p |- serialRun ?N ?j ?p ?t = ?r =>
    let H := fresh in assert (H : match createPathProcessor s q with Ok p' => serialRun N j p' t | UB _ => r end = r) by (destruct s; vm_compute; reflexivity);
    rewrite Hp in H; exact H end.

(** The second chunk of ["p","q","r","s","t","u"] starts with ["s"]; the worker looks ahead to find out that it
    is in an array, which overwrites the text of the token: "t" is output twice and "s" is lost. *)
Definition letters : doc := docu (obj [(B "a", arr [str "p"; str "q"; str "r"; str "s"; str "t"; str "u"])]).
Definition q_all : query := [SChild (B "a"); SAll].
Theorem C23_refuted : exists q dc n out out', good_doc dc /\ supported q = true /\ (exists p, createPathProcessor true q = Ok p) /\
  outcome q dc (Ok (Some out)) /\ out = answer_text (fun _ _ => false) q (d_val dc) /\
  par_outcome q dc n (Ok (Some out')) /\ out' <> out.
Proof.
  exists q_all, letters, 2%nat, (map (fun s => DQ :: B s ++ [DQ]) ["p"; "q"; "r"; "s"; "t"; "u"]%string),
    (map (fun s => DQ :: B s ++ [DQ]) ["p"; "q"; "r"; "t"; "t"; "u"]%string).
  split; [apply good_checked; vm_compute; reflexivity|]. split; [reflexivity|]. split; [eexists; vm_compute; reflexivity|].
  split; [unfold outcome; run_it|]. split; [vm_compute; reflexivity|]. split; [unfold par_outcome; run_par|discriminate].
Qed.
Print Assumptions C23_refuted.

(** With three cores the last element of this array is not output at all. *)
Definition o1 (s : string) : json := obj [(B "b", str s)].
Definition objects : doc := docu (obj [(B "a", arr [o1 "p"; o1 "q"; o1 "r"; o1 "s"; o1 "t"; o1 "u"])]).
Theorem C23_refuted_lost : exists q dc n out last, good_doc dc /\ supported q = true /\ (exists p, createPathProcessor true q = Ok p) /\
  outcome q dc (Ok (Some (out ++ [last]))) /\ par_outcome q dc n (Ok (Some out)).
Proof.
  exists q_all, objects, 3%nat, (map (fun s => B "{""b"": """ ++ B s ++ B """}") ["p"; "q"; "r"; "s"; "t"]%string), (B "{""b"": ""u""}").
  split; [apply good_checked; vm_compute; reflexivity|]. split; [reflexivity|]. split; [eexists; vm_compute; reflexivity|].
  split; [unfold outcome; run_it|unfold par_outcome; run_par].
Qed.
Print Assumptions C23_refuted_lost.

(** A slice that starts in a later chunk: nothing is output. *)
Definition q_tail : query := [SChild (B "a"); SSlice (Some 4) (Some 6)].
Theorem C23_refuted_slice : exists q dc n out, good_doc dc /\ supported q = true /\ (exists p, createPathProcessor true q = Ok p) /\
  outcome q dc (Ok (Some out)) /\ List.length out = 2%nat /\ par_outcome q dc n (Ok (Some [])).
Proof.
  exists q_tail, objects, 3%nat, (map (fun s => B "{""b"": """ ++ B s ++ B """}") ["t"; "u"]%string).
  split; [apply good_checked; vm_compute; reflexivity|]. split; [reflexivity|]. split; [eexists; vm_compute; reflexivity|].
  split; [unfold outcome; run_it|]. split; [reflexivity|unfold par_outcome; run_par].
Qed.
Print Assumptions C23_refuted_slice.

(** Whether the elements of a slice are found depends on the number of cores: with
    three cores the counts of elements are carried over to the later chunks, with four
    cores an element that the slice selects is lost. *)
Definition counted : doc := docu (obj [(B "k", str "z"); (B "a", arr [o1 "p"; o1 "q"; o1 "r"; o1 "s"; o1 "t"; o1 "u"])]).
Definition q_mid : query := [SChild (B "a"); SSlice (Some 1) (Some 4)].
Theorem C23_refuted_cores : exists q dc n out last, good_doc dc /\ supported q = true /\ (exists p, createPathProcessor true q = Ok p) /\
  outcome q dc (Ok (Some (out ++ [last]))) /\ par_outcome q dc n (Ok (Some (out ++ [last]))) /\ par_outcome q dc (S n) (Ok (Some out)).
Proof.
  exists q_mid, counted, 3%nat, (map (fun s => B "{""b"": """ ++ B s ++ B """}") ["q"; "r"]%string), (B "{""b"": ""s""}").
  split; [apply good_checked; vm_compute; reflexivity|]. split; [reflexivity|]. split; [eexists; vm_compute; reflexivity|].
  split; [unfold outcome; run_serial|]. split; unfold par_outcome; run_par1.
Qed.
Print Assumptions C23_refuted_cores.

(** A slice with a further step: the later chunks count the objects that end in them,
    but no strings.  With three cores the run returns a value of the seventh element
    for the slice [2:5]; where the elements before are arrays, it loses one that is
    selected. *)
Definition mixed : doc := docu (obj [(B "a", arr [o1 "p"; str "k"; o1 "q"; o1 "r"; str "k"; str "k"; o1 "s"; o1 "t"; o1 "u"; o1 "v"; o1 "w"])]).
Definition q_25 : query := [SChild (B "a"); SSlice (Some 2) (Some 5); SChild (B "b")].
Definition nested : doc := docu (obj [(B "a", arr [arr [o1 "p"; o1 "q"]; arr [o1 "r"; o1 "s"]; arr [o1 "t"; o1 "u"]; arr [o1 "v"; o1 "w"]; o1 "x"; o1 "y"])]).
Definition q_46 : query := [SChild (B "a"); SSlice (Some 4) (Some 6); SChild (B "b")].
Theorem C23_refuted_counts : exists q dc n out more q' dc' n' first out', good_doc dc /\ good_doc dc' /\ supported q = true /\ supported q' = true /\
  (exists p, createPathProcessor true q = Ok p) /\ (exists p, createPathProcessor true q' = Ok p) /\
  outcome q dc (Ok (Some out)) /\ par_outcome q dc n (Ok (Some (out ++ [more]))) /\
  outcome q' dc' (Ok (Some (first :: out'))) /\ par_outcome q' dc' n' (Ok (Some out')).
Proof.
  exists q_25, mixed, 3%nat, [B """q"""; B """r"""], (B """s"""), q_46, nested, 3%nat, (B """x"""), [B """y"""].
  split; [apply good_checked; vm_compute; reflexivity|]. split; [apply good_checked; vm_compute; reflexivity|]. split; [reflexivity|]. split; [reflexivity|].
  split; [eexists; vm_compute; reflexivity|]. split; [eexists; vm_compute; reflexivity|].
  split; [unfold outcome; run_serial|]. split; [unfold par_outcome; run_par1|]. split; [unfold outcome; run_serial|unfold par_outcome; run_par1].
Qed.
Print Assumptions C23_refuted_counts.
(** The array starts in the second of three chunks.  Its count is carried over to the
    third one, where a string is not counted. *)
Definition carried : doc := docu (obj [(B "k", str "zzzzzzzzzzzzzzzzzzzzzzzzzzzzzzzzzzzzzzzzzzzzzzzzzzzzzzzzzzzzzzzzzzzzzzzzz");
  (B "a", arr [o1 "p"; str "k"; o1 "q"; o1 "r"; str "k"; str "k"; o1 "s"; o1 "t"; o1 "u"; str "k"; o1 "v"; o1 "w"])]).
Definition q_8a : query := [SChild (B "a"); SSlice (Some 8) (Some 10); SChild (B "b")].
Theorem C23_refuted_carried : exists q dc n c1 c2 c3 first more, good_doc dc /\ supported q = true /\ (exists p, createPathProcessor true q = Ok p) /\
  partitionInputStream (doc_text dc) n = Ok [Some c1; Some c2; Some c3] /\ In "["%char c2 /\ ~ In "["%char c1 /\ ~ In "["%char c3 /\
  outcome q dc (Ok (Some [first])) /\ par_outcome q dc n (Ok (Some [first; more])).
Proof.
  exists q_8a, carried, 3%nat. do 3 eexists. exists (B """u"""), (B """v""").
  split; [apply good_checked; vm_compute; reflexivity|]. split; [reflexivity|]. split; [eexists; vm_compute; reflexivity|].
  split; [vm_compute; reflexivity|]. split; [cbn; tauto|]. split; [intros H; cbn in H; repeat (destruct H as [H|H]; [discriminate|]); exact H|].
  split; [intros H; cbn in H; repeat (destruct H as [H|H]; [discriminate|]); exact H|].
  split; [unfold outcome; run_serial|unfold par_outcome; run_par1].
Qed.
Print Assumptions C23_refuted_carried.

(** A filter whose array starts in the second chunk and goes on in the third: the
    merging phase uses fields of nodes that it has never written. *)
Definition o2 (s t : string) : json := obj [(B "b", str s); (B "c", str t)].
Definition list_b : json := arr [o2 "p" "1"; o2 "q" "2"; o2 "r" "3"; o2 "s" "4"; o2 "t" "5"; o2 "u" "6"].
Definition q_has : query := [SChild (B "a"); SFilter (EField [B "b"]); SChild (B "c")].
Definition later : doc := docu (obj [(B "k", str "zzzzzzzzzzzzzzzzzzzzzzzzzzzzzzzzzzzzzzzzzzz"); (B "a", list_b)]).
Theorem C23_refuted_undefined : exists q dc n out, good_doc dc /\ supported q = true /\ (exists p, createPathProcessor true q = Ok p) /\
  outcome q dc (Ok (Some out)) /\ par_outcome q dc n (UB UninitRead).
Proof.
  eexists q_has, later, 4%nat, (map (fun s => DQ :: B s ++ [DQ]) ["1"; "2"; "3"; "4"; "5"; "6"]%string).
  split; [apply good_checked; vm_compute; reflexivity|]. split; [reflexivity|]. split; [eexists; vm_compute; reflexivity|].
  split; [unfold outcome; run_serial|unfold par_outcome; run_par1].
Qed.
Print Assumptions C23_refuted_undefined.

(** Beyond the tables of the threads.  A query whose automaton has more than 100 states cannot be run by two
    threads or more: each thread but the first copies the states into a table of 100. *)
Theorem C23_too_many_states : forall N strict q p pj ct file n chunks, zlen (query_names q) <= name_bound -> createPathProcessor strict q = Ok p ->
  100 < nstates (p_dfa p) -> 0 < zlen file <= 250000000 -> partitionInputStream file n = Ok chunks -> (2 <= List.length chunks)%nat ->
  (exists r, parallelRun N p pj file n = UB r) /\ (exists r, parallelRunOpt N p ct pj file n = UB r).
Proof.
  intros N strict q p pj ct file n chunks Hn Hp Hs Hf Hc Hl. destruct (query_dfa strict q p Hn Hp) as [Hd _].
  assert (Ha : zlen (d_accept (p_dfa p)) > 100) by (rewrite (ok_accept _ Hd); lia).
  split.
  - destruct (threads_states (p_dfa p) None pj [] chunks Ha Hl) as [r Hr]. exists r. exact (parallel_first N p None pj file n chunks r Hf Hc Hr).
  - destruct (threads_states (p_dfa p) (Some ct) pj [] chunks Ha Hl) as [r Hr]. exists r. exact (parallel_first N p (Some ct) pj file n chunks r Hf Hc Hr).
Qed.
Print Assumptions C23_too_many_states.

(** ..a followed by six times .*: the automaton keeps track of which of the last six
    names were a. *)
Definition q_wide : query := SDesc (B "a") :: repeat SChildAny 6.
Definition wide : doc := docu (obj [(B "x", str "p"); (B "y", str "q"); (B "z", str "r")]).
Theorem C23_refuted_states : exists q dc n out, good_doc dc /\ supported q = true /\ (exists p, createPathProcessor true q = Ok p /\ 100 < nstates (p_dfa p)) /\
  outcome q dc (Ok (Some out)) /\ par_outcome q dc n (UB OOBWrite).
Proof.
  exists q_wide, wide, 2%nat, (@nil bytes).
  split; [apply good_checked; vm_compute; reflexivity|]. split; [reflexivity|]. split.
  - assert (H : match createPathProcessor true q_wide with Ok p => 100 <? nstates (p_dfa p) | UB _ => false end = true) by (vm_compute; reflexivity).
    destruct (createPathProcessor true q_wide) as [p|]; [|discriminate H]. exists p. split; [reflexivity|apply Z.ltb_lt; exact H].
  - split; [unfold outcome; run_serial|unfold par_outcome; run_par1].
Qed.
Print Assumptions C23_refuted_states.

(** More than 100 chunks. *)
Theorem C23_too_many_chunks : forall N p pj ct file n chunks, 0 < zlen file <= 250000000 -> partitionInputStream file n = Ok chunks -> 100 < zlen chunks ->
  parallelRun N p pj file n = UB OOBWrite /\ parallelRunOpt N p ct pj file n = UB OOBWrite.
Proof.
  intros N p pj ct file n chunks Hf Hc Hl.
  assert (H : forall o, executeParallelAutomata (p_dfa p) o pj First [] chunks = UB OOBWrite).
  { intros o. unfold executeParallelAutomata. replace (MAX_THREAD <? zlen chunks) with true by (symmetry; apply Z.ltb_lt; exact Hl). reflexivity. }
  split; [exact (parallel_first N p None pj file n chunks _ Hf Hc (H _))|exact (parallel_first N p (Some ct) pj file n chunks _ Hf Hc (H _))].
Qed.
Print Assumptions C23_too_many_chunks.

(** 300 strings on 150 cores. *)
Definition three_hundred : doc := docu (arr (repeat (str "p") 300)).
Example C23_many_chunks : exists chunks, partitionInputStream (doc_text three_hundred) 150 = Ok chunks /\ 100 < zlen chunks /\
  0 < zlen (doc_text three_hundred) <= 250000000.
Proof.
  assert (H : match partitionInputStream (doc_text three_hundred) 150 with Ok l => 100 <? zlen l | UB _ => false end = true) by (vm_compute; reflexivity).
  destruct (partitionInputStream (doc_text three_hundred) 150) as [chunks|]; [|discriminate H].
  exists chunks. split; [reflexivity|]. split; [apply Z.ltb_lt; exact H|split; [reflexivity|vm_compute; discriminate]].
Qed.

(** A hundred names make an automaton of 102 states. *)
Definition q_hundred : query := repeat (SChild (B "a")) 100.
Example C23_many_states : zlen (query_names q_hundred) <= name_bound /\ (exists p, createPathProcessor true q_hundred = Ok p /\ 100 < nstates (p_dfa p)) /\
  exists chunks, partitionInputStream (doc_text three_hundred) 2 = Ok chunks /\ (2 <= List.length chunks)%nat.
Proof.
  split; [vm_compute; discriminate|]. split.
  - assert (H : match createPathProcessor true q_hundred with Ok p => 100 <? nstates (p_dfa p) | UB _ => false end = true) by (vm_compute; reflexivity).
    destruct (createPathProcessor true q_hundred) as [p|]; [|discriminate H]. exists p. split; [reflexivity|apply Z.ltb_lt; exact H].
  - assert (H : match partitionInputStream (doc_text three_hundred) 2 with Ok l => Nat.leb 2 (List.length l) | UB _ => false end = true) by (vm_compute; reflexivity).
    destruct (partitionInputStream (doc_text three_hundred) 2) as [chunks|]; [|discriminate H]. exists chunks. split; [reflexivity|apply Nat.leb_le; exact H].
Qed.

(** A nesting depth of 31 objects is too much for eight names after two points: the thread runs out of nodes. *)
Fixpoint nest (n : nat) : json := match n with O => str "x" | S n => obj [(B "k", nest n)] end.
Definition deep : doc := docu (obj [(B "a", str "p"); (B "b", nest 30)]).
Definition q_eight : query := map (fun s => SDesc (B s)) ["a"; "b"; "c"; "d"; "e"; "f"; "g"; "h"]%string.
Theorem C23_refuted_nodes : exists q dc n out, good_doc dc /\ supported q = true /\ (exists p, createPathProcessor true q = Ok p /\ nstates (p_dfa p) <= 100) /\
  (depth (d_val dc) <= 98)%nat /\ outcome q dc (Ok (Some out)) /\ par_outcome q dc n (UB OOBWrite).
Proof.
  exists q_eight, deep, 2%nat, (@nil bytes).
  split; [apply good_checked; vm_compute; reflexivity|]. split; [reflexivity|]. split.
  - assert (H : match createPathProcessor true q_eight with Ok p => nstates (p_dfa p) <=? 100 | UB _ => false end = true) by (vm_compute; reflexivity).
    destruct (createPathProcessor true q_eight) as [p|]; [|discriminate H]. exists p. split; [reflexivity|apply Z.leb_le; exact H].
  - split; [apply Nat.leb_le; vm_compute; reflexivity|]. split; [unfold outcome; run_serial|unfold par_outcome; run_par1].
Qed.
Print Assumptions C23_refuted_nodes.

(** One load; any supported query; no selected object or array, no array whose
    elements are selected, and no array to which a slice of the query is applied,
    lies on both sides of a cut between two chunks; an array to which a filter is
    applied does so only if it starts in the first chunk; keys and values that
    are not objects or arrays have at most 998 bytes; the states of the automaton fit
    into the tables of the threads.  Both runs then do the same; what they return is
    what the query selects, if its filters can be evaluated on the document (as in
    C03).  A query that ends in a name selects no elements of arrays (C23_names);
    without the condition about slices and filters the runs differ (C23_refuted_slice,
    C23_refuted_undefined). *)
Theorem C23_partial : forall N strict q j pj p dc n p0 ps, supported q = true -> (strict = true -> single_names q) ->
  createPathProcessor strict q = Ok p -> j_major_null j = true ->
  good_doc dc -> tame (d_val dc) = true -> limits q (d_val dc) -> short_texts (d_val dc) = true -> (depth (d_val dc) <= 98)%nat ->
  nstates (p_dfa p) <= 100 -> nstates (p_dfa p) * (Z.of_nat (depth (d_val dc)) + 2) <= 500 ->
  (n <= 100)%nat -> partitionInputStream (doc_text dc) n = Ok (map Some (p0 :: ps)) ->
  Forall (fun s => nstates (p_dfa p) * (zlen s + 1) <= 5000000) ps ->
  apart_from_cuts q dc (p0 :: ps) -> items_apart_from_cuts q dc (p0 :: ps) ->
  parallelRun N p pj (doc_text dc) n = serialRun N j p (doc_text dc) /\
  (predicates_fit strict q -> filters_meaningful N q (d_val dc) ->
   parallelRun N p pj (doc_text dc) n = Ok (Some (answer_text (holds N) q (d_val dc)))).
Proof.
  intros N strict q j pj p dc n p0 ps Hn Hsn Hp Hj Hg Ht Hli Hs Hd H1 H2 Hc Hch Hsz Hap Hit.
  assert (H : parallelRun N p pj (doc_text dc) n = serialRun N j p (doc_text dc)).
  { refine (parallel_doc N strict q p j pj None dc n p0 ps Hn Hsn Hp Hj Hg Ht Hli Hs Hd H1 H2 Hc Hch Hsz Hap Hit _). discriminate. }
  split; [exact H|]. intros Hpf Hfm. rewrite H. destruct (serial_answer N strict q j dc Hn Hsn Hpf Hg Hli Hfm Hj) as (p' & E & R). rewrite Hp in E. injection E as <-. exact R.
Qed.
Print Assumptions C23_partial.

(** A filter in the middle of the query; each array lies in one chunk. *)
Definition tables : doc :=
  docu (obj [(B "a", obj [(B "x", arr [obj [(B "b", str "p"); (B "c", str "1")]; arr [o1 "q"]; obj [(B "b", str "r"); (B "c", str "2")]]);
    (B "y", str "some text between the two arrays"); (B "z", arr [obj [(B "b", str "s"); (B "c", str "3")]; o1 "u"; obj [(B "c", str "v")]]); (B "w", str "end")])]).
Definition q_tables : query := [SChild (B "a"); SChildAny; SFilter (EField [B "b"]); SChild (B "c")].
Example C23_partial_filter : exists p p0 ps, supported q_tables = true /\ single_names q_tables /\
  createPathProcessor true q_tables = Ok p /\ good_doc tables /\ tame (d_val tables) = true /\ limits q_tables (d_val tables) /\ short_texts (d_val tables) = true /\ (depth (d_val tables) <= 98)%nat /\
  nstates (p_dfa p) <= 100 /\ nstates (p_dfa p) * (Z.of_nat (depth (d_val tables)) + 2) <= 500 /\
  partitionInputStream (doc_text tables) 2 = Ok (map Some (p0 :: ps)) /\ List.length ps = 1%nat /\
  Forall (fun s => nstates (p_dfa p) * (zlen s + 1) <= 5000000) ps /\ apart_from_cuts q_tables tables (p0 :: ps) /\ items_apart_from_cuts q_tables tables (p0 :: ps) /\
  predicates_fit true q_tables /\ filters_meaningful zops q_tables (d_val tables) /\
  answer_text (holds zops) q_tables (d_val tables) = [B """1"""; B """2"""; B """3"""].
Proof.
  destruct (partitionInputStream (doc_text tables) 2) as [[|[p0|] [|[p1|] [|? ?]]]|] eqn:E; try (vm_compute in E; discriminate E).
  vm_compute in E. injection E as E0 E1. eexists. exists p0, [p1].
  split; [reflexivity|]. split; [apply single_checked; vm_compute; reflexivity|]. split; [vm_compute; reflexivity|]. split; [apply good_checked; vm_compute; reflexivity|].
  split; [vm_compute; reflexivity|]. split; [apply limits_checked; vm_compute; reflexivity|]. split; [vm_compute; reflexivity|].
  split; [apply Nat.leb_le; vm_compute; reflexivity|]. split; [vm_compute; discriminate|]. split; [vm_compute; discriminate|].
  split; [reflexivity|]. split; [reflexivity|]. split; [subst; repeat constructor; vm_compute; discriminate|].
  split; [apply apart_checked; subst; vm_compute; reflexivity|]. split; [apply items_checked; subst; vm_compute; reflexivity|].
  split; [apply fit_checked; vm_compute; reflexivity|]. split; [apply meaningful_checked; vm_compute; reflexivity|vm_compute; reflexivity].
Qed.

(** The array to which the filter is applied reaches from the first chunk to the last
    of five. *)
Definition list_doc : doc := docu (obj [(B "a", list_b)]).
Example C23_partial_across : exists p p0 ps, supported q_has = true /\ single_names q_has /\
  createPathProcessor true q_has = Ok p /\ good_doc list_doc /\ tame (d_val list_doc) = true /\ limits q_has (d_val list_doc) /\ short_texts (d_val list_doc) = true /\ (depth (d_val list_doc) <= 98)%nat /\
  nstates (p_dfa p) <= 100 /\ nstates (p_dfa p) * (Z.of_nat (depth (d_val list_doc)) + 2) <= 500 /\
  partitionInputStream (doc_text list_doc) 5 = Ok (map Some (p0 :: ps)) /\ List.length ps = 4%nat /\
  Forall (fun s => nstates (p_dfa p) * (zlen s + 1) <= 5000000) ps /\ apart_from_cuts q_has list_doc (p0 :: ps) /\ items_apart_from_cuts q_has list_doc (p0 :: ps) /\
  predicates_fit true q_has /\ filters_meaningful zops q_has (d_val list_doc) /\
  answer_text (holds zops) q_has (d_val list_doc) = map (fun s => DQ :: B s ++ [DQ]) ["1"; "2"; "3"; "4"; "5"; "6"]%string.
Proof.
  destruct (partitionInputStream (doc_text list_doc) 5) as [[|[p0|] [|[p1|] [|[p2|] [|[p3|] [|[p4|] [|? ?]]]]]]|] eqn:E; try (vm_compute in E; discriminate E).
  vm_compute in E. injection E as E0 E1 E2 E3 E4. eexists. exists p0, [p1; p2; p3; p4].
  split; [reflexivity|]. split; [apply single_checked; vm_compute; reflexivity|]. split; [vm_compute; reflexivity|]. split; [apply good_checked; vm_compute; reflexivity|].
  split; [vm_compute; reflexivity|]. split; [apply limits_checked; vm_compute; reflexivity|]. split; [vm_compute; reflexivity|].
  split; [apply Nat.leb_le; vm_compute; reflexivity|]. split; [vm_compute; discriminate|]. split; [vm_compute; discriminate|].
  split; [reflexivity|]. split; [reflexivity|]. split; [subst; repeat constructor; vm_compute; discriminate|].
  split; [apply apart_checked; subst; vm_compute; reflexivity|]. split; [apply items_checked; subst; vm_compute; reflexivity|].
  split; [apply fit_checked; vm_compute; reflexivity|]. split; [apply meaningful_checked; vm_compute; reflexivity|vm_compute; reflexivity].
Qed.

(** Queries without filters. *)
Theorem C23_slices : forall N strict q j pj p dc n p0 ps, slice_query q = true -> supported q = true ->
  createPathProcessor strict q = Ok p -> j_major_null j = true ->
  good_doc dc -> tame (d_val dc) = true -> limits q (d_val dc) -> short_texts (d_val dc) = true -> (depth (d_val dc) <= 98)%nat ->
  nstates (p_dfa p) <= 100 -> nstates (p_dfa p) * (Z.of_nat (depth (d_val dc)) + 2) <= 500 ->
  (n <= 100)%nat -> partitionInputStream (doc_text dc) n = Ok (map Some (p0 :: ps)) ->
  Forall (fun s => nstates (p_dfa p) * (zlen s + 1) <= 5000000) ps ->
  apart_from_cuts q dc (p0 :: ps) -> items_apart_from_cuts q dc (p0 :: ps) ->
  parallelRun N p pj (doc_text dc) n = serialRun N j p (doc_text dc) /\
  parallelRun N p pj (doc_text dc) n = Ok (Some (answer_text (fun _ _ => false) q (d_val dc))).
Proof.
  intros N strict q j pj p dc n p0 ps Hq Hn Hp Hj Hg Ht Hli Hs Hd H1 H2 Hc Hch Hsz Hap Hit.
  destruct (C23_partial N strict q j pj p dc n p0 ps Hn (slice_names strict q Hq) Hp Hj Hg Ht Hli Hs Hd H1 H2 Hc Hch Hsz Hap Hit) as [H _].
  split; [exact H|]. rewrite H. destruct (supported_parts q Hn) as (S1 & S2 & _ & _ & _ & S3). destruct (slice_answer N strict q j dc Hq S1 S2 S3 Hg Hli Hj) as (p' & E & R). rewrite Hp in E. injection E as <-. exact R.
Qed.
Print Assumptions C23_slices.

(** Three chunks, two of them beginning inside of the array. *)
Example C23_slices_case : let q := [SChild (B "a"); SAll; SChild (B "b")] in exists p p0 ps, slice_query q = true /\ supported q = true /\
  createPathProcessor true q = Ok p /\ good_doc objects /\ tame (d_val objects) = true /\ limits q (d_val objects) /\ short_texts (d_val objects) = true /\ (depth (d_val objects) <= 98)%nat /\
  nstates (p_dfa p) <= 100 /\ nstates (p_dfa p) * (Z.of_nat (depth (d_val objects)) + 2) <= 500 /\
  partitionInputStream (doc_text objects) 3 = Ok (map Some (p0 :: ps)) /\ List.length ps = 2%nat /\
  Forall (fun s => nstates (p_dfa p) * (zlen s + 1) <= 5000000) ps /\ apart_from_cuts q objects (p0 :: ps) /\ items_apart_from_cuts q objects (p0 :: ps) /\
  List.length (answer_text (fun _ _ => false) q (d_val objects)) = 6%nat.
Proof.
  cbv zeta. destruct (partitionInputStream (doc_text objects) 3) as [[|[p0|] [|[p1|] [|[p2|] [|? ?]]]]|] eqn:E; try (vm_compute in E; discriminate E).
  vm_compute in E. injection E as E0 E1 E2. eexists. exists p0, [p1; p2].
  split; [reflexivity|]. split; [reflexivity|]. split; [vm_compute; reflexivity|]. split; [apply good_checked; vm_compute; reflexivity|].
  split; [vm_compute; reflexivity|]. split; [apply limits_checked; vm_compute; reflexivity|]. split; [vm_compute; reflexivity|].
  split; [apply Nat.leb_le; vm_compute; reflexivity|]. split; [vm_compute; discriminate|]. split; [vm_compute; discriminate|].
  split; [reflexivity|]. split; [reflexivity|]. split; [subst; repeat constructor; vm_compute; discriminate|].
  split; [apply apart_checked; subst; vm_compute; reflexivity|]. split; [apply items_name; reflexivity|vm_compute; reflexivity].
Qed.

(** The elements of both arrays are selected; each array lies in one chunk. *)
Definition rows : doc := docu (obj [(B "a", obj [(B "x", arr [str "p"; obj [(B "k", str "q")]]); (B "y", str "none"); (B "z", arr [str "r"; str "s"]); (B "w", str "end")])]).
Example C23_slices_items : let q := [SChild (B "a"); SChildAny; SAll] in exists p p0 ps, slice_query q = true /\ supported q = true /\
  createPathProcessor true q = Ok p /\ good_doc rows /\ tame (d_val rows) = true /\ limits q (d_val rows) /\ short_texts (d_val rows) = true /\ (depth (d_val rows) <= 98)%nat /\
  nstates (p_dfa p) <= 100 /\ nstates (p_dfa p) * (Z.of_nat (depth (d_val rows)) + 2) <= 500 /\
  partitionInputStream (doc_text rows) 3 = Ok (map Some (p0 :: ps)) /\ List.length ps = 2%nat /\
  Forall (fun s => nstates (p_dfa p) * (zlen s + 1) <= 5000000) ps /\ apart_from_cuts q rows (p0 :: ps) /\ items_apart_from_cuts q rows (p0 :: ps) /\
  answer_text (fun _ _ => false) q (d_val rows) = [B """p"""; B "{""k"": ""q""}"; B """r"""; B """s"""].
Proof.
  cbv zeta. destruct (partitionInputStream (doc_text rows) 3) as [[|[p0|] [|[p1|] [|[p2|] [|? ?]]]]|] eqn:E; try (vm_compute in E; discriminate E).
  vm_compute in E. injection E as E0 E1 E2. eexists. exists p0, [p1; p2].
  split; [reflexivity|]. split; [reflexivity|]. split; [vm_compute; reflexivity|]. split; [apply good_checked; vm_compute; reflexivity|].
  split; [vm_compute; reflexivity|]. split; [apply limits_checked; vm_compute; reflexivity|]. split; [vm_compute; reflexivity|].
  split; [apply Nat.leb_le; vm_compute; reflexivity|]. split; [vm_compute; discriminate|]. split; [vm_compute; discriminate|].
  split; [reflexivity|]. split; [reflexivity|]. split; [subst; repeat constructor; vm_compute; discriminate|].
  split; [apply apart_checked; subst; vm_compute; reflexivity|]. split; [apply items_checked; subst; vm_compute; reflexivity|vm_compute; reflexivity].
Qed.

(** A slice in the middle of the query; each array lies in one chunk. *)
Definition sheets : doc := docu (obj [(B "a", obj [(B "x", arr [o1 "p"; o1 "q"; o1 "r"]); (B "y", str "none"); (B "z", arr [o1 "s"; arr [o1 "t"]; o1 "u"]); (B "w", str "the end of the document")])]).
Example C23_slices_slice : let q := [SChild (B "a"); SChildAny; SSlice (Some 1) (Some 3); SChild (B "b")] in exists p p0 ps, slice_query q = true /\ supported q = true /\
  createPathProcessor true q = Ok p /\ good_doc sheets /\ tame (d_val sheets) = true /\ limits q (d_val sheets) /\ short_texts (d_val sheets) = true /\ (depth (d_val sheets) <= 98)%nat /\
  nstates (p_dfa p) <= 100 /\ nstates (p_dfa p) * (Z.of_nat (depth (d_val sheets)) + 2) <= 500 /\
  partitionInputStream (doc_text sheets) 3 = Ok (map Some (p0 :: ps)) /\ List.length ps = 2%nat /\
  Forall (fun s => nstates (p_dfa p) * (zlen s + 1) <= 5000000) ps /\ apart_from_cuts q sheets (p0 :: ps) /\ items_apart_from_cuts q sheets (p0 :: ps) /\
  answer_text (fun _ _ => false) q (d_val sheets) = [B """q"""; B """r"""; B """u"""].
Proof.
  cbv zeta. destruct (partitionInputStream (doc_text sheets) 3) as [[|[p0|] [|[p1|] [|[p2|] [|? ?]]]]|] eqn:E; try (vm_compute in E; discriminate E).
  vm_compute in E. injection E as E0 E1 E2. eexists. exists p0, [p1; p2].
  split; [reflexivity|]. split; [reflexivity|]. split; [vm_compute; reflexivity|]. split; [apply good_checked; vm_compute; reflexivity|].
  split; [vm_compute; reflexivity|]. split; [apply limits_checked; vm_compute; reflexivity|]. split; [vm_compute; reflexivity|].
  split; [apply Nat.leb_le; vm_compute; reflexivity|]. split; [vm_compute; discriminate|]. split; [vm_compute; discriminate|].
  split; [reflexivity|]. split; [reflexivity|]. split; [subst; repeat constructor; vm_compute; discriminate|].
  split; [apply apart_checked; subst; vm_compute; reflexivity|]. split; [apply items_checked; subst; vm_compute; reflexivity|vm_compute; reflexivity].
Qed.

(** A query that ends in a name: only the selected objects and arrays matter. *)
Theorem C23_names : forall N strict q j pj p dc n p0 ps, path_query q = true -> names_fit q = true -> ends_in_name q = true ->
  createPathProcessor strict q = Ok p -> j_major_null j = true ->
  good_doc dc -> tame (d_val dc) = true -> limits q (d_val dc) -> short_texts (d_val dc) = true -> (depth (d_val dc) <= 98)%nat ->
  nstates (p_dfa p) <= 100 -> nstates (p_dfa p) * (Z.of_nat (depth (d_val dc)) + 2) <= 500 ->
  (n <= 100)%nat -> partitionInputStream (doc_text dc) n = Ok (map Some (p0 :: ps)) ->
  Forall (fun s => nstates (p_dfa p) * (zlen s + 1) <= 5000000) ps ->
  apart_from_cuts q dc (p0 :: ps) ->
  parallelRun N p pj (doc_text dc) n = serialRun N j p (doc_text dc) /\
  parallelRun N p pj (doc_text dc) n = Ok (Some (answer_text (fun _ _ => false) q (d_val dc))).
Proof. intros. eapply C23_slices; eauto using path_slice, path_supported. apply items_name; assumption. Qed.
Print Assumptions C23_names.

(** * C26: pruning by constraints *)
Definition C26_full : Prop := forall N strict q p pj ct dc n, wf_doc dc = true -> (0 < n)%nat -> createPathProcessor strict q = Ok p ->
  parallelRunOpt N p ct pj (doc_text dc) n = parallelRun N p pj (doc_text dc) n.

(** What a parallel run does with the constraints collected from [tr]. *)
Definition opt_outcome (q : query) (tr dc : doc) (n : nat) (r : res (option (list bytes))) : Prop :=
  forall N strict p ct, createPathProcessor strict q = Ok p -> collectDataConstraints p [] (doc_text tr) = Ok ct ->
    parallelRunOpt N p ct zeros (doc_text dc) n = r.
Ltac run_opt :=
  intros N strict p ct Hp Hc; destruct strict; vm_compute in Hp; injection Hp as <-; vm_compute in Hc; injection Hc as <-; vm_compute; reflexivity.

(** The keys of the two training documents have been seen in other states; the
    chunks that start with them are processed a second time, from fields that
    were never written, or with offsets that belong to another chunk: the last
    text is not a value of the document. *)
Definition two_xs : doc :=
  docu (obj (map (fun k => (B k, obj [(B "b", str "p"); (B "c", str "q"); (B "b", str "r")])) ["x"; "y"; "x"]%string)).
Definition train_y : doc := docu (obj [(B "y", obj [(B "b", str "p")])]).
Theorem C26_refuted : exists q tr dc n out, good_doc tr /\ good_doc dc /\ supported q = true /\ (exists p ct, createPathProcessor true q = Ok p /\ collectDataConstraints p [] (doc_text tr) = Ok ct) /\
  outcome q dc (Ok (Some out)) /\ par_outcome q dc n (Ok (Some out)) /\ opt_outcome q tr dc n (UB UninitRead).
Proof.
  eexists [SChild (B "x"); SChild (B "b")], train_y, two_xs, 3%nat, _.
  split; [apply good_checked; vm_compute; reflexivity|]. split; [apply good_checked; vm_compute; reflexivity|]. split; [reflexivity|].
  split; [eexists; eexists; split; vm_compute; reflexivity|].
  split; [unfold outcome; run_it|]. split; [unfold par_outcome; run_par|unfold opt_outcome; run_opt].
Qed.
Print Assumptions C26_refuted.
Definition train_b : doc := docu (obj [(B "b", str "p")]).
Theorem C26_refuted_text : exists q tr dc n out out', good_doc tr /\ good_doc dc /\ supported q = true /\ (exists p ct, createPathProcessor true q = Ok p /\ collectDataConstraints p [] (doc_text tr) = Ok ct) /\
  par_outcome q dc n (Ok (Some out)) /\ opt_outcome q tr dc n (Ok (Some (out ++ [out']))) /\ ~ In out' (map (fun s => text (snd s)) (doc_spans dc)).
Proof.
  eexists q_all, train_b, objects, 3%nat, _, (B """b"": ""t""},{""b"": ""u""}").
  split; [apply good_checked; vm_compute; reflexivity|]. split; [apply good_checked; vm_compute; reflexivity|]. split; [reflexivity|].
  split; [eexists; eexists; split; vm_compute; reflexivity|].
  split; [unfold par_outcome; run_par|]. split; [unfold opt_outcome; run_opt|].
  intros H. vm_compute in H. repeat (destruct H as [H|H]; [discriminate H|]). exact H.
Qed.
Print Assumptions C26_refuted_text.

(** The runs of C23_partial, with the table that a training run on any text [tr]
    has collected.  [reads] (TrainSpec.v) says in which states of the automaton a
    text shows a key or an array.  If the training text shows a key (an array) at
    all, it has to show it in every state in which the document shows it.
    Missing: otherwise (C26_refuted); keys of more than 98 bytes; keys equal to the
    unset name of array entries. *)
Theorem C26_partial : forall N strict q j pj p tr ct dc n p0 ps, supported q = true -> (strict = true -> single_names q) ->
  createPathProcessor strict q = Ok p -> j_major_null j = true ->
  good_doc dc -> tame (d_val dc) = true -> limits q (d_val dc) -> short_texts (d_val dc) = true -> (depth (d_val dc) <= 98)%nat ->
  nstates (p_dfa p) <= 100 -> nstates (p_dfa p) * (Z.of_nat (depth (d_val dc)) + 2) <= 500 ->
  (n <= 100)%nat -> partitionInputStream (doc_text dc) n = Ok (map Some (p0 :: ps)) ->
  Forall (fun s => nstates (p_dfa p) * (zlen s + 1) <= 5000000) ps ->
  apart_from_cuts q dc (p0 :: ps) -> items_apart_from_cuts q dc (p0 :: ps) ->
  collectDataConstraints p (pj_name pj) tr = Ok ct ->
  (forall s i, ~ reads (p_dfa p) tr (CKey (pj_name pj)) s i) ->
  (forall k s i, reads (p_dfa p) (doc_text dc) (CKey k) s i -> k <> pj_name pj /\ zlen k <= 98) ->
  (forall k s i, reads (p_dfa p) (doc_text dc) k s i -> (exists s' i', reads (p_dfa p) tr k s' i') -> exists i', reads (p_dfa p) tr k s i') ->
  parallelRunOpt N p ct pj (doc_text dc) n = parallelRun N p pj (doc_text dc) n /\
  parallelRunOpt N p ct pj (doc_text dc) n = serialRun N j p (doc_text dc) /\
  (predicates_fit strict q -> filters_meaningful N q (d_val dc) ->
   parallelRunOpt N p ct pj (doc_text dc) n = Ok (Some (answer_text (holds N) q (d_val dc)))).
Proof.
  intros N strict q j pj p tr ct dc n p0 ps Hn Hsn Hp Hj Hg Ht Hli Hs Hd H1 H2 Hc Hch Hsz Hap Hit Hct Hjk Hkeys Hmet.
  pose proof (train_covers p (pj_name pj) tr ct (doc_text dc) (made_dfa strict q p Hn Hp) Hct Hjk Hkeys Hmet) as Htab.
  destruct (C23_partial N strict q j pj p dc n p0 ps Hn Hsn Hp Hj Hg Ht Hli Hs Hd H1 H2 Hc Hch Hsz Hap Hit) as [E1 E2].
  assert (H : parallelRunOpt N p ct pj (doc_text dc) n = serialRun N j p (doc_text dc)).
  { refine (parallel_doc N strict q p j pj (Some ct) dc n p0 ps Hn Hsn Hp Hj Hg Ht Hli Hs Hd H1 H2 Hc Hch Hsz Hap Hit _). intros t Et. injection Et as <-. exact Htab. }
  rewrite H, <- E1. auto.
Qed.
Print Assumptions C26_partial.
(** Trained on a document [dt], for instance the document itself, and a query
    without slices: [met] (TrainSpec.v) says in which states a document shows a
    key or an array. *)
Theorem C26_documents : forall N strict q j pj p dt ct dc n p0 ps, supported q = true -> (strict = true -> single_names q) ->
  forallb (fun s => match s with SSlice _ _ => false | _ => true end) q = true ->
  createPathProcessor strict q = Ok p -> j_major_null j = true ->
  good_doc dc -> tame (d_val dc) = true -> limits q (d_val dc) -> short_texts (d_val dc) = true -> (depth (d_val dc) <= 98)%nat ->
  nstates (p_dfa p) <= 100 -> nstates (p_dfa p) * (Z.of_nat (depth (d_val dc)) + 2) <= 500 ->
  (n <= 100)%nat -> partitionInputStream (doc_text dc) n = Ok (map Some (p0 :: ps)) ->
  Forall (fun s => nstates (p_dfa p) * (zlen s + 1) <= 5000000) ps ->
  apart_from_cuts q dc (p0 :: ps) -> items_apart_from_cuts q dc (p0 :: ps) ->
  good_doc dt -> limits q (d_val dt) -> collectDataConstraints p (pj_name pj) (doc_text dt) = Ok ct ->
  ~ shown (d_val dt) (CKey (pj_name pj)) ->
  (forall k, shown (d_val dc) (CKey k) -> k <> pj_name pj /\ zlen k <= 98) ->
  (forall k s, met (p_dfa p) (d_val dc) k s -> shown (d_val dt) k -> met (p_dfa p) (d_val dt) k s) ->
  parallelRunOpt N p ct pj (doc_text dc) n = parallelRun N p pj (doc_text dc) n /\
  parallelRunOpt N p ct pj (doc_text dc) n = serialRun N j p (doc_text dc) /\
  (predicates_fit strict q -> filters_meaningful N q (d_val dc) ->
   parallelRunOpt N p ct pj (doc_text dc) n = Ok (Some (answer_text (holds N) q (d_val dc)))).
Proof.
  intros N strict q j pj p dt ct dc n p0 ps Hq Hsn Hfree Hp Hj Hg Ht Hli Hs Hd H1 H2 Hc Hch Hsz Hap Hit Hgt Hlt Hct Hjk Hkeys Hmet.
  assert (Hdoc : forall k s i, reads (p_dfa p) (doc_text dc) k s i -> met (p_dfa p) (d_val dc) k s).
  { intros k s i Hr. apply (free_reads strict q p dc k s Hq Hsn Hfree Hp Hg Hli). eauto. }
  assert (Htr : forall k s i, reads (p_dfa p) (doc_text dt) k s i -> shown (d_val dt) k).
  { intros k s i Hr. apply (met_shown (p_dfa p) _ _ s). apply (free_reads strict q p dt k s Hq Hsn Hfree Hp Hgt Hlt). eauto. }
  apply (C26_partial N strict q j pj p (doc_text dt) ct dc n p0 ps); eauto.
  - intros k s i Hr. apply Hkeys. eapply met_shown. eauto.
  - intros k s i Hr (s' & i' & Hr'). apply (free_reads strict q p dt k s Hq Hsn Hfree Hp Hgt Hlt). eauto.
Qed.
Print Assumptions C26_documents.

(** The second and the third chunk begin with the key [b]; the training document
    has shown it in two of the five states. *)
Definition train_two : doc := docu (obj [(B "x", obj [(B "b", str "v")]); (B "a", arr [o1 "w"])]).
Definition no_slice (s : step) : bool := match s with SSlice _ _ => false | _ => true end.
Example C26_case : let q := [SChild (B "a"); SAll; SChild (B "b")] in exists p p0 ps ct, supported q = true /\ single_names q /\ forallb no_slice q = true /\
  createPathProcessor true q = Ok p /\ good_doc objects /\ tame (d_val objects) = true /\ limits q (d_val objects) /\ short_texts (d_val objects) = true /\ (depth (d_val objects) <= 98)%nat /\
  nstates (p_dfa p) <= 100 /\ nstates (p_dfa p) * (Z.of_nat (depth (d_val objects)) + 2) <= 500 /\
  partitionInputStream (doc_text objects) 3 = Ok (map Some (p0 :: ps)) /\ List.length ps = 2%nat /\
  Forall (fun s => nstates (p_dfa p) * (zlen s + 1) <= 5000000) ps /\ apart_from_cuts q objects (p0 :: ps) /\ items_apart_from_cuts q objects (p0 :: ps) /\
  good_doc train_two /\ limits q (d_val train_two) /\ collectDataConstraints p (pj_name zeros) (doc_text train_two) = Ok ct /\
  ~ shown (d_val train_two) (CKey (pj_name zeros)) /\ (forall k, shown (d_val objects) (CKey k) -> k <> pj_name zeros /\ zlen k <= 98) /\
  (forall k s, met (p_dfa p) (d_val objects) k s -> shown (d_val train_two) k -> met (p_dfa p) (d_val train_two) k s) /\
  updateStateInfo [] ct (CKey (B "b")) = Some [0; 3] /\ nstates (p_dfa p) = 5.
Proof.
  cbv zeta. destruct (partitionInputStream (doc_text objects) 3) as [[|[p0|] [|[p1|] [|[p2|] [|? ?]]]]|] eqn:E; try (vm_compute in E; discriminate E).
  vm_compute in E. injection E as E0 E1 E2. eexists. exists p0, [p1; p2]. eexists.
  split; [reflexivity|]. split; [intros f []|]. split; [reflexivity|]. split; [vm_compute; reflexivity|]. split; [apply good_checked; vm_compute; reflexivity|].
  split; [vm_compute; reflexivity|]. split; [apply limits_checked; vm_compute; reflexivity|]. split; [vm_compute; reflexivity|].
  split; [apply Nat.leb_le; vm_compute; reflexivity|]. split; [vm_compute; discriminate|]. split; [vm_compute; discriminate|].
  split; [reflexivity|]. split; [reflexivity|]. split; [subst; repeat constructor; vm_compute; discriminate|].
  split; [apply apart_checked; subst; vm_compute; reflexivity|]. split; [apply items_name; reflexivity|].
  split; [apply good_checked; vm_compute; reflexivity|]. split; [apply limits_checked; vm_compute; reflexivity|]. split; [vm_compute; reflexivity|].
  split; [intros H; apply shown_listed in H; vm_compute in H; intuition discriminate|].
  split; [intros k H; apply shown_listed in H; vm_compute in H;
    repeat (destruct H as [H|H]; [first [discriminate H | injection H as <-; split; vm_compute; discriminate]|]); destruct H|].
  split; [|split; vm_compute; reflexivity].
  refine (met_checked true [SChild (B "a"); SAll; SChild (B "b")] _ objects train_two eq_refl (fun _ f H => match H with end) eq_refl _ _); vm_compute; reflexivity.
Qed.

(** The filter query of C23_partial_across, trained on the document
    itself. *)
Example C26_filter_case : exists p ct, forallb no_slice q_has = true /\ createPathProcessor true q_has = Ok p /\
  good_doc list_doc /\ limits q_has (d_val list_doc) /\ collectDataConstraints p (pj_name zeros) (doc_text list_doc) = Ok ct /\
  ~ shown (d_val list_doc) (CKey (pj_name zeros)) /\ (forall k, shown (d_val list_doc) (CKey k) -> k <> pj_name zeros /\ zlen k <= 98) /\
  (forall k s, met (p_dfa p) (d_val list_doc) k s -> shown (d_val list_doc) k -> met (p_dfa p) (d_val list_doc) k s).
Proof.
  eexists. eexists. split; [reflexivity|]. split; [vm_compute; reflexivity|]. split; [apply good_checked; vm_compute; reflexivity|].
  split; [apply limits_checked; vm_compute; reflexivity|]. split; [vm_compute; reflexivity|].
  split; [intros H; apply shown_listed in H; vm_compute in H; intuition discriminate|].
  split; [intros k H; apply shown_listed in H; vm_compute in H;
    repeat (destruct H as [H|H]; [first [discriminate H | injection H as <-; split; vm_compute; discriminate]|]); destruct H|auto].
Qed.

(** * C37: one core *)
Definition C37_full : Prop := forall N strict q j pj p file, j_major_null j = true -> createPathProcessor strict q = Ok p ->
  parallelRun N p pj file 1 = serialRun N j p file.

(** Every file whose tokens are well nested up to where it ends (NestSpec.v; any
    number of values one after the other, of at most 100 levels, the last one
    possibly cut off), that does not start with a blank or a NUL and fits into
    one load, and every query.  Both runs return the same, also when they run
    into undefined behaviour. *)
Theorem C37_partial : forall N strict q j pj p c file, createPathProcessor strict q = Ok p -> zlen (query_names q) <= name_bound -> j_major_null j = true ->
  c <> " "%char -> c <> NUL -> zlen (c :: file) <= MEMORY_FOOTPRINT ->
  (forall evs, lex_all (c :: file) = Ok evs -> well_nested [] (map e_tok evs) = true) ->
  parallelRun N p pj (c :: file) 1 = serialRun N j p (c :: file).
Proof.
  intros N strict q j pj p c file Hp HU Hj H1 H2 Hs Hw. apply Ascii.eqb_neq in H1, H2.
  apply single_run; eauto; cbn [c_string]; rewrite H2; [discriminate|]. cbn [lead_blanks]. rewrite H1. reflexivity.
Qed.
Print Assumptions C37_partial.

(** Two documents and the beginning of a third. *)
Definition three_texts : bytes := Eval vm_compute in doc_text letters ++ [LF] ++ doc_text objects ++ [LF] ++ B "{""a"": [""z"", [".
Example C37_partial_case : exists p c file evs out,
  createPathProcessor true q_all = Ok p /\ c :: file = three_texts /\ c <> " "%char /\ c <> NUL /\ zlen (c :: file) <= MEMORY_FOOTPRINT /\
  lex_all (c :: file) = Ok evs /\ well_nested [] (map e_tok evs) = true /\
  parallelRun zops p zeros (c :: file) 1 = Ok (Some out) /\ List.length out = 13%nat.
Proof.
  do 5 eexists. split; [vm_compute; reflexivity|]. split; [unfold three_texts; reflexivity|].
  split; [discriminate|]. split; [discriminate|]. split; [vm_compute; discriminate|]. split; [vm_compute; reflexivity|].
  split; [vm_compute; reflexivity|]. split; [vm_compute; reflexivity|]. reflexivity.
Qed.

(** Every document and every query. *)
Theorem C37_document : forall N strict q j pj p dc, createPathProcessor strict q = Ok p -> zlen (query_names q) <= name_bound -> j_major_null j = true ->
  good_doc dc -> (depth (d_val dc) <= 100)%nat -> parallelRun N p pj (doc_text dc) 1 = serialRun N j p (doc_text dc).
Proof. intros N strict q j pj p dc Hp HU Hj Hg Hd. eapply single_doc; eauto. Qed.
Print Assumptions C37_document.
Definition q_filter : query := [SChild (B "store"); SChild (B "book"); SFilter (EField [B "title"]); SChild (B "price")].
Example C37_document_case : exists p out, createPathProcessor true q_filter = Ok p /\ zlen (query_names q_filter) <= name_bound /\
  good_doc store /\ (depth (d_val store) <= 100)%nat /\ parallelRun zops p zeros (doc_text store) 1 = Ok (Some out) /\ out <> [].
Proof.
  do 2 eexists. split; [vm_compute; reflexivity|]. split; [vm_compute; discriminate|]. split; [apply good_checked; vm_compute; reflexivity|].
  split; [vm_compute; repeat constructor|]. split; [vm_compute; reflexivity|discriminate].
Qed.

(** Two blanks in front: the only chunk is copied from two bytes further on, to
    past its end. *)
Theorem C37_refuted : exists q dc out, wf_doc dc = true /\ (exists p, createPathProcessor true q = Ok p) /\
  outcome q dc (Ok (Some out)) /\ par_outcome q dc 1 (UB OOBRead).
Proof.
  eexists [SChild (B "a")], (mkDoc (B "  ") (obj [(B "a", str "x"); (B "b", str "y")]) []), _.
  split; [reflexivity|]. split; [eexists; vm_compute; reflexivity|].
  split; [unfold outcome; run_it|unfold par_outcome; run_par].
Qed.
Print Assumptions C37_refuted.

(** More than 100 levels: the serial engine ignores the ones it has no room for,
    the engine of the threads writes past its stack. *)
Definition deep_array (n : nat) : json := Nat.iter n (fun v => arr [v]) (str "x").
Theorem C37_refuted_deep : exists q dc out, good_doc dc /\ (exists p, createPathProcessor true q = Ok p) /\
  outcome q dc (Ok (Some out)) /\ par_outcome q dc 1 (UB OOBWrite).
Proof.
  eexists [SChild (B "a")], (docu (deep_array 101)), _.
  split; [apply good_checked; vm_compute; reflexivity|]. split; [eexists; vm_compute; reflexivity|].
  split; [unfold outcome; run_it|unfold par_outcome; run_par].
Qed.
Print Assumptions C37_refuted_deep.
