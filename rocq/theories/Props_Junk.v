(** C45: the answer does not depend on what happens to be in memory that was never
    written.

    A run reads fields that no code has initialised: a flag and a pointer in serial
    runs, the states of units, a flag and the names of array entries of a constraint
    table in parallel runs ([junk] in Run.v, [pjunk] in Merge.v hold their values). *)
From Verif Require Import Base Util Spec QueryClass PosSpec Claims Lexer Dfa Constraint Stream Num FilterSpec Builder Eval Filter Loader Run Worker Merge NestSpec AnyQuery TreeSem SingleRun CutSpec EndToEnd ClaimProof WorkRep Report Tables ParSpec ParDoc Noise Props_Par Findings Samples.
Open Scope Z_scope.

Definition C45_full : Prop :=
  (forall N p j1 j2 file, serialRun N j1 p file = serialRun N j2 p file) /\
  (forall N p pj1 pj2 file n, parallelRun N p pj1 file n = parallelRun N p pj2 file n) /\
  (forall N p tr pj1 pj2 ct1 ct2 file n, collectDataConstraints p (pj_name pj1) tr = Ok ct1 -> collectDataConstraints p (pj_name pj2) tr = Ok ct2 ->
     parallelRunOpt N p ct1 pj1 file n = parallelRunOpt N p ct2 pj2 file n).

(** Serial runs: any automaton, any file, any number of loads.  Two runs that return
    return the same.  Whether a run returns can depend on the memory (C39_always and
    C22_two_loads), for a file in one load only on the pointer. *)
Theorem C45_partial : forall N p j1 j2 file,
  (forall o1 o2, serialRun N j1 p file = Ok o1 -> serialRun N j2 p file = Ok o2 -> o1 = o2) /\
  (zlen file <= 250000000 -> j_major_null j1 = j_major_null j2 -> serialRun N j1 p file = serialRun N j2 p file).
Proof. intros N p j1 j2 file. split; [intros o1 o2; apply run_alike|]. intros H. apply run_once; [reflexivity|exact H]. Qed.
Print Assumptions C45_partial.

(** A file that is no JSON, with two values of the flag. *)
Example C45_runs : exists o, List.length o = 1%nat /\ (exists p, createPathProcessor true [SDesc (B "a")] = Ok p) /\
  forall f p, createPathProcessor true [SDesc (B "a")] = Ok p -> serialRun zops (mkJunk f true) p (B "}{""a"": ""x"", {,""a"": {""b") = Ok (Some o).
Proof.
  exists [B """x"""]. split; [reflexivity|]. split; [eexists; vm_compute; reflexivity|]. intros f p Hp. vm_compute in Hp. injection Hp as <-. vm_compute. reflexivity.
Qed.

(** Parallel runs: under the conditions of C23_partial. *)
Theorem C45_parallel_partial : forall N strict q pj1 pj2 p dc n p0 ps, supported q = true -> (strict = true -> single_names q) ->
  createPathProcessor strict q = Ok p ->
  good_doc dc -> tame (d_val dc) = true -> limits q (d_val dc) -> short_texts (d_val dc) = true -> (depth (d_val dc) <= 98)%nat ->
  nstates (p_dfa p) <= 100 -> nstates (p_dfa p) * (Z.of_nat (depth (d_val dc)) + 2) <= 500 ->
  (n <= 100)%nat -> partitionInputStream (doc_text dc) n = Ok (map Some (p0 :: ps)) ->
  Forall (fun s => nstates (p_dfa p) * (zlen s + 1) <= 5000000) ps ->
  apart_from_cuts q dc (p0 :: ps) -> items_apart_from_cuts q dc (p0 :: ps) ->
  parallelRun N p pj1 (doc_text dc) n = parallelRun N p pj2 (doc_text dc) n.
Proof.
  intros N strict q pj1 pj2 p dc n p0 ps. intros.
  destruct (C23_partial N strict q (mkJunk 0 true) pj1 p dc n p0 ps) as [E1 _]; auto. destruct (C23_partial N strict q (mkJunk 0 true) pj2 p dc n p0 ps) as [E2 _]; auto. congruence.
Qed.
Print Assumptions C45_parallel_partial.
(** C23_partial_example and C23_partial_across show that the conditions can be met. *)

(** With a table of constraints the name of its array entry, which is never written,
    decides the answer: if it happens to be that of a key of the file, the text of the
    fourth answer is replaced by one that is not a value of the document. *)
Definition named (nm : bytes) : pjunk := mkPj (fun _ => 0) 0 nm 0.
Definition train_list : doc := docu (obj [(B "a", arr [str "p"])]).
Definition opt_named (nm : bytes) (q : query) (tr dc : doc) (n : nat) (r : res (option (list bytes))) : Prop :=
  forall N strict p ct, createPathProcessor strict q = Ok p -> collectDataConstraints p nm (doc_text tr) = Ok ct ->
    parallelRunOpt N p ct (named nm) (doc_text dc) n = r.
Ltac run_named :=
  intros N strict p ct Hp Hc; match goal with |- parallelRunOpt N p ct ?z ?t ?n = ?r =>
    match type of Hp with createPathProcessor _ ?q = _ => match type of Hc with collectDataConstraints _ ?nm ?tr = _ =>
    let H := fresh in assert (H : match createPathProcessor strict q with Ok p' => match collectDataConstraints p' nm tr with Ok ct' => parallelRunOpt N p' ct' z t n | UB _ => r end | UB _ => r end = r) by (destruct strict; vm_compute; reflexivity);
    rewrite Hp, Hc in H; exact H end end end.
Theorem C45_refuted : exists q tr dc n nm out out' last, good_doc tr /\ good_doc dc /\ supported q = true /\
  (exists p ct1 ct2, createPathProcessor true q = Ok p /\ collectDataConstraints p [] (doc_text tr) = Ok ct1 /\ collectDataConstraints p nm (doc_text tr) = Ok ct2) /\
  opt_named [] q tr dc n (Ok (Some out)) /\ opt_named nm q tr dc n (Ok (Some out')) /\ out' = out ++ [last] /\ ~ In last (map (fun s => text (snd s)) (doc_spans dc)).
Proof.
  eexists q_all, train_list, objects, 3%nat, (B "b"), (map (fun s => B "{""b"": """ ++ B s ++ B """}") ["p"; "q"; "r"; "s"; "t"]%string), _, (B """b"": ""t""},{""b"": ""u""}").
  split; [apply good_checked; vm_compute; reflexivity|]. split; [apply good_checked; vm_compute; reflexivity|]. split; [reflexivity|].
  split; [do 3 eexists; split; [vm_compute; reflexivity|]; split; vm_compute; reflexivity|].
  split; [unfold opt_named; run_named|]. split; [|split; [reflexivity|]]; [unfold opt_named; run_named|].
  intros H. vm_compute in H. repeat (destruct H as [H|H]; [discriminate H|]). exact H.
Qed.
Print Assumptions C45_refuted.

(** The same name makes a run undefined that otherwise gives the answer. *)
Definition train_root : doc := docu (arr [str "p"]).
Theorem C45_refuted_undefined : exists q tr dc n nm out, good_doc tr /\ good_doc dc /\ supported q = true /\
  (exists p ct1 ct2, createPathProcessor true q = Ok p /\ collectDataConstraints p [] (doc_text tr) = Ok ct1 /\ collectDataConstraints p nm (doc_text tr) = Ok ct2) /\
  out = answer_text (fun _ _ => false) q (d_val dc) /\ out <> [] /\
  opt_named [] q tr dc n (Ok (Some out)) /\ opt_named nm q tr dc n (UB UninitRead).
Proof.
  exists [SChild (B "x"); SChild (B "b")], train_root, two_xs, 3%nat, (B "b"), (map (fun s => DQ :: B s ++ [DQ]) ["p"; "r"; "p"; "r"]%string).
  split; [apply good_checked; vm_compute; reflexivity|]. split; [apply good_checked; vm_compute; reflexivity|]. split; [reflexivity|].
  split; [do 3 eexists; split; [vm_compute; reflexivity|]; split; vm_compute; reflexivity|].
  split; [vm_compute; reflexivity|]. split; [discriminate|]. split; unfold opt_named; run_named.
Qed.
Print Assumptions C45_refuted_undefined.

(** Without a table: in a file of several loads (here with loads of 7 bytes) a flag that
    is never written decides whether the answers of the first load are output again. *)
Definition two_loads_doc : doc := docu (obj [(B "a", num "1"); (B "b", str "2")]).
Theorem C45_refuted_loads : exists q dc M X n out, good_doc dc /\ supported q = true /\ 0 < M /\ 0 < X /\
  (exists p, createPathProcessor true q = Ok p) /\ out = answer_text (fun _ _ => false) q (d_val dc) /\ out <> [] /\
  forall N strict p f, createPathProcessor strict q = Ok p ->
    parallel_run N p None (mkPj (fun _ => 0) 0 [] f) M X (doc_text dc) n = Ok (Some (if f =? 0 then out else out ++ out)).
Proof.
  exists [SChild (B "a")], two_loads_doc, 7, 100, 1%nat, [B "1"]. split; [apply good_checked; vm_compute; reflexivity|]. split; [reflexivity|].
  split; [reflexivity|]. split; [reflexivity|]. split; [eexists; vm_compute; reflexivity|]. split; [vm_compute; reflexivity|]. split; [discriminate|].
  intros N strict p f Hp. destruct strict; vm_compute in Hp; injection Hp as <-; destruct f; vm_compute; reflexivity.
Qed.
Print Assumptions C45_refuted_loads.
