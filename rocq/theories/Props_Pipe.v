(** C46: a query can be run in two stages.

    Running the first steps of a query, and the other steps on each of the answers,
    gives the answers of the whole query in the same order: the output of one run is
    usable as the input of another. *)
From Verif Require Import Base Util Spec QueryClass FilterSpec Claims PipeSpec Lexer Dfa Stream Num Builder Eval Filter Loader Run EndToEnd Pipe Findings Samples.
Open Scope Z_scope.

Definition C46_full : Prop := forall N strict q1 q2 p1 p2 p dc j ts, wf_doc dc = true -> j_major_null j = true ->
  createPathProcessor strict q1 = Ok p1 -> createPathProcessor strict q2 = Ok p2 -> createPathProcessor strict (q1 ++ q2) = Ok p ->
  serialRun N j p1 (doc_text dc) = Ok (Some ts) ->
  exists outs, serialRun N j p (doc_text dc) = Ok (Some (List.concat outs)) /\
    Forall2 (fun t out => if opens t then serialRun N j p2 t = Ok (Some out) else out = []) ts outs.

(** Missing: a descendant step in the first part (its answers may lie within each
    other, see C46_refuted), and what is missing in C03 for each of the queries. *)
Theorem C46_partial : forall N strict q1 q2 dc j, forallb one_level q1 = true ->
  supported q1 = true -> supported q2 = true -> supported (q1 ++ q2) = true ->
  (strict = true -> single_names (q1 ++ q2)) -> predicates_fit strict q1 -> predicates_fit strict q2 -> predicates_fit strict (q1 ++ q2) ->
  good_doc dc -> limits q1 (d_val dc) -> limits (q1 ++ q2) (d_val dc) -> filters_meaningful N (q1 ++ q2) (d_val dc) -> j_major_null j = true ->
  exists p1 p2 p ts outs, createPathProcessor strict q1 = Ok p1 /\ createPathProcessor strict q2 = Ok p2 /\ createPathProcessor strict (q1 ++ q2) = Ok p /\
    serialRun N j p1 (doc_text dc) = Ok (Some ts) /\ serialRun N j p (doc_text dc) = Ok (Some (List.concat outs)) /\
    Forall2 (fun t out => if opens t then serialRun N j p2 t = Ok (Some out) else out = []) ts outs.
Proof. exact two_stages. Qed.
Print Assumptions C46_partial.

(** A slice in the first part; a filter and a descendant step in the second. *)
Definition q_first : query := [SChild (B "a"); SSlice (Some 1) None].
Definition q_then : query := [SChild (B "e"); SFilter (EBin BEq (EField [B "k"]) (EStr (B "y"))); SChild (B "v"); SDesc (B "w")].
Definition staged : doc :=
  let it (k s : string) := obj [(B "k", str k); (B "v", obj [(B "w", str s); (B "x", obj [(B "w", str (String.append s "!"))])])] in
  docu (obj [(B "a", arr [obj [(B "e", arr [it "y"%string "0"%string])]; str "no"; obj [(B "e", arr [it "y"%string "1"%string; it "n"%string "2"%string; it "y"%string "3"%string])]; obj [(B "e", arr [it "y"%string "4"%string])]])]).
Example C46_example : forallb one_level q_first = true /\ supported q_first = true /\ supported q_then = true /\ supported (q_first ++ q_then) = true /\
  single_names (q_first ++ q_then) /\ predicates_fit true q_first /\ predicates_fit true q_then /\ predicates_fit true (q_first ++ q_then) /\
  good_doc staged /\ limits q_first (d_val staged) /\ limits (q_first ++ q_then) (d_val staged) /\ filters_meaningful zops (q_first ++ q_then) (d_val staged) /\
  List.length (answer_text (holds zops) q_first (d_val staged)) = 3%nat /\
  answer_text (holds zops) (q_first ++ q_then) (d_val staged) = map (fun s => DQ :: B s ++ [DQ]) ["1"; "1!"; "3"; "3!"; "4"; "4!"]%string.
Proof.
  split; [reflexivity|]. do 3 (split; [vm_compute; reflexivity|]). split; [apply single_checked; vm_compute; reflexivity|].
  do 3 (split; [apply fit_checked; vm_compute; reflexivity|]). split; [apply good_checked; vm_compute; reflexivity|].
  do 2 (split; [apply limits_checked; vm_compute; reflexivity|]). split; [apply meaningful_checked; vm_compute; reflexivity|].
  split; vm_compute; reflexivity.
Qed.

(** $..a..b on an object with an a inside of an a: one answer, but two in two stages. *)
Definition q_a : query := [SDesc (B "a")].
Definition q_b : query := [SDesc (B "b")].
Definition a_in_a : doc := docu (obj [(B "a", obj [(B "a", obj [(B "b", str "x")])])]).
Theorem C46_refuted : exists q1 q2 dc t1 t2 out, supported q1 = true /\ supported q2 = true /\ supported (q1 ++ q2) = true /\ good_doc dc /\
  outcome q1 dc (Ok (Some [t1; t2])) /\ outcome (q1 ++ q2) dc (Ok (Some [out])) /\
  opens t1 = true /\ opens t2 = true /\
  (forall N strict j p t, j_major_null j = true -> createPathProcessor strict q2 = Ok p -> In t [t1; t2] -> serialRun N j p t = Ok (Some [out])).
Proof.
  exists q_a, q_b, a_in_a, (B "{""b"": ""x""}"), (B "{""a"": {""b"": ""x""}}"), (B """x""").
  do 3 (split; [reflexivity|]). split; [apply good_checked; vm_compute; reflexivity|]. split; [unfold outcome; run_it|]. split; [unfold outcome; run_it|].
  split; [reflexivity|]. split; [reflexivity|].
  intros N strict j p t Hj Hp Ht. destruct j as [f b]. cbn [j_major_null] in Hj. subst b. destruct strict; vm_compute in Hp; injection Hp as <-; destruct Ht as [<-|[<-|[]]]; vm_compute; reflexivity.
Qed.
Print Assumptions C46_refuted.
