(** C42: a query that asks for more gets more. *)
From Verif Require Import Base Util Spec QueryClass PosSpec AutoSpec FilterSpec Claims RelaxSpec Num Eval Builder Run EndToEnd ClaimProof Relax Samples.
Open Scope Z_scope.

(** The full statement: whenever [q'] selects all that [q] selects, the output of
    [q] is obtained from that of [q'] by leaving out entries, on every file. *)
Definition C42_full : Prop := forall N j strict q q' p p' file out out',
  contained q q' -> createPathProcessor strict q = Ok p -> createPathProcessor strict q' = Ok p' ->
  serialRun N j p file = Ok (Some out) -> serialRun N j p' file = Ok (Some out') -> subseq out out'.

(** Every byte string as file, also text that is not JSON and files of several
    loads.  [q] consists of names, wildcards, descendant steps and slices ([widen]
    makes every slice a [*]); [q'] has no conditions.  Missing: conditions in [q'],
    filters in [q] (for these see C42_documents), index steps. *)
Theorem C42_partial : forall N j strict q q' p p' file out out',
  supported q = true -> slice_query q = true -> path_query q' = true -> names_fit q' = true -> contained (widen q) q' ->
  createPathProcessor strict q = Ok p -> createPathProcessor strict q' = Ok p' ->
  serialRun N j p file = Ok (Some out) -> serialRun N j p' file = Ok (Some out') -> subseq out out'.
Proof. intros N j strict q q' p p' file out out'. apply relax_runs. Qed.
Print Assumptions C42_partial.

(** The same by rewriting steps: [.a] to [..a] or [.*], [[2:5]] to [[*]], any step
    to [..*]. *)
Theorem C42_steps : forall N j strict q q' p p' file out out',
  supported q = true -> slice_query q = true -> path_query q' = true -> names_fit q' = true -> relaxed q q' ->
  createPathProcessor strict q = Ok p -> createPathProcessor strict q' = Ok p' ->
  serialRun N j p file = Ok (Some out) -> serialRun N j p' file = Ok (Some out') -> subseq out out'.
Proof.
  intros N j strict q q' p p' file out out' H1 H2 H3 H4 H5. apply relax_runs; auto. apply relaxed_contained, relaxed_widen; assumption.
Qed.
Print Assumptions C42_steps.

(** Documents, with conditions in both queries. *)
Theorem C42_documents : forall N j strict q q' dc,
  supported q = true -> supported q' = true -> (strict = true -> single_names q /\ single_names q') ->
  predicates_fit strict q -> predicates_fit strict q' -> contained q q' ->
  good_doc dc -> limits q (d_val dc) -> limits q' (d_val dc) ->
  filters_meaningful N q (d_val dc) -> filters_meaningful N q' (d_val dc) -> j_major_null j = true ->
  exists p p' out out', createPathProcessor strict q = Ok p /\ createPathProcessor strict q' = Ok p' /\
    serialRun N j p (doc_text dc) = Ok (Some out) /\ serialRun N j p' (doc_text dc) = Ok (Some out') /\ subseq out out'.
Proof.
  intros N j strict q q' dc Hs Hs' Hst Hf Hf' Hc Hd Hl Hl' Hm Hm' Hj.
  destruct (serial_answer N strict q j dc Hs (fun E => proj1 (Hst E)) Hf Hd Hl Hm Hj) as (p & Hp & Hr).
  destruct (serial_answer N strict q' j dc Hs' (fun E => proj2 (Hst E)) Hf' Hd Hl' Hm' Hj) as (p' & Hp' & Hr').
  exists p, p'. do 2 eexists. repeat (split; [eassumption|]). apply answers_sub. intros p0. apply Hc.
Qed.
Print Assumptions C42_documents.

(** A text that is not JSON: the slice loses an entry, the other query keeps it. *)
Example C42_example :
  let q := [SChild (B "a"); SSlice (Some 1) (Some 2)] in
  let q' := [SDesc (B "a"); SAll] in
  supported q = true /\ slice_query q = true /\ path_query q' = true /\ names_fit q' = true /\ relaxed q q' /\
  exists p p', createPathProcessor true q = Ok p /\ createPathProcessor true q' = Ok p' /\
  exists out out', serialRun zops j0 p (B "{""a"": [1 ,2 ,3 }} ""a"": [4 ") = Ok (Some out) /\
    serialRun zops j0 p' (B "{""a"": [1 ,2 ,3 }} ""a"": [4 ") = Ok (Some out') /\ strings out = ["2"]%string /\ (1 < List.length out')%nat.
Proof.
  do 4 (split; [reflexivity|]). split; [repeat constructor|]. do 2 eexists. do 2 (split; [vm_compute; reflexivity|]).
  do 2 eexists. do 2 (split; [vm_compute; reflexivity|]). split; [reflexivity|]. apply Nat.ltb_lt. vm_compute. reflexivity.
Qed.

Example C42_documents_example :
  let q := [SChild (B "store"); SChild (B "book"); SFilter (EBin BLt (EField [B "price"]) (ENum false (B "10"))); SChild (B "title")] in
  let q' := [SDesc (B "title")] in
  supported q = true /\ supported q' = true /\ single_names q /\ predicates_fit false q /\ contained q q' /\ good_doc store /\ limits q (d_val store) /\
  filters_meaningful zops q (d_val store).
Proof.
  repeat (split; [first [reflexivity|apply single_checked; reflexivity|apply fit_checked; vm_compute; reflexivity|apply store_good|apply store_limits|idtac]|]); [|apply meaningful_checked; vm_compute; reflexivity].
  intros hs p H. destruct p as [|[[k1|i1] v1] p]; try discriminate H. cbn [selects] in H. apply andb_true_iff in H. destruct H as [_ H].
  destruct p as [|[[k2|i2] v2] p]; try discriminate H. cbn [selects] in H. apply andb_true_iff in H. destruct H as [_ H].
  destruct p as [|[[k3|i3] v3] p]; try discriminate H. cbn [selects] in H. apply andb_true_iff in H. destruct H as [_ H].
  destruct p as [|[[k4|i4] v4] p]; try discriminate H. cbn [selects] in *. rewrite H. rewrite !orb_true_r. reflexivity.
Qed.

(** An index step is dropped by the compiler: [$.a[0]] gives the array, [$.a[*]] its
    elements. *)
Theorem C42_refuted : exists q q' file out out', contained q q' /\
  (forall N strict j, j_major_null j = true -> exists p p', createPathProcessor strict q = Ok p /\ createPathProcessor strict q' = Ok p' /\
    serialRun N j p file = Ok (Some out) /\ serialRun N j p' file = Ok (Some out')) /\
  ~ subseq out out'.
Proof.
  exists [SChild (B "a"); SIndex 0], [SChild (B "a"); SAll], (B "{""a"": [1 ,2 ]}"), [B "[1 ,2 ]"], [B "1"; B "2"].
  split; [apply relaxed_contained; repeat constructor|]. split.
  - intros N strict [f b]. cbn. intros ->. do 2 eexists.
    split; [destruct strict; vm_compute; reflexivity|]. split; [destruct strict; vm_compute; reflexivity|]. split; vm_compute; reflexivity.
  - intros H. apply PosProof.subseq_in in H. specialize (H _ (or_introl eq_refl)). cbn in H. destruct H as [H|[H|[]]]; discriminate H.
Qed.
Print Assumptions C42_refuted.

(** A slice after [..] in the larger query: [$.a[1:2].a[0:1]] finds an element that
    [$..a[0:1]] misses. *)
Theorem C42_refuted_slice : exists q q' dc out out', slice_query q = true /\ slice_query q' = true /\ good_doc dc /\ contained q q' /\
  (forall N strict j, j_major_null j = true -> exists p p', createPathProcessor strict q = Ok p /\ createPathProcessor strict q' = Ok p' /\
    serialRun N j p (doc_text dc) = Ok (Some out) /\ serialRun N j p' (doc_text dc) = Ok (Some out')) /\
  ~ subseq out out'.
Proof.
  exists [SChild (B "a"); SSlice (Some 1) (Some 2); SChild (B "a"); SSlice (Some 0) (Some 1)], [SDesc (B "a"); SSlice (Some 0) (Some 1)],
    (docu (obj [(B "a", arr [str "w"; obj [(B "a", arr [str "y"; str "z"])]])])), [B """y"""], [B """w"""].
  split; [reflexivity|]. split; [reflexivity|]. split; [apply good_checked; vm_compute; reflexivity|]. split.
  - intros hs p H. destruct p as [|[[k1|i1] v1] p]; try discriminate H. cbn [selects] in H. apply andb_true_iff in H. destruct H as [_ H].
    destruct p as [|[[k2|i2] v2] p]; try discriminate H. cbn [selects] in H. apply andb_true_iff in H. destruct H as [_ H].
    destruct p as [|[[k3|i3] v3] p]; try discriminate H. cbn [selects] in *. rewrite H. rewrite !orb_true_r. reflexivity.
  - split.
    + intros N strict [f b]. cbn [j_major_null]. intros ->. do 2 eexists.
      split; [destruct strict; vm_compute; reflexivity|]. split; [destruct strict; vm_compute; reflexivity|]. split; vm_compute; reflexivity.
    + intros H. apply PosProof.subseq_in in H. specialize (H _ (or_introl eq_refl)). cbn in H. destruct H as [H|[]]; discriminate H.
Qed.
Print Assumptions C42_refuted_slice.
