(** C26 for training documents and queries with slices. *)
From Verif Require Import Base Util Spec QueryClass PosSpec Claims Lexer Dfa Constraint Stream Num FilterSpec Builder Eval Filter Loader Run Worker Merge AnyQuery TreeSem CutSpec EndToEnd ClaimProof WorkRep Report ParSpec ParDoc TrainSpec TrainDoc ParTrain ParSlice Samples Props_Par.
Open Scope Z_scope.

(** What a document tells about a key (or arrays): the states in which it is met
    (TrainSpec.v), and state 0 if one of its positions is outside of the range of its
    state. *)
Definition tells (d : dfa) (v : json) (k : ckey) (s : Z) : Prop := met d v k s \/ (s = 0 /\ exists s' i, met_at d v k s' i /\ beyond d s' i).

(** The runs of C23_partial with the table of a training run on a document [dt], every
    supported query.  Missing: as for C26_partial. *)
Theorem C26_slices : forall N strict q j pj p dt ct dc n p0 ps, supported q = true -> (strict = true -> single_names q) ->
  createPathProcessor strict q = Ok p -> j_major_null j = true ->
  good_doc dc -> tame (d_val dc) = true -> limits q (d_val dc) -> short_texts (d_val dc) = true -> (depth (d_val dc) <= 98)%nat ->
  nstates (p_dfa p) <= 100 -> nstates (p_dfa p) * (Z.of_nat (depth (d_val dc)) + 2) <= 500 ->
  (n <= 100)%nat -> partitionInputStream (doc_text dc) n = Ok (map Some (p0 :: ps)) ->
  Forall (fun s => nstates (p_dfa p) * (zlen s + 1) <= 5000000) ps ->
  apart_from_cuts q dc (p0 :: ps) -> items_apart_from_cuts q dc (p0 :: ps) ->
  good_doc dt -> limits q (d_val dt) -> collectDataConstraints p (pj_name pj) (doc_text dt) = Ok ct ->
  ~ shown (d_val dt) (CKey (pj_name pj)) ->
  (forall k, shown (d_val dc) (CKey k) -> k <> pj_name pj /\ zlen k <= 98) ->
  (forall k s, tells (p_dfa p) (d_val dc) k s -> shown (d_val dt) k -> tells (p_dfa p) (d_val dt) k s) ->
  parallelRunOpt N p ct pj (doc_text dc) n = parallelRun N p pj (doc_text dc) n /\
  parallelRunOpt N p ct pj (doc_text dc) n = serialRun N j p (doc_text dc) /\
  (predicates_fit strict q -> filters_meaningful N q (d_val dc) ->
   parallelRunOpt N p ct pj (doc_text dc) n = Ok (Some (answer_text (holds N) q (d_val dc)))).
Proof.
  intros N strict q j pj p dt ct dc n p0 ps Hq Hsn Hp Hj Hg Ht Hli Hs Hd H1 H2 Hc Hch Hsz Hap Hit Hgt Hlt Hct Hjk Hkeys Hmet.
  assert (Hdoc : forall k s i, reads (p_dfa p) (doc_text dc) k s i -> tells (p_dfa p) (d_val dc) k s).
  { intros k s i Hr. apply (any_told strict q p dc k s Hq Hsn Hp Hg Hli). left. eauto. }
  assert (Htr : forall k s i, reads (p_dfa p) (doc_text dt) k s i -> shown (d_val dt) k).
  { intros k s i Hr. apply (noted_shown (p_dfa p) _ _ s). apply (any_told strict q p dt k s Hq Hsn Hp Hgt Hlt). left. eauto. }
  assert (Htab : table_covers (p_dfa p) (pj_name pj) ct (doc_text dc)).
  { apply (train_covers_told p (pj_name pj) (doc_text dt) ct (doc_text dc) (made_dfa strict q p Hq Hp) Hct).
    - intros s i Hr. exact (Hjk (Htr _ _ _ Hr)).
    - intros k s i Hr. apply Hkeys. exact (noted_shown _ _ _ _ (Hdoc _ _ _ Hr)).
    - intros k s i Hr (s' & i' & Hr'). apply (any_told strict q p dt k s Hq Hsn Hp Hgt Hlt). apply Hmet; eauto. }
  destruct (C23_partial N strict q j pj p dc n p0 ps Hq Hsn Hp Hj Hg Ht Hli Hs Hd H1 H2 Hc Hch Hsz Hap Hit) as [E1 E2].
  assert (H : parallelRunOpt N p ct pj (doc_text dc) n = serialRun N j p (doc_text dc)).
  { refine (parallel_doc N strict q p j pj (Some ct) dc n p0 ps Hq Hsn Hp Hj Hg Ht Hli Hs Hd H1 H2 Hc Hch Hsz Hap Hit _). intros t Et. injection Et as <-. exact Htab. }
  rewrite H, <- E1. auto.
Qed.
Print Assumptions C26_slices.

(** With C23_slices_slice: the query has a slice, the training document is smaller than
    the document. *)
Definition q_sheet : query := [SChild (B "a"); SChildAny; SSlice (Some 1) (Some 3); SChild (B "b")].
Definition small_sheet : doc := docu (obj [(B "a", obj [(B "x", arr [o1 "1"; o1 "2"; arr [o1 "3"]])])]).
Example C26_slices_example : exists p ct, supported q_sheet = true /\ single_names q_sheet /\ createPathProcessor true q_sheet = Ok p /\
  good_doc small_sheet /\ limits q_sheet (d_val small_sheet) /\ collectDataConstraints p (pj_name zeros) (doc_text small_sheet) = Ok ct /\
  ~ shown (d_val small_sheet) (CKey (pj_name zeros)) /\ (forall k, shown (d_val sheets) (CKey k) -> k <> pj_name zeros /\ zlen k <= 98) /\
  (forall k s, tells (p_dfa p) (d_val sheets) k s -> shown (d_val small_sheet) k -> tells (p_dfa p) (d_val small_sheet) k s) /\
  updateStateInfo [] ct (CKey (B "b")) = Some [4; 0].
Proof.
  eexists. eexists. split; [reflexivity|]. split; [intros f []|]. split; [vm_compute; reflexivity|]. split; [apply good_checked; vm_compute; reflexivity|].
  split; [apply limits_checked; vm_compute; reflexivity|]. split; [vm_compute; reflexivity|].
  split; [intros H; apply shown_listed in H; vm_compute in H; intuition discriminate|].
  split; [intros k H; apply shown_listed in H; vm_compute in H;
    repeat (destruct H as [H|H]; [first [discriminate H | injection H as <-; split; vm_compute; discriminate]|]); destruct H|].
  split; [|vm_compute; reflexivity].
  refine (noted_checked true q_sheet _ sheets small_sheet eq_refl (fun _ f H => match H with end) _ _); vm_compute; reflexivity.
Qed.
