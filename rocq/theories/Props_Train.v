(** Properties of the training run: C25. *)
From Verif Require Import Base Util Spec QueryClass PosSpec Claims Lexer Dfa Constraint Stream Num Builder Eval Loader Run TrainSpec TrainDoc Samples.
Open Scope Z_scope.

(** * C25: the collected constraints are the observed transitions

    [reads d text k s i] (TrainSpec.v): while the tokens of [text] are read one
    after the other, the next token is [k] (a key, or the start of an array) when
    the automaton is in state [s] at array position [i].  [updateStateInfo] is the
    lookup in the table, [None] if it finds nothing.  [jk] is the content of the
    name of an array entry, which the code never sets. *)
Definition C25_full : Prop :=
  forall d jk text c ct, executeAutomatonTrain d jk text init_core = Ok (c, ct) -> forall k,
  match updateStateInfo jk ct k with
  | Some l => (exists s i, reads d text k s i) /\ NoDup l /\ forall s, In s l <-> exists i, reads d text k s i
  | None => forall s i, ~ reads d text k s i
  end.

(** All texts.  Missing: keys equal to the unset name of array entries; and state
    0 is listed too if a position was outside of the range of its state. *)
Theorem C25_partial : forall d jk text c ct, executeAutomatonTrain d jk text init_core = Ok (c, ct) ->
  (forall s i, ~ reads d text (CKey jk) s i) -> forall k, k <> CKey jk ->
  match updateStateInfo jk ct k with
  | Some l => (exists s i, reads d text k s i) /\ NoDup l /\
      forall s, In s l <-> (exists i, reads d text k s i) \/ (s = 0 /\ exists s' i, reads d text k s' i /\ beyond d s' i)
  | None => forall s i, ~ reads d text k s i
  end.
Proof. exact train_text. Qed.
Print Assumptions C25_partial.

(** Documents and queries without slices: the run ends, and the table is exact.
    [met d v k s]: following the labels from the start of the automaton to some
    object with the key (or array) of the document leads to state [s]. *)
Theorem C25_documents : forall strict q p dc jk ks, supported q = true -> (strict = true -> single_names q) ->
  forallb (fun s => match s with SSlice _ _ => false | _ => true end) q = true ->
  createPathProcessor strict q = Ok p -> zlen (d_table (p_dfa p)) <= 100 -> good_doc dc -> limits q (d_val dc) ->
  (forall n, shown (d_val dc) (CKey n) -> n <> jk /\ zlen n <= 98) ->
  (forall k, shown (d_val dc) k -> In k ks) -> zlen ks <= 1000 ->
  exists ct, collectDataConstraints p jk (doc_text dc) = Ok ct /\ forall k, k <> CKey jk ->
    match updateStateInfo jk ct k with
    | Some l => shown (d_val dc) k /\ NoDup l /\ forall s, In s l <-> met (p_dfa p) (d_val dc) k s
    | None => ~ shown (d_val dc) k
    end.
Proof. exact train_slice_free. Qed.
Print Assumptions C25_documents.

(** With slices: the same up to state 0. *)
Theorem C25_slices : forall strict q p dc jk ks, supported q = true -> (strict = true -> single_names q) ->
  createPathProcessor strict q = Ok p -> zlen (d_table (p_dfa p)) <= 100 -> good_doc dc -> limits q (d_val dc) ->
  (forall n, shown (d_val dc) (CKey n) -> n <> jk /\ zlen n <= 98) ->
  (forall k, shown (d_val dc) k -> In k ks) -> zlen ks <= 1000 ->
  exists ct, collectDataConstraints p jk (doc_text dc) = Ok ct /\ forall k, k <> CKey jk ->
    match updateStateInfo jk ct k with
    | Some l => shown (d_val dc) k /\ NoDup l /\
        forall s, In s l <-> met (p_dfa p) (d_val dc) k s \/ (s = 0 /\ exists s' i, met_at (p_dfa p) (d_val dc) k s' i /\ beyond (p_dfa p) s' i)
    | None => ~ shown (d_val dc) k
    end.
Proof. exact train_doc. Qed.
Print Assumptions C25_slices.

(** An example: the titles are met inside and outside of books. *)
Definition c25_query : query := [SDesc (B "book"); SAll; SChild (B "title")].
Definition c25_keys : list ckey := [CArr; CKey (B "store"); CKey (B "book"); CKey (B "title"); CKey (B "price"); CKey (B "tags"); CKey (B "open")].
Definition c25_shown (v : json) : list ckey :=
  flat_map (fun n => match snd n with JArr _ _ => [CArr] | JObj _ ms => map CKey (keys ms) | _ => [] end) (nodes [] v).
Lemma c25_shown_ok v k : shown v k -> In k (c25_shown v).
Proof.
  intros (p & u & H & Hs). apply in_flat_map. exists (p, u). split; [exact H|]. cbn [snd]. destruct u, k; cbn in *; try tauto. apply in_map, Hs.
Qed.
Example C25_example : exists p, createPathProcessor true c25_query = Ok p /\ supported c25_query = true /\ single_names c25_query /\
  forallb (fun s => match s with SSlice _ _ => false | _ => true end) c25_query = true /\ zlen (d_table (p_dfa p)) <= 100 /\
  good_doc store /\ limits c25_query (d_val store) /\
  (forall n, shown (d_val store) (CKey n) -> n <> [] /\ zlen n <= 98) /\ (forall k, shown (d_val store) k -> In k c25_keys) /\
  exists ct, collectDataConstraints p [] (doc_text store) = Ok ct /\
    updateStateInfo [] ct (CKey (B "title")) = Some [4; 2] /\ updateStateInfo [] ct CArr = Some [3; 2] /\ updateStateInfo [] ct (CKey (B "x")) = None.
Proof.
  eexists. split; [vm_compute; reflexivity|]. premises.
  - intros n Hn. apply c25_shown_ok in Hn. vm_compute in Hn.
    repeat (destruct Hn as [Hn|Hn]; [first [discriminate Hn | injection Hn as <-; split; vm_compute; discriminate]|]). destruct Hn.
  - intros k Hk. apply c25_shown_ok in Hk. vm_compute in Hk |- *. intuition.
  - eexists. premises.
Qed.

(** The range of a slice: state 0 is listed although nothing was met in it. *)
Definition c25_slice : query := [SSlice (Some 1) (Some 2); SChild (B "a")].
Theorem C25_refuted : exists p ct c l, createPathProcessor true c25_slice = Ok p /\
  executeAutomatonTrain (p_dfa p) [] (B "[{""a"": 1 },{""a"": 2 }]") init_core = Ok (c, ct) /\
  updateStateInfo [] ct (CKey (B "a")) = Some l /\ In 0 l /\ forall i, ~ reads (p_dfa p) (B "[{""a"": 1 },{""a"": 2 }]") (CKey (B "a")) 0 i.
Proof.
  do 4 eexists. split; [vm_compute; reflexivity|]. split; [vm_compute; reflexivity|]. split; [vm_compute; reflexivity|]. split; [right; left; reflexivity|].
  intros i (e1 & t & e2 & c & El & Ht & Hr & Hs & _). vm_compute in El. injection El as El.
  repeat (destruct e1 as [|? e1]; [injection El as <- _; cbn in Ht; try contradiction; vm_compute in Hr; injection Hr as <-; discriminate Hs|injection El as <- El]).
  destruct e1; discriminate.
Qed.
Print Assumptions C25_refuted.

(** A key that equals the unset name of the array entry is found in its place. *)
Theorem C25_refuted_name : exists p ct c l, createPathProcessor true c25_query = Ok p /\
  executeAutomatonTrain (p_dfa p) (B "x") (B "[{""a"": 1 }]") init_core = Ok (c, ct) /\
  updateStateInfo (B "x") ct (CKey (B "x")) = Some l /\ forall s i, ~ reads (p_dfa p) (B "[{""a"": 1 }]") (CKey (B "x")) s i.
Proof.
  do 4 eexists. split; [vm_compute; reflexivity|]. split; [vm_compute; reflexivity|]. split; [vm_compute; reflexivity|].
  intros s i (e1 & t & e2 & c & El & Ht & Hr & Hs & _). vm_compute in El. injection El as El.
  repeat (destruct e1 as [|? e1]; [injection El as <- _; cbn in Ht; try contradiction; discriminate Ht|injection El as <- El]).
  destruct e1; discriminate.
Qed.
Print Assumptions C25_refuted_name.
