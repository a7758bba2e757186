(** C49: the table of a training run returns what was recorded.

    The table (constraint.h) is an array of 1000 entries, each with a buffer of 100
    bytes for a name and an array of 100 states. *)
From Verif Require Import Base Util Spec QueryClass Claims Dfa Constraint Stream Num Builder Run TrainSpec TrainDoc CellSpec Cells CellsProof CellTab CellTabProof Train CellEngine CellEngineProof CellTrain Samples Props_Train.
Open Scope Z_scope.

(** The memory of the table before its first use; the names it happens to hold end
    within their buffers. *)
Definition table_memory (cells : list ccell) : Prop := zlen cells = 1000 /\
  Forall (fun c => zlen (cc_name c) = 100 /\ In NUL (cc_name c) /\ zlen (cc_set c) = 100) cells.
(** None of the names in the memory is [k]. *)
Definition not_old (cells : list ccell) (k : ckey) : Prop := forall c, In c cells -> k <> CKey (c_string (cc_name c)).
(** A key of at most 98 bytes without NUL, or an array. *)
Definition key_small (k : ckey) : Prop := match k with CKey n => no_nul n /\ zlen n <= 98 | CArr => True end.

Lemma ended_nul : forall b, In NUL b -> ended b.
Proof.
  unfold ended. induction b as [|c b IH]; intros H; [destruct H|]. cbn [c_string]. destruct (Ascii.eqb_spec c NUL) as [->|E]; [rewrite zlen_cons, zlen_nil; unfold zlen; lia|].
  destruct H as [H|H]; [congruence|]. rewrite !zlen_cons. specialize (IH H). lia.
Qed.
Lemma memory_fresh cells : table_memory cells -> Forall fresh cells.
Proof. intros [_ H]. rewrite Forall_forall in *. intros c Hc. destruct (H c Hc) as (H1 & H2 & H3). split; auto. apply ended_nul, H2. Qed.
Lemma memory_first cells : table_memory cells -> exists j, In j (old_names cells).
Proof. intros [H _]. destruct cells as [|c cells]; [discriminate H|]. exists (c_string (cc_name c)). left. reflexivity. Qed.

(** [h] is recorded, then [k] is looked up. *)
Definition C49_full : Prop := forall cells h ks, table_memory cells ->
  Forall (fun p => key_small (fst p) /\ 0 <= snd p < 100) h -> incl (map fst h) ks -> zlen ks <= 1000 ->
  exists t, foldM (fun t p => addConstraintInfo_c t (snd p) (fst p)) h (initTable cells) = Ok t /\
    forall k dest, key_small k -> zlen dest = 100 ->
      exists n d, updateStateInfo_c t k dest = Ok (n, d) /\
        ((n = -1 /\ d = dest /\ forall s, ~ In (k, s) h) \/
         (0 < n <= 100 /\ NoDup (firstn (Z.to_nat n) d) /\ forall s, In s (firstn (Z.to_nat n) d) <-> In (k, s) h)).

(** Missing: keys equal to a name that the memory happens to hold.
    At most 1000 keys, states below 100: every lookup gives the states recorded for the
    key, each once, or says that there is none. *)
Theorem C49_partial : forall cells h ks, table_memory cells ->
  Forall (fun p => key_small (fst p) /\ not_old cells (fst p) /\ 0 <= snd p < 100) h -> incl (map fst h) ks -> zlen ks <= 1000 ->
  exists t, foldM (fun t p => addConstraintInfo_c t (snd p) (fst p)) h (initTable cells) = Ok t /\
    forall k dest, key_small k -> not_old cells k -> zlen dest = 100 ->
      exists n d, updateStateInfo_c t k dest = Ok (n, d) /\
        ((n = -1 /\ d = dest /\ forall s, ~ In (k, s) h) \/
         (0 < n <= 100 /\ NoDup (firstn (Z.to_nat n) d) /\ forall s, In s (firstn (Z.to_nat n) d) <-> In (k, s) h)).
Proof.
  intros cells h ks Hm Hh Hi Hz. destruct (memory_first cells Hm) as (j0 & Hj0).
  assert (Hk : forall k, key_small k -> key_fits k) by (intros [n|]; cbn; tauto).
  assert (Hold : forall k j, In j (old_names cells) -> not_old cells k -> k <> CKey j).
  { intros k j Hj Hn. apply in_map_iff in Hj as (c & <- & Hc). exact (Hn c Hc). }
  destruct (calls_tab_rep cells h (initTable cells) [] j0) as (junk & _ & Hj & Hs).
  - apply init_tab_rep; [apply Hm|apply memory_fresh, Hm].
  - exact Hj0.
  - rewrite Forall_forall in *. intros p Hp. apply Hk, (Hh p Hp).
  - destruct (history_table junk h ks) as (ct & Ec & Hct); auto.
    { rewrite Forall_forall in *. intros p Hp. destruct (Hh p Hp) as (A1 & A2 & A3). split; [|exact A3]. specialize (Hold _ _ Hj A2).
      destruct (fst p) as [n|]; [|exact I]. cbn in *. split; [congruence|apply A1]. }
    unfold adds in Ec. change (foldM (record junk) h [] = Ok ct) in Ec. rewrite Ec in Hs. destruct Hs as (t & Et & R). exists t. split; [exact Et|].
    intros k dest K1 K2 Hd. specialize (Hct k (Hold k junk Hj K2)). pose proof (get_tab_rep cells junk t ct k dest R (Hk k K1) Hd) as G.
    destruct (updateStateInfo junk ct k) as [q|].
    + destruct G as (d & -> & Eq). exists (zlen q), d. split; [reflexivity|]. right. rewrite zlen_nat, Eq. destruct Hct as ((s & S1) & S2 & S3).
      split; [|split; assumption]. split; [apply S3 in S1; destruct q; [destruct S1|]; rewrite zlen_cons; unfold zlen; lia|].
      assert (Hq : incl q (map Z.of_nat (seq 0 100))).
      { intros x Hx. apply S3 in Hx. rewrite Forall_forall in Hh. destruct (Hh _ Hx) as (_ & _ & B). cbn [snd] in B. apply in_map_iff. exists (Z.to_nat x). split; [lia|]. apply in_seq. lia. }
      pose proof (NoDup_incl_length S2 Hq) as L. rewrite map_length, seq_length in L. unfold zlen. lia.
    + exists (-1), dest. split; [exact G|]. left. auto.
Qed.
Print Assumptions C49_partial.

(** Each call agrees with the list that the rest of the model works on; whether it is
    defined, too.  Of all the names in the memory one matters: the one in the entry that
    becomes the entry for arrays. *)
Theorem C49_lists : forall cells h, table_memory cells -> Forall (fun p => match fst p with CKey n => no_nul n | CArr => True end) h ->
  exists c, In c cells /\
    match foldM (fun l p => addConstraintInfo (c_string (cc_name c)) l (snd p) (fst p)) h [] with
    | UB r => foldM (fun t p => addConstraintInfo_c t (snd p) (fst p)) h (initTable cells) = UB r
    | Ok l => exists t, foldM (fun t p => addConstraintInfo_c t (snd p) (fst p)) h (initTable cells) = Ok t /\
        forall k dest, match k with CKey n => no_nul n | CArr => True end -> zlen dest = 100 ->
          match updateStateInfo (c_string (cc_name c)) l k with
          | Some q => exists d, updateStateInfo_c t k dest = Ok (zlen q, d) /\ firstn (List.length q) d = q
          | None => updateStateInfo_c t k dest = Ok (-1, dest)
          end
    end.
Proof.
  intros cells h Hm Hh. destruct (memory_first cells Hm) as (j0 & Hj0).
  destruct (calls_tab_rep cells h (initTable cells) [] j0) as (junk & _ & Hj & Hs); [apply init_tab_rep; [apply Hm|apply memory_fresh, Hm]|exact Hj0|exact Hh|].
  apply in_map_iff in Hj as (c & <- & Hc). exists c. split; [exact Hc|]. unfold record, record_c in Hs. destruct (foldM (fun l p => addConstraintInfo (c_string (cc_name c)) l (snd p) (fst p)) h []) as [l|r]; [|exact Hs].
  destruct Hs as (t & Et & R). exists t. split; [exact Et|]. intros k dest Hk Hd. exact (get_tab_rep cells _ t l k dest R Hk Hd).
Qed.
Print Assumptions C49_lists.

(** Memory of that shape exists, with a name in it; a table with a key seen in two
    states and an array. *)
Definition some_memory : list ccell := repeat (mkCc (B "old" ++ repeat NUL 97) 9 (repeat 7 100) 5) 1000.
Lemma some_fits : table_memory some_memory.
Proof.
  split; [unfold zlen, some_memory; rewrite repeat_length; reflexivity|]. apply Forall_forall. intros c Hc. apply repeat_spec in Hc. subst c. cbn [cc_name cc_set].
  split; [reflexivity|]. split; [|reflexivity]. apply in_or_app. right. left. reflexivity.
Qed.
Example C49_example : table_memory some_memory /\
  Forall (fun p => key_small (fst p) /\ not_old some_memory (fst p) /\ 0 <= snd p < 100) [(CKey (B "a"), 1); (CArr, 2); (CKey (B "a"), 3); (CKey (B "a"), 1)] /\
  exists t, foldM (fun t p => addConstraintInfo_c t (snd p) (fst p)) [(CKey (B "a"), 1); (CArr, 2); (CKey (B "a"), 3); (CKey (B "a"), 1)] (initTable some_memory) = Ok t /\
    exists d, updateStateInfo_c t (CKey (B "a")) (repeat 0 100) = Ok (2, d) /\ firstn 2 d = [1; 3].
Proof.
  split; [exact some_fits|]. split.
  - assert (Hn : forall k, k <> CKey (B "old") -> not_old some_memory k) by (intros k Hk c Hc; apply repeat_spec in Hc; subst c; exact Hk).
    assert (Ha : key_small (CKey (B "a"))) by (split; [intros H; cbn in H; intuition discriminate|discriminate]).
    repeat (apply Forall_cons; [cbn [fst snd]; split; [exact Ha || exact I|split; [apply Hn; discriminate|split; [discriminate|reflexivity]]]|]). constructor.
  - destruct (C49_lists some_memory [(CKey (B "a"), 1); (CArr, 2); (CKey (B "a"), 3); (CKey (B "a"), 1)] some_fits) as (c & Hc & H).
    { repeat (apply Forall_cons; [cbn [fst]; first [exact I|intros H; cbn in H; intuition discriminate]|]). constructor. }
    apply repeat_spec in Hc. subst c. destruct H as (t & Et & H). exists t. split; [exact Et|].
    apply (H (CKey (B "a")) (repeat 0 100)); [intros G; cbn in G; intuition discriminate|reflexivity].
Qed.
(** A key that the memory happened to hold in the place of the array entry is given the
    states of the arrays. *)
Theorem C49_refuted : exists cells t d, table_memory cells /\
  foldM (fun t p => addConstraintInfo_c t (snd p) (fst p)) [(CArr, 2)] (initTable cells) = Ok t /\
  updateStateInfo_c t (CKey (B "old")) (repeat 0 100) = Ok (1, d) /\ firstn 1 d = [2].
Proof.
  destruct (C49_lists some_memory [(CArr, 2)] some_fits) as (c & Hc & H); [repeat constructor|].
  apply repeat_spec in Hc. subst c. destruct H as (t & Et & H). exists some_memory, t.
  destruct (H (CKey (B "old")) (repeat 0 100)) as (d & E1 & E2); [intros G; cbn in G; intuition discriminate|reflexivity|].
  exists d. split; [exact some_fits|]. split; [exact Et|]. split; [exact E1|exact E2].
Qed.
Print Assumptions C49_refuted.
Theorem C49_refuted_full : ~ C49_full.
Proof.
  intros F. destruct C49_refuted as (cells & t & d & Hm & Et & Eu & Ed). destruct (F cells [(CArr, 2)] [CArr] Hm) as (t' & Et' & H).
  - repeat constructor; discriminate.
  - intros k Hk. exact Hk.
  - discriminate.
  - rewrite Et in Et'. injection Et' as <-. destruct (H (CKey (B "old")) (repeat 0 100)) as (n & d' & E & [(-> & _)|(_ & _ & Hs)]).
    + split; [intros G; cbn in G; intuition discriminate|discriminate].
    + reflexivity.
    + congruence.
    + rewrite Eu in E. injection E as <- <-. assert (Hin : In 2 (firstn (Z.to_nat 1) d)).
      { change (Z.to_nat 1) with 1%nat. rewrite Ed. left. reflexivity. }
      apply Hs in Hin. destruct Hin as [G|[]]. discriminate.
Qed.
Print Assumptions C49_refuted_full.

(** A whole training run on arrays, whatever they held: stacks, tuples and table.  It is
    a run on lists; every lookup in the table gives the same. *)
Theorem C49_training : forall d stream cells (syms : list sym) (elts : list elt) (tuples : list tcell), table_memory cells ->
  zlen syms = 100 -> zlen elts = 100 -> zlen tuples = 5000000 -> Forall (fun c => zlen (tc_text c) = 1000) tuples ->
  exists c, In c cells /\
    match executeAutomatonTrain d (c_string (cc_name c)) stream init_core with
    | UB r => executeTrain_c d cells stream (initAutomaton_c syms elts tuples) = UB r
    | Ok (_, l) => exists a t, executeTrain_c d cells stream (initAutomaton_c syms elts tuples) = Ok (a, t) /\
        forall k dest, match k with CKey n => no_nul n | CArr => True end -> zlen dest = 100 ->
          match updateStateInfo (c_string (cc_name c)) l k with
          | Some q => exists d', updateStateInfo_c t k dest = Ok (zlen q, d') /\ firstn (List.length q) d' = q
          | None => updateStateInfo_c t k dest = Ok (-1, dest)
          end
    end.
Proof.
  intros d stream cells syms elts tuples Hm H1 H2 H3 H4. destruct (memory_first cells Hm) as (j0 & Hj0).
  destruct (train_rep d cells stream _ _ j0 (init_a_rep syms elts tuples H1 H2 H3 H4)) as (junk & Hj & S); [apply Hm|apply memory_fresh, Hm|exact Hj0|].
  apply in_map_iff in Hj as (c & <- & Hc). exists c. split; [exact Hc|]. destruct (executeAutomatonTrain d (c_string (cc_name c)) stream init_core) as [[c' l]|r]; [|exact S].
  destruct S as (a & t & Et & _ & R). exists a, t. split; [exact Et|]. intros k dest Hk Hd. exact (get_tab_rep cells _ t l k dest R Hk Hd).
Qed.
Print Assumptions C49_training.

(** C25 on arrays: documents whose keys are not among the names that the memory of the
    table held.  A lookup gives the states in which the key (or an array) is met, each
    once. *)
Theorem C25_arrays : forall strict q p dc ks cells (syms : list sym) (elts : list elt) (tuples : list tcell), supported q = true -> (strict = true -> single_names q) ->
  forallb (fun s => match s with SSlice _ _ => false | _ => true end) q = true ->
  createPathProcessor strict q = Ok p -> zlen (d_table (p_dfa p)) <= 100 -> good_doc dc -> limits q (d_val dc) ->
  table_memory cells -> zlen syms = 100 -> zlen elts = 100 -> zlen tuples = 5000000 -> Forall (fun c => zlen (tc_text c) = 1000) tuples ->
  (forall n, shown (d_val dc) (CKey n) -> not_old cells (CKey n) /\ zlen n <= 98) ->
  (forall k, shown (d_val dc) k -> In k ks) -> zlen ks <= 1000 ->
  exists a t, executeTrain_c (p_dfa p) cells (doc_text dc) (initAutomaton_c syms elts tuples) = Ok (a, t) /\
    forall k dest, match k with CKey n => no_nul n | CArr => True end -> not_old cells k -> zlen dest = 100 ->
      exists n d, updateStateInfo_c t k dest = Ok (n, d) /\
        ((n = -1 /\ d = dest /\ ~ shown (d_val dc) k) \/
         (0 <= n /\ shown (d_val dc) k /\ NoDup (firstn (Z.to_nat n) d) /\ forall s, In s (firstn (Z.to_nat n) d) <-> met (p_dfa p) (d_val dc) k s)).
Proof.
  intros strict q p dc ks cells syms elts tuples Hs Hn Hq Hp Hd Hg Hl Hm H1 H2 H3 H4 Hk Hks Hz.
  destruct (C49_training (p_dfa p) (doc_text dc) cells syms elts tuples Hm H1 H2 H3 H4) as (c & Hc & S).
  destruct (C25_documents strict q p dc (c_string (cc_name c)) ks Hs Hn Hq Hp Hd Hg Hl) as (ct & Ec & L); [|exact Hks|exact Hz|].
  { intros n Hsh. destruct (Hk n Hsh) as [N1 N2]. split; [|exact N2]. intros ->. exact (N1 c Hc eq_refl). }
  unfold collectDataConstraints in Ec. destruct (executeAutomatonTrain (p_dfa p) (c_string (cc_name c)) (doc_text dc) init_core) as [[c' l]|]; [|discriminate Ec]. cbn [bind] in Ec. injection Ec as ->.
  destruct S as (a & t & Et & S). exists a, t. split; [exact Et|]. intros k dest Kf Ko Kd. specialize (S k dest Kf Kd). specialize (L k (Ko c Hc)).
  destruct (updateStateInfo (c_string (cc_name c)) ct k) as [w|].
  - destruct S as (d' & Eu & Ef). exists (zlen w), d'. split; [exact Eu|]. right. split; [unfold zlen; lia|]. unfold zlen. rewrite Nat2Z.id, Ef. exact L.
  - exists (-1), dest. split; [exact S|]. left. split; [reflexivity|]. split; [reflexivity|exact L].
Qed.
Print Assumptions C25_arrays.
(** With C25_example: the keys of [store] are not in the memory of C49_example. *)
Example C25_arrays_example : table_memory some_memory /\ forall n, shown (d_val store) (CKey n) -> not_old some_memory (CKey n) /\ zlen n <= 98.
Proof.
  split; [exact some_fits|]. intros n Hn. assert (H : n <> B "old" /\ zlen n <= 98).
  { apply c25_shown_ok in Hn. vm_compute in Hn. repeat (destruct Hn as [Hn|Hn]; [first [discriminate Hn | injection Hn as <-; split; vm_compute; discriminate]|]). destruct Hn. }
  split; [|apply H]. intros c Hc. apply repeat_spec in Hc. subst c. intros E. apply (proj1 H). injection E as E. exact E.
Qed.
