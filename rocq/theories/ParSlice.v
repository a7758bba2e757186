(** Parallel runs with a table collected on a document, for queries with slices. *)
From Verif Require Import Base Spec PosSpec QueryClass Claims ParSpec Util Lexer LexProof LexDoc LexMain LexSpec LexClaim CutSpec Cut Loader LoaderProof Dfa Constraint Stream TreeSem TreeInv TrainSpec Train TrainDoc.
From Verif Require Import Chains WorkRep Compress Num FilterSpec Builder Eval Filter Run Compiled SelProof EndToEnd ClaimProof AnyQuery LoadClaim Worker Merge Report Units ParDoc ParTrain.
Open Scope Z_scope.

Definition noted (d : dfa) (v : json) (k : ckey) (s : Z) : Prop := met d v k s \/ (s = 0 /\ exists s' i, met_at d v k s' i /\ beyond d s' i).
Definition told (d : dfa) (t : bytes) (k : ckey) (s : Z) : Prop := (exists i, reads d t k s i) \/ (s = 0 /\ exists s' i, reads d t k s' i /\ beyond d s' i).

Lemma doc_told q d x st dc k s : supported q = true -> compiled q d x st -> good_doc dc -> limits q (d_val dc) ->
  told d (doc_text dc) k s <-> noted d (d_val dc) k s.
Proof.
  intros Hsup Hcp Hdoc Hlim.
  pose proof (cp_ok _ _ _ _ Hcp) as Hd.
  assert (H1 : valid_state d 1) by (rewrite <- (cp_start _ _ _ _ Hcp); apply (cp_valid _ _ _ _ Hcp)).
  pose proof Hdoc as [Hwf Hsafe Hbl Hsize]. pose proof (lead_zero dc Hbl) as Hlead.
  assert (Hdt : doc_text dc = d_pre dc ++ text (d_val dc) ++ d_post dc) by reflexivity.
  assert (Hint : zlen (text (d_val dc)) <= Compress.INT_MAX).
  { rewrite Hdt, !zlen_app in Hsize. pose proof (zlen_nonneg (d_pre dc)). pose proof (zlen_nonneg (d_post dc)). unfold Compress.INT_MAX. lia. }
  destruct (exec_all q Hsup d x st Hcp dc Hwf Hsafe Hlead Hlim Hint) as (ms & He & _).
  assert (Hneed : (stack_need (d_val dc) <= 100)%nat) by (rewrite (proj1 depth_need); apply (lim_depth _ _ Hlim)).
  assert (Hf : fits [] (t_val d false 1 0 (d_val dc))).
  { eapply (exec_doc_inv d dc init_core); eauto; [discriminate|cbn; unfold MAX_TUPLE_LIST; lia]. }
  pose proof (doc_no_nul dc Hwf) as Hnn. pose proof (doc_lead dc Hdoc) as Hl.
  assert (Hh : hist d (doc_text dc) (doc_events dc) init_core = Ok (o_val d 1 0 (d_val dc))).
  { apply (proj1 (hist_all d Hd (doc_text dc) Hl Hnn) (d_val dc) AtRoot [] [] 1 0 MInv [] (d_pre dc) (d_post dc) 0 0); auto.
    - intros E. unfold wf_doc in Hwf. andb_split. congruence.
    - reflexivity.
    - discriminate. }
  unfold executeAutomaton in He. rewrite (lex_doc dc Hwf Hsafe) in He. cbn [bind] in He. rewrite (c_string_id (doc_text dc) Hnn) in He.
  unfold noted. rewrite <- (observed d Hd H1). pose proof (fun s => hist_in d (doc_text dc) _ _ _ k s _ Hh He) as Hin.
  unfold told, reads. rewrite (lex_doc dc Hwf Hsafe), (c_string_id (doc_text dc) Hnn). split.
  - intros [(i & e1 & ev & e2 & c1 & El & Ht & Hr & Hs & _)|(-> & s' & i & (e1 & ev & e2 & c1 & El & Ht & Hr & <- & <-) & Hb)]; injection El as El; apply Hin; exists e1, ev, e2, c1.
    + auto.
    + split; [exact El|]. split; [exact Ht|]. split; [exact Hr|]. right. split; [reflexivity|]. apply range_false, Hb.
  - intros H. apply Hin in H as (e1 & ev & e2 & c1 & El & Ht & Hr & Hs). destruct Hs as [->|[-> Hs]].
    + left. exists (q_count (c_cur c1)), e1, ev, e2, c1. rewrite <- El. auto.
    + right. split; [reflexivity|]. exists (q_state (c_cur c1)), (q_count (c_cur c1)). split; [|apply range_false, Hs]. exists e1, ev, e2, c1. rewrite <- El. auto.
Qed.
Lemma any_told strict q p dc k s : supported q = true -> (strict = true -> single_names q) -> createPathProcessor strict q = Ok p -> good_doc dc -> limits q (d_val dc) ->
  told (p_dfa p) (doc_text dc) k s <-> noted (p_dfa p) (d_val dc) k s.
Proof.
  intros Hsup Hsn Hcr Hg Hlim. destruct (create_ok strict q Hsup Hsn) as (d & x & st & Hcr' & _ & Hcp).
  rewrite Hcr in Hcr'. injection Hcr' as ->. cbn [p_dfa] in *. eapply doc_told; eassumption.
Qed.
Lemma noted_shown d v k s : noted d v k s -> shown v k.
Proof. intros [H|(_ & s' & i & H & _)]; [exact (met_shown _ _ _ _ H)|]. apply (met_shown d v k s'). exists i. exact H. Qed.

Lemma train_covers_told p jk tr ct T : dfa_ok (p_dfa p) -> collectDataConstraints p jk tr = Ok ct -> (forall s i, ~ reads (p_dfa p) tr (CKey jk) s i) ->
  (forall n s i, reads (p_dfa p) T (CKey n) s i -> n <> jk /\ zlen n <= 98) ->
  (forall k s i, reads (p_dfa p) T k s i -> (exists s' i', reads (p_dfa p) tr k s' i') -> told (p_dfa p) tr k s) ->
  table_covers (p_dfa p) jk ct T.
Proof.
  intros Hd Hc Hjk Hkeys Hmet. destruct p as [d x]. cbn [p_dfa] in *.
  assert (H0 : valid_state d 0) by (pose proof (ok_states d Hd); unfold valid_state; lia).
  unfold collectDataConstraints in Hc. cbn [p_dfa] in Hc. destruct (executeAutomatonTrain d jk tr init_core) as [[c ct']|] eqn:Et; [|discriminate]. cbn [bind] in Hc. injection Hc as ->.
  intros k s i Hr. split. { destruct k as [n|]; [apply (Hkeys n s i Hr)|exact I]. }
  assert (Hk : k <> CKey jk). { intros ->. destruct (Hkeys jk s i Hr) as [E _]. congruence. }
  intros l Hl. pose proof (train_text d jk tr c ct Et Hjk k Hk) as HT. rewrite Hl in HT. destruct HT as (T1 & T2 & T3).
  split; [exact T2|]. split.
  - apply Forall_forall. intros s' Hs'. apply T3 in Hs' as [(i' & Hs')|[-> _]]; [|exact H0]. eapply train_valid; eassumption.
  - intros _. apply T3. eapply Hmet; eassumption.
Qed.

(** A decision procedure for the examples. *)
Lemma noted_checked strict q p dc dt : supported q = true -> (strict = true -> single_names q) -> createPathProcessor strict q = Ok p ->
  met_check (p_dfa p) dc dt = true -> forall k s, noted (p_dfa p) (d_val dc) k s -> shown (d_val dt) k -> noted (p_dfa p) (d_val dt) k s.
Proof.
  intros Hsup Hsn Hcr H k s Hm Hs. destruct (create_ok strict q Hsup Hsn) as (d & x & st & Hcr' & _ & Hcp).
  rewrite Hcr in Hcr'. injection Hcr' as ->. cbn [p_dfa] in *. pose proof (cp_ok _ _ _ _ Hcp) as Hd.
  assert (H1 : valid_state d 1) by (rewrite <- (cp_start _ _ _ _ Hcp); apply (cp_valid _ _ _ _ Hcp)).
  unfold met_check in H. rewrite forallb_forall in H. specialize (H (k, s) (proj2 (observed d Hd H1 _ _ _) Hm)). cbn [fst snd] in H.
  apply (observed_shown d) in Hs as (s0 & Hs). apply orb_true_iff in H as [H|H].
  - apply negb_true_iff in H. exfalso. assert (Hx : existsb (fun p => same_key (fst p) k) (o_val d 1 0 (d_val dt)) = true); [|congruence].
    apply existsb_exists. exists (k, s0). split; [exact Hs|]. apply same_key_eq. reflexivity.
  - apply existsb_exists in H as ([k' s'] & Hin & E). cbn [fst snd] in E. apply andb_true_iff in E as [E1 E2]. apply same_key_eq in E1. apply Z.eqb_eq in E2. subst.
    apply (observed d Hd H1). exact Hin.
Qed.
