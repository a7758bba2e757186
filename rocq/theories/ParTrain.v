(** Parallel runs with a table collected by a training run. *)
From Verif Require Import Base Spec PosSpec QueryClass Claims ParSpec Util Lexer LexProof LexDoc LexMain LexSpec LexClaim CutSpec Cut Loader LoaderProof Dfa Constraint Stream TreeSem TreeInv TrainSpec Train TrainDoc.
From Verif Require Import Chains WorkRep Compress Num FilterSpec Builder Eval Filter Run Compiled SelProof EndToEnd ClaimProof AnyQuery LoadClaim Worker Merge Report Units ParDoc.
Open Scope Z_scope.

(** What the tokens of a document show is what its positions say. *)
Lemma doc_reads q d x st dc k s : supported q = true -> forallb (fun s => match s with SSlice _ _ => false | _ => true end) q = true -> compiled q d x st -> good_doc dc -> limits q (d_val dc) ->
  (exists i, reads d (doc_text dc) k s i) <-> met d (d_val dc) k s.
Proof.
  intros Hsup Hq Hcp Hdoc Hlim.
  pose proof (cp_ok _ _ _ _ Hcp) as Hd.
  assert (H1 : valid_state d 1) by (rewrite <- (cp_start _ _ _ _ Hcp); apply (cp_valid _ _ _ _ Hcp)).
  pose proof Hdoc as [Hwf Hsafe Hbl Hsize]. pose proof (lead_zero dc Hbl) as Hlead.
  assert (Hdt : doc_text dc = d_pre dc ++ text (d_val dc) ++ d_post dc) by reflexivity.
  assert (Hint : zlen (text (d_val dc)) <= Compress.INT_MAX).
  { rewrite Hdt, !zlen_app in Hsize. pose proof (zlen_nonneg (d_pre dc)). pose proof (zlen_nonneg (d_post dc)). unfold Compress.INT_MAX. lia. }
  destruct (exec_all q Hsup d x st Hcp dc Hwf Hsafe Hlead Hlim Hint) as (ms & He & _).
  assert (Hneed : (stack_need (d_val dc) <= 100)%nat) by (rewrite (proj1 depth_need); apply (lim_depth _ _ Hlim)).
  assert (Hf : fits [] (t_val d false 1 0 (d_val dc))).
  { eapply (exec_doc_inv d dc init_core); eauto; [discriminate|cbn; unfold MAX_TUPLE_LIST; lia]. }
  pose proof (doc_no_nul dc Hwf) as Hnn. pose proof (doc_lead dc Hdoc) as Hl.
  assert (Hh : hist d (doc_text dc) (doc_events dc) init_core = Ok (o_val d 1 0 (d_val dc))).
  { apply (proj1 (hist_all d Hd (doc_text dc) Hl Hnn) (d_val dc) AtRoot [] [] 1 0 MInv [] (d_pre dc) (d_post dc) 0 0); auto.
    - intros E. unfold wf_doc in Hwf. andb_split. congruence.
    - reflexivity.
    - discriminate. }
  unfold executeAutomaton in He. rewrite (lex_doc dc Hwf Hsafe) in He. cbn [bind] in He. rewrite (c_string_id (doc_text dc) Hnn) in He.
  assert (Hob : forall s, In (k, s) (o_val d 1 0 (d_val dc)) <-> met d (d_val dc) k s).
  { intros s'. rewrite (observed d Hd H1). split; [|auto]. intros [H|(_ & s1 & j & H & Hb)]; [exact H|exfalso].
    refine (never_beyond q d x st _ _ _ _ _ Hcp Hq H Hb). }
  rewrite <- Hob. pose proof (fun s => hist_in d (doc_text dc) _ _ _ k s _ Hh He) as Hin. unfold reads. rewrite (lex_doc dc Hwf Hsafe), (c_string_id (doc_text dc) Hnn). split.
  - intros (i & e1 & ev & e2 & c1 & El & Ht & Hr & Hs & _). injection El as El. apply Hin. exists e1, ev, e2, c1. auto.
  - intros H. apply Hin in H as (e1 & ev & e2 & c1 & El & Ht & Hr & Hs). exists (q_count (c_cur c1)), e1, ev, e2, c1. rewrite <- El. split; [reflexivity|]. split; [exact Ht|]. split; [exact Hr|]. split; [|reflexivity].
    destruct Hs as [->|[_ Hs]]; [reflexivity|exfalso]. apply range_false in Hs.
    assert (Hm : met d (d_val dc) k (q_state (c_cur c1))) by (apply Hob, Hin; exists e1, ev, e2, c1; auto).
    destruct Hm as (i & Hm). exact (never_beyond q d x st _ _ _ _ _ Hcp Hq Hm Hs).
Qed.
Lemma met_shown d v k s : met d v k s -> shown v k.
Proof. intros (i & p & u & H1 & H2 & _). exists p, u. auto. Qed.

Lemma free_reads strict q p dc k s : supported q = true -> (strict = true -> single_names q) -> forallb (fun s => match s with SSlice _ _ => false | _ => true end) q = true ->
  createPathProcessor strict q = Ok p -> good_doc dc -> limits q (d_val dc) ->
  (exists i, reads (p_dfa p) (doc_text dc) k s i) <-> met (p_dfa p) (d_val dc) k s.
Proof.
  intros Hsup Hsn Hq Hcr Hg Hlim. destruct (create_ok strict q Hsup Hsn) as (d & x & st & Hcr' & _ & Hcp).
  rewrite Hcr in Hcr'. injection Hcr' as ->. cbn [p_dfa] in *. eapply doc_reads; eassumption.
Qed.

(** States that a training run has seen are states. *)
Lemma train_valid d jk text c ct k s i : dfa_ok d -> executeAutomatonTrain d jk text init_core = Ok (c, ct) -> reads d text k s i -> valid_state d s.
Proof.
  unfold executeAutomatonTrain. intros Hd H (e1 & ev & e2 & c1 & El & Ht & Hr & <- & _). rewrite El in H. cbn [bind] in H. apply train_inv in H as (h & _ & H & _).
  rewrite foldM_app, Hr in H. cbn [bind foldM] in H. destruct (core_step d (c_string text) c1 ev) as [c2|] eqn:E; [|discriminate]. clear - Hd Ht E. unfold core_step in E.
  assert (G : forall r, in_range d (c_cur c1) = Ok r -> valid_state d (q_state (c_cur c1))).
  { intros r G. unfold in_range, getDFAArrayIndex in G. destruct (zread (d_range d) (q_state (c_cur c1))) as [r'|] eqn:Ez; [|discriminate].
    apply zread_inv in Ez as [Ez _]. rewrite (ok_range d Hd) in Ez. exact Ez. }
  destruct (e_tok ev), k; try contradiction.
  - unfold do_lb, getMatchedType, getDFAAcceptType in E. destruct (zread (d_accept d) (q_state (c_cur c1))) as [a|] eqn:Ez; [|discriminate].
    apply zread_inv in Ez as [Ez _]. rewrite (ok_accept d Hd) in Ez. exact Ez.
  - unfold do_ky, next_elt in E. destruct (in_range d (c_cur c1)) as [r|]; [eapply G; reflexivity|discriminate].
Qed.

Lemma made_dfa strict q p : supported q = true -> createPathProcessor strict q = Ok p -> dfa_ok (p_dfa p).
Proof.
  intros Hsup Hcr. destruct (supported_parts q Hsup) as (_ & _ & _ & _ & _ & Hnames).
  assert (HU : zlen (query_names q) <= name_bound).
  { unfold names_fit in Hnames. unfold name_bound. apply orb_true_iff in Hnames as [H|H]; [lia|]. apply andb_true_iff in H as [_ H]. lia. }
  exact (proj1 (query_dfa strict q p HU Hcr)).
Qed.

(** The table of a training run on one text, used on another. *)
Lemma train_covers p jk tr ct T : dfa_ok (p_dfa p) -> collectDataConstraints p jk tr = Ok ct -> (forall s i, ~ reads (p_dfa p) tr (CKey jk) s i) ->
  (forall n s i, reads (p_dfa p) T (CKey n) s i -> n <> jk /\ zlen n <= 98) ->
  (forall k s i, reads (p_dfa p) T k s i -> (exists s' i', reads (p_dfa p) tr k s' i') -> exists i', reads (p_dfa p) tr k s i') ->
  table_covers (p_dfa p) jk ct T.
Proof.
  intros Hd Hc Hjk Hkeys Hmet. destruct p as [d x]. cbn [p_dfa] in *.
  assert (H0 : valid_state d 0) by (pose proof (ok_states d Hd); unfold valid_state; lia).
  unfold collectDataConstraints in Hc. cbn [p_dfa] in Hc. destruct (executeAutomatonTrain d jk tr init_core) as [[c ct']|] eqn:Et; [|discriminate]. cbn [bind] in Hc. injection Hc as ->.
  intros k s i Hr. split. { destruct k as [n|]; [apply (Hkeys n s i Hr)|exact I]. }
  assert (Hk : k <> CKey jk). { intros ->. destruct (Hkeys jk s i Hr) as [E _]. congruence. }
  intros l Hl. pose proof (train_text d jk tr c ct Et Hjk k Hk) as HT. rewrite Hl in HT. destruct HT as (T1 & T2 & T3).
  split; [exact T2|]. split.
  - apply Forall_forall. intros s' Hs'. apply T3 in Hs' as [(i' & Hs')|[-> _]]; [|exact H0]. eapply train_valid; eassumption.
  - intros _. apply T3. left. eapply Hmet; eassumption.
Qed.

(** A decision procedure for the examples. *)
Definition same_key (k k' : ckey) : bool := match k, k' with CKey n, CKey n' => beq n n' | CArr, CArr => true | _, _ => false end.
Lemma same_key_eq k k' : same_key k k' = true <-> k = k'.
Proof. destruct k, k'; cbn; try (split; [discriminate|congruence]); [rewrite beq_true; split; congruence|tauto]. Qed.
Definition met_check (d : dfa) (dc dt : doc) : bool :=
  let o := o_val d 1 0 (d_val dt) in
  forallb (fun ks => negb (existsb (fun p => same_key (fst p) (fst ks)) o) || existsb (fun p => same_key (fst p) (fst ks) && (snd p =? snd ks)) o) (o_val d 1 0 (d_val dc)).
Lemma met_checked strict q p dc dt : supported q = true -> (strict = true -> single_names q) -> forallb (fun s => match s with SSlice _ _ => false | _ => true end) q = true ->
  createPathProcessor strict q = Ok p ->
  met_check (p_dfa p) dc dt = true -> forall k s, met (p_dfa p) (d_val dc) k s -> shown (d_val dt) k -> met (p_dfa p) (d_val dt) k s.
Proof.
  intros Hsup Hsn Hq Hcr H k s Hm Hs. destruct (create_ok strict q Hsup Hsn) as (d & x & st & Hcr' & _ & Hcp).
  rewrite Hcr in Hcr'. injection Hcr' as ->. cbn [p_dfa] in *. pose proof (cp_ok _ _ _ _ Hcp) as Hd.
  assert (H1 : valid_state d 1) by (rewrite <- (cp_start _ _ _ _ Hcp); apply (cp_valid _ _ _ _ Hcp)).
  unfold met_check in H. rewrite forallb_forall in H. specialize (H (k, s) (proj2 (observed d Hd H1 _ _ _) (or_introl Hm))). cbn [fst snd] in H.
  apply (observed_shown d) in Hs as (s0 & Hs). apply orb_true_iff in H as [H|H].
  - apply negb_true_iff in H. exfalso. assert (Hx : existsb (fun p => same_key (fst p) k) (o_val d 1 0 (d_val dt)) = true); [|congruence].
    apply existsb_exists. exists (k, s0). split; [exact Hs|]. apply same_key_eq. reflexivity.
  - apply existsb_exists in H as ([k' s'] & Hin & E). cbn [fst snd] in E. apply andb_true_iff in E as [E1 E2]. apply same_key_eq in E1. apply Z.eqb_eq in E2. subst.
    apply (observed d Hd H1) in Hin as [Hin|(_ & s1 & j & Hin & Hb)]; [exact Hin|exfalso]. refine (never_beyond q d x st _ _ _ _ _ Hcp Hq Hin Hb).
Qed.
Definition listed (v : json) : list ckey :=
  flat_map (fun n => match snd n with JArr _ _ => [CArr] | JObj _ ms => map CKey (keys ms) | _ => [] end) (nodes [] v).
Lemma shown_listed v k : shown v k -> In k (listed v).
Proof.
  intros (p & u & H & Hs). apply in_flat_map. exists (p, u). split; [exact H|]. cbn [snd]. destruct u, k; cbn in *; try tauto. apply in_map, Hs.
Qed.
