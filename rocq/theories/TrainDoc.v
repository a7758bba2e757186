(** What a training run observes on a document (for C25). *)
From Verif Require Import Base Util Spec QueryClass PosSpec Claims Lexer LexProof Dfa Constraint Stream AutoProof AutoSpec SelProof LexSpec LexDoc LexMain TreeSem TreeInv BuilderProof Compiled Builder Eval EndToEnd Loader Run ClaimProof TrainSpec Train.
Open Scope Z_scope.

Section Lead.
  Variable d : dfa.
  Hypothesis Hd : dfa_ok d.

  Definition wk1 (s : Z * Z) (l : label) : Z * Z := (nx d (fst s) (snd s) (asked l), index_of l).
  Definition wk (w : list label) : Z * Z := fold_left wk1 w (1, 0).
  Lemma wk_snoc w l : wk (w ++ [l]) = wk1 (wk w) l.
  Proof. unfold wk. apply fold_left_app. Qed.

  Lemma inr_spec q i : valid_state d q -> if inr d q i then within d q i else beyond d q i.
  Proof.
    intros Hq. unfold inr, in_range, within, beyond. cbn [q_state q_count].
    unfold getDFAArrayIndex. destruct (zread_ok (d_range d) q) as ([lo hi] & Hr & _); [rewrite (ok_range d Hd); exact Hq|]. rewrite Hr. cbn [bind get].
    destruct ((lo =? 0) && (hi =? 0)) eqn:E; cbn [orb].
    - apply andb_true_iff in E as [E1 E2]. apply Z.eqb_eq in E1, E2. exists lo, hi. auto.
    - destruct ((lo <=? i) && (i <? hi)) eqn:E'.
      + apply andb_true_iff in E' as [E1 E2]. apply Z.leb_le in E1. apply Z.ltb_lt in E2. exists lo, hi. split; [reflexivity|]. right. lia.
      + exists lo, hi. split; [reflexivity|]. apply andb_false_iff in E. apply andb_false_iff in E'. rewrite !Z.eqb_neq in E. rewrite Z.leb_gt, Z.ltb_ge in E'. split; lia.
  Qed.
  Lemma within_beyond q i : within d q i -> beyond d q i -> False.
  Proof.
    intros (lo & hi & E & H) (lo' & hi' & E' & H1 & H2). rewrite E in E'. injection E' as <- <-. destruct H; auto.
  Qed.

  Lemma nx_in q i inp : valid_state d q -> inr d q i = true -> dfaNextStateByStr d q inp = Ok (nx d q i inp).
  Proof.
    intros Hq Hi. unfold nx, next_elt, inr in *. cbn [q_state]. destruct (in_range_ok d q i MInv Hd Hq) as (b & E). rewrite E in *. cbn in Hi. subst b.
    cbn [bind]. destruct (dns_ok d q inp Hd Hq) as (t & -> & _). reflexivity.
  Qed.
  Lemma nx_out q i inp : valid_state d q -> inr d q i = false -> nx d q i inp = 0.
  Proof.
    intros Hq Hi. unfold nx, next_elt, inr in *. cbn [q_state]. destruct (in_range_ok d q i MInv Hd Hq) as (b & E). rewrite E in *. cbn in Hi. subst b. reflexivity.
  Qed.

  Lemma leads_wk : forall w q i s' i', valid_state d q -> leads d q i w s' i' <-> fold_left wk1 w (q, i) = (s', i').
  Proof.
    induction w as [|l w IH]; intros q i s' i' Hq; cbn [fold_left].
    - split; [intros H; inversion H; reflexivity|intros H; injection H as <- <-; constructor].
    - unfold wk1 at 2. cbn [fst snd]. pose proof (inr_spec q i Hq) as Hi. destruct (next_ok d q i MInv (asked l) Hd Hq) as [_ Hv].
      rewrite <- IH by exact Hv. destruct (inr d q i) eqn:E.
      + split.
        * intros H. inversion H; subst; [|exfalso; eapply within_beyond; eauto].
          match goal with Hx : dfaNextStateByStr _ _ _ = Ok _ |- _ => rewrite (nx_in q i (asked l) Hq E) in Hx; injection Hx as <- end. assumption.
        * intros H. eapply leads_in; eauto. apply nx_in; auto.
      + rewrite (nx_out q i (asked l) Hq E). split.
        * intros H. inversion H; subst; [exfalso; eapply within_beyond; eauto|assumption].
        * intros H. eapply leads_out; eauto.
  Qed.

  (** What is recorded for something met in the state and position [si]. *)
  Definition sees (si : Z * Z) (s : Z) : Prop := s = fst si \/ (s = 0 /\ inr d (fst si) (snd si) = false).
  Lemma see_in q i k k' s : In (k', s) (see d q i k) <-> k' = k /\ sees (q, i) s.
  Proof.
    unfold see, sees. cbn [fst snd In]. destruct (inr d q i); cbn [In].
    - split; [intros [E|[]]; injection E as -> ->; auto|intros [-> [->|[_ E]]]; [auto|discriminate]].
    - split; [intros [E|[E|[]]]; injection E as -> ->; auto|intros [-> [->|[-> _]]]; auto].
  Qed.

  Definition found (l : list (path * json)) (k : ckey) (s : Z) : Prop :=
    exists p u, In (p, u) l /\ shows u k /\ sees (wk (labels p)) s.
  Lemma found_app l1 l2 k s : found (l1 ++ l2) k s <-> found l1 k s \/ found l2 k s.
  Proof.
    unfold found. split.
    - intros (p & u & Hi & H). apply in_app_iff in Hi as [Hi|Hi]; [left|right]; exists p, u; auto.
    - intros [(p & u & Hi & H)|(p & u & Hi & H)]; exists p, u; rewrite in_app_iff; auto.
  Qed.
  Lemma found_one p u k s : found [(p, u)] k s <-> shows u k /\ sees (wk (labels p)) s.
  Proof.
    unfold found. split.
    - intros (p' & u' & [E|[]] & H). injection E as <- <-. exact H.
    - intros H. exists p, u. cbn. auto.
  Qed.

  Lemma labels_snoc p l v : labels (p ++ [(l, v)]) = labels p ++ [l].
  Proof. unfold labels. rewrite map_app. reflexivity. Qed.

  Lemma observed_all :
    (forall v p q i k s, wk (labels p) = (q, i) -> In (k, s) (o_val d q i v) <-> found (nodes p v) k s) /\
    (forall ms p q i k s, wk (labels p) = (q, i) ->
       In (k, s) (o_ms d q i ms) <-> (exists n, k = CKey n /\ In n (keys ms) /\ sees (q, i) s) \/ found (nodes_ms p ms) k s) /\
    (forall es p q i n k s, wk (labels p) = (q, i) ->
       In (k, s) (o_es d (nx d q i None) (Z.of_nat n) es) <-> found (nodes_es p n es) k s).
  Proof.
    apply json_all_ind.
    - intros b p q i k s Hw. cbn [o_val nodes]. rewrite found_one. cbn. tauto.
    - intros b p q i k s Hw. cbn [o_val nodes]. rewrite found_one. cbn. tauto.
    - intros w ms IH p q i k s Hw. cbn [o_val nodes]. rewrite found_app, found_one, (IH p q i k s Hw), Hw.
      destruct k as [n|]; cbn [shows].
      + split; [intros [(n' & E & H)|H]; [injection E as <-; auto|auto]|intros [H|H]; [auto|left; exists n; auto]].
      + split; [intros [(n & E & _)|H]; [discriminate|auto]|intros [H|[[] _]]; auto].
    - intros w es IH p q i k s Hw. cbn [o_val nodes]. rewrite in_app_iff, see_in, found_app, found_one, Hw.
      rewrite (IH p q i O k s Hw). destruct k; cbn [shows]; [split; [intros [[E _]|H]; [discriminate|auto]|tauto]|]. tauto.
    - intros p q i k s Hw. cbn. unfold found. cbn. split; [intros []|intros [(n & _ & [] & _)|(p' & u & [] & _)]].
    - intros pd n v IHv ms IHms p q i k s Hw. cbn [o_ms nodes_ms keys In]. rewrite !in_app_iff, see_in, found_app, (IHms p q i k s Hw).
      rewrite (IHv (p ++ [(LKey n, v)]) (nx d q i (Some n)) 0 k s).
      2:{ rewrite labels_snoc, wk_snoc, Hw. reflexivity. }
      split.
      + intros [[-> H]|[H|[(n' & -> & H1 & H2)|H]]]; eauto 8.
      + intros [(n' & -> & [<-|H1] & H2)|[H|H]]; eauto 8.
    - intros p q i n k s Hw. cbn. unfold found. cbn. split; [intros []|intros (p' & u & [] & _)].
    - intros wb v IHv wa es IHes p q i n k s Hw. cbn [o_es nodes_es]. rewrite in_app_iff, found_app.
      rewrite (IHv (p ++ [(LIdx n, v)]) (nx d q i None) (Z.of_nat n) k s).
      2:{ rewrite labels_snoc, wk_snoc, Hw. reflexivity. }
      replace (Z.of_nat n + 1) with (Z.of_nat (S n)) by lia. rewrite (IHes p q i (S n) k s Hw). reflexivity.
  Qed.

  Hypothesis H1 : valid_state d 1.
  Lemma wk_valid w : valid_state d (fst (wk w)).
  Proof.
    induction w as [|l w IH] using rev_ind; [exact H1|]. rewrite wk_snoc. cbn [wk1 fst]. destruct (wk w) as [q i]. apply (next_ok d q i MInv (asked l) Hd IH).
  Qed.

  (** The observations on a document. *)
  Lemma observed v k s : In (k, s) (o_val d 1 0 v) <-> met d v k s \/ (s = 0 /\ exists s' i, met_at d v k s' i /\ beyond d s' i).
  Proof.
    rewrite (proj1 observed_all v [] 1 0 k s eq_refl). unfold found, met, met_at, sees. split.
    - intros (p & u & Hi & Hs & H). pose proof (wk_valid (labels p)) as Hv. destruct (wk (labels p)) as [q i] eqn:E. cbn [fst snd] in *.
      assert (Hl : leads d 1 0 (labels p) q i) by (apply leads_wk; auto).
      destruct H as [->|[-> H]]; [left; exists i, p, u; auto|right]. split; [reflexivity|]. exists q, i. split; [exists p, u; auto|].
      pose proof (inr_spec q i Hv) as Hb. rewrite H in Hb. exact Hb.
    - intros [(i & p & u & Hi & Hs & Hl)|(-> & q & i & (p & u & Hi & Hs & Hl) & Hb)]; exists p, u; (split; [exact Hi|split; [exact Hs|]]);
        pose proof (wk_valid (labels p)) as Hv; apply leads_wk in Hl; auto; fold (wk (labels p)) in Hl; rewrite Hl in *; cbn [fst snd] in *; [auto|right].
      split; [reflexivity|]. pose proof (inr_spec q i Hv) as Hw. destruct (inr d q i); [exfalso; eapply within_beyond; eauto|reflexivity].
  Qed.
  Lemma observed_shown v k : (exists s, In (k, s) (o_val d 1 0 v)) <-> shown v k.
  Proof.
    split.
    - intros (s & H). rewrite (proj1 observed_all v [] 1 0 k s eq_refl) in H. destruct H as (p & u & H & H' & _). exists p, u. auto.
    - intros (p & u & H & H'). exists (fst (wk (labels p))). rewrite (proj1 observed_all v [] 1 0 k _ eq_refl). exists p, u. unfold sees. auto.
  Qed.
  Lemma observed_valid v k s : In (k, s) (o_val d 1 0 v) -> valid_state d s.
  Proof.
    rewrite (proj1 observed_all v [] 1 0 k s eq_refl). intros (p & u & _ & _ & [->|[-> _]]); [apply wk_valid|].
    unfold valid_state in *. lia.
  Qed.
End Lead.

Section AnyText.
  Variables (d : dfa) (jk : bytes).
  Variable buf : bytes.
  Notation run := (foldM (core_step d buf)).

  Lemma train_step_inv c ct ev ct' : train_step d jk c ct ev = Ok ct' -> exists o, looks d c ev = Ok o.
  Proof.
    unfold train_step, looks. destruct (e_tok ev); eauto; unfold look_at; (destruct (in_range d (c_cur c)) as [r|];
      [cbn [bind]; eauto|destruct (addConstraintInfo _ _ _ _); discriminate]).
  Qed.
  Lemma train_inv : forall evs c ct c' ct', foldM (train_core_step d jk buf) evs (c, ct) = Ok (c', ct') ->
    exists h, hist d buf evs c = Ok h /\ run evs c = Ok c' /\ adds jk h ct = Ok ct'.
  Proof.
    induction evs as [|ev evs IH]; intros c ct c' ct' H; cbn [foldM hist] in *.
    - injection H as <- <-. exists []. auto.
    - unfold train_core_step at 1 in H. cbn [fst snd] in H. destruct (train_step d jk c ct ev) as [ct1|] eqn:Et; [|discriminate]. cbn [bind] in H.
      destruct (train_step_inv _ _ _ _ Et) as (o & Eo). rewrite Eo. cbn [bind]. rewrite (train_one d jk c ct ev o Eo) in Et.
      destruct (core_step d buf c ev) as [c1|]; [|discriminate]. cbn [bind] in *. destruct (IH _ _ _ _ H) as (h & E1 & E2 & E3). rewrite E1. cbn [bind].
      exists (o ++ h). split; [reflexivity|]. split; [exact E2|]. rewrite adds_app, Et. exact E3.
  Qed.

  Lemma looks_in c ev o k s : looks d c ev = Ok o -> In (k, s) o <-> is_token (e_tok ev) k /\ (s = q_state (c_cur c) \/ (s = 0 /\ in_range d (c_cur c) = Ok false)).
  Proof.
    unfold looks, look_at. destruct (e_tok ev); try (intros H; injection H as <-; cbn; destruct k; tauto);
      (destruct (in_range d (c_cur c)) as [r|]; [|discriminate]); cbn [bind]; intros H; injection H as <-; destruct r, k; cbn; 
      split; intros G; repeat match goal with
        | H : _ \/ _ |- _ => destruct H
        | H : _ /\ _ |- _ => destruct H
        | H : (_, _) = (_, _) |- _ => injection H as ? ?; subst
        | H : Ok _ = Ok _ |- _ => discriminate H
        | H : False |- _ => destruct H
        end; subst; try discriminate; try congruence; auto 6; match goal with H : (_, _) = (_, _) |- _ => injection H as <- end; auto 6.
  Qed.

  Lemma hist_in : forall evs c h k s c', hist d buf evs c = Ok h -> run evs c = Ok c' ->
    In (k, s) h <-> exists e1 ev e2 c1, evs = e1 ++ ev :: e2 /\ is_token (e_tok ev) k /\ run e1 c = Ok c1 /\
      (s = q_state (c_cur c1) \/ (s = 0 /\ in_range d (c_cur c1) = Ok false)).
  Proof.
    induction evs as [|ev evs IH]; intros c h k s c' H Hr; cbn [hist foldM] in *.
    - injection H as <-. split; [intros []|intros ([|] & ? & ? & ? & E & _); discriminate].
    - destruct (looks d c ev) as [o|] eqn:El; [|discriminate]. cbn [bind] in *. destruct (core_step d buf c ev) as [c1|] eqn:Ec; [|discriminate]. cbn [bind] in *.
      destruct (hist d buf evs c1) as [h1|] eqn:Eh; [|discriminate]. cbn [bind] in *. injection H as <-.
      rewrite in_app_iff, (looks_in c ev o k s El), (IH _ _ k s c' Eh Hr). split.
      + intros [[H1 H2]|(e1 & ev' & e2 & c2 & -> & H1 & H2 & H3)].
        * exists [], ev, evs, c. auto.
        * exists (ev :: e1), ev', e2, c2. split; [reflexivity|]. split; [exact H1|]. split; [|exact H3]. cbn [foldM]. rewrite Ec. exact H2.
      + intros ([|e0 e1] & ev' & e2 & c2 & E & H1 & H2 & H3).
        * injection E as -> ->. cbn in H2. injection H2 as <-. auto.
        * injection E as -> ->. cbn [foldM] in H2. rewrite Ec in H2. right. exists e1, ev', e2, c2. auto.
  Qed.
End AnyText.

Lemma range_false d e : in_range d e = Ok false <-> beyond d (q_state e) (q_count e).
Proof.
  unfold in_range, beyond. destruct (getDFAArrayIndex d (q_state e)) as [[lo hi]|]; cbn [bind].
  - split.
    + intros H. injection H as H. exists lo, hi. split; [reflexivity|]. apply orb_false_iff in H as [H1 H2]. apply andb_false_iff in H1, H2.
      rewrite !Z.eqb_neq in H1. rewrite Z.leb_gt, Z.ltb_ge in H2. lia.
    + intros (lo' & hi' & E & H1 & H2). injection E as <- <-. f_equal. apply orb_false_iff. rewrite !andb_false_iff, !Z.eqb_neq, Z.leb_gt, Z.ltb_ge. lia.
  - split; [discriminate|intros (lo & hi & E & _); discriminate].
Qed.

(** Every text on which the training run ends. *)
Theorem train_text d jk text c ct : executeAutomatonTrain d jk text init_core = Ok (c, ct) ->
  (forall s i, ~ reads d text (CKey jk) s i) -> forall k, k <> CKey jk ->
  match updateStateInfo jk ct k with
  | Some l => (exists s i, reads d text k s i) /\ NoDup l /\
      forall s, In s l <-> (exists i, reads d text k s i) \/ (s = 0 /\ exists s' i, reads d text k s' i /\ beyond d s' i)
  | None => forall s i, ~ reads d text k s i
  end.
Proof.
  unfold executeAutomatonTrain. destruct (lex_all text) as [evs|] eqn:El; [|discriminate]. cbn [bind]. intros H Hjk k Hk.
  apply train_inv in H as (h & H1 & H2 & H3).
  assert (Hin : forall k s, In (k, s) h <-> (exists i, reads d text k s i) \/ (s = 0 /\ exists s' i, reads d text k s' i /\ beyond d s' i)).
  { intros k' s'. rewrite (hist_in d (c_string text) evs init_core h k' s' c H1 H2). unfold reads. rewrite El. split.
    - intros (e1 & ev & e2 & c1 & -> & G1 & G2 & [->|[-> G3]]).
      + left. exists (q_count (c_cur c1)), e1, ev, e2, c1. auto.
      + right. split; [reflexivity|]. exists (q_state (c_cur c1)), (q_count (c_cur c1)). split; [exists e1, ev, e2, c1; auto|apply range_false, G3].
    - intros [(i & e1 & ev & e2 & c1 & E & G1 & G2 & <- & <-)|(-> & s1 & i & (e1 & ev & e2 & c1 & E & G1 & G2 & <- & <-) & G3)]; injection E as ->; exists e1, ev, e2, c1; auto.
      split; [reflexivity|]. split; [exact G1|]. split; [exact G2|]. right. split; [reflexivity|apply range_false, G3]. }
  assert (Hex : forall k, (exists s, In (k, s) h) <-> exists s i, reads d text k s i).
  { intros k'. split.
    - intros (s & G). apply Hin in G as [(i & G)|(_ & s' & i & G & _)]; eauto.
    - intros (s & i & G). exists s. apply Hin. eauto. }
  pose proof (history_sound jk h ct) as HS.
  assert (Hf : Forall (fun p => fst p <> CKey jk) h).
  { apply Forall_forall. intros [k' s'] Hi E. cbn in E. subst k'. destruct (proj1 (Hex (CKey jk))) as (s & i & G); [eauto|]. eapply Hjk, G. }
  specialize (HS Hf H3 k Hk). destruct (updateStateInfo jk ct k) as [l|].
  - destruct HS as (G1 & G2 & G3). split; [apply Hex, G1|]. split; [exact G2|]. intros s. rewrite G3. apply Hin.
  - intros s i G. destruct (proj2 (Hex k)) as (s' & G'); [eauto|]. eapply HS, G'.
Qed.

(** Documents: the run ends, and what is met is given by the positions. *)
Theorem train_doc strict q p dc jk ks : supported q = true -> (strict = true -> single_names q) ->
  createPathProcessor strict q = Ok p -> zlen (d_table (p_dfa p)) <= 100 -> good_doc dc -> limits q (d_val dc) ->
  (forall n, shown (d_val dc) (CKey n) -> n <> jk /\ zlen n <= 98) ->
  (forall k, shown (d_val dc) k -> In k ks) -> zlen ks <= 1000 ->
  exists ct, collectDataConstraints p jk (doc_text dc) = Ok ct /\ forall k, k <> CKey jk ->
    match updateStateInfo jk ct k with
    | Some l => shown (d_val dc) k /\ NoDup l /\
        forall s, In s l <-> met (p_dfa p) (d_val dc) k s \/ (s = 0 /\ exists s' i, met_at (p_dfa p) (d_val dc) k s' i /\ beyond (p_dfa p) s' i)
    | None => ~ shown (d_val dc) k
    end.
Proof.
  intros Hsup Hstrict Hp Hn Hdoc Hlim Hkeys Hks Hz.
  destruct (create_ok strict q Hsup Hstrict) as (d & x & st & Hcr & Hb & Hcp). rewrite Hp in Hcr. injection Hcr as ->. cbn [p_dfa] in *.
  pose proof (cp_ok _ _ _ _ Hcp) as Hd.
  assert (H1 : valid_state d 1) by (rewrite <- (cp_start _ _ _ _ Hcp); apply (cp_valid _ _ _ _ Hcp)).
  assert (Hfit : predicates_fit strict q).
  { intros d' x' E. rewrite Hb in E. injection E as <- <-. apply Forall_forall. intros s Hs. apply (cp_preds _ _ _ _ Hcp) in Hs as (w & j & <- & _).
    pose proof (cp_valid _ _ _ _ Hcp w) as [_ Hv]. unfold nstates in Hv. lia. }
  pose proof Hdoc as [Hwf Hsafe Hbl Hsize]. pose proof (lead_zero dc Hbl) as Hlead.
  assert (Hdt : doc_text dc = d_pre dc ++ text (d_val dc) ++ d_post dc) by reflexivity.
  assert (Hint : zlen (text (d_val dc)) <= Compress.INT_MAX).
  { rewrite Hdt, !zlen_app in Hsize. pose proof (zlen_nonneg (d_pre dc)). pose proof (zlen_nonneg (d_post dc)). unfold Compress.INT_MAX. lia. }
  destruct (exec_all q Hsup d x st Hcp dc Hwf Hsafe Hlead Hlim Hint) as (ms & He & _).
  assert (Hneed : (stack_need (d_val dc) <= 100)%nat) by (rewrite (proj1 depth_need); apply (lim_depth _ _ Hlim)).
  assert (Hf : fits [] (t_val d false 1 0 (d_val dc))).
  { eapply (exec_doc_inv d dc init_core); eauto; [discriminate|cbn; unfold MAX_TUPLE_LIST; lia]. }
  pose proof (doc_no_nul dc Hwf) as Hnn.
  assert (Hl : lead_blanks (doc_text dc) = O).
  { assert (Hc : is_container (d_val dc) = true) by (unfold wf_doc in Hwf; andb_split; assumption).
    unfold doc_text. destruct (d_pre dc) as [|a l]; cbn in *.
    - destruct (d_val dc); try discriminate; reflexivity.
    - destruct (Ascii.eqb a " "%char); [discriminate|reflexivity]. }
  assert (Hh : hist d (doc_text dc) (doc_events dc) init_core = Ok (o_val d 1 0 (d_val dc))).
  { apply (proj1 (hist_all d Hd (doc_text dc) Hl Hnn) (d_val dc) AtRoot [] [] 1 0 MInv [] (d_pre dc) (d_post dc) 0 0); auto.
    - intros E. unfold wf_doc in Hwf. andb_split. congruence.
    - reflexivity.
    - discriminate. }
  destruct (history_table jk (o_val d 1 0 (d_val dc)) ks) as (ct & Ea & Hct).
  { apply Forall_forall. intros [k s] Hi. cbn [fst snd]. split.
    - assert (Hs : shown (d_val dc) k) by (apply (observed_shown d); eauto). destruct k as [n|]; cbn; [apply Hkeys, Hs|trivial].
    - pose proof (observed_valid d Hd H1 (d_val dc) k s Hi) as [V1 V2]. unfold nstates in V2. lia. }
  { intros k Hk. apply in_map_iff in Hk as ([k' s] & <- & Hi). apply Hks. apply (observed_shown d). eauto. }
  { exact Hz. }
  exists ct. split.
  - unfold collectDataConstraints, executeAutomatonTrain. cbn [p_dfa]. unfold executeAutomaton in He. rewrite (lex_doc dc Hwf Hsafe) in *. cbn [bind] in *.
    rewrite (c_string_id (doc_text dc) Hnn) in He |- *. pose proof (train_run d (doc_text dc) jk _ _ _ _ _ _ Hh He Ea) as Hx. unfold ctable in *. rewrite Hx. reflexivity.
  - intros k Hk. specialize (Hct k Hk). destruct (updateStateInfo jk ct k) as [l|].
    + destruct Hct as (G1 & G2 & G3). split; [apply (observed_shown d), G1|]. split; [exact G2|]. intros s. rewrite G3. apply observed; assumption.
    + intros Hs. apply (observed_shown d) in Hs as (s & Hs). eapply Hct, Hs.
Qed.

(** Queries without slices: no position is outside of a range. *)
Lemma never_beyond q d x st v k s i i2 : compiled q d x st -> forallb (fun s => match s with SSlice _ _ => false | _ => true end) q = true ->
  met_at d v k s i -> ~ beyond d s i2.
Proof.
  intros Hcp Hq (p & u & _ & _ & Hl).
  assert (Hr : forall o, range_of q o = (0, 0)).
  { intros [r|]; [|reflexivity]. cbn [range_of]. destruct r; cbn [role_rng]; try reflexivity. destruct (nth_error q j) as [[]|] eqn:E; try reflexivity.
    rewrite forallb_forall in Hq. apply nth_error_In in E. apply Hq in E. discriminate. }
  assert (G : forall w s0 i0 s' i', leads d s0 i0 w s' i' -> (s0 = 0 \/ exists w0, s0 = st w0) -> s' = 0 \/ exists w0, s' = st w0).
  { intros w s0 i0 s' i' H. induction H as [|s0 i0 l w t s' i' _ Hn _ IH|s0 i0 l w s' i' _ _ IH]; intros H0; auto.
    apply IH. destruct H0 as [->|(w0 & ->)].
    - rewrite (cp_next0 _ _ _ _ Hcp) in Hn. injection Hn as <-. auto.
    - change (asked l) with (linput l) in Hn. rewrite (cp_next _ _ _ _ Hcp) in Hn. injection Hn as <-. eauto. }
  apply G in Hl; [|right; exists []; rewrite (cp_start _ _ _ _ Hcp); reflexivity].
  intros (lo & hi & E & Hn & _). destruct Hl as [->|(w0 & ->)].
  - rewrite (cp_range0 _ _ _ _ Hcp) in E. injection E as <- <-. apply Hn. auto.
  - rewrite (cp_range _ _ _ _ Hcp), Hr in E. injection E as <- <-. apply Hn. auto.
Qed.

Theorem train_slice_free strict q p dc jk ks : supported q = true -> (strict = true -> single_names q) ->
  forallb (fun s => match s with SSlice _ _ => false | _ => true end) q = true ->
  createPathProcessor strict q = Ok p -> zlen (d_table (p_dfa p)) <= 100 -> good_doc dc -> limits q (d_val dc) ->
  (forall n, shown (d_val dc) (CKey n) -> n <> jk /\ zlen n <= 98) ->
  (forall k, shown (d_val dc) k -> In k ks) -> zlen ks <= 1000 ->
  exists ct, collectDataConstraints p jk (doc_text dc) = Ok ct /\ forall k, k <> CKey jk ->
    match updateStateInfo jk ct k with
    | Some l => shown (d_val dc) k /\ NoDup l /\ forall s, In s l <-> met (p_dfa p) (d_val dc) k s
    | None => ~ shown (d_val dc) k
    end.
Proof.
  intros Hsup Hstrict Hq Hp Hn Hdoc Hlim Hkeys Hks Hz.
  destruct (train_doc strict q p dc jk ks Hsup Hstrict Hp Hn Hdoc Hlim Hkeys Hks Hz) as (ct & E & H).
  exists ct. split; [exact E|]. intros k Hk. specialize (H k Hk). destruct (updateStateInfo jk ct k) as [l|]; [|exact H].
  destruct H as (H1 & H2 & H3). split; [exact H1|]. split; [exact H2|]. intros s. rewrite H3. split; [|auto].
  intros [G|(_ & s' & i & G & Hb)]; [exact G|exfalso].
  destruct (create_ok strict q Hsup Hstrict) as (d & x & st & Hcr & _ & Hcp). rewrite Hp in Hcr. injection Hcr as ->.
  eapply never_beyond; eauto.
Qed.
