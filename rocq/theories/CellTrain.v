(** Model of a training run (JSONQuery/streaming_automaton.c with
    [data_constraint_flag] OPEN) on the arrays of CellEngine.v and CellTab.v, and its
    relation to the run on lists of Stream.v. *)
From Verif Require Import Base Util VerbSpec Lexer Dfa Constraint Stream CellSpec Cells CellsProof Verbatim CellTab CellTabProof CellEngine CellEngineProof.
Open Scope Z_scope.

Section Model.
  Variable d : dfa.
  (** The constraint part of the cases LB and KY, streaming_automaton.c:231-242 and
      282-293. *)
  Definition train_step_a (e : elt) (ct : ctab) (ev : event) : res ctab :=
    let add (k : ckey) :=
      ct1 <- addConstraintInfo_c ct (q_state e) k ;;
      r <- in_range d e ;;
      if r : bool then Ok ct1 else addConstraintInfo_c ct1 0 k
    in
    match e_tok ev with
    | TLB => add CArr
    | TKY k => add (CKey k)
    | _ => Ok ct
    end.
  (** One iteration of the loop of streaming_automaton.c:163-323.  (In the case LB the
      C code adds the tuple first and the constraint second, as in Stream.v.) *)
  Definition train_core_a (buf : bytes) (s : acore * ctab) (ev : event) : res (acore * ctab) :=
    ct <- train_step_a (a_cur (fst s)) (snd s) ev ;;
    a <- step_a d buf (fst s) ev ;;
    Ok (a, ct).
  (** JSONQuery/streaming_automaton.c:132-330 [executeAutomaton] with OPEN: a new table
      (153-161), for which malloc leaves [cells]. *)
  Definition executeTrain_c (cells : list ccell) (stream : bytes) (a : acore) : res (acore * ctab) :=
    evs <- lex_all stream ;; foldM (train_core_a (c_string stream)) evs (a, initTable cells).
End Model.

Lemma keeps junk junk' k s l l' : addConstraintInfo junk l s k = Ok l' -> no_array l' = true -> no_array l = true /\ addConstraintInfo junk' l s k = Ok l'.
Proof.
  unfold addConstraintInfo. intros E Hn. assert (Hl : no_array l = true).
  { destruct (no_array l) eqn:G; [reflexivity|]. rewrite (array_stays _ _ _ _ _ _ E G) in Hn. discriminate. }
  split; [exact Hl|]. rewrite <- E. apply add_any, Hl.
Qed.

Section Train.
  Variable d : dfa.
  Variable cells : list ccell.

  Lemma add_train_rep t l junk0 e k : tab_rep cells junk0 t l -> In junk0 (old_names cells) -> key_fits k ->
    exists junk, (no_array l = false -> junk = junk0) /\ In junk (old_names cells) /\
      match (ct1 <- addConstraintInfo junk l (q_state e) k ;; r <- in_range d e ;; if r : bool then Ok ct1 else addConstraintInfo junk ct1 0 k) with
      | Ok l' => exists t', (ct1 <- addConstraintInfo_c t (q_state e) k ;; r <- in_range d e ;; if r : bool then Ok ct1 else addConstraintInfo_c ct1 0 k) = Ok t' /\ tab_rep cells junk t' l'
      | UB r => (ct1 <- addConstraintInfo_c t (q_state e) k ;; r <- in_range d e ;; if r : bool then Ok ct1 else addConstraintInfo_c ct1 0 k) = UB r
      end.
  Proof.
    intros R Hin Hk. destruct (in_range d e) as [[|]|r].
    - destruct (calls_tab_rep cells [(k, q_state e)] t l junk0 R Hin) as (junk & J1 & J2 & S); [constructor; [exact Hk|constructor]|].
      exists junk. split; [exact J1|]. split; [exact J2|]. unfold record, record_c in S. cbn [foldM fst snd] in S.
      destruct (addConstraintInfo junk l (q_state e) k) as [l1|]; destruct (addConstraintInfo_c t (q_state e) k) as [t1|]; exact S.
    - destruct (calls_tab_rep cells [(k, q_state e); (k, 0)] t l junk0 R Hin) as (junk & J1 & J2 & S); [constructor; [exact Hk|constructor; [exact Hk|constructor]]|].
      exists junk. split; [exact J1|]. split; [exact J2|]. unfold record, record_c in S. cbn [foldM fst snd] in S.
      destruct (addConstraintInfo junk l (q_state e) k) as [l1|]; destruct (addConstraintInfo_c t (q_state e) k) as [t1|]; cbn [bind] in *; try exact S.
      + destruct (addConstraintInfo junk l1 0 k) as [l2|]; destruct (addConstraintInfo_c t1 0 k) as [t2|]; exact S.
      + destruct (addConstraintInfo junk l1 0 k) as [l2|]; exact S.
      + destruct (addConstraintInfo_c t1 0 k) as [t2|]; exact S.
    - destruct (calls_tab_rep cells [(k, q_state e)] t l junk0 R Hin) as (junk & J1 & J2 & S); [constructor; [exact Hk|constructor]|].
      exists junk. split; [exact J1|]. split; [exact J2|]. unfold record, record_c in S. cbn [foldM fst snd] in S.
      destruct (addConstraintInfo junk l (q_state e) k) as [l1|]; destruct (addConstraintInfo_c t (q_state e) k) as [t1|]; cbn [bind] in *; try exact S; try reflexivity.
      destruct S as (t' & S & _). discriminate S.
      discriminate S.
  Qed.
  Lemma add_train_keeps junk junk' l l' e k :
    (ct1 <- addConstraintInfo junk l (q_state e) k ;; r <- in_range d e ;; if r : bool then Ok ct1 else addConstraintInfo junk ct1 0 k) = Ok l' -> no_array l' = true ->
    no_array l = true /\ (ct1 <- addConstraintInfo junk' l (q_state e) k ;; r <- in_range d e ;; if r : bool then Ok ct1 else addConstraintInfo junk' ct1 0 k) = Ok l'.
  Proof.
    destruct (addConstraintInfo junk l (q_state e) k) as [l1|] eqn:E1; [|discriminate]. cbn [bind]. destruct (in_range d e) as [[|]|]; cbn [bind]; [| |discriminate].
    - injection 1 as <-. intros Hn. destruct (keeps _ junk' _ _ _ _ E1 Hn) as [H1 ->]. cbn [bind]. auto.
    - intros E2 Hn. destruct (keeps _ junk' _ _ _ _ E2 Hn) as [H1 H2]. destruct (keeps _ junk' _ _ _ _ E1 H1) as [H3 ->]. cbn [bind]. auto.
  Qed.

  Variable buf : bytes.
  Hypothesis Hbuf : no_nul buf.
  Lemma train_step_rep t l junk0 c ev : tab_rep cells junk0 t l -> In junk0 (old_names cells) -> texts_in buf ev ->
    exists junk, (no_array l = false -> junk = junk0) /\ In junk (old_names cells) /\
      match train_step d junk c l ev with
      | Ok l' => exists t', train_step_a d (c_cur c) t ev = Ok t' /\ tab_rep cells junk t' l'
      | UB r => train_step_a d (c_cur c) t ev = UB r
      end.
  Proof.
    intros R Hin Ht. unfold train_step, train_step_a. unfold texts_in in Ht.
    destruct (e_tok ev); cbn [tok_text] in Ht;
      try (exists junk0; split; [reflexivity|]; split; [exact Hin|]; eexists; split; [reflexivity|exact R]).
    - apply add_train_rep; [exact R|exact Hin|exact I].
    - apply add_train_rep; [exact R|exact Hin|]. inversion Ht; subst. eapply occurs_no_nul; eassumption.
  Qed.
  Lemma train_step_keeps junk junk' c l l' ev : train_step d junk c l ev = Ok l' -> no_array l' = true -> no_array l = true /\ train_step d junk' c l ev = Ok l'.
  Proof. unfold train_step. destruct (e_tok ev); try (injection 1 as <-; auto); apply add_train_keeps. Qed.

  Lemma train_run_rep : forall evs a t c l junk0, Forall (texts_in buf) evs -> a_rep a c -> tab_rep cells junk0 t l -> In junk0 (old_names cells) ->
    exists junk, (no_array l = false -> junk = junk0) /\ In junk (old_names cells) /\
      match foldM (train_core_step d junk buf) evs (c, l) with
      | Ok (c', l') => exists a' t', foldM (train_core_a d buf) evs (a, t) = Ok (a', t') /\ a_rep a' c' /\ tab_rep cells junk t' l'
      | UB r => foldM (train_core_a d buf) evs (a, t) = UB r
      end.
  Proof.
    induction evs as [|ev evs IH]; intros a t c l junk0 Hf Ra Rt Hin.
    - exists junk0. split; [reflexivity|]. split; [exact Hin|]. cbn. eauto.
    - apply Forall_cons_iff in Hf as [F1 F2]. destruct (train_step_rep t l junk0 c ev Rt Hin F1) as (j1 & J1 & J2 & S).
      assert (El : forall j, train_core_step d j buf (c, l) ev = (ct <- train_step d j c l ev ;; c' <- core_step d buf c ev ;; Ok (c', ct))) by reflexivity.
      assert (Ea : train_core_a d buf (a, t) ev = (ct <- train_step_a d (c_cur c) t ev ;; a' <- step_a d buf a ev ;; Ok (a', ct))) by (unfold train_core_a; cbn [fst snd]; rewrite (ar_cur _ _ Ra); reflexivity).
      cbn [foldM]. destruct (train_step d j1 c l ev) as [l1|r] eqn:E1.
      2:{ exists j1. split; [exact J1|]. split; [exact J2|]. rewrite El, E1, Ea, S. reflexivity. }
      destruct S as (t1 & Et & Rt1). rewrite Et in Ea. cbn [bind] in Ea. pose proof (step_a_rep d buf Hbuf ev a c F1 Ra) as Sa.
      destruct (core_step d buf c ev) as [c1|r].
      2:{ exists j1. split; [exact J1|]. split; [exact J2|]. rewrite El, E1, Ea, Sa. reflexivity. }
      destruct Sa as (a1 & Es & Ra1). rewrite Es in Ea. cbn [bind] in Ea. destruct (IH a1 t1 c1 l1 j1 F2 Ra1 Rt1 J2) as (j2 & K1 & K2 & S).
      exists j2. rewrite El, Ea. destruct (no_array l1) eqn:Hn.
      + destruct (train_step_keeps j1 j2 c l l1 ev E1 Hn) as [Hl E2]. split; [rewrite Hl; discriminate|]. split; [exact K2|]. rewrite E2. cbn [bind]. exact S.
      + rewrite (K1 eq_refl) in *. split; [exact J1|]. split; [exact J2|]. rewrite E1. cbn [bind]. exact S.
  Qed.
End Train.

Theorem train_rep d cells stream a c junk0 : a_rep a c -> zlen cells = 1000 -> Forall fresh cells -> In junk0 (old_names cells) ->
  exists junk, In junk (old_names cells) /\
    match executeAutomatonTrain d junk stream c with
    | Ok (c', l) => exists a' t, executeTrain_c d cells stream a = Ok (a', t) /\ a_rep a' c' /\ tab_rep cells junk t l
    | UB r => executeTrain_c d cells stream a = UB r
    end.
Proof.
  intros Ra H1 H2 Hin. unfold executeAutomatonTrain, executeTrain_c. destruct (lex_all stream) as [evs|r] eqn:E; cbn [bind]; [|exists junk0; auto].
  assert (Hf : Forall (texts_in (c_string stream)) evs) by (unfold lex_all in E; eapply tokens_occur; [apply c_string_no_nul|exact E]).
  destruct (train_run_rep d cells (c_string stream) (c_string_no_nul stream) evs a (initTable cells) c [] junk0 Hf Ra (init_tab_rep cells junk0 H1 H2) Hin) as (junk & _ & J & S).
  exists junk. split; [exact J|exact S].
Qed.
