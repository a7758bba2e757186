(** The serial engine on arrays does what the one on lists does. *)
From Verif Require Import Base Util VerbSpec Lexer Dfa Stream Filter CellSpec Cells CellsProof Verbatim CellFilterProof CellEngine.
Open Scope Z_scope.

Definition entry_for (t : tuple) : entry := mkEntry (fst t) (IText (snd t)) (-1).
Record a_rep (a : acore) (c : core) : Prop := {
  ar_ss : st_rep (a_ss a) (c_ss c);
  ar_qs : st_rep (a_qs a) (c_qs c);
  ar_cur : a_cur a = c_cur c;
  ar_tl : tl_rep (a_tl a) (map entry_for (c_tl c))
}.
Lemma occurs_no_nul s t : occurs s t -> no_nul t -> no_nul s.
Proof. intros (x & y & ->) H Hi. apply H. apply in_or_app. right. apply in_or_app. left. exact Hi. Qed.
Lemma add_tuple_rep tl l s t : tl_rep tl (map entry_for l) -> no_nul t ->
  match addTuple l s t with Ok l' => exists tl', addTuple_c tl s t = Ok tl' /\ tl_rep tl' (map entry_for l') | UB r => addTuple_c tl s t = UB r end.
Proof.
  intros R Hn. pose proof (tl_add_rep tl _ s t R Hn) as A. unfold addTuple, MAX_TUPLE_LIST, strcopy, MAX_TEXT.
  replace (zlen (map entry_for l)) with (zlen l) in A by (unfold zlen; rewrite map_length; reflexivity).
  destruct (5000000 <=? zlen l); cbn [orb] in A; [exact A|]. destruct (1000 <? zlen t + 2); cbn [bind]; [exact A|].
  destruct A as (tl' & E & R'). exists tl'. split; [exact E|]. rewrite map_app. exact R'.
Qed.
Lemma pop_elt_rep st l : st_rep st l -> exists st', pop_elt st = Ok (fst (qs_pop l), st') /\ st_rep st' (snd (qs_pop l)).
Proof. intros R. destruct (st_pop_rep st l R) as (st' & E & R'). unfold pop_elt. rewrite E. cbn [bind]. exists st'. destruct l; split; auto. Qed.
Lemma top_elt_rep st l : st_rep st l -> top_elt st = Ok (qs_top l).
Proof. intros R. unfold top_elt. rewrite (st_top_rep st l R). destruct l; reflexivity. Qed.
Lemma pop_sym_rep st l : st_rep st l -> exists st', pop_sym st = Ok st' /\ st_rep st' (tl l).
Proof. intros R. destruct (st_pop_rep st l R) as (st' & E & R'). unfold pop_sym. rewrite E. cbn [bind]. eauto. Qed.
Lemma push_any {A} (st : astack A) l x : st_rep st l -> exists st', stackPush st x = Ok st' /\ st_rep st' (push l x).
Proof. intros R. rewrite push_same. apply st_push_rep, R. Qed.
Lemma size_rep {A} (st : astack A) l : st_rep st l -> stackSize st = zlen l.
Proof. intros R. unfold stackSize. rewrite (sr_top _ _ R). lia. Qed.

Section Engine.
  Variable d : dfa.
  Variable buf : bytes.
  Hypothesis Hbuf : no_nul buf.

  Lemma emit_rep e p tl l : tl_rep tl (map entry_for l) -> match emit_close d buf e p l with
    | Ok (l', b) => exists tl', emit_a d buf e p tl = Ok (tl', b) /\ tl_rep tl' (map entry_for l') | UB r => emit_a d buf e p tl = UB r end.
  Proof.
    intros R. unfold emit_close, emit_a. destruct (ms_set (q_ms e)) as [[st|]|r]; cbn [bind]; eauto.
    destruct (getMatchedType d e) as [m|r]; cbn [bind]; auto. destruct (m =? DFA_OUTPUT_CANDIDATE); eauto.
    destruct (substring buf 0 st p) as [txt|r] eqn:E; cbn [bind]; auto. pose proof (add_tuple_rep tl l (q_state e) txt R (occurs_no_nul _ _ (sub_occurs _ _ _ _ _ E) Hbuf)) as A.
    destruct (addTuple l (q_state e) txt) as [l'|r]; cbn [bind]; [|rewrite A; reflexivity]. destruct A as (tl' & -> & R'). cbn [bind]. eauto.
  Qed.
  Ltac fin := eexists; split; [reflexivity|]; split; cbn [a_ss a_qs a_cur a_tl c_ss c_qs c_cur c_tl]; auto.
  Ltac tup R s t H := pose proof (add_tuple_rep _ _ s t R H) as A; destruct (addTuple _ s t); cbn [bind]; [destruct A as (? & -> & ?); cbn [bind]|rewrite A; reflexivity].

  Lemma nn_open : no_nul (B "{"). Proof. intros H. cbn in H. intuition discriminate. Qed.
  Lemma nn_close : no_nul (B "}"). Proof. intros H. cbn in H. intuition discriminate. Qed.
  Lemma nn_nil : no_nul []. Proof. intros []. Qed.

  Lemma lcb_rep n a c : a_rep a c -> match do_lcb d n c with Ok c' => exists a', lcb_a d n a = Ok a' /\ a_rep a' c' | UB r => lcb_a d n a = UB r end.
  Proof.
    intros [R1 R2 R3 R4]. unfold do_lcb, lcb_a. destruct (push_any _ _ SLCB R1) as (ss & -> & Rs). cbn [bind]. rewrite R3.
    destruct (getMatchedType d (c_cur c)) as [m|r]; cbn [bind]; auto. destruct (m =? DFA_OUTPUT_CANDIDATE); [fin|].
    destruct (m =? DFA_PREDICATE); [tup R4 (q_state (c_cur c)) (B "{") nn_open; fin|]. destruct (m =? DFA_CONDITION); [tup R4 (q_state (c_cur c)) (@nil ascii) nn_nil; fin|]. fin.
  Qed.
  Lemma rcb_rep n a c : a_rep a c -> match do_rcb d buf n c with Ok c' => exists a', rcb_a d buf n a = Ok a' /\ a_rep a' c' | UB r => rcb_a d buf n a = UB r end.
  Proof.
    intros [R1 R2 R3 R4]. unfold do_rcb, rcb_a. rewrite R3. pose proof (emit_rep (c_cur c) n _ _ R4) as E.
    destruct (emit_close d buf (c_cur c) n (c_tl c)) as [[l' em]|r]; cbn [bind]; [|rewrite E; reflexivity]. destruct E as (tl' & -> & Rt). cbn [bind].
    rewrite (size_rep _ _ R1). rewrite (st_second_rep _ _ R1). destruct (c_ss c) as [|s1 ss1]; [cbn; fin|].
    destruct (pop_sym_rep _ _ R1) as (ss' & Ep & Rp). cbn [tl] in Rp. destruct ss1 as [|s2 ss2]; [change (zlen [s1] =? 1) with true; cbn match; rewrite Ep; cbn [bind]; fin|].
    replace (zlen (s1 :: s2 :: ss2) =? 1) with false by (rewrite !zlen_cons; unfold zlen; lia). replace (1 <? zlen (s1 :: s2 :: ss2)) with true by (rewrite !zlen_cons; unfold zlen; lia).
    cbn [nth_error bind]. destruct s2.
    - fin.
    - rewrite Ep. cbn [bind]. destruct (getMatchedType d (incr (if em then set_ms (c_cur c) MInv else c_cur c))) as [m|r]; cbn [bind]; auto.
      destruct (m =? DFA_PREDICATE); [|fin]. tup Rt (q_state (incr (if em then set_ms (c_cur c) MInv else c_cur c))) (B "}") nn_close. fin.
    - destruct (pop_elt_rep _ _ R2) as (qs' & -> & Rq). cbn [bind]. rewrite Ep. cbn [bind]. destruct (pop_sym_rep _ _ Rp) as (ss'' & -> & Rp2). cbn [bind].
      destruct (qs_pop (c_qs c)) as [e' q']. fin.
  Qed.
  Lemma lb_rep n a c : a_rep a c -> match do_lb d n c with Ok c' => exists a', lb_a d n a = Ok a' /\ a_rep a' c' | UB r => lb_a d n a = UB r end.
  Proof.
    intros [R1 R2 R3 R4]. unfold do_lb, lb_a. rewrite R3. destruct (getMatchedType d (c_cur c)) as [m|r]; cbn [bind]; auto.
    destruct (push_any _ _ SLB R1) as (ss & Es & Rs). 
    assert (Hend : forall e' tl l, tl_rep tl (map entry_for l) ->
      match (n0 <- next_elt d e' None ;; Ok (mkCore (push (c_ss c) SLB) (push (c_qs c) e') n0 l)) with
      | Ok c' => exists a', (ss <- stackPush (a_ss a) SLB ;; qs <- stackPush (a_qs a) e' ;; n0 <- next_elt d e' None ;; Ok (mkA ss qs n0 tl)) = Ok a' /\ a_rep a' c'
      | UB r => (ss <- stackPush (a_ss a) SLB ;; qs <- stackPush (a_qs a) e' ;; n0 <- next_elt d e' None ;; Ok (mkA ss qs n0 tl)) = UB r end).
    { intros e' tl l Rt. rewrite Es. cbn [bind]. destruct (push_any _ _ e' R2) as (qs & -> & Rq). cbn [bind]. destruct (next_elt d e' None) as [x|r]; cbn [bind]; auto. fin. }
    destruct (m =? DFA_OUTPUT_CANDIDATE); cbn [bind]; [apply Hend, R4|]. destruct (m =? DFA_CONDITION); cbn [bind]; [|apply Hend, R4].
    pose proof (add_tuple_rep _ _ (q_state (c_cur c)) [] R4 nn_nil) as A. destruct (addTuple (c_tl c) (q_state (c_cur c)) []) as [l'|r]; cbn [bind]; [|rewrite A; reflexivity].
    destruct A as (tl' & -> & Rt). cbn [bind]. apply Hend, Rt.
  Qed.
  Lemma rb_rep n a c : a_rep a c -> match do_rb d buf n c with Ok c' => exists a', rb_a d buf n a = Ok a' /\ a_rep a' c' | UB r => rb_a d buf n a = UB r end.
  Proof.
    intros R. pose proof R as [R1 R2 R3 R4]. unfold do_rb, rb_a. rewrite (size_rep _ _ R1), (st_second_rep _ _ R1), (top_elt_rep _ _ R2).
    destruct (c_ss c) as [|s1 ss1] eqn:Ess; [cbn; eauto|]. replace (1 <=? zlen (s1 :: ss1)) with true by (rewrite zlen_cons; unfold zlen; lia). cbn [bind].
    pose proof (emit_rep (qs_top (c_qs c)) n _ _ R4) as E. destruct (emit_close d buf (qs_top (c_qs c)) n (c_tl c)) as [[l' em]|r]; cbn [bind]; [|rewrite E; reflexivity].
    destruct E as (tl' & -> & Rt). cbn [bind]. destruct (pop_sym_rep _ _ R1) as (ss' & Ep & Rp). cbn [tl] in Rp. destruct (pop_elt_rep _ _ R2) as (qs' & Eq & Rq).
    destruct ss1 as [|s2 ss2].
    { change (zlen [s1] =? 1) with true. cbn match. rewrite Eq. cbn [bind]. rewrite Ep. cbn [bind]. destruct (qs_pop (c_qs c)) as [e' q']. fin. }
    replace (zlen (s1 :: s2 :: ss2) =? 1) with false by (rewrite !zlen_cons; unfold zlen; lia). cbn [nth_error bind]. destruct s2.
    - rewrite R3. fin. 
    - rewrite Eq. cbn [bind]. rewrite Ep. cbn [bind]. destruct (qs_pop (c_qs c)) as [e' q']. fin.
    - rewrite Eq. cbn [bind]. destruct (qs_pop (c_qs c)) as [e1 q1]. cbn [fst snd] in *. destruct (pop_elt_rep _ _ Rq) as (qs'' & -> & Rq2). cbn [bind]. rewrite Ep. cbn [bind].
      destruct (pop_sym_rep _ _ Rp) as (ss'' & -> & Rp2). cbn [bind]. destruct (qs_pop q1) as [e2 q2]. fin.
  Qed.
  Lemma ky_rep k a c : a_rep a c -> match do_ky d k c with Ok c' => exists a', ky_a d k a = Ok a' /\ a_rep a' c' | UB r => ky_a d k a = UB r end.
  Proof.
    intros [R1 R2 R3 R4]. unfold do_ky, ky_a. destruct (push_any _ _ SKY R1) as (ss & -> & Rs). cbn [bind]. rewrite R3. destruct (push_any _ _ (c_cur c) R2) as (qs & -> & Rq). cbn [bind].
    destruct (next_elt d (c_cur c) (Some k)) as [x|r]; cbn [bind]; auto. fin.
  Qed.
  Lemma pri_rep s a c : no_nul s -> a_rep a c -> match do_pri d s c with Ok c' => exists a', pri_a d s a = Ok a' /\ a_rep a' c' | UB r => pri_a d s a = UB r end.
  Proof.
    intros Hs R. pose proof R as [R1 R2 R3 R4]. unfold do_pri, pri_a. rewrite (size_rep _ _ R1), (st_top_rep _ _ R1).
    destruct (c_ss c) as [|s1 ss1] eqn:Ess; [cbn; eauto|]. replace (1 <=? zlen (s1 :: ss1)) with true by (rewrite zlen_cons; unfold zlen; lia). rewrite R3.
    destruct (getMatchedType d (c_cur c)) as [m|r]; cbn [bind]; auto. destruct (pop_sym_rep _ _ R1) as (ss' & Ep & Rp). cbn [tl] in Rp. destruct (pop_elt_rep _ _ R2) as (qs' & Eq & Rq).
    assert (Hend : forall tl l, tl_rep tl (map entry_for l) ->
      match (match s1 with SKY => let '(e', q') := qs_pop (c_qs c) in Ok (mkCore ss1 q' e' l) | SLB => Ok (mkCore (s1 :: ss1) (c_qs c) (incr (c_cur c)) l) | SLCB => Ok (mkCore (s1 :: ss1) (c_qs c) (c_cur c) l) end) with
      | Ok c' => exists a', (top <- Ok (hd_error (s1 :: ss1)) ;; match top with
          | Some SKY => '(e', qs) <- pop_elt (a_qs a) ;; ss <- pop_sym (a_ss a) ;; Ok (mkA ss qs e' tl)
          | Some SLB => Ok (mkA (a_ss a) (a_qs a) (incr (c_cur c)) tl)
          | _ => Ok (mkA (a_ss a) (a_qs a) (c_cur c) tl) end) = Ok a' /\ a_rep a' c'
      | UB r => False end).
    { intros tl l Rt. cbn [hd_error bind]. destruct s1; [fin|fin|]. rewrite Eq. cbn [bind]. rewrite Ep. cbn [bind]. destruct (qs_pop (c_qs c)) as [e' q']. fin. }
    assert (Hd : forall tl l, tl_rep tl (map entry_for l) ->
      match (match s1 with SKY => let '(e', q') := qs_pop (c_qs c) in Ok (mkCore ss1 q' e' l) | SLB => Ok (mkCore (s1 :: ss1) (c_qs c) (incr (c_cur c)) l) | SLCB => Ok (mkCore (s1 :: ss1) (c_qs c) (c_cur c) l) end) with
      | Ok c' => exists a', (top <- Ok (hd_error (s1 :: ss1)) ;; match top with
          | Some SKY => '(e', qs) <- pop_elt (a_qs a) ;; ss <- pop_sym (a_ss a) ;; Ok (mkA ss qs e' tl)
          | Some SLB => Ok (mkA (a_ss a) (a_qs a) (incr (c_cur c)) tl)
          | _ => Ok (mkA (a_ss a) (a_qs a) (c_cur c) tl) end) = Ok a' /\ a_rep a' c'
      | UB r => (top <- Ok (hd_error (s1 :: ss1)) ;; match top with
          | Some SKY => '(e', qs) <- pop_elt (a_qs a) ;; ss <- pop_sym (a_ss a) ;; Ok (mkA ss qs e' tl)
          | Some SLB => Ok (mkA (a_ss a) (a_qs a) (incr (c_cur c)) tl)
          | _ => Ok (mkA (a_ss a) (a_qs a) (c_cur c) tl) end) = UB r end).
    { intros tl l Rt. specialize (Hend tl l Rt). destruct (match s1 with SKY => _ | SLB => _ | SLCB => _ end); [exact Hend|destruct Hend]. }
    destruct (m =? DFA_OUTPUT_CANDIDATE); cbn [orb]; [|destruct (m =? DFA_CONDITION); [|cbn [bind]; apply Hd, R4]];
      (pose proof (add_tuple_rep _ _ (q_state (c_cur c)) s R4 Hs) as A; destruct (addTuple (c_tl c) (q_state (c_cur c)) s) as [l'|r]; cbn [bind]; [|rewrite A; reflexivity];
       destruct A as (tl' & -> & Rt); cbn [bind]; apply Hd, Rt).
  Qed.
  Lemma step_a_rep ev a c : texts_in buf ev -> a_rep a c -> match core_step d buf c ev with Ok c' => exists a', step_a d buf a ev = Ok a' /\ a_rep a' c' | UB r => step_a d buf a ev = UB r end.
  Proof.
    intros Ht R. unfold core_step, step_a. unfold texts_in in Ht.
    destruct (e_tok ev); cbn [tok_text] in Ht; try (apply lcb_rep; exact R); try (apply rcb_rep; exact R); try (apply lb_rep; exact R); try (apply rb_rep; exact R); try (apply ky_rep; exact R);
      try (apply pri_rep; [inversion Ht; subst; eapply occurs_no_nul; eassumption|exact R]); eauto.
  Qed.
  Lemma steps_a_rep : forall evs a c, Forall (texts_in buf) evs -> a_rep a c ->
    match foldM (core_step d buf) evs c with Ok c' => exists a', foldM (step_a d buf) evs a = Ok a' /\ a_rep a' c' | UB r => foldM (step_a d buf) evs a = UB r end.
  Proof.
    induction evs as [|ev evs IH]; intros a c Hf R; [cbn; eauto|]. apply Forall_cons_iff in Hf as [H1 H2]. cbn [foldM]. pose proof (step_a_rep ev a c H1 R) as S.
    destruct (core_step d buf c ev) as [c'|r]; cbn [bind]; [|rewrite S; reflexivity]. destruct S as (a' & -> & R'). cbn [bind]. apply IH; assumption.
  Qed.
End Engine.

Theorem execute_rep d stream a c : a_rep a c ->
  match executeAutomaton d stream c with Ok c' => exists a', executeAutomaton_c d stream a = Ok a' /\ a_rep a' c' | UB r => executeAutomaton_c d stream a = UB r end.
Proof.
  intros R. unfold executeAutomaton, executeAutomaton_c. destruct (lex_all stream) as [evs|r] eqn:E; cbn [bind]; [|reflexivity].
  apply steps_a_rep; [apply c_string_no_nul| |exact R]. unfold lex_all in E. eapply tokens_occur; [apply c_string_no_nul|exact E].
Qed.
Lemma init_a_rep j1 j2 j3 : zlen j1 = 100 -> zlen j2 = 100 -> zlen j3 = 5000000 -> Forall (fun c => zlen (tc_text c) = 1000) j3 -> a_rep (initAutomaton_c j1 j2 j3) init_core.
Proof. intros H1 H2 H3 H4. split; cbn; [apply st_init_rep, H1|apply st_init_rep, H2|reflexivity|apply tl_init_rep; assumption]. Qed.
Lemma a_holds a c : a_rep a c -> holds_tuples (a_tl a) (c_tl c).
Proof.
  intros R. exists (map entry_for (c_tl c)). split; [apply R|]. generalize (c_tl c). intros l. induction l as [|t l IH]; constructor; [split; reflexivity|exact IH].
Qed.
