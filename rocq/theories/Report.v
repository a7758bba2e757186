(** What a thread reports about its chunk (C36), from the invariant of Specul.v. *)
From Verif Require Import Base Util Spec Lexer Dfa Constraint Stream QueryClass Claims TreeSem Compress Builder Eval Filter Loader Run AnyQuery Regex Mixer Worker Chains WorkRep Shared MalSpec NestSpec Single
  SingleRun Specul Pruned Units ReportSpec.
Open Scope Z_scope.

(** * The kinds of the states *)
Lemma query_dfa strict q p : zlen (query_names q) <= name_bound -> createPathProcessor strict q = Ok p ->
  dfa_ok (p_dfa p) /\ (forall a, In a (d_accept (p_dfa p)) -> 0 <= a <= 3).
Proof.
  intros HU Hp. unfold createPathProcessor in Hp. destruct (build strict q) as [[d x]|] eqn:Eb; [|discriminate]. cbn [bind] in Hp. injection Hp as <-. cbn [p_dfa].
  pose proof (build_any strict q d x HU Eb) as Hb. split; [exact (bt_dfa _ _ Hb)|]. exact (build_kinds strict q d x Eb).
Qed.

(** * Queries without filters and slices *)
Lemma push_all strict : forall q b b', forallb is_path_step q = true -> foldM (construct_step strict) q b = Ok b' ->
  b_pats b' = b_pats b /\ b_range b' = b_range b /\ b_check b' = b_check b /\ (b_lastgen b <> Some true -> b_lastgen b' <> Some true).
Proof.
  induction q as [|s q IH]; intros b b' Hp E; cbn [foldM forallb] in *; [injection E as <-; auto|]. apply andb_true_iff in Hp as [Hs Hp].
  destruct s; try discriminate; cbn [construct_step bind] in E; apply IH in E as (E1 & E2 & E3 & E4); auto; rewrite E1, E2, E3; (repeat split; auto; intros _; apply E4; discriminate).
Qed.
Lemma path_build strict q d x : path_query q = true -> build strict q = Ok (d, x) ->
  (forall r, In r (d_range d) -> r = (0, 0)) /\ (forall a, In a (d_accept d) -> a = 0 \/ a = DFA_OUTPUT_CANDIDATE).
Proof.
  intros Hq. unfold path_query in Hq. apply andb_true_iff in Hq as [_ Hq]. unfold build. destruct (construct_dfa strict q) as [b0|] eqn:E0; [|discriminate]. cbn [bind].
  unfold construct_dfa in E0. apply (push_all strict q init_bctx b0 Hq) in E0 as (Hp & Hr & Hc & Hg). cbn [init_bctx b_pats b_range b_check b_lastgen] in *. specialize (Hg ltac:(discriminate)).
  destruct (finish_ctx b0) as [[b out]|] eqn:Ef; [|discriminate]. cbn [bind].
  assert (Hb : b_range b = [(0, 0)] /\ out = 1).
  { unfold finish_ctx in Ef. destruct (b_lastgen b0) as [[]|]; [congruence| |discriminate]. unfold b_create in Ef. rewrite Hc in Ef. cbn [existsb fst b_lastid] in Ef. injection Ef as <- <-.
    cbn [b_range]. rewrite Hr, Hp. auto. }
  destruct Hb as [Hb ->].
  destruct (compile_patterns _ _) as [m|]; [|discriminate]. cbn [bind].
  destruct (create_query_dfa b 1 m) as [d'|] eqn:Ed; [|discriminate]. cbn [bind].
  destruct (create_context b m d'); [|discriminate]. cbn [bind]. injection 1 as -> _.
  unfold create_query_dfa in Ed. destruct (get_table m); [|discriminate]. cbn [bind] in Ed.
  destruct (mapM _ _) as [infos|] eqn:Em; [|discriminate]. cbn [bind] in Ed. injection Ed as <-. cbn [d_accept d_range].
  assert (Hall : forall l infos, mapM (state_info b 1 m) l = Ok infos -> Forall (fun r => st_range r = (0, 0) /\ (st_accept r = 0 \/ st_accept r = DFA_OUTPUT_CANDIDATE)) infos).
  { clear - Hb. induction l as [|i l IH]; intros infos E; cbn [mapM] in E; [injection E as <-; constructor|].
    destruct (state_info b 1 m i) as [r|] eqn:Ei; [|discriminate]. cbn [bind] in E.
    destruct (mapM _ l) as [rs|]; [|discriminate]. cbn [bind] in E. injection E as <-. constructor; [|apply IH; reflexivity].
    unfold state_info in Ei. destruct (_ =? 0); [injection Ei as <-; cbn; auto|]. rewrite Hb in Ei.
    destruct (Z.eqb_spec (tread (m_stops m) i) 1) as [E1|E1].
    - rewrite E1 in Ei. cbn in Ei. injection Ei as <-. cbn. auto.
    - destruct (array_target m i); [|discriminate]. cbn [bind] in Ei. destruct (zread [(0, 0)] _) as [r0|] eqn:Ez; [|discriminate]. exfalso.
      apply zread_inv in Ez as [Hz _]. cbn in Hz. lia. }
  apply Hall in Em. rewrite Forall_forall in Em. split; intros y Hy; apply in_map_iff in Hy as (r & <- & Hr'); apply Em; exact Hr'.
Qed.
Lemma path_dfa strict q p : path_query q = true -> zlen (query_names q) <= name_bound -> createPathProcessor strict q = Ok p ->
  dfa_ok (p_dfa p) /\ (forall st, valid_state (p_dfa p) st -> zread (d_range (p_dfa p)) st = Ok (0, 0)) /\
  (forall a, In a (d_accept (p_dfa p)) -> a = 0 \/ a = DFA_OUTPUT_CANDIDATE).
Proof.
  intros Hq HU Hp. unfold createPathProcessor in Hp. destruct (build strict q) as [[d x]|] eqn:Eb; [|discriminate]. cbn [bind] in Hp. injection Hp as <-. cbn [p_dfa].
  pose proof (build_any strict q d x HU Eb) as Hb. destruct (path_build strict q d x Hq Eb) as [Hr Hk]. pose proof (bt_dfa _ _ Hb) as Hd. split; [exact Hd|]. split; [|exact Hk].
  intros st Hst. destruct (zread_ok (d_range d) st) as (r & E & Hi); [rewrite (ok_range d Hd); exact Hst|]. rewrite E. f_equal. apply Hr, Hi.
Qed.

(** * The tuples of a chain *)
Fixpoint chain_at (tl : list wtuple) (vs : list (Z * wval)) (i : Z) : Prop :=
  match vs with
  | [] => i = -1
  | v :: vs' => 0 <= i /\ exists t, zread tl i = Ok t /\ (w_state t, w_val t) = v /\ chain_at tl vs' (w_next t)
  end.
Lemma pos_vals : forall own tl pre id, List.length own = List.length tl ->
  Forall2 (fun i v => exists t, zread (pre ++ tl) i = Ok t /\ (w_state t, w_val t) = v) (posn (zlen pre) own id) (owned own (vals tl) id).
Proof.
  induction own as [|x own IH]; intros [|t tl] pre id H; cbn in H; try discriminate; [constructor|]. cbn [posn owned vals map].
  specialize (IH tl (pre ++ [t]) id ltac:(lia)). rewrite zlen_snoc, <- app_assoc in IH. cbn [app] in IH. destruct (x =? id); cbn [app]; [|exact IH]. constructor; [|exact IH].
  exists t. split; [|reflexivity]. pose proof (zread_app2 pre (t :: tl) 0) as E. rewrite Z.add_0_r in E. rewrite E. reflexivity.
Qed.
Lemma linked_chain tl : forall p vs, linked tl p -> Forall2 (fun i v => exists t, zread tl i = Ok t /\ (w_state t, w_val t) = v) p vs -> chain_at tl vs (hd (-1) p).
Proof.
  induction p as [|i p IH]; intros vs Hl H; inversion H; subst; [reflexivity|]. destruct Hl as [(t & Ht & Hn) Hl]. destruct H2 as (t' & Ht' & Hv). rewrite Ht in Ht'. injection Ht' as <-.
  cbn [hd chain_at]. split; [apply zread_inv in Ht; lia|]. exists t. split; [exact Ht|]. split; [exact Hv|]. specialize (IH _ Hl H4). rewrite Hn. destruct p; exact IH.
Qed.
Lemma chain_owned own tl id : chain_ok own tl -> chain_at tl (owned own (vals tl) id) (fst (ends (pos own id))).
Proof.
  intros [Hlen Hlink]. cbn [ends fst]. apply linked_chain; [apply Hlink|]. exact (pos_vals own tl [] id Hlen).
Qed.
Lemma owned_len {A} own (vs : list A) id : (List.length (owned own vs id) <= List.length vs)%nat.
Proof.
  revert vs. induction own as [|x own IH]; intros [|v vs]; cbn; try lia. rewrite app_length. specialize (IH vs). destruct (x =? id); cbn; lia.
Qed.
Lemma follow_chain text tl : forall vs X i fuel, chain_at tl vs i -> Forall2 (vrel text) vs X -> (List.length vs <= fuel)%nat -> follow fuel tl text i = Ok X.
Proof.
  induction vs as [|v vs IH]; intros X i fuel Hc HX Hf; inversion HX; subst; cbn [chain_at] in Hc.
  - subst. destruct fuel; reflexivity.
  - destruct Hc as (Hi & t & Et & Ev & Hc). destruct fuel as [|fuel]; [cbn in Hf; lia|]. cbn [follow]. replace (i =? -1) with false by lia. rewrite Et. cbn [bind].
    destruct H1 as (H1 & _ & H2). subst v. cbn [fst snd] in *.
    assert (E : match w_val t with VText s => Ok s | VSpan b e => substring text 0 b e end = Ok (snd y)) by (destruct (w_val t); [congruence|exact H2]).
    rewrite E. cbn [bind]. rewrite (IH _ _ fuel Hc H3) by (cbn in Hf; lia). cbn [bind]. rewrite H1. destruct y; reflexivity.
Qed.

(** * The specification and the invariant *)
Lemma open_onto l t : open_after l [t] = onto l t.
Proof. destruct t; reflexivity. Qed.
Lemma open_after_eq l E : open_after l (map e_tok E) = after l E.
Proof. unfold open_after, after. revert l. induction (map e_tok E) as [|t ts IH]; intros l; cbn [fold_left]; [reflexivity|]. rewrite IH. destruct t; reflexivity. Qed.
Lemma nested_nest D : forall ts l, nested_in D l ts -> nest D l ts.
Proof. induction ts as [|t ts IH]; intros l H; cbn [nested_in nest] in *; [exact I|]. rewrite open_onto in H. destruct H as (H1 & H2 & H3). auto. Qed.
Lemma openable_shape l : openable l -> shape l.
Proof. induction l as [|[] l IH]; cbn [openable shape]; tauto. Qed.
Lemma inner_stays : forall ts l, inner l ts -> stays_inside l ts.
Proof. induction ts as [|t ts IH]; intros l H; cbn [inner stays_inside] in *; [exact I|]. rewrite open_onto. destruct H. auto. Qed.
Lemma closer_ending P : Forall closer P -> forallb ending (map e_tok P) = true.
Proof. induction 1 as [|ev P H _ IH]; [reflexivity|]. cbn [map forallb]. rewrite IH, andb_true_r. destruct H as [-> | [-> | ->]]; reflexivity. Qed.

Section Report.
  Variable d : dfa.
  Hypothesis Hd : dfa_ok d.
  Hypothesis Hkind : forall a, In a (d_accept d) -> 0 <= a <= 3.
  Notation R := (List.length (d_accept d)).

  (** States without a slice that have no part in the query, or filter elements if
      the braces that close elements are followed, when the chunk starts in an array;
      the others are not treated right. *)
  Variable fol : Prop.
  Definition ok_state (bs : list opened) (r : Z) : Prop := zread (d_range d) r = Ok (0, 0) /\
    (hd_error bs = Some OBracket -> zread (d_accept d) r = Ok 0 \/ (fol /\ zread (d_accept d) r = Ok DFA_PREDICATE)).

  Lemma inside_fresh bs r : 0 <= r < nstates d -> ok_state bs r -> fresh_run d fol R idz bs (mkTrack r [] [] (firstn 1 bs)) (inside_of bs r).
  Proof.
    intros Hr [Hf Ho]. constructor; cbn [tr_root tr_open tr_below tr_old inside_of c_ss c_qs c_cur c_tl q_state q_ms]; auto.
    - rewrite (R_states d Hd). exact Hr.
    - destruct bs; reflexivity.
    - intros Hb. unfold acc, getDFAAcceptType, idz, arr_ok. destruct (Ho Hb) as [->|[Hf' ->]]; auto.
    - destruct bs as [|[] bs]; reflexivity.
    - destruct bs; cbn; lia.
  Qed.
  Lemma find_root_in st own kid : forall rs rl r, map (fun n : tnode => (t_state n, t_tup n)) rs = map (fun r => (st r, Some (ends (pos own (kid + r))))) rl -> In r rl ->
    (forall x, In x rl -> st x = st r -> x = r) -> exists n, find (fun n => t_state n =? st r) rs = Some n /\ t_tup n = Some (ends (pos own (kid + r))).
  Proof.
    induction rs as [|n rs IH]; intros [|x rl] r H Hi Hinj; cbn in H; try discriminate; [destruct Hi|]. injection H as H1 H2 H3. cbn [find]. rewrite H1.
    destruct (Z.eqb_spec (st x) (st r)) as [Ex|Hne]; [rewrite (Hinj x (or_introl eq_refl) Ex) in H2; eauto|]. destruct Hi as [->|Hi]; [congruence|]. eapply IH; try eassumption. intros y Hy. apply Hinj. right. exact Hy.
  Qed.
  Lemma unit_reports text w own kid bs E u r c : chain_ok own (wa_tl w) -> roots_ok R idz own kid (un_roots u) -> runs_ok d text fol R idz own (wa_tl w) kid bs E ->
    valid_state d r -> ok_state bs r -> serial_inside d text bs r E = Ok c -> reported w text u r = Ok (c_tl c).
  Proof.
    intros Hc Hr Hruns Hv Ho Hs. unfold reported. change r with (idz r) at 1. destruct (find_root_in idz own kid (un_roots u) (iota R) r Hr) as (n & -> & ->); [|unfold idz; auto|].
    { apply in_iota. rewrite (R_states d Hd). exact Hv. }
    cbn [known bind]. destruct (ends (pos own (kid + r))) as [f l] eqn:Ee.
    destruct (Hruns (mkTrack r [] [] (firstn 1 bs)) (inside_of bs r) c (inside_fresh bs r Hv Ho) Hs) as (X & HX & HF). cbn [tr_old tr_root app] in *. rewrite HX.
    pose proof (chain_owned own (wa_tl w) (kid + r) Hc) as Hch. rewrite Ee in Hch. cbn [fst] in Hch. cbn [bind]. eapply follow_chain; [exact Hch|exact HF|].
    pose proof (owned_len own (vals (wa_tl w)) (kid + r)) as Hl. unfold vals in Hl at 2. rewrite map_length in Hl. lia.
  Qed.

  Definition to_parts : list (list event * list event) -> list part := map (fun s => mkPart (fst s) (snd s)).
  Lemma kept_all junk f E R1 st : kept d junk None f E R1 st -> R1 = R /\ st = idz.
  Proof. intros [H|(t & E1 & ev & E2 & k & q & H & _)]; [exact H|discriminate]. Qed.
  Lemma segs_faithful text junk w own : chain_ok own (wa_tl w) -> forall segs us lo bs b0 kid kid1 P E uf, segs_ok d text junk None fol own (wa_tl w) lo bs segs us b0 kid ->
    un_syms uf = syms_of P -> roots_ok R idz own kid1 (un_roots uf) -> runs_ok d text fol R idz own (wa_tl w) kid1 (after b0 P) E ->
    faithful ok_state d text w bs (to_parts (segs ++ [(P, E)])) (us ++ [uf]).
  Proof.
    intros Hc. induction segs as [|[P' E'] segs IH]; intros [|u us] lo bs b0 kid kid1 P E uf H H1 H2 H3; cbn [segs_ok] in H; try contradiction; cbn [to_parts map app faithful pt_ends pt_inside fst snd]; rewrite open_after_eq.
    - destruct H as [-> _]. split; [exact H1|]. split; [|exact I]. intros r c Hv Ho Hs. eapply unit_reports; eassumption.
    - destruct H as (G1 & G2 & G5 & G6 & R1 & st1 & lo1 & _ & Hkp & G3 & G4 & G7). destruct (kept_all _ _ _ _ _ Hkp) as [-> ->]. split; [exact G2|]. split; [intros r c Hv Ho Hs; eapply unit_reports; eassumption|]. eapply IH; eassumption.
  Qed.
  Lemma parts_events segs : flat_map (fun p => pt_ends p ++ pt_inside p) (to_parts segs) = events_of segs.
  Proof. induction segs as [|[P E] segs IH]; cbn; [reflexivity|]. rewrite IH. reflexivity. Qed.
  Lemma segs_parts text junk ct own tw : forall segs us lo bs b0 kid, segs_ok d text junk ct fol own tw lo bs segs us b0 kid ->
    Forall (fun p => forallb ending (map e_tok (pt_ends p)) = true /\ stays_inside [] (map e_tok (pt_inside p))) (to_parts segs).
  Proof.
    induction segs as [|[P E] segs IH]; intros [|u us] lo bs b0 kid H; cbn [segs_ok] in H; try contradiction; [constructor|].
    destruct H as (G1 & G2 & G3 & G4 & R1 & st1 & lo1 & _ & _ & _ & _ & G7). constructor; [|eapply IH; exact G7]. cbn [pt_ends pt_inside fst snd]. auto using closer_ending, inner_stays.
  Qed.
  Lemma result_faithful D text junk bs evs w : chunk_result d D text junk None fol bs evs w ->
    exists ps, parts_of ps evs /\ faithful ok_state d text w bs ps (wa_units w).
  Proof.
    intros (R1 & st1 & segs & P & E & l & b0 & us & uf & own & kid & L & np & rp & Hev & Hu & _ & _ & _ & Hc & Hsegs & HP & Hsy & Hro & Hkp & Hin & Hl & Haft & Hinv). destruct (kept_all _ _ _ _ _ Hkp) as [-> ->].
    exists (to_parts (segs ++ [(P, E)])). split.
    - split; [rewrite parts_events, events_snoc; symmetry; exact Hev|]. unfold to_parts. rewrite map_app. apply Forall_app. split; [eapply segs_parts; exact Hsegs|].
      constructor; [|constructor]. cbn [pt_ends pt_inside fst snd]. auto using closer_ending, inner_stays.
    - rewrite Hu. eapply segs_faithful; try eassumption. intros n c0 c Hf Hr. destruct (iv_run _ _ _ _ _ _ _ _ _ _ _ _ _ _ _ Hinv n c (ex_intro _ c0 (conj Hf Hr))) as [_ _ _ _ _ _ _ H]. exact H.
  Qed.
End Report.

Theorem reports_faithful strict q p (fol : Prop) D text bs evs junk ju : zlen (query_names q) <= name_bound -> createPathProcessor strict q = Ok p ->
  (D <= 98)%nat -> nstates (p_dfa p) * (Z.of_nat D + 2) <= MAX_NODE -> nstates (p_dfa p) <= MAX_STATE ->
  lex_all text = Ok evs -> openable bs -> (List.length bs <= D)%nat -> hd_error bs <> Some OKey -> nested_in D bs (map e_tok evs) ->
  Forall (fun ev => match e_tok ev with TKY s | TPRI s => zlen s <= 998 | _ => True end) evs -> nstates (p_dfa p) * (zlen evs + 1) <= MAX_TUPLE_LIST ->
  (fol -> followed bs (map e_tok evs)) ->
  exists w ps, executeWorkerAutomaton (p_dfa p) Speculate None junk ju text [] = Ok w /\ parts_of ps evs /\
    faithful (ok_state (p_dfa p) fol) (p_dfa p) (c_string text) w bs ps (wa_units w).
Proof.
  intros HU Hp HD H1 H2 Hl Hop Hlen Hk Hn Ht Hm Hfo. destruct (query_dfa strict q p HU Hp) as (Hd & Hkind).
  destruct (chunk_exec (p_dfa p) fol D text bs None junk ju evs Hd Hkind HD H1 H2 Hl) as (w & E & Hr); auto using nested_nest, openable_shape.
  { apply Forall_forall. intros t Hi. apply in_map_iff in Hi as (ev & <- & Hi). rewrite Forall_forall in Ht. apply (Ht _ Hi). }
  { apply Forall_forall. intros ev _. unfold tok_ok. destruct (tok_key (e_tok ev)); [discriminate|exact I]. }
  destruct (result_faithful (p_dfa p) Hd fol D _ _ _ _ _ Hr) as (ps & Hps & Hf). eauto.
Qed.

Lemma faithful_weaken (ok ok' : list opened -> Z -> Prop) d text w : (forall bs r, valid_state d r -> ok' bs r -> ok bs r) ->
  forall ps us bs, faithful ok d text w bs ps us -> faithful ok' d text w bs ps us.
Proof. intros H. induction ps as [|p ps IH]; intros [|u us] bs; cbn [faithful]; auto. intros (H1 & H2 & H3). auto 10. Qed.

Theorem reports_path strict q p D text bs evs junk ju : path_query q = true -> zlen (query_names q) <= name_bound -> createPathProcessor strict q = Ok p ->
  (D <= 98)%nat -> nstates (p_dfa p) * (Z.of_nat D + 2) <= MAX_NODE -> nstates (p_dfa p) <= MAX_STATE ->
  lex_all text = Ok evs -> openable bs -> (List.length bs <= D)%nat -> hd_error bs <> Some OKey -> nested_in D bs (map e_tok evs) ->
  Forall (fun ev => match e_tok ev with TKY s | TPRI s => zlen s <= 998 | _ => True end) evs -> nstates (p_dfa p) * (zlen evs + 1) <= MAX_TUPLE_LIST ->
  exists w ps, executeWorkerAutomaton (p_dfa p) Speculate None junk ju text [] = Ok w /\ parts_of ps evs /\
    faithful (fun bs r => hd_error bs = Some OBracket -> zread (d_accept (p_dfa p)) r <> Ok DFA_OUTPUT_CANDIDATE) (p_dfa p) (c_string text) w bs ps (wa_units w).
Proof.
  intros Hq Hn Hp. intros. destruct (path_dfa strict q p Hq Hn Hp) as (Hd & Hfree & Hkind).
  destruct (reports_faithful strict q p False D text bs evs junk ju) as (w & ps & G8 & G9 & G10); auto; [contradiction|].
  exists w, ps. split; [exact G8|]. split; [exact G9|]. eapply faithful_weaken; [|exact G10]. intros b r Hv Ho. split; [apply Hfree, Hv|]. intros Hb. specialize (Ho Hb).
  destruct (zread_ok (d_accept (p_dfa p)) r) as (a & Ea & Hi); [rewrite (ok_accept _ Hd); exact Hv|]. rewrite Ea in *. destruct (Hkind a Hi) as [-> | ->]; [left; reflexivity|congruence].
Qed.

(** The two cases: whether braces that end elements are followed. *)
Theorem reports_plain strict q p D text bs evs junk ju : zlen (query_names q) <= name_bound -> createPathProcessor strict q = Ok p ->
  (D <= 98)%nat -> nstates (p_dfa p) * (Z.of_nat D + 2) <= MAX_NODE -> nstates (p_dfa p) <= MAX_STATE ->
  lex_all text = Ok evs -> openable bs -> (List.length bs <= D)%nat -> hd_error bs <> Some OKey -> nested_in D bs (map e_tok evs) ->
  Forall (fun ev => match e_tok ev with TKY s | TPRI s => zlen s <= 998 | _ => True end) evs -> nstates (p_dfa p) * (zlen evs + 1) <= MAX_TUPLE_LIST ->
  exists w ps, executeWorkerAutomaton (p_dfa p) Speculate None junk ju text [] = Ok w /\ parts_of ps evs /\
    faithful (fun bs r => getDFAArrayIndex (p_dfa p) r = Ok (0, 0) /\ (hd_error bs = Some OBracket -> zread (d_accept (p_dfa p)) r = Ok 0)) (p_dfa p) (c_string text) w bs ps (wa_units w).
Proof.
  intros Hn Hp. intros. destruct (reports_faithful strict q p False D text bs evs junk ju) as (w & ps & G8 & G9 & G10); auto; [contradiction|].
  exists w, ps. split; [exact G8|]. split; [exact G9|]. eapply faithful_weaken; [|exact G10]. intros b r Hv [Hf Ho]. split; [exact Hf|]. auto.
Qed.
Lemma followed_spec : forall ts l, elements_followed l ts -> followed l ts.
Proof. induction ts as [|t ts IH]; intros l H; cbn [elements_followed followed] in *; [exact I|]. rewrite open_onto in H. destruct H. auto. Qed.
Theorem reports_filters strict q p D text bs evs junk ju : zlen (query_names q) <= name_bound -> createPathProcessor strict q = Ok p ->
  (D <= 98)%nat -> nstates (p_dfa p) * (Z.of_nat D + 2) <= MAX_NODE -> nstates (p_dfa p) <= MAX_STATE ->
  lex_all text = Ok evs -> openable bs -> (List.length bs <= D)%nat -> hd_error bs <> Some OKey -> nested_in D bs (map e_tok evs) ->
  Forall (fun ev => match e_tok ev with TKY s | TPRI s => zlen s <= 998 | _ => True end) evs -> nstates (p_dfa p) * (zlen evs + 1) <= MAX_TUPLE_LIST ->
  elements_followed bs (map e_tok evs) ->
  exists w ps, executeWorkerAutomaton (p_dfa p) Speculate None junk ju text [] = Ok w /\ parts_of ps evs /\
    faithful (fun bs r => getDFAArrayIndex (p_dfa p) r = Ok (0, 0) /\ (hd_error bs = Some OBracket -> zread (d_accept (p_dfa p)) r = Ok 0 \/ zread (d_accept (p_dfa p)) r = Ok DFA_PREDICATE))
      (p_dfa p) (c_string text) w bs ps (wa_units w).
Proof.
  intros Hn Hp. intros. destruct (reports_faithful strict q p True D text bs evs junk ju) as (w & ps & G8 & G9 & G10); auto using followed_spec.
  exists w, ps. split; [exact G8|]. split; [exact G9|]. eapply faithful_weaken; [|exact G10]. intros b r Hv [Hf Ho]. split; [exact Hf|]. intros Hb. destruct (Ho Hb); auto.
Qed.
