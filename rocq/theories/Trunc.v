(** The run on a prefix of a document is the beginning of the run on the whole
    document. *)
From Verif Require Import Base Util Lexer Spec LexSpec LexProof LexDoc LexMain Dfa Stream TreeSem Builder Num Eval Filter AutoProof QueryClass Compiled Loader Run EndToEnd Claims ClaimProof AnyRun LexLocal.
From Coq Require Import Lia.
Open Scope Z_scope.

Lemma tok_spaced :
  (forall v rest, spaced rest = true -> (exists t r, rest = t :: r /\ is_pri t = false) -> spaced (tok_val v ++ rest) = true) /\
  (forall ms rest, spaced rest = true -> (exists t r, rest = t :: r /\ is_pri t = false) -> spaced (tok_ms ms ++ rest) = true) /\
  (forall es rest, spaced rest = true -> (exists t r, rest = t :: r /\ is_pri t = false) -> spaced (tok_es es ++ rest) = true).
Proof.
  apply json_all_ind.
  - intros s rest H (t & r & -> & Ht). cbn [tok_val app]. cbn [spaced] in *. rewrite Ht in *. exact H.
  - intros s rest H (t & r & -> & Ht). cbn [tok_val app]. cbn [spaced] in *. rewrite Ht in *. exact H.
  - intros w ms IH rest H Hr. cbn [tok_val app spaced is_pri negb orb andb]. rewrite <- app_assoc. apply IH; [cbn; exact H|].
    eexists. eexists. split; reflexivity.
  - intros w es IH rest H Hr. cbn [tok_val app spaced is_pri negb orb andb]. rewrite <- app_assoc. apply IH; [cbn; exact H|].
    eexists. eexists. split; reflexivity.
  - intros rest H _. exact H.
  - intros l k v IHv ms IHms rest H Hr. cbn [tok_ms app spaced is_pri negb orb andb]. rewrite <- app_assoc. 
    destruct ms as [|? ? ? ms'].
    + apply IHv; assumption.
    + apply IHv; [cbn [app spaced is_pri negb orb andb]; apply IHms; assumption|]. eexists. eexists. split; reflexivity.
  - intros rest H _. exact H.
  - intros l v IHv r es IHes rest H Hr. cbn [tok_es]. rewrite <- app_assoc.
    destruct es as [|? ? ? es'].
    + apply IHv; assumption.
    + apply IHv; [cbn [app spaced is_pri negb orb andb]; apply IHes; assumption|]. eexists. eexists. split; reflexivity.
Qed.

Lemma doc_spaced dc : wf_doc dc = true -> spaced (tok_val (d_val dc)) = true.
Proof.
  intros Hwf. unfold wf_doc in Hwf. destruct (d_val dc) as [s|s|w ms|w es] eqn:E.
  - cbn in Hwf. rewrite ?andb_false_r in Hwf. try discriminate.
  - cbn in Hwf. rewrite ?andb_false_r in Hwf. try discriminate.
  - cbn [tok_val spaced is_pri negb orb andb]. apply tok_spaced; [reflexivity|]. eexists. eexists. split; reflexivity.
  - cbn [tok_val spaced is_pri negb orb andb]. apply tok_spaced; [reflexivity|]. eexists. eexists. split; reflexivity.
Qed.

(** * The automaton only adds tuples *)
Lemma addTuple_grows tl s t tl' : addTuple tl s t = Ok tl' -> exists l, tl' = tl ++ l.
Proof. unfold addTuple. destruct (_ <=? _); [discriminate|]. unfold strcopy. destruct (_ <? _); [discriminate|]. cbn. intros [= <-]. eauto. Qed.

Ltac grow := repeat match goal with
  | H : bind ?x _ = Ok _ |- _ => let E := fresh "E" in destruct x eqn:E; [cbn [bind] in H|discriminate H]
  | H : addTuple _ _ _ = Ok _ |- _ => apply addTuple_grows in H; destruct H as (? & ->)
  | H : Ok _ = Ok _ |- _ => injection H as <-
  | H : (let '(_, _) := ?p in _) = Ok _ |- _ => destruct p
  | H : (if ?b then _ else _) = Ok _ |- _ => destruct b
  | H : match ?p with _ => _ end = Ok _ |- _ => destruct p
  end.
Ltac grown := subst; cbn [c_tl fst snd]; first [ exists []; rewrite app_nil_r; reflexivity | eexists; rewrite <- ?app_assoc; reflexivity ].

Lemma emit_grows d buf e pos tl tl' b : emit_close d buf e pos tl = Ok (tl', b) -> exists l, tl' = tl ++ l.
Proof.
  unfold emit_close. intros H.
  destruct (ms_set (q_ms e)) as [[st|]|]; cbn [bind] in H; [|injection H as <- _; exists []; rewrite app_nil_r; reflexivity|discriminate].
  destruct (getMatchedType d e); cbn [bind] in H; [|discriminate].
  destruct (_ =? _); [|injection H as <- _; exists []; rewrite app_nil_r; reflexivity].
  destruct (substring _ _ _ _); cbn [bind] in H; [|discriminate].
  destruct (addTuple _ _ _) eqn:E; cbn [bind] in H; [|discriminate]. injection H as <- _. eapply addTuple_grows, E.
Qed.

Lemma step_grows d buf c ev c' : core_step d buf c ev = Ok c' -> exists l, c_tl c' = c_tl c ++ l.
Proof.
  unfold core_step. intros H. destruct (e_tok ev).
  - unfold do_lcb in H. grow; grown.
  - unfold do_rcb in H. destruct (emit_close _ _ _ _ _) as [[tl b]|] eqn:Ee; [|discriminate]. cbn [bind] in H.
    apply emit_grows in Ee. destruct Ee as (l & ->).
    destruct (c_ss c) as [|s0 [|[] ss]]; grow; grown.
  - unfold do_lb in H. destruct (getMatchedType d (c_cur c)); [|discriminate]. cbn [bind] in H.
    destruct (_ =? _).
    + cbn [bind] in H. grow; grown.
    + destruct (_ =? _); grow; grown.
  - unfold do_rb in H. destruct (c_ss c) as [|s0 ss]; [injection H as <-; exists []; rewrite app_nil_r; reflexivity|].
    destruct (emit_close _ _ _ _ _) as [[tl b]|] eqn:Ee; [|discriminate]. cbn [bind] in H.
    apply emit_grows in Ee. destruct Ee as (l & ->). destruct ss as [|[] ss]; grow; grown.
  - injection H as <-. exists []. rewrite app_nil_r. reflexivity.
  - unfold do_ky in H. grow; grown.
  - unfold do_pri in H. destruct (c_ss c) as [|top ss]; [injection H as <-; exists []; rewrite app_nil_r; reflexivity|].
    destruct (getMatchedType d (c_cur c)); [|discriminate]. cbn [bind] in H.
    destruct (_ || _).
    + destruct (addTuple _ _ _) eqn:E; [|discriminate]. cbn [bind] in H. apply addTuple_grows in E. destruct E as (l & ->).
      destruct top; grow; grown.
    + cbn [bind] in H. destruct top; grow; grown.
  - injection H as <-. exists []. rewrite app_nil_r. reflexivity.
Qed.

Lemma run_grows d buf : forall evs c c', foldM (core_step d buf) evs c = Ok c' -> exists l, c_tl c' = c_tl c ++ l.
Proof.
  induction evs as [|ev evs IH]; intros c c' H; cbn [foldM] in H; [injection H as <-; exists []; rewrite app_nil_r; reflexivity|].
  destruct (core_step d buf c ev) as [c1|] eqn:E; [|discriminate]. cbn [bind] in H.
  apply step_grows in E. destruct E as (l1 & E1). apply IH in H. destruct H as (l2 & E2). exists (l1 ++ l2). rewrite E2, E1, app_assoc. reflexivity.
Qed.

(** * The buffer behind the position of a token is not read *)
Lemma lead_app (P R : bytes) : lead_blanks (P ++ R) = O -> P <> [] -> lead_blanks P = O.
Proof. intros H Hn. destruct P as [|c P]; [contradiction|]. cbn in *. destruct (Ascii.eqb c " "%char); [discriminate|reflexivity]. Qed.

Lemma substring_pre P R a b : lead_blanks (P ++ R) = O -> P <> [] -> b <= zlen P -> substring P 0 a b = substring (P ++ R) 0 a b.
Proof.
  intros Hl Hn Hb. unfold substring, ltrim. cbn [Z.to_nat skipn]. rewrite Hl, (lead_app P R Hl Hn). cbn [Z.of_nat Z.add].
  destruct (b <? a) eqn:E; [reflexivity|]. rewrite (read_range_pre P R) by lia. reflexivity.
Qed.

Lemma emit_pre d P R e pos tl : lead_blanks (P ++ R) = O -> P <> [] -> pos <= zlen P ->
  emit_close d P e pos tl = emit_close d (P ++ R) e pos tl.
Proof.
  intros Hl Hn Hp. unfold emit_close. destruct (ms_set _) as [[st|]|]; cbn [bind]; try reflexivity.
  destruct (getMatchedType d e); cbn [bind]; [|reflexivity]. destruct (_ =? _); [|reflexivity].
  rewrite (substring_pre P R) by assumption. reflexivity.
Qed.

Lemma step_pre d P R c ev : lead_blanks (P ++ R) = O -> P <> [] -> e_next ev <= zlen P ->
  core_step d P c ev = core_step d (P ++ R) c ev.
Proof.
  intros Hl Hn Hp. unfold core_step. destruct (e_tok ev); try reflexivity.
  - unfold do_rcb. rewrite (emit_pre d P R) by assumption. reflexivity.
  - unfold do_rb. destruct (c_ss c); [reflexivity|]. rewrite (emit_pre d P R) by assumption. reflexivity.
Qed.

Lemma run_pre d P R : lead_blanks (P ++ R) = O -> P <> [] ->
  forall evs c, Forall (fun e => e_next e <= zlen P) evs -> foldM (core_step d P) evs c = foldM (core_step d (P ++ R)) evs c.
Proof.
  intros Hl Hn. induction evs as [|ev evs IH]; intros c H; [reflexivity|]. inversion H; subst. cbn [foldM].
  rewrite (step_pre d P R) by assumption. destruct (core_step d (P ++ R) c ev); cbn [bind]; [apply IH; assumption|reflexivity].
Qed.

Lemma pri_step d buf buf' c e e' : e_tok e' = e_tok e -> is_pri (e_tok e) = true -> core_step d buf c e' = core_step d buf' c e.
Proof. intros E H. unfold core_step. rewrite E. destruct (e_tok e); try discriminate. reflexivity. Qed.

Lemma firstn_snoc {A} (l : list A) : forall k x, nth_error l k = Some x -> firstn (S k) l = firstn k l ++ [x].
Proof.
  induction l as [|a l IH]; intros k x H; [destruct k; discriminate|]. destruct k as [|k]; cbn in H.
  - injection H as ->. reflexivity.
  - cbn [firstn app]. f_equal. apply (IH k x H).
Qed.

Lemma no_nul_app_l (a b : bytes) : no_nul (a ++ b) -> no_nul a.
Proof. unfold no_nul. intros H Hin. apply H. apply in_or_app. auto. Qed.

(** * The automaton on a prefix *)
Lemma exec_prefix d dc P R c0 c : wf_doc dc = true -> lex_safe (d_val dc) = true -> lead_blanks (doc_text dc) = O ->
  doc_text dc = P ++ R -> P <> [] -> colon_next R = false ->
  executeAutomaton d (doc_text dc) c0 = Ok c ->
  exists c1 l, executeAutomaton d P c0 = Ok c1 /\ c_tl c = c_tl c1 ++ l.
Proof.
  intros Hwf Hsafe Hlead Heq Hne Hcut Hrun. unfold executeAutomaton in *.
  pose proof (lex_doc_tokens dc Hwf Hsafe) as Htok. pose proof (doc_no_nul dc Hwf) as Hnn. rewrite Heq in *.
  destruct (lex_all (P ++ R)) as [evs|] eqn:El; [|discriminate]. cbn [bind] in Hrun.
  assert (Hsp : spaced (map e_tok evs) = true).
  { destruct Htok as (evs' & E1 & E2). injection E1 as <-. rewrite E2. apply doc_spaced, Hwf. }
  unfold lex_all in *. rewrite (c_string_id _ Hnn) in *. rewrite (c_string_id P (no_nul_app_l _ _ Hnn)).
  destruct (tokens_pre P R Hcut _ (S (List.length P)) initLexer evs El Hsp) as (k & tl & Et & Hall & _ & Htl).
  { intros x _ _. cbn. auto. }
  { cbn. pose proof (zlen_nonneg P). lia. }
  { cbn. unfold zlen. lia. }
  rewrite Et. cbn [bind]. rewrite foldM_app, (run_pre d P R Hlead Hne) by assumption.
  assert (Hgo : forall n, exists c1 l, foldM (core_step d (P ++ R)) (firstn n evs) c0 = Ok c1 /\ c_tl c = c_tl c1 ++ l).
  { intros n. rewrite <- (firstn_skipn n evs), foldM_app in Hrun.
    destruct (foldM _ (firstn n evs) c0) as [c1|]; [|discriminate]. cbn [bind] in Hrun. apply run_grows in Hrun. destruct Hrun as (l & El2). eauto. }
  destruct Htl as [->|(e & e' & Hk & -> & He & Hpri)].
  - destruct (Hgo k) as (c1 & l & E1 & E2). rewrite E1. cbn. eauto.
  - destruct (Hgo (S k)) as (c1 & l & E1 & E2). rewrite (firstn_snoc _ _ _ Hk), foldM_app in E1.
    destruct (foldM _ (firstn k evs) c0) as [c2|]; [|discriminate]. cbn [bind foldM] in *.
    rewrite (pri_step d P (P ++ R) c2 e e' He Hpri). exists c1, l. split; assumption.
Qed.

(** * The filter pass only adds outputs *)
Lemma out_grows : forall l o o', foldM addOutputElement l o = Ok o' -> exists m, o' = o ++ m.
Proof.
  induction l as [|t l IH]; intros o o' H; cbn [foldM] in H; [injection H as <-; exists []; rewrite app_nil_r; reflexivity|].
  unfold addOutputElement at 1 in H. destruct (_ <=? _); [discriminate|]. unfold strcopy in H. destruct (_ <? _); [discriminate|]. cbn [bind] in H.
  apply IH in H. destruct H as (m & ->). rewrite <- app_assoc. eauto.
Qed.

Lemma filter_grows N x f t f' : filter_step N x f t = Ok f' -> exists m, f_output f' = f_output f ++ m.
Proof.
  assert (Z0 : forall l : list bytes, exists m, l = l ++ m) by (intros l; exists []; rewrite app_nil_r; reflexivity).
  unfold filter_step. destruct t as [s txt]. intros H. destruct (beq txt (B "{")); [|destruct (beq txt (B "}"))].
  - unfold filter_open in H. destruct (Nat.leb _ _); [discriminate|]. injection H as <-. apply Z0.
  - unfold filter_close in H. destruct (f_stack f) as [|[ps fi] st]; [discriminate|].
    destruct (read_conds f ps); [|discriminate]. cbn [bind] in H.
    destruct (getContextSubtree x ps) as [[e|]|]; cbn [bind] in H; [|discriminate|discriminate].
    destruct (evaluateExpression N e a) as [v|]; [|discriminate]. cbn [bind] in H. destruct v.
    + destruct st.
      * destruct (foldM addOutputElement _ _) as [o|] eqn:Eo; [|discriminate]. cbn [bind] in H. injection H as <-. apply out_grows in Eo. exact Eo.
      * injection H as <-. apply Z0.
    + injection H as <-. apply Z0.
  - unfold filter_text in H. destruct (f_stack f) as [|[ps fi] st]; [injection H as <-; apply Z0|].
    repeat match type of H with
    | bind ?y _ = Ok _ => destruct y; [cbn [bind] in H|discriminate H]
    | match ?y with _ => _ end = Ok _ => destruct y
    | Ok _ = Ok _ => injection H as <-; apply Z0
    | UB _ = Ok _ => discriminate H
    end.
Qed.

Lemma final_prefix N x pf l1 l2 pf2 : generateFinalOutput N x pf (l1 ++ l2) = Ok pf2 ->
  exists pf1 m, generateFinalOutput N x pf l1 = Ok pf1 /\ f_output pf2 = f_output pf1 ++ m.
Proof.
  unfold generateFinalOutput. destruct (no_predicates pf).
  - intros H. rewrite map_app, foldM_app in H. unfold tuple, bytes in *.  match type of H with bind (bind ?a _) _ = _ => destruct a as [o|]; [|discriminate H] end. cbn [bind] in *.
    match type of H with bind ?a _ = _ => destruct a as [o2|] eqn:E; [|discriminate H] end. cbn [bind] in H. injection H as <-.
    apply out_grows in E. destruct E as (m & ->). eexists. exists m. split; reflexivity.
  - intros H. rewrite foldM_app in H. destruct (foldM (filter_step N x) l1 pf) as [f1|]; [|discriminate H]. cbn [bind] in H.
    exists f1. assert (G : forall l f f', foldM (filter_step N x) l f = Ok f' -> exists m, f_output f' = f_output f ++ m).
    { induction l as [|t l IH]; intros f f' Hf; cbn [foldM] in Hf; [injection Hf as <-; exists []; rewrite app_nil_r; reflexivity|].
      destruct (filter_step N x f t) as [fa|] eqn:E; [|discriminate Hf]. cbn [bind] in Hf. apply filter_grows in E. destruct E as (m1 & E1).
      apply IH in Hf. destruct Hf as (m2 & E2). exists (m1 ++ m2). rewrite E2, E1, app_assoc. reflexivity. }
    apply G in H. destruct H as (m & ->). eauto.
Qed.

(** * A whole run *)
Lemma whole_run N j p file out : 0 < zlen file <= MEMORY_FOOTPRINT -> serialRun N j p file = Ok (Some out) ->
  exists ci, serialPartialRun N j p file init_context = Ok (out, ci) /\ j_major_null j = true.
Proof.
  intros Hsz Hrun. unfold serialRun, serial_run in Hrun.
  destruct (List.length file) as [|n] eqn:El; [unfold zlen in Hsz; lia|]. cbn [serial_loop] in Hrun.
  rewrite (load_whole MEMORY_FOOTPRINT MAX_EXTENSION file) in Hrun; [|reflexivity|assumption]. cbn [bind] in Hrun.
  destruct (serialPartialRun N j p file init_context) as [[o ci]|] eqn:Er; [|discriminate]. cbn [bind] in Hrun.
  rewrite load_end in Hrun. cbn [bind] in Hrun.
  destruct (destroyStreamingContext j ci) eqn:Ed; [|discriminate]. cbn [bind] in Hrun. injection Hrun as <-. exists ci. split; [reflexivity|].
  unfold destroyStreamingContext in Ed. destruct (j_major_null j); [reflexivity|discriminate].
Qed.

Theorem truncated N j p dc P R out : good_doc dc -> doc_text dc = P ++ R -> P <> [] -> colon_next R = false ->
  serialRun N j p (doc_text dc) = Ok (Some out) ->
  exists n, serialRun N j p P = Ok (Some (firstn n out)).
Proof.
  intros Hg Heq Hne Hcut Hrun. destruct Hg as [Hwf Hsafe Hbl Hsize].
  assert (Hlead : lead_blanks (doc_text dc) = O).
  { pose proof (lead_zero dc Hbl) as Hz. unfold doc_text. destruct (d_pre dc) as [|c w] eqn:Ew.
    - cbn [app]. destruct (d_val dc) as [s|s|w ms|w es] eqn:Ev; unfold wf_doc in Hwf; rewrite Ev in Hwf; cbn in Hwf; rewrite ?andb_false_r in Hwf; try discriminate; reflexivity.
    - cbn in *. destruct (Ascii.eqb c " "%char); [discriminate|reflexivity]. }
  assert (Hp : 0 < zlen P) by (destruct P; [contradiction|rewrite zlen_cons; pose proof (zlen_nonneg P); lia]).
  assert (HT : zlen (doc_text dc) = zlen P + zlen R) by (rewrite Heq; apply zlen_app). pose proof (zlen_nonneg R).
  apply whole_run in Hrun; [|unfold MEMORY_FOOTPRINT; lia]. destruct Hrun as (ci & Hrun & Hj).
  unfold serialPartialRun in Hrun. cbn [init_context sc_context sc_core andb] in Hrun.
  destruct (executeAutomaton _ _ _) as [c|] eqn:Ex; [|discriminate]. cbn [bind] in Hrun.
  destruct (initPredicateFilter _) as [pf0|] eqn:Ei; [|discriminate]. cbn [bind] in Hrun.
  destruct (generateFinalOutput N _ pf0 (c_tl c)) as [pf2|] eqn:Eg; [|discriminate]. cbn [bind] in Hrun. injection Hrun as <- _.
  destruct (exec_prefix _ dc P R _ _ Hwf Hsafe Hlead Heq Hne Hcut Ex) as (c1 & l & E1 & El).
  rewrite El in Eg. apply final_prefix in Eg. destruct Eg as (pf1 & m & Eg & Em).
  exists (List.length (f_output pf1)). rewrite Em, firstn_app, firstn_all, Nat.sub_diag, firstn_O, app_nil_r.
  unfold serialRun. eapply run_whole; [reflexivity| |exact Hj| |].
  - unfold MEMORY_FOOTPRINT. lia.
  - unfold serialPartialRun. cbn [init_context sc_context sc_core andb]. rewrite E1. cbn [bind]. rewrite Ei. cbn [bind]. rewrite Eg. cbn [bind]. reflexivity.
  - reflexivity.
Qed.
