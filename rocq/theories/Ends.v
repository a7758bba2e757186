(** Every loop of the model ends: no run is cut off by its fuel. *)
From Verif Require Import Base Util Spec QueryClass Lexer Dfa Constraint Stream Regex Mixer Compress Builder Eval Filter Loader Run Worker Merge
  AnyQuery SliceProof.
Open Scope Z_scope.

Definition ends_ok {A} (r : res A) : Prop := r <> UB Fuel.
Definition step_ok {A B} (f : A -> res B) : Prop := forall a, ends_ok (f a).

Lemma eo_ok {A} (a : A) : ends_ok (Ok a). Proof. discriminate. Qed.
Lemma eo_bind {A B} (r : res A) (f : A -> res B) : ends_ok r -> (forall a, r = Ok a -> ends_ok (f a)) -> ends_ok (bind r f).
Proof. intros H Hf. destruct r as [a|u]; cbn; [auto|]. intros E. injection E as ->. exact (H eq_refl). Qed.
Lemma eo_mapM {A B} (f : A -> res B) : (forall a, ends_ok (f a)) -> forall l, ends_ok (mapM f l).
Proof. intros H. induction l as [|x l IH]; cbn; [apply eo_ok|]. apply eo_bind; auto. intros y _. apply eo_bind; auto. intros. apply eo_ok. Qed.
Lemma eo_foldM {S A} (f : S -> A -> res S) : (forall s a, ends_ok (f s a)) -> forall l s, ends_ok (foldM f l s).
Proof. intros H. induction l as [|x l IH]; cbn; intros s; [apply eo_ok|]. apply eo_bind; auto. Qed.

Create HintDb eo.
#[global] Hint Resolve eo_ok : eo.
Ltac eo1 :=
  match goal with
  | |- ends_ok (Ok _) => apply eo_ok
  | |- ends_ok (UB _) => discriminate
  | |- ends_ok (bind _ _) => apply eo_bind; [|intros ? ?]
  | |- ends_ok (mapM _ _) => apply eo_mapM; intros ?
  | |- ends_ok (foldM _ _ _) => apply eo_foldM; intros ? ?
  | |- ends_ok (if ?b then _ else _) => destruct b eqn:?
  | |- ends_ok (match ?x with _ => _ end) => destruct x eqn:?
  | |- ends_ok _ => solve [auto with eo]
  end.
Ltac eo := repeat eo1.
Ltac eou f := intros; unfold f; eo.

Lemma eo_zread {A} (l : list A) z : ends_ok (zread l z). Proof. unfold zread. eo. Qed.
Lemma eo_known {A} (x : option A) : ends_ok (known x). Proof. eou @known. Qed.
#[global] Hint Resolve eo_zread eo_known : eo.
Lemma eo_peek b p : ends_ok (peek b p). Proof. eou peek. Qed.
Lemma eo_read_range b f n : ends_ok (read_range b f n). Proof. eou read_range. Qed.
#[global] Hint Resolve eo_peek eo_read_range : eo.
Lemma eo_sip c b p x y : ends_ok (substring_in_place c b p x y). Proof. eou substring_in_place. Qed.
Lemma eo_sub b p x y : ends_ok (substring b p x y). Proof. eou substring. Qed.
Lemma eo_strcopy c s : ends_ok (strcopy c s). Proof. eou strcopy. Qed.
#[global] Hint Resolve eo_sip eo_sub eo_strcopy : eo.

(** * The lexer *)
Lemma peek_in b p c : peek b p = Ok c -> 0 <= p <= zlen b.
Proof.
  unfold peek. destruct (Z.ltb_spec p 0); [discriminate|]. destruct (nth_error b (Z.to_nat p)) eqn:E.
  - intros _. assert (H1 : (Z.to_nat p < List.length b)%nat) by (apply nth_error_Some; congruence). unfold zlen. lia.
  - destruct (Z.eqb_spec p (zlen b)); [lia|discriminate].
Qed.
Lemma peek_end b : peek b (zlen b) = Ok NUL.
Proof.
  unfold peek, zlen. destruct (Z.ltb_spec (Z.of_nat (List.length b)) 0); [lia|].
  rewrite Nat2Z.id, (proj2 (nth_error_None b (List.length b))) by lia. rewrite Z.eqb_refl. reflexivity.
Qed.
Lemma peek_lt b p c : peek b p = Ok c -> c <> NUL -> 0 <= p < zlen b.
Proof.
  intros H Hc. pose proof (peek_in _ _ _ H). destruct (Z.eq_dec p (zlen b)) as [->|]; [|lia]. rewrite peek_end in H. congruence.
Qed.

Lemma eo_count_bsl buf : forall f p, -1 <= p -> p + 2 <= Z.of_nat f -> ends_ok (count_bsl f buf p).
Proof.
  induction f as [|f IH]; intros p H0 H; cbn [count_bsl]; [exfalso; lia|].
  apply eo_bind; [auto with eo|]. intros c Hc. destruct (Ascii.eqb c BSL); [|apply eo_ok].
  apply eo_bind; [|intros; apply eo_ok]. apply peek_in in Hc. apply IH; lia.
Qed.
Lemma eo_escaped buf p : ends_ok (quote_escaped buf p).
Proof.
  unfold quote_escaped. apply eo_bind; [auto with eo|]. intros c Hc. apply peek_in in Hc. destruct (Ascii.eqb c BSL); [|apply eo_ok].
  apply eo_bind; [|intros; apply eo_ok]. apply eo_count_bsl; lia.
Qed.
Lemma blank_nul c : Ascii.eqb c " "%char || Ascii.eqb c TAB = true -> c <> NUL.
Proof. intros H ->. discriminate H. Qed.
Lemma eo_skip buf : forall f p, zlen buf - p + 1 <= Z.of_nat f -> p < zlen buf -> ends_ok (skip_blanks f buf p).
Proof.
  induction f as [|f IH]; intros p H Hp; cbn [skip_blanks]; [exfalso; lia|].
  apply eo_bind; [auto with eo|]. intros c Hc. destruct (Ascii.eqb c " "%char || Ascii.eqb c TAB) eqn:E; [|apply eo_ok].
  apply blank_nul in E. pose proof (peek_lt _ _ _ Hc E). apply IH; lia.
Qed.
Lemma skip_between buf : forall f p p', skip_blanks f buf p = Ok p' -> p < zlen buf -> p <= p' < zlen buf.
Proof.
  induction f as [|f IH]; intros p p'; cbn [skip_blanks]; [discriminate|].
  destruct (peek buf (p + 1)) as [c|] eqn:Hc; [|discriminate]. cbn [bind]. destruct (Ascii.eqb c " "%char || Ascii.eqb c TAB) eqn:E.
  - intros H Hp. apply blank_nul in E. pose proof (peek_lt _ _ _ Hc E). apply IH in H; lia.
  - intros H Hp. injection H as <-. lia.
Qed.
#[global] Hint Resolve eo_escaped : eo.
Lemma eo_string_end buf lx start p : p < zlen buf -> ends_ok (string_end buf lx start p).
Proof.
  intros Hp. unfold string_end. eo. apply eo_skip; lia.
Qed.
Lemma eo_bare_end buf start tp p : ends_ok (bare_end buf start tp p).
Proof. unfold bare_end. eo. Qed.
#[global] Hint Resolve eo_bare_end : eo.
Lemma eo_scan buf lx : forall f st start tp p, p + Z.of_nat f <= zlen buf -> ends_ok (scan f buf lx st start tp p).
Proof.
  induction f as [|f IH]; intros st start tp p H; cbn [scan]; [apply eo_ok|].
  assert (Hn : forall st start tp, ends_ok (scan f buf lx st start tp (p + 1))) by (intros; apply IH; lia).
  assert (Hs : forall start, ends_ok (string_end buf lx start p)) by (intros; apply eo_string_end; lia).
  eo; auto.
Qed.
Lemma eo_next buf lx : nxt lx <= zlen buf -> ends_ok (nextToken buf lx).
Proof. intros H. apply eo_scan. lia. Qed.

(** Every token takes at least one byte, and the lexer stays inside the text. *)
Lemma struct_nul c t : struct_token c = Some t -> c <> NUL.
Proof. intros H ->. discriminate H. Qed.
Lemma scan_goes buf lx : forall f st start tp p t lx', scan f buf lx st start tp p = Ok (t, lx') ->
  (Z.of_nat f <= zlen buf - p) -> 0 <= p ->
  t = TEND \/ (p + (match st with O => 1 | S O => 1 | _ => 0 end) <= nxt lx' <= zlen buf).
Proof.
  induction f as [|f IH]; intros st start tp p t lx'; cbn [scan].
  { intros H. injection H as <- <-. auto. }
  destruct (peek buf p) as [c|] eqn:Hc; [|discriminate]. cbn [bind]. intros H Hf Hp.
  assert (Hlt : p < zlen buf) by lia.
  assert (Hgo : forall st start tp k, k <= 1 -> scan f buf lx st start tp (p + 1) = Ok (t, lx') -> t = TEND \/ p + k <= nxt lx' <= zlen buf).
  { intros st' a b k Hk E. apply IH in E; [|lia|lia]. destruct E as [E|E]; [auto|right]. destruct st' as [|[|]]; lia. }
  destruct st as [|[|st]].
  - destruct (struct_token c) as [t0|] eqn:Ht.
    + injection H as <- <-. right. cbn. lia.
    + destruct (Ascii.eqb c DQ); [refine (Hgo _ _ _ 1 _ H); lia|].
      destruct (Ascii.eqb c " "%char || Ascii.eqb c TAB); [refine (Hgo _ _ _ 1 _ H); lia|].
      destruct (is_alnum c); refine (Hgo _ _ _ 1 _ H); lia.
  - destruct (Ascii.eqb c DQ); [|refine (Hgo _ _ _ 1 _ H); lia].
    destruct (quote_escaped buf p) as [[|]|]; cbn [bind] in H; [refine (Hgo _ _ _ 1 _ H); lia| |discriminate].
    unfold string_end in H. destruct (substring_in_place _ _ _ _ _); [|discriminate]. cbn [bind] in H.
    destruct (skip_blanks _ buf p) as [p'|] eqn:E; [|discriminate]. cbn [bind] in H. apply skip_between in E; [|exact Hlt].
    destruct (peek buf (p' + 1)) as [c'|] eqn:E'; [|discriminate]. cbn [bind] in H. destruct (Ascii.eqb_spec c' ":"%char) as [->|].
    + destruct (strcopy _ _); [|discriminate]. injection H as <- <-. right. cbn. apply peek_lt in E'; [lia|discriminate].
    + destruct (_ <? _); [discriminate|]. injection H as <- <-. right. cbn. lia.
  - destruct (is_delim c); [|refine (Hgo _ _ _ 0 _ H); lia].
    unfold bare_end in H. destruct (peek buf (tp + (p - start - 1))) as [a|]; [|discriminate]. cbn [bind] in H. destruct (if Ascii.eqb a ","%char then _ else _); [|discriminate].
      cbn [bind] in H. destruct (strcopy _ _); [|discriminate]. injection H as <- <-. right. cbn. lia.
Qed.
Theorem token_progress buf lx t lx' : nextToken buf lx = Ok (t, lx') -> 0 <= nxt lx -> t = TEND \/ nxt lx < nxt lx' <= zlen buf.
Proof.
  intros H H0. unfold nextToken in H. destruct (Z.le_gt_cases (nxt lx) (zlen buf)) as [Hl|Hl].
  - apply scan_goes in H; [|lia|exact H0]. destruct H as [H|H]; [auto|right; lia].
  - replace (Z.to_nat (zlen buf - nxt lx)) with O in H by lia. injection H as <- <-. auto.
Qed.
Lemma eo_tokens buf : forall f lx, 0 <= nxt lx <= zlen buf -> zlen buf - nxt lx < Z.of_nat f -> ends_ok (tokens_from f buf lx).
Proof.
  induction f as [|f IH]; intros lx H Hf; cbn [tokens_from]; [exfalso; lia|].
  apply eo_bind; [apply eo_next; lia|]. intros [t lx'] E. apply token_progress in E; [|lia].
  destruct E as [->|E]; [apply eo_ok|]. destruct t; try apply eo_ok; (apply eo_bind; [apply IH; lia|intros; apply eo_ok]).
Qed.
Lemma eo_lex_all s : ends_ok (lex_all s).
Proof. unfold lex_all. apply eo_tokens; cbn; unfold zlen; lia. Qed.
#[global] Hint Resolve eo_lex_all : eo.

(** * The engine and the filter *)
Lemma eo_find d row input : forall n c, ends_ok (find_input n d row c input).
Proof. induction n as [|n IH]; intros c; cbn [find_input]; eo. Qed.
#[global] Hint Resolve eo_find : eo.
Lemma eo_next_state d s a : ends_ok (dfaNextState d s a). Proof. eou dfaNextState. Qed.
#[global] Hint Resolve eo_next_state : eo.
Lemma eo_by_str d s k : ends_ok (dfaNextStateByStr d s k). Proof. eou dfaNextStateByStr. Qed.
Lemma eo_accept d s : ends_ok (getDFAAcceptType d s). Proof. eou getDFAAcceptType. Qed.
Lemma eo_range d s : ends_ok (getDFAArrayIndex d s). Proof. eou getDFAArrayIndex. Qed.
#[global] Hint Resolve eo_by_str eo_accept eo_range : eo.
Lemma eo_in_range d e : ends_ok (in_range d e). Proof. eou in_range. Qed.
#[global] Hint Resolve eo_in_range : eo.
Lemma eo_matched d e : ends_ok (getMatchedType d e). Proof. eou getMatchedType. Qed.
Lemma eo_next_elt d e k : ends_ok (next_elt d e k). Proof. eou next_elt. Qed.
Lemma eo_ms_set m : ends_ok (ms_set m). Proof. eou ms_set. Qed.
Lemma eo_addTuple tl s t : ends_ok (addTuple tl s t). Proof. eou addTuple. Qed.
#[global] Hint Resolve eo_matched eo_next_elt eo_ms_set eo_addTuple : eo.
Lemma eo_emit d buf e p tl : ends_ok (emit_close d buf e p tl). Proof. eou emit_close. Qed.
#[global] Hint Resolve eo_emit : eo.
Lemma eo_core_step d buf c ev : ends_ok (core_step d buf c ev).
Proof. unfold core_step, do_lcb, do_rcb, do_lb, do_rb, do_ky, do_pri. eo. Qed.
#[global] Hint Resolve eo_core_step : eo.
Lemma eo_execute d s c : ends_ok (executeAutomaton d s c). Proof. eou executeAutomaton. Qed.
#[global] Hint Resolve eo_execute : eo.
Lemma eo_add_entry jk k st : forall ct n, ends_ok (add_entry jk ct n k st).
Proof. induction ct as [|ci ct IH]; intros n; cbn [add_entry]; unfold add_state; eo. Qed.
#[global] Hint Resolve eo_add_entry : eo.
Lemma eo_train_step d jk c ct ev : ends_ok (train_step d jk c ct ev). Proof. unfold train_step, addConstraintInfo. eo. Qed.
#[global] Hint Resolve eo_train_step : eo.
Lemma eo_train d jk s c : ends_ok (executeAutomatonTrain d jk s c). Proof. unfold executeAutomatonTrain, train_core_step. eo. Qed.
#[global] Hint Resolve eo_train : eo.

Lemma eo_number N v : ends_ok (number_of N v). Proof. eou number_of. Qed.
#[global] Hint Resolve eo_number : eo.
Lemma eo_on_numbers N A f v1 v2 : ends_ok (@on_numbers N A f v1 v2). Proof. eou @on_numbers. Qed.
#[global] Hint Resolve eo_on_numbers : eo.
Lemma eo_binary N op v1 v2 : ends_ok (computeBinaryOperator N op v1 v2). Proof. unfold computeBinaryOperator, modulo. eo. Qed.
#[global] Hint Resolve eo_binary : eo.
Lemma eo_calc N : forall e t, ends_ok (calculateExpression N e t).
Proof. induction e; intros; cbn [calculateExpression]; eo. Qed.
#[global] Hint Resolve eo_calc : eo.
Lemma eo_evaluate N e c : ends_ok (evaluateExpression N e c). Proof. eou evaluateExpression. Qed.
Lemma eo_node_string e : ends_ok (node_string e). Proof. eou node_string. Qed.
Lemma eo_subtree x s : ends_ok (getContextSubtree x s). Proof. eou getContextSubtree. Qed.
Lemma eo_output o t : ends_ok (addOutputElement o t). Proof. eou addOutputElement. Qed.
Lemma eo_conds f s : ends_ok (read_conds f s). Proof. eou read_conds. Qed.
#[global] Hint Resolve eo_evaluate eo_node_string eo_subtree eo_output eo_conds : eo.
Lemma eo_init_filter x : ends_ok (initPredicateFilter x). Proof. unfold initPredicateFilter, init_pred, init_condition. eo. Qed.
Lemma eo_filter_step N x f t : ends_ok (filter_step N x f t).
Proof. unfold filter_step, filter_open, filter_close, filter_text. eo. Qed.
#[global] Hint Resolve eo_init_filter eo_filter_step : eo.
Lemma eo_final N x f tl : ends_ok (generateFinalOutput N x f tl). Proof. eou generateFinalOutput. Qed.
#[global] Hint Resolve eo_final : eo.

(** * Loading and serial runs *)
Lemma eo_back : forall r, ends_ok (back_char r). Proof. induction r; cbn [back_char]; eo. Qed.
#[global] Hint Resolve eo_back : eo.
Lemma eo_extend X : forall rest add rbuf, ends_ok (extend X add rbuf rest).
Proof. induction rest as [|c rest IH]; intros; cbn [extend]; eo. Qed.
#[global] Hint Resolve eo_extend : eo.
Lemma eo_load M X file s : ends_ok (loadBounded M X file s). Proof. eou loadBounded. Qed.
#[global] Hint Resolve eo_load : eo.
Lemma extend_grows X : forall rest add rbuf r a, extend X add rbuf rest = Ok (r, a) -> add <= a <= add + zlen rest.
Proof.
  induction rest as [|c rest IH]; intros add rbuf r a; cbn [extend].
  - intros H. injection H as <- <-. rewrite zlen_nil. lia.
  - rewrite zlen_cons. pose proof (zlen_nonneg rest) as Hr.
    assert (Hw : (if X <=? add then UB OOBWrite else extend X (add + 1) (c :: rbuf) rest) = Ok (r, a) -> add <= a <= add + (zlen rest + 1)).
    { destruct (X <=? add); [discriminate|]. intros H. apply IH in H. lia. }
    destruct (Ascii.eqb c BFF); [intros H; injection H as <- <-; lia|]. destruct (Ascii.eqb c DQ); [|exact Hw].
    destruct (back_char rbuf) as [p|]; [|discriminate]. cbn [bind]. destruct (opens_token p); [|exact Hw]. intros H. injection H as <- <-. lia.
Qed.
Lemma load_progress M X file s t next : 0 <= s -> loadBounded M X file s = Ok (Some (t, next)) -> s < next <= zlen file.
Proof.
  intros H0. unfold loadBounded. destruct (Z.leb_spec (Z.min (zlen file - s) M) 0) as [|Hs]; [discriminate|].
  destruct (extend _ _ _ _) as [[r a]|] eqn:E; [|discriminate]. cbn [bind]. destruct (X <=? a); [discriminate|].
  intros H. injection H as <- <-. apply extend_grows in E. unfold zlen in E at 1. rewrite !skipn_length in E. unfold zlen in *. lia.
Qed.
Lemma eo_partial N j p s ci : ends_ok (serialPartialRun N j p s ci). Proof. eou serialPartialRun. Qed.
#[global] Hint Resolve eo_partial : eo.
Lemma eo_serial_loop N j p M X file : forall f s o ci, 0 <= s -> zlen file - s < Z.of_nat f ->
  s <= zlen file -> ends_ok (serial_loop N j p M X file f s o ci).
Proof.
  induction f as [|f IH]; intros s o ci H0 Hf Hl; cbn [serial_loop]; [exfalso; lia|].
  apply eo_bind; [auto with eo|]. intros [[t next]|] E; [|apply eo_ok]. apply load_progress in E; [|exact H0].
  apply eo_bind; [auto with eo|]. intros [x y] _. apply IH; lia.
Qed.
Theorem serial_ends N j p M X file : ends_ok (serial_run N j p M X file).
Proof.
  unfold serial_run, destroyStreamingContext. apply eo_bind.
  - apply eo_serial_loop; unfold zlen; lia.
  - intros [o ci] _. eo.
Qed.
Theorem train_ends p jk file : ends_ok (collectDataConstraints p jk file).
Proof. unfold collectDataConstraints. eo. Qed.

(** * The threads *)
Lemma eo_is_root n : ends_ok (is_root n). Proof. eou is_root. Qed.
Lemma eo_roots_of q i n : ends_ok (roots_of q i n). Proof. eou roots_of. Qed.
Lemma eo_prune_paths q s : ends_ok (pruneQueryPaths q s). Proof. eou pruneQueryPaths. Qed.
Lemma eo_in_range_at d r s c : ends_ok (in_range_at d r s c). Proof. eou in_range_at. Qed.
#[global] Hint Resolve eo_is_root eo_roots_of eo_prune_paths eo_in_range_at : eo.
Lemma eo_next_at d r s c k : ends_ok (next_at d r s c k). Proof. eou next_at. Qed.
#[global] Hint Resolve eo_next_at : eo.
Lemma eo_push d q cur k : ends_ok (queryStacksPush d q cur k). Proof. unfold queryStacksPush, push_targets. eo. Qed.
Lemma eo_pop q : ends_ok (queryStacksPop q). Proof. unfold queryStacksPop. apply (fun H => H). destruct (k_item q); [discriminate|]. eo. Qed.
Lemma eo_store tl s v : ends_ok (store_tuple tl s v). Proof. eou store_tuple. Qed.
Lemma eo_link tl i n : ends_ok (linkTuples tl i n). Proof. eou linkTuples. Qed.
#[global] Hint Resolve eo_push eo_pop eo_store eo_link : eo.
Lemma eo_add_for_root s v st r : ends_ok (add_for_root s v st r). Proof. unfold add_for_root. eo. Qed.
#[global] Hint Resolve eo_add_for_root : eo.
Lemma eo_add_info i s v st : ends_ok (addTupleInfo i s v st). Proof. unfold addTupleInfo. eo. Qed.
Lemma eo_matchedType d r s c : ends_ok (matchedType d r s c). Proof. unfold matchedType. eo. Qed.
#[global] Hint Resolve eo_add_info eo_matchedType : eo.
Definition body_ok (f : loop_body) := forall r e, ends_ok (f r e).
Lemma eo_visit f st i : body_ok f -> ends_ok (visit f st i). Proof. intros H. unfold visit. eo; try apply H. Qed.
Lemma eo_loop f cur w : body_ok f -> ends_ok (loop f cur w). Proof. intros H. unfold loop, each. eo; try apply eo_visit, H. Qed.
Lemma eo_loop_cur f w : body_ok f -> ends_ok (loop_cur f w). Proof. intros H. apply eo_loop, H. Qed.
#[global] Hint Resolve eo_loop eo_loop_cur : eo.
Lemma eo_on_lcb d id n : body_ok (on_lcb d id n). Proof. intros r e. unfold on_lcb. eo. Qed.
Lemma eo_on_close d id rb b n : body_ok (on_close d id rb b n). Proof. intros r e. unfold on_close. eo. Qed.
Lemma eo_on_elt_close d b : body_ok (on_elt_close d b). Proof. intros r e. unfold on_elt_close. eo. Qed.
Lemma eo_on_lb d id n : body_ok (on_lb d id n). Proof. intros r e. unfold on_lb. eo. Qed.
Lemma eo_on_count : body_ok on_count. Proof. intros r e. unfold on_count. eo. Qed.
Lemma eo_on_pri d id c s : body_ok (on_pri d id c s). Proof. intros r e. unfold on_pri. eo. Qed.
#[global] Hint Resolve eo_on_lcb eo_on_close eo_on_elt_close eo_on_lb eo_on_count eo_on_pri : eo.
Lemma eo_unmatched ss p s w : ends_ok (unmatched ss p s w).
Proof. unfold unmatched, addRoots, addUnit, addUnmatchedSymbol. eo. Qed.
Lemma eo_pop_query w : ends_ok (pop_query w). Proof. eou pop_query. Qed.
#[global] Hint Resolve eo_unmatched eo_pop_query : eo.
Lemma eo_prune id ct jk k w : ends_ok (prune id ct jk k w). Proof. unfold prune. eo. Qed.
#[global] Hint Resolve eo_prune : eo.
Lemma eo_worker_step d id ss ct jk buf ev rest w : ends_ok (worker_step d id ss ct jk buf ev rest w).
Proof. unfold worker_step, w_lcb, w_rcb, w_lb, w_rb, w_ky, w_pri. eo. Qed.
#[global] Hint Resolve eo_worker_step : eo.
Lemma eo_worker_loop d id ss ct jk buf : forall evs w, ends_ok (worker_loop d id ss ct jk buf evs w).
Proof. induction evs as [|ev evs IH]; intros w; cbn [worker_loop]; eo. Qed.
#[global] Hint Resolve eo_worker_loop : eo.
Lemma eo_worker d st ct jk ju s tl : ends_ok (executeWorkerAutomaton d st ct jk ju s tl).
Proof. unfold executeWorkerAutomaton, last_unit, addRoots, addUnit. eo. Qed.
#[global] Hint Resolve eo_worker : eo.

(** The links between the tuples of a thread go forward. *)
Definition fwd (tl : list wtuple) : Prop :=
  forall i t, nth_error tl i = Some t -> w_next t = -1 \/ Z.of_nat i < w_next t.
Definition tup_in (tl : list wtuple) (n : tnode) : Prop :=
  match t_tup n with Some (_, l) => l < zlen tl | None => True end.
Definition linked (q : qstacks) (tl : list wtuple) : Prop := fwd tl /\ Forall (tup_in tl) (k_nodes q).

Lemma zread_some {A} (l : list A) i a : zread l i = Ok a -> 0 <= i < zlen l /\ nth_error l (Z.to_nat i) = Some a.
Proof.
  unfold zread, znth. destruct (Z.ltb_spec i 0); [discriminate|]. destruct (nth_error l (Z.to_nat i)) eqn:E; [|discriminate].
  intros X. injection X as ->. split; [|reflexivity]. assert (Z.to_nat i < List.length l)%nat by (apply nth_error_Some; congruence). unfold zlen. lia.
Qed.
Lemma zread_forall {A} (P : A -> Prop) l i a : Forall P l -> zread l i = Ok a -> P a.
Proof. intros H E. apply zread_some in E. destruct E as [_ E]. apply nth_error_In in E. exact (proj1 (Forall_forall P l) H a E). Qed.
Lemma forall_upd {A} (P : A -> Prop) : forall l i a, Forall P l -> P a -> Forall P (upd l i a).
Proof. induction l as [|x l IH]; intros [|i] a H Ha; cbn; inversion H; subst; constructor; auto. Qed.
Lemma tup_more tl tl' n : zlen tl <= zlen tl' -> tup_in tl n -> tup_in tl' n.
Proof. unfold tup_in. destruct (t_tup n) as [[f l]|]; [lia|auto]. Qed.
Lemma linked_set q tl i n : linked q tl -> tup_in tl n -> linked (set_node q i n) tl.
Proof. intros [H1 H2] Hn. split; [exact H1|]. cbn. apply forall_upd; assumption. Qed.

Lemma store_len tl s v tl' : store_tuple tl s v = Ok tl' -> fwd tl -> fwd tl' /\ zlen tl' = zlen tl + 1.
Proof.
  assert (Hn : forall t, w_next t = -1 -> fwd tl -> fwd (tl ++ [t]) /\ zlen (tl ++ [t]) = zlen tl + 1).
  { intros t Ht H. split; [|rewrite zlen_app; reflexivity]. intros i u Hu. destruct (Nat.lt_ge_cases i (List.length tl)) as [Hi|Hi].
    - rewrite nth_error_app1 in Hu by exact Hi. exact (H i u Hu).
    - rewrite nth_error_app2 in Hu by exact Hi. destruct (i - List.length tl)%nat as [|k]; [injection Hu as <-; auto|destruct k; discriminate]. }
  unfold store_tuple. destruct (MAX_TUPLE_LIST <=? zlen tl); [discriminate|]. destruct v as [b|b e].
  - destruct (strcopy MAX_TEXT b); [|discriminate]. intros E. injection E as <-. apply Hn. reflexivity.
  - intros E. injection E as <-. apply Hn. reflexivity.
Qed.
Lemma link_fwd tl i n tl' : linkTuples tl i n = Ok tl' -> fwd tl -> i < n -> fwd tl' /\ zlen tl' = zlen tl.
Proof.
  unfold linkTuples. destruct (zread tl i) as [t|] eqn:E; [|discriminate]. apply zread_some in E. destruct E as [Hi Ht].
  intros X. injection X as <-. intros H Hn. split; [|unfold zlen; rewrite upd_length; reflexivity].
  intros k u Hu. destruct (Nat.eq_dec (Z.to_nat i) k) as [<-|Hk].
  - rewrite nth_error_upd_same in Hu by (apply nth_error_Some; congruence). injection Hu as <-. cbn. right. lia.
  - rewrite nth_error_upd_other in Hu by exact Hk. exact (H k u Hu).
Qed.
Lemma linked_root s v q tl r q' tl' : add_for_root s v (q, tl) r = Ok (q', tl') -> linked q tl -> linked q' tl'.
Proof.
  unfold add_for_root. destruct (zread (k_nodes q) r) as [n|] eqn:En; [|discriminate]. cbn [bind].
  destruct (known (t_tup n)) as [[f l]|] eqn:Et; [|discriminate]. cbn [bind].
  destruct (store_tuple tl s v) as [tl1|] eqn:Es; [|discriminate]. cbn [bind]. intros H [Hf Hn].
  destruct (store_len _ _ _ _ Es Hf) as [Hf1 Hl1].
  assert (Hn1 : Forall (tup_in tl1) (k_nodes q)) by (eapply Forall_impl; [|exact Hn]; intros a; apply tup_more; lia).
  assert (Hl : l < zlen tl).
  { pose proof (zread_forall _ _ _ _ Hn En) as Ht. unfold tup_in in Ht. destruct (t_tup n) as [[f' l']|]; [|discriminate].
    injection Et as -> ->. exact Ht. }
  destruct (0 <=? f).
  - destruct (linkTuples tl1 l (zlen tl1 - 1)) as [tl2|] eqn:El; [|discriminate]. injection H as <- <-.
    apply link_fwd in El; [|exact Hf1|lia]. destruct El as [Hf2 Hl2].
    apply linked_set; [split; [exact Hf2|]|unfold tup_in; cbn; lia].
    eapply Forall_impl; [|exact Hn1]. intros a. apply tup_more. lia.
  - injection H as <- <-. apply linked_set; [split; assumption|unfold tup_in; cbn; lia].
Qed.
Lemma linked_roots s v : forall rs st st', foldM (add_for_root s v) rs st = Ok st' -> linked (fst st) (snd st) -> linked (fst st') (snd st').
Proof.
  induction rs as [|r rs IH]; intros st st'; cbn [foldM]; [intros H; injection H as <-; auto|].
  destruct (add_for_root s v st r) as [st1|] eqn:E; [|discriminate]. cbn [bind]. intros H Hl. apply (IH _ _ H).
  destruct st as [q tl], st1 as [q1 tl1]. exact (linked_root _ _ _ _ _ _ _ E Hl).
Qed.
Lemma linked_visit f i st st' : visit f st i = Ok st' -> linked (fst st) (snd st) -> linked (fst st') (snd st').
Proof.
  unfold visit. destruct (zread (k_nodes (fst st)) i) as [n|]; [|discriminate]. cbn [bind]. destruct (is_root n); [|discriminate]. cbn [bind].
  destruct (f _ _) as [[e out]|]; [|discriminate]. cbn [bind].
  destruct (match out with Some v => addTupleInfo i (t_state n) v st | None => Ok st end) as [[q tl]|] eqn:E; [|discriminate]. cbn [bind].
  destruct (zread (k_nodes q) i) as [n'|] eqn:En; [|discriminate]. cbn [bind]. intros H Hl. injection H as <-. cbn [fst snd].
  assert (Hq : linked q tl).
  { destruct out as [v|]; [|injection E as ->; exact Hl]. unfold addTupleInfo in E. destruct (zread (k_nodes (fst st)) i); [|discriminate].
    cbn [bind] in E. destruct (roots_of (fst st) i _); [|discriminate]. cbn [bind] in E. exact (linked_roots _ _ _ _ _ E Hl). }
  apply linked_set; [exact Hq|]. exact (zread_forall _ _ _ _ (proj2 Hq) En).
Qed.
Lemma linked_each f : forall is st st', foldM (visit f) is st = Ok st' -> linked (fst st) (snd st) -> linked (fst st') (snd st').
Proof.
  induction is as [|i is IH]; intros st st'; cbn [foldM]; [intros H; injection H as <-; auto|].
  destruct (visit f st i) as [st1|] eqn:E; [|discriminate]. cbn [bind]. intros H Hl. exact (IH _ _ H (linked_visit _ _ _ _ E Hl)).
Qed.
Definition wl (w : wstate) : Prop := linked (ws_qs w) (ws_tl w).
Lemma wl_loop f cur w w' : loop f cur w = Ok w' -> wl w -> wl w'.
Proof.
  unfold loop, each. destruct (foldM _ _ _) as [st|] eqn:E; [|discriminate]. intros H Hl. injection H as <-.
  exact (linked_each _ _ _ _ E Hl).
Qed.
Lemma wl_pop w w' : pop_query w = Ok w' -> wl w -> wl w'.
Proof.
  unfold pop_query, queryStacksPop. destruct (k_item (ws_qs w)); [discriminate|]. destruct (zread _ _); [|discriminate]. cbn [bind].
  intros H [Hf Hl]. injection H as <-. split; [exact Hf|]. cbn. apply Forall_forall. intros n Hn.
  apply (proj1 (Forall_forall _ _) Hl). rewrite <- (firstn_skipn (Z.to_nat (snd p + 1)) (k_nodes (ws_qs w))). apply in_or_app. auto.
Qed.
Lemma new_nodes_tup tl : forall acc np nr, Forall (tup_in tl) (new_nodes acc np nr).
Proof. induction acc as [|[s [p rs]] acc IH]; intros np nr; cbn; constructor; auto. exact I. Qed.
Lemma wl_push d q cur k tl q' cur' : queryStacksPush d q cur k = Ok (q', cur') -> linked q tl -> linked q' tl.
Proof.
  unfold queryStacksPush. destruct (_ <=? _); [discriminate|]. destruct (push_targets d q cur k); [|discriminate]. cbn [bind].
  destruct (known (k_np q)); [|discriminate]. cbn [bind]. destruct (known (k_rp q)); [|discriminate]. cbn [bind].
  destruct (_ || _); [discriminate|]. intros H [Hf Hl]. injection H as <- _. split; [exact Hf|]. cbn. apply Forall_app. split; [exact Hl|apply new_nodes_tup].
Qed.
Lemma wl_init states tl : fwd tl -> linked (fst (initQueryStacks states)) tl.
Proof.
  intros H. split; [exact H|]. cbn. apply Forall_forall. intros n Hn. apply in_map_iff in Hn. destruct Hn as (s & <- & _).
  unfold tup_in. cbn. pose proof (zlen_nonneg tl). lia.
Qed.
Lemma wl_unmatched ss p s w w' : unmatched ss p s w = Ok w' -> wl w -> wl w'.
Proof.
  unfold unmatched. destruct (un_state (ws_unit w) =? UNIT_MATCHED); cbn [bind].
  - destruct (addRoots _ _ _); [|discriminate]. cbn [bind]. destruct (addUnit _ _); [|discriminate]. cbn [bind].
    destruct (known ss) as [states|]; [|discriminate]. cbn [bind initQueryStacks]. destruct (addUnmatchedSymbol _ _); [|discriminate].
    intros H [Hf _]. injection H as <-. exact (wl_init states _ Hf).
  - destruct (addUnmatchedSymbol _ _); [|discriminate]. intros H Hl. injection H as <-. exact Hl.
Qed.
Lemma mapM_forall {A B} (P : B -> Prop) (f : A -> res B) : (forall a b, f a = Ok b -> P b) -> forall l l', mapM f l = Ok l' -> Forall P l'.
Proof.
  intros H. induction l as [|x l IH]; intros l'; cbn [mapM]; [intros E; injection E as <-; constructor|].
  destruct (f x) eqn:E; [|discriminate]. cbn [bind]. destruct (mapM f l); [|discriminate]. intros X. injection X as <-. constructor; eauto.
Qed.
Lemma wl_prune id ct jk k w w' : prune id ct jk k w = Ok w' -> wl w -> wl w'.
Proof.
  unfold prune. destruct ct as [t|]; [|intros H; injection H as <-; auto].
  destruct (id || un_pruned (ws_unit w)); [intros H; injection H as <-; auto|].
  destruct (match k with CKey n => strcopy MAX_KEY_TEXT n | CArr => Ok [] end); [|discriminate]. cbn [bind].
  destruct (updateStateInfo jk t k) as [[|s l]|]; try (intros H; injection H as <-; auto; fail).
  unfold pruneQueryPaths. destruct (mapM (zread (k_nodes (ws_qs w))) (s :: l)) as [ns|] eqn:E; [|discriminate]. cbn [bind].
  intros H [Hf Hl]. injection H as <-. split; [exact Hf|]. cbn. revert E. apply mapM_forall. intros z n0. apply zread_forall, Hl.
Qed.
Lemma wl_infer t rest w : wl w -> wl (infer t rest w).
Proof. unfold infer. destruct (ws_shadow w); [|auto]. destruct (look rest). auto. Qed.

Definition pw (r : res wstate) : Prop := forall w, r = Ok w -> wl w.
Lemma pw_ok w : wl w -> pw (Ok w). Proof. intros H w' E. injection E as <-. exact H. Qed.
Lemma pw_ub u : pw (UB u). Proof. discriminate. Qed.
Lemma pw_bind r f : pw r -> (forall w, wl w -> pw (f w)) -> pw (bind r f).
Proof. intros H Hf. destruct r as [w|]; cbn; [|discriminate]. apply Hf, H. reflexivity. Qed.
Lemma pw_loop f cur w : wl w -> pw (loop f cur w). Proof. intros H w' E. exact (wl_loop _ _ _ _ E H). Qed.
Lemma pw_cur f w : wl w -> pw (loop_cur f w). Proof. apply pw_loop. Qed.
Lemma pw_pop w : wl w -> pw (pop_query w). Proof. intros H w' E. exact (wl_pop _ _ E H). Qed.
Lemma pw_unmatched ss p s w : wl w -> pw (unmatched ss p s w). Proof. intros H w' E. exact (wl_unmatched _ _ _ _ _ E H). Qed.
Lemma pw_prune id ct jk k w : wl w -> pw (prune id ct jk k w). Proof. intros H w' E. exact (wl_prune _ _ _ _ _ _ E H). Qed.
Lemma pw_push d w k ss : wl w -> pw (qc <- queryStacksPush d (ws_qs w) (ws_cur w) k ;; Ok (with_qs (with_ss w ss) qc)).
Proof.
  intros H w'. destruct (queryStacksPush d (ws_qs w) (ws_cur w) k) as [[q' cur']|] eqn:E; [|discriminate]. cbn [bind].
  intros X. injection X as <-. exact (wl_push _ _ _ _ _ _ _ E H).
Qed.
Lemma wl_same w w' : wl w -> ws_qs w' = ws_qs w -> ws_tl w' = ws_tl w -> wl w'.
Proof. unfold wl. intros H -> ->. exact H. Qed.
Lemma infer_ss t rest w : ws_ss (infer t rest w) = ws_ss w.
Proof. unfold infer. destruct (ws_shadow w); [|reflexivity]. destruct (look rest). reflexivity. Qed.
Ltac pw1 :=
  match goal with
  | |- pw (Ok _) => apply pw_ok
  | |- pw (UB _) => apply pw_ub
  | |- pw (bind (queryStacksPush _ _ _ _) _) => apply pw_push
  | |- pw (bind _ _) => apply pw_bind; [|intros ? ?]
  | |- pw (loop _ _ _) => apply pw_loop
  | |- pw (loop_cur _ _) => apply pw_cur
  | |- pw (pop_query _) => apply pw_pop
  | |- pw (unmatched _ _ _ _) => apply pw_unmatched
  | |- pw (prune _ _ _ _ _) => apply pw_prune
  | |- pw (match ?x with _ => _ end) => destruct x
  | |- wl (infer _ _ _) => apply wl_infer
  | H : wl ?w |- wl (with_ss (infer ?t ?r ?w) _) => exact (wl_infer t r w H)
  | H : wl ?w |- wl (with_unit (infer ?t ?r ?w) _) => exact (wl_infer t r w H)
  | H : wl ?w |- wl (with_ss (with_unit ?w _) _) => exact H
  | H : wl ?w |- wl (with_ss ?w _) => exact H
  | H : wl ?w |- wl (with_unit ?w _) => exact H
  | H : wl ?w |- wl ?w => exact H
  end.
Lemma wl_step d id ss ct jk buf ev rest w : wl w -> pw (worker_step d id ss ct jk buf ev rest w).
Proof.
  intros Hl. unfold worker_step. destruct (e_tok ev).
  - unfold w_lcb. repeat pw1.
  - unfold w_rcb. destruct (ws_ss w); [repeat pw1|]. apply pw_bind; [repeat pw1|]. intros w1 H1. destruct (ws_ss w1) as [|? [|[| |] ?]]; repeat pw1.
  - unfold w_lb. repeat pw1.
  - unfold w_rb. destruct (ws_ss w); [repeat pw1|]. destruct (k_item (ws_qs w)) as [|top it]; cbn [bind]; [apply pw_ub|].
    apply pw_bind; [repeat pw1|]. intros w1 H1. destruct (ws_ss w1) as [|? [|[| |] ?]]; repeat pw1.
  - repeat pw1.
  - unfold w_ky. repeat pw1.
  - unfold w_pri. destruct (ss_top (ws_ss w)); repeat pw1.
  - repeat pw1.
Qed.
Lemma wl_worker_loop d id ss ct jk buf : forall evs w, wl w -> pw (worker_loop d id ss ct jk buf evs w).
Proof.
  induction evs as [|ev evs IH]; intros w H; cbn [worker_loop]; [apply pw_ok, H|]. apply pw_bind; [apply wl_step, H|]. intros w1 H1. apply IH, H1.
Qed.
(** A thread that starts with an empty list leaves links that go forward. *)
Lemma thread_fwd d ct jk ju s w : executeWorkerAutomaton d Speculate ct jk ju s [] = Ok w -> fwd (wa_tl w).
Proof.
  unfold executeWorkerAutomaton. destruct (_ <? _); [discriminate|]. cbn [initQueryStacks]. destruct (lex_all s) as [evs|]; [|discriminate]. cbn [bind].
  destruct (worker_loop _ _ _ _ _ _ _ _) as [w1|] eqn:E; [|discriminate]. cbn [bind]. destruct (last_unit _ _); [|discriminate]. cbn [bind].
  intros H. injection H as <-. cbn. apply wl_worker_loop in E; [exact (proj1 E)|].
  apply (wl_init (map Z.of_nat (seq 0 (List.length (d_accept d)))) []). intros i t Hi. destruct i; discriminate.
Qed.

(** * The merging phase *)
Lemma eo_collect_one here t m : ends_ok (collect_one here t m). Proof. unfold collect_one. eo. Qed.
Lemma eo_m_count m : ends_ok (m_count m). Proof. eou m_count. Qed.
Lemma eo_m_dead m : ends_ok (m_dead m). Proof. eou m_dead. Qed.
Lemma eo_mergeType d n : ends_ok (mergeType d n). Proof. eou mergeType. Qed.
#[global] Hint Resolve eo_collect_one eo_m_count eo_m_dead eo_mergeType : eo.
Lemma eo_collect d here tl : fwd tl -> forall f i m, (i < 0 \/ zlen tl - i < Z.of_nat f) -> (0 < f)%nat -> ends_ok (collect d f here tl i m).
Proof.
  intros Hf. induction f as [|f IH]; intros i m Hi H0; [exfalso; lia|]. cbn [collect].
  destruct (Z.eqb_spec i (-1)) as [|Hne]; [apply eo_ok|]. apply eo_bind; [auto with eo|]. intros t Ht.
  apply zread_some in Ht. destruct Ht as [Hr Ht]. apply Hf in Ht.
  assert (Hn : forall m, ends_ok (collect d f here tl (w_next t) m)).
  { intros m'. apply IH; lia. }
  eo; try apply Hn.
Qed.
Lemma eo_m_pop m : ends_ok (m_pop m). Proof. unfold m_pop. eo. Qed.
Lemma eo_m_add i s v m : ends_ok (m_add i s v m). Proof. unfold m_add. eo. Qed.
Lemma eo_m_clear i m : ends_ok (m_clear i m). Proof. unfold m_clear. eo. Qed.
#[global] Hint Resolve eo_m_pop eo_m_add eo_m_clear : eo.
Lemma eo_merge_sym d prev here m s : ends_ok (merge_sym d prev here m s).
Proof. unfold merge_sym, merge_rcb, merge_rb, raw_sub. eo. Qed.
#[global] Hint Resolve eo_merge_sym : eo.
Lemma eo_unit_text here u : ends_ok (unit_text here u). Proof. unfold unit_text. eo. Qed.
#[global] Hint Resolve eo_unit_text : eo.
Lemma eo_merge_unit d jk ju prev here w m u : fwd (wa_tl w) -> ends_ok (merge_unit d jk ju prev here w m u).
Proof. intros H. unfold merge_unit. eo. apply eo_collect; [exact H| |lia]. unfold zlen. lia. Qed.
Lemma eo_merge_units d jk ju prev here w : fwd (wa_tl w) -> forall us m, ends_ok (merge_units d jk ju prev here w us m).
Proof.
  intros H. assert (Hu : forall m u, ends_ok (merge_unit d jk ju prev here w m u)) by (intros; apply eo_merge_unit, H).
  induction us as [|u us IH]; intros m; cbn [merge_units]; [apply eo_ok|]. destruct us as [|u' us]; [apply Hu|]. eo; try apply Hu; apply IH.
Qed.
Lemma eo_find_state nodes s : forall is, ends_ok (find_state nodes is s).
Proof. induction is as [|i is IH]; cbn [find_state]; eo. Qed.
Lemma eo_find_path q r : forall is, ends_ok (find_path q is r).
Proof. induction is as [|i is IH]; cbn [find_path]; unfold range_roots; eo. Qed.
#[global] Hint Resolve eo_find_state eo_find_path : eo.
Lemma eo_combine_stacks q c s sc : ends_ok (combineQueryStacks q c s sc). Proof. unfold combineQueryStacks, combine_level. eo. Qed.
#[global] Hint Resolve eo_combine_stacks : eo.
Lemma eo_merge_chunk d jk ju prev here w m : fwd (wa_tl w) -> ends_ok (merge_chunk d jk ju prev here w m).
Proof. intros H. unfold merge_chunk. eo. apply eo_merge_units, H. Qed.
Lemma eo_merge_chunks d jk ju : forall rest prev m, Forall (fun c => fwd (wa_tl (snd c))) rest -> ends_ok (merge_chunks d jk ju prev rest m).
Proof.
  induction rest as [|[s w] rest IH]; intros prev m H; cbn [merge_chunks]; [apply eo_ok|]. inversion H as [|x l Hw Hr]; subst.
  apply eo_bind; [apply eo_merge_chunk, Hw|]. intros m' _. apply IH, Hr.
Qed.
Lemma eo_threads d ct pj st tl : forall cs i, ends_ok (all_threads d ct pj st tl i cs).
Proof. induction cs as [|c cs IH]; intros i; cbn [all_threads]; unfold thread_result; eo. Qed.
#[global] Hint Resolve eo_threads : eo.
Lemma threads_fwd d ct pj st tl : forall cs i rs, all_threads d ct pj st tl (S i) cs = Ok rs -> Forall (fun c => fwd (wa_tl (snd c))) rs.
Proof.
  induction cs as [|c cs IH]; intros i rs; cbn [all_threads]; [intros H; injection H as <-; constructor|].
  unfold thread_result. destruct c as [s|]; [|discriminate]. destruct (executeWorkerAutomaton _ _ _ _ _ _ _) as [w|] eqn:E; [|discriminate]. cbn [bind].
  destruct (all_threads d ct pj st tl (S (S i)) cs) as [rs'|] eqn:Er; [|discriminate]. cbn [bind]. intros H. injection H as <-.
  constructor; [exact (thread_fwd _ _ _ _ _ _ E)|exact (IH _ _ Er)].
Qed.
Lemma eo_parallel d ct pj st tl cs : ends_ok (executeParallelAutomata d ct pj st tl cs).
Proof.
  unfold executeParallelAutomata. destruct (_ <? _); [discriminate|]. apply eo_bind; [auto with eo|]. intros [|r rs] E; [discriminate|].
  apply eo_merge_chunks. destruct cs as [|c cs]; cbn [all_threads] in E; [discriminate|].
  destruct (thread_result _ _ _ _ _ _ _); [|discriminate]. cbn [bind] in E. destruct (all_threads d ct pj st tl 1 cs) as [rs'|] eqn:Er; [|discriminate].
  injection E as _ <-. exact (threads_fwd _ _ _ _ _ _ _ _ Er).
Qed.
#[global] Hint Resolve eo_parallel : eo.
Lemma eo_cut X : forall rest add rbuf, ends_ok (cut_chunk X add rbuf rest).
Proof. induction rest as [|c rest IH]; intros; cbn [cut_chunk]; eo. Qed.
#[global] Hint Resolve eo_cut : eo.
Lemma eo_part_loop X c s : forall n sum, ends_ok (part_loop X c s n sum).
Proof. induction n as [|n IH]; intros sum; cbn [part_loop]; eo. Qed.
#[global] Hint Resolve eo_part_loop : eo.
Lemma eo_partition X s n : ends_ok (partition X s n). Proof. unfold partition. eo. Qed.
#[global] Hint Resolve eo_partition : eo.
Lemma eo_plain t : ends_ok (plain_tuple t). Proof. unfold plain_tuple. eo. Qed.
#[global] Hint Resolve eo_plain : eo.
Lemma eo_par_partial N p ct pj s n ci : ends_ok (parallelPartialRun N p ct pj s n ci).
Proof. unfold parallelPartialRun, partitionInputStream. eo. Qed.
#[global] Hint Resolve eo_par_partial : eo.
Lemma eo_par_loop N p ct pj M X file n : forall f s o ci, 0 <= s <= zlen file -> zlen file - s < Z.of_nat f ->
  ends_ok (parallel_loop N p ct pj M X file n f s o ci).
Proof.
  induction f as [|f IH]; intros s o ci H0 Hf; cbn [parallel_loop]; [exfalso; lia|].
  apply eo_bind; [auto with eo|]. intros [[t next]|] E; [|apply eo_ok]. apply load_progress in E; [|lia].
  apply eo_bind; [auto with eo|]. intros [x y] _. apply IH; lia.
Qed.
Theorem parallel_ends N p ct pj M X file n : ends_ok (parallel_run N p ct pj M X file n).
Proof.
  unfold parallel_run. apply eo_bind; [apply eo_par_loop; unfold zlen; lia|]. intros [o ci] _. eo.
Qed.

(** * Compilation *)
Lemma eo_construct strict q : ends_ok (construct_dfa strict q).
Proof. unfold construct_dfa, construct_step, modify_reference. eo. Qed.
Lemma construct_loose strict : forall q b b', foldM (construct_step strict) q b = Ok b' -> foldM (construct_step false) q b = Ok b'.
Proof.
  induction q as [|s q IH]; intros b b'; cbn [foldM]; [auto|]. destruct (construct_step strict b s) as [b1|] eqn:E; [|discriminate]. cbn [bind].
  replace (construct_step false b s) with (Ok b1); [apply IH|]. rewrite <- E. destruct s; try reflexivity. cbn in *.
  destruct (modify_reference strict e) as [[]|]; [reflexivity|discriminate].
Qed.
Lemma construct_index strict : forall q b, existsb real_step q = false -> foldM (construct_step strict) q b = Ok b.
Proof. induction q as [|s q IH]; intros b H; cbn in *; [reflexivity|]. destruct s; try discriminate H. cbn. apply IH, H. Qed.
Theorem build_ends strict q : zlen (query_names q) <= name_bound -> ends_ok (createPathProcessor strict q).
Proof.
  intros Hn. unfold createPathProcessor. apply eo_bind; [|intros [d x] _; apply eo_ok].
  destruct (existsb real_step q) eqn:Er.
  - destruct (compiles false q Er (fun H => False_ind _ (diff_false_true H)) Hn) as (p & Hp & _).
    unfold createPathProcessor in Hp. unfold build in *. apply eo_bind; [apply eo_construct|]. intros b Hb.
    apply construct_loose in Hb. unfold construct_dfa in Hp. rewrite Hb in Hp. cbn [bind] in Hp.
    match type of Hp with bind ?r _ = _ => destruct r as [[d x]|]; [apply eo_ok|discriminate Hp] end.
  - unfold build, construct_dfa. rewrite construct_index by exact Er. cbn. discriminate.
Qed.
