(** Termination of the lexer, and the token stream of a whole document. *)
From Verif Require Import Base Util Lexer Spec LexProof LexDoc.
Open Scope Z_scope.

Lemma peek_bounds buf p c : peek buf p = Ok c -> 0 <= p <= zlen buf.
Proof.
  unfold peek. destruct (Z.ltb_spec p 0); [discriminate|].
  destruct (nth_error buf (Z.to_nat p)) eqn:E.
  - intros _. assert (Z.to_nat p < List.length buf)%nat by (apply nth_error_Some; congruence).
    unfold zlen. lia.
  - destruct (Z.eqb_spec p (zlen buf)); [|discriminate]. pose proof (zlen_nonneg buf). lia.
Qed.

Lemma peek_inside buf p c : peek buf p = Ok c -> c <> NUL -> p < zlen buf.
Proof.
  unfold peek. destruct (Z.ltb_spec p 0); [discriminate|].
  destruct (nth_error buf (Z.to_nat p)) eqn:E.
  - intros _ _. assert (Z.to_nat p < List.length buf)%nat by (apply nth_error_Some; congruence).
    unfold zlen. lia.
  - destruct (Z.eqb_spec p (zlen buf)); [|discriminate]. congruence.
Qed.

Lemma peek_in_range buf p : 0 <= p <= zlen buf -> exists c, peek buf p = Ok c.
Proof.
  intros H. unfold peek. replace (p <? 0) with false by lia.
  destruct (nth_error buf (Z.to_nat p)) eqn:E; [eauto|].
  apply nth_error_None in E. exists NUL.
  replace (p =? zlen buf) with true by (unfold zlen in *; lia). reflexivity.
Qed.

Lemma peek_nofuel buf p : peek buf p <> UB Fuel.
Proof.
  unfold peek. destruct (p <? 0); [discriminate|].
  destruct (nth_error _ _); [discriminate|]. destruct (p =? zlen buf); discriminate.
Qed.

Lemma bind_nofuel {A C} (x : res A) (f : A -> res C) :
  x <> UB Fuel -> (forall a, x = Ok a -> f a <> UB Fuel) -> bind x f <> UB Fuel.
Proof. destruct x; simpl; intros H1 H2; [apply H2; reflexivity|congruence]. Qed.

Lemma count_bsl_nofuel : forall fuel buf p,
  (0 < fuel)%nat -> p + 1 < Z.of_nat fuel -> count_bsl fuel buf p <> UB Fuel.
Proof.
  induction fuel as [|f IH]; intros buf p H0 H; [lia|]. cbn [count_bsl].
  apply bind_nofuel; [apply peek_nofuel|]. intros c Hc.
  pose proof (peek_bounds _ _ _ Hc).
  destruct (Ascii.eqb c BSL); [|discriminate].
  apply bind_nofuel; [apply IH; lia|discriminate].
Qed.

Lemma skip_blanks_facts : forall fuel buf p,
  zlen buf < p + Z.of_nat fuel + 1 -> (0 < fuel)%nat ->
  skip_blanks fuel buf p <> UB Fuel /\
  (forall p', skip_blanks fuel buf p = Ok p' -> p <= p' < zlen buf).
Proof.
  induction fuel as [|f IH]; intros buf p Hf H0; [lia|]. cbn [skip_blanks].
  destruct (peek buf (p + 1)) as [c|u] eqn:Hc; cbn [bind].
  2:{ split; [pose proof (peek_nofuel buf (p+1)); congruence|discriminate]. }
  pose proof (peek_bounds _ _ _ Hc) as Hb.
  destruct (Ascii.eqb c " "%char || Ascii.eqb c TAB) eqn:E.
  - assert (Hn : c <> NUL) by (intros ->; discriminate).
    pose proof (peek_inside _ _ _ Hc Hn).
    destruct (IH buf (p + 1)) as [I1 I2]; [lia|lia|].
    split; [exact I1|]. intros p' Hp'. apply I2 in Hp'. lia.
  - split; [discriminate|]. intros p' [= <-]. lia.
Qed.

Lemma read_range_nofuel buf a n : read_range buf a n <> UB Fuel.
Proof. unfold read_range. destruct (n <=? 0); [discriminate|]. destruct (_ || _); discriminate. Qed.
Lemma sub_ip_nofuel cap buf a b e : substring_in_place cap buf a b e <> UB Fuel.
Proof.
  unfold substring_in_place. destruct (cap <? _); [discriminate|].
  apply bind_nofuel; [apply read_range_nofuel|discriminate].
Qed.
Lemma strcopy_nofuel cap s : strcopy cap s <> UB Fuel.
Proof. unfold strcopy. destruct (cap <? _); discriminate. Qed.

Lemma string_end_facts buf lx start p :
  string_end buf lx start p <> UB Fuel /\
  (forall t lx', string_end buf lx start p = Ok (t, lx') -> p < nxt lx' <= zlen buf).
Proof.
  unfold string_end.
  destruct (substring_in_place _ _ _ _ _) as [s|u] eqn:E1; cbn [bind].
  2:{ split; [pose proof (sub_ip_nofuel MAX_PRIMITIVE buf start 1 (p-start)); congruence|discriminate]. }
  destruct (skip_blanks_facts (S (S (Z.to_nat (zlen buf - p)))) buf p) as [H1 H2]; [lia|lia|].
  destruct (skip_blanks _ buf p) as [p'|u] eqn:E2; cbn [bind].
  2:{ split; [congruence|discriminate]. }
  pose proof (H2 p' eq_refl) as Hp'.
  destruct (peek buf (p' + 1)) as [c|u] eqn:E3; cbn [bind].
  2:{ split; [pose proof (peek_nofuel buf (p'+1)); congruence|discriminate]. }
  destruct (Ascii.eqb_spec c ":"%char) as [->|Hc].
  - destruct (strcopy _ _) as [k|u] eqn:E4; cbn [bind].
    + split; [discriminate|]. intros t lx' [= <- <-]. cbn.
      assert (":"%char <> NUL) by discriminate.
      pose proof (peek_inside _ _ _ E3 H). lia.
    + split; [pose proof (strcopy_nofuel MAX_SIZE_PRIMITIVE s); congruence|discriminate].
  - destruct (_ <? _); [split; discriminate|].
    split; [discriminate|]. intros t lx' [= <- <-]. cbn. lia.
Qed.

Lemma bare_end_facts buf start tp p :
  bare_end buf start tp p <> UB Fuel /\
  (forall t lx', bare_end buf start tp p = Ok (t, lx') -> nxt lx' = p).
Proof.
  unfold bare_end.
  destruct (peek buf _) as [c|u] eqn:E; cbn [bind].
  2:{ split; [pose proof (peek_nofuel buf (tp + (p - start - 1))); congruence|discriminate]. }
  match goal with |- context [bind (if ?b then ?x else ?y) _] =>
    assert (Hs : (if b then x else y) <> UB Fuel) by (destruct b; apply sub_ip_nofuel);
    destruct (if b then x else y) as [s|u] end; cbn [bind].
  2:{ split; [congruence|discriminate]. }
  destruct (strcopy _ _) as [k|u] eqn:E4; cbn [bind].
  - split; [discriminate|]. intros t lx' [= <- <-]. reflexivity.
  - split; [pose proof (strcopy_nofuel MAX_SIZE_PRIMITIVE s); congruence|discriminate].
Qed.

Lemma scan_facts : forall fuel buf lx st start tp p,
  0 <= p -> fuel = Z.to_nat (zlen buf - p) ->
  scan fuel buf lx st start tp p <> UB Fuel /\
  (forall t lx', scan fuel buf lx st start tp p = Ok (t, lx') ->
     t = TEND \/ (p <= nxt lx' <= zlen buf /\ (st = O -> p < nxt lx'))).
Proof.
  induction fuel as [|f IH]; intros buf lx st start tp p Hp Hf; cbn [scan].
  - split; [discriminate|]. intros t lx' [= <- _]. auto.
  - destruct (peek buf p) as [c|u] eqn:Hc; cbn [bind].
    2:{ split; [pose proof (peek_nofuel buf p); congruence|discriminate]. }
    assert (Hnext : forall st' s' t', scan f buf lx st' s' t' (p + 1) <> UB Fuel /\
       (forall t lx', scan f buf lx st' s' t' (p + 1) = Ok (t, lx') ->
        t = TEND \/ (p <= nxt lx' <= zlen buf /\ (st = O -> p < nxt lx')))).
    { intros st' s' t'. destruct (IH buf lx st' s' t' (p + 1)) as [I1 I2]; [lia|lia|].
      split; [exact I1|]. intros t lx' H. destruct (I2 _ _ H) as [H'|[H' _]]; [auto|].
      right. split; [lia|]. intros _. lia. }
    destruct st as [|[|st]].
    + destruct (struct_token c) as [t0|].
      * split; [discriminate|]. intros t lx' [= <- <-]. right. cbn. lia.
      * repeat match goal with |- context [if ?b then _ else _] => destruct b end; apply Hnext.
    + destruct (Ascii.eqb c DQ); [|apply Hnext].
      assert (Hq : quote_escaped buf p <> UB Fuel).
      { unfold quote_escaped. apply bind_nofuel; [apply peek_nofuel|]. intros x _.
        destruct (Ascii.eqb x BSL); [|discriminate].
        apply bind_nofuel; [apply count_bsl_nofuel; lia|discriminate]. }
      destruct (quote_escaped buf p) as [[|]|u]; cbn [bind].
      * apply Hnext.
      * destruct (string_end_facts buf lx start p) as [S1 S2].
        split; [exact S1|]. intros t lx' H. right. apply S2 in H. lia.
      * split; [congruence|discriminate].
    + destruct (is_delim c); [|apply Hnext].
      destruct (bare_end_facts buf start tp p) as [S1 S2].
      split; [exact S1|]. intros t lx' H. right. apply S2 in H. lia.
Qed.

Lemma next_facts buf lx : 0 <= nxt lx ->
  nextToken buf lx <> UB Fuel /\
  (forall t lx', nextToken buf lx = Ok (t, lx') -> t = TEND \/ (nxt lx < nxt lx' <= zlen buf)).
Proof.
  intros H. unfold nextToken.
  destruct (scan_facts _ buf lx 0 (cur_ptr lx) (nxt lx) (nxt lx) H eq_refl) as [H1 H2].
  split; [exact H1|]. intros t lx' E. destruct (H2 _ _ E) as [?|[? Hp]]; [auto|].
  right. specialize (Hp eq_refl). lia.
Qed.

Lemma tokens_from_facts : forall fuel buf lx,
  0 <= nxt lx -> zlen buf - nxt lx < Z.of_nat fuel -> (0 < fuel)%nat ->
  tokens_from fuel buf lx <> UB Fuel.
Proof.
  induction fuel as [|f IH]; intros buf lx H0 Hf Hp; [lia|]. cbn [tokens_from].
  destruct (next_facts buf lx H0) as [N1 N2].
  destruct (nextToken buf lx) as [[t lx']|u] eqn:E; cbn [bind]; [|congruence].
  destruct (N2 _ _ eq_refl) as [->|Hn]; [discriminate|].
  assert (Hrec : tokens_from f buf lx' <> UB Fuel) by (apply IH; lia).
  destruct t; try discriminate; (apply bind_nofuel; [exact Hrec|discriminate]).
Qed.

Lemma tokens_from_more : forall n buf lx m r,
  tokens_from n buf lx = r -> r <> UB Fuel -> (n <= m)%nat -> tokens_from m buf lx = r.
Proof.
  induction n as [|n IH]; intros buf lx m r H Hr Hm; [simpl in H; congruence|].
  destruct m as [|m]; [lia|]. cbn [tokens_from] in *.
  destruct (nextToken buf lx) as [[t lx']|u]; cbn [bind] in *; [|exact H].
  assert (Hgo : tokens_from n buf lx' <> UB Fuel -> tokens_from m buf lx' = tokens_from n buf lx').
  { intros Hx. apply (IH buf lx' m _ eq_refl Hx). lia. }
  destruct t; try exact H;
    (destruct (tokens_from n buf lx') as [l|u0] eqn:E; cbn [bind] in *;
     [rewrite Hgo by congruence; exact H
     | destruct u0; try (rewrite Hgo by congruence; exact H); congruence]).
Qed.

(** Lexing terminates on every input. *)
Lemma lex_all_terminates stream : lex_all stream <> UB Fuel.
Proof.
  unfold lex_all. apply tokens_from_facts; cbn; unfold zlen; lia.
Qed.

(** Any amount of fuel that suffices gives what [lex_all] gives. *)
Lemma toks_lex_all stream evs : toks (c_string stream) initLexer evs -> lex_all stream = Ok evs.
Proof.
  intros [n Hn]. pose proof (lex_all_terminates stream) as Ht. unfold lex_all in *.
  destruct (Nat.le_gt_cases n (S (List.length (c_string stream)))) as [Hle|Hgt].
  - eapply tokens_from_more; eauto. discriminate.
  - rewrite <- Hn. symmetry. eapply tokens_from_more; [reflexivity|exact Ht|lia].
Qed.

(** * No NUL byte in a well-formed document *)
Lemma no_nul_app a b : no_nul a -> no_nul b -> no_nul (a ++ b).
Proof. unfold no_nul. intros Ha Hb H. apply in_app_or in H. tauto. Qed.
Lemma no_nul_cons c l : c <> NUL -> no_nul l -> no_nul (c :: l).
Proof. unfold no_nul. simpl. intros H1 H2 [H|H]; auto. Qed.
Lemma ws_no_nul w : ws w = true -> no_nul w.
Proof.
  intros H Hin. unfold ws in H. rewrite forallb_forall in H. specialize (H _ Hin). discriminate.
Qed.
Lemma no_nul_nil : no_nul [].
Proof. unfold no_nul; simpl; tauto. Qed.

Ltac nn := repeat first
  [ assumption | apply no_nul_app | apply no_nul_cons; [discriminate|] | apply no_nul_nil
  | apply ws_no_nul; assumption | assumption
  | eapply str_body_no_nul; eassumption ].

Lemma text_no_nul : (forall v, wf v = true -> no_nul (text v)) /\
  (forall ms, wf_ms ms = true -> no_nul (text_ms ms)) /\
  (forall es, wf_es es = true -> no_nul (text_es es)).
Proof.
  apply json_all_ind; intros; cbn [wf wf_ms wf_es text text_ms text_es] in *; andb_split.
  - destruct s; [discriminate|]. apply bare_word_no_nul. assumption.
  - nn.
  - change (B "{") with ["{"%char]. change (B "}") with ["}"%char]. nn. auto.
  - change (B "[") with ["["%char]. change (B "]") with ["]"%char]. nn. auto.
  - nn.
  - change (B ":") with [":"%char]. specialize (H H3). specialize (H0 H2). nn.
    destruct ms; change (B ",") with [","%char]; nn.
  - nn.
  - assert (no_nul (text v)) by auto. assert (no_nul (text_es es)) by auto. nn.
    destruct es; change (B ",") with [","%char]; nn.
Qed.

Lemma doc_no_nul d : wf_doc d = true -> no_nul (doc_text d).
Proof.
  unfold wf_doc, doc_text. intros H. andb_split.
  nn. apply (proj1 text_no_nul). assumption.
Qed.

(** The token stream of a document. *)
Theorem lex_doc d : wf_doc d = true -> lex_safe (d_val d) = true ->
  lex_all (doc_text d) = Ok (doc_events d).
Proof.
  intros Hwf Hsafe. apply toks_lex_all.
  pose proof (doc_no_nul d Hwf) as Hnn. rewrite c_string_id by exact Hnn.
  unfold wf_doc in Hwf. andb_split. unfold doc_events, doc_text.
  set (e := zlen (d_pre d) + zlen (text (d_val d))).
  pose proof (proj1 lex_all_values (d_val d) (d_pre d ++ text (d_val d) ++ d_post d)
           [] (d_pre d) (d_post d) initLexer [] 0 0 e) as HL.
  rewrite app_nil_r in HL. apply HL; auto.
  exists 1%nat. cbn [tokens_from].
  rewrite (next_end _ _ (d_pre d ++ text (d_val d)) (d_post d)).
  - reflexivity.
  - leq.
  - cbn. unfold e. zlc.
  - assumption.
Qed.

Lemma map_e_tok_ev : (forall v cp o tb, map e_tok (ev_val cp o tb v) = tok_val v) /\
  (forall ms cp o, map e_tok (ev_ms cp o ms) = tok_ms ms) /\
  (forall es cp o, map e_tok (ev_es cp o es) = tok_es es).
Proof.
  apply json_all_ind; intros; cbn [ev_val ev_ms ev_es tok_val tok_ms tok_es map e_tok]; auto.
  - rewrite map_app, H. reflexivity.
  - rewrite map_app, H. reflexivity.
  - f_equal. rewrite map_app, H. f_equal. destruct ms; [reflexivity|].
    cbn [map e_tok]. rewrite H0. reflexivity.
  - rewrite map_app, H. f_equal. destruct es; [reflexivity|].
    cbn [map e_tok]. rewrite H0. reflexivity.
Qed.

Theorem lex_doc_tokens d : wf_doc d = true -> lex_safe (d_val d) = true ->
  exists evs, lex_all (doc_text d) = Ok evs /\ map e_tok evs = tok_val (d_val d).
Proof.
  intros H1 H2. exists (doc_events d). split; [apply lex_doc; assumption|].
  apply (proj1 map_e_tok_ev).
Qed.
