(** Proofs of the lexer claims. *)
From Verif Require Import Base Util Lexer Spec LexSpec LexProof LexDoc LexMain.
From Coq Require Import Lia.
Open Scope Z_scope.

Lemma tokens_same : (forall v, tok_val v = doc_tokens v) /\ (forall ms, tok_ms ms = member_tokens ms) /\
  (forall es, tok_es es = element_tokens es).
Proof.
  apply json_all_ind; cbn; intros; try reflexivity; try congruence.
Qed.

Lemma doc_lexed dc : wf_doc dc = true -> lex_safe (d_val dc) = true ->
  exists evs, lex_all (doc_text dc) = Ok evs /\ map e_tok evs = doc_tokens (d_val dc).
Proof. intros H1 H2. rewrite <- (proj1 tokens_same). exact (lex_doc_tokens dc H1 H2). Qed.

(** * Backslash parity *)
Lemma body_parity : forall s n, str_body (Nat.odd n) s = true <->
  no_nul s /\ (forall a b, s = a ++ DQ :: b -> Nat.odd (bsl_run n a) = true) /\ Nat.odd (bsl_run n s) = false.
Proof.
  induction s as [|c s IH]; intros n; cbn [str_body].
  - cbn [bsl_run fold_left]. split.
    + intros H. apply negb_true_iff in H. split; [intros []|]. split; [|exact H]. intros [|] b; discriminate.
    + intros (_ & _ & H). rewrite H. reflexivity.
  - assert (Step : forall m, m = (if Ascii.eqb c BSL then S n else O) -> (Nat.odd n = true \/ c <> DQ) -> c <> NUL ->
      (str_body (Nat.odd m) s = true <->
       no_nul (c :: s) /\ (forall a b, c :: s = a ++ DQ :: b -> Nat.odd (bsl_run n a) = true) /\ Nat.odd (bsl_run n (c :: s)) = false)).
    { intros m Hm Hq Hn. rewrite (IH m). unfold bsl_run. cbn [fold_left]. rewrite <- Hm. split.
      - intros (H1 & H2 & H3). split; [intros [E|E]; [congruence|exact (H1 E)]|]. split; [|exact H3].
        intros a b E. destruct a as [|c' a]; cbn in E; injection E as Ec Es.
        + cbn. destruct Hq; [assumption|congruence].
        + subst c'. cbn [fold_left]. rewrite <- Hm. apply (H2 a b Es).
      - intros (H1 & H2 & H3). split; [intros E; apply H1; right; exact E|]. split; [|exact H3].
        intros a b E. specialize (H2 (c :: a) b). cbn [fold_left app] in H2. rewrite <- Hm in H2. apply H2. rewrite E. reflexivity. }
    destruct (Ascii.eqb_spec c NUL) as [En|En].
    { cbn. split; [discriminate|]. intros (H & _). exfalso. apply H. left. exact En. }
    cbn [negb andb]. destruct (Ascii.eqb_spec c BSL) as [Eb|Eb].
    + destruct (Nat.odd n) eqn:Eo.
      * rewrite <- (Step (S n) eq_refl) by auto. rewrite Nat.odd_succ, <- Nat.negb_odd, Eo. reflexivity.
      * rewrite <- (Step (S n) eq_refl) by (auto; right; subst c; discriminate). rewrite Nat.odd_succ, <- Nat.negb_odd, Eo. reflexivity.
    + destruct (Nat.odd n) eqn:Eo.
      * rewrite <- (Step O eq_refl) by auto. reflexivity.
      * destruct (Ascii.eqb_spec c DQ) as [Eq|Eq].
        -- cbn. split; [discriminate|]. intros (_ & H & _). specialize (H [] s). cbn in H. rewrite Eq in H. specialize (H eq_refl). congruence.
        -- cbn. rewrite <- (Step O eq_refl) by auto. reflexivity.
Qed.

Lemma body_spec s : str_body false s = true <-> no_nul s /\ quotes_escaped s /\ Nat.odd (trailing_bsl s) = false.
Proof. exact (body_parity s 0). Qed.

Lemma colon_split : forall l, exists bl rest, l = bl ++ rest /\ forallb blank_char bl = true /\ blank_char (hd_char rest) = false /\
  colon_next l = Ascii.eqb (hd_char rest) ":"%char.
Proof.
  induction l as [|c l (bl & rest & -> & H1 & H2 & H3)].
  - exists [], []. repeat split; reflexivity.
  - cbn [colon_next]. destruct (Ascii.eqb c " "%char || Ascii.eqb c TAB) eqn:E.
    + exists (c :: bl), rest. cbn. unfold blank_char at 1. rewrite E. auto.
    + exists [], (c :: bl ++ rest). cbn. unfold blank_char. rewrite E. auto.
Qed.

Lemma sub_long cap buf start (s : bytes) p : cap < zlen s + 1 -> p = start + 1 + zlen s ->
  substring_in_place cap buf start 1 (p - start) = UB OOBWrite.
Proof. intros H ->. unfold substring_in_place. replace (cap <? _) with true by lia. reflexivity. Qed.

(** What the lexer returns for a string, whatever its length. *)
Theorem string_token buf lx pre w s rest :
  buf = pre ++ w ++ [DQ] ++ s ++ [DQ] ++ rest -> nxt lx = zlen pre -> ws w = true ->
  no_nul s -> quotes_escaped s -> Nat.odd (trailing_bsl s) = false ->
  if colon_next rest
  then if 3998 <? zlen s then nextToken buf lx = UB OOBWrite
       else exists lx', nextToken buf lx = Ok (TKY s, lx')
  else if 3996 <? zlen s then nextToken buf lx = UB OOBWrite
       else exists lx', nextToken buf lx = Ok (TPRI ([DQ] ++ s ++ [DQ]), lx').
Proof.
  intros Hb Hn Hw Hs1 Hs2 Hs3. cbn [app] in Hb.
  assert (Hs : str_body false s = true) by (apply body_spec; auto).
  destruct (colon_split rest) as (bl & r & -> & Hbl & Hr & ->).
  pose proof (zlen_nonneg s) as Hz.
  assert (Long : zlen s <= 39999 \/ nextToken buf lx = UB OOBWrite).
  { destruct (Z.le_gt_cases (zlen s) 39999) as [H|H]; [auto|right].
    rewrite (string_start buf pre w s (bl ++ r)) by auto. unfold string_end.
    rewrite sub_long with (s := s) by (unfold MAX_PRIMITIVE; lia). reflexivity. }
  assert (Mid : zlen s <= 39999 -> nextToken buf lx =
    let p' := zlen pre + zlen w + 1 + zlen s + zlen bl in
    if Ascii.eqb (hd_char r) ":"%char then content <- strcopy MAX_SIZE_PRIMITIVE s ;; Ok (TKY content, mkLexer (p' + 1) (cur_ptr lx + 1) (p' + 2))
    else if MAX_SIZE_PRIMITIVE <? zlen s + 4 then UB OOBWrite
    else Ok (TPRI (DQ :: s ++ [DQ]), mkLexer (cur_ptr lx) (cur_ptr lx + 1) (p' + 1))).
  { intros Hm. rewrite (string_start buf pre w s (bl ++ r)) by auto. unfold string_end.
    rewrite (string_sub buf (pre ++ w) s (bl ++ r)).
    - cbn [bind]. rewrite (skip_blanks_run bl buf (pre ++ w ++ DQ :: s ++ [DQ]) r).
      + cbn [bind]. rewrite (peek_hd buf (pre ++ w ++ DQ :: s ++ DQ :: bl) r).
        * cbn [bind]. reflexivity.
        * rewrite Hb. leq.
        * zl.
      + exact Hbl.
      + exact Hr.
      + rewrite Hb. leq.
      + zl.
      + pose proof (zlen_nonneg w). pose proof (zlen_nonneg pre). pose proof (zlen_nonneg r).
        rewrite Hb. zl. unfold zlen in *. lia.
    - rewrite Hb. leq.
    - zl.
    - exact Hs1.
    - unfold MAX_PRIMITIVE. lia. }
  destruct (Ascii.eqb (hd_char r) ":"%char).
  - destruct (3998 <? zlen s) eqn:E.
    + destruct Long as [L|L]; [|exact L]. rewrite (Mid L). cbv zeta. unfold strcopy, MAX_SIZE_PRIMITIVE. replace (4000 <? zlen s + 2) with true by lia. reflexivity.
    + rewrite Mid by lia. cbv zeta. unfold strcopy, MAX_SIZE_PRIMITIVE. replace (4000 <? zlen s + 2) with false by lia. cbn [bind]. eauto.
  - destruct (3996 <? zlen s) eqn:E.
    + destruct Long as [L|L]; [|exact L]. rewrite (Mid L). cbv zeta. unfold MAX_SIZE_PRIMITIVE. replace (4000 <? zlen s + 4) with true by lia. reflexivity.
    + rewrite Mid by lia. cbv zeta. unfold MAX_SIZE_PRIMITIVE. replace (4000 <? zlen s + 4) with false by lia. cbn [app]. eauto.
Qed.

(** A string that is never closed is not a token. *)
Lemma scan_open : forall s left n pre x buf lx st tp,
  left = pre ++ x :: repeat BSL n -> x <> BSL ->
  (forall a b, s = a ++ DQ :: b -> Nat.odd (bsl_run n a) = true) ->
  buf = left ++ s ->
  scan (List.length s) buf lx 1 st tp (zlen left) = Ok (TEND, lx).
Proof.
  induction s as [|c s IH]; intros left n pre x buf lx st tp Hl Hx Hs Hb; [reflexivity|].
  cbn [List.length scan]. rewrite (peek_at buf left c s) by auto. cbn [bind].
  assert (Hcont : forall m pre' x', left ++ [c] = pre' ++ x' :: repeat BSL m -> x' <> BSL -> m = (if Ascii.eqb c BSL then S n else O) ->
     scan (List.length s) buf lx 1 st tp (zlen left + 1) = Ok (TEND, lx)).
  { intros m pre' x' He Hx' Hm. replace (zlen left + 1) with (zlen (left ++ [c])) by zl.
    apply (IH (left ++ [c]) m pre' x' buf lx st tp He Hx'); [|rewrite Hb; leq].
    intros a b E. specialize (Hs (c :: a) b). unfold bsl_run in *. cbn [app fold_left] in Hs. rewrite <- Hm in Hs. apply Hs. rewrite E. reflexivity. }
  assert (Hgo : scan (List.length s) buf lx 1 st tp (zlen left + 1) = Ok (TEND, lx)).
  { destruct (Ascii.eqb_spec c BSL) as [->|Hc].
    - apply (Hcont (S n) pre x); auto. rewrite Hl, repeat_snoc. leq.
    - apply (Hcont O left c); auto. }
  destruct (Ascii.eqb_spec c DQ) as [->|_]; [|exact Hgo].
  rewrite (quote_escaped_run buf pre x n (DQ :: s)); [|rewrite Hb, Hl; leq|exact Hx|rewrite Hl; zl].
  cbn [bind]. specialize (Hs [] s eq_refl). cbn in Hs. rewrite Hs. exact Hgo.
Qed.

Theorem open_string buf lx pre w s : buf = pre ++ w ++ [DQ] ++ s -> nxt lx = zlen pre -> ws w = true -> quotes_escaped s ->
  nextToken buf lx = Ok (TEND, lx).
Proof.
  intros Hb Hn Hw Hs. cbn [app] in Hb. unfold nextToken. rewrite Hn.
  rewrite (fuel_eq buf pre (w ++ DQ :: s)) by exact Hb. rewrite (scan_ws w buf pre (DQ :: s)) by auto.
  assert (Hp : peek buf (zlen pre + zlen w) = Ok DQ).
  { apply (peek_at buf (pre ++ w) DQ s); [rewrite Hb; leq | zl]. }
  assert (Hgo : forall st tp, scan (List.length (DQ :: s)) buf lx 0 st tp (zlen pre + zlen w) = Ok (TEND, lx)).
  { intros st tp. cbn [List.length scan]. rewrite Hp. cbn [bind].
    change (struct_token DQ) with (@None token). cbn iota. change (Ascii.eqb DQ DQ) with true. cbn iota.
    replace (zlen pre + zlen w + 1) with (zlen (pre ++ w ++ [DQ])) by zl.
    apply (scan_open s (pre ++ w ++ [DQ]) 0 (pre ++ w) DQ).
    - leq.
    - discriminate.
    - exact Hs.
    - rewrite Hb. leq. }
  destruct w as [|c w].
  - rewrite zlen_nil, Z.add_0_r in *. apply Hgo.
  - apply Hgo.
Qed.

(** Every text after an opening quote is of one of the two kinds. *)
Lemma string_or_open : forall s, (exists a b, s = a ++ [DQ] ++ b /\ quotes_escaped a /\ Nat.odd (trailing_bsl a) = false) \/ quotes_escaped s.
Proof.
  assert (G : forall s n, (exists a b, s = a ++ DQ :: b /\ (forall a1 b1, a = a1 ++ DQ :: b1 -> Nat.odd (bsl_run n a1) = true) /\ Nat.odd (bsl_run n a) = false)
     \/ (forall a b, s = a ++ DQ :: b -> Nat.odd (bsl_run n a) = true)).
  { induction s as [|c s IH]; intros n; [right; intros [|] b; discriminate|].
    destruct (Ascii.eqb_spec c DQ) as [Ec|Ec].
    - destruct (Nat.odd n) eqn:Eo.
      + destruct (IH O) as [(a & b & -> & H1 & H2)|H].
        * left. exists (c :: a), b. split; [reflexivity|]. subst c. split; [|exact H2].
          intros [|x a1] b1 E; [exact Eo|]. cbn in E. inversion E. subst. eapply H1. reflexivity.
        * right. intros [|x a] b E; [exact Eo|]. cbn in E. inversion E. subst. eapply H. reflexivity.
      + left. exists [], s. subst c. split; [reflexivity|]. split; [intros [|] ? ?; discriminate|exact Eo].
    - destruct (IH (if Ascii.eqb c BSL then S n else O)) as [(a & b & -> & H1 & H2)|H].
      + left. exists (c :: a), b. split; [reflexivity|]. split; [|exact H2].
        intros [|x a1] b1 E; cbn in E; inversion E; [congruence|]. subst. eapply H1. reflexivity.
      + right. intros [|x a] b E; cbn in E; inversion E; [congruence|]. subst. eapply H. reflexivity. }
  intros s. exact (G s 0%nat).
Qed.
