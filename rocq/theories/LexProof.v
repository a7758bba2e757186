(** Proofs about the lexer model. *)
From Verif Require Import Base Util Lexer Spec.
Open Scope Z_scope.

Lemma zlen_repeat {A} (x : A) n : zlen (repeat x n) = Z.of_nat n.
Proof. unfold zlen. rewrite repeat_length. reflexivity. Qed.
Global Hint Rewrite @zlen_app @zlen_cons @zlen_nil @zlen_repeat : zl.
Ltac zl := autorewrite with zl in *; try lia.
Ltac clr_bool := repeat match goal with H : @eq bool _ _ |- _ => clear H | H : @eq (option _) _ _ |- _ => clear H end.
Ltac zlc := clr_bool; zl.
Ltac liac := clr_bool; lia.
Ltac leq := repeat rewrite <- app_assoc; simpl; repeat rewrite <- app_assoc; reflexivity.

(** * Reading *)
Lemma peek_at buf pre c rest p :
  buf = pre ++ c :: rest -> p = zlen pre -> peek buf p = Ok c.
Proof.
  intros -> ->. unfold peek. pose proof (zlen_nonneg pre).
  replace (zlen pre <? 0) with false by lia.
  unfold zlen. rewrite Nat2Z.id, nth_error_app2 by lia.
  rewrite Nat.sub_diag. reflexivity.
Qed.

Lemma peek_end buf p : p = zlen buf -> peek buf p = Ok NUL.
Proof.
  intros ->. unfold peek. pose proof (zlen_nonneg buf).
  replace (zlen buf <? 0) with false by lia.
  unfold zlen at 1. rewrite Nat2Z.id.
  rewrite (proj2 (nth_error_None buf (List.length buf))) by lia.
  rewrite Z.eqb_refl. reflexivity.
Qed.

Definition hd_char (l : bytes) : ascii := match l with c :: _ => c | [] => NUL end.

Lemma peek_hd buf pre rest p :
  buf = pre ++ rest -> p = zlen pre -> peek buf p = Ok (hd_char rest).
Proof.
  intros -> ->. destruct rest as [|c r].
  - apply peek_end. rewrite app_nil_r. reflexivity.
  - eapply peek_at; reflexivity.
Qed.

Lemma read_range_at buf pre s rest from :
  buf = pre ++ s ++ rest -> from = zlen pre ->
  read_range buf from (zlen s) = Ok s.
Proof.
  intros -> ->. unfold read_range. pose proof (zlen_nonneg pre). pose proof (zlen_nonneg s).
  destruct (Z.leb_spec (zlen s) 0) as [Hs|Hs].
  - destruct s; [reflexivity|]. rewrite zlen_cons in Hs. pose proof (zlen_nonneg s). lia.
  - replace ((zlen pre <? 0) || _) with false.
    + unfold zlen. rewrite !Nat2Z.id.
      rewrite <- !app_assoc. rewrite skipn_app, skipn_all, Nat.sub_diag. simpl.
      rewrite firstn_app, firstn_all, Nat.sub_diag. simpl. rewrite app_nil_r. reflexivity.
    + pose proof (zlen_nonneg rest). zl.
Qed.

Lemma skipn_zlen (pre rest : bytes) : skipn (Z.to_nat (zlen pre)) (pre ++ rest) = rest.
Proof.
  unfold zlen. rewrite Nat2Z.id, skipn_app, skipn_all, Nat.sub_diag. reflexivity.
Qed.

Lemma ltrim_at buf pre c rest p :
  buf = pre ++ c :: rest -> p = zlen pre -> c <> " "%char -> ltrim buf p = p.
Proof.
  intros -> -> Hc. unfold ltrim. rewrite skipn_zlen. simpl.
  destruct (Ascii.eqb_spec c " "%char); [contradiction|]. lia.
Qed.

Lemma fuel_eq buf (pre l : bytes) : buf = pre ++ l ->
  Z.to_nat (zlen buf - zlen pre) = List.length l.
Proof. intros ->. rewrite zlen_app. unfold zlen. lia. Qed.

(** * Character classes *)
Lemma ws_char_cases c : ws_char c = true ->
  c = " "%char \/ c = TAB \/ c = LF \/ c = CR.
Proof.
  unfold ws_char. rewrite !orb_true_iff, !Ascii.eqb_eq. tauto.
Qed.

Lemma str_body_no_nul : forall s e, str_body e s = true -> no_nul s.
Proof.
  induction s as [|c s IH]; intros e H; unfold no_nul in *; simpl; [tauto|].
  simpl in H. apply andb_true_iff in H as [Hn H].
  intros [Hc|Hin].
  - subst c. discriminate.
  - destruct e; [eapply IH; eauto|].
    destruct (Ascii.eqb c BSL); [eapply IH; eauto|].
    apply andb_true_iff in H as [_ H]. eapply IH; eauto.
Qed.

(** * Whitespace *)
Lemma scan_ws : forall w buf pre rest lx st tp,
  ws w = true -> buf = pre ++ w ++ rest ->
  scan (List.length (w ++ rest)) buf lx 0 st tp (zlen pre) =
  match w with
  | [] => scan (List.length rest) buf lx 0 st tp (zlen pre)
  | _ => scan (List.length rest) buf lx 0 (zlen pre + zlen w) (zlen pre + zlen w) (zlen pre + zlen w)
  end.
Proof.
  induction w as [|c w IH]; intros buf pre rest lx st tp Hw Hb; [reflexivity|].
  simpl in Hw. apply andb_true_iff in Hw as [Hc Hw].
  assert (Hstep : scan (List.length ((c :: w) ++ rest)) buf lx 0 st tp (zlen pre)
          = scan (List.length (w ++ rest)) buf lx 0 (zlen pre + 1) (zlen pre + 1) (zlen pre + 1)).
  { cbn [app List.length scan].
    rewrite (peek_at buf pre c (w ++ rest)) by (auto; rewrite Hb; leq). cbn [bind].
    apply ws_char_cases in Hc as [Hc|[Hc|[Hc|Hc]]]; subst c; reflexivity. }
  rewrite Hstep.
  replace (zlen pre + 1) with (zlen (pre ++ [c])) by zl.
  rewrite IH; [|exact Hw|rewrite Hb; leq].
  destruct w as [|c' w'].
  - f_equal; zl.
  - f_equal; zl.
Qed.

(** * Structural tokens *)
Lemma next_struct buf lx pre w c rest t q :
  buf = pre ++ w ++ c :: rest -> nxt lx = zlen pre -> ws w = true ->
  struct_token c = Some t -> q = zlen pre + zlen w + 1 ->
  nextToken buf lx = Ok (t, mkLexer q q q).
Proof.
  intros Hb Hn Hw Ht ->. unfold nextToken. rewrite Hn.
  rewrite (fuel_eq buf pre (w ++ c :: rest)) by exact Hb.
  rewrite (scan_ws w buf pre (c :: rest)) by auto.
  assert (Hp : peek buf (zlen pre + zlen w) = Ok c).
  { apply (peek_at buf (pre ++ w) c rest); [rewrite Hb; leq | zl]. }
  destruct w as [|c' w'].
  - cbn [List.length scan]. rewrite zlen_nil, Z.add_0_r in *. rewrite Hp. cbn [bind]. rewrite Ht.
    reflexivity.
  - cbn [List.length scan]. rewrite Hp. cbn [bind]. rewrite Ht. reflexivity.
Qed.

Lemma next_end buf lx pre w :
  buf = pre ++ w -> nxt lx = zlen pre -> ws w = true ->
  nextToken buf lx = Ok (TEND, lx).
Proof.
  intros Hb Hn Hw. unfold nextToken. rewrite Hn.
  rewrite (fuel_eq buf pre (w ++ [])) by (rewrite app_nil_r; exact Hb).
  rewrite (scan_ws w buf pre []) by (auto; rewrite app_nil_r; auto).
  destruct w; reflexivity.
Qed.

(** * Strings *)
Lemma repeat_snoc {A} (x : A) n : repeat x (S n) = repeat x n ++ [x].
Proof. induction n as [|n IH]; [reflexivity|]. simpl in *. rewrite <- IH. reflexivity. Qed.

Lemma count_bsl_run : forall n fuel buf pre x rest,
  (n < fuel)%nat -> x <> BSL -> buf = pre ++ x :: repeat BSL n ++ rest ->
  count_bsl fuel buf (zlen pre + Z.of_nat n) = Ok n.
Proof.
  induction n as [|n IH]; intros fuel buf pre x rest Hf Hx Hb;
    destruct fuel as [|f]; try lia; cbn [count_bsl].
  - rewrite (peek_at buf pre x rest) by (auto; lia). cbn [bind].
    destruct (Ascii.eqb_spec x BSL); [contradiction|reflexivity].
  - rewrite repeat_snoc in Hb.
    rewrite (peek_at buf (pre ++ x :: repeat BSL n) BSL rest).
    + cbn [bind]. change (Ascii.eqb BSL BSL) with true. cbn iota.
      replace (zlen pre + Z.of_nat (S n) - 1) with (zlen pre + Z.of_nat n) by lia.
      rewrite (IH f buf pre x (BSL :: rest)); [reflexivity|lia|exact Hx|rewrite Hb; leq].
    + rewrite Hb. leq.
    + zl.
Qed.

Lemma quote_escaped_run buf pre x n rest p :
  buf = pre ++ x :: repeat BSL n ++ rest -> x <> BSL ->
  p = zlen pre + 1 + Z.of_nat n ->
  quote_escaped buf p = Ok (Nat.odd n).
Proof.
  intros Hb Hx ->. unfold quote_escaped. pose proof (zlen_nonneg pre).
  destruct n as [|n].
  - rewrite (peek_at buf pre x rest) by (auto; lia). cbn [bind].
    destruct (Ascii.eqb_spec x BSL); [contradiction|reflexivity].
  - rewrite (peek_at buf (pre ++ x :: repeat BSL n) BSL rest).
    + cbn [bind]. change (Ascii.eqb BSL BSL) with true. cbn iota.
      replace (zlen pre + 1 + Z.of_nat (S n) - 2) with (zlen pre + Z.of_nat n) by lia.
      rewrite (count_bsl_run n _ buf pre x (BSL :: rest)).
      * reflexivity.
      * lia.
      * exact Hx.
      * rewrite Hb, repeat_snoc. leq.
    + rewrite Hb, repeat_snoc. leq.
    + zl.
Qed.

(** [endq left]: the backslash run at the end of [left]. *)
Lemma scan_str : forall s left n pre x rest buf lx st tp,
  left = pre ++ x :: repeat BSL n -> x <> BSL ->
  str_body (Nat.odd n) s = true ->
  buf = left ++ s ++ DQ :: rest ->
  scan (List.length (s ++ DQ :: rest)) buf lx 1 st tp (zlen left)
  = string_end buf lx st (zlen left + zlen s).
Proof.
  induction s as [|c s IH]; intros left n pre x rest buf lx st tp Hl Hx Hs Hb.
  - cbn [app List.length scan].
    rewrite (peek_at buf left DQ rest) by (auto; rewrite Hb; leq). cbn [bind].
    change (Ascii.eqb DQ DQ) with true. cbn iota.
    rewrite (quote_escaped_run buf pre x n (DQ :: rest)).
    + cbn [bind]. simpl in Hs. apply negb_true_iff in Hs. rewrite Hs.
      f_equal. zl.
    + rewrite Hb, Hl. leq.
    + exact Hx.
    + rewrite Hl. zl.
  - cbn [app List.length scan].
    rewrite (peek_at buf left c (s ++ DQ :: rest)) by (auto; rewrite Hb; leq). cbn [bind].
    assert (Hq : quote_escaped buf (zlen left) = Ok (Nat.odd n)).
    { apply (quote_escaped_run buf pre x n (c :: s ++ DQ :: rest)).
      - rewrite Hb, Hl. leq.
      - exact Hx.
      - rewrite Hl. zl. }
    assert (Hcont : forall m pre' x', left ++ [c] = pre' ++ x' :: repeat BSL m -> x' <> BSL ->
              str_body (Nat.odd m) s = true ->
              scan (List.length (s ++ DQ :: rest)) buf lx 1 st tp (zlen left + 1)
              = string_end buf lx st (zlen left + zlen (c :: s))).
    { intros m pre' x' He Hx' Hs'.
      replace (zlen left + 1) with (zlen (left ++ [c])) by zl.
      rewrite (IH (left ++ [c]) m pre' x' rest buf lx st tp He Hx' Hs').
      - f_equal. zl.
      - rewrite Hb. leq. }
    simpl in Hs. apply andb_true_iff in Hs as [_ Hs].
    assert (Hbsl : c = BSL -> str_body (Nat.odd (S n)) s = true ->
              scan (List.length (s ++ DQ :: rest)) buf lx 1 st tp (zlen left + 1)
              = string_end buf lx st (zlen left + zlen (c :: s))).
    { intros -> Hs'. eapply (Hcont (S n) pre x); auto.
      rewrite Hl, repeat_snoc. leq. }
    assert (Hnb : c <> BSL -> str_body false s = true ->
              scan (List.length (s ++ DQ :: rest)) buf lx 1 st tp (zlen left + 1)
              = string_end buf lx st (zlen left + zlen (c :: s))).
    { intros Hc Hs'. eapply (Hcont 0%nat left c); auto. }
    destruct (Nat.odd n) eqn:Eo.
    + (* escaped character *)
      assert (Hgo : scan (List.length (s ++ DQ :: rest)) buf lx 1 st tp (zlen left + 1)
              = string_end buf lx st (zlen left + zlen (c :: s))).
      { destruct (Ascii.eqb_spec c BSL) as [Ec|Ec].
        - apply Hbsl; auto. rewrite Nat.odd_succ.
          rewrite <- Nat.negb_odd, Eo. exact Hs.
        - apply Hnb; auto. }
      destruct (Ascii.eqb c DQ); [rewrite Hq; cbn [bind]|]; exact Hgo.
    + destruct (Ascii.eqb_spec c BSL) as [Ec|Ec].
      * subst c. change (Ascii.eqb BSL DQ) with false. cbn iota.
        apply Hbsl; auto. rewrite Nat.odd_succ, <- Nat.negb_odd, Eo. exact Hs.
      * apply andb_true_iff in Hs as [Hd Hs].
        apply negb_true_iff in Hd. rewrite Hd. apply Hnb; auto.
Qed.

Lemma skip_blanks_run : forall bl buf left rest fuel p,
  forallb blank_char bl = true -> blank_char (hd_char rest) = false ->
  buf = left ++ bl ++ rest -> p + 1 = zlen left ->
  (List.length bl < fuel)%nat ->
  skip_blanks fuel buf p = Ok (p + zlen bl).
Proof.
  induction bl as [|c bl IH]; intros buf left rest fuel p Hbl Hr Hb Hp Hf;
    destruct fuel as [|f]; try (simpl in Hf; lia); cbn [skip_blanks].
  - rewrite (peek_hd buf left rest) by auto. cbn [bind].
    unfold blank_char in Hr. rewrite Hr. f_equal. zl.
  - simpl in Hbl. apply andb_true_iff in Hbl as [Hc Hbl].
    rewrite (peek_at buf left c (bl ++ rest)) by (auto; rewrite Hb; leq). cbn [bind].
    unfold blank_char in Hc. rewrite Hc.
    rewrite (IH buf (left ++ [c]) rest f (p + 1)); auto.
    + f_equal. zl.
    + rewrite Hb. leq.
    + zl.
    + simpl in Hf. lia.
Qed.

Lemma string_start buf pre w s rest lx :
  buf = pre ++ w ++ DQ :: s ++ DQ :: rest -> nxt lx = zlen pre -> ws w = true ->
  str_body false s = true ->
  nextToken buf lx =
  string_end buf lx (zlen pre + zlen w) (zlen pre + zlen w + 1 + zlen s).
Proof.
  intros Hb Hn Hw Hs. unfold nextToken. rewrite Hn.
  rewrite (fuel_eq buf pre (w ++ DQ :: s ++ DQ :: rest)) by exact Hb.
  rewrite (scan_ws w buf pre (DQ :: s ++ DQ :: rest)) by auto.
  assert (Hp : peek buf (zlen pre + zlen w) = Ok DQ).
  { apply (peek_at buf (pre ++ w) DQ (s ++ DQ :: rest)); [rewrite Hb; leq | zl]. }
  assert (Hgo : forall st tp, scan (List.length (DQ :: s ++ DQ :: rest)) buf lx 0 st tp (zlen pre + zlen w)
      = string_end buf lx (zlen pre + zlen w) (zlen pre + zlen w + 1 + zlen s)).
  { intros st tp. cbn [List.length scan]. rewrite Hp. cbn [bind].
    change (struct_token DQ) with (@None token). cbn iota.
    change (Ascii.eqb DQ DQ) with true. cbn iota.
    replace (zlen pre + zlen w + 1) with (zlen (pre ++ w ++ [DQ])) by zl.
    apply (scan_str s (pre ++ w ++ [DQ]) 0 (pre ++ w) DQ rest).
    - leq.
    - discriminate.
    - exact Hs.
    - rewrite Hb. leq. }
  destruct w as [|c w].
  - rewrite zlen_nil, Z.add_0_r in *. apply Hgo.
  - apply Hgo.
Qed.

Lemma string_sub buf pre s rest start cap :
  buf = pre ++ DQ :: s ++ DQ :: rest -> start = zlen pre -> no_nul s ->
  zlen s + 1 <= cap ->
  substring_in_place cap buf start 1 (start + 1 + zlen s - start) = Ok s.
Proof.
  intros Hb Hst Hn Hc. unfold substring_in_place.
  rewrite (ltrim_at buf pre DQ (s ++ DQ :: rest)) by (auto; discriminate).
  pose proof (zlen_nonneg s).
  replace (Z.max 0 (start + 1 + zlen s - start - 1)) with (zlen s) by lia.
  replace (cap <? zlen s + 1) with false by lia.
  rewrite (read_range_at buf (pre ++ [DQ]) s (DQ :: rest)).
  - cbn [bind]. rewrite c_string_id by exact Hn. reflexivity.
  - rewrite Hb. leq.
  - zl.
Qed.

Lemma next_key buf lx pre w s bl rest q :
  buf = pre ++ w ++ DQ :: s ++ DQ :: bl ++ ":"%char :: rest ->
  nxt lx = zlen pre -> ws w = true -> str_body false s = true ->
  zlen s <= max_key -> forallb blank_char bl = true ->
  q = zlen pre + zlen w + 2 + zlen s + zlen bl ->
  nextToken buf lx = Ok (TKY s, mkLexer q (cur_ptr lx + 1) (q + 1)).
Proof.
  intros Hb Hn Hw Hs Hk Hbl ->.
  rewrite (string_start buf pre w s (bl ++ ":"%char :: rest)) by auto.
  unfold string_end, max_key in *.
  rewrite (string_sub buf (pre ++ w) s (bl ++ ":"%char :: rest)).
  - cbn [bind].
    rewrite (skip_blanks_run bl buf (pre ++ w ++ DQ :: s ++ [DQ]) (":"%char :: rest)).
    + cbn [bind].
      rewrite (peek_at buf (pre ++ w ++ DQ :: s ++ DQ :: bl) ":"%char rest).
      * cbn [bind]. change (Ascii.eqb ":" ":") with true. cbn iota.
        unfold strcopy, MAX_SIZE_PRIMITIVE.
        replace (4000 <? zlen s + 2) with false by lia. cbn [bind].
        do 3 f_equal; lia.
      * rewrite Hb. leq.
      * zl.
    + exact Hbl.
    + reflexivity.
    + rewrite Hb. leq.
    + zl.
    + pose proof (zlen_nonneg w). pose proof (zlen_nonneg pre).
      rewrite Hb. zl. unfold zlen. lia.
  - rewrite Hb. leq.
  - zl.
  - eapply str_body_no_nul; eauto.
  - unfold MAX_PRIMITIVE. lia.
Qed.

Lemma next_string buf lx pre w s bl rest :
  buf = pre ++ w ++ DQ :: s ++ DQ :: bl ++ rest ->
  nxt lx = zlen pre -> ws w = true -> str_body false s = true ->
  zlen s <= max_str -> forallb blank_char bl = true ->
  blank_char (hd_char rest) = false -> hd_char rest <> ":"%char ->
  nextToken buf lx =
  Ok (TPRI (DQ :: s ++ [DQ]),
      mkLexer (cur_ptr lx) (cur_ptr lx + 1) (zlen pre + zlen w + 2 + zlen s + zlen bl)).
Proof.
  intros Hb Hn Hw Hs Hk Hbl Hr Hc.
  rewrite (string_start buf pre w s (bl ++ rest)) by auto.
  unfold string_end, max_str in *.
  rewrite (string_sub buf (pre ++ w) s (bl ++ rest)).
  - cbn [bind].
    rewrite (skip_blanks_run bl buf (pre ++ w ++ DQ :: s ++ [DQ]) rest).
    + cbn [bind].
      rewrite (peek_hd buf (pre ++ w ++ DQ :: s ++ DQ :: bl) rest).
      * cbn [bind]. destruct (Ascii.eqb_spec (hd_char rest) ":"%char); [contradiction|].
        unfold MAX_SIZE_PRIMITIVE.
        replace (4000 <? zlen s + 4) with false by lia.
        do 3 f_equal; lia.
      * rewrite Hb. leq.
      * zl.
    + exact Hbl.
    + exact Hr.
    + rewrite Hb. leq.
    + zl.
    + pose proof (zlen_nonneg w). pose proof (zlen_nonneg pre). pose proof (zlen_nonneg rest).
      rewrite Hb. zl. unfold zlen in *. lia.
  - rewrite Hb. leq.
  - zl.
  - eapply str_body_no_nul; eauto.
  - unfold MAX_PRIMITIVE. lia.
Qed.

(** * Bare primitives *)
Lemma scan_bare : forall s buf left d rest lx st tp,
  forallb (fun c => negb (is_delim c)) s = true -> is_delim d = true ->
  buf = left ++ s ++ d :: rest ->
  scan (List.length (s ++ d :: rest)) buf lx 2 st tp (zlen left)
  = bare_end buf st tp (zlen left + zlen s).
Proof.
  induction s as [|c s IH]; intros buf left d rest lx st tp Hs Hd Hb.
  - cbn [app List.length scan].
    rewrite (peek_at buf left d rest) by (auto; rewrite Hb; leq). cbn [bind].
    rewrite Hd. f_equal. zl.
  - simpl in Hs. apply andb_true_iff in Hs as [Hc Hs]. apply negb_true_iff in Hc.
    cbn [app List.length scan].
    rewrite (peek_at buf left c (s ++ d :: rest)) by (auto; rewrite Hb; leq). cbn [bind].
    rewrite Hc.
    replace (zlen left + 1) with (zlen (left ++ [c])) by zl.
    rewrite (IH buf (left ++ [c]) d rest) by (auto; rewrite Hb; leq).
    f_equal. zl.
Qed.

Lemma byte_all (P : ascii -> bool) : (forall b1 b2 b3 b4 b5 b6 b7 b8, P (Ascii b1 b2 b3 b4 b5 b6 b7 b8) = true) ->
  forall c, P c = true.
Proof. intros H [b1 b2 b3 b4 b5 b6 b7 b8]. apply H. Qed.

Ltac bytes_case := intros [[][][][][][][][]]; vm_compute; try reflexivity; try congruence; try (intros; congruence).

Lemma bare_char_not_delim : forall c, bare_char c = true -> is_delim c = false.
Proof. bytes_case. Qed.
Lemma bare_char_alnum : forall c, bare_char c = true ->
  (Ascii.eqb c "-"%char || Ascii.eqb c "+"%char || Ascii.eqb c "."%char) = false -> is_alnum c = true.
Proof. bytes_case. Qed.
Lemma alnum_scan : forall c, is_alnum c = true ->
  struct_token c = None /\ Ascii.eqb c DQ = false /\ (Ascii.eqb c " "%char || Ascii.eqb c TAB) = false.
Proof. intros [[][][][][][][][]]; vm_compute; intros; repeat split; congruence. Qed.
Lemma bare_char_no_nul : forall c, bare_char c = true -> c <> NUL.
Proof. bytes_case. Qed.
Lemma bare_char_no_comma : forall c, bare_char c = true -> Ascii.eqb c ","%char = false.
Proof. bytes_case. Qed.
Lemma bare_char_no_blank : forall c, bare_char c = true -> c <> " "%char.
Proof. bytes_case. Qed.

Lemma bare_word_no_nul s : forallb bare_char s = true -> no_nul s.
Proof.
  intros H Hin. rewrite forallb_forall in H. apply (bare_char_no_nul NUL); auto.
Qed.

(** [gap]: distance between [current_pointer] and [next_start]; it only matters
    when no whitespace precedes the value. *)
Lemma next_bare buf lx pre w s d rest :
  buf = pre ++ w ++ s ++ d :: rest ->
  nxt lx = zlen pre -> ws w = true ->
  bare_word s = true -> unsigned_word s = true -> zlen s <= max_bare ->
  is_delim d = true ->
  (w <> [] \/ cur_ptr lx = nxt lx \/ (cur_ptr lx = nxt lx - 1 /\ d = ","%char)) ->
  let p := zlen pre + zlen w + zlen s in
  nextToken buf lx = Ok (TPRI s, mkLexer (p + 1) (p + 2) p).
Proof.
  intros Hb Hn Hw Hbw Hu Hl Hd Hgap p.
  destruct s as [|c s]; [discriminate|].
  simpl in Hu, Hbw. apply negb_true_iff in Hu.
  assert (Hall : forallb bare_char (c :: s) = true) by exact Hbw.
  apply andb_true_iff in Hbw as [Hc Hs].
  pose proof (bare_char_alnum c Hc Hu) as Hal.
  destruct (alnum_scan c Hal) as (Hst & Hdq & Hbl).
  assert (Hnd : forallb (fun c => negb (is_delim c)) s = true).
  { rewrite forallb_forall in *. intros x Hx.
    apply negb_true_iff, bare_char_not_delim, Hs, Hx. }
  unfold nextToken. rewrite Hn.
  rewrite (fuel_eq buf pre (w ++ (c :: s) ++ d :: rest)) by exact Hb.
  rewrite (scan_ws w buf pre ((c :: s) ++ d :: rest)) by auto.
  assert (Hp : peek buf (zlen pre + zlen w) = Ok c).
  { apply (peek_at buf (pre ++ w) c (s ++ d :: rest)); [rewrite Hb; leq | zlc]. }
  assert (Hgo : forall st, scan (List.length ((c :: s) ++ d :: rest)) buf lx 0 st
                  (zlen pre + zlen w) (zlen pre + zlen w)
                = bare_end buf st (zlen pre + zlen w) p).
  { intros st. cbn [List.length app scan]. rewrite Hp. cbn [bind].
    rewrite Hst, Hdq, Hbl, Hal.
    replace (zlen pre + zlen w + 1) with (zlen (pre ++ w ++ [c])) by zlc.
    rewrite (scan_bare s buf (pre ++ w ++ [c]) d rest) by (auto; rewrite Hb; leq).
    f_equal. unfold p. zlc. }
  assert (Hsub : substring_in_place MAX_PRIMITIVE buf (zlen pre + zlen w) 0 (zlen (c :: s)) = Ok (c :: s)).
  { unfold substring_in_place, MAX_PRIMITIVE, max_bare in *. pose proof (zlen_nonneg (c :: s)).
    rewrite (ltrim_at buf (pre ++ w) c (s ++ d :: rest)).
    2: rewrite Hb; leq. 2: zlc. 2: apply bare_char_no_blank; exact Hc.
    rewrite Z.max_r by liac. rewrite Z.sub_0_r, Z.add_0_r.
    replace (40000 <? zlen (c :: s) + 1) with false by liac.
    rewrite (read_range_at buf (pre ++ w) (c :: s) (d :: rest)).
    - cbn [bind]. rewrite c_string_id; [reflexivity|]. apply bare_word_no_nul. exact Hall.
    - rewrite Hb. leq.
    - zlc. }
  assert (Hcopy : strcopy MAX_SIZE_PRIMITIVE (c :: s) = Ok (c :: s)).
  { unfold strcopy, MAX_SIZE_PRIMITIVE, max_bare in *.
    replace (4000 <? zlen (c :: s) + 2) with false by liac. reflexivity. }
  assert (Hexact : bare_end buf (zlen pre + zlen w) (zlen pre + zlen w) p
                   = Ok (TPRI (c :: s), mkLexer (p + 1) (p + 2) p)).
  { unfold bare_end.
    replace (p - (zlen pre + zlen w)) with (zlen (c :: s)) by (unfold p; liac).
    assert (Hlast : exists s' z, c :: s = s' ++ [z]).
    { destruct (exists_last (l := c :: s)) as (s' & z & Hz); [discriminate|]. eauto. }
    destruct Hlast as (s' & z & Hz).
    assert (Hzb : bare_char z = true).
    { rewrite forallb_forall in Hall. apply Hall. rewrite Hz. apply in_or_app. right. left. reflexivity. }
    rewrite (peek_at buf (pre ++ w ++ s') z (d :: rest)).
    - cbn [bind]. rewrite (bare_char_no_comma z Hzb), Hsub. cbn [bind].
      rewrite Hcopy. reflexivity.
    - rewrite Hb, Hz. leq.
    - rewrite Hz. zlc. }
  destruct w as [|cw w].
  - rewrite zlen_nil, Z.add_0_r in *.
    rewrite Hgo. destruct Hgap as [Hg|[Hg|[Hg ->]]].
    + congruence.
    + rewrite Hg, Hn. exact Hexact.
    + rewrite Hg, Hn. unfold bare_end.
      replace (p - (zlen pre - 1)) with (zlen (c :: s) + 1) by (unfold p; zlc).
      rewrite (peek_at buf (pre ++ c :: s) ","%char rest).
      * cbn [bind]. change (Ascii.eqb "," ",") with true. cbn iota.
        replace (zlen (c :: s) + 1 - 1) with (zlen (c :: s)) by liac.
        rewrite Hsub. cbn [bind]. rewrite Hcopy. reflexivity.
      * rewrite Hb. leq.
      * zlc.
  - rewrite Hgo. exact Hexact.
Qed.
