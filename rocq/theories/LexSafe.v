(** The lexer on arbitrary bytes (C16). *)
From Verif Require Import Base Util Spec Lexer LexProof LexSpec LexClaim MalSpec.
Open Scope Z_scope.

Ltac lapp := repeat (progress (cbn [app]; rewrite <- ?app_assoc)); reflexivity.
Lemma c_string_len l : zlen (c_string l) <= zlen l.
Proof. induction l as [|c l IH]; [reflexivity|]. cbn [c_string]. destruct (Ascii.eqb c NUL); rewrite ?zlen_cons, ?zlen_nil; pose proof (zlen_nonneg l); lia. Qed.

Lemma letter_alnum c : letter_or_digit c = is_alnum c.
Proof. unfold letter_or_digit, is_alnum. cbv zeta. repeat match goal with |- context [Nat.leb ?a ?b] => destruct (Nat.leb a b) end; reflexivity. Qed.
Lemma ends_delim c : ends_word c = is_delim c.
Proof. unfold ends_word, is_delim. cbn [existsb]. rewrite orb_false_r, !orb_assoc. reflexivity. Qed.

(** A string ends within the limit, or never. *)
Lemma lexable_string : forall s n k, no_nul s -> lexable (Inside k (Nat.odd n)) s = true ->
  (exists a b, s = a ++ DQ :: b /\ str_body (Nat.odd n) a = true /\ k + zlen a <= 3996 /\ lexable Behind b = true) \/
  (forall a b, s = a ++ DQ :: b -> Nat.odd (bsl_run n a) = true).
Proof.
  induction s as [|c s IH]; intros n k Hn H; [right; intros [|] b; discriminate|].
  assert (Hc : Ascii.eqb c NUL = false). { apply Ascii.eqb_neq. intros ->. apply (Hn). left. reflexivity. }
  assert (Hn' : no_nul s) by (intros Hi; apply Hn; right; exact Hi).
  cbn [lexable] in H. destruct (Nat.odd n) eqn:Eo.
  - assert (G : exists m, Nat.odd m = false /\ m = (if Ascii.eqb c BSL then S n else O)).
    { eexists. split; [|reflexivity]. destruct (Ascii.eqb c BSL); [rewrite Nat.odd_succ, <- Nat.negb_odd, Eo; reflexivity|reflexivity]. }
    destruct G as (m & Em & Hm). rewrite <- Em in H. destruct (IH m (k + 1) Hn' H) as [(a & b & -> & H1 & H2 & H3)|G].
    + left. exists (c :: a), b. split; [reflexivity|]. cbn [str_body]. rewrite Hc. rewrite Em in H1. split; [exact H1|]. split; [rewrite zlen_cons; lia|exact H3].
    + right. intros [|x a] b E; [exact Eo|]. injection E as -> E. unfold bsl_run. cbn [fold_left]. rewrite <- Hm. apply (G a b E).
  - destruct (Ascii.eqb_spec c DQ) as [->|Ed].
    + apply andb_true_iff in H as [H1 H2]. left. exists [], s. split; [reflexivity|]. split; [reflexivity|]. split; [rewrite zlen_nil; lia|exact H2].
    + assert (G : exists m, Nat.odd m = Ascii.eqb c BSL /\ m = (if Ascii.eqb c BSL then S n else O)).
      { eexists. split; [|reflexivity]. destruct (Ascii.eqb c BSL); [rewrite Nat.odd_succ, <- Nat.negb_odd, Eo; reflexivity|reflexivity]. }
      destruct G as (m & Em & Hm). rewrite <- Em in H. destruct (IH m (k + 1) Hn' H) as [(a & b & -> & H1 & H2 & H3)|G].
      * left. exists (c :: a), b. split; [reflexivity|]. cbn [str_body]. rewrite Hc. cbn [negb andb]. rewrite Em in H1. apply Ascii.eqb_neq in Ed. rewrite Ed. cbn [negb andb].
        split; [destruct (Ascii.eqb c BSL); exact H1|]. split; [rewrite zlen_cons; lia|exact H3].
      * right. intros [|x a] b E; [injection E as E1 _; congruence|]. injection E as -> E. unfold bsl_run. cbn [fold_left]. rewrite <- Hm. apply (G a b E).
Qed.

(** A word ends within the limit, or never. *)
Lemma lexable_word : forall s k, lexable (Word k) s = true ->
  (exists a d b, s = a ++ d :: b /\ forallb (fun c => negb (is_delim c)) a = true /\ is_delim d = true /\ k + zlen a <= 3996 /\ lexable Between b = true) \/
  forallb (fun c => negb (is_delim c)) s = true.
Proof.
  induction s as [|c s IH]; intros k H; [right; reflexivity|]. cbn [lexable] in H. rewrite ends_delim in H. destruct (is_delim c) eqn:Ec.
  - apply andb_true_iff in H as [H1 H2]. left. exists [], c, s. repeat split; auto. rewrite zlen_nil. lia.
  - destruct (IH _ H) as [(a & d & b & -> & H1 & H2 & H3 & H4)|G].
    + left. exists (c :: a), d, b. split; [reflexivity|]. cbn [forallb]. rewrite Ec. repeat split; auto. rewrite zlen_cons. lia.
    + right. cbn [forallb]. rewrite Ec. exact G.
Qed.
Lemma scan_word_open : forall s buf left lx st tp, forallb (fun c => negb (is_delim c)) s = true -> buf = left ++ s ->
  scan (List.length s) buf lx 2 st tp (zlen left) = Ok (TEND, lx).
Proof.
  induction s as [|c s IH]; intros buf left lx st tp Hs Hb; [reflexivity|]. cbn [forallb] in Hs. apply andb_true_iff in Hs as [Hc Hs]. apply negb_true_iff in Hc.
  cbn [List.length scan]. rewrite (peek_at buf left c s) by auto. cbn [bind]. rewrite Hc. replace (zlen left + 1) with (zlen (left ++ [c])) by zl.
  apply IH; [exact Hs|]. rewrite Hb. lapp.
Qed.

(** Behind a string: blanks, then something that starts no word. *)
Lemma lexable_behind : forall b, lexable Behind b = true -> exists bl r, b = bl ++ r /\ forallb blank_char bl = true /\ blank_char (hd_char r) = false /\
  lexable Between r = true /\ is_alnum (hd_char r) = false.
Proof.
  induction b as [|c b IH]; intros H; [exists [], []; repeat split; reflexivity|]. cbn [lexable] in H.
  destruct (Ascii.eqb c " "%char || Ascii.eqb c TAB) eqn:Eb.
  - destruct (IH H) as (bl & r & -> & H1 & H2). exists (c :: bl), r. cbn [forallb]. unfold blank_char at 1. rewrite Eb. split; [reflexivity|]. split; [exact H1|exact H2].
  - apply andb_true_iff in H as [H1 H2]. apply negb_true_iff in H1. exists [], (c :: b). split; [reflexivity|]. split; [reflexivity|]. split; [exact Eb|].
    cbn [hd_char lexable]. rewrite H1. split; [exact H2|]. rewrite <- letter_alnum. exact H1.
Qed.

(** What the lexer needs of its fields before a token. *)
Definition sound (buf : bytes) (lx : lexer) : Prop := exists pre rest, buf = pre ++ rest /\ nxt lx = zlen pre /\ lexable Between rest = true /\
  (nxt lx - 1 <= cur_ptr lx <= nxt lx \/ is_alnum (hd_char rest) = false).

Lemma string_done buf lx pre a b : no_nul buf -> buf = pre ++ DQ :: a ++ DQ :: b -> str_body false a = true -> zlen a <= 3996 -> lexable Behind b = true ->
  exists t lx', string_end buf lx (zlen pre) (zlen pre + 1 + zlen a) = Ok (t, lx') /\ sound buf lx' /\ zlen pre < nxt lx'.
Proof.
  intros Hn Hb Ha Hk Hl. destruct (lexable_behind b Hl) as (bl & r & -> & H1 & H2 & H3 & H4). pose proof (zlen_nonneg pre). pose proof (zlen_nonneg a). pose proof (zlen_nonneg bl).
  unfold string_end. rewrite (string_sub buf pre a (bl ++ r)); auto; [|eapply str_body_no_nul; eauto|unfold MAX_PRIMITIVE; lia]. cbn [bind].
  rewrite (skip_blanks_run bl buf (pre ++ DQ :: a ++ [DQ]) r); auto; [|rewrite Hb; lapp|zl|rewrite Hb; unfold zlen; rewrite ?app_length; cbn [List.length]; rewrite ?app_length; cbn [List.length]; rewrite ?app_length; lia].
  cbn [bind]. rewrite (peek_hd buf (pre ++ DQ :: a ++ [DQ] ++ bl) r); [|rewrite Hb; lapp|zl]. cbn [bind].
  destruct (Ascii.eqb_spec (hd_char r) ":"%char) as [Ec|Ec].
  - unfold strcopy, MAX_SIZE_PRIMITIVE. replace (4000 <? zlen a + 2) with false by lia. cbn [bind]. do 2 eexists. split; [reflexivity|]. cbn [nxt cur_ptr].
    split; [|lia]. destruct r as [|c r]; [discriminate Ec|]. cbn [hd_char] in Ec. subst c. exists (pre ++ DQ :: a ++ [DQ] ++ bl ++ [":"%char]), r. split; [rewrite Hb; lapp|].
    cbn [nxt cur_ptr]. split; [zl|]. split; [exact H3|]. left. lia.
  - unfold MAX_SIZE_PRIMITIVE. replace (4000 <? zlen a + 4) with false by lia. do 2 eexists. split; [reflexivity|]. cbn [nxt cur_ptr]. split; [|lia].
    exists (pre ++ DQ :: a ++ [DQ] ++ bl), r. split; [rewrite Hb; lapp|]. cbn [nxt]. split; [zl|]. split; [exact H3|]. right. exact H4.
Qed.

Lemma bare_done buf pre a d b st : no_nul buf -> buf = pre ++ a ++ d :: b -> a <> [] -> is_alnum (hd_char a) = true -> forallb (fun c => negb (is_delim c)) a = true -> is_delim d = true -> zlen a <= 3996 ->
  zlen pre - 1 <= st <= zlen pre -> lexable Between b = true ->
  exists t lx', bare_end buf st (zlen pre) (zlen pre + zlen a) = Ok (t, lx') /\ sound buf lx' /\ zlen pre < nxt lx'.
Proof.
  intros Hn Hb Ha Hal Hd Hdd Hk Hs Hl. pose proof (zlen_nonneg pre). assert (Hz : 0 < zlen a) by (destruct a; [contradiction|rewrite zlen_cons; pose proof (zlen_nonneg a0); lia]).
  assert (Hlen : zlen buf = zlen pre + zlen a + 1 + zlen b) by (rewrite Hb; zl). pose proof (zlen_nonneg b).
  assert (Hlt : forall m, 0 <= m <= zlen a + 1 -> exists s, substring_in_place MAX_PRIMITIVE buf (zlen pre) 0 m = Ok s /\ zlen s <= m).
  { intros m Hm. unfold substring_in_place. destruct a as [|c a]; [contradiction|]. rewrite (ltrim_at buf pre c (a ++ d :: b)); auto; [|intros ->; cbn in Hal; discriminate].
    replace (Z.max 0 (m - 0)) with m by lia. unfold MAX_PRIMITIVE. replace (40000 <? m + 1) with false by lia. unfold read_range.
    destruct (m <=? 0) eqn:Em; [eexists; split; [reflexivity|cbn; lia]|]. replace (zlen pre + 0 <? 0) with false by lia. replace (zlen buf + 1 <? zlen pre + 0 + m) with false by lia.
    cbn [orb bind]. eexists. split; [reflexivity|]. etransitivity; [apply c_string_len|]. unfold zlen. rewrite firstn_length. lia. }
  assert (Hp : exists c, peek buf (zlen pre + (zlen pre + zlen a - st - 1)) = Ok c).
  { unfold peek. replace (zlen pre + (zlen pre + zlen a - st - 1) <? 0) with false by lia. destruct (nth_error buf _) eqn:E; [eauto|]. apply nth_error_None in E. unfold zlen in *. lia. }
  destruct Hp as [c Hp]. unfold bare_end. rewrite Hp. cbn [bind].
  assert (G : exists s, (if Ascii.eqb c ","%char then substring_in_place MAX_PRIMITIVE buf (zlen pre) 0 (zlen pre + zlen a - st - 1) else substring_in_place MAX_PRIMITIVE buf (zlen pre) 0 (zlen pre + zlen a - st)) = Ok s /\ zlen s <= zlen a + 1).
  { destruct (Ascii.eqb c ","%char); [destruct (Hlt (zlen pre + zlen a - st - 1)) as (s & H1 & H2)|destruct (Hlt (zlen pre + zlen a - st)) as (s & H1 & H2)]; try lia; exists s; split; auto; lia. }
  destruct G as (s & -> & Hsl). cbn [bind]. unfold strcopy, MAX_SIZE_PRIMITIVE. replace (4000 <? zlen s + 2) with false by lia. cbn [bind]. do 2 eexists. split; [reflexivity|]. cbn [nxt]. split; [|lia].
  exists (pre ++ a), (d :: b). split; [rewrite Hb; lapp|]. cbn [nxt cur_ptr hd_char]. split; [zl|].
  assert (Hq : Ascii.eqb d DQ = false /\ is_alnum d = false). { unfold is_delim in Hdd. repeat (apply orb_true_iff in Hdd as [Hdd|Hdd]); apply Ascii.eqb_eq in Hdd; subst d; split; reflexivity. }
  destruct Hq as [Hq1 Hq2]. cbn [lexable]. rewrite Hq1, letter_alnum, Hq2. split; [exact Hl|]. right. reflexivity.
Qed.

Lemma struct_quote c t : struct_token c = Some t -> Ascii.eqb c DQ = false /\ letter_or_digit c = false.
Proof. unfold struct_token. repeat match goal with |- context [Ascii.eqb c ?k] => destruct (Ascii.eqb_spec c k) as [->|?]; [intros; split; reflexivity|] end. discriminate. Qed.

Lemma scan_safe : forall rest pre buf lx st, no_nul buf -> buf = pre ++ rest -> lexable Between rest = true -> (zlen pre - 1 <= st <= zlen pre \/ is_alnum (hd_char rest) = false) ->
  exists t lx', scan (List.length rest) buf lx 0 st (zlen pre) (zlen pre) = Ok (t, lx') /\ (t = TEND \/ (sound buf lx' /\ zlen pre < nxt lx')).
Proof.
  induction rest as [|c rest IH]; intros pre buf lx st Hn Hb Hl Hs; [do 2 eexists; split; [reflexivity|left; reflexivity]|].
  cbn [List.length scan]. rewrite (peek_at buf pre c rest) by auto. cbn [bind]. cbn [lexable] in Hl.
  destruct (struct_token c) as [t|] eqn:Et.
  - destruct (struct_quote c t Et) as [E1 E2]. rewrite E1, E2 in Hl. do 2 eexists. split; [reflexivity|]. right. cbn [nxt]. split; [|lia].
    exists (pre ++ [c]), rest. split; [rewrite Hb; lapp|]. cbn [nxt cur_ptr]. split; [zl|]. split; [exact Hl|]. left. lia.
  - assert (Hskip : lexable Between rest = true -> exists t lx', scan (List.length rest) buf lx 0 (zlen pre + 1) (zlen pre + 1) (zlen pre + 1) = Ok (t, lx') /\ (t = TEND \/ (sound buf lx' /\ zlen pre < nxt lx'))).
    { intros Hl'. replace (zlen pre + 1) with (zlen (pre ++ [c])) by zl. destruct (IH (pre ++ [c]) buf lx (zlen (pre ++ [c])) Hn) as (t & lx' & E & G); [rewrite Hb; lapp|exact Hl'|left; lia|].
      exists t, lx'. split; [exact E|]. destruct G as [G|[G1 G2]]; [left; exact G|right; split; [exact G1|]]. rewrite zlen_app, zlen_cons, zlen_nil in G2. lia. }
    destruct (Ascii.eqb_spec c DQ) as [->|Ed].
    + replace (zlen pre + 1) with (zlen (pre ++ [DQ])) by zl. assert (Hn' : no_nul rest) by (intros Hi; apply Hn; rewrite Hb; apply in_or_app; right; right; exact Hi).
      destruct (lexable_string rest 0 0 Hn' Hl) as [(a & b & -> & H1 & H2 & H3)|G].
      * rewrite (scan_str a (pre ++ [DQ]) 0 pre DQ b buf lx) by (auto; try discriminate; rewrite Hb; lapp).
        destruct (string_done buf lx pre a b Hn Hb H1 ltac:(lia) H3) as (t & lx' & E & G1 & G2). replace (zlen (pre ++ [DQ]) + zlen a) with (zlen pre + 1 + zlen a) by zl.
        exists t, lx'. split; [exact E|]. right. auto.
      * rewrite (scan_open rest (pre ++ [DQ]) 0 pre DQ buf lx) by (auto; try discriminate; rewrite Hb; lapp). do 2 eexists. split; [reflexivity|]. left. reflexivity.
    + rewrite letter_alnum in Hl. destruct (Ascii.eqb c " "%char || Ascii.eqb c TAB) eqn:Eb.
      * apply Hskip. replace (is_alnum c) with false in Hl; [exact Hl|]. apply orb_true_iff in Eb as [E|E]; apply Ascii.eqb_eq in E; subst c; reflexivity.
      * destruct (is_alnum c) eqn:Ea; [|apply Hskip; exact Hl]. destruct Hs as [Hs|Hs]; [|cbn [hd_char] in Hs; congruence].
        assert (Ec : is_delim c = false) by (destruct (is_delim c) eqn:Ec; [|reflexivity]; unfold is_delim in Ec; repeat (apply orb_true_iff in Ec as [Ec|Ec]); apply Ascii.eqb_eq in Ec; subst c; discriminate Ea).
        replace (zlen pre + 1) with (zlen (pre ++ [c])) by zl. destruct (lexable_word rest 1 Hl) as [(a & d & b & -> & H1 & H2 & H3 & H4)|G].
        -- rewrite (scan_bare a buf (pre ++ [c]) d b) by (auto; rewrite Hb; lapp).
           destruct (bare_done buf pre (c :: a) d b st Hn Hb) as (t & lx' & E & G1 & G2); auto; [discriminate|cbn [forallb]; rewrite Ec; exact H1|rewrite zlen_cons; lia|].
           replace (zlen (pre ++ [c]) + zlen a) with (zlen pre + zlen (c :: a)) by zl. exists t, lx'. split; [exact E|]. right. auto.
        -- rewrite (scan_word_open rest buf (pre ++ [c])) by (auto; rewrite Hb; lapp). do 2 eexists. split; [reflexivity|]. left. reflexivity.
Qed.

Lemma tokens_safe buf : no_nul buf -> forall f lx, sound buf lx -> zlen buf - nxt lx < Z.of_nat f -> exists evs, tokens_from f buf lx = Ok evs.
Proof.
  intros Hn. induction f as [|f IH]; intros lx (pre & rest & Hb & Hx & Hl & Hs) Hf; [rewrite Hx, Hb, zlen_app in Hf; pose proof (zlen_nonneg rest); lia|].
  cbn [tokens_from]. unfold nextToken. rewrite Hx, (fuel_eq buf pre rest Hb). rewrite Hx in Hs.
  destruct (scan_safe rest pre buf lx (cur_ptr lx) Hn Hb Hl Hs) as (t & lx' & -> & G). cbn [bind].
  destruct G as [->|[G1 G2]]; [eexists; reflexivity|]. destruct (IH lx' G1 ltac:(lia)) as [evs E]. rewrite E. destruct t; eexists; reflexivity.
Qed.

Theorem lex_safe_bytes stream : lexable Between (c_string stream) = true -> exists evs, lex_all stream = Ok evs.
Proof.
  intros H. unfold lex_all. cbv zeta. apply tokens_safe; [apply c_string_no_nul| |cbn [nxt initLexer]; unfold zlen; lia].
  exists [], (c_string stream). repeat split; auto. left. cbn. lia.
Qed.
