(** The lexer on a prefix of a stream: it produces the same tokens as on the
    whole stream, up to the first token that needs a byte behind the cut. *)
From Verif Require Import Base Util Lexer Spec LexSpec LexProof LexMain.
From Coq Require Import Lia.
Open Scope Z_scope.

Section Prefix.
  Variables P R : bytes.
  Local Notation T := (P ++ R).

  Lemma zlen_T : zlen T = zlen P + zlen R.
  Proof. apply zlen_app. Qed.

  Lemma nth_pre n : (n < List.length P)%nat -> nth_error T n = nth_error P n.
  Proof. intros. apply nth_error_app1. assumption. Qed.

  Lemma peek_pre p : p < zlen P -> peek P p = peek T p.
  Proof.
    intros Hp. unfold peek. destruct (p <? 0) eqn:E; [reflexivity|].
    rewrite nth_pre by (unfold zlen in Hp; lia).
    destruct (nth_error P (Z.to_nat p)) eqn:En; [reflexivity|].
    apply nth_error_None in En. unfold zlen in Hp. lia.
  Qed.

  Lemma count_bsl_pre : forall fuel p, p < zlen P -> count_bsl fuel P p = count_bsl fuel T p.
  Proof.
    induction fuel as [|f IH]; intros p Hp; [reflexivity|]. cbn [count_bsl]. rewrite peek_pre by assumption.
    destruct (peek T p) as [c|]; [|reflexivity]. cbn [bind]. destruct (Ascii.eqb c BSL); [|reflexivity].
    rewrite IH by lia. reflexivity.
  Qed.

  Lemma quote_escaped_pre p : p < zlen P -> quote_escaped P p = quote_escaped T p.
  Proof.
    intros Hp. unfold quote_escaped. rewrite peek_pre by lia. destruct (peek T (p - 1)) as [c|]; [|reflexivity]. cbn [bind].
    rewrite count_bsl_pre by lia. reflexivity.
  Qed.

  Lemma skip_le : forall f buf p p', skip_blanks f buf p = Ok p' -> p <= p'.
  Proof.
    induction f as [|f IH]; intros buf p p' H; [discriminate|]. cbn [skip_blanks] in H.
    destruct (peek buf (p + 1)) as [c|]; [|discriminate]. cbn [bind] in H.
    destruct (Ascii.eqb c " "%char || Ascii.eqb c TAB); [apply IH in H; lia|injection H as <-; lia].
  Qed.

  Lemma skip_blanks_pre : forall fT fP p p', skip_blanks fT T p = Ok p' -> -1 <= p < zlen P -> zlen P - p <= Z.of_nat fP ->
    skip_blanks fP P p = Ok (Z.min p' (zlen P - 1)).
  Proof.
    induction fT as [|fT IH]; intros fP p p' H Hp Hf; [discriminate|].
    pose proof (skip_le _ _ _ _ H) as Hle.
    destruct fP as [|fP]; [lia|]. cbn [skip_blanks] in *.
    destruct (Z.eq_dec (p + 1) (zlen P)) as [Ee|En].
    - rewrite (peek_end P) by assumption. cbn [bind]. cbn. f_equal. lia.
    - rewrite peek_pre by lia. destruct (peek T (p + 1)) as [c|]; [|discriminate]. cbn [bind] in *.
      destruct (Ascii.eqb c " "%char || Ascii.eqb c TAB).
      + apply IH; [assumption|lia|lia].
      + injection H as <-. f_equal. lia.
  Qed.

  Lemma read_range_pre from n : from + n <= zlen P -> read_range P from n = read_range T from n.
  Proof.
    intros H. unfold read_range. destruct (n <=? 0) eqn:E; [reflexivity|].
    rewrite zlen_T. pose proof (zlen_nonneg R).
    destruct (from <? 0) eqn:E0; [reflexivity|]. replace (zlen P + 1 <? from + n) with false by lia.
    replace (zlen P + zlen R + 1 <? from + n) with false by lia. cbn [orb]. f_equal.
    rewrite <- app_assoc.
    assert (G : forall S : bytes, firstn (Z.to_nat n) (skipn (Z.to_nat from) (P ++ S)) = firstn (Z.to_nat n) (skipn (Z.to_nat from) P)).
    { intros S. rewrite skipn_app, firstn_app, skipn_length. unfold zlen in *.
      replace (Z.to_nat n - (List.length P - Z.to_nat from))%nat with O by lia. rewrite firstn_O, app_nil_r. reflexivity. }
    rewrite !G. reflexivity.
  Qed.

  Lemma ltrim_here buf p c : peek buf p = Ok c -> c <> " "%char -> p < zlen buf -> ltrim buf p = p.
  Proof.
    intros Hp Hc Hl. unfold ltrim. unfold peek in Hp. destruct (p <? 0); [discriminate|].
    destruct (nth_error buf (Z.to_nat p)) eqn:E.
    - injection Hp as ->. apply nth_error_split in E. destruct E as (l1 & l2 & -> & El).
      rewrite <- El, skipn_app, skipn_all, Nat.sub_diag. cbn [skipn app lead_blanks].
      destruct (Ascii.eqb_spec c " "%char); [contradiction|]. cbn. lia.
    - apply nth_error_None in E. unfold zlen in Hl. destruct (p =? zlen buf) eqn:E2; [unfold zlen in E2; lia|discriminate].
  Qed.

  Lemma sub_pre cap p c b e : peek T p = Ok c -> c <> " "%char -> 0 <= p < zlen P -> 0 <= b -> p + e <= zlen P ->
    substring_in_place cap P p b e = substring_in_place cap T p b e.
  Proof.
    intros Hc Hn Hp Hb He. unfold substring_in_place.
    rewrite (ltrim_here T p c Hc Hn) by (rewrite zlen_T; pose proof (zlen_nonneg R); lia).
    rewrite (ltrim_here P p c) by (try rewrite peek_pre by lia; assumption || lia).
    destruct (Z.max_spec 0 (e - b)) as [[_ ->]|[_ ->]].
    - rewrite read_range_pre by lia. reflexivity.
    - destruct (cap <? 0 + 1); [reflexivity|]. unfold read_range. reflexivity.
  Qed.

  (** What the lexer returns on the prefix, when it returns [t] and [lx'] on the
      whole stream. *)
  Inductive cut_result (lx : lexer) (t : token) (lx' : lexer) : res (token * lexer) -> Prop :=
  | cut_same : nxt lx' <= zlen P -> cut_result lx t lx' (Ok (t, lx'))
  | cut_end : t = TEND \/ zlen P <= nxt lx' -> cut_result lx t lx' (Ok (TEND, lx))
  | cut_string s lx2 : t = TPRI s -> zlen P < nxt lx' -> nxt lx2 = zlen P ->
      cut_result lx t lx' (Ok (TPRI s, lx2)).

  Hypothesis Hcut : colon_next R = false.

  Lemma skip_colon : forall f p p', skip_blanks f T p = Ok p' -> -1 <= p < zlen P -> zlen P - 1 <= p' ->
    peek T (p' + 1) <> Ok ":"%char.
  Proof.
    assert (G : forall Q S, colon_next S = false -> forall f p p', skip_blanks f (Q ++ S) p = Ok p' -> p = zlen Q - 1 ->
      peek (Q ++ S) (p' + 1) <> Ok ":"%char).
    { intros Q S. revert Q. induction S as [|c S IH]; intros Q HS f p p' H Hp He; (destruct f as [|f]; [discriminate|]); cbn [skip_blanks] in H.
      - rewrite (peek_end (Q ++ [])) in H by (rewrite app_nil_r; lia). cbn in H. injection H as <-.
        rewrite (peek_end (Q ++ [])) in He by (rewrite app_nil_r; lia). discriminate.
      - rewrite (peek_at (Q ++ c :: S) Q c S (p + 1) eq_refl) in H by lia. cbn [bind] in H. cbn [colon_next] in HS.
        destruct (Ascii.eqb c " "%char || Ascii.eqb c TAB).
        + replace (Q ++ c :: S) with ((Q ++ [c]) ++ S) in * by (rewrite <- app_assoc; reflexivity).
          eapply (IH (Q ++ [c]) HS _ _ _ H); [rewrite zlen_app, zlen_cons, zlen_nil; lia|exact He].
        + injection H as <-. rewrite (peek_at (Q ++ c :: S) Q c S (p + 1) eq_refl) in He by lia. injection He as ->. discriminate. }
    induction f as [|f IH]; intros p p' H Hp Hp'; [discriminate|].
    destruct (Z.eq_dec p (zlen P - 1)) as [->|Hne]; [eapply G; eauto|].
    cbn [skip_blanks] in H. destruct (peek T (p + 1)) as [c|] eqn:E; [|discriminate]. cbn [bind] in H.
    destruct (Ascii.eqb c " "%char || Ascii.eqb c TAB).
    - eapply IH; eauto. lia.
    - injection H as <-. lia.
  Qed.

  Lemma string_end_pre lx start p t lx' : peek T start = Ok DQ -> 0 <= start < p -> p < zlen P ->
    string_end T lx start p = Ok (t, lx') -> cut_result lx t lx' (string_end P lx start p).
  Proof.
    intros Hq Hs Hp H. unfold string_end in *.
    rewrite (sub_pre MAX_PRIMITIVE start DQ 1 (p - start) Hq) by (try discriminate; lia).
    destruct (substring_in_place _ _ _ _ _) as [s|]; [|discriminate]. cbn [bind] in *.
    destruct (skip_blanks _ T p) as [p'|] eqn:Es; [|discriminate]. cbn [bind] in *.
    pose proof (skip_le _ _ _ _ Es) as Hle.
    rewrite (skip_blanks_pre _ _ _ _ Es) by lia. cbn [bind].
    destruct (Z.le_gt_cases (zlen P - 1) p') as [Hge|Hlt].
    - rewrite Z.min_r by lia. rewrite (peek_end P) by lia. cbn [bind]. 
      pose proof (skip_colon _ _ _ Es ltac:(lia) Hge) as Hnc.
      destruct (peek T (p' + 1)) as [c|]; [|discriminate]. cbn [bind] in H.
      destruct (Ascii.eqb_spec c ":"%char) as [Ecc|Ecc]; [subst c; contradiction|]. change (Ascii.eqb NUL ":"%char) with false. cbv iota.
      destruct (MAX_SIZE_PRIMITIVE <? zlen s + 4); [discriminate|]. injection H as <- <-.
      destruct (Z.eq_dec p' (zlen P - 1)) as [->|Hne].
      + apply cut_same. cbn. lia.
      + eapply cut_string; [reflexivity|cbn; lia|cbn; lia].
    - rewrite Z.min_l by lia. rewrite peek_pre by lia.
      destruct (peek T (p' + 1)) as [c|]; [|discriminate]. cbn [bind] in *.
      destruct (Ascii.eqb c ":"%char).
      + destruct (strcopy _ _); [|discriminate]. cbn [bind] in *. injection H as <- <-. apply cut_same. cbn. lia.
      + destruct (MAX_SIZE_PRIMITIVE <? zlen s + 4); [discriminate|]. injection H as <- <-. apply cut_same. cbn. lia.
  Qed.

  Lemma bare_end_pre start tp p c0 t lx lx' : peek T tp = Ok c0 -> is_alnum c0 = true -> 0 <= tp < p ->
    tp - 1 <= start <= tp -> p < zlen P ->
    bare_end T start tp p = Ok (t, lx') -> cut_result lx t lx' (bare_end P start tp p).
  Proof.
    intros Hc Ha Htp Hst Hp H.
    assert (Hb : c0 <> " "%char) by (intros ->; discriminate).
    assert (E : bare_end P start tp p = bare_end T start tp p).
    { unfold bare_end. rewrite peek_pre by lia.
      rewrite !(sub_pre MAX_PRIMITIVE tp c0) by (assumption || lia). reflexivity. }
    rewrite E, H. apply cut_same. destruct (bare_end_facts T start tp p) as [_ F]. rewrite (F _ _ H). lia.
  Qed.

  Lemma scan_pre : forall fT fP lx st start tp p t lx',
    0 <= p <= zlen P -> fT = Z.to_nat (zlen T - p) -> fP = Z.to_nat (zlen P - p) ->
    match st with
    | O => tp = p /\ forall c, peek T p = Ok c -> is_alnum c = true -> start = p \/ start = p - 1
    | S O => peek T start = Ok DQ /\ 0 <= start < p
    | _ => tp - 1 <= start <= tp /\ 0 <= tp < p /\ exists c, peek T tp = Ok c /\ is_alnum c = true
    end ->
    scan fT T lx st start tp p = Ok (t, lx') ->
    cut_result lx t lx' (scan fP P lx st start tp p).
  Proof.
    induction fT as [|fT IH]; intros fP lx st start tp p t lx' Hp HfT HfP Hinv H.
    { rewrite zlen_T in HfT. pose proof (zlen_nonneg R). destruct fP; [|lia]. cbn [scan] in *. injection H as <- <-.
      apply cut_end. auto. }
    destruct fP as [|fP].
    { destruct (scan_facts (S fT) T lx st start tp p (proj1 Hp) HfT) as [_ F]. apply F in H. cbn [scan]. apply cut_end.
      destruct H as [->|[H _]]; [auto|right; lia]. }
    assert (HfT' : fT = Z.to_nat (zlen T - (p + 1))) by lia.
    assert (HfP' : fP = Z.to_nat (zlen P - (p + 1))) by lia.
    assert (Hp' : 0 <= p + 1 <= zlen P) by lia.
    cbn [scan] in *. rewrite peek_pre by lia. destruct (peek T p) as [c|] eqn:Ec; [|discriminate]. cbn [bind] in *.
    destruct st as [|[|st]].
    - destruct Hinv as [-> Hst].
      destruct (struct_token c) as [t0|]; [injection H as <- <-; apply cut_same; cbn; lia|].
      destruct (Ascii.eqb_spec c DQ) as [Ecq|_].
      { subst c. eapply IH; [exact Hp'|exact HfT'|exact HfP'| |exact H]. cbn. split; [assumption|lia]. }
      destruct (Ascii.eqb c " "%char || Ascii.eqb c TAB).
      { eapply IH; [exact Hp'|exact HfT'|exact HfP'| |exact H]. cbn. auto. }
      destruct (is_alnum c) eqn:Ea.
      { eapply IH; [exact Hp'|exact HfT'|exact HfP'| |exact H]. cbn. specialize (Hst c eq_refl Ea). split; [lia|]. split; [lia|eauto]. }
      eapply IH; [exact Hp'|exact HfT'|exact HfP'| |exact H]. cbn. auto.
    - destruct Hinv as [Hq Hs]. destruct (Ascii.eqb c DQ).
      + rewrite quote_escaped_pre by lia. destruct (quote_escaped T p) as [esc|]; [|discriminate]. cbn [bind] in *.
        destruct esc; [eapply IH; [exact Hp'|exact HfT'|exact HfP'| |exact H]; cbn; split; [assumption|lia]|].
        apply string_end_pre; try assumption; lia.
      + eapply IH; [exact Hp'|exact HfT'|exact HfP'| |exact H]. cbn. split; [assumption|lia].
    - destruct Hinv as [Hs [Htp (c0 & Hc0 & Ha0)]]. destruct (is_delim c).
      + eapply bare_end_pre; eauto; lia.
      + eapply IH; [exact Hp'|exact HfT'|exact HfP'| |exact H]. cbn. split; [lia|]. split; [lia|eauto].
  Qed.

  (** The pointer the lexer keeps is usable for the next bare value. *)
  Definition calm (lx : lexer) : Prop :=
    forall c, peek T (nxt lx) = Ok c -> is_alnum c = true -> cur_ptr lx = nxt lx \/ cur_ptr lx = nxt lx - 1.

  Lemma next_pre lx t lx' : calm lx -> 0 <= nxt lx <= zlen P -> nextToken T lx = Ok (t, lx') ->
    cut_result lx t lx' (nextToken P lx).
  Proof.
    intros Hc Hn H. unfold nextToken in *. eapply scan_pre; eauto.
  Qed.

  (** After every token but a string value the pointer is usable. *)
  Definition is_pri (t : token) : bool := match t with TPRI _ => true | _ => false end.

  Lemma scan_calm : forall f lx st start tp p t lx', scan f T lx st start tp p = Ok (t, lx') ->
    t = TEND \/ calm lx' \/ is_pri t = true.
  Proof.
    induction f as [|f IH]; intros lx st start tp p t lx' H; cbn [scan] in H; [injection H as <- <-; auto|].
    destruct (peek T p) as [c|] eqn:Ec; [|discriminate]. cbn [bind] in H.
    destruct st as [|[|st]].
    - destruct (struct_token c) as [t0|]; [injection H as <- <-; right; left; intros x _ _; cbn; auto|].
      repeat match type of H with context [if ?b then _ else _] => destruct b end; eauto.
    - destruct (Ascii.eqb c DQ); [|eauto]. destruct (quote_escaped T p) as [esc|]; [|discriminate]. cbn [bind] in H.
      destruct esc; [eauto|]. unfold string_end in H.
      destruct (substring_in_place _ _ _ _ _) as [s|]; [|discriminate]. cbn [bind] in H.
      destruct (skip_blanks _ T p) as [p'|]; [|discriminate]. cbn [bind] in H.
      destruct (peek T (p' + 1)) as [c1|]; [|discriminate]. cbn [bind] in H.
      destruct (Ascii.eqb c1 ":"%char).
      + destruct (strcopy _ _); [|discriminate]. cbn [bind] in H. injection H as <- <-. right. left. intros x _ _. cbn. lia.
      + destruct (_ <? _); [discriminate|]. injection H as <- <-. auto.
    - destruct (is_delim c) eqn:Ed; [|eauto]. unfold bare_end in H.
      destruct (peek T (tp + (p - start - 1))) as [c1|]; [|discriminate]. cbn [bind] in H.
      destruct (if Ascii.eqb c1 ","%char then _ else _) as [s|]; [|discriminate]. cbn [bind] in H.
      destruct (strcopy _ _); [|discriminate]. cbn [bind] in H. injection H as <- <-. auto.
  Qed.

  Lemma alnum_next lx c t lx' : 0 <= nxt lx -> peek T (nxt lx) = Ok c -> is_alnum c = true ->
    nextToken T lx = Ok (t, lx') -> t = TEND \/ is_pri t = true.
  Proof.
    intros H0 Hc Ha H. unfold nextToken in H.
    assert (G : forall f st start tp p, (2 <= st)%nat -> scan f T lx st start tp p = Ok (t, lx') -> t = TEND \/ is_pri t = true).
    { induction f as [|f IH]; intros st start tp p Hst Hs; cbn [scan] in Hs; [injection Hs as <- <-; auto|].
      destruct (peek T p) as [c0|]; [|discriminate]. cbn [bind] in Hs. destruct st as [|[|st]]; [lia|lia|].
      destruct (is_delim c0); [|eauto]. unfold bare_end in Hs.
      destruct (peek T (tp + (p - start - 1))) as [c1|]; [|discriminate]. cbn [bind] in Hs.
      destruct (if Ascii.eqb c1 ","%char then _ else _) as [s|]; [|discriminate]. cbn [bind] in Hs.
      destruct (strcopy _ _); [|discriminate]. cbn [bind] in Hs. injection Hs as <- <-. auto. }
    destruct (Z.to_nat (zlen T - nxt lx)) as [|f]; cbn [scan] in H; [injection H as <- <-; auto|].
    rewrite Hc in H. cbn [bind] in H. destruct (alnum_scan c Ha) as (A1 & A2 & A3). 
    rewrite A1, A2, A3, Ha in H. eauto.
  Qed.

  (** No value follows a value directly, and no value ends the stream. *)
  Fixpoint spaced (l : list token) : bool :=
    match l with
    | [] => true
    | t :: l' => (negb (is_pri t) || match l' with [] => false | t' :: _ => negb (is_pri t') end) && spaced l'
    end.

  Lemma calm_next f lx t lx' rest : 0 <= nxt lx' -> nextToken T lx = Ok (t, lx') -> t <> TEND ->
    tokens_from f T lx' = Ok rest -> spaced (t :: map e_tok rest) = true -> calm lx'.
  Proof.
    intros H0 H Ht Hrest Hsp. destruct (scan_calm _ _ _ _ _ _ _ _ H) as [?|[?|Hpri]]; [contradiction|assumption|].
    intros c Hc Ha. exfalso. cbn [spaced] in Hsp. rewrite Hpri in Hsp. cbn [negb orb] in Hsp.
    destruct f as [|f]; [discriminate|]. cbn [tokens_from] in Hrest.
    destruct (nextToken T lx') as [[t1 lx1]|] eqn:E1; [|discriminate]. cbn [bind] in Hrest.
    destruct (alnum_next lx' c t1 lx1 H0 Hc Ha E1) as [->|Hp1].
    - injection Hrest as <-. discriminate.
    - destruct t1; try discriminate. destruct (tokens_from f T lx1) as [l|]; [|discriminate]. cbn in Hrest. injection Hrest as <-.
      discriminate.
  Qed.

  Lemma scan_end_same : forall f lx st a b p lx', scan f T lx st a b p = Ok (TEND, lx') -> lx' = lx.
  Proof.
    induction f as [|f IH]; intros lx st a b p lx' H; cbn [scan] in H; [injection H as <-; reflexivity|].
    destruct (peek T p) as [c|]; [|discriminate]. cbn [bind] in H. destruct st as [|[|st]].
    - unfold struct_token in H. repeat match type of H with context [if ?b then _ else _] => destruct b; try discriminate end; eauto.
    - destruct (Ascii.eqb c DQ); [|eauto]. destruct (quote_escaped T p) as [esc|]; [|discriminate]. cbn [bind] in H. destruct esc; [eauto|].
      unfold string_end in H. destruct (substring_in_place _ _ _ _ _) as [s|]; [|discriminate]. cbn [bind] in H.
      destruct (skip_blanks _ T p) as [p'|]; [|discriminate]. cbn [bind] in H.
      destruct (peek T (p' + 1)) as [c1|]; [|discriminate]. cbn [bind] in H.
      destruct (Ascii.eqb c1 ":"%char); [destruct (strcopy _ _)|destruct (_ <? _)]; discriminate.
    - destruct (is_delim c); [|eauto]. unfold bare_end in H.
      destruct (peek T (b + (p - a - 1))) as [c1|]; [|discriminate]. cbn [bind] in H.
      destruct (if Ascii.eqb c1 ","%char then _ else _) as [s|]; [|discriminate]. cbn [bind] in H.
      destruct (strcopy _ _); discriminate.
  Qed.

  Lemma next_end_same lx lx' : nextToken T lx = Ok (TEND, lx') -> lx' = lx.
  Proof. apply scan_end_same. Qed.

  (** The tokens of the prefix are the first tokens of the whole; a string value
      that is cut from the blanks behind it is still reported. *)
  Lemma tokens_pre : forall fT fP lx evs, tokens_from fT T lx = Ok evs -> spaced (map e_tok evs) = true -> calm lx ->
    0 <= nxt lx <= zlen P -> zlen P - nxt lx < Z.of_nat fP ->
    exists k tl, tokens_from fP P lx = Ok (firstn k evs ++ tl) /\
      Forall (fun e => e_next e <= zlen P) (firstn k evs) /\
      (forall e, In e (skipn k evs) -> zlen P <= e_next e) /\
      (tl = [] \/ exists e e', nth_error evs k = Some e /\ tl = [e'] /\ e_tok e' = e_tok e /\ is_pri (e_tok e) = true).
  Proof.
    assert (Later : forall f lx evs, tokens_from f T lx = Ok evs -> 0 <= nxt lx -> forall e, In e evs -> nxt lx <= e_next e).
    { induction f as [|f IH]; intros lx evs H H0 e He; [discriminate|]. cbn [tokens_from] in H.
      destruct (next_facts T lx H0) as [_ F]. destruct (nextToken T lx) as [[t lx']|]; [|discriminate]. cbn [bind] in H.
      destruct (F _ _ eq_refl) as [->|Hn]; [injection H as <-; destruct He|].
      destruct (tokens_from f T lx') as [rest|] eqn:Er.
      - assert (Hev : In e (mkEvent t (nxt lx') (cur_start lx') :: rest)).
        { destruct t; cbn in H; injection H as <-; try exact He. destruct He. }
        destruct Hev as [<-|Hin]; [cbn; lia|]. specialize (IH lx' rest Er ltac:(lia) e Hin). lia.
      - destruct t; try discriminate. injection H as <-. destruct He. }
    induction fT as [|fT IH]; intros fP lx evs H Hsp Hcalm Hn Hf; [discriminate|].
    destruct fP as [|fP]; [lia|]. pose proof (Later _ _ _ H (proj1 Hn)) as Hlater. cbn [tokens_from] in *.
    destruct (next_facts T lx (proj1 Hn)) as [_ F].
    destruct (nextToken T lx) as [[t lx']|] eqn:En; [|discriminate]. cbn [bind] in H.
    pose proof (next_pre lx t lx' Hcalm Hn En) as Hcr.
    destruct (F _ _ eq_refl) as [->|Hnx].
    { injection H as <-. exists O, []. inversion Hcr; subst; try discriminate; cbn; (split; [reflexivity|]); (split; [constructor|]); (split; [intros ? []|auto]). }
    assert (Ht : t <> TEND) by (intros ->; apply next_end_same in En; subst; lia).
    assert (Hev : exists rest, tokens_from fT T lx' = Ok rest /\ evs = mkEvent t (nxt lx') (cur_start lx') :: rest).
    { destruct t; try contradiction; (destruct (tokens_from fT T lx') as [rest|]; [|discriminate]; cbn in H; injection H as <-; eauto). }
    destruct Hev as (rest & Er & ->). clear H. cbn [map e_tok] in Hsp.
    pose proof (calm_next fT lx t lx' rest ltac:(lia) En Ht Er Hsp) as Hcalm'.
    assert (Hsp' : spaced (map e_tok rest) = true) by (cbn [spaced] in Hsp; apply andb_true_iff in Hsp; apply Hsp).
    inversion Hcr as [Hle Eq | Hor Eq | s lx2 Es Hgt Hl2 Eq]; clear Hcr.
    - destruct (IH fP lx' rest Er Hsp' Hcalm' ltac:(lia) ltac:(lia)) as (k & tl & E & Hall & Hafter & Htl).
      exists (S k), tl. cbn [bind]. rewrite E. cbn [bind firstn app skipn nth_error]. split; [destruct t; try contradiction; reflexivity|].
      split; [constructor; assumption|]. split; assumption.
    - destruct Hor as [?|Hge]; [contradiction|]. exists O, []. cbn [bind firstn app skipn]. split; [reflexivity|]. split; [constructor|].
      split; [|auto]. intros e [<-|He]; [cbn; lia|]. pose proof (Later _ _ _ Er ltac:(lia) e He). lia.
    - subst t. exists O. eexists. cbn [bind firstn app skipn nth_error].
      assert (E2 : tokens_from fP P lx2 = Ok []).
      { assert (nxt lx <> zlen P) by (intros Ez; unfold nextToken in Eq; rewrite Ez, Z.sub_diag in Eq; discriminate).
        destruct fP as [|fP]; [lia|]. cbn [tokens_from]. unfold nextToken. rewrite Hl2, Z.sub_diag. reflexivity. }
      rewrite E2. cbn [bind]. split; [reflexivity|]. split; [constructor|]. split.
      + intros e [<-|He]; [cbn; lia|]. pose proof (Later _ _ _ Er ltac:(lia) e He). lia.
      + right. eexists. eexists. split; [reflexivity|]. split; [reflexivity|]. cbn. auto.
  Qed.
End Prefix.
