(** The token stream of a document. *)
From Verif Require Import Base Util Lexer Spec LexProof.
Open Scope Z_scope.

(** * Specification of the token stream (no positions) *)
Fixpoint tok_val (v : json) : list token :=
  match v with
  | JBare s => [TPRI s]
  | JStr s => [TPRI (DQ :: s ++ [DQ])]
  | JObj _ ms => TLCB :: tok_ms ms ++ [TRCB]
  | JArr _ es => TLB :: tok_es es ++ [TRB]
  end
with tok_ms (ms : members) : list token :=
  match ms with
  | MNil => []
  | MCons _ k v ms' =>
      TKY k :: tok_val v ++ match ms' with MNil => [] | _ => TCOM :: tok_ms ms' end
  end
with tok_es (es : elements) : list token :=
  match es with
  | ENil => []
  | ECons _ v _ es' =>
      tok_val v ++ match es' with ENil => [] | _ => TCOM :: tok_es es' end
  end.

(** * The token stream with the positions the consumers read

    [cp] is [current_pointer] before the value, [o] the offset of the first byte
    of the value, [tb] the number of blanks that follow a string. *)
Fixpoint lead_bt (w : bytes) : Z :=
  match w with
  | c :: w' => if blank_char c then lead_bt w' + 1 else 0
  | [] => 0
  end.

Fixpoint ev_val (cp o tb : Z) (v : json) : list event :=
  match v with
  | JBare s => [mkEvent (TPRI s) (o + zlen s) (o + zlen s + 2)]
  | JStr s => [mkEvent (TPRI (DQ :: s ++ [DQ])) (o + zlen s + 2 + tb) (cp + 1)]
  | JObj w ms =>
      mkEvent TLCB (o + 1) (o + 1) :: ev_ms (o + 1) (o + 1 + zlen w) ms
      ++ [mkEvent TRCB (o + zlen (text v)) (o + zlen (text v))]
  | JArr w es =>
      mkEvent TLB (o + 1) (o + 1) :: ev_es (o + 1) (o + 1 + zlen w) es
      ++ [mkEvent TRB (o + zlen (text v)) (o + zlen (text v))]
  end
with ev_ms (cp o : Z) (ms : members) : list event :=
  match ms with
  | MNil => []
  | MCons p k v ms' =>
      let oc := o + zlen (w_before p) + zlen k + 2 + zlen (w_colon p) in
      let ov := oc + 1 + zlen (w_value p) in
      let oe := ov + zlen (text v) + zlen (w_after p) in
      mkEvent (TKY k) (oc + 1) (cp + 1)
      :: ev_val oc ov (lead_bt (w_after p)) v
      ++ match ms' with
         | MNil => []
         | _ => mkEvent TCOM (oe + 1) (oe + 1) :: ev_ms (oe + 1) (oe + 1) ms'
         end
  end
with ev_es (cp o : Z) (es : elements) : list event :=
  match es with
  | ENil => []
  | ECons wb v wa es' =>
      let ov := o + zlen wb in
      let oe := ov + zlen (text v) + zlen wa in
      ev_val cp ov (lead_bt wa) v
      ++ match es' with
         | ENil => []
         | _ => mkEvent TCOM (oe + 1) (oe + 1) :: ev_es (oe + 1) (oe + 1) es'
         end
  end.

Definition doc_events (d : doc) : list event := ev_val 0 (zlen (d_pre d)) 0 (d_val d).

(** * Lexing with any amount of fuel *)
Definition toks (buf : bytes) (lx : lexer) (evs : list event) : Prop :=
  exists n, tokens_from n buf lx = Ok evs.

Lemma toks_cons buf lx t lx' evs :
  nextToken buf lx = Ok (t, lx') -> t <> TEND -> toks buf lx' evs ->
  toks buf lx (mkEvent t (nxt lx') (cur_start lx') :: evs).
Proof.
  intros Hn Ht [n Hk]. exists (S n). simpl. rewrite Hn. simpl.
  destruct t; try congruence; rewrite Hk; reflexivity.
Qed.

Lemma toks_struct buf lx pre w c rest t q evs :
  buf = pre ++ w ++ c :: rest -> nxt lx = zlen pre -> ws w = true ->
  struct_token c = Some t -> q = zlen pre + zlen w + 1 ->
  toks buf (mkLexer q q q) evs ->
  toks buf lx (mkEvent t q q :: evs).
Proof.
  intros Hb Hn Hw Ht Hq Hk.
  apply (toks_cons buf lx t (mkLexer q q q)).
  - eapply next_struct; eauto.
  - intros ->. unfold struct_token in Ht.
    repeat match type of Ht with context [if ?b then _ else _] => destruct b end; congruence.
  - exact Hk.
Qed.

Lemma split_blanks w : exists bl r, w = bl ++ r /\ forallb blank_char bl = true
  /\ zlen bl = lead_bt w /\ (r = [] \/ blank_char (hd_char r) = false /\ hd_char r <> ":"%char \/ ws r = false).
Proof.
  induction w as [|c w IH]; [exists [], []; repeat split; auto|].
  destruct IH as (bl & r & -> & Hb & Hl & Hr). cbn [lead_bt].
  destruct (blank_char c) eqn:E.
  - exists (c :: bl), r. repeat split.
    + simpl. rewrite E, Hb. reflexivity.
    + rewrite <- Hl. zl.
    + exact Hr.
  - exists [], (c :: bl ++ r). repeat split.
    destruct (Ascii.eqb_spec c ":"%char) as [->|Hc].
    + right. right. reflexivity.
    + right. left. simpl. auto.
Qed.

Lemma ws_app w1 w2 : ws (w1 ++ w2) = ws w1 && ws w2.
Proof. apply forallb_app. Qed.

Definition closer (c : ascii) (t : token) : Prop :=
  (c = ","%char /\ t = TCOM) \/ (c = "}"%char /\ t = TRCB) \/ (c = "]"%char /\ t = TRB).

Lemma closer_facts c t : closer c t ->
  struct_token c = Some t /\ is_delim c = true /\ blank_char c = false /\ c <> ":"%char.
Proof. intros [[-> ->]|[[-> ->]|[-> ->]]]; repeat split; discriminate. Qed.

Lemma blank_is_ws c : blank_char c = true -> ws_char c = true.
Proof. unfold blank_char, ws_char. intros ->. reflexivity. Qed.

Lemma blank_is_delim c : blank_char c = true -> is_delim c = true.
Proof. unfold blank_char, is_delim. rewrite <- orb_assoc. intros ->. rewrite orb_true_r. reflexivity. Qed.

(** Whether the gap between [current_pointer] and [next_start] is harmless. *)
Definition gap_ok (lx : lexer) (w wa : bytes) (c : ascii) (v : json) : Prop :=
  match v with
  | JBare _ =>
      starts_blank_or_nil wa = true /\
      (w <> [] \/ cur_ptr lx = nxt lx \/
       (cur_ptr lx = nxt lx - 1 /\ wa = [] /\ c = ","%char))
  | _ => True
  end.

Definition lex_container (v : json) : Prop :=
  forall buf pre w post lx evs cp tb e,
  is_container v = true -> wf v = true -> lex_safe v = true -> ws w = true ->
  buf = pre ++ w ++ text v ++ post -> nxt lx = zlen pre ->
  e = zlen pre + zlen w + zlen (text v) ->
  toks buf (mkLexer e e e) evs ->
  toks buf lx (ev_val cp (zlen pre + zlen w) tb v ++ evs).

Lemma lex_value v : lex_container v ->
  forall buf pre w wa c t rest lx evs q,
  wf v = true -> lex_safe v = true -> ws w = true -> ws wa = true -> closer c t ->
  buf = pre ++ w ++ text v ++ wa ++ c :: rest -> nxt lx = zlen pre ->
  gap_ok lx w wa c v ->
  q = zlen pre + zlen w + zlen (text v) + zlen wa + 1 ->
  toks buf (mkLexer q q q) evs ->
  toks buf lx (ev_val (cur_ptr lx) (zlen pre + zlen w) (lead_bt wa) v ++ mkEvent t q q :: evs).
Proof.
  intros HC buf pre w wa c t rest lx evs q Hwf Hsafe Hw Hwa Hc Hb Hn Hgap Hq Hk.
  destruct (closer_facts c t Hc) as (Hst & Hd & Hbl & Hcol).
  destruct (is_container v) eqn:Ev.
  - eapply (HC buf pre w (wa ++ c :: rest)); eauto.
    eapply (toks_struct buf _ (pre ++ w ++ text v) wa c rest); eauto.
    + rewrite Hb. leq.
    + cbn [nxt]. zlc.
    + rewrite Hq. zlc.
  - destruct v as [s|s| |]; try discriminate; cbn [ev_val app text wf lex_safe] in *.
    + (* bare *)
      apply andb_true_iff in Hsafe as [Hu Hl]. apply Z.leb_le in Hl.
      destruct Hgap as [Hsb Hgap].
      destruct wa as [|b wa].
      * set (p := zlen pre + zlen w + zlen s).
        apply (toks_cons buf lx (TPRI s) (mkLexer (p + 1) (p + 2) p)).
        -- eapply (next_bare buf lx pre w s c rest); eauto. tauto.
        -- discriminate.
        -- eapply (toks_struct buf _ (pre ++ w ++ s) [] c rest); eauto.
           ++ rewrite Hb. leq.
           ++ cbn [nxt]. unfold p. zlc.
           ++ rewrite Hq. zlc.
      * simpl in Hsb.
        set (p := zlen pre + zlen w + zlen s).
        apply (toks_cons buf lx (TPRI s) (mkLexer (p + 1) (p + 2) p)).
        -- eapply (next_bare buf lx pre w s b (wa ++ c :: rest)); eauto.
           ++ apply blank_is_delim; exact Hsb.
           ++ destruct Hgap as [?|[?|[? [? ?]]]]; try discriminate; tauto.
        -- discriminate.
        -- eapply (toks_struct buf _ (pre ++ w ++ s) (b :: wa) c rest); eauto.
           ++ rewrite Hb. leq.
           ++ cbn [nxt]. unfold p. zlc.
           ++ rewrite Hq. zlc.
    + (* string *)
      apply Z.leb_le in Hsafe.
      destruct (split_blanks wa) as (bl & r & -> & Hblk & Hlen & Hr).
      rewrite ws_app in Hwa. apply andb_true_iff in Hwa as [_ Hwr].
      assert (Hhd : blank_char (hd_char (r ++ c :: rest)) = false /\
                    hd_char (r ++ c :: rest) <> ":"%char).
      { destruct r as [|x r]; simpl; [auto|].
        destruct Hr as [Hr|[Hr|Hr]]; try discriminate; [exact Hr|congruence]. }
      rewrite <- Hlen.
      set (n' := zlen pre + zlen w + zlen s + 2 + zlen bl).
      apply (toks_cons buf lx (TPRI (DQ :: s ++ [DQ]))
               (mkLexer (cur_ptr lx) (cur_ptr lx + 1) n')).
      * rewrite (next_string buf lx pre w s bl (r ++ c :: rest)); auto.
        -- unfold n'. do 3 f_equal. liac.
        -- rewrite Hb. leq.
        -- apply Hhd.
        -- apply Hhd.
      * discriminate.
      * eapply (toks_struct buf _ (pre ++ w ++ (DQ :: s ++ [DQ]) ++ bl) r c rest); eauto.
        -- rewrite Hb. leq.
        -- cbn [nxt]. unfold n'. zlc.
        -- rewrite Hq. zlc.
Qed.

Definition lex_members (ms : members) : Prop :=
  forall buf pre w post lx evs q,
  wf_ms ms = true -> lex_safe_ms ms = true -> ws w = true ->
  buf = pre ++ w ++ text_ms ms ++ "}"%char :: post ->
  cur_ptr lx = zlen pre -> nxt lx = zlen pre ->
  q = zlen pre + zlen w + zlen (text_ms ms) + 1 ->
  toks buf (mkLexer q q q) evs ->
  toks buf lx (ev_ms (zlen pre) (zlen pre + zlen w) ms ++ mkEvent TRCB q q :: evs).

Definition lex_elements (es : elements) : Prop :=
  forall buf pre w post lx evs q,
  wf_es es = true -> lex_safe_es es = true -> ws w = true ->
  buf = pre ++ w ++ text_es es ++ "]"%char :: post ->
  cur_ptr lx = zlen pre -> nxt lx = zlen pre ->
  q = zlen pre + zlen w + zlen (text_es es) + 1 ->
  toks buf (mkLexer q q q) evs ->
  toks buf lx (ev_es (zlen pre) (zlen pre + zlen w) es ++ mkEvent TRB q q :: evs).

Lemma toks_at buf lx evs evs' : toks buf lx evs -> evs = evs' -> toks buf lx evs'.
Proof. intros H <-. exact H. Qed.

Ltac andb_split := repeat match goal with
  | H : _ && _ = true |- _ => apply andb_true_iff in H; destruct H
  end.

Lemma lex_all_values : (forall v, lex_container v) /\ (forall ms, lex_members ms) /\ (forall es, lex_elements es).
Proof.
  apply json_all_ind.
  - intros s buf pre w post lx evs cp tb e H. discriminate H.
  - intros s buf pre w post lx evs cp tb e H. discriminate H.
  - (* object *)
    intros w0 ms IH buf pre w post lx evs cp tb e _ Hwf Hsafe Hw Hb Hn He Hk.
    cbn [wf lex_safe] in *. andb_split.
    cbn [ev_val app]. rewrite <- app_assoc. cbn [app].
    set (q := zlen pre + zlen w + 1).
    cbn [text] in Hb, He. change (B "{") with ["{"%char] in *. change (B "}") with ["}"%char] in *.
    eapply (toks_struct buf lx pre w "{"%char (w0 ++ text_ms ms ++ "}"%char :: post)); eauto.
    + rewrite Hb. leq.
    + fold q. eapply toks_at.
      * eapply (IH buf (pre ++ w ++ ["{"%char]) w0 post (mkLexer q q q) evs e); eauto.
        -- rewrite Hb. leq.
        -- cbn. unfold q. zlc.
        -- cbn. unfold q. zlc.
        -- rewrite He. zlc.
      * f_equal.
        -- f_equal; unfold q; zlc.
        -- cbn [text]. change (B "{") with ["{"%char] in *. change (B "}") with ["}"%char] in *.
           do 2 f_equal; rewrite He; zlc.
  - (* array *)
    intros w0 es IH buf pre w post lx evs cp tb e _ Hwf Hsafe Hw Hb Hn He Hk.
    cbn [wf lex_safe] in *. andb_split.
    cbn [ev_val app]. rewrite <- app_assoc. cbn [app].
    set (q := zlen pre + zlen w + 1).
    cbn [text] in Hb, He. change (B "[") with ["["%char] in *. change (B "]") with ["]"%char] in *.
    eapply (toks_struct buf lx pre w "["%char (w0 ++ text_es es ++ "]"%char :: post)); eauto.
    + rewrite Hb. leq.
    + fold q. eapply toks_at.
      * eapply (IH buf (pre ++ w ++ ["["%char]) w0 post (mkLexer q q q) evs e); eauto.
        -- rewrite Hb. leq.
        -- cbn. unfold q. zlc.
        -- cbn. unfold q. zlc.
        -- rewrite He. zlc.
      * f_equal.
        -- f_equal; unfold q; zlc.
        -- cbn [text]. change (B "[") with ["["%char] in *. change (B "]") with ["]"%char] in *.
           do 2 f_equal; rewrite He; zlc.
  - (* no members *)
    intros buf pre w post lx evs q _ _ Hw Hb Hc Hn Hq Hk.
    cbn [ev_ms app text_ms] in *.
    eapply (toks_struct buf lx pre w "}"%char post); eauto. rewrite Hq. zlc.
  - (* member *)
    intros p k v IHv ms IHms buf pre w post lx evs q Hwf Hsafe Hw Hb Hc Hn Hq Hk.
    cbn [wf_ms lex_safe_ms] in *. andb_split.
    match goal with H : (zlen k <=? max_key) = true |- _ => apply Z.leb_le in H end.
    cbn [ev_ms app].
    set (oc := zlen pre + zlen w + zlen (w_before p) + zlen k + 2 + zlen (w_colon p)).
    change (B ":") with [":"%char] in *. change (B ",") with [","%char] in *.
    set (pre2 := pre ++ w ++ w_before p ++ (DQ :: k ++ [DQ]) ++ w_colon p ++ [":"%char]).
    assert (Hp2 : zlen pre2 = oc + 1) by (unfold pre2, oc; zlc).
    apply toks_at with (evs := mkEvent (TKY k) (nxt (mkLexer oc (cur_ptr lx + 1) (oc + 1)))
                                 (cur_start (mkLexer oc (cur_ptr lx + 1) (oc + 1)))
         :: (ev_val oc (oc + 1 + zlen (w_value p)) (lead_bt (w_after p)) v ++
      match ms with
      | MNil => []
      | _ => let oe := oc + 1 + zlen (w_value p) + zlen (text v) + zlen (w_after p) in
             mkEvent TCOM (oe + 1) (oe + 1) :: ev_ms (oe + 1) (oe + 1) ms
      end) ++ mkEvent TRCB q q :: evs).
    2:{ rewrite Hc. reflexivity. }
    eapply (toks_cons buf lx (TKY k)).
    + eapply (next_key buf lx pre (w ++ w_before p) k (w_colon p)); auto.
      * rewrite Hb. cbn [text_ms]. change (B ":") with [":"%char]. leq.
      * rewrite ws_app. apply andb_true_iff. split; assumption.
      * unfold oc. zlc.
    + discriminate.
    + rewrite <- app_assoc. destruct ms as [|p' k' v' ms'].
      * (* last member *)
        eapply toks_at.
        -- eapply (lex_value v IHv buf pre2 (w_value p) (w_after p) "}"%char TRCB post
               (mkLexer oc (cur_ptr lx + 1) (oc + 1)) evs q); auto.
           ++ right; left; auto.
           ++ rewrite Hb. unfold pre2. cbn [text_ms]. change (B ":") with [":"%char].
              rewrite app_nil_r. leq.
           ++ destruct v; cbn [gap_ok]; auto.
              match goal with H : starts_blank_or_nil _ && _ = true |- _ =>
                apply andb_true_iff in H; destruct H as [Hs1 Hs2] end.
              split; [exact Hs1|]. left. rewrite andb_false_r, orb_false_r in Hs2.
              destruct (w_value p); discriminate.
           ++ rewrite Hq. unfold pre2. cbn [text_ms]. change (B ":") with [":"%char]. zlc.
        -- cbn [cur_ptr app]. rewrite Hp2. reflexivity.
      * set (ms1 := MCons p' k' v' ms') in *.
        cbn [app].
        set (oe := oc + 1 + zlen (w_value p) + zlen (text v) + zlen (w_after p)).
        eapply toks_at.
        -- eapply (lex_value v IHv buf pre2 (w_value p) (w_after p) ","%char TCOM
               (text_ms ms1 ++ "}"%char :: post)
               (mkLexer oc (cur_ptr lx + 1) (oc + 1)) _ (oe + 1)); auto.
           ++ left; auto.
           ++ rewrite Hb. unfold pre2, ms1. cbn [text_ms]. change (B ":") with [":"%char].
              change (B ",") with [","%char]. leq.
           ++ destruct v; cbn [gap_ok]; auto.
              match goal with H : starts_blank_or_nil _ && _ = true |- _ =>
                apply andb_true_iff in H; destruct H as [Hs1 Hs2] end.
              split; [exact Hs1|]. apply orb_true_iff in Hs2 as [Hs2|Hs2].
              ** left. destruct (w_value p); discriminate.
              ** right; right. cbn. split; [liac|]. split; [|reflexivity].
                 destruct (w_after p); [reflexivity|discriminate].
           ++ rewrite Hp2. unfold oe. zlc.
           ++ eapply (IHms buf (pre2 ++ w_value p ++ text v ++ w_after p ++ [","%char]) [] post
                 (mkLexer (oe + 1) (oe + 1) (oe + 1)) evs q); auto.
              ** rewrite Hb. unfold pre2, ms1. cbn [text_ms]. change (B ":") with [":"%char].
                 change (B ",") with [","%char]. leq.
              ** cbn. zlc.
              ** cbn. zlc.
              ** rewrite Hq. unfold ms1. cbn [text_ms]. change (B ":") with [":"%char].
                 change (B ",") with [","%char]. unfold pre2. zlc.
        -- cbn [cur_ptr]. rewrite Hp2. do 3 f_equal. unfold ms1.
           f_equal; zlc.
  - (* no elements *)
    intros buf pre w post lx evs q _ _ Hw Hb Hc Hn Hq Hk.
    cbn [ev_es app text_es] in *.
    eapply (toks_struct buf lx pre w "]"%char post); eauto. rewrite Hq. zlc.
  - (* element *)
    intros wb v IHv wa es IHes buf pre w post lx evs q Hwf Hsafe Hw Hb Hc Hn Hq Hk.
    cbn [wf_es lex_safe_es] in *. andb_split.
    cbn [ev_es].
    change (B ",") with [","%char] in *.
    assert (Hww : ws (w ++ wb) = true) by (rewrite ws_app; apply andb_true_iff; auto).
    rewrite <- app_assoc.
    destruct es as [|wb' v' wa' es'].
    + eapply toks_at.
      * eapply (lex_value v IHv buf pre (w ++ wb) wa "]"%char TRB post lx evs q); auto.
        -- right; right; auto.
        -- rewrite Hb. cbn [text_es]. rewrite app_nil_r. leq.
        -- destruct v; cbn [gap_ok]; auto. split; [assumption|]. right; left. liac.
        -- rewrite Hq. cbn [text_es]. zlc.
      * cbn [app]. f_equal. rewrite Hc. f_equal. zlc.
    + set (es1 := ECons wb' v' wa' es') in *. cbn [app].
      set (oe := zlen pre + zlen w + zlen wb + zlen (text v) + zlen wa).
      eapply toks_at.
      * eapply (lex_value v IHv buf pre (w ++ wb) wa ","%char TCOM
             (text_es es1 ++ "]"%char :: post) lx _ (oe + 1)); auto.
        -- left; auto.
        -- rewrite Hb. unfold es1. cbn [text_es]. change (B ",") with [","%char]. leq.
        -- destruct v; cbn [gap_ok]; auto. split; [assumption|]. right; left. liac.
        -- unfold oe. zlc.
        -- eapply (IHes buf (pre ++ (w ++ wb) ++ text v ++ wa ++ [","%char]) [] post
             (mkLexer (oe + 1) (oe + 1) (oe + 1)) evs q); auto.
           ++ rewrite Hb. unfold es1. cbn [text_es]. change (B ",") with [","%char]. leq.
           ++ cbn. unfold oe. zlc.
           ++ cbn. unfold oe. zlc.
           ++ rewrite Hq. unfold es1. cbn [text_es]. change (B ",") with [","%char]. zlc.
      * rewrite Hc. f_equal; [f_equal; zlc|].
        f_equal. unfold es1, oe. f_equal. f_equal; zlc.
Qed.
