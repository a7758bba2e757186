(** Documents as flat sequences of lexemes: lexing a flat sequence, and cutting
    it into pieces. *)
From Verif Require Import Base Util Lexer Spec LexProof LexDoc LexMain CutSpec.
From Coq Require Import Lia.
Open Scope Z_scope.
Ltac lq := repeat progress (cbn [app]; rewrite <- ?app_assoc); reflexivity.

(** * Lexemes *)
Inductive lexeme : Type :=
| XSym (c : ascii)
| XKey (k wc : bytes)
| XStr (s : bytes)
| XBare (s : bytes).
Definition item := (bytes * lexeme)%type.

Definition xtext (x : lexeme) : bytes :=
  match x with
  | XSym c => [c]
  | XKey k wc => DQ :: k ++ DQ :: wc ++ [":"%char]
  | XStr s => DQ :: s ++ [DQ]
  | XBare s => s
  end.
Definition is_sym (c : ascii) : bool :=
  Ascii.eqb c "{"%char || Ascii.eqb c "}"%char || Ascii.eqb c "["%char || Ascii.eqb c "]"%char || Ascii.eqb c ","%char.
Definition sym_token (c : ascii) : token := match struct_token c with Some t => t | None => TEND end.
Definition xtoken (x : lexeme) : token :=
  match x with
  | XSym c => sym_token c
  | XKey k _ => TKY k
  | XStr s => TPRI (DQ :: s ++ [DQ])
  | XBare s => TPRI s
  end.
Definition xok (x : lexeme) : bool :=
  match x with
  | XSym c => is_sym c
  | XKey k wc => str_body false k && (zlen k <=? max_key) && forallb blank_char wc
  | XStr s => str_body false s && (zlen s <=? max_str)
  | XBare s => bare_word s && unsigned_word s && (zlen s <=? max_bare)
  end.
Definition xtame (x : lexeme) : bool :=
  match x with XKey k _ => tame_text k | XStr s => tame_text s | _ => true end.

Fixpoint itext (l : list item) : bytes :=
  match l with [] => [] | (w, x) :: l' => w ++ xtext x ++ itext l' end.

(** What came before: a structural token, a key, or a value. *)
Inductive kind : Type := KSym | KKey | KVal.
Definition first_ws (l : list item) : bytes := match l with (w, _) :: _ => w | [] => [] end.
Definition comma_next (l : list item) : bool :=
  match l with ([], XSym c) :: _ => Ascii.eqb c ","%char | _ => false end.
Definition sym_next (l : list item) : bool := match l with (_, XSym _) :: _ => true | _ => false end.

Definition kind_after (x : lexeme) : kind :=
  match x with XSym _ => KSym | XKey _ _ => KKey | _ => KVal end.
Definition bare_ok (k : kind) (w : bytes) (l : list item) : bool :=
  starts_blank_or_nil (first_ws l) &&
  (nonempty w || match k with KSym => true | KKey => comma_next l | KVal => false end).

Fixpoint chain (k : kind) (l : list item) (post : bytes) : bool :=
  match l with
  | [] => match k with KSym => ws post | _ => false end
  | (w, x) :: l' =>
      ws w && xok x
      && match k, x with KVal, XSym c => is_delim c | KVal, _ => false | _, _ => true end
      && match x with XBare _ => bare_ok k w l' | _ => true end
      && chain (kind_after x) l' post
  end.

(** The token and [next_start] of every lexeme, for a text at offset [o]. *)
Fixpoint marks (o : Z) (l : list item) : list (token * Z) :=
  match l with
  | [] => []
  | (w, x) :: l' =>
      let e := o + zlen w + zlen (xtext x) in
      (xtoken x, match x with XStr _ => e + lead_bt (first_ws l') | _ => e end) :: marks e l'
  end.
Definition mark (e : event) : token * Z := (e_tok e, e_next e).

(** * Lexing *)
Lemma sym_struct c : is_sym c = true -> struct_token c = Some (sym_token c) /\ is_delim c = true \/
  (c = "{"%char \/ c = "["%char) /\ struct_token c = Some (sym_token c).
Proof.
  unfold is_sym. intros H. repeat (apply orb_true_iff in H; destruct H as [H|H]); apply Ascii.eqb_eq in H; subst c; cbn; auto 6.
Qed.
Lemma sym_facts c : is_sym c = true -> struct_token c = Some (sym_token c) /\ sym_token c <> TEND /\
  blank_char c = false /\ c <> ":"%char /\ ws_char c = false /\ c <> DQ /\ c <> NUL.
Proof.
  unfold is_sym. intros H. repeat (apply orb_true_iff in H; destruct H as [H|H]); apply Ascii.eqb_eq in H; subst c;
  repeat split; discriminate.
Qed.

Definition at_kind (k : kind) (lx : lexer) (pre : bytes) (l : list item) : Prop :=
  match k with
  | KSym => cur_ptr lx = zlen pre /\ nxt lx = zlen pre
  | KKey => cur_ptr lx = zlen pre - 1 /\ nxt lx = zlen pre
  | KVal => nxt lx = zlen pre + lead_bt (first_ws l) \/ nxt lx = zlen pre
  end.

Lemma first_char_ok w x r : ws w = true -> xok x = true -> w = [] \/ blank_char (hd_char w) = false ->
  (match x with XSym _ => True | _ => False end) ->
  blank_char (hd_char (w ++ xtext x ++ r)) = false /\ hd_char (w ++ xtext x ++ r) <> ":"%char.
Proof.
  intros Hw Hx Hb Hs. destruct x as [c| | |]; try contradiction. destruct w as [|a w].
  - cbn. cbn in Hx. apply sym_facts in Hx. intuition.
  - destruct Hb as [Hb|Hb]; [discriminate|]. cbn in *. split; [exact Hb|]. intros ->. discriminate.
Qed.

Lemma flat_toks buf post : forall l k pre lx,
  chain k l post = true -> buf = pre ++ itext l ++ post -> at_kind k lx pre l ->
  exists evs, toks buf lx evs /\ map mark evs = marks (zlen pre) l.
Proof.
  induction l as [|[w x] l IH]; intros k pre lx Hc Hb Hk; cbn [chain itext marks app] in *.
  - destruct k; try discriminate. destruct Hk as [_ Hn]. exists []. split; [|reflexivity].
    exists 1%nat. cbn [tokens_from]. rewrite (next_end buf lx pre post Hb Hn Hc). reflexivity.
  - apply andb_true_iff in Hc as [Hc Hrest]. apply andb_true_iff in Hc as [Hc Hbare]. apply andb_true_iff in Hc as [Hc Hkx].
    apply andb_true_iff in Hc as [Hw Hx].
    set (e := zlen pre + zlen w + zlen (xtext x)) in *.
    assert (Hpre' : zlen (pre ++ w ++ xtext x) = e) by (unfold e; zlc).
    assert (Hb' : buf = (pre ++ w ++ xtext x) ++ itext l ++ post) by (rewrite Hb, <- ?app_assoc; reflexivity).
    destruct x as [c|kk wc|s|s]; cbn [kind_after xtoken xtext xok] in *.
    + (* structural *)
      destruct (sym_facts c Hx) as (Hst & Hne & _).
      assert (Hn : exists pre1 w1, pre ++ w = pre1 ++ w1 /\ nxt lx = zlen pre1 /\ ws w1 = true).
      { assert (H0 : nxt lx = zlen pre -> exists pre1 w1, pre ++ w = pre1 ++ w1 /\ nxt lx = zlen pre1 /\ ws w1 = true) by (intros; exists pre, w; auto).
        destruct k; try (apply H0; apply Hk). destruct Hk as [Hk|Hk]; [|auto]. cbn [first_ws] in Hk.
        destruct (split_blanks w) as (bl & r & -> & Hblk & Hlen & _). exists (pre ++ bl), r. rewrite ws_app in Hw. apply andb_true_iff in Hw as [_ Hw].
        split; [rewrite app_assoc; reflexivity|]. split; [rewrite Hk, <- Hlen; zlc|exact Hw]. }
      destruct Hn as (pre1 & w1 & Epw & Hn & Hw1).
      destruct (IH KSym (pre ++ w ++ [c]) (mkLexer e e e) Hrest Hb') as (evs & Ht & Em).
      { cbn. rewrite Hpre'. auto. }
      exists (mkEvent (sym_token c) e e :: evs). split.
      * apply (toks_struct buf lx pre1 w1 c (itext l ++ post)); auto.
        -- rewrite Hb. transitivity ((pre ++ w) ++ [c] ++ itext l ++ post); [lq|]. rewrite Epw. lq.
        -- unfold e. assert (E : zlen (pre ++ w) = zlen (pre1 ++ w1)) by (rewrite Epw; reflexivity). revert E. zlc.
      * cbn [map]. unfold mark at 1. cbn. f_equal. rewrite Em, Hpre'. reflexivity.
    + (* key *)
      apply andb_true_iff in Hx as [Hx Hwc]. apply andb_true_iff in Hx as [Hs Hl]. apply Z.leb_le in Hl.
      assert (Hn : nxt lx = zlen pre) by (destruct k; [apply Hk|apply Hk|discriminate]).
      assert (Hkey : nextToken buf lx = Ok (TKY kk, mkLexer (e - 1) (cur_ptr lx + 1) e)).
      { replace e with (e - 1 + 1) at 2 by lia. apply (next_key buf lx pre w kk wc (itext l ++ post)); auto.
        - rewrite Hb. lq.
        - unfold e. zlc. }
      destruct (IH KKey (pre ++ w ++ DQ :: kk ++ DQ :: wc ++ [":"%char]) (mkLexer (e - 1) (cur_ptr lx + 1) e) Hrest Hb') as (evs & Ht & Em).
      { cbn. rewrite Hpre'. auto. }
      exists (mkEvent (TKY kk) e (cur_ptr lx + 1) :: evs). split.
      * apply (toks_cons buf lx (TKY kk) (mkLexer (e - 1) (cur_ptr lx + 1) e)); auto. discriminate.
      * cbn [map]. unfold mark at 1. cbn. f_equal. rewrite Em, Hpre'. reflexivity.
    + (* string *)
      apply andb_true_iff in Hx as [Hs Hl]. apply Z.leb_le in Hl.
      assert (Hn : nxt lx = zlen pre) by (destruct k; [apply Hk|apply Hk|discriminate]).
      destruct l as [|[w' x'] l']; [discriminate|]. cbn [first_ws] in *.
      cbn [chain] in Hrest. pose proof Hrest as Hrest0.
      apply andb_true_iff in Hrest as [Hr Hrest']. apply andb_true_iff in Hr as [Hr _]. apply andb_true_iff in Hr as [Hr Hsym].
      apply andb_true_iff in Hr as [Hw' Hx']. destruct x' as [c'| | |]; try discriminate.
      destruct (split_blanks w') as (bl & r & Ew & Hblk & Hlen & Hr).
      assert (Hhd : blank_char (hd_char (r ++ [c'] ++ itext l' ++ post)) = false /\ hd_char (r ++ [c'] ++ itext l' ++ post) <> ":"%char).
      { apply (first_char_ok r (XSym c') (itext l' ++ post)); auto.
        - rewrite Ew, ws_app in Hw'. apply andb_true_iff in Hw' as [_ Hw']. exact Hw'.
        - destruct Hr as [->|[[Hr _]|Hr]]; [auto|auto|]. exfalso. rewrite Ew, ws_app in Hw'. apply andb_true_iff in Hw' as [_ Hw']. congruence. }
      assert (Hstr : nextToken buf lx = Ok (TPRI (DQ :: s ++ [DQ]), mkLexer (cur_ptr lx) (cur_ptr lx + 1) (e + lead_bt w'))).
      { rewrite (next_string buf lx pre w s bl (r ++ [c'] ++ itext l' ++ post)); auto.
        - do 3 f_equal. rewrite <- Hlen. unfold e. zlc.
        - rewrite Hb. cbn [itext xtext]. rewrite Ew. lq.
        - apply Hhd.
        - apply Hhd. }
      destruct (IH KVal (pre ++ w ++ DQ :: s ++ [DQ]) (mkLexer (cur_ptr lx) (cur_ptr lx + 1) (e + lead_bt w')) Hrest0 Hb') as (evs & Ht & Em).
      { cbn [at_kind nxt first_ws]. left. rewrite Hpre'. reflexivity. }
      exists (mkEvent (TPRI (DQ :: s ++ [DQ])) (e + lead_bt w') (cur_ptr lx + 1) :: evs). split.
      * apply (toks_cons buf lx (TPRI (DQ :: s ++ [DQ])) (mkLexer (cur_ptr lx) (cur_ptr lx + 1) (e + lead_bt w'))); auto. discriminate.
      * cbn [map]. unfold mark at 1. cbn [e_tok e_next]. f_equal. rewrite Em, Hpre'. reflexivity.
    + (* bare *)
      apply andb_true_iff in Hx as [Hx Hl]. apply andb_true_iff in Hx as [Hs Hu]. apply Z.leb_le in Hl.
      unfold bare_ok in Hbare. apply andb_true_iff in Hbare as [Hsb Hgap].
      assert (Hn : nxt lx = zlen pre) by (destruct k; [apply Hk|apply Hk|discriminate]).
      destruct l as [|[w' x'] l']; [discriminate|]. cbn [first_ws] in *.
      pose proof Hrest as Hrest0. cbn [chain] in Hrest.
      apply andb_true_iff in Hrest as [Hr Hrest']. apply andb_true_iff in Hr as [Hr _]. apply andb_true_iff in Hr as [Hr Hsym].
      apply andb_true_iff in Hr as [Hw' Hx']. destruct x' as [c'| | |]; try discriminate.
      assert (Hd : exists dd r, w' ++ [c'] ++ itext l' ++ post = dd :: r /\ is_delim dd = true /\ (w <> [] \/ cur_ptr lx = nxt lx \/ (cur_ptr lx = nxt lx - 1 /\ dd = ","%char))).
      { destruct w' as [|b w'].
        - exists c', (itext l' ++ post). split; [reflexivity|]. cbn in Hx'. destruct w as [|aw w].
          + destruct k; [|cbn in Hgap; apply Ascii.eqb_eq in Hgap; subst c'; split; [reflexivity|]; destruct Hk; right; right; split; [lia|reflexivity]|discriminate].
            destruct Hk as [Hk1 Hk2]. split; [exact Hsym|right; left; lia].
          + split; [exact Hsym|]. left. discriminate.
        - exists b, (w' ++ [c'] ++ itext l' ++ post). split; [reflexivity|]. split; [apply blank_is_delim; exact Hsb|].
          destruct w as [|aw w]; [|left; discriminate]. right. destruct k; [destruct Hk; left; lia|discriminate|discriminate]. }
      destruct Hd as (dd & r & Er & Hdel & Hg).
      assert (Hn' : nextToken buf lx = Ok (TPRI s, mkLexer (e + 1) (e + 2) e)).
      { apply (next_bare buf lx pre w s dd r); auto. rewrite Hb. cbn [itext xtext]. rewrite <- Er. lq. }
      destruct (IH KVal (pre ++ w ++ s) (mkLexer (e + 1) (e + 2) e) Hrest0 Hb') as (evs & Ht & Em).
      { cbn [at_kind nxt]. right. rewrite Hpre'. reflexivity. }
      exists (mkEvent (TPRI s) e (e + 2) :: evs). split.
      * apply (toks_cons buf lx (TPRI s) (mkLexer (e + 1) (e + 2) e)); auto. discriminate.
      * cbn [map]. unfold mark at 1. cbn [e_tok e_next]. f_equal. rewrite Em, Hpre'. reflexivity.
Qed.

Lemma toks_lex l post : chain KSym l post = true -> no_nul (itext l ++ post) ->
  exists evs, lex_all (itext l ++ post) = Ok evs /\ map mark evs = marks 0 l.
Proof.
  intros Hc Hn. destruct (flat_toks (itext l ++ post) post l KSym [] initLexer Hc eq_refl) as (evs & Ht & Em); [cbn; auto|].
  exists evs. split; [|exact Em]. apply toks_lex_all. rewrite c_string_id by exact Hn. exact Ht.
Qed.

(** * The lexemes of a document *)
Fixpoint items_val (w : bytes) (v : json) : list item :=
  match v with
  | JBare s => [(w, XBare s)]
  | JStr s => [(w, XStr s)]
  | JObj w0 ms => (w, XSym "{"%char) :: items_ms w0 ms
  | JArr w0 es => (w, XSym "["%char) :: items_es w0 es
  end
with items_ms (w : bytes) (ms : members) : list item :=
  match ms with
  | MNil => [(w, XSym "}"%char)]
  | MCons p k v ms' =>
      (w ++ w_before p, XKey k (w_colon p)) :: items_val (w_value p) v ++
      match ms' with
      | MNil => [(w_after p, XSym "}"%char)]
      | _ => (w_after p, XSym ","%char) :: items_ms [] ms'
      end
  end
with items_es (w : bytes) (es : elements) : list item :=
  match es with
  | ENil => [(w, XSym "]"%char)]
  | ECons wb v wa es' =>
      items_val (w ++ wb) v ++
      match es' with
      | ENil => [(wa, XSym "]"%char)]
      | _ => (wa, XSym ","%char) :: items_es [] es'
      end
  end.
Definition items_doc (d : doc) : list item := items_val (d_pre d) (d_val d).

Lemma itext_app a b : itext (a ++ b) = itext a ++ itext b.
Proof. induction a as [|[w x] a IH]; [reflexivity|]. cbn [app itext]. rewrite IH. lq. Qed.

Lemma items_text :
  (forall v w, itext (items_val w v) = w ++ text v) /\
  (forall ms w, itext (items_ms w ms) = w ++ text_ms ms ++ ["}"%char]) /\
  (forall es w, itext (items_es w es) = w ++ text_es es ++ ["]"%char]).
Proof.
  apply json_all_ind.
  - intros s w. cbn. rewrite app_nil_r. reflexivity.
  - intros s w. cbn [items_val itext xtext text]. rewrite app_nil_r. reflexivity.
  - intros w0 ms IH w. cbn [items_val itext xtext text]. rewrite IH. change (B "{") with ["{"%char]. change (B "}") with ["}"%char]. lq.
  - intros w0 es IH w. cbn [items_val itext xtext text]. rewrite IH. change (B "[") with ["["%char]. change (B "]") with ["]"%char]. lq.
  - intros w. reflexivity.
  - intros p k v IHv ms IHms w. cbn [items_ms itext xtext text_ms]. rewrite itext_app, IHv.
    change (B ":") with [":"%char]. change (B ",") with [","%char].
    destruct ms as [|p' k' v' ms']; [cbn [itext xtext]; lq|].
    cbn [itext xtext]. rewrite IHms. lq.
  - intros w. reflexivity.
  - intros wb v IHv wa es IHes w. cbn [items_es text_es]. rewrite itext_app, IHv. change (B ",") with [","%char].
    destruct es as [|wb' v' wa' es']; [cbn [itext xtext]; lq|].
    cbn [itext xtext]. rewrite IHes. lq.
Qed.

Lemma items_tokens :
  (forall v w, map (fun i => xtoken (snd i)) (items_val w v) = tok_val v) /\
  (forall ms w, map (fun i => xtoken (snd i)) (items_ms w ms) = tok_ms ms ++ [TRCB]) /\
  (forall es w, map (fun i => xtoken (snd i)) (items_es w es) = tok_es es ++ [TRB]).
Proof.
  apply json_all_ind; try reflexivity.
  - intros w0 ms IH w. cbn [items_val map snd tok_val]. rewrite IH. reflexivity.
  - intros w0 es IH w. cbn [items_val map snd tok_val]. rewrite IH. reflexivity.
  - intros p k v IHv ms IHms w. cbn [items_ms map snd xtoken tok_ms]. rewrite map_app, IHv.
    destruct ms as [|p' k' v' ms']; [cbn [map app]; rewrite ?app_nil_r; lq|].
    cbn [map snd]. rewrite IHms. lq.
  - intros wb v IHv wa es IHes w. cbn [items_es tok_es]. rewrite map_app, IHv.
    destruct es as [|wb' v' wa' es']; [cbn [map app]; rewrite ?app_nil_r; lq|].
    cbn [map snd]. rewrite IHes. lq.
Qed.

(** What may follow a value. *)
Definition after_kind (v : json) : kind := if is_container v then KSym else KVal.

Lemma items_chain :
  (forall v k w l post, wf v = true -> lex_safe v = true -> ws w = true -> k <> KVal ->
     match v with JBare _ => bare_ok k w l = true | _ => True end ->
     chain (after_kind v) l post = true -> chain k (items_val w v ++ l) post = true) /\
  (forall ms w l post, wf_ms ms = true -> lex_safe_ms ms = true -> ws w = true ->
     chain KSym l post = true -> chain KSym (items_ms w ms ++ l) post = true) /\
  (forall es w l post, wf_es es = true -> lex_safe_es es = true -> ws w = true ->
     chain KSym l post = true -> chain KSym (items_es w es ++ l) post = true).
Proof.
  apply json_all_ind.
  - intros s k w l post Hwf Hs Hw Hkk Hb Hl. cbn [items_val app chain]. cbn in Hwf, Hs, Hl. rewrite Hw. cbn [xok].
    apply andb_true_iff in Hs as [-> ->]. rewrite Hwf, Hb. destruct k; [| |congruence]; exact Hl.
  - intros s k w l post Hwf Hs Hw Hkk _ Hl. cbn [items_val app chain]. cbn in Hwf, Hs, Hl. rewrite Hw. cbn [xok].
    rewrite Hwf, Hs. destruct k; [| |congruence]; exact Hl.
  - intros w0 ms IH k w l post Hwf Hs Hw Hkk _ Hl. cbn [items_val app chain wf lex_safe] in *. apply andb_true_iff in Hwf as [Hw0 Hwf].
    rewrite Hw. destruct k; [| |congruence]; cbn; apply IH; auto.
  - intros w0 es IH k w l post Hwf Hs Hw Hkk _ Hl. cbn [items_val app chain wf lex_safe] in *. apply andb_true_iff in Hwf as [Hw0 Hwf].
    rewrite Hw. destruct k; [| |congruence]; cbn; apply IH; auto.
  - intros w l post _ _ Hw Hl. cbn [items_ms app chain]. rewrite Hw. exact Hl.
  - intros p kk v IHv ms IHms w l post Hwf Hs Hw Hl. cbn [wf_ms lex_safe_ms items_ms] in *. andb_split.
    rewrite <- app_comm_cons, <- app_assoc. cbn [chain xok kind_after]. rewrite ws_app, Hw.
    repeat match goal with H : ?b = true |- context [?b] => rewrite H end. cbn [andb].
    assert (G : forall l', chain KSym l' post = true ->
       match v with JBare _ => starts_blank_or_nil (w_after p) && (nonempty (w_value p) || negb (nonempty (w_after p)) && match ms with MNil => false | _ => true end) | _ => true end = true ->
       chain KKey (items_val (w_value p) v ++ (w_after p, XSym (match ms with MNil => "}" | _ => "," end)%char) :: l') post = true).
    { intros l' Hl' Hg. apply IHv; auto; [discriminate| |].
      - destruct v; auto. unfold bare_ok. cbn [first_ws comma_next]. apply andb_true_iff in Hg as [-> Hg]. cbn [andb].
        apply orb_true_iff in Hg as [->|Hg]; [reflexivity|]. apply orb_true_iff. right.
        apply andb_true_iff in Hg as [Hg1 Hg2]. destruct (w_after p); [|discriminate]. destruct ms; [discriminate|reflexivity].
      - cbn [chain]. match goal with H : ws (w_after p) = true |- _ => rewrite H end. destruct v, ms; cbn; exact Hl'. }
    destruct ms as [|p' k' v' ms']; [apply G; auto|].
    rewrite <- app_comm_cons. apply G; auto.
  - intros w l post _ _ Hw Hl. cbn [items_es app chain]. rewrite Hw. exact Hl.
  - intros wb v IHv wa es IHes w l post Hwf Hs Hw Hl. cbn [wf_es lex_safe_es items_es] in *. andb_split.
    rewrite <- app_assoc.
    assert (G : forall l', chain KSym l' post = true ->
       chain KSym (items_val (w ++ wb) v ++ (wa, XSym (match es with ENil => "]" | _ => "," end)%char) :: l') post = true).
    { intros l' Hl'. apply IHv; auto; [rewrite ws_app; apply andb_true_iff; auto|discriminate| |].
      - destruct v; auto. unfold bare_ok. cbn [first_ws comma_next]. rewrite orb_true_r, andb_true_r. assumption.
      - cbn [chain]. match goal with H : ws wa = true |- _ => rewrite H end. destruct v, es; cbn; exact Hl'. }
    destruct es as [|wb' v' wa' es']; [apply G; auto|].
    rewrite <- app_comm_cons. apply G; auto.
Qed.

Lemma items_tame :
  (forall v w, tame v = true -> forallb (fun i => xtame (snd i)) (items_val w v) = true) /\
  (forall ms w, tame_ms ms = true -> forallb (fun i => xtame (snd i)) (items_ms w ms) = true) /\
  (forall es w, tame_es es = true -> forallb (fun i => xtame (snd i)) (items_es w es) = true).
Proof.
  apply json_all_ind; try reflexivity.
  - intros s w H. cbn in *. rewrite H. reflexivity.
  - intros w0 ms IH w H. cbn [items_val forallb snd xtame]. apply IH. exact H.
  - intros w0 es IH w H. cbn [items_val forallb snd xtame]. apply IH. exact H.
  - intros p k v IHv ms IHms w H. cbn [items_ms forallb snd xtame tame_ms] in *. andb_split.
    rewrite forallb_app, IHv by assumption. match goal with H : tame_text k = true |- _ => rewrite H end.
    destruct ms; [reflexivity|]. cbn [forallb snd xtame andb]. apply IHms. assumption.
  - intros wb v IHv wa es IHes w H. cbn [items_es tame_es] in *. andb_split.
    rewrite forallb_app, IHv by assumption. destruct es; [reflexivity|]. cbn [forallb snd xtame andb]. apply IHes. assumption.
Qed.

Lemma doc_items dc : wf_doc dc = true -> lex_safe (d_val dc) = true ->
  doc_text dc = itext (items_doc dc) ++ d_post dc /\ chain KSym (items_doc dc) (d_post dc) = true.
Proof.
  unfold wf_doc. intros Hwf Hs. andb_split. unfold items_doc, doc_text. split.
  - rewrite (proj1 items_text). lq.
  - rewrite <- (app_nil_r (items_val _ _)). apply (proj1 items_chain); auto; [discriminate| |].
    + destruct (d_val dc); auto; discriminate.
    + unfold after_kind. match goal with H : is_container _ = true |- _ => rewrite H end. assumption.
Qed.
