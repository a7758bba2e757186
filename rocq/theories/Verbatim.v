(** Every text in the output stands in the file. *)
From Verif Require Import Base Util Spec VerbSpec Lexer LexMain Dfa Stream Builder Eval Filter Loader LoaderProof Run.
Open Scope Z_scope.

Lemma occurs_nil t : occurs [] t.
Proof. exists [], t. reflexivity. Qed.
Lemma occurs_refl t : occurs t t.
Proof. exists [], []. rewrite app_nil_r. reflexivity. Qed.
Lemma occurs_trans a b c : occurs a b -> occurs b c -> occurs a c.
Proof. intros (x & y & ->) (u & v & ->). exists (u ++ x), (y ++ v). rewrite !app_assoc. reflexivity. Qed.
Lemma occurs_skip n a t : occurs a (skipn n t) -> occurs a t.
Proof. intros H. apply (occurs_trans _ _ _ H). exists (firstn n t), []. rewrite app_nil_r, firstn_skipn. reflexivity. Qed.
Lemma occurs_first n t : occurs (firstn n t) t.
Proof. exists [], (skipn n t). cbn. rewrite firstn_skipn. reflexivity. Qed.
Lemma c_string_occurs t : occurs (c_string t) t.
Proof.
  exists []. induction t as [|c t [y IH]]; cbn; [exists []; reflexivity|]. destruct (Ascii.eqb c NUL); [exists (c :: t); reflexivity|].
  exists y. cbn in *. f_equal. exact IH.
Qed.
Lemma c_string_first : forall n t, occurs (c_string (firstn n (t ++ [NUL]))) t.
Proof.
  intros n t. exists []. revert t. induction n as [|n IH]; intros t; [exists t; reflexivity|].
  destruct t as [|c t]; cbn [firstn app c_string].
  - exists []. reflexivity.
  - destruct (Ascii.eqb c NUL); [exists (c :: t); reflexivity|]. destruct (IH t) as [y E]. exists y. cbn in *. f_equal. exact E.
Qed.
Lemma read_occurs buf from n r : read_range buf from n = Ok r -> occurs (c_string r) buf.
Proof.
  unfold read_range. destruct (n <=? 0); [injection 1 as <-; apply occurs_nil|]. destruct ((from <? 0) || _) eqn:E; [discriminate|].
  injection 1 as <-. apply orb_false_iff in E. destruct E as [E1 E2].
  destruct (Z.leb_spec from (zlen buf)).
  - rewrite skipn_app. replace (Z.to_nat from - List.length buf)%nat with O by (unfold zlen in *; lia). cbn [skipn].
    eapply occurs_skip, c_string_first.
  - rewrite skipn_all2 by (rewrite app_length; cbn; unfold zlen in *; lia). rewrite firstn_nil. apply occurs_nil.
Qed.
Lemma sip_occurs cap buf p b e r : substring_in_place cap buf p b e = Ok r -> occurs r buf.
Proof.
  unfold substring_in_place. destruct (_ <? _); [discriminate|]. destruct (read_range _ _ _) as [t|] eqn:E; [|discriminate].
  cbn [bind]. injection 1 as <-. eapply read_occurs; eauto.
Qed.
Lemma sub_occurs buf p b e r : substring buf p b e = Ok r -> occurs r buf.
Proof.
  unfold substring. destruct (_ <? _); [discriminate|]. destruct (read_range _ _ _) as [t|] eqn:E; [|discriminate].
  cbn [bind]. injection 1 as <-. eapply read_occurs; eauto.
Qed.

(** * Tokens *)
Lemma peek_split buf p c : peek buf p = Ok c -> c <> NUL -> 0 <= p /\ skipn (Z.to_nat p) buf = c :: skipn (S (Z.to_nat p)) buf.
Proof.
  unfold peek. destruct (Z.ltb_spec p 0); [discriminate|]. destruct (nth_error buf (Z.to_nat p)) as [x|] eqn:E.
  - injection 1 as ->. intros _. split; [lia|]. clear - E. revert buf E. induction (Z.to_nat p) as [|n IH]; intros [|a buf] E; cbn in *; try discriminate.
    + injection E as ->. reflexivity.
    + apply IH, E.
  - destruct (_ =? _); [|discriminate]. injection 1 as <-. congruence.
Qed.
Lemma peek_occurs buf p c : peek buf p = Ok c -> c <> NUL -> occurs [c] buf.
Proof. intros H Hc. destruct (peek_split _ _ _ H Hc) as [_ E]. apply (occurs_skip (Z.to_nat p)). rewrite E. exists [], (skipn (S (Z.to_nat p)) buf). reflexivity. Qed.

Definition tok_text (t : token) : list bytes :=
  match t with TPRI s | TKY s => [s] | TLCB => [B "{"] | TRCB => [B "}"] | TRB => [B "]"] | _ => [] end.

Lemma firstn_snoc_at {A} : forall n (l : list A) x r, skipn n l = x :: r -> l = firstn n l ++ x :: r.
Proof. intros n l x r E. rewrite <- E, firstn_skipn. reflexivity. Qed.

Lemma string_occurs buf lx start p t lx' : no_nul buf -> peek buf start = Ok DQ -> peek buf p = Ok DQ -> start < p ->
  string_end buf lx start p = Ok (t, lx') -> Forall (fun s => occurs s buf) (tok_text t).
Proof.
  intros Hn Hs Hp Hlt. unfold string_end. destruct (substring_in_place _ _ _ _ _) as [sub|] eqn:E; [|discriminate]. cbn [bind].
  destruct (skip_blanks _ _ _) as [p'|]; [|discriminate]. cbn [bind]. destruct (peek buf (p' + 1)) as [c|]; [|discriminate]. cbn [bind].
  destruct (Ascii.eqb c ":"%char).
  { destruct (strcopy _ _) as [x|] eqn:Ek; [|discriminate]. cbn [bind]. injection 1 as <- _. constructor; [|constructor].
    unfold strcopy in Ek. destruct (_ <? _); [discriminate|]. injection Ek as <-. eapply sip_occurs; eauto. }
  destruct (_ <? _); [discriminate|]. injection 1 as <- _. cbn [tok_text]. constructor; [|constructor].
  destruct (peek_split _ _ _ Hs ltac:(discriminate)) as [H0 Es]. destruct (peek_split _ _ _ Hp ltac:(discriminate)) as [_ Ep].
  unfold substring_in_place in E. destruct (_ <? _); [discriminate|].
  assert (El : ltrim buf start = start) by (unfold ltrim; rewrite Es; cbn; lia). rewrite El in E. clear El.
  set (k := Z.max 0 (p - start - 1)) in *.
  assert (Hk : skipn (Z.to_nat start) buf = DQ :: firstn (Z.to_nat k) (skipn (S (Z.to_nat start)) buf) ++ DQ :: skipn (S (Z.to_nat p)) buf).
  { rewrite Es. f_equal. rewrite <- Ep. replace (Z.to_nat p) with (Z.to_nat k + S (Z.to_nat start))%nat by lia.
    rewrite <- skipn_skipn. symmetry. apply firstn_skipn. }
  assert (Hlen : (Z.to_nat p < List.length buf)%nat).
  { apply (f_equal (@List.length ascii)) in Ep. rewrite skipn_length in Ep. cbn in Ep. lia. }
  assert (Er : sub = firstn (Z.to_nat k) (skipn (S (Z.to_nat start)) buf)).
  { unfold read_range in E. destruct (Z.leb_spec k 0) as [Hk0|Hk0].
    - cbn [bind] in E. injection E as <-. replace (Z.to_nat k) with O by lia. reflexivity.
    - destruct (_ || _); [discriminate|]. cbn [bind] in E. injection E as <-.
      replace (Z.to_nat (start + 1)) with (S (Z.to_nat start)) by lia.
      rewrite skipn_app, firstn_app. rewrite skipn_length.
      replace (Z.to_nat k - (List.length buf - S (Z.to_nat start)))%nat with O by lia. cbn [firstn]. rewrite app_nil_r.
      apply c_string_id. intros Hin. apply Hn. apply (in_skipn _ (S (Z.to_nat start))). rewrite <- (firstn_skipn (Z.to_nat k)). apply in_or_app. left. exact Hin. }
  rewrite Er. apply (occurs_skip (Z.to_nat start)). rewrite Hk. exists [], (skipn (S (Z.to_nat p)) buf). cbn. rewrite <- app_assoc. reflexivity.
Qed.

Lemma bare_occurs buf start tp p t lx : bare_end buf start tp p = Ok (t, lx) -> Forall (fun s => occurs s buf) (tok_text t).
Proof.
  unfold bare_end. destruct (peek _ _) as [c|]; [|discriminate]. cbn [bind].
  match goal with |- bind ?r _ = _ -> _ => destruct r as [sub|] eqn:E; [|discriminate] end. cbn [bind].
  destruct (strcopy _ sub) as [x|] eqn:Ec; [|discriminate]. cbn [bind]. injection 1 as <- _. cbn [tok_text]. constructor; [|constructor].
  unfold strcopy in Ec. destruct (_ <? _); [discriminate|]. injection Ec as <-. destruct (Ascii.eqb c ","%char); eapply sip_occurs; eauto.
Qed.

Lemma scan_occurs buf lx : no_nul buf -> forall f state start tp p t lx',
  (state = 1%nat -> peek buf start = Ok DQ /\ start < p) ->
  scan f buf lx state start tp p = Ok (t, lx') -> Forall (fun s => occurs s buf) (tok_text t).
Proof.
  intros Hn. induction f as [|f IH]; intros state start tp p t lx' Hst; cbn [scan]; [injection 1 as <- _; constructor|].
  destruct (peek buf p) as [c|] eqn:Ec; [|discriminate]. cbn [bind]. destruct state as [|[|state]].
  - destruct (struct_token c) as [t0|] eqn:Et.
    + injection 1 as <- _. unfold struct_token in Et.
      repeat match type of Et with (if Ascii.eqb c ?x then _ else _) = _ => destruct (Ascii.eqb_spec c x) as [->|]; [injection Et as <-; cbn [tok_text]|] end;
        try constructor; try constructor; try discriminate; eapply peek_occurs; eauto; discriminate.
    + destruct (Ascii.eqb_spec c DQ) as [->|].
      * apply IH. intros _. split; [exact Ec|lia].
      * destruct (_ || _); [apply IH; discriminate|]. destruct (is_alnum c); apply IH; discriminate.
  - destruct (Hst eq_refl) as [Hd Hlt]. destruct (Ascii.eqb_spec c DQ) as [->|].
    + destruct (quote_escaped buf p) as [[]|]; [| |discriminate]; cbn [bind].
      * apply IH. intros _. split; [exact Hd|lia].
      * apply string_occurs; auto.
    + apply IH. intros _. split; [exact Hd|lia].
  - destruct (is_delim c); [apply bare_occurs|apply IH; discriminate].
Qed.

Definition texts_in (buf : bytes) (ev : event) : Prop := Forall (fun s => occurs s buf) (tok_text (e_tok ev)).

Lemma tokens_occur buf : no_nul buf -> forall f lx evs, tokens_from f buf lx = Ok evs -> Forall (texts_in buf) evs.
Proof.
  intros Hn. induction f as [|f IH]; intros lx evs; cbn [tokens_from]; [discriminate|].
  destruct (nextToken buf lx) as [[t lx']|] eqn:E; [|discriminate]. cbn [bind]. unfold nextToken in E. apply (scan_occurs buf lx Hn) in E; [|discriminate].
  assert (G : bind (tokens_from f buf lx') (fun rest => Ok (mkEvent t (nxt lx') (cur_start lx') :: rest)) = Ok evs -> Forall (texts_in buf) evs).
  { destruct (tokens_from f buf lx') as [rest|] eqn:Er; [|discriminate]. cbn [bind]. injection 1 as <-. constructor; [exact E|exact (IH _ _ Er)]. }
  destruct t; try exact G. injection 1 as <-. constructor.
Qed.

(** * The engine *)
Section Engine.
  Variable d : dfa.
  Variables buf file : bytes.
  Hypothesis Hb : occurs buf file.
  Definition all_in (tl : list tuple) : Prop := Forall (fun t => occurs (snd t) file) tl.

  Lemma add_in tl s t tl' : all_in tl -> occurs t file -> addTuple tl s t = Ok tl' -> all_in tl'.
  Proof.
    unfold addTuple, strcopy. intros H Ht. destruct (_ <=? _); [discriminate|]. destruct (_ <? _); [discriminate|]. cbn [bind]. injection 1 as <-.
    apply Forall_app. split; [exact H|]. constructor; [exact Ht|constructor].
  Qed.
  Lemma close_in e next tl tl' b : all_in tl -> emit_close d buf e next tl = Ok (tl', b) -> all_in tl'.
  Proof.
    intros H. unfold emit_close. destruct (ms_set _) as [[z|]|]; [| |discriminate]; cbn [bind]; [|injection 1 as <- _; exact H].
    destruct (getMatchedType d e) as [m|]; [|discriminate]. cbn [bind]. destruct (m =? _); [|injection 1 as <- _; exact H].
    destruct (substring buf 0 z next) as [t|] eqn:Et; [|discriminate]. cbn [bind]. destruct (addTuple _ _ _) as [t1|] eqn:Ea; [|discriminate].
    cbn [bind]. injection 1 as <- _. refine (add_in _ _ _ _ H _ Ea). eapply occurs_trans; [eapply sub_occurs; eauto|exact Hb].
  Qed.

  Lemma step_in ev c c' : texts_in buf ev -> all_in (c_tl c) -> core_step d buf c ev = Ok c' -> all_in (c_tl c').
  Proof.
    intros Hev H. unfold core_step. unfold texts_in in Hev. destruct (e_tok ev) eqn:Et; cbn [tok_text] in Hev.
    - apply Forall_inv in Hev. assert (Ho : occurs (B "{") file) by (eapply occurs_trans; eauto).
      unfold do_lcb. destruct (getMatchedType _ _) as [m|]; [|discriminate]. cbn [bind].
      destruct (m =? _); [injection 1 as <-; exact H|]. destruct (m =? _).
      { destruct (addTuple _ _ _) as [tl|] eqn:E; [|discriminate]. cbn [bind]. injection 1 as <-. exact (add_in _ _ _ _ H Ho E). }
      destruct (m =? _).
      { destruct (addTuple _ _ _) as [tl|] eqn:E; [|discriminate]. cbn [bind]. injection 1 as <-. exact (add_in _ _ _ _ H (occurs_nil _) E). }
      injection 1 as <-. exact H.
    - apply Forall_inv in Hev. assert (Ho : occurs (B "}") file) by (eapply occurs_trans; eauto).
      unfold do_rcb. destruct (emit_close _ _ _ _ _) as [[tl b]|] eqn:E; [|discriminate]. cbn [bind]. apply close_in in E; [|exact H].
      destruct (c_ss c) as [|s0 [|[] ss]]; try (injection 1 as <-; exact E).
      + destruct (getMatchedType _ _) as [m|]; [|discriminate]. cbn [bind]. destruct (m =? _); [|injection 1 as <-; exact E].
        destruct (addTuple _ _ _) as [tl'|] eqn:Ea; [|discriminate]. cbn [bind]. injection 1 as <-. exact (add_in _ _ _ _ E Ho Ea).
      + destruct (qs_pop _). injection 1 as <-. exact E.
    - unfold do_lb. destruct (getMatchedType _ _) as [m|]; [|discriminate]. cbn [bind].
      match goal with |- bind ?r _ = _ -> _ => destruct r as [[e tl]|] eqn:E; [|discriminate] end. cbn [bind].
      assert (Htl : all_in tl).
      { destruct (m =? _); [injection E as _ <-; exact H|]. destruct (m =? _); [|injection E as _ <-; exact H].
        destruct (addTuple _ _ _) as [t1|] eqn:Ea; [|discriminate]. injection E as _ <-. exact (add_in _ _ _ _ H (occurs_nil _) Ea). }
      destruct (next_elt _ _ _); [|discriminate]. cbn [bind]. injection 1 as <-. exact Htl.
    - unfold do_rb. destruct (c_ss c) as [|s0 ss]; [injection 1 as <-; exact H|].
      destruct (emit_close _ _ _ _ _) as [[tl b]|] eqn:E; [|discriminate]. cbn [bind]. apply close_in in E; [|exact H].
      destruct ss as [|[] ss]; try (injection 1 as <-; exact E); destruct (qs_pop _); try (injection 1 as <-; exact E). destruct (qs_pop _). injection 1 as <-. exact E.
    - injection 1 as <-. exact H.
    - unfold do_ky. destruct (next_elt _ _ _); [|discriminate]. cbn [bind]. injection 1 as <-. exact H.
    - apply Forall_inv in Hev. unfold do_pri. destruct (c_ss c) as [|top ss]; [injection 1 as <-; exact H|].
      destruct (getMatchedType _ _) as [m|]; [|discriminate]. cbn [bind].
      match goal with |- bind ?r _ = _ -> _ => destruct r as [tl|] eqn:E; [|discriminate] end. cbn [bind].
      assert (Htl : all_in tl).
      { destruct (_ || _); [|injection E as <-; exact H]. refine (add_in _ _ _ _ H _ E). eapply occurs_trans; eauto. }
      destruct top; try (injection 1 as <-; exact Htl). destruct (qs_pop _). injection 1 as <-. exact Htl.
    - injection 1 as <-. exact H.
  Qed.
  Lemma steps_in : forall evs c c', Forall (texts_in buf) evs -> all_in (c_tl c) -> foldM (core_step d buf) evs c = Ok c' -> all_in (c_tl c').
  Proof.
    induction evs as [|ev evs IH]; intros c c' He H; cbn [foldM]; [injection 1 as <-; exact H|].
    destruct (core_step d buf c ev) as [c1|] eqn:E; [|discriminate]. cbn [bind]. inversion_clear He as [|? ? H1 H2]. apply IH; [exact H2|]. eapply step_in; eauto.
  Qed.
End Engine.

Lemma exec_in d stream file c c' : occurs stream file -> all_in file (c_tl c) -> executeAutomaton d stream c = Ok c' -> all_in file (c_tl c').
Proof.
  intros Ho H. unfold executeAutomaton. destruct (lex_all stream) as [evs|] eqn:E; [|discriminate]. cbn [bind]. apply steps_in; auto.
  - eapply occurs_trans; [apply c_string_occurs|exact Ho].
  - unfold lex_all in E. eapply tokens_occur; [|exact E]. apply c_string_no_nul.
Qed.

(** * The filter *)
Section Filter.
  Variable file : bytes.
  Definition fine (l : list bytes) : Prop := Forall (fun t => occurs t file) l.
  Record filter_fine (f : pfilter) : Prop := { ff_out : fine (f_output f); ff_buf : fine (f_buffer f) }.

  Lemma out_fine o t o' : fine o -> occurs t file -> addOutputElement o t = Ok o' -> fine o'.
  Proof.
    unfold addOutputElement, strcopy. intros H Ht. destruct (_ <=? _); [discriminate|]. destruct (_ <? _); [discriminate|]. injection 1 as <-.
    apply Forall_app. split; [exact H|]. constructor; [exact Ht|constructor].
  Qed.
  Lemma outs_fine : forall l o o', fine o -> fine l -> foldM addOutputElement l o = Ok o' -> fine o'.
  Proof.
    induction l as [|t l IH]; intros o o' Ho Hl; cbn [foldM]; [injection 1 as <-; exact Ho|].
    destruct (addOutputElement o t) as [o1|] eqn:E; [|discriminate]. cbn [bind]. inversion_clear Hl as [|? ? H1 H2]. apply IH; [|exact H2]. exact (out_fine _ _ _ Ho H1 E).
  Qed.
  Lemma fine_first n l : fine l -> fine (firstn n l).
  Proof. intros H. unfold fine in *. rewrite <- (firstn_skipn n l) in H. apply Forall_app in H. tauto. Qed.
  Lemma fine_skip n l : fine l -> fine (skipn n l).
  Proof. intros H. unfold fine in *. rewrite <- (firstn_skipn n l) in H. apply Forall_app in H. tauto. Qed.

  Lemma filter_fine_step N x f t f' : filter_fine f -> occurs (snd t) file -> filter_step N x f t = Ok f' -> filter_fine f'.
  Proof.
    intros [H1 H2] Ht. destruct t as [s t]. cbn [snd] in Ht. unfold filter_step. destruct (beq t (B "{")).
    - unfold filter_open. destruct (Nat.leb _ _); [discriminate|]. injection 1 as <-. constructor; assumption.
    - destruct (beq t (B "}")).
      + unfold filter_close. destruct (f_stack f) as [|[ps fi] st]; [discriminate|].
        destruct (read_conds f ps) as [pc|]; [|discriminate]. cbn [bind]. destruct (getContextSubtree x ps) as [[e|]|]; [|discriminate|discriminate]. cbn [bind].
        destruct (evaluateExpression N e pc) as [v|]; [|discriminate]. cbn [bind]. destruct v.
        * destruct st as [|p0 st]; [|injection 1 as <-; constructor; assumption].
          destruct (foldM addOutputElement _ _) as [o|] eqn:Eo; [|discriminate]. cbn [bind]. injection 1 as <-.
          constructor; cbn [f_output f_buffer]; [|apply fine_first, H2]. eapply outs_fine; [exact H1| |exact Eo]. apply fine_skip, H2.
        * injection 1 as <-. constructor; cbn [f_output f_buffer]; [exact H1|apply fine_first, H2].
      + unfold filter_text. destruct (f_stack f) as [|[ps fi] st]; [injection 1 as <-; constructor; assumption|].
        destruct (zread (f_conds f) ps) as [o|]; [|discriminate]. cbn [bind].
        destruct (getContextSubtree x s) as [[e|]|]; [| |discriminate]; cbn [bind].
        * destruct o as [pc|]; [|discriminate]. destruct pc as [|c0 pc].
          -- destruct (addOutputElement _ _) as [b|] eqn:Ea; [|discriminate]. cbn [bind]. injection 1 as <-. constructor; cbn [f_output f_buffer]; [exact H1|]. exact (out_fine _ _ _ H2 Ht Ea).
          -- destruct (node_string e) as [nm|]; [|discriminate]. cbn [bind]. destruct (find_condition _ nm).
             ++ injection 1 as <-. constructor; assumption.
             ++ destruct (addOutputElement _ _) as [b|] eqn:Ea; [|discriminate]. cbn [bind]. injection 1 as <-. constructor; cbn [f_output f_buffer]; [exact H1|]. exact (out_fine _ _ _ H2 Ht Ea).
        * destruct (addOutputElement _ _) as [b|] eqn:Ea; [|discriminate]. cbn [bind]. injection 1 as <-. constructor; cbn [f_output f_buffer]; [exact H1|]. exact (out_fine _ _ _ H2 Ht Ea).
  Qed.
  Lemma final_fine N x f tl f' : filter_fine f -> all_in file tl -> generateFinalOutput N x f tl = Ok f' -> filter_fine f'.
  Proof.
    intros Hf Ht. unfold generateFinalOutput. destruct (no_predicates f).
    - destruct (foldM _ _ _) as [o|] eqn:E; [|discriminate]. cbn [bind]. injection 1 as <-. destruct Hf as [H1 H2].
      constructor; cbn [f_output f_buffer]; [|exact H2]. eapply outs_fine; [exact H1| |exact E]. apply Forall_map. exact Ht.
    - revert f Hf. induction tl as [|t tl IH]; intros f Hf; cbn [foldM]; [injection 1 as <-; exact Hf|].
      destruct (filter_step N x f t) as [f1|] eqn:E; [|discriminate]. cbn [bind]. inversion_clear Ht as [|? ? H1 H2]. apply IH; [exact H2|]. eapply filter_fine_step; eauto.
  Qed.
End Filter.

(** * Runs *)
Lemma partial_in N j p stream file ci o ci' : occurs stream file ->
  all_in file (c_tl (sc_core ci)) -> filter_fine file (sc_filter ci) ->
  serialPartialRun N j p stream ci = Ok (o, ci') ->
  fine file o /\ all_in file (c_tl (sc_core ci')) /\ filter_fine file (sc_filter ci').
Proof.
  intros Ho Ht Hf. unfold serialPartialRun. destruct (_ && _); [discriminate|].
  destruct (executeAutomaton _ _ _) as [c1|] eqn:E; [|discriminate]. cbn [bind].
  assert (H1 : all_in file (c_tl c1)).
  { eapply exec_in; [exact Ho| |exact E]. destruct (sc_context ci); [exact Ht|constructor]. }
  match goal with |- bind ?r _ = _ -> _ => destruct r as [pf0|] eqn:Ef; [|discriminate] end. cbn [bind].
  assert (H0 : filter_fine file pf0).
  { destruct (sc_context ci); [injection Ef as <-; exact Hf|]. unfold initPredicateFilter in Ef. destruct (foldM _ _ _); [|discriminate]. injection Ef as <-.
    constructor; constructor. }
  destruct (generateFinalOutput _ _ _ _) as [pf1|] eqn:Eg; [|discriminate]. cbn [bind]. pose proof (final_fine file N _ _ _ _ H0 H1 Eg) as H2.
  injection 1 as <- <-. cbn. split; [apply H2|]. split; assumption.
Qed.

Lemma load_in M X file start s next : 0 <= start -> loadBounded M X file start = Ok (Some (s, next)) -> occurs s file /\ 0 <= next.
Proof.
  intros H0 H. pose proof H as H'. unfold loadBounded in H'. destruct (Z.min (zlen file - start) M <=? 0) eqn:E; [discriminate|]. clear H'.
  apply load_spec in H; [|lia|lia]. destruct H as (H & -> & _ & _). split; [|pose proof (zlen_nonneg s); lia].
  apply (occurs_skip (Z.to_nat start)). rewrite H. exists []. eexists. reflexivity.
Qed.

Theorem verbatim N j p M X file out : serial_run N j p M X file = Ok (Some out) -> Forall (fun t => occurs t file) out.
Proof.
  assert (G : forall f start o ci r ci', 0 <= start -> (forall l, o = Some l -> fine file l) -> all_in file (c_tl (sc_core ci)) -> filter_fine file (sc_filter ci) ->
    serial_loop N j p M X file f start o ci = Ok (r, ci') -> forall l, r = Some l -> fine file l).
  { induction f as [|f IH]; intros start o ci r ci' H0 Ho Ht Hf; cbn [serial_loop]; [discriminate|].
    destruct (loadBounded M X file start) as [[[s next]|]|] eqn:El; [| |discriminate]; cbn [bind]; [|injection 1 as <- _; exact Ho].
    apply load_in in El; [|exact H0]. destruct El as [Hs Hn].
    destruct (serialPartialRun N j p s ci) as [[o1 c1]|] eqn:Ep; [|discriminate]. cbn [bind].
    destruct (partial_in _ _ _ _ _ _ _ _ Hs Ht Hf Ep) as (A1 & A2 & A3). apply IH; auto. intros l El. injection El as <-. exact A1. }
  unfold serial_run. destruct (serial_loop _ _ _ _ _ _ _ _ _ _) as [[o ci]|] eqn:E; [|discriminate]. cbn [bind].
  destruct (destroyStreamingContext j ci); [|discriminate]. cbn [bind]. injection 1 as ->.
  refine (G _ _ _ _ _ _ _ _ _ _ E out eq_refl); [lia|discriminate|constructor|constructor; constructor].
Qed.
