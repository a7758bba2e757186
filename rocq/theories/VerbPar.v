(** Every text in the output of a parallel run stands in the file. *)
From Verif Require Import Base Util Spec VerbSpec CutSpec Lexer Dfa Constraint Stream Builder Eval Filter Loader LoaderProof Run Worker Merge Verbatim.
Open Scope Z_scope.

(** Splits the first computation of a bind in the goal. *)
Ltac bsplit p E := match goal with |- bind ?r _ = _ -> _ => destruct r as [p|] eqn:E; [|discriminate]; cbn [bind] end.

Section Values.
  Variable file : bytes.
  (** Offsets are turned into texts of the chunk when they are collected. *)
  Definition val_in (v : wval) : Prop := match v with VText s => occurs s file | VSpan _ _ => True end.
  Definition tl_in (tl : list wtuple) : Prop := Forall (fun t => val_in (w_val t)) tl.
  (** A unit with an unmatched brace comes from a text with a brace. *)
  Definition sym_in (s : usym) : Prop := match s with URcb _ => occurs (B "}") file | _ => True end.
  Definition unit_in (u : unit_) : Prop := Forall sym_in (un_syms u).

  Lemma store_in tl s v tl' : tl_in tl -> val_in v -> store_tuple tl s v = Ok tl' -> tl_in tl'.
  Proof.
    intros H Hv. unfold store_tuple. destruct (_ <=? _); [discriminate|]. destruct v as [t|b e].
    - unfold strcopy. destruct (_ <? _); [discriminate|]. cbn [bind]. injection 1 as <-. apply Forall_app. split; [exact H|]. constructor; [exact Hv|constructor].
    - injection 1 as <-. apply Forall_app. split; [exact H|]. constructor; [exact I|constructor].
  Qed.
  Lemma upd_in {A} (P : A -> Prop) : forall l i x, Forall P l -> P x -> Forall P (upd l i x).
  Proof. induction l as [|a l IH]; intros i x H Hx; [destruct i; constructor|]. inversion_clear H. destruct i; cbn; constructor; auto. Qed.
  Lemma zread_in {A} (P : A -> Prop) l i x : Forall P l -> zread l i = Ok x -> P x.
  Proof.
    intros H. unfold zread, znth. destruct (_ <? _); [discriminate|]. destruct (nth_error l _) eqn:E; [|discriminate]. injection 1 as <-.
    apply nth_error_In in E. rewrite Forall_forall in H. auto.
  Qed.
  Lemma link_in tl i n tl' : tl_in tl -> linkTuples tl i n = Ok tl' -> tl_in tl'.
  Proof. intros H. unfold linkTuples. bsplit t E. injection 1 as <-. apply upd_in; [exact H|]. cbn. exact (zread_in _ _ _ _ H E). Qed.
  Lemma for_root_in s v st r st' : tl_in (snd st) -> val_in v -> add_for_root s v st r = Ok st' -> tl_in (snd st').
  Proof.
    destruct st as [q tl]. cbn [snd]. intros H Hv. unfold add_for_root. bsplit n E1. bsplit fl E2. destruct fl as [f l]. bsplit tl1 E3.
    apply store_in in E3; auto. destruct (0 <=? f).
    - bsplit tl2 E4. injection 1 as <-. exact (link_in _ _ _ _ E3 E4).
    - injection 1 as <-. exact E3.
  Qed.
  Lemma fold_in {A S} (P : S -> Prop) (f : S -> A -> res S) : (forall s a s', P s -> f s a = Ok s' -> P s') ->
    forall l s s', P s -> foldM f l s = Ok s' -> P s'.
  Proof. intros Hf. induction l as [|a l IH]; intros s s' H; cbn [foldM]; [injection 1 as <-; exact H|]. bsplit s1 E. apply IH. exact (Hf _ _ _ H E). Qed.
  Lemma info_in i s v st st' : tl_in (snd st) -> val_in v -> addTupleInfo i s v st = Ok st' -> tl_in (snd st').
  Proof.
    intros H Hv. unfold addTupleInfo. bsplit n E1. bsplit rs E2. apply (fold_in (fun st => tl_in (snd st))); [|exact H].
    intros x r y Hx E. exact (for_root_in _ _ _ _ _ Hx Hv E).
  Qed.

  (** A loop that hands only texts of the file to addTupleInfo. *)
  Definition body_in (f : loop_body) : Prop := forall root e e' v, f root e = Ok (e', Some v) -> val_in v.
  Lemma each_in f cur st st' : body_in f -> tl_in (snd st) -> each f cur st = Ok st' -> tl_in (snd st').
  Proof.
    intros Hf H. unfold each. apply (fold_in (fun st => tl_in (snd st))); [|exact H]. clear st st' H. intros st i st' H.
    unfold visit. bsplit n E1. bsplit root E2. bsplit eo E3. destruct eo as [e o]. bsplit qt E4. destruct qt as [q tl]. bsplit n' E5. injection 1 as <-. cbn [snd].
    destruct o as [v|]; [|injection E4 as ->; exact H]. apply Hf in E3. change tl with (snd (q, tl)). exact (info_in _ _ _ _ _ H E3 E4).
  Qed.
End Values.

(** * A thread *)
Section Thread.
  Variable d : dfa.
  Variable id0 : bool.
  Variable states : option (list Z).
  Variable ct : option ctable.
  Variable junk : bytes.
  Variables buf file : bytes.
  Hypothesis Hb : occurs buf file.

  Record w_in (w : wstate) : Prop := { wi_tl : tl_in file (ws_tl w); wi_units : Forall (unit_in file) (ws_units w); wi_unit : unit_in file (ws_unit w) }.

  Lemma lcb_body next : occurs (B "{") file -> body_in file (on_lcb d id0 next).
  Proof.
    intros Ho root e e' v. unfold on_lcb. bsplit m E. destruct (selects _ _); [discriminate|]. destruct (m =? _); [injection 1 as _ <-; exact Ho|].
    destruct (m =? _); [injection 1 as _ <-; apply occurs_nil|discriminate].
  Qed.
  Lemma close_body rb next : (rb = true -> occurs (B "]") file) -> body_in file (on_close d id0 rb buf next).
  Proof.
    intros Ho root e e' v. unfold on_close. bsplit s E. destruct s as [s|]; [|discriminate]. bsplit m Em. destruct (selects _ _).
    - destruct id0.
      + bsplit t Et. injection 1 as _ <-. cbn. eapply occurs_trans; [eapply sub_occurs; eauto|exact Hb].
      + injection 1 as _ <-. exact I.
    - destruct rb; cbn [andb]; [|discriminate]. destruct (m =? _); [injection 1 as _ <-; exact (Ho eq_refl)|discriminate].
  Qed.
  Lemma elt_body base : occurs (B "}") file -> body_in file (on_elt_close d base).
  Proof. intros Ho root e e' v. unfold on_elt_close. bsplit m E. destruct (_ || _); [injection 1 as _ <-; exact Ho|discriminate]. Qed.
  Lemma lb_body next : body_in file (on_lb d id0 next).
  Proof.
    intros root e e' v. unfold on_lb. bsplit m E. destruct (selects _ _); [discriminate|]. destruct (m =? _); [injection 1 as _ <-; apply occurs_nil|discriminate].
  Qed.
  Lemma count_body : body_in file on_count.
  Proof. intros root e e' v. discriminate. Qed.
  Lemma pri_body c s : occurs s file -> body_in file (on_pri d id0 c s).
  Proof. intros Ho root e e' v. unfold on_pri. bsplit m E. destruct (_ || _); [injection 1 as _ <-; exact Ho|discriminate]. Qed.

  Lemma loop_in f cur w w' : body_in file f -> w_in w -> loop f cur w = Ok w' -> w_in w'.
  Proof.
    intros Hf [H1 H2 H3]. unfold loop. bsplit st E. injection 1 as <-. constructor; cbn; auto. exact (each_in file f _ (ws_qs w, ws_tl w) _ Hf H1 E).
  Qed.
  Lemma pop_in w w' : w_in w -> pop_query w = Ok w' -> w_in w'.
  Proof. intros [H1 H2 H3]. unfold pop_query. bsplit qc E. injection 1 as <-. constructor; auto. Qed.
  Lemma ss_in w ss : w_in w -> w_in (with_ss w ss).
  Proof. intros [H1 H2 H3]. constructor; auto. Qed.
  Lemma qs_in w qc : w_in w -> w_in (with_qs w qc).
  Proof. intros [H1 H2 H3]. constructor; auto. Qed.
  Lemma infer_in t rest w : w_in w -> w_in (infer t rest w).
  Proof. intros [H1 H2 H3]. unfold infer. destruct (ws_shadow w); [|constructor; auto]. destruct (look rest). constructor; auto. Qed.
  Lemma started_in w pos : w_in w -> w_in (with_unit w (started (ws_unit w) pos)).
  Proof. intros [H1 H2 H3]. constructor; auto. cbn. unfold started. destruct (_ =? _); auto. Qed.
  Lemma prune_in k w w' : w_in w -> prune id0 ct junk k w = Ok w' -> w_in w'.
  Proof.
    intros [H1 H2 H3]. unfold prune. destruct ct as [t|]; [|injection 1 as <-; constructor; auto]. destruct (_ || _); [injection 1 as <-; constructor; auto|].
    bsplit u E. destruct (updateStateInfo _ _ _) as [[|s l]|].
    - injection 1 as <-. constructor; auto.
    - bsplit qc Eqc. injection 1 as <-. constructor; auto.
    - injection 1 as <-. constructor; auto.
  Qed.
  Lemma roots_unit_in u rs pos u' : unit_in file u -> addRoots u rs pos = Ok u' -> unit_in file u'.
  Proof. unfold addRoots. intros H. destruct (_ <? _); [discriminate|]. injection 1 as <-. exact H. Qed.
  Lemma add_unit_in ul u ul' : Forall (unit_in file) ul -> unit_in file u -> addUnit ul u = Ok ul' -> Forall (unit_in file) ul'.
  Proof. unfold addUnit. intros H Hu. destruct (_ <=? _); [discriminate|]. injection 1 as <-. apply Forall_app. auto. Qed.
  Lemma unmatched_in pos s w w' : sym_in file s -> w_in w -> unmatched states pos s w = Ok w' -> w_in w'.
  Proof.
    intros Hs H. unfold unmatched. bsplit w1 E.
    assert (H1 : w_in w1).
    { destruct (_ =? _); [|injection E as <-; exact H]. destruct H as [A1 A2 A3]. revert E. bsplit u Eu. bsplit ul El. bsplit l Es.
      destruct (initQueryStacks l) as [q cur]. injection 1 as <-. constructor; cbn; auto; [|constructor].
      refine (add_unit_in _ _ _ A2 _ El). exact (roots_unit_in _ _ _ _ A3 Eu). }
    destruct H1 as [A1 A2 A3]. bsplit u Eu. injection 1 as <-. constructor; cbn; auto. unfold addUnmatchedSymbol in Eu. destruct (_ <=? _); [discriminate|].
    injection Eu as <-. unfold unit_in. cbn. apply Forall_app. auto.
  Qed.

  Lemma clobber_in s rest : occurs s file -> Forall (texts_in file) rest ->
    occurs (let '(t1, t2) := look rest in clobber (clobber s t1) t2) file.
  Proof.
    assert (G : forall s t, occurs s file -> Forall (fun s => occurs s file) (tok_text t) -> occurs (clobber s t) file).
    { intros s0 t H0 H1. destruct t; cbn in *; auto; apply Forall_inv in H1; exact H1. }
    intros Hs Hr. destruct rest as [|e1 [|e2 rest]]; cbn [look]; [exact Hs| |].
    - apply G; [|constructor]. apply G; [exact Hs|]. exact (Forall_inv Hr).
    - apply G; [|exact (Forall_inv (Forall_inv_tail Hr))]. apply G; [exact Hs|]. exact (Forall_inv Hr).
  Qed.

  Lemma worker_step_in ev rest w w' : texts_in file ev -> Forall (texts_in file) rest -> w_in w -> worker_step d id0 states ct junk buf ev rest w = Ok w' -> w_in w'.
  Proof.
    intros He Hr H. unfold worker_step. unfold texts_in in He. destruct (e_tok ev) eqn:Et; cbn [tok_text] in He.
    - apply Forall_inv in He. unfold w_lcb, loop_cur. apply loop_in; [apply lcb_body, He|]. apply ss_in, started_in, H.
    - apply Forall_inv in He. unfold w_rcb. destruct (ws_ss w) as [|s0 ss0]; [apply unmatched_in; [exact He|exact H]|].
      bsplit w1 E1. apply loop_in in E1; [|apply close_body; discriminate|exact H]. clear H.
      destruct (ws_ss w1) as [|a [|[] l]] eqn:Es; try (injection 1 as <-; exact E1).
      + pose proof (infer_in TRCB rest w1 E1) as H2. set (w2 := infer TRCB rest w1) in *. destruct (ss_top (ws_shadow w2)) as [[]|].
        * injection 1 as <-. exact H2.
        * apply loop_in; [apply elt_body, He|]. apply ss_in, H2.
        * apply unmatched_in; [exact I|exact H2].
        * injection 1 as <-. apply ss_in, H2.
      + apply loop_in; [apply elt_body, He|]. apply ss_in, E1.
      + apply pop_in. apply ss_in, E1.
    - unfold w_lb. bsplit w1 E1. apply prune_in in E1; [|apply started_in, H]. bsplit w2 E2. apply loop_in in E2; [|apply lb_body|exact E1].
      bsplit qc E3. injection 1 as <-. apply qs_in, ss_in, E2.
    - apply Forall_inv in He. unfold w_rb. destruct (ws_ss w) as [|s0 ss0]; [apply unmatched_in; [exact I|exact H]|].
      bsplit top E0. bsplit w1 E1. apply loop_in in E1; [|apply close_body; intros _; exact He|exact H]. clear H.
      destruct (ws_ss w1) as [|a [|[] l]] eqn:Es; try (injection 1 as <-; exact E1).
      + pose proof (infer_in TRB rest w1 E1) as H2. set (w2 := infer TRB rest w1) in *. destruct (ss_top (ws_shadow w2)) as [[]|].
        * injection 1 as <-. exact H2.
        * bsplit w3 E3. apply pop_in in E3; [|apply ss_in, H2]. apply loop_in; [apply count_body|exact E3].
        * apply unmatched_in; [exact I|exact H2].
        * apply pop_in. apply ss_in, H2.
      + bsplit w3 E3. apply pop_in in E3; [|apply ss_in, E1]. apply loop_in; [apply count_body|exact E3].
      + bsplit w3 E3. apply pop_in in E3; [|apply ss_in, E1]. apply pop_in. exact E3.
    - injection 1 as <-. exact H.
    - unfold w_ky. bsplit w1 E1. assert (H1 : w_in w1).
      { pose proof (started_in w (e_start ev - 1) H) as H0. destruct (k_item _) in E1; [|injection E1 as <-; exact H0]. exact (prune_in _ _ _ H0 E1). }
      bsplit qc E2. injection 1 as <-. apply qs_in, ss_in, H1.
    - apply Forall_inv in He. unfold w_pri. destruct (ss_top (ws_ss w)) as [top|].
      + bsplit w1 E1. apply loop_in in E1; [|apply pri_body, He|exact H]. destruct top; try (injection 1 as <-; exact E1). apply pop_in, ss_in, E1.
      + cbn zeta. match goal with |- context [infer (TPRI ?x) rest w] => set (s' := x) end.
        assert (Hs : occurs s' file). { subst s'. destruct (ws_shadow w); [apply clobber_in; auto|exact He]. }
        pose proof (infer_in (TPRI s') rest w H) as H2. set (w2 := infer (TPRI s') rest w) in *. destruct (ss_top (ws_shadow w2)) as [[]|]; try (injection 1 as <-; exact H2).
        * apply loop_in; [apply pri_body, Hs|]. destruct H2 as [A1 A2 A3]. constructor; cbn; auto. destruct (_ =? _); auto.
        * apply unmatched_in; [exact I|exact H2].
    - injection 1 as <-. exact H.
  Qed.
  Lemma worker_loop_in : forall evs w w', Forall (texts_in file) evs -> w_in w -> worker_loop d id0 states ct junk buf evs w = Ok w' -> w_in w'.
  Proof.
    induction evs as [|ev rest IH]; intros w w' He H; cbn [worker_loop]; [injection 1 as <-; exact H|]. bsplit w1 E.
    inversion_clear He as [|? ? H1 H2]. apply IH; [exact H2|]. exact (worker_step_in _ _ _ _ H1 H2 H E).
  Qed.
End Thread.

Lemma texts_wider a b ev : occurs a b -> texts_in a ev -> texts_in b ev.
Proof. intros H Hev. unfold texts_in in *. eapply Forall_impl; [|exact Hev]. cbn. intros s Hs. eapply occurs_trans; eauto. Qed.

Lemma worker_in d st ct junk ju stream file tl w : occurs stream file -> tl_in file tl ->
  executeWorkerAutomaton d st ct junk ju stream tl = Ok w -> tl_in file (wa_tl w) /\ Forall (unit_in file) (wa_units w).
Proof.
  intros Ho Ht. unfold executeWorkerAutomaton. match goal with |- (if ?c then _ else _) = _ -> _ => destruct c; [discriminate|] end.
  match goal with |- (let '(_, _) := ?x in _) = _ -> _ => destruct x as [ss [q cur]] end. bsplit evs E. bsplit w1 E1.
  apply (worker_loop_in d _ _ _ _ _ file) in E1.
  - unfold last_unit. intros H. revert H. match goal with |- bind (bind ?r _) _ = _ -> _ => destruct r as [rs|]; [|discriminate] end. cbn [bind].
    destruct (addRoots (ws_unit w1) rs _) as [u|] eqn:Eu; [|discriminate]. cbn [bind]. destruct (addUnit (ws_units w1) u) as [ul|] eqn:El; [|discriminate].
    cbn [bind]. injection 1 as <-. destruct E1 as [A1 A2 A3]. cbn. split; [exact A1|]. refine (add_unit_in _ _ _ _ A2 _ El). exact (roots_unit_in _ _ _ _ _ A3 Eu).
  - eapply occurs_trans; [apply c_string_occurs|exact Ho].
  - unfold lex_all in E. apply tokens_occur in E; [|apply c_string_no_nul]. eapply Forall_impl; [|exact E]. intros ev. apply texts_wider.
    eapply occurs_trans; [apply c_string_occurs|exact Ho].
  - constructor; cbn; [exact Ht|constructor|constructor].
Qed.

(** * Merging *)
Section Merging.
  Variable d : dfa.
  Variable junk : bytes.
  Variable ju : Z.
  Variables prev here file : bytes.
  Hypothesis Hadj : occurs (prev ++ here) file.
  Hypothesis Hp0 : ltrim prev 0 = 0.
  Hypothesis Hh0 : ltrim here 0 = 0.

  Lemma here_in : occurs here file.
  Proof. eapply occurs_trans; [|exact Hadj]. exists prev, []. rewrite app_nil_r. reflexivity. Qed.

  Lemma c_string_prefix : forall t, exists y, t = c_string t ++ y.
  Proof. induction t as [|c t [y IH]]; cbn; [exists []; reflexivity|]. destruct (Ascii.eqb c NUL); [exists (c :: t); reflexivity|]. exists y. cbn. f_equal. exact IH. Qed.
  Lemma c_string_prefix_nul : forall a n t, exists y, a ++ t = c_string (a ++ firstn n (t ++ [NUL])) ++ y.
  Proof.
    induction a as [|c a IH]; intros n t; cbn.
    - revert t. induction n as [|n IH]; intros t; [exists t; reflexivity|]. destruct t as [|c t]; cbn [firstn app c_string]; [exists []; reflexivity|].
      destruct (Ascii.eqb c NUL); [exists (c :: t); reflexivity|]. destruct (IH t) as [y E]. exists y. cbn. f_equal. exact E.
    - destruct (Ascii.eqb c NUL); [exists (c :: a ++ t); reflexivity|]. destruct (IH n t) as [y E]. exists y. cbn. f_equal. exact E.
  Qed.
  (** The end of one chunk with the beginning of the next one. *)
  Lemma joined_in start index a b : raw_sub prev start (zlen prev) = Ok a -> raw_sub here 0 index = Ok b -> occurs (c_string (a ++ b)) file.
  Proof.
    intros Ha Hbb. eapply occurs_trans; [|exact Hadj].
    assert (A : exists x, prev = x ++ a).
    { unfold raw_sub in Ha. rewrite Hp0 in Ha. unfold read_range in Ha. destruct (_ <=? _) eqn:E1; [injection Ha as <-; exists prev; rewrite app_nil_r; reflexivity|].
      destruct (_ || _) eqn:E2; [discriminate|]. injection Ha as <-. apply Z.leb_gt in E1. apply orb_false_iff in E2. destruct E2 as [E2 _]. apply Z.ltb_ge in E2.
      exists (firstn (Z.to_nat start) prev). pose proof (skipn_length (Z.to_nat start) prev) as El. rewrite skipn_app, firstn_app.
      match goal with |- context [firstn (?k - ?l) ?r] => replace (k - l)%nat with O by (unfold zlen in *; lia) end. cbn [firstn]. rewrite app_nil_r.
      rewrite (firstn_all2 (skipn (Z.to_nat start) prev)) by (unfold zlen in *; lia). symmetry. apply firstn_skipn. }
    destruct A as [x Ex]. assert (Bn : exists n, b = firstn n (here ++ [NUL])).
    { unfold raw_sub in Hbb. rewrite Hh0 in Hbb. unfold read_range in Hbb. destruct (_ <=? _); [injection Hbb as <-; exists O; reflexivity|].
      destruct (_ || _); [discriminate|]. injection Hbb as <-. eexists. reflexivity. }
    destruct Bn as [n ->]. destruct (c_string_prefix_nul a n here) as [y E]. exists x, y. rewrite Ex, <- app_assoc. f_equal. exact E.
  Qed.

  Lemma m_add_in i s v m m' : tl_in file (m_tl m) -> val_in file v -> m_add i s v m = Ok m' -> tl_in file (m_tl m').
  Proof. intros H Hv. unfold m_add. bsplit qt E. destruct qt as [q tl]. injection 1 as <-. cbn. change tl with (snd (q, tl)). exact (info_in file _ _ _ (m_qs m, m_tl m) _ H Hv E). Qed.
  Lemma m_pop_in m m' : m_pop m = Ok m' -> m_tl m' = m_tl m.
  Proof. unfold m_pop. bsplit qc E. destruct qc. injection 1 as <-. reflexivity. Qed.
  Lemma m_count_in m m' : m_count m = Ok m' -> m_tl m' = m_tl m.
  Proof. unfold m_count. bsplit n E. injection 1 as <-. reflexivity. Qed.
  Lemma m_dead_in m m' : m_dead m = Ok m' -> m_tl m' = m_tl m.
  Proof. unfold m_dead. bsplit n E. injection 1 as <-. reflexivity. Qed.
  Lemma m_clear_in i m m' : m_clear i m = Ok m' -> m_tl m' = m_tl m.
  Proof. unfold m_clear. bsplit n E. injection 1 as <-. reflexivity. Qed.

  Lemma merge_rcb_in index m m' : occurs (B "}") file -> tl_in file (m_tl m) -> merge_rcb d prev here index m = Ok m' -> tl_in file (m_tl m').
  Proof.
    intros Ho H. unfold merge_rcb. bsplit n E. bsplit m1 E1. assert (H1 : tl_in file (m_tl m1)).
    { destruct (m_ss m); [injection E1 as <-; exact H|]. revert E1. bsplit st Es. destruct st as [st|]; [|injection 1 as <-; exact H]. bsplit ty Et.
      destruct (ty =? _); [|injection 1 as <-; exact H]. destruct (_ <? _); [discriminate|]. bsplit a Ea. bsplit b Eb. bsplit m2 E2. intros E3. apply m_clear_in in E3. rewrite E3.
      refine (m_add_in _ _ _ _ _ H _ E2). exact (joined_in _ _ _ _ Ea Eb). }
    destruct (m_ss m1) as [|a [|[] l]]; try (injection 1 as <-; exact H1).
    - bsplit m2 E2. apply m_count_in in E2. bsplit ty Et. destruct (ty =? _); [|injection 1 as <-; rewrite E2; exact H1].
      intros E3. refine (m_add_in _ _ _ _ _ _ _ E3); [rewrite E2; exact H1|exact Ho].
    - intros E2. apply m_pop_in in E2. rewrite E2. exact H1.
  Qed.
  Lemma merge_rb_in m m' : merge_rb d m = Ok m' -> m_tl m' = m_tl m.
  Proof.
    unfold merge_rb. bsplit u E. destruct (m_ss m) as [|a [|[] l]]; try (injection 1 as <-; reflexivity).
    - intros E2. apply m_pop_in in E2. exact E2.
    - bsplit m2 E2. apply m_pop_in in E2. intros E3. apply m_count_in in E3. rewrite E3, E2. reflexivity.
    - bsplit m2 E2. apply m_pop_in in E2. intros E3. apply m_pop_in in E3. rewrite E3, E2. reflexivity.
  Qed.
  Lemma merge_sym_in m s m' : sym_in file s -> tl_in file (m_tl m) -> merge_sym d prev here m s = Ok m' -> tl_in file (m_tl m').
  Proof.
    intros Hs H. destruct s; cbn [merge_sym].
    - apply merge_rcb_in; auto.
    - intros E. apply merge_rb_in in E. rewrite E. exact H.
    - bsplit m2 E2. apply m_pop_in in E2. injection 1 as <-. cbn. rewrite E2. exact H.
    - bsplit m2 E2. apply m_pop_in in E2. injection 1 as <-. cbn. rewrite E2. exact H.
    - injection 1 as <-. exact H.
  Qed.
  Lemma merge_syms_in : forall ss m m', Forall (sym_in file) ss -> tl_in file (m_tl m) -> foldM (merge_sym d prev here) ss m = Ok m' -> tl_in file (m_tl m').
  Proof.
    induction ss as [|s ss IH]; intros m m' Hs H; cbn [foldM]; [injection 1 as <-; exact H|]. bsplit m1 E. inversion_clear Hs as [|? ? H1 H2].
    apply IH; [exact H2|]. exact (merge_sym_in _ _ _ H1 H E).
  Qed.

  Lemma collect_one_in t m m' : val_in file (w_val t) -> tl_in file (m_tl m) -> collect_one here t m = Ok m' -> tl_in file (m_tl m').
  Proof.
    intros Hv H. unfold collect_one. bsplit txt E. bsplit tl1 E1. injection 1 as <-. cbn. refine (store_in _ _ _ _ _ H _ E1). cbn.
    destruct (w_val t) as [s|b e]; [injection E as <-; exact Hv|]. apply sip_occurs in E. eapply occurs_trans; [exact E|exact here_in].
  Qed.
  Lemma collect_in tl : tl_in file tl -> forall f i m m', tl_in file (m_tl m) -> collect d f here tl i m = Ok m' -> tl_in file (m_tl m').
  Proof.
    intros Hl. induction f as [|f IH]; intros i m m' H; cbn [collect]; destruct (i =? -1); try (injection 1 as <-; exact H); [discriminate|].
    bsplit t Et. pose proof (zread_in _ _ _ _ Hl Et) as Hv. cbn beta in Hv. bsplit n En. destruct (_ =? 0); [apply IH; exact H|].
    bsplit lu El. destruct lu as [lower upper]. destruct (_ && _).
    { bsplit m1 E1. apply IH. exact (collect_one_in _ _ _ Hv H E1). }
    destruct (_ || _).
    { bsplit m1 E1. apply m_count_in in E1. bsplit m2 E2. apply IH. assert (E : m_tl m2 = m_tl m1) by (destruct (_ <=? _); [exact (m_dead_in _ _ E2)|injection E2 as <-; reflexivity]).
      rewrite E, E1. exact H. }
    destruct (negb _).
    { bsplit m2 E2. apply IH. assert (E : m_tl m2 = m_tl m) by (destruct (_ <=? _); [exact (m_dead_in _ _ E2)|injection E2 as <-; reflexivity]). rewrite E. exact H. }
    bsplit ty Ey. bsplit m1 E1. assert (E : m_tl m1 = m_tl m) by (destruct (_ =? _); [exact (m_count_in _ _ E1)|injection E1 as <-; reflexivity]).
    bsplit m2 E2. apply IH. refine (collect_one_in _ _ _ Hv _ E2). rewrite E. exact H.
  Qed.

  Lemma merge_unit_in w m u m' b : tl_in file (wa_tl w) -> unit_in file u -> tl_in file (m_tl m) ->
    merge_unit d junk ju prev here w m u = Ok (m', b) -> tl_in file (m_tl m').
  Proof.
    intros Hw Hu H. unfold merge_unit. bsplit m1 E1. pose proof (merge_syms_in _ _ _ Hu H E1) as H1. bsplit n En. cbn zeta.
    bsplit t Et. destruct t as [txt|].
    - bsplit w0 E0. injection 1 as <- _. cbn. apply (worker_in _ _ _ _ _ _ file) in E0; [apply E0| |exact H1].
      destruct (find_root _ _); [discriminate|]. destruct (un_roots u); [discriminate|]. destruct (_ =? _); [discriminate|]. unfold unit_text in Et.
      destruct (un_start u); [|discriminate]. destruct (un_end u); [|discriminate]. destruct (_ <? _); [|discriminate]. revert Et. bsplit t0 Et0. injection 1 as ->.
      apply sub_occurs in Et0. eapply occurs_trans; [exact Et0|exact here_in].
    - bsplit fst0 Ef. bsplit m2 E2. injection 1 as <- _. exact (collect_in _ Hw _ _ _ _ H1 E2).
  Qed.
  Lemma merge_units_in w : tl_in file (wa_tl w) -> forall us m m' b, Forall (unit_in file) us -> tl_in file (m_tl m) ->
    merge_units d junk ju prev here w us m = Ok (m', b) -> tl_in file (m_tl m').
  Proof.
    intros Hw. induction us as [|u us IH]; intros m m' b Hu H; [cbn; injection 1 as <- _; exact H|]. inversion_clear Hu as [|? ? H1 H2].
    destruct us as [|u2 us].
    - cbn [merge_units]. apply merge_unit_in; auto.
    - change (merge_units d junk ju prev here w (u :: u2 :: us) m) with ('(m, _) <- merge_unit d junk ju prev here w m u ;; merge_units d junk ju prev here w (u2 :: us) m).
      bsplit mb E. destruct mb as [m1 b1]. apply IH; [exact H2|]. exact (merge_unit_in _ _ _ _ _ Hw H1 H E).
  Qed.
  Lemma merge_chunk_in w m m' : tl_in file (wa_tl w) -> Forall (unit_in file) (wa_units w) -> tl_in file (m_tl m) ->
    merge_chunk d junk ju prev here w m = Ok m' -> tl_in file (m_tl m').
  Proof.
    intros Hw Hu H. unfold merge_chunk. bsplit mb E. destruct mb as [m1 b]. apply merge_units_in in E; auto. destruct b; [injection 1 as <-; exact E|].
    bsplit qc Eqc. destruct qc. injection 1 as <-. exact E.
  Qed.
End Merging.

(** * Runs *)
Lemma merge_chunks_in d junk ju file : forall rest prev m m',
  occurs (prev ++ concat (map fst rest)) file -> ltrim prev 0 = 0 -> Forall (fun x => ltrim (fst x) 0 = 0) rest ->
  Forall (fun x => tl_in file (wa_tl (snd x)) /\ Forall (unit_in file) (wa_units (snd x))) rest -> tl_in file (m_tl m) ->
  merge_chunks d junk ju prev rest m = Ok m' -> tl_in file (m_tl m').
Proof.
  induction rest as [|[s w] rest IH]; intros prev m m' Hadj Hp Hr Hw H; cbn [merge_chunks]; [injection 1 as <-; exact H|]. cbn [map fst concat] in Hadj.
  inversion_clear Hr as [|? ? R1 R2]. inversion_clear Hw as [|? ? W1 W2]. cbn in R1, W1. bsplit m1 E. apply IH; auto.
  - eapply occurs_trans; [|exact Hadj]. exists prev, []. rewrite app_nil_r. reflexivity.
  - refine (merge_chunk_in _ _ _ prev s file _ Hp R1 _ _ _ (proj1 W1) (proj2 W1) H E).
    eapply occurs_trans; [|exact Hadj]. exists [], (concat (map fst rest)). cbn. rewrite app_assoc. reflexivity.
Qed.

Lemma threads_in d ct pj st tl0 file : tl_in file tl0 -> forall ps i rs, Forall (fun s => occurs s file /\ no_nul s) ps -> all_threads d ct pj st tl0 i (map Some ps) = Ok rs ->
  map fst rs = ps /\ Forall (fun x => tl_in file (wa_tl (snd x)) /\ Forall (unit_in file) (wa_units (snd x))) rs.
Proof.
  intros H0. induction ps as [|s ps IH]; intros i rs Hp; cbn [map all_threads]; [injection 1 as <-; split; constructor|]. inversion_clear Hp as [|? ? [P1 P2] P3].
  cbn [thread_result]. match goal with |- bind (bind ?r _) _ = _ -> _ => destruct r as [w|] eqn:Ew; [|discriminate] end. cbn [bind]. bsplit rs1 E1.
  injection 1 as <-. destruct (IH _ _ P3 E1) as [I1 I2]. cbn [map fst]. split; [rewrite c_string_id by exact P2; f_equal; exact I1|].
  constructor; [|exact I2]. cbn [snd]. apply (worker_in _ _ _ _ _ _ file) in Ew; [exact Ew|exact P1|]. destruct i; [exact H0|constructor].
Qed.

Lemma ltrim_none s : lead_blanks s = O -> ltrim s 0 = 0.
Proof. intros H. unfold ltrim. cbn [Z.to_nat skipn]. rewrite H. reflexivity. Qed.
Lemma well_cut_heads : forall ps p, well_cut p ps = true -> Forall (fun s => lead_blanks s = O) ps.
Proof.
  induction ps as [|s ps IH]; intros p H; [constructor|]. cbn [well_cut] in H. apply andb_true_iff in H. destruct H as [H1 H2]. constructor; [|exact (IH _ H2)].
  unfold cut_at in H1. apply andb_true_iff in H1. destruct H1 as [H1 _]. destruct s as [|c s]; [discriminate|]. apply Ascii.eqb_eq in H1. subst c. reflexivity.
Qed.
Lemma concat_occurs {file} : forall ps, occurs (concat ps) file -> Forall (fun s : bytes => occurs s file) ps.
Proof.
  induction ps as [|s ps IH]; intros H; [constructor|]. cbn [concat] in H. constructor.
  - eapply occurs_trans; [|exact H]. exists [], (concat ps). reflexivity.
  - apply IH. eapply occurs_trans; [|exact H]. exists s, []. rewrite app_nil_r. reflexivity.
Qed.
Lemma concat_no_nul : forall ps, no_nul (concat ps) -> Forall (fun s : bytes => no_nul s) ps.
Proof. induction ps as [|s ps IH]; intros H; [constructor|]. constructor; [intros Hi; apply H; cbn; apply in_or_app; auto|]. apply IH. intros Hi. apply H. cbn. apply in_or_app. auto. Qed.

Lemma par_in d ct pj st tl0 file stream n cs m : occurs stream file -> stream <> [] -> lead_blanks stream = O -> no_nul stream -> tl_in file tl0 ->
  partitionInputStream stream n = Ok cs -> executeParallelAutomata d ct pj st tl0 cs = Ok m -> tl_in file (m_tl m).
Proof.
  intros Ho Hne Hl Hn H0 Hc. apply partition_spec in Hc; auto. destruct Hc as (p & ps & -> & Hcat & _ & Hw). unfold executeParallelAutomata. destruct (_ <? _); [discriminate|].
  bsplit rs E. apply (threads_in _ _ _ _ _ file H0) in E.
  - destruct E as [E1 E2]. destruct rs as [|[s w] rs]; [discriminate|]. injection E1 as -> E1. subst ps. unfold combine_all. cbn [fst snd]. inversion_clear E2 as [|? ? [W1 W2] W3]. cbn [snd] in W1.
    apply merge_chunks_in; auto.
    + change (occurs (concat (p :: map fst rs)) file). rewrite Hcat. exact Ho.
    + apply ltrim_none. cbn [concat] in Hcat. destruct p as [|c p]; [reflexivity|]. rewrite <- Hcat in Hl. cbn in Hl |- *. destruct (Ascii.eqb c " "%char); [discriminate|reflexivity].
    + apply well_cut_heads in Hw. apply Forall_map in Hw. eapply Forall_impl; [|exact Hw]. intros [a b]. apply ltrim_none.
  - rewrite <- Hcat in Ho, Hn. pose proof (concat_occurs _ Ho) as A. pose proof (concat_no_nul _ Hn) as C. clear - A C. induction (p :: ps) as [|x l IH]; [constructor|].
    inversion_clear A. inversion_clear C. constructor; auto.
Qed.

Lemma plain_in file : forall tl tl', tl_in file tl -> mapM plain_tuple tl = Ok tl' -> all_in file tl'.
Proof.
  induction tl as [|t tl IH]; intros tl' H; cbn [mapM]; [injection 1 as <-; constructor|]. inversion_clear H as [|? ? H1 H2].
  unfold plain_tuple at 1. destruct (w_val t) as [s|]; [|discriminate]. cbn [bind]. bsplit l E. injection 1 as <-. constructor; [exact H1|exact (IH _ H2 eq_refl)].
Qed.

(** What a load gives begins where the file begins, or at a double quote. *)
Lemma load_head M X file start s next : 0 <= start -> lead_blanks (skipn (Z.to_nat start) file) = O -> no_nul file -> loadBounded M X file start = Ok (Some (s, next)) ->
  s <> [] /\ lead_blanks s = O /\ no_nul s /\ (lead_blanks (skipn (Z.to_nat next) file) = O).
Proof.
  intros H0 Hl Hn H. pose proof H as H'. unfold loadBounded in H'. destruct (Z.min (zlen file - start) M <=? 0) eqn:E; [discriminate|]. clear H'.
  apply load_spec in H; [|lia|lia]. destruct H as (H1 & H2 & H3 & H4 & H5). split; [exact H3|].
  split; [rewrite H1 in Hl; destruct s as [|c s]; [congruence|]; cbn in Hl |- *; destruct (Ascii.eqb c " "%char); [discriminate|reflexivity]|].
  split; [intros Hi; apply Hn, (in_skipn _ (Z.to_nat start)); rewrite H1; apply in_or_app; auto|].
  destruct H5 as [->|[H5|H5]]; [reflexivity| |].
  - destruct (skipn (Z.to_nat next) file) as [|c r]; [discriminate|]. cbn in H5. apply Ascii.eqb_eq in H5. subst c. reflexivity.
  - destruct (skipn (Z.to_nat next) file) as [|c r]; [discriminate|]. unfold cut_at in H5. apply andb_true_iff in H5. destruct H5 as [H5 _]. apply Ascii.eqb_eq in H5. subst c. reflexivity.
Qed.

Theorem verbatim_par N p ct pj M X file n out : lead_blanks file = O -> no_nul file ->
  parallel_run N p ct pj M X file n = Ok (Some out) -> Forall (fun t => occurs t file) out.
Proof.
  intros Hl Hn.
  assert (G : forall f start o ci r ci', 0 <= start -> lead_blanks (skipn (Z.to_nat start) file) = O -> (forall l, o = Some l -> fine file l) ->
    tl_in file (m_tl (pc_main ci)) -> filter_fine file (pc_filter ci) ->
    parallel_loop N p ct pj M X file n f start o ci = Ok (r, ci') -> forall l, r = Some l -> fine file l).
  { induction f as [|f IH]; intros start o ci r ci' H0 Hs Ho Ht Hf; cbn [parallel_loop]; [discriminate|].
    destruct (loadBounded M X file start) as [[[s next]|]|] eqn:El; [| |discriminate]; cbn [bind]; [|injection 1 as <- _; exact Ho].
    pose proof (load_head _ _ _ _ _ _ H0 Hs Hn El) as (L1 & L2 & L3 & L4). apply load_in in El; [|exact H0]. destruct El as [Hin Hnx].
    bsplit oc Ep. destruct oc as [o1 c1]. revert Ep. unfold parallelPartialRun. bsplit cs Ec. cbn zeta. bsplit m Em.
    pose proof (par_in _ _ _ _ _ file _ _ _ _ Hin L1 L2 L3 Ht Ec Em) as H1. bsplit tl1 Et. pose proof (plain_in _ _ _ H1 Et) as H2. bsplit pf0 Ef.
    assert (H3 : filter_fine file pf0).
    { destruct (pc_context ci); [injection Ef as <-; exact Hf|]. unfold initPredicateFilter in Ef. destruct (foldM _ _ _); [|discriminate]. injection Ef as <-. constructor; constructor. }
    bsplit pf1 Eg. pose proof (final_fine file N _ _ _ _ H3 H2 Eg) as H4. injection 1 as <- <-. apply IH; auto.
    - intros l El. injection El as <-. apply H4.
    - cbn. destruct (_ =? _); [constructor|exact H1]. }
  unfold parallel_run. bsplit oc E. destruct oc as [o ci]. destruct (pc_context ci); [|discriminate]. injection 1 as ->.
  refine (G _ _ _ _ _ _ _ _ _ _ _ E out eq_refl); [lia|exact Hl|discriminate|constructor|constructor; constructor].
Qed.
