(** A query and one that asks for more, on the same text. *)
From Verif Require Import Base Util Spec QueryClass AutoSpec PosSpec RelaxSpec Lexer Dfa Stream TreeSem Builder Eval Filter Loader Run
  AutoProof BuilderProof Roles Compiled TreeSel SelProof AnyQuery EndToEnd Claims ClaimProof AutoClaim PosProof AnyRun.
Open Scope Z_scope.

(** * Queries *)
Lemma relaxed_contained : forall q q', relaxed q q' -> contained q q'.
Proof.
  intros q q' Hr hs p. revert q q' Hr. induction p as [|[l v] p IH]; intros q q' Hr.
  - destruct Hr as [|s s' q q' Hw Hr]; cbn; [reflexivity|]. destruct s; discriminate.
  - destruct Hr as [|s s' q q' Hw Hr]; [discriminate|].
    pose proof (IH q q' Hr) as H1. pose proof (IH (s :: q) (s' :: q') (Forall2_cons _ _ Hw Hr)) as H2.
    cbn [selects] in *. clear IH Hr. destruct Hw; try (destruct s; cbn in *; try discriminate; try contradiction); cbn in *; 
      repeat rewrite ?andb_true_iff, ?orb_true_iff; destruct l; cbn in *; try discriminate; intuition auto.
Qed.
Lemma relaxed_widen q q' : slice_query q = true -> relaxed q q' -> relaxed (widen q) q'.
Proof.
  intros Hq Hr. unfold slice_query in Hq. apply andb_true_iff in Hq. destruct Hq as [_ Hq]. unfold relaxed in *.
  induction Hr as [|s s' q q' Hw Hr IH]; cbn in *; [constructor|]. apply andb_true_iff in Hq. destruct Hq as [Hs Hq].
  constructor; [|apply IH, Hq]. clear - Hw Hs. destruct s; try exact Hw; try discriminate. cbn.
  inversion Hw; subst; try discriminate; constructor; auto.
Qed.
Lemma lsel_selects hs : forall w q, (forall s, In s q -> is_path_step s = true) ->
  selects hs q (map (fun l => (l, JBare [])) w) = lsel q w.
Proof.
  induction w as [|l w IH]; intros q Hq; destruct q as [|s q]; try reflexivity.
  assert (Hq' : forall s, In s q -> is_path_step s = true) by (intros; apply Hq; right; assumption).
  pose proof (Hq s (or_introl eq_refl)) as Hs. pose proof (IH q Hq') as H1. pose proof (IH (s :: q) Hq) as H2.
  cbn [selects lsel map] in *. destruct s; cbn in *; try discriminate; rewrite ?H1, ?H2; reflexivity.
Qed.
Lemma path_steps q : path_query q = true -> forall s, In s q -> is_path_step s = true.
Proof. unfold path_query. rewrite andb_true_iff, forallb_forall. tauto. Qed.
Lemma widen_steps q : slice_query q = true -> forall s, In s (widen q) -> is_path_step s = true.
Proof.
  unfold slice_query. rewrite andb_true_iff, forallb_forall. intros [_ H] s Hs. apply in_map_iff in Hs. destruct Hs as (s0 & <- & Hs).
  specialize (H s0 Hs). destruct s0; try discriminate; reflexivity.
Qed.
Lemma widen_path q : path_query q = true -> widen q = q.
Proof.
  intros H. unfold widen. rewrite <- (map_id q) at 2. apply map_ext_in. intros s Hs. pose proof (path_steps q H s Hs). destruct s; try discriminate; reflexivity.
Qed.

(** * What the engine uses of an automaton *)
Record follows (d : dfa) (sel : list label -> bool) (st : list label -> Z) : Prop := {
  fo_start : st [] = 1;
  fo_next : forall w l, dfaNextStateByStr d (st w) (linput l) = Ok (st (w ++ [l]));
  fo_accept : forall w, getDFAAcceptType d (st w) = Ok (if sel w then DFA_OUTPUT_CANDIDATE else 0);
  fo_range : forall w, exists r, getDFAArrayIndex d (st w) = Ok r;
  fo_next0 : forall inp, dfaNextStateByStr d 0 inp = Ok 0;
  fo_accept0 : getDFAAcceptType d 0 = Ok 0;
  fo_range0 : getDFAArrayIndex d 0 = Ok (0, 0)
}.

Lemma compiled_follows q d x st : supported q = true -> slice_query q = true -> compiled q d x st -> follows d (lsel (widen q)) st.
Proof.
  intros Hs Hq C. destruct (supported_parts q Hs) as (Hrbd & Hsl & Hend & Hfo & Hfi & Hnm).
  assert (Hne : forall f, In f (query_fields q) -> f <> []).
  { intros f Hf. unfold fields_ok in Hfi. rewrite forallb_forall in Hfi. specialize (Hfi f Hf). intros ->. discriminate. }
  destruct (no_filter_fields q Hq) as [Hnf1 Hnf2].
  constructor; try apply C; [|intros w; eexists; apply (cp_range _ _ _ _ C)]. intros w. rewrite (cp_accept _ _ _ _ C). f_equal. rewrite (widen_match w q (rbd_no_index _ _ Hrbd)).
  destruct (st_match (stack_of q) w) eqn:E.
  - apply (out_role q Hrbd Hsl Hend Hne w) in E. destruct E as (r & -> & Ho). cbn [accept_of]. rewrite Ho. reflexivity.
  - destruct (cls q w) as [r|] eqn:Ec; [|reflexivity]. cbn [accept_of]. destruct (is_out q r) eqn:Eo.
    { exfalso. assert (st_match (stack_of q) w = true) by (apply (out_role q Hrbd Hsl Hend Hne w); eauto). congruence. }
    destruct r as [j|j|j f|]; try reflexivity; exfalso.
    + apply (rp_role q Hrbd Hsl Hend Hne) in Ec. destruct Ec as (e & He & _). apply nth_error_In, Hnf2 in He. discriminate.
    + apply (rc_role q Hrbd Hend Hne) in Ec. destruct Ec as (e & u & He & _). apply nth_error_In, Hnf2 in He. discriminate.
Qed.
Lemma compiled_free q d x st : path_query q = true -> compiled q d x st -> forall w, getDFAArrayIndex d (st w) = Ok (0, 0).
Proof.
  intros Hq C w. rewrite (cp_range _ _ _ _ C). f_equal. unfold Compiled.range_of. destruct (cls q w) as [r|]; [|reflexivity].
  destruct r as [j|j|j f|]; cbn [role_rng]; try reflexivity. destruct (nth_error q j) as [s|] eqn:E; [|reflexivity].
  apply nth_error_In, (path_steps q Hq) in E. destruct s; try reflexivity; discriminate.
Qed.

Lemma f2_len {A C} (P : A -> C -> Prop) a b : Forall2 P a b -> List.length a = List.length b.
Proof. induction 1; cbn; congruence. Qed.

(** * The two runs *)
Section Sim.
  Variables d d' : dfa.
  Variables sel sel' : list label -> bool.
  Variables st st' : list label -> Z.
  Hypothesis Hf : follows d sel st.
  Hypothesis Hf' : follows d' sel' st'.
  Hypothesis Hfree : forall w, getDFAArrayIndex d' (st' w) = Ok (0, 0).
  Hypothesis Hsub : forall w, sel w = true -> sel' w = true.

  Definition hit (s n : Z) : bool :=
    match getMatchedType d (mkElt s n MInv) with Ok m => m =? DFA_OUTPUT_CANDIDATE | UB _ => false end.
  Definition dead (s n : Z) : Prop := forall k, 0 <= k -> hit s (n + k) = false.
  Definition at_word (w : list label) (s : Z) : Prop := s = st w \/ s = 0.

  Lemma hit_type w s n m : at_word w s -> getMatchedType d (mkElt s n m) = Ok (if hit s n then DFA_OUTPUT_CANDIDATE else 0) /\
    (hit s n = true -> sel w = true).
  Proof.
    intros Hw. unfold hit, getMatchedType, in_range. cbn [q_state q_count]. destruct Hw as [->| ->].
    - rewrite (fo_accept _ _ _ Hf). destruct (fo_range _ _ _ Hf w) as ([lo hi] & Hr). cbn [bind]. destruct (sel w); cbn.
      + rewrite Hr. cbn [bind]. destruct (_ || _); cbn; auto.
      + split; [reflexivity|discriminate].
    - rewrite (fo_accept0 _ _ _ Hf). cbn. split; [reflexivity|discriminate].
  Qed.
  Lemma hit_next w s n : at_word w s -> hit s n = true -> hit s (n + 1) = true \/ dead s (n + 1).
  Proof.
    intros Hw. unfold dead, hit, getMatchedType, in_range. cbn [q_state q_count]. destruct Hw as [->| ->].
    - rewrite (fo_accept _ _ _ Hf). destruct (fo_range _ _ _ Hf w) as ([lo hi] & Hr). cbn [bind]. destruct (sel w); [|discriminate]. cbn.
      rewrite Hr. cbn [bind]. destruct ((lo =? 0) && (hi =? 0)); cbn; [auto|]. clear.
      destruct (Z.leb_spec lo n); cbn; [|discriminate]. destruct (Z.ltb_spec n hi); cbn; [|discriminate]. intros _.
      destruct (Z.leb_spec lo (n + 1)); [|lia]. destruct (Z.ltb_spec (n + 1) hi); cbn; [auto|]. right. intros k Hk.
      replace (n + 1 + k <? hi) with false by lia. rewrite andb_false_r. reflexivity.
    - rewrite (fo_accept0 _ _ _ Hf). discriminate.
  Qed.
  Lemma wide_type w n m : getMatchedType d' (mkElt (st' w) n m) = Ok (if sel' w then DFA_OUTPUT_CANDIDATE else 0).
  Proof.
    unfold getMatchedType, in_range. cbn [q_state q_count]. rewrite (fo_accept _ _ _ Hf'). cbn [bind]. destruct (sel' w); cbn; [|reflexivity].
    rewrite Hfree. reflexivity.
  Qed.

  (** The element of the narrow query and that of the wide one. *)
  Inductive related : elt -> elt -> Prop :=
  | R_none n m : related (mkElt (-1) n m) (mkElt (-1) n m)
  | R_word w s n m m' : at_word w s -> (m = MInv \/ (m = m' /\ hit s n = true) \/ dead s n) ->
      related (mkElt s n m) (mkElt (st' w) n m').

  Lemma none_type dd n m : getMatchedType dd (mkElt (-1) n m) = UB OOBRead.
  Proof. reflexivity. Qed.

  Lemma related_incr e e' : related e e' -> related (incr e) (incr e').
  Proof.
    intros [n m|w s n m m' Hw Hm]; unfold incr; cbn [q_state q_count q_ms]; [constructor|]. constructor; [exact Hw|].
    destruct Hm as [->|[[-> Hh]|Hd]]; [auto| |].
    - destruct (hit_next w s n Hw Hh); auto.
    - right. right. intros k Hk. replace (n + 1 + k) with (n + (1 + k)) by lia. apply Hd. lia.
  Qed.

  Lemma related_next l e e' n n' : related e e' -> next_elt d e (linput l) = Ok n -> next_elt d' e' (linput l) = Ok n' -> related n n'.
  Proof.
    intros [k m|w s k m m' Hw Hm]; unfold next_elt, in_range; cbn [q_state q_count]; [discriminate|].
    rewrite Hfree. cbn [bind Z.eqb andb orb]. rewrite (fo_next _ _ _ Hf'). cbn [bind]. intros H H'. injection H' as <-.
    assert (Hs : exists r, getDFAArrayIndex d s = Ok r).
    { destruct Hw as [->| ->]; [apply Hf|]. eexists. apply (fo_range0 _ _ _ Hf). }
    destruct Hs as ([lo hi] & Hr). rewrite Hr in H. cbn [bind] in H. destruct (_ || _).
    - destruct Hw as [->| ->].
      + rewrite (fo_next _ _ _ Hf) in H. injection H as <-. constructor; [left; reflexivity|left; reflexivity].
      + rewrite (fo_next0 _ _ _ Hf) in H. injection H as <-. constructor; [right; reflexivity|left; reflexivity].
    - injection H as <-. constructor; [right; reflexivity|left; reflexivity].
  Qed.

  Definition texts (tl : list tuple) : list bytes := map snd tl.

  Lemma add_texts tl s t tl' : addTuple tl s t = Ok tl' -> texts tl' = texts tl ++ [t].
  Proof.
    unfold addTuple, strcopy. destruct (_ <=? _); [discriminate|]. destruct (_ <? _); [discriminate|]. cbn [bind]. injection 1 as <-.
    unfold texts. rewrite map_app. reflexivity.
  Qed.
  Lemma sub_more {A} (l m : list A) a : subseq l m -> subseq l (m ++ [a]).
  Proof. intros H. rewrite <- (app_nil_r l). apply subseq_app; [exact H|apply subseq_nil]. Qed.

  (** A closing bracket. *)
  Lemma related_close buf next e e' tl tl' tl1 tl1' b b' : related e e' -> subseq (texts tl) (texts tl') ->
    emit_close d buf e next tl = Ok (tl1, b) -> emit_close d' buf e' next tl' = Ok (tl1', b') ->
    subseq (texts tl1) (texts tl1') /\
    related (if b then set_ms e MInv else e) (if b' then set_ms e' MInv else e').
  Proof.
    intros [n m|w s n m m' Hw Hm] Hs; unfold emit_close; cbn [q_ms].
    - destruct m; cbn [ms_set bind]; try discriminate. intros H H'. injection H as <- <-. injection H' as <- <-. split; [exact Hs|constructor].
    - rewrite (wide_type w n m'). destruct (hit_type w s n m Hw) as [Ht Hsel]. rewrite Ht. cbn [q_state].
      intros H H'.
      assert (Hrest : forall mm, (mm = MInv \/ (mm = m' /\ hit s n = true) \/ dead s n) -> (hit s n = true -> mm = MInv) ->
                (mm = MInv \/ (mm = (if b' then MInv else m') /\ hit s n = true) \/ dead s n)).
      { intros mm Hmm Hn. destruct (hit s n); [left; auto|]. intuition discriminate. }
      assert (Hw1 : forall mm, (mm = MInv \/ (mm = (if b' then MInv else m') /\ hit s n = true) \/ dead s n) ->
                related (mkElt s n mm) (if b' then set_ms (mkElt (st' w) n m') MInv else mkElt (st' w) n m')).
      { intros mm Hmm. destruct b'; unfold set_ms; cbn [q_state q_count]; constructor; auto. }
      assert (Hwide : texts tl1' = texts tl' \/ exists t, texts tl1' = texts tl' ++ [t]).
      { clear H. destruct (ms_set m') as [[z|]|]; [| |discriminate]; cbn [bind] in H'; [|injection H' as <- <-; auto].
        destruct (sel' w); cbn in H'; [|injection H' as <- <-; auto].
        destruct (substring buf 0 z next) as [t|]; [|discriminate]. cbn [bind] in H'. destruct (addTuple tl' (st' w) t) as [t1|] eqn:E; [|discriminate].
        cbn [bind] in H'. injection H' as <- _. right. exists t. eapply add_texts; eauto. }
      assert (Hskip : texts tl1 = texts tl -> subseq (texts tl1) (texts tl1')).
      { intros ->. destruct Hwide as [->|[t ->]]; [exact Hs|apply sub_more, Hs]. }
      destruct m as [|z|]; cbn [ms_set bind] in H; [|destruct (hit s n) eqn:Eh; cbn in H|discriminate].
      + injection H as <- <-. split; [apply Hskip; reflexivity|]. apply Hw1. auto.
      + assert (m' = MAt z) as ->.
        { destruct Hm as [?|[[? _]|Hd]]; [discriminate|congruence|]. specialize (Hd 0 ltac:(lia)). rewrite Z.add_0_r in Hd. congruence. }
        rewrite (Hsub w (Hsel eq_refl)) in H'. cbn in H'.
        destruct (substring buf 0 z next) as [t|]; [|discriminate]. cbn [bind] in *.
        destruct (addTuple tl s t) as [t1|] eqn:E1; [|discriminate]. destruct (addTuple tl' (st' w) t) as [t1'|] eqn:E1'; [|discriminate]. cbn [bind] in *.
        injection H as <- <-. injection H' as <- <-. rewrite (add_texts _ _ _ _ E1), (add_texts _ _ _ _ E1'). split; [apply subseq_app; [exact Hs|apply subseq_refl]|].
        unfold set_ms. cbn. constructor; auto.
      + injection H as <- <-. split; [apply Hskip; reflexivity|]. apply Hw1. right. right.
        destruct Hm as [?|[[_ ?]|Hd]]; [discriminate|congruence|exact Hd].
  Qed.

  Record sim (c c' : core) : Prop := {
    si_ss : c_ss c = c_ss c';
    si_qs : Forall2 related (c_qs c) (c_qs c');
    si_cur : related (c_cur c) (c_cur c');
    si_tl : subseq (texts (c_tl c)) (texts (c_tl c'))
  }.

  Lemma sim_push qs qs' e e' : Forall2 related qs qs' -> related e e' -> Forall2 related (push qs e) (push qs' e').
  Proof.
    intros H He. unfold push. rewrite <- (f2_len _ _ _ H). destruct (Nat.ltb _ _); [constructor; auto|exact H].
  Qed.
  Lemma sim_pop qs qs' : Forall2 related qs qs' -> related (fst (qs_pop qs)) (fst (qs_pop qs')) /\ Forall2 related (snd (qs_pop qs)) (snd (qs_pop qs')).
  Proof. intros [|e e' l l' He H]; cbn; split; auto; constructor. Qed.
  Lemma sim_top qs qs' : Forall2 related qs qs' -> related (qs_top qs) (qs_top qs').
  Proof. intros [|e e' l l' He H]; cbn; [constructor|exact He]. Qed.

  (** An opening bracket. *)
  Lemma related_open z w s n m m' : at_word w s -> (m = MInv \/ (m = m' /\ hit s n = true) \/ dead s n) ->
    related (if hit s n then mkElt s n (MAt z) else mkElt s n m) (if sel' w then mkElt (st' w) n (MAt z) else mkElt (st' w) n m').
  Proof.
    intros Hw Hm. destruct (hit s n) eqn:Eh.
    - rewrite (Hsub w) by (apply (proj2 (hit_type w s n m Hw)), Eh). constructor; auto.
    - destruct (sel' w); constructor; auto; destruct Hm as [?|[[_ ?]|?]]; auto; discriminate.
  Qed.

  Lemma sim_lcb next c c' c1 c1' : sim c c' -> do_lcb d next c = Ok c1 -> do_lcb d' next c' = Ok c1' -> sim c1 c1'.
  Proof.
    intros [H1 H2 H3 H4]. unfold do_lcb. destruct c as [ss qs e tl], c' as [ss' qs' e' tl']. cbn [c_ss c_qs c_cur c_tl] in *. subst ss'.
    destruct H3 as [n m|w s n m m' Hw Hm]; [discriminate|]. destruct (hit_type w s n m Hw) as [Ht _]. rewrite Ht, wide_type. cbn [bind].
    intros H H'. pose proof (related_open (next - 1) w s n m m' Hw Hm) as Hr.
    destruct (hit s n), (sel' w); cbn in H, H'; injection H as <-; injection H' as <-; constructor; cbn [c_ss c_qs c_cur c_tl]; auto.
  Qed.

  Lemma sim_rcb buf next c c' c1 c1' : sim c c' -> do_rcb d buf next c = Ok c1 -> do_rcb d' buf next c' = Ok c1' -> sim c1 c1'.
  Proof.
    intros [H1 H2 H3 H4]. unfold do_rcb. destruct c as [ss qs e tl], c' as [ss' qs' e' tl']. cbn [c_ss c_qs c_cur c_tl] in *. subst ss'.
    destruct (emit_close d buf e next tl) as [[tl1 b]|] eqn:E; [|discriminate]. destruct (emit_close d' buf e' next tl') as [[tl1' b']|] eqn:E'; [|discriminate].
    cbn [bind]. destruct (related_close buf next e e' tl tl' tl1 tl1' b b' H3 H4 E E') as [Ha Hb].
    set (f := if b then set_ms e MInv else e) in *. set (f' := if b' then set_ms e' MInv else e') in *. clearbody f f'. clear E E'.
    destruct (sim_pop _ _ H2) as [Hp1 Hp2].
    assert (Hsame : forall s, sim (mkCore s qs f tl1) (mkCore s qs' f' tl1')) by (intros; constructor; auto).
    destruct ss as [|s0 [|s1 ss]].
    - intros H H'. injection H as <-. injection H' as <-. apply Hsame.
    - intros H H'. injection H as <-. injection H' as <-. apply Hsame.
    - destruct s1.
      + intros H H'. injection H as <-. injection H' as <-. apply Hsame.
      + apply related_incr in Hb. revert Hb. generalize (incr f) (incr f'). intros g g' Hg.
        destruct Hg as [n m|w s n m m' Hw Hm]; [discriminate|]. destruct (hit_type w s n m Hw) as [Ht _]. rewrite Ht, wide_type. cbn [bind].
        assert (Hg : related (mkElt s n m) (mkElt (st' w) n m')) by (constructor; auto).
        intros H H'. destruct (hit s n), (sel' w); cbn in H, H'; injection H as <-; injection H' as <-; constructor; cbn [c_ss c_qs c_cur c_tl]; auto.
      + destruct (qs_pop qs) as [g r], (qs_pop qs') as [g' r']. cbn in Hp1, Hp2.
        intros H H'. injection H as <-. injection H' as <-. constructor; auto.
  Qed.

  Lemma sim_lb next c c' c1 c1' : sim c c' -> do_lb d next c = Ok c1 -> do_lb d' next c' = Ok c1' -> sim c1 c1'.
  Proof.
    intros [H1 H2 H3 H4]. unfold do_lb. destruct c as [ss qs e tl], c' as [ss' qs' e' tl']. cbn [c_ss c_qs c_cur c_tl] in *. subst ss'.
    destruct H3 as [n m|w s n m m' Hw Hm]; [discriminate|]. destruct (hit_type w s n m Hw) as [Ht _]. rewrite Ht, wide_type. cbn [bind].
    pose proof (related_open (next - 1) w s n m m' Hw Hm) as Hr. unfold set_ms. cbn [q_state q_count].
    assert (G : forall g g', related g g' ->
      (n <- next_elt d g None;; Ok (mkCore (push ss SLB) (push qs g) n tl)) = Ok c1 ->
      (n <- next_elt d' g' None;; Ok (mkCore (push ss SLB) (push qs' g') n tl')) = Ok c1' -> sim c1 c1').
    { intros g g' Hg. destruct (next_elt d g None) as [k|] eqn:E; [|discriminate]. destruct (next_elt d' g' None) as [k'|] eqn:E'; [|discriminate].
      cbn [bind]. intros H H'. injection H as <-. injection H' as <-. constructor; cbn [c_ss c_qs c_cur c_tl]; auto using sim_push.
      apply (related_next (LIdx 0) g g' k k' Hg E E'). }
    destruct (hit s n), (sel' w); cbn [Z.eqb DFA_OUTPUT_CANDIDATE DFA_CONDITION Pos.eqb bind]; intros H H'; exact (G _ _ Hr H H').
  Qed.

  Lemma sim_rb buf next c c' c1 c1' : sim c c' -> do_rb d buf next c = Ok c1 -> do_rb d' buf next c' = Ok c1' -> sim c1 c1'.
  Proof.
    intros Hc. pose proof Hc as [H1 H2 H3 H4]. unfold do_rb. destruct c as [ss qs e tl], c' as [ss' qs' e' tl']. cbn [c_ss c_qs c_cur c_tl] in *. subst ss'.
    destruct ss as [|s0 ss].
    { intros H H'. injection H as <-. injection H' as <-. exact Hc. }
    destruct (emit_close d buf (qs_top qs) next tl) as [[tl1 b]|] eqn:E; [|discriminate].
    destruct (emit_close d' buf (qs_top qs') next tl') as [[tl1' b']|] eqn:E'; [|discriminate].
    cbn [bind]. destruct (related_close buf next _ _ tl tl' tl1 tl1' b b' (sim_top _ _ H2) H4 E E') as [Ha _]. clear E E'.
    destruct (sim_pop _ _ H2) as [Hp1 Hp2]. destruct (qs_pop qs) as [g r], (qs_pop qs') as [g' r']. cbn in Hp1, Hp2.
    destruct ss as [|[] ss].
    - intros H H'. injection H as <-. injection H' as <-. constructor; auto.
    - intros H H'. injection H as <-. injection H' as <-. constructor; auto.
    - intros H H'. injection H as <-. injection H' as <-. constructor; cbn [c_ss c_qs c_cur c_tl]; auto using related_incr.
    - destruct (sim_pop _ _ Hp2) as [Hq1 Hq2]. destruct (qs_pop r) as [h t], (qs_pop r') as [h' t']. cbn in Hq1, Hq2.
      intros H H'. injection H as <-. injection H' as <-. constructor; auto.
  Qed.

  Lemma sim_ky k c c' c1 c1' : sim c c' -> do_ky d k c = Ok c1 -> do_ky d' k c' = Ok c1' -> sim c1 c1'.
  Proof.
    intros [H1 H2 H3 H4]. unfold do_ky. destruct (next_elt d _ _) as [n|] eqn:E; [|discriminate]. destruct (next_elt d' _ _) as [n'|] eqn:E'; [|discriminate].
    cbn [bind]. intros H H'. injection H as <-. injection H' as <-. constructor; cbn [c_ss c_qs c_cur c_tl]; auto using sim_push.
    - congruence.
    - exact (related_next (LKey k) _ _ _ _ H3 E E').
  Qed.

  Lemma sim_pri t c c' c1 c1' : sim c c' -> do_pri d t c = Ok c1 -> do_pri d' t c' = Ok c1' -> sim c1 c1'.
  Proof.
    intros Hc. pose proof Hc as [H1 H2 H3 H4]. unfold do_pri. destruct c as [ss qs e tl], c' as [ss' qs' e' tl']. cbn [c_ss c_qs c_cur c_tl] in *. subst ss'.
    destruct ss as [|top ss].
    { intros H H'. injection H as <-. injection H' as <-. exact Hc. }
    destruct H3 as [n m|w s n m m' Hw Hm]; [discriminate|]. destruct (hit_type w s n m Hw) as [Ht Hsel]. rewrite Ht, wide_type. cbn [bind q_state].
    assert (Hg : related (mkElt s n m) (mkElt (st' w) n m')) by (constructor; auto). clear Hc.
    assert (G : forall tl1 tl1', subseq (texts tl1) (texts tl1') ->
      match top with
      | SKY => let '(e', qs') := qs_pop qs in Ok (mkCore ss qs' e' tl1)
      | SLB => Ok (mkCore (top :: ss) qs (incr (mkElt s n m)) tl1)
      | SLCB => Ok (mkCore (top :: ss) qs (mkElt s n m) tl1)
      end = Ok c1 ->
      match top with
      | SKY => let '(e', qs') := qs_pop qs' in Ok (mkCore ss qs' e' tl1')
      | SLB => Ok (mkCore (top :: ss) qs' (incr (mkElt (st' w) n m')) tl1')
      | SLCB => Ok (mkCore (top :: ss) qs' (mkElt (st' w) n m') tl1')
      end = Ok c1' -> sim c1 c1').
    { intros tl1 tl1' Hs. destruct top.
      - intros H H'. injection H as <-. injection H' as <-. constructor; auto.
      - intros H H'. injection H as <-. injection H' as <-. constructor; cbn [c_ss c_qs c_cur c_tl]; auto. apply (related_incr _ _ Hg).
      - destruct (sim_pop _ _ H2) as [Hp1 Hp2]. destruct (qs_pop qs) as [g r], (qs_pop qs') as [g' r']. cbn in Hp1, Hp2.
        intros H H'. injection H as <-. injection H' as <-. constructor; auto. }
    destruct (hit s n) eqn:Eh.
    - rewrite (Hsub w (Hsel eq_refl)). cbn [Z.eqb DFA_OUTPUT_CANDIDATE Pos.eqb orb].
      destruct (addTuple tl s t) as [t1|] eqn:E; [|discriminate]. destruct (addTuple tl' (st' w) t) as [t1'|] eqn:E'; [|discriminate]. cbn [bind].
      intros H H'. refine (G t1 t1' _ H H'). rewrite (add_texts _ _ _ _ E), (add_texts _ _ _ _ E'). apply subseq_app; [exact H4|apply subseq_refl].
    - destruct (sel' w); cbn [Z.eqb DFA_OUTPUT_CANDIDATE DFA_CONDITION Pos.eqb orb].
      + destruct (addTuple tl' (st' w) t) as [t1'|] eqn:E'; [|discriminate]. cbn [bind].
        intros H H'. refine (G tl t1' _ H H'). rewrite (add_texts _ _ _ _ E'). apply sub_more, H4.
      + cbn [bind]. intros H H'. exact (G tl tl' H4 H H').
  Qed.

  Lemma sim_step buf ev c c' c1 c1' : sim c c' -> core_step d buf c ev = Ok c1 -> core_step d' buf c' ev = Ok c1' -> sim c1 c1'.
  Proof.
    intros Hc. unfold core_step. destruct (e_tok ev); eauto using sim_lcb, sim_rcb, sim_lb, sim_rb, sim_ky, sim_pri;
      intros H H'; injection H as <-; injection H' as <-; exact Hc.
  Qed.
  Lemma sim_run buf : forall evs c c' c1 c1', sim c c' -> foldM (core_step d buf) evs c = Ok c1 -> foldM (core_step d' buf) evs c' = Ok c1' -> sim c1 c1'.
  Proof.
    induction evs as [|ev evs IH]; intros c c' c1 c1' Hc; cbn [foldM].
    - intros H H'. injection H as <-. injection H' as <-. exact Hc.
    - destruct (core_step d buf c ev) as [c2|] eqn:E; [|discriminate]. destruct (core_step d' buf c' ev) as [c2'|] eqn:E'; [|discriminate].
      cbn [bind]. apply IH. exact (sim_step _ _ _ _ _ _ Hc E E').
  Qed.
  Lemma sim_exec s c c' c1 c1' : sim c c' -> executeAutomaton d s c = Ok c1 -> executeAutomaton d' s c' = Ok c1' -> sim c1 c1'.
  Proof. unfold executeAutomaton. destruct (lex_all s) as [evs|]; [|discriminate]. apply sim_run. Qed.
  Lemma sim_init : sim init_core init_core.
  Proof.
    constructor; cbn; [reflexivity|constructor| |constructor]. rewrite <- (fo_start _ _ _ Hf') at 2. rewrite <- (fo_start _ _ _ Hf).
    constructor; [left; reflexivity|left; reflexivity].
  Qed.
End Sim.

(** * Whole runs *)
Lemma init_plain x f : x_preds x = [] -> initPredicateFilter x = Ok f -> no_predicates f = true /\ f_output f = [].
Proof. unfold initPredicateFilter. intros ->. cbn. injection 1 as <-. split; reflexivity. Qed.
Lemma final_plain N x f tl f1 : no_predicates f = true -> generateFinalOutput N x f tl = Ok f1 ->
  no_predicates f1 = true /\ f_output f1 = f_output f ++ map snd tl.
Proof.
  unfold generateFinalOutput. intros Hn. rewrite Hn. destruct (foldM addOutputElement _ _) as [o|] eqn:E; [|discriminate].
  cbn [bind]. injection 1 as <-. apply adds_inv in E. subst o. split; [exact Hn|reflexivity].
Qed.

Section Runs.
  Variables N N' : numops.
  Variable j : junk.
  Variables p p' : processor.
  Variables sel sel' : list label -> bool.
  Variables st st' : list label -> Z.
  Hypothesis Hf : follows (p_dfa p) sel st.
  Hypothesis Hf' : follows (p_dfa p') sel' st'.
  Hypothesis Hfree : forall w, getDFAArrayIndex (p_dfa p') (st' w) = Ok (0, 0).
  Hypothesis Hsub : forall w, sel w = true -> sel' w = true.
  Hypothesis Hnp : x_preds (p_ctx p) = [].
  Hypothesis Hnp' : x_preds (p_ctx p') = [].

  Record ctx_sim (ci ci' : scontext) : Prop := {
    cs_context : sc_context ci = sc_context ci';
    cs_core : sim (p_dfa p) st st' (sc_core ci) (sc_core ci');
    cs_finish : sc_finish ci = sc_finish ci';
    cs_freed : sc_freed ci = sc_freed ci';
    cs_filter : sc_context ci = true -> no_predicates (sc_filter ci) = true /\ no_predicates (sc_filter ci') = true /\
      subseq (f_output (sc_filter ci)) (f_output (sc_filter ci'))
  }.

  Lemma partial_sim s ci ci' o o' c1 c1' : ctx_sim ci ci' -> serialPartialRun N j p s ci = Ok (o, c1) -> serialPartialRun N' j p' s ci' = Ok (o', c1') ->
    subseq o o' /\ ctx_sim c1 c1'.
  Proof.
    intros [H1 H2 H3 H4 H5]. unfold serialPartialRun. rewrite <- H1, <- H3, <- H4. destruct (sc_context ci && sc_freed ci); [discriminate|].
    set (c0 := if sc_context ci then sc_core ci else init_core). set (c0' := if sc_context ci then sc_core ci' else init_core).
    assert (H0 : sim (p_dfa p) st st' c0 c0').
    { unfold c0, c0'. destruct (sc_context ci); [exact H2|]. eapply sim_init; eauto. }
    clearbody c0 c0'. destruct (executeAutomaton (p_dfa p) s c0) as [a|] eqn:E; [|discriminate]. destruct (executeAutomaton (p_dfa p') s c0') as [a'|] eqn:E'; [|discriminate].
    cbn [bind]. pose proof (sim_exec _ _ _ _ _ _ Hf Hf' Hfree Hsub _ _ _ _ _ H0 E E') as Ha.
    set (r := if sc_context ci then Ok (sc_filter ci) else initPredicateFilter (p_ctx p)). set (r' := if sc_context ci then Ok (sc_filter ci') else initPredicateFilter (p_ctx p')).
    assert (Hr : forall f f', r = Ok f -> r' = Ok f' -> no_predicates f = true /\ no_predicates f' = true /\ subseq (f_output f) (f_output f')).
    { unfold r, r'. destruct (sc_context ci).
      - intros f f' X X'. injection X as <-. injection X' as <-. apply H5. reflexivity.
      - intros f f' X X'. apply (init_plain _ _ Hnp) in X. apply (init_plain _ _ Hnp') in X'. destruct X as [X1 X2], X' as [X1' X2'].
        rewrite X2, X2'. repeat split; auto. constructor. }
    destruct r as [f|]; [|discriminate]. destruct r' as [f'|]; [|discriminate]. cbn [bind]. destruct (Hr f f' eq_refl eq_refl) as (Q1 & Q2 & Q3).
    destruct (generateFinalOutput N (p_ctx p) f (c_tl a)) as [g|] eqn:G; [|discriminate]. destruct (generateFinalOutput N' (p_ctx p') f' (c_tl a')) as [g'|] eqn:G'; [|discriminate].
    cbn [bind]. apply (final_plain _ _ _ _ _ Q1) in G. apply (final_plain _ _ _ _ _ Q2) in G'. destruct G as [G1 G2], G' as [G1' G2'].
    assert (Hs : subseq (f_output g) (f_output g')) by (rewrite G2, G2'; apply subseq_app; [exact Q3|apply Ha]).
    intros H H'. injection H as <- <-. injection H' as <- <-. split; [exact Hs|]. constructor; cbn; auto.
  Qed.

  Definition opt_sub (o o' : option (list bytes)) : Prop :=
    match o, o' with Some l, Some l' => subseq l l' | None, None => True | _, _ => False end.

  Lemma loop_sim M X file : forall f start o o' ci ci' r r' c1 c1', opt_sub o o' -> ctx_sim ci ci' ->
    serial_loop N j p M X file f start o ci = Ok (r, c1) -> serial_loop N' j p' M X file f start o' ci' = Ok (r', c1') -> opt_sub r r'.
  Proof.
    induction f as [|f IH]; intros start o o' ci ci' r r' c1 c1' Ho Hc; cbn [serial_loop]; [discriminate|].
    destruct (loadBounded M X file start) as [[[s next]|]|]; [| |discriminate]; cbn [bind].
    - destruct (serialPartialRun N j p s ci) as [[a ca]|] eqn:E; [|discriminate]. destruct (serialPartialRun N' j p' s ci') as [[a' ca']|] eqn:E'; [|discriminate].
      cbn [bind]. destruct (partial_sim _ _ _ _ _ _ _ Hc E E') as [Hs Hc1]. apply IH; auto.
    - intros H H'. injection H as <- _. injection H' as <- _. exact Ho.
  Qed.

  Lemma run_sim M X file r r' : serial_run N j p M X file = Ok r -> serial_run N' j p' M X file = Ok r' -> opt_sub r r'.
  Proof.
    unfold serial_run. destruct (serial_loop N j p _ _ _ _ _ _ _) as [[o ci]|] eqn:E; [|discriminate].
    destruct (serial_loop N' j p' _ _ _ _ _ _ _) as [[o' ci']|] eqn:E'; [|discriminate]. cbn [bind].
    destruct (destroyStreamingContext j ci) as [?|]; [|discriminate]. destruct (destroyStreamingContext j ci') as [?|]; [|discriminate].
    cbn [bind]. intros H H'. injection H as <-. injection H' as <-. refine (loop_sim _ _ _ _ _ _ _ _ _ _ _ _ _ _ _ E E'); [exact I|].
    constructor; cbn; auto; [eapply sim_init; eauto|discriminate].
  Qed.
End Runs.

Lemma slice_preds q d x st : supported q = true -> slice_query q = true -> compiled q d x st -> x_preds x = [].
Proof.
  intros Hs Hq C. destruct (supported_parts q Hs) as (Hrbd & Hsl & Hend & Hfo & Hfi & Hnm).
  assert (Hne : forall f, In f (query_fields q) -> f <> []).
  { intros f Hf. unfold fields_ok in Hfi. rewrite forallb_forall in Hfi. specialize (Hfi f Hf). intros ->. discriminate. }
  destruct (no_filter_fields q Hq) as [_ Hnf]. destruct (x_preds x) as [|s l] eqn:E; [reflexivity|]. exfalso.
  assert (Hin : In s (x_preds x)) by (rewrite E; left; reflexivity). apply (cp_preds _ _ _ _ C) in Hin. destruct Hin as (w & j & _ & Hc).
  apply (rp_role q Hrbd Hsl Hend Hne) in Hc. destruct Hc as (e & He & _). apply nth_error_In, Hnf in He. discriminate.
Qed.

Theorem relax_runs N j strict q q' p p' M X file out out' :
  supported q = true -> slice_query q = true -> path_query q' = true -> names_fit q' = true -> contained (widen q) q' ->
  createPathProcessor strict q = Ok p -> createPathProcessor strict q' = Ok p' ->
  serial_run N j p M X file = Ok (Some out) -> serial_run N j p' M X file = Ok (Some out') -> subseq out out'.
Proof.
  intros Hs Hq Hq' Hn' Hc Hp Hp' Hr Hr'. pose proof (path_supported q' Hq' Hn') as Hs'. pose proof (path_slice q' Hq') as Hsq'.
  destruct (no_filter_fields q Hq) as [Hf0 _]. destruct (no_filter_fields q' Hsq') as [Hf0' _].
  destruct (create_ok strict q Hs) as (d & x & st & E & _ & C). { intros _ f Hf. rewrite Hf0 in Hf. destruct Hf. }
  destruct (create_ok strict q' Hs') as (d' & x' & st' & E' & _ & C'). { intros _ f Hf. rewrite Hf0' in Hf. destruct Hf. }
  rewrite Hp in E. injection E as ->. rewrite Hp' in E'. injection E' as ->.
  pose proof (compiled_follows q' d' x' st' Hs' Hsq' C') as Hfo'. rewrite (widen_path q' Hq') in Hfo'.
  refine (run_sim N N j (mkProc d x) (mkProc d' x') (lsel (widen q)) (lsel q') st st' (compiled_follows q d x st Hs Hq C) Hfo'
    (compiled_free q' d' x' st' Hq' C') _ (slice_preds q d x st Hs Hq C) (slice_preds q' d' x' st' Hs' Hsq' C') M X file (Some out) (Some out') Hr Hr').
  intros w Hw. rewrite <- (lsel_selects (fun _ _ => false)) in * by eauto using path_steps, widen_steps. apply Hc, Hw.
Qed.

(** Documents, also with filters: by the answers. *)
Lemma answers_sub hs q q' v : (forall p, selects hs q p = true -> selects hs q' p = true) ->
  subseq (answer_text hs q v) (answer_text hs q' v).
Proof.
  intros H. unfold answer_text, answer. rewrite !map_map. apply subseq_map. induction (nodes [] v) as [|n l IH]; cbn; [constructor|].
  destruct (selects hs q (fst n)) eqn:E.
  - rewrite (H _ E). apply sub_take. exact IH.
  - destruct (selects hs q' (fst n)); [apply sub_skip|]; exact IH.
Qed.
