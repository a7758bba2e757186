(** Running the streaming automaton piece by piece: a simulation between the run
    on the whole stream and the run on its pieces. *)
From Verif Require Import Base Spec PosSpec Util Lexer LexProof LexDoc LexMain LexSpec LexClaim Flat CutSpec Cut Loader LoaderProof Dfa Constraint Stream TreeSem Pieces.
Open Scope Z_scope.

(** Positions: [m] counts from the start of the whole, [m'] from the start of a
    piece that begins at [n].  Positions before [n] mean nothing in the piece. *)
Definition ms_sim (n : Z) (m m' : mstart) : Prop :=
  match m, m' with
  | MInv, MInv => True
  | MUninit, MUninit => True
  | MAt z, MAt z' => n <= z -> z' = z - n
  | _, _ => False
  end.
Definition elt_sim (n : Z) (e e' : elt) : Prop :=
  q_state e = q_state e' /\ q_count e = q_count e' /\ ms_sim n (q_ms e) (q_ms e').
Definition core_sim (n : Z) (c c' : core) : Prop :=
  c_ss c = c_ss c' /\ c_tl c = c_tl c' /\ Forall2 (elt_sim n) (c_qs c) (c_qs c') /\ elt_sim n (c_cur c) (c_cur c').

Definition ms_lt (k : Z) (m : mstart) : Prop := match m with MAt z => z < k | _ => True end.
Definition core_lt (k : Z) (c : core) : Prop := Forall (fun e => ms_lt k (q_ms e)) (c_cur c :: c_qs c).

Lemma ms_sim_next n n' m m' : ms_sim n m m' -> ms_lt n' m -> ms_sim n' m m'.
Proof. destruct m, m'; cbn; auto. intros _ H1 H2. lia. Qed.
Lemma core_sim_next n n' c c' : core_sim n c c' -> core_lt n' c -> core_sim n' c c'.
Proof.
  intros (H1 & H2 & H3 & H4) Hl. apply Forall_cons_iff in Hl as [L1 L2]. repeat split; auto.
  - clear -H3 L2. induction H3 as [|e e' l l' He _ IH]; [constructor|]. apply Forall_cons_iff in L2 as [L2 L3].
    constructor; [|auto]. destruct He as (A & B & C). repeat split; auto. eapply ms_sim_next; eauto.
  - apply H4.
  - apply H4.
  - eapply ms_sim_next; [apply H4|exact L1].
Qed.

(** Marks of a flat stream lie inside of it. *)
Lemma lead_bt_le : forall w, 0 <= lead_bt w <= zlen w.
Proof. induction w as [|c w IH]; cbn [lead_bt]; [cbn; lia|]. rewrite zlen_cons. destruct (blank_char c); cbn; pose proof (zlen_nonneg w); lia. Qed.
Lemma marks_bound : forall l o k post, chain k l post = true -> Forall (fun m => o < snd m <= o + zlen (itext l)) (marks o l).
Proof.
  induction l as [|[w x] l IH]; intros o k post Hc; [constructor|]. cbn [chain] in Hc. apply andb_true_iff in Hc as [Hc Hr]. andb_split.
  cbn [marks itext]. rewrite !zlen_app. pose proof (zlen_nonneg w). pose proof (zlen_nonneg (itext l)).
  assert (Hx : 0 < zlen (xtext x)).
  { destruct x as [c|k0 wc|s0|s0]; cbn [xtext]; rewrite ?zlen_cons, ?zlen_app, ?zlen_cons, ?zlen_nil.
    - unfold zlen; cbn [List.length]; lia.
    - pose proof (zlen_nonneg k0). pose proof (zlen_nonneg wc). zlc.
    - pose proof (zlen_nonneg s0). zlc.
    - cbn [xok] in *. andb_split. destruct s0; [discriminate|]. pose proof (zlen_nonneg s0). zlc. }
  constructor.
  - cbn [snd]. assert (Hb : 0 <= lead_bt (first_ws l) <= zlen (itext l)).
    { destruct l as [|[w' x'] l']; cbn [first_ws]; [cbn; lia|].
      cbn [itext]. rewrite zlen_app. pose proof (lead_bt_le w'). pose proof (zlen_nonneg (xtext x' ++ itext l')). lia. }
    destruct x; lia.
  - eapply Forall_impl; [|exact (IH _ _ _ Hr)]. cbn beta. intros m Hm. lia.
Qed.
Lemma flat_bound p l : flat p l -> Forall (fun m => 0 < snd m <= zlen p) (marks 0 l).
Proof.
  intros (post & -> & Hc & _). eapply Forall_impl; [|exact (marks_bound l 0 _ _ Hc)]. cbn beta. intros m. rewrite zlen_app. pose proof (zlen_nonneg post). lia.
Qed.

Section Sim.
  Variable d : dfa.

  (** The start of the text that a closing bracket emits. *)
  Definition emit_of (e : elt) : option Z :=
    match q_ms e, getMatchedType d e with
    | MAt z, Ok m => if m =? DFA_OUTPUT_CANDIDATE then Some z else None
    | _, _ => None
    end.
  Definition emits (c : core) (t : token) : option Z :=
    match t with
    | TRCB => emit_of (c_cur c)
    | TRB => match c_ss c with [] => None | _ => emit_of (qs_top (c_qs c)) end
    | _ => None
    end.

  Lemma gmt_ext e e' : q_state e = q_state e' -> q_count e = q_count e' -> getMatchedType d e = getMatchedType d e'.
  Proof. intros H1 H2. unfold getMatchedType, in_range. rewrite H1, H2. reflexivity. Qed.
  Lemma next_ext e e' k : q_state e = q_state e' -> q_count e = q_count e' -> next_elt d e k = next_elt d e' k.
  Proof. intros H1 H2. unfold next_elt, in_range. rewrite H1, H2. reflexivity. Qed.

  Lemma sim_top n qs qs' : Forall2 (elt_sim n) qs qs' -> elt_sim n (qs_top qs) (qs_top qs').
  Proof. intros [|e e' l l' H _]; [repeat split|exact H]. Qed.
  Lemma sim_pop n qs qs' : Forall2 (elt_sim n) qs qs' ->
    elt_sim n (fst (qs_pop qs)) (fst (qs_pop qs')) /\ Forall2 (elt_sim n) (snd (qs_pop qs)) (snd (qs_pop qs')).
  Proof. intros [|e e' l l' H Hl]; cbn; [repeat split; constructor|auto]. Qed.
  Lemma sim_push n qs qs' e e' : Forall2 (elt_sim n) qs qs' -> elt_sim n e e' -> Forall2 (elt_sim n) (push qs e) (push qs' e').
  Proof.
    intros H He. unfold push. assert (El : List.length qs = List.length qs') by (clear -H; induction H; cbn; congruence).
    rewrite El. destruct (Nat.ltb _ _); [constructor; assumption|assumption].
  Qed.

  Section Piece.
    Variables (T P0 P R : bytes) (n : Z).
    Hypothesis HT : T = P0 ++ P ++ R.
    Hypothesis Hn : n = zlen P0.
    Hypothesis HlT : lead_blanks T = O.
    Hypothesis HlP : lead_blanks P = O.

    Lemma read_piece a k : n <= a -> a + k <= n + zlen P -> read_range T a k = read_range P (a - n) k.
    Proof.
      intros H1 H2. unfold read_range. destruct (Z.leb_spec k 0) as [|Hk]; [reflexivity|].
      pose proof (zlen_nonneg P0). pose proof (zlen_nonneg R).
      assert (Hlen : zlen T = n + zlen P + zlen R) by (rewrite HT, Hn, !zlen_app; lia).
      replace ((a <? 0) || (zlen T + 1 <? a + k)) with false by lia.
      replace ((a - n <? 0) || (zlen P + 1 <? a - n + k)) with false by lia. f_equal.
      rewrite HT, <- !app_assoc.
      rewrite (skipn_app (Z.to_nat a) P0). rewrite (skipn_all2 P0) by (unfold zlen in *; lia). cbn [app].
      replace (Z.to_nat a - List.length P0)%nat with (Z.to_nat (a - n)) by (unfold zlen in *; lia).
      assert (Hle : (Z.to_nat (a - n) <= List.length P)%nat) by (unfold zlen in *; lia).
      rewrite !skipn_app. replace (Z.to_nat (a - n) - List.length P)%nat with O by lia. cbn [skipn].
      rewrite !firstn_app. replace (Z.to_nat k - List.length (skipn (Z.to_nat (a - n)) P))%nat with O.
      - cbn [firstn]. reflexivity.
      - rewrite skipn_length. unfold zlen in *. lia.
    Qed.

    Lemma sub_piece z e : n <= z -> e <= n + zlen P -> substring T 0 z e = substring P 0 (z - n) (e - n).
    Proof.
      intros H1 H2. unfold substring, ltrim. cbn [Z.to_nat skipn]. rewrite HlT, HlP. cbn [Z.of_nat].
      replace (e - n <? z - n) with (e <? z) by (destruct (Z.ltb_spec e z), (Z.ltb_spec (e - n) (z - n)); auto; lia).
      destruct (Z.ltb_spec e z) as [|H3]; [reflexivity|].
      rewrite read_piece by lia. replace (0 + 0 + z - n) with (0 + 0 + (z - n)) by lia. replace (e - n - (z - n)) with (e - z) by lia. reflexivity.
    Qed.

    Lemma close_sim e e' next L r : elt_sim n e e' -> next <= n + zlen P -> (forall z, emit_of e = Some z -> n <= z) ->
      emit_close d T e next L = Ok r -> emit_close d P e' (next - n) L = Ok r.
    Proof.
      intros (H1 & H2 & H3) Hx He. unfold emit_close. unfold emit_of in He. rewrite <- (gmt_ext e e' H1 H2), <- H1.
      destruct (q_ms e) as [|z|], (q_ms e') as [|z'|]; cbn [ms_sim] in H3; try contradiction; cbn [ms_set bind]; auto.
      destruct (getMatchedType d e) as [m|]; [|discriminate]. cbn [bind].
      destruct (m =? DFA_OUTPUT_CANDIDATE); [|auto]. specialize (He z eq_refl). rewrite (H3 He), <- sub_piece by lia. auto.
    Qed.

    Lemma step_sim c c' ev ev' c2 : core_sim n c c' -> e_tok ev = e_tok ev' -> e_next ev = n + e_next ev' ->
      n < e_next ev <= n + zlen P -> (forall z, emits c (e_tok ev) = Some z -> n <= z) ->
      core_step d T c ev = Ok c2 -> exists c2', core_step d P c' ev' = Ok c2' /\ core_sim n c2 c2'.
    Proof.
      intros (S1 & S2 & S3 & S4) Et En Hx He. unfold core_step. rewrite <- Et.
      replace (e_next ev') with (e_next ev - n) by lia.
      set (x := e_next ev) in *. clearbody x.
      destruct c as [ss qs e L], c' as [ss' qs' e' L']. cbn [c_ss c_tl c_qs c_cur] in *. subst ss' L'.
      pose proof S4 as (E1 & E2 & E3).
      destruct (e_tok ev) as [| | | | |k|s|]; cbn [emits c_cur c_ss c_qs] in He.
      - (* { *)
        unfold do_lcb. cbn [c_ss c_tl c_qs c_cur]. rewrite <- (gmt_ext e e' E1 E2), <- E1.
        destruct (getMatchedType d e) as [m|]; [|discriminate]. cbn [bind].
        destruct (m =? DFA_OUTPUT_CANDIDATE).
        { intros H. injection H as <-. eexists. split; [reflexivity|]. repeat split; auto. unfold set_ms. cbn. lia. }
        destruct (m =? DFA_PREDICATE).
        { destruct (addTuple L _ _) as [tl|]; [|discriminate]. intros H. injection H as <-. eexists. split; [reflexivity|]. repeat split; auto. }
        destruct (m =? DFA_CONDITION).
        { destruct (addTuple L _ _) as [tl|]; [|discriminate]. intros H. injection H as <-. eexists. split; [reflexivity|]. repeat split; auto. }
        intros H. injection H as <-. eexists. split; [reflexivity|]. repeat split; auto.
      - (* } *)
        unfold do_rcb. cbn [c_ss c_tl c_qs c_cur].
        destruct (emit_close d T e x L) as [[tl em]|] eqn:Ec; [|discriminate]. cbn [bind].
        rewrite (close_sim e e' x L _ S4 (proj2 Hx) He Ec). cbn [bind].
        assert (S5 : elt_sim n (if em then set_ms e MInv else e) (if em then set_ms e' MInv else e')).
        { destruct em; [repeat split; auto|exact S4]. }
        revert S5. generalize (if em then set_ms e MInv else e) (if em then set_ms e' MInv else e'). intros f f' S5.
        destruct ss as [|s1 [|[] ss]].
        + intros H. injection H as <-. eexists. split; [reflexivity|]. repeat split; auto; apply S5.
        + intros H. injection H as <-. eexists. split; [reflexivity|]. repeat split; auto; apply S5.
        + intros H. injection H as <-. eexists. split; [reflexivity|]. repeat split; auto; apply S5.
        + pose proof S5 as (G1 & G2 & G3). assert (S6 : elt_sim n (incr f) (incr f')) by (unfold incr; repeat split; cbn; [exact G1|lia|exact G3]).
          rewrite <- (gmt_ext (incr f) (incr f')) by apply S6.
          destruct (getMatchedType d (incr f)) as [m|]; [|discriminate]. cbn [bind].
          change (q_state (incr f')) with (q_state f'). rewrite <- G1. change (q_state f) with (q_state (incr f)).
          destruct (m =? DFA_PREDICATE).
          * destruct (addTuple tl _ _) as [tl2|]; [|discriminate]. intros H. injection H as <-. eexists. split; [reflexivity|]. repeat split; auto; apply S6.
          * intros H. injection H as <-. eexists. split; [reflexivity|]. repeat split; auto; apply S6.
        + destruct (sim_pop n qs qs' S3) as [P1 P2]. destruct (qs_pop qs) as [g q1], (qs_pop qs') as [g' q1']. cbn [fst snd] in *.
          intros H. injection H as <-. eexists. split; [reflexivity|]. repeat split; auto; apply P1.
      - (* [ *)
        unfold do_lb. cbn [c_ss c_tl c_qs c_cur]. rewrite <- (gmt_ext e e' E1 E2), <- E1.
        destruct (getMatchedType d e) as [m|]; [|discriminate]. cbn [bind].
        assert (G : forall f f' tl, elt_sim n f f' ->
          (v <- next_elt d f None;; Ok (mkCore (push ss SLB) (push qs f) v tl)) = Ok c2 ->
          exists c2', (v <- next_elt d f' None;; Ok (mkCore (push ss SLB) (push qs' f') v tl)) = Ok c2' /\ core_sim n c2 c2').
        { intros f f' tl Hf. rewrite <- (next_ext f f') by apply Hf. unfold next_elt at 1 2.
          destruct (in_range d f) as [r|]; [|discriminate]. cbn [bind].
          destruct (if r then _ else _) as [v|]; [|discriminate]. cbn [bind].
          intros H. injection H as <-. eexists. split; [reflexivity|]. repeat split; auto. apply sim_push; assumption. }
        destruct (m =? DFA_OUTPUT_CANDIDATE).
        { cbn [bind]. apply G. unfold set_ms. repeat split; cbn; auto. lia. }
        destruct (m =? DFA_CONDITION).
        { destruct (addTuple L _ _) as [tl|]; [|discriminate]. cbn [bind]. apply G, S4. }
        cbn [bind]. apply G, S4.
      - (* ] *)
        unfold do_rb. cbn [c_ss c_tl c_qs c_cur]. destruct ss as [|s1 ss1].
        { intros H. injection H as <-. eexists. split; [reflexivity|]. repeat split; auto. }
        destruct (emit_close d T (qs_top qs) x L) as [[tl em]|] eqn:Ec; [|discriminate]. cbn [bind].
        rewrite (close_sim _ _ x L _ (sim_top n qs qs' S3) (proj2 Hx) He Ec). cbn [bind].
        destruct (sim_pop n qs qs' S3) as [P1 P2]. destruct (qs_pop qs) as [g q1], (qs_pop qs') as [g' q1']. cbn [fst snd] in *.
        destruct ss1 as [|[] ss1].
        + intros H. injection H as <-. eexists. split; [reflexivity|]. repeat split; auto; apply P1.
        + intros H. injection H as <-. eexists. split; [reflexivity|]. repeat split; auto; apply S4.
        + intros H. injection H as <-. eexists. split; [reflexivity|]. destruct P1 as (G1 & G2 & G3). repeat split; auto; cbn; first [assumption|lia].
        + destruct (sim_pop n q1 q1' P2) as [P3 P4]. destruct (qs_pop q1) as [h q2], (qs_pop q1') as [h' q2']. cbn [fst snd] in *.
          intros H. injection H as <-. eexists. split; [reflexivity|]. repeat split; auto; apply P3.
      - intros H. injection H as <-. eexists. split; [reflexivity|]. repeat split; auto.
      - (* key *)
        unfold do_ky. cbn [c_ss c_tl c_qs c_cur]. rewrite <- (next_ext e e' (Some k) E1 E2). unfold next_elt at 1 2.
        destruct (in_range d e) as [r|]; [|discriminate]. cbn [bind].
        destruct (if r then _ else _) as [v|]; [|discriminate]. cbn [bind].
        intros H. injection H as <-. eexists. split; [reflexivity|]. repeat split; auto. apply sim_push; assumption.
      - (* primitive *)
        unfold do_pri. cbn [c_ss c_tl c_qs c_cur]. destruct ss as [|top ss].
        { intros H. injection H as <-. eexists. split; [reflexivity|]. repeat split; auto. }
        rewrite <- (gmt_ext e e' E1 E2), <- E1. destruct (getMatchedType d e) as [m|]; [|discriminate]. cbn [bind].
        destruct (if _ || _ then _ else _) as [tl|]; [|discriminate]. cbn [bind].
        destruct top.
        + intros H. injection H as <-. eexists. split; [reflexivity|]. repeat split; auto.
        + intros H. injection H as <-. eexists. split; [reflexivity|]. repeat split; auto; cbn; lia.
        + destruct (sim_pop n qs qs' S3) as [P1 P2]. destruct (qs_pop qs) as [g q1], (qs_pop qs') as [g' q1']. cbn [fst snd] in *.
          intros H. injection H as <-. eexists. split; [reflexivity|]. repeat split; auto; apply P1.
      - intros H. injection H as <-. eexists. split; [reflexivity|]. repeat split; auto.
    Qed.
  End Piece.

  (** Recorded positions lie before the end of the tokens read so far. *)
  Lemma pop_lt k qs : Forall (fun e => ms_lt k (q_ms e)) qs ->
    ms_lt k (q_ms (fst (qs_pop qs))) /\ Forall (fun e => ms_lt k (q_ms e)) (snd (qs_pop qs)).
  Proof. intros [|e l H Hl]; cbn; auto. Qed.
  Lemma push_lt k qs e : Forall (fun e => ms_lt k (q_ms e)) qs -> ms_lt k (q_ms e) -> Forall (fun e => ms_lt k (q_ms e)) (push qs e).
  Proof. intros H He. unfold push. destruct (Nat.ltb _ _); [constructor; assumption|assumption]. Qed.
  Lemma next_inv e k n : next_elt d e k = Ok n -> q_ms n = MInv.
  Proof.
    unfold next_elt. destruct (in_range d e) as [r|]; [|discriminate]. cbn [bind].
    destruct (if r then _ else _) as [v|]; [|discriminate]. cbn [bind]. intros H. injection H as <-. reflexivity.
  Qed.

  Lemma step_lt T k c ev c2 : e_next ev <= k -> core_lt k c -> core_step d T c ev = Ok c2 -> core_lt k c2.
  Proof.
    intros Hk Hl. unfold core_lt in *. apply Forall_cons_iff in Hl as [L1 L2]. unfold core_step.
    destruct c as [ss qs e L]. cbn [c_ss c_tl c_qs c_cur] in *.
    set (x := e_next ev) in *. clearbody x.
    assert (LS : ms_lt k (q_ms (set_ms e (MAt (x - 1))))) by (cbn; lia).
    destruct (pop_lt k qs L2) as [P1 P2].
    destruct (e_tok ev) as [| | | | |ky|s|]; try (intros H; injection H as <-; constructor; assumption).
    - unfold do_lcb. cbn [c_ss c_tl c_qs c_cur]. destruct (getMatchedType d e) as [m|]; [|discriminate]. cbn [bind].
      destruct (m =? DFA_OUTPUT_CANDIDATE); [intros H; injection H as <-; constructor; assumption|].
      destruct (m =? DFA_PREDICATE); [destruct (addTuple L _ _); [|discriminate]; intros H; injection H as <-; constructor; assumption|].
      destruct (m =? DFA_CONDITION); [destruct (addTuple L _ _); [|discriminate]; intros H; injection H as <-; constructor; assumption|].
      intros H; injection H as <-; constructor; assumption.
    - unfold do_rcb. cbn [c_ss c_tl c_qs c_cur].
      destruct (emit_close d T e x L) as [[tl em]|]; [|discriminate]. cbn [bind].
      assert (L3 : ms_lt k (q_ms (if em then set_ms e MInv else e))) by (destruct em; [exact I|exact L1]).
      revert L3. generalize (if em then set_ms e MInv else e). intros f L3.
      destruct ss as [|s1 [|[] ss]]; try (intros H; injection H as <-; constructor; assumption).
      + destruct (getMatchedType d (incr f)) as [m|]; [|discriminate]. cbn [bind].
        destruct (m =? DFA_PREDICATE); [destruct (addTuple tl _ _); [|discriminate]|]; intros H; injection H as <-; constructor; assumption.
      + destruct (qs_pop qs) as [g q1]. intros H; injection H as <-; constructor; assumption.
    - unfold do_lb. cbn [c_ss c_tl c_qs c_cur]. destruct (getMatchedType d e) as [m|]; [|discriminate]. cbn [bind].
      assert (G : forall f tl, ms_lt k (q_ms f) -> (v <- next_elt d f None;; Ok (mkCore (push ss SLB) (push qs f) v tl)) = Ok c2 ->
        Forall (fun e => ms_lt k (q_ms e)) (c_cur c2 :: c_qs c2)).
      { intros f tl Hf. destruct (next_elt d f None) as [v|] eqn:En; [|discriminate]. intros H; injection H as <-. constructor.
        - cbn [c_cur]. rewrite (next_inv _ _ _ En). exact I.
        - apply push_lt; assumption. }
      destruct (m =? DFA_OUTPUT_CANDIDATE); [apply G, LS|]. destruct (m =? DFA_CONDITION).
      + destruct (addTuple L _ _) as [tl|]; [|discriminate]. apply G, L1.
      + apply G, L1.
    - unfold do_rb. cbn [c_ss c_tl c_qs c_cur]. destruct ss as [|s1 ss1]; [intros H; injection H as <-; constructor; assumption|].
      destruct (emit_close d T (qs_top qs) x L) as [[tl em]|]; [|discriminate]. cbn [bind].
      destruct (qs_pop qs) as [g q1]. cbn [fst snd] in *. destruct (pop_lt k q1 P2) as [P3 P4].
      destruct ss1 as [|[] ss1]; try (intros H; injection H as <-; constructor; assumption).
      destruct (qs_pop q1) as [g2 q2]. intros H; injection H as <-; constructor; assumption.
    - unfold do_ky. cbn [c_ss c_tl c_qs c_cur]. destruct (next_elt d e _) as [v|] eqn:En; [|discriminate]. intros H; injection H as <-. constructor.
      + cbn [c_cur]. rewrite (next_inv _ _ _ En). exact I.
      + apply push_lt; assumption.
    - unfold do_pri. cbn [c_ss c_tl c_qs c_cur]. destruct ss as [|top ss]; [intros H; injection H as <-; constructor; assumption|].
      destruct (getMatchedType d e) as [m|]; [|discriminate]. cbn [bind].
      destruct (if _ || _ then _ else _) as [tl|]; [|discriminate]. cbn [bind].
      destruct top; try (intros H; injection H as <-; constructor; assumption).
      destruct (qs_pop qs) as [g q1]. intros H; injection H as <-; constructor; assumption.
  Qed.

  (** No emission of the run reaches across one of the positions [ks]. *)
  Definition clear_of (ks : list Z) (c : core) (ev : event) : Prop :=
    forall z, emits c (e_tok ev) = Some z -> Forall (fun k => z < k -> e_next ev <= k) ks.
  Fixpoint clean (ks : list Z) (T : bytes) (evs : list event) (c : core) : Prop :=
    match evs with
    | [] => True
    | ev :: r => clear_of ks c ev /\ forall c', core_step d T c ev = Ok c' -> clean ks T r c'
    end.

  Lemma clean_app ks T : forall a b c, clean ks T a c -> (forall c', foldM (core_step d T) a c = Ok c' -> clean ks T b c') -> clean ks T (a ++ b) c.
  Proof.
    induction a as [|ev a IH]; intros b c H1 H2; cbn [app clean] in *; [apply H2; reflexivity|].
    destruct H1 as [H1 H3]. split; [exact H1|]. intros c' E. apply IH; [apply H3, E|]. intros c'' E2. apply H2. cbn [foldM]. rewrite E. exact E2.
  Qed.
  Lemma clean_split ks T : forall a b c, clean ks T (a ++ b) c -> clean ks T a c /\ (forall c', foldM (core_step d T) a c = Ok c' -> clean ks T b c').
  Proof.
    induction a as [|ev a IH]; intros b c H; cbn [app clean foldM] in *.
    - split; [exact I|]. intros c' E. injection E as <-. exact H.
    - destruct H as [H1 H2]. split.
      + split; [exact H1|]. intros c' E. apply (IH b c'), H2, E.
      + intros c' E. destruct (core_step d T c ev) as [c1|] eqn:E1; [|discriminate]. exact (proj2 (IH b c1 (H2 c1 eq_refl)) c' E).
  Qed.
  Lemma clean_mono ks ks' T : incl ks' ks -> forall a c, clean ks T a c -> clean ks' T a c.
  Proof.
    intros Hi. induction a as [|ev a IH]; intros c H; cbn [clean] in *; [exact I|]. destruct H as [H1 H2]. split.
    - intros z E. specialize (H1 z E). rewrite Forall_forall in *. auto.
    - intros c' E. apply IH, H2, E.
  Qed.

  (** One piece. *)
  Lemma piece_sim T P0 P R n ks : T = P0 ++ P ++ R -> n = zlen P0 -> lead_blanks T = O -> lead_blanks P = O -> In n ks ->
    forall evs evs' c c' c2, map mark evs = map (shift n) (map mark evs') ->
    Forall (fun m => 0 < snd m <= zlen P) (map mark evs') ->
    core_sim n c c' -> core_lt (n + zlen P) c -> clean ks T evs c -> foldM (core_step d T) evs c = Ok c2 ->
    exists c2', foldM (core_step d P) evs' c' = Ok c2' /\ core_sim n c2 c2' /\ core_lt (n + zlen P) c2.
  Proof.
    intros HT Hn HlT HlP Hin. induction evs as [|ev evs IH]; intros [|ev' evs'] c c' c2 Em Hb Hs Hl Hc H; try discriminate.
    - injection H as <-. exists c'. split; [reflexivity|]. auto.
    - cbn [map] in Em, Hb. inversion Em as [[E1 E2 E3]]. cbn [fst snd mark shift] in *. apply Forall_cons_iff in Hb as [Hb Hbs]. cbn [snd mark] in Hb.
      cbn [foldM clean] in *. destruct Hc as [Hc1 Hc2]. destruct (core_step d T c ev) as [c1|] eqn:Es; [|discriminate]. cbn [bind] in H.
      destruct (step_sim T P0 P R n HT Hn HlT HlP c c' ev ev' c1 Hs E1 E2) as (c1' & Es' & Hs').
      { lia. } { intros z Ez. specialize (Hc1 z Ez). rewrite Forall_forall in Hc1. specialize (Hc1 n Hin). lia. } { exact Es. }
      rewrite Es'. cbn [bind]. apply (IH evs' c1 c1' c2 E3 Hbs Hs'); auto.
      refine (step_lt T _ c ev c1 _ Hl Es). lia.
  Qed.

  (** All pieces. *)
  Definition feed (ps : list bytes) (c : core) : res core := foldM (fun c p => executeAutomaton d p c) ps c.

  Lemma pieces_sim T ks : lead_blanks T = O -> no_nul T -> forall ps ls P0 evs c c' c2,
    T = P0 ++ concat ps -> Forall2 flat ps ls -> Forall (fun p => lead_blanks p = O) ps ->
    incl (cuts (zlen P0) ps) ks ->
    map mark evs = pmarks (zlen P0) ps ls ->
    core_sim (zlen P0) c c' -> core_lt (zlen P0) c -> clean ks T evs c -> foldM (core_step d T) evs c = Ok c2 ->
    exists c2' m, feed ps c' = Ok c2' /\ core_sim m c2 c2'.
  Proof.
    intros HlT Hnn. induction ps as [|p ps IH]; intros ls P0 evs c c' c2 HT Hf Hlp Hk Em Hs Hl Hc H.
    - inversion Hf; subst. destruct evs; [|discriminate]. injection H as <-. exists c', (zlen P0). split; [reflexivity|exact Hs].
    - inversion Hf as [|? l ? ls' Hfp Hfs]; subst. apply Forall_cons_iff in Hlp as [Hlp Hlps].
      cbn [pmarks cuts concat] in *.
      assert (Hnp : no_nul p).
      { intros Hi. apply Hnn. apply in_or_app. right. apply in_or_app. auto. }
      destruct (flat_lex p l Hfp Hnp) as (evs' & El & Ems).
      assert (Hsp : exists ea eb, evs = ea ++ eb /\ map mark ea = map (shift (zlen P0)) (marks 0 l) /\ map mark eb = pmarks (zlen P0 + zlen p) ps ls').
      { apply map_eq_app in Em. destruct Em as (ea & eb & -> & Ea & Eb). exists ea, eb. auto. }
      destruct Hsp as (ea & eb & -> & Ea & Eb).
      apply clean_split in Hc as [Hc1 Hc2]. rewrite foldM_app in H.
      destruct (foldM (core_step d (P0 ++ p ++ concat ps)) ea c) as [c1|] eqn:E1; [|discriminate]. cbn [bind] in H.
      destruct (piece_sim (P0 ++ p ++ concat ps) P0 p (concat ps) (zlen P0) ks eq_refl eq_refl HlT Hlp) with (evs := ea) (evs' := evs') (c := c) (c' := c') (c2 := c1) as (c1' & F1 & F2 & F3); auto.
      { apply Hk. left. reflexivity. }
      { rewrite Ems. exact Ea. }
      { rewrite Ems. apply (flat_bound p l Hfp). }
      { pose proof (zlen_nonneg p). clear -Hl H0. unfold core_lt in *. rewrite Forall_forall in *. intros e He. specialize (Hl e He).
        destruct (q_ms e); cbn in *; lia. }
      destruct (IH ls' (P0 ++ p) eb c1 c1' c2) as (c2' & m & G1 & G2).
      { rewrite <- app_assoc. reflexivity. } { exact Hfs. } { exact Hlps. }
      { rewrite zlen_app. intros k Hin. apply Hk. right. exact Hin. }
      { rewrite zlen_app. exact Eb. }
      { rewrite zlen_app. apply (core_sim_next (zlen P0)); assumption. }
      { rewrite zlen_app. exact F3. } { apply Hc2. reflexivity. } { exact H. }
      exists c2', m. split; [|exact G2]. unfold feed. cbn [foldM]. unfold executeAutomaton at 1. rewrite El. cbn [bind].
      rewrite c_string_id by exact Hnp. rewrite F1. cbn [bind]. exact G1.
  Qed.
End Sim.
