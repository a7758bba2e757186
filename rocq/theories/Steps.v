(** Facts about the serial engine on well nested tokens: what a step does to the
    stack of elements. *)
From Verif Require Import Base Util Lexer Dfa Constraint Stream TreeSem Worker Chains WorkRep Shared MalSpec NestSpec Single Specul Pruned Units PieceRun.
Open Scope Z_scope.

Lemma nopen_le l : (nopen l <= List.length l)%nat.
Proof. unfold nopen. induction l as [|[] l IH]; cbn; lia. Qed.

Section Steps.
  Variable d : dfa.
  Hypothesis Hd : dfa_ok d.
  Hypothesis Hkind : forall a, In a (d_accept d) -> 0 <= a <= 3.
  Variable D : nat.
  Hypothesis HD : (D <= 98)%nat.
  Notation acc := (acc d).
  Notation succ := (succ d).
  Notation free := (free d).
  Notation hit := (hit d false).
  Notation after_elt := (Specul.move d false).

  (** The token may come when the things [l] are open. *)
  Definition okt (l : list opened) (t : token) : Prop :=
    match t with
    | TLCB | TLB => value_here l = true /\ (List.length l < D)%nat
    | TKY _ => value_here l = false /\ (List.length l < D)%nat
    | TPRI _ => value_here l = true
    | TRCB => hd_error l = Some OBrace
    | TRB => hd_error l = Some OBracket
    | TCOM => True
    | TEND => False
    end.
  Fixpoint oks (l : list opened) (ts : list token) : Prop :=
    match ts with [] => True | t :: ts' => okt l t /\ oks (onto l t) ts' end.
  Lemma nest_oks : forall ts l, nest D l ts -> oks l ts.
  Proof. induction ts as [|t ts IH]; intros l H; [exact I|]. destruct H as (_ & H1 & H2). split; [destruct t; exact H1|]. apply IH, H2. Qed.
  Lemma oks_app : forall a l b, oks l (a ++ b) <-> oks l a /\ oks (fold_left onto a l) b.
  Proof. induction a as [|t a IH]; intros l b; cbn [app oks fold_left]; [tauto|]. rewrite IH. tauto. Qed.

  Definition okelt (e : elt) : Prop := valid_state d (q_state e) /\ q_ms e <> MUninit.
  Definition elts (c : core) : list elt := c_cur c :: c_qs c.
  Record sinv (l : list opened) (c : core) : Prop := mkSinv {
    si_ss    : c_ss c = map sy l;
    si_len   : List.length (c_qs c) = nopen l;
    si_shape : shape l;
    si_room  : (List.length l <= D)%nat;
    si_ok    : Forall okelt (elts c)
  }.

  Definition keep (e e' : elt) : Prop := q_state e' = q_state e /\ (q_ms e <> MUninit -> q_ms e' <> MUninit).
  Definition mark (e' : elt) : Prop := free (q_state e') -> acc (q_state e') = DFA_OUTPUT_CANDIDATE -> exists z, q_ms e' = MAt z.
  (** What a token does to the elements. *)
  Definition move (l : list opened) (t : token) (es es' : list elt) : Prop :=
    match t, l with
    | TLCB, _ => exists e e' b, es = e :: b /\ es' = e' :: b /\ keep e e' /\ mark e'
    | TKY k, _ => exists e b, es = e :: b /\ es' = mkElt (after_elt (Some k) e) 0 MInv :: e :: b
    | TLB, _ => exists e e' b, es = e :: b /\ es' = mkElt (after_elt None e) 0 MInv :: e' :: b /\ keep e e' /\ mark e'
    | TPRI _, OKey :: _ => exists e, es = e :: es'
    | TPRI _, OBracket :: _ => exists e e' b, es = e :: b /\ es' = e' :: b /\ keep e e'
    | TPRI _, [] => es' = es
    | TRCB, OBrace :: OKey :: _ => exists e, es = e :: es'
    | TRCB, OBrace :: _ => exists e e' b, es = e :: b /\ es' = e' :: b /\ keep e e'
    | TRB, OBracket :: OKey :: _ => exists e1 e2, es = e1 :: e2 :: es'
    | TRB, OBracket :: OBracket :: _ => exists e1 e2 e2' b, es = e1 :: e2 :: b /\ es' = e2' :: b /\ keep e2 e2'
    | TRB, [OBracket] => exists e1, es = e1 :: es'
    | TCOM, _ => es' = es
    | _, _ => False
    end.

  Lemma keep_refl e : keep e e.
  Proof. split; auto. Qed.
  Lemma keep_incr e e' : keep e e' -> keep e (incr e').
  Proof. intros [H1 H2]. split; cbn; auto. Qed.
  Lemma opush l o : (List.length l < D)%nat -> push (map sy l) o = o :: map sy l.
  Proof. intros H. apply TreeSem.push_ok. rewrite map_length. lia. Qed.
  Lemma epush (qs : list elt) e : (List.length qs < D)%nat -> push qs e = e :: qs.
  Proof. intros H. apply TreeSem.push_ok. lia. Qed.
  Lemma step_move buf l c ev c' : sinv l c -> okt l (e_tok ev) -> core_step d buf c ev = Ok c' ->
    c_ss c' = map sy (onto l (e_tok ev)) /\ move l (e_tok ev) (elts c) (elts c').
  Proof.
    intros [Hss Hlen Hsh Hroom Hok] Ht E. destruct c as [ss qs e cl]. unfold elts in *. cbn [c_ss c_qs c_cur c_tl] in *. subst ss.
    apply Forall_cons_iff in Hok as [He Hqs]. pose proof He as [Hv Hms]. pose proof (gmt_ok d Hd Hkind e Hv) as Hg.
    pose proof (nopen_le l) as Hno.
    assert (Hop : forall z, keep e (opened_at d z e) /\ mark (opened_at d z e)).
    { intros z. unfold opened_at. destruct (hit e) eqn:Eo.
      - split; [split; cbn; [reflexivity|discriminate]|]. intros _ _. cbn. eauto.
      - split; [apply keep_refl|]. intros Hf H. rewrite (hit_upper d Hd Hkind e Hv), (ty_free d Hd Hkind e false Hv Hf), H in Eo. discriminate. }
    destruct (e_tok ev) as [| | | | |k|s|] eqn:Et; cbn [okt] in Ht; try (unfold core_step in E; rewrite Et in E).
    - (* open brace *) destruct Ht as [Ht Hl]. fold (do_lcb d (e_next ev) (mkCore (map sy l) qs e cl)) in E. assert (E' : core_step d buf (mkCore (map sy l) qs e cl) ev = Ok c') by (unfold core_step; rewrite Et; exact E).
      apply (lcb_step d Hd Hkind buf (mkCore (map sy l) qs e cl) ev c' Et Hv) in E'. cbn [c_ss c_qs c_cur c_tl] in E'. rewrite opush in E' by exact Hl. subst c'. cbn [c_ss c_qs c_cur]. split; [reflexivity|].
      destruct (Hop (e_next ev)). exists e, (opened_at d (e_next ev) e), qs. auto.
    - (* close brace *) destruct l as [|[] l]; try discriminate. unfold do_rcb in E. cbn [c_ss c_qs c_cur c_tl map sy] in E.
      destruct (emit_close d buf e (e_next ev) cl) as [[tl em]|]; [|discriminate]. cbn [bind] in E. set (f := if em then set_ms e MInv else e) in *.
      assert (Hf : keep e f) by (unfold f; destruct em; split; cbn; auto; discriminate). clearbody f.
      destruct l as [|[] l]; cbn [map sy] in E.
      + injection E as <-. cbn. split; [reflexivity|]. exists e, f, qs. auto.
      + cbn in Hlen. destruct qs as [|e1 qs]; [discriminate|]. cbn [qs_pop] in E. injection E as <-. cbn. split; [reflexivity|]. exists e. reflexivity.
      + cbn in Hsh. destruct Hsh as [Hsh _]. discriminate.
      + destruct (getMatchedType d (incr f)) as [m|]; [|discriminate]. cbn [bind] in E.
        assert (Ex : exists tl', c' = mkCore (SLB :: map sy l) qs (incr f) tl').
        { destruct (m =? DFA_PREDICATE); [destruct (addTuple _ _ _); [|discriminate]; cbn [bind] in E|]; injection E as <-; eauto. }
        destruct Ex as (tl' & ->). cbn. split; [reflexivity|]. exists e, (incr f), qs. split; [reflexivity|]. split; [reflexivity|]. apply keep_incr, Hf.
    - (* open bracket *) destruct Ht as [Ht Hl]. assert (E' : core_step d buf (mkCore (map sy l) qs e cl) ev = Ok c') by (unfold core_step; rewrite Et; exact E).
      apply (lb_step d Hd Hkind buf (mkCore (map sy l) qs e cl) ev c' Et Hv) in E'. cbn [c_ss c_qs c_cur c_tl] in E'. rewrite opush in E' by exact Hl. rewrite epush in E' by lia. subst c'. cbn [c_ss c_qs c_cur]. split; [reflexivity|].
      destruct (Hop (e_next ev)). exists e, (opened_at d (e_next ev) e), qs. auto.
    - (* close bracket *) destruct l as [|[] l]; try discriminate. unfold do_rb in E. cbn [c_ss c_qs c_cur c_tl map sy] in E.
      destruct (emit_close d buf (qs_top qs) (e_next ev) cl) as [[tl em]|]; [|discriminate]. cbn [bind] in E. cbn in Hlen. destruct qs as [|e1 qs]; [discriminate|]. cbn [qs_pop] in E.
      destruct l as [|[] l]; cbn [map sy] in E.
      + injection E as <-. cbn. split; [reflexivity|]. exists e. reflexivity.
      + cbn in Hlen. destruct qs as [|e2 qs]; [discriminate|]. cbn [qs_pop] in E. injection E as <-. cbn. split; [reflexivity|]. exists e, e1. reflexivity.
      + cbn in Hsh. destruct Hsh as [Hsh _]. discriminate.
      + injection E as <-. cbn. split; [reflexivity|]. exists e, e1, (incr e1), qs. split; [reflexivity|]. split; [reflexivity|]. apply keep_incr, keep_refl.
    - injection E as <-. cbn. split; [reflexivity|]. reflexivity.
    - (* key *) destruct Ht as [Ht Hl]. unfold do_ky in E. cbn [c_ss c_qs c_cur c_tl] in E. rewrite (move_next d Hd Hkind) in E by exact Hv. cbn [bind] in E. rewrite opush in E by exact Hl. rewrite epush in E by lia. injection E as <-.
      cbn. split; [reflexivity|]. exists e, qs. auto.
    - (* primitive *) unfold do_pri in E. cbn [c_ss c_qs c_cur c_tl] in E. destruct l as [|o l]; cbn [map] in E.
      + injection E as <-. cbn. auto.
      + rewrite Hg in E. cbn [bind] in E. destruct (if _ || _ then _ else _) as [tl|]; [|discriminate]. cbn [bind] in E. destruct o; cbn [sy] in E; [| discriminate |].
        * cbn in Hlen. destruct qs as [|e1 qs]; [discriminate|]. cbn [qs_pop] in E. injection E as <-. cbn. split; [reflexivity|]. exists e. reflexivity.
        * injection E as <-. cbn. split; [reflexivity|]. exists e, (incr e), qs. split; [reflexivity|]. split; [reflexivity|]. apply keep_incr, keep_refl.
    - contradiction.
  Qed.

  Lemma okelt_succ inp e : okelt e -> okelt (mkElt (after_elt inp e) 0 MInv).
  Proof. intros [H _]. split; cbn; [apply (move_ok d Hd Hkind D HD false inp e H)|discriminate]. Qed.
  Lemma okelt_keep e e' : keep e e' -> okelt e -> okelt e'.
  Proof. intros [H1 H2] [H3 H4]. split; [congruence|auto]. Qed.
  Lemma shape_done l : shape l -> shape (value_done l).
  Proof. destruct l as [|[] l]; cbn; tauto. Qed.
  Lemma done_len l : (List.length (value_done l) <= List.length l)%nat.
  Proof. destruct l as [|[] l]; cbn; lia. Qed.
  Lemma shape_onto l t : shape l -> okt l t -> shape (onto l t).
  Proof.
    destruct t; cbn [onto okt]; intros Hs Ht.
    - cbn. tauto.
    - destruct l as [|[] l]; try discriminate. apply shape_done. cbn in Hs. tauto.
    - cbn. tauto.
    - destruct l as [|[] l]; try discriminate. apply shape_done. cbn in Hs. tauto.
    - exact Hs.
    - cbn. tauto.
    - apply shape_done, Hs.
    - contradiction.
  Qed.
  Lemma len_onto l t : (List.length l <= D)%nat -> okt l t -> (List.length (onto l t) <= D)%nat.
  Proof.
    destruct t; cbn [onto okt List.length]; intros Hs Ht; try lia.
    - pose proof (done_len (tl l)). destruct l; cbn in *; lia.
    - pose proof (done_len (tl l)). destruct l; cbn in *; lia.
    - pose proof (done_len l). lia.
  Qed.

  Ltac break := repeat match goal with
    | H : exists _, _ |- _ => destruct H
    | H : _ /\ _ |- _ => destruct H
    end.
  Lemma move_len l t es es' : shape l -> okt l t -> move l t es es' -> List.length es = S (nopen l) -> List.length es' = S (nopen (onto l t)).
  Proof.
    unfold nopen. intros Hs Ht Hm Hlen. destruct t; cbn [onto okt move] in *;
      [| destruct l as [|[] [|[] l]]; try discriminate; cbn in Hs | | destruct l as [|[] [|[] l]]; try discriminate; cbn in Hs | | | destruct l as [|[] l]; try discriminate |];
      try contradiction; break; subst; try discriminate; cbn [tl value_done filter List.length] in *; try lia.
  Qed.
  Lemma move_okelt l t es es' : okt l t -> move l t es es' -> Forall okelt es -> Forall okelt es'.
  Proof.
    intros Ht Hm H. destruct t; cbn [okt move] in *;
      [| destruct l as [|[] [|[] l]]; try discriminate | | destruct l as [|[] [|[] l]]; try discriminate | | | destruct l as [|[] l]; try discriminate |];
      try contradiction; break; subst; repeat match goal with H : Forall _ (_ :: _) |- _ => apply Forall_cons_iff in H; destruct H end; auto;
      repeat apply Forall_cons; auto; try (eapply okelt_keep; eassumption); try (apply okelt_succ; assumption).
  Qed.

  Lemma step_sinv buf l c ev c' : sinv l c -> okt l (e_tok ev) -> core_step d buf c ev = Ok c' -> sinv (onto l (e_tok ev)) c'.
  Proof.
    intros H Ht E. destruct (step_move buf l c ev c' H Ht E) as [H1 H2]. destruct H as [Hss Hlen Hsh Hroom Hok]. split.
    - exact H1.
    - pose proof (move_len _ _ _ _ Hsh Ht H2) as H3. unfold elts in H3. cbn [List.length] in H3. lia.
    - apply shape_onto; assumption.
    - apply len_onto; assumption.
    - exact (move_okelt _ _ _ _ Ht H2 Hok).
  Qed.

  (** Inside of what is open the elements below do not change. *)
  Lemma inner_move l bs t es es' a e b : hd_error bs <> Some OKey -> shape (l ++ bs) -> okt (l ++ bs) t -> (l = [] -> t <> TRCB /\ t <> TRB) ->
    move (l ++ bs) t es es' -> es = a ++ e :: b -> List.length a = nopen l ->
    exists a' e', es' = a' ++ e' :: b /\ List.length a' = nopen (onto l t) /\ q_state e' = q_state e /\ (hd_error bs = Some OBrace -> e' = e).
  Proof.
    unfold nopen. intros Hk Hs Ht Hl Hm -> Ha. destruct t; cbn [onto okt move] in *.
    - (* open brace *) break. destruct a as [|a0 a]; cbn in H; injection H as <- <-; subst es'.
      + exists [], x0. destruct l as [|[] l]; try discriminate; cbn in *; repeat split; auto; try apply (proj1 H1); destruct bs as [|[] bs]; cbn in *; try discriminate; congruence.
      + exists (x0 :: a), e. cbn [app List.length filter]. repeat split; auto.
    - (* close brace *) destruct l as [|o l]; [destruct (Hl eq_refl); congruence|]. cbn [app] in *. destruct o; try discriminate. cbn [tl filter] in *. destruct l as [|o l]; cbn [app] in *.
      + cbn in Ha. destruct a; [|discriminate]. cbn [app] in *. destruct bs as [|[] bs]; cbn in *; try congruence; break; try discriminate; subst; injection H as <- <-; exists [], x0; repeat split; auto; try discriminate; apply (proj1 H1).
      + destruct o; cbn [value_done filter List.length] in *.
        * break. destruct a as [|a0 a]; [discriminate|]. cbn [app] in H. injection H as <- <-. exists a, e. repeat split; auto.
        * cbn in Hs. destruct Hs as [Hs _]. discriminate.
        * break. destruct a as [|a0 a]; [discriminate|]. cbn [app] in H. injection H as <- <-. subst es'. exists (x0 :: a), e. repeat split; auto.
    - (* open bracket *) break. destruct a as [|a0 a]; cbn in H; injection H as <- <-; subst es'.
      + exists [mkElt (after_elt None e) 0 MInv], x0. destruct l as [|[] l]; try discriminate; cbn in *; repeat split; auto; try apply (proj1 H1); destruct bs as [|[] bs]; cbn in *; try discriminate; congruence.
      + exists (mkElt (after_elt None a0) 0 MInv :: x0 :: a), e. cbn [app List.length filter] in *. repeat split; auto.
    - (* close bracket *) destruct l as [|o l]; [destruct (Hl eq_refl); congruence|]. cbn [app] in *. destruct o; try discriminate. cbn [tl filter List.length] in *.
      destruct a as [|a0 a]; [discriminate|]. cbn [List.length] in Ha. injection Ha as Ha. destruct l as [|o l]; cbn [app] in *.
      + cbn in Ha. destruct a; [|discriminate]. destruct bs as [|[] bs]; cbn in *; try congruence; break; try discriminate; try contradiction; subst; injection H as <- <-.
        * exists [], e. repeat split; auto.
        * subst. exists [], x1. repeat split; auto; try discriminate. apply (proj1 H1).
      + destruct o; cbn [value_done filter List.length] in *.
        * break. destruct a as [|a1 a]; [discriminate|]. cbn [app] in H. injection H as <- <- <-. exists a, e. repeat split; auto.
        * cbn in Hs. destruct Hs as [Hs _]. discriminate.
        * break. destruct a as [|a1 a]; [discriminate|]. cbn [app] in H. injection H as <- <- <-. subst es'. exists (x1 :: a), e. repeat split; auto.
    - subst es'. exists a, e. repeat split; auto.
    - break. destruct a as [|a0 a]; cbn in H; injection H as <- <-; subst es'; cbn [filter List.length].
      + exists [mkElt (after_elt (Some s) e) 0 MInv], e. repeat split; auto. cbn in *. lia.
      + exists (mkElt (after_elt (Some s) a0) 0 MInv :: a0 :: a), e. repeat split; auto. cbn in *. lia.
    - (* primitive *) destruct l as [|o l]; cbn [app] in *.
      + cbn in Ha. destruct a; [|discriminate]. destruct bs as [|[] bs]; cbn in *; try congruence; try discriminate.
        * subst. exists [], e. repeat split; auto.
        * break. injection H as <- <-. subst. exists [], x0. repeat split; auto; try discriminate. apply (proj1 H1).
      + destruct o; cbn [value_done filter List.length] in *; try discriminate.
        * break. destruct a as [|a0 a]; [discriminate|]. cbn [app] in H. injection H as <- <-. exists a, e. repeat split; auto.
        * break. destruct a as [|a0 a]; [discriminate|]. cbn [app] in H. injection H as <- <-. subst es'. exists (x0 :: a), e. repeat split; auto.
    - contradiction.
  Qed.

  Lemma inner_run buf bs : hd_error bs <> Some OKey -> forall E l c c' a e b, sinv (l ++ bs) c -> oks (l ++ bs) (map e_tok E) -> inner l (map e_tok E) ->
    run d buf E c = Ok c' -> elts c = a ++ e :: b -> List.length a = nopen l ->
    sinv (after l E ++ bs) c' /\ exists a' e', elts c' = a' ++ e' :: b /\ List.length a' = nopen (after l E) /\ q_state e' = q_state e /\ (hd_error bs = Some OBrace -> e' = e).
  Proof.
    intros Hk. induction E as [|ev E IH]; intros l c c' a e b Hi Ho Hn H Ha Hlen.
    - injection H as <-. split; [exact Hi|]. exists a, e. auto.
    - cbn [map oks inner] in Ho, Hn. destruct Ho as [Ho1 Ho2], Hn as [Hn1 Hn2]. unfold run in H. cbn [foldM] in H. destruct (core_step d buf c ev) as [c1|] eqn:E1; [|discriminate]. cbn [bind] in H.
      destruct (step_move buf _ c ev c1 Hi Ho1 E1) as [_ Hm]. pose proof (step_sinv buf _ c ev c1 Hi Ho1 E1) as Hi1.
      destruct (inner_move l bs (e_tok ev) _ _ a e b Hk (si_shape _ _ Hi) Ho1 Hn1 Hm Ha Hlen) as (a1 & e1 & Ea & Hl1 & Hs1 & Hb1).
      rewrite (onto_app l bs (e_tok ev) Hk Hn1) in Hi1, Ho2.
      destruct (IH (onto l (e_tok ev)) c1 c' a1 e1 b Hi1 Ho2 Hn2 H Ea Hl1) as (Hi' & a' & e' & Ea' & Hl' & Hs' & Hb').
      split; [exact Hi'|]. exists a', e'. split; [exact Ea'|]. split; [exact Hl'|]. split; [congruence|]. intros Hb. rewrite Hb' by exact Hb. auto.
  Qed.

  (** Where no element selects and none belongs to a filter, nothing is stored and
      nothing goes wrong. *)
  Definition still_state (st : Z) : Prop := free st /\ acc st = 0.
  Definition calm_state (st : Z) : Prop := free st /\ acc st <> DFA_OUTPUT_CANDIDATE.
  Definition notout (c : core) : Prop := Forall (fun e => calm_state (q_state e)) (elts c).
  Lemma free_type e : valid_state d (q_state e) -> free (q_state e) -> getMatchedType d e = Ok (acc (q_state e)).
  Proof. intros Hv Hf. rewrite (gmt_ok d Hd Hkind e Hv), (ty_free d Hd Hkind e false Hv Hf). reflexivity. Qed.
  Lemma calm_type e : valid_state d (q_state e) -> still_state (q_state e) -> getMatchedType d e = Ok 0.
  Proof. intros Hv [Hf Ho]. rewrite (free_type e Hv Hf), Ho. reflexivity. Qed.
  Lemma still_calm st : still_state st -> calm_state st.
  Proof. intros [Hf Ho]. split; [exact Hf|]. rewrite Ho. discriminate. Qed.
  Lemma emit_quiet buf e next cl : okelt e -> calm_state (q_state e) -> emit_close d buf e next cl = Ok (cl, false).
  Proof.
    intros [Hv Hms] [Hf Eo]. unfold emit_close. destruct (q_ms e) as [|z|]; cbn [ms_set bind]; [reflexivity| |congruence].
    rewrite (free_type e Hv Hf). cbn [bind]. destruct (Z.eqb_spec (acc (q_state e)) DFA_OUTPUT_CANDIDATE); [congruence|reflexivity].
  Qed.
  Lemma quiet_step buf l c ev : sinv l c -> okt l (e_tok ev) -> Forall (fun e => still_state (q_state e)) (elts c) -> exists c', core_step d buf c ev = Ok c' /\ c_tl c' = c_tl c.
  Proof.
    intros [Hss Hlen Hsh Hroom Hok] Ht Hno. destruct c as [ss qs e cl]. unfold elts in *. cbn [c_ss c_qs c_cur c_tl] in *. subst ss.
    apply Forall_cons_iff in Hok as [He Hqs]. pose proof He as [Hv Hms]. apply Forall_cons_iff in Hno as [Ho Hnq]. unfold core_step. pose proof (calm_type e Hv Ho) as Hg.
    destruct (e_tok ev) as [| | | | |k|s|]; cbn [okt] in Ht.
    - unfold do_lcb. cbn [c_ss c_qs c_cur c_tl]. rewrite Hg. cbn. eexists. split; reflexivity.
    - destruct l as [|[] l]; try discriminate. unfold do_rcb. cbn [c_ss c_qs c_cur c_tl map sy]. rewrite (emit_quiet buf e _ cl He (still_calm _ Ho)). cbn [bind].
      destruct l as [|[] l]; cbn [map sy].
      + eexists. split; reflexivity.
      + destruct (qs_pop qs). eexists. split; reflexivity.
      + eexists. split; reflexivity.
      + rewrite (calm_type (incr e) Hv Ho). cbn. eexists. split; reflexivity.
    - unfold do_lb. cbn [c_ss c_qs c_cur c_tl]. rewrite Hg. cbn [Z.eqb DFA_OUTPUT_CANDIDATE DFA_CONDITION bind]. rewrite (move_next d Hd Hkind) by exact Hv. cbn [bind]. eexists. split; reflexivity.
    - destruct l as [|[] l]; try discriminate. unfold do_rb. cbn [c_ss c_qs c_cur c_tl map sy]. cbn in Hlen. destruct qs as [|e1 qs]; [discriminate|]. cbn [qs_top].
      apply Forall_cons_iff in Hqs as [He1 Hqs]. apply Forall_cons_iff in Hnq as [Ho1 Hnq]. rewrite (emit_quiet buf e1 _ cl He1 (still_calm _ Ho1)). cbn [bind qs_pop].
      destruct l as [|[] l]; cbn [map sy]; try (eexists; split; reflexivity). destruct (qs_pop qs). eexists. split; reflexivity.
    - eexists. split; reflexivity.
    - unfold do_ky. cbn [c_ss c_qs c_cur c_tl]. rewrite (move_next d Hd Hkind) by exact Hv. cbn [bind]. eexists. split; reflexivity.
    - unfold do_pri. cbn [c_ss c_qs c_cur c_tl]. destruct l as [|o l]; cbn [map]; [eexists; split; reflexivity|]. rewrite Hg. cbn [bind Z.eqb DFA_OUTPUT_CANDIDATE DFA_CONDITION orb].
      destruct o; cbn [sy]; try (destruct (qs_pop qs)); eexists; split; reflexivity.
    - contradiction.
  Qed.
  (** What a closing brace, a closing bracket or a comma stores: the end of an element
      that a filter decides on. *)
  Definition close_add (l : list opened) (t : token) (st : Z) : list tuple :=
    match t, l with
    | TRCB, OBrace :: OBracket :: _ => if acc st =? DFA_PREDICATE then [(st, B "}")] else []
    | _, _ => []
    end.
  Lemma closer_tl buf l c ev c' : sinv l c -> okt l (e_tok ev) -> notout c -> closer ev -> core_step d buf c ev = Ok c' -> c_tl c' = c_tl c ++ close_add l (e_tok ev) (q_state (c_cur c)).
  Proof.
    intros [Hss Hlen Hsh Hroom Hok] Ht Hno Hcl E. destruct c as [ss qs e cl]. unfold notout, elts in *. cbn [c_ss c_qs c_cur c_tl] in *. subst ss.
    apply Forall_cons_iff in Hok as [He Hqs]. pose proof He as [Hv Hms]. apply Forall_cons_iff in Hno as [Ho Hnq]. pose proof Ho as [Hf _]. unfold core_step in E.
    destruct Hcl as [Et|[Et|Et]]; rewrite Et in *; cbn [okt close_add] in *.
    - destruct l as [|[] l]; try discriminate. unfold do_rcb in E. cbn [c_ss c_qs c_cur c_tl map sy] in E. rewrite (emit_quiet buf e _ cl He Ho) in E. cbn [bind] in E.
      destruct l as [|[] l]; cbn [map sy] in E.
      + injection E as <-. cbn. rewrite app_nil_r. reflexivity.
      + destruct (qs_pop qs). injection E as <-. cbn. rewrite app_nil_r. reflexivity.
      + injection E as <-. cbn. rewrite app_nil_r. reflexivity.
      + rewrite (free_type (incr e) Hv Hf) in E. cbn [bind incr q_state] in E. destruct (acc (q_state e) =? DFA_PREDICATE).
        * unfold addTuple in E. destruct (MAX_TUPLE_LIST <=? zlen cl); [discriminate|]. cbn in E. injection E as <-. reflexivity.
        * injection E as <-. cbn. rewrite app_nil_r. reflexivity.
    - destruct l as [|[] l]; try discriminate. unfold do_rb in E. cbn [c_ss c_qs c_cur c_tl map sy] in E. cbn in Hlen. destruct qs as [|e1 qs]; [discriminate|]. cbn [qs_top] in E.
      apply Forall_cons_iff in Hqs as [He1 Hqs]. apply Forall_cons_iff in Hnq as [Ho1 Hnq]. rewrite (emit_quiet buf e1 _ cl He1 Ho1) in E. cbn [bind qs_pop] in E. rewrite app_nil_r.
      destruct l as [|[] l]; cbn [map sy] in E; try (injection E as <-; reflexivity). destruct (qs_pop qs). injection E as <-. reflexivity.
    - injection E as <-. rewrite app_nil_r. destruct l; reflexivity.
  Qed.
  Lemma move_closer (Q : Z -> Prop) l t es es' : t = TRCB \/ t = TRB \/ t = TCOM -> okt l t -> move l t es es' -> Forall (fun e => Q (q_state e)) es -> Forall (fun e => Q (q_state e)) es'.
  Proof.
    intros Hc Ht Hm H. destruct t; cbn [okt move] in *; try (exfalso; intuition discriminate);
      [destruct l as [|[] [|[] l]]; try discriminate | destruct l as [|[] [|[] l]]; try discriminate | ];
      try contradiction; break; subst; repeat match goal with H : Forall _ (_ :: _) |- _ => apply Forall_cons_iff in H; destruct H end; auto;
      repeat apply Forall_cons; auto; match goal with H : keep _ _ |- _ => destruct H as [-> _]; assumption end.
  Qed.

  (** From the state 0 nothing is ever selected. *)
  Hypothesis Hz : acc 0 = 0.
  Hypothesis Hz' : forall inp, succ inp 0 = 0.
  Hypothesis Hzf : free 0.
  Definition dead (c : core) : Prop := Forall (fun e => q_state e = 0) (elts c).
  Lemma move_dead l t es es' : okt l t -> move l t es es' -> Forall (fun e => q_state e = 0) es -> Forall (fun e => q_state e = 0) es'.
  Proof.
    intros Ht Hm H. destruct t; cbn [okt move] in *;
      [| destruct l as [|[] [|[] l]]; try discriminate | | destruct l as [|[] [|[] l]]; try discriminate | | | destruct l as [|[] l]; try discriminate |];
      try contradiction; break; subst; repeat match goal with H : Forall _ (_ :: _) |- _ => apply Forall_cons_iff in H; destruct H end; auto;
      repeat apply Forall_cons; auto; cbn [q_state];
      try match goal with H : q_state ?x = 0 |- after_elt _ ?x = 0 => rewrite move_free; rewrite H; [apply Hz' | exact Hzf] end;
      match goal with H : keep _ _ |- _ => destruct H as [-> _]; assumption end.
  Qed.
  Lemma dead_run buf : forall E l c, sinv l c -> oks l (map e_tok E) -> dead c -> exists c', run d buf E c = Ok c' /\ c_tl c' = c_tl c.
  Proof.
    induction E as [|ev E IH]; intros l c Hi Ho Hn.
    - exists c. auto.
    - cbn [map oks] in Ho. destruct Ho as [Ho1 Ho2].
      destruct (quiet_step buf l c ev Hi Ho1) as (c1 & E1 & Et). { eapply Forall_impl; [|exact Hn]. intros e He. cbn beta in *. rewrite He. split; [exact Hzf|exact Hz]. }
      destruct (step_move buf l c ev c1 Hi Ho1 E1) as [_ Hm].
      destruct (IH (onto l (e_tok ev)) c1 (step_sinv buf l c ev c1 Hi Ho1 E1) Ho2 (move_dead _ _ _ _ Ho1 Hm Hn)) as (c' & E' & Et').
      exists c'. split; [unfold run; cbn [foldM]; rewrite E1; exact E'|]. congruence.
  Qed.

  (** The elements of the open arrays are no values of tested fields, and where a
      filter decides on them they are among the first [k] of the stack. *)
  Fixpoint arrs (k : nat) (l : list opened) (es : list elt) : Prop :=
    match l with
    | [] => True
    | OBrace :: l' => arrs k l' es
    | OKey :: l' => arrs k l' (tl es)
    | OBracket :: l' => match es with e :: es' => acc (q_state e) <> DFA_CONDITION /\ (acc (q_state e) = DFA_PREDICATE -> (S (nopen l') < k)%nat) /\ arrs k l' es' | [] => False end
    end.
  Lemma arrs_states k : forall l es es', map q_state es' = map q_state es -> arrs k l es -> arrs k l es'.
  Proof.
    induction l as [|[] l IH]; intros es es' E H; cbn [arrs] in *; auto.
    - apply (IH (tl es)); auto. destruct es, es'; cbn in *; try discriminate; auto. injection E as _ E. exact E.
    - eapply IH; eauto.
    - destruct es as [|e es]; [contradiction|]. destruct es' as [|e' es']; [discriminate|]. cbn [map] in E. injection E as E1 E2. rewrite E1. destruct H as (H1 & H2 & H3). repeat split; auto. eapply IH; eauto.
  Qed.
  Lemma arrs_closer k l t es es' : t = TRCB \/ t = TRB \/ t = TCOM -> okt l t -> move l t es es' -> arrs k l es -> arrs k (onto l t) es'.
  Proof.
    intros Hc Ht Hm H. destruct t; cbn [okt move onto] in *; try (exfalso; intuition discriminate).
    - destruct l as [|[] [|[] l]]; try discriminate; break; subst; cbn [tl value_done] in *; auto;
        try (match goal with H : arrs _ _ _ |- _ => cbn [arrs tl] in H end; auto).
      all: match goal with K : keep ?e ?e' |- arrs _ _ (?e' :: ?b) => destruct K as [K _]; apply (arrs_states k _ (e :: b)); [cbn [map]; rewrite K; reflexivity|]; cbn [arrs]; auto end.
    - destruct l as [|[] [|[] l]]; try discriminate; break; try contradiction; subst; cbn [tl value_done] in *; auto;
        match goal with H : arrs _ _ _ |- _ => cbn [arrs tl] in H; destruct H as (_ & _ & H) end; auto.
      all: match goal with K : keep ?e ?e' |- arrs _ _ (?e' :: ?b) => destruct K as [K _]; apply (arrs_states k _ (e :: b)); [cbn [map]; rewrite K; reflexivity|]; cbn [arrs]; auto end.
    - subst. exact H.
  Qed.

  (** Elements that belong to something open know where it starts. *)
  Fixpoint opn (l : list opened) (es : list elt) : Prop :=
    match l with
    | [] => True
    | OBrace :: l' => match es with e :: _ => mark e /\ opn l' es | [] => False end
    | OKey :: l' => opn l' (tl es)
    | OBracket :: l' => match es with _ :: e :: es' => mark e /\ opn l' (e :: es') | _ => False end
    end.
  Lemma opn_hd l e e' b : keep e e' -> value_here l = true -> opn l (e :: b) -> opn l (e' :: b).
  Proof. intros [H _] Hv. destruct l as [|[] l]; cbn; auto. discriminate. Qed.
  Lemma move_opn l t es es' : shape l -> okt l t -> move l t es es' -> opn l es -> opn (onto l t) es'.
  Proof.
    intros Hs Ht Hm Ho. destruct t; cbn [onto okt move] in *.
    - break. subst. cbn [opn]. split; [assumption|]. eapply opn_hd; eauto.
    - destruct l as [|[] [|[] l]]; try discriminate; cbn in Hs; break; try discriminate; subst; cbn [tl value_done opn] in *; auto; try tauto.
    - break. subst. cbn [opn q_state]. split; [assumption|]. eapply opn_hd; eauto.
    - destruct l as [|[] [|[] l]]; try discriminate; cbn in Hs; break; try discriminate; subst; cbn [tl value_done opn] in *; auto; try tauto.
    - subst. exact Ho.
    - break. subst. cbn [opn tl]. exact Ho.
    - destruct l as [|[] l]; try discriminate; cbn in Hs; break; try discriminate; subst; cbn [tl value_done opn] in *; auto.
    - contradiction.
  Qed.
  Definition owner (o : opened) (l1 : list opened) (a : list elt) : Prop :=
    (o = OBrace /\ List.length a = nopen l1) \/ (o = OBracket /\ List.length a = S (nopen l1)).
  Lemma find_open : forall l es a e b, opn l es -> shape l -> List.length es = S (nopen l) -> es = a ++ e :: b -> l <> [] -> (a = [] -> hd_error l = Some OBrace) ->
    mark e /\ exists l1 o l2, l = l1 ++ o :: l2 /\ owner o l1 a.
  Proof.
    unfold owner, nopen. induction l as [|o l IH]; intros es a e b Ho Hs Hlen -> Hl Ha; [congruence|]. cbn [shape] in Hs. destruct o; cbn [opn filter List.length] in *.
    - destruct a as [|x a]; [discriminate (Ha eq_refl)|]. cbn [tl app List.length] in *. destruct (IH _ a e b Ho (proj2 Hs)) as (Hm & l1 & o & l2 & -> & Hw); auto.
      { intros ->. discriminate (proj1 Hs). } { intros ->. destruct l as [|[] l]; try discriminate (proj1 Hs). reflexivity. }
      split; [exact Hm|]. exists (OKey :: l1), o, l2. split; [reflexivity|]. cbn [filter List.length]. destruct Hw as [[-> Hw]|[-> Hw]]; [left|right]; auto.
    - destruct a as [|x a]; cbn [app] in Ho; destruct Ho as [Hm Ho].
      + split; [exact Hm|]. exists [], OBrace, l. split; [reflexivity|]. left. auto.
      + destruct (IH _ (x :: a) e b Ho (proj2 Hs)) as (Hm' & l1 & o & l2 & -> & Hw); auto.
        { intros ->. rewrite app_length in Hlen. cbn in Hlen. lia. } { discriminate. }
        split; [exact Hm'|]. exists (OBrace :: l1), o, l2. split; [reflexivity|]. exact Hw.
    - destruct a as [|x a]; [discriminate (Ha eq_refl)|]. cbn [app] in Ho. destruct a as [|y a]; cbn [app] in Ho.
      + destruct Ho as (Hm & _). split; [exact Hm|]. exists [], OBracket, l. split; [reflexivity|]. right. auto.
      + destruct Ho as (_ & Ho). destruct (IH _ (y :: a) e b Ho (proj2 Hs)) as (Hm' & l1 & o & l2 & -> & Hw); auto.
        { intros ->. cbn in Hlen. rewrite app_length in Hlen. cbn in Hlen. lia. } { discriminate. }
        split; [exact Hm'|]. exists (OBracket :: l1), o, l2. split; [reflexivity|]. cbn [filter List.length]. destruct Hw as [[-> Hw]|[-> Hw]]; [left|right]; cbn [List.length] in *; auto.
  Qed.

  Lemma owner_split o l1 a e b es : owner o l1 a -> es = a ++ e :: b -> (o = OBrace -> List.length a = nopen l1 /\ es = a ++ e :: b) /\
    (o = OBracket -> exists a0 x, a = a0 ++ [x] /\ List.length a0 = nopen l1 /\ es = a0 ++ x :: e :: b).
  Proof.
    intros Hw ->. split; intros ->; destruct Hw as [[E Hw]|[E Hw]]; try discriminate; auto.
    destruct (exists_last (l := a)) as (a0 & x & ->). { intros ->. discriminate. }
    rewrite app_length in Hw. cbn in Hw. exists a0, x. split; [reflexivity|]. split; [lia|]. rewrite <- app_assoc. reflexivity.
  Qed.
  Lemma emits_later buf : forall E l1 o l2 c c' a e b z, sinv (l1 ++ o :: l2) c -> o <> OKey -> oks (l1 ++ o :: l2) (map e_tok E) -> run d buf E c = Ok c' ->
    after (l1 ++ o :: l2) E = [] -> elts c = a ++ e :: b -> owner o l1 a -> free (q_state e) -> acc (q_state e) = DFA_OUTPUT_CANDIDATE -> q_ms e = MAt z ->
    exists E1 ev E2 cx, E = E1 ++ ev :: E2 /\ run d buf E1 c = Ok cx /\ emits d cx (e_tok ev) = Some z.
  Proof.
    induction E as [|ev E IH]; intros l1 o l2 c c' a e b z Hi Hk Ho H Haf Hes Hw Hfr Hout Hms.
    - unfold after in Haf. cbn in Haf. destruct l1; discriminate.
    - assert (Hve : valid_state d (q_state e)). { pose proof (si_ok _ _ Hi) as Hok. rewrite Hes in Hok. apply Forall_app in Hok as [_ Hok]. apply Forall_cons_iff in Hok as [[Hv _] _]. exact Hv. }
      assert (Hem : emit_of d e = Some z). { unfold emit_of. rewrite Hms, (gmt_ok d Hd Hkind e Hve), (ty_free d Hd Hkind e false Hve Hfr), Hout. reflexivity. }
      destruct (owner_split o l1 a e b _ Hw Hes) as [Hob Hok].
      cbn [map oks] in Ho. destruct Ho as [Ho1 Ho2].
      assert (Hcase : (l1 = [] /\ (e_tok ev = TRCB \/ e_tok ev = TRB)) \/ (l1 = [] -> e_tok ev <> TRCB /\ e_tok ev <> TRB)).
      { destruct l1; [|right; discriminate]. destruct (e_tok ev); auto; right; intros _; split; discriminate. }
      destruct Hcase as [[-> Ht]|Hin].
      + exists [], ev, E, c. split; [reflexivity|]. split; [reflexivity|]. cbn [app] in *. destruct Ht as [Et|Et]; rewrite Et in *; cbn [okt hd_error] in Ho1; injection Ho1 as ->.
        * destruct (Hob eq_refl) as [Hla _]. destruct a; [|discriminate]. unfold elts in Hes. injection Hes as Hc _. cbn [emits]. rewrite Hc. exact Hem.
        * destruct (Hok eq_refl) as (a0 & x & -> & Hla & Hes'). destruct a0; [|discriminate]. unfold elts in Hes'. cbn [app] in Hes'. injection Hes' as _ Hq. cbn [emits]. rewrite (si_ss _ _ Hi). cbn [map]. rewrite Hq. exact Hem.
      + unfold run in H. cbn [foldM] in H. destruct (core_step d buf c ev) as [c1|] eqn:E1; [|discriminate]. cbn [bind] in H.
        destruct (step_move buf _ c ev c1 Hi Ho1 E1) as [_ Hm]. pose proof (step_sinv buf _ c ev c1 Hi Ho1 E1) as Hi1.
        assert (Hkk : hd_error (o :: l2) <> Some OKey) by (cbn; congruence).
        rewrite after_cons in Haf. rewrite (onto_app l1 (o :: l2) (e_tok ev) Hkk Hin) in Hi1, Ho2, Haf.
        assert (GG : exists a', elts c1 = a' ++ e :: b /\ owner o (onto l1 (e_tok ev)) a').
        { destruct o; [congruence| |].
          - destruct (Hob eq_refl) as [Hla _]. destruct (inner_move l1 (OBrace :: l2) (e_tok ev) _ _ a e b Hkk (si_shape _ _ Hi) Ho1 Hin Hm Hes Hla) as (a' & e' & Ea & Hl' & _ & He).
            rewrite (He eq_refl) in Ea. exists a'. split; [exact Ea|]. left. auto.
          - destruct (Hok eq_refl) as (a0 & x & -> & Hla & Hes'). destruct (inner_move l1 (OBracket :: l2) (e_tok ev) _ _ a0 x (e :: b) Hkk (si_shape _ _ Hi) Ho1 Hin Hm Hes' Hla) as (a' & e' & Ea & Hl' & _ & _).
            exists (a' ++ [e']). split; [rewrite <- app_assoc; exact Ea|]. right. rewrite app_length. cbn. split; [reflexivity|]. lia. }
        destruct GG as (a' & Ea' & Hw').
        destruct (IH _ o l2 c1 c' a' e b z Hi1 Hk Ho2 H Haf Ea' Hw' Hfr Hout Hms) as (F1 & ev1 & F2 & cx & -> & Hr & Hx).
        exists (ev :: F1), ev1, F2, cx. split; [reflexivity|]. split; [|exact Hx]. unfold run. cbn [foldM]. rewrite E1. exact Hr.
  Qed.
  Lemma clean_at ks T : forall E1 ev E2 c cx, clean d ks T (E1 ++ ev :: E2) c -> run d T E1 c = Ok cx -> clear_of d ks cx ev.
  Proof. intros E1 ev E2 c cx H Hr. apply clean_split in H as [_ H]. specialize (H cx Hr). cbn [clean] in H. apply H. Qed.
  (** Where no selected text lies across a cut, nothing selected is open there. *)
  Lemma cut_notout T ks k l c c' E : sinv l c -> opn l (elts c) -> l <> [] -> hd_error l <> Some OKey -> oks l (map e_tok E) -> run d T E c = Ok c' -> after l E = [] ->
    core_lt k c -> clean d ks T E c -> In k ks -> Forall (fun ev => k < e_next ev) E -> Forall (fun e => free (q_state e)) (elts c) -> (hd_error l = Some OBracket -> acc (q_state (c_cur c)) <> DFA_OUTPUT_CANDIDATE) -> notout c.
  Proof.
    intros Hi Hop Hl Hk Ho H Haf Hlt Hc Hin Hev Hfr Hit. unfold notout. apply Forall_forall. intros e He. pose proof (proj1 (Forall_forall _ _) Hfr e He) as Hf. cbn beta in Hf. split; [exact Hf|]. intros Eo.
    apply in_split in He as (a & b & Hes).
    destruct (find_open l (elts c) a e b Hop (si_shape _ _ Hi)) as (Hm & l1 & o & l2 & -> & Hw); auto.
    { unfold elts. cbn [List.length]. rewrite (si_len _ _ Hi). reflexivity. }
    { intros ->. destruct l as [|[] l]; [congruence|cbn in Hk; congruence|reflexivity|]. unfold elts in Hes. injection Hes as Hx _. rewrite Hx in Hit. specialize (Hit eq_refl). congruence. }
    destruct (Hm Hf Eo) as (z & Ez).
    assert (Hz1 : z < k). { unfold core_lt in Hlt. fold (elts c) in Hlt. rewrite Hes in Hlt. apply Forall_app in Hlt as [_ Hlt]. apply Forall_cons_iff in Hlt as [Hlt _]. rewrite Ez in Hlt. exact Hlt. }
    assert (Hok : o <> OKey). { destruct Hw as [[-> _]|[-> _]]; discriminate. }
    destruct (emits_later T E l1 o l2 c c' a e b z Hi Hok Ho H Haf Hes Hw Hf Eo Ez) as (E1 & ev & E2 & cx & -> & Hr & Hx).
    pose proof (clean_at ks T E1 ev E2 c cx Hc Hr z Hx) as Hcl. rewrite Forall_forall in Hcl. specialize (Hcl k Hin Hz1).
    apply Forall_app in Hev as [_ Hev]. apply Forall_cons_iff in Hev as [Hev _]. lia.
  Qed.
End Steps.
