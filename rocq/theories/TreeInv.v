(** The serial engine on a whole document, the other direction: a run that
    succeeds is the one described by the tree function.  Nothing is assumed about
    the size of the texts or the number of matches. *)
From Verif Require Import Base Util Lexer Spec LexProof LexDoc LexMain Dfa Constraint Stream TreeSem.
Open Scope Z_scope.

Lemma addTuple_inv L q s L' : addTuple L q s = Ok L' -> fits L [(q, s)] /\ L' = L ++ [(q, s)].
Proof.
  unfold addTuple. destruct (MAX_TUPLE_LIST <=? zlen L) eqn:E; [discriminate|]. unfold strcopy, MAX_TEXT.
  destruct (1000 <? zlen s + 2) eqn:E2; [discriminate|]. cbn [bind]. injection 1 as <-. split; [|reflexivity].
  split; [rewrite zlen_cons, zlen_nil; lia|]. constructor; [cbn [snd]; lia|constructor].
Qed.

Lemma fits_nil L : zlen L <= MAX_TUPLE_LIST -> fits L [].
Proof. intros H. split; [rewrite zlen_nil; lia|constructor]. Qed.
Lemma fits_join L T1 T2 : fits L T1 -> fits (L ++ T1) T2 -> fits L (T1 ++ T2).
Proof. unfold fits. rewrite !zlen_app. intros [H1 H2] [H3 H4]. split; [lia|apply Forall_app; auto]. Qed.
Lemma fits_len L T : fits L T -> zlen (L ++ T) <= MAX_TUPLE_LIST.
Proof. intros [H _]. rewrite zlen_app. exact H. Qed.

Section Machine.
  Variable d : dfa.
  Hypothesis Hd : dfa_ok d.
  Variable buf : bytes.
  Hypothesis Hlead : lead_blanks buf = O.
  Hypothesis Hnul : no_nul buf.

  Notation run := (foldM (core_step d buf)).

  Lemma emit_close_inv pre s post L q i ms r :
    buf = pre ++ s ++ post -> valid_state d q ->
    ms <> MUninit -> (mt d q i = DFA_OUTPUT_CANDIDATE -> ms = MAt (zlen pre)) -> zlen L <= MAX_TUPLE_LIST ->
    emit_close d buf (mkElt q i ms) (zlen pre + zlen s) L = Ok r -> fits L (t_close d q i s).
  Proof.
    intros Hb Hq Hms Hm HL. unfold emit_close, t_close in *. cbn [q_ms q_state].
    destruct (Z.eqb_spec (mt d q i) DFA_OUTPUT_CANDIDATE) as [E|E].
    - rewrite (Hm E). cbn [ms_set bind]. rewrite (gmt_ok d q i _ Hd Hq). cbn [bind].
      rewrite E. cbn [Z.eqb DFA_OUTPUT_CANDIDATE Pos.eqb].
      rewrite (substring_text buf Hlead Hnul pre s post Hb). cbn [bind].
      destruct (addTuple L q s) eqn:Ea; [|discriminate]. intros _. exact (proj1 (addTuple_inv _ _ _ _ Ea)).
    - intros _. apply fits_nil, HL.
  Qed.

  Lemma open_obj_inv S Q q i m L n c : valid_state d q -> zlen L <= MAX_TUPLE_LIST ->
    do_lcb d n (mkCore S Q (mkElt q i m) L) = Ok c -> fits L (t_open_obj d q i).
  Proof.
    intros Hq HL. unfold do_lcb. cbn [c_ss c_qs c_cur c_tl].
    rewrite (gmt_ok d q i m Hd Hq). cbn [bind]. unfold t_open_obj.
    destruct (Z.eqb_spec (mt d q i) DFA_OUTPUT_CANDIDATE) as [E|E].
    - rewrite E. cbn. intros _. apply fits_nil, HL.
    - destruct (mt d q i =? DFA_PREDICATE).
      + cbn [q_state]. destruct (addTuple L q _) eqn:Ea; [|discriminate]. intros _. exact (proj1 (addTuple_inv _ _ _ _ Ea)).
      + destruct (mt d q i =? DFA_CONDITION).
        * cbn [q_state]. destruct (addTuple L q _) eqn:Ea; [|discriminate]. intros _. exact (proj1 (addTuple_inv _ _ _ _ Ea)).
        * intros _. apply fits_nil, HL.
  Qed.

  Lemma open_arr_inv S Q q i m L n c : valid_state d q -> zlen L <= MAX_TUPLE_LIST ->
    do_lb d n (mkCore S Q (mkElt q i m) L) = Ok c -> fits L (t_open_arr d q i).
  Proof.
    intros Hq HL. unfold do_lb. cbn [c_ss c_qs c_cur c_tl].
    rewrite (gmt_ok d q i m Hd Hq). cbn [bind]. unfold t_open_arr.
    destruct (Z.eqb_spec (mt d q i) DFA_OUTPUT_CANDIDATE) as [E|E].
    - rewrite E. cbn [bind]. intros _. apply fits_nil, HL.
    - destruct (mt d q i =? DFA_CONDITION).
      + cbn [q_state]. destruct (addTuple L q _) eqn:Ea; [|discriminate]. intros _. exact (proj1 (addTuple_inv _ _ _ _ Ea)).
      + intros _. apply fits_nil, HL.
  Qed.

  (** What the two opening brackets do (as in TreeSem.v). *)
  Lemma open_obj_ok S Q q i m L o : (List.length S < 100)%nat -> valid_state d q -> fits L (t_open_obj d q i) ->
    do_lcb d (o + 1) (mkCore S Q (mkElt q i m) L)
    = Ok (mkCore (SLCB :: S) Q (mkElt q i (if mt d q i =? DFA_OUTPUT_CANDIDATE then MAt o else m)) (L ++ t_open_obj d q i)).
  Proof.
    intros HS Hq Hf1. unfold do_lcb. cbn [c_ss c_qs c_cur c_tl]. rewrite push_ok by lia.
    rewrite (gmt_ok d q i m Hd Hq). cbn [bind]. unfold t_open_obj in *.
    destruct (Z.eqb_spec (mt d q i) DFA_OUTPUT_CANDIDATE) as [E|E].
    - rewrite E in *. cbn. rewrite app_nil_r. unfold set_ms. cbn. do 4 f_equal. lia.
    - destruct (mt d q i =? DFA_PREDICATE).
      + cbn [q_state]. rewrite addTuple_ok by exact Hf1. reflexivity.
      + destruct (mt d q i =? DFA_CONDITION).
        * cbn [q_state]. rewrite addTuple_ok by exact Hf1. reflexivity.
        * rewrite app_nil_r. reflexivity.
  Qed.
  Lemma open_arr_ok S Q q i m L o : (List.length S < 100)%nat -> (List.length Q < 100)%nat -> valid_state d q ->
    fits L (t_open_arr d q i) ->
    do_lb d (o + 1) (mkCore S Q (mkElt q i m) L)
    = Ok (mkCore (SLB :: S) (mkElt q i (if mt d q i =? DFA_OUTPUT_CANDIDATE then MAt o else m) :: Q)
            (mkElt (nx d q i None) 0 MInv) (L ++ t_open_arr d q i)).
  Proof.
    intros HS HQ Hq Hf1. unfold do_lb. cbn [c_ss c_qs c_cur c_tl].
    rewrite (gmt_ok d q i m Hd Hq). cbn [bind]. unfold t_open_arr in *.
    destruct (Z.eqb_spec (mt d q i) DFA_OUTPUT_CANDIDATE) as [E|E].
    - rewrite E in *. cbn [bind]. unfold set_ms. cbn [q_state q_count].
      rewrite (proj1 (next_ok d q i _ None Hd Hq)). cbn [bind].
      rewrite !push_ok by lia. cbn. rewrite app_nil_r.
      do 3 f_equal. f_equal. f_equal. lia.
    - destruct (mt d q i =? DFA_CONDITION).
      + cbn [q_state]. rewrite addTuple_ok by exact Hf1. cbn [bind].
        rewrite (proj1 (next_ok d q i _ None Hd Hq)). cbn [bind].
        rewrite !push_ok by lia. reflexivity.
      + cbn [bind]. rewrite (proj1 (next_ok d q i _ None Hd Hq)). cbn [bind].
        rewrite !push_ok by lia. rewrite app_nil_r. reflexivity.
  Qed.

  Definition I_val (v : json) : Prop :=
    forall p S Q q i ms L pre post cp tb c,
    (is_container v = false -> p <> AtRoot) ->
    before p S Q -> ms <> MUninit -> valid_state d q ->
    (List.length Q <= List.length S)%nat ->
    (List.length S + stack_need v <= 100)%nat ->
    buf = pre ++ text v ++ post -> zlen L <= MAX_TUPLE_LIST ->
    run (ev_val cp (zlen pre) tb v) (mkCore S Q (mkElt q i ms) L) = Ok c ->
    fits L (t_val d (in_arr p) q i v).

  Definition I_ms (ms : members) : Prop :=
    forall S Q q i m L pre post cp c,
    m <> MUninit -> valid_state d q ->
    (List.length Q <= List.length S)%nat ->
    (List.length S + need_ms ms <= 100)%nat ->
    buf = pre ++ text_ms ms ++ post -> zlen L <= MAX_TUPLE_LIST ->
    run (ev_ms cp (zlen pre) ms) (mkCore S Q (mkElt q i m) L) = Ok c ->
    fits L (t_ms d q i ms).

  Definition I_es (es : elements) : Prop :=
    forall S Q q i m L pre post cp c,
    m <> MUninit -> valid_state d q ->
    (List.length Q <= Datatypes.S (List.length S))%nat ->
    (Datatypes.S (List.length S) + need_es es <= 100)%nat ->
    buf = pre ++ text_es es ++ post -> zlen L <= MAX_TUPLE_LIST ->
    run (ev_es cp (zlen pre) es) (mkCore (SLB :: S) Q (mkElt q i m) L) = Ok c ->
    fits L (t_es d q i es).

  Lemma I_prim (v : json) s :
    text v = s -> is_container v = false ->
    (forall ar q i, t_val d ar q i v = t_prim d q i s) ->
    (forall cp o tb, exists n st, ev_val cp o tb v = [mkEvent (TPRI s) n st]) ->
    I_val v.
  Proof.
    intros Ht Hc HT Hev p S Q q i ms L pre post cp tb c Hroot Hbef Hms Hq HQ HS Hb HL.
    rewrite HT in *. destruct (Hev cp (zlen pre) tb) as (n & st & ->).
    cbn [foldM core_step e_tok]. unfold do_pri. cbn [c_ss c_qs c_cur c_tl].
    assert (HSn : exists t S', S = t :: S').
    { destruct p; cbn in Hbef; [destruct Hbef as [[S' ->] _]|destruct Hbef as [S' ->]|exfalso; apply Hroot; auto]; eauto. }
    destruct HSn as (t & S' & ->). rewrite (gmt_ok d q i ms Hd Hq). cbn [bind q_state].
    unfold t_prim. destruct (_ || _).
    - destruct (addTuple L q s) eqn:Ea; [|discriminate]. intros _. exact (proj1 (addTuple_inv _ _ _ _ Ea)).
    - intros _. apply fits_nil, HL.
  Qed.

  Lemma inv_all : (forall v, I_val v) /\ (forall ms, I_ms ms) /\ (forall es, I_es es).
  Proof.
    destruct (machine_all d Hd buf Hlead Hnul) as (Mv & Mms & Mes).
    apply json_all_ind.
    - intros s. eapply I_prim; try reflexivity. intros. eexists. eexists. reflexivity.
    - intros s. eapply I_prim; try reflexivity. intros. eexists. eexists. reflexivity.
    - (* object *)
      intros w ms IH p S Q q i m L pre post cp tb c _ Hbef Hm Hq HQ HS Hb HL.
      rewrite t_val_obj. set (txt := text (JObj w ms)) in *. cbn [stack_need] in HS.
      cbn [ev_val]. fold txt. cbn [foldM core_step e_tok e_next].
      destruct (do_lcb d (zlen pre + 1) (mkCore S Q (mkElt q i m) L)) as [c1|u] eqn:Eo; [|discriminate].
      pose proof (open_obj_inv _ _ _ _ _ _ _ _ Hq HL Eo) as Hf1.
      rewrite open_obj_ok in Eo; [|lia|exact Hq|exact Hf1]. injection Eo as <-. cbn [bind].
      set (m1 := if mt d q i =? DFA_OUTPUT_CANDIDATE then MAt (zlen pre) else m) in *.
      assert (Hm1 : m1 <> MUninit) by (unfold m1; destruct (_ =? _); [discriminate|exact Hm]).
      rewrite foldM_app.
      assert (Hz : zlen (pre ++ B "{" ++ w) = zlen pre + 1 + zlen w).
      { change (B "{") with ["{"%char]. zlc. }
      assert (Hbb : buf = (pre ++ B "{" ++ w) ++ text_ms ms ++ B "}" ++ post).
      { rewrite Hb. unfold txt. cbn [text]. leq. }
      destruct (run (ev_ms (zlen pre + 1) (zlen pre + 1 + zlen w) ms) (mkCore (SLCB :: S) Q (mkElt q i m1) (L ++ t_open_obj d q i)))
        as [c2|u] eqn:Er; [|discriminate].
      assert (Hf2 : fits (L ++ t_open_obj d q i) (t_ms d q i ms)).
      { rewrite <- Hz in Er. eapply (IH (SLCB :: S)); [exact Hm1|exact Hq| | |exact Hbb|apply fits_len, Hf1|exact Er]; cbn [List.length]; lia. }
      rewrite <- Hz in Er. rewrite (Mms ms (SLCB :: S) Q q i m1 _ _ (B "}" ++ post) _ Hm1 Hq) in Er; [|cbn [List.length]; lia|cbn [List.length]; lia|exact Hbb|exact Hf2].
      injection Er as <-. cbn [bind foldM core_step e_tok e_next].
      unfold do_rcb. cbn [c_ss c_qs c_cur c_tl].
      destruct (emit_close d buf (mkElt q i m1) (zlen pre + zlen txt) ((L ++ t_open_obj d q i) ++ t_ms d q i ms)) as [[L3 em]|u] eqn:Ec;
        [|discriminate].
      assert (Hmc : mt d q i = DFA_OUTPUT_CANDIDATE -> m1 = MAt (zlen pre)) by (intros E; unfold m1; rewrite E; reflexivity).
      pose proof (emit_close_inv pre txt post _ q i m1 _ Hb Hq Hm1 Hmc (fits_len _ _ Hf2) Ec) as Hf3.
      rewrite (emit_close_ok d Hd buf Hlead Hnul pre txt post (mkElt q i m1) _ q i m1 Hb Hq Hm1 Hmc eq_refl Hf3) in Ec. injection Ec as <- <-.
      cbn [bind].
      assert (He : (if mt d q i =? DFA_OUTPUT_CANDIDATE then set_ms (mkElt q i m1) MInv else mkElt q i m1)
                   = mkElt q i (if mt d q i =? DFA_OUTPUT_CANDIDATE then MInv else m)).
      { unfold m1. destruct (mt d q i =? DFA_OUTPUT_CANDIDATE); reflexivity. }
      rewrite He. clear He. intros Hrun. apply fits_join; [exact Hf1|]. apply fits_join; [exact Hf2|]. apply fits_join; [exact Hf3|].
      set (L4 := ((L ++ t_open_obj d q i) ++ t_ms d q i ms) ++ t_close d q i txt) in *.
      assert (HL4 : zlen L4 <= MAX_TUPLE_LIST) by (apply fits_len; exact Hf3).
      destruct p as [e0 Q'| |]; cbn [before in_arr] in *; unfold t_close_elem; cbn [andb]; try (apply fits_nil, HL4).
      destruct Hbef as [S' ->]. revert Hrun. unfold incr. cbn [q_state q_count q_ms].
      rewrite (gmt_ok d q (i + 1) _ Hd Hq). cbn [bind]. rewrite (mt_pred d q (i + 1) i Hd Hq).
      destruct (mt d q i =? DFA_PREDICATE).
      * destruct (addTuple L4 q _) eqn:Ea; [|discriminate]. intros _. exact (proj1 (addTuple_inv _ _ _ _ Ea)).
      * intros _. apply fits_nil, HL4.
    - (* array *)
      intros w es IH p S Q q i m L pre post cp tb c _ Hbef Hm Hq HQ HS Hb HL.
      rewrite t_val_arr. set (txt := text (JArr w es)) in *. cbn [stack_need] in HS.
      cbn [ev_val]. fold txt. cbn [foldM core_step e_tok e_next].
      destruct (do_lb d (zlen pre + 1) (mkCore S Q (mkElt q i m) L)) as [c1|u] eqn:Eo; [|discriminate].
      pose proof (open_arr_inv _ _ _ _ _ _ _ _ Hq HL Eo) as Hf1.
      rewrite open_arr_ok in Eo; [|lia|lia|exact Hq|exact Hf1]. injection Eo as <-. cbn [bind].
      destruct (next_ok d q i m None Hd Hq) as [_ Hnv].
      set (m1 := if mt d q i =? DFA_OUTPUT_CANDIDATE then MAt (zlen pre) else m) in *.
      assert (Hm1 : m1 <> MUninit) by (unfold m1; destruct (_ =? _); [discriminate|exact Hm]).
      set (qn := nx d q i None) in *. rewrite foldM_app.
      assert (Hz : zlen (pre ++ B "[" ++ w) = zlen pre + 1 + zlen w).
      { change (B "[") with ["["%char]. zlc. }
      assert (Hbb : buf = (pre ++ B "[" ++ w) ++ text_es es ++ B "]" ++ post).
      { rewrite Hb. unfold txt. cbn [text]. leq. }
      destruct (run (ev_es (zlen pre + 1) (zlen pre + 1 + zlen w) es)
                 (mkCore (SLB :: S) (mkElt q i m1 :: Q) (mkElt qn 0 MInv) (L ++ t_open_arr d q i)))
        as [c2|u] eqn:Er; [|discriminate].
      assert (Hf2 : fits (L ++ t_open_arr d q i) (t_es d qn 0 es)).
      { rewrite <- Hz in Er. eapply (IH S (mkElt q i m1 :: Q)); [|exact Hnv| | |exact Hbb|apply fits_len, Hf1|exact Er]; [discriminate| |]; cbn [List.length]; lia. }
      destruct (Mes es S (mkElt q i m1 :: Q) qn 0 MInv (L ++ t_open_arr d q i) (pre ++ B "[" ++ w) (B "]" ++ post) (zlen pre + 1))
        as (m' & Hm' & Hbody).
      { discriminate. } { exact Hnv. } { cbn [List.length]. lia. } { lia. } { exact Hbb. } { exact Hf2. }
      rewrite Hz, Er in Hbody. injection Hbody as ->. clear Er.
      cbn [bind foldM core_step e_tok e_next].
      unfold do_rb. cbn [c_ss c_qs c_cur c_tl qs_top].
      destruct (emit_close d buf (mkElt q i m1) (zlen pre + zlen txt) ((L ++ t_open_arr d q i) ++ t_es d qn 0 es)) as [[L3 em]|u] eqn:Ec;
        [|discriminate].
      assert (Hmc : mt d q i = DFA_OUTPUT_CANDIDATE -> m1 = MAt (zlen pre)) by (intros E; unfold m1; rewrite E; reflexivity).
      pose proof (emit_close_inv pre txt post _ q i m1 _ Hb Hq Hm1 Hmc (fits_len _ _ Hf2) Ec) as Hf3.
      intros _. apply fits_join; [exact Hf1|]. apply fits_join; [exact Hf2|exact Hf3].
    - (* no members *)
      intros S Q q i m L pre post cp c _ _ _ _ _ HL _. apply fits_nil, HL.
    - (* member *)
      intros p k v IHv ms IHms S Q q i m L pre post cp c Hm Hq HQ HS Hb HL.
      rewrite t_ms_cons. cbn [need_ms] in *.
      destruct (next_ok d q i m (Some k) Hd Hq) as [Hn Hnv].
      set (qn := nx d q i (Some k)) in *.
      cbn [ev_ms].
      set (oc := zlen pre + zlen (w_before p) + zlen k + 2 + zlen (w_colon p)).
      set (ov := oc + 1 + zlen (w_value p)).
      set (oe := ov + zlen (text v) + zlen (w_after p)).
      cbv zeta. cbn [foldM core_step e_tok].
      unfold do_ky at 1. cbn [c_ss c_qs c_cur c_tl]. rewrite Hn. cbn [bind].
      rewrite !push_ok by lia.
      rewrite foldM_app.
      cbn [text_ms] in Hb.
      set (pre2 := pre ++ w_before p ++ (DQ :: k ++ [DQ]) ++ w_colon p ++ B ":" ++ w_value p).
      assert (Hp2 : zlen pre2 = ov).
      { unfold pre2, ov, oc. change (B ":") with [":"%char]. zlc. }
      assert (Hb2 : buf = pre2 ++ text v ++ w_after p ++ match ms with MNil => [] | _ => B "," ++ text_ms ms end ++ post).
      { rewrite Hb. unfold pre2. leq. }
      match goal with |- (y <- ?r ;; _) = _ -> _ => destruct r as [c1|u] eqn:Er; [|discriminate] end.
      rewrite <- Hp2 in Er.
      assert (Hf1 : fits L (t_val d false qn 0 v)).
      { refine (IHv (InKey (mkElt q i m) Q) (SKY :: S) (mkElt q i m :: Q) qn 0 MInv L pre2 _ _ _ c1 _ _ _ Hnv _ _ Hb2 HL Er).
        { discriminate. } { split; [eauto|reflexivity]. } { discriminate. }
        { cbn [List.length]. lia. } { cbn [List.length]. lia. } }
      destruct (Mv v (InKey (mkElt q i m) Q) (SKY :: S) (mkElt q i m :: Q) qn 0 MInv L pre2
                  (w_after p ++ match ms with MNil => [] | _ => B "," ++ text_ms ms end ++ post)
                  oc (lead_bt (w_after p))) as (c' & Hrun & Haft).
      { discriminate. } { split; [eauto|reflexivity]. } { discriminate. } { exact Hnv. }
      { cbn [List.length]. lia. } { cbn [List.length]. lia. }
      { exact Hb2. } { exact Hf1. }
      rewrite Er in Hrun. injection Hrun as <-. cbn [after in_arr tl] in Haft. subst c1. cbn [bind].
      destruct ms as [|p' k' v' ms'].
      + intros _. rewrite app_nil_r. exact Hf1.
      + set (ms1 := MCons p' k' v' ms') in *.
        cbn [foldM core_step e_tok bind]. intros Hrun. apply fits_join; [exact Hf1|].
        refine (IHms S Q q i m (L ++ t_val d false qn 0 v) (pre2 ++ text v ++ w_after p ++ B ",") post (oe + 1) c Hm Hq HQ _ _ (fits_len _ _ Hf1) _).
        * lia.
        * rewrite Hb. unfold pre2, ms1. leq.
        * replace (zlen (pre2 ++ text v ++ w_after p ++ B ",")) with (oe + 1); [exact Hrun|].
          unfold oe. change (B ",") with [","%char]. zlc.
    - (* no elements *)
      intros S Q q i m L pre post cp c Hm _ _ _ _ HL _. apply fits_nil, HL.
    - (* element *)
      intros wb v IHv wa es IHes S Q q i m L pre post cp c Hm Hq HQ HS Hb HL.
      rewrite t_es_cons. cbn [need_es es_len] in *.
      cbn [ev_es].
      set (ov := zlen pre + zlen wb).
      set (oe := ov + zlen (text v) + zlen wa).
      cbv zeta. rewrite foldM_app.
      cbn [text_es] in Hb.
      assert (Hz : zlen (pre ++ wb) = ov) by (unfold ov; zlc).
      assert (Hb2 : buf = (pre ++ wb) ++ text v ++ wa ++ match es with ENil => [] | _ => B "," ++ text_es es end ++ post) by (rewrite Hb; leq).
      match goal with |- (y <- ?r ;; _) = _ -> _ => destruct r as [c1|u] eqn:Er; [|discriminate] end.
      rewrite <- Hz in Er.
      assert (Hf1 : fits L (t_val d true q i v)).
      { refine (IHv InArr (SLB :: S) Q q i m L (pre ++ wb) _ _ _ c1 _ _ Hm Hq _ _ Hb2 HL Er).
        { discriminate. } { cbn. eauto. } { cbn [List.length]. lia. } { cbn [List.length]. lia. } }
      destruct (Mv v InArr (SLB :: S) Q q i m L (pre ++ wb)
                  (wa ++ match es with ENil => [] | _ => B "," ++ text_es es end ++ post)
                  cp (lead_bt wa)) as (c' & Hrun & Haft).
      { discriminate. } { cbn. eauto. } { exact Hm. } { exact Hq. }
      { cbn [List.length]. lia. } { cbn [List.length]. lia. }
      { exact Hb2. } { exact Hf1. }
      rewrite Er in Hrun. injection Hrun as <-.
      cbn [after in_arr] in Haft. destruct Haft as (m' & Hm' & _ & ->). cbn [bind].
      destruct es as [|wb' v' wa' es'].
      + intros _. rewrite app_nil_r. exact Hf1.
      + set (es1 := ECons wb' v' wa' es') in *.
        cbn [foldM core_step e_tok bind]. intros Hrun. apply fits_join; [exact Hf1|].
        refine (IHes S Q q (i + 1) m' (L ++ t_val d true q i v) (pre ++ wb ++ text v ++ wa ++ B ",") post (oe + 1) c Hm' Hq HQ _ _ (fits_len _ _ Hf1) _).
        * lia.
        * rewrite Hb. unfold es1. leq.
        * replace (zlen (pre ++ wb ++ text v ++ wa ++ B ",")) with (oe + 1); [exact Hrun|].
          unfold oe, ov. change (B ",") with [","%char]. zlc.
  Qed.
End Machine.

(** A successful run on a whole document. *)
Theorem exec_doc_inv d dc c c' : dfa_ok d -> wf_doc dc = true -> lex_safe (d_val dc) = true ->
  lead_blanks (d_pre dc) = O ->
  c_ss c = [] -> c_qs c = [] -> q_ms (c_cur c) <> MUninit ->
  valid_state d (q_state (c_cur c)) ->
  (stack_need (d_val dc) <= 100)%nat -> zlen (c_tl c) <= MAX_TUPLE_LIST ->
  executeAutomaton d (doc_text dc) c = Ok c' ->
  fits (c_tl c) (t_val d false (q_state (c_cur c)) (q_count (c_cur c)) (d_val dc)).
Proof.
  intros Hd Hwf Hsafe Hlead Hss Hqs Hms Hq Hneed HL.
  pose proof (doc_no_nul dc Hwf) as Hnn.
  unfold executeAutomaton. rewrite (lex_doc dc Hwf Hsafe). cbn [bind].
  rewrite c_string_id by exact Hnn.
  destruct c as [ss qs [q i m] L]. cbn [c_ss c_qs c_cur c_tl q_state q_count q_ms] in *. subst ss qs.
  assert (Hc : is_container (d_val dc) = true).
  { unfold wf_doc in Hwf. andb_split. assumption. }
  assert (Hl : lead_blanks (doc_text dc) = O).
  { unfold doc_text. destruct (d_pre dc) as [|x l]; cbn in *.
    - destruct (d_val dc); try discriminate; reflexivity.
    - destruct (Ascii.eqb x " "%char); [discriminate|reflexivity]. }
  intros Hrun.
  refine (proj1 (inv_all d Hd (doc_text dc) Hl Hnn) (d_val dc) AtRoot [] [] q i m L (d_pre dc) (d_post dc) _ _ c' _ _ Hms Hq _ _ eq_refl HL Hrun).
  { congruence. } { reflexivity. } { cbn; lia. } { cbn; lia. }
Qed.
