(** Running a document piece by piece. *)
From Verif Require Import Base Spec PosSpec QueryClass Util Lexer LexProof LexDoc LexMain LexSpec LexClaim Flat CutSpec Cut Loader LoaderProof Dfa Constraint Stream TreeSem TreeInv Pieces PieceRun.
From Verif Require Import Compress Builder AutoProof BuilderProof Roles Compiled TreeSel SelProof.
Open Scope Z_scope.

Section Clean.
  Variable d : dfa.
  Hypothesis Hd : dfa_ok d.
  Variable buf : bytes.
  Hypothesis Hlead : lead_blanks buf = O.
  Hypothesis Hnul : no_nul buf.
  Variable ks : list Z.

  Notation run := (foldM (core_step d buf)).
  Notation clean := (clean d ks buf).

  (** Texts that the automaton will emit do not reach across a cut. *)
  Definition free (q i o : Z) (t : bytes) : Prop :=
    mt d q i = DFA_OUTPUT_CANDIDATE -> Forall (fun k => o < k -> o + zlen t <= k) ks.
  Fixpoint ok_val (q i o : Z) (v : json) : Prop :=
    match v with
    | JBare _ | JStr _ => True
    | JObj w ms => free q i o (text v) /\ ok_ms q i (o + 1 + zlen w) ms
    | JArr w es => free q i o (text v) /\ ok_es (nx d q i None) 0 (o + 1 + zlen w) es
    end
  with ok_ms (q i o : Z) (ms : members) : Prop :=
    match ms with
    | MNil => True
    | MCons pd k v ms' =>
        let ov := o + zlen (w_before pd) + (zlen k + 2) + zlen (w_colon pd) + 1 + zlen (w_value pd) in
        ok_val (nx d q i (Some k)) 0 ov v /\ ok_ms q i (ov + zlen (text v) + zlen (w_after pd) + 1) ms'
    end
  with ok_es (q n o : Z) (es : elements) : Prop :=
    match es with
    | ENil => True
    | ECons wb v wa es' => ok_val q n (o + zlen wb) v /\ ok_es q (n + 1) (o + zlen wb + zlen (text v) + zlen wa + 1) es'
    end.

  Definition C_val (v : json) : Prop :=
    forall p S Q q i ms L pre post cp tb,
    (is_container v = false -> p <> AtRoot) ->
    before p S Q -> ms <> MUninit -> valid_state d q ->
    (List.length Q <= List.length S)%nat ->
    (List.length S + stack_need v <= 100)%nat ->
    buf = pre ++ text v ++ post ->
    fits L (t_val d (in_arr p) q i v) -> ok_val q i (zlen pre) v ->
    clean (ev_val cp (zlen pre) tb v) (mkCore S Q (mkElt q i ms) L).
  Definition C_ms (ms : members) : Prop :=
    forall S Q q i m L pre post cp,
    m <> MUninit -> valid_state d q ->
    (List.length Q <= List.length S)%nat ->
    (List.length S + need_ms ms <= 100)%nat ->
    buf = pre ++ text_ms ms ++ post ->
    fits L (t_ms d q i ms) -> ok_ms q i (zlen pre) ms ->
    clean (ev_ms cp (zlen pre) ms) (mkCore S Q (mkElt q i m) L).
  Definition C_es (es : elements) : Prop :=
    forall S Q q i m L pre post cp,
    m <> MUninit -> valid_state d q ->
    (List.length Q <= Datatypes.S (List.length S))%nat ->
    (Datatypes.S (List.length S) + need_es es <= 100)%nat ->
    buf = pre ++ text_es es ++ post ->
    fits L (t_es d q i es) -> ok_es q i (zlen pre) es ->
    clean (ev_es cp (zlen pre) es) (mkCore (SLB :: S) Q (mkElt q i m) L).

  Lemma quiet c ev : emits d c (e_tok ev) = None -> clear_of d ks c ev.
  Proof. intros H z E. congruence. Qed.

  Lemma emit_of_clear e q i m o t : e = mkElt q i m -> valid_state d q -> (mt d q i = DFA_OUTPUT_CANDIDATE -> m = MAt o) ->
    free q i o t -> forall z, emit_of d e = Some z -> Forall (fun k => z < k -> o + zlen t <= k) ks.
  Proof.
    intros -> Hq Hm Hf z. unfold emit_of. cbn [q_ms]. destruct m as [|z0|]; try discriminate.
    rewrite (gmt_ok d q i _ Hd Hq). destruct (Z.eqb_spec (mt d q i) DFA_OUTPUT_CANDIDATE) as [E|]; [|discriminate].
    intros H. injection H as <-. specialize (Hm E). injection Hm as ->. apply Hf, E.
  Qed.

  Lemma clean_all : (forall v, C_val v) /\ (forall ms, C_ms ms) /\ (forall es, C_es es).
  Proof.
    apply json_all_ind.
    - intros s p S Q q i ms L pre post cp tb _ _ _ _ _ _ _ _ _. cbn [ev_val PieceRun.clean]. split; [apply quiet; reflexivity|auto].
    - intros s p S Q q i ms L pre post cp tb _ _ _ _ _ _ _ _ _. cbn [ev_val PieceRun.clean]. split; [apply quiet; reflexivity|auto].
    - (* object *)
      intros w ms IH p S Q q i m L pre post cp tb _ Hbef Hm Hq HQ HS Hb Hf [Hfree Hok].
      rewrite t_val_obj in *. set (txt := text (JObj w ms)) in *.
      apply fits_mid in Hf as (Hf1 & Hf2 & Hf3). apply fits_app in Hf3 as [Hf3 Hf4].
      cbn [stack_need] in HS. cbn [ev_val]. fold txt.
      set (m1 := if mt d q i =? DFA_OUTPUT_CANDIDATE then MAt (zlen pre) else m).
      assert (Hm1 : m1 <> MUninit) by (unfold m1; destruct (_ =? _); [discriminate|exact Hm]).
      assert (Hb2 : buf = (pre ++ B "{" ++ w) ++ text_ms ms ++ (B "}" ++ post)).
      { rewrite Hb. unfold txt. cbn [text]. leq. }
      assert (Ez : zlen (pre ++ B "{" ++ w) = zlen pre + 1 + zlen w) by (change (B "{") with ["{"%char]; zlc).
      cbn [PieceRun.clean]. split; [apply quiet; reflexivity|]. cbn [core_step e_tok e_next].
      rewrite (open_obj_ok d Hd buf Hlead S Q q i m L (zlen pre)); [|lia|exact Hq|exact Hf1]. intros c' E. injection E as <-. fold m1.
      assert (Hbody := proj1 (proj2 (machine_all d Hd buf Hlead Hnul)) ms (SLCB :: S) Q q i m1 (L ++ t_open_obj d q i)
                (pre ++ B "{" ++ w) (B "}" ++ post) (zlen pre + 1) Hm1 Hq).
      rewrite Ez in Hbody. cbn [List.length] in Hbody.
      specialize (Hbody ltac:(lia) ltac:(lia) Hb2 Hf2).
      apply clean_app.
      + assert (G := IH (SLCB :: S) Q q i m1 (L ++ t_open_obj d q i) (pre ++ B "{" ++ w) (B "}" ++ post) (zlen pre + 1) Hm1 Hq).
        rewrite Ez in G. cbn [List.length] in G. apply G; try lia; assumption.
      + intros c' E. rewrite Hbody in E. injection E as <-. cbn [PieceRun.clean]. split; [|auto].
        intros z. cbn [emits e_tok e_next c_cur]. apply (emit_of_clear _ q i m1 (zlen pre) txt eq_refl Hq); [|exact Hfree].
        intros E. unfold m1. rewrite E. reflexivity.
    - (* array *)
      intros w es IH p S Q q i m L pre post cp tb _ Hbef Hm Hq HQ HS Hb Hf [Hfree Hok].
      rewrite t_val_arr in *. set (txt := text (JArr w es)) in *.
      apply fits_mid in Hf as (Hf1 & Hf2 & Hf3).
      cbn [stack_need] in HS. cbn [ev_val]. fold txt.
      destruct (next_ok d q i m None Hd Hq) as [_ Hnv]. set (qn := nx d q i None) in *.
      set (m1 := if mt d q i =? DFA_OUTPUT_CANDIDATE then MAt (zlen pre) else m).
      assert (Hb2 : buf = (pre ++ B "[" ++ w) ++ text_es es ++ (B "]" ++ post)).
      { rewrite Hb. unfold txt. cbn [text]. leq. }
      assert (Ez : zlen (pre ++ B "[" ++ w) = zlen pre + 1 + zlen w) by (change (B "[") with ["["%char]; zlc).
      cbn [PieceRun.clean]. split; [apply quiet; reflexivity|]. cbn [core_step e_tok e_next].
      rewrite (open_arr_ok d Hd buf Hlead S Q q i m L (zlen pre)); [|lia|lia|exact Hq|exact Hf1]. intros c' E. injection E as <-. fold m1 qn.
      destruct (proj2 (proj2 (machine_all d Hd buf Hlead Hnul)) es S (mkElt q i m1 :: Q) qn 0 MInv (L ++ t_open_arr d q i)
                (pre ++ B "[" ++ w) (B "]" ++ post) (zlen pre + 1)) as (m' & Hm' & Hbody).
      { discriminate. } { exact Hnv. } { cbn [List.length]. lia. } { lia. } { exact Hb2. } { exact Hf2. }
      rewrite Ez in Hbody.
      apply clean_app.
      + assert (G := IH S (mkElt q i m1 :: Q) qn 0 MInv (L ++ t_open_arr d q i) (pre ++ B "[" ++ w) (B "]" ++ post) (zlen pre + 1)).
        rewrite Ez in G. cbn [List.length] in G. apply G; try lia; try assumption. discriminate.
      + intros c' E. rewrite Hbody in E. injection E as <-. cbn [PieceRun.clean]. split; [|auto].
        intros z. cbn [emits e_tok e_next c_ss c_qs qs_top]. apply (emit_of_clear _ q i m1 (zlen pre) txt eq_refl Hq); [|exact Hfree].
        intros E. unfold m1. rewrite E. reflexivity.
    - unfold C_ms. intros. exact I.
    - (* member *)
      intros p k v IHv ms IHms S Q q i m L pre post cp Hm Hq HQ HS Hb Hf [Hok1 Hok2].
      rewrite t_ms_cons in *. cbn [need_ms] in *. apply fits_app in Hf as [Hf1 Hf2].
      destruct (next_ok d q i m (Some k) Hd Hq) as [Hn Hnv]. set (qn := nx d q i (Some k)) in *.
      cbn [ev_ms].
      set (oc := zlen pre + zlen (w_before p) + zlen k + 2 + zlen (w_colon p)).
      set (ov := oc + 1 + zlen (w_value p)).
      set (oe := ov + zlen (text v) + zlen (w_after p)).
      cbv zeta. cbn [PieceRun.clean]. split; [apply quiet; reflexivity|]. cbn [core_step e_tok].
      unfold do_ky at 1. cbn [c_ss c_qs c_cur c_tl]. rewrite Hn. cbn [bind].
      rewrite !push_ok by lia. intros c' E. injection E as <-.
      cbn [text_ms] in Hb.
      set (pre2 := pre ++ w_before p ++ (DQ :: k ++ [DQ]) ++ w_colon p ++ B ":" ++ w_value p).
      assert (Hp2 : zlen pre2 = ov).
      { unfold pre2, ov, oc. change (B ":") with [":"%char]. zlc. }
      assert (Hb2 : buf = pre2 ++ text v ++ (w_after p ++ match ms with MNil => [] | _ => B "," ++ text_ms ms end ++ post)).
      { rewrite Hb. unfold pre2. leq. }
      destruct (proj1 (machine_all d Hd buf Hlead Hnul) v (InKey (mkElt q i m) Q) (SKY :: S) (mkElt q i m :: Q) qn 0 MInv L pre2
                  (w_after p ++ match ms with MNil => [] | _ => B "," ++ text_ms ms end ++ post)
                  oc (lead_bt (w_after p))) as (c & Hrun & Haft).
      { discriminate. } { split; [eauto|reflexivity]. } { discriminate. } { exact Hnv. }
      { cbn [List.length]. lia. } { cbn [List.length]. lia. } { exact Hb2. } { exact Hf1. }
      rewrite Hp2 in Hrun. cbn [after in_arr tl] in Haft. subst c.
      replace (zlen pre + zlen (w_before p) + (zlen k + 2) + zlen (w_colon p) + 1 + zlen (w_value p)) with ov in Hok1, Hok2 by (unfold ov, oc; lia).
      apply clean_app.
      + assert (G := IHv (InKey (mkElt q i m) Q) (SKY :: S) (mkElt q i m :: Q) qn 0 MInv L pre2
                  (w_after p ++ match ms with MNil => [] | _ => B "," ++ text_ms ms end ++ post) oc (lead_bt (w_after p))).
        rewrite Hp2 in G. cbn [List.length before] in G. apply G; try lia; try assumption; try discriminate. split; [eauto|reflexivity].
      + intros c E. rewrite Hrun in E. injection E as <-.
        destruct ms as [|p' k' v' ms']; [exact I|].
        set (ms1 := MCons p' k' v' ms') in *.
        cbn [PieceRun.clean]. split; [apply quiet; reflexivity|]. cbn [core_step e_tok]. intros c E. injection E as <-.
        assert (G := IHms S Q q i m (L ++ t_val d false qn 0 v) (pre2 ++ text v ++ w_after p ++ B ",") post (oe + 1) Hm Hq HQ).
        replace (zlen (pre2 ++ text v ++ w_after p ++ B ",")) with (oe + 1) in G.
        2:{ unfold oe. change (B ",") with [","%char]. zlc. }
        apply G.
        * lia.
        * rewrite Hb. unfold pre2, ms1. leq.
        * exact Hf2.
        * replace (oe + 1) with (ov + zlen (text v) + zlen (w_after p) + 1) by (unfold oe; lia). exact Hok2.
    - unfold C_es. intros. exact I.
    - (* element *)
      intros wb v IHv wa es IHes S Q q i m L pre post cp Hm Hq HQ HS Hb Hf [Hok1 Hok2].
      rewrite t_es_cons in *. cbn [need_es] in *. apply fits_app in Hf as [Hf1 Hf2].
      cbn [ev_es].
      set (ov := zlen pre + zlen wb) in *.
      set (oe := ov + zlen (text v) + zlen wa).
      cbv zeta. cbn [text_es] in Hb.
      assert (Hb2 : buf = (pre ++ wb) ++ text v ++ (wa ++ match es with ENil => [] | _ => B "," ++ text_es es end ++ post)).
      { rewrite Hb. leq. }
      assert (Ez : zlen (pre ++ wb) = ov) by (unfold ov; zlc).
      destruct (proj1 (machine_all d Hd buf Hlead Hnul) v InArr (SLB :: S) Q q i m L (pre ++ wb)
                  (wa ++ match es with ENil => [] | _ => B "," ++ text_es es end ++ post)
                  cp (lead_bt wa)) as (c & Hrun & Haft).
      { discriminate. } { cbn. eauto. } { exact Hm. } { exact Hq. }
      { cbn [List.length]. lia. } { cbn [List.length]. lia. } { exact Hb2. } { exact Hf1. }
      rewrite Ez in Hrun. cbn [after in_arr] in Haft. destruct Haft as (m' & Hm' & _ & ->).
      apply clean_app.
      + assert (G := IHv InArr (SLB :: S) Q q i m L (pre ++ wb)
                  (wa ++ match es with ENil => [] | _ => B "," ++ text_es es end ++ post) cp (lead_bt wa)).
        rewrite Ez in G. cbn [List.length before] in G. apply G; try lia; try assumption; try discriminate. eauto.
      + intros c E. rewrite Hrun in E. injection E as <-.
        destruct es as [|wb' v' wa' es']; [exact I|].
        set (es1 := ECons wb' v' wa' es') in *.
        cbn [PieceRun.clean]. split; [apply quiet; reflexivity|]. cbn [core_step e_tok]. intros c E. injection E as <-.
        assert (G := IHes S Q q (i + 1) m' (L ++ t_val d true q i v) (pre ++ wb ++ text v ++ wa ++ B ",") post (oe + 1)).
        replace (zlen (pre ++ wb ++ text v ++ wa ++ B ",")) with (oe + 1) in G.
        2:{ unfold oe, ov. change (B ",") with [","%char]. zlc. }
        apply G; try assumption.
        * lia.
        * rewrite Hb. unfold es1. leq.
  Qed.
End Clean.

(** ** What is emitted, in terms of the query *)
Section Query.
  Variable q : query.
  Variables (d : dfa) (x : qctx) (st : list label -> Z).
  Hypothesis Hrbd : restricted_before_desc false q = true.
  Hypothesis Hslice : forallb slice_ok q = true.
  Hypothesis Hend : end_ok q = true.
  Hypothesis Hne : forall f, In f (query_fields q) -> f <> [].
  Hypothesis Hcp : compiled q d x st.
  Variable ks : list Z.

  Notation es := (es q st).
  Definition apart (l : list (path * Z * json)) : Prop :=
    forall p o v, In (p, o, v) l -> small (labels p) /\
      (is_container v = true -> lsel q (labels p) = true -> forall k, In k ks -> ~ straddles k o v).

  Lemma apart_app a b : apart (a ++ b) -> apart a /\ apart b.
  Proof. unfold apart. intros H. split; intros p o v Hin; apply H, in_or_app; auto. Qed.

  Lemma apart_free p o v l : apart (l ++ [(p, o, v)]) -> is_container v = true ->
    free d ks (es (labels p)) (ix (labels p)) o (text v) /\ apart l /\ small (labels p).
  Proof.
    intros H Hc. destruct (H p o v) as [Hs Hx]; [apply in_or_app; right; left; reflexivity|].
    split; [|split; [exact (proj1 (apart_app _ _ H))|exact Hs]].
    intros E. rewrite (mt_kd q d x st Hrbd Hslice Hend Hne Hcp _ Hs) in E.
    pose proof (kd_out q Hrbd Hslice Hend Hne (labels p)) as K. rewrite E in K. symmetry in K. change (DFA_OUTPUT_CANDIDATE =? DFA_OUTPUT_CANDIDATE) with true in K.
    apply Forall_forall. intros k Hk Hlt. pose proof (Hx Hc K k Hk) as Hn. unfold straddles in Hn. lia.
  Qed.

  Lemma apart_small p o v : apart (located p o v) -> small (labels p).
  Proof.
    intros H. destruct v; cbn [located] in H.
    - apply (H p o (JBare s)). left. reflexivity.
    - apply (H p o (JStr s)). left. reflexivity.
    - apply (H p o (JObj w ms)). apply in_or_app. right. left. reflexivity.
    - eapply H. apply in_or_app. right. left. reflexivity.
  Qed.

  Lemma ix_key w k : ix (w ++ [LKey k]) = 0.
  Proof. unfold ix. rewrite last_idx_key. reflexivity. Qed.

  Lemma ok_all :
    (forall v p o, apart (located p o v) -> ok_val d ks (es (labels p)) (ix (labels p)) o v) /\
    (forall ms p o, small (labels p) -> apart (located_ms p o ms) -> ok_ms d ks (es (labels p)) (ix (labels p)) o ms) /\
    (forall el p i o, small (labels p) -> apart (located_es p i o el) -> ok_es d ks (es (labels p ++ [LIdx 0])) (Z.of_nat i) o el).
  Proof.
    apply json_all_ind.
    - intros. exact I.
    - intros. exact I.
    - intros w ms IH p o H. cbn [located] in H. apply apart_free in H; [|reflexivity]. destruct H as (H1 & H2 & H3).
      cbn [ok_val]. split; [exact H1|apply IH; assumption].
    - intros w el IH p o H. cbn [located] in H. apply apart_free in H; [|reflexivity]. destruct H as (H1 & H2 & H3).
      cbn [ok_val]. split; [exact H1|]. change (@None bytes) with (linput (LIdx 0)). rewrite (nx_es q d x st Hrbd Hslice Hend Hne Hcp _ _ H3).
      apply (IH p O); assumption.
    - intros. exact I.
    - intros pd k v IHv ms IHms p o Hs H. cbn [located_ms] in H. apply apart_app in H as [H1 H2]. cbn [ok_ms]. split.
      + change (Some k) with (linput (LKey k)). rewrite (nx_es q d x st Hrbd Hslice Hend Hne Hcp _ _ Hs).
        specialize (IHv _ _ H1). rewrite labels_snoc, ix_key in IHv. exact IHv.
      + apply IHms; assumption.
    - intros. exact I.
    - intros wb v IHv wa el IHel p i o Hs H. cbn [located_es] in H. apply apart_app in H as [H1 H2]. cbn [ok_es]. split.
      + specialize (IHv _ _ H1). rewrite labels_snoc in IHv. rewrite (es_idx q d x st Hrbd Hslice Hend Hcp) in IHv. unfold ix in IHv. rewrite last_idx_idx in IHv. exact IHv.
      + replace (Z.of_nat i + 1) with (Z.of_nat (S i)) by lia. apply IHel; assumption.
  Qed.
End Query.

Lemma located_nodes :
  (forall v p o p' o' v', In (p', o', v') (located p o v) -> In (p', v') (nodes p v) /\ o <= o') /\
  (forall ms p o p' o' v', In (p', o', v') (located_ms p o ms) -> In (p', v') (nodes_ms p ms) /\ o <= o') /\
  (forall es p i o p' o' v', In (p', o', v') (located_es p i o es) -> In (p', v') (nodes_es p i es) /\ o <= o').
Proof.
  apply json_all_ind.
  - intros s p o p' o' v' [H|[]]. injection H as <- <- <-. split; [left; reflexivity|lia].
  - intros s p o p' o' v' [H|[]]. injection H as <- <- <-. split; [left; reflexivity|lia].
  - intros w ms IH p o p' o' v' H. cbn [located nodes] in *. apply in_app_or in H as [H|[H|[]]].
    + destruct (IH _ _ _ _ _ H) as [I1 I2]. pose proof (zlen_nonneg w). split; [apply in_or_app; auto|lia].
    + injection H as <- <- <-. split; [apply in_or_app; right; left; reflexivity|lia].
  - intros w ms IH p o p' o' v' H. cbn [located nodes] in *. apply in_app_or in H as [H|[H|[]]].
    + destruct (IH _ _ _ _ _ _ H) as [I1 I2]. pose proof (zlen_nonneg w). split; [apply in_or_app; auto|lia].
    + injection H as <- <- <-. split; [apply in_or_app; right; left; reflexivity|lia].
  - intros p o p' o' v' [].
  - intros pd k v IHv ms IHms p o p' o' v' H. cbn [located_ms nodes_ms] in *.
    pose proof (zlen_nonneg (w_before pd)). pose proof (zlen_nonneg k). pose proof (zlen_nonneg (w_colon pd)).
    pose proof (zlen_nonneg (w_value pd)). pose proof (zlen_nonneg (w_after pd)). pose proof (zlen_nonneg (text v)).
    apply in_app_or in H as [H|H].
    + destruct (IHv _ _ _ _ _ H) as [I1 I2]. split; [apply in_or_app; auto|lia].
    + destruct (IHms _ _ _ _ _ H) as [I1 I2]. split; [apply in_or_app; auto|lia].
  - intros p i o p' o' v' [].
  - intros wb v IHv wa es IHes p i o p' o' v' H. cbn [located_es nodes_es] in *.
    pose proof (zlen_nonneg wb). pose proof (zlen_nonneg wa). pose proof (zlen_nonneg (text v)).
    apply in_app_or in H as [H|H].
    + destruct (IHv _ _ _ _ _ H) as [I1 I2]. split; [apply in_or_app; auto|lia].
    + destruct (IHes _ _ _ _ _ _ H) as [I1 I2]. split; [apply in_or_app; auto|lia].
Qed.

Lemma map_marks_eq dc evs : lex_all (doc_text dc) = Ok evs -> wf_doc dc = true -> lex_safe (d_val dc) = true -> tame (d_val dc) = true ->
  map mark evs = marks 0 (items_doc dc).
Proof.
  intros He Hwf Hs Ht. destruct (flat_lex _ _ (doc_flat dc Hwf Hs Ht) (doc_no_nul dc Hwf)) as (evs' & E & Em). congruence.
Qed.

Section Doc.
  Variable q : query.
  Variables (d : dfa) (x : qctx) (st : list label -> Z).
  Hypothesis Hrbd : restricted_before_desc false q = true.
  Hypothesis Hslice : forallb slice_ok q = true.
  Hypothesis Hend : end_ok q = true.
  Hypothesis Hne : forall f, In f (query_fields q) -> f <> [].
  Hypothesis Hcp : compiled q d x st.

  (** The tuples of the pieces are the tuples of the whole. *)
  Theorem feed_doc dc p ps c : wf_doc dc = true -> lex_safe (d_val dc) = true -> tame (d_val dc) = true ->
    lead_blanks (d_pre dc) = O -> zlen (text (d_val dc)) <= INT_MAX ->
    (stack_need (d_val dc) <= 100)%nat -> fits [] (t_val d false 1 0 (d_val dc)) ->
    executeAutomaton d (doc_text dc) init_core = Ok c ->
    concat (p :: ps) = doc_text dc -> well_cut p ps = true ->
    (forall k w o v, In k (cuts (zlen p) ps) -> In (w, o, v) (doc_located dc) -> is_container v = true ->
       lsel q (labels w) = true -> ~ straddles k o v) ->
    exists c', feed d (p :: ps) init_core = Ok c' /\ c_tl c' = c_tl c.
  Proof.
    intros Hwf Hsafe Ht Hlead Hsize Hneed Hfit He Hcc Hw Hst.
    set (T := doc_text dc) in *. set (ks := cuts 0 (p :: ps)).
    assert (Hnn : no_nul T) by (apply doc_no_nul, Hwf).
    assert (Hc : is_container (d_val dc) = true) by (unfold wf_doc in Hwf; andb_split; assumption).
    assert (Hl : lead_blanks T = O).
    { unfold T, doc_text. destruct (d_pre dc) as [|y l]; cbn in *.
      - destruct (d_val dc); try discriminate; reflexivity.
      - destruct (Ascii.eqb y " "%char); [discriminate|reflexivity]. }
    unfold executeAutomaton in He. unfold T in He. rewrite (lex_doc dc Hwf Hsafe) in He. cbn [bind] in He. fold T in He. rewrite c_string_id in He by exact Hnn.
    assert (Hap : apart q ks (located [] (zlen (d_pre dc)) (d_val dc))).
    { intros w o v Hin. split.
      - apply (nodes_small (d_val dc) (w, v) Hsize). apply (proj1 located_nodes) in Hin. apply Hin.
      - intros Hv Hsel k Hk. unfold ks in Hk. cbn [cuts] in Hk. destruct Hk as [<-|Hk].
        + apply (proj1 located_nodes) in Hin. pose proof (zlen_nonneg (d_pre dc)). unfold straddles. lia.
        + eapply Hst; eauto. }
    pose proof (proj1 (ok_all q d x st Hrbd Hslice Hend Hne Hcp ks) _ _ _ Hap) as Hok.
    assert (Es : es q st (labels []) = 1).
    { unfold es, alive. cbn. apply (cp_start _ _ _ _ Hcp). }
    change (ix (labels [])) with 0 in Hok. rewrite Es in Hok.
    pose proof (cp_valid _ _ _ _ Hcp []) as Hv1. rewrite (cp_start _ _ _ _ Hcp) in Hv1.
    assert (Hcl : clean d ks T (doc_events dc) init_core).
    { unfold doc_events, init_core. apply (proj1 (clean_all d (cp_ok _ _ _ _ Hcp) T Hl Hnn ks)) with (p := AtRoot) (post := d_post dc); auto.
      - congruence.
      - reflexivity.
      - discriminate. }
    pose proof (doc_flat dc Hwf Hsafe Ht) as Hfl. fold T in Hfl. rewrite <- Hcc in Hfl.
    destruct (flat_pieces ps p _ Hfl Hw) as (ls & Fs & Em).
    destruct (pieces_sim d T ks Hl Hnn (p :: ps) ls [] (doc_events dc) init_core init_core c) as (c' & m & F1 & F2); auto.
    - assert (G : forall a b, well_cut a b = true -> Forall (fun p => lead_blanks p = O) b).
      { clear. intros a b. revert a. induction b as [|b0 b IH]; intros a H; [constructor|]. cbn [well_cut] in H. apply andb_true_iff in H as [H1 H2]. constructor; [|eapply IH; eauto].
        unfold cut_at in H1. destruct b0 as [|z b0]; [discriminate|]. apply andb_true_iff in H1 as [H1 _]. apply Ascii.eqb_eq in H1. subst z. reflexivity. }
      constructor; [|eapply G; eauto]. rewrite <- Hcc in Hl. cbn [concat] in Hl. destruct p as [|y p]; [reflexivity|]. cbn in Hl |- *. destruct (Ascii.eqb y " "%char); [discriminate|reflexivity].
    - apply incl_refl.
    - change (zlen (@nil ascii)) with 0; rewrite <- Em. apply map_marks_eq; auto. apply lex_doc; auto.
    - repeat split; auto. constructor.
    - constructor; [exact I|constructor].
    - exists c'. split; [exact F1|]. symmetry. apply F2.
  Qed.
End Doc.
