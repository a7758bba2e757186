(** Cuts that do not fall into an array whose elements are selected or restricted by
    a slice, and fall into one whose elements a filter decides on only if the first cut
    does: where the run of the serial engine passes such a cut directly in an array,
    the elements of that array are not output, no state on the stacks has a slice, and
    the arrays with a filter were opened before the first cut. *)
From Verif Require Import TrainSpec Worker Chains WorkRep Shared MalSpec NestSpec Single Units.
From Verif Require Import Base Spec PosSpec QueryClass Util Lexer LexProof LexDoc LexMain LexSpec LexClaim Flat CutSpec Cut Loader LoaderProof Dfa Constraint Stream TreeSem TreeInv Pieces PieceRun.
From Verif Require Import Compress Builder AutoProof BuilderProof Roles Compiled TreeSel SelProof PieceDoc Specul.
Open Scope Z_scope.

Section Calm.
  Variable d : dfa.
  Hypothesis Hd : dfa_ok d.
  Variable buf : bytes.
  Hypothesis Hlead : lead_blanks buf = O.
  Hypothesis Hnul : no_nul buf.
  Variable ks : list Z.

  Notation run := (foldM (core_step d buf)).

  (** No cut in [lo, hi). *)
  Definition safe (lo hi : Z) : Prop := forall k, In k ks -> ~ (lo <= k < hi).
  Definition freeb (s : Z) : bool := match zread (d_range d) s with Ok (lo, hi) => (lo =? 0) && (hi =? 0) | UB _ => false end.
  Lemma freeb_ok s : freeb s = true -> Specul.free d s.
  Proof. clear. unfold freeb, Specul.free. destruct (zread (d_range d) s) as [[lo hi]|]; [|discriminate]. intros H. apply andb_true_iff in H as [H1 H2]. apply Z.eqb_eq in H1, H2. congruence. Qed.
  Definition outb (s : Z) : bool := acc d s =? DFA_OUTPUT_CANDIDATE.
  Definition frees (es : list elt) : bool := forallb (fun e => freeb (q_state e)) es.

  (** What is open, with the offset behind the token that opened it. *)
  Definition vdone (lp : list (opened * Z)) : list (opened * Z) := match lp with (OKey, _) :: r => r | _ => lp end.
  Definition ponto (lp : list (opened * Z)) (ev : event) : list (opened * Z) :=
    match e_tok ev with
    | TLCB => (OBrace, e_next ev) :: lp
    | TLB => (OBracket, e_next ev) :: lp
    | TKY _ => (OKey, e_next ev) :: lp
    | TRCB | TRB => vdone (tl lp)
    | TPRI _ => vdone lp
    | TCOM | TEND => lp
    end.
  Definition pafter (lp : list (opened * Z)) (evs : list event) : list (opened * Z) := fold_left ponto evs lp.
  Lemma vdone_fst lp : map fst (vdone lp) = value_done (map fst lp).
  Proof. destruct lp as [|[[] z] lp]; reflexivity. Qed.
  Lemma ponto_fst lp ev : map fst (ponto lp ev) = onto (map fst lp) (e_tok ev).
  Proof. unfold ponto. destruct (e_tok ev); cbn [map fst onto]; rewrite ?vdone_fst; try reflexivity; destruct lp; reflexivity. Qed.
  Lemma pafter_fst : forall evs lp, map fst (pafter lp evs) = Units.after (map fst lp) evs.
  Proof. unfold pafter, Units.after. induction evs as [|ev evs IH]; intros lp; [reflexivity|]. cbn [fold_left map]. rewrite IH, ponto_fst. reflexivity. Qed.
  Lemma pafter_app lp a b : pafter lp (a ++ b) = pafter (pafter lp a) b.
  Proof. apply fold_left_app. Qed.
  Lemma pafter_cons lp ev evs : pafter lp (ev :: evs) = pafter (ponto lp ev) evs.
  Proof. reflexivity. Qed.
  (** The tokens of a value leave open what was open. *)
  Lemma pdone_all :
    (forall v lp cp o tb, pafter lp (ev_val cp o tb v) = vdone lp) /\
    (forall ms z lp cp o, pafter ((OBrace, z) :: lp) (ev_ms cp o ms) = (OBrace, z) :: lp) /\
    (forall es z lp cp o, pafter ((OBracket, z) :: lp) (ev_es cp o es) = (OBracket, z) :: lp).
  Proof.
    apply json_all_ind; cbn [ev_val ev_ms ev_es]; auto.
    - intros w ms IH lp cp o tb. rewrite pafter_cons, pafter_app. unfold ponto at 1. cbn [e_tok e_next]. rewrite IH. reflexivity.
    - intros w es IH lp cp o tb. rewrite pafter_cons, pafter_app. unfold ponto at 1. cbn [e_tok e_next]. rewrite IH. reflexivity.
    - intros w k v IHv ms IHm z lp cp o. rewrite pafter_cons, pafter_app. unfold ponto at 1. cbn [e_tok e_next]. rewrite IHv. cbn [vdone].
      destruct ms; [reflexivity|]. rewrite pafter_cons. unfold ponto at 1. cbn [e_tok]. apply IHm.
    - intros w v IHv wa es IHe z lp cp o. rewrite pafter_app, IHv. cbn [vdone]. destruct es; [reflexivity|]. rewrite pafter_cons. unfold ponto at 1. cbn [e_tok]. apply IHe.
  Qed.

  (** The elements of the open arrays are no values of tested fields, and a filter
      decides on them only if their array was opened before [n0]. *)
  Variable n0 : Z.
  Fixpoint anchored (lp : list (opened * Z)) (es : list elt) : Prop :=
    match lp with
    | [] => True
    | (OBrace, _) :: lp' => anchored lp' es
    | (OKey, _) :: lp' => anchored lp' (tl es)
    | (OBracket, z) :: lp' => match es with e :: es' => acc d (q_state e) <> DFA_CONDITION /\ (acc d (q_state e) = DFA_PREDICATE -> z <= n0) /\ anchored lp' es' | [] => False end
    end.
  Lemma anchored_states : forall lp es es', map q_state es' = map q_state es -> anchored lp es -> anchored lp es'.
  Proof.
    induction lp as [|[[] z] lp IH]; intros es es' E H; cbn [anchored] in *; auto.
    - apply (IH (tl es)); auto. destruct es, es'; cbn in *; try discriminate; auto. injection E as _ E. exact E.
    - eapply IH; eauto.
    - destruct es as [|e es]; [contradiction|]. destruct es' as [|e' es']; [discriminate|]. cbn [map] in E. injection E as E1 E2. rewrite E1. destruct H as (H1 & H2 & H3). repeat split; auto. eapply IH; eauto.
  Qed.

  Definition still (pos : Z) (lp : list (opened * Z)) (c : core) (ev : event) : Prop :=
    (hd_error (c_ss c) = Some SLB -> outb (q_state (c_cur c)) = true -> safe pos (e_next ev)) /\ (frees (c_cur c :: c_qs c) = false -> safe pos (e_next ev)) /\
    (anchored lp (c_cur c :: c_qs c) \/ safe pos (e_next ev)).
  (** [pos]: how far the tokens have reached; no cut lies in what is read next. *)
  Fixpoint calm (pos : Z) (lp : list (opened * Z)) (evs : list event) (c : core) : Prop :=
    match evs with
    | [] => True
    | ev :: r => still pos lp c ev /\ forall c', core_step d buf c ev = Ok c' -> calm (Z.max pos (e_next ev)) (ponto lp ev) r c'
    end.
  Definition reached (pos : Z) (evs : list event) : Z := fold_left (fun p ev => Z.max p (e_next ev)) evs pos.
  Lemma reached_ge : forall evs pos, pos <= reached pos evs.
  Proof. clear. induction evs as [|ev evs IH]; intros pos; cbn; [lia|]. specialize (IH (Z.max pos (e_next ev))). unfold reached in IH. lia. Qed.
  Lemma reached_le : forall evs pos n, pos <= n -> Forall (fun ev => e_next ev <= n) evs -> reached pos evs <= n.
  Proof. clear. induction evs as [|ev evs IH]; intros pos n H Hf; cbn; [lia|]. apply Forall_cons_iff in Hf as [H1 H2]. apply IH; [lia|exact H2]. Qed.
  Lemma calm_app : forall a b c pos lp, calm pos lp a c -> (forall c', run a c = Ok c' -> calm (reached pos a) (pafter lp a) b c') -> calm pos lp (a ++ b) c.
  Proof.
    induction a as [|ev a IH]; intros b c pos lp H1 H2; cbn [app calm] in *; [apply H2; reflexivity|].
    destruct H1 as [H1 H3]. split; [exact H1|]. intros c' E. apply IH; [apply H3, E|]. intros c'' E2. apply H2. cbn [foldM]. rewrite E. exact E2.
  Qed.
  Lemma calm_split : forall a b c pos lp, calm pos lp (a ++ b) c -> calm pos lp a c /\ forall c', run a c = Ok c' -> calm (reached pos a) (pafter lp a) b c'.
  Proof.
    induction a as [|ev a IH]; intros b c pos lp H; cbn [app calm] in *.
    - split; [exact I|]. intros c' E. injection E as <-. exact H.
    - destruct H as [H1 H2]. split.
      + split; [exact H1|]. intros c' E. apply (IH b c' _ _ (H2 c' E)).
      + intros c' E. cbn [foldM] in E. destruct (core_step d buf c ev) as [c1|] eqn:E1; [|discriminate]. cbn [bind] in E. apply (IH b c1 _ _ (H2 c1 eq_refl)), E.
  Qed.

  (** The arrays of a value whose elements are output or restricted by a slice contain
      no cut; those whose elements a filter decides on contain none either or were
      opened before [n0]. *)
  Fixpoint ar_val (q i o : Z) (v : json) : Prop :=
    match v with
    | JBare _ | JStr _ => True
    | JObj w ms => ar_ms q i (o + 1 + zlen w) ms
    | JArr w es => let qn := nx d q i None in
        (outb qn = true \/ freeb qn = false -> safe (o + 1) (o + zlen (text v))) /\ acc d qn <> DFA_CONDITION /\
        (acc d qn = DFA_PREDICATE -> o + 1 <= n0 \/ safe (o + 1) (o + zlen (text v))) /\ ar_es qn 0 (o + 1 + zlen w) es
    end
  with ar_ms (q i o : Z) (ms : members) : Prop :=
    match ms with
    | MNil => True
    | MCons pd k v ms' =>
        let ov := o + zlen (w_before pd) + (zlen k + 2) + zlen (w_colon pd) + 1 + zlen (w_value pd) in
        freeb (nx d q i (Some k)) = true /\ ar_val (nx d q i (Some k)) 0 ov v /\ ar_ms q i (ov + zlen (text v) + zlen (w_after pd) + 1) ms'
    end
  with ar_es (q i o : Z) (es : elements) : Prop :=
    match es with
    | ENil => True
    | ECons wb v wa es' => ar_val q i (o + zlen wb) v /\ ar_es q (i + 1) (o + zlen wb + zlen (text v) + zlen wa + 1) es'
    end.

  Definition K_val (v : json) : Prop :=
    forall p S Q q i ms L pre post cp tb pos hi lp,
    (is_container v = false -> p <> AtRoot) ->
    before p S Q -> ms <> MUninit -> valid_state d q ->
    (List.length Q <= List.length S)%nat ->
    (List.length S + stack_need v <= 100)%nat ->
    buf = pre ++ text v ++ post ->
    fits L (t_val d (in_arr p) q i v) -> ar_val q i (zlen pre) v ->
    (hd_error S = Some SLB -> outb q = true -> safe pos hi) -> (frees (mkElt q i ms :: Q) = false -> safe pos hi) -> (anchored lp (mkElt q i ms :: Q) \/ safe pos hi) -> 0 <= tb -> zlen pre + zlen (text v) + tb <= hi ->
    calm pos lp (ev_val cp (zlen pre) tb v) (mkCore S Q (mkElt q i ms) L).
  Definition K_ms (ms : members) : Prop :=
    forall S Q q i m L pre post cp pos hi z lp,
    m <> MUninit -> valid_state d q ->
    (List.length Q <= List.length S)%nat ->
    (List.length S + need_ms ms <= 100)%nat ->
    buf = pre ++ text_ms ms ++ post ->
    fits L (t_ms d q i ms) -> ar_ms q i (zlen pre) ms -> hd_error S = Some SLCB ->
    (frees (mkElt q i m :: Q) = false -> safe pos hi) -> (anchored lp (mkElt q i m :: Q) \/ safe pos hi) -> zlen pre + zlen (text_ms ms) <= hi ->
    calm pos ((OBrace, z) :: lp) (ev_ms cp (zlen pre) ms) (mkCore S Q (mkElt q i m) L).
  Definition K_es (es : elements) : Prop :=
    forall S Q q i m L pre post cp pos hi z lp,
    m <> MUninit -> valid_state d q ->
    (List.length Q <= Datatypes.S (List.length S))%nat ->
    (Datatypes.S (List.length S) + need_es es <= 100)%nat ->
    buf = pre ++ text_es es ++ post ->
    fits L (t_es d q i es) -> ar_es q i (zlen pre) es -> (outb q = true -> safe pos hi) -> (frees (mkElt q i m :: Q) = false -> safe pos hi) -> (anchored ((OBracket, z) :: lp) (mkElt q i m :: Q) \/ safe pos hi) -> zlen pre + zlen (text_es es) <= hi ->
    calm pos ((OBracket, z) :: lp) (ev_es cp (zlen pre) es) (mkCore (SLB :: S) Q (mkElt q i m) L).

  Lemma safe_less lo hi lo' hi' : safe lo hi -> lo <= lo' -> hi' <= hi -> safe lo' hi'.
  Proof. intros H H1 H2 k Hk. specialize (H k Hk). lia. Qed.

  Lemma anch_less p0 pos hi hi' lp lp' es es' : (anchored lp es \/ safe p0 hi) -> (anchored lp es -> anchored lp' es') -> p0 <= pos -> hi' <= hi -> anchored lp' es' \/ safe pos hi'.
  Proof. intros [H|H] H1 H2 H3; [left; auto|right; eapply safe_less; eauto]. Qed.
  Lemma anch_ms lp q i m m' Q : anchored lp (mkElt q i m :: Q) -> anchored lp (mkElt q i m' :: Q).
  Proof. apply anchored_states. reflexivity. Qed.
  Lemma still_of p0 pos hi lp S Q e L ev : (hd_error S = Some SLB -> outb (q_state e) = true -> safe p0 hi) -> (frees (e :: Q) = false -> safe p0 hi) ->
    (anchored lp (e :: Q) \/ safe p0 hi) -> p0 <= pos -> e_next ev <= hi -> still pos lp (mkCore S Q e L) ev.
  Proof.
    intros H1 H2 H3 H4 H5. repeat split; cbn [c_ss c_cur c_qs].
    - intros A B. eapply safe_less; eauto.
    - intros A. eapply safe_less; eauto.
    - eapply anch_less; eauto.
  Qed.

  Lemma calm_all : (forall v, K_val v) /\ (forall ms, K_ms ms) /\ (forall es, K_es es).
  Proof.
    apply json_all_ind.
    - intros s p S Q q i ms L pre post cp tb pos hi lp _ _ _ _ _ _ _ _ _ Hh Hg Ha Htb Hhi. cbn [ev_val calm]. split; [|auto].
      cbn [text] in Hhi. eapply still_of; eauto; cbn [e_next]; lia.
    - intros s p S Q q i ms L pre post cp tb pos hi lp _ _ _ _ _ _ _ _ _ Hh Hg Ha Htb Hhi. cbn [ev_val calm]. split; [|auto].
      cbn [text] in Hhi. rewrite zlen_cons, zlen_app in Hhi. change (zlen [DQ]) with 1 in Hhi. eapply still_of; eauto; cbn [e_next]; lia.
    - (* object *)
      intros w ms IH p S Q q i m L pre post cp tb pos hi lp _ Hbef Hm Hq HQ HS Hb Hf Hok Hh Hg Ha Htb Hhi.
      rewrite t_val_obj in *. set (txt := text (JObj w ms)) in *.
      apply fits_mid in Hf as (Hf1 & Hf2 & Hf3). apply fits_app in Hf3 as [Hf3 Hf4].
      cbn [stack_need] in HS. cbn [ev_val]. fold txt.
      set (m1 := if mt d q i =? DFA_OUTPUT_CANDIDATE then MAt (zlen pre) else m).
      assert (Hm1 : m1 <> MUninit) by (unfold m1; destruct (_ =? _); [discriminate|exact Hm]).
      assert (Hb2 : buf = (pre ++ B "{" ++ w) ++ text_ms ms ++ (B "}" ++ post)).
      { rewrite Hb. unfold txt. cbn [text]. leq. }
      assert (Ez : zlen (pre ++ B "{" ++ w) = zlen pre + 1 + zlen w) by (change (B "{") with ["{"%char]; zlc).
      assert (Hlen : zlen txt = 1 + zlen w + zlen (text_ms ms) + 1).
      { unfold txt. cbn [text]. change (B "{") with ["{"%char]. change (B "}") with ["}"%char]. rewrite !zlen_app.
        change (zlen ["{"%char]) with 1. change (zlen ["}"%char]) with 1. lia. }
      pose proof (zlen_nonneg w) as Hw0. pose proof (zlen_nonneg (text_ms ms)) as He0.
      cbn [calm]. split.
      { eapply still_of; eauto; cbn [e_next]; lia. }
      cbn [core_step e_tok e_next].
      rewrite (open_obj_ok d Hd buf Hlead S Q q i m L (zlen pre)); [|lia|exact Hq|exact Hf1]. intros c' E. injection E as <-. fold m1.
      assert (Hbody := proj1 (proj2 (machine_all d Hd buf Hlead Hnul)) ms (SLCB :: S) Q q i m1 (L ++ t_open_obj d q i)
                (pre ++ B "{" ++ w) (B "}" ++ post) (zlen pre + 1) Hm1 Hq).
      rewrite Ez in Hbody. cbn [List.length] in Hbody.
      specialize (Hbody ltac:(lia) ltac:(lia) Hb2 Hf2).
      apply calm_app.
      + assert (G := IH (SLCB :: S) Q q i m1 (L ++ t_open_obj d q i) (pre ++ B "{" ++ w) (B "}" ++ post) (zlen pre + 1) (Z.max pos (zlen pre + 1)) hi (zlen pre + 1) lp Hm1 Hq).
        rewrite Ez in G. cbn [List.length] in G. apply G; try lia; try assumption; [reflexivity| |].
        { intros H1. eapply safe_less; [exact (Hg H1)|lia|lia]. }
        eapply anch_less; [exact Ha|cbn [anchored]; apply anch_ms|lia|lia].
      + intros c' E. rewrite Hbody in E. injection E as <-. cbn [calm]. split; [|auto].
        unfold ponto at 1. cbn [e_tok e_next]. rewrite (proj1 (proj2 pdone_all)).
        pose proof (reached_ge (ev_ms (zlen pre + 1) (zlen pre + 1 + zlen w) ms) (Z.max pos (zlen pre + 1))).
        eapply still_of; [discriminate|exact Hg| |lia|cbn [e_next]; lia].
        eapply anch_less; [exact Ha|cbn [anchored]; apply anch_ms|lia|lia].
    - (* array *)
      intros w es IH p S Q q i m L pre post cp tb pos hi lp _ Hbef Hm Hq HQ HS Hb Hf (Hsafe & Hnc & Hpr & Hok) Hh Hg Ha Htb Hhi.
      rewrite t_val_arr in *. set (txt := text (JArr w es)) in *.
      apply fits_mid in Hf as (Hf1 & Hf2 & Hf3).
      cbn [stack_need] in HS. cbn [ev_val]. fold txt.
      destruct (next_ok d q i m None Hd Hq) as [_ Hnv]. set (qn := nx d q i None) in *.
      set (m1 := if mt d q i =? DFA_OUTPUT_CANDIDATE then MAt (zlen pre) else m).
      assert (Hb2 : buf = (pre ++ B "[" ++ w) ++ text_es es ++ (B "]" ++ post)).
      { rewrite Hb. unfold txt. cbn [text]. leq. }
      assert (Ez : zlen (pre ++ B "[" ++ w) = zlen pre + 1 + zlen w) by (change (B "[") with ["["%char]; zlc).
      assert (Hlen : zlen txt = 1 + zlen w + zlen (text_es es) + 1).
      { unfold txt. cbn [text]. change (B "[") with ["["%char]. change (B "]") with ["]"%char]. rewrite !zlen_app. 
        change (zlen ["["%char]) with 1. change (zlen ["]"%char]) with 1. lia. }
      pose proof (zlen_nonneg w) as Hw0. pose proof (zlen_nonneg (text_es es)) as He0.
      cbn [calm]. split.
      { eapply still_of; eauto; cbn [e_next]; lia. }
      cbn [core_step e_tok e_next].
      rewrite (open_arr_ok d Hd buf Hlead S Q q i m L (zlen pre)); [|lia|lia|exact Hq|exact Hf1]. intros c' E. injection E as <-. fold m1 qn.
      destruct (proj2 (proj2 (machine_all d Hd buf Hlead Hnul)) es S (mkElt q i m1 :: Q) qn 0 MInv (L ++ t_open_arr d q i)
                (pre ++ B "[" ++ w) (B "]" ++ post) (zlen pre + 1)) as (m' & Hm' & Hbody).
      { discriminate. } { exact Hnv. } { cbn [List.length]. lia. } { lia. } { exact Hb2. } { exact Hf2. }
      rewrite Ez in Hbody.
      assert (Hin : forall m2, frees (mkElt qn 0 m2 :: mkElt q i m1 :: Q) = false -> safe (Z.max pos (zlen pre + 1)) (zlen pre + zlen txt)).
      { intros m2 H. unfold frees in H, Hg. cbn [forallb q_state] in H, Hg. destruct (freeb qn); [cbn [andb] in H; eapply safe_less; [exact (Hg H)|lia|lia]|].
        eapply safe_less; [apply Hsafe; right; reflexivity|lia|lia]. }
      assert (Hanc : forall m2, anchored ((OBracket, zlen pre + 1) :: lp) (mkElt qn 0 m2 :: mkElt q i m1 :: Q) \/ safe (Z.max pos (zlen pre + 1)) (zlen pre + zlen txt)).
      { intros m2. destruct Ha as [Ha|Ha]; [|right; eapply safe_less; [exact Ha|lia|lia]].
        destruct (Z.eq_dec (acc d qn) DFA_PREDICATE) as [Ep|Ep].
        - destruct (Hpr Ep) as [Hz|Hz]; [left|right; eapply safe_less; [exact Hz|lia|lia]]. cbn [anchored q_state]. split; [exact Hnc|]. split; [intros _; exact Hz|]. eapply anch_ms, Ha.
        - left. cbn [anchored q_state]. split; [exact Hnc|]. split; [intros H; contradiction|]. eapply anch_ms, Ha. }
      apply calm_app.
      + assert (G := IH S (mkElt q i m1 :: Q) qn 0 MInv (L ++ t_open_arr d q i) (pre ++ B "[" ++ w) (B "]" ++ post) (zlen pre + 1) (Z.max pos (zlen pre + 1)) (zlen pre + zlen txt) (zlen pre + 1) lp).
        rewrite Ez in G. cbn [List.length] in G. apply G; try lia; try assumption; [discriminate| |exact (Hin MInv)|exact (Hanc MInv)].
        intros H1. eapply safe_less; [exact (Hsafe (or_introl H1))|lia|lia].
      + intros c' E. rewrite Hbody in E. injection E as <-. cbn [calm]. split; [|auto].
        pose proof (reached_ge (ev_es (zlen pre + 1) (zlen pre + 1 + zlen w) es) (Z.max pos (zlen pre + 1))).
        unfold ponto at 1. cbn [e_tok e_next]. rewrite (proj2 (proj2 pdone_all)).
        eapply still_of; [intros _ H2; eapply safe_less; [exact (Hsafe (or_introl H2))| |]|exact (Hin m')|exact (Hanc m')| |cbn [e_next]; lia]; lia.
    - unfold K_ms. intros. exact I.
    - (* member *)
      intros p k v IHv ms IHms S Q q i m L pre post cp pos hi z lp Hm Hq HQ HS Hb Hf (Hok0 & Hok1 & Hok2) Hsc Hg Ha Hhi.
      rewrite t_ms_cons in *. cbn [need_ms] in *. apply fits_app in Hf as [Hf1 Hf2].
      destruct (next_ok d q i m (Some k) Hd Hq) as [Hn Hnv]. set (qn := nx d q i (Some k)) in *.
      cbn [ev_ms].
      set (oc := zlen pre + zlen (w_before p) + zlen k + 2 + zlen (w_colon p)).
      set (ov := oc + 1 + zlen (w_value p)).
      set (oe := ov + zlen (text v) + zlen (w_after p)).
      assert (Hbig : oe + match ms with MNil => 0 | _ => 1 + zlen (text_ms ms) end <= hi).
      { clear - Hhi. unfold oe, ov, oc. cbn [text_ms] in Hhi. rewrite !zlen_app, zlen_cons, zlen_app in Hhi. change (B ":") with [":"%char] in Hhi. change (zlen [":"%char]) with 1 in Hhi. change (zlen [DQ]) with 1 in Hhi.
        destruct ms; [change (zlen (@nil ascii)) with 0 in Hhi; lia|].
        change (B ",") with [","%char] in Hhi. rewrite zlen_app in Hhi. change (zlen [","%char]) with 1 in Hhi. lia. }
      assert (Hoe : oe <= hi). { destruct ms as [|? ? ? e0]; [lia|]. match type of Hbig with context [zlen ?t] => pose proof (zlen_nonneg t) end. lia. }
      pose proof (lead_bt_le (w_after p)) as Hbt. pose proof (zlen_nonneg (text v)) as Hv0. pose proof (zlen_nonneg (w_after p)) as Hw0. pose proof (zlen_nonneg (w_value p)) as Hw1.
      assert (Hov : oc + 1 <= ov /\ ov <= oe /\ ov + zlen (text v) + lead_bt (w_after p) <= oe) by (unfold oe, ov; lia).
      cbv zeta. cbn [calm]. split.
      { eapply still_of; [intros H1; congruence|exact Hg|exact Ha|lia|cbn [e_next]; unfold oc in *; lia]. }
      cbn [core_step e_tok e_next].
      unfold do_ky at 1. cbn [c_ss c_qs c_cur c_tl]. rewrite Hn. cbn [bind].
      rewrite !push_ok by lia. intros c' E. injection E as <-.
      cbn [text_ms] in Hb.
      set (pre2 := pre ++ w_before p ++ (DQ :: k ++ [DQ]) ++ w_colon p ++ B ":" ++ w_value p).
      assert (Hp2 : zlen pre2 = ov).
      { unfold pre2, ov, oc. change (B ":") with [":"%char]. zlc. }
      assert (Hb2 : buf = pre2 ++ text v ++ (w_after p ++ match ms with MNil => [] | _ => B "," ++ text_ms ms end ++ post)).
      { rewrite Hb. unfold pre2. leq. }
      destruct (proj1 (machine_all d Hd buf Hlead Hnul) v (InKey (mkElt q i m) Q) (SKY :: S) (mkElt q i m :: Q) qn 0 MInv L pre2
                  (w_after p ++ match ms with MNil => [] | _ => B "," ++ text_ms ms end ++ post)
                  oc (lead_bt (w_after p))) as (c & Hrun & Haft).
      { discriminate. } { split; [eauto|reflexivity]. } { discriminate. } { exact Hnv. }
      { cbn [List.length]. lia. } { cbn [List.length]. lia. } { exact Hb2. } { exact Hf1. }
      rewrite Hp2 in Hrun. cbn [TreeSem.after in_arr tl] in Haft. subst c.
      replace (zlen pre + zlen (w_before p) + (zlen k + 2) + zlen (w_colon p) + 1 + zlen (w_value p)) with ov in Hok1, Hok2 by (unfold ov, oc; lia).
      apply calm_app.
      + assert (G := IHv (InKey (mkElt q i m) Q) (SKY :: S) (mkElt q i m :: Q) qn 0 MInv L pre2
                  (w_after p ++ match ms with MNil => [] | _ => B "," ++ text_ms ms end ++ post) oc (lead_bt (w_after p)) (Z.max pos (oc + 1))
                  (ov + zlen (text v) + lead_bt (w_after p)) ((OKey, oc + 1) :: (OBrace, z) :: lp)).
        rewrite Hp2 in G. cbn [List.length before hd_error] in G.
        apply G; try lia; try assumption; try discriminate; [split; [eauto|reflexivity]| |].
        { intros H1. assert (H2 : frees (mkElt q i m :: Q) = false).
          { unfold frees in *. cbn [forallb q_state] in *. rewrite Hok0 in H1. exact H1. }
          eapply safe_less; [exact (Hg H2)|lia|lia]. }
        eapply anch_less; [exact Ha|auto|lia|lia].
      + intros c E. rewrite Hrun in E. injection E as <-.
        destruct ms as [|p' k' v' ms']; [exact I|].
        set (ms1 := MCons p' k' v' ms') in *.
        pose proof (zlen_nonneg (text_ms ms1)) as He0.
        pose proof (reached_ge (ev_val oc ov (lead_bt (w_after p)) v) (Z.max pos (oc + 1))) as Hrg.
        unfold ponto at 1. cbn [e_tok e_next]. rewrite (proj1 pdone_all). cbn [vdone].
        cbn [calm]. split.
        { eapply still_of; [intros H1; congruence|exact Hg|exact Ha|lia|cbn [e_next]; lia]. }
        cbn [core_step e_tok e_next]. intros c E. injection E as <-.
        match goal with |- calm ?P _ _ _ => assert (G := IHms S Q q i m (L ++ t_val d false qn 0 v) (pre2 ++ text v ++ w_after p ++ B ",") post (oe + 1) P hi z lp Hm Hq HQ) end.
        replace (zlen (pre2 ++ text v ++ w_after p ++ B ",")) with (oe + 1) in G.
        2:{ unfold oe. change (B ",") with [","%char]. zlc. }
        apply G.
        * lia.
        * rewrite Hb. unfold pre2, ms1. leq.
        * exact Hf2.
        * replace (oe + 1) with (ov + zlen (text v) + zlen (w_after p) + 1) by (unfold oe; lia). exact Hok2.
        * exact Hsc.
        * intros H1. eapply safe_less; [exact (Hg H1)|lia|lia].
        * eapply anch_less; [exact Ha|auto|lia|lia].
        * lia.
    - unfold K_es. intros. exact I.
    - (* element *)
      intros wb v IHv wa es IHes S Q q i m L pre post cp pos hi z lp Hm Hq HQ HS Hb Hf [Hok1 Hok2] Hh Hg Ha Hhi.
      rewrite t_es_cons in *. cbn [need_es] in *. apply fits_app in Hf as [Hf1 Hf2].
      cbn [ev_es].
      set (ov := zlen pre + zlen wb) in *.
      set (oe := ov + zlen (text v) + zlen wa).
      cbv zeta. cbn [text_es] in Hb.
      assert (Hb2 : buf = (pre ++ wb) ++ text v ++ (wa ++ match es with ENil => [] | _ => B "," ++ text_es es end ++ post)).
      { rewrite Hb. leq. }
      assert (Ez : zlen (pre ++ wb) = ov) by (unfold ov; zlc).
      pose proof (lead_bt_le wa) as Hbt.
      assert (Hbig : oe + match es with ENil => 0 | _ => 1 + zlen (text_es es) end <= hi).
      { clear - Hhi. unfold oe, ov. cbn [text_es] in Hhi. rewrite !zlen_app in Hhi. destruct es; [change (zlen (@nil ascii)) with 0 in Hhi; lia|].
        change (B ",") with [","%char] in Hhi. rewrite zlen_app in Hhi. change (zlen [","%char]) with 1 in Hhi. lia. }
      assert (Hoe : oe <= hi). { destruct es as [|? ? ? e0]; [lia|]. match type of Hbig with context [zlen ?t] => pose proof (zlen_nonneg t) end. lia. }
      destruct (proj1 (machine_all d Hd buf Hlead Hnul) v InArr (SLB :: S) Q q i m L (pre ++ wb)
                  (wa ++ match es with ENil => [] | _ => B "," ++ text_es es end ++ post)
                  cp (lead_bt wa)) as (c & Hrun & Haft).
      { discriminate. } { cbn. eauto. } { exact Hm. } { exact Hq. }
      { cbn [List.length]. lia. } { cbn [List.length]. lia. } { exact Hb2. } { exact Hf1. }
      rewrite Ez in Hrun. cbn [TreeSem.after in_arr] in Haft. destruct Haft as (m' & Hm' & _ & ->).
      apply calm_app.
      + assert (G := IHv InArr (SLB :: S) Q q i m L (pre ++ wb)
                  (wa ++ match es with ENil => [] | _ => B "," ++ text_es es end ++ post) cp (lead_bt wa) pos hi ((OBracket, z) :: lp)).
        rewrite Ez in G. cbn [List.length before] in G. apply G; try lia; try assumption; try discriminate; first [solve [eauto] | (unfold oe in Hoe; lia)].
      + intros c E. rewrite Hrun in E. injection E as <-.
        destruct es as [|wb' v' wa' es']; [exact I|].
        set (es1 := ECons wb' v' wa' es') in *.
        pose proof (zlen_nonneg (text_es es1)) as He0.
        pose proof (reached_ge (ev_val cp ov (lead_bt wa) v) pos) as Hrg.
        rewrite (proj1 pdone_all). cbn [vdone].
        cbn [calm]. split.
        { eapply still_of; [intros _; exact Hh|exact Hg|eapply anch_less; [exact Ha|apply anchored_states; reflexivity|apply Z.le_refl|apply Z.le_refl]|lia|cbn [e_next]; lia]. }
        cbn [core_step e_tok e_next]. intros c E. injection E as <-.
        match goal with |- calm ?P _ _ _ => assert (G := IHes S Q q (i + 1) m' (L ++ t_val d true q i v) (pre ++ wb ++ text v ++ wa ++ B ",") post (oe + 1) P hi z lp) end.
        replace (zlen (pre ++ wb ++ text v ++ wa ++ B ",")) with (oe + 1) in G.
        2:{ unfold oe, ov. change (B ",") with [","%char]. zlc. }
        apply G; try assumption.
        * lia.
        * rewrite Hb. unfold es1. leq.
        * intros H2. eapply safe_less; [exact (Hh H2)|lia|lia].
        * intros H2. eapply safe_less; [exact (Hg H2)|lia|lia].
        * eapply anch_less; [exact Ha|apply anchored_states; reflexivity|lia|lia].
        * lia.
  Qed.
End Calm.
