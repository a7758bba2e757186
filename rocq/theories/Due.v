(** What the engine has matched when a document is cut off. *)
From Verif Require Import Base Util Lexer Spec LexSpec LexProof LexDoc LexMain Dfa Stream TreeSem TreeInv Builder Num Eval Filter AutoProof QueryClass Compiled Roles TreeSel SelProof
  FilterSpec Loader Run EndToEnd PosSpec CutSpec Claims ClaimProof AnyRun LexLocal PieceDoc Trunc DueSpec.
From Coq Require Import Lia.
Open Scope Z_scope.

Section Due.
  Variable d : dfa.
  Variable K : Z.

  (** The tuples of the values that end before [K]. *)
  Fixpoint due_val (ar : bool) (q i o : Z) (v : json) : list tuple :=
    let due := o + zlen (text v) <? K in
    match v with
    | JBare s => if due then t_prim d q i s else []
    | JStr s => if due then t_prim d q i (DQ :: s ++ [DQ]) else []
    | JObj w ms =>
        (if o + 1 <? K then t_open_obj d q i else []) ++ due_ms q i (o + 1 + zlen w) ms
        ++ (if due then t_close d q i (text v) ++ t_close_elem d ar q i else [])
    | JArr w es =>
        (if o + 1 <? K then t_open_arr d q i else []) ++ due_es (nx d q i None) 0 (o + 1 + zlen w) es
        ++ (if due then t_close d q i (text v) else [])
    end
  with due_ms (q i o : Z) (ms : members) : list tuple :=
    match ms with
    | MNil => []
    | MCons p k v ms' =>
        let ov := o + zlen (w_before p) + (zlen k + 2) + zlen (w_colon p) + 1 + zlen (w_value p) in
        due_val false (nx d q i (Some k)) 0 ov v ++ due_ms q i (ov + zlen (text v) + zlen (w_after p) + 1) ms'
    end
  with due_es (q n o : Z) (es : elements) : list tuple :=
    match es with
    | ENil => []
    | ECons wb v wa es' => due_val true q n (o + zlen wb) v ++ due_es q (n + 1) (o + zlen wb + zlen (text v) + zlen wa + 1) es'
    end.

  (** No cut falls between a string and the end of the blanks behind it. *)
  Fixpoint ag_val (o tb : Z) (v : json) : Prop :=
    match v with
    | JBare _ => True
    | JStr s => (o + zlen (text v) <? K) = (o + zlen s + 2 + tb <? K)
    | JObj w ms => ag_ms (o + 1 + zlen w) ms
    | JArr w es => ag_es (o + 1 + zlen w) es
    end
  with ag_ms (o : Z) (ms : members) : Prop :=
    match ms with
    | MNil => True
    | MCons p k v ms' =>
        let ov := o + zlen (w_before p) + (zlen k + 2) + zlen (w_colon p) + 1 + zlen (w_value p) in
        ag_val ov (lead_bt (w_after p)) v /\ ag_ms (ov + zlen (text v) + zlen (w_after p) + 1) ms'
    end
  with ag_es (o : Z) (es : elements) : Prop :=
    match es with
    | ENil => True
    | ECons wb v wa es' => ag_val (o + zlen wb) (lead_bt wa) v /\ ag_es (o + zlen wb + zlen (text v) + zlen wa + 1) es'
    end.

  Definition late (e : event) : Prop := K <= e_next e.
  Definition soon (e : event) : Prop := e_next e < K.

  Lemma d_nil :
    (forall v ar q i cp o tb, ag_val o tb v -> Forall late (ev_val cp o tb v) -> due_val ar q i o v = []) /\
    (forall ms q i cp o, ag_ms o ms -> Forall late (ev_ms cp o ms) -> due_ms q i o ms = []) /\
    (forall es q n cp o, ag_es o es -> Forall late (ev_es cp o es) -> due_es q n o es = []).
  Proof.
    apply json_all_ind.
    - intros s ar q i cp o tb _ H. cbn [due_val ev_val] in *. apply Forall_cons_iff in H as [H _]. unfold late in H. cbn [e_next] in H. cbn [text].
      assert ((o + zlen s <? K) = false) as -> by lia. reflexivity.
    - intros s ar q i cp o tb Ha H. cbn [due_val ev_val ag_val] in *. apply Forall_cons_iff in H as [H _]. unfold late in H. cbn [e_next] in H. rewrite Ha.
      assert ((o + zlen s + 2 + tb <? K) = false) as -> by lia. reflexivity.
    - intros w ms IH ar q i cp o tb Ha H. cbn [due_val ev_val ag_val] in *. apply Forall_cons_iff in H as [H1 H]. apply Forall_app in H as [H2 H3].
      apply Forall_cons_iff in H3 as [H3 _]. unfold late in H1, H3. cbn [e_next] in *. rewrite (IH _ _ _ _ Ha H2).
      assert ((o + 1 <? K) = false) as -> by lia. assert ((o + zlen (text (JObj w ms)) <? K) = false) as -> by lia. reflexivity.
    - intros w es IH ar q i cp o tb Ha H. cbn [due_val ev_val ag_val] in *. apply Forall_cons_iff in H as [H1 H]. apply Forall_app in H as [H2 H3].
      apply Forall_cons_iff in H3 as [H3 _]. unfold late in H1, H3. cbn [e_next] in *. rewrite (IH _ _ _ _ Ha H2).
      assert ((o + 1 <? K) = false) as -> by lia. assert ((o + zlen (text (JArr w es)) <? K) = false) as -> by lia. reflexivity.
    - reflexivity.
    - intros p k v IHv ms IHm q i cp o Ha H. cbn [due_ms ev_ms ag_ms] in *. cbv zeta in *. destruct Ha as [Ha1 Ha2]. apply Forall_cons_iff in H as [_ H]. apply Forall_app in H as [H1 H2].
      replace (o + zlen (w_before p) + zlen k + 2 + zlen (w_colon p) + 1 + zlen (w_value p)) with (o + zlen (w_before p) + (zlen k + 2) + zlen (w_colon p) + 1 + zlen (w_value p)) in * by lia.
      rewrite (IHv _ _ _ _ _ _ Ha1 H1). destruct ms as [|p2 k2 v2 ms]; [reflexivity|]. apply Forall_cons_iff in H2 as [_ H2]. rewrite (IHm _ _ _ _ Ha2 H2). reflexivity.
    - reflexivity.
    - intros wb v IHv wa es IHe q n cp o Ha H. cbn [due_es ev_es ag_es] in *. cbv zeta in *. destruct Ha as [Ha1 Ha2]. apply Forall_app in H as [H1 H2].
      rewrite (IHv _ _ _ _ _ _ Ha1 H1). destruct es as [|wb2 v2 wa2 es]; [reflexivity|]. apply Forall_cons_iff in H2 as [_ H2]. rewrite (IHe _ _ _ _ Ha2 H2). reflexivity.
  Qed.
  Lemma d_all :
    (forall v ar q i cp o tb, ag_val o tb v -> Forall soon (ev_val cp o tb v) -> due_val ar q i o v = t_val d ar q i v) /\
    (forall ms q i cp o, ag_ms o ms -> Forall soon (ev_ms cp o ms) -> due_ms q i o ms = t_ms d q i ms) /\
    (forall es q n cp o, ag_es o es -> Forall soon (ev_es cp o es) -> due_es q n o es = t_es d q n es).
  Proof.
    apply json_all_ind.
    - intros s ar q i cp o tb _ H. cbn [due_val ev_val t_val] in *. apply Forall_cons_iff in H as [H _]. unfold soon in H. cbn [e_next] in H. cbn [text].
      assert ((o + zlen s <? K) = true) as -> by lia. reflexivity.
    - intros s ar q i cp o tb Ha H. cbn [due_val ev_val ag_val t_val] in *. apply Forall_cons_iff in H as [H _]. unfold soon in H. cbn [e_next] in H. rewrite Ha.
      assert ((o + zlen s + 2 + tb <? K) = true) as -> by lia. reflexivity.
    - intros w ms IH ar q i cp o tb Ha H. rewrite t_val_obj. cbn [due_val ev_val ag_val] in *. apply Forall_cons_iff in H as [H1 H]. apply Forall_app in H as [H2 H3].
      apply Forall_cons_iff in H3 as [H3 _]. unfold soon in H1, H3. cbn [e_next] in *. rewrite (IH _ _ _ _ Ha H2).
      assert ((o + 1 <? K) = true) as -> by lia. assert ((o + zlen (text (JObj w ms)) <? K) = true) as -> by lia. reflexivity.
    - intros w es IH ar q i cp o tb Ha H. rewrite t_val_arr. cbn [due_val ev_val ag_val] in *. apply Forall_cons_iff in H as [H1 H]. apply Forall_app in H as [H2 H3].
      apply Forall_cons_iff in H3 as [H3 _]. unfold soon in H1, H3. cbn [e_next] in *. rewrite (IH _ _ _ _ Ha H2).
      assert ((o + 1 <? K) = true) as -> by lia. assert ((o + zlen (text (JArr w es)) <? K) = true) as -> by lia. reflexivity.
    - reflexivity.
    - intros p k v IHv ms IHm q i cp o Ha H. rewrite t_ms_cons. cbn [due_ms ev_ms ag_ms] in *. cbv zeta in *. destruct Ha as [Ha1 Ha2]. apply Forall_cons_iff in H as [_ H]. apply Forall_app in H as [H1 H2].
      replace (o + zlen (w_before p) + zlen k + 2 + zlen (w_colon p) + 1 + zlen (w_value p)) with (o + zlen (w_before p) + (zlen k + 2) + zlen (w_colon p) + 1 + zlen (w_value p)) in * by lia.
      rewrite (IHv _ _ _ _ _ _ Ha1 H1). destruct ms as [|p2 k2 v2 ms]; [reflexivity|]. apply Forall_cons_iff in H2 as [_ H2]. rewrite (IHm _ _ _ _ Ha2 H2). reflexivity.
    - reflexivity.
    - intros wb v IHv wa es IHe q n cp o Ha H. rewrite t_es_cons. cbn [due_es ev_es ag_es] in *. cbv zeta in *. destruct Ha as [Ha1 Ha2]. apply Forall_app in H as [H1 H2].
      rewrite (IHv _ _ _ _ _ _ Ha1 H1). destruct es as [|wb2 v2 wa2 es]; [reflexivity|]. apply Forall_cons_iff in H2 as [_ H2]. rewrite (IHe _ _ _ _ Ha2 H2). reflexivity.
  Qed.

  Hypothesis Hd : dfa_ok d.
  Variable buf : bytes.
  Hypothesis Hlead : lead_blanks buf = O.
  Hypothesis Hnul : no_nul buf.
  Notation run := (foldM (core_step d buf)).

  Lemma app_cases {A} : forall (a b E1 E2 : list A), a ++ b = E1 ++ E2 -> (exists E, E1 = a ++ E /\ b = E ++ E2) \/ (exists x E, a = E1 ++ x :: E /\ E2 = x :: E ++ b).
  Proof.
    induction a as [|x a IH]; intros b E1 E2 H; [left; exists E1; auto|]. destruct E1 as [|y E1]; cbn in H.
    - right. exists x, a. auto.
    - injection H as -> H. destruct (IH _ _ _ H) as [(E & -> & ->)|(z & E & -> & ->)]; [left; exists E; auto|right; exists z, E; auto].
  Qed.

  Definition W_val (v : json) : Prop := forall p S Q q i ms L pre post cp tb E1 E2,
    (is_container v = false -> p <> AtRoot) -> before p S Q -> ms <> MUninit -> valid_state d q ->
    (List.length Q <= List.length S)%nat -> (List.length S + stack_need v <= 100)%nat ->
    buf = pre ++ text v ++ post -> fits L (t_val d (in_arr p) q i v) -> ag_val (zlen pre) tb v ->
    ev_val cp (zlen pre) tb v = E1 ++ E2 -> Forall soon E1 -> Forall late E2 ->
    exists c, run E1 (mkCore S Q (mkElt q i ms) L) = Ok c /\ c_tl c = L ++ due_val (in_arr p) q i (zlen pre) v.
  Definition W_ms (ms : members) : Prop := forall S Q q i m L pre post cp E1 E2,
    m <> MUninit -> valid_state d q -> (List.length Q <= List.length S)%nat -> (List.length S + need_ms ms <= 100)%nat ->
    buf = pre ++ text_ms ms ++ post -> fits L (t_ms d q i ms) -> ag_ms (zlen pre) ms ->
    ev_ms cp (zlen pre) ms = E1 ++ E2 -> Forall soon E1 -> Forall late E2 ->
    exists c, run E1 (mkCore S Q (mkElt q i m) L) = Ok c /\ c_tl c = L ++ due_ms q i (zlen pre) ms.
  Definition W_es (es : elements) : Prop := forall S Q q i m L pre post cp E1 E2,
    m <> MUninit -> valid_state d q -> (List.length Q <= Datatypes.S (List.length S))%nat -> (Datatypes.S (List.length S) + need_es es <= 100)%nat ->
    buf = pre ++ text_es es ++ post -> fits L (t_es d q i es) -> ag_es (zlen pre) es ->
    ev_es cp (zlen pre) es = E1 ++ E2 -> Forall soon E1 -> Forall late E2 ->
    exists c, run E1 (mkCore (SLB :: S) Q (mkElt q i m) L) = Ok c /\ c_tl c = L ++ due_es q i (zlen pre) es.

  Lemma after_tl p S Q q i ms L c : after d p S Q q i ms L c -> c_tl c = L.
  Proof. destruct p; cbn [after]; [intros ->; reflexivity| |]; intros (m & _ & _ & ->); reflexivity. Qed.

  (** Nothing or all of it. *)
  Lemma W_none v p S Q q i ms L (pre : bytes) cp tb : ag_val (zlen pre) tb v -> Forall late (ev_val cp (zlen pre) tb v) ->
    exists c, run [] (mkCore S Q (mkElt q i ms) L) = Ok c /\ c_tl c = L ++ due_val (in_arr p) q i (zlen pre) v.
  Proof. intros Ha Hl. eexists. split; [reflexivity|]. cbn [c_tl]. rewrite (proj1 d_nil _ _ _ _ _ _ _ Ha Hl), app_nil_r. reflexivity. Qed.
  Lemma W_full v p S Q q i ms L pre post cp tb : 
    (is_container v = false -> p <> AtRoot) -> before p S Q -> ms <> MUninit -> valid_state d q ->
    (List.length Q <= List.length S)%nat -> (List.length S + stack_need v <= 100)%nat ->
    buf = pre ++ text v ++ post -> fits L (t_val d (in_arr p) q i v) -> ag_val (zlen pre) tb v -> Forall soon (ev_val cp (zlen pre) tb v) ->
    exists c, run (ev_val cp (zlen pre) tb v) (mkCore S Q (mkElt q i ms) L) = Ok c /\ after d p S Q q i ms (L ++ due_val (in_arr p) q i (zlen pre) v) c.
  Proof.
    intros H1 H2 H3 H4 H5 H6 H7 H8 Ha Hs. rewrite (proj1 d_all _ _ _ _ _ _ _ Ha Hs).
    exact (proj1 (machine_all d Hd buf Hlead Hnul) v p S Q q i ms L pre post cp tb H1 H2 H3 H4 H5 H6 H7 H8).
  Qed.
  Lemma W_prim v : is_container v = false -> (forall cp o tb, exists e, ev_val cp o tb v = [e]) -> W_val v.
  Proof.
    intros Hc He p S Q q i ms L pre post cp tb E1 E2 H1 H2 H3 H4 H5 H6 H7 H8 Ha Hev Hs Hl. destruct (He cp (zlen pre) tb) as (e & Ee).
    destruct E1 as [|e1 E1].
    - rewrite <- Hev in Hl || (cbn [app] in Hev; rewrite <- Hev in Hl). exact (W_none v p S Q q i ms L pre cp tb Ha Hl).
    - assert (E1 = [] /\ E2 = []) as [-> ->]. { rewrite Ee in Hev. cbn in Hev. injection Hev as _ Hev. symmetry in Hev. apply app_eq_nil in Hev. exact Hev. }
      rewrite app_nil_r in Hev. rewrite <- Hev in *. destruct (W_full v p S Q q i ms L pre post cp tb H1 H2 H3 H4 H5 H6 H7 H8 Ha Hs) as (c & E & Haf).
      exists c. split; [exact E|]. exact (after_tl _ _ _ _ _ _ _ _ Haf).
  Qed.


  (** An event list with a last event, cut in two. *)
  Lemma last_split (a : list event) z E1 e2 E2 : a ++ [z] = E1 ++ e2 :: E2 -> Forall soon E1 -> Forall late (e2 :: E2) ->
    exists F, a = E1 ++ F /\ Forall late F /\ late z.
  Proof.
    intros H Hs Hl. apply app_cases in H as [(E & -> & Hx)|(y & E & -> & Hx)].
    - destruct E as [|z' E]; [|exfalso; destruct E; discriminate]. cbn [app] in Hx. injection Hx as <- <-. exists []. rewrite !app_nil_r.
      apply Forall_cons_iff in Hl as [Hl _]. auto.
    - rewrite Hx in Hl. exists (y :: E). split; [reflexivity|]. apply (Forall_app late (y :: E) [z]) in Hl as [Hl1 Hl2]. apply Forall_cons_iff in Hl2 as [Hl2 _]. auto.
  Qed.

  Lemma due_all : (forall v, W_val v) /\ (forall ms, W_ms ms) /\ (forall es, W_es es).
  Proof.
    apply json_all_ind.
    - intros s. apply W_prim; [reflexivity|]. intros. eexists. reflexivity.
    - intros s. apply W_prim; [reflexivity|]. intros. eexists. reflexivity.
    - intros w ms IH p S Q q i m L pre post cp tb E1 E2 H1 H2 H3 H4 H5 H6 H7 H8 Ha Hev Hs Hl.
      destruct E1 as [|e1 E1].
      { cbn [app] in Hev. rewrite <- Hev in Hl. exact (W_none _ p S Q q i m L pre cp tb Ha Hl). }
      destruct E2 as [|e2 E2].
      { rewrite app_nil_r in Hev. rewrite <- Hev in *. destruct (W_full _ p S Q q i m L pre post cp tb H1 H2 H3 H4 H5 H6 H7 H8 Ha Hs) as (c & E & Haf).
        exists c. split; [exact E|]. exact (after_tl _ _ _ _ _ _ _ _ Haf). }
      cbn [ev_val app] in Hev. injection Hev as <- Hev. apply Forall_cons_iff in Hs as [Hs1 Hs]. unfold soon in Hs1. cbn [e_next] in Hs1.
      destruct (last_split _ _ _ _ _ Hev Hs Hl) as (F & HF & HlF & Hz). unfold late in Hz. change (K <= zlen pre + zlen (text (JObj w ms))) in Hz. clear Hev Hl.
      rewrite t_val_obj in H8. apply fits_mid in H8 as (Hf1 & Hf2 & _). cbn [stack_need ag_val] in *.
      cbn [foldM core_step e_tok e_next]. rewrite (open_obj_ok d Hd buf Hlead S Q q i m L (zlen pre)) by (try lia; assumption). cbn [bind].
      assert (Hpz : zlen (pre ++ B "{" ++ w) = zlen pre + 1 + zlen w) by (change (B "{") with ["{"%char]; zlc).
      destruct (IH (SLCB :: S) Q q i (if mt d q i =? DFA_OUTPUT_CANDIDATE then MAt (zlen pre) else m) (L ++ t_open_obj d q i)
                (pre ++ B "{" ++ w) (B "}" ++ post) (zlen pre + 1) E1 F) as (c & Hr & Ht); try rewrite Hpz; try assumption.
      { destruct (_ =? _); [discriminate|exact H3]. } { cbn [List.length]. lia. } { cbn [List.length]. lia. }
      { rewrite H7. cbn [text]. leq. }
      exists c. split; [exact Hr|]. rewrite Ht, Hpz. cbn [due_val].
      assert ((zlen pre + 1 <? K) = true) as -> by lia. assert ((zlen pre + zlen (text (JObj w ms)) <? K) = false) as -> by lia.
      rewrite app_nil_r, <- app_assoc. reflexivity.
    - intros w es IH p S Q q i m L pre post cp tb E1 E2 H1 H2 H3 H4 H5 H6 H7 H8 Ha Hev Hs Hl.
      destruct E1 as [|e1 E1].
      { cbn [app] in Hev. rewrite <- Hev in Hl. exact (W_none _ p S Q q i m L pre cp tb Ha Hl). }
      destruct E2 as [|e2 E2].
      { rewrite app_nil_r in Hev. rewrite <- Hev in *. destruct (W_full _ p S Q q i m L pre post cp tb H1 H2 H3 H4 H5 H6 H7 H8 Ha Hs) as (c & E & Haf).
        exists c. split; [exact E|]. exact (after_tl _ _ _ _ _ _ _ _ Haf). }
      cbn [ev_val app] in Hev. injection Hev as <- Hev. apply Forall_cons_iff in Hs as [Hs1 Hs]. unfold soon in Hs1. cbn [e_next] in Hs1.
      destruct (last_split _ _ _ _ _ Hev Hs Hl) as (F & HF & HlF & Hz). unfold late in Hz. change (K <= zlen pre + zlen (text (JArr w es))) in Hz. clear Hev Hl.
      rewrite t_val_arr in H8. apply fits_mid in H8 as (Hf1 & Hf2 & _). cbn [stack_need ag_val] in *.
      cbn [foldM core_step e_tok e_next]. rewrite (open_arr_ok d Hd buf Hlead S Q q i m L (zlen pre)) by (try lia; assumption). cbn [bind].
      assert (Hpz : zlen (pre ++ B "[" ++ w) = zlen pre + 1 + zlen w) by (change (B "[") with ["["%char]; zlc).
      destruct (next_ok d q i m None Hd H4) as [_ Hnv].
      destruct (IH S (mkElt q i (if mt d q i =? DFA_OUTPUT_CANDIDATE then MAt (zlen pre) else m) :: Q) (nx d q i None) 0 MInv (L ++ t_open_arr d q i)
                (pre ++ B "[" ++ w) (B "]" ++ post) (zlen pre + 1) E1 F) as (c & Hr & Ht); try rewrite Hpz; try assumption.
      { discriminate. } { cbn [List.length]. lia. } { lia. }
      { rewrite H7. cbn [text]. leq. }
      exists c. split; [exact Hr|]. rewrite Ht, Hpz. cbn [due_val].
      assert ((zlen pre + 1 <? K) = true) as -> by lia. assert ((zlen pre + zlen (text (JArr w es)) <? K) = false) as -> by lia.
      rewrite app_nil_r, <- app_assoc. reflexivity.
    - intros S Q q i m L pre post cp E1 E2 _ _ _ _ _ _ _ Hev _ _. cbn [ev_ms] in Hev. symmetry in Hev. apply app_eq_nil in Hev as [-> ->].
      eexists. split; [reflexivity|]. cbn. rewrite app_nil_r. reflexivity.
    - intros p k v IHv ms IHms S Q q i m L pre post cp E1 E2 Hm Hq HQ HS Hb Hf Ha Hev Hs Hl.
      destruct E1 as [|e1 E1].
      { cbn [app] in Hev. rewrite <- Hev in Hl. eexists. split; [reflexivity|]. cbn [c_tl]. rewrite (proj1 (proj2 d_nil) _ _ _ _ _ Ha Hl), app_nil_r. reflexivity. }
      rewrite t_ms_cons in *. cbn [need_ms] in *. apply fits_app in Hf as [Hf1 Hf2].
      destruct (next_ok d q i m (Some k) Hd Hq) as [Hn Hnv].
      cbn [ag_ms due_ms] in *. cbv zeta in *. cbn [ev_ms] in Hev. cbv zeta in Hev.
      replace (zlen pre + zlen (w_before p) + (zlen k + 2) + zlen (w_colon p)) with (zlen pre + zlen (w_before p) + zlen k + 2 + zlen (w_colon p)) in * by lia.
      set (qn := nx d q i (Some k)) in *.
      set (oc := zlen pre + zlen (w_before p) + zlen k + 2 + zlen (w_colon p)) in *.
      set (ov := oc + 1 + zlen (w_value p)) in *.
      destruct Ha as [Ha1 Ha2]. cbn [app] in Hev. injection Hev as <- Hev. apply Forall_cons_iff in Hs as [_ Hs].
      cbn [foldM core_step e_tok]. unfold do_ky at 1. cbn [c_ss c_qs c_cur c_tl]. rewrite Hn. cbn [bind]. rewrite !push_ok by lia.
      cbn [text_ms] in Hb.
      set (pre2 := pre ++ w_before p ++ (DQ :: k ++ [DQ]) ++ w_colon p ++ B ":" ++ w_value p).
      assert (Hp2 : zlen pre2 = ov). { unfold pre2, ov, oc. change (B ":") with [":"%char]. zlc. }
      assert (Hbv : buf = pre2 ++ text v ++ (w_after p ++ match ms with MNil => [] | _ => B "," ++ text_ms ms end ++ post)) by (rewrite Hb; unfold pre2; leq).
      apply app_cases in Hev as [(E & -> & Hx)|(y & E & Hx & ->)].
      + (* the value is complete *)
        apply Forall_app in Hs as [Hs1 Hs2]. rewrite foldM_app. rewrite <- Hp2 in Hs1, Ha1.
        destruct (W_full v (InKey (mkElt q i m) Q) (SKY :: S) (mkElt q i m :: Q) qn 0 MInv L pre2 _ oc (lead_bt (w_after p))
                   ltac:(discriminate) ltac:(split; [eauto|reflexivity]) ltac:(discriminate) Hnv ltac:(cbn [List.length]; lia) ltac:(cbn [List.length]; lia) Hbv Hf1 Ha1 Hs1) as (c & Hrun & Haft).
        rewrite Hp2 in Hrun. rewrite Hrun. cbn [bind]. cbn [after in_arr tl] in Haft. subst c. rewrite Hp2.
        destruct ms as [|p' k' v' ms'].
        * symmetry in Hx. apply app_eq_nil in Hx as [-> ->]. eexists. split; [reflexivity|]. cbn. rewrite app_nil_r. reflexivity.
        * set (ms1 := MCons p' k' v' ms') in *. destruct E as [|e E].
          { cbn [app] in Hx. rewrite <- Hx in Hl. apply Forall_cons_iff in Hl as [_ Hl]. eexists. split; [reflexivity|]. cbn [c_tl].
            rewrite (proj1 (proj2 d_nil) _ q i _ _ Ha2 Hl), app_nil_r. reflexivity. }
          cbn [app] in Hx. injection Hx as <- Hx. apply Forall_cons_iff in Hs2 as [_ Hs2]. cbn [foldM core_step e_tok bind].
          assert (Hpz : zlen (pre2 ++ text v ++ w_after p ++ B ",") = ov + zlen (text v) + zlen (w_after p) + 1).
          { change (B ",") with [","%char]. zlc. }
          destruct (IHms S Q q i m (L ++ due_val false qn 0 ov v) (pre2 ++ text v ++ w_after p ++ B ",") post (ov + zlen (text v) + zlen (w_after p) + 1) E E2) as (c & Hr & Ht); try rewrite Hpz; try assumption.
          { lia. } { rewrite Hb. unfold pre2, ms1. leq. }
          { rewrite <- Hp2. rewrite (proj1 d_all _ _ _ _ _ _ _ Ha1 Hs1). exact Hf2. }
          exists c. split; [exact Hr|]. rewrite Ht, Hpz, <- app_assoc. reflexivity.
      + (* the cut is inside the value *)
        change (y :: E ++ ?r) with ((y :: E) ++ r) in Hl. apply Forall_app in Hl as [Hl1 Hl2]. rewrite <- Hp2 in Ha1, Hx.
        destruct (IHv (InKey (mkElt q i m) Q) (SKY :: S) (mkElt q i m :: Q) qn 0 MInv L pre2 _ oc (lead_bt (w_after p)) E1 (y :: E)
                   ltac:(discriminate) ltac:(split; [eauto|reflexivity]) ltac:(discriminate) Hnv ltac:(cbn [List.length]; lia) ltac:(cbn [List.length]; lia) Hbv Hf1 Ha1 Hx Hs Hl1) as (c & Hrun & Ht).
        exists c. split; [exact Hrun|]. rewrite Ht, Hp2. cbn [in_arr].
        replace (due_ms q i (ov + zlen (text v) + zlen (w_after p) + 1) ms) with (@nil tuple); [rewrite app_nil_r; reflexivity|].
        destruct ms as [|p' k' v' ms']; [reflexivity|]. apply Forall_cons_iff in Hl2 as [_ Hl2]. symmetry. exact (proj1 (proj2 d_nil) _ q i _ _ Ha2 Hl2).
    - intros S Q q i m L pre post cp E1 E2 _ _ _ _ _ _ _ Hev _ _. cbn [ev_es] in Hev. symmetry in Hev. apply app_eq_nil in Hev as [-> ->].
      eexists. split; [reflexivity|]. cbn. rewrite app_nil_r. reflexivity.
    - intros wb v IHv wa es IHes S Q q i m L pre post cp E1 E2 Hm Hq HQ HS Hb Hf Ha Hev Hs Hl.
      rewrite t_es_cons in *. cbn [need_es es_len] in *. apply fits_app in Hf as [Hf1 Hf2].
      cbn [ag_es due_es ev_es] in *. cbv zeta in *. destruct Ha as [Ha1 Ha2]. cbn [text_es] in Hb.
      assert (Hp2 : zlen (pre ++ wb) = zlen pre + zlen wb) by zlc.
      assert (Hbv : buf = (pre ++ wb) ++ text v ++ (wa ++ match es with ENil => [] | _ => B "," ++ text_es es end ++ post)) by (rewrite Hb; leq).
      apply app_cases in Hev as [(E & -> & Hx)|(y & E & Hx & ->)].
      + apply Forall_app in Hs as [Hs1 Hs2]. rewrite foldM_app. rewrite <- Hp2 in Hs1, Ha1.
        destruct (W_full v InArr (SLB :: S) Q q i m L (pre ++ wb) _ cp (lead_bt wa)
                   ltac:(discriminate) ltac:(cbn; eauto) Hm Hq ltac:(cbn [List.length]; lia) ltac:(cbn [List.length]; lia) Hbv Hf1 Ha1 Hs1) as (c & Hrun & Haft).
        rewrite Hp2 in Hrun. rewrite Hrun. cbn [bind]. cbn [after in_arr] in Haft. destruct Haft as (m' & Hm' & _ & ->). rewrite Hp2.
        destruct es as [|wb' v' wa' es'].
        * symmetry in Hx. apply app_eq_nil in Hx as [-> ->]. eexists. split; [reflexivity|]. cbn. rewrite app_nil_r. reflexivity.
        * set (es1 := ECons wb' v' wa' es') in *. destruct E as [|e E].
          { cbn [app] in Hx. rewrite <- Hx in Hl. apply Forall_cons_iff in Hl as [_ Hl]. eexists. split; [reflexivity|]. cbn [c_tl].
            rewrite (proj2 (proj2 d_nil) _ q (i + 1) _ _ Ha2 Hl), app_nil_r. reflexivity. }
          cbn [app] in Hx. injection Hx as <- Hx. apply Forall_cons_iff in Hs2 as [_ Hs2]. cbn [foldM core_step e_tok bind].
          assert (Hpz : zlen (pre ++ wb ++ text v ++ wa ++ B ",") = zlen pre + zlen wb + zlen (text v) + zlen wa + 1).
          { change (B ",") with [","%char]. zlc. }
          destruct (IHes S Q q (i + 1) m' (L ++ due_val true q i (zlen pre + zlen wb) v) (pre ++ wb ++ text v ++ wa ++ B ",") post (zlen pre + zlen wb + zlen (text v) + zlen wa + 1) E E2) as (c & Hr & Ht); try rewrite Hpz; try assumption.
          { lia. } { rewrite Hb. unfold es1. leq. }
          { rewrite <- Hp2. rewrite (proj1 d_all _ _ _ _ _ _ _ Ha1 Hs1). exact Hf2. }
          exists c. split; [exact Hr|]. rewrite Ht, Hpz, <- app_assoc. reflexivity.
      + change (y :: E ++ ?r) with ((y :: E) ++ r) in Hl. apply Forall_app in Hl as [Hl1 Hl2]. rewrite <- Hp2 in Ha1, Hx.
        destruct (IHv InArr (SLB :: S) Q q i m L (pre ++ wb) _ cp (lead_bt wa) E1 (y :: E)
                   ltac:(discriminate) ltac:(cbn; eauto) Hm Hq ltac:(cbn [List.length]; lia) ltac:(cbn [List.length]; lia) Hbv Hf1 Ha1 Hx Hs Hl1) as (c & Hrun & Ht).
        exists c. split; [exact Hrun|]. rewrite Ht, Hp2. cbn [in_arr].
        replace (due_es q (i + 1) (zlen pre + zlen wb + zlen (text v) + zlen wa + 1) es) with (@nil tuple); [rewrite app_nil_r; reflexivity|].
        destruct es as [|wb' v' wa' es']; [reflexivity|]. apply Forall_cons_iff in Hl2 as [_ Hl2]. symmetry. exact (proj2 (proj2 d_nil) _ q (i + 1) _ _ Ha2 Hl2).
  Qed.
End Due.

Lemma due_bare d K ar q i o s : due_val d K ar q i o (JBare s) = if o + zlen (text (JBare s)) <? K then t_prim d q i s else [].
Proof. reflexivity. Qed.
Lemma due_str d K ar q i o s : due_val d K ar q i o (JStr s) = if o + zlen (text (JStr s)) <? K then t_prim d q i (DQ :: s ++ [DQ]) else [].
Proof. reflexivity. Qed.
Lemma due_obj d K ar q i o w ms : due_val d K ar q i o (JObj w ms) =
  (if o + 1 <? K then t_open_obj d q i else []) ++ due_ms d K q i (o + 1 + zlen w) ms
  ++ (if o + zlen (text (JObj w ms)) <? K then t_close d q i (text (JObj w ms)) ++ t_close_elem d ar q i else []).
Proof. reflexivity. Qed.
Lemma due_arr d K ar q i o w es : due_val d K ar q i o (JArr w es) =
  (if o + 1 <? K then t_open_arr d q i else []) ++ due_es d K (nx d q i None) 0 (o + 1 + zlen w) es
  ++ (if o + zlen (text (JArr w es)) <? K then t_close d q i (text (JArr w es)) else []).
Proof. reflexivity. Qed.
Lemma due_ms_cons d K q i o p k v ms : due_ms d K q i o (MCons p k v ms) =
  let ov := o + zlen (w_before p) + (zlen k + 2) + zlen (w_colon p) + 1 + zlen (w_value p) in
  due_val d K false (nx d q i (Some k)) 0 ov v ++ due_ms d K q i (ov + zlen (text v) + zlen (w_after p) + 1) ms.
Proof. reflexivity. Qed.
Lemma due_es_cons d K q n o wb v wa es : due_es d K q n o (ECons wb v wa es) =
  due_val d K true q n (o + zlen wb) v ++ due_es d K q (n + 1) (o + zlen wb + zlen (text v) + zlen wa + 1) es.
Proof. reflexivity. Qed.
