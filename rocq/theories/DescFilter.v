(** The run of a query with one filter, which may come after [..] steps, on
    documents in which no element the filter applies to lies within another one. *)
From Verif Require Import Base Util Spec QueryClass Regex RegexProof Mixer MixerProof Compress Lexer LexProof LexDoc LexMain
  Dfa Stream TreeSem Builder Eval EvalProof FilterSpec Filter FilterProof AutoProof BuilderProof Roles Compiled TreeSel SelProof SelFilter PosSpec Claims Num Loader Run
  EndToEnd ClaimProof PosProof SliceSpec SliceAny SliceOne FinalSpec FinalFilter Compose TestedField DescBuild.
Open Scope Z_scope.

Lemma upd_self {A} : forall (l : list A) n a, nth_error l n = Some a -> upd l n a = l.
Proof. induction l as [|b l IH]; intros [|n] a H; try discriminate; cbn in *; [congruence|]. f_equal. auto. Qed.
Lemma upd_twice {A} : forall (l : list A) n a b, upd (upd l n a) n b = upd l n b.
Proof. induction l as [|c l IH]; intros [|n] a b; cbn; [reflexivity|reflexivity|reflexivity|]. f_equal. auto. Qed.

(** * What the query selects *)
Lemma selects_app holds : forall p q1 q2, forallb is_path_step q1 = true -> selects holds (q1 ++ q2) p = true ->
  exists pa pb, p = pa ++ pb /\ lsel q1 (labels pa) = true /\ selects holds q2 pb = true.
Proof.
  induction p as [|[l v] p IH]; intros q1 q2 H Hs.
  - destruct q1 as [|s q1]; [|discriminate]. exists [], []. auto.
  - destruct q1 as [|s q1]; [exists [], ((l, v) :: p); auto|].
    assert (G : forall q', forallb is_path_step q' = true -> selects holds (q' ++ q2) p = true ->
              (forall w, lsel q' w = true -> lsel (s :: q1) (l :: w) = true) ->
              exists pa pb, (l, v) :: p = pa ++ pb /\ lsel (s :: q1) (labels pa) = true /\ selects holds q2 pb = true).
    { intros q' Hq' H1 Hw. destruct (IH q' q2 Hq' H1) as (pa & pb & -> & A1 & A2). exists ((l, v) :: pa), pb. repeat split; auto.
      cbn [labels map fst]. apply Hw, A1. }
    pose proof H as Hall. cbn [forallb] in H. apply andb_true_iff in H. destruct H as [Hst H]. cbn [app selects] in Hs.
    destruct s; try discriminate.
    + apply andb_true_iff in Hs. destruct Hs as [Hl Hs]. apply (G q1 H Hs). intros w Hw. cbn [lsel]. rewrite Hw, Hl. reflexivity.
    + apply (G q1 H Hs). intros w Hw. exact Hw.
    + apply orb_true_iff in Hs. destruct Hs as [Hs|Hs].
      * apply andb_true_iff in Hs. destruct Hs as [Hl Hs]. apply (G q1 H Hs). intros w Hw. cbn [lsel]. rewrite Hw, Hl. reflexivity.
      * apply (G (SDesc k :: q1) Hall Hs). intros w Hw. cbn [lsel] in *. rewrite Hw. apply orb_true_r.
    + apply orb_true_iff in Hs. destruct Hs as [Hs|Hs].
      * apply (G q1 H Hs). intros w Hw. cbn [lsel]. rewrite Hw. reflexivity.
      * apply (G (SDescAny :: q1) Hall Hs). intros w Hw. cbn [lsel] in *. rewrite Hw. apply orb_true_r.
    + apply andb_true_iff in Hs. destruct Hs as [Hl Hs]. apply (G q1 H Hs). intros w Hw. cbn [lsel]. rewrite Hw, Hl. reflexivity.
Qed.
Lemma selects_join holds : forall pa q1 q2 pb, forallb is_path_step q1 = true -> lsel q1 (labels pa) = true -> selects holds q2 pb = true ->
  selects holds (q1 ++ q2) (pa ++ pb) = true.
Proof.
  induction pa as [|[l v] pa IH]; intros q1 q2 pb H H1 H2.
  - destruct q1; [exact H2|discriminate].
  - destruct q1 as [|s q1]; [discriminate|]. cbn [labels map fst lsel] in H1. fold (labels pa) in H1.
    assert (G : forall q', forallb is_path_step q' = true -> lsel q' (labels pa) = true -> selects holds (q' ++ q2) (pa ++ pb) = true) by (intros; apply IH; auto).
    pose proof (G (s :: q1) H) as Hr. cbn [forallb] in H. apply andb_true_iff in H. destruct H as [Hst H]. pose proof (G q1 H) as Hn.
    cbn [app] in *. cbn [selects]. destruct s; try discriminate.
    + apply andb_true_iff in H1. destruct H1 as [-> H1]. apply Hn, H1.
    + apply Hn, H1.
    + apply orb_true_iff in H1. apply orb_true_iff. destruct H1 as [H1|H1]; [left|right; apply Hr, H1]. apply andb_true_iff in H1. destruct H1 as [-> H1]. apply Hn, H1.
    + apply orb_true_iff in H1. apply orb_true_iff. destruct H1 as [H1|H1]; [left; apply Hn, H1|right; apply Hr, H1].
    + apply andb_true_iff in H1. destruct H1 as [-> H1]. apply Hn, H1.
Qed.

Section DRun.
  Variable N : numops.
  Variables (q1 : query) (e : expr) (q2 : query) (strict : bool).
  Let q := q1 ++ SFilter e :: q2.
  Hypothesis Hp1 : forallb is_path_step q1 = true.
  Hypothesis Hp2 : forallb is_path_step q2 = true.
  Hypothesis Hff : fields_fine strict q.
  Hypothesis Hdot : forall f, In f (fields_in e) -> forallb dot_free f = true.
  Hypothesis Hq2 : q2 <> [].
  Hypothesis Hun : forall f, In f (fields_in e) -> lsel q2 (map LKey f) = false.
  Variables (d : dfa) (x : qctx) (st : list label -> Z).
  Hypothesis Hdb : dbuilt q1 e q2 d x st.
  Hypothesis Hfit : forall w, dcls q1 e q2 w = Some (RP (List.length q1)) -> st w < 100.
  Let J := List.length q1.
  Let F := nub_fields e.
  Local Notation cls := (dcls q1 e q2).
  Local Notation K w := (dkind (dcls q1 e q2 w)).
  Local Notation run := (foldM (filter_step N x)).
  Definition one (c : bool) (s : Z) (t : bytes) : list tuple := if c then [(s, t)] else [].

  Lemma r_in_range w i m : in_range d (mkElt (st w) i m) = Ok true.
  Proof. unfold in_range. cbn [q_state]. rewrite (db_range _ _ _ _ _ _ Hdb). reflexivity. Qed.
  Lemma r_nx w i l : nx d (st w) i (linput l) = st (w ++ [l]).
  Proof. unfold nx, next_elt. rewrite r_in_range. cbn [bind q_state]. rewrite (db_next _ _ _ _ _ _ Hdb). reflexivity. Qed.
  Lemma r_mt w i : mt d (st w) i = K w.
  Proof.
    unfold mt, getMatchedType. cbn [q_state]. rewrite (db_accept _ _ _ _ _ _ Hdb). cbn [bind]. rewrite r_in_range. cbn [bind].
    destruct (cls w) as [[]|]; reflexivity.
  Qed.
  Lemma r_idx w i : st (w ++ [LIdx i]) = st (w ++ [LIdx 0]).
  Proof. pose proof (db_next _ _ _ _ _ _ Hdb w (LIdx i)) as H1. pose proof (db_next _ _ _ _ _ _ Hdb w (LIdx 0)) as H2. cbn [linput] in *. congruence. Qed.
  Lemma st_pos w : 0 <= st w.
  Proof. pose proof (db_valid _ _ _ _ _ _ Hdb w) as H. unfold valid_state in H. lia. Qed.

  Lemma r_prim ar w i v s : v = JBare s \/ v = JStr s ->
    t_val d ar (st w) i v = one ((K w =? DFA_OUTPUT_CANDIDATE) || (K w =? DFA_CONDITION)) (st w) (text v).
  Proof. intros [->| ->]; cbn [t_val]; unfold t_prim; rewrite r_mt; reflexivity. Qed.
  Lemma r_obj ar w i ws ms : t_val d ar (st w) i (JObj ws ms) =
    (if K w =? DFA_PREDICATE then one true (st w) (B "{") else one (K w =? DFA_CONDITION) (st w) ([]))
    ++ t_ms d (st w) i ms ++ one (K w =? DFA_OUTPUT_CANDIDATE) (st w) (text (JObj ws ms))
    ++ one (ar && (K w =? DFA_PREDICATE)) (st w) (B "}").
  Proof. rewrite t_val_obj. unfold t_open_obj, t_close, t_close_elem. rewrite r_mt. reflexivity. Qed.
  Lemma r_arr ar w i ws l : t_val d ar (st w) i (JArr ws l) =
    one (K w =? DFA_CONDITION) (st w) ([]) ++ t_es d (st (w ++ [LIdx 0])) 0 l
    ++ one (K w =? DFA_OUTPUT_CANDIDATE) (st w) (text (JArr ws l)).
  Proof. rewrite t_val_arr. unfold t_open_arr, t_close. rewrite r_mt. change None with (linput (LIdx 0)). rewrite r_nx. reflexivity. Qed.
  Lemma r_ms w i m k v ms : t_ms d (st w) i (MCons m k v ms) = t_val d false (st (w ++ [LKey k])) 0 v ++ t_ms d (st w) i ms.
  Proof. rewrite t_ms_cons. change (Some k) with (linput (LKey k)). rewrite r_nx. reflexivity. Qed.
  Lemma r_es w i wb v wa l : t_es d (st (w ++ [LIdx 0])) (Z.of_nat i) (ECons wb v wa l) =
    t_val d true (st (w ++ [LIdx i])) (Z.of_nat i) v ++ t_es d (st (w ++ [LIdx 0])) (Z.of_nat (S i)) l.
  Proof. rewrite t_es_cons, (r_idx w i). replace (Z.of_nat i + 1) with (Z.of_nat (S i)) by lia. reflexivity. Qed.

  (** ** Elements that are not nested *)
  Definition calm (w : list label) : Prop := forall n m, (n <= List.length w)%nat -> (m <= List.length w)%nat ->
    filtered q1 (firstn n w) = true -> filtered q1 (firstn m w) = true -> n = m.
  Lemma calm_split u t u' t' : calm (u ++ t) -> u ++ t = u' ++ t' -> filtered q1 u = true -> filtered q1 u' = true -> u = u' /\ t = t'.
  Proof.
    intros Hc E H1 H2. apply app_len; [|exact E]. apply (Hc (List.length u) (List.length u')).
    - rewrite app_length. lia.
    - rewrite E, app_length. lia.
    - rewrite firstn_app, firstn_all, Nat.sub_diag. cbn [firstn]. rewrite app_nil_r. exact H1.
    - rewrite E, firstn_app, firstn_all, Nat.sub_diag. cbn [firstn]. rewrite app_nil_r. exact H2.
  Qed.

  (** Below an element. *)
  Section Inside.
    Variables (u t : list label).
    Hypothesis Hu : filtered q1 u = true.
    Hypothesis Hc : calm (u ++ t).
    Lemma in_field f : st_match (role_st q (RC J f)) (u ++ t) = true <-> t = map LKey f.
    Proof.
      unfold q, J. rewrite (d_field q1 e q2 Hp1 Hp2 f). split.
      - intros (u' & E & H). destruct (calm_split u t u' _ Hc E Hu H) as [_ ->]. reflexivity.
      - intros ->. exists u. auto.
    Qed.
    Lemma in_out : lsel q (u ++ t) = lsel q2 t.
    Proof.
      apply eq_true_iff_eq. unfold q. rewrite (d_split q1 e q2). split.
      - intros (u' & t' & E & H1 & H2). destruct (calm_split u t u' t' Hc E Hu H1) as [_ ->]. exact H2.
      - intros H. exists u, t. auto.
    Qed.
    Lemma in_cls : t <> [] -> cls (u ++ t) <> Some (RP J).
    Proof.
      intros Ht E. apply (d_role q1 e q2) in E. destruct E as [_ E].
      destruct (calm_split u t (u ++ t) [] Hc) as [_ E']; [rewrite app_nil_r; reflexivity|exact Hu|exact E|contradiction].
    Qed.
    Lemma in_cond f : In f (fields_in e) -> t = map LKey f -> cls (u ++ t) = Some (RC J f).
    Proof.
      intros Hf E. unfold dcls. fold q. rewrite in_out, E, (Hun f Hf), <- E.
      destruct (find _ _) as [g|] eqn:Eg.
      - apply find_some in Eg. destruct Eg as [_ Eg]. fold q J in Eg. apply in_field in Eg. rewrite E in Eg. apply lkey_inj in Eg. subst g. reflexivity.
      - exfalso. apply find_none with (x := f) in Eg; [|apply nub_in, Hf]. fold q J in Eg. rewrite (proj2 (in_field f) E) in Eg. discriminate.
    Qed.
    Lemma cond_in j f : cls (u ++ t) = Some (RC j f) -> In f (fields_in e) /\ t = map LKey f.
    Proof. intros H. apply (d_role q1 e q2) in H. destruct H as (_ & Hf & H). split; [exact Hf|]. apply in_field, H. Qed.
    Lemma out_in : cls (u ++ t) = Some RO <-> lsel q (u ++ t) = true.
    Proof.
      split; [apply (d_role q1 e q2)|]. intros H. unfold dcls. fold q. rewrite H. reflexivity.
    Qed.
  End Inside.

  (** At an element, and where there is none around. *)
  Definition outer (w : list label) : Prop := forall n, (n < List.length w)%nat -> filtered q1 (firstn n w) = false.
  Lemma outer_lsel w : outer w -> lsel q w = false.
  Proof.
    intros Ho. destruct (lsel q w) eqn:E; [|reflexivity]. exfalso. apply (d_split q1 e q2) in E. destruct E as (u & t & -> & H1 & H2).
    destruct t as [|l t]; [destruct q2; [contradiction|discriminate]|].
    specialize (Ho (List.length u)). rewrite app_length in Ho. cbn [List.length] in Ho. specialize (Ho ltac:(lia)).
    rewrite firstn_app, firstn_all, Nat.sub_diag in Ho. cbn [firstn] in Ho. rewrite app_nil_r in Ho. congruence.
  Qed.
  Lemma outer_field w : outer w -> find (fun f => st_match (role_st q (RC J f)) w) F = None.
  Proof.
    intros Ho. destruct (find _ _) as [f|] eqn:E; [|reflexivity]. exfalso. apply find_some in E. destruct E as [Hf E]. apply nub_in in Hf.
    apply (d_field q1 e q2 Hp1 Hp2 f) in E. destruct E as (u & -> & H1). pose proof (d_fields q1 e q2 strict Hff f Hf) as Hn.
    specialize (Ho (List.length u)). rewrite app_length, map_length in Ho. destruct f; [contradiction|]. cbn [List.length] in Ho. specialize (Ho ltac:(lia)).
    rewrite firstn_app, firstn_all, Nat.sub_diag in Ho. cbn [firstn] in Ho. rewrite app_nil_r in Ho. congruence.
  Qed.
  Lemma outer_cls w : outer w -> cls w = if filtered q1 w then Some (RP J) else None.
  Proof. intros Ho. unfold dcls. pose proof (outer_lsel w Ho) as E1. pose proof (outer_field w Ho) as E2. unfold q, J, F in E1, E2. rewrite E1, E2. reflexivity. Qed.
  Lemma outer_snoc w l : outer w -> filtered q1 w = false -> outer (w ++ [l]).
  Proof.
    intros Ho H n Hn. rewrite app_length in Hn. cbn [List.length] in Hn. destruct (Nat.eq_dec n (List.length w)) as [->|Hne].
    - rewrite firstn_app, firstn_all, Nat.sub_diag. cbn [firstn]. rewrite app_nil_r. exact H.
    - rewrite firstn_app. replace (n - List.length w)%nat with O by lia. cbn [firstn]. rewrite app_nil_r. apply Ho. lia.
  Qed.

  (** ** Inside an object that the filter applies to *)
  Definition calms (ns : list (path * json)) : Prop := forall n, In n ns -> calm (labels (fst n)).
  Lemma calms_app a b : calms (a ++ b) <-> calms a /\ calms b.
  Proof.
    unfold calms. split; [intros H; split; intros n Hn; apply H, in_or_app; auto|].
    intros [H1 H2] n Hn. apply in_app_or in Hn. destruct Hn; auto.
  Qed.
  Definition picks (ns : list (path * json)) : list bytes := map (fun n => text (snd n)) (filter (fun n => lsel q (labels (fst n))) ns).
  Lemma picks_app a b : picks (a ++ b) = picks a ++ picks b.
  Proof. unfold picks. rewrite filter_app, map_app. reflexivity. Qed.
  Lemma picks_one p v : picks [(p, v)] = if lsel q (labels p) then [text v] else [].
  Proof. unfold picks. cbn [filter fst]. destruct (lsel q (labels p)); reflexivity. Qed.
  Lemma picks_len ns : zlen (picks ns) <= zlen ns.
  Proof.
    induction ns as [|[p v] ns IH]; [apply Z.le_refl|]. change ((p, v) :: ns) with ([(p, v)] ++ ns). rewrite picks_app, picks_one, !zlen_app.
    change (zlen [(p, v)]) with 1. destruct (lsel q (labels p)); [change (zlen [text v]) with 1|rewrite zlen_nil]; lia.
  Qed.
  Local Notation short := (short q).

  Section Open.
    Variables (u : list label) (C0 : list (option conditions)) (n0 : Z).
    Hypothesis Hu : filtered q1 u = true.
    Hypothesis HC0 : zlen C0 = 100.
    Hypothesis Hs : st u < 100.
    Definition tab (V : fvals) : list (option conditions) := upd C0 (Z.to_nat (st u)) (Some (map (fun f => (join f, V f)) F)).
    Definition open_state (V : fvals) (Bf O : list bytes) : pfilter := mkF (tab V) [(st u, n0)] Bf O.
    Lemma tab_read V : zread (tab V) (st u) = Ok (Some (map (fun f => (join f, V f)) F)).
    Proof. apply zread_upd_same. pose proof (st_pos u). lia. Qed.
    Lemma tab_ext V V' : (forall f, In f F -> V f = V' f) -> tab V = tab V'.
    Proof. intros H. unfold tab. do 2 f_equal. apply map_ext_in. intros f Hf. rewrite (H f Hf). reflexivity. Qed.

    Lemma cond_step t V Bf O j f txt : calm (u ++ t) -> cls (u ++ t) = Some (RC j f) -> txt <> B "{" -> txt <> B "}" ->
      filter_step N x (open_state V Bf O) (st (u ++ t), txt) = Ok (open_state (mark V t txt) Bf O).
    Proof.
      intros Hc Hk H1 H2. destruct (cond_in u t Hu Hc j f Hk) as [Hf Et].
      unfold filter_step. rewrite (proj2 (beq_false _ _) H1), (proj2 (beq_false _ _) H2). unfold filter_text, open_state. cbn [Filter.f_stack f_conds f_buffer f_output].
      rewrite tab_read. cbn [bind]. unfold getContextSubtree. rewrite (db_tree _ _ _ _ _ _ Hdb _ _ Hk). cbn [bind].
      assert (HfF : In f F) by (apply nub_in, Hf). assert (Hne : forall g, In g F -> g <> [] /\ forallb dot_free g = true).
      { intros g Hg. apply nub_in in Hg. split; [apply (d_fields q1 e q2 strict Hff g Hg)|apply Hdot, Hg]. }
      destruct (find_condition_map V F f) as (i & Hi & Hni).
      { intros g Hg Eg. apply join_inj; try apply Hne; auto. } { exact HfF. }
      destruct (map (fun f0 => (join f0, V f0)) F) as [|pc0 pcs] eqn:Epc.
      { destruct F; [contradiction|discriminate]. }
      rewrite <- Epc in Hi |- *.
      assert (Hns : node_string (EField f) = Ok (join f)).
      { pose proof (proj1 (Hne f HfF)). destruct f; [contradiction|reflexivity]. }
      rewrite Hns. cbn [bind]. rewrite Hi. unfold tab. rewrite upd_twice. rewrite (set_condition_map _ _ _ f) by (auto; apply nub_nodup).
      do 4 f_equal. apply map_ext. intros g. f_equal. unfold mark. destruct (lkeyw g t) eqn:El.
      - apply lkeyw_true in El. rewrite Et in El. apply lkey_inj in El. subst g. rewrite (proj2 (fbeq_true f f) eq_refl). reflexivity.
      - destruct (fbeq g f) eqn:Ef; [|reflexivity]. apply fbeq_true in Ef. subst g.
        rewrite (proj2 (lkeyw_true f t)) in El by (symmetry; exact Et). discriminate.
    Qed.
    Lemma mark_none t V txt : calm (u ++ t) -> (forall j f, cls (u ++ t) <> Some (RC j f)) -> tab (mark V t txt) = tab V.
    Proof.
      intros Hc Hn. apply tab_ext. intros f Hf. unfold mark. destruct (lkeyw f t) eqn:El; [|reflexivity]. exfalso.
      apply lkeyw_true in El. apply (Hn J f). apply (in_cond u t Hu Hc f); [apply nub_in, Hf|symmetry; exact El].
    Qed.
    Lemma out_step t V Bf O txt : cls (u ++ t) = Some RO -> txt <> B "{" -> txt <> B "}" -> zlen txt <= 998 -> zlen Bf + 1 <= MAX_OUTPUT ->
      filter_step N x (open_state V Bf O) (st (u ++ t), txt) = Ok (open_state V (Bf ++ [txt]) O).
    Proof.
      intros Hk H1 H2 Hl Hb. unfold filter_step. rewrite (proj2 (beq_false _ _) H1), (proj2 (beq_false _ _) H2).
      unfold filter_text, open_state. cbn [Filter.f_stack f_conds f_buffer f_output]. rewrite tab_read. cbn [bind].
      unfold getContextSubtree. rewrite (db_tree _ _ _ _ _ _ Hdb _ _ Hk). cbn [bind].
      unfold addOutputElement. replace (MAX_OUTPUT <=? zlen Bf) with false by lia. unfold strcopy, MAX_STRING.
      replace (1000 <? zlen txt + 2) with false by lia. reflexivity.
    Qed.

    (** The optional tuples. *)
    Lemma cond_or t V Bf O txt : calm (u ++ t) -> txt <> B "{" -> txt <> B "}" ->
      run (one (K (u ++ t) =? DFA_CONDITION) (st (u ++ t)) (txt)) (open_state V Bf O) = Ok (open_state (mark V t txt) Bf O).
    Proof.
      intros Hc H1 H2. destruct (Z.eqb_spec (K (u ++ t)) DFA_CONDITION) as [E|E].
      - destruct (cls (u ++ t)) as [[j|j|j f|]|] eqn:Ek; try discriminate. cbn [one foldM]. rewrite (cond_step t V Bf O j f txt Hc Ek H1 H2). reflexivity.
      - cbn [one foldM]. unfold open_state. rewrite mark_none; [reflexivity|exact Hc|]. intros j f Ek. apply E. rewrite Ek. reflexivity.
    Qed.
    Lemma out_or t V Bf O v : calm (u ++ t) -> wf v = true -> (lsel q (u ++ t) = true -> zlen (text v) <= 998) -> zlen Bf + 1 <= MAX_OUTPUT ->
      run (one (K (u ++ t) =? DFA_OUTPUT_CANDIDATE) (st (u ++ t)) (text v)) (open_state V Bf O) =
      Ok (open_state V (Bf ++ (if lsel q (u ++ t) then [text v] else [])) O).
    Proof.
      intros Hc Hw Hl Hb. destruct (lsel q (u ++ t)) eqn:E.
      - pose proof (proj2 (out_in u t) E) as Ek. rewrite Ek. cbn [dkind]. rewrite Z.eqb_refl. cbn [one foldM].
        rewrite out_step; auto; apply text_marker, Hw.
      - destruct (Z.eqb_spec (K (u ++ t)) DFA_OUTPUT_CANDIDATE) as [E'|E']; [|cbn [one foldM]; rewrite app_nil_r; reflexivity]. exfalso.
        destruct (cls (u ++ t)) as [[j|j|j f|]|] eqn:Ek; try discriminate. apply (d_role q1 e q2) in Ek. fold q in Ek. congruence.
    Qed.

    Theorem run_in :
      (forall v ar p t i V Bf O, labels p = u ++ t -> t <> [] -> calms (nodes p v) -> wf v = true -> short (nodes p v) ->
         zlen Bf + zlen (nodes p v) <= MAX_OUTPUT ->
         run (t_val d ar (st (labels p)) i v) (open_state V Bf O) = Ok (open_state (col V t v) (Bf ++ picks (nodes p v)) O)) /\
      (forall ms p t i V Bf O, labels p = u ++ t -> calms (nodes_ms p ms) -> wf_ms ms = true -> short (nodes_ms p ms) ->
         zlen Bf + zlen (nodes_ms p ms) <= MAX_OUTPUT ->
         run (t_ms d (st (labels p)) i ms) (open_state V Bf O) = Ok (open_state (col_ms V t ms) (Bf ++ picks (nodes_ms p ms)) O)) /\
      (forall l p t i V Bf O, labels p = u ++ t -> calms (nodes_es p i l) -> wf_es l = true -> short (nodes_es p i l) ->
         zlen Bf + zlen (nodes_es p i l) <= MAX_OUTPUT ->
         run (t_es d (st (labels p ++ [LIdx 0])) (Z.of_nat i) l) (open_state V Bf O) = Ok (open_state (col_es V t i l) (Bf ++ picks (nodes_es p i l)) O)).
    Proof.
      assert (Hprim : forall v s ar p t i V Bf O, v = JBare s \/ v = JStr s -> labels p = u ++ t -> calms [(p, v)] -> wf v = true -> short [(p, v)] ->
                zlen Bf + 1 <= MAX_OUTPUT ->
                run (t_val d ar (st (labels p)) i v) (open_state V Bf O) = Ok (open_state (mark V t (text v)) (Bf ++ picks [(p, v)]) O)).
      { intros v s ar p t i V Bf O Hv Hp Hc Hw Hsh Hb. rewrite (r_prim ar _ i v s Hv), picks_one.
        pose proof (Hc (p, v) (or_introl eq_refl)) as Hc1. cbn [fst] in Hc1. rewrite Hp in *. destruct (text_marker v Hw) as [M1 M2].
        destruct (cls (u ++ t)) as [[j|j|j f|]|] eqn:Ek.
        - apply (d_role q1 e q2) in Ek. contradiction.
        - cbn. assert (lsel q (u ++ t) = false) as ->.
          { destruct (lsel q (u ++ t)) eqn:El; [|reflexivity]. apply (out_in u t) in El. congruence. }
          rewrite app_nil_r. unfold open_state. rewrite mark_none; [reflexivity|exact Hc1|intros; congruence].
        - cbn [dkind]. change ((DFA_CONDITION =? DFA_OUTPUT_CANDIDATE) || (DFA_CONDITION =? DFA_CONDITION)) with true. cbn [one foldM].
          rewrite (cond_step t V Bf O j f _ Hc1 Ek M1 M2). cbn [bind]. assert (lsel q (u ++ t) = false) as ->.
          { destruct (lsel q (u ++ t)) eqn:El; [|reflexivity]. apply (out_in u t) in El. congruence. }
          rewrite app_nil_r. reflexivity.
        - cbn [dkind]. change ((DFA_OUTPUT_CANDIDATE =? DFA_OUTPUT_CANDIDATE) || (DFA_OUTPUT_CANDIDATE =? DFA_CONDITION)) with true. cbn [one foldM].
          pose proof (proj1 (out_in u t) Ek) as El. rewrite El.
          rewrite (out_step t V Bf O _ Ek M1 M2); [|apply (Hsh p v (or_introl eq_refl)); rewrite Hp; exact El|exact Hb]. cbn [bind]. unfold open_state.
          rewrite mark_none; [reflexivity|exact Hc1|intros; congruence].
        - cbn. assert (lsel q (u ++ t) = false) as ->.
          { destruct (lsel q (u ++ t)) eqn:El; [|reflexivity]. apply (out_in u t) in El. congruence. }
          rewrite app_nil_r. unfold open_state. rewrite mark_none; [reflexivity|exact Hc1|intros; congruence]. }
      apply json_all_ind.
      - intros s ar p t i V Bf O Hp Ht Hc Hw Hsh Hb. apply (Hprim (JBare s) s); auto.
      - intros s ar p t i V Bf O Hp Ht Hc Hw Hsh Hb. apply (Hprim (JStr s) s); auto.
      - intros w ms IH ar p t i V Bf O Hp Ht Hc Hw Hsh Hb. cbn [nodes] in *. apply calms_app in Hc. destruct Hc as [Hc Hc1]. apply short_app in Hsh. destruct Hsh as [Hsh Hsh1].
        specialize (Hc1 (p, JObj w ms) (or_introl eq_refl)). cbn [fst] in Hc1.
        rewrite zlen_app in Hb. change (zlen [(p, JObj w ms)]) with 1 in Hb.
        rewrite r_obj, Hp in *. pose proof (in_cls u t Hu Hc1 Ht) as Hk.
        replace (K (u ++ t) =? DFA_PREDICATE) with false.
        2:{ symmetry. apply Z.eqb_neq. intros E. destruct (cls (u ++ t)) as [[j|j|j f|]|] eqn:Ek; try discriminate.
            pose proof (d_role q1 e q2 _ _ Ek) as [-> _]. apply Hk. reflexivity. }
        rewrite andb_false_r. cbn [one]. rewrite app_nil_r, !foldM_app. rewrite (cond_or t V Bf O [] Hc1) by discriminate. cbn [bind].
        pose proof (IH p t i (mark V t []) Bf O Hp Hc) as HI. rewrite Hp in HI. rewrite foldM_app. rewrite HI by (try exact Hsh; try lia; cbn [wf] in Hw; apply andb_true_iff in Hw; apply Hw). cbn [bind].
        rewrite (out_or t _ _ O (JObj w ms) Hc1 Hw).
        + rewrite picks_app, picks_one, Hp, app_assoc. reflexivity.
        + intros El. apply (Hsh1 p (JObj w ms) (or_introl eq_refl)). rewrite Hp. exact El.
        + rewrite zlen_app. pose proof (picks_len (nodes_ms p ms)). lia.
      - intros w l IH ar p t i V Bf O Hp Ht Hc Hw Hsh Hb. cbn [nodes] in *. apply calms_app in Hc. destruct Hc as [Hc Hc1]. apply short_app in Hsh. destruct Hsh as [Hsh Hsh1].
        specialize (Hc1 (p, JArr w l) (or_introl eq_refl)). cbn [fst] in Hc1.
        rewrite zlen_app in Hb. change (zlen [(p, JArr w l)]) with 1 in Hb.
        rewrite r_arr, Hp in *. rewrite !foldM_app. rewrite (cond_or t V Bf O [] Hc1) by discriminate. cbn [bind].
        pose proof (IH p t 0%nat (mark V t []) Bf O Hp Hc) as HI. rewrite Hp in HI. rewrite foldM_app. cbn [Z.of_nat] in HI. rewrite HI by (try exact Hsh; try lia; cbn [wf] in Hw; apply andb_true_iff in Hw; apply Hw). cbn [bind].
        rewrite (out_or t _ _ O (JArr w l) Hc1 Hw).
        + rewrite picks_app, picks_one, Hp, app_assoc. reflexivity.
        + intros El. apply (Hsh1 p (JArr w l) (or_introl eq_refl)). rewrite Hp. exact El.
        + rewrite zlen_app. pose proof (picks_len (nodes_es p 0 l)). lia.
      - intros p t i V Bf O _ _ _ _ _. cbn [t_ms foldM nodes_ms col_ms]. rewrite app_nil_r. reflexivity.
      - intros m k v IHv ms IHm p t i V Bf O Hp Hc Hw Hsh Hb. cbn [nodes_ms col_ms] in *. apply calms_app in Hc. destruct Hc as [Hc Hc1]. apply short_app in Hsh. destruct Hsh as [Hsh Hsh1].
        rewrite zlen_app in Hb. pose proof (zlen_nonneg (nodes_ms p ms)). pose proof (zlen_nonneg (nodes (p ++ [(LKey k, v)]) v)).
        cbn [wf_ms] in Hw. rewrite !andb_true_iff in Hw. destruct Hw as [[_ Hwv] Hwm].
        rewrite r_ms, foldM_app. rewrite <- (labels_snoc p (LKey k) v).
        rewrite (IHv false (p ++ [(LKey k, v)]) (t ++ [LKey k]) 0 V Bf O); [| |destruct t; discriminate|exact Hc|exact Hwv|exact Hsh|lia].
        2:{ rewrite labels_snoc, Hp, app_assoc. reflexivity. }
        cbn [bind]. rewrite (IHm p t i _ _ O Hp Hc1 Hwm Hsh1).
        + rewrite picks_app, app_assoc. reflexivity.
        + rewrite zlen_app. pose proof (picks_len (nodes (p ++ [(LKey k, v)]) v)). lia.
      - intros p t i V Bf O _ _ _ _ _. cbn [t_es foldM nodes_es col_es]. rewrite app_nil_r. reflexivity.
      - intros wb v IHv wa l IHl p t i V Bf O Hp Hc Hw Hsh Hb. cbn [nodes_es col_es] in *. apply calms_app in Hc. destruct Hc as [Hc Hc1]. apply short_app in Hsh. destruct Hsh as [Hsh Hsh1].
        rewrite zlen_app in Hb. pose proof (zlen_nonneg (nodes_es p (S i) l)). pose proof (zlen_nonneg (nodes (p ++ [(LIdx i, v)]) v)).
        cbn [wf_es] in Hw. rewrite !andb_true_iff in Hw. destruct Hw as [[[_ Hwv] _] Hwl].
        rewrite r_es, foldM_app. rewrite <- (labels_snoc p (LIdx i) v).
        rewrite (IHv true (p ++ [(LIdx i, v)]) (t ++ [LIdx i]) (Z.of_nat i) V Bf O); [| |destruct t; discriminate|exact Hc|exact Hwv|exact Hsh|lia].
        2:{ rewrite labels_snoc, Hp, app_assoc. reflexivity. }
        cbn [bind]. rewrite (IHl p t (S i) _ _ O Hp Hc1 Hwl Hsh1).
        + rewrite picks_app, app_assoc. reflexivity.
        + rewrite zlen_app. pose proof (picks_len (nodes (p ++ [(LIdx i, v)]) v)). lia.
    Qed.
  End Open.

  (** ** Inside of an element that is no object *)
  Definition nomark (t : tuple) : Prop := snd t <> B "{" /\ snd t <> B "}".
  Lemma one_nomark c s txt : txt <> B "{" -> txt <> B "}" -> Forall nomark (one c s txt).
  Proof. intros H1 H2. destruct c; constructor; [split; assumption|constructor]. Qed.
  Lemma run_nomark : forall ts C Bf O, Forall nomark ts -> run ts (mkF C [] Bf O) = Ok (mkF C [] Bf O).
  Proof.
    induction ts as [|[s txt] ts IH]; intros C Bf O H; [reflexivity|]. inversion H as [|? ? [H1 H2] H3]; subst. cbn [snd] in *. cbn [foldM]. unfold filter_step at 1.
    rewrite (proj2 (beq_false _ _) H1), (proj2 (beq_false _ _) H2). unfold filter_text. cbn [Filter.f_stack bind]. apply IH, H3.
  Qed.
  Lemma in_plain u : filtered q1 u = true ->
    (forall v ar p t i, labels p = u ++ t -> t <> [] -> calms (nodes p v) -> wf v = true -> Forall nomark (t_val d ar (st (labels p)) i v)) /\
    (forall ms p t i, labels p = u ++ t -> calms (nodes_ms p ms) -> wf_ms ms = true -> Forall nomark (t_ms d (st (labels p)) i ms)) /\
    (forall l p t i, labels p = u ++ t -> calms (nodes_es p i l) -> wf_es l = true ->
       Forall nomark (t_es d (st (labels p ++ [LIdx 0])) (Z.of_nat i) l)).
  Proof.
    intros Hu. apply json_all_ind.
    - intros s ar p t i _ _ _ Hw. rewrite (r_prim ar _ i (JBare s) s) by auto. apply one_nomark; apply text_marker, Hw.
    - intros s ar p t i _ _ _ Hw. rewrite (r_prim ar _ i (JStr s) s) by auto. apply one_nomark; apply text_marker, Hw.
    - intros w ms IH ar p t i Hp Ht Hc Hw. cbn [nodes] in Hc. apply calms_app in Hc. destruct Hc as [Hc Hc1].
      specialize (Hc1 (p, JObj w ms) (or_introl eq_refl)). cbn [fst] in Hc1. rewrite r_obj. rewrite Hp in Hc1. pose proof (in_cls u t Hu Hc1 Ht) as Hk. rewrite <- Hp in Hk.
      replace (K (labels p) =? DFA_PREDICATE) with false.
      2:{ symmetry. apply Z.eqb_neq. intros E. destruct (cls (labels p)) as [[j|j|j f|]|] eqn:Ek; try discriminate.
          pose proof (d_role q1 e q2 _ _ Ek) as [-> _]. apply Hk. reflexivity. }
      rewrite andb_false_r. cbn [one]. rewrite app_nil_r. apply Forall_app. split; [apply one_nomark; discriminate|]. apply Forall_app. split.
      + apply (IH p t i Hp Hc). cbn [wf] in Hw. apply andb_true_iff in Hw. apply Hw.
      + apply one_nomark; apply text_marker, Hw.
    - intros w l IH ar p t i Hp Ht Hc Hw. cbn [nodes] in Hc. apply calms_app in Hc. destruct Hc as [Hc Hc1]. rewrite r_arr.
      apply Forall_app. split; [apply one_nomark; discriminate|]. apply Forall_app. split.
      + apply (IH p t O Hp Hc). cbn [wf] in Hw. apply andb_true_iff in Hw. apply Hw.
      + apply one_nomark; apply text_marker, Hw.
    - intros. constructor.
    - intros m k v IHv ms IHm p t i Hp Hc Hw. cbn [nodes_ms] in Hc. apply calms_app in Hc. destruct Hc as [Hc Hc1].
      cbn [wf_ms] in Hw. rewrite !andb_true_iff in Hw. destruct Hw as [[_ Hwv] Hwm].
      rewrite r_ms. rewrite <- (labels_snoc p (LKey k) v). apply Forall_app. split.
      + apply (IHv false (p ++ [(LKey k, v)]) (t ++ [LKey k])); [rewrite labels_snoc, Hp, app_assoc; reflexivity|destruct t; discriminate|exact Hc|exact Hwv].
      + apply (IHm p t i Hp Hc1 Hwm).
    - intros. constructor.
    - intros wb v IHv wa l IHl p t i Hp Hc Hw. cbn [nodes_es] in Hc. apply calms_app in Hc. destruct Hc as [Hc Hc1].
      cbn [wf_es] in Hw. rewrite !andb_true_iff in Hw. destruct Hw as [[[_ Hwv] _] Hwl].
      rewrite r_es. rewrite <- (labels_snoc p (LIdx i) v). apply Forall_app. split.
      + apply (IHv true (p ++ [(LIdx i, v)]) (t ++ [LIdx i])); [rewrite labels_snoc, Hp, app_assoc; reflexivity|destruct t; discriminate|exact Hc|exact Hwv].
      + apply (IHl p t (S i) Hp Hc1 Hwl).
  Qed.

  (** ** Which values are selected *)
  Local Notation sel := (selects (holds N) q).
  Lemma sel_parts p : sel p = true -> exists pa l v pb, p = pa ++ (l, v) :: pb /\ filtered q1 (labels (pa ++ [(l, v)])) = true /\
    is_object v && holds N e v = true /\ lsel q2 (labels pb) = true.
  Proof.
    intros H. apply (selects_app (holds N) p q1 (SFilter e :: q2) Hp1) in H. destruct H as (pa & pb & -> & H1 & H2).
    destruct pb as [|[l v] pb]; [discriminate|]. cbn [selects] in H2. apply andb_true_iff in H2. destruct H2 as [H2 H3].
    exists pa, l, v, pb. split; [reflexivity|]. destruct l as [k|i]; [discriminate|]. repeat split; [|exact H2|].
    - unfold filtered. apply SliceOne.lsel_app. exists (List.length (labels pa)). rewrite labels_snoc, app_length. split; [lia|].
      rewrite firstn_app, firstn_all, Nat.sub_diag, skipn_app, skipn_all, Nat.sub_diag. cbn [firstn skipn app]. rewrite app_nil_r. auto.
    - rewrite <- (sel_none (holds N) pb q2); [exact H3|]. intros s Hs. rewrite forallb_forall in Hp2. specialize (Hp2 s Hs). destruct s; try discriminate; reflexivity.
  Qed.
  Lemma labels_app a b : labels (a ++ b) = labels a ++ labels b.
  Proof. apply map_app. Qed.
  Lemma sel_outer p : outer (labels p) -> sel p = false.
  Proof.
    intros Ho. destruct (sel p) eqn:E; [|reflexivity]. exfalso. apply sel_parts in E. destruct E as (pa & l & v & pb & -> & H1 & _ & H2).
    pose proof (outer_lsel _ Ho) as Hl. assert (lsel q (labels (pa ++ (l, v) :: pb)) = true); [|congruence].
    apply (d_split q1 e q2). exists (labels (pa ++ [(l, v)])), (labels pb). split; [|auto].
    rewrite !labels_app. cbn [labels map fst]. rewrite <- app_assoc. reflexivity.
  Qed.
  Lemma sel_in p0 l v r : filtered q1 (labels (p0 ++ [(l, v)])) = true -> calm (labels ((p0 ++ [(l, v)]) ++ r)) ->
    sel ((p0 ++ [(l, v)]) ++ r) = is_object v && holds N e v && lsel q (labels ((p0 ++ [(l, v)]) ++ r)).
  Proof.
    intros Hu Hc. rewrite (labels_app (p0 ++ [(l, v)]) r) in *. rewrite (in_out _ _ Hu Hc). apply eq_true_iff_eq. rewrite !andb_true_iff. split.
    - intros H. apply sel_parts in H. destruct H as (pa & l' & v' & pb & E & H1 & H2 & H3).
      assert (E' : (p0 ++ [(l, v)]) ++ r = (pa ++ [(l', v')]) ++ pb) by (rewrite E, <- app_assoc; reflexivity).
      assert (El : labels (p0 ++ [(l, v)]) ++ labels r = labels (pa ++ [(l', v')]) ++ labels pb) by (rewrite <- !labels_app, E'; reflexivity).
      destruct (calm_split _ _ _ _ Hc El Hu H1) as [E1 _].
      assert (En : List.length (p0 ++ [(l, v)]) = List.length (pa ++ [(l', v')])).
      { apply (f_equal (@List.length label)) in E1. unfold labels in E1. rewrite !map_length in E1. exact E1. }
      destruct (app_len _ _ _ _ En E') as [E2 ->]. apply app_inj_tail in E2. destruct E2 as [_ E2]. injection E2 as -> ->.
      apply andb_true_iff in H2. auto.
    - intros [[H1 H2] H3]. rewrite <- app_assoc. unfold q.
      destruct (proj1 (SliceOne.lsel_app (labels (p0 ++ [(l, v)])) q1 [SAll]) Hu) as (n & Hn & A1 & A2).
      assert (En : n = List.length p0).
      { assert (Hl : List.length (skipn n (labels (p0 ++ [(l, v)]))) = 1%nat).
        { destruct (skipn n _) as [|y [|z ys]]; [discriminate|reflexivity|]. cbn in A2. destruct y; [discriminate|]. destruct ys; discriminate. }
        rewrite skipn_length in Hl. unfold labels in Hl, Hn. rewrite map_length, app_length in Hl, Hn. cbn [List.length] in *. lia. }
      subst n. rewrite labels_snoc in A1, A2. replace (List.length p0) with (List.length (labels p0)) in A1, A2 by (unfold labels; apply map_length).
      rewrite firstn_app, firstn_all, Nat.sub_diag in A1. cbn [firstn] in A1. rewrite app_nil_r in A1.
      rewrite skipn_app, skipn_all, Nat.sub_diag in A2. cbn [skipn app] in A2.
      apply selects_join; [exact Hp1|exact A1|]. cbn [app selects]. rewrite H1, H2. destruct l as [k|i]; [discriminate|].
      cbn [andb]. rewrite sel_none; [exact H3|]. intros s Hs. rewrite forallb_forall in Hp2. specialize (Hp2 s Hs). destruct s; try discriminate; reflexivity.
  Qed.

  Definition sels (ns : list (path * json)) : list bytes := map (fun n => text (snd n)) (filter (fun n => sel (fst n)) ns).
  Lemma sels_app a b : sels (a ++ b) = sels a ++ sels b.
  Proof. unfold sels. rewrite filter_app, map_app. reflexivity. Qed.
  Lemma sels_len ns : zlen (sels ns) <= zlen ns.
  Proof.
    unfold sels, zlen. rewrite map_length. induction ns as [|n ns IH]; [cbn; lia|]. cbn [filter]. destruct (sel (fst n)); cbn [List.length]; lia.
  Qed.
  Lemma sels_self p v : outer (labels p) -> sels [(p, v)] = [].
  Proof. intros H. unfold sels. cbn [filter fst]. rewrite (sel_outer p H). reflexivity. Qed.
  Lemma sels_in p0 l v ns : filtered q1 (labels (p0 ++ [(l, v)])) = true -> calms ns -> (forall n, In n ns -> exists r, fst n = (p0 ++ [(l, v)]) ++ r) ->
    sels ns = if is_object v && holds N e v then picks ns else [].
  Proof.
    intros Hu Hc Hr. unfold sels, picks.
    assert (E : forall n, In n ns -> sel (fst n) = is_object v && holds N e v && lsel q (labels (fst n))).
    { intros n Hn. destruct (Hr n Hn) as (r & E). pose proof (Hc n Hn) as Hcn. rewrite E in *. apply sel_in; assumption. }
    destruct (is_object v && holds N e v); cbn [andb] in E.
    - f_equal. apply filter_ext_in. exact E.
    - rewrite (filter_none _ ns E). reflexivity.
  Qed.

  (** ** The whole document *)
  Definition clear (C : list (option conditions)) : Prop :=
    zlen C = 100 /\ forall w, cls w = Some (RP J) -> zread C (st w) = Ok (Some (map (fun f => (join f, None)) F)).
  Definition sound (ns : list (path * json)) : Prop := forall p v, In (p, v) ns -> is_object v = true -> filtered q1 (labels p) = true -> meaningful N e v.
  Lemma sound_app a b : sound (a ++ b) <-> sound a /\ sound b.
  Proof.
    unfold sound. split; [intros H; split; intros p v Hn; apply (H p v), in_or_app; auto|].
    intros [H1 H2] p v Hn. apply in_app_or in Hn. destruct Hn; eauto.
  Qed.
  Lemma picks_short ns : short ns -> Forall (fun t : bytes => zlen t <= 998) (picks ns).
  Proof.
    intros H. apply Forall_forall. intros t Ht. unfold picks in Ht. apply in_map_iff in Ht. destruct Ht as ([p v] & <- & Hn).
    apply filter_In in Hn. destruct Hn as [Hn Hl]. apply (H p v Hn Hl).
  Qed.

  Lemma run_elem p0 l ws ms i C O : let v := JObj ws ms in let p := p0 ++ [(l, v)] in
    outer (labels p) -> filtered q1 (labels p) = true -> calms (nodes p v) -> wf v = true -> short (nodes p v) -> sound (nodes p v) -> clear C ->
    zlen O + zlen (nodes p v) <= MAX_OUTPUT ->
    run (t_val d true (st (labels p)) i v) (mkF C [] [] O) = Ok (mkF C [] [] (O ++ sels (nodes p v))).
  Proof.
    intros v p Ho Hu Hc Hw Hsh Hso [HC Hcl] Hb. pose proof (outer_cls _ Ho) as Hk. rewrite Hu in Hk.
    pose proof (Hcl _ Hk) as Hread. pose proof (st_pos (labels p)) as Hpos. pose proof (Hfit _ Hk) as Hlt.
    unfold v at 1. rewrite r_obj, Hk. cbn [dkind andb]. change (DFA_PREDICATE =? DFA_PREDICATE) with true. change (DFA_PREDICATE =? DFA_OUTPUT_CANDIDATE) with false.
    cbn [one app]. cbn [foldM]. unfold filter_step at 1. rewrite beq_refl. unfold filter_open. cbn [Filter.f_stack f_conds f_buffer f_output List.length Nat.leb MAX_STACK_ELEMENT bind].
    rewrite zlen_nil.
    assert (EC : C = tab (labels p) C (fun _ => None)).
    { unfold tab. symmetry. apply upd_self. unfold zread, znth in Hread. destruct (st (labels p) <? 0); [discriminate|].
      destruct (nth_error C (Z.to_nat (st (labels p)))); [|discriminate]. injection Hread as ->. reflexivity. }
    unfold v in Hc, Hsh, Hso, Hb. cbn [nodes] in Hc, Hsh, Hso, Hb. fold v in Hc, Hsh, Hso, Hb. apply calms_app in Hc. destruct Hc as [Hc _].
    apply short_app in Hsh. destruct Hsh as [Hsh _]. rewrite zlen_app in Hb. change (zlen [(p, v)]) with 1 in Hb.
    rewrite foldM_app. rewrite EC at 1.
    pose proof (proj1 (proj2 (run_in (labels p) C 0 Hu HC Hlt)) ms p [] i (fun _ => None) [] O (eq_sym (app_nil_r _)) Hc) as HI. unfold open_state in HI.
    rewrite HI; [|cbn [wf] in Hw; apply andb_true_iff in Hw; apply Hw|exact Hsh|rewrite zlen_nil; pose proof (zlen_nonneg O); clear - Hb H; lia]. clear HI. cbn [bind app].
    cbn [foldM]. unfold filter_step. replace (beq (B "}") (B "{")) with false by reflexivity. rewrite beq_refl.
    unfold filter_close. cbn [Filter.f_stack f_conds f_buffer f_output]. unfold read_conds. cbn [f_conds]. rewrite (tab_read (labels p) C Hu HC Hlt). cbn [bind].
    unfold getContextSubtree. rewrite (db_tree _ _ _ _ _ _ Hdb _ _ Hk). cbn [bind].
    assert (Hev : evaluateExpression N e (map (fun f => (join f, col_ms (fun _ => None) [] ms f)) F) = Ok (holds N e v)).
    { rewrite <- (ev_holds N e v).
      - unfold ev. f_equal. apply map_ext_in. intros f Hf. f_equal. unfold v. cbn [col]. apply (proj1 (proj2 (col_ext f))). unfold mark.
        destruct (lkeyw f []) eqn:E; [|reflexivity]. exfalso. apply lkeyw_true in E. apply nub_in in Hf. pose proof (d_fields q1 e q2 strict Hff f Hf). destruct f; [contradiction|discriminate].
      - intros f Hf. split; [apply (d_fields q1 e q2 strict Hff f Hf)|apply Hdot, Hf].
      - apply (Hso p v); [apply in_or_app; right; left; reflexivity|reflexivity|exact Hu]. }
    rewrite Hev. cbn [bind]. cbn [Z.to_nat firstn skipn].
    assert (Hupd : upd (tab (labels p) C (col_ms (fun _ => None) [] ms)) (Z.to_nat (st (labels p)))
               (Some (clearPredicateCondtion (map (fun f => (join f, col_ms (fun _ => None) [] ms f)) F))) = C).
    { unfold tab. rewrite upd_twice. rewrite EC at 2. unfold tab. do 2 f_equal. unfold clearPredicateCondtion. rewrite map_map. reflexivity. }
    rewrite Hupd.
    assert (Hpre : forall n, In n (nodes_ms p ms) -> exists r, fst n = (p0 ++ [(l, v)]) ++ r).
    { intros n Hn. destruct (proj1 nodes_paths v p n) as (r & E & _); [unfold v; cbn [nodes]; apply in_or_app; left; exact Hn|]. exists r. exact E. }
    unfold v at 2. cbn [nodes]. fold v. rewrite sels_app, (sels_self p v Ho), app_nil_r, (sels_in p0 l v _ Hu Hc Hpre). cbn [is_object andb].
    replace (is_object v) with true by reflexivity. cbn [andb].
    destruct (holds N e v).
    - rewrite add_all; [reflexivity| |apply picks_short, Hsh]. pose proof (picks_len (nodes_ms p ms)). lia.
    - rewrite app_nil_r. reflexivity.
  Qed.

  Theorem run_all :
    (forall v ar p i C O, outer (labels p) -> (filtered q1 (labels p) = true -> ar = true /\ exists p0 l, p = p0 ++ [(l, v)]) ->
       calms (nodes p v) -> wf v = true -> short (nodes p v) -> sound (nodes p v) -> clear C -> zlen O + zlen (nodes p v) <= MAX_OUTPUT ->
       run (t_val d ar (st (labels p)) i v) (mkF C [] [] O) = Ok (mkF C [] [] (O ++ sels (nodes p v)))) /\
    (forall ms p i C O, outer (labels p) -> filtered q1 (labels p) = false ->
       calms (nodes_ms p ms) -> wf_ms ms = true -> short (nodes_ms p ms) -> sound (nodes_ms p ms) -> clear C -> zlen O + zlen (nodes_ms p ms) <= MAX_OUTPUT ->
       run (t_ms d (st (labels p)) i ms) (mkF C [] [] O) = Ok (mkF C [] [] (O ++ sels (nodes_ms p ms)))) /\
    (forall l p i C O, outer (labels p) -> filtered q1 (labels p) = false ->
       calms (nodes_es p i l) -> wf_es l = true -> short (nodes_es p i l) -> sound (nodes_es p i l) -> clear C -> zlen O + zlen (nodes_es p i l) <= MAX_OUTPUT ->
       run (t_es d (st (labels p ++ [LIdx 0])) (Z.of_nat i) l) (mkF C [] [] O) = Ok (mkF C [] [] (O ++ sels (nodes_es p i l)))).
  Proof.
    assert (Hprim : forall v s ar p i C O, v = JBare s \/ v = JStr s -> outer (labels p) ->
              run (t_val d ar (st (labels p)) i v) (mkF C [] [] O) = Ok (mkF C [] [] (O ++ sels [(p, v)]))).
    { intros v s ar p i C O Hv Ho. rewrite (r_prim ar _ i v s Hv), (outer_cls _ Ho), (sels_self p v Ho), app_nil_r. destruct (filtered q1 (labels p)); reflexivity. }
    apply json_all_ind.
    - intros s ar p i C O Ho _ _ _ _ _ _ _. apply (Hprim (JBare s) s); auto.
    - intros s ar p i C O Ho _ _ _ _ _ _ _. apply (Hprim (JStr s) s); auto.
    - intros w ms IH ar p i C O Ho Hel Hc Hw Hsh Hso HC Hb. destruct (filtered q1 (labels p)) eqn:Hu.
      + destruct (Hel eq_refl) as [-> (p0 & l & ->)]. apply run_elem; assumption.
      + cbn [nodes] in *. apply calms_app in Hc. destruct Hc as [Hc _]. apply short_app in Hsh. destruct Hsh as [Hsh _]. apply sound_app in Hso. destruct Hso as [Hso _].
        rewrite zlen_app in Hb. change (zlen [(p, JObj w ms)]) with 1 in Hb.
        rewrite r_obj, (outer_cls _ Ho), Hu. cbn [dkind]. change (0 =? DFA_PREDICATE) with false. change (0 =? DFA_CONDITION) with false. change (0 =? DFA_OUTPUT_CANDIDATE) with false.
        rewrite andb_false_r. cbn [one app]. rewrite app_nil_r, sels_app, (sels_self p _ Ho), app_nil_r. apply IH; auto; [|lia]. cbn [wf] in Hw. apply andb_true_iff in Hw. apply Hw.
    - intros w l IH ar p i C O Ho Hel Hc Hw Hsh Hso HC Hb. cbn [nodes] in *. apply calms_app in Hc. destruct Hc as [Hc _].
      cbn [wf] in Hw. apply andb_true_iff in Hw. destruct Hw as [_ Hw]. rewrite r_arr, (outer_cls _ Ho), sels_app, (sels_self p _ Ho), app_nil_r.
      destruct (filtered q1 (labels p)) eqn:Hu; cbn [dkind].
      + change (DFA_PREDICATE =? DFA_CONDITION) with false. change (DFA_PREDICATE =? DFA_OUTPUT_CANDIDATE) with false. cbn [one app]. rewrite app_nil_r.
        rewrite run_nomark by (apply (proj2 (proj2 (in_plain (labels p) Hu)) l p [] 0%nat (eq_sym (app_nil_r _)) Hc Hw)).
        destruct (Hel eq_refl) as [_ (p0 & l0 & Ep)]. rewrite (sels_in p0 l0 (JArr w l)); [cbn [is_object andb]; rewrite app_nil_r; reflexivity|rewrite <- Ep; exact Hu|exact Hc|].
        intros n Hn. rewrite <- Ep. destruct (proj1 nodes_paths (JArr w l) p n) as (r & E & _); [cbn [nodes]; apply in_or_app; left; exact Hn|]. exists r. exact E.
      + change (0 =? DFA_CONDITION) with false. change (0 =? DFA_OUTPUT_CANDIDATE) with false. cbn [one app]. rewrite app_nil_r.
        apply short_app in Hsh. destruct Hsh as [Hsh _]. apply sound_app in Hso. destruct Hso as [Hso _].
        rewrite zlen_app in Hb. change (zlen [(p, JArr w l)]) with 1 in Hb. apply (IH p 0%nat); auto; lia.
    - intros p i C O _ _ _ _ _ _ _ _. cbn [t_ms foldM nodes_ms]. rewrite app_nil_r. reflexivity.
    - intros m k v IHv ms IHm p i C O Ho Hu Hc Hw Hsh Hso HC Hb. cbn [nodes_ms] in *. apply calms_app in Hc. destruct Hc as [Hc Hc1]. apply short_app in Hsh. destruct Hsh as [Hsh Hsh1].
      apply sound_app in Hso. destruct Hso as [Hso Hso1]. rewrite zlen_app in Hb. pose proof (zlen_nonneg (nodes_ms p ms)). pose proof (zlen_nonneg (nodes (p ++ [(LKey k, v)]) v)).
      cbn [wf_ms] in Hw. rewrite !andb_true_iff in Hw. destruct Hw as [[_ Hwv] Hwm].
      rewrite r_ms, foldM_app, <- (labels_snoc p (LKey k) v). rewrite (IHv false (p ++ [(LKey k, v)]) 0 C O); auto; [| | |lia].
      2:{ rewrite labels_snoc. apply outer_snoc; assumption. }
      2:{ intros E. exfalso. rewrite labels_snoc in E. destruct (d_last q1 e Hp1 _ E) as (u' & i' & E'). apply app_inj_tail in E'. destruct E'. discriminate. }
      cbn [bind]. rewrite (IHm p i C); auto; [rewrite sels_app, app_assoc; reflexivity|]. rewrite zlen_app. pose proof (sels_len (nodes (p ++ [(LKey k, v)]) v)). lia.
    - intros p i C O _ _ _ _ _ _ _ _. cbn [t_es foldM nodes_es]. rewrite app_nil_r. reflexivity.
    - intros wb v IHv wa l IHl p i C O Ho Hu Hc Hw Hsh Hso HC Hb. cbn [nodes_es] in *. apply calms_app in Hc. destruct Hc as [Hc Hc1]. apply short_app in Hsh. destruct Hsh as [Hsh Hsh1].
      apply sound_app in Hso. destruct Hso as [Hso Hso1]. rewrite zlen_app in Hb. pose proof (zlen_nonneg (nodes_es p (S i) l)). pose proof (zlen_nonneg (nodes (p ++ [(LIdx i, v)]) v)).
      cbn [wf_es] in Hw. rewrite !andb_true_iff in Hw. destruct Hw as [[[_ Hwv] _] Hwl].
      rewrite r_es, foldM_app, <- (labels_snoc p (LIdx i) v). rewrite (IHv true (p ++ [(LIdx i, v)]) (Z.of_nat i) C O); auto; [| | |lia].
      2:{ rewrite labels_snoc. apply outer_snoc; assumption. }
      2:{ intros _. split; [reflexivity|]. exists p, (LIdx i). reflexivity. }
      cbn [bind]. rewrite (IHl p (S i) C); auto; [rewrite sels_app, app_assoc; reflexivity|]. rewrite zlen_app. pose proof (sels_len (nodes (p ++ [(LIdx i, v)]) v)). lia.
  Qed.

  (** ** How much the tables have to hold *)
  Definition fair (ns : list (path * json)) (t : tuple) : Prop :=
    zlen (snd t) <= 1 \/ exists n, In n ns /\ snd t = text (snd n) /\ (lsel q (labels (fst n)) = true \/ tested q (labels (fst n))).
  Lemma fair_mono a b ts : (forall n, In n a -> In n b) -> Forall (fair a) ts -> Forall (fair b) ts.
  Proof. intros Hi H. eapply Forall_impl; [|exact H]. intros t [Ht|(n & Hn & Ht)]; [left; exact Ht|right; exists n; auto]. Qed.
  Lemma cond_tested w j f : cls w = Some (RC j f) -> tested q w.
  Proof.
    intros H. apply (d_role q1 e q2) in H. destruct H as (_ & Hf & H). apply (d_field q1 e q2 Hp1 Hp2 f) in H. destruct H as (u & -> & H).
    exists J, e, f, u. split; [unfold q, J; rewrite nth_error_app2, Nat.sub_diag by apply le_n; reflexivity|]. split; [exact Hf|]. split; [reflexivity|].
    replace (firstn (S J) q) with (q1 ++ [SFilter e]); [rewrite <- filtered_lsel; exact H|].
    unfold q, J. replace (S (List.length q1)) with (List.length (q1 ++ [SFilter e])) by (rewrite app_length; cbn; lia).
    change (SFilter e :: q2) with ([SFilter e] ++ q2). rewrite app_assoc, firstn_app, Nat.sub_diag, firstn_all. cbn [firstn]. rewrite app_nil_r. reflexivity.
  Qed.
  Lemma one_fair c s txt ns : zlen txt <= 1 -> Forall (fair ns) (one c s txt).
  Proof. intros H. destruct c; constructor; [left; exact H|constructor]. Qed.
  Lemma one_text c p v ns : In (p, v) ns -> (c = true -> K (labels p) = DFA_OUTPUT_CANDIDATE \/ K (labels p) = DFA_CONDITION) ->
    Forall (fair ns) (one c (st (labels p)) (text v)).
  Proof.
    intros Hin Hc. destruct c; constructor; [|constructor]. right. exists (p, v). cbn [fst snd]. repeat split; auto.
    destruct (Hc eq_refl) as [H|H]; destruct (cls (labels p)) as [[j|j|j f|]|] eqn:Ek; try discriminate.
    - left. apply (d_role q1 e q2) in Ek. exact Ek.
    - right. apply (cond_tested _ _ _ Ek).
  Qed.
  Lemma one_len c s txt : zlen (one c s txt) = if c then 1 else 0.
  Proof. destruct c; reflexivity. Qed.

  Theorem tuples_fair :
    (forall v ar p i, zlen (t_val d ar (st (labels p)) i v) <= 2 * zlen (nodes p v) /\ Forall (fair (nodes p v)) (t_val d ar (st (labels p)) i v)) /\
    (forall ms p i, zlen (t_ms d (st (labels p)) i ms) <= 2 * zlen (nodes_ms p ms) /\ Forall (fair (nodes_ms p ms)) (t_ms d (st (labels p)) i ms)) /\
    (forall l p i, zlen (t_es d (st (labels p ++ [LIdx 0])) (Z.of_nat i) l) <= 2 * zlen (nodes_es p i l) /\
       Forall (fair (nodes_es p i l)) (t_es d (st (labels p ++ [LIdx 0])) (Z.of_nat i) l)).
  Proof.
    assert (Hprim : forall v s ar p i, v = JBare s \/ v = JStr s ->
       zlen (t_val d ar (st (labels p)) i v) <= 2 * zlen [(p, v)] /\ Forall (fair [(p, v)]) (t_val d ar (st (labels p)) i v)).
    { intros v s ar p i Hv. rewrite (r_prim ar _ i v s Hv), one_len. split; [change (zlen [(p, v)]) with 1; destruct (_ || _); lia|].
      apply one_text; [left; reflexivity|]. intros E. apply orb_true_iff in E. destruct E as [E|E]; apply Z.eqb_eq in E; auto. }
    apply json_all_ind.
    - intros s ar p i. apply (Hprim (JBare s) s). auto.
    - intros s ar p i. apply (Hprim (JStr s) s). auto.
    - intros w ms IH ar p i. cbn [nodes]. rewrite r_obj. destruct (IH p i) as [H1 H2]. split.
      + rewrite !zlen_app, !one_len. change (zlen [(p, JObj w ms)]) with 1.
        assert (zlen (if K (labels p) =? DFA_PREDICATE then one true (st (labels p)) (B "{") else one (K (labels p) =? DFA_CONDITION) (st (labels p)) []) = if (K (labels p) =? DFA_PREDICATE) || (K (labels p) =? DFA_CONDITION) then 1 else 0) as ->
          by (destruct (K (labels p) =? DFA_PREDICATE); rewrite one_len; reflexivity).
        revert H1. generalize (zlen (t_ms d (st (labels p)) i ms)) as a. generalize (zlen (nodes_ms p ms)) as b. intros b a H1.
        destruct (cls (labels p)) as [[]|]; cbn [dkind]; destruct ar; cbn -[Z.mul Z.add Z.le]; lia.
      + apply Forall_app. split; [destruct (K (labels p) =? DFA_PREDICATE); apply one_fair; cbn; lia|]. apply Forall_app. split.
        * eapply fair_mono; [|exact H2]. intros n Hn. apply in_or_app. left. exact Hn.
        * apply Forall_app. split; [|apply one_fair; cbn; lia]. apply one_text; [apply in_or_app; right; left; reflexivity|].
          intros E. apply Z.eqb_eq in E. auto.
    - intros w l IH ar p i. cbn [nodes]. rewrite r_arr. destruct (IH p O) as [H1 H2]. cbn [Z.of_nat] in H1, H2. split.
      + rewrite !zlen_app, !one_len. change (zlen [(p, JArr w l)]) with 1. destruct (_ =? _); destruct (_ =? _); lia.
      + apply Forall_app. split; [apply one_fair; cbn; lia|]. apply Forall_app. split.
        * eapply fair_mono; [|exact H2]. intros n Hn. apply in_or_app. left. exact Hn.
        * apply one_text; [apply in_or_app; right; left; reflexivity|]. intros E. apply Z.eqb_eq in E. auto.
    - intros p i. split; [cbn; lia|constructor].
    - intros m k v IHv ms IHm p i. cbn [nodes_ms]. rewrite r_ms, <- (labels_snoc p (LKey k) v).
      destruct (IHv false (p ++ [(LKey k, v)]) 0) as [H1 H2]. destruct (IHm p i) as [H3 H4]. split; [rewrite !zlen_app; lia|].
      apply Forall_app. split; [eapply fair_mono; [|exact H2]|eapply fair_mono; [|exact H4]]; intros n Hn; apply in_or_app; auto.
    - intros p i. split; [cbn; lia|constructor].
    - intros wb v IHv wa l IHl p i. cbn [nodes_es]. rewrite r_es, <- (labels_snoc p (LIdx i) v).
      destruct (IHv true (p ++ [(LIdx i, v)]) (Z.of_nat i)) as [H1 H2]. destruct (IHl p (S i)) as [H3 H4]. split; [rewrite !zlen_app; lia|].
      apply Forall_app. split; [eapply fair_mono; [|exact H2]|eapply fair_mono; [|exact H4]]; intros n Hn; apply in_or_app; auto.
  Qed.

  (** ** The initial tables *)
  Lemma init_loop : forall ss C0, zlen C0 = 100 -> (forall s, In s ss -> exists w, st w = s /\ cls w = Some (RP J)) ->
    exists C, foldM (init_pred x) ss C0 = Ok C /\ zlen C = 100 /\
      (forall w, cls w = Some (RP J) -> In (st w) ss \/ zread C0 (st w) = Ok (Some (map (fun f => (join f, None)) F)) ->
         zread C (st w) = Ok (Some (map (fun f => (join f, None)) F))) /\
      (ss = [] -> C = C0) .
  Proof.
    induction ss as [|s ss IH]; intros C0 HC Hall.
    - exists C0. split; [reflexivity|]. split; [exact HC|]. split; [intros w _ [[]|H]; exact H|reflexivity].
    - destruct (Hall s (or_introl eq_refl)) as (w & Es & Hc). cbn [foldM].
      destruct (db_map _ _ _ _ _ _ Hdb w Hc) as (l & Hm & Hi). unfold init_pred at 1. rewrite <- Es, Hm. cbn [bind].
      pose proof (st_pos w). pose proof (Hfit w Hc).
      replace ((st w <? 0) || (Z.of_nat MAX_PREDICATE_STATE <=? st w)) with false by (change (Z.of_nat MAX_PREDICATE_STATE) with 100; lia).
      rewrite Hi. cbn [bind].
      destruct (IH (upd C0 (Z.to_nat (st w)) (Some (map (fun f => (join f, None)) F)))) as (C & Hr & HlC & Hrep & _).
      { unfold zlen in *. rewrite upd_length. exact HC. }
      { intros s' Hs'. apply Hall. right. exact Hs'. }
      exists C. split; [exact Hr|]. split; [exact HlC|]. split; [|discriminate]. intros w' Hc' Hor. apply Hrep; [exact Hc'|].
      destruct (Z.eq_dec (st w') (st w)) as [E|E].
      + right. rewrite E. apply zread_upd_same. unfold zlen in *. lia.
      + destruct Hor as [[Hor|Hor]|Hor]; [congruence|left; exact Hor|]. right. rewrite zread_upd_other; auto using st_pos.
  Qed.
  Lemma init_clear : exists C, initPredicateFilter x = Ok (mkF C [] [] []) /\ clear C.
  Proof.
    destruct (init_loop (x_preds x) (repeat None MAX_PREDICATE_STATE)) as (C & Hr & HlC & Hrep & _).
    { reflexivity. }
    { intros s Hs. apply (db_preds _ _ _ _ _ _ Hdb) in Hs. exact Hs. }
    exists C. unfold initPredicateFilter. rewrite Hr. split; [reflexivity|]. split; [exact HlC|].
    intros w Hc. apply Hrep; [exact Hc|]. left. apply (db_preds _ _ _ _ _ _ Hdb). eauto.
  Qed.
  (** The filter has a state of its own. *)
  Lemma has_pred C : clear C -> no_predicates (mkF C [] [] []) = false.
  Proof.
    intros [HC H]. set (w := map Roles.wit (stack_of q1 ++ [SeArray])).
    assert (Hf : filtered q1 w = true) by (rewrite <- (d_elem q1 e q2 Hp1); apply st_match_wit).
    assert (Hw : cls w = Some (RP J)).
    { unfold dcls. assert (lsel q w = false) as E1.
      { destruct (lsel q w) eqn:E; [|reflexivity]. exfalso. unfold q in E. rewrite <- (d_out q1 e q2 Hp1 Hp2) in E. apply st_match_min in E.
        rewrite (d_stack q1 e q2), app_length in E. unfold w in E. rewrite map_length in E. destruct (stack_of q2) eqn:E2; [|cbn in E; lia].
        destruct q2 as [|s l]; [contradiction|]. pose proof Hp2 as Hp. cbn [forallb] in Hp. apply andb_true_iff in Hp. destruct s; destruct Hp; try discriminate; discriminate. }
      unfold q in E1. rewrite E1. destruct (find _ _) as [f|] eqn:Ef; [|rewrite Hf; reflexivity]. exfalso. apply find_some in Ef. destruct Ef as [Hfi Ef].
      apply nub_in in Hfi. destruct (DescBuild.field_last q1 e q2 strict Hp1 Hp2 Hff w f Hfi Ef) as (u & k & E). destruct (d_last q1 e Hp1 w Hf) as (u' & i & E').
      rewrite E in E'. apply app_inj_tail in E'. destruct E'. discriminate. }
    unfold no_predicates. cbn [f_conds]. destruct (forallb _ C) eqn:E; [|reflexivity]. exfalso. rewrite forallb_forall in E.
    specialize (H w Hw). unfold zread, znth in H. destruct (st w <? 0); [discriminate|]. destruct (nth_error C _) as [o|] eqn:En; [|discriminate].
    injection H as ->. apply nth_error_In in En. apply E in En. discriminate.
  Qed.
End DRun.

(** * The serial run *)
Theorem desc_answer N strict q1 e q2 j dc : let q := q1 ++ SFilter e :: q2 in
  forallb is_path_step q1 = true -> forallb is_path_step q2 = true -> q2 <> [] -> untested q = true ->
  fields_ok q = true -> (strict = true -> single_names q) -> names_fit q = true -> predicates_fit strict q ->
  good_doc dc -> limits q (d_val dc) -> filters_meaningful N q (d_val dc) -> not_nested q1 (d_val dc) -> j_major_null j = true ->
  exists p, createPathProcessor strict q = Ok p /\ serialRun N j p (doc_text dc) = Ok (Some (answer_text (holds N) q (d_val dc))).
Proof.
  intros q Hp1 Hp2 Hq2 Hunt Hfields Hsingle Hnames Hpf [Hwf Hsafe Hbl Hsize] Hlim Hmean Hnest Hj.
  assert (Hqf : forall f, In f (fields_in e) -> In f (query_fields q)).
  { intros f Hf. unfold query_fields, q. apply in_flat_map. exists (SFilter e). split; [apply in_or_app; right; left; reflexivity|exact Hf]. }
  assert (Hff : fields_fine strict q).
  { intros f Hf. unfold fields_ok in Hfields. rewrite forallb_forall in Hfields. specialize (Hfields f Hf). apply andb_true_iff in Hfields.
    split; [intros ->; destruct Hfields; discriminate|]. intros Hs. apply (Hsingle Hs f Hf). }
  assert (Hdot : forall f, In f (fields_in e) -> forallb dot_free f = true).
  { intros f Hf. unfold fields_ok in Hfields. rewrite forallb_forall in Hfields. specialize (Hfields f (Hqf f Hf)). apply andb_true_iff in Hfields. apply Hfields. }
  assert (Hun : forall f, In f (fields_in e) -> lsel q2 (map LKey f) = false).
  { intros f Hf. clear - Hp1 Hunt Hf. unfold q in Hunt. induction q1 as [|s l IH].
    - cbn [app untested] in Hunt. apply andb_true_iff in Hunt. destruct Hunt as [H _]. rewrite forallb_forall in H. apply negb_true_iff, H, Hf.
    - cbn [forallb] in Hp1. apply andb_true_iff in Hp1. destruct Hp1 as [Hs Hl]. apply IH; [exact Hl|]. destruct s; try discriminate; exact Hunt. }
  destruct (desc_built q1 e q2 strict Hp1 Hp2 Hff Hq2 Hun Hnames) as (d & x & st & Hb & Hdb). exists (mkProc d x).
  unfold createPathProcessor. fold q in Hb. rewrite Hb. split; [reflexivity|].
  assert (Hfit : forall w, dcls q1 e q2 w = Some (RP (List.length q1)) -> st w < 100).
  { intros w Hw. specialize (Hpf d x Hb). rewrite Forall_forall in Hpf. apply Hpf. apply (db_preds _ _ _ _ _ _ Hdb). eauto. }
  assert (Hdt : doc_text dc = d_pre dc ++ text (d_val dc) ++ d_post dc) by reflexivity.
  assert (Htxt : 0 < zlen (text (d_val dc)) /\ zlen (text (d_val dc)) <= zlen (doc_text dc)).
  { rewrite Hdt, !zlen_app. pose proof (zlen_nonneg (d_pre dc)). pose proof (zlen_nonneg (d_post dc)).
    pose proof (text_pos (d_val dc) (wf_doc_val dc Hwf)). lia. }
  set (v := d_val dc) in *. set (ts := t_val d false 1 0 v).
  pose proof (db_start _ _ _ _ _ _ Hdb) as Hst.
  destruct (proj1 (tuples_fair q1 e q2 Hp1 Hp2 d x st Hdb) v false [] 0) as [Hcount Hfair]. cbn [labels map] in Hcount, Hfair. rewrite Hst in Hcount, Hfair. fold ts in Hcount, Hfair.
  pose proof (lim_nodes _ _ Hlim) as Hn.
  assert (Ht1 : Forall (fun t : tuple => zlen (snd t) <= 998) ts).
  { eapply Forall_impl; [|exact Hfair]. intros t [Ht|([p u] & Ht & -> & Hor)]; [lia|]. apply (lim_text _ _ Hlim p u Ht). exact Hor. }
  assert (Hlead : lead_blanks (d_pre dc) = O) by (apply lead_zero, Hbl).
  destruct (exec_doc d dc init_core (db_ok _ _ _ _ _ _ Hdb) Hwf Hsafe Hlead eq_refl eq_refl ltac:(discriminate)) as (ms & _ & _ & He).
  { pose proof (db_valid _ _ _ _ _ _ Hdb []) as H. rewrite Hst in H. exact H. }
  { rewrite (proj1 depth_need). apply (lim_depth _ _ Hlim). }
  { cbn [init_core c_tl c_cur q_state q_count]. fold v. fold ts. split; [|exact Ht1].
    rewrite zlen_nil. unfold MAX_TUPLE_LIST, tuple, bytes in *. clear - Hcount Hn. lia. }
  cbn [init_core c_tl c_cur q_state q_count app] in He. fold v in He. fold ts in He.
  destruct (init_clear q1 e q2 Hp1 Hp2 d x st Hdb Hfit) as (C & Hinit & HC).
  assert (Hout : generateFinalOutput N x (mkF C [] [] []) ts = Ok (mkF C [] [] (sels N q1 e q2 (nodes [] v)))).
  { unfold generateFinalOutput. rewrite (has_pred q1 e q2 strict Hp1 Hp2 Hff Hq2 Hun d x st Hdb Hfit C HC).
    pose proof (proj1 (run_all N q1 e q2 strict Hp1 Hp2 Hff Hdot Hq2 Hun d x st Hdb Hfit) v false [] 0 C []) as H. cbn [labels map] in H. rewrite Hst in H. fold ts in H.
    cbn [app] in H. apply H; clear H.
    - intros n H. cbn in H. lia.
    - intros E. destruct (d_last q1 e Hp1 [] E) as ([|? ?] & i & E'); discriminate.
    - intros [p u] Hin n m Hn1 Hm1 H1 H2. cbn [fst] in *. unfold labels in Hn1, Hm1. rewrite map_length in Hn1, Hm1.
      apply (Hnest p u n m Hin Hn1 Hm1); unfold reach; rewrite map_app, (path_unsliced _ Hp1); cbn [map unsliced]; unfold labels in *; rewrite <- firstn_map; assumption.
    - apply (wf_doc_val dc Hwf).
    - intros p u Hin Hl. apply (lim_text _ _ Hlim p u Hin). auto.
    - intros p u Hin Ho Hfl. apply (Hmean (List.length q1) e p u); auto.
      + unfold q. rewrite nth_error_app2, Nat.sub_diag by apply le_n. reflexivity.
      + replace (firstn (S (List.length q1)) q) with (q1 ++ [SFilter e]); [rewrite <- filtered_lsel; exact Hfl|].
        unfold q. replace (S (List.length q1)) with (List.length (q1 ++ [SFilter e])) by (rewrite app_length; cbn; lia).
        change (SFilter e :: q2) with ([SFilter e] ++ q2). rewrite app_assoc, firstn_app, Nat.sub_diag, firstn_all. cbn [firstn]. rewrite app_nil_r. reflexivity.
    - exact HC.
    - rewrite zlen_nil. unfold MAX_OUTPUT. clear - Hn. lia. }
  assert (Hans : sels N q1 e q2 (nodes [] v) = answer_text (holds N) q v).
  { unfold sels, answer_text, answer. rewrite map_map. reflexivity. }
  rewrite Hans in Hout. unfold serialRun.
  assert (Hpr : exists ci, serialPartialRun N j (mkProc d x) (doc_text dc) init_context = Ok (answer_text (holds N) q v, ci) /\ sc_context ci = true).
  { unfold serialPartialRun. cbn [init_context sc_context sc_core andb p_dfa p_ctx]. rewrite He. cbn [bind c_tl]. rewrite Hinit. cbn [bind].
    rewrite Hout. cbn [bind f_output]. eexists. split; reflexivity. }
  destruct Hpr as (ci & Hr & Hc). eapply run_whole; eauto; [unfold MAX_EXTENSION; lia|]. unfold MEMORY_FOOTPRINT. clear - Hsize Htxt. lia.
Qed.
