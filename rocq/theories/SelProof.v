(** The matches of the serial engine on a document, in terms of the query. *)
From Verif Require Import Base Spec QueryClass Compress Dfa Stream TreeSem Builder AutoProof BuilderProof
                          Roles Compiled TreeSel.
Open Scope Z_scope.

Lemma depth_need : (forall v, stack_need v = depth v) /\ (forall ms, need_ms ms = depth_ms ms) /\
  (forall es, need_es es = depth_es es).
Proof.
  apply json_all_ind; intros; cbn [stack_need depth need_ms depth_ms need_es depth_es]; congruence.
Qed.

(** * Indices are bounded by the length of the text *)
Definition idx_from (p : path) (b : Z) (n : path * json) : Prop :=
  forall i, In (LIdx i) (labels (fst n)) -> In (LIdx i) (labels p) \/ Z.of_nat i < b.

Lemma es_len_nonneg es : 0 <= es_len es.
Proof. induction es; cbn; lia. Qed.
Lemma es_len_text es : es_len es <= zlen (text_es es) + 1.
Proof.
  induction es as [|wb v wa es IH]; [cbn; lia|]. cbn [es_len text_es].
  rewrite !zlen_app. pose proof (zlen_nonneg wb). pose proof (zlen_nonneg (text v)). pose proof (zlen_nonneg wa).
  destruct es; [cbn in *; lia|]. rewrite zlen_app. change (zlen (B ",")) with 1. lia.
Qed.

Lemma nodes_idx :
  (forall v p b, zlen (text v) <= b -> Forall (idx_from p b) (nodes p v)) /\
  (forall ms p b, zlen (text_ms ms) <= b -> Forall (idx_from p b) (nodes_ms p ms)) /\
  (forall es p i b, zlen (text_es es) <= b -> Z.of_nat i + es_len es <= b -> Forall (idx_from p b) (nodes_es p i es)).
Proof.
  assert (Hself : forall p b v, Forall (idx_from p b) [(p, v)]).
  { intros p b v. constructor; [|constructor]. intros i Hi. left. exact Hi. }
  assert (Hsub : forall p l v b ns, Forall (idx_from (p ++ [(l, v)]) b) ns ->
            (forall i, l = LIdx i -> Z.of_nat i < b) -> Forall (idx_from p b) ns).
  { intros p l v b ns H Hl. eapply Forall_impl; [|exact H]. intros n Hn i Hi. destruct (Hn i Hi) as [H1|H1]; [|right; exact H1].
    rewrite labels_snoc in H1. apply in_app_or in H1. destruct H1 as [H1|[H1|[]]]; [left; exact H1|right; apply Hl, H1]. }
  apply json_all_ind.
  - intros. apply Hself.
  - intros. apply Hself.
  - intros w ms IH p b Hb. cbn [nodes text] in *. apply Forall_app. split; [|apply Hself]. apply IH.
    rewrite !zlen_app in Hb. change (zlen (B "{")) with 1 in Hb. change (zlen (B "}")) with 1 in Hb. pose proof (zlen_nonneg w). lia.
  - intros w es IH p b Hb. cbn [nodes text] in *. apply Forall_app. split; [|apply Hself].
    rewrite !zlen_app in Hb. change (zlen (B "[")) with 1 in Hb. change (zlen (B "]")) with 1 in Hb. pose proof (zlen_nonneg w).
    pose proof (es_len_text es). apply IH; lia.
  - intros. constructor.
  - intros m k v IHv ms IHm p b Hb. cbn [nodes_ms text_ms] in *. rewrite !zlen_app in Hb.
    pose proof (zlen_nonneg (w_before m)). pose proof (zlen_nonneg (w_colon m)). pose proof (zlen_nonneg (w_value m)).
    pose proof (zlen_nonneg (w_after m)). pose proof (zlen_nonneg (B ":")). pose proof (zlen_nonneg (DQ :: k ++ [DQ])).
    pose proof (zlen_nonneg (text v)). pose proof (zlen_nonneg (text_ms ms)).
    assert (Hms : zlen (text_ms ms) <= zlen match ms with MNil => [] | _ => B "," ++ text_ms ms end).
    { destruct ms; [cbn; lia|]. rewrite zlen_app. pose proof (zlen_nonneg (B ",")). lia. }
    apply Forall_app. split.
    + eapply Hsub; [apply IHv; lia|]. intros i Hi. discriminate.
    + apply IHm. lia.
  - intros. constructor.
  - intros wb v IHv wa es IHe p i b Hb Hi. cbn [nodes_es text_es es_len] in *. rewrite !zlen_app in Hb.
    pose proof (zlen_nonneg wb). pose proof (zlen_nonneg wa). pose proof (es_len_nonneg es).
    pose proof (zlen_nonneg (text v)). pose proof (zlen_nonneg (text_es es)).
    assert (Hms : zlen (text_es es) <= zlen match es with ENil => [] | _ => B "," ++ text_es es end).
    { destruct es; [cbn; lia|]. rewrite zlen_app. pose proof (zlen_nonneg (B ",")). lia. }
    apply Forall_app. split.
    + eapply Hsub; [apply IHv; lia|]. intros i' Hi'. injection Hi' as <-. lia.
    + apply IHe; lia.
Qed.

Lemma nodes_small v n : zlen (text v) <= INT_MAX -> In n (nodes [] v) -> small (labels (fst n)).
Proof.
  intros Hv Hn i Hi. pose proof (proj1 nodes_idx v [] INT_MAX Hv) as H. rewrite Forall_forall in H.
  destruct (H n Hn i Hi) as [[]|]; assumption.
Qed.

(** A property of the labels of all values below a value. *)
Lemma self_in_nodes p v : In (p, v) (nodes p v).
Proof. destruct v; cbn; try (left; reflexivity); apply in_or_app; right; left; reflexivity. Qed.

Section Sel.
  Variable q : query.
  Variables (d : dfa) (x : qctx) (st : list label -> Z).
  Hypothesis Hrbd : restricted_before_desc false q = true.
  Hypothesis Hslice : forallb slice_ok q = true.
  Hypothesis Hend : end_ok q = true.
  Hypothesis Hne : forall f, In f (query_fields q) -> f <> [].
  Hypothesis Hcp : compiled q d x st.

  Let es := es q st.
  Let kd := kd q.
  Let mtk := mt_kd q d x st Hrbd Hslice Hend Hne Hcp.
  Let nxe := nx_es q d x st Hrbd Hslice Hend Hne Hcp.

  Lemma ix_key w k : ix (w ++ [LKey k]) = 0.
  Proof. unfold ix. rewrite last_idx_key. reflexivity. Qed.
  Lemma ix_idx w i : ix (w ++ [LIdx i]) = Z.of_nat i.
  Proof. unfold ix. rewrite last_idx_idx. reflexivity. Qed.

  (** The engine's tuples for the value at a path. *)
  Definition tv (ar : bool) (p : path) (v : json) : list tuple := t_val d ar (es (labels p)) (ix (labels p)) v.
  Definition tvm (p : path) (ms : members) : list tuple := t_ms d (es (labels p)) (ix (labels p)) ms.
  Definition tve (p : path) (i : nat) (l : elements) : list tuple := t_es d (es (labels p ++ [LIdx 0])) (Z.of_nat i) l.

  Lemma tv_prim ar p v s : small (labels p) -> v = JBare s \/ v = JStr s ->
    tv ar p v = if (kd (labels p) =? DFA_OUTPUT_CANDIDATE) || (kd (labels p) =? DFA_CONDITION) then [(es (labels p), text v)] else [].
  Proof. intros Hs [->| ->]; unfold tv; cbn [t_val]; unfold t_prim; unfold es; rewrite mtk by exact Hs; reflexivity. Qed.
  Lemma tv_obj ar p w ms : small (labels p) -> tv ar p (JObj w ms) =
    (if kd (labels p) =? DFA_PREDICATE then [(es (labels p), B "{")]
     else if kd (labels p) =? DFA_CONDITION then [(es (labels p), [])] else [])
    ++ tvm p ms
    ++ (if kd (labels p) =? DFA_OUTPUT_CANDIDATE then [(es (labels p), text (JObj w ms))] else [])
    ++ (if ar && (kd (labels p) =? DFA_PREDICATE) then [(es (labels p), B "}")] else []).
  Proof.
    intros Hs. unfold tv. rewrite t_val_obj. unfold t_open_obj, t_close, t_close_elem, es. rewrite mtk by exact Hs. reflexivity.
  Qed.
  Lemma tv_arr ar p w l : small (labels p) -> tv ar p (JArr w l) =
    (if kd (labels p) =? DFA_CONDITION then [(es (labels p), [])] else [])
    ++ tve p 0 l
    ++ (if kd (labels p) =? DFA_OUTPUT_CANDIDATE then [(es (labels p), text (JArr w l))] else []).
  Proof.
    intros Hs. unfold tv. rewrite t_val_arr. unfold t_open_arr, t_close, es. rewrite mtk by exact Hs.
    change None with (linput (LIdx 0)). rewrite nxe by exact Hs. reflexivity.
  Qed.
  Lemma tvm_cons p m k v ms : small (labels p) ->
    tvm p (MCons m k v ms) = tv false (p ++ [(LKey k, v)]) v ++ tvm p ms.
  Proof.
    intros Hs. unfold tvm. rewrite t_ms_cons. unfold tv, es. change (Some k) with (linput (LKey k)). rewrite nxe by exact Hs.
    rewrite labels_snoc, ix_key. reflexivity.
  Qed.
  Lemma tve_cons p i wb v wa l :
    tve p i (ECons wb v wa l) = tv true (p ++ [(LIdx i, v)]) v ++ tve p (S i) l.
  Proof.
    unfold tve. rewrite t_es_cons. unfold tv. rewrite labels_snoc, ix_idx. unfold es. rewrite (es_idx q d x st Hrbd Hslice Hend Hcp (labels p) i).
    replace (Z.of_nat i + 1) with (Z.of_nat (S i)) by lia. reflexivity.
  Qed.

  Definition smalls (ns : list (path * json)) : Prop := forall n, In n ns -> small (labels (fst n)).
  Lemma smalls_app a b : smalls (a ++ b) <-> smalls a /\ smalls b.
  Proof.
    unfold smalls. split; [intros H; split; intros n Hn; apply H, in_or_app; auto|].
    intros [H1 H2] n Hn. apply in_app_or in Hn. destruct Hn; auto.
  Qed.
  Lemma smalls_self p v : smalls (nodes p v) -> small (labels p).
  Proof. intros H. apply (H (p, v)), self_in_nodes. Qed.

  (** ** Bounds on the tuples *)
  Definition small_tuple (ns : list (path * json)) (t : tuple) : Prop :=
    zlen (snd t) <= 1 \/
    exists n, In n ns /\ snd t = text (snd n) /\ (lsel q (labels (fst n)) = true \/ tested q (labels (fst n))).

  Lemma kd_tested w : kd w = DFA_CONDITION -> tested q w.
  Proof.
    intros H. apply (kd_cond q) in H. destruct H as (j & f & H).
    apply (cond_lsel q Hrbd Hslice Hend Hne) in H. destruct H as (e & u & Hj & Hf & E & Hp).
    exists j, e, f, u. repeat split; auto. unfold predw in Hp. rewrite Hj in Hp. exact Hp.
  Qed.
  Lemma kd_lsel w : kd w = DFA_OUTPUT_CANDIDATE -> lsel q w = true.
  Proof. intros H. rewrite <- (kd_out q Hrbd Hslice Hend Hne). apply Z.eqb_eq. exact H. Qed.

  Lemma small_tuple_mono a b ts : (forall n, In n a -> In n b) -> Forall (small_tuple a) ts -> Forall (small_tuple b) ts.
  Proof.
    intros Hi H. eapply Forall_impl; [|exact H]. intros t [Ht|(n & Hn & Ht)]; [left; exact Ht|right; exists n; auto].
  Qed.

  Lemma tuples_bound :
    (forall v ar p, smalls (nodes p v) -> zlen (tv ar p v) <= 2 * zlen (nodes p v) /\ Forall (small_tuple (nodes p v)) (tv ar p v)) /\
    (forall ms p, small (labels p) -> smalls (nodes_ms p ms) ->
       zlen (tvm p ms) <= 2 * zlen (nodes_ms p ms) /\ Forall (small_tuple (nodes_ms p ms)) (tvm p ms)) /\
    (forall l p i, smalls (nodes_es p i l) ->
       zlen (tve p i l) <= 2 * zlen (nodes_es p i l) /\ Forall (small_tuple (nodes_es p i l)) (tve p i l)).
  Proof.
    assert (Hprim : forall v s ar p, v = JBare s \/ v = JStr s -> smalls (nodes p v) ->
              zlen (tv ar p v) <= 2 * zlen (nodes p v) /\ Forall (small_tuple (nodes p v)) (tv ar p v)).
    { intros v s ar p Hv Hs. pose proof (smalls_self _ _ Hs) as Hs'. rewrite (tv_prim ar p v s Hs' Hv).
      assert (nodes p v = [(p, v)]) as -> by (destruct Hv; subst; reflexivity).
      destruct ((kd (labels p) =? DFA_OUTPUT_CANDIDATE) || (kd (labels p) =? DFA_CONDITION)) eqn:E.
      - split; [unfold zlen; cbn [List.length]; lia|]. constructor; [|constructor]. right. exists (p, v).
        split; [left; reflexivity|]. split; [reflexivity|]. cbn [fst]. apply orb_true_iff in E. destruct E as [E|E]; apply Z.eqb_eq in E.
        + left. apply kd_lsel, E.
        + right. apply kd_tested, E.
      - split; [unfold zlen; cbn [List.length]; lia|constructor]. }
    apply json_all_ind.
    - intros. eapply Hprim; eauto.
    - intros. eapply Hprim; eauto.
    - intros w ms IH ar p Hs. pose proof (smalls_self _ _ Hs) as Hs'. rewrite tv_obj by exact Hs'. cbn [nodes] in *.
      apply smalls_app in Hs. destruct (IH p Hs' (proj1 Hs)) as [H1 H2]. rewrite !zlen_app. split.
      + assert (forall b1 b2 b3 : bool, (b1 = true -> b3 = false) -> forall a1 a2 a3 a4 : tuple,
          zlen (if b1 then [a1] else if b2 then [a2] else []) + zlen (if b3 then [a3] else []) + zlen (if ar && b1 then [a4] else []) <= 2) as HH.
        { intros b1 b2 b3 Hb a1 a2 a3 a4. destruct b1; [rewrite Hb by reflexivity|]; destruct b2, ar, b3; cbn; lia. }
        specialize (HH (kd (labels p) =? DFA_PREDICATE) (kd (labels p) =? DFA_CONDITION) (kd (labels p) =? DFA_OUTPUT_CANDIDATE)).
        change (zlen [(p, JObj w ms)]) with 1. 
        match goal with |- zlen ?A + (_ + (zlen ?B + zlen ?C)) <= _ => assert (zlen A + zlen B + zlen C <= 2) as H3 end; [|unfold tuple in *; lia].
        apply HH. intros E. apply Z.eqb_eq in E. rewrite E. reflexivity.
      + repeat rewrite Forall_app. repeat split.
        * destruct (_ =? _); [|destruct (_ =? _)]; try (constructor; [left; cbn; lia|]); constructor.
        * eapply small_tuple_mono; [|exact H2]. intros; apply in_or_app; left; assumption.
        * destruct (_ =? _) eqn:E; [|constructor]. constructor; [|constructor]. right. exists (p, JObj w ms).
          split; [apply in_or_app; right; left; reflexivity|]. split; [reflexivity|]. left. apply kd_lsel, Z.eqb_eq, E.
        * destruct (ar && _); try (constructor; [left; cbn; lia|]); constructor.
    - intros w l IH ar p Hs. pose proof (smalls_self _ _ Hs) as Hs'. rewrite tv_arr by exact Hs'. cbn [nodes] in *.
      apply smalls_app in Hs. destruct (IH p O (proj1 Hs)) as [H1 H2]. rewrite !zlen_app. split.
      + change (zlen [(p, JArr w l)]) with 1. 
        match goal with |- zlen ?A + (_ + zlen ?B) <= _ => assert (zlen A + zlen B <= 2) as H3 end. 2:{ unfold tuple, bytes in *. lia. }
        destruct (kd (labels p) =? DFA_CONDITION), (kd (labels p) =? DFA_OUTPUT_CANDIDATE); cbn; lia.
      + repeat rewrite Forall_app. repeat split.
        * destruct (_ =? _); try (constructor; [left; cbn; lia|]); constructor.
        * eapply small_tuple_mono; [|exact H2]. intros; apply in_or_app; left; assumption.
        * destruct (_ =? _) eqn:E; [|constructor]. constructor; [|constructor]. right. exists (p, JArr w l).
          split; [apply in_or_app; right; left; reflexivity|]. split; [reflexivity|]. left. apply kd_lsel, Z.eqb_eq, E.
    - intros p _ _. split; [cbn; lia|constructor].
    - intros m k v IHv ms IHm p Hp Hs. rewrite tvm_cons by exact Hp. cbn [nodes_ms] in *. apply smalls_app in Hs. destruct Hs as [Hs1 Hs2].
      destruct (IHv false _ Hs1) as [A1 A2]. destruct (IHm p Hp Hs2) as [B1 B2]. rewrite !zlen_app. split; [unfold tuple in *; lia|].
      apply Forall_app. split; (eapply small_tuple_mono; [|eassumption]); intros; apply in_or_app; auto.
    - intros p i _. split; [cbn; lia|constructor].
    - intros wb v IHv wa l IHl p i Hs. rewrite tve_cons. cbn [nodes_es] in *. apply smalls_app in Hs. destruct Hs as [Hs1 Hs2].
      destruct (IHv true _ Hs1) as [A1 A2]. destruct (IHl p (S i) Hs2) as [B1 B2]. rewrite !zlen_app. split; [unfold tuple in *; lia|].
      apply Forall_app. split; (eapply small_tuple_mono; [|eassumption]); intros; apply in_or_app; auto.
  Qed.

  (** ** Queries without filters *)
  Hypothesis Hnf : forallb (fun s => negb (is_filter s)) q = true.

  Lemma nofilter_nth j e : nth_error q j <> Some (SFilter e).
  Proof. intros H. apply nth_error_In in H. rewrite forallb_forall in Hnf. apply Hnf in H. discriminate. Qed.
  Lemma kd_nopred w : kd w <> DFA_PREDICATE.
  Proof.
    intros H. apply (kd_pred q) in H. destruct H as (j & _ & H).
    apply (rp_role q Hrbd Hslice Hend Hne) in H. destruct H as (e & H & _). exact (nofilter_nth _ _ H).
  Qed.
  Lemma kd_nocond w : kd w <> DFA_CONDITION.
  Proof. intros H. apply kd_tested in H. destruct H as (j & e & f & u & H & _). exact (nofilter_nth _ _ H). Qed.

  Definition pick (ns : list (path * json)) : list bytes :=
    map (fun n => text (snd n)) (filter (fun n => lsel q (labels (fst n))) ns).
  Lemma pick_app a b : pick (a ++ b) = pick a ++ pick b.
  Proof. unfold pick. rewrite filter_app, map_app. reflexivity. Qed.
  Lemma pick_self p v : pick [(p, v)] = if kd (labels p) =? DFA_OUTPUT_CANDIDATE then [text v] else [].
  Proof. unfold pick. cbn [filter fst]. unfold kd. rewrite (kd_out q Hrbd Hslice Hend Hne). destruct (lsel _ _); reflexivity. Qed.

  Theorem texts_nofilter :
    (forall v ar p, smalls (nodes p v) -> map snd (tv ar p v) = pick (nodes p v)) /\
    (forall ms p, small (labels p) -> smalls (nodes_ms p ms) -> map snd (tvm p ms) = pick (nodes_ms p ms)) /\
    (forall l p i, smalls (nodes_es p i l) -> map snd (tve p i l) = pick (nodes_es p i l)).
  Proof.
    assert (Hc : forall w, (kd w =? DFA_CONDITION) = false) by (intros w; apply Z.eqb_neq, kd_nocond).
    assert (Hp : forall w, (kd w =? DFA_PREDICATE) = false) by (intros w; apply Z.eqb_neq, kd_nopred).
    assert (Hprim : forall v s ar p, v = JBare s \/ v = JStr s -> smalls (nodes p v) -> map snd (tv ar p v) = pick (nodes p v)).
    { intros v s ar p Hv Hs. pose proof (smalls_self _ _ Hs) as Hs'. rewrite (tv_prim ar p v s Hs' Hv).
      assert (nodes p v = [(p, v)]) as -> by (destruct Hv; subst; reflexivity).
      rewrite pick_self, Hc, orb_false_r. destruct (_ =? _); reflexivity. }
    apply json_all_ind.
    - intros. eapply Hprim; eauto.
    - intros. eapply Hprim; eauto.
    - intros w ms IH ar p Hs. pose proof (smalls_self _ _ Hs) as Hs'. rewrite tv_obj by exact Hs'. cbn [nodes] in *.
      apply smalls_app in Hs. rewrite pick_app, pick_self, !map_app, Hp, Hc, andb_false_r. specialize (IH p Hs' (proj1 Hs)). unfold tuple. rewrite IH.
      cbn [map app]. rewrite app_nil_r. destruct (_ =? _); reflexivity.
    - intros w l IH ar p Hs. pose proof (smalls_self _ _ Hs) as Hs'. rewrite tv_arr by exact Hs'. cbn [nodes] in *.
      apply smalls_app in Hs. rewrite pick_app, pick_self, !map_app, Hc. unfold tuple. rewrite (IH p O (proj1 Hs)).
      cbn [map app]. destruct (_ =? _); reflexivity.
    - reflexivity.
    - intros m k v IHv ms IHm p Hp' Hs. rewrite tvm_cons by exact Hp'. cbn [nodes_ms] in *. apply smalls_app in Hs. destruct Hs as [Hs1 Hs2].
      rewrite map_app, pick_app; unfold tuple; rewrite (IHv false _ Hs1), (IHm p Hp' Hs2). reflexivity.
    - reflexivity.
    - intros wb v IHv wa l IHl p i Hs. rewrite tve_cons. cbn [nodes_es] in *. apply smalls_app in Hs. destruct Hs as [Hs1 Hs2].
      rewrite map_app, pick_app; unfold tuple; rewrite (IHv true _ Hs1), (IHl p (S i) Hs2). reflexivity.
  Qed.
End Sel.
