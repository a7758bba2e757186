(** The states of the serial engine at the nodes of a document, in terms of the
    query. *)
From Verif Require Import Base Spec QueryClass Compress Dfa Stream TreeSem Builder AutoProof BuilderProof Roles Compiled.
Open Scope Z_scope.

Lemma labels_snoc p l v : labels (p ++ [(l, v)]) = labels p ++ [l].
Proof. unfold labels. rewrite map_app. reflexivity. Qed.

(** Slices along the way. *)
Fixpoint sl_ok (q : query) (w : list label) : bool :=
  match q, w with
  | SSlice lo hi :: q', LIdx i :: w' => in_slice lo hi i && sl_ok q' w'
  | _ :: q', _ :: w' => sl_ok q' w'
  | _, _ => true
  end.

Lemma sl_ok_none : forall q w, (forall s, In s q -> restr s = false) -> sl_ok q w = true.
Proof.
  induction q as [|s q IH]; intros w H; [reflexivity|]. cbn [sl_ok].
  pose proof (H s (or_introl eq_refl)). assert (forall s', In s' q -> restr s' = false) by (intros; apply H; right; assumption).
  destruct s; try discriminate; destruct w as [|[]]; auto.
Qed.

Lemma lsel_none : forall w q, no_index q -> (forall s, In s q -> restr s = false) -> lsel q w = st_match (stack_of q) w.
Proof.
  induction w as [|l w IH]; intros q Hi H.
  - destruct q as [|s q]; [reflexivity|]. pose proof (Hi s (or_introl eq_refl)). destruct s; cbn in *; congruence.
  - destruct q as [|s q]; [reflexivity|]. cbn [lsel stack_of flat_map].
    pose proof (H s (or_introl eq_refl)). pose proof (Hi s (or_introl eq_refl)).
    assert (Hq : lsel q w = st_match (stack_of q) w).
    { apply IH; intros s' Hs'; [apply Hi|apply H]; right; assumption. }
    pose proof (IH (s :: q) Hi H) as Hsq. cbn [stack_of flat_map] in Hsq.
    destruct s; try discriminate; cbn [se_of app] in *; cbn [st_match];
      try congruence; rewrite ?Hq, ?Hsq; reflexivity.
Qed.

Lemma lsel_split : forall w q, restricted_before_desc false q = true ->
  lsel q w = st_match (stack_of q) w && sl_ok q w.
Proof.
  induction w as [|l w IH]; intros q H.
  - destruct q as [|s q]; [reflexivity|]. destruct s; cbn in *; try discriminate; reflexivity.
  - destruct q as [|s q]; [reflexivity|].
    destruct s as [k| |k| | |lo hi|n|e].
    1,2,5,6,8: (cbn [restricted_before_desc] in H; rewrite ?andb_true_l in H;
      cbn [lsel stack_of flat_map se_of app st_match sl_ok]; fold (stack_of q); rewrite (IH q H); destruct l; cbn; 
      rewrite ?andb_false_r, ?andb_assoc, ?andb_true_r; try reflexivity;
      try (destruct (in_slice lo hi i), (st_match (stack_of q) w), (sl_ok q w); reflexivity)).
    1,2: (cbn [restricted_before_desc] in H;
      match goal with |- lsel (?s0 :: _) _ = _ =>
        assert (Hno : forall s', In s' (s0 :: q) -> restr s' = false)
          by (intros s' [<-|Hs']; [reflexivity|eapply rbd_true_none; eauto]);
        assert (Hni' : no_index (s0 :: q))
          by (intros s' [<-|Hs']; [discriminate|eapply rbd_no_index; eauto])
      end; rewrite (lsel_none _ _ Hni' Hno), (sl_ok_none _ _ Hno), andb_true_r; reflexivity).
    discriminate H.
Qed.

Definition ok_at (q : query) (w : list label) (j : nat) : bool :=
  match nth_error q j, nth_error w j with
  | Some (SSlice lo hi), Some (LIdx i) => in_slice lo hi i
  | _, _ => true
  end.

Lemma sl_ok_iff : forall q w, sl_ok q w = true <-> forall j, ok_at q w j = true.
Proof.
  induction q as [|s q IH]; intros w.
  - cbn. split; [|reflexivity]. intros _ j. unfold ok_at. destruct (nth_error [] j) eqn:E; [destruct j; discriminate|reflexivity].
  - destruct w as [|l w].
    + split; [|destruct s; reflexivity]. intros _ j. unfold ok_at. replace (nth_error [] j) with (@None label) by (destruct j; reflexivity).
      destruct (nth_error (s :: q) j) as [[]|]; reflexivity.
    + split.
      * intros H j. destruct j as [|j].
        -- unfold ok_at. cbn [nth_error]. destruct s; try reflexivity. destruct l; [reflexivity|]. cbn in H. apply andb_true_iff in H. tauto.
        -- assert (sl_ok q w = true) as H'. { destruct s, l; cbn in H; try exact H. apply andb_true_iff in H. tauto. }
           apply (proj1 (IH w) H' j).
      * intros H. assert (sl_ok q w = true) as H' by (apply IH; intros j; apply (H (S j))).
        specialize (H O). unfold ok_at in H. cbn in H. destruct s, l; cbn; rewrite ?H'; auto. rewrite H. reflexivity.
Qed.

(** The index of the last label. *)
Definition last_idx (w : list label) : nat := match last w (LIdx 0) with LIdx i => i | LKey _ => 0 end.
Lemma last_idx_key w k : last_idx (w ++ [LKey k]) = O.
Proof. unfold last_idx. rewrite last_last. reflexivity. Qed.
Lemma last_idx_idx w i : last_idx (w ++ [LIdx i]) = i.
Proof. unfold last_idx. rewrite last_last. reflexivity. Qed.

Definition small (w : list label) : Prop := forall i, In (LIdx i) w -> Z.of_nat i < INT_MAX.

Lemma forallb_ext_in {A} (f g : A -> bool) l : (forall a, In a l -> f a = g a) -> forallb f l = forallb g l.
Proof. induction l as [|a l IH]; intros H; [reflexivity|]. cbn. rewrite (H a (or_introl eq_refl)), IH; [reflexivity|]. intros; apply H; right; assumption. Qed.

Section States.
  Variable q : query.
  Variables (d : dfa) (x : qctx) (st : list label -> Z).
  Hypothesis Hrbd : restricted_before_desc false q = true.
  Hypothesis Hslice : forallb slice_ok q = true.
  Hypothesis Hend : end_ok q = true.
  Hypothesis Hne : forall f, In f (query_fields q) -> f <> [].
  Hypothesis Hcp : compiled q d x st.

  (** May the engine go below a node with these labels? *)
  Definition rok (w : list label) : bool :=
    match cls q w with
    | Some (RS j) => match nth_error q j with Some (SSlice lo hi) => in_slice lo hi (last_idx w) | _ => true end
    | _ => true
    end.
  Definition alive (w : list label) : bool := forallb (fun n => rok (firstn n w)) (seq 0 (List.length w)).
  Definition es (w : list label) : Z := if alive w then st w else 0.
  Definition ix (w : list label) : Z := Z.of_nat (last_idx w).

  Lemma alive_snoc w l : alive (w ++ [l]) = alive w && rok w.
  Proof.
    unfold alive. rewrite app_length. cbn [List.length]. rewrite Nat.add_1_r, seq_S, forallb_app. cbn [forallb Nat.add].
    rewrite firstn_app, firstn_all, Nat.sub_diag, firstn_O, app_nil_r, andb_true_r. f_equal.
    apply forallb_ext_in. intros n Hn. apply in_seq in Hn. rewrite firstn_app.
    replace (n - List.length w)%nat with 0%nat by lia. rewrite firstn_O, app_nil_r. reflexivity.
  Qed.

  Lemma rs_role w j : cls q w = Some (RS j) <-> exists lo hi, nth_error q j = Some (SSlice lo hi) /\ st_match (pre q j) w = true.
  Proof.
    rewrite (cls_spec q Hrbd Hend Hne). split.
    - intros [H1 H2]. apply role_in in H1. destruct H1 as (lo & hi & H1). eauto.
    - intros (lo & hi & H1 & H2). split; [|exact H2]. unfold roles. apply in_or_app. left.
      destruct (nth_error_split _ _ H1) as (q1 & q2 & E & L). rewrite E, roles_from_app. cbn [roles_from step_roles].
      apply in_or_app. right. left. f_equal. lia.
  Qed.
  Lemma rp_role w j : cls q w = Some (RP j) <-> exists e, nth_error q j = Some (SFilter e) /\ st_match (pre q j) w = true.
  Proof.
    rewrite (cls_spec q Hrbd Hend Hne). split.
    - intros [H1 H2]. apply role_in in H1. destruct H1 as (e & H1). eauto.
    - intros (e & H1 & H2). split; [|exact H2]. unfold roles. apply in_or_app. left.
      destruct (nth_error_split _ _ H1) as (q1 & q2 & E & L). rewrite E, roles_from_app. cbn [roles_from step_roles].
      apply in_or_app. right. left. f_equal. lia.
  Qed.
  Lemma rc_role w j f : cls q w = Some (RC j f) <->
    exists e u, nth_error q j = Some (SFilter e) /\ In f (fields_in e) /\ w = u ++ map LKey f /\ st_match (pre q j) u = true.
  Proof.
    rewrite (cls_spec q Hrbd Hend Hne). split.
    - intros [H1 H2]. apply role_in in H1. destruct H1 as (e & H1 & Hf). cbn [role_st] in H2.
      apply (match_cond q Hrbd j e f w H1) in H2. destruct H2 as (u & -> & Hu). exists e, u. auto.
    - intros (e & u & H1 & Hf & E & Hu). split.
      + unfold roles. apply in_or_app. left.
        destruct (nth_error_split _ _ H1) as (q1 & q2 & Eq & L). rewrite Eq, roles_from_app. cbn [roles_from step_roles].
        apply in_or_app. right. right. apply in_or_app. left. replace (0 + List.length q1)%nat with j by lia.
        apply in_map, nub_in, Hf.
      + cbn [role_st]. apply (match_cond q Hrbd j e f w H1). eauto.
  Qed.

  (** The output role. *)
  Lemma out_role w : (exists r, cls q w = Some r /\ is_out q r = true) <-> st_match (stack_of q) w = true.
  Proof.
    split.
    - intros (r & Hr & Ho). apply (cls_spec q Hrbd Hend Hne) in Hr. destruct Hr as [_ Hm].
      destruct r as [j|j|j f|]; cbn [is_out] in Ho; try discriminate; [|exact Hm].
      apply Nat.eqb_eq in Ho. cbn [role_st] in Hm. rewrite Ho, firstn_all in Hm. exact Hm.
    - intros Hm. destruct (last_role q Hslice Hend) as (rs & r & Er & Eo). exists r. split; [|exact Eo].
      apply (cls_spec q Hrbd Hend Hne). split; [rewrite Er; apply in_or_app; right; left; reflexivity|].
      destruct r as [j|j|j f|]; cbn [is_out] in Eo; try discriminate; cbn [role_st]; [|exact Hm].
      apply Nat.eqb_eq in Eo. rewrite Eo, firstn_all. exact Hm.
  Qed.

  Lemma in_range_rok w m : small w -> in_range d (mkElt (st w) (ix w) m) = Ok (rok w).
  Proof.
    intros Hs. unfold in_range. cbn [q_state q_count]. rewrite (cp_range _ _ _ _ Hcp). cbn [bind].
    unfold rok, range_of. destruct (cls q w) as [r|] eqn:Ec; [|reflexivity].
    destruct r as [j|j|j f|]; cbn [role_rng]; try reflexivity.
    pose proof (proj1 (rs_role w j) Ec) as (lo & hi & Hj & Hm). rewrite Hj.
    assert (Hw : exists w' i, w = w' ++ [LIdx i]) by (apply (match_pre q Hrbd Hend j _ w Hj eq_refl Hm)).
    destruct Hw as (w' & i & ->). unfold ix. rewrite last_idx_idx.
    assert (Hi : Z.of_nat i < INT_MAX) by (apply Hs, in_or_app; right; left; reflexivity).
    rewrite forallb_forall in Hslice. pose proof (Hslice _ (nth_error_In _ _ Hj)) as Hsl.
    unfold bounds. cbn [fst snd]. f_equal. unfold in_slice.
    assert (Hmin : INT_MIN < 0) by reflexivity. assert (Hmax : 0 < INT_MAX) by reflexivity.
    destruct lo as [lo|], hi as [hi|].
    - assert ((lo =? 0) && (hi =? 0) = false) as ->; [|reflexivity].
      destruct (Z.eqb_spec lo 0) as [->|]; [|reflexivity]. destruct (Z.eqb_spec hi 0) as [->|]; [discriminate|reflexivity].
    - replace (INT_MAX =? 0) with false by lia. rewrite andb_false_r. cbn [orb].
      replace (Z.of_nat i <? INT_MAX) with true by lia. reflexivity.
    - replace (INT_MIN =? 0) with false by lia. cbn [andb orb].
      replace (INT_MIN <=? Z.of_nat i) with true by lia. reflexivity.
    - replace (INT_MIN =? 0) with false by lia. cbn [andb orb].
      replace (INT_MIN <=? Z.of_nat i) with true by lia. replace (Z.of_nat i <? INT_MAX) with true by lia. reflexivity.
  Qed.

  Lemma in_range_zero i m : in_range d (mkElt 0 i m) = Ok true.
  Proof. unfold in_range. cbn [q_state]. rewrite (cp_range0 _ _ _ _ Hcp). reflexivity. Qed.

  Lemma nx_es w l : small w -> nx d (es w) (ix w) (linput l) = es (w ++ [l]).
  Proof.
    intros Hs. unfold nx, next_elt, es. rewrite alive_snoc. destruct (alive w); cbn [andb q_state].
    - rewrite in_range_rok by exact Hs. cbn [bind]. destruct (rok w).
      + rewrite (cp_next _ _ _ _ Hcp). reflexivity.
      + reflexivity.
    - rewrite in_range_zero. cbn [bind]. rewrite (cp_next0 _ _ _ _ Hcp). reflexivity.
  Qed.

  Lemma es_idx w i : es (w ++ [LIdx i]) = es (w ++ [LIdx 0]).
  Proof.
    unfold es. rewrite !alive_snoc. destruct (alive w && rok w); [|reflexivity].
    pose proof (cp_next _ _ _ _ Hcp w (LIdx i)) as H1. pose proof (cp_next _ _ _ _ Hcp w (LIdx 0)) as H2.
    cbn [linput] in *. congruence.
  Qed.

  Lemma es_valid w : valid_state d (es w).
  Proof.
    unfold es. destruct (alive w); [apply (cp_valid _ _ _ _ Hcp)|].
    pose proof (ok_states d (cp_ok _ _ _ _ Hcp)). unfold valid_state. lia.
  Qed.

  (** The match type at a node. *)
  Definition kd (w : list label) : Z :=
    if alive w then
      match cls q w with
      | Some r => if is_out q r then (if rok w then DFA_OUTPUT_CANDIDATE else 0) else accept_of q (Some r)
      | None => 0
      end
    else 0.

  Lemma mt_kd w : small w -> mt d (es w) (ix w) = kd w.
  Proof.
    intros Hs. unfold mt, getMatchedType, es, kd. destruct (alive w); cbn [q_state].
    - rewrite (cp_accept _ _ _ _ Hcp). cbn [bind]. rewrite in_range_rok by exact Hs.
      destruct (cls q w) as [r|]; [|reflexivity]. cbn [accept_of]. destruct (is_out q r) eqn:Eo.
      + cbn [bind]. replace (DFA_OUTPUT_CANDIDATE =? DFA_OUTPUT_CANDIDATE) with true by reflexivity.
        destruct (rok w); reflexivity.
      + destruct r as [j|j|j f|]; reflexivity.
    - rewrite (cp_accept0 _ _ _ _ Hcp). reflexivity.
  Qed.

  (** ** Slices along the labels *)
  Lemma allok_iff w : alive w && rok w = true <->
    forall j lo hi, nth_error q j = Some (SSlice lo hi) -> (j < List.length w)%nat ->
      st_match (pre q j) (firstn (S j) w) = true -> ok_at q w j = true.
  Proof.
    assert (Hrok : forall n, (n <= List.length w)%nat -> (rok (firstn n w) = true <->
              forall j lo hi, nth_error q j = Some (SSlice lo hi) -> n = S j ->
                st_match (pre q j) (firstn (S j) w) = true -> ok_at q w j = true)).
    { intros n Hn. unfold rok. split.
      - intros H j lo hi Hj -> Hm. assert (Hc : cls q (firstn (S j) w) = Some (RS j)) by (apply rs_role; eauto).
        rewrite Hc, Hj in H. unfold ok_at. rewrite Hj.
        destruct (nth_error w j) as [[k|i]|] eqn:Ew; try reflexivity.
        rewrite (firstn_snoc _ _ _ Ew), last_idx_idx in H. exact H.
      - intros H. destruct (cls q (firstn n w)) as [[j|j|j f|]|] eqn:Ec; try reflexivity.
        pose proof (proj1 (rs_role _ j) Ec) as (lo & hi & Hj & Hm). rewrite Hj.
        destruct (match_pre q Hrbd Hend j _ _ Hj eq_refl Hm) as (L & w' & i & Ew).
        rewrite firstn_length in L. assert (n = S j) as -> by lia.
        specialize (H j lo hi Hj eq_refl Hm). unfold ok_at in H. rewrite Hj in H.
        assert (Hnth : nth_error w j = Some (LIdx i)).
        { rewrite <- (firstn_skipn (S j) w), Ew, <- app_assoc. replace j with (List.length w').
          - rewrite nth_error_app2, Nat.sub_diag by lia. reflexivity.
          - apply (f_equal (@List.length label)) in Ew. rewrite firstn_length, app_length in Ew. cbn [List.length] in Ew. lia. }
        rewrite Hnth in H. rewrite Ew, last_idx_idx. exact H. }
    assert (Ha : alive w && rok w = true <-> forall n, (n <= List.length w)%nat -> rok (firstn n w) = true).
    { unfold alive. rewrite andb_true_iff, forallb_forall. split.
      - intros [H1 H2] n Hn. destruct (Nat.eq_dec n (List.length w)) as [->|].
        + rewrite firstn_all. exact H2.
        + apply H1, in_seq. lia.
      - intros H. split.
        + intros n Hn. apply in_seq in Hn. apply H. lia.
        + rewrite <- (firstn_all w). apply H. lia. }
    rewrite Ha. split.
    - intros H j lo hi Hj Hl Hm. apply (proj1 (Hrok (S j) ltac:(lia)) (H (S j) ltac:(lia)) j lo hi Hj eq_refl Hm).
    - intros H n Hn. apply (Hrok n Hn). intros j lo hi Hj -> Hm. eapply H; eauto.
  Qed.

  Lemma allok_sl n w : (n = List.length q \/ forallb nodesc (firstn n q) = true) -> (n <= List.length q)%nat ->
    st_match (stack_of (firstn n q)) w = true ->
    alive w && rok w = sl_ok (firstn n q) w.
  Proof.
    intros Hn Hle Hm. apply eq_true_iff_eq. rewrite allok_iff, sl_ok_iff.
    assert (Hnth : forall j, (j < n)%nat -> nth_error (firstn n q) j = nth_error q j).
    { intros j Hj. rewrite <- (firstn_skipn n q) at 2. rewrite nth_error_app1; [reflexivity|]. rewrite firstn_length. lia. }
    assert (Hlen : forall j, nth_error q j <> None -> (j < List.length w)%nat -> (j < n)%nat).
    { intros j Hj Hl. destruct Hn as [->|Hn]; [apply nth_error_Some, Hj|].
      pose proof (st_match_len _ _ (nodesc_stack _ Hn) Hm) as L. rewrite stack_len in L.
      - rewrite firstn_length in L. lia.
      - intros s Hs. apply (Hni q Hrbd). rewrite <- (firstn_skipn n q). apply in_or_app. left. exact Hs. }
    assert (Hpre : forall j lo hi, nth_error q j = Some (SSlice lo hi) -> (j < n)%nat ->
              st_match (pre q j) (firstn (S j) w) = true).
    { intros j lo hi Hj Hl. pose proof (pre_nodesc q Hrbd j _ Hj eq_refl) as Hd.
      assert (E : firstn n q = firstn (S j) q ++ skipn (S j) (firstn n q)).
      { rewrite <- (firstn_skipn (S j) (firstn n q)) at 1. rewrite firstn_firstn. do 2 f_equal. lia. }
      rewrite E, stack_of_app in Hm. fold (pre q j) in Hm. rewrite st_match_app in Hm by exact Hd.
      rewrite (pre_len q Hrbd Hend j _ Hj) in Hm. apply andb_true_iff in Hm. tauto. }
    split.
    - intros H j. unfold ok_at. destruct (nth_error (firstn n q) j) as [s|] eqn:Es; [|reflexivity].
      assert (j < n)%nat. { apply Nat.nle_gt. intros L. rewrite (proj2 (nth_error_None _ _)) in Es; [discriminate|]. rewrite firstn_length. lia. }
      rewrite Hnth in Es by assumption. destruct s; try reflexivity.
      destruct (nth_error w j) as [l|] eqn:Ew; [|reflexivity].
      assert (j < List.length w)%nat by (apply nth_error_Some; congruence).
      specialize (H j lo hi Es ltac:(assumption) (Hpre _ _ _ Es ltac:(assumption))). unfold ok_at in H. rewrite Es, Ew in H. exact H.
    - intros H j lo hi Hj Hl _. specialize (H j). unfold ok_at in *.
      rewrite Hnth in H by (apply Hlen; [congruence|exact Hl]). exact H.
  Qed.

  (** ** What the match type means *)
  Theorem kd_out w : (kd w =? DFA_OUTPUT_CANDIDATE) = lsel q w.
  Proof.
    rewrite (lsel_split w q Hrbd). unfold kd.
    destruct (st_match (stack_of q) w) eqn:Em; cbn [andb].
    - destruct (proj2 (out_role w) Em) as (r & Hr & Ho). rewrite Hr, Ho.
      pose proof (allok_sl (List.length q) w (or_introl eq_refl) (le_n _)) as H. rewrite firstn_all in H.
      specialize (H Em). rewrite <- H. destruct (alive w), (rok w); reflexivity.
    - destruct (alive w); [|reflexivity]. destruct (cls q w) as [r|] eqn:Ec; [|reflexivity].
      destruct (is_out q r) eqn:Eo.
      + rewrite (proj1 (out_role w)) in Em; [discriminate|]. eauto.
      + destruct r as [j|j|j f|]; cbn [is_out accept_of] in *; rewrite ?Eo; try discriminate; reflexivity.
  Qed.

  Lemma rbd_firstn : forall (q0 : query) n b, restricted_before_desc b q0 = true -> restricted_before_desc b (firstn n q0) = true.
  Proof.
    clear. induction q0 as [|s q0 IH]; intros n b H; destruct n as [|n]; try reflexivity.
    cbn [firstn restricted_before_desc] in *. destruct s; auto; try discriminate;
      apply andb_true_iff in H; destruct H as [H1 H2]; rewrite H1; cbn [andb]; auto.
  Qed.

  Definition predw (w : list label) (j : nat) : bool :=
    match nth_error q j with Some (SFilter _) => lsel (firstn (S j) q) w | _ => false end.

  Theorem kd_pred w : kd w = DFA_PREDICATE <-> exists j, alive w = true /\ cls q w = Some (RP j).
  Proof.
    unfold kd. split.
    - destruct (alive w); [|discriminate]. destruct (cls q w) as [r|]; [|discriminate]. intros H.
      destruct (is_out q r) eqn:Eo; [destruct (rok w); discriminate|]. cbn [accept_of] in H. rewrite Eo in H.
      destruct r as [j|j|j f|]; try discriminate. eauto.
    - intros (j & -> & ->). reflexivity.
  Qed.
  Theorem kd_cond w : kd w = DFA_CONDITION <-> exists j f, alive w = true /\ cls q w = Some (RC j f).
  Proof.
    unfold kd. split.
    - destruct (alive w); [|discriminate]. destruct (cls q w) as [r|]; [|discriminate]. intros H.
      destruct (is_out q r) eqn:Eo; [destruct (rok w); discriminate|]. cbn [accept_of] in H. rewrite Eo in H.
      destruct r as [j|j|j f|]; try discriminate. eauto.
    - intros (j & f & -> & ->). reflexivity.
  Qed.

  Lemma pred_lsel w j : (alive w = true /\ cls q w = Some (RP j)) <-> predw w j = true.
  Proof.
    unfold predw. destruct (nth_error q j) as [s|] eqn:Ej.
    2:{ split; [|discriminate]. intros [_ H]. apply rp_role in H. destruct H as (e & H & _). congruence. }
    destruct s; try (split; [intros [_ H]; apply rp_role in H; destruct H as (e' & H & _); congruence|discriminate]).
    assert (Hj : (S j <= List.length q)%nat) by (apply nth_error_Some; congruence).
    pose proof (rbd_prefix q j _ Hrbd Ej eq_refl) as Hd.
    rewrite (lsel_split w (firstn (S j) q)) by (apply rbd_firstn, Hrbd). rewrite andb_true_iff. split.
    - intros [Ha Hc]. pose proof (proj1 (rp_role w j) Hc) as (e' & _ & Hm). split; [exact Hm|].
      rewrite <- (allok_sl (S j) w (or_intror Hd) Hj Hm), Ha. unfold rok. rewrite Hc. reflexivity.
    - intros [Hm Hs]. assert (Hc : cls q w = Some (RP j)) by (apply rp_role; eauto).
      rewrite <- (allok_sl (S j) w (or_intror Hd) Hj Hm) in Hs. apply andb_true_iff in Hs. tauto.
  Qed.

  Lemma cond_lsel w j f : (alive w = true /\ cls q w = Some (RC j f)) <->
    exists e u, nth_error q j = Some (SFilter e) /\ In f (fields_in e) /\ w = u ++ map LKey f /\ predw u j = true.
  Proof.
    assert (Hal : forall u f', alive (u ++ map LKey f') = alive u && (match f' with [] => true | _ => rok u end)).
    { intros u f'. induction f' as [|k f' IH] using rev_ind; cbn [map].
      - rewrite app_nil_r, andb_true_r. reflexivity.
      - rewrite map_app, app_assoc. cbn [map]. rewrite alive_snoc, IH.
        destruct f' as [|k' f']; cbn [app].
        + cbn [map]. rewrite app_nil_r, andb_true_r. reflexivity.
        + rewrite <- andb_assoc. f_equal. destruct (rok u); [|reflexivity]. cbn [andb].
          unfold rok. destruct (cls q _) as [[j'|j'|j' g|]|] eqn:Ec; try reflexivity. exfalso.
          apply rs_role in Ec. destruct Ec as (lo & hi & Hj' & Hm).
          destruct (match_pre q Hrbd Hend j' _ _ Hj' eq_refl Hm) as (_ & w' & i & E).
          destruct (keys_last u (k' :: f') ltac:(discriminate)) as (w'' & E''). rewrite E'' in E.
          apply app_inj_tail in E. destruct E. discriminate. }
    split.
    - intros [Ha Hc]. apply rc_role in Hc. destruct Hc as (e & u & Hj & Hf & -> & Hu). exists e, u.
      repeat split; auto. apply pred_lsel. rewrite Hal in Ha. apply andb_true_iff in Ha.
      split; [apply Ha|]. apply rp_role. eauto.
    - intros (e & u & Hj & Hf & -> & Hp). apply pred_lsel in Hp. destruct Hp as [Ha Hc].
      rewrite Hal, Ha. assert (rok u = true) as -> by (unfold rok; rewrite Hc; reflexivity).
      split; [destruct f; reflexivity|]. apply rc_role. apply rp_role in Hc. destruct Hc as (e' & Hj' & Hm).
      exists e, u. auto.
  Qed.
End States.
