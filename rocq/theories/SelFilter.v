(** What survives the filters is what the query selects. *)
From Verif Require Import Base Util Spec LexProof QueryClass Compress Dfa Stream TreeSem Builder Eval Filter AutoProof
                          BuilderProof Roles Compiled TreeSel SelProof FilterProof.
Open Scope Z_scope.

(** * Paths of nodes *)
Fixpoint linked (v0 : json) (r : path) : Prop :=
  match r with
  | [] => True
  | (l, v) :: r' => match l with LKey _ => is_object v0 = true | LIdx _ => True end /\ linked v r'
  end.

Lemma nodes_paths :
  (forall v p n, In n (nodes p v) -> exists r, fst n = p ++ r /\ linked v r) /\
  (forall ms p n, In n (nodes_ms p ms) -> exists k v r, fst n = p ++ (LKey k, v) :: r /\ linked v r) /\
  (forall l p i n, In n (nodes_es p i l) -> exists k v r, fst n = p ++ (LIdx k, v) :: r /\ linked v r).
Proof.
  assert (Hself : forall p (v : json) n, In n [(p, v)] -> exists r, fst n = p ++ r /\ linked v r).
  { intros p v n [<-|[]]. exists []. rewrite app_nil_r. split; [reflexivity|exact I]. }
  apply json_all_ind; intros.
  - apply Hself. exact H.
  - apply Hself. exact H.
  - cbn [nodes] in H0. apply in_app_or in H0. destruct H0 as [H0|H0]; [|apply Hself; exact H0].
    destruct (H p n H0) as (k & v & r & E & L). exists ((LKey k, v) :: r). split; [exact E|]. cbn. auto.
  - cbn [nodes] in H0. apply in_app_or in H0. destruct H0 as [H0|H0]; [|apply Hself; exact H0].
    destruct (H p 0%nat n H0) as (k & v & r & E & L). exists ((LIdx k, v) :: r). split; [exact E|]. cbn. auto.
  - contradiction.
  - cbn [nodes_ms] in H1. apply in_app_or in H1. destruct H1 as [H1|H1]; [|apply (H0 _ _ H1)].
    destruct (H _ _ H1) as (r & E & L). exists k, v, r. rewrite E, <- app_assoc. auto.
  - contradiction.
  - cbn [nodes_es] in H1. apply in_app_or in H1. destruct H1 as [H1|H1]; [|apply (H0 _ _ _ H1)].
    destruct (H _ _ H1) as (r & E & L). exists i, v, r. rewrite E, <- app_assoc. auto.
Qed.

Lemma linked_next : forall r v0 i l v k v', linked v0 r ->
  nth_error r i = Some (l, v) -> nth_error r (S i) = Some (LKey k, v') -> is_object v = true.
Proof.
  induction r as [|[l0 v1] r IH]; intros v0 i l v k v' Hl H1 H2; [destruct i; discriminate|].
  cbn in Hl. destruct Hl as [_ Hl]. destruct i as [|i].
  - cbn in H1. injection H1 as -> ->. cbn in H2. destruct r as [|[l2 v2] r]; [discriminate|]. cbn in H2. injection H2 as -> ->.
    cbn in Hl. tauto.
  - apply (IH v1 i l v k v'); auto.
Qed.

(** * Filters along a path *)
Section Sel.
  Variable holds : expr -> json -> bool.

  Fixpoint fl (q : query) (p : path) : bool :=
    match q, p with
    | SFilter e :: q', (_, v) :: p' => is_object v && holds e v && fl q' p'
    | _ :: q', _ :: p' => fl q' p'
    | _, _ => true
    end.

  Lemma fl_iff : forall q p, fl q p = true <->
    forall j e l v, nth_error q j = Some (SFilter e) -> nth_error p j = Some (l, v) -> is_object v && holds e v = true.
  Proof.
    induction q as [|s q IH]; intros p.
    - split; [|reflexivity]. intros _ j e l v H. destruct j; discriminate.
    - destruct p as [|[l0 v0] p].
      + split; [|destruct s; reflexivity]. intros _ j e l v _ H. destruct j; discriminate.
      + split.
        * intros H j e l v Hq Hp. destruct j as [|j].
          -- cbn in Hq, Hp. injection Hq as ->. injection Hp as -> ->. cbn in H. apply andb_true_iff in H. tauto.
          -- cbn in Hq, Hp. refine (proj1 (IH p) _ j e l v Hq Hp). destruct s; cbn in H; try exact H. apply andb_true_iff in H. tauto.
        * intros H. assert (Hf : fl q p = true).
          { apply IH. intros j e l v Hq Hp. exact (H (S j) e l v Hq Hp). }
          destruct s; cbn; rewrite ?Hf; auto. rewrite (H O e l0 v0 eq_refl eq_refl). reflexivity.
  Qed.

  Lemma sel_none : forall p q, (forall s, In s q -> is_filter s = false) -> selects holds q p = lsel q (labels p).
  Proof.
    induction p as [|[l v] p IH]; intros q H; [destruct q; reflexivity|].
    destruct q as [|s q]; [reflexivity|]. cbn [labels map fst]. fold (labels p).
    assert (Hq : selects holds q p = lsel q (labels p)) by (apply IH; intros s' Hs'; apply H; right; exact Hs').
    pose proof (IH (s :: q) H) as Hsq. pose proof (H s (or_introl eq_refl)) as Hs.
    destruct s; cbn [selects lsel]; try discriminate; rewrite ?Hq, ?Hsq; reflexivity.
  Qed.

  Lemma sel_split : forall p q, restricted_before_desc false q = true ->
    selects holds q p = lsel q (labels p) && fl q p.
  Proof.
    induction p as [|[l v] p IH]; intros q H.
    - destruct q as [|s q]; [reflexivity|]. reflexivity.
    - destruct q as [|s q]; [reflexivity|]. cbn [labels map fst]. fold (labels p).
      destruct s as [k| |k| | |lo hi|n|e].
      1,2,5,6,8: (cbn [restricted_before_desc] in H; rewrite ?andb_true_l in H;
        cbn [selects lsel fl]; rewrite (IH q H);
        destruct l; cbn; rewrite ?andb_assoc, ?andb_true_l; try reflexivity;
        destruct (is_object v), (holds e v), (lsel q (labels p)), (fl q p); reflexivity).
      1,2: (cbn [restricted_before_desc] in H;
        match goal with |- selects _ (?s0 :: _) ?p0 = _ =>
          assert (Hno : forall s', In s' (s0 :: q) -> restr s' = false)
            by (intros s' [<-|Hs']; [reflexivity|eapply rbd_true_none; eauto])
        end;
        assert (Hfl : forall pp, fl q pp = true) by
          (intros pp; apply fl_iff; intros j e l0 v0 Hj; apply nth_error_In in Hj;
           assert (Hx : restr (SFilter e) = false) by (apply Hno; right; exact Hj); discriminate Hx);
        rewrite sel_none by (intros s' Hs'; apply Hno in Hs'; destruct s'; try discriminate; reflexivity);
        cbn [fl labels map fst]; fold (labels p); rewrite Hfl, andb_true_r; reflexivity).
      discriminate H.
  Qed.
End Sel.

Lemma lsel_app : forall a b w, forallb nodesc a = true ->
  lsel (a ++ b) w = lsel a (firstn (List.length a) w) && lsel b (skipn (List.length a) w).
Proof.
  induction a as [|s a IH]; intros b w H.
  - cbn. reflexivity.
  - cbn [forallb] in H. apply andb_true_iff in H. destruct H as [Hs H]. destruct w as [|l w]; [reflexivity|].
    cbn [List.length firstn skipn app]. specialize (IH b w H).
    destruct s; try discriminate; cbn [lsel]; rewrite IH, ?andb_assoc; reflexivity.
Qed.

Section Filt.
  Variable holds : expr -> json -> bool.
  Variable q : query.
  Hypothesis Hrbd : restricted_before_desc false q = true.
  Hypothesis Hslice : forallb slice_ok q = true.
  Hypothesis Hend : end_ok q = true.
  Hypothesis Hfo : fields_ok q = true.
  Hypothesis Hfil : filters_ok q = true.

  Let Hne := Hne q Hfo.
  Local Notation pexpr := (pexpr q).
  Local Notation keep := (keep holds q).
  Local Notation keep_ms := (keep_ms holds q).
  Local Notation keep_es := (keep_es holds q).
  Local Notation keep0 := (keep0 holds q).
  Local Notation keep0_ms := (keep0_ms holds q).
  Local Notation keep0_es := (keep0_es holds q).

  Definition lastv (p : path) : option json := option_map snd (nth_error p (pred (List.length p))).
  Lemma lastv_snoc p l v : lastv (p ++ [(l, v)]) = Some v.
  Proof.
    unfold lastv. rewrite app_length. cbn [List.length]. rewrite Nat.add_1_r. cbn [pred].
    rewrite nth_error_app2 by lia. rewrite Nat.sub_diag. reflexivity.
  Qed.

  Definition okp (p : path) : bool :=
    match pexpr (labels p), lastv p with Some e, Some v => negb (is_object v) || holds e v | _, _ => true end.
  Definition isp (p : path) : bool :=
    match pexpr (labels p), lastv p with Some e, Some v => is_object v | _, _ => false end.
  Definition kfrom (m : nat) (p : path) : bool := forallb (fun i => okp (firstn i p)) (seq m (S (List.length p) - m)).
  Definition exfrom (m : nat) (p : path) : bool := existsb (fun i => isp (firstn i p)) (seq m (S (List.length p) - m)).

  Lemma kfrom_step p r : kfrom (List.length p) (p ++ r) = okp p && kfrom (S (List.length p)) (p ++ r).
  Proof.
    unfold kfrom. rewrite app_length. replace (S (List.length p + List.length r) - List.length p)%nat with (S (List.length r)) by lia.
    replace (S (List.length p + List.length r) - S (List.length p))%nat with (List.length r) by lia. cbn [seq forallb].
    rewrite firstn_app, firstn_all, Nat.sub_diag, firstn_O, app_nil_r. reflexivity.
  Qed.
  Lemma exfrom_step p r : exfrom (List.length p) (p ++ r) = isp p || exfrom (S (List.length p)) (p ++ r).
  Proof.
    unfold exfrom. rewrite app_length. replace (S (List.length p + List.length r) - List.length p)%nat with (S (List.length r)) by lia.
    replace (S (List.length p + List.length r) - S (List.length p))%nat with (List.length r) by lia. cbn [seq existsb].
    rewrite firstn_app, firstn_all, Nat.sub_diag, firstn_O, app_nil_r. reflexivity.
  Qed.
  Lemma kfrom_end p : kfrom (S (List.length p)) p = true.
  Proof. unfold kfrom. rewrite Nat.sub_diag. reflexivity. Qed.
  Lemma exfrom_end p : exfrom (S (List.length p)) p = false.
  Proof. unfold exfrom. rewrite Nat.sub_diag. reflexivity. Qed.
  Lemma kfrom_self p : kfrom (List.length p) p = okp p.
  Proof. pose proof (kfrom_step p []) as H. rewrite app_nil_r in H. rewrite H, kfrom_end, andb_true_r. reflexivity. Qed.
  Lemma exfrom_self p : exfrom (List.length p) p = isp p.
  Proof. pose proof (exfrom_step p []) as H. rewrite app_nil_r in H. rewrite H, exfrom_end, orb_false_r. reflexivity. Qed.

  Definition pk (c : path -> bool) (ns : list (path * json)) : list bytes :=
    map (fun n => text (snd n)) (filter (fun n => lsel q (labels (fst n)) && c (fst n)) ns).
  Lemma pk_app c a b : pk c (a ++ b) = pk c a ++ pk c b.
  Proof. unfold pk. rewrite filter_app, map_app. reflexivity. Qed.
  Lemma pk_self c p v : pk c [(p, v)] = if c p then out1 q p v else [].
  Proof. unfold pk, out1. cbn [filter fst]. destruct (lsel _ _), (c p); reflexivity. Qed.
  Lemma pk_ext c c' ns : (forall n, In n ns -> c (fst n) = c' (fst n)) -> pk c ns = pk c' ns.
  Proof.
    intros H. unfold pk. f_equal. apply filter_ext_in. intros n Hn. rewrite (H n Hn). reflexivity.
  Qed.
  Lemma pk_none c ns : (forall n, In n ns -> c (fst n) = false) -> pk c ns = [].
  Proof.
    intros H. rewrite (pk_ext c (fun _ => false)) by exact H. unfold pk.
    replace (filter _ ns) with (@nil (path * json)); [reflexivity|]. symmetry.
    induction ns as [|n ns IH]; [reflexivity|]. cbn [filter]. rewrite andb_false_r. apply IH. intros; apply H; right; assumption.
  Qed.

  Lemma pexpr_nil : pexpr [] = None.
  Proof.
    destruct (pexpr []) as [e|] eqn:E; [|reflexivity].
    assert (Hk : kd q [] = DFA_PREDICATE) by (apply (pexpr_kd q Hrbd Hslice Hend Hfo); eauto).
    destruct (pred_last q Hrbd Hslice Hend Hfo [] Hk) as (w' & i & Ew). destruct w'; discriminate.
  Qed.
  Lemma pexpr_out p e v : pexpr (labels p) = Some e -> out1 q p v = [].
  Proof.
    intros H. assert (Hk : kd q (labels p) = DFA_PREDICATE) by (apply (pexpr_kd q Hrbd Hslice Hend Hfo); eauto).
    unfold out1. rewrite <- (kd_out q Hrbd Hslice Hend Hne), Hk. reflexivity.
  Qed.

  Definition at_node (p : path) (v : json) : Prop := p = [] \/ lastv p = Some v.
  Lemma okp_node p v : at_node p v -> okp p = match pexpr (labels p) with Some e => negb (is_object v) || holds e v | None => true end.
  Proof. intros [->|H]; unfold okp; [cbn [labels map]; rewrite pexpr_nil; reflexivity|]. rewrite H. reflexivity. Qed.
  Lemma isp_node p v : at_node p v -> isp p = match pexpr (labels p) with Some e => is_object v | None => false end.
  Proof. intros [->|H]; unfold isp; [cbn [labels map]; rewrite pexpr_nil; reflexivity|]. rewrite H. reflexivity. Qed.

  Lemma keep_pick :
    (forall v p, at_node p v -> keep p v = pk (kfrom (List.length p)) (nodes p v)) /\
    (forall ms p, keep_ms p ms = pk (kfrom (S (List.length p))) (nodes_ms p ms)) /\
    (forall l p i, keep_es p i l = pk (kfrom (S (List.length p))) (nodes_es p i l)).
  Proof.
    assert (Hprim : forall v p, at_node p v -> is_object v = false -> out1 q p v = pk (kfrom (List.length p)) [(p, v)]).
    { intros v p Ha Ho. rewrite pk_self, kfrom_self, (okp_node p v Ha), Ho. destruct (pexpr _); reflexivity. }
    assert (Hlen : forall (p : path) l (v : json), S (List.length p) = List.length (p ++ [(l, v)])).
    { intros. rewrite app_length. cbn. lia. }
    apply json_all_ind; intros.
    - apply Hprim; auto.
    - apply Hprim; auto.
    - cbn [FilterProof.keep nodes]. rewrite pk_app, pk_self, kfrom_self. unfold passes. rewrite (okp_node _ _ H0). cbn [is_object negb orb].
      rewrite H. set (b := match pexpr (labels p) with Some e => holds e (JObj w ms) | None => true end).
      rewrite (pk_ext (kfrom (List.length p)) (fun p' => b && kfrom (S (List.length p)) p')).
      2:{ intros n Hn. destruct (proj1 (proj2 nodes_paths) _ _ _ Hn) as (k & v & r & E & _). rewrite E.
          rewrite kfrom_step, (okp_node _ _ H0). reflexivity. }
      destruct b; [reflexivity|]. symmetry. rewrite app_nil_r. apply pk_none. reflexivity.
    - cbn [FilterProof.keep nodes]. rewrite pk_app, pk_self, kfrom_self. rewrite (okp_node _ _ H0). cbn [is_object negb orb].
      rewrite H. replace (match pexpr (labels p) with Some _ => true | None => true end) with true by (destruct (pexpr _); reflexivity).
      f_equal. apply pk_ext. intros n Hn. destruct (proj2 (proj2 nodes_paths) _ _ _ _ Hn) as (k & v & r & E & _). rewrite E.
      rewrite kfrom_step, (okp_node _ _ H0). cbn. destruct (pexpr (labels p)); reflexivity.
    - reflexivity.
    - cbn [FilterProof.keep_ms nodes_ms]. rewrite pk_app, H0, H, <- Hlen; [reflexivity|]. right. apply lastv_snoc.
    - reflexivity.
    - cbn [FilterProof.keep_es nodes_es]. rewrite pk_app, H0, H, <- Hlen; [reflexivity|]. right. apply lastv_snoc.
  Qed.

  Definition k0 (m : nat) (p : path) : bool := kfrom m p && exfrom m p.
  Lemma keep0_pick :
    (forall v p, at_node p v -> keep0 p v = pk (k0 (List.length p)) (nodes p v)) /\
    (forall ms p, keep0_ms p ms = pk (k0 (S (List.length p))) (nodes_ms p ms)) /\
    (forall l p i, keep0_es p i l = pk (k0 (S (List.length p))) (nodes_es p i l)).
  Proof.
    assert (Hprim : forall v p, at_node p v -> is_object v = false -> [] = pk (k0 (List.length p)) [(p, v)]).
    { intros v p Ha Ho. rewrite pk_self. unfold k0. rewrite exfrom_self, (isp_node p v Ha), Ho. destruct (pexpr _); rewrite andb_false_r; reflexivity. }
    assert (Hlen : forall (p : path) l (v : json), S (List.length p) = List.length (p ++ [(l, v)])).
    { intros. rewrite app_length. cbn. lia. }
    apply json_all_ind; intros.
    - apply Hprim; auto.
    - apply Hprim; auto.
    - cbn [FilterProof.keep0 nodes]. rewrite pk_app, pk_self. unfold k0 at 2. rewrite kfrom_self, exfrom_self.
      rewrite (okp_node _ _ H0), (isp_node _ _ H0). cbn [is_object negb orb].
      destruct (pexpr (labels p)) as [e|] eqn:Ee.
      + rewrite (pexpr_out _ _ _ Ee). replace (if holds e (JObj w ms) && true then [] else []) with (@nil bytes) by (destruct (_ && _); reflexivity).
        rewrite app_nil_r. rewrite (proj1 (proj2 keep_pick)).
        rewrite (pk_ext (k0 (List.length p)) (fun p' => holds e (JObj w ms) && kfrom (S (List.length p)) p')).
        2:{ intros n Hn. destruct (proj1 (proj2 nodes_paths) _ _ _ Hn) as (k & v & r & E & _). rewrite E. unfold k0.
            rewrite kfrom_step, exfrom_step, (okp_node _ _ H0), (isp_node _ _ H0), Ee. cbn [is_object negb orb]. apply andb_true_r. }
        destruct (holds e _); [reflexivity|]. symmetry. apply pk_none. reflexivity.
      + rewrite andb_false_r, app_nil_r, H. apply pk_ext.
        intros n Hn. destruct (proj1 (proj2 nodes_paths) _ _ _ Hn) as (k & v & r & E & _). rewrite E. unfold k0.
        rewrite kfrom_step, exfrom_step, (okp_node _ _ H0), (isp_node _ _ H0), Ee. reflexivity.
    - cbn [FilterProof.keep0 nodes]. rewrite pk_app, pk_self. unfold k0 at 2. rewrite kfrom_self, exfrom_self.
      rewrite (isp_node _ _ H0). cbn [is_object].
      replace (match pexpr (labels p) with Some _ => false | None => false end) with false by (destruct (pexpr _); reflexivity).
      rewrite andb_false_r, app_nil_r, H. apply pk_ext.
      intros n Hn. destruct (proj2 (proj2 nodes_paths) _ _ _ _ Hn) as (k & v & r & E & _). rewrite E. unfold k0.
      rewrite kfrom_step, exfrom_step, (okp_node _ _ H0), (isp_node _ _ H0). destruct (pexpr (labels p)); reflexivity.
    - reflexivity.
    - cbn [FilterProof.keep0_ms nodes_ms]. rewrite pk_app, H0, H, <- Hlen; [reflexivity|]. right. apply lastv_snoc.
    - reflexivity.
    - cbn [FilterProof.keep0_es nodes_es]. rewrite pk_app, H0, H, <- Hlen; [reflexivity|]. right. apply lastv_snoc.
  Qed.

  (** ** The filters of a selected path *)
  Hypothesis Hhas : existsb is_filter q = true.

  Lemma labels_firstn n (p : path) : labels (firstn n p) = firstn n (labels p).
  Proof. unfold labels. symmetry. apply firstn_map. Qed.
  Lemma labels_nth n (p : path) l v : nth_error p n = Some (l, v) -> nth_error (labels p) n = Some l.
  Proof. intros H. unfold labels. rewrite nth_error_map, H. reflexivity. Qed.

  Lemma lsel_len : forall w a, forallb nodesc a = true -> lsel a w = true -> List.length w = List.length a.
  Proof.
    clear. induction w as [|l w IH]; intros a Hd H; [destruct a; [reflexivity|discriminate]|].
    destruct a as [|s a]; [discriminate|]. cbn [forallb] in Hd. apply andb_true_iff in Hd. destruct Hd as [Hs Hd].
    cbn [List.length]. f_equal. destruct s; try discriminate; cbn [lsel] in H; try (apply andb_true_iff in H; destruct H as [_ H]); apply IH; auto.
  Qed.

  Lemma lsel_min : forall w a, lsel a w = true -> (List.length a <= List.length w)%nat.
  Proof.
    clear. induction w as [|l w IH]; intros a H; [destruct a; [cbn; lia|discriminate]|].
    destruct a as [|s a]; [cbn; lia|]. cbn [List.length].
    destruct s; cbn [lsel] in H; try (apply andb_true_iff in H; destruct H as [_ H]);
      try (apply IH in H; lia).
    - apply orb_true_iff in H. destruct H as [H|H]; [apply andb_true_iff in H; destruct H as [_ H]; apply IH in H; lia|].
      apply IH in H. cbn [List.length] in H. lia.
    - apply orb_true_iff in H. destruct H as [H|H]; [apply IH in H; lia|].
      apply IH in H. cbn [List.length] in H. lia.
  Qed.

  Lemma filter_at j e p : lsel q (labels p) = true -> nth_error q j = Some (SFilter e) ->
    exists l v, nth_error p j = Some (l, v) /\ pexpr (labels (firstn (S j) p)) = Some e /\ lastv (firstn (S j) p) = Some v.
  Proof.
    intros Hl Hj. pose proof (rbd_prefix q j _ Hrbd Hj eq_refl) as Hd.
    assert (Hlen : List.length (firstn (S j) q) = S j).
    { rewrite firstn_length. assert (j < List.length q)%nat by (apply nth_error_Some; congruence). lia. }
    rewrite <- (firstn_skipn (S j) q) in Hl. rewrite (lsel_app _ _ _ Hd), Hlen in Hl. apply andb_true_iff in Hl. destruct Hl as [Hl _].
    pose proof (lsel_len _ _ Hd Hl) as L. rewrite Hlen, firstn_length in L. unfold labels in L. rewrite map_length in L.
    destruct (nth_error p j) as [[l v]|] eqn:Ep; [|apply nth_error_None in Ep; lia].
    exists l, v. split; [reflexivity|]. split.
    - apply (pexpr_spec q Hrbd Hslice Hend Hfo). exists j. split; [exact Hj|]. rewrite labels_firstn. exact Hl.
    - rewrite (firstn_snoc _ _ _ Ep). apply lastv_snoc.
  Qed.

  Lemma pexpr_at p e : pexpr (labels p) = Some e -> exists j, nth_error q j = Some (SFilter e) /\ List.length p = S j.
  Proof.
    intros H. apply (pexpr_spec q Hrbd Hslice Hend Hfo) in H. destruct H as (j & Hj & Hl). exists j. split; [exact Hj|].
    pose proof (rbd_prefix q j _ Hrbd Hj eq_refl) as Hd. pose proof (lsel_len _ _ Hd Hl) as L.
    unfold labels in L. rewrite map_length in L. rewrite L, firstn_length.
    assert (j < List.length q)%nat by (apply nth_error_Some; congruence). lia.
  Qed.

  Lemma one_filter : forall (q0 : query) j j' e e', (List.length (filter is_filter q0) <= 1)%nat ->
    nth_error q0 j = Some (SFilter e) -> nth_error q0 j' = Some (SFilter e') -> j = j'.
  Proof.
    clear. induction q0 as [|s q0 IH]; intros j j' e e' H H1 H2; [destruct j; discriminate|].
    assert (Hz : forall jj ee, nth_error q0 jj = Some (SFilter ee) -> (1 <= List.length (filter is_filter q0))%nat).
    { intros jj ee Hn. apply nth_error_In in Hn. assert (Hf : In (SFilter ee) (filter is_filter q0)) by (apply filter_In; auto).
      destruct (filter is_filter q0); [contradiction|cbn; lia]. }
    destruct j as [|j], j' as [|j']; cbn in H1, H2; [reflexivity| | |].
    - injection H1 as ->. cbn in H. apply Hz in H2. lia.
    - injection H2 as ->. cbn in H. apply Hz in H1. lia.
    - f_equal. eapply IH; eauto. cbn in H. destruct (is_filter s); cbn in H; lia.
  Qed.

  Lemma followed_next : forall (q0 : query) j e, filters_followed q0 = true -> nth_error q0 j = Some (SFilter e) ->
    exists k, nth_error q0 (S j) = Some (SChild k).
  Proof.
    clear. induction q0 as [|s q0 IH]; intros j e H Hj; [destruct j; discriminate|].
    destruct j as [|j].
    - cbn in Hj. injection Hj as ->. cbn in H. destruct q0 as [|[] q0]; try discriminate. cbn. eauto.
    - cbn in Hj. assert (Hf : filters_followed q0 = true).
      { destruct s; cbn in H; try exact H. apply andb_true_iff in H. tauto. }
      destruct (IH j e Hf Hj) as (k & Hk). exists k. exact Hk.
  Qed.

  Lemma child_next p j k : lsel q (labels p) = true -> forallb nodesc (firstn (S j) q) = true -> nth_error q (S j) = Some (SChild k) ->
    exists v, nth_error p (S j) = Some (LKey k, v).
  Proof.
    intros Hl Hd Hk. assert (Hlen : List.length (firstn (S j) q) = S j).
    { rewrite firstn_length. assert (S j < List.length q)%nat by (apply nth_error_Some; congruence). lia. }
    pose proof Hl as Hl0.
    rewrite <- (firstn_skipn (S j) q) in Hl. rewrite (lsel_app _ _ _ Hd), Hlen in Hl. apply andb_true_iff in Hl. destruct Hl as [_ Hl].
    destruct (nth_error_split _ _ Hk) as (a & b & Eq & La).
    assert (Hsk : skipn (S j) q = SChild k :: b).
    { rewrite Eq, <- La, skipn_app, skipn_all, Nat.sub_diag. reflexivity. }
    rewrite Hsk in Hl.
    destruct (skipn (S j) (labels p)) as [|l w] eqn:Es; [discriminate|]. cbn [lsel] in Hl. apply andb_true_iff in Hl. destruct Hl as [Hl _].
    destruct l as [k'|]; [|discriminate]. apply beq_true in Hl. subst k'.
    assert (Hn : nth_error (labels p) (S j) = Some (LKey k)).
    { rewrite <- (firstn_skipn (S j) (labels p)), Es. rewrite nth_error_app2.
      - rewrite firstn_length_le; [rewrite Nat.sub_diag; reflexivity|].
        assert (List.length (skipn (S j) (labels p)) <> 0%nat) by (rewrite Es; discriminate). rewrite skipn_length in H. lia.
      - rewrite firstn_length. lia. }
    unfold labels in Hn. rewrite nth_error_map in Hn. destruct (nth_error p (S j)) as [[l v]|]; [|discriminate].
    cbn in Hn. injection Hn as ->. eauto.
  Qed.

  Theorem keep_selects v0 p v : In (p, v) (nodes [] v0) -> lsel q (labels p) = true ->
    k0 0 p = fl holds q p.
  Proof.
    intros Hin Hl. destruct (proj1 nodes_paths v0 [] _ Hin) as (r & Er & Hlink). cbn [fst app] in Er. subst r.
    apply eq_true_iff_eq. unfold k0. rewrite andb_true_iff, fl_iff. unfold kfrom, exfrom. rewrite forallb_forall, existsb_exists.
    rewrite Nat.sub_0_r. split.
    - intros [Hk (i0 & _ & Hi0)] j e l w Hj Hp.
      destruct (filter_at j e p Hl Hj) as (l' & w' & Hp' & Hpe & Hlv). rewrite Hp in Hp'. injection Hp' as <- <-.
      assert (Hjl : (S j <= List.length p)%nat) by (apply nth_error_Some; congruence).
      specialize (Hk (S j)). rewrite in_seq in Hk. specialize (Hk ltac:(lia)). unfold okp in Hk. rewrite Hpe, Hlv in Hk.
      assert (Ho : is_object w = true).
      { pose proof Hfil as Hf2. unfold filters_ok in Hf2. apply orb_true_iff in Hf2. destruct Hf2 as [H1|H1].
        - apply Nat.leb_le in H1. unfold isp in Hi0. destruct (pexpr (labels (firstn i0 p))) as [e0|] eqn:E0; [|discriminate].
          destruct (pexpr_at _ _ E0) as (j0 & Hj0 & Hlen0). pose proof (one_filter _ _ _ _ _ H1 Hj Hj0) as <-.
          assert (Hfe : firstn i0 p = firstn (S j) p).
          { rewrite firstn_length in Hlen0. destruct (Nat.le_gt_cases i0 (List.length p)) as [Hle|Hgt].
            - assert (i0 = S j) as -> by (clear - Hlen0 Hle; lia). reflexivity.
            - rewrite !firstn_all2 by (clear - Hlen0 Hgt; lia). reflexivity. }
          rewrite Hfe, Hlv in Hi0. exact Hi0.
        - destruct (followed_next _ _ _ H1 Hj) as (k & Hk1).
          destruct (child_next p j k Hl (rbd_prefix q j _ Hrbd Hj eq_refl) Hk1) as (v1 & Hv1).
          eapply linked_next; eauto. }
      rewrite Ho in *. cbn in *. exact Hk.
    - intros H. split.
      + intros i Hi. unfold okp. destruct (pexpr (labels (firstn i p))) as [e|] eqn:Ee; [|reflexivity].
        destruct (pexpr_at _ _ Ee) as (j & Hj & Hlen). apply in_seq in Hi. rewrite firstn_length in Hlen.
        assert (i = S j) as -> by lia. destruct (filter_at j e p Hl Hj) as (l' & w' & Hp' & _ & Hlv).
        rewrite Hlv. pose proof (H j e l' w' Hj Hp') as Hh. apply andb_true_iff in Hh. destruct Hh as [_ ->]. apply orb_true_r.
      + pose proof Hhas as Hh0. apply existsb_exists in Hh0. destruct Hh0 as (s & Hs & Hf). destruct s; try discriminate.
        apply In_nth_error in Hs. destruct Hs as (j & Hj). destruct (filter_at j e p Hl Hj) as (l' & w' & Hp' & Hpe & Hlv).
        exists (S j). split.
        * apply in_seq. assert (j < List.length p)%nat by (apply nth_error_Some; congruence). lia.
        * unfold isp. rewrite Hpe, Hlv. pose proof (H j e l' w' Hj Hp') as Hh. apply andb_true_iff in Hh. tauto.
  Qed.

  Theorem keep_answer v : keep0 [] v = answer_text holds q v.
  Proof.
    rewrite (proj1 keep0_pick v []) by (left; reflexivity). cbn [List.length]. unfold answer_text, answer, pk. rewrite map_map. f_equal.
    apply filter_ext_in. intros [p u] Hn. cbn [fst]. rewrite (sel_split holds p q Hrbd).
    destruct (lsel q (labels p)) eqn:El; [|reflexivity]. cbn [andb]. eapply keep_selects; eauto.
  Qed.
End Filt.
