(** Which path expression of a supported query matches which labels: at most one
    matches, and what it says about the query. *)
From Coq Require FinFun.
From Verif Require Import Base Spec QueryClass Regex RegexProof Mixer Compress
                          Dfa Builder AutoProof BuilderProof.
Open Scope Z_scope.

(** * Matching *)
Definition nodesc_se (s : se) : bool := match s with SeParent _ | SeParentAll => false | _ => true end.
Definition nodesc (s : step) : bool := match s with SDesc _ | SDescAny => false | _ => true end.

Lemma st_match_min : forall w st, st_match st w = true -> (List.length st <= List.length w)%nat.
Proof.
  induction w as [|l w IH]; intros st H; cbn [st_match] in H.
  - destruct st; [cbn; lia|discriminate].
  - destruct st as [|s st]; [discriminate|]. cbn [List.length].
    destruct s; try (apply andb_true_iff in H; destruct H as [_ H]; apply IH in H; lia).
    + apply IH in H. lia.
    + apply orb_true_iff in H. destruct H as [H|H]; apply IH in H; cbn in H; lia.
    + apply orb_true_iff in H. destruct H as [H|H]; [apply andb_true_iff in H; destruct H as [_ H]|]; apply IH in H; cbn in H; lia.
Qed.

Lemma st_match_len : forall st w, forallb nodesc_se st = true -> st_match st w = true ->
  List.length w = List.length st.
Proof.
  induction st as [|s st IH]; intros w Hn H.
  - destruct w; [reflexivity|discriminate].
  - cbn [forallb] in Hn. apply andb_true_iff in Hn. destruct Hn as [H1 H2].
    destruct w as [|l w]; [discriminate|]. cbn [List.length]. f_equal. cbn [st_match] in H.
    destruct s; try discriminate; try (apply andb_true_iff in H; destruct H as [_ H]); apply IH; auto.
Qed.

Lemma st_match_app : forall s t w, forallb nodesc_se s = true ->
  st_match (s ++ t) w = st_match s (firstn (List.length s) w) && st_match t (skipn (List.length s) w).
Proof.
  induction s as [|x s IH]; intros t w Hn.
  - cbn. destruct w; reflexivity.
  - cbn [forallb] in Hn. apply andb_true_iff in Hn. destruct Hn as [H1 H2].
    destruct w as [|l w]; [reflexivity|]. cbn [app List.length firstn skipn st_match].
    destruct x; try discriminate; rewrite IH by exact H2; rewrite ?andb_assoc; reflexivity.
Qed.

Lemma st_match_dots : forall f w, st_match (map SeDot f) w = true <-> w = map LKey f.
Proof.
  induction f as [|k f IH]; intros w; destruct w as [|l w]; cbn [map st_match]; split; intros H;
    try reflexivity; try discriminate.
  - apply andb_true_iff in H. destruct H as [H1 H2]. destruct l as [k'|]; [|discriminate].
    apply beq_true in H1. apply IH in H2. congruence.
  - injection H as -> ->. rewrite beq_refl. apply IH. reflexivity.
Qed.

Definition last_fits (x : se) (l : label) : bool :=
  match x, l with
  | SeDot k, LKey k' | SeParent k, LKey k' => beq k k'
  | SeArray, LIdx _ | SeIndex _ _, LIdx _ => true
  | SeDotAll, _ | SeParentAll, _ => true
  | _, _ => false
  end.

Lemma st_match_last x : forall w st, st_match (st ++ [x]) w = true ->
  exists w' l, w = w' ++ [l] /\ last_fits x l = true.
Proof.
  induction w as [|l w IH]; intros st H; [destruct st; discriminate|].
  destruct st as [|s st].
  - cbn [app st_match] in H. destruct w as [|l' w].
    + exists [], l. split; [reflexivity|]. destruct x, l; cbn in *; rewrite ?andb_true_r, ?orb_false_r in H; auto.
    + assert (Hr : st_match [x] (l' :: w) = true -> exists w'' l'', l :: l' :: w = w'' ++ [l''] /\ last_fits x l'' = true).
      { intros Hx. destruct (IH [] Hx) as (w'' & l'' & E & Hf). exists (l :: w''), l''. rewrite E. auto. }
      destruct x; cbn [st_match] in H; rewrite ?andb_false_r in H; try discriminate.
      * apply Hr. exact H.
      * apply Hr. cbn [orb] in H. exact H.
  - cbn [app] in H. assert (Hr : forall st', st_match (st' ++ [x]) w = true ->
        exists w'' l'', l :: w = w'' ++ [l''] /\ last_fits x l'' = true).
    { intros st' Hx. destruct (IH st' Hx) as (w'' & l'' & E & Hf). exists (l :: w''), l''. rewrite E. auto. }
    cbn [st_match] in H. destruct s.
    + apply (Hr st), H.
    + apply orb_true_iff in H. destruct H as [H|H]; [apply (Hr st), H|apply (Hr (SeParentAll :: st)), H].
    + apply andb_true_iff in H. apply (Hr st), H.
    + apply orb_true_iff in H. destruct H as [H|H]; [apply andb_true_iff in H; apply (Hr st), H|apply (Hr (SeParent k :: st)), H].
    + apply andb_true_iff in H. apply (Hr st), H.
    + apply andb_true_iff in H. apply (Hr st), H.
Qed.

(** Some labels match. *)
Definition wit (s : se) : label :=
  match s with SeDot k | SeParent k => LKey k | SeArray | SeIndex _ _ => LIdx 0 | SeDotAll | SeParentAll => LIdx 0 end.
Lemma st_match_wit : forall st, st_match st (map wit st) = true.
Proof.
  induction st as [|s st IH]; [reflexivity|]. cbn [map st_match].
  destruct s; cbn [wit]; rewrite ?beq_refl, ?IH; reflexivity.
Qed.

(** * Restricted queries *)
Lemma rbd_no_index : forall q b, restricted_before_desc b q = true -> no_index q.
Proof.
  induction q as [|s q IH]; intros b H x Hx; [contradiction|]. cbn in H.
  destruct Hx as [<-|Hx].
  - destruct s; cbn; try discriminate.
  - destruct s; try discriminate; try (eapply IH; eauto; fail).
    + apply andb_true_iff in H. destruct H as [_ H]. eapply IH; eauto.
    + apply andb_true_iff in H. destruct H as [_ H]. eapply IH; eauto.
Qed.

Definition restr (s : step) : bool := match s with SSlice _ _ | SFilter _ => true | _ => false end.

Lemma rbd_true_none : forall q, restricted_before_desc true q = true -> forall s, In s q -> restr s = false.
Proof.
  induction q as [|s q IH]; intros H x Hx; [contradiction|]. cbn in H.
  destruct Hx as [<-|Hx].
  - destruct s; try reflexivity; discriminate.
  - destruct s; try discriminate; auto.
Qed.

Lemma rbd_prefix : forall q j s, restricted_before_desc false q = true -> nth_error q j = Some s -> restr s = true ->
  forallb nodesc (firstn (S j) q) = true.
Proof.
  induction q as [|x q IH]; intros j s H Hj Hs; [destruct j; discriminate|].
  destruct j as [|j]; cbn in Hj.
  - injection Hj as ->. cbn. destruct s; try discriminate; reflexivity.
  - cbn [firstn forallb]. cbn in H. assert (Hd : In s q) by (eapply nth_error_In; eauto).
    destruct x; try discriminate; cbn [nodesc andb]; try (eapply IH; eauto; fail).
    + rewrite (rbd_true_none q H s Hd) in Hs. discriminate.
    + rewrite (rbd_true_none q H s Hd) in Hs. discriminate.
Qed.

Lemma nodesc_stack q : forallb nodesc q = true -> forallb nodesc_se (stack_of q) = true.
Proof.
  intros H. apply forallb_forall. intros x Hx. unfold stack_of in Hx. apply in_flat_map in Hx.
  destruct Hx as (s & Hs & Hx). rewrite forallb_forall in H. specialize (H s Hs).
  destruct s; cbn in Hx, H; try discriminate; try contradiction; destruct Hx as [<-|[]]; reflexivity.
Qed.

(** * At most one expression matches *)
Lemma roles_nodup q : NoDup (roles q).
Proof.
  assert (H : forall q j, NoDup (roles_from j q)).
  { clear q. induction q as [|s q IH]; intros j; cbn [roles_from]; [constructor|].
    assert (Hd : forall r, In r (step_roles j s) -> ~ In r (roles_from (S j) q)).
    { intros r H1 H2. apply step_roles_in in H1. apply roles_from_in in H2. destruct r as [i|i|i f|].
      - destruct H1 as (-> & _). destruct H2 as (n & _ & _ & E & _). lia.
      - destruct H1 as (-> & _). destruct H2 as (n & _ & E & _). lia.
      - destruct H1 as (-> & _). destruct H2 as (n & _ & E & _). lia.
      - contradiction. }
    assert (Hs : NoDup (step_roles j s)).
    { destruct s; cbn; try constructor; auto; try constructor.
      - intros Hin. apply in_map_iff in Hin. destruct Hin as (f & E & _). discriminate.
      - apply FinFun.Injective_map_NoDup; [|apply nub_nodup]. intros a b E. congruence. }
    clear - IH Hd Hs. induction Hs as [|r l Hr Hl IHl]; [apply IH|]. cbn. constructor.
    - intros Hin. apply in_app_or in Hin. destruct Hin as [Hin|Hin]; [contradiction|].
      apply (Hd r); [left; reflexivity|exact Hin].
    - apply IHl. intros r' Hr'. apply Hd. right. exact Hr'. }
  unfold roles. destruct (ends_in_slice q); [rewrite app_nil_r; apply H|].
  apply NoDup_snoc; [apply H|]. intros Hin. apply roles_from_in in Hin. exact Hin.
Qed.

Section Supported.
  Variable q : query.
  Hypothesis Hrbd : restricted_before_desc false q = true.
  Hypothesis Hend : end_ok q = true.
  Hypothesis Hne : forall f, In f (query_fields q) -> f <> [].

  Lemma Hni : no_index q.
  Proof. eapply rbd_no_index; eauto. Qed.

  Lemma role_in r : In r (roles q) ->
    match r with
    | RS j => exists lo hi, nth_error q j = Some (SSlice lo hi)
    | RP j => exists e, nth_error q j = Some (SFilter e)
    | RC j f => exists e, nth_error q j = Some (SFilter e) /\ In f (fields_in e)
    | RO => ends_in_slice q = false
    end.
  Proof.
    intros H. unfold roles in H. apply in_app_or in H. destruct H as [H|H].
    - apply roles_from_in in H. destruct r as [i|i|i f|].
      + destruct H as (n & lo & hi & -> & Hn). eauto.
      + destruct H as (n & e & -> & Hn). eauto.
      + destruct H as (n & e & -> & Hn & Hf). apply nub_in in Hf. eauto.
      + contradiction.
    - destruct (ends_in_slice q) eqn:E; [contradiction|]. destruct H as [<-|[]]. reflexivity.
  Qed.

  Lemma field_in j e f : nth_error q j = Some (SFilter e) -> In f (fields_in e) -> In f (query_fields q).
  Proof.
    intros Hj Hf. unfold query_fields. apply in_flat_map. exists (SFilter e).
    split; [eapply nth_error_In; eauto|exact Hf].
  Qed.

  Definition pre (j : nat) := stack_of (firstn (S j) q).

  Lemma pre_nodesc j s : nth_error q j = Some s -> restr s = true -> forallb nodesc_se (pre j) = true.
  Proof. intros H1 H2. apply nodesc_stack. eapply rbd_prefix; eauto. Qed.

  Lemma pre_len j s : nth_error q j = Some s -> List.length (pre j) = S j.
  Proof.
    intros H. unfold pre. rewrite stack_len.
    - assert (j < List.length q)%nat by (apply nth_error_Some; congruence). rewrite firstn_length. lia.
    - intros x Hx. apply Hni. rewrite <- (firstn_skipn (S j) q). apply in_or_app. left. exact Hx.
  Qed.

  Lemma pre_last j s : nth_error q j = Some s -> restr s = true ->
    exists x, pre j = stack_of (firstn j q) ++ [x] /\ (x = SeArray \/ exists a b, x = SeIndex a b).
  Proof.
    intros H1 H2. unfold pre. rewrite (firstn_snoc _ _ _ H1), stack_of_app. destruct s; try discriminate.
    - eexists. split; [reflexivity|]. right. eauto.
    - eexists. split; [reflexivity|]. left. reflexivity.
  Qed.

  (** A restricted prefix matches labels of its own length ending in an index. *)
  Lemma match_pre j s w : nth_error q j = Some s -> restr s = true -> st_match (pre j) w = true ->
    List.length w = S j /\ exists w' i, w = w' ++ [LIdx i].
  Proof.
    intros H1 H2 Hw. split.
    - rewrite (st_match_len _ _ (pre_nodesc j s H1 H2) Hw). eapply pre_len; eauto.
    - destruct (pre_last j s H1 H2) as (x & Ex & Hx). rewrite Ex in Hw.
      destruct (st_match_last x _ _ Hw) as (w' & l & -> & Hl). exists w'.
      destruct Hx as [->|(a & b & ->)]; destruct l; try discriminate; eauto.
  Qed.

  Lemma match_cond j e f w : nth_error q j = Some (SFilter e) ->
    (st_match (pre j ++ map SeDot f) w = true <->
     exists u, w = u ++ map LKey f /\ st_match (pre j) u = true).
  Proof.
    intros Hj. pose proof (pre_nodesc j _ Hj eq_refl) as Hn. rewrite st_match_app by exact Hn. split.
    - intros H. apply andb_true_iff in H. destruct H as [H1 H2]. apply st_match_dots in H2.
      exists (firstn (List.length (pre j)) w). split; [|exact H1]. rewrite <- H2. symmetry. apply firstn_skipn.
    - intros (u & -> & Hu). pose proof (st_match_len _ _ Hn Hu) as Hl. rewrite <- Hl.
      rewrite firstn_app, skipn_app, firstn_all, skipn_all, Nat.sub_diag. cbn [firstn skipn app].
      rewrite app_nil_r, Hu. apply st_match_dots. reflexivity.
  Qed.

  Lemma snoc_inj {A} (l l' : list A) x y : l ++ [x] = l' ++ [y] -> x = y.
  Proof. intros H. apply app_inj_tail in H. tauto. Qed.

  Lemma keys_last u f : f <> [] -> exists w', u ++ map LKey f = w' ++ [LKey (last f [])].
  Proof.
    intros Hf. destruct (exists_last Hf) as (f' & k & ->). exists (u ++ map LKey f').
    rewrite map_app, last_last, app_assoc. reflexivity.
  Qed.

  (** Conditions of filters at different places do not meet. *)
  Lemma cond_cond j e f j' e' f' u u' :
    nth_error q j = Some (SFilter e) -> nth_error q j' = Some (SFilter e') ->
    st_match (pre j) u = true -> st_match (pre j') u' = true ->
    u ++ map LKey f = u' ++ map LKey f' -> (j <= j')%nat -> j = j' /\ f = f'.
  Proof.
    intros H1 H2 Hu Hu' E Hle.
    destruct (match_pre j _ u H1 eq_refl Hu) as [L1 _]. destruct (match_pre j' _ u' H2 eq_refl Hu') as [L2 (v & i & Ev)].
    assert (Hinj : forall a b, map LKey a = map LKey b -> a = b).
    { induction a as [|x a IH]; intros [|y b] H; cbn in H; try discriminate; [reflexivity|].
      injection H as -> H. f_equal. apply IH, H. }
    destruct (Nat.eq_dec j j') as [->|Hn].
    - split; [reflexivity|]. apply Hinj.
      assert (u = u') as ->. { apply (f_equal (firstn (S j'))) in E. rewrite !firstn_app in E.
        rewrite L1, L2, Nat.sub_diag, !firstn_O, !app_nil_r, !firstn_all2 in E by lia. exact E. }
      apply app_inv_head in E. exact E.
    - exfalso. assert (Hnth : nth_error (u ++ map LKey f) j' = Some (LIdx i)).
      { rewrite E, Ev, <- app_assoc. assert (List.length v = j').
        { rewrite Ev, app_length in L2. cbn in L2. lia. } subst j'. apply nth_pre. }
      rewrite nth_error_app2 in Hnth by lia. rewrite nth_error_map in Hnth.
      destruct (nth_error f _); discriminate.
  Qed.

  Theorem role_unique r r' w : In r (roles q) -> In r' (roles q) ->
    st_match (role_st q r) w = true -> st_match (role_st q r') w = true -> r = r'.
  Proof.
    assert (Haux : forall j j' s s', nth_error q j = Some s -> restr s = true -> st_match (pre j) w = true ->
               nth_error q j' = Some s' -> restr s' = true -> st_match (pre j') w = true -> j = j').
    { intros j j' s s' A1 A2 A3 B1 B2 B3. destruct (match_pre j s w A1 A2 A3) as [L _].
      destruct (match_pre j' s' w B1 B2 B3) as [L' _]. congruence. }
    assert (Hkey : forall j s j' e f, nth_error q j = Some s -> restr s = true -> st_match (pre j) w = true ->
               nth_error q j' = Some (SFilter e) -> In f (fields_in e) ->
               st_match (pre j' ++ map SeDot f) w = true -> False).
    { intros j s j' e f A1 A2 A3 B1 B2 B3. destruct (match_pre j s w A1 A2 A3) as [_ (w' & i & E)].
      apply (match_cond j' e f w B1) in B3. destruct B3 as (u & E' & _).
      destruct (keys_last u f (Hne f (field_in _ _ _ B1 B2))) as (w'' & E''). rewrite E'', E in E'.
      apply snoc_inj in E'. discriminate. }
    assert (Hout : forall j s, ends_in_slice q = false -> nth_error q j = Some s -> restr s = true ->
               st_match (pre j) w = true -> st_match (stack_of q) w = true -> False).
    { intros j s A0 A1 A2 A3 A4. destruct (match_pre j s w A1 A2 A3) as [L _].
      apply st_match_min in A4. rewrite stack_len in A4 by apply Hni.
      assert (j < List.length q)%nat by (apply nth_error_Some; congruence).
      unfold ends_in_slice, end_ok, ends_well in *. destruct (last_step q) as [sl|] eqn:El; [|discriminate].
      destruct (last_step_some _ _ El) as (q' & Eq). assert (j = List.length q') as ->.
      { rewrite Eq, app_length in *. cbn in *. lia. }
      rewrite Eq, nth_pre in A1. injection A1 as ->. destruct s; discriminate. }
    assert (Hoc : forall j e f, ends_in_slice q = false -> nth_error q j = Some (SFilter e) -> In f (fields_in e) ->
               st_match (pre j ++ map SeDot f) w = true -> st_match (stack_of q) w = true -> False).
    { intros j e f A0 A1 A2 A3 A4. pose proof (pre_nodesc j _ A1 eq_refl) as Hn. apply (match_cond j e f w A1) in A3. destruct A3 as (u & -> & Hu).
      pose proof (andb_prop _ _ Hend) as [_ Hun]. pose proof (untested_stack q j e f Hni Hun A1 A2) as Hno.
      rewrite <- (firstn_skipn (S j) q), stack_of_app in A4. change (stack_of (firstn (S j) q)) with (pre j) in A4.
      rewrite (st_match_app _ _ _ Hn), <- (st_match_len _ _ Hn Hu), skipn_app, skipn_all, Nat.sub_diag, skipn_O, app_nil_l in A4.
      rewrite Hno, andb_false_r in A4. discriminate. }
    intros Hr Hr' Hm Hm'. apply role_in in Hr. apply role_in in Hr'.
    destruct r as [j|j|j f|], r' as [j'|j'|j' f'|]; cbn [role_st] in *.
    - destruct Hr as (lo & hi & Hr), Hr' as (lo' & hi' & Hr'). f_equal. eapply Haux; eauto.
    - destruct Hr as (lo & hi & Hr), Hr' as (e' & Hr'). exfalso.
      assert (j = j') by (eapply Haux; eauto). subst j'. congruence.
    - destruct Hr as (lo & hi & Hr), Hr' as (e' & Hr' & Hf'). exfalso. eapply Hkey with (j := j) (j' := j'); eauto.
    - destruct Hr as (lo & hi & Hr). exfalso. eapply Hout with (j := j); eauto.
    - destruct Hr as (e & Hr), Hr' as (lo' & hi' & Hr'). exfalso.
      assert (j = j') by (eapply Haux; eauto). subst j'. congruence.
    - destruct Hr as (e & Hr), Hr' as (e' & Hr'). f_equal. eapply Haux; eauto.
    - destruct Hr as (e & Hr), Hr' as (e' & Hr' & Hf'). exfalso. eapply Hkey with (j := j) (j' := j'); eauto.
    - destruct Hr as (e & Hr). exfalso. eapply Hout with (j := j); eauto.
    - destruct Hr as (e & Hr & Hf), Hr' as (lo' & hi' & Hr'). exfalso. eapply Hkey with (j := j') (j' := j); eauto.
    - destruct Hr as (e & Hr & Hf), Hr' as (e' & Hr'). exfalso. eapply Hkey with (j := j') (j' := j); eauto.
    - destruct Hr as (e & Hr & Hf), Hr' as (e' & Hr' & Hf').
      apply (match_cond j e f w Hr) in Hm. apply (match_cond j' e' f' w Hr') in Hm'.
      destruct Hm as (u & E & Hu), Hm' as (u' & E' & Hu'). rewrite E in E'.
      destruct (Nat.le_ge_cases j j') as [L|L].
      + destruct (cond_cond j e f j' e' f' u u' Hr Hr' Hu Hu' E' L). congruence.
      + destruct (cond_cond j' e' f' j e f u' u Hr' Hr Hu' Hu (eq_sym E') L). congruence.
    - destruct Hr as (e & Hr & Hf). exfalso. eapply Hoc with (j := j); eauto.
    - destruct Hr' as (lo & hi & Hr'). exfalso. eapply Hout with (j := j'); eauto.
    - destruct Hr' as (e & Hr'). exfalso. eapply Hout with (j := j'); eauto.
    - destruct Hr' as (e & Hr' & Hf'). exfalso. eapply Hoc with (j := j'); eauto.
    - reflexivity.
  Qed.

  (** The expression matched by labels. *)
  Definition cls (w : list label) : option role := find (fun r => st_match (role_st q r) w) (roles q).

  Lemma cls_spec w r : cls w = Some r <-> In r (roles q) /\ st_match (role_st q r) w = true.
  Proof.
    unfold cls. split.
    - apply find_some.
    - intros [H1 H2]. destruct (find _ _) as [r'|] eqn:E.
      + apply find_some in E. destruct E as [E1 E2]. f_equal. eapply role_unique; eauto.
      + apply (find_none _ _ E) in H1. congruence.
  Qed.

  Lemma last_st_cls w :
    match cls w with
    | None => last_st (map (role_st q) (roles q)) w 1 = 0
    | Some r => exists i, nth_error (roles q) i = Some r /\ last_st (map (role_st q) (roles q)) w 1 = 1 + Z.of_nat i
    end.
  Proof.
    destruct (last_st_spec (map (role_st q) (roles q)) w 1 ltac:(lia)) as [[E H]|(j & st & Hj & E & Hm & _)].
    - destruct (cls w) as [r|] eqn:Ec; [|exact E]. apply cls_spec in Ec. destruct Ec as [E1 E2].
      rewrite (H (role_st q r)) in E2 by (apply in_map, E1). discriminate.
    - rewrite nth_error_map in Hj. destruct (nth_error (roles q) j) as [r|] eqn:Er; [|discriminate].
      injection Hj as <-. assert (cls w = Some r) as ->. { apply cls_spec. split; [eapply nth_error_In; eauto|exact Hm]. }
      exists j. auto.
  Qed.
End Supported.
