(** The automaton built from a list of path expressions, seen as a function of
    the labels of a document path. *)
From Verif Require Import Base Spec Regex RegexProof Mixer MixerProof Compress CompressProof
                          Dfa TreeSem Stream Builder.
Open Scope Z_scope.

(** * Path expressions and labels *)

(** Does the path expression match the labels?  (Index restrictions of slices are
    kept separately, see [b_range].) *)
Fixpoint st_match (st : list se) (w : list label) {struct w} : bool :=
  match w with
  | [] => match st with [] => true | _ => false end
  | l :: w' =>
      match st with
      | [] => false
      | SeDot k :: st' => match l with LKey k' => beq k k' | LIdx _ => false end && st_match st' w'
      | SeDotAll :: st' => st_match st' w'
      | SeParent k :: st' =>
          (match l with LKey k' => beq k k' | LIdx _ => false end && st_match st' w')
          || st_match st w'
      | SeParentAll :: st' => st_match st' w' || st_match st w'
      | SeArray :: st' | SeIndex _ _ :: st' =>
          match l with LKey _ => false | LIdx _ => true end && st_match st' w'
      end
  end.

Fixpoint last_st (sts : list (list se)) (w : list label) (i : Z) : Z :=
  match sts with
  | [] => 0
  | st :: sts' =>
      let later := last_st sts' w (i + 1) in
      if negb (later =? 0) then later else if st_match st w then i else 0
  end.

(** The input of the automaton for a label. *)
Definition lcode (names : list bytes) (l : label) : Z :=
  match l with
  | LIdx _ => 2
  | LKey k => match name_code names k 3 with Some c => c | None => 1 end
  end.

Definition se_names (s : se) : list bytes :=
  match s with SeDot k | SeParent k => [k] | _ => [] end.
Definition st_names (st : list se) : list bytes := flat_map se_names st.

Lemma name_code_some names : forall k i c, name_code names k i = Some c ->
  i <= c < i + zlen names /\ nth_error names (Z.to_nat (c - i)) = Some k.
Proof.
  induction names as [|n names IH]; intros k i c H; cbn [name_code] in H; [discriminate|].
  rewrite zlen_cons. destruct (beq n k) eqn:E.
  - injection H as <-. apply beq_true in E. subst. pose proof (zlen_nonneg names).
    rewrite Z.sub_diag. split; [lia|reflexivity].
  - apply IH in H. destruct H as [H1 H2]. split; [lia|].
    replace (Z.to_nat (c - i)) with (S (Z.to_nat (c - (i + 1)))) by lia. exact H2.
Qed.

Lemma name_code_none names : forall k i, name_code names k i = None <-> ~ In k names.
Proof.
  induction names as [|n names IH]; intros k i; cbn [name_code In]; [tauto|].
  destruct (beq n k) eqn:E.
  - apply beq_true in E. subst. split; [discriminate|tauto].
  - apply beq_false in E. rewrite IH. tauto.
Qed.

Lemma name_code_nth names : NoDup names -> forall j k i, nth_error names j = Some k ->
  name_code names k i = Some (i + Z.of_nat j).
Proof.
  induction 1 as [|n names Hn Hd IH]; intros j k i Hj; [destruct j; discriminate|].
  cbn [name_code]. destruct j as [|j]; cbn in Hj.
  - injection Hj as ->. rewrite beq_refl. f_equal. lia.
  - assert (n <> k) as Hne.
    { intros ->. apply Hn. eapply nth_error_In; eauto. }
    apply beq_false in Hne. rewrite Hne. rewrite (IH j k (i + 1) Hj). f_equal. lia.
Qed.

(** Elements that match every key. *)
Definition wild_se (s : se) : bool := match s with SeDotAll | SeParentAll | SeParent _ => true | _ => false end.
Definition no_wild (st : list se) : Prop := forall s, In s st -> wild_se s = false.
Definition codes_fit (names : list bytes) (sts : list (list se)) : Prop :=
  zlen names <= 253 \/ (Forall no_wild sts /\ zlen names <= 2147483000).

Section Codes.
  Variable names : list bytes.
  Hypothesis Hnd : NoDup names.

  Notation code := (lcode names).
  Notation inputs := (zlen names + 3).

  Lemma code_range l : 1 <= code l < inputs.
  Proof.
    pose proof (zlen_nonneg names). destruct l as [k|i]; cbn [lcode]; [|lia].
    destruct (name_code names k 3) as [c|] eqn:E; [|lia]. apply name_code_some in E. lia.
  Qed.

  Lemma codes_input w : Forall (input inputs) (map code w).
  Proof. apply Forall_forall. intros a Ha. apply in_map_iff in Ha. destruct Ha as (l & <- & _). apply code_range. Qed.

  Lemma edge_set l : zlen names <= 253 -> isEdge (mkItem RSet ONone) (code l) = true.
  Proof. intros Hsmall. pose proof (code_range l). unfold isEdge. cbn [r_sym]. lia. Qed.
  Lemma edge_set' l o : zlen names <= 253 -> isEdge (mkItem RSet o) (code l) = true.
  Proof. intros Hsmall. pose proof (code_range l). unfold isEdge. cbn [r_sym]. lia. Qed.

  Lemma edge_name k l o : In k names ->
    isEdge (mkItem (RChar (code_of names k)) o) (code l) =
    match l with LKey k' => beq k k' | LIdx _ => false end.
  Proof.
    intros Hk. unfold isEdge, code_of. cbn [r_sym].
    destruct (name_code names k 3) as [c|] eqn:E.
    2:{ apply name_code_none in E. contradiction. }
    pose proof (name_code_some _ _ _ _ E) as [B1 B2].
    destruct l as [k'|i]; cbn [lcode]; [|lia].
    destruct (name_code names k' 3) as [c'|] eqn:E'.
    - pose proof (name_code_some _ _ _ _ E') as [B1' B2'].
      destruct (beq k k') eqn:Ek.
      + apply beq_true in Ek. subst. rewrite E in E'. injection E' as ->. lia.
      + apply beq_false in Ek. destruct (Z.eqb_spec c' c) as [->|]; [|reflexivity].
        rewrite B2 in B2'. congruence.
    - destruct (beq k k') eqn:Ek; [|lia]. apply beq_true in Ek. subst. congruence.
  Qed.

  Lemma edge_arr l o : isEdge (mkItem (RChar 2) o) (code l) =
    match l with LKey _ => false | LIdx _ => true end.
  Proof.
    unfold isEdge. cbn [r_sym]. destruct l as [k|i]; cbn [lcode]; [|reflexivity].
    destruct (name_code names k 3) as [c|] eqn:E; [|reflexivity].
    apply name_code_some in E. lia.
  Qed.

  Lemma pm_items : forall st w, incl (st_names st) names -> zlen names <= 253 \/ no_wild st ->
    pm (flat_map (items_of names) st) (map code w) = st_match st w.
  Proof.
    induction st as [|s st IH]; intros w Hin Hfit.
    - destruct w; reflexivity.
    - assert (Hfit' : zlen names <= 253 \/ no_wild st).
      { destruct Hfit as [H|H]; [left; exact H|right]. intros x Hx. apply H. right. exact Hx. }
      assert (Hw : wild_se s = true -> zlen names <= 253).
      { intros E. destruct Hfit as [H|H]; [exact H|]. rewrite (H s (or_introl eq_refl)) in E. discriminate. }
      assert (IH2 : forall w, pm (flat_map (items_of names) st) (map code w) = st_match st w).
      { intros w'. apply IH; [|exact Hfit']. intros k Hk. apply Hin. unfold st_names. cbn [flat_map]. apply in_or_app. right. exact Hk. }
      clear IH. assert (IH : forall w, incl (st_names st) names -> pm (flat_map (items_of names) st) (map code w) = st_match st w) by auto.
      clear IH2. assert (Hin' : incl (st_names st) names).
      { intros k Hk. apply Hin. unfold st_names. cbn [flat_map]. apply in_or_app. right. exact Hk. }
      assert (Hs : incl (se_names s) names).
      { intros k Hk. apply Hin. unfold st_names. cbn [flat_map]. apply in_or_app. left. exact Hk. }
      cbn [flat_map]. destruct s as [| |k|k| |lo hi]; cbn [items_of app pm r_opt].
      + destruct w as [|l w]; cbn [map]; [reflexivity|]. rewrite edge_set by (apply Hw; reflexivity). cbn [andb st_match]. apply IH, Hin'.
      + destruct w as [|l w]; cbn [map]; [reflexivity|]. rewrite edge_set' by (apply Hw; reflexivity). cbn [andb].
        revert l. induction w as [|l' w IHw]; intros l.
        * cbn [map star_then st_match]. rewrite orb_false_r. pose proof (IH [] Hin') as E. cbn [map] in E. rewrite E.
          destruct st; reflexivity.
        * cbn [map star_then]. rewrite edge_set' by (apply Hw; reflexivity). cbn [andb]. rewrite (IHw l').
          change (code l' :: map code w) with (map code (l' :: w)). rewrite (IH (l' :: w) Hin').
          reflexivity.
      + destruct w as [|l w]; cbn [map]; [reflexivity|]. rewrite edge_name by (apply Hs; left; reflexivity).
        cbn [st_match]. rewrite IH by exact Hin'. reflexivity.
      + assert (Hk : In k names) by (apply Hs; left; reflexivity).
        induction w as [|l w IHw]; [reflexivity|].
        cbn [map star_then]. rewrite edge_name by exact Hk. rewrite edge_set' by (apply Hw; reflexivity). cbn [andb].
        rewrite IHw. rewrite IH by exact Hin'. reflexivity.
      + destruct w as [|l w]; cbn [map]; [reflexivity|]. rewrite edge_arr. cbn [st_match]. rewrite IH by exact Hin'. reflexivity.
      + destruct w as [|l w]; cbn [map]; [reflexivity|]. rewrite edge_arr. cbn [st_match]. rewrite IH by exact Hin'. reflexivity.
  Qed.

  Lemma last_match_st : forall sts w i, Forall (fun st => incl (st_names st) names) sts ->
    zlen names <= 253 \/ Forall no_wild sts ->
    last_match (map (flat_map (items_of names)) sts) (map code w) i = last_st sts w i.
  Proof.
    induction sts as [|st sts IH]; intros w i H Hf; cbn [map last_match last_st]; [reflexivity|].
    inversion H; subst. rewrite IH by (first [assumption|destruct Hf as [Hf|Hf]; [left; exact Hf|right; inversion Hf; assumption]]).
    rewrite pm_items by (first [assumption|destruct Hf as [Hf|Hf]; [left; exact Hf|right; inversion Hf; assumption]]). reflexivity.
  Qed.

  (** Every input is the input of some label. *)
  Lemma fresh_name : exists k, ~ In k names.
  Proof.
    exists ("x"%char :: List.concat names). intros H.
    assert (forall (l : list bytes) k, In k l -> (List.length k <= List.length (List.concat l))%nat) as G.
    { induction l as [|n l IH]; intros k Hk; [contradiction|]. cbn [List.concat]. rewrite app_length.
      destruct Hk as [<-|Hk]; [lia|]. specialize (IH k Hk). lia. }
    apply G in H. cbn [List.length] in H. lia.
  Qed.

  Lemma code_onto a : input inputs a -> exists l, code l = a.
  Proof.
    unfold input. intros H. destruct (Z.eq_dec a 1) as [->|H1].
    - destruct fresh_name as (k & Hk). exists (LKey k). cbn [lcode].
      apply (name_code_none names k 3) in Hk. rewrite Hk. reflexivity.
    - destruct (Z.eq_dec a 2) as [->|H2]; [exists (LIdx 0); reflexivity|].
      destruct (nth_error names (Z.to_nat (a - 3))) as [k|] eqn:E.
      + exists (LKey k). cbn [lcode]. rewrite (name_code_nth names Hnd _ k 3 E). lia.
      + apply nth_error_None in E. unfold zlen in H. lia.
  Qed.

  Lemma codes_onto w : Forall (input inputs) w -> exists ls, map code ls = w.
  Proof.
    induction 1 as [|a w Ha _ (ls & <-)]; [exists []; reflexivity|].
    destruct (code_onto a Ha) as (l & <-). exists (l :: ls). reflexivity.
  Qed.
End Codes.

Lemma st_match_nil st : st <> [] -> st_match st [] = false.
Proof. destruct st; [contradiction|reflexivity]. Qed.

Lemma last_st_nil sts : Forall (fun st => st <> []) sts -> forall i, last_st sts [] i = 0.
Proof.
  induction 1 as [|st sts H _ IH]; intros i; cbn [last_st]; [reflexivity|].
  rewrite IH, st_match_nil by exact H. reflexivity.
Qed.

Lemma last_st_spec sts : forall w i, 0 < i ->
  (last_st sts w i = 0 /\ forall st, In st sts -> st_match st w = false) \/
  exists j st, nth_error sts j = Some st /\ last_st sts w i = i + Z.of_nat j /\ st_match st w = true /\
    forall j' st', (j < j')%nat -> nth_error sts j' = Some st' -> st_match st' w = false.
Proof.
  induction sts as [|st sts IH]; intros w i Hi; cbn [last_st].
  - left. split; [reflexivity|]. intros st [].
  - destruct (IH w (i + 1) ltac:(lia)) as [[H1 H2]|(j & st1 & H1 & H2 & H3 & H4)].
    + rewrite H1. cbn [negb Z.eqb]. destruct (st_match st w) eqn:E.
      * right. exists 0%nat, st. repeat split; auto; [lia|].
        intros j' st' Hj Hn. destruct j' as [|j']; [lia|]. cbn in Hn. apply H2. eapply nth_error_In; eauto.
      * left. split; [reflexivity|]. intros st' [<-|H']; auto.
    + right. exists (S j), st1. rewrite H2. replace (i + 1 + Z.of_nat j =? 0) with false by lia.
      cbn [negb]. repeat split; auto; [lia|].
      intros j' st' Hj Hn. destruct j' as [|j']; [lia|]. cbn in Hn. apply (H4 j'); [lia|exact Hn].
Qed.

(** * Tables *)
Lemma mapM_ok {A C} (f : A -> res C) (g : A -> C) l :
  (forall a, In a l -> f a = Ok (g a)) -> mapM f l = Ok (map g l).
Proof.
  induction l as [|a l IH]; intros H; cbn [mapM map]; [reflexivity|].
  rewrite (H a) by (left; reflexivity). cbn [bind]. rewrite IH; [reflexivity|].
  intros x Hx. apply H. right. exact Hx.
Qed.

Lemma nth_state_list n s : 0 <= s < n -> nth_error (state_list n) (Z.to_nat s) = Some s.
Proof.
  intros H. unfold state_list. rewrite inputs_from_nth by lia. f_equal. lia.
Qed.
Lemma nth_state_list_nat n k : Z.of_nat k < n -> nth_error (state_list n) k = Some (Z.of_nat k).
Proof. intros H. rewrite <- (nth_state_list n (Z.of_nat k)) by lia. f_equal. lia. Qed.
Lemma in_state_list n s : In s (state_list n) <-> 0 <= s < n.
Proof. unfold state_list. rewrite inputs_from_in. lia. Qed.
Lemma zlen_state_list n : 0 <= n -> zlen (state_list n) = n.
Proof. intros H. unfold state_list, zlen. rewrite inputs_from_length. lia. Qed.

Lemma zread_map {A} (f : Z -> A) n s : 0 <= s < n -> zread (map f (state_list n)) s = Ok (f s).
Proof.
  intros H. unfold zread, znth. replace (s <? 0) with false by lia.
  rewrite nth_error_map, nth_state_list by exact H. reflexivity.
Qed.

Lemma nth_error_ext {A} : forall l l' : list A,
  (forall n, nth_error l n = nth_error l' n) -> l = l'.
Proof.
  induction l as [|x l IH]; intros [|y l'] H.
  - reflexivity.
  - specialize (H 0%nat). discriminate.
  - specialize (H 0%nat). discriminate.
  - pose proof (H 0%nat) as H0. cbn in H0. injection H0 as ->. f_equal. apply IH.
    intros n. apply (H (S n)).
Qed.

Lemma map_tread_row row n : zlen row = n -> map (fun a => tread row a) (state_list n) = row.
Proof.
  intros <-. apply nth_error_ext. intros k. rewrite nth_error_map. unfold state_list, zlen.
  rewrite Nat2Z.id. destruct (nth_error row k) as [x|] eqn:E.
  - assert (k < List.length row)%nat by (apply nth_error_Some; congruence).
    rewrite inputs_from_nth by lia. cbn. f_equal. unfold tread.
    rewrite Nat2Z.id. apply nth_error_nth. exact E.
  - apply nth_error_None in E. rewrite (proj2 (nth_error_None _ _)); [reflexivity|].
    rewrite inputs_from_length. exact E.
Qed.

Lemma create_all inputs pats : 1 <= inputs ->
  exists ds, mapM (CreateDFA inputs) pats = Ok ds /\ Forall2 (simple_ok inputs) pats ds.
Proof.
  intros Hi. induction pats as [|p l IH]; cbn [mapM].
  - exists []. split; [reflexivity|constructor].
  - destruct (CreateDFA_ok inputs p Hi) as (d & -> & Hd). cbn [bind].
    destruct IH as (ds & -> & F). cbn [bind]. exists (d :: ds). split; [reflexivity|]. constructor; assumption.
Qed.

(** * The compiled automaton *)
Section Compile.
  Variable b : bctx.
  Variable out : Z.
  Variable sts : list (list se).
  Notation names := (b_names b).
  Notation code := (lcode names).
  Notation inputs := (zlen names + 3).
  Hypothesis Hnd : NoDup names.
  Hypothesis Hsmall : codes_fit names sts.
  Hypothesis Hsts : sts <> [].
  Hypothesis Hstne : Forall (fun st => st <> []) sts.
  Hypothesis Hin : Forall (fun st => incl (st_names st) names) sts.
  Hypothesis Hpats : b_pats b = map (flat_map (items_of names)) sts.
  Hypothesis Hrange : zlen (b_range b) = zlen sts.
  Hypothesis Htrees : zlen (b_trees b) = zlen sts.

  (** The state reached along labels. *)
  Definition stt (T : list (list Z)) (w : list label) : Z := trun T 1 (map code w).

  Lemma compile_main : exists m T,
    compile_patterns inputs (b_pats b) = Ok m /\
    exists ds, Forall2 (simple_ok inputs) (b_pats b) ds /\ main_ok inputs (b_pats b) ds m T.
  Proof.
    unfold compile_patterns. pose proof (zlen_nonneg names) as Hnn.
    assert (exists ds, mapM (CreateDFA inputs) (b_pats b) = Ok ds /\ Forall2 (simple_ok inputs) (b_pats b) ds) as (ds & E & F).
    { apply create_all. lia. }
    rewrite E. cbn [bind].
    assert (Hb : zlen names <= 2147483000) by (destruct Hsmall as [H|[_ H]]; lia).
    destruct (Combine_ok inputs ltac:(lia) (b_pats b) ds F) as (m & T & H1 & H2).
    { rewrite Hpats. destruct sts; [contradiction|discriminate]. }
    exists m, T. split; [exact H1|]. exists ds. auto.
  Qed.

  Variables (m : main_dfa) (T : list (list Z)) (ds : list sdfa).
  Hypothesis Hm : main_ok inputs (b_pats b) ds m T.
  Notation st := (stt T).

  Lemma trun_app : forall w1 s w2, trun T s (w1 ++ w2) = trun T (trun T s w1) w2.
  Proof.
    induction w1 as [|a w1 IH]; intros s w2; cbn [app trun]; [reflexivity|].
    destruct (s =? 0); [symmetry; apply trun_zero|apply IH].
  Qed.

  Lemma row0 a : 0 <= a < inputs -> tread (nth 0 T []) a = 0.
  Proof.
    intros Ha. pose proof (mo_two _ _ _ _ _ Hm).
    pose proof (mo_lookup _ _ _ _ _ Hm 0 a ltac:(lia) Ha) as H1.
    rewrite (lookup_zero _ 0 a) in H1 by (left; reflexivity). injection H1 as H1. symmetry. exact H1.
  Qed.

  Lemma stt_range w : 0 <= st w < m_states m.
  Proof. apply (mo_run _ _ _ _ _ Hm). apply codes_input. Qed.

  Lemma st_snoc w l : st (w ++ [l]) = tread (nth (Z.to_nat (st w)) T []) (code l).
  Proof.
    unfold stt. rewrite map_app, trun_app. cbn [map trun]. fold (st w).
    destruct (Z.eqb_spec (st w) 0) as [->|]; [|reflexivity].
    symmetry. apply row0. pose proof (code_range names l). lia.
  Qed.

  Lemma stt_stop w : tread (m_stops m) (st w) = last_st sts w 1.
  Proof.
    destruct w as [|l w].
    - unfold stt. cbn [map trun]. rewrite (mo_stop1 _ _ _ _ _ Hm). symmetry. apply last_st_nil, Hstne.
    - unfold stt. rewrite (mo_stop _ _ _ _ _ Hm); [|apply codes_input|discriminate].
      rewrite Hpats. apply last_match_st; [assumption|]. destruct Hsmall as [H|[H _]]; auto.
  Qed.

  Lemma st_onto s : 1 <= s < m_states m -> exists w, st w = s.
  Proof.
    intros Hs. destruct (mo_reach _ _ _ _ _ Hm s Hs) as (w & Hw & <-).
    destruct (codes_onto names Hnd w Hw) as (ls & <-). exists ls. reflexivity.
  Qed.

  (** The table copied out of the packed automaton. *)
  Lemma get_table_ok : get_table m = Ok T.
  Proof.
    unfold get_table. pose proof (mo_two _ _ _ _ _ Hm) as H2. pose proof (zlen_nonneg names).
    rewrite (mapM_ok _ (fun s => map (fun a => tread (nth (Z.to_nat s) T []) a) (state_list (m_inputs m)))).
    - f_equal. apply nth_error_ext. intros k. rewrite nth_error_map.
      destruct (nth_error T k) as [row|] eqn:E.
      + assert (k < List.length T)%nat by (apply nth_error_Some; congruence).
        pose proof (mo_states _ _ _ _ _ Hm) as Hs. unfold zlen in Hs.
        rewrite nth_state_list_nat by lia. cbn [option_map].
        rewrite Nat2Z.id. rewrite (nth_error_nth _ _ [] E).
        f_equal. apply map_tread_row. rewrite (mo_inputs _ _ _ _ _ Hm).
        apply (mo_row _ _ _ _ _ Hm). eapply nth_error_In; eauto.
      + apply nth_error_None in E. pose proof (mo_states _ _ _ _ _ Hm) as Hs. unfold zlen in Hs.
        rewrite (proj2 (nth_error_None _ _)); [reflexivity|]. unfold state_list. rewrite inputs_from_length. lia.
    - intros s Hs. apply in_state_list in Hs. apply mapM_ok. intros a Ha. apply in_state_list in Ha.
      apply (mo_lookup _ _ _ _ _ Hm); [exact Hs|]. rewrite (mo_inputs _ _ _ _ _ Hm) in Ha. exact Ha.
  Qed.

  (** lines 298-303 *)
  Definition arr_target (i : Z) : bool :=
    existsb (fun x => x =? i) (map (fun j => tread (nth (Z.to_nat j) T []) 2) (state_list (m_states m))).

  Lemma array_target_ok i : array_target m i = Ok (arr_target i).
  Proof.
    unfold array_target, arr_target. pose proof (zlen_nonneg names).
    rewrite (mapM_ok _ (fun j => tread (nth (Z.to_nat j) T []) 2)); [reflexivity|].
    intros s Hs. apply in_state_list in Hs. apply (mo_lookup _ _ _ _ _ Hm); [exact Hs|lia].
  Qed.

  Lemma arr_target_snoc w i : arr_target (st (w ++ [LIdx i])) = true.
  Proof.
    unfold arr_target. apply existsb_exists. exists (st (w ++ [LIdx i])). split; [|lia].
    rewrite st_snoc. cbn [lcode]. apply in_map_iff. exists (st w). split; [reflexivity|].
    apply in_state_list, stt_range.
  Qed.

  Lemma arr_target_inv i : arr_target i = true -> i <> 0 -> exists u, st (u ++ [LIdx 0]) = i.
  Proof.
    unfold arr_target. intros H Hi. apply existsb_exists in H. destruct H as (x & Hx & E).
    apply in_map_iff in Hx. destruct Hx as (j & Hj & Hin'). apply in_state_list in Hin'.
    assert (Exi : x = i) by lia. rewrite Exi in Hj. clear E Exi. destruct (Z.eq_dec j 0) as [->|Hj0].
    - change (Z.to_nat 0) with 0%nat in Hj. rewrite row0 in Hj; [congruence|]. pose proof (zlen_nonneg names). lia.
    - destruct (st_onto j ltac:(lia)) as (u & Hu). exists u. rewrite st_snoc, Hu. exact Hj.
  Qed.

  (** What [create_query_dfa] stores for a state. *)
  Definition rng_of (s : Z) : Z * Z := nth (Z.to_nat (s - 1)) (b_range b) (0, 0).
  Definition has_rng (r : Z * Z) : bool := negb (fst r =? 0) || negb (snd r =? 0).

  Definition info_of (i : Z) : stinfo :=
    let s := tread (m_stops m) i in
    if s =? 0 then mkSt 0 0 (0, 0)
    else
      let acc := if s =? out then DFA_OUTPUT_CANDIDATE
                 else if arr_target i then DFA_PREDICATE else DFA_CONDITION in
      let r := rng_of s in
      if has_rng r
      then if acc =? DFA_OUTPUT_CANDIDATE then mkSt s acc r else mkSt 0 0 r
      else mkSt s acc (0, 0).

  Lemma stop_bound s : 0 <= s < m_states m -> 0 <= tread (m_stops m) s <= zlen sts.
  Proof.
    intros Hs. destruct (Z.eq_dec s 0) as [->|H0].
    - rewrite (mo_stop0 _ _ _ _ _ Hm). pose proof (zlen_nonneg sts). lia.
    - destruct (st_onto s ltac:(lia)) as (w & <-). rewrite stt_stop.
      destruct (last_st_spec sts w 1 ltac:(lia)) as [[-> _]|(j & s1 & Hj & -> & _)].
      + pose proof (zlen_nonneg sts). lia.
      + assert (j < List.length sts)%nat by (apply nth_error_Some; congruence). unfold zlen. lia.
  Qed.

  Lemma state_info_ok i : 0 <= i < m_states m -> state_info b out m i = Ok (info_of i).
  Proof.
    intros Hi. unfold state_info, info_of. pose proof (stop_bound i Hi) as Hb.
    destruct (Z.eqb_spec (tread (m_stops m) i) 0) as [E|E]; [reflexivity|].
    assert (Hr : zread (b_range b) (tread (m_stops m) i - 1) = Ok (rng_of (tread (m_stops m) i))).
    { unfold zread, znth, rng_of. replace (tread (m_stops m) i - 1 <? 0) with false by lia.
      destruct (nth_error _ _) as [r|] eqn:En.
      - rewrite (nth_error_nth _ _ (0, 0) En). reflexivity.
      - apply nth_error_None in En. unfold zlen in *. lia. }
    rewrite array_target_ok. fold (has_rng (rng_of (tread (m_stops m) i))).
    destruct (tread (m_stops m) i =? out); [|destruct (arr_target i)]; cbn [bind]; rewrite Hr; cbn [bind];
      fold (has_rng (rng_of (tread (m_stops m) i))); destruct (has_rng _); reflexivity.
  Qed.

  Definition the_dfa : dfa :=
    mkDfa inputs T (map (fun i => st_stop (info_of i)) (state_list (m_states m)))
          (map (fun i => st_accept (info_of i)) (state_list (m_states m)))
          (map (fun i => st_range (info_of i)) (state_list (m_states m)))
          ([] :: B "other" :: B "array" :: names).

  Lemma create_query_dfa_ok : create_query_dfa b out m = Ok the_dfa.
  Proof.
    unfold create_query_dfa. rewrite get_table_ok. cbn [bind].
    rewrite (mapM_ok _ info_of).
    - cbn [bind]. rewrite !map_map, (mo_inputs _ _ _ _ _ Hm). reflexivity.
    - intros i Hi. apply in_state_list in Hi. apply state_info_ok, Hi.
  Qed.

  Lemma nstates_the : nstates the_dfa = m_states m.
  Proof. unfold nstates, the_dfa. cbn [d_table]. apply (mo_states _ _ _ _ _ Hm). Qed.

  Lemma the_dfa_ok : dfa_ok the_dfa.
  Proof.
    pose proof (mo_two _ _ _ _ _ Hm). pose proof (zlen_nonneg names).
    constructor; rewrite ?nstates_the; cbn [the_dfa d_inputs d_names d_accept d_range d_table].
    - lia.
    - lia.
    - rewrite !zlen_cons. lia.
    - unfold zlen at 1. rewrite map_length. apply zlen_state_list. lia.
    - unfold zlen at 1. rewrite map_length. apply zlen_state_list. lia.
    - intros row Hr. apply (mo_row _ _ _ _ _ Hm row Hr).
  Qed.

  Lemma the_accept i : 0 <= i < m_states m -> getDFAAcceptType the_dfa i = Ok (st_accept (info_of i)).
  Proof. intros H. unfold getDFAAcceptType, the_dfa. cbn [d_accept]. apply (zread_map (fun i => st_accept (info_of i))), H. Qed.
  Lemma the_stop i : 0 <= i < m_states m -> getDFAStopState the_dfa i = Ok (st_stop (info_of i)).
  Proof. intros H. unfold getDFAStopState, the_dfa. cbn [d_stop]. apply (zread_map (fun i => st_stop (info_of i))), H. Qed.
  Lemma the_range i : 0 <= i < m_states m -> getDFAArrayIndex the_dfa i = Ok (st_range (info_of i)).
  Proof. intros H. unfold getDFAArrayIndex, the_dfa. cbn [d_range]. apply (zread_map (fun i => st_range (info_of i))), H. Qed.

  (** ** Moving along a label *)
  Definition linput (l : label) : option bytes :=
    match l with LKey k => Some k | LIdx _ => None end.

  Lemma zread_row s a : 0 <= s < m_states m -> 0 <= a < inputs ->
    exists row, zread T s = Ok row /\ nth (Z.to_nat s) T [] = row /\ zread row a = Ok (tread row a).
  Proof.
    intros Hs Ha. unfold zread, znth. replace (s <? 0) with false by lia.
    pose proof (mo_states _ _ _ _ _ Hm) as Hst. unfold zlen in Hst.
    destruct (nth_error T (Z.to_nat s)) as [row|] eqn:E.
    2:{ apply nth_error_None in E. lia. }
    exists row. split; [reflexivity|]. split; [apply nth_error_nth, E|].
    replace (a <? 0) with false by lia. unfold tread.
    pose proof (proj1 (mo_row _ _ _ _ _ Hm row (nth_error_In _ _ E))) as Hl. unfold zlen in Hl at 1.
    destruct (nth_error row (Z.to_nat a)) as [x|] eqn:Ex.
    - rewrite (nth_error_nth _ _ 0 Ex). reflexivity.
    - apply nth_error_None in Ex. unfold zlen in *. lia.
  Qed.

  Lemma names_nth c : 3 <= c < inputs -> exists k, zread (d_names the_dfa) c = Ok k /\
    nth_error names (Z.to_nat (c - 3)) = Some k.
  Proof.
    intros Hc. unfold zread, znth. replace (c <? 0) with false by lia. cbn [the_dfa d_names].
    replace (Z.to_nat c) with (S (S (S (Z.to_nat (c - 3))))) by lia. cbn [nth_error].
    destruct (nth_error names (Z.to_nat (c - 3))) as [k|] eqn:E; [eauto|].
    apply nth_error_None in E. unfold zlen in Hc. lia.
  Qed.

  (** The lookup loop finds the column of a name that has an entry. *)
  Lemma find_input_spec row k : zlen row = inputs -> forall n c, 3 <= c -> c + Z.of_nat n = inputs ->
    find_input n the_dfa row c k =
    Ok (match name_code names k 3 with
        | Some j => if (c <=? j) && negb (tread row j =? 0) then j else 1
        | None => 1
        end).
  Proof.
    intros Hrow. induction n as [|n IH]; intros c Hc Hn; cbn [find_input].
    - destruct (name_code names k 3) as [j|] eqn:E; [|reflexivity].
      pose proof (name_code_some _ _ _ _ E). replace (c <=? j) with false by lia. reflexivity.
    - assert (Hx : zread row c = Ok (tread row c)).
      { unfold zread, znth. replace (c <? 0) with false by lia. unfold tread.
        destruct (nth_error row (Z.to_nat c)) as [x|] eqn:Ex.
        - rewrite (nth_error_nth _ _ 0 Ex). reflexivity.
        - apply nth_error_None in Ex. unfold zlen in Hrow at 1. unfold zlen in *. lia. }
      rewrite Hx. cbn [bind]. rewrite (IH (c + 1)) by lia.
      destruct (names_nth c ltac:(lia)) as (nm & Hnm & Hnth).
      pose proof (name_code_nth names Hnd _ nm 3 Hnth) as Hcode.
      replace (3 + Z.of_nat (Z.to_nat (c - 3))) with c in Hcode by lia.
      destruct (name_code names k 3) as [j|] eqn:E.
      + destruct (Z.eq_dec j c) as [->|Hne].
        * destruct (tread row c =? 0) eqn:E0.
          -- rewrite !andb_false_r. reflexivity.
          -- rewrite Hnm. cbn [bind]. replace (beq nm k) with true.
             ++ replace (c <=? c) with true by lia. reflexivity.
             ++ symmetry. apply beq_true. apply name_code_some in E. destruct E as [_ E]. congruence.
        * assert (beq nm k = false) as Hb.
          { apply beq_false. intros ->. congruence. }
          rewrite Hnm. cbn [bind]. rewrite Hb.
          replace (c + 1 <=? j) with (c <=? j) by lia. destruct (tread row c =? 0); reflexivity.
      + assert (beq nm k = false) as Hb.
        { apply beq_false. intros ->. congruence. }
        rewrite Hnm. cbn [bind]. rewrite Hb. destruct (tread row c =? 0); reflexivity.
  Qed.

  Lemma items_no_other p : In p (b_pats b) -> forall it, In it p -> r_sym it <> RChar 1.
  Proof.
    rewrite Hpats. intros Hp it Hit E. apply in_map_iff in Hp. destruct Hp as (s & <- & Hs).
    apply in_flat_map in Hit. destruct Hit as (e & He & Hit).
    assert (Hk : forall k, In k (se_names e) -> In k names).
    { intros k Hk. rewrite Forall_forall in Hin. apply (Hin s Hs).
      unfold st_names. apply in_flat_map. eauto. }
    assert (Hc : forall k, In k (se_names e) -> code_of names k <> 1).
    { intros k H. apply Hk in H. unfold code_of. destruct (name_code names k 3) eqn:Ec.
      - apply name_code_some in Ec. lia.
      - lia. }
    destruct e; cbn [items_of se_names] in *; repeat (destruct Hit as [<-|Hit]; [cbn in E; try discriminate|]);
      try contradiction.
    - injection E as E. apply (Hc k); [left; reflexivity|exact E].
    - injection E as E. apply (Hc k); [left; reflexivity|exact E].
  Qed.

  Lemma column_one w k c : name_code names k 3 = Some c -> st (w ++ [LKey k]) = 0 ->
    tread (nth (Z.to_nat (st w)) T []) 1 = 0.
  Proof.
    intros Hc H0. destruct (fresh_name names) as (k1 & Hk1).
    apply (name_code_none names k1 3) in Hk1.
    assert (st (w ++ [LKey k1]) = 0) as H1.
    2:{ rewrite st_snoc in H1. cbn [lcode] in H1. rewrite Hk1 in H1. exact H1. }
    unfold stt in *. rewrite !map_app in *. cbn [map lcode] in *. rewrite Hk1. rewrite Hc in H0.
    assert (G : forall l, Forall (input inputs) (map code l)) by (intros; apply codes_input).
    assert (Forall (input inputs) (map code w ++ [1])) as F1.
    { apply Forall_app. split; [apply G|]. constructor; [|constructor]. unfold input. pose proof (zlen_nonneg names). lia. }
    assert (Forall (input inputs) (map code w ++ [c])) as F2.
    { apply Forall_app. split; [apply G|]. constructor; [|constructor].
      apply name_code_some in Hc. unfold input. lia. }
    apply (mo_run _ _ _ _ _ Hm _ F1). intros p Hp.
    apply (other_column p (map code w) c).
    - destruct Hsmall as [Hs|[Hs _]]; [left; apply name_code_some in Hc; lia|right].
      intros it Hit. rewrite Hpats in Hp. apply in_map_iff in Hp. destruct Hp as (s & <- & Hin').
      apply in_flat_map in Hit. destruct Hit as (e & He & Hit). rewrite Forall_forall in Hs. specialize (Hs s Hin' e He).
      destruct e; try discriminate; destruct Hit as [<-|[]]; discriminate.
    - apply items_no_other, Hp.
    - apply (mo_run _ _ _ _ _ Hm _ F2); assumption.
  Qed.

  Theorem next_label w l : dfaNextStateByStr the_dfa (st w) (linput l) = Ok (st (w ++ [l])).
  Proof.
    pose proof (stt_range w) as Hs. pose proof (zlen_nonneg names).
    destruct l as [k|i]; cbn [linput dfaNextStateByStr].
    - destruct (zread_row (st w) (code (LKey k)) Hs) as (row & R1 & R2 & R3).
      { pose proof (code_range names (LKey k)). lia. }
      cbn [the_dfa d_table d_inputs]. rewrite R1. cbn [bind].
      assert (Hrow : zlen row = inputs).
      { apply (mo_row _ _ _ _ _ Hm). rewrite <- R2. apply nth_In.
        pose proof (mo_states _ _ _ _ _ Hm) as Hst. unfold zlen in Hst. lia. }
      change (mkDfa _ _ _ _ _ _) with the_dfa.
      rewrite (find_input_spec row k Hrow) by lia. cbn [bind].
      rewrite st_snoc, R2. rewrite <- R3. cbn [lcode] in *.
      destruct (name_code names k 3) as [c|] eqn:E; [|reflexivity].
      pose proof (name_code_some _ _ _ _ E) as [Hc _].
      replace (3 <=? c) with true by lia. cbn [andb].
      destruct (Z.eqb_spec (tread row c) 0) as [E0|E0]; cbn [negb]; [|reflexivity].
      pose proof (column_one w k c E) as H1. rewrite st_snoc, R2 in H1. cbn [lcode] in H1. rewrite E in H1.
      specialize (H1 E0).
      destruct (zread_row (st w) 1 Hs ltac:(lia)) as (row' & Q1 & Q2 & Q3).
      assert (Er : row' = row) by congruence. rewrite Er in Q3. rewrite Q3, R3, E0, H1. reflexivity.
    - unfold dfaNextState. cbn [the_dfa d_table].
      destruct (zread_row (st w) 2 Hs ltac:(lia)) as (row & R1 & R2 & R3).
      rewrite R1. cbn [bind]. rewrite R3, st_snoc, R2. reflexivity.
  Qed.

  (** ** The query context *)
  Definition tree_of (s : Z) : option expr := nth (Z.to_nat (s - 1)) (b_trees b) None.

  Definition ctx_of (i : Z) : option expr * list Z :=
    let acc := st_stop (info_of i) in
    if acc =? 0 then (None, [])
    else (tree_of acc, map (fun v => acc_id2state (m_stops m) (v + 1) 0) (map_get (b_map b) (acc - 1))).

  Definition the_ctx : qctx :=
    mkQ (map (fun i => fst (ctx_of i)) (state_list (m_states m)))
        (map (fun i => snd (ctx_of i)) (state_list (m_states m)))
        (filter (fun i => negb (st_stop (info_of i) =? 0) && (st_accept (info_of i) =? DFA_PREDICATE))
                (state_list (m_states m))).

  Lemma info_stop i : 0 <= i < m_states m ->
    st_stop (info_of i) = 0 \/ st_stop (info_of i) = tread (m_stops m) i.
  Proof.
    intros _. unfold info_of. destruct (tread (m_stops m) i =? 0); [left; reflexivity|].
    destruct (has_rng _); [|right; reflexivity]. destruct (_ =? DFA_OUTPUT_CANDIDATE); [right|left]; reflexivity.
  Qed.

  Lemma create_context_ok : create_context b m the_dfa = Ok the_ctx.
  Proof.
    unfold create_context. rewrite (mapM_ok _ ctx_of).
    - cbn [bind]. unfold the_ctx. rewrite !map_map. do 2 f_equal.
      apply filter_ext_in. intros i Hi. apply in_state_list in Hi.
      assert (forall (f : Z -> Z), tread (map f (state_list (m_states m))) i = f i) as G.
      { intros f. unfold tread. apply nth_error_nth. rewrite nth_error_map, nth_state_list by exact Hi. reflexivity. }
      cbn [the_dfa d_stop d_accept]. rewrite !G. reflexivity.
    - intros i Hi. apply in_state_list in Hi. unfold state_ctx.
      pose proof (the_stop i Hi) as Hst. unfold getDFAStopState in Hst. rewrite Hst. cbn [bind].
      unfold ctx_of. destruct (Z.eqb_spec (st_stop (info_of i)) 0) as [E|E]; [reflexivity|].
      pose proof (stop_bound i Hi) as Hb. destruct (info_stop i Hi) as [H|H]; [contradiction|].
      rewrite H in *. unfold zread, znth, tree_of.
      replace (tread (m_stops m) i - 1 <? 0) with false by lia.
      destruct (nth_error (b_trees b) _) as [t|] eqn:En.
      + rewrite (nth_error_nth _ _ None En). reflexivity.
      + apply nth_error_None in En. unfold zlen in *. lia.
  Qed.

  Lemma the_subtree i : 0 <= i < m_states m -> zread (x_subtrees the_ctx) i = Ok (fst (ctx_of i)).
  Proof. intros H. cbn [the_ctx x_subtrees]. apply (zread_map (fun i => fst (ctx_of i))), H. Qed.
  Lemma the_mapping i : 0 <= i < m_states m -> zread (x_mapping the_ctx) i = Ok (snd (ctx_of i)).
  Proof. intros H. cbn [the_ctx x_mapping]. apply (zread_map (fun i => snd (ctx_of i))), H. Qed.

  (** The state of an expression that is matched last by some labels. *)
  Lemma acc_id2state_spec : forall l acc i s, nth_error l s = Some acc ->
    exists s', acc_id2state l acc i = i + Z.of_nat s' /\ nth_error l s' = Some acc /\ (s' <= s)%nat.
  Proof.
    induction l as [|x l IH]; intros acc i s Hs; [destruct s; discriminate|]. cbn [acc_id2state].
    destruct (Z.eqb_spec acc x) as [->|Hne].
    - exists 0%nat. cbn. split; [lia|]. split; [reflexivity|lia].
    - destruct s as [|s]; cbn in Hs; [congruence|].
      destruct (IH acc (i + 1) s Hs) as (s' & H1 & H2 & H3). exists (S s'). split; [lia|]. split; [exact H2|lia].
  Qed.

  Lemma acc_state acc w : acc <> 0 -> last_st sts w 1 = acc ->
    let s := acc_id2state (m_stops m) acc 0 in
    1 <= s < m_states m /\ tread (m_stops m) s = acc.
  Proof.
    intros H0 Hw. pose proof (stt_stop w) as Hs. pose proof (stt_range w) as Hr.
    pose proof (mo_stops _ _ _ _ _ Hm) as Hl. unfold zlen in Hl.
    assert (nth_error (m_stops m) (Z.to_nat (st w)) = Some acc) as Hn.
    { destruct (nth_error (m_stops m) (Z.to_nat (st w))) as [x|] eqn:E.
      - unfold tread in Hs. rewrite (nth_error_nth _ _ 0 E) in Hs. congruence.
      - apply nth_error_None in E. lia. }
    destruct (acc_id2state_spec _ _ 0 _ Hn) as (s' & H1 & H2 & H3). cbv zeta. rewrite H1.
    assert (tread (m_stops m) (0 + Z.of_nat s') = acc) as Ht.
    { unfold tread. replace (Z.to_nat (0 + Z.of_nat s')) with s' by lia. apply nth_error_nth, H2. }
    split; [|exact Ht]. split; [|lia].
    destruct s' as [|s']; [|lia]. pose proof (mo_stop0 _ _ _ _ _ Hm). cbn in Ht. congruence.
  Qed.
End Compile.
