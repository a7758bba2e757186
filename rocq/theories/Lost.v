(** A query with 253 field names in its filter and a descendant step: the name
    after the step gets a code that the wildcard of the step does not cover. *)
From Verif Require Import Base Util Spec QueryClass PosSpec Claims Regex RegexProof Compress Mixer MixerProof Dfa Lexer Stream TreeSem Num FilterSpec
  Builder AutoProof Eval Filter Loader Run EndToEnd AnyQuery AnyRun Samples.
Open Scope Z_scope.

(** * Following codes in an automaton, whatever the number of names *)
Section Follow.
  Variables (b : bctx) (out : Z) (m : main_dfa) (T : list (list Z)) (ds : list sdfa).
  Notation inputs := (zlen (b_names b) + 3).
  Hypothesis Hm : main_ok inputs (b_pats b) ds m T.
  Hypothesis Hrange : zlen (b_range b) = zlen (b_pats b).
  Hypothesis Hnd : NoDup (b_names b).
  Notation d := (the_dfa b out m T).

  Lemma any_the : create_query_dfa b out m = Ok d.
  Proof.
    unfold create_query_dfa. rewrite (get_table_ok b m T ds Hm). cbn [bind]. rewrite (mapM_ok _ (info_of b out m T)).
    - cbn [bind]. rewrite !map_map, (mo_inputs _ _ _ _ _ Hm). reflexivity.
    - intros i Hi. apply in_state_list in Hi. unfold state_info, info_of.
      pose proof (any_stop b m T ds Hm i Hi) as Hb. destruct (Z.eqb_spec (tread (m_stops m) i) 0) as [E|E]; [reflexivity|].
      rewrite (array_target_ok b m T ds Hm).
      assert (Hr : zread (b_range b) (tread (m_stops m) i - 1) = Ok (rng_of b (tread (m_stops m) i))).
      { unfold zread, znth, rng_of. replace (tread (m_stops m) i - 1 <? 0) with false by lia.
        destruct (nth_error _ _) as [r|] eqn:En.
        - rewrite (nth_error_nth _ _ (0, 0) En). reflexivity.
        - apply nth_error_None in En. unfold zlen in *. lia. }
      destruct (tread (m_stops m) i =? out); [|destruct (arr_target m T i)]; cbn [bind]; rewrite Hr; cbn [bind];
        fold (has_rng (rng_of b (tread (m_stops m) i))); destruct (has_rng _); reflexivity.
  Qed.

  Lemma any_the_ok : dfa_ok d.
  Proof.
    destruct (any_dfa b out m T ds Hm Hrange) as (d' & E & Hd & _). rewrite any_the in E. injection E as <-. exact Hd.
  Qed.

  Lemma snoc_code w a : Forall (input inputs) w -> 0 <= a < inputs ->
    tread (nth (Z.to_nat (trun T 1 w)) T []) a = trun T 1 (w ++ [a]).
  Proof.
    intros Hw Ha. rewrite trun_app. cbn [trun]. destruct (Z.eqb_spec (trun T 1 w) 0) as [->|]; [|reflexivity].
    apply (row0 b m T ds Hm a Ha).
  Qed.

  (** An element with the code [c] of its key, or with the code of other keys. *)
  Lemma nx_key w i k j : Forall (input inputs) w -> name_code (b_names b) k 3 = Some j ->
    nx d (trun T 1 w) i (Some k) = 0 \/ nx d (trun T 1 w) i (Some k) = trun T 1 (w ++ [j]) \/
    nx d (trun T 1 w) i (Some k) = trun T 1 (w ++ [1]) /\ trun T 1 (w ++ [j]) = 0.
  Proof.
    intros Hw Hj. pose proof (proj1 (mo_run _ _ _ _ _ Hm w Hw)) as Hs. pose proof (zlen_nonneg (b_names b)) as H0.
    pose proof (name_code_some _ _ _ _ Hj) as Hc.
    unfold nx, next_elt. cbn [q_state]. destruct (in_range_ok d (trun T 1 w) i MInv any_the_ok) as (r & ->).
    { unfold valid_state. rewrite nstates_the with (ds := ds) by exact Hm. exact Hs. }
    cbn [bind]. destruct r; [|left; reflexivity]. right.
    unfold dfaNextStateByStr. cbn [the_dfa d_table d_inputs]. fold d.
    destruct (zread_row b [] m T ds Hm (trun T 1 w) j Hs ltac:(lia)) as (row & Hr & Hn & Hrj). rewrite Hr. cbn [bind].
    destruct (zread_row b [] m T ds Hm (trun T 1 w) 1 Hs ltac:(lia)) as (row' & Hr' & _ & Hr1). rewrite Hr in Hr'. injection Hr' as <-.
    assert (Hl : zlen row = inputs).
    { apply (mo_row _ _ _ _ _ Hm). unfold zread, znth in Hr. destruct (_ <? 0); [discriminate|].
      destruct (nth_error T _) eqn:En; [|discriminate]. injection Hr as ->. eapply nth_error_In, En. }
    rewrite (find_input_spec b out [] Hnd m T row k Hl) by lia. rewrite Hj. cbn [bind].
    rewrite <- (snoc_code w j Hw ltac:(lia)), <- (snoc_code w 1 Hw ltac:(lia)), Hn.
    replace (3 <=? j) with true by lia. cbn [andb]. destruct (Z.eqb_spec (tread row j) 0) as [E|E]; cbn [negb].
    - right. rewrite Hr1. auto.
    - left. rewrite Hrj. reflexivity.
  Qed.
  Lemma nx_idx w i : Forall (input inputs) w ->
    nx d (trun T 1 w) i None = 0 \/ nx d (trun T 1 w) i None = trun T 1 (w ++ [2]).
  Proof.
    intros Hw. pose proof (proj1 (mo_run _ _ _ _ _ Hm w Hw)) as Hs. pose proof (zlen_nonneg (b_names b)) as H0.
    unfold nx, next_elt. cbn [q_state]. destruct (in_range_ok d (trun T 1 w) i MInv any_the_ok) as (r & ->).
    { unfold valid_state. rewrite nstates_the with (ds := ds) by exact Hm. exact Hs. }
    cbn [bind]. destruct r; [|left; reflexivity]. right.
    unfold dfaNextStateByStr, dfaNextState. cbn [the_dfa d_table d_inputs].
    destruct (zread_row b [] m T ds Hm (trun T 1 w) 2 Hs ltac:(lia)) as (row & Hr & Hn & Hr2). rewrite Hr. cbn [bind].
    rewrite Hr2. cbn [get]. rewrite <- (snoc_code w 2 Hw ltac:(lia)), Hn. reflexivity.
  Qed.

  (** States whose elements are not copied to the output. *)
  Definition silent (s : Z) : Prop := forall i, mt d s i <> DFA_OUTPUT_CANDIDATE /\ mt d s i <> DFA_CONDITION.

  Lemma silent_accept s : 0 <= s < m_states m ->
    st_accept (info_of b out m T s) <> DFA_OUTPUT_CANDIDATE -> st_accept (info_of b out m T s) <> DFA_CONDITION -> silent s.
  Proof.
    intros Hs H1 H2 i. unfold mt, getMatchedType. cbn [q_state]. rewrite the_accept by exact Hs. cbn [bind].
    apply Z.eqb_neq in H1. rewrite H1. cbn [get]. apply Z.eqb_neq in H1. auto.
  Qed.
  Lemma silent_zero : silent 0.
  Proof.
    pose proof (mo_two _ _ _ _ _ Hm). apply silent_accept; [lia| |]; unfold info_of; rewrite (mo_stop0 _ _ _ _ _ Hm); discriminate.
  Qed.
  Lemma silent_none w : Forall (input inputs) w -> last_match (b_pats b) w 1 = 0 -> silent (trun T 1 w).
  Proof.
    intros Hw H0. apply silent_accept; [apply (mo_run _ _ _ _ _ Hm w Hw)| |]; unfold info_of;
      (assert (E : tread (m_stops m) (trun T 1 w) = 0);
       [destruct w as [|a w]; [apply (mo_stop1 _ _ _ _ _ Hm)|rewrite (mo_stop _ _ _ _ _ Hm) by (auto; discriminate); exact H0]|rewrite E; discriminate]).
  Qed.
  Lemma silent_elem w : Forall (input inputs) w -> 1 <= inputs -> last_match (b_pats b) (w ++ [2]) 1 <> out -> silent (trun T 1 (w ++ [2])).
  Proof.
    intros Hw Hi Hn. pose proof (zlen_nonneg (b_names b)).
    assert (Hw2 : Forall (input inputs) (w ++ [2])) by (apply Forall_app; split; [exact Hw|constructor; [unfold input; lia|constructor]]).
    pose proof (proj1 (mo_run _ _ _ _ _ Hm _ Hw2)) as Hs.
    assert (Ha : arr_target m T (trun T 1 (w ++ [2])) = true).
    { unfold arr_target. apply existsb_exists. exists (trun T 1 (w ++ [2])). split; [|lia]. apply in_map_iff.
      exists (trun T 1 w). split; [apply snoc_code; [exact Hw|lia]|]. apply in_state_list, (mo_run _ _ _ _ _ Hm w Hw). }
    apply silent_accept; [exact Hs| |]; unfold info_of; rewrite (mo_stop _ _ _ _ _ Hm) by (auto; destruct w; discriminate); rewrite Ha;
      (destruct (_ =? 0); [discriminate|]; apply Z.eqb_neq in Hn; rewrite Hn; destruct (has_rng _); discriminate).
  Qed.

  Lemma silent_open_obj s i : silent s -> plains (t_open_obj d s i) = [].
  Proof. intros _. apply plain_open_obj. Qed.
  Lemma silent_close s i t : silent s -> t_close d s i t = [].
  Proof. intros H. unfold t_close. destruct (Z.eqb_spec (mt d s i) DFA_OUTPUT_CANDIDATE) as [E|]; [destruct (proj1 (H i) E)|reflexivity]. Qed.
  Lemma silent_prim s i t : silent s -> t_prim d s i t = [].
  Proof.
    intros H. unfold t_prim. destruct (Z.eqb_spec (mt d s i) DFA_OUTPUT_CANDIDATE) as [E|]; [destruct (proj1 (H i) E)|].
    destruct (Z.eqb_spec (mt d s i) DFA_CONDITION) as [E|]; [destruct (proj2 (H i) E)|reflexivity].
  Qed.
End Follow.

(** * Predicate states when the filter comes first *)
Definition front_pat (p : list ritem) : bool :=
  match p with
  | [mkItem (RChar a) ONone] => a =? 2
  | [mkItem _ ONone; mkItem (RChar c) ONone] => negb (c =? 2)
  | _ => false
  end.
Lemma front_match p w : front_pat p = true -> pm p (w ++ [2]) = true -> w = [].
Proof.
  destruct w as [|x w]; [reflexivity|]. intros H Hp. exfalso.
  assert (Hl : exists y l, w ++ [2] = y :: l) by (destruct w; cbn; eauto). destruct Hl as (y & l & El).
  cbn [app] in Hp. rewrite El in Hp.
  destruct p as [|[u []] [|[v []] [|? ?]]]; try discriminate; try (destruct u; discriminate); try (destruct u, v; discriminate); cbn [pm r_opt] in Hp.
  - rewrite andb_false_r in Hp. discriminate.
  - destruct v as [|c]; [destruct u; discriminate|]. assert (Hc : (c =? 2) = false) by (destruct u; apply negb_true_iff, H).
    destruct l; [|rewrite !andb_false_r in Hp; discriminate]. destruct w as [|? [|? ?]]; try discriminate. injection El as <-.
    unfold isEdge in Hp. cbn [r_sym] in Hp. rewrite andb_true_r in Hp. apply andb_true_iff in Hp. lia.
Qed.

Lemma last_match_in : forall pats w i, 1 <= i -> last_match pats w i <> 0 ->
  exists k p, nth_error pats k = Some p /\ last_match pats w i = i + Z.of_nat k /\ pm p w = true.
Proof.
  induction pats as [|p pats IH]; intros w i Hi H; cbn [last_match] in *; [congruence|].
  destruct (Z.eqb_spec (last_match pats w (i + 1)) 0) as [E|E]; cbn [negb] in *.
  - destruct (pm p w) eqn:Ep; [|congruence]. exists 0%nat, p. repeat split; [lia|exact Ep].
  - destruct (IH w (i + 1) ltac:(lia) E) as (k & p' & Hk & Hl & Hm). exists (S k), p'. repeat split; [exact Hk|lia|exact Hm].
Qed.

Definition front_ok (b : bctx) (i : Z) : bool := (i =? zlen (b_pats b)) && forallb front_pat (removelast (b_pats b)).
Lemma nth_removelast {A} : forall (l : list A) k x, nth_error l k = Some x -> (S k < List.length l)%nat -> nth_error (removelast l) k = Some x.
Proof.
  induction l as [|y l IH]; intros k x H Hk; [cbn in Hk; lia|]. destruct l as [|z l]; [cbn in Hk; lia|].
  cbn [removelast]. destruct k as [|k]; [exact H|]. cbn [nth_error] in *. apply IH; [exact H|cbn in *; lia].
Qed.

Lemma front_preds b i m T ds x : main_ok (zlen (b_names b) + 3) (b_pats b) ds m T -> front_ok b i = true ->
  create_context b m (the_dfa b i m T) = Ok x -> Forall (fun s => s < 100) (x_preds x).
Proof.
  intros Hm Hf E. unfold create_context in E. destruct (mapM _ _) as [l|]; [|discriminate]. cbn [bind] in E. injection E as <-.
  cbn [x_preds]. apply Forall_forall. intros s Hs. apply filter_In in Hs. destruct Hs as [Hs Hp]. apply in_state_list in Hs.
  apply andb_true_iff in Hp. destruct Hp as [_ Ha].
  pose proof (the_accept b i m T s Hs) as Hacc. unfold getDFAAcceptType, zread, znth in Hacc. unfold tread in Ha.
  destruct (s <? 0); [discriminate|]. destruct (nth_error _ _) as [a|] eqn:En in Hacc; [|discriminate]. injection Hacc as ->.
  apply (nth_error_nth _ _ 0) in En. cbn [the_dfa d_accept] in En. rewrite En in Ha. clear En. unfold info_of in Ha.
  destruct (Z.eqb_spec (tread (m_stops m) s) 0) as [|Hst]; [discriminate|].
  destruct (Z.eqb_spec (tread (m_stops m) s) i) as [|Hni].
  { destruct (has_rng _); discriminate. }
  destruct (arr_target m T s) eqn:Ear; [|destruct (has_rng _); discriminate]. clear Ha.
  unfold arr_target in Ear. apply existsb_exists in Ear. destruct Ear as (y & Hy & Ey). apply Z.eqb_eq in Ey. subst y.
  apply in_map_iff in Hy. destruct Hy as (j & Hj & Hjr). apply in_state_list in Hjr. pose proof (zlen_nonneg (b_names b)).
  destruct (Z.eq_dec j 0) as [->|Hj0].
  { change (Z.to_nat 0) with 0%nat in Hj. rewrite (row0 b m T ds Hm 2 ltac:(lia)) in Hj. rewrite <- Hj, (mo_stop0 _ _ _ _ _ Hm) in Hst. congruence. }
  destruct (mo_reach _ _ _ _ _ Hm j) as (w & Hw & Ew); [lia|]. rewrite <- Ew in Hj.
  rewrite (snoc_code b m T ds Hm w 2 Hw ltac:(lia)) in Hj. subst s.
  assert (Hw2 : Forall (input (zlen (b_names b) + 3)) (w ++ [2])) by (apply Forall_app; split; [exact Hw|constructor; [unfold input; lia|constructor]]).
  rewrite (mo_stop _ _ _ _ _ Hm) in Hst, Hni by (auto; destruct w; discriminate).
  destruct (last_match_in _ _ 1 ltac:(lia) Hst) as (k & p & Hk & Hl & Hpm).
  unfold front_ok in Hf. apply andb_true_iff in Hf. destruct Hf as [Hi Hf]. apply Z.eqb_eq in Hi.
  assert (Hkl : (k < List.length (b_pats b))%nat) by (apply nth_error_Some; congruence).
  apply nth_removelast in Hk; [|unfold zlen in Hi; lia]. rewrite forallb_forall in Hf. pose proof (Hf p (nth_error_In _ _ Hk)) as Hfp.
  rewrite (front_match p w Hfp Hpm). cbn [app trun Z.eqb]. pose proof (mo_first _ _ _ _ _ Hm 2 ltac:(lia)) as H2. change (Z.to_nat 1) with 1%nat. lia.
Qed.

Definition front_check (strict : bool) (q : query) : bool :=
  match (b0 <- construct_dfa strict q ;; finish_ctx b0) with Ok (b, i) => front_ok b i | UB _ => true end.
Lemma front_fits strict q : (strict = true -> forall f, In f (query_fields q) -> (List.length f <= 1)%nat) ->
  zlen (query_names q) <= name_bound -> front_check strict q = true -> predicates_fit strict q.
Proof.
  intros Hs HU Hc d x Eb. unfold build, construct_dfa in Eb. unfold front_check, construct_dfa in Hc.
  destruct (construct_any strict (query_names q) q init_bctx (cinv_init _) (incl_refl _) Hs) as (b0 & E0 & Hb0 & _).
  rewrite E0 in Eb, Hc. cbn [bind] in Eb, Hc. destruct (finish_ctx b0) as [[b i]|] eqn:Ef; [|discriminate]. cbn [bind] in Eb.
  destruct (finish_pats _ _ _ _ Hb0 Ef) as [Hb Hp]. clear E0 Hb0 Ef b0. pose proof (names_bound _ b Hb) as Hn. pose proof (zlen_nonneg (b_names b)).
  unfold compile_patterns in Eb.
  destruct (create_all (zlen (b_names b) + 3) (b_pats b) ltac:(lia)) as (ds & E1 & F). rewrite E1 in Eb. cbn [bind] in Eb.
  destruct (Combine_ok (zlen (b_names b) + 3) ltac:(unfold name_bound in *; lia) (b_pats b) ds F Hp) as (m & T & E2 & Hm). rewrite E2 in Eb. cbn [bind] in Eb.
  rewrite (any_the b i m T ds Hm (ci_range _ _ Hb)) in Eb. cbn [bind] in Eb.
  destruct (create_context b m _) as [x'|] eqn:Ex; [|discriminate]. cbn [bind] in Eb. injection Eb as <- <-.
  apply (front_preds b i m T ds x' Hm Hc Ex).
Qed.
Lemma single_fields q : forallb (fun f => Nat.leb (List.length f) 1) (query_fields q) = true ->
  forall f, In f (query_fields q) -> (List.length f <= 1)%nat.
Proof. intros H f Hf. rewrite forallb_forall in H. apply Nat.leb_le, H, Hf. Qed.

(** * The query *)
(** Fields [n0a], [n0b], ... and a filter that asks for one of the first [n + 1]. *)
Definition nth_name (i : nat) : bytes := B "n" ++ [ascii_of_nat (48 + i / 26); ascii_of_nat (97 + i mod 26)].
Fixpoint any_of (n : nat) : expr :=
  match n with O => EField [nth_name 0] | S n' => EBin BOr (any_of n') (EField [nth_name n]) end.

(** [$[?(!(@.n0a || ...))]..x.y] and an [x] inside an [x]. *)
Definition q_lost : query := [SFilter (ENot (any_of 252)); SDesc (B "x"); SChild (B "y")].
Definition lost_doc : doc := docu (arr [obj [(B "x", obj [(B "x", obj [(B "y", str "v")])])]]).


(** What is computed about the patterns of the query: 255 names, [x] and [y] with
    the codes 256 and 257; the pattern of the output does not go on after two [x]. *)
Definition alive (b : bctx) (w : list Z) : bool := existsb (fun p => match run (set_step p) [0%nat] w with Some _ => true | None => false end) (b_pats b).
Definition lost_facts (b : bctx) (i : Z) : bool :=
  (zlen (b_names b) =? 255) && (zlen (b_range b) =? zlen (b_pats b)) && (i =? 255) &&
  (code_of (b_names b) (B "x") =? 256) && negb (last_match (b_pats b) [2] 1 =? i) &&
  (last_match (b_pats b) [] 1 =? 0) && (last_match (b_pats b) [2; 256] 1 =? 0) &&
  alive b [2; 256] && negb (alive b [2; 256; 256]) && negb (alive b [2; 256; 1]).
Lemma lost_computed strict :
  match (b0 <- construct_dfa strict q_lost ;; finish_ctx b0) with Ok (b, i) => lost_facts b i | UB _ => false end = true.
Proof. destruct strict; vm_compute; reflexivity. Qed.

Lemma lost_fields strict : strict = true -> forall f, In f (query_fields q_lost) -> (List.length f <= 1)%nat.
Proof.
  intros _. apply single_fields. vm_compute. reflexivity.
Qed.

Lemma lost_plains strict p : createPathProcessor strict q_lost = Ok p -> plains (t_val (p_dfa p) false 1 0 (d_val lost_doc)) = [].
Proof.
  unfold createPathProcessor. destruct (build strict q_lost) as [[d x]|] eqn:Eb; [|discriminate]. cbn [bind]. intros E. injection E as <-.
  cbn [p_dfa]. unfold build, construct_dfa in Eb. pose proof (lost_computed strict) as Hf. unfold construct_dfa in Hf.
  destruct (construct_any strict (query_names q_lost) q_lost init_bctx (cinv_init _) (incl_refl _) (lost_fields strict)) as (b0 & E0 & Hb0 & _).
  rewrite E0 in Eb, Hf. cbn [bind] in Eb, Hf. destruct (finish_ctx b0) as [[b i]|] eqn:Ef; [|discriminate]. cbn [bind] in Eb.
  destruct (finish_pats _ _ _ _ Hb0 Ef) as [Hb Hp]. clear E0 Hb0 Ef b0.
  unfold lost_facts in Hf. repeat (apply andb_true_iff in Hf; destruct Hf as [Hf ?]).
  rename H7 into Hr. rename H6 into Hi. rename H5 into Hx. rename H4 into Hel. rename H3 into Hm0. rename H2 into Hm1. rename H1 into Ha. rename H0 into Hd1.
  rename H into Hd2. apply Z.eqb_eq in Hf, Hr, Hi, Hx, Hm0, Hm1. apply negb_true_iff in Hel, Hd1, Hd2. apply Z.eqb_neq in Hel.
  pose proof (ci_nd _ _ Hb) as Hnd.
  unfold compile_patterns in Eb.
  destruct (create_all (zlen (b_names b) + 3) (b_pats b) ltac:(lia)) as (ds & E1 & F). rewrite E1 in Eb. cbn [bind] in Eb.
  destruct (Combine_ok (zlen (b_names b) + 3) ltac:(lia) (b_pats b) ds F Hp) as (m & T & E2 & Hm). rewrite E2 in Eb. cbn [bind] in Eb.
  rewrite (any_the b i m T ds Hm Hr) in Eb. cbn [bind] in Eb.
  destruct (create_context b m _) as [x'|]; [|discriminate]. cbn [bind] in Eb. injection Eb as <- _. clear E1 E2 x'.
  assert (Hin : forall w, forallb (fun a => (1 <=? a) && (a <? 258)) w = true -> Forall (input (zlen (b_names b) + 3)) w).
  { intros w H. apply Forall_forall. intros a Hin. rewrite forallb_forall in H. specialize (H a Hin). unfold input. lia. }
  assert (Hdead : forall w, forallb (fun a => (1 <=? a) && (a <? 258)) w = true -> alive b w = false -> trun T 1 w = 0).
  { intros w Hw H. apply (mo_run _ _ _ _ _ Hm w (Hin w Hw)). intros q0 Hq. unfold alive in H.
    destruct (run (set_step q0) [0%nat] w) eqn:E; [|reflexivity]. exfalso.
    assert (existsb (fun p => match run (set_step p) [0%nat] w with Some _ => true | None => false end) (b_pats b) = true);
      [|congruence]. apply existsb_exists. exists q0. rewrite E. auto. }
  assert (Halive : trun T 1 [2; 256] <> 0).
  { intros E. pose proof (proj1 (proj2 (mo_run _ _ _ _ _ Hm _ (Hin [2; 256] eq_refl))) E) as Hn. unfold alive in Ha.
    apply existsb_exists in Ha. destruct Ha as (q0 & Hq & Ha). rewrite (Hn q0 Hq) in Ha. discriminate. }
  assert (Hc : name_code (b_names b) (B "x") 3 = Some 256).
  { unfold code_of in Hx. destruct (name_code _ _ _); [congruence|discriminate]. }
  set (d := the_dfa b i m T) in *.
  assert (Hzero : forall j inp, nx d 0 j inp = 0).
  { intros j inp. pose proof (any_the_ok b i m T ds Hm Hr) as Hd. unfold nx, next_elt. cbn [q_state].
    assert (Hv : valid_state d 0) by (unfold valid_state; pose proof (ok_states d Hd); lia).
    destruct (in_range_ok d 0 j MInv Hd Hv) as (r & ->). cbn [bind]. destruct r; [|reflexivity].
    assert (Hz : forall a, 0 <= a < zlen (b_names b) + 3 -> exists row, zread T 0 = Ok row /\ zread row a = Ok 0).
    { intros a Hra. pose proof (mo_two _ _ _ _ _ Hm). destruct (zread_row b [] m T ds Hm 0 a ltac:(lia) Hra) as (row & H1 & H2 & H3).
      exists row. split; [exact H1|]. rewrite H3, <- H2. change (Z.to_nat 0) with 0%nat. rewrite (row0 b m T ds Hm a Hra). reflexivity. }
    destruct inp as [k|]; unfold dfaNextStateByStr, dfaNextState.
    - destruct (zread_ok (d_table d) 0 Hv) as (row & H1 & H2). rewrite H1. cbn [bind].
      destruct (find_input_ok d row k Hd H2 (Z.to_nat (d_inputs d - 3)) 3) as (c & -> & Hcb); [lia|pose proof (ok_inputs d Hd); lia|]. cbn [bind].
      cbn [d the_dfa d_inputs] in Hcb. destruct (Hz c ltac:(lia)) as (row' & H3 & H4). cbn [d the_dfa d_table] in H1.
      rewrite H3 in H1. injection H1 as <-. rewrite H4. reflexivity.
    - cbn [d the_dfa d_table]. destruct (Hz 2 ltac:(lia)) as (row & -> & H1). cbn [bind]. rewrite H1. reflexivity. }
  pose proof (silent_zero b i m T ds Hm) as S0.
  assert (S1 : silent b i m T 1) by exact (silent_none b i m T ds Hm [] (Hin [] eq_refl) Hm0).
  assert (S2 : silent b i m T (nx d 1 0 None) /\ (nx d 1 0 None = 0 \/ nx d 1 0 None = trun T 1 [2])).
  { destruct (nx_idx b i m T ds Hm Hr [] 0 (Hin [] eq_refl)) as [E|E]; cbn [trun] in E; fold d in E; rewrite E; split; auto.
    apply (silent_elem b i m T ds Hm [] (Hin [] eq_refl)); [lia|exact Hel]. }
  destruct S2 as [S2 E2]. set (s2 := nx d 1 0 None) in *.
  assert (S3 : silent b i m T (nx d s2 0 (Some (B "x"))) /\ (nx d s2 0 (Some (B "x")) = 0 \/ nx d s2 0 (Some (B "x")) = trun T 1 [2; 256])).
  { destruct E2 as [-> | ->]; [rewrite Hzero; auto|].
    destruct (nx_key b i m T ds Hm Hr Hnd [2] 0 (B "x") 256 (Hin [2] eq_refl) Hc) as [E|[E|[_ E]]]; [| |destruct (Halive E)];
      fold d in E; rewrite E; split; auto. exact (silent_none b i m T ds Hm [2; 256] (Hin [2; 256] eq_refl) Hm1). }
  destruct S3 as [S3 E3]. set (s3 := nx d s2 0 (Some (B "x"))) in *.
  assert (E4 : nx d s3 0 (Some (B "x")) = 0).
  { destruct E3 as [-> | ->]; [apply Hzero|].
    destruct (nx_key b i m T ds Hm Hr Hnd [2; 256] 0 (B "x") 256 (Hin [2; 256] eq_refl) Hc) as [E|[E|[E _]]]; fold d in E; rewrite E;
      [reflexivity| |]; apply Hdead; auto. }
  unfold lost_doc. cbn [docu d_val arr elems obj mems t_val t_ms t_es str app]. fold s2. fold s3. rewrite E4, Hzero.
  rewrite !plains_app, !plain_open_obj, !plain_open_arr, !plain_elem.
  unfold d. rewrite !(silent_close b i m T 1), !(silent_close b i m T s2), !(silent_close b i m T s3), !(silent_close b i m T 0), (silent_prim b i m T 0) by assumption.
  reflexivity.
Qed.

Theorem lost_run N strict j p : createPathProcessor strict q_lost = Ok p ->
  serialRun N j p (doc_text lost_doc) <> Ok (Some [B """v"""]).
Proof.
  intros Hp Hrun. apply (any_plains N strict q_lost) in Hrun; [|vm_compute; discriminate|exact Hp|apply good_checked; vm_compute; reflexivity|apply Nat.leb_le; vm_compute; reflexivity].
  rewrite (lost_plains strict p Hp) in Hrun. cbn in Hrun. inversion Hrun.
Qed.
Theorem lost_compiles strict : exists p, createPathProcessor strict q_lost = Ok p.
Proof.
  destruct (build_total strict q_lost) as (d & x & E & _); [reflexivity|apply lost_fields|vm_compute; discriminate|].
  exists (mkProc d x). unfold createPathProcessor. rewrite E. reflexivity.
Qed.
Theorem lost_fits strict : predicates_fit strict q_lost.
Proof. apply front_fits; [apply lost_fields|vm_compute; discriminate|destruct strict; vm_compute; reflexivity]. Qed.

(** [$[?(@.n0a || ...)].y] with 256 names. *)
Definition q_many : query := [SFilter (any_of 254); SChild (B "y")].
Theorem many_fits strict : predicates_fit strict q_many.
Proof.
  apply front_fits; [intros _; apply single_fields; vm_compute; reflexivity|vm_compute; discriminate|destruct strict; vm_compute; reflexivity].
Qed.
