(** The units of a worker: it starts in all states at once, may keep some of them
    only (constraint table), and begins again after an unmatched bracket. *)
From Verif Require Import Base Util Lexer Dfa Constraint Stream TreeSem Worker Chains WorkRep Shared MalSpec NestSpec Single Specul Pruned.
From Coq Require Import Permutation.
Open Scope Z_scope.

Definition tok_key (t : token) : option ckey := match t with TKY k => Some (CKey k) | TLB => Some CArr | _ => None end.

Section Units.
  Variable d : dfa.
  Hypothesis Hd : dfa_ok d.
  Hypothesis Hkind : forall a, In a (d_accept d) -> 0 <= a <= 3.
  Variable D : nat.
  Hypothesis HD : (D <= 98)%nat.
  Notation R0 := (List.length (d_accept d)).
  Hypothesis Hsize : Z.of_nat R0 * (Z.of_nat D + 2) <= MAX_NODE.
  Variables (buf junk : bytes) (ct : option ctable).
  Notation acc := (acc d).
  Notation wstep := (worker_step d false (Some (iota R0)) ct junk buf).
  Notation wstep0 := (worker_step d false (Some (iota R0)) None junk buf).
  Variable fol : Prop.
  Notation inv := (inv d D buf fol).

  (** * The start *)
  Definition base : seg := map (fun r => (root_node r, [r])) (iota R0).
  Record fresh_run (R : nat) (st : Z -> Z) (bs : list opened) (n : track) (c : core) : Prop := mkFresh {
    fr_root : 0 <= tr_root n < Z.of_nat R;
    fr_base : hd_error (tr_open n) = hd_error bs;
    fr_free : free d (st (tr_root n));
    fr_arr  : hd_error bs = Some OBracket -> arr_ok fol (acc (st (tr_root n)));
    fr_ss   : c_ss c = map sy (tr_open n);
    fr_len  : (List.length (tr_open n) <= List.length bs)%nat /\ (List.length (tr_below n) <= List.length (tr_open n))%nat;
    fr_qs   : c_qs c = tr_below n;
    fr_cur  : q_state (c_cur c) = st (tr_root n) /\ (acc (st (tr_root n)) = DFA_OUTPUT_CANDIDATE -> q_ms (c_cur c) = MInv);
    fr_tl   : c_tl c = tr_old n
  }.
  Lemma base_roots : flat_map snd base = iota R0.
  Proof. unfold base. induction (iota R0) as [|r l IH]; cbn; [reflexivity|]. f_equal. exact IH. Qed.
  Lemma base_fst : map fst base = map root_node (iota R0).
  Proof. unfold base. rewrite map_map. reflexivity. Qed.
  Lemma base_zlen : zlen base = Z.of_nat R0.
  Proof. unfold base, zlen. rewrite map_length, iota_length. reflexivity. Qed.
  Lemma view_base r : 0 <= r < Z.of_nat R0 -> view r base = Some (root_node r).
  Proof.
    intros H. apply in_iota in H. unfold base. induction (iota R0) as [|x l IH]; [contradiction|]. cbn [map view existsb]. rewrite orb_false_r.
    destruct (Z.eqb_spec r x) as [->|Hne]; [reflexivity|]. apply IH. destruct H; [congruence|assumption].
  Qed.
  Lemma seg_ok_base n : forall k, seg_ok R0 [] (Z.of_nat k) (map (fun r => (root_node r, [r])) (map Z.of_nat (seq k n))) \/ (R0 < k + n)%nat.
  Proof.
    induction n as [|n IH]; intros k; cbn; [left; exact I|]. destruct (IH (S k)) as [H|H]; [|right; lia]. destruct (le_lt_dec (k + S n) R0); [|right; lia].
    left. refine (conj _ (conj _ _)).
    - exists 0, (-1). split; reflexivity.
    - apply Forall_cons; [lia|apply Forall_nil].
    - replace (Z.of_nat k + 1) with (Z.of_nat (S k)) by lia. exact H.
  Qed.
  Lemma levels_base : levels R0 idz [base] 0 [].
  Proof.
    cbn [levels fl]. split; [|split; [|split; [|split; [reflexivity|split; [reflexivity|]]]]].
    - split; [rewrite base_roots; apply Permutation_refl|]. unfold base. rewrite Forall_map. apply Forall_forall. discriminate.
    - destruct (seg_ok_base R0 0) as [H|H]; [exact H|lia].
    - pose proof (R_pos d Hd D HD) as HR. unfold base, iota. destruct R0 as [|k]; [lia|]. rewrite seq_S, !map_app. cbn [map plus].
      eexists _, _, _, 0. split; [reflexivity|]. split; reflexivity.
    - unfold base_ok, base. rewrite map_map. reflexivity.
  Qed.
  Lemma no_tups own kid : Forall (fun x => x < kid) own -> tups_of own kid R0 = map (fun _ => (-1, -1)) (iota R0).
  Proof.
    intros H. unfold tups_of. apply map_ext_in. intros r Hr. apply in_iota in Hr. rewrite pos_none; [reflexivity|]. intros Hi. rewrite Forall_forall in H. apply H in Hi. lia.
  Qed.
  Lemma init_base own kid : Forall (fun x => x < kid) own -> initQueryStacks (iota R0) = (QS R0 own kid [base] 0 [], rng [base]).
  Proof.
    intros H. unfold initQueryStacks, QS, rng. cbn [tl itm fl app]. rewrite base_fst, base_zlen, no_tups by exact H. f_equal; [f_equal|].
    - induction (iota R0) as [|r l IH]; cbn; [reflexivity|]. f_equal. exact IH.
    - unfold zlen. rewrite iota_length. reflexivity.
  Qed.
  Lemma owned_low {A} own (vs : list A) kid r : Forall (fun x => x < kid) own -> 0 <= r -> owned own vs (kid + r) = [].
  Proof. intros H Hr. apply owned_none. intros Hi. rewrite Forall_forall in H. apply H in Hi. lia. Qed.
  Lemma fresh_inv bs (A : track -> core -> Prop) own kid tw : chain_ok own tw -> Forall (fun x => x < kid) own -> shape bs -> (List.length bs <= D)%nat ->
    (forall n c, A n c -> fresh_run R0 idz bs n c) -> inv R0 idz [] bs A own kid [base] 0 [] tw.
  Proof.
    intros Hc Hid Hs Hr HA. split; auto.
    - apply levels_base.
    - constructor; [|constructor]. unfold base. rewrite Forall_map. apply Forall_forall. intros r Hr0. apply in_iota in Hr0. split; cbn; [|discriminate].
      unfold valid_state. rewrite <- (R_states d Hd). exact Hr0.
    - split; [exact Hc|]. eapply Forall_impl; [|exact Hid]. cbn. lia.
    - intros n c Hn. destruct (HA n c Hn) as [F1 F2 Ff F3 F4 F5 F6 [F7 F7'] F8]. split; auto.
      + exists [c_cur c]. rewrite F6. split; [reflexivity|]. split; [|exact I]. rewrite (view_base _ F1). eexists. split; [reflexivity|].
        split; [symmetry; exact F7|]. split; [discriminate|]. intros _ Ho. cbn. symmetry. apply F7'. rewrite <- F7. apply (hit_acc d Hd Hkind _ _) with (2 := Ho). rewrite F7. unfold idz, valid_state. rewrite <- (R_states d Hd). exact F1.
      + exists []. rewrite app_nil_r. split; [exact F8|]. rewrite owned_low by (exact Hid || lia). constructor.
  Qed.
  Lemma fresh_W own kid tw us u : Forall (fun x => x < kid) own ->
    (let '(q, cur) := initQueryStacks (iota R0) in mkW [] [] q cur tw us u) = W R0 (map sy []) [] own kid [base] 0 [] tw us u.
  Proof. intros H. rewrite (init_base own kid H). reflexivity. Qed.

  (** * Units *)
  Hypothesis HR : Z.of_nat R0 <= MAX_STATE.

  (** The states a unit goes on with, when [E] is what it has read. *)
  Definition kept (after0 : list event -> list opened) (E : list event) (R : nat) (st : Z -> Z) : Prop :=
    (R = R0 /\ st = idz) \/
    exists t E1 ev E2 k q, ct = Some t /\ E = E1 ++ ev :: E2 /\ nopen (after0 E1) = O /\ tok_key (e_tok ev) = Some k /\ updateStateInfo junk t k = Some q /\
      R = List.length q /\ st = sel q /\ NoDup q /\ Forall (valid_state d) q /\ q <> [].
  Lemma kept_pos f E R st : kept f E R st -> (0 < R)%nat.
  Proof.
    intros [[-> _]|(t & E1 & ev & E2 & k & q & _ & _ & _ & _ & _ & -> & _ & _ & _ & H)]; [apply (R_pos d Hd D HD)|]. destruct q; [congruence|cbn; lia].
  Qed.
  Lemma kept_le f E R st : kept f E R st -> (R <= R0)%nat.
  Proof.
    intros [[-> _]|(t & E1 & ev & E2 & k & q & _ & _ & _ & _ & _ & -> & _ & Hn & Hv & _)]; [lia|]. rewrite <- (iota_length R0). apply NoDup_incl_length; [exact Hn|].
    intros x Hx. apply in_iota. rewrite Forall_forall in Hv. rewrite (R_states d Hd). apply Hv, Hx.
  Qed.
  Lemma kept_inj f E R st r r' : kept f E R st -> 0 <= r < Z.of_nat R -> 0 <= r' < Z.of_nat R -> st r = st r' -> r = r'.
  Proof.
    intros [[-> ->]|(t & E1 & ev & E2 & k & q & _ & _ & _ & _ & _ & -> & -> & Hn & _)]; [unfold idz; auto|]. intros H1 H2. apply sel_inj; auto.
  Qed.
  Lemma kept_app f E x R st : kept f E R st -> kept f (E ++ x) R st.
  Proof.
    intros [H|(t & E1 & ev & E2 & k & q & H1 & -> & H3)]; [left; exact H|]. right. exists t, E1, ev, (E2 ++ x), k, q. split; [exact H1|]. split; [rewrite <- app_assoc; reflexivity|exact H3].
  Qed.

  Fixpoint inner (l : list opened) (ts : list token) : Prop :=
    match ts with
    | [] => True
    | t :: ts' => (l = [] -> t <> TRCB /\ t <> TRB) /\ inner (onto l t) ts'
    end.
  Definition after (l : list opened) (E : list event) : list opened := fold_left onto (map e_tok E) l.
  Definition closer (ev : event) : Prop := e_tok ev = TRCB \/ e_tok ev = TRB \/ e_tok ev = TCOM.
  Definition sym_of (ev : event) : list usym :=
    match e_tok ev with TRCB => [URcb (e_next ev - 1)] | TRB => [URb (e_next ev - 1)] | _ => [] end.
  Definition syms_of (P : list event) : list usym := flat_map sym_of P.
  Definition run (E : list event) (c : core) : res core := foldM (core_step d buf) E c.

  Notation kept0 := (kept (after [])).
  Definition roots_ok (R : nat) (st : Z -> Z) (own : list Z) (kid : Z) (rs : list tnode) : Prop :=
    map (fun n => (t_state n, t_tup n)) rs = map (fun r => (st r, Some (ends (pos own (kid + r))))) (iota R).
  Definition runs_ok (R : nat) (st : Z -> Z) (own : list Z) (tw : list wtuple) (kid : Z) (bs : list opened) (E : list event) : Prop :=
    forall n c0 c, fresh_run R st bs n c0 -> run E c0 = Ok c -> exists X, c_tl c = tr_old n ++ X /\ Forall2 (vrel buf) (owned own (vals tw) (kid + tr_root n)) X.
  Fixpoint segs_ok (own : list Z) (tw : list wtuple) (lo : Z) (bs : list opened) (segs : list (list event * list event)) (us : list unit_) (bs' : list opened) (kid : Z) : Prop :=
    match segs, us with
    | [], [] => bs' = bs /\ lo <= kid
    | (P, E) :: segs', u :: us' =>
        Forall closer P /\ un_syms u = syms_of P /\ inner [] (map e_tok E) /\ after [] E = [] /\
        exists R st lo1, lo <= lo1 /\ kept0 E R st /\ roots_ok R st own lo1 (un_roots u) /\ runs_ok R st own tw lo1 (after bs P) E /\
        segs_ok own tw (lo1 + Z.of_nat R) (after bs P) segs' us' bs' kid
    | _, _ => False
    end.
  Definition events_of (segs : list (list event * list event)) : list event := flat_map (fun s => fst s ++ snd s) segs.

  Lemma after_app l a b : after l (a ++ b) = after (after l a) b.
  Proof. unfold after. rewrite map_app, fold_left_app. reflexivity. Qed.
  Lemma after_cons l e a : after l (e :: a) = after (onto l (e_tok e)) a.
  Proof. reflexivity. Qed.
  Lemma syms_app a b : syms_of (a ++ b) = syms_of a ++ syms_of b.
  Proof. apply flat_map_app. Qed.
  Lemma inner_snoc : forall E l t, inner l (map e_tok E) -> (after l E = [] -> t <> TRCB /\ t <> TRB) -> inner l (map e_tok E ++ [t]).
  Proof.
    induction E as [|e E IH]; intros l t H1 H2; cbn [map app inner] in *; [auto|]. destruct H1 as [H1 H3]. split; [exact H1|]. apply IH; [exact H3|]. exact H2.
  Qed.
  Lemma run_snoc E ev c c' : run (E ++ [ev]) c = Ok c' -> exists c1, run E c = Ok c1 /\ core_step d buf c1 ev = Ok c'.
  Proof.
    unfold run. rewrite foldM_app. destruct (foldM (core_step d buf) E c) as [c1|]; [|discriminate]. cbn [bind foldM]. intros H. exists c1. split; [reflexivity|].
    destruct (core_step d buf c1 ev); [|discriminate]. cbn in H. exact H.
  Qed.

  Lemma segs_kid own tw : forall segs us lo bs bs' kid, segs_ok own tw lo bs segs us bs' kid -> lo <= kid.
  Proof.
    induction segs as [|[P E] segs IH]; intros [|u us] lo bs bs' kid H; cbn [segs_ok] in H; try contradiction; [lia|].
    destruct H as (_ & _ & _ & _ & R & st & lo1 & H1 & _ & _ & _ & H). apply IH in H. lia.
  Qed.
  Lemma posn_none own : forall k id, ~ In id own -> posn k own id = [].
  Proof.
    induction own as [|x own IH]; intros k id H; cbn [posn]; [reflexivity|]. destruct (Z.eqb_spec x id); [exfalso; apply H; left; assumption|]. apply IH. intros Hi. apply H. right. exact Hi.
  Qed.
  (** The chains with names below [kid] stay. *)
  Definition stays (kid : Z) (own : list Z) (tw : list wtuple) (own' : list Z) (tw' : list wtuple) : Prop :=
    forall id, id < kid -> pos own' id = pos own id /\ owned own' (vals tw') id = owned own (vals tw) id.
  Lemma above_notin kid id new : Forall (fun x => kid <= x) new -> id < kid -> ~ In id new.
  Proof. intros F H Hi. rewrite Forall_forall in F. apply F in Hi. lia. Qed.
  Lemma grown_stays kid own tw own' tw' : List.length own = List.length tw -> grown kid own tw own' tw' -> stays kid own tw own' tw'.
  Proof.
    intros Hl (new & vs & -> & Ev & Hlen & F) id H. split.
    - unfold pos. rewrite posn_app. rewrite (posn_none new) by (eapply above_notin; eassumption). apply app_nil_r.
    - rewrite Ev, owned_app by (unfold vals; rewrite map_length; exact Hl). rewrite (owned_none new) by (eapply above_notin; eassumption). apply app_nil_r.
  Qed.
  Lemma segs_stays own tw own' tw' : forall segs us lo bs bs' kid, stays kid own tw own' tw' -> segs_ok own tw lo bs segs us bs' kid -> segs_ok own' tw' lo bs segs us bs' kid.
  Proof.
    induction segs as [|[P E] segs IH]; intros [|u us] lo bs bs' kid Hg H; cbn [segs_ok] in *; try contradiction; [exact H|].
    destruct H as (H1 & H2 & H3 & H4 & R & st & lo1 & H5 & H6 & H7 & H8 & H9). pose proof (segs_kid _ _ _ _ _ _ _ _ H9) as Hk.
    split; [exact H1|]. split; [exact H2|]. split; [exact H3|]. split; [exact H4|]. exists R, st, lo1. split; [exact H5|]. split; [exact H6|]. split; [|split; [|apply IH; assumption]].
    - unfold roots_ok in *. rewrite H7. apply map_ext_in. intros r Hr. apply in_iota in Hr. do 3 f_equal. symmetry. apply Hg. lia.
    - intros n c0 c Hf Hr. destruct (H8 n c0 c Hf Hr) as (X & HX & HF). exists X. split; [exact HX|]. rewrite (proj2 (Hg (lo1 + tr_root n) ltac:(pose proof (fr_root _ _ _ _ _ Hf); lia))). exact HF.
  Qed.
  Lemma segs_weak own tw : forall segs us lo bs bs' kid kid', segs_ok own tw lo bs segs us bs' kid -> kid <= kid' -> segs_ok own tw lo bs segs us bs' kid'.
  Proof.
    induction segs as [|[P E] segs IH]; intros [|u us] lo bs bs' kid kid' H Hk; cbn [segs_ok] in *; try contradiction; [destruct H; split; [assumption|lia]|].
    destruct H as (H1 & H2 & H3 & H4 & R & st & lo1 & H5 & H6 & H7 & H8 & H9). repeat (split; [assumption|]). exists R, st, lo1. repeat (split; [assumption|]). eapply IH; eassumption.
  Qed.
  Lemma segs_snoc own tw R st : forall segs us lo bs b0 kid P E u, segs_ok own tw lo bs segs us b0 kid -> Forall closer P -> un_syms u = syms_of P -> kept0 E R st -> roots_ok R st own kid (un_roots u) ->
    runs_ok R st own tw kid (after b0 P) E -> inner [] (map e_tok E) -> after [] E = [] ->
    segs_ok own tw lo bs (segs ++ [(P, E)]) (us ++ [u]) (after b0 P) (kid + Z.of_nat R).
  Proof.
    induction segs as [|[P' E'] segs IH]; intros [|u' us] lo bs b0 kid P E u H H1 H2 H0 H3 H4 H5 H6; cbn [segs_ok app] in *; try contradiction.
    - destruct H as [-> Hk]. repeat (split; [assumption|]). exists R, st, kid. repeat (split; [assumption|]). split; [reflexivity|lia].
    - destruct H as (G1 & G2 & G3 & G4 & R' & st' & lo1 & G5 & G6 & G7 & G8 & G9). repeat (split; [assumption|]). exists R', st', lo1. repeat (split; [assumption|]). apply IH; assumption.
  Qed.
  Lemma events_snoc segs P E : events_of (segs ++ [(P, E)]) = events_of segs ++ P ++ E.
  Proof. unfold events_of. rewrite flat_map_app. cbn. rewrite app_nil_r. reflexivity. Qed.

  Definition runs (R : nat) (st : Z -> Z) (bs : list opened) (E : list event) : track -> core -> Prop := fun n c => exists c0, fresh_run R st bs n c0 /\ run E c0 = Ok c.
  Definition chunk_inv (bs0 : list opened) (done : list event) (w : wstate) : Prop := exists R st segs P E l b0 us u sh own kid L np rp tw,
    done = events_of segs ++ P ++ E /\ w = W R (map sy l) sh own kid L np rp tw us u /\ (sh = [] \/ sh = [SLB]) /\
    segs_ok own tw 0 bs0 segs us b0 kid /\ Forall closer P /\ un_syms u = syms_of P /\
    inner [] (map e_tok E) /\ after [] E = l /\ after bs0 done = l ++ after b0 P /\
    kept0 E R st /\ inv R st l (after b0 P) (runs R st (after b0 P) E) own kid L np rp tw /\
    hd_error (after b0 P) <> Some OKey /\ (l <> [] -> un_state u = UNIT_MATCHED /\ after b0 P <> []) /\
    (ct <> None -> un_pruned u = false -> R = R0 /\ st = idz /\ nopen l = O) /\
    (un_state u <> UNIT_MATCHED -> R = R0 /\ st = idz /\ L = [base] /\ np = 0 /\ rp = [] /\ sh = [] /\ Forall (fun x => x < kid) own /\ Forall (fun e => e_tok e = TCOM) E) /\
    (List.length us + List.length (after b0 P) <= List.length bs0)%nat /\ (List.length (syms_of P) + List.length (after b0 P) <= List.length bs0)%nat /\
    zlen tw <= Z.of_nat R0 * zlen done.

  Lemma base_roots_ok R st own kid s np rp : levels R st [s] np rp -> roots_ok R st own kid (put (tups_of own kid R) (fl [s])).
  Proof.
    intros (_ & _ & _ & _ & _ & Hb). unfold roots_ok, tups_of. cbn [fl app]. unfold base_ok in Hb. revert Hb. generalize (iota R). clear.
    induction s as [|[n rs] s IH]; intros [|r l] H; cbn in *; try discriminate; [reflexivity|]. injection H as H1 _ _ _ H2. f_equal; [rewrite H1; reflexivity|]. apply IH, H2.
  Qed.
  Lemma onto_closer_shape bs t : (t = TRCB /\ hd_error bs = Some OBrace) \/ (t = TRB /\ hd_error bs = Some OBracket) -> shape bs ->
    hd_error (onto bs t) <> Some OKey /\ shape (onto bs t) /\ (List.length (onto bs t) < List.length bs)%nat.
  Proof.
    intros H Hs. assert (E : onto bs t = value_done (tl bs)) by (destruct H as [[-> _]|[-> _]]; reflexivity). rewrite E. clear E.
    destruct bs as [|o bs]; [destruct H as [[_ H]|[_ H]]; discriminate|]. cbn [tl List.length]. assert (Hs' : value_here bs = true /\ shape bs) by (destruct H as [[_ H]|[_ H]]; injection H as ->; exact Hs).
    destruct Hs' as [Hv Hs']. destruct bs as [|[] bs]; cbn [value_done]; cbn [shape] in Hs'.
    - cbn. repeat split; [discriminate|lia].
    - destruct Hs' as [Hv' Hs']. split; [destruct bs as [|[] bs]; try discriminate|]. split; [exact Hs'|cbn; lia].
    - discriminate.
    - split; [discriminate|]. split; [exact Hs'|cbn; lia].
  Qed.

  (** * Keeping some of the states *)
  Definition pre (ev : event) (w : wstate) : res wstate :=
    let w1 := with_unit w (started (ws_unit w) (e_start ev - 1)) in
    match e_tok ev with
    | TKY k => match k_item (ws_qs w) with [] => prune false ct junk (CKey k) w1 | _ => Ok w1 end
    | TLB => prune false ct junk CArr w1
    | _ => Ok w
    end.
  Lemma started_state u p : un_state (started u p) = UNIT_MATCHED.
  Proof. unfold started. destruct (Z.eqb_spec (un_state u) UNIT_MATCHED); auto. Qed.
  Lemma started_twice u p : un_state u = UNIT_MATCHED -> started u p = u.
  Proof. intros H. unfold started. rewrite H. reflexivity. Qed.
  Lemma with_same w : with_unit w (ws_unit w) = w.
  Proof. destruct w; reflexivity. Qed.
  Lemma prune_state k w w' : un_state (ws_unit w) = UNIT_MATCHED -> prune false ct junk k w = Ok w' -> un_state (ws_unit w') = UNIT_MATCHED.
  Proof.
    intros H. unfold prune. destruct ct as [t|]; [|intros E; injection E as <-; exact H]. destruct (false || un_pruned (ws_unit w)); [intros E; injection E as <-; exact H|].
    destruct (match k with CKey n => strcopy MAX_KEY_TEXT n | CArr => Ok [] end); [|discriminate]. cbn [bind].
    destruct (updateStateInfo junk t k) as [[|x l]|]; try (intros E; injection E as <-; exact H).
    destruct (pruneQueryPaths (ws_qs w) (x :: l)); [|discriminate]. cbn [bind]. intros E. injection E as <-. exact H.
  Qed.
  Lemma pre_step ev rest w : wstep ev rest w = (w' <- pre ev w ;; wstep0 ev rest w').
  Proof.
    unfold pre, worker_step. destruct (e_tok ev) eqn:Et; try reflexivity.
    - unfold w_lb. set (w1 := with_unit w (started (ws_unit w) (e_start ev - 1))). destruct (prune false ct junk CArr w1) as [w2|] eqn:Ep; [|reflexivity]. cbn [bind].
      assert (Hs : un_state (ws_unit w2) = UNIT_MATCHED) by (eapply prune_state; [|exact Ep]; apply started_state).
      rewrite (started_twice _ _ Hs), with_same. reflexivity.
    - unfold w_ky. set (w1 := with_unit w (started (ws_unit w) (e_start ev - 1))). change (k_item (ws_qs w)) with (k_item (ws_qs w1)).
      set (x := match k_item (ws_qs w1) with [] => prune false ct junk (CKey s) w1 | _ => Ok w1 end).
      assert (Hx : forall w2, x = Ok w2 -> un_state (ws_unit w2) = UNIT_MATCHED).
      { intros w2 E. unfold x in E. destruct (k_item (ws_qs w1)); [eapply prune_state; [|exact E]; apply started_state|]. injection E as <-. apply started_state. }
      destruct x as [w2|]; [|reflexivity]. cbn [bind]. rewrite (started_twice _ _ (Hx _ eq_refl)), with_same.
      destruct (k_item (ws_qs w2)); reflexivity.
  Qed.

  Lemma mapM_read {A} (ns : list A) : forall q ms, List.length ms = List.length q -> (forall i x m, nth_error q i = Some x -> nth_error ms i = Some m -> zread ns x = Ok m) -> mapM (zread ns) q = Ok ms.
  Proof.
    induction q as [|x q IH]; intros [|m ms] Hl H; cbn in Hl; try discriminate; [reflexivity|]. cbn [mapM]. rewrite (H O x m eq_refl eq_refl). cbn [bind].
    rewrite (IH ms) by (congruence || (intros i; apply (H (S i)))). reflexivity.
  Qed.
  Lemma put_nth_eq : forall ts ns i n t, nth_error ns i = Some n -> nth_error ts i = Some t -> nth_error (put ts ns) i = Some (with_tup n t).
  Proof. induction ts as [|t0 ts IH]; intros [|m ns] [|i] n t H Ht; cbn in *; try discriminate; [congruence|]. apply IH; assumption. Qed.
  Lemma rng_one s : rng [s] = (0, zlen s - 1).
  Proof. cbn [rng fl]. change (zlen (@nil tnode)) with 0. reflexivity. Qed.

  Lemma prune_ok s l bs E own kid np rp tw sh us u q : inv R0 idz l bs (runs R0 idz bs E) own kid [s] np rp tw -> NoDup q -> Forall (valid_state d) q -> q <> [] ->
    let own' := map (rename kid (kid + Z.of_nat R0) q) own in
    pruneQueryPaths (ws_qs (W R0 (map sy l) sh own kid [s] np rp tw us u)) q = Ok (QS (List.length q) own' (kid + Z.of_nat R0) [chosen s q] np rp, rng [chosen s q]) /\
    inv (List.length q) (sel q) l bs (runs (List.length q) (sel q) bs E) own' (kid + Z.of_nat R0) [chosen s q] np rp tw /\ stays kid own tw own' tw.
  Proof.
    intros [Hlv Hg Hc Hlen Hs Hr HA] Hn Hv Hne own'. pose proof Hlv as (_ & _ & _ & -> & -> & Hb).
    assert (HvR : Forall (fun x => 0 <= x < Z.of_nat R0) q) by (rewrite (R_states d Hd); exact Hv).
    assert (HvK : Forall (fun x => 0 <= x /\ kid + x < kid + Z.of_nat R0) q) by (eapply Forall_impl; [|exact HvR]; cbn; lia).
    destruct Hc as [Hch Hids].
    assert (Hz : zlen (chosen s q) = zlen q) by (unfold zlen; rewrite chosen_len; reflexivity).
    split; [|split].
    - assert (Eun : forall qs, pruneQueryPaths qs q = (ns <- mapM (zread (k_nodes qs)) q ;; Ok (mkQs ns (k_np qs) (k_rp qs) (k_item qs), (0, zlen q - 1)))) by (intros qs; unfold pruneQueryPaths; clear - Hne; destruct q; [congruence|reflexivity]).
      rewrite Eun. clear Eun. cbn [ws_qs W QS k_nodes k_np k_rp k_item tl itm].
      rewrite (mapM_read _ q (put (tups_of own' (kid + Z.of_nat R0) (List.length q)) (fl [chosen s q]))).
      + cbn [bind]. rewrite rng_one, Hz. reflexivity.
      + rewrite put_length. cbn [fl app]. rewrite map_length, chosen_len. reflexivity.
      + intros i x m Hx Hm. assert (Hi : (i < List.length q)%nat) by (apply nth_error_Some; congruence).
        assert (Ex : nth i q 0 = x) by (apply nth_error_nth; exact Hx).
        assert (Hxr : 0 <= x < Z.of_nat R0) by (rewrite Forall_forall in HvR; apply HvR; eapply nth_error_In; exact Hx).
        destruct (base_nth R0 s Hb x Hxr) as (n & En & _). destruct (chosen_nth R0 s q Hb HvR i Hi) as (n' & En' & Ev' & _). rewrite Ex in Ev'. rewrite (base_view_nth R0 s Hb x n Hxr En) in Ev'. injection Ev' as <-.
        rewrite (put_nth_eq _ _ i n (ends (pos own' (kid + Z.of_nat R0 + Z.of_nat i)))) in Hm; [|cbn [fl app]; rewrite nth_error_map, En'; reflexivity|apply nth_tups, Hi]. injection Hm as <-.
        apply zread_some; [lia|]. replace (pos own' (kid + Z.of_nat R0 + Z.of_nat i)) with (pos own (kid + x)).
        * apply put_nth_eq; [cbn [fl app]; rewrite nth_error_map, En; reflexivity|]. rewrite nth_tups by lia. rewrite Z2Nat.id by lia. reflexivity.
        * symmetry. unfold pos, own'. apply posn_map. intros y Hy. replace x with (sel q (Z.of_nat i)) by (unfold sel; rewrite Nat2Z.id; exact Ex). apply (rename_new _ _ q own Hn HvK Hids); [unfold zlen; lia|exact Hy].
    - split; auto.
      + apply (chosen_levels R0 s q Hb HvR Hne).
      + constructor; [|constructor]. apply Forall_cons_iff in Hg as [Hg _]. apply Forall_forall. intros [n rs] Hi. apply In_nth_error in Hi as (i & Ei).
        assert (Hi : (i < List.length q)%nat) by (rewrite <- (chosen_len s q); apply nth_error_Some; congruence).
        destruct (chosen_nth R0 s q Hb HvR i Hi) as (n' & En' & Ev' & _). rewrite Ei in En'. injection En' as -> _. apply view_in in Ev' as (rs' & Hin & _). rewrite Forall_forall in Hg. exact (Hg _ Hin).
      + split; [apply (rename_chain _ _ q own Hn HvK Hids tw Hch)|]. pose proof (rename_ids kid _ q own Hids) as Hi. exact Hi.
      + intros n c (c0 & [F1 F2 Ff F3 F4 F5 F6 [F7 F7'] F8] & Hrun).
        set (n0 := mkTrack (sel q (tr_root n)) (tr_below n) (tr_old n) (tr_open n)).
        assert (Hsel : 0 <= sel q (tr_root n) < Z.of_nat R0) by (rewrite Forall_forall in HvR; apply HvR, sel_in; exact F1).
        assert (Hf0 : fresh_run R0 idz bs n0 c0) by (split; cbn [n0 tr_root tr_open tr_below tr_old]; auto).
        destruct (HA n0 c (ex_intro _ c0 (conj Hf0 Hrun))) as [T1 T2 Tf T3 T4 T5 (es & T6 & T7) (X & T8 & T9)]. cbn [n0 tr_root tr_open tr_below tr_old] in *.
        split; auto.
        * exists es. split; [exact T6|]. destruct es as [|e [|? ?]]; [destruct T7| |destruct T7 as [_ []]]. destruct T7 as [(nd & Hview & He) _]. split; [|exact I]. exists nd.
          split; [rewrite (chosen_view R0 s q Hb HvR) by exact F1; exact Hview|exact He].
        * exists X. split; [exact T8|]. unfold own'. rewrite (owned_map _ (kid + sel q (tr_root n))); [exact T9|]. intros y Hy. apply (rename_new _ _ q own Hn HvK Hids); [exact F1|exact Hy].
    - intros id Hid. unfold pos, own'. split; [apply posn_map|apply owned_map]; intros y Hy; apply (rename_low _ _ q own HvK); assumption.
  Qed.

  Definition tok_ok (ev : event) : Prop :=
    match tok_key (e_tok ev) with
    | None => True
    | Some k => forall t, ct = Some t -> match k with CKey n => zlen n <= 98 | CArr => True end /\ forall q, updateStateInfo junk t k = Some q -> NoDup q /\ Forall (valid_state d) q
    end.
  Lemma stays_refl kid own tw : stays kid own tw own tw.
  Proof. intros id _. auto. Qed.
  Lemma pre_ok ev R st l bs E own kid L np rp tw sh us u : inv R st l bs (runs R st bs E) own kid L np rp tw -> kept0 E R st -> after [] E = l ->
    (ct <> None -> un_pruned u = false -> R = R0 /\ st = idz /\ nopen l = O) -> tok_ok ev ->
    exists R' st' own' kid' L' u', pre ev (W R (map sy l) sh own kid L np rp tw us u) = Ok (W R' (map sy l) sh own' kid' L' np rp tw us u') /\
      inv R' st' l bs (runs R' st' bs E) own' kid' L' np rp tw /\ kept0 (E ++ [ev]) R' st' /\ kid <= kid' /\ stays kid own tw own' tw /\ un_syms u' = un_syms u /\
      (tok_key (e_tok ev) = None -> R' = R /\ st' = st /\ own' = own /\ kid' = kid /\ L' = L /\ u' = u) /\
      (tok_key (e_tok ev) <> None -> un_state u' = UNIT_MATCHED /\ (ct <> None -> un_pruned u' = true)).
  Proof.
    intros Hinv Hkp Hl Hpr Htok.
    assert (Hkeep : forall u', un_syms u' = un_syms u -> (tok_key (e_tok ev) = None -> u' = u) ->
       (tok_key (e_tok ev) <> None -> un_state u' = UNIT_MATCHED /\ (ct <> None -> un_pruned u' = true)) ->
       pre ev (W R (map sy l) sh own kid L np rp tw us u) = Ok (W R (map sy l) sh own kid L np rp tw us u') ->
       exists R' st' own' kid' L' u', pre ev (W R (map sy l) sh own kid L np rp tw us u) = Ok (W R' (map sy l) sh own' kid' L' np rp tw us u') /\
      inv R' st' l bs (runs R' st' bs E) own' kid' L' np rp tw /\ kept0 (E ++ [ev]) R' st' /\ kid <= kid' /\ stays kid own tw own' tw /\ un_syms u' = un_syms u /\
      (tok_key (e_tok ev) = None -> R' = R /\ st' = st /\ own' = own /\ kid' = kid /\ L' = L /\ u' = u) /\
      (tok_key (e_tok ev) <> None -> un_state u' = UNIT_MATCHED /\ (ct <> None -> un_pruned u' = true))).
    { intros u' H1 H2 H3 H4. exists R, st, own, kid, L, u'. split; [exact H4|]. split; [exact Hinv|]. split; [apply kept_app, Hkp|]. split; [lia|]. split; [apply stays_refl|]. split; [exact H1|]. split; [|exact H3].
      intros Hk. auto 10. }
    destruct (tok_key (e_tok ev)) as [k|] eqn:Ek.
    2:{ apply (Hkeep u); auto; [congruence|]. unfold pre. destruct (e_tok ev); try discriminate; reflexivity. }
    set (u1 := started u (e_start ev - 1)).
    assert (Hu1 : un_syms u1 = un_syms u /\ un_pruned u1 = un_pruned u /\ un_state u1 = UNIT_MATCHED) by (unfold u1; split; [|split]; [| |apply started_state]; unfold started; destruct (un_state u =? UNIT_MATCHED); reflexivity).
    destruct Hu1 as (Hy1 & Hp1 & Hs1).
    assert (Ecase : pre ev (W R (map sy l) sh own kid L np rp tw us u) = prune false ct junk k (W R (map sy l) sh own kid L np rp tw us u1) \/
                    (pre ev (W R (map sy l) sh own kid L np rp tw us u) = Ok (W R (map sy l) sh own kid L np rp tw us u1) /\ k_item (QS R own kid L np rp) <> [])).
    { unfold pre. destruct (e_tok ev) eqn:Et; try discriminate; cbn in Ek; injection Ek as <-.
      - left. reflexivity.
      - cbn [ws_qs W]. destruct (k_item (QS R own kid L np rp)) as [|x y]; [left; reflexivity|right; split; [reflexivity|discriminate]]. }
    destruct Ecase as [Epre|[Epre Hit]].
    2:{ apply (Hkeep u1); [exact Hy1|discriminate| |exact Epre]. intros _. split; [exact Hs1|]. intros Hc. destruct (un_pruned u1) eqn:Eu1; [reflexivity|]. exfalso. destruct (Hpr Hc (eq_sym Hp1)) as (_ & _ & Hno).
        pose proof (iv_len _ _ _ _ _ _ _ _ _ _ _ _ _ _ _ Hinv) as HL. rewrite Hno in HL. destruct L as [|s [|? ?]]; try discriminate. apply Hit. reflexivity. }
    unfold tok_ok in Htok. rewrite Ek in Htok. rewrite Epre in *. unfold prune in *.
    destruct ct as [t|] eqn:Ect; [|apply (Hkeep u1); [exact Hy1|discriminate|intros _; split; [exact Hs1|congruence]|reflexivity]].
    destruct (Htok t eq_refl) as [Hlen Hq]. cbn [ws_unit W orb]. cbn [ws_unit W orb] in Hkeep. rewrite Hp1 in *.
    destruct (un_pruned u) eqn:Epr. { apply (Hkeep u1); [exact Hy1|discriminate|auto|reflexivity]. }
    specialize (Hpr ltac:(discriminate) eq_refl). destruct Hpr as (-> & -> & Hno).
    assert (Hcopy : exists nm, match k with CKey n => strcopy MAX_KEY_TEXT n | CArr => Ok [] end = Ok nm).
    { destruct k as [n|]; [|eauto]. unfold strcopy, MAX_KEY_TEXT. replace (100 <? zlen n + 2) with false by lia. eauto. }
    destruct Hcopy as (nm & Ecp). rewrite Ecp in *. cbn [bind] in *.
    destruct (updateStateInfo junk t k) as [[|x q]|] eqn:Eup; try (apply (Hkeep (set_pruned u1)); [exact Hy1|discriminate|auto|reflexivity]). clear Hkeep.
    destruct (Hq _ eq_refl) as [Hnd Hvq]. pose proof (iv_len _ _ _ _ _ _ _ _ _ _ _ _ _ _ _ Hinv) as HL. rewrite Hno in HL. destruct L as [|s [|? ?]]; try discriminate.
    destruct (prune_ok s l bs E own kid np rp tw sh us u1 (x :: q) Hinv Hnd Hvq ltac:(discriminate)) as (Ep & Hinv' & Hst). rewrite Ep. cbn [bind].
    exists (List.length (x :: q)), (sel (x :: q)). eexists _, _, [chosen s (x :: q)], (set_pruned u1). split; [reflexivity|]. split; [exact Hinv'|]. split.
    { right. exists t, E, ev, [], k, (x :: q). split; [exact Ect|]. split; [reflexivity|]. split; [rewrite Hl; exact Hno|]. split; [exact Ek|]. split; [exact Eup|]. repeat (split; [first [reflexivity|assumption]|]). discriminate. }
    split; [lia|]. split; [exact Hst|]. split; [exact Hy1|]. split; [discriminate|]. intros _. split; [exact Hs1|]. auto.
  Qed.

  Lemma nopen_onto l t : tok_key t = None -> nopen l = O -> nopen (onto l t) = O.
  Proof.
    assert (Hd' : forall l, nopen l = O -> nopen (value_done l) = O /\ nopen (tl l) = O) by (intros [|[] l0] H; cbn in *; auto; discriminate).
    intros Ht H. destruct t; try discriminate; cbn [onto]; try exact H; try (apply Hd', H); try (apply Hd'; apply Hd', H).
  Qed.
  Lemma chunk_step bs0 done ev rest w : chunk_inv bs0 done w -> nest D (after bs0 done) (map e_tok (ev :: rest)) -> Forall text_ok (map e_tok (ev :: rest)) -> tok_ok ev ->
    (fol -> followed (after bs0 done) (map e_tok (ev :: rest))) -> (List.length bs0 <= 98)%nat -> Z.of_nat R0 * (zlen done + 2) <= MAX_TUPLE_LIST ->
    exists w', wstep ev rest w = Ok w' /\ chunk_inv bs0 (done ++ [ev]) w'.
  Proof.
    intros (R & st & segs & P & E & l & b0 & us & u & sh & own & kid & L & np & rp & tw & Hdone & -> & Hsh & Hsegs & HP & Hsy & Hin & Hl & Haft & Hkp & Hinv & Hk & Hm & Hpr & Hun & Hus & Hsyms & Htw) Hn Htx Htok Hfol Hb0 Hbig.
    pose proof (kept_le _ _ _ _ Hkp) as HRle. pose proof (kept_pos _ _ _ _ Hkp) as HRpos.
    rewrite Haft in Hn, Hfol. set (bs := after b0 P) in *.
    assert (Hdone' : done ++ [ev] = events_of segs ++ P ++ E ++ [ev]) by (rewrite Hdone, <- !app_assoc; reflexivity).
    assert (Haft' : after bs0 (done ++ [ev]) = onto (l ++ bs) (e_tok ev)) by (rewrite after_app, Haft; reflexivity).
    assert (Hclose : (l = [] /\ (e_tok ev = TRCB \/ e_tok ev = TRB)) \/ (l = [] -> e_tok ev <> TRCB /\ e_tok ev <> TRB)).
    { destruct l; [|right; discriminate]. destruct (e_tok ev); auto; right; intros _; split; discriminate. }
    destruct Hclose as [[El Ht]|Hopen].
    - (* the lowest container ends *)
      rewrite El in *. clear El. cbn [map app] in *. cbn [map nest] in Hn. destruct Hn as (Hne & Ht' & Hn).
      assert (Hcase : (e_tok ev = TRCB /\ hd_error bs = Some OBrace) \/ (e_tok ev = TRB /\ hd_error bs = Some OBracket)) by (destruct Ht as [Et|Et]; rewrite Et in *; auto).
      clear Ht'. destruct Hinv as [Hlv Hg Hc Hlen Hs Hr HA]. cbn [app] in Hs, Hr.
      destruct (onto_closer_shape bs (e_tok ev) Hcase Hs) as (Hk' & Hs' & Hlt).
      assert (Estep : exists usy, sym_of ev = [usy] /\ wstep ev rest (W R [] sh own kid L np rp tw us u) = unmatched (Some (iota R0)) (e_start ev - 1) usy (W R [] sh own kid L np rp tw us u)).
      { unfold worker_step, sym_of. destruct Ht as [-> | ->]; eexists; (split; [reflexivity|]); reflexivity. }
      destruct Estep as (usy & Esy & Estep). rewrite Estep. unfold unmatched. cbn [ws_unit W].
      cbn [nopen filter List.length] in Hlen. destruct L as [|s [|? ?]]; try discriminate.
      destruct (Z.eqb_spec (un_state u) UNIT_MATCHED) as [Eu|Eu].
      + (* a unit is closed *)
        unfold addRoots. cbn [ws_qs k_nodes QS W]. 
        replace (MAX_STATE <? zlen (put (tups_of own kid R) (fl [s]))) with false.
        2:{ rewrite put_zlen. destruct (levels_sizes R st _ _ _ Hlv) as (Hz & _). change (zlen [s]) with 1 in Hz. lia. }
        cbn [bind]. unfold addUnit. cbn [ws_units W]. replace (MAX_UNIT <=? zlen us) with false by (unfold MAX_UNIT, zlen; lia). cbn [bind known].
        assert (Hid : Forall (fun x => x < kid + Z.of_nat R) own) by apply (cs_ids _ _ _ _ Hc).
        rewrite (init_base own (kid + Z.of_nat R) Hid). cbn [bind]. unfold addUnmatchedSymbol. cbn [ws_unit un_syms initUnit ws_ss ws_shadow ws_qs ws_cur ws_tl ws_units W].
        replace (MAX_UNMATCHED_SYMBOL <=? zlen (@nil usym)) with false by reflexivity. cbn [bind app].
        eexists. split; [reflexivity|].
        set (uc := mkUnit (un_syms u) (un_state u) (un_pruned u) (un_start u) (Some (e_start ev - 1)) (put (tups_of own kid R) (fl [s]))).
        exists R0, idz, (segs ++ [(P, E)]), [ev], [], [], bs, (us ++ [uc]). eexists _, [], own, (kid + Z.of_nat R), [base], 0, [], tw.
        assert (Ebs : after bs [ev] = onto bs (e_tok ev)) by reflexivity. rewrite !Ebs.
        split; [rewrite events_snoc, Hdone, <- !app_assoc; reflexivity|]. split; [reflexivity|]. split; [auto|].
        split. { apply segs_snoc with (u := uc) (st := st); auto; [eapply base_roots_ok; exact Hlv|]. intros n c0 c Hf Hrun. apply (tk_tl _ _ _ _ _ _ _ _ _ _ _ _ _ (HA n c (ex_intro _ c0 (conj Hf Hrun)))). }
        split; [constructor; [unfold closer; tauto|constructor]|]. split; [unfold syms_of; cbn [flat_map un_syms]; rewrite Esy; reflexivity|].
        split; [exact I|]. split; [reflexivity|]. split; [exact Haft'|]. split; [left; auto|]. split.
        { apply fresh_inv; [apply (cs_chain _ _ _ _ Hc)|exact Hid|exact Hs'|lia|]. intros n c (c0 & Hf & Hrun). injection Hrun as <-. exact Hf. }
        split; [exact Hk'|]. split; [congruence|]. split; [intros _ _; auto|]. split; [intros _; repeat split; auto|]. unfold syms_of. cbn [flat_map]. rewrite Esy, app_length. cbn [List.length app].
        split; [lia|]. split; [lia|]. rewrite zlen_snoc. nia.
      + (* nothing has happened since the last one *)
        cbn [bind ws_unit W]. destruct (Hun Eu) as (-> & -> & EL & -> & -> & -> & Hid & HE). injection EL as ->.
        unfold addUnmatchedSymbol. replace (MAX_UNMATCHED_SYMBOL <=? zlen (un_syms u)) with false by (rewrite Hsy; unfold MAX_UNMATCHED_SYMBOL, zlen; lia). cbn [bind ws_ss ws_shadow ws_qs ws_cur ws_tl ws_units W].
        eexists. split; [reflexivity|].
        exists R0, idz, segs, (P ++ E ++ [ev]), [], [], b0, us. eexists _, [], own, kid, [base], 0, [], tw.
        assert (HEs : after bs E = bs) by (clear - HE; induction E as [|e E IH]; [reflexivity|]; apply Forall_cons_iff in HE as [H1 H2]; rewrite after_cons, H1; apply IH, H2).
        assert (Ebs : after b0 (P ++ E ++ [ev]) = onto bs (e_tok ev)) by (rewrite !after_app; fold bs; rewrite HEs; reflexivity). rewrite !Ebs.
        assert (HEy : syms_of E = []) by (clear - HE; induction E as [|e E IH]; [reflexivity|]; apply Forall_cons_iff in HE as [H1 H2]; unfold syms_of in *; cbn [flat_map]; unfold sym_of at 1; rewrite H1; apply IH, H2).
        assert (Esy' : syms_of (P ++ E ++ [ev]) = syms_of P ++ [usy]) by (rewrite !syms_app, HEy; unfold syms_of at 2; cbn [flat_map]; rewrite Esy; reflexivity).
        split; [rewrite app_nil_r; exact Hdone'|]. split; [reflexivity|]. split; [auto|]. split; [exact Hsegs|].
        split. { apply Forall_app. split; [exact HP|]. apply Forall_app. split; [eapply Forall_impl; [|exact HE]; intros e He; right; right; exact He|]. constructor; [unfold closer; tauto|constructor]. }
        split; [cbn [un_syms]; rewrite Esy', Hsy; reflexivity|]. split; [exact I|]. split; [reflexivity|]. split; [exact Haft'|]. split; [left; auto|]. split.
        { apply fresh_inv; [apply (cs_chain _ _ _ _ Hc)|exact Hid|exact Hs'|lia|]. intros n c (c0 & Hf & Hrun). injection Hrun as <-. exact Hf. }
        split; [exact Hk'|]. split; [congruence|]. split; [intros _ _; auto|]. split; [intros _; repeat split; auto|]. rewrite Esy', app_length. cbn [List.length].
        split; [lia|]. split; [lia|]. rewrite zlen_snoc. nia.
    - (* everything else *)
      assert (Hne : bs <> []).
      { destruct l as [|o l']; [|apply Hm; discriminate]. intros E0. cbn [app] in Hn. rewrite E0 in Hn. cbn [map nest] in Hn. tauto. }
      destruct (pre_ok ev R st l bs E own kid L np rp tw sh us u Hinv Hkp Hl Hpr Htok) as (R1 & st1 & own1 & kid1 & L1 & u1 & Epre & Hinv1 & Hkp1 & Hkid & Hstay & Hsy1 & Hsame & Hkey).
      rewrite pre_step, Epre. cbn [bind].
      pose proof (kept_le _ _ _ _ Hkp1) as HRle1. pose proof (kept_pos _ _ _ _ Hkp1) as HRpos1.
      assert (Hmu : l <> [] -> un_state u1 = UNIT_MATCHED).
      { intros H. destruct (tok_key (e_tok ev)) eqn:Ek; [apply Hkey; discriminate|]. destruct (Hsame eq_refl) as (_ & _ & _ & _ & _ & ->). apply Hm, H. }
      destruct (inner_step d Hd Hkind D HD buf fol R1 st1 HRpos1 ltac:(nia) junk ev rest l bs _ own1 kid1 L1 np rp tw us u1 sh Hinv1 Hn Hk Hne Htx Hmu Hopen Hsh) as (sh' & own' & L' & np' & rp' & tw' & u' & Ew & Hsh' & Hinv' & Hgr & Htw' & Hu').
      { nia. }
      { exact Hfol. }
      pose proof (onto_app l bs (e_tok ev) Hk Hopen) as Eonto.
      assert (HinE : inner [] (map e_tok (E ++ [ev]))) by (rewrite map_app; apply inner_snoc; [exact Hin|rewrite Hl; exact Hopen]).
      assert (HlE : after [] (E ++ [ev]) = onto l (e_tok ev)) by (rewrite after_app, Hl; reflexivity).
      assert (HA : forall R st n c, runs R st bs (E ++ [ev]) n c -> next_runs d buf (runs R st bs E) ev n c).
      { intros R2 st2 n c (c0 & Hf & Hrun). apply run_snoc in Hrun as (c1 & H1 & H2). exists c1. split; [exists c0; auto|exact H2]. }
      assert (Hlen : List.length own1 = List.length tw) by apply (ch_len _ _ (cs_chain _ _ _ _ (iv_ch _ _ _ _ _ _ _ _ _ _ _ _ _ _ _ Hinv1))).
      destruct Hu' as (Hsy' & Hpr' & Hst').
      destruct (Z.eq_dec (un_state u') UNIT_MATCHED) as [Eu'|Eu'].
      + exists (W R1 (map sy (onto l (e_tok ev))) sh' own' kid1 L' np' rp' tw' us u'). split; [exact Ew|].
        exists R1, st1, segs, P, (E ++ [ev]), (onto l (e_tok ev)), b0, us, u', sh', own', kid1, L', np', rp', tw'. fold bs.
        split; [exact Hdone'|]. split; [reflexivity|]. split; [exact Hsh'|]. split.
        { eapply segs_stays; [eapply grown_stays; eassumption|]. apply (segs_weak _ _ _ _ _ _ _ kid); [|exact Hkid]. eapply segs_stays; [exact Hstay|exact Hsegs]. }
        split; [exact HP|]. split; [congruence|].
        split; [exact HinE|]. split; [exact HlE|]. split; [congruence|]. split; [exact Hkp1|]. split; [eapply inv_weak; [exact Hinv'|apply HA]|]. split; [exact Hk|]. split; [auto|]. split.
        { intros Hc Hp. destruct (tok_key (e_tok ev)) as [k|] eqn:Ek.
          - destruct (Hkey ltac:(discriminate)) as [_ Hk1]. rewrite Hpr', (Hk1 Hc) in Hp. discriminate.
          - destruct (Hsame eq_refl) as (-> & -> & _ & _ & _ & ->). rewrite Hpr' in Hp. destruct (Hpr Hc Hp) as (-> & -> & Hno). split; [reflexivity|]. split; [reflexivity|]. apply nopen_onto; assumption. }
        split; [congruence|]. split; [exact Hus|]. split; [exact Hsyms|]. rewrite zlen_snoc. nia.
      + (* a comma *)
        destruct Hst' as [Hst'|[Et ->]]; [congruence|]. rewrite Et in *. destruct (Hsame eq_refl) as (-> & -> & -> & -> & -> & ->).
        exists (W R (map sy l) sh own kid L np rp tw us u). split; [unfold worker_step; rewrite Et; reflexivity|].
        exists R, st, segs, P, (E ++ [ev]), l, b0, us, u, sh, own, kid, L, np, rp, tw. fold bs. cbn [onto] in *.
        split; [exact Hdone'|]. split; [reflexivity|]. split; [exact Hsh|]. split; [exact Hsegs|]. split; [exact HP|]. split; [exact Hsy|].
        split; [exact HinE|]. split; [exact HlE|]. split; [congruence|]. split; [exact Hkp1|]. split.
        { eapply inv_weak; [exact Hinv|]. intros n c Hnc. destruct (HA _ _ n c Hnc) as (c1 & H1 & H2). unfold core_step in H2. rewrite Et in H2. injection H2 as <-. exact H1. }
        split; [exact Hk|]. split; [auto|]. split; [exact Hpr|]. split.
        { intros _. destruct (Hun Eu') as (G0 & G0' & G1 & G2 & G3 & G4 & G5 & G6). repeat (split; [assumption|]). apply Forall_app. split; [exact G6|]. constructor; [exact Et|constructor]. }
        split; [exact Hus|]. split; [exact Hsyms|]. rewrite zlen_snoc. nia.
  Qed.

  (** * A whole chunk *)
  Lemma chunk_loop bs0 : (List.length bs0 <= 98)%nat -> forall evs done w, chunk_inv bs0 done w -> nest D (after bs0 done) (map e_tok evs) -> Forall text_ok (map e_tok evs) -> Forall tok_ok evs ->
    (fol -> followed (after bs0 done) (map e_tok evs)) -> Z.of_nat R0 * (zlen done + zlen evs + 1) <= MAX_TUPLE_LIST ->
    exists w', worker_loop d false (Some (iota R0)) ct junk buf evs w = Ok w' /\ chunk_inv bs0 (done ++ evs) w'.
  Proof.
    intros Hb0. induction evs as [|ev evs IH]; intros done w Hi Hn Ht Hto Hfo Hm.
    - exists w. rewrite app_nil_r. split; [reflexivity|exact Hi].
    - rewrite zlen_cons in Hm. pose proof (zlen_nonneg evs) as H0. apply Forall_cons_iff in Hto as [Hto1 Hto2]. destruct (chunk_step bs0 done ev evs w Hi Hn Ht Hto1 Hfo Hb0) as (w1 & E1 & Hi1); [nia|].
      cbn [worker_loop]. rewrite E1. cbn [bind]. destruct (IH (done ++ [ev]) w1 Hi1) as (w2 & E2 & Hi2).
      + rewrite after_app. cbn [map nest] in Hn. apply Hn.
      + cbn [map] in Ht. apply Forall_cons_iff in Ht. apply Ht.
      + exact Hto2.
      + rewrite after_app. intros Hf. apply (Hfo Hf).
      + rewrite zlen_snoc. lia.
      + exists w2. split; [exact E2|]. rewrite <- app_assoc in Hi2. exact Hi2.
  Qed.
  Lemma chunk_start bs0 ju : shape bs0 -> (List.length bs0 <= D)%nat -> hd_error bs0 <> Some OKey ->
    chunk_inv bs0 [] (let '(q, cur) := initQueryStacks (iota R0) in mkW [] [] q cur [] [] (initUnit ju)).
  Proof.
    intros Hs Hl Hk. rewrite (init_base [] 0) by constructor. exists R0, idz, [], [], [], [], bs0, [], (initUnit ju), [], [], 0, [base], 0, [], []. cbn [after map fold_left app events_of flat_map].
    repeat (split; [try reflexivity; auto|]); try (cbn; lia).
    - left. auto.
    - apply fresh_inv; auto. { split; [reflexivity|]. intros id. exact I. } intros n c (c0 & Hf & Hrun). injection Hrun as <-. exact Hf.
    - congruence.
    - intros _. repeat split; auto.
    - constructor.
  Qed.

  Lemma levels_last R st : forall L np rp, levels R st L np rp -> exists L1 s, L = L1 ++ [s] /\ levels R st [s] 0 [].
  Proof.
    induction L as [|s L IH]; intros np rp H; [destruct H|]. destruct L as [|s2 L].
    - exists [], s. split; [reflexivity|]. pose proof H as (_ & _ & _ & -> & -> & _). exact H.
    - destruct (levels_tail R st _ _ _ _ _ H) as (np' & rp' & _ & H'). destruct (IH _ _ H') as (L1 & s' & E & Hs'). exists (s :: L1), s'. rewrite E. auto.
  Qed.
  Lemma itm_last : forall L1 s x, last (itm (L1 ++ [s])) x = rng [s].
  Proof.
    induction L1 as [|t L1 IH]; intros s x; [reflexivity|]. cbn [app itm]. assert (H : itm (L1 ++ [s]) <> []) by (destruct L1; discriminate).
    specialize (IH s x). destruct (itm (L1 ++ [s])) as [|y l]; [congruence|]. exact IH.
  Qed.
  Lemma lowest_rng L1 s : last (itm (tl (L1 ++ [s]))) (rng (L1 ++ [s])) = rng [s].
  Proof.
    destruct L1 as [|t L1]; [reflexivity|]. cbn [app tl]. apply itm_last.
  Qed.
  Lemma fl_last : forall L1 s, exists rest, fl (L1 ++ [s]) = map fst s ++ rest.
  Proof.
    induction L1 as [|t L1 IH]; intros s; cbn [app fl]; [exists []; rewrite app_nil_r; reflexivity|]. destruct (IH s) as (rest & E). rewrite E, <- app_assoc. eexists. reflexivity.
  Qed.
  Lemma base_len R st s np rp : levels R st [s] np rp -> List.length s = R.
  Proof. intros (_ & _ & _ & _ & _ & H). apply (f_equal (@List.length _)) in H. rewrite !map_length, iota_length in H. exact H. Qed.

  (** What a worker leaves after a chunk. *)
  Definition chunk_result (bs0 : list opened) (evs : list event) (w : worker) : Prop := exists R st segs P E l b0 us uf own kid L np rp,
    evs = events_of segs ++ P ++ E /\ wa_units w = us ++ [uf] /\ wa_ss w = map sy l /\ wa_qs w = QS R own kid L np rp /\ wa_cur w = rng L /\ chain_ok own (wa_tl w) /\
    segs_ok own (wa_tl w) 0 bs0 segs us b0 kid /\ Forall closer P /\ un_syms uf = syms_of P /\ roots_ok R st own kid (un_roots uf) /\ kept0 E R st /\
    inner [] (map e_tok E) /\ after [] E = l /\ after bs0 evs = l ++ after b0 P /\
    inv R st l (after b0 P) (runs R st (after b0 P) E) own kid L np rp (wa_tl w).

  Lemma chunk_end bs0 evs w : (List.length bs0 <= 98)%nat -> chunk_inv bs0 evs w ->
    exists ul, last_unit buf w = Ok ul /\ chunk_result bs0 evs (mkWorker (ws_ss w) (ws_qs w) (ws_cur w) ul (ws_tl w)).
  Proof.
    intros Hb0 (R & st & segs & P & E & l & b0 & us & u & sh & own & kid & L & np & rp & tw & Hdone & -> & Hsh & Hsegs & HP & Hsy & Hin & Hl & Haft & Hkp & Hinv & Hk & Hm & Hpr & Hun & Hus & Hsyms & Htw). pose proof (kept_le _ _ _ _ Hkp) as HRle.
    pose proof Hinv as [Hlv Hg Hc Hlen Hs Hr HA]. destruct (levels_last _ _ _ _ _ Hlv) as (L1 & s & EL & Hlv0). pose proof (base_len _ _ _ _ _ Hlv0) as Hsl.
    unfold last_unit. cbn [ws_qs ws_cur W QS k_item k_nodes]. rewrite EL. rewrite lowest_rng. destruct (fl_last L1 s) as (rest & Efl). rewrite Efl.
    rewrite put_app_l by (rewrite tups_length, map_length, Hsl; lia).
    unfold rng. cbn [fl fst snd]. change (zlen (@nil tnode)) with 0.
    pose proof (mapM_slice [] (put (tups_of own kid R) (map fst s)) rest) as Hslice. cbn [app] in Hslice. rewrite put_zlen in Hslice. change (zlen (@nil tnode)) with 0 in Hslice.
    replace (zlen (map fst s)) with (zlen s) in Hslice by (unfold zlen; rewrite map_length; reflexivity). rewrite Hslice. cbn [bind].
    unfold addRoots. cbn [ws_unit W]. replace (MAX_STATE <? zlen (put (tups_of own kid R) (map fst s))) with false.
    2:{ rewrite put_zlen. unfold zlen. rewrite map_length, Hsl. lia. }
    cbn [bind]. unfold addUnit. cbn [ws_units W]. replace (MAX_UNIT <=? zlen us) with false by (unfold MAX_UNIT, zlen; lia). cbn [bind].
    eexists. split; [reflexivity|]. exists R, st, segs, P, E, l, b0, us. eexists. exists own, kid, L, np, rp. cbn [wa_units wa_ss wa_qs wa_cur wa_tl ws_ss ws_qs ws_cur ws_tl W]. rewrite <- EL.
    split; [exact Hdone|]. split; [reflexivity|]. repeat (split; [reflexivity|]). split; [apply (cs_chain _ _ _ _ Hc)|]. split; [exact Hsegs|]. split; [exact HP|]. split; [exact Hsy|].
    split; [apply (base_roots_ok R st own kid s 0 []); exact Hlv0|]. auto.
  Qed.
End Units.

(** A thread that starts in all states. *)
Theorem chunk_exec d (fol : Prop) D text bs0 ct junk ju evs : dfa_ok d ->
  (forall a, In a (d_accept d) -> 0 <= a <= 3) -> (D <= 98)%nat -> nstates d * (Z.of_nat D + 2) <= MAX_NODE -> nstates d <= MAX_STATE ->
  lex_all text = Ok evs -> nest D bs0 (map e_tok evs) -> Forall text_ok (map e_tok evs) -> Forall (tok_ok d junk ct) evs -> shape bs0 -> (List.length bs0 <= D)%nat -> hd_error bs0 <> Some OKey ->
  (fol -> followed bs0 (map e_tok evs)) -> nstates d * (zlen evs + 1) <= MAX_TUPLE_LIST ->
  exists w, executeWorkerAutomaton d Speculate ct junk ju text [] = Ok w /\ chunk_result d D (c_string text) junk ct fol bs0 evs w.
Proof.
  intros Hd Hkind HD Hsize HR Hl Hn Ht Hto Hs Hlen Hk Hfo Hm. rewrite <- (R_states d Hd) in *.
  unfold executeWorkerAutomaton. fold (iota (List.length (d_accept d))).
  replace (MAX_STATE <? zlen (iota (List.length (d_accept d)))) with false by (unfold zlen; rewrite iota_length; lia).
  pose proof (chunk_start d Hd Hkind D HD Hsize (c_string text) junk ct fol bs0 ju Hs Hlen Hk) as H0.
  destruct (initQueryStacks (iota (List.length (d_accept d)))) as [q cur]. rewrite Hl. cbn [bind].
  destruct (chunk_loop d Hd Hkind D HD Hsize (c_string text) junk ct fol HR bs0 ltac:(lia) evs [] _ H0 Hn Ht Hto Hfo) as (w & E & Hi); [change (zlen (@nil event)) with 0; lia|].
  rewrite E. cbn [bind]. destruct (chunk_end d Hd D HD (c_string text) junk ct fol HR bs0 evs w ltac:(lia) Hi) as (ul & Eu & Hres). rewrite Eu. cbn [bind]. eexists. split; [reflexivity|exact Hres].
Qed.
