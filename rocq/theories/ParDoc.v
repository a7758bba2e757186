(** A parallel run on a document does what the serial run does. *)
From Verif Require Import Base Spec PosSpec QueryClass Claims ParSpec Util Lexer LexProof LexDoc LexMain LexSpec LexClaim Flat CutSpec Cut Loader LoaderProof Dfa Constraint Stream TreeSem TreeInv Pieces PieceRun PieceDoc.
From Verif Require Import Compress Num FilterSpec Builder Eval Filter Run AutoProof BuilderProof Roles Compiled TreeSel SelProof FilterProof SelFilter EndToEnd ClaimProof LoadClaim Trunc AnyQuery.
From Verif Require Import TrainSpec Worker Chains WorkRep Shared Merge MalSpec NestSpec Single SingleRun Specul Pruned Units ReportSpec Report Steps MergeProof ParCalm.
Open Scope Z_scope.

(** * The automaton of the query *)
Section Query.
  Variable q : query.
  Variables (d : dfa) (x : qctx) (st : list label -> Z).
  Hypothesis Hrbd : restricted_before_desc false q = true.
  Hypothesis Hslice : forallb slice_ok q = true.
  Hypothesis Hend : end_ok q = true.
  Hypothesis Hne : forall f, In f (query_fields q) -> f <> [].
  Hypothesis Hcp : compiled q d x st.

  Lemma zero_out : acc d 0 = 0.
  Proof. clear Hrbd Hslice Hend Hne. unfold acc. rewrite (cp_accept0 _ _ _ _ Hcp). reflexivity. Qed.
  Lemma zero_succ inp : succ d inp 0 = 0.
  Proof. clear Hrbd Hslice Hend Hne. unfold succ. rewrite (cp_next0 _ _ _ _ Hcp). reflexivity. Qed.
  Lemma zero_free : Specul.free d 0.
  Proof. clear Hrbd Hslice Hend Hne. exact (cp_range0 _ _ _ _ Hcp). Qed.

  Notation es := (es q st).
  (** Elements of an array. *)
  Lemma restricted_pre w i j s : alive q (w ++ [LIdx i]) = true -> nth_error q j = Some s -> restr s = true -> st_match (Roles.pre q j) (w ++ [LIdx i]) = true -> exists q1 q2, q = q1 ++ s :: q2 /\ lsel q1 w = true.
  Proof.
    intros Ha Hj Hs Hm. rewrite (alive_snoc q Hrbd Hslice Hend) in Ha.
    destruct (nth_error_split _ _ Hj) as (q1 & q2 & E & L). exists q1, q2. split; [exact E|].
    assert (E1 : firstn j q = q1) by (rewrite E, <- L, firstn_app, Nat.sub_diag, firstn_all, app_nil_r; reflexivity).
    assert (E2 : firstn (S j) q = q1 ++ [s]).
    { rewrite E, <- L. replace (S (List.length q1)) with (List.length q1 + 1)%nat by lia. rewrite firstn_app_2. reflexivity. }
    pose proof (rbd_prefix q j _ Hrbd Hj Hs) as Hnd. rewrite E2 in Hnd. rewrite forallb_app in Hnd. apply andb_true_iff in Hnd as [Hnd _].
    assert (Hjl : (j <= List.length q)%nat) by (rewrite E, app_length; lia).
    assert (Hst : st_match (stack_of q1) w = true).
    { destruct (match_pre q Hrbd Hend j _ _ Hj Hs Hm) as (G1 & _). rewrite app_length in G1. cbn [List.length] in G1.
      unfold Roles.pre in Hm. rewrite E2, stack_of_app, (st_match_app _ _ _ (nodesc_stack _ Hnd)) in Hm. apply andb_true_iff in Hm as [Hm1 Hm2].
      assert (Hq1 : List.length (stack_of q1) = List.length w).
      { rewrite (stack_len q1); [clear - G1 L; lia|]. intros s' Hs'. apply (Hni q Hrbd). rewrite E. apply in_or_app. auto. }
      rewrite Hq1, firstn_app, Nat.sub_diag, firstn_all, firstn_O, app_nil_r in Hm1. exact Hm1. }
    assert (Hr1 : restricted_before_desc false q1 = true) by (rewrite <- E1; apply rbd_firstn, Hrbd).
    rewrite (lsel_split w q1 Hr1), Hst. cbn [andb].
    pose proof (allok_sl q Hrbd Hslice Hend Hne j w) as G. rewrite E1 in G. rewrite <- (G (or_intror Hnd) Hjl Hst). exact Ha.
  Qed.
  (** The state of a node. *)
  Lemma free_dead w : alive q w = false -> freeb d (es w) = true /\ acc d (es w) = 0.
  Proof.
    clear Hrbd Hslice Hend Hne. intros Ha. unfold TreeSel.es. rewrite Ha, zero_out. split; [|reflexivity]. unfold freeb. pose proof (cp_range0 _ _ _ _ Hcp) as Hr. unfold getDFAArrayIndex in Hr. rewrite Hr. auto.
  Qed.
  Lemma free_alive w : alive q w = true -> freeb d (es w) = (let '(lo, hi) := Compiled.range_of q (cls q w) in (lo =? 0) && (hi =? 0)) /\ acc d (es w) = accept_of q (cls q w).
  Proof.
    clear Hrbd Hslice Hend Hne. intros Ha. unfold TreeSel.es, acc, freeb. rewrite Ha, (cp_accept _ _ _ _ Hcp). pose proof (cp_range _ _ _ _ Hcp w) as Hr. unfold getDFAArrayIndex in Hr. rewrite Hr. cbn [get]. auto.
  Qed.
  Lemma item_state w i : outb d (es (w ++ [LIdx i])) = true \/ freeb d (es (w ++ [LIdx i])) = false -> lsel q (w ++ [LIdx i]) = true \/ sliced q w.
  Proof.
    unfold outb. destruct (alive q (w ++ [LIdx i])) eqn:Ea.
    - destruct (free_alive _ Ea) as [-> ->].
      pose proof (kd_out q Hrbd Hslice Hend Hne (w ++ [LIdx i])) as Hk. unfold kd, rok in Hk. rewrite Ea in Hk.
      destruct (cls q (w ++ [LIdx i])) as [[j|j|j f|]|] eqn:Ec; try (cbn; intros [H|H]; discriminate).
      + intros _. right. apply (rs_role q Hrbd Hslice Hend Hne) in Ec as (lo & hi & Hj & Hm).
        destruct (restricted_pre _ _ _ _ Ea Hj eq_refl Hm) as (q1 & q2 & H). exists q1, lo, hi, q2. exact H.
      + intros _. left. rewrite <- Hk. reflexivity.
    - destruct (free_dead _ Ea) as [-> ->]. intros [H|H]; discriminate.
  Qed.
  Lemma item_cond w i : acc d (es (w ++ [LIdx i])) <> DFA_CONDITION.
  Proof.
    destruct (alive q (w ++ [LIdx i])) eqn:Ea.
    - rewrite (proj2 (free_alive _ Ea)). unfold accept_of. destruct (cls q (w ++ [LIdx i])) as [[j|j|j f|]|] eqn:Ec; try (destruct (is_out q _)); try discriminate. intros _.
      apply (rc_role q Hrbd Hend Hne) in Ec as (e & u & Hj & Hf & E & _).
      destruct (keys_last u f (Hne f (field_in q _ _ _ Hj Hf))) as (w'' & E''). rewrite E'' in E. apply app_inj_tail in E. destruct E. discriminate.
    - rewrite (proj2 (free_dead _ Ea)). discriminate.
  Qed.
  Lemma item_filter w i : acc d (es (w ++ [LIdx i])) = DFA_PREDICATE -> filtered q w.
  Proof.
    destruct (alive q (w ++ [LIdx i])) eqn:Ea.
    - rewrite (proj2 (free_alive _ Ea)). unfold accept_of. destruct (cls q (w ++ [LIdx i])) as [[j|j|j f|]|] eqn:Ec; try (destruct (is_out q _)); try discriminate. intros _.
      apply (rp_role q Hrbd Hslice Hend Hne) in Ec as (e & Hj & Hm). destruct (restricted_pre _ _ _ _ Ea Hj eq_refl Hm) as (q1 & q2 & H). exists q1, e, q2. exact H.
    - rewrite (proj2 (free_dead _ Ea)). discriminate.
  Qed.
  (** Values of members. *)
  Lemma key_free w k : freeb d (es (w ++ [LKey k])) = true.
  Proof.
    destruct (alive q (w ++ [LKey k])) eqn:Ea; [|apply (free_dead _ Ea)]. rewrite (proj1 (free_alive _ Ea)).
    destruct (cls q (w ++ [LKey k])) as [[j|j|j f|]|] eqn:Ec; try reflexivity.
    exfalso. apply (rs_role q Hrbd Hslice Hend Hne) in Ec as (lo & hi & Hj & Hm). destruct (match_pre q Hrbd Hend j _ _ Hj eq_refl Hm) as (_ & w' & i & E).
    apply app_inj_tail in E. destruct E. discriminate.
  Qed.
  Lemma root_free : freeb d (es []) = true.
  Proof.
    destruct (alive q []) eqn:Ea; [|apply (free_dead _ Ea)]. rewrite (proj1 (free_alive _ Ea)).
    destruct (cls q []) as [[j|j|j f|]|] eqn:Ec; try reflexivity.
    exfalso. apply (rs_role q Hrbd Hslice Hend Hne) in Ec as (lo & hi & Hj & Hm). destruct (match_pre q Hrbd Hend j _ _ Hj eq_refl Hm) as (_ & w' & i & E). destruct w'; discriminate.
  Qed.

  Variables (ks : list Z) (n0 : Z).
  Definition items_apart (l : list (path * Z * json)) : Prop :=
    forall p o v, In (p, o, v) l -> small (labels p) /\
      forall b el, v = JArr b el -> forall k, In k ks -> straddles k o v -> lsel q (labels p ++ [LIdx 0]) = false /\ ~ sliced q (labels p) /\ (filtered q (labels p) -> o < n0).
  Lemma items_app a b : items_apart (a ++ b) -> items_apart a /\ items_apart b.
  Proof. unfold items_apart. intros H. split; intros p o v Hin; apply H, in_or_app; auto. Qed.
  Lemma ar_all :
    (forall v p o, items_apart (located p o v) -> ar_val d ks n0 (es (labels p)) (ix (labels p)) o v) /\
    (forall ms p o, small (labels p) -> items_apart (located_ms p o ms) -> ar_ms d ks n0 (es (labels p)) (ix (labels p)) o ms) /\
    (forall el p i o, small (labels p) -> items_apart (located_es p i o el) -> ar_es d ks n0 (es (labels p ++ [LIdx 0])) (Z.of_nat i) o el).
  Proof.
    apply json_all_ind.
    - intros. exact I.
    - intros. exact I.
    - intros w ms IH p o H. cbn [located] in H. pose proof H as H0. apply items_app in H as [H _]. cbn [ar_val]. apply IH; [|exact H].
      apply (H0 p o (JObj w ms)). apply in_or_app; right; left; reflexivity.
    - intros w el IH p o H. cbn [located] in H. destruct (H p o (JArr w el)) as [Hs H0]; [apply in_or_app; right; left; reflexivity|]. apply items_app in H as [H _].
      cbn [ar_val]. change (@None bytes) with (linput (LIdx 0)). rewrite (nx_es q d x st Hrbd Hslice Hend Hne Hcp _ _ Hs).
      assert (Hk : forall k, In k ks -> o + 1 <= k < o + zlen (text (JArr w el)) -> _) by (intros k Hk Hr; refine (H0 w el eq_refl k Hk _); unfold straddles; lia).
      split; [|split; [apply item_cond|split; [|apply (IH p O); assumption]]].
      + intros Hsel k Hin Hr. destruct (Hk k Hin Hr) as (K1 & K2 & _). destruct (item_state _ _ Hsel) as [E|E]; [congruence|contradiction].
      + intros Hp. destruct (Z_lt_dec o n0) as [Ho|Ho]; [left; lia|right]. intros k Hin Hr. destruct (Hk k Hin Hr) as (_ & _ & K). exact (Ho (K (item_filter _ _ Hp))).
    - intros. exact I.
    - intros pd k v IHv ms IHms p o Hs H. cbn [located_ms] in H. apply items_app in H as [H1 H2]. cbn [ar_ms].
      change (Some k) with (linput (LKey k)). rewrite (nx_es q d x st Hrbd Hslice Hend Hne Hcp _ _ Hs). split; [apply key_free|]. split.
      + specialize (IHv _ _ H1). rewrite labels_snoc in IHv. unfold ix in IHv. rewrite last_idx_key in IHv. exact IHv.
      + apply IHms; assumption.
    - intros. exact I.
    - intros wb v IHv wa el IHel p i o Hs H. cbn [located_es] in H. apply items_app in H as [H1 H2]. cbn [ar_es]. split.
      + specialize (IHv _ _ H1). rewrite labels_snoc, (es_idx q d x st Hrbd Hslice Hend Hcp) in IHv. unfold ix in IHv. rewrite last_idx_idx in IHv. exact IHv.
      + replace (Z.of_nat i + 1) with (Z.of_nat (S i)) by lia. apply IHel; assumption.
  Qed.
End Query.

(** Queries that end in a name select no elements of arrays. *)
Lemma lsel_item : forall w q0, ends_in_name q0 = true -> lsel q0 (w ++ [LIdx 0]) = false.
Proof.
  assert (Hc : forall s q0, q0 <> [] -> ends_in_name (s :: q0) = ends_in_name q0) by (intros s [|s0 q0] H; [congruence|reflexivity]).
  assert (Hnil : forall w l q0, q0 = [] -> lsel q0 (w ++ [l]) = false) by (intros w l q0 ->; destruct w; reflexivity).
  intros w. induction w as [|l w IH]; intros q0 He.
  - destruct q0 as [|s q0]; [reflexivity|]. destruct q0 as [|s0 q0]; [destruct s; try discriminate; reflexivity|].
    cbn [app lsel]. destruct s; try rewrite !andb_false_r; try reflexivity.
  - destruct q0 as [|s q0]; [reflexivity|]. cbn [app lsel].
    assert (H1 : lsel q0 (w ++ [LIdx 0]) = false).
    { destruct q0 as [|s0 q0]; [apply Hnil; reflexivity|]. apply IH. rewrite <- (Hc s) by discriminate. exact He. }
    pose proof (IH (s :: q0) He) as H2. destruct s; rewrite ?H1, ?H2, ?andb_false_r; reflexivity.
Qed.

(** * The tokens of a document *)
(** As [nest]; moreover a comma never follows a key. *)
Fixpoint tidy (D : nat) (l : list opened) (ts : list token) : Prop :=
  match ts with
  | [] => True
  | t :: ts' => l <> [] /\ okt D l t /\ (t = TCOM -> hd_error l <> Some OKey) /\ tidy D (onto l t) ts'
  end.
Lemma tidy_nest D : forall ts l, tidy D l ts -> nest D l ts.
Proof. induction ts as [|t ts IH]; intros l H; [exact I|]. destruct H as (H1 & H2 & _ & H3). cbn [nest]. split; [exact H1|]. split; [destruct t; exact H2|]. apply IH, H3. Qed.
Lemma tidy_app D : forall a l b, tidy D l (a ++ b) <-> tidy D l a /\ tidy D (fold_left onto a l) b.
Proof. induction a as [|t a IH]; intros l b; cbn [app tidy fold_left]; [tauto|]. rewrite IH. tauto. Qed.
Lemma value_here_ne l : l <> [] -> value_here l = true -> hd_error l = Some OKey \/ hd_error l = Some OBracket.
Proof. destruct l as [|[] l]; cbn; try discriminate; auto. congruence. Qed.
Lemma tidy_all D :
  (forall v l ts, l <> [] -> value_here l = true -> (List.length l + depth v <= D)%nat -> tidy D (value_done l) ts -> tidy D l (tok_val v ++ ts)) /\
  (forall ms l ts, (S (List.length l) + depth_ms ms <= D)%nat -> tidy D (OBrace :: l) ts -> tidy D (OBrace :: l) (tok_ms ms ++ ts)) /\
  (forall es l ts, (S (List.length l) + depth_es es <= D)%nat -> tidy D (OBracket :: l) ts -> tidy D (OBracket :: l) (tok_es es ++ ts)).
Proof.
  apply json_all_ind; cbn [tok_val tok_ms tok_es depth depth_ms depth_es].
  - intros s l ts Hl Hv _ H. cbn [app tidy okt]. repeat split; auto. discriminate.
  - intros s l ts Hl Hv _ H. cbn [app tidy okt]. repeat split; auto. discriminate.
  - intros w ms IH l ts Hl Hv HD H. cbn [app tidy okt]. repeat split; auto; [lia|discriminate|]. cbn [onto]. rewrite <- app_assoc. apply IH; [lia|].
    cbn [app tidy okt hd_error onto tl]. repeat split; auto; discriminate.
  - intros w es IH l ts Hl Hv HD H. cbn [app tidy okt]. repeat split; auto; [lia|discriminate|]. cbn [onto]. rewrite <- app_assoc. apply IH; [lia|].
    cbn [app tidy okt hd_error onto tl]. repeat split; auto; discriminate.
  - auto.
  - intros w k v IHv ms IHm l ts HD H. cbn [app tidy okt value_here List.length]. repeat split; auto; try discriminate; [lia|]. cbn [onto]. rewrite <- app_assoc.
    apply IHv; [discriminate|reflexivity|cbn [List.length]; lia|]. cbn [value_done]. destruct ms as [|w2 k2 v2 ms]; [exact H|].
    split; [discriminate|]. split; [exact I|]. split; [discriminate|]. cbn [onto]. apply (IHm l ts); [lia|exact H].
  - auto.
  - intros w v IHv wa es IHe l ts HD H. rewrite <- app_assoc. apply IHv; [discriminate|reflexivity|cbn [List.length]; lia|]. cbn [value_done]. destruct es as [|w2 v2 w3 es]; [exact H|].
    split; [discriminate|]. split; [exact I|]. split; [discriminate|]. cbn [onto]. apply (IHe l ts); [lia|exact H].
Qed.
Lemma tidy_doc v : is_container v = true -> exists t ts, tok_val v = t :: ts /\ okt (depth v) [] t /\ tidy (depth v) (onto [] t) ts /\ (t = TLCB \/ t = TLB).
Proof.
  destruct v as [| |w ms|w es]; try discriminate; intros _; cbn [tok_val].
  - exists TLCB, (tok_ms ms ++ [TRCB]). split; [reflexivity|]. cbn [okt onto]. split; [split; [reflexivity|cbn; lia]|]. split; [|auto].
    apply (proj1 (proj2 (tidy_all _))); [cbn; lia|]. cbn. repeat split; auto; discriminate.
  - exists TLB, (tok_es es ++ [TRB]). split; [reflexivity|]. cbn [okt onto]. split; [split; [reflexivity|cbn; lia]|]. split; [|auto].
    apply (proj2 (proj2 (tidy_all _))); [cbn; lia|]. cbn. repeat split; auto; discriminate.
Qed.
Lemma done_all :
  (forall v l, value_here l = true -> fold_left onto (tok_val v) l = value_done l) /\
  (forall ms l, fold_left onto (tok_ms ms) (OBrace :: l) = OBrace :: l) /\
  (forall es l, fold_left onto (tok_es es) (OBracket :: l) = OBracket :: l).
Proof.
  apply json_all_ind; cbn [tok_val tok_ms tok_es]; auto.
  - intros w ms IH l Hv. cbn [fold_left onto]. rewrite fold_left_app, IH. reflexivity.
  - intros w es IH l Hv. cbn [fold_left onto]. rewrite fold_left_app, IH. reflexivity.
  - intros w k v IHv ms IHm l. cbn [fold_left onto]. rewrite fold_left_app, IHv by reflexivity. cbn [value_done]. destruct ms; [reflexivity|]. cbn [fold_left onto]. apply IHm.
  - intros w v IHv wa es IHe l. rewrite fold_left_app, IHv by reflexivity. cbn [value_done]. destruct es; [reflexivity|]. cbn [fold_left onto]. apply IHe.
Qed.
Lemma short_all :
  (forall v, short_texts v = true -> Forall text_ok (tok_val v)) /\
  (forall ms, short_ms ms = true -> Forall text_ok (tok_ms ms)) /\
  (forall es, short_es es = true -> Forall text_ok (tok_es es)).
Proof.
  apply json_all_ind; cbn [tok_val tok_ms tok_es short_texts short_ms short_es].
  - intros s H. constructor; [cbn [text_ok text] in *; lia|constructor].
  - intros s H. constructor; [cbn [text_ok text] in *; lia|constructor].
  - intros w ms IH H. constructor; [exact I|]. apply Forall_app. split; [auto|]. constructor; [exact I|constructor].
  - intros w es IH H. constructor; [exact I|]. apply Forall_app. split; [auto|]. constructor; [exact I|constructor].
  - constructor.
  - intros w k v IHv ms IHm H. apply andb_true_iff in H as [H H3]. apply andb_true_iff in H as [H1 H2]. constructor; [cbn; lia|]. apply Forall_app. split; [auto|].
    destruct ms; [constructor|]. constructor; [exact I|]. auto.
  - constructor.
  - intros w v IHv wa es IHe H. apply andb_true_iff in H as [H1 H2]. apply Forall_app. split; [auto|]. destruct es; [constructor|]. constructor; [exact I|]. auto.
Qed.

(** A brace that closes an element of an array is followed by something else than an
    opening brace. *)
Fixpoint trail (l : list opened) (ts : list token) : Prop :=
  match ts with
  | [] => True
  | t :: ts' => (t = TRCB -> hd_error (onto l t) = Some OBracket -> hd_error ts' <> Some TLCB) /\ trail (onto l t) ts'
  end.
Lemma trail_app : forall a l b, trail l (a ++ b) -> trail l a /\ trail (fold_left onto a l) b.
Proof.
  induction a as [|t a IH]; intros l b H; cbn [app trail fold_left] in *; [auto|]. destruct H as [H1 H2]. destruct (IH _ _ H2) as [G1 G2]. split; [|exact G2]. split; [|exact G1].
  intros E1 E2. specialize (H1 E1 E2). destruct a; [discriminate|exact H1].
Qed.
Lemma trail_all :
  (forall v l ts, (hd_error (value_done l) = Some OBracket -> hd_error ts <> Some TLCB) -> trail (value_done l) ts -> trail l (tok_val v ++ ts)) /\
  (forall ms l ts, trail (OBrace :: l) ts -> trail (OBrace :: l) (tok_ms ms ++ ts)) /\
  (forall es l ts, hd_error ts <> Some TLCB -> trail (OBracket :: l) ts -> trail (OBracket :: l) (tok_es es ++ ts)).
Proof.
  apply json_all_ind; cbn [tok_val tok_ms tok_es].
  - intros s l ts _ H. cbn [app trail]. split; [discriminate|exact H].
  - intros s l ts _ H. cbn [app trail]. split; [discriminate|exact H].
  - intros w ms IH l ts Hn H. cbn [app trail onto]. split; [discriminate|]. rewrite <- app_assoc. apply IH. cbn [app trail onto tl]. split; [intros _; exact Hn|exact H].
  - intros w es IH l ts Hn H. cbn [app trail onto]. split; [discriminate|]. rewrite <- app_assoc. apply IH; [discriminate|]. cbn [app trail onto tl]. split; [discriminate|exact H].
  - auto.
  - intros w k v IHv ms IHm l ts H. cbn [app trail onto]. split; [discriminate|]. rewrite <- app_assoc. apply IHv; [discriminate|]. cbn [value_done]. destruct ms as [|w2 k2 v2 ms]; [exact H|].
    split; [discriminate|]. cbn [onto]. apply (IHm l ts H).
  - auto.
  - intros w v IHv wa es IHe l ts Hn H. rewrite <- app_assoc. apply IHv; cbn [value_done]; (destruct es as [|w2 v2 w3 es]; [auto|]); [discriminate|].
    split; [discriminate|]. cbn [onto]. apply (IHe l ts Hn H).
Qed.
Lemma trail_followed : forall ts l, trail l ts -> (forall ts0, ts = ts0 ++ [TRCB] -> hd_error (fold_left onto ts l) <> Some OBracket) -> followed l ts.
Proof.
  induction ts as [|t ts IH]; intros l H Hl; [exact I|]. destruct H as [H1 H2]. cbn [followed]. split.
  - intros -> Ho. specialize (H1 eq_refl Ho). destruct ts as [|t1 ts]; [|exists t1, ts; split; [reflexivity|]; intros ->; apply H1; reflexivity].
    exfalso. apply (Hl [] eq_refl). exact Ho.
  - apply IH; [exact H2|]. intros ts0 E. apply (Hl (t :: ts0)). rewrite E. reflexivity.
Qed.

(** * Where what is open was opened *)
Section Opened.
  Variable n0 : Z.
  (** Keys and arrays that were opened up to [n0] are among the first [k] levels. *)
  Fixpoint early (k : nat) (lp : list (opened * Z)) : Prop :=
    match lp with
    | [] => True
    | (o, z) :: r => (o <> OBrace -> z <= n0 -> (S (nopen (map fst r)) < k)%nat) /\ early k r
    end.
  Lemma early_tl k lp : early k lp -> early k (tl lp).
  Proof. destruct lp as [|[o z] lp]; [auto|]. intros [_ H]. exact H. Qed.
  Lemma early_done k lp : early k lp -> early k (vdone lp).
  Proof. destruct lp as [|[[] z] lp]; auto. intros [_ H]. exact H. Qed.
  Lemma early_step k lp ev : n0 < e_next ev -> early k lp -> early k (ponto lp ev).
  Proof.
    intros Hn H. unfold ponto. destruct (e_tok ev); auto using early_tl, early_done; cbn [early]; (split; [intros _ Hz; lia|exact H]).
  Qed.
  Lemma early_run k : forall evs lp, Forall (fun ev => n0 < e_next ev) evs -> early k lp -> early k (pafter lp evs).
  Proof. induction evs as [|ev evs IH]; intros lp H He; [exact He|]. apply Forall_cons_iff in H as [H1 H2]. rewrite pafter_cons. apply IH; auto. apply early_step; auto. Qed.
  Definition late (lp : list (opened * Z)) : Prop := Forall (fun x => n0 < snd x) lp.
  Lemma late_run : forall evs lp, Forall (fun ev => n0 < e_next ev) evs -> late lp -> late (pafter lp evs).
  Proof.
    induction evs as [|ev evs IH]; intros lp H He; [exact He|]. apply Forall_cons_iff in H as [H1 H2]. rewrite pafter_cons. apply IH; auto.
    assert (Ht : late (tl lp)) by (destruct lp; [exact He|inversion He; assumption]).
    assert (Hv : forall l, late l -> late (vdone l)) by (intros [|[[] z] l] X; auto; inversion X; assumption).
    unfold ponto. destruct (e_tok ev); auto; constructor; auto.
  Qed.
  Lemma vdone_app a b : hd_error (map fst b) <> Some OKey -> vdone (a ++ b) = vdone a ++ b.
  Proof. intros H. destruct a as [|[[] z] a]; try reflexivity. destruct b as [|[[] z] b]; try reflexivity. cbn in H. congruence. Qed.
  Lemma pafter_inner b : hd_error (map fst b) <> Some OKey -> forall E a, inner (map fst a) (map e_tok E) -> pafter (a ++ b) E = pafter a E ++ b.
  Proof.
    intros Hb. induction E as [|ev E IH]; intros a H; [reflexivity|]. cbn [map inner] in H. destruct H as [H1 H2]. rewrite !pafter_cons.
    assert (Es : ponto (a ++ b) ev = ponto a ev ++ b).
    { unfold ponto. destruct (e_tok ev) eqn:Et; try reflexivity; try (apply vdone_app, Hb); (destruct a as [|y a]; [destruct (H1 eq_refl); congruence|cbn [tl app]; apply vdone_app, Hb]). }
    rewrite Es. apply IH. rewrite ponto_fst. exact H2.
  Qed.
  Lemma early_le : forall lp k, early k lp -> early (Nat.min k (S (nopen (map fst lp)))) lp.
  Proof.
    intros lp k H. assert (G : forall a b, lp = a ++ b -> early (Nat.min k (S (nopen (map fst lp)))) b).
    { intros a b. revert a. induction b as [|[o z] b IH]; intros a E; [exact I|]. cbn [early]. split.
      - intros Ho Hz. assert (Hk : early k ((o, z) :: b)). { clear IH. revert E H. generalize lp. intros lp' -> H. clear - H. induction a as [|[o' z'] a IH]; [exact H|]. apply IH, H. }
        destruct Hk as [Hk _]. specialize (Hk Ho Hz). apply Nat.min_glb_lt; [exact Hk|]. rewrite E, map_app. cbn [map fst]. unfold nopen. rewrite filter_app, app_length. cbn [filter]. destruct o; try congruence; cbn [List.length]; lia.
      - apply (IH (a ++ [(o, z)])). rewrite <- app_assoc. exact E. }
    apply (G [] lp). reflexivity.
  Qed.
  Lemma early_all lp : early (S (nopen (map fst lp))) lp.
  Proof.
    assert (G : forall l k, (List.length l < k)%nat -> early k l).
    { induction l as [|[o z] l IH]; intros k Hk; [exact I|]. cbn [early List.length] in *. split; [intros _ _|apply IH; lia]. pose proof (nopen_le (map fst l)) as Hn. rewrite map_length in Hn. lia. }
    pose proof (early_le lp (S (List.length lp)) (G lp _ (le_n _))) as H. pose proof (nopen_le (map fst lp)) as Hn. rewrite map_length in Hn. rewrite Nat.min_r in H by lia. exact H.
  Qed.
  Lemma early_late k a b : late a -> early k b -> early k (a ++ b).
  Proof. intros Ha Hb. induction a as [|[o z] a IH]; [exact Hb|]. inversion Ha; subst. cbn [app early]. split; [intros _ Hz; cbn in *; lia|auto]. Qed.
  Lemma early_chunk k lp P E : Forall (fun ev => n0 < e_next ev) (P ++ E) -> inner [] (map e_tok E) -> hd_error (after (map fst lp) P) <> Some OKey -> early k lp ->
    early (Nat.min k (S (nopen (after (map fst lp) P)))) (pafter lp (P ++ E)).
  Proof.
    intros Hf Hin Hk He. apply Forall_app in Hf as [Hf1 Hf2]. rewrite pafter_app. rewrite <- (app_nil_l (pafter lp P)). rewrite <- pafter_fst in *.
    rewrite (pafter_inner _ Hk E [] Hin). apply early_late; [apply late_run; [exact Hf2|constructor]|]. apply early_le, early_run; assumption.
  Qed.
  Lemma early_arrs d k : forall lp es, anchored d n0 lp es -> early k lp -> arrs d k (map fst lp) es.
  Proof.
    induction lp as [|[[] z] lp IH]; intros es Ha He; cbn [anchored early map fst arrs] in *; auto; try (apply IH; [exact Ha|apply He]).
    destruct es as [|e es]; [contradiction|]. destruct Ha as (A1 & A2 & A3). destruct He as [He1 He2]. split; [exact A1|]. split; [intros Ep; apply He1; [discriminate|apply A2, Ep]|]. apply IH; assumption.
  Qed.
End Opened.

(** * Pieces *)
Lemma items_len : forall l k post, chain k l post = true -> zlen l <= zlen (itext l).
Proof.
  induction l as [|[w x] l IH]; intros k post H; [apply Z.le_refl|]. apply chain_item in H. destruct H as (_ & Hx & H). specialize (IH _ _ H).
  cbn [itext]. rewrite !zlen_app, zlen_cons. pose proof (zlen_nonneg w). destruct (xok_last x Hx) as (t & c & -> & _). rewrite zlen_app. pose proof (zlen_nonneg t). change (zlen [c]) with 1. lia.
Qed.
Lemma marks_len : forall l o, zlen (marks o l) = zlen l.
Proof. induction l as [|[w x] l IH]; intros o; [reflexivity|]. cbn [marks]. rewrite !zlen_cons, IH. reflexivity. Qed.
Lemma flat_len p l : flat p l -> zlen (marks 0 l) <= zlen p.
Proof. intros (post & -> & Hc & _). rewrite marks_len, zlen_app. pose proof (items_len _ _ _ Hc). pose proof (zlen_nonneg post). lia. Qed.

Definition ends_open (p : bytes) : bool := match last_solid p with Some c => opens c | None => false end.
Lemma last_token p l : flat p l -> ends_open p = true -> exists ts t, map fst (marks 0 l) = ts ++ [t] /\ (t = TCOM \/ t = TLCB \/ t = TLB).
Proof.
  intros (post & -> & Hc & _) H. pose proof (chain_post _ _ _ Hc) as Hw.
  destruct (last_item l post KSym [] post) as (l0 & w0 & c & ->).
  - rewrite app_nil_r. exact Hc.
  - exact Hw.
  - unfold bad_last, ends_open in *. rewrite H. discriminate.
  - rewrite marks_tokens, map_app. cbn [map snd xtoken]. eexists _, _. split; [reflexivity|].
    assert (Ho : opens c = true).
    { unfold ends_open in H. rewrite last_solid_app, (Cut.last_solid_ws post Hw), itext_app in H. cbn [itext xtext] in H. rewrite app_nil_r, !app_assoc in H.
      assert (Hx : xok (XSym c) = true).
      { pose proof (chain_app_ok (l0 ++ [(w0, XSym c)]) KSym [] post) as G. rewrite app_nil_r in G. specialize (G Hc). apply Forall_app in G as [_ G]. apply Forall_cons_iff in G as [[_ G] _]. exact G. }
      destruct (sym_facts c Hx) as (_ & _ & _ & _ & Hws & _). rewrite last_solid_snoc in H by exact Hws. exact H. }
    unfold opens in Ho. repeat (apply orb_true_iff in Ho; destruct Ho as [Ho|Ho]); apply Ascii.eqb_eq in Ho; subst c; cbn; auto.
Qed.
Lemma pmarks_gt : forall ps ls n, Forall2 flat ps ls -> Forall (fun m => n < snd m) (pmarks n ps ls).
Proof.
  induction ps as [|p ps IH]; intros ls n H; inversion H; subst; cbn [pmarks]; [constructor|]. apply Forall_app. split.
  - apply Forall_map. eapply Forall_impl; [|apply (flat_bound p _ H2)]. intros m Hm. cbn in *. lia.
  - eapply Forall_impl; [|apply IH; assumption]. intros m Hm. cbn in *. pose proof (zlen_nonneg p). lia.
Qed.
Lemma oks_well D : (D <= 98)%nat -> forall ts l, oks D l ts -> well_nested l ts = true.
Proof.
  intros HD. induction ts as [|t ts IH]; intros l H; [reflexivity|]. destruct H as [H1 H2]. apply IH in H2.
  destruct t; cbn [okt onto well_nested] in *; unfold room; try contradiction.
  - destruct H1 as [-> H1]. replace (Nat.ltb (List.length l) 100) with true by (symmetry; apply Nat.ltb_lt; lia). exact H2.
  - destruct l as [|[] l]; try discriminate. exact H2.
  - destruct H1 as [-> H1]. replace (Nat.ltb (List.length l) 100) with true by (symmetry; apply Nat.ltb_lt; lia). exact H2.
  - destruct l as [|[] l]; try discriminate. exact H2.
  - exact H2.
  - destruct H1 as [-> H1]. replace (Nat.ltb (List.length l) 100) with true by (symmetry; apply Nat.ltb_lt; lia). exact H2.
  - rewrite H1. exact H2.
Qed.
Lemma sy_inj : forall l l', map sy l = map sy l' -> l = l'.
Proof. induction l as [|o l IH]; intros [|o' l'] H; try discriminate; [reflexivity|]. cbn in H. injection H as H1 H2. f_equal; [destruct o, o'; try discriminate; reflexivity|auto]. Qed.

(** * The first thread *)
Lemma nodes_states d : forall es fs t, stk d es fs -> map t_state (Single.nodes fs t) = rev (map q_state es) /\ Forall (fun n => t_ms n <> MUninit) (Single.nodes fs t).
Proof.
  induction es as [|e es IH]; intros [|f fs] t H; try contradiction; [split; [reflexivity|constructor]|]. destruct H as (H1 & _ & H2). destruct (IH fs t H2) as [G1 G2].
  cbn [Single.nodes map rev]. rewrite map_app, G1. destruct H1 as [E1 _ _ _ _ E2]. cbn [map node_at t_state]. rewrite E1. split; [reflexivity|]. apply Forall_app. split; [exact G2|]. constructor; [exact E2|constructor].
Qed.
Lemma items_stairs (fs : list elt) : items fs = stairs (List.length fs).
Proof. induction fs as [|f fs IH]; [reflexivity|]. cbn [items List.length stairs]. rewrite IH. reflexivity. Qed.
Lemma nodes_nth : forall es t i n, nth_error (Single.nodes es t) i = Some n -> (i < List.length es)%nat /\ exists e, n = node_at (Z.of_nat i) e t.
Proof.
  induction es as [|e es IH]; intros t i n H; [destruct i; discriminate|]. cbn [Single.nodes List.length] in *.
  destruct (Nat.lt_ge_cases i (List.length (Single.nodes es t))) as [Hi|Hi].
  - rewrite nth_error_app1 in H by exact Hi. destruct (IH _ _ _ H) as [H1 H2]. split; [lia|exact H2].
  - rewrite nth_error_app2 in H by exact Hi. rewrite nodes_length in *. destruct (i - List.length es)%nat as [|k] eqn:Ek; [|destruct k; discriminate]. cbn in H. injection H as <-. assert (i = List.length es) by lia. subst i.
    split; [lia|]. exists e. reflexivity.
Qed.
Lemma first_known es tw ss cur : es <> [] -> mknown (List.length es) (mkM ss (Q es (tup_of tw)) cur tw).
Proof.
  intros Hes. exists (repeat 0 (List.length (tl es))). cbn [m_qs k_rp k_nodes Q]. split; [reflexivity|]. split.
  - intros j Hj _. apply nth_error_repeat. destruct es; [congruence|]. cbn in *. lia.
  - intros i n Hn. destruct (nodes_nth _ _ _ _ Hn) as (Hi & e & ->). split; [intros _|intros H; lia]. unfold known_node, node_at. cbn [t_root t_tup m_tl]. destruct i as [|i].
    + cbn [Z.of_nat Z.eqb]. split; [reflexivity|]. unfold tup_of. destruct tw as [|a tw]; [exists (-1), (-1); split; [reflexivity|lia]|]. exists 0, (zlen (a :: tw) - 1). split; [reflexivity|]. intros _. rewrite zlen_cons. pose proof (zlen_nonneg tw). lia.
    + destruct (Z.eqb_spec (Z.of_nat (S i)) 0) as [E|E]; [lia|]. do 2 f_equal; lia.
Qed.
Lemma first_exec d x text junk ju evs c : built d x -> (forall a, In a (d_accept d) -> 0 <= a <= 3) ->
  lex_all text = Ok evs -> well_nested [] (map e_tok evs) = true -> foldM (core_step d (c_string text)) evs init_core = Ok c ->
  exists w, executeWorkerAutomaton d First None junk ju text [] = Ok w /\ mrel (c_ss c) (elts c) (c_tl c) (mkM (wa_ss w) (wa_qs w) (wa_cur w) (wa_tl w)) /\ mknown (List.length (elts c)) (mkM (wa_ss w) (wa_qs w) (wa_cur w) (wa_tl w)).
Proof.
  intros Hb Hk Hl Hw Hr. unfold executeWorkerAutomaton. rewrite Hl. cbn [bind].
  change (MAX_STATE <? zlen [1]) with false. cbn [initQueryStacks bind].
  pose proof (run_sim d (bt_dfa _ _ Hb) (bt_start _ _ Hb) (bt_free _ _ Hb) Hk junk (c_string text) evs [] init_core _ (start_R d (bt_dfa _ _ Hb) (initUnit ju)) Hw) as H.
  cbn [initQueryStacks fst snd] in H. rewrite Hr in H. destruct H as (w & l & Ew & HR). rewrite Ew. cbn [bind]. destruct (end_R d (c_string text) l c w HR) as (us & ->). cbn [bind].
  eexists. split; [reflexivity|]. cbn [wa_ss wa_qs wa_cur wa_tl]. destruct HR as (f & fs & tw & sh & u & Hss & -> & Htl & He & Hs & _ & Hlen & _).
  destruct (nodes_states d (c_qs c) fs (tup_of tw) Hs) as [G1 G2].
  assert (El : List.length (c_qs c) = List.length fs). { apply (f_equal (@List.length _)) in G1. rewrite map_length, nodes_length, rev_length, map_length in G1. symmetry. exact G1. }
  cbn [ws_ss ws_qs ws_cur ws_tl]. split; [|replace (List.length (elts c)) with (List.length (f :: fs)) by (unfold elts; cbn [List.length]; rewrite El; reflexivity); apply first_known; discriminate].
  split; cbn [m_ss m_qs m_cur m_tl ws_ss ws_qs ws_cur ws_tl].
  - symmetry. exact Hss.
  - cbn [k_nodes Q Single.nodes]. rewrite map_app, G1. cbn [map node_at t_state elts rev]. rewrite (er_state _ _ _ _ He). reflexivity.
  - cbn [k_nodes Q Single.nodes]. apply Forall_app. split; [exact G2|]. constructor; [exact (er_ms2 _ _ _ _ He)|constructor].
  - cbn [k_item Q tl elts List.length]. rewrite El, Nat.sub_succ, Nat.sub_0_r. apply items_stairs.
  - unfold lvl, elts. rewrite zlen_cons. unfold zlen. rewrite El. f_equal; lia.
  - exact Htl.
Qed.

(** The first thread never prunes. *)
Lemma first_ct d ct junk ju text tl : executeWorkerAutomaton d First ct junk ju text tl = executeWorkerAutomaton d First None junk ju text tl.
Proof.
  assert (Hp : forall k w, prune true ct junk k w = Ok w) by (intros; unfold prune; destruct ct; reflexivity).
  assert (Hl : forall buf evs w, worker_loop d true (Some [1]) ct junk buf evs w = worker_loop d true (Some [1]) None junk buf evs w).
  { intros buf. induction evs as [|ev evs IH]; intros w; [reflexivity|]. cbn [worker_loop].
    assert (Es : worker_step d true (Some [1]) ct junk buf ev evs w = worker_step d true (Some [1]) None junk buf ev evs w).
    { unfold worker_step. destruct (e_tok ev); try reflexivity; [unfold w_lb|unfold w_ky]; rewrite Hp; reflexivity. }
    rewrite Es. destruct (worker_step _ _ _ None _ _ _ _ w) as [w1|]; [|reflexivity]. cbn [bind]. apply IH. }
  unfold executeWorkerAutomaton. destruct (MAX_STATE <? zlen [1]); [reflexivity|]. destruct (initQueryStacks [1]) as [q cur]. destruct (lex_all text) as [evs|]; [|reflexivity]. cbn [bind]. rewrite Hl. reflexivity.
Qed.

(** * The other threads *)
Section Merge.
  Variable d : dfa.
  Hypothesis Hd : dfa_ok d.
  Hypothesis Hkind : forall a, In a (d_accept d) -> 0 <= a <= 3.
  Variable D : nat.
  Hypothesis HD : (D <= 98)%nat.
  Hypothesis Hsize : nstates d * (Z.of_nat D + 2) <= MAX_NODE.
  Hypothesis HR : nstates d <= MAX_STATE.
  Hypothesis Hz : acc d 0 = 0.
  Hypothesis Hz' : forall inp, succ d inp 0 = 0.
  Hypothesis Hzf : Specul.free d 0.

  (** The invariant of the serial engine. *)
  Record serial_inv (l : list opened) (c : core) : Prop := mkSer {
    ser_inv : sinv d D l c;
    ser_opn : opn d l (elts c)
  }.
  Lemma run_inv buf : forall E l c c', serial_inv l c -> oks D l (map e_tok E) -> run d buf E c = Ok c' -> serial_inv (after l E) c'.
  Proof.
    induction E as [|ev E IH]; intros l c c' H Ho Hr.
    - injection Hr as <-. exact H.
    - cbn [map oks] in Ho. destruct Ho as [Ho1 Ho2]. unfold run in Hr. cbn [foldM] in Hr. destruct (core_step d buf c ev) as [c1|] eqn:E1; [|discriminate]. cbn [bind] in Hr.
      rewrite after_cons. apply (IH _ c1 c'); auto. destruct H as [Hi Hop]. destruct (step_move d Hd Hkind D HD buf l c ev c1 Hi Ho1 E1) as [_ Hm]. split.
      + exact (step_sinv d Hd Hkind D HD buf l c ev c1 Hi Ho1 E1).
      + exact (move_opn d D l _ _ _ (si_shape _ _ _ _ Hi) Ho1 Hm Hop).
  Qed.

  Lemma sim_inv n l c c' : core_sim n c c' -> sinv d D l c -> sinv d D l c'.
  Proof.
    intros (H1 & H2 & H3 & H4) [Hss Hlen Hsh Hroom Hok]. split; auto; try congruence.
    - rewrite <- Hlen. clear - H3. induction H3; cbn; congruence.
    - assert (Ho : forall e e', elt_sim n e e' -> okelt d e -> okelt d e').
      { intros e e' (E1 & _ & E2) [Hv Hm]. split; [rewrite <- E1; exact Hv|]. destruct (q_ms e), (q_ms e'); cbn in E2; try contradiction; congruence. }
      unfold elts in *. apply Forall_cons_iff in Hok as [Ho1 Ho2]. constructor; [eauto|]. clear - Ho Ho2 H3. induction H3; [constructor|]. apply Forall_cons_iff in Ho2 as [? ?]. constructor; eauto.
  Qed.
  Lemma sim_notout n c c' : core_sim n c c' -> notout d c -> notout d c'.
  Proof.
    intros (H1 & H2 & H3 & H4) Hn. unfold notout, elts in *. apply Forall_cons_iff in Hn as [N1 N2]. constructor; [destruct H4 as [<- _]; exact N1|].
    clear - N2 H3. induction H3 as [|e e' a b He H IH]; [constructor|]. apply Forall_cons_iff in N2 as [? ?]. constructor; [destruct He as [<- _]; assumption|auto].
  Qed.

  Lemma sim_states n c c' : core_sim n c c' -> map q_state (elts c') = map q_state (elts c).
  Proof.
    intros (H1 & H2 & H3 & H4). unfold elts. cbn [map]. f_equal; [destruct H4 as [<- _]; reflexivity|]. clear - H3. induction H3 as [|e e' a b He H IH]; [reflexivity|]. cbn [map]. rewrite IH. destruct He as [<- _]. reflexivity.
  Qed.

  Variables (pj : pjunk) (start0 : wstart) (tl0 : list wtuple) (ct : option ctable).
  Notation covers b := (covers d b (pj_name pj) ct).

  (** What the table lists is the same for a piece of the text. *)
  Lemma covers_piece T P0 P R n ks evs evs' c c' c2 : T = P0 ++ P ++ R -> n = zlen P0 -> lead_blanks T = O -> lead_blanks P = O -> In n ks ->
    map Flat.mark evs = map (shift n) (map Flat.mark evs') -> Forall (fun m => 0 < snd m <= zlen P) (map Flat.mark evs') ->
    core_sim n c c' -> core_lt (n + zlen P) c -> PieceRun.clean d ks T evs c -> foldM (core_step d T) evs c = Ok c2 -> covers T c evs -> covers P c' evs'.
  Proof.
    intros HT Hn HlT HlP Hin Em Hb Hs Hl Hc H Hcov E1' ev' E2' c1' k t l He Hr Hk Hct Hlook Hne. rewrite He, !map_app in Em. cbn [map] in Em.
    apply map_eq_app in Em as (E1 & E2 & -> & Em1 & Em2). destruct E2 as [|ev E2]; [discriminate|]. cbn [map] in Em2. injection Em2 as Etok _ _.
    rewrite foldM_app in H. destruct (foldM (core_step d T) E1 c) as [c1|] eqn:Er; [|discriminate]. apply clean_split in Hc as [Hc _].
    rewrite He, map_app in Hb. apply Forall_app in Hb as [Hb _].
    destruct (piece_sim d T P0 P R n ks HT Hn HlT HlP Hin E1 E1' c c' c1 Em1 Hb Hs Hl Hc Er) as (c1'' & F1 & F2 & _). unfold run in Hr. rewrite F1 in Hr. injection Hr as ->.
    assert (Eq : q_state (c_cur c1') = q_state (c_cur c1)) by (destruct F2 as (_ & _ & _ & (<- & _)); reflexivity). rewrite Eq.
    apply (Hcov E1 ev E2 c1 k t l); auto. rewrite Etok. exact Hk.
  Qed.

  Lemma tok_ok_same ct0 : forall ea eb, map e_tok ea = map e_tok eb -> Forall (tok_ok d (pj_name pj) ct0) ea -> Forall (tok_ok d (pj_name pj) ct0) eb.
  Proof.
    induction ea as [|a ea IH]; intros [|b eb] E H; cbn in E; try discriminate; [constructor|]. injection E as E1 E2. apply Forall_cons_iff in H as [H1 H2]. constructor; [|auto].
    unfold tok_ok in *. rewrite <- E1. exact H1.
  Qed.
  Theorem merge_sim T ks : lead_blanks T = O -> no_nul T -> forall n0 ps ls P0 evs l c c' c2 m i prev pos k lp,
    T = P0 ++ concat ps -> Forall2 flat ps ls -> Forall (fun p => lead_blanks p = O) ps ->
    incl (cuts (zlen P0) ps) ks -> Forall (fun p => ends_open p = true) (removelast ps) ->
    map Flat.mark evs = pmarks (zlen P0) ps ls ->
    core_sim (zlen P0) c c' -> core_lt (zlen P0) c -> PieceRun.clean d ks T evs c -> foldM (core_step d T) evs c = Ok c2 -> covers T c evs -> Forall (tok_ok d (pj_name pj) ct) evs ->
    pos <= zlen P0 -> n0 <= zlen P0 -> calm d T ks n0 pos lp evs c -> map fst lp = l -> early n0 k lp -> mknown k m -> trail l (map e_tok evs) -> serial_inv l c -> tidy D l (map e_tok evs) -> after l evs = [] -> (ps <> [] -> l <> [] /\ hd_error l <> Some OKey) ->
    Forall text_ok (map e_tok evs) -> Forall (fun p => nstates d * (zlen p + 1) <= MAX_TUPLE_LIST) ps ->
    zlen (c_tl c2) <= MAX_TUPLE_LIST -> mrel (map sy l) (elts c') (c_tl c') m ->
    exists rs m2, all_threads d ct pj start0 tl0 (S i) (map Some ps) = Ok rs /\
      merge_chunks d (pj_name pj) (pj_main pj) prev rs m = Ok m2 /\ vals (m_tl m2) = wv (c_tl c2).
  Proof.
    intros HlT Hnn n0. induction ps as [|p ps IH]; intros ls P0 evs l c c' c2 m i prev pos k lp HT Hf Hlp Hk Heo Em Hs Hl Hc H Hcov Hto Hpos Hn0 Hca Hlp0 Hea Hkn Htr Hi Htd Haf Hcut Htx Hsz Hmax Hm.
    - inversion Hf; subst. destruct evs; [|discriminate]. injection H as <-. exists [], m. split; [reflexivity|]. split; [reflexivity|].
      rewrite (mr_tl _ _ _ _ Hm). f_equal. symmetry. apply Hs.
    - revert Hlp0. inversion Hf as [|? l1 ? ls' Hfp Hfs]; subst. intros Hlp0. apply Forall_cons_iff in Hlp as [Hlp Hlps]. apply Forall_cons_iff in Hsz as [Hsz Hszs].
      destruct Hcut as [Hl0 Hlk]; [discriminate|].
      assert (Hgt : Forall (fun ev => zlen P0 < e_next ev) evs).
      { pose proof (pmarks_gt (p :: ps) (l1 :: ls') (zlen P0) Hf) as Hg. rewrite <- Em in Hg. rewrite Forall_map in Hg. exact Hg. }
      cbn [pmarks cuts concat] in *.
      assert (Hin0 : In (zlen P0) ks) by (apply Hk; left; reflexivity).
      pose proof (nest_oks D _ _ (tidy_nest D _ _ Htd)) as Hoks.
      assert (Hno : notout d c /\ arrs d k l (elts c)).
      { destruct Hi as [Hi Hop]. destruct evs as [|ev evs]; [destruct (Hl0 Haf)|].
        cbn [calm] in Hca. destruct Hca as [(Hca & Hcf & Hcz) _]. pose proof (proj1 (proj1 (Forall_cons_iff _ _ _) Hgt)) as Hg1. cbn beta in Hg1.
        split; [|destruct Hcz as [Hcz|Hcz]; [rewrite <- Hlp0; exact (early_arrs n0 d k lp (elts c) Hcz Hea)|exfalso; refine (Hcz (zlen P0) Hin0 _); lia]].
        refine (cut_notout d Hd Hkind D HD _ ks (zlen P0) l c c2 (ev :: evs) Hi Hop Hl0 Hlk Hoks H Haf Hl Hc Hin0 Hgt _ _).
        { destruct (frees d (c_cur c :: c_qs c)) eqn:Ef.
          - unfold frees in Ef. rewrite forallb_forall in Ef. apply Forall_forall. intros e He. apply freeb_ok, Ef, He.
          - exfalso. refine (Hcf eq_refl (zlen P0) Hin0 _). lia. }
        intros Hb Eo. refine (Hca _ _ (zlen P0) Hin0 _); [|unfold outb; rewrite Eo; reflexivity|lia]. rewrite (si_ss _ _ _ _ Hi). destruct l as [|[] l]; try discriminate Hb. reflexivity. }
      destruct Hno as [Hno Harr].
      assert (Hnp : no_nul p).
      { intros Hx. apply Hnn. apply in_or_app. right. apply in_or_app. auto. }
      destruct (flat_lex p l1 Hfp Hnp) as (evs' & El & Ems).
      assert (Hsp : exists ea eb, evs = ea ++ eb /\ map Flat.mark ea = map (shift (zlen P0)) (marks 0 l1) /\ map Flat.mark eb = pmarks (zlen P0 + zlen p) ps ls').
      { apply map_eq_app in Em. destruct Em as (ea & eb & -> & Ea & Eb). exists ea, eb. auto. }
      destruct Hsp as (ea & eb & -> & Ea & Eb).
      apply clean_split in Hc as [Hc1 Hc2]. apply calm_split in Hca as [_ Hca]. rewrite map_app in Htr. apply trail_app in Htr as [Htr1 Htr2]. rewrite foldM_app in H.
      destruct (foldM (core_step d (P0 ++ p ++ concat ps)) ea c) as [c1|] eqn:E1; [|discriminate]. cbn [bind] in H.
      assert (Hlt : core_lt (zlen P0 + zlen p) c).
      { pose proof (zlen_nonneg p) as Hp0. clear -Hl Hp0. unfold core_lt in *. rewrite Forall_forall in *. intros e He. specialize (Hl e He).
        destruct (q_ms e); cbn in *; lia. }
      assert (Hcov1 : covers p c' evs').
      { eapply (covers_piece (P0 ++ p ++ concat ps) P0 p (concat ps) (zlen P0) ks ea evs' c c' c1); eauto.
        - rewrite Ems. exact Ea.
        - rewrite Ems. apply (flat_bound p l1 Hfp).
        - exact (covers_left _ _ _ _ _ _ _ Hcov). }
      pose proof (covers_right _ _ _ _ _ _ _ _ Hcov E1) as Hcov2.
      destruct (piece_sim d (P0 ++ p ++ concat ps) P0 p (concat ps) (zlen P0) ks eq_refl eq_refl HlT Hlp) with (evs := ea) (evs' := evs') (c := c) (c' := c') (c2 := c1) as (c1' & F1 & F2 & F3); auto.
      { rewrite Ems. exact Ea. }
      { rewrite Ems. apply (flat_bound p l1 Hfp). }
      assert (Etok : map e_tok ea = map e_tok evs').
      { assert (X1 : map e_tok ea = map fst (map Flat.mark ea)) by (rewrite map_map; reflexivity). assert (X2 : map e_tok evs' = map fst (map Flat.mark evs')) by (rewrite map_map; reflexivity).
        rewrite X1, X2, Ea, Ems, map_map. reflexivity. }
      rewrite map_app in Htd, Htx, Hoks. apply Forall_app in Hto as [Hto1 Hto2]. apply tidy_app in Htd as [Htd1 Htd2]. apply Forall_app in Htx as [Htx1 Htx2]. apply oks_app in Hoks as [Hoks1 Hoks2].
      pose proof (ser_inv _ _ Hi) as Hsi. pose proof (run_inv _ ea l c c1 Hi Hoks1 E1) as Hi1.
      unfold after in Haf. rewrite map_app, fold_left_app in Haf. fold (after l ea) in Haf, Htd2. fold (after (after l ea) eb) in Haf.
      assert (Eaf : after l evs' = after l ea) by (unfold after; rewrite Etok; reflexivity).
      assert (Hg1 : exists r, c_tl c2 = c_tl c1 ++ r) by (eapply run_grows; exact H). destruct Hg1 as (r & Hg1).
      assert (Hmax1 : zlen (c_tl c1') <= MAX_TUPLE_LIST).
      { assert (Et : c_tl c1 = c_tl c1') by apply F2. rewrite <- Et. rewrite Hg1, zlen_app in Hmax. pose proof (zlen_nonneg r). lia. }
      destruct (chunk_exec d True D p l ct (pj_name pj) (pj_unit pj (S i)) evs' Hd Hkind HD Hsize HR El) as (w & Ew & Hres).
      { rewrite <- Etok. apply tidy_nest, Htd1. } { rewrite <- Etok. exact Htx1. } { exact (tok_ok_same ct ea evs' Etok Hto1). } { exact (si_shape _ _ _ _ Hsi). } { exact (si_room _ _ _ _ Hsi). } { exact Hlk. }
      { intros _. rewrite <- Etok. apply trail_followed; [exact Htr1|]. intros ts0 Ets. destruct ps as [|p2 ps].
        - cbn [pmarks] in Eb. inversion Hfs; subst. destruct eb; [|discriminate]. cbn [after map fold_left] in Haf. unfold after in Haf. cbn [map fold_left] in Haf. rewrite Haf. discriminate.
        - assert (Heo1 : ends_open p = true) by (cbn [removelast] in Heo; apply Forall_cons_iff in Heo as [Heo _]; exact Heo).
          destruct (last_token p l1 Hfp Heo1) as (ts & t & Et & Hop). rewrite <- Ems, map_map in Et. change (fun x => fst (Flat.mark x)) with e_tok in Et. rewrite <- Etok in Et. rewrite Et in Ets. apply app_inj_tail in Ets as [_ ->]. destruct Hop as [H0|[H0|H0]]; discriminate. }
      { assert (Xl : zlen evs' = zlen (marks 0 l1)) by (rewrite <- Ems; unfold zlen; rewrite map_length; reflexivity). rewrite Xl. pose proof (flat_len p l1 Hfp) as Hfl.
        assert (H0 : 0 <= nstates d) by (rewrite <- (R_states d Hd); apply Nat2Z.is_nonneg || lia). clear - Hfl H0 Hsz. nia. }
      rewrite c_string_id in Hres by exact Hnp.
      destruct (chunk_merges d Hd Hkind D HD Hz Hz' Hzf prev p (pj_name pj) (pj_main pj) ct Hnp k l evs' w c' c1' m Hres) as (m1 & P & E & Em1 & Hm1 & HPE & HinE & HkP & Hkn1); auto.
      { exact (sim_inv _ l c c' Hs Hsi). } { exact (sim_notout _ c c' Hs Hno). } { exact (arrs_states d k l _ _ (sim_states _ c c' Hs) Harr). } { rewrite <- Etok. exact Hoks1. }
      rewrite Eaf in Hm1.
      assert (Hsp : exists P1 E1', ea = P1 ++ E1' /\ map e_tok P1 = map e_tok P /\ map e_tok E1' = map e_tok E).
      { rewrite HPE, map_app in Etok. apply map_eq_app in Etok as (P1 & E1' & X1 & X2 & X3). exists P1, E1'. auto. }
      destruct Hsp as (P1 & E1' & Hea1 & HP1 & HE1).
      assert (Hgta : Forall (fun ev => n0 < e_next ev) (P1 ++ E1')). { apply Forall_app in Hgt as [Hgt _]. rewrite <- Hea1. eapply Forall_impl; [|exact Hgt]. intros ev Hx. cbn beta in Hx. lia. }
      assert (EafP : after l P = after (map fst lp) P1) by (unfold after; rewrite Hlp0, HP1; reflexivity). rewrite EafP in Hkn1, HkP. rewrite <- HE1 in HinE.
      pose proof (early_chunk n0 k lp P1 E1' Hgta HinE HkP Hea) as Hea2. rewrite <- Hea1 in Hea2.
      destruct (IH ls' (P0 ++ p) eb (after l ea) c1 c1' c2 m1 (S i) p (reached pos ea) (Nat.min k (S (nopen (after (map fst lp) P1)))) (pafter lp ea)) as (rs & m2 & R1 & R2 & R3); auto.
      { rewrite <- app_assoc. reflexivity. }
      { rewrite zlen_app. intros k0 Hin. apply Hk. right. exact Hin. }
      { destruct ps; [constructor|]. cbn [removelast] in Heo. apply Forall_cons_iff in Heo as [_ Heo]. exact Heo. }
      { rewrite zlen_app. exact Eb. }
      { rewrite zlen_app. apply (core_sim_next (zlen P0)); assumption. }
      { rewrite zlen_app. exact F3. }
      { rewrite zlen_app. apply reached_le; [pose proof (zlen_nonneg p); lia|]. pose proof (flat_bound p l1 Hfp) as Hfb. assert (X : Forall (fun m => snd m <= zlen P0 + zlen p) (map Flat.mark ea)).
        { rewrite Ea, Forall_map. eapply Forall_impl; [|exact Hfb]. intros [t z] Hb. clear - Hb. cbn in *. lia. }
        rewrite Forall_map in X. exact X. }
      { rewrite zlen_app. pose proof (zlen_nonneg p). lia. }
      { rewrite pafter_fst, Hlp0. reflexivity. }
      { intros Hps. assert (He : ends_open p = true) by (destruct ps; [congruence|]; cbn [removelast] in Heo; apply Forall_cons_iff in Heo as [Heo _]; exact Heo).
        destruct (last_token p l1 Hfp He) as (ts & t & Et & Hop). rewrite <- Ems, map_map in Et. change (fun x => fst (Flat.mark x)) with e_tok in Et. rewrite <- Etok in Et.
        unfold after. rewrite Et in *. rewrite fold_left_app. cbn [fold_left]. apply tidy_app in Htd1 as [_ (Ht1 & _ & Ht2 & _)].
        destruct Hop as [-> | [-> | ->]]; cbn [onto]; [split; auto|split; discriminate|split; discriminate]. }
      exists ((p, w) :: rs), m2. split; [|split; [|exact R3]].
      + cbn [map all_threads thread_result]. rewrite Ew. cbn [bind]. rewrite c_string_id by exact Hnp. rewrite R1. reflexivity.
      + cbn [merge_chunks]. rewrite Em1. cbn [bind]. exact R2.
  Qed.
End Merge.

(** * A document *)
Lemma solid_cut a p : cut_at a p = true -> lead_blanks p = O.
Proof. unfold cut_at. destruct p as [|z p]; [discriminate|]. intros H. apply andb_true_iff in H as [H _]. apply Ascii.eqb_eq in H. subst z. reflexivity. Qed.
Lemma well_cut_ends : forall ps p, well_cut p ps = true -> Forall (fun p => ends_open p = true) (removelast (p :: ps)) /\ Forall (fun p => lead_blanks p = O) ps.
Proof.
  induction ps as [|p2 ps IH]; intros p H; [split; constructor|]. cbn [well_cut] in H. apply andb_true_iff in H as [H1 H2].
  destruct (IH p2) as [G1 G2]. { refine (well_cut_after ps p p2 _ H2). apply solid_last, (cut_solid _ _ H1). }
  split.
  - change (removelast (p :: p2 :: ps)) with (p :: removelast (p2 :: ps)). constructor; [|exact G1]. unfold cut_at in H1. apply andb_true_iff in H1 as [_ H1]. exact H1.
  - constructor; [eapply solid_cut; eauto|exact G2].
Qed.

(** The states in which the text shows a key or an array are among those the table
    lists, if it lists any. *)
Definition table_covers (d : dfa) (junk : bytes) (t : ctable) (T : bytes) : Prop := forall k s i, reads d T k s i ->
  match k with CKey n => zlen n <= 98 | CArr => True end /\
  forall l, updateStateInfo junk t k = Some l -> NoDup l /\ Forall (valid_state d) l /\ (l <> [] -> In s l).
Lemma key_token t k : tok_key t = Some k -> is_token t k.
Proof. destruct t; cbn; try discriminate; intros H; injection H as <-; cbn; auto. Qed.
Lemma covers_reads d junk ct T evs c : lex_all T = Ok evs -> c_string T = T -> foldM (core_step d T) evs init_core = Ok c -> (forall t, ct = Some t -> table_covers d junk t T) ->
  covers d T junk ct init_core evs /\ Forall (tok_ok d junk ct) evs.
Proof.
  intros Hl Hs Hr H.
  assert (G : forall E1 ev E2 k, evs = E1 ++ ev :: E2 -> tok_key (e_tok ev) = Some k -> exists c1, foldM (core_step d T) E1 init_core = Ok c1 /\ reads d T k (q_state (c_cur c1)) (q_count (c_cur c1))).
  { intros E1 ev E2 k -> Hk. rewrite foldM_app in Hr. destruct (foldM (core_step d T) E1 init_core) as [c1|] eqn:E; [|discriminate]. exists c1. split; [reflexivity|].
    exists E1, ev, E2, c1. rewrite Hs. repeat (split; [first [assumption|reflexivity|apply key_token; assumption]|]). reflexivity. }
  split.
  - intros E1 ev E2 c1 k t l He Hr1 Hk Hct Hlook Hne. destruct (G E1 ev E2 k He Hk) as (c1' & E & Hreads). unfold run in Hr1. rewrite Hr1 in E. injection E as <-.
    apply (H t Hct k _ _ Hreads); assumption.
  - apply Forall_forall. intros ev Hin. apply in_split in Hin as (E1 & E2 & He). unfold tok_ok. destruct (tok_key (e_tok ev)) as [k|] eqn:Hk; [|exact I]. intros t Hct.
    destruct (G E1 ev E2 k He Hk) as (c1 & _ & Hreads). destruct (H t Hct k _ _ Hreads) as [H1 H2]. split; [exact H1|]. intros l Hl'. destruct (H2 l Hl') as (H3 & H4 & _). auto.
Qed.

Theorem parallel_threads strict q p pj ct dc p0 ps : supported q = true -> (strict = true -> single_names q) ->
  createPathProcessor strict q = Ok p ->
  good_doc dc -> tame (d_val dc) = true -> limits q (d_val dc) -> short_texts (d_val dc) = true -> (depth (d_val dc) <= 98)%nat ->
  nstates (p_dfa p) <= 100 -> nstates (p_dfa p) * (Z.of_nat (depth (d_val dc)) + 2) <= 500 ->
  concat (p0 :: ps) = doc_text dc -> well_cut p0 ps = true -> zlen (p0 :: ps) <= 100 ->
  Forall (fun s => nstates (p_dfa p) * (zlen s + 1) <= 5000000) ps ->
  apart_from_cuts q dc (p0 :: ps) -> items_apart_from_cuts q dc (p0 :: ps) ->
  (forall t, ct = Some t -> table_covers (p_dfa p) (pj_name pj) t (doc_text dc)) ->
  exists c m, executeAutomaton (p_dfa p) (doc_text dc) init_core = Ok c /\
    executeParallelAutomata (p_dfa p) ct pj First [] (map Some (p0 :: ps)) = Ok m /\ vals (m_tl m) = wv (c_tl c).
Proof.
  intros Hsup Hsn Hcr Hg Ht Hlim Hshort Hdep Hst1 Hst2 Hcc Hw Hthr Hsz Hap0 Hit0 Htab.
  destruct (create_ok strict q Hsup Hsn) as (d & x & st & Hcr' & Hb & Hcp).
  rewrite Hcr in Hcr'. injection Hcr' as ->. cbn [p_dfa] in *.
  destruct (supported_parts q Hsup) as (S1 & S2 & S3 & S4 & S5 & Hnames).
  assert (HU : zlen (query_names q) <= name_bound).
  { unfold names_fit in Hnames. unfold name_bound. clear - Hnames. apply orb_true_iff in Hnames as [H|H]; [lia|]. apply andb_true_iff in H as [_ H]. lia. }
  destruct (query_dfa strict q _ HU Hcr) as (Hd & Hkind). cbn [p_dfa] in *.
  pose proof (build_any strict q d x HU Hb) as Hbt. pose proof (build_kinds strict q d x Hb) as Hk3.
  pose proof (gd_wf dc Hg) as Hwf. pose proof (gd_safe dc Hg) as Hsafe. pose proof (lead_zero dc (gd_blank dc Hg)) as Hlead.
  assert (Hint : zlen (text (d_val dc)) <= INT_MAX).
  { pose proof (gd_size dc Hg) as H. clear - H. unfold doc_text in H. rewrite !zlen_app in H. pose proof (zlen_nonneg (d_pre dc)). pose proof (zlen_nonneg (d_post dc)). unfold INT_MAX. lia. }
  destruct (exec_all q Hsup d x st Hcp dc Hwf Hsafe Hlead Hlim Hint) as (ms0 & He & _).
  pose proof (cp_valid _ _ _ _ Hcp []) as Hv1. rewrite (cp_start _ _ _ _ Hcp) in Hv1.
  assert (Hneed : (stack_need (d_val dc) <= 100)%nat) by (rewrite (proj1 depth_need); apply (lim_depth _ _ Hlim)).
  assert (Hf : fits [] (t_val d false 1 0 (d_val dc))).
  { refine (exec_doc_inv d dc init_core _ (cp_ok _ _ _ _ Hcp) Hwf Hsafe Hlead eq_refl eq_refl _ Hv1 Hneed _ He); [discriminate|]. cbn. clear. unfold MAX_TUPLE_LIST. lia. }
  match type of He with _ = Ok ?y => set (c2 := y) in * end.
  assert (Hmax : zlen (c_tl c2) <= MAX_TUPLE_LIST).
  { destruct (exec_doc d dc init_core (cp_ok _ _ _ _ Hcp) Hwf Hsafe Hlead eq_refl eq_refl ltac:(discriminate) Hv1 Hneed Hf) as (ms & _ & _ & He').
    rewrite He in He'. apply fits_len in Hf. cbn [app] in Hf. injection He' as _ Ht'. cbn [c2 c_tl]. rewrite Ht'. exact Hf. }
  exists c2. set (T := doc_text dc) in *. set (ks := cuts 0 (p0 :: ps)).
  assert (Hnn : no_nul T) by (apply doc_no_nul, Hwf).
  assert (Hc : is_container (d_val dc) = true) by (unfold wf_doc in Hwf; andb_split; assumption).
  pose proof (doc_lead dc Hg) as Hl. fold T in Hl.
  assert (He0 := He). unfold executeAutomaton in He. unfold T in He. rewrite (lex_doc dc Hwf Hsafe) in He. cbn [bind] in He. fold T in He. rewrite c_string_id in He by exact Hnn.
  destruct (covers_reads d (pj_name pj) ct T (doc_events dc) c2 (lex_doc dc Hwf Hsafe) (c_string_id T Hnn) He Htab) as [Hcov Hto].
  assert (Hap : apart q ks (located [] (zlen (d_pre dc)) (d_val dc))).
  { intros w o v Hin. split.
    - apply (nodes_small (d_val dc) (w, v) Hint). apply (proj1 located_nodes) in Hin. apply Hin.
    - intros Hv Hsel k Hk. eapply Hap0; eauto. }
  pose proof (proj1 (ok_all q d x st S1 S2 S3 (Hne q S5) Hcp ks) _ _ _ Hap) as Hok.
  assert (Es : es q st (labels []) = 1).
  { unfold es, alive. cbn. apply (cp_start _ _ _ _ Hcp). }
  change (ix (labels [])) with 0 in Hok. rewrite Es in Hok.
  assert (Hcl : PieceRun.clean d ks T (doc_events dc) init_core).
  { unfold doc_events, init_core. apply (proj1 (clean_all d (cp_ok _ _ _ _ Hcp) T Hl Hnn ks)) with (p := AtRoot) (post := d_post dc); auto.
    - congruence.
    - reflexivity.
    - discriminate. }
  assert (Hca : calm d T ks (zlen p0) 0 [] (doc_events dc) init_core).
  { unfold doc_events, init_core. refine (proj1 (calm_all d (cp_ok _ _ _ _ Hcp) T Hl Hnn ks (zlen p0)) (d_val dc) AtRoot [] [] 1 0 MInv [] (d_pre dc) (d_post dc) 0 0 0
      (zlen (d_pre dc) + zlen (text (d_val dc)) + 0) [] _ _ _ Hv1 (le_n 0) _ eq_refl Hf _ _ _ (or_introl I) (Z.le_refl 0) (Z.le_refl _)).
    - intros E. rewrite Hc in E. discriminate.
    - reflexivity.
    - discriminate.
    - exact Hneed.
    - pose proof (proj1 (ar_all q d x st S1 S2 S3 (Hne q S5) Hcp ks (zlen p0)) (d_val dc) [] (zlen (d_pre dc))) as G. rewrite Es in G. change (ix (labels [])) with 0 in G. apply G.
      intros w o v Hin. split; [apply (Hap w o v Hin)|]. intros b0 es0 -> k Hk Hsr. exact (Hit0 k w o b0 es0 Hk Hin Hsr).
    - discriminate.
    - intros Hx. exfalso. unfold frees in Hx. cbn [forallb q_state] in Hx. rewrite <- Es in Hx. change (labels []) with (@nil label) in Hx. rewrite (root_free q d x st S1 S2 S3 (Hne q S5) Hcp) in Hx. discriminate. }
  pose proof (doc_flat dc Hwf Hsafe Ht) as Hfl. fold T in Hfl. rewrite <- Hcc in Hfl.
  destruct (flat_pieces ps p0 _ Hfl Hw) as (ls & Fs & Em).
  assert (Emk : map Flat.mark (doc_events dc) = pmarks 0 (p0 :: ps) ls) by (rewrite <- Em; apply map_marks_eq; auto; apply lex_doc; auto).
  assert (Etk : map e_tok (doc_events dc) = tok_val (d_val dc)).
  { destruct (lex_doc_tokens dc Hwf Hsafe) as (evs & E1 & E2). rewrite (lex_doc dc Hwf Hsafe) in E1. injection E1 as <-. exact E2. }
  destruct (tidy_doc (d_val dc) Hc) as (t0 & ts & Etv & Hok0 & Htd & Ht0).
  pose proof (proj1 short_all _ Hshort) as Htx.
  assert (Hdone : fold_left onto (tok_val (d_val dc)) [] = []) by (rewrite (proj1 done_all); reflexivity).
  inversion Fs as [|? l0 ? ls' Hf0 Hfs]; subst ls. cbn [pmarks] in Emk.
  apply map_eq_app in Emk. destruct Emk as (ea & eb & Ee & Ea & Eb). rewrite Ee in *. rewrite map_app in Etk.
  change (0 + zlen p0) with (zlen p0) in Eb.
  destruct (well_cut_ends ps p0 Hw) as [Heo Hlps].
  assert (HT : T = [] ++ p0 ++ concat ps) by (symmetry; exact Hcc).
  assert (Hnp : no_nul p0). { intros Hx. apply Hnn. rewrite HT. apply in_or_app. right. apply in_or_app. auto. }
  assert (Hlp : lead_blanks p0 = O). { rewrite HT in Hl. cbn [app] in Hl. destruct p0 as [|y p1]; [reflexivity|]. cbn in Hl |- *. destruct (Ascii.eqb y " "%char); [discriminate|reflexivity]. }
  destruct (flat_lex p0 l0 Hf0 Hnp) as (evs' & El & Ems).
  apply clean_split in Hcl as [Hc1 Hc2]. apply calm_split in Hca as [_ Hca]. rewrite foldM_app in He.
  destruct (foldM (core_step d T) ea init_core) as [c1|] eqn:E1; [|discriminate]. cbn [bind] in He.
  destruct (piece_sim d T [] p0 (concat ps) 0 ks HT eq_refl Hl Hlp) with (evs := ea) (evs' := evs') (c := init_core) (c' := init_core) (c2 := c1) as (c1' & F1 & F2 & F3); auto.
  { left. reflexivity. } { rewrite Ems. exact Ea. } { rewrite Ems. apply (flat_bound p0 l0 Hf0). }
  { repeat split; auto. constructor. } { constructor; [exact I|constructor]. }
  assert (Etok : map e_tok ea = map e_tok evs').
  { assert (X1 : map e_tok ea = map fst (map Flat.mark ea)) by (rewrite map_map; reflexivity). assert (X2 : map e_tok evs' = map fst (map Flat.mark evs')) by (rewrite map_map; reflexivity).
    rewrite X1, X2, Ea, Ems, map_map. reflexivity. }
  set (D := depth (d_val dc)) in *.
  pose proof (zero_out q d x st Hcp) as Hoz. pose proof (zero_succ q d x st Hcp) as Hsz0. pose proof (zero_free q d x st Hcp) as Hzf.
  assert (Hoks : oks D [] (map e_tok ea ++ map e_tok eb)). { rewrite Etk, Etv. split; [exact Hok0|]. apply nest_oks, tidy_nest, Htd. }
  apply oks_app in Hoks as [Hoks1 Hoks2].
  assert (HG0 : serial_inv d D [] init_core).
  { split.
    - split; cbn; auto; clear - Hv1; [lia|]. apply Forall_cons; [|apply Forall_nil]. split; cbn; [exact Hv1|discriminate].
    - exact I. }
  pose proof (run_inv d Hd Hkind D Hdep T ea [] init_core c1 HG0 Hoks1 E1) as Hi1.
  destruct (first_exec d x p0 (pj_name pj) (pj_unit pj 0) evs' c1' Hbt Hk3 El) as (w & Ew & Hm & Hkn0).
  { rewrite <- Etok. apply (oks_well D Hdep _ _ Hoks1). } { rewrite c_string_id by exact Hnp. exact F1. }
  assert (Ess : c_ss c1' = map sy (after [] ea)). { rewrite <- (si_ss _ _ _ _ (ser_inv _ _ _ _ Hi1)). symmetry. apply F2. }
  rewrite Ess in Hm.
  assert (Hcut : tidy D (after [] ea) (map e_tok eb) /\ (ps <> [] -> after [] ea <> [] /\ hd_error (after [] ea) <> Some OKey)).
  { destruct ps as [|p1 ps].
    { cbn [pmarks] in Eb. inversion Hfs; subst. destruct eb; [|discriminate]. split; [exact I|congruence]. }
    assert (Hop : ends_open p0 = true). { change (removelast (p0 :: p1 :: ps)) with (p0 :: removelast (p1 :: ps)) in Heo. apply Forall_cons_iff in Heo as [Heo _]. exact Heo. }
    destruct (last_token p0 l0 Hf0 Hop) as (ts' & t & Et & Hopt). rewrite <- Ems, map_map in Et. change (fun x => fst (Flat.mark x)) with e_tok in Et. rewrite <- Etok in Et.
    unfold after. rewrite Et in *. rewrite Etv in Etk. destruct ts' as [|y ts'].
    - cbn [app] in *. injection Etk as -> ->. split; [exact Htd|]. intros _. destruct Ht0 as [-> | ->]; split; discriminate.
    - cbn [app] in Etk. injection Etk as -> <-. rewrite <- app_assoc in Htd. cbn [app fold_left]. rewrite app_assoc in Htd. apply tidy_app in Htd as [Htd1 Htd2]. split; [exact Htd2|]. intros _.
      rewrite fold_left_app. cbn [fold_left]. apply tidy_app in Htd1 as [_ (G1 & _ & G2 & _)].
      destruct Hopt as [-> | [-> | ->]]; cbn [onto]; [split; auto|split; discriminate|split; discriminate]. }
  destruct Hcut as [Htd2 Hcut].
  rewrite <- Etk in Htx, Hdone. apply Forall_app in Htx as [_ Htx2]. rewrite fold_left_app in Hdone.
  pose proof (covers_right _ _ _ _ _ _ _ _ Hcov E1) as Hcov2. apply Forall_app in Hto as [_ Hto2].
  destruct (merge_sim d Hd Hkind D Hdep Hst2 Hst1 Hoz Hsz0 Hzf
    pj First [] ct T ks Hl Hnn (zlen p0) ps ls' p0 eb (after [] ea) c1 c1' c2 (mkM (wa_ss w) (wa_qs w) (wa_cur w) (wa_tl w)) O p0 (reached 0 ea) (List.length (elts c1')) (pafter [] ea)) as (rs & m2 & R1 & R2 & R3); auto.
  { intros k Hin. right. exact Hin. }
  { destruct ps as [|b ps]; [constructor|]. change (removelast (p0 :: b :: ps)) with (p0 :: removelast (b :: ps)) in Heo. apply Forall_cons_iff in Heo as [_ Heo]. exact Heo. }
  { apply (core_sim_next 0); assumption. }
  { apply reached_le; [apply zlen_nonneg|]. pose proof (flat_bound p0 l0 Hf0) as Hfb. assert (X : Forall (fun m => snd m <= zlen p0) (map Flat.mark ea)).
    { rewrite Ea, Forall_map. eapply Forall_impl; [|exact Hfb]. intros [t z] Hbb. clear - Hbb. cbn in *. lia. }
    rewrite Forall_map in X. exact X. }
  { apply Z.le_refl. }
  { rewrite pafter_fst. reflexivity. }
  { assert (Xe : List.length (elts c1') = S (nopen (map fst (pafter [] ea)))).
    { rewrite pafter_fst. cbn [map]. pose proof (sim_states _ _ _ F2) as X. apply (f_equal (@List.length _)) in X. rewrite !map_length in X. rewrite X. unfold elts. cbn [List.length]. rewrite (si_len _ _ _ _ (ser_inv _ _ _ _ Hi1)). reflexivity. }
    rewrite Xe. apply early_all. }
  { assert (Htrl : trail [] (tok_val (d_val dc))) by (rewrite <- (app_nil_r (tok_val (d_val dc))); apply (proj1 trail_all); [discriminate|exact I]).
    rewrite <- Etk in Htrl. apply trail_app in Htrl as [_ Htrl]. exact Htrl. }
  exists m2. split; [exact He0|]. split; [|exact R3].
  unfold executeParallelAutomata, MAX_THREAD. 
  match goal with |- context [100 <? ?z] => assert (Xl : (100 <? z) = false) by (clear - Hthr; unfold zlen in *; rewrite map_length; apply Z.ltb_ge; exact Hthr); rewrite Xl; clear Xl end.
  cbn [map all_threads thread_result]. rewrite first_ct, Ew. cbn [bind]. rewrite R1. cbn [bind]. unfold combine_all. cbn [snd fst].
  rewrite c_string_id by exact Hnp. exact R2.
Qed.

(** The whole run: one load, the chunks of [partitionInputStream]. *)
Theorem parallel_doc N strict q p j pj ct dc n p0 ps : supported q = true -> (strict = true -> single_names q) ->
  createPathProcessor strict q = Ok p -> j_major_null j = true ->
  good_doc dc -> tame (d_val dc) = true -> limits q (d_val dc) -> short_texts (d_val dc) = true -> (depth (d_val dc) <= 98)%nat ->
  nstates (p_dfa p) <= 100 -> nstates (p_dfa p) * (Z.of_nat (depth (d_val dc)) + 2) <= 500 ->
  (n <= 100)%nat -> chunks (doc_text dc) n p0 ps ->
  Forall (fun s => nstates (p_dfa p) * (zlen s + 1) <= 5000000) ps ->
  apart_from_cuts q dc (p0 :: ps) -> items_apart_from_cuts q dc (p0 :: ps) ->
  (forall t, ct = Some t -> table_covers (p_dfa p) (pj_name pj) t (doc_text dc)) ->
  parallel_run N p ct pj MEMORY_FOOTPRINT MAX_EXTENSION (doc_text dc) n = serialRun N j p (doc_text dc).
Proof.
  intros Hsup Hsn Hcr Hj Hg Ht Hlim Hshort Hdep Hst1 Hst2 Hn Hch Hsz Hap Hit Htab.
  assert (Hthr : zlen (p0 :: ps) <= 100).
  { pose proof Hch as Hc. unfold chunks in Hc. apply part_sound in Hc as (p' & ps' & E & _ & Hl & _);
      [|apply doc_nonempty, Hg|apply doc_lead, Hg|apply doc_no_nul, Hg].
    apply (f_equal (@List.length _)) in E. rewrite !map_length in E. unfold zlen. rewrite E. clear - Hl Hn. lia. }
  destruct (made_pieces dc p0 ps Hg) as [Hcc Hw]; [right; exists n; exact Hch|].
  destruct (parallel_threads strict q p pj ct dc p0 ps) as (c & m & Ec & Em & Hv); auto.
  pose proof (gd_size dc Hg) as Hsize. pose proof (doc_nonempty dc (gd_wf dc Hg)) as Hne.
  set (T := doc_text dc) in *.
  assert (Hpos : 0 < zlen T) by (destruct T as [|a l]; [congruence|rewrite zlen_cons; pose proof (zlen_nonneg l); lia]).
  destruct p as [d x]. cbn [p_dfa p_ctx] in *.
  unfold parallel_run, serialRun, serial_run.
  destruct (List.length T) as [|k] eqn:El; [unfold zlen in Hpos; clear - Hpos El; lia|]. cbn [parallel_loop serial_loop].
  rewrite (load_whole MEMORY_FOOTPRINT MAX_EXTENSION T) by (reflexivity || (clear - Hpos Hsize; unfold MEMORY_FOOTPRINT; lia)). cbn [bind].
  unfold parallelPartialRun, serialPartialRun. rewrite Hch. cbn [bind init_pcontext init_context pc_context pc_main sc_context sc_core andb p_dfa p_ctx m_tl].
  match goal with |- context [executeParallelAutomata d ct pj ?a ?b ?c] => change (executeParallelAutomata d ct pj a b c = Ok m) in Em end.
  rewrite Em, Ec. cbn [bind]. rewrite (plain_vals _ _ Hv). cbn [bind].
  destruct (initPredicateFilter x) as [pf0|u]; [|reflexivity]. cbn [bind].
  destruct (generateFinalOutput N x pf0 (c_tl c)) as [pf1|u]; [|reflexivity]. cbn [bind].
  rewrite load_end. cbn [bind pc_context]. unfold destroyStreamingContext. rewrite Hj. reflexivity.
Qed.

Lemma slice_names (strict : bool) q : slice_query q = true -> strict = true -> single_names q.
Proof. intros Hq _ f Hin. rewrite (proj1 (no_filter_fields q Hq)) in Hin. destruct Hin. Qed.

(** A decision procedure for the examples. *)
Definition apart_check (q : query) (dc : doc) (ps : list bytes) : bool :=
  forallb (fun x => negb (is_container (snd x) && lsel q (labels (fst (fst x)))) ||
    forallb (fun k => negb ((snd (fst x) <? k) && (k <? snd (fst x) + zlen (text (snd x))))) (cuts 0 ps)) (doc_located dc).
Lemma apart_checked q dc ps : apart_check q dc ps = true -> apart_from_cuts q dc ps.
Proof.
  unfold apart_check. rewrite forallb_forall. intros H k w o v Hk Hin Hc Hl Hs. specialize (H _ Hin). cbn [fst snd] in H. rewrite Hc, Hl in H. cbn [andb negb orb] in H.
  rewrite forallb_forall in H. specialize (H _ Hk). unfold straddles in Hs. destruct (Z.ltb_spec o k), (Z.ltb_spec k (o + zlen (text v))); cbn in H; try discriminate; lia.
Qed.
Lemma path_step q s q1 q2 : path_query q = true -> q = q1 ++ s :: q2 -> match s with SSlice _ _ | SFilter _ => False | _ => True end.
Proof.
  intros Hq ->. unfold path_query in Hq. apply andb_true_iff in Hq as [_ H]. rewrite forallb_forall in H. specialize (H s ltac:(apply in_or_app; right; left; reflexivity)). destruct s; auto; discriminate.
Qed.
Lemma items_name q dc ps : path_query q = true -> ends_in_name q = true -> items_apart_from_cuts q dc ps.
Proof.
  intros Hp He k w o b es _ _ _. split; [apply lsel_item, He|]. split.
  - intros (q1 & lo & hi & q2 & E & _). exact (path_step _ _ _ _ Hp E).
  - intros (q1 & e & q2 & E & _). destruct (path_step _ _ _ _ Hp E).
Qed.
Fixpoint restricted_check (r : step -> bool) (q : query) (q1 : query) (w : list label) : bool :=
  match q with
  | [] => false
  | s :: q2 => (r s && lsel q1 w) || restricted_check r q2 (q1 ++ [s]) w
  end.
Lemma restricted_checked r w : forall q q1, restricted_check r q q1 w = false -> forall q0 s q2, q = q0 ++ s :: q2 -> r s = true -> lsel (q1 ++ q0) w = false.
Proof.
  induction q as [|s q IH]; intros q1 H q0 s2 q2 E Hr; [destruct q0; discriminate|]. cbn [restricted_check] in H. apply orb_false_iff in H as [H1 H2]. destruct q0 as [|s0 q0]; cbn [app] in E; injection E as -> E.
  - rewrite app_nil_r. rewrite Hr in H1. exact H1.
  - specialize (IH _ H2 q0 _ q2 E Hr). rewrite <- app_assoc in IH. exact IH.
Qed.
Definition is_slice (s : step) : bool := match s with SSlice _ _ => true | _ => false end.
Definition is_filter (s : step) : bool := match s with SFilter _ => true | _ => false end.
Definition items_check (q : query) (dc : doc) (ps : list bytes) : bool :=
  forallb (fun x => match snd x with JArr _ _ => let w := labels (fst (fst x)) in
      negb (lsel q (w ++ [LIdx 0]) || restricted_check is_slice q [] w) && (negb (restricted_check is_filter q [] w) || (snd (fst x) <? zlen (hd [] ps))) | _ => true end ||
    forallb (fun k => negb ((snd (fst x) <? k) && (k <? snd (fst x) + zlen (text (snd x))))) (cuts 0 ps)) (doc_located dc).
Lemma items_checked q dc ps : items_check q dc ps = true -> items_apart_from_cuts q dc ps.
Proof.
  unfold items_check. rewrite forallb_forall. intros H k w o b es Hk Hin Hs. specialize (H _ Hin). cbn [fst snd] in H. apply orb_true_iff in H as [H|H].
  2:{ exfalso. rewrite forallb_forall in H. specialize (H _ Hk). unfold straddles in Hs. destruct (Z.ltb_spec o k), (Z.ltb_spec k (o + zlen (text (JArr b es)))); cbn in H; try discriminate; lia. }
  apply andb_true_iff in H as [H1 H2]. apply negb_true_iff, orb_false_iff in H1 as [H0 H1]. split; [exact H0|]. split.
  - intros (q1 & lo & hi & q2 & E & Hl). pose proof (restricted_checked is_slice _ _ _ H1 q1 _ q2 E eq_refl) as G. cbn [app] in G. congruence.
  - intros (q1 & e & q2 & E & Hl). apply orb_true_iff in H2 as [H2|H2]; [|apply Z.ltb_lt, H2]. apply negb_true_iff in H2.
    pose proof (restricted_checked is_filter _ _ _ H2 q1 _ q2 E eq_refl) as G. cbn [app] in G. congruence.
Qed.
