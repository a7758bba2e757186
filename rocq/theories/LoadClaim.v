(** Loading, partitioning and piecewise runs: the statements behind Props_Load.v. *)
From Verif Require Import Base Spec PosSpec QueryClass Claims Util Lexer LexProof LexDoc LexMain LexSpec LexClaim Flat CutSpec Cut Loader LoaderProof Dfa Constraint Stream TreeSem TreeInv Pieces PieceRun PieceDoc.
From Verif Require Import Compress Num FilterSpec Builder Eval Filter Run AutoProof BuilderProof Roles Compiled TreeSel SelProof FilterProof SelFilter EndToEnd.
Open Scope Z_scope.

Lemma load_sound M X file ps : 0 < M -> loads M X file 0 ps -> concat ps = file /\ zlen ps <= zlen file.
Proof.
  intros HM H. pose proof (zlen_nonneg file). destruct (loads_concat M X file HM 0 ps H) as [E1 E2]; [lia|]. split; [exact E1|lia].
Qed.
Lemma load_total M X file : 0 < M -> 0 < X -> (file = [] \/ solid_start file = true) -> cuts_from M X file -> exists ps, loads M X file 0 ps.
Proof.
  intros HM HX Hh Hc. pose proof (zlen_nonneg file). apply (loads_total M X file HM HX) with (n := List.length file).
  - intros a b E Ha. destruct (Hc a b E Ha) as (m & r & E1 & E2 & [E3|E3]); exists m, r; auto.
  - lia.
  - unfold zlen. lia.
  - cbn [Z.to_nat skipn]. destruct Hh as [->|Hh]; [left; reflexivity|right; exact Hh].
Qed.
(** No quote for [X] bytes after the budget: the extension buffer overflows. *)
Lemma load_overflow M X : 1 <= M -> 0 <= X -> loadBounded M X (repeat "1"%char (Z.to_nat (M + X))) 0 = UB OOBWrite.
Proof.
  intros HM HX. set (f := repeat "1"%char (Z.to_nat (M + X))).
  assert (Hl : zlen f = M + X) by (unfold f, zlen; rewrite repeat_length; lia).
  unfold loadBounded. rewrite Hl. replace (Z.min (M + X - 0) M) with M by lia. replace (M <=? 0) with false by lia.
  cbn [Z.to_nat skipn].
  assert (Ho : forallb (fun c => negb (Ascii.eqb c BFF || Ascii.eqb c DQ)) (skipn (Z.to_nat M) f) = true).
  { apply forallb_forall. intros c Hc. apply in_skipn in Hc. unfold f in Hc. apply repeat_spec in Hc. subst c. reflexivity. }
  destruct (extend_over (skipn (Z.to_nat M) f) X 0 (rev (firstn (Z.to_nat M) f)) Ho) as [->|(r & a & -> & Ha)].
  - assert (zlen (skipn (Z.to_nat M) f) = X) by (unfold zlen in *; rewrite skipn_length; lia). lia.
  - reflexivity.
  - cbn [bind]. replace (X <=? a) with true by lia. reflexivity.
Qed.

Lemma part_sound s n cs : s <> [] -> lead_blanks s = O -> no_nul s -> partitionInputStream s n = Ok cs ->
  exists p ps, cs = map Some (p :: ps) /\ concat (p :: ps) = s /\ (List.length (p :: ps) <= n)%nat /\ well_cut p ps = true.
Proof. apply partition_spec. Qed.
Lemma part_total s n : n <> O -> no_nul s -> solid_start s = true ->
  cuts_upto (Z.of_nat (pred n) * (zlen s / Z.of_nat n + 1 + 2000)) 2000 s ->
  exists p ps, partitionInputStream s n = Ok (map Some (p :: ps)) /\ concat (p :: ps) = s /\ (List.length (p :: ps) <= n)%nat /\ well_cut p ps = true.
Proof.
  intros Hn Hnn Hh Hc. assert (Hs : s <> []) by (intros ->; discriminate).
  assert (Hl : lead_blanks s = O).
  { destruct s as [|c s]; [reflexivity|]. cbn in Hh |- *. destruct (Ascii.eqb_spec c " "%char) as [->|]; [discriminate|reflexivity]. }
  destruct (partition_total MAX_EXTENSION s n Hs Hl Hnn Hn) as (cs & E); [reflexivity|exact Hh|exact Hc|].
  destruct (part_sound s n cs Hs Hl Hnn E) as (p & ps & -> & H). exists p, ps. split; [exact E|exact H].
Qed.

(** Pieces made by the loaders. *)
Definition loaded_pieces (M X : Z) (s : bytes) (p : bytes) (ps : list bytes) : Prop :=
  0 < M /\ no_ff s /\ loads M X s 0 (p :: ps).
Definition chunks (s : bytes) (n : nat) (p : bytes) (ps : list bytes) : Prop :=
  partitionInputStream s n = Ok (map Some (p :: ps)).

Lemma doc_lead dc : good_doc dc -> lead_blanks (doc_text dc) = O.
Proof.
  intros H. pose proof (gd_wf dc H) as Hwf. pose proof (gd_blank dc H) as Hb. unfold wf_doc in Hwf. andb_split.
  unfold doc_text. unfold no_leading_blank in Hb. destruct (d_pre dc) as [|x l]; cbn in *.
  - destruct (d_val dc); try discriminate; reflexivity.
  - destruct (Ascii.eqb x " "%char); [discriminate|reflexivity].
Qed.
Lemma doc_nonempty dc : wf_doc dc = true -> doc_text dc <> [].
Proof.
  intros H E. unfold doc_text in E. apply app_eq_nil in E as [_ E]. apply app_eq_nil in E as [E _]. unfold wf_doc in H. andb_split.
  destruct (d_val dc); try discriminate.
Qed.

Lemma made_pieces dc p ps : good_doc dc -> ((exists M X, loaded_pieces M X (doc_text dc) p ps) \/ (exists n, chunks (doc_text dc) n p ps)) ->
  concat (p :: ps) = doc_text dc /\ well_cut p ps = true.
Proof.
  intros Hg [(M & X & HM & Hff & Hl)|(n & Hc)].
  - split; [apply (load_sound M X _ _ HM Hl)|exact (loads_pieces M X _ _ HM Hff Hl)].
  - destruct (part_sound _ _ _ (doc_nonempty dc (gd_wf dc Hg)) (doc_lead dc Hg) (doc_no_nul dc (gd_wf dc Hg)) Hc) as (p' & ps' & E & H1 & _ & H2).
    cbn [map] in E. injection E as -> E. assert (ps = ps') as ->.
    { revert E. clear. revert ps'. induction ps as [|a ps IH]; intros [|b ps'] E; try discriminate; [reflexivity|]. injection E as -> E. f_equal. auto. }
    auto.
Qed.

(** Executing the pieces one after the other, then filtering. *)
Theorem feed_answer N strict q p dc p0 ps : supported q = true -> (strict = true -> single_names q) ->
  createPathProcessor strict q = Ok p -> predicates_fit strict q ->
  good_doc dc -> tame (d_val dc) = true -> limits q (d_val dc) -> filters_meaningful N q (d_val dc) ->
  concat (p0 :: ps) = doc_text dc -> well_cut p0 ps = true ->
  (forall k w o v, In k (cuts (zlen p0) ps) -> In (w, o, v) (doc_located dc) -> is_container v = true ->
     lsel q (labels w) = true -> ~ straddles k o v) ->
  exists c pf0 pf1, feed (p_dfa p) (p0 :: ps) init_core = Ok c /\ initPredicateFilter (p_ctx p) = Ok pf0 /\
    generateFinalOutput N (p_ctx p) pf0 (c_tl c) = Ok pf1 /\ f_output pf1 = answer_text (holds N) q (d_val dc).
Proof.
  intros Hsup Hstrict Hp Hfit Hg Ht Hlim Hmean Hcc Hw Hst.
  destruct (create_ok strict q Hsup Hstrict) as (d & x & st & Hcr & Hb & Hcp). rewrite Hp in Hcr. injection Hcr as ->. cbn [p_dfa p_ctx].
  pose proof (gd_wf dc Hg) as Hwf. pose proof (gd_safe dc Hg) as Hsafe.
  assert (Hlead : lead_blanks (d_pre dc) = O).
  { pose proof (gd_blank dc Hg) as H. unfold no_leading_blank in H. destruct (d_pre dc) as [|y l]; [reflexivity|]. cbn. destruct (Ascii.eqb y " "%char); [discriminate|reflexivity]. }
  assert (Hint : zlen (text (d_val dc)) <= INT_MAX).
  { pose proof (gd_size dc Hg) as H. unfold doc_text in H. rewrite !zlen_app in H. pose proof (zlen_nonneg (d_pre dc)). pose proof (zlen_nonneg (d_post dc)). unfold INT_MAX. lia. }
  destruct (exec_all q Hsup d x st Hcp dc Hwf Hsafe Hlead Hlim Hint) as (ms & He & _).
  destruct (filter_all N strict q Hsup d x st Hb Hcp Hfit dc Hwf Hlim Hint Hmean) as (pf0 & pf1 & Hi & Hgf & Ho).
  pose proof (supported_parts q Hsup) as (S1 & S2 & S3 & S4 & S5 & S6).
  pose proof (cp_valid _ _ _ _ Hcp []) as Hv1. rewrite (cp_start _ _ _ _ Hcp) in Hv1.
  assert (Hneed : (stack_need (d_val dc) <= 100)%nat) by (rewrite (proj1 depth_need); apply (lim_depth _ _ Hlim)).
  assert (Hf : fits [] (t_val d false 1 0 (d_val dc))).
  { refine (exec_doc_inv d dc init_core _ (cp_ok _ _ _ _ Hcp) Hwf Hsafe Hlead eq_refl eq_refl _ Hv1 Hneed _ He); [discriminate|]. cbn. unfold MAX_TUPLE_LIST. lia. }
  destruct (feed_doc q d x st S1 S2 S3 (Hne q S5) Hcp dc p0 ps _ Hwf Hsafe Ht Hlead Hint Hneed Hf He Hcc Hw Hst) as (c & Hc & Etl).
  exists c, pf0, pf1. cbn [c_tl] in Etl. rewrite Etl. auto.
Qed.

(** A second load after the first one has released the list of tuples. *)
Theorem two_loads N j p M X file a n b m : j_finish j = 0 -> loadBounded M X file 0 = Ok (Some (a, n)) -> loadBounded M X file n = Ok (Some (b, m)) ->
  exists r, serial_run N j p M X file = UB r.
Proof.
  intros Hj H1 H2. unfold serial_run. destruct file as [|c0 file].
  { unfold loadBounded in H1. change (zlen (@nil ascii)) with 0 in H1. replace (Z.min (0 - 0) M <=? 0) with true in H1 by lia. discriminate. }
  cbn [List.length serial_loop]. rewrite H1. cbn [bind].
  destruct (serialPartialRun N j p a init_context) as [[o ci]|r] eqn:E; [|exists r; reflexivity]. cbn [bind].
  rewrite H2. cbn [bind].
  assert (Hci : sc_context ci = true /\ sc_freed ci = true).
  { unfold serialPartialRun in E. cbn [init_context sc_context sc_freed sc_core andb] in E.
    repeat match type of E with bind ?y _ = _ => destruct y; [|discriminate E]; cbn [bind] in E end.
    injection E as <- <-. cbn [sc_context sc_freed]. rewrite Hj. auto. }
  destruct Hci as [C1 C2]. unfold serialPartialRun at 1. rewrite C1, C2. cbn [andb bind]. exists UseAfterFree. reflexivity.
Qed.

(** A document that needs two loads: an array with more white space than the
    budget. *)
Definition wide (M : Z) : doc := mkDoc [] (JArr (repeat " "%char (Z.to_nat (M - 1))) (ECons [] (JStr (B "a")) [] ENil)) [].

Lemma wide_text M : doc_text (wide M) = ("["%char :: repeat " "%char (Z.to_nat (M - 1))) ++ [DQ; "a"%char; DQ; "]"%char].
Proof. unfold doc_text, wide. cbn [d_pre d_val d_post text text_es app]. rewrite app_nil_r. reflexivity. Qed.
Lemma repeat_ws n : forallb ws_char (repeat " "%char n) = true.
Proof. induction n; [reflexivity|exact IHn]. Qed.
Lemma wide_wf M : wf_doc (wide M) = true.
Proof. unfold wf_doc, wide. cbn [d_pre d_val d_post wf wf_es is_container]. unfold ws. rewrite repeat_ws. reflexivity. Qed.
Lemma last_solid_ws c w : ws_char c = false -> forallb ws_char w = true -> last_solid (c :: w) = Some c.
Proof.
  intros Hc H. cbn [last_solid]. replace (last_solid w) with (@None ascii); [rewrite Hc; reflexivity|].
  symmetry. clear Hc c. induction w as [|c w IH]; [reflexivity|]. cbn [forallb] in H. apply andb_true_iff in H as [H1 H2]. cbn [last_solid]. rewrite IH, H1 by exact H2. reflexivity.
Qed.
Lemma wide_loads M X : 1 <= M -> 4 < X -> M < zlen (doc_text (wide M)) /\
  exists a n b m, loadBounded M X (doc_text (wide M)) 0 = Ok (Some (a, n)) /\ loadBounded M X (doc_text (wide M)) n = Ok (Some (b, m)).
Proof.
  intros HM HX. rewrite wide_text. set (P := "["%char :: repeat " "%char (Z.to_nat (M - 1))). set (R := [DQ; "a"%char; DQ; "]"%char]).
  assert (HP : zlen P = M) by (unfold P; rewrite zlen_cons; unfold zlen; rewrite repeat_length; lia).
  assert (HR : zlen R = 4) by reflexivity.
  split; [rewrite zlen_app; lia|].
  assert (H1 : loadBounded M X (P ++ R) 0 = Ok (Some (P, M))).
  { unfold loadBounded. rewrite zlen_app, HP, HR. replace (Z.min (M + 4 - 0) M) with M by lia. replace (M <=? 0) with false by lia.
    cbn [Z.to_nat skipn]. replace (Z.to_nat M) with (List.length P) by (unfold zlen in HP; lia).
    rewrite firstn_app, Nat.sub_diag, firstn_all. rewrite skipn_app, Nat.sub_diag, skipn_all. cbn [firstn skipn app]. rewrite app_nil_r.
    unfold R at 1. cbn [extend].
    rewrite back_char_solid, rev_involutive.
    replace (last_solid P) with (Some "["%char); [|symmetry; unfold P; apply last_solid_ws; [reflexivity|apply repeat_ws]].
    change (Ascii.eqb DQ BFF) with false. change (Ascii.eqb DQ DQ) with true. cbn [bind]. change (opens_token "["%char) with true. cbn [bind].
    replace (X <=? 0) with false by lia. rewrite rev_involutive. replace (0 + M + 0) with M by lia. reflexivity. }
  destruct (loadBounded M X (P ++ R) M) as [[[b m]|]|r] eqn:H2.
  - exists P, M, b, m. auto.
  - exfalso. pose proof (zlen_app P R). apply load_none in H2; lia.
  - exfalso. unfold loadBounded in H2. rewrite zlen_app, HP, HR in H2. replace (M + 4 - M) with 4 in H2 by lia.
    replace (Z.min 4 M <=? 0) with false in H2 by lia.
    replace (Z.to_nat M) with (List.length P) in H2 at 1 by (unfold zlen in HP; lia).
    rewrite skipn_app, Nat.sub_diag, skipn_all in H2. cbn [skipn app] in H2.
    replace (Z.to_nat M) with (List.length P) in H2 at 1 by (unfold zlen in HP; lia).
    rewrite skipn_app, Nat.sub_diag, skipn_all in H2. cbn [skipn app] in H2.
    assert (HM4 : Z.min 4 M = 1 \/ Z.min 4 M = 2 \/ Z.min 4 M = 3 \/ Z.min 4 M = 4) by lia.
    assert (HX4 : forall k, k <= 4 -> (X <=? k) = false) by (intros; lia).
    destruct HM4 as [E|[E|[E|E]]]; rewrite E in H2; unfold R in H2;
      match type of H2 with context [Z.to_nat ?z] => let y := eval vm_compute in (Z.to_nat z) in change (Z.to_nat z) with y in H2 end;
      cbn [firstn skipn rev app] in H2; cbn [extend] in H2;
      repeat (rewrite ?HX4 in H2 by lia;
        match type of H2 with
        | context [Ascii.eqb ?a ?b] => let v := eval vm_compute in (Ascii.eqb a b) in change (Ascii.eqb a b) with v in H2; cbv iota in H2
        | context [back_char ?l] => let v := eval vm_compute in (back_char l) in change (back_char l) with v in H2; cbn [bind] in H2
        | context [opens_token ?l] => let v := eval vm_compute in (opens_token l) in change (opens_token l) with v in H2; cbv iota in H2
        end); cbn [bind] in H2; rewrite ?HX4 in H2 by lia; try discriminate H2.
Qed.
Lemma wide_run N j p : j_finish j = 0 -> exists r, serialRun N j p (doc_text (wide MEMORY_FOOTPRINT)) = UB r.
Proof.
  intros Hj. destruct (wide_loads MEMORY_FOOTPRINT MAX_EXTENSION) as (_ & a & n & b & m & H1 & H2); [discriminate|reflexivity|].
  exact (two_loads N j p _ _ _ a n b m Hj H1 H2).
Qed.
