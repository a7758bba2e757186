(** What holds of a successful serial run for every query that compiles. *)
From Coq Require Import Sorting.Sorted.
From Verif Require Import Base Util Spec Lexer LexProof LexDoc LexMain QueryClass Roles Dfa Constraint Stream TreeSem TreeInv TreeSel SelProof SelFilter Num Builder Eval Filter FilterProof
  Loader Run EndToEnd AnyQuery PosSpec PosProof Claims ClaimProof.
Open Scope Z_scope.

(** * Subsequences *)
Lemma subseq_refl {A} (l : list A) : subseq l l.
Proof. induction l; [apply sub_nil|apply sub_take; assumption]. Qed.
Lemma subseq_nil {A} (l : list A) : subseq [] l.
Proof. induction l; [apply sub_nil|apply sub_skip; assumption]. Qed.
Lemma subseq_app {A} (l1 m1 l2 m2 : list A) : subseq l1 m1 -> subseq l2 m2 -> subseq (l1 ++ l2) (m1 ++ m2).
Proof. induction 1; intros H2; cbn; [exact H2|apply sub_skip; auto|apply sub_take; auto]. Qed.
Lemma subseq_trans {A} (l m n : list A) : subseq l m -> subseq m n -> subseq l n.
Proof.
  intros H1 H2. revert l H1. induction H2 as [|x m n H2 IH|x m n H2 IH]; intros l H1.
  - exact H1.
  - apply sub_skip. apply IH, H1.
  - inversion H1 as [|? ? ? H3|? ? ? H3]; subst.
    + apply sub_skip. apply IH, H3.
    + apply sub_take. apply IH, H3.
Qed.
Lemma subseq_firstn {A} n (l : list A) : subseq (firstn n l) l.
Proof.
  rewrite <- (firstn_skipn n l) at 2. rewrite <- (app_nil_r (firstn n l)) at 1. apply subseq_app; [apply subseq_refl|apply subseq_nil].
Qed.
Lemma subseq_filter_mono {A} (f : A -> bool) l m : subseq l m -> subseq (filter f l) (filter f m).
Proof. induction 1; cbn; [constructor| |]; destruct (f x); auto using sub_skip, sub_take. Qed.
Lemma subseq_filter_id {A} (f : A -> bool) l m : subseq l m -> Forall (fun a => f a = true) l -> subseq l (filter f m).
Proof.
  induction 1; intros Hf; cbn; [constructor| |].
  - destruct (f x); auto using sub_skip.
  - inversion Hf as [|? ? H1 H2]; subst. rewrite H1. apply sub_take. auto.
Qed.
Lemma subseq_pull {A C} (g : A -> C) : forall l m, subseq l (map g m) -> exists l', l = map g l' /\ subseq l' m.
Proof.
  intros l m. revert l. induction m as [|x m IH]; intros l H; cbn in H.
  - inversion H; subst. exists []. split; [reflexivity|constructor].
  - inversion H as [|? ? ? H3|? ? ? H3]; subst.
    + destruct (IH _ H3) as (l' & -> & Hs). exists l'. split; [reflexivity|apply sub_skip; exact Hs].
    + destruct (IH _ H3) as (l' & -> & Hs). exists (x :: l'). split; [reflexivity|apply sub_take; exact Hs].
Qed.

(** * Matches are values *)
Definition brace (t : bytes) : bool := beq t (B "{") || beq t (B "}").
Definition plain (t : bytes) : bool := negb (brace t) && nonempty t.

Lemma text_plain v : wf v = true -> plain (text v) = true.
Proof.
  intros H. destruct (text_marker v H) as [H1 H2]. pose proof (text_pos v H) as H3. unfold plain, brace.
  destruct (beq (text v) (B "{")) eqn:E1; [apply beq_true in E1; contradiction|].
  destruct (beq (text v) (B "}")) eqn:E2; [apply beq_true in E2; contradiction|].
  destruct (text v); [cbn in H3; lia|reflexivity].
Qed.

Definition plains (T : list tuple) : list bytes := filter plain (map snd T).
Lemma plains_app a b : plains (a ++ b) = plains a ++ plains b.
Proof. unfold plains. rewrite map_app, filter_app. reflexivity. Qed.

Section Matches.
  Variable d : dfa.
  Notation txt := (fun s : Z * json => text (snd s)).

  Lemma plain_open_obj q i : plains (t_open_obj d q i) = [].
  Proof. unfold t_open_obj. destruct (_ =? _); [reflexivity|]. destruct (_ =? _); reflexivity. Qed.
  Lemma plain_open_arr q i : plains (t_open_arr d q i) = [].
  Proof. unfold t_open_arr. destruct (_ =? _); reflexivity. Qed.
  Lemma plain_elem ar q i : plains (t_close_elem d ar q i) = [].
  Proof. unfold t_close_elem. destruct (_ && _); reflexivity. Qed.
  Lemma plain_close q i v o : wf v = true -> exists l, plains (t_close d q i (text v)) = map txt l /\ subseq l [(o, v)].
  Proof.
    intros H. unfold t_close. destruct (_ =? _).
    - exists [(o, v)]. unfold plains. cbn. rewrite (text_plain v H). split; [reflexivity|apply subseq_refl].
    - exists []. split; [reflexivity|apply subseq_nil].
  Qed.
  Lemma plain_prim q i v o : wf v = true -> exists l, plains (t_prim d q i (text v)) = map txt l /\ subseq l [(o, v)].
  Proof.
    intros H. unfold t_prim. destruct (_ || _).
    - exists [(o, v)]. unfold plains. cbn. rewrite (text_plain v H). split; [reflexivity|apply subseq_refl].
    - exists []. split; [reflexivity|apply subseq_nil].
  Qed.

  Lemma matches_spans :
    (forall v ar q i o, wf v = true -> exists l, plains (t_val d ar q i v) = map txt l /\ subseq l (spans o v)) /\
    (forall ms q i o, wf_ms ms = true -> exists l, plains (t_ms d q i ms) = map txt l /\ subseq l (spans_ms o ms)) /\
    (forall es q n o, wf_es es = true -> exists l, plains (t_es d q n es) = map txt l /\ subseq l (spans_es o es)).
  Proof.
    apply json_all_ind.
    - intros s ar q i o H. apply (plain_prim q i (JBare s) o H).
    - intros s ar q i o H. apply (plain_prim q i (JStr s) o H).
    - intros w ms IH ar q i o H. rewrite t_val_obj, !plains_app, plain_open_obj, plain_elem, app_nil_r. cbn [app spans].
      destruct (IH q i (o + 1 + zlen w)) as (l1 & E1 & S1); [cbn [wf] in H; apply andb_true_iff in H; tauto|].
      destruct (plain_close q i (JObj w ms) o H) as (l2 & E2 & S2).
      exists (l1 ++ l2). rewrite E1, E2, map_app. split; [reflexivity|apply subseq_app; assumption].
    - intros w es IH ar q i o H. rewrite t_val_arr, !plains_app, plain_open_arr. cbn [app spans].
      destruct (IH (nx d q i None) 0 (o + 1 + zlen w)) as (l1 & E1 & S1); [cbn [wf] in H; apply andb_true_iff in H; tauto|].
      destruct (plain_close q i (JArr w es) o H) as (l2 & E2 & S2).
      exists (l1 ++ l2). rewrite E1, E2, map_app. split; [reflexivity|apply subseq_app; assumption].
    - intros q i o _. exists []. split; [reflexivity|constructor].
    - intros p k v IHv ms IHms q i o H. rewrite t_ms_cons, plains_app. cbn [spans_ms wf_ms] in *. rewrite !andb_true_iff in H.
      destruct (IHv false (nx d q i (Some k)) 0 (o + zlen (w_before p) + (zlen k + 2) + zlen (w_colon p) + 1 + zlen (w_value p))) as (l1 & E1 & S1); [tauto|].
      destruct (IHms q i (o + zlen (w_before p) + (zlen k + 2) + zlen (w_colon p) + 1 + zlen (w_value p) + zlen (text v) + zlen (w_after p) + 1)) as (l2 & E2 & S2); [tauto|].
      exists (l1 ++ l2). rewrite E1, E2, map_app. split; [reflexivity|apply subseq_app; assumption].
    - intros q n o _. exists []. split; [reflexivity|constructor].
    - intros wb v IHv wa es IHes q n o H. rewrite t_es_cons, plains_app. cbn [spans_es wf_es] in *. rewrite !andb_true_iff in H.
      destruct (IHv true q n (o + zlen wb)) as (l1 & E1 & S1); [tauto|].
      destruct (IHes q (n + 1) (o + zlen wb + zlen (text v) + zlen wa + 1)) as (l2 & E2 & S2); [tauto|].
      exists (l1 ++ l2). rewrite E1, E2, map_app. split; [reflexivity|apply subseq_app; assumption].
  Qed.

  (** Without predicate states there are no braces among the matches. *)
  Definition no_brace (T : list tuple) : Prop := Forall (fun t => brace (snd t) = false) T.
  Lemma no_brace_all : dfa_ok d -> (forall s, valid_state d s -> zread (d_accept d) s <> Ok DFA_PREDICATE) ->
    (forall v ar q i, wf v = true -> valid_state d q -> no_brace (t_val d ar q i v)) /\
    (forall ms q i, wf_ms ms = true -> valid_state d q -> no_brace (t_ms d q i ms)) /\
    (forall es q n, wf_es es = true -> valid_state d q -> no_brace (t_es d q n es)).
  Proof.
    intros Hd Hnp.
    assert (Hmt : forall q i, valid_state d q -> (mt d q i =? DFA_PREDICATE) = false).
    { intros q i Hq. apply Z.eqb_neq. unfold mt, getMatchedType, getDFAAcceptType. cbn [q_state].
      destruct (zread_ok (d_accept d) q) as (a & Ha & _); [rewrite (ok_accept d Hd); exact Hq|]. rewrite Ha. cbn [bind].
      destruct (Z.eqb_spec a DFA_OUTPUT_CANDIDATE) as [->|Hn].
      - destruct (in_range_ok d q i MInv Hd Hq) as (b & ->). cbn. destruct b; discriminate.
      - cbn. intros ->. exact (Hnp q Hq Ha). }
    assert (Hp : forall v q i, wf v = true -> no_brace (t_prim d q i (text v))).
    { intros v q i H. unfold t_prim, no_brace. destruct (_ || _); [|constructor]. constructor; [|constructor].
      pose proof (text_plain v H) as E. unfold plain in E. apply andb_true_iff in E as [E _]. apply negb_true_iff, E. }
    assert (Hc : forall v q i, wf v = true -> no_brace (t_close d q i (text v))).
    { intros v q i H. unfold t_close, no_brace. destruct (_ =? _); [|constructor]. constructor; [|constructor].
      pose proof (text_plain v H) as E. unfold plain in E. apply andb_true_iff in E as [E _]. apply negb_true_iff, E. }
    apply json_all_ind.
    - intros s ar q i H _. apply (Hp (JBare s) q i H).
    - intros s ar q i H _. apply (Hp (JStr s) q i H).
    - intros w ms IH ar q i H Hq. rewrite t_val_obj. unfold no_brace in *. rewrite !Forall_app. split; [|split; [|split]].
      + unfold t_open_obj. rewrite (Hmt q i Hq). destruct (_ =? _); repeat constructor.
      + apply IH; [cbn [wf] in H; apply andb_true_iff in H; tauto|exact Hq].
      + apply (Hc (JObj w ms) q i H).
      + unfold t_close_elem. rewrite (Hmt q i Hq), andb_false_r. constructor.
    - intros w es IH ar q i H Hq. rewrite t_val_arr. unfold no_brace in *. rewrite !Forall_app. split; [|split].
      + unfold t_open_arr. destruct (_ =? _); repeat constructor.
      + apply IH; [cbn [wf] in H; apply andb_true_iff in H; tauto|]. apply (next_ok d q i MInv None Hd Hq).
      + apply (Hc (JArr w es) q i H).
    - constructor.
    - intros p k v IHv ms IHms q i H Hq. rewrite t_ms_cons. cbn [wf_ms] in H. rewrite !andb_true_iff in H. unfold no_brace in *. rewrite Forall_app. split.
      + apply IHv; [tauto|]. apply (next_ok d q i MInv (Some k) Hd Hq).
      + apply IHms; [tauto|exact Hq].
    - constructor.
    - intros wb v IHv wa es IHes q n H Hq. rewrite t_es_cons. cbn [wf_es] in H. rewrite !andb_true_iff in H. unfold no_brace in *. rewrite Forall_app. split.
      + apply IHv; [tauto|exact Hq].
      + apply IHes; [tauto|exact Hq].
  Qed.
End Matches.

(** * Outputs are matches *)
Lemma add_inv o t o' : addOutputElement o t = Ok o' -> o' = o ++ [t].
Proof. unfold addOutputElement, strcopy. destruct (_ <=? _); [discriminate|]. destruct (_ <? _); [discriminate|]. injection 1 as <-. reflexivity. Qed.
Lemma adds_inv : forall l o o', foldM addOutputElement l o = Ok o' -> o' = o ++ l.
Proof.
  induction l as [|t l IH]; intros o o' H; cbn [foldM] in H; [injection H as <-; symmetry; apply app_nil_r|].
  destruct (addOutputElement o t) as [o1|] eqn:E; [|discriminate]. cbn [bind] in H. apply add_inv in E. subst o1.
  rewrite (IH _ _ H), <- app_assoc. reflexivity.
Qed.

(** Pending entries belong to an open filter; the outermost one owns them all. *)
Record finv (seen : list bytes) (f : pfilter) : Prop := {
  fi_empty : f_stack f = [] -> f_buffer f = [];
  fi_first : forall st p, f_stack f = st ++ [p] -> snd p = 0;
  fi_sub   : subseq (f_output f ++ f_buffer f) seen
}.

Lemma finv_step N x f t f' seen : finv seen f -> filter_step N x f t = Ok f' ->
  finv (seen ++ (if brace (snd t) then [] else [snd t])) f'.
Proof.
  intros [H1 H2 H3]. destruct t as [s t]. unfold filter_step, brace. cbn [snd].
  destruct (beq t (B "{")) eqn:E1; cbn [orb].
  - unfold filter_open. destruct (Nat.leb _ _); [discriminate|]. injection 1 as <-. rewrite app_nil_r.
    constructor; cbn [f_stack f_buffer f_output]; [discriminate| |exact H3].
    intros st p E. destruct st as [|p0 st]; cbn in E; injection E as E0 E; subst.
    + rewrite (H1 E). reflexivity.
    + exact (H2 st p E).
  - destruct (beq t (B "}")) eqn:E2.
    + unfold filter_close. rewrite app_nil_r. destruct (f_stack f) as [|[ps fi] st] eqn:Es; [discriminate|].
      destruct (read_conds f ps) as [pc|]; [|discriminate]. cbn [bind].
      destruct (getContextSubtree x ps) as [[e|]|]; [|discriminate|discriminate]. cbn [bind].
      destruct (evaluateExpression N e pc) as [v|]; [|discriminate]. cbn [bind]. destruct v.
      * destruct st as [|p0 st].
        -- assert (fi = 0) as -> by (apply (H2 [] (ps, fi)); reflexivity). cbn [Z.to_nat firstn skipn].
           destruct (foldM addOutputElement (f_buffer f) (f_output f)) as [o|] eqn:Eo; [|discriminate]. cbn [bind]. injection 1 as <-.
           apply adds_inv in Eo. subst o. constructor; cbn [f_stack f_buffer f_output]; [reflexivity| |].
           ++ intros st p E. destruct st; discriminate.
           ++ rewrite app_nil_r. exact H3.
        -- injection 1 as <-. constructor; cbn [f_stack f_buffer f_output]; [discriminate| |exact H3].
           intros st' p E. apply (H2 ((ps, fi) :: st')). rewrite E. reflexivity.
      * injection 1 as <-. constructor; cbn [f_stack f_buffer f_output].
        -- intros ->. assert (fi = 0) as -> by (apply (H2 [] (ps, fi)); reflexivity). reflexivity.
        -- intros st' p ->. apply (H2 ((ps, fi) :: st')). reflexivity.
        -- eapply subseq_trans; [|exact H3]. apply subseq_app; [apply subseq_refl|apply subseq_firstn].
    + assert (Hadd : forall b, finv seen f -> f_stack f <> [] -> b = f_buffer f ++ [t] ->
                finv (seen ++ [t]) (mkF (f_conds f) (f_stack f) b (f_output f))).
      { intros b _ Hn ->. constructor; cbn [f_stack f_buffer f_output].
        - intros E. contradiction.
        - exact H2.
        - rewrite app_assoc. apply subseq_app; [exact H3|apply subseq_refl]. }
      assert (Hskip : forall cs, finv (seen ++ [t]) (mkF cs (f_stack f) (f_buffer f) (f_output f))).
      { intros cs. constructor; cbn [f_stack f_buffer f_output]; [exact H1|exact H2|].
        rewrite <- (app_nil_r (f_output f ++ f_buffer f)). apply subseq_app; [exact H3|apply subseq_nil]. }
      unfold filter_text. destruct (f_stack f) as [|[ps fi] st] eqn:Es.
      * injection 1 as <-. specialize (Hskip (f_conds f)). destruct f as [c1 s1 b1 o1]. cbn [f_conds f_stack f_buffer f_output] in *. subst. exact Hskip.
      * destruct (zread (f_conds f) ps) as [o|]; [|discriminate]. cbn [bind].
        assert (Hf : finv seen f) by (constructor; rewrite ?Es; auto).
        destruct (getContextSubtree x s) as [[e|]|]; [| |discriminate]; cbn [bind].
        -- destruct o as [pc|]; [|discriminate]. destruct pc as [|c0 pc].
           ++ destruct (addOutputElement (f_buffer f) t) as [b|] eqn:Ea; [|discriminate]. cbn [bind]. injection 1 as <-.
              apply (Hadd b Hf); [discriminate|apply add_inv, Ea].
           ++ destruct (node_string e) as [nm|]; [|discriminate]. cbn [bind]. destruct (find_condition _ nm).
              ** injection 1 as <-. apply Hskip.
              ** destruct (addOutputElement (f_buffer f) t) as [b|] eqn:Ea; [|discriminate]. cbn [bind]. injection 1 as <-.
                 apply (Hadd b Hf); [discriminate|apply add_inv, Ea].
        -- destruct (addOutputElement (f_buffer f) t) as [b|] eqn:Ea; [|discriminate]. cbn [bind]. injection 1 as <-.
           apply (Hadd b Hf); [discriminate|apply add_inv, Ea].
Qed.

Lemma finv_run N x : forall tl f f' seen, finv seen f -> foldM (filter_step N x) tl f = Ok f' ->
  finv (seen ++ filter (fun t => negb (brace t)) (map snd tl)) f'.
Proof.
  induction tl as [|t tl IH]; intros f f' seen Hf H; cbn [foldM map filter] in *.
  - injection H as <-. rewrite app_nil_r. exact Hf.
  - destruct (filter_step N x f t) as [f1|] eqn:E; [|discriminate]. cbn [bind] in H.
    apply finv_step with (seen := seen) in E; [|exact Hf]. pose proof (IH f1 f' _ E H) as H'.
    destruct (brace (snd t)); cbn [negb] in *; rewrite <- app_assoc in H'; exact H'.
Qed.

Lemma init_inv x f : initPredicateFilter x = Ok f -> f_stack f = [] /\ f_buffer f = [] /\ f_output f = [].
Proof. unfold initPredicateFilter. destruct (foldM _ _ _); [|discriminate]. injection 1 as <-. auto. Qed.

Lemma init_none_aux x : forall ss C0 C, foldM (init_pred x) ss C0 = Ok C -> zlen C0 = 100 ->
  forallb (fun o : option conditions => match o with None => true | Some _ => false end) C = true ->
  zlen C = 100 /\ ss = [].
Proof.
  assert (G : forall ss C0 C, foldM (init_pred x) ss C0 = Ok C -> zlen C0 = 100 ->
            (exists s c, zread C0 s = Ok (Some c)) -> exists s c, zread C s = Ok (Some c)).
  { induction ss as [|s ss IH]; intros C0 C H Hl He; cbn [foldM] in H; [injection H as <-; exact He|].
    destruct (init_pred x C0 s) as [C1|] eqn:E; [|discriminate]. cbn [bind] in H. unfold init_pred in E.
    destruct (zread (x_mapping x) s); [|discriminate]. cbn [bind] in E.
    destruct ((s <? 0) || (Z.of_nat MAX_PREDICATE_STATE <=? s)) eqn:Eb; [discriminate|]. change (Z.of_nat MAX_PREDICATE_STATE) with 100 in Eb.
    destruct (mapM _ _) as [en|]; [|discriminate]. cbn [bind] in E. injection E as <-.
    apply (IH _ _ H).
    - unfold zlen in *. rewrite upd_length. exact Hl.
    - exists s, en. apply zread_upd_same. lia. }
  intros ss C0 C H Hl Hall. destruct ss as [|s ss]; [cbn in H; injection H as <-; auto|]. exfalso.
  cbn [foldM] in H. destruct (init_pred x C0 s) as [C1|] eqn:E; [|discriminate]. cbn [bind] in H. unfold init_pred in E.
  destruct (zread (x_mapping x) s); [|discriminate]. cbn [bind] in E.
  destruct ((s <? 0) || (Z.of_nat MAX_PREDICATE_STATE <=? s)) eqn:Eb; [discriminate|]. change (Z.of_nat MAX_PREDICATE_STATE) with 100 in Eb.
  destruct (mapM _ _) as [en|]; [|discriminate]. cbn [bind] in E. injection E as <-.
  destruct (G _ _ _ H) as (s' & c & Hr).
  - unfold zlen in *. rewrite upd_length. exact Hl.
  - exists s, en. apply zread_upd_same. lia.
  - rewrite forallb_forall in Hall. unfold zread, znth in Hr. destruct (s' <? 0); [discriminate|].
    destruct (nth_error C _) as [o|] eqn:En; [|discriminate]. injection Hr as ->. apply nth_error_In in En.
    specialize (Hall _ En). discriminate.
Qed.
Lemma init_none x f : initPredicateFilter x = Ok f -> no_predicates f = true -> x_preds x = [].
Proof.
  unfold initPredicateFilter. destruct (foldM _ _ _) as [C|] eqn:E; [|discriminate]. injection 1 as <-. unfold no_predicates. cbn [f_conds].
  intros Hn. apply (init_none_aux x _ _ _ E); [reflexivity|exact Hn].
Qed.

(** Every output entry is one of the matches, in the same order. *)
Lemma outputs_sub N x pf0 pf1 tl : initPredicateFilter x = Ok pf0 -> generateFinalOutput N x pf0 tl = Ok pf1 ->
  subseq (f_output pf1) (if no_predicates pf0 then map snd tl else filter (fun t => negb (brace t)) (map snd tl)).
Proof.
  intros Hi. destruct (init_inv x pf0 Hi) as (H1 & H2 & H3). unfold generateFinalOutput. destruct (no_predicates pf0).
  - destruct (foldM addOutputElement _ _) as [o|] eqn:E; [|discriminate]. cbn [bind]. injection 1 as <-. cbn [f_output].
    apply adds_inv in E. rewrite H3 in E. subst o. apply subseq_refl.
  - intros H. apply (finv_run N x tl pf0 pf1 []) in H.
    + pose proof (fi_sub _ _ H) as Hs. cbn [app] in Hs. eapply subseq_trans; [|exact Hs].
      rewrite <- (app_nil_r (f_output pf1)) at 1. apply subseq_app; [apply subseq_refl|apply subseq_nil].
    + constructor; rewrite ?H1, ?H2, ?H3; [reflexivity| |constructor]. intros st p E. destruct st; discriminate.
Qed.

(** * Runs *)
Definition fresh (L : list tuple) : core := mkCore [] [] (mkElt 1 0 MInv) L.

Lemma start_valid d : dfa_ok d -> valid_state d 1.
Proof. intros H. pose proof (ok_states d H). unfold valid_state. lia. Qed.

Lemma any_exec d x dc L c : built d x -> good_doc dc -> (depth (d_val dc) <= 100)%nat -> zlen L <= MAX_TUPLE_LIST ->
  executeAutomaton d (doc_text dc) (fresh L) = Ok c -> c = fresh (L ++ t_val d false 1 0 (d_val dc)).
Proof.
  intros Hb Hg Hdep HL Hrun. pose proof (bt_dfa _ _ Hb) as Hd. destruct Hg as [Hwf Hsafe Hbl Hsize].
  pose proof (lead_zero dc Hbl) as Hlead.
  assert (Hn : (stack_need (d_val dc) <= 100)%nat) by (rewrite (proj1 depth_need); exact Hdep).
  pose proof (exec_doc_inv d dc (fresh L) c Hd Hwf Hsafe Hlead eq_refl eq_refl ltac:(discriminate) (start_valid d Hd) Hn HL Hrun) as Hf.
  destruct (exec_doc d dc (fresh L) Hd Hwf Hsafe Hlead eq_refl eq_refl ltac:(discriminate) (start_valid d Hd) Hn Hf) as (ms & _ & Hms & He).
  rewrite He in Hrun. injection Hrun as <-. rewrite Hms; [reflexivity|].
  cbn [fresh c_cur q_state q_count]. unfold mt, getMatchedType, getDFAAcceptType. cbn [q_state]. rewrite (bt_start _ _ Hb). cbn. discriminate.
Qed.

Theorem any_plains N strict q p j dc out : zlen (query_names q) <= name_bound -> createPathProcessor strict q = Ok p ->
  good_doc dc -> (depth (d_val dc) <= 100)%nat ->
  serialRun N j p (doc_text dc) = Ok (Some out) ->
  subseq (filter nonempty out) (plains (t_val (p_dfa p) false 1 0 (d_val dc))).
Proof.
  intros HU Hcp Hg Hdep Hrun. pose proof Hg as [Hwf Hsafe Hbl Hsize].
  unfold createPathProcessor in Hcp. destruct (build strict q) as [[d x]|] eqn:Eb; [|discriminate]. cbn [bind] in Hcp. injection Hcp as <-.
  pose proof (build_any strict q d x HU Eb) as Hb.
  assert (Hpos : 0 < zlen (doc_text dc)).
  { unfold doc_text. rewrite !zlen_app. pose proof (text_pos _ (wf_doc_val dc Hwf)). pose proof (zlen_nonneg (d_pre dc)). pose proof (zlen_nonneg (d_post dc)). lia. }
  unfold serialRun, serial_run in Hrun.
  assert (Hpr : exists ci, serialPartialRun N j (mkProc d x) (doc_text dc) init_context = Ok (out, ci)).
  { destruct (List.length (doc_text dc)) as [|n] eqn:El; [unfold zlen in Hpos; lia|]. cbn [serial_loop] in Hrun.
    rewrite (load_whole MEMORY_FOOTPRINT MAX_EXTENSION (doc_text dc)) in Hrun; [|reflexivity|unfold MEMORY_FOOTPRINT; lia]. cbn [bind] in Hrun.
    destruct (serialPartialRun N j (mkProc d x) (doc_text dc) init_context) as [[o ci]|] eqn:Er; [|discriminate]. cbn [bind] in Hrun.
    rewrite load_end in Hrun. cbn [bind] in Hrun.
    destruct (destroyStreamingContext j ci); [|discriminate]. cbn [bind] in Hrun. injection Hrun as <-. eauto. }
  destruct Hpr as (ci & Hpr). clear Hrun.
  unfold serialPartialRun in Hpr. cbn [init_context sc_context sc_core andb p_dfa p_ctx] in Hpr.
  destruct (executeAutomaton d (doc_text dc) init_core) as [c|] eqn:Ex; [|discriminate]. cbn [bind] in Hpr.
  destruct (initPredicateFilter x) as [pf0|] eqn:Ei; [|discriminate]. cbn [bind] in Hpr.
  destruct (generateFinalOutput N x pf0 (c_tl c)) as [pf1|] eqn:Eg; [|discriminate]. cbn [bind] in Hpr. injection Hpr as <- _.
  apply (any_exec d x dc [] c Hb Hg Hdep) in Ex; [|reflexivity || (rewrite zlen_nil; unfold MAX_TUPLE_LIST; lia)]. subst c. cbn [app fresh c_tl] in Eg.
  pose proof (outputs_sub N x pf0 pf1 _ Ei Eg) as Hsub.
  pose proof (wf_doc_val dc Hwf) as Hwv.
  cbn [p_dfa]. assert (E : forall l, filter plain l = filter nonempty (filter (fun t => negb (brace t)) l)).
  { induction l as [|t l IH]; cbn; [reflexivity|]. unfold plain at 1. destruct (brace t); cbn; [exact IH|]. rewrite IH. reflexivity. }
  unfold plains. rewrite E. apply subseq_filter_mono. destruct (no_predicates pf0) eqn:En; [|exact Hsub].
  apply subseq_filter_id; [exact Hsub|]. rewrite Forall_forall. intros t Ht. apply (subseq_in _ _ Hsub) in Ht.
  assert (Hnb : no_brace (t_val d false 1 0 (d_val dc))).
  { apply (no_brace_all d (bt_dfa _ _ Hb)); [|exact Hwv|apply start_valid, (bt_dfa _ _ Hb)].
    intros s Hs Ha. apply (bt_all _ _ Hb s Hs) in Ha. rewrite (init_none x pf0 Ei En) in Ha. destruct Ha. }
  apply in_map_iff in Ht. destruct Ht as (u & <- & Hu). unfold no_brace in Hnb. rewrite Forall_forall in Hnb. rewrite (Hnb u Hu). reflexivity.
Qed.

Theorem any_output N strict q p j dc out : zlen (query_names q) <= name_bound -> createPathProcessor strict q = Ok p ->
  good_doc dc -> (depth (d_val dc) <= 100)%nat ->
  serialRun N j p (doc_text dc) = Ok (Some out) ->
  exists l, filter nonempty out = map (fun s => text (snd s)) l /\ in_completion_order dc l.
Proof.
  intros HU Hcp Hg Hdep Hrun. pose proof (any_plains N strict q p j dc out HU Hcp Hg Hdep Hrun) as Hsub2.
  pose proof Hg as [Hwf Hsafe Hbl Hsize]. pose proof (wf_doc_val dc Hwf) as Hwv. set (d := p_dfa p) in *.
  destruct (proj1 (matches_spans d) (d_val dc) false 1 0 (zlen (d_pre dc)) Hwv) as (l & El & Sl).
  rewrite El in Hsub2. apply subseq_pull in Hsub2. destruct Hsub2 as (l' & El' & Sl'). exists l'. split; [exact El'|].
  assert (S : subseq l' (doc_spans dc)) by (eapply subseq_trans; [exact Sl'|exact Sl]).
  split.
  - apply Forall_forall. intros s Hs. pose proof (subseq_in _ _ S s Hs) as Hin. split; [exact Hin|].
    pose proof (proj1 spans_written (d_val dc) (doc_text dc) (d_pre dc) (d_post dc) eq_refl) as Hw.
    rewrite Forall_forall in Hw. apply Hw, Hin.
  - eapply subseq_sorted; [exact S|]. apply (proj1 spans_sorted), Hwv.
Qed.

(** * Documents one after the other *)
Theorem any_restore strict q p dc c : zlen (query_names q) <= name_bound -> createPathProcessor strict q = Ok p ->
  good_doc dc -> (depth (d_val dc) <= 100)%nat ->
  executeAutomaton (p_dfa p) (doc_text dc) init_core = Ok c ->
  c_ss c = c_ss init_core /\ c_qs c = c_qs init_core /\ c_cur c = c_cur init_core.
Proof.
  intros HU Hcp Hg Hdep Hrun. unfold createPathProcessor in Hcp. destruct (build strict q) as [[d x]|] eqn:Eb; [|discriminate].
  cbn [bind] in Hcp. injection Hcp as <-. pose proof (build_any strict q d x HU Eb) as Hb.
  apply (any_exec d x dc [] c Hb Hg Hdep) in Hrun; [|rewrite zlen_nil; unfold MAX_TUPLE_LIST; lia]. subst c. repeat split; reflexivity.
Qed.

Theorem any_next strict q p dc dc2 c c2 c3 : zlen (query_names q) <= name_bound -> createPathProcessor strict q = Ok p ->
  good_doc dc -> (depth (d_val dc) <= 100)%nat -> good_doc dc2 -> (depth (d_val dc2) <= 100)%nat ->
  executeAutomaton (p_dfa p) (doc_text dc) init_core = Ok c ->
  executeAutomaton (p_dfa p) (doc_text dc2) c = Ok c2 ->
  executeAutomaton (p_dfa p) (doc_text dc2) init_core = Ok c3 ->
  c2 = mkCore (c_ss c3) (c_qs c3) (c_cur c3) (c_tl c ++ c_tl c3).
Proof.
  intros HU Hcp Hg Hdep Hg2 Hdep2 H1 H2 H3. unfold createPathProcessor in Hcp. destruct (build strict q) as [[d x]|] eqn:Eb; [|discriminate].
  cbn [bind] in Hcp. injection Hcp as <-. pose proof (build_any strict q d x HU Eb) as Hb. cbn [p_dfa] in *.
  assert (Hc : exists L, c = fresh L /\ zlen L <= MAX_TUPLE_LIST).
  { pose proof H1 as H1'. apply (any_exec d x dc [] c Hb Hg Hdep) in H1'; [|rewrite zlen_nil; unfold MAX_TUPLE_LIST; lia]. subst c. eexists. split; [reflexivity|].
    pose proof Hg as [Hwf Hsafe Hbl Hsize].
    assert (Hf : fits [] (t_val d false 1 0 (d_val dc))).
    { refine (exec_doc_inv d dc init_core _ (bt_dfa _ _ Hb) Hwf Hsafe (lead_zero dc Hbl) eq_refl eq_refl _ (start_valid d (bt_dfa _ _ Hb)) _ _ H1).
      - discriminate.
      - rewrite (proj1 depth_need). exact Hdep.
      - cbn. unfold MAX_TUPLE_LIST. lia. }
    apply fits_len in Hf. exact Hf. }
  destruct Hc as (L & -> & HL).
  apply (any_exec d x dc2 L c2 Hb Hg2 Hdep2 HL) in H2.
  apply (any_exec d x dc2 [] c3 Hb Hg2 Hdep2) in H3; [|rewrite zlen_nil; unfold MAX_TUPLE_LIST; lia]. subst. reflexivity.
Qed.
