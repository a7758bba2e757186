(** The evaluator computes the meaning of expressions, and the fields collected
    from an object are its fields. *)
From Verif Require Import Base Util Spec LexProof QueryClass Num FilterSpec Eval BuilderProof FilterProof.
Open Scope Z_scope.

(** * Collected fields *)
Definition ftext (v : json) : bytes := match v with JObj _ _ | JArr _ _ => [] | _ => text v end.
Definition pick_last (l : list json) (o : option bytes) : option bytes :=
  match last (map Some l) None with Some u => Some (ftext u) | None => o end.

Lemma last_app_some (l1 l2 : list json) :
  last (map Some (l1 ++ l2)) None = match last (map Some l2) None with Some u => Some u | None => last (map Some l1) None end.
Proof.
  destruct l2 as [|a l2] using rev_ind; [cbn; rewrite app_nil_r; reflexivity|].
  rewrite app_assoc, !map_app. cbn [map]. rewrite !last_last. reflexivity.
Qed.
Lemma pick_last_app l1 l2 o : pick_last (l1 ++ l2) o = pick_last l2 (pick_last l1 o).
Proof. unfold pick_last. rewrite last_app_some. destruct (last (map Some l2) None); reflexivity. Qed.

Lemma mark_other o t g s : ~ (exists f, g = t ++ f) -> mark o (map LKey t) s g = o g.
Proof.
  intros H. unfold mark. destruct (lkeyw g (map LKey t)) eqn:E; [|reflexivity]. apply lkeyw_true, lkey_inj in E. subst.
  exfalso. apply H. exists []. rewrite app_nil_r. reflexivity.
Qed.
Lemma mark_self o t s : mark o (map LKey t) s t = Some s.
Proof. unfold mark. replace (lkeyw t (map LKey t)) with true; [reflexivity|]. symmetry. apply lkeyw_true. reflexivity. Qed.
Lemma mark_below o t k f s : mark o (map LKey t) s (t ++ k :: f) = o (t ++ k :: f).
Proof.
  unfold mark. destruct (lkeyw _ _) eqn:E; [|reflexivity]. apply lkeyw_true, lkey_inj in E.
  apply (f_equal (@List.length _)) in E. rewrite app_length in E. cbn in E. lia.
Qed.

Lemma lkey_snoc t k : map LKey t ++ [LKey k] = map LKey (t ++ [k]).
Proof. rewrite map_app. reflexivity. Qed.

Lemma col_outside :
  (forall v o t g, ~ (exists f, g = t ++ f) -> col o (map LKey t) v g = o g) /\
  (forall ms o t g, ~ (exists k f, g = t ++ k :: f) -> col_ms o (map LKey t) ms g = o g) /\
  (forall l o t n g, col_es o (map LKey t) n l g = o g).
Proof.
  apply json_all_ind.
  - intros. apply mark_other. assumption.
  - intros. apply mark_other. assumption.
  - intros w ms IH o t g Hg. cbn [col]. rewrite IH; [apply mark_other; exact Hg|].
    intros (k & f & E). apply Hg. eauto.
  - intros w l IH o t g Hg. cbn [col]. rewrite IH. apply mark_other; exact Hg.
  - intros. reflexivity.
  - intros p k v IHv ms IHms o t g Hg. cbn [col_ms]. rewrite IHms by exact Hg. rewrite lkey_snoc. apply IHv.
    intros (f & E). apply Hg. exists k, f. rewrite E, <- app_assoc. reflexivity.
  - intros. reflexivity.
  - intros wb v IHv wa l IHl o t n g. cbn [col_es]. rewrite IHl.
    apply (proj1 (col_idx n g)). apply in_or_app. right. left. reflexivity.
Qed.

Lemma col_values :
  (forall v o t f, col o (map LKey t) v (t ++ f) = pick_last (values_at f v) (o (t ++ f))) /\
  (forall ms o t k f, col_ms o (map LKey t) ms (t ++ k :: f) = pick_last (values_ms k f ms) (o (t ++ k :: f))) /\
  (forall l : elements, True).
Proof.
  assert (Hprim : forall v o t f, match v with JObj _ _ | JArr _ _ => False | _ => True end -> mark o (map LKey t) (text v) (t ++ f) = pick_last (values_at f v) (o (t ++ f))).
  { intros v o t f Hv. destruct f as [|k f].
    - rewrite app_nil_r, mark_self. destruct v; try contradiction; reflexivity.
    - rewrite mark_below. destruct v; try contradiction; reflexivity. }
  apply json_all_ind.
  - intros s o t f. apply Hprim. exact I.
  - intros s o t f. apply Hprim. exact I.
  - intros w ms IH o t f. cbn [col]. destruct f as [|k f].
    + rewrite app_nil_r, (proj1 (proj2 col_outside)).
      * rewrite mark_self. reflexivity.
      * intros (k & f & E). apply (f_equal (@List.length _)) in E. rewrite app_length in E. cbn in E. lia.
    + rewrite IH, mark_below. reflexivity.
  - intros w l _ o t f. cbn [col]. rewrite (proj2 (proj2 col_outside)). destruct f as [|k f].
    + rewrite app_nil_r, mark_self. reflexivity.
    + rewrite mark_below. reflexivity.
  - intros. reflexivity.
  - intros p k' v IHv ms IHms o t k f. cbn [col_ms values_ms]. rewrite IHms, pick_last_app. f_equal. rewrite lkey_snoc.
    destruct (beq k k') eqn:E.
    + apply beq_true in E. subst k'. replace (t ++ k :: f) with ((t ++ [k]) ++ f) by (rewrite <- app_assoc; reflexivity).
      apply IHv.
    + rewrite (proj1 col_outside); [reflexivity|]. intros (f' & Ef). rewrite <- app_assoc in Ef. apply app_inv_head in Ef.
      cbn in Ef. injection Ef as Ek _. subst. rewrite beq_refl in E. discriminate.
  - exact I.
  - intros. exact I.
Qed.

Theorem col_field v f : f <> [] -> col (fun _ => None) [] v f = option_map ftext (field f v).
Proof.
  intros Hf. pose proof (proj1 col_values v (fun _ => None) [] f) as H. cbn [map app] in H. rewrite H.
  unfold pick_last, field. destruct (last _ None); reflexivity.
Qed.

(** * Evaluation *)
Section Ev.
  Variable N : numops.

  Definition jv (x : fval N) : jvalue N :=
    match x with
    | FAbsent | FNull => VNull
    | FComp => VBool true
    | FBool b => VBool b
    | FNum n => VNum n
    | FStr s => VStr s
    end.
  Lemma jv_truth x : computeTypeCast N (jv x) = truth N x.
  Proof. destruct x; reflexivity. Qed.

  Lemma removelast_snoc {A} (l : list A) a : removelast (l ++ [a]) = l.
  Proof. rewrite removelast_app by discriminate. apply app_nil_r. Qed.

  Lemma field_value o x : json_val N o = Some x -> stringToValue N (option_map ftext o) = jv x.
  Proof.
    destruct o as [v|]; cbn [json_val option_map]; [|intros H; injection H as <-; reflexivity].
    destruct v as [s|s|w ms|w l]; cbn [json_val ftext text]; intros H.
    - unfold stringToValue. destruct (beq s (B "true")) eqn:E1; [injection H as <-; reflexivity|].
      destruct (beq s (B "false")) eqn:E2; [injection H as <-; reflexivity|].
      destruct (beq s (B "null")) eqn:E3; [injection H as <-; reflexivity|].
      destruct (digit_word s) eqn:Ed; [|discriminate]. injection H as <-. destruct s as [|c s]; [discriminate|].
      cbn [digit_word] in Ed. unfold isdigit. rewrite Ed.
      destruct (Ascii.eqb c DQ) eqn:Eq; [|reflexivity]. apply Ascii.eqb_eq in Eq. subst c. discriminate Ed.
    - injection H as <-. unfold stringToValue. cbn [jv]. rewrite (removelast_snoc s DQ). destruct s; reflexivity.
    - injection H as <-. reflexivity.
    - injection H as <-. reflexivity.
  Qed.

  Lemma equal_jv x y b : equal N x y = Some b -> value_equal N (jv x) (jv y) = b.
  Proof. destruct x, y; cbn; intros H; try discriminate; injection H as <-; reflexivity. Qed.

  Lemma apply_jv op x y z : apply_op N op x y = Some z -> computeBinaryOperator N op (jv x) (jv y) = Ok (jv z).
  Proof.
    destruct op; cbn [apply_op computeBinaryOperator]; intros H.
    1,2: injection H as <-; rewrite !jv_truth; reflexivity.
    1,2: destruct (equal N x y) as [b|] eqn:E; [|discriminate]; injection H as <-; rewrite (equal_jv _ _ _ E); reflexivity.
    1-8: destruct x, y; try discriminate; injection H as <-; reflexivity.
    destruct x, y; try discriminate. cbn in H. unfold remainder in H. unfold modulo. cbn.
    destruct (n_to_ll N n), (n_to_ll N n0); try discriminate. destruct (z1 =? 0); [discriminate|]. injection H as <-. reflexivity.
  Qed.

  (** The table of the conditions. *)
  Variable env : list bytes -> option json.
  Variable fs : list (list bytes).
  Definition conds_of : conditions := map (fun f => (join f, option_map ftext (env f))) fs.
  Hypothesis Hdf : forall f, In f fs -> f <> [] /\ forallb dot_free f = true.

  Lemma lookup_field : forall fs', (forall f, In f fs' -> f <> [] /\ forallb dot_free f = true) ->
    forall f, In f fs' ->
    findValueInTable N (join f) (createTableFromConditions N (map (fun f => (join f, option_map ftext (env f))) fs'))
    = stringToValue N (option_map ftext (env f)).
  Proof.
    induction fs' as [|g fs' IH]; intros Hall f Hf; [contradiction|]. cbn [map createTableFromConditions findValueInTable fst snd].
    destruct (beq (join g) (join f)) eqn:E.
    - apply beq_true in E. assert (g = f) as ->; [|reflexivity].
      destruct (Hall f Hf), (Hall g (or_introl eq_refl)). apply join_inj; auto.
    - destruct Hf as [<-|Hf]; [rewrite beq_refl in E; discriminate|]. apply IH; auto. intros g' Hg'. apply Hall. right. exact Hg'.
  Qed.

  Theorem calculate_meaning e x : (forall f, In f (fields_in e) -> In f fs) -> meaning N env e = Some x ->
    calculateExpression N e (createTableFromConditions N conds_of) = Ok (jv x).
  Proof.
    revert x. induction e as [f|neg lit|s|e1 IH1|op e1 IH1 e2 IH2]; intros x Hin H; cbn [calculateExpression meaning fields_in] in *.
    - destruct (Hdf f (Hin f (or_introl eq_refl))) as [Hn _]. destruct f as [|k f]; [congruence|].
      unfold conds_of. rewrite (lookup_field fs Hdf) by (apply Hin; left; reflexivity). f_equal. apply field_value, H.
    - injection H as <-. destruct neg; reflexivity.
    - injection H as <-. reflexivity.
    - destruct (meaning N env e1) as [x1|]; [|discriminate]. injection H as <-. rewrite (IH1 x1 Hin eq_refl). cbn [bind].
      rewrite jv_truth. reflexivity.
    - destruct (meaning N env e1) as [x1|]; [|discriminate]. destruct (meaning N env e2) as [x2|]; [|discriminate]. cbn [obind] in H.
      rewrite (IH1 x1), (IH2 x2); auto using in_or_app. cbn [bind]. apply apply_jv, H.
  Qed.

  Theorem evaluate_meaning e x : (forall f, In f (fields_in e) -> In f fs) -> meaning N env e = Some x ->
    evaluateExpression N e conds_of = Ok (truth N x).
  Proof.
    intros Hin H. unfold evaluateExpression. rewrite (calculate_meaning e x Hin H). cbn [bind]. rewrite jv_truth. reflexivity.
  Qed.
End Ev.

(** What the filter evaluates at the end of an object is the meaning of the
    expression on that object. *)
Theorem ev_holds N e v : (forall f, In f (fields_in e) -> f <> [] /\ forallb dot_free f = true) -> meaningful N e v ->
  ev N e v = Ok (holds N e v).
Proof.
  intros Hf Hm. assert (Hnub : forall f, In f (nub_fields e) -> In f (fields_in e)) by (intros f; apply nub_in). unfold meaningful, holds in *. destruct (meaning N _ e) as [x|] eqn:E; [|congruence].
  rewrite <- (evaluate_meaning N (fun f => field f v) (nub_fields e)) with (e := e).
  - unfold ev, conds_of. f_equal. apply map_ext_in. intros f Hin. rewrite col_field; [reflexivity|]. apply Hf, Hnub, Hin.
  - intros f Hin. apply Hf, Hnub, Hin.
  - intros f Hin. apply nub_in. exact Hin.
  - exact E.
Qed.
