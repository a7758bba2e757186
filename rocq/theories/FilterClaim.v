(** Proofs of the claims about filters. *)
From Verif Require Import Base Util Spec QueryClass Num FilterSpec Builder Eval Filter.
From Coq Require Import Lia.
Open Scope Z_scope.

(** * Absent fields *)
Definition absent (cs : conditions) (f : list bytes) : Prop := forall n t, In (n, t) cs -> n = join f -> t = None.

Lemma lookup_absent N cs f : f <> [] -> absent cs f -> findValueInTable N (join f) (createTableFromConditions N cs) = VNull.
Proof.
  intros _ H. induction cs as [|[n t] cs IH]; [reflexivity|]. cbn [createTableFromConditions map findValueInTable fst snd].
  destruct (beq n (join f)) eqn:E.
  - apply beq_true in E. rewrite (H n t (or_introl eq_refl) E). reflexivity.
  - apply IH. intros n' t' Hin. apply H. right. exact Hin.
Qed.

Lemma absent_equal N cs f e : f <> [] -> absent cs f ->
  match e with ENum _ _ | EStr _ => True | _ => False end ->
  evaluateExpression N (EBin BEq (EField f) e) cs = Ok false.
Proof.
  intros Hf Ha He. unfold evaluateExpression. destruct f as [|k f]; [congruence|]. cbn [calculateExpression].
  rewrite (lookup_absent N cs (k :: f) Hf Ha). destruct e; try contradiction; reflexivity.
Qed.

Lemma absent_exists N cs f : f <> [] -> absent cs f -> evaluateExpression N (EField f) cs = Ok false.
Proof.
  intros Hf Ha. unfold evaluateExpression. destruct f as [|k f]; [congruence|]. cbn [calculateExpression].
  rewrite (lookup_absent N cs (k :: f) Hf Ha). reflexivity.
Qed.

Definition order (N : numops) (op : binop) : option (num N -> num N -> bool) :=
  match op with
  | BLt => Some (n_ltb N) | BLe => Some (n_leb N)
  | BGt => Some (fun a b => n_ltb N b a) | BGe => Some (fun a b => n_leb N b a)
  | _ => None
  end.

Lemma absent_order N cs f op r neg lit : f <> [] -> absent cs f -> order N op = Some r ->
  evaluateExpression N (EBin op (EField f) (ENum neg lit)) cs
  = Ok (r (n_zero N) (if neg : bool then n_neg N (n_atof N lit) else n_atof N lit)).
Proof.
  intros Hf Ha Ho. unfold evaluateExpression. destruct f as [|k f]; [congruence|]. cbn [calculateExpression].
  rewrite (lookup_absent N cs (k :: f) Hf Ha). cbn [bind].
  destruct op; cbn in Ho; try discriminate; injection Ho as <-; reflexivity.
Qed.

(** * Filtering in pieces *)
Lemma upd_some {A} (l : list (option A)) i a :
  forallb (fun o => match o with None => true | Some _ => false end) l = false ->
  forallb (fun o => match o with None => true | Some _ => false end) (upd l i (Some a)) = false.
Proof.
  revert i. induction l as [|o l IH]; intros i H; [discriminate|]. destruct i as [|i]; cbn [upd forallb] in *; [reflexivity|].
  destruct o; [reflexivity|]. cbn in *. apply IH, H.
Qed.

Lemma step_predicates N x f t f' : filter_step N x f t = Ok f' -> no_predicates f = false -> no_predicates f' = false.
Proof.
  unfold filter_step. destruct t as [s txt]. intros H Hn. destruct (beq txt (B "{")); [|destruct (beq txt (B "}"))].
  - unfold filter_open in H. destruct (Nat.leb _ _); [discriminate|]. injection H as <-. exact Hn.
  - unfold filter_close in H. destruct (f_stack f) as [|[ps fi] st]; [discriminate|].
    destruct (read_conds f ps); [|discriminate]. cbn [bind] in H.
    destruct (getContextSubtree x ps) as [[e|]|]; cbn [bind] in H; [|discriminate|discriminate].
    destruct (evaluateExpression N e a) as [v|]; [|discriminate]. cbn [bind] in H. destruct v.
    + destruct st.
      * destruct (foldM addOutputElement _ _) as [o|]; [|discriminate]. cbn [bind] in H. injection H as <-. apply upd_some, Hn.
      * injection H as <-. apply upd_some, Hn.
    + injection H as <-. apply upd_some, Hn.
  - unfold filter_text in H. destruct (f_stack f) as [|[ps fi] st]; [injection H as <-; exact Hn|].
    repeat match type of H with
    | bind ?y _ = Ok _ => destruct y; [cbn [bind] in H|discriminate H]
    | match ?y with _ => _ end = Ok _ => destruct y
    | Ok _ = Ok _ => injection H as <-; first [exact Hn | apply upd_some, Hn]
    | UB _ = Ok _ => discriminate H
    end.
Qed.

Lemma steps_predicates N x : forall l f f', foldM (filter_step N x) l f = Ok f' -> no_predicates f = false -> no_predicates f' = false.
Proof.
  induction l as [|t l IH]; intros f f' H Hn; cbn [foldM] in H; [injection H as <-; exact Hn|].
  destruct (filter_step N x f t) as [f1|] eqn:E; [|discriminate]. cbn [bind] in H. eapply IH; [exact H|]. eapply step_predicates; eauto.
Qed.

Theorem filter_pieces N x pf l1 l2 : generateFinalOutput N x pf (l1 ++ l2) =
  (pf1 <- generateFinalOutput N x pf l1 ;; generateFinalOutput N x pf1 l2).
Proof.
  unfold generateFinalOutput. destruct (no_predicates pf) eqn:En.
  - rewrite map_app, foldM_app. unfold Stream.tuple, bytes in *. match goal with |- bind (bind ?a _) _ = _ => destruct a as [o|u]; [|reflexivity] end. cbn [bind].
    change (no_predicates (mkF (f_conds pf) (f_stack pf) (f_buffer pf) o)) with (no_predicates pf). rewrite En. cbn [f_output f_conds f_stack f_buffer]. reflexivity.
  - rewrite foldM_app. destruct (foldM (filter_step N x) l1 pf) as [f1|u] eqn:E; [|reflexivity]. cbn [bind].
    rewrite (steps_predicates N x l1 pf f1 E En). reflexivity.
Qed.
