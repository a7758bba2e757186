(** Properties of filters: C27-C29. *)
From Verif Require Import Base Util Spec QueryClass PosSpec Claims Num FilterSpec Builder Eval Filter BuilderProof EvalProof FilterClaim Run Samples Findings.
Open Scope Z_scope.

(** * C27: the value of a filter expression *)

(** What the evaluator is given for a field: nothing if it is absent, the empty
    text for an object or array, the text of the value otherwise. *)
Definition delivered (o : option json) : option bytes :=
  match o with None => None | Some (JObj _ _) | Some (JArr _ _) => Some [] | Some v => Some (text v) end.
Definition field_table (env : list bytes -> option json) (fs : list (list bytes)) : conditions :=
  map (fun f => (join f, delivered (env f))) fs.

Definition C27_full : Prop := forall N env fs e,
  (forall f, In f (fields_in e) -> In f fs) ->
  exists b, evaluateExpression N e (field_table env fs) = Ok b /\
    (forall x, meaning N env e = Some x -> b = truth N x) /\
    (meaning N env e = None -> b = false).

(** Missing: expressions without a meaning (an order comparison or arithmetic on
    something that is not a number, a remainder by zero), for which see C28; names
    of fields are not empty and contain no dot. *)
Theorem C27_partial : forall N env fs e x,
  (forall f, In f fs -> f <> [] /\ forallb dot_free f = true) ->
  (forall f, In f (fields_in e) -> In f fs) -> meaning N env e = Some x ->
  evaluateExpression N e (field_table env fs) = Ok (truth N x).
Proof.
  intros N env fs e x H1 H2 H3. rewrite <- (evaluate_meaning N env fs H1 e x H2 H3). unfold field_table, conds_of. f_equal.
  apply map_ext. intros f. destruct (env f) as [[]|]; reflexivity.
Qed.
Print Assumptions C27_partial.

Definition sample_env (f : list bytes) : option json :=
  match f with
  | [k] => if beq k (B "price") then Some (num "8") else if beq k (B "title") then Some (str "x") else None
  | _ => None
  end.
(** @.price < 10 && (!@.sold || @.title == "y") *)
Definition sample_expr : expr :=
  EBin BAnd (EBin BLt (EField [B "price"]) (ENum false (B "10")))
    (EBin BOr (ENot (EField [B "sold"])) (EBin BEq (EField [B "title"]) (EStr (B "y")))).
Example C27_example :
  (forall f, In f (fields_in sample_expr) -> f <> [] /\ forallb dot_free f = true) /\
  meaning zops sample_env sample_expr = Some (FBool true) /\
  evaluateExpression zops sample_expr (field_table sample_env (fields_in sample_expr)) = Ok true.
Proof.
  split; [|vm_compute; auto]. intros f Hf. cbn in Hf. repeat (destruct Hf as [<-|Hf]; [split; [discriminate|reflexivity]|]). destruct Hf.
Qed.

(** Comparing a string with a number reads the wrong member of a union. *)
Theorem C27_refuted : exists env fs e, (forall f, In f (fields_in e) -> In f fs) /\
  forall N, evaluateExpression N e (field_table env fs) = UB TypePun.
Proof.
  exists sample_env, [[B "title"]], (EBin BLt (EField [B "title"]) (ENum false (B "10"))). split; [cbn; auto|]. intros N. reflexivity.
Qed.
Print Assumptions C27_refuted.

(** * C28: absent fields *)
Definition C28_full : Prop := forall N op e cs f,
  f <> [] -> absent cs f -> In op [BEq; BLt; BGt; BLe; BGe] -> match e with ENum _ _ | EStr _ => True | _ => False end ->
  evaluateExpression N (EBin op (EField f) e) cs = Ok false.

(** Missing: the order comparisons, which fail the claim (below). *)
Theorem C28_partial : forall N e cs f,
  f <> [] -> absent cs f -> match e with ENum _ _ | EStr _ => True | _ => False end ->
  evaluateExpression N (EBin BEq (EField f) e) cs = Ok false /\ evaluateExpression N (EField f) cs = Ok false.
Proof. intros N e cs f H1 H2 H3. split; [exact (absent_equal N cs f e H1 H2 H3)|exact (absent_exists N cs f H1 H2)]. Qed.
Print Assumptions C28_partial.

(** In an order comparison with a number an absent field counts as zero. *)
Theorem C28_zero : forall N cs f op r neg lit, f <> [] -> absent cs f -> order N op = Some r ->
  evaluateExpression N (EBin op (EField f) (ENum neg lit)) cs
  = Ok (r (n_zero N) (if neg : bool then n_neg N (n_atof N lit) else n_atof N lit)).
Proof. exact absent_order. Qed.
Print Assumptions C28_zero.

Example C28_example : absent (field_table sample_env [[B "price"]; [B "sold"]]) [B "sold"] /\
  ~ absent (field_table sample_env [[B "price"]; [B "sold"]]) [B "price"].
Proof.
  split.
  - intros n t [E|[E|[]]] Hn; injection E as <- <-; [discriminate|reflexivity].
  - intros H. specialize (H _ _ (or_introl eq_refl) eq_refl). discriminate.
Qed.

(** [$.a[?(@.price < 10)].c] on [{"a": [{"b": "x"},{"c": "y"}]}] outputs [y]. *)
Theorem C28_refuted : exists q dc e1 e2 out, good_doc dc /\
  d_val dc = obj [(B "a", arr [e1; e2])] /\ field [B "price"] e1 = None /\ field [B "price"] e2 = None /\
  q = [SChild (B "a"); below "price" "10"; SChild (B "c")] /\ out <> [] /\
  forall strict j p, j_major_null j = true -> createPathProcessor strict q = Ok p -> serialRun zops j p (doc_text dc) = Ok (Some out).
Proof.
  exists q_absent, two_elems. eexists. eexists. exists [B """y"""]. split; [apply good_checked; vm_compute; reflexivity|]. split; [reflexivity|].
  split; [reflexivity|]. split; [reflexivity|]. split; [reflexivity|]. split; [discriminate|]. exact absent_run.
Qed.
Print Assumptions C28_refuted.

(** * C29: filtering in pieces *)
Theorem C29_pieces : forall N x pf l1 l2,
  generateFinalOutput N x pf (l1 ++ l2) = (pf1 <- generateFinalOutput N x pf l1 ;; generateFinalOutput N x pf1 l2).
Proof. exact filter_pieces. Qed.
Print Assumptions C29_pieces.

(** Two elements of a filtered array; the cut lies inside the second one, after
    its candidate was seen and before its condition was. *)
Definition q_cheap : query := [SChild (B "a"); below "p" "10"; SChild (B "c")].
Definition tuples1 : list Stream.tuple :=
  [(3, B "{"); (5, B "1"); (4, B "8"); (3, B "}"); (3, B "{"); (5, B "2")].
Definition tuples2 : list Stream.tuple := [(4, B "9"); (3, B "}")].
Definition two_batches : res (pfilter * pfilter) :=
  '(_, x) <- build true q_cheap ;;
  pf0 <- initPredicateFilter x ;;
  pf1 <- generateFinalOutput zops x pf0 tuples1 ;;
  pf2 <- generateFinalOutput zops x pf1 tuples2 ;;
  Ok (pf1, pf2).
Example C29_example : exists pf1 pf2, two_batches = Ok (pf1, pf2) /\
  f_output pf1 = [B "1"] /\ f_buffer pf1 = [B "2"] /\ List.length (f_stack pf1) = 1%nat /\ f_output pf2 = [B "1"; B "2"].
Proof. eexists. eexists. split; [vm_compute; reflexivity|]. vm_compute. auto. Qed.
