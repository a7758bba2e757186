(** Model of the expression evaluator, JSONPathParser/jsonpath_evaluator.h. *)
From Verif Require Import Base Spec.
From Verif Require Export Num.
Open Scope Z_scope.

(** jsonpath_evaluator.h:17-28 [JSONPathValue]. *)
Inductive jvalue (N : numops) : Type :=
| VNull
| VNum (n : num N)
| VStr (s : bytes)
| VBool (b : bool).
Arguments VNull {N}. Arguments VNum {N}. Arguments VStr {N}. Arguments VBool {N}.

(** The string of the variable that stands for [@.a.b], built by
    evaluatorModifyReference (lines 278-279 and 288-292). *)
Fixpoint join (p : list bytes) : bytes :=
  match p with
  | [] => []
  | [k] => k
  | k :: p' => k ++ B "." ++ join p'
  end.

(** jsonpath_evaluator.h:11-14 [PredicateCondition]: name and text (NULL: None).
    The terminating entry is the end of the list. *)
Definition conditions := list (bytes * option bytes).

(** isdigit. *)
Definition isdigit (c : ascii) : bool :=
  Nat.leb 48 (nat_of_ascii c) && Nat.leb (nat_of_ascii c) 57.

Section Evaluator.
  Variable N : numops.

  (** jsonpath_evaluator.h:39-50 [findValueInTable]. *)
  Fixpoint findValueInTable (name : bytes) (table : list (bytes * jvalue N)) : jvalue N :=
    match table with
    | [] => VNull
    | (k, v) :: table' => if beq k name then v else findValueInTable name table'
    end.

  (** jsonpath_evaluator.h:52-58 [computeTypeCast], its boolean. *)
  Definition computeTypeCast (v : jvalue N) : bool :=
    match v with
    | VNull => false
    | VNum n => negb (n_eqb N n (n_zero N))
    | VStr _ => true
    | VBool b => b
    end.

  (** The access [v.number]: a null value has the number 0.0 in its union, the
      union of a string or a boolean does not hold a number. *)
  Definition number_of (v : jvalue N) : res (num N) :=
    match v with
    | VNull => Ok (n_zero N)
    | VNum n => Ok n
    | VStr _ | VBool _ => UB TypePun
    end.

  (** jsonpath_evaluator.h:101-114: case jot_equal. *)
  Definition value_equal (v1 v2 : jvalue N) : bool :=
    match v1, v2 with
    | VBool a, VBool b => Bool.eqb a b
    | VNum a, VNum b => n_eqb N a b
    | VStr a, VStr b => beq a b
    | VNull, VNull => true
    | _, _ => false
    end.

  Definition on_numbers {A} (f : num N -> num N -> A) (v1 v2 : jvalue N) : res A :=
    a <- number_of v1 ;; b <- number_of v2 ;; Ok (f a b).

  (** jsonpath_evaluator.h:153: the remainder of the operands as long long. *)
  Definition modulo (v1 v2 : jvalue N) : res (jvalue N) :=
    a <- number_of v1 ;; b <- number_of v2 ;;
    match n_to_ll N a, n_to_ll N b with
    | Some x, Some y => if y =? 0 then UB DivZero else Ok (VNum (n_of_ll N (Z.rem x y)))
    | _, _ => UB BadConv
    end.

  (** jsonpath_evaluator.h:84-157 [computeBinaryOperator]. *)
  Definition computeBinaryOperator (op : binop) (v1 v2 : jvalue N) : res (jvalue N) :=
    match op with
    | BOr => Ok (VBool (computeTypeCast v1 || computeTypeCast v2))
    | BAnd => Ok (VBool (computeTypeCast v1 && computeTypeCast v2))
    | BEq => Ok (VBool (value_equal v1 v2))
    | BNeq => Ok (VBool (negb (value_equal v1 v2)))
    | BLt => b <- on_numbers (n_ltb N) v1 v2 ;; Ok (VBool b)
    | BGt => b <- on_numbers (fun a b => n_ltb N b a) v1 v2 ;; Ok (VBool b)
    | BLe => b <- on_numbers (n_leb N) v1 v2 ;; Ok (VBool b)
    | BGe => b <- on_numbers (fun a b => n_leb N b a) v1 v2 ;; Ok (VBool b)
    | BAdd => x <- on_numbers (n_add N) v1 v2 ;; Ok (VNum x)
    | BSub => x <- on_numbers (n_sub N) v1 v2 ;; Ok (VNum x)
    | BMul => x <- on_numbers (n_mul N) v1 v2 ;; Ok (VNum x)
    | BDiv => x <- on_numbers (n_div N) v1 v2 ;; Ok (VNum x)
    | BMod => modulo v1 v2
    end.

  (** jsonpath_evaluator.h:159-191 [stringToValue].  (A text consisting of one
      quote would make the copy run out of bounds; the lexer never delivers
      it.) *)
  Definition stringToValue (s : option bytes) : jvalue N :=
    match s with
    | None => VNull
    | Some s =>
        if beq s (B "true") then VBool true
        else if beq s (B "false") then VBool false
        else if beq s (B "null") then VNull
        else match s with
             | [] => VBool true
             | c :: s' =>
                 if Ascii.eqb c DQ then VStr (removelast s')
                 else if isdigit c then VNum (n_atof N s)
                 else VNull
             end
    end.

  (** jsonpath_evaluator.h:193-203 [createTableFromConditions]. *)
  Definition createTableFromConditions (cs : conditions) : list (bytes * jvalue N) :=
    map (fun c => (fst c, stringToValue (snd c))) cs.

  (** jsonpath_evaluator.h:214-244 [calculateExpression]; the number of a literal
      is computed by the scanner (scanner_j.l:8) and negated by the grammar
      (parser_j.y:101-103).  A lone [@] is a node of another kind: null. *)
  Fixpoint calculateExpression (e : expr) (table : list (bytes * jvalue N)) : res (jvalue N) :=
    match e with
    | EField [] => Ok VNull
    | EField p => Ok (findValueInTable (join p) table)
    | ENum neg lit => Ok (VNum (if neg : bool then n_neg N (n_atof N lit) else n_atof N lit))
    | EStr s => Ok (VStr s)
    | ENot e1 => v <- calculateExpression e1 table ;; Ok (VBool (negb (computeTypeCast v)))
    | EBin op e1 e2 =>
        v1 <- calculateExpression e1 table ;;
        v2 <- calculateExpression e2 table ;;
        computeBinaryOperator op v1 v2
    end.

  (** jsonpath_evaluator.h:252-256 [evaluateExpression]. *)
  Definition evaluateExpression (e : expr) (cs : conditions) : res bool :=
    v <- calculateExpression e (createTableFromConditions cs) ;; Ok (computeTypeCast v).

  (** jsonpath_evaluator.h:205-212 [clearPredicateCondtion]. *)
  Definition clearPredicateCondtion (cs : conditions) : conditions :=
    map (fun c => (fst c, None)) cs.
End Evaluator.
