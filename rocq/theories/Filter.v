(** Model of the filtering stage, JSONQuery/predicate.[hc] and JSONQuery/output.h. *)
From Verif Require Import Base Spec Util Dfa Stream Builder Eval.
Open Scope Z_scope.

(** JSONQuery/output.h:6-7 and 48-52 [addOutputElement]. *)
Definition MAX_OUTPUT : Z := 800000.
Definition MAX_STRING : Z := 1000.
Definition addOutputElement (o : list bytes) (txt : bytes) : res (list bytes) :=
  if MAX_OUTPUT <=? zlen o then UB OOBWrite
  else t <- strcopy MAX_STRING txt ;; Ok (o ++ [t]).

(** JSONQuery/predicate.h:9-10. *)
Definition MAX_PREDICATE_STATE : nat := 100.
Definition MAX_STACK_ELEMENT : nat := 100.

(** JSONQuery/predicate.h:25-38 [PredicateFilter].  The stack is a list with the
    top first: (predicate_state, output_buffer_pointer).  [f_buffer] of the
    model is empty where the C pointer is still NULL. *)
Record pfilter : Type := mkF {
  f_conds  : list (option conditions);
  f_stack  : list (Z * Z);
  f_buffer : list bytes;
  f_output : list bytes
}.

(** The access [node->string] (jsonpath_model.h:27-32): the union holds a string
    only for variables and string literals; a lone [@] leaves it unset. *)
Definition node_string (e : expr) : res bytes :=
  match e with
  | EField [] => UB UninitRead
  | EField p => Ok (join p)
  | EStr s => Ok s
  | _ => UB TypePun
  end.

(** dfa_builder.h:31-33 [getContextSubtree]. *)
Definition getContextSubtree (x : qctx) (s : Z) : res (option expr) := zread (x_subtrees x) s.

(** JSONQuery/predicate.h:82-88: the entry of one condition. *)
Definition init_condition (x : qctx) (con_state : Z) : res (bytes * option bytes) :=
  node <- getContextSubtree x con_state ;;
  match node with
  | None => UB NullDeref
  | Some e => n <- node_string e ;; Ok (n, None)
  end.

(** JSONQuery/predicate.h:74-90: the table of one predicate state. *)
Definition init_pred (x : qctx) (cs : list (option conditions)) (pred_state : Z)
  : res (list (option conditions)) :=
  l <- zread (x_mapping x) pred_state ;;
  if (pred_state <? 0) || (Z.of_nat MAX_PREDICATE_STATE <=? pred_state) then UB OOBWrite
  else
    entries <- mapM (init_condition x) l ;;
    Ok (upd cs (Z.to_nat pred_state) (Some entries)).

(** JSONQuery/predicate.h:66-95 [initPredicateFilter]. *)
Definition initPredicateFilter (x : qctx) : res pfilter :=
  cs <- foldM (init_pred x) (x_preds x) (repeat None MAX_PREDICATE_STATE) ;;
  Ok (mkF cs [] [] []).

(** predicate.c:84-90: the position of the condition with the given name. *)
Fixpoint find_condition (cs : conditions) (name : bytes) : option nat :=
  match cs with
  | [] => None
  | (n, _) :: cs' =>
      if beq n name then Some O
      else match find_condition cs' name with Some i => Some (S i) | None => None end
  end.

Definition set_condition (cs : conditions) (i : nat) (txt : bytes) : conditions :=
  match nth_error cs i with
  | Some (n, _) => upd cs i (n, Some txt)
  | None => cs
  end.

Definition read_conds (f : pfilter) (s : Z) : res conditions :=
  o <- zread (f_conds f) s ;;
  match o with None => UB NullDeref | Some cs => Ok cs end.

Section FilterRun.
  Variable N : numops.
  Variable x : qctx.

  (** predicate.c:38-44. *)
  Definition filter_open (f : pfilter) (state : Z) : res pfilter :=
    if Nat.leb MAX_STACK_ELEMENT (List.length (f_stack f)) then UB OOBWrite
    else Ok (mkF (f_conds f) ((state, zlen (f_buffer f)) :: f_stack f) (f_buffer f) (f_output f)).

  (** predicate.c:46-75. *)
  Definition filter_close (f : pfilter) : res pfilter :=
    match f_stack f with
    | [] => UB OOBRead
    | (pred_state, first_idx) :: st =>
        pc <- read_conds f pred_state ;;
        node <- getContextSubtree x pred_state ;;
        match node with
        | None => UB NullDeref
        | Some e =>
            v <- evaluateExpression N e pc ;;
            let kept := firstn (Z.to_nat first_idx) (f_buffer f) in
            let last := skipn (Z.to_nat first_idx) (f_buffer f) in
            let cs := upd (f_conds f) (Z.to_nat pred_state) (Some (clearPredicateCondtion pc)) in
            if v : bool
            then match st with
                 | [] => o <- foldM addOutputElement last (f_output f) ;;
                         Ok (mkF cs [] kept o)
                 | _ => Ok (mkF cs st (f_buffer f) (f_output f))
                 end
            else Ok (mkF cs st kept (f_output f))
        end
    end.

  (** predicate.c:76-100. *)
  Definition filter_text (f : pfilter) (state : Z) (txt : bytes) : res pfilter :=
    match f_stack f with
    | [] => Ok f
    | (pred_state, _) :: _ =>
        o <- zread (f_conds f) pred_state ;;
        node <- getContextSubtree x state ;;
        match node with
        | None =>
            b <- addOutputElement (f_buffer f) txt ;;
            Ok (mkF (f_conds f) (f_stack f) b (f_output f))
        | Some e =>
            match o with
            | None => UB NullDeref
            | Some [] =>
                b <- addOutputElement (f_buffer f) txt ;;
                Ok (mkF (f_conds f) (f_stack f) b (f_output f))
            | Some pc =>
                name <- node_string e ;;
                match find_condition pc name with
                | Some i =>
                    Ok (mkF (upd (f_conds f) (Z.to_nat pred_state) (Some (set_condition pc i txt)))
                            (f_stack f) (f_buffer f) (f_output f))
                | None =>
                    b <- addOutputElement (f_buffer f) txt ;;
                    Ok (mkF (f_conds f) (f_stack f) b (f_output f))
                end
            end
        end
    end.

  (** One iteration of predicate.c:32-101. *)
  Definition filter_step (f : pfilter) (t : tuple) : res pfilter :=
    let '(state, txt) := t in
    if beq txt (B "{") then filter_open f state
    else if beq txt (B "}") then filter_close f
    else filter_text f state txt.

  (** predicate.c:12-14. *)
  Definition no_predicates (f : pfilter) : bool :=
    forallb (fun o => match o with None => true | Some _ => false end) (f_conds f).

  (** predicate.c:4-106 [generateFinalOutput]. *)
  Definition generateFinalOutput (f : pfilter) (tl : list tuple) : res pfilter :=
    if no_predicates f
    then o <- foldM addOutputElement (map snd tl) (f_output f) ;;
         Ok (mkF (f_conds f) (f_stack f) (f_buffer f) o)
    else foldM filter_step tl f.
End FilterRun.
