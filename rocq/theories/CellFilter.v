(** Model of the filtering stage (JSONQuery/predicate.[hc]) on the arrays of Cells.v:
    the tuple list, the buffer of candidates, the final output and the stack of open
    elements are as they are in memory.  Filter.v has lists in their place;
    CellFilterProof.v relates the two.  The condition tables and the syntax trees are
    those of Filter.v. *)
From Verif Require Import Base Spec Util Num Dfa Builder Eval Filter Cells.
Open Scope Z_scope.

(** JSONQuery/predicate.h:25-38 [PredicateFilter]; the stack is predicate.h:15-23.
    [g_buffer] is NULL at first. *)
Record cfilter : Type := mkG {
  g_conds  : list (option conditions);
  g_stack  : astack (Z * Z);
  g_buffer : option output;
  g_output : output
}.
(** JSONQuery/predicate.h:66-95 [initPredicateFilter] after the condition tables;
    [stack_junk], [out_junk]: what malloc leaves. *)
Definition initFilter_c (cs : list (option conditions)) (stack_junk : list (Z * Z)) (out_junk : list bytes) : cfilter :=
  mkG cs (initStack stack_junk) None (initOutput out_junk).
(** JSONQuery/predicate.h:45-49 [pushPredicateStack]: no test of the size. *)
Definition pushPredicateStack (st : astack (Z * Z)) (e : Z * Z) : res (astack (Z * Z)) :=
  let top := s_top st + 1 in
  if (top <? 0) || (zlen (s_item st) <=? top) then UB OOBWrite
  else Ok (mkAst (upd (s_item st) (Z.to_nat top) e) top).
(** JSONQuery/predicate.h:51-59 [popPredicateStack], [getTopPredicateStack]: no test
    whether there is an element. *)
Definition popPredicateStack (st : astack (Z * Z)) : res (astack (Z * Z)) :=
  _ <- item_at st (s_top st) ;; Ok (mkAst (s_item st) (s_top st - 1)).
Definition getTopPredicateStack (st : astack (Z * Z)) : res (Z * Z) := item_at st (s_top st).
(** JSONQuery/predicate.c:62-65: the candidates are copied; [n] is buf_size-j. *)
Fixpoint release (n : nat) (j : Z) (buffer out : output) : res output :=
  match n with
  | O => Ok out
  | S n' => b <- getOutputElement buffer j ;; o <- addOutputElement_c out b ;; release n' (j + 1) buffer o
  end.

Section Steps.
  Variable N : numops.
  Variable x : qctx.

  (** JSONQuery/predicate.c:38-44. *)
  Definition open_c (g : cfilter) (buffer : output) (state : Z) : res cfilter :=
    st <- pushPredicateStack (g_stack g) (state, getOutputSize buffer) ;;
    Ok (mkG (g_conds g) st (Some buffer) (g_output g)).
  (** JSONQuery/predicate.c:46-75. *)
  Definition close_c (g : cfilter) (buffer : output) : res cfilter :=
    '(pred_state, first_idx) <- getTopPredicateStack (g_stack g) ;;
    o <- zread (g_conds g) pred_state ;;
    match o with
    | None => UB NullDeref
    | Some pc =>
        node <- getContextSubtree x pred_state ;;
        match node with
        | None => UB NullDeref
        | Some e =>
            v <- evaluateExpression N e pc ;;
            let buf_size := getOutputSize buffer in
            let rmv_num := buf_size - first_idx in
            '(buffer1, out) <-
              (if v : bool then
                 if stackSize (g_stack g) =? 1 then
                   o <- release (Z.to_nat (buf_size - first_idx)) first_idx buffer (g_output g) ;;
                   Ok (removeOutputElement buffer rmv_num, o)
                 else Ok (buffer, g_output g)
               else Ok (removeOutputElement buffer rmv_num, g_output g)) ;;
            let cs := upd (g_conds g) (Z.to_nat pred_state) (Some (clearPredicateCondtion pc)) in
            st <- popPredicateStack (g_stack g) ;;
            Ok (mkG cs st (Some buffer1) out)
        end
    end.
  (** JSONQuery/predicate.c:76-100. *)
  Definition text_c (g : cfilter) (buffer : output) (state : Z) (text : bytes) : res cfilter :=
    if 0 <? stackSize (g_stack g) then
      '(pred_state, _) <- getTopPredicateStack (g_stack g) ;;
      o <- zread (g_conds g) pred_state ;;
      node <- getContextSubtree x state ;;
      let candidate := b <- addOutputElement_c buffer text ;; Ok (mkG (g_conds g) (g_stack g) (Some b) (g_output g)) in
      match node with
      | None => candidate
      | Some e =>
          match o with
          | None => UB NullDeref
          | Some [] => candidate
          | Some pc =>
              name <- node_string e ;;
              match find_condition pc name with
              | Some i => Ok (mkG (upd (g_conds g) (Z.to_nat pred_state) (Some (set_condition pc i (c_string text)))) (g_stack g) (Some buffer) (g_output g))
              | None => candidate
              end
          end
      end
    else Ok g.
  (** One iteration of JSONQuery/predicate.c:32-101. *)
  Definition step_c (g : cfilter) (t : tcell) : res cfilter :=
    match g_buffer g with
    | None => UB NullDeref
    | Some buffer =>
        let text := tc_text t in
        if beq (c_string text) (B "{") then open_c g buffer (tc_state t)
        else if beq (c_string text) (B "}") then close_c g buffer
        else text_c g buffer (tc_state t) text
    end.
  (** JSONQuery/predicate.c:32-34 and 17-21: the loops over the tuple list; [n] is
      end_index-i. *)
  Fixpoint each_tuple {S} (f : S -> tcell -> res S) (n : nat) (i : Z) (tl : tlist) (s : S) : res S :=
    match n with
    | O => Ok s
    | S n' => t <- getTuple tl i ;; s' <- f s t ;; each_tuple f n' (i + 1) tl s'
    end.
  (** JSONQuery/predicate.c:4-106 [generateFinalOutput]; [buf_junk] is what malloc
      leaves if the buffer is created (line 25). *)
  Definition generateFinalOutput_c (buf_junk : list bytes) (g : cfilter) (tl : tlist) : res cfilter :=
    let n := Z.to_nat (getTupleListSize tl) in
    if forallb (fun o : option conditions => match o with None => true | Some _ => false end) (g_conds g) then
      o <- each_tuple (fun o t => addOutputElement_c o (tc_text t)) n 0 tl (g_output g) ;;
      Ok (mkG (g_conds g) (g_stack g) (g_buffer g) o)
    else
      let buffer := match g_buffer g with Some b => b | None => initOutput buf_junk end in
      each_tuple step_c n 0 tl (mkG (g_conds g) (g_stack g) (Some buffer) (g_output g)).
End Steps.
