(** Model of the containers of JSONQuery/output.h and JSONQuery/tuple_list.h as they
    are in memory: fixed arrays of buffers with old contents, and a counter that
    starts at -1.  The other model files use lists in their place (Filter.v,
    Stream.v, Worker.v); CellsProof.v relates the two. *)
From Verif Require Import Base Util Stream Filter.
Open Scope Z_scope.

(** A store [dest[i]=c] into a buffer.  (C array store; no counterpart in /repo.) *)
Definition put (dest : bytes) (i : Z) (c : ascii) : res bytes :=
  if (i <? 0) || (zlen dest <=? i) then UB OOBWrite else Ok (upd dest (Z.to_nat i) c).

(** JSONQuery/utility.c:14-17: the loop of strcopy; [n] is length+1-i. *)
Fixpoint copy_loop (n : nat) (i : Z) (src dest : bytes) : res bytes :=
  match n with
  | O => Ok dest
  | S n' => c <- peek src i ;; d <- put dest i c ;; copy_loop n' (i + 1) src d
  end.
(** JSONQuery/utility.c:10-19 [strcopy] byte for byte.  [src] is a C string without
    its terminating NUL, [dest] the whole destination. *)
Definition strcopy_bytes (src dest : bytes) : res bytes :=
  let length := zlen (c_string src) in
  d <- copy_loop (Z.to_nat (length + 1)) 0 (c_string src) dest ;;
  put d (length + 1) NUL.

(** JSONQuery/output.h:9-12 [Output]. *)
Record output : Type := mkOut { o_element : list bytes; o_count : Z }.
(** JSONQuery/output.h:14-23 [initOutput]; [junk] is what malloc leaves in the
    buffers. *)
Definition initOutput (junk : list bytes) : output := mkOut junk (-1).
(** JSONQuery/output.h:48-52 [addOutputElement]. *)
Definition addOutputElement_c (o : output) (text : bytes) : res output :=
  let index := o_count o + 1 in
  if (index <? 0) || (zlen (o_element o) <=? index) then UB OOBWrite
  else
    d <- strcopy_bytes text (nth (Z.to_nat index) (o_element o) []) ;;
    Ok (mkOut (upd (o_element o) (Z.to_nat index) d) index).
(** JSONQuery/output.h:54-57 [getOutputElement]: the buffer at the pointer that is
    returned. *)
Definition getOutputElement (o : output) (index : Z) : res bytes :=
  if (index <? 0) || (zlen (o_element o) <=? index) then UB OOBRead
  else Ok (nth (Z.to_nat index) (o_element o) []).
(** JSONQuery/output.h:59-62 [removeOutputElement]. *)
Definition removeOutputElement (o : output) (number : Z) : output := mkOut (o_element o) (o_count o - number).
(** JSONQuery/output.h:64-67 [getOutputSize]. *)
Definition getOutputSize (o : output) : Z := o_count o + 1.

(** JSONQuery/tuple_list.h:9-17 [Tuple]. *)
Record tcell : Type := mkTc { tc_start : Z; tc_end : Z; tc_state : Z; tc_text : bytes; tc_next : Z }.
(** JSONQuery/tuple_list.h:19-22 [TupleList]. *)
Record tlist : Type := mkTl { tl_element : list tcell; tl_count : Z }.
Definition no_cell : tcell := mkTc 0 0 0 [] 0.   (* default of [nth], never used *)
(** JSONQuery/tuple_list.h:24-28 [initTupleList]; [junk] is what malloc leaves. *)
Definition initTupleList (junk : list tcell) : tlist := mkTl junk (-1).
Definition cell_at (tl : tlist) (i : Z) : tcell := nth (Z.to_nat i) (tl_element tl) no_cell.
Definition outside (tl : tlist) (i : Z) : bool := (i <? 0) || (zlen (tl_element tl) <=? i).
(** JSONQuery/tuple_list.h:42-49 [addTuple]: end_position keeps its old content. *)
Definition addTuple_c (tl : tlist) (state : Z) (text : bytes) : res tlist :=
  let index := tl_count tl + 1 in
  if outside tl index then UB OOBWrite
  else
    d <- strcopy_bytes text (tc_text (cell_at tl index)) ;;
    Ok (mkTl (upd (tl_element tl) (Z.to_nat index) (mkTc (-1) (tc_end (cell_at tl index)) state d (-1))) index).
(** JSONQuery/tuple_list.h:51-58 [addVirtualTuple]: the text keeps its old content. *)
Definition addVirtualTuple_c (tl : tlist) (state b e : Z) : res tlist :=
  let index := tl_count tl + 1 in
  if outside tl index then UB OOBWrite
  else Ok (mkTl (upd (tl_element tl) (Z.to_nat index) (mkTc b e state (tc_text (cell_at tl index)) (-1))) index).
(** JSONQuery/tuple_list.h:60-63 [linkTuples]. *)
Definition linkTuples_c (tl : tlist) (current next : Z) : res tlist :=
  if outside tl current then UB OOBWrite
  else let t := cell_at tl current in
       Ok (mkTl (upd (tl_element tl) (Z.to_nat current) (mkTc (tc_start t) (tc_end t) (tc_state t) (tc_text t) next)) (tl_count tl)).
(** JSONQuery/tuple_list.h:65-68 [getTuple]. *)
Definition getTuple (tl : tlist) (index : Z) : res tcell :=
  if outside tl index then UB OOBRead else Ok (cell_at tl index).
(** JSONQuery/tuple_list.h:70-74 [getNextTuple]. *)
Definition getNextTuple (tl : tlist) (current : Z) : res tcell :=
  t <- getTuple tl current ;; getTuple tl (tc_next t).
(** JSONQuery/tuple_list.h:76-79 [getTupleListSize]. *)
Definition getTupleListSize (tl : tlist) : Z := tl_count tl + 1.

(** JSONQuery/stack.h:15-25 [SyntaxStack] and [QueryStack]: an array and the index of
    the top. *)
Record astack (A : Type) : Type := mkAst { s_item : list A; s_top : Z }.
Arguments mkAst {A}. Arguments s_item {A}. Arguments s_top {A}.
(** JSONQuery/stack.h:27-35 [initSyntaxStack], [initQueryStack]; [junk] is what the
    array holds before. *)
Definition initStack {A} (junk : list A) : astack A := mkAst junk (-1).
(** A read of one of the elements. *)
Definition item_at {A} (st : astack A) (i : Z) : res A := zread (s_item st) i.
(** JSONQuery/stack.h:37-53 [syntaxStackPush], [queryStackPush]. *)
Definition stackPush {A} (st : astack A) (data : A) : res (astack A) :=
  if s_top st <? Z.of_nat MAX_STACK - 1 then
    let top := s_top st + 1 in
    if (top <? 0) || (zlen (s_item st) <=? top) then UB OOBWrite
    else Ok (mkAst (upd (s_item st) (Z.to_nat top) data) top)
  else Ok st.
(** JSONQuery/stack.h:55-85 [syntaxStackPop], [queryStackPop]; None is the element with
    the invalid state. *)
Definition stackPop {A} (st : astack A) : res (option A * astack A) :=
  if -1 <? s_top st then x <- item_at st (s_top st) ;; Ok (Some x, mkAst (s_item st) (s_top st - 1))
  else Ok (None, st).
(** JSONQuery/stack.h:87-95 and 107-119. *)
Definition stackTop {A} (st : astack A) : res (option A) :=
  if -1 <? s_top st then x <- item_at st (s_top st) ;; Ok (Some x) else Ok None.
(** JSONQuery/stack.h:97-105 and 127-139. *)
Definition stackSecondTop {A} (st : astack A) : res (option A) :=
  if 0 <? s_top st then x <- item_at st (s_top st - 1) ;; Ok (Some x) else Ok None.
(** JSONQuery/stack.h:141-145 [syntaxStackSize]. *)
Definition stackSize {A} (st : astack A) : Z := s_top st + 1.
(** JSONQuery/stack.h:147-155 [combineSyntaxStack]: the elements from the bottom to the
    top. *)
Definition combineStack {A} (dst src : astack A) : res (astack A) :=
  foldM (fun d i => x <- item_at src (Z.of_nat i) ;; stackPush d x) (seq 0 (Z.to_nat (s_top src + 1))) dst.
