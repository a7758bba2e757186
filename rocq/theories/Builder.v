(** Model of the query compiler, DFABuilder/src/dfa_builder.cpp. *)
From Verif Require Import Base Spec Regex Mixer Compress Dfa.
Open Scope Z_scope.

(** dfa_builder.cpp:25-29, 40-72 [SEType], [StackElement]. *)
Inductive se : Type :=
| SeDotAll                 (* set_dot_all         *)
| SeParentAll              (* set_parent_all      *)
| SeDot (k : bytes)        (* set_dot_property    *)
| SeParent (k : bytes)     (* set_parent_property *)
| SeArray                  (* set_array_all       *)
| SeIndex (lo hi : Z).     (* set_array_index     *)

Definition se_eq_dec : forall a b : se, {a = b} + {a <> b}.
Proof. decide equality; try apply bytes_eq_dec; apply Z.eq_dec. Defined.
Definition st_eqb (a b : list se) : bool :=
  if list_eq_dec se_eq_dec a b then true else false.

(** dfa_builder.cpp:74-93 [StackContext].  [check] is keyed by the printed path
    (getOutput, lines 100-113); the model uses the stack itself as the key: names
    that the scanner accepts contain no dot and no bracket, so that equal printed
    paths come from equal stacks.  [b_names] is input_mapping without its first
    three entries; name_mapping is its inverse.  [last_st_generated] is not
    initialised by the constructor, nor are [last_id_generated] and
    [state_handle_now]. *)
Record bctx : Type := mkB {
  b_st      : list se;
  b_lastgen : option bool;
  b_lastid  : option Z;
  b_names   : list bytes;
  b_check   : list (list se);
  b_pats    : list (list ritem);          (* model          *)
  b_range   : list (Z * Z);               (* array_range    *)
  b_trees   : list (option expr);         (* tree_mapping   *)
  b_map     : list (Z * list Z);          (* states_mapping *)
  b_handle  : Z
}.

Definition init_bctx : bctx := mkB [] None None [] [] [] [] [] [] 0.

(** dfa_builder.cpp:95-98 [push]. *)
Definition b_push (b : bctx) (s : se) : bctx :=
  mkB (b_st b ++ [s]) (Some false) (b_lastid b) (b_names b) (b_check b) (b_pats b)
      (b_range b) (b_trees b) (b_map b) (b_handle b).

(** st.pop_back(), [n] times (lines 195-196). *)
Definition b_pop (b : bctx) (n : nat) : bctx :=
  mkB (firstn (List.length (b_st b) - n) (b_st b)) (b_lastgen b) (b_lastid b) (b_names b)
      (b_check b) (b_pats b) (b_range b) (b_trees b) (b_map b) (b_handle b).

(** name_mapping: the code of a name, 3 for the first one. *)
Fixpoint name_code (names : list bytes) (k : bytes) (i : Z) : option Z :=
  match names with
  | [] => None
  | n :: names' => if beq n k then Some i else name_code names' k (i + 1)
  end.
Definition code_of (names : list bytes) (k : bytes) : Z :=
  match name_code names k 3 with Some c => c | None => 0 end.

(** dfa_builder.cpp:133-141: names seen for the first time get the next codes. *)
Definition add_name (names : list bytes) (k : bytes) : list bytes :=
  match name_code names k 3 with Some _ => names | None => names ++ [k] end.
Definition add_se_name (names : list bytes) (s : se) : list bytes :=
  match s with SeDot k | SeParent k => add_name names k | _ => names end.

(** dfa_builder.cpp:145-172: the pattern of a stack element. *)
Definition items_of (names : list bytes) (s : se) : list ritem :=
  match s with
  | SeDotAll => [mkItem RSet ONone]
  | SeParentAll => [mkItem RSet OPlus]
  | SeDot k => [mkItem (RChar (code_of names k)) ONone]
  | SeParent k => [mkItem RSet OStar; mkItem (RChar (code_of names k)) ONone]
  | SeArray | SeIndex _ _ => [mkItem (RChar 2) ONone]
  end.

(** dfa_builder.cpp:127-178 [create_dfa]; the flag tells that the path was known
    already. *)
Definition b_create (in_predicate : bool) (b : bctx) : bctx * bool :=
  if existsb (st_eqb (b_st b)) (b_check b) then (b, true)
  else
    let names := fold_left add_se_name (b_st b) (b_names b) in
    let pats := b_pats b ++ [flat_map (items_of names) (b_st b)] in
    (mkB (b_st b) (Some true)
         (if in_predicate then b_lastid b else Some (zlen pats))
         names (b_check b ++ [b_st b]) pats
         (b_range b ++ [(0, 0)]) (b_trees b ++ [None]) (b_map b) (b_handle b),
     false).

(** states_mapping[key].push_back(v) and states_mapping[key] = {}. *)
Fixpoint map_push (m : list (Z * list Z)) (key v : Z) : list (Z * list Z) :=
  match m with
  | [] => [(key, [v])]
  | (k, l) :: m' => if k =? key then (k, l ++ [v]) :: m' else (k, l) :: map_push m' key v
  end.
Fixpoint map_clear (m : list (Z * list Z)) (key : Z) : list (Z * list Z) :=
  match m with
  | [] => [(key, [])]
  | (k, l) :: m' => if k =? key then (k, []) :: m' else (k, l) :: map_clear m' key
  end.
Fixpoint map_get (m : list (Z * list Z)) (key : Z) : list Z :=
  match m with
  | [] => []
  | (k, l) :: m' => if k =? key then l else map_get m' key
  end.

Definition set_tree (b : bctx) (i : Z) (e : expr) : bctx :=
  mkB (b_st b) (b_lastgen b) (b_lastid b) (b_names b) (b_check b) (b_pats b)
      (b_range b) (upd (b_trees b) (Z.to_nat i) (Some e)) (b_map b) (b_handle b).
Definition set_range (b : bctx) (i : Z) (r : Z * Z) : bctx :=
  mkB (b_st b) (b_lastgen b) (b_lastid b) (b_names b) (b_check b) (b_pats b)
      (upd (b_range b) (Z.to_nat i) r) (b_trees b) (b_map b) (b_handle b).
Definition set_map (b : bctx) (m : list (Z * list Z)) : bctx :=
  mkB (b_st b) (b_lastgen b) (b_lastid b) (b_names b) (b_check b) (b_pats b)
      (b_range b) (b_trees b) m (b_handle b).
Definition set_handle (b : bctx) (h : Z) : bctx :=
  mkB (b_st b) (b_lastgen b) (b_lastid b) (b_names b) (b_check b) (b_pats b)
      (b_range b) (b_trees b) (b_map b) h.

(** dfa_builder.cpp:181-197: one variable of a filter expression.  The variable
    [@.a.b] is the node with the string a.b, which getline splits again. *)
Definition filter_var (b : bctx) (p : list bytes) : bctx :=
  let b1 := fold_left (fun b k => b_push b (SeDot k)) p b in
  let '(b2, ignore) := b_create true b1 in
  let n := zlen (b_pats b2) - 1 in
  let b3 := if ignore : bool then b2
            else set_tree (set_map b2 (map_push (b_map b2) (b_handle b2) n)) n (EField p) in
  b_pop b3 (List.length p).

(** dfa_builder.cpp:180-206 [construct_filter]: node, then left, then right.  A
    lone [@] is a jnt_reference node, not a variable. *)
Fixpoint construct_filter (b : bctx) (e : expr) : bctx :=
  match e with
  | EField [] => b
  | EField p => filter_var b p
  | ENum _ _ | EStr _ => b
  | ENot e1 => construct_filter b e1
  | EBin _ e1 e2 => construct_filter (construct_filter b e1) e2
  end.

(** jsonpath_evaluator.h:260-302 [evaluatorModifyReference] turns [@.a.b] into
    one variable node.  For two names and more the last two statements
    (lines 297-298) read [node->left] after [node] was released (line 296);
    [strict] makes this undefined behaviour, otherwise the released memory is
    taken to be still intact. *)
Fixpoint fields_of (e : expr) : list (list bytes) :=
  match e with
  | EField p => [p]
  | ENum _ _ | EStr _ => []
  | ENot e1 => fields_of e1
  | EBin _ e1 e2 => fields_of e1 ++ fields_of e2
  end.
Definition modify_reference (strict : bool) (e : expr) : res unit :=
  if strict && existsb (fun p => Nat.leb 2 (List.length p)) (fields_of e)
  then UB UseAfterFree else Ok tt.

(** dfa_builder.cpp:208-275 [construct_dfa].  The tree is a spine of concat,
    parent_concat and predicate nodes, visited from the root; the model walks
    the list of steps.  [n] (a number instead of a range) reaches the default
    branch of line 266 and is ignored. *)
Definition construct_step (strict : bool) (b : bctx) (s : step) : res bctx :=
  match s with
  | SChild k => Ok (b_push b (SeDot k))
  | SChildAny => Ok (b_push b SeDotAll)
  | SDesc k => Ok (b_push b (SeParent k))
  | SDescAny => Ok (b_push b SeParentAll)
  | SAll => Ok (b_push b SeArray)
  | SIndex _ => Ok b
  | SSlice lo hi =>
      let begin_ := match lo with Some x => x | None => INT_MIN end in
      let end_ := match hi with Some x => x | None => INT_MAX end in
      let b1 := fst (b_create false (b_push b (SeIndex begin_ end_))) in
      Ok (set_range b1 (zlen (b_pats b1) - 1) (begin_, end_))
  | SFilter e =>
      let b1 := fst (b_create false (b_push b SeArray)) in
      _ <- modify_reference strict e ;;
      let h := zlen (b_pats b1) - 1 in
      let b2 := set_handle b1 h in
      let b3 := set_map b2 (map_clear (b_map b2) h) in
      let b4 := set_tree b3 h e in
      Ok (construct_filter b4 e)
  end.

Definition construct_dfa (strict : bool) (q : query) : res bctx :=
  foldM (construct_step strict) q init_bctx.

(** dfa_builder.cpp:368-371, 374: the complete context with the number of the
    output expression. *)
Definition finish_ctx (b : bctx) : res (bctx * Z) :=
  match b_lastgen b with
  | None => UB UninitRead
  | Some g =>
      let b' := if g : bool then b else fst (b_create false b) in
      match b_lastid b' with
      | None => UB UninitRead
      | Some i => Ok (b', i)
      end
  end.

(** regex_builder.cpp:13-23 and dfa_mixer.cpp:128-132, run by
    dfa_builder.cpp:376-383. *)
Definition compile_patterns (inputs : Z) (pats : list (list ritem)) : res main_dfa :=
  ds <- mapM (CreateDFA inputs) pats ;; Combine inputs ds.

(** dfa_builder.cpp:283-321 [create_dfa]. *)
Definition state_list (n : Z) : list Z := inputs_from 0 (Z.to_nat n).

Definition get_table (m : main_dfa) : res (list (list Z)) :=
  mapM (fun s => mapM (fun a => lookup (m_table m) s a) (state_list (m_inputs m)))
       (state_list (m_states m)).

(** lines 298-303: is the state entered by the array input from some state? *)
Definition array_target (m : main_dfa) (i : Z) : res bool :=
  l <- mapM (fun j => lookup (m_table m) j 2) (state_list (m_states m)) ;;
  Ok (existsb (fun x => x =? i) l).

Record stinfo : Type := mkSt { st_stop : Z; st_accept : Z; st_range : Z * Z }.

Definition state_info (b : bctx) (out : Z) (m : main_dfa) (i : Z) : res stinfo :=
  let stop_state := tread (m_stops m) i in
  if stop_state =? 0 then Ok (mkSt 0 0 (0, 0))
  else
    acc <- (if stop_state =? out then Ok DFA_OUTPUT_CANDIDATE
            else t <- array_target m i ;; Ok (if t : bool then DFA_PREDICATE else DFA_CONDITION)) ;;
    r <- zread (b_range b) (stop_state - 1) ;;
    if negb (fst r =? 0) || negb (snd r =? 0)
    then if acc =? DFA_OUTPUT_CANDIDATE then Ok (mkSt stop_state acc r) else Ok (mkSt 0 0 r)
    else Ok (mkSt stop_state acc (0, 0)).

Definition create_query_dfa (b : bctx) (out : Z) (m : main_dfa) : res dfa :=
  t <- get_table m ;;
  infos <- mapM (state_info b out m) (state_list (m_states m)) ;;
  Ok (mkDfa (m_inputs m) t (map st_stop infos) (map st_accept infos) (map st_range infos)
            (([] :: B "other" :: B "array" :: b_names b))).

(** dfa_builder.h [JSONQueryDFAContext]: subtrees, states_mapping,
    array_predicate_states. *)
Record qctx : Type := mkQ {
  x_subtrees : list (option expr);
  x_mapping  : list (list Z);
  x_preds    : list Z
}.

(** dfa_builder.cpp:323-330 [acc_id2state]. *)
Fixpoint acc_id2state (stops : list Z) (acc i : Z) : Z :=
  match stops with
  | [] => -1
  | s :: stops' => if acc =? s then i else acc_id2state stops' acc (i + 1)
  end.

(** dfa_builder.cpp:332-356 [create_context]. *)
Definition state_ctx (b : bctx) (m : main_dfa) (d : dfa) (i : Z) : res (option expr * list Z) :=
  acc <- zread (d_stop d) i ;;
  if acc =? 0 then Ok (None, [])
  else
    t <- zread (b_trees b) (acc - 1) ;;
    Ok (t, map (fun v => acc_id2state (m_stops m) (v + 1) 0) (map_get (b_map b) (acc - 1))).

Definition create_context (b : bctx) (m : main_dfa) (d : dfa) : res qctx :=
  l <- mapM (state_ctx b m d) (state_list (m_states m)) ;;
  Ok (mkQ (map fst l) (map snd l)
          (filter (fun i => negb (tread (d_stop d) i =? 0) && (tread (d_accept d) i =? DFA_PREDICATE))
                  (state_list (m_states m)))).

(** dfa_builder.cpp:364-396 [buildJSONQueryDFAFromAST]. *)
Definition build (strict : bool) (q : query) : res (dfa * qctx) :=
  b0 <- construct_dfa strict q ;;
  '(b, out) <- finish_ctx b0 ;;
  m <- compile_patterns (zlen (b_names b) + 3) (b_pats b) ;;
  d <- create_query_dfa b out m ;;
  x <- create_context b m d ;;
  Ok (d, x).
