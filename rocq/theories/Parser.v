(** Model of the JSONPath parser: JSONPathParser/scanner_j.l and parser_j.y. *)
From Verif Require Import Base Util Spec Builder Run.
Open Scope Z_scope.

(** * scanner_j.l *)

(** Tokens, parser_j.y:36-38.  [PSym c] is the token ['c']. *)
Inductive ptok : Type :=
| PSym (c : ascii)
| PNeq | PLeq | PGeq | POr | PAnd | PParent | PRe | PEq
| PString (s : bytes) | PName (s : bytes) | PNumber (lit : bytes).

(** scanner_j.l:21-25: character classes of the definitions section. *)
Definition in_range (a b : nat) (c : ascii) : bool := Nat.leb a (nat_of_ascii c) && Nat.leb (nat_of_ascii c) b.
Definition is_digit_c (c : ascii) : bool := in_range 48 57 c.
Definition nc_start (c : ascii) : bool := in_range 65 90 c || Ascii.eqb c "_"%char || in_range 97 122 c.
Definition nc_char (c : ascii) : bool := nc_start c || is_digit_c c.

Fixpoint span (f : ascii -> bool) (s : bytes) : bytes * bytes :=
  match s with
  | [] => ([], [])
  | c :: s' => if f c then let '(a, b) := span f s' in (c :: a, b) else ([], s)
  end.

(** scanner_j.l:83, 85: the body and the closing quote of a string; [None] if the
    pattern does not match. *)
Fixpoint scan_body (q : ascii) (esc : bool) (s : bytes) : option (bytes * bytes) :=
  match s with
  | [] => None
  | c :: s' =>
      let go e := match scan_body q e s' with Some (a, b) => Some (c :: a, b) | None => None end in
      if esc then (if Ascii.eqb c LF then None else go false)
      else if Ascii.eqb c q then Some ([], s')
      else if Ascii.eqb c BSL then go true else go false
  end.

(** scanner_j.l:87: digits and, if digits follow a point, these. *)
Definition scan_number (s : bytes) : bytes * bytes :=
  let '(a, r) := span is_digit_c s in
  match r with
  | "."%char :: r' =>
      match span is_digit_c r' with
      | ([], _) => (a, r)
      | (b, r2) => (a ++ "."%char :: b, r2)
      end
  | _ => (a, r)
  end.

(** scanner_j.l:29-91: one application of the rules to a string [c :: s]; the
    longest match counts.  [None] as token: the text is skipped, which happens
    for blanks (line 29), for characters without a rule (line 91, after
    a message on stdout) and for line breaks (the default rule of flex copies
    them to stdout). *)
Definition scan_one (c : ascii) (s : bytes) : option ptok * bytes :=
  let skip := (None, s) in
  let one := (Some (PSym c), s) in
  let two (d : ascii) (t : ptok) (otherwise : option ptok * bytes) :=
    match s with e :: s' => if Ascii.eqb e d then (Some t, s') else otherwise | [] => otherwise end in
  let str := match scan_body c false s with Some (b, r) => (Some (PString b), r) | None => skip end in
  if is_digit_c c then let '(l, r) := scan_number (c :: s) in (Some (PNumber l), r)
  else if nc_start c then let '(w, r) := span nc_char (c :: s) in (Some (PName w), r)
  else if Ascii.eqb c DQ || Ascii.eqb c "'"%char then str
  else if Ascii.eqb c "="%char then two "~"%char PRe (two "="%char PEq skip)
  else if Ascii.eqb c "!"%char then two "="%char PNeq one
  else if Ascii.eqb c "<"%char then two "="%char PLeq one
  else if Ascii.eqb c ">"%char then two "="%char PGeq one
  else if Ascii.eqb c "&"%char then two "&"%char PAnd skip
  else if Ascii.eqb c "|"%char then two "|"%char POr skip
  else if Ascii.eqb c "."%char then two "."%char PParent one
  else if existsb (Ascii.eqb c) (B "*-+/%?[]()$@,:") then one
  else skip.

(** yylex until the end of the string; every application consumes a byte, so
    that the length of the string is enough fuel. *)
Fixpoint scan (fuel : nat) (s : bytes) : list ptok :=
  match fuel, s with
  | S n, c :: s' =>
      let '(t, r) := scan_one c s' in
      match t with Some t => t :: scan n r | None => scan n r end
  | _, _ => []
  end.

(** j_scan_string (parser_j.y:125): up to the first NUL. *)
Definition scan_string (s : bytes) : list ptok := let s' := c_string s in scan (List.length s') s'.

(** * jsonpath_model.h:14-38: the syntax tree. *)
Inductive ast : Type :=
| ARoot | AId (s : bytes) | AWild | ARef | ANum (neg : bool) (lit : bytes) | AStr (s : bytes)
| AConcat (l r : ast) | AParent (l r : ast) | APred (l r : ast)
| ARange (l r : option ast) | AFilter (e : ast) | AScript (e : ast)
| AOp (op : binop) (l r : ast) | ANot (e : ast).

(** * parser_j.y

    Bison generates the parser from the grammar; its decisions are those of the
    precedence declarations (lines 42-47) and, where they leave a conflict, of
    the default, which is to shift. *)

(** Lines 78-90: the operators; lines 42-45: their precedence, all of them
    [%left].  The percent sign is not declared and has none. *)
Definition binop_of (t : ptok) : option binop :=
  match t with
  | POr => Some BOr | PAnd => Some BAnd | PEq => Some BEq | PNeq => Some BNeq | PLeq => Some BLe | PGeq => Some BGe
  | PSym "<" => Some BLt | PSym ">" => Some BGt | PSym "+" => Some BAdd | PSym "-" => Some BSub
  | PSym "*" => Some BMul | PSym "/" => Some BDiv | PSym "%" => Some BMod
  | _ => None
  end%char.
Definition declared (op : binop) : option nat :=
  match op with
  | BOr | BAnd => Some 1 | BNeq | BLe | BGe | BEq | BLt | BGt => Some 2 | BAdd | BSub => Some 3 | BMul | BDiv => Some 4
  | BMod => None
  end%nat.

(** What waits on the stack of the parser below the current expression. *)
Inductive frame : Type :=
| FBin (op : binop) (l : ast)      (* Expr op .   *)
| FNot                             (* '!' .       *)
| FParen.                          (* '(' .       *)

(** The precedence of the rule that ends with the current expression: that of its
    operator; [!] is declared above the others (line 46). *)
Definition rule_prec (f : frame) : option nat :=
  match f with FBin op _ => declared op | FNot => Some 5%nat | FParen => None end.

(** Conflict between reducing [f] and shifting the operator [op]: reduce if the
    rule is stronger, or as strong ([%left]); shift if one of them has no
    precedence. *)
Definition reduces (f : frame) (op : binop) : bool :=
  match f, rule_prec f, declared op with
  | FParen, _, _ => false
  | _, Some a, Some b => Nat.leb b a
  | _, _, _ => false
  end.
Definition apply_frame (f : frame) (e : ast) : ast :=
  match f with FBin op l => AOp op l e | FNot => ANot e | FParen => e end.

Fixpoint reduce_op (op : binop) (K : list frame) (e : ast) : list frame * ast :=
  match K with
  | f :: K' => if reduces f op then reduce_op op K' (apply_frame f e) else (K, e)
  | [] => ([], e)
  end.
(** Before a closing parenthesis everything is reduced. *)
Fixpoint reduce_close (K : list frame) (e : ast) : list frame * ast :=
  match K with
  | FParen :: _ | [] => (K, e)
  | f :: K' => reduce_close K' (apply_frame f e)
  end.

(** Lines 59-61 [Property]. *)
Definition property (t : ptok) : option ast :=
  match t with PName s => Some (AId s) | PSym "*" => Some AWild | _ => None end%char.

(** Lines 78-103 [Expr] and [Number], up to the parenthesis that closes the
    predicate.  [cur] is the expression read last, if an operator is expected.
    [None]: jerror (lines 111-117) ends the process. *)
Fixpoint parse_expr (ts : list ptok) (K : list frame) (cur : option ast) : option (ast * list ptok) :=
  match cur with
  | None =>
      match ts with
      | PSym "!" :: ts' => parse_expr ts' (FNot :: K) None
      | PSym "(" :: ts' => parse_expr ts' (FParen :: K) None
      | PSym "@" :: ts' => parse_expr ts' K (Some ARef)
      | PNumber l :: ts' => parse_expr ts' K (Some (ANum false l))
      | PSym "-" :: PNumber l :: ts' => parse_expr ts' K (Some (ANum true l))
      | PString s :: ts' => parse_expr ts' K (Some (AStr s))
      | _ => None
      end
  | Some e =>
      match ts with
      | PSym "." :: t :: ts' => match property t with Some p => parse_expr ts' K (Some (AConcat e p)) | None => None end
      | PParent :: t :: ts' => match property t with Some p => parse_expr ts' K (Some (AParent e p)) | None => None end
      | PSym ")" :: ts' =>
          match reduce_close K e with
          | (FParen :: K', e') => parse_expr ts' K' (Some e')
          | (_, e') => Some (e', ts')
          end
      | t :: ts' =>
          match binop_of t with
          | Some op => let '(K', e') := reduce_op op K e in parse_expr ts' (FBin op e' :: K') None
          | None => None
          end
      | [] => None
      end
  end%char.

(** Lines 105-107 [Number]. *)
Definition parse_number (ts : list ptok) : option (ast * list ptok) :=
  match ts with
  | PNumber l :: ts' => Some (ANum false l, ts')
  | PSym "-" :: PNumber l :: ts' => Some (ANum true l, ts')
  | _ => None
  end%char.

(** Lines 72-76 [IndexList], after its first member. *)
Fixpoint parse_index (l : ast) (ts : list ptok) : option (ast * list ptok) :=
  match ts with
  | PSym "," :: PNumber n :: ts' => parse_index (AConcat l (ANum false n)) ts'
  | PSym "," :: PSym "-" :: PNumber n :: ts' => parse_index (AConcat l (ANum true n)) ts'
  | PSym "," :: PString s :: ts' => parse_index (AConcat l (AStr s)) ts'
  | _ => Some (l, ts)
  end%char.

(** Lines 63-70 [Predicate]. *)
Definition parse_predicate (ts : list ptok) : option (ast * list ptok) :=
  match ts with
  | PSym "*" :: ts' => Some (AWild, ts')
  | PSym "?" :: PSym "(" :: ts' => match parse_expr ts' [] None with Some (e, r) => Some (AFilter e, r) | None => None end
  | PSym "(" :: ts' => match parse_expr ts' [] None with Some (e, r) => Some (AScript e, r) | None => None end
  | PSym ":" :: ts' => match parse_number ts' with Some (n, r) => Some (ARange None (Some n), r) | None => None end
  | PString s :: ts' => parse_index (AStr s) ts'
  | _ =>
      match parse_number ts with
      | Some (n, PSym ":" :: ts') =>
          match parse_number ts' with
          | Some (m, r) => Some (ARange (Some n) (Some m), r)
          | None => Some (ARange (Some n) None, ts')
          end
      | Some (n, r) => parse_index n r
      | None => None
      end
  end%char.

(** Lines 51-57 [LocationPath], after what was read as [l].  The fuel is the
    number of tokens. *)
Fixpoint parse_path (fuel : nat) (l : ast) (ts : list ptok) : option ast :=
  match ts with
  | [] => Some l
  | _ =>
      match fuel with
      | O => None
      | S n =>
          match ts with
          | PSym "." :: t :: ts' => match property t with Some p => parse_path n (AConcat l p) ts' | None => None end
          | PParent :: t :: ts' => match property t with Some p => parse_path n (AParent l p) ts' | None => None end
          | PSym "[" :: ts' =>
              match parse_predicate ts' with
              | Some (p, PSym "]" :: r) => parse_path n (APred l p) r
              | _ => None
              end
          | _ => None
          end
      end
  end%char.

(** Lines 120-130 [analysisJSONPath].  [None]: the text is rejected; jerror calls
    exit(1). *)
Definition analysisJSONPath (s : bytes) : option ast :=
  match scan_string s with
  | PSym "$" :: ts => parse_path (List.length ts) ARoot ts
  | _ => None
  end%char.

(** * The reading of the tree by the query compiler *)

(** jsonpath_evaluator.h:260-302 [evaluatorModifyReference]: concatenations that
    start at [@] become one variable.  Other uses of a point in a filter ([@..a],
    [@.*], a point after a parenthesis that holds something else) are not covered
    by the model: [None]. *)
Fixpoint expr_of (a : ast) : option expr :=
  match a with
  | ARef => Some (EField [])
  | AConcat l (AId k) => match expr_of l with Some (EField p) => Some (EField (p ++ [k])) | _ => None end
  | ANum n l => Some (ENum n l)
  | AStr s => Some (EStr s)
  | ANot e => match expr_of e with Some e' => Some (ENot e') | None => None end
  | AOp op l r => match expr_of l, expr_of r with Some a, Some b => Some (EBin op a b) | _, _ => None end
  | _ => None
  end.

(** scanner_j.l:8 atof and dfa_builder.cpp:239-244, conversion of the double to int:
    literals with a fraction or beyond the range of int are not covered. *)
Definition lit_value (s : bytes) : option Z :=
  match s with
  | [] => None
  | _ => if forallb is_digit_c s then Some (fold_left (fun n c => 10 * n + Z.of_nat (nat_of_ascii c - 48)) s 0) else None
  end.
Definition int_of (a : ast) : option Z :=
  match a with
  | ANum neg l =>
      match lit_value l with
      | Some n => if n <=? 2147483647 then Some (if neg : bool then - n else n) else None
      | None => None
      end
  | _ => None
  end.
Definition opt_int (a : option ast) : option (option Z) :=
  match a with None => Some None | Some a => match int_of a with Some n => Some (Some n) | None => None end end.

(** dfa_builder.cpp:208-275 [construct_dfa]: the steps that Builder.v works on.
    Index lists, names in brackets and scripts reach the default branch of line
    266 and leave no trace; a single number is kept as a step that the builder
    ignores. *)
Fixpoint query_of (a : ast) : option query :=
  let under l s := match query_of l with Some q => Some (q ++ s) | None => None end in
  match a with
  | ARoot => Some []
  | AConcat l (AId k) => under l [SChild k]
  | AConcat l AWild => under l [SChildAny]
  | AParent l (AId k) => under l [SDesc k]
  | AParent l AWild => under l [SDescAny]
  | APred l AWild => under l [SAll]
  | APred l (ARange lo hi) =>
      match opt_int lo, opt_int hi with Some x, Some y => under l [SSlice x y] | _, _ => None end
  | APred l (AFilter e) => match expr_of e with Some e' => under l [SFilter e'] | None => None end
  | APred l (ANum n s) => match int_of (ANum n s) with Some i => under l [SIndex i] | None => None end
  | APred l (AStr _) | APred l (AConcat _ _) | APred l (AScript _) => query_of l
  | _ => None
  end.

(** dfa_builder.cpp:358-362 [buildJSONQueryDFA] and path_processor.h:156-165
    [createPathProcessor], from the query string.  [None]: rejected, or outside of
    the model. *)
Definition createFromString (strict : bool) (s : bytes) : option (res processor) :=
  match analysisJSONPath s with
  | Some a => match query_of a with Some q => Some (createPathProcessor strict q) | None => None end
  | None => None
  end.
