(** Model of JSONQuery/lexing.h and JSONQuery/lexing.c.

    [nextToken] is transcribed with the pointer variables [start],
    [token_pointer] and [p] of the C function as offsets into the stream. *)
From Verif Require Import Base Util.
Open Scope Z_scope.

(** Token types of JSONQuery/lexing.h:7-16 with the content of KY and PRI
    tokens (JSONQuery/lexing.h:61-64). *)
Inductive token : Type :=
| TLCB | TRCB | TLB | TRB | TCOM
| TKY (s : bytes)
| TPRI (s : bytes)
| TEND.

(** JSONQuery/lexing.h:21-29 [Lexer].  [begin_stream] is offset 0,
    [end_stream] is [zlen buf]; [lex_state] is 0 after every return
    (lexing.c:35,138,151,188), so it is not kept.  [content] is returned with
    the token. *)
Record lexer : Type := mkLexer {
  cur_ptr   : Z;      (* current_pointer *)
  cur_start : Z;      (* current_start   *)
  nxt       : Z       (* next_start      *)
}.

(** JSONQuery/lexing.h:32-41 [initLexer]. *)
Definition initLexer : lexer := mkLexer 0 0 0.

(** JSONQuery/lexing.c:8 [MAX_PRIMITIVE] and lexing.h:18 [MAX_SIZE_PRIMITIVE]. *)
Definition MAX_PRIMITIVE : Z := 40000.
Definition MAX_SIZE_PRIMITIVE : Z := 4000.

(** The character test of JSONQuery/lexing.c:89. *)
Definition is_alnum (c : ascii) : bool :=
  let n := nat_of_ascii c in
  (Nat.leb 48 n && Nat.leb n 57) || (Nat.leb 97 n && Nat.leb n 122)
  || (Nat.leb 65 n && Nat.leb n 90).

(** JSONQuery/lexing.c:109-112: number of backslashes at [pointer] and before. *)
Fixpoint count_bsl (fuel : nat) (buf : bytes) (pointer : Z) : res nat :=
  match fuel with
  | O => UB Fuel
  | S f =>
      c <- peek buf pointer ;;
      if Ascii.eqb c BSL
      then n <- count_bsl f buf (pointer - 1) ;; Ok (S n)
      else Ok O
  end.

(** JSONQuery/lexing.c:105-114: is the quote at [p] escaped? *)
Definition quote_escaped (buf : bytes) (p : Z) : res bool :=
  c <- peek buf (p - 1) ;;
  if Ascii.eqb c BSL
  then n <- count_bsl (S (Z.to_nat p)) buf (p - 2) ;; Ok (Nat.odd (S n))
  else Ok false.

(** JSONQuery/lexing.c:123-129: skip blanks and tabs after a string. *)
Fixpoint skip_blanks (fuel : nat) (buf : bytes) (p : Z) : res Z :=
  match fuel with
  | O => UB Fuel
  | S f =>
      c <- peek buf (p + 1) ;;
      if Ascii.eqb c " "%char || Ascii.eqb c TAB
      then skip_blanks f buf (p + 1)
      else Ok p
  end.

(** JSONQuery/lexing.c:115-157: the quote at [p] ends the string that was
    opened at [start]. *)
Definition string_end (buf : bytes) (lx : lexer) (start p : Z) : res (token * lexer) :=
  sub1 <- substring_in_place MAX_PRIMITIVE buf start 1 (p - start) ;;
  p' <- skip_blanks (S (S (Z.to_nat (zlen buf - p)))) buf p ;;
  c <- peek buf (p' + 1) ;;
  if Ascii.eqb c ":"%char
  then (* lexing.c:130-143: key field *)
    content <- strcopy MAX_SIZE_PRIMITIVE sub1 ;;
    Ok (TKY content, mkLexer (p' + 1) (cur_ptr lx + 1) (p' + 2))
  else (* lexing.c:144-156: primitive; the text is copied behind a quote and a
          closing quote and a NUL are appended (last written index is the
          length + 3) *)
    if MAX_SIZE_PRIMITIVE <? zlen sub1 + 4 then UB OOBWrite
    else Ok (TPRI (DQ :: sub1 ++ [DQ]),
             mkLexer (cur_ptr lx) (cur_ptr lx + 1) (p' + 1)).

(** JSONQuery/lexing.c:169-193: a bare primitive ends at the delimiter at [p].
    The test of line 177 (is [p[0]] a quote) is never true here, because [*p] is one of
    the five delimiters. *)
Definition bare_end (buf : bytes) (start token_pointer p : Z) : res (token * lexer) :=
  let tempcount := p - start in
  c <- peek buf (token_pointer + (tempcount - 1)) ;;
  sub1 <- (if Ascii.eqb c ","%char
           then substring_in_place MAX_PRIMITIVE buf token_pointer 0 (tempcount - 1)
           else substring_in_place MAX_PRIMITIVE buf token_pointer 0 tempcount) ;;
  content <- strcopy MAX_SIZE_PRIMITIVE sub1 ;;
  Ok (TPRI content, mkLexer (p + 1) (p + 2) p).

(** The tokens recognised immediately in state 0, JSONQuery/lexing.c:30-74. *)
Definition struct_token (c : ascii) : option token :=
  if Ascii.eqb c "{"%char then Some TLCB
  else if Ascii.eqb c "}"%char then Some TRCB
  else if Ascii.eqb c "["%char then Some TLB
  else if Ascii.eqb c "]"%char then Some TRB
  else if Ascii.eqb c ","%char then Some TCOM
  else None.

(** The delimiters of JSONQuery/lexing.c:169-173. *)
Definition is_delim (c : ascii) : bool :=
  Ascii.eqb c "}"%char || Ascii.eqb c "]"%char || Ascii.eqb c ","%char
  || Ascii.eqb c " "%char || Ascii.eqb c TAB.

(** The scanning loop of JSONQuery/lexing.c:23-205.  The fuel is the number of
    bytes from [p] to [end_stream], i.e. the loop condition [p < end].
    [state] is 0, 1 or 2 as in the C code. *)
Fixpoint scan (fuel : nat) (buf : bytes) (lx : lexer)
              (state : nat) (start token_pointer p : Z) : res (token * lexer) :=
  match fuel with
  | O => Ok (TEND, lx)
  | S f =>
      c <- peek buf p ;;
      match state with
      | O => (* lexing.c:27-99 *)
          match struct_token c with
          | Some t => Ok (t, mkLexer (p + 1) (p + 1) (p + 1))
          | None =>
              if Ascii.eqb c DQ
              then scan f buf lx 1 p p (p + 1)
              else if Ascii.eqb c " "%char || Ascii.eqb c TAB
              then scan f buf lx 0 (p + 1) (p + 1) (p + 1)
              else if is_alnum c
              then scan f buf lx 2 start token_pointer (p + 1)
              else scan f buf lx 0 (p + 1) (p + 1) (p + 1)
          end
      | S O => (* lexing.c:100-165 *)
          if Ascii.eqb c DQ
          then esc <- quote_escaped buf p ;;
               if esc : bool
               then scan f buf lx 1 start token_pointer (p + 1)
               else string_end buf lx start p
          else scan f buf lx 1 start token_pointer (p + 1)
      | S (S _) => (* lexing.c:166-198 *)
          if is_delim c
          then bare_end buf start token_pointer p
          else scan f buf lx 2 start token_pointer (p + 1)
      end
  end.

(** JSONQuery/lexing.c:10-208 [nextToken]. *)
Definition nextToken (buf : bytes) (lx : lexer) : res (token * lexer) :=
  scan (Z.to_nat (zlen buf - nxt lx)) buf lx 0 (cur_ptr lx) (nxt lx) (nxt lx).

(** A token together with the lexer fields its consumers read afterwards:
    [next_start] (streaming_automaton.c:173,189,224,252) and [current_start]
    (worker_automaton.c, unit positions). *)
Record event : Type := mkEvent { e_tok : token; e_next : Z; e_start : Z }.

(** The token stream a consumer sees when it calls [nextToken] until END, as in
    streaming_automaton.c:148,163,321.  (The consumers do not influence the
    lexer, so the calls can be made in advance.) *)
Fixpoint tokens_from (fuel : nat) (buf : bytes) (lx : lexer) : res (list event) :=
  match fuel with
  | O => UB Fuel
  | S f =>
      '(t, lx') <- nextToken buf lx ;;
      match t with
      | TEND => Ok []
      | _ => rest <- tokens_from f buf lx' ;;
             Ok (mkEvent t (nxt lx') (cur_start lx') :: rest)
      end
  end.

(** All tokens of a stream; the buffer is the C string of the given bytes
    (lexing.h:38 uses strlen). *)
Definition lex_all (stream : bytes) : res (list event) :=
  let buf := c_string stream in
  tokens_from (S (List.length buf)) buf initLexer.
