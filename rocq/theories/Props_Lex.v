(** Properties of the lexer and of runs on truncated and malformed input:
    C07-C09, C15-C17. *)
From Verif Require Import Base Util Lexer Spec LexSpec MalSpec LexSafe LexProof LexClaim LexLocal QueryClass PosSpec Claims Dfa Stream TreeSem Num FilterSpec Builder Eval
  Filter Loader Run EndToEnd AnyQuery ClaimProof Trunc CutSpec DueSpec DueRun Malformed MalRun Samples Findings.
Open Scope Z_scope.

(** * C07: the tokens of a document *)
Definition C07_full : Prop := forall dc, wf_doc dc = true ->
  exists evs, lex_all (doc_text dc) = Ok evs /\ map e_tok evs = doc_tokens (d_val dc).

(** Missing: the layouts excluded by [lex_safe] (line break between a key and its
    colon or after a number, signs, a number directly after a colon and directly
    before a brace) and long keys and values. *)
Theorem C07_partial : forall dc, wf_doc dc = true -> lex_safe (d_val dc) = true ->
  exists evs, lex_all (doc_text dc) = Ok evs /\ map e_tok evs = doc_tokens (d_val dc).
Proof. exact doc_lexed. Qed.
Print Assumptions C07_partial.

Example C07_example : wf_doc store = true /\ lex_safe (d_val store) = true /\ zlen (doc_tokens (d_val store)) = 55.
Proof. vm_compute. auto. Qed.

(** A line break between a key and its colon: the key becomes a value. *)
Theorem C07_refuted : exists dc evs, wf_doc dc = true /\ lex_all (doc_text dc) = Ok evs /\ map e_tok evs <> doc_tokens (d_val dc).
Proof.
  exists split_key. eexists. split; [reflexivity|]. split; [vm_compute; reflexivity|]. vm_compute. discriminate.
Qed.
Print Assumptions C07_refuted.

(** * C08: quotes and backslashes *)
Definition C08_full : Prop := forall buf lx pre w s rest,
  buf = pre ++ w ++ [DQ] ++ s ++ [DQ] ++ rest -> nxt lx = zlen pre -> ws w = true ->
  no_nul s -> quotes_escaped s -> Nat.odd (trailing_bsl s) = false ->
  exists lx', nextToken buf lx = Ok (if colon_next rest then TKY s else TPRI ([DQ] ++ s ++ [DQ]), lx').

(** Missing: keys of more than 3998 and strings of more than 3996 bytes. *)
Theorem C08_partial : forall buf lx pre w s rest,
  buf = pre ++ w ++ [DQ] ++ s ++ [DQ] ++ rest -> nxt lx = zlen pre -> ws w = true ->
  no_nul s -> quotes_escaped s -> Nat.odd (trailing_bsl s) = false ->
  zlen s <= (if colon_next rest then 3998 else 3996) ->
  exists lx', nextToken buf lx = Ok (if colon_next rest then TKY s else TPRI ([DQ] ++ s ++ [DQ]), lx').
Proof.
  intros buf lx pre w s rest H1 H2 H3 H4 H5 H6 H7. pose proof (string_token buf lx pre w s rest H1 H2 H3 H4 H5 H6) as H.
  destruct (colon_next rest).
  - replace (3998 <? zlen s) with false in H by lia. exact H.
  - replace (3996 <? zlen s) with false in H by lia. exact H.
Qed.
Print Assumptions C08_partial.

(** A quote and a backslash, two backslashes, a quote: inside one string. *)
Definition tricky : bytes := B "a\""\\b\\".
Example C08_example : no_nul tricky /\ quotes_escaped tricky /\ Nat.odd (trailing_bsl tricky) = false /\ zlen tricky = 8 /\
  lex_all ([DQ] ++ tricky ++ [DQ] ++ B ",") = Ok [mkEvent (TPRI ([DQ] ++ tricky ++ [DQ])) 10 1; mkEvent TCOM 11 11].
Proof.
  destruct (proj1 (body_spec tricky) eq_refl) as (H1 & H2 & H3). split; [exact H1|]. split; [exact H2|]. split; [exact H3|]. vm_compute. auto.
Qed.

(** Without a closing quote of that kind there is no token, so no other quote is
    taken for the end of the string. *)
Theorem C08_open : forall buf lx pre w s, buf = pre ++ w ++ [DQ] ++ s -> nxt lx = zlen pre -> ws w = true -> quotes_escaped s ->
  nextToken buf lx = Ok (TEND, lx).
Proof. exact open_string. Qed.
Print Assumptions C08_open.

Example C08_open_example : quotes_escaped (B "a\""b") /\ lex_all (B "[""a\""b") = Ok [mkEvent TLB 1 1].
Proof. split; [|reflexivity]. apply (body_spec (B "a\""b")). reflexivity. Qed.

(** The two cases are all there are. *)
Theorem C08_cases : forall s,
  (exists a b, s = a ++ [DQ] ++ b /\ quotes_escaped a /\ Nat.odd (trailing_bsl a) = false) \/ quotes_escaped s.
Proof. exact string_or_open. Qed.
Print Assumptions C08_cases.

Theorem C08_refuted : exists s, no_nul s /\ quotes_escaped s /\ Nat.odd (trailing_bsl s) = false /\
  nextToken ([DQ] ++ s ++ [DQ] ++ B ",") initLexer = UB OOBWrite.
Proof.
  exists (repeat "x"%char (Z.to_nat 3997)).
  assert (E : str_body false (repeat "x"%char (Z.to_nat 3997)) = true) by (vm_compute; reflexivity).
  apply body_spec in E. destruct E as (H1 & H2 & H3). split; [exact H1|]. split; [exact H2|]. split; [exact H3|]. vm_compute. reflexivity.
Qed.
Print Assumptions C08_refuted.

(** * C09: numbers and literals *)
Definition C09_full : Prop := forall buf lx pre w s rest,
  buf = pre ++ w ++ s ++ rest -> nxt lx = zlen pre -> ws w = true -> bare_word s = true ->
  (exists d r, rest = d :: r /\ bare_char d = false) ->
  exists lx', nextToken buf lx = Ok (TPRI s, lx').

(** Missing: a sign, a line break behind the value, values of more than 3998
    bytes, and a value directly behind a colon that is not followed by a comma
    ([cur_ptr] is then one less than [nxt]). *)
Theorem C09_partial : forall buf lx pre w s d rest,
  buf = pre ++ w ++ s ++ [d] ++ rest -> nxt lx = zlen pre -> ws w = true -> bare_word s = true ->
  unsigned_word s = true -> zlen s <= 3998 -> In d ["}"; "]"; ","; " "; TAB]%char ->
  (w <> [] \/ cur_ptr lx = nxt lx \/ (cur_ptr lx = nxt lx - 1 /\ d = ","%char)) ->
  exists lx', nextToken buf lx = Ok (TPRI s, lx') /\ nxt lx' = zlen pre + zlen w + zlen s.
Proof.
  intros buf lx pre w s d rest H1 H2 H3 H4 H5 H6 H7 H8.
  assert (is_delim d = true) as H7' by (repeat (destruct H7 as [<- | H7]; [reflexivity|]); destruct H7). clear H7. rename H7' into H7.
  rewrite (next_bare buf lx pre w s d rest H1 H2 H3 H4 H5 H6 H7 H8). eexists. split; reflexivity.
Qed.
Print Assumptions C09_partial.

Example C09_example : bare_word (B "12.5e3") = true /\ unsigned_word (B "12.5e3") = true /\
  (tl <- lex_all (B "[12.5e3 ,true]") ;; Ok (map e_tok tl)) = Ok [TLB; TPRI (B "12.5e3"); TCOM; TPRI (B "true"); TRB].
Proof. vm_compute. auto. Qed.

(** A brace is added, a sign is dropped, a line break is added. *)
Definition lexed (s : bytes) : res (list token) := tl <- lex_all s ;; Ok (map e_tok tl).
Theorem C09_refuted :
  (exists dc, wf_doc dc = true /\ doc_tokens (d_val dc) = [TLCB; TKY (B "a"); TPRI (B "1"); TRCB] /\
     lexed (doc_text dc) = Ok [TLCB; TKY (B "a"); TPRI (B "1}"); TRCB]) /\
  (exists dc, wf_doc dc = true /\ doc_tokens (d_val dc) = [TLB; TPRI (B "-1"); TRB] /\
     lexed (doc_text dc) = Ok [TLB; TPRI (B "1"); TRB]) /\
  (exists dc, wf_doc dc = true /\ doc_tokens (d_val dc) = [TLB; TPRI (B "1"); TRB] /\
     lexed (doc_text dc) = Ok [TLB; TPRI (B "1" ++ [LF]); TRB]).
Proof.
  split; [|split].
  - exists tight. vm_compute. auto.
  - exists (docu (arr [num "-1"])). vm_compute. auto.
  - exists (docu (JArr [] (ECons [] (num "1") [LF] ENil))). vm_compute. auto.
Qed.
Print Assumptions C09_refuted.

(** * C15: truncated documents *)
Definition C15_full : Prop := forall N strict q p j dc P R out,
  createPathProcessor strict q = Ok p -> wf_doc dc = true -> doc_text dc = P ++ R -> P <> [] ->
  serialRun N j p (doc_text dc) = Ok (Some out) ->
  exists n, serialRun N j p P = Ok (Some (firstn n out)).

(** Missing: documents that the lexer does not read exactly or that are longer
    than one load, and a cut between a key and its colon. *)
Theorem C15_partial : forall N strict q p j dc P R out,
  createPathProcessor strict q = Ok p -> good_doc dc -> doc_text dc = P ++ R -> P <> [] -> colon_next R = false ->
  serialRun N j p (doc_text dc) = Ok (Some out) ->
  exists n, serialRun N j p P = Ok (Some (firstn n out)).
Proof. intros N strict q p j dc P R out _ H1 H2 H3 H4 H5. exact (truncated N j p dc P R out H1 H2 H3 H4 H5). Qed.
Print Assumptions C15_partial.

(** The store cut in the middle of a string, with a filter query. *)
Definition q_titles : query := [SDesc (B "title")].
Example C15_example :
  good_doc store /\ colon_next (skipn 90 (doc_text store)) = false /\
  (p <- createPathProcessor true q_titles ;; serialRun zops j0 p (doc_text store))
    = Ok (Some [B """x\""y"""; B """inner"""; B """z"""; B """inner"""; B "null"]) /\
  (p <- createPathProcessor true q_titles ;; serialRun zops j0 p (firstn 90 (doc_text store)))
    = Ok (Some [B """x\""y"""; B """inner"""]).
Proof. split; [apply good_checked; vm_compute; reflexivity|]. vm_compute. auto. Qed.

(** Which answers a truncated document has: at least the selected values that end
    before the last byte of the prefix that is neither a blank nor a tab; after these
    only answers of the whole document, in order.
    Missing: filters (a value below a filter is delivered when the tested element has
    ended), and
    what is missing in C15_partial and C02. *)
Theorem C15_ended_partial : forall N strict q j dc P1 c w R,
  slice_query q = true -> restricted_before_desc false q = true -> forallb slice_ok q = true -> names_fit q = true ->
  good_doc dc -> limits q (d_val dc) -> j_major_null j = true ->
  doc_text dc = (P1 ++ c :: w) ++ R -> blank_char c = false -> colon_next R = false ->
  exists p more rest, createPathProcessor strict q = Ok p /\
    serialRun N j p (P1 ++ c :: w) = Ok (Some (ended_answers (zlen P1) q dc ++ more)) /\
    serialRun N j p (doc_text dc) = Ok (Some (ended_answers (zlen P1) q dc ++ more ++ rest)).
Proof. exact due_answers. Qed.
Print Assumptions C15_ended_partial.

(** The store cut after 90 bytes: two of the five titles have ended. *)
Example C15_ended_example :
  slice_query q_titles = true /\ restricted_before_desc false q_titles = true /\ forallb slice_ok q_titles = true /\ names_fit q_titles = true /\
  good_doc store /\ limits q_titles (d_val store) /\
  (exists c w, skipn 88 (firstn 90 (doc_text store)) = c :: w /\ blank_char c = false) /\
  doc_text store = firstn 90 (doc_text store) ++ skipn 90 (doc_text store) /\
  colon_next (skipn 90 (doc_text store)) = false /\
  ended_answers 88 q_titles store = [B """x\""y"""; B """inner"""].
Proof.
  repeat match goal with |- _ /\ _ => split end; try (vm_compute; reflexivity).
  - apply good_checked; vm_compute; reflexivity.
  - apply limits_checked; vm_compute; reflexivity.
  - eexists. eexists. split; vm_compute; reflexivity.
Qed.

(** Cut after a key and before its colon, the key is taken for a value. *)
Theorem C15_refuted : exists q P R out out', good_doc (docu (obj [(B "a", obj [(B "b", str "c")])])) /\
  doc_text (docu (obj [(B "a", obj [(B "b", str "c")])])) = P ++ R /\
  (forall N strict j p, j_major_null j = true -> createPathProcessor strict q = Ok p ->
     serialRun N j p (P ++ R) = Ok (Some out) /\ serialRun N j p P = Ok (Some out')) /\
  ~ exists n, out' = firstn n out.
Proof.
  exists [SChild (B "a")], (B "{""a"": {""b"""), (B ": ""c""}}"), [B "{""b"": ""c""}"], [B """b"""].
  split; [apply good_checked; vm_compute; reflexivity|]. split; [reflexivity|]. split.
  - intros N strict [f m] p Hm Hp. cbn in Hm. subst m. destruct strict; vm_compute in Hp; injection Hp as <-; split; vm_compute; reflexivity.
  - intros [[|n] H]; discriminate.
Qed.
Print Assumptions C15_refuted.

(** * C16: malformed input *)
Definition C16_full : Prop := forall strict q d x stream, build strict q = Ok (d, x) ->
  exists c, executeAutomaton d stream init_core = Ok c.

(** Missing: input in which a bare value follows a string directly (the lexer
    then reads outside the stream, [C16_refuted_lexer]; otherwise see [C16_tokens]), in which a closing
    bracket meets an open brace ([C16_refuted]), or that starts with blanks; and
    full buffers (C17). *)
Theorem C16_partial : forall strict q d x stream evs,
  zlen (query_names q) <= 2147483000 -> build strict q = Ok (d, x) ->
  lex_all stream = Ok evs -> lead_blanks (c_string stream) = O ->
  bracket_closes_brace [] (map e_tok evs) = false ->
  (exists c, executeAutomaton d stream init_core = Ok c) \/ executeAutomaton d stream init_core = UB OOBWrite.
Proof.
  intros strict q d x stream evs H1 H2 H3 H4 H5. pose proof (malformed_safe strict q d x stream evs H1 H2 H3 H4 H5) as H.
  destruct (executeAutomaton d stream init_core) as [c|[]]; cbn in H; try contradiction; eauto.
Qed.
Print Assumptions C16_partial.

Definition garbage : bytes := B "]} [""a"": }} [ , ""b"": ""c"" ""d"" } 5 ] ""x"":{{ } ""a"": [1,2".
Example C16_example : exists evs, lex_all garbage = Ok evs /\ lead_blanks (c_string garbage) = O /\
  bracket_closes_brace [] (map e_tok evs) = false /\ zlen evs = 22 /\
  exists c, (p <- createPathProcessor true [SDesc (B "a")] ;; executeAutomaton (p_dfa p) garbage init_core) = Ok c.
Proof. eexists. split; [vm_compute; reflexivity|]. vm_compute. repeat split; eauto. Qed.

(** Lexing: any bytes in which no word directly follows a string and no string or
    word is longer than 3996 bytes. *)
Theorem C16_tokens : forall stream, lexable Between (c_string stream) = true -> exists evs, lex_all stream = Ok evs.
Proof. exact lex_safe_bytes. Qed.
Print Assumptions C16_tokens.

(** Lexing and matching: if the text is small enough for the buffers, nothing is
    undefined. *)
Theorem C16_small : forall strict q d x stream,
  zlen (query_names q) <= 2147483000 -> build strict q = Ok (d, x) ->
  zlen (c_string stream) <= 998 -> lexable Between (c_string stream) = true -> lead_blanks (c_string stream) = O ->
  (forall evs, lex_all stream = Ok evs -> bracket_closes_brace [] (map e_tok evs) = false) ->
  exists c, executeAutomaton d stream init_core = Ok c.
Proof. intros strict q d x stream H1 H2 H3 H4 H5 H6. destruct (malformed_small strict q d x stream H1 H2 H3 H4 H5 H6) as (c & H & _). eauto. Qed.
Print Assumptions C16_small.

(** The whole run, for queries without filters. *)
Theorem C16_run : forall N strict q p j file, zlen (query_names q) <= 2147483000 -> supported q = true -> slice_query q = true -> createPathProcessor strict q = Ok p -> j_major_null j = true ->
  0 < zlen file <= 998 -> lexable Between (c_string file) = true -> lead_blanks (c_string file) = O ->
  (forall evs, lex_all file = Ok evs -> bracket_closes_brace [] (map e_tok evs) = false) ->
  exists out, serialRun N j p file = Ok (Some out).
Proof. exact malformed_run. Qed.
Print Assumptions C16_run.

Definition rubbish : bytes := B "]:} [""a\"" 1"": }}-- [ true ""x"" , tru""e 5 ""y"": 7 ""z"" : { ""b"" } ""never closed 12".
Example C16_bytes_example : lexable Between (c_string rubbish) = true /\ lead_blanks (c_string rubbish) = O /\ zlen (c_string rubbish) <= 998 /\
  (forall evs, lex_all rubbish = Ok evs -> bracket_closes_brace [] (map e_tok evs) = false) /\
  lexable Between (c_string (B "[""abcdefghi""1,")) = false /\
  map e_tok (match lex_all rubbish with Ok l => firstn 6 l | UB _ => [] end) = [TRB; TRCB; TLB; TKY (B "a\"" 1"); TRCB; TRCB].
Proof.
  split; [vm_compute; reflexivity|]. split; [reflexivity|]. split; [vm_compute; discriminate|]. split; [|split; vm_compute; reflexivity].
  intros evs H. vm_compute in H. injection H as <-. vm_compute. reflexivity.
Qed.

Theorem C16_refuted : exists q stream evs, lex_all stream = Ok evs /\
  forall strict d x, build strict q = Ok (d, x) -> executeAutomaton d stream init_core = UB OOBRead.
Proof.
  exists [SChild (B "a")], (B "{]{"). eexists. split; [vm_compute; reflexivity|].
  intros strict d x H. destruct strict; vm_compute in H; injection H as <- <-; vm_compute; reflexivity.
Qed.
Print Assumptions C16_refuted.

Example C16_run_example : exists p, createPathProcessor true [SDesc (B "y")] = Ok p /\ supported [SDesc (B "y")] = true /\ slice_query [SDesc (B "y")] = true /\
  serialRun zops j0 p rubbish = Ok (Some [B "7"]).
Proof. eexists. split; [vm_compute; reflexivity|]. split; [reflexivity|]. split; [reflexivity|]. vm_compute. reflexivity. Qed.

(** With a filter: a brace that closes nothing is taken for the end of an element. *)
Theorem C16_refuted_filter : exists q p file, supported q = true /\ createPathProcessor true q = Ok p /\ 0 < zlen file <= 998 /\
  lexable Between (c_string file) = true /\ lead_blanks (c_string file) = O /\
  (forall evs, lex_all file = Ok evs -> bracket_closes_brace [] (map e_tok evs) = false) /\
  forall N j, serialRun N j p file = UB OOBRead.
Proof.
  eexists [SChild (B "a"); SAll; SFilter (EField [B "b"]); SChild (B "c")], _, (B "{""a"": [[}"). split; [reflexivity|]. split; [vm_compute; reflexivity|].
  split; [split; [reflexivity|vm_compute; discriminate]|]. split; [reflexivity|]. split; [reflexivity|].
  split; [intros evs H; vm_compute in H; injection H as <-; reflexivity|]. intros N j. vm_compute. reflexivity.
Qed.
Print Assumptions C16_refuted_filter.

Theorem C16_refuted_lexer : exists stream, lex_all stream = UB OOBRead.
Proof. exists (B "[""abcdefghi""1,"). vm_compute. reflexivity. Qed.
Print Assumptions C16_refuted_lexer.

(** * C17: long keys and values *)
Definition C17_full : Prop := forall N strict q dc j,
  path_query q = true -> names_fit q = true -> wf_doc dc = true -> j_major_null j = true ->
  exists p, createPathProcessor strict q = Ok p /\ serialRun N j p (doc_text dc) <> UB OOBWrite.

(** Missing: keys of more than 3998, strings of more than 3996, other values of
    more than 3998 bytes, selected values of more than 998 bytes (and the layouts
    of C07). *)
Theorem C17_partial : forall N strict q dc j,
  path_query q = true -> names_fit q = true -> good_doc dc -> limits q (d_val dc) -> j_major_null j = true ->
  exists p out, createPathProcessor strict q = Ok p /\ serialRun N j p (doc_text dc) = Ok (Some out).
Proof.
  intros N strict q dc j H1 H2 H3 H4 H5. destruct (path_answer N strict q j dc H1 H2 H3 H4 H5) as (p & E1 & E2). eauto.
Qed.
Print Assumptions C17_partial.

(** A key of 3000 bytes and a value of 998 bytes. *)
Definition long_doc (n m : Z) : doc := docu (obj [(repeat "k"%char (Z.to_nat n), JStr (repeat "v"%char (Z.to_nat m)))]).
Example C17_example : let q := [SChildAny] in
  path_query q = true /\ names_fit q = true /\ good_doc (long_doc 3000 996) /\ limits q (d_val (long_doc 3000 996)).
Proof.
  split; [reflexivity|]. split; [reflexivity|]. split; [apply good_checked; vm_compute; reflexivity|].
  constructor; [vm_compute; lia|vm_compute; discriminate|].
  intros p u [E|[E|[]]] Hs; injection E as <- <-.
  - vm_compute. discriminate.
  - exfalso. destruct Hs as [Hs|Hs]; [discriminate|]. destruct Hs as (i & e & f & w & Hi & _). destruct i as [|[|i]]; discriminate.
Qed.

(** Every longer key overflows the buffer of the lexer, wherever it occurs. *)
Theorem C17_refuted_key : forall buf lx pre w s rest,
  buf = pre ++ w ++ [DQ] ++ s ++ [DQ] ++ rest -> nxt lx = zlen pre -> ws w = true ->
  no_nul s -> quotes_escaped s -> Nat.odd (trailing_bsl s) = false ->
  zlen s > (if colon_next rest then 3998 else 3996) -> nextToken buf lx = UB OOBWrite.
Proof.
  intros buf lx pre w s rest H1 H2 H3 H4 H5 H6 H7. pose proof (string_token buf lx pre w s rest H1 H2 H3 H4 H5 H6) as H.
  destruct (colon_next rest).
  - replace (3998 <? zlen s) with true in H by lia. exact H.
  - replace (3996 <? zlen s) with true in H by lia. exact H.
Qed.
Print Assumptions C17_refuted_key.

(** A selected value of 999 bytes overflows the tuple. *)
Theorem C17_refuted : exists q dc, path_query q = true /\ good_doc dc /\
  forall N strict j p, j_major_null j = true -> createPathProcessor strict q = Ok p ->
    serialRun N j p (doc_text dc) = UB OOBWrite.
Proof.
  exists [SChildAny], (long_doc 5 997). split; [reflexivity|]. split; [apply good_checked; vm_compute; reflexivity|].
  intros N strict [f m] p Hm Hp. cbn in Hm. subst m. destruct strict; vm_compute in Hp; injection Hp as <-; vm_compute; reflexivity.
Qed.
Print Assumptions C17_refuted.
