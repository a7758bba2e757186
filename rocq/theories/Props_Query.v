(** Properties of serial runs: C01-C03, C10-C14, C28, C30-C34, C39, C40. *)
From Coq Require Import Sorting.Sorted.
From Verif Require Import Base Util Spec QueryClass PosSpec Claims Lexer Dfa Stream TreeSem Num FilterSpec Builder Eval Filter Loader Run EndToEnd
  AnyQuery ClaimProof AnyRun SliceProof SliceSpec SliceAny SliceOne Compose QueryMore FinalSpec FinalFilter FinalMore TestedField DescFilter Samples Findings.
Open Scope Z_scope.

(** * C01: path queries return exactly the selected values *)
Definition C01_full : Prop := forall N strict q dc j,
  path_query q = true -> wf_doc dc = true -> j_major_null j = true ->
  exists p, createPathProcessor strict q = Ok p /\
    serialRun N j p (doc_text dc) = Ok (Some (answer_text (fun _ _ => false) q (d_val dc))).

(** Missing compared to the full statement: at most 253 names, documents in a
    layout on which the lexer is exact, and the sizes of the fixed buffers. *)
Theorem C01_partial : forall N strict q dc j,
  path_query q = true -> names_fit q = true -> good_doc dc -> limits q (d_val dc) -> j_major_null j = true ->
  exists p, createPathProcessor strict q = Ok p /\
    serialRun N j p (doc_text dc) = Ok (Some (answer_text (fun _ _ => false) q (d_val dc))).
Proof. intros N strict q dc j H1 H2 H3 H4 H5. exact (path_answer N strict q j dc H1 H2 H3 H4 H5). Qed.
Print Assumptions C01_partial.

Example C01_example :
  let q := [SDesc (B "title")] in
  path_query q = true /\ names_fit q = true /\ good_doc store /\ limits q (d_val store) /\
  strings (answer_text (fun _ _ => false) q (d_val store)) = ["""x\""y"""; """inner"""; """z"""; """inner"""; "null"]%string.
Proof. premises. Qed.

(** The code returns [1}] for [$.a] on [{"a":1}]. *)
Theorem C01_refuted : exists q dc out, path_query q = true /\ wf_doc dc = true /\
  (forall N strict j p, j_major_null j = true -> createPathProcessor strict q = Ok p -> serialRun N j p (doc_text dc) = Ok (Some out)) /\
  out <> answer_text (fun _ _ => false) q (d_val dc).
Proof.
  exists [SChild (B "a")], tight, [B "1}"]. split; [reflexivity|]. split; [reflexivity|]. split; [exact tight_run|discriminate].
Qed.
Print Assumptions C01_refuted.

(** * C02: slices *)
Definition C02_full : Prop := forall N strict q dc j,
  slice_query q = true -> wf_doc dc = true -> j_major_null j = true ->
  exists p, createPathProcessor strict q = Ok p /\
    serialRun N j p (doc_text dc) = Ok (Some (answer_text (fun _ _ => false) q (d_val dc))).

(** Missing: slices after a [..] step, the slice [0:0], and the limits of C01. *)
Theorem C02_partial : forall N strict q dc j,
  slice_query q = true -> restricted_before_desc false q = true -> forallb slice_ok q = true ->
  names_fit q = true -> good_doc dc -> limits q (d_val dc) -> j_major_null j = true ->
  exists p, createPathProcessor strict q = Ok p /\
    serialRun N j p (doc_text dc) = Ok (Some (answer_text (fun _ _ => false) q (d_val dc))).
Proof. intros N strict q dc j H1 H2 H3 H4 H5 H6 H7. exact (slice_answer N strict q j dc H1 H2 H3 H4 H5 H6 H7). Qed.
Print Assumptions C02_partial.

Example C02_example :
  let q := [SChild (B "store"); SChildAny; SSlice (Some 1) None; SChild (B "tags"); SSlice (Some 0) (Some 2)] in
  slice_query q = true /\ restricted_before_desc false q = true /\ forallb slice_ok q = true /\
  names_fit q = true /\ good_doc store /\ limits q (d_val store) /\
  strings (answer_text (fun _ _ => false) q (d_val store)) = ["""a"""; "1"]%string.
Proof. premises. Qed.

(** [$..a[0:1]] misses the array inside the element that is out of range. *)
Theorem C02_refuted : exists q dc out, slice_query q = true /\ good_doc dc /\
  (forall N strict j p, j_major_null j = true -> createPathProcessor strict q = Ok p -> serialRun N j p (doc_text dc) = Ok (Some out)) /\
  out <> answer_text (fun _ _ => false) q (d_val dc).
Proof.
  exists q_desc_slice, nested_a, [B """w"""]. split; [reflexivity|]. split; [apply good_checked; vm_compute; reflexivity|].
  split; [exact desc_slice_run|]. vm_compute. discriminate.
Qed.
Print Assumptions C02_refuted.

(** * C03: filters *)
Definition C03_full : Prop := forall N strict q dc j,
  wf_doc dc = true -> q <> [] -> filters_meaningful N q (d_val dc) -> j_major_null j = true ->
  exists p, createPathProcessor strict q = Ok p /\
    serialRun N j p (doc_text dc) = Ok (Some (answer_text (holds N) q (d_val dc))).

(** Missing: the queries outside [supported], and the limits of C01; states of
    filters must be below 100 ([predicates_fit]); with the strict reading of the C
    code, filters may only look at fields of the element itself ([single_names]). *)
Theorem C03_partial : forall N strict q dc j,
  supported q = true -> (strict = true -> single_names q) -> predicates_fit strict q ->
  good_doc dc -> limits q (d_val dc) -> filters_meaningful N q (d_val dc) -> j_major_null j = true ->
  exists p, createPathProcessor strict q = Ok p /\
    serialRun N j p (doc_text dc) = Ok (Some (answer_text (holds N) q (d_val dc))).
Proof. intros N strict q dc j H1 H2 H3 H4 H5 H6 H7. exact (serial_answer N strict q j dc H1 H2 H3 H4 H5 H6 H7). Qed.
Print Assumptions C03_partial.

(** Two nested filters, one of them with several conditions. *)
Definition q_two : query :=
  [SChild (B "shelf"); SFilter (EBin BAnd (EBin BLt (EField [B "no"]) (ENum false (B "5"))) (ENot (EField [B "closed"]))); SChild (B "book");
   SFilter (EBin BOr (EBin BEq (EField [B "lang"]) (EStr (B "en"))) (EBin BGe (EField [B "year"]) (ENum false (B "2000")))); SChild (B "title")].
Definition shelves : doc := docu (obj [(B "shelf", arr [
  obj [(B "no", num "1"); (B "book", arr [obj [(B "title", str "A"); (B "lang", str "en"); (B "year", num "1990")];
                                          obj [(B "title", str "B"); (B "lang", str "de"); (B "year", num "1990")];
                                          obj [(B "year", num "2001"); (B "lang", str "de"); (B "title", arr [str "C"])]])];
  obj [(B "no", num "2"); (B "closed", num "true"); (B "book", arr [obj [(B "title", str "D"); (B "lang", str "en"); (B "year", num "2010")]])];
  obj [(B "book", arr [obj [(B "title", str "E"); (B "lang", str "en"); (B "year", num "2010")]]); (B "no", num "7")]])]).
Example C03_example :
  supported q_two = true /\ single_names q_two /\ predicates_fit true q_two /\ predicates_fit false q_two /\
  good_doc shelves /\ limits q_two (d_val shelves) /\ filters_meaningful zops q_two (d_val shelves) /\
  strings (answer_text (holds zops) q_two (d_val shelves)) = ["""A"""; "[""C""]"]%string.
Proof. premises. Qed.

Theorem C03_refuted : exists q dc out, good_doc dc /\ filters_meaningful zops q (d_val dc) /\
  (forall strict j p, j_major_null j = true -> createPathProcessor strict q = Ok p -> serialRun zops j p (doc_text dc) = Ok (Some out)) /\
  out <> answer_text (holds zops) q (d_val dc).
Proof.
  exists q_desc_filter, nested_filter, []. split; [apply good_checked; vm_compute; reflexivity|].
  split; [apply meaningful_checked; vm_compute; reflexivity|]. split; [exact desc_filter_run|]. vm_compute. discriminate.
Qed.
Print Assumptions C03_refuted.

(** * C10: white space *)
Definition C10_full : Prop := forall N strict q dc1 dc2 j,
  wf_doc dc1 = true -> wf_doc dc2 = true -> same_up_to_layout (d_val dc1) (d_val dc2) -> j_major_null j = true ->
  forall p o1 o2, createPathProcessor strict q = Ok p ->
    serialRun N j p (doc_text dc1) = Ok (Some o1) -> serialRun N j p (doc_text dc2) = Ok (Some o2) ->
    exists l1 l2, o1 = map text l1 /\ o2 = map text l2 /\
      Forall2 (fun v1 v2 => same_up_to_layout v1 v2 /\ (is_container v1 = false -> text v1 = text v2)) l1 l2.

Theorem C10_partial : forall N strict q dc1 dc2 j,
  supported q = true -> (strict = true -> single_names q) -> predicates_fit strict q ->
  good_doc dc1 -> good_doc dc2 -> limits q (d_val dc1) -> limits q (d_val dc2) ->
  filters_meaningful N q (d_val dc1) -> filters_meaningful N q (d_val dc2) -> j_major_null j = true ->
  same_up_to_layout (d_val dc1) (d_val dc2) ->
  exists p l1 l2, createPathProcessor strict q = Ok p /\
    serialRun N j p (doc_text dc1) = Ok (Some (map text l1)) /\
    serialRun N j p (doc_text dc2) = Ok (Some (map text l2)) /\
    Forall2 (fun v1 v2 => same_up_to_layout v1 v2 /\ (is_container v1 = false -> text v1 = text v2)) l1 l2.
Proof.
  intros N strict q dc1 dc2 j H1 H2 H3 H4 H5 H6 H7 H8 H9 H10 H11.
  exact (serial_layout N strict q j dc1 dc2 H1 H2 H3 H4 H5 H6 H7 H8 H9 H10 H11).
Qed.
Print Assumptions C10_partial.

(** Blanks, tabs and line breaks in many places. *)
Definition spread (v : json) : json :=
  JObj [LF; TAB] (MCons (mkPad [LF] [TAB] [LF] [TAB; CR]) (B "a") (JArr [LF] (ECons (B " ") (str "x") [LF] (ECons [TAB] v (B "  ") ENil)))
                 (MCons (mkPad [] (B " ") [] [LF]) (B "b") (obj []) MNil)).
Definition wide : doc := mkDoc [LF; TAB] (spread (num "12")) [LF].
Definition narrow : doc := docu (obj0 [(B "a", arr [str "x"; num "12"]); (B "b", obj0 [])]).
Example C10_example : let q := [SChild (B "a"); SAll] in
  supported q = true /\ single_names q /\ predicates_fit true q /\ good_doc wide /\ good_doc narrow /\
  limits q (d_val wide) /\ limits q (d_val narrow) /\ filters_meaningful zops q (d_val wide) /\
  filters_meaningful zops q (d_val narrow) /\ same_up_to_layout (d_val wide) (d_val narrow) /\
  strings (answer_text (holds zops) q (d_val wide)) = ["""x"""; "12"]%string.
Proof. premises. Qed.

(** A line break after a number becomes part of the output. *)
Theorem C10_refuted : exists q dc1 dc2 o1 o2, wf_doc dc1 = true /\ wf_doc dc2 = true /\
  same_up_to_layout (d_val dc1) (d_val dc2) /\
  (forall N strict j p, j_major_null j = true -> createPathProcessor strict q = Ok p ->
     serialRun N j p (doc_text dc1) = Ok (Some o1) /\ serialRun N j p (doc_text dc2) = Ok (Some o2)) /\
  (forall v, In v (answer (fun _ _ => false) q (d_val dc1)) -> is_container v = false) /\ o1 <> o2.
Proof.
  exists [SAll], broken_line, one_line, [B "1" ++ [LF]; B "2"], [B "1"; B "2"].
  split; [reflexivity|]. split; [reflexivity|]. split; [reflexivity|]. split.
  - intros N strict j p Hj Hp. split; [apply (broken_line_run N strict j p Hj Hp)|apply (one_line_run N strict j p Hj Hp)].
  - split; [|discriminate]. vm_compute. intros v [<-|[<-|[]]]; reflexivity.
Qed.
Print Assumptions C10_refuted.

(** * C11 and C12: output texts are values of the input, in order of completion *)
Definition C11_full : Prop := forall N strict q dc j p out,
  wf_doc dc = true -> createPathProcessor strict q = Ok p -> serialRun N j p (doc_text dc) = Ok (Some out) ->
  forall t, In t out -> exists o v, In (o, v) (doc_spans dc) /\ t = text v /\ written_at (doc_text dc) o t.
Definition C12_full : Prop := forall N strict q dc j p out,
  wf_doc dc = true -> createPathProcessor strict q = Ok p -> serialRun N j p (doc_text dc) = Ok (Some out) ->
  exists l, out = map (fun s => text (snd s)) l /\ in_completion_order dc l.

(** For every query that compiles, supported or not, and every run that succeeds:
    apart from empty entries, the output is a list of values of the document, each
    written at its own position and at most once, in the order in which they end.
    Missing: documents outside [good_doc] or nested deeper than 100.  Empty entries
    stand for containers tested by a filter and only occur with queries for which
    the filter stage is wrong. *)
Theorem C11_partial : forall N strict q dc j p out,
  zlen (query_names q) <= name_bound -> createPathProcessor strict q = Ok p ->
  good_doc dc -> (depth (d_val dc) <= 100)%nat -> serialRun N j p (doc_text dc) = Ok (Some out) ->
  exists l, filter nonempty out = map (fun s => text (snd s)) l /\ in_completion_order dc l.
Proof. intros N strict q dc j p out H1 H2 H3 H4 H5. exact (any_output N strict q p j dc out H1 H2 H3 H4 H5). Qed.
Print Assumptions C11_partial.

(** For supported queries there are no empty entries, and the run succeeds. *)
Theorem C12_partial : forall N strict q dc j,
  supported q = true -> (strict = true -> single_names q) -> predicates_fit strict q ->
  good_doc dc -> limits q (d_val dc) -> filters_meaningful N q (d_val dc) -> j_major_null j = true ->
  exists p l, createPathProcessor strict q = Ok p /\
    serialRun N j p (doc_text dc) = Ok (Some (map (fun s => text (snd s)) l)) /\ in_completion_order dc l.
Proof. intros N strict q dc j H1 H2 H3 H4 H5 H6 H7. exact (serial_order N strict q j dc H1 H2 H3 H4 H5 H6 H7). Qed.
Print Assumptions C12_partial.

(** Selected values nested in one another, with an unsupported query. *)
Example C11_example : let q := [SDescAny; SSlice (Some 0) (Some 1)] in exists p,
  createPathProcessor true q = Ok p /\ zlen (query_names q) <= name_bound /\ good_doc store /\ (depth (d_val store) <= 100)%nat /\
  supported q = false /\
  serialRun zops j0 p (doc_text store) = Ok (Some (map B ["""a"""; "{""title"": ""x\""y"",""price"": 8,""tags"": [""a"",1,{""title"": ""inner""}]}"]%string)).
Proof.
  eexists. split; [vm_compute; reflexivity|]. split; [vm_compute; discriminate|]. split; [apply store_good|].
  split; [apply Nat.leb_le; vm_compute; reflexivity|]. split; [reflexivity|]. vm_compute. reflexivity.
Qed.

Theorem C11_refuted : exists q dc out, wf_doc dc = true /\
  (forall N strict j p, j_major_null j = true -> createPathProcessor strict q = Ok p -> serialRun N j p (doc_text dc) = Ok (Some out)) /\
  ~ (forall t, In t out -> exists o v, In (o, v) (doc_spans dc) /\ t = text v).
Proof.
  exists [SChild (B "a")], shifted, [B "x"",""y""],"""]. split; [reflexivity|]. split; [exact shifted_run|].
  intros H. destruct (H _ (or_introl eq_refl)) as (o & v & Hin & E). vm_compute in Hin.
  repeat (destruct Hin as [Hin|Hin]; [injection Hin as <- <-; discriminate E|]). destruct Hin.
Qed.
Print Assumptions C11_refuted.
Theorem C12_refuted : exists q dc out, wf_doc dc = true /\
  (forall N strict j p, j_major_null j = true -> createPathProcessor strict q = Ok p -> serialRun N j p (doc_text dc) = Ok (Some out)) /\
  ~ (exists l, out = map (fun s => text (snd s)) l /\ in_completion_order dc l).
Proof.
  exists [SChild (B "a")], shifted, [B "x"",""y""],"""]. split; [reflexivity|]. split; [exact shifted_run|].
  intros (l & E & Hl & _). destruct l as [|[o v] l]; [discriminate|]. injection E as E _.
  inversion Hl as [|? ? [Hin _] _]; subst. vm_compute in Hin.
  repeat (destruct Hin as [Hin|Hin]; [injection Hin as <- <-; discriminate E|]). destruct Hin.
Qed.
Print Assumptions C12_refuted.

(** * C13: the automaton returns to its initial configuration *)
Definition C13_full : Prop := forall strict q p dc c,
  createPathProcessor strict q = Ok p -> wf_doc dc = true ->
  executeAutomaton (p_dfa p) (doc_text dc) init_core = Ok c ->
  c_ss c = c_ss init_core /\ c_qs c = c_qs init_core /\ c_cur c = c_cur init_core.

(** For every query that compiles.  Missing: documents outside [good_doc] or
    nested deeper than 100. *)
Theorem C13_partial : forall strict q p dc c,
  zlen (query_names q) <= name_bound -> createPathProcessor strict q = Ok p -> good_doc dc -> (depth (d_val dc) <= 100)%nat ->
  executeAutomaton (p_dfa p) (doc_text dc) init_core = Ok c ->
  c_ss c = c_ss init_core /\ c_qs c = c_qs init_core /\ c_cur c = c_cur init_core.
Proof. intros strict q p dc c H1 H2 H3 H4 H5. exact (any_restore strict q p dc c H1 H2 H3 H4 H5). Qed.
Print Assumptions C13_partial.

(** The next document is processed as if it were the first: its matches are
    appended. *)
Theorem C13_next_partial : forall strict q p dc dc2 c c2 c3,
  zlen (query_names q) <= name_bound -> createPathProcessor strict q = Ok p ->
  good_doc dc -> (depth (d_val dc) <= 100)%nat -> good_doc dc2 -> (depth (d_val dc2) <= 100)%nat ->
  executeAutomaton (p_dfa p) (doc_text dc) init_core = Ok c ->
  executeAutomaton (p_dfa p) (doc_text dc2) c = Ok c2 ->
  executeAutomaton (p_dfa p) (doc_text dc2) init_core = Ok c3 ->
  c2 = mkCore (c_ss c3) (c_qs c3) (c_cur c3) (c_tl c ++ c_tl c3).
Proof. intros strict q p dc dc2 c c2 c3 H1 H2 H3 H4 H5 H6 H7 H8 H9. exact (any_next strict q p dc dc2 c c2 c3 H1 H2 H3 H4 H5 H6 H7 H8 H9). Qed.
Print Assumptions C13_next_partial.

Example C13_example : exists p c, createPathProcessor true q_two = Ok p /\ good_doc shelves /\ (depth (d_val shelves) <= 100)%nat /\
  zlen (query_names q_two) <= name_bound /\
  executeAutomaton (p_dfa p) (doc_text shelves) init_core = Ok c /\ zlen (c_tl c) = 35.
Proof.
  eexists. eexists. split; [vm_compute; reflexivity|]. split; [apply good_checked; vm_compute; reflexivity|].
  split; [apply Nat.leb_le; vm_compute; reflexivity|]. split; [vm_compute; discriminate|].
  split; [vm_compute; reflexivity|]. vm_compute. reflexivity.
Qed.

(** A line break between a key and its colon. *)
Theorem C13_refuted : exists q dc, wf_doc dc = true /\ forall strict p, createPathProcessor strict q = Ok p ->
  exists c, executeAutomaton (p_dfa p) (doc_text dc) init_core = Ok c /\ c_cur c <> c_cur init_core /\ c_ss c <> [].
Proof.
  exists [SChild (B "b")], split_key. split; [reflexivity|]. intros strict p Hp. eexists. split; [exact (split_key_core strict p Hp)|].
  split; discriminate.
Qed.
Print Assumptions C13_refuted.

(** * C14: nesting *)
Definition C14_full : Prop := forall N strict q dc j,
  supported q = true -> good_doc dc -> (forall p u, In (p, u) (nodes [] (d_val dc)) -> zlen (text u) <= 998) ->
  filters_meaningful N q (d_val dc) -> j_major_null j = true ->
  exists p, createPathProcessor strict q = Ok p /\
    serialRun N j p (doc_text dc) = Ok (Some (answer_text (holds N) q (d_val dc))).

(** Up to the stack capacity of 100 the answer is right: [limits] asks for a depth
    of at most 100.  Missing: deeper documents. *)
Theorem C14_partial : forall N strict q dc j,
  supported q = true -> (strict = true -> single_names q) -> predicates_fit strict q -> good_doc dc ->
  (depth (d_val dc) <= 100)%nat -> zlen (nodes [] (d_val dc)) <= 800000 ->
  (forall p u, In (p, u) (nodes [] (d_val dc)) -> lsel q (labels p) = true \/ tested q (labels p) -> zlen (text u) <= 998) ->
  filters_meaningful N q (d_val dc) -> j_major_null j = true ->
  exists p, createPathProcessor strict q = Ok p /\
    serialRun N j p (doc_text dc) = Ok (Some (answer_text (holds N) q (d_val dc))).
Proof.
  intros N strict q dc j H1 H2 H3 H4 H5 H6 H7 H8 H9.
  exact (serial_answer N strict q j dc H1 H2 H3 H4 (Build_limits q (d_val dc) H5 H6 H7) H8 H9).
Qed.
Print Assumptions C14_partial.

Example C14_example : depth (d_val (deep 97)) = 100%nat /\ good_doc (deep 97) /\ limits [SChild (B "a")] (d_val (deep 97)) /\
  strings (answer_text (fun _ _ => false) [SChild (B "a")] (d_val (deep 97))) = ["""top"""%string].
Proof. premises. Qed.

(** One level more: the answer is lost; two levels more: a wrong value is added. *)
Theorem C14_refuted : exists q dc1 dc2 out2, supported q = true /\ good_doc dc1 /\ good_doc dc2 /\
  depth (d_val dc1) = 101%nat /\ depth (d_val dc2) = 102%nat /\
  answer_text (fun _ _ => false) q (d_val dc1) = [B """top"""] /\ answer_text (fun _ _ => false) q (d_val dc2) = [B """top"""] /\
  (forall N strict j p, j_major_null j = true -> createPathProcessor strict q = Ok p ->
     serialRun N j p (doc_text dc1) = Ok (Some []) /\ serialRun N j p (doc_text dc2) = Ok (Some out2)) /\
  out2 = [B """inside"""; B """top"""].
Proof.
  exists [SChild (B "a")], (deep 98), (deep 99), [B """inside"""; B """top"""].
  split; [reflexivity|]. split; [apply good_checked; vm_compute; reflexivity|]. split; [apply good_checked; vm_compute; reflexivity|].
  split; [vm_compute; reflexivity|]. split; [vm_compute; reflexivity|]. split; [vm_compute; reflexivity|]. split; [vm_compute; reflexivity|].
  split; [|reflexivity]. intros N strict j p Hj Hp. split; [apply (deep_run101 N strict j p Hj Hp)|apply (deep_run102 N strict j p Hj Hp)].
Qed.
Print Assumptions C14_refuted.

(** * C30: an index step selects that element *)
Definition C30_full : Prop := forall N strict q n dc j p,
  path_query q = true -> 0 <= n -> good_doc dc -> limits (q ++ [SIndex n]) (d_val dc) -> j_major_null j = true ->
  createPathProcessor strict (q ++ [SIndex n]) = Ok p ->
  serialRun N j p (doc_text dc) = Ok (Some (answer_text (fun _ _ => false) (q ++ [SIndex n]) (d_val dc))).
Theorem C30_refuted : exists q n dc out, path_query q = true /\ good_doc dc /\
  (forall N strict j p, j_major_null j = true -> createPathProcessor strict (q ++ [SIndex n]) = Ok p -> serialRun N j p (doc_text dc) = Ok (Some out)) /\
  out = answer_text (fun _ _ => false) q (d_val dc) /\
  out <> answer_text (fun _ _ => false) (q ++ [SIndex n]) (d_val dc).
Proof.
  exists [SChild (B "a")], 1, nested_a, [B "[""w"",{""a"": [""y"",""z""]}]"]. split; [reflexivity|].
  split; [apply good_checked; vm_compute; reflexivity|]. split; [exact index_run|]. split; [vm_compute; reflexivity|]. vm_compute. discriminate.
Qed.
Print Assumptions C30_refuted.

(** The general reason: the compiler ignores index steps. *)
Theorem C30_ignored : forall strict q1 n q2, build strict (q1 ++ SIndex n :: q2) = build strict (q1 ++ q2).
Proof. exact index_ignored. Qed.
Print Assumptions C30_ignored.
Example C30_example : exists d x, build true ([SChild (B "a")] ++ SIndex 1 :: [SChild (B "b")]) = Ok (d, x) /\ nstates d = 4.
Proof. eexists. eexists. split; [vm_compute; reflexivity|]. vm_compute. reflexivity. Qed.

(** So a query with an index step returns what it returns without that step. *)
Theorem C30_run : forall N strict q1 n q2 dc j,
  supported (q1 ++ q2) = true -> (strict = true -> single_names (q1 ++ q2)) -> predicates_fit strict (q1 ++ q2) ->
  good_doc dc -> limits (q1 ++ q2) (d_val dc) -> filters_meaningful N (q1 ++ q2) (d_val dc) -> j_major_null j = true ->
  exists p, createPathProcessor strict (q1 ++ SIndex n :: q2) = Ok p /\
    serialRun N j p (doc_text dc) = Ok (Some (answer_text (holds N) (q1 ++ q2) (d_val dc))).
Proof. intros N strict q1 n q2 dc j. exact (index_answer N strict q1 n q2 j dc). Qed.
Print Assumptions C30_run.
Example C30_run_example : let q := [SChild (B "store"); SChild (B "book")] ++ [SAll; SChild (B "price")] in
  supported q = true /\ single_names q /\ predicates_fit true q /\ good_doc store /\ limits q (d_val store) /\
  filters_meaningful zops q (d_val store) /\
  strings (answer_text (holds zops) q (d_val store)) = ["8"; "20"]%string.
Proof. premises. Qed.

(** * C31: an empty slice selects nothing *)
Definition C31_full : Prop := forall N strict q1 lo hi q2 dc j p,
  lo >= hi -> good_doc dc -> j_major_null j = true ->
  createPathProcessor strict (q1 ++ SSlice (Some lo) (Some hi) :: q2) = Ok p ->
  serialRun N j p (doc_text dc) = Ok (Some []).

(** Missing: the slice [0:0], and slices after [..]. *)
Theorem C31_partial : forall N strict q1 lo hi q2 dc j,
  let q := q1 ++ SSlice (Some lo) (Some hi) :: q2 in
  lo >= hi -> slice_query q = true -> restricted_before_desc false q = true -> forallb slice_ok q = true ->
  names_fit q = true -> good_doc dc -> limits q (d_val dc) -> j_major_null j = true ->
  exists p, createPathProcessor strict q = Ok p /\ serialRun N j p (doc_text dc) = Ok (Some []).
Proof. exact empty_slice. Qed.
Print Assumptions C31_partial.
Example C31_example : let q := [SChild (B "store"); SChild (B "book")] ++ SSlice (Some 2) (Some 2) :: [SChildAny] in
  slice_query q = true /\ restricted_before_desc false q = true /\ forallb slice_ok q = true /\ names_fit q = true /\
  good_doc store /\ limits q (d_val store).
Proof. premises. Qed.

Theorem C31_refuted : exists q1 lo hi q2 dc out, lo >= hi /\ good_doc dc /\ out <> [] /\
  (forall N strict j p, j_major_null j = true -> createPathProcessor strict (q1 ++ SSlice (Some lo) (Some hi) :: q2) = Ok p ->
     serialRun N j p (doc_text dc) = Ok (Some out)).
Proof.
  exists [SChild (B "a")], 0, 0, [], nested_a, [B """w"""; B "{""a"": [""y"",""z""]}"]. split; [lia|].
  split; [apply good_checked; vm_compute; reflexivity|]. split; [discriminate|exact empty_slice_run].
Qed.
Print Assumptions C31_refuted.

(** * C32: a final filter step filters its elements *)
Definition C32_full : Prop := forall N strict q e dc j p,
  good_doc dc -> j_major_null j = true -> filters_meaningful N (q ++ [SFilter e]) (d_val dc) ->
  createPathProcessor strict (q ++ [SFilter e]) = Ok p ->
  serialRun N j p (doc_text dc) = Ok (Some (answer_text (holds N) (q ++ [SFilter e]) (d_val dc))).
Theorem C32_refuted : exists q e dc out, good_doc dc /\ filters_meaningful zops (q ++ [SFilter e]) (d_val dc) /\
  (forall N strict j p, j_major_null j = true -> createPathProcessor strict (q ++ [SFilter e]) = Ok p -> serialRun N j p (doc_text dc) = Ok (Some out)) /\
  (exists u, In (text u) out /\ In u (answer (fun _ _ => true) (q ++ [SFilter e]) (d_val dc)) /\ holds zops e u = false) /\
  out <> answer_text (holds zops) (q ++ [SFilter e]) (d_val dc).
Proof.
  exists [SChild (B "a")], (EField [B "b"]), two_elems, [B """x"""; B "{""b"": ""x""}"; B "{""c"": ""y""}"].
  split; [apply good_checked; vm_compute; reflexivity|]. split; [apply meaningful_checked; vm_compute; reflexivity|].
  split; [exact final_filter_run|]. split; [|vm_compute; discriminate].
  exists (obj [(B "c", str "y")]). vm_compute. tauto.
Qed.
Print Assumptions C32_refuted.

(** What the code returns instead: every element, whatever the expression says, and
    the fields that the expression mentions. *)
Theorem C32_coded : forall N strict q e dc j, let q' := q ++ [SFilter e] in
  forallb is_path_step q = true -> fields_ok q' = true -> (strict = true -> single_names q') -> names_fit q' = true ->
  good_doc dc -> limits q' (d_val dc) -> j_major_null j = true ->
  exists p, createPathProcessor strict q' = Ok p /\ serialRun N j p (doc_text dc) = Ok (Some (final_text q e (d_val dc))).
Proof. intros N strict q e dc j q' H1 H2 H3 H4 H5 H6 H7. exact (final_answer N strict q e j dc H1 H2 H3 H4 H5 H6 H7). Qed.
Print Assumptions C32_coded.
Definition cheap : expr := EBin BLt (EField [B "price"]) (ENum false (B "10")).
Example C32_coded_example : let q := [SChild (B "store"); SChild (B "book")] in let q' := q ++ [SFilter cheap] in
  forallb is_path_step q = true /\ fields_ok q' = true /\ single_names q' /\ names_fit q' = true /\ good_doc store /\ limits q' (d_val store) /\
  zlen (answer (holds zops) q' (d_val store)) = 1 /\ zlen (final_text q cheap (d_val store)) = 5.
Proof. premises. Qed.
Example C32_coded_nested : let q := [SDesc (B "a")] in let e := EBin BAnd (EField [B "b"]) (EField [B "c"]) in
  strings (final_text q e (arr [obj [(B "a", arr [obj [(B "b", arr [num "1"]); (B "d", str "x")]; num "2"; obj [(B "c", num "3"); (B "a", arr [num "4"])]])]]))
  = [""; "{""b"": [1],""d"": ""x""}"; "2"; "3"; "4"; "{""c"": 3,""a"": [4]}"]%string.
Proof. premises. Qed.

(** Two expressions that mention the same fields give the same output. *)
Theorem C32_ignored : forall N strict q e e' dc j p p', let q' := q ++ [SFilter e] in let q2 := q ++ [SFilter e'] in
  forallb is_path_step q = true -> fields_in e = fields_in e' -> fields_ok q' = true -> (strict = true -> single_names q') -> names_fit q' = true ->
  good_doc dc -> limits q' (d_val dc) -> j_major_null j = true ->
  createPathProcessor strict q' = Ok p -> createPathProcessor strict q2 = Ok p' ->
  exists out, serialRun N j p (doc_text dc) = Ok (Some out) /\ serialRun N j p' (doc_text dc) = Ok (Some out).
Proof. exact final_ignored. Qed.
Print Assumptions C32_ignored.
Example C32_ignored_example : let q := [SChild (B "store"); SChild (B "book")] in let q' := q ++ [SFilter cheap] in
  let dear := EBin BGe (EField [B "price"]) (ENum false (B "10")) in
  forallb is_path_step q = true /\ fields_in cheap = fields_in dear /\ fields_ok q' = true /\ single_names q' /\ names_fit q' = true /\ good_doc store /\
  limits q' (d_val store) /\ strings (answer_text (holds zops) q' (d_val store)) <> strings (answer_text (holds zops) (q ++ [SFilter dear]) (d_val store)).
Proof. premises. vm_compute. discriminate. Qed.

(** The output is the answer exactly if the expression holds for every element and
    no element has a field that the expression mentions.  Missing: steps of the query
    before the filter that are slices or filters, and the limits of C03. *)
Theorem C32_partial : forall N strict q e dc j p out, let q' := q ++ [SFilter e] in
  forallb is_path_step q = true -> fields_ok q' = true -> (strict = true -> single_names q') -> names_fit q' = true ->
  good_doc dc -> limits q' (d_val dc) -> j_major_null j = true ->
  createPathProcessor strict q' = Ok p -> serialRun N j p (doc_text dc) = Ok (Some out) ->
  (forall u, In u (answer (holds N) (q ++ [SAll]) (d_val dc)) -> In (text u) out) /\
  (out = answer_text (holds N) q' (d_val dc) <->
   (forall u, In u (answer (holds N) (q ++ [SAll]) (d_val dc)) -> is_object u = true /\ holds N e u = true) /\
   (forall f u p x, In f (fields_in e) -> filtered q (labels p) = true ->
      ~ In (p ++ x, u) (nodes [] (d_val dc)) \/ labels x <> map LKey f)).
Proof. exact final_partial. Qed.
Print Assumptions C32_partial.
Example C32_example : let q := [SChild (B "a")] in let e := ENot (EField [B "z"]) in let q' := q ++ [SFilter e] in
  forallb is_path_step q = true /\ fields_ok q' = true /\ single_names q' /\ names_fit q' = true /\ good_doc two_elems /\ limits q' (d_val two_elems) /\
  strings (final_text q e (d_val two_elems)) = ["{""b"": ""x""}"; "{""c"": ""y""}"]%string /\
  final_text q e (d_val two_elems) = answer_text (holds zops) q' (d_val two_elems).
Proof. premises. Qed.

(** * C33: testing a field does not prevent returning it *)
Definition C33_full : Prop := forall N strict q e s dc j p,
  good_doc dc -> j_major_null j = true -> filters_meaningful N (q ++ [SFilter e; s]) (d_val dc) ->
  s = SChildAny \/ (exists k, s = SChild k) ->
  createPathProcessor strict (q ++ [SFilter e; s]) = Ok p ->
  serialRun N j p (doc_text dc) = Ok (Some (answer_text (holds N) (q ++ [SFilter e; s]) (d_val dc))).
(** A tested field can be selected when more steps follow.  The remaining steps are
    applied to the elements for which the condition holds and to no other.  Missing:
    remaining steps that select a tested field of the element ([C33_dropped] and
    [C33_undefined] say what happens then), and the limits of C03. *)
Theorem C33_partial : forall N strict q e q2 dc j,
  let q' := q ++ SFilter e :: q2 in
  supported q' = true -> (strict = true -> single_names q') -> predicates_fit strict q' ->
  good_doc dc -> limits q' (d_val dc) -> filters_meaningful N q' (d_val dc) -> j_major_null j = true ->
  exists p, createPathProcessor strict q' = Ok p /\
    serialRun N j p (doc_text dc) =
    Ok (Some (map text (flat_map (fun u => if is_object u && holds N e u then answer (holds N) q2 u else [])
                          (flat_map elements_in (answer (holds N) q (d_val dc)))))).
Proof. intros N strict q e q2 dc j. exact (steps_of_filtered N strict q e q2 j dc). Qed.
Print Assumptions C33_partial.
(** The field [title] is tested and then passed through. *)
Definition titles : doc := docu (obj [(B "a", arr [
  obj [(B "title", obj [(B "en", str "x"); (B "de", str "y")]); (B "no", num "1")]; obj [(B "no", num "2")];
  obj [(B "no", num "3"); (B "title", obj [(B "fr", str "u"); (B "en", arr [str "v"])])]])]).
Example C33_example : let q := [SChild (B "a")] in let e := EField [B "title"] in
  let q2 := [SChild (B "title"); SChild (B "en")] in let q' := q ++ SFilter e :: q2 in
  supported q' = true /\ single_names q' /\ predicates_fit true q' /\ good_doc titles /\ limits q' (d_val titles) /\
  filters_meaningful zops q' (d_val titles) /\
  strings (map text (flat_map (fun u => if is_object u && holds zops e u then answer (holds zops) q2 u else [])
    (flat_map elements_in (answer (holds zops) q (d_val titles))))) = ["""x"""; "[""v""]"]%string.
Proof. premises. Qed.

(** So can other fields of the same name, and all fields below a tested one. *)
Definition prices : doc := docu (obj [(B "a", arr [
  obj [(B "price", obj [(B "x", num "1"); (B "y", num "2")]); (B "old", obj [(B "price", num "3")])];
  obj [(B "old", obj [(B "price", num "4")])]])]).
Example C33_same_name : let q := [SChild (B "a")] in let e := EField [B "price"] in
  let q2 := [SChild (B "old"); SChild (B "price")] in let q' := q ++ SFilter e :: q2 in
  supported q' = true /\ single_names q' /\ predicates_fit true q' /\ good_doc prices /\ limits q' (d_val prices) /\
  filters_meaningful zops q' (d_val prices) /\ strings (answer_text (holds zops) q' (d_val prices)) = ["3"]%string.
Proof. premises. Qed.
Example C33_below : let q := [SChild (B "a")] in let e := EField [B "price"] in
  let q2 := [SChild (B "price"); SChildAny] in let q' := q ++ SFilter e :: q2 in
  supported q' = true /\ single_names q' /\ predicates_fit true q' /\ good_doc prices /\ limits q' (d_val prices) /\
  filters_meaningful zops q' (d_val prices) /\ strings (answer_text (holds zops) q' (d_val prices)) = ["1"; "2"]%string.
Proof. premises. Qed.

(** When the remaining steps name a tested field, they are dropped: the query means
    the same as without them, so its output is that of [C32_coded]. *)
Theorem C33_dropped : forall strict q e f, (forall g, In g (fields_in e) -> g <> []) -> In f (fields_in e) ->
  createPathProcessor strict (q ++ SFilter e :: map SChild f) = createPathProcessor strict (q ++ [SFilter e]).
Proof. exact tested_dropped. Qed.
Print Assumptions C33_dropped.
Example C33_dropped_example : let q := [SDesc (B "a"); SSlice (Some 1) None] in let e := EBin BAnd (EField [B "b"; B "c"]) (EField [B "d"]) in
  (forall g, In g (fields_in e) -> g <> []) /\ In [B "b"; B "c"] (fields_in e) /\
  exists p, createPathProcessor false (q ++ SFilter e :: map SChild [B "b"; B "c"]) = Ok p.
Proof.
  split; [intros g [<-|[<-|[]]]; discriminate|]. split; [left; reflexivity|]. cbv zeta. rewrite C33_dropped.
  - eexists. vm_compute. reflexivity.
  - intros g [<-|[<-|[]]]; discriminate.
  - left. reflexivity.
Qed.

(** When they select a tested field in any other way, no file can be queried: the
    table of conditions is filled from an entry before the start of an array. *)
Theorem C33_undefined : forall N strict q e q2 f j file, let q' := q ++ SFilter e :: q2 in
  forallb is_path_step q = true -> forallb is_path_step q2 = true -> fields_ok q' = true -> (strict = true -> single_names q') -> names_fit q' = true ->
  In f (fields_in e) -> lsel q2 (map LKey f) = true -> (forall g, In g (fields_in e) -> q2 <> map SChild g) ->
  exists p, createPathProcessor strict q' = Ok p /\ exists r, serialRun N j p file = UB r.
Proof. intros N strict q e q2 f j file q'. exact (tested_never N strict q e q2 f j file). Qed.
Print Assumptions C33_undefined.
Example C33_undefined_example : let q := [SDesc (B "a")] in let e := EBin BAnd (EField [B "b"; B "c"]) (EField [B "d"]) in
  let q2 := [SDesc (B "c")] in let q' := q ++ SFilter e :: q2 in
  forallb is_path_step q = true /\ forallb is_path_step q2 = true /\ fields_ok q' = true /\ names_fit q' = true /\
  In [B "b"; B "c"] (fields_in e) /\ lsel q2 (map LKey [B "b"; B "c"]) = true /\ (forall g, In g (fields_in e) -> q2 <> map SChild g).
Proof. repeat split; try reflexivity; [left; reflexivity|]. intros g [<-|[<-|[]]]; discriminate. Qed.

(** With [.b] the elements themselves and rejected ones appear in the output; with
    [.*] the code reads outside of an array. *)
Theorem C33_refuted : exists q e k dc out, good_doc dc /\ filters_meaningful zops (q ++ [SFilter e; SChild k]) (d_val dc) /\
  (forall N strict j p, j_major_null j = true -> createPathProcessor strict (q ++ [SFilter e; SChild k]) = Ok p ->
     serialRun N j p (doc_text dc) = Ok (Some out)) /\
  out <> answer_text (holds zops) (q ++ [SFilter e; SChild k]) (d_val dc) /\
  (forall N strict j p, j_major_null j = true -> createPathProcessor strict (q ++ [SFilter e; SChildAny]) = Ok p ->
     serialRun N j p (doc_text dc) = UB OOBRead).
Proof.
  exists [SChild (B "a")], (EField [B "b"]), (B "b"), two_elems, [B """x"""; B "{""b"": ""x""}"; B "{""c"": ""y""}"].
  split; [apply good_checked; vm_compute; reflexivity|]. split; [apply meaningful_checked; vm_compute; reflexivity|].
  split; [exact tested_field_run|]. split; [vm_compute; discriminate|exact tested_any_run].
Qed.
Print Assumptions C33_refuted.

(** * C34: slices and filters after descendant steps *)
Definition C34_full : Prop := forall N strict q1 q2 dc j p,
  restricted_before_desc false q1 = true -> good_doc dc -> j_major_null j = true -> filters_meaningful N (q1 ++ q2) (d_val dc) ->
  createPathProcessor strict (q1 ++ q2) = Ok p ->
  serialRun N j p (doc_text dc) = Ok (Some (answer_text (holds N) (q1 ++ q2) (d_val dc))).
(** Missing here and in [C34_filters]: more than one slice or filter; the slice [0:0];
    documents in which an element that the slice or filter could apply to lies within
    another one. *)
Theorem C34_partial : forall N strict q1 lo hi q2 dc j,
  let q := q1 ++ SSlice lo hi :: q2 in
  forallb is_path_step q1 = true -> forallb is_path_step q2 = true -> slice_ok (SSlice lo hi) = true -> names_fit q = true ->
  good_doc dc -> limits (map unsliced q) (d_val dc) -> not_nested q1 (d_val dc) -> j_major_null j = true ->
  exists p, createPathProcessor strict q = Ok p /\
    serialRun N j p (doc_text dc) = Ok (Some (answer_text (fun _ _ => false) q (d_val dc))).
Proof. intros N strict q1 lo hi q2 dc j. exact (single_slice N strict q1 lo hi q2 j dc). Qed.
Print Assumptions C34_partial.
Example C34_example : let q1 := [SDesc (B "tags")] in let q := q1 ++ SSlice (Some 1) None :: [SDescAny] in
  forallb is_path_step q1 = true /\ names_fit q = true /\ good_doc store /\ limits (map unsliced q) (d_val store) /\
  not_nested q1 (d_val store) /\
  strings (answer_text (fun _ _ => false) q (d_val store)) = ["""inner"""; """inner"""]%string.
Proof. premises. Qed.

(** The same for a filter. *)
Theorem C34_filters : forall N strict q1 e q2 dc j,
  let q := q1 ++ SFilter e :: q2 in
  forallb is_path_step q1 = true -> forallb is_path_step q2 = true -> q2 <> [] -> untested q = true ->
  fields_ok q = true -> (strict = true -> single_names q) -> names_fit q = true -> predicates_fit strict q ->
  good_doc dc -> limits q (d_val dc) -> filters_meaningful N q (d_val dc) -> not_nested q1 (d_val dc) -> j_major_null j = true ->
  exists p, createPathProcessor strict q = Ok p /\
    serialRun N j p (doc_text dc) = Ok (Some (answer_text (holds N) q (d_val dc))).
Proof. intros N strict q1 e q2 dc j. exact (desc_answer N strict q1 e q2 j dc). Qed.
Print Assumptions C34_filters.
Example C34_filters_example : let q1 := [SDesc (B "book")] in let e := EBin BLt (EField [B "price"]) (ENum false (B "10")) in
  let q2 := [SDesc (B "title")] in let q := q1 ++ SFilter e :: q2 in
  forallb is_path_step q1 = true /\ forallb is_path_step q2 = true /\ untested q = true /\ fields_ok q = true /\ single_names q /\
  names_fit q = true /\ predicates_fit true q /\ good_doc store /\ limits q (d_val store) /\ filters_meaningful zops q (d_val store) /\
  not_nested q1 (d_val store) /\ strings (answer_text (holds zops) q (d_val store)) = ["""x\""y"""; """inner"""]%string.
Proof. premises. Qed.

(** Whatever the document, and with any number of slices: exactly the values that
    [coded] describes. *)
Theorem C34_coded : forall N strict q dc j,
  slice_query q = true -> forallb slice_ok q = true -> names_fit q = true ->
  good_doc dc -> limits (map unsliced q) (d_val dc) -> j_major_null j = true ->
  exists p, createPathProcessor strict q = Ok p /\ serialRun N j p (doc_text dc) = Ok (Some (coded_text q (d_val dc))).
Proof. intros N strict q dc j. exact (coded_answer N strict q j dc). Qed.
Print Assumptions C34_coded.
(** Here this is not what the query asks for. *)
Example C34_coded_example : let q := q_desc_slice in
  slice_query q = true /\ forallb slice_ok q = true /\ names_fit q = true /\
  good_doc nested_a /\ limits (map unsliced q) (d_val nested_a) /\
  strings (coded_text q (d_val nested_a)) = ["""w"""]%string /\
  strings (answer_text (fun _ _ => false) q (d_val nested_a)) = ["""w"""; """y"""]%string.
Proof. premises. Qed.

Theorem C34_refuted : exists q q' dc dc' out, good_doc dc /\ good_doc dc' /\ filters_meaningful zops q' (d_val dc') /\
  (forall N strict j p, j_major_null j = true -> createPathProcessor strict q = Ok p -> serialRun N j p (doc_text dc) = Ok (Some out)) /\
  (forall strict j p, j_major_null j = true -> createPathProcessor strict q' = Ok p -> serialRun zops j p (doc_text dc') = Ok (Some [])) /\
  out <> answer_text (holds zops) q (d_val dc) /\ answer_text (holds zops) q' (d_val dc') <> [].
Proof.
  exists q_desc_slice, q_desc_filter, nested_a, nested_filter, [B """w"""].
  split; [apply good_checked; vm_compute; reflexivity|]. split; [apply good_checked; vm_compute; reflexivity|].
  split; [apply meaningful_checked; vm_compute; reflexivity|].
  split; [exact desc_slice_run|]. split; [exact desc_filter_run|]. split; vm_compute; discriminate.
Qed.
Print Assumptions C34_refuted.

(** * C39: serialRun only releases what it has allocated *)
Definition C39_full : Prop := forall N strict q p dc j,
  createPathProcessor strict q = Ok p -> good_doc dc -> limits q (d_val dc) -> supported q = true ->
  serialRun N j p (doc_text dc) <> UB UninitRead.
(** Missing: the pointer that was never set must happen to be NULL.  For all these
    queries and documents nothing else matters. *)
Theorem C39_partial : forall N strict q p dc j,
  supported q = true -> (strict = true -> single_names q) -> predicates_fit strict q ->
  good_doc dc -> limits q (d_val dc) -> filters_meaningful N q (d_val dc) -> createPathProcessor strict q = Ok p ->
  serialRun N j p (doc_text dc) <> UB UninitRead <-> j_major_null j = true.
Proof. intros N strict q p dc j. exact (release N strict q p j dc). Qed.
Print Assumptions C39_partial.
Example C39_example : supported q_two = true /\ single_names q_two /\ predicates_fit true q_two /\
  good_doc shelves /\ limits q_two (d_val shelves) /\ filters_meaningful zops q_two (d_val shelves) /\
  (exists p, createPathProcessor true q_two = Ok p).
Proof. premises. eexists. vm_compute. reflexivity. Qed.

(** For every compiled query and every file. *)
Theorem C39_always : forall N f p file out,
  serialRun N (mkJunk f true) p file = Ok out -> serialRun N (mkJunk f false) p file = UB UninitRead.
Proof. exact release_junk. Qed.
Print Assumptions C39_always.

(** Unless the variable happens to hold NULL, destroyStreamingContext follows a
    pointer that was never set. *)
Theorem C39_refuted : exists q dc, supported q = true /\ good_doc dc /\ limits q (d_val dc) /\
  forall N strict f p, createPathProcessor strict q = Ok p -> serialRun N (mkJunk f false) p (doc_text dc) = UB UninitRead.
Proof.
  exists [SChild (B "a")], store. split; [reflexivity|]. split; [apply store_good|]. split; [apply store_limits|exact junk_run].
Qed.
Print Assumptions C39_refuted.

(** * C40: every query compiles *)
Definition C40_full : Prop := forall strict q, exists p, createPathProcessor strict q = Ok p.
(** Missing: queries without a step other than [n]; with the strict reading,
    filters that look at fields of fields. *)
Theorem C40_partial : forall strict q, existsb real_step q = true -> (strict = true -> single_names q) ->
  zlen (query_names q) <= name_bound ->
  exists p, createPathProcessor strict q = Ok p /\ dfa_ok (p_dfa p) /\ zlen (x_subtrees (p_ctx p)) = nstates (p_dfa p).
Proof. exact compiles. Qed.
Print Assumptions C40_partial.
Example C40_example : existsb real_step q_tested_any = true /\ single_names q_tested_any /\ zlen (query_names q_tested_any) <= name_bound.
Proof. premises. Qed.
Theorem C40_refuted :
  (forall strict, createPathProcessor strict [] = UB UninitRead) /\
  (forall strict, createPathProcessor strict [SIndex 1] = UB UninitRead) /\
  (exists q, supported q = true /\ createPathProcessor true q = UB UseAfterFree).
Proof.
  split; [exact root_build|]. split; [exact index_build|]. eexists. split; [|exact long_field_build]. reflexivity.
Qed.
Print Assumptions C40_refuted.
