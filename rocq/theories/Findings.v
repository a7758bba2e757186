(** Inputs on which the code does not do what the properties ask for.  Each lemma
    runs the model on concrete input. *)
From Verif Require Import Base Util Spec QueryClass PosSpec Claims Lexer Dfa Stream Num FilterSpec Builder Eval Filter Loader Run Samples.
Open Scope Z_scope.

Ltac run_it :=
  let H := fresh in
  intros; match goal with s : bool |- _ => destruct s | _ => idtac end;
  match goal with j : junk |- _ => destruct j as [? ?]; cbn [j_major_null] in *; subst | _ => idtac end;
  match goal with Hp : createPathProcessor _ _ = Ok _ |- _ => vm_compute in Hp; injection Hp as <- end;
  vm_compute; reflexivity.

(** What the serial run of a query does on a document, whatever the numbers, the
    compilation mode and the content of unset variables. *)
Definition outcome (q : query) (dc : doc) (r : res (option (list bytes))) : Prop :=
  forall N strict j p, j_major_null j = true -> createPathProcessor strict q = Ok p -> serialRun N j p (doc_text dc) = r.

(** A number before a closing brace without a blank after the colon. *)
Definition tight : doc := docu (obj0 [(B "a", num "1")]).
Lemma tight_run : outcome [SChild (B "a")] tight (Ok (Some [B "1}"])).
Proof. unfold outcome. run_it. Qed.

(** A slice after a descendant step. *)
Definition nested_a : doc := docu (obj [(B "a", arr [str "w"; obj [(B "a", arr [str "y"; str "z"])]])]).
Definition q_desc_slice : query := [SDesc (B "a"); SSlice (Some 0) (Some 1)].
Lemma desc_slice_run : outcome q_desc_slice nested_a (Ok (Some [B """w"""])).
Proof. unfold outcome. run_it. Qed.

(** The slice [0:0]. *)
Definition q_empty_slice : query := [SChild (B "a"); SSlice (Some 0) (Some 0)].
Lemma empty_slice_run : outcome q_empty_slice nested_a (Ok (Some [B """w"""; B "{""a"": [""y"",""z""]}"])).
Proof. unfold outcome. run_it. Qed.

(** An index. *)
Definition q_index : query := [SChild (B "a"); SIndex 1].
Lemma index_run : outcome q_index nested_a (Ok (Some [B "[""w"",{""a"": [""y"",""z""]}]"])).
Proof. unfold outcome. run_it. Qed.

(** Filters. *)
Definition has_b : step := SFilter (EField [B "b"]).
Definition two_elems : doc := docu (obj [(B "a", arr [obj [(B "b", str "x")]; obj [(B "c", str "y")]])]).
Definition q_final_filter : query := [SChild (B "a"); has_b].
Lemma final_filter_run : outcome q_final_filter two_elems (Ok (Some [B """x"""; B "{""b"": ""x""}"; B "{""c"": ""y""}"])).
Proof. unfold outcome. run_it. Qed.
Definition q_tested_field : query := [SChild (B "a"); has_b; SChild (B "b")].
Lemma tested_field_run : outcome q_tested_field two_elems (Ok (Some [B """x"""; B "{""b"": ""x""}"; B "{""c"": ""y""}"])).
Proof. unfold outcome. run_it. Qed.
Definition q_tested_any : query := [SChild (B "a"); has_b; SChildAny].
Lemma tested_any_run : outcome q_tested_any two_elems (UB OOBRead).
Proof. unfold outcome. run_it. Qed.

(** Comparisons with a field that is absent or is not a number (the numbers are
    integers here). *)
Definition below (f : string) (n : string) : step := SFilter (EBin BLt (EField [B f]) (ENum false (B n))).
Arguments below (f n)%string.
Definition outcome_z (q : query) (dc : doc) (r : res (option (list bytes))) : Prop :=
  forall strict j p, j_major_null j = true -> createPathProcessor strict q = Ok p -> serialRun zops j p (doc_text dc) = r.
Definition q_absent : query := [SChild (B "a"); below "price" "10"; SChild (B "c")].
Lemma absent_run : outcome_z q_absent two_elems (Ok (Some [B """y"""])).
Proof. unfold outcome_z. run_it. Qed.
Definition q_string_field : query := [SChild (B "a"); below "b" "10"; SChild (B "c")].
Lemma string_field_run : outcome_z q_string_field two_elems (UB TypePun).
Proof. unfold outcome_z. run_it. Qed.

(** A filter after a descendant step. *)
Definition nested_filter : doc :=
  docu (obj [(B "a", arr [obj [(B "b", num "0"); (B "c", obj [(B "a", arr [obj [(B "b", num "1"); (B "c", str "q")]])])]])]).
Definition above (f : string) (n : string) : step := SFilter (EBin BGt (EField [B f]) (ENum false (B n))).
Arguments above (f n)%string.
Definition q_desc_filter : query := [SDesc (B "a"); above "b" "0"; SChild (B "c")].
Lemma desc_filter_run : outcome_z q_desc_filter nested_filter (Ok (Some [])).
Proof. unfold outcome_z. run_it. Qed.

(** Too deep nesting. *)
Fixpoint nest (n : nat) (v : json) : json := match n with O => v | S n' => arr [nest n' v] end.
Definition deep (n : nat) : doc :=
  docu (obj [(B "x", arr [nest n (str "k"); obj [(B "a", str "inside")]]); (B "a", str "top")]).
Lemma deep_run101 : outcome [SChild (B "a")] (deep 98) (Ok (Some [])).
Proof. unfold outcome. run_it. Qed.
Lemma deep_run102 : outcome [SChild (B "a")] (deep 99) (Ok (Some [B """inside"""; B """top"""])).
Proof. unfold outcome. run_it. Qed.

(** Blanks before the document. *)
Definition shifted : doc := mkDoc (B "  ") (obj [(B "a", arr [str "x"; str "y"]); (B "b", str "z")]) [].
Lemma shifted_run : outcome [SChild (B "a")] shifted (Ok (Some [B "x"",""y""],"""])).
Proof. unfold outcome. run_it. Qed.

(** A line break after a number. *)
Definition broken_line : doc := docu (JArr [] (ECons [] (num "1") [LF] (ECons [] (num "2") [] ENil))).
Definition one_line : doc := docu (arr [num "1"; num "2"]).
Lemma broken_line_run : outcome [SAll] broken_line (Ok (Some [B "1" ++ [LF]; B "2"])).
Proof. unfold outcome. run_it. Qed.
Lemma one_line_run : outcome [SAll] one_line (Ok (Some [B "1"; B "2"])).
Proof. unfold outcome. run_it. Qed.

(** After a document that the lexer does not read exactly, the automaton is not
    in its initial configuration. *)
Definition split_key : doc :=
  docu (JObj [] (MCons (mkPad [] [LF] [] []) (B "a") (arr [obj []]) (mems pad1 [(B "b", str "x")]))).
Lemma split_key_core : forall strict p, createPathProcessor strict [SChild (B "b")] = Ok p ->
  executeAutomaton (p_dfa p) (doc_text split_key) init_core
  = Ok (mkCore [SLB; SLCB] [mkElt 1 0 MInv] (mkElt 0 1 MInv) []).
Proof. run_it. Qed.

(** The unset pointer that destroyStreamingContext looks at. *)
Lemma junk_run : forall N strict f p, createPathProcessor strict [SChild (B "a")] = Ok p ->
  serialRun N (mkJunk f false) p (doc_text store) = UB UninitRead.
Proof. run_it. Qed.

(** Queries that do not compile. *)
Lemma root_build strict : createPathProcessor strict [] = UB UninitRead.
Proof. vm_compute. reflexivity. Qed.
Lemma index_build strict : createPathProcessor strict [SIndex 1] = UB UninitRead.
Proof. vm_compute. reflexivity. Qed.
Lemma long_field_build : createPathProcessor true [SChild (B "a"); SFilter (EField [B "b"; B "c"]); SChild (B "d")] = UB UseAfterFree.
Proof. vm_compute. reflexivity. Qed.
Lemma empty_slice_build strict : exists d x, build strict [SChild (B "a"); SSlice (Some 0) (Some 0); SChild (B "b")] = Ok (d, x).
Proof. destruct strict; vm_compute; eauto. Qed.
