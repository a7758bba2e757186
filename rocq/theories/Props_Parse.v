(** C38: query strings.  Spellings are specified in ParseSpec.v. *)
From Verif Require Import Base Util Spec QueryClass Num FilterSpec PosSpec Claims Builder Eval Loader Run ParseSpec Parser ParseProof FilterProof EndToEnd ClaimProof Findings Samples.
Open Scope Z_scope.

(** Every query, written with the parentheses that conventional precedence asks
    for and blanks anywhere between its words, is understood as these steps. *)
Definition C38_full : Prop := forall q text, Forall good_step q -> written (query_words q) text ->
  exists a, analysisJSONPath text = Some a /\ query_of a = Some (map step_of q).

(** Missing: an [&&] that follows an [||], and remainders, need extra parentheses
    ([careful_step]). *)
Theorem C38_partial : forall q text, Forall good_step q -> forallb careful_step q = true -> written (query_words q) text ->
  exists a, analysisJSONPath text = Some a /\ query_of a = Some (map step_of q).
Proof. exact parsed. Qed.
Print Assumptions C38_partial.

(** [$.store..book[?(!@.isbn && (@.price - -1.5) * 2 <= 20 || @.title.en != 'x\'y')][ -2 : ].*] with various blanks. *)
Definition c_filter : cexpr :=
  CBin BOr
    (CBin BAnd (CNot (CField [B "isbn"]))
       (CBin BLe (CBin BMul (CParen (CBin BSub (CField [B "price"]) (CNum true (B "1.5")))) (CNum false (B "2"))) (CNum false (B "20"))))
    (CBin BNeq (CField [B "title"; B "en"]) (CStr SQ (B "x\'y"))).
Definition c_query : list cstep :=
  [KChild (B "store"); KDesc (B "book"); KFilter c_filter; KSlice (Some (true, B "2")) None; KChildAny].
Definition c_text : bytes :=
  B "$.store ..book[?(!@.isbn&&(@.price--1.5)*2 <= 20||@.title.en  != 'x\'y')][ -2 : ].* ".
Ltac word b := match goal with |- written (?w :: ?ws) ?s =>
  let s' := eval vm_compute in (skipn (List.length b + List.length w) s) in
  change (written (w :: ws) (b ++ w ++ s')); apply W_word; [reflexivity|] end.
Example C38_example : Forall good_step c_query /\ forallb careful_step c_query = true /\ written (query_words c_query) c_text.
Proof.
  split.
  { assert (Hn : forall l, forallb is_name l = true -> Forall (fun k => is_name k = true) l) by (intros l H; apply Forall_forall; rewrite forallb_forall in H; exact H).
    apply Forall_cons; [reflexivity|]. apply Forall_cons; [reflexivity|]. apply Forall_cons; [|apply Forall_cons; [|apply Forall_cons; [exact I|constructor]]].
    - split; [|reflexivity]. cbn [good_words c_filter].
      refine (conj (conj (Hn _ _) (conj (conj (conj (Hn _ _) _) _) _)) (conj (Hn _ _) (conj (or_intror _) _))); try reflexivity; try (left; reflexivity).
      right. exists (B "1"), (B "5"). repeat split.
    - split; [left; discriminate|]. split; intros n E; [|discriminate]. injection E as <-. split; [reflexivity|vm_compute; discriminate]. }
  split; [reflexivity|].
  let ws := eval vm_compute in (query_words c_query) in change (query_words c_query) with ws.
  let s := eval vm_compute in c_text in change c_text with s.
  repeat first [word (@nil ascii)|word (B " ")|word (B "  ")]. apply W_end. reflexivity.
Qed.

(** From the query string to the answers, with the conditions of the theorems on
    answers. *)
Theorem C38_answers : forall N strict q text dc j, Forall good_step q -> forallb careful_step q = true -> written (query_words q) text ->
  supported (map step_of q) = true -> (strict = true -> single_names (map step_of q)) -> predicates_fit strict (map step_of q) ->
  good_doc dc -> limits (map step_of q) (d_val dc) -> filters_meaningful N (map step_of q) (d_val dc) -> j_major_null j = true ->
  exists p, createFromString strict text = Some (Ok p) /\
    serialRun N j p (doc_text dc) = Ok (Some (answer_text (holds N) (map step_of q) (d_val dc))).
Proof.
  intros N strict q text dc j H1 H2 H3 H4 H5 H6 H7 H8 H9 H10.
  destruct (serial_answer N strict (map step_of q) j dc H4 H5 H6 H7 H8 H9 H10) as (p & Hp & Hr).
  exists p. split; [|exact Hr]. rewrite (compiled_from_string strict q text H1 H2 H3), Hp. reflexivity.
Qed.
Print Assumptions C38_answers.

(** [$.s[?(@.a == 'x' && !@.c)].t] on two objects, one of them with a field c. *)
Definition n_query : list cstep :=
  [KChild (B "s"); KFilter (CBin BAnd (CBin BEq (CField [B "a"]) (CStr SQ (B "x"))) (CNot (CField [B "c"]))); KChild (B "t")].
Definition n_text : bytes := B "$.s[?(@.a == 'x' && !@.c)].t".
Definition n_doc : doc := docu (obj [(B "s", arr [obj [(B "a", str "x"); (B "b", str "y"); (B "t", str "1")]; obj [(B "a", str "x"); (B "c", str "y"); (B "t", str "2")]])]).
Example C38_answers_example : Forall good_step n_query /\ forallb careful_step n_query = true /\ written (query_words n_query) n_text /\
  supported (map step_of n_query) = true /\ single_names (map step_of n_query) /\ predicates_fit true (map step_of n_query) /\
  good_doc n_doc /\ limits (map step_of n_query) (d_val n_doc) /\ filters_meaningful zops (map step_of n_query) (d_val n_doc) /\
  strings (answer_text (holds zops) (map step_of n_query) (d_val n_doc)) = ["""1"""]%string.
Proof.
  split. { repeat (apply Forall_cons; [first [reflexivity|split; [|reflexivity]; repeat split; first [right; reflexivity|repeat constructor]]|]). constructor. }
  split; [reflexivity|].
  split. { let ws := eval vm_compute in (query_words n_query) in change (query_words n_query) with ws.
    let s := eval vm_compute in n_text in change n_text with s.
    repeat first [word (@nil ascii)|word (B " ")]. apply (W_end []). reflexivity. }
  split; [vm_compute; reflexivity|]. split; [apply single_checked; vm_compute; reflexivity|]. split; [apply fit_checked; vm_compute; reflexivity|].
  split; [apply good_checked; vm_compute; reflexivity|]. split; [apply limits_checked; vm_compute; reflexivity|]. split; [apply meaningful_checked; vm_compute; reflexivity|].
  vm_compute. reflexivity.
Qed.

(** [a || b && c] is read as [(a || b) && c]. *)
Definition fld (s : string) : cexpr := CField [B s].
Arguments fld s%string.
Theorem C38_refuted : exists q text a q', Forall good_step q /\ written (query_words q) text /\
  analysisJSONPath text = Some a /\ query_of a = Some q' /\ q' <> map step_of q /\
  q' = [SFilter (EBin BAnd (EBin BOr (EField [B "a"]) (EField [B "b"])) (EField [B "c"]))].
Proof.
  exists [KFilter (CBin BOr (fld "a") (CBin BAnd (fld "b") (fld "c")))], (B "$[?(@.a || @.b && @.c)]"). eexists. eexists.
  split. { apply Forall_cons; [|constructor]. split; [|reflexivity]. repeat split; repeat constructor. }
  split. { let ws := eval vm_compute in (query_words [KFilter (CBin BOr (fld "a") (CBin BAnd (fld "b") (fld "c")))]) in change (written ws (B "$[?(@.a || @.b && @.c)]")).
    let s := eval vm_compute in (B "$[?(@.a || @.b && @.c)]") in change (B "$[?(@.a || @.b && @.c)]") with s.
    repeat first [word (@nil ascii)|word (B " ")|word (B "  ")]. apply (W_end []). reflexivity. }
  split; [vm_compute; reflexivity|]. split; [vm_compute; reflexivity|]. split; [discriminate|reflexivity].
Qed.
Print Assumptions C38_refuted.

(** [a % 2 == 1] is read as [a % (2 == 1)]. *)
Theorem C38_refuted_remainder : exists q text a q', Forall good_step q /\ written (query_words q) text /\
  analysisJSONPath text = Some a /\ query_of a = Some q' /\ q' <> map step_of q /\
  q' = [SFilter (EBin BMod (EField [B "a"]) (EBin BEq (ENum false (B "2")) (ENum false (B "1"))))].
Proof.
  exists [KFilter (CBin BEq (CBin BMod (fld "a") (CNum false (B "2"))) (CNum false (B "1")))], (B "$[?(@.a%2==1)]"). eexists. eexists.
  split. { apply Forall_cons; [|constructor]. split; [|reflexivity]. repeat split; try (repeat constructor; fail); left; reflexivity. }
  split. { let ws := eval vm_compute in (query_words [KFilter (CBin BEq (CBin BMod (fld "a") (CNum false (B "2"))) (CNum false (B "1")))]) in change (written ws (B "$[?(@.a%2==1)]")).
    let s := eval vm_compute in (B "$[?(@.a%2==1)]") in change (B "$[?(@.a%2==1)]") with s.
    repeat first [word (@nil ascii)|word (B " ")|word (B "  ")]. apply (W_end []). reflexivity. }
  split; [vm_compute; reflexivity|]. split; [vm_compute; reflexivity|]. split; [discriminate|reflexivity].
Qed.
Print Assumptions C38_refuted_remainder.

(** Names in brackets and lists of indices disappear; characters that belong to
    no word are skipped. *)
Theorem C38_refuted_ignored : forall strict,
  createFromString strict (B "$['a'].b") = createFromString strict (B "$.b") /\
  createFromString strict (B "$.a[0,1].b") = createFromString strict (B "$.a.b") /\
  createFromString strict (B "$.#a") = createFromString strict (B "$.a") /\
  createFromString strict (B "$.a") <> None /\ createFromString strict (B "$.b") <> None /\ createFromString strict (B "$.a.b") <> None.
Proof. intros strict. repeat split; try reflexivity; destruct strict; vm_compute; discriminate. Qed.
Print Assumptions C38_refuted_ignored.

(** What the first of these does to answers: the filter loses an object that
    satisfies [a || b && c]. *)
Definition ab_doc : doc := docu (obj [(B "s", arr [obj [(B "a", str "x"); (B "b", str "y"); (B "t", str "1")]; obj [(B "a", str "x"); (B "c", str "y"); (B "t", str "2")]])]).
Theorem C38_refuted_answers : exists q text dc p out, written (query_words q) text /\ good_doc dc /\
  createFromString false text = Some (Ok p) /\ serialRun zops j0 p (doc_text dc) = Ok (Some out) /\
  List.length out = 1%nat /\ List.length (answer_text (holds zops) (map step_of q) (d_val dc)) = 2%nat.
Proof.
  exists [KChild (B "s"); KFilter (CBin BOr (fld "a") (CBin BAnd (fld "b") (fld "c"))); KChild (B "t")], (B "$.s[?(@.a || @.b && @.c)].t"), ab_doc. eexists. eexists.
  split. { let ws := eval vm_compute in (query_words [KChild (B "s"); KFilter (CBin BOr (fld "a") (CBin BAnd (fld "b") (fld "c"))); KChild (B "t")]) in change (written ws (B "$.s[?(@.a || @.b && @.c)].t")).
    let s := eval vm_compute in (B "$.s[?(@.a || @.b && @.c)].t") in change (B "$.s[?(@.a || @.b && @.c)].t") with s.
    repeat first [word (@nil ascii)|word (B " ")|word (B "  ")]. apply (W_end []). reflexivity. }
  split; [apply good_checked; vm_compute; reflexivity|]. split; [vm_compute; reflexivity|]. split; [vm_compute; reflexivity|].
  split; vm_compute; reflexivity.
Qed.
Print Assumptions C38_refuted_answers.
