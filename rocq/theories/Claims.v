(** Vocabulary of the property statements.  Nothing here refers to the model of
    the code. *)
From Coq Require Import Sorting.Sorted.
From Verif Require Import Base Spec QueryClass PosSpec.
Open Scope Z_scope.

(** The stream does not start with a blank. *)
Definition no_leading_blank (dc : doc) : bool :=
  match d_pre dc with c :: _ => negb (Ascii.eqb c " "%char) | [] => true end.

(** Documents that are read exactly: well-formed JSON whose top-level value is an
    object or array, in a layout on which the lexer is exact (see Spec.v), not
    preceded by a blank, and small enough for one load. *)
Record good_doc (dc : doc) : Prop := {
  gd_wf    : wf_doc dc = true;
  gd_safe  : lex_safe (d_val dc) = true;
  gd_blank : no_leading_blank dc = true;
  gd_size  : zlen (doc_text dc) <= 250000000
}.

(** Queries made of names, wildcards, descendant steps and slices. *)
Definition is_slice_or_path (s : step) : bool :=
  is_path_step s || match s with SSlice _ _ => true | _ => false end.
Definition slice_query (q : query) : bool := nonempty q && forallb is_slice_or_path q.

(** The filter variables that the compiler handles without touching released
    memory: a single name. *)
Definition single_names (q : query) : Prop := forall f, In f (query_fields q) -> (List.length f <= 1)%nat.

(** Values of the document in the order in which they end, with positions. *)
Definition in_completion_order (dc : doc) (l : list (Z * json)) : Prop :=
  Forall (fun s => In s (doc_spans dc) /\ written_at (doc_text dc) (fst s) (text (snd s))) l /\
  StronglySorted (fun a b => span_end a < span_end b) l.
