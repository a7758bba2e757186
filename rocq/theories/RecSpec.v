(** Files that hold several JSON texts, one after the other (for instance one per
    line).  Nothing here refers to the model of the code. *)
From Verif Require Import Base Spec QueryClass Claims.
Open Scope Z_scope.

(** The texts one after the other, with the white space around each of them. *)
Definition records_text (ds : list doc) : bytes := concat (map doc_text ds).

(** The values of all records that the query selects, record by record. *)
Definition records_answer (holds : expr -> json -> bool) (q : query) (ds : list doc) : list bytes :=
  concat (map (fun dc => answer_text holds q (d_val dc)) ds).

(** Every record is an object or array in a layout on which the lexer is exact, the
    file does not start with a blank and is small enough for one load. *)
Record good_records (ds : list doc) : Prop := {
  gr_some  : ds <> [];
  gr_wf    : Forall (fun dc => wf_doc dc = true /\ lex_safe (d_val dc) = true) ds;
  gr_blank : match ds with dc :: _ => no_leading_blank dc = true | [] => True end;
  gr_size  : zlen (records_text ds) <= 250000000
}.

(** The sizes of the buffers: each record by itself is within the limits, and all
    of them together have at most as many values as the output has room for. *)
Definition records_limits (q : query) (ds : list doc) : Prop :=
  Forall (fun dc => limits q (d_val dc)) ds /\
  zlen (concat (map (fun dc => nodes [] (d_val dc)) ds)) <= 800000.
